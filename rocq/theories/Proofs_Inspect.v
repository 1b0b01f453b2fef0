From Verif Require Import Base Model_Inspect Spec_Inspect.

Lemma exists_in s t : fignum_exists s t = true <-> In t (map fst s).
Proof.
  unfold fignum_exists, get. induction s as [|[a f] s IH]; cbn; [easy|]. destruct (Nat.eqb_spec a t) as [E|N]; cbn.
  - intuition.
  - rewrite IH. intuition.
Qed.
Lemma map_put_titles s t (f : figure) : map fst (map (fun x => if Nat.eqb (fst x) t then (t, f) else x) s) = map fst s.
Proof.
  rewrite map_map. apply map_ext_in. intros [a g] _. cbn. destruct (Nat.eqb_spec a t); cbn; auto.
Qed.
Lemma put_titles s t f t' : In t' (map fst (put s t f)) <-> In t' (map fst s) \/ t' = t.
Proof.
  unfold put. destruct (fignum_exists s t) eqn:E.
  - rewrite map_put_titles. apply exists_in in E. split; [auto|]. intros [H|H]; subst; auto.
  - rewrite map_app, in_app_iff. cbn. intuition.
Qed.
Lemma get_put s t f : get (put s t f) t = Some f.
Proof.
  unfold put. destruct (fignum_exists s t) eqn:E.
  - unfold fignum_exists, get in *. induction s as [|[a g] s IH]; cbn in *; [easy|]. destruct (Nat.eqb_spec a t) as [->|N]; cbn.
    + rewrite Nat.eqb_refl. reflexivity.
    + replace (Nat.eqb a t) with false by (symmetry; apply Nat.eqb_neq; auto). apply IH. exact E.
  - unfold fignum_exists, get in *. induction s as [|[a g] s IH]; cbn in *; [rewrite Nat.eqb_refl; reflexivity|].
    destruct (Nat.eqb a t); cbn in *; [easy|]. auto.
Qed.
Lemma get_put_other s t f t' : t' <> t -> get (put s t f) t' = get s t'.
Proof.
  intros N. unfold put. destruct (fignum_exists s t).
  - unfold get. induction s as [|[a g] s IH]; cbn; auto. destruct (Nat.eqb_spec a t) as [->|NE]; cbn.
    + replace (Nat.eqb t t') with false by (symmetry; apply Nat.eqb_neq; auto). exact IH.
    + destruct (Nat.eqb a t'); cbn; auto.
  - unfold get. induction s as [|[a g] s IH]; cbn.
    + replace (Nat.eqb t t') with false by (symmetry; apply Nat.eqb_neq; auto). reflexivity.
    + destruct (Nat.eqb a t'); cbn; auto.
Qed.
Lemma get_in s t f : get s t = Some f -> In t (map fst s).
Proof. intros H. apply exists_in. unfold fignum_exists. rewrite H. reflexivity. Qed.

Section Proofs.
Context {M D : Type}.
Variable base : nat.
Variables (pl last : option R) (rp : bool) (m : M) (d : option D).
Lemma level_ok_spec l : level_ok pl l = true <-> level_shown pl l.
Proof. unfold level_ok, level_shown. destruct pl; [|intuition]. destruct (Rle_dec l r); intuition discriminate. Qed.
Lemma check_spec c : check c m d = Ok true <-> holds c m d.
Proof.
  unfold check, holds. destruct c as [c|]; [|intuition]. destruct (c m None) as [b|e] eqn:E.
  - split; [auto|]. intros [H|[H _]]; auto; discriminate.
  - destruct e; split; intros H; try discriminate; auto; try (destruct H as [H|[H ?]]; auto; discriminate).
Qed.
Lemma closed_put s t f : left_closed last rp s t = false -> forall t', left_closed last rp (put s t f) t' = left_closed last rp s t'.
Proof.
  intros C t'. unfold left_closed in *. destruct last; auto. destruct rp; cbn in *; auto. f_equal.
  destruct (fignum_exists s t) eqn:E; [|discriminate]. destruct (fignum_exists s t') eqn:E'.
  - apply exists_in. apply put_titles. left. apply exists_in. auto.
  - destruct (fignum_exists (put s t f) t') eqn:E2; auto. apply exists_in in E2. apply put_titles in E2. destruct E2 as [E2| ->]; [apply exists_in in E2|]; congruence.
Qed.
Definition shown_plot (s : list (nat * figure)) (p : plot M D) : bool :=
  level_ok pl (level p) && (match check (condition p) m d with Ok b => b | _ => false end) && negb (left_closed last rp s (title p)).
Definition shown_panel (s : list (nat * figure)) (p : panel M D) : bool :=
  level_ok pl (panel_level p) && (match check (panel_condition p) m d with Ok b => b | _ => false end) && negb (left_closed last rp s (panel_title p)).
Definition finished (q : bool) (p : plot M D) : bool := snd (fst (draw q p m d)).
Lemma filter_ext_shown s s' ps : (forall t, left_closed last rp s t = left_closed last rp s' t) -> filter (shown_plot s) ps = filter (shown_plot s') ps.
Proof. intros H. apply filter_ext. intros p. unfold shown_plot. rewrite H. reflexivity. Qed.
Lemma filter_ext_panel s s' ps : (forall t, left_closed last rp s t = left_closed last rp s' t) -> filter (shown_panel s) ps = filter (shown_panel s') ps.
Proof. intros H. apply filter_ext. intros p. unfold shown_panel. rewrite H. reflexivity. Qed.
Lemma individual_ok ps : forall g g', individual base pl last rp m d ps g = (g', Ok tt) ->
  let sel := filter (shown_plot (now_open g)) ps in
  rendered g' = rendered g ++ map title sel /\
  (forall t, In t (map fst (now_open g')) <-> In t (map fst (now_open g)) \/ In t (map title sel)) /\
  (forall t, left_closed last rp (now_open g') t = left_closed last rp (now_open g) t) /\
  drawn g' = drawn g ++ map (fun p => (title p, p)) (filter (finished true) sel) /\
  (forall t, ~ In t (map title sel) -> get (now_open g') t = get (now_open g) t).
Proof.
  induction ps as [|p ps IH]; cbn [individual]; intros g g' H.
  - injection H as <-. cbn. rewrite !app_nil_r. repeat split; intuition.
  - cbn [filter]. cbv zeta.
    assert (SH : shown_plot (now_open g) p = level_ok pl (level p) && (match check (condition p) m d with Ok b => b | _ => false end) && negb (left_closed last rp (now_open g) (title p))) by reflexivity. rewrite SH.
    destruct (level_ok pl (level p)) eqn:LV; cbn [negb andb] in *.
    2:{ apply IH in H. exact H. }
    destruct (check (condition p) m d) as [[|]|e] eqn:CK; cbn [andb] in *; [|apply IH in H; exact H|discriminate].
    destruct (left_closed last rp (now_open g) (title p)) eqn:LC; cbn [negb] in *; [apply IH in H; exact H|].
    destruct (draw true p m d) as [[k done] r] eqn:DR. destruct r as [u|e]; [|discriminate].
    apply IH in H. cbn [rendered now_open drawn] in H. destruct H as [H1 [H2 [H3 [H4 H5]]]].
    rewrite (filter_ext_shown _ (now_open g)) in H1, H2, H4, H5 by (apply closed_put; auto).
    cbn [map]. split; [rewrite H1, <- app_assoc; reflexivity|]. split; [|split; [|split]].
    + intros t. rewrite H2, put_titles. cbn [In]. intuition.
    + intros t. rewrite H3. apply closed_put. auto.
    + rewrite H4. cbn [filter]. unfold finished at 2. rewrite DR. cbn [fst snd]. destruct done; [rewrite <- app_assoc|]; reflexivity.
    + intros t N. cbn [In] in N. rewrite H5 by tauto. apply get_put_other. intuition.
Qed.
Lemma panels_ok ps : forall g g', panels base pl last rp m d ps g = (g', Ok tt) ->
  let sel := filter (shown_panel (now_open g)) ps in
  rendered g' = rendered g ++ map panel_title sel /\
  (forall t, In t (map fst (now_open g')) <-> In t (map fst (now_open g)) \/ In t (map panel_title sel)) /\
  (forall t, left_closed last rp (now_open g') t = left_closed last rp (now_open g) t) /\
  drawn g' = drawn g ++ concat (map (fun q => map (pair (panel_title q)) (snd (fst (panel_plots m d (plots q))))) sel) /\
  (forall q, In q sel -> snd (panel_plots m d (plots q)) = Ok tt) /\
  (forall t, ~ In t (map panel_title sel) -> get (now_open g') t = get (now_open g) t).
Proof.
  induction ps as [|p ps IH]; cbn [panels]; intros g g' H.
  - injection H as <-. cbn. rewrite !app_nil_r. repeat split; intuition.
  - cbn [filter]. cbv zeta.
    assert (SH : shown_panel (now_open g) p = level_ok pl (panel_level p) && (match check (panel_condition p) m d with Ok b => b | _ => false end) && negb (left_closed last rp (now_open g) (panel_title p))) by reflexivity. rewrite SH.
    destruct (level_ok pl (panel_level p)) eqn:LV; cbn [negb andb] in *.
    2:{ apply IH in H. exact H. }
    destruct (check (panel_condition p) m d) as [[|]|e] eqn:CK; cbn [andb] in *; [|apply IH in H; exact H|discriminate].
    destruct (left_closed last rp (now_open g) (panel_title p)) eqn:LC; cbn [negb] in *; [apply IH in H; exact H|].
    destruct (panel_plots m d (plots p)) as [[k l] r] eqn:PP. destruct r as [[]|e]; [|discriminate].
    apply IH in H. cbn [rendered now_open drawn] in H. destruct H as [H1 [H2 [H3 [H4 [H5 H6]]]]].
    rewrite (filter_ext_panel _ (now_open g)) in H1, H2, H4, H5, H6 by (apply closed_put; auto).
    cbn [map concat]. split; [rewrite H1, <- app_assoc; reflexivity|]. split; [|split; [|split; [|split]]].
    + intros t. rewrite H2, put_titles. cbn [In]. intuition.
    + intros t. rewrite H3. apply closed_put. auto.
    + rewrite H4, PP. cbn [fst snd]. rewrite <- app_assoc. reflexivity.
    + intros q [<-|Hq]; [rewrite PP; reflexivity|auto].
    + intros t N. cbn [In] in N. rewrite H6 by tauto. apply get_put_other. intuition.
Qed.
(** No figure is opened by a call that may not reopen any. *)
Lemma put_existing s t f : left_closed last rp s t = false -> last <> None -> rp = false -> map fst (put s t f) = map fst s.
Proof.
  intros C L R. unfold left_closed in C. destruct last; [|easy]. rewrite R in C. cbn in C. unfold put. destruct (fignum_exists s t); [apply map_put_titles|discriminate].
Qed.
Lemma individual_opens ps : last <> None -> rp = false -> forall g, map fst (now_open (fst (individual base pl last rp m d ps g))) = map fst (now_open g).
Proof.
  intros L R. induction ps as [|p ps IH]; cbn [individual]; intros g; [reflexivity|].
  destruct (negb _); auto. destruct (check _ _ _) as [[|]|]; auto. destruct (left_closed last rp (now_open g) (title p)) eqn:LC; auto.
  destruct (draw true p m d) as [[k done] r]. destruct r.
  - rewrite IH. cbn [now_open]. apply put_existing; auto.
  - cbn [fst now_open]. apply put_existing; auto.
Qed.
Lemma panels_opens ps : last <> None -> rp = false -> forall g, map fst (now_open (fst (panels base pl last rp m d ps g))) = map fst (now_open g).
Proof.
  intros L R. induction ps as [|p ps IH]; cbn [panels]; intros g; [reflexivity|].
  destruct (negb _); auto. destruct (check _ _ _) as [[|]|]; auto. destruct (left_closed last rp (now_open g) (panel_title p)) eqn:LC; auto.
  destruct (panel_plots m d (plots p)) as [[k l] r]. destruct r.
  - rewrite IH. cbn [now_open]. apply put_existing; auto.
  - cbn [fst now_open]. apply put_existing; auto.
Qed.
(** What is drawn. *)
Lemma finished_spec q p : finished q p = true <-> succeeds p m d.
Proof.
  unfold finished, draw, succeeds. destruct (plot_func p m None) as [[[]|e] k]; cbn [fst snd].
  - intuition.
  - assert (SN : (Raise e : res unit) = Ok tt -> False) by discriminate.
    destruct e; cbn [fst snd]; try (split; [discriminate|intros [H|[H _]]; discriminate]).
    destruct d as [ds|]; cbn [fst snd].
    + destruct (plot_func p m (Some ds)) as [[[]|e] k'] eqn:E; cbn [fst snd].
      * split; auto. intros _. right. split; auto. exists ds. rewrite E. auto.
      * split; [discriminate|]. intros [H|[_ [ds' [Q H]]]]; [discriminate|]. injection Q as <-. rewrite E in H. discriminate.
    + split; [discriminate|]. intros [H|[_ [ds [Q _]]]]; discriminate.
Qed.
Lemma draw_connects q p : fst (fst (draw q p m d)) = connects p m d.
Proof.
  unfold draw, connects. destruct (plot_func p m None) as [[[]|e] k]; cbn [fst snd]; [lia|].
  destruct e; cbn [fst snd]; try lia. destruct d as [ds|]; cbn [fst snd]; [|lia].
  destruct (plot_func p m (Some ds)) as [[[]|e] k']; reflexivity.
Qed.
Lemma panel_plots_ok ps : snd (panel_plots m d ps) = Ok tt ->
  let sel := filter (fun p => match check (condition p) m d with Ok b => b | _ => false end) ps in
  snd (fst (panel_plots m d ps)) = filter (finished false) sel /\ fst (fst (panel_plots m d ps)) = list_sum (map (fun p => connects p m d) sel).
Proof.
  induction ps as [|p ps IH]; cbn [panel_plots filter]; [auto|]. destruct (check (condition p) m d) as [[|]|e] eqn:CK; auto; [|discriminate].
  pose proof (draw_connects false p) as DC. destruct (draw false p m d) as [[k done] r] eqn:DR. destruct r as [u|]; [|discriminate].
  destruct (panel_plots m d ps) as [[k' l] r'] eqn:PP. cbn [fst snd] in *. intros H. specialize (IH H). cbv zeta in IH. destruct IH as [I1 I2].
  cbn [filter map list_sum fold_right]. unfold finished at 1. rewrite DR. cbn [fst snd]. split.
  - rewrite I1. destruct done; reflexivity.
  - rewrite I2, <- DC. reflexivity.
Qed.

(** Callbacks: the canvas of a panel holds the backend's callbacks and those of the latest rendering. *)
Definition clean (f : figure) : Prop := cids f = seq 0 base ++ render_cids f /\ base <= next_cid f /\ forall c, In c (render_cids f) -> base <= c < next_cid f.
Lemma existsb_In c l : existsb (Nat.eqb c) l = true <-> In c l.
Proof. rewrite existsb_exists. split; [intros [x [H E]]; apply Nat.eqb_eq in E; subst; auto|]. intros H. exists c. split; auto. apply Nat.eqb_refl. Qed.
Lemma filter_all {A} (f : A -> bool) l : (forall x, In x l -> f x = true) -> filter f l = l.
Proof. induction l; cbn; intros H; auto. rewrite H by auto. f_equal. apply IHl. intros. apply H. auto. Qed.
Lemma filter_none {A} (f : A -> bool) l : (forall x, In x l -> f x = false) -> filter f l = [].
Proof. induction l; cbn; intros H; auto. rewrite H by auto. apply IHl. intros. apply H. auto. Qed.
Lemma clean_fresh : clean (fresh base).
Proof. unfold clean, fresh. cbn. rewrite app_nil_r. repeat split; auto; easy. Qed.
Lemma clean_disconnect f : clean f -> cids (disconnect f) = seq 0 base.
Proof.
  intros [C [N R]]. unfold disconnect. cbn [cids]. rewrite C, filter_app, filter_all, filter_none, app_nil_r; auto.
  - intros c Hc. apply existsb_In in Hc. rewrite Hc. reflexivity.
  - intros c Hc. destruct (existsb (Nat.eqb c) (render_cids f)) eqn:E; auto. apply existsb_In in E. apply R in E. apply in_seq in Hc. lia.
Qed.
Lemma clean_render f k : clean f -> let g := disconnect f in
  clean (note_cids (cids g) (connect g k)) /\ length (cids (note_cids (cids g) (connect g k))) = base + k.
Proof.
  intros CF g. pose proof (clean_disconnect f CF) as C. fold g in C. destruct CF as [_ [N R]]. unfold note_cids, connect. cbn [cids next_cid render_cids].
  rewrite C. assert (E : filter (fun c => negb (existsb (Nat.eqb c) (seq 0 base))) (seq 0 base ++ seq (next_cid g) k) = seq (next_cid g) k).
  { rewrite filter_app, filter_none, filter_all; auto.
    - intros c Hc. destruct (existsb (Nat.eqb c) (seq 0 base)) eqn:E; auto. apply existsb_In in E. apply in_seq in E. apply in_seq in Hc. cbn in *. lia.
    - intros c Hc. apply existsb_In in Hc. rewrite Hc. reflexivity. }
  split.
  - unfold clean. cbn [cids next_cid render_cids]. rewrite E. split; auto. split; [cbn in *; lia|]. intros c Hc. apply in_seq in Hc. cbn in *. lia.
  - rewrite app_length, !seq_length. reflexivity.
Qed.
Definition clean_at (s : list (nat * figure)) (t : nat) : Prop := forall f, get s t = Some f -> clean f.
Lemma clean_plt s t : clean_at s t -> clean (plt_figure base s t).
Proof. intros H. unfold plt_figure. destruct (get s t) eqn:E; [apply H; auto|apply clean_fresh]. Qed.
Lemma panels_clean ps : forall g g', panels base pl last rp m d ps g = (g', Ok tt) -> forall t, clean_at (now_open g) t -> clean_at (now_open g') t.
Proof.
  induction ps as [|p ps IH]; cbn [panels]; intros g g' H t C; [injection H as <-; auto|].
  destruct (negb _); [eapply IH; eauto|]. destruct (check _ _ _) as [[|]|]; [|eapply IH; eauto|discriminate]. destruct (left_closed _ _ _ _); [eapply IH; eauto|].
  destruct (panel_plots m d (plots p)) as [[k l] r]. destruct r; [|discriminate]. eapply IH; eauto. cbn [now_open]. intros f. destruct (Nat.eq_dec t (panel_title p)) as [->|N].
  - rewrite get_put. intros Q. injection Q as <-. apply clean_render. apply clean_plt. auto.
  - rewrite get_put_other by auto. apply C.
Qed.
Lemma panels_count ps : forall g g', panels base pl last rp m d ps g = (g', Ok tt) -> (forall p, In p ps -> clean_at (now_open g) (panel_title p)) -> NoDup (map panel_title ps) ->
  forall p, In p (filter (shown_panel (now_open g)) ps) ->
  exists f, get (now_open g') (panel_title p) = Some f /\ length (cids f) = base + fst (fst (panel_plots m d (plots p))).
Proof.
  induction ps as [|q ps IH]; intros g g' H C ND p Hp; [easy|]. pose proof H as H0. cbn [panels] in H. cbn [filter] in Hp. cbn [map] in ND. apply NoDup_cons_iff in ND. destruct ND as [NI ND].
  assert (SH : shown_panel (now_open g) q = level_ok pl (panel_level q) && (match check (panel_condition q) m d with Ok b => b | _ => false end) && negb (left_closed last rp (now_open g) (panel_title q))) by reflexivity. rewrite SH in Hp.
  destruct (level_ok pl (panel_level q)); cbn [negb andb] in *; [|eapply IH; eauto; intros; apply C; cbn; auto].
  destruct (check (panel_condition q) m d) as [[|]|]; cbn [andb] in *; [|eapply IH; eauto; intros; apply C; cbn; auto|discriminate].
  destruct (left_closed last rp (now_open g) (panel_title q)) eqn:LC; cbn [negb] in *; [eapply IH; eauto; intros; apply C; cbn; auto|].
  destruct (panel_plots m d (plots q)) as [[k l] r] eqn:PP. destruct r as [u|]; [|discriminate].
  set (g1 := {| now_open := _; rendered := _; drawn := _ |}) in *.
  destruct Hp as [<-|Hp].
  - apply panels_ok in H. destruct H as [_ [_ [_ [_ [_ H]]]]]. rewrite H.
    + cbn [now_open g1]. rewrite get_put. eexists. split; [reflexivity|]. rewrite PP. cbn [fst]. apply clean_render. apply clean_plt. apply C. cbn. auto.
    + intros Hin. apply NI. apply in_map_iff in Hin. destruct Hin as [x [E Hx]]. rewrite <- E. apply in_map. eapply filter_In; eauto.
  - eapply IH; eauto.
    + intros x Hx f. cbn [now_open g1]. destruct (Nat.eq_dec (panel_title x) (panel_title q)) as [E|N]; [exfalso; apply NI; rewrite <- E; apply in_map; auto|].
      rewrite get_put_other by auto. apply C. cbn. auto.
    + cbn [now_open g1]. rewrite (filter_ext_panel _ (now_open g)) by (apply closed_put; auto). auto.
Qed.
End Proofs.
