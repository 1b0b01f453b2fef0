(** C50: model.inspect() (models/base.py 642-960), over any history of calls, closed and reopened figures. *)
From Verif Require Import Base Model_Inspect Spec_Inspect Proofs_Inspect.

Section C50.
Context {M D : Type}.
Variable base : nat.
Implicit Types (c : config M D) (s : state) (m : M) (d : option D).

Lemma skip_spec s mi t0 :
  (match mi, last_inspected s with Some i, Some t => if Rlt_dec (t0 - t) i then true else false | _, _ => false end) = true <-> too_soon s mi t0.
Proof.
  unfold too_soon. destruct mi as [i|], (last_inspected s) as [t|]; try (split; [discriminate|intros [a [b [E1 [E2 _]]]]; discriminate]).
  destruct (Rlt_dec (t0 - t) i); split; intros H; auto; try discriminate; [exists i, t; auto|]. destruct H as [a [b [E1 [E2 L]]]]. injection E1 as <-. injection E2 as <-. easy.
Qed.
Lemma inspect_unfold c m d rp mi t0 t1 s : ~ too_soon s mi t0 -> inspect base c m d rp mi t0 t1 s =
  (let '(g, r) := (if panel_plot_mode c then
      match panels base (plot_level c) (last_inspected s) rp m d (rev (plot_panel_list c)) {| now_open := open_figs s; rendered := []; drawn := [] |} with
      | (g, Ok _) => individual base (plot_level c) (last_inspected s) rp m d (plot_list c) g
      | e => e
      end
    else individual base (plot_level c) (last_inspected s) rp m d (flatten (plot_panel_list c) ++ plot_list c) {| now_open := open_figs s; rendered := []; drawn := [] |}) in
   match r with
   | Ok _ => ({| open_figs := now_open g; figs := rendered g; last_inspected := Some t1 |}, drawn g, Ok tt)
   | e => ({| open_figs := now_open g; figs := figs s; last_inspected := last_inspected s |}, drawn g, e)
   end).
Proof.
  intros N. unfold inspect. destruct (match mi with Some i => _ | None => _ end) eqn:E; [|reflexivity]. exfalso. apply N. apply skip_spec. exact E.
Qed.

(** A call that comes too soon after the previous one changes nothing; any other call that returns sets the time. *)
Theorem C50_min_interval c m d rp mi t0 t1 s :
  (too_soon s mi t0 -> inspect base c m d rp mi t0 t1 s = (s, [], Ok tt)) /\
  (~ too_soon s mi t0 -> snd (inspect base c m d rp mi t0 t1 s) = Ok tt -> last_inspected (fst (fst (inspect base c m d rp mi t0 t1 s))) = Some t1).
Proof.
  split.
  - intros H. apply skip_spec in H. unfold inspect. rewrite H. reflexivity.
  - intros N. rewrite inspect_unfold by auto. destruct (if panel_plot_mode c then _ else _) as [g [u|e]]; cbn; [auto|discriminate].
Qed.

Lemma left_closed_due s rp t : negb (left_closed (last_inspected s) rp (open_figs s) t) = true <-> due s rp t.
Proof.
  unfold left_closed, due, is_open. destruct (last_inspected s); [|intuition]. destruct rp; cbn; [intuition|]. rewrite Bool.negb_involutive, exists_in. intuition discriminate.
Qed.
Lemma shown_plot_spec c s rp m d p : shown_plot (plot_level c) (last_inspected s) rp m d (open_figs s) p = true <-> plot_due (plot_level c) s rp m d p.
Proof.
  unfold shown_plot, plot_due. rewrite !Bool.andb_true_iff, left_closed_due, level_ok_spec. rewrite <- check_spec. destruct (check (condition p) m d) as [[|]|e]; intuition discriminate.
Qed.
Lemma shown_panel_spec c s rp m d p : shown_panel (plot_level c) (last_inspected s) rp m d (open_figs s) p = true <-> panel_due (plot_level c) s rp m d p.
Proof.
  unfold shown_panel, panel_due. rewrite !Bool.andb_true_iff, left_closed_due, level_ok_spec. rewrite <- check_spec. destruct (check (panel_condition p) m d) as [[|]|e]; intuition discriminate.
Qed.

(** A call that returns, with one figure per plot: the figures drawn are exactly those that are due - registered at
    a shown level, condition true, and not closed by the user - in the order of registration; the plots drawn
    are those among them whose function succeeds; every figure drawn is open afterwards and no other is opened or
    closed. *)
Theorem C50_individual c m d rp mi t0 t1 s s' log : panel_plot_mode c = false -> ~ too_soon s mi t0 ->
  inspect base c m d rp mi t0 t1 s = (s', log, Ok tt) ->
  exists shown, selected (plot_due (plot_level c) s rp m d) (flatten (plot_panel_list c) ++ plot_list c) shown /\
    figs s' = map title shown /\
    (exists ok, selected (fun p => succeeds p m d) shown ok /\ log = map (fun p => (title p, p)) ok) /\
    (forall t, is_open s' t <-> is_open s t \/ In t (figs s')).
Proof.
  intros PM N. rewrite inspect_unfold, PM by auto. destruct (individual _ _ _ _ _ _ _ _) as [g [[]|e]] eqn:E; [|discriminate]. intros H. injection H as <- <-.
  apply individual_ok in E. cbv zeta in E. cbn [rendered now_open drawn] in E. destruct E as [E1 [E2 [_ [E4 _]]]].
  eexists. split; [eexists; split; [apply shown_plot_spec|reflexivity]|]. cbn [figs]. split; [exact E1|]. split.
  - eexists. split; [eexists; split; [apply (finished_spec m d true)|reflexivity]|exact E4].
  - intros t. unfold is_open. cbn [open_figs]. rewrite E2, E1. reflexivity.
Qed.

Lemma filter_twice {A} (f g : A -> bool) l : filter g (filter f l) = filter (fun x => f x && g x)%bool l.
Proof. induction l as [|x l IH]; cbn; auto. destruct (f x); cbn; rewrite IH; reflexivity. Qed.
(** The same in panel mode: panels in reverse order of registration, then the standalone plots; inside a panel, the
    plots whose own condition holds and whose function succeeds. *)
Theorem C50_panel c m d rp mi t0 t1 s s' log : panel_plot_mode c = true -> ~ too_soon s mi t0 ->
  inspect base c m d rp mi t0 t1 s = (s', log, Ok tt) ->
  exists shown_panels shown_plots,
    selected (panel_due (plot_level c) s rp m d) (rev (plot_panel_list c)) shown_panels /\
    selected (plot_due (plot_level c) s rp m d) (plot_list c) shown_plots /\
    figs s' = map panel_title shown_panels ++ map title shown_plots /\
    (exists ok ok', Forall2 (fun q l => selected (fun p => holds (condition p) m d /\ succeeds p m d) (plots q) l) shown_panels ok /\
       selected (fun p => succeeds p m d) shown_plots ok' /\
       log = concat (map (fun ql => map (pair (panel_title (fst ql))) (snd ql)) (combine shown_panels ok)) ++ map (fun p => (title p, p)) ok') /\
    (forall t, is_open s' t <-> is_open s t \/ In t (figs s')).
Proof.
  intros PM N. rewrite inspect_unfold, PM by auto. destruct (panels _ _ _ _ _ _ _ _) as [g1 [[]|e]] eqn:E1; [|discriminate].
  destruct (individual _ _ _ _ _ _ _ _) as [g [[]|e]] eqn:E; [|discriminate]. intros H. injection H as <- <-.
  apply panels_ok in E1. cbv zeta in E1. cbn [rendered now_open drawn] in E1. destruct E1 as [A1 [A2 [A3 [A4 [A5 _]]]]].
  apply individual_ok in E. cbv zeta in E. destruct E as [B1 [B2 [_ [B4 _]]]].
  rewrite (filter_ext_shown _ _ _ _ _ _ (open_figs s)) in B1, B2, B4 by exact A3.
  set (sp := filter (shown_panel _ _ _ _ _ _) _) in *. set (sl := filter (shown_plot _ _ _ _ _ _) _) in *.
  exists sp, sl. split; [eexists; split; [apply shown_panel_spec|reflexivity]|]. split; [eexists; split; [apply shown_plot_spec|reflexivity]|].
  cbn [figs]. split; [rewrite B1, A1; reflexivity|]. split.
  - exists (map (fun q => snd (fst (panel_plots m d (plots q)))) sp). eexists. split; [|split; [eexists; split; [apply (finished_spec m d true)|reflexivity]|]].
    + clear - A5. induction sp as [|q sp IH]; cbn; constructor; [|apply IH; intros; apply A5; cbn; auto].
      destruct (panel_plots_ok m d (plots q) (A5 q ltac:(cbn; auto))) as [P _]. cbv zeta in P. rewrite P.
      exists (fun p => (match check (condition p) m d with Ok b => b | _ => false end) && finished m d false p)%bool. split.
      * intros p. rewrite Bool.andb_true_iff, finished_spec, <- check_spec. destruct (check (condition p) m d) as [[|]|]; intuition discriminate.
      * apply filter_twice.
    + rewrite B4, A4. cbn [app]. f_equal. f_equal. clear. induction sp as [|q sp IH]; cbn; congruence.
  - intros t. unfold is_open. cbn [open_figs]. rewrite B2, A2, B1, A1, in_app_iff. cbn [app]. tauto.
Qed.

(** A figure the user has closed - or that was never shown - stays closed, whatever calls without replot_all
    follow (returning or not), unless the user opens a figure of that title. *)
Lemma inspect_opens c m d mi t0 t1 s : last_inspected s <> None ->
  map fst (open_figs (fst (fst (inspect base c m d false mi t0 t1 s)))) = map fst (open_figs s) /\
  last_inspected (fst (fst (inspect base c m d false mi t0 t1 s))) <> None.
Proof.
  intros L. unfold inspect. destruct (match mi with Some i => _ | None => _ end); [auto|].
  set (g0 := {| now_open := open_figs s; rendered := []; drawn := [] |}).
  assert (O : map fst (now_open (fst (if panel_plot_mode c then
      match panels base (plot_level c) (last_inspected s) false m d (rev (plot_panel_list c)) g0 with
      | (g, Ok _) => individual base (plot_level c) (last_inspected s) false m d (plot_list c) g
      | e => e
      end
    else individual base (plot_level c) (last_inspected s) false m d (flatten (plot_panel_list c) ++ plot_list c) g0))) = map fst (open_figs s)).
  { destruct (panel_plot_mode c).
    - pose proof (panels_opens base (plot_level c) (last_inspected s) false m d (rev (plot_panel_list c)) L eq_refl g0) as P.
      destruct (panels _ _ _ _ _ _ _ _) as [g [u|e]]; [rewrite individual_opens by auto|]; exact P.
    - rewrite individual_opens by auto. reflexivity. }
  destruct (if panel_plot_mode c then _ else _) as [g [u|e]]; cbn [fst open_figs last_inspected] in *; split; auto; discriminate.
Qed.
Theorem C50_stays_closed c es : forall s t, last_inspected s <> None -> ~ is_open s t ->
  (forall e, In e es -> match e with Inspect _ _ rp _ _ _ => rp = false | Close _ => True | Open t' => t' <> t end) ->
  ~ is_open (run base c s es) t.
Proof.
  induction es as [|e es IH]; intros s t L N H; [exact N|]. cbn [run fold_left]. pose proof (H e ltac:(cbn; auto)) as He.
  assert (R : last_inspected (step base c s e) <> None /\ ~ is_open (step base c s e) t).
  { destruct e as [m d rp mi t0 t1|t'|t']; cbn [step last_inspected].
    - subst rp. destruct (inspect_opens c m d mi t0 t1 s L) as [O L']. split; auto. unfold is_open in *. rewrite O. exact N.
    - split; auto. intros Q. apply N. unfold is_open in *. cbn [open_figs] in Q. apply in_map_iff in Q. destruct Q as [x [E Q]]. apply filter_In in Q. rewrite <- E. apply in_map. tauto.
    - split; auto. intros Q. apply N. unfold is_open in *. cbn [open_figs] in Q. apply put_titles in Q. destruct Q as [Q| ->]; auto. easy. }
  destruct R as [L' N']. apply IH; auto. intros x Hx. apply H. cbn. auto.
Qed.

(** With one figure per plot, an exception in a plot function does not stop the call: it returns whenever the
    conditions do and nothing is interrupted. *)
Theorem C50_errors_contained c m d rp mi t0 t1 s : panel_plot_mode c = false ->
  (forall p, In p (flatten (plot_panel_list c) ++ plot_list c) ->
     (exists b, check (condition p) m d = Ok b) /\ (forall a e, fst (plot_func p m a) = Raise e -> is_Exception e = true)) ->
  snd (inspect base c m d rp mi t0 t1 s) = Ok tt.
Proof.
  intros PM H. unfold inspect. destruct (match mi with Some i => _ | None => _ end); [auto|]. rewrite PM.
  set (g0 := {| now_open := open_figs s; rendered := []; drawn := [] |}). revert H. generalize (flatten (plot_panel_list c) ++ plot_list c). intros ps H.
  assert (R : snd (individual base (plot_level c) (last_inspected s) rp m d ps g0) = Ok tt).
  { generalize g0. clear g0. induction ps as [|p ps IH]; intros g; cbn [individual]; [auto|].
    assert (IH' := IH (fun q Hq => H q (or_intror Hq))). destruct (negb _); [auto|]. destruct (H p (or_introl eq_refl)) as [[b CB] EX]. rewrite CB.
    destruct b; [|auto]. destruct (left_closed _ _ _ _); [auto|].
    assert (DR : snd (draw true p m d) = Ok tt).
    { unfold draw. destruct (plot_func p m None) as [[[]|e] k] eqn:E1; [auto|]. assert (IE : is_Exception e = true) by (apply (EX None); rewrite E1; auto).
      destruct e; cbn in IE |- *; auto; try discriminate. destruct d as [ds|]; [|auto]. destruct (plot_func p m (Some ds)) as [[[]|e] k'] eqn:E2; [auto|].
      assert (IE' : is_Exception e = true) by (apply (EX (Some ds)); rewrite E2; auto). cbn. rewrite IE'. auto. }
    destruct (draw true p m d) as [[k done] r]. cbn [snd] in DR. subst r. apply IH'. }
  destruct (individual _ _ _ _ _ _ _ _) as [g r]. cbn [snd] in R. subst r. reflexivity.
Qed.

(** Callbacks do not accumulate: over any history of calls that return, the canvas of every panel that was just drawn
    holds the backend's own callbacks and those its plots connected in this call - however often it was redrawn. *)
Lemma individual_get c last rp m d ps : forall g g', individual base (plot_level c) last rp m d ps g = (g', Ok tt) ->
  forall t, ~ In t (map title ps) -> get (now_open g') t = get (now_open g) t.
Proof.
  intros g g' H t N. apply individual_ok in H. cbv zeta in H. destruct H as [_ [_ [_ [_ H]]]]. apply H. intros Q. apply N. apply in_map_iff in Q. destruct Q as [x [E Q]].
  apply filter_In in Q. rewrite <- E. apply in_map. tauto.
Qed.
Lemma reached_clean c s : panel_plot_mode c = true -> reached base c s -> forall t, ~ In t (map title (plot_list c)) -> clean_at base (open_figs s) t.
Proof.
  intros PM R. induction R as [|s t' R IH|s t' R IH|s m d rp mi t0 t1 s' log R IH E]; intros t N.
  - intros f. cbn. discriminate.
  - intros f. cbn [step open_figs]. specialize (IH t N). unfold clean_at, get in *. intros Q. destruct (find _ (filter _ _)) as [[a g]|] eqn:F; [|discriminate]. cbn in Q. injection Q as ->.
    apply IH. clear IH. induction (open_figs s) as [|[a' g'] l IHl]; cbn in *; [discriminate|].
    destruct (Nat.eqb_spec a' t') as [->|NE]; cbn in F.
    + destruct (Nat.eqb_spec t' t) as [->|NE']; [|auto]. exfalso. apply find_some in F. destruct F as [F E]. apply filter_In in F. cbn in *. apply Nat.eqb_eq in E. subst. rewrite Nat.eqb_refl in F. destruct F. discriminate.
    + destruct (Nat.eqb_spec a' t) as [->|NE']; [injection F as -> ->; reflexivity|auto].
  - intros f. cbn [step open_figs]. destruct (Nat.eq_dec t t') as [->|NE]; [rewrite get_put|rewrite get_put_other by auto; apply IH; auto].
    intros Q. injection Q as <-. apply clean_plt. apply IH. auto.
  - unfold inspect in E. destruct (match mi with Some i => _ | None => _ end); [injection E as <- <-; apply IH; auto|]. rewrite PM in E.
    destruct (panels _ _ _ _ _ _ _ _) as [g1 [[]|e]] eqn:E1; [|discriminate]. destruct (individual _ _ _ _ _ _ _ _) as [g [[]|e]] eqn:E2; [|discriminate]. injection E as <- <-. cbn [open_figs].
    intros f. rewrite (individual_get _ _ _ _ _ _ _ _ E2) by auto. eapply panels_clean; [exact E1|]. cbn [now_open]. apply IH. auto.
Qed.
Lemma nodup_app_l {A} (l l' : list A) : NoDup (l ++ l') -> NoDup l.
Proof. induction l; cbn; intros H; [constructor|]. apply NoDup_cons_iff in H. destruct H as [N H]. constructor; auto. intros Q. apply N. apply in_app_iff. auto. Qed.
Lemma panel_not_plot c : NoDup (map panel_title (plot_panel_list c) ++ map title (plot_list c)) ->
  forall x, In x (plot_panel_list c) -> ~ In (panel_title x) (map title (plot_list c)).
Proof.
  intros ND x Hx Q. apply (in_map panel_title) in Hx. induction (map panel_title (plot_panel_list c)) as [|a l IH]; [easy|]. cbn in ND. apply NoDup_cons_iff in ND. destruct ND as [ND1 ND2].
  destruct Hx as [->|Hx]; [apply ND1; apply in_app_iff; auto|auto].
Qed.
Lemma same_title (l : list (panel M D)) : NoDup (map panel_title l) -> forall q x, In q l -> In x l -> panel_title x = panel_title q -> q = x.
Proof.
  induction l as [|a l IH]; [easy|]. cbn. intros ND q x Hq Hx E. apply NoDup_cons_iff in ND. destruct ND as [ND1 ND2].
  destruct Hq as [->|Hq], Hx as [->|Hx]; auto; exfalso; apply ND1; [rewrite <- E|rewrite E]; apply in_map; auto.
Qed.
Theorem C50_callbacks c s m d rp mi t0 t1 s' log : panel_plot_mode c = true -> reached base c s ->
  NoDup (map panel_title (plot_panel_list c) ++ map title (plot_list c)) ->
  ~ too_soon s mi t0 -> inspect base c m d rp mi t0 t1 s = (s', log, Ok tt) ->
  forall q, In q (plot_panel_list c) -> In (panel_title q) (figs s') ->
  exists f l, get (open_figs s') (panel_title q) = Some f /\
    selected (fun p => holds (condition p) m d) (plots q) l /\
    length (cids f) = base + list_sum (map (fun p => connects p m d) l).
Proof.
  intros PM R ND N E q Hq Hf. rewrite inspect_unfold, PM in E by auto.
  assert (NDP : NoDup (map panel_title (plot_panel_list c))) by (eapply nodup_app_l; eauto).
  assert (DJ := panel_not_plot c ND).
  destruct (panels _ _ _ _ _ _ _ _) as [g1 [[]|e]] eqn:E1; [|discriminate]. destruct (individual _ _ _ _ _ _ _ _) as [g [[]|e]] eqn:E2; [|discriminate]. injection E as <- <-. cbn [open_figs figs] in *.
  rewrite (individual_get _ _ _ _ _ _ _ _ E2) by auto.
  pose proof (panels_ok _ _ _ _ _ _ _ _ _ E1) as P. cbv zeta in P. cbn [rendered now_open drawn] in P. destruct P as [P1 [_ [P3 [_ [P5 _]]]]].
  assert (SH : In q (filter (shown_panel (plot_level c) (last_inspected s) rp m d (open_figs s)) (rev (plot_panel_list c)))).
  { apply individual_ok in E2. cbv zeta in E2. destruct E2 as [I1 _]. rewrite I1, P1 in Hf. cbn [app] in Hf. apply in_app_iff in Hf. destruct Hf as [Hf|Hf].
    - apply in_map_iff in Hf. destruct Hf as [x [E Hx]]. pose proof (proj1 (filter_In _ _ _) Hx) as [Hx1 _]. apply in_rev in Hx1.
      rewrite (same_title _ NDP q x) by auto. auto.
    - exfalso. apply (DJ q Hq). apply in_map_iff in Hf. destruct Hf as [x [E Hx]]. apply filter_In in Hx. rewrite <- E. apply in_map. tauto. }
  destruct (panels_count base (plot_level c) (last_inspected s) rp m d (rev (plot_panel_list c)) _ _ E1) with (p := q) as [f [F1 F2]]; auto.
  - intros p Hp. cbn [now_open]. apply (reached_clean c s PM R). apply DJ. apply in_rev. auto.
  - rewrite map_rev. apply NoDup_rev. auto.
  - eexists f, _. split; [exact F1|]. split; [eexists; split; [|reflexivity]|].
    2:{ destruct (panel_plots_ok m d (plots q) (P5 q SH)) as [_ K]. cbv zeta in K. rewrite F2, K. reflexivity. }
    intros p. cbn beta. rewrite <- check_spec. destruct (check (condition p) m d) as [[|]|]; intuition discriminate.
Qed.

(** On the first call both modes draw the same plots, provided that a panel's condition holds whenever the condition
    of one of its plots does. *)
Theorem C50_modes_agree c c' m d t0 t1 s s1 s2 log1 log2 : panel_plot_mode c = true ->
  c' = {| plot_panel_list := plot_panel_list c; plot_list := plot_list c; panel_plot_mode := false; plot_level := plot_level c |} ->
  NoDup (map panel_title (plot_panel_list c) ++ map title (plot_list c)) ->
  last_inspected s = None -> inspect base c m d false None t0 t1 s = (s1, log1, Ok tt) -> inspect base c' m d false None t0 t1 s = (s2, log2, Ok tt) ->
  (forall q p, In q (plot_panel_list c) -> In p (plots q) -> holds (condition p) m d -> holds (panel_condition q) m d) ->
  forall q p, In q (plot_panel_list c) -> In p (plots q) ->
    (In (panel_title q, p) log1 <->
     exists p', In (title p, p') log2 /\ plot_func p' = plot_func p /\ condition p' = condition p /\ level p' = panel_level q).
Proof.
  intros PM -> ND L E1 E2 HC q p Hq Hp.
  assert (N : ~ too_soon s None t0) by (intros [i [t [Q _]]]; discriminate).
  assert (X : In (panel_title q, p) log1 <-> level_shown (plot_level c) (panel_level q) /\ holds (condition p) m d /\ succeeds p m d).
  { destruct (C50_panel c m d false None t0 t1 s s1 log1 PM N E1) as [sp [sl [[f [F ->]] [[f' [F' ->]] [_ [[ok [ok' [O [[g [G ->]] ->]]]] _]]]]]].
    assert (DJ := panel_not_plot c ND q Hq). rewrite in_app_iff.
    assert (O2 : forall x, In x (filter f (rev (plot_panel_list c))) -> forall y, (exists l, In (x, l) (combine (filter f (rev (plot_panel_list c))) ok) /\ In y l) <-> In y (plots x) /\ holds (condition y) m d /\ succeeds y m d).
    { assert (ST := same_title _ (nodup_app_l _ _ ND)). assert (NDF : NoDup (filter f (rev (plot_panel_list c)))) by (apply NoDup_filter, NoDup_rev; eapply NoDup_map_inv, nodup_app_l; exact ND).
      clear - O NDF. revert ok O NDF. generalize (filter f (rev (plot_panel_list c))). intros sp. induction sp as [|a sp IH]; intros ok O NDF x Hx y; [easy|].
      inversion O as [|? l ? ok1 A O1]; subst. apply NoDup_cons_iff in NDF. destruct NDF as [NI NDF]. destruct A as [h [Hh ->]]. cbn [combine]. destruct Hx as [->|Hx].
      - split.
        + intros [l [[Q|Q] I]]; [injection Q as <-; apply filter_In in I; rewrite Hh in I; tauto|]. exfalso. apply NI. eapply in_combine_l; eauto.
        + intros [A1 A2]. eexists. split; [left; reflexivity|]. apply filter_In. rewrite Hh. tauto.
      - rewrite <- (IH ok1 O1 NDF x Hx y). split; intros [l [Q I]]; exists l; split; auto; [|right; auto]. destruct Q as [Q|Q]; auto. injection Q as -> _. contradiction. }
    split.
    - intros [I|I].
      + apply in_concat in I. destruct I as [l [I J]]. apply in_map_iff in I. destruct I as [[x y] [<- I]]. cbn [fst snd] in J. apply in_map_iff in J. destruct J as [z [Q J]]. injection Q as Q ->.
        pose proof (in_combine_l _ _ _ _ I) as Ix. pose proof (proj1 (filter_In _ _ _) Ix) as [Iy FI]. apply in_rev in Iy. assert (x = q) by (symmetry; apply (same_title _ (nodup_app_l _ _ ND)); auto). subst x.
        apply F in FI. destruct FI as [A1 _]. split; auto. apply (O2 q Ix p). exists y. auto.
      + exfalso. apply in_map_iff in I. destruct I as [z [Q I]]. injection Q as Q ->. apply DJ. rewrite <- Q. apply in_map. apply filter_In in I. destruct I as [I _]. apply filter_In in I. tauto.
    - intros [A1 [A2 A3]]. left. assert (Iq : In q (filter f (rev (plot_panel_list c)))).
      { apply filter_In. split; [apply in_rev; rewrite rev_involutive; auto|]. apply F. repeat split; auto; [eapply HC; eauto|left; auto]. }
      destruct (proj2 (O2 q Iq p)) as [l [I J]]; auto. apply in_concat. exists (map (pair (panel_title q)) l). split; [|apply in_map; auto]. apply in_map_iff. exists (q, l). auto. }
  rewrite X. clear X.
  set (c' := {| plot_panel_list := plot_panel_list c; plot_list := plot_list c; panel_plot_mode := false; plot_level := plot_level c |}) in E2.
  pose proof (C50_individual c' m d false None t0 t1 s s2 log2 eq_refl N E2) as [shown [[f [F ->]] [_ [[ok [[g [G ->]] ->]] _]]]]. cbn [plot_panel_list plot_list plot_level c'] in *.
  split.
  - intros [A1 [A2 A3]]. exists {| title := title p; level := panel_level q; condition := condition p; plot_func := plot_func p |}. cbn [plot_func condition level]. repeat split; auto.
    apply in_map_iff. exists {| title := title p; level := panel_level q; condition := condition p; plot_func := plot_func p |}. split; [reflexivity|]. apply filter_In. split; [|apply G; exact A3]. apply filter_In. split; [|apply F; repeat split; auto; left; auto].
    apply in_app_iff. left. unfold flatten. apply in_concat. eexists. split; [apply in_map; exact Hq|]. apply in_map_iff. exists p. auto.
  - intros [p' [I [FU [CO LE]]]]. apply in_map_iff in I. destruct I as [y [Y I]]. injection Y as _ ->. apply filter_In in I. destruct I as [I GI]. apply filter_In in I. destruct I as [_ FI].
    apply F in FI. destruct FI as [A1 [A2 _]]. apply G in GI. rewrite LE in A1. rewrite CO in A2. unfold succeeds in *. rewrite FU in GI. auto.
Qed.
End C50.
Print Assumptions C50_min_interval. Print Assumptions C50_individual. Print Assumptions C50_panel. Print Assumptions C50_stays_closed.
Print Assumptions C50_errors_contained. Print Assumptions C50_callbacks. Print Assumptions C50_modes_agree.

(** A configuration that meets the hypotheses: one panel with two plots, one of them conditional and needing the
    dataset, and one standalone plot; the model's state is a boolean. *)
Definition easy_plot (t k : nat) : plot bool nat := {| title := t; level := 1; condition := None; plot_func := fun _ _ => (Ok tt, k) |}.
Definition late_plot (t : nat) : plot bool nat := {| title := t; level := 1; condition := Some (fun m _ => Ok m); plot_func := fun _ d => (match d with None => Raise TypeError | Some _ => Ok tt end, 1) |}.
Definition some_panel : panel bool nat := {| panel_title := 0; panel_level := 1; panel_condition := None; plots := [easy_plot 1 2; late_plot 2] |}.
Definition some_config (mode : bool) : config bool nat := {| plot_panel_list := [some_panel]; plot_list := [easy_plot 3 0]; panel_plot_mode := mode; plot_level := None |}.
Example C50_case : 
  (exists s log, inspect 5 (some_config true) true (Some 0) false None 0 1 start = (s, log, Ok tt) /\ figs s = [0; 3] /\ map fst log = [0; 0; 3] /\ last_inspected s <> None) /\
  (exists s log, inspect 5 (some_config false) true (Some 0) false None 0 1 start = (s, log, Ok tt) /\ figs s = [1; 2; 3]) /\
  NoDup (map panel_title (plot_panel_list (some_config true)) ++ map title (plot_list (some_config true))).
Proof.
  split; [|split].
  - eexists _, _. split; [reflexivity|]. cbn. repeat split; discriminate.
  - eexists _, _. split; [reflexivity|]. reflexivity.
  - cbn. repeat constructor; cbn; intuition discriminate.
Qed.

(** "Shows every plot whose condition holds" fails in three ways.  First: without panels, a panel's own condition is
    ignored, and its plots are drawn although it does not hold. *)
Theorem C50_panel_condition_refuted : exists (c : config bool nat) q p, panel_plot_mode c = false /\ In q (plot_panel_list c) /\ In p (plots q) /\
  ~ holds (panel_condition q) false None /\ forall base t0 t1, exists s p' log, inspect base c false None false None t0 t1 start = (s, log, Ok tt) /\ In (title p, p') log.
Proof.
  exists {| plot_panel_list := [{| panel_title := 0; panel_level := 1; panel_condition := Some (fun m _ => Ok m); plots := [easy_plot 1 0] |}]; plot_list := []; panel_plot_mode := false; plot_level := None |}.
  eexists _, _. split; [reflexivity|]. split; [left; reflexivity|]. split; [left; reflexivity|]. split.
  - cbn. intros [H|[H _]]; discriminate.
  - intros base t0 t1. eexists _, _, _. split; [reflexivity|]. left. reflexivity.
Qed.
Print Assumptions C50_panel_condition_refuted.
(** Second: a plot whose condition becomes true only after the first call is not shown by any later call without
    replot_all. *)
Theorem C50_late_plot_refuted : exists (c : config bool nat) p, In p (plot_list c) /\ panel_plot_mode c = false /\ (forall d, holds (condition p) true d) /\
  forall base t0 t1 es, (forall e, In e es -> exists m d i a b, e = Inspect m d false i a b) ->
    ~ is_open (run base c start (Inspect false (Some 0) false None t0 t1 :: es)) (title p).
Proof.
  exists {| plot_panel_list := []; plot_list := [late_plot 2]; panel_plot_mode := false; plot_level := None |}, (late_plot 2).
  split; [left; reflexivity|]. split; [reflexivity|]. split; [intros d; left; reflexivity|]. intros base t0 t1 es H. cbn [run fold_left].
  apply (C50_stays_closed base); [cbn; discriminate|cbn; intuition|]. intros e He. apply H in He. destruct He as [m [d [i [a [b ->]]]]]. reflexivity.
Qed.
Print Assumptions C50_late_plot_refuted.
(** Third: callbacks do accumulate when a panel's plot function raises: n failed calls leave n sets of them. *)
Theorem C50_failed_callbacks_refuted : exists (c : config bool nat) t, panel_plot_mode c = true /\ forall base n,
  exists f, get (open_figs (run base c start (repeat (Inspect false None false None 0 0) n))) t = (if Nat.eqb n 0 then None else Some f) /\ (n <> 0 -> length (cids f) = base + n).
Proof.
  set (p := {| title := 1; level := 1; condition := None; plot_func := fun _ _ => (Raise ValueError, 1) |} : plot bool nat).
  set (c := {| plot_panel_list := [{| panel_title := 0; panel_level := 1; panel_condition := None; plots := [p] |}]; plot_list := []; panel_plot_mode := true; plot_level := None |} : config bool nat).
  exists c, 0. split; [reflexivity|]. intros base n.
  assert (LEN : forall f k, render_cids f = [] -> length (cids f) = k -> length (cids (connect (disconnect f) 1)) = k + 1).
  { intros f k E LE. unfold connect, disconnect. cbn [cids]. rewrite app_length, E, filter_all by auto. cbn. lia. }
  assert (K : forall n, let s := run base c start (repeat (Inspect false None false None 0 0) (S n)) in last_inspected s = None /\
     exists f, open_figs s = [(0, f)] /\ length (cids f) = base + S n /\ render_cids f = []).
  { clear n. induction n as [|n IH].
    - cbn. split; [auto|]. eexists. split; [reflexivity|]. split; auto. apply (LEN (fresh base)); [reflexivity|apply seq_length].
    - cbv zeta in *. replace (repeat (Inspect false None false None 0%R 0%R) (S (S n))) with (repeat (@Inspect bool nat false None false None 0%R 0%R) (S n) ++ [Inspect false None false None 0%R 0%R]) by (symmetry; apply repeat_cons).
      unfold run in *. rewrite fold_left_app. set (s := fold_left _ (repeat _ _) _) in *. destruct IH as [L [f [O [LE RC]]]]. cbn [fold_left step].
      unfold inspect. rewrite L, O. cbn. split; auto. eexists. split; [reflexivity|]. split; [|exact RC]. rewrite (LEN f (base + S n)) by auto. lia. }
  destruct n as [|n]; [exists (fresh base); split; [reflexivity|easy]|]. destruct (K n) as [_ [f [O [LE _]]]]. exists f. cbv zeta in O. rewrite O. cbn. auto.
Qed.
Print Assumptions C50_failed_callbacks_refuted.
