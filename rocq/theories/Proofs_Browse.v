From Verif Require Import Base Model_Browse Spec_Browse.
Local Open Scope Z_scope.

Definition pos_dims (dims : list Z) : Prop := Forall (fun n => 1 <= n) dims.

Lemma total_pos dims : pos_dims dims -> 1 <= total dims.
Proof. induction 1; cbn; [lia|]. fold (total l). nia. Qed.

Lemma total_snoc dims n : total (dims ++ [n]) = total dims * n.
Proof. induction dims as [|m d IH]; cbn [total fold_right app]; [lia|]. unfold total in IH. rewrite IH. ring. Qed.

Lemma is_index_len dims idx : is_index dims idx -> List.length idx = List.length dims.
Proof. induction 1; cbn; congruence. Qed.

Lemma ravel_bound dims : pos_dims dims -> forall idx, is_index dims idx -> 0 <= ravel dims idx < total dims.
Proof.
  induction 1 as [|n d Hn Hd IH]; intros idx Hi; inversion Hi; subst; cbn [ravel total fold_right]; [lia|].
  fold (total d). pose proof (IH _ H3). pose proof (total_pos d Hd). nia.
Qed.

Lemma unravel_mod dims : pos_dims dims -> forall p q, unravel dims (q * total dims + p) = unravel dims p.
Proof.
  induction 1 as [|n d Hn Hd IH]; intros p q; cbn [unravel total fold_right]; [reflexivity|]. fold (total d).
  pose proof (total_pos d Hd). replace (q * (n * total d) + p) with ((q * n) * total d + p) by ring. rewrite IH. f_equal.
  rewrite Z.div_add_l by lia. rewrite Z.add_comm, Z_mod_plus_full. reflexivity.
Qed.

Lemma unravel_ravel dims : pos_dims dims -> forall idx, is_index dims idx -> unravel dims (ravel dims idx) = idx.
Proof.
  induction 1 as [|n d Hn Hd IH]; intros idx Hi; inversion Hi; subst; cbn [ravel unravel]; [reflexivity|].
  pose proof (ravel_bound d Hd _ H3). pose proof (total_pos d Hd). rewrite unravel_mod, IH by assumption. f_equal.
  rewrite Z.div_add_l by lia. rewrite Z.div_small by lia. rewrite Z.add_0_r. apply Z.mod_small. lia.
Qed.

Lemma unravel_index dims : pos_dims dims -> forall p, is_index dims (unravel dims p).
Proof. induction 1 as [|n d Hn Hd IH]; intros p; cbn [unravel]; constructor; [apply Z.mod_pos_bound; lia|apply IH]. Qed.

Lemma ravel_unravel dims : pos_dims dims -> forall p, ravel dims (unravel dims p) = p mod total dims.
Proof.
  induction 1 as [|n d Hn Hd IH]; intros p; cbn [ravel unravel total fold_right]; [symmetry; apply Z.mod_1_r|]. fold (total d).
  pose proof (total_pos d Hd). rewrite IH. rewrite (Z.mul_comm n). rewrite Z.rem_mul_r by lia. ring.
Qed.

Lemma ravel_snoc d n i x : List.length i = List.length d -> ravel (d ++ [n]) (i ++ [x]) = ravel d i * n + x.
Proof.
  revert i. induction d as [|m d IH]; intros [|y i] L; try discriminate; cbn [app ravel].
  - cbn. lia.
  - rewrite total_snoc, IH by (cbn in L; lia). ring.
Qed.

Lemma mod_split a b n T : 1 <= n -> 1 <= T -> 0 <= b < n -> (a * n + b) mod (T * n) = (a mod T) * n + b.
Proof.
  intros. symmetry. apply Z.mod_unique with (q := a / T).
  - left. pose proof (Z.mod_pos_bound a T ltac:(lia)). nia.
  - pose proof (Z.div_mod a T ltac:(lia)). nia.
Qed.

(** set_nth. *)
Lemma set_nth_some {A} (k : nat) (v : A) l : (k < List.length l)%nat -> exists l', set_nth k v l = Some l' /\ List.length l' = List.length l.
Proof.
  revert l. induction k as [|k IH]; intros [|a l] L; cbn in *; try lia; eauto.
  destruct (IH l ltac:(lia)) as (l' & E & E'). rewrite E. cbn. exists (a :: l'). cbn. auto.
Qed.
Lemma set_nth_app {A} (k : nat) (v : A) l m l' : set_nth k v l = Some l' -> set_nth k v (l ++ m) = Some (l' ++ m).
Proof.
  revert l l'. induction k as [|k IH]; intros [|a l] l' E; cbn in *; try discriminate; [inversion E; reflexivity|].
  destruct (set_nth k v l) eqn:E1; [|discriminate]. rewrite (IH _ _ E1). inversion E; reflexivity.
Qed.
Lemma set_nth_put (k : nat) (v : Z) l l' : set_nth k v l = Some l' -> l' = put k v l.
Proof.
  revert l l'. induction k as [|k IH]; intros [|a l] l' E; cbn in *; try discriminate; [inversion E; reflexivity|].
  destruct (set_nth k v l) eqn:E1; [|discriminate]. inversion E; subst. apply IH in E1. subst. reflexivity.
Qed.
Lemma set_nth_last {A} (v w : A) l : set_nth (List.length l) v (l ++ [w]) = Some (l ++ [v]).
Proof. induction l as [|a l IH]; cbn; [reflexivity|]. rewrite IH. reflexivity. Qed.

(** The odometer on a list of axes below the length of i does not look at what follows. *)
Lemma odometer_app m : forall carry i y, Forall (fun a => (fst a < List.length i)%nat) m ->
  odometer m carry (i ++ y) = rmap (fun l => l ++ y) (odometer m carry i).
Proof.
  induction m as [|[a n] m IH]; intros carry i y H; [reflexivity|]. inversion H as [|? ? H1 H2]; subst. cbn [fst] in H1.
  cbn [odometer]. rewrite nth_error_app1 by assumption. destruct (nth_error i a) as [x|] eqn:E; [|apply nth_error_None in E; lia].
  assert (W : forall z, set_nth a z (i ++ y) = option_map (fun l => l ++ y) (set_nth a z i) /\ exists l, set_nth a z i = Some l /\ List.length l = List.length i).
  { intros z. destruct (set_nth_some a z i H1) as (l & E1 & E2). rewrite E1. split; [apply set_nth_app; assumption|eauto]. }
  destruct (W (n - 1)) as (A1 & l1 & B1 & C1), (W 0) as (A2 & l2 & B2 & C2), (W (x + carry)) as (A3 & l3 & B3 & C3).
  rewrite A1, A2, A3, B1, B2, B3. cbn [option_map rbind].
  destruct (x + carry <? 0); [|destruct (n <=? x + carry); [|reflexivity]]; cbn [rbind]; rewrite IH; try reflexivity.
  - rewrite C1; assumption.
  - rewrite C2; assumption.
Qed.

Definition smap (dims : list Z) : list (nat * Z) := filter (fun a => 1 <? snd a) (combine (seq 0 (List.length dims)) dims).

Lemma combine_app' {A B} (a a' : list A) (b b' : list B) : List.length a = List.length b -> combine (a ++ a') (b ++ b') = combine a b ++ combine a' b'.
Proof. revert b. induction a as [|x a IH]; intros [|y b] L; try discriminate; cbn in *; [reflexivity|]. rewrite IH by lia. reflexivity. Qed.

Lemma smap_snoc d n : smap (d ++ [n]) = smap d ++ (if 1 <? n then [(List.length d, n)] else []).
Proof.
  unfold smap. rewrite app_length. cbn [List.length]. rewrite Nat.add_1_r, seq_S, combine_app' by (rewrite seq_length; reflexivity).
  rewrite filter_app. cbn. destruct (1 <? n); reflexivity.
Qed.

Lemma smap_lt d : Forall (fun a => (fst a < List.length d)%nat) (smap d).
Proof.
  apply Forall_forall. intros [a n] H. apply filter_In in H. destruct H as [H _]. apply in_combine_l in H. apply in_seq in H. cbn. lia.
Qed.

Lemma is_index_snoc d n i : is_index (d ++ [n]) i -> exists i' x, i = i' ++ [x] /\ is_index d i' /\ 0 <= x < n.
Proof.
  intros H. apply Forall2_app_inv_r in H. destruct H as (i' & l & H1 & H2 & E). inversion H2 as [|x ? ? ? Hx Hl]; subst. inversion Hl; subst. eauto.
Qed.
Lemma is_index_app d n i x : is_index d i -> 0 <= x < n -> is_index (d ++ [n]) (i ++ [x]).
Proof. intros. apply Forall2_app; auto. Qed.

Theorem odometer_spec dims : pos_dims dims -> forall carry, (carry = 1 \/ carry = -1) -> forall i, is_index dims i ->
  exists i', odometer (rev (smap dims)) carry i = Ok i' /\ is_index dims i' /\ ravel dims i' = (ravel dims i + carry) mod total dims.
Proof.
  induction dims as [|n d IH] using rev_ind; intros Hp carry Hc i Hi.
  - inversion Hi; subst. exists []. cbn. split; [reflexivity|]. split; [constructor|]. rewrite Z.mod_1_r. reflexivity.
  - apply Forall_app in Hp. destruct Hp as [Hd Hn']. inversion Hn' as [|? ? Hn _]; subst.
    apply is_index_snoc in Hi. destruct Hi as (i' & x & -> & Hi & Hx).
    pose proof (is_index_len _ _ Hi) as L. pose proof (total_pos d Hd) as HT.
    assert (LT : Forall (fun a => (fst a < List.length i')%nat) (rev (smap d))) by (apply Forall_rev; rewrite L; apply smap_lt).
    rewrite smap_snoc, rev_app_distr, ravel_snoc, total_snoc by assumption.
    assert (GO : forall y, 0 <= y < n -> exists j, odometer (rev (smap d)) carry (i' ++ [y]) = Ok j /\ is_index (d ++ [n]) j /\ ravel (d ++ [n]) j = ((ravel d i' + carry) mod total d) * n + y).
    { intros y Hy. destruct (IH Hd carry Hc i' Hi) as (k & E & Hk & Rk). rewrite odometer_app, E by assumption. cbn [rmap].
      exists (k ++ [y]). split; [reflexivity|]. split; [apply is_index_app; assumption|]. rewrite ravel_snoc by (apply is_index_len; assumption). rewrite Rk. reflexivity. }
    destruct (1 <? n) eqn:En.
    + apply Z.ltb_lt in En. cbn [rev app odometer]. rewrite nth_error_app2 by lia. rewrite <- L, Nat.sub_diag. cbn [nth_error].
      rewrite !set_nth_last. cbn [rbind].
      destruct (Z.ltb_spec (x + carry) 0) as [H|H]; [|destruct (Z.leb_spec n (x + carry)) as [H'|H']].
      * assert (x = 0 /\ carry = -1) as [-> ->] by lia. destruct (GO (n - 1) ltac:(lia)) as (j & E & Hj & Rj). exists j. split; [exact E|]. split; [exact Hj|].
        rewrite Rj. rewrite <- mod_split by lia. f_equal. ring.
      * assert (x = n - 1 /\ carry = 1) as [-> ->] by lia. destruct (GO 0 ltac:(lia)) as (j & E & Hj & Rj). exists j. split; [exact E|]. split; [exact Hj|].
        rewrite Rj. rewrite <- mod_split by lia. f_equal. ring.
      * exists (i' ++ [x + carry]). split; [reflexivity|]. split; [apply is_index_app; [assumption|lia]|].
        rewrite ravel_snoc by assumption. rewrite <- Z.add_assoc, mod_split by lia. f_equal. rewrite Z.mod_small; [reflexivity|]. apply ravel_bound; assumption.
    + apply Z.ltb_ge in En. assert (n = 1) by lia. subst n. assert (x = 0) by lia. subst x. cbn [rev app].
      destruct (GO 0 ltac:(lia)) as (j & E & Hj & Rj). exists j. split; [exact E|]. split; [exact Hj|]. rewrite Rj. rewrite !Z.mul_1_r, !Z.add_0_r. reflexivity.
Qed.

Section Browse.
Context {D P : Type}.
Implicit Types (c : picture D P) (f : fig D P).

Lemma in_bounds_ok idx dims : in_bounds idx dims = true <-> is_index dims idx.
Proof.
  revert dims. induction idx as [|i idx IH]; intros [|n d]; cbn; split; intros H; try discriminate; try constructor; try (inversion H; fail).
  - apply andb_prop in H. destruct H as [H H1]. apply andb_prop in H. destruct H as [H2 H3]. apply Z.leb_le in H2. apply Z.ltb_lt in H3. lia.
  - apply andb_prop in H. apply IH. tauto.
  - inversion H; subst. apply andb_true_intro. split; [|apply IH; assumption]. apply andb_true_intro. rewrite Z.leb_le, Z.ltb_lt. assumption.
Qed.

Lemma select_ok c idx : is_index (extra_dims c) idx -> select c idx = Ok (pixels c idx).
Proof. intros H. unfold select. apply in_bounds_ok in H. rewrite H. reflexivity. Qed.

(** The sliders a figure with these dimensions has at index idx. *)
Definition sliders_at (dims idx : list Z) : list slider := map (fun a => {| s_axis := fst a; s_len := snd a; s_pos := nth (fst a) idx 0 |}) (smap dims).

Lemma sync_ok m idx : forall ss, map (fun s => (s_axis s, s_len s)) ss = m ->
  sync m idx ss = (map (fun a => {| s_axis := fst a; s_len := snd a; s_pos := nth (fst a) idx 0 |}) m, Ok tt).
Proof.
  induction m as [|[a n] m IH]; intros [|s ss] E; try discriminate; [reflexivity|]. cbn [map] in E. inversion E; subst. cbn [sync map fst snd].
  rewrite (IH ss) by reflexivity. reflexivity.
Qed.

(** The state of a healthy figure after the first plot: at index idx with the picture c shown. *)
Record good (dims : list Z) (c : picture D P) (idx : list Z) (f : fig D P) : Prop := {
  g_dims : extra_dims c = dims;
  g_idx : plot_idx f = Some idx;
  g_in : is_index dims idx;
  g_shown : shown f = Some (func c (pixels c idx));
  g_sliders : sliders f = sliders_at dims idx;
  g_upd : updating f = false;
  g_make : last_make f = Some c;
  g_keys : keys f = match smap dims with [] => None | _ => Some c end
}.

Lemma axes_of_sliders dims idx : map (fun s => (s_axis s, s_len s)) (sliders_at dims idx) = smap dims.
Proof. unfold sliders_at. rewrite map_map. cbn. erewrite map_ext; [apply map_id|]. intros []; reflexivity. Qed.

Lemma make_plot_good dims c idx f p : extra_dims c = dims -> is_index dims idx ->
  shown f = Some p -> map (fun s => (s_axis s, s_len s)) (sliders f) = smap dims -> 
  make_plot c idx f = ({| plot_idx := Some idx; shown := Some (func c (pixels c idx)); sliders := sliders_at dims idx; updating := false; last_make := Some c; keys := keys f |}, Ok tt).
Proof.
  intros Ed Hi Hs Hl. unfold make_plot. rewrite select_ok by (rewrite Ed; assumption). cbn [shown]. rewrite Hs.
  unfold slider_axis_map. rewrite Ed. fold (smap dims). cbn [sliders]. rewrite (sync_ok (smap dims) idx (sliders f) Hl). reflexivity.
Qed.

Lemma plot_good dims c c' idx f : good dims c idx f -> extra_dims c' = dims ->
  exists f', plot_image c' f = (f', Ok tt) /\ good dims c' idx f'.
Proof.
  intros [H1 H2 H3 H4 H5 H6 H7 H8] Ed. unfold plot_image. rewrite H2. rewrite Ed, (is_index_len _ _ H3), Nat.eqb_refl.
  erewrite (make_plot_good dims c' idx f) by (eauto; rewrite H5; apply axes_of_sliders).
  unfold slider_axis_map. rewrite Ed. fold (smap dims). eexists. split; [reflexivity|].
  destruct (smap dims) eqn:Es; constructor; cbn; rewrite ?Es; auto.
Qed.

Lemma first_plot dims c : pos_dims dims -> extra_dims c = dims ->
  exists f, plot_image c new_fig = (f, Ok tt) /\ good dims c (repeat 0 (List.length dims)) f.
Proof.
  intros Hp Ed. assert (Hi : is_index dims (repeat 0 (List.length dims))).
  { clear Ed. induction Hp; cbn; constructor; [lia|assumption]. }
  unfold plot_image. cbn [plot_idx new_fig]. rewrite Ed. unfold make_plot. rewrite select_ok by (rewrite Ed; exact Hi). cbn [shown new_fig].
  unfold slider_axis_map. rewrite Ed. fold (smap dims). eexists. split; [reflexivity|].
  destruct (smap dims) eqn:Es; constructor; cbn; rewrite ?Es; auto; unfold sliders_at; rewrite Es; reflexivity.
Qed.

Lemma key_good dims c idx f carry : pos_dims dims -> (carry = 1 \/ carry = -1) -> good dims c idx f ->
  exists f', on_key carry f = (f', Ok tt) /\ good dims c (unravel dims ((ravel dims idx + carry) mod total dims)) f'.
Proof.
  intros Hp Hc G. pose proof G as [H1 H2 H3 H4 H5 H6 H7 H8]. unfold on_key. rewrite H8.
  destruct (odometer_spec dims Hp carry Hc idx H3) as (i' & E & Hi' & R).
  assert (Ei : i' = unravel dims ((ravel dims idx + carry) mod total dims)) by (rewrite <- R; symmetry; apply unravel_ravel; assumption).
  destruct (smap dims) as [|a m] eqn:Es.
  - exists f. split; [reflexivity|]. rewrite <- Ei. cbn in E. inversion E as [E']. rewrite <- E'. exact G.
  - rewrite H5. assert (Ns : sliders_at dims idx <> []) by (unfold sliders_at; rewrite Es; discriminate).
    destruct (sliders_at dims idx) eqn:El; [congruence|]. rewrite <- El in *. clear Ns El.
    unfold slider_axis_map. rewrite H1. fold (smap dims). rewrite H2, Es, E.
    erewrite (make_plot_good dims c i' f) by (eauto; rewrite H5; apply axes_of_sliders).
    eexists. split; [reflexivity|]. rewrite <- Ei. constructor; cbn; rewrite ?Es; auto.
Qed.

Lemma smap_long dims : smap dims = map (fun k => (k, nth k dims 1)) (long_axes dims).
Proof.
  induction dims as [|n d IH] using rev_ind; [reflexivity|]. rewrite smap_snoc, IH. unfold long_axes. rewrite app_length. cbn [List.length].
  rewrite Nat.add_1_r, seq_S, filter_app. cbn [filter]. rewrite Nat.add_0_l.
  assert (N : nth (List.length d) (d ++ [n]) 1 = n) by (rewrite app_nth2 by lia; rewrite Nat.sub_diag; reflexivity). rewrite N.
  assert (E : filter (fun k => 1 <? nth k (d ++ [n]) 1) (seq 0 (List.length d)) = filter (fun k => 1 <? nth k d 1) (seq 0 (List.length d))).
  { apply filter_ext_in. intros a Ha. apply in_seq in Ha. rewrite app_nth1 by lia. reflexivity. }
  rewrite E, map_app. f_equal.
  - apply map_ext_in. intros a Ha. apply filter_In in Ha. destruct Ha as [Ha _]. apply in_seq in Ha. rewrite app_nth1 by lia. reflexivity.
  - destruct (1 <? n); [cbn; rewrite N; reflexivity|reflexivity].
Qed.

Lemma is_index_put dims idx k v : is_index dims idx -> (k < List.length dims)%nat -> 0 <= v < nth k dims 1 -> is_index dims (put k v idx).
Proof.
  intros H. revert k. induction H as [|i n idx d Hi Hr IH]; intros k Hk Hv; cbn in Hk; [lia|].
  destruct k as [|k]; [constructor; assumption|]. unfold put in *. cbn. constructor; [assumption|]. apply IH; [lia|exact Hv].
Qed.

Lemma put_same idx k : (k < List.length idx)%nat -> put k (nth k idx 0) idx = idx.
Proof.
  revert idx. induction k as [|k IH]; intros [|a l] H; cbn in H; try lia; [reflexivity|]. unfold put in *. cbn. f_equal. apply IH. lia.
Qed.

Lemma map_set_nth {A B} (g : A -> B) j (x : A) l l' : set_nth j x l = Some l' -> nth_error (map g l) j = Some (g x) -> map g l' = map g l.
Proof.
  revert l l'. induction j as [|j IH]; intros [|a l] l' E N; cbn in *; try discriminate.
  - inversion E; inversion N; subst. cbn. congruence.
  - destruct (set_nth j x l) eqn:E1; [|discriminate]. inversion E; subst. cbn. f_equal. eapply IH; eauto.
Qed.

Lemma slide_good dims c idx f j v : pos_dims dims -> good dims c idx f ->
  exists f', on_slide j v f = (f', Ok tt) /\ good dims c (dragged dims j v idx) f'.
Proof.
  intros Hp G. pose proof G as [H1 H2 H3 H4 H5 H6 H7 H8]. unfold on_slide, dragged. rewrite H5. unfold sliders_at at 1. rewrite smap_long, map_map. cbn [fst snd].
  rewrite nth_error_map. destruct (nth_error (long_axes dims) j) as [k|] eqn:Ek; cbn [option_map]; [|eauto].
  cbn [s_len s_pos]. assert (Hk : In k (long_axes dims)) by (eapply nth_error_In; eassumption).
  apply filter_In in Hk. destruct Hk as [Hk Hn]. apply in_seq in Hk. apply Z.ltb_lt in Hn.
  set (w := clip (nth k dims 1) v). assert (Hw : 0 <= w < nth k dims 1) by (unfold w, clip; lia).
  change (Z.max 0 (Z.min v (nth k dims 1 - 1))) with w.
  pose proof (is_index_len _ _ H3) as L.
  destruct (Z.eqb_spec w (nth k idx 0)) as [E|E].
  - rewrite E. rewrite put_same by lia. eauto.
  - cbv zeta. cbn [updating plot_idx last_make s_axis]. rewrite H6, H2, H7. destruct (set_nth_some k w idx ltac:(lia)) as (i' & Ei & _). rewrite Ei. apply set_nth_put in Ei. subst i'.
    assert (Hj : (j < List.length (sliders f))%nat).
    { rewrite H5. unfold sliders_at. rewrite smap_long, !map_length. apply nth_error_Some. rewrite Ek. discriminate. }
    unfold at_pos at 1. cbn [s_axis s_len].
    set (s' := {| s_axis := k; s_len := nth k dims 1; s_pos := w |}).
    destruct (set_nth_some j s' (sliders f) Hj) as (ss & Es & _). rewrite <- H5. rewrite Es.
    assert (EL : map (fun s => (s_axis s, s_len s)) ss = smap dims).
    { rewrite <- (axes_of_sliders dims idx), <- H5. eapply map_set_nth; [exact Es|].
      rewrite H5, axes_of_sliders, smap_long, nth_error_map, Ek. reflexivity. }
    erewrite (make_plot_good dims c (put k w idx)) by (first [eassumption | apply is_index_put; [assumption|lia|assumption] | (cbn [shown]; eassumption) | exact EL]).
    eexists. split; [reflexivity|]. constructor; cbn; auto. apply is_index_put; [assumption|lia|assumption].
Qed.

Lemma step_good dims e c idx f : pos_dims dims -> plots_only dims e -> good dims c idx f ->
  exists f', step e f = (f', Ok tt) /\ good dims (fst (ideal dims e (c, idx))) (snd (ideal dims e (c, idx))) f'.
Proof.
  intros Hp He G. destruct e as [c'| | |j v]; cbn [step ideal fst snd].
  - apply (plot_good dims c c' idx f G He).
  - apply (key_good dims c idx f (-1) Hp (or_intror eq_refl) G).
  - apply (key_good dims c idx f 1 Hp (or_introl eq_refl) G).
  - apply (slide_good dims c idx f j v Hp G).
Qed.

Lemma run_good dims es : forall c idx f, pos_dims dims -> Forall (plots_only dims) es -> good dims c idx f ->
  let s := fold_left (fun s e => ideal dims e s) es (c, idx) in
  good dims (fst s) (snd s) (fst (run es f)) /\ Forall (eq (Ok tt)) (snd (run es f)).
Proof.
  induction es as [|e es IH]; intros c idx f Hp He G; cbn [fold_left run]; [split; [exact G|constructor]|].
  inversion He as [|? ? He1 He2]; subst. destruct (step_good dims e c idx f Hp He1 G) as (f' & E & G'). rewrite E.
  destruct (ideal dims e (c, idx)) as [c1 i1]. cbn [fst snd] in G'. specialize (IH c1 i1 f' Hp He2 G').
  cbn zeta in IH. destruct (run es f') as [f2 os]. cbn [fst snd] in *. destruct IH as [IH1 IH2]. split; [exact IH1|constructor; [reflexivity|exact IH2]].
Qed.
End Browse.

Section NanoMapProofs.
Context {D : Type}.
Variable n m : nat.
Variable imgs : nat -> nat -> D.
Hypothesis Hn : (1 <= n)%nat.
Hypothesis Hm : (1 <= m)%nat.

Definition mgood (image : nat -> item D) (k : option Z) (kk : Z) (p : Z) (v : view D) : Prop :=
  0 <= p < Z.of_nat n /\ 0 <= kk < Z.of_nat m /\ v = {| val := p; marked := p; image_idx := k; display := Some (imgs (Z.to_nat p) (Z.to_nat kk)) |}.

Definition stacks (i : nat) : item D := Many (map (imgs i) (seq 0 m)).

Lemma nth_img_ok i k : 0 <= k < Z.of_nat m -> nth_img (map (imgs i) (seq 0 m)) k = Ok (imgs i (Z.to_nat k)).
Proof.
  intros H. unfold nth_img. rewrite map_length, seq_length. destruct (Z.leb_spec 0 k); [|lia]. destruct (Z.ltb_spec k (Z.of_nat m)); [|lia]. cbn [andb].
  rewrite nth_error_map. rewrite (nth_error_nth' _ 0%nat) by (rewrite seq_length; lia). rewrite seq_nth by lia. reflexivity.
Qed.

Lemma set_val_stack p k v : 0 <= p < Z.of_nat n -> 0 <= k < Z.of_nat m -> image_idx v = Some k ->
  exists v', set_val stacks p v = (v', Ok tt) /\ mgood stacks (Some k) k p v'.
Proof.
  intros Hp Hk E. unfold set_val, update, stacks. cbn [image_idx val marked display]. rewrite E, nth_img_ok by assumption.
  eexists. split; [reflexivity|]. split; [assumption|]. split; [assumption|]. reflexivity.
Qed.

Lemma nstep_stack e p k v : npossible n e -> mgood stacks (Some k) k p v ->
  let s := nideal n m true e (p, k) in exists v', nstep n stacks e v = (v', Ok tt) /\ mgood stacks (Some (snd s)) (snd s) (fst s) v'.
Proof.
  intros He (Hp & Hk & ->). destruct e as [b d|i|x]; cbn [nideal nstep fst snd].
  - unfold on_action. cbn [npossible] in He. change (stacks 0) with (Many (map (imgs 0) (seq 0 m))).
    destruct b; cbv iota; cbn [andb fst snd image_idx val marked display].
    + rewrite map_length, seq_length. assert (E : (if d =? 0 then k else (k + d) mod Z.of_nat m) = (k + d) mod Z.of_nat m).
      { destruct (Z.eqb_spec d 0); [subst; rewrite Z.add_0_r; symmetry; apply Z.mod_small; lia|reflexivity]. }
      cbv zeta. rewrite E. apply set_val_stack; [assumption|apply Z.mod_pos_bound; lia|reflexivity].
    + destruct (Z.eqb_spec d 0).
      * subst. eexists. split; [reflexivity|]. rewrite Z.add_0_r, Z.mod_small by lia. repeat split; auto; lia.
      * apply set_val_stack; [apply Z.mod_pos_bound; lia|assumption|reflexivity].
  - unfold on_pick. cbn in He. apply set_val_stack; [lia|assumption|reflexivity].
  - unfold on_drag. cbn [val]. fold (clip (Z.of_nat n) x). assert (0 <= clip (Z.of_nat n) x < Z.of_nat n) by (unfold clip; lia).
    destruct (Z.eqb_spec (clip (Z.of_nat n) x) p) as [E|E].
    + eexists. split; [reflexivity|]. rewrite E. repeat split; auto; lia.
    + apply set_val_stack; [assumption|assumption|reflexivity].
Qed.

Lemma nrun_stack es : forall p k v, Forall (npossible n) es -> mgood stacks (Some k) k p v ->
  let s := fold_left (fun s e => nideal n m true e s) es (p, k) in
  mgood stacks (Some (snd s)) (snd s) (fst s) (fst (nrun n stacks es v)) /\ Forall (eq (Ok tt)) (snd (nrun n stacks es v)).
Proof.
  induction es as [|e es IH]; intros p k v He G; cbn [fold_left nrun]; [split; [exact G|constructor]|].
  inversion He; subst. destruct (nstep_stack e p k v ltac:(assumption) G) as (v' & E & G'). rewrite E.
  destruct (nideal n m true e (p, k)) as [p1 k1]. cbn [fst snd] in G'. specialize (IH p1 k1 v' ltac:(assumption) G'). cbn zeta in IH.
  destruct (nrun n stacks es v') as [v2 os]. cbn [fst snd] in *. destruct IH. split; [assumption|constructor; [reflexivity|assumption]].
Qed.

Lemma open_stack : exists v, open stacks = (v, Ok tt) /\ mgood stacks (Some 0) 0 0 v.
Proof.
  unfold open. change (stacks 0) with (Many (map (imgs 0) (seq 0 m))). cbv beta zeta iota. rewrite nth_img_ok by lia. unfold update, stacks. cbn [image_idx Z.to_nat].
  rewrite nth_img_ok by lia. eexists. split; [reflexivity|]. repeat split; lia.
Qed.

(** One image per point. *)
Definition single (i : nat) : item D := One (imgs i 0).

Lemma set_val_single p v : 0 <= p < Z.of_nat n -> image_idx v = None ->
  exists v', set_val single p v = (v', Ok tt) /\ mgood single None 0 p v'.
Proof.
  intros Hp E. unfold set_val, update, single. cbn [image_idx val marked display]. rewrite E. eexists. split; [reflexivity|]. repeat split; try lia.
Qed.

Lemma nstep_single e p v : npossible n e -> mgood single None 0 p v ->
  exists v', nstep n single e v = (v', Ok tt) /\ mgood single None 0 (fst (nideal n m false e (p, 0))) v'.
Proof.
  intros He (Hp & Hk & ->). destruct e as [b d|i|x]; cbn [nideal nstep fst snd].
  - cbn [npossible] in He. rewrite andb_false_r. cbn [fst].
    assert (E : on_action n single b d {| val := p; marked := p; image_idx := None; display := Some (imgs (Z.to_nat p) (Z.to_nat 0)) |} =
                if d =? 0 then ({| val := p; marked := p; image_idx := None; display := Some (imgs (Z.to_nat p) (Z.to_nat 0)) |}, Ok tt)
                else set_val single ((p + d) mod Z.of_nat n) {| val := p; marked := p; image_idx := None; display := Some (imgs (Z.to_nat p) (Z.to_nat 0)) |}).
    { destruct b; reflexivity. }
    rewrite E. destruct (Z.eqb_spec d 0).
    + subst. eexists. split; [reflexivity|]. rewrite Z.add_0_r, Z.mod_small by lia. repeat split; auto; lia.
    + apply set_val_single; [apply Z.mod_pos_bound; lia|reflexivity].
  - unfold on_pick. cbn in He. apply set_val_single; [lia|reflexivity].
  - unfold on_drag. cbn [val]. assert (0 <= clip (Z.of_nat n) x < Z.of_nat n) by (unfold clip; lia).
    change (Z.max 0 (Z.min x (Z.of_nat n - 1))) with (clip (Z.of_nat n) x).
    destruct (Z.eqb_spec (clip (Z.of_nat n) x) p) as [E|E].
    + eexists. split; [reflexivity|]. rewrite E. repeat split; auto; lia.
    + apply set_val_single; [assumption|reflexivity].
Qed.

Lemma nideal_single_snd e p k : snd (nideal n m false e (p, k)) = k.
Proof. destruct e; cbn; rewrite ?andb_false_r; reflexivity. Qed.

Lemma nrun_single es : forall p v, Forall (npossible n) es -> mgood single None 0 p v ->
  mgood single None 0 (fst (fold_left (fun s e => nideal n m false e s) es (p, 0))) (fst (nrun n single es v)) /\ Forall (eq (Ok tt)) (snd (nrun n single es v)).
Proof.
  induction es as [|e es IH]; intros p v He G; cbn [fold_left nrun]; [split; [exact G|constructor]|].
  inversion He; subst. destruct (nstep_single e p v ltac:(assumption) G) as (v' & E & G'). rewrite E.
  pose proof (nideal_single_snd e p 0) as K. destruct (nideal n m false e (p, 0)) as [p1 k1]. cbn [fst snd] in *. subst k1.
  specialize (IH p1 v' ltac:(assumption) G'). destruct (nrun n single es v') as [v2 os]. cbn [fst snd] in *. destruct IH. split; [assumption|constructor; [reflexivity|assumption]].
Qed.

Lemma open_single : exists v, open single = (v, Ok tt) /\ mgood single None 0 0 v.
Proof. unfold open, single. cbv zeta. unfold update. eexists. split; [reflexivity|]. repeat split; lia. Qed.
End NanoMapProofs.
