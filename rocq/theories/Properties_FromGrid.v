(** Property theorems about the grids, positions, supports and starting objects of the models that
    FancyPtycho.from_dataset, SimplePtycho.from_dataset and MultislicePtycho.from_dataset build (C75, C76). *)
From Verif Require Import Base FinSum Fourier Model_Prop Model_Interact Model_Geom Spec_Geom Proofs_Geom Properties_Geom Model_Models Spec_Models Proofs_Models Properties_Models
  Proofs_Forward Model_Forward Spec_Forward Model_Init Spec_Init Properties_Init Properties_FromData Model_InitSlices Spec_InitSlices Properties_FromSlices.
From Coquelicot Require Import Complex.
Local Open Scope R_scope.

(** Specification.  b0, b1 is the far-field grid of the dataset's detector: stepping one pixel of it along one axis
    and across the whole detector along the same axis gives wavelength times distance, 0 along the other, and it
    lies in the plane of the detector. *)
Definition dual_grid (d : data) (b0 b1 : V3) : Prop :=
  let D0 := vscale (INR (d_h d)) (d_b0 d) in let D1 := vscale (INR (d_w d)) (d_b1 d) in
  vdot b0 D0 = d_wl d * d_dist d /\ vdot b1 D1 = d_wl d * d_dist d /\ vdot b0 D1 = 0 /\ vdot b1 D0 = 0 /\
  (exists p q, b0 = point (d_b0 d) (d_b1 d) p /\ b1 = point (d_b0 d) (d_b1 d) q).
(** A normal of the sample: along the beam in transmission, along the difference of the scattered and the incoming
    direction in reflection, else that of the dataset, else along the beam. *)
Definition sample_facing (d : data) (mode : smode) (n : V3) : Prop :=
  match mode with
  | STransmission => n = k_in
  | SReflection => n = vsub (k_out (d_b0 d) (d_b1 d)) k_in
  | _ => match d_orientation d with Some v => n = v | None => n = k_in end
  end.
(** The beam displaced by t meets the sample surface, of normal n, in a point that the scattered wave (across the
    grid) carries to place p of the grid. *)
Definition seen_at (n b0 b1 t : V3) (p : R * R) : Prop :=
  exists s, orthogonal n s /\ same_column s t /\ orthogonal (vsub s (point b0 b1 p)) b0 /\ orthogonal (vsub s (point b0 b1 p)) b1.

Lemma pixel_seen b0 b1 n n' c t : independent b0 b1 -> vz n <> 0 -> n = vscale c n' -> seen_at n' b0 b1 t (translations_to_pixel b0 b1 n t).
Proof.
  intros I Z E. unfold translations_to_pixel. set (s := projection_2 n (projection_1 t)). exists s.
  assert (ES : s = (vx t, vy t, - (vx n * vx t + vy n * vy t) / vz n)) by (apply plane_proj; exact Z).
  assert (C0 : c <> 0). { intros ->. apply Z. rewrite E. unfold vscale, vz. cbn. ring. }
  split; [|split; [rewrite ES; split; reflexivity|]].
  - unfold orthogonal. apply (Rmult_eq_reg_l c); [|exact C0]. rewrite Rmult_0_r.
    replace (c * vdot n' s) with (vdot n s) by (rewrite E; clear; v3; ring). rewrite ES. clear - Z. v3. field. exact Z.
  - clear ES. clearbody s. clear C0 E. pose proof (gram_pos b0 b1 I) as G.
    assert (F : vsub s (point b0 b1 (vdot (pinv0 b0 b1) s, vdot (pinv1 b0 b1) s)) = vscale (/ (vdot b0 b0 * vdot b1 b1 - vdot b0 b1 * vdot b0 b1) * vdot (vcross b0 b1) s) (vcross b0 b1)).
    { unfold point, pinv0, pinv1. cbn [fst snd]. set (dd := _ - _) in *.
      assert (E : vadd (vscale (vdot (vscale (/ dd) (vsub (vscale (vdot b1 b1) b0) (vscale (vdot b0 b1) b1))) s) b0)
         (vscale (vdot (vscale (/ dd) (vsub (vscale (vdot b0 b0) b1) (vscale (vdot b0 b1) b0))) s) b1) =
         vscale (/ dd) (vsub (vscale dd s) (vscale (vdot (vcross b0 b1) s) (vcross b0 b1)))).
      { unfold dd. clear. apply v3_eq; v3; ring. }
      rewrite E. clear E. generalize (vcross b0 b1) (vdot (vcross b0 b1) s). intros u v. clearbody dd. clear - G. apply v3_eq; v3; field; lra. }
    rewrite F. unfold orthogonal. generalize (/ (vdot b0 b0 * vdot b1 b1 - vdot b0 b1 * vdot b0 b1) * vdot (vcross b0 b1) s). intros k. clear. split; v3; ring.
Qed.

Lemma fancy_facing d mode n : sample_facing d mode n -> independent (d_b0 d) (d_b1 d) -> vz n <> 0 ->
  exists c, let f := fancy_normal (d_b0 d) (d_b1 d) mode (d_orientation d) in f = vscale c n /\ vz f <> 0.
Proof.
  intros F I Z. assert (ONE : forall v : V3, v = vscale 1 v) by (intros v; clear; apply v3_eq; v3; ring).
  assert (R : mode = SReflection -> exists c, let f := fancy_normal (d_b0 d) (d_b1 d) mode (d_orientation d) in f = vscale c n /\ vz f <> 0).
  { intros ->. cbn in F. assert (EQ : vsub (k_out (d_b0 d) (d_b1 d)) k_in = vscale (-1) (vadd (outgoing_dir (d_b0 d) (d_b1 d)) ez)).
    { unfold k_out, outgoing_dir, k_in, ez. assert (X : vcross (d_b1 d) (d_b0 d) = vscale (-1) (vcross (d_b0 d) (d_b1 d))) by (clear; destruct (d_b0 d) as [[? ?] ?], (d_b1 d) as [[? ?] ?]; apply v3_eq; v3; ring).
      assert (Y : vlen (vcross (d_b1 d) (d_b0 d)) = vlen (vcross (d_b0 d) (d_b1 d))) by (rewrite X; unfold vlen; f_equal; clear; generalize (vcross (d_b0 d) (d_b1 d)); intros; v3; ring).
      rewrite Y, X. clear. generalize (vcross (d_b0 d) (d_b1 d)) (/ vlen (vcross (d_b0 d) (d_b1 d))). intros. apply v3_eq; v3; ring. }
    rewrite F, EQ in Z. cbn [fancy_normal]. set (s := vadd (outgoing_dir (d_b0 d) (d_b1 d)) ez) in *.
    assert (Ls : vlen s <> 0).
    { intros E. apply Z. unfold vlen in E. apply sqrt_eq_0 in E; [|clear; clearbody s; v3; nra]. clear - E. clearbody s. v3. nra. }
    exists (/ vlen s). cbv zeta. rewrite F, EQ, vscale_vscale. split.
    - f_equal. field. exact Ls.
    - intros E. apply Z. unfold vscale, vz in *. cbn [snd] in *. apply Rmult_integral in E. destruct E as [E|E]; [|rewrite E; ring].
      exfalso. revert E. apply Rinv_neq_0_compat. lra. }
  destruct mode; try (now apply R); clear R; exists 1; cbn [fancy_normal sample_facing] in *; cbv zeta; rewrite <- ONE; change ez with k_in in *;
    try destruct (d_orientation d); subst; auto.
Qed.
(** ---- FancyPtycho ---- *)
(** The pixel of the grid of a near-field model: that of the detector, divided by oversampling and magnification. *)
Definition near_grid (d : data) (o : options) (b0 b1 : V3) : Prop :=
  exists M, vscale (INR (op_os o) * M) b0 = d_b0 d /\ vscale (INR (op_os o) * M) b1 = d_b1 d /\
  match op_pd o with None => M = 1 | Some p => (p = 0 -> M = 1) /\ (p <> 0 -> M * p = p + d_dist d) end.
Definition not_at_focus (d : data) (o : options) : Prop := op_near o = true -> forall p, op_pd o = Some p -> p + d_dist d <> 0.
Lemma near_grid_ok d o : (0 < op_os o)%nat -> op_near o = true -> not_at_focus d o -> let b := from_geometry d o in near_grid d o (fst b) (snd b) /\
  exists k, k <> 0 /\ fst b = vscale k (d_b0 d) /\ snd b = vscale k (d_b1 d).
Proof.
  intros O N F. cbv zeta. unfold from_geometry. rewrite N. unfold near_geometry. assert (O' : INR (op_os o) <> 0) by (apply not_0_INR; lia).
  assert (ONE : forall v : V3, vscale 1 v = v) by (intros v; apply v3_eq; v3; ring).
  assert (D : forall k v, k <> 0 -> vscale k (vscale (/ k) v) = v) by (intros k v K; rewrite vscale_vscale, Rinv_r by exact K; apply ONE).
  assert (DIRECT : exists k, k <> 0 /\ vscale (/ INR (op_os o)) (d_b0 d) = vscale k (d_b0 d) /\ vscale (/ INR (op_os o)) (d_b1 d) = vscale k (d_b1 d)).
  { exists (/ INR (op_os o)). split; [now apply Rinv_neq_0_compat|auto]. }
  unfold near_grid. destruct (op_pd o) as [p|] eqn:P.
  - destruct (Req_EM_T p 0) as [Z|Z]; cbn [fst snd].
    + split; [|exact DIRECT]. exists 1. rewrite Rmult_1_r, !D by exact O'. repeat split. intros; contradiction.
    + specialize (F N p P). assert (M0 : (p + d_dist d) / p <> 0) by (apply Rmult_integral_contrapositive_currified; [exact F|now apply Rinv_neq_0_compat]).
      assert (K : INR (op_os o) * ((p + d_dist d) / p) <> 0) by (apply Rmult_integral_contrapositive_currified; assumption).
      split; [|exists (/ (INR (op_os o) * ((p + d_dist d) / p))); split; [now apply Rinv_neq_0_compat|auto]].
      exists ((p + d_dist d) / p). rewrite !D by exact K. repeat split; [intros; contradiction|]. intros _. field. exact Z.
  - cbn [fst snd]. split; [|exact DIRECT]. exists 1. rewrite Rmult_1_r, !D by exact O'. repeat split.
Qed.
Lemma from_geometry_independent d o : (0 < op_os o)%nat -> usable d -> independent (d_b0 d) (d_b1 d) -> not_at_focus d o -> independent (fst (from_geometry d o)) (snd (from_geometry d o)).
Proof.
  intros O (_ & H & W & L & Z & _) I F. destruct (op_near o) eqn:N.
  - destruct (near_grid_ok d o O N F) as (_ & k & K & -> & ->). now apply indep_scale.
  - unfold from_geometry. rewrite N. apply (ew_normal _ _ _ _ _ _ I H W). nra.
Qed.
(** C75: the grid of the model: dual to the detector in the far field; in the near field that of the detector,
    divided by the oversampling and by the magnification of a diverging beam. *)
Theorem C75_grid : forall d o ch, usable d -> sensible d o -> independent (d_b0 d) (d_b1 d) -> not_at_focus d o ->
  exists m, fancy_from_dataset d o ch = Ok m /\
  (op_near o = false -> dual_grid d (f_b0 m) (f_b1 m)) /\ (op_near o = true -> near_grid d o (f_b0 m) (f_b1 m)).
Proof.
  intros d o ch U S I F. destruct (from_dataset_ok d o ch U S) as (g & ws & E & _). exists (fancy_assemble d o ch g ws). split; [exact E|].
  destruct U as (_ & H & W & _). destruct S as (_ & _ & O & _). split; intros N; cbn [fancy_assemble f_b0 f_b1].
  - unfold from_geometry. rewrite N. exact (C35_dual (d_b0 d) (d_b1 d) (d_h d) (d_w d) (d_wl d) (d_dist d) I H W).
  - exact (proj1 (near_grid_ok d o O N F)).
Qed.
Print Assumptions C75_grid.
Lemma assembled_place d o ch g ws n ix t pos : (0 < op_os o)%nat -> op_scale o <> 0 -> length (d_translations d) = length (d_patterns d) -> usable d -> independent (d_b0 d) (d_b1 d) -> not_at_focus d o ->
  sample_facing d (op_mode o) n -> vz n <> 0 -> nth_error (d_translations d) (the ix) = Some t -> let m := fancy_assemble d o ch g ws in
  position m ix t pos -> seen_at n (f_b0 m) (f_b1 m) t (fst pos + fst (f_min m), snd pos + snd (f_min m)).
Proof.
  intros O SC LT U I F SF Z Ht m P. destruct (fancy_facing d (op_mode o) n SF I Z) as (c & EC & ZC). cbv zeta in EC, ZC.
  assert (IB : independent (f_b0 m) (f_b1 m)) by (apply (from_geometry_independent d o O U I F)).
  unfold position in P. cbv zeta in P. change (f_offsets m) with (Some (repeat (0 / op_scale o, 0 / op_scale o) (length (d_patterns d)))) in P. cbv iota in P.
  destruct P as (q & Q & ->).
  assert (EQ : q = (0 / op_scale o, 0 / op_scale o)) by (apply nth_error_In, repeat_spec in Q; exact Q).
  pose proof (pixel_seen (f_b0 m) (f_b1 m) (f_normal m) n c t IB ZC EC) as R.
  assert (EP : translations_to_pixel (f_b0 m) (f_b1 m) (f_normal m) t =
     (fst (translations_to_pixel (f_b0 m) (f_b1 m) (f_normal m) t) - fst (f_min m) + f_scale m * fst q + fst (f_min m),
      snd (translations_to_pixel (f_b0 m) (f_b1 m) (f_normal m) t) - snd (f_min m) + f_scale m * snd q + snd (f_min m))).
  { destruct (translations_to_pixel _ _ _ _) as [x y]. rewrite EQ. change (f_scale m) with (op_scale o). cbn [fst snd]. f_equal; field; exact SC. }
  cbn [fst snd]. rewrite <- EP. exact R.
Qed.
(** C75: every exposure is simulated at its own place: up to an origin common to all, the beam displaced by its
    translation meets the sample in a point that the scattered wave carries to that place of the grid. *)
Theorem C75_positions : forall d o ch n, usable d -> sensible d o -> independent (d_b0 d) (d_b1 d) -> not_at_focus d o -> sample_facing d (op_mode o) n -> vz n <> 0 ->
  exists m x y, fancy_from_dataset d o ch = Ok m /\ forall ix t, nth_error (d_translations d) (the ix) = Some t ->
  exists p, position m ix t p /\ seen_at n (f_b0 m) (f_b1 m) t (fst p + x, snd p + y).
Proof.
  intros d o ch n U S I F SF Z. pose proof S as (LT & IN & O & CR & NM & SC & _).
  destruct (from_dataset_ok d o ch U S) as (g & ws & E & _ & G). set (m := fancy_assemble d o ch g ws) in *.
  exists m, (fst (f_min m)), (snd (f_min m)). split; [exact E|]. intros ix t Ht.
  assert (Hk : (the ix < length (d_patterns d))%nat) by (rewrite <- LT; apply nth_error_Some; congruence).
  destruct (weights_exist d (the ix) IN Hk) as (w & Hw & _). destruct (G ix t w Ht Hw) as (p & P & _). exists p. split; [exact P|].
  exact (assembled_place d o ch g ws n ix t p O SC LT U I F SF Z Ht P).
Qed.
Print Assumptions C75_positions.
(** C75: SimplePtycho has the far-field grid of the detector. *)
Theorem C75_simple_grid : forall d, usable d -> independent (d_b0 d) (d_b1 d) -> exists m, simple_from_dataset d = Ok m /\ dual_grid d (s_b0 m) (s_b1 m).
Proof.
  intros d (NE & H & W & _) I. unfold simple_from_dataset. destruct (d_patterns d); [contradiction|]. eexists. split; [reflexivity|]. cbn [s_b0 s_b1].
  exact (C35_dual (d_b0 d) (d_b1 d) (d_h d) (d_w d) (d_wl d) (d_dist d) I H W).
Qed.
Print Assumptions C75_simple_grid.
(** C76: MultislicePtycho has the far-field grid of the detector, and simulates every exposure at its own place of it. *)
Theorem C76_positions : forall d mo ch n, usable d -> ms_sensible d mo -> independent (d_b0 d) (d_b1 d) -> sample_facing d (op_mode (mo_common mo)) n -> vz n <> 0 ->
  exists mm x y, multislice_from_dataset d mo ch = Ok mm /\ let m := ms_base (mm_model mm) in dual_grid d (f_b0 m) (f_b1 m) /\
  forall ix t, nth_error (d_translations d) (the ix) = Some t -> exists p, position m ix t p /\ seen_at n (f_b0 m) (f_b1 m) t (fst p + x, snd p + y).
Proof.
  intros d mo ch n U S I SF Z. pose proof S as ((LT & IN & O & CR & NM & SC & _) & _). pose proof U as (_ & H & W & _).
  destruct (ms_from_dataset_ok d mo ch U S) as (ws & E & G). set (mm := ms_assemble _ _ _ _ _) in *.
  exists mm, (fst (f_min (ms_base (mm_model mm)))), (snd (f_min (ms_base (mm_model mm)))). split; [exact E|]. cbv zeta. split.
  { exact (C35_dual (d_b0 d) (d_b1 d) (d_h d) (d_w d) (d_wl d) (d_dist d) I H W). }
  intros ix t Ht. assert (Hk : (the ix < length (d_patterns d))%nat) by (rewrite <- LT; apply nth_error_Some; congruence).
  destruct (ms_weight_exists d (the ix) IN Hk) as (w & Hw & _). destruct (G ix t w Ht Hw) as (p & P & _). exists p. split; [exact P|].
  refine (assembled_place d (far_only (mo_common mo)) _ _ _ n ix t p O SC LT U I _ SF Z Ht P). intros N. discriminate.
Qed.
Print Assumptions C76_positions.
(** ---- the support of the probe ---- *)
Definition with_radius (o : options) (r : option R) : options := {|
  op_n_modes := op_n_modes o; op_randomize := op_randomize o; op_dm_rank := op_dm_rank o; op_planes := op_planes o; op_scale := op_scale o;
  op_saturation := op_saturation o; op_radius := r; op_crop := op_crop o; op_pd := op_pd o; op_mode := op_mode o;
  op_os := op_os o; op_fourier := op_fourier o; op_shifts := op_shifts o; op_simulate := op_simulate o; op_exp := op_exp o;
  op_phase_only := op_phase_only o; op_pad := op_pad o; op_near := op_near o; op_qe := op_qe o |}.
(** Distance of pixel (i, j) from the middle of an n0 x n1 array. *)
Definition from_centre (n0 n1 i j : nat) : R := sqrt ((INR i - (INR n0 - 1) / 2) ^ 2 + (INR j - (INR n1 - 1) / 2) ^ 2).
(** C75: with a support radius nothing illuminates the sample at that distance from the centre or further out, and
    within it every mode is what it is without the radius (real-space probes; norms not 0). *)
Theorem C75_support : forall d o ch r m m0, fancy_from_dataset d (with_radius o (Some r)) ch = Ok m -> fancy_from_dataset d (with_radius o None) ch = Ok m0 ->
  op_fourier o = false -> f_norm m <> 0 -> f_norm m0 <> 0 ->
  f_n0 m = f_n0 m0 /\ f_n1 m = f_n1 m0 /\ forall W k i j,
  (r <= from_centre (f_n0 m) (f_n1 m) i j -> shot m W k i j = RtoC 0) /\
  (from_centre (f_n0 m) (f_n1 m) i j < r -> (RtoC (f_norm m) * shot m W k i j = RtoC (f_norm m0) * shot m0 W k i j)%C).
Proof.
  intros d o ch r m m0 E E0 FO N N0. unfold fancy_from_dataset in E, E0. destruct (d_patterns d) as [|x l]; [discriminate|].
  change (from_guess d (with_radius o (Some r))) with (from_guess d (with_radius o None)) in E.
  destruct (from_guess d (with_radius o None)) as [g|x0]; [|discriminate]. cbn [rbind] in E, E0.
  change (from_weights d (with_radius o (Some r))) with (from_weights d (with_radius o None)) in E.
  destruct (from_weights d (with_radius o None)) as [ws|x0]; [|discriminate]. cbn [rbind] in E, E0. injection E as <-. injection E0 as <-.
  set (o1 := with_radius o (Some r)) in *. set (o0 := with_radius o None) in *. set (m := fancy_assemble d o1 ch g ws) in *. set (m0 := fancy_assemble d o0 ch g ws) in *.
  split; [reflexivity|]. split; [reflexivity|]. intros W k i j.
  assert (NC : RtoC (f_norm m) <> RtoC 0) by (intros X; apply N; now injection X).
  assert (NC0 : RtoC (f_norm m0) <> RtoC 0) by (intros X; apply N0; now injection X).
  assert (SUP : f_support m i j = if Rlt_dec (from_centre (f_n0 m) (f_n1 m) i j) r then true else false) by reflexivity.
  unfold shot. change (f_fourier m) with (op_fourier o). change (f_fourier m0) with (op_fourier o). rewrite FO. split; intros H.
  - unfold mixture. rewrite SUP. destruct (Rlt_dec _ r); [lra|]. apply csum_zero'. intros q Hq. apply Cmult_0_r.
  - unfold mixture. rewrite SUP. destruct (Rlt_dec _ r); [|lra]. change (f_support m0 i j) with true. cbv iota.
    assert (LL : length (f_probe m) = length (f_probe m0)).
    { unfold m, m0. cbn [fancy_assemble f_probe]. rewrite !map_length. unfold from_modes, o1, o0. cbn [op_radius with_radius]. now rewrite map_length. }
    rewrite LL, !csum_scal. apply csum_ext. intros q Hq.
    assert (V : (RtoC (f_norm m) * nth q (f_probe m) (fun _ _ => RtoC 0) i j = RtoC (f_norm m0) * nth q (f_probe m0) (fun _ _ => RtoC 0) i j)%C).
    { set (base := from_modes d o0 ch g).
      assert (P : f_probe m = map (fun (p : img) a b => (p a b / RtoC (f_norm m))%C) (map (restrict (f_support m)) base)) by reflexivity.
      assert (P0 : f_probe m0 = map (fun (p : img) a b => (p a b / RtoC (f_norm m0))%C) base) by reflexivity.
      assert (LQ : (q < length base)%nat) by (rewrite P0, map_length in Hq; exact Hq).
      rewrite P, P0. clear P P0.
      assert (NM : forall (A B : Type) (f : A -> B) (l : list A) (da : A) (db : B), (q < length l)%nat -> nth q (map f l) db = f (nth q l da))
        by (intros A B f l' da db Hl; rewrite (nth_indep _ db (f da)) by (rewrite map_length; exact Hl); apply map_nth).
      rewrite (NM img img _ _ (fun _ _ => RtoC 0)) by (rewrite map_length; exact LQ). rewrite (NM img img _ _ (fun _ _ => RtoC 0)) by exact LQ.
      rewrite (NM img img _ base (fun _ _ => RtoC 0)) by exact LQ.
      unfold restrict. rewrite SUP. field. split; assumption. }
    replace (RtoC (f_norm m) * (W k q * nth q (f_probe m) (fun _ _ => RtoC 0) i j))%C with (W k q * (RtoC (f_norm m) * nth q (f_probe m) (fun _ _ => RtoC 0) i j))%C by ring.
    rewrite V. ring.
Qed.
Print Assumptions C75_support.
(** ---- the object to start from ---- *)
(** C75: with t.rand's values in [0, 1], the first plane of the object shifts the phase by at most half of randomize_ang
    (a pure phase; with phase_only but no exponentiate_obj, its real part), and the further planes hold 0.05. *)
Theorem C75_object : forall d o ch m, fancy_from_dataset d o ch = Ok m -> (forall a b, 0 <= rand_obj ch a b <= 1) -> 0 <= op_randomize o -> forall a b,
  (op_exp o = true \/ op_phase_only o = false -> exists x, Rabs x <= op_randomize o / 2 /\ transmit m (f_obj m 0 a b) = cis x) /\
  (op_exp o = false -> op_phase_only o = true -> exists x, Rabs x <= op_randomize o / 2 /\ transmit m (f_obj m 0 a b) = RtoC (cos x)) /\
  (forall q, (0 < q)%nat -> f_obj m q a b = RtoC (5 / 100)).
Proof.
  intros d o ch m E RB R0 a b. unfold fancy_from_dataset in E. destruct (d_patterns d) as [|x l]; [discriminate|].
  destruct (from_guess d o) as [g|]; [|discriminate]. cbn [rbind] in E. destruct (from_weights d o) as [ws|]; [|discriminate]. cbn [rbind] in E. injection E as <-.
  set (v := op_randomize o * (rand_obj ch a b - / 2)).
  assert (V : Rabs v <= op_randomize o / 2).
  { unfold v. rewrite Rabs_mult, (Rabs_pos_eq _ R0). specialize (RB a b). assert (Rabs (rand_obj ch a b - / 2) <= / 2) by (apply Rabs_le; lra). nra. }
  unfold transmit. cbn [fancy_assemble f_exp f_phase_only f_obj]. unfold from_object. cbn [Nat.eqb]. fold v.
  assert (CE : cexp (Ci * RtoC v)%C = cis v) by (unfold cexp, Ci, RtoC, Cmult; cbn [fst snd]; replace (0 * v - 1 * 0) with 0 by ring; replace (0 * 0 + 1 * v) with v by ring; rewrite exp_0; apply Cmult_1_l).
  split; [|split].
  - intros H. exists v. split; [exact V|]. destruct (op_exp o).
    + destruct (op_phase_only o); unfold RtoC; cbn [fst snd]; [reflexivity|]. rewrite Ropp_0, exp_0. apply Cmult_1_l.
    + destruct H as [H|H]; [discriminate|]. rewrite H. exact CE.
  - intros X P. exists v. split; [exact V|]. rewrite X, P, CE. reflexivity.
  - intros q Hq. destruct q; [lia|]. cbn [Nat.eqb]. destruct (op_phase_only o); reflexivity.
Qed.
Print Assumptions C75_object.
Lemma rmax_nonneg l : (forall x, In x l -> 0 <= x) -> 0 <= rmax l.
Proof.
  intros H. unfold rmax. destruct l as [|a l]; [lra|]. assert (G : 0 <= a) by (apply H; now left). clear H. revert a G.
  induction l as [|b l IH]; intros a G; cbn; [exact G|]. apply IH. eapply Rle_trans; [exact G|apply Rmax_l].
Qed.
Lemma amax_nonneg n m x : 0 <= amax n m x.
Proof. unfold amax. apply rmax_nonneg. intros y Hy. apply in_map_iff in Hy. destruct Hy as (i & <- & _). apply rmax_nonneg. intros z Hz. apply in_map_iff in Hz. destruct Hz as (j & <- & _). apply Cmod_ge_0. Qed.
(** C75: and the second and further probe modes hold random values no larger than 1.5 percent of the peak of the
    first one (t.rand's values have real and imaginary part in [0, 1]; real-space probe, no support). *)
Theorem C75_modes : forall d o ch m, fancy_from_dataset d o ch = Ok m -> (forall k i j, 0 <= fst (rand_mode ch k i j) <= 1 /\ 0 <= snd (rand_mode ch k i j) <= 1) ->
  op_fourier o = false -> op_radius o = None -> (1 <= op_n_modes o)%nat -> f_norm m <> 0 ->
  length (f_probe m) = op_n_modes o /\ (forall i j, (i < f_n0 m)%nat -> (j < f_n1 m)%nat -> Cmod (nth 0 (f_probe m) (fun _ _ => RtoC 0) i j) <= 1) /\
  forall k i j, (0 < k)%nat -> Cmod (nth k (f_probe m) (fun _ _ => RtoC 0) i j) <= 15 / 1000.
Proof.
  intros d o ch m E RB FO RA NM N. unfold fancy_from_dataset in E. destruct (d_patterns d) as [|x l]; [discriminate|].
  destruct (from_guess d o) as [g|]; [|discriminate]. cbn [rbind] in E. destruct (from_weights d o) as [ws|]; [|discriminate]. cbn [rbind] in E. injection E as <-.
  set (m := fancy_assemble d o ch g ws) in *. set (n0 := from_n0 d o). set (n1 := from_n1 d o).
  assert (EM : from_modes d o ch g = g :: map (fun k => fun i j => (RtoC (/ 100 * amax n0 n1 g) * rand_mode ch k i j)%C) (seq 0 (op_n_modes o - 1))) by (unfold from_modes; now rewrite RA, FO).
  assert (EN : f_norm m = amax n0 n1 g) by (change (f_norm m) with (amax n0 n1 (nth 0 (from_modes d o ch g) no_img)); now rewrite EM).
  assert (EP : f_probe m = map (fun (p : img) i j => (p i j / RtoC (f_norm m))%C) (g :: map (fun k => fun i j => (RtoC (/ 100 * amax n0 n1 g) * rand_mode ch k i j)%C) (seq 0 (op_n_modes o - 1)))) by (rewrite <- EM; reflexivity).
  assert (PK : forall i j, (i < n0)%nat -> (j < n1)%nat -> Cmod (g i j) <= amax n0 n1 g) by (intros; now apply amax_ge).
  assert (NP : 0 <= amax n0 n1 g) by (apply amax_nonneg).
  assert (NQ : 0 < f_norm m) by (rewrite EN in *; lra).
  assert (NC : RtoC (f_norm m) <> RtoC 0) by (intros X; apply N; now injection X).
  assert (CD : forall z, Cmod (z / RtoC (f_norm m))%C = Cmod z / f_norm m) by (intros z; unfold Cdiv; rewrite Cmod_mult, Cmod_inv, Cmod_R, Rabs_pos_eq by (auto; lra); reflexivity).
  split; [|split].
  - rewrite EP. cbn [map length]. rewrite !map_length, seq_length. lia.
  - intros i j Hi Hj. rewrite EP. cbn [map nth]. rewrite CD, EN. apply (Rmult_le_reg_r (amax n0 n1 g)); [lra|]. unfold Rdiv. rewrite Rmult_assoc, Rinv_l by lra. rewrite Rmult_1_l, Rmult_1_r. now apply PK.
  - intros k i j Hk. rewrite EP. destruct k as [|k]; [lia|]. cbn [map nth]. rewrite map_map.
    destruct (Nat.lt_ge_cases k (op_n_modes o - 1)) as [L|L].
    + rewrite nth_map_seq by exact L. rewrite CD, Cmod_mult, Cmod_R, EN, Rabs_pos_eq by lra.
      assert (B : Cmod (rand_mode ch k i j) <= 15 / 10).
      { unfold Cmod. apply Rsqr_incr_0_var; [|lra]. rewrite Rsqr_sqrt by nra. unfold Rsqr. destruct (RB k i j) as [[? ?] [? ?]]. nra. }
      rewrite EN in NQ. replace (/ 100 * amax n0 n1 g * Cmod (rand_mode ch k i j) / amax n0 n1 g) with (/ 100 * Cmod (rand_mode ch k i j)) by (field; lra). lra.
    + rewrite nth_overflow by (rewrite map_length, seq_length; exact L). rewrite Cmod_0. lra.
Qed.
Print Assumptions C75_modes.
(** C74's case meets the hypotheses of the theorems about grids and positions. *)
Example C75_case_grid : independent (d_b0 two_shots) (d_b1 two_shots) /\ not_at_focus two_shots (defaults true 1) /\ not_at_focus two_shots (defaults false 1) /\
  (exists n, sample_facing two_shots (op_mode (defaults false 1)) n /\ vz n <> 0).
Proof.
  split; [|split; [|split]].
  - unfold independent. cbn. intros E. apply (f_equal vz) in E. unfold vcross, vx, vy, vz in E. cbn [fst snd] in E. lra.
  - intros _ p E. cbn in E. discriminate.
  - intros H. cbn in H. discriminate.
  - exists (0, 0, 1). split; [reflexivity|]. cbn. lra.
Qed.
