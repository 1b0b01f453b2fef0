(** Property theorems about the initial probe guesses (C74). *)
From Verif Require Import Base FinSum Fourier Model_Prop Spec_Prop Proofs_Prop Proofs_AS Model_Image Spec_Image Proofs_Image
  Model_Interact Spec_Interact Proofs_Interact Model_Meas Spec_Meas Proofs_Meas Model_Geom Model_Models Model_Forward Spec_Forward Proofs_Forward Model_Init Spec_Init.
From Coquelicot Require Import Complex.
Local Open Scope R_scope.

Lemma sharp_signal d i j : sharp_intensities d i j = signal d i j.
Proof.
  unfold sharp_intensities, signal.
  assert (E : lsum (map (fun im => masked_image d im i j) (d_patterns d)) / INR (length (d_patterns d)) = average d i j).
  { unfold average. f_equal. apply lsum_ext. intros im _. unfold masked_image. destruct (d_mask d i j); field. }
  cbv zeta. rewrite E. destruct (d_background d); [apply Rmax_comm|reflexivity].
Qed.
Lemma place_zero n m y i j : (i < n)%nat -> (j < m)%nat -> place n m 0 0 y i j = y i j.
Proof. intros Hi Hj. apply (place_at n m 0 0); assumption. Qed.
Lemma far_focus d k l : (0 < d_h d)%nat -> (0 < d_w d)%nat -> (k < d_h d)%nat -> (l < d_w d)%nat ->
  far_field (d_h d) (d_w d) (sharp_focus d 1) k l = RtoC (sqrt (signal d k l)).
Proof.
  intros H W Hk Hl.
  rewrite (far_ext (d_h d) (d_w d) _ (inverse_far_field (d_h d) (d_w d) (sqrt_img (sharp_intensities d))) H W).
  - rewrite (proj2 (far_inverse (d_h d) (d_w d) (sqrt_img (sharp_intensities d)) H W)) by assumption.
    unfold sqrt_img. now rewrite sharp_signal.
  - intros i j Hi Hj. unfold sharp_focus. rewrite !Nat.mul_1_l, !Nat.sub_diag. now apply place_zero.
  - assumption.
  - assumption.
Qed.
Lemma nrm2_sqrt x : 0 <= x -> nrm2 (RtoC (sqrt x)) = x.
Proof. intros H. rewrite nrm2_RtoC. now apply sqrt_sqrt. Qed.
Lemma focus_energy d os : usable d -> (0 < os)%nat ->
  energy (os * d_h d) (os * d_w d) (sharp_focus d os) = total_of (d_h d) (d_w d) (signal d).
Proof.
  intros (_ & H & W & _ & _ & _ & _ & P) O. unfold sharp_focus.
  destruct (half_mono (d_h d) (os * d_h d) ltac:(nia)) as [_ A]. destruct (half_mono (d_w d) (os * d_w d) ltac:(nia)) as [_ B].
  rewrite place_energy by assumption. rewrite (proj2 (far_energy (d_h d) (d_w d) _ H W)).
  unfold energy, total_of. apply rsum_ext. intros i Hi. apply rsum_ext. intros j Hj.
  unfold sqrt_img. rewrite sharp_signal. apply nrm2_sqrt. now apply P.
Qed.
Lemma freq_roll n k : (k < n)%nat -> freq n (roll n (n / 2) k) = IZR (off n k) / INR n.
Proof.
  intros H. rewrite roll_fft by lia. unfold freq, off. f_equal. f_equal.
  pose proof (Nat.div_mod n 2 ltac:(lia)) as D. pose proof (Nat.mod_upper_bound n 2 ltac:(lia)) as B.
  destruct (Nat.lt_ge_cases k (n / 2)) as [L|L].
  - rewrite Nat.mod_small by lia. destruct (Z.ltb_spec (2 * Z.of_nat (k + (n - n / 2))) (Z.of_nat n)); lia.
  - replace ((k + (n - n / 2)) mod n)%nat with (k - n / 2)%nat.
    + destruct (Z.ltb_spec (2 * Z.of_nat (k - n / 2)) (Z.of_nat n)); lia.
    + replace (k + (n - n / 2))%nat with (k - n / 2 + 1 * n)%nat by lia. rewrite Nat.mod_add by lia. rewrite Nat.mod_small; lia.
Qed.
Lemma vlen_nonneg v : 0 <= vlen v. Proof. apply sqrt_pos. Qed.
Lemma spacing_value wl dist n b : 0 < wl -> 0 < dist -> (0 < n)%nat -> vlen b <> 0 -> guess_spacing wl dist n b = wl * dist / (INR n * vlen b).
Proof.
  intros Hw Hd Hn Hb. pose proof (vlen_nonneg b). assert (0 < vlen b) by lra. pose proof (lt_0_INR n Hn). unfold guess_spacing. rewrite !vlen_scale.
  rewrite !Rabs_right; try (apply Rle_ge, Rlt_le); try assumption; try (apply Rinv_0_lt_compat; try assumption; apply Rmult_lt_0_compat; assumption).
  field. split; lra.
Qed.
Lemma guess_kpar d n m k l : usable d -> (k < n)%nat -> (l < m)%nat ->
  kpar2 n m (guess_spacing (d_wl d) (d_dist d) n (d_b0 d)) (guess_spacing (d_wl d) (d_dist d) m (d_b1 d))
    (roll n (n / 2) k) (roll m (m / 2) l) =
  (2 * PI / d_wl d) ^ 2 * ((((IZR (off n k) * vlen (d_b0 d)) ^ 2 + (IZR (off m l) * vlen (d_b1 d)) ^ 2)) / d_dist d ^ 2).
Proof.
  intros (_ & H & W & Hw & Hd & B0 & B1 & _) Hk Hl. unfold kpar2. rewrite !freq_roll by assumption. rewrite !spacing_value by (assumption || lia).
  assert (0 < INR n) by (apply lt_0_INR; lia). assert (0 < INR m) by (apply lt_0_INR; lia). field. repeat split; lra.
Qed.
Lemma guess_norm d N M n m z i j : usable d -> (0 < n)%nat -> (0 < m)%nat ->
  let k2 := kpar2 N M (guess_spacing (d_wl d) (d_dist d) n (d_b0 d)) (guess_spacing (d_wl d) (d_dist d) m (d_b1 d)) i j in
  nrm2 (guess_propagator d N M n m z i j) <= 1 /\ (k2 <= (2 * PI / d_wl d) ^ 2 -> nrm2 (guess_propagator d N M n m z i j) = 1).
Proof.
  intros (_ & H & W & Hw & Hd & B0 & B1 & _) Hn Hm k2. unfold guess_propagator.
  pose proof (vlen_nonneg (d_b0 d)). pose proof (vlen_nonneg (d_b1 d)). pose proof (lt_0_INR _ Hn). pose proof (lt_0_INR _ Hm).
  assert (S0 : 0 < guess_spacing (d_wl d) (d_dist d) n (d_b0 d)).
  { rewrite spacing_value by assumption. apply Rdiv_lt_0_compat; apply Rmult_lt_0_compat; lra. }
  assert (S1 : 0 < guess_spacing (d_wl d) (d_dist d) m (d_b1 d)).
  { rewrite spacing_value by assumption. apply Rdiv_lt_0_compat; apply Rmult_lt_0_compat; lra. }
  rewrite as_closed by assumption. rewrite nrm2_cexp. unfold k2.
  pose proof (decay_nonneg (d_wl d) (kpar2 N M (guess_spacing (d_wl d) (d_dist d) n (d_b0 d)) (guess_spacing (d_wl d) (d_dist d) m (d_b1 d)) i j)) as D.
  pose proof (Rabs_pos z). split.
  - apply exp_le_1. nra.
  - intros L. unfold wave_decay. cbv zeta. destruct (Rle_dec _ _) as [_|C]; [|contradiction].
    replace (2 * - (0 * Rabs z)) with 0 by ring. apply exp_0.
Qed.
Lemma guess_unit d n m z k l : usable d -> (k < n)%nat -> (l < m)%nat ->
  nrm2 (guess_propagator d n m n m z (roll n (n / 2) k) (roll m (m / 2) l)) <= 1 /\
  (within_45_degrees d n m k l -> nrm2 (guess_propagator d n m n m z (roll n (n / 2) k) (roll m (m / 2) l)) = 1).
Proof.
  intros U Hk Hl. pose proof U as (_ & H & W & Hw & Hd & _ & _ & P).
  destruct (guess_norm d n m n m z (roll n (n / 2) k) (roll m (m / 2) l) U ltac:(lia) ltac:(lia)) as [A B].
  split; [exact A|]. intros C. apply B. rewrite guess_kpar by assumption.
  rewrite <- (Rmult_1_r ((2 * PI / d_wl d) ^ 2)) at 2. apply Rmult_le_compat_l; [apply pow2_ge_0|].
  apply (Rmult_le_reg_r (d_dist d ^ 2)); [nra|]. unfold Rdiv. rewrite Rmult_assoc, Rinv_l by nra. rewrite Rmult_1_r, Rmult_1_l. exact C.
Qed.
(** C74: the SHARP-style guess, without oversampling: its far-field intensity is exactly the average pattern, less
    the background; ... *)
Theorem C74_sharp_pattern : forall d k l, usable d -> (k < d_h d)%nat -> (l < d_w d)%nat ->
  Cmod (far_field (d_h d) (d_w d) (SHARP_style_probe d None 1) k l) ^ 2 = signal d k l.
Proof.
  intros d k l U Hk Hl. pose proof U as (_ & H & W & _ & _ & _ & _ & P). unfold SHARP_style_probe. rewrite <- nrm2_Cmod, far_focus by assumption.
  apply nrm2_sqrt. now apply P.
Qed.
Print Assumptions C74_sharp_pattern.
(** ... its phases are all 0; ... *)
Theorem C74_sharp_phase : forall d k l, usable d -> (k < d_h d)%nat -> (l < d_w d)%nat ->
  snd (far_field (d_h d) (d_w d) (SHARP_style_probe d None 1) k l) = 0 /\ 0 <= fst (far_field (d_h d) (d_w d) (SHARP_style_probe d None 1) k l).
Proof.
  intros d k l U Hk Hl. pose proof U as (_ & H & W & _ & _ & _ & _ & P). unfold SHARP_style_probe. rewrite far_focus by assumption.
  split; [reflexivity|]. apply sqrt_pos.
Qed.
Print Assumptions C74_sharp_phase.
(** ... a propagation distance does not change that intensity at any pixel within 45 degrees of the axis, and
    raises it nowhere. *)
Theorem C74_sharp_propagated : forall d z k l, usable d -> (k < d_h d)%nat -> (l < d_w d)%nat ->
  Cmod (far_field (d_h d) (d_w d) (SHARP_style_probe d (Some z) 1) k l) ^ 2 <= signal d k l /\
  (within_45_degrees d (d_h d) (d_w d) k l -> Cmod (far_field (d_h d) (d_w d) (SHARP_style_probe d (Some z) 1) k l) ^ 2 = signal d k l).
Proof.
  intros d z k l U Hk Hl. pose proof U as (_ & H & W & Hw & Hd & _ & _ & P). unfold SHARP_style_probe. rewrite !Nat.mul_1_l.
  rewrite <- nrm2_Cmod, far_near, far_focus, nrm2_mult, nrm2_sqrt by (try assumption; now apply P).
  destruct (guess_unit d (d_h d) (d_w d) z k l U Hk Hl) as [A B].
  pose proof (P k l Hk Hl). split; [nra|]. intros C. rewrite B by exact C. ring.
Qed.
Print Assumptions C74_sharp_propagated.
(** C74: for every oversampling the guess holds as many photons as the average pattern. *)
Theorem C74_sharp_power : forall d os, usable d -> (0 < os)%nat ->
  energy (os * d_h d) (os * d_w d) (SHARP_style_probe d None os) = total_of (d_h d) (d_w d) (signal d).
Proof. intros d os U O. unfold SHARP_style_probe. now apply focus_energy. Qed.
Print Assumptions C74_sharp_power.
(** C74: a Gaussian guess holds the mean number of photons of a pattern (the mask is not used), ... *)
Lemma gaussian_power n m s0 s1 a c0 c1 i j : Cmod (gaussian n m s0 s1 a c0 c1 i j) ^ 2 = a ^ 2 * exp (2 * fst (gaussian_axis n s0 c0 i + gaussian_axis m s1 c1 j)%C).
Proof. unfold gaussian, cexp. rewrite <- nrm2_Cmod, nrm2_mult, nrm2_cexp, nrm2_RtoC. ring. Qed.
Theorem C74_gaussian_power : forall d b0 b1 n m s0 s1 pd, (0 < n)%nat -> (0 < m)%nat -> 0 <= mean_total d ->
  energy n m (gaussian_probe d b0 b1 n m s0 s1 pd) = mean_total d.
Proof.
  intros d b0 b1 n m s0 s1 pd Hn Hm P. unfold gaussian_probe. cbv zeta.
  match goal with |- context [Cmod (?g _ _) ^ 2] => set (g0 := g) end.
  set (power := rsum n (fun i => rsum m (fun j => Cmod (g0 i j) ^ 2))).
  fold (total_of (d_h d) (d_w d)). 
  assert (Q : 0 < power).
  { unfold power. assert (G : forall i j, 0 < Cmod (g0 i j) ^ 2) by (intros i j; unfold g0; rewrite gaussian_power; pose proof (exp_pos (2 * fst (gaussian_axis n (waist (d_wl d) s0 match pd with Some z => z | None => 0 end / vlen b0) (curving (d_wl d) s0 match pd with Some z => z | None => 0 end * vlen b0 ^ 2) i + gaussian_axis m (waist (d_wl d) s1 match pd with Some z => z | None => 0 end / vlen b1) (curving (d_wl d) s1 match pd with Some z => z | None => 0 end * vlen b1 ^ 2) j)%C)); nra).
    destruct n as [|n]; [lia|]. destruct m as [|m]; [lia|]. rewrite rsum_S. apply Rplus_le_lt_0_compat.
    - apply rsum_nonneg. intros i _. apply rsum_nonneg. intros j _. apply Rlt_le, G.
    - rewrite rsum_S. apply Rplus_le_lt_0_compat; [apply rsum_nonneg; intros j _; apply Rlt_le, G|apply G]. }
  rewrite energy_scal, nrm2_RtoC, sqrt_sqrt by (apply Rmult_le_pos; [exact P|apply Rlt_le, Rinv_0_lt_compat, Q]).
  assert (E : energy n m g0 = power).
  { unfold energy, power. apply rsum_ext. intros i _. apply rsum_ext. intros j _. apply nrm2_Cmod. }
  rewrite E. change (mean_total d / power * power = mean_total d). field. lra.
Qed.
Print Assumptions C74_gaussian_power.
(** ... and is a Gaussian beam at the distance z from its focus: amplitude * exp (- x^2 / (2 q)) along each axis,
    where q is the complex width sigma^2 - i z / k, centred in the middle of the array. *)
Theorem C74_gaussian_beam : forall d b0 b1 n m s0 s1 pd, 0 < d_wl d -> 0 < s0 -> 0 < s1 -> vlen b0 <> 0 -> vlen b1 <> 0 ->
  let z := match pd with Some z => z | None => 0 end in
  exists A, 0 <= A /\ forall i j, gaussian_probe d b0 b1 n m s0 s1 pd i j =
   (RtoC A * cexp (- (RtoC (from_middle n (vlen b0) i ^ 2) / (RtoC 2 * beam_width (d_wl d) s0 z))
                   - RtoC (from_middle m (vlen b1) j ^ 2) / (RtoC 2 * beam_width (d_wl d) s1 z)))%C.
Proof.
  intros d b0 b1 n m s0 s1 pd Hw Hs0 Hs1 V0 V1 z. unfold gaussian_probe. cbv zeta. fold z.
  match goal with |- context [sqrt (?a / ?p)] => set (A := sqrt (a / p)) end.
  exists A. split; [apply sqrt_pos|]. intros i j. unfold gaussian. rewrite Cmult_1_l. do 2 f_equal.
  assert (AX : forall n s b i, 0 < s -> vlen b <> 0 ->
    gaussian_axis n (waist (d_wl d) s z / vlen b) (curving (d_wl d) s z * vlen b ^ 2) i =
    (- (RtoC (from_middle n (vlen b) i ^ 2) / (RtoC 2 * beam_width (d_wl d) s z)))%C).
  { clear - Hw. intros n s b i Hs Hb. unfold gaussian_axis, waist, curving, from_middle. cbv zeta. set (q := beam_width (d_wl d) s z). pose proof PI_RGT_0 as HPI.
    set (k := 2 * PI / d_wl d). assert (Hk : 0 < k) by (apply Rdiv_lt_0_compat; lra).
    set (x := INR i - (INR n - 1) / 2). set (p := vlen b) in *.
    assert (SQ : (s * sqrt (1 + (z / (k * s ^ 2)) ^ 2) / p) ^ 2 = s ^ 2 * (1 + (z / (k * s ^ 2)) ^ 2) / p ^ 2).
    { unfold Rdiv at 1. rewrite !Rpow_mult_distr, pow2_sqrt; [|nra]. field. repeat split; lra. }
    rewrite SQ. assert (K2 : 0 < k * s ^ 2) by (apply Rmult_lt_0_compat; [assumption|nra]).
    assert (D : 0 < z ^ 2 + (k * s ^ 2) ^ 2) by nra. assert (S2 : 0 < s ^ 2) by nra.
    assert (q1 : fst q = s ^ 2) by reflexivity. assert (q2 : snd q = - z / k) by reflexivity. destruct q as [q_1 q_2]. cbn [fst snd] in q1, q2. subst q_1 q_2.
    set (q := (s ^ 2, - z / k) : C).
    assert (Q : q <> RtoC 0) by (intros E; apply (f_equal fst) in E; cbn in E; lra).
    match goal with |- ?l = _ => assert (M : (l * (RtoC 2 * q) = - RtoC ((p * x) ^ 2))%C) end.
    { assert (R1 : / (2 * (s ^ 2 * (1 + (z / (k * s ^ 2)) ^ 2) / p ^ 2)) = p ^ 2 * k * (k * s ^ 2) / (2 * (z ^ 2 + (k * s ^ 2) ^ 2))).
      { field. repeat split; try lra; nra. }
      rewrite R1. apply C_ext; cbn -[pow]; field; repeat split; lra. }
    match goal with |- ?l = _ => set (L := l) in * end.
    transitivity ((L * (RtoC 2 * q)) / (RtoC 2 * q))%C.
    - field. split; [exact Q|]. intros E. apply RtoC_inj in E. lra.
    - rewrite M. field. split; [exact Q|]. intros E. apply RtoC_inj in E. lra. }
  rewrite !AX by assumption. ring.
Qed.
Print Assumptions C74_gaussian_beam.
(** C74: the STEM-style guess fills the cone of the given half-angle around the centre of mass of the mean pattern
    evenly, and is dark outside; ... *)
Lemma stem_focus d n m semi os k l : (0 < n)%nat -> (0 < m)%nat -> (k < n)%nat -> (l < m)%nat ->
  far_field n m (STEM_style_probe d n m semi None os) k l = stem_aperture d n m os semi k l.
Proof.
  intros Hn Hm Hk Hl. unfold STEM_style_probe. rewrite !Nat.sub_diag.
  rewrite (far_ext n m _ (inverse_far_field n m (stem_aperture d n m os semi)) Hn Hm); try assumption.
  - now apply far_inverse.
  - intros i j Hi Hj. now apply place_zero.
Qed.
Lemma in_cone_angle d os c semi i j : c = centroid (d_h d) (d_w d) (mean_image d) -> (stem_angle d os i j < semi <-> in_cone d os c semi i j).
Proof.
  intros ->. unfold stem_angle, in_cone. cbv zeta. set (c := centroid (d_h d) (d_w d) (mean_image d)).
  match goal with |- acos (vdot _ (vscale (/ vlen ?a) _)) * 1000 < _ <-> acos (vz ?b / _) * 1000 < _ => assert (E : a = b) end.
  { destruct (d_b0 d) as [[x0 y0] z0], (d_b1 d) as [[x1 y1] z1]. unfold vadd, vscale, vx, vy, vz. cbn [fst snd]. f_equal; [f_equal|]; ring. }
  rewrite E. match goal with |- context [vlen ?r] => set (v := r) end.
  replace (vdot (0, 0, 1) (vscale (/ vlen v) v)) with (vz v / vlen v); [reflexivity|].
  unfold vdot, vscale, vx, vy, vz. cbn [fst snd]. unfold Rdiv. ring.
Qed.
Lemma centre_is d c : total_of (d_h d) (d_w d) (mean_image d) <> 0 -> centre_of_mass d c -> c = centroid (d_h d) (d_w d) (mean_image d).
Proof.
  intros T (C0 & C1). unfold centroid. rewrite (surjective_pairing c). f_equal.
  - change (fst c * total_of (d_h d) (d_w d) (mean_image d) = total_of (d_h d) (d_w d) (fun i j => mean_image d i j * INR i)) in C0.
    change (fst c = total_of (d_h d) (d_w d) (fun i j => mean_image d i j * INR i) / total_of (d_h d) (d_w d) (mean_image d)). rewrite <- C0. field. exact T.
  - change (snd c * total_of (d_h d) (d_w d) (mean_image d) = total_of (d_h d) (d_w d) (fun i j => mean_image d i j * INR j)) in C1.
    change (snd c = total_of (d_h d) (d_w d) (fun i j => mean_image d i j * INR j) / total_of (d_h d) (d_w d) (mean_image d)). rewrite <- C1. field. exact T.
Qed.
Theorem C74_stem_aperture : forall d n m semi os c, (0 < n)%nat -> (0 < m)%nat -> total_of (d_h d) (d_w d) (plain_average d) <> 0 -> centre_of_mass d c ->
  exists I, 0 <= I /\ forall k l, (k < n)%nat -> (l < m)%nat ->
   (in_cone d os c semi k l -> Cmod (far_field n m (STEM_style_probe d n m semi None os) k l) ^ 2 = I) /\
   (~ in_cone d os c semi k l -> far_field n m (STEM_style_probe d n m semi None os) k l = RtoC 0).
Proof.
  intros d n m semi os c Hn Hm T CM. change (plain_average d) with (mean_image d) in T. pose proof (centre_is d c T CM) as EC.
  exists (sqrt (mean2 (d_h d) (d_w d) (mean_image d) / mean2 n m (fun i j => Cmod (if Rlt_dec (stem_angle d os i j) semi then RtoC 1 else RtoC 0) ^ 2)) ^ 2). split; [|intros k l Hk Hl; split; intros I].
  - apply pow2_ge_0.
  - rewrite stem_focus by assumption. unfold stem_aperture. destruct (Rlt_dec (stem_angle d os k l) semi) as [_|N]; [|now rewrite in_cone_angle in N by exact EC].
    rewrite Cmult_1_l, Cmod_R, pow2_abs. reflexivity.
  - rewrite stem_focus by assumption. unfold stem_aperture. destruct (Rlt_dec (stem_angle d os k l) semi) as [N|_]; [now rewrite (in_cone_angle d os c) in N by exact EC|].
    ring.
Qed.
Print Assumptions C74_stem_aperture.
(** ... its photons per pixel are those of the mean pattern, if the cone meets the array at all. *)
Theorem C74_stem_power : forall d n m semi os c k0 l0, (0 < n)%nat -> (0 < m)%nat -> (0 < d_h d)%nat -> (0 < d_w d)%nat ->
  0 < total_of (d_h d) (d_w d) (plain_average d) -> centre_of_mass d c -> (k0 < n)%nat -> (l0 < m)%nat -> in_cone d os c semi k0 l0 ->
  energy n m (STEM_style_probe d n m semi None os) / INR (n * m) = total_of (d_h d) (d_w d) (plain_average d) / INR (d_h d * d_w d).
Proof.
  intros d n m semi os c k0 l0 Hn Hm Hh Hw T CM Hk Hl I. change (plain_average d) with (mean_image d) in *. pose proof (centre_is d c ltac:(lra) CM) as EC.
  rewrite <- (proj1 (far_energy n m _ Hn Hm)). rewrite (energy_ext n m _ (stem_aperture d n m os semi)) by (intros k l A B; now apply stem_focus).
  unfold stem_aperture. cbv zeta. set (a := fun i j => if Rlt_dec (stem_angle d os i j) semi then RtoC 1 else RtoC 0).
  rewrite (energy_ext n m _ (fun i j => RtoC (sqrt (mean2 (d_h d) (d_w d) (mean_image d) / mean2 n m (fun i j => Cmod (a i j) ^ 2))) * a i j)%C) by (intros i j _ _; apply Cmult_comm).
  rewrite energy_scal, nrm2_RtoC.
  assert (E : energy n m a = INR (n * m) * mean2 n m (fun i j => Cmod (a i j) ^ 2)).
  { unfold mean2, energy. rewrite (rsum_ext n _ (fun i => rsum m (fun j => Cmod (a i j) ^ 2))) by (intros i _; apply rsum_ext; intros j _; apply nrm2_Cmod).
    field. apply not_0_INR. nia. }
  assert (P : 0 < mean2 n m (fun i j => Cmod (a i j) ^ 2)).
  { apply Rdiv_lt_0_compat; [|apply lt_0_INR; nia].
    assert (N : forall i j, 0 <= Cmod (a i j) ^ 2) by (intros; apply pow2_ge_0).
    assert (Z : 0 <= rsum n (fun i => rsum m (fun j => Cmod (a i j) ^ 2))) by (apply rsum_nonneg; intros; apply rsum_nonneg; auto).
    destruct Z as [Z|Z]; [exact Z|exfalso]. symmetry in Z. rewrite rsum_zero_iff in Z by (intros; apply rsum_nonneg; auto).
    specialize (Z k0 Hk). rewrite rsum_zero_iff in Z by auto. specialize (Z l0 Hl). cbv beta in Z. unfold a in Z.
    destruct (Rlt_dec (stem_angle d os k0 l0) semi) as [_|X]; [rewrite Cmod_1 in Z; lra|]. apply X, (in_cone_angle d os c); assumption. }
  rewrite E, sqrt_sqrt. 2:{ apply Rmult_le_pos; [|apply Rlt_le, Rinv_0_lt_compat, P]. unfold mean2. apply Rmult_le_pos; [apply Rlt_le, T|]. apply Rlt_le, Rinv_0_lt_compat, lt_0_INR. nia. }
  change (total_of (d_h d) (d_w d) (mean_image d) / INR (d_h d * d_w d)) with (mean2 (d_h d) (d_w d) (mean_image d)).
  field. split; [lra|apply not_0_INR; nia].
Qed.
Print Assumptions C74_stem_power.

(** ... and a propagation distance changes none of this within 45 degrees of the axis and raises it nowhere. *)
Theorem C74_stem_propagated : forall d n m semi os z k l, usable d -> (k < n)%nat -> (l < m)%nat ->
  let before := Cmod (far_field n m (STEM_style_probe d n m semi None os) k l) in
  let after := Cmod (far_field n m (STEM_style_probe d n m semi (Some z) os) k l) in
  after <= before /\ (within_45_degrees d n m k l -> after = before).
Proof.
  intros d n m semi os z k l U Hk Hl before after. assert (Hn : (0 < n)%nat) by lia. assert (Hm : (0 < m)%nat) by lia.
  assert (E : after ^ 2 = nrm2 (guess_propagator d n m n m z (roll n (n / 2) k) (roll m (m / 2) l)) * before ^ 2).
  { unfold after, before. rewrite <- !nrm2_Cmod, <- nrm2_mult. f_equal.
    rewrite <- far_near by assumption. unfold STEM_style_probe. rewrite !Nat.sub_diag.
    apply (far_ext n m); try assumption. intros i j Hi Hj. rewrite place_zero by assumption.
    apply near_ext; [|intros ? ? _ _; reflexivity]. intros a b Ha Hb. now rewrite place_zero. }
  destruct (guess_unit d n m z k l U Hk Hl) as [A B]. assert (0 <= before) by apply Cmod_ge_0. assert (0 <= after) by apply Cmod_ge_0.
  pose proof (nrm2_nonneg (guess_propagator d n m n m z (roll n (n / 2) k) (roll m (m / 2) l))). split.
  - apply Rsqr_incr_0_var; [unfold Rsqr; nra|assumption].
  - intros C. rewrite (B C), Rmult_1_l in E. apply Rle_antisym; (apply Rsqr_incr_0_var; [unfold Rsqr; nra|assumption]).
Qed.
Print Assumptions C74_stem_propagated.
(** C74: the near-field guess: propagated to the detector (by p, when the guess was propagated back by its
    conjugate and no frequency is evanescent) its intensity is the average pattern; for every oversampling it holds
    as many photons. *)
Lemma root_energy d : usable d -> energy (d_h d) (d_w d) (sqrt_img (sharp_intensities d)) = total_of (d_h d) (d_w d) (signal d).
Proof.
  intros (_ & H & W & _ & _ & _ & _ & P). unfold energy, total_of. apply rsum_ext. intros i Hi. apply rsum_ext. intros j Hj.
  unfold sqrt_img. rewrite sharp_signal. apply nrm2_sqrt. now apply P.
Qed.
Theorem C74_near_field_guess : forall d p os, usable d -> (0 < os)%nat ->
  (forall i j, (i < d_h d)%nat -> (j < d_w d)%nat -> Cmod (p i j) = 1) ->
  let guess := SHARP_style_near_field_probe d (fun x => near_field (d_h d) (d_w d) x (fun i j => Cconj (p i j))) os in
  (os = 1%nat -> forall i j, (i < d_h d)%nat -> (j < d_w d)%nat -> Cmod (near_field (d_h d) (d_w d) guess p i j) ^ 2 = signal d i j) /\
  energy (os * d_h d) (os * d_w d) guess = total_of (d_h d) (d_w d) (signal d).
Proof.
  intros d p os U O P guess. pose proof U as (_ & H & W & _ & _ & _ & _ & S).
  assert (P2 : forall i j, (i < d_h d)%nat -> (j < d_w d)%nat -> nrm2 (p i j) = 1) by (intros i j Hi Hj; rewrite nrm2_Cmod, P by assumption; ring).
  split.
  - intros -> i j Hi Hj. unfold guess, SHARP_style_near_field_probe. cbn [Nat.eqb]. rewrite <- nrm2_Cmod.
    rewrite near_compose by assumption.
    rewrite (near_one (d_h d) (d_w d)); try assumption.
    + unfold sqrt_img. rewrite sharp_signal. apply nrm2_sqrt. now apply S.
    + intros k l Hk Hl. unfold times. rewrite ?(Cmult_comm (Cconj _)), mult_conj, P2 by assumption. reflexivity.
  - unfold guess, SHARP_style_near_field_probe. rewrite <- (root_energy d U).
    assert (E : energy (d_h d) (d_w d) (near_field (d_h d) (d_w d) (sqrt_img (sharp_intensities d)) (fun i j => Cconj (p i j))) = energy (d_h d) (d_w d) (sqrt_img (sharp_intensities d))).
    { apply near_energy_eq; try assumption. intros k l Hk Hl. rewrite nrm2_conj. now apply P2. }
    destruct (Nat.eqb_spec os 1) as [->|N].
    + now rewrite !Nat.mul_1_l.
    + rewrite upsample_energy by lia. rewrite Rmult_1_l. exact E.
Qed.
Print Assumptions C74_near_field_guess.

(** A dataset of two patterns, with a masked pixel and a background, that meets the hypotheses. *)
Definition two_shots : data := {|
  d_h := 2; d_w := 2; d_patterns := [ (fun i j => INR (i + 2 * j)); (fun i j => 4) ]; d_translations := [ (0, 0, 0); (1, 2, 0) ];
  d_mask := fun i j => negb (Nat.eqb i j && Nat.eqb i 0); d_background := Some (fun _ _ => 2); d_qe := None; d_intensities := None;
  d_b0 := (0, - 1, 0); d_b1 := (- 1, 0, 0); d_dist := 10; d_wl := 1; d_orientation := None |}.
Example C74_case : usable two_shots /\ signal two_shots 0 0 = 0 /\ signal two_shots 1 1 = 3 / 2 /\ within_45_degrees two_shots 2 2 0 1 /\ 0 <= mean_total two_shots.
Proof.
  assert (V0 : vlen (d_b0 two_shots) = 1) by (unfold vlen, vdot, vx, vy, vz; cbn [two_shots d_b0 fst snd]; rewrite <- sqrt_1; f_equal; ring).
  assert (V1 : vlen (d_b1 two_shots) = 1) by (unfold vlen, vdot, vx, vy, vz; cbn [two_shots d_b1 fst snd]; rewrite <- sqrt_1; f_equal; ring).
  split; [|split; [|split; [|split]]].
  - unfold usable. rewrite V0, V1. cbn [two_shots d_patterns d_h d_w d_wl d_dist]. repeat split; try lia; try lra; try discriminate.
    intros i j _ _. unfold signal. cbn [two_shots d_background]. apply Rmax_l.
  - unfold signal, average. cbn [two_shots d_background d_mask d_patterns]. unfold lsum. cbn. apply Rmax_left. lra.
  - unfold signal, average. cbn [two_shots d_background d_mask d_patterns]. unfold lsum. cbn. rewrite Rmax_right; lra.
  - unfold within_45_degrees. rewrite V0, V1. cbn [two_shots d_dist]. unfold off. cbn. lra.
  - unfold mean_total, total_of. cbn [two_shots d_patterns d_h d_w]. unfold lsum, rsum. cbn. lra.
Qed.
