(** The forward model of Bragg2DPtycho (C69). *)
From Verif Require Import Base FinSum Fourier Model_Prop Spec_Prop Proofs_Prop Properties_Prop Model_Image Spec_Image Proofs_Image
  Model_Interact Spec_Interact Proofs_Interact Model_Meas Spec_Meas Proofs_Meas Model_Geom Spec_Geom Proofs_Geom Properties_Geom Model_Models Model_Forward Spec_Forward Proofs_Forward Properties_Forward Proofs_ForwardSym Properties_ForwardSym Properties_ForwardPower Properties_Multislice.
From Coquelicot Require Import Complex.
From Flocq Require Import Core.Raux.
Local Open Scope R_scope.

Lemma angle_cis x : - PI < x <= 0 -> angle (cis x) = x.
Proof.
  intros [A B]. unfold angle, cis. cbn [fst snd]. pose proof PI_RGT_0 as PI0.
  destruct (Rlt_dec (- (PI / 2)) x) as [H|H].
  - assert (0 < cos x) by (apply cos_gt_0; lra). destruct (Rlt_dec 0 (cos x)); [|lra]. fold (tan x). apply atan_tan. lra.
  - destruct (Req_dec x (- (PI / 2))) as [->|N].
    + rewrite cos_neg, sin_neg, cos_PI2, sin_PI2. repeat destruct Rlt_dec; lra.
    + assert (C : cos (x + PI) = - cos x) by apply neg_cos. assert (S : sin (x + PI) = - sin x) by apply neg_sin.
      assert (0 < cos (x + PI)) by (apply cos_gt_0; lra). assert (0 < sin (x + PI)) by (apply sin_gt_0; lra).
      destruct (Rlt_dec 0 (cos x)); [lra|]. destruct (Rlt_dec (cos x) 0); [|lra]. destruct (Rlt_dec (sin x) 0); [|lra].
      replace (sin x / cos x) with (tan (x + PI)). { rewrite atan_tan by lra. ring. }
      unfold tan. rewrite C, S. field. lra.
Qed.
Lemma vlen_z a : 0 < a -> vlen (0, 0, a) = a.
Proof. intros H. unfold vlen, vdot. cbn [fst snd vx vy vz]. replace (0 * 0 + 0 * 0 + a * a) with (a * a) by ring. apply sqrt_square. lra. Qed.

(** C69: propagating a probe by the distance d (of either sign): every plane wave with wave vector K that travels
    on the beam's side of the plane of probe_basis gains the phase of d K_z relative to the beam; ... *)
Theorem C69_propagator : forall n0 n1 p0 p1 wl d i j K, 0 < wl ->
  vz (vcross p0 p1) <> 0 ->
  vdot K p0 = 2 * PI * freq n0 i + 2 * PI / wl * vz p0 -> vdot K p1 = 2 * PI * freq n1 j + 2 * PI / wl * vz p1 ->
  vlen K = 2 * PI / wl -> 0 <= vdot K (vcross p0 p1) * vz (vcross p0 p1) ->
  bragg_propagator n0 n1 p0 p1 wl d i j = cis (d * (vz K - 2 * PI / wl)).
Proof.
  intros n0 n1 p0 p1 wl d i j K Hw Hn H0 H1 HL HS. pose proof PI_RGT_0 as PI0.
  assert (A : 0 < wl / (2 * PI)) by (apply Rdiv_lt_0_compat; lra). assert (KP : 0 < 2 * PI / wl) by (apply Rdiv_lt_0_compat; lra).
  assert (CR : vscale (2 * PI / wl / vlen (0, 0, wl / (2 * PI))) (0, 0, wl / (2 * PI)) = (0, 0, 2 * PI / wl)).
  { rewrite vlen_z by exact A. unfold vscale; cbn [vx vy vz fst snd]. f_equal; [f_equal|]; field; lra. }
  assert (Z : forall a (v : V3), vdot (0, 0, a) v = a * vz v) by (intros a [[x y] z]; unfold vdot; cbn; ring).
  unfold bragg_propagator, universal_propagator. cbv zeta.
  rewrite (C27_generalized_plane_wave n0 n1 p0 p1 wl (0, 0, wl / (2 * PI)) (0, 0, wl / (2 * PI)) i j K); try assumption.
  - rewrite CR, !Z. cbn [vz]. change (vz (0, 0, 2 * PI / wl)) with (2 * PI / wl).
    replace (wl / (2 * PI) * (2 * PI / wl)) with 1 by (field; lra).
    assert (B : Rabs (vz K) <= 2 * PI / wl).
    { rewrite <- HL. unfold vlen. destruct K as [[x y] z]. unfold vdot. cbn [vx vy vz fst snd]. rewrite <- (sqrt_Rsqr_abs z). apply sqrt_le_1_alt. unfold Rsqr. nra. }
    apply Rabs_le_inv in B. pose proof PI2_3_2 as P32.
    assert (Q : wl / (2 * PI) * vz K = 1 * (vz K / (2 * PI / wl))) by (field; lra).
    assert (B' : -1 <= vz K / (2 * PI / wl) <= 1).
    { split; apply (Rmult_le_reg_r (2 * PI / wl)); try assumption; (replace (vz K / (2 * PI / wl) * (2 * PI / wl)) with (vz K) by (field; lra)); lra. }
    rewrite angle_cis by (rewrite Q; lra). f_equal. field. lra.
  - intros E. rewrite E in Hn. apply Hn. reflexivity.
  - rewrite Z. apply Rmult_integral_contrapositive_currified; lra.
  - rewrite H0, CR, Z. reflexivity.
  - rewrite H1, CR, Z. reflexivity.
  - rewrite Z. replace (vdot K (vcross p0 p1) * (wl / (2 * PI) * vz (vcross p0 p1))) with (wl / (2 * PI) * (vdot K (vcross p0 p1) * vz (vcross p0 p1))) by ring.
    apply Rmult_le_pos; lra.
Qed.
Print Assumptions C69_propagator.

(** ... that is the propagator of the generalized angular spectrum method (C27) over the offset (0, 0, d), ... *)
Theorem C69_generalized : forall n0 n1 p0 p1 wl d i j K, 0 < wl ->
  vz (vcross p0 p1) <> 0 ->
  vdot K p0 = 2 * PI * freq n0 i + 2 * PI / wl * vz p0 -> vdot K p1 = 2 * PI * freq n1 j + 2 * PI / wl * vz p1 ->
  vlen K = 2 * PI / wl -> 0 <= vdot K (vcross p0 p1) * vz (vcross p0 p1) ->
  bragg_propagator n0 n1 p0 p1 wl d i j = gen_propagator n0 n1 p0 p1 wl (0, 0, d) (Some ez) i j.
Proof.
  intros n0 n1 p0 p1 wl d i j K Hw Hn H0 H1 HL HS. rewrite (C69_propagator n0 n1 p0 p1 wl d i j K) by assumption.
  assert (Z : forall a (v : V3), vdot (0, 0, a) v = a * vz v) by (intros a [[x y] z]; unfold vdot; cbn; ring).
  assert (CR : vscale (2 * PI / wl / vlen ez) ez = (0, 0, 2 * PI / wl)).
  { unfold ez. rewrite vlen_z by lra. unfold vscale; cbn [vx vy vz fst snd]. f_equal; [f_equal|]; field; lra. }
  rewrite (C27_generalized_plane_wave n0 n1 p0 p1 wl (0, 0, d) ez i j K); try assumption.
  - rewrite CR, !Z. f_equal. unfold vz. cbn [fst snd]. ring.
  - intros E. rewrite E in Hn. apply Hn. reflexivity.
  - unfold ez. rewrite Z. lra.
  - rewrite H0, CR, Z. reflexivity.
  - rewrite H1, CR, Z. reflexivity.
  - unfold ez. rewrite Z. lra.
Qed.
Print Assumptions C69_generalized.
(** ... always of modulus 1, the opposite distance being the conjugate and distances adding up. *)
Theorem C69_unit : forall n0 n1 p0 p1 wl d e i j, let P := fun d => bragg_propagator n0 n1 p0 p1 wl d i j in
  Cmod (P d) = 1 /\ P 0 = RtoC 1 /\ P (- d) = Cconj (P d) /\ P (d + e) = (P d * P e)%C.
Proof.
  intros n0 n1 p0 p1 wl d e i j P. unfold P, bragg_propagator. set (u := universal_propagator _ _ _ _ _ _ _).
  split; [rewrite Cmod_nrm2, nrm2_cis; apply sqrt_1|]. split; [|split].
  - replace (0 * (2 * PI) / wl * u) with 0 by (unfold Rdiv; ring). unfold cis. rewrite cos_0, sin_0. reflexivity.
  - replace (- d * (2 * PI) / wl * u) with (- (d * (2 * PI) / wl * u)) by (unfold Rdiv; ring). unfold cis, Cconj. cbn [fst snd]. now rewrite cos_neg, sin_neg.
  - rewrite <- cis_add. f_equal. unfold Rdiv. ring.
Qed.
Print Assumptions C69_unit.
(** C69: limit: evanescent components, which decay over a distance d > 0, keep their amplitude: t.angle drops the
    decay. *)
Theorem C69_evanescent_refuted : forall n0 n1 p0 p1 wl d i j q, 0 < wl -> 0 < d -> vz (vcross p0 p1) <> 0 ->
  vdot q p0 = 2 * PI * freq n0 i + 2 * PI / wl * vz p0 -> vdot q p1 = 2 * PI * freq n1 j + 2 * PI / wl * vz p1 ->
  vdot q (vcross p0 p1) = 0 -> 2 * PI / wl < vlen q ->
  Cmod (gen_propagator n0 n1 p0 p1 wl (0, 0, d) (Some ez) i j) < 1 /\ Cmod (bragg_propagator n0 n1 p0 p1 wl d i j) = 1.
Proof.
  intros n0 n1 p0 p1 wl d i j q Hw Hd Hn H0 H1 HO HL. split; [|apply (C69_unit n0 n1 p0 p1 wl d 0 i j)].
  assert (Z : forall a (v : V3), vdot (0, 0, a) v = a * vz v) by (intros a [[x y] z]; unfold vdot; cbn; ring).
  assert (CR : vscale (2 * PI / wl / vlen ez) ez = (0, 0, 2 * PI / wl)).
  { unfold ez. rewrite vlen_z by lra. unfold vscale; cbn [vx vy vz fst snd]. f_equal; [f_equal|]; field; lra. }
  assert (NN : vcross p0 p1 <> (0, 0, 0)) by (intros E; rewrite E in Hn; apply Hn; reflexivity).
  rewrite (C27_generalized_evanescent n0 n1 p0 p1 wl (0, 0, d) ez i j q); try assumption.
  - rewrite Cmod_mult, Cmod_R, (Cmod_nrm2 (cis _)), nrm2_cis, sqrt_1, Rmult_1_r, Rabs_right by (left; apply exp_pos).
    assert (EX : forall x, 0 < x -> exp (- x) < 1) by (intros x Hx; rewrite <- exp_0; apply exp_increasing; lra). apply EX. unfold ez. rewrite !Z. change (vz (0, 0, d)) with d. destruct (Rlt_dec (1 * d) 0); [lra|].
    assert (L : 0 < vlen (vcross p0 p1)) by (apply Proofs_Geom.vlen_pos; exact NN).
    assert (S : 0 < sqrt (vdot q q - (2 * PI / wl) ^ 2)).
    { apply sqrt_lt_R0. assert (KP : 0 < 2 * PI / wl) by (apply Rdiv_lt_0_compat; [pose proof PI_RGT_0; lra|lra]).
      assert (E : vdot q q = vlen q ^ 2). { unfold vlen. rewrite pow2_sqrt; [reflexivity|]. unfold vdot. nra. }
      rewrite E. nra. }
    assert (A : 0 < d * vz (vcross p0 p1) * (1 * vz (vcross p0 p1) / Rabs (1 * vz (vcross p0 p1))) / vlen (vcross p0 p1)).
    { apply Rdiv_lt_0_compat; [|exact L]. rewrite Rmult_1_l. replace (d * vz (vcross p0 p1) * (vz (vcross p0 p1) / Rabs (vz (vcross p0 p1)))) with (d * ((vz (vcross p0 p1) * vz (vcross p0 p1)) / Rabs (vz (vcross p0 p1)))) by (unfold Rdiv; ring).
      apply Rmult_lt_0_compat; [exact Hd|]. apply Rdiv_lt_0_compat; [|apply Rabs_pos_lt; exact Hn]. nra. }
    pose proof (Rmult_lt_0_compat _ _ A S) as AS.
    rewrite Rmult_1_l. exact AS.
  - unfold ez. rewrite Z. lra.
  - rewrite H0, CR, Z. reflexivity.
  - rewrite H1, CR, Z. reflexivity.
Qed.
Print Assumptions C69_evanescent_refuted.

(** The sample point of a translation is unique. *)
Lemma sample_unique b0 b1 t p d p' d' : vz (vcross b0 b1) <> 0 ->
  vadd (vscale (fst p) b0) (vscale (snd p) b1) = vadd t (vscale d (0, 0, 1)) -> vadd (vscale (fst p') b0) (vscale (snd p') b1) = vadd t (vscale d' (0, 0, 1)) -> p = p' /\ d = d'.
Proof.
  destruct b0 as [[a b] c], b1 as [[a' b'] c'], p as [u v], p' as [u' v'], t as [[x y] z]. unfold vcross, vadd, vscale, vx, vy, vz. cbn [fst snd].
  intros N E E'. injection E as E1 E2 E3. injection E' as F1 F2 F3.
  assert (A1 : (u - u') * a + (v - v') * a' = 0) by lra. assert (A2 : (u - u') * b + (v - v') * b' = 0) by lra.
  assert (B1 : (u - u') * (a * b' - b * a') = 0) by (replace ((u - u') * (a * b' - b * a')) with (((u - u') * a + (v - v') * a') * b' - ((u - u') * b + (v - v') * b') * a') by ring; rewrite A1, A2; ring).
  assert (B2 : (v - v') * (a * b' - b * a') = 0) by (replace ((v - v') * (a * b' - b * a')) with (((u - u') * b + (v - v') * b') * a - ((u - u') * a + (v - v') * a') * b) by ring; rewrite A1, A2; ring).
  apply Rmult_integral in B1, B2. assert (u = u') by (destruct B1; lra). assert (v = v') by (destruct B2; lra). subst. split; [reflexivity|lra].
Qed.

Lemma bragg_place_spec m i t pos dist : vz (vcross (g_b0 m) (g_b1 m)) <> 0 -> bragg_place m i t pos dist ->
  match g_offsets m with
         | None => Ok (bragg_pix (g_b0 m) (g_b1 m) (g_min m) (g_median m) (g_scale m) None t)
         | Some l => rbind (entry l i) (fun o => Ok (bragg_pix (g_b0 m) (g_b1 m) (g_min m) (g_median m) (g_scale m) (Some o) t))
         end = Ok (pos, dist).
Proof.
  intros N (p & d & E & -> & O). pose proof (C34_sample_point (g_b0 m) (g_b1 m) t N) as S. cbv zeta in S. unfold point in S.
  destruct (sample_unique _ _ _ _ _ _ _ N E S) as [-> ->]. unfold bragg_pix.
  destruct (g_offsets m) as [l|].
  - destruct O as (o & HO & ->). unfold entry. rewrite HO. reflexivity.
  - subst pos. reflexivity.
Qed.

(** C69: the exit waves: each weighted mode, carried along the beam to the sample point its translation selects,
    brought to the object's grid, displaced by the fractional part of the position and multiplied by the window
    of the object at its whole-pixel part. *)
Theorem C69_exit_waves : forall m i t pos dist c, bragg_place m i t pos dist -> nth_error (g_weights m) i = Some c -> bragg_fits m pos ->
  exists ws, bragg_interaction m i t = Ok ws /\ length ws = length (g_probe m) /\ forall k, (k < length (g_probe m))%nat ->
  same (g_os m * g_det0 m) (g_os m * g_det1 m) (nth k ws no_img)
    (bragg_exit m (bragg_probe m (bragg_propagator (g_n0 m) (g_n1 m) (g_p0 m) (g_p1 m) (g_wl m) dist) c k) pos).
Proof.
  intros m i t pos dist c HP HC (n0p & n1p & osp & C0 & C1 & I0 & I1 & HN). unfold bragg_interaction. rewrite (bragg_place_spec m i t pos dist HN HP). cbn [rbind].
  unfold entry. rewrite HC. cbn [rbind]. cbv zeta. cbn [fst snd]. set (N0 := (g_os m * g_det0 m)%nat) in *. set (N1 := (g_os m * g_det1 m)%nat) in *.
  set (P := bragg_propagator _ _ _ _ _ _).
  rewrite (all_ok_map _ (fun x => scale_img (g_norm m) (times_img (sinc_subpixel_shift N0 N1 x (sub_part (fst pos)) (sub_part (snd pos)))
     (fun i j => g_obj m (Zfloor (fst pos) + Z.of_nat i)%Z (Zfloor (snd pos) + Z.of_nat j)%Z)))).
  2:{ intros x _. rewrite sinc_value by assumption. reflexivity. }
  set (prs := if g_propagate m then _ else _).
  assert (L : length prs = length (g_probe m)) by (unfold prs; destruct (g_propagate m); now rewrite ?map_length).
  assert (V : forall k, (k < length (g_probe m))%nat -> same (g_n0 m) (g_n1 m) (nth k prs no_img) (bragg_probe m P c k)).
  { intros k Hk. unfold prs, bragg_probe.
    assert (Q : same (g_n0 m) (g_n1 m) (nth k (map (fun p => restrict (g_support m) (scale_img c p)) (g_probe m)) no_img) (bragg_shot m c k)).
    { intros a b _ _. rewrite (nth_map_in _ _ no_img) by exact Hk. unfold restrict, scale_img, bragg_shot, no_img. destruct (g_support m a b); [reflexivity|ring]. }
    destruct (g_propagate m); [|exact Q]. rewrite (nth_map_in _ _ no_img) by (rewrite map_length; exact Hk).
    intros a b Ha Hb. apply near_ext; [exact Q|now intros ? ? _ _]. }
  eexists. split; [reflexivity|]. rewrite !map_length, L. split; [reflexivity|]. intros k Hk a b Ha Hb.
  rewrite (nth_map_in _ _ no_img) by (rewrite map_length, L; exact Hk). rewrite (nth_map_in _ _ no_img) by (rewrite L; exact Hk).
  unfold scale_img, times_img, bragg_exit. do 2 f_equal.
  fold N0 N1. rewrite <- shifted_pad by assumption. unfold sub_part. apply shift_ext. intros u v Hu Hv. apply fourier_pad_ext; try assumption; try lia. now apply V.
Qed.
Print Assumptions C69_exit_waves.

(** C69: the pattern (correct_tilt=False). *)
Theorem C69_pattern : forall m i t pos dist c, bragg_place m i t pos dist -> nth_error (g_weights m) i = Some c -> bragg_fits m pos ->
  exists r, bragg_pattern m i t = Ok r /\ forall a b, (a < g_det0 m)%nat -> (b < g_det1 m)%nat ->
   r a b = reading (g_saturation m) None (g_background m) a b
     (photons (g_os m) (map (fun k => centred_ft (g_os m * g_det0 m) (g_os m * g_det1 m)
        (bragg_exit m (bragg_probe m (bragg_propagator (g_n0 m) (g_n1 m) (g_p0 m) (g_p1 m) (g_wl m) dist) c k) pos)) (seq 0 (length (g_probe m)))) a b + / 10 ^ 7).
Proof.
  intros m i t pos dist c HP HC HF. destruct (C69_exit_waves m i t pos dist c HP HC HF) as (ws & E1 & L & V).
  unfold bragg_pattern. rewrite E1. cbn [rmap]. eexists. split; [reflexivity|]. intros a b Ha Hb.
  destruct HF as (n0p & n1p & osp & C0 & C1 & _).
  set (N0 := (g_os m * g_det0 m)%nat) in *. set (N1 := (g_os m * g_det1 m)%nat) in *.
  assert (HN0 : (0 < N0)%nat) by (destruct C0; lia). assert (HN1 : (0 < N1)%nat) by (destruct C1; lia).
  unfold quadratic_background. rewrite incoherent_value by exact osp. cbn [o_over o_sat o_slice o_eps at_slice saturate].
  match goal with |- context [photons _ ?l a b] => set (xs := l) end.
  assert (Q : detector (g_os m) (map (far_field N0 N1) ws) a b = photons (g_os m) xs a b).
  { transitivity (photons (g_os m) (map (far_field N0 N1) ws) a b).
    - unfold detector, block_power, photons. f_equal. apply lsum_ext. intros x _. apply rsum_ext. intros u _. apply rsum_ext. intros v _. now rewrite (Nat.mul_comm a), (Nat.mul_comm b).
    - apply (photons_same (g_os m) (g_det0 m) (g_det1 m)); try assumption.
      + unfold xs. rewrite !map_length, seq_length. symmetry. exact L.
      + unfold xs. rewrite map_length, seq_length. intros k Hk. rewrite nth_map_seq by exact Hk. rewrite (nth_map_in _ _ no_img) by lia.
        intros u v Hu Hv. rewrite <- far_centred by assumption. apply far_ext; try assumption. now apply V. }
  rewrite Q. unfold reading, eps. rewrite Rmult_1_l.
  assert (P : 0 <= photons (g_os m) xs a b) by (rewrite <- Q; now apply detector_nonneg).
  assert (0 < / 10 ^ 7) by (apply Rinv_0_lt_compat; lra). assert (0 <= g_background m a b ^ 2) by apply pow2_ge_0.
  destruct (g_saturation m) as [s|]; cbn [saturate]; [|reflexivity]. unfold clamp. rewrite Rmax_left; [reflexivity|]. lra.
Qed.
Print Assumptions C69_pattern.

(** C69: an object of modulus 1 keeps every photon of the weighted modes, at every position and propagation
    distance. *)
Theorem C69_conservation : forall m i t pos dist c, bragg_place m i t pos dist -> nth_error (g_weights m) i = Some c -> bragg_fits m pos ->
  g_saturation m = None -> (forall a b, (0 <= a < g_H m)%Z -> (0 <= b < g_W m)%Z -> Cmod (g_obj m a b) = 1) ->
  exists r, bragg_pattern m i t = Ok r /\
  INR (g_os m * g_os m) * rsum (g_det0 m) (fun a => rsum (g_det1 m) (fun b => r a b - (g_background m a b ^ 2 + / 10 ^ 7))) =
  g_norm m ^ 2 * lsum (map (fun k => energy (g_n0 m) (g_n1 m) (bragg_shot m c k)) (seq 0 (length (g_probe m)))).
Proof.
  intros m i t pos dist c HP HC HF HS HO. destruct (C69_pattern m i t pos dist c HP HC HF) as (r & R1 & R2). exists r. split; [exact R1|].
  set (N0 := (g_os m * g_det0 m)%nat) in *. set (N1 := (g_os m * g_det1 m)%nat) in *. set (P := bragg_propagator _ _ _ _ _ _) in *.
  set (xs := map (fun k => centred_ft N0 N1 (bragg_exit m (bragg_probe m P c k) pos)) (seq 0 (length (g_probe m)))) in *.
  rewrite (rsum_ext (g_det0 m) _ (fun a => rsum (g_det1 m) (fun b => photons (g_os m) xs a b))).
  2:{ intros a Ha. apply rsum_ext. intros b Hb. rewrite R2 by assumption. unfold reading. rewrite HS. ring. }
  destruct HF as (n0p & n1p & osp & C0 & C1 & [I0 I0'] & [I1 I1'] & _). fold N0 in C0, I0, I0'. fold N1 in C1, I1, I1'.
  assert (HN0 : (0 < N0)%nat) by (destruct C0; lia). assert (HN1 : (0 < N1)%nat) by (destruct C1; lia).
  rewrite total_photons by exact osp. unfold xs. rewrite map_map, lsum_scal. apply lsum_ext. intros k _. fold N0 N1.
  transitivity (energy N0 N1 (bragg_exit m (bragg_probe m P c k) pos)).
  { rewrite <- (proj1 (far_energy N0 N1 (bragg_exit m (bragg_probe m P c k) pos) HN0 HN1)). apply energy_ext. intros u v Hu Hv. now rewrite far_centred. }
  assert (EP : energy (g_n0 m) (g_n1 m) (bragg_probe m P c k) = energy (g_n0 m) (g_n1 m) (bragg_shot m c k)).
  { unfold bragg_probe. destruct (g_propagate m); [|reflexivity]. apply near_energy_eq; try assumption. intros u v _ _. rewrite nrm2_Cmod. unfold P.
    rewrite (proj1 (C69_unit (g_n0 m) (g_n1 m) (g_p0 m) (g_p1 m) (g_wl m) dist 0 u v)). ring. }
  rewrite <- EP, <- (illumination_energy (g_n0 m) (g_n1 m) N0 N1 (bragg_probe m P c k) (fst pos - IZR (Zfloor (fst pos))) (snd pos - IZR (Zfloor (snd pos)))) by assumption.
  unfold energy, bragg_exit. rewrite rsum_scal. apply rsum_ext. intros u Hu. rewrite rsum_scal. apply rsum_ext. intros v Hv.
  rewrite !nrm2_mult, nrm2_RtoC, (nrm2_Cmod (g_obj _ _ _)), HO by lia. fold N0 N1. ring.
Qed.
Print Assumptions C69_conservation.

(** A tilted sample (45 degrees about the vertical): a translation across the beam selects a point and a distance. *)
Definition tilted : bragg :=
  {| g_b0 := (0, -1, 0); g_b1 := (-1, 0, 1); g_min := (0, 0); g_median := 1; g_scale := 2; g_offsets := Some [(0, 0); (/ 2, 1)];
     g_p0 := (0, -1, 0); g_p1 := (-1, 0, 1); g_wl := 1; g_n0 := 4; g_n1 := 4; g_probe := [(fun _ _ => RtoC 1); (fun i j => RtoC (INR (i + j)))];
     g_support := fun i j => Nat.ltb j 2; g_norm := 2; g_weights := [1; 3]; g_propagate := true; g_os := 2; g_det0 := 3; g_det1 := 2;
     g_background := fun _ _ => 1; g_saturation := None; g_H := 12; g_W := 12; g_obj := fun a b => cis (IZR (a * b)) |}.
Theorem C69_case : bragg_place tilted 1 (-2, -1, 0) (2, 4) 1 /\ nth_error (g_weights tilted) 1 = Some 3 /\ bragg_fits tilted (2, 4) /\
  (forall a b, Cmod (g_obj tilted a b) = 1).
Proof.
  split; [|split; [reflexivity|split]].
  - exists (1, 2), 2. split; [|split].
    + unfold vadd, vscale, vx, vy, vz; cbn. f_equal; [f_equal|]; ring.
    + cbn. ring.
    + exists (/ 2, 1). split; [reflexivity|]. cbn. f_equal; lra.
  - unfold bragg_fits, centred_in, inside. cbn [g_n0 g_n1 g_os g_det0 g_det1 g_H g_W tilted fst snd].
    change 2 with (IZR 2) at 1 2. change 4 with (IZR 4) at 1 2. rewrite !Zfloor_IZR. cbn. repeat split; try lia; try (left; reflexivity). lra.
  - intros a b. cbn. rewrite Cmod_nrm2, nrm2_cis. apply sqrt_1.
Qed.
Print Assumptions C69_case.
(** Waves: on the tilted basis of [tilted] the beam itself is the wave of pixel (0, 0); on a 4 x 4 basis across the
    beam with wavelength 100, pixel (1, 0) is evanescent. *)
Theorem C69_case_waves :
  (let K := (0, 0, 2 * PI) in let p0 := (0, -1, 0) in let p1 := (-1, 0, 1) in vz (vcross p0 p1) <> 0 /\
   vdot K p0 = 2 * PI * freq 4 0 + 2 * PI / 1 * vz p0 /\ vdot K p1 = 2 * PI * freq 4 0 + 2 * PI / 1 * vz p1 /\ vlen K = 2 * PI / 1 /\ 0 <= vdot K (vcross p0 p1) * vz (vcross p0 p1)) /\
  (let q := (0, - (PI / 2), 0) in let p0 := (0, -1, 0) in let p1 := (-1, 0, 0) in vz (vcross p0 p1) <> 0 /\
   vdot q p0 = 2 * PI * freq 4 1 + 2 * PI / 100 * vz p0 /\ vdot q p1 = 2 * PI * freq 4 0 + 2 * PI / 100 * vz p1 /\ vdot q (vcross p0 p1) = 0 /\ 2 * PI / 100 < vlen q).
Proof.
  pose proof PI_RGT_0 as PI0. split; cbv zeta.
  - rewrite vlen_z by lra. unfold vcross, vdot, vx, vy, vz, freq. cbn -[PI]. repeat split; try lra.
  - unfold vlen, vcross, vdot, vx, vy, vz, freq. cbn -[PI]. repeat split; try lra.
    replace (0 * 0 + - (PI / 2) * - (PI / 2) + 0 * 0) with ((PI / 2) * (PI / 2)) by ring. rewrite sqrt_square by lra. lra.
Qed.
Print Assumptions C69_case_waves.
