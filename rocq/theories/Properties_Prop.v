(** Property theorems about wave propagation (C25-C27). *)
From Verif Require Import Base FinSum Fourier Model_Prop Spec_Prop Proofs_Prop Proofs_AS.
From Coquelicot Require Import Complex.

(** C25: for every image size, far_field is the centred unitary Fourier transform ... *)
Theorem C25_is_centred_fourier_transform : forall N M x k l, 0 < N -> 0 < M -> k < N -> l < M ->
  far_field N M x k l = centred_ft N M x k l.
Proof. exact far_centred. Qed.
Print Assumptions C25_is_centred_fourier_transform.
(** ... the two functions undo each other, ... *)
Theorem C25_inverse : forall N M x, 0 < N -> 0 < M ->
  same N M (inverse_far_field N M (far_field N M x)) x /\ same N M (far_field N M (inverse_far_field N M x)) x.
Proof. exact far_inverse. Qed.
Print Assumptions C25_inverse.
(** ... keep the total intensity, and are linear. *)
Theorem C25_unitary : forall N M x, 0 < N -> 0 < M ->
  energy N M (far_field N M x) = energy N M x /\ energy N M (inverse_far_field N M x) = energy N M x.
Proof. exact far_energy. Qed.
Print Assumptions C25_unitary.
Theorem C25_linear : forall N M a x b y i j,
  far_field N M (lin a x b y) i j = (a * far_field N M x i j + b * far_field N M y i j)%C /\
  inverse_far_field N M (lin a x b y) i j = (a * inverse_far_field N M x i j + b * inverse_far_field N M y i j)%C.
Proof. exact far_linear. Qed.
Print Assumptions C25_linear.
(** A case: the zero frequency of a constant 3 x 4 image lands in the centre pixel (1, 2). *)
Example C25_case : far_field 3 4 (fun _ _ => RtoC 1) 1 2 = RtoC (/ sqrt (INR (3 * 4)) * 12).
Proof.
  rewrite far_centred by lia. unfold centred_ft. rewrite RtoC_mult. f_equal.
  rewrite (csum_ext 3 _ (fun _ => csum 4 (fun _ => RtoC 1))).
  - rewrite !csum_const. rewrite <- !RtoC_mult. f_equal. cbn. ring.
  - intros n Hn. apply csum_ext. intros m Hm. change (off 3 1) with 0%Z. change (off 4 2) with 0%Z.
    cbn [Z.mul]. replace (- (2 * PI) * (0 / INR 3 + 0 / INR 4))%R with 0%R by (cbn; field).
    rewrite cis_0. ring.
Qed.

(** C26: near_field is linear in the wave and composes by multiplying propagators. *)
Theorem C26_linear : forall N M a x b y p i j,
  near_field N M (lin a x b y) p i j = (a * near_field N M x p i j + b * near_field N M y p i j)%C.
Proof. exact near_linear. Qed.
Print Assumptions C26_linear.
Theorem C26_compose : forall N M x p q, 0 < N -> 0 < M ->
  same N M (near_field N M (near_field N M x p) q) (near_field N M x (times q p)).
Proof. exact near_compose. Qed.
Print Assumptions C26_compose.
(** C26: it never creates energy when |p| <= 1 and keeps it when |p| = 1. *)
Theorem C26_energy : forall N M x p, 0 < N -> 0 < M ->
  ((forall k l, k < N -> l < M -> (Cmod (p k l) <= 1)%R) -> (energy N M (near_field N M x p) <= energy N M x)%R) /\
  ((forall k l, k < N -> l < M -> Cmod (p k l) = 1%R) -> energy N M (near_field N M x p) = energy N M x).
Proof.
  intros N M x p HN HM. split; intros H.
  - apply near_energy_le; auto. intros k l Hk Hl. rewrite nrm2_Cmod. pose proof (H k l Hk Hl). pose proof (Cmod_ge_0 (p k l)). nra.
  - apply near_energy_eq; auto. intros k l Hk Hl. rewrite nrm2_Cmod, (H k l Hk Hl). ring.
Qed.
Print Assumptions C26_energy.
(** C26: inverse_near_field undoes near_field for every wave exactly when |p| = 1 everywhere. *)
Theorem C26_inverse_iff : forall N M p, 0 < N -> 0 < M ->
  (forall x, same N M (inverse_near_field N M (near_field N M x p) p) x) <->
  (forall k l, k < N -> l < M -> Cmod (p k l) = 1%R).
Proof.
  intros N M p HN HM. split.
  - intros H k l Hk Hl. rewrite Cmod_nrm2, (near_inverse_conv N M p HN HM H k l Hk Hl). apply sqrt_1.
  - intros H x. apply near_inverse; auto. intros k l Hk Hl. rewrite nrm2_Cmod, (H k l Hk Hl). ring.
Qed.
Print Assumptions C26_inverse_iff.
(** C26: whatever the propagator, going forth and back multiplies frequency (k, l) by |p(k,l)|^2: with
    |p| <= 1 a component is damped twice, never amplified. *)
Theorem C26_round_trip_damps : forall N M x p, 0 < N -> 0 < M ->
  same N M (fft2 N M (inverse_near_field N M (near_field N M x p) p)) (fun k l => (RtoC (Cmod (p k l) ^ 2) * fft2 N M x k l)%C).
Proof.
  intros N M x p HN HM a b Ha Hb.
  rewrite (fft2_ext N M _ (near_field N M x (times (fun k l => Cconj (p k l)) p))).
  2:{ intros i j Hi Hj. rewrite inverse_near_is. now apply near_compose. }
  unfold near_field. rewrite (fft2_ifft2 N M _ HN HM a b Ha Hb). unfold times.
  now rewrite (Cmult_comm (Cconj _)), mult_conj, nrm2_Cmod.
Qed.
Print Assumptions C26_round_trip_damps.

(** C27: the propagator for distance z (of either sign) is the angular spectrum formula. *)
Theorem C27_formula : forall N M s0 s1 wl z i j, (0 < s0)%R -> (0 < s1)%R -> (0 < wl)%R ->
  as_propagator N M s0 s1 wl z None i j =
    (RtoC (exp (- (wave_decay wl (kpar2 N M s0 s1 i j) * Rabs z))) * cis (z * wave_phase wl (kpar2 N M s0 s1 i j)))%C.
Proof. intros. now apply as_closed. Qed.
Print Assumptions C27_formula.
(** C27: modulus 1 on propagating waves, below 1 on evanescent waves (unless z = 0), 0 beyond the
    bandlimit and unchanged within it. *)
Theorem C27_modulus : forall N M s0 s1 wl z i j, (0 < s0)%R -> (0 < s1)%R -> (0 < wl)%R ->
  (propagating N M s0 s1 wl i j -> Cmod (as_propagator N M s0 s1 wl z None i j) = 1%R) /\
  (~ propagating N M s0 s1 wl i j -> z <> 0%R -> (Cmod (as_propagator N M s0 s1 wl z None i j) < 1)%R) /\
  (Cmod (as_propagator N M s0 s1 wl z None i j) <= 1)%R.
Proof.
  intros N M s0 s1 wl z i j H0 H1 Hw.
  assert (E : Cmod (as_propagator N M s0 s1 wl z None i j) = exp (- (wave_decay wl (kpar2 N M s0 s1 i j) * Rabs z))).
  { rewrite as_closed by assumption. rewrite Cmod_mult, Cmod_R, (Cmod_nrm2 (cis _)), nrm2_cis, sqrt_1, Rmult_1_r.
    apply Rabs_pos_eq. left. apply exp_pos. }
  rewrite E. pose proof (Rabs_pos z). pose proof (decay_nonneg wl (kpar2 N M s0 s1 i j)). split; [|split].
  - intros P. unfold wave_decay. unfold propagating in P. destruct (Rle_dec _ _); [|contradiction]. rewrite Rmult_0_l, Ropp_0. apply exp_0.
  - intros P Hz. rewrite <- exp_0 at 1. apply exp_increasing.
    assert (D : (0 < wave_decay wl (kpar2 N M s0 s1 i j))%R).
    { unfold wave_decay. unfold propagating in P. destruct (Rle_dec _ _); [contradiction|]. apply sqrt_lt_R0. lra. }
    pose proof (Rabs_pos_lt z Hz). nra.
  - apply exp_le_1. nra.
Qed.
Print Assumptions C27_modulus.
Theorem C27_bandlimit : forall N M s0 s1 wl z b i j m0 m1,
  top_freq N m0 -> top_freq M m1 -> 3 <= N -> 3 <= M ->
  let r := sqrt ((freq N i / m0) ^ 2 + (freq M j / m1) ^ 2) in
  ((b <= r)%R -> as_propagator N M s0 s1 wl z (Some b) i j = RtoC 0) /\
  ((r < b)%R -> as_propagator N M s0 s1 wl z (Some b) i j = as_propagator N M s0 s1 wl z None i j).
Proof.
  intros N M s0 s1 wl z b i j m0 m1 T0 T1 HN HM r.
  rewrite as_band. unfold band.
  assert (MF : forall n, 3 <= n -> maxfreq n <> 0%R).
  { intros n Hn. unfold maxfreq. assert (0 < INR ((n - 1) / 2) / INR n)%R; [|lra].
    apply Rdiv_lt_0_compat; apply lt_0_INR; [apply Nat.div_str_pos; lia|lia]. }
  destruct (Req_EM_T (maxfreq N) 0) as [C|_]; [now apply MF in C|].
  destruct (Req_EM_T (maxfreq M) 0) as [C|_]; [now apply MF in C|].
  rewrite !fftfreq_freq, <- (top_unique N m0 (maxfreq N) T0 (maxfreq_top N ltac:(lia))), <- (top_unique M m1 (maxfreq M) T1 (maxfreq_top M ltac:(lia))).
  fold r. destruct (Rlt_dec r b); split; intros; try lra; ring.
Qed.
Print Assumptions C27_bandlimit.
(** A case: on a 5 x 4 mask the greatest frequencies are 2/5 and 1/4; a bandlimit of 1 removes pixel (2, 1). *)
Example C27_bandlimit_case : top_freq 5 (2 / 5) /\ top_freq 4 (1 / 4) /\
  forall s0 s1 wl z, as_propagator 5 4 s0 s1 wl z (Some 1%R) 2 1 = RtoC 0.
Proof.
  assert (T0 : top_freq 5 (2 / 5)).
  { split; [|exists 2; split; [lia|unfold freq; cbn; field]]. intros k Hk. do 5 (destruct k as [|k]; [unfold freq; cbn; lra|]). lia. }
  assert (T1 : top_freq 4 (1 / 4)).
  { split; [|exists 1; split; [lia|unfold freq; cbn; field]]. intros k Hk. do 4 (destruct k as [|k]; [unfold freq; cbn; lra|]). lia. }
  split; [exact T0|]. split; [exact T1|]. intros s0 s1 wl z.
  destruct (C27_bandlimit 5 4 s0 s1 wl z 1 2 1 _ _ T0 T1 ltac:(lia) ltac:(lia)) as [Z _]. apply Z.
  rewrite <- sqrt_1 at 1. apply sqrt_le_1_alt.
  replace (freq 5 2 / (2 / 5))%R with 1%R by (unfold freq; cbn; field).
  replace (freq 4 1 / (1 / 4))%R with 1%R by (unfold freq; cbn; field). nra.
Qed.
(** C27: distances of equal sign add up; the opposite distance is the conjugate; z = 0 is the identity. *)
Theorem C27_group_law : forall N M s0 s1 wl z1 z2 i j, (0 < s0)%R -> (0 < s1)%R -> (0 < wl)%R -> (0 <= z1 * z2)%R ->
  (as_propagator N M s0 s1 wl z1 None i j * as_propagator N M s0 s1 wl z2 None i j)%C = as_propagator N M s0 s1 wl (z1 + z2) None i j.
Proof.
  intros N M s0 s1 wl z1 z2 i j H0 H1 Hw Hz. rewrite !as_closed by assumption.
  set (k := wave_decay _ _). set (q := wave_phase _ _).
  assert (A : (Rabs (z1 + z2) = Rabs z1 + Rabs z2)%R) by (unfold Rabs; repeat destruct Rcase_abs; nra).
  rewrite A. replace (- (k * (Rabs z1 + Rabs z2)))%R with (- (k * Rabs z1) + - (k * Rabs z2))%R by ring.
  rewrite exp_plus, RtoC_mult. replace ((z1 + z2) * q)%R with (z1 * q + z2 * q)%R by ring. rewrite cis_add. ring.
Qed.
Print Assumptions C27_group_law.
Theorem C27_opposite_and_zero : forall N M s0 s1 wl z i j, (0 < s0)%R -> (0 < s1)%R -> (0 < wl)%R ->
  as_propagator N M s0 s1 wl (- z) None i j = Cconj (as_propagator N M s0 s1 wl z None i j) /\
  as_propagator N M s0 s1 wl 0 None i j = RtoC 1.
Proof.
  intros N M s0 s1 wl z i j H0 H1 Hw. rewrite !as_closed by assumption. split.
  - rewrite Cconj_mult, Cconj_RtoC, cis_conj, Rabs_Ropp. f_equal. f_equal. ring.
  - rewrite Rabs_R0, Rmult_0_r, Ropp_0, exp_0, Rmult_0_l, cis_0. ring.
Qed.
Print Assumptions C27_opposite_and_zero.
(** C26 with C27: propagating by z1 and then by z2 (same sign) is propagating by z1 + z2; propagating
    back by inverse_near_field recovers every wave when no frequency of the array is evanescent. *)
Theorem C27_propagation : forall N M s0 s1 wl z1 z2 x, 0 < N -> 0 < M -> (0 < s0)%R -> (0 < s1)%R -> (0 < wl)%R ->
  let P z := as_propagator N M s0 s1 wl z None in
  ((0 <= z1 * z2)%R -> same N M (near_field N M (near_field N M x (P z1)) (P z2)) (near_field N M x (P (z1 + z2)%R))) /\
  ((forall i j, i < N -> j < M -> propagating N M s0 s1 wl i j) ->
     same N M (inverse_near_field N M (near_field N M x (P z1)) (P z1)) x /\
     same N M (near_field N M (near_field N M x (P z1)) (P (- z1)%R)) x).
Proof.
  intros N M s0 s1 wl z1 z2 x HN HM H0 H1 Hw P. split.
  - intros Hz i j Hi Hj. rewrite (near_compose N M x _ _ HN HM i j Hi Hj). apply near_ext; [now intros ? ? _ _|].
    intros k l Hk Hl. unfold times, P. rewrite C27_group_law by (auto; lra). now rewrite Rplus_comm.
  - intros Hp. assert (U : forall k l, k < N -> l < M -> nrm2 (P z1 k l) = 1%R).
    { intros k l Hk Hl. rewrite nrm2_Cmod. unfold P. rewrite (proj1 (C27_modulus N M s0 s1 wl z1 k l H0 H1 Hw)) by now apply Hp. ring. }
    split; [now apply near_inverse|]. intros i j Hi Hj. rewrite <- (near_inverse N M x (P z1) HN HM U i j Hi Hj).
    rewrite inverse_near_is. apply near_ext; [now intros ? ? _ _|]. intros k l Hk Hl. unfold P.
    now apply (C27_opposite_and_zero N M s0 s1 wl z1 k l).
Qed.
Print Assumptions C27_propagation.
(** A case: a 4 x 4 grid with spacing 1 and wavelength 1/2 has only propagating waves; with
    wavelength 100 frequency (1, 0) is evanescent. *)
Example C27_case_propagating : forall i j, i < 4 -> j < 4 -> propagating 4 4 1 1 (1 / 2) i j.
Proof.
  intros i j Hi Hj. unfold propagating, kpar2.
  assert (B : forall k, k < 4 -> ((freq 4 k) ^ 2 <= 1 / 4)%R).
  { intros k Hk. do 4 (destruct k as [|k]; [unfold freq; cbn; nra|]). lia. }
  pose proof (B i Hi). pose proof (B j Hj). pose proof PI_RGT_0.
  replace ((2 * PI * freq 4 i / 1) ^ 2 + (2 * PI * freq 4 j / 1) ^ 2)%R
    with (4 * PI ^ 2 * (freq 4 i ^ 2 + freq 4 j ^ 2))%R by field.
  replace ((2 * PI / (1 / 2)) ^ 2)%R with (16 * PI ^ 2)%R by field.
  assert (0 < PI ^ 2)%R by nra. nra.
Qed.
Example C27_case_evanescent : ~ propagating 4 4 1 1 100 1 0.
Proof.
  unfold propagating, kpar2, freq. cbn -[PI pow]. pose proof PI_RGT_0. intros H1.
  replace ((2 * PI * (1 / (1 + 1 + 1 + 1)) / 1) ^ 2 + (2 * PI * (0 / (1 + 1 + 1 + 1)) / 1) ^ 2)%R with (PI ^ 2 / 4)%R in H1 by field.
  replace ((2 * PI / 100) ^ 2)%R with (PI ^ 2 / 2500)%R in H1 by field. nra.
Qed.

(** C27, generalized propagator: for every tilted pixel basis b0, b1 and every offset d, with n = b0 x b1.
    Pixel (i, j) stands for the in-plane wave vector q with q.b0 = 2 pi freq(i), q.b1 = 2 pi freq(j),
    q.n = 0.  Without a propagation vector the component gains the phase d.q from the sideways part of
    the offset, and the angular spectrum factor for the distance h between the two planes. *)
Theorem C27_generalized_formula : forall N M b0 b1 wl d i j q, (0 < wl)%R ->
  let n := vcross b0 b1 in n <> (0, 0, 0)%R ->
  vdot q b0 = (2 * PI * freq N i)%R -> vdot q b1 = (2 * PI * freq M j)%R -> vdot q n = 0%R ->
  let h := (Rabs (vdot d n) / vlen n)%R in
  gen_propagator N M b0 b1 wl d None i j =
    (RtoC (exp (- (h * wave_decay wl (vdot q q)))) * cis (vdot d q + h * wave_phase wl (vdot q q)))%C.
Proof. intros. now apply gen_none. Qed.
Print Assumptions C27_generalized_formula.
(** With a propagation vector v crossing the plane, pixel (i, j) stands for the plane wave whose wave
    vector K has length 2 pi / wl, lies on v's side of the plane and differs from the carrier wave
    2 pi / wl v/|v| by the pixel's frequency along b0 and b1; the propagator is that wave's phase over
    the offset, relative to the carrier ... *)
Theorem C27_generalized_plane_wave : forall N M b0 b1 wl d v i j K, (0 < wl)%R ->
  let n := vcross b0 b1 in let carrier := vscale (2 * PI / wl / vlen v) v in
  n <> (0, 0, 0)%R -> vdot v n <> 0%R ->
  vdot K b0 = (2 * PI * freq N i + vdot carrier b0)%R -> vdot K b1 = (2 * PI * freq M j + vdot carrier b1)%R ->
  vlen K = (2 * PI / wl)%R -> (0 <= vdot K n * vdot v n)%R ->
  gen_propagator N M b0 b1 wl d (Some v) i j = cis (vdot d K - vdot d carrier).
Proof.
  intros N M b0 b1 wl d v i j K Hw n c Hn Hv K0 K1 KL KS.
  assert (E : forall x, vdot c x = (2 * PI / wl * vdot (vscale (/ vlen v) v) x)%R) by (intros x; unfold c; rewrite !vdot_scale_l; unfold Rdiv; ring).
  rewrite E in K0, K1. rewrite (vdot_comm d c), E, (vdot_comm (vscale _ v) d).
  apply (gen_plane_wave N M b0 b1 wl d i j Hw Hn v Hv K); auto. rewrite <- vlen_sq, KL. ring.
Qed.
Print Assumptions C27_generalized_plane_wave.
(** ... and where no such K exists (the in-plane part q is longer than 2 pi / wl) the wave decays with
    the distance h, counted positive on v's side, or grows when v.d has the opposite sign of h. *)
Theorem C27_generalized_evanescent : forall N M b0 b1 wl d v i j q, (0 < wl)%R ->
  let n := vcross b0 b1 in let k0 := (2 * PI / wl)%R in let carrier := vscale (k0 / vlen v) v in
  n <> (0, 0, 0)%R -> vdot v n <> 0%R ->
  vdot q b0 = (2 * PI * freq N i + vdot carrier b0)%R -> vdot q b1 = (2 * PI * freq M j + vdot carrier b1)%R -> vdot q n = 0%R ->
  (k0 < vlen q)%R ->
  let h := (vdot d n * (vdot v n / Rabs (vdot v n)) / vlen n)%R in
  gen_propagator N M b0 b1 wl d (Some v) i j =
    (RtoC (exp (- ((if Rlt_dec (vdot v d) 0 then -1 else 1) * h * sqrt (vdot q q - k0 ^ 2)))) * cis (vdot d q - vdot d carrier))%C.
Proof.
  intros N M b0 b1 wl d v i j q Hw n k0 c Hn Hv K0 K1 K2 KL h.
  assert (E : forall x, vdot c x = (k0 * vdot (vscale (/ vlen v) v) x)%R) by (intros x; unfold c; rewrite !vdot_scale_l; unfold Rdiv; ring).
  rewrite E in K0, K1. rewrite (vdot_comm d c), E, (vdot_comm (vscale _ v) d).
  rewrite (gen_some N M b0 b1 wl d i j Hw Hn v Hv q K0 K1 K2).
  assert (P0 : (0 < k0)%R) by (apply Rdiv_lt_0_compat; [pose proof PI_RGT_0; lra|exact Hw]).
  unfold wave_phase, wave_decay. fold k0. fold n. destruct (Rle_dec _ _) as [C|_].
  { exfalso. rewrite <- vlen_sq in C. nra. }
  assert (H : (sgn (vdot v n) * vdot d n / vlen n = h)%R).
  { unfold h. f_equal. rewrite (Rmult_comm (vdot d n)). f_equal. unfold Rabs.
    destruct (sgn_cases (vdot v n)) as [[-> X]|[[-> X]|[_ X]]]; [| |contradiction]; destruct (Rcase_abs _); try lra; field; lra. }
  rewrite H. set (sg := if Rlt_dec (vdot v d) 0 then (-1)%R else 1%R).
  match goal with |- Cmult (RtoC (exp ?a)) (cis ?b) = Cmult (RtoC (exp ?a')) (cis ?b') =>
    replace a with a' by ring; replace b with b' by ring; reflexivity end.
Qed.
Print Assumptions C27_generalized_evanescent.
(** Cases: a sheared basis, an oblique offset; frequency (1, 3) of a 4 x 4 mask. *)
Example C27_generalized_case :
  let b0 := (1, 0, 0)%R in let b1 := (1, 1, 0)%R in let q := (PI / 2, - PI, 0)%R in
  vcross b0 b1 <> (0, 0, 0)%R /\ vdot q b0 = (2 * PI * freq 4 1)%R /\ vdot q b1 = (2 * PI * freq 4 3)%R /\ vdot q (vcross b0 b1) = 0%R.
Proof.
  unfold vcross, vdot, vx, vy, vz, freq. cbn -[PI]. repeat split; try field.
  intros H. injection H. intros. lra.
Qed.
(** ... and the zero frequency with v along z: K is the carrier itself. *)
Example C27_plane_wave_case : forall b0 b1 wl, (0 < wl)%R -> let v := (0, 0, 1)%R in let c := vscale (2 * PI / wl / vlen v) v in
  vdot c b0 = (2 * PI * freq 4 0 + vdot c b0)%R /\ vdot c b1 = (2 * PI * freq 4 0 + vdot c b1)%R /\ vlen c = (2 * PI / wl)%R.
Proof.
  intros b0 b1 wl Hw v c. assert (F : freq 4 0 = 0%R) by (unfold freq; cbn; field). rewrite F.
  split; [ring|]. split; [ring|]. unfold c. rewrite vlen_scale. assert (P0 : (0 < 2 * PI / wl)%R) by (apply Rdiv_lt_0_compat; [pose proof PI_RGT_0; lra|exact Hw]).
  assert (L : (0 < vlen v)%R) by (apply vlen_pos; unfold v; intros H; injection H; lra).
  rewrite Rabs_pos_eq; [field; split; lra|]. left. apply Rdiv_lt_0_compat; auto.
Qed.

(** C27, generalized propagator: without a propagation vector nothing is amplified, for every basis,
    offset, shape and wavelength ... *)
Theorem C27_generalized_bounded : forall N M b0 b1 wl d i j, (0 < wl)%R ->
  (Cmod (gen_propagator N M b0 b1 wl d None i j) <= 1)%R.
Proof.
  intros N M b0 b1 wl d i j Hw. rewrite Cmod_nrm2, gen_norm, gen_phase_im by exact Hw.
  rewrite <- sqrt_1. apply sqrt_le_1_alt. apply exp_le_1. unfold gen_perp. rewrite vdot_vscale, (vdot_comm d).
  pose proof (sgn_mul (vdot (perp0 b0 b1) d)). pose proof (decay_nonneg wl (vdot (gen_Kip N M b0 b1 wl d None i j) (gen_Kip N M b0 b1 wl d None i j))).
  nra.
Qed.
Print Assumptions C27_generalized_bounded.
(** ... with a propagation vector this holds when the offset lies on the same side of the wavefield's
    plane as its component along the propagation vector says, ... *)
Theorem C27_generalized_bounded_vector : forall N M b0 b1 wl d v i j, (0 < wl)%R ->
  let n := vcross b0 b1 in n <> (0, 0, 0)%R ->
  (0 <= vdot v d -> 0 <= vdot d n * vdot v n)%R ->
  (vdot v d < 0 -> vdot d n * vdot v n <= 0)%R ->
  (Cmod (gen_propagator N M b0 b1 wl d (Some v) i j) <= 1)%R.
Proof.
  intros N M b0 b1 wl d v i j Hw n Hn HP HN. rewrite Cmod_nrm2, gen_norm, gen_phase_im by exact Hw.
  rewrite <- sqrt_1. apply sqrt_le_1_alt. apply exp_le_1. unfold gen_perp. rewrite vdot_vscale.
  pose proof (decay_nonneg wl (vdot (gen_Kip N M b0 b1 wl d (Some v) i j) (gen_Kip N M b0 b1 wl d (Some v) i j))) as K.
  rewrite (vdot_comm (perp0 b0 b1) v), perp0_is, !vdot_vscale by exact Hn. fold n.
  pose proof (Rinv_0_lt_compat _ (vlen_pos n Hn)) as IL. rewrite sgn_scale by exact IL.
  set (l := (/ vlen n)%R) in *. set (a := vdot d n) in *. set (b := vdot v n) in *.
  assert (X : forall t w : R, (0 <= t -> 0 <= w -> 0 <= t * w)%R) by (intros; nra).
  destruct (sgn_cases b) as [[-> B]|[[-> B]|[-> B]]]; destruct (Rlt_dec (vdot v d) 0) as [L|L].
  - specialize (HN L). assert (A : (0 <= - a)%R) by nra. pose proof (X _ _ (X _ _ (Rlt_le _ _ IL) A) K). nra.
  - specialize (HP ltac:(lra)). assert (A : (0 <= a)%R) by nra. pose proof (X _ _ (X _ _ (Rlt_le _ _ IL) A) K). nra.
  - specialize (HN L). assert (A : (0 <= a)%R) by nra. pose proof (X _ _ (X _ _ (Rlt_le _ _ IL) A) K). nra.
  - specialize (HP ltac:(lra)). assert (A : (0 <= - a)%R) by nra. pose proof (X _ _ (X _ _ (Rlt_le _ _ IL) A) K). nra.
  - nra.
  - nra.
Qed.
Print Assumptions C27_generalized_bounded_vector.
(** ... but the docstring's "this function will only return propagators which suppress evanescent
    waves" is false: with an oblique propagation vector an offset pointing backwards through the
    plane, yet forwards along the vector, amplifies them. *)
Theorem C27_generalized_amplifies_refuted : exists N M b0 b1 wl d v i j, (0 < wl)%R /\ i < N /\ j < M /\
  (1 < Cmod (gen_propagator N M b0 b1 wl d (Some v) i j))%R.
Proof.
  exists 2, 1, (0, - (1), 0)%R, (- (1), 0, 0)%R, 100%R, (1, 0, -1)%R, (10, 0, 1)%R, 1, 0.
  split; [lra|]. split; [lia|]. split; [lia|].
  rewrite Cmod_nrm2, gen_norm, gen_phase_im by lra.
  assert (VD : vdot (10, 0, 1)%R (1, 0, -1)%R = 9%R) by (unfold vdot, vx, vy, vz; cbn; ring).
  rewrite VD. destruct (Rlt_dec 9 0) as [C|_]; [lra|].
  assert (PP : gen_perp (0, - (1), 0)%R (- (1), 0, 0)%R (1, 0, -1)%R (@Some V3 (10, 0, 1)%R) = (0, 0, 1)%R).
  { unfold gen_perp. rewrite as_perp0 by lra. unfold vdot, vx, vy, vz, sgn. cbn [fst snd].
    destruct (Rlt_dec (0 * 10 + 0 * 0 + -1 * 1) 0) as [_|C]; [|exfalso; apply C; lra]. unfold vscale, vx, vy, vz. cbn. f_equal; [f_equal|]; ring. }
  rewrite PP. replace (vdot (1, 0, -1)%R (0, 0, 1)%R) with (-1)%R by (unfold vdot, vx, vy, vz; cbn; ring).
  set (K := gen_Kip _ _ _ _ _ _ _ _ _).
  assert (KY : vy K = PI).
  { unfold K, gen_Kip, gen_K0. rewrite PP, as_pinv0, as_pinv1 by lra.
    unfold vadd, vsub, vscale, vdot, vx, vy, vz, fftfreq. cbn [fst snd]. change (Nat.ltb 1 ((2 + 1) / 2)) with false. cbn [INR]. field_simplify_eq; [ring|].
    assert (0 < vlen (10, 0, 1))%R; [|lra]. unfold vlen, vdot, vx, vy, vz. cbn [fst snd]. apply sqrt_lt_R0. lra. }
  assert (KK : (PI ^ 2 <= vdot K K)%R) by (unfold vdot; rewrite KY; nra).
  pose proof PI_RGT_0. unfold wave_decay.
  assert (LT : ((2 * PI / 100) ^ 2 < vdot K K)%R) by (replace ((2 * PI / 100) ^ 2)%R with (PI ^ 2 / 2500)%R by field; nra).
  destruct (Rle_dec (vdot K K) ((2 * PI / 100) ^ 2)) as [C|_]; [lra|].
  assert (0 < sqrt (vdot K K - (2 * PI / 100) ^ 2))%R by (apply sqrt_lt_R0; lra).
  rewrite <- sqrt_1. apply sqrt_lt_1_alt. split; [lra|]. rewrite <- exp_0. apply exp_increasing. lra.
Qed.
Print Assumptions C27_generalized_amplifies_refuted.
