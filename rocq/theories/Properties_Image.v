(** Property theorems about image processing (C28-C32). *)
From Verif Require Import Base FinSum Fourier Model_Prop Spec_Prop Proofs_Prop Model_Image Spec_Image Proofs_Image.
From Coquelicot Require Import Complex.

(** C28: for every image and factor, fourier_upsample keeps the summed intensity, or - with
    preserve_mean - multiplies it by the number of new pixels per old one, which keeps the mean
    intensity. *)
Theorem C28_intensity : forall N M im f, 1 <= f -> 0 < N -> 0 < M ->
  energy (f * N) (f * M) (fourier_upsample N M im f false) = energy N M im /\
  (energy (f * N) (f * M) (fourier_upsample N M im f true) / INR (f * N * (f * M)) = energy N M im / INR (N * M))%R.
Proof.
  intros N M im f Hf HN HM. rewrite !upsample_energy by assumption. split; [ring|].
  rewrite !mult_INR. field. repeat split; apply INRn; lia.
Qed.
Print Assumptions C28_intensity.
(** C28: when every axis has an even length or the factor is odd, the upsampled image passes through
    the original pixels and has the same mean. *)
Theorem C28_interpolates : forall N M im f n m p q, 1 <= f -> n < N -> m < M ->
  (Nat.Even N \/ Nat.Odd f) -> (Nat.Even M \/ Nat.Odd f) -> grid_point f N n p -> grid_point f M m q ->
  fourier_upsample N M im f true p q = im n m.
Proof.
  intros N M im f n m p q Hf Hn Hm E1 E2 G1 G2. rewrite (upsample_grid N M im f n m p q Hf Hn Hm G1 G2).
  assert (D : forall k, Nat.Even k \/ Nat.Odd f -> defect f k = 0%Z).
  { intros k E. rewrite defect_value by exact Hf. destruct E as [E|E]; apply Nat.even_spec in E || apply Nat.odd_spec in E.
    - rewrite <- Nat.negb_even, E. reflexivity.
    - rewrite <- (Nat.negb_odd f), E. now rewrite Bool.andb_false_r. }
  rewrite !D by assumption. cbn [Z.mul Z.opp]. rewrite !w_0. ring.
Qed.
Print Assumptions C28_interpolates.
Theorem C28_mean : forall N M im f, 1 <= f -> 0 < N -> 0 < M ->
  (Nat.Even N \/ Nat.Odd f) -> (Nat.Even M \/ Nat.Odd f) ->
  total (f * N) (f * M) (fourier_upsample N M im f true) = (RtoC (INR (f * f)) * total N M im)%C.
Proof.
  intros N M im f Hf HN HM E1 E2.
  assert (D : forall k, Nat.Even k \/ Nat.Odd f -> defect f k = 0%Z).
  { intros k E. rewrite defect_value by exact Hf. destruct E as [E|E]; apply Nat.even_spec in E || apply Nat.odd_spec in E.
    - rewrite <- Nat.negb_even, E. reflexivity.
    - rewrite <- (Nat.negb_odd f), E. now rewrite Bool.andb_false_r. }
  apply upsample_total; auto.
Qed.
Print Assumptions C28_mean.
(** C28: in every case the modulus of the original pixels is kept. *)
Theorem C28_modulus : forall N M im f n m p q, 1 <= f -> n < N -> m < M -> grid_point f N n p -> grid_point f M m q ->
  Cmod (fourier_upsample N M im f true p q) = Cmod (im n m).
Proof.
  intros N M im f n m p q Hf Hn Hm G1 G2. rewrite (upsample_grid N M im f n m p q Hf Hn Hm G1 G2).
  rewrite !Cmod_mult, !(Cmod_nrm2 (w _ _)), !w_nrm2, sqrt_1. ring.
Qed.
Print Assumptions C28_modulus.
(** C28 fails for odd sizes with an even factor: a constant image gets mean zero. *)
Theorem C28_odd_size_even_factor_refuted : exists N M im f, 1 <= f /\ 0 < N /\ 0 < M /\ total N M im = RtoC 1 /\
  total (f * N) (f * M) (fourier_upsample N M im f true) = RtoC 0.
Proof.
  exists 1, 1, (fun _ _ => RtoC 1), 2. repeat split; try lia.
  - unfold total, csum, fsum. ring.
  - pose proof (far_centre (2 * 1) (2 * 1) (fourier_upsample 1 1 (fun _ _ => RtoC 1) 2 true) ltac:(lia) ltac:(lia)) as E.
    unfold fourier_upsample in E at 1. rewrite (proj2 (far_inverse (2 * 1) (2 * 1) _ ltac:(lia) ltac:(lia)) _ _ (half_lt (2 * 1) ltac:(lia)) (half_lt (2 * 1) ltac:(lia))) in E.
    change (embed 2 1 1 (far_field 1 1 (fun _ _ => RtoC 1)) (2 * 1 / 2) (2 * 1 / 2)) with (RtoC 0) in E.
    pose proof (sqrtNM (2 * 1) (2 * 1) ltac:(lia) ltac:(lia)) as S.
    apply (f_equal (fun z => (RtoC (sqrt (INR (2 * 1 * (2 * 1)))) * z)%C)) in E.
    rewrite !Cmult_assoc, <- !RtoC_mult, Rinv_r, Cmult_1_l in E by lra. rewrite <- E. f_equal. ring.
Qed.
Print Assumptions C28_odd_size_even_factor_refuted.
Example C28_case : grid_point 2 4 3 6 /\ grid_point 3 5 0 1 /\ (Nat.Even 4 \/ Nat.Odd 2) /\ (Nat.Even 5 \/ Nat.Odd 3).
Proof. repeat split; [left; now exists 2|right; now exists 1]. Qed.

(** C29: sinc_subpixel_shift keeps the total intensity for every real shift, ... *)
Theorem C29_intensity : forall N M im s0 s1, 0 < N -> 0 < M ->
  energy N M (sinc_subpixel_shift N M im s0 s1) = energy N M im.
Proof. exact shift_energy. Qed.
Print Assumptions C29_intensity.
(** ... by integers is a circular roll, ... *)
Theorem C29_integer : forall N M im a b, 0 < N -> 0 < M ->
  same N M (sinc_subpixel_shift N M im (IZR a) (IZR b)) (rolled N M im a b).
Proof. exact shift_integer. Qed.
Print Assumptions C29_integer.
(** ... is additive, ... *)
Theorem C29_additive : forall N M im s0 s1 t0 t1, 0 < N -> 0 < M ->
  same N M (sinc_subpixel_shift N M (sinc_subpixel_shift N M im s0 s1) t0 t1) (sinc_subpixel_shift N M im (s0 + t0) (s1 + t1)).
Proof. exact shift_compose. Qed.
Print Assumptions C29_additive.
(** ... and is undone by the opposite shift. *)
Theorem C29_reversible : forall N M im s0 s1, 0 < N -> 0 < M ->
  same N M (sinc_subpixel_shift N M (sinc_subpixel_shift N M im s0 s1) (- s0) (- s1)) im.
Proof.
  intros N M im s0 s1 HN HM i j Hi Hj. rewrite shift_compose by assumption. rewrite !Rplus_opp_r. now apply shift_zero.
Qed.
Print Assumptions C29_reversible.
Example C29_case : rolled 4 3 (fun i j => RtoC (INR (10 * i + j))) 1 (-1) 0 2 = RtoC (INR 30).
Proof. reflexivity. Qed.

(** C30: the result of find_pixel_shift always lies in the symmetric interval. *)
Theorem C30_range : forall N M im1 im2, 0 < N -> 0 < M ->
  (- Z.of_nat (N / 2) <= fst (find_pixel_shift N M im1 im2) <= Z.of_nat (N - 1) - Z.of_nat (N / 2))%Z /\
  (- Z.of_nat (M / 2) <= snd (find_pixel_shift N M im1 im2) <= Z.of_nat (M - 1) - Z.of_nat (M / 2))%Z.
Proof. intros. unfold find_pixel_shift. cbn [fst snd]. split; now apply wrap_range. Qed.
Print Assumptions C30_range.
(** C30: if im2 is im1 rolled by (a, b), and no Fourier coefficient vanishes (the code divides by their
    moduli), the result is (-a, -b) modulo the size, for every image and roll: rolling im2 by it gives
    im1 back. *)
Theorem C30_finds_shift : forall N M im a b, 0 < N -> 0 < M ->
  (forall k l, k < N -> l < M -> fft2 N M im k l <> RtoC 0) ->
  let s := find_pixel_shift N M im (rolled N M im a b) in
  (fst s mod Z.of_nat N = (- a) mod Z.of_nat N)%Z /\ (snd s mod Z.of_nat M = (- b) mod Z.of_nat M)%Z /\
  same N M (rolled N M (rolled N M im a b) (fst s) (snd s)) im.
Proof.
  intros N M im a b HN HM Hnz. rewrite find_shift_value by assumption. cbn [fst snd].
  assert (A : forall n z, 0 < n -> (wrap n (circ n z) mod Z.of_nat n = z mod Z.of_nat n)%Z).
  { intros n z Hn. rewrite wrap_mod, circ_Z by exact Hn. apply Z.mod_mod. lia. }
  pose proof (A N (- a)%Z HN) as A1. pose proof (A M (- b)%Z HM) as A2. split; [exact A1|]. split; [exact A2|].
  now apply rolled_back.
Qed.
Print Assumptions C30_finds_shift.
(** C30, as documented ("the amount that im1 would have to be shifted by to line up best with im2"), is
    refuted: the sign is the other way round. *)
Definition delta0 : img := fun i j => if (Nat.eqb i 0 && Nat.eqb j 0)%bool then RtoC 1 else RtoC 0.
Lemma delta0_fft N M k l : 0 < N -> 0 < M -> fft2 N M delta0 k l = RtoC 1.
Proof.
  intros HN HM. unfold fft2, dft at 1. rewrite (csum_single N 0); [| exact HN |].
  2:{ intros i Hi Hne. unfold dft. rewrite csum_zero'; [ring|]. intros j Hj. unfold delta0. destruct i; [lia|]. cbn [Nat.eqb andb]. ring. }
  unfold dft. rewrite (csum_single M 0); [| exact HM |].
  2:{ intros j Hj Hne. unfold delta0. destruct j; [lia|]. cbn [Nat.eqb andb]. ring. }
  unfold delta0. cbn [Nat.eqb andb]. change (Z.of_nat 0) with 0%Z. rewrite !Z.mul_0_r. cbn [Z.opp]. rewrite !w_0. ring.
Qed.
Theorem C30_documented_direction_refuted : exists N M im a b, 0 < N /\ 0 < M /\
  let s := find_pixel_shift N M im (rolled N M im a b) in
  ~ same N M (rolled N M im (fst s) (snd s)) (rolled N M im a b).
Proof.
  exists 3, 1, delta0, 1%Z, 0%Z. split; [lia|]. split; [lia|].
  rewrite find_shift_value by (try lia; intros k l Hk Hl; rewrite delta0_fft by lia; exact (fun H => R1_neq_R0 (RtoC_inj _ _ H))).
  cbv zeta. intros S. specialize (S 1 0 ltac:(lia) ltac:(lia)). vm_compute in S. apply RtoC_inj in S. lra.
Qed.
Print Assumptions C30_documented_direction_refuted.
Example C30_case : forall k l, k < 3 -> l < 4 -> fft2 3 4 delta0 k l <> RtoC 0.
Proof. intros k l Hk Hl. rewrite delta0_fft by lia. exact (fun H => R1_neq_R0 (RtoC_inj _ _ H)). Qed.

(** C31: convolve_1d is the circular convolution along the chosen dimension, for every size; with the
    default flag, entry n/2 of the kernel is its origin. *)
Theorem C31_is_convolution : forall N M im kernel dim fs i j, dim < 2 -> i < N -> j < M ->
  convolve_1d N M im kernel dim fs i j =
  let n := if Nat.eqb dim 0 then N else M in
  let x := fun a => if Nat.eqb dim 0 then im a j else im i a in
  let at_ := if Nat.eqb dim 0 then i else j in
  let origin := if fs then n / 2 else 0 in
  csum n (fun a => (x a * kernel (Z.to_nat ((Z.of_nat at_ - Z.of_nat a + Z.of_nat origin) mod Z.of_nat n)))%C).
Proof.
  assert (L : forall n x kernel fs i, i < n -> convolve_line n x kernel fs i =
     csum n (fun a => (x a * kernel (Z.to_nat ((Z.of_nat i - Z.of_nat a + Z.of_nat (if fs then n / 2 else 0)%nat) mod Z.of_nat n)))%C)).
  { intros n x kernel fs i Hi. unfold convolve_line.
    rewrite (convolution n x (if fs then fun i => kernel (roll n ((n + 1) / 2) i) else kernel) i ltac:(lia) Hi).
    apply csum_ext. intros a Ha. f_equal. destruct fs.
    - f_equal. apply Nat2Z.inj. rewrite roll_ifft, Nat2Z.inj_mod, Nat2Z.inj_add, circ_Z by lia.
      rewrite Z.add_mod_idemp_l by lia. rewrite Z2Nat.id; [reflexivity|]. apply Z.mod_pos_bound. lia.
    - unfold circ. f_equal. f_equal. f_equal. cbn. lia. }
  intros N M im kernel [|[|dim]] fs i j Hd Hi Hj; [| |lia]; unfold convolve_1d; cbn [Nat.eqb]; now rewrite L.
Qed.
Print Assumptions C31_is_convolution.
(** C31: a kernel concentrated on its centre leaves the image unchanged. *)
Theorem C31_identity : forall N M im dim i j, dim < 2 -> i < N -> j < M ->
  let n := if Nat.eqb dim 0 then N else M in
  convolve_1d N M im (fun a => if Nat.eqb a (n / 2) then RtoC 1 else RtoC 0) dim true i j = im i j.
Proof.
  intros N M im dim i j Hd Hi Hj n. rewrite C31_is_convolution by assumption. cbv zeta.
  set (p := if Nat.eqb dim 0 then i else j). set (x := fun a => if Nat.eqb dim 0 then im a j else im i a).
  assert (Hp : p < n) by (unfold p, n; destruct (Nat.eqb dim 0); assumption).
  assert (Hh : n / 2 < n) by (apply half_lt; lia).
  change (if Nat.eqb dim 0 then N else M) with n.
  rewrite (csum_single n p); [| exact Hp |].
  - replace (Z.of_nat p - Z.of_nat p + Z.of_nat (n / 2))%Z with (Z.of_nat (n / 2)) by lia.
    rewrite Z.mod_small, Nat2Z.id, Nat.eqb_refl, Cmult_1_r by lia. unfold x, p. destruct (Nat.eqb dim 0); reflexivity.
  - intros a Ha Hne. match goal with |- context [Nat.eqb ?u ?v] => destruct (Nat.eqb_spec u v) as [E|E] end; [|ring].
    exfalso. apply (f_equal Z.of_nat) in E. rewrite Z2Nat.id in E by (apply Z.mod_pos_bound; lia).
    rewrite <- (Z.mod_small (Z.of_nat (n / 2)) (Z.of_nat n)) in E at 2 by lia.
    assert (D : ((Z.of_nat p - Z.of_nat a) mod Z.of_nat n = 0)%Z).
    { replace (Z.of_nat p - Z.of_nat a)%Z with (Z.of_nat p - Z.of_nat a + Z.of_nat (n / 2) - Z.of_nat (n / 2))%Z by ring.
      rewrite Zminus_mod, E, Z.sub_diag. apply Z.mod_0_l. lia. }
    apply Z.mod_divide in D; [|lia]. destruct D as [q Q]. assert (q = 0)%Z by nia. lia.
Qed.
Print Assumptions C31_identity.
Example C31_case : convolve_1d 3 2 (fun i j => RtoC (INR (i + j))) (fun a => if Nat.eqb a 1 then RtoC 1 else RtoC 0) 0 true 2 1 = RtoC 3.
Proof. pose proof (C31_identity 3 2 (fun i j => RtoC (INR (i + j))) 0 2 1 ltac:(lia) ltac:(lia) ltac:(lia)) as H. cbv zeta in H. change ((if Nat.eqb 0 0 then 3 else 2) / 2) with 1 in H. rewrite H. f_equal. cbn. ring. Qed.

(** C32: the window never amplifies, whatever the shape, ... *)
Theorem C32_bounded : forall H W im i j, (0 <= im i j)%R -> (0 <= hann_window H W im i j <= im i j)%R.
Proof. intros H W im i j P. unfold hann_window. pose proof (hann_range H W i j). split; nra. Qed.
Print Assumptions C32_bounded.
(** ... and vanishes on the border of square images, ... *)
Theorem C32_square_border : forall n im i j, 2 <= n -> border n n i j -> hann_window n n im i j = 0%R.
Proof. intros n im i j Hn B. unfold hann_window. rewrite hann_border by assumption. ring. Qed.
Print Assumptions C32_square_border.
(** ... but not on that of other images: the two axis lengths are exchanged. *)
Theorem C32_border_refuted : exists H W im i j, 2 <= H /\ 2 <= W /\ i < H /\ j < W /\ border H W i j /\
  hann_window H W im i j <> 0%R.
Proof.
  exists 3, 5, (fun _ _ => 1%R), 2, 1. repeat split; try lia; [right; left; reflexivity|].
  unfold hann_window, hann. replace (PI * INR 2 / (INR 5 - 1))%R with (PI / 2)%R by (cbn [INR]; field).
  replace (PI * INR 1 / (INR 3 - 1))%R with (PI / 2)%R by (cbn [INR]; field). rewrite sin_PI2. lra.
Qed.
Print Assumptions C32_border_refuted.
Example C32_case : border 4 4 3 1 /\ (0 < hann 4 4 1 1)%R.
Proof.
  split; [right; left; reflexivity|]. unfold hann.
  replace (PI * INR 1 / (INR 4 - 1))%R with (PI / 3)%R by (cbn [INR]; field).
  assert (0 < sin (PI / 3))%R by (apply sin_gt_0; pose proof PI_RGT_0; lra). apply Rmult_lt_0_compat; apply pow_lt; lra.
Qed.
