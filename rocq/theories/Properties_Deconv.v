(** C89: the deconvolved cross-correlation. *)
From Verif Require Import Base FinSum Fourier Model_Prop Spec_Prop Proofs_Prop Proofs_FRC Model_Image Spec_Image Proofs_Image Model_Deconv Spec_Deconv.
From Coquelicot Require Import Complex.
From Coq Require Import FunctionalExtensionality.
Local Open Scope C_scope.

(** Lemmas. *)
Lemma Cmod_conj z : Cmod (Cconj z) = Cmod z.
Proof. destruct z as [a b]. unfold Cmod, Cconj. cbn. f_equal. ring. Qed.
Lemma Cmult_nz (x y : C) : x <> 0 -> y <> 0 -> x * y <> 0.
Proof. intros A B E. apply (f_equal Cmod) in E. rewrite Cmod_mult, Cmod_0 in E. apply Rmult_integral in E. destruct E as [E|E]; apply Cmod_eq_0 in E; contradiction. Qed.
Lemma conj_inv (r : R) : r <> 0%R -> Cconj (/ RtoC r) = / RtoC r.
Proof. intros N. rewrite <- RtoC_inv by exact N. apply Cconj_RtoC. Qed.
Lemma fft2_cis h w x k l : (0 < h)%nat -> (0 < w)%nat -> fft2 h w x k l =
  csum h (fun i => csum w (fun j => x i j * cis (- (2 * PI) * (INR k * INR i / INR h + INR l * INR j / INR w)))).
Proof.
  intros H0 W0. rewrite fft2_kernel. apply csum_ext. intros i _. apply csum_ext. intros j _. f_equal. unfold Fourier.w. rewrite <- cis_add. f_equal.
  rewrite !opp_IZR, !mult_IZR, <- !INR_IZR_INZ. apply lt_0_INR in H0. apply lt_0_INR in W0. field. lra.
Qed.
Lemma no_dark_fft h w x : (0 < h)%nat -> (0 < w)%nat -> no_dark h w x <-> (forall k l, (k < h)%nat -> (l < w)%nat -> fft2 h w x k l <> 0).
Proof. intros H0 W0. split; intros A k l Hk Hl; specialize (A k l Hk Hl); [rewrite fft2_cis by assumption|rewrite <- fft2_cis by assumption]; exact A. Qed.
Lemma any_zero_spec h w x : any_zero h w x = false <-> forall k l, (k < h)%nat -> (l < w)%nat -> x k l <> 0.
Proof.
  split.
  - intros E k l Hk Hl Z0. assert (T : any_zero h w x = true); [|congruence]. unfold any_zero. apply existsb_exists. exists k. split; [apply in_seq; lia|].
    apply existsb_exists. exists l. split; [apply in_seq; lia|]. unfold is_zero. rewrite Z0, Cmod_0. destruct Req_EM_T; [reflexivity|contradiction].
  - intros A. destruct (any_zero h w x) eqn:E; [|reflexivity]. exfalso. unfold any_zero in E. apply existsb_exists in E. destruct E as (k & Hk & E). apply existsb_exists in E. destruct E as (l & Hl & E).
    apply in_seq in Hk. apply in_seq in Hl. unfold is_zero in E. destruct Req_EM_T as [Q|Q]; [|discriminate]. apply Cmod_eq_0 in Q. apply (A k l); [lia|lia|exact Q].
Qed.
(** The whole function: an error, or nan, or the correlation of the windows. *)
Lemma run_value H W im1 im2 s h w a c : windows_of H W s h w a c ->
  calc_deconvolved_cross_correlation H W im1 im2 s =
  if (Nat.eqb h 0 || Nat.eqb w 0)%bool then Raise RuntimeError else
  Ok (if any_zero h w (fun k l => fft2 h w (window a c im1) k l * Cconj (fft2 h w (window a c im2) k l)) then None
      else Some (correlation h w (window a c im1) (window a c im2))).
Proof.
  intros Hw. unfold calc_deconvolved_cross_correlation.
  assert (E : match s with None => (middle H, middle W) | Some ((r0, r1), (c0, c1)) => (slice_range H r0 r1, slice_range W c0 c1) end = ((a, h), (c, w))).
  { destruct s as [[[r0 r1] [c0 c1]]|]; unfold windows_of in Hw.
    - destruct Hw as (-> & -> & -> & ->). reflexivity.
    - destruct Hw as (-> & -> & -> & ->). unfold middle, slice_range. pose proof (Nat.div_mod_eq H 8). pose proof (Nat.div_mod_eq W 8). set (p := (H / 8)%nat) in *. set (q := (W / 8)%nat) in *. apply (f_equal2 pair); apply (f_equal2 pair). all: lia. }
  rewrite E. cbn [fst snd]. reflexivity.
Qed.
Lemma any_zero_both h w x y : (0 < h)%nat -> (0 < w)%nat ->
  any_zero h w (fun k l => fft2 h w x k l * Cconj (fft2 h w y k l)) = false <-> no_dark h w x /\ no_dark h w y.
Proof.
  intros H0 W0. rewrite any_zero_spec, !no_dark_fft by assumption. split.
  - intros A. split; intros k l Hk Hl Z0; apply (A k l Hk Hl); rewrite Z0; [ring|]. replace (Cconj 0) with (RtoC 0); [ring|]. unfold Cconj, RtoC. cbn. f_equal. lra.
  - intros [A B] k l Hk Hl Z0. apply (f_equal Cmod) in Z0. rewrite Cmod_mult, Cmod_conj, Cmod_0 in Z0. apply Rmult_integral in Z0. destruct Z0 as [Q|Q]; apply Cmod_eq_0 in Q; [apply (A k l Hk Hl Q)|apply (B k l Hk Hl Q)].
Qed.
Lemma run_ok H W im1 im2 s h w a c : windows_of H W s h w a c -> (0 < h)%nat -> (0 < w)%nat -> no_dark h w (window a c im1) -> no_dark h w (window a c im2) ->
  calc_deconvolved_cross_correlation H W im1 im2 s = Ok (Some (correlation h w (window a c im1) (window a c im2))).
Proof.
  intros Hw H0 W0 A B. rewrite (run_value H W im1 im2 s h w a c Hw). destruct (Nat.eqb_spec h 0); [lia|]. destruct (Nat.eqb_spec w 0); [lia|]. cbn [orb].
  assert (E : any_zero h w (fun k l => fft2 h w (window a c im1) k l * Cconj (fft2 h w (window a c im2) k l)) = false) by (apply any_zero_both; auto). rewrite E. reflexivity.
Qed.

(** Which part of the images counts: the given slice, or the middle: 2 (n / 8) entries from 3 (n / 8) on. With an image
    side under 8 pixels the default slice is empty and the function raises. *)
Theorem C89_window : forall H W im1 im2 im1' im2' s h w a c, windows_of H W s h w a c ->
  (forall i j, (a <= i < a + h)%nat -> (c <= j < c + w)%nat -> im1' i j = im1 i j /\ im2' i j = im2 i j) ->
  (((h = 0 \/ w = 0)%nat /\ calc_deconvolved_cross_correlation H W im1 im2 s = Raise RuntimeError /\
    calc_deconvolved_cross_correlation H W im1' im2' s = Raise RuntimeError) \/
   (0 < h /\ 0 < w)%nat /\ exists r, calc_deconvolved_cross_correlation H W im1 im2 s = Ok r /\ calc_deconvolved_cross_correlation H W im1' im2' s = Ok r).
Proof.
  intros H W im1 im2 im1' im2' s h w a c Hw E. rewrite !(run_value H W _ _ s h w a c Hw). destruct (Nat.eqb_spec h 0) as [->|H0]; [left; auto|]. destruct (Nat.eqb_spec w 0) as [->|W0]; [left; auto|].
  right. split; [lia|]. cbn [orb].
  assert (S1 : same h w (window a c im1') (window a c im1)) by (intros i j Hi Hj; unfold window; apply E; lia).
  assert (S2 : same h w (window a c im2') (window a c im2)) by (intros i j Hi Hj; unfold window; apply E; lia).
  assert (C1 : correlation h w (window a c im1') (window a c im2') = correlation h w (window a c im1) (window a c im2)).
  { apply functional_extensionality. intros i. apply functional_extensionality. intros j. unfold correlation. apply ifft2_ext. intros k l _ _. rewrite (fft2_ext h w _ _ k l S1), (fft2_ext h w _ _ k l S2). reflexivity. }
  assert (Z1 : any_zero h w (fun k l => fft2 h w (window a c im1') k l * Cconj (fft2 h w (window a c im2') k l)) = any_zero h w (fun k l => fft2 h w (window a c im1) k l * Cconj (fft2 h w (window a c im2) k l))).
  { f_equal. apply functional_extensionality. intros k. apply functional_extensionality. intros l. rewrite (fft2_ext h w _ _ k l S1), (fft2_ext h w _ _ k l S2). reflexivity. }
  rewrite Z1, C1. eexists. split; reflexivity.
Qed.
Print Assumptions C89_window.
Theorem C89_small_refuted : forall H W im1 im2, (H < 8 \/ W < 8)%nat -> calc_deconvolved_cross_correlation H W im1 im2 None = Raise RuntimeError.
Proof.
  intros H W im1 im2 S. rewrite (run_value H W im1 im2 None (2 * (H / 8)) (2 * (W / 8)) (3 * (H / 8)) (3 * (W / 8))) by (unfold windows_of; auto).
  destruct S as [S|S]; rewrite (Nat.div_small _ 8 S); cbn [Nat.mul Nat.add Nat.eqb orb]; [reflexivity|]. rewrite Bool.orb_true_r. reflexivity.
Qed.
Print Assumptions C89_small_refuted.

(** There is a result (without nan) exactly if no Fourier coefficient of either window is zero. *)
Theorem C89_defined : forall H W im1 im2 s h w a c, windows_of H W s h w a c -> (0 < h)%nat -> (0 < w)%nat ->
  (exists cor, calc_deconvolved_cross_correlation H W im1 im2 s = Ok (Some cor)) <-> no_dark h w (window a c im1) /\ no_dark h w (window a c im2).
Proof.
  intros H W im1 im2 s h w a c Hw H0 W0. split.
  - intros [cor E]. rewrite (run_value H W im1 im2 s h w a c Hw) in E. destruct (Nat.eqb_spec h 0); [lia|]. destruct (Nat.eqb_spec w 0); [lia|]. cbn [orb] in E.
    apply any_zero_both; [assumption|assumption|]. destruct (any_zero _ _ _); [discriminate|reflexivity].
  - intros [A B]. eexists. apply (run_ok H W im1 im2 s h w a c); assumption.
Qed.
Print Assumptions C89_defined.
(** So a flat window of more than one pixel gives nan everywhere. *)
Lemma flat_dark h w (z : C) : (1 < h)%nat -> (0 < w)%nat -> fft2 h w (fun _ _ => z) 1%nat 0%nat = 0.
Proof.
  intros H0 W0. rewrite fft2_kernel. rewrite (csum_ext h _ (fun i => (z * RtoC (INR w)) * Fourier.w h (Z.of_nat i * -1))).
  - rewrite <- csum_scal, (orth h) by lia. assert (E : (-1 mod Z.of_nat h =? 0)%Z = false) by (apply Z.eqb_neq; intros Q; change (-1)%Z with (- (1))%Z in Q; rewrite Z_mod_nz_opp_full in Q by (rewrite Z.mod_small; lia); rewrite Z.mod_small in Q; lia). rewrite E. ring.
  - intros i _. rewrite (csum_ext w _ (fun _ => z * Fourier.w h (- (1 * Z.of_nat i)))) by (intros; rewrite Z.mul_0_l; change (- 0)%Z with 0%Z; rewrite w_0; change (Z.of_nat 1) with 1%Z; ring). rewrite csum_const. replace (Z.of_nat i * -1)%Z with (- (1 * Z.of_nat i))%Z by ring. ring.
Qed.
Theorem C89_flat_refuted : forall H W im1 im2 z, (8 <= H)%nat -> (8 <= W)%nat -> (forall i j, im1 i j = z) ->
  calc_deconvolved_cross_correlation H W im1 im2 None = Ok None.
Proof.
  intros H W im1 im2 z H0 W0 F. assert (1 <= H / 8)%nat by (apply Nat.div_le_lower_bound; lia). assert (1 <= W / 8)%nat by (apply Nat.div_le_lower_bound; lia).
  rewrite (run_value H W im1 im2 None (2 * (H / 8)) (2 * (W / 8)) (3 * (H / 8)) (3 * (W / 8))) by (unfold windows_of; auto).
  destruct (Nat.eqb_spec (2 * (H / 8)) 0); [lia|]. destruct (Nat.eqb_spec (2 * (W / 8)) 0); [lia|]. cbn [orb].
  destruct (any_zero _ _ _) eqn:E; [reflexivity|]. exfalso. rewrite any_zero_spec in E. apply (E 1%nat 0%nat); [lia|lia|].
  rewrite (fft2_ext _ _ _ (fun _ _ => z)) by (intros i j _ _; apply F). rewrite flat_dark by lia. ring.
Qed.
Print Assumptions C89_flat_refuted.

(** Deconvolved: the correlation has no amplitudes left, and the phases of the product of the two spectra. It has unit
    energy. *)
Lemma cor_spectrum h w x y k l : (0 < h)%nat -> (0 < w)%nat -> (k < h)%nat -> (l < w)%nat ->
  fft2 h w (correlation h w x y) k l = fft2 h w x k l * Cconj (fft2 h w y k l) / RtoC (Cmod (fft2 h w x k l * Cconj (fft2 h w y k l))).
Proof. intros H0 W0 Hk Hl. unfold correlation. rewrite fft2_ifft2 by assumption. reflexivity. Qed.
Theorem C89_phases : forall H W im1 im2 s h w a c cor, windows_of H W s h w a c -> (0 < h)%nat -> (0 < w)%nat ->
  calc_deconvolved_cross_correlation H W im1 im2 s = Ok (Some cor) ->
  (forall k l, (k < h)%nat -> (l < w)%nat -> Cmod (fft2 h w cor k l) = 1%R /\
     fft2 h w (window a c im1) k l * Cconj (fft2 h w (window a c im2) k l) =
     RtoC (Cmod (fft2 h w (window a c im1) k l) * Cmod (fft2 h w (window a c im2) k l)) * fft2 h w cor k l) /\
  energy h w cor = 1%R.
Proof.
  intros H W im1 im2 s h w a c cor Hw H0 W0 E.
  assert (D : no_dark h w (window a c im1) /\ no_dark h w (window a c im2)) by (apply (C89_defined H W im1 im2 s h w a c Hw H0 W0); eauto).
  destruct D as [A B]. rewrite (run_ok H W im1 im2 s h w a c Hw H0 W0 A B) in E. injection E as <-. rewrite no_dark_fft in A, B by assumption.
  set (x := window a c im1) in *. set (y := window a c im2) in *.
  assert (NZ : forall k l, (k < h)%nat -> (l < w)%nat -> Cmod (fft2 h w x k l * Cconj (fft2 h w y k l)) <> 0%R).
  { intros k l Hk Hl. rewrite Cmod_mult, Cmod_conj. apply Rmult_integral_contrapositive. split; intros Q; apply Cmod_eq_0 in Q; [apply (A k l Hk Hl Q)|apply (B k l Hk Hl Q)]. }
  assert (U : forall k l, (k < h)%nat -> (l < w)%nat -> Cmod (fft2 h w (correlation h w x y) k l) = 1%R).
  { intros k l Hk Hl. rewrite cor_spectrum by assumption. specialize (NZ k l Hk Hl). rewrite Cmod_div by (intros Q; apply RtoC_inj in Q; contradiction).
    rewrite (Cmod_R (Cmod _)), Rabs_pos_eq by apply Cmod_ge_0. field. exact NZ. }
  split.
  - intros k l Hk Hl. split; [apply U; assumption|]. rewrite cor_spectrum by assumption. specialize (NZ k l Hk Hl). rewrite <- (Cmod_conj (fft2 h w y k l)), <- Cmod_mult.
    field. intros Q. apply RtoC_inj in Q. contradiction.
  - rewrite energy_fft_half by assumption. unfold energy. rewrite (rsum_ext h _ (fun _ => INR w)).
    + rewrite rsum_const. apply lt_0_INR in H0. apply lt_0_INR in W0. field. lra.
    + intros k Hk. rewrite (rsum_ext w _ (fun _ => 1%R)) by (intros l Hl; rewrite nrm2_Cmod, U by assumption; ring). rewrite rsum_const. ring.
Qed.
Print Assumptions C89_phases.

(** A window that is the other one shifted (cyclically) by (p, q) correlates to a single 1 at (p, q); with itself, at (0, 0). *)
Theorem C89_shift : forall H W im1 im2 s h w a c p q, windows_of H W s h w a c -> (0 < h)%nat -> (0 < w)%nat ->
  no_dark h w (window a c im2) -> same h w (window a c im1) (rolled h w (window a c im2) p q) ->
  exists cor, calc_deconvolved_cross_correlation H W im1 im2 s = Ok (Some cor) /\ same h w cor (point (circ h p) (circ w q)).
Proof.
  intros H W im1 im2 s h w a c p q Hw H0 W0 B S. set (y := window a c im2) in *.
  assert (Fx : forall k l, fft2 h w (window a c im1) k l = Fourier.w h (- (Z.of_nat k * p)) * Fourier.w w (- (Z.of_nat l * q)) * fft2 h w y k l).
  { intros k l. rewrite (fft2_ext h w _ _ k l S). apply fft2_rolled; assumption. }
  assert (WN : forall n z, Fourier.w n z <> 0) by (intros n z Q; pose proof (w_nrm2 n z) as N1; rewrite Q in N1; unfold nrm2, RtoC in N1; cbn in N1; lra).
  assert (A : no_dark h w (window a c im1)). { apply no_dark_fft; try assumption. intros k l Hk Hl. rewrite Fx. apply Cmult_nz; [apply Cmult_nz; apply WN|]. apply (proj1 (no_dark_fft h w y H0 W0) B k l Hk Hl). }
  eexists. split; [apply (run_ok H W im1 im2 s h w a c); assumption|]. rewrite no_dark_fft in B by assumption. fold y.
  intros i j Hi Hj. unfold correlation. rewrite (ifft2_ext h w _ (fun k l => Fourier.w h (Z.of_nat k * - p) * Fourier.w w (Z.of_nat l * - q))).
  - rewrite ifft2_prod, !idft_w by assumption. unfold point.
    assert (K : forall n i p, (0 < n)%nat -> (i < n)%nat -> ((Z.of_nat i + - p) mod Z.of_nat n =? 0)%Z = Nat.eqb i (circ n p)).
    { intros n i0 p0 Hn Hi0. pose proof (zero_mod_circ n i0 (- p0) Hn Hi0) as Q. rewrite Z.opp_involutive in Q. destruct (Nat.eqb_spec i0 (circ n p0)) as [E|E]; [apply Z.eqb_eq, Q, E|apply Z.eqb_neq; intros X; apply E, Q, X]. }
    rewrite !K by assumption. destruct (Nat.eqb i (circ h p)), (Nat.eqb j (circ w q)); cbn [andb]; ring.
  - intros k l Hk Hl. rewrite Fx. set (z := fft2 h w y k l). specialize (B k l Hk Hl). fold z in B.
    assert (E : Fourier.w h (- (Z.of_nat k * p)) * Fourier.w w (- (Z.of_nat l * q)) * z * Cconj z = RtoC (nrm2 z) * (Fourier.w h (Z.of_nat k * - p) * Fourier.w w (Z.of_nat l * - q))).
    { rewrite <- mult_conj. replace (Z.of_nat k * - p)%Z with (- (Z.of_nat k * p))%Z by ring. replace (Z.of_nat l * - q)%Z with (- (Z.of_nat l * q))%Z by ring. ring. }
    rewrite E. rewrite Cmod_mult, Cmod_R, Cmod_mult, !(Cmod_nrm2 (Fourier.w _ _)), !w_nrm2, sqrt_1, !Rmult_1_r. rewrite Rabs_pos_eq by apply nrm2_nonneg.
    assert (NZ : RtoC (nrm2 z) <> 0). { intros Q. apply RtoC_inj in Q. apply nrm2_0 in Q. contradiction. } field. exact NZ.
Qed.
Print Assumptions C89_shift.

(** What is common to both images does not matter: blurring both windows with one kernel, or scaling them (up to a
    constant phase). *)
Lemma fft2_sum h w n (f : nat -> img) k l : fft2 h w (fun i j => csum n (fun t => f t i j)) k l = csum n (fun t => fft2 h w (f t) k l).
Proof.
  rewrite fft2_kernel. rewrite (csum_ext n (fun t => fft2 h w (f t) k l) _ (fun t _ => fft2_kernel h w (f t) k l)).
  symmetry. rewrite csum_swap. apply csum_ext. intros i _. rewrite csum_swap. apply csum_ext. intros j _. rewrite csum_scal_r. reflexivity.
Qed.
Lemma fft2_scal1 h w (z : C) (x : img) k l : fft2 h w (fun i j => z * x i j) k l = z * fft2 h w x k l.
Proof. rewrite !fft2_kernel, csum_scal. apply csum_ext. intros i _. rewrite csum_scal. apply csum_ext. intros j _. ring. Qed.
Lemma fft2_blurred h w kern x k l : (0 < h)%nat -> (0 < w)%nat -> fft2 h w (blurred h w kern x) k l = fft2 h w kern k l * fft2 h w x k l.
Proof.
  intros H0 W0. unfold blurred. rewrite (fft2_sum h w h (fun a i j => csum w (fun b => kern a b * x (circ h (Z.of_nat i - Z.of_nat a)) (circ w (Z.of_nat j - Z.of_nat b))))).
  rewrite (fft2_kernel h w kern), csum_scal_r. apply csum_ext. intros a _. rewrite (fft2_sum h w w (fun b i j => kern a b * x (circ h (Z.of_nat i - Z.of_nat a)) (circ w (Z.of_nat j - Z.of_nat b)))).
  rewrite csum_scal_r. apply csum_ext. intros b _. rewrite (fft2_scal1 h w (kern a b) (rolled h w x (Z.of_nat a) (Z.of_nat b))), fft2_rolled by assumption. ring.
Qed.
Theorem C89_blur : forall H W im1 im2 im1' im2' s h w a c kern cor, windows_of H W s h w a c -> (0 < h)%nat -> (0 < w)%nat ->
  no_dark h w kern -> same h w (window a c im1') (blurred h w kern (window a c im1)) -> same h w (window a c im2') (blurred h w kern (window a c im2)) ->
  calc_deconvolved_cross_correlation H W im1 im2 s = Ok (Some cor) ->
  exists cor', calc_deconvolved_cross_correlation H W im1' im2' s = Ok (Some cor') /\ same h w cor' cor.
Proof.
  intros H W im1 im2 im1' im2' s h w a c kern cor Hw H0 W0 K S1 S2 E.
  assert (D : no_dark h w (window a c im1) /\ no_dark h w (window a c im2)) by (apply (C89_defined H W im1 im2 s h w a c Hw H0 W0); eauto).
  destruct D as [A B]. rewrite (run_ok H W im1 im2 s h w a c Hw H0 W0 A B) in E. injection E as <-.
  assert (F1 : forall k l, fft2 h w (window a c im1') k l = fft2 h w kern k l * fft2 h w (window a c im1) k l) by (intros k l; rewrite (fft2_ext h w _ _ k l S1); apply fft2_blurred; assumption).
  assert (F2 : forall k l, fft2 h w (window a c im2') k l = fft2 h w kern k l * fft2 h w (window a c im2) k l) by (intros k l; rewrite (fft2_ext h w _ _ k l S2); apply fft2_blurred; assumption).
  rewrite no_dark_fft in A, B, K by assumption.
  exists (correlation h w (window a c im1') (window a c im2')). split.
  - apply run_ok; try assumption; apply no_dark_fft; try assumption; intros k l Hk Hl; [rewrite F1|rewrite F2]; apply Cmult_nz; auto.
  - intros i j _ _. unfold correlation. apply ifft2_ext. intros k l Hk Hl. rewrite F1, F2. set (z := fft2 h w kern k l). set (x := fft2 h w (window a c im1) k l). set (y := fft2 h w (window a c im2) k l).
    rewrite Cconj_mult. assert (E : z * x * (Cconj z * Cconj y) = RtoC (nrm2 z) * (x * Cconj y)) by (rewrite <- mult_conj; ring). rewrite E.
    rewrite Cmod_mult, Cmod_R, Rabs_pos_eq by apply nrm2_nonneg. rewrite RtoC_mult.
    assert (N1 : RtoC (nrm2 z) <> 0) by (intros Q; apply RtoC_inj in Q; apply nrm2_0 in Q; apply (K k l Hk Hl Q)).
    assert (N2 : RtoC (Cmod (x * Cconj y)) <> 0). { intros Q. apply RtoC_inj in Q. rewrite Cmod_mult, Cmod_conj in Q. apply Rmult_integral in Q. destruct Q as [Q|Q]; apply Cmod_eq_0 in Q; [apply (A k l Hk Hl Q)|apply (B k l Hk Hl Q)]. }
    field. split; assumption.
Qed.
Print Assumptions C89_blur.
Theorem C89_scale : forall H W im1 im2 im1' im2' s h w a c z1 z2 cor, windows_of H W s h w a c -> (0 < h)%nat -> (0 < w)%nat ->
  z1 <> 0 -> z2 <> 0 -> (forall i j, im1' i j = z1 * im1 i j /\ im2' i j = z2 * im2 i j) ->
  calc_deconvolved_cross_correlation H W im1 im2 s = Ok (Some cor) ->
  exists cor', calc_deconvolved_cross_correlation H W im1' im2' s = Ok (Some cor') /\
    same h w cor' (fun i j => z1 * Cconj z2 / RtoC (Cmod z1 * Cmod z2) * cor i j).
Proof.
  intros H W im1 im2 im1' im2' s h w a c z1 z2 cor Hw H0 W0 Z1 Z2 S E.
  assert (D : no_dark h w (window a c im1) /\ no_dark h w (window a c im2)) by (apply (C89_defined H W im1 im2 s h w a c Hw H0 W0); eauto).
  destruct D as [A B]. rewrite (run_ok H W im1 im2 s h w a c Hw H0 W0 A B) in E. injection E as <-.
  assert (F1 : forall k l, fft2 h w (window a c im1') k l = z1 * fft2 h w (window a c im1) k l) by (intros k l; rewrite <- fft2_scal1; apply fft2_ext; intros i j _ _; apply S).
  assert (F2 : forall k l, fft2 h w (window a c im2') k l = z2 * fft2 h w (window a c im2) k l) by (intros k l; rewrite <- fft2_scal1; apply fft2_ext; intros i j _ _; apply S).
  rewrite no_dark_fft in A, B by assumption.
  exists (correlation h w (window a c im1') (window a c im2')). split.
  - apply run_ok; try assumption; apply no_dark_fft; try assumption; intros k l Hk Hl; [rewrite F1|rewrite F2]; apply Cmult_nz; auto.
  - intros i j _ _. unfold correlation. set (g := z1 * Cconj z2 / RtoC (Cmod z1 * Cmod z2)).
    rewrite (ifft2_ext h w _ (fun k l => g * (fft2 h w (window a c im1) k l * Cconj (fft2 h w (window a c im2) k l) / RtoC (Cmod (fft2 h w (window a c im1) k l * Cconj (fft2 h w (window a c im2) k l)))))).
    + set (u := fun k l => fft2 h w (window a c im1) k l * Cconj (fft2 h w (window a c im2) k l) / RtoC (Cmod (fft2 h w (window a c im1) k l * Cconj (fft2 h w (window a c im2) k l)))).
      assert (L1 : forall n (f : nat -> C) q, idft n (fun t => g * f t) q = g * idft n f q).
      { intros n f q. pose proof (idft_lin n g 0 f f q) as Q. transitivity (g * idft n f q + 0 * idft n f q); [|ring]. rewrite <- Q. apply idft_ext. intros. ring. }
      unfold ifft2. rewrite <- L1. apply idft_ext. intros t _. apply (L1 w (u t) j).
    + intros k l Hk Hl. rewrite F1, F2. set (x := fft2 h w (window a c im1) k l). set (y := fft2 h w (window a c im2) k l).
      rewrite Cconj_mult. replace (z1 * x * (Cconj z2 * Cconj y)) with ((z1 * Cconj z2) * (x * Cconj y)) by ring. rewrite Cmod_mult, (Cmod_mult z1), Cmod_conj, RtoC_mult. unfold g.
      assert (N2 : RtoC (Cmod (x * Cconj y)) <> 0). { intros Q. apply RtoC_inj in Q. rewrite Cmod_mult, Cmod_conj in Q. apply Rmult_integral in Q. destruct Q as [Q|Q]; apply Cmod_eq_0 in Q; [apply (A k l Hk Hl Q)|apply (B k l Hk Hl Q)]. }
      assert (N1 : RtoC (Cmod z1 * Cmod z2) <> 0). { intros Q. apply RtoC_inj in Q. apply Rmult_integral in Q. destruct Q as [Q|Q]; apply Cmod_eq_0 in Q; contradiction. }
      field. split; assumption.
Qed.
Print Assumptions C89_scale.

(** Swapping the images turns the correlation by half a turn about pixel (0, 0) and conjugates it. *)
Lemma idft_conj n f i : (0 < n)%nat -> idft n (fun k => Cconj (f k)) i = Cconj (idft n f (circ n (- Z.of_nat i))).
Proof.
  intros H. unfold idft. rewrite Cconj_mult, Cconj_RtoC, csum_conj. f_equal. apply csum_ext. intros k _. rewrite Cconj_mult, w_conj by assumption. f_equal.
  apply w_congr; [assumption|]. rewrite circ_Z by assumption.
  rewrite <- Zmult_mod_idemp_l. replace (- (- Z.of_nat i mod Z.of_nat n * Z.of_nat k))%Z with ((- Z.of_nat i mod Z.of_nat n) * - Z.of_nat k)%Z by ring.
  rewrite !Zmult_mod_idemp_l. f_equal. ring.
Qed.
Theorem C89_swap : forall H W im1 im2 s h w a c cor, windows_of H W s h w a c -> (0 < h)%nat -> (0 < w)%nat ->
  calc_deconvolved_cross_correlation H W im1 im2 s = Ok (Some cor) ->
  exists cor', calc_deconvolved_cross_correlation H W im2 im1 s = Ok (Some cor') /\
    same h w cor' (fun i j => Cconj (cor (circ h (- Z.of_nat i)) (circ w (- Z.of_nat j)))).
Proof.
  intros H W im1 im2 s h w a c cor Hw H0 W0 E.
  assert (D : no_dark h w (window a c im1) /\ no_dark h w (window a c im2)) by (apply (C89_defined H W im1 im2 s h w a c Hw H0 W0); eauto).
  destruct D as [A B]. rewrite (run_ok H W im1 im2 s h w a c Hw H0 W0 A B) in E. injection E as <-.
  eexists. split; [apply run_ok; eassumption|]. intros i j _ _. unfold correlation, ifft2. rewrite <- idft_conj by assumption. apply idft_ext. intros k Hk. rewrite <- idft_conj by assumption. apply idft_ext. intros l Hl.
  set (x := fft2 h w (window a c im1) k l). set (y := fft2 h w (window a c im2) k l). unfold Cdiv. rewrite !Cconj_mult, Cconj_invol.
  replace (Cmod (x * Cconj y)) with (Cmod (y * Cconj x)) by (rewrite !Cmod_mult, !Cmod_conj; ring).
  rewrite conj_inv; [ring|]. rewrite no_dark_fft in A, B by assumption. rewrite Cmod_mult, Cmod_conj. apply Rmult_integral_contrapositive. split; intros Q; apply Cmod_eq_0 in Q; [apply (B k l Hk Hl Q)|apply (A k l Hk Hl Q)].
Qed.
Print Assumptions C89_swap.

(** Real images have a real correlation. *)
Lemma neg_neg n i : (0 < n)%nat -> (i < n)%nat -> circ n (- Z.of_nat (circ n (- Z.of_nat i))) = i.
Proof.
  intros H Hi. rewrite circ_Z by assumption. transitivity (circ n (Z.of_nat i)); [|apply circ_small; assumption]. apply circ_congr.
  rewrite <- (Z.sub_0_l (_ mod _)), Zminus_mod_idemp_r. f_equal. ring.
Qed.
Lemma csum_neg n f : (0 < n)%nat -> csum n (fun k => f (circ n (- Z.of_nat k))) = csum n f.
Proof.
  intros H. apply (csum_reindex n (fun k => circ n (- Z.of_nat k)) f).
  - intros i Hi. apply circ_bound, H.
  - intros i j Hi Hj E. rewrite <- (neg_neg n i H Hi), <- (neg_neg n j H Hj), E. reflexivity.
Qed.
Lemma w_neg n p q : (0 < n)%nat -> Fourier.w n (Z.of_nat p * Z.of_nat (circ n (- Z.of_nat q))) = Fourier.w n (- (Z.of_nat p * Z.of_nat q)).
Proof.
  intros H. apply w_congr; [assumption|]. rewrite circ_Z by assumption. rewrite Zmult_mod_idemp_r. f_equal. ring.
Qed.
Lemma idft_neg n f i : (0 < n)%nat -> idft n (fun k => f (circ n (- Z.of_nat k))) i = idft n f (circ n (- Z.of_nat i)).
Proof.
  intros H. unfold idft. f_equal. rewrite <- (csum_neg n _ H). apply csum_ext. intros k Hk. rewrite neg_neg by assumption. f_equal.
  rewrite w_neg by assumption. rewrite (Z.mul_comm (Z.of_nat (circ n (- Z.of_nat i)))), w_neg by assumption. f_equal. ring.
Qed.
Lemma dft_conj n f k : (0 < n)%nat -> dft n (fun j => Cconj (f j)) k = Cconj (dft n f (circ n (- Z.of_nat k))).
Proof.
  intros H. unfold dft. rewrite csum_conj. apply csum_ext. intros j _. rewrite Cconj_mult, w_conj by assumption. f_equal.
  rewrite Z.opp_involutive, (Z.mul_comm (Z.of_nat (circ n (- Z.of_nat k)))), w_neg by assumption. f_equal. ring.
Qed.
Lemma real_conj (z : C) : Im z = 0%R -> Cconj z = z.
Proof. destruct z as [a b]. cbn. intros ->. unfold Cconj. cbn. f_equal. ring. Qed.
Lemma fft2_real h w x k l : (0 < h)%nat -> (0 < w)%nat -> is_real h w x -> fft2 h w x (circ h (- Z.of_nat k)) (circ w (- Z.of_nat l)) = Cconj (fft2 h w x k l).
Proof.
  intros H0 W0 Rx. transitivity (Cconj (Cconj (fft2 h w x (circ h (- Z.of_nat k)) (circ w (- Z.of_nat l))))); [symmetry; apply Cconj_invol|]. f_equal.
  unfold fft2. rewrite <- dft_conj by assumption. apply dft_ext. intros i Hi. rewrite <- dft_conj by assumption. apply dft_ext. intros j Hj. apply real_conj, Rx; assumption.
Qed.
Theorem C89_real : forall H W im1 im2 s h w a c cor, windows_of H W s h w a c -> (0 < h)%nat -> (0 < w)%nat ->
  is_real h w (window a c im1) -> is_real h w (window a c im2) ->
  calc_deconvolved_cross_correlation H W im1 im2 s = Ok (Some cor) -> is_real h w cor.
Proof.
  intros H W im1 im2 s h w a c cor Hw H0 W0 R1 R2 E.
  assert (D : no_dark h w (window a c im1) /\ no_dark h w (window a c im2)) by (apply (C89_defined H W im1 im2 s h w a c Hw H0 W0); eauto).
  destruct D as [A B]. rewrite (run_ok H W im1 im2 s h w a c Hw H0 W0 A B) in E. injection E as <-. rewrite no_dark_fft in A, B by assumption.
  set (x := window a c im1) in *. set (y := window a c im2) in *.
  set (u := fun k l => fft2 h w x k l * Cconj (fft2 h w y k l) / RtoC (Cmod (fft2 h w x k l * Cconj (fft2 h w y k l)))).
  assert (U : forall k l, (k < h)%nat -> (l < w)%nat -> Cconj (u k l) = u (circ h (- Z.of_nat k)) (circ w (- Z.of_nat l))).
  { intros k l Hk Hl. unfold u. rewrite !fft2_real by assumption. unfold Cdiv. rewrite !Cconj_mult, !Cconj_invol.
    rewrite conj_inv. - rewrite !Cmod_mult, !Cmod_conj. reflexivity. - rewrite Cmod_mult, Cmod_conj. apply Rmult_integral_contrapositive. split; intros Q; apply Cmod_eq_0 in Q; [apply (A k l Hk Hl Q)|apply (B k l Hk Hl Q)]. }
  assert (Q : forall i j, (i < h)%nat -> (j < w)%nat -> Cconj (ifft2 h w u i j) = ifft2 h w u i j).
  { intros i j Hi Hj. unfold ifft2. rewrite <- (neg_neg h i H0 Hi) at 1. rewrite <- idft_conj by assumption.
    rewrite (idft_ext h _ (fun k => (fun t => idft w (u t) j) (circ h (- Z.of_nat k)))).
    - rewrite (idft_neg h (fun t => idft w (u t) j)) by assumption. rewrite neg_neg by assumption. reflexivity.
    - intros k Hk. cbn beta. rewrite <- (neg_neg w j W0 Hj) at 1. rewrite <- idft_conj by assumption.
      rewrite (idft_ext w _ (fun l => u (circ h (- Z.of_nat k)) (circ w (- Z.of_nat l)))) by (intros l Hl; apply U; assumption).
      rewrite idft_neg by assumption. rewrite neg_neg by assumption. reflexivity. }
  intros i j Hi Hj. unfold correlation. fold u. specialize (Q i j Hi Hj). set (z := ifft2 h w u i j) in *. destruct z as [p q]. unfold Cconj in Q. cbn in *. injection Q as Q. lra.
Qed.
Print Assumptions C89_real.

(** Concrete: the default slice of an 8 x 8 image is its 2 x 2 middle; a window with one bright pixel has no dark
    coefficient. *)
Example C89_example : windows_of 8 8 None 2 2 3 3 /\ no_dark 2 2 (window 3 3 (point 4 3)) /\
  same 2 2 (window 3 3 (point 4 3)) (rolled 2 2 (window 3 3 (point 3 3)) 1 0).
Proof.
  assert (S : same 2 2 (window 3 3 (point 4 3)) (rolled 2 2 (window 3 3 (point 3 3)) 1 0)).
  { intros i j Hi Hj. destruct i as [|[|i]]; [| |lia]; destruct j as [|[|j]]; try lia; reflexivity. }
  split; [unfold windows_of; cbn; auto|]. split; [|exact S].
  apply no_dark_fft; [lia|lia|]. intros k l Hk Hl. rewrite fft2_kernel. unfold window, point, csum, fsum. cbn [Nat.eqb Nat.add andb].
  intros Q. apply (f_equal Cmod) in Q. rewrite Cmod_0 in Q.
  match type of Q with Cmod ?e = _ => replace e with (Fourier.w 2 (- (Z.of_nat l * Z.of_nat 0)) * Fourier.w 2 (- (Z.of_nat k * Z.of_nat 1))) in Q by ring end.
  rewrite Cmod_mult, !Cmod_nrm2, !w_nrm2, sqrt_1 in Q. lra.
Qed.
