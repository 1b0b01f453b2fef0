(** Proofs about standardize_reconstruction_set and standardize_reconstruction_pair. *)
From Verif Require Import Base FinSum Fourier Matrix Model_Prop Spec_Prop Proofs_Prop Model_Meas Model_Interact Model_Geom Model_Image Spec_Image Proofs_Image Properties_Image
  Model_Shift Properties_Shift Model_Analysis Spec_Analysis Proofs_Ortho Proofs_Standard Proofs_Metrics Proofs_FRC Properties_Standard Properties_Metrics Model_Sets Spec_Sets.
From Coquelicot Require Import Complex.
From Coq Require Import FunctionalExtensionality.
Local Open Scope C_scope.

Lemma Cmod_conj z : Cmod (Cconj z) = Cmod z.
Proof. rewrite !Cmod_nrm2, nrm2_conj. reflexivity. Qed.
(** ---- windows ---- *)
Lemma csum_slice n a b (f : nat -> C) :
  csum n (fun i => if (Nat.leb a i && Nat.ltb i b)%bool then f i else 0) = csum (Nat.min b n - Nat.min a n) (fun i => f (Nat.min a n + i)%nat).
Proof.
  induction n as [|n IH]; [rewrite !Nat.min_0_r; reflexivity|]. rewrite csum_S, IH.
  destruct (Nat.leb_spec a n); destruct (Nat.ltb_spec n b); cbn [andb].
  - rewrite (Nat.min_r b n), (Nat.min_l a n), (Nat.min_r b (S n)), (Nat.min_l a (S n)) by lia.
    replace (S n - a)%nat with (S (n - a)) by lia. rewrite csum_S. do 2 f_equal. lia.
  - rewrite (Nat.min_l b n), (Nat.min_l a n), (Nat.min_l b (S n)), (Nat.min_l a (S n)) by lia. ring.
  - rewrite (Nat.min_r b n), (Nat.min_r a n), (Nat.min_r b (S n)), (Nat.min_r a (S n)) by lia. rewrite !Nat.sub_diag. cbn. unfold csum; cbn; ring.
  - rewrite (Nat.min_r a n), (Nat.min_r a (S n)) by lia. replace (Nat.min b n - n)%nat with 0%nat by lia. replace (Nat.min b (S n) - S n)%nat with 0%nat by lia. unfold csum; cbn; ring.
Qed.
Lemma csum_in_slice n s (f : nat -> C) : csum n (fun i => if in_slice s i then f i else 0) = csum (snd (slice_of n s)) (fun i => f (fst (slice_of n s) + i)%nat).
Proof. destruct s as [[a b]|]; cbn [in_slice slice_of fst snd]; [apply csum_slice|reflexivity]. Qed.
Lemma window_total_cut H W win x : window_total H W win x = icsum (win_H H win) (win_W W win) (cut H W win x).
Proof.
  unfold window_total, icsum, cut, win_H, win_W.
  rewrite <- (csum_in_slice H (fst win) (fun i => csum (snd (slice_of W (snd win))) (fun j => x i (fst (slice_of W (snd win)) + j)%nat))). apply csum_ext. intros i _.
  destruct (in_slice (fst win) i); cbn [andb].
  - exact (csum_in_slice W (snd win) (fun j => x i j)).
  - apply csum_zero.
Qed.
Lemma slice_lt n s i : (i < snd (slice_of n s))%nat -> (fst (slice_of n s) + i < n)%nat.
Proof. destruct s as [[a b]|]; cbn [slice_of fst snd]; lia. Qed.
Lemma cut_same H W win x y : same H W x y -> same (win_H H win) (win_W W win) (cut H W win x) (cut H W win y).
Proof. intros E i j Hi Hj. unfold cut. apply E; apply slice_lt; assumption. Qed.
Lemma icsum_same h w x y : same h w x y -> icsum h w x = icsum h w y.
Proof. intros E. unfold icsum. apply csum_ext. intros i Hi. apply csum_ext. intros j Hj. apply E; assumption. Qed.
Lemma icsum_scal h w c x : icsum h w (fun i j => c * x i j) = c * icsum h w x.
Proof. unfold icsum. rewrite csum_scal. apply csum_ext. intros i _. now rewrite csum_scal. Qed.

(** ---- the optimiser ---- *)
Lemma zero_freq_same h w x y : same h w x y -> zero_freq_component h w x = zero_freq_component h w y.
Proof. intros E. apply functional_extensionality. intros f. unfold zero_freq_component. do 3 f_equal. apply icsum_same. intros i j Hi Hj. now rewrite (E i j Hi Hj). Qed.
Lemma zero_freq_phase h w c x : unit_modulus c -> zero_freq_component h w (fun i j => c * x i j) = zero_freq_component h w x.
Proof.
  intros U. apply functional_extensionality. intros f. unfold zero_freq_component.
  replace (icsum h w (fun i j => phase_ramp f i j * (c * x i j))) with (c * icsum h w (fun i j => phase_ramp f i j * x i j)).
  - rewrite Cmod_mult, U. f_equal. ring.
  - rewrite <- icsum_scal. apply icsum_same. intros i j _ _. ring.
Qed.
Lemma ramp_0 i j : phase_ramp (0, 0)%R i j = 1.
Proof. unfold phase_ramp. cbn [fst snd]. replace (2 * PI * (0 * INR i + 0 * INR j))%R with 0%R by ring. apply cis_0. Qed.

(** The sum over the window is not zero after the ramp is removed. *)
Lemma phase_ramp_shift f a b i j : phase_ramp f (a + i)%nat (b + j)%nat = phase_ramp f a b * phase_ramp f i j.
Proof. apply cis_ramp_split. Qed.
Lemma phase_ramp_unit f i j : Cmod (phase_ramp f i j) = 1%R.
Proof. apply Cmod_cis. Qed.
Lemma ramped_total S win r : scipy_improves S -> window_total (r_H r) (r_W r) win (r_obj r) <> 0 ->
  forall b, window_total (r_H r) (r_W r) win (fst (ramped S win b r)) <> 0.
Proof.
  intros I NZ b. unfold ramped. destruct b; [|exact NZ]. unfold remove_phase_ramp. cbn [fst]. rewrite window_total_cut in *.
  set (f := ramp_freq S (r_H r) (r_W r) (r_obj r) win).
  pose proof (I (zero_freq_component (win_H (r_H r) win) (win_W (r_W r) win) (cut (r_H r) (r_W r) win (r_obj r))) (0, 0)%R) as Q.
  change (minimize2 S _ (0, 0)%R) with f in Q. unfold zero_freq_component in Q.
  rewrite (icsum_same _ _ (fun i j => phase_ramp (0, 0)%R i j * _) (cut (r_H r) (r_W r) win (r_obj r))) in Q by (intros i j _ _; rewrite ramp_0; ring).
  set (s0 := fst (slice_of (r_H r) (fst win))). set (s1 := fst (slice_of (r_W r) (snd win))).
  rewrite (icsum_same _ _ _ (fun i j => phase_ramp f s0 s1 * (phase_ramp f i j * cut (r_H r) (r_W r) win (r_obj r) i j))).
  2:{ intros i j _ _. unfold cut. fold s0 s1. rewrite phase_ramp_shift. ring. }
  rewrite icsum_scal. intros Z. apply (f_equal Cmod) in Z. rewrite Cmod_mult, phase_ramp_unit, Cmod_0, Rmult_1_l in Z. rewrite Z in Q.
  pose proof (proj1 (Cmod_gt_0 _) NZ). nra.
Qed.

(** ---- the phase offset ---- *)
Lemma angle_phase z c : unit_modulus c -> z <> 0 -> cis (- angle (c * z)) * c = cis (- angle z).
Proof.
  intros U NZ. pose proof (angle_cancel (c * z)) as A. pose proof (angle_cancel z) as B. rewrite Cmod_mult, U, Rmult_1_l in A.
  rewrite <- B in A. assert (E : z * (cis (- angle (c * z)) * c) = z * cis (- angle z)) by (rewrite <- A; ring).
  apply (f_equal (fun u => / z * u)) in E. rewrite !Cmult_assoc, Cinv_l, !Cmult_1_l in E by exact NZ. exact E.
Qed.
Lemma offset_same win b H W x y : same H W x y -> same H W (offset win b H W x) (offset win b H W y).
Proof.
  intros E i j Hi Hj. unfold offset. destruct b; [|now apply E]. rewrite (E i j Hi Hj). do 4 f_equal. apply icsum_same. now apply cut_same.
Qed.
Lemma offset_phase win H W c x : unit_modulus c -> window_total H W win x <> 0 -> offset win true H W (fun i j => c * x i j) = offset win true H W x.
Proof.
  intros U NZ. rewrite window_total_cut in NZ. apply functional_extensionality. intros i. apply functional_extensionality. intros j. unfold offset.
  replace (cut H W win (fun i j => c * x i j)) with (fun i j => c * cut H W win x i j) by reflexivity.
  rewrite icsum_scal, Cmult_assoc, angle_phase by assumption. reflexivity.
Qed.
Lemma offset_factor win b H W x : exists c, unit_modulus c /\ forall i j, offset win b H W x i j = c * x i j.
Proof.
  unfold offset. destruct b.
  - eexists. split; [|intros; reflexivity]. apply Cmod_cis.
  - exists 1. split; [apply Cmod_1|]. intros. ring.
Qed.
Lemma offset_total win H W x : positive_real (window_total H W win (offset win true H W x)).
Proof.
  unfold offset. set (a := angle _). rewrite window_total_cut.
  change (cut H W win (fun i j => cis (- a) * x i j)) with (fun i j => cis (- a) * cut H W win x i j).
  rewrite icsum_scal, Cmult_comm. unfold a. rewrite angle_cancel. eexists. split; [apply Cmod_ge_0|reflexivity].
Qed.

(** ---- shifts ---- *)
Lemma correlation_ext N M x y x' y' : same N M x x' -> same N M y y' -> correlation N M x y = correlation N M x' y'.
Proof.
  intros E F. apply functional_extensionality. intros i. apply functional_extensionality. intros j. unfold correlation. apply ifft2_ext.
  intros k l _ _. rewrite (fft2_ext N M x x' k l E), (fft2_ext N M y y' k l F). reflexivity.
Qed.
Lemma find_shift_ext N M x y x' y' rs : same N M x x' -> same N M y y' -> find_shift N M x y rs = find_shift N M x' y' rs.
Proof. intros E F. unfold find_shift, find_subpixel_shift, subpixel, find_pixel_shift. now rewrite (correlation_ext N M x y x' y' E F). Qed.
Lemma fft2_scal N M c x k l : fft2 N M (fun i j => c * x i j) k l = c * fft2 N M x k l.
Proof.
  unfold fft2. rewrite (dft_ext N _ (fun n => c * dft M (x n) l)).
  - apply (linop_scal N (dft N) c _ k (linop_dft N)).
  - intros n _. apply (linop_scal M (dft M) c (x n) l (linop_dft M)).
Qed.
Lemma ifft2_scal N M c x k l : ifft2 N M (fun i j => c * x i j) k l = c * ifft2 N M x k l.
Proof.
  unfold ifft2. rewrite (idft_ext N _ (fun n => c * idft M (x n) l)).
  - apply (linop_scal N (idft N) c _ k (linop_idft N)).
  - intros n _. apply (linop_scal M (idft M) c (x n) l (linop_idft M)).
Qed.
Lemma find_pixel_shift_scale N M x y e : e <> 0 -> find_pixel_shift N M x (fun i j => e * y i j) = find_pixel_shift N M x y.
Proof.
  intros He. unfold find_pixel_shift. rewrite (argmax_ext (N * M) _ (fun p => Cmod (correlation N M x y (p / M)%nat (p mod M)))); [reflexivity|].
  intros p _. set (i := (p / M)%nat). set (j := p mod M). clearbody i j. unfold correlation.
  set (g := Cconj e / RtoC (Cmod e)).
  assert (NC : Cmod e <> 0%R) by (intros Z; now apply Cmod_eq_0 in Z).
  assert (NG : Cmod g = 1%R). { unfold g. rewrite Cmod_div by (intros Z; apply RtoC_inj in Z; contradiction). rewrite Cmod_R, Rabs_pos_eq by apply Cmod_ge_0. rewrite Cmod_conj. field. exact NC. }
  rewrite (ifft2_ext N M _ (fun k l => g * (fft2 N M x k l * Cconj (fft2 N M y k l) / RtoC (Cmod (fft2 N M x k l * Cconj (fft2 N M y k l)))))).
  2:{ intros k l _ _. rewrite fft2_scal, Cconj_mult. set (z := fft2 N M x k l * Cconj (fft2 N M y k l)).
      replace (fft2 N M x k l * (Cconj e * Cconj (fft2 N M y k l))) with (Cconj e * z) by (unfold z; ring).
      rewrite Cmod_mult, Cmod_conj, RtoC_mult. destruct (Req_dec (Cmod z) 0) as [Z'|Z']; [assert (Z : z = 0) by now apply Cmod_eq_0|].
      - rewrite Z. rewrite Cmult_0_r. unfold Cdiv. ring.
      - unfold g. field. split; intros Q; apply RtoC_inj in Q; contradiction. }
  rewrite ifft2_scal, Cmod_mult, NG. ring.
Qed.

Lemma find_shift_scale N M x y e rs : e <> 0 -> full_spectrum N M x -> full_spectrum N M y ->
  find_shift N M x (fun i j => e * y i j) rs = find_shift N M x y rs.
Proof.
  intros He FX FY. unfold find_shift. rewrite find_pixel_shift_scale by exact He.
  rewrite <- (C72_scale N M x y 1 e (find_pixel_shift N M x y) rs); [|intros Z; apply RtoC_inj in Z; lra|exact He|auto].
  unfold find_subpixel_shift, subpixel. rewrite (correlation_ext N M (fun i j => 1 * x i j) (fun i j => e * y i j) x (fun i j => e * y i j)); [reflexivity| |].
  - intros i j _ _. ring.
  - intros i j _ _. reflexivity.
Qed.
(** The shift between an image and itself is zero. *)
Lemma find_shift_self N M x rs : (30 <= N)%nat -> (30 <= M)%nat -> (1 <= rs)%nat -> full_spectrum N M x -> find_shift N M x x rs = Ok (0, 0)%R.
Proof.
  intros HN HM HR F.
  assert (R0 : same N M x (rolled N M x 0 0)).
  { intros i j Hi Hj. unfold rolled, circ. rewrite !Z.sub_0_r, !Z.mod_small, !Nat2Z.id by lia. reflexivity. }
  rewrite (find_shift_ext N M x x x (rolled N M x 0 0) rs (fun i j _ _ => eq_refl) R0).
  pose proof (C30_range N M x (rolled N M x 0 0) ltac:(lia) ltac:(lia)) as [RA RB].
  pose proof (C30_finds_shift N M x 0 0 ltac:(lia) ltac:(lia) F) as [PA [PB _]]. cbv zeta in PA, PB.
  unfold find_shift. set (s := find_pixel_shift N M x (rolled N M x 0 0)) in *. clearbody s. destruct s as [u v]. cbn [fst snd] in *.
  assert (SM : forall n (z : Z), (30 <= n)%nat -> (- Z.of_nat (n / 2) <= z <= Z.of_nat (n - 1) - Z.of_nat (n / 2))%Z -> (z mod Z.of_nat n = (- 0) mod Z.of_nat n)%Z -> z = 0%Z).
  { intros n z Hn RZ MZ. change (- 0)%Z with 0%Z in MZ. rewrite Z.mod_0_l in MZ by lia. apply Z.mod_divide in MZ; [|lia]. destruct MZ as [q ->].
    pose proof (Nat.div_mod n 2 ltac:(lia)) as D. pose proof (Nat.mod_upper_bound n 2 ltac:(lia)) as U.
    assert (q = 0%Z) by nia. subst q. lia. }
  assert (u = 0%Z) by (apply (SM N); assumption). assert (v = 0%Z) by (apply (SM M); assumption). subst u v.
  rewrite (C72_subpixel N M x 0 0 (0, 0)%Z (0, 0)%Z rs HN HM HR F); cbn [fst snd]; try lia; reflexivity.
Qed.
Lemma find_shift_ok N M x y : (30 <= N)%nat -> (30 <= M)%nat -> exists s, find_shift N M x y 10 = Ok s /\ tenths (fst s) /\ tenths (snd s).
Proof.
  intros HN HM. destruct (find_shift N M x y 10) as [s|e] eqn:E.
  - exists s. split; [reflexivity|]. unfold find_shift in E.
    destruct (C72_grid N M x y _ 10 s HN HM ltac:(lia) E) as (p & q & P & Q & _). unfold tenths. replace (INR 10) with 10%R in P, Q by (cbn; ring).
    split; [exists (fst (find_pixel_shift N M x y) * 10 + p)%Z|exists (snd (find_pixel_shift N M x y) * 10 + q)%Z]; [rewrite P|rewrite Q]; rewrite plus_IZR, mult_IZR; field.
  - exfalso. unfold find_shift, find_subpixel_shift, subpixel in E. rewrite !(Nat.min_r _ (2 * 15)) in E by lia. cbv zeta in E.
    assert (A : assignable 15 (2 * 15) 10 = true) by reflexivity. rewrite A in E. cbn [andb] in E. discriminate E.
Qed.
Lemma shift_by_0 N M x : (0 < N)%nat -> (0 < M)%nat -> same N M (shift_by N M (0, 0)%R x) x.
Proof.
  intros HN HM i j Hi Hj. unfold shift_by. cbn [fst snd]. rewrite (C29_integer N M x 0 0 HN HM i j Hi Hj). unfold rolled, circ.
  rewrite !Z.sub_0_r, !Z.mod_small, !Nat2Z.id by lia. reflexivity.
Qed.
Lemma shift_by_same N M s x y : same N M x y -> same N M (shift_by N M s x) (shift_by N M s y).
Proof.
  intros E i j Hi Hj. unfold shift_by, sinc_subpixel_shift. apply ifft2_ext. intros k l Hk Hl. unfold ifftshift2, fftshift2. cbv beta. f_equal.
  now apply fft2_ext.
Qed.
Lemma shift_back N M s x : (0 < N)%nat -> (0 < M)%nat -> same N M (sinc_subpixel_shift N M (shift_by N M s x) (- fst s) (- snd s)) x.
Proof. intros HN HM. apply C29_reversible; assumption. Qed.
Lemma shift_between_ok h w x y : (30 <= h)%nat -> (30 <= w)%nat -> exists s, shift_between h w h w x y = Ok s /\ tenths (fst s) /\ tenths (snd s).
Proof. intros Hh Hw. unfold shift_between. rewrite !Nat.eqb_refl. cbn [andb]. now apply find_shift_ok. Qed.

Lemma shift_between_inv h w h' w' x y s : (30 <= h)%nat -> (30 <= w)%nat -> shift_between h w h' w' x y = Ok s ->
  h' = h /\ w' = w /\ tenths (fst s) /\ tenths (snd s).
Proof.
  intros Hh Hw. unfold shift_between. destruct (Nat.eqb_spec h h') as [E1|E1]; [|discriminate]. destruct (Nat.eqb_spec w w') as [E2|E2]; [|discriminate]. cbn [andb].
  intros E. destruct (find_shift_ok h w x y Hh Hw) as (s' & E' & T0 & T1). rewrite E in E'. injection E' as <-. auto.
Qed.

(** ---- rings ---- *)
Lemma calc_frc_same H W nb x y x' y' di dj lim b : same H W x x' -> same H W y y' -> calc_frc H W nb x y di dj lim b = calc_frc H W nb x' y' di dj lim b.
Proof.
  intros E F. unfold calc_frc.
  assert (EX : fft2 H W x = fft2 H W x') by (apply functional_extensionality; intros; apply functional_extensionality; intros; now apply fft2_ext).
  assert (EY : fft2 H W y = fft2 H W y') by (apply functional_extensionality; intros; apply functional_extensionality; intros; now apply fft2_ext).
  now rewrite EX, EY.
Qed.
Lemma calc_frc_self H W nb x di dj lim b : (0 < power H W (masked (frc_bin H W nb di dj lim b) (spectrum H W x)))%R -> calc_frc H W nb x x di dj lim b = 1.
Proof.
  intros P. rewrite (calc_frc_same H W nb x x (fun i j => 1 * x i j) x).
  - rewrite C44_frc_same; [|exact P|intros Z; apply RtoC_inj in Z; lra]. rewrite Cmod_1. unfold Cdiv. rewrite Cinv_r by (intros Z; apply RtoC_inj in Z; lra). reflexivity.
  - intros i j _ _. ring.
  - intros i j _ _. reflexivity.
Qed.
