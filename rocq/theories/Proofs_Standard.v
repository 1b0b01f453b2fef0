(** Proofs about standardize, remove_phase_ramp, remove_amplitude_exponent, make_illumination_map. *)
From Verif Require Import Base FinSum Fourier Matrix Model_Prop Model_Interact Model_Analysis Spec_Prop Spec_Analysis Proofs_Prop Proofs_Ortho.
From Coquelicot Require Import Complex.
From Coq Require Import FunctionalExtensionality.
Local Open Scope C_scope.

(** ---- the argument of a complex number ---- *)
Lemma Cmod_cis x : Cmod (cis x) = 1%R.
Proof. rewrite Cmod_nrm2, nrm2_cis. apply sqrt_1. Qed.
Lemma cis_neg_cancel x : cis x * cis (- x) = 1.
Proof. rewrite <- cis_add. replace (x + - x)%R with 0%R by ring. apply cis_0. Qed.
Lemma angle_spec z : cis (angle z) * RtoC (Cmod z) = z.
Proof.
  unfold angle. destruct (Req_EM_T (Cmod z) 0) as [E|E].
  - rewrite E. rewrite (Cmod_eq_0 z E). ring.
  - destruct z as [x y]. cbn [fst snd]. set (m := Cmod (x, y)) in *.
    assert (MP : (0 < m)%R). { pose proof (Cmod_ge_0 (x, y)) as Q. fold m in Q. lra. }
    assert (M2 : (x ^ 2 + y ^ 2 = m ^ 2)%R). { pose proof (nrm2_Cmod (x, y)) as Q. fold m in Q. unfold nrm2 in Q. cbn [fst snd] in Q. exact Q. }
    assert (B : (-1 <= x / m <= 1)%R).
    { split.
      - apply Rmult_le_reg_r with m; auto. unfold Rdiv. rewrite Rmult_assoc, Rinv_l, Rmult_1_r by lra. nra.
      - apply Rmult_le_reg_r with m; auto. unfold Rdiv. rewrite Rmult_assoc, Rinv_l, Rmult_1_r by lra. nra. }
    assert (SQ : sqrt (1 - (x / m)²) = (Rabs y / m)%R).
    { replace (1 - (x / m)²)%R with ((Rabs y / m) ^ 2)%R.
      - apply sqrt_pow2. apply Rmult_le_pos; [apply Rabs_pos|left; apply Rinv_0_lt_compat; auto].
      - unfold Rsqr. replace ((Rabs y / m) ^ 2)%R with ((Rabs y) ^ 2 / m ^ 2)%R by (field; lra). rewrite <- (pow2_abs y) in M2.
        replace (Rabs y ^ 2)%R with (m ^ 2 - x ^ 2)%R by lra. field. lra. }
    assert (CA : cos (acos (x / m)) = (x / m)%R) by (apply cos_acos; auto).
    assert (SA : sin (acos (x / m)) = (Rabs y / m)%R) by (rewrite sin_acos by auto; exact SQ).
    destruct (Rle_dec 0 y) as [Y|Y]; unfold cis.
    + rewrite CA, SA, Rabs_right by lra. apply C_ext; cbn; field; lra.
    + rewrite cos_neg, sin_neg, CA, SA, Rabs_left by lra. apply C_ext; cbn; field; lra.
Qed.
Lemma angle_cancel z : z * cis (- angle z) = RtoC (Cmod z).
Proof.
  pose proof (angle_spec z) as Q. rewrite <- Q at 1. rewrite <- (Cmult_assoc (cis (angle z))), (Cmult_comm (RtoC (Cmod z))), Cmult_assoc, cis_neg_cancel. ring.
Qed.

(** ---- constants leave the diffraction pattern alone ---- *)
Lemma far_field_scal H W c x y i j : (forall i j, (i < H)%nat -> (j < W)%nat -> y i j = c * x i j) -> (0 < H)%nat -> (0 < W)%nat ->
  far_field H W y i j = c * far_field H W x i j.
Proof.
  intros E PH PW. transitivity (far_field H W (lin c x 0 x) i j).
  - unfold far_field, fftshift2, fft2_ortho. f_equal. apply fft2_ext. intros a b Ha Hb. unfold ifftshift2, lin.
    rewrite E by (apply roll_bound; auto). ring.
  - destruct (far_linear H W c x 0 x i j) as [E1 _]. rewrite E1. ring.
Qed.

(** ---- standardize ---- *)
Lemma cis_ramp_split f a b i j : phase_ramp f (a + i)%nat (b + j)%nat = phase_ramp f a b * phase_ramp f i j.
Proof. unfold phase_ramp. rewrite <- cis_add. f_equal. rewrite !plus_INR. ring. Qed.
Lemma ramp_conj f i j : phase_ramp f i j * Cconj (phase_ramp f i j) = 1.
Proof. rewrite mult_conj. unfold phase_ramp. rewrite nrm2_cis. reflexivity. Qed.
Lemma Cmod_ramp f i j : Cmod (phase_ramp f i j) = 1%R.
Proof. apply Cmod_cis. Qed.

Section Standardize.
Variables (H W OH OW : nat) (probe : nat -> img) (obj : img) (sl : option ((nat * nat) * (nat * nat))) (ramp : bool).
Let nrm := sqrt (mean2 H W (abs2 (probe 0%nat))).
(** A closed form: both outputs as the inputs times explicit factors. *)
Lemma standardize_form : exists f u (v : nat -> C),
  unit_modulus u /\ (forall k, unit_modulus (v k)) /\
  (forall i j, snd (standardize H W OH OW probe obj sl ramp) i j = u * (RtoC nrm * (phase_ramp f i j * obj i j))) /\
  (forall k i j, fst (standardize H W OH OW probe obj sl ramp) k i j = v k * (probe k i j / RtoC nrm * Cconj (phase_ramp f i j))).
Proof.
  unfold standardize. fold nrm.
  destruct (match sl with Some s => s | None => _ end) as [[r0 r1] [c0 c1]].
  destruct ramp.
  - set (f := center_freq H W _). exists f.
    exists (cis (- angle (slice_sum r0 r1 c0 c1 (fun i j => obj i j * RtoC nrm * phase_ramp f i j)))).
    exists (fun k => cis (- angle (icsum H W (fun i j => probe k i j / RtoC nrm * Cconj (phase_ramp f i j))))).
    split; [apply Cmod_cis|]. split; [intros; apply Cmod_cis|]. cbn [fst snd]. split; intros; ring.
  - exists (0%R, 0%R).
    exists (cis (- angle (slice_sum r0 r1 c0 c1 (fun i j => obj i j * RtoC nrm)))).
    exists (fun k => cis (- angle (icsum H W (fun i j => probe k i j / RtoC nrm)))).
    split; [apply Cmod_cis|]. split; [intros; apply Cmod_cis|]. cbn [fst snd].
    assert (Z : forall i j, phase_ramp (0%R, 0%R) i j = 1). { intros. unfold phase_ramp. cbn [fst snd]. replace (2 * PI * (0 * INR i + 0 * INR j))%R with 0%R by ring. apply cis_0. }
    split; intros; rewrite Z; [ring|]. rewrite Cconj_RtoC. ring.
Qed.
Lemma nrm_pos : (0 < H)%nat -> (0 < W)%nat -> (0 < power H W (probe 0%nat))%R -> (0 < nrm)%R.
Proof.
  intros PH PW P. apply sqrt_lt_R0. unfold mean2. rewrite isum_abs2. apply Rdiv_lt_0_compat; auto. apply lt_0_INR. nia.
Qed.
Lemma standardize_exit : (0 < nrm)%R -> forall k a b, exists c, unit_modulus c /\ forall i j,
  exit_wave (fst (standardize H W OH OW probe obj sl ramp) k) (snd (standardize H W OH OW probe obj sl ramp)) a b i j = c * exit_wave (probe k) obj a b i j.
Proof.
  intros NP k a b. destruct standardize_form as [f [u [v [U [V [O P]]]]]].
  exists (u * v k * phase_ramp f a b). split.
  - unfold unit_modulus in *. rewrite !Cmod_mult, U, V, Cmod_ramp. ring.
  - intros i j. unfold exit_wave. rewrite O, P, cis_ramp_split. pose proof (ramp_conj f i j) as R.
    assert (RtoC nrm <> 0) by (intros Q; apply (f_equal fst) in Q; cbn in Q; lra).
    transitivity (u * v k * phase_ramp f a b * (probe k i j * obj (a + i)%nat (b + j)%nat) * (phase_ramp f i j * Cconj (phase_ramp f i j))); [field; auto|].
    rewrite R. ring.
Qed.
Lemma standardize_power : (0 < nrm)%R -> forall k, power H W (fst (standardize H W OH OW probe obj sl ramp) k) = (power H W (probe k) / nrm ^ 2)%R.
Proof.
  intros NP k. destruct standardize_form as [f [u [v [_ [V [_ P]]]]]]. unfold power. unfold Rdiv. rewrite Rmult_comm, rsum_scal. apply rsum_ext. intros i _.
  rewrite rsum_scal. apply rsum_ext. intros j _. rewrite P. unfold Cdiv. rewrite !nrm2_mult, nrm2_conj.
  rewrite (nrm2_Cmod (v k)), (V k). unfold phase_ramp. rewrite nrm2_cis. rewrite <- RtoC_inv by lra. rewrite nrm2_RtoC. field. lra.
Qed.
Lemma standardize_mean : (0 < H)%nat -> (0 < W)%nat -> (0 < power H W (probe 0%nat))%R ->
  (power H W (fst (standardize H W OH OW probe obj sl ramp) 0%nat) / INR (H * W) = 1)%R.
Proof.
  intros PH PW P. pose proof (nrm_pos PH PW P) as NP. rewrite standardize_power by auto. unfold nrm. rewrite pow2_sqrt.
  - unfold mean2. rewrite isum_abs2. field. split; first [lra | apply not_0_INR; nia].
  - unfold mean2. rewrite isum_abs2. apply Rmult_le_pos; [lra|]. left. apply Rinv_0_lt_compat, lt_0_INR. nia.
Qed.
End Standardize.
Lemma icsum_scal_r H W x c : icsum H W (fun i j => x i j * c) = icsum H W x * c.
Proof. unfold icsum. rewrite csum_scal_r. apply csum_ext. intros i _. rewrite csum_scal_r. reflexivity. Qed.
Lemma slice_scal_r r0 r1 c0 c1 (x : img) c : slice_sum r0 r1 c0 c1 (fun i j => x i j * c) = slice_sum r0 r1 c0 c1 x * c.
Proof. unfold slice_sum. rewrite csum_scal_r. apply csum_ext. intros i _. rewrite csum_scal_r. reflexivity. Qed.
Lemma standardize_probe_phase H W OH OW probe obj sl ramp k :
  positive_real (icsum H W (fst (standardize H W OH OW probe obj sl ramp) k)).
Proof.
  unfold standardize. destruct (match sl with Some s => s | None => _ end) as [[r0 r1] [c0 c1]].
  destruct ramp; cbn [fst snd]; rewrite icsum_scal_r, angle_cancel; eexists; (split; [|reflexivity]); apply Cmod_ge_0.
Qed.
Lemma standardize_obj_phase H W OH OW probe obj r0 r1 c0 c1 ramp :
  positive_real (slice_sum r0 r1 c0 c1 (snd (standardize H W OH OW probe obj (Some ((r0, r1), (c0, c1))) ramp))).
Proof.
  unfold standardize. destruct ramp; cbn [fst snd]; rewrite slice_scal_r, angle_cancel; eexists; (split; [|reflexivity]); apply Cmod_ge_0.
Qed.
Lemma standardize_default H W OH OW probe obj ramp :
  standardize H W OH OW probe obj None ramp = standardize H W OH OW probe obj (Some (default_slice OH, default_slice OW)) ramp.
Proof. reflexivity. Qed.

(** ---- remove_phase_ramp / remove_amplitude_exponent ---- *)
Lemma remove_phase_ramp_exit f im probe k a b i j :
  exit_wave (snd (remove_phase_ramp f im probe) k) (fst (remove_phase_ramp f im probe)) a b i j = phase_ramp f a b * exit_wave (probe k) im a b i j.
Proof.
  unfold exit_wave, remove_phase_ramp. cbn [fst snd]. rewrite cis_ramp_split.
  change (cis (- (2 * PI * (fst f * INR i + snd f * INR j)))) with (cis (- (2 * PI * (fst f * INR i + snd f * INR j)))).
  rewrite <- cis_conj. fold (phase_ramp f i j). pose proof (ramp_conj f i j) as R.
  transitivity (phase_ramp f a b * (probe k i j * im (a + i)%nat (b + j)%nat) * (phase_ramp f i j * Cconj (phase_ramp f i j))); [ring|]. rewrite R. ring.
Qed.

Lemma amplitude_exit g im probe weights pix s k (a b i j : nat) (c0 c1 w0 : R) (t : R * R) :
  nth_error weights s = Some w0 -> nth_error pix s = Some t ->
  INR a = (fst t - rmin (map fst pix) + c0)%R -> INR b = (snd t - rmin (map snd pix) + c1)%R ->
  let '(im', probe', weights') := remove_amplitude_exponent g im probe weights pix in
  exists w', nth_error weights' s = Some w' /\
  RtoC w' * exit_wave (probe' k) im' a b i j = RtoC (exp (- (fst g * c0 + snd g * c1))) * (RtoC w0 * exit_wave (probe k) im a b i j).
Proof.
  intros Hw Ht Ha Hb. unfold remove_amplitude_exponent.
  eexists. split.
  - rewrite nth_error_map. assert (C : nth_error (combine weights pix) s = Some (w0, t)).
    { clear - Hw Ht. revert s pix Hw Ht. induction weights as [|x l IH]; intros [|s] [|y q]; cbn; intros; try discriminate; [congruence|]. apply IH; auto. }
    rewrite C. reflexivity.
  - unfold exit_wave. cbn [fst snd].
    set (m0 := rmin (map fst pix)) in *. set (m1 := rmin (map snd pix)) in *. rewrite !plus_INR, Ha, Hb.
    set (X := (fst g * (fst t - m0) + snd g * (snd t - m1))%R). set (Y := (fst g * INR i + snd g * INR j)%R).
    transitivity (RtoC (exp X * exp Y * exp (- (fst g * (fst t - m0 + c0 + INR i) + snd g * (snd t - m1 + c1 + INR j)))) * (RtoC w0 * (probe k i j * im (a + i)%nat (b + j)%nat))).
    + rewrite !RtoC_mult. ring.
    + f_equal. f_equal. rewrite <- !exp_plus. f_equal. unfold X, Y. ring.
Qed.

(** ---- make_illumination_map ---- *)
Lemma illumination_map_at p H W pos : forall x i j,
  fold_left (fun x ab => add_window H W p (fst ab) (snd ab) x) pos x i j =
  (x i j + lsum (map (fun ab => if (Nat.leb (fst ab) i && Nat.ltb i (fst ab + H) && Nat.leb (snd ab) j && Nat.ltb j (snd ab + W))%bool then p (i - fst ab)%nat (j - snd ab)%nat else 0%R) pos))%R.
Proof.
  induction pos as [|[a b] r IH]; intros x i j; cbn [fold_left map lsum fold_right]; [ring|].
  rewrite IH. unfold add_window at 1. cbn [fst snd]. unfold lsum. ring.
Qed.

(** ---- ramps of whole pixels ---- *)
Definition zroll (n : nat) (d : Z) (i : nat) : nat := Z.to_nat ((Z.of_nat i + d) mod Z.of_nat n).
Lemma zroll_lt n d i : (0 < n)%nat -> (zroll n d i < n)%nat.
Proof. intros. unfold zroll. pose proof (Z.mod_pos_bound (Z.of_nat i + d) (Z.of_nat n) ltac:(lia)). lia. Qed.
Lemma zroll_of n d i : (0 < n)%nat -> (Z.of_nat (zroll n d i) = (Z.of_nat i + d) mod Z.of_nat n)%Z.
Proof. intros. unfold zroll. pose proof (Z.mod_pos_bound (Z.of_nat i + d) (Z.of_nat n) ltac:(lia)). lia. Qed.
Lemma zroll_inj n d i j : (i < n)%nat -> (j < n)%nat -> zroll n d i = zroll n d j -> i = j.
Proof.
  intros Hi Hj E. apply (f_equal Z.of_nat) in E. rewrite !zroll_of in E by lia.
  assert (Z : ((Z.of_nat i - Z.of_nat j) mod Z.of_nat n = 0)%Z).
  { replace (Z.of_nat i - Z.of_nat j)%Z with ((Z.of_nat i + d) - (Z.of_nat j + d))%Z by lia. rewrite Zminus_mod, E, Z.sub_diag. reflexivity. }
  apply Z.mod_divide in Z; [|lia]. destruct Z as [q Q]. assert (q = 0)%Z by nia. subst. lia.
Qed.
Lemma rsum_zroll n d f : rsum n (fun i => f (zroll n d i)) = rsum n f.
Proof.
  destruct n as [|n]; [reflexivity|]. apply (rsum_reindex (S n) (zroll (S n) d) f).
  - intros; apply zroll_lt; lia.
  - intros i j Hi Hj. apply zroll_inj; auto.
Qed.
Lemma dft_ramp n (Hn : (0 < n)%nat) d x k : dft n (fun j => x j * w n (- (d * Z.of_nat j))) k = dft n x (zroll n d k).
Proof.
  unfold dft. apply csum_ext. intros j Hj. rewrite zroll_of by auto. rewrite <- Cmult_assoc. f_equal. rewrite <- w_add by auto.
  apply w_congr; auto. rewrite <- !Z.mul_opp_r. rewrite Zmult_mod_idemp_l. f_equal. ring.
Qed.
Lemma fft2_ramp H W (PH : (0 < H)%nat) (PW : (0 < W)%nat) d0 d1 x k l :
  fft2 H W (fun i j => x i j * (w H (- (d0 * Z.of_nat i)) * w W (- (d1 * Z.of_nat j)))) k l = fft2 H W x (zroll H d0 k) (zroll W d1 l).
Proof.
  unfold fft2. rewrite <- (dft_ramp H PH d0 (fun i => dft W (x i) (zroll W d1 l))). apply dft_ext. intros i _.
  rewrite <- (dft_ramp W PW d1 (x i)). unfold dft. rewrite csum_scal_r. apply csum_ext. intros j _. ring.
Qed.
Lemma roll_zroll n d i : (0 < n)%nat -> zroll n d (roll n (n / 2) i) = roll n (n / 2) (zroll n d i).
Proof.
  intros Hn. apply Nat2Z.inj. rewrite zroll_of by auto. unfold roll. rewrite !Nat2Z.inj_mod, !Nat2Z.inj_add, zroll_of by auto.
  rewrite Zplus_mod_idemp_l, Zplus_mod_idemp_l. f_equal. ring.
Qed.
Lemma shift_moment n d (S : nat -> R) : (forall i, (i < n)%nat -> S i <> 0%R -> (0 <= Z.of_nat i - d < Z.of_nat n)%Z) ->
  rsum n (fun i => INR i * S (zroll n d i))%R = rsum n (fun i => (INR i - IZR d) * S i)%R.
Proof.
  intros B. rewrite <- (rsum_zroll n d (fun i => (INR i - IZR d) * S i)%R). apply rsum_ext. intros i Hi.
  destruct (Req_EM_T (S (zroll n d i)) 0) as [E|E]; [rewrite E; ring|].
  specialize (B _ (zroll_lt n d i ltac:(lia)) E). f_equal. rewrite !INR_IZR_INZ, <- minus_IZR. f_equal.
  pose proof (zroll_of n d i ltac:(lia)) as Z. set (z := Z.of_nat (zroll n d i)) in *.
  assert (D : ((z - d - Z.of_nat i) mod Z.of_nat n = 0)%Z).
  { rewrite Z. replace ((Z.of_nat i + d) mod Z.of_nat n - d - Z.of_nat i)%Z with ((Z.of_nat i + d) mod Z.of_nat n - (d + Z.of_nat i))%Z by ring. rewrite Zminus_mod_idemp_l.
    replace (Z.of_nat i + d - (d + Z.of_nat i))%Z with 0%Z by ring. reflexivity. }
  apply Z.mod_divide in D; [|lia]. destruct D as [q Q]. assert (q = 0)%Z by nia. subst. lia.
Qed.
Lemma moment_rows H W d0 d1 (S : nat -> nat -> R) h :
  (forall i j, (i < H)%nat -> (j < W)%nat -> S i j <> 0%R -> (0 <= Z.of_nat i - d0 < Z.of_nat H)%Z) -> 
  isum H W (fun i j => (INR i - h) * S (zroll H d0 i) (zroll W d1 j))%R = isum H W (fun i j => (INR i - h - IZR d0) * S i j)%R.
Proof.
  intros B. unfold isum.
  rewrite (rsum_ext H _ (fun i => INR i * (rsum W (S (zroll H d0 i))) + (- h) * rsum W (S (zroll H d0 i)))%R).
  2:{ intros i _. rewrite <- (rsum_zroll W d1 (S (zroll H d0 i))). rewrite <- Rmult_plus_distr_r. rewrite rsum_scal. apply rsum_ext. intros; ring. }
  rewrite rsum_add. rewrite (shift_moment H d0 (fun i => rsum W (S i))).
  - rewrite <- rsum_scal, (rsum_zroll H d0 (fun i => rsum W (S i))), rsum_scal, <- rsum_add. apply rsum_ext. intros i _.
    rewrite <- Rmult_plus_distr_r. rewrite rsum_scal. apply rsum_ext; intros; ring.
  - intros i Hi NZ. destruct (Z_le_dec 0 (Z.of_nat i - d0)); destruct (Z_lt_dec (Z.of_nat i - d0) (Z.of_nat H)); auto; exfalso; apply NZ; apply rsum_zero'; intros j Hj;
    destruct (Req_EM_T (S i j) 0) as [E|E]; auto; specialize (B i j Hi Hj E); lia.
Qed.
Lemma isum_swap H W f : isum H W f = isum W H (fun j i => f i j).
Proof. apply rsum_swap. Qed.
Lemma moment_cols H W d0 d1 (S : nat -> nat -> R) h :
  (forall i j, (i < H)%nat -> (j < W)%nat -> S i j <> 0%R -> (0 <= Z.of_nat j - d1 < Z.of_nat W)%Z) -> 
  isum H W (fun i j => (INR j - h) * S (zroll H d0 i) (zroll W d1 j))%R = isum H W (fun i j => (INR j - h - IZR d1) * S i j)%R.
Proof.
  intros B. rewrite isum_swap. rewrite (moment_rows W H d1 d0 (fun j i => S i j) h); [symmetry; apply isum_swap|].
  intros j i Hj Hi. apply B; auto.
Qed.
Lemma isum_ext H W f g : (forall i j, (i < H)%nat -> (j < W)%nat -> f i j = g i j) -> isum H W f = isum H W g.
Proof. intros E. apply rsum_ext. intros i Hi. apply rsum_ext. intros; apply E; auto. Qed.
Lemma isum_scal H W c f : isum H W (fun i j => c * f i j)%R = (c * isum H W f)%R.
Proof. unfold isum. rewrite rsum_scal. apply rsum_ext. intros. rewrite rsum_scal. reflexivity. Qed.
Lemma isum_add H W f g : isum H W (fun i j => f i j + g i j)%R = (isum H W f + isum H W g)%R.
Proof. unfold isum. rewrite <- rsum_add. apply rsum_ext. intros. apply rsum_add. Qed.
Lemma fft2_scal H W c (x : img) k l : fft2 H W (fun i j => c * x i j) k l = c * fft2 H W x k l.
Proof. rewrite fft2_op2. apply (op2_scal H W); apply linop_dft. Qed.
Lemma ramp_w H W d0 d1 i j : (0 < H)%nat -> (0 < W)%nat ->
  Cconj (phase_ramp ((IZR d0 / INR H)%R, (IZR d1 / INR W)%R) i j) = w H (- (d0 * Z.of_nat i)) * w W (- (d1 * Z.of_nat j)).
Proof.
  intros PH PW. unfold phase_ramp, w. cbn [fst snd]. rewrite cis_conj, <- cis_add. f_equal. rewrite !opp_IZR, !mult_IZR, <- !INR_IZR_INZ. field.
  split; apply not_0_INR; lia.
Qed.
(** The frequency that standardize subtracts. *)
Lemma integer_ramp_freq H W x d0 d1 : (0 < H)%nat -> (0 < W)%nat -> (0 < power H W x)%R -> integer_ramp H W x d0 d1 ->
  center_freq H W x = ((IZR d0 / INR H)%R, (IZR d1 / INR W)%R).
Proof.
  intros PH PW P [A [B _]]. unfold center_freq, centroid. set (S := abs2 (fftshift2 H W (fft2 H W x))).
  assert (SP : (0 < isum H W S)%R).
  { unfold S. rewrite isum_abs2. change power with energy. rewrite fftshift_energy, fft2_energy by auto. apply Rmult_lt_0_compat; [apply Rmult_lt_0_compat; apply lt_0_INR; auto|exact P]. }
  assert (E : forall i j, nrm2 (fftshift2 H W (fft2 H W x) i j) = S i j) by (intros; apply nrm2_Cmod).
  assert (A' : isum H W (fun i j => INR i * S i j)%R = ((INR (H / 2) + IZR d0) * isum H W S)%R).
  { rewrite <- isum_scal. assert (Z : (isum H W (fun i j => INR i * S i j) + (-1) * isum H W (fun i j => (INR (H / 2) + IZR d0) * S i j) = 0)%R).
    { rewrite <- isum_scal, <- isum_add. rewrite <- A. apply isum_ext. intros. rewrite E. ring. } lra. }
  assert (B' : isum H W (fun i j => INR j * S i j)%R = ((INR (W / 2) + IZR d1) * isum H W S)%R).
  { rewrite <- isum_scal. assert (Z : (isum H W (fun i j => INR j * S i j) + (-1) * isum H W (fun i j => (INR (W / 2) + IZR d1) * S i j) = 0)%R).
    { rewrite <- isum_scal, <- isum_add. rewrite <- B. apply isum_ext. intros. rewrite E. ring. } lra. }
  rewrite A', B'. cbn [fst snd]. f_equal; field; split; first [lra | apply not_0_INR; lia].
Qed.
Lemma integer_ramp_scal H W x c d0 d1 : integer_ramp H W x d0 d1 -> integer_ramp H W (fun i j => c * x i j) d0 d1.
Proof.
  intros [A [B D]]. unfold integer_ramp.
  assert (E : forall i j, fftshift2 H W (fft2 H W (fun i j => c * x i j)) i j = c * fftshift2 H W (fft2 H W x) i j) by (intros; apply fft2_scal).
  split; [|split].
  - rewrite (isum_ext H W _ (fun i j => nrm2 c * ((INR i - INR (H / 2) - IZR d0) * nrm2 (fftshift2 H W (fft2 H W x) i j)))%R).
    + rewrite isum_scal, A. ring. + intros. rewrite E, nrm2_mult. ring.
  - rewrite (isum_ext H W _ (fun i j => nrm2 c * ((INR j - INR (W / 2) - IZR d1) * nrm2 (fftshift2 H W (fft2 H W x) i j)))%R).
    + rewrite isum_scal, B. ring. + intros. rewrite E, nrm2_mult. ring.
  - intros i j Hi Hj. rewrite E. intros NZ. apply D; auto. intros Z. apply NZ. rewrite Z. ring.
Qed.
Lemma centred_scal H W x y c : (forall i j, (i < H)%nat -> (j < W)%nat -> y i j = c * x i j) -> centred_spectrum H W x -> centred_spectrum H W y.
Proof.
  intros E [A B]. 
  assert (F : forall i j, fftshift2 H W (fft2 H W y) i j = c * fftshift2 H W (fft2 H W x) i j).
  { intros. unfold fftshift2. rewrite <- fft2_scal. apply fft2_ext. intros a b Ha Hb. apply E; auto. }
  split.
  - rewrite (isum_ext H W _ (fun i j => nrm2 c * ((INR i - INR (H / 2)) * nrm2 (fftshift2 H W (fft2 H W x) i j)))%R).
    + rewrite isum_scal, A. ring. + intros. rewrite F, nrm2_mult. ring.
  - rewrite (isum_ext H W _ (fun i j => nrm2 c * ((INR j - INR (W / 2)) * nrm2 (fftshift2 H W (fft2 H W x) i j)))%R).
    + rewrite isum_scal, B. ring. + intros. rewrite F, nrm2_mult. ring.
Qed.
Lemma deramp_centred H W x d0 d1 : (0 < H)%nat -> (0 < W)%nat -> integer_ramp H W x d0 d1 ->
  centred_spectrum H W (fun i j => x i j * Cconj (phase_ramp ((IZR d0 / INR H)%R, (IZR d1 / INR W)%R) i j)).
Proof.
  intros PH PW [A [B D]].
  assert (E : forall i j, fftshift2 H W (fft2 H W (fun i j => x i j * Cconj (phase_ramp ((IZR d0 / INR H)%R, (IZR d1 / INR W)%R) i j))) i j =
     fftshift2 H W (fft2 H W x) (zroll H d0 i) (zroll W d1 j)).
  { intros. unfold fftshift2. rewrite <- !roll_zroll by auto. rewrite <- fft2_ramp by auto. apply fft2_ext. intros a b _ _. rewrite ramp_w by auto. reflexivity. }
  set (S := fun i j => nrm2 (fftshift2 H W (fft2 H W x) i j)).
  assert (NZ : forall i j, S i j <> 0%R -> fftshift2 H W (fft2 H W x) i j <> RtoC 0).
  { intros i j N Z. apply N. unfold S. rewrite Z. apply nrm2_RtoC || (rewrite nrm2_RtoC; ring). }
  split.
  - rewrite (isum_ext H W _ (fun i j => (INR i - INR (H / 2)) * S (zroll H d0 i) (zroll W d1 j))%R) by (intros; rewrite E; reflexivity).
    rewrite moment_rows; [exact A|]. intros i j Hi Hj N. apply (D i j Hi Hj); auto.
  - rewrite (isum_ext H W _ (fun i j => (INR j - INR (W / 2)) * S (zroll H d0 i) (zroll W d1 j))%R) by (intros; rewrite E; reflexivity).
    rewrite moment_cols; [exact B|]. intros i j Hi Hj N. apply (D i j Hi Hj); auto.
Qed.
Lemma standardize_centred H W OH OW probe obj sl d0 d1 : (0 < H)%nat -> (0 < W)%nat -> (0 < power H W (probe 0%nat))%R ->
  integer_ramp H W (probe 0%nat) d0 d1 -> centred_spectrum H W (fst (standardize H W OH OW probe obj sl true) 0%nat).
Proof.
  intros PH PW P I. pose proof (nrm_pos H W probe PH PW P) as NP. unfold standardize. set (n := sqrt (mean2 H W (abs2 (probe 0%nat)))) in *.
  destruct (match sl with Some s => s | None => _ end) as [[r0 r1] [c0 c1]]. cbn [fst snd].
  set (x := fun i j => probe 0%nat i j / RtoC n).
  assert (IX : integer_ramp H W x d0 d1).
  { pose proof (integer_ramp_scal H W (probe 0%nat) (/ RtoC n) d0 d1 I) as Q. replace x with (fun i j => / RtoC n * probe 0%nat i j); auto.
    unfold x. apply functional_extensionality; intros i. apply functional_extensionality; intros j. unfold Cdiv. ring. }
  assert (PX : (0 < power H W x)%R).
  { unfold x. rewrite (power_ext H W _ (fun i j => / RtoC n * probe 0%nat i j)) by (intros; unfold Cdiv; ring).
    rewrite power_scal. apply Rmult_lt_0_compat; auto. rewrite <- RtoC_inv by lra. rewrite nrm2_RtoC. pose proof (Rinv_0_lt_compat n NP). nra. }
  change (fun i j => probe 0%nat i j / RtoC n) with x. rewrite (integer_ramp_freq H W x d0 d1) by auto.
  match goal with |- centred_spectrum H W (fun i j => @?Z i j * ?Y) => apply (centred_scal H W Z _ Y) end; [intros; ring|].
  apply (deramp_centred H W x d0 d1); auto.
Qed.
