(** Proofs about calc_frc, calc_generalized_frc, calc_vn_entropy. *)
From Verif Require Import Base FinSum Fourier Matrix Model_Prop Model_Meas Model_Analysis Spec_Analysis Proofs_SVD Proofs_SVDExists Proofs_Ortho Proofs_Standard Proofs_Metrics.
From Coquelicot Require Import Complex.
Local Open Scope C_scope.

Lemma histogram_overlap H W m x y : histogram_c H W m (fun i j => x i j * Cconj (y i j)) = overlap H W (masked m x) (masked m y).
Proof.
  unfold histogram_c, icsum, overlap, masked. apply csum_ext. intros i _. apply csum_ext. intros j _. destruct (m i j); [reflexivity|]. ring.
Qed.
Lemma histogram_power H W m x : histogram_r H W m (abs2 x) = power H W (masked m x).
Proof.
  unfold histogram_r, isum, power, masked. apply rsum_ext. intros i _. apply rsum_ext. intros j _. destruct (m i j); [symmetry; apply nrm2_Cmod|]. unfold nrm2. cbn. ring.
Qed.
Definition spectrum (H W : nat) (x : img) : img := fftshift2 H W (fft2 H W x).
Lemma frc_form H W nb im1 im2 di dj lim b :
  let m := frc_bin H W nb di dj lim b in
  let g1 := masked m (spectrum H W im1) in let g2 := masked m (spectrum H W im2) in
  calc_frc H W nb im1 im2 di dj lim b = overlap H W g1 g2 / RtoC (sqrt (power H W g1 * power H W g2)).
Proof. intros m g1 g2. unfold calc_frc. rewrite histogram_overlap, !histogram_power. reflexivity. Qed.
Lemma overlap_cs H W x y : (nrm2 (overlap H W x y) <= power H W x * power H W y)%R.
Proof. rewrite overlap_ip, !power_flat, Rmult_comm. apply cauchy_schwarz. Qed.
Lemma overlap_self H W x : overlap H W x x = RtoC (power H W x).
Proof. rewrite overlap_ip, power_flat. apply ip_self. Qed.
Lemma overlap_conj H W x y : Cconj (overlap H W x y) = overlap H W y x.
Proof. rewrite !overlap_ip. apply ip_conj. Qed.
Lemma overlap_scal H W c d x y : overlap H W (fun i j => c * x i j) (fun i j => d * y i j) = c * Cconj d * overlap H W x y.
Proof.
  rewrite !overlap_ip. change (flat W (fun i j => c * x i j)) with (fun p => c * flat W x p). change (flat W (fun i j => d * y i j)) with (fun p => d * flat W y p).
  rewrite ip_scal_l, ip_scal_r. ring.
Qed.
Lemma overlap_ext H W x x' y y' : (forall i j, x i j = x' i j) -> (forall i j, y i j = y' i j) -> overlap H W x y = overlap H W x' y'.
Proof. intros E F. apply csum_ext. intros. apply csum_ext. intros. rewrite E, F. reflexivity. Qed.
Lemma RtoC_neq0 r : r <> 0%R -> RtoC r <> 0.
Proof. intros N Z. apply (f_equal fst) in Z. exact (N Z). Qed.
Lemma corr_bound H W x y : (Cmod (overlap H W x y / RtoC (sqrt (power H W x * power H W y)))%C <= 1)%R.
Proof.
  pose proof (overlap_cs H W x y) as CS. set (P := (power H W x * power H W y)%R) in *.
  assert (P0 : (0 <= P)%R) by (apply Rmult_le_pos; apply power_nonneg).
  destruct (Req_EM_T P 0) as [Z|NZ].
  - assert (N : nrm2 (overlap H W x y) = 0%R) by (pose proof (nrm2_nonneg (overlap H W x y)); lra). apply nrm2_0 in N. rewrite N. unfold Cdiv. rewrite Cmult_0_l, Cmod_0. lra.
  - assert (SP : (0 < sqrt P)%R) by (apply sqrt_lt_R0; lra). rewrite Cmod_div by (apply RtoC_neq0; lra). rewrite Cmod_R, Rabs_right by lra.
    apply Rmult_le_reg_r with (sqrt P); auto. unfold Rdiv. rewrite Rmult_assoc, Rinv_l, Rmult_1_r, Rmult_1_l by lra.
    rewrite Cmod_nrm2. apply sqrt_le_1_alt. exact CS.
Qed.
Lemma masked_scal m c x i j : masked m (fun i j => c * x i j) i j = c * masked m x i j.
Proof. unfold masked. destruct (m i j); ring. Qed.
Lemma spectrum_scal H W c x i j : spectrum H W (fun i j => c * x i j) i j = c * spectrum H W x i j.
Proof. unfold spectrum, fftshift2. apply fft2_scal. Qed.
Lemma masked_spectrum_scal H W m c x i j : masked m (spectrum H W (fun i j => c * x i j)) i j = c * masked m (spectrum H W x) i j.
Proof. unfold masked. destruct (m i j); [apply spectrum_scal|ring]. Qed.
Lemma power_masked_scal H W m c x : power H W (masked m (spectrum H W (fun i j => c * x i j))) = (nrm2 c * power H W (masked m (spectrum H W x)))%R.
Proof. rewrite <- power_scal. apply power_ext. intros. apply masked_spectrum_scal. Qed.

(** masking and transforming a stack keeps equal coherence equal: both are linear in each mode *)
Lemma fft2_kernel H W x k l : fft2 H W x k l = csum H (fun i => csum W (fun j => x i j * (w W (- (Z.of_nat l * Z.of_nat j)) * w H (- (Z.of_nat k * Z.of_nat i))))).
Proof. unfold fft2, dft. apply csum_ext. intros i _. rewrite csum_scal_r. apply csum_ext. intros j _. ring. Qed.
Lemma kernel_coherence H W n f n' f' (A B : nat -> nat -> C) : same_coherence H W n f n' f' ->
  csum n (fun k => Cconj (csum H (fun i => csum W (fun j => f k i j * A i j))) * csum H (fun i => csum W (fun j => f k i j * B i j))) =
  csum n' (fun k => Cconj (csum H (fun i => csum W (fun j => f' k i j * A i j))) * csum H (fun i => csum W (fun j => f' k i j * B i j))).
Proof.
  intros S.
  assert (X : forall n (f : nat -> img), csum n (fun k => Cconj (csum H (fun i => csum W (fun j => f k i j * A i j))) * csum H (fun i => csum W (fun j => f k i j * B i j))) =
    csum H (fun i => csum W (fun j => csum H (fun i' => csum W (fun j' => Cconj (A i j) * B i' j' * coherence n f i j i' j'))))).
  { clear. intros n f.
    rewrite (csum_ext n _ (fun k => csum H (fun i => csum W (fun j => csum H (fun i' => csum W (fun j' => Cconj (A i j) * B i' j' * (Cconj (f k i j) * f k i' j'))))))).
    - rewrite csum_swap. apply csum_ext. intros i _. rewrite csum_swap. apply csum_ext. intros j _. rewrite csum_swap. apply csum_ext. intros i' _. rewrite csum_swap. apply csum_ext. intros j' _.
      unfold coherence. rewrite csum_scal. reflexivity.
    - intros k _. rewrite csum_conj, csum_scal_r. apply csum_ext. intros i _. rewrite csum_conj, csum_scal_r. apply csum_ext. intros j _. rewrite csum_scal. apply csum_ext. intros i' _.
      rewrite csum_scal. apply csum_ext. intros j' _. rewrite Cconj_mult. ring. }
  rewrite !X. apply csum_ext. intros i Hi. apply csum_ext. intros j Hj. apply csum_ext. intros i' Hi'. apply csum_ext. intros j' Hj'. rewrite (S i j i' j'); auto.
Qed.
Lemma masked_coherence H W m n f n' f' : same_coherence H W n f n' f' ->
  same_coherence H W n (fun k => masked m (spectrum H W (f k))) n' (fun k => masked m (spectrum H W (f' k))).
Proof.
  intros S i j i' j' _ _ _ _. unfold coherence, masked. destruct (m i j); [destruct (m i' j')|].
  - unfold spectrum, fftshift2.
    rewrite (csum_ext n _ (fun k => Cconj (csum H (fun a => csum W (fun b => f k a b * (w W (- (Z.of_nat (roll W (W / 2) j) * Z.of_nat b)) * w H (- (Z.of_nat (roll H (H / 2) i) * Z.of_nat a)))))) *
        csum H (fun a => csum W (fun b => f k a b * (w W (- (Z.of_nat (roll W (W / 2) j') * Z.of_nat b)) * w H (- (Z.of_nat (roll H (H / 2) i') * Z.of_nat a))))))) by (intros; rewrite !fft2_kernel; reflexivity).
    rewrite (csum_ext n' _ (fun k => Cconj (csum H (fun a => csum W (fun b => f' k a b * (w W (- (Z.of_nat (roll W (W / 2) j) * Z.of_nat b)) * w H (- (Z.of_nat (roll H (H / 2) i) * Z.of_nat a)))))) *
        csum H (fun a => csum W (fun b => f' k a b * (w W (- (Z.of_nat (roll W (W / 2) j') * Z.of_nat b)) * w H (- (Z.of_nat (roll H (H / 2) i') * Z.of_nat a))))))) by (intros; rewrite !fft2_kernel; reflexivity).
    apply kernel_coherence; auto.
  - rewrite !csum_zero'; auto; intros; ring.
  - rewrite !csum_zero'; auto; intros; rewrite Cconj_RtoC; ring.
Qed.

(** Bins of the two functions agree except for the last one. *)
Lemma bins_agree H W nb di dj lim b i j : S b <> nb -> frc_bin H W nb di dj lim b i j = gfrc_mask H W nb di dj lim b i j.
Proof.
  intros N. unfold frc_bin, in_bin, gfrc_mask. destruct (Rle_dec _ _); destruct (Rlt_dec _ _); auto.
  replace (Nat.eqb (S b) nb) with false by (symmetry; apply Nat.eqb_neq; auto). reflexivity.
Qed.
Lemma gfrc_form L l1 l2 H W nb f1 f2 di dj lim b :
  let m := gfrc_mask H W nb di dj lim b in
  let g1 := fun k => masked m (spectrum H W (f1 k)) in let g2 := fun k => masked m (spectrum H W (f2 k)) in
  svdvals_right L l2 l1 (overlap_matrix H W g1 g2) -> svdvals_right L l1 l1 (overlap_matrix H W g1 g1) -> svdvals_right L l2 l2 (overlap_matrix H W g2 g2) ->
  calc_generalized_frc L l1 l2 H W nb f1 f2 di dj lim b = (sqrt (calc_fidelity L l1 l2 H W g1 g2) / sqrt (total_power H W l1 g1 * total_power H W l2 g2))%R.
Proof.
  intros m g1 g2 R12 R11 R22. unfold calc_generalized_frc. fold m.
  change (fun k => masked m (fftshift2 H W (fft2 H W (f1 k)))) with g1. change (fun k => masked m (fftshift2 H W (fft2 H W (f2 k)))) with g2.
  destruct (fidelity_gsvd L l1 l1 H W g1 g1 R11) as [r1 [G1 E1]]. destruct (fidelity_gsvd L l2 l2 H W g2 g2 R22) as [r2 [G2 E2]].
  rewrite (Nat.min_id l1) in G1, E1. rewrite (Nat.min_id l2) in G2, E2. rewrite E1, E2. rewrite (nuc_self _ _ _ _ _ G1), (nuc_self _ _ _ _ _ G2), <- !total_power_flat.
  rewrite !sqrt_pow2 by (apply rsum_nonneg; intros; apply power_nonneg). reflexivity.
Qed.

(** ---- von Neumann entropy ---- *)
Definition entropy_of (n : nat) (e : nat -> R) : R := (- rsum n (fun q => xlogy (e q) (e q)))%R.
Lemma xlogy_self_nonpos x : (0 <= x <= 1)%R -> (xlogy x x <= 0)%R.
Proof.
  intros [A B]. unfold xlogy. destruct (Req_EM_T x 0); [lra|]. assert (ln x <= 0)%R; [|nra].
  rewrite <- ln_1. destruct (Req_EM_T x 1) as [->|]; [lra|]. left. apply ln_increasing; lra.
Qed.
Lemma ln_le_sub1 x : (0 < x)%R -> (ln x <= x - 1)%R.
Proof.
  intros P. pose proof (exp_ineq1_le (ln x)) as Q. rewrite exp_ln in Q by auto. lra.
Qed.
Lemma ln_quot a b : (0 < a)%R -> (0 < b)%R -> ln (a / b) = (ln a - ln b)%R.
Proof. intros. unfold Rdiv. rewrite ln_mult, ln_Rinv by (auto; apply Rinv_0_lt_compat; auto). ring. Qed.
Lemma xlogy_lower x c : (0 <= x)%R -> (0 < c)%R -> (- xlogy x x <= - x * ln c + c - x)%R.
Proof.
  intros A C. unfold xlogy. destruct (Req_EM_T x 0) as [->|N]; [lra|]. assert (P : (0 < x)%R) by lra.
  pose proof (ln_le_sub1 (c / x) ltac:(apply Rdiv_lt_0_compat; auto)) as Q. rewrite ln_quot in Q by auto.
  assert ((x * (ln c - ln x) <= x * (c / x - 1))%R) by (apply Rmult_le_compat_l; lra).
  replace (x * (c / x - 1))%R with (c - x)%R in H by (field; lra). lra.
Qed.
Lemma entropy_bounds n e : (0 < n)%nat -> (forall q, (q < n)%nat -> (0 <= e q)%R) -> rsum n e = 1%R -> (0 <= entropy_of n e <= ln (INR n))%R.
Proof.
  intros Hn E0 S. assert (NP : (0 < INR n)%R) by (apply lt_0_INR; auto). unfold entropy_of. split.
  - assert (rsum n (fun q => xlogy (e q) (e q)) <= rsum n (fun _ => 0))%R; [|rewrite rsum_zero in H; lra].
    apply rsum_le. intros q Hq. apply xlogy_self_nonpos. split; auto. rewrite <- S.
    replace (e q) with (rsum n (fun i => if Nat.eqb i q then e i else 0%R)).
    { apply rsum_le. intros i Hi. destruct (Nat.eqb i q); [lra|auto]. }
    rewrite (rsum_single n q); auto; [rewrite Nat.eqb_refl; auto|]. intros i _ NE. replace (Nat.eqb i q) with false by (symmetry; apply Nat.eqb_neq; auto). reflexivity.
  - replace (- rsum n (fun q => xlogy (e q) (e q)))%R with (rsum n (fun q => - xlogy (e q) (e q)))%R.
    2:{ rewrite (rsum_ext n _ (fun q => (-1) * xlogy (e q) (e q))%R) by (intros; ring). rewrite <- rsum_scal. ring. }
    eapply Rle_trans; [apply rsum_le; intros q Hq; apply (xlogy_lower (e q) (/ INR n)); [auto|apply Rinv_0_lt_compat; auto]|].
    right. rewrite (rsum_ext n _ (fun q => (ln (INR n) - 1) * e q + / INR n)%R) by (intros; rewrite ln_Rinv by auto; ring).
    rewrite rsum_add, <- rsum_scal, rsum_const, S. field. lra.
Qed.
Lemma entropy_normalised n e T : (0 < T)%R -> (forall q, (q < n)%nat -> (0 <= e q)%R) -> rsum n e = T ->
  entropy_of n (fun q => e q / T)%R = (- rsum n (fun q => xlogy (e q) (e q)) / T + ln T)%R.
Proof.
  intros TP E0 S. unfold entropy_of.
  rewrite (rsum_ext n _ (fun q => / T * xlogy (e q) (e q) + (- ln T / T) * e q)%R).
  - rewrite rsum_add, <- !rsum_scal, S. field. lra.
  - intros q Hq. unfold xlogy. specialize (E0 q Hq). destruct (Req_EM_T (e q) 0) as [Z|Z].
    + rewrite Z. replace (0 / T)%R with 0%R by (field; lra). destruct (Req_EM_T 0 0); [field; lra|easy].
    + assert (e q / T <> 0)%R by (unfold Rdiv; apply Rmult_integral_contrapositive_currified; auto; apply Rinv_neq_0_compat; lra).
      destruct (Req_EM_T (e q / T) 0); [easy|]. rewrite ln_quot by lra. field. lra.
Qed.

Section Eigh.
Variables (n : nat) (A : mat) (e : nat -> R).
Hypotheses (PA : psd n A) (E : is_eigh n A e).
Lemma eigh_vectors : exists V, ortho_cols n n V /\ (forall i j, (i < n)%nat -> (j < n)%nat -> A i j = csum n (fun q => V i q * RtoC (e q) * Cconj (V j q))).
Proof using E. destruct E as [_ Q]. exact Q. Qed.
Lemma eigh_form V q : ortho_cols n n V -> (forall i j, (i < n)%nat -> (j < n)%nat -> A i j = csum n (fun q => V i q * RtoC (e q) * Cconj (V j q))) -> (q < n)%nat ->
  form n A (fun i => V i q) (fun i => V i q) = RtoC (e q).
Proof.
  intros O D Hq. unfold form.
  rewrite (csum_ext n _ (fun i => csum n (fun a => Cconj (V i q) * V i a * RtoC (e a) * delta a q))).
  - rewrite csum_swap. rewrite (csum_ext n _ (fun a => RtoC (e a) * delta q a * delta a q)).
    + rewrite (csum_delta_r n q (fun a => RtoC (e a) * delta q a)) by auto. unfold delta. rewrite Nat.eqb_refl. ring.
    + intros a Ha. rewrite <- (O q a Hq Ha). unfold ip. rewrite csum_scal, csum_scal_r. apply csum_ext. intros i _. ring.
  - intros i Hi. rewrite (csum_ext n _ (fun j => csum n (fun a => Cconj (V i q) * V i a * RtoC (e a) * (Cconj (V j a) * V j q)))).
    + rewrite csum_swap. apply csum_ext. intros a Ha. rewrite <- (O a q Ha Hq). unfold ip. rewrite csum_scal. reflexivity.
    + intros j Hj. rewrite D by auto. rewrite csum_scal, csum_scal_r. apply csum_ext. intros. ring.
Qed.
Lemma eigh_nonneg q : (q < n)%nat -> (0 <= e q)%R.
Proof using PA E.
  intros Hq. destruct eigh_vectors as [V [O D]]. destruct PA as [_ P]. specialize (P (fun i => V i q)).
  change (0 <= Re (form n A (fun i => V i q) (fun i => V i q)))%R in P. rewrite (eigh_form V q O D Hq) in P. exact P.
Qed.
Lemma eigh_trace : rsum n e = trace n A.
Proof using E.
  destruct eigh_vectors as [V [O D]]. pose proof (form_trace n A V O) as T. apply (f_equal Re) in T. rewrite !Re_csum in T. unfold trace. rewrite <- T.
  apply rsum_ext. intros q Hq. rewrite (eigh_form V q O D Hq). reflexivity.
Qed.
Lemma csum_rev m f : csum m (fun i => f (m - 1 - i)%nat) = csum m f.
Proof. apply (csum_reindex m (fun i => (m - 1 - i)%nat)); intros; lia. Qed.
Lemma eigh_gsvd : exists r, gsvd n n n A r /\ forall a, (a < n)%nat -> svd_S r a = e (n - 1 - a)%nat.
Proof using PA E.
  destruct eigh_vectors as [V [O D]].
  exists {| svd_U := fun i a => V i (n - 1 - a)%nat; svd_S := fun a => e (n - 1 - a)%nat; svd_Vh := fun a j => Cconj (V j (n - 1 - a)%nat) |}.
  split; [|auto]. split; [|split; [|split; [|split]]]; cbn [svd_U svd_S svd_Vh].
  - intros a b Ha Hb. rewrite (O (n - 1 - a)%nat (n - 1 - b)%nat) by lia. unfold delta. destruct (Nat.eqb_spec a b) as [->|NE]; [rewrite Nat.eqb_refl; auto|].
    replace (Nat.eqb (n - 1 - a) (n - 1 - b)) with false by (symmetry; apply Nat.eqb_neq; lia). reflexivity.
  - intros a b Ha Hb. rewrite (csum_ext n _ (fun j => Cconj (V j (n - 1 - a)%nat) * V j (n - 1 - b)%nat)) by (intros; rewrite Cconj_invol; reflexivity).
    change (ip n (fun j => V j (n - 1 - a)%nat) (fun j => V j (n - 1 - b)%nat) = delta a b). rewrite (O (n - 1 - a)%nat (n - 1 - b)%nat) by lia. unfold delta. destruct (Nat.eqb_spec a b) as [->|NE]; [rewrite Nat.eqb_refl; auto|].
    replace (Nat.eqb (n - 1 - a) (n - 1 - b)) with false by (symmetry; apply Nat.eqb_neq; lia). reflexivity.
  - intros a Ha. apply eigh_nonneg. lia.
  - intros a b Hab Hb. destruct E as [M _]. apply M; lia.
  - intros i j Hi Hj. rewrite D by auto. rewrite <- csum_rev. reflexivity.
Qed.
End Eigh.
Lemma eigenvalues_unique n A e e' : psd n A -> is_eigh n A e -> is_eigh n A e' -> forall q, (q < n)%nat -> e q = e' q.
Proof.
  intros P E E' q Hq. destruct (eigh_gsvd n A e P E) as [r [G R]]. destruct (eigh_gsvd n A e' P E') as [r' [G' R']].
  pose proof (singular_values_unique n n n n n A A r r' G G' ltac:(reflexivity) (n - 1 - q)%nat) as U. unfold padded in U.
  replace (Nat.ltb (n - 1 - q) n) with true in U by (symmetry; apply Nat.ltb_lt; lia). rewrite R, R' in U by lia.
  replace (n - 1 - (n - 1 - q))%nat with q in U by lia. exact U.
Qed.
Lemma eigh_scale n A e c : (0 < c)%R -> is_eigh n A e -> is_eigh n (fun i j => RtoC c * A i j) (fun q => c * e q)%R.
Proof.
  intros C [M [V [O D]]]. split; [intros a b Hab Hb; apply Rmult_le_compat_l; [lra|auto]|]. exists V. split; auto. intros i j Hi Hj.
  rewrite D by auto. rewrite csum_scal. apply csum_ext. intros. rewrite RtoC_mult. ring.
Qed.
Lemma psd_scale n A c : (0 < c)%R -> psd n A -> psd n (fun i j => RtoC c * A i j).
Proof.
  intros C [HA P]. split.
  - intros i j Hi Hj. rewrite Cconj_mult, Cconj_RtoC, <- HA by auto. reflexivity.
  - intros x. specialize (P x).
    replace (csum n (fun i => csum n (fun j => Cconj (x i) * (RtoC c * A i j) * x j))) with (RtoC c * csum n (fun i => csum n (fun j => Cconj (x i) * A i j * x j))).
    + set (z := csum n _) in *. unfold Re, RtoC, Cmult in *. cbn [fst snd]. nra.
    + rewrite csum_scal. apply csum_ext. intros. rewrite csum_scal. apply csum_ext. intros. ring.
Qed.
