(** Property theorems about the similarity metrics (C44) and the von Neumann entropy (C45). *)
From Verif Require Import Base FinSum Fourier Matrix Model_Prop Spec_Prop Model_Meas Model_Analysis Spec_Analysis Proofs_Prop Proofs_SVD Proofs_SVDExists Proofs_Ortho Proofs_Standard Proofs_Metrics Proofs_FRC Properties_Ortho.
From Coquelicot Require Import Complex.
Local Open Scope C_scope.

(** C44: calc_rms_error (align_phases) is the least root mean square distance over all global phases, *)
Theorem C44_rms_minimum H W f g : (0 < H)%nat -> (0 < W)%nat ->
  (exists c, unit_modulus c /\ calc_rms_error H W f g true false = rms_distance H W f (fun i j => c * g i j)) /\
  (forall c, unit_modulus c -> (calc_rms_error H W f g true false <= rms_distance H W f (fun i j => (c * g i j)%C))%R).
Proof.
  intros PH PW. split; [exists (rms_gamma H W f g true); split; [apply gamma_unit|apply rms_is_distance]|intros; apply rms_min; auto].
Qed.
Print Assumptions C44_rms_minimum.
(** and without it the plain distance. *)
Theorem C44_rms_plain H W f g : calc_rms_error H W f g false false = rms_distance H W f g.
Proof. rewrite rms_is_distance. apply rms_distance_ext; auto. intros. unfold rms_gamma. ring. Qed.
Print Assumptions C44_rms_plain.
Theorem C44_rms_symmetric H W f g : calc_rms_error H W f g true false = calc_rms_error H W g f true false.
Proof.
  rewrite !rms_value. unfold rms_gap. replace (Cmod (overlap H W g f)) with (Cmod (overlap H W f g)); [do 2 f_equal; ring|].
  rewrite <- (overlap_conj H W f g), !Cmod_nrm2, nrm2_conj. reflexivity.
Qed.
Print Assumptions C44_rms_symmetric.
Theorem C44_rms_phase_invariant H W f g c d : unit_modulus c -> unit_modulus d ->
  calc_rms_error H W (fun i j => c * f i j) (fun i j => d * g i j) true false = calc_rms_error H W f g true false.
Proof.
  intros U V. rewrite !rms_value. unfold rms_gap. rewrite !power_scal, overlap_scal, !Cmod_mult, U. rewrite !(nrm2_Cmod), U, V.
  rewrite (Cmod_nrm2 (Cconj d)), nrm2_conj, <- Cmod_nrm2, V. do 2 f_equal. ring.
Qed.
Print Assumptions C44_rms_phase_invariant.
Theorem C44_rms_zero H W f g : (0 < H)%nat -> (0 < W)%nat ->
  (calc_rms_error H W f g true false = 0%R <-> exists c, unit_modulus c /\ equal_on H W f (fun i j => c * g i j)).
Proof.
  intros PH PW. split.
  - intros Z. exists (rms_gamma H W f g true). split; [apply gamma_unit|]. apply rms_distance_zero; auto. rewrite <- rms_is_distance. exact Z.
  - intros [c [U E]]. apply Rle_antisym.
    + rewrite <- (proj2 (rms_distance_zero H W f (fun i j => c * g i j) PH PW) E). apply rms_min; auto.
    + rewrite rms_value. apply sqrt_pos.
Qed.
Print Assumptions C44_rms_zero.
Theorem C44_rms_triangle H W f g h : (0 < H)%nat -> (0 < W)%nat ->
  (calc_rms_error H W f h true false <= calc_rms_error H W f g true false + calc_rms_error H W g h true false)%R.
Proof.
  intros PH PW. set (c := rms_gamma H W f g true). set (d := rms_gamma H W g h true).
  assert (C : unit_modulus c) by apply gamma_unit. assert (D : unit_modulus d) by apply gamma_unit.
  eapply Rle_trans; [apply (rms_min H W f h (c * d) PH PW); unfold unit_modulus; rewrite Cmod_mult, C, D; ring|].
  eapply Rle_trans; [apply (rms_distance_triangle H W _ (fun i j => c * g i j) _ PH PW)|].
  rewrite (rms_is_distance H W f g), (rms_is_distance H W g h). fold c. fold d. apply Rplus_le_compat_l. right.
  rewrite (rms_distance_ext H W _ (fun i j => c * g i j) _ (fun i j => c * (d * h i j))) by (intros; ring).
  rewrite (rms_distance_scal H W c g (fun i j => d * h i j)), C. ring.
Qed.
Print Assumptions C44_rms_triangle.
(** normalize divides by the root mean square amplitude of the first field; the result is then invariant
    under a common scale. *)
Theorem C44_rms_normalized H W f g al : (0 < H)%nat -> (0 < W)%nat -> (0 < power H W f)%R ->
  calc_rms_error H W f g al true = (calc_rms_error H W f g al false / sqrt (power H W f / INR (H * W)))%R.
Proof.
  intros PH PW P. pose proof (npos H W PH PW) as NP. unfold calc_rms_error. rewrite !mean2_abs2, Rmult_1_l.
  rewrite <- sqrt_div_alt by (apply Rdiv_lt_0_compat; auto). f_equal. field. split; lra.
Qed.
Print Assumptions C44_rms_normalized.
Theorem C44_rms_scale_free H W f g c : (0 < H)%nat -> (0 < W)%nat -> (0 < power H W f)%R -> c <> 0 ->
  calc_rms_error H W (fun i j => c * f i j) (fun i j => c * g i j) true true = calc_rms_error H W f g true true.
Proof.
  intros PH PW P NC. pose proof (npos H W PH PW) as NP.
  assert (CP : (0 < nrm2 c)%R). { pose proof (nrm2_nonneg c). destruct (Req_EM_T (nrm2 c) 0) as [Z|Z]; [apply nrm2_0 in Z; easy|lra]. }
  rewrite !C44_rms_normalized by (auto; rewrite power_scal; apply Rmult_lt_0_compat; auto).
  rewrite !rms_value. unfold rms_gap. rewrite !power_scal, overlap_scal, !Cmod_mult, (Cmod_nrm2 (Cconj c)), nrm2_conj, <- Cmod_nrm2.
  rewrite <- !sqrt_div_alt by (apply Rdiv_lt_0_compat; auto; apply Rmult_lt_0_compat; auto). f_equal.
  replace (Cmod c * Cmod c)%R with (nrm2 c) by (rewrite nrm2_Cmod; ring). field. repeat split; lra.
Qed.
Print Assumptions C44_rms_scale_free.
Example C44_rms_case : (0 < power 2 2 (fun i j => (INR i, INR j)))%R /\ unit_modulus (0%R, 1%R).
Proof. split; [unfold power, nrm2; cbn; lra|]. unfold unit_modulus. rewrite Cmod_nrm2. unfold nrm2. cbn. replace (0 * (0 * 1) + 1 * (1 * 1))%R with 1%R by ring. apply sqrt_1. Qed.

(** C44: the fidelity of two light fields lies between 0 and the product of their powers, and reaches it for
    a field and itself; *)
Theorem C44_fidelity_bounds L l1 l2 H W f1 f2 : svdvals_right L l2 l1 (overlap_matrix H W f1 f2) ->
  (0 <= calc_fidelity L l1 l2 H W f1 f2 <= total_power H W l1 f1 * total_power H W l2 f2)%R.
Proof.
  intros R. destruct (fidelity_gsvd _ _ _ _ _ _ _ R) as [r [G E]]. rewrite E. split; [apply pow2_ge_0|]. rewrite !total_power_flat. apply (nuc_bound _ _ _ _ _ _ _ G).
Qed.
Print Assumptions C44_fidelity_bounds.
Theorem C44_fidelity_self L l H W f : svdvals_right L l l (overlap_matrix H W f f) ->
  calc_fidelity L l l H W f f = (total_power H W l f ^ 2)%R.
Proof.
  intros R. destruct (fidelity_gsvd _ _ _ _ _ _ _ R) as [r [G E]]. rewrite E, total_power_flat. rewrite (Nat.min_id l) in *. rewrite (nuc_self _ _ _ _ _ G). reflexivity.
Qed.
Print Assumptions C44_fidelity_self.
(** for single modes it is the squared overlap; *)
Theorem C44_fidelity_single L H W f1 f2 : svdvals_right L 1 1 (overlap_matrix H W f1 f2) ->
  calc_fidelity L 1 1 H W f1 f2 = (Cmod (overlap H W (f1 0%nat) (f2 0%nat)) ^ 2)%R.
Proof.
  intros R. destruct (fidelity_gsvd _ _ _ _ _ _ _ R) as [r [G E]]. rewrite E, overlap_ip. change (Nat.min 1 1) with 1%nat in *.
  unfold rsum, fsum. rewrite Rplus_0_l, (single_gsvd _ _ _ _ G). reflexivity.
Qed.
Print Assumptions C44_fidelity_single.
Theorem C44_fidelity_symmetric L L' l1 l2 H W f1 f2 : svdvals_right L l2 l1 (overlap_matrix H W f1 f2) -> svdvals_right L' l1 l2 (overlap_matrix H W f2 f1) ->
  calc_fidelity L l1 l2 H W f1 f2 = calc_fidelity L' l2 l1 H W f2 f1.
Proof.
  intros R R'. destruct (fidelity_gsvd _ _ _ _ _ _ _ R) as [r [G E]]. destruct (fidelity_gsvd _ _ _ _ _ _ _ R') as [r' [G' E']]. rewrite E, E'. f_equal.
  apply gsvd_ov_swap in G'. apply (nuc_invariant_y _ _ _ _ _ _ _ _ _ _ _ G G'). reflexivity.
Qed.
Print Assumptions C44_fidelity_symmetric.
(** it depends only on the mutual coherence functions, not on the mode decompositions; *)
Theorem C44_fidelity_decomposition L L' l1 l2 l1' l2' H W f1 f2 f1' f2' :
  svdvals_right L l2 l1 (overlap_matrix H W f1 f2) -> svdvals_right L' l2' l1' (overlap_matrix H W f1' f2') ->
  same_coherence H W l1 f1 l1' f1' -> same_coherence H W l2 f2 l2' f2' ->
  calc_fidelity L l1 l2 H W f1 f2 = calc_fidelity L' l1' l2' H W f1' f2'.
Proof.
  intros R R' S1 S2. destruct (fidelity_gsvd _ _ _ _ _ _ _ R) as [r [G E]]. destruct (fidelity_gsvd _ _ _ _ _ _ _ R') as [r' [G' E']]. rewrite E, E'. f_equal.
  destruct (svd_exists l2 l1' (ov (H * W) (flat_stack W f1') (flat_stack W f2))) as [t GT]. apply (proj1 (is_svd_gsvd _ _ _ _)) in GT.
  rewrite (nuc_invariant_x _ _ _ _ _ _ _ _ _ _ _ G GT (same_coherence_flat _ _ _ _ _ _ S1)).
  apply (nuc_invariant_y _ _ _ _ _ _ _ _ _ _ _ GT G' (same_coherence_flat _ _ _ _ _ _ S2)).
Qed.
Print Assumptions C44_fidelity_decomposition.
(** it is Uhlmann's fidelity trace(sqrt(sqrt(rho1) rho2 sqrt(rho1)))^2: R is any positive semidefinite root of
    rho1 and T any positive semidefinite root of R rho2 R. *)
Theorem C44_fidelity_uhlmann L l1 l2 H W f1 f2 R T : svdvals_right L l2 l1 (overlap_matrix H W f1 f2) ->
  let n := (H * W)%nat in let rho1 := density W l1 f1 in let rho2 := density W l2 f2 in
  psd n R -> psd n T -> mat_eq n (mprod n R R) rho1 -> mat_eq n (mprod n T T) (mprod n R (mprod n rho2 R)) ->
  calc_fidelity L l1 l2 H W f1 f2 = (trace n T ^ 2)%R.
Proof.
  intros RI n rho1 rho2 PR PT R2 T2. destruct (fidelity_gsvd _ _ _ _ _ _ _ RI) as [r [G E]]. rewrite E. f_equal.
  apply (uhlmann n l1 l2 _ (flat_stack W f1) (flat_stack W f2) r R T G PR PT); auto.
Qed.
Print Assumptions C44_fidelity_uhlmann.
(** a case of its hypotheses: one pixel, fields 2 and 3i: rho1 = 4, R = 2, rho2 = 9, T = 6 *)
Example C44_uhlmann_case : let f1 := fun _ _ _ : nat => RtoC 2 in let f2 := fun _ _ _ : nat => (0%R, 3%R) in
  let R := fun _ _ : nat => RtoC 2 in let T := fun _ _ : nat => RtoC 6 in
  psd 1 R /\ psd 1 T /\ mat_eq 1 (mprod 1 R R) (density 1 1 f1) /\ mat_eq 1 (mprod 1 T T) (mprod 1 R (mprod 1 (density 1 1 f2) R)).
Proof.
  cbv zeta. assert (P : forall r, (0 <= r)%R -> psd 1 (fun _ _ => RtoC r)).
  { intros r Hr. split; [intros; rewrite Cconj_RtoC; auto|]. intros x. unfold csum, fsum. unfold Re, Cplus, Cmult, Cconj, RtoC. cbn [fst snd]. destruct (x 0%nat) as [a b]. cbn [fst snd]. nra. }
  split; [apply P; lra|]. split; [apply P; lra|].
  split; intros i j Hi Hj; unfold mprod, density, flat, csum, fsum; apply C_ext; cbn; ring.
Qed.

(** C44: calc_generalized_rms_error is always a real number (the radicand is not negative), *)
Theorem C44_grms_real L l1 l2 H W f1 f2 : (0 < H)%nat -> (0 < W)%nat -> svdvals_right L l2 l1 (overlap_matrix H W f1 f2) ->
  (0 <= total_power H W l1 f1 + total_power H W l2 f2 - 2 * sqrt (calc_fidelity L l1 l2 H W f1 f2))%R /\
  calc_generalized_rms_error L l1 l2 H W f1 f2 false =
    sqrt ((total_power H W l1 f1 + total_power H W l2 f2 - 2 * sqrt (calc_fidelity L l1 l2 H W f1 f2)) / INR (H * W)).
Proof.
  intros PH PW R. destruct (fidelity_gsvd _ _ _ _ _ _ _ R) as [r [G E]]. rewrite (grms_value L l1 l2 H W f1 f2 r PH PW G E), E.
  rewrite sqrt_pow2 by apply (nuc_nonneg _ _ _ _ _ _ _ G). split; auto. pose proof (nuc_mean _ _ _ _ _ _ _ G) as Q. rewrite <- !total_power_flat in Q. lra.
Qed.
Print Assumptions C44_grms_real.
(** agrees with calc_rms_error on single modes, *)
Theorem C44_grms_single L H W f g norm : (0 < H)%nat -> (0 < W)%nat -> svdvals_right L 1 1 (overlap_matrix H W (fun _ => f) (fun _ => g)) ->
  (norm = true -> (0 < power H W f)%R) ->
  calc_generalized_rms_error L 1 1 H W (fun _ => f) (fun _ => g) norm = calc_rms_error H W f g true norm.
Proof.
  intros PH PW R PN. pose proof (npos H W PH PW) as NP.
  assert (V : calc_generalized_rms_error L 1 1 H W (fun _ => f) (fun _ => g) false = calc_rms_error H W f g true false).
  { destruct (fidelity_gsvd _ _ _ _ _ _ _ R) as [r [G E]]. rewrite (grms_value L 1 1 H W _ _ r PH PW G E), rms_value. unfold rms_gap, total_power. change (Nat.min 1 1) with 1%nat in *.
    unfold rsum, fsum. rewrite (single_gsvd _ _ _ _ G), overlap_ip. do 2 f_equal. unfold flat_stack. ring. }
  destruct norm; auto. rewrite C44_rms_normalized by auto. rewrite <- V. specialize (PN eq_refl). unfold calc_generalized_rms_error.
  rewrite <- sqrt_div_alt by (apply Rdiv_lt_0_compat; auto). f_equal. f_equal. unfold rsum at 1, fsum. rewrite isum_abs2. f_equal. ring.
Qed.
Print Assumptions C44_grms_single.
(** depends on the coherence functions only, *)
Theorem C44_grms_decomposition L L' l1 l2 l1' l2' H W f1 f2 f1' f2' norm : (0 < H)%nat -> (0 < W)%nat ->
  svdvals_right L l2 l1 (overlap_matrix H W f1 f2) -> svdvals_right L' l2' l1' (overlap_matrix H W f1' f2') ->
  same_coherence H W l1 f1 l1' f1' -> same_coherence H W l2 f2 l2' f2' ->
  calc_generalized_rms_error L l1 l2 H W f1 f2 norm = calc_generalized_rms_error L' l1' l2' H W f1' f2' norm.
Proof.
  intros PH PW R R' S1 S2. unfold calc_generalized_rms_error. rewrite (C44_fidelity_decomposition L L' l1 l2 l1' l2' H W f1 f2 f1' f2' R R' S1 S2).
  assert (T : forall n f n' f', same_coherence H W n f n' f' -> rsum n (fun k => isum H W (abs2 (f k))) = rsum n' (fun k => isum H W (abs2 (f' k)))).
  { intros n f n' f' S. rewrite (rsum_ext n _ (fun k => power H W (f k))), (rsum_ext n' _ (fun k => power H W (f' k))) by (intros; apply isum_abs2). apply (same_coherence_power H W n f n' f' S). }
  rewrite (T _ _ _ _ S1), (T _ _ _ _ S2). reflexivity.
Qed.
Print Assumptions C44_grms_decomposition.
(** and is zero exactly for equal coherence functions. *)
Theorem C44_grms_zero L l1 l2 H W f1 f2 : (0 < H)%nat -> (0 < W)%nat -> svdvals_right L l2 l1 (overlap_matrix H W f1 f2) ->
  (calc_generalized_rms_error L l1 l2 H W f1 f2 false = 0%R <-> same_coherence H W l1 f1 l2 f2).
Proof.
  intros PH PW R. pose proof (npos H W PH PW) as NP. destruct (fidelity_gsvd _ _ _ _ _ _ _ R) as [r [G E]]. rewrite (grms_value L l1 l2 H W f1 f2 r PH PW G E).
  pose proof (nuc_mean _ _ _ _ _ _ _ G) as Q. rewrite <- !total_power_flat in Q. split.
  - intros Z. apply sqrt_eq_0 in Z; [|apply Rmult_le_pos; [lra|left; apply Rinv_0_lt_compat; auto]].
    apply same_coherence_of_flat. apply (nuc_equal _ _ _ _ _ _ _ G). rewrite <- !total_power_flat.
    unfold Rdiv in Z. apply Rmult_integral in Z. destruct Z as [Z|Z]; auto. apply Rinv_neq_0_compat in Z; [easy|lra].
  - intros S. destruct (svd_exists l1 l1 (ov (H * W) (flat_stack W f1) (flat_stack W f1))) as [t GT]. apply (proj1 (is_svd_gsvd _ _ _ _)) in GT.
    rewrite <- (nuc_invariant_y _ _ _ _ _ _ _ _ _ _ _ GT G (same_coherence_flat _ _ _ _ _ _ S)). rewrite (nuc_self _ _ _ _ _ GT), <- total_power_flat.
    rewrite <- (same_coherence_power H W _ _ _ _ S). replace (total_power H W l1 f1 + total_power H W l1 f1 - 2 * total_power H W l1 f1)%R with 0%R by ring. unfold Rdiv. rewrite Rmult_0_l. apply sqrt_0.
Qed.
Print Assumptions C44_grms_zero.

(** C44: Fourier ring correlations have modulus at most 1 (an empty ring, which the code reports as NaN, is 0
    here), *)
Theorem C44_frc_bound H W nb im1 im2 di dj lim b : (Cmod (calc_frc H W nb im1 im2 di dj lim b) <= 1)%R.
Proof. rewrite frc_form. apply corr_bound. Qed.
Print Assumptions C44_frc_bound.
(** are conjugate under exchange, *)
Theorem C44_frc_exchange H W nb im1 im2 di dj lim b : calc_frc H W nb im2 im1 di dj lim b = Cconj (calc_frc H W nb im1 im2 di dj lim b).
Proof.
  rewrite !frc_form. cbv zeta. unfold Cdiv. rewrite Cconj_mult, overlap_conj, (Rmult_comm (power H W (masked _ (spectrum H W im2)))). f_equal.
  set (s := sqrt _). destruct (Req_EM_T s 0) as [Z|Z]; [rewrite Z; apply C_ext; cbn; unfold Rdiv; ring|]. rewrite <- RtoC_inv by auto. symmetry. apply Cconj_RtoC.
Qed.
Print Assumptions C44_frc_exchange.
(** are the phase factor itself for images equal up to a constant, wherever the ring contains signal, *)
Theorem C44_frc_same H W nb im c di dj lim b : (0 < power H W (masked (frc_bin H W nb di dj lim b) (spectrum H W im)))%R -> c <> 0 ->
  calc_frc H W nb (fun i j => c * im i j) im di dj lim b = c / RtoC (Cmod c).
Proof.
  intros P NC. rewrite frc_form. cbv zeta. set (m := frc_bin H W nb di dj lim b) in *. rewrite power_masked_scal. set (g := masked m (spectrum H W im)) in *.
  rewrite (overlap_ext H W _ (fun i j => c * g i j) g (fun i j => 1 * g i j)) by (intros; first [apply masked_spectrum_scal | ring]).
  rewrite overlap_scal, overlap_self, Cconj_RtoC. set (p := power H W g) in *.
  replace (nrm2 c * p * p)%R with ((Cmod c * p) ^ 2)%R by (rewrite nrm2_Cmod; ring).
  assert (CP : (0 < Cmod c)%R) by (apply Cmod_gt_0; auto). rewrite sqrt_pow2 by nra. rewrite RtoC_mult. field. split; apply RtoC_neq0; lra.
Qed.
Print Assumptions C44_frc_same.
(** and only change by the phase when the images are rescaled. *)
Theorem C44_frc_scale H W nb im1 im2 c d di dj lim b : c <> 0 -> d <> 0 ->
  calc_frc H W nb (fun i j => c * im1 i j) (fun i j => d * im2 i j) di dj lim b =
  (c * Cconj d / RtoC (Cmod c * Cmod d)) * calc_frc H W nb im1 im2 di dj lim b.
Proof.
  intros NC ND. rewrite !frc_form. cbv zeta. set (m := frc_bin H W nb di dj lim b) in *. rewrite !power_masked_scal.
  set (g1 := masked m (spectrum H W im1)). set (g2 := masked m (spectrum H W im2)).
  rewrite (overlap_ext H W _ (fun i j => c * g1 i j) _ (fun i j => d * g2 i j)) by (intros; apply masked_spectrum_scal). rewrite overlap_scal.
  assert (CP : (0 < Cmod c)%R) by (apply Cmod_gt_0; auto). assert (DP : (0 < Cmod d)%R) by (apply Cmod_gt_0; auto).
  replace (nrm2 c * power H W g1 * (nrm2 d * power H W g2))%R with ((Cmod c * Cmod d) ^ 2 * (power H W g1 * power H W g2))%R by (rewrite !nrm2_Cmod; ring).
  rewrite sqrt_mult_alt by apply pow2_ge_0. rewrite sqrt_pow2 by nra. rewrite RtoC_mult.
  set (s := sqrt _). destruct (Req_EM_T s 0) as [Z|Z].
  - assert (ZZ : overlap H W g1 g2 = 0). { apply nrm2_0. apply Rle_antisym; [|apply nrm2_nonneg]. eapply Rle_trans; [apply overlap_cs|]. right. apply sqrt_eq_0; [apply Rmult_le_pos; apply power_nonneg|exact Z]. }
    rewrite ZZ. unfold Cdiv. ring.
  - rewrite (RtoC_mult (Cmod c)). field. repeat split; apply RtoC_neq0; lra.
Qed.
Print Assumptions C44_frc_scale.
(** ring b of a positive frequency range holds the pixels with b/n <= r / range < (b+1)/n, the last one also
    those at the range itself, and its pixel count is their number; *)
Theorem C44_frc_ring H W nb di dj lim b i j : (b < nb)%nat -> (0 < frc_range H W di dj lim)%R ->
  frc_bin H W nb di dj lim b i j = true <->
  (let top := frc_range H W di dj lim in let r := radius H W di dj i j in
   (INR b / INR nb * top <= r)%R /\ ((r < INR (S b) / INR nb * top)%R \/ (S b = nb /\ r = top))).
Proof.
  intros Hb T. set (top := frc_range H W di dj lim) in *. set (r := radius H W di dj i j). cbv zeta. unfold frc_bin, in_bin. fold top r.
  assert (N : (0 < INR nb)%R) by (apply lt_0_INR; lia).
  assert (E : forall k, edge nb top k = (INR k / INR nb * top)%R) by (intros k; unfold edge; destruct (Req_EM_T top 0); [lra|field; lra]).
  rewrite !E. replace (INR nb / INR nb * top)%R with top by (field; lra).
  destruct (Rle_dec (INR b / INR nb * top) r) as [A|A]; [|split; [discriminate|intros [? _]; contradiction]].
  destruct (Rlt_dec r (INR (S b) / INR nb * top)) as [B|B]; [split; auto|].
  destruct (Nat.eqb_spec (S b) nb) as [C|C]; [|split; [discriminate|intros [_ [?|[? _]]]; contradiction]].
  destruct (Req_EM_T r top) as [D|D]; [split; auto|split; [discriminate|intros [_ [?|[_ ?]]]; contradiction]].
Qed.
Print Assumptions C44_frc_ring.
Theorem C44_frc_count H W nb di dj lim b :
  frc_npix H W nb di dj lim b = INR (length (filter (fun p => frc_bin H W nb di dj lim b (fst p) (snd p)) (list_prod (seq 0 H) (seq 0 W)))).
Proof.
  unfold frc_npix, histogram_r, isum. set (f := frc_bin H W nb di dj lim b). rewrite rsum_lsum. generalize (seq 0 H). intros l. induction l as [|i l IH]; [reflexivity|].
  cbn [map list_prod]. rewrite filter_app, app_length, plus_INR, <- IH. unfold lsum at 1. cbn [fold_right]. fold (lsum (map (fun i => rsum W (fun j => if f i j then 1%R else 0%R)) l)). f_equal.
  rewrite rsum_lsum. generalize (seq 0 W). intros k. induction k as [|j k IHk]; [reflexivity|]. cbn [map filter fst snd]. unfold lsum in *. cbn [fold_right]. rewrite IHk.
  destruct (f i j); cbn [length]; rewrite ?S_INR; ring.
Qed.
Print Assumptions C44_frc_count.
(** the threshold curve of calc_frc lies in (0, 1] for every positive signal-to-noise ratio and pixel count *)
Theorem C44_frc_threshold snr n_pix : (0 <= snr)%R -> (1 <= n_pix)%R -> (0 < frc_threshold snr n_pix <= 1)%R.
Proof.
  intros S N. unfold frc_threshold. set (s := (snr / 2)%R). assert (0 <= s)%R by (unfold s; lra). set (q := sqrt n_pix).
  assert (Q : (1 <= q)%R) by (unfold q; rewrite <- sqrt_1; apply sqrt_le_1_alt; auto). pose proof (sqrt_pos s) as T. set (t := sqrt s) in *.
  assert (I : (0 < / q <= 1)%R). { split; [apply Rinv_0_lt_compat; lra|]. rewrite <- Rinv_1. apply Rinv_le_contravar; lra. }
  assert (D : (0 < 1 + s + 2 * t / q)%R) by (unfold Rdiv; nra). split.
  - apply Rdiv_lt_0_compat; auto. unfold Rdiv. nra.
  - apply Rmult_le_reg_r with (1 + s + 2 * t / q)%R; auto. unfold Rdiv at 1. rewrite Rmult_assoc, Rinv_l, Rmult_1_r, Rmult_1_l by lra. unfold Rdiv. nra.
Qed.
Print Assumptions C44_frc_threshold.
(** calc_generalized_frc promises the same curve, but computes another one, which exceeds 1. *)
Theorem C44_gfrc_threshold_refuted : exists snr n_pix, (0 <= snr)%R /\ (1 <= n_pix)%R /\
  gfrc_threshold snr n_pix <> frc_threshold snr n_pix /\ (1 < gfrc_threshold snr n_pix)%R.
Proof.
  exists 8%R, 1%R. split; [lra|]. split; [lra|]. unfold gfrc_threshold, frc_threshold. replace (8 / 2)%R with (2 * 2)%R by field. rewrite sqrt_1, sqrt_square by lra. split; lra.
Qed.
Print Assumptions C44_gfrc_threshold_refuted.

(** C44: generalized ring correlations lie in [0, 1], *)
Definition gfrc_right (L : linalg) (l1 l2 H W nb : nat) (f1 f2 : nat -> img) (di dj : R) (lim : frc_limit) (b : nat) : Prop :=
  let m := gfrc_mask H W nb di dj lim b in
  let g1 := fun k => masked m (spectrum H W (f1 k)) in let g2 := fun k => masked m (spectrum H W (f2 k)) in
  svdvals_right L l2 l1 (overlap_matrix H W g1 g2) /\ svdvals_right L l1 l1 (overlap_matrix H W g1 g1) /\ svdvals_right L l2 l2 (overlap_matrix H W g2 g2).
Theorem C44_gfrc_bounds L l1 l2 H W nb f1 f2 di dj lim b : gfrc_right L l1 l2 H W nb f1 f2 di dj lim b ->
  (0 <= calc_generalized_frc L l1 l2 H W nb f1 f2 di dj lim b <= 1)%R.
Proof.
  intros [R12 [R11 R22]]. rewrite (gfrc_form L l1 l2 H W nb f1 f2 di dj lim b R12 R11 R22). cbv zeta in *.
  pose proof (C44_fidelity_bounds _ _ _ _ _ _ _ R12) as [F0 F1]. set (F := calc_fidelity _ _ _ _ _ _ _) in *. set (P := (total_power _ _ l1 _ * total_power _ _ l2 _)%R) in *.
  destruct (Req_EM_T P 0) as [Z|Z].
  - rewrite Z, sqrt_0. replace F with 0%R by lra. rewrite sqrt_0. unfold Rdiv. lra.
  - assert (SP : (0 < sqrt P)%R) by (apply sqrt_lt_R0; lra). split; [apply Rmult_le_pos; [apply sqrt_pos|left; apply Rinv_0_lt_compat; auto]|].
    apply Rmult_le_reg_r with (sqrt P); auto. unfold Rdiv. rewrite Rmult_assoc, Rinv_l, Rmult_1_r, Rmult_1_l by lra. apply sqrt_le_1_alt. auto.
Qed.
Print Assumptions C44_gfrc_bounds.
(** are 1 for fields of equal coherence, wherever the ring contains signal, *)
Theorem C44_gfrc_same L l1 l2 H W nb f1 f2 di dj lim b : gfrc_right L l1 l2 H W nb f1 f2 di dj lim b ->
  same_coherence H W l1 f1 l2 f2 -> (0 < total_power H W l1 (fun k => masked (gfrc_mask H W nb di dj lim b) (spectrum H W (f1 k))))%R ->
  calc_generalized_frc L l1 l2 H W nb f1 f2 di dj lim b = 1%R.
Proof.
  intros [R12 [R11 R22]] S P. rewrite (gfrc_form L l1 l2 H W nb f1 f2 di dj lim b R12 R11 R22). cbv zeta in *.
  pose proof (masked_coherence H W (gfrc_mask H W nb di dj lim b) l1 f1 l2 f2 S) as SM.
  set (g1 := fun k => masked (gfrc_mask H W nb di dj lim b) (spectrum H W (f1 k))) in *. set (g2 := fun k => masked (gfrc_mask H W nb di dj lim b) (spectrum H W (f2 k))) in *.
  rewrite (C44_fidelity_decomposition L L l1 l2 l1 l1 H W g1 g2 g1 g1 R12 R11); [|apply same_coherence_refl || (intros i j i' j' _ _ _ _; reflexivity)|apply same_coherence_sym; auto].
  rewrite C44_fidelity_self by auto. rewrite <- (same_coherence_power H W _ _ _ _ SM). rewrite sqrt_pow2, sqrt_square by lra. field. lra.
Qed.
Print Assumptions C44_gfrc_same.
(** do not depend on the mode decompositions, *)
Theorem C44_gfrc_decomposition L L' l1 l2 l1' l2' H W nb f1 f2 f1' f2' di dj lim b :
  gfrc_right L l1 l2 H W nb f1 f2 di dj lim b -> gfrc_right L' l1' l2' H W nb f1' f2' di dj lim b ->
  same_coherence H W l1 f1 l1' f1' -> same_coherence H W l2 f2 l2' f2' ->
  calc_generalized_frc L l1 l2 H W nb f1 f2 di dj lim b = calc_generalized_frc L' l1' l2' H W nb f1' f2' di dj lim b.
Proof.
  intros [R12 [R11 R22]] [R12' [R11' R22']] S1 S2. rewrite (gfrc_form L l1 l2 H W nb f1 f2 di dj lim b R12 R11 R22), (gfrc_form L' l1' l2' H W nb f1' f2' di dj lim b R12' R11' R22'). cbv zeta in *.
  set (m := gfrc_mask H W nb di dj lim b) in *. pose proof (masked_coherence H W m _ _ _ _ S1) as M1. pose proof (masked_coherence H W m _ _ _ _ S2) as M2.
  rewrite (C44_fidelity_decomposition L L' _ _ _ _ H W _ _ _ _ R12 R12' M1 M2). rewrite (same_coherence_power H W _ _ _ _ M1), (same_coherence_power H W _ _ _ _ M2). reflexivity.
Qed.
Print Assumptions C44_gfrc_decomposition.
(** On single modes it is the modulus of the normalised overlap of the two spectra in the ring. *)
Lemma gfrc_single L H W nb im1 im2 di dj lim b : gfrc_right L 1 1 H W nb (fun _ => im1) (fun _ => im2) di dj lim b ->
  let x := masked (gfrc_mask H W nb di dj lim b) (spectrum H W im1) in let y := masked (gfrc_mask H W nb di dj lim b) (spectrum H W im2) in
  calc_generalized_frc L 1 1 H W nb (fun _ => im1) (fun _ => im2) di dj lim b = (Cmod (overlap H W x y) / sqrt (power H W x * power H W y))%R.
Proof.
  intros [R12 [R11 R22]] x y. rewrite (gfrc_form L 1 1 H W nb _ _ di dj lim b R12 R11 R22). cbv zeta in *. rewrite C44_fidelity_single by auto.
  unfold total_power, rsum at 1 2, fsum. rewrite !Rplus_0_l. rewrite sqrt_pow2 by apply Cmod_ge_0. reflexivity.
Qed.
(** and agree with the modulus of calc_frc on single modes in every ring but the last; *)
Theorem C44_gfrc_single L H W nb im1 im2 di dj lim b : gfrc_right L 1 1 H W nb (fun _ => im1) (fun _ => im2) di dj lim b -> (S b < nb)%nat ->
  calc_generalized_frc L 1 1 H W nb (fun _ => im1) (fun _ => im2) di dj lim b = Cmod (calc_frc H W nb im1 im2 di dj lim b).
Proof.
  intros [R12 [R11 R22]] B. rewrite (gfrc_form L 1 1 H W nb _ _ di dj lim b R12 R11 R22), frc_form. cbv zeta in *. rewrite C44_fidelity_single by auto.
  assert (ME : forall x i j, masked (gfrc_mask H W nb di dj lim b) x i j = masked (frc_bin H W nb di dj lim b) x i j) by (intros; unfold masked; rewrite bins_agree by lia; reflexivity).
  rewrite (overlap_ext H W _ (masked (frc_bin H W nb di dj lim b) (spectrum H W im1)) _ (masked (frc_bin H W nb di dj lim b) (spectrum H W im2))) by (intros; apply ME).
  unfold total_power, rsum at 1 2, fsum. rewrite !Rplus_0_l. rewrite (power_ext H W _ (masked (frc_bin H W nb di dj lim b) (spectrum H W im1))), (power_ext H W (masked (gfrc_mask _ _ _ _ _ _ _) (spectrum H W im2)) (masked (frc_bin H W nb di dj lim b) (spectrum H W im2))) by (intros; apply ME).
  set (x := masked _ (spectrum H W im1)). set (y := masked _ (spectrum H W im2)). rewrite sqrt_pow2 by apply Cmod_ge_0.
  set (s := sqrt _). destruct (Req_EM_T s 0) as [Z|Z].
  - assert (ZZ : overlap H W x y = 0). { apply nrm2_0. apply Rle_antisym; [|apply nrm2_nonneg]. eapply Rle_trans; [apply overlap_cs|]. right. apply sqrt_eq_0; [apply Rmult_le_pos; apply power_nonneg|exact Z]. }
    rewrite ZZ. unfold Cdiv. rewrite Cmult_0_l, Cmod_0. unfold Rdiv. ring.
  - rewrite Cmod_div by (apply RtoC_neq0; auto). rewrite Cmod_R, Rabs_right; [reflexivity|]. apply Rle_ge, sqrt_pos.
Qed.
Print Assumptions C44_gfrc_single.

(** ... while in the last ring it drops the frequencies on the outer edge, which calc_frc keeps: two
    uncorrelated images are reported as perfectly correlated. *)
Lemma radius_row3 j : radius 1 3 1 1 0 j = Rabs (shifted_freq 3 1 j).
Proof.
  unfold radius. replace (shifted_freq 1 1 0) with 0%R by (unfold shifted_freq, fftfreq; cbn; field).
  rewrite pow_ne_zero, Rplus_0_l by lia. replace (shifted_freq 3 1 j ^ 2)%R with (Rsqr (shifted_freq 3 1 j)) by (unfold Rsqr; ring). apply sqrt_Rsqr_abs.
Qed.
Lemma range_row3 : frc_range 1 3 1 1 Side = (1 / 3)%R.
Proof.
  unfold frc_range. replace (max_freq 1 1) with 0%R by (unfold max_freq; cbn; field). replace (max_freq 3 1) with (1 / 3)%R by (unfold max_freq; cbn; field).
  apply Rmax_right. lra.
Qed.
Lemma edge0_row3 : edge 1 (1 / 3) 0 = 0%R.
Proof. unfold edge. destruct (Req_EM_T (1 / 3) 0); [lra|]. cbn. field. Qed.
Lemma edge1_row3 : edge 1 (1 / 3) 1 = (1 / 3)%R.
Proof. unfold edge. destruct (Req_EM_T (1 / 3) 0); [lra|]. cbn. field. Qed.
Lemma freq_row3 : shifted_freq 3 1 0 = (- (1 / 3))%R /\ shifted_freq 3 1 1 = 0%R /\ shifted_freq 3 1 2 = (1 / 3)%R.
Proof. unfold shifted_freq, fftfreq, roll. cbn. repeat split; field. Qed.
Lemma abs_third : Rabs (- (1 / 3)) = (1 / 3)%R /\ Rabs (1 / 3) = (1 / 3)%R.
Proof. rewrite Rabs_Ropp. split; apply Rabs_right; lra. Qed.
Definition at0 : img := fun _ j => if Nat.eqb j 0 then 1 else 0.
Definition at1 : img := fun _ j => if Nat.eqb j 1 then 1 else 0.
Lemma row_shift x j : (j < 3)%nat -> spectrum 1 3 x 0%nat j = fft2 1 3 x 0%nat ((j + 2) mod 3)%nat.
Proof. intros Hj. unfold spectrum, fftshift2, roll. reflexivity. Qed.
Lemma row_fft x j : fft2 1 3 x 0%nat j = dft 3 (x 0%nat) j.
Proof. unfold fft2. unfold dft at 1. unfold csum, fsum at 1. cbn [Z.of_nat Z.mul Z.opp]. rewrite w_0 by lia. change (dft 3 (x 0%nat) j) with (dft 3 (x 0%nat) j). ring. Qed.
Lemma row_at0 j : fft2 1 3 at0 0%nat j = 1.
Proof. rewrite row_fft. unfold dft, at0. rewrite !csum_S. cbn [Nat.eqb]. unfold csum at 1, fsum. rewrite Z.mul_0_r, w_0 by lia. ring. Qed.
Lemma row_at1 j : fft2 1 3 at1 0%nat j = w 3 (- Z.of_nat j).
Proof. rewrite row_fft. unfold dft, at1. rewrite !csum_S. cbn [Nat.eqb]. unfold csum at 1, fsum. rewrite Z.mul_1_r. ring. Qed.
Theorem C44_gfrc_last_bin_refuted : exists H W nb im1 im2, (0 < nb)%nat /\ (exists L, gfrc_right L 1 1 H W nb (fun _ => im1) (fun _ => im2) 1 1 Side (nb - 1)) /\
  calc_frc H W nb im1 im2 1 1 Side (nb - 1) = 0 /\
  forall L, gfrc_right L 1 1 H W nb (fun _ => im1) (fun _ => im2) 1 1 Side (nb - 1) ->
    calc_generalized_frc L 1 1 H W nb (fun _ => im1) (fun _ => im2) 1 1 Side (nb - 1) = 1%R.
Proof.
  destruct freq_row3 as [F0 [F1 F2]]. destruct abs_third as [A0 A1].
  exists 1%nat, 3%nat, 1%nat, at0, at1. split; [lia|]. change (1 - 1)%nat with 0%nat. split; [|split].
  - destruct C42_library_exists as [L HL]. exists L. split; [|split]; apply HL.
  - rewrite frc_form.
    assert (B : forall j, (j < 3)%nat -> frc_bin 1 3 1 1 1 Side 0 0 j = true).
    { intros j Hj. unfold frc_bin, in_bin. rewrite range_row3, edge0_row3, edge1_row3, radius_row3. destruct (Rle_dec 0 _) as [_|N]; [|exfalso; apply N, Rabs_pos].
      destruct j as [|[|[|]]]; try lia; rewrite ?F0, ?F1, ?F2, ?A0, ?A1, ?Rabs_R0.
      - destruct (Rlt_dec _ _); [reflexivity|]. cbn [Nat.eqb]. destruct (Req_EM_T (1 / 3) (1 / 3)); [reflexivity|lra].
      - destruct (Rlt_dec _ _); [reflexivity|lra].
      - destruct (Rlt_dec _ _); [reflexivity|]. cbn [Nat.eqb]. destruct (Req_EM_T (1 / 3) (1 / 3)); [reflexivity|lra]. }
    replace (overlap _ _ _ _) with (RtoC 0); [unfold Cdiv; ring|]. symmetry. unfold overlap, masked. unfold csum at 1, fsum.
    rewrite (csum_ext 3 _ (fun j => w 3 (Z.of_nat ((j + 2) mod 3)%nat * 1))).
    + rewrite (csum_reindex 3 (fun j => (j + 2) mod 3)%nat (fun k => w 3 (Z.of_nat k * 1))) by (intros [|[|[|]]] **; try lia; try (destruct j as [|[|[|]]]); cbn in *; try lia).
      rewrite orth by lia. cbn. ring.
    + intros j Hj. rewrite B by auto. rewrite !row_shift, row_at0, row_at1, w_conj by (auto; lia). rewrite Z.opp_involutive, Z.mul_1_r. ring.
  - intros L G. rewrite (gfrc_single L 1 3 1 at0 at1 1 1 Side 0 G). cbv zeta.
    assert (M0 : gfrc_mask 1 3 1 1 1 Side 0 0 0 = false) by (unfold gfrc_mask; rewrite range_row3, edge0_row3, edge1_row3, radius_row3, F0, A0; destruct (Rlt_dec _ _); [lra|auto]).
    assert (M1 : gfrc_mask 1 3 1 1 1 Side 0 0 1 = true) by (unfold gfrc_mask; rewrite range_row3, edge0_row3, edge1_row3, radius_row3, F1, Rabs_R0; destruct (Rlt_dec _ _); [destruct (Rle_dec _ _); [auto|lra]|lra]).
    assert (M2 : gfrc_mask 1 3 1 1 1 Side 0 0 2 = false) by (unfold gfrc_mask; rewrite range_row3, edge0_row3, edge1_row3, radius_row3, F2, A1; destruct (Rlt_dec _ _); [lra|auto]).
    assert (X0 : spectrum 1 3 at0 0%nat 1%nat = 1) by (rewrite row_shift by lia; apply row_at0).
    assert (Y0 : spectrum 1 3 at1 0%nat 1%nat = 1) by (rewrite row_shift by lia; rewrite row_at1; apply w_0; lia).
    replace (overlap _ _ _ _) with (RtoC 1).
    2:{ unfold overlap, masked. rewrite !csum_S. unfold csum, fsum. rewrite M0, M1, M2, X0, Y0, !Cconj_RtoC. ring. }
    replace (power _ _ (masked _ (spectrum 1 3 at0))) with 1%R by (unfold power, masked; rewrite !rsum_S; unfold rsum, fsum; rewrite M0, M1, M2, X0, !nrm2_RtoC; ring).
    replace (power _ _ (masked _ (spectrum 1 3 at1))) with 1%R by (unfold power, masked; rewrite !rsum_S; unfold rsum, fsum; rewrite M0, M1, M2, Y0, !nrm2_RtoC; ring).
    rewrite Rmult_1_l, sqrt_1, Cmod_1. field.
Qed.
Print Assumptions C44_gfrc_last_bin_refuted.
