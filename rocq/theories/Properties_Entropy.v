(** C45: calc_vn_entropy (tools/analysis/analysis.py 646-676). *)
From Verif Require Import Base FinSum Fourier Matrix Model_Prop Model_Analysis Spec_Analysis Proofs_SVD Proofs_SVDExists Proofs_Ortho Proofs_Metrics Proofs_FRC.
From Coquelicot Require Import Complex.
Local Open Scope C_scope.

Lemma entropy_of_ext n e e' : (forall q, (q < n)%nat -> e q = e' q) -> entropy_of n e = entropy_of n e'.
Proof. intros H. unfold entropy_of. f_equal. apply rsum_ext. intros q Hq. rewrite H by auto. reflexivity. Qed.
Lemma stack_entry L n ms k A : nth_error ms k = Some A ->
  nth_error (calc_vn_entropy_stack L n ms) k = Some (entropy_of n (fun q => eigh L n A q / rsum n (eigh L n A))%R).
Proof. intros H. unfold calc_vn_entropy_stack. rewrite !nth_error_map, H. reflexivity. Qed.
Lemma single_form L n A : eigh_right L n A -> psd n A -> (0 < trace n A)%R ->
  calc_vn_entropy L n A = (entropy_of n (fun q => eigh L n A q / rsum n (eigh L n A))%R - ln (trace n A))%R.
Proof.
  intros E P T. pose proof (eigh_trace n A _ E) as TR.
  rewrite (entropy_normalised n (eigh L n A) (rsum n (eigh L n A))); auto; [|rewrite TR; auto|intros; eapply eigh_nonneg; eauto].
  unfold calc_vn_entropy. rewrite TR. ring.
Qed.

(** The stack form gives one entry per matrix. *)
Theorem C45_stack_length L n ms : length (calc_vn_entropy_stack L n ms) = length ms.
Proof. unfold calc_vn_entropy_stack. rewrite !map_length. reflexivity. Qed.
Print Assumptions C45_stack_length.

(** Every entry is between 0 and ln n; *)
Theorem C45_stack_bounds L n ms k A : nth_error ms k = Some A -> eigh_right L n A -> psd n A -> (0 < trace n A)%R ->
  exists S, nth_error (calc_vn_entropy_stack L n ms) k = Some S /\ (0 <= S <= ln (INR n))%R.
Proof.
  intros Hk E P T. eexists. split; [apply stack_entry; eauto|]. pose proof (eigh_trace n A _ E) as TR.
  apply entropy_bounds.
  - destruct n; [|lia]. cbn in T. lra.
  - intros q Hq. pose proof (eigh_nonneg n A _ P E q Hq). rewrite TR. apply Rmult_le_pos; auto. left. apply Rinv_0_lt_compat. auto.
  - unfold Rdiv. rewrite (rsum_ext n _ (fun q => / rsum n (eigh L n A) * eigh L n A q)%R) by (intros; ring). rewrite <- rsum_scal. rewrite Rinv_l; [reflexivity|]. rewrite TR. lra.
Qed.
Print Assumptions C45_stack_bounds.

(** does not change when the matrix is multiplied by a positive number - whatever library computed the
    eigenvalues, and wherever the matrix is in the stack; *)
Theorem C45_stack_scale L L' n ms ms' k k' A c : nth_error ms k = Some A -> nth_error ms' k' = Some (fun i j => RtoC c * A i j) ->
  (0 < c)%R -> eigh_right L n A -> eigh_right L' n (fun i j => RtoC c * A i j) -> psd n A -> (0 < trace n A)%R ->
  nth_error (calc_vn_entropy_stack L n ms) k = nth_error (calc_vn_entropy_stack L' n ms') k'.
Proof.
  intros Hk Hk' C E E' P T. rewrite (stack_entry _ _ _ _ _ Hk), (stack_entry _ _ _ _ _ Hk'). f_equal.
  pose proof (eigenvalues_unique n _ _ _ (psd_scale n A c C P) E' (eigh_scale n A _ c C E)) as U.
  apply entropy_of_ext. intros q Hq. rewrite (rsum_ext n _ _ U), U, <- rsum_scal by auto. rewrite (eigh_trace n A _ E). field. lra.
Qed.
Print Assumptions C45_stack_scale.

(** and does not change when the light field is expressed in another orthonormal basis. *)
Theorem C45_stack_unitary L L' n ms ms' k k' A B U : nth_error ms k = Some A -> nth_error ms' k' = Some B ->
  ortho_cols n n U -> (forall i j, (i < n)%nat -> (j < n)%nat -> B i j = csum n (fun a => csum n (fun b => U i a * A a b * Cconj (U j b)))) ->
  eigh_right L n A -> eigh_right L' n B -> psd n A -> psd n B ->
  nth_error (calc_vn_entropy_stack L n ms) k = nth_error (calc_vn_entropy_stack L' n ms') k'.
Proof.
  intros Hk Hk' O EB E E' P PB. rewrite (stack_entry _ _ _ _ _ Hk), (stack_entry _ _ _ _ _ Hk'). f_equal.
  assert (IE : is_eigh n B (eigh L n A)).
  { destruct E as [M [V [OV D]]]. split; auto. exists (fun i q => csum n (fun a => U i a * V a q)). split.
    - intros p q Hp Hq. unfold ip.
      rewrite (csum_ext n _ (fun i => csum n (fun a => csum n (fun b => Cconj (V a p) * V b q * (Cconj (U i a) * U i b))))).
      + rewrite csum_swap. rewrite (csum_ext n _ (fun a => csum n (fun b => Cconj (V a p) * V b q * delta a b))).
        * rewrite (csum_ext n _ (fun a => Cconj (V a p) * V a q)); [exact (OV p q Hp Hq)|]. intros a Ha.
          rewrite (csum_ext n _ (fun b => Cconj (V a p) * V b q * delta b a)) by (intros b _; unfold delta; rewrite (Nat.eqb_sym b a); reflexivity).
          rewrite (csum_delta_r n a (fun b => Cconj (V a p) * V b q)) by auto. reflexivity.
        * intros a Ha. rewrite csum_swap. apply csum_ext. intros b Hb. rewrite <- (O a b Ha Hb). unfold ip. rewrite csum_scal. reflexivity.
      + intros i _. rewrite csum_conj, csum_scal_r. apply csum_ext. intros a _. rewrite csum_scal. apply csum_ext. intros b _. rewrite Cconj_mult. ring.
    - intros i j Hi Hj. rewrite EB by auto.
      rewrite (csum_ext n _ (fun a => csum n (fun q => U i a * V a q * RtoC (eigh L n A q) * csum n (fun b => Cconj (U j b) * Cconj (V b q))))).
      + rewrite csum_swap. apply csum_ext. intros q _. rewrite !csum_scal_r. apply csum_ext. intros a _. rewrite csum_conj. f_equal. apply csum_ext. intros b _. rewrite Cconj_mult. reflexivity.
      + intros a Ha. rewrite (csum_ext n _ (fun b => csum n (fun q => U i a * V a q * RtoC (eigh L n A q) * (Cconj (U j b) * Cconj (V b q))))).
        * rewrite csum_swap. apply csum_ext. intros q _. rewrite csum_scal. reflexivity.
        * intros b Hb. rewrite D by auto. rewrite csum_scal, csum_scal_r. apply csum_ext. intros. ring. }
  pose proof (eigenvalues_unique n B _ _ PB IE E') as Q. apply entropy_of_ext. intros q Hq. rewrite (rsum_ext n _ _ Q), Q by auto. reflexivity.
Qed.
Print Assumptions C45_stack_unitary.

(** On a single matrix the function returns the entry that matrix has in a stack, less the logarithm of the
    trace - so the same value for matrices of trace 1, and only for those. *)
Theorem C45_single L n ms k A : nth_error ms k = Some A -> eigh_right L n A -> psd n A -> (0 < trace n A)%R ->
  exists S, nth_error (calc_vn_entropy_stack L n ms) k = Some S /\
    calc_vn_entropy L n A = (S - ln (trace n A))%R /\ (calc_vn_entropy L n A = S <-> trace n A = 1%R).
Proof.
  intros Hk E P T. eexists. split; [apply stack_entry; eauto|]. rewrite (single_form L n A) by auto. split; [reflexivity|]. split; intros Q.
  - assert (L0 : ln (trace n A) = ln 1) by (rewrite ln_1; lra). apply ln_inv; auto; lra.
  - rewrite Q, ln_1. lra.
Qed.
Print Assumptions C45_single.

(** The maximally mixed and the pure state. *)
Definition scalar (t : R) : mat := fun i j => RtoC t * delta i j.
Lemma scalar_psd n t : (0 <= t)%R -> psd n (scalar t).
Proof.
  intros T. split.
  - intros i j _ _. unfold scalar, delta. rewrite Cconj_mult, Cconj_RtoC, (Nat.eqb_sym j i). destruct (Nat.eqb i j); rewrite ?Cconj_RtoC; reflexivity.
  - intros x. rewrite Re_csum. apply rsum_nonneg. intros i Hi. rewrite (csum_ext n _ (fun j => Cconj (x i) * RtoC t * x j * delta j i)) by (intros; unfold scalar, delta; rewrite (Nat.eqb_sym i); ring).
    rewrite (csum_delta_r n i (fun j => Cconj (x i) * RtoC t * x j)) by auto. replace (Cconj (x i) * RtoC t * x i) with (RtoC t * (x i * Cconj (x i))) by ring.
    rewrite mult_conj. unfold Re, RtoC, Cmult. cbn [fst snd]. pose proof (nrm2_nonneg (x i)). nra.
Qed.
Lemma scalar_eigh n t : is_eigh n (scalar t) (fun _ => t).
Proof.
  split; [intros; lra|]. exists (fun i q => delta i q). split.
  - intros p q Hp Hq. unfold ip. rewrite (csum_ext n _ (fun i => delta i q * delta i p)).
    + rewrite (csum_delta_r n p (fun i => delta i q)) by auto. reflexivity.
    + intros i _. unfold delta. destruct (Nat.eqb i p); rewrite Cconj_RtoC; ring.
  - intros i j Hi Hj. rewrite (csum_ext n _ (fun q => RtoC t * delta q j * delta q i)).
    + rewrite (csum_delta_r n i (fun q => RtoC t * delta q j)) by auto. reflexivity.
    + intros q _. unfold delta. rewrite (Nat.eqb_sym q j), (Nat.eqb_sym q i). destruct (Nat.eqb i q), (Nat.eqb j q); rewrite Cconj_RtoC; ring.
Qed.
Definition constant_library (t : R) : linalg :=
  {| qr := fun _ _ A => (A, A); svd := fun _ _ A => {| svd_U := A; svd_S := fun _ => 0%R; svd_Vh := A |}; svdvals := fun _ _ _ _ => 0%R; eigh := fun _ _ _ => t |}.
Lemma trace_scalar n t : trace n (scalar t) = (INR n * t)%R.
Proof.
  unfold trace. rewrite (rsum_ext n _ (fun _ => t)); [apply rsum_const|]. intros i _. unfold scalar, delta. rewrite Nat.eqb_refl. unfold Re, RtoC, Cmult. cbn [fst snd]. ring.
Qed.
Theorem C45_mixed_state L n ms k t : (0 < n)%nat -> (0 < t)%R -> nth_error ms k = Some (scalar t) -> eigh_right L n (scalar t) ->
  nth_error (calc_vn_entropy_stack L n ms) k = Some (ln (INR n)).
Proof.
  intros Hn T Hk E. rewrite (stack_entry _ _ _ _ _ Hk). f_equal. pose proof (eigenvalues_unique n _ _ _ (scalar_psd n t ltac:(lra)) E (scalar_eigh n t)) as U.
  assert (NP : (0 < INR n)%R) by (apply lt_0_INR; auto).
  rewrite (entropy_of_ext n _ (fun _ => / INR n)%R).
  2:{ intros q Hq. rewrite (rsum_ext n _ _ U), U, rsum_const by auto. field. split; lra. }
  unfold entropy_of. rewrite rsum_const. unfold xlogy. destruct (Req_EM_T (/ INR n) 0) as [Z|Z]; [apply Rinv_neq_0_compat in Z; lra|]. rewrite ln_Rinv by auto. field. lra.
Qed.
Print Assumptions C45_mixed_state.

(** The promised agreement of the single-matrix form with the stack form, and its non-negativity, fail: for
    the 1 x 1 matrix (2) the single form returns -ln 2 and the stack form 0, whatever the library; the single
    form is not invariant under rescaling either. *)
Theorem C45_single_refuted : exists A, psd 1 A /\ (0 < trace 1 A)%R /\ (exists L, eigh_right L 1 A) /\ forall L, eigh_right L 1 A ->
  (calc_vn_entropy L 1 A < 0)%R /\ nth_error (calc_vn_entropy_stack L 1 [A]) 0 <> Some (calc_vn_entropy L 1 A) /\
  forall B, (forall i j, B i j = RtoC (/ 2) * A i j) -> eigh_right L 1 B -> calc_vn_entropy L 1 B <> calc_vn_entropy L 1 A.
Proof.
  pose proof (scalar_psd 1 2 ltac:(lra)) as P.
  assert (T : trace 1 (scalar 2) = 2%R) by (rewrite trace_scalar; cbn; lra). assert (L2 : (0 < ln 2)%R) by (rewrite <- ln_1; apply ln_increasing; lra).
  assert (M : forall L, eigh_right L 1 (scalar 2) -> nth_error (calc_vn_entropy_stack L 1 [scalar 2]) 0 = Some 0%R).
  { intros L E. rewrite (C45_mixed_state L 1 [scalar 2] 0 2) by (auto; lra). cbn. rewrite ln_1. reflexivity. }
  exists (scalar 2). split; [exact P|]. split; [lra|]. split; [exists (constant_library 2); exact (scalar_eigh 1 2)|]. intros L E.
  destruct (C45_single L 1 [scalar 2] 0 (scalar 2) eq_refl E P ltac:(lra)) as [S [HS [HV _]]]. rewrite (M L E) in HS. injection HS as <-. rewrite T in HV.
  split; [lra|]. split; [rewrite M by auto; intros Q; injection Q; lra|]. intros B HB EB.
  assert (PB : psd 1 B). { pose proof (psd_scale 1 (scalar 2) (/ 2) ltac:(lra) P) as [PH PP]. split; [intros i j Hi Hj; rewrite !HB; apply PH; auto|]. intros x. specialize (PP x). erewrite csum_ext; [exact PP|]. intros i _. apply csum_ext. intros j _. rewrite HB. reflexivity. }
  assert (TB : trace 1 B = 1%R). { unfold trace. cbn. rewrite HB. unfold scalar, delta, RtoC, Cmult, Re. cbn. field. }
  destruct (C45_single L 1 [B] 0 B eq_refl EB PB ltac:(lra)) as [S [HS [HVB _]]].
  destruct (C45_stack_bounds L 1 [B] 0 B eq_refl EB PB ltac:(lra)) as [S' [HS' [B0 B1]]]. rewrite HS in HS'. injection HS' as <-.
  rewrite HVB, TB, ln_1, HV. lra.
Qed.
Print Assumptions C45_single_refuted.
Example C45_case : psd 3 (scalar (1 / 3)) /\ trace 3 (scalar (1 / 3)) = 1%R /\ eigh_right (constant_library (1 / 3)) 3 (scalar (1 / 3)).
Proof. split; [apply scalar_psd; lra|]. split; [rewrite trace_scalar; cbn; lra|exact (scalar_eigh 3 (1 / 3))]. Qed.
