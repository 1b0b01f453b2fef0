(** Proofs about orthogonalize_probes, tidy_probes, calc_mode_power_fractions. *)
From Verif Require Import Base FinSum Fourier Matrix Model_Prop Model_Analysis Spec_Analysis Proofs_SVD.
From Coquelicot Require Import Complex.
Local Open Scope C_scope.

Lemma flat_at W x i j : (j < W)%nat -> flat W x (i * W + j)%nat = x i j.
Proof.
  intros H. unfold flat. rewrite Nat.div_add_l by lia. rewrite (Nat.div_small j W), Nat.add_0_r by auto.
  rewrite Nat.add_comm, Nat.mod_add, Nat.mod_small by lia. reflexivity.
Qed.
Lemma pix_lt H W i j : (i < H)%nat -> (j < W)%nat -> (i * W + j < H * W)%nat.
Proof. intros. nia. Qed.
Lemma flat_unflat H W v p : (p < H * W)%nat -> flat W (unflat W v) p = v p.
Proof. intros Hp. unfold flat, unflat. f_equal. rewrite (Nat.mul_comm _ W). symmetry. apply Nat.div_mod. lia. Qed.
Lemma dot_flat H W x y : dot H W x y = ip (H * W) (flat W x) (flat W y).
Proof.
  unfold dot, ip. rewrite csum_block. apply csum_ext. intros i _. apply csum_ext. intros j Hj. rewrite !flat_at; auto.
Qed.
Lemma power_flat H W x : power H W x = nsq (H * W) (flat W x).
Proof. unfold power, nsq. rewrite rsum_block. apply rsum_ext. intros i _. apply rsum_ext. intros j Hj. rewrite flat_at; auto. Qed.
Lemma isum_abs2 H W x : isum H W (abs2 x) = power H W x.
Proof. unfold isum, power, abs2. apply rsum_ext. intros i _. apply rsum_ext. intros j _. symmetry. apply nrm2_Cmod. Qed.
Lemma coherence_flat W n modes i j i' j' : (j < W)%nat -> (j' < W)%nat ->
  coherence n modes i j i' j' = csum n (fun k => Cconj (flat_stack W modes k (i * W + j)%nat) * flat_stack W modes k (i' * W + j')%nat).
Proof. intros H H'. apply csum_ext. intros k _. unfold flat_stack. rewrite !flat_at; auto. Qed.
Lemma same_coherence_flat H W n modes n' modes' : same_coherence H W n modes n' modes' -> forall p q, (p < H * W)%nat -> (q < H * W)%nat ->
  csum n (fun k => Cconj (flat_stack W modes k p) * flat_stack W modes k q) = csum n' (fun k => Cconj (flat_stack W modes' k p) * flat_stack W modes' k q).
Proof.
  intros S p q Hp Hq. assert (W <> 0)%nat by (intros ->; lia).
  pose proof (Nat.mod_upper_bound p W ltac:(auto)). pose proof (Nat.mod_upper_bound q W ltac:(auto)).
  apply (S (p / W)%nat (p mod W) (q / W)%nat (q mod W)); auto; apply Nat.div_lt_upper_bound; lia.
Qed.

(** The decomposition used by orthogonalize_probes is one of the light field. *)
Lemma ortho_gsvd L l H W probes weights : ortho_right L l H W probes weights ->
  gsvd (fst (field l probes weights)) (H * W) (ortho_count l (H * W) weights) (flat_stack W (snd (field l probes weights))) (ortho_svd L l H W probes weights).
Proof.
  destruct weights as [[m Wt]|]; cbn [ortho_right field ortho_count ortho_svd fst snd].
  - intros R. exact (product_gsvd _ _ _ _ _ _ R).
  - intros R. apply is_svd_gsvd. exact R.
Qed.

(** Modes obtained from a decomposition. *)
Definition modes_of (W : nat) (r : svd_result) : nat -> img := fun a => unflat W (fun p => RtoC (svd_S r a) * svd_Vh r a p).
Lemma modes_coherence H W n k modes r : gsvd n (H * W) k (flat_stack W modes) r ->
  same_coherence H W k (modes_of W r) n modes.
Proof.
  intros G i j i' j' Hi Hj Hi' Hj'. rewrite (coherence_flat W n) by auto.
  rewrite (gsvd_coherence n (H * W) k _ r) by (auto using pix_lt). reflexivity.
Qed.
Lemma modes_dot H W n k A r a b : gsvd n (H * W) k A r -> (a < k)%nat -> (b < k)%nat ->
  dot H W (modes_of W r a) (modes_of W r b) = RtoC (svd_S r a * svd_S r b) * delta a b.
Proof.
  intros G Ha Hb. rewrite dot_flat. rewrite <- (gsvd_dot n (H * W) k A r a b) by auto.
  apply csum_ext. intros p Hp. unfold modes_of. rewrite !(flat_unflat H W) by auto. reflexivity.
Qed.
Lemma modes_power H W n k A r a : gsvd n (H * W) k A r -> (a < k)%nat -> power H W (modes_of W r a) = (svd_S r a ^ 2)%R.
Proof.
  intros G Ha. rewrite power_flat. rewrite <- (gsvd_row_power n (H * W) k A r a) by auto.
  apply rsum_ext. intros p Hp. unfold modes_of. rewrite !(flat_unflat H W) by auto. reflexivity.
Qed.
Lemma modes_ordered H W n k A r : gsvd n (H * W) k A r -> orthogonal_decreasing H W k (modes_of W r).
Proof.
  intros G. split.
  - intros a b Ha Hb N. rewrite (modes_dot H W n k A r) by auto. unfold delta.
    replace (Nat.eqb a b) with false by (symmetry; apply Nat.eqb_neq; auto). ring.
  - intros a b Hab Hb. rewrite !(modes_power H W n k A r) by (auto; lia).
    destruct G as [_ [_ [S0 [SD _]]]]. specialize (SD a b Hab Hb). specialize (S0 b Hb). nra.
Qed.
(** Power is the trace of the coherence. *)
Lemma total_power_coherence H W n modes : RtoC (total_power H W n modes) = csum H (fun i => csum W (fun j => coherence n modes i j i j)).
Proof.
  unfold total_power, power. rewrite <- csum_RtoC.
  rewrite (csum_ext n _ (fun k => csum H (fun i => csum W (fun j => Cconj (modes k i j) * modes k i j)))).
  2:{ intros k _. rewrite <- csum_RtoC. apply csum_ext. intros i _. rewrite <- csum_RtoC. apply csum_ext. intros j _. rewrite <- mult_conj. ring. }
  rewrite csum_swap. apply csum_ext. intros i _. rewrite csum_swap. reflexivity.
Qed.
Lemma same_coherence_power H W n modes n' modes' : same_coherence H W n modes n' modes' -> total_power H W n modes = total_power H W n' modes'.
Proof.
  intros S. apply RtoC_inj. rewrite !total_power_coherence. apply csum_ext. intros i Hi. apply csum_ext. intros j Hj. apply S; auto.
Qed.
Lemma same_coherence_sym H W n modes n' modes' : same_coherence H W n modes n' modes' -> same_coherence H W n' modes' n modes.
Proof. intros S i j i' j' ? ? ? ?. symmetry. apply S; auto. Qed.
Lemma same_coherence_trans H W n m n' m' n'' m'' : same_coherence H W n m n' m' -> same_coherence H W n' m' n'' m'' -> same_coherence H W n m n'' m''.
Proof. intros S S' i j i' j' ? ? ? ?. rewrite S by auto. apply S'; auto. Qed.
(** Recombining modes by a matrix with orthonormal columns keeps the coherence. *)
Lemma recombine_coherence H W n k U a b : ortho_cols n k U ->
  (forall r i j, (r < n)%nat -> (i < H)%nat -> (j < W)%nat -> b r i j = csum k (fun q => U r q * a q i j)) ->
  same_coherence H W n b k a.
Proof.
  intros HU E i j i' j' Hi Hj Hi' Hj'. unfold coherence.
  etransitivity; [|exact (iso_ip n k U (fun q => a q i j) (fun q => a q i' j') HU)].
  apply ip_ext; intros r Hr; rewrite E by auto; apply csum_ext; intros; ring.
Qed.

(** ---- tidy_probes ---- *)
Lemma all_nonzero_iff k f : all_nonzero k f = true <-> (forall c, (c < k)%nat -> f c <> 0%R).
Proof.
  induction k; cbn [all_nonzero]; split; intros A; try (intros; lia); auto.
  - apply andb_prop in A. destruct A as [A B]. intros c Hc. destruct (Nat.eq_dec c k) as [-> | ].
    + destruct (Req_EM_T (f k) 0); congruence.
    + apply IHk; auto; lia.
  - apply andb_true_intro. split.
    + apply IHk. intros c Hc. apply A. lia.
    + destruct (Req_EM_T (f k) 0) as [E|]; auto. exfalso. apply (A k); auto.
Qed.
Section Tidy.
Context (L : linalg) (N m l H W : nat) (weights : nat -> mat) (probe : nat -> img) (HN : (0 < N)%nat) (Hm : (0 < m)%nat).
Definition tw : option (nat * mat) := Some (N * m, all_weights m weights)%nat.
Definition tk : nat := ortho_count l (H * W) tw.
Definition tr : svd_result := ortho_svd L l H W probe tw.
Definition tsq : R := sqrt (INR N).
Definition tp : nat -> img := fun a i j => modes_of W tr a i j / RtoC tsq.
Definition tnw (s : nat) : mat := fun r c => svd_U tr (s * m + r)%nat c * RtoC tsq.
Definition tsi (c : nat) : R := sqrt (isum H W (abs2 (tp c))).
Definition tmat (s : nat) : mat := fun r c => tnw s r c * RtoC (tsi c).
Definition tsv (s : nat) : svd_result := svd L m tk (tmat s).
Lemma tidy_unfold : tidy_probes L N m l H W weights probe =
  {| t_modes := tk; t_probe := tp; t_rows := Nat.min m tk;
     t_weights := if all_nonzero tk tsi then Some (fun s a c => RtoC (svd_S (tsv s) a) * (svd_Vh (tsv s) a c / RtoC (tsi c))) else None |}.
Proof. reflexivity. Qed.
Lemma tsq_pos : (0 < tsq)%R.
Proof. apply sqrt_lt_R0, lt_0_INR. auto. Qed.
Lemma tsq_ne : RtoC tsq <> 0.
Proof. intros E. apply (f_equal fst) in E. cbn in E. pose proof tsq_pos. lra. Qed.
Lemma tidy_gsvd : ortho_right L l H W probe tw -> gsvd (N * m) (H * W) tk (flat_stack W (fun k i j => csum l (fun q => all_weights m weights k q * probe q i j))) tr.
Proof. apply (ortho_gsvd L l H W probe tw). Qed.
Lemma power_scal c x : power H W (fun i j => c * x i j) = (nrm2 c * power H W x)%R.
Proof. unfold power. rewrite rsum_scal. apply rsum_ext. intros i _. rewrite rsum_scal. apply rsum_ext. intros j _. apply nrm2_mult. Qed.
Lemma power_ext x y : (forall i j, (i < H)%nat -> (j < W)%nat -> x i j = y i j) -> power H W x = power H W y.
Proof. intros E. apply rsum_ext. intros i Hi. apply rsum_ext. intros j Hj. rewrite E; auto. Qed.
Lemma tp_power a : ortho_right L l H W probe tw -> (a < tk)%nat -> power H W (tp a) = ((svd_S tr a / tsq) ^ 2)%R.
Proof.
  intros R Ha. rewrite (power_ext _ (fun i j => RtoC (/ tsq) * modes_of W tr a i j)).
  - rewrite power_scal, (modes_power H W _ tk _ tr a (tidy_gsvd R) Ha), nrm2_RtoC. field. pose proof tsq_pos. lra.
  - intros i j _ _. unfold tp. rewrite RtoC_inv by (pose proof tsq_pos; lra). unfold Cdiv. ring.
Qed.
Lemma tsi_eq a : ortho_right L l H W probe tw -> (a < tk)%nat -> tsi a = (svd_S tr a / tsq)%R.
Proof.
  intros R Ha. unfold tsi. rewrite isum_abs2, tp_power by auto. replace ((svd_S tr a / tsq) ^ 2)%R with (Rsqr (svd_S tr a / tsq)) by (unfold Rsqr; ring).
  apply sqrt_Rsqr. destruct (tidy_gsvd R) as [_ [_ [S0 _]]]. specialize (S0 a Ha). pose proof tsq_pos.
  apply Rmult_le_pos; auto. left. apply Rinv_0_lt_compat. auto.
Qed.
(** The modes of shot s, expressed in the new basis. *)
Lemma shot_field s r i j : ortho_right L l H W probe tw -> (s < N)%nat -> (r < m)%nat -> (i < H)%nat -> (j < W)%nat ->
  csum l (fun q => weights s r q * probe q i j) = csum tk (fun c => tnw s r c * tp c i j).
Proof.
  intros R Hs Hr Hi Hj. destruct (tidy_gsvd R) as [_ [_ [_ [_ E]]]].
  assert (B : (s * m + r < N * m)%nat) by nia.
  specialize (E (s * m + r)%nat (i * W + j)%nat B (pix_lt H W i j Hi Hj)).
  unfold flat_stack in E. rewrite flat_at in E by auto.
  transitivity (csum l (fun q => all_weights m weights (s * m + r)%nat q * probe q i j)).
  - apply csum_ext. intros q _. unfold all_weights. rewrite Nat.div_add_l by lia. rewrite (Nat.div_small r m), Nat.add_0_r by auto.
    rewrite (Nat.add_comm (s * m) r), Nat.mod_add, Nat.mod_small by lia. reflexivity.
  - rewrite E. apply csum_ext. intros c _. unfold tnw, tp, modes_of, unflat. field. apply tsq_ne.
Qed.
Lemma shot_recombined s r i j : ortho_right L l H W probe tw -> svd_right L m tk (tmat s) ->
  (forall c, (c < tk)%nat -> tsi c <> 0%R) -> (s < N)%nat -> (r < m)%nat -> (i < H)%nat -> (j < W)%nat ->
  csum l (fun q => weights s r q * probe q i j) =
  csum (Nat.min m tk) (fun a => svd_U (tsv s) r a * csum tk (fun c => RtoC (svd_S (tsv s) a) * (svd_Vh (tsv s) a c / RtoC (tsi c)) * tp c i j)).
Proof.
  intros R R2 NZ Hs Hr Hi Hj. rewrite shot_field by auto. destruct R2 as [_ [_ [_ [_ E]]]]. fold (tsv s) in E.
  rewrite (csum_ext tk _ (fun c => csum (Nat.min m tk) (fun a => svd_U (tsv s) r a * (RtoC (svd_S (tsv s) a) * (svd_Vh (tsv s) a c / RtoC (tsi c)) * tp c i j)))).
  - rewrite csum_swap. apply csum_ext. intros a _. symmetry. apply csum_scal.
  - intros c Hc. specialize (E r c Hr Hc). unfold tmat in E at 1.
    assert (Z : RtoC (tsi c) <> 0) by (intros Q; apply (f_equal fst) in Q; exact (NZ c Hc Q)).
    replace (tnw s r c * tp c i j) with ((tnw s r c * RtoC (tsi c)) * (tp c i j / RtoC (tsi c))) by (field; auto).
    rewrite E, csum_scal_r. apply csum_ext. intros a _. field. auto.
Qed.
(** The new modes of shot s as rows of a decomposition: unit rows times singular values. *)
Lemma tp_dot a b : ortho_right L l H W probe tw -> (a < tk)%nat -> (b < tk)%nat ->
  dot H W (tp a) (tp b) = RtoC (tsi a * tsi b) * delta a b.
Proof.
  intros R Ha Hb. transitivity (RtoC (/ tsq * / tsq) * dot H W (modes_of W tr a) (modes_of W tr b)).
  - unfold dot. rewrite csum_scal. apply csum_ext. intros i _. rewrite csum_scal. apply csum_ext. intros j _. unfold tp.
    rewrite RtoC_mult, RtoC_inv by (pose proof tsq_pos; lra). unfold Cdiv. rewrite Cconj_mult.
    replace (Cconj (/ RtoC tsq)) with (/ RtoC tsq) by (rewrite <- RtoC_inv by (pose proof tsq_pos; lra); symmetry; apply Cconj_RtoC). ring.
  - rewrite (modes_dot H W _ tk _ tr a b (tidy_gsvd R)) by auto. rewrite !tsi_eq by auto. rewrite Cmult_assoc, <- RtoC_mult.
    f_equal. f_equal. field. pose proof tsq_pos. lra.
Qed.
Lemma shot_new_dot s a b : ortho_right L l H W probe tw -> svd_right L m tk (tmat s) ->
  (forall c, (c < tk)%nat -> tsi c <> 0%R) -> (a < Nat.min m tk)%nat -> (b < Nat.min m tk)%nat ->
  let new := fun a i j => csum tk (fun c => RtoC (svd_S (tsv s) a) * (svd_Vh (tsv s) a c / RtoC (tsi c)) * tp c i j) in
  dot H W (new a) (new b) = RtoC (svd_S (tsv s) a * svd_S (tsv s) b) * delta a b.
Proof.
  intros R R2 NZ Ha Hb new.
  assert (Z : forall c, (c < tk)%nat -> RtoC (tsi c) <> 0) by (intros c Hc Q; apply (f_equal fst) in Q; exact (NZ c Hc Q)).
  destruct (R2) as [_ [V _]]. fold (tsv s) in V.
  set (co := fun a c => RtoC (svd_S (tsv s) a) * (svd_Vh (tsv s) a c / RtoC (tsi c))).
  transitivity (csum tk (fun c => Cconj (co a c) * csum tk (fun d => co b d * dot H W (tp c) (tp d)))).
  - rewrite dot_flat. rewrite (ip_ext _ _ (fun p => csum tk (fun c => co a c * flat W (tp c) p)) _ (fun p => csum tk (fun c => co b c * flat W (tp c) p))) by reflexivity.
    rewrite (ip_csum_l _ tk _ (co a) (fun c => flat W (tp c))). apply csum_ext. intros c _.
    rewrite (ip_csum_r _ tk _ (co b) (fun c => flat W (tp c))). f_equal. apply csum_ext. intros d _. rewrite dot_flat. reflexivity.
  - rewrite (csum_ext tk _ (fun c => RtoC (svd_S (tsv s) a * svd_S (tsv s) b) * (svd_Vh (tsv s) b c * Cconj (svd_Vh (tsv s) a c)))).
    + rewrite <- csum_scal, V by auto. rewrite delta_sym. reflexivity.
    + intros c Hc. rewrite (csum_ext tk _ (fun d => co b d * RtoC (tsi c * tsi d) * delta d c)).
      2:{ intros d Hd. rewrite tp_dot by auto. rewrite (delta_sym d c). ring. }
      rewrite (csum_delta_r tk c (fun d => co b d * RtoC (tsi c * tsi d))) by auto. unfold co.
      unfold Cdiv. rewrite !Cconj_mult, Cconj_RtoC.
      replace (Cconj (/ RtoC (tsi c))) with (/ RtoC (tsi c)) by (rewrite <- RtoC_inv by (apply NZ; auto); symmetry; apply Cconj_RtoC).
      rewrite !RtoC_mult. field. auto.
Qed.
End Tidy.
