(** Proofs about calc_rms_error, calc_fidelity, calc_generalized_rms_error. *)
From Verif Require Import Base FinSum Fourier Matrix Model_Prop Model_Analysis Spec_Analysis Proofs_SVD Proofs_SVDExists Proofs_Ortho Proofs_Standard.
From Coquelicot Require Import Complex.
Local Open Scope C_scope.

(** ---- projections of a family of vectors on orthonormal coefficients ---- *)
Definition proj (m : nat) (V : mat) (x : nat -> vec) : nat -> vec := fun a p => csum m (fun q => V q a * x q p).
Definition cmat (V : mat) : mat := fun q a => Cconj (V q a).
Lemma ortho_cmat m k V : ortho_cols m k V -> ortho_cols m k (cmat V).
Proof.
  intros O a b Ha Hb. rewrite <- (Cconj_delta a b), <- (O a b Ha Hb). unfold ip, cmat. rewrite csum_conj. apply csum_ext. intros. rewrite Cconj_mult. reflexivity.
Qed.
Lemma proj_ip m V x a p : proj m V x a p = ip m (fun q => cmat V q a) (fun q => x q p).
Proof. unfold proj, ip, cmat. apply csum_ext. intros. rewrite Cconj_invol. reflexivity. Qed.
Lemma proj_point m k V x p : ortho_cols m k V -> (nsq k (fun a => proj m V x a p) <= nsq m (fun q => x q p))%R.
Proof.
  intros O. rewrite (nsq_ext k _ (fun a => ip m (fun q => cmat V q a) (fun q => x q p))) by (intros; apply proj_ip).
  apply bessel. apply ortho_cmat; auto.
Qed.
Lemma power_by_pixel k N (y : nat -> vec) : power k N y = rsum N (fun p => nsq k (fun a => y a p)).
Proof. unfold power, nsq. apply rsum_swap. Qed.
Lemma proj_power m k N V x : ortho_cols m k V -> (power k N (proj m V x) <= power m N x)%R.
Proof. intros O. rewrite !power_by_pixel. apply rsum_le. intros. apply proj_point; auto. Qed.
Lemma rsum_eq_le n f g : (forall i, (i < n)%nat -> (f i <= g i)%R) -> rsum n f = rsum n g -> forall i, (i < n)%nat -> f i = g i.
Proof.
  intros L E i Hi. assert (Z : rsum n (fun i => g i - f i)%R = 0%R).
  { rewrite (rsum_ext n _ (fun i => g i + (-1) * f i)%R) by (intros; ring). rewrite rsum_add, <- rsum_scal. lra. }
  pose proof (proj1 (rsum_zero_iff n (fun i => g i - f i)%R ltac:(intros j Hj; specialize (L j Hj); lra)) Z i Hi) as Q. cbn beta in Q. lra.
Qed.
Lemma proj_coherence m k N V x : ortho_cols m k V -> power k N (proj m V x) = power m N x ->
  forall p p', (p < N)%nat -> (p' < N)%nat ->
  csum m (fun q => Cconj (x q p) * x q p') = csum k (fun a => Cconj (proj m V x a p) * proj m V x a p').
Proof.
  intros O E p p' Hp Hp'. rewrite !power_by_pixel in E.
  pose proof (rsum_eq_le N _ _ (fun i _ => proj_point m k V x i O) E) as EP.
  pose proof (ortho_cmat m k V O) as OC.
  assert (R : forall p, (p < N)%nat -> forall q, (q < m)%nat -> x q p = csum k (fun a => proj m V x a p * cmat V q a)).
  { intros t Ht q Hq. pose proof (bessel_eq m k (cmat V) (fun q => x q t) OC) as B.
    rewrite (nsq_ext k (fun a => ip m (fun i => cmat V i a) (fun q => x q t)) (fun a => proj m V x a t)) in B by (intros; symmetry; apply proj_ip).
    rewrite (EP t Ht), Rminus_eq_0 in B. pose proof (nsq_zero _ _ B q Hq) as Z. cbn beta in Z.
    rewrite (csum_ext k _ (fun a => ip m (fun i => cmat V i a) (fun q => x q t) * cmat V q a)) by (intros; rewrite proj_ip; reflexivity).
    rewrite <- (Cplus_0_l (csum k _)), <- Z. ring. }
  change (csum m (fun q => Cconj (x q p) * x q p')) with (ip m (fun q => x q p) (fun q => x q p')).
  rewrite (ip_ext m _ (fun q => csum k (fun a => proj m V x a p * cmat V q a)) _ (fun q => csum k (fun a => proj m V x a p' * cmat V q a))) by (intros; apply R; auto).
  rewrite (iso_ip m k (cmat V)) by auto. reflexivity.
Qed.

(** ---- the overlap matrix ---- *)
Definition ov (N : nat) (x y : nat -> vec) : mat := fun b a => ip N (y b) (x a).
Lemma overlap_ov H W f1 f2 b a : overlap_matrix H W f1 f2 b a = ov (H * W) (flat_stack W f1) (flat_stack W f2) b a.
Proof.
  unfold overlap_matrix, ov, flat_stack. rewrite <- dot_flat. unfold icsum, dot. apply csum_ext. intros. apply csum_ext. intros. ring.
Qed.
Lemma total_power_flat H W n f : total_power H W n f = power n (H * W) (flat_stack W f).
Proof. unfold total_power. unfold power at 2. apply rsum_ext. intros k _. apply power_flat. Qed.
Lemma power_nonneg H W x : (0 <= power H W x)%R.
Proof. apply rsum_nonneg. intros. apply rsum_nonneg. intros. apply nrm2_nonneg. Qed.

Section Nuclear.
Variables (N l1 l2 k : nat) (x y : nat -> vec) (r : svd_result).
Hypothesis G : gsvd l2 l1 k (ov N x y) r.
Let px := proj l1 (herm (svd_Vh r)) x.
Let py := proj l2 (svd_U r) y.
Lemma nuc_dot : dot k N py px = RtoC (rsum k (svd_S r)).
Proof using G.
  rewrite <- (nuclear_trace _ _ _ _ _ G). unfold dot. apply csum_ext. intros a _.
  change (ip N (py a) (px a) = ip l2 (fun p => svd_U r p a) (fun p => csum l1 (fun q => ov N x y p q * herm (svd_Vh r) q a))).
  unfold py, proj. rewrite (ip_csum_l N l2 (px a) (fun b => svd_U r b a) y). apply csum_ext. intros b _. f_equal.
  unfold px, proj. rewrite (ip_csum_r N l1 (y b) (fun q => herm (svd_Vh r) q a) x). apply csum_ext. intros q _. unfold ov. ring.
Qed.
Lemma nuc_px : (power k N px <= power l1 N x)%R.
Proof using G. destruct G as [_ [V _]]. apply ortho_rows_herm in V. apply proj_power; auto. Qed.
Lemma nuc_py : (power k N py <= power l2 N y)%R.
Proof using G. destruct G as [U _]. apply proj_power; auto. Qed.
Lemma nuc_nonneg : (0 <= rsum k (svd_S r))%R.
Proof using G. destruct G as [_ [_ [S0 _]]]. apply rsum_nonneg. auto. Qed.
Lemma nuc_bound : ((rsum k (svd_S r)) ^ 2 <= power l1 N x * power l2 N y)%R.
Proof using G.
  pose proof (cauchy_schwarz (k * N) (flat N py) (flat N px)) as C. rewrite <- dot_flat, <- !power_flat, nuc_dot, nrm2_RtoC in C.
  pose proof nuc_px. pose proof nuc_py. pose proof (power_nonneg k N px). pose proof (power_nonneg k N py).
  replace (rsum k (svd_S r) ^ 2)%R with (rsum k (svd_S r) * rsum k (svd_S r))%R by ring. nra.
Qed.
Lemma nuc_gap : (power k N (fun a p => px a p - py a p)%C = power k N px + power k N py - 2 * rsum k (svd_S r))%R.
Proof using G.
  rewrite power_flat. change (flat N (fun a p => px a p - py a p)) with (fun t => flat N px t - flat N py t).
  rewrite nsq_sub, <- !power_flat, <- dot_flat. f_equal. f_equal.
  assert (E : dot k N px py = Cconj (dot k N py px)) by (rewrite !dot_flat, ip_conj; reflexivity).
  rewrite E, nuc_dot, Cconj_RtoC. reflexivity.
Qed.
Lemma nuc_mean : (2 * rsum k (svd_S r) <= power l1 N x + power l2 N y)%R.
Proof using G. pose proof nuc_gap as Q. pose proof (power_nonneg k N (fun a p => px a p - py a p)). pose proof nuc_px. pose proof nuc_py. lra. Qed.
Lemma nuc_equal : (power l1 N x + power l2 N y - 2 * rsum k (svd_S r) = 0)%R ->
  forall p p', (p < N)%nat -> (p' < N)%nat -> csum l1 (fun q => Cconj (x q p) * x q p') = csum l2 (fun q => Cconj (y q p) * y q p').
Proof using G.
  intros Z p p' Hp Hp'. pose proof nuc_gap as Q. pose proof (power_nonneg k N (fun a p => px a p - py a p)) as NN. pose proof nuc_px as X. pose proof nuc_py as Y.
  assert (EX : power k N px = power l1 N x) by lra. assert (EY : power k N py = power l2 N y) by lra.
  assert (D : power k N (fun a p => px a p - py a p) = 0%R) by lra.
  destruct G as [U [V _]]. apply ortho_rows_herm in V.
  rewrite (proj_coherence l1 k N (herm (svd_Vh r)) x V EX p p') by auto. rewrite (proj_coherence l2 k N (svd_U r) y U EY p p') by auto.
  fold px. fold py. assert (PE : forall a p, (a < k)%nat -> (p < N)%nat -> px a p = py a p).
  { intros a t Ha Ht. unfold power in D.
    assert (DA : rsum N (fun j => nrm2 (px a j - py a j)) = 0%R).
    { apply (proj1 (rsum_zero_iff k _ ltac:(intros; apply rsum_nonneg; intros; apply nrm2_nonneg)) D a Ha). }
    pose proof (proj1 (rsum_zero_iff N _ ltac:(intros; apply nrm2_nonneg)) DA t Ht) as E. cbn beta in E. apply nrm2_0 in E.
    replace (px a t) with (px a t - py a t + py a t) by ring. rewrite E. ring. }
  apply csum_ext. intros a Ha. rewrite !PE; auto.
Qed.
End Nuclear.

Lemma ortho_delta n : ortho_cols n n delta.
Proof. intros a b Ha Hb. unfold ip. rewrite (csum_ext n _ (fun i => delta a i * delta i b)) by (intros; rewrite Cconj_delta, (delta_sym i a); reflexivity). rewrite csum_delta_l by auto. reflexivity. Qed.
Lemma nuc_ge_trace n k A r : gsvd n n k A r -> (rsum n (fun i => Re (A i i)) <= rsum k (svd_S r))%R.
Proof.
  intros G. pose proof (nuclear_dual n n k A r n delta delta G (ortho_delta n) (ortho_delta n)) as D.
  rewrite Re_csum in D. eapply Rle_trans; [|exact D]. right. apply rsum_ext. intros i Hi. f_equal.
  unfold ip. rewrite (csum_ext n _ (fun p => delta i p * A p i)).
  - rewrite csum_delta_l by auto. reflexivity.
  - intros p Hp. rewrite Cconj_delta, (delta_sym p i), csum_delta_r by auto. reflexivity.
Qed.
Lemma nuc_self N l k x r : gsvd l l k (ov N x x) r -> rsum k (svd_S r) = power l N x.
Proof.
  intros G. apply Rle_antisym.
  - pose proof (nuc_mean N l l k x x r G). lra.
  - eapply Rle_trans; [|apply (nuc_ge_trace l k _ r G)]. right. unfold power. apply rsum_ext. intros i _. unfold ov. rewrite ip_self. reflexivity.
Qed.

(** ---- the nuclear norm depends on the densities only ---- *)
Lemma padded_sum k k' s s' : (forall a, padded k s a = padded k' s' a) -> rsum k s = rsum k' s'.
Proof.
  intros E. transitivity (rsum (Nat.max k k') (padded k s)).
  - rewrite rsum_padded. rewrite Nat.min_r by lia. reflexivity.
  - rewrite (rsum_ext _ _ (padded k' s')) by (intros; apply E). rewrite rsum_padded, Nat.min_r by lia. reflexivity.
Qed.
Lemma gram_density N l (x : nat -> vec) (u v : vec) :
  csum l (fun a => Cconj (ip N (x a) u) * ip N (x a) v) =
  csum N (fun p => csum N (fun p' => Cconj (u p) * v p' * csum l (fun a => Cconj (x a p') * x a p))).
Proof.
  rewrite (csum_ext l _ (fun a => csum N (fun p => csum N (fun p' => Cconj (u p) * v p' * (Cconj (x a p') * x a p))))).
  - rewrite csum_swap. apply csum_ext. intros p _. rewrite csum_swap. apply csum_ext. intros p' _. rewrite csum_scal. reflexivity.
  - intros a _. rewrite ip_conj. unfold ip. rewrite csum_scal_r. apply csum_ext. intros p _. rewrite csum_scal. apply csum_ext. intros p' _. ring.
Qed.
Lemma nuc_invariant_y N l1 l2 l2' k k' x y y' r r' : gsvd l2 l1 k (ov N x y) r -> gsvd l2' l1 k' (ov N x y') r' ->
  (forall p p', (p < N)%nat -> (p' < N)%nat -> csum l2 (fun q => Cconj (y q p) * y q p') = csum l2' (fun q => Cconj (y' q p) * y' q p')) ->
  rsum k (svd_S r) = rsum k' (svd_S r').
Proof.
  intros G G' S. apply padded_sum. apply (singular_values_unique l2 l2' l1 k k' (ov N x y) (ov N x y') r r'); auto.
  intros a a' _ _. unfold ov. rewrite !gram_density. apply csum_ext. intros p Hp. apply csum_ext. intros p' Hp'. rewrite S; auto.
Qed.
Lemma ov_herm N x y a b : herm (ov N x y) a b = ov N y x a b.
Proof. unfold herm, ov. apply ip_conj. Qed.
Lemma gsvd_ext n m k A B r : (forall i j, (i < n)%nat -> (j < m)%nat -> A i j = B i j) -> gsvd n m k A r -> gsvd n m k B r.
Proof. intros E [U [V [S0 [SD D]]]]. split; [|split; [|split; [|split]]]; auto. intros i j Hi Hj. rewrite <- E by auto. apply D; auto. Qed.
Lemma gsvd_ov_swap N l1 l2 k x y r : gsvd l2 l1 k (ov N x y) r -> gsvd l1 l2 k (ov N y x) {| svd_U := herm (svd_Vh r); svd_S := svd_S r; svd_Vh := herm (svd_U r) |}.
Proof. intros G. eapply gsvd_ext; [|apply gsvd_herm; exact G]. intros i j _ _. apply ov_herm. Qed.
Lemma nuc_invariant_x N l1 l1' l2 k k' x x' y r r' : gsvd l2 l1 k (ov N x y) r -> gsvd l2 l1' k' (ov N x' y) r' ->
  (forall p p', (p < N)%nat -> (p' < N)%nat -> csum l1 (fun q => Cconj (x q p) * x q p') = csum l1' (fun q => Cconj (x' q p) * x' q p')) ->
  rsum k (svd_S r) = rsum k' (svd_S r').
Proof.
  intros G G' S. apply gsvd_ov_swap in G, G'. apply (nuc_invariant_y N l2 l1 l1' k k' y x x' _ _ G G' S).
Qed.

(** ---- positive semidefinite matrices ---- *)
Lemma rows_of_unitary n U : ortho_cols n n U -> forall i j, (i < n)%nat -> (j < n)%nat -> csum n (fun a => U i a * Cconj (U j a)) = delta i j.
Proof.
  intros O i j Hi Hj. pose proof (complete_span n U (unit_e j) O i Hi) as E. unfold unit_e at 1 in E. rewrite E. apply csum_ext. intros a _. rewrite ip_unit by auto. ring.
Qed.
Definition form (n : nat) (A : mat) (x y : vec) : C := csum n (fun i => csum n (fun j => Cconj (x i) * A i j * y j)).
Lemma form_trace n A U : ortho_cols n n U -> csum n (fun a => form n A (fun i => U i a) (fun i => U i a)) = csum n (fun i => A i i).
Proof.
  intros O. unfold form. rewrite csum_swap. apply csum_ext. intros i Hi. rewrite csum_swap.
  rewrite (csum_ext n _ (fun j => A i j * delta j i)).
  - apply csum_delta_r; auto.
  - intros j Hj. rewrite <- (rows_of_unitary n U O j i) by auto. rewrite csum_scal. apply csum_ext. intros. ring.
Qed.
Lemma form_sub n A x y : form n A (fun i => x i - y i) (fun i => x i - y i) = form n A x x + form n A y y - form n A x y - form n A y x.
Proof.
  unfold form. rewrite <- csum_add, <- !csum_sub. apply csum_ext. intros i _. rewrite <- csum_add, <- !csum_sub. apply csum_ext. intros j _. rewrite Cconj_minus. ring.
Qed.
Lemma form_conj n A x y : (forall i j, (i < n)%nat -> (j < n)%nat -> A i j = Cconj (A j i)) -> form n A y x = Cconj (form n A x y).
Proof.
  intros HA. unfold form. rewrite csum_conj, csum_swap. 
  rewrite (csum_ext n (fun i => Cconj _) (fun i => csum n (fun j => Cconj (Cconj (x i) * A i j * y j)))) by (intros; apply csum_conj).
  apply csum_ext. intros i Hi. apply csum_ext. intros j Hj. rewrite !Cconj_mult, Cconj_invol, <- (HA j i) by auto. ring.
Qed.
Lemma nuc_psd n A r : psd n A -> gsvd n n n A r -> rsum n (svd_S r) = trace n A.
Proof.
  intros [HA PA] G. apply Rle_antisym; [|apply (nuc_ge_trace n n A r G)].
  pose proof (nuclear_trace n n n A r G) as T. apply (f_equal Re) in T. change (Re (RtoC (rsum n (svd_S r)))) with (rsum n (svd_S r)) in T. rewrite <- T.
  destruct G as [U [V _]]. apply ortho_rows_herm in V. set (Vm := herm (svd_Vh r)) in *. set (Um := svd_U r) in *.
  rewrite Re_csum.
  assert (E1 : trace n A = Re (csum n (fun a => form n A (fun i => Um i a) (fun i => Um i a)))) by (rewrite form_trace, Re_csum by auto; reflexivity).
  assert (E2 : trace n A = Re (csum n (fun a => form n A (fun i => Vm i a) (fun i => Vm i a)))) by (rewrite form_trace, Re_csum by auto; reflexivity).
  rewrite Re_csum in E1, E2.
  assert (L : (rsum n (fun a => 2 * Re (form n A (fun i => Um i a) (fun i => Vm i a))) <= rsum n (fun a => Re (form n A (fun i => Um i a) (fun i => Um i a)) + Re (form n A (fun i => Vm i a) (fun i => Vm i a))))%R).
  { apply rsum_le. intros a _. pose proof (PA (fun i => Um i a - Vm i a)) as Q. change (0 <= Re (form n A (fun i => Um i a - Vm i a)%C (fun i => Um i a - Vm i a)%C))%R in Q. rewrite (form_sub n A (fun i => Um i a) (fun i => Vm i a)) in Q.
    rewrite (form_conj n A (fun i => Um i a) (fun i => Vm i a) HA) in Q. set (z := form n A (fun i => Um i a) (fun i => Vm i a)) in *.
    unfold Re, Cminus, Cplus, Copp, Cconj in *. cbn [fst snd] in *. lra. }
  rewrite rsum_add, <- E1, <- E2, <- rsum_scal in L.
  assert (E3 : rsum n (fun i => Re (ip n (fun p => Um p i) (fun p => csum n (fun q => A p q * Vm q i)%C))) = rsum n (fun a => Re (form n A (fun i => Um i a) (fun i => Vm i a)))).
  { apply rsum_ext. intros a _. f_equal. unfold ip, form. apply csum_ext. intros i _. rewrite csum_scal. apply csum_ext. intros; ring. }
  rewrite E3. lra.
Qed.
(** Uhlmann's formula. *)
Lemma uhlmann N l1 l2 k x y r R T : gsvd l2 l1 k (ov N x y) r ->
  psd N R -> psd N T ->
  (forall p q, (p < N)%nat -> (q < N)%nat -> csum N (fun a => R p a * R a q) = csum l1 (fun a => x a p * Cconj (x a q))) ->
  (forall p q, (p < N)%nat -> (q < N)%nat -> csum N (fun a => T p a * T a q) = csum N (fun a => R p a * csum N (fun b => csum l2 (fun c => y c a * Cconj (y c b)) * R b q))) ->
  rsum k (svd_S r) = trace N T.
Proof.
  intros G [HR _] PT R2 T2. destruct (PT) as [HT _].
  destruct (svd_exists l2 N (ov N (fun a p => R p a) y)) as [r' G']. apply is_svd_gsvd in G'.
  rewrite (nuc_invariant_x N l1 N l2 k (Nat.min l2 N) x (fun a p => R p a) y r r' G G').
  2:{ intros p p' Hp Hp'. rewrite (csum_ext l1 _ (fun a => x a p' * Cconj (x a p))) by (intros; ring). rewrite <- R2 by auto. apply csum_ext. intros a Ha. rewrite <- (HR a p) by auto. ring. }
  destruct (svd_exists N N T) as [t GT]. pose proof (proj1 (is_svd_gsvd N N T t) GT) as GT'. rewrite Nat.min_id in GT'. clear GT; rename GT' into GT. rewrite <- (nuc_psd N T t PT GT).
  apply padded_sum. apply (singular_values_unique l2 N N (Nat.min l2 N) N _ _ _ _ G' GT).
  intros p q Hp Hq. unfold ov. rewrite gram_density.
  rewrite (csum_ext N (fun i => Cconj (T i p) * T i q) (fun a => T p a * T a q)) by (intros; rewrite <- HT by auto; reflexivity).
  rewrite T2 by auto. apply csum_ext. intros a Ha. rewrite csum_scal. apply csum_ext. intros b Hb. rewrite <- (HR p a) by auto.
  rewrite (csum_ext l2 (fun c => y c a * Cconj (y c b)) (fun c => Cconj (y c b) * y c a)) by (intros; ring). ring.
Qed.

(** ---- calc_rms_error ---- *)
Lemma overlap_ip H W f g : overlap H W f g = ip (H * W) (flat W g) (flat W f).
Proof. rewrite <- dot_flat. unfold overlap, dot. apply csum_ext. intros. apply csum_ext. intros. ring. Qed.
Lemma power_diff H W f g c : Cmod c = 1%R ->
  power H W (fun i j => f i j - c * g i j) = (power H W f + power H W g - 2 * Re (Cconj c * overlap H W f g)%C)%R.
Proof.
  intros U. rewrite !power_flat. change (flat W (fun i j => f i j - c * g i j)) with (fun p => flat W f p - c * flat W g p).
  rewrite nsq_sub, nsq_scal, ip_scal_r, nrm2_Cmod, U.
  replace (Re (Cconj c * overlap H W f g)) with (Re (c * ip (H * W) (flat W f) (flat W g))).
  - ring.
  - rewrite overlap_ip, <- (ip_conj (H * W) (flat W f) (flat W g)). set (z := ip _ _ _). unfold Re, Cmult, Cconj. cbn [fst snd]. ring.
Qed.
Lemma npos H W : (0 < H)%nat -> (0 < W)%nat -> (0 < INR (H * W))%R.
Proof. intros. apply lt_0_INR. nia. Qed.
Lemma mean2_abs2 H W x : mean2 H W (abs2 x) = (power H W x / INR (H * W))%R.
Proof. unfold mean2. rewrite isum_abs2. reflexivity. Qed.
Definition rms_gap (H W : nat) (f g : img) : R := (power H W f + power H W g - 2 * Cmod (overlap H W f g))%R.
Lemma gamma_unit H W f g al : Cmod (rms_gamma H W f g al) = 1%R.
Proof. unfold rms_gamma. destruct al; [apply Cmod_cis|]. rewrite Cmod_R. apply Rabs_R1. Qed.
Lemma gamma_best H W f g : Cconj (rms_gamma H W f g true) * overlap H W f g = RtoC (Cmod (overlap H W f g)).
Proof. unfold rms_gamma. rewrite cis_conj. change (icsum H W (fun i j => f i j * Cconj (g i j))) with (overlap H W f g). rewrite Cmult_comm. apply angle_cancel. Qed.
Lemma rms_value H W f g : calc_rms_error H W f g true false = sqrt (rms_gap H W f g / INR (H * W)).
Proof.
  unfold calc_rms_error. rewrite Rmult_1_l, mean2_abs2. rewrite power_diff by apply gamma_unit. rewrite gamma_best. reflexivity.
Qed.
Lemma rms_is_distance H W f g al : calc_rms_error H W f g al false = rms_distance H W f (fun i j => rms_gamma H W f g al * g i j).
Proof. unfold calc_rms_error, rms_distance. rewrite Rmult_1_l, mean2_abs2. reflexivity. Qed.
Lemma rms_min H W f g c : (0 < H)%nat -> (0 < W)%nat -> unit_modulus c -> (calc_rms_error H W f g true false <= rms_distance H W f (fun i j => (c * g i j)%C))%R.
Proof.
  intros PH PW U. rewrite rms_value. unfold rms_distance. apply sqrt_le_1_alt. rewrite power_diff by exact U.
  apply Rmult_le_compat_r; [left; apply Rinv_0_lt_compat, npos; auto|]. unfold rms_gap.
  pose proof (Re_le_mod (Cconj c * overlap H W f g)) as Q. rewrite Cmod_mult in Q.
  replace (Cmod (Cconj c)) with 1%R in Q; [lra|]. rewrite Cmod_nrm2, nrm2_conj, <- Cmod_nrm2. symmetry. exact U.
Qed.
Lemma rms_distance_nm H W x y : (0 < H)%nat -> (0 < W)%nat -> rms_distance H W x y = (nm (H * W) (fun p => flat W x p - flat W y p)%C / sqrt (INR (H * W)))%R.
Proof.
  intros PH PW. unfold rms_distance, nm. rewrite power_flat. apply sqrt_div_alt. apply npos; auto.
Qed.
Lemma rms_distance_triangle H W x y z : (0 < H)%nat -> (0 < W)%nat -> (rms_distance H W x z <= rms_distance H W x y + rms_distance H W y z)%R.
Proof.
  intros PH PW. rewrite !rms_distance_nm by auto. unfold Rdiv. rewrite <- Rmult_plus_distr_r. apply Rmult_le_compat_r.
  - left. apply Rinv_0_lt_compat, sqrt_lt_R0, npos; auto.
  - eapply Rle_trans; [|apply nm_triangle]. right. apply nm_ext. intros. ring.
Qed.
Lemma rms_distance_scal H W c x y : rms_distance H W (fun i j => c * x i j) (fun i j => c * y i j) = (Cmod c * rms_distance H W x y)%R.
Proof.
  unfold rms_distance. rewrite (power_ext H W _ (fun i j => c * (x i j - y i j))) by (intros; ring). rewrite power_scal. unfold Rdiv. rewrite Rmult_assoc, sqrt_mult_alt by apply nrm2_nonneg. reflexivity.
Qed.
Lemma rms_distance_ext H W x x' y y' : (forall i j, (i < H)%nat -> (j < W)%nat -> x i j = x' i j) -> (forall i j, (i < H)%nat -> (j < W)%nat -> y i j = y' i j) -> rms_distance H W x y = rms_distance H W x' y'.
Proof. intros E F. unfold rms_distance. rewrite (power_ext H W _ (fun i j => x' i j - y' i j)); auto. intros. rewrite E, F; auto. Qed.
Lemma power_eq0 H W x : power H W x = 0%R -> forall i j, (i < H)%nat -> (j < W)%nat -> x i j = RtoC 0.
Proof.
  intros Z i j Hi Hj. apply nrm2_0. unfold power in Z.
  assert (Z' : rsum W (fun j => nrm2 (x i j)) = 0%R) by (apply (proj1 (rsum_zero_iff H _ ltac:(intros; apply rsum_nonneg; intros; apply nrm2_nonneg)) Z i Hi)).
  apply (proj1 (rsum_zero_iff W _ ltac:(intros; apply nrm2_nonneg)) Z' j Hj).
Qed.
Lemma rms_distance_zero H W x y : (0 < H)%nat -> (0 < W)%nat -> rms_distance H W x y = 0%R <-> equal_on H W x y.
Proof.
  intros PH PW. pose proof (npos H W PH PW) as NP. unfold rms_distance. split.
  - intros Z i j Hi Hj. apply sqrt_eq_0 in Z; [|apply Rmult_le_pos; [apply power_nonneg|left; apply Rinv_0_lt_compat; auto]].
    assert (Z' : power H W (fun i j => x i j - y i j) = 0%R). { unfold Rdiv in Z. apply Rmult_integral in Z. destruct Z as [Z|Z]; auto. apply Rinv_neq_0_compat in Z; [easy|lra]. }
    pose proof (power_eq0 H W _ Z' i j Hi Hj) as Q. cbn beta in Q. replace (x i j) with (x i j - y i j + y i j) by ring. rewrite Q. ring.
  - intros E. rewrite (power_ext H W _ (fun i j => RtoC 0)) by (intros i j Hi Hj; rewrite (E i j Hi Hj); ring).
    unfold power, nrm2. cbn. rewrite rsum_zero'; [unfold Rdiv; rewrite Rmult_0_l; apply sqrt_0|]. intros. apply rsum_zero'. intros. ring.
Qed.
Lemma rms_gap_nonneg H W f g : (0 <= rms_gap H W f g)%R.
Proof. unfold rms_gap. pose proof (power_diff H W f g (rms_gamma H W f g true) (gamma_unit H W f g true)) as Q. rewrite gamma_best in Q. change (Re (RtoC (Cmod (overlap H W f g)))) with (Cmod (overlap H W f g)) in Q. pose proof (power_nonneg H W (fun i j => f i j - rms_gamma H W f g true * g i j)). lra. Qed.

(** ---- calc_fidelity ---- *)
Lemma fidelity_gsvd L l1 l2 H W f1 f2 : svdvals_right L l2 l1 (overlap_matrix H W f1 f2) ->
  exists r, gsvd l2 l1 (Nat.min l2 l1) (ov (H * W) (flat_stack W f1) (flat_stack W f2)) r /\
  calc_fidelity L l1 l2 H W f1 f2 = (rsum (Nat.min l2 l1) (svd_S r) ^ 2)%R.
Proof.
  intros [r [S E]]. exists r. split.
  - eapply gsvd_ext; [|apply (proj1 (is_svd_gsvd _ _ _ _) S)]. intros. apply overlap_ov.
  - unfold calc_fidelity. f_equal. apply rsum_ext. auto.
Qed.
Lemma grms_value L l1 l2 H W f1 f2 r : (0 < H)%nat -> (0 < W)%nat ->
  gsvd l2 l1 (Nat.min l2 l1) (ov (H * W) (flat_stack W f1) (flat_stack W f2)) r ->
  calc_fidelity L l1 l2 H W f1 f2 = (rsum (Nat.min l2 l1) (svd_S r) ^ 2)%R ->
  calc_generalized_rms_error L l1 l2 H W f1 f2 false = sqrt ((total_power H W l1 f1 + total_power H W l2 f2 - 2 * rsum (Nat.min l2 l1) (svd_S r)) / INR (H * W)).
Proof.
  intros PH PW G E. pose proof (npos H W PH PW) as NP. unfold calc_generalized_rms_error. rewrite E. f_equal.
  rewrite (rsum_ext l1 _ (fun k => power H W (f1 k))), (rsum_ext l2 _ (fun k => power H W (f2 k))) by (intros; apply isum_abs2).
  fold (total_power H W l1 f1). fold (total_power H W l2 f2).
  replace (rsum (Nat.min l2 l1) (svd_S r) ^ 2 / INR (H * W) ^ 2)%R with ((rsum (Nat.min l2 l1) (svd_S r) / INR (H * W)) ^ 2)%R by (field; lra).
  rewrite sqrt_pow2; [field; lra|]. apply Rmult_le_pos; [apply (nuc_nonneg _ _ _ _ _ _ _ G)|left; apply Rinv_0_lt_compat; auto].
Qed.
Lemma same_coherence_of_flat H W n modes n' modes' :
  (forall p q, (p < H * W)%nat -> (q < H * W)%nat -> csum n (fun k => Cconj (flat_stack W modes k p) * flat_stack W modes k q) = csum n' (fun k => Cconj (flat_stack W modes' k p) * flat_stack W modes' k q)) ->
  same_coherence H W n modes n' modes'.
Proof. intros E i j i' j' Hi Hj Hi' Hj'. rewrite !(coherence_flat W) by auto. apply E; apply pix_lt; auto. Qed.
Lemma single_gsvd N x y r : gsvd 1 1 1 (ov N x y) r -> svd_S r 0%nat = Cmod (ip N (y 0%nat) (x 0%nat)).
Proof.
  intros [U [V [S0 [_ E]]]]. specialize (E 0%nat 0%nat ltac:(lia) ltac:(lia)). unfold ov in E. rewrite E.
  specialize (U 0%nat 0%nat ltac:(lia) ltac:(lia)). specialize (V 0%nat 0%nat ltac:(lia) ltac:(lia)). unfold ip, csum, fsum, delta in U, V. cbn [Nat.eqb] in U, V.
  assert (U1 : Cmod (svd_U r 0%nat 0%nat) = 1%R). { rewrite Cmod_nrm2. rewrite Cplus_0_l, Cmult_comm, mult_conj in U. apply RtoC_inj in U. rewrite U. apply sqrt_1. }
  assert (V1 : Cmod (svd_Vh r 0%nat 0%nat) = 1%R). { rewrite Cmod_nrm2. rewrite Cplus_0_l, mult_conj in V. apply RtoC_inj in V. rewrite V. apply sqrt_1. }
  unfold csum, fsum. rewrite Cplus_0_l, !Cmod_mult, U1, V1, Cmod_R. rewrite Rabs_right; [ring|]. apply Rle_ge, S0. lia.
Qed.
