(** C42 orthogonalize_probes and tidy_probes, C46 calc_mode_power_fractions, C53 get_probe_intensities. *)
From Verif Require Import Base FinSum Fourier Matrix Model_Prop Model_Analysis Spec_Analysis Proofs_SVD Proofs_SVDExists Proofs_Ortho.
From Coquelicot Require Import Complex.
From Coq Require Import IndefiniteDescription.
Local Open Scope C_scope.

(** The hypotheses below ask that the linear algebra library be right on its inputs.  There is a library
    that is right on every input (this witness uses the axiom of indefinite description, the theorems
    do not). *)
Theorem C42_library_exists : exists L, forall n m A, svd_right L n m A /\ qr_right L n m A /\ svdvals_right L n m A.
Proof.
  destruct (functional_choice (fun (x : nat * nat * mat) r => is_svd (fst (fst x)) (snd (fst x)) (snd x) r)) as [f Hf].
  { intros [[n m] A]. apply svd_exists. }
  destruct (functional_choice (fun (x : nat * nat * mat) r => is_qr (fst (fst x)) (snd (fst x)) (snd x) r)) as [g Hg].
  { intros [[n m] A]. apply qr_exists. }
  exists {| qr := fun n m A => g (n, m, A); svd := fun n m A => f (n, m, A); svdvals := fun n m A => svd_S (f (n, m, A)); eigh := fun _ _ _ => 0%R |}.
  intros n m A. split; [exact (Hf (n, m, A))|]. split; [exact (Hg (n, m, A))|].
  exists (f (n, m, A)). split; [exact (Hf (n, m, A))|]. reflexivity.
Qed.

(** product_svd: the returned triple is a decomposition of A @ B, with orthonormal singular vectors and
    decreasing singular values. *)
Theorem C42_product_svd L n r m A B : product_right L n r m A B ->
  let k := Nat.min (Nat.min n r) (Nat.min m r) in
  let s := product_svd L n r m A B in
  (forall i j, (i < n)%nat -> (j < m)%nat ->
     csum r (fun q => A i q * B q j) = csum k (fun a => svd_U s i a * RtoC (svd_S s a) * svd_Vh s a j)) /\
  (forall a b, (a < k)%nat -> (b < k)%nat -> csum n (fun i => Cconj (svd_U s i a) * svd_U s i b) = delta a b) /\
  (forall a b, (a < k)%nat -> (b < k)%nat -> csum m (fun j => svd_Vh s a j * Cconj (svd_Vh s b j)) = delta a b) /\
  (forall a, (a < k)%nat -> (0 <= svd_S s a)%R) /\
  (forall a b, (a <= b)%nat -> (b < k)%nat -> (svd_S s b <= svd_S s a)%R).
Proof.
  intros R k s. destruct (product_gsvd L n r m A B R) as [U [V [S0 [SD E]]]]. fold k s in U, V, S0, SD, E.
  split; [exact E|]. split; [exact U|]. split; [exact V|]. split; [exact S0|exact SD].
Qed.

(** orthogonalize_probes keeps the mutual coherence function of the light field (the probes, or
    weight_matrix @ probes), and the modes returned are orthogonal, strongest first. *)
Theorem C42_same_coherence L l H W probes weights : ortho_right L l H W probes weights ->
  let '(k, modes, _) := orthogonalize_probes L l H W probes weights in
  same_coherence H W k modes (fst (field l probes weights)) (snd (field l probes weights)) /\
  orthogonal_decreasing H W k modes.
Proof.
  intros R. unfold orthogonalize_probes. pose proof (ortho_gsvd L l H W probes weights R) as G. split.
  - exact (modes_coherence H W _ _ _ _ G).
  - exact (modes_ordered H W _ _ _ _ G).
Qed.
(** In particular the incoherent intensity of every pixel is unchanged. *)
Theorem C42_same_intensity L l H W probes weights i j : ortho_right L l H W probes weights -> (i < H)%nat -> (j < W)%nat ->
  let '(k, modes, _) := orthogonalize_probes L l H W probes weights in
  rsum k (fun a => Cmod (modes a i j) ^ 2)%R = rsum (fst (field l probes weights)) (fun a => Cmod (snd (field l probes weights) a i j) ^ 2)%R.
Proof.
  intros R Hi Hj. pose proof (C42_same_coherence L l H W probes weights R) as Q.
  destruct (orthogonalize_probes L l H W probes weights) as [[k modes] U]. destruct Q as [S _].
  specialize (S i j i j Hi Hj Hi Hj). unfold coherence in S. apply RtoC_inj. rewrite <- !csum_RtoC.
  rewrite (csum_ext k _ (fun a => Cconj (modes a i j) * modes a i j)).
  2:{ intros a _. rewrite <- nrm2_Cmod, <- mult_conj. ring. }
  rewrite S. apply csum_ext. intros a _. rewrite <- nrm2_Cmod, <- mult_conj. ring.
Qed.
(** The number of modes returned. *)
Theorem C42_mode_count L l H W probes weights :
  fst (fst (orthogonalize_probes L l H W probes weights)) =
  match weights with None => Nat.min l (H * W) | Some (m, _) => Nat.min m (Nat.min l (H * W)) end.
Proof. unfold orthogonalize_probes. cbn [fst]. destruct weights as [[m Wt]|]; cbn [ortho_count]; lia. Qed.
(** The re-expressed weights have orthonormal columns and give back the same light field, mode by mode. *)
Theorem C42_reexpressed_weights L l H W probes weights : ortho_right L l H W probes weights ->
  let '(k, modes, rw) := orthogonalize_probes L l H W probes weights in
  let n := fst (field l probes weights) in
  (forall r i j, (r < n)%nat -> (i < H)%nat -> (j < W)%nat ->
     csum k (fun a => rw r a * modes a i j) = snd (field l probes weights) r i j) /\
  (forall a b, (a < k)%nat -> (b < k)%nat -> csum n (fun r => Cconj (rw r a) * rw r b) = if Nat.eqb a b then RtoC 1 else RtoC 0).
Proof.
  intros R. unfold orthogonalize_probes. pose proof (ortho_gsvd L l H W probes weights R) as [U [_ [_ [_ E]]]].
  split.
  - intros r i j Hr Hi Hj. specialize (E r (i * W + j)%nat Hr (pix_lt H W i j Hi Hj)). unfold flat_stack in E. rewrite flat_at in E by auto.
    rewrite E. apply csum_ext. intros a _. unfold unflat. ring.
  - exact U.
Qed.
(** Uniqueness: for two right answers of the library about two stacks with the same mutual coherence
    function, corresponding modes have the same power, and a mode whose power differs from that of
    all the other modes is the same up to a phase factor. *)
Theorem C42_unique_powers L L' l H W probes weights l' probes' weights' a :
  ortho_right L l H W probes weights -> ortho_right L' l' H W probes' weights' ->
  same_coherence H W (fst (field l probes weights)) (snd (field l probes weights)) (fst (field l' probes' weights')) (snd (field l' probes' weights')) ->
  let '(k, modes, _) := orthogonalize_probes L l H W probes weights in
  let '(k', modes', _) := orthogonalize_probes L' l' H W probes' weights' in
  (if Nat.ltb a k then power H W (modes a) else 0%R) = (if Nat.ltb a k' then power H W (modes' a) else 0%R).
Proof.
  intros R R' S. unfold orthogonalize_probes. pose proof (ortho_gsvd _ _ _ _ _ _ R) as G. pose proof (ortho_gsvd _ _ _ _ _ _ R') as G'.
  set (r := ortho_svd L l H W probes weights) in *. set (r' := ortho_svd L' l' H W probes' weights') in *.
  set (k := ortho_count l (H * W) weights) in *. set (k' := ortho_count l' (H * W) weights') in *.
  pose proof (singular_values_unique _ _ _ _ _ _ _ _ _ G G' (same_coherence_flat _ _ _ _ _ _ S) a) as U. unfold padded in U.
  change (unflat W (fun p => RtoC (svd_S r a) * svd_Vh r a p)) with (modes_of W r a).
  change (unflat W (fun p => RtoC (svd_S r' a) * svd_Vh r' a p)) with (modes_of W r' a).
  destruct (Nat.ltb_spec a k) as [K|K]; destruct (Nat.ltb_spec a k') as [K'|K'].
  - rewrite (modes_power H W _ _ _ _ a G K), (modes_power H W _ _ _ _ a G' K'), U. reflexivity.
  - rewrite (modes_power H W _ _ _ _ a G K), U. ring.
  - rewrite (modes_power H W _ _ _ _ a G' K'), <- U. ring.
  - reflexivity.
Qed.
Lemma stack_unique H W k k' M M' a : orthogonal_decreasing H W k M -> orthogonal_decreasing H W k' M' -> same_coherence H W k M k' M' ->
  (a < k)%nat -> (a < k')%nat -> power H W (M a) = power H W (M' a) -> (0 < power H W (M a))%R ->
  (forall b, (b < k)%nat -> b <> a -> power H W (M b) <> power H W (M a)) ->
  exists c, Cmod c = 1%R /\ equal_on H W (M' a) (fun i j => c * M a i j).
Proof.
  intros [O _] [O' _] S Ha Ha' PE PP DI.
  assert (DS : forall n (M : nat -> img) b, (forall a b, (a < n)%nat -> (b < n)%nat -> a <> b -> dot H W (M a) (M b) = RtoC 0) -> (b < n)%nat ->
     forall a, (a < n)%nat -> dot H W (M a) (M b) = RtoC (power H W (M b)) * delta a b).
  { intros n N b ON Hb c Hc. destruct (Nat.eq_dec c b) as [-> | NE].
    - unfold delta. rewrite Nat.eqb_refl, Cmult_1_r. rewrite dot_flat, power_flat. apply ip_self.
    - rewrite ON by auto. unfold delta. replace (Nat.eqb c b) with false by (symmetry; apply Nat.eqb_neq; auto). ring. }
  (* contract the coherence with M' a *)
  assert (E : forall i j, (i < H)%nat -> (j < W)%nat -> csum k (fun b => dot H W (M b) (M' a) * M b i j) = RtoC (power H W (M' a)) * M' a i j).
  { intros i j Hi Hj. transitivity (csum k' (fun b => dot H W (M' b) (M' a) * M' b i j)).
    - assert (X : forall n (N : nat -> img), csum n (fun b => dot H W (N b) (M' a) * N b i j) =
          csum H (fun p => csum W (fun q => M' a p q * coherence n N p q i j))).
      { intros n N. unfold dot, coherence.
        rewrite (csum_ext n _ (fun b => csum H (fun p => csum W (fun q => M' a p q * (Cconj (N b p q) * N b i j))))).
        2:{ intros b _. rewrite csum_scal_r. apply csum_ext. intros p _. rewrite csum_scal_r. apply csum_ext. intros; ring. }
        rewrite csum_swap. apply csum_ext. intros p _. rewrite csum_swap. apply csum_ext. intros q _. symmetry. apply csum_scal. }
      rewrite !X. apply csum_ext. intros p Hp. apply csum_ext. intros q Hq. rewrite S by auto. reflexivity.
    - rewrite (csum_ext k' _ (fun b => (RtoC (power H W (M' a)) * M' b i j) * delta b a)).
      + rewrite (csum_delta_r k' a (fun b => RtoC (power H W (M' a)) * M' b i j)) by auto. reflexivity.
      + intros b Hb. rewrite (DS k' M' a O' Ha' b Hb). ring. }
  (* project on M c *)
  assert (Z : forall c, (c < k)%nat -> c <> a -> dot H W (M c) (M' a) = RtoC 0).
  { intros c Hc NE.
    assert (Q : RtoC (power H W (M c)) * dot H W (M c) (M' a) = RtoC (power H W (M' a)) * dot H W (M c) (M' a)).
    { transitivity (dot H W (M c) (fun i j => csum k (fun b => dot H W (M b) (M' a) * M b i j))).
      - rewrite (dot_flat H W (M c) (fun i j => csum k (fun b => dot H W (M b) (M' a) * M b i j))).
        change (flat W (fun i j => csum k (fun b => dot H W (M b) (M' a) * M b i j))) with (fun p => csum k (fun b => dot H W (M b) (M' a) * flat W (M b) p)).
        rewrite (ip_csum_r _ k _ (fun b => dot H W (M b) (M' a)) (fun b => flat W (M b))).
        rewrite (csum_ext k _ (fun b => (dot H W (M b) (M' a) * RtoC (power H W (M c))) * delta b c)).
        + rewrite (csum_delta_r k c (fun b => dot H W (M b) (M' a) * RtoC (power H W (M c)))) by auto. ring.
        + intros b Hb. rewrite <- dot_flat. destruct (Nat.eq_dec b c) as [-> | NB].
          * rewrite (DS k M c O Hc c Hc). ring.
          * rewrite O by auto. unfold delta. replace (Nat.eqb b c) with false by (symmetry; apply Nat.eqb_neq; auto). ring.
      - unfold dot at 1 3. rewrite csum_scal. apply csum_ext. intros i Hi. rewrite csum_scal. apply csum_ext. intros j Hj. rewrite E by auto. ring. }
    specialize (DI c Hc NE). rewrite PE in DI.
    assert (N0 : RtoC (power H W (M c)) - RtoC (power H W (M' a)) <> 0).
    { rewrite <- RtoC_minus. intros Y. apply (f_equal fst) in Y. cbn in Y. lra. }
    assert (Y : (RtoC (power H W (M c)) - RtoC (power H W (M' a))) * dot H W (M c) (M' a) = 0).
    { replace ((RtoC (power H W (M c)) - RtoC (power H W (M' a))) * dot H W (M c) (M' a)) with
        (RtoC (power H W (M c)) * dot H W (M c) (M' a) - RtoC (power H W (M' a)) * dot H W (M c) (M' a)) by ring. rewrite Q. ring. }
    replace (dot H W (M c) (M' a)) with (/ (RtoC (power H W (M c)) - RtoC (power H W (M' a))) * ((RtoC (power H W (M c)) - RtoC (power H W (M' a))) * dot H W (M c) (M' a))) by (field; auto).
    rewrite Y. ring. }
  assert (PN : RtoC (power H W (M' a)) <> 0) by (intros Y; apply (f_equal fst) in Y; cbn in Y; lra).
  set (c := dot H W (M a) (M' a) / RtoC (power H W (M' a))).
  assert (EQ : equal_on H W (M' a) (fun i j => c * M a i j)).
  { intros i j Hi Hj. specialize (E i j Hi Hj). rewrite (csum_single k a) in E; auto.
    - unfold c. replace (dot H W (M a) (M' a) / RtoC (power H W (M' a)) * M a i j) with (dot H W (M a) (M' a) * M a i j / RtoC (power H W (M' a))) by (field; auto).
      rewrite E. field; auto.
    - intros b Hb NE. rewrite Z by auto. ring. }
  exists c. split; auto.
  assert (P2 : power H W (M' a) = (nrm2 c * power H W (M a))%R).
  { rewrite <- (power_scal H W c (M a)). apply power_ext. exact EQ. }
  rewrite <- PE in P2. assert (N1 : nrm2 c = 1%R) by nra. rewrite Cmod_nrm2, N1. apply sqrt_1.
Qed.
Theorem C42_unique_modes L L' l H W probes weights l' probes' weights' a :
  ortho_right L l H W probes weights -> ortho_right L' l' H W probes' weights' ->
  same_coherence H W (fst (field l probes weights)) (snd (field l probes weights)) (fst (field l' probes' weights')) (snd (field l' probes' weights')) ->
  let '(k, modes, _) := orthogonalize_probes L l H W probes weights in
  let '(k', modes', _) := orthogonalize_probes L' l' H W probes' weights' in
  (a < k)%nat -> (0 < power H W (modes a))%R -> (forall b, (b < k)%nat -> b <> a -> power H W (modes b) <> power H W (modes a)) ->
  exists c, Cmod c = 1%R /\ equal_on H W (modes' a) (fun i j => c * modes a i j).
Proof.
  intros R R' S. pose proof (C42_unique_powers L L' l H W probes weights l' probes' weights' a R R' S) as U.
  pose proof (C42_same_coherence _ _ _ _ _ _ R) as Q. pose proof (C42_same_coherence _ _ _ _ _ _ R') as Q'.
  destruct (orthogonalize_probes L l H W probes weights) as [[k modes] rw].
  destruct (orthogonalize_probes L' l' H W probes' weights') as [[k' modes'] rw'].
  intros Ha P D. replace (Nat.ltb a k) with true in U by (symmetry; apply Nat.ltb_lt; auto).
  destruct (Nat.ltb_spec a k') as [Ha'|Ha']; [|lra]. destruct Q as [Q1 Q2]. destruct Q' as [Q1' Q2'].
  apply (stack_unique H W k k' modes modes' a); auto.
  apply same_coherence_trans with (1 := Q1). apply same_coherence_trans with (1 := S). apply same_coherence_sym. auto.
Qed.

(** ---- tidy_probes ---- *)
(** Library calls of tidy_probes: the decomposition of the whole experiment and one per shot. *)
Definition tidy_right (L : linalg) (N m l H W : nat) (weights : nat -> mat) (probe : nat -> img) : Prop :=
  ortho_right L l H W probe (tw N m weights) /\ forall s, (s < N)%nat -> svd_right L m (tk N m l H W weights) (tmat L N m l H W weights probe s).
(** With per-shot scalar weights, tidying keeps the mutual coherence of the probe. *)
Theorem C42_tidy_1d L l H W probe : ortho_right L l H W probe None ->
  let '(k, probe') := tidy_probes_1d L l H W probe in
  same_coherence H W k probe' l probe /\ orthogonal_decreasing H W k probe'.
Proof. intros R. exact (C42_same_coherence L l H W probe None R). Qed.
(** With weight matrices: whenever tidying produces weights, every shot keeps its mutual coherence
    function, the modes of every shot become orthogonal and strongest first, and so does the basis. *)
Theorem C42_tidy_probes L N m l H W weights probe : (0 < N)%nat -> (0 < m)%nat -> tidy_right L N m l H W weights probe ->
  let r := tidy_probes L N m l H W weights probe in
  orthogonal_decreasing H W (t_modes r) (t_probe r) /\
  forall w', t_weights r = Some w' -> forall s, (s < N)%nat ->
    same_coherence H W (t_rows r) (fun a i j => csum (t_modes r) (fun c => w' s a c * t_probe r c i j))
                       m (fun a i j => csum l (fun c => weights s a c * probe c i j)) /\
    orthogonal_decreasing H W (t_rows r) (fun a i j => csum (t_modes r) (fun c => w' s a c * t_probe r c i j)).
Proof.
  intros HN Hm [R RS] r. unfold r. rewrite tidy_unfold. cbn [t_modes t_probe t_rows t_weights].
  set (k := tk N m l H W weights) in *. split.
  - split.
    + intros a b Ha Hb NE. rewrite (tp_dot L N m l H W weights probe HN a b R Ha Hb). unfold delta.
      replace (Nat.eqb a b) with false by (symmetry; apply Nat.eqb_neq; auto). ring.
    + intros a b Hab Hb. assert (Ha : (a < k)%nat) by lia. rewrite !(tp_power L N m l H W weights probe HN) by auto.
      destruct (tidy_gsvd L N m l H W weights probe R) as [_ [_ [S0 [SD _]]]]. specialize (SD a b Hab Hb). specialize (S0 b Hb).
      pose proof (tsq_pos N HN) as T. apply pow_incr. split.
      * apply Rmult_le_pos; auto. left. apply Rinv_0_lt_compat. auto.
      * apply Rmult_le_compat_r; auto. left. apply Rinv_0_lt_compat. auto.
  - intros w' E s Hs. destruct (all_nonzero k (tsi L N m l H W weights probe)) eqn:AN; [|discriminate].
    injection E as <-. pose proof (proj1 (all_nonzero_iff k _) AN) as NZ.
    split.
    + apply same_coherence_sym. apply recombine_coherence with (U := svd_U (tsv L N m l H W weights probe s)).
      * destruct (RS s Hs) as [U _]. exact U.
      * intros a i j Ha Hi Hj. apply (shot_recombined L N m l H W weights probe HN Hm); auto.
    + pose proof (fun a b Ha Hb => shot_new_dot L N m l H W weights probe HN s a b R (RS s Hs) NZ Ha Hb) as D. cbv zeta in D. split.
      * intros a b Ha Hb NE. rewrite D by auto. unfold delta. replace (Nat.eqb a b) with false by (symmetry; apply Nat.eqb_neq; auto). ring.
      * assert (P : forall a, (a < Nat.min m k)%nat -> power H W (fun i j => csum k (fun c => RtoC (svd_S (tsv L N m l H W weights probe s) a) *
            (svd_Vh (tsv L N m l H W weights probe s) a c / RtoC (tsi L N m l H W weights probe c)) * tp L N m l H W weights probe c i j)) = (svd_S (tsv L N m l H W weights probe s) a ^ 2)%R).
        { intros a Ha. apply RtoC_inj. specialize (D a a Ha Ha). unfold delta in D. rewrite Nat.eqb_refl, Cmult_1_r in D.
          rewrite power_flat, <- ip_self, <- dot_flat. etransitivity; [exact D|]. f_equal. ring. }
        intros a b Hab Hb. fold k. rewrite !P by (auto; lia). destruct (RS s Hs) as [_ [_ [S0 [SD _]]]]. fold k in S0, SD.
        specialize (SD a b Hab Hb). specialize (S0 b Hb). apply pow_incr. auto.
Qed.
(** Tidying produces weights exactly when no basis probe it computes vanishes. *)
Theorem C42_tidy_defined L N m l H W weights probe :
  let r := tidy_probes L N m l H W weights probe in
  t_weights r <> None <-> (forall c, (c < t_modes r)%nat -> power H W (t_probe r c) <> 0%R).
Proof.
  intros r. unfold r. rewrite tidy_unfold. cbn [t_modes t_probe t_weights].
  assert (Q : forall c, tsi L N m l H W weights probe c <> 0%R <-> power H W (tp L N m l H W weights probe c) <> 0%R).
  { intros c. unfold tsi. rewrite isum_abs2. pose proof (rsum_nonneg H (fun i => rsum W (fun j => nrm2 (tp L N m l H W weights probe c i j))) (fun i _ => rsum_nonneg W _ (fun j _ => nrm2_nonneg _))) as P.
    fold (power H W (tp L N m l H W weights probe c)) in P. split; intros A B; apply A.
    - rewrite B. apply sqrt_0.
    - apply sqrt_eq_0; auto. }
  destruct (all_nonzero (tk N m l H W weights) (tsi L N m l H W weights probe)) eqn:E.
  - split; [intros _|discriminate]. intros c Hc. apply Q. apply (proj1 (all_nonzero_iff _ _) E). auto.
  - split; [congruence|]. intros A. exfalso. assert (X : all_nonzero (tk N m l H W weights) (tsi L N m l H W weights probe) = true).
    { apply all_nonzero_iff. intros c Hc. apply Q. apply A. auto. } congruence.
Qed.
(** So it fails on linearly dependent probes: two equal 1 x 2 probes, one shot with the identity as its
    weights.  Whatever right library is used, the new weights are NaN. *)
Definition twin : nat -> img := fun _ i j => if Nat.eqb j 0 then 1 else 0.
Theorem C42_tidy_dependent_refuted L : tidy_right L 1 2 2 1 2 (fun _ => delta) twin ->
  t_weights (tidy_probes L 1 2 2 1 2 (fun _ => delta) twin) = None.
Proof.
  intros [R _]. destruct (t_weights (tidy_probes L 1 2 2 1 2 (fun _ => delta) twin)) eqn:E; auto. exfalso.
  assert (A : t_weights (tidy_probes L 1 2 2 1 2 (fun _ => delta) twin) <> None) by congruence.
  pose proof (proj1 (C42_tidy_defined L 1 2 2 1 2 (fun _ => delta) twin) A) as B. rewrite tidy_unfold in B. cbn [t_modes t_probe] in B.
  assert (HK : tk 1 2 2 1 2 (fun _ => delta) = 2%nat) by reflexivity. rewrite HK in B.
  assert (P : forall c, (c < 2)%nat -> svd_S (tr L 1 2 2 1 2 (fun _ => delta) twin) c <> 0%R).
  { intros c Hc Z. apply (B c Hc). rewrite (tp_power L 1 2 2 1 2 _ twin ltac:(lia) c R) by (rewrite HK; auto). rewrite Z. unfold Rdiv. ring. }
  pose proof (tidy_gsvd L 1 2 2 1 2 _ twin R) as G. rewrite HK in G. pose proof G as G2. destruct G2 as [_ [V _]].
  set (r := tr L 1 2 2 1 2 (fun _ => delta) twin) in *.
  (* the coherence at pixel 1 vanishes, so both right singular vectors vanish there *)
  pose proof (gsvd_coherence _ _ _ _ _ 1%nat 1%nat G ltac:(lia) ltac:(lia)) as Q.
  assert (L0 : csum (1 * 2) (fun i => Cconj (flat_stack 2 (fun k i j => csum 2 (fun q => all_weights 2 (fun _ => delta) k q * twin q i j)) i 1%nat) *
     flat_stack 2 (fun k i j => csum 2 (fun q => all_weights 2 (fun _ => delta) k q * twin q i j)) i 1%nat) = RtoC 0).
  { apply csum_zero'. intros i Hi. replace (flat_stack 2 _ i 1%nat) with (RtoC 0); [rewrite Cconj_RtoC; ring|].
    unfold flat_stack, flat. cbn [Nat.div Nat.modulo]. unfold twin. symmetry. apply csum_zero'. intros q Hq. cbn. ring. }
  rewrite L0 in Q. set (x := fun a => RtoC (svd_S r a) * svd_Vh r a 1%nat) in *.
  assert (N0 : nsq 2 x = 0%R) by (apply RtoC_inj; rewrite <- ip_self; symmetry; exact Q).
  assert (VZ : forall a, (a < 2)%nat -> svd_Vh r a 1%nat = RtoC 0).
  { intros a Ha. pose proof (nsq_zero 2 x N0 a Ha) as X. unfold x in X. specialize (P a Ha). fold r in P.
    assert (RtoC (svd_S r a) <> 0) by (intros Y; apply (f_equal fst) in Y; exact (P Y)).
    replace (svd_Vh r a 1%nat) with (/ RtoC (svd_S r a) * (RtoC (svd_S r a) * svd_Vh r a 1%nat)) by (field; auto). rewrite X. ring. }
  (* both are then multiples of the first unit vector and cannot be orthonormal *)
  pose proof (V 0%nat 1%nat ltac:(lia) ltac:(lia)) as V01. pose proof (V 0%nat 0%nat ltac:(lia) ltac:(lia)) as V00. pose proof (V 1%nat 1%nat ltac:(lia) ltac:(lia)) as V11.
  cbn [Nat.mul Nat.add] in V01, V00, V11. rewrite !csum_S in V01, V00, V11. rewrite !VZ in V01, V00, V11 by lia. unfold csum, fsum, delta in V01, V00, V11. cbn [Nat.eqb] in V01, V00, V11.
  set (p := svd_Vh r 0%nat 0%nat) in *. set (q := svd_Vh r 1%nat 0%nat) in *.
  rewrite Cconj_RtoC in *.
  assert (A1 : p * Cconj p = 1) by (rewrite <- V00; ring). assert (A2 : q * Cconj q = 1) by (rewrite <- V11; ring).
  assert (A3 : p * Cconj q = 0) by (rewrite <- V01; ring).
  apply (f_equal nrm2) in A3. rewrite nrm2_mult, nrm2_conj, nrm2_RtoC in A3. rewrite mult_conj in A1, A2. apply RtoC_inj in A1, A2. rewrite A1, A2 in A3. lra.
Qed.

(** ---- C46 ---- *)
Theorem C46_fractions L l H W probes weights : ortho_right L l H W probes weights ->
  (0 < total_power H W (fst (field l probes weights)) (snd (field l probes weights)))%R ->
  let '(k, f) := calc_mode_power_fractions L l H W probes weights false in
  (forall a, (a < k)%nat -> (0 <= f a <= 1)%R) /\ rsum k f = 1%R /\ (forall a b, (a <= b)%nat -> (b < k)%nat -> (f b <= f a)%R).
Proof.
  intros R P. unfold calc_mode_power_fractions. pose proof (C42_same_coherence L l H W probes weights R) as Q.
  destruct (orthogonalize_probes L l H W probes weights) as [[k modes] rw]. cbn [fst]. destruct Q as [S [_ D]].
  rewrite <- (same_coherence_power H W _ _ _ _ S) in P. unfold total_power in P.
  set (p := fun a => isum H W (abs2 (modes a))).
  assert (PE : forall a, p a = power H W (modes a)) by (intros; apply isum_abs2).
  assert (P0 : forall a, (0 <= p a)%R). { intros a. rewrite PE. apply rsum_nonneg. intros; apply rsum_nonneg. intros; apply nrm2_nonneg. }
  assert (T : rsum k p = rsum k (fun a => power H W (modes a))) by (apply rsum_ext; intros; apply PE). rewrite <- T in P.
  assert (SUM : rsum k (fun a => p a / rsum k p)%R = 1%R).
  { rewrite (rsum_ext k _ (fun a => / rsum k p * p a)%R) by (intros; unfold Rdiv; ring). rewrite <- rsum_scal. field. lra. }
  split; [|split]; auto.
  - intros a Ha. change (0 <= p a / rsum k p <= 1)%R. split.
    + unfold Rdiv. apply Rmult_le_pos; [apply P0|left; apply Rinv_0_lt_compat; exact P].
    + apply Rmult_le_reg_r with (rsum k p); [exact P|]. unfold Rdiv. rewrite Rmult_assoc, Rinv_l, Rmult_1_r, Rmult_1_l by lra.
      replace (p a) with (rsum k (fun q => if Nat.eqb q a then p q else 0%R)).
      { apply rsum_le. intros q _. destruct (Nat.eqb q a); [lra|apply P0]. }
      rewrite (rsum_single k a); auto. { rewrite Nat.eqb_refl. reflexivity. }
      intros q _ NE. replace (Nat.eqb q a) with false by (symmetry; apply Nat.eqb_neq; auto). reflexivity.
  - intros a b Hab Hb. apply Rmult_le_compat_r; [left; apply Rinv_0_lt_compat; auto|]. change (p b <= p a)%R; rewrite !PE. apply D; auto.
Qed.
(** The result does not depend on how the light field is expressed (nor on the library): equal fractions
    mode by mode; a stack with fewer modes is continued by zeros. *)
Theorem C46_representation_independent L L' l H W probes weights l' probes' weights' a :
  ortho_right L l H W probes weights -> ortho_right L' l' H W probes' weights' ->
  same_coherence H W (fst (field l probes weights)) (snd (field l probes weights)) (fst (field l' probes' weights')) (snd (field l' probes' weights')) ->
  let '(k, f) := calc_mode_power_fractions L l H W probes weights false in
  let '(k', f') := calc_mode_power_fractions L' l' H W probes' weights' false in
  (if Nat.ltb a k then f a else 0%R) = (if Nat.ltb a k' then f' a else 0%R).
Proof.
  intros R R' S. pose proof (C42_unique_powers L L' l H W probes weights l' probes' weights' a R R' S) as U.
  pose proof (C42_same_coherence _ _ _ _ _ _ R) as Q. pose proof (C42_same_coherence _ _ _ _ _ _ R') as Q'.
  unfold calc_mode_power_fractions.
  destruct (orthogonalize_probes L l H W probes weights) as [[k modes] rw].
  destruct (orthogonalize_probes L' l' H W probes' weights') as [[k' modes'] rw']. cbn [fst].
  destruct Q as [Q _]. destruct Q' as [Q' _].
  assert (T : rsum k (fun a => isum H W (abs2 (modes a))) = rsum k' (fun a => isum H W (abs2 (modes' a)))).
  { rewrite (rsum_ext k _ (fun a => power H W (modes a))), (rsum_ext k' _ (fun a => power H W (modes' a))) by (intros; apply isum_abs2).
    apply (same_coherence_power H W k modes k' modes'). apply same_coherence_trans with (1 := Q). apply same_coherence_trans with (1 := S). apply same_coherence_sym; auto. }
  rewrite T, !isum_abs2. destruct (Nat.ltb a k); destruct (Nat.ltb a k').
  - rewrite U. reflexivity.
  - rewrite U. unfold Rdiv. ring.
  - rewrite <- U. unfold Rdiv. ring.
  - reflexivity.
Qed.
(** With assume_preorthogonalized the fractions are those of the modes given (of weight_matrix @ probes). *)
Theorem C46_preorthogonalized L l H W probes weights a :
  let n := fst (field l probes weights) in let modes := snd (field l probes weights) in
  let r := calc_mode_power_fractions L l H W probes weights true in
  fst r = n /\ snd r a = (power H W (modes a) / total_power H W n modes)%R.
Proof.
  unfold calc_mode_power_fractions. destruct weights as [[m Wt]|]; cbn [field fst snd]; split; auto; rewrite isum_abs2; f_equal; f_equal; apply rsum_ext; intros; apply isum_abs2.
Qed.

(** ---- C53: get_probe_intensities ---- *)
(** 2D weights: the power of the shot's own modes over the power of the basis probes. *)
Theorem C53_probe_intensities m l H W weights probe s : (0 < total_power H W l probe)%R ->
  get_probe_intensities m l H W weights probe s =
  (total_power H W m (fun a i j => csum l (fun c => weights s a c * probe c i j)%C) / total_power H W l probe)%R.
Proof.
  intros P. unfold get_probe_intensities. set (pm := probe_matrix H W probe).
  assert (PM : forall p q, pm p q = ip (H * W) (flat W (probe q)) (flat W (probe p))).
  { intros p q. unfold pm, probe_matrix, icsum. rewrite <- dot_flat. apply csum_ext. intros; apply csum_ext; intros; ring. }
  assert (T1 : csum l (fun a => pm a a) = RtoC (total_power H W l probe)).
  { unfold total_power. rewrite <- csum_RtoC. apply csum_ext. intros a _. rewrite PM, power_flat. apply ip_self. }
  assert (T2 : csum m (fun a => csum l (fun q => csum l (fun p => weights s a p * pm p q) * Cconj (weights s a q))) =
     RtoC (total_power H W m (fun a i j => csum l (fun c => weights s a c * probe c i j)))).
  { unfold total_power. rewrite <- csum_RtoC. apply csum_ext. intros a _. rewrite power_flat, <- ip_self.
    rewrite (ip_ext _ _ (fun p => csum l (fun c => weights s a c * flat W (probe c) p)) _ (fun p => csum l (fun c => weights s a c * flat W (probe c) p))) by reflexivity.
    rewrite (ip_csum_l _ l _ (weights s a) (fun c => flat W (probe c))). apply csum_ext. intros q _.
    rewrite (ip_csum_r _ l _ (weights s a) (fun c => flat W (probe c))). rewrite (Cmult_comm (csum l _)). f_equal.
    apply csum_ext. intros p _. rewrite PM. reflexivity. }
  rewrite T1, T2. rewrite <- RtoC_div by lra. reflexivity.
Qed.
(** 1D weights: the power of the shot over that of the unweighted probes. *)
Theorem C53_probe_intensities_1d l H W (weights : nat -> R) probe s : (0 < total_power H W l probe)%R ->
  get_probe_intensities_1d weights s = (total_power H W l (fun a i j => RtoC (weights s) * probe a i j)%C / total_power H W l probe)%R.
Proof.
  intros P. unfold get_probe_intensities_1d, total_power.
  rewrite (rsum_ext l (fun k => power H W (fun i j => RtoC (weights s) * probe k i j)) (fun k => (weights s ^ 2 * power H W (probe k))%R)).
  2:{ intros k _. rewrite power_scal, nrm2_RtoC. ring. }
  rewrite <- rsum_scal. unfold total_power in P. field. lra.
Qed.
(** The hypotheses are met: the two 1 x 2 probes (2, 0) and (0, 1) have power 5. *)
Example C53_case : (0 < total_power 1 2 2 (fun k i j => if Nat.eqb k j then RtoC (2 - INR k) else 0))%R.
Proof. unfold total_power, power, nrm2. cbn. lra. Qed.
