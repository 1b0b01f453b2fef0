(** C94: get_rhos: the density matrix of every exposure. *)
From Verif Require Import Base FinSum Fourier Matrix Model_Prop Model_Meas Model_Analysis Spec_Analysis Model_Wavefront.
From Coquelicot Require Import Complex.
Local Open Scope C_scope.

(** The m modes of exposure s on l basis probes. *)
Definition modes_of (l : nat) (probe : nat -> img) (w : nat -> mat) (s : nat) : nat -> img :=
  fun a i j => csum l (fun q => w s a q * probe q i j).

Lemma csum_prod n m f g : csum n f * csum m g = csum n (fun a => csum m (fun b => f a * g b)).
Proof. rewrite csum_scal_r. apply csum_ext. intros a _. apply csum_scal. Qed.

(** What is known of the light of an exposure, its mutual coherence function, is the density matrix between the basis
    probes. *)
Theorem C94_coherence : forall l N m w s probe i j i' j', exists rho, get_rhos (Matrices N m w) s = Some rho /\
  coherence m (modes_of l probe w s) i j i' j' = csum l (fun a => csum l (fun b => rho a b * probe a i' j' * Cconj (probe b i j))).
Proof.
  intros l N m w s probe i j i' j'. eexists. split; [reflexivity|]. unfold coherence, modes_of.
  transitivity (csum m (fun k => csum l (fun a => csum l (fun b => w s k a * Cconj (w s k b) * probe a i' j' * Cconj (probe b i j))))).
  - apply csum_ext. intros k _. rewrite csum_conj, Cmult_comm, csum_prod. apply csum_ext. intros a _. apply csum_ext. intros b _. rewrite Cconj_mult. ring.
  - rewrite csum_swap. apply csum_ext. intros a _. rewrite csum_swap. apply csum_ext. intros b _. rewrite !csum_scal_r. apply csum_ext. intros k _. ring.
Qed.
Print Assumptions C94_coherence.

(** A density matrix: Hermitian, positive, its trace the sum of the squared moduli of the weights. *)
Theorem C94_density : forall N m w s rho, get_rhos (Matrices N m w) s = Some rho ->
  (forall a b, rho b a = Cconj (rho a b)) /\
  (forall l (z : nat -> C), exists p, (0 <= p)%R /\ csum l (fun a => csum l (fun b => z a * rho a b * Cconj (z b))) = RtoC p) /\
  (forall l, csum l (fun a => rho a a) = RtoC (rsum m (fun k => rsum l (fun a => Cmod (w s k a) ^ 2)%R))).
Proof.
  intros N m w s rho E. injection E as <-. split; [|split].
  - intros a b. rewrite csum_conj. apply csum_ext. intros k _. rewrite Cconj_mult, Cconj_invol. apply Cmult_comm.
  - intros l z. exists (rsum m (fun k => nrm2 (csum l (fun a => z a * w s k a)))). split; [apply rsum_nonneg; intros; apply nrm2_nonneg|].
    rewrite <- csum_RtoC. transitivity (csum m (fun k => csum l (fun a => csum l (fun b => z a * w s k a * Cconj (z b * w s k b))))).
    + rewrite (csum_swap m l). apply csum_ext. intros a _. rewrite (csum_swap m l). apply csum_ext. intros b _. rewrite csum_scal, csum_scal_r. apply csum_ext. intros k _. rewrite Cconj_mult. ring.
    + apply csum_ext. intros k _. rewrite <- csum_prod, <- csum_conj. set (x := csum l _). unfold nrm2. destruct x as [x y]. unfold Cmult, Cconj, RtoC. cbn. f_equal; ring.
  - intros l. rewrite csum_swap, <- csum_RtoC. apply csum_ext. intros k _. rewrite <- csum_RtoC. apply csum_ext. intros a _.
    rewrite <- nrm2_Cmod. unfold nrm2. destruct (w s k a) as [u v]. unfold Cmult, Cconj, RtoC. cbn. f_equal; ring.
Qed.
Print Assumptions C94_density.

(** It is all that is known: two exposures have the same light on every set of basis probes exactly if they have the
    same density matrix, whatever their modes. *)
Theorem C94_complete : forall l N m w s rho N' m' w' s' rho', get_rhos (Matrices N m w) s = Some rho -> get_rhos (Matrices N' m' w') s' = Some rho' ->
  (forall a b, (a < l)%nat -> (b < l)%nat -> rho a b = rho' a b) <->
  (forall H W probe, same_coherence H W m (modes_of l probe w s) m' (modes_of l probe w' s')).
Proof.
  intros l N m w s rho N' m' w' s' rho' E E'. split.
  - intros Q H W probe i j i' j' _ _ _ _. destruct (C94_coherence l N m w s probe i j i' j') as (r & Er & ->). destruct (C94_coherence l N' m' w' s' probe i j i' j') as (r' & Er' & ->).
    rewrite E in Er. rewrite E' in Er'. injection Er as <-. injection Er' as <-. apply csum_ext. intros a Ha. apply csum_ext. intros b Hb. rewrite Q by assumption. reflexivity.
  - intros Q a b Ha Hb. set (probe := (fun q _ j => if Nat.eqb q j then RtoC 1 else RtoC 0) : nat -> img).
    specialize (Q 1%nat l probe 0%nat b 0%nat a ltac:(lia) Hb ltac:(lia) Ha).
    destruct (C94_coherence l N m w s probe 0 b 0 a) as (r & Er & X). destruct (C94_coherence l N' m' w' s' probe 0 b 0 a) as (r' & Er' & X').
    rewrite E in Er. rewrite E' in Er'. injection Er as <-. injection Er' as <-. rewrite X, X' in Q.
    assert (G : forall r : mat, csum l (fun c => csum l (fun d => r c d * probe c 0%nat a * Cconj (probe d 0%nat b))) = r a b).
    { intros r. rewrite (csum_single l a _ Ha).
      - rewrite (csum_single l b _ Hb).
        + unfold probe. rewrite !Nat.eqb_refl. rewrite Cconj_RtoC. ring.
        + intros d _ Nd. unfold probe. destruct (Nat.eqb_spec d b); [contradiction|]. rewrite Cconj_RtoC. ring.
      - intros c _ Nc. apply csum_zero'. intros d _. unfold probe. destruct (Nat.eqb_spec c a); [contradiction|]. ring. }
    rewrite !G in Q. exact Q.
Qed.
Print Assumptions C94_complete.

(** With one factor per exposure every density matrix is the identity: that of the basis probes themselves as
    independent modes, without the factor. *)
Theorem C94_factors : forall l N f s probe i j i' j', exists rho, get_rhos (Factors N f) s = Some rho /\
  coherence l probe i j i' j' = csum l (fun a => csum l (fun b => rho a b * probe a i' j' * Cconj (probe b i j))).
Proof.
  intros l N f s probe i j i' j'. eexists. split; [reflexivity|]. unfold coherence. apply csum_ext. intros a Ha.
  rewrite (csum_single l a _ Ha); [rewrite Nat.eqb_refl; ring|]. intros b _ Nb. destruct (Nat.eqb_spec a b) as [->|]; [contradiction|ring].
Qed.
Print Assumptions C94_factors.
(** So it does not describe an exposure whose factor is not of modulus 1, at any pixel with light. *)
Theorem C94_factor_refuted : forall l N f s probe i j, (f s * f s <> 1)%R -> (0 < rsum l (fun a => nrm2 (probe a i j)))%R ->
  exists rho, get_rhos (Factors N f) s = Some rho /\
  coherence l (fun a i j => RtoC (f s) * probe a i j) i j i j <> csum l (fun a => csum l (fun b => rho a b * probe a i j * Cconj (probe b i j))).
Proof.
  intros l N f s probe i j F P. destruct (C94_factors l N f s probe i j i j) as (rho & E & Q). exists rho. split; [exact E|]. rewrite <- Q. unfold coherence.
  assert (G : forall x : nat -> C, csum l (fun k => Cconj (x k) * x k) = RtoC (rsum l (fun k => nrm2 (x k)))).
  { intros x. rewrite <- csum_RtoC. apply csum_ext. intros k _. unfold nrm2. destruct (x k) as [u v]. unfold Cmult, Cconj, RtoC. cbn. f_equal; ring. }
  rewrite (G (fun k => RtoC (f s) * probe k i j)), (G (fun k => probe k i j)). intros X. apply RtoC_inj in X.
  rewrite (rsum_ext l _ (fun k => (f s * f s * nrm2 (probe k i j))%R)) in X by (intros; rewrite nrm2_mult, nrm2_RtoC; reflexivity).
  rewrite <- rsum_scal in X. apply F. nra.
Qed.
Print Assumptions C94_factor_refuted.

(** Concrete: two rows mixed by a rotation keep the density matrix. *)
Example C94_example : exists rho rho', get_rhos (Matrices 1 2 (fun _ k a => if Nat.eqb k a then RtoC 5 else RtoC 0)) 0 = Some rho /\
  get_rhos (Matrices 1 2 (fun _ k a => if Nat.eqb k 0 then (if Nat.eqb a 0 then RtoC 3 else RtoC 4) else if Nat.eqb a 0 then RtoC (-4) else RtoC 3)) 0 = Some rho' /\
  forall a b, (a < 2)%nat -> (b < 2)%nat -> rho a b = rho' a b.
Proof.
  do 2 eexists. split; [reflexivity|]. split; [reflexivity|]. intros [|[|a]] [|[|b]] Ha Hb; try lia; unfold csum; cbn; unfold Cconj, RtoC, Cmult, Cplus; cbn; f_equal; ring.
Qed.
