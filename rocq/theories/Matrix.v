(** Finite-dimensional complex linear algebra on functions of indices: inner products, Cauchy-Schwarz,
    Bessel, products of matrices with orthonormal columns.  No cdtools code is modelled here. *)
From Verif Require Import Base FinSum Fourier.
From Coquelicot Require Import Complex.
Local Open Scope C_scope.

Definition mat := nat -> nat -> C.
Definition vec := nat -> C.
Definition mm (k : nat) (A B : mat) : mat := fun i j => csum k (fun q => A i q * B q j).
Definition herm (A : mat) : mat := fun i j => Cconj (A j i).
Definition delta (a b : nat) : C := if Nat.eqb a b then RtoC 1 else RtoC 0.
(** <x, y>, conjugate-linear in the first argument, and the squared length. *)
Definition ip (n : nat) (x y : vec) : C := csum n (fun i => Cconj (x i) * y i).
Definition nsq (n : nat) (x : vec) : R := rsum n (fun i => nrm2 (x i)).
(** U is n x k with orthonormal columns; V is k x m with orthonormal rows. *)
Definition ortho_cols (n k : nat) (U : mat) : Prop :=
  forall a b, (a < k)%nat -> (b < k)%nat -> ip n (fun i => U i a) (fun i => U i b) = delta a b.
Definition ortho_rows (k m : nat) (V : mat) : Prop :=
  forall a b, (a < k)%nat -> (b < k)%nat -> csum m (fun j => V a j * Cconj (V b j)) = delta a b.

Lemma delta_sym a b : delta a b = delta b a.
Proof. unfold delta. rewrite Nat.eqb_sym. reflexivity. Qed.
Lemma Cconj_delta a b : Cconj (delta a b) = delta a b.
Proof. unfold delta. destruct (Nat.eqb a b); apply Cconj_RtoC. Qed.
Lemma csum_delta_l n a f : (a < n)%nat -> csum n (fun i => delta a i * f i) = f a.
Proof.
  intros H. rewrite (csum_single n a); auto.
  - unfold delta. rewrite Nat.eqb_refl. ring.
  - intros i _ Hi. unfold delta. replace (Nat.eqb a i) with false by (symmetry; apply Nat.eqb_neq; lia). ring.
Qed.
Lemma csum_delta_r n a f : (a < n)%nat -> csum n (fun i => f i * delta i a) = f a.
Proof. intros H. rewrite <- (csum_delta_l n a f H) at 1. apply csum_ext. intros i _. rewrite delta_sym. ring. Qed.

Lemma mm_assoc n m A B D i j : mm n (mm m A B) D i j = mm m A (mm n B D) i j.
Proof.
  unfold mm. rewrite (csum_ext n _ (fun q => csum m (fun p => A i p * B p q * D q j))).
  2:{ intros q _. rewrite csum_scal_r. reflexivity. }
  rewrite csum_swap. apply csum_ext. intros p _. rewrite csum_scal. apply csum_ext. intros q _. ring.
Qed.
Lemma herm_mm k A B i j : herm (mm k A B) i j = mm k (herm B) (herm A) i j.
Proof. unfold herm, mm. rewrite csum_conj. apply csum_ext. intros q _. rewrite Cconj_mult. ring. Qed.
Lemma herm_herm A i j : herm (herm A) i j = A i j.
Proof. unfold herm. apply Cconj_invol. Qed.
Lemma ortho_rows_herm k m V : ortho_rows k m V <-> ortho_cols m k (herm V).
Proof.
  unfold ortho_rows, ortho_cols, ip, herm.
  split; intros H a b Ha Hb; rewrite <- (H a b Ha Hb); apply csum_ext; intros i _; rewrite Cconj_invol; reflexivity.
Qed.

Lemma ip_ext n x x' y y' : (forall i, (i < n)%nat -> x i = x' i) -> (forall i, (i < n)%nat -> y i = y' i) -> ip n x y = ip n x' y'.
Proof. intros A B. apply csum_ext. intros i H. rewrite A, B; auto. Qed.
Lemma ip_conj n x y : Cconj (ip n x y) = ip n y x.
Proof. unfold ip. rewrite csum_conj. apply csum_ext. intros i _. rewrite Cconj_mult, Cconj_invol. ring. Qed.
Lemma ip_self n x : ip n x x = RtoC (nsq n x).
Proof. unfold ip, nsq. rewrite <- csum_RtoC. apply csum_ext. intros i _. rewrite <- mult_conj. ring. Qed.
Lemma ip_csum_r n k x (c : vec) (u : nat -> vec) : ip n x (fun i => csum k (fun a => c a * u a i)) = csum k (fun a => c a * ip n x (u a)).
Proof.
  unfold ip. rewrite (csum_ext n _ (fun i => csum k (fun a => c a * (Cconj (x i) * u a i)))).
  2:{ intros i _. rewrite csum_scal. apply csum_ext. intros a _. ring. }
  rewrite csum_swap. apply csum_ext. intros a _. symmetry. apply csum_scal.
Qed.
Lemma ip_csum_l n k x (c : vec) (u : nat -> vec) : ip n (fun i => csum k (fun a => c a * u a i)) x = csum k (fun a => Cconj (c a) * ip n (u a) x).
Proof.
  rewrite <- ip_conj, ip_csum_r, csum_conj. apply csum_ext. intros a _. rewrite Cconj_mult, ip_conj. reflexivity.
Qed.
Lemma ip_sub_r n x y z : ip n x (fun i => y i - z i) = ip n x y - ip n x z.
Proof. unfold ip. rewrite <- csum_sub. apply csum_ext. intros i _. ring. Qed.
Lemma Cconj_minus (a b : C) : Cconj (a - b) = Cconj a - Cconj b.
Proof. apply C_ext; cbn; ring. Qed.
Lemma ip_sub_l n x y z : ip n (fun i => y i - z i) x = ip n y x - ip n z x.
Proof. rewrite <- ip_conj, ip_sub_r, Cconj_minus, !ip_conj. reflexivity. Qed.
Lemma ip_scal_r n c x y : ip n x (fun i => c * y i) = c * ip n x y.
Proof. unfold ip. rewrite csum_scal. apply csum_ext. intros i _. ring. Qed.
Lemma ip_scal_l n c x y : ip n (fun i => c * x i) y = Cconj c * ip n x y.
Proof. unfold ip. rewrite csum_scal. apply csum_ext. intros i _. rewrite Cconj_mult. ring. Qed.

Lemma nsq_nonneg n x : (0 <= nsq n x)%R.
Proof. apply rsum_nonneg. intros i _. apply nrm2_nonneg. Qed.
Lemma nsq_ext n x y : (forall i, (i < n)%nat -> x i = y i) -> nsq n x = nsq n y.
Proof. intros H. apply rsum_ext. intros i Hi. rewrite H; auto. Qed.
Lemma nsq_zero n x : nsq n x = 0%R -> forall i, (i < n)%nat -> x i = RtoC 0.
Proof.
  intros H i Hi. apply nrm2_0. revert i Hi. apply rsum_zero_iff; auto. intros i _. apply nrm2_nonneg.
Qed.
Lemma nsq_sub n x y : nsq n (fun i => x i - y i) = (nsq n x + nsq n y - 2 * Re (ip n x y))%R.
Proof.
  unfold nsq, ip. rewrite Re_csum. rewrite rsum_scal.
  rewrite <- rsum_add. unfold Rminus. replace (- rsum n (fun i => 2 * Re (Cconj (x i) * y i)%C))%R with (rsum n (fun i => -1 * (2 * Re (Cconj (x i) * y i)%C)))%R.
  2:{ rewrite <- rsum_scal. ring. }
  rewrite <- rsum_add. apply rsum_ext. intros i _. unfold nrm2, Cconj, Cmult, Cminus, Cplus, Copp, Re. cbn [fst snd]. ring.
Qed.
Lemma nsq_scal n c x : nsq n (fun i => c * x i) = (nrm2 c * nsq n x)%R.
Proof. unfold nsq. rewrite rsum_scal. apply rsum_ext. intros i _. apply nrm2_mult. Qed.

(** Cauchy-Schwarz. *)
Lemma cauchy_schwarz n x y : (nrm2 (ip n x y) <= nsq n x * nsq n y)%R.
Proof.
  set (X := nsq n x). set (Y := nsq n y). set (z := ip n x y).
  destruct (Rle_lt_or_eq_dec 0 X (nsq_nonneg n x)) as [P | E].
  - pose proof (nsq_nonneg n (fun i => RtoC X * y i - z * x i)) as Q.
    rewrite nsq_sub, !nsq_scal, nrm2_RtoC, ip_scal_l, ip_scal_r, Cconj_RtoC in Q.
    replace (ip n y x) with (Cconj z) in Q by (unfold z; apply ip_conj).
    replace (RtoC X * (z * Cconj z)) with (RtoC (X * nrm2 z)) in Q by (rewrite mult_conj, <- RtoC_mult; reflexivity).
    fold X Y in Q. unfold Re, RtoC in Q. cbn [fst] in Q.
    assert (X * (nrm2 z) <= X * (X * Y))%R by nra. apply Rmult_le_reg_l with X; auto.
  - assert (Z : z = RtoC 0).
    { unfold z, ip. apply csum_zero'. intros i Hi. rewrite (nsq_zero n x (eq_sym E) i Hi). rewrite Cconj_RtoC. ring. }
    rewrite Z. replace (nrm2 (RtoC 0)) with 0%R by (rewrite nrm2_RtoC; ring). apply Rmult_le_pos; apply nsq_nonneg.
Qed.
Lemma cauchy_schwarz_mod n x y : (Cmod (ip n x y) <= sqrt (nsq n x) * sqrt (nsq n y))%R.
Proof.
  rewrite Cmod_nrm2, <- sqrt_mult by apply nsq_nonneg. apply sqrt_le_1_alt, cauchy_schwarz.
Qed.

(** A matrix with orthonormal columns preserves inner products. *)
Lemma iso_ip n k U x y : ortho_cols n k U -> ip n (fun i => csum k (fun a => x a * U i a)) (fun i => csum k (fun a => y a * U i a)) = ip k x y.
Proof.
  intros H. rewrite (ip_csum_l n k _ x (fun a i => U i a)). apply csum_ext. intros a Ha.
  rewrite (ip_csum_r n k _ y (fun b i => U i b)). f_equal.
  rewrite (csum_ext k _ (fun b => y b * delta b a)); [apply csum_delta_r; auto|]. intros b Hb. rewrite (H a b Ha Hb), delta_sym. reflexivity.
Qed.
Lemma iso_nsq n k U x : ortho_cols n k U -> nsq n (fun i => csum k (fun a => x a * U i a)) = nsq k x.
Proof. intros H. apply RtoC_inj. rewrite <- !ip_self. apply iso_ip; auto. Qed.
(** Bessel, with the exact defect. *)
Lemma bessel_eq n k U x : ortho_cols n k U ->
  nsq n (fun i => x i - csum k (fun a => ip n (fun i => U i a) x * U i a)) = (nsq n x - nsq k (fun a => ip n (fun i => U i a) x))%R.
Proof.
  intros H. rewrite nsq_sub, (iso_nsq n k U) by auto. rewrite (ip_csum_r n k x _ (fun a i => U i a)).
  rewrite (csum_ext k _ (fun a => RtoC (nrm2 (ip n (fun i => U i a) x)))).
  2:{ intros a _. rewrite <- mult_conj, ip_conj. reflexivity. }
  rewrite csum_RtoC. unfold nsq at 4. unfold nsq at 2. unfold Re, RtoC. cbn [fst]. ring.
Qed.
Lemma bessel n k U x : ortho_cols n k U -> (nsq k (fun a => ip n (fun i => U i a) x) <= nsq n x)%R.
Proof. intros H. pose proof (nsq_nonneg n (fun i => x i - csum k (fun a => ip n (fun i => U i a) x * U i a))) as Q. rewrite bessel_eq in Q; auto. lra. Qed.

Lemma ortho_cols_mm n k m U V : ortho_cols n k U -> ortho_cols k m V -> ortho_cols n m (mm k U V).
Proof.
  intros HU HV a b Ha Hb. rewrite <- (HV a b Ha Hb). rewrite <- (iso_ip n k U) by auto.
  apply ip_ext; intros i _; unfold mm; apply csum_ext; intros q _; ring.
Qed.
Lemma ortho_cols_ext n k U U' : (forall i a, (i < n)%nat -> (a < k)%nat -> U i a = U' i a) -> ortho_cols n k U -> ortho_cols n k U'.
Proof. intros E H a b Ha Hb. rewrite <- (H a b Ha Hb). apply ip_ext; intros; symmetry; apply E; auto. Qed.
