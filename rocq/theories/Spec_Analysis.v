(** Specification vocabulary for the analysis functions. *)
From Verif Require Import Base FinSum Fourier Matrix Model_Prop Model_Analysis.
From Coquelicot Require Import Complex.
Local Open Scope C_scope.

(** What the linear algebra library promises. *)
Definition is_svd (n m : nat) (A : mat) (r : svd_result) : Prop :=
  let k := Nat.min n m in
  ortho_cols n k (svd_U r) /\ ortho_rows k m (svd_Vh r) /\
  (forall a, (a < k)%nat -> (0 <= svd_S r a)%R) /\
  (forall a b, (a <= b)%nat -> (b < k)%nat -> (svd_S r b <= svd_S r a)%R) /\
  (forall i j, (i < n)%nat -> (j < m)%nat -> A i j = csum k (fun a => svd_U r i a * RtoC (svd_S r a) * svd_Vh r a j)).
Definition is_qr (n m : nat) (A : mat) (r : mat * mat) : Prop :=
  let k := Nat.min n m in
  ortho_cols n k (fst r) /\
  (forall i j, (i < k)%nat -> (j < m)%nat -> (j < i)%nat -> snd r i j = RtoC 0) /\
  (forall i j, (i < n)%nat -> (j < m)%nat -> A i j = mm k (fst r) (snd r) i j).
Definition is_svdvals (n m : nat) (A : mat) (s : nat -> R) : Prop :=
  exists r, is_svd n m A r /\ forall a, (a < Nat.min n m)%nat -> s a = svd_S r a.
(** The library answers correctly on one given input. *)
Definition svd_right (L : linalg) (n m : nat) (A : mat) : Prop := is_svd n m A (svd L n m A).
Definition qr_right (L : linalg) (n m : nat) (A : mat) : Prop := is_qr n m A (qr L n m A).
Definition svdvals_right (L : linalg) (n m : nat) (A : mat) : Prop := is_svdvals n m A (svdvals L n m A).
(** The library calls made for a product. *)
Definition product_right (L : linalg) (n r m : nat) (A B : mat) : Prop :=
  qr_right L n r A /\ qr_right L m r (herm B) /\
  svd_right L (Nat.min n r) (Nat.min m r) (mm r (snd (qr L n r A)) (herm (snd (qr L m r (herm B))))).
(** The library calls made by orthogonalize_probes. *)
Definition ortho_right (L : linalg) (l H W : nat) (probes : nat -> img) (weights : option (nat * mat)) : Prop :=
  match weights with
  | None => svd_right L l (H * W) (flat_stack W probes)
  | Some (m, Wt) => product_right L m l (H * W) Wt (flat_stack W probes)
  end.

(** The light field that a stack with optional weights stands for: number of modes, modes. *)
Definition field (l : nat) (probes : nat -> img) (weights : option (nat * mat)) : nat * (nat -> img) :=
  match weights with
  | None => (l, probes)
  | Some (m, Wt) => (m, fun k i j => csum l (fun q => Wt k q * probes q i j))
  end.
(** Its mutual coherence function between pixels (i, j) and (i', j'), and its power. *)
Definition coherence (n : nat) (modes : nat -> img) (i j i' j' : nat) : C :=
  csum n (fun k => Cconj (modes k i j) * modes k i' j').
Definition same_coherence (H W : nat) (n : nat) (modes : nat -> img) (n' : nat) (modes' : nat -> img) : Prop :=
  forall i j i' j', (i < H)%nat -> (j < W)%nat -> (i' < H)%nat -> (j' < W)%nat ->
  coherence n modes i j i' j' = coherence n' modes' i j i' j'.
Definition dot (H W : nat) (x y : img) : C := csum H (fun i => csum W (fun j => Cconj (x i j) * y i j)).
Definition power (H W : nat) (x : img) : R := rsum H (fun i => rsum W (fun j => nrm2 (x i j))).
Definition total_power (H W n : nat) (modes : nat -> img) : R := rsum n (fun k => power H W (modes k)).
(** Mutually orthogonal modes in order of decreasing power. *)
Definition orthogonal_decreasing (H W n : nat) (modes : nat -> img) : Prop :=
  (forall a b, (a < n)%nat -> (b < n)%nat -> a <> b -> dot H W (modes a) (modes b) = RtoC 0) /\
  (forall a b, (a <= b)%nat -> (b < n)%nat -> (power H W (modes b) <= power H W (modes a))%R).
(** The wave leaving the object when the probe sits at pixel (a, b). *)
Definition exit_wave (probe obj : img) (a b : nat) : img := fun i j => probe i j * obj (a + i)%nat (b + j)%nat.
Definition unit_modulus (z : C) : Prop := Cmod z = 1%R.
Definition positive_real (z : C) : Prop := exists r, (0 <= r)%R /\ z = RtoC r.
(** Root mean square distance of two fields. *)
Definition rms_distance (H W : nat) (x y : img) : R := sqrt (power H W (fun i j => x i j - y i j) / INR (H * W)).
Definition equal_on (H W : nat) (x y : img) : Prop := forall i j, (i < H)%nat -> (j < W)%nat -> x i j = y i j.
(** The centroid of the power spectrum is the zero frequency. *)
Definition centred_spectrum (H W : nat) (x : img) : Prop :=
  isum H W (fun i j => ((INR i - INR (H / 2)) * nrm2 (fftshift2 H W (fft2 H W x) i j))%R) = 0%R /\
  isum H W (fun i j => ((INR j - INR (W / 2)) * nrm2 (fftshift2 H W (fft2 H W x) i j))%R) = 0%R.
(** The power spectrum has its centroid at the integer frequency (d0, d1), and none of it leaves the array when
    it is moved back by that much. *)
Definition integer_ramp (H W : nat) (x : img) (d0 d1 : Z) : Prop :=
  isum H W (fun i j => ((INR i - INR (H / 2) - IZR d0) * nrm2 (fftshift2 H W (fft2 H W x) i j))%R) = 0%R /\
  isum H W (fun i j => ((INR j - INR (W / 2) - IZR d1) * nrm2 (fftshift2 H W (fft2 H W x) i j))%R) = 0%R /\
  (forall i j, (i < H)%nat -> (j < W)%nat -> fftshift2 H W (fft2 H W x) i j <> RtoC 0 ->
     (0 <= Z.of_nat i - d0 < Z.of_nat H)%Z /\ (0 <= Z.of_nat j - d1 < Z.of_nat W)%Z).
(** Positive semidefinite matrices, the density matrix of a light field (pixels in row-major order), and the
    trace; for the definition of the fidelity. *)
Definition psd (n : nat) (A : mat) : Prop :=
  (forall i j, (i < n)%nat -> (j < n)%nat -> A i j = Cconj (A j i)) /\
  (forall x : vec, (0 <= Re (csum n (fun i => csum n (fun j => (Cconj (x i) * A i j * x j)%C))))%R).
Definition density (W n : nat) (modes : nat -> img) : mat := fun p q => csum n (fun k => flat W (modes k) p * Cconj (flat W (modes k) q)).
Definition mat_eq (n : nat) (A B : mat) : Prop := forall i j, (i < n)%nat -> (j < n)%nat -> A i j = B i j.
Definition mprod (n : nat) (A B : mat) : mat := fun i j => csum n (fun q => A i q * B q j).
Definition trace (n : nat) (A : mat) : R := rsum n (fun i => Re (A i i)).
Definition overlap (H W : nat) (x y : img) : C := csum H (fun i => csum W (fun j => x i j * Cconj (y i j))).
(** numpy.linalg.eigh of a Hermitian matrix: its eigenvalues, ascending. *)
Definition is_eigh (n : nat) (A : mat) (e : nat -> R) : Prop :=
  (forall a b, (a <= b)%nat -> (b < n)%nat -> (e a <= e b)%R) /\
  exists V, ortho_cols n n V /\ forall i j, (i < n)%nat -> (j < n)%nat -> A i j = csum n (fun q => V i q * RtoC (e q) * Cconj (V j q)).
Definition eigh_right (L : linalg) (n : nat) (A : mat) : Prop := is_eigh n A (eigh L n A).
