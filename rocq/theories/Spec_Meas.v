(** Specification vocabulary for measurements. *)
From Verif Require Import Base FinSum Fourier Model_Prop Model_Meas.
From Coquelicot Require Import Complex.
Local Open Scope R_scope.
(** Number of photons falling on the block of k x k wavefield pixels of detector pixel (i, j), from all
    modes. *)
Definition block_power (k : nat) (modes : list img) (i j : nat) : R :=
  lsum (map (fun psi : img => rsum k (fun a => rsum k (fun b => nrm2 (psi (i * k + a)%nat (j * k + b)%nat)))) modes).
(** Detector pixel (i, j) of the requested slice. *)
Definition at_slice (s : option (nat * nat)) (f : nat -> nat -> R) (i j : nat) : R :=
  match s with None => f i j | Some (r, c) => f (r + i)%nat (c + j)%nat end.
(** New modes that mix the old ones by a matrix u (row by row): mode k is sum_l u_kl psi_l. *)
Definition mix (u : nat -> nat -> C) (n : nat) (psi : nat -> img) (m : nat) : list img :=
  map (fun k => fun i j => csum n (fun l => (u k l * psi l i j)%C)) (seq 0 m).
Definition isometry (m n : nat) (u : nat -> nat -> C) : Prop :=
  forall l l', (l < n)%nat -> (l' < n)%nat -> csum m (fun k => (u k l * Cconj (u k l'))%C) = if Nat.eqb l l' then RtoC 1 else RtoC 0.
