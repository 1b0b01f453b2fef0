(** Specification vocabulary for the models' propagators and geometry. *)
From Verif Require Import Base FinSum Fourier Model_Prop Spec_Prop Model_Geom.
From Coquelicot Require Import Complex.
Local Open Scope R_scope.

(** g undoes f on every wave of shape (N, M): both calls succeed and the wave comes back. *)
Definition undoes (N M : nat) (f g : img -> res img) : Prop :=
  forall w, exists v u, f w = Ok v /\ g v = Ok u /\ same N M u w.
Definition unit_vec (v : V3) : Prop := vdot v v = 1.
Definition orthogonal (u v : V3) : Prop := vdot u v = 0.
(** v is a positive multiple of u. *)
Definition same_direction (u v : V3) : Prop := exists a, 0 < a /\ v = vscale a u.
(** Mirror image of a direction in the plane with unit normal m. *)
Definition mirror (m k : V3) : V3 := vsub k (vscale (2 * vdot k m) m).
(** The beam goes along z; the scattered beam hits the detector along its normal, d1 x d0. *)
Definition k_in : V3 := (0, 0, 1).
Definition k_out (d0 d1 : V3) : V3 := vscale (/ vlen (vcross d1 d0)) (vcross d1 d0).
(** Rows of an orientation matrix: orthonormal and right-handed. *)
Definition right_handed (x y z : V3) : Prop :=
  unit_vec x /\ unit_vec y /\ unit_vec z /\ orthogonal x y /\ orthogonal y z /\ orthogonal x z /\ vcross x y = z.
(** The values a per-exposure forward model gives to a batch. *)
Fixpoint each {I T P} (f : I -> T -> P) (is : list I) (ts : list T) : list P :=
  match is, ts with i :: is, t :: ts => f i t :: each f is ts | _, _ => nil end.
(** Two pixel positions are the same up to the origin of the array. *)
Definition relative (m p : R * R) : R * R := (fst p - fst m, snd p - snd m).
