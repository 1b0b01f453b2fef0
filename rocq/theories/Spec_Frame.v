(** What a picture in real-space coordinates has to get right. Uses the vectors of Model_Prop only. *)
From Verif Require Import Base Model_Prop.
Local Open Scope R_scope.

(** Least squares: no other coefficients come closer to b. *)
Definition residual (v1 v2 b : V3) (p q : R) : V3 := vsub (vsub b (vscale p v1)) (vscale q v2).
Definition least_squares (lstsq : V3 -> V3 -> V3 -> R * R) : Prop :=
  forall v1 v2 b p q, vlen (residual v1 v2 b (fst (lstsq v1 v2 b)) (snd (lstsq v1 v2 b))) <= vlen (residual v1 v2 b p q).

(** The physical place of pixel (i, j) against pixel (0, 0): i rows and j columns on, in metres. *)
Definition place (b0 b1 : V3) (i j : R) : V3 := vadd (vscale i b0) (vscale j b1).
(** Distance in the plane of the axes. *)
Definition dist2 (p q : R * R) : R := sqrt ((fst p - fst q) * (fst p - fst q) + (snd p - snd q) * (snd p - snd q)).

(** How many of a unit make a metre: the unit, spelt in any case, and its size in metres. *)
Definition unit_sizes : list (string * R) :=
  [("m"%string, 1); ("cm"%string, / 100); ("mm"%string, / 1000); ("um"%string, / 1000000); ("$\mu$m"%string, / 1000000); ("nm"%string, / 1000000000);
   ("a"%string, / 10000000000); ("pm"%string, / 1000000000000)].
