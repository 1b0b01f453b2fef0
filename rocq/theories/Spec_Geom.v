(** Specification vocabulary for geometry. *)
From Verif Require Import Base Model_Prop.
Local Open Scope R_scope.
(** The point i b0 + j b1 of the plane spanned by a basis. *)
Definition point (b0 b1 : V3) (p : R * R) : V3 := vadd (vscale (fst p) b0) (vscale (snd p) b1).
(** Same position as seen along the z axis, the beam. *)
Definition same_column (u v : V3) : Prop := vx u = vx v /\ vy u = vy v.
(** The two basis vectors are linearly independent. *)
Definition independent (b0 b1 : V3) : Prop := vcross b0 b1 <> (0, 0, 0).
