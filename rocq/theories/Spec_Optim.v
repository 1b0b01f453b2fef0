(** Specification vocabulary for the optimizer wrappers. *)
From Verif Require Import Base Model_Optim.
Section S.
Context {H : Type}.
(** Specification: the dictionary most recently supplied. *)
Fixpoint last_factors (d0 : pydict) (ops : list (oop H)) : pydict :=
  match ops with
  | [] => d0
  | OpAdjust _ _ (Some d) :: r => last_factors d r
  | _ :: r => last_factors d0 r
  end.

(** The factor a dictionary (a Python dict: unique keys) gives to a parameter name: its entry,
    or 1 when it has none. *)
Definition factor (d : pydict) (k : string) (f : R) : Prop :=
  In (k, f) d \/ (~ In k (map fst d) /\ f = 1%R).
Definition is_dict (d : pydict) : Prop := NoDup (map fst d).
End S.
