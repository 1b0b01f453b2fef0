(** Specification vocabulary for saving and rebuilding models (C55). *)
From Verif Require Import Base Model_H5 Model_Reload.
Local Open Scope string_scope.

Section Spec.
Context {E : Type}.

(** The array called [k] of a model, if it has one. *)
Definition entry (s : list (slot E)) (k : string) (a : arr E) : Prop :=
  exists x, In x s /\ sl_name x = k /\ sl_val x = Some a.
Definition no_entry (s : list (slot E)) (k : string) : Prop :=
  forall x, In x s -> sl_name x = k -> sl_val x = None.

(** What a model built with slots [s0] may have become after any amount of training and of the
    in-place edits the library performs: the same registered names of the same kind, the same
    constants; every parameter may hold any numbers, in an array of the same type and the same
    shape, except that, when [modes] is true, the number of probe modes (the leading dimension) may
    have changed, and so may the dimensions, but not the rank, of the weights (tidy_probes does
    both). *)
Definition may_become (modes : bool) (k : string) (p : bool) (a b : arr E) : Prop :=
  a_dt b = a_dt a /\
  (if p then
     if modes && (k =? "probe") then (length (a_shape a) > 2 /\ tl (a_shape b) = tl (a_shape a) /\ length (a_shape b) = length (a_shape a))
                            \/ a_shape b = a_shape a
     else if modes && (k =? "weights") then length (a_shape b) = length (a_shape a)
     else a_shape b = a_shape a
   else b = a).
Definition trained (modes : bool) (s0 s : list (slot E)) : Prop :=
  Forall2 (fun x y => sl_name y = sl_name x /\ sl_kind y = sl_kind x /\
    match sl_val x, sl_val y with
    | None, None => True
    | Some a, Some b => may_become modes (sl_name x) (is_param (sl_kind x)) a b
    | _, _ => False
    end) s0 s.
End Spec.
