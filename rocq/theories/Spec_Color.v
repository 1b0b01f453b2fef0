(** What a colour picture of a complex image has to say.  Uses the type of colours and of pictures only. *)
From Verif Require Import Base Matrix Model_Prop.
From Verif Require Model_Color.
From Coquelicot Require Import Complex.
Local Open Scope R_scope.

(** M is the largest modulus of an H x W picture. *)
Definition is_max (H W : nat) (z : img) (M : R) : Prop :=
  (forall i j, (i < H)%nat -> (j < W)%nat -> Cmod (z i j) <= M) /\ exists i j, (i < H)%nat /\ (j < W)%nat /\ Cmod (z i j) = M.
Definition red (c : Model_Color.rgb) : R := fst (fst c).
Definition green (c : Model_Color.rgb) : R := snd (fst c).
Definition blue (c : Model_Color.rgb) : R := snd c.
Definition within (a b : R) (c : Model_Color.rgb) : Prop := a <= red c <= b /\ a <= green c <= b /\ a <= blue c <= b.
(** No channel of two colours differs by more than e. *)
Definition near (e : R) (c d : Model_Color.rgb) : Prop :=
  Rabs (red c - red d) <= e /\ Rabs (green c - green d) <= e /\ Rabs (blue c - blue d) <= e.
(** Two pictures are the same. *)
Definition same_picture (H W : nat) (p q : option (nat -> nat -> Model_Color.rgb)) : Prop :=
  match p, q with Some f, Some g => forall i j, (i < H)%nat -> (j < W)%nat -> f i j = g i j | None, None => True | _, _ => False end.
(** A scaling of amplitudes that loses nothing: black for 0 only, different for different amplitudes. *)
Definition faithful (s : R -> R) : Prop :=
  s 0 = 0 /\ (forall x, 0 <= x <= 1 -> 0 <= s x) /\ forall x y, 0 <= x <= 1 -> 0 <= y <= 1 -> s x = s y -> x = y.
