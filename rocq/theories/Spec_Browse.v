(** What a user browsing a stack of images expects. Uses nothing of the model but the kinds of event. *)
From Verif Require Import Base.
From Verif Require Model_Browse.
Local Open Scope Z_scope.

(** The number of images of a stack with these extra dimensions, and numpy's row-major numbering of them
    (numpy.ravel_multi_index, numpy.unravel_index). *)
Definition total (dims : list Z) : Z := fold_right Z.mul 1 dims.
Fixpoint ravel (dims idx : list Z) : Z :=
  match dims, idx with
  | _ :: dims', i :: idx' => i * total dims' + ravel dims' idx'
  | _, _ => 0
  end.
Fixpoint unravel (dims : list Z) (p : Z) : list Z :=
  match dims with
  | [] => []
  | n :: dims' => (p / total dims') mod n :: unravel dims' p
  end.
(** An index of the stack. *)
Definition is_index (dims idx : list Z) : Prop := Forall2 (fun i n => 0 <= i < n) idx dims.

(** The next and the previous image, with wraparound. *)
Definition next_image (dims idx : list Z) : list Z := unravel dims ((ravel dims idx + 1) mod total dims).
Definition prev_image (dims idx : list Z) : list Z := unravel dims ((ravel dims idx - 1) mod total dims).
(** The axis slider j moves along: the j-th of the axes with more than one entry. *)
Definition long_axes (dims : list Z) : list nat := filter (fun k => 1 <? nth k dims 1) (seq 0 (List.length dims)).
(** Entry k replaced by v. *)
Definition put (k : nat) (v : Z) (idx : list Z) : list Z := firstn k idx ++ v :: skipn (S k) idx.
(** Slider j dragged to v, which it turns into the nearest number of its range. *)
Definition dragged (dims : list Z) (j : nat) (v : Z) (idx : list Z) : list Z :=
  match nth_error (long_axes dims) j with
  | Some k => put k (Z.max 0 (Z.min v (nth k dims 1 - 1))) idx
  | None => idx
  end.
(** What the user expects to see: the picture plotted last, at the index the events lead to. *)
Definition ideal {D P} (dims : list Z) (e : Model_Browse.event D P) (s : Model_Browse.picture D P * list Z) : Model_Browse.picture D P * list Z :=
  match e with
  | Model_Browse.Plot c => (c, snd s)
  | Model_Browse.Up => (fst s, prev_image dims (snd s))
  | Model_Browse.Down => (fst s, next_image dims (snd s))
  | Model_Browse.Slide j v => (fst s, dragged dims j v (snd s))
  end.
(** Every plot of the history is of a stack with the same extra dimensions. *)
Definition plots_only {D P} (dims : list Z) (e : Model_Browse.event D P) : Prop := match e with Model_Browse.Plot c => Model_Browse.extra_dims c = dims | _ => True end.


(** The browser of plot_nanomap_with_images over n points: the point and the image in its stack (of m images).  Keys
    over the image go through the stack if there are stacks; keys elsewhere go through the points, with wraparound;
    a click picks a point; the slider's value is kept in its range. *)
Definition nideal (n m : nat) (stacks : bool) (e : Model_Browse.nevent) (s : Z * Z) : Z * Z :=
  match e with
  | Model_Browse.Action b d => if (b && stacks)%bool then (fst s, (snd s + d) mod Z.of_nat m) else ((fst s + d) mod Z.of_nat n, snd s)
  | Model_Browse.Pick i => (Z.of_nat i, snd s)
  | Model_Browse.Drag x => (Z.max 0 (Z.min x (Z.of_nat n - 1)), snd s)
  end.
(** A key is left, right or another; a click hits one of the points. *)
Definition npossible (n : nat) (e : Model_Browse.nevent) : Prop :=
  match e with Model_Browse.Action _ d => d = -1 \/ d = 0 \/ d = 1 | Model_Browse.Pick i => (i < n)%nat | Model_Browse.Drag _ => True end.
