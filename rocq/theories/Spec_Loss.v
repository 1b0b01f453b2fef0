(** Specification vocabulary for the losses: sums over pixel indices, written without the
    selection machinery of the model. *)
From Verif Require Import Base Model_Recon Model_Loss.
Open Scope R_scope.

Definition unmasked (mask : option (list bool)) (i : nat) : bool :=
  match mask with None => true | Some m => nth i m false end.

(** Sum of f(measured, simulated) over the unmasked pixels of one image with [npix] pixels. *)
Definition image_total (f : R -> R -> R) (mask : option (list bool)) (npix : nat) (p s : pattern) : R :=
  lsum (map (fun i => if unmasked mask i then f (nth i p 0) (nth i s 0) else 0) (seq 0 npix)).
(** The same over a list of (measured, simulated) images. *)
Definition dataset_total f mask npix (rows : list (pattern * pattern)) : R :=
  lsum (map (fun r => image_total f mask npix (fst r) (snd r)) rows).
(** Number of unmasked pixels of one image. *)
Definition kept_pixels (mask : option (list bool)) (npix : nat) : nat :=
  length (filter (unmasked mask) (seq 0 npix)).

(** All images have [npix] pixels and so has the mask. *)
Definition shaped (mask : option (list bool)) (npix : nat) (pats : list pattern) : Prop :=
  Forall (fun p => length p = npix) pats /\
  match mask with Some m => length m = npix | None => True end.

(** Two stacks of images agree on every unmasked pixel. *)
Definition agree (mask : option (list bool)) (npix : nat) (a b : list pattern) : Prop :=
  length a = length b /\
  forall k i, (k < length a)%nat -> (i < npix)%nat -> unmasked mask i = true ->
    nth i (nth k a []) 0 = nth i (nth k b []) 0.

(** Every unmasked pixel satisfies P. *)
Definition all_pixels (P : R -> Prop) mask npix (a : list pattern) : Prop :=
  forall k i, (k < length a)%nat -> (i < npix)%nat -> unmasked mask i = true -> P (nth i (nth k a []) 0).

(** An optimizer step that evaluates the closure once, at the current parameters, and leaves the
    parameters alone ("an epoch run at fixed parameters"). *)
Definition fixed_params {Prm Gr Opt} (ostep : Opt -> Prm -> oproc Prm Gr Opt) : Prop :=
  forall o p, exists o1 k, ostep o p = OEval o1 p k /\ forall l g, exists o2, k l g = ODone o2 p l.

(** The epoch's rows: (input, pattern) pairs in the order visited. *)
Definition epoch_rows {Inp Pat} (mbs : list (list Inp * list Pat)) : list (Inp * Pat) :=
  concat (map (fun mb => combine (fst mb) (snd mb)) mbs).

(** What one epoch is fed: minibatches of aligned rows, none empty, which together are [data] in
    some order. *)
Definition feeds {Prm Opt Inp Pat Nrm Sch} (w : world Prm Opt Inp Pat Nrm Sch)
    (data : list (Inp * Pat)) : Prop :=
  exists ld mbs, r_loader w = Some ld /\ ld (w_tick w) = Ok mbs /\
    Forall (fun mb => length (fst mb) = length (snd mb) /\ fst mb <> []) mbs /\
    Permutation (epoch_rows mbs) data.

(** (measured, simulated) pairs of a dataset. *)
Definition with_sim {Inp} (sim : Inp -> pattern) (data : list (Inp * pattern)) : list (pattern * pattern) :=
  map (fun r => (snd r, sim (fst r))) data.
(** Every measured pattern paired with itself. *)
Definition with_self {Inp} (data : list (Inp * pattern)) : list (pattern * pattern) :=
  map (fun r => (snd r, snd r)) data.
Definition ge1 (i _ : R) : R := if Rle_dec 1 i then 1 else 0.
