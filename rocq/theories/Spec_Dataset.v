(** Specification vocabulary for datasets. *)
From Verif Require Import Base FinSum Model_Dataset.

Section Spec.
Context {Meta : Type}.
Notation ds := (dataset Meta).

(** Patterns, translations and (if recorded) intensities have the same length. *)
Definition consistent (d : ds) : Prop :=
  length (ds_translations d) = length (ds_patterns d) /\
  match ds_intensities d with Some l => length l = length (ds_patterns d) | None => True end.

(** The k-th exposure: its pattern, its translation and its intensity. *)
Definition exposure (d : ds) (k : nat) : option ((nat -> nat -> R) * (R * R * R) * option R) :=
  match nth_error (ds_patterns d) k, nth_error (ds_translations d) k with
  | Some p, Some tr =>
      match ds_intensities d with
      | None => Some (p, tr, None)
      | Some l => match nth_error l k with Some x => Some (p, tr, Some x) | None => None end
      end
  | _, _ => None
  end.
Definition exposures (d : ds) : list (option ((nat -> nat -> R) * (R * R * R) * option R)) :=
  map (exposure d) (seq 0 (length (ds_patterns d))).

(** Everything that does not belong to a single exposure. *)
Definition common (d : ds) := (ds_h d, ds_w d, ds_mask d, ds_qe_mask d, ds_background d, ds_basis d, ds_meta d).

(** indices k < n with b k = true, increasing *)
Definition indices (b : nat -> bool) (n : nat) : list nat := filter b (seq 0 n).

(** Two images are equal. *)
Definition img_eq {A} (a b : img A) : Prop :=
  im_h a = im_h b /\ im_w a = im_w b /\
  forall i j, i < im_h a -> j < im_w a -> im_px a i j = im_px b i j.
Definition opt_img_eq {A} (a b : option (img A)) : Prop :=
  match a, b with Some x, Some y => img_eq x y | None, None => True | _, _ => False end.

(** Total over an h x w image. *)
Definition total (h w : nat) (px : nat -> nat -> R) : R := rsum h (fun i => rsum w (fun j => px i j)).

(** A dataset as the constructor makes it: a mask of the patterns' shape, a qe_mask and a
    background (if any) of that shape, and a detector basis. *)
Definition well_formed (d : ds) : Prop :=
  (exists m, ds_mask d = Some m /\ im_h m = ds_h d /\ im_w m = ds_w d) /\
  (forall q, ds_qe_mask d = Some q -> im_h q = ds_h d /\ im_w q = ds_w d) /\
  (forall g, ds_background d = Some g -> im_h g = ds_h d /\ im_w g = ds_w d) /\
  (exists b, ds_basis d = Some b).

(** Is the pixel kept by the mask? *)
Definition kept (d : ds) (i j : nat) : bool :=
  match ds_mask d with Some m => im_px m i j | None => true end.
End Spec.
