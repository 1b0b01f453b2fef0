(** Specification vocabulary for checkpointing and saving. *)
From Verif Require Import Base Model_Ckpt.

(** An item of a script whose effect on the saved part of the model depends only on the saved
    part (not on state that a checkpoint does not store). *)
Definition saved_only {Sv Un} (it : item Sv Un) : Prop :=
  match it with
  | IOptimize _ run _ | ICode run => forall s u1 u2, fst (run (s, u1)) = fst (run (s, u2))
  end.

(** [f'] is [f] with exactly [name] replaced by the results of [m]. *)
Definition wrote {Mod File} (results : Mod -> File) (name : string) (m : Mod) (f f' : fs File) : Prop :=
  forall g, f' g = if String.eqb g name then Some (results m) else f g.

(** The contract of save_to_h5: when it reports success the named file holds the results and no
    other file has changed. *)
Definition honest {Mod File} (results : Mod -> File)
    (save : string -> Mod -> fs File -> fs File * res unit) : Prop :=
  forall name m f, snd (save name m f) = Ok tt -> wrote results name m f (fst (save name m f)).
