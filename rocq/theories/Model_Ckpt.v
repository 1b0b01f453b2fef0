(** Model of checkpointing and of the save-on-exit context managers:
    src/cdtools/models/base.py:282-400. *)
From Verif Require Import Base.

(** A checkpoint file name: stem + '_' + str(id) + '.pt' (models/base.py:357-360, 369-373).
    Represented by the pair (stem, id); str() of an int is injective. *)
Definition fname : Type := (string * Z)%type.
Definition fname_eqb (a b : fname) : bool := String.eqb (fst a) (fst b) && Z.eqb (snd a) (snd b).

Section Ckpt.
(** Sv: the part of the model written by save_results and restored by load_checkpoint
    (state_dict, loss_history, training_history, epoch).  Un: everything else that lives in the
    model object (loss normalizer, requires_grad flags, plain attributes).  Os: optimizer state. *)
Context {Sv Un Os : Type}.

(** What t.save writes (models/base.py:351-365). *)
Record ckpt := mkCkpt { ck_saved : Sv; ck_optimizer : option Os }.
Definition disk : Type := fname -> option ckpt.
Definition disk_write (d : disk) (f : fname) (c : ckpt) : disk :=
  fun g => if fname_eqb g f then Some c else d g.

Record mdl := mkMdl {
  md_saved : Sv;
  md_unsaved : Un;
  md_ids : option (Z * Z * string);     (* current_checkpoint_id, job_id, file stem *)
  md_current_optimizer : option Os      (* attribute current_optimizer of the *model* *)
}.

(** use_checkpoints (models/base.py:333-336). *)
Definition use_checkpoints (job : Z) (stem : string) (m : mdl) : mdl :=
  mkMdl (md_saved m) (md_unsaved m) (Some (0%Z, job, stem)) (md_current_optimizer m).

(** skip_computation (models/base.py:338-349). *)
Definition skipping (m : mdl) : bool :=
  match md_ids m with Some (cur, job, _) => negb (cur =? job)%Z | None => false end.

(** save_checkpoint() without an explicit file (models/base.py:351-365). *)
Definition save_checkpoint (m : mdl) (d : disk) : res disk :=
  match md_ids m with
  | None => Raise AttributeError
  | Some (cur, _, stem) =>
      Ok (disk_write d (stem, cur) (mkCkpt (md_saved m) (md_current_optimizer m)))
  end.

(** load_checkpoint() without an explicit file (models/base.py:368-387). *)
Definition load_checkpoint (m : mdl) (d : disk) : res mdl :=
  match md_ids m with
  | None => Raise AttributeError
  | Some (cur, _, stem) =>
      match d (stem, cur) with
      | None => Raise OSError                                       (* FileNotFoundError *)
      | Some c =>
          match md_current_optimizer m with
          | None => Ok (mkMdl (ck_saved c) (md_unsaved m) (md_ids m) None)
          | Some _ =>
              match ck_optimizer c with
              | None => Raise KeyError                              (* 'optimizer_state_dict' *)
              | Some o => Ok (mkMdl (ck_saved c) (md_unsaved m) (md_ids m) (Some o))
              end
          end
      end
  end.

(** checkpoint() (models/base.py:390-400): the model and the disk afterwards. *)
Definition checkpoint (m : mdl) (d : disk) : disk * res mdl :=
  match md_ids m with
  | None => (d, Raise PlainException)
  | Some (cur, job, stem) =>
      let bump (m' : mdl) := mkMdl (md_saved m') (md_unsaved m') (Some ((cur + 1)%Z, job, stem))
                                   (md_current_optimizer m') in
      if (cur =? job)%Z then
        match save_checkpoint m d with
        | Ok d' => (d', Raise SystemExit)
        | Raise e => (d, Raise e)
        end
      else if (cur + 1 =? job)%Z then
        match load_checkpoint m d with
        | Ok m' => (d, Ok (bump m'))
        | Raise e => (d, Raise e)
        end
      else (d, Ok (bump m))
  end.

(** ------------------------------------------------------------------------------------
    A user script: the body between two checkpoint() calls is a list of items, each either an
    optimize loop (skipped by the threaded Reconstructor.optimize when skip_computation(),
    reconstructors/base.py:362-368, which only bumps the epoch) or other code, which always
    runs.  [it_name] labels the work for the execution trace. *)
Inductive item :=
| IOptimize (name : nat) (run : Sv * Un -> Sv * Un) (skip : Sv -> Sv)
| ICode (run : Sv * Un -> Sv * Un).

Definition run_item (m : mdl) (it : item) : mdl * list nat :=
  let upd su := mkMdl (fst su) (snd su) (md_ids m) (md_current_optimizer m) in
  match it with
  | IOptimize name run skip =>
      if skipping m then (upd (skip (md_saved m), md_unsaved m), [])
      else (upd (run (md_saved m, md_unsaved m)), [name])
  | ICode run => (upd (run (md_saved m, md_unsaved m)), [])
  end.

Fixpoint run_items (m : mdl) (its : list item) : mdl * list nat :=
  match its with
  | [] => (m, [])
  | it :: r => let '(m1, t1) := run_item m it in
               let '(m2, t2) := run_items m1 r in (m2, t1 ++ t2)
  end.

(** The script: stages separated by model.checkpoint() (none after the last).  Returns the
    disk, how it ended, the last model state and the trace of optimize loops really run. *)
Fixpoint run_stages (m : mdl) (d : disk) (stages : list (list item))
  : disk * res mdl * list nat :=
  match stages with
  | [] => (d, Ok m, [])
  | [st] => let '(m1, t1) := run_items m st in (d, Ok m1, t1)
  | st :: rest =>
      let '(m1, t1) := run_items m st in
      match checkpoint m1 d with
      | (d', Raise e) => (d', Raise e, t1)
      | (d', Ok m2) => let '(d2, r, t2) := run_stages m2 d' rest in (d2, r, t1 ++ t2)
      end
  end.

(** One job: build the model (always the same initial state), model.use_checkpoints(job, stem),
    run the script. *)
Definition run_job (s0 : Sv) (u0 : Un) (stem : string) (stages : list (list item))
    (job : Z) (d : disk) : disk * res mdl * list nat :=
  run_stages (use_checkpoints job stem (mkMdl s0 u0 None None)) d stages.

(** The same script without use_checkpoints and with the checkpoint() calls removed. *)
Definition run_plain (s0 : Sv) (u0 : Un) (stages : list (list item)) : mdl * list nat :=
  run_items (mkMdl s0 u0 None None) (concat stages).

(** Successive jobs 0, 1, ..., n-1 sharing the disk. *)
Fixpoint run_jobs (s0 : Sv) (u0 : Un) (stem : string) (stages : list (list item))
    (n : nat) (d : disk) : disk * list (res mdl * list nat) :=
  match n with
  | O => (d, [])
  | S n' =>
      let '(d1, outs) := run_jobs s0 u0 stem stages n' d in
      let '(d2, r, t) := run_job s0 u0 stem stages (Z.of_nat n') d1 in
      (d2, outs ++ [(r, t)])
  end.

(** ------------------------------------------------------------------------------------
    Which object holds the attribute current_optimizer: Reconstructor.optimize sets and clears
    it on [self], the reconstructor (reconstructors/base.py:317-320, 397), while
    save_checkpoint reads it from the model (models/base.py:353-356). *)
Inductive optop :=
| OStart (recon : nat) (o : Os)     (* first next() of an optimize generator of that object *)
| OFinish (recon : nat)             (* the generator runs to its end *)
| OSave.                            (* model.save_checkpoint(), at any moment *)
(** Attributes current_optimizer: of the model, and of the reconstructor objects. *)
Record attrs := mkAttrs { at_model : option Os; at_recon : nat -> option Os }.
Definition optop_step (a : attrs) (op : optop) : attrs * list (option Os) :=
  match op with
  | OStart r o => (mkAttrs (at_model a) (fun k => if Nat.eqb k r then Some o else at_recon a k), [])
  | OFinish r => (mkAttrs (at_model a) (fun k => if Nat.eqb k r then None else at_recon a k), [])
  | OSave => (a, [at_model a])
  end.
Fixpoint optops (a : attrs) (ops : list optop) : list (option Os) :=
  match ops with
  | [] => []
  | op :: r => let '(a', out) := optop_step a op in out ++ optops a' r
  end.

End Ckpt.
Arguments mdl Sv Un Os : clear implicits.
Arguments disk Sv Os : clear implicits.
Arguments item Sv Un : clear implicits.
Arguments optop Os : clear implicits.
Arguments attrs Os : clear implicits.

(** ------------------------------------------------------------------------------------
    Context managers (models/base.py:282-330).  [Mod]: model state, [File]: file contents. *)
Section Save.
Context {Mod File : Type}.
Definition fs : Type := string -> option File.
(** self.save_to_h5(filename) (models/base.py:205-215) may fail and may leave anything behind. *)
Variable save_to_h5 : string -> Mod -> fs -> fs * res unit.

(** save_on_exit(filename, exception_filename=exc) around a body that ended with state [m] and
    outcome [body] (models/base.py:299-306).  The bare [except:] also covers a failing final
    save. *)
Definition save_on_exit (filename : string) (exc : option string) (m : Mod) (body : res unit)
    (f : fs) : fs * res unit :=
  let handler e f1 :=
    let name := match exc with Some n => n | None => filename end in
    match save_to_h5 name m f1 with
    | (f2, Ok _) => (f2, Raise e)
    | (f2, Raise e') => (f2, Raise e')
    end in
  match body with
  | Raise e => handler e f
  | Ok _ => match save_to_h5 filename m f with
            | (f1, Ok _) => (f1, Ok tt)
            | (f1, Raise e) => handler e f1
            end
  end.

(** save_on_exception(filename) (models/base.py:324-330). *)
Definition save_on_exception (filename : string) (m : Mod) (body : res unit) (f : fs)
  : fs * res unit :=
  match body with
  | Ok _ => (f, Ok tt)
  | Raise e => match save_to_h5 filename m f with
               | (f1, Ok _) => (f1, Raise e)
               | (f1, Raise e') => (f1, Raise e')
               end
  end.
End Save.
Arguments fs File : clear implicits.
