(** Model of the optimizer-specific reconstructors: src/cdtools/reconstructors/adam.py, sgd.py,
    lbfgs.py and the CDIModel.*_optimize wrappers in src/cdtools/models/base.py. *)
From Verif Require Import Base Model_Recon.

(** A Python dict from parameter names to factors (keys unique). *)
Definition pydict := list (string * R).
Fixpoint dlookup (k : string) (d : pydict) : option R :=
  match d with
  | [] => None
  | (k', v) :: r => if String.eqb k k' then Some v else dlookup k r
  end.

(** One entry of [optimizer.param_groups] (adam.py:60-62, sgd.py:60-62): one group per named
    parameter.  [pg_opts] stands for the remaining hyperparameters (betas/amsgrad or momentum,
    dampening, weight_decay, nesterov). *)
Record pgroup {H : Type} := mkPG { pg_name : string; pg_lr : R; pg_opts : H }.
Arguments pgroup H : clear implicits.
Arguments mkPG {H} pg_name pg_lr pg_opts.

(** AdamReconstructor / SGDReconstructor: the parameter groups and the stored lr_factors. *)
Record optr {H : Type} := mkOptr { op_groups : list (pgroup H); op_factors : pydict }.
Arguments optr H : clear implicits.
Arguments mkOptr {H} op_groups op_factors.

Section Optim.
Context {H : Type}.

(** _set_lr_factors (adam.py:71-93, sgd.py:77-99): replaces the dictionary; the second
    component is what the warning lists (empty: no warning). *)
Definition set_lr_factors (d : pydict) (o : optr H) : optr H * list string :=
  (mkOptr (op_groups o) d,
   filter (fun k => negb (existsb (String.eqb k) (map pg_name (op_groups o)))) (map fst d)).

(** adjust_optimizer (adam.py:107-146, sgd.py:112-163). *)
Definition adjust_optimizer (lr : R) (opts : H) (lr_factors : option pydict) (o : optr H)
  : optr H * list string :=
  let '(o1, warned) :=
    match lr_factors with Some d => set_lr_factors d o | None => (o, []) end in
  (mkOptr
     (map (fun g => mkPG (pg_name g)
                         (match dlookup (pg_name g) (op_factors o1) with
                          | Some f => lr * f
                          | None => lr
                          end)%R opts) (op_groups o1))
     (op_factors o1), warned).

(** __init__ (adam.py:51-68, sgd.py:52-74): one group per named parameter (with torch's default
    learning rate), then _set_lr_factors. *)
Definition optr_init (names : list string) (lr0 : R) (opts0 : H) (d : pydict)
  : optr H * list string :=
  set_lr_factors d (mkOptr (map (fun n => mkPG n lr0 opts0) names) []).

(** What can happen to an optimizer between observations: adjust_optimizer (at the start of
    each optimize call) and changes of the learning rates by a scheduler during epochs. *)
Inductive oop :=
| OpAdjust (lr : R) (opts : H) (lr_factors : option pydict)
| OpSchedule (f : string -> R -> R).
Definition oop_step (o : optr H) (op : oop) : optr H :=
  match op with
  | OpAdjust lr opts d => fst (adjust_optimizer lr opts d o)
  | OpSchedule f => mkOptr (map (fun g => mkPG (pg_name g) (f (pg_name g) (pg_lr g)) (pg_opts g))
                                (op_groups o)) (op_factors o)
  end.
End Optim.
Arguments oop H : clear implicits.

(** ------------------------------------------------------------------------------------
    Keyword arguments of Reconstructor.optimize relevant to data loading
    (reconstructors/base.py:246-254), with their defaults batch_size=1, shuffle=True. *)
Record base_args {L : Type} := mkBaseArgs {
  ba_iterations : nat;
  ba_batch_size : option Z;
  ba_custom : option L;
  ba_thread : bool;
  ba_width : Z;
  ba_shuffle : bool
}.
Arguments base_args L : clear implicits.
Arguments mkBaseArgs {L}.

Section Wrap.
Context {L : Type}.

(** AdamReconstructor.optimize -> super().optimize (adam.py:246-254): forwards everything. *)
Definition adam_args (iterations : nat) (batch_size : option Z) (custom : option L)
    (thread : bool) (width : Z) (shuffle : bool) : base_args L :=
  mkBaseArgs iterations batch_size custom thread width shuffle.

(** SGDReconstructor.optimize -> super().optimize (sgd.py:249-255): [shuffle] is accepted but
    not forwarded, so the base default True applies. *)
Definition sgd_args (iterations : nat) (batch_size : option Z)
    (thread : bool) (width : Z) (shuffle : bool) : base_args L :=
  mkBaseArgs iterations batch_size None thread width true.

(** LBFGSReconstructor.optimize -> super().optimize (lbfgs.py:138-143). *)
Definition lbfgs_args (iterations : nat) (dataset_len : nat) (thread : bool) (width : Z)
  : base_args L :=
  mkBaseArgs iterations (Some (Z.of_nat dataset_len)) None thread width true.

(** Default values of batch_size in the wrappers: CDIModel.Adam_optimize
    (models/base.py:406, 15), CDIModel.SGD_optimize (models/base.py:545, None),
    AdamReconstructor.optimize (adam.py:152, 15), SGDReconstructor.optimize (sgd.py:169, 15). *)
Definition Adam_optimize_default_batch : option Z := Some 15%Z.
Definition SGD_optimize_default_batch : option Z := None.
Definition AdamReconstructor_default_batch : option Z := Some 15%Z.
Definition SGDReconstructor_default_batch : option Z := Some 15%Z.
End Wrap.

(** The loader installed at the first next() (reconstructors/base.py:312-315). *)
Definition base_loader {Inp Pat} (perm : nat -> list nat) (dataset : list (Inp * Pat))
    (sub : subset_arg) (a : base_args (loader Inp Pat)) : res (loader Inp Pat) :=
  match ba_custom a with
  | Some l => Ok l
  | None => setup_dataloader perm dataset sub (ba_batch_size a) (ba_shuffle a)
  end.

(** The generator object returned by an optimize call. *)
Definition base_generator {Inp Pat} (perm : nat -> list nat) (dataset : list (Inp * Pat))
    (sub : subset_arg) (a : base_args (loader Inp Pat)) : generator Inp Pat :=
  mkGen GNotStarted (ba_iterations a) (ba_width a) (base_loader perm dataset sub a).
