(** Specification vocabulary for the reconstruction loop: what the property theorems of
    Properties_Recon.v talk about.  Nothing here is part of the model of the code. *)
From Verif Require Import Base Model_Recon.

(** The exposures an argument [subset] selects from a dataset of n: all of them, just the given
    one, or the listed ones in the listed order. *)
Inductive selects : subset_arg -> nat -> list nat -> Prop :=
| sel_all : forall n idxs, length idxs = n -> (forall k, k < n -> nth_error idxs k = Some k) ->
    selects SubNone n idxs
| sel_one : forall i n, selects (SubInt i) n [i]
| sel_list : forall l n, selects (SubList l) n l.

Section Spec.
Context {Prm Gr Opt Inp Pat Nrm Sch : Type}.
Variable gzero : Gr.
Variable gadd : Gr -> Gr -> Gr.
Variable chunk_eval : Prm -> list Inp -> list Pat -> res (R * Gr).
Variable reg_grad : Prm -> option (res Gr).
Variable ostep : Opt -> Prm -> oproc Prm Gr Opt.
Variable naccum : Nrm -> list Pat -> Nrm.
Variable nnormalize : Nrm -> pynum -> Nrm * res pynum.
Variable sched_step : Sch -> R -> Opt -> Sch * Opt.
Variable report : nat -> list R -> string.

Notation W := (world Prm Opt Inp Pat Nrm Sch).
Notation GEN := (generator Inp Pat).
Notation T := (tstate Prm Opt Inp Pat Nrm Sch).
Notation run_epoch := (run_epoch gzero gadd chunk_eval reg_grad ostep naccum nnormalize
                         sched_step report).
Notation gnext_seq := (gnext_seq gzero gadd chunk_eval reg_grad ostep naccum nnormalize
                         sched_step report).
Notation trun := (trun gzero gadd chunk_eval reg_grad ostep naccum nnormalize
                         sched_step report).

(** A sum-type loss: value and gradient of a chunk are the sums over its images, for chunks of
    valid patterns (for instance: of the mask's shape). *)
Definition gsum (l : list Gr) : Gr := fold_right gadd gzero l.
Definition sum_type (valid : Pat -> Prop) (li : Prm -> Inp -> Pat -> R)
    (gi : Prm -> Inp -> Pat -> Gr) : Prop :=
  forall p ins pats, List.length ins = List.length pats -> Forall valid pats ->
    chunk_eval p ins pats =
    Ok (lsum (map (fun r => li p (fst r) (snd r)) (combine ins pats)),
        gsum (map (fun r => gi p (fst r) (snd r)) (combine ins pats))).

Definition grad_monoid : Prop :=
  (forall a b c, gadd (gadd a b) c = gadd a (gadd b c)) /\
  (forall a, gadd gzero a = a) /\ (forall a, gadd a gzero = a).


(** What the closure returns, independent of the width. *)
Definition batch_rows (mb : minibatch) : list (Inp * Pat) := combine (fst mb) (snd mb).
Definition closure_value (li : Prm -> Inp -> Pat -> R) (p : Prm) (mb : minibatch) : pynum :=
  match batch_rows mb with
  | [] => PyNum 0
  | rows => Tens (lsum (map (fun r => li p (fst r) (snd r)) rows))
  end.
Definition closure_grad (gi : Prm -> Inp -> Pat -> Gr) (p : Prm) (mb : minibatch) : Gr :=
  gsum (map (fun r => gi p (fst r) (snd r)) (batch_rows mb)).
Definition closure_result li gi (w : W) (mb : minibatch) : W * res (pynum * Gr) :=
  (w, match reg_grad (m_params w) with
      | None => Ok (closure_value li (m_params w) mb, closure_grad gi (m_params w) mb)
      | Some (Ok g) => Ok (closure_value li (m_params w) mb,
                           gadd (closure_grad gi (m_params w) mb) g)
      | Some (Raise e) => Raise e
      end).

Definition aligned (mb : @minibatch Inp Pat) : Prop := List.length (fst mb) = List.length (snd mb).


Definition loader_aligned (ld : loader Inp Pat) : Prop :=
  forall t mbs, ld t = Ok mbs -> Forall aligned mbs.
(** Every pattern the loader ever yields is valid. *)
Definition loader_valid (valid : Pat -> Prop) (ld : loader Inp Pat) : Prop :=
  forall t mbs, ld t = Ok mbs -> Forall (fun mb => Forall valid (snd mb)) mbs.


(** What a (possibly interrupted) computation may do to the histories. *)
Definition frame (w w' : W) : Prop :=
  m_loss_history w' = m_loss_history w /\ m_epoch w' = m_epoch w /\
  m_training_history w' = m_training_history w /\ m_ckpt w' = m_ckpt w /\
  r_loader w' = r_loader w /\ r_current_optimizer w' = r_current_optimizer w.


(** The effect of a completed epoch on the histories. *)
Definition epoch_done (w w' : W) (l : R) : Prop :=
  m_loss_history w' = m_loss_history w ++ [l] /\
  m_epoch w' = Z.of_nat (List.length (m_loss_history w')) /\
  (exists line, m_training_history w' = (m_training_history w ++ line)%string /\
     exists body, line = (body ++ String (Ascii.ascii_of_nat 10) EmptyString)%string) /\
  m_ckpt w' = m_ckpt w /\ r_loader w' = r_loader w /\
  r_current_optimizer w' = r_current_optimizer w.


(** Checkpointing (C06): work is being skipped iff the current checkpoint id differs from the
    id of the job being run; otherwise (ids equal, or no checkpointing) the model is active. *)
Definition active (w : W) : Prop := forall cur job, m_ckpt w = Some (cur, job) -> cur = job.
Definition skipping (w : W) : Prop := exists cur job, m_ckpt w = Some (cur, job) /\ cur <> job.
(** The last recorded loss; [None] stands for NaN. *)
Definition last_loss (l : list R) : option R := nth_error l (length l - 1).

(** fresh generator for optimize(iterations=n, calculation_width=width) *)
Definition fresh (n : nat) (width : Z) (ld : res (loader Inp Pat)) : GEN :=
  mkGen GNotStarted n width ld.

(** Call next() k times, collecting what each call did and the state after each call. *)
Fixpoint consume (k : nat) (g : GEN) (w : W) : list (gout * W) * GEN * W :=
  match k with
  | O => ([], g, w)
  | S k' => let '(g1, w1, o) := gnext_seq g w in
            let '(os, g2, w2) := consume k' g1 w1 in
            ((o, w1) :: os, g2, w2)
  end.

(** Specification: run k epochs one after the other, stopping at the first exception. *)
Fixpoint epochs (k : nat) (width : Z) (w : W) : list (R * W) * W * option exn :=
  match k with
  | O => ([], w, None)
  | S k' => match run_nostop (run_epoch width w) with
            | (w1, Raise e) => ([], w1, Some e)
            | (w1, Ok l) => let '(ls, w2, e) := epochs k' width w1 in ((l, w1) :: ls, w2, e)
            end
  end.

Definition started (ld : loader Inp Pat) (w : W) : W := set_curopt (set_loader w (Some ld)) true.

Definition as_yield (lw : R * W) : gout * W := (Yield (Some (fst lw)), snd lw).


(** ---- histories of several generators ---- *)
Inductive hop :=
| HNew (iterations : nat) (width : Z) (ld : res (loader Inp Pat))   (* call optimize(...) *)
| HNext (i : nat)                                                  (* next() on the i-th one *)
| HRecon (o : Opt) (s : option Sch).                               (* another reconstructor *)

Definition hstep (st : list GEN * W) (op : hop) : (list GEN * W) * list gout :=
  let '(gs, w) := st in
  match op with
  | HNew n width ld => ((gs ++ [fresh n width ld], w), [])
  | HRecon o s => ((gs, set_loader (set_sched w s o) None), [])
  | HNext i => match nth_error gs i with
               | None => ((gs, w), [])
               | Some g => let '(g', w', o) := gnext_seq g w in
                           ((firstn i gs ++ g' :: skipn (S i) gs, w'), [o])
               end
  end.
Fixpoint hrun (ops : list hop) (st : list GEN * W) : (list GEN * W) * list gout :=
  match ops with
  | [] => (st, [])
  | op :: r => let '(st1, o1) := hstep st op in
               let '(st2, o2) := hrun r st1 in (st2, o1 ++ o2)
  end.

(** the losses among the outputs *)
Fixpoint yielded (os : list gout) : list R :=
  match os with
  | [] => []
  | Yield (Some l) :: r => l :: yielded r
  | _ :: r => yielded r
  end.


Definition hist_ext (w w' : W) (ls : list R) : Prop :=
  m_loss_history w' = m_loss_history w ++ ls /\
  (m_epoch w = Z.of_nat (length (m_loss_history w)) ->
   m_epoch w' = Z.of_nat (length (m_loss_history w'))) /\
  (exists s, m_training_history w' = (m_training_history w ++ s)%string).


Definition quiet (a : tact) : bool :=
  match a with AWorker | AConsumer => true | _ => false end.

(** A threaded state at rest: between two next() calls. *)
Definition at_rest (s : T) : Prop :=
  t_worker s = None /\ t_queue s = [] /\ t_stop s = false /\
  match t_pc s with CIdle | CDone _ => True | _ => False end.


(** number of checks on the no-stop path *)
Fixpoint depth {A} (p : @proc Prm Opt Inp Pat Nrm Sch A) : nat :=
  match p with Fin _ _ => 0 | Chk _ k => S (depth (k false)) end.

Definition is_worker (a : tact) := match a with AWorker => true | _ => false end.
Definition is_consumer (a : tact) := match a with AConsumer => true | _ => false end.
Definition count (f : tact -> bool) (l : list tact) : nat := length (filter f l).


Definition tinit (g : GEN) (w : W) : T := mkT w None [] false CIdle g.


(** k next() calls, each followed by some schedule of worker and consumer steps *)
Fixpoint rounds (rs : list (list tact)) (s : T) : list (cpc * W) * T :=
  match rs with
  | [] => ([], s)
  | acts :: rest =>
      let s1 := trun (ANext :: acts) s in
      let '(os, s2) := rounds rest s1 in ((t_pc s1, t_world s1) :: os, s2)
  end.


Definition bump_epoch (n : nat) (w : W) : W := set_epoch w (m_epoch w + Z.of_nat n)%Z.


(** Successive threaded optimize calls on one model: each generator is driven by an arbitrary
    schedule (including interrupts); the next call starts only when no worker is alive. *)
Fixpoint tcalls (calls : list (GEN * list tact)) (w : W) : option W :=
  match calls with
  | [] => Some w
  | (g, acts) :: rest =>
      let s := trun acts (tinit g w) in
      match t_worker s with
      | None => tcalls rest (t_world s)
      | Some _ => None
      end
  end.

End Spec.
Arguments hop Opt Inp Pat Sch : clear implicits.
