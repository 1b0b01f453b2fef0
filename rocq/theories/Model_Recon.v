(** Model of the reconstruction loop: src/cdtools/reconstructors/base.py, and the parts of
    src/cdtools/models/base.py it touches (loss_history, epoch, training_history,
    skip_computation). *)
From Verif Require Import Base.

(** ------------------------------------------------------------------------------------
    Python [range(0, n, w)] for a length n >= 0 (reconstructors/base.py:185-189).
    step 0 raises ValueError; a negative step gives an empty range. *)
Definition py_range0 (n : nat) (w : Z) : res (list nat) :=
  if (w =? 0)%Z then Raise ValueError
  else if (w <? 0)%Z then Ok []
  else let w' := Z.to_nat w in
       Ok (map (fun k => k * w')%nat (seq 0 ((n + w' - 1) / w'))).

(** The list comprehension [[x[i:i+w] for i in range(0, n, w)]]
    (reconstructors/base.py:183-189). *)
Definition py_chunks {A} (n : nat) (w : Z) (l : list A) : res (list (list A)) :=
  rmap (map (fun i => slice i (i + Z.to_nat w) l)) (py_range0 n w).

(** torch.utils.data.BatchSampler with drop_last=False: consecutive groups of b of the
    sampler order; b <= 0 raises ValueError (used by DataLoader, base.py:98-101). *)
Definition batched {A} (b : Z) (order : list A) : res (list (list A)) :=
  if (b <=? 0)%Z then Raise ValueError
  else py_chunks (List.length order) b order.

Section Recon.
(** Prm: parameter values.  Gr: gradients.  Opt: optimizer state.  Inp: one row of the input
    tensors (index, translation, ...).  Pat: one diffraction pattern.  Nrm: state of the loss
    normalizer.  Sch: state of the lr scheduler. *)
Context {Prm Gr Opt Inp Pat Nrm Sch : Type}.

(** optimizer.zero_grad() (base.py:177) leaves this gradient; .backward() adds. *)
Variable gzero : Gr.
Variable gadd : Gr -> Gr -> Gr.

(** [self.model.forward( *inp )] followed by [self.model.loss(pats, sim, mask=...)]
    (base.py:199-208): value and gradient of the loss of one chunk, or an exception.  The mask
    is a fixed buffer of the model and is folded into this function. *)
Variable chunk_eval : Prm -> list Inp -> list Pat -> res (R * Gr).

(** [self.model.regularizer(regularization_factor)] (base.py:218-222): [None] when the factor
    is None or the model has no regularizer, otherwise its gradient. *)
Variable reg_grad : Prm -> option (res Gr).

(** A torch optimizer's [step(closure)]: it evaluates the closure any finite number of times
    at parameter values of its choosing and then finishes.  Adam and SGD evaluate it once,
    LBFGS repeatedly. *)
Inductive oproc :=
| ODone (o : Opt) (p : Prm) (l : pynum)
| OEval (o : Opt) (p : Prm) (k : pynum -> Gr -> oproc).
Variable ostep : Opt -> Prm -> oproc.

(** The loss normalizer object: accumulate(patterns) (with the model's mask) and
    normalize_loss(loss) (losses.py:103-122, 209-242, 350-397). *)
Variable naccum : Nrm -> list Pat -> Nrm.
Variable nnormalize : Nrm -> pynum -> Nrm * res pynum.

(** [self.scheduler.step(loss)] changes the optimizer's learning rates. *)
Variable sched_step : Sch -> R -> Opt -> Sch * Opt.

(** [self.model.report()] (models/base.py:619-635): a line depending on loss_history and
    elapsed time; the time is an oracle indexed by the epoch counter [w_tick]. *)
Variable report : nat -> list R -> string.

(** A data loader: the minibatches it yields the t-th time it is iterated; iterating may raise
    (custom loaders). *)
Definition minibatch : Type := (list Inp * list Pat)%type.
Definition loader : Type := nat -> res (list minibatch).

(** The observable state: fields of the CDIModel (m_...) and the Reconstructor (r_...). *)
Record world := mkWorld {
  m_params : Prm;
  m_loss_history : list R;
  m_epoch : Z;
  m_training_history : string;
  m_norm : option Nrm;                  (* loss_normalizer, None when absent *)
  m_ckpt : option (Z * Z);              (* (current_checkpoint_id, job_id) when set *)
  r_opt : Opt;
  r_sched : option Sch;
  r_loader : option loader;
  r_current_optimizer : bool;           (* attribute set on the *reconstructor* *)
  w_tick : nat                          (* how many epochs have been started: oracle index *)
}.

Definition set_params w p o := mkWorld p (m_loss_history w) (m_epoch w) (m_training_history w)
  (m_norm w) (m_ckpt w) o (r_sched w) (r_loader w) (r_current_optimizer w) (w_tick w).
Definition set_norm w n := mkWorld (m_params w) (m_loss_history w) (m_epoch w)
  (m_training_history w) n (m_ckpt w) (r_opt w) (r_sched w) (r_loader w)
  (r_current_optimizer w) (w_tick w).
Definition set_sched w s o := mkWorld (m_params w) (m_loss_history w) (m_epoch w)
  (m_training_history w) (m_norm w) (m_ckpt w) o s (r_loader w)
  (r_current_optimizer w) (w_tick w).
Definition set_loader w l := mkWorld (m_params w) (m_loss_history w) (m_epoch w)
  (m_training_history w) (m_norm w) (m_ckpt w) (r_opt w) (r_sched w) l
  (r_current_optimizer w) (w_tick w).
Definition set_curopt w b := mkWorld (m_params w) (m_loss_history w) (m_epoch w)
  (m_training_history w) (m_norm w) (m_ckpt w) (r_opt w) (r_sched w) (r_loader w) b (w_tick w).
Definition set_epoch w e := mkWorld (m_params w) (m_loss_history w) e
  (m_training_history w) (m_norm w) (m_ckpt w) (r_opt w) (r_sched w) (r_loader w)
  (r_current_optimizer w) (w_tick w).
Definition set_tick w t := mkWorld (m_params w) (m_loss_history w) (m_epoch w)
  (m_training_history w) (m_norm w) (m_ckpt w) (r_opt w) (r_sched w) (r_loader w)
  (r_current_optimizer w) t.
Definition set_history w lh e th := mkWorld (m_params w) lh e th (m_norm w) (m_ckpt w)
  (r_opt w) (r_sched w) (r_loader w) (r_current_optimizer w) (w_tick w).

(** A computation of the worker: it runs until it finishes (with the world it leaves behind
    and a result or exception) or reaches the test of [stop_event] (base.py:195), where the
    world is visible and the answer is supplied from outside. *)
Inductive proc (A : Type) :=
| Fin (w : world) (r : res A)
| Chk (w : world) (k : bool -> proc A).
Arguments Fin {A} w r.
Arguments Chk {A} w k.

Fixpoint pbind {A B} (p : proc A) (f : world -> A -> proc B) : proc B :=
  match p with
  | Fin w (Ok a) => f w a
  | Fin w (Raise e) => Fin w (Raise e)
  | Chk w k => Chk w (fun b => pbind (k b) f)
  end.

(** The chunk loop of the closure (base.py:191-214); [acc] is total_loss and the gradient
    accumulated so far. *)
Fixpoint chunk_loop (w : world) (acc : pynum * Gr)
    (chunks : list (list Inp * list Pat)) : proc (pynum * Gr) :=
  match chunks with
  | [] => Fin w (Ok acc)
  | (inp, pats) :: rest =>
      Chk w (fun stop =>
        if stop then Fin w (Raise SystemExit)
        else match chunk_eval (m_params w) inp pats with
             | Raise e => Fin w (Raise e)
             | Ok (l, g) =>
                 chunk_loop w (pyadd (fst acc) (Tens l), gadd (snd acc) g) rest
             end)
  end.

(** The closure of run_epoch (base.py:176-224).  total_loss starts as the int 0; the
    regularizer contributes to the gradient only. *)
Definition closure (w : world) (width : Z) (mb : minibatch) : proc (pynum * Gr) :=
  let '(inputs, patterns) := mb in
  let n := List.length inputs in
  match py_chunks n width inputs, py_chunks n width patterns with
  | Ok ics, Ok pcs =>
      pbind (chunk_loop w (PyNum 0, gzero) (combine ics pcs)) (fun w' acc =>
        match reg_grad (m_params w') with
        | None => Fin w' (Ok acc)
        | Some (Ok g) => Fin w' (Ok (fst acc, gadd (snd acc) g))
        | Some (Raise e) => Fin w' (Raise e)
        end)
  | Raise e, _ => Fin w (Raise e)
  | _, Raise e => Fin w (Raise e)
  end.

(** [self.optimizer.step(closure)] (base.py:227). *)
Fixpoint run_oproc (w : world) (width : Z) (mb : minibatch) (op : oproc) : proc pynum :=
  match op with
  | ODone o p l => Fin (set_params w p o) (Ok l)
  | OEval o p k =>
      pbind (closure (set_params w p o) width mb) (fun w' lg =>
        run_oproc w' width mb (k (fst lg) (snd lg)))
  end.

(** The loop over minibatches (base.py:158-227).  [acc] is the variable [loss]. *)
Fixpoint batch_loop (w : world) (width : Z) (acc : pynum) (mbs : list minibatch)
  : proc pynum :=
  match mbs with
  | [] => Fin w (Ok acc)
  | mb :: rest =>
      let w1 := match m_norm w with
                | Some n => set_norm w (Some (naccum n (snd mb)))
                | None => w
                end in
      pbind (run_oproc w1 width mb (ostep (r_opt w1) (m_params w1))) (fun w2 l =>
        match l with
        | PyNum _ => Fin w2 (Raise AttributeError)      (* 'int' has no .detach() *)
        | Tens r => batch_loop w2 width (pyadd acc (Tens r)) rest
        end)
  end.

(** Tail of run_epoch after the batch loop (base.py:229-244). *)
Definition finish_epoch (w : world) (loss : pynum) : proc R :=
  let '(w1, nl) :=
    match m_norm w with
    | Some n => let '(n', r) := nnormalize n loss in (set_norm w (Some n'), r)
    | None => (w, Ok loss)
    end in
  match nl with
  | Raise e => Fin w1 (Raise e)
  | Ok (PyNum _) => Fin w1 (Raise AttributeError)        (* .cpu() on a Python number *)
  | Ok (Tens r) =>
      let w2 := match r_sched w1 with
                | Some s => let '(s', o') := sched_step s r (r_opt w1) in
                            set_sched w1 (Some s') o'
                | None => w1
                end in
      let lh := m_loss_history w2 ++ [r] in
      let line := (report (w_tick w2) lh ++ String (Ascii.ascii_of_nat 10) EmptyString)%string in
      Fin (set_history w2 lh (Z.of_nat (List.length lh))
             (m_training_history w2 ++ line)%string) (Ok r)
  end.

(** Reconstructor.run_epoch (base.py:116-244).  [w_tick] counts started epochs so that the
    loader's shuffle oracle is consulted afresh each time. *)
Definition run_epoch (width : Z) (w : world) : proc R :=
  match r_loader w with
  | None => Fin w (Raise RuntimeError)
  | Some ld =>
      let w0 := set_tick w (S (w_tick w)) in
      match ld (w_tick w) with
      | Raise e => Fin w0 (Raise e)
      | Ok mbs => pbind (batch_loop w0 width (PyNum 0) mbs) finish_epoch
      end
  end.

(** Running a worker with [stop_event=None] (or never set): every check answers false. *)
Fixpoint run_nostop {A} (p : proc A) : world * res A :=
  match p with
  | Fin w r => (w, r)
  | Chk w k => run_nostop (k false)
  end.

(** Running a worker against an arbitrary history of the stop flag: the list gives the answers
    to successive checks (false once exhausted). *)
Fixpoint run_stops {A} (p : proc A) (answers : list bool) : world * res A :=
  match p with
  | Fin w r => (w, r)
  | Chk w k => match answers with
               | [] => run_stops (k false) []
               | b :: bs => run_stops (k b) bs
               end
  end.

(** CDIModel.skip_computation (models/base.py:338-349). *)
Definition skip_computation (w : world) : bool :=
  match m_ckpt w with
  | Some (cur, job) => negb (cur =? job)%Z
  | None => false
  end.

(** What the skip branches yield: the last loss, or NaN ([None]) (base.py:327-330, 365-368). *)
Definition skip_value (w : world) : option R := last (map Some (m_loss_history w)) None.

(** ------------------------------------------------------------------------------------
    Data loading. *)

(** Reconstructor.__init__'s handling of [subset] (base.py:68-75): an int becomes a
    singleton list, td.Subset(dataset, indices)[k] is dataset[indices[k]].  Negative indices
    (allowed by Python) are not modelled. *)
Inductive subset_arg := SubNone | SubInt (i : nat) | SubList (l : list nat).
Definition subset_indices (s : subset_arg) (n : nat) : list nat :=
  match s with
  | SubNone => seq 0 n
  | SubInt i => [i]
  | SubList l => l
  end.

(** Indexing a dataset by a list of indices; an index out of range raises IndexError. *)
Definition pick {A} (ds : list A) (idxs : list nat) : res (list A) :=
  fold_right (fun i acc => match nth_error ds i with
                           | Some x => rmap (cons x) acc
                           | None => Raise IndexError
                           end) (Ok []) idxs.

(** Reconstructor.setup_dataloader (base.py:84-103) for the dataset restricted to [sub].
    [perm t] is the order drawn by RandomSampler in the t-th epoch.  batch_size None reads the
    misspelt attribute [td.Dataloader]: AttributeError.  Simplification: an out-of-range index
    raises when the epoch starts rather than when its minibatch is fetched. *)
Definition setup_dataloader (perm : nat -> list nat) (dataset : list (Inp * Pat))
    (sub : subset_arg) (batch_size : option Z) (shuffle : bool) : res loader :=
  let idxs := subset_indices sub (List.length dataset) in
  match batch_size with
  | None => Raise AttributeError
  | Some b =>
      if (b <=? 0)%Z then Raise ValueError
      else Ok (fun t =>
        let order := if shuffle then perm t else seq 0 (List.length idxs) in
        rmap (map (fun rows => (map fst rows, map snd rows)))
          (rbind (pick idxs order) (fun is =>
           rbind (pick dataset is) (batched b))))
  end.

(** ------------------------------------------------------------------------------------
    Reconstructor.optimize with thread=False as a generator (base.py:312-336, 397). *)

Inductive gen_pc := GNotStarted | GRunning (left : nat) | GClosed.
Record generator := mkGen {
  g_pc : gen_pc;
  g_iterations : nat;
  g_width : Z;
  g_loader : res loader     (* result of setup_dataloader, or the custom loader *)
}.
Inductive gout := Yield (v : option R) | StopIter | GRaise (e : exn).

(** body of the loop [for it in range(iterations)] with [n] iterations left (base.py:324-336) *)
Definition loop_seq (g : generator) (n : nat) (w : world) : generator * world * gout :=
  let at_pc pc := mkGen pc (g_iterations g) (g_width g) (g_loader g) in
  match n with
  | O => (at_pc GClosed, set_curopt w false, StopIter)
  | S n' =>
      if skip_computation w then
        (* self.epoch = self.epoch + 1: the Reconstructor has no attribute epoch *)
        (at_pc GClosed, w, GRaise AttributeError)
      else
        let '(w', r) := run_nostop (run_epoch (g_width g) w) in
        match r with
        | Ok l => (at_pc (GRunning n'), w', Yield (Some l))
        | Raise e => (at_pc GClosed, w', GRaise e)
        end
  end.

(** next(generator), thread=False. *)
Definition gnext_seq (g : generator) (w : world) : generator * world * gout :=
  match g_pc g with
  | GClosed => (g, w, StopIter)
  | GRunning n => loop_seq g n w
  | GNotStarted =>
      match g_loader g with
      | Raise e => (mkGen GClosed (g_iterations g) (g_width g) (g_loader g), w, GRaise e)
      | Ok ld => loop_seq g (g_iterations g) (set_curopt (set_loader w (Some ld)) true)
      end
  end.

(** ------------------------------------------------------------------------------------
    Reconstructor.optimize with thread=True (base.py:339-397): a small-step system.
    The consumer runs the generator body; the worker thread runs [target]; the environment may
    deliver exceptions to the consumer inside the [try] block (Ctrl-C, or an error raised by
    matplotlib's flush_events). *)

Inductive qitem := QVal (l : R) | QExn (e : exn).

Inductive cpc :=
| CIdle                 (* suspended at a yield or not yet asked for a value *)
| CPoll                 (* inside the while calc.is_alive() loop *)
| CGet                  (* result_queue.get() *)
| CJoin                 (* KeyboardInterrupt caught: calc.join(), then re-raise *)
| CDone (o : gout).     (* the current next() has produced this *)

Record tstate := mkT {
  t_world : world;                 (* shared memory: model and reconstructor *)
  t_worker : option (proc R);      (* None: no live worker thread *)
  t_queue : list qitem;
  t_stop : bool;
  t_pc : cpc;
  t_gen : generator
}.

(** [target] (base.py:344-358) reacting to the end of run_epoch: a value or an [Exception] is
    put in the queue; a BaseException (SystemExit from exit(), KeyboardInterrupt) ends the
    thread silently. *)
Definition worker_put (q : list qitem) (r : res R) : list qitem :=
  match r with
  | Ok l => q ++ [QVal l]
  | Raise e => if is_Exception e then q ++ [QExn e] else q
  end.

(** The world a worker has left behind so far. *)
Definition proc_world {A} (p : proc A) : world :=
  match p with Fin w _ | Chk w _ => w end.

(** One step of the worker thread. *)
Definition worker_step (s : tstate) : option tstate :=
  match t_worker s with
  | None => None
  | Some (Chk w k) =>
      let p' := k (t_stop s) in
      Some (mkT (proc_world p') (Some p') (t_queue s) (t_stop s) (t_pc s) (t_gen s))
  | Some (Fin w r) =>
      Some (mkT w None (worker_put (t_queue s) r) (t_stop s) (t_pc s) (t_gen s))
  end.

Definition gset_pc (g : generator) pc := mkGen pc (g_iterations g) (g_width g) (g_loader g).

(** Start of a loop iteration with n iterations left, thread=True (base.py:361-374). *)
Definition loop_thr (s : tstate) (n : nat) (w : world) : tstate :=
  match n with
  | O => mkT (set_curopt w false) (t_worker s) (t_queue s) (t_stop s)
             (CDone StopIter) (gset_pc (t_gen s) GClosed)
  | S n' =>
      if skip_computation w then
        let w' := set_epoch w (m_epoch w + 1)%Z in
        mkT w' (t_worker s) (t_queue s) (t_stop s)
            (CDone (Yield (skip_value w'))) (gset_pc (t_gen s) (GRunning n'))
      else
        let p := run_epoch (g_width (t_gen s)) w in
        mkT (proc_world p) (Some p) (t_queue s) (t_stop s) CPoll
            (gset_pc (t_gen s) (GRunning n'))
  end.

(** next(generator): from CIdle or after the previous value was taken. *)
Definition consumer_next (s : tstate) : option tstate :=
  match t_pc s with
  | CIdle | CDone _ =>
      match g_pc (t_gen s) with
      | GClosed => Some (mkT (t_world s) (t_worker s) (t_queue s) (t_stop s) (CDone StopIter)
                             (t_gen s))
      | GRunning n => Some (loop_thr s n (t_world s))
      | GNotStarted =>
          match g_loader (t_gen s) with
          | Raise e => Some (mkT (t_world s) (t_worker s) (t_queue s) (t_stop s)
                                 (CDone (GRaise e)) (gset_pc (t_gen s) GClosed))
          | Ok ld => Some (loop_thr
                (mkT (t_world s) (t_worker s) [] false (t_pc s) (t_gen s))
                (g_iterations (t_gen s))
                (set_curopt (set_loader (t_world s) (Some ld)) true))
          end
      end
  | _ => None
  end.

(** One step of the consumer inside next(). *)
Definition consumer_step (s : tstate) : option tstate :=
  match t_pc s with
  | CPoll =>
      match t_worker s with
      | Some _ => Some s                                     (* sleep and poll again *)
      | None => Some (mkT (t_world s) None (t_queue s) (t_stop s) CGet (t_gen s))
      end
  | CGet =>
      match t_queue s with
      | [] => None                                           (* queue.get() blocks *)
      | QVal l :: q => Some (mkT (t_world s) (t_worker s) q (t_stop s)
                                 (CDone (Yield (Some l))) (t_gen s))
      | QExn e :: q => Some (mkT (t_world s) (t_worker s) q (t_stop s)
                                 (CDone (GRaise e)) (gset_pc (t_gen s) GClosed))
      end
  | CJoin =>
      match t_worker s with
      | Some _ => Some s                                     (* join() waits *)
      | None => Some (mkT (t_world s) None (t_queue s) (t_stop s)
                          (CDone (GRaise KeyboardInterrupt)) (gset_pc (t_gen s) GClosed))
      end
  | _ => None
  end.

(** An exception delivered to the consumer while it is in the polling loop (base.py:376-390):
    KeyboardInterrupt sets the stop event and joins; anything else propagates out of the
    generator at once.  Interrupts during start() itself, inside join(), and outside the try
    block are not modelled. *)
Definition consumer_exn (e : exn) (s : tstate) : option tstate :=
  match t_pc s with
  | CPoll =>
      match e with
      | KeyboardInterrupt =>
          Some (mkT (t_world s) (t_worker s) (t_queue s) true CJoin (t_gen s))
      | _ => Some (mkT (t_world s) (t_worker s) (t_queue s) (t_stop s)
                       (CDone (GRaise e)) (gset_pc (t_gen s) GClosed))
      end
  | _ => None
  end.

Inductive tact := AWorker | AConsumer | ANext | AExn (e : exn).
Definition tstep (a : tact) (s : tstate) : option tstate :=
  match a with
  | AWorker => worker_step s
  | AConsumer => consumer_step s
  | ANext => consumer_next s
  | AExn e => consumer_exn e s
  end.

(** A schedule; a disabled action is skipped. *)
Fixpoint trun (acts : list tact) (s : tstate) : tstate :=
  match acts with
  | [] => s
  | a :: r => match tstep a s with Some s' => trun r s' | None => trun r s end
  end.

End Recon.

Arguments world Prm Opt Inp Pat Nrm Sch : clear implicits.
Arguments proc {Prm Opt Inp Pat Nrm Sch} A.
Arguments oproc Prm Gr Opt : clear implicits.
Arguments loader Inp Pat : clear implicits.
Arguments generator Inp Pat : clear implicits.
Arguments tstate Prm Opt Inp Pat Nrm Sch : clear implicits.
Arguments Fin {Prm Opt Inp Pat Nrm Sch A} w r.
Arguments Chk {Prm Opt Inp Pat Nrm Sch A} w k.
Arguments ODone {Prm Gr Opt} o p l.
Arguments OEval {Prm Gr Opt} o p k.
