(** Property theorems about the reconstruction loop (C01, C03, C04, C05, C06, C10). *)
From Verif Require Import Base Model_Recon Spec_Recon Model_Optim
  Proofs_Recon Proofs_ReconGen Proofs_Optim Proofs_ReconTight.

(** C01: the chunks of a minibatch are consecutive, non-empty, at most [w] long and
    concatenate to the minibatch. *)
Theorem C01_chunks_partition : forall (A : Type) (w : Z) (l : list A),
  (1 <= w)%Z ->
  exists cs, py_chunks (length l) w l = Ok cs /\ concat cs = l /\
    (forall k c, nth_error cs k = Some c ->
       1 <= length c <= Z.to_nat w /\ (S k < length cs -> length c = Z.to_nat w)).
Proof.
  intros A w l Hw. destruct (py_chunks_concat w l Hw) as (cs & H1 & H2).
  exists cs. split; [exact H1|]. split; [exact H2|]. intros k c Hk.
  exact (proj2 (py_chunks_sizes w l cs Hw H1 k c Hk)).
Qed.
Print Assumptions C01_chunks_partition.

Section Props.
Context {Prm Gr Opt Inp Pat Nrm Sch : Type}.
Variable gzero : Gr.
Variable gadd : Gr -> Gr -> Gr.
Variable chunk_eval : Prm -> list Inp -> list Pat -> res (R * Gr).
Variable reg_grad : Prm -> option (res Gr).
Variable ostep : Opt -> Prm -> oproc Prm Gr Opt.
Variable naccum : Nrm -> list Pat -> Nrm.
Variable nnormalize : Nrm -> pynum -> Nrm * res pynum.
Variable sched_step : Sch -> R -> Opt -> Sch * Opt.
Variable report : nat -> list R -> string.

Notation W := (world Prm Opt Inp Pat Nrm Sch).
Notation GEN := (generator Inp Pat).
Notation T := (tstate Prm Opt Inp Pat Nrm Sch).
Notation closure := (closure gzero gadd chunk_eval reg_grad).
Notation run_epoch := (run_epoch gzero gadd chunk_eval reg_grad ostep naccum nnormalize
                         sched_step report).
Notation gnext_seq := (gnext_seq gzero gadd chunk_eval reg_grad ostep naccum nnormalize
                         sched_step report).
Notation trun := (trun gzero gadd chunk_eval reg_grad ostep naccum nnormalize
                         sched_step report).
Notation consume := (consume gzero gadd chunk_eval reg_grad ostep naccum nnormalize
                         sched_step report).
Notation epochs := (epochs gzero gadd chunk_eval reg_grad ostep naccum nnormalize
                         sched_step report).
Notation hrun := (hrun gzero gadd chunk_eval reg_grad ostep naccum nnormalize
                         sched_step report).
Notation rounds := (rounds gzero gadd chunk_eval reg_grad ostep naccum nnormalize
                         sched_step report).
Notation tcalls := (tcalls gzero gadd chunk_eval reg_grad ostep naccum nnormalize
                         sched_step report).

(** C01: what the closure computes for a sum-type loss: the sum over the whole minibatch of the
    per-image losses and gradients (plus the regularizer's gradient), for every width >= 1. *)
Theorem C01_closure_is_batch_sum : forall valid li gi (w : W) width mb,
  grad_monoid gzero gadd -> sum_type gzero gadd chunk_eval valid li gi ->
  aligned mb -> Forall valid (snd mb) -> (1 <= width)%Z -> batch_rows mb <> [] -> reg_grad (m_params w) = None ->
  run_nostop (closure w width mb) =
  (w, Ok (Tens (lsum (map (fun r => li (m_params w) (fst r) (snd r)) (batch_rows mb))),
          fold_right gadd gzero (map (fun r => gi (m_params w) (fst r) (snd r)) (batch_rows mb)))).
Proof.
  intros valid li gi w width mb Hg Hs Ha Hv Hw Hne Hr.
  rewrite (closure_nostop gzero gadd chunk_eval reg_grad valid li gi w width mb Hg Hs Ha Hv Hw).
  unfold closure_result, closure_value, closure_grad, gsum. rewrite Hr.
  destruct (batch_rows mb); [contradiction|reflexivity].
Qed.

(** C01: a whole epoch (any optimizer, normalizer, scheduler, regularizer) gives the same final
    state and the same outcome for any two widths >= 1. *)
Theorem C01_calculation_width_irrelevant : forall valid li gi width1 width2 (w : W),
  grad_monoid gzero gadd -> sum_type gzero gadd chunk_eval valid li gi ->
  (forall ld, r_loader w = Some ld -> loader_aligned ld /\ loader_valid valid ld) ->
  (1 <= width1)%Z -> (1 <= width2)%Z ->
  run_nostop (run_epoch width1 w) = run_nostop (run_epoch width2 w).
Proof. exact (run_epoch_width gzero gadd chunk_eval reg_grad ostep naccum nnormalize
                sched_step report). Qed.

(** C01: width 0 is rejected. *)
Theorem C01_width_zero : forall (w : W) mb, closure w 0 mb = Fin w (Raise ValueError).
Proof. intros w [ins pats]. reflexivity. Qed.

(** C05: whatever the stop event does, an epoch either has exactly the uninterrupted outcome or
    ends in SystemExit. *)
Theorem C05_stop_is_graceful : forall width (w : W) answers,
  run_stops (run_epoch width w) answers = run_nostop (run_epoch width w) \/
  exists w', run_stops (run_epoch width w) answers = (w', Raise SystemExit).
Proof.
  intros width w answers.
  exact (graceful_run_stops _ (graceful_run_epoch gzero gadd chunk_eval reg_grad ostep naccum
    nnormalize sched_step report width w) answers).
Qed.

(** C03 (thread=False): over any history of optimize calls, next() calls on any of the
    generators in any order, and switches of reconstructor, loss_history grows exactly by the
    yielded losses, epoch = len(loss_history) is preserved, training_history only grows. *)
Theorem C03_history_sequential : forall ops gs (w : W),
  hist_ext w (snd (fst (hrun ops (gs, w)))) (yielded (snd (hrun ops (gs, w)))).
Proof. exact (hrun_hist gzero gadd chunk_eval reg_grad ostep naccum nnormalize sched_step report). Qed.

(** C03 (thread=True): the same for any schedule of worker, consumer and interrupts, and any
    sequence of optimize calls. *)
Theorem C03_history_threaded : forall calls (w w' : W),
  active w -> tcalls calls w = Some w' -> exists ls, hist_ext w w' ls.
Proof. intros calls w w' Ha. apply active_skip in Ha. revert Ha.
  exact (threaded_calls_history gzero gadd chunk_eval reg_grad ostep naccum nnormalize
                sched_step report calls w w'). Qed.

(** C03: a single epoch: one loss and one line on success, nothing on failure. *)
Theorem C03_epoch_effect : forall width (w w' : W) r,
  run_nostop (run_epoch width w) = (w', r) ->
  match r with Ok l => epoch_done w w' l | Raise _ => frame w w' end.
Proof. exact (run_epoch_hist gzero gadd chunk_eval reg_grad ostep naccum nnormalize
                sched_step report). Qed.

(** C04 (thread=False): consuming k values from optimize(iterations=n). *)
Theorem C04_consume : forall k n width ld (w : W),
  active w -> 1 <= k ->
  let '(ls, w', e) := epochs (Nat.min k n) width (started ld w) in
  fst (fst (consume k (fresh n width (Ok ld)) w)) =
  match e with
  | Some ex => map as_yield ls ++ (GRaise ex, w') :: repeat (StopIter, w') (k - S (length ls))
  | None =>
      if k <=? n then map as_yield ls
      else map as_yield ls ++ repeat (StopIter, set_curopt w' false) (k - n)
  end /\
  snd (consume k (fresh n width (Ok ld)) w) =
  match e with
  | Some _ => w'
  | None => if k <=? n then w' else set_curopt w' false
  end.
Proof. intros k n width ld w Ha. apply active_skip in Ha. revert Ha.
  exact (consume_fresh gzero gadd chunk_eval reg_grad ostep naccum nnormalize
                sched_step report k n width ld w). Qed.

(** C04: in particular each successful epoch is counted once. *)
Theorem C04_epoch_count : forall k width (w : W),
  let '(ls, w', e) := epochs k width w in
  (e = None -> length ls = k) /\ (e <> None -> length ls < k).
Proof. exact (epochs_length gzero gadd chunk_eval reg_grad ostep naccum nnormalize
                sched_step report). Qed.

(** C04: threaded = sequential.  For any k next() calls, each completed under some schedule of
    worker and consumer steps, outputs, intermediate model states, final model state and
    generator state are those of the non-threaded generator. *)
Theorem C04_threaded_equals_sequential : forall rs g (w : W),
  active w ->
  Forall (fun acts => forallb quiet acts = true) rs ->
  Forall (fun ow => exists o, fst ow = CDone o) (fst (rounds rs (tinit g w))) ->
  let '(os, g', w') := consume (length rs) g w in
  fst (rounds rs (tinit g w)) = map (fun ow => (CDone (fst ow), snd ow)) os /\
  t_world (snd (rounds rs (tinit g w))) = w' /\ t_gen (snd (rounds rs (tinit g w))) = g'.
Proof.
  intros rs g w Hsk HF Hall. apply active_skip in Hsk.
  exact (rounds_refine gzero gadd chunk_eval reg_grad ostep naccum nnormalize sched_step report
    rs (tinit g w) (conj eq_refl (conj eq_refl (conj eq_refl I))) Hsk HF Hall).
Qed.

(** C04/C05: progress.  If the epoch ends with a value or an [Exception], next() returns under
    every schedule that lets the worker and then the consumer run, and it delivers exactly the
    epoch's value or re-raises exactly its exception. *)
Theorem C05_threaded_next : forall (s : T) n w' r,
  at_rest s -> active (t_world s) -> g_pc (t_gen s) = GRunning (S n) ->
  run_nostop (run_epoch (g_width (t_gen s)) (t_world s)) = (w', r) ->
  (match r with Ok _ => True | Raise e => is_Exception e = true end) ->
  forall acts, forallb quiet acts = true ->
    (forall o, t_pc (trun (ANext :: acts) s) = CDone o ->
       t_world (trun (ANext :: acts) s) = w' /\ at_rest (trun (ANext :: acts) s) /\
       o = (match r with Ok l => Yield (Some l) | Raise e => GRaise e end) /\
       t_gen (trun (ANext :: acts) s) =
         gset_pc (t_gen s) (match r with Ok _ => GRunning n | Raise _ => GClosed end)) /\
    (forall a1 a2, acts = a1 ++ a2 ->
       S (depth (run_epoch (g_width (t_gen s)) (t_world s))) <= count is_worker a1 ->
       2 <= count is_consumer a2 ->
       exists o, t_pc (trun (ANext :: acts) s) = CDone o).
Proof. intros s n w' r Hr Ha. apply active_skip in Ha. revert Hr Ha.
  exact (thr_next_running gzero gadd chunk_eval reg_grad ostep naccum nnormalize
                sched_step report s n w' r). Qed.

(** C05: after Ctrl-C has been noticed (the consumer is joining), the worker needs at most two
    more of its own steps to end, under every schedule. *)
Theorem C05_interrupt_stops_worker : forall (wi : W) g acts,
  active wi ->
  t_pc (trun acts (tinit g wi)) = CJoin ->
  forall acts2, forallb quiet acts2 = true -> 2 <= count is_worker acts2 ->
    t_worker (trun acts2 (trun acts (tinit g wi))) = None.
Proof. intros wi g acts Ha. apply active_skip in Ha. revert Ha.
  exact (stop_two_steps gzero gadd chunk_eval reg_grad ostep naccum nnormalize
                sched_step report wi g acts). Qed.

(** C05: and then next() raises KeyboardInterrupt to the caller, the generator is closed and no
    worker is alive: under every schedule that lets the worker take two more steps and then the
    consumer one. *)
Theorem C05_interrupt_delivered : forall (wi : W) g acts,
  active wi -> t_pc (trun acts (tinit g wi)) = CJoin ->
  forall a1 a2, forallb quiet (a1 ++ a2) = true ->
    2 <= count is_worker a1 -> 1 <= count is_consumer a2 ->
    let s := trun (a1 ++ a2) (trun acts (tinit g wi)) in
    t_pc s = CDone (GRaise KeyboardInterrupt) /\ g_pc (t_gen s) = GClosed /\ t_worker s = None.
Proof. exact (interrupt_delivered gzero gadd chunk_eval reg_grad ostep naccum nnormalize
                sched_step report). Qed.

(** C05: the KeyboardInterrupt is re-raised to the caller only when the worker has ended. *)
Theorem C05_interrupt_raised_after_worker_ended : forall (wi : W) g acts,
  active wi ->
  forall s1, t_pc (trun acts (tinit g wi)) = CJoin ->
    consumer_step (trun acts (tinit g wi)) = Some s1 ->
    t_pc s1 = CDone (GRaise KeyboardInterrupt) -> t_worker s1 = None.
Proof. intros wi g acts Ha. apply active_skip in Ha. revert Ha.
  exact (thr_keyboard gzero gadd chunk_eval reg_grad ostep naccum nnormalize
                sched_step report wi g acts). Qed.

(** C05: if the epoch dies with a BaseException that is not an Exception (for instance the
    model calls exit()), next() returns under no schedule: the caller hangs. *)
Theorem C05_baseexception_hangs : forall (s : T) n w' e,
  at_rest s -> active (t_world s) -> g_pc (t_gen s) = GRunning (S n) ->
  run_nostop (run_epoch (g_width (t_gen s)) (t_world s)) = (w', Raise e) ->
  is_Exception e = false ->
  forall acts, forallb quiet acts = true ->
    forall o, t_pc (trun (ANext :: acts) s) <> CDone o.
Proof. intros s n w' e Hr Ha. apply active_skip in Ha. revert Hr Ha.
  exact (thr_next_hangs gzero gadd chunk_eval reg_grad ostep naccum nnormalize
                sched_step report s n w' e). Qed.

(** C06 (thread=True): while computation is skipped, k next() calls yield k times the last loss
    (NaN if none), run no epoch, and change nothing but model.epoch, under every schedule. *)
Theorem C06_skip_threaded : forall k (s : T) n,
  at_rest s -> skipping (t_world s) -> g_pc (t_gen s) = GRunning (k + n) ->
  forall rs, length rs = k -> Forall (fun acts => forallb quiet acts = true) rs ->
  fst (rounds rs s) =
    map (fun i => (CDone (Yield (last_loss (m_loss_history (t_world s)))), bump_epoch (S i) (t_world s))) (seq 0 k) /\
  t_world (snd (rounds rs s)) = bump_epoch k (t_world s) /\
  t_gen (snd (rounds rs s)) = gset_pc (t_gen s) (GRunning n).
Proof. intros k s n Hr Hs Hg rs Hl HF. apply skipping_skip in Hs. rewrite <- skip_value_last.
  exact (thr_skip_run gzero gadd chunk_eval reg_grad ostep naccum nnormalize
                sched_step report k s n Hr Hs Hg rs Hl HF). Qed.

(** C06 (thread=False): the claim fails in every case: the first next() raises AttributeError. *)
Theorem C06_skip_sequential_refuted : forall n width ld (w : W),
  skipping w ->
  snd (gnext_seq (fresh (S n) width (Ok ld)) w) = GRaise AttributeError.
Proof. intros n width ld w Hs. apply skipping_skip in Hs. unfold Model_Recon.gnext_seq, fresh. cbn.
  change (skip_computation (set_curopt (set_loader w (Some ld)) true)) with (skip_computation w).
  rewrite Hs. reflexivity. Qed.

End Props.
Print Assumptions C01_closure_is_batch_sum.
Print Assumptions C01_calculation_width_irrelevant.
Print Assumptions C01_width_zero.
Print Assumptions C03_history_sequential.
Print Assumptions C03_history_threaded.
Print Assumptions C03_epoch_effect.
Print Assumptions C04_consume.
Print Assumptions C04_epoch_count.
Print Assumptions C04_threaded_equals_sequential.
Print Assumptions C05_stop_is_graceful.
Print Assumptions C05_threaded_next.
Print Assumptions C05_interrupt_stops_worker.
Print Assumptions C05_interrupt_raised_after_worker_ended.
Print Assumptions C05_interrupt_delivered.
Print Assumptions C05_baseexception_hangs.
Print Assumptions C06_skip_threaded.
Print Assumptions C06_skip_sequential_refuted.

(** C10: one epoch visits exactly the selected indices, each as often as it is listed, in
    minibatches of [b] with a non-empty, possibly smaller last one; in order if not shuffled. *)
Theorem C10_epoch_visits_selection : forall (Inp Pat : Type) perm (ds : list (Inp * Pat)) sub idxs b shuffle t,
  (1 <= b)%Z -> selects sub (length ds) idxs ->
  Permutation (perm t) (seq 0 (length idxs)) ->
  Forall (fun i => i < length ds) idxs ->
  exists ld mbs sel rows,
    setup_dataloader perm ds sub (Some b) shuffle = Ok ld /\ ld t = Ok mbs /\
    Forall2 (fun i x => nth_error ds i = Some x) idxs sel /\
    concat (map (fun mb => combine (fst mb) (snd mb)) mbs) = rows /\
    Permutation rows sel /\ (shuffle = false -> rows = sel) /\
    (forall k mb, nth_error mbs k = Some mb ->
       length (fst mb) = length (snd mb) /\ 1 <= length (fst mb) <= Z.to_nat b /\
       (S k < length mbs -> length (fst mb) = Z.to_nat b)).
Proof. intros Inp Pat perm ds sub idxs b shuffle t Hb Hs HP HF. apply selects_fun in Hs. subst idxs.
  exact (setup_dataloader_visits perm ds sub b shuffle t Hb HP HF). Qed.
Print Assumptions C10_epoch_visits_selection.

(** C10: a shuffled epoch visits the selection in the order drawn for that epoch. *)
Theorem C10_shuffled_order : forall (Inp Pat : Type) perm (ds : list (Inp * Pat)) sub idxs b t,
  (1 <= b)%Z -> selects sub (length ds) idxs ->
  Forall (fun i => i < length idxs) (perm t) ->
  Forall (fun i => i < length ds) idxs ->
  exists ld mbs sel,
    setup_dataloader perm ds sub (Some b) true = Ok ld /\ ld t = Ok mbs /\
    Forall2 (fun i x => nth_error ds i = Some x) idxs sel /\
    Forall2 (fun i x => nth_error sel i = Some x) (perm t)
      (concat (map (fun mb => combine (fst mb) (snd mb)) mbs)).
Proof. exact @setup_dataloader_order. Qed.
Print Assumptions C10_shuffled_order.

(** C10: the loader is asked afresh in every epoch: the epoch started with [w_tick w] epochs
    already behind it reads exactly that entry of the loader (its exception is the epoch's; no
    other entry matters), and counts itself. *)
Theorem C10_epoch_draws_afresh :
  forall (Prm Gr Opt Inp Pat Nrm Sch : Type) gzero gadd chunk_eval reg_grad ostep naccum nnormalize
    sched_step report width (w : world Prm Opt Inp Pat Nrm Sch) ld,
  let ep := @run_epoch Prm Gr Opt Inp Pat Nrm Sch gzero gadd chunk_eval reg_grad ostep naccum
              nnormalize sched_step report width in
  r_loader w = Some ld ->
  (forall e, ld (w_tick w) = Raise e -> snd (run_nostop (ep w)) = Raise e) /\
  (forall ld', ld' (w_tick w) = ld (w_tick w) ->
     let '(w1, r1) := run_nostop (ep w) in
     run_nostop (ep (set_loader w (Some ld'))) = (set_loader w1 (Some ld'), r1)) /\
  w_tick (fst (run_nostop (ep w))) = S (w_tick w).
Proof.
  intros Prm Gr Opt Inp Pat Nrm Sch gzero gadd chunk_eval reg_grad ostep naccum nnormalize
    sched_step report width w ld ep Hl.
  destruct (epoch_consults gzero gadd chunk_eval reg_grad ostep naccum nnormalize sched_step report
    width w ld Hl) as [H1 H2].
  split; [exact H1|]. split.
  - intros ld' E. specialize (H2 ld' E). fold ep in H2. rewrite H2. unfold on_w.
    destruct (run_nostop (ep w)); reflexivity.
  - exact (epoch_tick gzero gadd chunk_eval reg_grad ostep naccum nnormalize sched_step report
      width w ld Hl).
Qed.
Print Assumptions C10_epoch_draws_afresh.

(** The loaders built by setup_dataloader meet the alignment hypothesis of C01. *)
Theorem C10_loader_aligned : forall (Inp Pat : Type) perm (ds : list (Inp * Pat)) sub b shuffle ld,
  setup_dataloader perm ds sub b shuffle = Ok ld -> loader_aligned ld.
Proof. exact @setup_dataloader_aligned. Qed.
Print Assumptions C10_loader_aligned.

(** ------------------------------------------------------------------------------------
    A concrete instance: scalar parameter, quadratic loss, gradient descent. *)
Section Instance.
Open Scope R_scope.
Definition ex_li (p i d : R) : R := (p * i - d) * (p * i - d).
Definition ex_gi (p i d : R) : R := 2 * i * (p * i - d).
Definition ex_eval (p : R) (ins pats : list R) : res (R * R) :=
  Ok (lsum (map (fun r => ex_li p (fst r) (snd r)) (combine ins pats)),
      fold_right Rplus 0 (map (fun r => ex_gi p (fst r) (snd r)) (combine ins pats))).
Definition ex_step (o : unit) (p : R) : oproc R R unit :=
  OEval o p (fun l g => ODone o (p - g) l).
Definition ex_loader : loader R R := fun _ => Ok [([1; 2], [3; 4]); ([5], [6])].
Definition ex_world (ck : option (Z * Z)) : world R unit R R unit unit :=
  mkWorld 0 [] 0%Z ""%string None ck tt None (Some ex_loader) false 0%nat.
Definition ex_report (t : nat) (l : list R) : string := "line"%string.
Definition ex_naccum (n : unit) (p : list R) : unit := n.
Definition ex_nnorm (n : unit) (l : pynum) : unit * res pynum := (n, Ok l).
Definition ex_sched (s : unit) (l : R) (o : unit) : unit * unit := (s, o).

Example C01_hypotheses_met :
  grad_monoid 0 Rplus /\ sum_type 0 Rplus ex_eval (fun _ => True) ex_li ex_gi /\
  (forall ld, r_loader (ex_world None) = Some ld -> loader_aligned ld /\ loader_valid (fun _ => True) ld) /\
  active (ex_world None).
Proof.
  split; [split; [intros; lra|split; intros; lra]|].
  split; [intros p ins pats _ _; reflexivity|].
  split; [|intros c j E; discriminate].
  intros ld H. injection H as <-. split; intros t mbs H; injection H as <-; repeat constructor.
Qed.

(** An epoch of this instance completes and appends one loss. *)
Example ex_epoch_runs :
  match run_nostop (run_epoch 0 Rplus ex_eval (fun _ => None) ex_step ex_naccum ex_nnorm
      ex_sched ex_report 1 (ex_world None)) with
  | (w', Ok l) => length (m_loss_history w') = 1%nat
  | (_, Raise _) => False
  end.
Proof. vm_compute. reflexivity. Qed.

(** C01 fails for losses that average over a chunk: the documentation's "does not affect the
    result" needs a sum-type loss. *)
Definition mean_eval (p : R) (ins pats : list R) : res (R * R) :=
  Ok (lsum (map (fun r => ex_li p (fst r) (snd r)) (combine ins pats)) / INR (length ins), 0).
Theorem C01_mean_type_loss_refuted :
  exists (mb : list R * list R) (w : world R unit R R unit unit),
    snd (run_nostop (closure 0 Rplus mean_eval (fun _ => None) w 1 mb)) <>
    snd (run_nostop (closure 0 Rplus mean_eval (fun _ => None) w 2 mb)).
Proof.
  exists ([1; 1], [1; 2]), (ex_world None). cbn. unfold lsum; cbn. intros H.
  injection H. intros _ HH. unfold ex_li in HH. field_simplify in HH; lra.
Qed.

(** C05, full claim refuted: a model whose forward pass calls exit() hangs the caller. *)
Definition exit_eval (p : R) (ins pats : list R) : res (R * R) := Raise SystemExit.
Theorem C05_never_hangs_refuted :
  exists (s : tstate R unit R R unit unit),
    at_rest s /\
    forall acts, forallb quiet acts = true ->
      forall o, t_pc (trun 0 Rplus exit_eval (fun _ => None) ex_step ex_naccum ex_nnorm
                       ex_sched ex_report (ANext :: acts) s) <> CDone o.
Proof.
  exists (mkT (ex_world None) None [] false CIdle (mkGen (GRunning 1) 1 10 (Ok ex_loader))).
  split; [repeat split|].
  intros acts Hq o.
  eapply (C05_baseexception_hangs 0 Rplus exit_eval (fun _ => None) ex_step ex_naccum ex_nnorm
           ex_sched ex_report _ 0); try reflexivity; try exact Hq.
  - repeat split.
  - intros c j E; discriminate.
Qed.

(** C05, full claim refuted: an exception other than KeyboardInterrupt raised in the polling
    loop (e.g. by a plot's event handler) reaches the caller while the worker is still running,
    and the worker goes on to change the model afterwards. *)
Theorem C05_other_exception_stops_worker_refuted :
  exists acts1 acts2,
    let run := trun 0 Rplus ex_eval (fun _ => None) ex_step ex_naccum ex_nnorm ex_sched ex_report in
    let s1 := run acts1 (tinit (fresh 1 10 (Ok ex_loader)) (ex_world None)) in
    t_pc s1 = CDone (GRaise (UserExn 0)) /\ forallb is_worker acts2 = true /\
    length (m_loss_history (t_world s1)) = 0%nat /\
    length (m_loss_history (t_world (run acts2 s1))) = 1%nat.
Proof.
  exists [ANext; AConsumer; AExn (UserExn 0)], (repeat AWorker 4).
  cbn zeta. split; [vm_compute; reflexivity|]. split; [reflexivity|].
  split; vm_compute; reflexivity.
Qed.

(** The hypotheses of the threaded theorems are met: a schedule that completes two rounds. *)
Example C04_threaded_hypotheses_met :
  let rs := [repeat AWorker 4 ++ repeat AConsumer 2; repeat AConsumer 3 ++ repeat AWorker 4 ++ repeat AConsumer 2] in
  Forall (fun acts => forallb quiet acts = true) rs /\
  Forall (fun ow => exists o, fst ow = CDone o)
    (fst (rounds 0 Rplus ex_eval (fun _ => None) ex_step ex_naccum ex_nnorm ex_sched ex_report
       rs (tinit (fresh 5 10 (Ok ex_loader)) (ex_world None)))).
Proof.
  cbn zeta. split; [repeat constructor|]. vm_compute.
  repeat constructor; eexists; reflexivity.
Qed.

Example C05_interrupt_hypotheses_met :
  t_pc (trun 0 Rplus ex_eval (fun _ => None) ex_step ex_naccum ex_nnorm ex_sched ex_report
    [ANext; AWorker; AConsumer; AExn KeyboardInterrupt]
    (tinit (fresh 5 10 (Ok ex_loader)) (ex_world None))) = CJoin.
Proof. vm_compute. reflexivity. Qed.

Example C06_hypotheses_met :
  skipping (ex_world (Some (0, 2)%Z)) /\ active (ex_world (Some (2, 2)%Z)).
Proof. split; [exists 0%Z, 2%Z; split; [reflexivity|discriminate]|].
  intros c j E. injection E as <- <-. reflexivity. Qed.

Example C10_hypotheses_met :
  selects (SubList [1; 3; 3]%nat) 4 [1; 3; 3]%nat /\ selects (SubInt 2) 4 [2]%nat /\
  selects SubNone 3 [0; 1; 2]%nat /\
  Permutation [2; 0; 1]%nat (seq 0 (length [1; 3; 3]%nat)) /\
  Forall (fun i => (i < 4)%nat) [1; 3; 3]%nat.
Proof.
  split; [constructor|]. split; [constructor|]. split.
  { constructor; [reflexivity|]. intros k Hk. do 3 (destruct k as [|k]; [reflexivity|]). lia. }
  split.
  - cbn. apply (Permutation_cons_app [0; 1]%nat [] 2%nat). apply Permutation_refl.
  - cbn. repeat constructor.
Qed.
End Instance.
Print Assumptions C01_mean_type_loss_refuted.
Print Assumptions C05_never_hangs_refuted.
Print Assumptions C05_other_exception_stops_worker_refuted.
