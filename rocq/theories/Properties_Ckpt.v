(** Property theorems about checkpointing and save_on_exit (C11, C12, C13). *)
From Verif Require Import Base Model_Ckpt Spec_Ckpt Proofs_Ckpt.

(** C11: running the script once per job id 0 .. (number of stages - 1) on any disk: every job
    but the last ends in exit(), the last one completes with the saved state of the
    uninterrupted run, and the optimize loops executed by all jobs together are exactly those of
    the uninterrupted run, in order, each once.  The script's effect on the stored state must
    not depend on state that checkpoints do not store. *)
Theorem C11_jobs_compose : forall (Sv Un Os : Type) (s0 : Sv) (u0 : Un) stem
    (stages : list (list (item Sv Un))) (d : disk Sv Os),
  stages <> [] -> Forall (Forall saved_only) stages ->
  let '(mp, tp) := run_plain (Os := Os) s0 u0 stages in
  let '(d', outs) := run_jobs s0 u0 stem stages (length stages) d in
  exists (m' : mdl Sv Un Os) tl, md_saved m' = md_saved mp /\
    last outs (Raise SystemExit, []) = (Ok m', tl) /\
    Forall (fun o => fst o = Raise SystemExit) (removelast outs) /\
    concat (map snd outs) = tp.
Proof. exact @checkpointed_run. Qed.
Print Assumptions C11_jobs_compose.

(** C11: crash point.  After jobs 0..n-1 (n < number of stages) have run, the checkpoint of job
    n-1 holds exactly the stored state the uninterrupted run has after its first n stages. *)
Theorem C11_checkpoint_contents : forall (Sv Un Os : Type) (s0 : Sv) (u0 : Un) stem
    (stages : list (list (item Sv Un))),
  Forall (Forall saved_only) stages ->
  forall n (d : disk Sv Os), n < length stages ->
  let '(d', outs) := run_jobs s0 u0 stem stages n d in
  let '(mp, tp) := run_plain (Os := Os) s0 u0 (firstn n stages) in
  (forall k, n = S k -> d' (stem, Z.of_nat k) = Some (mkCkpt (md_saved mp) None)) /\
  concat (map snd outs) = tp /\
  Forall (fun o => fst o = Raise SystemExit) outs /\ length outs = n.
Proof. exact @run_jobs_inv. Qed.
Print Assumptions C11_checkpoint_contents.

(** A script that meets the hypotheses, run for real: three stages on a counter. *)
Definition ex_stage (k : nat) : list (item nat bool) :=
  [IOptimize k (fun su => (fst su * 2 + k, snd su)) (fun s => s + 5);
   ICode (fun su => (fst su + 1, negb (snd su)))].
Example C11_hypotheses_met :
  Forall (Forall saved_only) [ex_stage 1; ex_stage 2; ex_stage 3] /\
  let '(d', outs) := run_jobs (Os := unit) 7 true "ck"%string
                       [ex_stage 1; ex_stage 2; ex_stage 3] 3 (fun _ => None) in
  map snd outs = [[1]; [2]; [3]] /\
  map (fun o => match fst o with Ok m => Some (md_saved m) | Raise _ => None end) outs
    = [None; None; Some 74].
Proof. split; [repeat constructor|]. vm_compute. split; reflexivity. Qed.

(** C11 without the hypothesis is refuted: state that checkpoints do not store (for instance a
    loss normalizer frozen in an earlier stage) makes the resumed run differ from the
    uninterrupted one.  Here the unsaved component is a normalizer constant frozen by stage 0. *)
Theorem C11_unsaved_state_refuted :
  exists (stages : list (list (item (list nat) (option nat)))),
    let '(mp, tp) := run_plain (Os := unit) [] None stages in
    let '(d', outs) := run_jobs (Os := unit) [] None "ck"%string stages (length stages) (fun _ => None) in
    forall m', fst (last outs (Raise SystemExit, [])) = Ok m' -> md_saved m' <> md_saved mp.
Proof.
  (* an optimize call over [n] pixels reports 100 / (pixels counted in the first pass) *)
  set (epoch := fun (n : nat) (su : list nat * option nat) =>
    let c := match snd su with Some c => c | None => n end in
    (fst su ++ [100 / c], Some c)).
  exists [[IOptimize 0 (epoch 10) (fun s => s)]; [IOptimize 1 (epoch 50) (fun s => s)]].
  vm_compute. intros m' H. injection H as <-. discriminate.
Qed.
Print Assumptions C11_unsaved_state_refuted.

(** C12, full claim refuted: whatever optimize calls have been started or finished on whatever
    reconstructors, no checkpoint ever contains the optimizer state. *)
Theorem C12_optimizer_state_saved_refuted : forall (Os : Type) (ops : list (optop Os)) recons,
  Forall (fun saved => saved = None) (optops (mkAttrs None recons) ops).
Proof.
  intros Os ops recons. eapply Forall_impl; [|exact (optops_never_saved ops (mkAttrs None recons) eq_refl)].
  intros a <-. reflexivity.
Qed.
Print Assumptions C12_optimizer_state_saved_refuted.
Example C12_case :
  optops (mkAttrs (Os := nat) None (fun _ => None)) [OStart 0 42; OSave; OFinish 0; OSave] = [None; None].
Proof. reflexivity. Qed.

(** C11: checkpoint() on a model for which use_checkpoints was never called raises and writes
    nothing, so a script cannot believe it has checkpointed when it has not; and the explicit
    save does not disturb any other checkpoint file. *)
Theorem C11_checkpoint_needs_use_checkpoints : forall (Sv Un Os : Type) (m : mdl Sv Un Os) (d : disk Sv Os),
  md_ids m = None ->
  fst (checkpoint m d) = d /\ exists e, snd (checkpoint m d) = Raise e.
Proof. intros Sv Un Os m d H. unfold checkpoint. rewrite H. split; [reflexivity|eexists; reflexivity]. Qed.
Print Assumptions C11_checkpoint_needs_use_checkpoints.
Theorem C11_save_checkpoint_frame : forall (Sv Un Os : Type) (m : mdl Sv Un Os) (d d' : disk Sv Os) cur job stem,
  md_ids m = Some (cur, job, stem) -> save_checkpoint m d = Ok d' ->
  forall f, f <> (stem, cur) -> d' f = d f.
Proof.
  intros Sv Un Os m d d' cur job stem H. unfold save_checkpoint. rewrite H. intros [= <-] [s k] Hf.
  unfold disk_write, fname_eqb. cbn [fst snd].
  destruct (String.eqb_spec s stem), (Z.eqb_spec k cur); subst; try reflexivity. now elim Hf.
Qed.
Print Assumptions C11_save_checkpoint_frame.

(** C12, what the checkpoint functions themselves do: a checkpoint saved by a model whose own
    current_optimizer attribute is set contains that optimizer's state, and loading it into a
    model (same stem and id) which also has a current optimizer restores exactly that state;
    the saved quantities come back in either case; and loading a checkpoint without optimizer
    state into a model with a current optimizer raises instead of silently continuing with a
    fresh optimizer. *)
Theorem C12_optimizer_state_round_trip : forall (Sv Un Os : Type) (m m2 : mdl Sv Un Os) (d d' : disk Sv Os) cur job job2 stem,
  md_ids m = Some (cur, job, stem) -> md_ids m2 = Some (cur, job2, stem) ->
  save_checkpoint m d = Ok d' ->
  (forall o o2, md_current_optimizer m = Some o -> md_current_optimizer m2 = Some o2 ->
     load_checkpoint m2 d' = Ok (mkMdl (md_saved m) (md_unsaved m2) (md_ids m2) (Some o))) /\
  (md_current_optimizer m2 = None ->
     load_checkpoint m2 d' = Ok (mkMdl (md_saved m) (md_unsaved m2) (md_ids m2) None)) /\
  (forall o2, md_current_optimizer m = None -> md_current_optimizer m2 = Some o2 ->
     load_checkpoint m2 d' = Raise KeyError).
Proof.
  intros Sv Un Os m m2 d d' cur job job2 stem H H2. unfold save_checkpoint, load_checkpoint.
  rewrite H, H2. intros [= <-]. unfold disk_write, fname_eqb. cbn [fst snd].
  rewrite String.eqb_refl, Z.eqb_refl. cbn [andb ck_saved ck_optimizer].
  repeat split; intros *; intros; repeat match goal with h : md_current_optimizer _ = _ |- _ => rewrite h; clear h end; reflexivity.
Qed.
Print Assumptions C12_optimizer_state_round_trip.
Example C12_round_trip_case :
  let m := mkMdl 5 true (Some (3%Z, 3%Z, "ck"%string)) (Some 42) in
  let m2 := mkMdl 0 false (Some (3%Z, 4%Z, "ck"%string)) (Some 0) in
  exists d', save_checkpoint m (fun _ => None) = Ok d' /\
    load_checkpoint m2 d' = Ok (mkMdl 5 false (Some (3%Z, 4%Z, "ck"%string)) (Some 42)).
Proof. eexists. split; [reflexivity|]. reflexivity. Qed.

(** C13: save_on_exit, normal end. *)
Theorem C13_save_on_exit_normal : forall (Mod File : Type) (results : Mod -> File) save filename exc m f,
  honest results save -> snd (save filename m f) = Ok tt ->
  snd (save_on_exit save filename exc m (Ok tt) f) = Ok tt /\
  wrote results filename m f (fst (save_on_exit save filename exc m (Ok tt) f)).
Proof. exact @save_on_exit_normal. Qed.
Print Assumptions C13_save_on_exit_normal.

(** C13: save_on_exit, any exception (including KeyboardInterrupt and SystemExit). *)
Theorem C13_save_on_exit_exception : forall (Mod File : Type) (results : Mod -> File) save filename exc m e f,
  honest results save ->
  let name := match exc with Some n => n | None => filename end in
  snd (save name m f) = Ok tt ->
  snd (save_on_exit save filename exc m (Raise e) f) = Raise e /\
  wrote results name m f (fst (save_on_exit save filename exc m (Raise e) f)).
Proof. exact @save_on_exit_exception. Qed.
Print Assumptions C13_save_on_exit_exception.

(** C13: save_on_exception writes only on exception. *)
Theorem C13_save_on_exception : forall (Mod File : Type) (results : Mod -> File) save filename m f,
  honest results save ->
  save_on_exception save filename m (Ok tt) f = (f, Ok tt) /\
  (forall e, snd (save filename m f) = Ok tt ->
     snd (save_on_exception save filename m (Raise e) f) = Raise e /\
     wrote results filename m f (fst (save_on_exception save filename m (Raise e) f))).
Proof. exact @save_on_exception_spec. Qed.
Print Assumptions C13_save_on_exception.

(** C13: a failing body is never reported as success, even if saving fails as well. *)
Theorem C13_failure_not_swallowed : forall (Mod File : Type) (save : string -> Mod -> fs File -> fs File * res unit)
    filename exc m body f e0,
  snd (save_on_exit save filename exc m body f) = Ok tt -> body <> Raise e0.
Proof. exact @save_on_exit_not_swallowed. Qed.
Print Assumptions C13_failure_not_swallowed.

Definition ex_save (name : string) (m : nat) (f : fs nat) : fs nat * res unit :=
  ((fun g => if String.eqb g name then Some m else f g), Ok tt).
Example C13_hypotheses_met : honest (fun m : nat => m) ex_save.
Proof. intros name m f _ g. reflexivity. Qed.

(** C13, "re-raises the same exception" fails when the save itself fails: the user sees the
    error of the save. *)
Theorem C13_same_exception_when_save_fails_refuted :
  exists (save : string -> nat -> fs nat -> fs nat * res unit) filename m e f,
    snd (save_on_exit save filename None m (Raise e) f) <> Raise e /\
    snd (save_on_exit save filename None m (Raise e) f) <> Ok tt.
Proof.
  exists (fun _ _ f => (f, Raise OSError)), "out.h5"%string, 0, KeyboardInterrupt, (fun _ => None).
  split; discriminate.
Qed.
Print Assumptions C13_same_exception_when_save_fails_refuted.
