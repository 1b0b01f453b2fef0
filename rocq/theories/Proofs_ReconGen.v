(** Lemmas about the optimize generators, sequential and threaded. *)
From Verif Require Import Base Model_Recon Spec_Recon Proofs_Recon.

Section Gen.
Context {Prm Gr Opt Inp Pat Nrm Sch : Type}.
Variable gzero : Gr.
Variable gadd : Gr -> Gr -> Gr.
Variable chunk_eval : Prm -> list Inp -> list Pat -> res (R * Gr).
Variable reg_grad : Prm -> option (res Gr).
Variable ostep : Opt -> Prm -> oproc Prm Gr Opt.
Variable naccum : Nrm -> list Pat -> Nrm.
Variable nnormalize : Nrm -> pynum -> Nrm * res pynum.
Variable sched_step : Sch -> R -> Opt -> Sch * Opt.
Variable report : nat -> list R -> string.

Notation W := (world Prm Opt Inp Pat Nrm Sch).
Notation GEN := (generator Inp Pat).
Notation T := (tstate Prm Opt Inp Pat Nrm Sch).
Notation run_epoch := (run_epoch gzero gadd chunk_eval reg_grad ostep naccum nnormalize
                         sched_step report).
Notation loop_seq := (loop_seq gzero gadd chunk_eval reg_grad ostep naccum nnormalize
                         sched_step report).
Notation gnext_seq := (gnext_seq gzero gadd chunk_eval reg_grad ostep naccum nnormalize
                         sched_step report).
Notation tstep := (tstep gzero gadd chunk_eval reg_grad ostep naccum nnormalize
                         sched_step report).
Notation trun := (trun gzero gadd chunk_eval reg_grad ostep naccum nnormalize
                         sched_step report).
Notation loop_thr := (loop_thr gzero gadd chunk_eval reg_grad ostep naccum nnormalize
                         sched_step report).
Notation consumer_next := (consumer_next gzero gadd chunk_eval reg_grad ostep naccum nnormalize
                         sched_step report).
Notation epoch_worlds := (run_epoch_worlds gzero gadd chunk_eval reg_grad ostep naccum nnormalize
                         sched_step report).
Notation epoch_hist := (run_epoch_hist gzero gadd chunk_eval reg_grad ostep naccum nnormalize
                         sched_step report).
Notation epoch_graceful := (graceful_run_epoch gzero gadd chunk_eval reg_grad ostep naccum
                         nnormalize sched_step report).

Notation consume := (consume gzero gadd chunk_eval reg_grad ostep naccum nnormalize
                         sched_step report).
Notation epochs := (epochs gzero gadd chunk_eval reg_grad ostep naccum nnormalize
                         sched_step report).
Notation hstep := (hstep gzero gadd chunk_eval reg_grad ostep naccum nnormalize
                         sched_step report).
Notation hrun := (hrun gzero gadd chunk_eval reg_grad ostep naccum nnormalize
                         sched_step report).
Notation tcalls := (tcalls gzero gadd chunk_eval reg_grad ostep naccum nnormalize
                         sched_step report).
Notation rounds := (rounds gzero gadd chunk_eval reg_grad ostep naccum nnormalize
                         sched_step report).

(** ---- sequential generator ---- *)

Lemma skip_frame (w w' : W) : m_ckpt w' = m_ckpt w -> skip_computation w' = skip_computation w.
Proof. unfold skip_computation. now intros ->. Qed.

Lemma epoch_ckpt width (w w' : W) r :
  run_nostop (run_epoch width w) = (w', r) -> m_ckpt w' = m_ckpt w.
Proof.
  intros H. apply epoch_hist in H. destruct r as [l|e].
  - destruct H as (_ & _ & _ & H & _). exact H.
  - destruct H as (_ & _ & _ & H & _). exact H.
Qed.

Lemma consume_closed k n width ld (w : W) :
  consume k (mkGen GClosed n width ld) w =
  (repeat (StopIter, w) k, mkGen GClosed n width ld, w).
Proof.
  induction k as [|k IH]; simpl; [reflexivity|]. rewrite IH. reflexivity.
Qed.

(** what consuming k values of a loop with n iterations left does *)
Lemma consume_running k : forall n width ld n0 (w : W),
  skip_computation w = false ->
  let '(ls, w', e) := epochs (Nat.min k n) width w in
  consume k (mkGen (GRunning n) n0 width ld) w =
  match e with
  | Some ex =>
      (map as_yield ls ++ (GRaise ex, w') :: repeat (StopIter, w') (k - S (length ls)),
       mkGen GClosed n0 width ld, w')
  | None =>
      if k <=? n then (map as_yield ls, mkGen (GRunning (n - k)) n0 width ld, w')
      else (map as_yield ls ++ repeat (StopIter, set_curopt w' false) (k - n),
            mkGen GClosed n0 width ld, set_curopt w' false)
  end.
Proof.
  induction k as [|k IH]; intros n width ld n0 w Hs.
  - simpl. now rewrite Nat.sub_0_r.
  - destruct n as [|n].
    + cbn [Nat.min Spec_Recon.epochs]. cbn [Spec_Recon.consume Model_Recon.gnext_seq g_pc Model_Recon.loop_seq].
      cbn [g_iterations g_width g_loader].
      rewrite consume_closed. simpl. reflexivity.
    + cbn [Nat.min Spec_Recon.epochs Spec_Recon.consume Model_Recon.gnext_seq g_pc Model_Recon.loop_seq].
      rewrite Hs. cbn [g_iterations g_width g_loader].
      destruct (run_nostop (run_epoch width w)) as [w1 [l|ex]] eqn:E.
      * assert (Hs1 : skip_computation w1 = false)
          by (rewrite (skip_frame w); [exact Hs|eapply epoch_ckpt; eassumption]).
        specialize (IH n width ld n0 w1 Hs1).
        destruct (epochs (Nat.min k n) width w1) as [[ls w2] e].
        rewrite IH. destruct e as [ex|].
        -- reflexivity.
        -- cbn [Nat.leb]. destruct (k <=? n); reflexivity.
      * rewrite consume_closed. simpl. rewrite Nat.sub_0_r. reflexivity.
Qed.

Lemma gnext_fresh n width ld (w : W) :
  gnext_seq (fresh n width (Ok ld)) w =
  loop_seq (fresh n width (Ok ld)) n (started ld w).
Proof. reflexivity. Qed.

Lemma consume_fresh k n width ld (w : W) :
  skip_computation w = false -> 1 <= k ->
  let '(ls, w', e) := epochs (Nat.min k n) width (started ld w) in
  fst (fst (consume k (fresh n width (Ok ld)) w)) =
  match e with
  | Some ex => map as_yield ls ++ (GRaise ex, w') :: repeat (StopIter, w') (k - S (length ls))
  | None =>
      if k <=? n then map as_yield ls
      else map as_yield ls ++ repeat (StopIter, set_curopt w' false) (k - n)
  end /\
  snd (consume k (fresh n width (Ok ld)) w) =
  match e with
  | Some _ => w'
  | None => if k <=? n then w' else set_curopt w' false
  end.
Proof.
  intros Hs Hk.
  assert (Heq : consume k (fresh n width (Ok ld)) w =
                consume k (mkGen (GRunning n) n width (Ok ld)) (started ld w)).
  { destruct k as [|k]; [lia|]. cbn [Spec_Recon.consume]. rewrite gnext_fresh. reflexivity. }
  rewrite Heq.
  assert (Hs' : skip_computation (started ld w) = false) by exact Hs.
  pose proof (consume_running k n width (Ok ld) n (started ld w) Hs') as H.
  destruct (epochs (Nat.min k n) width (started ld w)) as [[ls w'] e].
  rewrite H. destruct e as [ex|]; [|destruct (k <=? n)]; split; reflexivity.
Qed.

Lemma epochs_length k : forall width (w : W),
  let '(ls, w', e) := epochs k width w in
  (e = None -> length ls = k) /\ (e <> None -> length ls < k).
Proof.
  induction k as [|k IH]; intros width w; simpl.
  - split; [reflexivity|congruence].
  - destruct (run_nostop (run_epoch width w)) as [w1 [l|ex]].
    + specialize (IH width w1). destruct (epochs k width w1) as [[ls w2] e]. simpl.
      destruct IH as [H1 H2]. split; intros H; [now rewrite H1|]. specialize (H2 H). lia.
    + simpl. split; [discriminate|lia].
Qed.

Lemma yielded_app a b : yielded (a ++ b) = yielded a ++ yielded b.
Proof. induction a as [|[[l|]| |e] a IH]; simpl; rewrite ?IH; reflexivity. Qed.

Lemma append_assoc a b c : ((a ++ b) ++ c)%string = (a ++ (b ++ c))%string.
Proof. induction a as [|x a IH]; simpl; [reflexivity|now rewrite IH]. Qed.
Lemma append_nil a : (a ++ "")%string = a.
Proof. induction a as [|x a IH]; simpl; [reflexivity|now rewrite IH]. Qed.

Lemma hist_ext_refl (w : W) : hist_ext w w [].
Proof.
  split; [now rewrite app_nil_r|]. split; [auto|]. exists ""%string. now rewrite append_nil.
Qed.
Lemma hist_ext_trans (a b c : W) l1 l2 : hist_ext a b l1 -> hist_ext b c l2 -> hist_ext a c (l1 ++ l2).
Proof.
  intros (A1 & A2 & s1 & A3) (B1 & B2 & s2 & B3).
  split; [rewrite B1, A1; now rewrite app_assoc|]. split; [auto|].
  exists (s1 ++ s2)%string. rewrite B3, A3. apply append_assoc.
Qed.

Lemma hist_ext_epoch width (w w' : W) r :
  run_nostop (run_epoch width w) = (w', r) ->
  hist_ext w w' (match r with Ok l => [l] | Raise _ => [] end).
Proof.
  intros H. apply epoch_hist in H. destruct r as [l|e].
  - destruct H as (H1 & H2 & (line & H3 & _) & _). split; [exact H1|]. split; [auto|].
    exists line. exact H3.
  - destruct H as (H1 & H2 & H3 & _). split; [now rewrite app_nil_r|].
    split; [now rewrite H1, H2|]. exists ""%string. now rewrite append_nil.
Qed.

Lemma loop_seq_hist g n (w : W) :
  hist_ext w (snd (fst (loop_seq g n w))) (yielded [snd (loop_seq g n w)]).
Proof.
  destruct n as [|n]; cbn [Model_Recon.loop_seq].
  - cbn [fst snd yielded]. exact (hist_ext_refl w).
  - destruct (skip_computation w); [cbn [fst snd yielded]; exact (hist_ext_refl w)|].
    destruct (run_nostop (run_epoch (g_width g) w)) as [w1 [l|e]] eqn:E; cbn [fst snd yielded];
      exact (hist_ext_epoch _ _ _ _ E).
Qed.

Lemma gnext_hist g (w : W) :
  hist_ext w (snd (fst (gnext_seq g w))) (yielded [snd (gnext_seq g w)]).
Proof.
  unfold Model_Recon.gnext_seq. destruct (g_pc g) as [|n|].
  - destruct (g_loader g) as [ld|e]; [|exact (hist_ext_refl w)].
    pose proof (loop_seq_hist g (g_iterations g) (started ld w)) as H. exact H.
  - apply loop_seq_hist.
  - exact (hist_ext_refl w).
Qed.

Lemma hrun_hist ops : forall gs (w : W),
  hist_ext w (snd (fst (hrun ops (gs, w)))) (yielded (snd (hrun ops (gs, w)))).
Proof.
  induction ops as [|op ops IH]; intros gs w; cbn [Spec_Recon.hrun]; [exact (hist_ext_refl w)|].
  destruct op as [n width ld|i|o s]; cbn [Spec_Recon.hstep].
  - specialize (IH (gs ++ [fresh n width ld]) w).
    destruct (hrun ops (gs ++ [fresh n width ld], w)) as [[gs2 w2] o2]. exact IH.
  - destruct (nth_error gs i) as [g|].
    + pose proof (gnext_hist g w) as H1.
      destruct (gnext_seq g w) as [[g' w'] o]. cbn [fst snd] in H1.
      specialize (IH (firstn i gs ++ g' :: skipn (S i) gs) w').
      destruct (hrun ops (firstn i gs ++ g' :: skipn (S i) gs, w')) as [[gs2 w2] o2].
      cbn [fst snd] in *. rewrite yielded_app. eapply hist_ext_trans; eassumption.
    + specialize (IH gs w). destruct (hrun ops (gs, w)) as [[gs2 w2] o2]. exact IH.
  - specialize (IH gs (set_loader (set_sched w s o) None)).
    destruct (hrun ops (gs, set_loader (set_sched w s o) None)) as [[gs2 w2] o2]. exact IH.
Qed.

(** ---- threaded generator ---- *)
(** Simulation relation for one next(): the sequential result is (g', w', o). *)
Definition rel (w' : W) (r : res R) (g2 : GEN) (s : T) : Prop :=
  t_stop s = false /\
  match t_pc s with
  | CPoll =>
      match t_worker s with
      | Some p => run_nostop p = (w', r) /\ t_queue s = [] /\ t_gen s = g2
      | None => t_world s = w' /\ t_queue s = worker_put [] r /\ t_gen s = g2
      end
  | CGet => t_worker s = None /\ t_world s = w' /\ t_queue s = worker_put [] r /\ t_gen s = g2
  | CDone o =>
      t_worker s = None /\ t_world s = w' /\ t_queue s = [] /\
      match r with
      | Ok l => o = Yield (Some l) /\ t_gen s = g2
      | Raise e => is_Exception e = true /\ o = GRaise e /\ t_gen s = gset_pc g2 GClosed
      end
  | _ => False
  end.

Lemma proc_world_fin {A} (p : @proc Prm Opt Inp Pat Nrm Sch A) w r : p = Fin w r -> proc_world p = w.
Proof. now intros ->. Qed.

Lemma rel_step w' r g2 s a s1 :
  rel w' r g2 s -> quiet a = true -> tstep a s = Some s1 -> rel w' r g2 s1.
Proof.
  intros [Hst Hrel] Hq Hstep. destruct a; try discriminate; cbn [Model_Recon.tstep] in Hstep.
  - (* worker *)
    unfold worker_step in Hstep.
    destruct (t_pc s) eqn:Epc; try (destruct Hrel as (Hw & _); rewrite Hw in Hstep; discriminate);
      try contradiction.
    destruct (t_worker s) as [[w r0|w k]|] eqn:Ew; [| |discriminate].
    + injection Hstep as <-. destruct Hrel as (H1 & H2 & H3). cbn in H1. injection H1 as -> ->.
      split; [exact Hst|]. cbn. rewrite ?Epc. rewrite H2. auto.
    + injection Hstep as <-. destruct Hrel as (H1 & H2 & H3). rewrite Hst in *. cbn in H1.
      split; [reflexivity|]. cbn. rewrite ?Epc. auto.
  - (* consumer *)
    unfold consumer_step in Hstep.
    destruct (t_pc s) eqn:Epc; try discriminate; try contradiction.
    + destruct (t_worker s) as [p|] eqn:Ew; injection Hstep as <-.
      * split; [exact Hst|]. rewrite ?Epc, ?Ew. exact Hrel.
      * split; [exact Hst|]. cbn. tauto.
    + destruct Hrel as (Hw & Hww & Hqu & Hg).
      destruct r as [l|e]; cbn in Hqu.
      * rewrite Hqu in Hstep. injection Hstep as <-. split; [exact Hst|]. cbn. tauto.
      * destruct (is_Exception e) eqn:Ee; rewrite Hqu in Hstep; [|discriminate].
        injection Hstep as <-. split; [exact Hst|]. cbn. rewrite Hg. tauto.
Qed.

Lemma rel_run w' r g2 acts : forall s,
  rel w' r g2 s -> forallb quiet acts = true -> rel w' r g2 (trun acts s).
Proof.
  induction acts as [|a acts IH]; intros s Hr Hq; [exact Hr|].
  cbn [forallb] in Hq. apply andb_true_iff in Hq as [Hq1 Hq2].
  cbn [Model_Recon.trun]. destruct (tstep a s) as [s1|] eqn:E.
  - apply IH; [eapply rel_step; eassumption|exact Hq2].
  - apply IH; assumption.
Qed.

(** how much work the worker still has to do *)
Definition work (s : T) : nat :=
  match t_worker s with Some p => S (depth p) | None => 0 end.
Definition cwork (s : T) : nat :=
  match t_pc s with CPoll => 2 | CGet => 1 | _ => 0 end.

Lemma quiet_work acts : forall s w' r g2,
  rel w' r g2 s -> forallb quiet acts = true ->
  work (trun acts s) <= work s - count is_worker acts.
Proof.
  induction acts as [|a acts IH]; intros s w' r g2 Hr Hq; [unfold count; simpl; lia|].
  cbn [forallb] in Hq. apply andb_true_iff in Hq as [Hq1 Hq2].
  destruct a; try discriminate; cbn [Model_Recon.trun Model_Recon.tstep].
  - unfold count. cbn [filter is_worker length].
    destruct (worker_step s) as [s1|] eqn:E.
    + assert (Hr1 : rel w' r g2 s1) by (eapply (rel_step _ _ _ _ AWorker); eauto).
      specialize (IH s1 _ _ _ Hr1 Hq2). unfold count in IH.
      assert (work s1 = work s - 1).
      { unfold worker_step in E. unfold work. destruct (t_worker s) as [[w r0|w k]|]; [| |discriminate].
        - injection E as <-. reflexivity.
        - destruct Hr as [Hst _]. rewrite Hst in E. injection E as <-. cbn. lia. }
      lia.
    + specialize (IH s _ _ _ Hr Hq2). unfold count in IH.
      assert (work s = 0).
      { unfold worker_step in E. unfold work. destruct (t_worker s) as [[|]|]; [discriminate..|reflexivity]. }
      lia.
  - unfold count. cbn [filter is_worker length].
    destruct (consumer_step s) as [s1|] eqn:E.
    + assert (Hr1 : rel w' r g2 s1) by (eapply (rel_step _ _ _ _ AConsumer); eauto).
      specialize (IH s1 _ _ _ Hr1 Hq2). unfold count in IH.
      assert (work s1 = work s).
      { unfold consumer_step in E. unfold work.
        destruct (t_pc s); try discriminate.
        - destruct (t_worker s) eqn:Ew; injection E as <-; cbn; rewrite ?Ew; reflexivity.
        - destruct (t_queue s) as [|[l|e] q]; [discriminate|..]; injection E as <-; reflexivity.
        - destruct (t_worker s) eqn:Ew; injection E as <-; cbn; rewrite ?Ew; reflexivity. }
      lia.
    + specialize (IH s _ _ _ Hr Hq2). unfold count in IH. lia.
Qed.

(** once the worker is gone, the consumer needs two steps *)
Lemma quiet_cwork acts : forall s w' r g2,
  rel w' r g2 s -> forallb quiet acts = true -> t_worker s = None ->
  (match r with Ok _ => True | Raise e => is_Exception e = true end) ->
  cwork (trun acts s) <= cwork s - count is_consumer acts.
Proof.
  induction acts as [|a acts IH]; intros s w' r g2 Hr Hq Hnw Hex; [unfold count; simpl; lia|].
  cbn [forallb] in Hq. apply andb_true_iff in Hq as [Hq1 Hq2].
  destruct a; try discriminate; cbn [Model_Recon.trun Model_Recon.tstep].
  - unfold count. cbn [filter is_consumer length]. unfold worker_step. rewrite Hnw.
    exact (IH s _ _ _ Hr Hq2 Hnw Hex).
  - unfold count. cbn [filter is_consumer length].
    destruct (consumer_step s) as [s1|] eqn:E.
    + assert (Hr1 : rel w' r g2 s1) by (eapply (rel_step _ _ _ _ AConsumer); eauto).
      assert (Hnw1 : t_worker s1 = None /\ cwork s1 = cwork s - 1).
      { unfold consumer_step in E. unfold cwork. destruct (t_pc s) eqn:Ep; try discriminate.
        - rewrite Hnw in E. injection E as <-. cbn. auto.
        - destruct (t_queue s) as [|[l|e] q]; [discriminate|..]; injection E as <-; cbn; auto.
        - destruct Hr as [_ Hr]. rewrite Ep in Hr. contradiction. }
      destruct Hnw1 as [Hnw1 Hc].
      specialize (IH s1 _ _ _ Hr1 Hq2 Hnw1 Hex). unfold count in IH. lia.
    + specialize (IH s _ _ _ Hr Hq2 Hnw Hex). unfold count in IH.
      assert (cwork s = 0).
      { unfold consumer_step in E. unfold cwork. destruct Hr as [_ Hr].
        destruct (t_pc s); try reflexivity; rewrite ?Hnw in E; try discriminate.
        destruct Hr as (_ & _ & Hqu & _). rewrite Hqu in E.
        destruct r as [l|e]; cbn in E; [discriminate|]. rewrite Hex in E. discriminate. }
      lia.
Qed.

(** from rest, ANext of a running loop sets up the relation *)
Lemma next_rel s n :
  at_rest s -> skip_computation (t_world s) = false -> g_pc (t_gen s) = GRunning (S n) ->
  exists s1, tstep ANext s = Some s1 /\ t_pc s1 = CPoll /\
    let '(w', r) := run_nostop (run_epoch (g_width (t_gen s)) (t_world s)) in
    rel w' r (gset_pc (t_gen s) (GRunning n)) s1 /\
    work s1 = S (depth (run_epoch (g_width (t_gen s)) (t_world s))).
Proof.
  intros (H1 & H2 & H3 & H4) Hsk Hpc. cbn [Model_Recon.tstep Model_Recon.consumer_next].
  unfold Model_Recon.consumer_next. rewrite Hpc.
  destruct (t_pc s) eqn:Ep; try contradiction;
   (eexists; split; [reflexivity|]; unfold Model_Recon.loop_thr; rewrite Hsk;
    split; [reflexivity|];
    destruct (run_nostop _) as [w' r] eqn:E; split; [|reflexivity];
    split; [exact H3|]; cbn; rewrite H2; auto).
Qed.

Lemma trun_app acts1 acts2 s : trun (acts1 ++ acts2) s = trun acts2 (trun acts1 s).
Proof.
  revert s; induction acts1 as [|a acts IH]; intros s; [reflexivity|].
  cbn [app Model_Recon.trun]. destruct (tstep a s); apply IH.
Qed.

Lemma forallb_app' (f : tact -> bool) a b : forallb f (a ++ b) = true -> forallb f a = true /\ forallb f b = true.
Proof. rewrite forallb_app. apply andb_true_iff. Qed.

(** Main lemma: one threaded next() on a running loop. *)
Lemma thr_next_running s n w' r :
  at_rest s -> skip_computation (t_world s) = false -> g_pc (t_gen s) = GRunning (S n) ->
  run_nostop (run_epoch (g_width (t_gen s)) (t_world s)) = (w', r) ->
  (match r with Ok _ => True | Raise e => is_Exception e = true end) ->
  forall acts, forallb quiet acts = true ->
    (* safety: whatever next() delivers is the sequential result *)
    (forall o, t_pc (trun (ANext :: acts) s) = CDone o ->
       t_world (trun (ANext :: acts) s) = w' /\ at_rest (trun (ANext :: acts) s) /\
       o = (match r with Ok l => Yield (Some l) | Raise e => GRaise e end) /\
       t_gen (trun (ANext :: acts) s) =
         gset_pc (t_gen s) (match r with Ok _ => GRunning n | Raise _ => GClosed end)) /\
    (* progress: enough worker steps followed by two consumer steps deliver it *)
    (forall a1 a2, acts = a1 ++ a2 ->
       S (depth (run_epoch (g_width (t_gen s)) (t_world s))) <= count is_worker a1 ->
       2 <= count is_consumer a2 ->
       exists o, t_pc (trun (ANext :: acts) s) = CDone o).
Proof.
  intros Hrest Hsk Hpc Hrun Hex acts Hq.
  destruct (next_rel s n Hrest Hsk Hpc) as (s1 & Hn & Hp1 & Hrel). rewrite Hrun in Hrel.
  destruct Hrel as [Hrel Hwork].
  assert (Htr : trun (ANext :: acts) s = trun acts s1).
  { cbn [Model_Recon.trun]. rewrite Hn. reflexivity. }
  rewrite Htr. split.
  - intros o Ho. pose proof (rel_run _ _ _ acts s1 Hrel Hq) as Hr.
    destruct Hr as [Hst Hr]. rewrite Ho in Hr. destruct Hr as (Hw & Hww & Hqu & Hr).
    split; [exact Hww|]. split; [repeat split; try assumption; rewrite Ho; exact I|].
    destruct r as [l|e]; [exact Hr|]. destruct Hr as (_ & Hoe & Hg). split; [exact Hoe|exact Hg].
  - intros a1 a2 -> Hc1 Hc2. apply forallb_app' in Hq as [Hq1 Hq2]. rewrite trun_app.
    pose proof (rel_run _ _ _ a1 s1 Hrel Hq1) as Hr1.
    pose proof (quiet_work a1 s1 _ _ _ Hrel Hq1) as Hw1. rewrite Hwork in Hw1.
    assert (Hnw : t_worker (trun a1 s1) = None).
    { unfold work in Hw1 at 1. destruct (t_worker (trun a1 s1)); [lia|reflexivity]. }
    pose proof (quiet_cwork a2 _ _ _ _ Hr1 Hq2 Hnw Hex) as Hcw.
    assert (cwork (trun a1 s1) <= 2) by (unfold cwork; clear; destruct (t_pc (trun a1 s1)); lia).
    pose proof (rel_run _ _ _ a2 _ Hr1 Hq2) as [Hst2 Hr2].
    unfold cwork in Hcw at 1.
    destruct (t_pc (trun a2 (trun a1 s1))) as [| | | |o]; try lia; try contradiction. eauto.
Qed.

(** If the epoch dies with a BaseException that is not an Exception, next() never returns. *)
Lemma thr_next_hangs s n w' e :
  at_rest s -> skip_computation (t_world s) = false -> g_pc (t_gen s) = GRunning (S n) ->
  run_nostop (run_epoch (g_width (t_gen s)) (t_world s)) = (w', Raise e) ->
  is_Exception e = false ->
  forall acts, forallb quiet acts = true ->
    forall o, t_pc (trun (ANext :: acts) s) <> CDone o.
Proof.
  intros Hrest Hsk Hpc Hrun Hex acts Hq o Ho.
  destruct (next_rel s n Hrest Hsk Hpc) as (s1 & Hn & Hp1 & Hrel). rewrite Hrun in Hrel.
  destruct Hrel as [Hrel _].
  assert (Htr : trun (ANext :: acts) s = trun acts s1).
  { cbn [Model_Recon.trun]. rewrite Hn. reflexivity. }
  rewrite Htr in Ho. pose proof (rel_run _ _ _ acts s1 Hrel Hq) as [_ Hr].
  rewrite Ho in Hr. destruct Hr as (_ & _ & _ & Hr). destruct Hr as [Hr _]. congruence.
Qed.

(** ---- all schedules, including interrupts ---- *)

(** worlds a worker may still leave behind, relative to the world w0 when its epoch started *)
Definition epoch_or_frame (w0 w : W) : Prop := frame w0 w \/ exists l, epoch_done w0 w l.

Definition wgood (w0 : W) (p : proc R) : Prop :=
  graceful p /\
  all_worlds (frame w0) (fun w' r => match r with Ok l => epoch_done w0 w' l
                                             | Raise _ => frame w0 w' end) p.

Lemma wgood_world w0 p : wgood w0 p -> epoch_or_frame w0 (proc_world p).
Proof.
  intros [_ H]. destruct p as [w [l|e]|w k]; cbn in *.
  - right. eauto.
  - now left.
  - left. apply H.
Qed.

(** Invariant: [w0] is the world before the epoch being run / last run by the generator *)
Definition TInv (w0 : W) (s : T) : Prop :=
  epoch_or_frame w0 (t_world s) /\
  length (t_queue s) <= 1 /\
  (match t_worker s with
   | Some p => wgood w0 p /\ proc_world p = t_world s /\ t_queue s = []
   | None => True
   end) /\
  match t_pc s with
  | CIdle | CDone _ =>
      (g_pc (t_gen s) <> GClosed -> t_worker s = None /\ t_queue s = [] /\ t_stop s = false)
  | CPoll => t_stop s = false
  | CGet => t_worker s = None /\ t_stop s = false
  | CJoin => t_stop s = true
  end.

Definition hist_step (w0 w : W) (ls : list R) : Prop := hist_ext w0 w ls.

Lemma epoch_or_frame_ext w0 w : epoch_or_frame w0 w -> exists ls, hist_ext w0 w ls.
Proof.
  intros [H|[l H]].
  - destruct H as (H1 & H2 & H3 & _). exists []. split; [now rewrite app_nil_r|].
    split; [now rewrite H1, H2|]. exists ""%string. now rewrite append_nil.
  - destruct H as (H1 & H2 & (line & H3 & _) & _). exists [l]. split; [exact H1|].
    split; [auto|]. eauto.
Qed.

Lemma epoch_or_frame_ckpt w0 w : epoch_or_frame w0 w -> m_ckpt w = m_ckpt w0.
Proof.
  intros [H|[l H]].
  - destruct H as (_ & _ & _ & H & _). exact H.
  - destruct H as (_ & _ & _ & H & _). exact H.
Qed.

Definition TI (wi : W) (s : T) : Prop :=
  exists w0 ls0, hist_ext wi w0 ls0 /\ m_ckpt w0 = m_ckpt wi /\ TInv w0 s.

Lemma loop_thr_inv wi s n w :
  skip_computation wi = false ->
  (exists ls, hist_ext wi w ls) -> m_ckpt w = m_ckpt wi ->
  t_worker s = None -> t_queue s = [] -> t_stop s = false ->
  TI wi (loop_thr s n w).
Proof.
  intros Hsk [ls Hext] Hck H1 H2 H3. unfold Model_Recon.loop_thr. destruct n as [|n].
  - exists (set_curopt w false), ls. split; [exact Hext|]. split; [exact Hck|].
    split; [left; apply frame_refl|]. cbn. rewrite H1, H2. cbn.
    repeat split; try lia; congruence.
  - rewrite (skip_frame wi) by exact Hck. rewrite Hsk.
    exists w, ls. split; [exact Hext|]. split; [exact Hck|].
    assert (Hg : wgood w (run_epoch (g_width (t_gen s)) w)).
    { split; [apply epoch_graceful|apply epoch_worlds]. }
    split; [apply wgood_world; exact Hg|]. cbn. rewrite H2. cbn.
    repeat split; try lia; try assumption; apply Hg.
Qed.

Lemma TI_step wi s a s1 :
  skip_computation wi = false -> TI wi s -> tstep a s = Some s1 -> TI wi s1.
Proof.
  intros Hsk (w0 & ls0 & Hext & Hck & HI) Hstep. destruct HI as (Hw & Hq & Hwk & Hpc).
  assert (Hcw : m_ckpt (t_world s) = m_ckpt wi)
    by (rewrite (epoch_or_frame_ckpt _ _ Hw); exact Hck).
  assert (Hextw : exists ls, hist_ext wi (t_world s) ls).
  { destruct (epoch_or_frame_ext _ _ Hw) as [l2 H2]. exists (ls0 ++ l2).
    eapply hist_ext_trans; eassumption. }
  destruct a as [| | |e]; cbn [Model_Recon.tstep] in Hstep.
  - (* worker *)
    unfold worker_step in Hstep. destruct (t_worker s) as [[w r|w k]|] eqn:Ew; [| |discriminate].
    + injection Hstep as <-. destruct Hwk as (Hg & Hpw & Hqq). cbn in Hpw.
      exists w0, ls0. split; [exact Hext|]. split; [exact Hck|].
      split; [cbn; rewrite Hpw; exact Hw|]. cbn. rewrite Hqq.
      split; [destruct r as [l|e]; cbn; [lia|destruct (is_Exception e); cbn; lia]|].
      split; [exact I|].
      destruct (t_pc s); try tauto.
      * intros Hg'. destruct (Hpc Hg') as (Habs & _). discriminate.
      * intros Hg'. destruct (Hpc Hg') as (Habs & _). discriminate.
    + destruct Hwk as ((Hgr & Hall) & Hpw & Hqq). cbn in Hgr, Hall.
      assert (Hg' : wgood w0 (k (t_stop s))).
      { destruct Hgr as [Hk1 Hk2]. destruct Hall as [_ Hall]. split; [|apply Hall].
        destruct (t_stop s); [rewrite Hk1; exact I|exact Hk2]. }
      injection Hstep as <-.
      exists w0, ls0. split; [exact Hext|]. split; [exact Hck|].
      split; [cbn; apply wgood_world; exact Hg'|]. cbn. split; [exact Hq|].
      split; [auto|].
      destruct (t_pc s); try tauto.
      * intros Hgc. destruct (Hpc Hgc) as (Habs & _). discriminate.
      * destruct Hpc as [Habs _]. discriminate.
      * intros Hgc. destruct (Hpc Hgc) as (Habs & _). discriminate.
  - (* consumer *)
    unfold consumer_step in Hstep. destruct (t_pc s) eqn:Ep; try discriminate.
    + destruct (t_worker s) as [p|] eqn:Ew; injection Hstep as <-.
      * exists w0, ls0. split; [exact Hext|]. split; [exact Hck|].
        split; [exact Hw|]. rewrite ?Ew, ?Ep. auto.
      * exists w0, ls0. split; [exact Hext|]. split; [exact Hck|].
        split; [exact Hw|]. cbn. auto.
    + destruct Hpc as [Hnw Hst]. rewrite Hnw in *.
      destruct (t_queue s) as [|[l|e] q] eqn:Eq; [discriminate|..]; injection Hstep as <-;
        (exists w0, ls0; split; [exact Hext|]; split; [exact Hck|];
         split; [exact Hw|]; cbn in *;
         assert (q = []) as -> by (destruct q; [reflexivity|cbn in Hq; lia]);
         cbn; repeat split; try lia; auto).
    + destruct (t_worker s) as [p|] eqn:Ew; injection Hstep as <-.
      * exists w0, ls0. split; [exact Hext|]. split; [exact Hck|].
        split; [exact Hw|]. rewrite ?Ew, ?Ep. auto.
      * exists w0, ls0. split; [exact Hext|]. split; [exact Hck|].
        split; [exact Hw|]. cbn. repeat split; auto; congruence.
  - (* next *)
    unfold Model_Recon.consumer_next in Hstep.
    assert (Hcase : (match t_pc s with CIdle | CDone _ => True | _ => False end) /\
      match g_pc (t_gen s) with
      | GClosed => Some (mkT (t_world s) (t_worker s) (t_queue s) (t_stop s) (CDone StopIter) (t_gen s))
      | GRunning n => Some (loop_thr s n (t_world s))
      | GNotStarted =>
          match g_loader (t_gen s) with
          | Raise e => Some (mkT (t_world s) (t_worker s) (t_queue s) (t_stop s)
                                 (CDone (GRaise e)) (gset_pc (t_gen s) GClosed))
          | Ok ld => Some (loop_thr (mkT (t_world s) (t_worker s) [] false (t_pc s) (t_gen s))
                (g_iterations (t_gen s)) (set_curopt (set_loader (t_world s) (Some ld)) true))
          end
      end = Some s1) by (destruct (t_pc s); try discriminate; split; [exact I|exact Hstep|exact I|exact Hstep]).
    clear Hstep. destruct Hcase as [Hc Hstep].
    assert (Hrest : g_pc (t_gen s) <> GClosed ->
                    t_worker s = None /\ t_queue s = [] /\ t_stop s = false)
      by (destruct (t_pc s); try contradiction; exact Hpc).
    destruct (g_pc (t_gen s)) as [|n|] eqn:Eg.
    + destruct (Hrest ltac:(discriminate)) as (R1 & R2 & R3).
      destruct (g_loader (t_gen s)) as [ld|e]; injection Hstep as <-.
      * apply loop_thr_inv; auto.
      * exists w0, ls0. split; [exact Hext|]. split; [exact Hck|].
        split; [exact Hw|]. cbn. rewrite R1, R2. cbn. repeat split; try lia; auto.
    + destruct (Hrest ltac:(discriminate)) as (R1 & R2 & R3). injection Hstep as <-.
      apply loop_thr_inv; auto.
    + injection Hstep as <-. exists w0, ls0. split; [exact Hext|]. split; [exact Hck|].
      split; [exact Hw|]. cbn. rewrite Eg. repeat split; auto; congruence.
  - (* exception *)
    unfold consumer_exn in Hstep. destruct (t_pc s) eqn:Ep; try discriminate.
    destruct e; injection Hstep as <-;
      (exists w0, ls0; split; [exact Hext|]; split; [exact Hck|];
       split; [exact Hw|]; cbn; repeat split; auto; try congruence).
Qed.

Lemma TI_run wi acts : forall s,
  skip_computation wi = false -> TI wi s -> TI wi (trun acts s).
Proof.
  induction acts as [|a acts IH]; intros s Hsk HI; [exact HI|].
  cbn [Model_Recon.trun]. destruct (tstep a s) as [s1|] eqn:E; apply IH; auto.
  eapply TI_step; eassumption.
Qed.

Lemma TI_init g (w : W) : TI w (tinit g w).
Proof.
  exists w, []. split; [apply hist_ext_refl|]. split; [reflexivity|].
  split; [left; apply frame_refl|]. cbn. repeat split; auto; lia.
Qed.

Lemma threaded_history g (w : W) acts :
  skip_computation w = false ->
  exists ls, hist_ext w (t_world (trun acts (tinit g w))) ls /\
             m_ckpt (t_world (trun acts (tinit g w))) = m_ckpt w.
Proof.
  intros Hsk. destruct (TI_run w acts _ Hsk (TI_init g w)) as (w0 & ls0 & Hext & Hck & HI).
  destruct HI as (Hw & _). destruct (epoch_or_frame_ext _ _ Hw) as [l2 H2].
  exists (ls0 ++ l2). split; [eapply hist_ext_trans; eassumption|].
  rewrite (epoch_or_frame_ckpt _ _ Hw). exact Hck.
Qed.

Lemma threaded_calls_history calls : forall (w w' : W),
  skip_computation w = false -> tcalls calls w = Some w' -> exists ls, hist_ext w w' ls.
Proof.
  induction calls as [|[g acts] calls IH]; intros w w' Hsk H; cbn [Spec_Recon.tcalls] in H.
  - injection H as <-. exists []. apply hist_ext_refl.
  - destruct (threaded_history g w acts Hsk) as (l1 & He & Hc).
    destruct (t_worker (trun acts (tinit g w))) eqn:Ew; [discriminate|].
    apply IH in H; [|rewrite (skip_frame w); assumption].
    destruct H as [l2 H2]. exists (l1 ++ l2). eapply hist_ext_trans; eassumption.
Qed.

(** KeyboardInterrupt reaches the caller only after the worker has ended, unless the epoch
    itself ... *)
Lemma thr_keyboard wi g acts :
  skip_computation wi = false ->
  let s := trun acts (tinit g wi) in
  forall s1, t_pc s = CJoin -> consumer_step s = Some s1 ->
    t_pc s1 = CDone (GRaise KeyboardInterrupt) -> t_worker s1 = None.
Proof.
  intros Hsk s s1 Hj Hstep Hpc1. unfold consumer_step in Hstep. rewrite Hj in Hstep.
  destruct (t_worker s) eqn:Ew; injection Hstep as <-; [|reflexivity].
  rewrite Hj in Hpc1. discriminate.
Qed.

(** after the stop event is set the worker needs at most two more of its own steps *)
Lemma stop_two_steps wi g acts :
  skip_computation wi = false ->
  let s := trun acts (tinit g wi) in
  t_pc s = CJoin ->
  forall acts2, forallb quiet acts2 = true -> 2 <= count is_worker acts2 ->
    t_worker (trun acts2 s) = None.
Proof.
  intros Hsk s Hj.
  assert (HI : TI wi s) by (apply TI_run; [exact Hsk|apply TI_init]).
  clearbody s.
  set (need := fun s : T => match t_worker s with None => 0 | Some (Fin _ _) => 1 | Some (Chk _ _) => 2 end).
  assert (Hgen : forall acts2 s, TI wi s ->
     (t_worker s = None \/ (t_stop s = true /\ t_pc s = CJoin)) ->
     forallb quiet acts2 = true -> need s <= count is_worker acts2 ->
     t_worker (trun acts2 s) = None).
  { clear s Hj HI. intros acts2. induction acts2 as [|a acts2 IH]; intros s HI Hd Hq Hc.
    - unfold count in Hc. cbn in Hc. cbn. unfold need in Hc.
      destruct (t_worker s) as [[|]|]; [lia..|reflexivity].
    - cbn [forallb] in Hq. apply andb_true_iff in Hq as [Hq1 Hq2].
      destruct a; try discriminate; cbn [Model_Recon.trun].
      + destruct (tstep AWorker s) as [s1|] eqn:E.
        * assert (HI1 : TI wi s1) by (eapply TI_step; eassumption).
          apply IH; auto.
          -- cbn [Model_Recon.tstep] in E. unfold worker_step in E.
             destruct (t_worker s) as [[w r|w k]|] eqn:Ew; [| |discriminate]; injection E as <-; cbn.
             ++ now left.
             ++ destruct Hd as [Hd|Hd]; [discriminate|]. right. exact Hd.
          -- unfold count in *. cbn [filter is_worker length] in Hc.
             cbn [Model_Recon.tstep] in E. unfold worker_step in E. unfold need in *.
             destruct HI as (w0 & ls0 & _ & _ & (_ & _ & Hwk & _)).
             destruct (t_worker s) as [[w r|w k]|] eqn:Ew; [| |discriminate]; injection E as <-; cbn.
             ++ lia.
             ++ destruct Hd as [Hd|[Hd _]]; [discriminate|]. rewrite Hd.
                destruct Hwk as ((Hgr & _) & _). cbn in Hgr. destruct Hgr as [-> _]. lia.
        * apply IH; auto.
          cbn [Model_Recon.tstep] in E. unfold worker_step in E. unfold need.
          destruct (t_worker s) as [[|]|]; [discriminate..|lia].
      + destruct (tstep AConsumer s) as [s1|] eqn:E.
        * assert (HI1 : TI wi s1) by (eapply TI_step; eassumption).
          assert (Hw1 : t_worker s1 = t_worker s /\ (t_worker s <> None -> s1 = s)).
          { cbn [Model_Recon.tstep] in E. unfold consumer_step in E.
            destruct Hd as [Hd|[_ Hd]].
            - destruct (t_pc s); try discriminate; rewrite ?Hd in E.
              + injection E as <-. cbn. split; congruence.
              + destruct (t_queue s) as [|[l|e] q]; [discriminate|..]; injection E as <-; cbn; split; congruence.
              + injection E as <-. cbn. split; congruence.
            - rewrite Hd in E. destruct (t_worker s) eqn:Ew; injection E as <-; cbn.
              + split; congruence.
              + split; congruence. }
          destruct Hw1 as [Hw1 Hw2].
          apply IH; auto.
          -- destruct Hd as [Hd|Hd]; [left; congruence|].
             destruct (t_worker s) as [p|] eqn:Ew; [right|left; congruence].
             rewrite Hw2 by discriminate. exact Hd.
          -- unfold need in *. rewrite Hw1. unfold count in *.
             cbn [filter is_worker length] in Hc. exact Hc.
        * apply IH; auto. }
  intros acts2 Hq Hc.
  apply Hgen; auto.
  - right. split; [|exact Hj]. destruct HI as (w0 & ls0 & _ & _ & (_ & _ & _ & Hp)).
    rewrite Hj in Hp. exact Hp.
  - unfold need. destruct (t_worker s) as [[|]|]; lia.
Qed.

(** ---- a whole threaded consumption refines the sequential one ---- *)
Lemma quiet_done acts : forall s o,
  t_worker s = None -> t_pc s = CDone o -> forallb quiet acts = true -> trun acts s = s.
Proof.
  induction acts as [|a acts IH]; intros s o Hw Hp Hq; [reflexivity|].
  cbn [forallb] in Hq. apply andb_true_iff in Hq as [Hq1 Hq2].
  destruct a; try discriminate; cbn [Model_Recon.trun Model_Recon.tstep].
  - unfold worker_step. rewrite Hw. now apply (IH s o).
  - unfold consumer_step. rewrite Hp. now apply (IH s o).
Qed.

Lemma set_pc_eta (g : GEN) pc : g_pc g = pc -> gset_pc g pc = g.
Proof. intros <-. destruct g; reflexivity. Qed.

Lemma loop_round s n (w : W) acts o :
  skip_computation w = false ->
  t_worker s = None -> t_queue s = [] -> t_stop s = false ->
  forallb quiet acts = true ->
  t_pc (trun acts (loop_thr s n w)) = CDone o ->
  let s1 := trun acts (loop_thr s n w) in
  loop_seq (t_gen s) n w = (t_gen s1, t_world s1, o) /\ at_rest s1.
Proof.
  intros Hsk H1 H2 H3 Hq Ho s1. unfold s1 in *. clear s1.
  unfold Model_Recon.loop_thr, Model_Recon.loop_seq in *.
  destruct n as [|n].
  - rewrite (quiet_done acts _ StopIter) in *; cbn; auto.
    cbn in Ho. injection Ho as <-. split; [reflexivity|]. repeat split; auto.
  - rewrite Hsk in *.
    destruct (run_nostop (run_epoch (g_width (t_gen s)) w)) as [w' r] eqn:E.
    match type of Ho with context [Model_Recon.trun _ _ _ _ _ _ _ _ _ acts ?x] => set (s0 := x) in * end.
    assert (Hrel : rel w' r (gset_pc (t_gen s) (GRunning n)) s0).
    { split; [exact H3|]. cbn. rewrite H2. auto. }
    pose proof (rel_run _ _ _ acts s0 Hrel Hq) as [Hst Hr]. rewrite Ho in Hr.
    destruct Hr as (Hw & Hww & Hqq & Hr).
    split.
    + destruct r as [l|e].
      * destruct Hr as [-> Hg]. rewrite Hg, Hww. reflexivity.
      * destruct Hr as (_ & -> & Hg). rewrite Hg, Hww. reflexivity.
    + repeat split; auto. rewrite Ho. exact I.
Qed.

Lemma thr_round s acts o :
  at_rest s -> skip_computation (t_world s) = false -> forallb quiet acts = true ->
  t_pc (trun (ANext :: acts) s) = CDone o ->
  let s1 := trun (ANext :: acts) s in
  gnext_seq (t_gen s) (t_world s) = (t_gen s1, t_world s1, o) /\ at_rest s1.
Proof.
  intros (H1 & H2 & H3 & H4) Hsk Hq Ho s1. unfold s1 in *. clear s1.
  cbn [Model_Recon.trun Model_Recon.tstep] in *. unfold Model_Recon.consumer_next in *.
  assert (Hpc : exists x, t_pc s = x /\ (x = CIdle \/ exists y, x = CDone y)).
  { exists (t_pc s). split; [reflexivity|]. destruct (t_pc s); try contradiction; eauto. }
  destruct Hpc as (x & Hx & Hxx). rewrite Hx in *.
  assert (Hred : forall A (a b : A), match x with CIdle | CDone _ => a | _ => b end = a)
    by (intros; destruct Hxx as [->|[y ->]]; reflexivity).
  rewrite !Hred in *. clear Hred.
  unfold Model_Recon.gnext_seq. destruct (g_pc (t_gen s)) as [|n|] eqn:Eg.
  - destruct (g_loader (t_gen s)) as [ld|e] eqn:El.
    + match type of Ho with context [Model_Recon.loop_thr _ _ _ _ _ _ _ _ _ ?a ?b ?c] =>
        exact (loop_round a b c acts o Hsk H1 eq_refl eq_refl Hq Ho) end.
    + rewrite (quiet_done acts _ (GRaise e)) in *; cbn; auto.
      cbn in Ho. injection Ho as <-. rewrite <- El. split; [reflexivity|]. repeat split; auto.
  - exact (loop_round s n (t_world s) acts o Hsk H1 H2 H3 Hq Ho).
  - rewrite (quiet_done acts _ StopIter) in *; cbn; auto.
    cbn in Ho. injection Ho as <-. split; [reflexivity|]. repeat split; auto.
Qed.

Lemma gnext_ckpt g (w : W) : m_ckpt (snd (fst (gnext_seq g w))) = m_ckpt w.
Proof.
  assert (HL : forall n w0, m_ckpt (snd (fst (loop_seq g n w0))) = m_ckpt w0).
  { intros n w0. destruct n as [|n]; [reflexivity|]. cbn [Model_Recon.loop_seq].
    destruct (skip_computation w0); [reflexivity|].
    destruct (run_nostop (run_epoch (g_width g) w0)) as [w1 [l|e]] eqn:E; cbn;
      eapply epoch_ckpt; eassumption. }
  unfold Model_Recon.gnext_seq. destruct (g_pc g); [|apply HL|reflexivity].
  destruct (g_loader g) as [ld|e]; [|reflexivity]. apply (HL _ (started ld w)).
Qed.

Lemma rounds_refine rs : forall s,
  at_rest s -> skip_computation (t_world s) = false ->
  Forall (fun acts => forallb quiet acts = true) rs ->
  Forall (fun ow => exists o, fst ow = CDone o) (fst (rounds rs s)) ->
  let '(os, g', w') := consume (length rs) (t_gen s) (t_world s) in
  fst (rounds rs s) = map (fun ow => (CDone (fst ow), snd ow)) os /\
  t_world (snd (rounds rs s)) = w' /\ t_gen (snd (rounds rs s)) = g'.
Proof.
  induction rs as [|acts rest IH]; intros s Hr Hsk HF Hall; [cbn; auto|].
  inversion HF as [|x l Hq HF']; subst. cbn [Spec_Recon.rounds length Spec_Recon.consume] in *.
  remember (trun (ANext :: acts) s) as s1 eqn:Es1.
  destruct (rounds rest s1) as [os s2] eqn:Er. cbn [fst snd] in *.
  inversion Hall as [|x l [o Ho] Hall']; subst x l. cbn [fst] in Ho.
  rewrite Es1 in Ho. destruct (thr_round s acts o Hr Hsk Hq Ho) as [Hg Hrest].
  rewrite <- Es1 in *. rewrite Hg.
  assert (Hsk1 : skip_computation (t_world s1) = false).
  { rewrite (skip_frame (t_world s)); [exact Hsk|].
    pose proof (gnext_ckpt (t_gen s) (t_world s)) as Hc. rewrite Hg in Hc. exact Hc. }
  specialize (IH s1 Hrest Hsk1 HF'). rewrite Er in IH. cbn [fst snd] in IH.
  specialize (IH Hall').
  destruct (consume (length rest) (t_gen s1) (t_world s1)) as [[os' g'] w'].
  destruct IH as (I1 & I2 & I3). cbn [map fst snd]. rewrite I1, Ho. auto.
Qed.

(** ---- skip_computation ---- *)
Lemma bump_bump a b (w : W) : bump_epoch a (bump_epoch b w) = bump_epoch (b + a) w.
Proof.
  unfold bump_epoch, set_epoch. cbn [m_epoch m_params m_loss_history m_training_history m_norm
    m_ckpt r_opt r_sched r_loader r_current_optimizer w_tick].
  replace (m_epoch w + Z.of_nat b + Z.of_nat a)%Z with (m_epoch w + Z.of_nat (b + a))%Z by lia.
  reflexivity.
Qed.

(** next() in threaded mode while computation is skipped *)
Lemma thr_skip_next s n :
  at_rest s -> skip_computation (t_world s) = true -> g_pc (t_gen s) = GRunning (S n) ->
  exists s1, tstep ANext s = Some s1 /\
    t_pc s1 = CDone (Yield (skip_value (t_world s))) /\
    t_world s1 = bump_epoch 1 (t_world s) /\ t_gen s1 = gset_pc (t_gen s) (GRunning n) /\
    at_rest s1.
Proof.
  intros (H1 & H2 & H3 & H4) Hsk Hpc. cbn [Model_Recon.tstep]. unfold Model_Recon.consumer_next.
  rewrite Hpc. destruct (t_pc s) eqn:Ep; try contradiction;
    (eexists; split; [reflexivity|]; unfold Model_Recon.loop_thr; rewrite Hsk; cbn;
     repeat split; auto).
Qed.

Lemma thr_skip_run k : forall s n,
  at_rest s -> skip_computation (t_world s) = true -> g_pc (t_gen s) = GRunning (k + n) ->
  forall rs, length rs = k -> Forall (fun acts => forallb quiet acts = true) rs ->
  fst (rounds rs s) =
    map (fun i => (CDone (Yield (skip_value (t_world s))), bump_epoch (S i) (t_world s))) (seq 0 k) /\
  t_world (snd (rounds rs s)) = bump_epoch k (t_world s) /\
  t_gen (snd (rounds rs s)) = gset_pc (t_gen s) (GRunning n).
Proof.
  induction k as [|k IH]; intros s n Hr Hsk Hpc rs Hlen HF.
  - destruct rs; [|discriminate]. cbn. unfold bump_epoch. cbn. rewrite Z.add_0_r.
    split; [reflexivity|]. split; [destruct (t_world s); reflexivity|].
    symmetry. apply set_pc_eta. exact Hpc.
  - destruct rs as [|acts rest]; [discriminate|]. inversion HF as [|x l Hq HF']; subst.
    destruct (thr_skip_next s (k + n) Hr Hsk Hpc) as (s1 & Hs1 & Hp1 & Hw1 & Hg1 & Hr1).
    cbn [Spec_Recon.rounds]. cbn [Model_Recon.trun]. rewrite Hs1.
    rewrite (quiet_done acts s1 _ (proj1 Hr1) Hp1 Hq).
    assert (Hsk1 : skip_computation (t_world s1) = true) by (rewrite Hw1; exact Hsk).
    assert (Hpc1 : g_pc (t_gen s1) = GRunning (k + n)) by (rewrite Hg1; reflexivity).
    destruct (IH s1 n Hr1 Hsk1 Hpc1 rest ltac:(now injection Hlen) HF') as (I1 & I2 & I3).
    destruct (rounds rest s1) as [os s2]. cbn [fst snd] in *.
    rewrite I1, I2, I3, Hp1, Hw1, Hg1.
    split; [|split].
    + cbn [seq map]. f_equal. rewrite <- seq_shift, map_map. apply map_ext. intros i.
      rewrite bump_bump. reflexivity.
    + rewrite bump_bump. reflexivity.
    + reflexivity.
Qed.

End Gen.
