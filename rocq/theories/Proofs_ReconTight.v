(** Lemmas behind the tightened statements of C05, C06, C08, C09, C10. *)
From Verif Require Import Base Model_Recon Spec_Recon Model_Optim Spec_Optim Proofs_Recon
  Proofs_ReconGen Proofs_Optim.

Lemma subset_selects sub n : selects sub n (subset_indices sub n).
Proof.
  destruct sub; cbn; constructor; [apply seq_length|].
  intros k Hk. rewrite nth_error_nth' with (d := 0) by now rewrite seq_length.
  now rewrite seq_nth.
Qed.

Lemma selects_fun sub n l : selects sub n l -> l = subset_indices sub n.
Proof.
  intros H. destruct H as [n idxs Hl Hk| |]; [|reflexivity..]. cbn.
  apply nth_ext with (d := 0) (d' := 0); [now rewrite seq_length|].
  intros k Hlt. rewrite seq_nth by lia. cbn.
  apply nth_error_nth. apply Hk. lia.
Qed.

Lemma Forall2_chain {A B} (P : A -> B -> Prop) (Q : nat -> A -> Prop) (R' : nat -> B -> Prop) l1 l2 l3 :
  Forall2 Q l1 l2 -> Forall2 P l2 l3 -> (forall i a b, Q i a -> P a b -> R' i b) ->
  Forall2 R' l1 l3.
Proof.
  intros H. revert l3. induction H as [|i a l1 l2 Hq HF IH]; intros l3 H3 Hc; inversion_clear H3;
    constructor; eauto.
Qed.
Lemma Forall2_nth {A B} (P : A -> B -> Prop) l1 l2 i a :
  Forall2 P l1 l2 -> nth_error l1 i = Some a -> exists b, nth_error l2 i = Some b /\ P a b.
Proof.
  intros H. revert i. induction H as [|x y l1 l2 Hp HF IH]; intros [|i] E; try discriminate; cbn in *.
  - injection E as ->. eauto.
  - now apply IH.
Qed.

Lemma setup_dataloader_order {Inp Pat : Type} perm (ds : list (Inp * Pat)) sub idxs b t :
  (1 <= b)%Z -> selects sub (length ds) idxs ->
  Forall (fun i => i < length idxs) (perm t) ->
  Forall (fun i => i < length ds) idxs ->
  exists ld mbs sel,
    setup_dataloader perm ds sub (Some b) true = Ok ld /\ ld t = Ok mbs /\
    Forall2 (fun i x => nth_error ds i = Some x) idxs sel /\
    Forall2 (fun i x => nth_error sel i = Some x) (perm t)
      (concat (map (fun mb => combine (fst mb) (snd mb)) mbs)).
Proof.
  intros Hb Hs HP HF. apply selects_fun in Hs. subst idxs.
  unfold setup_dataloader. set (idxs := subset_indices sub (length ds)) in *.
  destruct (Z.leb_spec b 0) as [?|_]; [lia|].
  destruct (pick_ok ds idxs HF) as (sel & Hsel & HF2).
  destruct (pick_ok idxs (perm t) HP) as (is & His & HF3).
  assert (HF4 : Forall (fun i => i < length ds) is).
  { rewrite Forall_forall in *. intros x Hx. apply In_nth_error in Hx as [k Hk].
    assert (Hk' : exists i, nth_error (perm t) k = Some i).
    { destruct (nth_error (perm t) k) eqn:E; [eauto|]. apply nth_error_None in E.
      rewrite (Forall2_len _ _ _ HF3) in E. apply nth_error_None in E. congruence. }
    destruct Hk' as [i Hi]. destruct (Forall2_nth _ _ _ k i HF3 Hi) as (y & E1 & E2).
    rewrite Hk in E1. injection E1 as <-. apply HF. now apply nth_error_In in E2. }
  destruct (pick_ok ds is HF4) as (rows & Hrows & HF5).
  destruct (py_chunks_concat b rows Hb) as (cs & Hcs & Hcc).
  eexists. exists (map (fun r => (map fst r, map snd r)) cs), sel.
  split; [reflexivity|]. split.
  - rewrite His. cbn [rbind]. rewrite Hrows. cbn [rbind].
    unfold batched. destruct (Z.leb_spec b 0) as [?|_]; [lia|]. rewrite Hcs. reflexivity.
  - split; [exact HF2|]. rewrite map_batch_rows, Hcc.
    eapply Forall2_chain; [exact HF3|exact HF5|]. cbn beta. intros i a x E1 E2.
    destruct (Forall2_nth _ _ _ i a HF2 E1) as (y & E3 & E4). congruence.
Qed.

Section L.
Context {Prm Gr Opt Inp Pat Nrm Sch : Type}.
Variable gzero : Gr.
Variable gadd : Gr -> Gr -> Gr.
Variable chunk_eval : Prm -> list Inp -> list Pat -> res (R * Gr).
Variable reg_grad : Prm -> option (res Gr).
Variable ostep : Opt -> Prm -> oproc Prm Gr Opt.
Variable naccum : Nrm -> list Pat -> Nrm.
Variable nnormalize : Nrm -> pynum -> Nrm * res pynum.
Variable sched_step : Sch -> R -> Opt -> Sch * Opt.
Variable report : nat -> list R -> string.
Notation W := (world Prm Opt Inp Pat Nrm Sch).
Notation T := (tstate Prm Opt Inp Pat Nrm Sch).
Notation run_epoch := (run_epoch gzero gadd chunk_eval reg_grad ostep naccum nnormalize
                         sched_step report).
Notation trun := (trun gzero gadd chunk_eval reg_grad ostep naccum nnormalize
                         sched_step report).
Notation tstep := (tstep gzero gadd chunk_eval reg_grad ostep naccum nnormalize
                         sched_step report).
Notation closure := (closure gzero gadd chunk_eval reg_grad).
Notation run_oproc := (run_oproc gzero gadd chunk_eval reg_grad).
Notation batch_loop := (batch_loop gzero gadd chunk_eval reg_grad ostep naccum).
Notation finish_epoch := (finish_epoch nnormalize sched_step report).

Lemma active_skip (w : W) : active w <-> skip_computation w = false.
Proof.
  unfold active, skip_computation. destruct (m_ckpt w) as [[cur job]|].
  - split.
    + intros H. rewrite (H cur job eq_refl), Z.eqb_refl. reflexivity.
    + intros H c j E. injection E as <- <-. apply negb_false_iff in H. now apply Z.eqb_eq.
  - split; [reflexivity|]. intros _ c j E. discriminate.
Qed.
Lemma skipping_skip (w : W) : skipping w <-> skip_computation w = true.
Proof.
  unfold skipping, skip_computation. destruct (m_ckpt w) as [[cur job]|].
  - split.
    + intros (c & j & E & Hne). injection E as <- <-. apply negb_true_iff. now apply Z.eqb_neq.
    + intros H. exists cur, job. split; [reflexivity|]. apply negb_true_iff in H.
      now apply Z.eqb_neq.
  - split; [intros (c & j & E & _); discriminate|discriminate].
Qed.
Lemma skip_value_last (w : W) : skip_value w = last_loss (m_loss_history w).
Proof.
  unfold skip_value, last_loss. destruct (m_loss_history w) as [|x l] using rev_ind; [reflexivity|].
  rewrite map_app, app_length. cbn [map length]. rewrite last_last, Nat.add_sub.
  rewrite nth_error_app2 by lia. rewrite Nat.sub_diag. reflexivity.
Qed.

(** once joining after Ctrl-C, the consumer ends in KeyboardInterrupt *)
Lemma join_or_done acts : forall (s : T),
  forallb quiet acts = true ->
  (t_pc s = CJoin \/ (t_pc s = CDone (GRaise KeyboardInterrupt) /\ g_pc (t_gen s) = GClosed)) ->
  (t_pc (trun acts s) = CJoin \/
   (t_pc (trun acts s) = CDone (GRaise KeyboardInterrupt) /\ g_pc (t_gen (trun acts s)) = GClosed)).
Proof.
  induction acts as [|a acts IH]; intros s Hq Hs; [exact Hs|].
  cbn [forallb] in Hq. apply andb_true_iff in Hq as [Hq1 Hq2]. cbn [Model_Recon.trun].
  destruct (tstep a s) as [s1|] eqn:E; [|now apply IH]. apply IH; [exact Hq2|].
  destruct a; try discriminate; cbn [Model_Recon.tstep] in E.
  - unfold worker_step in E. destruct (t_worker s) as [[w r|w k]|]; [| |discriminate];
      injection E as <-; exact Hs.
  - unfold consumer_step in E. destruct Hs as [Hs|[Hs Hg]]; rewrite Hs in E; [|discriminate].
    destruct (t_worker s); injection E as <-; [now left|]. right. split; reflexivity.
Qed.

Lemma join_delivers acts : forall (s : T),
  forallb quiet acts = true -> t_worker s = None -> 1 <= count is_consumer acts ->
  (t_pc s = CJoin \/ (t_pc s = CDone (GRaise KeyboardInterrupt) /\ g_pc (t_gen s) = GClosed)) ->
  t_pc (trun acts s) = CDone (GRaise KeyboardInterrupt) /\ g_pc (t_gen (trun acts s)) = GClosed /\
  t_worker (trun acts s) = None.
Proof.
  induction acts as [|a acts IH]; intros s Hq Hw Hc Hs; [unfold count in Hc; cbn in Hc; lia|].
  cbn [forallb] in Hq. apply andb_true_iff in Hq as [Hq1 Hq2]. cbn [Model_Recon.trun].
  destruct a; try discriminate; cbn [Model_Recon.tstep].
  - unfold worker_step. rewrite Hw. apply IH; auto.
  - assert (Hrest : forall s1 : T, t_worker s1 = None ->
       t_pc s1 = CDone (GRaise KeyboardInterrupt) /\ g_pc (t_gen s1) = GClosed ->
       forall a2, forallb quiet a2 = true ->
       t_pc (trun a2 s1) = CDone (GRaise KeyboardInterrupt) /\
       g_pc (t_gen (trun a2 s1)) = GClosed /\ t_worker (trun a2 s1) = None).
    { intros s1 Hw1 [Hp1 Hg1] a2. revert Hq2. clear IH. intros _.
      induction a2 as [|b a2 IH2]; intros Hq; [auto|].
      cbn [forallb] in Hq. apply andb_true_iff in Hq as [Hb1 Hb2]. cbn [Model_Recon.trun].
      destruct b; try discriminate; cbn [Model_Recon.tstep].
      - unfold worker_step. rewrite Hw1. now apply IH2.
      - unfold consumer_step. rewrite Hp1. now apply IH2. }
    unfold consumer_step. destruct Hs as [Hs|[Hs Hg]]; rewrite Hs.
    + rewrite Hw. apply Hrest; [reflexivity| |exact Hq2]. split; reflexivity.
    + now apply Hrest.
Qed.

Lemma interrupt_delivered (wi : W) g acts :
  active wi -> t_pc (trun acts (tinit g wi)) = CJoin ->
  forall a1 a2, forallb quiet (a1 ++ a2) = true ->
    2 <= count is_worker a1 -> 1 <= count is_consumer a2 ->
    let s := trun (a1 ++ a2) (trun acts (tinit g wi)) in
    t_pc s = CDone (GRaise KeyboardInterrupt) /\ g_pc (t_gen s) = GClosed /\ t_worker s = None.
Proof.
  intros Ha Hj a1 a2 Hq H1 H2 s. apply active_skip in Ha.
  apply forallb_app' in Hq as [Hq1 Hq2].
  unfold s. rewrite trun_app. apply join_delivers; auto.
  - now apply (stop_two_steps gzero gadd chunk_eval reg_grad ostep naccum nnormalize sched_step
      report wi g acts Ha Hj).
  - apply join_or_done; auto.
Qed.

(** ---- the loader field is only read at the start of an epoch ---- *)
Notation SL l := (fun w : W => set_loader w l).
Definition on_w (l : option (loader Inp Pat)) {A} (x : W * res A) : W * res A :=
  (set_loader (fst x) l, snd x).

Lemma chunk_loop_sl l chunks : forall (w : W) acc,
  run_nostop (chunk_loop gadd chunk_eval (set_loader w l) acc chunks) =
  on_w l (run_nostop (chunk_loop gadd chunk_eval w acc chunks)).
Proof.
  induction chunks as [|[ins pats] r IH]; intros w acc; [reflexivity|].
  cbn. destruct (chunk_eval (m_params w) ins pats) as [[x g]|e]; [apply IH|reflexivity].
Qed.
Lemma closure_sl l (w : W) width mb :
  run_nostop (closure (set_loader w l) width mb) = on_w l (run_nostop (closure w width mb)).
Proof.
  destruct mb as [ins pats]. unfold Model_Recon.closure.
  destruct (py_chunks _ width ins) as [ics|e]; [|reflexivity].
  destruct (py_chunks _ width pats) as [pcs|e]; [|reflexivity].
  rewrite !run_nostop_bind, chunk_loop_sl.
  destruct (run_nostop (chunk_loop gadd chunk_eval w (PyNum 0, gzero) (combine ics pcs))) as [w' [a|e]];
    cbn; [|reflexivity].
  destruct (reg_grad (m_params w')) as [[g|e]|]; reflexivity.
Qed.
Lemma oproc_sl l width mb op : forall (w : W),
  run_nostop (run_oproc (set_loader w l) width mb op) = on_w l (run_nostop (run_oproc w width mb op)).
Proof.
  induction op as [o p x|o p k IH]; intros w; [reflexivity|].
  cbn [Model_Recon.run_oproc]. rewrite !run_nostop_bind.
  change (set_params (set_loader w l) p o) with (set_loader (set_params w p o) l).
  rewrite closure_sl.
  destruct (run_nostop (closure (set_params w p o) width mb)) as [w' [a|e]]; cbn; [|reflexivity].
  apply IH.
Qed.
Lemma batch_loop_sl l width mbs : forall (w : W) acc,
  run_nostop (batch_loop (set_loader w l) width acc mbs) =
  on_w l (run_nostop (batch_loop w width acc mbs)).
Proof.
  induction mbs as [|mb r IH]; intros w acc; [reflexivity|].
  cbn [Model_Recon.batch_loop]. rewrite !run_nostop_bind.
  change (m_norm (set_loader w l)) with (m_norm w).
  assert (Hh : forall w1 : W,
    match run_nostop (run_oproc (set_loader w1 l) width mb
       (ostep (r_opt (set_loader w1 l)) (m_params (set_loader w1 l)))) with
    | (w', Ok a) => run_nostop match a with
                               | PyNum _ => Fin w' (Raise AttributeError)
                               | Tens r0 => batch_loop w' width (pyadd acc (Tens r0)) r
                               end
    | (w', Raise e) => (w', Raise e)
    end = on_w l
    match run_nostop (run_oproc w1 width mb (ostep (r_opt w1) (m_params w1))) with
    | (w', Ok a) => run_nostop match a with
                               | PyNum _ => Fin w' (Raise AttributeError)
                               | Tens r0 => batch_loop w' width (pyadd acc (Tens r0)) r
                               end
    | (w', Raise e) => (w', Raise e)
    end).
  { intros w1. change (r_opt (set_loader w1 l)) with (r_opt w1).
    change (m_params (set_loader w1 l)) with (m_params w1). rewrite oproc_sl.
    destruct (run_nostop (run_oproc w1 width mb (ostep (r_opt w1) (m_params w1)))) as [w' [a|e]];
      cbn; [|reflexivity].
    destruct a; [reflexivity|apply IH]. }
  destruct (m_norm w) as [n|].
  - exact (Hh (set_norm w (Some (naccum n (snd mb))))).
  - exact (Hh w).
Qed.
Lemma finish_sl l (w : W) x :
  run_nostop (finish_epoch (set_loader w l) x) = on_w l (run_nostop (finish_epoch w x)).
Proof.
  unfold Model_Recon.finish_epoch. change (m_norm (set_loader w l)) with (m_norm w).
  destruct (m_norm w) as [n|].
  - destruct (nnormalize n x) as [n' [[y|y]|e]]; cbn; try reflexivity.
    destruct (r_sched w) as [s|]; cbn; [|reflexivity].
    destruct (sched_step s y (r_opt w)) as [s' o']. reflexivity.
  - destruct x as [y|y]; cbn; try reflexivity.
    destruct (r_sched w) as [s|]; cbn; [|reflexivity].
    destruct (sched_step s y (r_opt w)) as [s' o']. reflexivity.
Qed.

Lemma epoch_consults width (w : W) ld :
  r_loader w = Some ld ->
  (forall e, ld (w_tick w) = Raise e -> snd (run_nostop (run_epoch width w)) = Raise e) /\
  (forall ld', ld' (w_tick w) = ld (w_tick w) ->
     run_nostop (run_epoch width (set_loader w (Some ld'))) =
     on_w (Some ld') (run_nostop (run_epoch width w))).
Proof.
  intros Hl. unfold Model_Recon.run_epoch. rewrite Hl. split.
  - intros e E. rewrite E. reflexivity.
  - intros ld' E. cbn [r_loader set_loader]. change (w_tick (set_loader w (Some ld'))) with (w_tick w).
    rewrite E. destruct (ld (w_tick w)) as [mbs|e]; [|reflexivity].
    rewrite !run_nostop_bind.
    change (set_tick (set_loader w (Some ld')) (S (w_tick w))) with
      (set_loader (set_tick w (S (w_tick w))) (Some ld')).
    rewrite batch_loop_sl.
    destruct (run_nostop (batch_loop (set_tick w (S (w_tick w))) width (PyNum 0) mbs)) as [w' [a|e]];
      cbn [on_w fst snd]; [|reflexivity].
    apply finish_sl.
Qed.

(** every started epoch uses up one draw of the loader, whatever its outcome *)
Definition tick_at (t : nat) : W -> Prop := fun w => w_tick w = t.
Lemma chunk_tick t chunks : forall (w : W) acc, w_tick w = t ->
  w_tick (fst (run_nostop (chunk_loop gadd chunk_eval w acc chunks))) = t.
Proof.
  induction chunks as [|[ins pats] r IH]; intros w acc H; [exact H|].
  cbn. destruct (chunk_eval (m_params w) ins pats) as [[x g]|e]; [now apply IH|exact H].
Qed.
Lemma bind_tick {A B} t (p : @proc Prm Opt Inp Pat Nrm Sch A) (f : W -> A -> @proc Prm Opt Inp Pat Nrm Sch B) :
  w_tick (fst (run_nostop p)) = t ->
  (forall w a, w_tick w = t -> w_tick (fst (run_nostop (f w a))) = t) ->
  w_tick (fst (run_nostop (pbind p f))) = t.
Proof.
  intros H1 H2. rewrite run_nostop_bind. destruct (run_nostop p) as [w' [a|e]]; cbn in *; auto.
Qed.
Lemma closure_tick t (w : W) width mb : w_tick w = t ->
  w_tick (fst (run_nostop (closure w width mb))) = t.
Proof.
  intros H. destruct mb as [ins pats]. unfold Model_Recon.closure.
  destruct (py_chunks _ width ins) as [ics|e]; [|exact H].
  destruct (py_chunks _ width pats) as [pcs|e]; [|exact H].
  apply bind_tick; [now apply chunk_tick|]. intros w' a H'.
  destruct (reg_grad (m_params w')) as [[g|e]|]; exact H'.
Qed.
Lemma oproc_tick t width mb op : forall (w : W), w_tick w = t ->
  w_tick (fst (run_nostop (run_oproc w width mb op))) = t.
Proof.
  induction op as [o p x|o p k IH]; intros w H; [exact H|].
  cbn [Model_Recon.run_oproc]. apply bind_tick; [now apply closure_tick|]. intros w' a H'. now apply IH.
Qed.
Lemma batch_tick t width mbs : forall (w : W) acc, w_tick w = t ->
  w_tick (fst (run_nostop (batch_loop w width acc mbs))) = t.
Proof.
  induction mbs as [|mb r IH]; intros w acc H; [exact H|].
  cbn [Model_Recon.batch_loop]. apply bind_tick.
  - apply oproc_tick. destruct (m_norm w); exact H.
  - intros w' a H'. destruct a; [exact H'|now apply IH].
Qed.
Lemma finish_tick t (w : W) x : w_tick w = t -> w_tick (fst (run_nostop (finish_epoch w x))) = t.
Proof.
  intros H. unfold Model_Recon.finish_epoch.
  destruct (m_norm w) as [n|].
  - destruct (nnormalize n x) as [n' [[y|y]|e]]; cbn; try exact H.
    destruct (r_sched w) as [s|]; cbn; [|exact H].
    destruct (sched_step s y (r_opt w)) as [s' o']. exact H.
  - destruct x as [y|y]; cbn; try exact H.
    destruct (r_sched w) as [s|]; cbn; [|exact H].
    destruct (sched_step s y (r_opt w)) as [s' o']. exact H.
Qed.
Lemma epoch_tick width (w : W) ld : r_loader w = Some ld ->
  w_tick (fst (run_nostop (run_epoch width w))) = S (w_tick w).
Proof.
  intros Hl. unfold Model_Recon.run_epoch. rewrite Hl.
  destruct (ld (w_tick w)) as [mbs|e]; [|reflexivity].
  apply bind_tick; [now apply batch_tick|]. intros w' a H'. now apply finish_tick.
Qed.
End L.

(** ---- lr factors ---- *)
Lemma dlookup_factor (d : pydict) k f :
  is_dict d -> factor d k f -> match dlookup k d with Some f' => f' | None => 1%R end = f.
Proof.
  unfold is_dict, factor. induction d as [|[k' v] d IH]; intros Hnd [Hin|[Hn ->]]; cbn in *.
  - contradiction.
  - reflexivity.
  - inversion_clear Hnd as [|? ? Hni Hnd']. destruct Hin as [E|Hin].
    + injection E as -> ->. now rewrite String.eqb_refl.
    + destruct (String.eqb_spec k k') as [->|Hne]; [|now apply IH; [|left]].
      exfalso. apply Hni. apply in_map_iff. now exists (k', f).
  - inversion_clear Hnd as [|? ? Hni Hnd'].
    destruct (String.eqb_spec k k') as [->|Hne]; [exfalso; tauto|]. apply IH; [exact Hnd'|right; tauto].
Qed.
Lemma factor_total (d : pydict) k : exists f, factor d k f.
Proof.
  destruct (in_dec string_dec k (map fst d)) as [H|H].
  - apply in_map_iff in H as ([k' f] & E & Hin). cbn in E. subst. exists f. now left.
  - exists 1%R. now right.
Qed.
