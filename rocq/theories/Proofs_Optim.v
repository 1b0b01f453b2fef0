(** Lemmas about data loading and the optimizer wrappers. *)
From Verif Require Import Base Model_Recon Spec_Recon Proofs_Recon Model_Optim Spec_Optim.

Lemma Forall2_len {A B} (P : A -> B -> Prop) l1 l2 : Forall2 P l1 l2 -> length l1 = length l2.
Proof. induction 1; simpl; congruence. Qed.

Lemma pick_ok {A} (ds : list A) (idxs : list nat) :
  Forall (fun i => i < length ds) idxs ->
  exists xs, pick ds idxs = Ok xs /\ Forall2 (fun i x => nth_error ds i = Some x) idxs xs.
Proof.
  induction 1 as [|i idxs Hi HF (xs & IH1 & IH2)]; [exists []; split; constructor|].
  unfold pick in *. cbn [fold_right]. rewrite IH1.
  destruct (nth_error ds i) as [x|] eqn:E.
  - exists (x :: xs). split; [reflexivity|]. constructor; assumption.
  - apply nth_error_None in E. lia.
Qed.

Lemma pick_seq {A} (ds : list A) : pick ds (seq 0 (length ds)) = Ok ds.
Proof.
  assert (Hg : forall pre l, ds = pre ++ l -> pick ds (seq (length pre) (length l)) = Ok l).
  { intros pre l. revert pre. induction l as [|x l IH]; intros pre E; [reflexivity|].
    cbn [length seq]. unfold pick in *. cbn [fold_right].
    specialize (IH (pre ++ [x])). rewrite app_length in IH. cbn in IH.
    rewrite Nat.add_1_r in IH. rewrite IH by (rewrite <- app_assoc; exact E).
    rewrite E at 1. rewrite nth_error_app2 by lia. rewrite Nat.sub_diag. reflexivity. }
  apply (Hg [] ds eq_refl).
Qed.

Lemma pick_perm {A} (ds : list A) (i1 i2 : list nat) xs :
  Permutation i1 i2 -> pick ds i1 = Ok xs -> exists ys, pick ds i2 = Ok ys /\ Permutation xs ys.
Proof.
  intros HP. revert xs. induction HP as [|i a b HP IH|i j a|a b c H1 IH1 H2 IH2]; intros xs H.
  - exists xs. split; [exact H|apply Permutation_refl].
  - unfold pick in *. cbn [fold_right] in *. destruct (nth_error ds i) as [x|]; [|discriminate].
    destruct (fold_right _ _ a) as [xs'|e] eqn:E; [|discriminate]. cbn in H. injection H as <-.
    destruct (IH xs' eq_refl) as (ys & E2 & P). rewrite E2. cbn. eauto.
  - unfold pick in *. cbn [fold_right] in *.
    destruct (nth_error ds j) as [y|]; [|discriminate].
    destruct (nth_error ds i) as [x|]; [|discriminate].
    destruct (fold_right _ _ a) as [xs'|e] eqn:E; [|discriminate]. cbn in *. injection H as <-.
    eexists; split; [reflexivity|]. apply perm_swap.
  - destruct (IH1 _ H) as (ys & E & P). destruct (IH2 _ E) as (zs & E2 & P2).
    exists zs. split; [exact E2|]. now transitivity ys.
Qed.

Lemma pick_in_range {A} (ds : list A) idxs xs :
  pick ds idxs = Ok xs -> Forall2 (fun i x => nth_error ds i = Some x) idxs xs.
Proof.
  revert xs. induction idxs as [|i idxs IH]; intros xs H; [injection H as <-; constructor|].
  unfold pick in *. cbn [fold_right] in H. destruct (nth_error ds i) as [x|] eqn:E; [|discriminate].
  destruct (fold_right _ _ idxs) as [xs'|e]; [|discriminate]. cbn in H. injection H as <-.
  constructor; [exact E|now apply IH].
Qed.

Lemma map_batch_rows {Inp Pat} (bs : list (list (Inp * Pat))) :
  map (fun mb => combine (fst mb) (snd mb)) (map (fun rows => (map fst rows, map snd rows)) bs) = bs.
Proof.
  rewrite map_map. cbn [fst snd].
  rewrite (map_ext _ (fun r => r)); [apply map_id|].
  intros rows. induction rows as [|[a b] r IH]; simpl; [reflexivity|now rewrite IH].
Qed.

(** What one epoch's minibatches look like. *)
Lemma setup_dataloader_visits {Inp Pat} perm (ds : list (Inp * Pat)) sub b shuffle t :
  (1 <= b)%Z ->
  let idxs := subset_indices sub (length ds) in
  Permutation (perm t) (seq 0 (length idxs)) ->
  Forall (fun i => i < length ds) idxs ->
  exists ld mbs sel rows,
    setup_dataloader perm ds sub (Some b) shuffle = Ok ld /\ ld t = Ok mbs /\
    Forall2 (fun i x => nth_error ds i = Some x) idxs sel /\
    concat (map (fun mb => combine (fst mb) (snd mb)) mbs) = rows /\
    Permutation rows sel /\ (shuffle = false -> rows = sel) /\
    (forall k mb, nth_error mbs k = Some mb ->
       length (fst mb) = length (snd mb) /\ 1 <= length (fst mb) <= Z.to_nat b /\
       (S k < length mbs -> length (fst mb) = Z.to_nat b)).
Proof.
  intros Hb idxs HP HF. unfold setup_dataloader. fold idxs.
  destruct (Z.leb_spec b 0) as [?|_]; [lia|].
  destruct (pick_ok ds idxs HF) as (sel & Hsel & HF2).
  set (order := if shuffle then perm t else seq 0 (length idxs)).
  assert (Hord : Permutation (seq 0 (length idxs)) order).
  { unfold order. destruct shuffle; [now symmetry|apply Permutation_refl]. }
  destruct (pick_perm idxs _ _ idxs Hord (pick_seq idxs)) as (is & His & Pis).
  destruct (pick_perm ds _ _ sel Pis Hsel) as (rows & Hrows & Prows).
  destruct (py_chunks_concat b rows Hb) as (cs & Hcs & Hcc).
  eexists. exists (map (fun r => (map fst r, map snd r)) cs), sel, rows.
  split; [reflexivity|]. split.
  - fold order. rewrite His. cbn [rbind]. rewrite Hrows. cbn [rbind].
    unfold batched. destruct (Z.leb_spec b 0) as [?|_]; [lia|]. rewrite Hcs. reflexivity.
  - split; [exact HF2|]. split; [now rewrite map_batch_rows|].
    split; [now symmetry|]. split.
    + intros ->. unfold order in His. rewrite pick_seq in His. injection His as <-.
      rewrite Hsel in Hrows. now injection Hrows.
    + intros k mb Hk. rewrite map_length.
      rewrite nth_error_map in Hk. destruct (nth_error cs k) as [c|] eqn:Ec; [|discriminate].
      injection Hk as <-. cbn [fst snd]. rewrite !map_length.
      destruct (py_chunks_sizes b rows cs Hb Hcs k c Ec) as (_ & H1 & H2).
      split; [reflexivity|]. split; [exact H1|exact H2].
Qed.

Lemma setup_dataloader_aligned {Inp Pat} perm (ds : list (Inp * Pat)) sub b shuffle ld :
  setup_dataloader perm ds sub b shuffle = Ok ld -> loader_aligned ld.
Proof.
  unfold setup_dataloader. destruct b as [b|]; [|discriminate].
  destruct (b <=? 0)%Z; [discriminate|]. intros H; injection H as <-.
  intros t mbs H. destruct (rbind _ _) as [cs|e] in H; [|discriminate]. injection H as <-.
  apply Forall_forall. intros mb Hin. apply in_map_iff in Hin as (r & <- & _).
  unfold aligned. cbn. now rewrite !map_length.
Qed.

(** ---- learning rates ---- *)
Section LR.
Context {H : Type}.

Lemma oop_names (ops : list (oop H)) : forall o,
  map pg_name (op_groups (fold_left oop_step ops o)) = map pg_name (op_groups o).
Proof.
  induction ops as [|op ops IH]; intros o; [reflexivity|]. cbn [fold_left]. rewrite IH.
  destruct op as [lr h [d|]|f]; cbn; rewrite map_map; reflexivity.
Qed.

Lemma oop_factors (ops : list (oop H)) : forall o,
  op_factors (fold_left oop_step ops o) = last_factors (op_factors o) ops.
Proof.
  induction ops as [|op ops IH]; intros o; [reflexivity|]. cbn [fold_left]. rewrite IH.
  destruct op as [lr h [d|]|f]; reflexivity.
Qed.

Lemma adjust_lr (ops : list (oop H)) o lr opts d :
  let o' := fold_left oop_step (ops ++ [OpAdjust lr opts d]) o in
  let factors := last_factors (op_factors o) (ops ++ [OpAdjust lr opts d]) in
  map pg_name (op_groups o') = map pg_name (op_groups o) /\
  forall g, In g (op_groups o') ->
    pg_opts g = opts /\
    pg_lr g = (lr * match dlookup (pg_name g) factors with Some f => f | None => 1 end)%R.
Proof.
  intros o' factors. split; [apply oop_names|].
  intros g Hg. unfold o' in Hg. rewrite fold_left_app in Hg. cbn [fold_left] in Hg.
  set (o1 := fold_left oop_step ops o) in *.
  assert (Hf : factors = op_factors (fst (adjust_optimizer lr opts d o1))).
  { unfold factors. rewrite <- oop_factors, fold_left_app. reflexivity. }
  cbn [oop_step] in Hg. rewrite Hf. clear Hf factors o'.
  unfold adjust_optimizer in *.
  destruct (match d with Some d0 => set_lr_factors d0 o1 | None => (o1, []) end) as [o2 wn].
  cbn [fst op_groups op_factors] in *. apply in_map_iff in Hg as (g0 & <- & Hin).
  cbn [pg_opts pg_lr pg_name]. split; [reflexivity|].
  destruct (dlookup (pg_name g0) (op_factors o2)); [reflexivity|]. now rewrite Rmult_1_r.
Qed.

Lemma dlookup_in k (d : pydict) : dlookup k d <> None <-> In k (map fst d).
Proof.
  induction d as [|[k' v] d IH]; simpl; [tauto|].
  destruct (String.eqb_spec k k') as [->|Hne]; [split; [now left|discriminate]|].
  rewrite IH. split; [now right|]. intros [E|E]; [congruence|exact E].
Qed.

Lemma warned_spec lr (opts : H) d o k :
  In k (snd (adjust_optimizer lr opts (Some d) o)) <->
  In k (map fst d) /\ ~ In k (map pg_name (op_groups o)).
Proof.
  unfold adjust_optimizer, set_lr_factors. cbn [snd]. rewrite filter_In.
  apply and_iff_compat_l. rewrite negb_true_iff. split.
  - intros E Hin. rewrite (proj2 (existsb_exists _ _)) in E; [discriminate|].
    exists k. split; [exact Hin|apply String.eqb_refl].
  - intros Hn. destruct (existsb _ _) eqn:E; [|reflexivity].
    apply existsb_exists in E as (k' & Hin & Heq). apply String.eqb_eq in Heq as ->. contradiction.
Qed.

(** Entries that match no parameter have no effect. *)
Lemma unused_no_effect lr (opts : H) d1 d2 o :
  (forall k, In k (map pg_name (op_groups o)) -> dlookup k d1 = dlookup k d2) ->
  op_groups (fst (adjust_optimizer lr opts (Some d1) o)) =
  op_groups (fst (adjust_optimizer lr opts (Some d2) o)).
Proof.
  intros Hk. unfold adjust_optimizer. cbn [set_lr_factors fst op_groups op_factors].
  apply map_ext_in. intros g Hg. rewrite Hk; [reflexivity|]. now apply in_map.
Qed.
End LR.
