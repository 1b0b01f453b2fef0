(** Property theorems about the optimizer wrappers (C07, C08, C09). *)
From Verif Require Import Base Model_Recon Spec_Recon Model_Optim Spec_Optim Proofs_Recon Proofs_Optim Proofs_ReconTight.

(** C07: with their default batch sizes, Adam_optimize (15), AdamReconstructor.optimize (15) and
    SGDReconstructor.optimize (15) get a working loader. *)
Theorem C07_adam_default_usable : forall (Inp Pat : Type) perm (ds : list (Inp * Pat)) sub n thread width shuffle,
  exists ld,
    base_loader perm ds sub (adam_args n Adam_optimize_default_batch None thread width shuffle) = Ok ld
    /\ base_loader perm ds sub (adam_args n AdamReconstructor_default_batch None thread width shuffle) = Ok ld.
Proof. intros. eexists. split; reflexivity. Qed.
Print Assumptions C07_adam_default_usable.

Theorem C07_sgd_reconstructor_default_usable : forall (Inp Pat : Type) perm (ds : list (Inp * Pat)) sub n thread width shuffle,
  exists ld,
    base_loader perm ds sub (sgd_args n SGDReconstructor_default_batch thread width shuffle) = Ok ld.
Proof. intros. eexists. reflexivity. Qed.
Print Assumptions C07_sgd_reconstructor_default_usable.

(** C07: LBFGS gives one minibatch per epoch containing every selected pattern. *)
Theorem C07_lbfgs_full_batch : forall (Inp Pat : Type) perm (ds : list (Inp * Pat)) sub idxs n thread width t,
  selects sub (length ds) idxs ->
  idxs <> [] -> Permutation (perm t) (seq 0 (length idxs)) ->
  Forall (fun i => i < length ds) idxs ->
  exists ld mb sel,
    base_loader perm ds sub (lbfgs_args n (length idxs) thread width) = Ok ld /\
    ld t = Ok [mb] /\ Forall2 (fun i x => nth_error ds i = Some x) idxs sel /\
    Permutation (combine (fst mb) (snd mb)) sel.
Proof.
  intros Inp Pat perm ds sub idxs n thread width t Hs Hne HP HF.
  apply selects_fun in Hs.
  assert (Hb : (1 <= Z.of_nat (length idxs))%Z) by (destruct idxs; [contradiction|cbn; lia]).
  subst idxs. set (idxs := subset_indices sub (length ds)) in *.
  destruct (setup_dataloader_visits perm ds sub _ true t Hb HP HF)
    as (ld & mbs & sel & rows & H1 & H2 & H3 & H4 & H5 & _ & H7).
  fold idxs in H1, H3.
  assert (Hlen : length rows = length idxs).
  { rewrite (Permutation_length H5). symmetry. eapply Forall2_len; eassumption. }
  destruct mbs as [|mb mbs].
  - cbn in H4. subst rows. cbn in Hlen. destruct idxs; [contradiction|discriminate].
  - assert (mbs = []) as ->.
    { destruct mbs as [|mb2 mbs]; [reflexivity|]. exfalso.
      destruct (H7 0 mb eq_refl) as (E1 & _ & E2). cbn [length] in E2. specialize (E2 ltac:(lia)).
      destruct (H7 1 mb2 eq_refl) as (E3 & E4 & _).
      rewrite Nat2Z.id in E2. subst rows. cbn [map concat] in Hlen.
      rewrite !app_length, !combine_length in Hlen. lia. }
    exists ld, mb, sel. split; [exact H1|]. split; [exact H2|]. split; [exact H3|].
    cbn in H4. rewrite app_nil_r in H4. now rewrite H4.
Qed.
Print Assumptions C07_lbfgs_full_batch.

Example C07_lbfgs_hypotheses_met :
  selects SubNone (length [(1, 2); (3, 4)]) [0; 1] /\ [0; 1] <> [] /\
  Permutation [1; 0] (seq 0 (length [0; 1])) /\ Forall (fun i => i < 2) [0; 1].
Proof. split; [exact (subset_selects SubNone 2)|]. split; [discriminate|].
  split; [apply perm_swap|repeat constructor]. Qed.

(** C07, full claim refuted: CDIModel.SGD_optimize with its default batch_size always fails with
    AttributeError at the first next(), whatever the dataset. *)
Theorem C07_sgd_optimize_default_refuted :
  forall (Inp Pat : Type) perm (ds : list (Inp * Pat)) sub n thread width shuffle,
    base_loader perm ds sub (sgd_args n SGD_optimize_default_batch thread width shuffle)
    = Raise AttributeError.
Proof. reflexivity. Qed.
Print Assumptions C07_sgd_optimize_default_refuted.

(** C08 (Adam): shuffle=False visits the selected patterns in order in every epoch. *)
Theorem C08_adam_unshuffled_in_order : forall (Inp Pat : Type) perm (ds : list (Inp * Pat)) sub idxs n b thread width t,
  (1 <= b)%Z -> selects sub (length ds) idxs ->
  Permutation (perm t) (seq 0 (length idxs)) ->
  Forall (fun i => i < length ds) idxs ->
  exists ld mbs sel,
    base_loader perm ds sub (adam_args n (Some b) None thread width false) = Ok ld /\
    ld t = Ok mbs /\
    Forall2 (fun i x => nth_error ds i = Some x) idxs sel /\
    concat (map (fun mb => combine (fst mb) (snd mb)) mbs) = sel.
Proof.
  intros Inp Pat perm ds sub idxs n b thread width t Hb Hs HP HF.
  apply selects_fun in Hs. subst idxs.
  destruct (setup_dataloader_visits perm ds sub b false t Hb HP HF)
    as (ld & mbs & sel & rows & H1 & H2 & H3 & H4 & _ & H6 & _).
  exists ld, mbs, sel. rewrite H4. auto.
Qed.
Print Assumptions C08_adam_unshuffled_in_order.

(** C08 (Adam): shuffle=True visits the selected patterns in the order the sampler drew for that
    epoch. *)
Theorem C08_adam_shuffled_drawn_order : forall (Inp Pat : Type) perm (ds : list (Inp * Pat)) sub idxs n b thread width t,
  (1 <= b)%Z -> selects sub (length ds) idxs ->
  Permutation (perm t) (seq 0 (length idxs)) ->
  Forall (fun i => i < length ds) idxs ->
  exists ld mbs sel,
    base_loader perm ds sub (adam_args n (Some b) None thread width true) = Ok ld /\
    ld t = Ok mbs /\
    Forall2 (fun i x => nth_error ds i = Some x) idxs sel /\
    Forall2 (fun i x => nth_error sel i = Some x) (perm t)
      (concat (map (fun mb => combine (fst mb) (snd mb)) mbs)).
Proof.
  intros Inp Pat perm ds sub idxs n b thread width t Hb Hs HP HF.
  apply (setup_dataloader_order perm ds sub idxs b t Hb Hs); [|exact HF].
  apply Forall_forall. intros i Hi. apply (Permutation_in _ HP) in Hi. apply in_seq in Hi. lia.
Qed.
Print Assumptions C08_adam_shuffled_drawn_order.

(** C08: a custom data loader is used as it is by Adam: it decides the minibatches. *)
Theorem C08_custom_loader_used : forall (Inp Pat : Type) perm (ds : list (Inp * Pat)) sub n b ld thread width shuffle,
  base_loader perm ds sub (adam_args n b (Some ld) thread width shuffle) = Ok ld.
Proof. reflexivity. Qed.
Print Assumptions C08_custom_loader_used.

(** C08, full claim refuted for SGD: shuffle=False and shuffle=True behave identically, and the
    order is the sampler's random one. *)
Theorem C08_sgd_shuffle_ignored_refuted :
  (forall (Inp Pat : Type) perm (ds : list (Inp * Pat)) sub n b thread width,
     base_loader perm ds sub (sgd_args n b thread width false) =
     base_loader perm ds sub (sgd_args n b thread width true)) /\
  exists (ds : list (nat * nat)) perm ld,
    Permutation (perm 0) (seq 0 (length ds)) /\
    base_loader perm ds SubNone (sgd_args 1 (Some 1%Z) true 10 false) = Ok ld /\
    ld 0 <> Ok [([1], [10]); ([2], [20])] /\ ds = [(1, 10); (2, 20)].
Proof.
  split; [reflexivity|].
  exists [(1, 10); (2, 20)], (fun _ => [1; 0]). eexists.
  split; [apply perm_swap|]. split; [reflexivity|]. split; [discriminate|reflexivity].
Qed.
Print Assumptions C08_sgd_shuffle_ignored_refuted.

(** C09: after any history ending in an adjust (the start of an optimize call) with learning rate
    [lr], every group runs with lr times the factor of the most recently supplied dictionary
    (1 if the parameter is not named), and the set of groups never changes. *)
Theorem C09_lr_factors : forall (H : Type) (ops : list (oop H)) o lr opts d,
  let o' := fold_left oop_step (ops ++ [OpAdjust lr opts d]) o in
  let factors := last_factors (op_factors o) (ops ++ [OpAdjust lr opts d]) in
  is_dict factors ->
  map pg_name (op_groups o') = map pg_name (op_groups o) /\
  forall g, In g (op_groups o') ->
    pg_opts g = opts /\ exists f, factor factors (pg_name g) f /\ pg_lr g = (lr * f)%R.
Proof.
  intros H ops o lr opts d o' factors Hd. destruct (adjust_lr ops o lr opts d) as [H1 H2].
  split; [exact H1|]. intros g Hg. destruct (H2 g Hg) as [H3 H4]. split; [exact H3|].
  destruct (factor_total factors (pg_name g)) as [f Hf]. exists f. split; [exact Hf|].
  rewrite H4. f_equal. now apply dlookup_factor.
Qed.
Print Assumptions C09_lr_factors.

(** C09: the same from construction on: one group per parameter name, and the dictionary given to
    the constructor counts as supplied first. *)
Theorem C09_lr_factors_from_construction : forall (H : Type) names lr0 (opts0 : H) d0 ops lr opts d,
  let o' := fold_left oop_step (ops ++ [OpAdjust lr opts d]) (fst (optr_init names lr0 opts0 d0)) in
  let factors := last_factors d0 (ops ++ [OpAdjust lr opts d]) in
  is_dict factors ->
  map pg_name (op_groups o') = names /\
  forall g, In g (op_groups o') ->
    pg_opts g = opts /\ exists f, factor factors (pg_name g) f /\ pg_lr g = (lr * f)%R.
Proof.
  intros H names lr0 opts0 d0 ops lr opts d o' factors Hd.
  destruct (C09_lr_factors H ops (fst (optr_init names lr0 opts0 d0)) lr opts d Hd) as [H1 H2].
  split; [|exact H2]. fold o' in H1. rewrite H1. cbn. rewrite map_map. cbn. apply map_id.
Qed.
Print Assumptions C09_lr_factors_from_construction.

(** C09: exactly the supplied names that match no parameter are reported, and they have no
    effect on any group. *)
Theorem C09_unused_reported : forall (H : Type) lr (opts : H) d o k,
  In k (snd (adjust_optimizer lr opts (Some d) o)) <->
  In k (map fst d) /\ ~ In k (map pg_name (op_groups o)).
Proof. exact @warned_spec. Qed.
Print Assumptions C09_unused_reported.

Theorem C09_unused_no_effect : forall (H : Type) lr (opts : H) d1 d2 o,
  is_dict d1 -> is_dict d2 ->
  (forall k f, In k (map pg_name (op_groups o)) -> factor d1 k f <-> factor d2 k f) ->
  op_groups (fst (adjust_optimizer lr opts (Some d1) o)) =
  op_groups (fst (adjust_optimizer lr opts (Some d2) o)).
Proof.
  intros H lr opts d1 d2 o Hd1 Hd2 Hk. unfold adjust_optimizer.
  cbn [set_lr_factors fst op_groups op_factors].
  apply map_ext_in. intros g Hg.
  destruct (factor_total d1 (pg_name g)) as [f Hf1].
  pose proof (proj1 (Hk (pg_name g) f (in_map _ _ _ Hg)) Hf1) as Hf2.
  pose proof (dlookup_factor d1 _ f Hd1 Hf1) as E1. pose proof (dlookup_factor d2 _ f Hd2 Hf2) as E2.
  f_equal. destruct (dlookup (pg_name g) d1) as [f1|], (dlookup (pg_name g) d2) as [f2|]; subst;
    try reflexivity; try congruence; try rewrite <- E1; try rewrite E2; try rewrite <- E2; ring.
Qed.
Print Assumptions C09_unused_no_effect.

Example C09_case :
  let o := fst (optr_init ["probe"; "obj"]%string 1%R tt [("obj", 2)]%string%R) in
  let o' := fold_left oop_step [OpAdjust 3 tt None; OpSchedule (fun _ x => x / 2);
                                OpAdjust 5 tt (Some [("probe", 7); ("typo", 1)]%string)]%R o in
  map pg_lr (op_groups o') = [5 * 7; 5]%R.
Proof. reflexivity. Qed.

Example C09_hypotheses_met :
  is_dict [("probe", 7); ("typo", 1)]%string%R /\ factor [("probe", 7); ("typo", 1)]%string%R "probe" 7 /\
  factor [("probe", 7); ("typo", 1)]%string%R "obj" 1.
Proof.
  split; [repeat constructor; cbn; intuition discriminate|]. split; [left; now left|].
  right. split; [cbn; intuition discriminate|reflexivity].
Qed.
