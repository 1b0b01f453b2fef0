(** Property theorems about results dictionaries and HDF5 files (C14). *)
From Verif Require Import Base Model_H5 Spec_H5 Proofs_H5.
Local Open Scope string_scope.

(** C14: every storable nested dictionary, of any depth and size, is written without error and
    read back with the same keys and values (tensors as arrays, 0-d arrays as numbers). *)
Theorem C14_h5_round_trip : forall (E : Type) (d : list (string * pyv E)), storable (PDict d) ->
  exists g d', nested_dict_to_h5 d = Ok g /\ h5_to_nested_dict g = Ok d' /\ reads_as (PDict d) (PDict d').
Proof.
  intros E d H. destruct (write_read (PDict d) H) as (n & w & W & R & RA).
  rewrite write_value_dict in W. unfold nested_dict_to_h5, h5_to_nested_dict.
  destruct (write_items d []) as [g|]; [|discriminate]. cbn [rmap] in W. injection W as <-.
  rewrite read_value_grp in R. destruct (read_items g) as [d'|] eqn:Ed; [|discriminate].
  cbn [rmap] in R. injection R as <-. exists g, d'. auto.
Qed.
Print Assumptions C14_h5_round_trip.

(** What [reads_as] means for the leaves. *)
Theorem C14_leaves_unchanged : forall (E : Type) (d d' : list (string * pyv E)) k, reads_as (PDict d) (PDict d') ->
  (forall t e, lookup k d = Some (PNum t e) -> lookup k d' = Some (PNum t e)) /\
  (forall a, lookup k d = Some (PArr a) -> a_shape a <> [] -> lookup k d' = Some (PArr a)) /\
  (forall a rg, lookup k d = Some (PTensor a rg) -> a_shape a <> [] -> lookup k d' = Some (PArr a)) /\
  (forall s, lookup k d = Some (PStr s) -> lookup k d' = Some (PStr s)) /\
  (lookup k d' <> None -> lookup k d <> None).
Proof.
  intros E d d' k H. inversion H as [| | | |d0 d1 H1 H2 H3]; subst.
  split; [|split; [|split; [|split]]].
  - intros t e Hk. destruct (H1 _ _ Hk) as (v & -> & R). inversion R; subst. reflexivity.
  - intros a Hk Ha. destruct (H1 _ _ Hk) as (v & -> & R). inversion R as [|a0 v0 R'| | |]; subst.
    unfold reads_as_arr in R'. destruct (a_shape a); [contradiction|]. now rewrite R'.
  - intros a rg Hk Ha. destruct (H1 _ _ Hk) as (v & -> & R). inversion R as [| |a0 rg0 v0 R'| |]; subst.
    unfold reads_as_arr in R'. destruct (a_shape a); [contradiction|]. now rewrite R'.
  - intros s Hk. destruct (H1 _ _ Hk) as (v & -> & R). inversion R; subst. reflexivity.
  - intros Hk Hn. apply Hk, H2, Hn.
Qed.
Print Assumptions C14_leaves_unchanged.

(** C14: the conversions keep the dictionary structure and convert exactly the array leaves. *)
Theorem C14_conversions : forall (E : Type) (d : list (string * pyv E)),
  (plain_tree (PDict d) -> exists d', nested_dict_to_numpy d = Ok d' /\ PDict d' = as_np (PDict d)) /\
  (torch_tree (PDict d) -> exists d', nested_dict_to_torch d = Ok d' /\ PDict d' = as_torch (PDict d)).
Proof.
  intros E d. split; intros H.
  - pose proof (to_numpy_ok _ H) as R. rewrite to_numpy_dict in R. unfold nested_dict_to_numpy.
    destruct (mapm to_numpy d) as [d'|]; [|discriminate]. cbn [rmap] in R. exists d'. split; congruence.
  - pose proof (to_torch_ok _ H) as R. rewrite to_torch_dict in R. unfold nested_dict_to_torch.
    destruct (mapm to_torch d) as [d'|]; [|discriminate]. cbn [rmap] in R. exists d'. split; congruence.
Qed.
Print Assumptions C14_conversions.

(** Trees of arrays (resp. of tensors) and strings. *)
Inductive array_tree {E} : pyv E -> Prop :=
| at_arr a : torch_native (a_dt a) -> array_tree (PArr a)
| at_str s : array_tree (PStr s)
| at_dict d : Forall (fun kv => array_tree (snd kv)) d -> array_tree (PDict d).
Inductive tensor_tree {E} : pyv E -> Prop :=
| te_t a : torch_native (a_dt a) -> tensor_tree (PTensor a false)
| te_str s : tensor_tree (PStr s)
| te_dict d : Forall (fun kv => tensor_tree (snd kv)) d -> tensor_tree (PDict d).

Lemma rmap_inj_dict {E} (r : res (list (string * pyv E))) d : rmap PDict r = Ok (PDict d) -> r = Ok d.
Proof. destruct r; cbn; congruence. Qed.

(** C14: numpy -> torch -> numpy and torch -> numpy -> torch are the identity on such trees. *)
Theorem C14_conversions_inverse : forall (E : Type) (d : list (string * pyv E)),
  (array_tree (PDict d) -> rbind (nested_dict_to_torch d) nested_dict_to_numpy = Ok d) /\
  (tensor_tree (PDict d) -> rbind (nested_dict_to_numpy d) nested_dict_to_torch = Ok d).
Proof.
  intros E d. split; intros H.
  - assert (X : forall v : pyv E, array_tree v -> rbind (to_torch v) to_numpy = Ok v).
    { induction v as [t e|a|a rg|s|d0 IH|n] using pyv_ind'; intros Hv; inversion Hv as [a0 Ha| |d1 F]; subst; try reflexivity.
      - cbn. unfold as_tensor. rewrite (torch_native_ok _ Ha). reflexivity.
      - rewrite to_torch_dict. clear Hv.
        assert (G : rbind (mapm to_torch d0) (mapm to_numpy) = Ok d0).
        { induction d0 as [|[k v] d0 IHd]; [reflexivity|]. inversion IH as [|? ? I1 I2]; inversion F as [|? ? F1 F2]; subst.
          cbn [mapm snd] in *. specialize (I1 F1). destruct (to_torch v) as [w|]; [|discriminate]. cbn [rbind] in *.
          specialize (IHd I2 F2). destruct (mapm to_torch d0) as [d1|]; [|discriminate]. cbn [rbind rmap mapm] in *.
          rewrite I1. cbn [rbind]. rewrite IHd. reflexivity. }
        destruct (mapm to_torch d0) as [d1|]; [|discriminate]. cbn [rmap rbind] in *. rewrite to_numpy_dict, G. reflexivity. }
    specialize (X (PDict d) H). rewrite to_torch_dict in X. unfold nested_dict_to_torch, nested_dict_to_numpy.
    destruct (mapm to_torch d); [|discriminate]. cbn [rmap rbind] in *. rewrite to_numpy_dict in X. now apply rmap_inj_dict.
  - assert (X : forall v : pyv E, tensor_tree v -> rbind (to_numpy v) to_torch = Ok v).
    { induction v as [t e|a|a rg|s|d0 IH|n] using pyv_ind'; intros Hv; inversion Hv as [a0 Ha| |d1 F]; subst; try reflexivity.
      - cbn. unfold as_tensor. rewrite (torch_native_ok _ Ha). reflexivity.
      - rewrite to_numpy_dict. clear Hv.
        assert (G : rbind (mapm to_numpy d0) (mapm to_torch) = Ok d0).
        { induction d0 as [|[k v] d0 IHd]; [reflexivity|]. inversion IH as [|? ? I1 I2]; inversion F as [|? ? F1 F2]; subst.
          cbn [mapm snd] in *. specialize (I1 F1). destruct (to_numpy v) as [w|]; [|discriminate]. cbn [rbind] in *.
          specialize (IHd I2 F2). destruct (mapm to_numpy d0) as [d1|]; [|discriminate]. cbn [rbind rmap mapm] in *.
          rewrite I1. cbn [rbind]. rewrite IHd. reflexivity. }
        destruct (mapm to_numpy d0) as [d1|]; [|discriminate]. cbn [rmap rbind] in *. rewrite to_torch_dict, G. reflexivity. }
    specialize (X (PDict d) H). rewrite to_numpy_dict in X. unfold nested_dict_to_torch, nested_dict_to_numpy.
    destruct (mapm to_numpy d); [|discriminate]. cbn [rmap rbind] in *. rewrite to_torch_dict in X. now apply rmap_inj_dict.
Qed.
Print Assumptions C14_conversions_inverse.

(** C14: save_results, written to a file, read from it and loaded into any model of the same
    architecture (same parameter names, shapes and types) restores every parameter, the loss
    history, the epoch and the training history. *)
Theorem C14_results_restored : forall (E : Type) (of_int : Z -> E) (int_of : E -> Z) (m m0 : mstate E) fn cls ver,
  (forall z, int_of (of_int z) = z) ->
  NoDup (map fst (ms_params m)) -> Forall (fun kv => plain_key (fst kv)) (ms_params m) ->
  Forall (fun kv => torch_native (a_dt (snd kv))) (ms_params m) ->
  nul_free (ms_training m) -> nul_free fn -> nul_free cls -> nul_free ver ->
  map fst (ms_params m0) = map fst (ms_params m) ->
  map (fun kv => a_shape (snd kv)) (ms_params m0) = map (fun kv => a_shape (snd kv)) (ms_params m) ->
  map (fun kv => a_dt (snd kv)) (ms_params m0) = map (fun kv => a_dt (snd kv)) (ms_params m) ->
  exists d g d', save_results of_int m fn cls ver = Ok d /\ nested_dict_to_h5 d = Ok g /\
    h5_to_nested_dict g = Ok d' /\ load_results int_of m0 d' = Ok m.
Proof.
  intros E of_int int_of m m0 fn cls ver Hint ND PK TK N1 N2 N3 N4 A1 A2 A3.
  set (sd := map (fun kv => (fst kv, PArr (snd kv))) (ms_params m)).
  set (full :=
     [("state_dict", PDict sd);
      ("loss_history", PArr (mkArr DF64 [length (ms_loss_history m)] (ms_loss_history m)));
      ("epoch", PNum DInt (of_int (ms_epoch m)));
      ("training_history", PStr (ms_training m));
      ("loss_function", PStr fn); ("model_class", PStr cls); ("cdtools_version", PStr ver)]).
  assert (S : save_results of_int m fn cls ver = Ok full).
  { unfold save_results, nested_dict_to_numpy.
    rewrite (mapm_ok to_numpy as_np).
    - rewrite map_map. reflexivity.
    - apply Forall_forall. intros kv Hin. apply in_map_iff in Hin as (kv0 & <- & _). reflexivity. }
  rewrite S. eexists. destruct (C14_h5_round_trip E full) as (g & d' & W & R & RA).
  { constructor.
    - cbn [map fst]. repeat (constructor; [cbn; intuition discriminate|]). constructor.
    - assert (PKs : forall k, In k ["state_dict"; "loss_history"; "epoch"; "training_history"; "loss_function"; "model_class"; "cdtools_version"] -> plain_key k).
      { intros k Hk. cbn in Hk.
        assert (Hs : split_slash k = [k]) by (repeat (destruct Hk as [<-|Hk]; [reflexivity|]); destruct Hk).
        split; [intros ->; intuition discriminate|]. split; [intros ->; intuition discriminate|].
        now apply split_slash_single. }
      repeat (constructor; [split; [apply PKs; cbn; tauto|]|]); try constructor; auto.
      + unfold sd. rewrite map_map. cbn. exact ND.
      + unfold sd. apply Forall_forall. intros kv Hin. apply in_map_iff in Hin as (kv0 & <- & Hin).
        rewrite Forall_forall in PK, TK. cbn. split; [apply PK, Hin|]. constructor.
        apply torch_h5_native, TK, Hin.
      + discriminate. }
  exists g, d'. split; [reflexivity|]. split; [exact W|]. split; [exact R|].
  inversion RA as [| | | |x y H1 H2 H3]; subst x y. clear RA.
  assert (Hnum : forall k t e, lookup k full = Some (PNum t e) -> lookup k d' = Some (PNum t e)).
  { intros k t e Hk. destruct (H1 k _ Hk) as (v & -> & R'). inversion R'; subst. reflexivity. }
  assert (Hstr : forall k s, lookup k full = Some (PStr s) -> lookup k d' = Some (PStr s)).
  { intros k s Hk. destruct (H1 k _ Hk) as (v & -> & R'). inversion R'; subst. reflexivity. }
  unfold load_results.
  destruct (H1 "state_dict" (PDict sd) eq_refl) as (v & -> & R'). inversion R' as [| | | |x sd' G1 G2 G3]; subst x v.
  destruct (H1 "loss_history" _ eq_refl) as (v & -> & R2). inversion R2 as [|x y Q| | |]; subst x y. cbn in Q. subst v.
  rewrite (Hnum "epoch" _ _ eq_refl), (Hstr "training_history" _ eq_refl).
  (* the state dictionary *)
  assert (T : forall k v, In (k, v) sd' -> exists a, In (k, a) (ms_params m) /\ reads_as_arr a v).
  { intros k v Hin. assert (Hl : lookup k sd' = Some v).
    { clear -Hin G3. induction sd' as [|[k0 v0] sd' IH]; [contradiction|]. cbn in G3. inversion G3; subst.
      cbn. destruct Hin as [Hin|Hin].
      - injection Hin as -> ->. now rewrite String.eqb_refl.
      - destruct (String.eqb_spec k k0) as [->|]; [|now apply IH]. exfalso. apply H1.
        apply (in_map fst) in Hin. exact Hin. }
    destruct (lookup k sd) as [u|] eqn:Eu; [|rewrite (G2 k Eu) in Hl; discriminate].
    destruct (G1 k u Eu) as (v' & Hv' & RA). rewrite Hl in Hv'. injection Hv' as <-.
    apply lookup_In in Eu. unfold sd in Eu. apply in_map_iff in Eu as (kv & Ekv & Hkv). injection Ekv as <- <-.
    exists (snd kv). split; [destruct kv; exact Hkv|]. inversion RA; subst. assumption. }
  assert (TT : torch_tree (PDict sd')).
  { constructor. apply Forall_forall. intros [k v] Hin. destruct (T k v Hin) as (a & Ha & RA).
    rewrite Forall_forall in TK. specialize (TK _ Ha). cbn in TK. unfold reads_as_arr in RA. cbn.
    destruct (a_shape a); [destruct (a_data a) as [|e [|e' l]]|]; subst v; constructor; assumption. }
  pose proof (to_torch_ok _ TT) as TO. rewrite to_torch_dict in TO.
  unfold nested_dict_to_torch. destruct (mapm to_torch sd') as [sd2|]; [|discriminate]. cbn [rmap rbind] in *.
  injection TO as ->.
  rewrite (load_params_same (ms_params m)); [cbn [rbind]; rewrite Hint; destruct m; reflexivity| |exact A1|exact A2|exact A3].
  intros k a Hin. change (map _ sd') with (map (fun kv => (fst kv, as_torch (snd kv))) sd').
  rewrite lookup_map.
  assert (Hsd : lookup k sd = Some (PArr a)).
  { unfold sd. rewrite (lookup_map PArr). clear -Hin ND. induction (ms_params m) as [|[k0 a0] ps IH]; [contradiction|].
    cbn in ND. inversion ND; subst. cbn. destruct Hin as [Hin|Hin].
    - injection Hin as -> ->. now rewrite String.eqb_refl.
    - destruct (String.eqb_spec k k0) as [->|]; [|now apply IH]. exfalso. apply H1. apply (in_map fst) in Hin. exact Hin. }
  destruct (G1 _ _ Hsd) as (v & -> & RA). inversion RA as [|x y Q'| | |]; subst. exists false. cbn [option_map].
  unfold reads_as_arr in Q'. destruct a as [t sh da]. cbn in *.
  destruct sh; [destruct da as [|e [|e' l]]|]; subst v; reflexivity.
Qed.
Print Assumptions C14_results_restored.

Example C14_case :
  let a := mkArr DF32 [2] [1; 2] in
  let d := [("b", PDict [("x", PTensor a true); ("n", PNum DInt 7)]); ("a", PStr "hi")] in
  storable (PDict d) /\
  rbind (nested_dict_to_h5 d) h5_to_nested_dict =
    Ok [("a", PStr "hi"); ("b", PDict [("n", PNum DInt 7); ("x", PArr a)])].
Proof.
  assert (K : forall k, In k ["a"; "b"; "x"; "n"] -> plain_key k).
  { intros k Hk. cbn in Hk. assert (Hs : split_slash k = [k]) by (repeat (destruct Hk as [<-|Hk]; [reflexivity|]); destruct Hk).
    split; [intros ->; intuition discriminate|]. split; [intros ->; intuition discriminate|].
    now apply split_slash_single. }
  split; [|reflexivity].
  constructor; [cbn; repeat (constructor; [cbn; intuition discriminate|]); constructor|].
  constructor; [split; [apply K; cbn; tauto|]|constructor; [split; [apply K; cbn; tauto|constructor; apply no_nul_free; reflexivity]|constructor]].
  constructor; [cbn; repeat (constructor; [cbn; intuition discriminate|]); constructor|].
  constructor; [split; [apply K; cbn; tauto|constructor; discriminate]|].
  constructor; [split; [apply K; cbn; tauto|constructor]|constructor].
Qed.

(** C14, limits: a key containing '/' comes back as nested dictionaries ... *)
Theorem C14_slash_key_refuted :
  rbind (nested_dict_to_h5 [("a/b", PNum DInt 1)]) h5_to_nested_dict = Ok [("a", PDict [("b", PNum DInt 1)])].
Proof. reflexivity. Qed.
Print Assumptions C14_slash_key_refuted.
(** ... a list (or any other unsupported value) raises ValueError, wherever it is ... *)
Theorem C14_unsupported_leaf : forall (E : Type) k n (d1 d2 : list (string * pyv E)) g,
  write_items d1 [] = Ok g -> nested_dict_to_h5 (d1 ++ (k, POther n) :: d2) = Raise ValueError.
Proof.
  intros E k n d1 d2 g. unfold nested_dict_to_h5. generalize (@nil (string * h5 E)) as g0.
  induction d1 as [|[k0 v0] d1 IH]; intros g0 H; [reflexivity|]. cbn [write_items app] in *.
  destruct (write_value v0); [|discriminate]. cbn [rbind] in *. destruct (put (components k0) a g0); [|discriminate].
  cbn [rbind] in *. now apply IH.
Qed.
Print Assumptions C14_unsupported_leaf.
(** ... and nested_dict_to_numpy, unlike nested_dict_to_h5, rejects a parameter that requires
    grad. *)
Theorem C14_numpy_requires_grad : forall (E : Type) k (a : arr E) d,
  nested_dict_to_numpy ((k, PTensor a true) :: d) = Raise RuntimeError.
Proof. reflexivity. Qed.
Print Assumptions C14_numpy_requires_grad.

(** C14: loading results that do not fit the model.  Without a state_dict loading fails.  When
    loading succeeds the model keeps its parameter names; a stored array of that name has the
    shape of the parameter and becomes its value; a parameter that is not stored keeps its value;
    and loss history, epoch and training history are those stored (the defaults when absent),
    whatever they were before.  A stored array of another shape makes loading fail. *)
Lemma mapm_lookup {E} (f : pyv E -> res (pyv E)) d : forall d' k, mapm f d = Ok d' ->
  match lookup k d with
  | Some v => exists w, f v = Ok w /\ lookup k d' = Some w
  | None => lookup k d' = None
  end.
Proof.
  induction d as [|[k0 v0] d IH]; intros d' k H; cbn in H; [injection H as <-; reflexivity|].
  destruct (f v0) as [w|] eqn:Ew; [|discriminate]. cbn [rbind] in H.
  destruct (mapm f d) as [d1|]; [|discriminate]. cbn [rmap] in H. injection H as <-. cbn [lookup].
  destruct (String.eqb k k0); [eauto|]. now apply IH.
Qed.
Lemma load_params_lookup {E} (ps : list (string * arr E)) sd : forall ps', load_params ps sd = Ok ps' ->
  map fst ps' = map fst ps /\
  forall k a, lookup k ps = Some a ->
    match lookup k sd with
    | Some (PTensor b _) => a_shape b = a_shape a /\ lookup k ps' = Some (mkArr (a_dt a) (a_shape a) (a_data b))
    | Some _ => False
    | None => lookup k ps' = Some a
    end.
Proof.
  induction ps as [|[k0 a0] ps IH]; intros ps' H; cbn in H; [injection H as <-; split; [reflexivity|intros k a C; discriminate]|].
  destruct (lookup k0 sd) as [v|] eqn:EL.
  - destruct v as [| |b rg| | |]; try discriminate.
    destruct (list_eq_dec Nat.eq_dec (a_shape a0) (a_shape b)) as [Es|]; [|discriminate].
    destruct (load_params ps sd) as [p1|]; [|discriminate]. injection H as <-. destruct (IH p1 eq_refl) as [I1 I2].
    split; [cbn; now rewrite I1|]. intros k a. cbn [lookup]. destruct (String.eqb_spec k k0) as [->|].
    + intros [= <-]. rewrite EL. split; [now symmetry|reflexivity].
    + apply I2.
  - destruct (load_params ps sd) as [p1|]; [|discriminate]. injection H as <-. destruct (IH p1 eq_refl) as [I1 I2].
    split; [cbn; now rewrite I1|]. intros k a. cbn [lookup]. destruct (String.eqb_spec k k0) as [->|].
    + intros [= <-]. now rewrite EL.
    + apply I2.
Qed.
Theorem C14_loading_other_results : forall (E : Type) (int_of : E -> Z) (m : mstate E) d,
  (lookup "state_dict" d = None -> exists e, load_results int_of m d = Raise e) /\
  (forall m', load_results int_of m d = Ok m' ->
    map fst (ms_params m') = map fst (ms_params m) /\
    exists sd, lookup "state_dict" d = Some (PDict sd) /\
    (forall k a b, lookup k (ms_params m) = Some a -> lookup k sd = Some (PArr b) ->
       a_shape b = a_shape a /\ lookup k (ms_params m') = Some (mkArr (a_dt a) (a_shape a) (a_data b))) /\
    (forall k a, lookup k (ms_params m) = Some a -> lookup k sd = None -> lookup k (ms_params m') = Some a) /\
    (forall a, lookup "loss_history" d = Some (PArr a) -> ms_loss_history m' = a_data a) /\
    (lookup "loss_history" d = None -> ms_loss_history m' = []) /\
    (forall t e, lookup "epoch" d = Some (PNum t e) -> ms_epoch m' = int_of e) /\
    (lookup "epoch" d = None -> ms_epoch m' = 0%Z) /\
    (forall s, lookup "training_history" d = Some (PStr s) -> ms_training m' = s) /\
    (lookup "training_history" d = None -> ms_training m' = "")) /\
  (forall sd k a b, lookup "state_dict" d = Some (PDict sd) -> lookup k (ms_params m) = Some a ->
     lookup k sd = Some (PArr b) -> a_shape b <> a_shape a -> exists e, load_results int_of m d = Raise e) /\
  (* a partial or extended state_dict is accepted (strict=False) *)
  (forall sd, lookup "state_dict" d = Some (PDict sd) ->
     (forall k v, lookup k sd = Some v -> exists b, v = PArr b /\ torch_native (a_dt b) /\
        forall a, lookup k (ms_params m) = Some a -> a_shape b = a_shape a) ->
     NoDup (map fst sd) -> NoDup (map fst (ms_params m)) ->
     lookup "loss_history" d = None -> lookup "epoch" d = None -> lookup "training_history" d = None ->
     exists m', load_results int_of m d = Ok m').
Proof.
  intros E int_of m d.
  assert (MAIN : forall m', load_results int_of m d = Ok m' ->
    map fst (ms_params m') = map fst (ms_params m) /\
    exists sd, lookup "state_dict" d = Some (PDict sd) /\
    (forall k a b, lookup k (ms_params m) = Some a -> lookup k sd = Some (PArr b) ->
       a_shape b = a_shape a /\ lookup k (ms_params m') = Some (mkArr (a_dt a) (a_shape a) (a_data b))) /\
    (forall k a, lookup k (ms_params m) = Some a -> lookup k sd = None -> lookup k (ms_params m') = Some a) /\
    (forall a, lookup "loss_history" d = Some (PArr a) -> ms_loss_history m' = a_data a) /\
    (lookup "loss_history" d = None -> ms_loss_history m' = []) /\
    (forall t e, lookup "epoch" d = Some (PNum t e) -> ms_epoch m' = int_of e) /\
    (lookup "epoch" d = None -> ms_epoch m' = 0%Z) /\
    (forall s, lookup "training_history" d = Some (PStr s) -> ms_training m' = s) /\
    (lookup "training_history" d = None -> ms_training m' = "")).
  { intros m' H. unfold load_results in H. destruct (lookup "state_dict" d) as [[| | | |sd|]|]; try discriminate.
    destruct (nested_dict_to_torch sd) as [sdt|] eqn:ET; [|discriminate]. cbn [rbind] in H.
    destruct (load_params (ms_params m) sdt) as [ps|] eqn:EP; [|discriminate]. cbn [rbind] in H.
    destruct (load_params_lookup _ _ _ EP) as [P1 P2].
    assert (T : forall k, match lookup k sd with
      | Some v => exists w, to_torch v = Ok w /\ lookup k sdt = Some w
      | None => lookup k sdt = None end) by (intros k; exact (mapm_lookup to_torch sd sdt k ET)).
    assert (A : ms_params m' = ps).
    { destruct (lookup "loss_history" d) as [[]|]; try discriminate; cbn [rbind] in H;
      destruct (lookup "epoch" d) as [[]|]; try discriminate; cbn [rbind] in H;
      destruct (lookup "training_history" d) as [[]|]; try discriminate; cbn [rbind] in H; injection H as <-; reflexivity. }
    split; [rewrite A; exact P1|]. exists sd. split; [reflexivity|]. rewrite A. split; [|split].
    - intros k a b Ha Hb. specialize (P2 k a Ha). specialize (T k). rewrite Hb in T. destruct T as (w & Tw & Lw).
      cbn in Tw. unfold as_tensor in Tw. destruct (torch_ok (a_dt b)); [|discriminate]. injection Tw as <-.
      rewrite Lw in P2. exact P2.
    - intros k a Ha Hb. specialize (P2 k a Ha). specialize (T k). rewrite Hb in T. rewrite T in P2. exact P2.
    - destruct (lookup "loss_history" d) as [[]|]; try discriminate; cbn [rbind] in H;
      destruct (lookup "epoch" d) as [[]|]; try discriminate; cbn [rbind] in H;
      destruct (lookup "training_history" d) as [[]|]; try discriminate; cbn [rbind] in H; injection H as <-;
      cbn; repeat match goal with |- _ /\ _ => split end; intros; try discriminate; try reflexivity; congruence. }
  split; [|split; [exact MAIN|split]].
  - intros H. unfold load_results. rewrite H. eexists; reflexivity.
  - intros sd k a b Hsd Ha Hb Hne. destruct (load_results int_of m d) as [m'|e] eqn:EM; [|eexists; reflexivity].
    destruct (MAIN m' eq_refl) as (_ & sd' & Hsd' & V & _). rewrite Hsd in Hsd'. injection Hsd' as <-.
    destruct (V k a b Ha Hb) as [C _]. contradiction.
  - intros sd Hsd Hok ND1 ND2 N1 N2 N3. unfold load_results. rewrite Hsd, N1, N2, N3.
    assert (TT : nested_dict_to_torch sd = Ok (map (fun kv => (fst kv, as_torch (snd kv))) sd)).
    { apply mapm_ok. apply Forall_forall. intros [k v] Hin.
      assert (L : lookup k sd = Some v).
      { clear -ND1 Hin. induction sd as [|[k0 v0] sd IH]; [destruct Hin|]. cbn. inversion ND1 as [|? ? Nk ND]; subst.
        destruct Hin as [[= -> ->]|Hin]; [now rewrite String.eqb_refl|].
        destruct (String.eqb_spec k k0) as [->|]; [|now apply IH]. elim Nk. apply in_map_iff. now exists (k0, v). }
      destruct (Hok k v L) as (b & -> & Tb & _). cbn. unfold as_tensor. now rewrite (torch_native_ok _ Tb). }
    rewrite TT. cbn [rbind].
    assert (LP : forall ps, NoDup (map fst ps) -> (forall k a, lookup k ps = Some a -> lookup k (ms_params m) = Some a) ->
      exists ps', load_params ps (map (fun kv => (fst kv, as_torch (snd kv))) sd) = Ok ps').
    { induction ps as [|[k0 a0] ps IH]; intros ND HI; [eexists; reflexivity|]. inversion ND as [|? ? Nk ND']; subst.
      destruct IH as [ps1 E1]; [exact ND'| |].
      { intros k a L. apply HI. cbn. destruct (String.eqb_spec k k0) as [->|]; [|exact L].
        elim Nk. clear -L. induction ps as [|[k1 a1] ps IH]; [discriminate|]. cbn in *.
        destruct (String.eqb_spec k0 k1) as [->|]; [now left|right; now apply IH]. }
      cbn [load_params]. rewrite E1.
      assert (LM : lookup k0 (map (fun kv => (fst kv, as_torch (snd kv))) sd) = option_map as_torch (lookup k0 sd)).
      { clear. induction sd as [|[k1 v1] sd IH]; [reflexivity|]. cbn. destruct (String.eqb k0 k1); [reflexivity|exact IH]. }
      rewrite LM. destruct (lookup k0 sd) as [v|] eqn:EL; cbn [option_map]; [|eexists; reflexivity].
      destruct (Hok k0 v EL) as (b & -> & _ & Sb). cbn [as_torch].
      destruct (list_eq_dec Nat.eq_dec (a_shape a0) (a_shape b)) as [_|C]; [eexists; reflexivity|].
      elim C. symmetry. apply Sb. apply HI. cbn. now rewrite String.eqb_refl. }
    destruct (LP (ms_params m) ND2 (fun k a L => L)) as [ps' E1]. rewrite E1. cbn [rbind]. eexists; reflexivity.
Qed.
Print Assumptions C14_loading_other_results.
Example C14_loading_case :
  load_results (fun z : Z => z) (mkMs [("w", mkArr DF32 [1] [5%Z]); ("v", mkArr DF32 [1] [6%Z])] [1%Z] 3%Z "x")
    [("state_dict", PDict [("w", PArr (mkArr DF32 [1] [9%Z]))])]
  = Ok (mkMs [("w", mkArr DF32 [1] [9%Z]); ("v", mkArr DF32 [1] [6%Z])] [] 0%Z "").
Proof. reflexivity. Qed.
