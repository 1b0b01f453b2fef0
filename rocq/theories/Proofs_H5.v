(** Lemmas about Model_H5. *)
From Verif Require Import Base Model_H5 Spec_H5.
Local Open Scope string_scope.

Section H.
Context {E : Type}.
Notation pyv := (pyv E).
Notation h5 := (h5 E).

(** induction principles *)
Section Ind.
Context (P : pyv -> Prop).
Hypothesis Hnum : forall t e, P (PNum t e).
Hypothesis Harr : forall a, P (PArr a).
Hypothesis Hten : forall a rg, P (PTensor a rg).
Hypothesis Hstr : forall s, P (PStr s).
Hypothesis Hdict : forall d, Forall (fun kv => P (snd kv)) d -> P (PDict d).
Hypothesis Hoth : forall n, P (POther n).
Fixpoint pyv_ind' (v : pyv) : P v :=
  match v with
  | PNum t e => Hnum t e
  | PArr a => Harr a
  | PTensor a rg => Hten a rg
  | PStr s => Hstr s
  | PDict d => Hdict d ((fix go (d : list (string * pyv)) : Forall (fun kv => P (snd kv)) d :=
       match d with
       | [] => Forall_nil _
       | (k, v) :: d' => Forall_cons (k, v) (pyv_ind' v) (go d')
       end) d)
  | POther n => Hoth n
  end.
End Ind.

Lemma write_value_dict (d : list (string * pyv)) : write_value (PDict d) = rmap HGrp (write_items d []).
Proof. reflexivity. Qed.
Lemma read_value_grp (g : list (string * h5)) : read_value (HGrp g) = rmap PDict (read_items g).
Proof. reflexivity. Qed.
Lemma to_numpy_dict (d : list (string * pyv)) : to_numpy (PDict d) = rmap PDict (mapm to_numpy d).
Proof.
  cbn [to_numpy]. f_equal. induction d as [|[k v] d IH]; [reflexivity|]. cbn [mapm].
  destruct (to_numpy v); cbn [rbind]; [|reflexivity]. now rewrite IH.
Qed.
Lemma to_torch_dict (d : list (string * pyv)) : to_torch (PDict d) = rmap PDict (mapm to_torch d).
Proof.
  cbn [to_torch]. f_equal. induction d as [|[k v] d IH]; [reflexivity|]. cbn [mapm].
  destruct (to_torch v); cbn [rbind]; [|reflexivity]. now rewrite IH.
Qed.

(** keys *)
Lemma split_slash_nil s : (forall a b, s <> a ++ "/" ++ b) -> split_slash s = [s].
Proof.
  induction s as [|c s IH]; intros H; [reflexivity|]. cbn [split_slash].
  destruct (Ascii.eqb_spec c "/") as [->|Hc]; [exfalso; apply (H "" s); reflexivity|].
  rewrite IH; [reflexivity|]. intros a b ->. apply (H (String c a) b). reflexivity.
Qed.
Lemma split_slash_nonempty s : split_slash s <> [].
Proof.
  destruct s as [|c s]; [discriminate|]. cbn [split_slash]. destruct (Ascii.eqb c "/"); [discriminate|].
  destruct (split_slash s); discriminate.
Qed.
Lemma split_slash_two a b : 2 <= length (split_slash (a ++ String "/" b)).
Proof.
  induction a as [|c a IH]; cbn [append split_slash].
  - change (Ascii.eqb "/" "/") with true. cbn [length]. pose proof (split_slash_nonempty b).
    destruct (split_slash b); [contradiction|cbn; lia].
  - destruct (Ascii.eqb c "/"); [cbn [length]; lia|].
    destruct (split_slash (a ++ String "/" b)); cbn [length] in *; lia.
Qed.
Lemma split_slash_single k : split_slash k = [k] -> forall a b, k <> a ++ "/" ++ b.
Proof.
  intros H a b ->. pose proof (split_slash_two a b) as H2. change ("/" ++ b) with (String "/" b) in H.
  rewrite H in H2. cbn in H2. lia.
Qed.
Lemma components_plain k : plain_key k -> components k = [k].
Proof.
  intros (H1 & H2 & H3). unfold components. rewrite split_slash_nil by exact H3. cbn [filter].
  destruct (String.eqb_spec k ""); [contradiction|]. destruct (String.eqb_spec k "."); [contradiction|]. reflexivity.
Qed.

(** lookup *)
Lemma lookup_map {V W} (f : V -> W) k (l : list (string * V)) :
  lookup k (map (fun kv => (fst kv, f (snd kv))) l) = option_map f (lookup k l).
Proof. induction l as [|[k' v] l IH]; [reflexivity|]. cbn. destruct (String.eqb k k'); [reflexivity|exact IH]. Qed.
Lemma lookup_In {V} k (v : V) l : lookup k l = Some v -> In (k, v) l.
Proof.
  induction l as [|[k' v'] l IH]; [discriminate|]. cbn. destruct (String.eqb_spec k k') as [->|]; [|auto].
  intros H. injection H as ->. now left.
Qed.
Lemma lookup_None {V} k (l : list (string * V)) : lookup k l = None <-> ~ In k (map fst l).
Proof.
  induction l as [|[k' v'] l IH]; [cbn; tauto|]. cbn. destruct (String.eqb_spec k k') as [->|Hne].
  - split; [discriminate|]. intros H. exfalso. tauto.
  - rewrite IH. intuition congruence.
Qed.
Lemma lookup_insert k n g k' : lookup k (g : list (string * h5)) = None ->
  lookup k' (insert k n g) = if String.eqb k' k then Some n else lookup k' g.
Proof.
  induction g as [|[k0 n0] g IH]; intros H; cbn [insert lookup]; [reflexivity|].
  cbn [lookup] in H. destruct (String.eqb_spec k k0) as [->|Hne]; [discriminate|].
  destruct (String.compare k k0); cbn [lookup].
  - rewrite IH by exact H. destruct (String.eqb_spec k' k0) as [->|]; [|reflexivity].
    destruct (String.eqb_spec k0 k); [congruence|reflexivity].
  - reflexivity.
  - rewrite IH by exact H. destruct (String.eqb_spec k' k0) as [->|]; [|reflexivity].
    destruct (String.eqb_spec k0 k); [congruence|reflexivity].
Qed.
Lemma keys_insert k n (g : list (string * h5)) : Permutation (map fst (insert k n g)) (k :: map fst g).
Proof.
  induction g as [|[k0 n0] g IH]; cbn [insert map fst]; [apply Permutation_refl|].
  destruct (String.compare k k0); cbn [map fst]; try apply Permutation_refl;
    (eapply perm_trans; [apply perm_skip, IH|apply perm_swap]).
Qed.

(** reading an inserted list *)
Lemma read_items_spec (g : list (string * h5)) d' : read_items g = Ok d' ->
  map fst d' = map fst g /\
  forall k, lookup k d' = match lookup k g with
                          | Some n => match read_value n with Ok v => Some v | Raise _ => None end
                          | None => None end.
Proof.
  revert d'. induction g as [|[k0 n0] g IH]; intros d' H; cbn [read_items] in H.
  - injection H as <-. split; [reflexivity|]. reflexivity.
  - destruct (read_value n0) as [v0|] eqn:E0; [|discriminate]. cbn [rbind] in H.
    destruct (read_items g) as [d1|] eqn:E1; [|discriminate]. cbn [rmap] in H. injection H as <-.
    destruct (IH d1 eq_refl) as [I1 I2]. split; [cbn; now rewrite I1|].
    intros k. cbn [lookup]. destruct (String.eqb k k0); [now rewrite E0|apply I2].
Qed.
Lemma read_items_ok (g : list (string * h5)) :
  (forall k n, In (k, n) g -> exists v, read_value n = Ok v) -> exists d', read_items g = Ok d'.
Proof.
  induction g as [|[k0 n0] g IH]; intros H; [eexists; reflexivity|]. cbn [read_items].
  destruct (H k0 n0 (or_introl eq_refl)) as [v0 ->]. cbn [rbind].
  destruct IH as [d1 ->]; [intros k n Hin; apply (H k n); now right|]. eexists. reflexivity.
Qed.
Lemma In_insert k n (g : list (string * h5)) kn : In kn (insert k n g) -> kn = (k, n) \/ In kn g.
Proof.
  induction g as [|[k0 n0] g IH]; cbn [insert]; [intros [<-|[]]; auto|].
  destruct (String.compare k k0); cbn [In]; intuition.
Qed.

(** the group written for a list of items *)
Lemma write_items_spec (d : list (string * pyv)) :
  Forall (fun kv => exists n, write_value (snd kv) = Ok n) d ->
  Forall (fun kv => plain_key (fst kv)) d -> NoDup (map fst d) ->
  forall g, (forall k, In k (map fst d) -> lookup k g = None) -> NoDup (map fst g) ->
  exists g', write_items d g = Ok g' /\ NoDup (map fst g') /\
    (forall k, lookup k g' = match lookup k d with
       | Some v => match write_value v with Ok n => Some n | Raise _ => None end
       | None => lookup k g end) /\
    (forall k n, In (k, n) g' -> In (k, n) g \/ exists v, In (k, v) d /\ write_value v = Ok n).
Proof.
  induction d as [|[k0 v0] d IH]; intros HW HK ND g Hg NDg.
  - exists g. repeat split; auto.
  - inversion HW as [|? ? [n0 W0] HW']; inversion HK as [|? ? K0 HK']; inversion ND as [|? ? N0 ND']; subst.
    cbn [fst snd] in *. cbn [write_items]. rewrite W0. cbn [rbind].
    rewrite (components_plain k0 K0). cbn [put]. rewrite (Hg k0 (or_introl eq_refl)). cbn [rbind].
    destruct (IH HW' HK' ND' (insert k0 n0 g)) as (g' & E1 & E2 & E3 & E4).
    { intros k Hk. rewrite lookup_insert by (apply Hg; now left).
      destruct (String.eqb_spec k k0) as [->|]; [contradiction|]. apply Hg. now right. }
    { eapply Permutation_NoDup; [apply Permutation_sym, keys_insert|]. constructor; [|exact NDg].
      apply lookup_None, Hg. now left. }
    exists g'. split; [exact E1|]. split; [exact E2|]. split.
    + intros k. rewrite E3. cbn [lookup]. destruct (String.eqb_spec k k0) as [->|Hne].
      * rewrite W0. assert (lookup k0 d = None) as -> by (now apply lookup_None).
        rewrite lookup_insert by (apply Hg; now left). now rewrite String.eqb_refl.
      * destruct (lookup k d); [reflexivity|]. rewrite lookup_insert by (apply Hg; now left).
        destruct (String.eqb_spec k k0); [contradiction|reflexivity].
    + intros k n Hin. destruct (E4 k n Hin) as [H|(v & H & Hv)].
      * apply In_insert in H as [H|H]; [injection H as -> ->; right; exists v0; split; [now left|exact W0]|now left].
      * right. exists v. split; [now right|exact Hv].
Qed.

Lemma h5_native_ok t : h5_native t -> h5_ok t = true.
Proof. unfold h5_native. destruct t; cbn; intros H; try reflexivity. now destruct H. Qed.
Lemma torch_native_ok t : torch_native t -> torch_ok t = true.
Proof. unfold torch_native. destruct t; cbn; intuition congruence. Qed.
Lemma torch_h5_native t : torch_native t -> h5_native t.
Proof. unfold torch_native, h5_native. intros H ->. apply H. cbn. tauto. Qed.
Lemma nul_free_ok s : nul_free s -> no_nul s = true.
Proof.
  unfold nul_free. induction s as [|c s IH]; intros H; [reflexivity|]. cbn [no_nul].
  apply andb_true_iff. split.
  - apply negb_true_iff. destruct (Ascii.eqb_spec c "000") as [->|]; [|reflexivity].
    exfalso. exact (H "" s eq_refl).
  - apply IH. intros a b Eab. apply (H (String c a) b). cbn. now rewrite Eab.
Qed.

Lemma no_nul_free s : no_nul s = true -> nul_free s.
Proof.
  unfold nul_free. induction s as [|c s IH]; intros H [|x a] b Eab; try discriminate; cbn in *;
    apply andb_true_iff in H as [H1 H2]; injection Eab as -> Eab.
  - discriminate.
  - exact (IH H2 a b Eab).
Qed.

(** storable as an inversion on dictionaries (the nested inductive gives no automatic principle) *)
Lemma storable_dict d : @storable E (PDict d) ->
  NoDup (map fst d) /\ Forall (fun kv => plain_key (fst kv)) d /\ Forall (fun kv => storable (snd kv)) d.
Proof.
  intros H. inversion H as [| | | |d0 ND F]; subst. split; [exact ND|].
  split; apply (Forall_impl _ (fun kv Hkv => proj1 Hkv) F) || apply (Forall_impl _ (fun kv Hkv => proj2 Hkv) F).
Qed.

Lemma write_read (v : pyv) : storable v ->
  exists n w, write_value v = Ok n /\ read_value n = Ok w /\ reads_as v w.
Proof.
  induction v as [t e|a|a rg|s|d IH|n] using pyv_ind'; intros H.
  - eexists _, _. split; [reflexivity|]. split; [reflexivity|]. constructor.
  - inversion H as [|a0 Ha| | |]; subst. cbn [write_value]. unfold write_arr. rewrite (h5_native_ok _ Ha).
    exists (HArr a). destruct a as [t sh da]. cbn [read_value a_shape a_data a_dt].
    destruct sh as [|s sh]; [destruct da as [|x [|y da]]|]; eexists; (split; [reflexivity|]);
      (split; [reflexivity|]); constructor; reflexivity.
  - inversion H as [| |a0 rg0 Ha| |]; subst. cbn [write_value]. unfold write_arr. rewrite (h5_native_ok _ Ha).
    exists (HArr a). destruct a as [t sh da]. cbn [read_value a_shape a_data a_dt].
    destruct sh as [|s sh]; [destruct da as [|x [|y da]]|]; eexists; (split; [reflexivity|]);
      (split; [reflexivity|]); constructor; reflexivity.
  - inversion H as [| | |s0 Hs|]; subst. cbn [write_value]. rewrite (nul_free_ok _ Hs).
    eexists _, _. split; [reflexivity|]. split; [reflexivity|]. constructor.
  - destruct (storable_dict d H) as (ND & FK & FS).
    assert (FW : Forall (fun kv => exists n w, write_value (snd kv) = Ok n /\ read_value n = Ok w /\ reads_as (snd kv) w) d).
    { rewrite Forall_forall in *. intros kv Hin. apply IH; [exact Hin|]. apply FS, Hin. }
    destruct (write_items_spec d) with (g := @nil (string * h5)) as (g' & E1 & E2 & E3 & E4); auto.
    { eapply Forall_impl; [|exact FW]. cbn. intros kv (n & w & ? & _). eauto. }
    { constructor. }
    rewrite Forall_forall in FW.
    destruct (read_items_ok g') as [d' Ed'].
    { intros k n Hin. destruct (E4 k n Hin) as [[]|(v & Hv & W)].
      destruct (FW (k, v) Hv) as (n' & w & W' & R & _). cbn in W'. rewrite W in W'. injection W' as <-. eauto. }
    rewrite write_value_dict, E1. cbn [rmap]. exists (HGrp g'). rewrite read_value_grp, Ed'. cbn [rmap].
    eexists. split; [reflexivity|]. split; [reflexivity|].
    destruct (read_items_spec g' d' Ed') as [D1 D2]. constructor.
    + intros k v Hk. pose proof (lookup_In _ _ _ Hk) as Hin.
      destruct (FW (k, v) Hin) as (n & w & W & R & RA). cbn in *.
      exists w. split; [|exact RA]. rewrite D2, E3, Hk, W, R. reflexivity.
    + intros k Hk. rewrite D2, E3, Hk. reflexivity.
    + rewrite D1. exact E2.
  - inversion H.
Qed.

(** conversions *)
Lemma mapm_ok {A B} (f : A -> res B) (h : A -> B) d :
  Forall (fun kv => f (snd kv) = Ok (h (snd kv))) d ->
  mapm f d = Ok (map (fun kv => (fst kv, h (snd kv))) d).
Proof.
  induction d as [|[k v] d IH]; intros H; [reflexivity|]. inversion H as [|? ? H1 H2]; subst. cbn in H1.
  cbn [mapm]. rewrite H1. cbn [rbind]. rewrite (IH H2). reflexivity.
Qed.
Lemma to_numpy_ok (v : pyv) : plain_tree v -> to_numpy v = Ok (as_np v).
Proof.
  induction v as [t e|a|a rg|s|d IH|n] using pyv_ind'; intros H; try reflexivity.
  - inversion H; reflexivity.
  - inversion H as [| | | |d0 F]; subst. rewrite to_numpy_dict, (mapm_ok to_numpy as_np); [reflexivity|].
    rewrite Forall_forall in *. intros kv Hin. apply IH; auto.
  - inversion H.
Qed.
Lemma to_torch_ok (v : pyv) : torch_tree v -> to_torch v = Ok (as_torch v).
Proof.
  induction v as [t e|a|a rg|s|d IH|n] using pyv_ind'; intros H; try reflexivity.
  - inversion H as [t0 e0 Ht| | | |]; subst. cbn. unfold as_tensor. cbn. now rewrite (torch_native_ok _ Ht).
  - inversion H as [|a0 Ht| | |]; subst. cbn. unfold as_tensor. now rewrite (torch_native_ok _ Ht).
  - inversion H as [| | | |d0 F]; subst. rewrite to_torch_dict, (mapm_ok to_torch as_torch); [reflexivity|].
    rewrite Forall_forall in *. intros kv Hin. apply IH; auto.
  - inversion H.
Qed.

(** state dictionaries through a file *)
Lemma load_params_same (ps : list (string * arr E)) sd :
  (forall k a, In (k, a) ps -> exists rg, lookup k sd = Some (PTensor a rg)) ->
  forall ps0, map fst ps0 = map fst ps -> map (fun kv => a_shape (snd kv)) ps0 = map (fun kv => a_shape (snd kv)) ps ->
  map (fun kv => a_dt (snd kv)) ps0 = map (fun kv => a_dt (snd kv)) ps ->
  load_params ps0 sd = Ok ps.
Proof.
  induction ps as [|[k a] ps IH]; intros H [|[k0 a0] ps0] H1 H2 H3; try discriminate; [reflexivity|].
  cbn in H1, H2, H3. injection H1 as -> H1. injection H2 as S0 H2. injection H3 as T0 H3. cbn [load_params].
  destruct (H k a (or_introl eq_refl)) as [rg ->].
  destruct (list_eq_dec Nat.eq_dec (a_shape a0) (a_shape a)) as [_|C]; [|contradiction].
  rewrite IH; auto; [|intros; apply H; now right]. cbn [rmap]. rewrite S0, T0. destruct a; reflexivity.
Qed.
End H.
