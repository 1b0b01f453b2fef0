From Verif Require Import Base Model_H5 Model_Cxi Model_Reload Spec_H5 Proofs_H5 Properties_H5 Spec_Reload.
Local Open Scope string_scope.
Local Open Scope res_scope.

Section Proofs.
Context {E : Type}.
Notation arr := (arr E).
Notation pyv := (pyv E).
Notation slot := (slot E).
Context (of_int : Z -> E) (int_of : E -> Z).

Lemma slot_val_notin k (s : list slot) : ~ In k (map sl_name s) -> slot_val k s = None.
Proof.
  induction s as [|x s IH]; intros H; [reflexivity|]. cbn in *. destruct (String.eqb_spec k (sl_name x)) as [->|]; [tauto|].
  apply IH. tauto.
Qed.
Lemma named_keys p (s : list slot) k : In k (map fst (named p s)) -> In k (map sl_name s).
Proof.
  induction s as [|x s IH]; [intros []|]. cbn. rewrite map_app, in_app_iff. intros [H|H]; [|tauto].
  destruct (Bool.eqb _ p); [|destruct H]. destruct (sl_val x); [|destruct H]. cbn in H. tauto.
Qed.
Lemma lookup_app {V} k (l1 l2 : list (string * V)) :
  lookup k (l1 ++ l2)%list = match lookup k l1 with Some v => Some v | None => lookup k l2 end.
Proof. induction l1 as [|[k0 v0] l IH]; [reflexivity|]. cbn. now destruct (String.eqb k k0). Qed.
Lemma lookup_notin {V} k (l : list (string * V)) : ~ In k (map fst l) -> lookup k l = None.
Proof. apply lookup_None. Qed.
Lemma lookup_named p (s : list slot) k : NoDup (map sl_name s) ->
  lookup k (named p s) = (if existsb (fun x => String.eqb k (sl_name x) && Bool.eqb (is_param (sl_kind x)) p) s
                          then slot_val k s else None).
Proof.
  induction s as [|x s IH]; intros ND; [reflexivity|]. inversion ND as [|? ? N1 N2]; subst.
  change (named p (x :: s)) with ((if Bool.eqb (is_param (sl_kind x)) p
        then match sl_val x with Some a => [(sl_name x, a)] | None => [] end else []) ++ named p s)%list.
  rewrite lookup_app, (IH N2). cbn [existsb slot_val].
  assert (NE : k = sl_name x -> existsb (fun x => String.eqb k (sl_name x) && Bool.eqb (is_param (sl_kind x)) p) s = false).
  { intros ->. apply Bool.not_true_is_false. intros H. apply existsb_exists in H as (y & Hy & Hb).
    apply andb_prop in Hb as [Hb _]. apply String.eqb_eq in Hb. apply N1. rewrite Hb. now apply in_map. }
  destruct (String.eqb_spec k (sl_name x)) as [->|Nk].
  - rewrite (NE eq_refl). destruct (Bool.eqb (is_param (sl_kind x)) p); cbn [andb orb].
    + destruct (sl_val x); cbn; [now rewrite String.eqb_refl|reflexivity].
    + cbn. reflexivity.
  - cbn [andb orb]. destruct (Bool.eqb (is_param (sl_kind x)) p); [|reflexivity].
    destruct (sl_val x); cbn; [|reflexivity]. destruct (String.eqb_spec k (sl_name x)); [contradiction|reflexivity].
Qed.
Lemma lookup_state_dict (s : list slot) k : NoDup (map sl_name s) -> lookup k (state_dict s) = slot_val k s.
Proof.
  intros ND. unfold state_dict. rewrite lookup_app, !lookup_named by assumption.
  destruct (existsb (fun x => String.eqb k (sl_name x) && Bool.eqb (is_param (sl_kind x)) true) s) eqn:E1.
  - destruct (slot_val k s); [reflexivity|]. match goal with |- (if ?b then _ else _) = _ => destruct b end; reflexivity.
  - destruct (existsb (fun x => String.eqb k (sl_name x) && Bool.eqb (is_param (sl_kind x)) false) s) eqn:E2; [reflexivity|].
    symmetry. apply slot_val_notin. intros H. apply in_map_iff in H as (x & Hx & Hin).
    assert (forall p, existsb (fun x => String.eqb k (sl_name x) && Bool.eqb (is_param (sl_kind x)) p) s = false ->
                      is_param (sl_kind x) <> p).
    { intros p Hp C. assert (existsb (fun x => String.eqb k (sl_name x) && Bool.eqb (is_param (sl_kind x)) p) s = true); [|congruence].
      apply existsb_exists. exists x. split; [assumption|]. rewrite Hx, String.eqb_refl, C. now destruct p. }
    pose proof (H _ E1). pose proof (H _ E2). now destruct (is_param (sl_kind x)).
Qed.
Lemma NoDup_append {A} (l1 l2 : list A) : NoDup l1 -> (forall x, In x l1 -> In x l2 -> False) -> NoDup l2 -> NoDup (l1 ++ l2)%list.
Proof.
  induction 1 as [|x l1 Hx _ IH]; intros D N2; [exact N2|]. cbn. constructor.
  - rewrite in_app_iff. intros [H|H]; [contradiction|]. now apply (D x (or_introl eq_refl)).
  - apply IH; [|assumption]. intros y H1 H2. now apply (D y (or_intror H1)).
Qed.
Lemma NoDup_state_dict (s : list slot) : NoDup (map sl_name s) -> NoDup (map fst (state_dict s)).
Proof.
  unfold state_dict. rewrite map_app. intros ND. 
  assert (A : forall p, NoDup (map fst (named p s))).
  { intros p. induction s as [|x s IH]; [constructor|]. cbn. inversion ND as [|? ? N1 N2]; subst. rewrite map_app.
    destruct (Bool.eqb _ p); [|now apply IH]. destruct (sl_val x); [|now apply IH]. cbn.
    constructor; [|now apply IH]. intros H. apply N1. eapply named_keys, H. }
  apply NoDup_append; [apply A| |apply A].
  intros k H1 H2. revert ND H1 H2. clear A. induction s as [|x s IH]; intros ND H1 H2; [destruct H1|].
  inversion ND as [|? ? N1 N2]; subst. cbn in H1, H2. rewrite map_app, in_app_iff in H1, H2.
  assert (X : forall p, In k (map fst (if Bool.eqb (is_param (sl_kind x)) p
        then match sl_val x with Some a => [(sl_name x, a)] | None => [] end else [])) -> k = sl_name x /\ is_param (sl_kind x) = p).
  { intros p H. destruct (Bool.eqb (is_param (sl_kind x)) p) eqn:Eb; [|destruct H]. apply Bool.eqb_prop in Eb.
    destruct (sl_val x); [|destruct H]. cbn in H. intuition. }
  destruct H1 as [H1|H1], H2 as [H2|H2].
  - apply X in H1, H2. destruct H1, H2. congruence.
  - apply X in H1. destruct H1 as [-> _]. apply N1. eapply named_keys, H2.
  - apply X in H2. destruct H2 as [-> _]. apply N1. eapply named_keys, H1.
  - now apply IH.
Qed.

(** A dictionary from which a model with slots [s] can be read. *)
Definition holds (sd : list (string * pyv)) (s : list slot) : Prop :=
  Forall (fun kv => exists w, to_torch (snd kv) = Ok w) sd /\
  forall k, match slot_val k s with
            | Some a => exists v, lookup k sd = Some v /\ as_arr v = Ok a /\ to_torch v = Ok (PTensor a false)
            | None => lookup k sd = None
            end.
Definition faithful (d : list (string * pyv)) (m : model E) : Prop :=
  (exists sd, lookup "state_dict" d = Some (PDict sd) /\ holds sd (md_slots m)) /\
  lookup "loss_history" d = Some (PArr (mkArr DF64 [length (md_history m)] (md_history m))) /\
  (exists t, lookup "epoch" d = Some (PNum t (of_int (md_epoch m)))) /\
  lookup "training_history" d = Some (PStr (md_training m)) /\
  lookup "loss_function" d = Some (PStr (loss_name (md_loss m))).

Definition compat (x y : slot) : Prop :=
  sl_name y = sl_name x /\ sl_kind y = sl_kind x /\
  match sl_val x, sl_val y with
  | None, None => True
  | Some a, Some b => a_dt b = a_dt a /\ a_shape b = a_shape a
  | _, _ => False
  end.

Lemma mapm_total (f : pyv -> res pyv) d : Forall (fun kv => exists w, f (snd kv) = Ok w) d -> exists d', mapm f d = Ok d'.
Proof.
  induction 1 as [|[k v] d [w Hw] _ [d' IH]]; [eexists; reflexivity|]. cbn in *. rewrite Hw, IH. eexists; reflexivity.
Qed.
Lemma load_params_copies (ps : list (string * arr)) sd (f : string -> arr) : NoDup (map fst ps) ->
  (forall k a, In (k, a) ps -> exists rg, lookup k sd = Some (PTensor (f k) rg) /\ a_dt (f k) = a_dt a /\ a_shape (f k) = a_shape a) ->
  load_params ps sd = Ok (map (fun kv => (fst kv, f (fst kv))) ps).
Proof.
  induction ps as [|[k a] ps IH]; intros ND H; [reflexivity|]. inversion ND as [|? ? N1 N2]; subst. cbn [load_params].
  destruct (H k a) as (rg & -> & D & S); [now left|].
  destruct (list_eq_dec Nat.eq_dec (a_shape a) (a_shape (f k))) as [_|C]; [|congruence].
  rewrite IH; [|assumption|intros; apply H; now right]. cbn. f_equal. f_equal. f_equal. rewrite <- D, <- S. now destruct (f k).
Qed.

Lemma slot_val_in (s : list slot) x : NoDup (map sl_name s) -> In x s -> slot_val (sl_name x) s = sl_val x.
Proof.
  induction s as [|y s IH]; [intros _ []|]. intros ND HI; inversion ND as [|? ? N1 N2]; subst; destruct HI as [->|H]; cbn.
  - now rewrite String.eqb_refl.
  - destruct (String.eqb_spec (sl_name x) (sl_name y)) as [C|]; [|now apply IH]. elim N1. rewrite <- C. now apply in_map.
Qed.
Lemma in_state_dict (s : list slot) k a : In (k, a) (state_dict s) -> exists x, In x s /\ sl_name x = k /\ sl_val x = Some a.
Proof.
  unfold state_dict. rewrite in_app_iff. 
  assert (A : forall p, In (k, a) (named p s) -> exists x, In x s /\ sl_name x = k /\ sl_val x = Some a).
  { intros p. unfold named. rewrite in_flat_map. intros (x & Hx & H). destruct Bool.eqb; [|destruct H].
    destruct (sl_val x) eqn:Ev; [|destruct H]. destruct H as [[= <- <-]|[]]. eauto. }
  intros [H|H]; eapply A, H.
Qed.

Lemma finish_ok d (m : model E) s1 l : (forall z, int_of (of_int z) = z) -> faithful d m -> NoDup (map sl_name (md_slots m)) ->
  Forall2 compat s1 (md_slots m) -> l = md_loss m -> finish int_of (s1, l) d = Ok m.
Proof.
  intros HI ((sd & Hsd & HT & HS) & HL & (t & HE) & HTr & _) ND HC ->. unfold finish, load_results. cbn [fst snd ms_params].
  rewrite Hsd, HL, HE, HTr. destruct (mapm_total to_torch sd HT) as [sdt Et]. unfold nested_dict_to_torch. rewrite Et.
  cbn [rbind]. set (S := md_slots m) in *.
  assert (Hnames : map sl_name s1 = map sl_name S).
  { clear -HC. induction HC as [|x y s1 s (Hn & _) _ IH]; [reflexivity|]. cbn. now rewrite Hn, IH. }
  assert (ND1 : NoDup (map sl_name s1)) by now rewrite Hnames.
  set (f := fun k => match slot_val k S with Some a => a | None => mkArr DBool [] [] end).
  assert (F2 : forall x, In x s1 -> exists y, In y S /\ compat x y).
  { clear -HC. induction HC as [|x y s1 s Hc _ IH]; intros z; [intros []|]. intros [<-|Hz]; [exists y; split; [now left|assumption]|].
    destruct (IH z Hz) as (y' & Hy & ?). exists y'. split; [now right|assumption]. }
  rewrite (load_params_copies _ sdt f); [|now apply NoDup_state_dict|].
  - cbn [rbind ms_loss_history ms_epoch ms_training ms_params a_data]. rewrite HI. f_equal. destruct m as [ms ml mh me mt].
    cbn in S. subst S. cbn [md_loss md_history md_epoch md_training md_slots] in *. f_equal.
    assert (LK : forall x a, In x s1 -> sl_val x = Some a ->
      lookup (sl_name x) (map (fun kv => (fst kv, f (fst kv))) (state_dict s1)) = Some (f (sl_name x))).
    { intros x a Hx Hv. assert (H : lookup (sl_name x) (state_dict s1) = Some a).
      { rewrite lookup_state_dict by assumption. rewrite slot_val_in; assumption. }
      revert H. generalize (state_dict s1). intros l. induction l as [|[k0 v0] l IH]; [discriminate|]. cbn.
      destruct (String.eqb_spec (sl_name x) k0) as [->|]; [reflexivity|exact IH]. }
    revert LK. generalize (map (fun kv => (fst kv, f (fst kv))) (state_dict s1)). intros ps LK.
    assert (FV : forall y, In y ms -> forall b, sl_val y = Some b -> f (sl_name y) = b).
    { intros y Hy b Hb. unfold f. rewrite slot_val_in, Hb; [reflexivity|assumption|assumption]. }
    clearbody f. clear -HC LK FV. induction HC as [|x y s1 s (Hn & Hk & Hv) _ IH]; [reflexivity|]. cbn [map]. f_equal.
    + rewrite <- Hn, <- Hk. destruct y as [ny ky vy]. cbn in *. f_equal.
      destruct (sl_val x) as [a|] eqn:Ex, vy as [b|]; try contradiction; [|reflexivity].
      specialize (LK x a (or_introl eq_refl) Ex). rewrite Hn. rewrite LK. f_equal. rewrite <- Hn.
      apply (FV {| sl_name := ny; sl_kind := ky; sl_val := Some b |}); [now left|reflexivity].
    + apply IH.
      * intros z a Hz Ha. apply (LK z a); [now right|assumption].
      * intros z Hz. apply FV. now right.
  - intros k a Hin. apply in_state_dict in Hin as (x & Hx & <- & Ha). destruct (F2 x Hx) as (y & Hy & Hn & _ & Hv).
    rewrite Ha in Hv. destruct (sl_val y) as [b|] eqn:Ey; [|contradiction]. destruct Hv as [D SH].
    specialize (HS (sl_name x)). pose proof (slot_val_in S y ND Hy) as SV. rewrite Hn in SV. rewrite SV, Ey in HS.
    destruct HS as (v & Lv & _ & Tv). assert (Fx : f (sl_name x) = b) by (unfold f; now rewrite SV, Ey). rewrite Fx.
    exists false. split; [|now split].
    pose proof (mapm_lookup to_torch sd sdt (sl_name x) Et) as ML. rewrite Lv in ML. destruct ML as (w & Hw & ->). congruence.
Qed.

(** Saving produces a faithful dictionary, in memory and through a file. *)
Definition keys_ok (s : list slot) : Prop :=
  NoDup (map sl_name s) /\ Forall (fun x => plain_key (sl_name x)) s /\
  Forall (fun x => match sl_val x with Some a => torch_native (a_dt a) | None => True end) s.
Lemma base_results_eq (m : model E) cls ver : keys_ok (md_slots m) ->
  base_results of_int m cls ver = Ok
   [("state_dict", PDict (map (fun kv => (fst kv, PArr (snd kv))) (state_dict (md_slots m))));
    ("loss_history", PArr (mkArr DF64 [length (md_history m)] (md_history m)));
    ("epoch", PNum DInt (of_int (md_epoch m)));
    ("training_history", PStr (md_training m));
    ("loss_function", PStr (loss_name (md_loss m)));
    ("model_class", PStr cls); ("cdtools_version", PStr ver)].
Proof.
  intros _. unfold base_results, save_results. cbn [ms_params ms_loss_history ms_epoch ms_training].
  assert (H : forall l : list (string * arr), nested_dict_to_numpy (map (fun kv => (fst kv, PTensor (snd kv) false)) l)
              = Ok (map (fun kv => (fst kv, PArr (snd kv))) l)).
  { induction l as [|[k a] l IH]; [reflexivity|]. unfold nested_dict_to_numpy in *. cbn [map fst snd mapm to_numpy rbind]. now rewrite IH. }
  rewrite H. reflexivity.
Qed.
Lemma lookup_parr (l : list (string * arr)) k :
  lookup k (map (fun kv => (fst kv, PArr (snd kv))) l) = option_map PArr (lookup k l).
Proof. apply (lookup_map (@PArr E)). Qed.
Lemma base_faithful (m : model E) cls ver b ex : keys_ok (md_slots m) -> base_results of_int m cls ver = Ok b ->
  faithful (b ++ ex)%list m.
Proof.
  intros K H. rewrite base_results_eq in H by assumption. injection H as <-. destruct K as (ND & _ & TN).
  unfold faithful. cbn [app lookup String.eqb Ascii.eqb Bool.eqb]. 
  assert (TNe : forall k a, In (k, a) (state_dict (md_slots m)) -> torch_ok (a_dt a) = true).
  { intros k a H. apply in_state_dict in H as (x & Hx & _ & Hv). rewrite Forall_forall in TN. specialize (TN x Hx).
    rewrite Hv in TN. now apply torch_native_ok. }
  split; [|split; [reflexivity|split; [eexists; reflexivity|split; reflexivity]]].
  eexists. split; [reflexivity|]. split.
  - apply Forall_forall. intros [k v] Hin. apply in_map_iff in Hin as ([k' a] & [= <- <-] & Hin). cbn. unfold as_tensor.
    rewrite (TNe _ _ Hin). eexists; reflexivity.
  - intros k. rewrite lookup_parr, lookup_state_dict by assumption. destruct (slot_val k (md_slots m)) as [a|] eqn:Ea; [|reflexivity].
    exists (PArr a). split; [reflexivity|]. split; [reflexivity|]. cbn. unfold as_tensor. 
    rewrite <- lookup_state_dict in Ea by assumption. apply lookup_In in Ea. now rewrite (TNe _ _ Ea).
Qed.
Lemma reads_as_arr_as (a : arr) v : reads_as_arr a v -> as_arr v = Ok a.
Proof.
  unfold reads_as_arr. destruct a as [t sh da]. cbn. destruct sh; [destruct da as [|e [|e' l]]|]; intros ->; reflexivity.
Qed.
Lemma reads_as_arr_torch (a : arr) v : torch_ok (a_dt a) = true -> reads_as_arr a v -> to_torch v = Ok (PTensor a false).
Proof.
  unfold reads_as_arr. destruct a as [t sh da]. cbn. intros T. destruct sh; [destruct da as [|e [|e' l]]|]; intros ->; cbn; unfold as_tensor;
  cbn [a_dt]; now rewrite T.
Qed.
Lemma lookup_in_nodup {V} (l : list (string * V)) k v : NoDup (map fst l) -> In (k, v) l -> lookup k l = Some v.
Proof.
  induction l as [|[k0 v0] l IH]; [intros _ []|]. intros ND HI; inversion ND as [|? ? N1 N2]; subst; destruct HI as [H|H]; cbn.
  - injection H as -> ->. now rewrite String.eqb_refl.
  - destruct (String.eqb_spec k k0) as [->|]; [|now apply IH]. elim N1. now apply (in_map fst) in H.
Qed.
(** Reading back through a file any dictionary that starts with the base results. *)
Lemma file_faithful (m : model E) cls ver b ex : keys_ok (md_slots m) -> base_results of_int m cls ver = Ok b ->
  nul_free (md_training m) -> nul_free cls -> nul_free ver ->
  NoDup (map fst (b ++ ex)%list) -> Forall (fun kv => plain_key (fst kv) /\ exists a, snd kv = PArr a /\ h5_native (a_dt a)) ex ->
  exists g d', nested_dict_to_h5 (b ++ ex)%list = Ok g /\ h5_to_nested_dict g = Ok d' /\ faithful d' m.
Proof.
  intros K H N1 N2 N3 ND EX. pose proof (base_faithful m cls ver b ex K H) as FB.
  assert (ST : storable (PDict (b ++ ex)%list)).
  { constructor; [assumption|]. apply Forall_app. split.
    - rewrite base_results_eq in H by assumption. injection H as <-. destruct K as (NK & PK & TN).
      assert (P : forall k, In k ["state_dict"; "loss_history"; "epoch"; "training_history"; "loss_function"; "model_class"; "cdtools_version"] -> plain_key k).
      { intros k Hk. assert (Hs : split_slash k = [k] /\ k <> "" /\ k <> ".").
        { cbn in Hk. repeat (destruct Hk as [<-|Hk]; [split; [reflexivity|split; discriminate]|]). destruct Hk. }
        destruct Hs as (Hs & ? & ?). split; [assumption|split; [assumption|]]. now apply split_slash_single. }
      repeat (constructor; [split; [apply P; cbn; tauto|]|]); try constructor; try assumption; try discriminate.
      + rewrite map_map. cbn. change (fun x : string * arr => fst x) with (@fst string arr). now apply NoDup_state_dict.
      + apply Forall_forall. intros [k v] Hin. apply in_map_iff in Hin as ([k' a] & [= <- <-] & Hin). cbn.
        apply in_state_dict in Hin as (x & Hx & <- & Hv). rewrite Forall_forall in PK, TN. split; [now apply PK|].
        constructor. specialize (TN x Hx). rewrite Hv in TN. now apply torch_h5_native.
      + destruct (md_loss m); apply no_nul_free; reflexivity.
    - eapply Forall_impl; [|exact EX]. intros [k v] (Pk & a & -> & Ha). split; [assumption|]. now constructor. }
  destruct (C14_h5_round_trip E _ ST) as (g & d' & W & Rd & RA). exists g, d'. split; [assumption|split; [assumption|]].
  inversion RA as [| | | |? ? L1 L2 L3]; subst.
  destruct FB as ((sd & Hsd & HS) & HL & (t & HE) & HTr & HLs).
  split; [|split; [|split; [|split]]].
  - destruct (L1 _ _ Hsd) as (v' & Hv' & R1). inversion R1 as [| | | |? sd' M1 M2 M3]; subst. exists sd'. split; [assumption|].
    destruct HS as [_ HS].
    assert (TNs : forall k a, slot_val k (md_slots m) = Some a -> torch_ok (a_dt a) = true).
    { intros k a Hk. destruct K as (NK & _ & TN). rewrite <- lookup_state_dict in Hk by assumption. apply lookup_In in Hk.
      apply in_state_dict in Hk as (x & Hx & _ & Hv). rewrite Forall_forall in TN. specialize (TN x Hx). rewrite Hv in TN.
      now apply torch_native_ok. }
    assert (REL : forall k, match slot_val k (md_slots m) with
      | Some a => exists v, lookup k sd' = Some v /\ reads_as_arr a v | None => lookup k sd' = None end).
    { intros k. assert (SDk : lookup k sd = option_map PArr (slot_val k (md_slots m))).
      { rewrite base_results_eq in H by assumption. injection H as <-. cbn in Hsd. injection Hsd as <-.
        destruct K as (NK & _ & _). now rewrite lookup_parr, lookup_state_dict. }
      destruct (slot_val k (md_slots m)) as [a|]; cbn in SDk.
      - destruct (M1 _ _ SDk) as (v & Hv & R2). exists v. split; [assumption|]. now inversion R2.
      - now apply M2. }
    split.
    + apply Forall_forall. intros [k v] Hin. cbn. apply (lookup_in_nodup _ _ _ M3) in Hin. specialize (REL k).
      destruct (slot_val k (md_slots m)) as [a|] eqn:Ea; [|congruence]. destruct REL as (v1 & Hv1 & R2).
      assert (v1 = v) by congruence. subst. eexists. apply reads_as_arr_torch; [|eassumption]. now apply (TNs k).
    + intros k. specialize (REL k). destruct (slot_val k (md_slots m)) as [a|] eqn:Ea; [|assumption].
      destruct REL as (v & Hv & R2). exists v. split; [assumption|split; [now apply reads_as_arr_as|]].
      apply reads_as_arr_torch; [now apply (TNs k)|assumption].
  - destruct (L1 _ _ HL) as (v' & -> & R1). inversion R1 as [|? ? Q| | |]; subst. cbn in Q. now subst.
  - destruct (L1 _ _ HE) as (v' & -> & R1). inversion R1; subst. eexists; reflexivity.
  - destruct (L1 _ _ HTr) as (v' & -> & R1). now inversion R1; subst.
  - destruct (L1 _ _ HLs) as (v' & -> & R1). now inversion R1; subst.
Qed.

(** Reading single entries. *)
Lemma get_loss_ok d m : faithful d m -> get_loss d = Ok (loss_name (md_loss m)).
Proof. intros (_ & _ & _ & _ & H). unfold get_loss. now rewrite H. Qed.
Lemma loss_of_name l : loss_of (loss_name l) = Ok l.
Proof. destruct l; reflexivity. Qed.
Lemma req_ok sd s k a : holds sd s -> slot_val k s = Some a -> req k sd = Ok a.
Proof. intros [_ H] Hk. specialize (H k). rewrite Hk in H. destruct H as (v & Lv & Av & _). unfold req. now rewrite Lv. Qed.
Lemma get_ok sd s k : holds sd s -> get k sd = Ok (slot_val k s).
Proof.
  intros [_ H]. specialize (H k). unfold get. destruct (slot_val k s) as [a|]; [|now rewrite H].
  destruct H as (v & -> & Av & _). now rewrite Av.
Qed.
Lemma get_or_ok sd s k d a : holds sd s -> slot_val k s = Some a -> get_or k d sd = Ok a.
Proof. intros [_ H] Hk. specialize (H k). rewrite Hk in H. destruct H as (v & Lv & Av & _). unfold get_or. now rewrite Lv. Qed.
Lemma get_num_ok sd s k d a e : holds sd s -> slot_val k s = Some a -> a_data a = [e] -> get_num k d sd = Ok e.
Proof.
  intros [_ H] Hk He. specialize (H k). rewrite Hk in H. destruct H as (v & Lv & Av & _). unfold get_num. rewrite Lv, Av.
  cbn. unfold single. now rewrite He.
Qed.
Lemma get_bool_ok truth sd s k d a e : holds sd s -> slot_val k s = Some a -> a_data a = [e] -> get_bool truth k d sd = Ok (truth e).
Proof.
  intros [_ H] Hk He. specialize (H k). rewrite Hk in H. destruct H as (v & Lv & Av & _). unfold get_bool. rewrite Lv, Av.
  cbn. unfold single. now rewrite He.
Qed.
Lemma get_bool_none truth sd s k d : holds sd s -> slot_val k s = None -> get_bool truth k d sd = Ok d.
Proof. intros [_ H] Hk. specialize (H k). rewrite Hk in H. unfold get_bool. now rewrite H. Qed.
End Proofs.
