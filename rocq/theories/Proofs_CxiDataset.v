(** Saving and loading whole datasets: success and framing of the CXI writers. *)
From Verif Require Import Base Model_Cxi Spec_Cxi Proofs_Cxi.
Local Open Scope string_scope.

Definition G : list path :=
  [i1; det1; ["entry_1"; "instrument_1"; "source_1"]; ["entry_1"; "data_1"]; ["entry_1"; "sample_1"];
   ["entry_1"; "sample_1"; "geometry_1"]].
Definition good (f : file) : Prop :=
  find e1 f = Some NGroup /\ forall g, In g G -> find g f = None \/ find g f = Some NGroup.

Lemma resolve_group p f : p <> [] -> find p f = Some NGroup -> resolve p f = Some NGroup.
Proof. intros Hne H. unfold resolve. destruct p; [contradiction|]. now rewrite H. Qed.

Lemma ensure_ok g f : good f -> In g G -> find (parent g) f = Some NGroup ->
  exists f', ensure_group g f = Ok f' /\ good f' /\ find g f' = Some NGroup /\
    (forall q, q <> g -> find q f' = find q f).
Proof.
  intros [H1 H2] Hg Hp. unfold ensure_group, contains.
  assert (Hne : g <> []) by (intros ->; cbn in Hg; intuition discriminate).
  assert (Hpne : parent g <> []) by (intros E; cbn in Hg; intuition (subst; discriminate)).
  assert (Hge : g <> e1) by (intros ->; cbn in Hg; intuition discriminate).
  destruct (H2 g Hg) as [E|E].
  - assert (resolve g f = None) as -> by (unfold resolve; destruct g; [contradiction|now rewrite E]).
    rewrite (create_ok g NGroup f E (resolve_group _ _ Hpne Hp)). eexists. split; [reflexivity|].
    assert (FR : forall q, q <> g -> find q ((g, NGroup) :: f) = find q f).
    { intros q Hq. rewrite find_cons. destruct (path_eqb_spec q g); [contradiction|reflexivity]. }
    assert (FG : find g ((g, NGroup) :: f) = Some NGroup).
    { rewrite find_cons. destruct (path_eqb_spec g g) as [_|C]; [reflexivity|contradiction]. }
    split; [|split; [exact FG|exact FR]]. split; [rewrite FR; auto|].
    intros g' Hg'. destruct (list_eq_dec string_dec g' g) as [->|Hne']; [now right|rewrite FR by exact Hne'; auto].
  - rewrite (resolve_group g f Hne E). eexists. split; [reflexivity|]. repeat split; auto.
Qed.
Lemma create_leaf p n f : good f -> ~ In p (e1 :: G) -> find p f = None -> parent p <> [] ->
  find (parent p) f = Some NGroup ->
  exists f', create p n f = Ok f' /\ good f' /\ (forall q, q <> p -> find q f' = find q f).
Proof.
  intros [H1 H2] Hp Hf Hne Hpar. rewrite (create_ok p n f Hf (resolve_group _ _ Hne Hpar)).
  eexists. split; [reflexivity|].
  assert (FR : forall q, q <> p -> find q ((p, n) :: f) = find q f).
  { intros q Hq. rewrite find_cons. destruct (path_eqb_spec q p); [contradiction|reflexivity]. }
  split; [|exact FR]. split; [rewrite FR; [exact H1|intros E; apply Hp; left; exact E]|].
  intros g Hg. rewrite FR; [auto|]. intros ->. apply Hp. now right.
Qed.

Ltac hop :=
  repeat first
    [ assumption
    | match goal with
      | FR : forall q, q <> _ -> find q ?f' = find q ?f |- find _ ?f' = _ => rewrite FR by discriminate
      end ].
Ltac do_ensure :=
  match goal with
  | |- context [ensure_group ?g ?f] =>
      let f' := fresh "g" in let E := fresh "E" in let Gd := fresh "Gd" in let F := fresh "F" in let FR := fresh "FR" in
      destruct (ensure_ok g f) as (f' & E & Gd & F & FR);
        [assumption|cbn; tauto|cbn [parent removelast det1 i1]; hop|rewrite E; cbn [rbind]; clear E]
  end.
Ltac not_group := cbn; intuition discriminate.
Ltac do_create :=
  match goal with
  | |- context [create ?p ?n ?f] =>
      let f' := fresh "g" in let E := fresh "E" in let Gd := fresh "Gd" in let FR := fresh "FR" in
      destruct (create_leaf p n f) as (f' & E & Gd & FR);
        [assumption|not_group|hop|discriminate|cbn [parent removelast det src data1 geo]; hop|rewrite E; cbn [rbind]; clear E]
  end.
Ltac finish := eexists; split; [reflexivity|]; split; [assumption|];
  let q := fresh "q" in let Hq := fresh "Hq" in intros q Hq;
  repeat match goal with FR : forall q, q <> _ -> find q ?f' = find q ?f |- find _ ?f' = _ =>
    rewrite FR by (let H := fresh in intros H; apply Hq; rewrite H; cbn; tauto) end;
  first [reflexivity | assumption].

Definition W_source := [src "wavelength"; src "energy"].
Lemma add_source_ok w f : good f -> (forall q, In q W_source -> find q f = None) ->
  exists f', add_source w f = Ok f' /\ good f' /\ forall q, ~ In q (W_source ++ G) -> find q f' = find q f.
Proof.
  intros Hg HW. pose proof (HW (src "wavelength") ltac:(cbn; tauto)) as H1.
  pose proof (HW (src "energy") ltac:(cbn; tauto)) as H2. pose proof (proj1 Hg) as He.
  unfold add_source. do_ensure. do_ensure. do_create. do_create. finish.
Qed.
Definition W_detector := [det "distance"; det "x_pixel_size"; det "y_pixel_size"; det "basis_vectors"; det "corner_position"].
Lemma add_detector_ok d b c f : good f -> (forall q, In q W_detector -> find q f = None) ->
  exists f', add_detector d b c f = Ok f' /\ good f' /\ (forall q, ~ In q (W_detector ++ G) -> find q f' = find q f) /\
    (c = None -> find (det "corner_position") f' = None).
Proof.
  intros Hg HW. pose proof (proj1 Hg) as He.
  pose proof (HW (det "distance") ltac:(cbn; tauto)) as H1. pose proof (HW (det "x_pixel_size") ltac:(cbn; tauto)) as H2.
  pose proof (HW (det "y_pixel_size") ltac:(cbn; tauto)) as H3. pose proof (HW (det "basis_vectors") ltac:(cbn; tauto)) as H4.
  pose proof (HW (det "corner_position") ltac:(cbn; tauto)) as H5.
  unfold add_detector, ensure_detector. do_ensure. do_ensure. do_create. do_create. do_create. do_create.
  destruct c as [c|].
  - do_create. eexists; split; [reflexivity|]. split; [assumption|]. split; [|discriminate]. intros q Hq.
    repeat match goal with FR : forall q, q <> _ -> find q ?f' = find q ?f |- find _ ?f' = _ =>
      rewrite FR by (let H := fresh in intros H; apply Hq; rewrite H; cbn; tauto) end. reflexivity.
  - eexists; split; [reflexivity|]. split; [assumption|]. split; [|intros _; hop]. intros q Hq.
    repeat match goal with FR : forall q, q <> _ -> find q ?f' = find q ?f |- find _ ?f' = _ =>
      rewrite FR by (let H := fresh in intros H; apply Hq; rewrite H; cbn; tauto) end. reflexivity.
Qed.
Lemma add_mask_ok s m f : good f -> find (det "mask") f = None ->
  exists f', add_mask s m f = Ok f' /\ good f' /\ forall q, ~ In q (det "mask" :: G) -> find q f' = find q f.
Proof. intros Hg H1. pose proof (proj1 Hg) as He. unfold add_mask, ensure_detector. do_ensure. do_ensure. do_create. finish. Qed.
Lemma add_qe_ok q0 f : good f -> find (det "qe_mask") f = None ->
  exists f', add_qe_mask q0 f = Ok f' /\ good f' /\ forall q, ~ In q (det "qe_mask" :: G) -> find q f' = find q f.
Proof. intros Hg H1. pose proof (proj1 Hg) as He. unfold add_qe_mask, ensure_detector. do_ensure. do_ensure. do_create. finish. Qed.
Lemma add_dark_ok q0 f : good f -> find (det "data_dark") f = None ->
  exists f', add_dark q0 f = Ok f' /\ good f' /\ forall q, ~ In q (det "data_dark" :: G) -> find q f' = find q f.
Proof. intros Hg H1. pose proof (proj1 Hg) as He. unfold add_dark, ensure_detector. do_ensure. do_ensure. do_create. finish. Qed.
Definition W_data := [det "data"; data1 "data"].
Lemma add_data_ok d a f : good f -> (forall q, In q W_data -> find q f = None) ->
  exists f', add_data d a f = Ok f' /\ good f' /\ forall q, ~ In q (W_data ++ G) -> find q f' = find q f.
Proof.
  intros Hg HW. pose proof (proj1 Hg) as He. pose proof (HW (det "data") ltac:(cbn; tauto)) as H1.
  pose proof (HW (data1 "data") ltac:(cbn; tauto)) as H2.
  unfold add_data, ensure_detector. do_ensure. do_ensure. do_ensure. do_create. do_create. finish.
Qed.
Definition W_shot k := [geo k; data1 k; det k].
Lemma add_shot_ok d k f : good f -> (forall q, In q (W_shot k) -> find q f = None) ->
  exists f', add_shot_to_shot d k f = Ok f' /\ good f' /\ forall q, ~ In q (W_shot k ++ G) -> find q f' = find q f.
Proof.
  intros Hg HW. pose proof (proj1 Hg) as He. pose proof (HW (geo k) ltac:(cbn; tauto)) as H1.
  pose proof (HW (data1 k) ltac:(cbn; tauto)) as H2. pose proof (HW (det k) ltac:(cbn; tauto)) as H3.
  unfold add_shot_to_shot, ensure_detector. do_ensure. do_ensure. do_ensure. do_ensure. do_ensure. do_create. do_create. do_create.
  finish.
Qed.

(** entry metadata *)
Section Entry.
Context {DT : Type} (iso : DT -> string) (parse : string -> res DT).
Notation meta := (meta DT).
Notation add_entry_info := (add_entry_info iso).
Notation add_entry1 := (add_entry1 iso).

Definition reserved := ["instrument_1"; "data_1"; "sample_1"].
Definition writable_meta (v : meta) : Prop :=
  match v with MStr s => is_ascii s = true | MDate d => is_ascii (iso d) = true | _ => True end.
(** distinct keys, none clashing with the groups of the file, and ASCII texts *)
Definition writable_entry (l : list (string * meta)) : Prop :=
  NoDup (map fst l) /\ Forall (fun kv => ~ In (fst kv) reserved /\ writable_meta (snd kv)) l.

Lemma add_entry1_extends k v f f' : add_entry1 k v f = Ok f' -> extends f f'.
Proof.
  destruct v as [s|d|a|]; cbn [Model_Cxi.add_entry1]; intros H.
  - apply rbind_ok in H as (n & _ & H). eapply create_extends; eassumption.
  - apply rbind_ok in H as (n & _ & H). eapply create_extends; eassumption.
  - eapply create_extends; eassumption.
  - inversion H; subst. apply extends_refl.
Qed.
Lemma add_entry_info_extends l : forall f f', add_entry_info l f = Ok f' -> extends f f'.
Proof.
  induction l as [|[k v] l IH]; cbn; intros f f' H; [injection H as <-; apply extends_refl|].
  apply rbind_ok in H as (f1 & H1 & H2). eapply extends_trans; [eapply add_entry1_extends; eauto|eauto].
Qed.

Definition entry_node (v : meta) : option node :=
  match v with MStr s => Some (NBytes s) | MDate d => Some (NBytes (iso d)) | MArr a => Some (NArr a None) | MOther => None end.

Lemma add_entry_info_ok l : forall f, good f -> writable_entry l ->
  (forall k, In k (map fst l) -> find ["entry_1"; k] f = None) ->
  exists f', add_entry_info l f = Ok f' /\ good f' /\
    (forall q, (forall k, In k (map fst l) -> q <> ["entry_1"; k]) -> find q f' = find q f) /\
    (forall k v, In (k, v) l -> find ["entry_1"; k] f' = entry_node v).
Proof.
  induction l as [|[k v] l IH]; intros f Hg [ND FW] HF.
  - exists f. repeat split; auto; try apply Hg. intros k v [].
  - cbn in ND. inversion ND as [|? ? Hk ND']; subst. inversion FW as [|? ? [Hr Hw] FW']; subst. cbn [fst snd] in *.
    assert (ST : exists f1, add_entry1 k v f = Ok f1 /\ good f1 /\ (forall q, q <> ["entry_1"; k] -> find q f1 = find q f) /\
              find ["entry_1"; k] f1 = entry_node v).
    { assert (CL : forall n, exists f1, create ["entry_1"; k] n f = Ok f1 /\ good f1 /\
                (forall q, q <> ["entry_1"; k] -> find q f1 = find q f) /\ find ["entry_1"; k] f1 = Some n).
      { intros n. destruct (create_leaf ["entry_1"; k] n f) as (f1 & E1 & G1 & F1); auto.
        - cbn. intros C. apply Hr. cbn. unfold e1, i1, det1 in C.
          destruct C as [C|C]; [discriminate|]. repeat destruct C as [C|C]; try discriminate; try (injection C as <-; tauto); try contradiction.
        - apply HF. now left.
        - discriminate.
        - apply (proj1 Hg).
        - exists f1. split; [exact E1|]. split; [exact G1|]. split; [exact F1|].
          apply create_inv in E1 as (-> & _ & _). rewrite find_cons.
          destruct (path_eqb_spec ["entry_1"; k] ["entry_1"; k]) as [_|C]; [reflexivity|contradiction]. }
      destruct v as [s|d|a|]; cbn [Model_Cxi.add_entry1 entry_node writable_meta] in *.
      - unfold bytes_. rewrite Hw. cbn [rbind]. apply CL.
      - unfold bytes_. rewrite Hw. cbn [rbind]. apply CL.
      - apply CL.
      - exists f. repeat split; auto; try apply Hg. apply HF. now left. }
    destruct ST as (f1 & E1 & G1 & F1 & N1).
    destruct (IH f1 G1 (conj ND' FW')) as (f2 & E2 & G2 & F2 & N2).
    { intros k' Hk'. rewrite F1; [apply HF; now right|]. intros C. injection C as ->. contradiction. }
    exists f2. cbn [Model_Cxi.add_entry_info]. rewrite E1. cbn [rbind]. split; [exact E2|]. split; [exact G2|]. split.
    + intros q Hq. rewrite F2; [apply F1; apply Hq; now left|]. intros k' Hk'. apply Hq. now right.
    + intros k' v' [Hin|Hin].
      * injection Hin as <- <-. rewrite F2; [exact N1|]. intros k' Hk' C. injection C as ->. contradiction.
      * now apply N2.
Qed.

(** reading the entry metadata of a file *)
Definition attrs_ok (f : file) : Prop :=
  forall k, In k metadata_attrs -> find ["entry_1"; k] f = None \/
    exists s, find ["entry_1"; k] f = Some (NBytes s) /\
      ((exists d, parse s = Ok d) \/ parse s = Raise ValueError).
Lemma read_entries_ok f ks : (forall k, In k ks -> find ["entry_1"; k] f = None \/
    exists s, find ["entry_1"; k] f = Some (NBytes s) /\ ((exists d, parse s = Ok d) \/ parse s = Raise ValueError)) ->
  exists l, read_entries parse f ks = Ok l.
Proof.
  induction ks as [|k ks IH]; intros H; [eexists; reflexivity|]. cbn [read_entries].
  destruct IH as [l' El']; [intros; apply H; now right|].
  unfold read_entry, contains, getitem. unfold resolve.
  destruct (H k (or_introl eq_refl)) as [E|(s & E & [[d P]|P])]; rewrite E; cbn [rbind];
    rewrite ?P; cbn [rbind]; rewrite El'; eexists; reflexivity.
Qed.
Lemma get_entry_info_ok f : find e1 f = Some NGroup -> attrs_ok f ->
  (find ["entry_1"; "polarization_states"] f = None \/ exists a x, find ["entry_1"; "polarization_states"] f = Some (NArr a x)) ->
  exists l, get_entry_info parse f = Ok l.
Proof.
  intros He Ha Hp. unfold get_entry_info, getitem, e1, resolve. unfold e1 in He. rewrite He. cbn [rbind].
  destruct (read_entries_ok f metadata_attrs Ha) as [l ->]. cbn [rbind].
  unfold contains, get_arr, getitem, resolve. destruct Hp as [->|(a & x & ->)]; cbn; eauto.
Qed.
End Entry.

Lemma good_create_cxi : good create_cxi.
Proof.
  split; [reflexivity|]. intros g Hg. left. cbn in Hg. repeat (destruct Hg as [<-|Hg]; [reflexivity|]). destruct Hg.
Qed.

(** ---- reading entry metadata exactly ---- *)
Section EntryExact.
Context {DT : Type} (iso : DT -> string) (parse : string -> res DT).
Notation meta := (meta DT).
Lemma assoc_In (l : list (string * meta)) : forall k v, assoc k l = Some v -> In (k, v) l.
Proof.
  induction l as [|[k' v'] l IH]; cbn; intros k v H; [discriminate|].
  destruct (String.eqb_spec k k') as [->|]; [injection H as <-; now left|right; now apply IH].
Qed.
Lemma assoc_None (l : list (string * meta)) : forall k, assoc k l = None -> ~ In k (map fst l).
Proof.
  induction l as [|[k' v'] l IH]; cbn; intros k H; [tauto|].
  destruct (String.eqb_spec k k') as [Q|N]; [discriminate H|]. intros [E|E]; [congruence|exact (IH _ H E)].
Qed.
Lemma add_entry_info_exact l f : good f -> writable_entry iso l ->
  (forall k, In k (map fst l) -> find ["entry_1"; k] f = None) ->
  exists f', add_entry_info iso l f = Ok f' /\ good f' /\
    (forall q, (forall k, In k (map fst l) -> q <> ["entry_1"; k]) -> find q f' = find q f) /\
    (forall k, find ["entry_1"; k] f = None ->
       find ["entry_1"; k] f' = match assoc k l with Some v => entry_node iso v | None => None end).
Proof.
  intros Hg HW HN. destruct (add_entry_info_ok iso l f Hg HW HN) as (f' & E & G1 & F & N).
  exists f'. split; [exact E|split; [exact G1|split; [exact F|]]]. intros k Hk.
  destruct (assoc k l) as [v|] eqn:A; [apply N; now apply assoc_In|].
  rewrite F; [exact Hk|]. intros k' Hk' C. injection C as ->. exact (assoc_None _ _ A Hk').
Qed.

Lemma read_entries_exact (l : list (string * meta)) f ks :
  (forall k, In k ks -> find ["entry_1"; k] f = match assoc k l with Some v => entry_node iso v | None => None end) ->
  (forall k v, In k ks -> assoc k l = Some v -> text_meta iso parse v) ->
  read_entries parse f ks = Ok (reread_all iso parse l ks).
Proof.
  induction ks as [|k ks IH]; intros HF HT; [reflexivity|]. cbn [read_entries reread_all flat_map].
  rewrite IH by (intros; first [apply HF|eapply HT]; eauto; now right). fold (reread_all iso parse l ks).
  pose proof (HF k (or_introl eq_refl)) as F. pose proof (fun v => HT k v (or_introl eq_refl)) as T.
  unfold read_entry, contains, getitem, resolve. unfold reread1.
  destruct (assoc k l) as [v|]; [|rewrite F; reflexivity].
  specialize (T v eq_refl). destruct v as [s|d|a|]; cbn [entry_node text_meta reread] in *; rewrite F; cbn [rbind];
    unfold redate; try contradiction; try reflexivity.
  - destruct (parse s) as [d|e] eqn:P; [reflexivity|]. rewrite (T e eq_refl). reflexivity.
  - destruct (parse (iso d)) as [d'|e] eqn:P; [reflexivity|]. rewrite (T e eq_refl). reflexivity.
Qed.
Lemma get_entry_info_exact (l : list (string * meta)) f : find e1 f = Some NGroup -> standard_entry iso parse l ->
  (forall k, In k entry_keys -> find ["entry_1"; k] f = match assoc k l with Some v => entry_node iso v | None => None end) ->
  get_entry_info parse f = Ok (reread_all iso parse l entry_keys).
Proof.
  intros He [HT HP] HF. unfold get_entry_info, getitem, e1, resolve. unfold e1 in He. rewrite He. cbn [rbind].
  rewrite (read_entries_exact l f metadata_attrs).
  2:{ intros k Hk. apply HF. cbn in Hk |- *. tauto. }
  2:{ intros k v Hk A. exact (HT k v Hk A). }
  cbn [rbind]. pose proof (HF "polarization_states" ltac:(cbn; tauto)) as F.
  assert (SP : reread_all iso parse l entry_keys = (reread_all iso parse l metadata_attrs ++ reread1 iso parse l "polarization_states")%list).
  { change entry_keys with (metadata_attrs ++ ["polarization_states"])%list. unfold reread_all.
    rewrite flat_map_app. f_equal. apply app_nil_r. }
  rewrite SP. generalize (reread_all iso parse l metadata_attrs). intros L. unfold reread1.
  unfold contains, get_arr, getitem, resolve.
  destruct (assoc "polarization_states" l) as [v|] eqn:A; [|rewrite F, app_nil_r; reflexivity].
  specialize (HP v eq_refl). destruct v as [s|d|a|]; try contradiction; cbn [entry_node reread] in *; rewrite F; cbn.
  - reflexivity.
  - rewrite app_nil_r. reflexivity.
Qed.
End EntryExact.

(** ---- whole datasets ---- *)
Definition frame (W : list path) (f f' : file) : Prop := forall q, ~ In q (W ++ G) -> find q f' = find q f.
Lemma opt_step {A} (o : option A) (g : A -> file -> res file) W f : good f ->
  (forall x, exists f', g x f = Ok f' /\ good f' /\ frame W f f') ->
  (forall x f', g x f = Ok f' -> extends f f') ->
  exists f', opt o g f = Ok f' /\ good f' /\ frame W f f' /\ extends f f' /\
    match o with Some x => g x f = Ok f' | None => f' = f end.
Proof.
  intros Hg H HX. destruct o as [x|]; cbn [opt].
  - destruct (H x) as (f' & E & G1 & F). exists f'. rewrite E. repeat split; auto; try apply G1. now apply (HX x).
  - exists f. repeat split; auto; try apply Hg. apply extends_refl.
Qed.
Ltac notin := cbn; intuition discriminate.
Ltac back := repeat match goal with
  | F : frame ?W ?f ?f' |- context [find ?p ?f'] => rewrite (F p) by notin
  end.

Section Whole.
Context {DT : Type} (iso : DT -> string) (parse : string -> res DT).
Notation pdataset := (pdataset DT).
Definition entry_of (d : pdataset) : list (string * meta DT) :=
  match cd_entry (pd_base d) with Some l => l | None => [] end.

Lemma missing_None p f : p <> [] -> find p f = None -> contains p f = false.
Proof. intros Hp H. unfold contains, resolve. destruct p; [contradiction|]. now rewrite H. Qed.

Lemma whole_round_trip (d : pdataset) w dist b c cut :
  cd_wavelength (pd_base d) = Some w -> cd_geometry (pd_base d) = Some (dist, b, c) ->
  writable_entry iso (entry_of d) ->
  standard_entry iso parse (entry_of d) ->
  exists f, to_cxi_path iso d = Ok f /\
    from_cxi parse cut f = Ok (mkPd
      (mkCd (Some (reread_all iso parse (entry_of d) entry_keys)) (Some (f32 w)) (Some (f32 dist, norm_basis b, c))
        (Some (match cd_mask (pd_base d) with
               | Some m => m
               | None => (last2 (c_shape (pd_patterns d)), repeat true (prod (last2 (c_shape (pd_patterns d)))))
               end))
        (option_map to_f32 (cd_qe (pd_base d)))
        (option_map (fun a => to_f32 (mean_dark a)) (cd_background (pd_base d))))
      (let p := if cut then mkC (c_dt (pd_patterns d)) (c_shape (pd_patterns d))
                              (map (option_map (Rmax 0)) (c_data (pd_patterns d)))
                else pd_patterns d in
       match c_dt p with CF64 => to_f32 p | _ => p end)
      (option_map (fun l => map clean (split_colon (join l))) (pd_axes d))
      (to_f32 (pd_translations d))
      (option_map to_f32 (pd_intensities d))).
Proof.
  destruct d as [[en wl ge mk qe bg] pats ax tr ints]. unfold entry_of. cbn [pd_base cd_wavelength cd_geometry cd_mask cd_qe cd_background
    pd_patterns pd_axes pd_translations pd_intensities entry_of cd_entry].
  intros -> -> HW HS.
  set (l := match en with Some l => l | None => [] end) in *.
  (* entry *)
  assert (HN : forall k, In k (map fst l) -> find ["entry_1"; k] create_cxi = None) by reflexivity.
  destruct (add_entry_info_exact iso parse l create_cxi good_create_cxi HW HN) as (f1 & E1 & G1 & F1 & N1).
  assert (E1' : opt en (add_entry_info iso) create_cxi = Ok f1).
  { subst l. destruct en; [exact E1|exact E1]. }
  assert (L4 : forall p, length p > 2 -> find p f1 = None).
  { intros p Hp. rewrite F1.
    - cbn. unfold e1, path_eqb. repeat (destruct (list_eq_dec string_dec p _) as [->|]; [cbn in Hp; lia|]). reflexivity.
    - intros k _ ->. cbn in Hp. lia. }
  (* source *)
  destruct (add_source_ok w f1 G1) as (f2 & E2 & G2 & F2).
  { intros q Hq. apply L4. cbn in Hq. intuition (subst; cbn; lia). }
  pose proof (add_source_extends _ _ _ E2) as X2. fold (frame W_source f1 f2) in F2.
  (* detector *)
  destruct (add_detector_ok dist b c f2 G2) as (f3 & E3 & G3 & F3 & C3).
  { intros q Hq. rewrite F2; [apply L4; cbn in Hq; intuition (subst; cbn; lia)|]. cbn in Hq. intuition (subst; revert H; notin). }
  pose proof (add_detector_extends _ _ _ _ _ E3) as X3. fold (frame W_detector f2 f3) in F3.
  (* mask *)
  destruct (opt_step mk (fun m => add_mask (fst m) (snd m)) [det "mask"] f3 G3) as (f4 & E4 & G4 & F4 & X4 & S4).
  { intros m. apply add_mask_ok; [exact G3|]. back. apply L4. cbn. lia. }
  { intros m f'. apply add_mask_extends. }
  destruct (opt_step qe add_qe_mask [det "qe_mask"] f4 G4) as (f5 & E5 & G5 & F5 & X5 & S5).
  { intros m. apply add_qe_ok; [exact G4|]. back. apply L4. cbn. lia. }
  { intros m f'. apply add_qe_extends. }
  destruct (opt_step bg add_dark [det "data_dark"] f5 G5) as (f6 & E6 & G6 & F6 & X6 & S6).
  { intros m. apply add_dark_ok; [exact G5|]. back. apply L4. cbn. lia. }
  { intros m f'. apply add_dark_extends. }
  destruct (add_data_ok pats ax f6 G6) as (f7 & E7 & G7 & F7).
  { intros q Hq. cbn in Hq. destruct Hq as [<-|[<-|[]]]; back; apply L4; cbn; lia. }
  pose proof (add_data_extends _ _ _ _ E7) as X7. fold (frame W_data f6 f7) in F7.
  destruct (add_shot_ok (neg_arr tr) "translation" f7 G7) as (f8 & E8 & G8 & F8).
  { intros q Hq. cbn in Hq. destruct Hq as [<-|[<-|[<-|[]]]]; back; apply L4; cbn; lia. }
  pose proof (add_shot_extends _ _ _ _ E8) as X8. fold (frame (W_shot "translation") f7 f8) in F8.
  destruct (opt_step ints (fun a => add_shot_to_shot a "intensities") (W_shot "intensities") f8 G8) as (f9 & E9 & G9 & F9 & X9 & S9).
  { intros m. apply add_shot_ok; [exact G8|]. intros q Hq. cbn in Hq.
    destruct Hq as [<-|[<-|[<-|[]]]]; back; apply L4; cbn; lia. }
  { intros m f'. apply add_shot_extends. }
  exists f9. split.
  { unfold to_cxi_path, to_cxi, base_to_cxi. cbn [pd_base cd_entry cd_wavelength cd_geometry cd_mask cd_qe cd_background
      pd_patterns pd_axes pd_translations pd_intensities].
    rewrite E1'. cbn [rbind opt]. rewrite E2. cbn [rbind opt]. rewrite E3. cbn [rbind]. rewrite E4. cbn [rbind].
    rewrite E5. cbn [rbind]. rewrite E6. cbn [rbind]. rewrite E7. cbn [rbind].
    unfold add_translations. rewrite E8. cbn [rbind]. exact E9. }
  (* extension chain *)
  assert (Y8 : extends f8 f9) by exact X9.
  assert (Y7 : extends f7 f9) by (eapply extends_trans; eassumption).
  assert (Y6 : extends f6 f9) by (eapply extends_trans; eassumption).
  assert (Y5 : extends f5 f9) by (eapply extends_trans; eassumption).
  assert (Y4 : extends f4 f9) by (eapply extends_trans; eassumption).
  assert (Y3 : extends f3 f9) by (eapply extends_trans; eassumption).
  assert (Y2 : extends f2 f9) by (eapply extends_trans; eassumption).
  (* reads *)
  assert (Ren : get_entry_info parse f9 = Ok (reread_all iso parse l entry_keys)).
  { apply get_entry_info_exact; [apply (proj1 G9)|exact HS|]. intros k Hk.
    rewrite <- (N1 k) by reflexivity.
    cbn in Hk. repeat (destruct Hk as [<-|Hk]; [back; reflexivity|]). destruct Hk. }
  pose proof (wavelength_read _ _ _ _ E2 Y2) as Rwl.
  assert (Rg : get_detector_geometry f9 = Ok (Some (f32 dist), norm_basis b, c)).
  { eapply detector_read; [exact E3|exact Y3|]. intros Ec. specialize (C3 Ec). back. exact C3. }
  assert (Hi1 : exists n, getitem i1 f9 = Ok n).
  { unfold get_wavelength in Rwl. apply rbind_ok in Rwl as (n & En & _). eauto. }
  destruct Hi1 as [ni Hi1].
  assert (Rm : get_mask f9 = Ok mk).
  { destruct mk as [[sh m]|].
    - exact (mask_read _ _ _ _ _ S4 Y4).
    - unfold get_mask. rewrite Hi1. cbn [rbind]. rewrite missing_None; [reflexivity|discriminate|].
      back. cbv iota in S4. rewrite S4. back. apply L4. cbn. lia. }
  assert (Rq : get_qe_mask f9 = Ok (option_map to_f32 qe)).
  { destruct qe as [q|]; [exact (qe_read _ _ _ _ S5 Y5)|].
    unfold get_qe_mask. rewrite Hi1. cbn [rbind]. rewrite missing_None; [reflexivity|discriminate|].
    back. cbv iota in S5. rewrite S5. back. apply L4. cbn. lia. }
  assert (Rd : get_dark f9 = Ok (option_map mean_dark bg)).
  { destruct bg as [q|]; [exact (dark_read _ _ _ _ S6 Y6)|].
    unfold get_dark. rewrite Hi1. cbn [rbind]. rewrite missing_None; [reflexivity|discriminate|].
    back. cbv iota in S6. rewrite S6. back. apply L4. cbn. lia. }
  pose proof (data_read _ _ _ _ _ cut E7 Y7) as Rdat.
  assert (Rt : get_translations f9 = Ok (to_f32 tr)).
  { eapply translations_read; [unfold add_translations; exact E8|exact Y8]. }
  assert (Ri : get_shot_to_shot "intensities" f9 = match ints with Some a => Ok (to_f32 a) | None => Raise KeyError end).
  { destruct ints as [a|]; [exact (shot_read _ _ _ _ _ S9 (extends_refl _))|].
    unfold get_shot_to_shot. subst f9.
    assert (A : forall p, In p (W_shot "intensities") -> find p f8 = None).
    { intros q Hq. cbn in Hq. destruct Hq as [<-|[<-|[<-|[]]]]; back; apply L4; cbn; lia. }
    rewrite (missing_None (data1 "intensities")) by (try discriminate; apply A; cbn; tauto).
    rewrite (missing_None (geo "intensities")) by (try discriminate; apply A; cbn; tauto).
    assert (B : get_arr (det "intensities") f8 = Raise KeyError).
    { unfold get_arr, getitem, resolve. rewrite (A (det "intensities")) by (cbn; tauto). reflexivity. }
    rewrite B. destruct (contains det1 f8); reflexivity. }
  unfold from_cxi, base_from_cxi. rewrite Ren. cbn [rbind]. rewrite Rwl. cbn [rbind]. rewrite Rg. cbn [rbind].
  rewrite Rm. cbn [rbind]. rewrite Rq. cbn [rbind]. rewrite Rd. cbn [rbind]. rewrite Rt. cbn [rbind].
  rewrite Rdat. cbn [rbind fst snd]. rewrite Ri. cbn [cd_mask cd_entry cd_wavelength cd_geometry cd_qe cd_background].
  assert (SH : forall p, c_shape (match c_dt p with CF64 => to_f32 p | _ => p end) = c_shape p)
    by (intros p; destruct (c_dt p); reflexivity).
  rewrite SH.
  assert (SC : c_shape (if cut then mkC (c_dt pats) (c_shape pats) (map (option_map (Rmax 0)) (c_data pats)) else pats) = c_shape pats)
    by (destruct cut; reflexivity).
  rewrite SC.
  destruct ints as [a|]; cbn [rbind option_map]; rewrite ?to_f32_idem; destruct bg; destruct mk; reflexivity.
Qed.
End Whole.
