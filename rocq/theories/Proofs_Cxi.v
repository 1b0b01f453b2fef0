(** Lemmas about Model_Cxi. *)
From Verif Require Import Base Model_Cxi Spec_Cxi.
From Flocq Require Import Core.
Local Open Scope string_scope.

(** ---- float32 ---- *)
Lemma f32_idem x : f32 (f32 x) = f32 x.
Proof.
  unfold f32. apply round_generic; [apply valid_rnd_N|]. apply generic_format_round; [|apply valid_rnd_N].
  apply FLT_exp_valid. unfold Prec_gt_0. lia.
Qed.
Lemma f32_opp x : f32 (- x) = (- f32 x)%R.
Proof. unfold f32. apply round_NE_opp. Qed.
Lemma f32_0 : f32 0 = 0%R.
Proof. unfold f32. apply round_0. apply valid_rnd_N. Qed.
Lemma f32_1 : f32 1 = 1%R.
Proof.
  unfold f32. apply round_generic; [apply valid_rnd_N|].
  change 1%R with (bpow radix2 0). apply generic_format_bpow. unfold FLT_exp. lia.
Qed.

Lemma to_f32_idem a : to_f32 (to_f32 a) = to_f32 a.
Proof.
  unfold to_f32. cbn. f_equal. rewrite map_map. apply map_ext. intros [x|]; cbn; [|reflexivity]. now rewrite f32_idem.
Qed.
Lemma to_f32_id a : f32_array a -> to_f32 a = a.
Proof.
  intros [T H]. destruct a as [dt sh l]. cbn in *. subst dt. unfold to_f32. cbn. f_equal.
  induction l as [|[x|] l IH]; [reflexivity| |].
  - cbn. rewrite (H x (or_introl eq_refl)), IH; [reflexivity|]. intros y Hy. apply H. now right.
  - cbn. rewrite IH; [reflexivity|]. intros y Hy. apply H. now right.
Qed.
Lemma neg_to_f32_neg a : neg_arr (to_f32 (neg_arr a)) = to_f32 a.
Proof.
  unfold neg_arr, to_f32. cbn. f_equal. rewrite !map_map. apply map_ext. intros [x|]; cbn; [|reflexivity].
  rewrite f32_opp. now rewrite Ropp_involutive.
Qed.
Lemma cut_id a : non_negative a -> mkC (c_dt a) (c_shape a) (map (option_map (Rmax 0)) (c_data a)) = a.
Proof.
  destruct a as [dt sh l]. unfold non_negative. cbn. intros H. f_equal.
  induction l as [|[x|] l IH]; [reflexivity| |]; cbn.
  - rewrite Rmax_right by (apply H; now left). rewrite IH; [reflexivity|]. intros y Hy. apply H. now right.
  - rewrite IH; [reflexivity|]. intros y Hy. apply H. now right.
Qed.

Lemma map_nth_seq {A} (l : list A) d : map (fun k => nth k l d) (seq 0 (length l)) = l.
Proof.
  induction l as [|x l IH]; [reflexivity|]. cbn [length seq map nth]. f_equal.
  rewrite <- seq_shift, map_map. exact IH.
Qed.
Lemma nanmean_one x : nanmean [x] = x.
Proof. destruct x as [x|]; cbn; [|reflexivity]. f_equal. field. Qed.
Lemma mean_dark_image a : image a -> c_dt a <> CI -> mean_dark a = a.
Proof.
  intros (h & w & Hs & Hl) Ht. destruct a as [dt sh l]. cbn in *. subst sh. unfold mean_dark. cbn -[nanmean seq].
  f_equal; [destruct dt; congruence|]. rewrite Nat.mul_1_r, <- Hl.
  rewrite (map_ext _ (fun k => nth k l None)); [apply map_nth_seq|].
  intros k. cbn [seq map]. rewrite Nat.mul_0_l. apply nanmean_one.
Qed.

(** ---- axes ---- *)
Lemma split_colon_nonempty s : split_colon s <> [].
Proof.
  destruct s as [|c s]; [discriminate|]. cbn [split_colon]. destruct (Ascii.eqb c ":"); [discriminate|].
  destruct (split_colon s); discriminate.
Qed.
Lemma split_colon_app a b : (forall u v, a <> u ++ ":" ++ v) ->
  split_colon (a ++ String ":" b) = a :: split_colon b.
Proof.
  induction a as [|c a IH]; intros H; [reflexivity|]. cbn [append split_colon].
  destruct (Ascii.eqb_spec c ":") as [->|Hc]; [exfalso; apply (H "" a); reflexivity|].
  rewrite IH; [reflexivity|]. intros u v ->. apply (H (String c u) v). reflexivity.
Qed.
Lemma split_colon_plain a : (forall u v, a <> u ++ ":" ++ v) -> split_colon a = [a].
Proof.
  induction a as [|c a IH]; intros H; [reflexivity|]. cbn [split_colon].
  destruct (Ascii.eqb_spec c ":") as [->|Hc]; [exfalso; apply (H "" a); reflexivity|].
  rewrite IH; [reflexivity|]. intros u v ->. apply (H (String c u) v). reflexivity.
Qed.
Lemma is_space_spec c : is_space c = true <-> blank c.
Proof.
  unfold is_space, blank. rewrite !orb_true_iff, !andb_true_iff, !Nat.eqb_eq, !Nat.leb_le. tauto.
Qed.
Lemma lower_capital c : ~ capital c -> lower_ascii c = c.
Proof.
  unfold lower_ascii, capital. intros H. destruct (Nat.leb 65 (nat_of_ascii c) && Nat.leb (nat_of_ascii c) 90) eqn:E; [|reflexivity].
  apply andb_true_iff in E as [E1 E2]. apply Nat.leb_le in E1, E2. lia.
Qed.
Lemma smap_lower_id s : (forall a c b, s = a ++ String c b -> ~ capital c) -> smap lower_ascii s = s.
Proof.
  induction s as [|c s IH]; intros H; [reflexivity|]. cbn. rewrite lower_capital by (apply (H "" c s); reflexivity).
  rewrite IH; [reflexivity|]. intros a d b ->. apply (H (String c a) d b). reflexivity.
Qed.
Lemma rstrip_id s : (forall a c, s = a ++ String c "" -> ~ blank c) -> rstrip s = s.
Proof.
  induction s as [|c s IH]; intros H; [reflexivity|]. cbn. rewrite IH by (intros a d ->; apply (H (String c a) d); reflexivity).
  destruct s; [|reflexivity]. destruct (is_space c) eqn:E; [|reflexivity]. apply is_space_spec in E.
  elim (H "" c eq_refl E).
Qed.
Lemma lstrip_id s : (forall c b, s = String c b -> ~ blank c) -> lstrip s = s.
Proof.
  destruct s as [|c s]; intros H; [reflexivity|]. cbn. destruct (is_space c) eqn:E; [|reflexivity].
  apply is_space_spec in E. elim (H c s eq_refl E).
Qed.
Lemma plain_clean s : plain_axis s -> clean s = s.
Proof.
  intros [H [T1 T2]]. unfold clean. rewrite (lstrip_id _ T1), (rstrip_id _ T2).
  apply smap_lower_id. intros a c b E. apply (H a c b E).
Qed.
Lemma plain_colon s : plain_axis s -> forall a b, s <> a ++ ":" ++ b.
Proof. intros [H _] a b E. destruct (H a ":"%char b E) as [C _]. contradiction. Qed.
Lemma join_split_raw l : l <> [] -> (forall s, In s l -> forall a b, s <> a ++ ":" ++ b) -> split_colon (join l) = l.
Proof.
  induction l as [|a l IH]; intros Hne H; [contradiction|]. assert (Ha := H a (or_introl eq_refl)).
  unfold join. cbn [String.concat]. destruct l as [|b l]; [now apply split_colon_plain|].
  change (split_colon (a ++ String ":" (String.concat ":" (b :: l))) = a :: b :: l).
  rewrite split_colon_app by exact Ha. f_equal. apply IH; [discriminate|]. intros s Hs. apply H. now right.
Qed.
Lemma join_split l : l <> [] -> Forall plain_axis l -> map clean (split_colon (join l)) = l.
Proof.
  intros Hne H. rewrite join_split_raw; [|exact Hne|].
  - clear Hne. induction H as [|a l Ha Hl IH]; [reflexivity|]. cbn. now rewrite (plain_clean _ Ha), IH.
  - intros s Hs. rewrite Forall_forall in H. apply plain_colon, H, Hs.
Qed.

(** ---- files ---- *)
Lemma path_eqb_spec p q : reflect (p = q) (path_eqb p q).
Proof. unfold path_eqb. destruct (list_eq_dec string_dec p q); constructor; assumption. Qed.
Lemma find_cons p q n f : find p ((q, n) :: f) = if path_eqb p q then Some n else find p f.
Proof. reflexivity. Qed.

Lemma create_inv p n f f' : create p n f = Ok f' ->
  f' = (p, n) :: f /\ find p f = None /\ resolve (parent p) f = Some NGroup.
Proof.
  unfold create, getitem. destruct (resolve (parent p) f) as [[| | | | |]|]; try discriminate.
  destruct (find p f) eqn:E; [discriminate|]. intros H. injection H as <-. auto.
Qed.
Lemma create_ok p n f : find p f = None -> resolve (parent p) f = Some NGroup -> create p n f = Ok ((p, n) :: f).
Proof. intros H1 H2. unfold create, getitem. now rewrite H2, H1. Qed.

Lemma extends_refl f : extends f f.
Proof. intros p n H. exact H. Qed.
Lemma extends_trans f g h : extends f g -> extends g h -> extends f h.
Proof. intros H1 H2 p n H. apply H2, H1, H. Qed.
Lemma create_extends p n f f' : create p n f = Ok f' -> extends f f'.
Proof.
  intros H. apply create_inv in H as (-> & Hp & _). intros q x Hq. unfold resolve in *. destruct q as [|s q]; [exact Hq|].
  rewrite find_cons. destruct (path_eqb_spec (s :: q) p) as [<-|Hne]; [rewrite Hp in Hq; discriminate|].
  destruct (find (s :: q) f) as [m|]; [|discriminate]. destruct m; try exact Hq.
  rewrite find_cons. destruct (path_eqb_spec p0 p) as [->|]; [|exact Hq]. rewrite Hp in Hq. discriminate.
Qed.
Lemma create_resolve p n f f' : create p n f = Ok f' -> p <> [] -> (forall q, n <> NSoft q) -> resolve p f' = Some n.
Proof.
  intros H Hne Hs. apply create_inv in H as (-> & _ & _). unfold resolve. destruct p as [|s p]; [contradiction|].
  rewrite find_cons. destruct (path_eqb_spec (s :: p) (s :: p)) as [_|C]; [|contradiction].
  destruct n; try reflexivity. now elim (Hs p0).
Qed.
Lemma create_soft p q f f' n : create p (NSoft q) f = Ok f' -> p <> [] -> find q f = Some n ->
  (forall r, n <> NSoft r) -> resolve p f' = Some n.
Proof.
  intros H Hne Hq Hs. apply create_inv in H as (-> & Hp & _). unfold resolve. destruct p as [|s p]; [contradiction|].
  rewrite find_cons. destruct (path_eqb_spec (s :: p) (s :: p)) as [_|C]; [|contradiction].
  rewrite find_cons. destruct (path_eqb_spec q (s :: p)) as [->|]; [congruence|]. rewrite Hq.
  destruct n; try reflexivity. now elim (Hs p0).
Qed.
Lemma create_frame p n f f' q : create p n f = Ok f' -> q <> p -> find q f' = find q f.
Proof.
  intros H Hne. apply create_inv in H as (-> & _ & _). rewrite find_cons.
  destruct (path_eqb_spec q p); [contradiction|reflexivity].
Qed.

Lemma ensure_extends p f f' : ensure_group p f = Ok f' -> extends f f'.
Proof.
  unfold ensure_group. destruct (contains p f); intros H; [injection H as <-; apply extends_refl|].
  eapply create_extends; eauto.
Qed.
Lemma ensure_contains p f f' : ensure_group p f = Ok f' -> p <> [] -> exists n, resolve p f' = Some n.
Proof.
  unfold ensure_group, contains. destruct (resolve p f) as [n|] eqn:E; intros H Hne.
  - injection H as <-. eauto.
  - exists NGroup. eapply create_resolve; eauto. discriminate.
Qed.
Lemma ensure_frame p f f' q : ensure_group p f = Ok f' -> q <> p -> find q f' = find q f.
Proof.
  unfold ensure_group. destruct (contains p f); intros H Hne; [injection H as <-; reflexivity|].
  eapply create_frame; eauto.
Qed.

Lemma rbind_ok {A B} (r : res A) (k : A -> res B) b : rbind r k = Ok b -> exists a, r = Ok a /\ k a = Ok b.
Proof. destruct r as [a|e]; cbn; [eauto|discriminate]. Qed.
Ltac steps :=
  repeat match goal with
  | H : rbind _ _ = Ok _ |- _ => let a := fresh "f" in let E := fresh "S" in
      apply rbind_ok in H as (a & E & H)
  end.
Ltac ext_chain :=
  repeat match goal with
  | H : create _ _ ?f = Ok ?f' |- extends ?g ?f' =>
      first [ constr_eq g f; eapply create_extends; exact H
            | apply (extends_trans g f f'); [|eapply create_extends; exact H] ]
  | H : ensure_group _ ?f = Ok ?f' |- extends ?g ?f' =>
      first [ constr_eq g f; eapply ensure_extends; exact H
            | apply (extends_trans g f f'); [|eapply ensure_extends; exact H] ]
  | |- extends ?f ?f => apply extends_refl
  end.

(** Each writer extends the file. *)
Lemma ensure_detector_extends f f' : ensure_detector f = Ok f' -> extends f f'.
Proof. unfold ensure_detector. intros H. steps. ext_chain. Qed.
Lemma ensure_detector_groups f f' : ensure_detector f = Ok f' ->
  (exists n, resolve i1 f' = Some n) /\ (exists n, resolve det1 f' = Some n).
Proof.
  unfold ensure_detector. intros H. steps. split.
  - destruct (ensure_contains _ _ _ S ltac:(discriminate)) as [n Hn]. exists n. eapply ensure_extends; eauto.
  - eapply ensure_contains; eauto. discriminate.
Qed.
Lemma add_source_extends w f f' : add_source w f = Ok f' -> extends f f'.
Proof. unfold add_source. intros H. steps. ext_chain. Qed.
Lemma add_detector_extends d b c f f' : add_detector d b c f = Ok f' -> extends f f'.
Proof.
  unfold add_detector. intros H. steps. apply ensure_detector_extends in S.
  eapply extends_trans; [exact S|]. destruct c.
  - ext_chain.
  - injection H as <-. ext_chain.
Qed.
Lemma add_mask_extends s m f f' : add_mask s m f = Ok f' -> extends f f'.
Proof. unfold add_mask. intros H. steps. apply ensure_detector_extends in S. eapply extends_trans; [exact S|]. ext_chain. Qed.
Lemma add_qe_extends q f f' : add_qe_mask q f = Ok f' -> extends f f'.
Proof. unfold add_qe_mask. intros H. steps. apply ensure_detector_extends in S. eapply extends_trans; [exact S|]. ext_chain. Qed.
Lemma add_dark_extends q f f' : add_dark q f = Ok f' -> extends f f'.
Proof. unfold add_dark. intros H. steps. apply ensure_detector_extends in S. eapply extends_trans; [exact S|]. ext_chain. Qed.
Lemma add_data_extends d a f f' : add_data d a f = Ok f' -> extends f f'.
Proof.
  unfold add_data. intros H. steps. apply ensure_detector_extends in S0.
  eapply extends_trans; [eapply ensure_extends; exact S|]. eapply extends_trans; [exact S0|]. ext_chain.
Qed.
Lemma add_shot_extends d k f f' : add_shot_to_shot d k f = Ok f' -> extends f f'.
Proof.
  unfold add_shot_to_shot. intros H. steps. apply ensure_detector_extends in S2.
  eapply extends_trans; [|eapply extends_trans; [exact S2|]]; ext_chain.
Qed.

(** Reading what was written. *)
Lemma ext_contains f f' p : extends f f' -> (exists n, resolve p f = Some n) -> contains p f' = true.
Proof. intros H [n Hn]. unfold contains. now rewrite (H p n Hn). Qed.
Lemma ext_getitem f f' p n : extends f f' -> resolve p f = Some n -> getitem p f' = Ok n.
Proof. intros H Hn. unfold getitem. now rewrite (H p n Hn). Qed.
Lemma getitem_some f p : (exists n, resolve p f = Some n) -> exists n, getitem p f = Ok n.
Proof. intros [n Hn]. exists n. unfold getitem. now rewrite Hn. Qed.

Lemma keeps_01 b : keeps (if b : bool then 0%Z else 1%Z) = b.
Proof. destruct b; reflexivity. Qed.

Lemma mask_read s m f f1 f2 : add_mask s m f = Ok f1 -> extends f1 f2 -> get_mask f2 = Ok (Some (s, m)).
Proof.
  unfold add_mask. intros H X. steps. destruct (ensure_detector_groups _ _ S) as [[n Hn] _].
  pose proof (create_extends _ _ _ _ H) as Y. pose proof (create_resolve _ _ _ _ H ltac:(discriminate) ltac:(discriminate)) as Z.
  unfold get_mask. rewrite (ext_getitem _ _ _ _ X (Y _ _ Hn)). cbn [rbind].
  rewrite (ext_contains _ _ _ X (ex_intro _ _ Z)), (ext_getitem _ _ _ _ X Z). cbn [rbind].
  rewrite map_map, (map_ext _ (fun b => b)) by apply keeps_01. now rewrite map_id.
Qed.
Lemma qe_read q f f1 f2 : add_qe_mask q f = Ok f1 -> extends f1 f2 -> get_qe_mask f2 = Ok (Some (to_f32 q)).
Proof.
  unfold add_qe_mask. intros H X. steps. destruct (ensure_detector_groups _ _ S) as [[n Hn] _].
  pose proof (create_extends _ _ _ _ H) as Y. pose proof (create_resolve _ _ _ _ H ltac:(discriminate) ltac:(discriminate)) as Z.
  unfold get_qe_mask. rewrite (ext_getitem _ _ _ _ X (Y _ _ Hn)). cbn [rbind].
  rewrite (ext_contains _ _ _ X (ex_intro _ _ Z)). unfold get_arr. rewrite (ext_getitem _ _ _ _ X Z). reflexivity.
Qed.
Lemma dark_read q f f1 f2 : add_dark q f = Ok f1 -> extends f1 f2 -> get_dark f2 = Ok (Some (mean_dark q)).
Proof.
  unfold add_dark. intros H X. steps. destruct (ensure_detector_groups _ _ S) as [[n Hn] _].
  pose proof (create_extends _ _ _ _ H) as Y. pose proof (create_resolve _ _ _ _ H ltac:(discriminate) ltac:(discriminate)) as Z.
  unfold get_dark. rewrite (ext_getitem _ _ _ _ X (Y _ _ Hn)). cbn [rbind].
  rewrite (ext_contains _ _ _ X (ex_intro _ _ Z)). unfold get_arr. rewrite (ext_getitem _ _ _ _ X Z). reflexivity.
Qed.
Lemma wavelength_read w f f1 f2 : add_source w f = Ok f1 -> extends f1 f2 -> get_wavelength f2 = Ok (Some (f32 w)).
Proof.
  unfold add_source. intros H X. steps.
  destruct (ensure_contains _ _ _ S ltac:(discriminate)) as [n Hn].
  pose proof (create_resolve _ _ _ _ S1 ltac:(discriminate) ltac:(discriminate)) as Z.
  assert (Z' : resolve (src "wavelength") f2 = Some (NArr (scalar CF32 (f32 w)) None)).
  { apply X. eapply create_extends; eauto. }
  assert (Hn' : resolve i1 f2 = Some n).
  { apply X. eapply create_extends; [exact H|]. eapply create_extends; [exact S1|]. eapply ensure_extends; eauto. }
  unfold get_wavelength, getitem. rewrite Hn'. cbn [rbind]. unfold contains. rewrite Z'.
  unfold get_scalar, get_arr, getitem. rewrite Z'. cbn. now rewrite f32_idem.
Qed.
Lemma data_read d ax f f1 f2 cut : add_data d ax f = Ok f1 -> extends f1 f2 ->
  get_data cut f2 = Ok ((if cut then mkC (c_dt d) (c_shape d) (map (option_map (Rmax 0)) (c_data d)) else d),
                        option_map (fun l => map clean (split_colon (join l))) ax).
Proof.
  unfold add_data. intros H X. steps.
  assert (F : find (det "data") f4 = Some (NArr d (option_map join ax))).
  { pose proof (create_inv _ _ _ _ S1) as (-> & _ & _). rewrite find_cons.
    destruct (path_eqb_spec (det "data") (det "data")) as [_|C]; [reflexivity|contradiction]. }
  pose proof (create_soft _ _ _ _ _ H ltac:(discriminate) F ltac:(discriminate)) as Z.
  unfold get_data. rewrite (ext_contains _ _ _ X (ex_intro _ _ Z)), (ext_getitem _ _ _ _ X Z). cbn [rbind].
  destruct ax; reflexivity.
Qed.
Lemma shot_read d k f f1 f2 : add_shot_to_shot d k f = Ok f1 -> extends f1 f2 -> get_shot_to_shot k f2 = Ok (to_f32 d).
Proof.
  unfold add_shot_to_shot. intros H X. steps.
  assert (F : find (geo k) f6 = Some (NArr d None)).
  { pose proof (create_inv _ _ _ _ S3) as (-> & _ & _). rewrite find_cons.
    destruct (path_eqb_spec (geo k) (geo k)) as [_|C]; [reflexivity|contradiction]. }
  assert (Z : resolve (data1 k) f2 = Some (NArr d None)).
  { apply X. eapply create_extends; [exact H|]. eapply create_soft; eauto; discriminate. }
  unfold get_shot_to_shot, contains. rewrite Z. unfold get_arr, getitem. now rewrite Z.
Qed.
Lemma translations_read d f f1 f2 : add_translations d f = Ok f1 -> extends f1 f2 -> get_translations f2 = Ok (to_f32 d).
Proof.
  unfold add_translations. intros H X. unfold get_translations. rewrite (shot_read _ _ _ _ _ H X). cbn [rmap].
  now rewrite neg_to_f32_neg.
Qed.

Lemma norm_basis_idem b : norm_basis (norm_basis b) = norm_basis b.
Proof.
  unfold norm_basis. destruct b as [|[|x [|y [|z [|w r]]]] b]; try reflexivity;
  destruct b as [|[|x' [|y' [|z' [|w' r']]]] b]; try reflexivity; destruct b; reflexivity.
Qed.
Lemma detector_read d b c f f1 f2 : add_detector d b c f = Ok f1 -> extends f1 f2 ->
  (c = None -> find (det "corner_position") f2 = None) ->
  get_detector_geometry f2 = Ok (Some (f32 d), norm_basis b, c).
Proof.
  unfold add_detector. intros H X HC. steps. destruct (ensure_detector_groups _ _ S) as [[n Hn] [n' Hn']].
  assert (X' : extends f6 f2).
  { destruct c; [eapply extends_trans; [eapply create_extends; exact H|exact X]|injection H as <-; exact X]. }
  assert (Zd : resolve (det "distance") f2 = Some (NArr (scalar CF32 (f32 d)) None)).
  { apply X'. pose proof (create_resolve _ _ _ _ S0 ltac:(discriminate) ltac:(discriminate)) as Z.
    do 3 (eapply create_extends; [eassumption|]). exact Z. }
  assert (Zb : resolve (det "basis_vectors") f2 = Some (NMat (norm_basis b))).
  { apply X'. eapply create_resolve; [eassumption|discriminate|discriminate]. }
  assert (Zi : resolve i1 f2 = Some n) by (apply X'; do 4 (eapply create_extends; [eassumption|]); exact Hn).
  assert (Zd1 : resolve det1 f2 = Some n') by (apply X'; do 4 (eapply create_extends; [eassumption|]); exact Hn').
  unfold get_detector_geometry, getitem. rewrite Zi, Zd1. cbn [rbind].
  unfold get_basis, contains, getitem. rewrite Zb. cbn [rbind].
  unfold get_scalar, get_arr, getitem. rewrite Zd. cbn [rbind scalar c_data try_ option_map]. rewrite f32_idem, norm_basis_idem.
  destruct c as [c|].
  - assert (Zc : resolve (det "corner_position") f2 = Some (NArr c None)).
    { apply X. eapply create_resolve; [eassumption|discriminate|discriminate]. }
    rewrite Zc. reflexivity.
  - unfold resolve. rewrite (HC eq_refl). reflexivity.
Qed.
