(** Property theorems about CXI files and saved datasets (C15-C19, C24). *)
From Verif Require Import Base Model_Cxi Spec_Cxi Proofs_Cxi Proofs_CxiDataset.
Local Open Scope string_scope.

(** ---- additions in any order ---- *)
Lemma do_add_extends a f f' : do_add a f = Ok f' -> extends f f'.
Proof.
  destruct a; cbn [do_add]; intros H.
  - eapply add_source_extends; eassumption.
  - eapply add_detector_extends; eassumption.
  - eapply add_mask_extends; eassumption.
  - eapply add_qe_extends; eassumption.
  - eapply add_dark_extends; eassumption.
  - eapply add_data_extends; eassumption.
  - eapply add_shot_extends; eassumption.
  - unfold add_translations in H. eapply add_shot_extends; eassumption.
Qed.
Lemma do_adds_extends l : forall f f', do_adds l f = Ok f' -> extends f f'.
Proof.
  induction l as [|a l IH]; cbn; intros f f' H; [injection H as <-; apply extends_refl|].
  destruct (do_add a f) as [f1|] eqn:E; [|discriminate].
  eapply extends_trans; [eapply do_add_extends; eassumption|now apply IH].
Qed.
Lemma do_adds_split l : forall f f' a, do_adds l f = Ok f' -> In a l ->
  exists f1 f2, do_add a f1 = Ok f2 /\ extends f f1 /\ extends f2 f'.
Proof.
  induction l as [|b l IH]; cbn; intros f f' a H []; destruct (do_add b f) as [f1|] eqn:E; try discriminate.
  - subst b. exists f, f1. split; [exact E|split; [apply extends_refl|eapply do_adds_extends; eassumption]].
  - destruct (IH _ _ _ H H0) as (g1 & g2 & E2 & X1 & X2). exists g1, g2. split; [exact E2|split; [|exact X2]].
    eapply extends_trans; [eapply do_add_extends; eassumption|exact X1].
Qed.

(** C16: whatever is added to whatever file, in whatever order, is read back (through binary32
    where the readers convert): wavelength, quantum efficiency, background, patterns and axes
    names, shot-to-shot information, translations with their sign, distance, basis and corner. *)
Theorem C16_read_what_was_added : forall l f0 f, do_adds l f0 = Ok f ->
  (forall w, In (ASource w) l -> get_wavelength f = Ok (Some (f32 w))) /\
  (forall s m, In (AMask s m) l -> get_mask f = Ok (Some (s, m))) /\
  (forall q, In (AQe q) l -> get_qe_mask f = Ok (Some (to_f32 q))) /\
  (forall d, In (ADark d) l -> image d -> c_dt d <> CI -> get_dark f = Ok (Some d)) /\
  (forall d ax, In (AData d ax) l -> (forall names, ax = Some names -> names <> [] /\ Forall plain_axis names) ->
     get_data false f = Ok (d, ax) /\ (non_negative d -> get_data true f = Ok (d, ax))) /\
  (forall d k, In (AShot d k) l -> get_shot_to_shot k f = Ok (to_f32 d)) /\
  (forall d, In (ATranslations d) l -> get_translations f = Ok (to_f32 d)) /\
  (forall dist b corner, In (ADetector dist b (Some corner)) l ->
     get_detector_geometry f = Ok (Some (f32 dist), norm_basis b, Some corner)).
Proof.
  intros l f0 f H.
  assert (SP : forall a, In a l -> exists f1 f2, do_add a f1 = Ok f2 /\ extends f0 f1 /\ extends f2 f)
    by (intros a; now apply do_adds_split).
  split; [|split; [|split; [|split; [|split; [|split; [|split]]]]]].
  - intros w Hin. destruct (SP _ Hin) as (f1 & f2 & E & _ & X). exact (wavelength_read _ _ _ _ E X).
  - intros s m Hin. destruct (SP _ Hin) as (f1 & f2 & E & _ & X). exact (mask_read _ _ _ _ _ E X).
  - intros q Hin. destruct (SP _ Hin) as (f1 & f2 & E & _ & X). exact (qe_read _ _ _ _ E X).
  - intros d Hin Hi Hd. destruct (SP _ Hin) as (f1 & f2 & E & _ & X).
    rewrite (dark_read _ _ _ _ E X). now rewrite mean_dark_image.
  - intros d ax Hin Hax. destruct (SP _ Hin) as (f1 & f2 & E & _ & X).
    assert (AX : option_map (fun l0 => map clean (split_colon (join l0))) ax = ax).
    { destruct ax as [n|]; [|reflexivity]. destruct (Hax n eq_refl). cbn. now rewrite join_split. }
    split; [|intros Hn]; rewrite (data_read _ _ _ _ _ _ E X), AX; [reflexivity|]. now rewrite cut_id.
  - intros d k Hin. destruct (SP _ Hin) as (f1 & f2 & E & _ & X). exact (shot_read _ _ _ _ _ E X).
  - intros d Hin. destruct (SP _ Hin) as (f1 & f2 & E & _ & X). exact (translations_read _ _ _ _ E X).
  - intros dist b corner Hin. destruct (SP _ Hin) as (f1 & f2 & E & _ & X).
    cbn [do_add] in E. apply (detector_read _ _ _ _ _ _ E X). discriminate.
Qed.
Print Assumptions C16_read_what_was_added.

(** C16: values that are binary32 already come back exactly; a 3 x 2 basis comes back as given and a
    2 x 3 basis transposed. *)
Theorem C16_exact_values :
  (forall a, f32_array a -> to_f32 a = a) /\
  (forall a b c d e g, norm_basis [[a; b]; [c; d]; [e; g]] = [[a; b]; [c; d]; [e; g]]) /\
  (forall a b c d e g, norm_basis [[a; b; c]; [d; e; g]] = [[a; d]; [b; e]; [c; g]]).
Proof. split; [exact to_f32_id|split; reflexivity]. Qed.
Print Assumptions C16_exact_values.

(** C16: a stack of dark images is read as the pixelwise mean of its finite values. *)
Theorem C16_dark_stack_mean : forall l f0 f d n h w, do_adds l f0 = Ok f -> In (ADark d) l ->
  c_shape d = [n; h; w] -> length (c_data d) = n * (h * w) ->
  exists a, get_dark f = Ok (Some a) /\ c_shape a = [h; w] /\
    forall k, k < h * w -> nth k (c_data a) None = nanmean (map (fun m => nth (m * (h * w) + k) (c_data d) None) (seq 0 n)).
Proof.
  intros l f0 f d n h w H Hin Hs HL. destruct (do_adds_split _ _ _ _ H Hin) as (f1 & f2 & E & _ & X).
  exists (mean_dark d). split; [exact (dark_read _ _ _ _ E X)|]. unfold mean_dark. rewrite Hs. cbn [length Nat.sub firstn skipn c_shape c_data].
  split; [reflexivity|]. intros k Hk. assert (P1 : prod [h; w] = h * w) by (cbn; lia). assert (P2 : prod [n] = n) by (cbn; lia).
  rewrite P1, P2. rewrite nth_indep with (d' := nanmean (map (fun m => nth (m * (h * w) + 0) (c_data d) None) (seq 0 n)))
    by (rewrite map_length, seq_length; exact Hk).
  rewrite (map_nth (fun k => nanmean (map (fun m => nth (m * (h * w) + k) (c_data d) None) (seq 0 n)))), seq_nth by exact Hk.
  reflexivity.
Qed.
Print Assumptions C16_dark_stack_mean.

(** C16: any list of additions that use different names succeeds on a fresh file, in any order. *)
Lemma do_add_ok a f : good f ->
  (forall k, In k (uses a) -> find (det k) f = None /\ find (data1 k) f = None /\ find (geo k) f = None) ->
  (In "wavelength" (uses a) -> forall q, In q W_source -> find q f = None) ->
  exists f', do_add a f = Ok f' /\ good f' /\
    (forall k, ~ In k (uses a) -> find (det k) f' = find (det k) f /\ find (data1 k) f' = find (data1 k) f /\
                                 find (geo k) f' = find (geo k) f) /\
    (~ In "wavelength" (uses a) -> forall q, In q W_source -> find q f' = find q f).
Proof.
  intros Hg HN HS.
  assert (KEY : forall W f', (forall q, ~ In q (W ++ G) -> find q f' = find q f) ->
    (forall q, In q W -> (exists k, In k (uses a) /\ (q = det k \/ q = data1 k \/ q = geo k)) \/ In "wavelength" (uses a) /\ In q W_source) ->
    (forall k, ~ In k (uses a) -> find (det k) f' = find (det k) f /\ find (data1 k) f' = find (data1 k) f /\
                                 find (geo k) f' = find (geo k) f) /\
    (~ In "wavelength" (uses a) -> forall q, In q W_source -> find q f' = find q f)).
  { intros W f' F HW. split.
    - intros k Hk.
      assert (NG : forall q, q = det k \/ q = data1 k \/ q = geo k -> ~ In q (W ++ G)).
      { intros q Hq Hin. apply in_app_or in Hin as [Hin|Hin].
        - destruct (HW q Hin) as [(k' & Hk' & E)|[_ E]].
          + assert (k' = k); [|subst; contradiction].
            destruct Hq as [->|[->| ->]]; destruct E as [E|[E|E]]; try discriminate; now injection E.
          + cbn in E. destruct Hq as [->|[->| ->]]; destruct E as [E|[E|[]]]; discriminate.
        - cbn in Hin. destruct Hq as [->|[->| ->]]; intuition discriminate. }
      repeat split; apply F, NG; tauto.
    - intros Hw q Hq. apply F. intros Hin. apply in_app_or in Hin as [Hin|Hin].
      + destruct (HW q Hin) as [(k' & _ & E)|[E _]]; [|contradiction].
        cbn in Hq. destruct Hq as [<-|[<-|[]]]; destruct E as [E|[E|E]]; discriminate.
      + cbn in Hq, Hin. destruct Hq as [<-|[<-|[]]]; intuition discriminate. }
  destruct a as [w|di b c|s m|q|d|d ax|d k|d]; cbn [do_add uses] in *.
  - destruct (add_source_ok w f Hg) as (f' & E & G1 & F); [apply HS; now left|].
    exists f'. split; [exact E|split; [exact G1|]]. apply (KEY W_source f' F). intros q Hq. right. split; [now left|exact Hq].
  - destruct (add_detector_ok di b c f Hg) as (f' & E & G1 & F & _).
    { intros q Hq. cbn in Hq. repeat (destruct Hq as [<-|Hq]; [eapply proj1, HN; cbn; tauto|]). destruct Hq. }
    exists f'. split; [exact E|split; [exact G1|]]. apply (KEY W_detector f' F). intros q Hq. left.
    cbn in Hq. repeat (destruct Hq as [<-|Hq]; [eexists; split; [|left; reflexivity]; cbn; tauto|]). destruct Hq.
  - destruct (add_mask_ok s m f Hg) as (f' & E & G1 & F); [apply HN; now left|].
    exists f'. split; [exact E|split; [exact G1|]]. apply (KEY [det "mask"] f' F). intros q [<-|[]]. left. eexists. split; [now left|tauto].
  - destruct (add_qe_ok q f Hg) as (f' & E & G1 & F); [apply HN; now left|].
    exists f'. split; [exact E|split; [exact G1|]]. apply (KEY [det "qe_mask"] f' F). intros q' [<-|[]]. left. eexists. split; [now left|tauto].
  - destruct (add_dark_ok d f Hg) as (f' & E & G1 & F); [apply HN; now left|].
    exists f'. split; [exact E|split; [exact G1|]]. apply (KEY [det "data_dark"] f' F). intros q' [<-|[]]. left. eexists. split; [now left|tauto].
  - destruct (HN "data" (or_introl eq_refl)) as (N1 & N2 & N3).
    destruct (add_data_ok d ax f Hg) as (f' & E & G1 & F); [intros q [<-|[<-|[]]]; assumption|].
    exists f'. split; [exact E|split; [exact G1|]]. apply (KEY W_data f' F).
    intros q' [<-|[<-|[]]]; left; eexists; (split; [now left|tauto]).
  - destruct (HN k (or_introl eq_refl)) as (N1 & N2 & N3).
    destruct (add_shot_ok d k f Hg) as (f' & E & G1 & F); [intros q [<-|[<-|[<-|[]]]]; assumption|].
    exists f'. split; [exact E|split; [exact G1|]]. apply (KEY (W_shot k) f' F).
    intros q' [<-|[<-|[<-|[]]]]; left; eexists; (split; [now left|tauto]).
  - destruct (HN "translation" (or_introl eq_refl)) as (N1 & N2 & N3). unfold add_translations.
    destruct (add_shot_ok (neg_arr d) "translation" f Hg) as (f' & E & G1 & F); [intros q [<-|[<-|[<-|[]]]]; assumption|].
    exists f'. split; [exact E|split; [exact G1|]]. apply (KEY (W_shot "translation") f' F).
    intros q' [<-|[<-|[<-|[]]]]; left; eexists; (split; [now left|tauto]).
Qed.
Lemma do_adds_ok l : forall f, good f -> no_clash l ->
  (forall a k, In a l -> In k (uses a) -> find (det k) f = None /\ find (data1 k) f = None /\ find (geo k) f = None) ->
  (forall a, In a l -> In "wavelength" (uses a) -> forall q, In q W_source -> find q f = None) ->
  exists f', do_adds l f = Ok f'.
Proof.
  induction l as [|a l IH]; intros f Hg HC HN HS; [eexists; reflexivity|]. destruct HC as [HC1 HC2].
  destruct (do_add_ok a f Hg) as (f1 & E & G1 & F & FS).
  - intros k Hk. apply (HN a k); [now left|exact Hk].
  - intros Hw. apply (HS a); [now left|exact Hw].
  - cbn [do_adds]. rewrite E. apply IH; [exact G1|exact HC2| |].
    + intros b k Hb Hk. destruct (F k) as (-> & -> & ->); [|apply (HN b k); [now right|exact Hk]].
      intros C. exact (HC1 b k Hb C Hk).
    + intros b Hb Hw q Hq. rewrite (FS); [apply (HS b); [now right|exact Hw|exact Hq]| |exact Hq].
      intros C. exact (HC1 b _ Hb C Hw).
Qed.
Theorem C16_any_order_succeeds : forall l, no_clash l -> exists f, do_adds l create_cxi = Ok f.
Proof.
  intros l H. apply do_adds_ok; [exact good_create_cxi|exact H| |].
  - intros a k _ _. repeat split; reflexivity.
  - intros a _ _ q Hq. cbn in Hq. destruct Hq as [<-|[<-|[]]]; reflexivity.
Qed.
Print Assumptions C16_any_order_succeeds.
Example C16_case : no_clash [ATranslations (mkC CF32 [1; 3] [Some 1%R; Some (-1)%R; Some 0%R]); AShot (mkC CF32 [1] [Some 2%R]) "intensities";
  ASource 1; AData (mkC CF32 [1; 1; 2] [Some 3%R; Some 0%R]) (Some ["translation"; "y"; "x"]); AMask [1; 2] [true; false]].
Proof.
  cbn [no_clash]. repeat match goal with |- _ /\ _ => split end; try exact I; intros b k Hb Hk; cbn in Hb, Hk;
    destruct Hk as [<-|[]]; repeat (destruct Hb as [<-|Hb]; [cbn; intros [C|[]]; discriminate|]); destruct Hb.
Qed.
Fixpoint all_chars (q : ascii -> bool) (s : string) : bool :=
  match s with EmptyString => true | String c s' => q c && all_chars q s' end.
Lemma all_chars_plain s :
  all_chars (fun c => let n := nat_of_ascii c in Nat.leb 97 n && Nat.leb n 122) s = true -> plain_axis s.
Proof.
  intros HL. assert (A : forall a c b, s = a ++ String c b -> 97 <= nat_of_ascii c <= 122).
  { intros a c b ->. induction a as [|d a IH]; cbn [append all_chars] in HL; apply andb_true_iff in HL as [H1 H2].
    - apply andb_true_iff in H1 as [H1 H3]. apply Nat.leb_le in H1, H3. lia.
    - exact (IH H2). }
  split; [|split].
  - intros a c b E. specialize (A a c b E). split; [|unfold capital; lia]. intros ->. cbn in A. lia.
  - intros c b E. specialize (A "" c b E). unfold blank. lia.
  - intros a c E. specialize (A a c "" E). unfold blank. lia.
Qed.
Example C16_axes_case : Forall plain_axis ["translation"; "y"; "x"].
Proof.
  apply Forall_forall. intros s Hs. apply all_chars_plain. cbn [In] in Hs.
  destruct Hs as [<-|[<-|[<-|[]]]]; reflexivity.
Qed.

(** C15: a saved mask is read back, whatever else is in the file. *)
Theorem C15_mask_round_trip : forall l f0 f shape kept, do_adds l f0 = Ok f -> In (AMask shape kept) l ->
  get_mask f = Ok (Some (shape, kept)).
Proof. intros l f0 f s m H Hin. destruct (C16_read_what_was_added l f0 f H) as (_ & M & _). now apply M. Qed.
Print Assumptions C15_mask_round_trip.

(** C15: of an arbitrary stored 32-bit mask exactly the pixels holding 0 or 0x1000 are kept. *)
Theorem C15_kept_values : forall f shape vals, resolve i1 f <> None ->
  resolve (det "mask") f = Some (NMask shape vals) -> Forall (fun z => 0 <= z < 2 ^ 32)%Z vals ->
  exists kept, get_mask f = Ok (Some (shape, kept)) /\ length kept = length vals /\
    forall i, i < length vals -> nth i kept false = true <-> (nth i vals 0 = 0 \/ nth i vals 0 = 0x1000)%Z.
Proof.
  intros f s v Hi Hm Hr. exists (map keeps v). unfold get_mask, getitem.
  destruct (resolve i1 f); [|contradiction]. cbn [rbind]. unfold contains. rewrite Hm. cbn [rbind].
  split; [reflexivity|]. split; [apply map_length|]. intros i Hi'.
  rewrite nth_indep with (d' := keeps 0) by (now rewrite map_length). rewrite map_nth.
  rewrite Forall_forall in Hr. specialize (Hr (nth i v 0%Z) (nth_In _ _ Hi')).
  unfold keeps. rewrite Z.mod_small by exact Hr. rewrite orb_true_iff, !Z.eqb_eq. reflexivity.
Qed.
Print Assumptions C15_kept_values.
Example C15_case : exists f kept, get_mask f = Ok (Some ([2; 2], kept)) /\ kept = [true; false; true; false].
Proof.
  eexists [(i1, NGroup); (det "mask", NMask [2; 2] [0; 1; 4096; 4097]%Z)], _. split; [reflexivity|reflexivity].
Qed.

(** ---- whole datasets (C17) ---- *)
Section Datasets.
Context {DT : Type} (iso : DT -> string) (parse : string -> res DT).
Notation pdataset := (pdataset DT).

(** Every field is a binary32 quantity or image of the shape the code expects, and the basis is 3 x 2. *)
Definition float32_dataset (d : pdataset) w dist b c : Prop :=
  cd_wavelength (pd_base d) = Some w /\ is_f32 w /\
  cd_geometry (pd_base d) = Some (dist, b, c) /\ is_f32 dist /\
  (exists a1 a2 a3 a4 a5 a6, b = [[a1; a2]; [a3; a4]; [a5; a6]]) /\
  (forall q, cd_qe (pd_base d) = Some q -> f32_array q) /\
  (forall a, cd_background (pd_base d) = Some a -> f32_array a /\ image a) /\
  f32_array (pd_patterns d) /\
  (forall names, pd_axes d = Some names -> names <> [] /\ Forall plain_axis names) /\
  f32_array (pd_translations d) /\
  (forall a, pd_intensities d = Some a -> f32_array a).

(** C17: saving to a path and loading gives back patterns, axes, translations, intensities,
    wavelength, geometry, quantum efficiency and background exactly; a missing mask becomes an
    all-true mask of the detector's shape. *)
Theorem C17_round_trip : forall (d : pdataset) w dist b c cut lead h wd,
  c_shape (pd_patterns d) = (lead ++ [h; wd])%list ->
  float32_dataset d w dist b c -> writable_entry iso (entry_of d) -> standard_entry iso parse (entry_of d) ->
  (cut = true -> non_negative (pd_patterns d)) ->
  exists f d', to_cxi_path iso d = Ok f /\ from_cxi parse cut f = Ok d' /\
    pd_patterns d' = pd_patterns d /\ pd_axes d' = pd_axes d /\ pd_translations d' = pd_translations d /\
    pd_intensities d' = pd_intensities d /\
    cd_wavelength (pd_base d') = cd_wavelength (pd_base d) /\
    cd_geometry (pd_base d') = cd_geometry (pd_base d) /\
    cd_qe (pd_base d') = cd_qe (pd_base d) /\
    cd_background (pd_base d') = cd_background (pd_base d) /\
    cd_mask (pd_base d') = Some (match cd_mask (pd_base d) with
      | Some m => m
      | None => ([h; wd], repeat true (h * wd))
      end).
Proof.
  intros d w dist b c cut lead h wd Hshape (Hw & Fw & Hg & Fd & (a1 & a2 & a3 & a4 & a5 & a6 & Hb) & Hq & Hbg & Hp & Hax & Ht & Hi) HW HS HC.
  destruct (whole_round_trip iso parse d w dist b c cut Hw Hg HW HS) as (f & E & R).
  exists f. eexists. split; [exact E|]. split; [exact R|].
  cbn [pd_patterns pd_axes pd_translations pd_intensities pd_base cd_wavelength cd_geometry cd_qe cd_background cd_mask].
  split; [|split; [|split; [|split; [|split; [|split; [|split; [|split]]]]]]].
  - assert (P : (if cut then mkC (c_dt (pd_patterns d)) (c_shape (pd_patterns d)) (map (option_map (Rmax 0)) (c_data (pd_patterns d)))
                 else pd_patterns d) = pd_patterns d).
    { destruct cut; [apply cut_id; now apply HC|reflexivity]. }
    cbv zeta. rewrite P. destruct Hp as [-> _]. reflexivity.
  - destruct (pd_axes d) as [n|]; [|reflexivity]. destruct (Hax n eq_refl). cbn. now rewrite join_split.
  - now apply to_f32_id.
  - destruct (pd_intensities d) as [a|]; [|reflexivity]. cbn. now rewrite to_f32_id by now apply Hi.
  - rewrite Hw. now rewrite Fw.
  - rewrite Hg, Fd, Hb. reflexivity.
  - destruct (cd_qe (pd_base d)) as [q|]; [|reflexivity]. cbn. now rewrite to_f32_id by now apply Hq.
  - destruct (cd_background (pd_base d)) as [a|]; [|reflexivity]. destruct (Hbg a eq_refl) as [F I]. cbn.
    rewrite mean_dark_image; [now rewrite to_f32_id|exact I|]. destruct F as [-> _]. discriminate.
  - assert (L2 : last2 (c_shape (pd_patterns d)) = [h; wd]).
    { unfold last2. rewrite Hshape, app_length. cbn [length].
      replace (length lead + 2 - 2) with (length lead + 0) by lia. rewrite skipn_app, skipn_all2 by lia.
      replace (length lead + 0 - length lead) with 0 by lia. reflexivity. }
    rewrite L2. cbn [prod fold_right]. rewrite Nat.mul_1_r. reflexivity.
Qed.

(** C17 is false for datasets without a wavelength or without a detector geometry: they are saved,
    but loading the file raises KeyError. *)
Theorem C17_missing_wavelength_or_geometry_refuted :
  (exists d f, cd_wavelength (pd_base d) = None /\ to_cxi_path iso d = Ok f /\ from_cxi parse true f = Raise KeyError) /\
  (exists d f, cd_geometry (pd_base d) = None /\ to_cxi_path iso d = Ok f /\ from_cxi parse true f = Raise KeyError).
Proof.
  split.
  - exists (mkPd (mkCd None None (Some (1%R, [[0; -1]; [-1; 0]; [0; 0]]%R, None)) None None None)
                 (mkC CF32 [1; 1; 1] [Some 0%R]) None (mkC CF32 [1; 3] [Some 0; Some 0; Some 0]%R) None).
    eexists. split; [reflexivity|]. split; [reflexivity|]. reflexivity.
  - exists (mkPd (mkCd None (Some 1%R) None None None None)
                 (mkC CF32 [1; 1; 1] [Some 0%R]) None (mkC CF32 [1; 3] [Some 0; Some 0; Some 0]%R) None).
    eexists. split; [reflexivity|]. split; [reflexivity|]. reflexivity.
Qed.

(** C24 does not extend to from_cxi: a saved dataset whose patterns hold NaN is loaded with the NaN
    and with the pixel still marked as good. *)
Theorem C24_from_cxi_refuted :
  exists d f d', to_cxi_path iso d = Ok f /\ from_cxi parse true f = Ok d' /\
    c_data (pd_patterns d') = [None; Some 1%R] /\ cd_mask (pd_base d') = Some ([1; 2], [true; true]).
Proof.
  set (d := mkPd (mkCd (DT := DT) None (Some 1%R) (Some (1%R, [[0; -1]; [-1; 0]; [0; 0]]%R, None)) None None None)
                 (mkC CF32 [1; 1; 2] [None; Some 1%R]) None (mkC CF32 [1; 3] [Some 0; Some 0; Some 0]%R) None).
  destruct (whole_round_trip iso parse d 1%R 1%R [[0; -1]; [-1; 0]; [0; 0]]%R None true eq_refl eq_refl) as (f & E & R).
  - split; [constructor|constructor].
  - split; [intros k v _ C; discriminate|intros v C; discriminate].
  - exists d, f. eexists. split; [exact E|]. split; [exact R|]. cbn. split; [|reflexivity].
    rewrite Rmax_right by lra. reflexivity.
Qed.

(** ---- entry metadata (C18) ---- *)
(** C18: every written text attribute that the date parser rejects with ValueError is
    returned as written, every date whose ISO text the parser understands is returned as that date,
    absent attributes stay absent.  Limits: texts the parser accepts (below), keys outside
    the fixed list (never read), texts that are not ASCII (np.bytes_ raises). *)
Theorem C18_metadata : forall (d : pdataset) w dist b c,
  cd_wavelength (pd_base d) = Some w -> cd_geometry (pd_base d) = Some (dist, b, c) ->
  writable_entry iso (entry_of d) -> standard_entry iso parse (entry_of d) ->
  exists f d' en, to_cxi_path iso d = Ok f /\ from_cxi parse true f = Ok d' /\ cd_entry (pd_base d') = Some en /\
    (forall k s, In k entry_keys -> assoc k (entry_of d) = Some (MStr s) -> parse s = Raise ValueError -> assoc k en = Some (MStr s)) /\
    (forall k t, In k entry_keys -> assoc k (entry_of d) = Some (MDate t) -> parse (iso t) = Ok t -> assoc k en = Some (MDate t)) /\
    (forall k, assoc k (entry_of d) = None -> assoc k en = None) /\
    (forall k, ~ In k entry_keys -> assoc k en = None).
Proof.
  intros d w dist b c Hw Hg HW HS. destruct (whole_round_trip iso parse d w dist b c true Hw Hg HW HS) as (f & E & R).
  exists f. eexists. exists (reread_all iso parse (entry_of d) entry_keys). split; [exact E|]. split; [exact R|]. split; [reflexivity|].
  assert (OUT : forall l ks k, ~ In k ks -> assoc k (reread_all iso parse l ks) = None).
  { intros l ks. induction ks as [|k' ks IH]; intros k Hk; [reflexivity|]. cbn [reread_all flat_map].
    fold (reread_all iso parse l ks). unfold reread1.
    assert (R0 := IH k (fun X => Hk (or_intror X))).
    destruct (assoc k' l) as [v|]; [|exact R0]. destruct (reread iso parse v) as [v'|]; [|exact R0].
    cbn. destruct (String.eqb_spec k k') as [E0|]; [exfalso; apply Hk; now left|exact R0]. }
  assert (INN : forall l ks k, NoDup ks -> In k ks ->
    assoc k (reread_all iso parse l ks) = match assoc k l with Some v => reread iso parse v | None => None end).
  { intros l ks. induction ks as [|k' ks IH]; intros k ND Hk; [destruct Hk|]. inversion ND as [|? ? Nk ND']; subst.
    cbn [reread_all flat_map]. fold (reread_all iso parse l ks). unfold reread1.
    destruct (String.eqb_spec k k') as [Q|N].
    - subst k'. destruct (assoc k l) as [v|]; [|now apply OUT]. destruct (reread iso parse v) as [v'|]; [|now apply OUT].
      cbn. now rewrite String.eqb_refl.
    - destruct Hk as [C|Hk]; [congruence|]. rewrite <- (IH k ND' Hk).
      destruct (assoc k' l) as [v|]; [|reflexivity]. destruct (reread iso parse v) as [v'|]; [|reflexivity].
      cbn. destruct (String.eqb_spec k k'); [contradiction|reflexivity]. }
  assert (ND : NoDup entry_keys) by (repeat constructor; cbn; intuition discriminate).
  split; [|split; [|split]].
  - intros k s Hk A P. rewrite (INN _ _ _ ND Hk), A. cbn. unfold redate. now rewrite P.
  - intros k t Hk A P. rewrite (INN _ _ _ ND Hk), A. cbn. unfold redate. now rewrite P.
  - intros k A. destruct (in_dec string_dec k entry_keys) as [Hk|Hk]; [rewrite (INN _ _ _ ND Hk), A; reflexivity|now apply OUT].
  - intros k Hk. now apply OUT.
Qed.

Lemma title_only s : is_ascii s = true -> writable_entry iso [("title", MStr (DT := DT) s)].
Proof. intros H. split; [repeat constructor; cbn; tauto|]. constructor; [|constructor]. split; [cbn; intuition discriminate|exact H]. Qed.

(** C18 is false as stated: a title that the date parser accepts (for dateutil: "10", "May", ...)
    comes back as a date, and a title on which the parser raises anything but ValueError (dateutil
    documents OverflowError) makes the saved file unreadable. *)
Theorem C18_title_becomes_date_refuted : forall s t, is_ascii s = true -> parse s = Ok t ->
  exists d f d', cd_entry (pd_base d) = Some [("title", MStr s)] /\ to_cxi_path iso d = Ok f /\
    from_cxi parse true f = Ok d' /\ cd_entry (pd_base d') = Some [("title", MDate t)].
Proof.
  intros s t Hs P.
  set (d := mkPd (mkCd (DT := DT) (Some [("title", MStr s)]) (Some 1%R) (Some (1%R, [[0; -1]; [-1; 0]; [0; 0]]%R, None)) None None None)
                 (mkC CF32 [1; 1; 1] [Some 0%R]) None (mkC CF32 [1; 3] [Some 0; Some 0; Some 0]%R) None).
  destruct (whole_round_trip iso parse d 1%R 1%R [[0; -1]; [-1; 0]; [0; 0]]%R None true eq_refl eq_refl) as (f & E & R).
  - now apply title_only.
  - split; [|intros v C; discriminate]. intros k v Hk A. cbn in A. destruct (String.eqb k "title"); [|discriminate].
    injection A as <-. intros e C. congruence.
  - exists d, f. eexists. split; [reflexivity|]. split; [exact E|]. split; [exact R|]. cbn. unfold redate. now rewrite P.
Qed.
Theorem C18_unreadable_title_refuted : forall s e, is_ascii s = true -> parse s = Raise e -> e <> ValueError ->
  exists d f, cd_entry (pd_base d) = Some [("title", MStr s)] /\ to_cxi_path iso d = Ok f /\ from_cxi parse true f = Raise e.
Proof.
  intros s e Hs P He.
  set (d := mkPd (mkCd (DT := DT) (Some [("title", MStr s)]) (Some 1%R) (Some (1%R, [[0; -1]; [-1; 0]; [0; 0]]%R, None)) None None None)
                 (mkC CF32 [1; 1; 1] [Some 0%R]) None (mkC CF32 [1; 3] [Some 0; Some 0; Some 0]%R) None).
  exists d. eexists. split; [reflexivity|]. split.
  - unfold to_cxi_path, to_cxi, base_to_cxi. cbn [d pd_base cd_entry opt add_entry_info add_entry1]. unfold bytes_. rewrite Hs. reflexivity.
  - unfold from_cxi, base_from_cxi, get_entry_info. cbn [metadata_attrs read_entries]. unfold read_entry at 1.
    change (contains ["entry_1"; "title"] _) with true. cbn [rbind].
    cbn -[read_entries]. rewrite P. destruct e; try reflexivity. contradiction.
Qed.

(** ---- saving by path (C19) ---- *)
(** C19: for a Ptycho2DDataset, saving by path is creating a fresh CXI file and writing to it open. *)
Theorem C19_ptycho_path : forall d, to_cxi_path iso d = to_cxi iso d create_cxi.
Proof. reflexivity. Qed.
(** C19: a CDataset, with any of its fields absent, can be written to a fresh open CXI file whenever its
    entries can (distinct keys, none that of a group of the file, ASCII texts), and everything it has is
    then found in the file. *)
Definition adds_of (d : cdataset DT) : list addition :=
  ((match cd_wavelength d with Some w => [ASource w] | None => [] end) ++
   (match cd_geometry d with Some (dist, b, c) => [ADetector dist b c] | None => [] end) ++
   (match cd_mask d with Some m => [AMask (fst m) (snd m)] | None => [] end) ++
   (match cd_qe d with Some q => [AQe q] | None => [] end) ++
   (match cd_background d with Some a => [ADark a] | None => [] end))%list.
Theorem C19_open_file : forall d : cdataset DT,
  (forall l, cd_entry d = Some l -> writable_entry iso l) ->
  exists f, base_to_cxi iso d create_cxi = Ok f /\
    (forall l k s, cd_entry d = Some l -> In (k, MStr s) l -> find ["entry_1"; k] f = Some (NBytes s)) /\
    (forall w, cd_wavelength d = Some w -> get_wavelength f = Ok (Some (f32 w))) /\
    (forall dist b corner, cd_geometry d = Some (dist, b, Some corner) ->
       get_detector_geometry f = Ok (Some (f32 dist), norm_basis b, Some corner)) /\
    (forall s m, cd_mask d = Some (s, m) -> get_mask f = Ok (Some (s, m))) /\
    (forall q, cd_qe d = Some q -> get_qe_mask f = Ok (Some (to_f32 q))) /\
    (forall a, cd_background d = Some a -> image a -> c_dt a <> CI -> get_dark f = Ok (Some a)).
Proof.
  intros [en wl ge mk qe bg]. cbn [cd_entry cd_wavelength cd_geometry cd_mask cd_qe cd_background]. intros HW0.
  set (l := match en with Some l => l | None => [] end).
  assert (HW : writable_entry iso l).
  { subst l. destruct en as [l|]; [now apply HW0|]. split; constructor. }
  assert (HN : forall k, In k (map fst l) -> find ["entry_1"; k] create_cxi = None) by reflexivity.
  destruct (add_entry_info_ok iso l create_cxi good_create_cxi HW HN) as (f1 & E1 & G1 & F1 & N1).
  assert (E1' : opt en (add_entry_info iso) create_cxi = Ok f1).
  { subst l. destruct en; exact E1. }
  assert (L4 : forall p, length p > 2 -> find p f1 = None).
  { intros p Hp. rewrite F1.
    - cbn. unfold e1, path_eqb. repeat (destruct (list_eq_dec string_dec p _) as [->|]; [cbn in Hp; lia|]). reflexivity.
    - intros k _ ->. cbn in Hp. lia. }
  destruct (opt_step wl add_source W_source f1 G1) as (f2 & E2 & G2 & F2 & X2 & _).
  { intros w. destruct (add_source_ok w f1 G1) as (f' & A & B & C0); [|now exists f'].
    intros q Hq. apply L4. cbn in Hq. intuition (subst; cbn; lia). }
  { intros w f'. apply add_source_extends. }
  destruct (opt_step ge (fun g => let '(dist, b, c) := g in add_detector dist b c) W_detector f2 G2) as (f3 & E3 & G3 & F3 & X3 & _).
  { intros [[dist b] c]. destruct (add_detector_ok dist b c f2 G2) as (f' & A & B & C0 & _); [|now exists f'].
    intros q Hq. rewrite F2; [apply L4; cbn in Hq; intuition (subst; cbn; lia)|]. cbn in Hq. intuition (subst; revert H; notin). }
  { intros [[dist b] c] f'. apply add_detector_extends. }
  destruct (opt_step mk (fun m => add_mask (fst m) (snd m)) [det "mask"] f3 G3) as (f4 & E4 & G4 & F4 & X4 & _).
  { intros m. apply add_mask_ok; [exact G3|]. back. apply L4. cbn. lia. }
  { intros m f'. apply add_mask_extends. }
  destruct (opt_step qe add_qe_mask [det "qe_mask"] f4 G4) as (f5 & E5 & G5 & F5 & X5 & _).
  { intros m. apply add_qe_ok; [exact G4|]. back. apply L4. cbn. lia. }
  { intros m f'. apply add_qe_extends. }
  destruct (opt_step bg add_dark [det "data_dark"] f5 G5) as (f6 & E6 & G6 & F6 & X6 & _).
  { intros m. apply add_dark_ok; [exact G5|]. back. apply L4. cbn. lia. }
  { intros m f'. apply add_dark_extends. }
  assert (DA : do_adds (adds_of (mkCd en wl ge mk qe bg)) f1 = Ok f6).
  { unfold adds_of. cbn [cd_wavelength cd_geometry cd_mask cd_qe cd_background].
    revert E2 E3 E4 E5 E6. clear. intros.
    destruct wl as [w|]; cbn [opt] in E2; [cbn [app do_adds do_add]; rewrite E2|injection E2 as <-; cbn [app]];
    (destruct ge as [[[dist b] c]|]; cbn [opt] in E3; [cbn [app do_adds do_add]; rewrite E3|injection E3 as <-; cbn [app]]);
    (destruct mk as [m|]; cbn [opt] in E4; [cbn [app do_adds do_add]; rewrite E4|injection E4 as <-; cbn [app]]);
    (destruct qe as [q|]; cbn [opt] in E5; [cbn [app do_adds do_add]; rewrite E5|injection E5 as <-; cbn [app]]);
    (destruct bg as [a|]; cbn [opt] in E6; [cbn [app do_adds do_add]; rewrite E6|injection E6 as <-; cbn [app]]); reflexivity. }
  exists f6. split.
  { unfold base_to_cxi. cbn [cd_entry cd_wavelength cd_geometry cd_mask cd_qe cd_background].
    rewrite E1'; cbn [rbind]; rewrite E2; cbn [rbind]; rewrite E3; cbn [rbind]; rewrite E4; cbn [rbind]; rewrite E5; cbn [rbind]. exact E6. }
  pose proof (C16_read_what_was_added _ _ _ DA) as (R1 & R2 & R3 & R4 & _ & _ & _ & R8).
  assert (IN : forall x, In x (adds_of (mkCd en wl ge mk qe bg)) -> In x (adds_of (mkCd en wl ge mk qe bg))) by auto.
  split.
  { intros l' k s -> Hin. rewrite <- (N1 k (MStr s) Hin : find ["entry_1"; k] f1 = Some (NBytes s)).
    destruct HW as [_ HF]. rewrite Forall_forall in HF. destruct (HF _ Hin) as [HR _]. cbn [fst] in HR.
    assert (NI : forall W, In W [W_source; W_detector; [det "mask"]; [det "qe_mask"]; [det "data_dark"]] -> ~ In ["entry_1"; k] (W ++ G)).
    { intros W HWW. cbn in HWW. intros HH. apply HR. unfold reserved.
      repeat (destruct HWW as [<-|HWW]; [cbn in HH;
        repeat (destruct HH as [HH|HH]; [first [discriminate HH | injection HH as <-; cbn; tauto]|]); destruct HH|]).
      destruct HWW. }
    rewrite (F6 ["entry_1"; k]) by (apply NI; cbn; tauto). rewrite (F5 ["entry_1"; k]) by (apply NI; cbn; tauto).
    rewrite (F4 ["entry_1"; k]) by (apply NI; cbn; tauto). rewrite (F3 ["entry_1"; k]) by (apply NI; cbn; tauto).
    rewrite (F2 ["entry_1"; k]) by (apply NI; cbn; tauto). reflexivity. }
  unfold adds_of in *. cbn [cd_wavelength cd_geometry cd_mask cd_qe cd_background] in *.
  repeat split.
  - intros w ->. apply R1. rewrite !in_app_iff. cbn. tauto.
  - intros dist b corner ->. apply R8. rewrite !in_app_iff. cbn. tauto.
  - intros s m ->. apply R2. rewrite !in_app_iff. cbn. tauto.
  - intros q ->. apply R3. rewrite !in_app_iff. cbn. tauto.
  - intros a ->. apply R4. rewrite !in_app_iff. cbn. tauto.
Qed.

(** C19 is false for CDataset itself: with a path the file has no entry_1 group, so saving any
    dataset that has something to save raises KeyError, although writing it to an open fresh CXI
    file succeeds. *)
Theorem C19_path_refuted : forall d : cdataset DT,
  (forall l, cd_entry d <> Some l) -> (forall w, cd_wavelength d = Some w -> base_to_cxi_path iso d = Raise KeyError) /\
  (forall g, cd_geometry d = Some g -> base_to_cxi_path iso d = Raise KeyError) /\
  (forall m, cd_mask d = Some m -> base_to_cxi_path iso d = Raise KeyError) /\
  (forall q, cd_qe d = Some q -> base_to_cxi_path iso d = Raise KeyError) /\
  (forall b, cd_background d = Some b -> base_to_cxi_path iso d = Raise KeyError).
Proof.
  intros [en wl ge mk qe bg]. cbn [cd_entry cd_wavelength cd_geometry cd_mask cd_qe cd_background]. intros Hen.
  destruct en as [l|]; [exfalso; now apply (Hen l)|].
  unfold base_to_cxi_path, base_to_cxi, bare_file. cbn [cd_entry cd_wavelength cd_geometry cd_mask cd_qe cd_background opt rbind].
  destruct wl as [w|]; cbn [opt rbind]; [repeat split; intros; reflexivity|].
  destruct ge as [[[di b] c]|]; cbn [opt rbind]; [repeat split; intros; reflexivity || discriminate|].
  destruct mk as [m|]; cbn [opt rbind]; [repeat split; intros; reflexivity || discriminate|].
  destruct qe as [q|]; cbn [opt rbind]; [repeat split; intros; reflexivity || discriminate|].
  destruct bg as [q|]; cbn [opt rbind]; [repeat split; intros; reflexivity || discriminate|].
  repeat split; intros; discriminate.
Qed.
Theorem C19_path_entry_refuted : forall k s l wl ge mk qe bg, is_ascii s = true ->
  base_to_cxi_path iso (mkCd (DT := DT) (Some ((k, MStr s) :: l)) wl ge mk qe bg) = Raise KeyError.
Proof.
  intros. unfold base_to_cxi_path, base_to_cxi, bare_file. cbn [cd_entry opt add_entry_info add_entry1].
  unfold bytes_. rewrite H. reflexivity.
Qed.
End Datasets.
Print Assumptions C17_round_trip.
Print Assumptions C17_missing_wavelength_or_geometry_refuted.
Print Assumptions C24_from_cxi_refuted.
Print Assumptions C18_metadata.
Print Assumptions C18_title_becomes_date_refuted.
Print Assumptions C18_unreadable_title_refuted.
Print Assumptions C19_ptycho_path.
Print Assumptions C19_open_file.
Print Assumptions C19_path_refuted.
Print Assumptions C19_path_entry_refuted.

(** Entries that can be written (C18, C19). *)
Example C19_case : writable_entry (DT := nat) (fun _ => "2024-01-01") [("title", MStr "run 7"); ("start_time", MDate 3)].
Proof.
  split.
  - repeat constructor; cbn; intuition discriminate.
  - repeat constructor; cbn; intuition discriminate.
Qed.
(** A dataset with every optional field meets the hypotheses of C17. *)
Example C17_case : exists d, c_shape (pd_patterns d) = ([1] ++ [1; 2])%list /\ float32_dataset (DT := nat) d 1%R 1%R [[0; -1]; [-1; 0]; [0; 0]]%R None /\
  cd_mask (pd_base d) <> None /\ pd_intensities d <> None /\ cd_background (pd_base d) <> None /\ non_negative (pd_patterns d).
Proof.
  exists (mkPd (mkCd (Some [("title", MStr "scan")]) (Some 1%R) (Some (1%R, [[0; -1]; [-1; 0]; [0; 0]]%R, None)) (Some ([1; 2], [true; false]))
                 (Some (mkC CF32 [1; 2] [Some 1; Some 1]%R)) (Some (mkC CF32 [1; 2] [Some 0; Some 1]%R)))
                 (mkC CF32 [1; 1; 2] [None; Some 1%R]) (Some ["translation"; "y"; "x"]) (mkC CF32 [1; 3] [Some 0; Some (-1); Some 0]%R)
                 (Some (mkC CF32 [1] [Some 1%R]))).
  assert (A : is_f32 0) by exact f32_0. assert (B : is_f32 1) by exact f32_1.
  assert (C : is_f32 (-1)) by (unfold is_f32; replace (-1)%R with (- (1))%R by lra; rewrite f32_opp; f_equal; exact B).
  split; [reflexivity|]. split; [|cbn; repeat split; try discriminate].
  - unfold float32_dataset. cbn [pd_base cd_wavelength cd_geometry cd_qe cd_background pd_patterns pd_axes pd_translations pd_intensities].
    repeat match goal with |- _ /\ _ => split end; auto.
    + repeat eexists.
    + intros q Q. injection Q as <-. split; [reflexivity|]. cbn. intros x [Q|[Q|[]]]; injection Q as <-; exact B.
    + intros q Q. injection Q as <-. split; [split; [reflexivity|]|exists 1, 2; split; reflexivity].
      cbn. intros x [Q|[Q|[]]]; injection Q as <-; assumption.
    + split; [reflexivity|]. cbn. intros x [Q|[Q|[]]]; [discriminate|injection Q as <-; exact B].
    + intros n Q. injection Q as <-. split; [discriminate|exact C16_axes_case].
    + split; [reflexivity|]. cbn. intros x [Q|[Q|[Q|[]]]]; injection Q as <-; assumption.
    + intros q Q. injection Q as <-. split; [reflexivity|]. cbn. intros x [Q|[]]; injection Q as <-; exact B.
  - intros x [Q|[Q|[]]]; [discriminate|injection Q as <-; lra].
Qed.
