(** Lemmas about Model_Dataset. *)
From Verif Require Import Base FinSum Model_Dataset Spec_Dataset.

(** ---- boolean selection ---- *)
Definition bsel {A} (mask : list bool) (l : list A) : list A := map snd (filter fst (combine mask l)).

Lemma seq_shift_map n s : seq (S s) n = map S (seq s n).
Proof. symmetry. apply seq_shift. Qed.

Lemma filter_map_S (f : nat -> bool) l : filter f (map S l) = map S (filter (fun i => f (S i)) l).
Proof. induction l as [|x l IH]; cbn; [reflexivity|]. destruct (f (S x)); cbn; now rewrite IH. Qed.

Lemma bsel_idx {A} mask : forall (l : list A), length mask = length l ->
  map Some (bsel mask l) = map (nth_error l) (filter (fun k => nth k mask false) (seq 0 (length l))).
Proof.
  induction mask as [|b mask IH]; intros [|x l] H; try discriminate; [reflexivity|].
  injection H as H. unfold bsel in *. cbn [combine filter fst length seq nth].
  rewrite seq_shift_map, filter_map_S. cbn [nth].
  destruct b; cbn [map snd nth_error]; [f_equal|]; rewrite (map_map S (nth_error (x :: l))); cbn [nth_error]; apply IH, H.
Qed.

Lemma map_Some_nth {A B} (a : list A) (f : B -> option A) idx :
  map Some a = map f idx -> forall k, nth_error a k = match nth_error idx k with Some i => f i | None => None end.
Proof.
  revert idx. induction a as [|x a IH]; intros [|i idx] H k; try discriminate.
  - destruct k; reflexivity.
  - injection H as H1 H2. destruct k; cbn; [exact H1|]. now apply IH.
Qed.

Section DS.
Context {Meta : Type}.
Notation ds := (dataset Meta).

Lemma exposures_rows (d : ds) (idx : list nat) pats trs ints :
  consistent d ->
  map Some pats = map (nth_error (ds_patterns d)) idx ->
  map Some trs = map (nth_error (ds_translations d)) idx ->
  (match ds_intensities d, ints with
   | Some l, Some l' => map Some l' = map (nth_error l) idx
   | None, None => True | _, _ => False end) ->
  exposures (with_rows d pats trs ints) = map (exposure d) idx /\ consistent (with_rows d pats trs ints).
Proof.
  intros [C1 C2] Hp Ht Hi.
  assert (Lp : length pats = length idx) by (rewrite <- (map_length Some pats), Hp; apply map_length).
  assert (Lt : length trs = length idx) by (rewrite <- (map_length Some trs), Ht; apply map_length).
  split.
  - unfold exposures. cbn [with_rows ds_patterns]. rewrite Lp.
    assert (E : forall k, k < length idx -> exposure (with_rows d pats trs ints) k =
                match nth_error idx k with Some i => exposure d i | None => None end).
    { intros k Hk. unfold exposure. cbn [with_rows ds_patterns ds_translations ds_intensities].
      rewrite (map_Some_nth _ _ _ Hp k), (map_Some_nth _ _ _ Ht k).
      destruct (nth_error idx k) as [i|] eqn:Ei; [|reflexivity].
      destruct (nth_error (ds_patterns d) i), (nth_error (ds_translations d) i); try reflexivity.
      destruct (ds_intensities d) as [l|], ints as [l'|]; try contradiction; [|reflexivity].
      rewrite (map_Some_nth _ _ _ Hi k), Ei. reflexivity. }
    rewrite (map_ext_in _ (fun k => match nth_error idx k with Some i => exposure d i | None => None end))
      by (intros k Hk; apply E; apply in_seq in Hk; lia).
    clear. induction idx as [|i idx IH]; [reflexivity|]. cbn [length seq map nth_error].
    rewrite seq_shift_map, map_map. f_equal. exact IH.
  - split; cbn [with_rows ds_patterns ds_translations ds_intensities]; [congruence|].
    destruct ints as [l'|]; [|exact I]. destruct (ds_intensities d) as [l|]; [|contradiction].
    rewrite <- (map_length Some l'), Hi, map_length. congruence.
Qed.

Lemma bindex_ok {A} mask (l : list A) : length mask = length l -> bindex mask l = Ok (bsel mask l).
Proof. intros H. unfold bindex. rewrite (proj2 (Nat.eqb_eq _ _) H). reflexivity. Qed.

Lemma ds_select_ok (d : ds) mask : consistent d -> length mask = length (ds_patterns d) ->
  exists d', ds_select mask d = Ok d' /\ common d' = common d /\ consistent d' /\
    exposures d' = map (exposure d) (indices (fun k => nth k mask false) (length (ds_patterns d))).
Proof.
  intros HC HL. pose proof HC as [C1 C2]. unfold ds_select.
  rewrite bindex_ok by congruence. cbn [rbind]. rewrite bindex_ok by congruence. cbn [rbind].
  pose proof (bsel_idx mask (ds_patterns d) HL) as Hp.
  pose proof (bsel_idx mask (ds_translations d) ltac:(congruence)) as Ht. rewrite C1 in Ht.
  destruct (ds_intensities d) as [l|] eqn:Ei; cbn [bindex_opt rbind rmap].
  - rewrite bindex_ok by congruence. cbn [rmap rbind].
    pose proof (bsel_idx mask l ltac:(congruence)) as Hl. rewrite C2 in Hl.
    destruct (exposures_rows d _ (bsel mask (ds_patterns d)) (bsel mask (ds_translations d))
                (Some (bsel mask l)) HC Hp Ht) as [E1 E2]; [now rewrite Ei|].
    eexists. split; [reflexivity|]. split; [reflexivity|]. split; [exact E2|exact E1].
  - destruct (exposures_rows d _ (bsel mask (ds_patterns d)) (bsel mask (ds_translations d))
                None HC Hp Ht) as [E1 E2]; [now rewrite Ei|].
    eexists. split; [reflexivity|]. split; [reflexivity|]. split; [exact E2|exact E1].
Qed.

Lemma remove_ok (d : ds) rm : consistent d -> length rm = length (ds_patterns d) ->
  exists d', remove_translations_mask rm d = (d', Ok tt) /\ common d' = common d /\ consistent d' /\
    exposures d' = map (exposure d) (indices (fun k => negb (nth k rm false)) (length (ds_patterns d))).
Proof.
  intros HC HL. pose proof HC as [C1 C2].
  destruct (ds_select_ok d (map negb rm) HC ltac:(now rewrite map_length)) as (d' & E1 & E2 & E3 & E4).
  unfold ds_select in E1. unfold remove_translations_mask.
  rewrite (proj2 (Nat.eqb_eq _ _) (eq_trans HL (eq_sym C1))). cbn [negb].
  rewrite bindex_ok in E1 by (rewrite map_length; congruence). cbn [rbind] in E1.
  rewrite bindex_ok in E1 by (rewrite map_length; congruence). cbn [rbind] in E1.
  rewrite bindex_ok by (rewrite map_length; congruence).
  rewrite bindex_ok by (rewrite map_length; congruence).
  destruct (bindex_opt (map negb rm) (ds_intensities d)) as [ints|e]; [|discriminate].
  cbn [rbind] in E1. injection E1 as <-. eexists. split; [reflexivity|]. split; [exact E2|]. split; [exact E3|].
  rewrite E4. f_equal. unfold indices. apply filter_ext_in. intros k Hk. apply in_seq in Hk.
  rewrite (nth_indep _ false (negb false)) by (rewrite map_length; lia). now rewrite map_nth.
Qed.

(** ---- repeat_cut ---- *)
Lemma nth_concat_repeat (sel : list bool) m : forall k, k < m * length sel ->
  nth k (concat (repeat sel m)) false = nth (k mod length sel) sel false.
Proof.
  induction m as [|m IH]; intros k Hk; [lia|]. cbn [repeat concat].
  destruct (Nat.lt_ge_cases k (length sel)) as [H|H].
  - rewrite app_nth1 by lia. now rewrite Nat.mod_small.
  - rewrite app_nth2 by lia. rewrite IH by (cbn in Hk; lia).
    f_equal. replace k with ((k - length sel) + 1 * length sel) at 2 by lia.
    symmetry. apply Nat.mod_add. intros E. rewrite E in *. lia.
Qed.
Lemma ceil_mul (n w : nat) : 1 <= w -> n <= (n + w - 1) / w * w.
Proof.
  intros Hw. pose proof (Nat.div_mod (n + w - 1) w ltac:(lia)) as E.
  pose proof (Nat.mod_upper_bound (n + w - 1) w ltac:(lia)). nia.
Qed.
Lemma concat_repeat_length (sel : list bool) m : length (concat (repeat sel m)) = m * length sel.
Proof. induction m as [|m IH]; [reflexivity|]. cbn. rewrite app_length, IH. reflexivity. Qed.
Lemma repeat_cut_spec sel n : sel <> [] ->
  length (repeat_cut sel n) = n /\
  forall k, k < n -> nth k (repeat_cut sel n) false = nth (k mod length sel) sel false.
Proof.
  intros Hne. assert (Hl : 1 <= length sel) by (destruct sel; [contradiction|cbn; lia]).
  pose proof (ceil_mul n (length sel) Hl) as Hc.
  unfold repeat_cut. split.
  - rewrite firstn_length, concat_repeat_length. lia.
  - intros k Hk. rewrite <- (nth_concat_repeat sel ((n + length sel - 1) / length sel)) by lia.
    rewrite <- (firstn_skipn n (concat _)) at 2. rewrite app_nth1; [reflexivity|].
    rewrite firstn_length, concat_repeat_length. lia.
Qed.

Lemma indices_ext b1 b2 n : (forall k, k < n -> b1 k = b2 k) -> indices b1 n = indices b2 n.
Proof. intros H. apply filter_ext_in. intros k Hk. apply in_seq in Hk. apply H. lia. Qed.

Lemma filter_partition {A} (f : A -> bool) l :
  Permutation (filter f l ++ filter (fun x => negb (f x)) l) l.
Proof.
  induction l as [|x l IH]; [apply Permutation_refl|]. cbn [filter]. destruct (f x); cbn [negb].
  - cbn. now constructor.
  - rewrite <- Permutation_middle. now constructor.
Qed.

Lemma split_ok sel (d : ds) : sel <> [] -> consistent d ->
  let b k := nth (k mod length sel) sel false in
  exists d1 d2, split sel d = Ok (d1, d2) /\
    common d1 = common d /\ common d2 = common d /\ consistent d1 /\ consistent d2 /\
    exposures d1 = map (exposure d) (indices b (ds_len d)) /\
    exposures d2 = map (exposure d) (indices (fun k => negb (b k)) (ds_len d)).
Proof.
  intros Hs HC b. destruct (repeat_cut_spec sel (ds_len d) Hs) as [L N].
  destruct (ds_select_ok d (repeat_cut sel (ds_len d)) HC L) as (d1 & A1 & A2 & A3 & A4).
  destruct (ds_select_ok d (map negb (repeat_cut sel (ds_len d))) HC) as (d2 & B1 & B2 & B3 & B4);
    [now rewrite map_length|].
  exists d1, d2. unfold split. rewrite A1. cbn [rbind]. rewrite B1. cbn [rbind].
  repeat split; try assumption; try apply A3; try apply B3.
  - rewrite A4. f_equal. apply indices_ext. intros k Hk. now rewrite N.
  - rewrite B4. f_equal. apply indices_ext. intros k Hk.
    rewrite (nth_indep _ false (negb false)) by (rewrite map_length, L; exact Hk).
    rewrite map_nth, N by exact Hk. reflexivity.
Qed.

(** ---- crop ---- *)
Lemma sorted2_spec a b : sorted2 a b = (Rmin a b, Rmax a b).
Proof. unfold sorted2, Rmin, Rmax. destruct (Rle_dec a b); reflexivity. Qed.
Lemma rle_iff a b : rle a b = true <-> (a <= b)%R.
Proof. unfold rle. destruct (Rle_dec a b); split; auto; discriminate. Qed.

Definition inside_roi (roi : R * R * R * R) (tr : R * R * R) : bool :=
  let '(r0, r1, r2, r3) := roi in let '(x, y, _) := tr in
  rle (Rmin r0 r1) x && rle x (Rmax r0 r1) && rle y (Rmax r2 r3) && rle (Rmin r2 r3) y.

Lemma crop_unfold roi (d : ds) :
  crop_translations roi d =
  if existsb (inside_roi roi) (ds_translations d)
  then remove_translations_mask (map (fun tr => negb (inside_roi roi tr)) (ds_translations d)) d
  else (d, Raise ValueError).
Proof.
  destruct roi as [[[r0 r1] r2] r3]. unfold crop_translations. rewrite !sorted2_spec.
  rewrite map_map.
  assert (E : existsb (fun b => b) (map (fun tr : R * R * R => let '(x, y, _) := tr in
        rle (Rmin r0 r1) x && rle x (Rmax r0 r1) && rle y (Rmax r2 r3) && rle (Rmin r2 r3) y) (ds_translations d))
      = existsb (inside_roi (r0, r1, r2, r3)) (ds_translations d)).
  { induction (ds_translations d) as [|tr l IH]; [reflexivity|]. cbn [map existsb]. rewrite IH. reflexivity. }
  rewrite E. reflexivity.
Qed.

(** ---- pad ---- *)
Lemma pad_px_inside {A} h w l r t b (v : A) px i j : i < h -> j < w ->
  pad_px h w (l, r, t, b) v px (t + i) (l + j) = px i j.
Proof.
  intros Hi Hj. unfold pad_px.
  rewrite (proj2 (Nat.leb_le t (t + i))), (proj2 (Nat.ltb_lt (t + i) (t + h))),
    (proj2 (Nat.leb_le l (l + j))), (proj2 (Nat.ltb_lt (l + j) (l + w))) by lia. cbn.
  f_equal; lia.
Qed.
Lemma pad_px_outside {A} h w l r t b (v : A) px i j :
  ~ (t <= i < t + h /\ l <= j < l + w) -> pad_px h w (l, r, t, b) v px i j = v.
Proof.
  intros H. unfold pad_px.
  destruct (Nat.leb_spec t i), (Nat.ltb_spec i (t + h)), (Nat.leb_spec l j), (Nat.ltb_spec j (l + w));
    cbn; try reflexivity. exfalso. apply H. lia.
Qed.

Lemma rsum_window n a m c f : n = a + m + c -> (forall i, ~ (a <= i < a + m) -> f i = 0%R) ->
  rsum n f = rsum m (fun i => f (a + i)).
Proof.
  intros -> H. rewrite !rsum_split.
  rewrite (rsum_zero' a) by (intros; apply H; lia).
  rewrite (rsum_zero' c) by (intros; apply H; lia). lra.
Qed.

Lemma pad_total h w l r t b px :
  total (t + h + b) (l + w + r) (pad_px h w (l, r, t, b) 0%R px) = total h w px.
Proof.
  unfold total. rewrite (rsum_window _ t h b) by
    (try reflexivity; intros i Hi; apply rsum_zero'; intros j _; apply pad_px_outside; tauto).
  apply rsum_ext. intros i Hi.
  rewrite (rsum_window _ l w r) by
    (try reflexivity; intros j Hj; apply pad_px_outside; tauto).
  apply rsum_ext. intros j Hj. now apply pad_px_inside.
Qed.

(** ---- downsample ---- *)
Lemma block_any_spec f px i j :
  block_any f px i j = true <-> exists a b, a < f /\ b < f /\ px (i * f + a) (j * f + b) = true.
Proof.
  unfold block_any. rewrite existsb_exists. split.
  - intros (a & Ha & H). apply existsb_exists in H as (b & Hb & H). apply in_seq in Ha, Hb.
    exists a, b. repeat split; auto; lia.
  - intros (a & b & Ha & Hb & H). exists a. split; [apply in_seq; lia|]. apply existsb_exists.
    exists b. split; [apply in_seq; lia|exact H].
Qed.
Lemma block_all_spec f px i j :
  negb (block_any f (fun i j => negb (px i j)) i j) = true <->
  forall a b, a < f -> b < f -> px (i * f + a) (j * f + b) = true.
Proof.
  rewrite negb_true_iff. split.
  - intros H a b Ha Hb. destruct (px (i * f + a) (j * f + b)) eqn:E; [reflexivity|].
    assert (block_any f (fun i j => negb (px i j)) i j = true); [|congruence].
    apply block_any_spec. exists a, b. rewrite E. auto.
  - intros H. destruct (block_any _ _ _ _) eqn:E; [|reflexivity].
    apply block_any_spec in E as (a & b & Ha & Hb & E). rewrite H in E by assumption. discriminate.
Qed.

Lemma block_sum_ext f p q i j :
  (forall a b, a < f -> b < f -> p (i * f + a) (j * f + b) = q (i * f + a) (j * f + b)) ->
  block_sum f p i j = block_sum f q i j.
Proof. intros H. apply rsum_ext. intros a Ha. apply rsum_ext. intros b Hb. now apply H. Qed.

Lemma block_sum_compose f g px i j :
  block_sum g (block_sum f px) i j = block_sum (f * g) px i j.
Proof.
  unfold block_sum.
  rewrite (Nat.mul_comm f g). rewrite rsum_block. apply rsum_ext. intros a Ha.
  rewrite rsum_swap. apply rsum_ext. intros a' Ha'.
  rewrite rsum_block. apply rsum_ext. intros b Hb. apply rsum_ext. intros b' Hb'.
  f_equal; nia.
Qed.

Lemma block_total f H W px : total H W (block_sum f px) = total (H * f) (W * f) px.
Proof.
  unfold total, block_sum. rewrite rsum_block. apply rsum_ext. intros i Hi.
  rewrite rsum_swap. apply rsum_ext. intros a Ha. now rewrite rsum_block.
Qed.

Lemma downsample_unfold f (d : ds) m bs :
  ds_mask d = Some m -> im_h m = ds_h d -> im_w m = ds_w d -> ds_basis d = Some bs ->
  (forall q, ds_qe_mask d = Some q -> im_h q = ds_h d /\ im_w q = ds_w d) ->
  (forall g, ds_background d = Some g -> im_h g = ds_h d /\ im_w g = ds_w d) ->
  1 <= f <= ds_h d -> f <= ds_w d ->
  downsample f d =
  (mkDs (ds_h d / f) (ds_w d / f)
     (map (fun p => block_sum f (fun i j => b2r (im_px m i j) * p i j)%R) (ds_patterns d))
     (ds_translations d) (ds_intensities d)
     (Some (mkImg (ds_h d / f) (ds_w d / f)
        (match ds_qe_mask d with
         | Some _ => block_any f (im_px m)
         | None => fun i j => negb (block_any f (fun i j => negb (im_px m i j)) i j)
         end)))
     (option_map (fun q => mkImg (ds_h d / f) (ds_w d / f)
        (fun i j => block_sum f (fun i j => b2r (im_px m i j) * im_px q i j) i j / (INR f * INR f))%R)
        (ds_qe_mask d))
     (option_map (fun g => mkImg (ds_h d / f) (ds_w d / f) (block_sum f (im_px g))) (ds_background d))
     (Some (fun i j => bs i j * INR f)%R) (ds_meta d), Ok tt).
Proof.
  intros Hm Hh Hw Hb Hq Hg Hf1 Hf2.
  assert (P : poolable f (ds_h d) (ds_w d) = true).
  { unfold poolable. rewrite (proj2 (Nat.leb_le 1 f)), (proj2 (Nat.leb_le f (ds_h d))),
      (proj2 (Nat.leb_le f (ds_w d))) by lia. reflexivity. }
  unfold downsample, down_patterns. rewrite Hm, Hh, Hw, !Nat.eqb_refl, P. cbn [andb negb then_].
  unfold down_masks. cbn [set_pats ds_mask ds_qe_mask]. rewrite Hm.
  destruct (ds_qe_mask d) as [q|] eqn:Eq.
  - destruct (Hq q eq_refl) as [Q1 Q2]. unfold same_shape. rewrite Hh, Hw, Q1, Q2, !Nat.eqb_refl, P.
    cbn [andb negb then_]. unfold down_basis. cbn [set_masks ds_basis set_pats]. rewrite Hb.
    cbn [then_]. unfold down_background. cbn [set_basis set_masks set_pats ds_background].
    destruct (ds_background d) as [g|] eqn:Eg; cbn [option_map];
      [|unfold set_basis, set_masks, set_pats; cbn; rewrite ?Eg, ?Hh, ?Hw, ?Q1, ?Q2; reflexivity].
    destruct (Hg g eq_refl) as [G1 G2]. rewrite G1, G2, P. cbn [negb].
    unfold set_bg, set_basis, set_masks, set_pats; cbn. rewrite ?Hh, ?Hw, ?Q1, ?Q2. reflexivity.
  - rewrite Hh, Hw, P. cbn [andb negb then_]. unfold down_basis. cbn [set_masks ds_basis set_pats]. rewrite Hb.
    cbn [then_]. unfold down_background. cbn [set_basis set_masks set_pats ds_background].
    destruct (ds_background d) as [g|] eqn:Eg; cbn [option_map];
      [|unfold set_basis, set_masks, set_pats; cbn; rewrite ?Eg, ?Hh, ?Hw, ?Q1, ?Q2; reflexivity].
    destruct (Hg g eq_refl) as [G1 G2]. rewrite G1, G2, P. cbn [negb].
    unfold set_bg, set_basis, set_masks, set_pats; cbn. rewrite ?Hh, ?Hw, ?Q1, ?Q2. reflexivity.
Qed.

End DS.
