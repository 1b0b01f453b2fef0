(** Property theorems about Ptycho2DDataset (C20-C24, C49). *)
From Verif Require Import Base FinSum Model_Dataset Spec_Dataset Proofs_Dataset.

(** A small dataset used to show that hypotheses are met: 3 exposures of 2 x 4 pixels. *)
Definition ex_ds (qe : option (img R)) : dataset nat :=
  mkDs 2 4 [fun i j => INR (i + j); fun i j => 1%R; fun i j => 2%R]
    [(0, 0, 0)%R; (1, 2, 0)%R; (3, 1, 0)%R] (Some [5; 6; 7]%R)
    (Some (mkImg 2 4 (fun i j => negb (Nat.eqb i 0 && Nat.eqb j 0)))) qe
    (Some (mkImg 2 4 (fun _ _ => 1%R))) (Some (fun i j => if Nat.eqb i j then 1%R else 0%R)) 0.
Example ex_ds_consistent qe : consistent (ex_ds qe).
Proof. split; reflexivity. Qed.
Example ex_ds_well_formed : well_formed (ex_ds None).
Proof.
  split; [eexists; split; [reflexivity|split; reflexivity]|]. split; [discriminate|].
  split; [intros g Hg; injection Hg as <-; split; reflexivity|eexists; reflexivity].
Qed.
Example ex_ds_well_formed_qe : well_formed (ex_ds (Some (mkImg 2 4 (fun _ _ => 1%R)))).
Proof.
  split; [eexists; split; [reflexivity|split; reflexivity]|].
  split; [intros g Hg; injection Hg as <-; split; reflexivity|].
  split; [intros g Hg; injection Hg as <-; split; reflexivity|eexists; reflexivity].
Qed.

(** C20: for every consistent dataset of every length, split returns two consistent datasets that
    share everything which is not per exposure; exposure k (pattern, translation, intensity) goes
    to the first or the second according to entry k mod 5000 of the fixed selection, and each
    dataset keeps the original order. *)
Theorem C20_split_assignment : forall Meta sel (d : dataset Meta), sel <> [] -> consistent d ->
  exists d1 d2, split sel d = Ok (d1, d2) /\
    common d1 = common d /\ common d2 = common d /\ consistent d1 /\ consistent d2 /\
    exposures d1 = map (exposure d) (indices (fun k => nth (k mod length sel) sel false) (ds_len d)) /\
    exposures d2 = map (exposure d) (indices (fun k => negb (nth (k mod length sel) sel false)) (ds_len d)).
Proof. intros Meta sel d. exact (split_ok sel d). Qed.
Print Assumptions C20_split_assignment.

(** C20: together the two halves contain every exposure of the original exactly once. *)
Theorem C20_split_partitions : forall Meta sel (d : dataset Meta) d1 d2, sel <> [] -> consistent d ->
  split sel d = Ok (d1, d2) ->
  Permutation (exposures d1 ++ exposures d2) (exposures d) /\
  ds_len d1 + ds_len d2 = ds_len d.
Proof.
  intros Meta sel d d1 d2 Hs HC E. destruct (split_ok sel d Hs HC) as (e1 & e2 & E' & _ & _ & _ & _ & X1 & X2).
  rewrite E in E'. injection E' as <- <-.
  assert (P : Permutation (exposures d1 ++ exposures d2) (exposures d)).
  { rewrite X1, X2, <- map_app. unfold exposures. apply Permutation_map, filter_partition. }
  split; [exact P|]. apply Permutation_length in P. rewrite app_length in P.
  unfold exposures in P. rewrite !map_length, !seq_length in P. exact P.
Qed.
Print Assumptions C20_split_partitions.

(** C20: a dataset whose translations do not match its patterns in number is rejected. *)
Theorem C20_split_mismatch : forall Meta sel (d : dataset Meta), sel <> [] ->
  length (ds_translations d) <> ds_len d -> split sel d = Raise IndexError.
Proof.
  intros Meta sel d Hs H. destruct (repeat_cut_spec sel (ds_len d) Hs) as [L _].
  unfold split, ds_select, bindex. rewrite L.
  destruct (Nat.eqb_spec (ds_len d) (length (ds_translations d))) as [E|E]; [congruence|reflexivity].
Qed.
Print Assumptions C20_split_mismatch.
Example C20_case : exists d1 d2, split [true; false] (ex_ds None) = Ok (d1, d2) /\
  ds_translations d1 = [(0, 0, 0)%R; (3, 1, 0)%R] /\ ds_translations d2 = [(1, 2, 0)%R] /\
  ds_intensities d1 = Some [5; 7]%R /\ ds_intensities d2 = Some [6]%R.
Proof. eexists _, _. split; [reflexivity|]. repeat split. Qed.

(** C21: removing exposures by mask keeps exactly the others, aligned and in order. *)
Theorem C21_remove_keeps_others : forall Meta rm (d : dataset Meta), consistent d ->
  length rm = ds_len d ->
  exists d', remove_translations_mask rm d = (d', Ok tt) /\ common d' = common d /\ consistent d' /\
    exposures d' = map (exposure d) (indices (fun k => negb (nth k rm false)) (ds_len d)).
Proof. intros Meta rm d. exact (remove_ok d rm). Qed.
Print Assumptions C21_remove_keeps_others.

(** C21: a removal mask of the wrong length raises ValueError and changes nothing. *)
Theorem C21_remove_bad_length : forall Meta rm (d : dataset Meta),
  length rm <> length (ds_translations d) -> remove_translations_mask rm d = (d, Raise ValueError).
Proof.
  intros Meta rm d H. unfold remove_translations_mask.
  destruct (Nat.eqb_spec (length rm) (length (ds_translations d))); [contradiction|reflexivity].
Qed.
Print Assumptions C21_remove_bad_length.

(** Position k is inside the region of interest (x1, x2, y1, y2), borders included. *)
Definition in_roi {Meta} (d : dataset Meta) (roi : R * R * R * R) (k : nat) : Prop :=
  let '(r0, r1, r2, r3) := roi in
  exists x y z, nth_error (ds_translations d) k = Some (x, y, z) /\
    (Rmin r0 r1 <= x <= Rmax r0 r1)%R /\ (Rmin r2 r3 <= y <= Rmax r2 r3)%R.

Lemma inside_roi_iff {Meta} (d : dataset Meta) roi k tr :
  nth_error (ds_translations d) k = Some tr ->
  (inside_roi roi tr = true <-> in_roi d roi k).
Proof.
  intros E. destruct roi as [[[r0 r1] r2] r3], tr as [[x y] z]. unfold inside_roi, in_roi.
  rewrite !andb_true_iff, !rle_iff. split.
  - intros H. exists x, y, z. tauto.
  - intros (x' & y' & z' & E' & H). rewrite E in E'. injection E' as <- <- <-. tauto.
Qed.

(** C21: crop_translations keeps exactly the exposures whose position lies in the inclusive
    region, aligned and in the original order, provided there is at least one ... *)
Theorem C21_crop_keeps_roi : forall Meta roi (d : dataset Meta), consistent d ->
  (exists k, in_roi d roi k) ->
  exists d' keep, crop_translations roi d = (d', Ok tt) /\ common d' = common d /\ consistent d' /\
    exposures d' = map (exposure d) (indices keep (ds_len d)) /\
    forall k, k < ds_len d -> (keep k = true <-> in_roi d roi k).
Proof.
  intros Meta roi d HC [k0 Hk0]. pose proof HC as [C1 C2]. rewrite crop_unfold.
  assert (Hex : existsb (inside_roi roi) (ds_translations d) = true).
  { apply existsb_exists. assert (exists tr, nth_error (ds_translations d) k0 = Some tr) as [tr Htr].
    { destruct roi as [[[? ?] ?] ?]. destruct Hk0 as (x & y & z & E & _). eauto. }
    exists tr. split; [eapply nth_error_In; eauto|]. now apply (inside_roi_iff d roi k0). }
  rewrite Hex.
  destruct (remove_ok d (map (fun tr => negb (inside_roi roi tr)) (ds_translations d)) HC)
    as (d' & E1 & E2 & E3 & E4); [rewrite map_length; exact C1|].
  exists d'. eexists. split; [exact E1|]. split; [exact E2|]. split; [exact E3|]. split; [exact E4|].
  intros k Hk. unfold ds_len in Hk.
  destruct (nth_error (ds_translations d) k) as [tr|] eqn:E.
  - rewrite <- (inside_roi_iff d roi k tr E).
    rewrite (nth_indep _ false (negb (inside_roi roi tr))) by (rewrite map_length, C1; exact Hk).
    rewrite (map_nth (fun tr => negb (inside_roi roi tr))), (nth_error_nth _ _ _ E), negb_involutive. tauto.
  - apply nth_error_None in E. lia.
Qed.
Print Assumptions C21_crop_keeps_roi.

(** ... an empty selection raises ValueError and changes nothing ... *)
Theorem C21_crop_empty : forall Meta roi (d : dataset Meta),
  ~ (exists k, in_roi d roi k) -> crop_translations roi d = (d, Raise ValueError).
Proof.
  intros Meta roi d H. rewrite crop_unfold.
  destruct (existsb (inside_roi roi) (ds_translations d)) eqn:E; [|reflexivity].
  apply existsb_exists in E as (tr & Hin & E). apply In_nth_error in Hin as [k Hk].
  exfalso. apply H. exists k. now apply (inside_roi_iff d roi k tr Hk).
Qed.
Print Assumptions C21_crop_empty.

(** ... and the corners may be given in any order. *)
Theorem C21_crop_corner_order : forall Meta x1 x2 y1 y2 (d : dataset Meta),
  crop_translations (x2, x1, y1, y2) d = crop_translations (x1, x2, y1, y2) d /\
  crop_translations (x1, x2, y2, y1) d = crop_translations (x1, x2, y1, y2) d.
Proof.
  intros. unfold crop_translations. rewrite !sorted2_spec.
  rewrite (Rmin_comm x2 x1), (Rmax_comm x2 x1), (Rmin_comm y2 y1), (Rmax_comm y2 y1). auto.
Qed.
Print Assumptions C21_crop_corner_order.
Example C21_case : consistent (ex_ds None) /\ in_roi (ex_ds None) (3, 1, 1, 2)%R 2.
Proof.
  split; [apply ex_ds_consistent|]. exists 3%R, 1%R, 0%R. split; [reflexivity|].
  unfold Rmin, Rmax. repeat destruct (Rle_dec _ _); lra.
Qed.

(** C21, "invalid selections leave the dataset unchanged" fails for a dataset whose intensities
    do not match in number: patterns and translations are already cut when the error is raised. *)
Theorem C21_inconsistent_partial_update_refuted :
  exists (d : dataset nat) rm d', length rm = length (ds_translations d) /\
    length (ds_translations d) = ds_len d /\
    remove_translations_mask rm d = (d', Raise IndexError) /\
    ds_len d' <> ds_len d /\ ds_translations d' <> ds_translations d.
Proof.
  exists (mkDs 1 1 [fun _ _ => 1%R; fun _ _ => 2%R] [(0,0,0)%R; (1,1,0)%R] (Some [1%R]) None None None None 0),
    [true; false]. eexists. split; [reflexivity|]. split; [reflexivity|]. split; [reflexivity|].
  split; [cbn; lia|]. cbn. discriminate.
Qed.
Print Assumptions C21_inconsistent_partial_update_refuted.

(** C22: pad keeps every pattern, translation, intensity; each measured pixel (i, j) is found at
    (top + i, left + j), every other pixel of the enlarged array has the padding value. *)
Theorem C22_pad_patterns : forall Meta a v mk (d : dataset Meta),
  let '(l, r, t, b) := pad_amounts a in
  let d' := pad a v mk d in
  ds_h d' = t + ds_h d + b /\ ds_w d' = l + ds_w d + r /\
  ds_translations d' = ds_translations d /\ ds_intensities d' = ds_intensities d /\
  ds_len d' = ds_len d /\
  forall k p, nth_error (ds_patterns d) k = Some p ->
  exists p', nth_error (ds_patterns d') k = Some p' /\
    (forall i j, i < ds_h d -> j < ds_w d -> p' (t + i) (l + j) = p i j) /\
    (forall i j, ~ (t <= i < t + ds_h d /\ l <= j < l + ds_w d) -> p' i j = v) /\
    (v = 0%R -> total (ds_h d') (ds_w d') p' = total (ds_h d) (ds_w d) p).
Proof.
  intros Meta a v mk d. unfold pad. destruct (pad_amounts a) as [[[l r] t] b]. cbn.
  do 4 (split; [reflexivity|]). split; [unfold ds_len; cbn; apply map_length|].
  intros k p Hk. exists (pad_px (ds_h d) (ds_w d) (l, r, t, b) v p).
  split; [apply map_nth_error, Hk|]. split; [intros; now apply pad_px_inside|].
  split; [intros; now apply pad_px_outside|]. intros ->. apply pad_total.
Qed.
Print Assumptions C22_pad_patterns.

(** C22: the three forms of the argument. *)
Theorem C22_pad_argument_forms : forall n x y l r t b,
  pad_amounts (PadInt n) = pad_amounts (Pad4 n n n n) /\
  pad_amounts (Pad2 x y) = pad_amounts (Pad4 x x y y) /\
  pad_amounts (Pad4 l r t b) = (l, r, t, b).
Proof. intros. repeat split. Qed.
Print Assumptions C22_pad_argument_forms.

(** C22: the mask and the background are padded alike. *)
Theorem C22_pad_mask_background : forall Meta a v mk (d : dataset Meta),
  let '(l, r, t, b) := pad_amounts a in
  let d' := pad a v mk d in
  (forall m, ds_mask d = Some m -> exists m', ds_mask d' = Some m' /\
     im_h m' = t + im_h m + b /\ im_w m' = l + im_w m + r /\
     (forall i j, i < im_h m -> j < im_w m -> im_px m' (t + i) (l + j) = im_px m i j) /\
     (forall i j, ~ (t <= i < t + im_h m /\ l <= j < l + im_w m) -> im_px m' i j = negb mk)) /\
  (forall g, ds_background d = Some g -> exists g', ds_background d' = Some g' /\
     im_h g' = t + im_h g + b /\ im_w g' = l + im_w g + r /\
     (forall i j, i < im_h g -> j < im_w g -> im_px g' (t + i) (l + j) = im_px g i j) /\
     (forall i j, ~ (t <= i < t + im_h g /\ l <= j < l + im_w g) -> im_px g' i j = 0%R)).
Proof.
  intros Meta a v mk d. unfold pad. destruct (pad_amounts a) as [[[l r] t] b]. cbn [ds_mask ds_background]. split.
  - intros m ->. eexists. split; [reflexivity|]. cbn [pad_img im_h im_w im_px]. do 2 (split; [reflexivity|]).
    split; [intros; now apply (pad_px_inside _ _ l r t b)|intros; now apply (pad_px_outside _ _ l r t b)].
  - intros m ->. eexists. split; [reflexivity|]. cbn [pad_img im_h im_w im_px]. do 2 (split; [reflexivity|]).
    split; [intros; now apply (pad_px_inside _ _ l r t b)|intros; now apply (pad_px_outside _ _ l r t b)].
Qed.
Print Assumptions C22_pad_mask_background.

(** C22: without a quantum-efficiency mask the padded dataset is as well formed as before, so
    downsampling it works. *)
Theorem C22_pad_stays_usable : forall Meta a v mk (d : dataset Meta),
  well_formed d -> ds_qe_mask d = None -> well_formed (pad a v mk d).
Proof.
  intros Meta a v mk d [(m & Em & Hm1 & Hm2) [_ [Hg [bs Hb]]]] Eq. unfold pad.
  destruct (pad_amounts a) as [[[l r] t] b] eqn:Ea. split; [|split; [|split]]; cbn.
  - eexists. rewrite Em. split; [reflexivity|]. cbn. now rewrite Hm1, Hm2.
  - rewrite Eq. discriminate.
  - intros g' E. destruct (ds_background d) as [g|]; [|discriminate]. injection E as <-.
    destruct (Hg g eq_refl) as [-> ->]. cbn. auto.
  - eauto.
Qed.
Print Assumptions C22_pad_stays_usable.

(** C22, full claim refuted: the quantum-efficiency mask is not padded, so a padded dataset is not
    usable any more; its downsample raises RuntimeError after having replaced the patterns. *)
Theorem C22_pad_breaks_qe_mask_refuted : forall Meta a v mk f (d : dataset Meta) q,
  well_formed d -> ds_qe_mask d = Some q -> pad_amounts a <> (0, 0, 0, 0) -> 1 <= f <= ds_h d -> f <= ds_w d ->
  ~ well_formed (pad a v mk d) /\
  exists d', downsample f (pad a v mk d) = (d', Raise RuntimeError) /\
    ds_h d' = ds_h (pad a v mk d) / f /\ ds_mask d' = ds_mask (pad a v mk d).
Proof.
  intros Meta a v mk f d q [(m & Em & Hm1 & Hm2) [Hq [Hg [bs Hb]]]] Eq Ha Hf1 Hf2.
  destruct (Hq q Eq) as [Q1 Q2]. unfold pad. destruct (pad_amounts a) as [[[l r] t] b] eqn:Ea. split.
  - intros [_ [W _]]. cbn in W. destruct (W q Eq) as [W1 W2]. apply Ha.
    assert (t = 0 /\ b = 0 /\ l = 0 /\ r = 0) as (-> & -> & -> & ->) by lia. reflexivity.
  - unfold downsample, down_patterns. cbn [ds_mask ds_h ds_w]. rewrite Em. cbn [option_map pad_img im_h im_w].
    rewrite Hm1, Hm2, !Nat.eqb_refl. cbn [andb negb].
    assert (P : poolable f (t + ds_h d + b) (l + ds_w d + r) = true).
    { unfold poolable. rewrite (proj2 (Nat.leb_le 1 f)), (proj2 (Nat.leb_le f _)), (proj2 (Nat.leb_le f _)) by lia.
      reflexivity. }
    rewrite P. cbn [negb then_]. unfold down_masks. cbn [set_pats ds_mask ds_qe_mask]. rewrite Eq.
    unfold same_shape. cbn [pad_img im_h im_w]. rewrite Q1, Q2.
    assert (F : Nat.eqb (t + ds_h d + b) (ds_h d) && Nat.eqb (l + ds_w d + r) (ds_w d) = false).
    { destruct (Nat.eqb_spec (t + ds_h d + b) (ds_h d)), (Nat.eqb_spec (l + ds_w d + r) (ds_w d));
        try reflexivity. exfalso. apply Ha.
      assert (t = 0 /\ b = 0 /\ l = 0 /\ r = 0) as (-> & -> & -> & ->) by lia. reflexivity. }
    rewrite ?Hm1, ?Hm2, F. cbn [negb then_]. eexists. split; [reflexivity|]. cbn. auto.
Qed.
Print Assumptions C22_pad_breaks_qe_mask_refuted.
Example C22_refuted_hypotheses_met :
  well_formed (ex_ds (Some (mkImg 2 4 (fun _ _ => 1%R)))) /\ pad_amounts (PadInt 2) <> (0, 0, 0, 0).
Proof. split; [apply ex_ds_well_formed_qe|discriminate]. Qed.
Example C22_case : well_formed (pad (PadInt 3) 0%R true (ex_ds None)) /\
  exists d', downsample 2 (pad (PadInt 3) 0%R true (ex_ds None)) = (d', Ok tt) /\ ds_h d' = 4 /\ ds_w d' = 5.
Proof.
  split; [apply C22_pad_stays_usable; [apply ex_ds_well_formed|reflexivity]|].
  eexists. split; [reflexivity|]. split; reflexivity.
Qed.

(** The image after binning: pixel (i, j) of [new] against the f x f block of [old]. *)
Definition sums_unmasked {Meta} (d : dataset Meta) f (old new : nat -> nat -> R) i j : Prop :=
  new i j = rsum f (fun a => rsum f (fun b =>
    if kept d (i * f + a) (j * f + b) then old (i * f + a) (j * f + b) else 0%R)).
Definition block_kept {Meta} (d : dataset Meta) f i j : Prop :=
  forall a b, a < f -> b < f -> kept d (i * f + a) (j * f + b) = true.
Definition block_touched {Meta} (d : dataset Meta) f i j : Prop :=
  exists a b, a < f /\ b < f /\ kept d (i * f + a) (j * f + b) = true.

(** C23: downsample succeeds on every well-formed dataset at least as large as the factor.  The
    shape is divided, each new pixel is the sum of the unmasked counts in its block; without a
    quantum-efficiency mask a pixel is kept iff its whole block was kept, with one iff some pixel
    of its block was kept and the new efficiency is the block mean of the efficiency of kept
    pixels; the background is summed over the block and the detector basis multiplied by f.
    Nothing else changes. *)
Theorem C23_downsample : forall Meta f (d : dataset Meta), well_formed d ->
  1 <= f <= ds_h d -> f <= ds_w d ->
  exists d', downsample f d = (d', Ok tt) /\ well_formed d' /\
    ds_h d' = ds_h d / f /\ ds_w d' = ds_w d / f /\
    ds_translations d' = ds_translations d /\ ds_intensities d' = ds_intensities d /\
    ds_meta d' = ds_meta d /\ ds_len d' = ds_len d /\
    (forall k p, nth_error (ds_patterns d) k = Some p ->
       exists p', nth_error (ds_patterns d') k = Some p' /\ forall i j, sums_unmasked d f p p' i j) /\
    (ds_qe_mask d = None -> ds_qe_mask d' = None /\
       forall i j, kept d' i j = true <-> block_kept d f i j) /\
    (forall q, ds_qe_mask d = Some q ->
       (forall i j, kept d' i j = true <-> block_touched d f i j) /\
       exists q', ds_qe_mask d' = Some q' /\
         forall i j, (im_px q' i j * (INR f * INR f))%R = rsum f (fun a => rsum f (fun b =>
           if kept d (i * f + a) (j * f + b) then im_px q (i * f + a) (j * f + b) else 0%R))) /\
    (ds_background d = None -> ds_background d' = None) /\
    (forall g, ds_background d = Some g -> exists g', ds_background d' = Some g' /\
         forall i j, im_px g' i j = rsum f (fun a => rsum f (fun b => im_px g (i * f + a) (j * f + b)))) /\
    (forall bs, ds_basis d = Some bs -> exists bs', ds_basis d' = Some bs' /\
         forall i j, bs' i j = (bs i j * INR f)%R).
Proof.
  intros Meta f d [(m & Em & Hm1 & Hm2) [Hq [Hg [bs Hb]]]] Hf1 Hf2.
  rewrite (downsample_unfold f d m bs) by assumption. eexists. split; [reflexivity|].
  assert (Hf0 : (INR f * INR f <> 0)%R) by (pose proof (lt_0_INR f ltac:(lia)); nra).
  assert (K : forall i j, kept d i j = im_px m i j) by (intros; unfold kept; now rewrite Em).
  assert (B : forall (x : nat -> nat -> R) i j,
    block_sum f (fun i j => b2r (im_px m i j) * x i j)%R i j =
    rsum f (fun a => rsum f (fun b => if kept d (i * f + a) (j * f + b) then x (i * f + a) (j * f + b) else 0%R))).
  { intros x i j. apply rsum_ext. intros a Ha. apply rsum_ext. intros b Hb'. rewrite K.
    unfold b2r. destruct (im_px m _ _); lra. }
  split.
  { split; [eexists; split; [reflexivity|split; reflexivity]|]. split.
    - cbn. intros q' E. destruct (ds_qe_mask d); [|discriminate]. injection E as <-. split; reflexivity.
    - split; [|cbn; eauto]. cbn. intros g' E. destruct (ds_background d); [|discriminate]. injection E as <-. split; reflexivity. }
  cbn [ds_h ds_w ds_translations ds_intensities ds_meta ds_patterns ds_qe_mask ds_background ds_basis].
  do 5 (split; [reflexivity|]). split; [unfold ds_len; cbn; apply map_length|]. split.
  { intros k p Hk. eexists. split; [apply map_nth_error, Hk|]. intros i j. apply B. }
  split.
  { intros ->. split; [reflexivity|]. intros i j. unfold kept at 1. cbn [ds_mask im_px].
    rewrite block_all_spec. unfold block_kept. split; intros H a b Ha Hb'; specialize (H a b Ha Hb'); now rewrite K in *. }
  split.
  { intros q Eq. rewrite Eq. split.
    - intros i j. unfold kept at 1. cbn [ds_mask im_px]. rewrite block_any_spec. unfold block_touched.
      split; intros (a & b & Ha & Hb' & H); exists a, b; now rewrite K in *.
    - eexists. split; [reflexivity|]. intros i j. cbn [im_px]. rewrite B. field.
      intros E. apply Hf0. rewrite E. lra. }
  split; [intros ->; reflexivity|]. split.
  { intros g Eg. rewrite Eg. eexists. split; [reflexivity|]. reflexivity. }
  intros bs0 Eb. rewrite Hb in Eb. injection Eb as <-. eexists. split; reflexivity.
Qed.
Print Assumptions C23_downsample.

(** C23: the values of masked pixels never influence the downsampled patterns. *)
Theorem C23_masked_values_irrelevant : forall Meta f (d e : dataset Meta) d' e',
  well_formed d -> well_formed e -> ds_h e = ds_h d -> ds_w e = ds_w d -> ds_mask e = ds_mask d ->
  ds_len e = ds_len d -> 1 <= f <= ds_h d -> f <= ds_w d ->
  (forall k p q, nth_error (ds_patterns d) k = Some p -> nth_error (ds_patterns e) k = Some q ->
     forall i j, i < ds_h d -> j < ds_w d -> kept d i j = true -> p i j = q i j) ->
  downsample f d = (d', Ok tt) -> downsample f e = (e', Ok tt) ->
  forall k p q, nth_error (ds_patterns d') k = Some p -> nth_error (ds_patterns e') k = Some q ->
    forall i j, i < ds_h d' -> j < ds_w d' -> p i j = q i j.
Proof.
  intros Meta f d e d' e' Wd We Hh Hw Hmk Hlen Hf1 Hf2 Heq Ed Ee k p q Hp Hq i j Hi Hj.
  destruct (C23_downsample Meta f d Wd Hf1 Hf2) as (d1 & E1 & _ & Hh1 & Hw1 & _ & _ & _ & L1 & P1 & _).
  destruct (C23_downsample Meta f e We ltac:(lia) ltac:(lia)) as (e1 & E2 & _ & _ & _ & _ & _ & _ & L2 & P2 & _).
  rewrite Ed in E1. injection E1 as <-. rewrite Ee in E2. injection E2 as <-.
  assert (Hk : k < ds_len d) by (rewrite <- L1; apply nth_error_Some; unfold ds_len; congruence).
  destruct (nth_error (ds_patterns d) k) as [p0|] eqn:E0; [|apply nth_error_None in E0; unfold ds_len in Hk; lia].
  destruct (nth_error (ds_patterns e) k) as [q0|] eqn:F0;
    [|apply nth_error_None in F0; unfold ds_len in Hk, Hlen; lia].
  destruct (P1 k p0 E0) as (p1 & X1 & Y1). destruct (P2 k q0 F0) as (q1 & X2 & Y2).
  rewrite Hp in X1. injection X1 as <-. rewrite Hq in X2. injection X2 as <-.
  rewrite (Y1 i j), (Y2 i j). apply rsum_ext. intros a Ha. apply rsum_ext. intros b Hb.
  unfold kept. rewrite Hmk. fold (kept d (i * f + a) (j * f + b)).
  destruct (kept d (i * f + a) (j * f + b)) eqn:EK; [|reflexivity].
  apply (Heq k p0 q0 E0 F0); [| |exact EK].
  - rewrite Hh1 in Hi. pose proof (Nat.mul_div_le (ds_h d) f ltac:(lia)). nia.
  - rewrite Hw1 in Hj. pose proof (Nat.mul_div_le (ds_w d) f ltac:(lia)). nia.
Qed.
Print Assumptions C23_masked_values_irrelevant.

(** C23: if f divides the shape, each pattern's total of unmasked counts is conserved. *)
Theorem C23_counts_conserved : forall Meta f (d d' : dataset Meta) H W,
  well_formed d -> 1 <= f -> 1 <= H -> 1 <= W -> ds_h d = H * f -> ds_w d = W * f ->
  downsample f d = (d', Ok tt) ->
  forall k p p', nth_error (ds_patterns d) k = Some p -> nth_error (ds_patterns d') k = Some p' ->
  total (ds_h d') (ds_w d') p' = total (ds_h d) (ds_w d) (fun i j => if kept d i j then p i j else 0%R).
Proof.
  intros Meta f d d' H W Wd Hf HH HW Eh Ew E k p p' Hp Hp'.
  destruct (C23_downsample Meta f d Wd ltac:(nia) ltac:(nia)) as (d1 & E1 & _ & Hh1 & Hw1 & _ & _ & _ & _ & P1 & _).
  rewrite E in E1. injection E1 as <-. destruct (P1 k p Hp) as (p1 & X1 & Y1).
  rewrite Hp' in X1. injection X1 as <-. rewrite Hh1, Hw1, Eh, Ew, !Nat.div_mul by lia.
  rewrite <- block_total. apply rsum_ext. intros i Hi. apply rsum_ext. intros j Hj. apply Y1.
Qed.
Print Assumptions C23_counts_conserved.

Lemma block_index n g f a c : a < g -> c < f -> (n * g + a) * f + c = n * (f * g) + (a * f + c).
Proof. intros. nia. Qed.
Lemma block_index_inv f g x : 1 <= f -> x < f * g -> exists a c, a < g /\ c < f /\ x = a * f + c.
Proof.
  intros Hf Hx. exists (x / f), (x mod f). split; [apply Nat.div_lt_upper_bound; lia|].
  split; [apply Nat.mod_upper_bound; lia|]. rewrite (Nat.div_mod x f) at 1 by lia. lia.
Qed.

(** C23: downsampling by f and then by g gives the same shape, the same mask, the same background
    and basis as downsampling by f*g, and the same value at every pixel that is kept. *)
Theorem C23_composition : forall Meta f g (d : dataset Meta), well_formed d ->
  ds_qe_mask d = None -> 1 <= f -> 1 <= g -> f * g <= ds_h d -> f * g <= ds_w d ->
  exists d1 d2 d12, downsample f d = (d1, Ok tt) /\ downsample g d1 = (d2, Ok tt) /\
    downsample (f * g) d = (d12, Ok tt) /\
    ds_h d2 = ds_h d12 /\ ds_w d2 = ds_w d12 /\ (forall i j, kept d2 i j = kept d12 i j) /\
    (forall k p2 p12, nth_error (ds_patterns d2) k = Some p2 -> nth_error (ds_patterns d12) k = Some p12 ->
       forall i j, kept d12 i j = true -> p2 i j = p12 i j) /\
    (forall b2 b12, ds_background d2 = Some b2 -> ds_background d12 = Some b12 ->
       forall i j, im_px b2 i j = im_px b12 i j) /\
    (forall b2 b12, ds_basis d2 = Some b2 -> ds_basis d12 = Some b12 -> forall i j, b2 i j = b12 i j).
Proof.
  intros Meta f g d W Eq Hf Hg Hh Hw.
  destruct (C23_downsample Meta f d W ltac:(nia) ltac:(nia))
    as (d1 & E1 & W1 & Hh1 & Hw1 & _ & _ & _ & L1 & P1 & M1 & _ & G1n & G1 & B1).
  assert (g <= ds_h d1) by (rewrite Hh1; apply Nat.div_le_lower_bound; lia).
  assert (g <= ds_w d1) by (rewrite Hw1; apply Nat.div_le_lower_bound; lia).
  destruct (C23_downsample Meta g d1 W1 ltac:(lia) ltac:(lia))
    as (d2 & E2 & W2 & Hh2 & Hw2 & _ & _ & _ & L2 & P2 & M2 & _ & G2n & G2 & B2).
  destruct (C23_downsample Meta (f * g) d W ltac:(nia) ltac:(nia))
    as (d12 & E12 & W12 & Hh12 & Hw12 & _ & _ & _ & L12 & P12 & M12 & _ & G12n & G12 & B12).
  destruct (M1 Eq) as [Q1 K1]. destruct (M2 Q1) as [Q2 K2]. destruct (M12 Eq) as [Q12 K12].
  assert (KK : forall i j, kept d2 i j = true <-> kept d12 i j = true).
  { intros i j. rewrite K2, K12. split.
    - intros H1 x y Hx Hy. destruct (block_index_inv f g x Hf Hx) as (a & c & Ha & Hc & ->).
      destruct (block_index_inv f g y Hf Hy) as (a' & c' & Ha' & Hc' & ->).
      rewrite <- !block_index by assumption. apply (proj1 (K1 _ _) (H1 a a' Ha Ha')); assumption.
    - intros H1 a a' Ha Ha'. apply K1. intros c c' Hc Hc'. rewrite !block_index by assumption. apply H1; nia. }
  exists d1, d2, d12. do 3 (split; [assumption|]).
  split; [rewrite Hh2, Hh1, Hh12, Nat.div_div by lia; reflexivity|].
  split; [rewrite Hw2, Hw1, Hw12, Nat.div_div by lia; reflexivity|].
  split. { intros i j. specialize (KK i j). destruct (kept d2 i j), (kept d12 i j); tauto || (symmetry; tauto) || idtac; intuition. }
  split.
  { intros k p2 p12 Hp2 Hp12 i j Hk.
    assert (Hkl : k < ds_len d) by (rewrite <- L12; apply nth_error_Some; unfold ds_len; congruence).
    destruct (nth_error (ds_patterns d) k) as [p|] eqn:Ep; [|apply nth_error_None in Ep; unfold ds_len in Hkl; lia].
    destruct (P1 k p Ep) as (p1 & X1 & Y1). destruct (P2 k p1 X1) as (p2' & X2 & Y2).
    destruct (P12 k p Ep) as (p12' & X12 & Y12).
    rewrite Hp2 in X2. injection X2 as <-. rewrite Hp12 in X12. injection X12 as <-.
    pose proof (proj1 (K12 i j) Hk) as Hall. pose proof (proj1 (K2 i j) (proj2 (KK i j) Hk)) as Hall1.
    rewrite (Y2 i j), (Y12 i j).
    transitivity (block_sum (f * g) p i j).
    - rewrite <- block_sum_compose. unfold block_sum at 1. apply rsum_ext. intros a Ha. apply rsum_ext. intros b Hb.
      rewrite (Hall1 a b Ha Hb), (Y1 _ _). unfold block_sum. apply rsum_ext. intros c Hc. apply rsum_ext. intros e He.
      rewrite (proj1 (K1 _ _) (Hall1 a b Ha Hb) c e Hc He). reflexivity.
    - unfold block_sum. apply rsum_ext. intros a Ha. apply rsum_ext. intros b Hb. now rewrite (Hall a b Ha Hb). }
  split.
  { intros b2 b12 Hb2 Hb12 i j. destruct (ds_background d) as [b0|] eqn:E0.
    - destruct (G1 b0 eq_refl) as (b1 & X1 & Y1). destruct (G2 b1 X1) as (b2' & X2 & Y2).
      destruct (G12 b0 eq_refl) as (b12' & X12 & Y12).
      rewrite Hb2 in X2. injection X2 as <-. rewrite Hb12 in X12. injection X12 as <-.
      rewrite Y2, Y12. change (block_sum g (im_px b1) i j = block_sum (f * g) (im_px b0) i j).
      rewrite <- block_sum_compose. apply block_sum_ext. intros. apply Y1.
    - rewrite (G12n eq_refl) in Hb12. discriminate. }
  intros b2 b12 Hb2 Hb12 i j. destruct W as (_ & _ & _ & bs & Hb).
  destruct (B1 bs Hb) as (b1 & X1 & Y1). destruct (B2 b1 X1) as (b2' & X2 & Y2). destruct (B12 bs Hb) as (b12' & X12 & Y12).
  rewrite Hb2 in X2. injection X2 as <-. rewrite Hb12 in X12. injection X12 as <-.
  rewrite Y2, Y1, Y12, mult_INR. ring.
Qed.
Print Assumptions C23_composition.

(** C23: with a quantum-efficiency mask the composition is exact at every pixel. *)
Theorem C23_composition_qe : forall Meta f g (d : dataset Meta) q, well_formed d ->
  ds_qe_mask d = Some q -> 1 <= f -> 1 <= g -> f * g <= ds_h d -> f * g <= ds_w d ->
  exists d1 d2 d12, downsample f d = (d1, Ok tt) /\ downsample g d1 = (d2, Ok tt) /\
    downsample (f * g) d = (d12, Ok tt) /\
    ds_h d2 = ds_h d12 /\ ds_w d2 = ds_w d12 /\ (forall i j, kept d2 i j = kept d12 i j) /\
    (forall k p2 p12, nth_error (ds_patterns d2) k = Some p2 -> nth_error (ds_patterns d12) k = Some p12 ->
       forall i j, p2 i j = p12 i j) /\
    (forall q2 q12, ds_qe_mask d2 = Some q2 -> ds_qe_mask d12 = Some q12 ->
       forall i j, im_px q2 i j = im_px q12 i j).
Proof.
  intros Meta f g d q W Eq Hf Hg Hh Hw.
  destruct (C23_downsample Meta f d W ltac:(nia) ltac:(nia))
    as (d1 & E1 & W1 & Hh1 & Hw1 & _ & _ & _ & L1 & P1 & _ & M1 & _).
  assert (g <= ds_h d1) by (rewrite Hh1; apply Nat.div_le_lower_bound; lia).
  assert (g <= ds_w d1) by (rewrite Hw1; apply Nat.div_le_lower_bound; lia).
  destruct (C23_downsample Meta g d1 W1 ltac:(lia) ltac:(lia))
    as (d2 & E2 & W2 & Hh2 & Hw2 & _ & _ & _ & L2 & P2 & _ & M2 & _).
  destruct (C23_downsample Meta (f * g) d W ltac:(nia) ltac:(nia))
    as (d12 & E12 & W12 & Hh12 & Hw12 & _ & _ & _ & L12 & P12 & _ & M12 & _).
  destruct (M1 q Eq) as [K1 (q1 & Eq1 & Q1)]. destruct (M2 q1 Eq1) as [K2 (q2 & Eq2 & Q2)].
  destruct (M12 q Eq) as [K12 (q12 & Eq12 & Q12)].
  assert (KK : forall i j, kept d2 i j = true <-> kept d12 i j = true).
  { intros i j. rewrite K2, K12. split.
    - intros (a & a' & Ha & Ha' & H1). apply K1 in H1 as (c & c' & Hc & Hc' & H1).
      exists (a * f + c), (a' * f + c'). rewrite !block_index in H1 by assumption. split; [nia|]. split; [nia|exact H1].
    - intros (x & y & Hx & Hy & H1). destruct (block_index_inv f g x Hf Hx) as (a & c & Ha & Hc & ->).
      destruct (block_index_inv f g y Hf Hy) as (a' & c' & Ha' & Hc' & ->).
      rewrite <- !block_index in H1 by assumption. exists a, a'. do 2 (split; [assumption|]).
      apply K1. exists c, c'. auto. }
  (* masking once more after the first binning changes nothing: an untouched block sums to 0 *)
  assert (S0 : forall (x : nat -> nat -> R) i j,
    rsum f (fun a => rsum f (fun b => if kept d (i * f + a) (j * f + b) then x (i * f + a) (j * f + b) else 0%R)) =
    if kept d1 i j then rsum f (fun a => rsum f (fun b => if kept d (i * f + a) (j * f + b) then x (i * f + a) (j * f + b) else 0%R)) else 0%R).
  { intros x i j. destruct (kept d1 i j) eqn:EK; [reflexivity|]. apply rsum_zero'. intros a Ha. apply rsum_zero'. intros b Hb.
    destruct (kept d (i * f + a) (j * f + b)) eqn:EK'; [|reflexivity].
    assert (kept d1 i j = true) by (apply K1; exists a, b; auto). congruence. }
  assert (CC : forall (x y z : nat -> nat -> R) (c : R),
    (forall i j, (y i j * c)%R = rsum f (fun a => rsum f (fun b => if kept d (i * f + a) (j * f + b) then x (i * f + a) (j * f + b) else 0%R))) ->
    (forall i j, z i j = rsum g (fun a => rsum g (fun b => if kept d1 (i * g + a) (j * g + b) then y (i * g + a) (j * g + b) else 0%R))) ->
    forall i j, (z i j * c)%R = rsum (f * g) (fun a => rsum (f * g) (fun b => if kept d (i * (f * g) + a) (j * (f * g) + b) then x (i * (f * g) + a) (j * (f * g) + b) else 0%R))).
  { intros x y z c Hy Hz i j. rewrite (Hz i j).
    change (rsum (f * g) _) with (block_sum (f * g) (fun i j => if kept d i j then x i j else 0%R) i j).
    rewrite <- block_sum_compose. unfold block_sum at 1. rewrite Rmult_comm, rsum_scal. apply rsum_ext. intros a Ha.
    rewrite rsum_scal. apply rsum_ext. intros b Hb.
    unfold block_sum. rewrite S0. destruct (kept d1 (i * g + a) (j * g + b)); [|ring].
    rewrite Rmult_comm, Hy. reflexivity. }
  exists d1, d2, d12. do 3 (split; [assumption|]).
  split; [rewrite Hh2, Hh1, Hh12, Nat.div_div by lia; reflexivity|].
  split; [rewrite Hw2, Hw1, Hw12, Nat.div_div by lia; reflexivity|].
  split. { intros i j. specialize (KK i j). destruct (kept d2 i j), (kept d12 i j); intuition. }
  split.
  { intros k p2 p12 Hp2 Hp12 i j.
    assert (Hkl : k < ds_len d) by (rewrite <- L12; apply nth_error_Some; unfold ds_len; congruence).
    destruct (nth_error (ds_patterns d) k) as [p|] eqn:Ep; [|apply nth_error_None in Ep; unfold ds_len in Hkl; lia].
    destruct (P1 k p Ep) as (p1 & X1 & Y1). destruct (P2 k p1 X1) as (p2' & X2 & Y2).
    destruct (P12 k p Ep) as (p12' & X12 & Y12).
    rewrite Hp2 in X2. injection X2 as <-. rewrite Hp12 in X12. injection X12 as <-.
    rewrite (Y12 i j). rewrite <- (Rmult_1_r (p2 i j)). apply (CC p p1 p2 1%R).
    - intros i' j'. rewrite Rmult_1_r. apply Y1.
    - intros i' j'. apply Y2. }
  intros q2' q12' Hq2 Hq12 i j. rewrite Eq2 in Hq2. injection Hq2 as <-. rewrite Eq12 in Hq12. injection Hq12 as <-.
  pose proof (lt_0_INR f ltac:(lia)) as Pf. pose proof (lt_0_INR g ltac:(lia)) as Pg.
  apply (Rmult_eq_reg_r (INR (f * g) * INR (f * g))); [|rewrite mult_INR; pose proof (Rmult_lt_0_compat _ _ Pf Pg); apply Rmult_integral_contrapositive; split; lra].
  rewrite (Q12 i j). rewrite mult_INR.
  rewrite <- (CC (im_px q) (im_px q1) (fun i j => im_px q2 i j * (INR g * INR g))%R (INR f * INR f)%R).
  - ring.
  - intros i' j'. apply Q1.
  - intros i' j'. apply Q2.
Qed.
Print Assumptions C23_composition_qe.

(** C23: the exact equality at masked pixels fails without a quantum-efficiency mask. *)
Theorem C23_composition_masked_refuted :
  exists (d d1 d2 d12 : dataset nat) p2 p12, well_formed d /\
    downsample 2 d = (d1, Ok tt) /\ downsample 2 d1 = (d2, Ok tt) /\ downsample 4 d = (d12, Ok tt) /\
    ds_patterns d2 = [p2] /\ ds_patterns d12 = [p12] /\ p2 0 0 <> p12 0 0.
Proof.
  exists (mkDs 4 4 [fun _ _ => 1%R] [(0,0,0)%R] None
     (Some (mkImg 4 4 (fun i j => negb (Nat.eqb i 0 && Nat.eqb j 0)))) None None (Some (fun _ _ => 1%R)) 0).
  eexists _, _, _, _, _. split.
  { split; [eexists; split; [reflexivity|split; reflexivity]|]. split; [discriminate|]. split; [discriminate|eexists; reflexivity]. }
  split; [reflexivity|]. split; [reflexivity|]. split; [reflexivity|]. split; [reflexivity|]. split; [reflexivity|].
  cbn. lra.
Qed.
Print Assumptions C23_composition_masked_refuted.
Example C23_case : well_formed (ex_ds None) /\
  exists d', downsample 2 (ex_ds None) = (d', Ok tt) /\ ds_h d' = 1 /\ ds_w d' = 2 /\
    kept d' 0 0 = false /\ kept d' 0 1 = true.
Proof. split; [apply ex_ds_well_formed|]. eexists. split; [reflexivity|]. repeat split. Qed.

(** C24: after construction the patterns hold plain numbers; measured values are unchanged, NaN
    pixels read 0, and the mask excludes exactly what the given mask excluded (nothing when no
    mask was given) and the pixels that were NaN in at least one pattern. *)
Theorem C24_nan_pixels_masked : forall Meta h w trs pats ints mask qe bg basis (meta : Meta),
  let d := init_dataset h w trs pats ints mask qe bg basis meta in
  ds_len d = length pats /\
  (forall k p, nth_error pats k = Some p -> exists p', nth_error (ds_patterns d) k = Some p' /\
     forall i j, (forall x, p i j = Some x -> p' i j = x) /\ (p i j = None -> p' i j = 0%R)) /\
  (exists m, ds_mask d = Some m /\
     (im_h m, im_w m) = match mask with Some m0 => (im_h m0, im_w m0) | None => (h, w) end) /\
  forall i j, kept d i j = true <->
    (forall m0, mask = Some m0 -> im_px m0 i j = true) /\
    (forall k p, nth_error pats k = Some p -> p i j <> None).
Proof.
  intros. split; [apply map_length|]. split.
  { intros k p Hk. exists (fun i j => match p i j with Some x => x | None => 0%R end). split.
    { unfold d, init_dataset. cbn [ds_patterns].
      now apply (map_nth_error (fun (p : nat -> nat -> option R) i j => match p i j with Some x => x | None => 0%R end)). }
    intros i j. cbn. split.
    - intros x ->. reflexivity.
    - intros ->. reflexivity. }
  split; [eexists; split; [reflexivity|]; destruct mask; reflexivity|].
  intros i j. unfold kept, d, init_dataset. cbn [ds_mask im_px].
  destruct (nan_anywhere pats i j) eqn:E; unfold nan_anywhere in E.
  - split; [discriminate|]. intros [_ H]. apply existsb_exists in E as (p & Hin & E).
    apply In_nth_error in Hin as [k Hk]. exfalso. apply (H k p Hk). now destruct (p i j).
  - assert (Hno : forall k p, nth_error pats k = Some p -> p i j <> None).
    { intros k p Hk Hnone. assert (existsb (fun p => is_none (p i j)) pats = true); [|congruence].
      apply existsb_exists. exists p. split; [eapply nth_error_In; eauto|]. now rewrite Hnone. }
    destruct mask as [m0|]; cbn.
    + split; [intros H; split; [intros m1 Em; injection Em as <-; exact H|exact Hno]|]. intros [H _]. now apply H.
    + split; [intros _; split; [discriminate|exact Hno]|reflexivity].
Qed.
Print Assumptions C24_nan_pixels_masked.

(** C24: hence a loss that looks only at kept pixels never sees a filled-in value. *)
Theorem C24_kept_pixels_are_measured : forall Meta h w trs pats ints mask qe bg basis (meta : Meta),
  let d := init_dataset h w trs pats ints mask qe bg basis meta in
  forall k p p' i j, nth_error pats k = Some p -> nth_error (ds_patterns d) k = Some p' ->
  kept d i j = true -> p i j = Some (p' i j).
Proof.
  intros Meta h w trs pats ints mask qe bg basis meta d k p p' i j Hp Hp' Hk.
  destruct (C24_nan_pixels_masked Meta h w trs pats ints mask qe bg basis meta) as (_ & P & _ & K).
  fold d in P, K. destruct (proj1 (K i j) Hk) as [_ Hno]. destruct (P k p Hp) as (p1 & X & Y).
  rewrite Hp' in X. injection X as <-. destruct (p i j) as [x|] eqn:E; [|now elim (Hno k p Hp)].
  now rewrite (proj1 (Y i j) x E).
Qed.
Print Assumptions C24_kept_pixels_are_measured.
Example C24_case :
  let d := init_dataset 1 2 [(0,0,0)%R; (1,1,0)%R]
     [fun i j => if Nat.eqb j 0 then Some 3%R else None; fun _ _ => Some 4%R] None None None None None tt in
  kept d 0 0 = true /\ kept d 0 1 = false.
Proof. split; reflexivity. Qed.

(** C49: indexing: dataset[i] pairs translation i with pattern i; negative indices count from the
    end; everything else raises IndexError. *)
Theorem C49_getitem : forall Meta (d : dataset Meta) (i : Z), consistent d ->
  let n := Z.of_nat (ds_len d) in
  ((0 <= i < n)%Z -> exists tr p, ds_getitem d i = Ok ((i, tr), p) /\
     nth_error (ds_translations d) (Z.to_nat i) = Some tr /\ nth_error (ds_patterns d) (Z.to_nat i) = Some p) /\
  ((- n <= i < 0)%Z -> exists tr p, ds_getitem d i = Ok ((i, tr), p) /\
     nth_error (ds_translations d) (Z.to_nat (i + n)) = Some tr /\ nth_error (ds_patterns d) (Z.to_nat (i + n)) = Some p) /\
  ((i < - n \/ n <= i)%Z -> ds_getitem d i = Raise IndexError).
Proof.
  intros Meta d i [C1 _] n. unfold ds_len in n.
  assert (X : forall A (l : list A) k, k < length l -> exists x, nth_error l k = Some x).
  { intros A l k Hk. destruct (nth_error l k) as [x|] eqn:E; [eauto|]. apply nth_error_None in E. lia. }
  unfold ds_getitem, py_index. rewrite C1. change (Z.of_nat (length (ds_patterns d))) with n. split; [|split].
  - intros H. destruct (Z.ltb_spec i 0); [lia|]. destruct (Z.ltb_spec i 0); [lia|].
    destruct (X _ (ds_translations d) (Z.to_nat i)) as [tr Et]; [rewrite C1; unfold n in *; lia|].
    destruct (X _ (ds_patterns d) (Z.to_nat i)) as [p Ep]; [unfold n in *; lia|].
    exists tr, p. rewrite Et. cbn [rbind]. rewrite Ep. auto.
  - intros H. destruct (Z.ltb_spec i 0); [|lia]. destruct (Z.ltb_spec (i + n) 0); [lia|].
    destruct (X _ (ds_translations d) (Z.to_nat (i + n))) as [tr Et]; [rewrite C1; unfold n in *; lia|].
    destruct (X _ (ds_patterns d) (Z.to_nat (i + n))) as [p Ep]; [unfold n in *; lia|].
    exists tr, p. rewrite Et. cbn [rbind]. rewrite Ep. auto.
  - intros H. destruct (Z.ltb_spec i 0).
    + destruct (Z.ltb_spec (i + n) 0); [reflexivity|lia].
    + destruct (Z.ltb_spec i 0); [lia|].
      destruct (nth_error (ds_translations d) (Z.to_nat i)) eqn:E; [|reflexivity].
      assert (Z.to_nat i < length (ds_translations d)) by (apply nth_error_Some; congruence). unfold n in *; lia.
Qed.
Print Assumptions C49_getitem.

(** C49: slices: entry k of dataset[a:b] is exposure a + k. *)
Theorem C49_getslice : forall Meta (d : dataset Meta) a b, consistent d ->
  let '(trs, pats) := ds_getslice d a b in
  length trs = length pats /\ length pats = Nat.min b (ds_len d) - a /\
  forall k, k < b - a -> nth_error trs k = nth_error (ds_translations d) (a + k) /\
                         nth_error pats k = nth_error (ds_patterns d) (a + k).
Proof.
  intros Meta d a b [C1 _]. unfold ds_getslice, slice, ds_len.
  assert (X : forall A (l : list A) m k, nth_error (firstn m (skipn a l)) k = if k <? m then nth_error l (a + k) else None).
  { intros A l m k. destruct (Nat.ltb_spec k m) as [H|H].
    - rewrite <- (firstn_skipn a l) at 2. 
      assert (Y : forall (l' : list A) m', k < m' -> nth_error (firstn m' l') k = nth_error l' k).
      { clear. revert k. intros k l'. revert k. induction l' as [|x l' IH]; intros [|k] [|m'] H; cbn; try lia; auto.
        apply IH. lia. }
      rewrite Y by exact H. destruct (Nat.le_gt_cases a (length l)).
      + rewrite nth_error_app2; rewrite firstn_length; [f_equal; lia|lia].
      + rewrite skipn_all2 by lia. rewrite app_nil_r.
        rewrite (proj2 (nth_error_None [] k)) by (cbn; lia).
        symmetry. apply nth_error_None. rewrite firstn_length. lia.
    - apply nth_error_None. rewrite firstn_length. lia. }
  split; [rewrite !firstn_length, !skipn_length; congruence|].
  split; [rewrite firstn_length, skipn_length; lia|].
  intros k Hk. rewrite !X. rewrite (proj2 (Nat.ltb_lt k (b - a)) Hk). auto.
Qed.
Print Assumptions C49_getslice.
Example C49_case : exists p, ds_getitem (ex_ds None) (-1) = Ok ((-1)%Z, (3, 1, 0)%R, p) /\ p 0 0 = 2%R.
Proof. eexists. split; reflexivity. Qed.
