(** C92: perusing a data set. *)
From Verif Require Import Base FinSum Model_Prop Model_Meas Model_Geom Spec_Geom Model_Analysis Model_Init Model_Spectral Model_Browse Spec_Browse Properties_Browse Properties_Spectral Model_Peruse.
Local Open Scope R_scope.

(** The sum of a pattern over the pixels that are not masked out. *)
Definition unmasked_sum (d : data) (p : rimg) : R := isum (d_h d) (d_w d) (fun i j => if d_mask d i j then p i j else 0).

Lemma sums_spec d ps : masked_sums d ps = map (unmasked_sum d) ps.
Proof.
  apply map_ext. intros p. unfold unmasked_sum, isum. apply rsum_ext. intros i _. apply rsum_ext. intros j _. unfold mask_value. destruct (d_mask d i j); ring.
Qed.

(** The loop, chunk by chunk from the front. *)
Fixpoint go (fuel n : nat) (xs : list R) : res (list R) :=
  match fuel with
  | O => Ok nil
  | S fuel => rbind (slice_assign 0 10 (firstn 10 xs) (repeat 1 n)) (fun v => rmap (app (firstn 10 v)) (go fuel (n - 10) (skipn 10 xs)))
  end.
Lemma fold_raise {A B} (f : A -> B -> res A) e l : fold_left (fun r k => rbind r (fun v => f v k)) l (Raise e) = Raise e.
Proof. induction l; cbn; auto. Qed.
Lemma skipn_repeat {A} (x : A) n k : skipn k (repeat x n) = repeat x (n - k).
Proof. revert k. induction n as [|n IH]; intros [|k]; cbn; auto. Qed.
Lemma firstn_repeat {A} (x : A) n k : firstn k (repeat x n) = repeat x (Nat.min k n).
Proof. revert k. induction n as [|n IH]; intros [|k]; cbn; auto. f_equal. auto. Qed.
Lemma assign_shift pre i (src : list R) n : length pre = i ->
  slice_assign i 10 src (pre ++ repeat 1 n) = rmap (app pre) (slice_assign 0 10 src (repeat 1 n)).
Proof.
  intros <-. unfold slice_assign. rewrite !skipn_app, !skipn_all, Nat.sub_diag. cbn [skipn app].
  rewrite firstn_app, firstn_all, Nat.sub_diag, firstn_O, app_nil_r.
  rewrite (skipn_all2 pre) by lia. replace (length pre + 10 - length pre)%nat with 10%nat by lia. cbn [app firstn Nat.add].
  destruct (Nat.eqb _ _); [reflexivity|]. destruct src as [|x [|y l]]; reflexivity.
Qed.
Lemma assign_form (src : list R) n v : slice_assign 0 10 src (repeat 1 n) = Ok v -> exists a, length a = Nat.min 10 n /\ v = a ++ repeat 1 (n - 10) /\ firstn 10 v = a.
Proof.
  unfold slice_assign. rewrite skipn_O, firstn_O. cbn [app]. change (0 + 10)%nat with 10%nat. rewrite skipn_repeat, firstn_repeat, repeat_length.
  assert (FA : forall a : list R, length a = Nat.min 10 n -> firstn 10 (a ++ repeat 1 (n - 10)) = a).
  { intros a La. destruct (Nat.le_gt_cases 10 n).
    - rewrite firstn_app, firstn_all2 by lia. replace (10 - length a)%nat with 0%nat by lia. rewrite firstn_O, app_nil_r. reflexivity.
    - replace (n - 10)%nat with 0%nat by lia. cbn [repeat]. rewrite app_nil_r. apply firstn_all2. lia. }
  remember (Nat.min 10 n) as m eqn:Em. destruct (Nat.eqb_spec (length src) m) as [E|E].
  - intros H. injection H as <-. exists src. auto.
  - destruct src as [|x [|y l]]; try discriminate. intros H. injection H as <-. exists (repeat x m). rewrite repeat_length. split; [reflexivity|]. split; [reflexivity|]. apply FA, repeat_length.
Qed.
Lemma skipn_skipn {A} k i (l : list A) : skipn k (skipn i l) = skipn (k + i) l.
Proof. revert l. induction i as [|i IH]; intros l; [rewrite Nat.add_0_r; reflexivity|]. rewrite Nat.add_succ_r. destruct l; cbn [skipn]; [apply skipn_nil|apply IH]. Qed.
Lemma loop_go d ps : forall m n k pre, length pre = (10 * k)%nat -> (n <= 10 * m < n + 10)%nat ->
  fold_left (fun r k => rbind r (fun values => slice_assign (10 * k) 10 (masked_sums d (firstn 10 (skipn (10 * k) ps))) values)) (seq k m) (Ok (pre ++ repeat 1 n))
  = rmap (app pre) (go m n (skipn (10 * k) (map (unmasked_sum d) ps))).
Proof.
  induction m as [|m IH]; intros n k pre L B.
  - replace n with 0%nat by lia. reflexivity.
  - cbn [seq fold_left go rbind]. rewrite (assign_shift pre (10 * k) _ n L). rewrite sums_spec, <- firstn_map, <- skipn_map.
    destruct (slice_assign 0 10 _ (repeat 1 n)) as [v|e] eqn:E; cbn [rmap rbind]; [|apply fold_raise].
    destruct (assign_form _ _ _ E) as (a & La & -> & Fa). rewrite Fa, app_assoc.
    destruct (Nat.le_gt_cases 10 n) as [Hn|Hn].
    + rewrite (IH (n - 10)%nat (S k) (pre ++ a)) by (rewrite ?app_length; lia).
      rewrite skipn_skipn. replace (10 * S k)%nat with (10 + 10 * k)%nat by lia. destruct (go m (n - 10) _); cbn [rmap rbind]; [|reflexivity].
      rewrite <- app_assoc. reflexivity.
    + replace m with 0%nat by lia. cbn. replace (n - 10)%nat with 0%nat by lia. cbn [repeat]. rewrite !app_nil_r. reflexivity.
Qed.
Lemma values_go d : let n := length (d_translations d) in nanomap_values d = go (Nat.div (n + 9) 10) n (map (unmasked_sum d) (d_patterns d)).
Proof.
  intros n. unfold nanomap_values. fold n. pose proof (loop_go d (d_patterns d) (Nat.div (n + 9) 10) n 0 nil eq_refl) as H. cbn [app] in H.
  rewrite H; [|pose proof (Nat.div_mod (n + 9) 10 ltac:(lia)); pose proof (Nat.mod_upper_bound (n + 9) 10 ltac:(lia)); lia].
  rewrite Nat.mul_0_r, skipn_O. destruct (go _ _ _); reflexivity.
Qed.

(** What the chunks make of the sums xs of the patterns and n positions. *)
Definition fits (n : nat) (xs v : list R) : Prop :=
  ((length xs = n \/ Nat.modulo n 10 = 0%nat /\ (n <= length xs)%nat) /\ v = firstn n xs) \/
  (exists k, length xs = (10 * k + 1)%nat /\ (10 * k + 1 < n <= 10 * k + 10)%nat /\ v = xs ++ repeat (last xs 0) (n - length xs)).
Lemma last_skipn (xs : list R) k : (k < length xs)%nat -> last (skipn k xs) 0 = last xs 0.
Proof.
  revert k. induction xs as [|x xs IH]; intros [|k] L; cbn [length] in L; try (cbn; reflexivity); try lia.
  cbn [skipn]. rewrite IH by lia. destruct xs; [cbn in L; lia|reflexivity].
Qed.
Lemma firstn_glue (xs : list R) n : (10 <= n)%nat -> firstn 10 xs ++ firstn (n - 10) (skipn 10 xs) = firstn n xs.
Proof.
  intros H. rewrite <- (firstn_skipn 10 (firstn n xs)). rewrite firstn_firstn, skipn_firstn_comm. rewrite Nat.min_l by lia. reflexivity.
Qed.
Lemma go_fits : forall m n xs, (n <= 10 * m < n + 10)%nat ->
  match go m n xs with Ok v => fits n xs v | Raise e => e = ValueError /\ forall v, ~ fits n xs v end.
Proof.
  induction m as [|m IH]; intros n xs B.
  - replace n with 0%nat by lia. left. split; [right; split; [reflexivity|lia]|reflexivity].
  - cbn [go]. unfold slice_assign. rewrite skipn_O, firstn_O. cbn [app]. change (0 + 10)%nat with 10%nat. rewrite skipn_repeat, firstn_repeat, repeat_length, firstn_length.
    destruct (Nat.eqb_spec (Nat.min 10 (length xs)) (Nat.min 10 n)) as [E|E].
    + cbn [rbind].
      assert (FA : firstn 10 (firstn 10 xs ++ repeat 1 (n - 10)) = firstn 10 xs).
      { rewrite firstn_app, firstn_firstn, Nat.min_id, firstn_length. destruct (Nat.le_gt_cases 10 n).
        - replace (10 - Nat.min 10 (length xs))%nat with 0%nat by lia. rewrite firstn_O, app_nil_r. reflexivity.
        - replace (n - 10)%nat with 0%nat by lia. cbn [repeat]. rewrite firstn_nil, app_nil_r. reflexivity. }
      rewrite FA. destruct (Nat.le_gt_cases n 10) as [Hn|Hn].
      * replace m with 0%nat by lia. cbn [go rmap]. rewrite app_nil_r. left. split.
        -- destruct (Nat.eq_dec n 10) as [->|]; [right; split; [reflexivity|lia]|left; lia].
        -- destruct (Nat.eq_dec n 10) as [->|]; [reflexivity|]. rewrite !firstn_all2 by lia. reflexivity.
      * specialize (IH (n - 10)%nat (skipn 10 xs) ltac:(lia)). assert (P : (10 <= length xs)%nat) by lia.
        assert (LS : length (skipn 10 xs) = (length xs - 10)%nat) by apply skipn_length.
        assert (MD : Nat.modulo n 10 = Nat.modulo (n - 10) 10) by (rewrite <- (Nat.mod_add (n - 10) 1 10) by lia; f_equal; lia).
        destruct (go m (n - 10) (skipn 10 xs)) as [r|e]; cbn [rmap].
        -- destruct IH as [[H ->]|(k & H1 & H2 & ->)].
           ++ left. rewrite LS in H. split; [rewrite MD; lia|]. apply firstn_glue. lia.
           ++ right. exists (S k). rewrite LS in H1. split; [lia|]. split; [lia|]. rewrite app_assoc, firstn_skipn, last_skipn, LS by lia. do 2 f_equal. lia.
        -- destruct IH as [-> N]. split; [reflexivity|]. intros v [[H ->]|(k & H1 & H2 & ->)].
           ++ apply (N (firstn (n - 10) (skipn 10 xs))). left. rewrite LS. split; [rewrite <- MD; lia|reflexivity].
           ++ eapply N. right. exists (k - 1)%nat. rewrite LS. split; [lia|]. split; [lia|reflexivity].
    + destruct (Nat.eq_dec (length xs) 1) as [L1|L1].
      * destruct xs as [|x [|y xs]]; cbn [length] in L1; try lia. change (firstn 10 (x :: nil)) with (x :: nil). cbv beta iota. cbn [rbind]. cbn [length] in E.
        destruct (Nat.le_gt_cases n 10) as [Hn|Hn].
        -- replace m with 0%nat by lia. cbn [go rmap]. rewrite app_nil_r. right. exists 0%nat. cbn [length last]. split; [lia|]. split; [lia|].
           replace (n - 10)%nat with 0%nat by lia. cbn [repeat]. rewrite app_nil_r. rewrite firstn_all2 by (rewrite repeat_length; lia). replace (Nat.min 10 n) with (S (n - 1)) by lia. reflexivity.
        -- specialize (IH (n - 10)%nat nil ltac:(lia)). change (skipn 10 (x :: nil)) with (@nil R). destruct (go m (n - 10) nil) as [r|e]; cbn [rmap].
           ++ exfalso. destruct IH as [[H _]|(k & H & _)]; cbn [length] in H; lia.
           ++ destruct IH as [-> _]. split; [reflexivity|]. intros v [[H _]|(k & H1 & H2 & _)]; cbn [length] in *; [|lia]. destruct H as [H|[_ H]]; lia.
      * assert (N : forall v, ~ fits n xs v).
        { intros v [[[H|[H1 H2]] _]|(k & H1 & H2 & _)].
          - rewrite H in E. lia.
          - pose proof (Nat.div_mod n 10 ltac:(lia)). lia.
          - lia. }
        destruct xs as [|x [|y xs]]; cbn [firstn rbind]; [split; [reflexivity|exact N]|cbn in L1; lia|split; [reflexivity|exact N]].
Qed.

(** C92: with a pattern for every position, the point of position k has the sum of pattern k over the unmasked pixels. *)
Theorem C92_values : forall d, length (d_patterns d) = length (d_translations d) -> nanomap_values d = Ok (map (unmasked_sum d) (d_patterns d)).
Proof.
  intros d L. rewrite values_go. set (n := length (d_translations d)) in *.
  pose proof (Nat.div_mod (n + 9) 10 ltac:(lia)); pose proof (Nat.mod_upper_bound (n + 9) 10 ltac:(lia)).
  pose proof (go_fits (Nat.div (n + 9) 10) n (map (unmasked_sum d) (d_patterns d)) ltac:(lia)) as G. destruct (go _ _ _) as [v|e].
  - f_equal. destruct G as [[_ ->]|(k & H1 & H2 & _)]; rewrite ?map_length in *; [|lia]. apply firstn_all2. rewrite map_length. lia.
  - exfalso. destruct G as [_ N]. eapply N. left. split; [left; rewrite map_length; exact L|reflexivity].
Qed.
Print Assumptions C92_values.
(** Otherwise it raises ValueError, except in two cases: as many positions as fill whole chunks of 10 and more patterns
    than that; or one pattern in the last chunk, whose sum is then given to every position left. *)
Theorem C92_mismatch : forall d, let n := length (d_translations d) in let p := length (d_patterns d) in
  let sums := map (unmasked_sum d) (d_patterns d) in
  p <> n ->
  (Nat.modulo n 10 = 0%nat /\ (n < p)%nat -> nanomap_values d = Ok (firstn n sums)) /\
  (forall k, p = (10 * k + 1)%nat -> (p < n <= 10 * k + 10)%nat -> nanomap_values d = Ok (sums ++ repeat (last sums 0) (n - p))) /\
  (~ (Nat.modulo n 10 = 0%nat /\ (n < p)%nat) -> ~ (exists k, p = (10 * k + 1)%nat /\ (p < n <= 10 * k + 10)%nat) -> nanomap_values d = Raise ValueError).
Proof.
  intros d n p sums NE. rewrite values_go. fold n sums. assert (LS : length sums = p) by apply map_length.
  pose proof (Nat.div_mod (n + 9) 10 ltac:(lia)); pose proof (Nat.mod_upper_bound (n + 9) 10 ltac:(lia)).
  pose proof (go_fits (Nat.div (n + 9) 10) n sums ltac:(lia)) as G. destruct (go _ _ sums) as [v|e].
  - destruct G as [[H1 ->]|(k & H1 & H2 & ->)]; rewrite LS in *.
    + split; [reflexivity|]. split; [intros k K1 K2; exfalso; destruct H1; lia|]. intros A _. exfalso. apply A. destruct H1; lia.
    + split; [intros; exfalso; lia|]. split; [reflexivity|]. intros _ A. exfalso. apply A. exists k. lia.
  - destruct G as [-> N]. split; [|split; [|reflexivity]].
    + intros [A B]. exfalso. eapply N. left. rewrite LS. split; [right; split; [exact A|lia]|reflexivity].
    + intros k K1 K2. exfalso. eapply N. right. exists k. rewrite LS. split; [exact K1|]. split; [lia|reflexivity].
Qed.
Print Assumptions C92_mismatch.

(** x is shown as v: v itself, or its base-10 logarithm after adding the offset. *)
Definition shown_as (logarithmic : bool) (offset x v : R) : Prop := if logarithmic then 0 < x + offset -> Rpower 10 v = x + offset else v = x.
Lemma log10_spec x : 0 < x -> Rpower 10 (log10 x) = x.
Proof.
  intros H. unfold Rpower, log10. replace (ln x / ln 10 * ln 10) with (ln x); [apply exp_ln, H|]. field.
  apply Rgt_not_eq. rewrite <- ln_1. apply ln_increasing; lra.
Qed.

(** C92: the whole tool, after any history of keys, clicks and drags: nothing raises, the point of the map that is enlarged
    is the slider's, the picture is that point's pattern, and the colour of every point is its pattern's sum. *)
Theorem C92_session : forall logarithmic offset hull mean d es, let n := length (d_translations d) in
  length (d_patterns d) = n -> (1 <= n)%nat -> Forall (npossible n) es ->
  exists m v o p pattern pic, inspect logarithmic offset hull mean d es = Ok (map (unmasked_sum d) (d_patterns d), m, (v, o)) /\
    Forall (eq (Ok tt)) o /\ p = fst (fold_left (fun s e => nideal n 1 false e s) es (0%Z, 0%Z)) /\ (0 <= p < Z.of_nat n)%Z /\
    val v = p /\ marked v = p /\ nth_error (d_patterns d) (Z.to_nat p) = Some pattern /\ display v = Some pic /\
    forall i j, shown_as logarithmic offset (if d_mask d i j then pattern i j else 0) (pic i j).
Proof.
  intros logarithmic offset hull mean d es n L Hn F. unfold inspect. rewrite (C92_values d L). cbn [rbind]. fold n.
  pose proof (C85_nanomap_single n (get_images logarithmic offset d) es Hn F) as S. cbv zeta in S.
  destruct (nrun n (fun i => One (get_images logarithmic offset d i)) es (fst (Model_Browse.open (fun i => One (get_images logarithmic offset d i))))) as [v o] eqn:ER.
  destruct (fold_left (fun s e => nideal n 1 false e s) es (0%Z, 0%Z)) as [p q] eqn:EF. destruct S as (S1 & S2 & S3 & S4).
  assert (M : exists m, (if mean then rmap Some (plot_mean_pattern offset hull d) else Ok None) = Ok m).
  { destruct mean; [|eexists; reflexivity]. unfold plot_mean_pattern, calc_spectral_info. destruct (d_patterns d) eqn:E; [cbn in L; lia|]. eexists. reflexivity. }
  destruct M as (m & ->). cbn [rbind]. destruct (Nat.eqb_spec n 0); [lia|]. destruct (Nat.eqb_spec (length (d_patterns d)) 0); [lia|]. cbn [orb]. rewrite S1. cbn [rbind].
  assert (B : (Z.to_nat p < length (d_patterns d))%nat) by lia.
  exists m, v, o, p, (nth (Z.to_nat p) (d_patterns d) (fun _ _ => 0)), (get_images logarithmic offset d (Z.to_nat p)).
  split; [reflexivity|]. split; [exact S2|]. split; [reflexivity|]. split; [exact S3|]. subst v. cbn [val marked display].
  split; [reflexivity|]. split; [reflexivity|]. split; [apply nth_error_nth', B|]. split; [reflexivity|].
  intros i j. unfold shown_as, get_images, mask_value. destruct (d_mask d i j); rewrite ?Rmult_1_r, ?Rmult_0_r; destruct logarithmic; try reflexivity; apply log10_spec.
Qed.
Print Assumptions C92_session.

(** C92: the mean pattern: the sum of the patterns over the unmasked pixels, scaled so that its sum is the light per
    conjugate field of view; for colinear positions, the mean. *)
Theorem C92_mean : forall offset hull d m, plot_mean_pattern offset hull d = Ok m ->
  independent (d_b0 d) (d_b1 d) -> (0 < d_h d)%nat -> (0 < d_w d)%nat ->
  let positions := map (fun t => (vx t, vy t)) (d_translations d) in
  let summed : rimg := fun i j => if d_mask d i j then lsum (map (fun im : rimg => im i j) (d_patterns d)) else 0 in
  (forall area, hull positions = Some area -> 0 < area -> let fov := (d_wl d * d_dist d) ^ 2 / vlen (vcross (d_b0 d) (d_b1 d)) in
    forall i j, shown_as true offset (fov / area * summed i j) (m i j)) /\
  (hull positions = None -> forall i j, shown_as true offset (summed i j / INR (length (d_patterns d))) (m i j)).
Proof.
  intros offset hull d m E I Hh Hw positions summed. unfold plot_mean_pattern in E. destruct (calc_spectral_info hull d 50) as [[[s f] t]|] eqn:EC; [|discriminate].
  cbn [rmap fst] in E. injection E as <-. destruct (C83_pattern hull d 50 s f t EC I Hh Hw) as [A B]. fold positions summed in A, B. split.
  - intros area HA HP fov i j. pose proof (proj1 (A area HA HP) i j) as E. cbv zeta in E. unfold fov. unfold summed at 1. rewrite <- E. intros P. apply log10_spec, P.
  - intros HN i j. pose proof (B HN i j) as E. unfold summed. rewrite <- E. intros P. apply log10_spec, P.
Qed.
Print Assumptions C92_mean.

(** An empty data set: the mean pattern raises ValueError, without it the first picture raises IndexError. *)
Theorem C92_empty_refuted : forall logarithmic offset hull d es, d_patterns d = nil -> d_translations d = nil ->
  inspect logarithmic offset hull true d es = Raise ValueError /\ inspect logarithmic offset hull false d es = Raise IndexError.
Proof.
  intros logarithmic offset hull d es E1 E2. unfold inspect. rewrite C92_values by (rewrite E1, E2; reflexivity). cbn [rbind]. unfold plot_mean_pattern, calc_spectral_info. rewrite E1, E2. split; reflexivity.
Qed.
Print Assumptions C92_empty_refuted.
(** 13 positions and 11 patterns: nothing raises, and positions 10, 11 and 12 all get the sum of pattern 10. *)
Definition short_data (k n : nat) : data :=
  {| d_h := 1; d_w := 2; d_patterns := map (fun p => fun _ j => INR (p + j)) (seq 0 k); d_translations := repeat (0, 0, 0) n; d_mask := fun _ j => Nat.eqb j 0;
     d_background := None; d_qe := None; d_intensities := None; d_b0 := (1, 0, 0); d_b1 := (0, 1, 0); d_dist := 1; d_wl := 1; d_orientation := None |}.
Theorem C92_broadcast_refuted : exists values, nanomap_values (short_data 11 13) = Ok values /\ length values = 13%nat /\ skipn 10 values = 10 :: 10 :: 10 :: nil.
Proof.
  destruct (C92_mismatch (short_data 11 13)) as (_ & H & _); [cbn; lia|]. specialize (H 1%nat eq_refl ltac:(cbn; lia)). eexists. split; [exact H|].
  cbn -[INR]. unfold unmasked_sum, isum. cbn -[INR]. split; [reflexivity|]. rewrite !Rplus_0_l, !Rplus_0_r. cbn. repeat (f_equal; try ring).
Qed.
Print Assumptions C92_broadcast_refuted.
(** A data set of 12 patterns meets the hypotheses, and a history of keys, a click and a drag. *)
Example C92_example : let d := short_data 12 12 in length (d_patterns d) = length (d_translations d) /\ Forall (npossible 12) (Action false 1 :: Pick 11 :: Action true 1 :: Drag 7 :: nil)%Z /\
  fst (fold_left (fun s e => nideal 12 1 false e s) (Action false (-1) :: Pick 11 :: Action true 1 :: Action false 1 :: nil)%Z (0, 0)%Z) = 1%Z /\
  nth 11 (map (unmasked_sum d) (d_patterns d)) 0 = 11 /\ independent (d_b0 d) (d_b1 d).
Proof.
  cbv zeta. split; [reflexivity|]. split; [repeat constructor; cbn; lia|]. split; [reflexivity|]. split.
  - cbn -[INR]. unfold unmasked_sum, isum. cbn -[INR]. rewrite !Rplus_0_l, !Rplus_0_r. cbn. ring.
  - unfold independent. intros H. apply (f_equal snd) in H. unfold vcross, vx, vy, vz, short_data, d_b0, d_b1, fst, snd in H. lra.
Qed.
