(** C83: calc_spectral_info. *)
From Verif Require Import Base FinSum Model_Prop Model_Meas Model_Geom Spec_Geom Proofs_Geom Properties_Geom Model_Image Model_Analysis Model_Init Model_Spectral Model_Synth Spec_Synth Properties_PRTF.
From Coq Require Import Permutation.
Local Open Scope R_scope.

Lemma vlen_scale k u : 0 <= k -> vlen (vscale k u) = k * vlen u.
Proof.
  intros Hk. unfold vlen. replace (vdot (vscale k u) (vscale k u)) with (k * k * vdot u u) by (clear; v3; ring).
  rewrite sqrt_mult; [rewrite sqrt_square by exact Hk; reflexivity|nra|]. clear. v3. nra.
Qed.
Lemma cross_pinv e0 e1 : independent e0 e1 -> vcross (pinv0 e0 e1) (pinv1 e0 e1) = vscale (/ vdot (vcross e0 e1) (vcross e0 e1)) (vcross e0 e1).
Proof.
  intros I. assert (P : 0 < vdot (vcross e0 e1) (vcross e0 e1)) by (apply vdot_pos; exact I). unfold pinv0, pinv1. rewrite lagrange. set (D := vdot (vcross e0 e1) (vcross e0 e1)) in *.
  assert (E : forall a b c, vcross (vscale (/ D) (vsub (vscale b e0) (vscale c e1))) (vscale (/ D) (vsub (vscale a e1) (vscale c e0))) = vscale (/ D * / D * (a * b - c * c)) (vcross e0 e1)).
  { intros a b c. set (k := / D). clearbody k. clear. apply v3_eq; v3; ring. }
  rewrite E. assert (L : vdot e0 e0 * vdot e1 e1 - vdot e0 e1 * vdot e0 e1 = D) by (unfold D; apply lagrange). rewrite L. f_equal. field. lra.
Qed.
(** The field of view conjugate to the detector has the area (wavelength distance)^2 / (area of a detector pixel). *)
Lemma fov_area_is d : independent (d_b0 d) (d_b1 d) -> (0 < d_h d)%nat -> (0 < d_w d)%nat -> fov_area d = (d_wl d * d_dist d) ^ 2 / vlen (vcross (d_b0 d) (d_b1 d)).
Proof.
  intros I Hh Hw. unfold fov_area, spectral_basis, exit_wave_geometry. cbn [fst snd]. set (n0 := INR (d_h d)). set (n1 := INR (d_w d)).
  assert (P0 : 0 < n0) by now apply lt_0_INR. assert (P1 : 0 < n1) by now apply lt_0_INR. set (e0 := vscale n0 (d_b0 d)). set (e1 := vscale n1 (d_b1 d)).
  assert (CE : vcross e0 e1 = vscale (n0 * n1) (vcross (d_b0 d) (d_b1 d))) by (unfold e0, e1; generalize (d_b0 d) (d_b1 d) n0 n1; clear; intros; apply v3_eq; v3; ring).
  set (c := vcross (d_b0 d) (d_b1 d)) in *. assert (PC : 0 < vdot c c) by (apply vdot_pos; exact I).
  assert (I' : independent e0 e1).
  { unfold independent. rewrite CE. intros Z. assert (vdot (vscale (n0 * n1) c) (vscale (n0 * n1) c) = 0) as Q by (rewrite Z; unfold vdot, vx, vy, vz; cbn [fst snd]; ring).
    replace (vdot (vscale (n0 * n1) c) (vscale (n0 * n1) c)) with ((n0 * n1) * (n0 * n1) * vdot c c) in Q by (clear; v3; ring). assert (0 < n0 * n1) by nra. assert (0 < n0 * n1 * (n0 * n1)) by nra. nra. }
  replace (vcross (vscale n0 (vscale (d_dist d) (vscale (d_wl d) (pinv0 e0 e1)))) (vscale n1 (vscale (d_dist d) (vscale (d_wl d) (pinv1 e0 e1)))))
    with (vscale (n0 * n1 * (d_wl d * d_dist d) ^ 2) (vcross (pinv0 e0 e1) (pinv1 e0 e1))) by (generalize (pinv0 e0 e1) (pinv1 e0 e1) (d_wl d) (d_dist d); clear; intros; apply v3_eq; v3; ring).
  rewrite (cross_pinv e0 e1 I'), CE.
  replace (vdot (vscale (n0 * n1) c) (vscale (n0 * n1) c)) with ((n0 * n1) * (n0 * n1) * vdot c c) by (clear; v3; ring).
  assert (K : forall a b u, vscale a (vscale b u) = vscale (a * b) u) by (clear; intros; apply v3_eq; v3; ring). rewrite !K.
  assert (LL : vlen c * vlen c = vdot c c) by (apply sqrt_sqrt; lra). assert (LP : 0 < vlen c) by now apply sqrt_lt_R0.
  rewrite vlen_scale.
  - rewrite <- LL. field. repeat split; lra.
  - apply Rmult_le_pos; [|nra]. apply Rmult_le_pos; [apply Rmult_le_pos; [nra|apply pow2_ge_0]|]. left. apply Rinv_0_lt_compat. assert (0 < n0 * n1) by nra. apply Rmult_lt_0_compat; [nra|exact PC].
Qed.
(** C83: the pattern: every unmasked pixel holds the sum of the patterns there, times the ratio of the area
    (wavelength distance)^2 / (pixel area) of the field of view and the scanned area; or, when no area could be found, the
    mean of the patterns; masked pixels hold 0.  So the total scales as the documentation says. *)
Theorem C83_pattern : forall hull d n spectrum freqs third, calc_spectral_info hull d n = Ok (spectrum, freqs, third) ->
  independent (d_b0 d) (d_b1 d) -> (0 < d_h d)%nat -> (0 < d_w d)%nat ->
  let positions := map (fun t => (vx t, vy t)) (d_translations d) in
  let summed : rimg := fun i j => if d_mask d i j then lsum (map (fun im : rimg => im i j) (d_patterns d)) else 0 in
  (forall area, hull positions = Some area -> 0 < area -> let fov := (d_wl d * d_dist d) ^ 2 / vlen (vcross (d_b0 d) (d_b1 d)) in
    (forall i j, spectrum i j = fov / area * summed i j) /\
    (0 < fov -> isum (d_h d) (d_w d) spectrum / fov = isum (d_h d) (d_w d) summed / area)) /\
  (hull positions = None -> forall i j, spectrum i j = summed i j / INR (length (d_patterns d))).
Proof.
  intros hull d n spectrum freqs third E I Hh Hw positions summed. unfold calc_spectral_info in E. destruct (d_patterns d) as [|p0 ps] eqn:EP; [discriminate|]. destruct (Nat.eqb n 0); [discriminate|].
  injection E as ES _ _. subst spectrum.
  assert (G : forall i j, sum_pattern hull d i j = summed i j * scale_factor hull d) by (intros i j; unfold sum_pattern, mask_value, summed; rewrite EP; destruct (d_mask d i j); ring).
  split.
  - intros area EA PA fov. assert (SF : scale_factor hull d = fov / area) by (unfold scale_factor; fold positions; rewrite EA, fov_area_is by assumption; reflexivity).
    assert (S1 : forall i j, sum_pattern hull d i j = fov / area * summed i j) by (intros i j; rewrite G, SF; ring). split; [exact S1|]. intros PF.
    unfold isum. rewrite (rsum_ext _ _ (fun i => fov / area * rsum (d_w d) (summed i))) by (intros i _; rewrite rsum_scal; apply rsum_ext; intros j _; apply S1). rewrite <- rsum_scal. field. split; lra.
  - intros EN i j. rewrite G. unfold scale_factor. fold positions. rewrite EN, EP. unfold Rdiv. ring.
Qed.
Print Assumptions C83_pattern.
Lemma shifted_freq_is n x i : (i < n)%nat -> shifted_freq n x i = (INR i - INR (n / 2)) / (INR n * x).
Proof.
  intros Hi. unfold shifted_freq, fftfreq, roll. assert (Hn : (0 < n)%nat) by lia. assert (D : (2 * (n / 2) <= n < 2 * (n / 2) + 2)%nat) by (pose proof (Nat.div_mod n 2 ltac:(lia)); pose proof (Nat.mod_upper_bound n 2 ltac:(lia)); lia).
  assert (U : ((n + 1) / 2 = n - n / 2)%nat) by (symmetry; apply (Nat.div_unique (n + 1) 2 (n - n / 2) (n + 1 - 2 * (n - n / 2))); lia).
  destruct (Nat.eq_dec n 1) as [->|N1]; [assert (i = 0)%nat by lia; subst i; cbn; unfold Rdiv; rewrite Rmult_1_l; ring|].
  assert (NZ : INR n <> 0) by (apply not_0_INR; lia). rewrite (Nat.mod_small (n / 2) n) by lia. rewrite U.
  destruct (Nat.lt_ge_cases i (n / 2)) as [L|L].
  - rewrite Nat.mod_small by lia. replace (Nat.ltb (i + (n - n / 2)) (n - n / 2)) with false by (symmetry; apply Nat.ltb_ge; lia). rewrite plus_INR, minus_INR by lia. unfold Rdiv. rewrite Rinv_mult. ring.
  - replace (i + (n - n / 2))%nat with ((i - n / 2) + 1 * n)%nat by lia. rewrite Nat.mod_add, Nat.mod_small by lia. replace (Nat.ltb (i - n / 2) (n - n / 2)) with true by (symmetry; apply Nat.ltb_lt; lia). rewrite minus_INR by lia. unfold Rdiv. rewrite Rinv_mult. ring.
Qed.
(** The frequency of pixel (i, j): its distance on the detector from pixel (h/2, w/2), over wavelength and distance. *)
Definition frequency (d : data) (i j : nat) : R :=
  vlen (point (d_b0 d) (d_b1 d) (INR i - INR (d_h d / 2), INR j - INR (d_w d / 2))) / (d_wl d * d_dist d).
(** The largest frequency along an axis (towards larger pixel numbers). *)
Definition top_frequency (d : data) : R :=
  Rmax (INR ((d_h d - 1) / 2) * vlen (d_b0 d)) (INR ((d_w d - 1) / 2) * vlen (d_b1 d)) / (d_wl d * d_dist d).
Definition rectangular (d : data) : Prop :=
  independent (d_b0 d) (d_b1 d) /\ vdot (d_b0 d) (d_b1 d) = 0 /\ (0 < d_h d)%nat /\ (0 < d_w d)%nat /\ 0 < d_wl d * d_dist d.
Lemma steps d : rectangular d -> let e := spectral_basis d in INR (d_h d) * vlen (fst e) = d_wl d * d_dist d / vlen (d_b0 d) /\ INR (d_w d) * vlen (snd e) = d_wl d * d_dist d / vlen (d_b1 d) /\ 0 < vlen (d_b0 d) /\ 0 < vlen (d_b1 d).
Proof.
  intros (I & O & Hh & Hw & P) e. destruct (C35_rectangular (d_b0 d) (d_b1 d) (d_h d) (d_w d) (d_wl d) (d_dist d) I O Hh Hw (Rlt_le _ _ P)) as [A B]. fold (spectral_basis d) in A, B. fold e in A, B.
  assert (Z : forall k v : R, 0 <= v -> k * v = d_wl d * d_dist d -> 0 < v) by (intros k v Hv EQ; destruct Hv as [Hv|<-]; [exact Hv|lra]).
  assert (P0 : 0 < vlen (d_b0 d)) by (apply (Z (vlen (fst e) * INR (d_h d))); [apply sqrt_pos|lra]). assert (P1 : 0 < vlen (d_b1 d)) by (apply (Z (vlen (snd e) * INR (d_w d))); [apply sqrt_pos|lra]).
  split; [|split; [|split; assumption]].
  - rewrite <- A. field. lra.
  - rewrite <- B. field. lra.
Qed.
Lemma radius_frequency d i j : rectangular d -> (i < d_h d)%nat -> (j < d_w d)%nat -> radius (d_h d) (d_w d) (vlen (fst (spectral_basis d))) (vlen (snd (spectral_basis d))) i j = frequency d i j.
Proof.
  intros RT Hi Hj. destruct (steps d RT) as (A & B & P0 & P1). destruct RT as (I & O & Hh & Hw & P). unfold radius. rewrite !shifted_freq_is, A, B by assumption.
  set (x := INR i - INR (d_h d / 2)). set (y := INR j - INR (d_w d / 2)). set (k := d_wl d * d_dist d) in *.
  unfold frequency. fold x y k. replace (vlen (point (d_b0 d) (d_b1 d) (x, y)) / k) with (vlen (vscale (/ k) (point (d_b0 d) (d_b1 d) (x, y)))) by (rewrite vlen_scale by (left; now apply Rinv_0_lt_compat); unfold Rdiv; ring). unfold vlen at 3. f_equal.
  assert (L0 : vlen (d_b0 d) * vlen (d_b0 d) = vdot (d_b0 d) (d_b0 d)) by (apply sqrt_sqrt; generalize (d_b0 d); clear; intros; v3; nra). assert (L1 : vlen (d_b1 d) * vlen (d_b1 d) = vdot (d_b1 d) (d_b1 d)) by (apply sqrt_sqrt; generalize (d_b1 d); clear; intros; v3; nra).
  replace (vdot (vscale (/ k) (point (d_b0 d) (d_b1 d) (x, y))) (vscale (/ k) (point (d_b0 d) (d_b1 d) (x, y)))) with
    (/ k * / k * (x * x * vdot (d_b0 d) (d_b0 d) + 2 * x * y * vdot (d_b0 d) (d_b1 d) + y * y * vdot (d_b1 d) (d_b1 d))) by (generalize (/ k) x y (d_b0 d) (d_b1 d); clear; intros; unfold point; cbn [fst snd]; v3; ring).
  rewrite O, <- L0, <- L1. field. repeat split; lra.
Qed.
Lemma range_top d : rectangular d -> frc_range (d_h d) (d_w d) (vlen (fst (spectral_basis d))) (vlen (snd (spectral_basis d))) Side = top_frequency d.
Proof.
  intros RT. destruct (steps d RT) as (A & B & P0 & P1). destruct RT as (I & O & Hh & Hw & P). unfold frc_range, top_frequency, max_freq. set (k := d_wl d * d_dist d) in *.
  assert (E0 : INR ((d_h d - 1) / 2) / INR (d_h d) / vlen (fst (spectral_basis d)) = / k * (INR ((d_h d - 1) / 2) * vlen (d_b0 d))).
  { unfold Rdiv at 1 2. rewrite Rmult_assoc, <- Rinv_mult, A. field. split; lra. }
  assert (E1 : INR ((d_w d - 1) / 2) / INR (d_w d) / vlen (snd (spectral_basis d)) = / k * (INR ((d_w d - 1) / 2) * vlen (d_b1 d))).
  { unfold Rdiv at 1 2. rewrite Rmult_assoc, <- Rinv_mult, B. field. split; lra. }
  rewrite E0, E1. rewrite RmaxRmult by (left; now apply Rinv_0_lt_compat). unfold Rdiv. ring.
Qed.
(** C83: for a rectangular detector of at least three rows or columns, the frequencies are the lower edges of rings of
    equal width from 0 to the largest frequency along the axes, and the third result of a ring is the mean of the
    pattern over the unmasked pixels whose frequency lies in the ring. *)
Theorem C83_rings : forall hull d n, d_patterns d <> [] -> (0 < n)%nat -> rectangular d -> (3 <= d_h d \/ 3 <= d_w d)%nat ->
  exists spectrum freqs third, calc_spectral_info hull d n = Ok (spectrum, freqs, third) /\ 0 < top_frequency d /\
  forall b, (b < n)%nat -> freqs b = INR b / INR n * top_frequency d /\
    exists sel : nat -> nat -> bool, (forall i j, (i < d_h d)%nat -> (j < d_w d)%nat -> sel i j = true <-> d_mask d i j = true /\ in_ring n (top_frequency d) b (frequency d i j)) /\
    third b = isum (d_h d) (d_w d) (fun i j => if sel i j then spectrum i j else 0) / isum (d_h d) (d_w d) (fun i j => if sel i j then 1 else 0).
Proof.
  intros hull d n NE Hn RT H3. unfold calc_spectral_info. destruct (d_patterns d) as [|p0 ps] eqn:EP; [contradiction|]. replace (Nat.eqb n 0) with false by (symmetry; apply Nat.eqb_neq; lia).
  eexists. eexists. eexists. split; [reflexivity|]. rewrite (range_top d RT).
  assert (TP : 0 < top_frequency d).
  { destruct (steps d RT) as (_ & _ & P0 & P1). destruct RT as (_ & _ & _ & _ & P). unfold top_frequency. apply Rdiv_lt_0_compat; [|exact P].
    destruct H3 as [H3|H3]; [eapply Rlt_le_trans; [|apply Rmax_l]|eapply Rlt_le_trans; [|apply Rmax_r]]; (apply Rmult_lt_0_compat; [|assumption]; apply lt_0_INR; apply Nat.div_str_pos; lia). }
  split; [exact TP|]. intros b Hb. split.
  - unfold edge. destruct (Req_EM_T _ 0) as [Z|_]; [lra|]. field. apply not_0_INR. lia.
  - exists (fun i j => (d_mask d i j && frc_bin (d_h d) (d_w d) n (vlen (fst (spectral_basis d))) (vlen (snd (spectral_basis d))) Side b i j)%bool). split.
    + intros i j Hi Hj. rewrite Bool.andb_true_iff. unfold frc_bin. rewrite (range_top d RT), (radius_frequency d i j RT Hi Hj). rewrite (in_bin_ring n (top_frequency d) b _ Hn TP). reflexivity.
    + f_equal; [|f_equal]; unfold histogram_r, isum; apply rsum_ext; intros i _; apply rsum_ext; intros j _; unfold sum_pattern, mask_value; destruct (d_mask d i j), (frc_bin _ _ _ _ _ _ _ i j); cbn [andb]; try ring; reflexivity.
Qed.
Print Assumptions C83_rings.
Lemma rsum_split_at n k f : (k < n)%nat -> rsum n f = f k + rsum n (fun i => if Nat.eqb i k then 0 else f i).
Proof.
  intros Hk. transitivity (rsum n (fun i => (if Nat.eqb i k then f i else 0) + (if Nat.eqb i k then 0 else f i))); [apply rsum_ext; intros i _; destruct (Nat.eqb i k); ring|]. rewrite rsum_add. f_equal.
  rewrite (rsum_single n k) by (exact Hk || (intros i _ NE; now rewrite (proj2 (Nat.eqb_neq i k) NE))). now rewrite Nat.eqb_refl.
Qed.
(** C83: so it lies between the least and the largest value of the pattern at those pixels. *)
Theorem C83_between : forall hull d n b spectrum freqs third lo hi, calc_spectral_info hull d n = Ok (spectrum, freqs, third) -> rectangular d -> (3 <= d_h d \/ 3 <= d_w d)%nat -> (b < n)%nat ->
  (exists i j, (i < d_h d)%nat /\ (j < d_w d)%nat /\ d_mask d i j = true /\ in_ring n (top_frequency d) b (frequency d i j)) ->
  (forall i j, (i < d_h d)%nat -> (j < d_w d)%nat -> d_mask d i j = true -> in_ring n (top_frequency d) b (frequency d i j) -> lo <= spectrum i j <= hi) ->
  lo <= third b <= hi.
Proof.
  intros hull d n b spectrum freqs third lo hi E RT H3 Hb (i & j & Hi & Hj & MK & RG) BD.
  assert (NE : d_patterns d <> []) by (intros Z; unfold calc_spectral_info in E; rewrite Z in E; discriminate).
  destruct (C83_rings hull d n NE ltac:(lia) RT H3) as (s' & f' & t' & E' & TP & R). rewrite E' in E. injection E as -> -> ->. destruct (R b Hb) as (_ & sel & SEL & ->).
  set (c := isum (d_h d) (d_w d) (fun i j => if sel i j then 1 else 0)).
  assert (PC : 0 < c).
  { assert (G : 1 <= c); [|lra]. unfold c, isum. apply Rle_trans with (rsum (d_w d) (fun j => if sel i j then 1 else 0)).
    - apply Rle_trans with (if sel i j then 1 else 0); [destruct (sel i j) eqn:ES; [lra|]; assert (sel i j = true) by (apply SEL; auto); congruence|].
      rewrite (rsum_split_at (d_w d) j) by exact Hj. set (x := if sel i j then 1 else 0). assert (Z : 0 <= rsum (d_w d) (fun k => if Nat.eqb k j then 0 else (if sel i k then 1 else 0))) by (apply rsum_nonneg; intros k _; destruct (Nat.eqb k j), (sel i k); lra). lra.
    - rewrite (rsum_split_at (d_h d) i (fun i => rsum (d_w d) (fun j => if sel i j then 1 else 0))) by exact Hi.
      assert (Z : 0 <= rsum (d_h d) (fun k => if Nat.eqb k i then 0 else rsum (d_w d) (fun j => if sel k j then 1 else 0))) by (apply rsum_nonneg; intros k _; destruct (Nat.eqb k i); [lra|]; apply rsum_nonneg; intros l _; destruct (sel k l); lra). lra. }
  assert (LO : lo * c <= isum (d_h d) (d_w d) (fun i j => if sel i j then spectrum i j else 0)).
  { unfold c, isum. rewrite rsum_scal. apply rsum_le. intros a Ha. rewrite rsum_scal. apply rsum_le. intros a' Ha'. destruct (sel a a') eqn:ES; [|lra]. apply SEL in ES; auto. destruct (BD a a' Ha Ha' (proj1 ES) (proj2 ES)). lra. }
  assert (HI : isum (d_h d) (d_w d) (fun i j => if sel i j then spectrum i j else 0) <= hi * c).
  { unfold c, isum. rewrite rsum_scal. apply rsum_le. intros a Ha. rewrite rsum_scal. apply rsum_le. intros a' Ha'. destruct (sel a a') eqn:ES; [|lra]. apply SEL in ES; auto. destruct (BD a a' Ha Ha' (proj1 ES) (proj2 ES)). lra. }
  split; [apply Rmult_le_reg_r with c; [exact PC|]; unfold Rdiv; rewrite Rmult_assoc, Rinv_l by lra; lra|].
  apply Rmult_le_reg_r with c; [exact PC|]. unfold Rdiv. rewrite Rmult_assoc, Rinv_l by lra. lra.
Qed.
Print Assumptions C83_between.
(** C83: the order of the exposures does not matter. *)
Theorem C83_order : forall hull d d' n spectrum freqs third, calc_spectral_info hull d n = Ok (spectrum, freqs, third) ->
  (forall l l', Permutation l l' -> hull l = hull l') -> Permutation (d_patterns d) (d_patterns d') -> Permutation (d_translations d) (d_translations d') ->
  d_h d = d_h d' -> d_w d = d_w d' -> d_mask d = d_mask d' -> d_b0 d = d_b0 d' -> d_b1 d = d_b1 d' -> d_wl d = d_wl d' -> d_dist d = d_dist d' ->
  exists spectrum' third', calc_spectral_info hull d' n = Ok (spectrum', freqs, third') /\ (forall i j, spectrum' i j = spectrum i j) /\ (forall b, third' b = third b).
Proof.
  intros hull d d' n spectrum freqs third E HP PP PT E1 E2 E3 E4 E5 E6 E7.
  assert (ER : forall i j, sum_pattern hull d' i j = sum_pattern hull d i j).
  { intros i j. unfold sum_pattern, mask_value, scale_factor, fov_area, spectral_basis. rewrite <- E1, <- E2, <- E3, <- E4, <- E5, <- E6, <- E7. rewrite <- (Permutation_length PP).
    rewrite (HP (map (fun t => (vx t, vy t)) (d_translations d')) (map (fun t => (vx t, vy t)) (d_translations d))) by (apply Permutation_map, Permutation_sym, PT). f_equal. f_equal.
    assert (G : forall l l' : list rimg, Permutation l l' -> lsum (map (fun im : rimg => im i j) l) = lsum (map (fun im : rimg => im i j) l')) by (induction 1; unfold lsum in *; cbn [map fold_right] in *; lra).
    apply G, Permutation_sym, PP. }
  unfold calc_spectral_info in *. destruct (d_patterns d) as [|p0 ps] eqn:EP; [discriminate|]. destruct (d_patterns d') as [|p0' ps'] eqn:EP'; [apply Permutation_sym, Permutation_nil in PP; discriminate|].
  destruct (Nat.eqb n 0); [discriminate|]. injection E as <- <- <-.
  assert (EB : spectral_basis d' = spectral_basis d) by (unfold spectral_basis; now rewrite <- E1, <- E2, <- E4, <- E5, <- E6, <- E7).
  rewrite EB, <- E1, <- E2. eexists. eexists. split; [reflexivity|]. split; [exact ER|]. intros b. unfold Rdiv. f_equal; [|f_equal].
  - unfold histogram_r, isum. apply rsum_ext. intros i _. apply rsum_ext. intros j _. now rewrite ER.
  - assert (EM : mask_value d' = mask_value d) by (unfold mask_value; now rewrite <- E3). now rewrite EM.
Qed.
Print Assumptions C83_order.
(** C83: pixels beyond the largest frequency along the axes enter no ring; on a square detector of square pixels with an
    even number of rows these include the whole first row and the whole first column. *)
Theorem C83_left_out : forall d n i j, rectangular d -> (3 <= d_h d \/ 3 <= d_w d)%nat -> (i < d_h d)%nat -> (j < d_w d)%nat ->
  (top_frequency d < frequency d i j -> forall b, (b < n)%nat -> ~ in_ring n (top_frequency d) b (frequency d i j)) /\
  (d_h d = d_w d -> Nat.even (d_h d) = true -> vlen (d_b0 d) = vlen (d_b1 d) -> i = 0%nat \/ j = 0%nat -> top_frequency d < frequency d i j).
Proof.
  intros d n i j RT H3 Hi Hj. split.
  - intros L b Hb [[_ Q]|[_ Q]]; [|lra].
    assert (T0 : 0 <= top_frequency d). { destruct (steps d RT) as (_ & _ & P0 & P1). destruct RT as (_ & _ & _ & _ & P). unfold top_frequency. apply Rmult_le_pos; [|left; now apply Rinv_0_lt_compat]. eapply Rle_trans; [|apply Rmax_l]. apply Rmult_le_pos; [apply pos_INR|lra]. }
    assert (M : INR (S b) / INR n * top_frequency d <= 1 * top_frequency d).
    { apply Rmult_le_compat_r; [exact T0|]. assert (0 < INR n) by (apply lt_0_INR; lia). apply Rmult_le_reg_r with (INR n); [assumption|]. unfold Rdiv. rewrite Rmult_assoc, Rinv_l by lra. rewrite Rmult_1_r, Rmult_1_l. apply le_INR. lia. }
    lra.
  - intros HW EV LV ZZ. destruct (steps d RT) as (_ & _ & P0 & P1). pose proof RT as (I & O & Hh & Hw & P). unfold top_frequency, frequency. apply Rmult_lt_compat_r; [now apply Rinv_0_lt_compat|].
    rewrite <- HW, <- LV. rewrite Rmax_left by lra. set (x := INR i - INR (d_h d / 2)). set (y := INR j - INR (d_h d / 2)). apply Nat.even_spec in EV. destruct EV as [m EM].
    assert (A : ((d_h d - 1) / 2 = m - 1)%nat) by (symmetry; apply (Nat.div_unique (d_h d - 1) 2 (m - 1) 1); lia). assert (B : (d_h d / 2 = m)%nat) by (rewrite EM, Nat.mul_comm; apply Nat.div_mul; lia).
    assert (Hm : (1 <= m)%nat) by lia. rewrite A. assert (LE : INR m * vlen (d_b0 d) <= vlen (point (d_b0 d) (d_b1 d) (x, y))).
    { unfold vlen at 2. replace (vdot (point (d_b0 d) (d_b1 d) (x, y)) (point (d_b0 d) (d_b1 d) (x, y))) with (x * x * vdot (d_b0 d) (d_b0 d) + 2 * x * y * vdot (d_b0 d) (d_b1 d) + y * y * vdot (d_b1 d) (d_b1 d)) by (generalize x y (d_b0 d) (d_b1 d); clear; intros; unfold point; cbn [fst snd]; v3; ring).
      assert (L0 : vdot (d_b0 d) (d_b0 d) = vlen (d_b0 d) * vlen (d_b0 d)) by (symmetry; apply sqrt_sqrt; generalize (d_b0 d); clear; intros; v3; nra). assert (L1 : vdot (d_b1 d) (d_b1 d) = vlen (d_b0 d) * vlen (d_b0 d)) by (rewrite LV; symmetry; apply sqrt_sqrt; generalize (d_b1 d); clear; intros; v3; nra).
      rewrite O, L0, L1. set (v := vlen (d_b0 d)) in *. rewrite <- (sqrt_Rsqr (INR m * v)) by (apply Rmult_le_pos; [apply pos_INR|lra]). apply sqrt_le_1_alt. unfold Rsqr.
      assert (SQ : INR m * INR m <= x * x + y * y). { destruct ZZ as [ZZ|ZZ]; [assert (x = - INR m) by (unfold x; rewrite B, ZZ; cbn; ring)|assert (y = - INR m) by (unfold y; rewrite B, ZZ; cbn; ring)]; nra. }
      assert (0 <= v * v) by nra. nra. }
    eapply Rlt_le_trans; [|exact LE]. apply Rmult_lt_compat_r; [exact P0|]. apply lt_INR. lia.
Qed.
Print Assumptions C83_left_out.
(** C83: errors. *)
Theorem C83_errors : forall hull d n e, calc_spectral_info hull d n = Raise e <-> e = ValueError /\ (d_patterns d = [] \/ n = 0%nat).
Proof.
  intros hull d n e. unfold calc_spectral_info. destruct (d_patterns d) as [|p ps]; [split; [intros E; injection E as <-; auto|intros [-> _]; reflexivity]|].
  destruct (Nat.eqb n 0) eqn:EN; [apply Nat.eqb_eq in EN; split; [intros E; injection E as <-; auto|intros [-> _]; reflexivity]|]. apply Nat.eqb_neq in EN. split; [discriminate|]. intros [_ [Z|Z]]; [discriminate|contradiction].
Qed.
Print Assumptions C83_errors.
(** A case: 4 x 4 pixels of size 1, two patterns, one masked pixel, wavelength 1, distance 2, scanned area 2: the field of
    view has area 4, the pattern is twice the sum; pixel (2, 2) is alone in the first ring. *)
Example C83_case : let d := {| d_h := 4; d_w := 4; d_patterns := [(fun _ _ => 1); (fun i j => INR i)]; d_translations := [(0, 0, 0); (1, 0, 0)]; d_mask := (fun i j => negb (Nat.eqb i 2 && Nat.eqb j 1));
    d_background := None; d_qe := None; d_intensities := None; d_b0 := (0, 1, 0); d_b1 := (1, 0, 0); d_dist := 2; d_wl := 1; d_orientation := None |} in
  rectangular d /\ top_frequency d = 1 / 2 /\ exists spectrum freqs third, calc_spectral_info (fun _ => Some 2) d 1 = Ok (spectrum, freqs, third) /\ spectrum 3%nat 3%nat = 8 /\ spectrum 2%nat 1%nat = 0 /\ 0 <= third 0%nat <= 8.
Proof.
  intros d. assert (RT : rectangular d). { unfold rectangular, d. cbn. repeat split; try lia; try lra; [|unfold vdot, vx, vy, vz; cbn; ring]. unfold independent. intros Z. apply (f_equal vz) in Z. unfold vcross, vx, vy, vz in Z. cbn in Z. lra. }
  assert (L0 : vlen (0, 1, 0) = 1) by (unfold vlen, vdot, vx, vy, vz; cbn [fst snd]; replace (0 * 0 + 1 * 1 + 0 * 0) with 1 by ring; apply sqrt_1). assert (L1 : vlen (1, 0, 0) = 1) by (unfold vlen, vdot, vx, vy, vz; cbn [fst snd]; replace (1 * 1 + 0 * 0 + 0 * 0) with 1 by ring; apply sqrt_1).
  split; [exact RT|]. assert (TF : top_frequency d = 1 / 2) by (unfold top_frequency, d; cbn [d_h d_w d_b0 d_b1 d_wl d_dist]; rewrite L0, L1; cbn [Nat.sub Nat.div Nat.divmod fst]; change (INR 1) with 1; rewrite Rmax_left by lra; field). split; [exact TF|].
  destruct (C83_rings (fun _ => Some 2) d 1) as (s & f & t & E & _); [discriminate|lia|exact RT|left; unfold d; cbn; lia|]. exists s, f, t. split; [exact E|].
  destruct (C83_pattern _ _ _ _ _ _ E) as [A _]; [apply RT|unfold d; cbn; lia|unfold d; cbn; lia|]. destruct (A 2 eq_refl ltac:(lra)) as [S _].
  assert (F : forall i j, s i j = 2 * (if negb (Nat.eqb i 2 && Nat.eqb j 1) then 1 + INR i else 0)).
  { intros i j. rewrite S. unfold d. cbn [d_wl d_dist d_b0 d_b1 d_mask d_patterns map]. replace (vlen (vcross (0, 1, 0) (1, 0, 0))) with 1. 2:{ unfold vlen, vdot, vcross, vx, vy, vz. cbn [fst snd]. symmetry. match goal with |- sqrt ?x = 1 => replace x with 1 by ring end. apply sqrt_1. }
    destruct (negb _); unfold lsum; cbn [fold_right]; field. }
  split; [rewrite F; cbn; ring|]. split; [rewrite F; cbn; ring|].
  apply (C83_between (fun _ => Some 2) d 1 0 s f t 0 8 E RT); [left; unfold d; cbn; lia|lia| |].
  - exists 2%nat, 2%nat. split; [unfold d; cbn; lia|]. split; [unfold d; cbn; lia|]. split; [reflexivity|]. left. rewrite TF. unfold frequency, d. cbn [d_h d_w d_b0 d_b1 d_wl d_dist Nat.div Nat.divmod fst].
    replace (vlen (point (0, 1, 0) (1, 0, 0) (INR 2 - INR 2, INR 2 - INR 2))) with 0; [cbn [INR]; lra|]. unfold vlen, point, vdot, vadd, vscale, vx, vy, vz. cbn [fst snd]. symmetry. match goal with |- sqrt ?x = 0 => replace x with 0 by ring end. apply sqrt_0.
  - intros i j Hi Hj _ _. rewrite F. cbn [d_h d] in Hi. assert (INR i <= 3) by (replace 3 with (INR 3) by (cbn; ring); apply le_INR; unfold d in Hi; cbn in Hi; lia). pose proof (pos_INR i). destruct (negb _); lra.
Qed.
