(** C70: only the mutual coherence of an exposure's modes matters to the pattern of FancyPtycho, so tidy_probes
    changes no simulated pattern. *)
From Verif Require Import Base FinSum Fourier Matrix Model_Analysis Spec_Analysis Proofs_SVD Proofs_Ortho Properties_Ortho.
From Verif Require Import Model_Prop Spec_Prop Proofs_Prop Model_Image Spec_Image Proofs_Image
  Model_Interact Spec_Interact Proofs_Interact Model_Meas Spec_Meas Proofs_Meas Model_Geom Model_Models Model_Forward Spec_Forward Proofs_Forward Properties_Forward Proofs_ForwardSym Properties_ForwardSym.
From Coq Require Import FunctionalExtensionality.
From Coquelicot Require Import Complex.
From Flocq Require Import Core.Raux.
Local Open Scope C_scope.

(** The image of a lone pixel. *)
Definition pixel (n1 p : nat) : img := fun i j => if Nat.eqb (i * n1 + j) p then 1 else 0.
Lemma pixels n0 n1 x : same n0 n1 x (comb (n0 * n1) (flat n1 x) (pixel n1)).
Proof.
  intros i j Hi Hj. unfold comb. rewrite (csum_single _ (i * n1 + j)%nat).
  - unfold pixel, flat. rewrite Nat.eqb_refl, Nat.div_add_l by lia. rewrite Nat.div_small, Nat.add_0_r by lia.
    rewrite (Nat.add_comm _ j), Nat.mod_add by lia. rewrite Nat.mod_small by lia. ring.
  - nia.
  - intros q _ Hq. unfold pixel. replace (Nat.eqb (i * n1 + j) q) with false by (symmetry; apply Nat.eqb_neq; auto). ring.
Qed.
Lemma nrm2_conj z : RtoC (nrm2 z) = z * Cconj z.
Proof. unfold nrm2. destruct z as [x y]. apply C_ext; cbn; ring. Qed.
(** The power behind a linear system depends on the mutual coherence only. *)
Lemma coherent_power n0 n1 N0 N1 A n E n' E' a b : linear_map n0 n1 N0 N1 A -> same_coherence n0 n1 n E n' E' -> (a < N0)%nat -> (b < N1)%nat ->
  rsum n (fun k => nrm2 (A (E k) a b)) = rsum n' (fun k => nrm2 (A (E' k) a b)).
Proof.
  intros [AE AL] S Ha Hb.
  assert (V : forall x, A x a b = csum (n0 * n1) (fun p => flat n1 x p * A (pixel n1 p) a b)).
  { intros x. rewrite (AE _ _ (pixels n0 n1 x) a b Ha Hb). apply (AL (n0 * n1)%nat (flat n1 x) (pixel n1) a b Ha Hb). }
  assert (P : forall r F, RtoC (rsum r (fun k => nrm2 (A (F k) a b))) =
    csum (n0 * n1) (fun p => csum (n0 * n1) (fun q => A (pixel n1 p) a b * Cconj (A (pixel n1 q) a b) * coherence r F (q / n1) (q mod n1) (p / n1) (p mod n1)))).
  { intros r F. rewrite <- csum_RtoC.
    rewrite (csum_ext r _ (fun k => csum (n0 * n1) (fun p => csum (n0 * n1) (fun q => flat n1 (F k) p * A (pixel n1 p) a b * (Cconj (flat n1 (F k) q) * Cconj (A (pixel n1 q) a b)))))).
    2:{ intros k _. rewrite nrm2_conj, V, csum_conj, csum_scal_r. apply csum_ext. intros p _. rewrite csum_scal. apply csum_ext. intros q _. now rewrite Cconj_mult. }
    rewrite csum_swap. apply csum_ext. intros p _. rewrite csum_swap. apply csum_ext. intros q _. unfold coherence. rewrite csum_scal.
    apply csum_ext. intros k _. unfold flat. ring. }
  apply RtoC_inj. rewrite !P. apply csum_ext. intros p Hp. apply csum_ext. intros q Hq. f_equal.
  assert (n1 <> 0)%nat by (intros ->; lia).
  apply S; try (apply Nat.mod_upper_bound; assumption); apply Nat.div_lt_upper_bound; auto; lia.
Qed.
(** Photons of waves behind a linear system. *)
Lemma coherent_photons os n0 n1 d0 d1 A n E n' E' i j : linear_map n0 n1 (os * d0) (os * d1) A -> same_coherence n0 n1 n E n' E' -> (i < d0)%nat -> (j < d1)%nat ->
  photons os (map (fun k => A (E k)) (seq 0 n)) i j = photons os (map (fun k => A (E' k)) (seq 0 n')) i j.
Proof.
  intros L S Hi Hj. unfold photons. f_equal. rewrite !map_map.
  rewrite <- !(rsum_lsum _ (fun k => rsum os (fun a => rsum os (fun b => nrm2 (A (_ k) (os * i + a)%nat (os * j + b)%nat))))).
  rewrite rsum_swap. rewrite (rsum_swap n'). apply rsum_ext. intros a Ha. rewrite rsum_swap. rewrite (rsum_swap n'). apply rsum_ext. intros b Hb.
  apply (coherent_power n0 n1 (os * d0) (os * d1)); auto; nia.
Qed.
Lemma linear_comp n0 n1 m0 m1 N0 N1 A B : linear_map n0 n1 m0 m1 A -> linear_map m0 m1 N0 N1 B -> linear_map n0 n1 N0 N1 (fun x => B (A x)).
Proof.
  intros [AE AL] [BE BL]. split.
  - intros x y H. apply BE. now apply AE.
  - intros n u f i j Hi Hj. rewrite (BE _ _ (AL n u f) i j Hi Hj). now apply BL.
Qed.
Lemma id_linear n0 n1 : linear_map n0 n1 n0 n1 (fun x => x).
Proof. split; [auto|]. intros n u f i j _ _. reflexivity. Qed.

(** C70: two probes with weights that give an exposure the same mutual coherence function give it the same
    pattern, whatever the object (of a single plane), position, and detector. *)
Theorem C70_coherence : forall m ix t pos rows W probe' w' rows' W', f_simulate m = false -> f_shifts m = None ->
  position m ix t pos -> obj_planes m = 1%nat -> (forall q i j, f_qe m = Some q -> (0 <= q i j)%R) ->
  coefficients (f_weights m) ix (length (f_probe m)) rows W -> coefficients w' ix (length probe') rows' W' ->
  fits m rows pos -> (1 <= rows')%nat ->
  same_coherence (f_n0 m) (f_n1 m) rows (mixture W (f_support m) (f_probe m)) rows' (mixture W' (f_support m) probe') ->
  same_pattern (f_det0 m) (f_det1 m) (fancy_pattern m ix t) (fancy_pattern (remake m probe' w' (f_min m) (f_obj m)) ix t).
Proof.
  intros m ix t pos rows W probe' w' rows' W' S F HP HO HQ HC HC' HF R1 SC. set (m' := remake _ _ _ _ _).
  assert (HF' : fits m' rows' pos).
  { destruct HF as (A1 & A2 & A3 & A4 & A5 & A6 & A7 & A8 & A9 & A10 & A11). repeat split; try assumption; try apply A4; try apply A5; try apply A6; try apply A7. left. exact HO. }
  destruct (C62_pattern m ix t pos rows W S F HP HC HF HQ) as (r & E1 & E2).
  destruct (C62_pattern m' ix t pos rows' W' S F HP HC' HF' HQ) as (r' & E1' & E2').
  exists r, r'. split; [exact E1|]. split; [exact E1'|]. intros i j Hi Hj. rewrite E2 by assumption. rewrite E2' by assumption.
  change (f_saturation m') with (f_saturation m). change (f_qe m') with (f_qe m). change (f_background m') with (f_background m). change (f_os m') with (f_os m).
  f_equal. f_equal. destruct HF as (n0p & n1p & osp & _ & _ & _ & _ & r1 & _).
  set (Inv := fun x : img => if f_fourier m then inverse_far_field (f_n0 m) (f_n1 m) x else x).
  assert (LI : linear_map (f_n0 m) (f_n1 m) (f_n0 m) (f_n1 m) Inv) by (unfold Inv; destruct (f_fourier m); [now apply inv_far_linear|apply id_linear]).
  set (A := fun x => at_detector m (exit_wave m (Inv x) 0 pos)).
  assert (LA : linear_map (f_n0 m) (f_n1 m) (f_os m * f_det0 m) (f_os m * f_det1 m) A).
  { apply (linear_comp _ _ _ _ _ _ _ _ (linear_comp _ _ _ _ _ _ _ _ LI (exit_linear m 0 pos)) (detector_linear m)). }
  assert (SEL : forall n k, (k < n)%nat -> sel n k = k) by (intros [|[|n]] k Hk; cbn; lia).
  assert (G : map (at_detector m) (exits m (shot m W) rows pos) = map (fun k => A (mixture W (f_support m) (f_probe m) k)) (seq 0 rows)).
  { unfold exits. rewrite HO, map_map. replace (Nat.max rows 1) with rows by lia. apply map_ext_in. intros k Hk. apply in_seq in Hk. rewrite SEL by lia. reflexivity. }
  assert (G' : map (at_detector m') (exits m' (shot m' W') rows' pos) = map (fun k => A (mixture W' (f_support m) probe' k)) (seq 0 rows')).
  { unfold exits. change (obj_planes m') with (obj_planes m). rewrite HO, map_map. replace (Nat.max rows' 1) with rows' by lia. apply map_ext_in. intros k Hk. apply in_seq in Hk. rewrite SEL by lia. reflexivity. }
  rewrite G, G'. now apply (coherent_photons (f_os m) (f_n0 m) (f_n1 m) (f_det0 m) (f_det1 m)).
Qed.
Print Assumptions C70_coherence.

(** The support restricts both pixels of a coherence function. *)
Lemma mixture_nth W s l k i j : mixture W s l k i j = if s i j then csum (length l) (fun c => W k c * nth c l no_img i j) else 0.
Proof.
  unfold mixture. destruct (s i j); [reflexivity|]. apply csum_zero'. intros. ring.
Qed.
Lemma support_coherence H W n F n' F' (s : nat -> nat -> bool) : same_coherence H W n F n' F' ->
  same_coherence H W n (fun k i j => if s i j then F k i j else 0) n' (fun k i j => if s i j then F' k i j else 0).
Proof.
  intros S i j i' j' Hi Hj Hi' Hj'. specialize (S i j i' j' Hi Hj Hi' Hj'). unfold coherence in *.
  destruct (s i j); [|rewrite !csum_zero'; auto; intros; rewrite Cconj_RtoC; ring].
  destruct (s i' j'); [exact S|]. rewrite !csum_zero'; auto; intros; ring.
Qed.
Lemma coherence_ext H W n F G n' F' G' : (forall k i j, (k < n)%nat -> F k i j = G k i j) -> (forall k i j, (k < n')%nat -> F' k i j = G' k i j) ->
  same_coherence H W n F n' F' -> same_coherence H W n G n' G'.
Proof.
  intros E E' S i j i' j' Hi Hj Hi' Hj'. specialize (S i j i' j' Hi Hj Hi' Hj'). unfold coherence in *.
  rewrite (csum_ext n (fun k => Cconj (G k i j) * G k i' j') (fun k => Cconj (F k i j) * F k i' j')) by (intros; now rewrite !E).
  rewrite (csum_ext n' (fun k => Cconj (G' k i j) * G' k i' j') (fun k => Cconj (F' k i j) * F' k i' j')) by (intros; now rewrite !E').
  exact S.
Qed.

(** C70: tidy_probes on a model with per-exposure weight matrices changes no simulated pattern (whenever its
    new weights are numbers, see C42). *)
Theorem C70_tidy : forall L m ix t pos rows l w', f_simulate m = false -> f_shifts m = None ->
  f_weights m = Matrices rows l -> (the ix < length l)%nat -> f_probe m <> [] ->
  position m ix t pos -> obj_planes m = 1%nat -> (forall q i j, f_qe m = Some q -> (0 <= q i j)%R) -> fits m rows pos ->
  let Ws := fun s => nth s l (fun _ _ => RtoC 0) in let basis := fun q => nth q (f_probe m) no_img in
  tidy_right L (length l) rows (length (f_probe m)) (f_n0 m) (f_n1 m) Ws basis ->
  let r := tidy_probes L (length l) rows (length (f_probe m)) (f_n0 m) (f_n1 m) Ws basis in
  t_weights r = Some w' ->
  same_pattern (f_det0 m) (f_det1 m) (fancy_pattern m ix t)
    (fancy_pattern (remake m (map (t_probe r) (seq 0 (t_modes r))) (Matrices (t_rows r) (map w' (seq 0 (length l)))) (f_min m) (f_obj m)) ix t).
Proof.
  intros L m ix t pos rows l w' S F HW HL HB HP HO HQ HF Ws basis TR r TW.
  assert (n0p := proj1 HF). assert (n1p := proj1 (proj2 HF)). assert (r1 : (1 <= rows)%nat) by apply HF.
  assert (lp : (0 < length (f_probe m))%nat) by (destruct (f_probe m); [congruence|cbn; lia]).
  apply (C70_coherence m ix t pos rows (Ws (the ix)) _ _ (t_rows r) (w' (the ix))); try assumption.
  - rewrite HW. cbn. split; [|reflexivity]. unfold Ws. now apply nth_error_nth'.
  - cbn. split; [|reflexivity]. rewrite nth_error_map, nth_error_nth' with (d := 0%nat) by (rewrite seq_length; exact HL). cbn. now rewrite seq_nth.
  - unfold r. rewrite tidy_unfold. cbn [t_rows]. unfold tk, ortho_count. cbn. apply Nat.min_glb; [exact r1|]. repeat apply Nat.min_glb; nia.
  - pose proof (proj2 (C42_tidy_probes L (length l) rows (length (f_probe m)) (f_n0 m) (f_n1 m) Ws basis ltac:(lia) ltac:(lia) TR) w' TW (the ix) HL) as [SC _].
    fold r in SC. apply same_coherence_sym in SC. apply (support_coherence _ _ _ _ _ _ (f_support m)) in SC.
    revert SC. apply coherence_ext; intros k i j _.
    + now rewrite mixture_nth.
    + rewrite mixture_nth, map_length, seq_length. destruct (f_support m i j); [|reflexivity].
      apply csum_ext. intros c Hc. now rewrite nth_map_seq.
Qed.
Print Assumptions C70_tidy.
(** C70: ... and with one weight per exposure. *)
Theorem C70_tidy_scalar : forall L m ix t pos l, f_simulate m = false -> f_shifts m = None ->
  f_weights m = Scalars l -> (the ix < length l)%nat -> f_probe m <> [] ->
  position m ix t pos -> obj_planes m = 1%nat -> (forall q i j, f_qe m = Some q -> (0 <= q i j)%R) -> fits m (length (f_probe m)) pos ->
  let basis := fun q => nth q (f_probe m) no_img in
  ortho_right L (length (f_probe m)) (f_n0 m) (f_n1 m) basis None ->
  let '(k, probe') := tidy_probes_1d L (length (f_probe m)) (f_n0 m) (f_n1 m) basis in
  same_pattern (f_det0 m) (f_det1 m) (fancy_pattern m ix t)
    (fancy_pattern (remake m (map probe' (seq 0 k)) (Scalars l) (f_min m) (f_obj m)) ix t).
Proof.
  intros L m ix t pos l S F HW HL HB HP HO HQ HF basis OR.
  pose proof (C42_tidy_1d L (length (f_probe m)) (f_n0 m) (f_n1 m) basis OR) as SC.
  assert (K : fst (tidy_probes_1d L (length (f_probe m)) (f_n0 m) (f_n1 m) basis) = Nat.min (length (f_probe m)) (f_n0 m * f_n1 m)) by reflexivity.
  destruct (tidy_probes_1d _ _ _ _ _) as [k probe']. cbn [fst] in K. destruct SC as [SC _].
  assert (n0p := proj1 HF). assert (n1p := proj1 (proj2 HF)).
  assert (lp : (0 < length (f_probe m))%nat) by (destruct (f_probe m); [congruence|cbn; lia]).
  destruct (nth_error l (the ix)) as [c|] eqn:EC; [|apply nth_error_None in EC; lia].
  apply (C70_coherence m ix t pos (length (f_probe m)) (diag c) _ _ k (diag c)); try assumption.
  - rewrite HW. cbn. eauto.
  - cbn. rewrite map_length, seq_length. eauto.
  - rewrite K. apply Nat.min_glb; nia.
  - apply same_coherence_sym in SC.
    assert (SD : same_coherence (f_n0 m) (f_n1 m) (length (f_probe m)) (fun q i j => RtoC c * basis q i j) k (fun q i j => RtoC c * probe' q i j)).
    { intros i j i' j' Hi Hj Hi' Hj'. specialize (SC i j i' j' Hi Hj Hi' Hj'). unfold coherence in *.
      rewrite (csum_ext (length (f_probe m)) _ (fun q => RtoC c * RtoC c * (Cconj (basis q i j) * basis q i' j'))) by (intros; rewrite Cconj_mult, Cconj_RtoC; ring).
      rewrite (csum_ext k _ (fun q => RtoC c * RtoC c * (Cconj (probe' q i j) * probe' q i' j'))) by (intros; rewrite Cconj_mult, Cconj_RtoC; ring).
      rewrite <- !csum_scal. now rewrite SC. }
    apply (support_coherence _ _ _ _ _ _ (f_support m)) in SD. revert SD. apply coherence_ext; intros q i j Hq.
    + rewrite mixture_nth. destruct (f_support m i j); [|reflexivity]. rewrite (csum_single _ q); auto.
      * unfold diag. now rewrite Nat.eqb_refl.
      * intros q' _ NE. unfold diag. replace (Nat.eqb q q') with false by (symmetry; apply Nat.eqb_neq; auto). ring.
    + rewrite mixture_nth, map_length, seq_length. destruct (f_support m i j); [|reflexivity]. rewrite (csum_single _ q); auto.
      * unfold diag. now rewrite Nat.eqb_refl, nth_map_seq.
      * intros q' _ NE. unfold diag. replace (Nat.eqb q q') with false by (symmetry; apply Nat.eqb_neq; auto). ring.
Qed.
Print Assumptions C70_tidy_scalar.
(** With several object planes the modes are paired with the planes, and tidying (which mixes and reorders the
    modes) changes the pattern: two equal 1 x 1 modes over two equal planes; the one mode left, of power 2, is
    used for both planes. *)
Definition two_planes (probe : list img) : fancy :=
  {| f_b0 := (0, -1, 0)%R; f_b1 := (-1, 0, 0)%R; f_normal := ez; f_min := (0, 0)%R; f_scale := 1; f_offsets := None;
     f_n0 := 1; f_n1 := 1; f_probe := probe; f_support := fun _ _ => true; f_norm := 1; f_fourier := false; f_weights := Scalars [1%R];
     f_simulate := false; f_shifts := None; f_d0 := (0, -1, 0)%R; f_d1 := (-1, 0, 0)%R; f_os := 1; f_det0 := 1; f_det1 := 1;
     f_background := fun _ _ => 0%R; f_qe := None; f_saturation := None; f_H := 1; f_W := 1; f_obj_modes := Some 2%nat; f_obj := fun _ _ _ => RtoC 1;
     f_exp := false; f_phase_only := false; f_near := false; f_propagator := None |}.
Lemma origin : translations_to_pixel (0, -1, 0)%R (-1, 0, 0)%R ez (0, 0, 0)%R = (0, 0)%R.
Proof. unfold translations_to_pixel, projection_2, projection_1, solve3, vdot, vscale, vadd, vx, vy, vz. cbn [fst snd]. f_equal; ring. Qed.
Lemma ft1 x : centred_ft 1 1 x 0%nat 0%nat = x 0%nat 0%nat.
Proof.
  unfold centred_ft, csum, fsum, off. change (INR (1 * 1)) with 1%R. rewrite sqrt_1, Rinv_1. change (Z.of_nat 0 - Z.of_nat (1 / 2))%Z with 0%Z. change (0 * 0)%Z with 0%Z.
  replace (- (2 * PI) * (0 / INR 1 + 0 / INR 1))%R with 0%R by (cbn; lra). rewrite cis_0. ring.
Qed.
Lemma planes_exit probe E q : exit_wave (two_planes probe) E q (0, 0)%R 0%nat 0%nat = E 0%nat 0%nat.
Proof.
  assert (F : Zfloor 0 = 0%Z) by (apply Zfloor_imp; cbn; lra).
  unfold exit_wave. cbn [two_planes f_near f_os f_det0 f_det1 f_n0 f_n1 f_norm f_obj fst snd]. rewrite F. change (1 * 1)%nat with 1%nat. unfold transmit. cbn [f_exp two_planes].
  unfold illumination, trig_interp, csum, fsum. rewrite ft1. change (INR (1 * 1)) with 1%R. unfold off. change (Z.of_nat 0 - Z.of_nat (1 / 2))%Z with 0%Z.
  unfold Rdiv at 1. rewrite Rinv_1, Rmult_1_r, sqrt_1, Rinv_1. rewrite Rmult_0_l. unfold Rdiv. rewrite !Rmult_0_l, Rplus_0_r, Rmult_0_r, cis_0. ring.
Qed.
Lemma planes_pattern probe : (length probe = 1 \/ length probe = 2)%nat -> exists r, fancy_pattern (two_planes probe) (Listed 0) (0, 0, 0)%R = Ok r /\
  r 0%nat 0%nat = (lsum (map (fun k => nrm2 (nth (sel (length probe) k) probe no_img 0%nat 0%nat)) [0; 1]%nat) + / 10 ^ 7)%R.
Proof.
  intros L. assert (F : Zfloor 0 = 0%Z) by (apply Zfloor_imp; cbn; lra).
  destruct (C62_pattern (two_planes probe) (Listed 0) (0, 0, 0)%R (0, 0)%R (length probe) (diag 1)) as (r & R1 & R2); try reflexivity.
  - unfold position. cbn [f_offsets two_planes f_b0 f_b1 f_normal f_min]. rewrite origin. cbn [fst snd]. f_equal; lra.
  - cbn. eauto.
  - unfold fits, centred_in, inside, obj_planes. cbn [two_planes f_n0 f_n1 f_os f_det0 f_det1 f_H f_W f_obj_modes f_near f_propagator fst snd]. rewrite F.
    repeat split; try lia; try discriminate; right; reflexivity.
  - discriminate.
  - exists r. split; [exact R1|]. rewrite R2 by (cbn; lia). unfold reading. cbn [f_qe f_saturation f_background two_planes].
    unfold photons, exits, obj_planes. cbn [f_obj_modes two_planes f_os].
    replace (Nat.max (length probe) 2) with 2%nat by lia. cbn [seq map].
    assert (SH : forall k, (k < 2)%nat -> rsum 1 (fun a => rsum 1 (fun b => nrm2 (at_detector (two_planes probe) (exit_wave (two_planes probe) (shot (two_planes probe) (diag 1) (sel (length probe) k)) (sel 2 k) (0, 0)%R) (1 * 0 + a)%nat (1 * 0 + b)%nat))) =
      nrm2 (nth (sel (length probe) k) probe no_img 0%nat 0%nat)).
    { intros k Hk. unfold rsum, fsum. rewrite !Rplus_0_l. change (1 * 0 + 0)%nat with 0%nat. unfold at_detector. cbn [f_near two_planes f_os f_det0 f_det1]. change (1 * 1)%nat with 1%nat.
      rewrite ft1, planes_exit. f_equal. unfold shot. cbn [f_fourier two_planes f_support f_probe]. rewrite mixture_nth.
      assert (Hs : (sel (length probe) k < length probe)%nat) by (destruct L as [L|L]; rewrite L; cbn; lia).
      rewrite (csum_single _ (sel (length probe) k) _ Hs); [unfold diag; rewrite Nat.eqb_refl; ring|].
      intros q _ NE. unfold diag. replace (Nat.eqb _ q) with false by (symmetry; apply Nat.eqb_neq; auto). ring. }
    rewrite !SH by lia. change (INR (1 * 1)) with 1%R. unfold lsum. cbn [fold_right]. field.
Qed.
Theorem C70_planes_refuted : forall L, let ones : list img := [(fun _ _ => RtoC 1); (fun _ _ => RtoC 1)] in
  ortho_right L 2 1 1 (fun q => nth q ones no_img) None ->
  exists r r', fancy_pattern (two_planes ones) (Listed 0) (0, 0, 0)%R = Ok r /\ r 0%nat 0%nat = (2 + / 10 ^ 7)%R /\
  (let '(k, probe') := tidy_probes_1d L 2 1 1 (fun q => nth q ones no_img) in fancy_pattern (two_planes (map probe' (seq 0 k))) (Listed 0) (0, 0, 0)%R = Ok r') /\
  r' 0%nat 0%nat = (4 + / 10 ^ 7)%R.
Proof.
  intros L ones OR. destruct (planes_pattern ones) as (r & R1 & R2); [right; reflexivity|].
  pose proof (C42_tidy_1d L 2 1 1 _ OR) as SC.
  assert (K : fst (tidy_probes_1d L 2 1 1 (fun q => nth q ones no_img)) = 1%nat) by reflexivity.
  destruct (tidy_probes_1d _ _ _ _ _) as [k probe']. cbn [fst] in K. subst k. destruct SC as [SC _].
  destruct (planes_pattern (map probe' (seq 0 1))) as (r' & R1' & R2'); [left; reflexivity|].
  exists r, r'. split; [exact R1|]. split; [|split; [exact R1'|]].
  - rewrite R2. cbn. unfold lsum, nrm2. cbn. lra.
  - rewrite R2'. specialize (SC 0%nat 0%nat 0%nat 0%nat ltac:(lia) ltac:(lia) ltac:(lia) ltac:(lia)). unfold coherence, csum, fsum in SC. cbn [nth ones] in SC.
    apply (f_equal fst) in SC. cbn in SC. cbn [seq map nth length sel]. unfold lsum, nrm2. cbn [fold_right]. lra.
Qed.
Print Assumptions C70_planes_refuted.

(** A model that meets the hypotheses of C70_tidy for every right library: one basis mode, two rows of weights. *)
Example C70_case : forall L, (forall n m A, svd_right L n m A /\ qr_right L n m A /\ svdvals_right L n m A) ->
  let m := remake small [fun _ _ => RtoC 1] (Matrices 2 [(fun k q => RtoC (INR (1 + k + q))); (fun k q => RtoC 1)]) (0, 0)%R (f_obj small) in
  let Ws := fun s => nth s [(fun k q : nat => RtoC (INR (1 + k + q))); (fun k q => RtoC 1)] (fun _ _ => RtoC 0) in
  tidy_right L 2 2 1 (f_n0 m) (f_n1 m) Ws (fun q => nth q (f_probe m) no_img) /\
  t_weights (tidy_probes L 2 2 1 (f_n0 m) (f_n1 m) Ws (fun q => nth q (f_probe m) no_img)) <> None /\
  position m (Alone 1) (0, 0, 0)%R (/ 2, / 2)%R /\ fits m 2 (/ 2, / 2)%R /\ obj_planes m = 1%nat.
Proof.
  intros L LR m Ws. assert (TR : tidy_right L 2 2 1 (f_n0 m) (f_n1 m) Ws (fun q => nth q (f_probe m) no_img)).
  { split; [|intros; apply LR]. cbn [ortho_right tw]. repeat split; apply LR. }
  split; [exact TR|]. split; [|split; [|split]].
  - apply C42_tidy_defined. intros c Hc. rewrite tidy_unfold in Hc |- *. cbn [t_modes t_probe] in *. assert (c = 0)%nat by (revert Hc; cbn; lia). subst c.
    intros P. change (f_n0 m) with 2%nat in P. change (f_n1 m) with 4%nat in P. rewrite (tp_power L 2 2 1 2 4 Ws _ ltac:(lia) 0%nat (proj1 TR) ltac:(cbn; lia)) in P.
    pose proof (tidy_gsvd L 2 2 1 2 4 Ws _ (proj1 TR)) as G.
    pose proof (gsvd_coherence _ _ _ _ _ 0%nat 0%nat G ltac:(lia) ltac:(lia)) as Q.
    assert (S0 : svd_S (tr L 2 2 1 2 4 Ws (fun q => nth q (f_probe m) no_img)) 0%nat = 0%R).
    { pose proof (tsq_pos 2 ltac:(lia)) as T. apply pow_eq_0 in P || (destruct (Req_dec (svd_S (tr L 2 2 1 2 4 Ws (fun q => nth q (f_probe m) no_img)) 0%nat / tsq 2) 0) as [Z|Z]; [|exfalso; revert P; apply pow_nonzero; exact Z]).
      all: apply (Rmult_eq_reg_r (/ tsq 2)); [rewrite Rmult_0_l; assumption|apply Rinv_neq_0_compat; lra]. }
    replace (tk 2 2 1 2 4 Ws) with 1%nat in Q by reflexivity. cbn [csum fsum] in Q. rewrite S0 in Q.
    apply (f_equal fst) in Q. unfold csum, fsum, flat_stack, flat in Q. cbn in Q. lra.
  - unfold position. cbn [m remake f_offsets small]. exists (/ 4, / 4)%R. split; [reflexivity|]. unfold m, remake, small. cbn [f_b0 f_b1 f_normal f_min f_scale]. rewrite origin. cbn [fst snd]. f_equal; lra.
  - apply C63_case.
  - reflexivity.
Qed.
