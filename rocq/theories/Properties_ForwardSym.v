(** Symmetries of the forward model of FancyPtycho (C63). *)
From Verif Require Import Base FinSum Fourier Model_Prop Spec_Prop Proofs_Prop Model_Image Spec_Image Proofs_Image
  Model_Interact Spec_Interact Proofs_Interact Model_Meas Spec_Meas Proofs_Meas Model_Geom Model_Models Model_Forward Spec_Forward Proofs_Forward Properties_Forward Proofs_ForwardSym.
From Coq Require Import FunctionalExtensionality.
From Coquelicot Require Import Complex.
From Flocq Require Import Core.Raux.
Local Open Scope R_scope.

Lemma floor_shift x u : Zfloor (x + IZR u) = (Zfloor x + u)%Z.
Proof. apply Zfloor_imp. rewrite !plus_IZR. pose proof (Zfloor_lb x). pose proof (Zfloor_ub x). lra. Qed.
Lemma patterns_agree m m' ix t pos pos' rows W : f_simulate m = false -> f_shifts m = None -> f_simulate m' = false -> f_shifts m' = None ->
  position m ix t pos -> position m' ix t pos' ->
  coefficients (f_weights m) ix (length (f_probe m)) rows W -> coefficients (f_weights m') ix (length (f_probe m')) rows W ->
  fits m rows pos -> fits m' rows pos' -> (forall q i j, f_qe m = Some q -> 0 <= q i j) ->
  f_qe m' = f_qe m -> f_saturation m' = f_saturation m -> f_background m' = f_background m -> f_os m' = f_os m -> f_det0 m' = f_det0 m -> f_det1 m' = f_det1 m ->
  (forall i j, (i < f_det0 m)%nat -> (j < f_det1 m)%nat -> photons (f_os m) (map (at_detector m') (exits m' (shot m' W) rows pos')) i j = photons (f_os m) (map (at_detector m) (exits m (shot m W) rows pos)) i j) ->
  same_pattern (f_det0 m) (f_det1 m) (fancy_pattern m ix t) (fancy_pattern m' ix t).
Proof.
  intros S F S' F' P P' C C' X X' Q EQ ES EB EO E0 E1 H.
  destruct (C62_pattern m ix t pos rows W S F P C X Q) as (r & R1 & R2).
  destruct (C62_pattern m' ix t pos' rows W S' F' P' C' X') as (r' & R1' & R2'); [rewrite EQ; exact Q|].
  exists r, r'. split; [exact R1|]. split; [exact R1'|]. intros i j Hi Hj. rewrite R2 by assumption. rewrite R2' by (rewrite ?E0, ?E1; assumption).
  now rewrite EQ, ES, EB, EO, H.
Qed.
Lemma shot_scaled m w mn obj c W k : (0 < f_n0 m)%nat -> (0 < f_n1 m)%nat ->
  same (f_n0 m) (f_n1 m) (shot (remake m (map (fun p i j => c * p i j)%C (f_probe m)) w mn obj) W k) (fun i j => (c * shot m W k i j)%C).
Proof.
  intros H0 H1.
  assert (M : forall i j, mixture W (f_support m) (map (fun p i j => c * p i j)%C (f_probe m)) k i j = (c * mixture W (f_support m) (f_probe m) k i j)%C).
  { intros i j. unfold mixture. rewrite map_length, csum_scal. apply csum_ext. intros q Hq.
    rewrite (nth_map_in (fun (p : img) i j => c * p i j)%C (f_probe m) (fun _ _ => RtoC 0)) by exact Hq. destruct (f_support m i j); ring. }
  unfold shot, remake. cbn [f_probe f_support f_fourier f_n0 f_n1]. destruct (f_fourier m).
  - intros i j Hi Hj. rewrite <- (lin_scal _ _ _ _ _ c (mixture W (f_support m) (f_probe m) k) (inv_far_linear (f_n0 m) (f_n1 m) H0 H1)) by assumption.
    apply (proj1 (inv_far_linear (f_n0 m) (f_n1 m) H0 H1)); try assumption. intros a b _ _. apply M.
  - intros i j _ _. apply M.
Qed.

Lemma times_one (l : list img) : map (fun (p : img) i j => RtoC 1 * p i j)%C l = l.
Proof. rewrite <- (map_id l) at 2. apply map_ext. intros x. do 2 (apply functional_extensionality; intros). ring. Qed.

(** C63: gauge freedom: multiplying the probe by c, multiplying what the object transmits by d and moving the
    object array by (u, v) whole pixels while min_translation moves along, changes no simulated pattern as long
    as |c d| = 1. *)
Theorem C63_gauge : forall m ix t pos rows W c d obj' u v, f_simulate m = false -> f_shifts m = None ->
  position m ix t pos -> coefficients (f_weights m) ix (length (f_probe m)) rows W ->
  fits m rows pos -> fits m rows (fst pos + IZR u, snd pos + IZR v) ->
  (forall q i j, f_qe m = Some q -> 0 <= q i j) ->
  (forall q a b, transmit m (obj' q (a + u)%Z (b + v)%Z) = (d * transmit m (f_obj m q a b))%C) -> Cmod (c * d)%C = 1 ->
  same_pattern (f_det0 m) (f_det1 m) (fancy_pattern m ix t)
    (fancy_pattern (remake m (map (fun p i j => c * p i j)%C (f_probe m)) (f_weights m) (fst (f_min m) - IZR u, snd (f_min m) - IZR v) obj') ix t).
Proof.
  intros m ix t pos rows W c d obj' u v S F HP HC HF HF' HQ HO HM.
  set (m' := remake _ _ _ _ _).
  apply (patterns_agree m m' ix t pos (fst pos + IZR u, snd pos + IZR v) rows W); try assumption; try reflexivity.
  - unfold position in *. unfold m', remake. cbn [f_offsets f_b0 f_b1 f_normal f_min f_scale] in *. destruct (f_offsets m).
    + destruct HP as (o & E & ->). exists o. split; [exact E|]. cbn [fst snd]. f_equal; ring.
    + rewrite HP. cbn [fst snd]. f_equal; ring.
  - unfold m', remake. cbn [f_weights f_probe]. now rewrite map_length.
  - intros i j Hi Hj. destruct HF as (n0p & n1p & _).
    rewrite (photons_ext (f_os m) (f_det0 m) (f_det1 m) (map (at_detector m) (exits m (shot m W) rows pos)) _ (c * d)%C); try assumption.
    + rewrite nrm2_Cmod, HM. ring.
    + rewrite !map_length. unfold exits. rewrite !map_length, !seq_length. reflexivity.
    + intros k Hk. rewrite map_length in Hk. assert (LK := Hk). unfold exits in LK. rewrite map_length, seq_length in LK.
      rewrite !(nth_map_in _ _ no_img) by (try assumption; unfold exits; rewrite map_length, seq_length; exact LK).
      assert (V : same (fancy_N0 m) (fancy_N1 m) (nth k (exits m' (shot m' W) rows (fst pos + IZR u, snd pos + IZR v)) no_img) (fun a b => (c * d * nth k (exits m (shot m W) rows pos) no_img a b)%C)).
      { unfold exits. change (obj_planes m') with (obj_planes m). rewrite !nth_map_seq by exact LK.
        set (k1 := sel rows k). set (k2 := sel (obj_planes m) k).
        assert (G : forall a b, (a < fancy_N0 m)%nat -> (b < fancy_N1 m)%nat ->
          (RtoC (f_norm m) * (illumination (f_n0 m) (f_n1 m) (fancy_N0 m) (fancy_N1 m) (shot m' W k1) (fst pos - IZR (Zfloor (fst pos))) (snd pos - IZR (Zfloor (snd pos))) a b * transmit m (obj' k2 (Zfloor (fst pos) + u + Z.of_nat a)%Z (Zfloor (snd pos) + v + Z.of_nat b)%Z)) =
          c * d * (RtoC (f_norm m) * (illumination (f_n0 m) (f_n1 m) (fancy_N0 m) (fancy_N1 m) (shot m W k1) (fst pos - IZR (Zfloor (fst pos))) (snd pos - IZR (Zfloor (snd pos))) a b * transmit m (f_obj m k2 (Zfloor (fst pos) + Z.of_nat a)%Z (Zfloor (snd pos) + Z.of_nat b)%Z))))%C).
        { intros a b Ha Hb.
          destruct (illumination_linear (f_n0 m) (f_n1 m) (fancy_N0 m) (fancy_N1 m) (fst pos - IZR (Zfloor (fst pos))) (snd pos - IZR (Zfloor (snd pos)))) as [IE IL].
          assert (SS : same (f_n0 m) (f_n1 m) (shot m' W k1) (fun i j => (c * shot m W k1 i j)%C)) by (now apply shot_scaled).
          assert (A1 := IE _ _ SS a b Ha Hb). assert (A2 := lin_scal _ _ _ _ _ c (shot m W k1) (conj IE IL) a b Ha Hb). cbv beta in A1, A2.
          rewrite A1, A2.
          replace (Zfloor (fst pos) + u + Z.of_nat a)%Z with (Zfloor (fst pos) + Z.of_nat a + u)%Z by ring.
          replace (Zfloor (snd pos) + v + Z.of_nat b)%Z with (Zfloor (snd pos) + Z.of_nat b + v)%Z by ring.
          rewrite HO. ring. }
        unfold exit_wave. cbn [fst snd]. rewrite !floor_shift, !plus_IZR.
        replace (fst pos + IZR u - (IZR (Zfloor (fst pos)) + IZR u)) with (fst pos - IZR (Zfloor (fst pos))) by ring.
        replace (snd pos + IZR v - (IZR (Zfloor (snd pos)) + IZR v)) with (snd pos - IZR (Zfloor (snd pos))) by ring.
        change (f_n0 m') with (f_n0 m). change (f_n1 m') with (f_n1 m). change (f_os m') with (f_os m). change (f_det0 m') with (f_det0 m). change (f_det1 m') with (f_det1 m).
        change (f_norm m') with (f_norm m). change (f_near m') with (f_near m). change (f_obj m') with obj'. change (transmit m') with (transmit m).
        fold (fancy_N0 m) (fancy_N1 m). destruct (f_near m); [|exact G].
        intros a b Ha Hb. rewrite (trig_ext _ _ _ _ _ _ G).
        match goal with |- trig_interp ?N ?M ?f ?x ?y = (_ * trig_interp _ _ ?g _ _)%C =>
          rewrite (trig_ext N M f (comb 1 (fun _ => c * d)%C (fun _ => g))) by (intros ? ? _ _; unfold comb, csum, fsum; ring) end.
        rewrite trig_comb. unfold csum, fsum. ring. }
      intros a b Ha Hb. change (at_detector m') with (at_detector m).
      rewrite (proj1 (detector_linear m) _ _ V a b Ha Hb).
      now apply (lin_scal _ _ _ _ _ (c * d)%C _ (detector_linear m)).
Qed.
Print Assumptions C63_gauge.

(** C63: ... in particular a probe c times as strong with an object c times as weak, ... *)
Theorem C63_scale : forall m ix t pos rows W c, f_simulate m = false -> f_shifts m = None -> f_exp m = false -> c <> RtoC 0 ->
  position m ix t pos -> coefficients (f_weights m) ix (length (f_probe m)) rows W -> fits m rows pos ->
  (forall q i j, f_qe m = Some q -> 0 <= q i j) ->
  same_pattern (f_det0 m) (f_det1 m) (fancy_pattern m ix t)
    (fancy_pattern (remake m (map (fun p i j => c * p i j)%C (f_probe m)) (f_weights m) (f_min m) (fun q a b => f_obj m q a b / c)%C) ix t).
Proof.
  intros m ix t pos rows W c S F X Hc HP HC HF HQ.
  pose proof (C63_gauge m ix t pos rows W c (/ c)%C (fun q a b => f_obj m q a b / c)%C 0 0 S F HP HC HF) as G.
  rewrite !Rplus_0_r, !Rminus_0_r in G. destruct pos as [p0 p1]. destruct (f_min m) as [m0 m1]. cbn [fst snd] in G.
  apply G; [exact HF|exact HQ| |].
  - intros q a b. rewrite !Z.add_0_r. unfold transmit. rewrite X. unfold Cdiv. ring.
  - rewrite Cinv_r by exact Hc. apply Cmod_1.
Qed.
Print Assumptions C63_scale.
(** ... a global phase of the object (added to an exponentiated one) ... *)
Theorem C63_global_phase : forall m ix t pos rows W th, f_simulate m = false -> f_shifts m = None ->
  position m ix t pos -> coefficients (f_weights m) ix (length (f_probe m)) rows W -> fits m rows pos ->
  (forall q i j, f_qe m = Some q -> 0 <= q i j) ->
  same_pattern (f_det0 m) (f_det1 m) (fancy_pattern m ix t)
    (fancy_pattern (remake m (f_probe m) (f_weights m) (f_min m)
       (fun q a b => if f_exp m then (f_obj m q a b + RtoC th)%C else (cis th * f_obj m q a b)%C)) ix t).
Proof.
  intros m ix t pos rows W th S F HP HC HF HQ.
  pose proof (C63_gauge m ix t pos rows W 1 (cis th) (fun q a b => if f_exp m then (f_obj m q a b + RtoC th)%C else (cis th * f_obj m q a b)%C) 0 0 S F HP HC HF) as G.
  rewrite !Rplus_0_r, !Rminus_0_r in G. destruct pos as [p0 p1]. destruct (f_min m) as [m0 m1]. cbn [fst snd] in G.
  change (map _ (f_probe m)) with (map (fun (p : img) i j => RtoC 1 * p i j)%C (f_probe m)) in G. rewrite times_one in G.
  apply G; [exact HF|exact HQ| |].
  - intros q a b. rewrite !Z.add_0_r. unfold transmit. destruct (f_exp m); [|reflexivity].
    destruct (f_obj m q a b) as [x y]. cbn [fst snd RtoC Cplus]. rewrite Rplus_0_r, cis_add. destruct (f_phase_only m); ring.
  - rewrite Cmult_1_l, Cmod_nrm2, nrm2_cis. apply sqrt_1.
Qed.
Print Assumptions C63_global_phase.
(** ... and re-gridding the object: an array moved by whole pixels with min_translation moved along. *)
Theorem C63_regrid : forall m ix t pos rows W u v, f_simulate m = false -> f_shifts m = None ->
  position m ix t pos -> coefficients (f_weights m) ix (length (f_probe m)) rows W ->
  fits m rows pos -> fits m rows (fst pos + IZR u, snd pos + IZR v) ->
  (forall q i j, f_qe m = Some q -> 0 <= q i j) ->
  same_pattern (f_det0 m) (f_det1 m) (fancy_pattern m ix t)
    (fancy_pattern (remake m (f_probe m) (f_weights m) (fst (f_min m) - IZR u, snd (f_min m) - IZR v) (fun q a b => f_obj m q (a - u) (b - v))) ix t).
Proof.
  intros m ix t pos rows W u v S F HP HC HF HF' HQ.
  pose proof (C63_gauge m ix t pos rows W 1 1 (fun q a b => f_obj m q (a - u) (b - v))%Z u v S F HP HC HF HF' HQ) as G.
  change (map _ (f_probe m)) with (map (fun (p : img) i j => RtoC 1 * p i j)%C (f_probe m)) in G. rewrite times_one in G.
  apply G.
  - intros q a b. rewrite !Z.add_simpl_r. ring.
  - rewrite Cmult_1_l. apply Cmod_1.
Qed.
Print Assumptions C63_regrid.

(** The photons of modes that are mixed by an isometry. *)
Lemma photons_mix os u n k psi i j : isometry k n u -> photons os (mix u n psi k) i j = photons os (map psi (seq 0 n)) i j.
Proof.
  intros U. unfold photons. f_equal.
  assert (SW : forall l : list img, lsum (map (fun x : img => rsum os (fun a => rsum os (fun b => nrm2 (x (os * i + a)%nat (os * j + b)%nat)))) l) =
     rsum os (fun a => rsum os (fun b => lsum (map (fun x : img => nrm2 (x (os * i + a)%nat (os * j + b)%nat)) l)))).
  { induction l as [|x l IH]; cbn [map].
    - unfold lsum. cbn [fold_right]. rewrite (rsum_ext os _ (fun _ => 0)); [now rewrite rsum_zero|]. intros. apply rsum_zero.
    - unfold lsum in *. cbn [fold_right]. rewrite IH, <- rsum_add. apply rsum_ext. intros a _. now rewrite <- rsum_add. }
  rewrite !SW. apply rsum_ext. intros a _. apply rsum_ext. intros b _. now apply mix_power.
Qed.
Lemma shot_mixed m U W n k : (0 < f_n0 m)%nat -> (0 < f_n1 m)%nat ->
  same (f_n0 m) (f_n1 m) (shot m (mixed_weights n U W) k) (comb n (U k) (shot m W)).
Proof.
  intros H0 H1.
  assert (M : forall i j, mixture (mixed_weights n U W) (f_support m) (f_probe m) k i j = comb n (U k) (mixture W (f_support m) (f_probe m)) i j).
  { intros i j. unfold mixture, mixed_weights, comb.
    rewrite (csum_ext (length (f_probe m)) _ (fun q => csum n (fun p => U k p * (W p q * (if f_support m i j then nth q (f_probe m) (fun _ _ => RtoC 0) i j else RtoC 0)))%C)).
    2:{ intros q _. rewrite csum_scal_r. apply csum_ext. intros. ring. }
    rewrite csum_swap. apply csum_ext. intros p _. now rewrite csum_scal. }
  unfold shot. destruct (f_fourier m).
  - intros i j Hi Hj. rewrite <- (proj2 (inv_far_linear (f_n0 m) (f_n1 m) H0 H1) n (U k) (mixture W (f_support m) (f_probe m)) i j Hi Hj).
    apply (proj1 (inv_far_linear (f_n0 m) (f_n1 m) H0 H1)); try assumption. intros a b _ _. apply M.
  - intros i j _ _. apply M.
Qed.

(** C63: mixing the coherent modes of an exposure by any matrix with orthonormal columns (a change of basis of
    its incoherent modes) changes no simulated pattern, whatever the object of a single plane: only the density
    matrix W^* W matters. *)
Theorem C63_mode_mixing : forall m ix t pos rows rows' W U l l', f_simulate m = false -> f_shifts m = None ->
  f_weights m = Matrices rows l -> nth_error l (the ix) = Some W -> nth_error l' (the ix) = Some (mixed_weights rows U W) -> isometry rows' rows U ->
  obj_planes m = 1%nat -> position m ix t pos -> fits m rows pos -> fits m rows' pos -> (forall q i j, f_qe m = Some q -> 0 <= q i j) ->
  same_pattern (f_det0 m) (f_det1 m) (fancy_pattern m ix t)
    (fancy_pattern (remake m (f_probe m) (Matrices rows' l') (f_min m) (f_obj m)) ix t).
Proof.
  intros m ix t pos rows rows' W U l l' S F HW HE HE' HU HO HP HF HF' HQ. set (m' := remake _ _ _ _ _).
  destruct (C62_pattern m ix t pos rows W S F HP) as (r & R1 & R2); try assumption.
  { rewrite HW. cbn. auto. }
  destruct (C62_pattern m' ix t pos rows' (mixed_weights rows U W) S F HP) as (r' & R1' & R2'); try assumption.
  { cbn. auto. }
  exists r, r'. split; [exact R1|]. split; [exact R1'|]. intros i j Hi Hj. rewrite R2 by assumption. rewrite R2' by assumption.
  change (f_saturation m') with (f_saturation m). change (f_qe m') with (f_qe m). change (f_background m') with (f_background m). change (f_os m') with (f_os m).
  f_equal. f_equal. destruct HF as (n0p & n1p & osp & _ & _ & _ & _ & r1 & _). destruct HF' as (_ & _ & _ & _ & _ & _ & _ & r1' & _).
  assert (MX : forall n, (1 <= n)%nat -> Nat.max n 1 = n) by lia.
  set (g := fun k => at_detector m (exit_wave m (shot m W k) 0 pos)).
  assert (SEL : forall n k, (k < n)%nat -> sel n k = k) by (intros [|[|n]] k Hk; cbn; lia).
  assert (E1 : map (at_detector m) (exits m (shot m W) rows pos) = map g (seq 0 rows)).
  { unfold exits. rewrite HO, MX, map_map by exact r1. apply map_ext_in. intros k Hk. apply in_seq in Hk. unfold g. rewrite SEL by lia. reflexivity. }
  rewrite E1, <- (photons_mix (f_os m) U rows rows' g i j HU).
  symmetry. apply (photons_same (f_os m) (f_det0 m) (f_det1 m)); try assumption.
  - unfold mix. rewrite !map_length, seq_length. unfold exits. change (obj_planes m') with (obj_planes m). rewrite map_length, seq_length, HO. lia.
  - intros k Hk. unfold mix in Hk. rewrite map_length, seq_length in Hk.
    assert (L2 : length (exits m' (shot m' (mixed_weights rows U W)) rows' pos) = rows').
    { unfold exits. change (obj_planes m') with (obj_planes m). rewrite map_length, seq_length, HO. lia. }
    rewrite (nth_map_in _ _ no_img) by (rewrite L2; exact Hk). unfold mix. rewrite nth_map_seq by exact Hk.
    unfold exits. change (obj_planes m') with (obj_planes m). rewrite HO, MX by exact r1'. rewrite nth_map_seq by exact Hk. rewrite SEL by exact Hk.
    change (at_detector m') with (at_detector m). change (sel 1 k) with 0%nat. change (shot m') with (shot m). change (exit_wave m') with (exit_wave m).
    intros a b Ha Hb. fold (fancy_N0 m) (fancy_N1 m) in Ha, Hb.
    rewrite (proj1 (detector_linear m) _ (comb rows (U k) (fun q => exit_wave m (shot m W q) 0 pos))); [|clear a b Ha Hb|assumption|assumption].
    + apply (proj2 (detector_linear m) rows (U k) (fun q => exit_wave m (shot m W q) 0 pos) a b Ha Hb).
    + intros a b Ha Hb. rewrite (proj1 (exit_linear m 0 pos) _ _ (shot_mixed m U W rows k n0p n1p) a b Ha Hb).
      apply (proj2 (exit_linear m 0 pos) rows (U k) (shot m W) a b Ha Hb).
Qed.
Print Assumptions C63_mode_mixing.

(** C63: multiplying an exposure's scalar weight by a multiplies its photons by a^2 (the constant 1e-7 and the
    background stay). *)
Theorem C63_weight : forall m ix t pos l l' x a, f_simulate m = false -> f_shifts m = None -> f_saturation m = None ->
  f_weights m = Scalars l -> nth_error l (the ix) = Some x -> nth_error l' (the ix) = Some (a * x) ->
  position m ix t pos -> fits m (length (f_probe m)) pos -> f_qe m = None ->
  exists r r', fancy_pattern m ix t = Ok r /\ fancy_pattern (remake m (f_probe m) (Scalars l') (f_min m) (f_obj m)) ix t = Ok r' /\
  forall i j, (i < f_det0 m)%nat -> (j < f_det1 m)%nat ->
    r' i j - (f_background m i j ^ 2 + / 10 ^ 7) = a ^ 2 * (r i j - (f_background m i j ^ 2 + / 10 ^ 7)).
Proof.
  intros m ix t pos l l' x a S F HS HW HE HE' HP HF HQ. set (m' := remake _ _ _ _ _).
  destruct (C62_pattern m ix t pos (length (f_probe m)) (diag x) S F HP) as (r & R1 & R2); try assumption.
  { rewrite HW. cbn. eauto. }
  { rewrite HQ. discriminate. }
  destruct (C62_pattern m' ix t pos (length (f_probe m)) (diag (a * x)) S F HP) as (r' & R1' & R2'); try assumption.
  { cbn. eauto. }
  { change (f_qe m') with (f_qe m). rewrite HQ. discriminate. }
  exists r, r'. split; [exact R1|]. split; [exact R1'|]. intros i j Hi Hj. rewrite R2 by assumption. rewrite R2' by assumption.
  change (f_saturation m') with (f_saturation m). change (f_qe m') with (f_qe m). change (f_background m') with (f_background m). change (f_os m') with (f_os m).
  unfold reading. rewrite HQ, HS.
  rewrite (photons_ext (f_os m) (f_det0 m) (f_det1 m) (map (at_detector m) (exits m (shot m (diag x)) (length (f_probe m)) pos)) (map (at_detector m') (exits m' (shot m' (diag (a * x))) (length (f_probe m)) pos)) (RtoC a)); try assumption.
  - rewrite nrm2_RtoC. ring.
  - rewrite !map_length. unfold exits. rewrite !map_length, !seq_length. reflexivity.
  - intros k Hk. rewrite map_length in Hk. assert (LK := Hk). unfold exits in LK. rewrite map_length, seq_length in LK.
    rewrite !(nth_map_in _ _ no_img) by (try assumption; unfold exits; rewrite map_length, seq_length; exact LK).
    unfold exits. change (obj_planes m') with (obj_planes m). rewrite !nth_map_seq by exact LK.
    change (at_detector m') with (at_detector m). change (shot m') with (shot m). change (exit_wave m') with (exit_wave m).
    destruct HF as (n0p & n1p & _). set (k1 := sel _ k). set (k2 := sel _ k).
    assert (SS : same (f_n0 m) (f_n1 m) (shot m (diag (a * x)) k1) (fun i j => (RtoC a * shot m (diag x) k1 i j)%C)).
    { intros u v Hu Hv. rewrite <- (shot_scaled m (f_weights m) (f_min m) (f_obj m) (RtoC a) (diag x) k1 n0p n1p u v Hu Hv).
      assert (M : forall i j, mixture (diag (a * x)) (f_support m) (f_probe m) k1 i j = mixture (diag x) (f_support m) (map (fun p i j => RtoC a * p i j)%C (f_probe m)) k1 i j).
      { intros i0 j0. unfold mixture. rewrite map_length. apply csum_ext. intros q Hq. rewrite (nth_map_in (fun (p : img) i j => RtoC a * p i j)%C (f_probe m) (fun _ _ => RtoC 0)) by exact Hq.
        unfold diag. destruct (Nat.eqb k1 q); [rewrite RtoC_mult|]; destruct (f_support m i0 j0); ring. }
      unfold shot, remake. cbn [f_probe f_support f_fourier f_n0 f_n1]. destruct (f_fourier m).
      - apply (proj1 (inv_far_linear (f_n0 m) (f_n1 m) n0p n1p)); try assumption. intros i0 j0 _ _. apply M.
      - apply M. }
    intros u v Hu Hv. fold (fancy_N0 m) (fancy_N1 m) in Hu, Hv.
    rewrite (proj1 (detector_linear m) _ (fun i j => (RtoC a * exit_wave m (shot m (diag x) k1) k2 pos i j)%C)); [|clear u v Hu Hv|assumption|assumption].
    + now apply (lin_scal _ _ _ _ _ (RtoC a) _ (detector_linear m)).
    + intros u v Hu Hv. rewrite (proj1 (exit_linear m k2 pos) _ _ SS u v Hu Hv). now apply (lin_scal _ _ _ _ _ (RtoC a) _ (exit_linear m k2 pos)).
Qed.
Print Assumptions C63_weight.

(** A model and a change of it that meet the hypotheses (see C62_case). *)
Example C63_case : fits small 2 (/ 2, / 2) /\ fits small 2 (/ 2 + IZR 3, / 2 + IZR 5) /\ obj_planes small = 1%nat /\
  fits small 3 (/ 2, / 2) /\ isometry 3 2 (fun k q => if Nat.eqb k q then Ci else RtoC 0).
Proof.
  assert (F : forall u, Zfloor (/ 2 + IZR u) = u) by (intros u; rewrite floor_shift; rewrite (Zfloor_imp 0) by (cbn; lra); reflexivity).
  assert (F0 : Zfloor (/ 2) = 0%Z) by (apply Zfloor_imp; cbn; lra).
  assert (G : forall rows u v x y, (1 <= rows)%nat -> Zfloor x = u -> Zfloor y = v -> (0 <= u <= 6)%Z -> (0 <= v <= 6)%Z -> fits small rows (x, y)).
  { intros rows u v x y Hr Hx Hy Hu Hv. unfold fits, centred_in, inside, obj_planes. cbn [small f_n0 f_n1 f_os f_det0 f_det1 f_H f_W f_obj_modes f_near f_propagator fst snd]. rewrite Hx, Hy.
    repeat split; try lia; try discriminate; left; reflexivity. }
  split; [|split; [|split; [reflexivity|split]]].
  - apply (G _ 0%Z 0%Z); auto; lia.
  - apply (G _ 3%Z 5%Z); auto; lia.
  - apply (G _ 0%Z 0%Z); auto; lia.
  - intros l l' Hl Hl'. destruct l as [|[|l]]; [| |lia]; (destruct l' as [|[|l']]; [| |lia]); unfold csum, fsum; cbn [Nat.eqb]; apply C_ext; cbn; ring.
Qed.
