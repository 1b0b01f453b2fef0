(** C95: only the mutual coherence of an exposure's modes matters to the pattern of MultislicePtycho, however many
    slices; so only the density matrix of get_rhos does, and tidy_probes changes no simulated pattern. *)
From Verif Require Import Base FinSum Fourier Matrix Model_Analysis Spec_Analysis Proofs_SVD Proofs_Ortho Properties_Ortho.
From Verif Require Import Model_Prop Spec_Prop Proofs_Prop Model_Image Spec_Image Proofs_Image
  Model_Interact Spec_Interact Proofs_Interact Model_Meas Spec_Meas Proofs_Meas Model_Geom Model_Models Model_Forward Spec_Forward Proofs_Forward Properties_Forward Proofs_ForwardSym Properties_ForwardSym Properties_ForwardPower Properties_Multislice Properties_Tidy.
From Verif Require Model_Wavefront Properties_Rhos.
From Coquelicot Require Import Complex.
Import ListNotations.
From Flocq Require Import Core.Raux.
Local Open Scope C_scope.

(** The same MultislicePtycho with other probes and weights. *)
Definition reprobed (ms : multislice) (probe : list img) (w : weights) : multislice :=
  {| ms_base := remake (ms_base ms) probe w (f_min (ms_base ms)) (f_obj (ms_base ms)); ms_slices := ms_slices ms; ms_interslice := ms_interslice ms |}.

Lemma step_linear m p pos o : linear_map (fancy_N0 m) (fancy_N1 m) (fancy_N0 m) (fancy_N1 m) (fun x => slice_step m p pos x o).
Proof.
  unfold slice_step. cbv zeta. fold (fancy_N0 m) (fancy_N1 m).
  apply (linear_comp (fancy_N0 m) (fancy_N1 m) (fancy_N0 m) (fancy_N1 m) (fancy_N0 m) (fancy_N1 m) (fun x i j => trig_interp (fancy_N0 m) (fancy_N1 m) x (IZR (off (fancy_N0 m) i) - (fst pos - IZR (Zfloor (fst pos)))) (IZR (off (fancy_N1 m) j) - (snd pos - IZR (Zfloor (snd pos)))) *
    slice_transmit m (o (Zfloor (fst pos) + Z.of_nat i)%Z (Zfloor (snd pos) + Z.of_nat j)%Z)) (fun x => near_field (fancy_N0 m) (fancy_N1 m) x p)); [|apply near_linear_map].
  split.
  - intros x y S i j _ _. f_equal. now apply trig_ext.
  - intros n u f i j _ _. rewrite trig_comb. unfold comb. rewrite csum_scal_r. apply csum_ext. intros. ring.
Qed.
Lemma steps_linear m p pos l : linear_map (fancy_N0 m) (fancy_N1 m) (fancy_N0 m) (fancy_N1 m) (fold_left (slice_step m p pos) l).
Proof.
  induction l as [|o l IH]; [apply id_linear|]. cbn [fold_left].
  exact (linear_comp _ _ _ _ _ _ (fun x => slice_step m p pos x o) (fold_left (slice_step m p pos) l) (step_linear m p pos o) IH).
Qed.
Lemma sliced_linear m p l pos : linear_map (f_n0 m) (f_n1 m) (fancy_N0 m) (fancy_N1 m) (sliced m p l pos).
Proof.
  unfold sliced. fold (fancy_N0 m) (fancy_N1 m).
  apply (linear_comp (f_n0 m) (f_n1 m) (fancy_N0 m) (fancy_N1 m) (fancy_N0 m) (fancy_N1 m) (fun E i j => RtoC (f_norm m) * illumination (f_n0 m) (f_n1 m) (fancy_N0 m) (fancy_N1 m) E 0 0 i j) (fold_left (slice_step m p pos) l)); [|apply steps_linear].
  destruct (illumination_linear (f_n0 m) (f_n1 m) (fancy_N0 m) (fancy_N1 m) 0 0) as [IE IL]. split.
  - intros x y S i j Hi Hj. f_equal. now apply IE.
  - intros n u f i j Hi Hj. rewrite (IL n u f i j Hi Hj). unfold comb. rewrite csum_scal. apply csum_ext. intros. ring.
Qed.
Lemma ramp_linear m d : linear_map (f_n0 m) (f_n1 m) (f_n0 m) (f_n1 m) (fun x => ramped m d (fun _ => x) 0%nat).
Proof.
  unfold ramped. split.
  - intros x y S i j Hi Hj. f_equal. now apply S.
  - intros n u f i j _ _. unfold comb. rewrite csum_scal_r. apply csum_ext. intros. ring.
Qed.

(** C95: two probes with weights that give an exposure the same mutual coherence function (inside the support) give it
    the same pattern. *)
Theorem C95_coherence : forall ms ix t pos rows W probe' w' rows' W', let m := ms_base ms in
  (f_simulate m = true -> ix = Listed (the ix)) -> position m ix t pos -> ms_fits m pos ->
  coefficients (f_weights m) ix (length (f_probe m)) rows W -> coefficients w' ix (length probe') rows' W' ->
  same_coherence (f_n0 m) (f_n1 m) rows (mixture W (f_support m) (f_probe m)) rows' (mixture W' (f_support m) probe') ->
  same_pattern (f_det0 m) (f_det1 m) (multislice_pattern ms ix t) (multislice_pattern (reprobed ms probe' w') ix t).
Proof.
  intros ms ix t pos rows W probe' w' rows' W' m SI HP HF HC HC' SC.
  set (ms' := reprobed ms probe' w').
  set (Inv := fun x : img => if f_fourier m then inverse_far_field (f_n0 m) (f_n1 m) x else x).
  set (d := translations_to_pixel (f_d0 m) (f_d1 m) (f_normal m) t).
  set (Rmp := fun x : img => if f_simulate m then ramped m d (fun _ => x) 0%nat else x).
  assert (HM : ms_modes m ix t W (fun k => Rmp (shot m W k))) by (unfold ms_modes, Rmp; destruct (f_simulate m); [split; [now apply SI|reflexivity]|reflexivity]).
  assert (HM' : ms_modes (ms_base ms') ix t W' (fun k => Rmp (shot (ms_base ms') W' k))).
  { unfold ms_modes. change (f_simulate (ms_base ms')) with (f_simulate m). unfold Rmp. destruct (f_simulate m); [split; [now apply SI|reflexivity]|reflexivity]. }
  destruct (C66_pattern ms ix t pos rows W _ HM HP HC HF) as (r & E1 & E2).
  destruct (C66_pattern ms' ix t pos rows' W' _ HM' HP HC' HF) as (r' & E1' & E2').
  exists r, r'. split; [exact E1|]. split; [exact E1'|]. intros i j Hi Hj. rewrite E2 by assumption. rewrite E2' by assumption.
  fold m. change (f_saturation (ms_base ms')) with (f_saturation m). change (f_background (ms_base ms')) with (f_background m). change (f_os (ms_base ms')) with (f_os m).
  change (f_det0 (ms_base ms')) with (f_det0 m). change (f_det1 (ms_base ms')) with (f_det1 m). change (ms_interslice ms') with (ms_interslice ms). change (ms_slices ms') with (ms_slices ms).
  f_equal. f_equal. destruct HF as (n0p & n1p & _).
  assert (LI : linear_map (f_n0 m) (f_n1 m) (f_n0 m) (f_n1 m) Inv) by (unfold Inv; destruct (f_fourier m); [now apply inv_far_linear|apply id_linear]).
  assert (LR : linear_map (f_n0 m) (f_n1 m) (f_n0 m) (f_n1 m) Rmp) by (unfold Rmp; destruct (f_simulate m); [apply ramp_linear|apply id_linear]).
  set (A := fun x => centred_ft (f_os m * f_det0 m) (f_os m * f_det1 m) (sliced m (ms_interslice ms) (ms_slices ms) pos (Rmp (Inv x)))).
  assert (LA : linear_map (f_n0 m) (f_n1 m) (f_os m * f_det0 m) (f_os m * f_det1 m) A).
  { apply (linear_comp _ _ _ _ _ _ _ _ (linear_comp _ _ _ _ _ _ _ _ (linear_comp _ _ _ _ _ _ _ _ LI LR) (sliced_linear m (ms_interslice ms) (ms_slices ms) pos)) (centred_linear _ _)). }
  exact (coherent_photons (f_os m) (f_n0 m) (f_n1 m) (f_det0 m) (f_det1 m) A rows (mixture W (f_support m) (f_probe m)) rows' (mixture W' (f_support m) probe') i j LA SC Hi Hj).
Qed.
Print Assumptions C95_coherence.

(** C95: with the same probes, other weight matrices with the same density matrix (C94) give the same pattern. *)
Theorem C95_rhos : forall ms ix t pos rows l rows' l' rho rho', let m := ms_base ms in
  (f_simulate m = true -> ix = Listed (the ix)) -> position m ix t pos -> ms_fits m pos ->
  f_weights m = Matrices rows l -> (the ix < length l)%nat -> (the ix < length l')%nat ->
  Model_Wavefront.get_rhos (Model_Wavefront.Matrices (length l) rows (fun s => nth s l (fun _ _ => RtoC 0))) (the ix) = Some rho ->
  Model_Wavefront.get_rhos (Model_Wavefront.Matrices (length l') rows' (fun s => nth s l' (fun _ _ => RtoC 0))) (the ix) = Some rho' ->
  (forall a b, (a < length (f_probe m))%nat -> (b < length (f_probe m))%nat -> rho a b = rho' a b) ->
  same_pattern (f_det0 m) (f_det1 m) (multislice_pattern ms ix t) (multislice_pattern (reprobed ms (f_probe m) (Matrices rows' l')) ix t).
Proof.
  intros ms ix t pos rows l rows' l' rho rho' m SI HP HF HW HL HL' R R' Q.
  apply (C95_coherence ms ix t pos rows (nth (the ix) l (fun _ _ => RtoC 0)) _ _ rows' (nth (the ix) l' (fun _ _ => RtoC 0))); try assumption.
  - fold m. rewrite HW. split; [now apply nth_error_nth'|reflexivity].
  - split; [now apply nth_error_nth'|reflexivity].
  - fold m. pose proof (proj1 (Properties_Rhos.C94_complete _ _ _ _ _ _ _ _ _ _ _ R R') Q (f_n0 m) (f_n1 m) (fun q => nth q (f_probe m) no_img)) as SC.
    apply (support_coherence _ _ _ _ _ _ (f_support m)) in SC. revert SC. apply coherence_ext; intros k i j _; rewrite mixture_nth; reflexivity.
Qed.
Print Assumptions C95_rhos.

(** C95: tidy_probes with weight matrices (whenever its new weights are numbers, see C42). *)
Theorem C95_tidy : forall L ms ix t pos rows l w', let m := ms_base ms in
  (f_simulate m = true -> ix = Listed (the ix)) -> position m ix t pos -> ms_fits m pos -> (1 <= rows)%nat ->
  f_weights m = Matrices rows l -> (the ix < length l)%nat -> f_probe m <> nil ->
  let Ws := fun s => nth s l (fun _ _ => RtoC 0) in let basis := fun q => nth q (f_probe m) no_img in
  tidy_right L (length l) rows (length (f_probe m)) (f_n0 m) (f_n1 m) Ws basis ->
  let r := tidy_probes L (length l) rows (length (f_probe m)) (f_n0 m) (f_n1 m) Ws basis in
  t_weights r = Some w' ->
  same_pattern (f_det0 m) (f_det1 m) (multislice_pattern ms ix t)
    (multislice_pattern (reprobed ms (map (t_probe r) (seq 0 (t_modes r))) (Matrices (t_rows r) (map w' (seq 0 (length l))))) ix t).
Proof.
  intros L ms ix t pos rows l w' m SI HP HF r1 HW HL HB Ws basis TR r TW.
  assert (n0p := proj1 HF). assert (n1p := proj1 (proj2 HF)).
  assert (lp : (0 < length (f_probe m))%nat) by (destruct (f_probe m); [congruence|cbn; lia]).
  apply (C95_coherence ms ix t pos rows (Ws (the ix)) _ _ (t_rows r) (w' (the ix))); try assumption.
  - fold m. rewrite HW. cbn. split; [|reflexivity]. unfold Ws. now apply nth_error_nth'.
  - cbn. split; [|reflexivity]. rewrite nth_error_map, nth_error_nth' with (d := 0%nat) by (rewrite seq_length; exact HL). cbn. now rewrite seq_nth.
  - fold m. pose proof (proj2 (C42_tidy_probes L (length l) rows (length (f_probe m)) (f_n0 m) (f_n1 m) Ws basis ltac:(lia) ltac:(lia) TR) w' TW (the ix) HL) as [SC _].
    fold r in SC. apply same_coherence_sym in SC. apply (support_coherence _ _ _ _ _ _ (f_support m)) in SC.
    revert SC. apply coherence_ext; intros k i j _.
    + now rewrite mixture_nth.
    + rewrite mixture_nth, map_length, seq_length. destruct (f_support m i j); [|reflexivity].
      apply csum_ext. intros c Hc. now rewrite nth_map_seq.
Qed.
Print Assumptions C95_tidy.
(** C95: ... and with one weight per exposure. *)
Theorem C95_tidy_scalar : forall L ms ix t pos l, let m := ms_base ms in
  (f_simulate m = true -> ix = Listed (the ix)) -> position m ix t pos -> ms_fits m pos ->
  f_weights m = Scalars l -> (the ix < length l)%nat -> f_probe m <> nil ->
  let basis := fun q => nth q (f_probe m) no_img in
  ortho_right L (length (f_probe m)) (f_n0 m) (f_n1 m) basis None ->
  let '(k, probe') := tidy_probes_1d L (length (f_probe m)) (f_n0 m) (f_n1 m) basis in
  same_pattern (f_det0 m) (f_det1 m) (multislice_pattern ms ix t)
    (multislice_pattern (reprobed ms (map probe' (seq 0 k)) (Scalars l)) ix t).
Proof.
  intros L ms ix t pos l m SI HP HF HW HL HB basis OR.
  pose proof (C42_tidy_1d L (length (f_probe m)) (f_n0 m) (f_n1 m) basis OR) as SC.
  destruct (tidy_probes_1d _ _ _ _ _) as [k probe']. destruct SC as [SC _].
  destruct (nth_error l (the ix)) as [c|] eqn:EC; [|apply nth_error_None in EC; lia].
  apply (C95_coherence ms ix t pos (length (f_probe m)) (diag c) _ _ k (diag c)); try assumption.
  - fold m. rewrite HW. cbn. eauto.
  - cbn. rewrite map_length, seq_length. eauto.
  - fold m. apply same_coherence_sym in SC.
    assert (SD : same_coherence (f_n0 m) (f_n1 m) (length (f_probe m)) (fun q i j => RtoC c * basis q i j) k (fun q i j => RtoC c * probe' q i j)).
    { intros i j i' j' Hi Hj Hi' Hj'. specialize (SC i j i' j' Hi Hj Hi' Hj'). unfold coherence in *.
      rewrite (csum_ext (length (f_probe m)) _ (fun q => RtoC c * RtoC c * (Cconj (basis q i j) * basis q i' j'))) by (intros; rewrite Cconj_mult, Cconj_RtoC; ring).
      rewrite (csum_ext k _ (fun q => RtoC c * RtoC c * (Cconj (probe' q i j) * probe' q i' j'))) by (intros; rewrite Cconj_mult, Cconj_RtoC; ring).
      rewrite <- !csum_scal. now rewrite SC. }
    apply (support_coherence _ _ _ _ _ _ (f_support m)) in SD. revert SD. apply coherence_ext; intros q i j Hq.
    + rewrite mixture_nth. destruct (f_support m i j); [|reflexivity]. rewrite (csum_single _ q); auto.
      * unfold diag. now rewrite Nat.eqb_refl.
      * intros q' _ NE. unfold diag. replace (Nat.eqb q q') with false by (symmetry; apply Nat.eqb_neq; auto). ring.
    + rewrite mixture_nth, map_length, seq_length. destruct (f_support m i j); [|reflexivity]. rewrite (csum_single _ q); auto.
      * unfold diag. now rewrite Nat.eqb_refl, nth_map_seq.
      * intros q' _ NE. unfold diag. replace (Nat.eqb q q') with false by (symmetry; apply Nat.eqb_neq; auto). ring.
Qed.
Print Assumptions C95_tidy_scalar.

(** Concrete: the model of C66_case with weight matrices in place of the factors; two rows of weights mixed by a rotation. *)
Example C95_case : let m := remake (plain None) (f_probe (plain None)) (Matrices 2 [(fun k a => if Nat.eqb k a then RtoC 5 else RtoC 0)]) (0, 0)%R (f_obj (plain None)) in
  let w' := fun k a => if Nat.eqb k 0 then (if Nat.eqb a 0 then RtoC 3 else RtoC 4) else if Nat.eqb a 0 then RtoC (-4) else RtoC 3 in
  let ms := {| ms_base := m; ms_slices := [(fun a b => cis (IZR a)); (fun a b => cis (IZR b))]; ms_interslice := fun k l => cis (INR (k + l)) |} in
  exists r r' : rimg, multislice_pattern ms (Alone 0) (0, 0, 0)%R = Ok r /\ multislice_pattern (reprobed ms (f_probe m) (Matrices 2 [w'])) (Alone 0) (0, 0, 0)%R = Ok r' /\
  forall i j, (i < 2)%nat -> (j < 2)%nat -> r i j = r' i j.
Proof.
  intros m w' ms. destruct (plain_ok None (Alone 1) eq_refl) as (A & _ & C). destruct C as (a1 & a2 & a3 & a4 & a5 & a6 & a7 & _).
  refine (C95_rhos ms (Alone 0) (0, 0, 0)%R (IZR 0, IZR 0) 2 [(fun k a => if Nat.eqb k a then RtoC 5 else RtoC 0)] 2 [w'] _ _ _ _ _ eq_refl _ _ eq_refl eq_refl _); try (cbn; lia).
  - exact A.
  - exact (conj a1 (conj a2 (conj a3 (conj a4 (conj a5 (conj a6 a7)))))).
  - intros [|[|a]] [|[|b]] Ha Hb; cbn in Ha, Hb; try lia; unfold w', csum; cbn; unfold Cconj, RtoC, Cmult, Cplus; cbn; f_equal; ring.
Qed.
