(** The forward model of MultislicePtycho (C66). *)
From Verif Require Import Base FinSum Fourier Model_Prop Spec_Prop Proofs_Prop Model_Image Spec_Image Proofs_Image
  Model_Interact Spec_Interact Proofs_Interact Model_Meas Spec_Meas Proofs_Meas Model_Geom Model_Models Model_Forward Spec_Forward Proofs_Forward Properties_Forward Proofs_ForwardSym Properties_ForwardSym Properties_ForwardPower Properties_ForwardShift.
From Coquelicot Require Import Complex.
From Flocq Require Import Core.Raux.
Local Open Scope R_scope.

Definition through' (N0 N1 : nat) (prop : img) (pos : R * R) (slices : list (Z -> Z -> C)) (x : img) : img :=
  fold_left (fun x o => near_field N0 N1 (times_img (sinc_subpixel_shift N0 N1 x (sub_part (fst pos)) (sub_part (snd pos)))
     (fun i j => o (Zfloor (fst pos) + Z.of_nat i)%Z (Zfloor (snd pos) + Z.of_nat j)%Z)) prop) slices x.
Lemma through_ok H W N0 N1 prop pos slices x : inside H N0 0 (Zfloor (fst pos)) -> inside W N1 0 (Zfloor (snd pos)) ->
  through_slices H W N0 N1 prop pos slices x = Ok (through' N0 N1 prop pos slices x).
Proof.
  intros I0 I1. revert x. induction slices as [|o l IH]; intros x; [reflexivity|]. cbn [through_slices].
  rewrite sinc_value by assumption. cbn [need rbind]. rewrite IH. reflexivity.
Qed.
Lemma slice_transmission m o : transmission (f_exp m) false o = slice_transmit m o.
Proof.
  unfold slice_transmit, transmission, cexp, Ci. destruct (f_exp m); [|reflexivity]. destruct o as [a b]. cbn [fst snd Cmult].
  replace (0 * a - 1 * b) with (- b) by ring. now replace (0 * b + 1 * a) with a by ring.
Qed.
Lemma through_sliced m p slices pos x y : (0 < fancy_N0 m)%nat -> (0 < fancy_N1 m)%nat -> same (fancy_N0 m) (fancy_N1 m) x y ->
  same (fancy_N0 m) (fancy_N1 m) (through' (fancy_N0 m) (fancy_N1 m) p pos (map (fun o a b => transmission (f_exp m) false (o a b)) slices) x)
    (fold_left (slice_step m p pos) slices y).
Proof.
  intros H0 H1. revert x y. induction slices as [|o l IH]; intros x y S; [exact S|]. unfold through'. cbn [map fold_left].
  fold (through' (fancy_N0 m) (fancy_N1 m) p pos (map (fun (o : Z -> Z -> C) a b => transmission (f_exp m) false (o a b)) l)). apply IH.
  intros i j Hi Hj. unfold slice_step. fold (fancy_N0 m) (fancy_N1 m). apply near_ext; [|now intros ? ? _ _]. intros a b Ha Hb. unfold times_img.
  rewrite shift_formula by assumption. rewrite (trig_ext _ _ _ _ _ _ S). now rewrite slice_transmission.
Qed.
Lemma illumination_zero n0 n1 N0 N1 x : (0 < n0)%nat -> (0 < n1)%nat -> centred_in n0 N0 -> centred_in n1 N1 ->
  same N0 N1 (fourier_pad n0 n1 N0 N1 x) (illumination n0 n1 N0 N1 x 0 0).
Proof.
  intros H0 H1 C0 C1 i j Hi Hj. rewrite <- shifted_pad by assumption. symmetry. apply shift_zero; try assumption; lia.
Qed.

(** C66: for every MultislicePtycho whose arrays fit together and every exposure, interaction() returns one wave
    per probe mode: the probe mode brought to the object's grid, taken through all slices in order, each of them
    displacing it by the fractional part of the position, multiplying it by the slice's window and propagating
    it (after the last slice too). *)
Theorem C66_exit_waves : forall ms ix t pos rows W E, let m := ms_base ms in
  ms_modes m ix t W E -> position m ix t pos -> coefficients (f_weights m) ix (length (f_probe m)) rows W -> ms_fits m pos ->
  exists ws, multislice_interaction ms ix t = Ok ws /\ length ws = rows /\
  forall k, (k < rows)%nat -> same (f_os m * f_det0 m) (f_os m * f_det1 m) (nth k ws no_img) (sliced m (ms_interslice ms) (ms_slices ms) pos (E k)).
Proof.
  intros ms ix t pos rows W E m HM HP HC (n0p & n1p & osp & C0 & C1 & I0 & I1).
  destruct (shot_modes_spec m ix rows W HC) as (prs & EP & LP & VP).
  assert (HN0 : (0 < fancy_N0 m)%nat) by (destruct C0; unfold fancy_N0; lia). assert (HN1 : (0 < fancy_N1 m)%nat) by (destruct C1; unfold fancy_N1; lia).
  assert (MK : exists mask, multislice_mask m ix t = Ok mask /\ forall k i j, (k < rows)%nat ->
     nth k (match mask with None => prs | Some q => map (fun p => times_img p q) prs end) no_img i j = E k i j).
  { unfold ms_modes in HM. unfold multislice_mask. destruct (f_simulate m).
    - destruct HM as [-> ->]. cbn [the]. eexists. split; [reflexivity|]. intros k i j Hk. cbn iota. rewrite (nth_map_in _ _ no_img) by lia.
      unfold times_img. rewrite VP by exact Hk. apply (ramped_mask m (translations_to_pixel (f_d0 m) (f_d1 m) (f_normal m) t) (shot m W) k i j).
    - subst E. exists None. split; [reflexivity|]. exact VP. }
  destruct MK as (mask & EM & VM).
  set (prs' := match mask with None => prs | Some q => map (fun p => times_img p q) prs end) in *.
  assert (L' : length prs' = rows) by (unfold prs'; destruct mask; rewrite ?map_length; exact LP).
  unfold multislice_interaction. fold m. rewrite (position_spec _ _ _ _ HP). cbn [rbind]. rewrite EP. cbn [rbind]. rewrite EM. cbn [rbind]. fold prs'. cbv zeta.
  rewrite (all_ok_map _ (fun x => through' (fancy_N0 m) (fancy_N1 m) (ms_interslice ms) pos (map (fun o a b => transmission (f_exp m) false (o a b)) (ms_slices ms)) (scale_img (f_norm m) x))).
  2:{ intros x _. now apply through_ok. }
  eexists. split; [reflexivity|]. rewrite !map_length, L'. split; [reflexivity|]. intros k Hk.
  rewrite (nth_map_in _ _ no_img) by (rewrite map_length, L'; exact Hk). rewrite (nth_map_in _ _ no_img) by (rewrite L'; exact Hk).
  apply through_sliced; try assumption. intros i j Hi Hj. unfold scale_img. f_equal.
  fold (fancy_N0 m) (fancy_N1 m). fold (fancy_N0 m) in C0. fold (fancy_N1 m) in C1.
  rewrite <- illumination_zero by assumption. apply fourier_pad_ext; try assumption. intros a b _ _. now apply VM.
Qed.
Print Assumptions C66_exit_waves.

(** C66: the simulated pattern: the photons of the centred unitary Fourier transforms of these waves, averaged over
    the oversampling block, plus the background, up to the saturation level. *)
Theorem C66_pattern : forall ms ix t pos rows W E, let m := ms_base ms in
  ms_modes m ix t W E -> position m ix t pos -> coefficients (f_weights m) ix (length (f_probe m)) rows W -> ms_fits m pos ->
  exists r, multislice_pattern ms ix t = Ok r /\ forall i j, (i < f_det0 m)%nat -> (j < f_det1 m)%nat ->
   r i j = reading (f_saturation m) None (f_background m) i j
     (photons (f_os m) (map (fun k => centred_ft (f_os m * f_det0 m) (f_os m * f_det1 m) (sliced m (ms_interslice ms) (ms_slices ms) pos (E k))) (seq 0 rows)) i j + / 10 ^ 7).
Proof.
  intros ms ix t pos rows W E m HM HP HC HF. destruct (C66_exit_waves ms ix t pos rows W E HM HP HC HF) as (ws & E1 & L & V). fold m in V.
  unfold multislice_pattern. rewrite E1. cbn [rmap]. eexists. split; [reflexivity|]. intros i j Hi Hj. fold m.
  destruct HF as (n0p & n1p & osp & C0 & C1 & _).
  assert (HN0 : (0 < fancy_N0 m)%nat) by (destruct C0; unfold fancy_N0; lia). assert (HN1 : (0 < fancy_N1 m)%nat) by (destruct C1; unfold fancy_N1; lia).
  unfold quadratic_background. rewrite incoherent_value by exact osp. cbn [o_over o_sat o_slice o_eps at_slice saturate].
  match goal with |- context [photons _ ?l i j] => set (xs := l) end.
  assert (Q : detector (f_os m) (map (far_field (fancy_N0 m) (fancy_N1 m)) ws) i j = photons (f_os m) xs i j).
  { transitivity (photons (f_os m) (map (far_field (fancy_N0 m) (fancy_N1 m)) ws) i j).
    - unfold detector, block_power, photons. f_equal. apply lsum_ext. intros x _. apply rsum_ext. intros a _. apply rsum_ext. intros b _. now rewrite (Nat.mul_comm i), (Nat.mul_comm j).
    - apply (photons_same (f_os m) (f_det0 m) (f_det1 m)); try assumption.
      + unfold xs. rewrite !map_length, seq_length. lia.
      + unfold xs. rewrite map_length, seq_length. intros k Hk. rewrite nth_map_seq by exact Hk. rewrite (nth_map_in _ _ no_img) by lia.
        intros a b Ha Hb. fold (fancy_N0 m) (fancy_N1 m) in *. rewrite <- far_centred by assumption. apply far_ext; try assumption. now apply V. }
  rewrite Q. unfold reading, eps. rewrite Rmult_1_l.
  assert (P : 0 <= photons (f_os m) xs i j) by (rewrite <- Q; now apply detector_nonneg).
  assert (0 < / 10 ^ 7) by (apply Rinv_0_lt_compat; lra). assert (0 <= f_background m i j ^ 2) by apply pow2_ge_0.
  destruct (f_saturation m) as [s|]; cbn [saturate]; [|reflexivity]. unfold clamp. rewrite Rmax_left; [reflexivity|]. lra.
Qed.
Print Assumptions C66_pattern.

Lemma slice_energy m p pos x o : (0 < fancy_N0 m)%nat -> (0 < fancy_N1 m)%nat -> inside (f_H m) (fancy_N0 m) 0 (Zfloor (fst pos)) -> inside (f_W m) (fancy_N1 m) 0 (Zfloor (snd pos)) ->
  (forall k l, (k < fancy_N0 m)%nat -> (l < fancy_N1 m)%nat -> Cmod (p k l) = 1) ->
  (forall a b, (0 <= a < f_H m)%Z -> (0 <= b < f_W m)%Z -> Cmod (slice_transmit m (o a b)) = 1) ->
  energy (fancy_N0 m) (fancy_N1 m) (slice_step m p pos x o) = energy (fancy_N0 m) (fancy_N1 m) x.
Proof.
  intros H0 H1 [I0 I0'] [I1 I1'] Hp Ho. unfold slice_step. fold (fancy_N0 m) (fancy_N1 m).
  rewrite near_energy_eq; [|assumption|assumption|]. 2:{ intros k l Hk Hl. rewrite nrm2_Cmod, Hp by assumption. ring. }
  rewrite <- (shift_energy (fancy_N0 m) (fancy_N1 m) x (fst pos - IZR (Zfloor (fst pos))) (snd pos - IZR (Zfloor (snd pos)))) by assumption.
  unfold energy. apply rsum_ext. intros i Hi. apply rsum_ext. intros j Hj. rewrite shift_formula by assumption.
  rewrite nrm2_mult, (nrm2_Cmod (slice_transmit _ _)), Ho by lia. ring.
Qed.
(** C66: slices that transmit everything and a propagator of modulus 1 keep every photon, whatever the number of
    slices. *)
Theorem C66_conservation : forall ms ix t pos rows W, let m := ms_base ms in f_simulate m = false ->
  position m ix t pos -> coefficients (f_weights m) ix (length (f_probe m)) rows W -> ms_fits m pos -> f_saturation m = None ->
  (forall k l, (k < f_os m * f_det0 m)%nat -> (l < f_os m * f_det1 m)%nat -> Cmod (ms_interslice ms k l) = 1) ->
  (forall o a b, In o (ms_slices ms) -> (0 <= a < f_H m)%Z -> (0 <= b < f_W m)%Z -> Cmod (slice_transmit m (o a b)) = 1) ->
  exists r, multislice_pattern ms ix t = Ok r /\
  INR (f_os m * f_os m) * rsum (f_det0 m) (fun i => rsum (f_det1 m) (fun j => r i j - (f_background m i j ^ 2 + / 10 ^ 7))) =
  f_norm m ^ 2 * lsum (map (fun k => energy (f_n0 m) (f_n1 m) (mixture W (f_support m) (f_probe m) k)) (seq 0 rows)).
Proof.
  intros ms ix t pos rows W m HM HP HC HF HS Hp Ho.
  destruct (C66_pattern ms ix t pos rows W (shot m W)) as (r & R1 & R2); try assumption.
  { unfold ms_modes. fold m. now rewrite HM. }
  exists r. split; [exact R1|].
  set (xs := map (fun k => centred_ft (fancy_N0 m) (fancy_N1 m) (sliced m (ms_interslice ms) (ms_slices ms) pos (shot m W k))) (seq 0 rows)) in *.
  rewrite (rsum_ext (f_det0 m) _ (fun i => rsum (f_det1 m) (fun j => photons (f_os m) xs i j))).
  2:{ intros i Hi. apply rsum_ext. intros j Hj. rewrite R2 by assumption. unfold reading. fold m. rewrite HS. unfold xs, fancy_N0, fancy_N1. ring. }
  destruct HF as (n0p & n1p & osp & C0 & C1 & I0 & I1).
  rewrite total_photons by exact osp. unfold xs. rewrite map_map, lsum_scal. apply lsum_ext. intros k _. fold (fancy_N0 m) (fancy_N1 m). fold (fancy_N0 m) in C0, I0. fold (fancy_N1 m) in C1, I1.
  assert (HN0 : (0 < fancy_N0 m)%nat) by (destruct C0; lia). assert (HN1 : (0 < fancy_N1 m)%nat) by (destruct C1; lia).
  rewrite <- shot_energy by assumption.
  set (x := sliced _ _ _ _ _).
  transitivity (energy (fancy_N0 m) (fancy_N1 m) x).
  { rewrite <- (proj1 (far_energy (fancy_N0 m) (fancy_N1 m) x HN0 HN1)). apply energy_ext. intros i j Hi Hj. now rewrite far_centred. }
  unfold x, sliced. fold (fancy_N0 m) (fancy_N1 m).
  assert (G : forall l y, (forall o, In o l -> In o (ms_slices ms)) -> energy (fancy_N0 m) (fancy_N1 m) (fold_left (slice_step m (ms_interslice ms) pos) l y) = energy (fancy_N0 m) (fancy_N1 m) y).
  { induction l as [|o l IH]; intros y Hl; [reflexivity|]. cbn [fold_left]. rewrite IH by (intros; apply Hl; now right).
    apply slice_energy; try assumption. intros a b Ha Hb. apply Ho; auto. apply Hl. now left. }
  rewrite G by auto.
  rewrite <- (illumination_energy (f_n0 m) (f_n1 m) (fancy_N0 m) (fancy_N1 m) (shot m W k) 0 0) by assumption.
  unfold energy. rewrite rsum_scal. apply rsum_ext. intros i _. rewrite rsum_scal. apply rsum_ext. intros j _. rewrite nrm2_mult, nrm2_RtoC. ring.
Qed.
Print Assumptions C66_conservation.

Lemma shift_ext N M x y s0 s1 i j : same N M x y -> sinc_subpixel_shift N M x s0 s1 i j = sinc_subpixel_shift N M y s0 s1 i j.
Proof. intros H. rewrite !shift_near. apply near_ext; [exact H|now intros ? ? _ _]. Qed.
(** the padded probe, displaced *)
Lemma illumination_moved n0 n1 N0 N1 E c s0 s1 : (0 < n0)%nat -> (0 < n1)%nat -> centred_in n0 N0 -> centred_in n1 N1 -> forall i j, (i < N0)%nat -> (j < N1)%nat ->
  trig_interp N0 N1 (fun i j => (c * illumination n0 n1 N0 N1 E 0 0 i j)%C) (IZR (off N0 i) - s0) (IZR (off N1 j) - s1) = (c * illumination n0 n1 N0 N1 E s0 s1 i j)%C.
Proof.
  intros H0 H1 C0 C1 i j Hi Hj. assert (0 < N0)%nat by lia. assert (0 < N1)%nat by lia.
  rewrite <- (shifted_pad n0 n1 N0 N1 E s0 s1) by assumption. rewrite <- shift_scal, shift_formula by assumption.
  apply trig_ext. intros a b Ha Hb. f_equal. symmetry. now apply illumination_zero.
Qed.
(** C66: a single slice with a propagator of modulus 1 is FancyPtycho (far field, one object plane). *)
Theorem C66_one_slice : forall ms ix t pos rows W, let m := ms_base ms in f_simulate m = false -> f_shifts m = None -> f_near m = false ->
  f_phase_only m = false -> f_qe m = None -> f_obj_modes m = None -> ms_slices ms = [f_obj m 0%nat] ->
  position m ix t pos -> coefficients (f_weights m) ix (length (f_probe m)) rows W -> ms_fits m pos -> (1 <= rows)%nat ->
  (forall k l, (k < f_os m * f_det0 m)%nat -> (l < f_os m * f_det1 m)%nat -> Cmod (ms_interslice ms k l) = 1) ->
  same_pattern (f_det0 m) (f_det1 m) (fancy_pattern m ix t) (multislice_pattern ms ix t).
Proof.
  intros ms ix t pos rows W m S F N PO Q OM SL HP HC HF R1 Hp.
  destruct (C66_pattern ms ix t pos rows W (shot m W)) as (r & A1 & A2); try assumption.
  { unfold ms_modes. fold m. now rewrite S. }
  assert (HF2 : fits m rows pos).
  { destruct HF as (A & B & C & D & E & G & H). unfold fits, obj_planes. rewrite OM, N. repeat split; try assumption; try lia; try apply D; try apply E; try apply G; try apply H; try discriminate. }
  destruct (C62_pattern m ix t pos rows W S F HP HC HF2) as (r' & B1 & B2); [rewrite Q; discriminate|].
  exists r', r. split; [exact B1|]. split; [exact A1|]. intros i j Hi Hj. rewrite A2, B2 by assumption. fold m. rewrite Q. f_equal. f_equal.
  destruct HF as (n0p & n1p & osp & C0 & C1 & I0 & I1). fold (fancy_N0 m) (fancy_N1 m) in *.
  assert (HN0 : (0 < fancy_N0 m)%nat) by (destruct C0; lia). assert (HN1 : (0 < fancy_N1 m)%nat) by (destruct C1; lia).
  unfold exits, obj_planes. rewrite OM. replace (Nat.max rows 1) with rows by lia. unfold photons. f_equal. rewrite !map_map. apply lsum_ext. intros k Hk. apply in_seq in Hk.
  apply rsum_ext. intros a Ha. apply rsum_ext. intros b Hb.
  replace (sel rows k) with k by (destruct rows as [|[|q]]; cbn; lia). change (sel 1 k) with 0%nat.
  set (u := (f_os m * i + a)%nat). set (v := (f_os m * j + b)%nat).
  assert (Hu : (u < fancy_N0 m)%nat) by (unfold u, fancy_N0; nia). assert (Hv : (v < fancy_N1 m)%nat) by (unfold v, fancy_N1; nia).
  unfold at_detector, sliced. rewrite N, SL. cbn [fold_left]. unfold slice_step. fold (fancy_N0 m) (fancy_N1 m).
  rewrite <- !far_centred by assumption. rewrite far_near by assumption.
  rewrite nrm2_mult, (nrm2_Cmod (ms_interslice _ _ _)). rewrite Hp by (apply Nat.mod_upper_bound; lia). rewrite pow1, Rmult_1_l. f_equal. apply far_ext; try assumption.
  intros e f He Hf. unfold exit_wave. rewrite N. fold (fancy_N0 m) (fancy_N1 m). rewrite illumination_moved by assumption.
  replace (transmit m) with (slice_transmit m) by (unfold transmit, slice_transmit; now rewrite PO). ring.
Qed.
Print Assumptions C66_one_slice.

(** C66: defect: the fractional displacement is applied again at every slice.  Through an empty first slice of no
    thickness (propagator 1) the illumination of the second one is displaced by twice the fractional part of the
    position, ... *)
Theorem C66_displaced_twice_refuted : forall m E pos v o, ms_fits m pos -> (forall a b, slice_transmit m (v a b) = RtoC 1) ->
  same (f_os m * f_det0 m) (f_os m * f_det1 m) (sliced m (fun _ _ => RtoC 1) [v; o] pos E)
    (fun i j => (RtoC (f_norm m) * illumination (f_n0 m) (f_n1 m) (f_os m * f_det0 m) (f_os m * f_det1 m) E
        (2 * (fst pos - IZR (Zfloor (fst pos)))) (2 * (snd pos - IZR (Zfloor (snd pos)))) i j *
       slice_transmit m (o (Zfloor (fst pos) + Z.of_nat i)%Z (Zfloor (snd pos) + Z.of_nat j)%Z))%C).
Proof.
  intros m E pos v o (n0p & n1p & osp & C0 & C1 & I0 & I1) Hv i j Hi Hj. fold (fancy_N0 m) (fancy_N1 m) in *.
  assert (HN0 : (0 < fancy_N0 m)%nat) by (destruct C0; lia). assert (HN1 : (0 < fancy_N1 m)%nat) by (destruct C1; lia).
  set (s0 := fst pos - IZR (Zfloor (fst pos))). set (s1 := snd pos - IZR (Zfloor (snd pos))).
  unfold sliced. cbn [fold_left]. unfold slice_step. fold (fancy_N0 m) (fancy_N1 m) s0 s1.
  rewrite near_one by (try assumption; reflexivity). f_equal.
  rewrite (trig_ext _ _ _ (fun a b => (RtoC (f_norm m) * illumination (f_n0 m) (f_n1 m) (fancy_N0 m) (fancy_N1 m) E s0 s1 a b)%C)).
  2:{ intros a b Ha Hb. rewrite near_one by (try assumption; reflexivity). rewrite Hv, illumination_moved by assumption. ring. }
  rewrite <- shift_formula, shift_scal by assumption. f_equal.
  rewrite (shift_ext _ _ _ (sinc_subpixel_shift (fancy_N0 m) (fancy_N1 m) (fourier_pad (f_n0 m) (f_n1 m) (fancy_N0 m) (fancy_N1 m) E) s0 s1)) by (intros a b Ha Hb; symmetry; now apply shifted_pad).
  rewrite shift_compose by assumption. replace (s0 + s0) with (2 * s0) by ring. replace (s1 + s1) with (2 * s1) by ring. now apply shifted_pad.
Qed.
Print Assumptions C66_displaced_twice_refuted.
(** ... which is another illumination: a point displaced by half a pixel, and by twice that. *)
Theorem C66_twice_differs_refuted : let E : img := fun i _ => if Nat.eqb i 0 then RtoC 1 else RtoC 0 in
  illumination 2 1 2 1 E (/ 2) 0 0%nat 0%nat = (/ 2, / 2) /\ illumination 2 1 2 1 E (2 * / 2) 0 0%nat 0%nat = RtoC 0.
Proof.
  cbv zeta. set (E := fun i _ : nat => if Nat.eqb i 0 then RtoC 1 else RtoC 0).
  assert (G : forall s, illumination 2 1 2 1 E s 0 0%nat 0%nat = (RtoC (/ 2) * (cis (PI * s) + RtoC 1))%C).
  { intros s. unfold illumination, trig_interp.
    assert (F : forall k, (k < 2)%nat -> centred_ft 2 1 E k 0%nat = (RtoC (/ sqrt 2) * w 2 (off 2 k))%C).
    { intros k Hk. rewrite centred_w by lia. replace (INR (2 * 1)) with 2 by (cbn; lra). f_equal. unfold csum, fsum, E. cbn [Nat.eqb].
      change (off 2 0) with (-1)%Z. change (off 1 0) with 0%Z. rewrite Z.mul_0_l, Z.opp_0, w_0 by lia. replace (- (off 2 k * -1))%Z with (off 2 k) by lia. ring. }
    unfold csum, fsum. rewrite !F by lia. change (off 2 0) with (-1)%Z. change (off 2 1) with 0%Z. change (off 1 0) with 0%Z. rewrite w_0 by lia.
    replace (INR (2 * 1)) with 2 by (cbn; lra). replace (INR 2) with 2 by (cbn; lra). change (INR 1) with 1.
    replace (sqrt (2 / 2)) with 1 by (replace (2 / 2) with 1 by lra; now rewrite sqrt_1).
    replace (2 * PI * (-1 * ((-1 - s) * 2 / 2) / 2 + 0 * ((0 - 0) * 1 / 1) / 1)) with (PI + PI * s) by field.
    replace (2 * PI * (0 * ((-1 - s) * 2 / 2) / 2 + 0 * ((0 - 0) * 1 / 1) / 1)) with 0 by field.
    rewrite cis_0, cis_add. unfold w. replace (INR 2) with 2 by (cbn; lra). replace (2 * PI * -1 / 2) with (- PI) by field.
    assert (S2 : sqrt 2 * sqrt 2 = 2) by (apply sqrt_sqrt; lra). assert (S2p : 0 < sqrt 2) by (apply sqrt_lt_R0; lra).
    assert (H2 : (RtoC (/ sqrt 2) * RtoC (/ sqrt 2))%C = RtoC (/ 2)).
    { rewrite <- RtoC_mult. f_equal. rewrite <- Rinv_mult, S2. reflexivity. }
    assert (cis PI = (-1, 0)) by (unfold cis; now rewrite cos_PI, sin_PI). assert (cis (- PI) = (-1, 0)) by (unfold cis; now rewrite cos_neg, sin_neg, cos_PI, sin_PI, Ropp_0).
    rewrite H, H0. rewrite <- H2. destruct (cis (PI * s)) as [x y]. apply C_ext; cbn; ring. }
  split; rewrite G.
  - replace (PI * / 2) with (PI / 2) by field. unfold cis. rewrite cos_PI2, sin_PI2. apply C_ext; cbn; lra.
  - replace (PI * (2 * / 2)) with PI by field. unfold cis. rewrite cos_PI, sin_PI. apply C_ext; cbn; lra.
Qed.
Print Assumptions C66_twice_differs_refuted.
(** Two slices over the model of C64_case. *)
Example C66_case : let ms := {| ms_base := plain None; ms_slices := [(fun a b => cis (IZR a)); (fun a b => cis (IZR b))]; ms_interslice := fun k l => cis (INR (k + l)) |} in
  ms_fits (plain None) (IZR 0, IZR 0) /\ position (plain None) (Alone 1) (0, 0, 0) (IZR 0, IZR 0) /\ coefficients (f_weights (plain None)) (Alone 1) 2 2 (diag 3) /\
  (forall k l, Cmod (ms_interslice ms k l) = 1) /\ (forall o a b, In o (ms_slices ms) -> Cmod (slice_transmit (plain None) (o a b)) = 1).
Proof.
  cbv zeta. destruct (plain_ok None (Alone 1) eq_refl) as (A & B & C). destruct C as (a1 & a2 & a3 & a4 & a5 & a6 & a7 & _).
  assert (U : forall x, Cmod (cis x) = 1) by (intros x; rewrite Cmod_nrm2, nrm2_cis; apply sqrt_1).
  split; [exact (conj a1 (conj a2 (conj a3 (conj a4 (conj a5 (conj a6 a7))))))|]. split; [exact A|]. split; [exact B|]. split; [intros; apply U|].
  intros o a b [<-|[<-|[]]]; unfold slice_transmit; cbn [plain f_exp]; apply U.
Qed.
