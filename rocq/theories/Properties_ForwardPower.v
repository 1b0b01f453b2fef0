(** Photon budget of the forward model of FancyPtycho (C64). *)
From Verif Require Import Base FinSum Fourier Model_Prop Spec_Prop Proofs_Prop Model_Image Spec_Image Proofs_Image
  Model_Interact Spec_Interact Proofs_Interact Model_Meas Spec_Meas Proofs_Meas Model_Geom Model_Models Model_Forward Spec_Forward Proofs_Forward Properties_Forward Proofs_ForwardSym Properties_ForwardSym.
From Coquelicot Require Import Complex.
From Flocq Require Import Core.Raux.
Local Open Scope R_scope.

(** The detector collects the power of the waves. *)
Lemma total_photons os n0 n1 waves : (0 < os)%nat ->
  INR (os * os) * rsum n0 (fun i => rsum n1 (fun j => photons os waves i j)) = lsum (map (energy (os * n0) (os * n1)) waves).
Proof.
  intros H. assert (P : 0 < INR (os * os)) by (apply lt_0_INR; nia).
  induction waves as [|x l IH].
  - rewrite (rsum_ext n0 _ (fun _ => 0)); [rewrite rsum_zero; unfold lsum; cbn; ring|]. intros i _. rewrite (rsum_ext n1 _ (fun _ => 0)); [apply rsum_zero|].
    intros j _. unfold photons, lsum. cbn. unfold Rdiv. ring.
  - cbn [map]. unfold lsum at 1. cbn [fold_right]. change (fold_right Rplus 0 (map (energy (os * n0) (os * n1)) l)) with (lsum (map (energy (os * n0) (os * n1)) l)). rewrite <- IH.
    rewrite (rsum_ext n0 _ (fun i => rsum n1 (fun j => rsum os (fun a => rsum os (fun b => nrm2 (x (os * i + a)%nat (os * j + b)%nat))) / INR (os * os)) + rsum n1 (fun j => photons os l i j))).
    2:{ intros i _. rewrite <- rsum_add. apply rsum_ext. intros j _. unfold photons. cbn [map]. unfold lsum. cbn [fold_right]. unfold Rdiv. ring. }
    rewrite rsum_add, Rmult_plus_distr_l. f_equal. rewrite rsum_scal. unfold energy. rewrite (Nat.mul_comm os n0), rsum_block. apply rsum_ext. intros i _.
    rewrite rsum_scal. rewrite (rsum_ext os _ (fun a => rsum n1 (fun j => rsum os (fun b => nrm2 (x (os * i + a)%nat (os * j + b)%nat))))).
    2:{ intros a _. rewrite (Nat.mul_comm os n1), rsum_block. apply rsum_ext. intros j _. apply rsum_ext. intros b _. now rewrite (Nat.mul_comm i), (Nat.mul_comm j). }
    rewrite rsum_swap. apply rsum_ext. intros j _. field. lra.
Qed.
Lemma lsum_scal {A} c (f : A -> R) l : c * lsum (map f l) = lsum (map (fun x => c * f x) l).
Proof. unfold lsum. induction l as [|x l IH]; cbn; [ring|]. rewrite <- IH. ring. Qed.
Lemma lsum_le {A} (f g : A -> R) l : (forall x, In x l -> f x <= g x) -> lsum (map f l) <= lsum (map g l).
Proof. unfold lsum. induction l as [|x l IH]; intros H; cbn; [lra|]. apply Rplus_le_compat; [apply H; now left|]. apply IH. intros y Hy. apply H. now right. Qed.
(** energy of an exit wave *)
Lemma exit_energy m E q pos rows : fits m rows pos ->
  energy (fancy_N0 m) (fancy_N1 m) (exit_wave m E q pos) =
  f_norm m ^ 2 * energy (fancy_N0 m) (fancy_N1 m) (fun i j =>
    (illumination (f_n0 m) (f_n1 m) (fancy_N0 m) (fancy_N1 m) E (fst pos - IZR (Zfloor (fst pos))) (snd pos - IZR (Zfloor (snd pos))) i j *
     transmit m (f_obj m q (Zfloor (fst pos) + Z.of_nat i)%Z (Zfloor (snd pos) + Z.of_nat j)%Z))%C).
Proof.
  intros (n0p & n1p & _ & C0 & C1 & _). assert (0 < fancy_N0 m)%nat by (destruct C0; unfold fancy_N0; lia). assert (0 < fancy_N1 m)%nat by (destruct C1; unfold fancy_N1; lia).
  unfold exit_wave. fold (fancy_N0 m) (fancy_N1 m).
  match goal with |- energy _ _ (if _ then _ else ?p) = _ => set (psi := p) end.
  transitivity (energy (fancy_N0 m) (fancy_N1 m) psi).
  - destruct (f_near m); [|reflexivity].
    rewrite <- (shift_energy (fancy_N0 m) (fancy_N1 m) psi (- (fst pos - IZR (Zfloor (fst pos)))) (- (snd pos - IZR (Zfloor (snd pos))))) by assumption.
    apply energy_ext. intros i j Hi Hj. rewrite shift_formula by assumption. unfold Rminus. now rewrite !Ropp_involutive.
  - unfold energy, psi. rewrite rsum_scal. apply rsum_ext. intros i _. rewrite rsum_scal. apply rsum_ext. intros j _.
    rewrite nrm2_mult, nrm2_RtoC. ring.
Qed.
Lemma shot_energy m W k : (0 < f_n0 m)%nat -> (0 < f_n1 m)%nat ->
  energy (f_n0 m) (f_n1 m) (shot m W k) = energy (f_n0 m) (f_n1 m) (mixture W (f_support m) (f_probe m) k).
Proof. intros H0 H1. unfold shot. destruct (f_fourier m); [|reflexivity]. now apply far_energy. Qed.
Definition unit_propagator (m : fancy) : Prop := f_near m = true -> forall p k l, f_propagator m = Some p -> (k < f_os m * f_det0 m)%nat -> (l < f_os m * f_det1 m)%nat -> Cmod (p k l) = 1.
Lemma detector_energy m x rows pos : fits m rows pos -> unit_propagator m -> energy (fancy_N0 m) (fancy_N1 m) (at_detector m x) = energy (fancy_N0 m) (fancy_N1 m) x.
Proof.
  intros (n0p & n1p & _ & C0 & C1 & _) U. assert (0 < fancy_N0 m)%nat by (destruct C0; unfold fancy_N0; lia). assert (0 < fancy_N1 m)%nat by (destruct C1; unfold fancy_N1; lia).
  assert (FF : energy (fancy_N0 m) (fancy_N1 m) (centred_ft (fancy_N0 m) (fancy_N1 m) x) = energy (fancy_N0 m) (fancy_N1 m) x).
  { rewrite <- (proj1 (far_energy (fancy_N0 m) (fancy_N1 m) x ltac:(assumption) ltac:(assumption))). apply energy_ext. intros i j Hi Hj. now rewrite far_centred. }
  unfold at_detector. fold (fancy_N0 m) (fancy_N1 m). destruct (f_near m) eqn:N; [|exact FF]. destruct (f_propagator m) as [p|] eqn:P; [|exact FF].
  apply near_energy_eq; try assumption. intros k l Hk Hl. rewrite nrm2_Cmod, (U N p k l P Hk Hl). ring.
Qed.

Lemma exits_power m W rows pos : fits m rows pos -> unit_propagator m ->
  lsum (map (energy (fancy_N0 m) (fancy_N1 m)) (map (at_detector m) (exits m (shot m W) rows pos))) =
  f_norm m ^ 2 * lsum (map (fun k => energy (fancy_N0 m) (fancy_N1 m) (fun i j =>
    (illumination (f_n0 m) (f_n1 m) (fancy_N0 m) (fancy_N1 m) (shot m W (sel rows k)) (fst pos - IZR (Zfloor (fst pos))) (snd pos - IZR (Zfloor (snd pos))) i j *
     transmit m (f_obj m (sel (obj_planes m) k) (Zfloor (fst pos) + Z.of_nat i)%Z (Zfloor (snd pos) + Z.of_nat j)%Z))%C)) (seq 0 (Nat.max rows (obj_planes m)))).
Proof.
  intros HF U. unfold exits. rewrite !map_map. rewrite lsum_scal. apply lsum_ext. intros k _.
  rewrite (detector_energy m _ rows pos HF U). apply (exit_energy m _ _ pos rows HF).
Qed.

(** C64: an object that transmits everything: the pattern, less background, holds exactly the photons of the
    incident modes, at every position, for every oversampling and cropping of the probe's spectrum. *)
Theorem C64_conservation : forall m ix t pos rows W, f_simulate m = false -> f_shifts m = None ->
  position m ix t pos -> coefficients (f_weights m) ix (length (f_probe m)) rows W -> fits m rows pos -> f_qe m = None -> f_saturation m = None ->
  (f_near m = true -> forall p k l, f_propagator m = Some p -> (k < f_os m * f_det0 m)%nat -> (l < f_os m * f_det1 m)%nat -> Cmod (p k l) = 1) ->
  (forall q a b, (q < obj_planes m)%nat -> (0 <= a < f_H m)%Z -> (0 <= b < f_W m)%Z -> Cmod (transmit m (f_obj m q a b)) = 1) ->
  exists r, fancy_pattern m ix t = Ok r /\
  INR (f_os m * f_os m) * rsum (f_det0 m) (fun i => rsum (f_det1 m) (fun j => r i j - (f_background m i j ^ 2 + / 10 ^ 7))) = incident m W rows.
Proof.
  intros m ix t pos rows W S F HP HC HF HQ HS HU HT.
  destruct (C62_pattern m ix t pos rows W S F HP HC HF) as (r & R1 & R2); [rewrite HQ; discriminate|].
  exists r. split; [exact R1|]. rewrite (rsum_ext (f_det0 m) _ (fun i => rsum (f_det1 m) (fun j => photons (f_os m) (map (at_detector m) (exits m (shot m W) rows pos)) i j))).
  2:{ intros i Hi. apply rsum_ext. intros j Hj. rewrite R2 by assumption. unfold reading. rewrite HQ, HS. ring. }
  assert (OS : (0 < f_os m)%nat) by apply HF. rewrite total_photons by exact OS. fold (fancy_N0 m) (fancy_N1 m). rewrite (exits_power m W rows pos HF HU).
  unfold incident. f_equal. apply lsum_ext. intros k Hk. apply in_seq in Hk.
  destruct HF as (n0p & n1p & _ & C0 & C1 & [I0 I0'] & [I1 I1'] & RO1 & O1 & RO & _). rewrite <- shot_energy by assumption. fold (fancy_N0 m) in C0. fold (fancy_N1 m) in C1.
  rewrite <- (illumination_energy (f_n0 m) (f_n1 m) (fancy_N0 m) (fancy_N1 m) (shot m W (sel rows k)) (fst pos - IZR (Zfloor (fst pos))) (snd pos - IZR (Zfloor (snd pos)))) by assumption.
  unfold energy. apply rsum_ext. intros i Hi. apply rsum_ext. intros j Hj. rewrite nrm2_mult, (nrm2_Cmod (transmit _ _)), HT; [ring| |unfold fancy_N0 in *; lia|unfold fancy_N1 in *; lia].
  destruct (obj_planes m) as [|[|o]]; cbn [sel]; lia.
Qed.
Print Assumptions C64_conservation.
(** C64: an object that amplifies nowhere: the pattern never holds more photons than come in. *)
Theorem C64_absorption : forall m ix t pos rows W, f_simulate m = false -> f_shifts m = None ->
  position m ix t pos -> coefficients (f_weights m) ix (length (f_probe m)) rows W -> fits m rows pos -> f_qe m = None -> f_saturation m = None ->
  (f_near m = true -> forall p k l, f_propagator m = Some p -> (k < f_os m * f_det0 m)%nat -> (l < f_os m * f_det1 m)%nat -> Cmod (p k l) = 1) ->
  (forall q a b, (q < obj_planes m)%nat -> (0 <= a < f_H m)%Z -> (0 <= b < f_W m)%Z -> Cmod (transmit m (f_obj m q a b)) <= 1) ->
  exists r, fancy_pattern m ix t = Ok r /\
  INR (f_os m * f_os m) * rsum (f_det0 m) (fun i => rsum (f_det1 m) (fun j => r i j - (f_background m i j ^ 2 + / 10 ^ 7))) <= incident m W rows.
Proof.
  intros m ix t pos rows W S F HP HC HF HQ HS HU HT.
  destruct (C62_pattern m ix t pos rows W S F HP HC HF) as (r & R1 & R2); [rewrite HQ; discriminate|].
  exists r. split; [exact R1|]. rewrite (rsum_ext (f_det0 m) _ (fun i => rsum (f_det1 m) (fun j => photons (f_os m) (map (at_detector m) (exits m (shot m W) rows pos)) i j))).
  2:{ intros i Hi. apply rsum_ext. intros j Hj. rewrite R2 by assumption. unfold reading. rewrite HQ, HS. ring. }
  assert (OS : (0 < f_os m)%nat) by apply HF. rewrite total_photons by exact OS. fold (fancy_N0 m) (fancy_N1 m). rewrite (exits_power m W rows pos HF HU).
  unfold incident. apply Rmult_le_compat_l; [apply pow2_ge_0|]. apply lsum_le. intros k Hk. apply in_seq in Hk.
  destruct HF as (n0p & n1p & _ & C0 & C1 & [I0 I0'] & [I1 I1'] & RO1 & O1 & RO & _). rewrite <- shot_energy by assumption. fold (fancy_N0 m) in C0. fold (fancy_N1 m) in C1.
  rewrite <- (illumination_energy (f_n0 m) (f_n1 m) (fancy_N0 m) (fancy_N1 m) (shot m W (sel rows k)) (fst pos - IZR (Zfloor (fst pos))) (snd pos - IZR (Zfloor (snd pos)))) by assumption.
  unfold energy. apply rsum_le. intros i Hi. apply rsum_le. intros j Hj. rewrite nrm2_mult, (nrm2_Cmod (transmit _ _)).
  match goal with |- ?x * Cmod ?y ^ 2 <= _ => assert (NX : 0 <= x) by apply nrm2_nonneg; assert (NY : 0 <= Cmod y <= 1) end.
  { split; [apply Cmod_ge_0|]. apply HT; [|unfold fancy_N0 in *; lia|unfold fancy_N1 in *; lia]. destruct (obj_planes m) as [|[|o]]; cbn [sel]; lia. }
  match goal with |- ?x * Cmod ?y ^ 2 <= _ => apply (Rle_trans _ (x * 1)); [apply Rmult_le_compat_l; [exact NX|nra]|right; ring] end.
Qed.
Print Assumptions C64_absorption.
(** C64: an exponentiated phase-only object transmits everything; an exponentiated object whose values have
    imaginary part >= 0 amplifies nowhere. *)
Theorem C64_exponentiated : forall m o, f_exp m = true ->
  (f_phase_only m = true -> Cmod (transmit m o) = 1) /\ (f_phase_only m = false -> 0 <= snd o -> Cmod (transmit m o) <= 1).
Proof.
  intros m o E. unfold transmit. rewrite E. split; intros P; rewrite P.
  - rewrite Cmod_nrm2, nrm2_cis. apply sqrt_1.
  - intros H. rewrite Cmod_mult, Cmod_R, (Cmod_nrm2 (cis _)), nrm2_cis, sqrt_1, Rmult_1_r.
    rewrite Rabs_right by (left; apply exp_pos). rewrite <- exp_0. destruct H as [H|<-]; [left; apply exp_increasing; lra|rewrite Ropp_0; right; reflexivity].
Qed.
Print Assumptions C64_exponentiated.
(** C64: limit: phase_only does nothing without exponentiate_obj - the object is used as it is stored. *)
Theorem C64_phase_only_refuted : exists m o, f_exp m = false /\ f_phase_only m = true /\ Cmod (transmit m o) <> 1.
Proof.
  exists {| f_b0 := ez; f_b1 := ez; f_normal := ez; f_min := (0, 0); f_scale := 2; f_offsets := None;
     f_n0 := 2; f_n1 := 4; f_probe := []; f_support := fun i j => Nat.ltb i j; f_norm := 3;
     f_fourier := true; f_weights := NoWeights; f_simulate := false; f_shifts := None;
     f_d0 := (0, -1, 0); f_d1 := (-1, 0, 0); f_os := 2; f_det0 := 2; f_det1 := 2; f_background := fun _ _ => 1; f_qe := None;
     f_saturation := Some 100; f_H := 10; f_W := 10; f_obj_modes := None; f_obj := fun _ _ _ => Ci; f_exp := false; f_phase_only := true;
     f_near := true; f_propagator := None |}, (RtoC 2).
  split; [reflexivity|]. split; [reflexivity|]. unfold transmit. cbn [f_exp]. rewrite Cmod_R, Rabs_right by lra. lra.
Qed.
Print Assumptions C64_phase_only_refuted.
(** A model of two exposures that meets the hypotheses of C64 (and, with shifts, of C65). *)
Definition plain (sh : option (list (R * R))) : fancy :=
  {| f_b0 := (0, -1, 0); f_b1 := (-1, 0, 0); f_normal := ez; f_min := (0, 0); f_scale := 1; f_offsets := None;
     f_n0 := 4; f_n1 := 4; f_probe := [(fun _ _ => RtoC 1); (fun i _ => RtoC (INR i))]; f_support := fun i j => true; f_norm := 3;
     f_fourier := false; f_weights := Scalars [2; 3]; f_simulate := false; f_shifts := sh;
     f_d0 := (0, -1, 0); f_d1 := (-1, 0, 0); f_os := 2; f_det0 := 2; f_det1 := 2; f_background := fun _ _ => 1; f_qe := None;
     f_saturation := None; f_H := 10; f_W := 10; f_obj_modes := None; f_obj := fun _ a b => cis (IZR (a * b)); f_exp := false; f_phase_only := false;
     f_near := false; f_propagator := None |}.
Lemma plain_ok sh ix : (the ix = 1)%nat -> position (plain sh) ix (0, 0, 0) (IZR 0, IZR 0) /\
  coefficients (f_weights (plain sh)) ix 2 2 (diag 3) /\ fits (plain sh) 2 (IZR 0, IZR 0).
Proof.
  intros E.
  assert (T : translations_to_pixel (0, -1, 0) (-1, 0, 0) ez (0, 0, 0) = (0, 0)).
  { unfold translations_to_pixel, projection_2, projection_1, solve3, vdot, vscale, vadd, vx, vy, vz. cbn [fst snd]. f_equal; ring. }
  split; [|split].
  - unfold position, plain. cbn [f_offsets f_b0 f_b1 f_normal f_min f_scale]. rewrite T. cbn [fst snd]. f_equal; lra.
  - cbn [plain f_weights coefficients]. rewrite E. exists 3. auto.
  - unfold fits, centred_in, inside, obj_planes. cbn [plain f_n0 f_n1 f_os f_det0 f_det1 f_H f_W f_obj_modes f_near f_propagator fst snd]. rewrite !Zfloor_IZR.
    repeat split; try lia; try discriminate; left; reflexivity.
Qed.
Example C64_case : forall q a b, Cmod (transmit (plain None) (f_obj (plain None) q a b)) = 1 /\
  exists pos rows W, position (plain None) (Alone 1) (0, 0, 0) pos /\ coefficients (f_weights (plain None)) (Alone 1) 2 rows W /\ fits (plain None) rows pos.
Proof.
  intros q a b. split.
  - unfold transmit. cbn [plain f_exp f_obj]. rewrite Cmod_nrm2, nrm2_cis. apply sqrt_1.
  - exists (IZR 0, IZR 0), 2%nat, (diag 3). now apply plain_ok.
Qed.
