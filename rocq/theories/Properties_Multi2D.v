(** The forward model of Multislice2DPtycho (C84). *)
From Verif Require Import Base FinSum Fourier Matrix Model_Prop Spec_Prop Proofs_Prop Properties_Prop Model_Image Spec_Image Proofs_Image
  Model_Interact Spec_Interact Proofs_Interact Model_Meas Spec_Meas Proofs_Meas Model_Geom Model_Models Model_Analysis Spec_Analysis Proofs_Ortho Properties_Ortho Model_Forward Spec_Forward Proofs_Forward Properties_Forward
  Proofs_ForwardSym Properties_ForwardSym Properties_ForwardPower Properties_ForwardShift Properties_Multislice Model_Multi2D Spec_Multi2D Proofs_Multi2D.
From Coquelicot Require Import Complex.
From Flocq Require Import Core.Raux Core.Round_NE Core.Generic_fmt.
Local Open Scope R_scope.
Local Notation exit_wave := Spec_Forward.exit_wave.

(** C84: for every Multislice2DPtycho whose arrays fit together and every exposure, interaction() returns one wave per
    mode of the shot: the mode, brought to the grid of the wavefields, taken through the planes in order, propagated
    between them and not behind the last. *)
Theorem C84_exit_waves : forall u ix t pos rows W l, let m := u_base u in
  position m ix t pos -> u_coefficients u ix rows W -> crossed u l -> u_fits u pos ->
  exists ws, multi2d_interaction u ix t = Ok ws /\ length ws = rows /\
  forall k, (k < rows)%nat -> same (grain u * f_n0 m) (grain u * f_n1 m) (nth k ws no_img) (multi2d_wave u pos l (shot m W k)).
Proof. intros u ix t pos rows W l m HP HC HX HF. exact (waves_of u ix t pos rows W l HP HC HX HF). Qed.
Print Assumptions C84_exit_waves.

Definition origin (s : option (nat * nat)) : nat * nat := match s with None => (0, 0)%nat | Some o => o end.
(** C84: the simulated pattern: the photons of these waves at the detector, averaged over the oversampling block, at the
    pixels of the detector slice, plus the background, up to the saturation level. *)
Theorem C84_pattern : forall u ix t pos rows W l, let m := u_base u in
  position m ix t pos -> u_coefficients u ix rows W -> crossed u l -> u_fits u pos ->
  exists r, multi2d_pattern u ix t = Ok r /\ forall i j,
   let a := (fst (origin (u_slice u)) + i)%nat in let b := (snd (origin (u_slice u)) + j)%nat in
   (f_os m * (a + 1) <= f_n0 m)%nat -> (f_os m * (b + 1) <= f_n1 m)%nat ->
   r i j = reading (f_saturation m) None (f_background m) i j
     (photons (f_os m) (map (fun k => u_far u (multi2d_wave u pos l (shot m W k))) (seq 0 rows)) a b + / 10 ^ 7).
Proof.
  intros u ix t pos rows W l m HP HC HX HF. destruct (waves_of u ix t pos rows W l HP HC HX HF) as (ws & E1 & L & V).
  unfold multi2d_pattern. rewrite E1. cbn [rmap]. eexists. split; [reflexivity|]. intros i j. set (a := (fst (origin (u_slice u)) + i)%nat). set (b := (snd (origin (u_slice u)) + j)%nat). intros Ha Hb. fold m.
  destruct HF as (n0p & n1p & osp & EV & _). fold m in n0p, n1p, osp, EV.
  unfold quadratic_background. rewrite incoherent_value by exact osp. cbn [o_over o_sat o_slice o_eps saturate].
  assert (SL : forall f, at_slice (u_slice u) f i j = f a b) by (intros f; unfold at_slice, a, b; destruct (u_slice u) as [[r c]|]; reflexivity). rewrite SL.
  match goal with |- context [photons _ ?l a b] => set (xs := l) end.
  assert (Q : detector (f_os m) (map (multi2d_propagate u) ws) a b = photons (f_os m) xs a b).
  { transitivity (photons (f_os m) (map (multi2d_propagate u) ws) a b).
    - unfold detector, block_power, photons. f_equal. apply lsum_ext. intros x _. apply rsum_ext. intros c _. apply rsum_ext. intros d _. now rewrite (Nat.mul_comm a), (Nat.mul_comm b).
    - apply (photons_same (f_os m) (a + 1) (b + 1)); try lia.
      + unfold xs. rewrite !map_length, seq_length. lia.
      + unfold xs. rewrite map_length, seq_length. intros k Hk. rewrite nth_map_seq by exact Hk. rewrite (nth_map_in _ _ no_img) by lia.
        intros c d Hc Hd. assert (Hc' : (c < f_n0 m)%nat) by lia. assert (Hd' : (d < f_n1 m)%nat) by lia.
        unfold multi2d_propagate, u_far. fold m. unfold u_N0, u_N1 in *. fold m. fold m in V. specialize (V k Hk). destruct (u_alias u).
        * assert (f_n0 m / 2 + c < 2 * f_n0 m)%nat by (pose proof (Nat.div_le_upper_bound (f_n0 m) 2 (f_n0 m) ltac:(lia) ltac:(lia)); lia).
          assert (f_n1 m / 2 + d < 2 * f_n1 m)%nat by (pose proof (Nat.div_le_upper_bound (f_n1 m) 2 (f_n1 m) ltac:(lia) ltac:(lia)); lia).
          rewrite <- far_centred by lia. apply far_ext; try lia. exact V.
        * rewrite Nat.mul_1_l in *. rewrite (Nat.mul_1_l (f_n1 m)) in *. rewrite <- far_centred by lia. apply far_ext; try lia. exact V. }
  rewrite Q. unfold reading, eps. rewrite Rmult_1_l.
  assert (P : 0 <= photons (f_os m) xs a b) by (rewrite <- Q; now apply detector_nonneg).
  assert (0 < / 10 ^ 7) by (apply Rinv_0_lt_compat; lra). assert (0 <= f_background m i j ^ 2) by apply pow2_ge_0.
  destruct (f_saturation m) as [s|]; cbn [saturate]; [|reflexivity]. unfold clamp. rewrite Rmax_left; [reflexivity|]. lra.
Qed.
Print Assumptions C84_pattern.

Lemma unit_window_energy N0 N1 (x g : img) : (forall i j, (i < N0)%nat -> (j < N1)%nat -> Cmod (g i j) = 1) ->
  energy N0 N1 (fun i j => (x i j * g i j)%C) = energy N0 N1 x.
Proof.
  intros H. unfold energy. apply rsum_ext. intros i Hi. apply rsum_ext. intros j Hj. rewrite nrm2_mult, (nrm2_Cmod (g i j)), H by assumption. ring.
Qed.
(** C84: without prevent_aliasing, planes that transmit everything and a propagator of modulus 1 keep every photon,
    whatever the number of planes. *)
Theorem C84_conservation : forall u ix t pos rows W l, let m := u_base u in
  u_alias u = false -> u_slice u = None -> f_n0 m = (f_os m * f_det0 m)%nat -> f_n1 m = (f_os m * f_det1 m)%nat ->
  position m ix t pos -> u_coefficients u ix rows W -> crossed u l -> u_fits u pos -> f_saturation m = None ->
  (forall k j, (k < f_n0 m)%nat -> (j < f_n1 m)%nat -> Cmod (u_prop u k j) = 1) ->
  (forall o a b, In o l -> (0 <= a < f_H m)%Z -> (0 <= b < f_W m)%Z -> Cmod (transmit m (o a b)) = 1) ->
  exists r, multi2d_pattern u ix t = Ok r /\
  INR (f_os m * f_os m) * rsum (f_det0 m) (fun i => rsum (f_det1 m) (fun j => r i j - (f_background m i j ^ 2 + / 10 ^ 7))) =
  f_norm m ^ 2 * lsum (map (fun k => energy (f_n0 m) (f_n1 m) (mixture W (f_support m) (f_probe m) k)) (seq 0 rows)).
Proof.
  intros u ix t pos rows W l m AL SL N0 N1 HP HC HX HF HS Hp Ho.
  destruct (C84_pattern u ix t pos rows W l HP HC HX HF) as (r & R1 & R2). exists r. split; [exact R1|]. fold m in R2. rewrite SL in R2. cbn [origin fst snd Nat.add] in R2.
  set (xs := map (fun k => u_far u (multi2d_wave u pos l (shot m W k))) (seq 0 rows)) in *.
  rewrite (rsum_ext (f_det0 m) _ (fun i => rsum (f_det1 m) (fun j => photons (f_os m) xs i j))).
  2:{ intros i Hi. apply rsum_ext. intros j Hj. rewrite R2 by nia. unfold reading. rewrite HS. ring. }
  pose proof HF as (n0p & n1p & osp & EV & NR & FL). fold m in n0p, n1p, osp, EV, NR, FL. unfold grain in FL. rewrite AL in FL. rewrite !Nat.mul_1_l in FL.
  rewrite total_photons by exact osp. rewrite <- N0, <- N1. unfold xs. rewrite map_map, lsum_scal. apply lsum_ext. intros k _.
  rewrite <- shot_energy by assumption. unfold u_far. rewrite AL. fold m.
  set (x := multi2d_wave _ _ _ _).
  transitivity (energy (f_n0 m) (f_n1 m) x).
  { rewrite <- (proj1 (far_energy (f_n0 m) (f_n1 m) x n0p n1p)). apply energy_ext. intros i j Hi Hj. now rewrite far_centred. }
  destruct (crossed_planes u l HX) as [HL _].
  assert (WN : (u_subpixel u = false \/ 2 <= u_nz u)%nat -> forall o, In o l -> forall i j, (i < f_n0 m)%nat -> (j < f_n1 m)%nat -> Cmod (seen u o (ZnearestE (fst pos)) (ZnearestE (snd pos)) i j) = 1).
  { intros Q o Hin i j Hi Hj. destruct (NR Q) as [[A0 A1] [B0 B1]]. unfold seen. rewrite AL. fold m. apply Ho; try assumption; lia. }
  assert (G : forall q y, (forall o, In o q -> In o l) -> (q <> [] -> u_subpixel u = false \/ 2 <= u_nz u)%nat -> energy (f_n0 m) (f_n1 m) (fold_left (behind_next u pos) q y) = energy (f_n0 m) (f_n1 m) y).
  { induction q as [|o q IH]; intros y Hq Hn; [reflexivity|]. cbn [fold_left]. assert (NX := Hn ltac:(discriminate)). rewrite IH; [|intros; apply Hq; now right|auto].
    unfold behind_next, grain. rewrite AL. fold m. rewrite !Nat.mul_1_l. rewrite unit_window_energy by (apply WN; [exact NX|apply Hq; now left]).
    apply near_energy_eq; try assumption. intros a b Ha Hb. rewrite nrm2_Cmod, Hp by assumption. ring. }
  set (y := fun i j => (RtoC (f_norm m) * illumination (f_n0 m) (f_n1 m) (f_n0 m) (f_n1 m) (shot m W k) 0 0 i j)%C).
  assert (Y : energy (f_n0 m) (f_n1 m) y = f_norm m ^ 2 * energy (f_n0 m) (f_n1 m) (shot m W k)).
  { unfold y, energy. rewrite rsum_scal. apply rsum_ext. intros i Hi. rewrite rsum_scal. apply rsum_ext. intros j Hj. rewrite nrm2_mult, nrm2_RtoC, same_illumination by assumption. ring. }
  rewrite <- Y. unfold x, multi2d_wave, grain. rewrite AL. fold m. rewrite !Nat.mul_1_l. fold y. destruct l as [|o q]; [reflexivity|].
  rewrite G; [|intros; now right|].
  2:{ intros Hq. right. destruct q; [congruence|]. cbn in HL. lia. }
  unfold behind_first, grain. rewrite AL. fold m. rewrite !Nat.mul_1_l. destruct (u_subpixel u) eqn:SB.
  - destruct (FL eq_refl) as [[A0 A1] [B0 B1]]. rewrite (unit_window_energy _ _ (fun i j => trig_interp _ _ y _ _)).
    2:{ intros i j Hi Hj. apply Ho; [now left|lia|lia]. }
    rewrite <- (shift_energy (f_n0 m) (f_n1 m) y (fst pos - IZR (Zfloor (fst pos))) (snd pos - IZR (Zfloor (snd pos)))) by assumption.
    apply energy_ext. intros i j Hi Hj. now rewrite shift_formula.
  - apply unit_window_energy. apply WN; [now left|now left].
Qed.
Print Assumptions C84_conservation.

(** C84: one plane, subpixel and no prevent_aliasing: FancyPtycho (far field, one object plane, uncropped probe). *)
Theorem C84_one_slice : forall u ix t pos rows W, let m := u_base u in
  u_alias u = false -> u_subpixel u = true -> u_slice u = None -> crossed u [f_obj m 0%nat] ->
  f_n0 m = (f_os m * f_det0 m)%nat -> f_n1 m = (f_os m * f_det1 m)%nat ->
  f_simulate m = false -> f_shifts m = None -> f_near m = false -> f_qe m = None -> f_obj_modes m = None ->
  position m ix t pos -> u_coefficients u ix rows W -> u_fits u pos -> (1 <= rows)%nat ->
  same_pattern (f_det0 m) (f_det1 m) (fancy_pattern m ix t) (multi2d_pattern u ix t).
Proof.
  intros u ix t pos rows W m AL SB SL HX N0 N1 S F N Q OM HP HC HF R1.
  destruct (C84_pattern u ix t pos rows W _ HP HC HX HF) as (r & A1 & A2). fold m in A2. rewrite SL in A2. cbn [origin fst snd Nat.add] in A2.
  pose proof HF as (n0p & n1p & osp & EV & NR & FL). fold m in n0p, n1p, osp, FL. unfold grain in FL. rewrite AL in FL. rewrite !Nat.mul_1_l in FL. destruct (FL SB) as [I0 I1].
  assert (CI : forall n, centred_in n n) by (intros n; split; [lia|]; destruct (Nat.even n); auto).
  assert (HF2 : fits m rows pos).
  { unfold fits, obj_planes. rewrite OM, N, <- N0, <- N1. repeat split; try assumption; try lia; try apply CI; try apply I0; try apply I1; try discriminate. }
  destruct (C62_pattern m ix t pos rows W S F HP (proj2 HC) HF2) as (r' & B1 & B2); [rewrite Q; discriminate|].
  exists r', r. split; [exact B1|]. split; [exact A1|]. intros i j Hi Hj. rewrite A2 by nia. rewrite B2 by assumption. rewrite Q. f_equal. f_equal.
  unfold exits, obj_planes. rewrite OM. replace (Nat.max rows 1) with rows by lia. unfold photons. f_equal. rewrite !map_map. apply lsum_ext. intros k Hk. apply in_seq in Hk.
  apply rsum_ext. intros a Ha. apply rsum_ext. intros b Hb.
  replace (sel rows k) with k by (destruct rows as [|[|q]]; cbn; lia). change (sel 1 k) with 0%nat.
  set (c := (f_os m * i + a)%nat). set (d := (f_os m * j + b)%nat).
  assert (Hc : (c < f_n0 m)%nat) by (unfold c; nia). assert (Hd : (d < f_n1 m)%nat) by (unfold d; nia).
  unfold at_detector, u_far. rewrite N, AL. fold m. rewrite <- N0, <- N1. f_equal. rewrite <- !far_centred by assumption. apply far_ext; try assumption.
  intros e f He Hf. unfold exit_wave, multi2d_wave, behind_first, grain. cbn [fold_left]. rewrite N, AL, SB. fold m. rewrite <- N0, <- N1, !Nat.mul_1_l.
  rewrite illumination_moved by (try assumption; apply CI). ring.
Qed.
Print Assumptions C84_one_slice.

Lemma near_floor x : x - IZR (Zfloor x) < / 2 -> ZnearestE x = Zfloor x.
Proof.
  intros H. apply Znearest_imp. pose proof (Zfloor_lb x). rewrite Rabs_pos_eq; lra.
Qed.
Lemma near_above x : / 2 < x - IZR (Zfloor x) -> ZnearestE x = (Zfloor x + 1)%Z.
Proof.
  intros H. apply Znearest_imp. pose proof (Zfloor_ub x). rewrite plus_IZR. rewrite Rabs_left1; lra.
Qed.
(** C84: without prevent_aliasing, at a position whose fractional parts are below one half, the planes are crossed at one
    and the same place: behind every plane after the first the wave is multiplied by the plane's values from the whole
    part of the position on, as behind the first. *)
Theorem C84_aligned : forall u pos x o i j, let m := u_base u in u_alias u = false ->
  fst pos - IZR (Zfloor (fst pos)) < / 2 -> snd pos - IZR (Zfloor (snd pos)) < / 2 ->
  behind_next u pos x o i j = (near_field (f_n0 m) (f_n1 m) x (u_prop u) i j * transmit m (o (Zfloor (fst pos) + Z.of_nat i)%Z (Zfloor (snd pos) + Z.of_nat j)%Z))%C.
Proof.
  intros u pos x o i j m AL H0 H1. unfold behind_next, seen, grain. rewrite AL, !near_floor by assumption. now rewrite !Nat.mul_1_l.
Qed.
Print Assumptions C84_aligned.
(** C84: defect: at a fractional part above one half the planes after the first are displaced by a pixel against it.  Two
    planes at no distance, one of them empty: the sample in the first plane acts from the whole part of the position on,
    the same sample in the second plane from one pixel farther. *)
Theorem C84_misaligned_refuted : forall u pos E o v, let m := u_base u in
  u_alias u = false -> u_subpixel u = true -> u_fits u pos -> (forall k l, u_prop u k l = RtoC 1) -> (forall a b, transmit m (v a b) = RtoC 1) ->
  / 2 < fst pos - IZR (Zfloor (fst pos)) -> snd pos - IZR (Zfloor (snd pos)) < / 2 ->
  exists x, forall i j, (i < f_n0 m)%nat -> (j < f_n1 m)%nat ->
   multi2d_wave u pos [o; v] E i j = (x i j * transmit m (o (Zfloor (fst pos) + Z.of_nat i)%Z (Zfloor (snd pos) + Z.of_nat j)%Z))%C /\
   multi2d_wave u pos [v; o] E i j = (x i j * transmit m (o (Zfloor (fst pos) + 1 + Z.of_nat i)%Z (Zfloor (snd pos) + Z.of_nat j)%Z))%C /\
   x i j = (RtoC (f_norm m) * illumination (f_n0 m) (f_n1 m) (f_n0 m) (f_n1 m) E (fst pos - IZR (Zfloor (fst pos))) (snd pos - IZR (Zfloor (snd pos))) i j)%C.
Proof.
  intros u pos E o v m AL SB HF HP HV H0 H1. destruct HF as (n0p & n1p & _). fold m in n0p, n1p.
  assert (CI : forall n, centred_in n n) by (intros n; split; [lia|]; destruct (Nat.even n); auto).
  exists (fun i j => (RtoC (f_norm m) * illumination (f_n0 m) (f_n1 m) (f_n0 m) (f_n1 m) E (fst pos - IZR (Zfloor (fst pos))) (snd pos - IZR (Zfloor (snd pos))) i j)%C). intros i j Hi Hj.
  unfold multi2d_wave, behind_next, behind_first, seen, grain. cbn [fold_left]. rewrite AL, SB. fold m. rewrite !Nat.mul_1_l, (near_above (fst pos)), (near_floor (snd pos)) by assumption.
  rewrite !near_one by (try assumption; intros; apply HP). rewrite illumination_moved by (try assumption; apply CI). rewrite !HV.
  split; [ring|]. split; [ring|reflexivity].
Qed.
Print Assumptions C84_misaligned_refuted.

(** C84: with the defaults subpixel and prevent_aliasing together, the first plane is crossed on the wrong scale: the wave
    has two pixels per pixel of the plane, but pixel i of the wave meets pixel i of the plane, so that a field of view of
    n0 x n1 pixels takes 2 n0 x 2 n1 pixels of the plane.  A plane that is clear all over the field of view and opaque
    beyond it blocks three quarters of the wave, ... *)
Theorem C84_fine_first_plane_refuted : forall u pos x o i j, let m := u_base u in
  u_alias u = true -> u_subpixel u = true -> f_exp m = false ->
  (forall a b, o a b = if (Z.ltb a (Zfloor (fst pos) + Z.of_nat (f_n0 m)) && Z.ltb b (Zfloor (snd pos) + Z.of_nat (f_n1 m)))%bool then RtoC 1 else RtoC 0) ->
  (i < 2 * f_n0 m)%nat -> (j < 2 * f_n1 m)%nat ->
  behind_first u pos o x i j =
  if (Nat.ltb i (f_n0 m) && Nat.ltb j (f_n1 m))%bool
  then trig_interp (2 * f_n0 m) (2 * f_n1 m) x (IZR (off (2 * f_n0 m) i) - (fst pos - IZR (Zfloor (fst pos)))) (IZR (off (2 * f_n1 m) j) - (snd pos - IZR (Zfloor (snd pos))))
  else RtoC 0.
Proof.
  intros u pos x o i j m AL SB EX HO Hi Hj. unfold behind_first, grain, transmit. rewrite AL, SB. fold m. rewrite EX, HO.
  destruct (Nat.ltb_spec i (f_n0 m)), (Nat.ltb_spec j (f_n1 m)); cbn [andb];
    repeat match goal with |- context [Z.ltb ?a ?b] => destruct (Z.ltb_spec a b); try lia end; cbn [andb]; ring.
Qed.
Print Assumptions C84_fine_first_plane_refuted.
(** ... and a plane that contains the field of view, but not twice as much, is an error. *)
Theorem C84_fine_first_plane_error_refuted : forall u ix t pos rows W l, let m := u_base u in
  u_alias u = true -> u_subpixel u = true -> (1 <= rows)%nat -> (1 <= u_nz u)%nat ->
  position m ix t pos -> u_coefficients u ix rows W -> crossed u l ->
  (0 <= Zfloor (fst pos))%Z -> (Zfloor (fst pos) + Z.of_nat (f_n0 m) <= f_H m < Zfloor (fst pos) + Z.of_nat (2 * f_n0 m))%Z -> (2 <= f_n0 m)%nat ->
  multi2d_interaction u ix t = Raise RuntimeError.
Proof.
  intros u ix t pos rows W l m AL SB R1 NZ HP [NW HC] HX F0 F1 N2.
  assert (exists prs, match f_weights m with NoWeights => Raise TypeError | w => shot_modes w ix (lifted u) end = Ok prs /\ length prs = rows) as (prs & E & L).
  { fold m in NW, HC. destruct (f_weights m) as [|w|q w]; [congruence| |]; cbn [coefficients] in HC; unfold shot_modes, entry.
    - destruct HC as (c & -> & -> & _). cbn [rbind]. eexists. split; [reflexivity|]. rewrite map_length. apply lifted_length.
    - destruct HC as (-> & ->). cbn [rbind]. eexists. split; [reflexivity|]. now rewrite map_length, seq_length. }
  unfold multi2d_interaction. fold m. rewrite (position_spec _ _ _ _ HP). cbn [rbind]. fold m in E. unfold lifted in E. fold m in E. rewrite E. cbn [rbind].
  destruct prs as [|p prs]; [cbn in L; lia|]. cbn [map all_ok]. destruct (crossed_planes u l HX) as [HL HPL]. destruct l as [|o l]; [cbn in HL; lia|].
  destruct (u_nz u) as [|n] eqn:NZE; [lia|]. cbn [through_planes]. unfold through_plane. specialize (HPL 0%nat ltac:(cbn; lia)). cbn [Nat.add nth] in HPL. rewrite HPL. cbn [rbind]. rewrite SB. cbn [Nat.eqb andb].
  unfold ptycho_2D_sinc, window. unfold u_N0. rewrite AL. fold m.
  destruct (Z.leb_spec (Zfloor (fst pos) + Z.of_nat (2 * f_n0 m)) (f_H m)); [lia|]. rewrite andb_false_r. reflexivity.
Qed.
Print Assumptions C84_fine_first_plane_error_refuted.

(** C84: defect: the bandlimit has no effect.  The propagator the constructor asks for vanishes at the frequencies of the
    bandlimit's norm and beyond; the one it gets has modulus 1 at every propagating frequency. *)
Theorem C84_bandlimit_refuted : forall n0 n1 b0 b1 wl dz bl i j, 0 < vlen b0 -> 0 < vlen b1 -> 0 < wl ->
  propagating n0 n1 (vlen b0) (vlen b1) wl i j -> band n0 n1 bl i j = false ->
  Cmod (as_prop n0 n1 b0 b1 wl dz false (Some bl) i j) = 1 /\ as_propagator n0 n1 (vlen b0) (vlen b1) wl dz (Some bl) i j = RtoC 0.
Proof.
  intros n0 n1 b0 b1 wl dz bl i j H0 H1 Hw HP HB. split.
  - unfold as_prop. rewrite !Nat.mul_1_l. replace (vlen b0 / INR 1) with (vlen b0) by (cbn; field). replace (vlen b1 / INR 1) with (vlen b1) by (cbn; field).
    now apply C27_modulus.
  - unfold as_propagator. rewrite HB. apply Cmult_0_r.
Qed.
Print Assumptions C84_bandlimit_refuted.
(** C84: the propagator: the angular spectrum of free space over dz on the grid of the wavefields, spacing |b| / grain. *)
Theorem C84_propagator : forall n0 n1 b0 b1 wl dz (alias : bool) bl i j, let f := if alias then 2%nat else 1%nat in
  0 < vlen b0 -> 0 < vlen b1 -> 0 < wl ->
  let k2 := kpar2 (f * n0) (f * n1) (vlen b0 / INR f) (vlen b1 / INR f) i j in
  as_prop n0 n1 b0 b1 wl dz alias bl i j = (RtoC (exp (- (wave_decay wl k2 * Rabs dz))) * cis (dz * wave_phase wl k2))%C.
Proof.
  intros n0 n1 b0 b1 wl dz alias bl i j f H0 H1 Hw k2. unfold as_prop. fold f. assert (0 < INR f) by (unfold f; destruct alias; cbn; lra).
  apply C27_formula; try assumption; now apply Rdiv_lt_0_compat.
Qed.
Print Assumptions C84_propagator.

(** C84: defect: from_dataset() cannot succeed: it passes center= and padding= to exit_wave_geometry, which has no such
    parameters. *)
Theorem C84_from_dataset_refuted : forall A (rest : A), from_dataset_call rest = Raise TypeError.
Proof. reflexivity. Qed.
Print Assumptions C84_from_dataset_refuted.
(** C84: defect: weights=None, the constructor's default, cannot be simulated: TypeError; more slices than planes: IndexError. *)
Theorem C84_errors_refuted : forall u ix t pos, let m := u_base u in position m ix t pos ->
  (f_weights m = NoWeights -> multi2d_interaction u ix t = Raise TypeError) /\
  (forall s rows W, u_planes u = Separate s -> (length s < u_nz u)%nat -> (1 <= rows)%nat -> u_coefficients u ix rows W -> u_fits u pos ->
     multi2d_interaction u ix t = Raise IndexError).
Proof.
  intros u ix t pos m HP. subst m. split.
  - intros NW. unfold multi2d_interaction. rewrite (position_spec _ _ _ _ HP). cbn [rbind]. now rewrite NW.
  - intros s rows W PL LT R1 HC HF. destruct (u_modes u pos ix rows W HF HC) as (prs & E & L & _). cbv zeta in E.
    assert (ES : match f_weights (u_base u) with NoWeights => Raise TypeError | w => shot_modes w ix (lifted u) end = Ok prs).
    { rewrite <- E. destruct HC as [NW _]. destruct (f_weights (u_base u)); [congruence|reflexivity|reflexivity]. }
    unfold multi2d_interaction. rewrite (position_spec _ _ _ _ HP). cbn [rbind]. fold (lifted u). rewrite ES. cbn [rbind].
    destruct prs as [|p prs]; [cbn in L; lia|]. cbn [map all_ok].
    assert (P : (0 < u_N0 u)%nat /\ (0 < u_N1 u)%nat) by (destruct HF as (A & B & _); unfold u_N0, u_N1; destruct (u_alias u); lia). destruct P as [P0 P1].
    assert (G : forall left i w, (i <= length s)%nat -> (length s < i + left)%nat -> (u_subpixel u = false \/ 2 <= u_nz u \/ i = 0)%nat -> through_planes u pos left i w = Raise IndexError).
    { induction left as [|left IH]; intros i w Hi Hl Q; [lia|]. cbn [through_planes].
      destruct (Nat.eq_dec i (length s)) as [->|NE].
      - unfold through_plane, plane. rewrite PL. unfold entry. rewrite (proj2 (nth_error_None s (length s))) by lia. reflexivity.
      - assert (HPL : plane (u_planes u) i = Ok (nth i s (fun _ _ => RtoC 0))) by (unfold plane, entry; rewrite PL, (nth_error_nth' s (fun _ _ => RtoC 0)) by lia; reflexivity).
        assert (HE : exists y, through_plane u pos i w = Ok y).
        { destruct i as [|i]; [destruct (plane_first u pos _ w HF P0 P1 HPL) as (y & Ey & _); eauto|].
          destruct (plane_next u pos (Datatypes.S i) _ w HF ltac:(destruct Q as [Q|[Q|Q]]; [now left|now right|lia]) ltac:(right; lia) HPL) as (y & Ey & _). eauto. }
        destruct HE as (y & ->). cbn [rbind]. apply IH; lia. }
    rewrite G; [reflexivity|lia|lia|auto].
Qed.
Print Assumptions C84_errors_refuted.

Lemma svd_gram n m A r c d : is_svd n m A r -> (c < m)%nat -> (d < m)%nat ->
  ip n (fun i => A i c) (fun i => A i d) = ip (Nat.min n m) (fun a => (RtoC (svd_S r a) * svd_Vh r a c)%C) (fun a => (RtoC (svd_S r a) * svd_Vh r a d)%C).
Proof.
  intros (OU & _ & _ & _ & E) Hc Hd. rewrite <- (iso_ip n (Nat.min n m) (svd_U r)) by exact OU.
  apply ip_ext; intros i Hi; rewrite E by assumption; apply csum_ext; intros a _; ring.
Qed.
(** C84: defect: tidy_probes() with weight matrices stores the new weights but not the probe they belong to (assigning to
    the .data of the property probe changes a temporary).  Whatever the weights were - shots of any brightness, any mixture
    of the modes - the mutual coherence of the illumination, summed over the experiment, becomes that of N exposures to
    the unweighted probe modes. *)
Theorem C84_tidy_refuted : forall (L : linalg) (N m l H W : nat) (weights : nat -> mat) (probe : nat -> img),
  (0 < N)%nat -> (l <= N * m)%nat -> (l <= H * W)%nat -> (forall c, (c < l)%nat -> 0 < power H W (probe c)) ->
  product_right L (N * m) l (H * W) (all_weights m weights) (flat_stack W probe) -> (forall x, svd_right L m l x) ->
  let new := multi2d_tidy_weights L N m l H W weights probe in
  forall i j i' j',
  csum N (fun s => coherence (Nat.min m l) (fun a i j => csum l (fun c => (new s a c * probe c i j)%C)) i j i' j') = (RtoC (INR N) * coherence l probe i j i' j')%C.
Proof.
  intros L N m l H W weights probe N0 LN LW P0 PR SV new i j i' j'.
  destruct (C42_product_svd L (N * m) l (H * W) (all_weights m weights) (flat_stack W probe) PR) as (_ & UU & _). cbv zeta in UU.
  replace (Nat.min (Nat.min (N * m) l) (Nat.min (H * W) l)) with l in UU by lia.
  set (U := svd_U (product_svd L (N * m) l (H * W) (all_weights m weights) (flat_stack W probe))) in *.
  set (q := fun c => sqrt (isum H W (abs2 (probe c)))).
  assert (QP : forall c, (c < l)%nat -> 0 < q c) by (intros c Hc; apply sqrt_lt_R0; rewrite isum_abs2; auto).
  assert (NP : 0 <= INR N) by apply pos_INR.
  set (A := fun s : nat => (fun r c => U (s * m + r)%nat c * RtoC (sqrt (INR N)) * RtoC (q c))%C : mat).
  assert (NEW : forall s a c, new s a c = (RtoC (svd_S (svd L m l (A s)) a) * (svd_Vh (svd L m l (A s)) a c / RtoC (q c)))%C) by reflexivity.
  assert (G : forall s c d, (c < l)%nat -> (d < l)%nat -> ip (Nat.min m l) (fun a => new s a c) (fun a => new s a d) = (RtoC (INR N) * csum m (fun r => Cconj (U (s * m + r)%nat c) * U (s * m + r)%nat d))%C).
  { intros s c d Hc Hd. pose proof (svd_gram m l (A s) _ c d (SV (A s)) Hc Hd) as E.
    pose proof (QP c Hc) as Qc. pose proof (QP d Hd) as Qd.
    transitivity (RtoC (/ q c) * (RtoC (/ q d) * ip m (fun r => A s r c) (fun r => A s r d)))%C.
    - rewrite E. unfold ip. rewrite !csum_scal. apply csum_ext. intros a _. rewrite !NEW. unfold Cdiv. rewrite !Cconj_mult, <- !RtoC_inv, !Cconj_RtoC by lra. ring.
    - unfold ip, A. rewrite !csum_scal. apply csum_ext. intros r _. rewrite !Cconj_mult, !Cconj_RtoC.
      replace (RtoC (INR N)) with (RtoC (sqrt (INR N)) * RtoC (sqrt (INR N)))%C by (rewrite <- RtoC_mult, sqrt_sqrt by exact NP; reflexivity).
      rewrite !RtoC_inv by lra. field. split; intros Z; apply (f_equal fst) in Z; cbn in Z; lra. }
  transitivity (csum N (fun s => csum l (fun c => csum l (fun d => (ip (Nat.min m l) (fun a => new s a c) (fun a => new s a d) * (Cconj (probe c i j) * probe d i' j'))%C)))).
  { apply csum_ext. intros s _. unfold coherence, ip.
    rewrite (csum_ext _ _ (fun a => csum l (fun c => csum l (fun d => (Cconj (new s a c) * new s a d * (Cconj (probe c i j) * probe d i' j'))%C)))).
    2:{ intros a _. rewrite csum_conj, csum_scal_r. apply csum_ext. intros c _. rewrite csum_scal. apply csum_ext. intros d _. rewrite Cconj_mult. ring. }
    rewrite csum_swap. apply csum_ext. intros c _. rewrite csum_swap. apply csum_ext. intros d _. symmetry. apply csum_scal_r. }
  rewrite csum_swap. unfold coherence. rewrite csum_scal. apply csum_ext. intros c Hc. rewrite csum_swap.
  rewrite (csum_ext _ _ (fun d => (delta c d * (RtoC (INR N) * (Cconj (probe c i j) * probe d i' j')))%C)).
  { now rewrite csum_delta_l by exact Hc. }
  intros d Hd. rewrite <- csum_scal_r. rewrite (csum_ext N _ (fun s => (RtoC (INR N) * csum m (fun r => Cconj (U (s * m + r)%nat c) * U (s * m + r)%nat d))%C)) by (intros s _; now apply G).
  rewrite <- csum_scal, <- (csum_block N m (fun p => (Cconj (U p c) * U p d)%C)), UU by assumption. ring.
Qed.
Print Assumptions C84_tidy_refuted.

(** Two planes over the even 4 x 4 probe of C64_case, with prevent_aliasing. *)
Definition plain2d (alias : bool) : multi2d :=
  {| u_base := plain None; u_planes := Separate [(fun a b => cis (IZR a)); (fun a b => cis (IZR b))]; u_nz := 2; u_subpixel := true; u_alias := alias;
     u_prop := fun k l => cis (INR (k + l)); u_slice := None |}.
Example C84_case : forall alias, position (u_base (plain2d alias)) (Alone 1) (0, 0, 0) (IZR 0, IZR 0) /\ u_coefficients (plain2d alias) (Alone 1) 2 (diag 3) /\
  crossed (plain2d alias) [(fun a b => cis (IZR a)); (fun a b => cis (IZR b))] /\ u_fits (plain2d alias) (IZR 0, IZR 0) /\
  (forall k l, Cmod (u_prop (plain2d alias) k l) = 1) /\
  (forall o a b, In o [(fun a b => cis (IZR a)); (fun a b : Z => cis (IZR b))] -> Cmod (transmit (u_base (plain2d alias)) (o a b)) = 1).
Proof.
  intros alias. destruct (plain_ok None (Alone 1) eq_refl) as (A & B & _).
  assert (U : forall x, Cmod (cis x) = 1) by (intros x; rewrite Cmod_nrm2, nrm2_cis; apply sqrt_1).
  split; [exact A|]. split; [split; [discriminate|exact B]|]. split; [split; [cbn; lia|reflexivity]|]. split; [|split; [intros; apply U|]].
  - unfold u_fits, inside, grain. cbn [plain2d u_base u_alias u_subpixel u_nz plain f_n0 f_n1 f_os f_H f_W fst snd]. rewrite !ZnearestE_IZR, !Zfloor_IZR.
    destruct alias; repeat split; try lia.
  - intros o a b [<-|[<-|[]]]; unfold transmit; cbn [plain2d u_base plain f_exp]; apply U.
Qed.
(** A whole-pixel reference with half-even rounding: position 2.7 is past, position 2.3 is before the half. *)
Example C84_case_fraction : / 2 < 27 / 10 - IZR (Zfloor (27 / 10)) /\ 23 / 10 - IZR (Zfloor (23 / 10)) < / 2.
Proof.
  replace (Zfloor (27 / 10)) with 2%Z by (symmetry; apply Zfloor_imp; cbn; lra). replace (Zfloor (23 / 10)) with 2%Z by (symmetry; apply Zfloor_imp; cbn; lra). lra.
Qed.
