(** Property theorems about the models that RPI.from_calibration builds (C79, continued). *)
From Verif Require Import Base FinSum Fourier Model_Cxi Model_Prop Spec_Prop Proofs_Prop Proofs_AS Model_Image Spec_Image Proofs_Image
  Model_Interact Spec_Interact Proofs_Interact Properties_Interact Model_Meas Spec_Meas Proofs_Meas Properties_Meas Model_Geom Spec_Geom Proofs_Geom Properties_Geom Model_Models
  Model_Forward Spec_Forward Proofs_Forward
  Properties_Forward Proofs_ForwardSym Properties_ForwardSym Properties_ForwardPower Properties_RPI
  Model_Init Spec_Init Properties_Init Model_InitRPI Spec_InitRPI Properties_FromRPI.
From Coquelicot Require Import Complex.
From Flocq Require Import Core.Raux.
Local Open Scope R_scope.

(** C79: RPI calibrated by a ptychography reconstruction agrees with it: behind a transparent sample, at a
    whole-pixel position and at unit weight, FancyPtycho simulates the pattern with which the RPI model made from
    its saved results starts (uniform start, any object size). *)
Theorem C79_after_ptychography : forall m ix t wl l a b o ch o0 o1, (0 < f_n0 m)%nat -> (0 < f_n1 m)%nat -> (1 <= length (f_probe m))%nat ->
  f_simulate m = false -> f_shifts m = None -> position m ix t (IZR a, IZR b) -> f_weights m = Scalars l -> nth_error l (the ix) = Some 1 ->
  (forall i j, f_support m i j = true) -> f_fourier m = false -> f_det0 m = f_n0 m -> f_det1 m = f_n1 m -> f_os m = 1%nat -> f_qe m = None -> f_saturation m = None ->
  inside (f_H m) (f_n0 m) 0 a -> inside (f_W m) (f_n1 m) 0 b -> f_obj_modes m = None -> (forall x y, transmit m (f_obj m 0%nat x y) = RtoC 1) -> f_near m = false ->
  (match co_size o with Some s => s = (o0, o1) | None => o0 = (f_n0 m / 2)%nat /\ o1 = (f_n1 m / 2)%nat end) -> (0 < o0 <= f_n0 m)%nat -> (0 < o1 <= f_n1 m)%nat ->
  clean (co_init o) = "uniform"%string -> (co_exp o = true \/ co_phase o = false) -> co_modes o = 1%nat ->
  exists r f, rpi_from_calibration (saved m wl) o ch = Ok r /\ fancy_pattern m ix t = Ok f /\ forall k, shows r k (f_n0 m) (f_n1 m) f.
Proof.
  intros m ix t wl l a b o ch o0 o1 H0 H1 KP SM SH PO WT WE SP FP D0 D1 OS QE SA I0 I1 OM TR NF SZ Z0 Z1 IN EP MO.
  assert (FT : fits m (length (f_probe m)) (IZR a, IZR b)).
  { unfold fits, centred_in, obj_planes. rewrite OM, NF, D0, D1, OS, !Nat.mul_1_l. cbn [fst snd]. rewrite !Zfloor_IZR.
    destruct I0, I1. repeat split; try assumption; try lia; try discriminate.
    - destruct (Nat.even (f_n0 m)); auto.
    - destruct (Nat.even (f_n1 m)); auto. }
  destruct (C62_pattern m ix t (IZR a, IZR b) (length (f_probe m)) (diag 1) SM SH PO) as (f & F1 & F2).
  { rewrite WT. cbn. eauto. }
  { exact FT. }
  { rewrite QE. discriminate. }
  assert (X : exists r, rpi_from_calibration (saved m wl) o ch = Ok r /\ forall k, shows r k (f_n0 m) (f_n1 m) (fun i j =>
     rpi_photons 1 (f_n0 m) (f_n1 m) o0 o1 (cal_probe (saved m wl)) 1 (fun _ _ _ => RtoC 1) i j + / 10 ^ 7 + sqrt (f_background m i j ^ 2) ^ 2)).
  { assert (Q : forall k, exists r, rpi_from_calibration (saved m wl) o ch = Ok r /\ shows r k (f_n0 m) (f_n1 m) (fun i j =>
     rpi_photons 1 (f_n0 m) (f_n1 m) o0 o1 (cal_probe (saved m wl)) 1 (fun _ _ _ => RtoC 1) i j + / 10 ^ 7 + sqrt (f_background m i j ^ 2) ^ 2)).
    { intros k. pose proof (C79_calibration (saved m wl) o ch o0 o1 (fun _ _ _ => RtoC 1) k) as Q.
      rewrite MO in Q. apply Q; clear Q; [exact SZ|exact Z0|exact Z1| |exact EP|left; discriminate].
      intros q. right. split; [exact IN|reflexivity]. }
    destruct (Q 0%nat) as (r & R & _). exists r. split; [exact R|]. intros k. destruct (Q k) as (r' & R' & S').
    assert (E : r' = r) by (rewrite R in R'; congruence). rewrite E in S'. exact S'. }
  destruct X as (r & R & S). exists r, f. split; [exact R|]. split; [exact F1|]. intros k. destruct (S k) as (g & G1 & G2). exists g. split; [exact G1|]. intros i j Hi Hj. rewrite G2 by assumption.
  rewrite F2 by (rewrite ?D0, ?D1; assumption). unfold reading. rewrite SA, QE, Rmult_1_l. rewrite pow2_sqrt by apply pow2_ge_0. f_equal. f_equal.
  unfold exits, obj_planes. rewrite OM, OS. rewrite Nat.max_l by exact KP. rewrite photons_one, !map_map. unfold rpi_photons, saved. cbn [cal_probe]. rewrite map_map.
  rewrite <- (lsum_nth (fun _ _ => RtoC 0) _ (f_probe m)). apply lsum_ext. intros q Hq. apply in_seq in Hq. cbn [seq map]. unfold lsum at 1. cbn [fold_right]. rewrite Rplus_0_r.
  unfold photons. cbn [map]. do 3 f_equal. apply rsum_ext. intros x Hx. apply rsum_ext. intros y Hy. f_equal. unfold at_detector. rewrite NF, OS, D0, D1, !Nat.mul_1_l.
  apply centred_ext. intros u v Hu Hv. unfold behind. rewrite trig_const by lia.
  rewrite C62_whole_pixel by (rewrite ?OS, ?D0, ?D1, ?Nat.mul_1_l; auto). rewrite TR.
  assert (SE : sel (length (f_probe m)) q = q) by (unfold sel; destruct (length (f_probe m)) as [|[|n]]; lia). rewrite SE.
  assert (SQ : shot m (diag 1) q u v = nth q (f_probe m) (fun _ _ => RtoC 0) u v).
  { unfold shot, mixture. rewrite FP, SP. change (diag 1) with eye. apply eye_probe. lia. }
  rewrite SQ, !Cmult_1_r. apply Cmult_comm.
Qed.
Print Assumptions C79_after_ptychography.
(** C79: the saturation given to from_calibration is dropped; ... *)
Theorem C79_saturation_refuted : forall c o ch s, rpi_from_calibration c {| co_size := co_size o; co_modes := co_modes o; co_saturation := s; co_exp := co_exp o; co_phase := co_phase o; co_init := co_init o |} ch = rpi_from_calibration c o ch /\
  forall m, rpi_from_calibration c o ch = Ok m -> r_saturation (rm_rpi m) = None.
Proof.
  intros c o ch s. split; [reflexivity|]. intros m E. unfold rpi_from_calibration in E. cbv zeta in E. destruct (obj_shape _ _ _) as [o0 o1]. destruct (_ || _)%bool; [discriminate|].
  destruct (init_obj _ _ _ _ _ _) as [m1|x] eqn:I in E; [|discriminate]. cbn [rmap] in E. injection E as <-. unfold init_obj in I.
  repeat match type of I with (if ?c then _ else _) = _ => destruct c end; try discriminate; injection I as <-; reflexivity.
Qed.
Print Assumptions C79_saturation_refuted.
(** ... several probe modes without a background in the calibration allow no batches but those of one exposure or
    of as many as there are modes; ... *)
Theorem C79_calibration_background_refuted : forall c o ch o0 o1, (match co_size o with Some s => s = (o0, o1) | None => o0 = (cal_n0 c / 2)%nat /\ o1 = (cal_n1 c / 2)%nat end) ->
  (0 < o0 <= cal_n0 c)%nat -> (0 < o1 <= cal_n1 c)%nat -> (clean (co_init o) = "random" \/ clean (co_init o) = "uniform")%string -> cal_background c = None -> (2 <= length (cal_probe c))%nat ->
  exists m, rpi_from_calibration c o ch = Ok m /\ forall b, b <> 1%nat -> b <> length (cal_probe c) -> rpi_simulate m b = Raise RuntimeError.
Proof.
  intros c o ch o0 o1 SZ H0 H1 I BK K.
  assert (S : obj_shape (co_size o) (cal_n0 c) (cal_n1 c) = (o0, o1)) by (unfold obj_shape; destruct (co_size o) as [s|]; [exact SZ|now destruct SZ as [-> ->]]).
  rewrite (from_calibration_value c o ch o0 o1 S) by lia. set (m0 := cal_construct c o o0 o1).
  destruct (start_ok m0 ch (co_init o) None (the_start (clean (co_init o)) ch)) as (m1 & E & G).
  { intros q. unfold the_start, start_object. destruct I as [-> | ->]; cbn [String.eqb Ascii.eqb Bool.eqb]; auto. }
  rewrite E. cbn [rmap]. cbv zeta in G. set (m2 := unexponentiate m1) in *. exists m2. split; [reflexivity|]. intros b B1 BK1.
  destruct G as (G1 & G2 & G3 & _). unfold rpi_simulate. cbv zeta. rewrite G1.
  assert (BG : rm_bg m0 = (Some (length (cal_probe c)), cal_n0 c, cal_n1 c)) by (unfold m0, cal_construct, rpi_construct; rewrite BK; reflexivity).
  rewrite BG, (bcast_none b (length (cal_probe c))) by lia. destruct (bcast _ _); [|reflexivity]. destruct (bcast _ _); reflexivity.
Qed.
Print Assumptions C79_calibration_background_refuted.
(** ... spectral initialisation is refused, no pattern being passed on; ... *)
Theorem C79_calibration_spectral_refuted : forall c o ch m, clean (co_init o) = "spectral"%string -> rpi_from_calibration c o ch <> Ok m.
Proof.
  intros c o ch m I. unfold rpi_from_calibration. cbv zeta. destruct (obj_shape _ _ _) as [o0 o1]. destruct (_ || _)%bool; [discriminate|]. unfold init_obj. rewrite I. cbn [String.eqb Ascii.eqb Bool.eqb]. discriminate.
Qed.
Print Assumptions C79_calibration_spectral_refuted.
(** ... and the detector geometry it stores is infinite for every probe basis with a vanishing component, such as
    that along the two transverse axes. *)
Theorem C79_calibration_geometry_refuted : forall wl p, p <> 0 -> calibration_column wl (0, p, 0) = (None, Some (wl / p), None).
Proof. intros wl p Hp. unfold calibration_column, over, vx, vy, vz. cbn [fst snd]. destruct (Req_EM_T 0 0); [|contradiction]. destruct (Req_EM_T p 0); [contradiction|reflexivity]. Qed.
Print Assumptions C79_calibration_geometry_refuted.

(** A dataset of two patterns of 4 x 6 pixels, oversampled twice, a probe of two modes, an object of 3 x 5 pixels. *)
Example C79_case : exists d o ch, rpi_fits d 8 12 o 3 5 /\ (forall q, start_object (clean (ro_init o)) ch q (fun a b => cis (2 * PI * (1 / 3)))) /\ d_background d <> None /\ (ro_exp o = true \/ ro_phase o = false) /\ ro_threshold o < 1 /\
  exists c co, (forall q, start_object (clean (co_init co)) ch q (fun _ _ => RtoC 1)) /\ (0 < cal_n0 c / 2 <= cal_n0 c)%nat /\ length (cal_probe c) = 1%nat /\ co_size co = None.
Proof.
  exists {| d_h := 4; d_w := 6; d_patterns := [(fun _ _ => 1); (fun i _ => INR i)]; d_translations := [(0, 0, 0); (1, 0, 0)]; d_mask := fun _ _ => true; d_background := Some (fun _ _ => 1); d_qe := None; d_intensities := None;
            d_b0 := (0, -1, 0); d_b1 := (-1, 0, 0); d_dist := 1; d_wl := 1; d_orientation := None |},
         {| ro_size := Some (3, 5)%nat; ro_background := None; ro_modes := 2; ro_saturation := Some 100; ro_os := 2; ro_init := " Random"%string; ro_exp := true; ro_phase := true; ro_threshold := 1 / 10 |},
         {| rc_rand := fun _ _ _ => 1 / 3; rc_spectral := fun _ => no_img |}.
  split; [unfold rpi_fits; cbn; repeat split; try lia; discriminate|]. split; [intros q; left; split; reflexivity|]. split; [discriminate|]. split; [now left|]. split; [cbn; lra|].
  exists {| cal_wl := 1; cal_b0 := (0, -1, 0); cal_b1 := (-1, 0, 0); cal_n0 := 4; cal_n1 := 5; cal_probe := [fun i j => RtoC (INR i)]; cal_background := None |},
         {| co_size := None; co_modes := 1; co_saturation := None; co_exp := false; co_phase := false; co_init := "uniform"%string |}.
  split; [intros q; right; split; reflexivity|]. cbn. repeat split; lia.
Qed.
