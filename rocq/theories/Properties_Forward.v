(** Property theorems about the forward model of FancyPtycho (C62-C65). *)
From Verif Require Import Base FinSum Fourier Model_Prop Spec_Prop Proofs_Prop Model_Image Spec_Image Proofs_Image
  Model_Interact Spec_Interact Proofs_Interact Model_Meas Spec_Meas Proofs_Meas Model_Geom Model_Models Model_Forward Spec_Forward Proofs_Forward.
From Coquelicot Require Import Complex.
From Flocq Require Import Core.Raux.
Local Open Scope R_scope.

(** C62: for every FancyPtycho whose arrays fit together (see [fits]) and every exposure, without probe
    translation masks, interaction() returns one wave per probe mode (or object plane), and wave k is the exit
    wave of [exit_wave]: the probe mode of the shot - the weighted sum of the basis probes inside the support -
    displaced by the fractional part of the position and interpolated on the object's grid, times what the
    object window at the whole-pixel part of the position transmits. *)
Theorem C62_exit_waves : forall m ix t pos rows W, f_simulate m = false -> f_shifts m = None ->
  position m ix t pos -> coefficients (f_weights m) ix (length (f_probe m)) rows W -> fits m rows pos ->
  exists ws, fancy_interaction m ix t = Ok ws /\ length ws = length (exits m (shot m W) rows pos) /\
  forall k, (k < length ws)%nat ->
    same (f_os m * f_det0 m) (f_os m * f_det1 m) (nth k ws no_img) (nth k (exits m (shot m W) rows pos) no_img).
Proof.
  intros m ix t pos rows W S F HP HC HF. apply (fancy_exits m ix t pos rows W None HP HC); [|exact HF].
  unfold fancy_mask. now rewrite F, S.
Qed.
Print Assumptions C62_exit_waves.

(** what the detector records of waves that agree with given ones *)
Lemma pattern_of m ix t (ws xs : list img) : (0 < f_os m)%nat -> (f_near m = true -> f_propagator m <> None) ->
  (forall i j, 0 <= match f_qe m with Some q => q i j | None => 1 end) ->
  fancy_interaction m ix t = Ok ws -> length ws = length xs ->
  (forall k, (k < length ws)%nat -> same (fancy_N0 m) (fancy_N1 m) (nth k ws no_img) (nth k xs no_img)) ->
  exists r, fancy_pattern m ix t = Ok r /\ forall i j, (i < f_det0 m)%nat -> (j < f_det1 m)%nat ->
   r i j = reading (f_saturation m) (f_qe m) (f_background m) i j (photons (f_os m) (map (at_detector m) xs) i j + / 10 ^ 7).
Proof.
  intros Hos Hnear Hqe E L V. unfold fancy_pattern. rewrite E. cbn [rbind].
  set (prop := fun w => match f_near m, f_propagator m with true, Some p => near_field (fancy_N0 m) (fancy_N1 m) w p | _, _ => far_field (fancy_N0 m) (fancy_N1 m) w end).
  rewrite (all_ok_map _ prop).
  2:{ intros w _. unfold fancy_propagate, prop. destruct (f_near m); [|reflexivity]. destruct (f_propagator m); [reflexivity|]. exfalso. now apply Hnear. }
  cbn [rbind]. exists (fancy_measure m (map prop ws)). split; [reflexivity|]. intros i j Hi Hj.
  unfold fancy_measure, quadratic_background. rewrite incoherent_value by exact Hos. cbn [o_over o_sat o_slice o_eps at_slice saturate].
  assert (Q : detector (f_os m) (map prop ws) i j = photons (f_os m) (map (at_detector m) xs) i j).
  { unfold detector, block_power, photons. f_equal. rewrite !map_map.
    assert (NW : ws = map (fun k => nth k ws no_img) (seq 0 (length ws))).
    { apply nth_ext with (d := no_img) (d' := no_img); [now rewrite map_length, seq_length|]. intros n Hn. now rewrite nth_map_seq. }
    assert (NX : xs = map (fun k => nth k xs no_img) (seq 0 (length ws))).
    { apply nth_ext with (d := no_img) (d' := no_img); [now rewrite map_length, seq_length|]. intros n Hn. rewrite nth_map_seq by lia. reflexivity. }
    rewrite NW at 1. rewrite NX. rewrite !map_map. apply lsum_ext. intros k Hk. apply in_seq in Hk.
    apply rsum_ext. intros a Ha. apply rsum_ext. intros b Hb. rewrite (Nat.mul_comm i), (Nat.mul_comm j). f_equal.
    assert (A0 : (f_os m * i + a < fancy_N0 m)%nat) by (unfold fancy_N0; nia). assert (A1 : (f_os m * j + b < fancy_N1 m)%nat) by (unfold fancy_N1; nia).
    assert (V' := V k ltac:(lia)). unfold prop, at_detector. fold (fancy_N0 m) (fancy_N1 m).
    assert (FF : far_field (fancy_N0 m) (fancy_N1 m) (nth k ws no_img) (f_os m * i + a)%nat (f_os m * j + b)%nat = centred_ft (fancy_N0 m) (fancy_N1 m) (nth k xs no_img) (f_os m * i + a)%nat (f_os m * j + b)%nat).
    { rewrite <- far_centred by lia. apply far_ext; try lia. exact V'. }
    destruct (f_near m); [|exact FF]. destruct (f_propagator m); [|exact FF]. apply near_ext; [exact V'|]. now intros ? ? _ _. }
  rewrite Q. fold eps. set (x := photons _ _ _ _ + eps).
  assert (X : 0 <= x).
  { unfold x, eps. rewrite <- Q. pose proof (detector_nonneg (f_os m) (map prop ws) i j Hos). assert (0 < / 10 ^ 7) by (apply Rinv_0_lt_compat; lra). lra. }
  unfold reading. specialize (Hqe i j).
  assert (B : 0 <= f_background m i j ^ 2) by (apply pow2_ge_0).
  destruct (f_qe m) as [q|]; cbn [o_sat].
  - destruct (f_saturation m) as [s|]; cbn [saturate]; [|reflexivity]. unfold clamp. rewrite Rmax_left; [reflexivity|]. nra.
  - rewrite Rmult_1_l. destruct (f_saturation m) as [s|]; cbn [saturate]; [|reflexivity]. unfold clamp. rewrite Rmax_left; [reflexivity|]. lra.
Qed.

(** C62: the simulated pattern: the photons of these waves after propagation - far field: the centred unitary
    Fourier transform; near field: near_field() with the model's propagator - averaged over the oversampling
    block, times the quantum efficiency, plus the background, up to the saturation level. *)
Theorem C62_pattern : forall m ix t pos rows W, f_simulate m = false -> f_shifts m = None ->
  position m ix t pos -> coefficients (f_weights m) ix (length (f_probe m)) rows W -> fits m rows pos ->
  (forall q i j, f_qe m = Some q -> 0 <= q i j) ->
  exists r, fancy_pattern m ix t = Ok r /\ forall i j, (i < f_det0 m)%nat -> (j < f_det1 m)%nat ->
   r i j = reading (f_saturation m) (f_qe m) (f_background m) i j
             (photons (f_os m) (map (at_detector m) (exits m (shot m W) rows pos)) i j + / 10 ^ 7).
Proof.
  intros m ix t pos rows W S F HP HC HF HQ. destruct (C62_exit_waves m ix t pos rows W S F HP HC HF) as (ws & E & L & V).
  apply (pattern_of m ix t ws); try assumption; try apply HF.
  intros i j. destruct (f_qe m) as [q|] eqn:Q; [now apply HQ|lra].
Qed.
Print Assumptions C62_pattern.

(** C62: at a whole-pixel position with an uncropped probe the exit wave is just the probe mode times the
    object window. *)
Theorem C62_whole_pixel : forall m E q a b i j,
  f_n0 m = (f_os m * f_det0 m)%nat -> f_n1 m = (f_os m * f_det1 m)%nat -> (i < f_n0 m)%nat -> (j < f_n1 m)%nat ->
  exit_wave m E q (IZR a, IZR b) i j =
  (RtoC (f_norm m) * (E i j * transmit m (f_obj m q (a + Z.of_nat i)%Z (b + Z.of_nat j)%Z)))%C.
Proof.
  intros m E q a b i j H0 H1 Hi Hj. unfold exit_wave. cbn [fst snd]. rewrite !Zfloor_IZR, !Rminus_diag_eq by reflexivity. rewrite <- H0, <- H1.
  assert (P : 0 < INR (f_n0 m * f_n1 m)) by (apply lt_0_INR; nia).
  assert (I : forall i j, (i < f_n0 m)%nat -> (j < f_n1 m)%nat -> illumination (f_n0 m) (f_n1 m) (f_n0 m) (f_n1 m) E 0 0 i j = E i j).
  { intros a' b' Ha Hb. unfold illumination. rewrite !Rminus_0_r.
    replace (INR (f_n0 m * f_n1 m) / INR (f_n0 m * f_n1 m)) with 1 by (field; lra). rewrite sqrt_1, Cmult_1_l.
    replace (IZR (off (f_n0 m) a') * INR (f_n0 m) / INR (f_n0 m)) with (IZR (off (f_n0 m) a')) by (field; apply INRn; lia).
    replace (IZR (off (f_n1 m) b') * INR (f_n1 m) / INR (f_n1 m)) with (IZR (off (f_n1 m) b')) by (field; apply INRn; lia).
    now apply trig_interp_pixels. }
  destruct (f_near m).
  - rewrite !Rplus_0_r. rewrite trig_interp_pixels by assumption. now rewrite I.
  - now rewrite I.
Qed.
Print Assumptions C62_whole_pixel.

(** C62: the object array that from_dataset lays out around the nominal positions, with obj_padding pixels of
    margin, contains every window as long as the position corrections stay within that margin. *)
Theorem C62_reachable : forall b0 b1 n ts pad N0 N1 (o : R * R) t, In t ts ->
  Rabs (fst o) <= INR pad -> Rabs (snd o) <= INR pad ->
  let r := calc_object_setup N0 N1 (map (translations_to_pixel b0 b1 n) ts) pad in
  let p := translations_to_pixel b0 b1 n t in
  inside (fst (fst r)) N0 0 (Zfloor (fst p - fst (snd r) + fst o)) /\
  inside (snd (fst r)) N1 0 (Zfloor (snd p - snd (snd r) + snd o)).
Proof.
  intros b0 b1 n ts pad N0 N1 o t Ht A B r p.
  assert (G : forall P l x d, In x l -> Rabs d <= INR pad ->
     inside (fst (calc_axis P l pad)) P 0 (Zfloor (x - snd (calc_axis P l pad) + d))).
  { intros P l x d Hx Hd. unfold calc_axis. cbn [fst snd]. pose proof (rmin_le l x Hx). pose proof (rmax_ge l x Hx).
    apply Rabs_le_inv in Hd. unfold inside. split.
    - change (Z.of_nat 0) with 0%Z. apply Zfloor_lub. cbn. lra.
    - pose proof (Zfloor_lb (x - (rmin l - INR pad) + d)). pose proof (Zceil_ub (rmax l - rmin l)).
      assert (IZR (Zfloor (x - (rmin l - INR pad) + d)) <= IZR (Zceil (rmax l - rmin l) + 2 * Z.of_nat pad)).
      { rewrite plus_IZR, mult_IZR, <- INR_IZR_INZ. lra. }
      apply le_IZR in H3. lia. }
  split; unfold r, calc_object_setup; cbn [fst snd]; apply G; try assumption; rewrite map_map; apply in_map_iff; exists t; split; auto.
Qed.
Print Assumptions C62_reachable.

(** C62: defects: weights=None and a single (non-list) index is a TypeError for every such model whose position
    exists; ... *)
Theorem C62_no_weights_refuted : forall m i t pos, f_weights m = NoWeights -> position m (Alone i) t pos ->
  fancy_pattern m (Alone i) t = Raise TypeError.
Proof.
  intros m i t pos W P. unfold fancy_pattern, fancy_interaction. rewrite (position_spec _ _ _ _ P), W. reflexivity.
Qed.
Print Assumptions C62_no_weights_refuted.
(** ... simulate_probe_translation=True without probe_fourier_shifts is a RuntimeError for every exposure; ... *)
Theorem C62_simulate_translation_refuted : forall m ix t pos rows W, f_simulate m = true -> f_shifts m = None ->
  position m ix t pos -> coefficients (f_weights m) ix (length (f_probe m)) rows W -> fancy_pattern m ix t = Raise RuntimeError.
Proof.
  intros m ix t pos rows W S F P C. destruct (shot_modes_spec m ix rows W C) as (prs & E & _).
  unfold fancy_pattern, fancy_interaction. rewrite (position_spec _ _ _ _ P). cbn [rbind]. rewrite E. cbn [rbind]. unfold fancy_mask. rewrite F, S. reflexivity.
Qed.
Print Assumptions C62_simulate_translation_refuted.

(** A model with two probe modes, density-matrix weights, Fourier-space probe, cropping and oversampling. *)
Definition small : fancy :=
  {| f_b0 := (0, -1, 0); f_b1 := (-1, 0, 0); f_normal := ez; f_min := (0, 0); f_scale := 2; f_offsets := Some [(0, 0); (/ 4, / 4)];
     f_n0 := 2; f_n1 := 4; f_probe := [(fun _ _ => RtoC 1); (fun i _ => RtoC (INR i))]; f_support := fun i j => Nat.ltb i j; f_norm := 3;
     f_fourier := true; f_weights := Matrices 2 [(fun k q => RtoC (INR (k + q))); (fun k q => RtoC 1)]; f_simulate := false; f_shifts := None;
     f_d0 := (0, -1, 0); f_d1 := (-1, 0, 0); f_os := 2; f_det0 := 2; f_det1 := 2; f_background := fun _ _ => 1; f_qe := Some (fun _ _ => / 2);
     f_saturation := Some 100; f_H := 10; f_W := 10; f_obj_modes := None; f_obj := fun _ _ _ => Ci; f_exp := true; f_phase_only := true;
     f_near := true; f_propagator := Some (fun _ _ => RtoC 1) |}.
Example C62_case : exists pos rows W, position small (Alone 1%nat) (0, 0, 0) pos /\
  coefficients (f_weights small) (Alone 1%nat) (length (f_probe small)) rows W /\ fits small rows pos /\ (forall q i j, f_qe small = Some q -> 0 <= q i j).
Proof.
  assert (T : translations_to_pixel (0, -1, 0) (-1, 0, 0) ez (0, 0, 0) = (0, 0)).
  { unfold translations_to_pixel, projection_2, projection_1, solve3, vdot, vscale, vadd, vx, vy, vz. cbn [fst snd]. f_equal; ring. }
  exists (/ 2, / 2), 2%nat, (fun _ _ => RtoC 1). split; [|split; [|split]].
  - unfold position. cbn [f_offsets small]. exists (/ 4, / 4). split; [reflexivity|]. unfold small. cbn [f_b0 f_b1 f_normal f_min f_scale]. rewrite T. cbn [fst snd]. f_equal; lra.
  - cbn. auto.
  - assert (F : Zfloor (/ 2) = 0%Z) by (apply Zfloor_imp; cbn; lra).
    unfold fits, centred_in, inside, obj_planes. cbn [small f_n0 f_n1 f_os f_det0 f_det1 f_H f_W f_obj_modes f_near f_propagator fst snd]. rewrite F.
    repeat split; try lia; try discriminate; left; reflexivity.
  - intros q i j E. cbn in E. injection E as <-. lra.
Qed.
(** ... and a probe of odd size in an even wavefield (an odd difference of probe_fourier_crop) is padded off
    centre: its spectrum moves by one pixel, so that the sign of the wave alternates from pixel to pixel. *)
Theorem C62_odd_crop_refuted : let one : img := fun _ _ => RtoC 1 in
  fourier_pad 1 1 2 2 one 1%nat 0%nat = RtoC (- / 2) /\ illumination 1 1 2 2 one 0 0 1%nat 0%nat = RtoC (/ 2).
Proof.
  cbv zeta.
  assert (F1 : forall i j, (i < 1)%nat -> (j < 1)%nat -> centred_ft 1 1 (fun _ _ => RtoC 1) i j = RtoC 1).
  { intros i j Hi Hj. assert (i = 0%nat) by lia. assert (j = 0%nat) by lia. subst. unfold centred_ft, csum, fsum, off.
    change (INR (1 * 1)) with 1. rewrite sqrt_1, Rinv_1. change (Z.of_nat 0 - Z.of_nat (1 / 2))%Z with 0%Z. change (0 * 0)%Z with 0%Z.
    replace (- (2 * PI) * (0 / INR 1 + 0 / INR 1)) with 0 by (cbn; lra). rewrite cis_0. ring. }
  assert (S4 : sqrt 4 = 2) by (replace 4 with (2 * 2) by lra; apply sqrt_square; lra).
  split.
  - unfold fourier_pad. cbn [Nat.eqb andb]. rewrite inv_far_centred by lia.
    rewrite (csum_single 2 0%nat); [|lia|].
    + rewrite (csum_single 2 0%nat); [|lia|].
      * change (pad_img 1 1 2 2 (far_field 1 1 (fun _ _ : nat => RtoC 1)) 0%nat 0%nat) with (far_field 1 1 (fun _ _ : nat => RtoC 1) 0%nat 0%nat). rewrite far_centred, F1 by lia.
        unfold off. change (Z.of_nat 0 - Z.of_nat (2 / 2))%Z with (-1)%Z. change (Z.of_nat 1 - Z.of_nat (2 / 2))%Z with 0%Z. change (0 * -1)%Z with 0%Z. change (-1 * -1)%Z with 1%Z.
        rewrite w_0 by lia. unfold w. replace (2 * PI * 1 / INR 2) with PI by (cbn; field). replace (INR (2 * 2)) with 4 by (cbn; lra). rewrite S4.
        unfold cis. rewrite cos_PI, sin_PI. apply C_ext; cbn; lra.
      * intros j Hj Hne. assert (j = 1%nat) by lia. subst. cbn. ring.
    + intros i Hi Hne. assert (i = 1%nat) by lia. subst. rewrite csum_zero'; [reflexivity|]. intros j Hj. cbn. ring.
  - unfold illumination, trig_interp. unfold csum, fsum. rewrite F1 by lia.
    replace (INR (2 * 2)) with 4 by (cbn; lra). change (INR (1 * 1)) with 1. rewrite sqrt_1, Rinv_1. unfold off. change (Z.of_nat 0 - Z.of_nat (1 / 2))%Z with 0%Z.
    replace (sqrt (1 / 4)) with (/ 2). 2:{ replace (1 / 4) with (/ 2 * / 2) by lra. rewrite sqrt_square; lra. }
    rewrite !Rmult_0_l. unfold Rdiv. rewrite !Rmult_0_l, Rplus_0_r, Rmult_0_r, cis_0. apply C_ext; cbn; lra.
Qed.
Print Assumptions C62_odd_crop_refuted.
