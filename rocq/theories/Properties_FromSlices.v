(** Property theorems about the models that MultislicePtycho.from_dataset builds (C76). *)
From Verif Require Import Base FinSum Fourier Model_Prop Spec_Prop Proofs_Prop Proofs_AS Model_Image Spec_Image Proofs_Image
  Model_Interact Spec_Interact Proofs_Interact Properties_Interact Model_Meas Spec_Meas Proofs_Meas Model_Geom Model_Models Model_Forward Spec_Forward Proofs_Forward
  Properties_Forward Proofs_ForwardSym Properties_ForwardPower Properties_ForwardShift Properties_RPI Properties_Prop Properties_Multislice
  Model_Init Spec_Init Properties_Init Properties_FromData Model_InitSlices Spec_InitSlices.
From Coq Require Import FunctionalExtensionality.
From Coquelicot Require Import Complex.
From Flocq Require Import Core.Raux.
Local Open Scope R_scope.

Lemma ms_weight_exists d k : (forall l, d_intensities d = Some l -> length l = length (d_patterns d) /\ forall x, In x l -> 0 < x) ->
  (k < length (d_patterns d))%nat -> exists w, ms_weight d k w /\ forall w', ms_weight d k w' -> nth_error (multislice_weights (length (d_patterns d)) (d_intensities d)) k = Some w'.
Proof.
  intros P Hk. unfold ms_weight, multislice_weights. destruct (d_intensities d) as [l|].
  - destruct (P l eq_refl) as [L Q]. destruct (nth_error l k) as [x|] eqn:E; [|apply nth_error_None in E; lia].
    assert (M : 0 < rmean l).
    { unfold rmean. assert (0 < length l)%nat by lia. apply Rdiv_lt_0_compat; [|apply lt_0_INR; lia].
      clear - Q H. destruct l as [|a l]; [cbn in H; lia|]. cbn. pose proof (Q a (or_introl eq_refl)).
      assert (0 <= lsum l); [|unfold lsum in *; lra]. assert (Q2 : forall x, In x l -> 0 < x) by (intros; apply Q; now right). clear - Q2.
      induction l as [|b l IH]; cbn; [lra|]. pose proof (Q2 b (or_introl eq_refl)). specialize (IH ltac:(intros; apply Q2; now right)). unfold lsum in *. lra. }
    fold (rmean l). exists (x / rmean l). split; [exists x; split; [reflexivity|field; lra]|].
    intros w' (y & E' & V). injection E' as <-. rewrite nth_error_map, E. cbn. f_equal. rewrite <- V. field. lra.
  - exists 1. split; [reflexivity|]. intros w' ->. now rewrite nth_error_repeat.
Qed.
Lemma ms_weights_ok d mo : ms_sensible d mo -> exists ws, ms_weights d (mo_common mo) = Ok ws /\
  forall ix w, (the ix < length (d_patterns d))%nat -> ms_weight d (the ix) w ->
    coefficients ws ix (op_n_modes (mo_common mo)) (modes_used (mo_common mo)) (row_weights (mo_common mo) w).
Proof.
  intros ((LT & IN & O & CR & NM & SC & DM & PL) & NZ & PS & ID). cbn [far_only op_n_modes op_dm_rank] in *. set (o := mo_common mo) in *.
  assert (SW : forall ix w, (the ix < length (d_patterns d))%nat -> ms_weight d (the ix) w -> nth_error (multislice_weights (length (d_patterns d)) (d_intensities d)) (the ix) = Some w).
  { intros ix w Hk Hw. destruct (ms_weight_exists d (the ix) IN Hk) as (_ & _ & N). now apply N. }
  unfold ms_weights, modes_used, row_weights. destruct (op_dm_rank o) as [r|].
  - specialize (DM r eq_refl). destruct r as [|r|r].
    + eexists. split; [reflexivity|]. intros ix w Hk Hw. cbn. exists w. rewrite (SW ix w Hk Hw). auto.
    + destruct ID as [ID|[ID|ID]]; try discriminate. rewrite ID. unfold dm_weights. destruct (Z.ltb_spec (Z.of_nat (op_n_modes o)) (Z.pos r)); [lia|]. cbn. eexists. split; [reflexivity|].
      intros ix w Hk Hw. cbn. split; [|reflexivity]. unfold ms_weight in Hw. rewrite ID in Hw. subst w. rewrite nth_error_repeat by exact Hk. f_equal.
      apply functional_extensionality. intros i. apply functional_extensionality. intros k. f_equal. ring.
    + destruct ID as [ID|[ID|ID]]; try discriminate. rewrite ID. assert (Z.neg r = -1)%Z as -> by lia. unfold dm_weights. destruct (Z.ltb_spec (Z.of_nat (op_n_modes o)) (-1)); [lia|]. cbn [Z.eqb Pos.eqb].
      destruct (Z.ltb_spec (Z.of_nat (op_n_modes o)) 0); [lia|]. cbn. eexists. split; [reflexivity|].
      intros ix w Hk Hw. cbn. split; [|now rewrite Nat2Z.id]. unfold ms_weight in Hw. rewrite ID in Hw. subst w. rewrite nth_error_repeat by exact Hk. f_equal.
      apply functional_extensionality. intros i. apply functional_extensionality. intros k. f_equal. ring.
  - eexists. split; [reflexivity|]. intros ix w Hk Hw. cbn. exists w. rewrite (SW ix w Hk Hw). auto.
Qed.
Lemma ms_from_dataset_ok d mo ch : usable d -> ms_sensible d mo -> exists ws, multislice_from_dataset d mo ch = Ok (ms_assemble d mo ch (guess_of d (far_only (mo_common mo))) ws) /\
  forall ix t w, nth_error (d_translations d) (the ix) = Some t -> ms_weight d (the ix) w ->
  let m := ms_base (mm_model (ms_assemble d mo ch (guess_of d (far_only (mo_common mo))) ws)) in
  exists pos, position m ix t pos /\ coefficients (f_weights m) ix (length (f_probe m)) (modes_used (mo_common mo)) (row_weights (mo_common mo) w) /\ ms_fits m pos.
Proof.
  intros U MS. pose proof MS as (S & NZ & PS & _). pose proof S as (LT & IN & O & CR & NM & _).
  destruct (ms_weights_ok d mo MS) as (ws & EW & CW). exists ws. unfold multislice_from_dataset.
  rewrite PS, (guess_ok d _ U S), EW. cbn [rbind]. destruct (Nat.eqb_spec (mo_nz mo) 0); [lia|].
  split; [destruct U as (NE & _); destruct (d_patterns d); [contradiction|reflexivity]|].
  intros ix t w Ht Hw. set (o := far_only (mo_common mo)) in *. set (c := {| rand_mode := rand_probe ch; rand_obj := rand_slice ch 0 |}).
  assert (Hk : (the ix < length (d_patterns d))%nat) by (rewrite <- LT; apply nth_error_Some; congruence).
  destruct (from_dataset_ok d o c U S) as (g & ws' & _ & _ & G). destruct (weights_exist d (the ix) IN Hk) as (w' & Hw' & _).
  destruct (G ix t w' Ht Hw') as (pos & P & _ & F). exists pos. cbv zeta. split; [exact P|]. split.
  - cbn [mm_model ms_base ms_assemble fancy_assemble f_weights f_probe]. rewrite map_length, modes_length by exact NM. exact (CW ix w Hk Hw).
  - destruct F as (a1 & a2 & a3 & a4 & a5 & a6 & a7 & _). exact (conj a1 (conj a2 (conj a3 (conj a4 (conj a5 (conj a6 a7)))))).
Qed.
Lemma pick_small n i : (i < n)%nat -> pick n i = i.
Proof. unfold pick. destruct (Nat.eqb_spec n 1); lia. Qed.
(** The propagator of a model without oversampling fits its waves. *)
Lemma fit_same h w p : exists q, fit_propagator h w h w p = Ok q /\ forall i j, (i < h)%nat -> (j < w)%nat -> q i j = p i j.
Proof. unfold fit_propagator. rewrite !Nat.eqb_refl. cbn. eexists. split; [reflexivity|]. intros i j Hi Hj. cbn. now rewrite !pick_small. Qed.
Lemma ms_simulate_ok d mo ch : usable d -> ms_sensible d mo -> op_os (mo_common mo) = 1%nat ->
  exists ws q, let mm := ms_assemble d mo ch (guess_of d (far_only (mo_common mo))) ws in let m := ms_base (mm_model mm) in
  multislice_from_dataset d mo ch = Ok mm /\ (forall i j, (i < d_h d)%nat -> (j < d_w d)%nat -> q i j = ms_propagator d mo i j) /\
  forall ix t w, nth_error (d_translations d) (the ix) = Some t -> ms_weight d (the ix) w ->
  exists pos, position m ix t pos /\ coefficients (f_weights m) ix (length (f_probe m)) (modes_used (mo_common mo)) (row_weights (mo_common mo) w) /\ ms_fits m pos /\
  ms_simulate mm ix t = multislice_pattern {| ms_base := m; ms_slices := ms_slices (mm_model mm); ms_interslice := q |} ix t.
Proof.
  intros U MS OS. destruct (ms_from_dataset_ok d mo ch U MS) as (ws & E & G). destruct (fit_same (d_h d) (d_w d) (ms_propagator d mo)) as (q & EQ & Q).
  exists ws, q. cbv zeta. split; [exact E|]. split; [exact Q|]. intros ix t w Ht Hw. destruct (G ix t w Ht Hw) as (pos & P & C & F). exists pos.
  split; [exact P|]. split; [exact C|]. split; [exact F|]. unfold ms_simulate.
  change (fancy_N0 _) with (op_os (mo_common mo) * d_h d)%nat. change (fancy_N1 _) with (op_os (mo_common mo) * d_w d)%nat.
  rewrite OS, !Nat.mul_1_l. cbn [ms_assemble mm_h mm_w mm_model ms_interslice]. rewrite EQ. reflexivity.
Qed.
(** C76: for every dataset and all options that fit together, without oversampling, MultislicePtycho.from_dataset
    builds a model that can simulate every exposure of the dataset, alone or in a list (with
    simulate_probe_translation: in a list). *)
Theorem C76_simulates : forall d mo ch, usable d -> ms_sensible d mo -> op_os (mo_common mo) = 1%nat ->
  exists m, multislice_from_dataset d mo ch = Ok m /\ forall k t, nth_error (d_translations d) k = Some t ->
  (exists r, ms_simulate m (Listed k) t = Ok r) /\ (op_simulate (mo_common mo) = false -> forall ix, the ix = k -> exists r, ms_simulate m ix t = Ok r).
Proof.
  intros d mo ch U MS OS. destruct (ms_simulate_ok d mo ch U MS OS) as (ws & q & E & _ & G). eexists. split; [exact E|]. intros k t Ht.
  pose proof MS as ((LT & IN & _) & _).
  assert (Hk : (k < length (d_patterns d))%nat) by (rewrite <- LT; apply nth_error_Some; congruence).
  destruct (ms_weight_exists d k IN Hk) as (w & Hw & _).
  assert (R : forall ix, the ix = k -> (op_simulate (mo_common mo) = true -> ix = Listed (the ix)) -> exists r, ms_simulate (ms_assemble d mo ch (guess_of d (far_only (mo_common mo))) ws) ix t = Ok r).
  { intros ix <- HS. destruct (G ix t w Ht Hw) as (pos & P & C & F & ->). set (m := ms_base _) in *.
    set (E' := if f_simulate m then ramped m (translations_to_pixel (f_d0 m) (f_d1 m) (f_normal m) t) (shot m (row_weights (mo_common mo) w)) else shot m (row_weights (mo_common mo) w)).
    match goal with |- exists r, multislice_pattern ?x _ _ = _ => destruct (C66_pattern x ix t pos (modes_used (mo_common mo)) (row_weights (mo_common mo) w) E') as (r & Hr & _); try assumption end.
    - cbn [ms_base]. unfold ms_modes, E'. destruct (f_simulate m) eqn:SI; [|reflexivity]. split; [|reflexivity]. apply HS. exact SI.
    - eauto. }
  split; [apply R; reflexivity|]. intros SI ix Hix. apply R; [exact Hix|]. congruence.
Qed.
Print Assumptions C76_simulates.

(** ---- the starting point ---- *)
Lemma transparent_far m p pos slices x i j : (0 < fancy_N0 m)%nat -> (0 < fancy_N1 m)%nat ->
  (forall o a b, In o slices -> slice_transmit m (o a b) = RtoC 1) -> (i < fancy_N0 m)%nat -> (j < fancy_N1 m)%nat ->
  nrm2 (far_field (fancy_N0 m) (fancy_N1 m) (fold_left (slice_step m p pos) slices x) i j) =
  nrm2 (p (roll (fancy_N0 m) (fancy_N0 m / 2) i) (roll (fancy_N1 m) (fancy_N1 m / 2) j)) ^ length slices * nrm2 (far_field (fancy_N0 m) (fancy_N1 m) x i j).
Proof.
  intros H0 H1 T Hi Hj. revert x. induction slices as [|o l IH]; intros x; [cbn; ring|]. cbn [fold_left length]. rewrite IH by (intros; apply T; now right).
  unfold slice_step. fold (fancy_N0 m) (fancy_N1 m). rewrite far_near, nrm2_mult by assumption.
  set (s0 := fst pos - IZR (Zfloor (fst pos))). set (s1 := snd pos - IZR (Zfloor (snd pos))).
  rewrite (far_ext (fancy_N0 m) (fancy_N1 m) _ (near_field (fancy_N0 m) (fancy_N1 m) x (shift_mask (fancy_N0 m) (fancy_N1 m) s0 s1))); try assumption.
  2:{ intros a b Ha Hb. rewrite T by now left. rewrite <- shift_formula by assumption. rewrite Cmult_1_r. apply shift_near. }
  rewrite far_near, nrm2_mult, shift_mask_unit by assumption. cbn [pow]. ring.
Qed.
Lemma sliced_far m p pos slices E i j : ms_fits m pos -> (forall o a b, In o slices -> slice_transmit m (o a b) = RtoC 1) -> (i < fancy_N0 m)%nat -> (j < fancy_N1 m)%nat ->
  nrm2 (centred_ft (fancy_N0 m) (fancy_N1 m) (sliced m p slices pos E) i j) =
  nrm2 (p (roll (fancy_N0 m) (fancy_N0 m / 2) i) (roll (fancy_N1 m) (fancy_N1 m / 2) j)) ^ length slices *
  (f_norm m ^ 2 * nrm2 (place (f_n0 m) (f_n1 m) (fancy_N0 m / 2 - f_n0 m / 2) (fancy_N1 m / 2 - f_n1 m / 2) (far_field (f_n0 m) (f_n1 m) E) i j)).
Proof.
  intros (n0p & n1p & _ & C0 & C1 & _) T Hi Hj. fold (fancy_N0 m) in C0. fold (fancy_N1 m) in C1. assert (0 < fancy_N0 m)%nat by lia. assert (0 < fancy_N1 m)%nat by lia.
  rewrite <- far_centred by assumption. unfold sliced. rewrite transparent_far by assumption. f_equal. fold (fancy_N0 m) (fancy_N1 m).
  rewrite (far_ext (fancy_N0 m) (fancy_N1 m) _ (fun a b => RtoC (f_norm m) * fourier_pad (f_n0 m) (f_n1 m) (fancy_N0 m) (fancy_N1 m) E a b)%C); try assumption.
  2:{ intros a b Ha Hb. now rewrite illumination_zero by assumption. }
  rewrite far_scal, nrm2_mult, nrm2_RtoC. rewrite far_fourier_pad by assumption. ring.
Qed.
(** the propagator seen from detector pixel (i, j) *)
Lemma interslice_at d mo i j : usable d -> 0 < fst (slice_pixels d) -> 0 < snd (slice_pixels d) -> (i < d_h d)%nat -> (j < d_w d)%nat -> 
  let p := nrm2 (ms_propagator d mo (roll (d_h d) (d_h d / 2) i) (roll (d_w d) (d_w d / 2) j)) in
  (spared mo (d_h d) i -> spared mo (d_w d) j -> passes d i j -> p = 1) /\ (~ spared mo (d_h d) i \/ ~ spared mo (d_w d) j -> p = 0) /\ p <= 1.
Proof.
  intros (_ & H & W & Hw & _) P0 P1 Hi Hj p.
  set (b := exit_wave_geometry (d_b0 d) (d_b1 d) (d_h d) (d_w d) (d_wl d) (d_dist d)).
  set (q := interslice (d_h d) (d_w d) (fst b) (snd b) (d_wl d) (mo_dz mo)).
  set (p0 := nrm2 (q (roll (d_h d) (d_h d / 2) i) (roll (d_w d) (d_w d / 2) j))).
  assert (Q : p0 <= 1 /\ (passes d i j -> p0 = 1)).
  { destruct (C27_modulus (d_h d) (d_w d) (fst (slice_pixels d)) (snd (slice_pixels d)) (d_wl d) (mo_dz mo) (roll (d_h d) (d_h d / 2) i) (roll (d_w d) (d_w d / 2) j) P0 P1 Hw) as (A & _ & B).
    unfold p0. rewrite nrm2_Cmod. unfold q, interslice. change (Rabs (vx (snd b))) with (fst (slice_pixels d)). change (Rabs (vy (fst b))) with (snd (slice_pixels d)).
    split.
    - pose proof (Cmod_ge_0 (as_propagator (d_h d) (d_w d) (fst (slice_pixels d)) (snd (slice_pixels d)) (d_wl d) (mo_dz mo) None (roll (d_h d) (d_h d / 2) i) (roll (d_w d) (d_w d / 2) j))). nra.
    - intros PA. rewrite A; [ring|]. unfold propagating, kpar2. rewrite !freq_roll by assumption. unfold passes in PA.
      assert (0 < INR (d_h d)) by now apply lt_0_INR. assert (0 < INR (d_w d)) by now apply lt_0_INR.
      match goal with |- ?l <= ?r => replace l with ((2 * PI / d_wl d) ^ 2 * ((d_wl d * IZR (off (d_h d) i) / (INR (d_h d) * fst (slice_pixels d))) ^ 2 + (d_wl d * IZR (off (d_w d) j) / (INR (d_w d) * snd (slice_pixels d))) ^ 2)) by (field; repeat split; lra) end.
      rewrite <- (Rmult_1_r ((2 * PI / d_wl d) ^ 2)) at 2. apply Rmult_le_compat_l; [apply pow2_ge_0|exact PA]. }
  destruct Q as [Q1 Q2]. unfold p, ms_propagator. cbv zeta. fold b. fold q. unfold spared. destruct (mo_prop_crop mo) as [[|c]|].
  - fold p0. split; [auto|]. split; [lia|exact Q1].
  - unfold ifftshift2. rewrite !roll_inv1 by assumption. unfold fftshift2.
    destruct ((i <? S c) || (j <? S c) || (d_h d - S c <=? i) || (d_w d - S c <=? j))%bool eqn:B.
    + rewrite !orb_true_iff, !Nat.ltb_lt, !Nat.leb_le in B. unfold nrm2, RtoC. cbn [fst snd]. split; [lia|]. split; [intros _; ring|lra].
    + rewrite !orb_false_iff, !Nat.ltb_ge, !Nat.leb_gt in B. fold p0. split; [auto|]. split; [lia|exact Q1].
  - fold p0. split; [auto|]. split; [tauto|exact Q1].
Qed.
Lemma slice_clear mo ch ws d g o a b : op_randomize (mo_common mo) = 0 ->
  In o (map (ms_slice (far_only (mo_common mo)) ch) (seq 0 (mo_nz mo))) -> slice_transmit (fancy_assemble d (far_only (mo_common mo)) {| rand_mode := rand_probe ch; rand_obj := rand_slice ch 0 |} g ws) (o a b) = RtoC 1.
Proof.
  intros R I. apply in_map_iff in I as (q & <- & _). unfold slice_transmit, ms_slice. cbn [fancy_assemble f_exp far_only op_exp op_randomize]. rewrite R, Rmult_0_l.
  destruct (op_exp (mo_common mo)).
  - unfold RtoC. cbn [fst snd]. rewrite Ropp_0, exp_0, cis_0. apply Cmult_1_l.
  - rewrite Cmult_0_r. unfold cexp, RtoC. cbn [fst snd]. rewrite exp_0, cis_0. apply Cmult_1_l.
Qed.
(** C76: for a plain start (one probe mode, no random phases, no support; oversampling 1) the model simulates, for
    every exposure and any number of slices, the average pattern of the data less the background, times the square
    of the exposure's weight, at every pixel that the crops spare and whose wave propagates between the slices;
    nothing where a crop cuts; nowhere more. *)
Theorem C76_initial_pattern : forall d mo ch k t w, usable d -> ms_sensible d mo -> plain_slices (mo_common mo) -> op_os (mo_common mo) = 1%nat ->
  0 < fst (slice_pixels d) -> 0 < snd (slice_pixels d) ->
  (exists a b, (a < d_h d)%nat /\ (b < d_w d)%nat /\ kept (mo_common mo) (d_h d) a /\ kept (mo_common mo) (d_w d) b /\ lit d (mo_common mo) a b /\ 0 < signal d a b) ->
  nth_error (d_translations d) k = Some t -> ms_weight d k w ->
  exists m, multislice_from_dataset d mo ch = Ok m /\ forall ix, the ix = k -> exists r, ms_simulate m ix t = Ok r /\
  forall i j, (i < d_h d)%nat -> (j < d_w d)%nat ->
   (kept (mo_common mo) (d_h d) i -> kept (mo_common mo) (d_w d) j -> lit d (mo_common mo) i j -> spared mo (d_h d) i -> spared mo (d_w d) j -> passes d i j ->
      r i j = reading (op_saturation (mo_common mo)) None (start_background d) i j (w ^ 2 * signal d i j + / 10 ^ 7)) /\
   (~ kept (mo_common mo) (d_h d) i \/ ~ kept (mo_common mo) (d_w d) j \/ ~ spared mo (d_h d) i \/ ~ spared mo (d_w d) j ->
      r i j = reading (op_saturation (mo_common mo)) None (start_background d) i j (/ 10 ^ 7)) /\
   (lit d (mo_common mo) i j -> op_saturation (mo_common mo) = None -> r i j <= reading None None (start_background d) i j (w ^ 2 * signal d i j + / 10 ^ 7)).
Proof.
  intros d mo ch k t w U MS (NM & RN & RA & SI) OS P0 P1 (a0 & b0 & Ha & Hb & Ka & Kb & La & Pa) Ht Hw.
  destruct (ms_simulate_ok d mo ch U MS OS) as (ws & q & E & HQ & G). set (o := mo_common mo) in *. set (fo := far_only o) in *.
  set (mm := ms_assemble d mo ch (guess_of d fo) ws) in *. set (m := ms_base (mm_model mm)) in *.
  exists mm. split; [exact E|]. intros ix <-. destruct (G ix t w Ht Hw) as (pos & P & C & F & ->).
  pose proof MS as (S & NZ & _). assert (RO : modes_used o = 1%nat) by (apply (plain_rows d fo); assumption).
  match goal with |- exists r, multislice_pattern ?x _ _ = _ /\ _ => set (ms := x) in *; destruct (C66_pattern ms ix t pos (modes_used o) (row_weights o w) (shot m (row_weights o w))) as (r & R & V); try assumption end.
  { unfold ms_modes. replace (f_simulate (ms_base ms)) with false by (symmetry; exact SI). reflexivity. }
  change (ms_base ms) with m in V. exists r. split; [exact R|]. intros i j Hi Hj.
  change (f_det0 m) with (d_h d) in V. change (f_det1 m) with (d_w d) in V. specialize (V i j Hi Hj).
  destruct (crop_ok d fo U S) as [A B]. change (op_os fo) with (op_os o) in A, B. rewrite OS, !Nat.mul_1_l in A, B.
  set (c := {| rand_mode := rand_probe ch; rand_obj := rand_slice ch 0 |}).
  assert (Em : m = fancy_assemble d fo c (guess_of d fo) ws) by reflexivity.
  assert (NZ' : f_norm m <> 0) by (rewrite Em; apply (plain_norm d fo c ws a0 b0); try assumption; reflexivity).
  assert (N0 : fancy_N0 m = d_h d) by (rewrite Em; unfold fancy_N0; cbn [fancy_assemble f_os f_det0]; change (op_os fo) with (op_os o); rewrite OS; lia).
  assert (N1 : fancy_N1 m = d_w d) by (rewrite Em; unfold fancy_N1; cbn [fancy_assemble f_os f_det1]; change (op_os fo) with (op_os o); rewrite OS; lia).
  assert (M0 : f_n0 m = crop_len (d_h d) (crop_of o)) by (rewrite Em; cbn [fancy_assemble f_n0]; unfold from_n0; change (op_os fo) with (op_os o); rewrite OS, Nat.mul_1_l; reflexivity).
  assert (M1 : f_n1 m = crop_len (d_w d) (crop_of o)) by (rewrite Em; cbn [fancy_assemble f_n1]; unfold from_n1; change (op_os fo) with (op_os o); rewrite OS, Nat.mul_1_l; reflexivity).
  change (f_os m * d_h d)%nat with (fancy_N0 m) in V. change (f_os m * d_w d)%nat with (fancy_N1 m) in V.
  set (pp := nrm2 (ms_propagator d mo (roll (d_h d) (d_h d / 2) i) (roll (d_w d) (d_w d / 2) j)) ^ mo_nz mo).
  assert (PH : photons (f_os m) (map (fun k => centred_ft (fancy_N0 m) (fancy_N1 m) (sliced m (ms_interslice ms) (ms_slices ms) pos (shot m (row_weights o w) k))) (seq 0 (modes_used o))) i j =
     pp * (w ^ 2 * nrm2 (place (f_n0 m) (f_n1 m) (crop_of o) (crop_of o) (far_field (f_n0 m) (f_n1 m) (guess_of d fo)) i j))).
  { rewrite RO. cbn [seq map]. change (f_os m) with (op_os o). rewrite OS, photons_one. 
    rewrite sliced_far; try assumption; try (rewrite ?N0, ?N1; assumption).
    2:{ intros sl a b I. rewrite Em. eapply slice_clear; [exact RN|exact I]. }
    assert (LS : length (ms_slices ms) = mo_nz mo) by (unfold ms, mm; cbn [ms_slices mm_model ms_assemble]; now rewrite map_length, seq_length). rewrite LS.
    rewrite N0, N1. unfold pp. rewrite <- HQ by (apply roll_bound; lia). change (ms_interslice ms) with q. f_equal.
    rewrite M0, M1. destruct (crop_centred _ _ A) as (C0 & _ & L0). destruct (crop_centred _ _ B) as (C1 & _ & L1). change (crop_of fo) with (crop_of o) in *. rewrite L0, L1. rewrite <- M0, <- M1.
    unfold place. destruct (_ && _)%bool eqn:IB; [|unfold nrm2, RtoC; cbn [fst snd]; ring].
    apply andb_prop in IB as [IB I3]. apply andb_prop in IB as [IB I2]. apply andb_prop in IB as [I0 I1].
    apply Nat.leb_le in I0, I2. apply Nat.ltb_lt in I1, I3. assert (0 < f_n0 m)%nat by (rewrite M0; exact C0). assert (0 < f_n1 m)%nat by (rewrite M1; exact C1).
    transitivity (nrm2 (RtoC (f_norm m) * far_field (f_n0 m) (f_n1 m) (shot m (row_weights o w) 0) (i - crop_of o)%nat (j - crop_of o)%nat)%C).
    { rewrite nrm2_mult, nrm2_RtoC. ring. }
    rewrite <- far_scal.
    rewrite (far_ext (f_n0 m) (f_n1 m) _ (fun a b => RtoC w * guess_of d fo a b)%C); try assumption; try lia.
    - rewrite far_scal, nrm2_mult, nrm2_RtoC. ring.
    - intros a b Hna Hnb. exact (plain_shot d fo c (guess_of d fo) ws w a b NM RA H H0 NZ' Hna Hnb). }
  rewrite PH in V. change (f_saturation m) with (op_saturation o) in V.
  assert (BG : f_background m i j = start_background d i j).
  { rewrite Em. unfold start_background. cbn [fancy_assemble f_background]. destruct (d_background d); [reflexivity|ring]. }
  assert (RD : forall s x, reading s None (f_background m) i j x = reading s None (start_background d) i j x) by (intros s x; unfold reading; now rewrite BG).
  rewrite RD in V. rewrite V. clear V.
  destruct (interslice_at d mo i j U P0 P1 Hi Hj) as (I1 & I2 & I3). cbv zeta in I1, I2, I3.
  set (pn := nrm2 (ms_propagator d mo (roll (d_h d) (d_h d / 2) i) (roll (d_w d) (d_w d / 2) j))) in *.
  assert (PN : 0 <= pn) by (unfold pn, nrm2; nra).
  assert (PL : 0 <= pp <= 1). { unfold pp. fold pn. split; [now apply pow_le|]. rewrite <- (pow1 (mo_nz mo)). apply pow_incr. split; assumption. }
  assert (PQ : (kept o (d_h d) i -> kept o (d_w d) j -> lit d o i j -> nrm2 (place (f_n0 m) (f_n1 m) (crop_of o) (crop_of o) (far_field (f_n0 m) (f_n1 m) (guess_of d fo)) i j) = signal d i j) /\
     (~ kept o (d_h d) i \/ ~ kept o (d_w d) j -> nrm2 (place (f_n0 m) (f_n1 m) (crop_of o) (crop_of o) (far_field (f_n0 m) (f_n1 m) (guess_of d fo)) i j) = 0)).
  { unfold place. split.
    - intros Ki Kj L. apply (kept_iff fo) in Ki; [|assumption..]. apply (kept_iff fo) in Kj; [|assumption..]. change (crop_of fo) with (crop_of o) in *. rewrite M0, M1.
      replace (_ && _)%bool with true.
      2:{ symmetry. rewrite !andb_true_iff, !Nat.leb_le, !Nat.ltb_lt. lia. }
      assert (GF := guess_far d fo (i - crop_of o)%nat (j - crop_of o)%nat U S). unfold from_n0, from_n1 in GF. change (op_os fo) with (op_os o) in GF. change (crop_of fo) with (crop_of o) in GF. rewrite OS, !Nat.mul_1_l in GF. rewrite GF by lia.
      replace (crop_of o + (i - crop_of o))%nat with i by lia. replace (crop_of o + (j - crop_of o))%nat with j by lia. now rewrite (probe_far d fo).
    - intros NK. rewrite M0, M1. replace (_ && _)%bool with false.
      + unfold nrm2, RtoC. cbn [fst snd]. ring.
      + symmetry. rewrite !andb_false_iff, !Nat.leb_gt, !Nat.ltb_ge. change (kept o) with (kept fo) in NK. destruct NK as [NK|NK]; rewrite kept_iff in NK by assumption; change (crop_of fo) with (crop_of o) in *; lia. }
  destruct PQ as [PQ1 PQ2]. split; [|split].
  - intros Ki Kj L S0 S1 PA. rewrite PQ1 by assumption. unfold pp. fold pn. rewrite I1 by assumption. rewrite pow1. f_equal. ring.
  - intros NK. f_equal. destruct (Nat.eq_dec (mo_nz mo) 0) as [Z|_]; [lia|].
    assert (K : (~ kept o (d_h d) i \/ ~ kept o (d_w d) j) \/ (~ spared mo (d_h d) i \/ ~ spared mo (d_w d) j)) by tauto. destruct K as [K|K].
    + rewrite PQ2 by exact K. ring.
    + unfold pp. fold pn. rewrite I2 by exact K. rewrite pow_i by lia. ring.
  - intros L SA. rewrite SA. unfold reading.
    assert (KD : (kept o (d_h d) i /\ kept o (d_w d) j) \/ (~ kept o (d_h d) i \/ ~ kept o (d_w d) j)).
    { change (kept o) with (kept fo). rewrite !kept_iff by assumption. lia. }
    assert (0 <= signal d i j) by (apply U; assumption).
    assert (SQ : 0 <= w ^ 2) by apply pow2_ge_0.
    assert (Y : 0 <= w ^ 2 * signal d i j) by (apply Rmult_le_pos; assumption). assert (pp * (w ^ 2 * signal d i j) <= w ^ 2 * signal d i j) by nra.
    destruct KD as [[Ki Kj]|K]; [rewrite PQ1 by assumption; lra|rewrite PQ2 by exact K; lra].
Qed.
Print Assumptions C76_initial_pattern.

(** C76: on a detector with square pixels and as many rows as columns that is every pixel within 45 degrees. *)
Theorem C76_square : forall d p, usable d -> d_b0 d = (0, - p, 0) -> d_b1 d = (- p, 0, 0) -> 0 < p -> d_h d = d_w d ->
  0 < fst (slice_pixels d) /\ 0 < snd (slice_pixels d) /\ forall i j, passes d i j <-> within_45_degrees d (d_h d) (d_w d) i j.
Proof.
  intros d p (_ & H & W & Hw & Hd & _) B0 B1 Hp SQ.
  assert (NW : 0 < INR (d_w d)) by now apply lt_0_INR.
  assert (V0 : vlen (0, - p, 0) = p) by (unfold vlen, vdot, vx, vy, vz; cbn [fst snd]; replace (0 * 0 + - p * - p + 0 * 0) with (p * p) by ring; apply sqrt_square; lra).
  assert (V1 : vlen (- p, 0, 0) = p) by (unfold vlen, vdot, vx, vy, vz; cbn [fst snd]; replace (- p * - p + 0 * 0 + 0 * 0) with (p * p) by ring; apply sqrt_square; lra).
  assert (G : slice_pixels d = (d_wl d * d_dist d / (INR (d_w d) * p), d_wl d * d_dist d / (INR (d_w d) * p))).
  { unfold slice_pixels, exit_wave_geometry. rewrite B0, B1, SQ. unfold pinv0, pinv1, vscale, vsub, vdot, vx, vy, vz. cbn [fst snd].
    assert (Q : forall x, x = - (d_wl d * d_dist d / (INR (d_w d) * p)) -> Rabs x = d_wl d * d_dist d / (INR (d_w d) * p)).
    { intros x ->. rewrite Rabs_Ropp, Rabs_pos_eq; [reflexivity|]. apply Rlt_le, Rdiv_lt_0_compat; apply Rmult_lt_0_compat; assumption. }
    f_equal; apply Q; field; split; lra. }
  assert (PX : 0 < d_wl d * d_dist d / (INR (d_w d) * p)) by (apply Rdiv_lt_0_compat; apply Rmult_lt_0_compat; assumption).
  rewrite G. cbn [fst snd]. split; [exact PX|]. split; [exact PX|]. intros i j. unfold passes, within_45_degrees. rewrite G, SQ, B0, B1, V0, V1. cbn [fst snd].
  set (x := IZR (off (d_w d) i)). set (y := IZR (off (d_w d) j)).
  replace ((d_wl d * x / (INR (d_w d) * (d_wl d * d_dist d / (INR (d_w d) * p)))) ^ 2 + (d_wl d * y / (INR (d_w d) * (d_wl d * d_dist d / (INR (d_w d) * p)))) ^ 2)
    with (((x * p) ^ 2 + (y * p) ^ 2) / d_dist d ^ 2) by (field; repeat split; lra).
  assert (D2 : 0 < d_dist d ^ 2) by nra. split; intros L.
  - apply (Rmult_le_compat_r (d_dist d ^ 2)) in L; [|lra]. unfold Rdiv in L. rewrite Rmult_assoc, Rinv_l, Rmult_1_r, Rmult_1_l in L by lra. exact L.
  - apply (Rmult_le_reg_r (d_dist d ^ 2)); [exact D2|]. unfold Rdiv. rewrite Rmult_assoc, Rinv_l, Rmult_1_r, Rmult_1_l by lra. exact L.
Qed.
Print Assumptions C76_square.
(** C76: with slices of any random phases (one probe mode, no crops, ideal detector, every frequency propagating)
    each simulated pattern holds w^2 times the photons of the average pattern. *)
Theorem C76_photons : forall d mo ch k t w, usable d -> ms_sensible d mo -> op_n_modes (mo_common mo) = 1%nat -> op_radius (mo_common mo) = None ->
  op_simulate (mo_common mo) = false -> op_crop (mo_common mo) = None -> op_saturation (mo_common mo) = None -> op_pd (mo_common mo) = None -> op_os (mo_common mo) = 1%nat -> 
  0 < fst (slice_pixels d) -> 0 < snd (slice_pixels d) -> mo_prop_crop mo = None -> (forall i j, (i < d_h d)%nat -> (j < d_w d)%nat -> passes d i j) ->
  (exists a b, (a < d_h d)%nat /\ (b < d_w d)%nat /\ 0 < signal d a b) ->
  nth_error (d_translations d) k = Some t -> ms_weight d k w ->
  exists m, multislice_from_dataset d mo ch = Ok m /\ forall ix, the ix = k -> exists r, ms_simulate m ix t = Ok r /\
    total_of (d_h d) (d_w d) (fun i j => r i j - (start_background d i j ^ 2 + / 10 ^ 7)) = w ^ 2 * total_of (d_h d) (d_w d) (signal d).
Proof.
  intros d mo ch k t w U MS NM RA SI CR SA PD OS P0 P1 PC PA Pa Ht Hw.
  destruct (ms_simulate_ok d mo ch U MS OS) as (ws & q & E & HQ & G). set (o := mo_common mo) in *. set (fo := far_only o) in *.
  set (mm := ms_assemble d mo ch (guess_of d fo) ws) in *. set (m := ms_base (mm_model mm)) in *.
  exists mm. split; [exact E|]. intros ix <-. destruct (G ix t w Ht Hw) as (pos & P & C & F & ->).
  pose proof MS as (S & NZ & _). assert (RO : modes_used o = 1%nat) by (apply (plain_rows d fo); assumption).
  set (c := {| rand_mode := rand_probe ch; rand_obj := rand_slice ch 0 |}). assert (Em : m = fancy_assemble d fo c (guess_of d fo) ws) by reflexivity.
  pose proof U as (_ & HH & WW & _).
  match goal with |- exists r, multislice_pattern ?x _ _ = _ /\ _ => set (ms := x) in *; destruct (C66_conservation ms ix t pos (modes_used o) (row_weights o w)) as (r & R & V); try assumption end.
  { intros a b. change (f_os (ms_base ms)) with (op_os o). rewrite OS, !Nat.mul_1_l. change (f_det0 (ms_base ms)) with (d_h d). change (f_det1 (ms_base ms)) with (d_w d). intros Ha Hb.
    change (ms_interslice ms) with q. rewrite HQ by assumption.
    rewrite <- (roll_inv2 (d_h d) a Ha), <- (roll_inv2 (d_w d) b Hb). rewrite Cmod_nrm2.
    destruct (interslice_at d mo (roll (d_h d) ((d_h d + 1) / 2) a) (roll (d_w d) ((d_w d + 1) / 2) b) U P0 P1) as (I1 & _); try (apply roll_bound; assumption).
    unfold spared in I1. rewrite PC in I1. rewrite I1; auto; [apply sqrt_1|]. apply PA; apply roll_bound; assumption. }
  { intros sl a b I _ _. change (ms_slices ms) with (map (ms_slice fo ch) (seq 0 (mo_nz mo))) in I. apply in_map_iff in I as (z & <- & _). change (ms_base ms) with m. unfold slice_transmit, ms_slice.
    change (f_exp m) with (op_exp fo). set (v := op_randomize fo * (rand_slice ch z a b - / 2)).
    assert (M1 : Cmod (cis v) = 1). { pose proof (nrm2_cis v) as N. rewrite nrm2_Cmod in N. pose proof (Cmod_ge_0 (cis v)). nra. }
    destruct (op_exp fo); unfold RtoC; cbn [fst snd].
    - rewrite Ropp_0, exp_0. fold (RtoC 1). rewrite Cmult_1_l. exact M1.
    - fold (RtoC v). change (RtoC v) with (v, 0)%R. rewrite cexp_i, Ropp_0, exp_0, Cmult_1_l. exact M1. }
  exists r. split; [exact R|]. change (ms_base ms) with m in V. destruct (uncropped d fo CR) as (U0 & U1 & UG).
  assert (KE : energy (from_n0 d fo) (from_n1 d fo) (guess_of d fo) = total_of (d_h d) (d_w d) (signal d)).
  { apply guess_energy; try assumption; [right; exact PD|]. intros X. discriminate. }
  assert (NZ' : f_norm m <> 0).
  { rewrite Em. apply norm_of_energy; try assumption; [rewrite U0; change (op_os fo) with (op_os o); rewrite OS; lia|rewrite U1; change (op_os fo) with (op_os o); rewrite OS; lia|].
    rewrite KE. now apply total_pos. }
  assert (Q0 : (0 < f_n0 m)%nat) by apply F. assert (Q1 : (0 < f_n1 m)%nat) by apply F.
  rewrite RO in V. cbn [seq map] in V. unfold lsum in V. cbn [fold_right] in V. rewrite Rplus_0_r in V. rewrite <- shot_energy in V by assumption.
  replace (f_norm m ^ 2) with (nrm2 (RtoC (f_norm m))) in V by (rewrite nrm2_RtoC; ring). rewrite <- energy_scal in V.
  rewrite (energy_ext (f_n0 m) (f_n1 m) _ (fun a b => RtoC w * guess_of d fo a b)%C) in V.
  2:{ intros a b Ha Hb. exact (plain_shot d fo c (guess_of d fo) ws w a b NM RA Q0 Q1 NZ' Ha Hb). }
  rewrite energy_scal, nrm2_RtoC in V. change (f_n0 m) with (from_n0 d fo) in V. change (f_n1 m) with (from_n1 d fo) in V. rewrite KE in V.
  change (f_os m) with (op_os o) in V. rewrite OS in V. change (INR (1 * 1)) with 1 in V. rewrite Rmult_1_l in V. replace (w ^ 2) with (w * w) by ring. rewrite <- V. unfold total_of.
  change (f_det0 m) with (d_h d). change (f_det1 m) with (d_w d).
  apply rsum_ext. intros i Hi. apply rsum_ext. intros j Hj. rewrite Em. unfold start_background. cbn [fancy_assemble f_background]. destruct (d_background d); [reflexivity|]. now rewrite Rmult_1_r.
Qed.
Print Assumptions C76_photons.
(** C76: defects.  Oversampling: the propagator keeps the shape of the detector, so a model built with any
    oversampling above 1 (on a detector of more than one row or column) can simulate no exposure; ... *)
Theorem C76_oversampling_refuted : forall d mo ch, usable d -> ms_sensible d mo -> (2 <= op_os (mo_common mo))%nat -> (2 <= d_h d \/ 2 <= d_w d)%nat ->
  exists m, multislice_from_dataset d mo ch = Ok m /\ forall ix t, ms_simulate m ix t = Raise RuntimeError.
Proof.
  intros d mo ch U MS OS HW. destruct (ms_from_dataset_ok d mo ch U MS) as (ws & E & _). eexists. split; [exact E|]. intros ix t. unfold ms_simulate.
  change (fancy_N0 _) with (op_os (mo_common mo) * d_h d)%nat. change (fancy_N1 _) with (op_os (mo_common mo) * d_w d)%nat. cbn [ms_assemble mm_h mm_w].
  pose proof U as (_ & HH & WW & _). unfold fit_propagator.
  replace (((op_os (mo_common mo) * d_h d =? d_h d) || (d_h d =? 1)) && ((op_os (mo_common mo) * d_w d =? d_w d) || (d_w d =? 1)))%bool with false; [reflexivity|].
  symmetry. rewrite andb_false_iff, !orb_false_iff, !Nat.eqb_neq. destruct HW; [left|right]; split; nia.
Qed.
Print Assumptions C76_oversampling_refuted.
(** ... probe_shape, documented as the way to a Gaussian guess, is a TypeError always; ... *)
Theorem C76_probe_shape_refuted : forall d mo ch s, d_patterns d <> [] -> mo_probe_shape mo = Some s -> multislice_from_dataset d mo ch = Raise TypeError.
Proof. intros d mo ch s NE PS. unfold multislice_from_dataset. rewrite PS. destruct (d_patterns d); [contradiction|reflexivity]. Qed.
Print Assumptions C76_probe_shape_refuted.
(** ... density matrices for a dataset with recorded intensities are refused with RuntimeError, unless there are as
    many exposures as modes (or one) ... *)
Theorem C76_density_intensities_refuted : forall d mo ch l r, usable d -> sensible d (far_only (mo_common mo)) -> (1 <= mo_nz mo)%nat -> mo_probe_shape mo = None ->
  d_intensities d = Some l -> op_dm_rank (mo_common mo) = Some r -> r <> 0%Z -> length l <> 1%nat -> length l <> op_n_modes (mo_common mo) ->
  multislice_from_dataset d mo ch = Raise RuntimeError.
Proof.
  intros d mo ch l r U S NZ PS HL HR R0 L1 LN. unfold multislice_from_dataset. rewrite PS, (guess_ok d _ U S). cbn [rbind]. destruct (Nat.eqb_spec (mo_nz mo) 0); [lia|].
  pose proof S as (_ & _ & _ & _ & NM & _ & DM & _). specialize (DM r HR). cbn [far_only op_n_modes] in DM, NM.
  unfold ms_weights. rewrite HR, HL. replace (Nat.eqb (length l) 1) with false by (symmetry; now apply Nat.eqb_neq). replace (Nat.eqb (length l) (op_n_modes (mo_common mo))) with false by (symmetry; now apply Nat.eqb_neq). cbn [orb].
  assert (D : exists w, dm_weights r (op_n_modes (mo_common mo)) = Ok w).
  { unfold dm_weights. destruct (Z.ltb_spec (Z.of_nat (op_n_modes (mo_common mo))) r); [lia|]. destruct (Z.eqb_spec r (-1)); match goal with |- context [Z.ltb ?x 0] => destruct (Z.ltb_spec x 0); [lia|eauto] end. }
  destruct D as (w & D). destruct U as (NE & _). destruct (d_patterns d); [contradiction|]. destruct r as [|r|r]; [contradiction|..]; rewrite D; reflexivity.
Qed.
Print Assumptions C76_density_intensities_refuted.
(** ... in which case every exposure gets the same weights, and mode i of them the intensity of exposure i. *)
Theorem C76_density_axis_refuted : forall d mo l r, sensible d (far_only (mo_common mo)) -> d_intensities d = Some l -> op_dm_rank (mo_common mo) = Some r -> r <> 0%Z ->
  length l = op_n_modes (mo_common mo) -> (2 <= length l)%nat ->
  exists rows ws, ms_weights d (mo_common mo) = Ok (Matrices rows ws) /\ rows = modes_used (mo_common mo) /\
  forall k, (k < length l)%nat -> exists W, nth_error ws k = Some W /\ forall i j, (i < rows)%nat -> (j < length l)%nat ->
    (W i j * RtoC (lsum l / INR (length l)))%C = RtoC (if Nat.eqb i j then nth j l 0 else 0).
Proof.
  intros d mo l r S HL HR R0 LN L2. pose proof S as (_ & IN & _ & _ & NM & _ & DM & _). specialize (DM r HR). cbn [far_only op_n_modes] in DM, NM.
  destruct (IN l HL) as [LL PL]. unfold ms_weights, modes_used. rewrite HR, HL. rewrite LN, Nat.eqb_refl, orb_true_r. rewrite <- LN. set (n := op_n_modes (mo_common mo)) in *.
  assert (D : dm_weights r (length l) = Ok ((if (r =? 0)%Z || (r =? -1)%Z then length l else Z.to_nat r)%bool, fun i k => if Nat.eqb i k then 1 else 0)).
  { unfold dm_weights. destruct (Z.ltb_spec (Z.of_nat (length l)) r); [lia|]. destruct (Z.eqb_spec r 0); [lia|]. destruct (Z.eqb_spec r (-1)).
    - destruct (Z.ltb_spec (Z.of_nat (length l)) 0); [lia|]. now rewrite Nat2Z.id.
    - destruct (Z.ltb_spec r 0); [lia|reflexivity]. }
  assert (M : 0 < rmean l).
  { unfold rmean. apply Rdiv_lt_0_compat; [|apply lt_0_INR; lia]. destruct l as [|a l']; [cbn in L2; lia|]. cbn. pose proof (PL a (or_introl eq_refl)).
    assert (0 <= lsum l'); [|unfold lsum in *; lra]. assert (Q2 : forall x, In x l' -> 0 < x) by (intros; apply PL; now right). clear - Q2.
    induction l' as [|b l IH]; cbn; [lra|]. pose proof (Q2 b (or_introl eq_refl)). specialize (IH ltac:(intros; apply Q2; now right)). unfold lsum in *. lra. }
  fold (rmean l).
  assert (V : forall i j, (j < length l)%nat -> (RtoC (((if Nat.eqb i j then 1 else 0) * (nth (pick (length l) j) l 0 / rmean l))%R) * RtoC (rmean l))%C = RtoC (if Nat.eqb i j then nth j l 0 else 0)).
  { intros i j Hj. rewrite pick_small by exact Hj. rewrite <- RtoC_mult. f_equal. destruct (Nat.eqb i j); field; lra. }
  destruct r as [|r|r]; [contradiction|..]; rewrite D; cbn [rbind fst snd]; (eexists _, _; split; [reflexivity|]; split; [reflexivity|]); intros k Hk;
    (eexists; split; [apply nth_error_repeat; rewrite <- LL; exact Hk|]); intros i j _ Hj; now apply V.
Qed.
Print Assumptions C76_density_axis_refuted.
(** C76: what else is refused. *)
Theorem C76_refused : forall d mo ch,
  (d_patterns d = [] -> multislice_from_dataset d mo ch = Raise IndexError) /\
  (usable d -> sensible d (far_only (mo_common mo)) -> mo_probe_shape mo = None -> mo_nz mo = 0%nat -> multislice_from_dataset d mo ch = Raise RuntimeError) /\
  (d_patterns d <> [] -> mo_probe_shape mo = None -> forall c, op_crop (mo_common mo) = Some c -> (op_os (mo_common mo) * d_h d <= 2 * c \/ op_os (mo_common mo) * d_w d <= 2 * c)%nat ->
     multislice_from_dataset d mo ch = Raise RuntimeError) /\
  (d_patterns d <> [] -> mo_probe_shape mo = None -> op_crop (mo_common mo) = None -> (1 <= mo_nz mo)%nat -> forall r, op_dm_rank (mo_common mo) = Some r -> (Z.of_nat (op_n_modes (mo_common mo)) < r)%Z ->
     multislice_from_dataset d mo ch = Raise KeyError).
Proof.
  intros d mo ch. unfold multislice_from_dataset. split; [now intros ->|]. split; [|split].
  - intros U S PS NZ. rewrite PS, (guess_ok d _ U S), NZ. destruct U as (NE & _). destruct (d_patterns d); [contradiction|reflexivity].
  - intros NE PS c Hc L. rewrite PS. destruct (d_patterns d); [contradiction|]. unfold from_guess, from_n0, from_n1, crop_of, crop_len. cbn [far_only op_crop op_os]. rewrite Hc.
    destruct (Nat.eqb_spec (op_os (mo_common mo) * d_h d - c - c) 0) as [_|N0]; [reflexivity|]. destruct (Nat.eqb_spec (op_os (mo_common mo) * d_w d - c - c) 0) as [_|N1]; [reflexivity|]. lia.
  - intros NE PS Hc NZ r Hr L. rewrite PS. destruct (d_patterns d) eqn:E; [contradiction|]. unfold from_guess. cbn [far_only op_crop]. rewrite Hc. cbn [rbind]. destruct (Nat.eqb_spec (mo_nz mo) 0); [lia|].
    unfold ms_weights. rewrite Hr. destruct r as [|r|r]; try lia. unfold dm_weights. destruct (Z.ltb_spec (Z.of_nat (op_n_modes (mo_common mo))) (Z.pos r)); [reflexivity|lia].
Qed.
Print Assumptions C76_refused.
(** C74's case with three slices. *)
Definition three_slices (os : nat) : ms_options := {| mo_common := defaults false os; mo_dz := 5; mo_nz := 3; mo_probe_shape := None; mo_prop_crop := None |}.
Definition quiet_slices : ms_chance := {| rand_probe := fun _ _ _ => RtoC 0; rand_slice := fun _ _ _ => 0 |}.
Example C76_case : usable two_shots /\ ms_sensible two_shots (three_slices 1) /\ ms_sensible two_shots (three_slices 2) /\ plain_slices (mo_common (three_slices 1)) /\ ms_weight two_shots 1 1 /\
  (forall i j, (i < 2)%nat -> (j < 2)%nat -> passes two_shots i j) /\
  exists m, multislice_from_dataset two_shots (three_slices 1) quiet_slices = Ok m /\ exists r, ms_simulate m (Alone 1) (1, 2, 0) = Ok r /\ r 1%nat 1%nat = 7 / 2 + / 10 ^ 7.
Proof.
  destruct C74_case as (U & _ & S11 & _ & _).
  assert (SE : forall os, (1 <= os)%nat -> ms_sensible two_shots (three_slices os)).
  { intros os H. unfold ms_sensible, sensible, modes_used. cbn. repeat split; try lia; try lra; try discriminate. now left. }
  assert (PS : plain_slices (mo_common (three_slices 1))) by (unfold plain_slices; cbn; repeat split; lia).
  destruct (C76_square two_shots 1 U) as (Q0 & Q1 & Q2); try reflexivity; try lra.
  assert (PA : forall i j, (i < 2)%nat -> (j < 2)%nat -> passes two_shots i j).
  { intros i j Hi Hj. apply Q2. unfold within_45_degrees. cbn [two_shots d_h d_w d_b0 d_b1 d_dist].
    assert (V0 : vlen (0, -1, 0) = 1) by (unfold vlen, vdot, vx, vy, vz; cbn [fst snd]; replace (0 * 0 + -1 * -1 + 0 * 0) with 1 by ring; apply sqrt_1).
    assert (V1 : vlen (-1, 0, 0) = 1) by (unfold vlen, vdot, vx, vy, vz; cbn [fst snd]; replace (-1 * -1 + 0 * 0 + 0 * 0) with 1 by ring; apply sqrt_1).
    rewrite V0, V1. assert (B : forall a, (a < 2)%nat -> (IZR (off 2 a) * 1) ^ 2 <= 1) by (intros [|[|a]] Ha; [unfold off; cbn; lra|unfold off; cbn; lra|lia]).
    pose proof (B i Hi). pose proof (B j Hj). nra. }
  split; [exact U|]. split; [apply SE; lia|]. split; [apply SE; lia|]. split; [exact PS|]. split; [reflexivity|]. split; [exact PA|].
  destruct (C76_initial_pattern two_shots (three_slices 1) quiet_slices 1 (1, 2, 0) 1 U (SE 1%nat ltac:(lia)) PS eq_refl Q0 Q1) as (m & E & V).
  - assert (SP : 0 < signal two_shots 1 1) by (rewrite S11; lra). exists 1%nat, 1%nat. split; [cbn; lia|]. split; [cbn; lia|]. split; [exact I|]. split; [exact I|]. split; [now left|exact SP].
  - reflexivity.
  - reflexivity.
  - exists m. split; [exact E|]. destruct (V (Alone 1) eq_refl) as (r & R & W). exists r. split; [exact R|].
    destruct (W 1%nat 1%nat ltac:(cbn; lia) ltac:(cbn; lia)) as [W1 _]. rewrite W1; [|exact I|exact I|now left|exact I|exact I|apply PA; lia]. rewrite S11.
    unfold reading, start_background. cbn. pose proof (sqrt_sqrt 2 ltac:(lra)). lra.
Qed.
