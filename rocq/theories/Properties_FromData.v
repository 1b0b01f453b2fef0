(** Property theorems about the models that from_dataset builds (C75). *)
From Verif Require Import Base FinSum Fourier Model_Prop Spec_Prop Proofs_Prop Proofs_AS Model_Image Spec_Image Proofs_Image
  Model_Interact Spec_Interact Proofs_Interact Properties_Interact Model_Meas Spec_Meas Proofs_Meas Model_Geom Model_Models Model_Forward Spec_Forward Proofs_Forward
  Properties_Forward Proofs_ForwardSym Properties_ForwardPower Properties_ForwardShift Properties_RPI Properties_Prop Model_Init Spec_Init Properties_Init.
From Coquelicot Require Import Complex.
From Flocq Require Import Core.Raux.
Local Open Scope R_scope.

Lemma crop_centred N c : (2 * c < N)%nat -> (0 < crop_len N c)%nat /\ centred_in (crop_len N c) N /\ (N / 2 - crop_len N c / 2 = c)%nat.
Proof.
  intros H. unfold crop_len. split; [lia|].
  assert (E : N = (2 * c + (N - c - c))%nat) by lia. set (n := (N - c - c)%nat) in *.
  split.
  - split; [lia|]. rewrite E. replace (2 * c + n)%nat with (n + 2 * c)%nat by lia. rewrite Nat.even_add_mul_2. destruct (Nat.even n); auto.
  - rewrite E at 1. rewrite Nat.mul_comm, Nat.div_add_l by lia. lia.
Qed.
Lemma weights_exist d k : (forall l, d_intensities d = Some l -> length l = length (d_patterns d) /\ forall x, In x l -> 0 < x) ->
  (k < length (d_patterns d))%nat -> exists w, shot_weight d k w /\ forall w', shot_weight d k w' -> nth_error (fancy_weights (length (d_patterns d)) (d_intensities d)) k = Some w'.
Proof.
  intros P Hk. unfold shot_weight, fancy_weights. destruct (d_intensities d) as [l|].
  - destruct (P l eq_refl) as [L Q]. destruct (nth_error l k) as [x|] eqn:E; [|apply nth_error_None in E; lia].
    set (m := rmean (map sqrt l)). assert (Em : lsum (map sqrt l) / INR (length l) = m) by (unfold m, rmean; now rewrite map_length).
    assert (M : 0 < m).
    { unfold m, rmean. rewrite map_length. assert (0 < length l)%nat by lia. apply Rdiv_lt_0_compat; [|apply lt_0_INR; lia].
      clear - Q H. destruct l as [|a l]; [cbn in H; lia|]. cbn. pose proof (sqrt_lt_R0 a (Q a (or_introl eq_refl))).
      assert (0 <= lsum (map sqrt l)); [|unfold lsum in *; lra]. clear. induction l as [|b l IH]; cbn; [lra|]. pose proof (sqrt_pos b). unfold lsum in *. lra. }
    rewrite Em. exists (sqrt x / m). split; [exists x; split; [reflexivity|field; lra]|].
    intros w' (y & E' & V). injection E' as <-. rewrite !nth_error_map, E. cbn. f_equal. rewrite <- V. field. lra.
  - exists 1. split; [reflexivity|]. intros w' ->. now rewrite nth_error_repeat.
Qed.
(** the model from_dataset builds *)
Definition row_weights (o : options) (w : R) : nat -> nat -> C :=
  match op_dm_rank o with
  | None => diag w
  | Some r => if (r =? 0)%Z then diag w else fun i k => RtoC ((if Nat.eqb i k then 1 else 0) * w)
  end.
Lemma weights_ok d o n : sensible d o -> n = op_n_modes o -> exists ws, from_weights d o = Ok ws /\
  forall ix w, (the ix < length (d_patterns d))%nat -> shot_weight d (the ix) w -> coefficients ws ix n (modes_used o) (row_weights o w).
Proof.
  intros (LT & IN & O & CR & NM & SC & DM & PL) ->. unfold from_weights, modes_used, row_weights. destruct (op_dm_rank o) as [r|].
  - specialize (DM r eq_refl). destruct r as [|r|r].
    + eexists. split; [reflexivity|]. intros ix w Hk Hw. cbn. exists w. destruct (weights_exist d (the ix) IN Hk) as (_ & _ & N). rewrite (N w Hw). auto.
    + unfold dm_weights. destruct (Z.ltb_spec (Z.of_nat (op_n_modes o)) (Z.pos r)); [lia|]. cbn. eexists. split; [reflexivity|].
      intros ix w Hk Hw. cbn. split; [|reflexivity]. destruct (weights_exist d (the ix) IN Hk) as (_ & _ & N). rewrite nth_error_map, (N w Hw). reflexivity.
    + assert (Z.neg r = -1)%Z as -> by lia. unfold dm_weights. destruct (Z.ltb_spec (Z.of_nat (op_n_modes o)) (-1)); [lia|]. cbn [Z.eqb Pos.eqb].
      destruct (Z.ltb_spec (Z.of_nat (op_n_modes o)) 0); [lia|]. cbn. eexists. split; [reflexivity|].
      intros ix w Hk Hw. cbn. split; [|now rewrite Nat2Z.id]. destruct (weights_exist d (the ix) IN Hk) as (_ & _ & N). rewrite nth_error_map, (N w Hw). reflexivity.
  - eexists. split; [reflexivity|]. intros ix w Hk Hw. cbn. exists w. destruct (weights_exist d (the ix) IN Hk) as (_ & _ & N). rewrite (N w Hw). auto.
Qed.
Lemma crop_ok d o : usable d -> sensible d o -> (2 * crop_of o < op_os o * d_h d /\ 2 * crop_of o < op_os o * d_w d)%nat.
Proof.
  intros (NE & H & W & _) (LT & IN & O & CR & _). unfold crop_of. destruct (op_crop o) as [c0|] eqn:E; [now apply CR|]. nia.
Qed.
Lemma guess_ok d o : usable d -> sensible d o ->
  from_guess d o = Ok (match op_crop o with None => from_probe d o | Some c => fourier_crop (op_os o * d_h d) (op_os o * d_w d) c (from_probe d o) end).
Proof.
  intros U S. destruct (crop_ok d o U S) as [A B]. unfold from_guess. destruct (op_crop o) eqn:E; [|reflexivity]. unfold from_n0, from_n1, crop_len in *.
  destruct (Nat.eqb_spec (op_os o * d_h d - crop_of o - crop_of o) 0); [lia|]. destruct (Nat.eqb_spec (op_os o * d_w d - crop_of o - crop_of o) 0); [lia|]. reflexivity.
Qed.
Lemma modes_length d o ch g : (1 <= op_n_modes o)%nat -> length (from_modes d o ch g) = op_n_modes o.
Proof. intros H. unfold from_modes. destruct (op_radius o); cbn; rewrite ?map_length, seq_length; lia. Qed.
Lemma modes_used_pos d o : sensible d o -> (1 <= modes_used o)%nat.
Proof.
  intros (LT & IN & O & CR & NM & SC & DM & PL). unfold modes_used. destruct (op_dm_rank o) as [r|]; [|exact NM]. specialize (DM r eq_refl).
  destruct (Z.eqb_spec r 0); [exact NM|]. destruct (Z.eqb_spec r (-1)); [exact NM|]. cbn. lia.
Qed.
Lemma from_dataset_ok d o ch : usable d -> sensible d o -> exists g ws, fancy_from_dataset d o ch = Ok (fancy_assemble d o ch g ws) /\
  g = (match op_crop o with None => from_probe d o | Some c => fourier_crop (op_os o * d_h d) (op_os o * d_w d) c (from_probe d o) end) /\
  forall ix t w, nth_error (d_translations d) (the ix) = Some t -> shot_weight d (the ix) w -> let m := fancy_assemble d o ch g ws in
  exists pos, position m ix t pos /\ coefficients (f_weights m) ix (length (f_probe m)) (modes_used o) (row_weights o w) /\ fits m (modes_used o) pos.
Proof.
  intros U S. pose proof U as (NE & H & W & _). pose proof S as (LT & IN & O & CR & NM & SC & DM & PL).
  destruct (crop_ok d o U S) as [A B].
  destruct (crop_centred _ _ A) as (n0p & C0 & L0). destruct (crop_centred _ _ B) as (n1p & C1 & L1).
  destruct (weights_ok d o (op_n_modes o) S eq_refl) as (ws & EW & CW).
  eexists _, ws. unfold fancy_from_dataset. rewrite (guess_ok d o U S), EW. cbn [rbind].
  split; [destruct (d_patterns d); [contradiction|reflexivity]|]. split; [reflexivity|].
  set (g := match op_crop o with None => _ | Some c => _ end). intros ix t w Ht Hw. set (m := fancy_assemble d o ch g ws).
  assert (Hk : (the ix < length (d_patterns d))%nat) by (rewrite <- LT; apply nth_error_Some; congruence).
  set (b := from_geometry d o). set (nrm := fancy_normal (d_b0 d) (d_b1 d) (op_mode o) (d_orientation d)).
  set (setup := calc_object_setup (d_h d * op_os o) (d_w d * op_os o) (map (translations_to_pixel (fst b) (snd b) nrm) (d_translations d)) (op_pad o)).
  set (p := translations_to_pixel (fst b) (snd b) nrm t).
  exists (fst p - fst (snd setup) + op_scale o * (0 / op_scale o), snd p - snd (snd setup) + op_scale o * (0 / op_scale o)).
  split; [|split].
  - exists (0 / op_scale o, 0 / op_scale o). split; [|reflexivity]. cbn [m fancy_assemble f_offsets]. now rewrite nth_error_repeat.
  - cbn [m fancy_assemble f_weights f_probe]. rewrite map_length, modes_length by exact NM. now apply CW.
  - pose proof (modes_used_pos d o S) as R1. unfold fits. cbn [m fancy_assemble f_n0 f_n1 f_os f_det0 f_det1 f_H f_W f_near f_propagator fst snd].
    replace (op_scale o * (0 / op_scale o)) with 0 by (field; exact SC).
    destruct (C62_reachable (fst b) (snd b) nrm (d_translations d) (op_pad o) (d_h d * op_os o) (d_w d * op_os o) (0, 0) t (nth_error_In _ _ Ht)) as [I0 I1];
      [cbn [fst]; rewrite Rabs_R0; apply pos_INR|cbn [snd]; rewrite Rabs_R0; apply pos_INR|]. cbv zeta in I0, I1. fold p setup in I0, I1. cbn [fst snd] in I0, I1.
    assert (OP : obj_planes m = Nat.max 1 (op_planes o)).
    { unfold obj_planes. cbn [m fancy_assemble f_obj_modes]. destruct (Nat.eqb_spec (op_planes o) 1) as [->|N]; [reflexivity|]. lia. }
    rewrite OP. rewrite (Nat.mul_comm (d_h d)) in I0. rewrite (Nat.mul_comm (d_w d)) in I1.
    split; [exact n0p|]. split; [exact n1p|]. split; [exact O|]. split; [exact C0|]. split; [exact C1|]. split; [exact I0|]. split; [exact I1|].
    split; [exact R1|]. split; [lia|]. split; [lia|]. destruct (op_near o); [intros _; discriminate|discriminate].
Qed.
(** C75: for every dataset and all options that fit together, from_dataset builds a model that can simulate every
    exposure of the dataset, asked for alone or in a list (with allow_probe_fourier_shifts: in a list). *)
Theorem C75_simulates : forall d o ch, usable d -> sensible d o -> (forall q i j, d_qe d = Some q -> 0 <= q i j) ->
  exists m, fancy_from_dataset d o ch = Ok m /\ forall k t, nth_error (d_translations d) k = Some t ->
  (op_shifts o = true -> exists r, fancy_pattern m (Listed k) t = Ok r) /\
  (op_shifts o = false -> op_simulate o = false -> forall ix, the ix = k -> exists r, fancy_pattern m ix t = Ok r).
Proof.
  intros d o ch U S Q. destruct (from_dataset_ok d o ch U S) as (g & ws & E & _ & G). eexists. split; [exact E|]. intros k t Ht.
  pose proof S as (LT & IN & _).
  assert (Hk : (k < length (d_patterns d))%nat) by (rewrite <- LT; apply nth_error_Some; congruence).
  destruct (weights_exist d k IN Hk) as (w & Hw & _).
  assert (QE : forall q i j, f_qe (fancy_assemble d o ch g ws) = Some q -> 0 <= q i j).
  { intros q i j. cbn [fancy_assemble f_qe]. destruct (op_qe o); [|discriminate]. intros E1. injection E1 as <-. destruct (d_qe d) eqn:D; [eapply Q; eauto|lra]. }
  split.
  - intros SH. destruct (G (Listed k) t w Ht Hw) as (pos & P & C & F).
    destruct (C65_pattern (fancy_assemble d o ch g ws) k t pos (modes_used o) (row_weights o w)
      (let s := translations_to_pixel (d_b0 d) (d_b1 d) (fancy_normal (d_b0 d) (d_b1 d) (op_mode o) (d_orientation d)) t in if op_simulate o then (0 + fst s, 0 + snd s) else (0, 0))) as (r & R & _); try assumption.
    + exists (repeat (0, 0) (length (d_patterns d))), (0, 0). cbn [fancy_assemble f_shifts]. rewrite SH. split; [reflexivity|]. split; [now rewrite nth_error_repeat|]. reflexivity.
    + eauto.
  - intros SH SI ix <-. destruct (G ix t w Ht Hw) as (pos & P & C & F).
    destruct (C62_pattern (fancy_assemble d o ch g ws) ix t pos (modes_used o) (row_weights o w)) as (r & R & _); try assumption.
    + cbn [fancy_assemble f_shifts]. now rewrite SH.
    + eauto.
Qed.
Print Assumptions C75_simulates.
(** C75: defect: simulate_probe_translation without allow_probe_fourier_shifts builds a model that can simulate no
    exposure. *)
Theorem C75_simulate_translation_refuted : forall d o ch, usable d -> sensible d o -> op_simulate o = true -> op_shifts o = false ->
  exists m, fancy_from_dataset d o ch = Ok m /\ forall ix t, nth_error (d_translations d) (the ix) = Some t -> fancy_pattern m ix t = Raise RuntimeError.
Proof.
  intros d o ch U S SI SH. destruct (from_dataset_ok d o ch U S) as (g & ws & E & _ & G). eexists. split; [exact E|]. intros ix t Ht.
  pose proof S as (LT & IN & _).
  assert (Hk : (the ix < length (d_patterns d))%nat) by (rewrite <- LT; apply nth_error_Some; congruence).
  destruct (weights_exist d (the ix) IN Hk) as (w & Hw & _). destruct (G ix t w Ht Hw) as (pos & P & C & F).
  apply (C62_simulate_translation_refuted _ ix t pos (modes_used o) (row_weights o w)); try assumption.
  cbn [fancy_assemble f_shifts]. now rewrite SH.
Qed.
Print Assumptions C75_simulate_translation_refuted.
(** C75: what is refused: an empty dataset, a probe_fourier_crop that leaves nothing, a density matrix larger than
    the number of modes. *)
Theorem C75_refused : forall d o ch,
  (d_patterns d = [] -> fancy_from_dataset d o ch = Raise IndexError) /\
  (d_patterns d <> [] -> forall c, op_crop o = Some c -> (op_os o * d_h d <= 2 * c \/ op_os o * d_w d <= 2 * c)%nat -> fancy_from_dataset d o ch = Raise RuntimeError) /\
  (usable d -> (0 < op_os o)%nat -> op_crop o = None -> forall r, op_dm_rank o = Some r -> (Z.of_nat (op_n_modes o) < r)%Z -> fancy_from_dataset d o ch = Raise KeyError).
Proof.
  intros d o ch. unfold fancy_from_dataset. split; [now intros ->|]. split.
  - intros NE c Hc L. destruct (d_patterns d); [contradiction|]. unfold from_guess, from_n0, from_n1, crop_of, crop_len. rewrite Hc.
    destruct (Nat.eqb_spec (op_os o * d_h d - c - c) 0) as [_|N0]; [reflexivity|]. destruct (Nat.eqb_spec (op_os o * d_w d - c - c) 0) as [_|N1]; [reflexivity|]. lia.
  - intros (NE & _) _ Hc r Hr L. destruct (d_patterns d) eqn:E; [contradiction|]. unfold from_guess. rewrite Hc. cbn [rbind]. unfold from_weights. rewrite Hr.
    destruct r as [|r|r]; try lia. unfold dm_weights. destruct (Z.ltb_spec (Z.of_nat (op_n_modes o)) (Z.pos r)); [reflexivity|lia].
Qed.
Print Assumptions C75_refused.

(** ---- the starting point ---- *)
Lemma scale_same c N M x y : same N M x y -> same N M (fun i j => c * x i j)%C (fun i j => c * y i j)%C.
Proof. intros H i j Hi Hj. now rewrite H. Qed.
Lemma far_scal N M c x i j : far_field N M (fun a b => c * x a b)%C i j = (c * far_field N M x i j)%C.
Proof.
  pose proof (proj1 (far_linear N M c x 0 x i j)) as E. transitivity (far_field N M (lin c x 0 x) i j); [|rewrite E; ring].
  unfold far_field, fftshift2, fft2_ortho, ifftshift2, fft2, dft. f_equal. apply csum_ext. intros a _. f_equal. apply csum_ext. intros b _. unfold lin. ring.
Qed.
Lemma start_far m E q pos rows i j : fits m rows pos -> f_near m = false ->
  (forall a b, (a < fancy_N0 m)%nat -> (b < fancy_N1 m)%nat -> transmit m (f_obj m q (Zfloor (fst pos) + Z.of_nat a)%Z (Zfloor (snd pos) + Z.of_nat b)%Z) = RtoC 1) ->
  (i < fancy_N0 m)%nat -> (j < fancy_N1 m)%nat ->
  nrm2 (at_detector m (exit_wave m E q pos) i j) =
  f_norm m ^ 2 * nrm2 (place (f_n0 m) (f_n1 m) (fancy_N0 m / 2 - f_n0 m / 2) (fancy_N1 m / 2 - f_n1 m / 2) (far_field (f_n0 m) (f_n1 m) E) i j).
Proof.
  intros (n0p & n1p & _ & C0 & C1 & _) NF T Hi Hj. assert (0 < fancy_N0 m)%nat by lia. assert (0 < fancy_N1 m)%nat by lia.
  unfold at_detector. rewrite NF. fold (fancy_N0 m) (fancy_N1 m). rewrite <- far_centred by assumption.
  rewrite (far_ext (fancy_N0 m) (fancy_N1 m) _ (fun a b => RtoC (f_norm m) *
     sinc_subpixel_shift (fancy_N0 m) (fancy_N1 m) (fourier_pad (f_n0 m) (f_n1 m) (fancy_N0 m) (fancy_N1 m) E) (fst pos - IZR (Zfloor (fst pos))) (snd pos - IZR (Zfloor (snd pos))) a b)%C); try assumption.
  2:{ intros a b Ha Hb. unfold exit_wave. rewrite NF. fold (fancy_N0 m) (fancy_N1 m). rewrite T by assumption.
      rewrite (shifted_pad (f_n0 m) (f_n1 m) (fancy_N0 m) (fancy_N1 m)) by assumption. ring. }
  rewrite far_scal, nrm2_mult, nrm2_RtoC.
  rewrite (far_ext (fancy_N0 m) (fancy_N1 m) _ (near_field (fancy_N0 m) (fancy_N1 m) (fourier_pad (f_n0 m) (f_n1 m) (fancy_N0 m) (fancy_N1 m) E)
     (shift_mask (fancy_N0 m) (fancy_N1 m) (fst pos - IZR (Zfloor (fst pos))) (snd pos - IZR (Zfloor (snd pos)))))); try assumption.
  2:{ intros a b _ _. apply shift_near. }
  rewrite far_near, nrm2_mult, shift_mask_unit, Rmult_1_l by assumption. rewrite far_fourier_pad by assumption. ring.
Qed.
Lemma start_near m E q pos rows : fits m rows pos -> f_near m = true -> f_n0 m = fancy_N0 m -> f_n1 m = fancy_N1 m ->
  (forall a b, (a < fancy_N0 m)%nat -> (b < fancy_N1 m)%nat -> transmit m (f_obj m q (Zfloor (fst pos) + Z.of_nat a)%Z (Zfloor (snd pos) + Z.of_nat b)%Z) = RtoC 1) ->
  same (fancy_N0 m) (fancy_N1 m) (exit_wave m E q pos) (fun i j => RtoC (f_norm m) * E i j)%C.
Proof.
  intros (n0p & n1p & _ & C0 & C1 & _) NF E0 E1 T i j Hi Hj. assert (0 < fancy_N0 m)%nat by lia. assert (0 < fancy_N1 m)%nat by lia.
  unfold exit_wave. rewrite NF. fold (fancy_N0 m) (fancy_N1 m).
  set (s0 := fst pos - IZR (Zfloor (fst pos))). set (s1 := snd pos - IZR (Zfloor (snd pos))).
  rewrite (trig_ext (fancy_N0 m) (fancy_N1 m) _ (sinc_subpixel_shift (fancy_N0 m) (fancy_N1 m) (fun a b => RtoC (f_norm m) * E a b)%C s0 s1)).
  2:{ intros a b Ha Hb. rewrite T by assumption. rewrite <- (shifted_pad (f_n0 m) (f_n1 m) (fancy_N0 m) (fancy_N1 m)) by assumption.
      unfold fourier_pad. rewrite E0, E1, !Nat.eqb_refl. cbn [andb]. rewrite shift_scal. ring. }
  replace (IZR (off (fancy_N0 m) i) + s0) with (IZR (off (fancy_N0 m) i) - - s0) by ring. replace (IZR (off (fancy_N1 m) j) + s1) with (IZR (off (fancy_N1 m) j) - - s1) by ring.
  rewrite <- shift_formula by assumption. rewrite shift_compose by assumption.
  replace (s0 + - s0) with 0 by ring. replace (s1 + - s1) with 0 by ring. now rewrite shift_zero.
Qed.
Lemma amax_ge n m x i j : (i < n)%nat -> (j < m)%nat -> Cmod (x i j) <= amax n m x.
Proof.
  intros Hi Hj. unfold amax. eapply Rle_trans; [|apply rmax_ge; apply in_map_iff; exists i; split; [reflexivity|apply in_seq; lia]].
  apply rmax_ge. apply in_map_iff. exists j. split; [reflexivity|apply in_seq; lia].
Qed.
Lemma amax_pos n m x : (exists i j, (i < n)%nat /\ (j < m)%nat /\ x i j <> RtoC 0) -> 0 < amax n m x.
Proof. intros (i & j & Hi & Hj & N). eapply Rlt_le_trans; [|apply (amax_ge n m x i j Hi Hj)]. now apply Cmod_gt_0. Qed.
(** a zero image has a zero far field *)
Lemma far_zero n m x : (0 < n)%nat -> (0 < m)%nat -> (forall i j, (i < n)%nat -> (j < m)%nat -> x i j = RtoC 0) -> forall i j, (i < n)%nat -> (j < m)%nat -> far_field n m x i j = RtoC 0.
Proof.
  intros Hn Hm Z i j Hi Hj. rewrite (far_ext n m x (fun a b => RtoC 0 * x a b)%C); try assumption.
  - rewrite far_scal. ring.
  - intros a b Ha Hb. rewrite Z by assumption. ring.
Qed.
Lemma far_nonzero n m x : (0 < n)%nat -> (0 < m)%nat -> (exists i j, (i < n)%nat /\ (j < m)%nat /\ far_field n m x i j <> RtoC 0) -> 0 < amax n m x.
Proof.
  intros Hn Hm (i & j & Hi & Hj & N).
  destruct (Rle_lt_dec (amax n m x) 0) as [L|L]; [|exact L]. exfalso. apply N. apply far_zero; try assumption. intros a b Ha Hb.
  pose proof (amax_ge n m x a b Ha Hb). apply Cmod_eq_0. pose proof (Cmod_ge_0 (x a b)). lra.
Qed.
(** the only mode of a plain start *)
Lemma plain_weight o w : row_weights o w 0%nat 0%nat = RtoC w.
Proof. unfold row_weights, diag. destruct (op_dm_rank o) as [r|]; [destruct (r =? 0)%Z|]; cbn [Nat.eqb]; try reflexivity. now rewrite Rmult_1_l. Qed.
Lemma plain_transmit d o ch g ws q a b : op_randomize o = 0 -> (q = 0)%nat -> let m := fancy_assemble d o ch g ws in transmit m (f_obj m q a b) = RtoC 1.
Proof.
  intros R -> m. unfold transmit, m. cbn [fancy_assemble f_exp f_phase_only f_obj]. unfold from_object. rewrite R, Rmult_0_l. cbn [Nat.eqb].
  assert (E0 : cexp (Ci * RtoC 0)%C = RtoC 1) by (rewrite Cmult_0_r; unfold cexp, RtoC; cbn [fst snd]; rewrite exp_0, cis_0; apply Cmult_1_l).
  rewrite E0. destruct (op_exp o), (op_phase_only o); unfold RtoC; cbn [fst snd]; rewrite ?Ropp_0, ?exp_0, ?cis_0; try reflexivity. apply Cmult_1_l.
Qed.
Lemma plain_shot d o ch g ws w k l : op_n_modes o = 1%nat -> op_radius o = None -> let m := fancy_assemble d o ch g ws in
  (0 < f_n0 m)%nat -> (0 < f_n1 m)%nat -> f_norm m <> 0 -> (k < f_n0 m)%nat -> (l < f_n1 m)%nat ->
  (RtoC (f_norm m) * shot m (row_weights o w) 0 k l = RtoC w * g k l)%C.
Proof.
  intros NM R m P0 P1 NZ Hk Hl.
  assert (NZC : RtoC (f_norm m) <> RtoC 0) by (intros E; apply NZ; now injection E).
  assert (MX : forall a b, mixture (row_weights o w) (f_support m) (f_probe m) 0 a b = (RtoC (w / f_norm m) * (if op_fourier o then far_field (f_n0 m) (f_n1 m) g else g) a b)%C).
  { intros a b. unfold mixture, m. cbn [fancy_assemble f_probe f_support f_n0 f_n1]. unfold from_support, from_modes. rewrite R, NM. cbn [Nat.sub seq map length nth].
    rewrite csum_S. rewrite (csum_zero' 0) by (intros; lia). cbn [nth]. rewrite plain_weight, RtoC_div by exact NZ. 
    assert (EN : f_norm m = amax (from_n0 d o) (from_n1 d o) (if op_fourier o then far_field (from_n0 d o) (from_n1 d o) g else g)) by (unfold m; cbn [fancy_assemble f_norm]; unfold from_modes; now rewrite R).
    rewrite <- EN. unfold Cdiv. fold m. destruct (op_fourier o); ring. }
  unfold shot. cbn [m fancy_assemble f_fourier]. fold m. destruct (op_fourier o) eqn:F.
  - rewrite (inv_far_ext (f_n0 m) (f_n1 m) _ (far_field (f_n0 m) (f_n1 m) (fun a b => RtoC (w / f_norm m) * g a b)%C)); try assumption.
    + rewrite (proj1 (far_inverse (f_n0 m) (f_n1 m) (fun a b => RtoC (w / f_norm m) * g a b)%C P0 P1) k l Hk Hl). rewrite RtoC_div by exact NZ. field. exact NZC.
    + intros a b Ha Hb. rewrite far_scal. apply MX.
  - rewrite MX. rewrite RtoC_div by exact NZ. field. exact NZC.
Qed.
Lemma plain_rows d o : sensible d o -> op_n_modes o = 1%nat -> modes_used o = 1%nat.
Proof.
  intros (LT & IN & O & CR & NM & SC & DM & PL) N. unfold modes_used. destruct (op_dm_rank o) as [r|]; [|exact N]. specialize (DM r eq_refl).
  rewrite N in *. destruct (Z.eqb_spec r 0); [reflexivity|]. destruct (Z.eqb_spec r (-1)); [reflexivity|]. cbn. lia.
Qed.
Lemma plain_planes d o ch g ws : (op_planes o <= 1)%nat -> obj_planes (fancy_assemble d o ch g ws) = 1%nat.
Proof. intros P. unfold obj_planes. cbn [fancy_assemble f_obj_modes]. destruct (Nat.eqb_spec (op_planes o) 1); [reflexivity|lia]. Qed.
(** the far field of the guess of a plain far-field start *)
Lemma probe_far d o i j : usable d -> op_near o = false -> op_os o = 1%nat -> (i < d_h d)%nat -> (j < d_w d)%nat -> lit d o i j ->
  nrm2 (far_field (d_h d) (d_w d) (from_probe d o) i j) = signal d i j.
Proof.
  intros U NF OS Hi Hj L. unfold from_probe. rewrite NF, OS, nrm2_Cmod. destruct (op_pd o) as [z|] eqn:PD.
  - destruct L as [L|L]; [congruence|]. now apply (proj2 (C74_sharp_propagated d z i j U Hi Hj)).
  - now apply C74_sharp_pattern.
Qed.
Definition guess_of d o : img := match op_crop o with None => from_probe d o | Some c => fourier_crop (op_os o * d_h d) (op_os o * d_w d) c (from_probe d o) end.
Lemma guess_far d o i j : usable d -> sensible d o -> (i < from_n0 d o)%nat -> (j < from_n1 d o)%nat ->
  far_field (from_n0 d o) (from_n1 d o) (guess_of d o) i j = far_field (op_os o * d_h d) (op_os o * d_w d) (from_probe d o) (crop_of o + i)%nat (crop_of o + j)%nat.
Proof.
  intros U S Hi Hj. destruct (crop_ok d o U S) as [A B]. unfold guess_of, from_n0, from_n1, crop_of in *. destruct (op_crop o) as [c|].
  - unfold fourier_crop. set (X := fun i j => _ : C). exact (proj2 (far_inverse (crop_len (op_os o * d_h d) c) (crop_len (op_os o * d_w d) c) X ltac:(lia) ltac:(lia)) i j Hi Hj).
  - unfold crop_len. rewrite !Nat.sub_0_r, !Nat.add_0_l. reflexivity.
Qed.
Lemma kept_iff o n i : (2 * crop_of o < n)%nat -> (i < n)%nat -> (kept o n i <-> (crop_of o <= i < crop_of o + crop_len n (crop_of o))%nat).
Proof. intros H Hi. unfold kept, crop_of, crop_len in *. destruct (op_crop o); lia. Qed.
Lemma plain_norm d o ch ws a b : usable d -> sensible d o -> op_radius o = None -> op_near o = false -> op_os o = 1%nat ->
  (a < d_h d)%nat -> (b < d_w d)%nat -> kept o (d_h d) a -> kept o (d_w d) b -> lit d o a b -> 0 < signal d a b ->
  f_norm (fancy_assemble d o ch (guess_of d o) ws) <> 0.
Proof.
  intros U S R NF OS Ha Hb Ka Kb L P. destruct (crop_ok d o U S) as [A B]. rewrite OS, !Nat.mul_1_l in A, B.
  apply kept_iff in Ka; [|assumption..]. apply kept_iff in Kb; [|assumption..].
  assert (N : exists i j, (i < from_n0 d o)%nat /\ (j < from_n1 d o)%nat /\ far_field (from_n0 d o) (from_n1 d o) (guess_of d o) i j <> RtoC 0).
  { exists (a - crop_of o)%nat, (b - crop_of o)%nat. unfold from_n0, from_n1. rewrite OS, !Nat.mul_1_l. split; [lia|]. split; [lia|].
    intros E. assert (E2 : far_field (from_n0 d o) (from_n1 d o) (guess_of d o) (a - crop_of o)%nat (b - crop_of o)%nat = RtoC 0) by (unfold from_n0, from_n1; rewrite OS, !Nat.mul_1_l; exact E).
    rewrite guess_far in E2; [|assumption|assumption|unfold from_n0; rewrite OS, Nat.mul_1_l; lia|unfold from_n1; rewrite OS, Nat.mul_1_l; lia].
    rewrite OS, !Nat.mul_1_l in E2. replace (crop_of o + (a - crop_of o))%nat with a in E2 by lia. replace (crop_of o + (b - crop_of o))%nat with b in E2 by lia.
    pose proof (probe_far d o a b U NF OS Ha Hb L) as V. rewrite E2 in V. unfold nrm2, RtoC in V. cbn [fst snd] in V. lra. }
  cbn [fancy_assemble f_norm]. unfold from_modes. rewrite R. cbn [nth].
  destruct N as (i & j & N). assert (Q0 : (0 < from_n0 d o)%nat) by lia. assert (Q1 : (0 < from_n1 d o)%nat) by lia.
  destruct (op_fourier o).
  - pose proof (amax_pos _ _ (far_field (from_n0 d o) (from_n1 d o) (guess_of d o)) (ex_intro _ i (ex_intro _ j N))). lra.
  - pose proof (far_nonzero _ _ (guess_of d o) Q0 Q1 (ex_intro _ i (ex_intro _ j N))). lra.
Qed.
Lemma photons_one x i j : photons 1 [x] i j = nrm2 (x i j).
Proof. unfold photons, lsum. cbn [map fold_right]. rewrite !rsum_S. rewrite !(rsum_zero' 0) by (intros; lia). rewrite !Nat.mul_1_l, !Nat.add_0_r. cbn [Nat.mul Nat.add INR]. field. Qed.
(** C75: for a plain start (one probe mode, defaults elsewhere; oversampling 1, far field) the model simulates, for every exposure,
    the average pattern of the data less the background, in proportion to the recorded intensity, as its detector
    reads it; with probe_fourier_crop, nothing on the pixels cut away; with a propagation distance, at the pixels
    within 45 degrees of the axis. *)
Theorem C75_initial_pattern : forall d o ch k t w, usable d -> sensible d o -> plain_start o -> op_near o = false -> op_os o = 1%nat ->
  (forall q i j, d_qe d = Some q -> 0 <= q i j) ->
  (exists a b, (a < d_h d)%nat /\ (b < d_w d)%nat /\ kept o (d_h d) a /\ kept o (d_w d) b /\ lit d o a b /\ 0 < signal d a b) ->
  nth_error (d_translations d) k = Some t -> shot_weight d k w ->
  exists m, fancy_from_dataset d o ch = Ok m /\ forall ix, the ix = k -> exists r, fancy_pattern m ix t = Ok r /\
  forall i j, (i < d_h d)%nat -> (j < d_w d)%nat ->
   (kept o (d_h d) i -> kept o (d_w d) j -> lit d o i j ->
      r i j = reading (op_saturation o) (start_qe d o) (start_background d) i j (w ^ 2 * signal d i j + / 10 ^ 7)) /\
   (~ kept o (d_h d) i \/ ~ kept o (d_w d) j -> r i j = reading (op_saturation o) (start_qe d o) (start_background d) i j (/ 10 ^ 7)).
Proof.
  intros d o ch k t w U S PS NF OS Q (a0 & b0 & Ha & Hb & Ka & Kb & La & Pa) Ht Hw. destruct (from_dataset_ok d o ch U S) as (g & ws & E & Eg & G). fold (guess_of d o) in Eg. subst g.
  exists (fancy_assemble d o ch (guess_of d o) ws). split; [exact E|]. intros ix <-. set (m := fancy_assemble d o ch (guess_of d o) ws) in *.
  destruct PS as (NM & PL & RN & RA & SH & SI). destruct (G ix t w Ht Hw) as (pos & P & C & F). fold m in P, C, F.
  assert (QE : forall q i j, f_qe m = Some q -> 0 <= q i j).
  { intros q i j. unfold m. cbn [fancy_assemble f_qe]. destruct (op_qe o); [|discriminate]. intros E1. injection E1 as <-. destruct (d_qe d) eqn:D; [eapply Q; eauto|lra]. }
  assert (RO : modes_used o = 1%nat) by now apply (plain_rows d).
  destruct (C62_pattern m ix t pos (modes_used o) (row_weights o w)) as (r & R & V); try assumption.
  { unfold m. cbn [fancy_assemble f_shifts]. now rewrite SH. }
  exists r. split; [exact R|]. intros i j Hi Hj. change (f_det0 m) with (d_h d) in V. change (f_det1 m) with (d_w d) in V. specialize (V i j Hi Hj).
  destruct (crop_ok d o U S) as [A B]. rewrite OS, !Nat.mul_1_l in A, B.
  assert (NZ : f_norm m <> 0) by (apply (plain_norm d o ch ws a0 b0); assumption).
  assert (N0 : fancy_N0 m = d_h d) by (unfold fancy_N0, m; cbn [fancy_assemble f_os f_det0]; rewrite OS; lia).
  assert (N1 : fancy_N1 m = d_w d) by (unfold fancy_N1, m; cbn [fancy_assemble f_os f_det1]; rewrite OS; lia).
  assert (M0 : f_n0 m = crop_len (d_h d) (crop_of o)) by (unfold m; cbn [fancy_assemble f_n0]; unfold from_n0; now rewrite OS, Nat.mul_1_l).
  assert (M1 : f_n1 m = crop_len (d_w d) (crop_of o)) by (unfold m; cbn [fancy_assemble f_n1]; unfold from_n1; now rewrite OS, Nat.mul_1_l).
  assert (PH : photons (f_os m) (map (at_detector m) (exits m (shot m (row_weights o w)) (modes_used o) pos)) i j =
     w ^ 2 * nrm2 (place (f_n0 m) (f_n1 m) (crop_of o) (crop_of o) (far_field (f_n0 m) (f_n1 m) (guess_of d o)) i j)).
  { unfold exits. rewrite RO. replace (obj_planes m) with 1%nat by (symmetry; now apply plain_planes). cbn [Nat.max seq map sel].
    change (f_os m) with (op_os o). rewrite OS, photons_one.
    assert (F0 := F). destruct F0 as (n0p & n1p & _).
    rewrite (start_far m _ 0%nat pos (modes_used o)); try assumption; try (rewrite ?N0, ?N1; assumption).
    2:{ intros a b _ _. now apply plain_transmit. }
    rewrite N0, N1, M0, M1. destruct (crop_centred _ _ A) as (_ & _ & L0). destruct (crop_centred _ _ B) as (_ & _ & L1). rewrite L0, L1. rewrite <- M0, <- M1.
    unfold place. destruct (_ && _)%bool eqn:IB; [|unfold nrm2, RtoC; cbn [fst snd]; ring].
    apply andb_prop in IB as [IB I3]. apply andb_prop in IB as [IB I2]. apply andb_prop in IB as [I0 I1].
    apply Nat.leb_le in I0, I2. apply Nat.ltb_lt in I1, I3.
    transitivity (nrm2 (RtoC (f_norm m) * far_field (f_n0 m) (f_n1 m) (shot m (row_weights o w) 0) (i - crop_of o)%nat (j - crop_of o)%nat)%C).
    { rewrite nrm2_mult, nrm2_RtoC. ring. }
    rewrite <- far_scal.
    rewrite (far_ext (f_n0 m) (f_n1 m) _ (fun a b => RtoC w * guess_of d o a b)%C); try assumption; try lia.
    - rewrite far_scal, nrm2_mult, nrm2_RtoC. ring.
    - intros a b Hna Hnb. now apply plain_shot. }
  rewrite PH in V. change (f_saturation m) with (op_saturation o) in V. change (f_qe m) with (start_qe d o) in V.
  assert (BG : f_background m i j = start_background d i j).
  { unfold m, start_background. cbn [fancy_assemble f_background]. destruct (d_background d); [reflexivity|ring]. }
  assert (RD : forall x, reading (op_saturation o) (start_qe d o) (f_background m) i j x = reading (op_saturation o) (start_qe d o) (start_background d) i j x) by (intros x; unfold reading; now rewrite BG).
  rewrite RD in V. unfold place in V. rewrite V. split.
  - intros Ki Kj L. apply kept_iff in Ki; [|assumption..]. apply kept_iff in Kj; [|assumption..]. rewrite M0, M1.
    replace (_ && _)%bool with true.
    2:{ symmetry. rewrite !andb_true_iff, !Nat.leb_le, !Nat.ltb_lt. lia. }
    assert (GF := guess_far d o (i - crop_of o)%nat (j - crop_of o)%nat U S). unfold from_n0, from_n1 in GF. rewrite OS, !Nat.mul_1_l in GF. rewrite GF by lia.
    replace (crop_of o + (i - crop_of o))%nat with i by lia. replace (crop_of o + (j - crop_of o))%nat with j by lia. now rewrite probe_far.
  - intros NK. rewrite M0, M1. replace (_ && _)%bool with false.
    + unfold nrm2, RtoC. cbn [fst snd]. f_equal. ring.
    + symmetry. rewrite !andb_false_iff, !Nat.leb_gt, !Nat.ltb_ge. destruct NK as [NK|NK]; rewrite kept_iff in NK by assumption; lia.
Qed.
Print Assumptions C75_initial_pattern.
(** ---- near field, and oversampling ---- *)
Lemma energy_zero n m x : (forall i j, (i < n)%nat -> (j < m)%nat -> x i j = RtoC 0) -> energy n m x = 0.
Proof.
  intros Z. unfold energy. apply rsum_zero'. intros i Hi. apply rsum_zero'. intros j Hj. rewrite Z by assumption. unfold nrm2, RtoC. cbn [fst snd]. ring.
Qed.
Lemma energy_amax n m x : 0 < energy n m x -> 0 < amax n m x.
Proof.
  intros P. destruct (Rle_lt_dec (amax n m x) 0) as [L|L]; [|exact L]. exfalso. rewrite energy_zero in P; [lra|]. intros i j Hi Hj.
  pose proof (amax_ge n m x i j Hi Hj). apply Cmod_eq_0. pose proof (Cmod_ge_0 (x i j)). lra.
Qed.
Lemma norm_of_energy d o ch g ws : op_radius o = None -> (0 < from_n0 d o)%nat -> (0 < from_n1 d o)%nat -> 0 < energy (from_n0 d o) (from_n1 d o) g -> f_norm (fancy_assemble d o ch g ws) <> 0.
Proof.
  intros R P0 P1 E. cbn [fancy_assemble f_norm]. unfold from_modes. rewrite R. cbn [nth].
  assert (0 < amax (from_n0 d o) (from_n1 d o) (if op_fourier o then far_field (from_n0 d o) (from_n1 d o) g else g)); [|lra].
  apply energy_amax. destruct (op_fourier o); [|exact E]. now rewrite (proj1 (far_energy (from_n0 d o) (from_n1 d o) g P0 P1)).
Qed.
Lemma uncropped d o : op_crop o = None -> from_n0 d o = (op_os o * d_h d)%nat /\ from_n1 d o = (op_os o * d_w d)%nat /\ guess_of d o = from_probe d o.
Proof. intros C. unfold from_n0, from_n1, guess_of, crop_of, crop_len. rewrite C. split; [lia|]. split; [lia|reflexivity]. Qed.
Lemma near_scal N M c x p i j : near_field N M (fun a b => c * x a b)%C p i j = (c * near_field N M x p i j)%C.
Proof.
  pose proof (near_linear N M c x (RtoC 0) x p i j) as L. transitivity (near_field N M (lin c x (RtoC 0) x) p i j); [|rewrite L; ring].
  apply near_ext; intros a b _ _; [unfold lin; ring|reflexivity].
Qed.
Lemma rsum_term_le n f k : (forall i, (i < n)%nat -> 0 <= f i) -> (k < n)%nat -> f k <= rsum n f.
Proof.
  induction n as [|n IH]; [lia|]. intros P Hk. rewrite rsum_S. pose proof (P n ltac:(lia)).
  destruct (Nat.eq_dec k n) as [->|N]; [pose proof (rsum_nonneg n f ltac:(intros; apply P; lia)); lra|].
  pose proof (IH ltac:(intros; apply P; lia) ltac:(lia)). lra.
Qed.
(** energy of the guess *)
Lemma guess_energy d o : usable d -> sensible d o -> op_crop o = None -> (op_near o = true \/ op_pd o = None) -> no_evanescent d o ->
  energy (from_n0 d o) (from_n1 d o) (guess_of d o) = total_of (d_h d) (d_w d) (signal d).
Proof.
  intros U S C K NE. destruct (uncropped d o C) as (-> & -> & ->). assert (O : (0 < op_os o)%nat) by apply S.
  unfold from_probe. destruct (op_near o) eqn:NF.
  - specialize (NE NF). unfold from_backward. destruct (near_geometry (d_b0 d) (d_b1 d) (d_dist d) (op_os o) (op_pd o)) as [[b0 b1] z].
    apply (C74_near_field_guess d (gen_propagator (d_h d) (d_w d) b0 b1 (d_wl d) (0, 0, z) None) (op_os o) U O (proj2 NE)).
  - destruct K as [K|K]; [discriminate|]. rewrite K. now apply C74_sharp_power.
Qed.
Lemma total_pos d : usable d -> (exists a b, (a < d_h d)%nat /\ (b < d_w d)%nat /\ 0 < signal d a b) -> 0 < total_of (d_h d) (d_w d) (signal d).
Proof.
  intros (_ & H & W & _ & _ & _ & _ & P) (a & b & Ha & Hb & Q). unfold total_of.
  eapply Rlt_le_trans; [exact Q|]. eapply Rle_trans; [|apply (rsum_term_le (d_h d) (fun i => rsum (d_w d) (fun j => signal d i j)) a)]; try assumption.
  - cbv beta. apply (rsum_term_le (d_w d) (fun j => signal d a j) b); [|assumption]. intros j Hj. now apply P.
  - intros i Hi. apply rsum_nonneg. intros j Hj. now apply P.
Qed.
(** C75: near field (without oversampling and crop, no frequency evanescent): the same starting pattern. *)
Theorem C75_near_pattern : forall d o ch k t w, usable d -> sensible d o -> plain_start o -> op_near o = true -> op_os o = 1%nat -> op_crop o = None ->
  no_evanescent d o -> (forall q i j, d_qe d = Some q -> 0 <= q i j) ->
  (exists a b, (a < d_h d)%nat /\ (b < d_w d)%nat /\ 0 < signal d a b) ->
  nth_error (d_translations d) k = Some t -> shot_weight d k w ->
  exists m, fancy_from_dataset d o ch = Ok m /\ forall ix, the ix = k -> exists r, fancy_pattern m ix t = Ok r /\
  forall i j, (i < d_h d)%nat -> (j < d_w d)%nat ->
    r i j = reading (op_saturation o) (start_qe d o) (start_background d) i j (w ^ 2 * signal d i j + / 10 ^ 7).
Proof.
  intros d o ch k t w U S PS NF OS CR NE Q Pa Ht Hw. destruct (from_dataset_ok d o ch U S) as (g & ws & E & Eg & G). fold (guess_of d o) in Eg. subst g.
  exists (fancy_assemble d o ch (guess_of d o) ws). split; [exact E|]. intros ix <-. set (m := fancy_assemble d o ch (guess_of d o) ws) in *.
  destruct PS as (NM & PL & RN & RA & SH & SI). destruct (G ix t w Ht Hw) as (pos & P & C & F). fold m in P, C, F.
  assert (QE : forall q i j, f_qe m = Some q -> 0 <= q i j).
  { intros q i j. unfold m. cbn [fancy_assemble f_qe]. destruct (op_qe o); [|discriminate]. intros E1. injection E1 as <-. destruct (d_qe d) eqn:D; [eapply Q; eauto|lra]. }
  assert (RO : modes_used o = 1%nat) by now apply (plain_rows d).
  destruct (C62_pattern m ix t pos (modes_used o) (row_weights o w)) as (r & R & V); try assumption.
  { unfold m. cbn [fancy_assemble f_shifts]. now rewrite SH. }
  exists r. split; [exact R|]. intros i j Hi Hj. change (f_det0 m) with (d_h d) in V. change (f_det1 m) with (d_w d) in V. specialize (V i j Hi Hj).
  destruct (uncropped d o CR) as (U0 & U1 & UG). rewrite OS, Nat.mul_1_l in U0, U1. pose proof U as (_ & HH & WW & _ & _ & _ & _ & SP).
  assert (NZ : f_norm m <> 0).
  { apply norm_of_energy; try assumption; try lia. rewrite guess_energy; auto. now apply total_pos. }
  assert (N0 : fancy_N0 m = d_h d) by (unfold fancy_N0, m; cbn [fancy_assemble f_os f_det0]; rewrite OS; lia).
  assert (N1 : fancy_N1 m = d_w d) by (unfold fancy_N1, m; cbn [fancy_assemble f_os f_det1]; rewrite OS; lia).
  assert (M0 : f_n0 m = d_h d) by exact U0. assert (M1 : f_n1 m = d_w d) by exact U1.
  assert (PH : photons (f_os m) (map (at_detector m) (exits m (shot m (row_weights o w)) (modes_used o) pos)) i j = w ^ 2 * signal d i j).
  { unfold exits. rewrite RO. replace (obj_planes m) with 1%nat by (symmetry; now apply plain_planes). cbn [Nat.max seq map sel].
    change (f_os m) with (op_os o) at 1. rewrite OS, photons_one. unfold at_detector. replace (f_near m) with true by (symmetry; exact NF).
    unfold m at 1. cbn [fancy_assemble f_propagator]. rewrite NF. fold m. fold (fancy_N0 m) (fancy_N1 m).
    pose proof (NE NF) as NE1. unfold near_propagators. destruct (near_geometry (d_b0 d) (d_b1 d) (d_dist d) (op_os o) (op_pd o)) as [[b0 b1] z] eqn:GE. cbn [fst]. rewrite OS, !Nat.mul_1_r in *.
    set (p := gen_propagator (d_h d) (d_w d) b0 b1 (d_wl d) (0, 0, z) None) in *.
    rewrite (near_ext (fancy_N0 m) (fancy_N1 m) _ (fun a b => RtoC w * guess_of d o a b)%C p p i j); [| |intros ? ? _ _; reflexivity].
    2:{ intros a b Ha Hb. rewrite (start_near m _ 0%nat pos (modes_used o) F NF); try assumption; try congruence.
        - rewrite N0 in Ha. rewrite N1 in Hb. apply plain_shot; try assumption; fold m; rewrite ?M0, ?M1; assumption.
        - intros ? ? _ _. now apply plain_transmit. }
    rewrite near_scal, nrm2_mult, nrm2_RtoC. rewrite N0, N1, UG.
    assert (SG : nrm2 (near_field (d_h d) (d_w d) (from_probe d o) p i j) = signal d i j).
    { unfold from_probe. rewrite NF. unfold from_backward. rewrite OS, GE. fold p. rewrite nrm2_Cmod.
      apply (proj1 (C74_near_field_guess d p 1 U ltac:(lia) (proj2 NE1)) eq_refl i j Hi Hj). }
    rewrite SG. ring. }
  rewrite PH in V. change (f_saturation m) with (op_saturation o) in V. change (f_qe m) with (start_qe d o) in V.
  assert (BG : f_background m i j = start_background d i j).
  { unfold m, start_background. cbn [fancy_assemble f_background]. destruct (d_background d); [reflexivity|ring]. }
  rewrite V. unfold reading. now rewrite BG.
Qed.
Print Assumptions C75_near_pattern.
(** C75: for every oversampling (without crop; one mode and plane; an object of modulus 1; ideal detector) each
    simulated pattern holds, besides its background, 1/oversampling^2 of the photons of the average pattern: with
    oversampling the start is too weak. *)
Theorem C75_photons : forall d o ch k t w, usable d -> sensible d o -> op_n_modes o = 1%nat -> (op_planes o <= 1)%nat -> op_radius o = None ->
  op_shifts o = false -> op_simulate o = false -> op_crop o = None -> op_qe o = false -> op_saturation o = None ->
  (op_near o = true \/ op_pd o = None) -> (op_exp o = true \/ op_phase_only o = false) -> no_evanescent d o ->
  (exists a b, (a < d_h d)%nat /\ (b < d_w d)%nat /\ 0 < signal d a b) ->
  nth_error (d_translations d) k = Some t -> shot_weight d k w ->
  exists m, fancy_from_dataset d o ch = Ok m /\ forall ix, the ix = k -> exists r, fancy_pattern m ix t = Ok r /\
    total_of (d_h d) (d_w d) (fun i j => r i j - (start_background d i j ^ 2 + / 10 ^ 7)) = w ^ 2 * total_of (d_h d) (d_w d) (signal d) / INR (op_os o) ^ 2.
Proof.
  intros d o ch k t w U S NM PL RA SH SI CR QE SA K EP NE Pa Ht Hw. destruct (from_dataset_ok d o ch U S) as (g & ws & E & Eg & G). fold (guess_of d o) in Eg. subst g.
  exists (fancy_assemble d o ch (guess_of d o) ws). split; [exact E|]. intros ix <-. set (m := fancy_assemble d o ch (guess_of d o) ws) in *.
  destruct (G ix t w Ht Hw) as (pos & P & C & F). fold m in P, C, F.
  assert (RO : modes_used o = 1%nat) by now apply (plain_rows d). assert (O : (0 < op_os o)%nat) by apply S.
  destruct (C64_conservation m ix t pos (modes_used o) (row_weights o w)) as (r & R & V); try assumption.
  { unfold m. cbn [fancy_assemble f_shifts]. now rewrite SH. }
  { unfold m. cbn [fancy_assemble f_qe]. now rewrite QE. }
  { intros NF p a b Hp Ha Hb. unfold m in NF, Hp, Ha, Hb. cbn [fancy_assemble f_near f_propagator f_os f_det0 f_det1] in NF, Hp, Ha, Hb. rewrite NF in Hp.
    pose proof (NE NF) as NE1. unfold near_propagators in Hp. destruct (near_geometry (d_b0 d) (d_b1 d) (d_dist d) (op_os o) (op_pd o)) as [[b0 b1] z]. cbn [fst] in Hp. injection Hp as <-.
    refine (proj1 NE1 a b _ _); rewrite Nat.mul_comm; assumption. }
  { intros q a b Hq _ _. replace (obj_planes m) with 1%nat in Hq by (symmetry; now apply plain_planes). assert (q = 0%nat) as -> by lia.
    unfold transmit, m. cbn [fancy_assemble f_exp f_phase_only f_obj]. unfold from_object. cbn [Nat.eqb]. set (v := op_randomize o * (rand_obj ch a b - / 2)).
    assert (M1 : Cmod (cis v) = 1).
    { pose proof (nrm2_cis v) as N. rewrite nrm2_Cmod in N. pose proof (Cmod_ge_0 (cis v)). nra. }
    destruct (op_exp o).
    - destruct (op_phase_only o); unfold RtoC; cbn [fst snd]; [exact M1|]. rewrite Ropp_0, exp_0, Cmult_1_l. exact M1.
    - destruct EP as [EP|EP]; [discriminate|]. rewrite EP. change (RtoC v) with (v, 0)%R. rewrite cexp_i, Ropp_0, exp_0, Cmult_1_l. exact M1. }
  exists r. split; [exact R|].
  assert (NZ : f_norm m <> 0).
  { destruct (uncropped d o CR) as (U0 & U1 & _). pose proof U as (_ & HH & WW & _).
    apply norm_of_energy; try assumption; [rewrite U0; nia|rewrite U1; nia|]. rewrite guess_energy by assumption. now apply total_pos. }
  assert (IN : incident m (row_weights o w) (modes_used o) = w ^ 2 * total_of (d_h d) (d_w d) (signal d)).
  { unfold incident. rewrite RO. replace (obj_planes m) with 1%nat by (symmetry; now apply plain_planes). cbn [Nat.max seq map sel]. unfold lsum. cbn [fold_right].
    assert (F0 := F). destruct F0 as (n0p & n1p & _). rewrite <- shot_energy by assumption. rewrite Rplus_0_r.
    replace (f_norm m ^ 2) with (nrm2 (RtoC (f_norm m))) by (rewrite nrm2_RtoC; ring). rewrite <- energy_scal.
    rewrite (energy_ext (f_n0 m) (f_n1 m) _ (fun a b => RtoC w * guess_of d o a b)%C) by (intros a b Ha Hb; now apply plain_shot).
    rewrite energy_scal, nrm2_RtoC. change (f_n0 m) with (from_n0 d o). change (f_n1 m) with (from_n1 d o). rewrite guess_energy by assumption. ring. }
  rewrite IN in V. rewrite <- V. change (f_os m) with (op_os o). change (f_det0 m) with (d_h d). change (f_det1 m) with (d_w d). rewrite mult_INR.
  assert (0 < INR (op_os o)) by (apply lt_0_INR; lia). unfold total_of.
  rewrite (rsum_ext (d_h d) (fun i => rsum (d_w d) (fun j => r i j - (start_background d i j ^ 2 + / 10 ^ 7))) (fun i => rsum (d_w d) (fun j => r i j - (f_background m i j ^ 2 + / 10 ^ 7)))).
  - field. lra.
  - intros i Hi. apply rsum_ext. intros j Hj. unfold m, start_background. cbn [fancy_assemble f_background]. destruct (d_background d); [reflexivity|]. now rewrite Rmult_1_r.
Qed.
Print Assumptions C75_photons.
(** ---- SimplePtycho ---- *)
Lemma nearest_inside P l x a : In x l -> Rabs (IZR a - (x - snd (calc_axis P l 0))) <= 1 / 2 -> inside (fst (calc_axis P l 0)) P 0 a.
Proof.
  intros Hx Ha. unfold calc_axis in *. cbn [fst snd] in *. pose proof (rmin_le l x Hx). pose proof (rmax_ge l x Hx). cbn [INR] in Ha. apply Rabs_le_inv in Ha.
  pose proof (Zceil_ub (rmax l - rmin l)) as C. unfold inside. cbn [Z.of_nat]. split.
  - assert (-1 < a)%Z; [|lia]. apply lt_IZR. lra.
  - assert (a < Zceil (rmax l - rmin l) + 1)%Z; [|lia]. apply lt_IZR. rewrite plus_IZR. lra.
Qed.
(** C75: SimplePtycho.from_dataset, for every dataset with light on it: every exposure is simulated as the average
    pattern (less the background) plus 1e-7, at every pixel. *)
Theorem C75_simple : forall d t, usable d -> In t (d_translations d) -> (exists a b, (a < d_h d)%nat /\ (b < d_w d)%nat /\ 0 < signal d a b) ->
  exists m r, simple_from_dataset d = Ok m /\ simple_pattern m t = Ok r /\
  forall i j, (i < d_h d)%nat -> (j < d_w d)%nat -> r i j = signal d i j + / 10 ^ 7.
Proof.
  intros d t U Ht Pa. pose proof U as (NE & HH & WW & _).
  unfold simple_from_dataset. destruct (d_patterns d) as [|im0 ims]; [contradiction|].
  set (b := exit_wave_geometry (d_b0 d) (d_b1 d) (d_h d) (d_w d) (d_wl d) (d_dist d)).
  set (ts := map (translations_to_pixel (fst b) (snd b) ez) (d_translations d)). set (setup := calc_object_setup (d_h d) (d_w d) ts 0).
  set (g := SHARP_style_probe d None 1). eexists. 
  match goal with |- exists r, Ok ?x = Ok _ /\ _ => set (m := x) end.
  destruct (C67_pattern m t) as (a & b' & A & B & V); [exact HH|exact WW|].
  change (translations_to_pixel (s_b0 m) (s_b1 m) ez t) with (translations_to_pixel (fst b) (snd b) ez t) in A, B. set (p := translations_to_pixel (fst b) (snd b) ez t) in *.
  assert (INP : In p ts) by (apply in_map; exact Ht).
  destruct V as (r & R & V).
  { apply (nearest_inside (d_h d) (map fst ts) (fst p)); [now apply in_map|]. exact A. }
  { apply (nearest_inside (d_w d) (map snd ts) (snd p)); [now apply in_map|]. exact B. }
  exists r. split; [reflexivity|]. split; [exact R|]. intros i j Hi Hj. rewrite V by assumption. f_equal.
  change (s_n0 m) with (d_h d). change (s_n1 m) with (d_w d). rewrite <- far_centred by assumption.
  assert (NZ : s_norm m <> 0).
  { change (s_norm m) with (amax (d_h d) (d_w d) g). assert (0 < amax (d_h d) (d_w d) g); [|lra]. apply energy_amax.
    pose proof (C74_sharp_power d 1 U ltac:(lia)) as E. rewrite !Nat.mul_1_l in E. fold g in E. rewrite E. now apply total_pos. }
  assert (NZC : RtoC (s_norm m) <> RtoC 0) by (intros E; apply NZ; now injection E).
  rewrite (far_ext (d_h d) (d_w d) _ g); try assumption.
  - rewrite nrm2_Cmod. now apply C74_sharp_pattern.
  - intros u v _ _. unfold simple_exit. change (s_probe m u v) with (g u v / RtoC (s_norm m))%C. change (s_obj m _ _) with (RtoC 1). field. exact NZC.
Qed.
Print Assumptions C75_simple.

(** The two exposures of C74's case, with default options, meet the
    hypotheses. *)
Definition defaults (near : bool) (os : nat) : options := {|
  op_n_modes := 1; op_randomize := 0; op_dm_rank := None; op_planes := 1; op_scale := 1; op_saturation := None; op_radius := None;
  op_crop := None; op_pd := None; op_mode := SNone; op_os := os; op_fourier := false; op_shifts := false; op_simulate := false;
  op_exp := false; op_phase_only := false; op_pad := 0; op_near := near; op_qe := false |}.
Definition quiet : chance := {| rand_mode := fun _ _ _ => RtoC 0; rand_obj := fun _ _ => 0 |}.
Example C75_case : usable two_shots /\ sensible two_shots (defaults false 1) /\ plain_start (defaults false 1) /\ 0 < signal two_shots 1 1 /\ shot_weight two_shots 1 1 /\
  (exists m, fancy_from_dataset two_shots (defaults false 1) quiet = Ok m /\ exists r, fancy_pattern m (Alone 1) (1, 2, 0) = Ok r /\ r 1%nat 1%nat = 7 / 2 + / 10 ^ 7) /\
  no_evanescent two_shots (defaults true 1).
Proof.
  destruct C74_case as (U & _ & S11 & _ & _).
  assert (SE : forall near, sensible two_shots (defaults near 1)).
  { intros near. unfold sensible, modes_used. cbn. repeat split; try lia; try lra; try discriminate. }
  assert (PS : plain_start (defaults false 1)) by (unfold plain_start; cbn; repeat split; lia).
  assert (SP : 0 < signal two_shots 1 1) by (rewrite S11; lra).
  split; [exact U|]. split; [apply SE|]. split; [exact PS|]. split; [exact SP|]. split; [reflexivity|]. split.
  - destruct (C75_initial_pattern two_shots (defaults false 1) quiet 1 (1, 2, 0) 1 U (SE false) PS eq_refl eq_refl) as (m & E & V).
    + discriminate.
    + exists 1%nat, 1%nat. cbn. repeat split; try lia; try exact SP. now left.
    + reflexivity.
    + reflexivity.
    + exists m. split; [exact E|]. destruct (V (Alone 1) eq_refl) as (r & R & W). exists r. split; [exact R|].
      destruct (W 1%nat 1%nat ltac:(cbn; lia) ltac:(cbn; lia)) as [W1 _]. rewrite W1; [|exact I|exact I|now left]. rewrite S11.
      unfold reading, start_background. cbn. pose proof (sqrt_sqrt 2 ltac:(lra)). lra.
  - intros _. assert (G : forall k l, (k < 2)%nat -> (l < 2)%nat -> Cmod (gen_propagator 2 2 (0, - (1), 0) (- (1), 0, 0) 1 (0, 0, 10) None k l) = 1).
    { intros k l Hk Hl. assert (E : gen_propagator 2 2 (0, - (1), 0) (- (1), 0, 0) 1 (0, 0, 10) None k l = as_propagator 2 2 1 1 1 10 None k l).
      { unfold as_propagator. destruct (Rlt_dec 10 0); [lra|reflexivity]. }
      rewrite E. apply C27_modulus; try lra. unfold propagating, kpar2.
      assert (B : forall k, (k < 2)%nat -> (freq 2 k) ^ 2 <= 1 / 4).
      { intros k' Hk'. do 2 (destruct k' as [|k']; [unfold freq; cbn; nra|]). lia. }
      pose proof (B k Hk). pose proof (B l Hl). pose proof PI_RGT_0.
      replace ((2 * PI * freq 2 k / 1) ^ 2 + (2 * PI * freq 2 l / 1) ^ 2) with (4 * PI ^ 2 * (freq 2 k ^ 2 + freq 2 l ^ 2)) by field.
      replace ((2 * PI / 1) ^ 2) with (4 * PI ^ 2) by field. assert (0 < PI ^ 2) by nra. nra. }
    unfold near_geometry. cbn [defaults op_pd op_os two_shots d_b0 d_b1 d_dist d_wl d_h d_w]. 
    assert (V0 : vscale (/ INR 1) (0, -1, 0) = (0, - (1), 0)) by (unfold vscale, vx, vy, vz; cbn; f_equal; [f_equal|]; field).
    assert (V1 : vscale (/ INR 1) (-1, 0, 0) = (- (1), 0, 0)) by (unfold vscale, vx, vy, vz; cbn; f_equal; [f_equal|]; field).
    rewrite V0, V1, !Nat.mul_1_r. split; exact G.
Qed.
