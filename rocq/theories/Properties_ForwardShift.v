(** Probe Fourier shifts of FancyPtycho (C65). *)
From Verif Require Import Base FinSum Fourier Model_Prop Spec_Prop Proofs_Prop Model_Image Spec_Image Proofs_Image
  Model_Interact Spec_Interact Proofs_Interact Model_Meas Spec_Meas Proofs_Meas Model_Geom Model_Models Model_Forward Spec_Forward Proofs_Forward Properties_Forward Proofs_ForwardSym Properties_ForwardSym Properties_ForwardPower.
From Coquelicot Require Import Complex.
From Flocq Require Import Core.Raux.
Local Open Scope R_scope.

Lemma mask_of m i t d : asked_shift m i t d -> fancy_mask m (Listed i) t = Ok (Some (probe_mask (f_n0 m) (f_n1 m) (f_os m) d)).
Proof.
  intros (l & x & E & N & D). unfold fancy_mask. rewrite E. cbn [the]. unfold entry. rewrite N. cbn [rbind]. do 3 f_equal. cbv zeta in D. rewrite D.
  destruct (f_simulate m); [|reflexivity]. unfold padd2. now destruct (translations_to_pixel _ _ _ _), x.
Qed.
Lemma ramped_mask m d E k i j : times_img (E k) (probe_mask (f_n0 m) (f_n1 m) (f_os m) d) i j = ramped m d E k i j.
Proof. unfold times_img, probe_mask, ramped, ramp_phase. do 2 f_equal. unfold Rdiv. ring. Qed.
Lemma exits_ext m E E' rows pos : (forall k, same (f_n0 m) (f_n1 m) (E k) (E' k)) ->
  length (exits m E rows pos) = length (exits m E' rows pos) /\
  forall k, (k < length (exits m E rows pos))%nat -> same (fancy_N0 m) (fancy_N1 m) (nth k (exits m E rows pos) no_img) (nth k (exits m E' rows pos) no_img).
Proof.
  intros H. unfold exits. rewrite !map_length. split; [reflexivity|]. rewrite seq_length. intros k Hk. rewrite !nth_map_seq by exact Hk.
  apply (proj1 (exit_linear m (sel (obj_planes m) k) pos)). apply H.
Qed.

(** C65: with probe_fourier_shifts, for a list of indices, the simulated pattern is that of C62 with every probe
    mode multiplied by the phase ramp of the exposure's shift (to which simulate_probe_translation adds the
    sample translation in detector pixels). *)
Theorem C65_pattern : forall m i t pos rows W d, asked_shift m i t d ->
  position m (Listed i) t pos -> coefficients (f_weights m) (Listed i) (length (f_probe m)) rows W -> fits m rows pos ->
  (forall q i j, f_qe m = Some q -> 0 <= q i j) ->
  exists r, fancy_pattern m (Listed i) t = Ok r /\ forall a b, (a < f_det0 m)%nat -> (b < f_det1 m)%nat ->
   r a b = reading (f_saturation m) (f_qe m) (f_background m) a b
             (photons (f_os m) (map (at_detector m) (exits m (ramped m d (shot m W)) rows pos)) a b + / 10 ^ 7).
Proof.
  intros m i t pos rows W d HD HP HC HF HQ.
  destruct (fancy_exits m (Listed i) t pos rows W _ HP HC (mask_of m i t d HD) HF) as (ws & E & L & V). cbn [masked] in L, V.
  destruct (exits_ext m (fun q => times_img (shot m W q) (probe_mask (f_n0 m) (f_n1 m) (f_os m) d)) (ramped m d (shot m W)) rows pos) as [L2 V2].
  { intros k a b _ _. apply ramped_mask. }
  apply (pattern_of m (Listed i) t ws); try apply HF.
  - intros a b. destruct (f_qe m) as [q|] eqn:Q; [now apply HQ|lra].
  - exact E.
  - now rewrite L.
  - intros k Hk a b Ha Hb. rewrite (V k Hk a b Ha Hb). apply V2; try assumption. now rewrite <- L.
Qed.
Print Assumptions C65_pattern.

Lemma off_circ N k p : (0 < N)%nat -> ((off N (circ N (Z.of_nat k - p))) mod Z.of_nat N = (off N k - p) mod Z.of_nat N)%Z.
Proof.
  intros H. unfold off. rewrite circ_Z by exact H. rewrite Zminus_mod_idemp_l. f_equal. lia.
Qed.
Lemma centred_w N M x k l : (0 < N)%nat -> (0 < M)%nat -> centred_ft N M x k l =
  (RtoC (/ sqrt (INR (N * M))) * csum N (fun a => csum M (fun b => x a b * (w N (- (off N k * off N a)) * w M (- (off M l * off M b))))))%C.
Proof.
  intros HN HM. unfold centred_ft. f_equal. apply csum_ext. intros a _. apply csum_ext. intros b _. f_equal. unfold w. rewrite <- cis_add. f_equal.
  rewrite !opp_IZR. unfold Rdiv. ring.
Qed.
(** a phase ramp of p, q cycles over the image moves its centred Fourier transform by p, q pixels *)
Lemma centred_ramp N M x p q k l : (0 < N)%nat -> (0 < M)%nat ->
  centred_ft N M (fun a b => (x a b * (w N (p * Z.of_nat a) * w M (q * Z.of_nat b)))%C) k l =
  (w N (p * Z.of_nat (N / 2)) * w M (q * Z.of_nat (M / 2)) * centred_ft N M x (circ N (Z.of_nat k - p)) (circ M (Z.of_nat l - q)))%C.
Proof.
  intros HN HM. rewrite !centred_w by assumption.
  match goal with |- (?c * ?s = ?u * ?v * (?c' * ?s'))%C => replace (u * v * (c' * s'))%C with (c * (u * v * s'))%C by ring end. f_equal.
  rewrite csum_scal. apply csum_ext. intros a _. rewrite csum_scal. apply csum_ext. intros b _.
  assert (G : forall n k a p, (0 < n)%nat -> w n (- (off n (circ n (Z.of_nat k - p)) * off n a)) = (w n (- (off n k * off n a)) * w n (p * off n a))%C).
  { intros n k0 a0 p0 Hn. rewrite <- w_add by exact Hn. apply w_congr; [exact Hn|]. rewrite <- Z.mul_opp_r, Zmult_mod, off_circ, <- Zmult_mod by exact Hn. f_equal. ring. }
  rewrite !G by assumption.
  assert (D : forall n a p, (0 < n)%nat -> w n (p * Z.of_nat a) = (w n (p * Z.of_nat (n / 2)) * w n (p * off n a))%C).
  { intros n a0 p0 Hn. rewrite <- w_add by exact Hn. f_equal. unfold off. ring. }
  rewrite (D N a p), (D M b q) by assumption. ring.
Qed.

(** C65: at a whole-pixel position, without cropping, the pattern of an exposure with the shift
    (z0 (n0 - 1)/n0, z1 (n1 - 1)/n1) is the pattern without shift, moved by (z0, z1) detector pixels
    (circularly): the simulated shift is n/(n-1) times the one asked for. *)
Theorem C65_moves : forall m i t a0 b0 rows W d z0 z1, asked_shift m i t d -> f_near m = false ->
  position m (Listed i) t (IZR a0, IZR b0) -> coefficients (f_weights m) (Listed i) (length (f_probe m)) rows W -> fits m rows (IZR a0, IZR b0) ->
  f_n0 m = (f_os m * f_det0 m)%nat -> f_n1 m = (f_os m * f_det1 m)%nat -> (2 <= f_n0 m)%nat -> (2 <= f_n1 m)%nat ->
  fst d * INR (f_n0 m) = IZR z0 * INR (f_n0 m - 1) -> snd d * INR (f_n1 m) = IZR z1 * INR (f_n1 m - 1) ->
  f_qe m = None ->
  exists r, fancy_pattern m (Listed i) t = Ok r /\ forall a b, (a < f_det0 m)%nat -> (b < f_det1 m)%nat ->
   r a b = reading (f_saturation m) None (f_background m) a b
             (photons (f_os m) (map (at_detector m) (exits m (shot m W) rows (IZR a0, IZR b0)))
                (circ (f_det0 m) (Z.of_nat a - z0)) (circ (f_det1 m) (Z.of_nat b - z1)) + / 10 ^ 7).
Proof.
  intros m i t a0 b0 rows W d z0 z1 HD NF HP HC HF N0 N1 G0 G1 D0 D1 HQ.
  destruct (C65_pattern m i t _ rows W d HD HP HC HF) as (r & R1 & R2); [rewrite HQ; discriminate|].
  exists r. split; [exact R1|]. intros a b Ha Hb. rewrite R2 by assumption. rewrite HQ. f_equal. f_equal.
  assert (OS : (0 < f_os m)%nat) by apply HF.
  unfold photons. f_equal. unfold exits. rewrite !map_map. apply lsum_ext. intros k _. apply rsum_ext. intros u Hu. apply rsum_ext. intros v Hv.
  unfold at_detector. rewrite NF. rewrite <- N0, <- N1.
  set (k1 := sel rows k). set (k2 := sel (obj_planes m) k).
  set (p0 := (z0 * Z.of_nat (f_os m))%Z). set (p1 := (z1 * Z.of_nat (f_os m))%Z).
  assert (CE : forall x y, same (f_n0 m) (f_n1 m) x y -> forall e f, centred_ft (f_n0 m) (f_n1 m) x e f = centred_ft (f_n0 m) (f_n1 m) y e f).
  { intros x y H e f. unfold centred_ft. f_equal. apply csum_ext. intros n Hn. apply csum_ext. intros n' Hn'. now rewrite H. }
  rewrite (CE (exit_wave m (ramped m d (shot m W) k1) k2 (IZR a0, IZR b0)) (fun e f => (exit_wave m (shot m W k1) k2 (IZR a0, IZR b0) e f * (w (f_n0 m) (p0 * Z.of_nat e) * w (f_n1 m) (p1 * Z.of_nat f)))%C)).
  2:{ intros e f He Hf. rewrite !C62_whole_pixel by assumption. unfold ramped.
      replace (cis (2 * PI * INR (f_os m) * (fst d * INR e / INR (f_n0 m - 1) + snd d * INR f / INR (f_n1 m - 1)))) with (w (f_n0 m) (p0 * Z.of_nat e) * w (f_n1 m) (p1 * Z.of_nat f))%C; [ring|].
      unfold w. rewrite <- cis_add. f_equal. unfold p0, p1. rewrite !mult_IZR, <- !INR_IZR_INZ.
      assert (Q0 : INR (f_n0 m) <> 0) by (apply INRn; lia). assert (Q1 : INR (f_n1 m) <> 0) by (apply INRn; lia).
      assert (P0 : INR (f_n0 m - 1) <> 0) by (apply INRn; lia). assert (P1 : INR (f_n1 m - 1) <> 0) by (apply INRn; lia).
      replace (fst d) with (IZR z0 * INR (f_n0 m - 1) / INR (f_n0 m)) by (rewrite <- D0; field; exact Q0).
      replace (snd d) with (IZR z1 * INR (f_n1 m - 1) / INR (f_n1 m)) by (rewrite <- D1; field; exact Q1).
      field. auto. }
  rewrite centred_ramp by lia. rewrite !nrm2_mult. rewrite !w_nrm2. rewrite !Rmult_1_l. do 2 f_equal.
  - rewrite N0. unfold p0. apply Nat2Z.inj. rewrite circ_Z by nia.
    replace (Z.of_nat (f_os m * a + u) - z0 * Z.of_nat (f_os m))%Z with (Z.of_nat u + Z.of_nat (f_os m) * (Z.of_nat a - z0))%Z by lia.
    rewrite Nat2Z.inj_add, !Nat2Z.inj_mul, circ_Z  by lia.
    set (c := (Z.of_nat a - z0)%Z). set (o := Z.of_nat (f_os m)). set (n := Z.of_nat (f_det0 m)).
    symmetry. apply (Z.mod_unique_pos _ _ (c / n)).
    + pose proof (Z.mod_pos_bound c n ltac:(lia)). split; [|nia]. nia.
    + pose proof (Z.div_mod c n ltac:(lia)). nia.
  - rewrite N1. unfold p1. apply Nat2Z.inj. rewrite circ_Z by nia.
    replace (Z.of_nat (f_os m * b + v) - z1 * Z.of_nat (f_os m))%Z with (Z.of_nat v + Z.of_nat (f_os m) * (Z.of_nat b - z1))%Z by lia.
    rewrite Nat2Z.inj_add, !Nat2Z.inj_mul, circ_Z  by lia.
    set (c := (Z.of_nat b - z1)%Z). set (o := Z.of_nat (f_os m)). set (n := Z.of_nat (f_det1 m)).
    symmetry. apply (Z.mod_unique_pos _ _ (c / n)).
    + pose proof (Z.mod_pos_bound c n ltac:(lia)). split; [|nia]. nia.
    + pose proof (Z.div_mod c n ltac:(lia)). nia.
Qed.
Print Assumptions C65_moves.
(** C65: defects: on a two-pixel probe a shift of one detector pixel is no shift at all; ... *)
Theorem C65_one_pixel_refuted : forall m E k i j, f_n0 m = 2%nat -> (i < 2)%nat -> ramped m (1, 0) E k i j = E k i j.
Proof.
  intros m E k i j N Hi. unfold ramped. rewrite N. cbn [fst snd].
  replace (2 * PI * INR (f_os m) * (1 * INR i / INR (2 - 1) + 0 * INR j / INR (f_n1 m - 1))) with (2 * PI * INR (f_os m * i)).
  - rewrite INR_IZR_INZ. rewrite cis_2PI_Z. ring.
  - rewrite mult_INR. change (INR (2 - 1)) with 1. unfold Rdiv. rewrite Rinv_1. ring.
Qed.
Print Assumptions C65_one_pixel_refuted.
(** ... a single (non-list) index is an IndexError for every model with shifts. *)
Theorem C65_single_index_refuted : forall m i t pos rows W d, asked_shift m i t d -> position m (Alone i) t pos ->
  coefficients (f_weights m) (Alone i) (length (f_probe m)) rows W -> fancy_pattern m (Alone i) t = Raise IndexError.
Proof.
  intros m i t pos rows W d (l & x & E & N & _) P C. destruct (shot_modes_spec m (Alone i) rows W C) as (prs & EP & _).
  unfold fancy_pattern, fancy_interaction. rewrite (position_spec _ _ _ _ P). cbn [rbind]. rewrite EP. cbn [rbind]. unfold fancy_mask. rewrite E. cbn [the]. unfold entry. rewrite N. reflexivity.
Qed.
Print Assumptions C65_single_index_refuted.
Example C65_case : let m := plain (Some [(0, 0); (3 / 4, - (3 / 4))]) in
  asked_shift m 1 (0, 0, 0) (3 / 4, - (3 / 4)) /\ position m (Listed 1) (0, 0, 0) (IZR 0, IZR 0) /\
  coefficients (f_weights m) (Listed 1) (length (f_probe m)) 2 (diag 3) /\ fits m 2 (IZR 0, IZR 0) /\
  3 / 4 * INR (f_n0 m) = IZR 1 * INR (f_n0 m - 1) /\ - (3 / 4) * INR (f_n1 m) = IZR (-1) * INR (f_n1 m - 1).
Proof.
  cbv zeta. split; [|destruct (plain_ok (Some [(0, 0); (3 / 4, - (3 / 4))]) (Listed 1) eq_refl) as (A & B & C); split; [exact A|split; [exact B|split; [exact C|]]]].
  - exists [(0, 0); (3 / 4, - (3 / 4))], (3 / 4, - (3 / 4)). auto.
  - cbn [plain f_n0 f_n1]. split; cbn; lra.
Qed.
