(** Lemmas about Multislice2DPtycho. *)
From Verif Require Import Base FinSum Fourier Model_Prop Spec_Prop Proofs_Prop Model_Image Spec_Image Proofs_Image
  Model_Interact Spec_Interact Proofs_Interact Model_Meas Spec_Meas Proofs_Meas Model_Geom Model_Models Model_Forward Spec_Forward Proofs_Forward Proofs_ForwardSym Properties_Multislice Model_Multi2D Spec_Multi2D.
From Coquelicot Require Import Complex.
From Flocq Require Import Core.Raux Core.Round_NE.
Local Open Scope R_scope.

Lemma double_centred n : Nat.even n = true -> centred_in n (2 * n).
Proof. intros E. split; [lia|now left]. Qed.
Lemma up_left_half n : Nat.even n = true -> up_left 2 n = (2 * n / 2 - n / 2)%nat.
Proof.
  intros E. unfold up_left. apply Nat.even_spec in E. destruct E as [q ->]. cbn [Nat.sub]. rewrite Nat.mul_1_l.
  replace (2 * (2 * q))%nat with (2 * q * 2)%nat by lia. rewrite Nat.div_mul by lia. replace (2 * q)%nat with (q * 2)%nat by lia. rewrite Nat.div_mul by lia. lia.
Qed.
Lemma upsample_illumination N M x : (0 < N)%nat -> (0 < M)%nat -> Nat.even N = true -> Nat.even M = true ->
  same (2 * N) (2 * M) (fourier_upsample N M x 2 false) (illumination N M (2 * N) (2 * M) x 0 0).
Proof.
  intros HN HM EN EM i j Hi Hj. rewrite <- illumination_zero by (try assumption; now apply double_centred).
  unfold fourier_pad. destruct (Nat.eqb_spec N (2 * N)); [lia|]. cbn [andb].
  unfold fourier_upsample. apply inv_far_ext; try lia. intros a b Ha Hb. unfold pad_img.
  rewrite !pad_axis_some by now apply double_centred. unfold embed. rewrite !up_left_half by assumption.
  destruct (Nat.leb (2 * N / 2 - N / 2) a && Nat.ltb a (2 * N / 2 - N / 2 + N))%bool; cbn [andb]; [|reflexivity].
  now destruct (Nat.leb (2 * M / 2 - M / 2) b && Nat.ltb b (2 * M / 2 - M / 2 + M))%bool.
Qed.
Lemma defect_even n : Nat.even n = true -> defect 2 n = 0%Z.
Proof. intros E. rewrite defect_value by lia. rewrite <- Nat.negb_even, E. reflexivity. Qed.
Lemma upsample_interp N M x : (0 < N)%nat -> (0 < M)%nat -> Nat.even N = true -> Nat.even M = true ->
  same (2 * N) (2 * M) (fourier_upsample N M x 2 true) (fun i j => trig_interp N M x (IZR (off (2 * N) i) / 2) (IZR (off (2 * M) j) / 2)).
Proof.
  intros HN HM EN EM i j Hi Hj. rewrite upsample_formula by lia. rewrite !defect_even by assumption. rewrite !Z.mul_0_l, Z.opp_0, !w_0 by lia.
  unfold trig_interp. replace (RtoC (/ sqrt (INR (N * M))) * (1 * 1))%C with (RtoC (/ sqrt (INR (N * M)))) by ring. f_equal.
  apply csum_ext. intros k Hk. apply csum_ext. intros l Hl. rewrite far_centred by assumption. f_equal.
  unfold w. rewrite <- cis_add. f_equal. rewrite !mult_IZR, !mult_INR. change (INR 2) with 2. pose proof (INRn N HN). pose proof (INRn M HM). field. auto.
Qed.
Lemma u_N0_grain u : u_N0 u = (grain u * f_n0 (u_base u))%nat.
Proof. reflexivity. Qed.
Lemma u_N1_grain u : u_N1 u = (grain u * f_n1 (u_base u))%nat.
Proof. reflexivity. Qed.
Lemma same_illumination n0 n1 x : (0 < n0)%nat -> (0 < n1)%nat -> same n0 n1 (illumination n0 n1 n0 n1 x 0 0) x.
Proof.
  intros H0 H1 i j Hi Hj. rewrite <- illumination_zero; try assumption.
  - unfold fourier_pad. now rewrite !Nat.eqb_refl.
  - split; [lia|]. destruct (Nat.even n0); auto.
  - split; [lia|]. destruct (Nat.even n1); auto.
Qed.
Definition lifted (u : multi2d) : list img :=
  if u_alias u then map (fun p => fourier_upsample (f_n0 (u_base u)) (f_n1 (u_base u)) p 2 false) (fancy_basis (u_base u)) else fancy_basis (u_base u).
Lemma lifted_length u : length (lifted u) = length (f_probe (u_base u)).
Proof. unfold lifted, fancy_basis. destruct (u_alias u); now rewrite ?map_length. Qed.
Lemma lifted_nth u pos q : u_fits u pos -> (q < length (f_probe (u_base u)))%nat -> let m := u_base u in
  same (u_N0 u) (u_N1 u) (nth q (lifted u) no_img) (illumination (f_n0 m) (f_n1 m) (u_N0 u) (u_N1 u) (nth q (fancy_basis m) no_img) 0 0).
Proof.
  intros (n0p & n1p & _ & EV & _) Hq m. unfold lifted, u_N0, u_N1. fold m in n0p, n1p, EV |- *. destruct (u_alias u).
  - destruct (EV eq_refl) as [E0 E1]. rewrite (nth_map_in _ _ no_img) by (unfold fancy_basis; rewrite map_length; exact Hq). now apply upsample_illumination.
  - rewrite !Nat.mul_1_l. intros i j Hi Hj. symmetry. now apply same_illumination.
Qed.
Lemma u_modes u pos ix rows W : u_fits u pos -> u_coefficients u ix rows W -> let m := u_base u in
  exists prs, shot_modes (f_weights m) ix (lifted u) = Ok prs /\ length prs = rows /\
  forall k, (k < rows)%nat -> same (u_N0 u) (u_N1 u) (nth k prs no_img) (illumination (f_n0 m) (f_n1 m) (u_N0 u) (u_N1 u) (shot m W k) 0 0).
Proof.
  intros HF [NW HC] m. fold m in NW, HC.
  pose proof (illumination_linear (f_n0 m) (f_n1 m) (u_N0 u) (u_N1 u) 0 0) as LIN.
  destruct (f_weights m) as [|l|r l]; [congruence| |]; cbn [coefficients] in HC.
  - destruct HC as (c & E & -> & ->). unfold shot_modes, entry. rewrite E. cbn [rbind]. eexists. split; [reflexivity|]. split; [rewrite map_length; apply lifted_length|].
    intros k Hk i j Hi Hj. rewrite (nth_map_in _ _ no_img) by (rewrite lifted_length; exact Hk). unfold scale_img. rewrite (lifted_nth u pos k HF Hk i j Hi Hj).
    fold m. rewrite <- (lin_scal _ _ _ _ _ (RtoC c) _ LIN i j Hi Hj). apply (proj1 LIN); try assumption.
    intros a b _ _. rewrite <- mix_basis, csum_diag by exact Hk. reflexivity.
  - destruct HC as (E & ->). unfold shot_modes, entry. rewrite E. cbn [rbind]. eexists. split; [reflexivity|]. split; [now rewrite map_length, seq_length|].
    intros k Hk i j Hi Hj. rewrite nth_map_seq by exact Hk. rewrite lifted_length.
    rewrite (csum_ext _ _ (fun q => (W k q * illumination (f_n0 m) (f_n1 m) (u_N0 u) (u_N1 u) (nth q (fancy_basis m) no_img) 0 0 i j)%C)).
    2:{ intros q Hq. f_equal. now apply (lifted_nth u pos q HF Hq). }
    change (comb (length (f_probe (u_base u))) (W k) (fun q => illumination (f_n0 m) (f_n1 m) (u_N0 u) (u_N1 u) (nth q (fancy_basis m) no_img) 0 0) i j =
            illumination (f_n0 m) (f_n1 m) (u_N0 u) (u_N1 u) (shot m W k) 0 0 i j).
    rewrite <- (proj2 LIN (length (f_probe (u_base u))) (W k) (fun q => nth q (fancy_basis m) no_img) i j Hi Hj).
    apply (proj1 LIN); try assumption. intros a b _ _. unfold comb. apply (mix_basis m W k a b).
Qed.

(** one plane *)
Lemma half_double n : (2 * n / 2 = n)%nat.
Proof. rewrite Nat.mul_comm. apply Nat.div_mul. lia. Qed.
Lemma window_next u pos o w : u_fits u pos -> (u_subpixel u = false \/ 2 <= u_nz u)%nat -> let m := u_base u in
  let o' := fun a b => transmission (f_exp m) (f_phase_only m) (o a b) in
  exists y, (if u_alias u then round_upsampled (f_H m) (f_W m) o' (u_N0 u) (u_N1 u) w pos
             else ptycho_2D_round (f_H m) (f_W m) o' (u_N0 u) (u_N1 u) w pos) = Some y /\
  same (u_N0 u) (u_N1 u) y (fun i j => (w i j * seen u o (ZnearestE (fst pos)) (ZnearestE (snd pos)) i j)%C).
Proof.
  intros (n0p & n1p & _ & EV & NR & _) Q m o'. fold m in n0p, n1p, EV, NR |- *. destruct (NR Q) as [[A0 A1] [B0 B1]].
  unfold u_N0, u_N1, seen. fold m. destruct (u_alias u).
  - destruct (EV eq_refl) as [E0 E1]. unfold round_upsampled. rewrite !half_double, window_some by lia. cbn [option_map]. eexists. split; [reflexivity|].
    intros i j Hi Hj. unfold times_img. f_equal. rewrite upsample_interp by assumption. apply trig_ext. intros a b _ _. apply transmit_spec.
  - unfold ptycho_2D_round. rewrite !Nat.mul_1_l, window_some by lia. cbn [option_map]. eexists. split; [reflexivity|].
    intros i j Hi Hj. unfold times_img. f_equal. apply transmit_spec.
Qed.
Lemma window_first u pos o w : u_fits u pos -> u_subpixel u = true -> (0 < u_N0 u)%nat -> (0 < u_N1 u)%nat -> let m := u_base u in
  let o' := fun a b => transmission (f_exp m) (f_phase_only m) (o a b) in
  exists y, ptycho_2D_sinc (f_H m) (f_W m) o' (u_N0 u) (u_N1 u) w pos false = Some y /\ same (u_N0 u) (u_N1 u) y (behind_first u pos o w).
Proof.
  intros (n0p & n1p & _ & _ & _ & FL) Q P0 P1 m o'. destruct (FL Q) as [A B]. rewrite <- u_N0_grain in A. rewrite <- u_N1_grain in B.
  rewrite sinc_value by assumption. cbn zeta. eexists. split; [reflexivity|]. intros i j Hi Hj. unfold behind_first. rewrite Q, <- u_N0_grain, <- u_N1_grain.
  unfold times_img. rewrite shift_formula by assumption. unfold sub_part. f_equal. apply transmit_spec.
Qed.
Lemma behind_first_same u pos o x y : same (u_N0 u) (u_N1 u) x y -> same (u_N0 u) (u_N1 u) (behind_first u pos o x) (behind_first u pos o y).
Proof.
  intros S i j Hi Hj. unfold behind_first. rewrite <- u_N0_grain, <- u_N1_grain. destruct (u_subpixel u); f_equal; [now apply trig_ext|now apply S].
Qed.
Lemma behind_next_same u pos o x y : same (u_N0 u) (u_N1 u) x y -> same (u_N0 u) (u_N1 u) (behind_next u pos x o) (behind_next u pos y o).
Proof.
  intros S i j Hi Hj. unfold behind_next. rewrite <- u_N0_grain, <- u_N1_grain. f_equal. apply near_ext; [exact S|now intros ? ? _ _].
Qed.
(** plane i of the object *)
Definition has_planes (u : multi2d) (i : nat) (l : list (Z -> Z -> C)) : Prop :=
  forall k, (k < length l)%nat -> plane (u_planes u) (i + k) = Ok (nth k l (fun _ _ => RtoC 0)).
Lemma crossed_planes u l : crossed u l -> length l = u_nz u /\ has_planes u 0 l.
Proof.
  unfold crossed, has_planes, plane. destruct (u_planes u) as [o|s].
  - intros ->. rewrite repeat_length. split; [reflexivity|]. intros k Hk. f_equal. rewrite (nth_indep _ _ o) by (rewrite repeat_length; exact Hk). symmetry. apply nth_repeat.
  - intros [L ->]. rewrite firstn_length, Nat.min_l by exact L. split; [reflexivity|]. intros k Hk. cbn [Nat.add]. unfold entry.
    rewrite (nth_error_nth' s (fun _ _ => RtoC 0)) by lia. f_equal. rewrite <- (firstn_skipn (u_nz u) s) at 1. rewrite app_nth1; [reflexivity|]. rewrite firstn_length. lia.
Qed.

Lemma fold_same u pos l x y : same (u_N0 u) (u_N1 u) x y -> same (u_N0 u) (u_N1 u) (fold_left (behind_next u pos) l x) (fold_left (behind_next u pos) l y).
Proof. revert x y. induction l as [|o l IH]; intros x y S; [exact S|]. cbn [fold_left]. apply IH. now apply behind_next_same. Qed.
Lemma plane_next u pos i o w : u_fits u pos -> (u_subpixel u = false \/ 2 <= u_nz u)%nat -> (u_subpixel u = false \/ 1 <= i)%nat -> plane (u_planes u) i = Ok o ->
  exists y, through_plane u pos i w = Ok y /\ same (u_N0 u) (u_N1 u) y (fun a b => (w a b * seen u o (ZnearestE (fst pos)) (ZnearestE (snd pos)) a b)%C).
Proof.
  intros HF Q Hi HP. unfold through_plane. rewrite HP. cbn [rbind].
  replace (Nat.eqb i 0 && u_subpixel u)%bool with false.
  2:{ destruct Hi as [H|H]; [rewrite H; now rewrite andb_false_r|]. destruct i; [lia|reflexivity]. }
  destruct (window_next u pos o w HF Q) as (y & E & S). exists y. split; [|exact S]. now rewrite E.
Qed.
Lemma plane_first u pos o w : u_fits u pos -> (0 < u_N0 u)%nat -> (0 < u_N1 u)%nat -> plane (u_planes u) 0 = Ok o ->
  exists y, through_plane u pos 0 w = Ok y /\ same (u_N0 u) (u_N1 u) y (behind_first u pos o w).
Proof.
  intros HF P0 P1 HP. destruct (u_subpixel u) eqn:SB.
  - unfold through_plane. rewrite HP, SB. cbn [rbind Nat.eqb andb]. destruct (window_first u pos o w HF SB P0 P1) as (y & E & S). exists y. split; [|exact S]. now rewrite E.
  - destruct (plane_next u pos 0 o w HF (or_introl SB) (or_introl SB) HP) as (y & E & S). exists y. split; [exact E|].
    intros i j Hi Hj. rewrite (S i j Hi Hj). unfold behind_first. now rewrite SB.
Qed.
Lemma through_next u pos l : u_fits u pos -> (u_subpixel u = false \/ 2 <= u_nz u)%nat -> forall i w, (1 <= i)%nat -> l <> [] -> has_planes u i l ->
  exists y, through_planes u pos (length l) i (near_field (u_N0 u) (u_N1 u) w (u_prop u)) = Ok y /\ same (u_N0 u) (u_N1 u) y (fold_left (behind_next u pos) l w).
Proof.
  intros HF Q. induction l as [|o l IH]; intros i w Hi Hl HP; [congruence|].
  assert (HP0 : plane (u_planes u) i = Ok o) by (specialize (HP 0%nat ltac:(cbn; lia)); now rewrite Nat.add_0_r in HP).
  destruct (plane_next u pos i o (near_field (u_N0 u) (u_N1 u) w (u_prop u)) HF Q (or_intror Hi) HP0) as (y & E & S).
  assert (S' : same (u_N0 u) (u_N1 u) y (behind_next u pos w o)) by exact S.
  cbn [length through_planes]. rewrite E. cbn [rbind]. destruct l as [|o' l].
  - cbn [length Nat.eqb through_planes fold_left]. exists y. split; [reflexivity|exact S'].
  - destruct (IH (Datatypes.S i) y ltac:(lia) ltac:(discriminate)) as (z & E2 & S2).
    { intros k Hk. specialize (HP (Datatypes.S k) ltac:(cbn in *; lia)). now rewrite Nat.add_succ_r in HP. }
    exists z. split; [exact E2|]. intros a b Ha Hb. rewrite (S2 a b Ha Hb). cbn [fold_left]. apply (fold_same u pos (o' :: l)); [exact S'|exact Ha|exact Hb].
Qed.
Lemma through_all u pos l w : u_fits u pos -> crossed u l ->
  exists y, through_planes u pos (u_nz u) 0 w = Ok y /\
  same (u_N0 u) (u_N1 u) y (match l with [] => w | o :: rest => fold_left (behind_next u pos) rest (behind_first u pos o w) end).
Proof.
  intros HF HC. destruct (crossed_planes u l HC) as [HL HP].
  assert (P : (0 < u_N0 u)%nat /\ (0 < u_N1 u)%nat) by (destruct HF as (A & B & _); unfold u_N0, u_N1; destruct (u_alias u); lia). destruct P as [P0 P1].
  rewrite <- HL. destruct l as [|o l].
  - exists w. split; [reflexivity|now intros ? ? _ _].
  - destruct (plane_first u pos o w HF P0 P1 (HP 0%nat ltac:(cbn; lia))) as (y & E & S). cbn [length through_planes]. rewrite E. cbn [rbind].
    destruct l as [|o' l].
    + exists y. split; [reflexivity|exact S].
    + destruct (through_next u pos (o' :: l) HF) with (i := 1%nat) (w := y) as (z & E2 & S2); try lia; try discriminate.
      * right. cbn in HL. lia.
      * intros k Hk. apply (HP (Datatypes.S k)). cbn in *. lia.
      * exists z. split; [exact E2|]. intros a b Ha Hb. rewrite (S2 a b Ha Hb). now apply (fold_same u pos (o' :: l)).
Qed.
Lemma waves_of u ix t pos rows W l : position (u_base u) ix t pos -> u_coefficients u ix rows W -> crossed u l -> u_fits u pos ->
  exists ws, multi2d_interaction u ix t = Ok ws /\ length ws = rows /\
  forall k, (k < rows)%nat -> same (u_N0 u) (u_N1 u) (nth k ws no_img) (multi2d_wave u pos l (shot (u_base u) W k)).
Proof.
  intros HP HC HX HF. destruct (u_modes u pos ix rows W HF HC) as (prs & E & L & V). cbv zeta in E, V.
  assert (ES : match f_weights (u_base u) with NoWeights => Raise TypeError | w => shot_modes w ix (lifted u) end = Ok prs).
  { rewrite <- E. destruct HC as [NW _]. destruct (f_weights (u_base u)); [congruence|reflexivity|reflexivity]. }
  unfold multi2d_interaction. rewrite (position_spec _ _ _ _ HP). cbn [rbind]. fold (lifted u). rewrite ES. cbn [rbind].
  assert (G : forall xs, exists ws, all_ok (map (fun p => through_planes u pos (u_nz u) 0 (scale_img (f_norm (u_base u)) p)) xs) = Ok ws /\ length ws = length xs /\
     forall k, (k < length xs)%nat -> same (u_N0 u) (u_N1 u) (nth k ws no_img)
       (match l with [] => scale_img (f_norm (u_base u)) (nth k xs no_img) | o :: rest => fold_left (behind_next u pos) rest (behind_first u pos o (scale_img (f_norm (u_base u)) (nth k xs no_img))) end)).
  { induction xs as [|x xs (ws & E1 & L1 & V1)].
    - exists []. split; [reflexivity|]. split; [reflexivity|]. cbn. lia.
    - destruct (through_all u pos l (scale_img (f_norm (u_base u)) x) HF HX) as (y & Ey & Sy). exists (y :: ws). cbn [map all_ok]. rewrite Ey. cbn [rbind]. rewrite E1. cbn [rbind].
      split; [reflexivity|]. split; [cbn; lia|]. intros [|k] Hk; cbn [nth]; [exact Sy|]. apply V1. cbn in Hk. lia. }
  destruct (G prs) as (ws & E1 & L1 & V1). exists ws. split; [exact E1|]. split; [lia|]. intros k Hk a b Ha Hb.
  rewrite (V1 k ltac:(lia) a b Ha Hb). unfold multi2d_wave. rewrite <- u_N0_grain, <- u_N1_grain.
  assert (S : same (u_N0 u) (u_N1 u) (scale_img (f_norm (u_base u)) (nth k prs no_img)) (fun i j => (RtoC (f_norm (u_base u)) * illumination (f_n0 (u_base u)) (f_n1 (u_base u)) (u_N0 u) (u_N1 u) (shot (u_base u) W k) 0 0 i j)%C)).
  { intros i j Hi Hj. unfold scale_img. f_equal. now apply V. }
  destruct l as [|o l]; [now apply S|]. apply fold_same; [|exact Ha|exact Hb]. now apply behind_first_same.
Qed.
