(** Property theorems about simulated measurements (C38). *)
From Verif Require Import Base FinSum Fourier Model_Prop Spec_Prop Model_Meas Spec_Meas Proofs_Meas.
From Coquelicot Require Import Complex.
Local Open Scope R_scope.

(** C38: below saturation every pattern pixel is the mean over its oversampling block of the power summed
    over the modes, plus epsilon - for every list of modes, factor and detector slice. *)
Theorem C38_value : forall o modes i j, (0 < o_over o)%nat -> 0 <= o_eps o ->
  let v := at_slice (o_slice o) (fun i j => block_power (o_over o) modes i j / INR (o_over o * o_over o)) i j + o_eps o in
  (forall s, o_sat o = Some s -> v <= s) -> incoherent_sum o modes i j = v.
Proof.
  intros o modes i j Hk He v Hs. rewrite incoherent_value by exact Hk. apply saturate_below; [|exact Hs].
  unfold v, at_slice. destruct (o_slice o) as [[r c]|]; pose proof (detector_nonneg (o_over o) modes) as D; [specialize (D (r + i)%nat (c + j)%nat Hk)|specialize (D i j Hk)]; unfold detector in *; lra.
Qed.
Print Assumptions C38_value.
(** C38: the values lie between epsilon and the saturation level, with or without background. *)
Theorem C38_bounds : forall o modes bg i j, (0 < o_over o)%nat -> 0 <= o_eps o -> (forall s, o_sat o = Some s -> o_eps o <= s) ->
  let ok := fun v => o_eps o <= v /\ forall s, o_sat o = Some s -> v <= s in
  ok (incoherent_sum o modes i j) /\ ok (quadratic_background o modes bg None i j) /\ (forall psi, ok (intensity o psi i j)).
Proof.
  intros o modes bg i j Hk He Hs ok.
  assert (N : forall m, 0 <= at_slice (o_slice o) (detector (o_over o) m) i j).
  { intros m. unfold at_slice. destruct (o_slice o) as [[r c]|]; now apply detector_nonneg. }
  assert (I : forall m, ok (incoherent_sum o m i j)).
  { intros m. rewrite incoherent_value by exact Hk. split; [|intros s E; now apply saturate_le]. apply saturate_ge; [|exact Hs]. specialize (N m). lra. }
  split; [apply I|]. split.
  - unfold quadratic_background. rewrite incoherent_value by exact Hk. cbn [o_slice o_eps o_sat o_over saturate].
    split; [|intros s E; now apply saturate_le]. apply saturate_ge; [|exact Hs]. specialize (N modes). pose proof (pow2_ge_0 (bg i j)). lra.
  - intros psi. rewrite intensity_is_sum. apply I.
Qed.
Print Assumptions C38_bounds.
(** C38: incoherent modes add: the pattern of two groups of modes is the sum of their patterns. *)
Theorem C38_additive : forall o m1 m2 i j, (0 < o_over o)%nat -> o_sat o = None ->
  incoherent_sum o (m1 ++ m2) i j - o_eps o = (incoherent_sum o m1 i j - o_eps o) + (incoherent_sum o m2 i j - o_eps o).
Proof.
  intros o m1 m2 i j Hk Hs. rewrite !incoherent_value, Hs by exact Hk. cbn [saturate].
  assert (D : forall a b, detector (o_over o) (m1 ++ m2) a b = detector (o_over o) m1 a b + detector (o_over o) m2 a b).
  { intros a b. unfold detector, block_power. rewrite map_app, lsum_app'. unfold Rdiv. ring. }
  unfold at_slice. destruct (o_slice o) as [[r c]|]; rewrite D; ring.
Qed.
Print Assumptions C38_additive.
(** C38: intensity is incoherent_sum of a single mode. *)
Theorem C38_single_mode : forall o psi i j, intensity o psi i j = incoherent_sum o [psi] i j.
Proof. exact intensity_is_sum. Qed.
Print Assumptions C38_single_mode.
(** C38: replacing the modes by an isometric mixture of them (in particular by an orthogonalised set, or
    by global phases) changes no pattern. *)
Theorem C38_mode_mixing : forall o u m n psi i j, (0 < o_over o)%nat -> isometry m n u ->
  incoherent_sum o (mix u n psi m) i j = incoherent_sum o (map psi (seq 0 n)) i j.
Proof.
  intros o u m n psi i j Hk U. rewrite !incoherent_value by exact Hk. do 2 f_equal.
  assert (D : forall a b, detector (o_over o) (mix u n psi m) a b = detector (o_over o) (map psi (seq 0 n)) a b).
  { intros a b. unfold detector, block_power. f_equal.
    rewrite <- !(rsum_lsum_swap (o_over o) (fun c (f : img) => rsum (o_over o) (fun d => nrm2 (f (a * o_over o + c)%nat (b * o_over o + d)%nat)))).
    apply rsum_ext. intros c _. rewrite <- !(rsum_lsum_swap (o_over o) (fun d (f : img) => nrm2 (f (a * o_over o + c)%nat (b * o_over o + d)%nat))).
    apply rsum_ext. intros d _. now apply mix_power. }
  unfold at_slice. destruct (o_slice o) as [[r c]|]; apply D.
Qed.
Print Assumptions C38_mode_mixing.
(** C38: photons are conserved: without slice and saturation, an n*k x m*k wavefield gives an n x m
    pattern whose sum, times the k^2 pixels per block, is the total power (plus epsilon per pixel). *)
Theorem C38_conserves_power : forall o modes n m, (0 < o_over o)%nat -> o_slice o = None -> o_sat o = None ->
  let k := o_over o in
  rsum n (fun i => rsum m (fun j => incoherent_sum o modes i j - o_eps o)) * INR (k * k) =
  lsum (map (fun psi => energy (n * k) (m * k) psi) modes).
Proof.
  intros o modes n m Hk Hsl Hs k.
  assert (KK : INR (k * k) <> 0) by (apply not_0_INR; unfold k; nia).
  rewrite (rsum_ext n _ (fun i => rsum m (fun j => block_power k modes i j * / INR (k * k)))).
  2:{ intros i _. apply rsum_ext. intros j _. rewrite incoherent_value, Hs, Hsl by exact Hk. cbn [saturate at_slice]. unfold detector. fold k. unfold Rdiv. ring. }
  rewrite (rsum_ext n _ (fun i => / INR (k * k) * rsum m (fun j => block_power k modes i j))).
  2:{ intros i _. rewrite rsum_scal. apply rsum_ext. intros; ring. }
  rewrite <- rsum_scal. rewrite Rmult_comm, <- Rmult_assoc, Rinv_r, Rmult_1_l by exact KK.
  unfold block_power. rewrite (rsum_ext n _ (fun i => lsum (map (fun psi : img => rsum m (fun j => rsum k (fun a => rsum k (fun b => nrm2 (psi (i * k + a)%nat (j * k + b)%nat))))) modes))).
  2:{ intros i _. apply (rsum_lsum_swap m (fun j (psi : img) => rsum k (fun a => rsum k (fun b => nrm2 (psi (i * k + a)%nat (j * k + b)%nat))))). }
  rewrite (rsum_lsum_swap n (fun i (psi : img) => rsum m (fun j => rsum k (fun a => rsum k (fun b => nrm2 (psi (i * k + a)%nat (j * k + b)%nat)))))).
  apply lsum_ext. intros psi _. unfold energy. rewrite rsum_block. apply rsum_ext. intros i _. rewrite rsum_swap. apply rsum_ext. intros a _.
  now rewrite rsum_block.
Qed.
Print Assumptions C38_conserves_power.
(** C38: the background only adds: the pattern never decreases when |background| grows, is never below the
    background-free one, and equals it when the background is 0; saturation applies to the sum. *)
Theorem C38_background : forall o modes bg bg' qe i j, (0 < o_over o)%nat -> 0 <= o_eps o ->
  (Rabs (bg i j) <= Rabs (bg' i j) -> quadratic_background o modes bg qe i j <= quadratic_background o modes bg' qe i j) /\
  incoherent_sum o modes i j <= quadratic_background o modes bg None i j /\
  (bg i j = 0 -> quadratic_background o modes bg None i j = incoherent_sum o modes i j).
Proof.
  intros o modes bg bg' qe i j Hk He. unfold quadratic_background. rewrite !incoherent_value by exact Hk. cbn [o_slice o_eps o_sat o_over saturate].
  split; [|split].
  - intros H. apply saturate_mono. apply Rplus_le_compat_l. rewrite <- (pow2_abs (bg i j)), <- (pow2_abs (bg' i j)). apply pow_incr. split; [apply Rabs_pos|exact H].
  - apply saturate_mono. pose proof (pow2_ge_0 (bg i j)). lra.
  - intros ->. f_equal. ring.
Qed.
Print Assumptions C38_background.
(** C38: below saturation, quadratic_background is that pattern (epsilon included), times the quantum
    efficiency of the pixel if one is given, plus the squared background. *)
Theorem C38_quantum_efficiency : forall o modes bg qe i j, (0 < o_over o)%nat ->
  let v := at_slice (o_slice o) (fun i j => block_power (o_over o) modes i j / INR (o_over o * o_over o)) i j + o_eps o in
  let w := (match qe with Some q => q i j | None => 1 end) * v + bg i j ^ 2 in
  (forall s, o_sat o = Some s -> w <= s) -> 0 <= w -> quadratic_background o modes bg qe i j = w.
Proof.
  intros o modes bg qe i j Hk v w Hs Hw. unfold quadratic_background. rewrite incoherent_value by exact Hk.
  cbn [o_slice o_eps o_sat o_over].
  replace (saturate None _) with v by reflexivity. destruct qe as [q|]; unfold w in *.
  - apply saturate_below; assumption.
  - rewrite Rmult_1_l in *. apply saturate_below; assumption.
Qed.
Print Assumptions C38_quantum_efficiency.
(** C38: with simulate_finite_pixels a non-square wavefield gives a pattern of the wrong shape (the padding
    of the two axes is exchanged); square ones keep theirs. *)
Theorem C38_finite_pixels_shape_refuted : exists H W, (0 < H)%nat /\ (0 < W)%nat /\ finite_pixels_shape H W <> (H, W).
Proof. exists 2%nat, 4%nat. split; [lia|]. split; [lia|]. discriminate. Qed.
Print Assumptions C38_finite_pixels_shape_refuted.
Theorem C38_finite_pixels_square_shape : forall n, finite_pixels_shape n n = (n, n).
Proof.
  intros n. unfold finite_pixels_shape. pose proof (Nat.div_le_mono 0 n 2 ltac:(lia) ltac:(lia)).
  assert (E : (n / 2 <= n)%nat) by (apply Nat.div_le_upper_bound; lia).
  replace (n + (n / 2 + (n - n / 2)) + 1)%nat with (1 + n * 2)%nat by lia. rewrite Nat.div_add by lia. reflexivity.
Qed.
Print Assumptions C38_finite_pixels_square_shape.
(** A saturating case: |2|^2 + |1|^2 = 5 above saturation 3, 2 x 2 oversampling of a constant field. *)
Example C38_case : incoherent_sum {| o_slice := Some (1, 0)%nat; o_eps := / 10; o_sat := Some 3; o_over := 2 |} [(fun _ _ => RtoC 2); (fun _ _ => RtoC 1)] 0%nat 0%nat = 3.
Proof.
  rewrite incoherent_value by (cbn; lia). cbn [o_slice o_eps o_sat o_over at_slice saturate]. unfold detector, block_power, lsum, rsum, fsum. cbn [map fold_right Nat.mul Nat.add].
  rewrite !nrm2_RtoC. cbn [INR]. unfold clamp. rewrite Rmax_left by lra. rewrite Rmin_right by lra. reflexivity.
Qed.
