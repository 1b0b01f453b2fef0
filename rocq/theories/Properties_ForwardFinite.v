(** C96: the patterns of FancyPtycho and MultislicePtycho with simulate_finite_pixels=True. *)
From Verif Require Import Base FinSum Fourier Matrix Model_Analysis Spec_Analysis Proofs_SVD Proofs_Ortho Properties_Ortho.
From Verif Require Import Model_Prop Spec_Prop Proofs_Prop Model_Image Spec_Image Proofs_Image
  Model_Interact Spec_Interact Proofs_Interact Model_Meas Spec_Meas Proofs_Meas Model_Geom Model_Models Model_Forward Spec_Forward Proofs_Forward Properties_Forward Proofs_ForwardSym Properties_ForwardSym
  Properties_ForwardPower Properties_Multislice Properties_Tidy Properties_TidySlices.
From Verif Require Import Model_Finite Spec_Finite Proofs_Finite Properties_Finite Model_ForwardFinite.
From Coquelicot Require Import Complex.
Import ListNotations.
From Flocq Require Import Core.Raux.
Local Open Scope C_scope.

(** ---- upsampling is linear ---- *)
Lemma linear_two n0 n1 N0 N1 A : (forall x y, same n0 n1 x y -> same N0 N1 (A x) (A y)) ->
  (forall a x b y, same N0 N1 (A (lin a x b y)) (lin a (A x) b (A y))) -> linear_map n0 n1 N0 N1 A.
Proof.
  intros AE AL. split; [exact AE|]. intros n u f i j Hi Hj. unfold comb at 2. induction n as [|n IH].
  - rewrite (AE (comb 0 u f) (lin 0 (fun _ _ => 0) 0 (fun _ _ => 0))); [|intros a b _ _; unfold comb, csum, lin; cbn; ring|assumption|assumption].
    rewrite AL by assumption. unfold lin, csum. cbn. ring.
  - rewrite csum_S, <- IH. rewrite (AE (comb (S n) u f) (lin 1 (comb n u f) (u n) (f n))); [|intros a b _ _; unfold comb, lin; rewrite csum_S; ring|assumption|assumption].
    rewrite AL by assumption. unfold lin. ring.
Qed.
Lemma fft2_linear N M : linear_map N M N M (fft2 N M).
Proof.
  apply linear_two; [intros x y S i j _ _; now apply fft2_ext|]. intros a x b y i j _ _. rewrite fft2_op2. apply (op2_lin N M); apply linop_dft.
Qed.
Lemma ifft2_linear N M : linear_map N M N M (ifft2 N M).
Proof.
  apply linear_two; [intros x y S i j _ _; now apply ifft2_ext|]. intros a x b y i j _ _. rewrite ifft2_op2. apply (op2_lin N M); apply linop_idft.
Qed.
Lemma roll_lt n s i : (0 < n)%nat -> (roll n s i < n)%nat.
Proof. intros H. unfold roll. apply Nat.mod_upper_bound. lia. Qed.
Lemma upsampled_linear N : (0 < N)%nat -> linear_map N N (N + N) (N + N) (upsampled_field N N).
Proof.
  intros H. unfold upsampled_field. cbv zeta.
  apply (linear_comp N N N N (N + N) (N + N) (ifft2 N N) (fun y => fft2 (N + N) (N + N) (ifftshift_rows_twice (N + N) (pad N N (N / 2) (N / 2) (fftshift2 N N y))))); [apply ifft2_linear|].
  apply (linear_comp N N (N + N) (N + N) (N + N) (N + N) (fun y => ifftshift_rows_twice (N + N) (pad N N (N / 2) (N / 2) (fftshift2 N N y))) (fft2 (N + N) (N + N))); [|apply fft2_linear].
  apply linear_two.
  - intros x y S i j _ _. unfold ifftshift_rows_twice, pad, fftshift2. destruct (_ && _)%bool; [|reflexivity]. apply S; apply roll_lt; exact H.
  - intros a x b y i j _ _. unfold ifftshift_rows_twice, pad, fftshift2, lin. destruct (_ && _)%bool; [reflexivity|ring].
Qed.
(** The finite-pixel pattern behind a linear system depends on the mutual coherence only. *)
Lemma finite_coherent N n0 n1 A n E n' E' k l : (0 < N)%nat -> linear_map n0 n1 N N A -> same_coherence n0 n1 n E n' E' ->
  finite_pattern N N n (fun q => A (E q)) k l = finite_pattern N N n' (fun q => A (E' q)) k l.
Proof.
  intros H LA SC. unfold finite_pattern. apply blur_ext; [exact H|]. intros i j Hi Hj. unfold upsampled_intensity. f_equal.
  rewrite !(rsum_ext _ (fun a => (Cmod (upsampled_field N N (A (_ a)) i j) ^ 2)%R) (fun a => nrm2 (upsampled_field N N (A (_ a)) i j))) by (intros; now rewrite nrm2_Cmod).
  apply (coherent_power n0 n1 (N + N) (N + N) (fun x => upsampled_field N N (A x)) n E n' E' i j); auto.
  exact (linear_comp n0 n1 N N (N + N) (N + N) A (upsampled_field N N) LA (upsampled_linear N H)).
Qed.
Lemma finite_ext N n F G k l : (0 < N)%nat -> (forall q, (q < n)%nat -> same N N (F q) (G q)) -> finite_pattern N N n F k l = finite_pattern N N n G k l.
Proof.
  intros H S. unfold finite_pattern. apply blur_ext; [exact H|]. intros i j Hi Hj. unfold upsampled_intensity. f_equal. apply rsum_ext. intros a Ha.
  now rewrite (proj1 (upsampled_linear N H) _ _ (S a Ha) i j Hi Hj).
Qed.

(** ---- what the detector records ---- *)
(** The photons of a pattern P on detector pixel (i, j): the mean of its moduli over the os x os block. *)
Definition block_mean (os : nat) (P : img) (i j : nat) : R :=
  (rsum os (fun a => rsum os (fun b => Cmod (P (os * i + a)%nat (os * j + b)%nat))) / INR (os * os))%R.
Lemma finite_reading sat qe bg os D J psi i j : (0 < os)%nat -> (forall q i j, qe = Some q -> (0 <= q i j)%R) -> (i < D)%nat -> (j < D)%nat ->
  quadratic_background_finite {| o_slice := None; o_eps := eps; o_sat := sat; o_over := os |} (os * D) (os * D) J psi bg qe i j =
  reading sat qe bg i j (block_mean os (finite_pattern (os * D) (os * D) J psi) i j + / 10 ^ 7)%R.
Proof.
  intros Hos HQ Hi Hj. destruct (C88_detector {| o_slice := None; o_eps := eps; o_sat := sat; o_over := os |} (os * D) (os * D) J psi bg qe i j) as [_ ->].
  unfold quadratic_background. rewrite incoherent_value by exact Hos. cbn [o_over o_sat o_slice o_eps at_slice saturate].
  set (v := fun k l : nat => RtoC (sqrt _)).
  assert (Q : detector os (v :: nil) i j = block_mean os (finite_pattern (os * D) (os * D) J psi) i j).
  { unfold detector, block_power, block_mean. cbn [map]. unfold lsum. cbn [fold_right]. rewrite Rplus_0_r. f_equal. apply rsum_ext. intros a _. apply rsum_ext. intros b _.
    rewrite (Nat.mul_comm i), (Nat.mul_comm j). unfold v. rewrite nrm2_RtoC. apply sqrt_sqrt, Cmod_ge_0. }
  match goal with |- context [detector os ?l i j] => replace (detector os l i j) with (block_mean os (finite_pattern (os * D) (os * D) J psi) i j) by (symmetry; exact Q) end.
  fold eps.
  assert (X : (0 <= block_mean os (finite_pattern (os * D) (os * D) J psi) i j)%R) by (rewrite <- Q; now apply detector_nonneg).
  unfold reading. fold eps. assert (Ep : (0 < eps)%R) by (unfold eps; apply Rinv_0_lt_compat; lra).
  assert (B : (0 <= bg i j ^ 2)%R) by (apply pow2_ge_0).
  destruct qe as [q|].
  - specialize (HQ q i j eq_refl). destruct sat as [s|]; cbn [saturate]; [|reflexivity]. unfold clamp. rewrite Rmax_left; [reflexivity|]. nra.
  - rewrite Rmult_1_l. destruct sat as [s|]; cbn [saturate]; [|reflexivity]. unfold clamp. rewrite Rmax_left; [reflexivity|]. lra.
Qed.
Lemma reading_ext sat qe bg i j os P Q : (forall k l, P k l = Q k l) ->
  reading sat qe bg i j (block_mean os P i j + / 10 ^ 7)%R = reading sat qe bg i j (block_mean os Q i j + / 10 ^ 7)%R.
Proof.
  intros H. assert (E : block_mean os P i j = block_mean os Q i j) by (unfold block_mean; f_equal; apply rsum_ext; intros a _; apply rsum_ext; intros b _; now rewrite H). now rewrite E.
Qed.
(** What pixels with the mask's response see of J waves with the coefficients c (see C88). *)
Definition blurred (N J : nat) (c : nat -> img) (s : R -> R) : img := fun k l =>
  response_pattern N J c (fun d => s ((2 * IZR d + 1) / (2 * INR N - 1))%R) (INR k) (INR l).

Lemma fancy_finite m ix t pos rows W : f_simulate m = false -> f_shifts m = None ->
  position m ix t pos -> coefficients (f_weights m) ix (length (f_probe m)) rows W -> fits m rows pos ->
  (forall q i j, f_qe m = Some q -> (0 <= q i j)%R) -> f_det0 m = f_det1 m -> (0 < f_det0 m)%nat ->
  let N := (f_os m * f_det0 m)%nat in let waves := map (at_detector m) (exits m (shot m W) rows pos) in
  exists r, fancy_pattern_finite m ix t = Ok r /\ forall i j, (i < f_det0 m)%nat -> (j < f_det0 m)%nat ->
   r i j = reading (f_saturation m) (f_qe m) (f_background m) i j (block_mean (f_os m) (finite_pattern N N (length waves) (fun q => nth q waves no_img)) i j + / 10 ^ 7)%R.
Proof.
  intros S F HP HC HF HQ SQ D0 N waves.
  destruct (C62_exit_waves m ix t pos rows W S F HP HC HF) as (ws & E & L & V).
  assert (osp : (0 < f_os m)%nat) by apply HF. assert (HN : (0 < N)%nat) by (unfold N; nia).
  assert (E0 : fancy_N0 m = N) by reflexivity. assert (E1 : fancy_N1 m = N) by (unfold fancy_N1, N; now rewrite SQ).
  set (prop := fun w => match f_near m, f_propagator m with true, Some p => near_field (fancy_N0 m) (fancy_N1 m) w p | _, _ => far_field (fancy_N0 m) (fancy_N1 m) w end).
  unfold fancy_pattern_finite. rewrite E. cbn [rbind]. rewrite (all_ok_map _ prop).
  2:{ intros w _. unfold fancy_propagate, prop. destruct (f_near m) eqn:Nf; [|reflexivity]. destruct (f_propagator m) eqn:Pf; [reflexivity|]. exfalso.
      destruct HF as (_ & _ & _ & _ & _ & _ & _ & _ & _ & _ & A). tauto. }
  cbn [rbind]. eexists. split; [reflexivity|]. intros i j Hi Hj. unfold fancy_measure_finite. rewrite E0, E1. unfold N at 1 2.
  rewrite finite_reading by assumption. apply reading_ext. intros kk ll.
  assert (LW : length (map prop ws) = length waves) by (unfold waves; rewrite !map_length; exact L). rewrite LW. apply finite_ext; [exact HN|].
  intros q Hq. unfold waves in *. rewrite map_length in *. rewrite !(nth_map_in _ _ no_img) by lia. specialize (V q ltac:(lia)).
  unfold prop, at_detector. fold (fancy_N0 m) (fancy_N1 m) in *. rewrite E0, E1 in *.
  assert (FF : same N N (far_field N N (nth q ws no_img)) (centred_ft N N (nth q (exits m (shot m W) rows pos) no_img))).
  { intros k l Hk Hl. rewrite <- far_centred by assumption. apply far_ext; try assumption. }
  destruct (f_near m); [|exact FF]. destruct (f_propagator m); [|exact FF]. intros k l Hk Hl. apply near_ext; [exact V|]. now intros ? ? _ _.
Qed.
Lemma slices_finite ms ix t pos rows W E : let m := ms_base ms in
  ms_modes m ix t W E -> position m ix t pos -> coefficients (f_weights m) ix (length (f_probe m)) rows W -> ms_fits m pos ->
  f_det0 m = f_det1 m -> (0 < f_det0 m)%nat ->
  let N := (f_os m * f_det0 m)%nat in
  exists r, multislice_pattern_finite ms ix t = Ok r /\ forall i j, (i < f_det0 m)%nat -> (j < f_det0 m)%nat ->
   r i j = reading (f_saturation m) None (f_background m) i j
     (block_mean (f_os m) (finite_pattern N N rows (fun q => centred_ft N N (sliced m (ms_interslice ms) (ms_slices ms) pos (E q)))) i j + / 10 ^ 7)%R.
Proof.
  intros m HM HP HC HF SQ D0 N.
  destruct (C66_exit_waves ms ix t pos rows W E HM HP HC HF) as (ws & E' & L & V). fold m in V, E'.
  assert (osp : (0 < f_os m)%nat) by apply HF. assert (HN : (0 < N)%nat) by (unfold N; nia).
  assert (E0 : fancy_N0 m = N) by reflexivity. assert (E1 : fancy_N1 m = N) by (unfold fancy_N1, N; now rewrite SQ).
  unfold multislice_pattern_finite. rewrite E'. cbn [rmap]. eexists. split; [reflexivity|]. intros i j Hi Hj. fold m. rewrite E0, E1. unfold N at 1 2.
  rewrite finite_reading by (discriminate || assumption). apply reading_ext. intros kk ll.
  rewrite map_length, L. apply finite_ext; [exact HN|]. intros q Hq k l Hk Hl. rewrite (nth_map_in _ _ no_img) by lia. rewrite <- far_centred by assumption. apply far_ext; try assumption.
  specialize (V q Hq). fold (fancy_N0 m) (fancy_N1 m) in V. rewrite E0, E1 in V. exact V.
Qed.
Lemma blurred_value N J psi c s os i j : (0 < N)%nat -> (forall a, (a < J)%nat -> through N (c a) (psi a)) -> is_sinc s ->
  block_mean os (finite_pattern N N J psi) i j = block_mean os (blurred N J c s) i j.
Proof.
  intros H T S. unfold block_mean. f_equal. apply rsum_ext. intros a _. apply rsum_ext. intros b _. f_equal. apply C88_value; assumption.
Qed.

(** C96: FancyPtycho's pattern on a square detector: of the waves of C62 at the detector, the Fourier coefficients'
    interference terms with the weights of C88, averaged over the oversampling block, with quantum efficiency,
    background and saturation. *)
Theorem C96_pattern : forall m ix t pos rows W c s, f_simulate m = false -> f_shifts m = None ->
  position m ix t pos -> coefficients (f_weights m) ix (length (f_probe m)) rows W -> fits m rows pos ->
  (forall q i j, f_qe m = Some q -> (0 <= q i j)%R) -> f_det0 m = f_det1 m -> (0 < f_det0 m)%nat ->
  let N := (f_os m * f_det0 m)%nat in let waves := map (at_detector m) (exits m (shot m W) rows pos) in
  (forall a, (a < length waves)%nat -> through N (c a) (nth a waves no_img)) -> is_sinc s ->
  exists r, fancy_pattern_finite m ix t = Ok r /\ forall i j, (i < f_det0 m)%nat -> (j < f_det0 m)%nat ->
   r i j = reading (f_saturation m) (f_qe m) (f_background m) i j (block_mean (f_os m) (blurred N (length waves) c s) i j + / 10 ^ 7)%R.
Proof.
  intros m ix t pos rows W c s S F HP HC HF HQ SQ D0 N waves TH SI.
  destruct (fancy_finite m ix t pos rows W S F HP HC HF HQ SQ D0) as (r & R1 & R2). exists r. split; [exact R1|]. intros i j Hi Hj. rewrite R2 by assumption.
  fold waves N. rewrite (blurred_value N (length waves) _ c s); auto. assert (0 < f_os m)%nat by apply HF. unfold N; nia.
Qed.
Print Assumptions C96_pattern.

(** C96: ... and MultislicePtycho's, of the waves of C66. *)
Theorem C96_pattern_multislice : forall ms ix t pos rows W E c s, let m := ms_base ms in
  ms_modes m ix t W E -> position m ix t pos -> coefficients (f_weights m) ix (length (f_probe m)) rows W -> ms_fits m pos ->
  f_det0 m = f_det1 m -> (0 < f_det0 m)%nat ->
  let N := (f_os m * f_det0 m)%nat in
  (forall a, (a < rows)%nat -> through N (c a) (centred_ft N N (sliced m (ms_interslice ms) (ms_slices ms) pos (E a)))) -> is_sinc s ->
  exists r, multislice_pattern_finite ms ix t = Ok r /\ forall i j, (i < f_det0 m)%nat -> (j < f_det0 m)%nat ->
   r i j = reading (f_saturation m) None (f_background m) i j (block_mean (f_os m) (blurred N rows c s) i j + / 10 ^ 7)%R.
Proof.
  intros ms ix t pos rows W E c s m HM HP HC HF SQ D0 N TH SI.
  destruct (slices_finite ms ix t pos rows W E HM HP HC HF SQ D0) as (r & R1 & R2). exists r. split; [exact R1|]. intros i j Hi Hj. rewrite R2 by assumption.
  fold m N. rewrite (blurred_value N rows _ c s); auto. assert (0 < f_os m)%nat by apply HF. unfold N; nia.
Qed.
Print Assumptions C96_pattern_multislice.

(** C96: only the mutual coherence of the exposure's modes matters (inside the support), as for ideal pixels (C70, C95). *)
Theorem C96_coherence : forall m ix t pos rows W probe' w' rows' W', f_simulate m = false -> f_shifts m = None ->
  position m ix t pos -> obj_planes m = 1%nat -> (forall q i j, f_qe m = Some q -> (0 <= q i j)%R) ->
  coefficients (f_weights m) ix (length (f_probe m)) rows W -> coefficients w' ix (length probe') rows' W' ->
  fits m rows pos -> (1 <= rows')%nat -> f_det0 m = f_det1 m -> (0 < f_det0 m)%nat ->
  same_coherence (f_n0 m) (f_n1 m) rows (mixture W (f_support m) (f_probe m)) rows' (mixture W' (f_support m) probe') ->
  same_pattern (f_det0 m) (f_det1 m) (fancy_pattern_finite m ix t) (fancy_pattern_finite (remake m probe' w' (f_min m) (f_obj m)) ix t).
Proof.
  intros m ix t pos rows W probe' w' rows' W' S F HP HO HQ HC HC' HF R1 SQ D0 SC. set (m' := remake _ _ _ _ _).
  assert (HF' : fits m' rows' pos).
  { destruct HF as (A1 & A2 & A3 & A4 & A5 & A6 & A7 & A8 & A9 & A10 & A11). repeat split; try assumption; try apply A4; try apply A5; try apply A6; try apply A7. left. exact HO. }
  destruct (fancy_finite m ix t pos rows W S F HP HC HF HQ SQ D0) as (r & E1 & E2).
  destruct (fancy_finite m' ix t pos rows' W' S F HP HC' HF' HQ SQ D0) as (r' & E1' & E2').
  exists r, r'. split; [exact E1|]. split; [exact E1'|]. intros i j Hi Hj. rewrite <- SQ in Hj. rewrite E2 by assumption. rewrite E2' by assumption.
  change (f_saturation m') with (f_saturation m). change (f_qe m') with (f_qe m). change (f_background m') with (f_background m). change (f_os m') with (f_os m). change (f_det0 m') with (f_det0 m).
  set (N := (f_os m * f_det0 m)%nat). apply reading_ext. intros kk ll.
  destruct HF as (n0p & n1p & osp & _ & _ & _ & _ & r1 & _). assert (HN : (0 < N)%nat) by (unfold N; nia).
  set (Inv := fun x : img => if f_fourier m then inverse_far_field (f_n0 m) (f_n1 m) x else x).
  assert (LI : linear_map (f_n0 m) (f_n1 m) (f_n0 m) (f_n1 m) Inv) by (unfold Inv; destruct (f_fourier m); [now apply inv_far_linear|apply id_linear]).
  set (A := fun x => at_detector m (exit_wave m (Inv x) 0 pos)).
  assert (LA : linear_map (f_n0 m) (f_n1 m) N N A).
  { pose proof (linear_comp _ _ _ _ _ _ _ _ (linear_comp _ _ _ _ _ _ _ _ LI (exit_linear m 0 pos)) (detector_linear m)) as LA. unfold fancy_N0, fancy_N1 in LA. rewrite <- SQ in LA. exact LA. }
  assert (SEL : forall n k, (k < n)%nat -> sel n k = k) by (intros [|[|n]] k Hk; cbn; lia).
  assert (G : map (at_detector m) (exits m (shot m W) rows pos) = map (fun k => A (mixture W (f_support m) (f_probe m) k)) (seq 0 rows)).
  { unfold exits. rewrite HO, map_map. replace (Nat.max rows 1) with rows by lia. apply map_ext_in. intros k Hk. apply in_seq in Hk. rewrite SEL by lia. reflexivity. }
  assert (G' : map (at_detector m') (exits m' (shot m' W') rows' pos) = map (fun k => A (mixture W' (f_support m) probe' k)) (seq 0 rows')).
  { unfold exits. change (obj_planes m') with (obj_planes m). rewrite HO, map_map. replace (Nat.max rows' 1) with rows' by lia. apply map_ext_in. intros k Hk. apply in_seq in Hk. rewrite SEL by lia. reflexivity. }
  rewrite G, G', !map_length, !seq_length.
  rewrite (finite_ext N rows _ (fun q => A (mixture W (f_support m) (f_probe m) q))) by (try exact HN; intros q Hq x y _ _; now rewrite nth_map_seq).
  rewrite (finite_ext N rows' _ (fun q => A (mixture W' (f_support m) probe' q))) by (try exact HN; intros q Hq x y _ _; now rewrite nth_map_seq).
  now apply (finite_coherent N (f_n0 m) (f_n1 m) A).
Qed.
Print Assumptions C96_coherence.
Theorem C96_coherence_multislice : forall ms ix t pos rows W probe' w' rows' W', let m := ms_base ms in
  (f_simulate m = true -> ix = Listed (the ix)) -> position m ix t pos -> ms_fits m pos -> f_det0 m = f_det1 m -> (0 < f_det0 m)%nat ->
  coefficients (f_weights m) ix (length (f_probe m)) rows W -> coefficients w' ix (length probe') rows' W' ->
  same_coherence (f_n0 m) (f_n1 m) rows (mixture W (f_support m) (f_probe m)) rows' (mixture W' (f_support m) probe') ->
  same_pattern (f_det0 m) (f_det1 m) (multislice_pattern_finite ms ix t) (multislice_pattern_finite (reprobed ms probe' w') ix t).
Proof.
  intros ms ix t pos rows W probe' w' rows' W' m SI HP HF SQ D0 HC HC' SC.
  set (ms' := reprobed ms probe' w').
  set (Inv := fun x : img => if f_fourier m then inverse_far_field (f_n0 m) (f_n1 m) x else x).
  set (d := translations_to_pixel (f_d0 m) (f_d1 m) (f_normal m) t).
  set (Rmp := fun x : img => if f_simulate m then ramped m d (fun _ => x) 0%nat else x).
  assert (HM : ms_modes m ix t W (fun k => Rmp (shot m W k))) by (unfold ms_modes, Rmp; destruct (f_simulate m); [split; [now apply SI|reflexivity]|reflexivity]).
  assert (HM' : ms_modes (ms_base ms') ix t W' (fun k => Rmp (shot (ms_base ms') W' k))).
  { unfold ms_modes. change (f_simulate (ms_base ms')) with (f_simulate m). unfold Rmp. destruct (f_simulate m); [split; [now apply SI|reflexivity]|reflexivity]. }
  destruct (slices_finite ms ix t pos rows W _ HM HP HC HF SQ D0) as (r & E1 & E2).
  destruct (slices_finite ms' ix t pos rows' W' _ HM' HP HC' HF SQ D0) as (r' & E1' & E2').
  exists r, r'. split; [exact E1|]. split; [exact E1'|]. intros i j Hi Hj. rewrite <- SQ in Hj. rewrite E2 by assumption. rewrite E2' by assumption.
  fold m. change (f_saturation (ms_base ms')) with (f_saturation m). change (f_background (ms_base ms')) with (f_background m). change (f_os (ms_base ms')) with (f_os m).
  change (f_det0 (ms_base ms')) with (f_det0 m). change (ms_interslice ms') with (ms_interslice ms). change (ms_slices ms') with (ms_slices ms).
  set (N := (f_os m * f_det0 m)%nat). apply reading_ext. intros kk ll.
  destruct HF as (n0p & n1p & osp & _). assert (HN : (0 < N)%nat) by (unfold N; nia).
  assert (LI : linear_map (f_n0 m) (f_n1 m) (f_n0 m) (f_n1 m) Inv) by (unfold Inv; destruct (f_fourier m); [now apply inv_far_linear|apply id_linear]).
  assert (LR : linear_map (f_n0 m) (f_n1 m) (f_n0 m) (f_n1 m) Rmp) by (unfold Rmp; destruct (f_simulate m); [apply ramp_linear|apply id_linear]).
  set (A := fun x => centred_ft N N (sliced m (ms_interslice ms) (ms_slices ms) pos (Rmp (Inv x)))).
  assert (LA : linear_map (f_n0 m) (f_n1 m) N N A).
  { pose proof (linear_comp _ _ _ _ _ _ _ _ (linear_comp _ _ _ _ _ _ _ _ LI LR) (sliced_linear m (ms_interslice ms) (ms_slices ms) pos)) as LA. unfold fancy_N0, fancy_N1 in LA. rewrite <- SQ in LA.
    exact (linear_comp _ _ _ _ _ _ _ _ LA (centred_linear _ _)). }
  exact (finite_coherent N (f_n0 m) (f_n1 m) A rows (mixture W (f_support m) (f_probe m)) rows' (mixture W' (f_support m) probe') _ _ HN LA SC).
Qed.
Print Assumptions C96_coherence_multislice.

(** The modes of an exposure before and after tidy_probes (C42), inside the support. *)
Lemma tidy_mixtures L n0 n1 support probe rows l s w' : (0 < rows)%nat -> (s < length l)%nat -> probe <> [] ->
  let Ws := fun s => nth s l (fun _ _ => RtoC 0) in let basis := fun q => nth q probe no_img in
  tidy_right L (length l) rows (length probe) n0 n1 Ws basis ->
  let r := tidy_probes L (length l) rows (length probe) n0 n1 Ws basis in t_weights r = Some w' ->
  same_coherence n0 n1 rows (mixture (Ws s) support probe) (t_rows r) (mixture (w' s) support (map (t_probe r) (seq 0 (t_modes r)))).
Proof.
  intros r1 HL HB Ws basis TR r TW.
  assert (lp : (0 < length probe)%nat) by (destruct probe; [congruence|cbn; lia]).
  pose proof (proj2 (C42_tidy_probes L (length l) rows (length probe) n0 n1 Ws basis ltac:(lia) ltac:(lia) TR) w' TW s HL) as [SC _].
  fold r in SC. apply same_coherence_sym in SC. apply (support_coherence _ _ _ _ _ _ support) in SC.
  revert SC. apply coherence_ext; intros k i j _.
  - now rewrite mixture_nth.
  - rewrite mixture_nth, map_length, seq_length. destruct (support i j); [|reflexivity]. apply csum_ext. intros c Hc. now rewrite nth_map_seq.
Qed.
(** C96: tidy_probes changes no pattern on finite pixels. *)
Theorem C96_tidy : forall L m ix t pos rows l w', f_simulate m = false -> f_shifts m = None ->
  f_weights m = Matrices rows l -> (the ix < length l)%nat -> f_probe m <> [] ->
  position m ix t pos -> obj_planes m = 1%nat -> (forall q i j, f_qe m = Some q -> (0 <= q i j)%R) -> fits m rows pos ->
  f_det0 m = f_det1 m -> (0 < f_det0 m)%nat ->
  let Ws := fun s => nth s l (fun _ _ => RtoC 0) in let basis := fun q => nth q (f_probe m) no_img in
  tidy_right L (length l) rows (length (f_probe m)) (f_n0 m) (f_n1 m) Ws basis ->
  let r := tidy_probes L (length l) rows (length (f_probe m)) (f_n0 m) (f_n1 m) Ws basis in
  t_weights r = Some w' ->
  same_pattern (f_det0 m) (f_det1 m) (fancy_pattern_finite m ix t)
    (fancy_pattern_finite (remake m (map (t_probe r) (seq 0 (t_modes r))) (Matrices (t_rows r) (map w' (seq 0 (length l)))) (f_min m) (f_obj m)) ix t).
Proof.
  intros L m ix t pos rows l w' S F HW HL HB HP HO HQ HF SQ D0 Ws basis TR r TW.
  assert (n0p := proj1 HF). assert (n1p := proj1 (proj2 HF)). assert (r1 : (1 <= rows)%nat) by apply HF.
  assert (lp : (0 < length (f_probe m))%nat) by (destruct (f_probe m); [congruence|cbn; lia]).
  apply (C96_coherence m ix t pos rows (Ws (the ix)) _ _ (t_rows r) (w' (the ix))); try assumption.
  - rewrite HW. cbn. split; [|reflexivity]. unfold Ws. now apply nth_error_nth'.
  - cbn. split; [|reflexivity]. rewrite nth_error_map, nth_error_nth' with (d := 0%nat) by (rewrite seq_length; exact HL). cbn. now rewrite seq_nth.
  - unfold r. rewrite tidy_unfold. cbn [t_rows]. unfold tk, ortho_count. cbn. apply Nat.min_glb; [exact r1|]. repeat apply Nat.min_glb; nia.
  - now apply (tidy_mixtures L).
Qed.
Print Assumptions C96_tidy.
Theorem C96_tidy_multislice : forall L ms ix t pos rows l w', let m := ms_base ms in
  (f_simulate m = true -> ix = Listed (the ix)) -> position m ix t pos -> ms_fits m pos -> f_det0 m = f_det1 m -> (0 < f_det0 m)%nat -> (1 <= rows)%nat ->
  f_weights m = Matrices rows l -> (the ix < length l)%nat -> f_probe m <> nil ->
  let Ws := fun s => nth s l (fun _ _ => RtoC 0) in let basis := fun q => nth q (f_probe m) no_img in
  tidy_right L (length l) rows (length (f_probe m)) (f_n0 m) (f_n1 m) Ws basis ->
  let r := tidy_probes L (length l) rows (length (f_probe m)) (f_n0 m) (f_n1 m) Ws basis in
  t_weights r = Some w' ->
  same_pattern (f_det0 m) (f_det1 m) (multislice_pattern_finite ms ix t)
    (multislice_pattern_finite (reprobed ms (map (t_probe r) (seq 0 (t_modes r))) (Matrices (t_rows r) (map w' (seq 0 (length l))))) ix t).
Proof.
  intros L ms ix t pos rows l w' m SI HP HF SQ D0 r1 HW HL HB Ws basis TR r TW.
  apply (C96_coherence_multislice ms ix t pos rows (Ws (the ix)) _ _ (t_rows r) (w' (the ix))); try assumption.
  - fold m. rewrite HW. cbn. split; [|reflexivity]. unfold Ws. now apply nth_error_nth'.
  - cbn. split; [|reflexivity]. rewrite nth_error_map, nth_error_nth' with (d := 0%nat) by (rewrite seq_length; exact HL). cbn. now rewrite seq_nth.
  - now apply (tidy_mixtures L).
Qed.
Print Assumptions C96_tidy_multislice.

(** The modes of an exposure with one weight, before and after tidying. *)
Lemma tidy_mixtures_1d L n0 n1 support probe (c : R) :
  let basis := fun q => nth q probe no_img in ortho_right L (length probe) n0 n1 basis None ->
  let r := tidy_probes_1d L (length probe) n0 n1 basis in
  same_coherence n0 n1 (length probe) (mixture (diag c) support probe) (fst r) (mixture (diag c) support (map (snd r) (seq 0 (fst r)))).
Proof.
  intros basis OR r. pose proof (C42_tidy_1d L (length probe) n0 n1 basis OR) as SC. fold r in SC.
  destruct r as [k probe']. cbn [fst snd]. destruct SC as [SC _]. apply same_coherence_sym in SC.
  assert (SD : same_coherence n0 n1 (length probe) (fun q i j => RtoC c * basis q i j) k (fun q i j => RtoC c * probe' q i j)).
  { intros i j i' j' Hi Hj Hi' Hj'. specialize (SC i j i' j' Hi Hj Hi' Hj'). unfold coherence in *.
    rewrite (csum_ext (length probe) _ (fun q => RtoC c * RtoC c * (Cconj (basis q i j) * basis q i' j'))) by (intros; rewrite Cconj_mult, Cconj_RtoC; ring).
    rewrite (csum_ext k _ (fun q => RtoC c * RtoC c * (Cconj (probe' q i j) * probe' q i' j'))) by (intros; rewrite Cconj_mult, Cconj_RtoC; ring).
    rewrite <- !csum_scal. now rewrite SC. }
  apply (support_coherence _ _ _ _ _ _ support) in SD. revert SD. apply coherence_ext; intros q i j Hq.
  - rewrite mixture_nth. destruct (support i j); [|reflexivity]. rewrite (csum_single _ q); auto.
    + unfold diag. now rewrite Nat.eqb_refl.
    + intros q' _ NE. unfold diag. replace (Nat.eqb q q') with false by (symmetry; apply Nat.eqb_neq; auto). ring.
  - rewrite mixture_nth, map_length, seq_length. destruct (support i j); [|reflexivity]. rewrite (csum_single _ q); auto.
    + unfold diag. now rewrite Nat.eqb_refl, nth_map_seq.
    + intros q' _ NE. unfold diag. replace (Nat.eqb q q') with false by (symmetry; apply Nat.eqb_neq; auto). ring.
Qed.
(** C96: ... and with one weight per exposure. *)
Theorem C96_tidy_scalar : forall L m ix t pos l, f_simulate m = false -> f_shifts m = None ->
  f_weights m = Scalars l -> (the ix < length l)%nat -> f_probe m <> [] ->
  position m ix t pos -> obj_planes m = 1%nat -> (forall q i j, f_qe m = Some q -> (0 <= q i j)%R) -> fits m (length (f_probe m)) pos ->
  f_det0 m = f_det1 m -> (0 < f_det0 m)%nat ->
  let basis := fun q => nth q (f_probe m) no_img in
  ortho_right L (length (f_probe m)) (f_n0 m) (f_n1 m) basis None ->
  let '(k, probe') := tidy_probes_1d L (length (f_probe m)) (f_n0 m) (f_n1 m) basis in
  same_pattern (f_det0 m) (f_det1 m) (fancy_pattern_finite m ix t)
    (fancy_pattern_finite (remake m (map probe' (seq 0 k)) (Scalars l) (f_min m) (f_obj m)) ix t).
Proof.
  intros L m ix t pos l S F HW HL HB HP HO HQ HF SQ D0 basis OR.
  assert (K : fst (tidy_probes_1d L (length (f_probe m)) (f_n0 m) (f_n1 m) basis) = Nat.min (length (f_probe m)) (f_n0 m * f_n1 m)) by reflexivity.
  destruct (nth_error l (the ix)) as [c|] eqn:EC; [|apply nth_error_None in EC; lia].
  pose proof (tidy_mixtures_1d L (f_n0 m) (f_n1 m) (f_support m) (f_probe m) c OR) as SC. cbv zeta in SC. fold basis in SC.
  destruct (tidy_probes_1d _ _ _ _ _) as [k probe']. cbn [fst snd] in K, SC.
  assert (n0p := proj1 HF). assert (n1p := proj1 (proj2 HF)).
  assert (lp : (0 < length (f_probe m))%nat) by (destruct (f_probe m); [congruence|cbn; lia]).
  apply (C96_coherence m ix t pos (length (f_probe m)) (diag c) _ _ k (diag c)); try assumption.
  - rewrite HW. cbn. eauto.
  - cbn. rewrite map_length, seq_length. eauto.
  - rewrite K. apply Nat.min_glb; nia.
Qed.
Print Assumptions C96_tidy_scalar.
Theorem C96_tidy_scalar_multislice : forall L ms ix t pos l, let m := ms_base ms in
  (f_simulate m = true -> ix = Listed (the ix)) -> position m ix t pos -> ms_fits m pos -> f_det0 m = f_det1 m -> (0 < f_det0 m)%nat ->
  f_weights m = Scalars l -> (the ix < length l)%nat -> f_probe m <> nil ->
  let basis := fun q => nth q (f_probe m) no_img in
  ortho_right L (length (f_probe m)) (f_n0 m) (f_n1 m) basis None ->
  let '(k, probe') := tidy_probes_1d L (length (f_probe m)) (f_n0 m) (f_n1 m) basis in
  same_pattern (f_det0 m) (f_det1 m) (multislice_pattern_finite ms ix t)
    (multislice_pattern_finite (reprobed ms (map probe' (seq 0 k)) (Scalars l)) ix t).
Proof.
  intros L ms ix t pos l m SI HP HF SQ D0 HW HL HB basis OR.
  destruct (nth_error l (the ix)) as [c|] eqn:EC; [|apply nth_error_None in EC; lia].
  pose proof (tidy_mixtures_1d L (f_n0 m) (f_n1 m) (f_support m) (f_probe m) c OR) as SC. cbv zeta in SC. fold basis in SC.
  destruct (tidy_probes_1d _ _ _ _ _) as [k probe']. cbn [fst snd] in SC.
  apply (C96_coherence_multislice ms ix t pos (length (f_probe m)) (diag c) _ _ k (diag c)); try assumption.
  - fold m. rewrite HW. cbn. eauto.
  - cbn. rewrite map_length, seq_length. eauto.
Qed.
Print Assumptions C96_tidy_scalar_multislice.

(** Concrete: the models of C64_case and C66_case have a square detector, and coefficients and a sinc exist for every
    wave (C88_coefficients, sinc_is_sinc). *)
Example C96_case : f_det0 (plain None) = f_det1 (plain None) /\ (0 < f_det0 (plain None))%nat /\ fits (plain None) 2 (IZR 0, IZR 0) /\
  position (plain None) (Alone 1) (0, 0, 0)%R (IZR 0, IZR 0) /\ coefficients (f_weights (plain None)) (Alone 1) 2 2 (diag 3) /\ is_sinc sinc /\
  forall waves : nat -> img, forall J, exists c : nat -> img, forall a, (a < J)%nat -> through (f_os (plain None) * f_det0 (plain None)) (c a) (waves a).
Proof.
  destruct (plain_ok None (Alone 1) eq_refl) as (A & B & C). split; [reflexivity|]. split; [cbn; lia|]. split; [exact C|]. split; [exact A|]. split; [exact B|]. split; [apply sinc_is_sinc|].
  intros waves J. exists (fun a => spectrum_of (f_os (plain None) * f_det0 (plain None)) (waves a)). intros a _. apply spectrum_through. cbn. lia.
Qed.
