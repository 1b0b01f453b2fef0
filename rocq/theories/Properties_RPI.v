(** The forward models of SimplePtycho (C67) and RPI (C68). *)
From Verif Require Import Base FinSum Fourier Model_Prop Spec_Prop Proofs_Prop Model_Image Spec_Image Proofs_Image
  Model_Interact Spec_Interact Proofs_Interact Properties_Interact Model_Meas Spec_Meas Proofs_Meas Properties_Meas Model_Geom Model_Models Model_Forward Spec_Forward Proofs_Forward Properties_Forward Proofs_ForwardSym Properties_ForwardSym Properties_ForwardPower.
From Coquelicot Require Import Complex.
From Flocq Require Import Core.Raux Core.Generic_fmt Core.Round_NE.
Local Open Scope R_scope.

(** C67: SimplePtycho simulates each exposure at the whole-pixel position nearest to its translation: the exit wave
    is the normalised probe times the object window that starts there, the pattern the power of its centred
    unitary Fourier transform plus 1e-7. *)
Theorem C67_pattern : forall m t, (0 < s_n0 m)%nat -> (0 < s_n1 m)%nat ->
  let p := translations_to_pixel (s_b0 m) (s_b1 m) ez t in
  exists a b, Rabs (IZR a - (fst p - fst (s_min m))) <= 1 / 2 /\ Rabs (IZR b - (snd p - snd (s_min m))) <= 1 / 2 /\
  (inside (s_H m) (s_n0 m) 0 a -> inside (s_W m) (s_n1 m) 0 b ->
   exists r, simple_pattern m t = Ok r /\ forall i j, (i < s_n0 m)%nat -> (j < s_n1 m)%nat ->
     r i j = nrm2 (centred_ft (s_n0 m) (s_n1 m) (simple_exit m a b) i j) + / 10 ^ 7).
Proof.
  intros m t H0 H1 p. set (q := psub2 p (s_min m)).
  assert (Q : q = (fst p - fst (s_min m), snd p - snd (s_min m))) by (unfold q, psub2; now destruct p, (s_min m)).
  exists (ZnearestE (fst q)), (ZnearestE (snd q)). rewrite Q. cbn [fst snd].
  split; [rewrite Rabs_minus_sym; pose proof (Znearest_half (fun x => negb (Z.even x)) (fst p - fst (s_min m))); lra|].
  split; [rewrite Rabs_minus_sym; pose proof (Znearest_half (fun x => negb (Z.even x)) (snd p - snd (s_min m))); lra|].
  intros [I0 I0'] [I1 I1']. unfold simple_pattern, simple_interaction. fold p. fold q. rewrite Q.
  unfold ptycho_2D_round, window. cbn [fst snd].
  set (a := ZnearestE _) in *. set (b := ZnearestE _) in *.
  match goal with |- context [if ?c then Some _ else None] => replace c with true end.
  2:{ symmetry. rewrite !andb_true_iff, !Z.leb_le. cbn in *. lia. }
  cbn [option_map need rmap]. eexists. split; [reflexivity|]. intros i j Hi Hj.
  unfold intensity, finish. cbn [o_over o_slice o_sat o_eps Nat.eqb saturate]. unfold eps. f_equal.
  rewrite nrm2_Cmod. do 2 f_equal. rewrite <- far_centred by assumption. apply far_ext; try assumption.
  intros u v _ _. unfold times_img, scale_img, simple_exit. reflexivity.
Qed.
Print Assumptions C67_pattern.
(** C67: at whole-pixel positions it agrees with a FancyPtycho of the same geometry, probe and object (one mode of
    weight 1, no oversampling, cropping or background, far field, plain object). *)
Theorem C67_agrees_with_fancy : forall s m ix t a b l, (0 < s_n0 s)%nat -> (0 < s_n1 s)%nat ->
  f_b0 m = s_b0 s -> f_b1 m = s_b1 s -> f_normal m = ez -> f_min m = s_min s -> f_offsets m = None -> f_norm m = s_norm s ->
  f_probe m = [s_probe s] -> f_weights m = Scalars l -> nth_error l (the ix) = Some 1 -> (forall i j, f_support m i j = true) -> f_fourier m = false ->
  f_n0 m = s_n0 s -> f_n1 m = s_n1 s -> f_det0 m = s_n0 s -> f_det1 m = s_n1 s -> f_os m = 1%nat ->
  f_simulate m = false -> f_shifts m = None -> f_qe m = None -> f_saturation m = None -> (forall i j, f_background m i j = 0) ->
  f_H m = s_H s -> f_W m = s_W s -> f_obj_modes m = None -> f_obj m 0%nat = s_obj s -> f_exp m = false -> f_near m = false ->
  psub2 (translations_to_pixel (s_b0 s) (s_b1 s) ez t) (s_min s) = (IZR a, IZR b) -> inside (s_H s) (s_n0 s) 0 a -> inside (s_W s) (s_n1 s) 0 b ->
  same_pattern (s_n0 s) (s_n1 s) (simple_pattern s t) (fancy_pattern m ix t).
Proof.
  intros s m ix t a b l H0 H1 B0 B1 BN MN OF NM PR WT WE SP FP N0 N1 D0 D1 OS SM SH QE SA BG HH WW OM OB EX NF P I0 I1.
  destruct (C67_pattern s t H0 H1) as (a' & b' & A & B & R).
  assert (PP : fst (translations_to_pixel (s_b0 s) (s_b1 s) ez t) - fst (s_min s) = IZR a /\ snd (translations_to_pixel (s_b0 s) (s_b1 s) ez t) - snd (s_min s) = IZR b).
  { unfold psub2 in P. destruct (translations_to_pixel (s_b0 s) (s_b1 s) ez t), (s_min s). cbn in *. now injection P. }
  destruct PP as [P0 P1]. rewrite P0 in A. rewrite P1 in B. rewrite <- minus_IZR in A, B.
  assert (NE : forall z, Rabs (IZR z) <= 1 / 2 -> z = 0%Z).
  { intros z Hz. rewrite <- abs_IZR in Hz. assert (IZR (Z.abs z) < 1) by lra. apply lt_IZR in H. lia. }
  apply NE in A. apply NE in B. assert (a' = a) by lia. assert (b' = b) by lia. subst a' b'.
  destruct (R I0 I1) as (r & R1 & R2).
  assert (POS : position m ix t (IZR a, IZR b)).
  { unfold position. rewrite OF, B0, B1, BN, MN. now rewrite P0, P1. }
  assert (FT : fits m 1 (IZR a, IZR b)).
  { unfold fits, centred_in, obj_planes. rewrite OM, NF, N0, N1, D0, D1, OS, !Nat.mul_1_l, HH, WW. cbn [fst snd]. rewrite !Zfloor_IZR.
    destruct I0, I1. repeat split; try assumption; try lia; try discriminate.
    - destruct (Nat.even (s_n0 s)); auto.
    - destruct (Nat.even (s_n1 s)); auto. }
  destruct (C62_pattern m ix t (IZR a, IZR b) 1 (diag 1) SM SH POS) as (r' & R1' & R2').
  { rewrite WT, PR. cbn. eauto. }
  { exact FT. }
  { rewrite QE. discriminate. }
  exists r, r'. split; [exact R1|]. split; [exact R1'|]. intros i j Hi Hj. rewrite R2 by assumption. rewrite R2' by (rewrite ?D0, ?D1; assumption).
  unfold reading. rewrite SA, QE, BG. rewrite Rmult_1_l. replace (0 ^ 2) with 0 by ring. rewrite Rplus_0_r. f_equal.
  unfold exits, obj_planes. rewrite OM. cbn [Nat.max seq map sel]. unfold photons. rewrite OS. cbn [map]. unfold lsum. cbn [fold_right].
  change (INR (1 * 1)) with 1. unfold rsum, fsum. unfold Rdiv. rewrite Rinv_1. rewrite Rmult_1_r, !Rplus_0_r, !Rplus_0_l. rewrite !Nat.mul_1_l, !Nat.add_0_r.
  f_equal. unfold at_detector. rewrite NF, OS, D0, D1, !Nat.mul_1_l. unfold centred_ft. f_equal. apply csum_ext. intros u Hu. apply csum_ext. intros v Hv. f_equal.
  rewrite C62_whole_pixel by (rewrite ?N0, ?N1, ?OS, ?D0, ?D1, ?Nat.mul_1_l; auto). unfold transmit. rewrite EX, OB, NM. unfold simple_exit.
  replace (shot m (diag 1) 0 u v) with (s_probe s u v); [ring|].
  unfold shot, mixture. rewrite FP, PR. cbn [length nth]. unfold csum, fsum. cbn [nth]. rewrite SP. unfold diag. cbn [Nat.eqb]. ring.
Qed.
Print Assumptions C67_agrees_with_fancy.
Example C67_case : let s := {| s_b0 := (0, -1, 0); s_b1 := (-1, 0, 0); s_min := (0, 0); s_norm := 2; s_n0 := 4; s_n1 := 5; s_probe := fun i j => RtoC (INR (i + j)); s_H := 12; s_W := 13; s_obj := fun a b => cis (IZR a) |} in
  psub2 (translations_to_pixel (s_b0 s) (s_b1 s) ez (0, 0, 0)) (s_min s) = (IZR 0, IZR 0) /\ inside (s_H s) (s_n0 s) 0 0 /\ inside (s_W s) (s_n1 s) 0 0.
Proof.
  cbv zeta. split; [|unfold inside; cbn; lia]. cbn [s_b0 s_b1 s_min].
  unfold translations_to_pixel, projection_2, projection_1, solve3, psub2, vdot, vscale, vadd, vx, vy, vz. cbn [fst snd]. f_equal; ring.
Qed.

(** ---- RPI ---- *)
Lemma photons_concat {A} os (f : A -> list img) l i j : photons os (concat (map f l)) i j = lsum (map (fun x => photons os (f x) i j) l).
Proof.
  induction l as [|x l IH]; [unfold photons, lsum; cbn; unfold Rdiv; ring|].
  cbn [map concat]. unfold lsum at 1. cbn [fold_right]. fold (lsum (map (fun x => photons os (f x) i j) l)). rewrite <- IH. unfold photons. rewrite map_app.
  assert (LA : forall a b, lsum (a ++ b)%list = lsum a + lsum b).
  { intros a b. unfold lsum. induction a as [|z a IHa]; cbn; [ring|]. rewrite IHa. ring. }
  rewrite LA. unfold Rdiv. ring.
Qed.
Lemma transmission_value e p (o : C) : transmission e p o = if e then (if p then cis (fst o) else (RtoC (exp (- snd o)) * cis (fst o))%C) else o.
Proof.
  unfold transmission. destruct e; [|reflexivity]. destruct o as [a b]. destruct p; cbn [fst snd].
  - replace (Ci * RtoC a)%C with ((0, a) : C) by (apply C_ext; cbn; ring). unfold Model_Prop.cexp. cbn [fst snd]. rewrite exp_0. apply Cmult_1_l.
  - replace (Ci * (a, b))%C with ((- b, a) : C) by (apply C_ext; cbn; ring). reflexivity.
Qed.
Lemma map_list_prod {A B C'} (g : A * B -> C') l l' : map g (list_prod l l') = concat (map (fun x => map (fun y => g (x, y)) l') l).
Proof. induction l as [|x l IH]; [reflexivity|]. cbn [list_prod map concat]. rewrite map_app, IH, map_map. reflexivity. Qed.

(** C68: the pattern RPI simulates: the incoherent sum over all pairs of a probe mode and an object mode of the
    power of the centred unitary Fourier transform of their exit wave, averaged over the oversampling block, plus
    1e-7 and the squared background, at most the saturation.  The object is cut to its support after it is
    exponentiated. *)
Theorem C68_pattern : forall m i j, (0 < r_o0 m <= r_n0 m)%nat -> (0 < r_o1 m <= r_n1 m)%nat -> (0 < r_os m)%nat ->
  (r_os m * i + r_os m <= r_n0 m)%nat -> (r_os m * j + r_os m <= r_n1 m)%nat ->
  rpi_pattern m i j = reading (r_saturation m) None (r_background m) i j
    (photons (r_os m) (map (fun kq => centred_ft (r_n0 m) (r_n1 m) (rpi_exit m (fst kq) (snd kq)))
                           (list_prod (seq 0 (length (r_probe m))) (seq 0 (length (r_obj m))))) i j + / 10 ^ 7).
Proof.
  intros m i j H0 H1 OS Hi Hj. unfold rpi_pattern, quadratic_background. rewrite incoherent_value by exact OS. cbn [o_over o_sat o_slice o_eps at_slice saturate].
  match goal with |- context [photons _ ?l i j] => set (xs := l) end.
  match goal with |- context [detector _ ?l i j] => set (ys := l) end.
  assert (Q : detector (r_os m) ys i j = photons (r_os m) xs i j).
  { transitivity (photons (r_os m) ys i j).
    - unfold detector, block_power, photons. f_equal. apply lsum_ext. intros x _. apply rsum_ext. intros a _. apply rsum_ext. intros b _. now rewrite (Nat.mul_comm i), (Nat.mul_comm j).
    - unfold xs, ys, rpi_interaction. rewrite map_list_prod, concat_map, !map_map, !photons_concat. apply lsum_ext. intros k _.
      rewrite !map_map. unfold photons. f_equal. rewrite !map_map.
      assert (NX : r_obj m = map (fun q => nth q (r_obj m) (fun _ _ => RtoC 0)) (seq 0 (length (r_obj m)))).
      { apply nth_ext with (d := fun _ _ => RtoC 0) (d' := fun _ _ => RtoC 0); [now rewrite map_length, seq_length|]. intros n Hn. now rewrite nth_map_seq. }
      rewrite NX at 1. rewrite map_map. apply lsum_ext. intros q _. apply rsum_ext. intros a Ha. apply rsum_ext. intros b Hb. cbn [fst snd]. f_equal.
      rewrite <- far_centred by lia. apply far_ext; try lia. intros u v Hu Hv. rewrite C47_interpolation by lia. unfold rpi_exit. f_equal.
      apply trig_ext. intros x y _ _. unfold rpi_object. f_equal.
      apply transmission_value. }
  rewrite Q. unfold reading, eps. rewrite Rmult_1_l.
  assert (P : 0 <= photons (r_os m) xs i j) by (rewrite <- Q; now apply detector_nonneg).
  assert (0 < / 10 ^ 7) by (apply Rinv_0_lt_compat; lra). assert (0 <= r_background m i j ^ 2) by apply pow2_ge_0.
  destruct (r_saturation m) as [s|]; cbn [saturate]; [|reflexivity]. unfold clamp. rewrite Rmax_left; [reflexivity|]. lra.
Qed.
Print Assumptions C68_pattern.

Lemma photons_seq os (g : nat -> img) n i j : photons os (map g (seq 0 n)) i j = rsum n (fun k => photons os [g k] i j).
Proof.
  rewrite (rsum_lsum n). rewrite <- (photons_concat os (fun k => [g k]) (seq 0 n)). f_equal.
  induction (seq 0 n) as [|k l IH]; [reflexivity|]. cbn [map concat app]. now rewrite IH.
Qed.
Lemma photons_pairs os (g : nat -> nat -> img) n k i j :
  photons os (map (fun kq => g (fst kq) (snd kq)) (list_prod (seq 0 n) (seq 0 k))) i j = rsum k (fun q => photons os (map (fun p => g p q) (seq 0 n)) i j).
Proof.
  rewrite map_list_prod, photons_concat, <- rsum_lsum. cbn [fst snd].
  rewrite (rsum_ext n _ (fun p => rsum k (fun q => photons os [g p q] i j))) by (intros p _; apply photons_seq).
  rewrite rsum_swap. apply rsum_ext. intros q _. symmetry. apply photons_seq.
Qed.
(** C68: a change of basis of the incoherent probe modes - the weight matrix multiplied from the left by a matrix
    with orthonormal columns - changes no simulated pattern. *)
Theorem C68_mode_mixing : forall m U i j, (0 < r_o0 m <= r_n0 m)%nat -> (0 < r_o1 m <= r_n1 m)%nat -> (0 < r_os m)%nat ->
  (r_os m * i + r_os m <= r_n0 m)%nat -> (r_os m * j + r_os m <= r_n1 m)%nat -> isometry (length (r_probe m)) (length (r_probe m)) U ->
  rpi_pattern {| r_n0 := r_n0 m; r_n1 := r_n1 m; r_probe := r_probe m; r_weights := mixed_weights (length (r_probe m)) U (r_weights m);
                 r_o0 := r_o0 m; r_o1 := r_o1 m; r_obj := r_obj m; r_support := r_support m; r_exp := r_exp m; r_phase_only := r_phase_only m;
                 r_os := r_os m; r_background := r_background m; r_saturation := r_saturation m |} i j = rpi_pattern m i j.
Proof.
  intros m U i j H0 H1 OS Hi Hj HU. set (m' := Build_rpi _ _ _ _ _ _ _ _ _ _ _ _ _).
  rewrite (C68_pattern m' i j), (C68_pattern m i j) by assumption.
  change (r_saturation m') with (r_saturation m). change (r_background m') with (r_background m). change (r_os m') with (r_os m). change (r_probe m') with (r_probe m). change (r_obj m') with (r_obj m).
  change (r_n0 m') with (r_n0 m). change (r_n1 m') with (r_n1 m).
  f_equal. f_equal. set (P := length (r_probe m)) in *.
  rewrite (photons_pairs (r_os m) (fun k q => centred_ft (r_n0 m) (r_n1 m) (rpi_exit m' k q))), (photons_pairs (r_os m) (fun k q => centred_ft (r_n0 m) (r_n1 m) (rpi_exit m k q))).
  apply rsum_ext. intros q _. rewrite <- (photons_mix (r_os m) U P P (fun p => centred_ft (r_n0 m) (r_n1 m) (rpi_exit m p q)) i j HU).
  unfold photons. f_equal. unfold mix. rewrite !map_map. apply lsum_ext. intros k _. apply rsum_ext. intros a Ha. apply rsum_ext. intros b Hb. f_equal.
  set (u := (r_os m * i + a)%nat). set (v := (r_os m * j + b)%nat).
  assert (Hu : (u < r_n0 m)%nat) by (unfold u; lia). assert (Hv : (v < r_n1 m)%nat) by (unfold v; lia).
  transitivity (centred_ft (r_n0 m) (r_n1 m) (comb P (U k) (fun p => rpi_exit m p q)) u v); [|exact (proj2 (centred_linear (r_n0 m) (r_n1 m)) P (U k) (fun p => rpi_exit m p q) u v Hu Hv)].
  apply (proj1 (centred_linear (r_n0 m) (r_n1 m))); try assumption. intros x y _ _. unfold comb, rpi_exit.
  change (rpi_object m') with (rpi_object m). change (r_o0 m') with (r_o0 m). change (r_o1 m') with (r_o1 m). change (r_n0 m') with (r_n0 m). change (r_n1 m') with (r_n1 m).
  rewrite (csum_ext P _ (fun p => U k p * rpi_probe m p x y * trig_interp (r_o0 m) (r_o1 m) (rpi_object m q) (IZR (off (r_n0 m) x) * INR (r_o0 m) / INR (r_n0 m)) (IZR (off (r_n1 m) y) * INR (r_o1 m) / INR (r_n1 m)))%C) by (intros; ring).
  rewrite <- csum_scal_r. f_equal. unfold rpi_probe. change (r_probe m') with (r_probe m). change (r_weights m') with (mixed_weights P U (r_weights m)). fold P. unfold mixed_weights.
  rewrite (csum_ext P _ (fun z => csum P (fun p => U k p * (r_weights m p z * nth z (r_probe m) (fun _ _ => RtoC 0) x y))%C)).
  2:{ intros z _. rewrite csum_scal_r. apply csum_ext. intros. ring. }
  rewrite csum_swap. apply csum_ext. intros p _. now rewrite csum_scal.
Qed.
Print Assumptions C68_mode_mixing.
(** C68: when both axes are upsampled by the same factor the stored object basis gives the object the extent of the
    probe, ... *)
Theorem C68_object_basis : forall b0 b1 n0 n1 o0 o1, (0 < o0)%nat -> (0 < o1)%nat -> (n0 * o1 = n1 * o0)%nat ->
  vscale (INR o0) (fst (rpi_obj_basis b0 b1 n0 n1 o0 o1)) = vscale (INR n0) b0 /\
  vscale (INR o1) (snd (rpi_obj_basis b0 b1 n0 n1 o0 o1)) = vscale (INR n1) b1.
Proof.
  intros b0 b1 n0 n1 o0 o1 H0 H1 E. assert (E' : INR n0 * INR o1 = INR n1 * INR o0) by (rewrite <- !mult_INR; now f_equal).
  assert (P0 : INR o0 <> 0) by (apply INRn; lia). assert (P1 : INR o1 <> 0) by (apply INRn; lia).
  assert (A : INR o0 * (INR n1 / INR o1) = INR n0) by (unfold Rdiv; rewrite <- Rmult_assoc, (Rmult_comm (INR o0)), <- E'; field; exact P1).
  assert (B : INR o1 * (INR n0 / INR o0) = INR n1) by (unfold Rdiv; rewrite <- Rmult_assoc, (Rmult_comm (INR o1)), E'; field; exact P0).
  unfold rpi_obj_basis, vscale, vx, vy, vz. cbn [fst snd]. split; (destruct b0 as [[? ?] ?], b1 as [[? ?] ?]; cbn [fst snd]; rewrite <- !Rmult_assoc, ?A, ?B; reflexivity).
Qed.
Print Assumptions C68_object_basis.
(** ... and otherwise it does not: the two factors are exchanged. *)
Theorem C68_object_basis_refuted : vscale (INR 2) (fst (rpi_obj_basis (0, 1, 0) (1, 0, 0) 4 4 2 4)) <> vscale (INR 4) (0, 1, 0).
Proof.
  unfold rpi_obj_basis, vscale, vx, vy, vz. cbn [fst snd]. intros E. apply (f_equal (fun v => snd (fst v))) in E. cbn in E. lra.
Qed.
Print Assumptions C68_object_basis_refuted.
Example C68_case : let m := {| r_n0 := 6; r_n1 := 8; r_probe := [(fun i j => RtoC (INR i)); (fun i j => RtoC (INR j))]; r_weights := diag 1;
    r_o0 := 3; r_o1 := 4; r_obj := [(fun i j => Ci); (fun i j => RtoC 1); (fun i j => RtoC 2)]; r_support := fun i j => INR (i mod 2); r_exp := true; r_phase_only := false;
    r_os := 2; r_background := fun _ _ => 1; r_saturation := Some 50 |} in
  (0 < r_o0 m <= r_n0 m)%nat /\ (0 < r_o1 m <= r_n1 m)%nat /\ (r_os m * 2 + r_os m <= r_n0 m)%nat /\ (r_os m * 3 + r_os m <= r_n1 m)%nat /\ isometry (length (r_probe m)) (length (r_probe m)) (diag 1).
Proof.
  cbv zeta. cbn [r_o0 r_n0 r_o1 r_n1 r_os r_probe length]. repeat split; try lia.
  intros l l' Hl Hl'. destruct l as [|[|l]]; [| |lia]; (destruct l' as [|[|l']]; [| |lia]); unfold csum, fsum, diag; cbn [Nat.eqb]; apply C_ext; cbn; ring.
Qed.
