(** Property theorems about probe-object interactions (C36, C37, C41, C47, C48). *)
From Verif Require Import Base FinSum Fourier Model_Prop Spec_Prop Proofs_Prop Model_Image Spec_Image Proofs_Image
  Model_Interact Spec_Interact Proofs_Interact.
From Coquelicot Require Import Complex.
From Coq Require Import Sorted.
From Coq Require Import Sorted.
From Flocq Require Import Core.Raux Core.Generic_fmt Core.Round_NE.
Local Open Scope R_scope.

(** C36: for every list of translations, every probe shape and padding, the windows of the object used at
    every translation of the list lie inside the object array, at least `padding` pixels from its
    edges - rounded (ptycho_2D_round) or floored (ptycho_2D_linear on the probe, ptycho_2D_sinc). *)
Theorem C36_windows_inside : forall P0 P1 ts pad t, In t ts ->
  let r := calc_object_setup P0 P1 ts pad in
  let u0 := fst t - fst (snd r) in let u1 := snd t - snd (snd r) in
  inside (fst (fst r)) P0 pad (ZnearestE u0) /\ inside (snd (fst r)) P1 pad (ZnearestE u1) /\
  inside (fst (fst r)) P0 pad (Zfloor u0) /\ inside (snd (fst r)) P1 pad (Zfloor u1).
Proof.
  intros P0 P1 ts pad t H r u0 u1. unfold u0, u1, r, calc_object_setup. cbn [fst snd].
  assert (H0 : In (fst t) (map fst ts)) by now apply in_map. assert (H1 : In (snd t) (map snd ts)) by now apply in_map.
  repeat split; try (apply axis_inside; auto using ZnearestE_le, ZnearestE_IZR, floor_le, Zfloor_IZR).
Qed.
Print Assumptions C36_windows_inside.
(** C36: hence none of these interactions can fail, ... *)
Theorem C36_no_failure : forall P0 P1 ts pad t obj probe back, In t ts ->
  let r := calc_object_setup P0 P1 ts pad in
  let u := (fst t - fst (snd r), snd t - snd (snd r)) in
  let H := fst (fst r) in let W := snd (fst r) in
  ptycho_2D_round H W obj P0 P1 probe u <> None /\
  ptycho_2D_linear H W obj P0 P1 probe u true <> None /\
  ptycho_2D_sinc H W obj P0 P1 probe u back <> None /\
  ((1 <= pad)%nat -> ptycho_2D_linear H W obj P0 P1 probe u false <> None).
Proof.
  intros P0 P1 ts pad t obj probe back Ht r u H W.
  destruct (C36_windows_inside P0 P1 ts pad t Ht) as (A & B & C & D). fold r in A, B, C, D. unfold inside in *.
  unfold ptycho_2D_round, ptycho_2D_linear, ptycho_2D_sinc. cbn [fst snd] in *.
  change (fst t - fst (snd r)) with (fst u) in A, B, C, D. change (snd t - snd (snd r)) with (snd u) in A, B, C, D. fold H W in A, B, C, D |- *.
  rewrite !window_some by lia. cbn [option_map]. split; [discriminate|]. split; [discriminate|]. split; [discriminate|].
  intros Hp. rewrite !window_some by lia. discriminate.
Qed.
Print Assumptions C36_no_failure.
(** ... except linear interpolation of the object when there is no padding, which reads one pixel beyond
    the array. *)
Theorem C36_object_shift_refuted : exists P0 P1 ts t, In t ts /\
  let r := calc_object_setup P0 P1 ts 0 in
  forall obj probe, ptycho_2D_linear (fst (fst r)) (snd (fst r)) obj P0 P1 probe (fst t - fst (snd r), snd t - snd (snd r)) false = None.
Proof.
  exists 2%nat, 2%nat, [(0, 0)], (0, 0). split; [now left|]. intros r obj probe. unfold r, calc_object_setup, calc_axis. cbn [map fst snd rmin rmax fold_left INR].
  replace (0 - (0 - 0)) with (IZR 0) by lra. replace (0 - 0) with (IZR 0) by lra.
  unfold ptycho_2D_linear. cbn [fst snd]. rewrite Zceil_IZR, Zfloor_IZR. reflexivity.
Qed.
Print Assumptions C36_object_shift_refuted.
(** C36: the returned minimum makes the smallest translation land exactly on (padding, padding). *)
Theorem C36_minimum : forall P0 P1 ts pad, ts <> [] ->
  let m := snd (calc_object_setup P0 P1 ts pad) in
  (forall t, In t ts -> INR pad <= fst t - fst m /\ INR pad <= snd t - snd m) /\
  (exists t, In t ts /\ fst t - fst m = INR pad) /\ (exists t, In t ts /\ snd t - snd m = INR pad).
Proof.
  intros P0 P1 ts pad Hne m. unfold m, calc_object_setup, calc_axis. cbn [fst snd].
  assert (N : forall f : R * R -> R, map f ts <> []) by (destruct ts; [easy|discriminate]).
  split; [|split].
  - intros t Ht. pose proof (rmin_le (map fst ts) (fst t) (in_map _ _ _ Ht)). pose proof (rmin_le (map snd ts) (snd t) (in_map _ _ _ Ht)). lra.
  - pose proof (rmin_in _ (N fst)) as I. apply in_map_iff in I. destruct I as (t & E & I). exists t. split; [exact I|]. rewrite E. ring.
  - pose proof (rmin_in _ (N snd)) as I. apply in_map_iff in I. destruct I as (t & E & I). exists t. split; [exact I|]. rewrite E. ring.
Qed.
Print Assumptions C36_minimum.
Example C36_case : fst (calc_axis 64 [3; -5 / 2; 10] 2) = (13 + 64 + 4)%Z.
Proof.
  unfold calc_axis. cbn [fst rmin rmax fold_left].
  assert (E1 : Rmin (Rmin 3 (-5 / 2)) 10 = -5 / 2) by (unfold Rmin; repeat destruct (Rle_dec _ _); lra).
  assert (E2 : Rmax (Rmax 3 (-5 / 2)) 10 = 10) by (unfold Rmax; repeat destruct (Rle_dec _ _); lra).
  rewrite E1, E2. assert (E : Zceil (10 - -5 / 2) = 13%Z) by (apply Zceil_imp; cbn; lra). rewrite E. reflexivity.
Qed.

(** C37: at integer translations (inside the object) all interaction models return the probe times the
    object window at that translation. *)
Theorem C37_integer_agree : forall H W obj P0 P1 probe a b back, (0 < P0)%nat -> (0 < P1)%nat ->
  inside H P0 0 a -> inside W P1 0 b ->
  let t := (IZR a, IZR b) in
  gives P0 P1 (ptycho_2D_round H W obj P0 P1 probe t) (exit_at probe obj a b) /\
  gives P0 P1 (ptycho_2D_linear H W obj P0 P1 probe t true) (exit_at probe obj a b) /\
  gives P0 P1 (ptycho_2D_sinc H W obj P0 P1 probe t back) (exit_at probe obj a b) /\
  (inside H P0 0 (a + 1) -> inside W P1 0 (b + 1) ->
   gives P0 P1 (ptycho_2D_linear H W obj P0 P1 probe t false) (exit_at probe obj a b)).
Proof.
  intros H W obj P0 P1 probe a b back HP0 HP1 [A1 A2] [B1 B2] t. unfold t. cbn [Z.of_nat] in *.
  unfold ptycho_2D_round, ptycho_2D_linear, ptycho_2D_sinc, gives, exit_at. cbn [fst snd].
  rewrite !ZnearestE_IZR, !Zfloor_IZR, !sub_part_Z, !window_some by lia. cbn [option_map].
  split; [|split; [|split]].
  - eexists. split; [reflexivity|]. intros i j _ _. reflexivity.
  - eexists. split; [reflexivity|]. intros i j _ _. unfold times_img. now rewrite mix4_0.
  - eexists. split; [reflexivity|]. rewrite sinc_filter.
    assert (S : same P0 P1 (times_img (sinc_subpixel_shift P0 P1 probe 0 0) (fun i j => obj (a + Z.of_nat i)%Z (b + Z.of_nat j)%Z))
                          (fun i j => (probe i j * obj (a + Z.of_nat i)%Z (b + Z.of_nat j)%Z)%C)).
    { intros i j Hi Hj. unfold times_img. now rewrite shift_zero. }
    destruct back; [|exact S]. intros i j Hi Hj. rewrite sinc_back, (sinc_ext P0 P1 _ _ _ _ i j S), Ropp_0. now apply shift_zero.
  - intros [C1 C2] [D1 D2]. cbn [Z.of_nat] in *. rewrite !window_some by lia. eexists. split; [reflexivity|].
    intros i j _ _. unfold times_img. now rewrite mix4_0.
Qed.
Print Assumptions C37_integer_agree.
(** C37: ptycho_2D_round is off by at most half a pixel. *)
Theorem C37_round_nearest : forall H W obj P0 P1 probe t y, ptycho_2D_round H W obj P0 P1 probe t = Some y ->
  exists a b, Rabs (IZR a - fst t) <= 1 / 2 /\ Rabs (IZR b - snd t) <= 1 / 2 /\ same P0 P1 y (exit_at probe obj a b).
Proof.
  intros H W obj P0 P1 probe t y E. unfold ptycho_2D_round, window in E.
  exists (ZnearestE (fst t)), (ZnearestE (snd t)).
  split; [rewrite Rabs_minus_sym; pose proof (Znearest_half (fun x => negb (Z.even x)) (fst t)); lra|].
  split; [rewrite Rabs_minus_sym; pose proof (Znearest_half (fun x => negb (Z.even x)) (snd t)); lra|].
  match type of E with context [if ?c then _ else _] => destruct c end; [|discriminate]. cbn in E. injection E as <-. intros i j _ _. reflexivity.
Qed.
Print Assumptions C37_round_nearest.
(** C37: linear interpolation of the object is exact for every bilinear object, at every real
    translation: pixel (i, j) sees the object at (t0 + i, t1 + j). *)
Theorem C37_linear_object_exact : forall H W P0 P1 probe t a b c d y,
  ptycho_2D_linear H W (fun u v => bilin a b c d (IZR u) (IZR v)) P0 P1 probe t false = Some y ->
  same P0 P1 y (fun i j => (probe i j * bilin a b c d (fst t + INR i) (snd t + INR j))%C).
Proof.
  intros H W P0 P1 probe t a b c d y E. unfold ptycho_2D_linear, window in E.
  repeat match type of E with context [if ?c then _ else _] => destruct c; [|discriminate] end. injection E as <-.
  intros i j _ _. unfold times_img, mix4, bilin. f_equal.
  set (s0 := sub_part (fst t)). set (s1 := sub_part (snd t)).
  assert (E0 : fst t = IZR (Zfloor (fst t)) + s0) by (unfold s0, sub_part; ring).
  assert (E1 : snd t = IZR (Zfloor (snd t)) + s1) by (unfold s1, sub_part; ring).
  set (f0 := Zfloor (fst t)) in *. set (f1 := Zfloor (snd t)) in *. clearbody f0 f1 s0 s1.
  rewrite E0, E1. rewrite !plus_IZR, <- !INR_IZR_INZ.
  destruct a, b, c, d. apply C_ext; unfold Cplus, Cmult, RtoC; cbn [fst snd]; ring.
Qed.
Print Assumptions C37_linear_object_exact.
(** C37: linear interpolation of the probe: away from the first row and column, which wrap around, a
    bilinear probe is moved by exactly the fractional part of the translation. *)
Theorem C37_linear_probe_exact : forall H W obj P0 P1 t a b c d y,
  ptycho_2D_linear H W obj P0 P1 (fun i j => bilin a b c d (INR i) (INR j)) t true = Some y ->
  forall i j, (1 <= i < P0)%nat -> (1 <= j < P1)%nat ->
  y i j = (bilin a b c d (INR i - (fst t - IZR (Zfloor (fst t)))) (INR j - (snd t - IZR (Zfloor (snd t)))) *
           obj (Zfloor (fst t) + Z.of_nat i)%Z (Zfloor (snd t) + Z.of_nat j)%Z)%C.
Proof.
  intros H W obj P0 P1 t a b c d y E i j [Hi _] [Hj _]. unfold ptycho_2D_linear, window in E.
  match type of E with context [if ?c then _ else _] => destruct c; [|discriminate] end. cbn [option_map] in E. injection E as <-.
  unfold times_img. f_equal. unfold mix4, roll_rows, roll_cols, bilin. fold (sub_part (fst t)) (sub_part (snd t)).
  destruct i as [|i]; [lia|]. destruct j as [|j]; [lia|]. rewrite !S_INR.
  generalize (sub_part (fst t)) (sub_part (snd t)). intros s0 s1. destruct a, b, c, d. apply C_ext; unfold Cplus, Cmult, RtoC; cbn [fst snd]; ring.
Qed.
Print Assumptions C37_linear_probe_exact.
(** C37: the weights are non-negative and sum to one: the interpolation never exceeds the largest modulus
    of its inputs. *)
Theorem C37_linear_bounded : forall H W obj P0 P1 probe t y B, (forall u v, Cmod (obj u v) <= B) ->
  ptycho_2D_linear H W obj P0 P1 probe t false = Some y ->
  forall i j, Cmod (y i j) <= Cmod (probe i j) * B.
Proof.
  intros H W obj P0 P1 probe t y B HB E i j. unfold ptycho_2D_linear, window in E.
  repeat match type of E with context [if ?c then _ else _] => destruct c; [|discriminate] end. injection E as <-.
  unfold times_img. rewrite Cmod_mult. apply Rmult_le_compat_l; [apply Cmod_ge_0|]. unfold mix4.
  pose proof (sub_part_range (fst t)) as S0. pose proof (sub_part_range (snd t)) as S1.
  set (s0 := sub_part (fst t)) in *. set (s1 := sub_part (snd t)) in *.
  assert (T : forall z a b, 0 <= a -> 0 <= b -> Cmod z <= B -> Cmod (z * RtoC a * RtoC b)%C <= a * b * B).
  { intros z a b Ha Hb Hz. rewrite !Cmod_mult, !Cmod_R, !Rabs_pos_eq by assumption.
    rewrite (Rmult_comm (Cmod z * a)), <- Rmult_assoc, (Rmult_comm b (Cmod z)), Rmult_assoc, Rmult_comm, (Rmult_comm b a).
    apply Rmult_le_compat_l; [now apply Rmult_le_pos|exact Hz]. }
  eapply Rle_trans; [apply Cmod_triangle|]. eapply Rle_trans; [apply Rplus_le_compat_r, Cmod_triangle|].
  eapply Rle_trans; [apply Rplus_le_compat_r, Rplus_le_compat_r, Cmod_triangle|].
  eapply Rle_trans; [apply Rplus_le_compat; [apply Rplus_le_compat; [apply Rplus_le_compat|]|]; apply T; try lra; apply HB|].
  apply Req_le. ring.
Qed.
Print Assumptions C37_linear_bounded.
(** C37: sinc interpolation moves the probe without changing its power: over any object of modulus 1 the
    exit wave has the power of the probe, shifted back or not, at every real translation; over a
    uniform object with shift_back_ew it is the unshifted probe times the object. *)
Theorem C37_sinc_power : forall H W obj P0 P1 probe t back y, (0 < P0)%nat -> (0 < P1)%nat -> (forall u v, Cmod (obj u v) = 1) ->
  ptycho_2D_sinc H W obj P0 P1 probe t back = Some y -> energy P0 P1 y = energy P0 P1 probe.
Proof.
  intros H W obj P0 P1 probe t back y HP0 HP1 U E. unfold ptycho_2D_sinc in E. unfold window in E.
  match type of E with context [if ?c then Some _ else None] => destruct c; [|discriminate] end. cbn [option_map] in E. injection E as <-.
  rewrite sinc_filter. set (s0 := sub_part (fst t)). set (s1 := sub_part (snd t)).
  set (o := times_img (sinc_subpixel_shift P0 P1 probe s0 s1) _).
  assert (EO : energy P0 P1 o = energy P0 P1 probe).
  { rewrite <- (shift_energy P0 P1 probe s0 s1 HP0 HP1). unfold energy. apply rsum_ext. intros i Hi. apply rsum_ext. intros j Hj.
    unfold o, times_img. rewrite nrm2_mult, (nrm2_Cmod (obj _ _)), U. ring. }
  destruct back; [|exact EO]. rewrite <- EO. rewrite <- (shift_energy P0 P1 o (- s0) (- s1) HP0 HP1).
  apply energy_ext. intros i j Hi Hj. apply sinc_back.
Qed.
Print Assumptions C37_sinc_power.
Theorem C37_sinc_shift_back : forall H W P0 P1 probe t c y, (0 < P0)%nat -> (0 < P1)%nat ->
  ptycho_2D_sinc H W (fun _ _ => c) P0 P1 probe t true = Some y -> same P0 P1 y (fun i j => (probe i j * c)%C).
Proof.
  intros H W P0 P1 probe t c y HP0 HP1 E. unfold ptycho_2D_sinc, window in E.
  match type of E with context [if ?c then Some _ else None] => destruct c; [|discriminate] end. cbn [option_map] in E. injection E as <-.
  rewrite sinc_filter. set (s0 := sub_part (fst t)). set (s1 := sub_part (snd t)). intros i j Hi Hj. rewrite sinc_back.
  assert (L : forall x a b k l, sinc_subpixel_shift P0 P1 (times_img x (fun _ _ => c)) a b k l = (c * sinc_subpixel_shift P0 P1 x a b k l)%C).
  { intros x a b k l. rewrite !shift_near. pose proof (near_linear P0 P1 c x (RtoC 0) x (shift_mask P0 P1 a b) k l) as N.
    rewrite <- (near_ext P0 P1 (lin c x (RtoC 0) x) _ (shift_mask P0 P1 a b) _).
    - rewrite N. ring.
    - intros u v _ _. unfold lin, times_img. ring.
    - now intros ? ? _ _. }
  rewrite L, shift_compose by assumption. rewrite !Rplus_opp_r, shift_zero by assumption. ring.
Qed.
Print Assumptions C37_sinc_shift_back.
Example C37_case : inside 10 4 0 3 /\ inside 10 4 0 (3 + 1) /\
  ptycho_2D_linear 10 10 (fun u v => bilin 0 1 0 0 (IZR u) (IZR v)) 4 4 (fun _ _ => RtoC 1) (IZR 3, IZR 2) false <> None.
Proof.
  split; [split; cbn; lia|]. split; [split; cbn; lia|]. unfold ptycho_2D_linear. cbn [fst snd]. rewrite !Zfloor_IZR. discriminate.
Qed.

(** C41: for every number of modes, the exponent pairs are the first ones in the order by total order and
    first exponent: as many as requested, strictly increasing (hence distinct), never (0, 0), and
    skipping none. *)
Theorem C41_orders : forall n,
  length (orders n) = n /\ StronglySorted before (orders n) /\
  (forall o, In o (orders n) -> (1 <= fst o + snd o)%nat) /\
  (forall o o', In o (orders n) -> before o' o -> (1 <= fst o' + snd o')%nat -> In o' (orders n)).
Proof.
  intros n. unfold orders. split; [apply make_orders_length|]. split; [apply make_orders_sorted; lia|]. split.
  - intros o Ho. destruct (make_orders_after n 0 1 o ltac:(lia) Ho) as [A|A]; unfold tot in A; lia.
  - intros o o' Ho B G. apply (make_orders_closed n 0 1 o o' ltac:(lia) Ho B). unfold tot. lia.
Qed.
Print Assumptions C41_orders.
Lemma rsum_pos_one n f k : (forall i, (i < n)%nat -> 0 <= f i) -> (k < n)%nat -> 0 < f k -> 0 < rsum n f.
Proof.
  intros H Hk P. destruct (Rle_lt_or_eq_dec _ _ (rsum_nonneg n f H)) as [L|Q]; [exact L|].
  exfalso. symmetry in Q. pose proof (proj1 (rsum_zero_iff n f H) Q k Hk) as Z. cbv beta in Z. lra.
Qed.
Lemma energy_pos N M x i j : (i < N)%nat -> (j < M)%nat -> x i j <> RtoC 0 -> 0 < energy N M x.
Proof.
  intros Hi Hj X. assert (P : 0 < nrm2 (x i j)).
  { rewrite nrm2_Cmod. pose proof (proj1 (Cmod_gt_0 _) X). nra. }
  unfold energy. apply rsum_pos_one with i; [intros; apply rsum_nonneg; intros; apply nrm2_nonneg|exact Hi|].
  apply rsum_pos_one with j; [intros; apply nrm2_nonneg|exact Hj|exact P].
Qed.
Lemma energy_nonzero N M x : 0 < energy N M x -> exists i j, (i < N)%nat /\ (j < M)%nat /\ x i j <> RtoC 0.
Proof.
  intros P. unfold energy in P. assert (EX : forall n f, 0 < rsum n f -> exists i, (i < n)%nat /\ 0 < f i).
  { induction n as [|n IH]; intros f Q; [cbn in Q; lra|]. rewrite rsum_S in Q. destruct (Rlt_dec 0 (f n)) as [L|L]; [exists n; split; [lia|exact L]|].
    destruct (IH f ltac:(lra)) as (i & Hi & Hp). exists i. split; [lia|exact Hp]. }
  destruct (EX _ _ P) as (i & Hi & Pi). destruct (EX _ _ Pi) as (j & Hj & Pj). exists i, j. repeat split; auto.
  intros Z. rewrite Z, nrm2_RtoC in Pj. lra.
Qed.
Lemma far_field_fun_ext N M x y i j : (forall a b, x a b = y a b) -> far_field N M x i j = far_field N M y i j.
Proof.
  intros E. unfold far_field, fftshift2, fft2_ortho, fft2, ifftshift2, dft. f_equal.
  apply csum_ext. intros n _. f_equal. apply csum_ext. intros m _. now rewrite E.
Qed.
Lemma far_scal N M c x i j : far_field N M (fun i j => (c * x i j)%C) i j = (c * far_field N M x i j)%C.
Proof.
  pose proof (proj1 (far_linear N M c x (RtoC 0) x i j)) as L.
  rewrite (far_field_fun_ext N M _ (lin c x (RtoC 0) x)); [rewrite L; ring|]. intros a b. unfold lin. ring.
Qed.
(** C41: the modes are derivatives of the dominant mode: for every mode k with exponents (a, b), the Fourier
    coefficient at distance (u, v) from the zero frequency is that of the dominant mode times
    (u + iv)^a (u - iv)^b (circular) or u^a v^b (linear), times one positive constant; and each mode is
    scaled so that its amplitudes sum up to the intensity of the dominant mode. *)
Theorem C41_modes : forall N M dom n circular, (0 < N)%nat -> (0 < M)%nat -> (1 <= n <= 1024)%nat ->
  exists modes, generate_subdominant_modes N M dom n circular = Ok modes /\ length modes = n /\
  forall k mode, nth_error modes k = Some mode ->
  exists a b, nth_error (orders n) k = Some (a, b) /\
  let factor := derivative circular N M a b in
  ((exists i j, (i < N)%nat /\ (j < M)%nat /\ factor i j <> RtoC 0 /\ far_field N M dom i j <> RtoC 0) ->
   (exists c, 0 < c /\ forall i j, (i < N)%nat -> (j < M)%nat ->
      far_field N M mode i j = (RtoC c * (factor i j * far_field N M dom i j))%C) /\
   rsum N (fun i => rsum M (fun j => Cmod (mode i j))) = energy N M dom).
Proof.
  intros N M dom n circular HN HM Hn. unfold generate_subdominant_modes.
  destruct (Nat.ltb_spec 1024 n) as [C|_]; [lia|].
  assert (LO : length (orders n) = n) by apply make_orders_length.
  destruct (orders n) as [|o0 os] eqn:EO; [cbn in LO; lia|]. rewrite <- EO in *. clear EO o0 os.
  eexists. split; [reflexivity|]. split; [now rewrite map_length|].
  intros k mode Hk. rewrite nth_error_map in Hk. destruct (nth_error (orders n) k) as [[a b]|] eqn:Ek; [|discriminate].
  injection Hk as <-. exists a, b. split; [reflexivity|]. set (factor := derivative circular N M a b). intros (i0 & j0 & Hi0 & Hj0 & F0 & D0).
  assert (FM : forall i j, mode_mask circular N M (a, b) i j = factor i j).
  { intros i j. unfold mode_mask, factor, derivative, off. cbn [fst snd]. destruct circular; reflexivity. }
  unfold subdominant_mode. set (new := inverse_far_field N M (times_img (mode_mask circular N M (a, b)) (far_field N M dom))).
  assert (FN : forall i j, (i < N)%nat -> (j < M)%nat -> far_field N M new i j = (factor i j * far_field N M dom i j)%C).
  { intros i j Hi Hj. unfold new. rewrite (proj2 (far_inverse N M _ HN HM) i j Hi Hj). unfold times_img. now rewrite FM. }
  set (pn := rsum N (fun i => rsum M (fun j => Cmod (dom i j) ^ 2))).
  assert (EP : pn = energy N M dom).
  { unfold pn, energy. apply rsum_ext. intros i _. apply rsum_ext. intros j _. now rewrite nrm2_Cmod. }
  set (s := rsum N (fun i => rsum M (fun j => Cmod (new i j)))).
  assert (PE : 0 < energy N M dom).
  { rewrite <- (proj1 (far_energy N M dom HN HM)). apply energy_pos with i0 j0; auto. }
  assert (PS : 0 < s).
  { assert (PN : 0 < energy N M new).
    { rewrite <- (proj1 (far_energy N M new HN HM)). apply energy_pos with i0 j0; auto. rewrite FN by auto. now apply Cmult_neq_0. }
    destruct (energy_nonzero N M new PN) as (i1 & j1 & Hi1 & Hj1 & N1). unfold s.
    apply rsum_pos_one with i1; [intros; apply rsum_nonneg; intros; apply Cmod_ge_0|exact Hi1|].
    apply rsum_pos_one with j1; [intros; apply Cmod_ge_0|exact Hj1|]. now apply Cmod_gt_0. }
  split.
  - exists (pn / s). split; [rewrite EP; now apply Rdiv_lt_0_compat|]. intros i j Hi Hj. rewrite <- FN by auto.
    rewrite <- (far_scal N M (RtoC (pn / s)) new i j). reflexivity.
  - rewrite <- EP. rewrite (rsum_ext N _ (fun i => pn / s * rsum M (fun j => Cmod (new i j)))).
    + rewrite <- rsum_scal. fold s. field. lra.
    + intros i _. rewrite rsum_scal. apply rsum_ext. intros j _. rewrite Cmod_mult, Cmod_R, Rabs_pos_eq; [reflexivity|].
      left. rewrite EP. now apply Rdiv_lt_0_compat.
Qed.
Print Assumptions C41_modes.
Example C41_modes_case : let dom := inverse_far_field 3 3 (fun _ _ => RtoC 1) in
  derivative true 3%nat 3%nat 0%nat 1%nat 0%nat 0%nat <> RtoC 0 /\ far_field 3%nat 3%nat dom 0%nat 0%nat <> RtoC 0 /\ nth_error (orders 2%nat) 0%nat = Some (0, 1)%nat.
Proof.
  split; [|split; [|reflexivity]].
  - unfold derivative. cbn. intros H. apply (f_equal fst) in H. cbn in H. lra.
  - rewrite (proj2 (far_inverse 3%nat 3%nat _ ltac:(lia) ltac:(lia)) 0%nat 0%nat ltac:(lia) ltac:(lia)). intros H. apply (f_equal fst) in H. cbn in H. lra.
Qed.
(** ... no modes or more than 1024 are refused. *)
Theorem C41_refused : forall N M dom circular, generate_subdominant_modes N M dom 0 circular = Raise RuntimeError /\
  forall n, (1024 < n)%nat -> generate_subdominant_modes N M dom n circular = Raise KeyError.
Proof.
  intros N M dom circular. split; [reflexivity|]. intros n Hn. unfold generate_subdominant_modes.
  destruct (Nat.ltb_spec 1024 n); [reflexivity|lia].
Qed.
Print Assumptions C41_refused.
(** C41: "the output probes will all be normalized to have the same intensity as the input dominant
    probe" fails. *)
Theorem C41_power_refuted : exists N M dom o, In o (orders 1) /\
  energy N M dom = 1 /\ energy N M (subdominant_mode true N M dom o) <> 1.
Proof.
  set (F := fun i j : nat => if Nat.eqb i 0 then RtoC 1 else RtoC 0).
  exists 2%nat, 1%nat, (inverse_far_field 2 1 F), (0, 1)%nat. split; [now left|].
  assert (EF : energy 2 1 F = 1) by (unfold energy, F; cbn; unfold nrm2; cbn; ring).
  split; [rewrite (proj2 (far_energy 2 1 F ltac:(lia) ltac:(lia))); exact EF|].
  set (dom := inverse_far_field 2 1 F).
  assert (MF : same 2 1 (times_img (mode_mask true 2 1 (0, 1)%nat) (far_field 2 1 dom)) (fun i j => (RtoC (-1) * F i j)%C)).
  { intros i j Hi Hj. unfold times_img, dom. rewrite (proj2 (far_inverse 2 1 F ltac:(lia) ltac:(lia)) i j Hi Hj).
    destruct j; [|lia]. destruct i as [|[|]]; [| |lia]; unfold mode_mask, F; cbn; unfold Ci; apply C_ext; cbn; ring. }
  set (new := inverse_far_field 2 1 (times_img (mode_mask true 2 1 (0, 1)%nat) (far_field 2 1 dom))).
  assert (NV : forall i, (i < 2)%nat -> nrm2 (new i 0%nat) = / 2).
  { intros i Hi. unfold new. rewrite (inv_far_ext 2 1 _ _ ltac:(lia) ltac:(lia) MF i 0%nat Hi ltac:(lia)).
    rewrite inv_far_centred by lia. unfold csum, fsum. unfold F. cbn [Nat.eqb].
    match goal with |- nrm2 (?a * ?b)%C = _ => replace b with (RtoC (-1) * (w 2 (off 2 i * off 2 0) * w 1 (off 1 0 * off 1 0)))%C by ring end.
    rewrite !nrm2_mult, !w_nrm2, !nrm2_RtoC. cbn [Nat.mul Nat.add INR]. rewrite <- Rinv_mult, sqrt_sqrt by lra. lra. }
  assert (CV : forall i, (i < 2)%nat -> Cmod (new i 0%nat) = / sqrt 2).
  { intros i Hi. rewrite Cmod_nrm2, NV by exact Hi. apply sqrt_inv. }
  assert (PN : rsum 2 (fun i => rsum 1 (fun j => Cmod (dom i j) ^ 2)) = 1).
  { rewrite <- EF, <- (proj2 (far_energy 2 1 F ltac:(lia) ltac:(lia))). unfold energy. apply rsum_ext. intros i _. apply rsum_ext. intros j _. now rewrite nrm2_Cmod. }
  unfold subdominant_mode. fold new. rewrite PN.
  assert (SN : rsum 2 (fun i => rsum 1 (fun j => Cmod (new i j))) = sqrt 2).
  { unfold rsum, fsum. rewrite !CV by lia. pose proof (sqrt_lt_R0 2 ltac:(lra)). replace (0 + (0 + / sqrt 2) + (0 + / sqrt 2)) with (2 * / sqrt 2) by lra.
    rewrite <- (sqrt_sqrt 2) at 1 by lra. field. lra. }
  rewrite SN, energy_scal, nrm2_RtoC.
  assert (EN : energy 2 1 new = 1). { unfold energy, rsum, fsum. rewrite !NV by lia. lra. }
  rewrite EN. unfold Rdiv. rewrite !Rmult_1_l, Rmult_1_r, <- Rinv_mult, sqrt_sqrt by lra. lra.
Qed.
Print Assumptions C41_power_refuted.
Example C41_case : orders 6 = [(0, 1); (1, 0); (0, 2); (1, 1); (2, 0); (0, 3)]%nat.
Proof. reflexivity. Qed.

(** C47: for all sizes of either parity with the probe array at least as large as the object array,
    RPI_interaction multiplies the probe by the trigonometric interpolation of the object on the probe
    grid, centre pixels coinciding; ... *)
Theorem C47_interpolation : forall P0 P1 O0 O1 probe obj p q, (0 < O0 <= P0)%nat -> (0 < O1 <= P1)%nat ->
  RPI_interaction P0 P1 O0 O1 probe obj p q =
  (probe p q * trig_interp O0 O1 obj (IZR (off P0 p) * INR O0 / INR P0) (IZR (off P1 q) * INR O1 / INR P1))%C.
Proof. intros. unfold RPI_interaction, times_img. now rewrite RPI_formula. Qed.
Print Assumptions C47_interpolation.
(** ... that interpolation passes through the object's pixels, ... *)
Theorem C47_through_pixels : forall O0 O1 obj n m, (n < O0)%nat -> (m < O1)%nat ->
  trig_interp O0 O1 obj (IZR (off O0 n)) (IZR (off O1 m)) = obj n m.
Proof. exact trig_interp_pixels. Qed.
Print Assumptions C47_through_pixels.
(** ... and keeps the object's mean and mean intensity. *)
Theorem C47_mean : forall P0 P1 O0 O1 obj, (0 < O0 <= P0)%nat -> (0 < O1 <= P1)%nat ->
  let up := RPI_interaction P0 P1 O0 O1 (fun _ _ => RtoC 1) obj in
  (RtoC (/ INR (P0 * P1)) * total P0 P1 up = RtoC (/ INR (O0 * O1)) * total O0 O1 obj)%C /\
  energy P0 P1 up / INR (P0 * P1) = energy O0 O1 obj / INR (O0 * O1).
Proof.
  intros P0 P1 O0 O1 obj H0 H1 up.
  assert (S : same P0 P1 up (RPI_upsample P0 P1 O0 O1 obj)) by (intros i j _ _; unfold up, RPI_interaction, times_img; ring).
  split.
  - rewrite <- (RPI_total P0 P1 O0 O1 obj H0 H1). f_equal. unfold total. apply csum_ext. intros i Hi. apply csum_ext. intros j Hj. now apply S.
  - rewrite (energy_ext _ _ _ _ S), RPI_energy by assumption. field. split; apply not_0_INR; nia.
Qed.
Print Assumptions C47_mean.
Example C47_case : (0 < 3 <= 8)%nat /\ (0 < 4 <= 7)%nat.
Proof. lia. Qed.

(** C48: the two operators of the spectral initialisation are adjoint to each other, for all sizes, ... *)
Theorem C48_adjoint : forall P0 P1 O0 O1 probe x y, (0 < O0 <= P0)%nat -> (0 < O1 <= P1)%nat ->
  inner P0 P1 (spectral_a_dagger P0 P1 O0 O1 probe x) y = inner O0 O1 x (spectral_a P0 P1 O0 O1 probe y).
Proof. exact spectral_adjoint. Qed.
Print Assumptions C48_adjoint.
(** ... so that, for non-negative weights (the code's |pattern| / |vec|), the operator A Y A_dagger whose
    leading eigenvectors are used is Hermitian and positive semidefinite. *)
Theorem C48_positive : forall P0 P1 O0 O1 probe (wt : nat -> nat -> R), (0 < O0 <= P0)%nat -> (0 < O1 <= P1)%nat ->
  (forall i j, 0 <= wt i j) ->
  let T := fun x => spectral_a P0 P1 O0 O1 probe (times_img (fun i j => RtoC (wt i j)) (spectral_a_dagger P0 P1 O0 O1 probe x)) in
  (forall x y, inner O0 O1 (T x) y = inner O0 O1 x (T y)) /\
  (forall x, exists r, 0 <= r /\ inner O0 O1 x (T x) = RtoC r).
Proof.
  intros P0 P1 O0 O1 probe wt H0 H1 Hw T. split.
  - intros x y. unfold T. rewrite <- spectral_adjoint by assumption. rewrite (inner_sym O0 O1 y), <- spectral_adjoint by assumption.
    rewrite <- inner_sym. rewrite times_adjoint. apply inner_ext; [now intros ? ? _ _|].
    intros i j _ _. unfold times_img. now rewrite Cconj_RtoC.
  - intros x. unfold T. rewrite <- spectral_adjoint by assumption. set (z := spectral_a_dagger P0 P1 O0 O1 probe x).
    exists (rsum P0 (fun i => rsum P1 (fun j => wt i j * nrm2 (z i j)))). split.
    + apply rsum_nonneg. intros i _. apply rsum_nonneg. intros j _. apply Rmult_le_pos; [apply Hw|apply nrm2_nonneg].
    + unfold inner. rewrite <- csum_RtoC. apply csum_ext. intros i _. rewrite <- csum_RtoC. apply csum_ext. intros j _.
      unfold times_img. rewrite Cconj_mult, Cconj_RtoC, RtoC_mult, <- mult_conj. ring.
Qed.
Print Assumptions C48_positive.
(** C48: unless the probe axis is even and the object axis odd, A_dagger simulates the same experiment as
    the RPI model, up to the constant upsampling factor; ... *)
Theorem C48_same_model : forall P0 P1 O0 O1 probe obj, (0 < O0 <= P0)%nat -> (0 < O1 <= P1)%nat ->
  (Nat.Odd P0 \/ Nat.Even O0) -> (Nat.Odd P1 \/ Nat.Even O1) ->
  same P0 P1 (far_field P0 P1 (RPI_interaction P0 P1 O0 O1 probe obj))
    (fun i j => (RtoC (sqrt (INR (P0 * P1) / INR (O0 * O1))) * spectral_a_dagger P0 P1 O0 O1 probe obj i j)%C).
Proof.
  intros P0 P1 O0 O1 probe obj H0 H1 E0 E1 i j Hi Hj. unfold RPI_interaction, RPI_upsample, spectral_a_dagger.
  assert (L : forall P O, (0 < O <= P)%nat -> (Nat.Odd P \/ Nat.Even O) -> (P / 2 - O / 2 = (P - O) / 2)%nat).
  { intros P O HPO E. destruct E as [[k E]|[k E]].
    - pose proof (Nat.div_mod O 2 ltac:(lia)) as D. pose proof (Nat.mod_upper_bound O 2 ltac:(lia)).
      assert (P / 2 = k)%nat by (symmetry; apply (Nat.div_unique P 2 k 1); lia).
      assert ((P - O) / 2 = k - O / 2)%nat by (symmetry; apply (Nat.div_unique (P - O) 2 (k - O / 2) (1 - O mod 2)); lia). lia.
    - pose proof (Nat.div_mod P 2 ltac:(lia)) as D. pose proof (Nat.mod_upper_bound P 2 ltac:(lia)).
      assert (O / 2 = k)%nat by (symmetry; apply (Nat.div_unique O 2 k 0); lia).
      assert ((P - O) / 2 = P / 2 - k)%nat by (symmetry; apply (Nat.div_unique (P - O) 2 (P / 2 - k) (P mod 2)); lia). lia. }
  rewrite !L by assumption. set (s := RtoC (sqrt _)). set (u := inverse_far_field P0 P1 _).
  pose proof (proj1 (far_linear P0 P1 s (times_img probe u) (RtoC 0) (times_img probe u) i j)) as F.
  rewrite (far_ext P0 P1 _ (lin s (times_img probe u) (RtoC 0) (times_img probe u)) ltac:(lia) ltac:(lia)).
  - rewrite F. ring.
  - intros k l _ _. unfold lin, times_img. ring.
  - exact Hi.
  - exact Hj.
Qed.
Print Assumptions C48_same_model.
(** ... otherwise it does not: it is displaced by one Fourier pixel. *)
Theorem C48_same_model_refuted : exists P0 P1 O0 O1 probe obj i j, (0 < O0 <= P0)%nat /\ (0 < O1 <= P1)%nat /\ (i < P0)%nat /\ (j < P1)%nat /\
  far_field P0 P1 (RPI_interaction P0 P1 O0 O1 probe obj) i j = RtoC 0 /\ spectral_a_dagger P0 P1 O0 O1 probe obj i j = RtoC 1.
Proof.
  exists 2%nat, 1%nat, 1%nat, 1%nat, (fun _ _ => RtoC 1), (fun _ _ => RtoC 1), 0%nat, 0%nat. repeat (split; [lia|]).
  assert (F1 : far_field 1 1 (fun _ _ => RtoC 1) 0%nat 0%nat = RtoC 1).
  { rewrite (far_centre 1 1) by lia. unfold total, csum, fsum. cbn [Nat.mul Nat.add INR]. rewrite sqrt_1, Rinv_1. ring. }
  split.
  - set (pl := place 1 1 (2 / 2 - 1 / 2) (1 / 2 - 1 / 2) (far_field 1 1 (fun _ _ => RtoC 1))).
    set (s := RtoC (sqrt (INR (2 * 1) / INR (1 * 1)))).
    pose proof (proj1 (far_linear 2 1 s (inverse_far_field 2 1 pl) (RtoC 0) (inverse_far_field 2 1 pl) 0%nat 0%nat)) as F.
    rewrite (far_ext 2 1 _ (lin s (inverse_far_field 2 1 pl) (RtoC 0) (inverse_far_field 2 1 pl)) ltac:(lia) ltac:(lia)).
    + rewrite F, (proj2 (far_inverse 2 1 pl ltac:(lia) ltac:(lia)) 0%nat 0%nat ltac:(lia) ltac:(lia)).
      change (pl 0%nat 0%nat) with (RtoC 0). ring.
    + intros k l _ _. unfold RPI_interaction, RPI_upsample, lin, times_img. fold pl s. ring.
    + lia.
    + lia.
  - unfold spectral_a_dagger. set (pl := place 1 1 _ _ _).
    rewrite (far_ext 2 1 _ (inverse_far_field 2 1 pl) ltac:(lia) ltac:(lia)).
    + rewrite (proj2 (far_inverse 2 1 pl ltac:(lia) ltac:(lia)) 0%nat 0%nat ltac:(lia) ltac:(lia)).
      exact F1.
    + intros k l _ _. unfold times_img. ring.
    + lia.
    + lia.
Qed.
Print Assumptions C48_same_model_refuted.
Example C48_case : (0 < 4 <= 8)%nat /\ Nat.Even 4 /\ (0 < 3 <= 7)%nat /\ Nat.Odd 7.
Proof. split; [lia|]. split; [now exists 2%nat|]. split; [lia|]. now exists 3%nat. Qed.
