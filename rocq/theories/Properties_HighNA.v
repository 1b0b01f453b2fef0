(** The high-NA far field (C77). *)
From Verif Require Import Base FinSum Fourier Model_Prop Spec_Prop Proofs_Prop Properties_Prop Model_Image Spec_Image Proofs_Image
  Model_Interact Spec_Interact Proofs_Interact Model_Meas Spec_Meas Proofs_Meas Model_Geom Spec_Geom Proofs_Geom Properties_Geom Model_Models Spec_Models Proofs_Models
  Model_Forward Spec_Forward Proofs_Forward Properties_Forward Proofs_ForwardSym Properties_Bragg Model_HighNA Spec_HighNA.
From Coquelicot Require Import Complex.
From Flocq Require Import Core.Raux.
Local Open Scope R_scope.

(** ---- interpolation ---- *)
Lemma hat_at (p : R) (z : Z) : hat (p - IZR z) =
  if Z.eqb z (Zfloor p) then 1 - (p - IZR (Zfloor p)) else if Z.eqb z (Zfloor p + 1) then p - IZR (Zfloor p) else 0.
Proof.
  pose proof (Zfloor_lb p) as A. pose proof (Zfloor_ub p) as B. set (q := Zfloor p) in *. unfold hat.
  destruct (Z.eqb_spec z q) as [->|N1]; [|destruct (Z.eqb_spec z (q + 1)) as [->|N2]].
  - rewrite Rabs_pos_eq by lra. apply Rmax_right. lra.
  - rewrite plus_IZR in *. rewrite Rabs_left by lra. rewrite Rmax_right; lra.
  - apply Rmax_left. assert (z <= q - 1 \/ q + 2 <= z)%Z as [H|H] by lia; apply IZR_le in H; rewrite ?minus_IZR, ?plus_IZR in H;
      unfold Rabs; destruct Rcase_abs; lra.
Qed.
Lemma rsum_pick n (z : Z) (c : R) (g : nat -> R) :
  rsum n (fun a => (if Z.eqb (Z.of_nat a) z then c else 0) * g a) = c * (if ((0 <=? z) && (z <? Z.of_nat n))%Z%bool then g (Z.to_nat z) else 0).
Proof.
  induction n as [|n IH].
  - cbn [rsum]. destruct (Z.leb_spec 0 z); destruct (Z.ltb_spec z (Z.of_nat 0)); cbn [andb]; try (exfalso; lia); cbn; ring.
  - rewrite rsum_S, IH.
    destruct (Z.eqb_spec (Z.of_nat n) z) as [<-|N].
    + rewrite Nat2Z.id. destruct (Z.leb_spec 0 (Z.of_nat n)); [|lia].
      destruct (Z.ltb_spec (Z.of_nat n) (Z.of_nat n)); [lia|]. destruct (Z.ltb_spec (Z.of_nat n) (Z.of_nat (S n))); [|lia]. cbn [andb]. ring.
    + destruct (Z.leb_spec 0 z); destruct (Z.ltb_spec z (Z.of_nat n)); destruct (Z.ltb_spec z (Z.of_nat (S n))); cbn [andb]; try (exfalso; lia); ring.
Qed.
Lemma interp1 n (g : nat -> R) (p : R) : let q := Zfloor p in let v := fun z : Z => if ((0 <=? z) && (z <? Z.of_nat n))%Z%bool then g (Z.to_nat z) else 0 in
  rsum n (fun a => hat (p - INR a) * g a) = (1 - (p - IZR q)) * v q + (p - IZR q) * v (q + 1)%Z.
Proof.
  cbv beta zeta. rewrite <- (rsum_pick n (Zfloor p) _ g), <- (rsum_pick n (Zfloor p + 1) _ g), <- rsum_add. apply rsum_ext. intros a _. rewrite INR_IZR_INZ, hat_at.
  destruct (Z.eqb_spec (Z.of_nat a) (Zfloor p)); destruct (Z.eqb_spec (Z.of_nat a) (Zfloor p + 1)); try (exfalso; lia); ring.
Qed.
Lemma grid_value H W f x y : grid_sample H W f (x, y) =
  rsum H (fun a => rsum W (fun b => hat (unnormalize H y - INR a) * hat (unnormalize W x - INR b) * f a b)).
Proof.
  transitivity (rsum H (fun a => hat (unnormalize H y - INR a) * rsum W (fun b => hat (unnormalize W x - INR b) * f a b))).
  2:{ apply rsum_ext. intros a _. rewrite rsum_scal. apply rsum_ext. intros b _. ring. }
  rewrite interp1. cbv beta zeta. rewrite !interp1. cbv beta zeta. unfold grid_sample, pixel_or_zero. cbn [fst snd]. cbv zeta.
  set (ix := unnormalize W x). set (iy := unnormalize H y).
  repeat match goal with |- context [Z.leb ?a ?b] => destruct (Z.leb a b) | |- context [Z.ltb ?a ?b] => destruct (Z.ltb a b) end; cbn [andb]; ring.
Qed.
Lemma csum_parts n (f : nat -> C) : csum n f = (rsum n (fun i => fst (f i)), rsum n (fun i => snd (f i))).
Proof. induction n as [|n IH]; [reflexivity|]. rewrite csum_S, !rsum_S, IH. reflexivity. Qed.
Lemma high_NA_value H W w km im i j : high_NA_one H W w km im i j =
  ((match im with None => RtoC 1 | Some g => RtoC (g i j) end) * interpolate H W (far_field H W w) (unnormalize H (snd (km i j))) (unnormalize W (fst (km i j))))%C.
Proof.
  unfold high_NA_one. destruct (km i j) as [x y]. cbn [fst snd]. rewrite !grid_value.
  assert (E : (RtoC (rsum H (fun a => rsum W (fun b => hat (unnormalize H y - INR a) * hat (unnormalize W x - INR b) * fst (far_field H W w a b))%R)) +
    Ci * RtoC (rsum H (fun a => rsum W (fun b => hat (unnormalize H y - INR a) * hat (unnormalize W x - INR b) * snd (far_field H W w a b))%R)))%C =
    interpolate H W (far_field H W w) (unnormalize H y) (unnormalize W x)).
  { unfold interpolate. rewrite csum_parts. unfold Cplus, Cmult, Ci, RtoC. cbn [fst snd]. f_equal.
    - rewrite !Rmult_0_l, Rminus_0_l, Rmult_0_r, Ropp_0, Rplus_0_r. apply rsum_ext. intros a _. rewrite csum_parts. cbn [fst]. apply rsum_ext. intros b _. cbn [fst snd]. ring.
    - rewrite !Rmult_0_l, !Rmult_1_l, !Rplus_0_l. apply rsum_ext. intros a _. rewrite csum_parts. cbn [snd]. apply rsum_ext. intros b _. cbn [fst snd]. ring. }
  rewrite E. destruct im; ring.
Qed.

(** ---- geometry ---- *)
Lemma gauss n : 2 * rsum n (fun a => INR a) = INR n * (INR n - 1).
Proof. induction n as [|n IH]; [cbn; ring|]. rewrite rsum_S, S_INR, Rmult_plus_distr_l, IH. ring. Qed.
Lemma centred_value n i : (0 < n)%nat -> centred_index n i = INR i - (INR n - 1) / 2.
Proof. intros H. unfold centred_index. pose proof (gauss n). assert (0 < INR n) by now apply lt_0_INR. f_equal. apply Rmult_eq_reg_l with (2 * INR n); [|lra]. field_simplify; lra. Qed.
Lemma k_out_unit d0 d1 : independent d0 d1 -> unit_vec (k_out d0 d1).
Proof. intros H. pose proof (vlen_pos _ (indep_swap _ _ H)). unfold unit_vec, k_out. rewrite vdot_vscale_l, vdot_vscale_r, <- vlen_sq. field. lra. Qed.
Lemma sdv_value d0 d1 dist : independent d0 d1 -> samp_det_vec d0 d1 dist = vscale dist (k_out d0 d1).
Proof.
  intros H. pose proof (vlen_pos _ (indep_swap _ _ H)). unfold samp_det_vec, k_out. cbv zeta. rewrite (vcross_swap d0 d1), vlen_scale, !vscale_vscale. f_equal.
  rewrite Rabs_left by lra. field. lra.
Qed.
Lemma k_out_perp d0 d1 a b : vdot (vadd (vscale a d0) (vscale b d1)) (k_out d0 d1) = 0.
Proof. unfold k_out. rewrite vdot_vscale_r, vdot_sym, vdot_vadd_r, !vdot_vscale_r. apply Rmult_eq_0_compat_l. v3. ring. Qed.
Lemma ray_plain d0 d1 n m dist i j : independent d0 d1 -> (0 < n)%nat -> (0 < m)%nat -> ray d0 d1 n m dist false i j = to_pixel d0 d1 n m dist i j.
Proof. intros H Hn Hm. unfold ray, to_pixel, offset. cbv zeta. rewrite sdv_value by exact H. now rewrite !centred_value. Qed.
Lemma vdot_vadd_l u v w : vdot (vadd u v) w = vdot u w + vdot v w. Proof. v3. ring. Qed.
Lemma to_pixel_dot d0 d1 n m dist i j : independent d0 d1 -> vdot (to_pixel d0 d1 n m dist i j) (k_out d0 d1) = dist.
Proof.
  intros H. unfold to_pixel. rewrite vdot_vadd_l, vdot_vscale_l. unfold offset. rewrite k_out_perp.
  pose proof (k_out_unit _ _ H) as U. unfold unit_vec in U. rewrite U. ring.
Qed.
Lemma to_pixel_sq d0 d1 n m dist i j : independent d0 d1 ->
  vdot (to_pixel d0 d1 n m dist i j) (to_pixel d0 d1 n m dist i j) = vdot (offset d0 d1 n m i j) (offset d0 d1 n m i j) + dist ^ 2.
Proof.
  intros H. pose proof (k_out_unit _ _ H) as U. unfold unit_vec in U. unfold to_pixel. rewrite !vdot_vadd_l, !vdot_vadd_r, !vdot_vscale_l, !vdot_vscale_r, U, (vdot_sym (k_out d0 d1)).
  unfold offset. rewrite !k_out_perp. ring.
Qed.
Lemma vdot_nonneg u : 0 <= vdot u u. Proof. v3. nra. Qed.
Lemma vlen_nonneg u : 0 <= vlen u. Proof. apply sqrt_pos. Qed.
Lemma to_pixel_far d0 d1 n m dist i j : independent d0 d1 -> 0 < dist -> dist <= vlen (to_pixel d0 d1 n m dist i j).
Proof.
  intros H D. unfold vlen. rewrite to_pixel_sq by exact H. rewrite <- (sqrt_square dist) at 1 by lra. apply sqrt_le_1_alt.
  pose proof (vdot_nonneg (offset d0 d1 n m i j)). nra.
Qed.
Lemma vlen_scale_pos k u : 0 <= k -> vlen (vscale k u) = k * vlen u.
Proof. intros H. rewrite vlen_scale, Rabs_pos_eq by exact H. reflexivity. Qed.
Lemma unit_vlen u : unit_vec u -> vlen u = 1.
Proof. intros H. unfold vlen. rewrite H. apply sqrt_1. Qed.

(** The direction seen by each pixel. *)
Lemma ray_seen d0 d1 n m dist lens i j : independent d0 d1 -> (0 < n)%nat -> (0 < m)%nat -> 0 < dist -> (lens = true -> within_lens d0 d1 n m dist i j) ->
  exists u, seen d0 d1 n m dist lens i j u /\ unit_vec u /\ vscale (/ vlen (ray d0 d1 n m dist lens i j)) (ray d0 d1 n m dist lens i j) = u.
Proof.
  intros H Hn Hm D L. eexists. split; [|split; [|reflexivity]].
  - destruct lens; unfold seen.
    + specialize (L eq_refl). unfold within_lens in L.
      assert (E : ray d0 d1 n m dist true i j = vadd (offset d0 d1 n m i j) (vscale (sqrt (dist ^ 2 - vdot (offset d0 d1 n m i j) (offset d0 d1 n m i j))) (k_out d0 d1))).
      { unfold ray. cbv zeta. rewrite sdv_value, !centred_value by assumption. fold (offset d0 d1 n m i j).
        rewrite vlen_scale_pos, (unit_vlen _ (k_out_unit _ _ H)) by lra. rewrite !vscale_vscale, vdot_vscale_l, vdot_vscale_r, (k_out_unit _ _ H).
        f_equal. replace (dist * (dist * 1)) with (dist ^ 2) by ring. f_equal. field. lra. }
      set (o := offset d0 d1 n m i j) in *. pose proof (vlen_sq o) as LS. pose proof (vlen_nonneg o). 
      set (c := sqrt (dist ^ 2 - vdot o o)) in *.
      assert (CC : c * c = dist ^ 2 - vdot o o) by (apply sqrt_sqrt; nra). assert (C0 : 0 <= c) by apply sqrt_pos.
      assert (OK : vdot o (k_out d0 d1) = 0) by apply k_out_perp. pose proof (k_out_unit _ _ H) as U. unfold unit_vec in U.
      assert (LEN : vlen (ray d0 d1 n m dist true i j) = dist).
      { unfold vlen. rewrite E, !vdot_vadd_l, !vdot_vadd_r, !vdot_vscale_l, !vdot_vscale_r, U, ?(vdot_sym (k_out d0 d1) o), ?OK.
        replace (vdot o o + c * 0 + (c * 0 + c * (c * 1))) with (vdot o o + c * c) by ring. rewrite CC. replace (vdot o o + (dist ^ 2 - vdot o o)) with (dist * dist) by ring. apply sqrt_square. lra. }
      rewrite LEN. assert (RD : vdot (ray d0 d1 n m dist true i j) (ray d0 d1 n m dist true i j) = dist * dist) by (rewrite <- vlen_sq, LEN; reflexivity).
      split; [|split].
      * unfold unit_vec. rewrite vdot_vscale_l, vdot_vscale_r, RD. field. lra.
      * rewrite vdot_vscale_l, E, vdot_vadd_l, OK, vdot_vscale_l, U. assert (0 < / dist) by now apply Rinv_0_lt_compat. nra.
      * exists c. rewrite vscale_vscale, <- E. replace (dist * / dist) with 1 by (field; lra). clear. apply v3_eq; v3; ring.
    + rewrite ray_plain by assumption. rewrite vscale_vscale. pose proof (to_pixel_far d0 d1 n m dist i j H D).
      replace (vlen (to_pixel d0 d1 n m dist i j) * / vlen (to_pixel d0 d1 n m dist i j)) with 1 by (field; lra). clear. apply v3_eq; v3; ring.
  - assert (P : 0 < vlen (ray d0 d1 n m dist lens i j)).
    { destruct lens; [|rewrite ray_plain by assumption; pose proof (to_pixel_far d0 d1 n m dist i j H D); lra].
      unfold ray. cbv zeta. rewrite sdv_value, !centred_value by assumption. fold (offset d0 d1 n m i j).
      rewrite vlen_scale_pos, (unit_vlen _ (k_out_unit _ _ H)) by lra. rewrite !vscale_vscale, vdot_vscale_l, vdot_vscale_r, (k_out_unit _ _ H).
      replace (sqrt (dist * (dist * 1) - vdot (offset d0 d1 n m i j) (offset d0 d1 n m i j)) * / (dist * 1) * dist) with (sqrt (dist * (dist * 1) - vdot (offset d0 d1 n m i j) (offset d0 d1 n m i j))) by (field; lra). set (o := offset d0 d1 n m i j).
      apply vlen_pos. intros E0. assert (OK : vdot o (k_out d0 d1) = 0) by apply k_out_perp.
      assert (Z1 : sqrt (dist * (dist * 1) - vdot o o) = 0).
      { transitivity (vdot (vadd o (vscale (sqrt (dist * (dist * 1) - vdot o o)) (k_out d0 d1))) (k_out d0 d1)).
        - rewrite vdot_vadd_l, OK, !vdot_vscale_l, (k_out_unit _ _ H). ring.
        - rewrite E0. apply vdot_0_l. }
      rewrite Z1 in E0. assert (O0 : vdot o o = 0).
      { transitivity (vdot (vadd o (vscale 0 (k_out d0 d1))) o); [rewrite vdot_vadd_l, vdot_vscale_l; ring|]. rewrite E0. apply vdot_0_l. }
      rewrite O0 in Z1. replace (dist * (dist * 1) - 0) with (dist * dist) in Z1 by ring. rewrite sqrt_square in Z1; lra. }
    unfold unit_vec. rewrite vdot_vscale_l, vdot_vscale_r, <- vlen_sq. field. lra.
Qed.
Lemma rmin2 n m (x : nat -> nat -> R) : (0 < n)%nat -> (0 < m)%nat -> exists a b, (a < n)%nat /\ (b < m)%nat /\
  rmin (map (fun i => rmin (map (fun j => x i j) (seq 0 m))) (seq 0 n)) = x a b /\ forall a' b', (a' < n)%nat -> (b' < m)%nat -> x a b <= x a' b'.
Proof.
  intros Hn Hm. set (row := fun i => rmin (map (fun j => x i j) (seq 0 m))).
  assert (I : In (rmin (map row (seq 0 n))) (map row (seq 0 n))) by (apply rmin_in; destruct n; [lia|discriminate]).
  apply in_map_iff in I. destruct I as (a & Ea & Ia). apply in_seq in Ia.
  assert (J : In (row a) (map (fun j => x a j) (seq 0 m))) by (apply rmin_in; destruct m; [lia|discriminate]).
  apply in_map_iff in J. destruct J as (b & Eb & Ib). apply in_seq in Ib.
  exists a, b. split; [lia|]. split; [lia|]. split; [now rewrite Eb|]. intros a' b' Ha Hb. rewrite Eb, Ea.
  apply Rle_trans with (row a'); apply rmin_le.
  - apply in_map_iff. exists a'. split; [reflexivity|]. apply in_seq. lia.
  - apply in_map_iff. exists b'. split; [reflexivity|]. apply in_seq. lia.
Qed.
Lemma falloff_value d0 d1 n m dist wl lens i j : independent d0 d1 -> (0 < n)%nat -> (0 < m)%nat -> 0 < dist -> 0 < wl ->
  falloff d0 d1 n m dist lens i j (intensity_map d0 d1 n m dist wl lens i j).
Proof.
  intros H Hn Hm D Wl. destruct lens; [reflexivity|]. unfold falloff, intensity_map. cbv zeta.
  destruct (rmin2 n m (fun a b => vlen (ray d0 d1 n m dist false a b)) Hn Hm) as (a & b & Ha & Hb & E & L).
  exists a, b. split; [exact Ha|]. split; [exact Hb|]. split; [intros a' b' Ha' Hb'; specialize (L a' b' Ha' Hb'); now rewrite !ray_plain in L by assumption|].
  rewrite E. rewrite !ray_plain by assumption. unfold ray_k. cbv zeta. rewrite !ray_plain by assumption. rewrite sdv_value by exact H.
  rewrite !vdot_vscale_l, !vdot_vscale_r, (vdot_sym (k_out d0 d1)), to_pixel_dot by exact H.
  pose proof (to_pixel_far d0 d1 n m dist i j H D). pose proof PI_RGT_0. field. repeat split; lra.
Qed.
Lemma interpolate_ext H W f g y x : same H W f g -> interpolate H W f y x = interpolate H W g y x.
Proof. intros E. unfold interpolate. apply csum_ext. intros a Ha. apply csum_ext. intros b Hb. now rewrite E. Qed.
Lemma k_map_place H s d0 d1 n m dist wl lens i j u : independent d0 d1 -> 0 < dist -> 0 < wl ->
  vscale (/ vlen (ray d0 d1 n m dist lens i j)) (ray d0 d1 n m dist lens i j) = u ->
  unnormalize H (vdot (vscale (/ (2 * PI)) (vscale 2 s)) (vsub (ray_k d0 d1 n m dist wl lens i j) (vscale (/ dist) (vscale (2 * PI / wl) (samp_det_vec d0 d1 dist))))) =
  place_of H s u (k_out d0 d1) wl.
Proof.
  intros I D Wl E. rewrite sdv_value by exact I. unfold ray_k. cbv zeta.
  replace (vscale (/ vlen (ray d0 d1 n m dist lens i j)) (vscale (2 * PI / wl) (ray d0 d1 n m dist lens i j))) with (vscale (2 * PI / wl) u)
    by (rewrite <- E, !vscale_vscale; f_equal; ring).
  rewrite !vdot_vscale_l, !vdot_vsub_r, !vdot_vscale_r.
  unfold unnormalize, place_of. rewrite vdot_vsub_r. pose proof PI_RGT_0. field. repeat split; lra.
Qed.

(** C77: for every sample basis, detector, distance and wavelength, with and without a lens: detector pixel (i, j)
    receives the far field of the wavefront, interpolated linearly at the place of the direction in which the
    pixel is seen, times a factor for the slant and the distance at which it is hit. *)
Theorem C77_value : forall s0 s1 d0 d1 n m dist wl lens H W w i j, independent d0 d1 -> (0 < n)%nat -> (0 < m)%nat -> (0 < H)%nat -> (0 < W)%nat -> 0 < dist -> 0 < wl ->
  (lens = true -> within_lens d0 d1 n m dist i j) ->
  exists u g, seen d0 d1 n m dist lens i j u /\ unit_vec u /\ falloff d0 d1 n m dist lens i j g /\
  high_NA_one H W w (k_map s0 s1 d0 d1 n m dist wl lens) (Some (intensity_map d0 d1 n m dist wl lens)) i j =
    (RtoC g * interpolate H W (centred_ft H W w) (place_of H s0 u (k_out d0 d1) wl) (place_of W s1 u (k_out d0 d1) wl))%C.
Proof.
  intros s0 s1 d0 d1 n m dist wl lens H W w i j I Hn Hm HH HW D Wl L.
  destruct (ray_seen d0 d1 n m dist lens i j I Hn Hm D L) as (u & S & U & E).
  exists u, (intensity_map d0 d1 n m dist wl lens i j). split; [exact S|]. split; [exact U|]. split; [now apply falloff_value|].
  rewrite high_NA_value. f_equal. unfold k_map. cbv zeta. cbn [fst snd]. rewrite !(k_map_place _ _ _ _ _ _ _ _ _ _ _ u) by assumption.
  apply interpolate_ext. intros a b Ha Hb. now apply far_centred.
Qed.
Print Assumptions C77_value.

Lemma dual_dots d0 d1 n m wl dist : independent d0 d1 -> (0 < n)%nat -> (0 < m)%nat ->
  let e := exit_wave_geometry d0 d1 n m wl dist in
  vdot (fst e) d0 = wl * dist / INR n /\ vdot (fst e) d1 = 0 /\ vdot (snd e) d0 = 0 /\ vdot (snd e) d1 = wl * dist / INR m /\
  vdot (fst e) (k_out d0 d1) = 0 /\ vdot (snd e) (k_out d0 d1) = 0.
Proof.
  intros I Hn Hm e. destruct (C35_dual d0 d1 n m wl dist I Hn Hm) as (A & B & C & D & p & q & P & Q). fold e in A, B, C, D, P, Q.
  assert (0 < INR n) by now apply lt_0_INR. assert (0 < INR m) by now apply lt_0_INR. rewrite !vdot_vscale_r in *.
  assert (Z : forall p, vdot (point d0 d1 p) (k_out d0 d1) = 0) by (intros p0; apply (k_out_perp d0 d1 (fst p0) (snd p0))).
  repeat split.
  - apply Rmult_eq_reg_l with (INR n); [|lra]. rewrite A. field. lra.
  - apply Rmult_eq_reg_l with (INR m); [|lra]. rewrite C. ring.
  - apply Rmult_eq_reg_l with (INR n); [|lra]. rewrite D. ring.
  - apply Rmult_eq_reg_l with (INR m); [|lra]. rewrite B. field. lra.
  - rewrite P. apply Z.
  - rewrite Q. apply Z.
Qed.
Lemma seen_scale d0 d1 n m dist lens i j u : independent d0 d1 -> 0 < dist -> seen d0 d1 n m dist lens i j u ->
  exists L c, 0 < L /\ vscale L u = vadd (offset d0 d1 n m i j) (vscale c (k_out d0 d1)) /\ dist = (if lens then 1 else vdot u (k_out d0 d1)) * L.
Proof.
  intros I D S. destruct lens; unfold seen in S.
  - destruct S as (U & P & c & E). exists dist, c. split; [exact D|]. split; [exact E|]. ring.
  - exists (vlen (to_pixel d0 d1 n m dist i j)), dist. pose proof (to_pixel_far d0 d1 n m dist i j I D). split; [lra|]. split; [exact S|].
    rewrite <- (to_pixel_dot d0 d1 n m dist i j I) at 1. rewrite <- S at 1. rewrite vdot_vscale_l. ring.
Qed.
(** C77: where that is.  For a sample grid conjugate to the detector (the one from_dataset makes, C35), displaced by
    a along the scattered direction at each step (a tilted sample, C52): the pixel's own index, contracted towards
    the middle by the cosine of its angle to the axis (not behind a lens), less a shift that grows with tilt and
    angle. *)
Theorem C77_place : forall d0 d1 n m dist wl lens i j u a, independent d0 d1 -> (0 < n)%nat -> (0 < m)%nat -> 0 < dist -> 0 < wl ->
  seen d0 d1 n m dist lens i j u ->
  let k := k_out d0 d1 in let cosine := vdot u k in let e := exit_wave_geometry d0 d1 n m wl dist in
  place_of n (vadd (fst e) (vscale a k)) u k wl = (INR n - 1) / 2 + (INR i - (INR n - 1) / 2) * (if lens then 1 else cosine) - INR n * a * (1 - cosine) / wl /\
  place_of m (vadd (snd e) (vscale a k)) u k wl = (INR m - 1) / 2 + (INR j - (INR m - 1) / 2) * (if lens then 1 else cosine) - INR m * a * (1 - cosine) / wl.
Proof.
  intros d0 d1 n m dist wl lens i j u a I Hn Hm D Wl S k cosine e.
  destruct (dual_dots d0 d1 n m wl dist I Hn Hm) as (A0 & A1 & B0 & B1 & Ak & Bk). fold e k in A0, A1, B0, B1, Ak, Bk.
  destruct (seen_scale d0 d1 n m dist lens i j u I D S) as (L & c & LP & E & DL). fold k cosine in E, DL.
  set (q := if lens then 1 else cosine) in *.
  assert (0 < INR n) by now apply lt_0_INR. assert (0 < INR m) by now apply lt_0_INR.
  pose proof (k_out_unit _ _ I) as U. unfold unit_vec in U. fold k in U.
  assert (G : forall s, vdot s u = (vdot s (offset d0 d1 n m i j) + c * vdot s k) / L).
  { intros s. apply Rmult_eq_reg_l with L; [|lra]. rewrite <- vdot_vscale_r, E, vdot_vadd_r, vdot_vscale_r. field. lra. }
  assert (KU : vdot k u = cosine) by apply vdot_sym.
  unfold place_of. rewrite !vdot_vsub_r, !vdot_vadd_l, !vdot_vscale_l, Ak, Bk, U, KU, (G (fst e)), (G (snd e)), Ak, Bk.
  unfold offset. rewrite !vdot_vadd_r, !vdot_vscale_r, A0, A1, B0, B1, DL. split; field; repeat split; lra.
Qed.
Print Assumptions C77_place.

Lemma hat_nat a i : hat (INR i - INR a) = if Nat.eqb i a then 1 else 0.
Proof.
  rewrite !INR_IZR_INZ, hat_at, Zfloor_IZR. destruct (Nat.eqb_spec i a) as [->|N].
  - rewrite Z.eqb_refl. ring.
  - destruct (Z.eqb_spec (Z.of_nat a) (Z.of_nat i)); [exfalso; lia|]. destruct (Z.eqb_spec (Z.of_nat a) (Z.of_nat i + 1)); ring.
Qed.
Lemma interpolate_nat H W f i j : (i < H)%nat -> (j < W)%nat -> interpolate H W f (INR i) (INR j) = f i j.
Proof.
  intros Hi Hj. unfold interpolate. rewrite (csum_single H i); [|exact Hi|].
  2:{ intros a Ha N. apply csum_zero'. intros b Hb. rewrite hat_nat. destruct (Nat.eqb_spec i a); [congruence|]. rewrite Rmult_0_l. ring. }
  rewrite (csum_single W j); [|exact Hj|].
  2:{ intros b Hb N. rewrite (hat_nat b j). destruct (Nat.eqb_spec j b); [congruence|]. rewrite Rmult_0_r. ring. }
  rewrite !hat_nat, !Nat.eqb_refl, Rmult_1_l. ring.
Qed.
(** C77: with a lens and a sample parallel to the detector there is nothing to correct: the result is the far field. *)
Theorem C77_lens_exact : forall d0 d1 n m dist wl w, independent d0 d1 -> (0 < n)%nat -> (0 < m)%nat -> 0 < dist -> 0 < wl ->
  (forall i j, (i < n)%nat -> (j < m)%nat -> within_lens d0 d1 n m dist i j) ->
  let e := exit_wave_geometry d0 d1 n m wl dist in
  same n m (high_NA_one n m w (k_map (fst e) (snd e) d0 d1 n m dist wl true) (Some (intensity_map d0 d1 n m dist wl true))) (centred_ft n m w).
Proof.
  intros d0 d1 n m dist wl w I Hn Hm D Wl L e i j Hi Hj.
  destruct (C77_value (fst e) (snd e) d0 d1 n m dist wl true n m w i j I Hn Hm Hn Hm D Wl (fun _ => L i j Hi Hj)) as (u & g & S & U & G & ->).
  cbn in G. subst g. destruct (C77_place d0 d1 n m dist wl true i j u 0 I Hn Hm D Wl S) as [P Q]. cbv zeta in P, Q. fold e in P, Q.
  assert (Z : forall v, vadd v (vscale 0 (k_out d0 d1)) = v) by (intros v; apply v3_eq; v3; ring). rewrite !Z in P, Q. rewrite P, Q.
  replace ((INR n - 1) / 2 + (INR i - (INR n - 1) / 2) * 1 - INR n * 0 * (1 - vdot u (k_out d0 d1)) / wl) with (INR i) by (field; lra).
  replace ((INR m - 1) / 2 + (INR j - (INR m - 1) / 2) * 1 - INR m * 0 * (1 - vdot u (k_out d0 d1)) / wl) with (INR j) by (field; lra).
  rewrite interpolate_nat by assumption. ring.
Qed.
Print Assumptions C77_lens_exact.
Lemma offset_centre d0 d1 n m : offset d0 d1 (2 * n + 1) (2 * m + 1) n m = (0, 0, 0).
Proof. unfold offset. rewrite !plus_INR, !mult_INR. cbn [INR]. apply v3_eq; v3; field. Qed.
(** C77: on a detector with odd numbers of pixels the middle pixel receives exactly the far field's zero frequency,
    for every sample. *)
Theorem C77_axis : forall s0 s1 d0 d1 n m dist wl lens w, independent d0 d1 -> 0 < dist -> 0 < wl ->
  let N := (2 * n + 1)%nat in let M := (2 * m + 1)%nat in
  high_NA_one N M w (k_map s0 s1 d0 d1 N M dist wl lens) (Some (intensity_map d0 d1 N M dist wl lens)) n m = centred_ft N M w n m.
Proof.
  intros s0 s1 d0 d1 n m dist wl lens w I D Wl N M.
  assert (L0 : vlen (to_pixel d0 d1 N M dist n m) = dist).
  { unfold to_pixel, N, M. rewrite offset_centre. replace (vadd (0, 0, 0) (vscale dist (k_out d0 d1))) with (vscale dist (k_out d0 d1)) by (apply v3_eq; v3; ring).
    rewrite vlen_scale_pos, (unit_vlen _ (k_out_unit _ _ I)) by lra. ring. }
  destruct (C77_value s0 s1 d0 d1 N M dist wl lens N M w n m I) as (u & g & S & U & G & ->); try (unfold N, M; lia); try assumption.
  { intros _. unfold within_lens, N, M. rewrite offset_centre, vlen_0. lra. }
  destruct (seen_scale d0 d1 N M dist lens n m u I D S) as (L & c & LP & E & DL). unfold N, M in E. rewrite offset_centre in E.
  assert (E' : u = vscale (c / L) (k_out d0 d1)).
  { apply v3_eq; pose proof (f_equal vx E) as X; pose proof (f_equal vy E) as Y; pose proof (f_equal vz E) as Z; clear - X Y Z LP;
      unfold vscale, vadd, vx, vy, vz in *; cbn [fst snd] in *; apply Rmult_eq_reg_l with L; try lra; rewrite ?X, ?Y, ?Z; field; lra. }
  assert (K : vdot u (k_out d0 d1) = c / L) by (rewrite E', vdot_vscale_l, (k_out_unit _ _ I); ring).
  assert (U2 : (c / L) * (c / L) = 1). { unfold unit_vec in U. rewrite E', vdot_vscale_l, vdot_vscale_r, (k_out_unit _ _ I) in U. lra. }
  assert (P : 0 <= c / L).
  { destruct lens; [destruct S as (_ & S & _); lra|]. rewrite <- K. apply Rnot_lt_le. intros Q. nra. }
  assert (C1 : c / L = 1) by nra.
  assert (EU : u = k_out d0 d1) by (rewrite E', C1; apply v3_eq; v3; ring).
  assert (PL : forall q s, place_of (2 * q + 1) s u (k_out d0 d1) wl = INR q).
  { intros q s. unfold place_of. rewrite EU. replace (vsub (k_out d0 d1) (k_out d0 d1)) with ((0, 0, 0) : V3) by (apply v3_eq; v3; ring).
    rewrite vdot_sym, vdot_0_l, plus_INR, mult_INR. cbn [INR]. field. lra. }
  unfold N, M. rewrite !PL, interpolate_nat by lia.
  assert (G1 : g = 1).
  { destruct lens; [exact G|]. destruct G as (a & b & Ha & Hb & MIN & ->).
    pose proof (to_pixel_far d0 d1 N M dist a b I D). pose proof (MIN n m ltac:(unfold N; lia) ltac:(unfold M; lia)) as MN. fold N M. rewrite L0 in *.
    replace (vlen (to_pixel d0 d1 N M dist a b)) with dist by lra. field. lra. }
  rewrite G1. ring.
Qed.
Print Assumptions C77_axis.
(** C77: the factor lies between 0 and 1, and is below 1 at every pixel off the axis. *)
Theorem C77_factor : forall d0 d1 n m dist lens i j g, independent d0 d1 -> 0 < dist -> (i < n)%nat -> (j < m)%nat -> falloff d0 d1 n m dist lens i j g ->
  0 < g <= 1 /\ (lens = false -> offset d0 d1 n m i j <> (0, 0, 0) -> g < 1).
Proof.
  intros d0 d1 n m dist lens i j g I D Hi Hj G. destruct lens; [cbn in G; subst g; split; [lra|discriminate]|].
  destruct G as (a & b & Ha & Hb & MIN & ->). pose proof (to_pixel_far d0 d1 n m dist i j I D) as F. pose proof (to_pixel_far d0 d1 n m dist a b I D) as F'.
  specialize (MIN i j Hi Hj). set (L := vlen (to_pixel d0 d1 n m dist i j)) in *. set (l := vlen (to_pixel d0 d1 n m dist a b)) in *.
  assert (X : 0 < dist / L <= 1) by (split; [apply Rdiv_lt_0_compat; lra|apply Rmult_le_reg_r with L; [lra|]; field_simplify; lra]).
  assert (Y : 0 < l / L <= 1) by (split; [apply Rdiv_lt_0_compat; lra|apply Rmult_le_reg_r with L; [lra|]; field_simplify; lra]).
  set (x := dist / L) in *. set (y := l / L) in *. assert (Y2 : 0 < y ^ 2 <= 1) by nra. split; [nra|]. intros _ NZ.
  assert (LT : dist < L).
  { unfold L, vlen. rewrite to_pixel_sq by exact I. rewrite <- (sqrt_square dist) at 1 by lra. apply sqrt_lt_1_alt. pose proof (vdot_pos _ NZ). nra. }
  assert (x < 1). { unfold x. apply Rmult_lt_reg_r with L; [lra|]. field_simplify; lra. } nra.
Qed.
Print Assumptions C77_factor.
(** C77: defect: the factor, documented as a correction of the intensity, multiplies the amplitude: the intensity
    is multiplied by its square, so that every pixel off the axis (without a lens) comes out too dark. *)
Theorem C77_intensity_refuted : forall s0 s1 d0 d1 n m dist wl H W w i j, independent d0 d1 -> (0 < H)%nat -> (0 < W)%nat -> 0 < dist -> 0 < wl ->
  (i < n)%nat -> (j < m)%nat -> offset d0 d1 n m i j <> (0, 0, 0) ->
  exists u g, seen d0 d1 n m dist false i j u /\ falloff d0 d1 n m dist false i j g /\
  let incident := Cmod (interpolate H W (centred_ft H W w) (place_of H s0 u (k_out d0 d1) wl) (place_of W s1 u (k_out d0 d1) wl)) ^ 2 in
  let simulated := Cmod (high_NA_one H W w (k_map s0 s1 d0 d1 n m dist wl false) (Some (intensity_map d0 d1 n m dist wl false)) i j) ^ 2 in
  simulated = g ^ 2 * incident /\ (incident <> 0 -> simulated < g * incident).
Proof.
  intros s0 s1 d0 d1 n m dist wl H W w i j I HH HW D Wl Hi Hj NZ.
  destruct (C77_value s0 s1 d0 d1 n m dist wl false H W w i j I ltac:(lia) ltac:(lia) HH HW D Wl ltac:(discriminate)) as (u & g & S & U & G & E).
  exists u, g. split; [exact S|]. split; [exact G|]. cbv zeta. rewrite E, Cmod_mult, Cmod_R.
  destruct (C77_factor d0 d1 n m dist false i j g I D Hi Hj G) as [B B']. specialize (B' eq_refl NZ). rewrite Rabs_pos_eq by lra.
  set (z := Cmod _). split; [ring|]. intros ZN. assert (0 < z ^ 2) by (pose proof (pow2_ge_0 z); lra). replace ((g * z) ^ 2) with (g * g * z ^ 2) by ring. apply Rmult_lt_compat_r; [assumption|]. nra.
Qed.
Print Assumptions C77_intensity_refuted.
(** C77: light that would come from outside the far field is taken to be 0. *)
Theorem C77_outside : forall s0 s1 d0 d1 n m dist wl lens H W w i j u, independent d0 d1 -> (0 < n)%nat -> (0 < m)%nat -> (0 < H)%nat -> (0 < W)%nat -> 0 < dist -> 0 < wl ->
  (lens = true -> within_lens d0 d1 n m dist i j) -> seen d0 d1 n m dist lens i j u ->
  (let y := place_of H s0 u (k_out d0 d1) wl in let x := place_of W s1 u (k_out d0 d1) wl in y <= -1 \/ INR H <= y \/ x <= -1 \/ INR W <= x) ->
  high_NA_one H W w (k_map s0 s1 d0 d1 n m dist wl lens) (Some (intensity_map d0 d1 n m dist wl lens)) i j = RtoC 0.
Proof.
  intros s0 s1 d0 d1 n m dist wl lens H W w i j u I Hn Hm HH HW D Wl L S OUT.
  destruct (C77_value s0 s1 d0 d1 n m dist wl lens H W w i j I Hn Hm HH HW D Wl L) as (u' & g & S' & U' & G & ->).
  assert (EU : u' = u).
  { destruct lens.
    - specialize (L eq_refl). destruct S as (U1 & P1 & c1 & E1). destruct S' as (U2 & P2 & c2 & E2).
      pose proof (k_out_unit _ _ I) as KU. unfold unit_vec in KU, U1, U2.
      assert (OK : vdot (offset d0 d1 n m i j) (k_out d0 d1) = 0) by apply k_out_perp.
      assert (Q : forall v c, vdot v v = 1 -> 0 <= vdot v (k_out d0 d1) -> vscale dist v = vadd (offset d0 d1 n m i j) (vscale c (k_out d0 d1)) ->
        0 <= c /\ c * c = dist * dist - vdot (offset d0 d1 n m i j) (offset d0 d1 n m i j)).
      { intros v c V1 V2 V3. split.
        - assert (X : dist * vdot v (k_out d0 d1) = c) by (rewrite <- vdot_vscale_l, V3, vdot_vadd_l, OK, vdot_vscale_l, KU; ring). nra.
        - assert (X : dist * dist = vdot (offset d0 d1 n m i j) (offset d0 d1 n m i j) + c * c).
          { transitivity (vdot (vscale dist v) (vscale dist v)); [rewrite vdot_vscale_l, vdot_vscale_r, V1; ring|].
            rewrite V3, !vdot_vadd_l, !vdot_vadd_r, !vdot_vscale_l, !vdot_vscale_r, KU, (vdot_sym (k_out d0 d1)), OK. ring. } lra. }
      destruct (Q u c1 U1 P1 E1) as [A1 B1]. destruct (Q u' c2 U2 P2 E2) as [A2 B2]. assert (c1 = c2) by nra. subst c2.
      assert (E : vscale dist u' = vscale dist u) by congruence.
      assert (X : forall v : V3, v = vscale (/ dist) (vscale dist v)) by (intros v; rewrite vscale_vscale; replace (/ dist * dist) with 1 by (field; lra); apply v3_eq; v3; ring).
      rewrite (X u'), (X u), E. reflexivity.
    - unfold seen in S, S'. pose proof (to_pixel_far d0 d1 n m dist i j I D). set (l := vlen (to_pixel d0 d1 n m dist i j)) in *.
      assert (X : forall v : V3, v = vscale (/ l) (vscale l v)) by (intros v; rewrite vscale_vscale; replace (/ l * l) with 1 by (field; lra); apply v3_eq; v3; ring).
      rewrite (X u'), (X u), S, S'. reflexivity. }
  rewrite EU. cbv zeta in OUT. set (y := place_of H s0 u (k_out d0 d1) wl) in *. set (x := place_of W s1 u (k_out d0 d1) wl) in *.
  assert (Z : forall p (q a : nat), (a < q)%nat -> p <= -1 \/ INR q <= p -> hat (p - INR a) = 0).
  { intros p q a Ha [P|P]; unfold hat; apply Rmax_left.
    - pose proof (pos_INR a). rewrite Rabs_left by lra. lra.
    - assert (INR a <= INR q - 1) by (replace 1 with (INR 1) by reflexivity; rewrite <- (minus_INR q 1) by lia; apply le_INR; lia). rewrite Rabs_pos_eq by lra. lra. }
  unfold interpolate. rewrite (csum_zero' H); [ring|]. intros a Ha. apply csum_zero'. intros b Hb.
  destruct OUT as [O|[O|[O|O]]].
  - rewrite (Z y H a) by tauto. rewrite Rmult_0_l. ring.
  - rewrite (Z y H a) by tauto. rewrite Rmult_0_l. ring.
  - rewrite (Z x W b) by tauto. rewrite Rmult_0_r. ring.
  - rewrite (Z x W b) by tauto. rewrite Rmult_0_r. ring.
Qed.
Print Assumptions C77_outside.
(** C77: a single wavefront, a stack and a stack of stacks are treated alike, wavefront by wavefront; other numbers
    of dimensions are refused. *)
Theorem C77_stacks : forall H W km im,
  (forall w, high_NA_far_field H W (Stack2 w) km im = Ok (Stack2 (high_NA_one H W w km im))) /\
  (forall ws, exists r, high_NA_far_field H W (Stack3 ws) km im = Ok (Stack3 r) /\ length r = length ws /\ forall k, (k < length ws)%nat -> nth k r no_img = high_NA_one H W (nth k ws no_img) km im) /\
  (forall ws, exists r, high_NA_far_field H W (Stack4 ws) km im = Ok (Stack4 r) /\ length r = length ws /\
     forall b, (b < length ws)%nat -> high_NA_far_field H W (Stack3 (nth b ws [])) km im = Ok (Stack3 (nth b r []))) /\
  high_NA_far_field H W StackOther km im = Raise IndexError.
Proof.
  intros H W km im. split; [|split; [|split]]; try reflexivity.
  - intros ws. eexists. split; [reflexivity|]. rewrite map_length. split; [reflexivity|]. intros k Hk. now rewrite (nth_map_in _ _ no_img).
  - intros ws. eexists. split; [reflexivity|]. rewrite map_length. split; [reflexivity|]. intros b Hb. cbn [high_NA_far_field]. do 2 f_equal. now rewrite (nth_map_in _ _ []).
Qed.
Print Assumptions C77_stacks.
(** C77: linear in the wavefront. *)
Theorem C77_linear : forall H W km im a x b y i j, high_NA_one H W (lin a x b y) km im i j = (a * high_NA_one H W x km im i j + b * high_NA_one H W y km im i j)%C.
Proof.
  intros H W km im a x b y i j. rewrite !high_NA_value.
  assert (E : forall p q, interpolate H W (far_field H W (lin a x b y)) p q = (a * interpolate H W (far_field H W x) p q + b * interpolate H W (far_field H W y) p q)%C).
  { intros p q. unfold interpolate. rewrite !csum_scal, <- csum_add. apply csum_ext. intros u Hu. rewrite !csum_scal, <- csum_add. apply csum_ext. intros v Hv.
    rewrite (proj1 (far_linear H W a x b y u v)). ring. }
  rewrite E. ring.
Qed.
Print Assumptions C77_linear.
Lemma high_NA_ext H W x y km im i j : (0 < H)%nat -> (0 < W)%nat -> same H W x y -> high_NA_one H W x km im i j = high_NA_one H W y km im i j.
Proof. intros HH HW E. rewrite !high_NA_value. f_equal. apply interpolate_ext. intros a b Ha Hb. now apply far_ext. Qed.
Lemma finer_independent os d0 d1 : (0 < os)%nat -> independent d0 d1 -> independent (vscale (/ INR os) d0) (vscale (/ INR os) d1).
Proof.
  intros H I E. apply I. assert (P : 0 < INR os) by now apply lt_0_INR.
  replace (vcross (vscale (/ INR os) d0) (vscale (/ INR os) d1)) with (vscale (/ INR os * / INR os) (vcross d0 d1)) in E by (apply v3_eq; v3; ring).
  apply vscale_0_inv in E; [exact E|]. apply Rmult_integral_contrapositive_currified; apply Rinv_neq_0_compat; lra.
Qed.
(** C77: Bragg2DPtycho with correct_tilt: the waves of C69 arrive on the oversampled detector as above. *)
Theorem C77_bragg_pattern : forall m d0 d1 dist lens i t pos pd c, bragg_place m i t pos pd -> nth_error (g_weights m) i = Some c -> bragg_fits m pos ->
  independent d0 d1 -> 0 < dist -> 0 < g_wl m -> let N0 := (g_os m * g_det0 m)%nat in let N1 := (g_os m * g_det1 m)%nat in
  let e0 := vscale (/ INR (g_os m)) d0 in let e1 := vscale (/ INR (g_os m)) d1 in
  (lens = true -> forall a b, (a < N0)%nat -> (b < N1)%nat -> within_lens e0 e1 N0 N1 dist a b) ->
  exists r vs, bragg_tilt_pattern m d0 d1 dist lens i t = Ok r /\ length vs = length (g_probe m) /\
  (forall k, (k < length (g_probe m))%nat -> arrives (g_b0 m) (g_b1 m) e0 e1 N0 N1 dist (g_wl m) lens
     (bragg_exit m (bragg_probe m (bragg_propagator (g_n0 m) (g_n1 m) (g_p0 m) (g_p1 m) (g_wl m) pd) c k) pos) (nth k vs no_img)) /\
  forall a b, (a < g_det0 m)%nat -> (b < g_det1 m)%nat -> r a b = reading (g_saturation m) None (g_background m) a b (photons (g_os m) vs a b + / 10 ^ 7).
Proof.
  intros m d0 d1 dist lens i t pos pd c HP HC HF I D Wl N0 N1 e0 e1 L.
  destruct (C69_exit_waves m i t pos pd c HP HC HF) as (ws & E1 & LE & V). fold N0 N1 in V.
  unfold bragg_tilt_pattern, bragg_maps. fold N0 N1 e0 e1. cbn [fst snd]. rewrite E1. cbn [rmap].
  destruct HF as (n0p & n1p & osp & C0 & C1 & _). fold N0 in C0. fold N1 in C1.
  assert (HN0 : (0 < N0)%nat) by (destruct C0; lia). assert (HN1 : (0 < N1)%nat) by (destruct C1; lia).
  match goal with |- context [map ?f ws] => set (vs := map f ws) end.
  eexists. exists vs. split; [reflexivity|]. split; [unfold vs; now rewrite map_length|]. split.
  - intros k Hk a b Ha Hb. unfold vs. rewrite (nth_map_in _ _ no_img) by lia. rewrite (high_NA_ext N0 N1 _ _ _ _ a b HN0 HN1 (V k Hk)).
    apply C77_value; try assumption. { now apply finer_independent. } intros Q. now apply L.
  - intros a b Ha Hb. unfold quadratic_background. rewrite incoherent_value by exact osp. cbn [o_over o_sat o_slice o_eps at_slice saturate].
    assert (Q : detector (g_os m) vs a b = photons (g_os m) vs a b).
    { unfold detector, block_power, photons. f_equal. apply lsum_ext. intros x _. apply rsum_ext. intros u _. apply rsum_ext. intros v _. now rewrite (Nat.mul_comm a), (Nat.mul_comm b). }
    rewrite Q. unfold reading, eps. rewrite Rmult_1_l.
    assert (P : 0 <= photons (g_os m) vs a b) by (rewrite <- Q; now apply detector_nonneg).
    assert (0 < / 10 ^ 7) by (apply Rinv_0_lt_compat; lra). assert (0 <= g_background m a b ^ 2) by apply pow2_ge_0.
    destruct (g_saturation m) as [s|]; cbn [saturate]; [|reflexivity]. unfold clamp. rewrite Rmax_left; [reflexivity|]. lra.
Qed.
Print Assumptions C77_bragg_pattern.
Lemma finer_geometry os d0 d1 n m wl dist : (0 < os)%nat ->
  exit_wave_geometry (vscale (/ INR os) d0) (vscale (/ INR os) d1) (os * n) (os * m) wl dist = exit_wave_geometry d0 d1 n m wl dist.
Proof.
  intros H. assert (0 < INR os) by now apply lt_0_INR. unfold exit_wave_geometry.
  assert (E : forall k d, vscale (INR (os * k)) (vscale (/ INR os) d) = vscale (INR k) d) by (intros k d; rewrite vscale_vscale, mult_INR; f_equal; field; lra).
  now rewrite !E.
Qed.
(** C77: behind a lens and with an untilted sample, correct_tilt makes no difference. *)
Theorem C77_bragg_flat : forall m d0 d1 dist i t pos pd c, bragg_place m i t pos pd -> nth_error (g_weights m) i = Some c -> bragg_fits m pos ->
  independent d0 d1 -> 0 < dist -> 0 < g_wl m -> (g_b0 m, g_b1 m) = exit_wave_geometry d0 d1 (g_det0 m) (g_det1 m) (g_wl m) dist ->
  let N0 := (g_os m * g_det0 m)%nat in let N1 := (g_os m * g_det1 m)%nat in
  (forall a b, (a < N0)%nat -> (b < N1)%nat -> within_lens (vscale (/ INR (g_os m)) d0) (vscale (/ INR (g_os m)) d1) N0 N1 dist a b) ->
  exists r r', bragg_tilt_pattern m d0 d1 dist true i t = Ok r /\ bragg_pattern m i t = Ok r' /\
  forall a b, (a < g_det0 m)%nat -> (b < g_det1 m)%nat -> r a b = r' a b.
Proof.
  intros m d0 d1 dist i t pos pd c HP HC HF I D Wl EG N0 N1 L.
  destruct (C69_exit_waves m i t pos pd c HP HC HF) as (ws & E1 & LE & V).
  unfold bragg_tilt_pattern, bragg_pattern, bragg_maps. cbn [fst snd]. rewrite E1. cbn [rmap]. eexists. eexists. split; [reflexivity|]. split; [reflexivity|].
  destruct HF as (n0p & n1p & osp & C0 & C1 & _). fold N0 in C0 |- *. fold N1 in C1 |- *.
  assert (HN0 : (0 < N0)%nat) by (destruct C0; lia). assert (HN1 : (0 < N1)%nat) by (destruct C1; lia).
  intros a b Ha Hb. unfold quadratic_background. rewrite !incoherent_value by exact osp. cbn [o_over o_sat o_slice o_eps at_slice saturate].
  match goal with |- context [detector _ ?l a b + _] => assert (Q : detector (g_os m) l a b = detector (g_os m) (map (far_field N0 N1) ws) a b) end.
  { unfold detector, block_power. f_equal. rewrite !map_map. apply lsum_ext. intros x _. apply rsum_ext. intros u Hu. apply rsum_ext. intros v Hv. f_equal.
    pose proof (C77_lens_exact (vscale (/ INR (g_os m)) d0) (vscale (/ INR (g_os m)) d1) N0 N1 dist (g_wl m) x (finer_independent _ _ _ osp I) HN0 HN1 D Wl L) as X.
    cbv zeta in X. assert (FG : exit_wave_geometry (vscale (/ INR (g_os m)) d0) (vscale (/ INR (g_os m)) d1) N0 N1 (g_wl m) dist = (g_b0 m, g_b1 m)) by (rewrite EG; now apply finer_geometry).
    rewrite FG in X. cbn [fst snd] in X. assert (A1 : (a * g_os m + u < N0)%nat) by (unfold N0; nia). assert (B1 : (b * g_os m + v < N1)%nat) by (unfold N1; nia).
    rewrite (X _ _ A1 B1). symmetry. now apply far_centred. }
  now rewrite Q.
Qed.
Print Assumptions C77_bragg_flat.

(** A 3 x 3 detector with unit pixels at distance 2: pixel (0, 1) sees the direction (0, 1, 2) / sqrt 5 (the first
    axis points down), its factor is the cosine cubed, and with wavelength 6 its place is 1 - 2 / sqrt 5. *)
Example C77_case : let d0 := (0, -1, 0) in let d1 := (-1, 0, 0) in independent d0 d1 /\ k_out d0 d1 = (0, 0, 1) /\
  offset d0 d1 3 3 0 1 = (0, 1, 0) /\ offset d0 d1 3 3 0 1 <> (0, 0, 0) /\ within_lens d0 d1 3 3 2 0 1 /\
  seen d0 d1 3 3 2 false 0 1 (vscale (/ sqrt 5) (0, 1, 2)) /\ seen d0 d1 3 3 2 true 0 1 (0, 1 / 2, sqrt 3 / 2) /\
  falloff d0 d1 3 3 2 false 0 1 ((2 / sqrt 5) ^ 3) /\ (place_of 3 (0, -4, 0) (vscale (/ sqrt 5) (0, 1, 2)) (k_out d0 d1) 6 = 1 - 2 / sqrt 5).
Proof.
  cbv zeta. assert (I : independent (0, -1, 0) (-1, 0, 0)). { unfold independent, vcross, vx, vy, vz. cbn [fst snd]. intros E. injection E. intros. lra. }
  assert (K : k_out (0, -1, 0) (-1, 0, 0) = (0, 0, 1)).
  { unfold k_out, vcross, vlen, vdot, vscale, vx, vy, vz. cbn [fst snd]. match goal with |- context [sqrt ?x] => replace x with 1 by ring end. rewrite sqrt_1. repeat f_equal; field. }
  assert (O : offset (0, -1, 0) (-1, 0, 0) 3 3 0 1 = (0, 1, 0)) by (unfold offset; cbn [INR]; apply v3_eq; v3; field).
  assert (T : forall i j, (i < 3)%nat -> (j < 3)%nat -> to_pixel (0, -1, 0) (-1, 0, 0) 3 3 2 i j = (1 - INR j, 1 - INR i, 2)).
  { intros i j _ _. unfold to_pixel, offset. rewrite K. cbn [INR]. apply v3_eq; v3; field. }
  assert (S5 : 0 < sqrt 5) by (apply sqrt_lt_R0; lra). assert (SS : sqrt 5 * sqrt 5 = 5) by (apply sqrt_sqrt; lra).
  assert (S3 : sqrt 3 * sqrt 3 = 3) by (apply sqrt_sqrt; lra). pose proof (sqrt_pos 3).
  assert (L01 : vlen (to_pixel (0, -1, 0) (-1, 0, 0) 3 3 2 0 1) = sqrt 5).
  { rewrite T by lia. unfold vlen, vdot, vx, vy, vz. cbn [INR fst snd]. f_equal. ring. }
  repeat split.
  - exact I.
  - exact K.
  - exact O.
  - rewrite O. intros E. injection E. lra.
  - unfold within_lens. rewrite O. unfold vlen, vdot, vx, vy, vz. cbn [fst snd]. replace (0 * 0 + 1 * 1 + 0 * 0) with 1 by ring. rewrite sqrt_1. lra.
  - unfold seen. rewrite L01, T by lia. rewrite vscale_vscale. replace (sqrt 5 * / sqrt 5) with 1 by (field; lra). cbn [INR]. apply v3_eq; v3; ring.
  - unfold unit_vec, vdot, vx, vy, vz. cbn [fst snd]. replace (0 * 0 + 1 / 2 * (1 / 2) + sqrt 3 / 2 * (sqrt 3 / 2)) with (1 / 4 + sqrt 3 * sqrt 3 / 4) by field. rewrite S3. field.
  - rewrite K. unfold vdot, vx, vy, vz. cbn [fst snd]. lra.
  - exists (sqrt 3). rewrite O, K. apply v3_eq; v3; field.
  - exists 1%nat, 1%nat. split; [lia|]. split; [lia|]. rewrite L01.
    assert (L11 : vlen (to_pixel (0, -1, 0) (-1, 0, 0) 3 3 2 1 1) = 2).
    { rewrite T by lia. unfold vlen, vdot, vx, vy, vz. cbn [INR fst snd]. match goal with |- sqrt ?x = _ => replace x with (2 * 2) by ring end. apply sqrt_square. lra. }
    rewrite L11. split; [|field; lra]. intros a b Ha Hb. apply (to_pixel_far _ _ 3 3 2 a b I). lra.
  - unfold place_of. rewrite K. unfold vdot, vsub, vscale, vx, vy, vz. cbn [INR fst snd]. field. lra.
Qed.
(** An untilted sample on the grid conjugate to a 3 x 2 detector with unit pixels at distance 12. *)
Definition untilted : bragg :=
  {| g_b0 := (0, -4, 0); g_b1 := (-6, 0, 0); g_min := (0, 0); g_median := 1; g_scale := 2; g_offsets := Some [(0, 0); (/ 2, 1)];
     g_p0 := (0, -6, 0); g_p1 := (-6, 0, 0); g_wl := 1; g_n0 := 4; g_n1 := 4; g_probe := [(fun _ _ => RtoC 1); (fun i j => RtoC (INR (i + j)))];
     g_support := fun i j => Nat.ltb j 2; g_norm := 2; g_weights := [1; 3]; g_propagate := true; g_os := 2; g_det0 := 3; g_det1 := 2;
     g_background := fun _ _ => 1; g_saturation := None; g_H := 12; g_W := 12; g_obj := fun a b => cis (IZR (a * b)) |}.
Example C77_case_bragg : let d0 := (0, -1, 0) in let d1 := (-1, 0, 0) in
  bragg_place untilted 1 (-12, -4, -2) (2, 4) 1 /\ nth_error (g_weights untilted) 1 = Some 3 /\ bragg_fits untilted (2, 4) /\ independent d0 d1 /\
  (g_b0 untilted, g_b1 untilted) = exit_wave_geometry d0 d1 (g_det0 untilted) (g_det1 untilted) (g_wl untilted) 12 /\
  forall a b, (a < 6)%nat -> (b < 4)%nat -> within_lens (vscale (/ INR 2) d0) (vscale (/ INR 2) d1) 6 4 12 a b.
Proof.
  cbv zeta. split; [|split; [reflexivity|split; [|split; [|split]]]].
  - exists (1, 2), 2. split; [|split].
    + unfold vadd, vscale, vx, vy, vz; cbn. f_equal; [f_equal|]; ring.
    + cbn. ring.
    + exists (/ 2, 1). split; [reflexivity|]. cbn. f_equal; lra.
  - unfold bragg_fits, centred_in, inside. cbn [g_n0 g_n1 g_os g_det0 g_det1 g_H g_W untilted fst snd].
    change 2 with (IZR 2) at 1 2. change 4 with (IZR 4) at 1 2. rewrite !Zfloor_IZR. cbn. repeat split; try lia; try (left; reflexivity). lra.
  - apply C77_case.
  - unfold exit_wave_geometry, pinv0, pinv1. cbn [g_b0 g_b1 g_det0 g_det1 g_wl untilted]. unfold vscale, vadd, vsub, vdot, vx, vy, vz. cbn [fst snd INR]. repeat f_equal; field.
  - intros a b Ha Hb. unfold within_lens, offset, vlen. rewrite <- (sqrt_square 12) by lra. apply sqrt_le_1_alt.
    assert (0 <= INR a <= 5) by (split; [apply pos_INR|replace 5 with (INR 5) by (cbn; ring); apply le_INR; lia]).
    assert (0 <= INR b <= 3) by (split; [apply pos_INR|replace 3 with (INR 3) by (cbn; ring); apply le_INR; lia]).
    replace (INR 6) with 6 by (cbn; ring). replace (INR 4) with 4 by (cbn; ring). replace (INR 2) with 2 by (cbn; ring). v3. nra.
Qed.
