(** Property theorems about geometry (C33-C35). *)
From Verif Require Import Base Model_Prop Model_Geom Spec_Geom Proofs_Geom.
Local Open Scope R_scope.

(** C33: for every basis and surface normal that are not degenerate (independent basis vectors, neither
    the normal nor the basis plane containing the beam edge-on), the two conversions are inverse to each
    other; the z component, which the documentation says is dropped, comes back as 0. *)
Theorem C33_pixel_round_trip : forall b0 b1 n p, independent b0 b1 -> vz n <> 0 -> vdot (vcross b0 b1) n <> 0 ->
  translations_to_pixel b0 b1 n (pixel_to_translations b0 b1 n p) = p.
Proof. exact pixel_round_trip. Qed.
Print Assumptions C33_pixel_round_trip.
Theorem C33_translation_round_trip : forall b0 b1 n t, independent b0 b1 -> vz n <> 0 -> vdot (vcross b0 b1) n <> 0 ->
  pixel_to_translations b0 b1 n (translations_to_pixel b0 b1 n t) = (vx t, vy t, 0).
Proof. exact translation_round_trip. Qed.
Print Assumptions C33_translation_round_trip.
(** C33: when the basis spans the sample surface with that normal, the pixel position is the point of the
    surface seen at the translation's (x, y), along the beam. *)
Theorem C33_projects_along_beam : forall b0 b1 n t, independent b0 b1 -> vz n <> 0 -> vdot n b0 = 0 -> vdot n b1 = 0 ->
  same_column (point b0 b1 (translations_to_pixel b0 b1 n t)) t.
Proof. exact pixel_on_plane. Qed.
Print Assumptions C33_projects_along_beam.
(** A tilted sample: normal (-1,0,1), basis (2,0,2), (0,3,0). *)
Example C33_case : independent (2, 0, 2) (0, 3, 0) /\ vz (-1, 0, 1) <> 0 /\ vdot (vcross (2, 0, 2) (0, 3, 0)) (-1, 0, 1) <> 0 /\
  vdot (-1, 0, 1) (2, 0, 2) = 0 /\ vdot (-1, 0, 1) (0, 3, 0) = 0 /\
  translations_to_pixel (2, 0, 2) (0, 3, 0) (-1, 0, 1) (4, 3, 7) = (2, 1).
Proof.
  split; [|split; [|split; [|split; [|split]]]]; try (unfold vdot, vcross, vx, vy, vz; cbn [fst snd]; lra).
  - unfold independent, vcross, vx, vy, vz. cbn [fst snd]. intros E. injection E. lra.
  - unfold translations_to_pixel. rewrite plane_proj by (unfold vz; cbn [fst snd]; lra).
    unfold pinv0, pinv1, vdot, vscale, vsub, vx, vy, vz. cbn [fst snd]. f_equal; field.
Qed.

(** C34: for every sample basis whose plane is not edge-on and every translation, the returned pixel
    position is the sample point reached from the translated probe by travelling the returned
    distance along the beam. *)
Theorem C34_sample_point : forall b0 b1 t, vz (vcross b0 b1) <> 0 ->
  let r := project_translations_to_sample b0 b1 t in
  point b0 b1 (fst r) = vadd t (vscale (snd r) (0, 0, 1)).
Proof. exact project_sound. Qed.
Print Assumptions C34_sample_point.
(** C34: documented sign: moving the optics by z along the beam gives a propagation of -z. *)
Theorem C34_sign : forall b0 b1 z, vz (vcross b0 b1) <> 0 ->
  project_translations_to_sample b0 b1 (0, 0, z) = ((0, 0), - z).
Proof.
  intros b0 b1 z H. pose proof (project_sound b0 b1 (0, 0, z) H) as E. cbv zeta in E.
  destruct (project_translations_to_sample b0 b1 (0, 0, z)) as [[p q] d]. cbn [fst snd] in E. unfold point, ez in E. cbn [fst snd] in E.
  destruct b0 as [[x0 y0] z0], b1 as [[x1 y1] z1]. unfold vcross, vadd, vscale, vx, vy, vz in *. cbn [fst snd] in *.
  injection E as E1 E2 E3.
  assert (P : p = 0). { apply (Rmult_eq_reg_r (x0 * y1 - y0 * x1)); [|exact H]. replace (p * (x0 * y1 - y0 * x1)) with ((p * x0 + q * x1) * y1 - (p * y0 + q * y1) * x1) by ring. rewrite E1, E2. ring. }
  assert (Q : q = 0). { apply (Rmult_eq_reg_r (x0 * y1 - y0 * x1)); [|exact H]. replace (q * (x0 * y1 - y0 * x1)) with ((p * y0 + q * y1) * x0 - (p * x0 + q * x1) * y0) by ring. rewrite E1, E2. ring. }
  rewrite P, Q in *. f_equal. lra.
Qed.
Print Assumptions C34_sign.
Example C34_case : vz (vcross (2, 0, 2) (0, 3, 0)) <> 0.
Proof. unfold vcross, vx, vy, vz. cbn [fst snd]. lra. Qed.

(** C35: for every parallelogram detector, the exit-wave basis is dual to the detector: stepping one
    wavefield pixel along axis i and the whole detector along axis j gives wavelength * distance when
    i = j, and 0 otherwise; and it lies in the plane of the detector. *)
Theorem C35_dual : forall d0 d1 n0 n1 wl dist, independent d0 d1 -> (0 < n0)%nat -> (0 < n1)%nat ->
  let e := exit_wave_geometry d0 d1 n0 n1 wl dist in
  vdot (fst e) (vscale (INR n0) d0) = wl * dist /\ vdot (snd e) (vscale (INR n1) d1) = wl * dist /\
  vdot (fst e) (vscale (INR n1) d1) = 0 /\ vdot (snd e) (vscale (INR n0) d0) = 0 /\
  (exists p q, fst e = point d0 d1 p /\ snd e = point d0 d1 q).
Proof.
  intros d0 d1 n0 n1 wl dist H H0 H1 e. unfold e, exit_wave_geometry. cbn [fst snd].
  set (e0 := vscale (INR n0) d0). set (e1 := vscale (INR n1) d1).
  assert (I : independent e0 e1).
  { unfold independent. intros E. apply H.
    assert (C : vcross e0 e1 = vscale (INR n0 * INR n1) (vcross d0 d1)) by (unfold e0, e1; clear; generalize (INR n0) (INR n1); intros; apply v3_eq; v3; ring).
    rewrite C in E. assert (NZ : INR n0 * INR n1 <> 0) by (apply Rmult_integral_contrapositive_currified; apply not_0_INR; lia).
    destruct (vcross d0 d1) as [[a b] c]. unfold vscale, vx, vy, vz in E. cbn [fst snd] in E. injection E as E1 E2 E3.
    assert (Z : forall x, INR n0 * INR n1 * x = 0 -> x = 0) by (intros x Hx; apply Rmult_integral in Hx; tauto).
    now rewrite (Z a E1), (Z b E2), (Z c E3). }
  destruct (pinv_dual e0 e1 I) as (A & B & C & D).
  assert (S : forall a b u v, vdot (vscale a (vscale b u)) v = a * b * vdot u v) by (clear; intros; v3; ring).
  rewrite !S, A, B, C, D. repeat split; try ring.
  destruct (pinv_span e0 e1) as (a & b & c & f & -> & ->).
  exists (dist * wl * a * INR n0, dist * wl * b * INR n1), (dist * wl * c * INR n0, dist * wl * f * INR n1).
  unfold point, e0, e1. cbn [fst snd]. clear. generalize (INR n0) (INR n1). intros. split; apply v3_eq; v3; ring.
Qed.
Print Assumptions C35_dual.
(** C35: for a rectangular detector: pixel size times shape times detector pixel = wavelength * distance. *)
Theorem C35_rectangular : forall d0 d1 n0 n1 wl dist, independent d0 d1 -> vdot d0 d1 = 0 -> (0 < n0)%nat -> (0 < n1)%nat -> 0 <= wl * dist ->
  let e := exit_wave_geometry d0 d1 n0 n1 wl dist in
  vlen (fst e) * (INR n0 * vlen d0) = wl * dist /\ vlen (snd e) * (INR n1 * vlen d1) = wl * dist.
Proof.
  intros d0 d1 n0 n1 wl dist H O H0 H1 W e.
  destruct (C35_dual d0 d1 n0 n1 wl dist H H0 H1) as (A & B & C & D & (p & q & P & Q)). fold e in A, B, C, D, P, Q.
  assert (N0 : 0 < INR n0) by (apply lt_0_INR; exact H0). assert (N1 : 0 < INR n1) by (apply lt_0_INR; exact H1).
  assert (SC : forall u v k, vdot u (vscale k v) = k * vdot u v) by (clear; intros; v3; ring).
  assert (SD : forall u v p, vdot (point u v p) u = fst p * vdot u u + snd p * vdot u v) by (clear; intros; unfold point; v3; ring).
  assert (SD' : forall u v p, vdot (point u v p) v = fst p * vdot u v + snd p * vdot v v) by (clear; intros; unfold point; v3; ring).
  assert (D0 : 0 < vdot d0 d0). { apply vdot_pos. intros E. apply H. rewrite E. unfold vcross, vx, vy, vz. cbn [fst snd]. repeat (f_equal; try ring). }
  assert (D1 : 0 < vdot d1 d1). { apply vdot_pos. intros E. apply H. rewrite E. unfold vcross, vx, vy, vz. cbn [fst snd]. repeat (f_equal; try ring). }
  rewrite !SC in *. rewrite P in A, C. rewrite Q in B, D. rewrite ?SD, ?SD', O in *.
  assert (P1 : snd p = 0) by (apply Rmult_integral in C; destruct C as [C|C]; [lra|]; assert (snd p * vdot d1 d1 = 0) as C' by lra; apply Rmult_integral in C'; destruct C'; lra).
  assert (Q0 : fst q = 0) by (apply Rmult_integral in D; destruct D as [D|D]; [lra|]; assert (fst q * vdot d0 d0 = 0) as D' by lra; apply Rmult_integral in D'; destruct D'; lra).
  assert (LEN : forall k u, 0 <= k -> vlen (vscale k u) = k * vlen u).
  { intros k u Hk. unfold vlen. replace (vdot (vscale k u) (vscale k u)) with (k * k * vdot u u) by (clear; v3; ring).
    rewrite sqrt_mult; [rewrite sqrt_square by exact Hk; reflexivity|nra|]. clear. v3. nra. }
  assert (LL : forall u, vlen u * vlen u = vdot u u) by (intros u; apply sqrt_sqrt; clear; v3; nra).
  assert (EP : fst e = vscale (fst p) d0). { rewrite P. destruct p as [p0 p1]. cbn [fst snd] in *. subst p1. unfold point. cbn [fst snd]. clear. apply v3_eq; v3; ring. }
  assert (EQ : snd e = vscale (snd q) d1). { rewrite Q. destruct q as [q0 q1]. cbn [fst snd] in *. subst q0. unfold point. cbn [fst snd]. clear. apply v3_eq; v3; ring. }
  assert (A' : INR n0 * (fst p * vdot d0 d0) = wl * dist) by lra.
  assert (B' : INR n1 * (snd q * vdot d1 d1) = wl * dist) by lra.
  assert (PP : 0 <= fst p). { apply Rnot_lt_le. intros L. assert (fst p * vdot d0 d0 < 0) by nra. nra. }
  assert (QP : 0 <= snd q). { apply Rnot_lt_le. intros L. assert (snd q * vdot d1 d1 < 0) by nra. nra. }
  rewrite EP, EQ, !LEN by assumption. split.
  - rewrite <- A', <- LL. ring.
  - rewrite <- B', <- LL. ring.
Qed.
Print Assumptions C35_rectangular.
Example C35_case : independent (0, -30, 0) (-30, 0, 0) /\ vdot (0, -30, 0) (-30, 0, 0) = 0.
Proof.
  split; [|unfold vdot, vx, vy, vz; cbn [fst snd]; ring].
  unfold independent, vcross, vx, vy, vz. cbn [fst snd]. intros E. injection E. lra.
Qed.
