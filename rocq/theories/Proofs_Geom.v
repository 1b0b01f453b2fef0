(** Lemmas about geometry. *)
From Verif Require Import Base Model_Prop Model_Geom Spec_Geom.
Local Open Scope R_scope.

Ltac v3 := repeat match goal with v : V3 |- _ => destruct v as [[? ?] ?] end;
  unfold vdot, vscale, vadd, vsub, vcross, vx, vy, vz in *; cbn [fst snd] in *.
Lemma v3_eq (u v : V3) : vx u = vx v -> vy u = vy v -> vz u = vz v -> u = v.
Proof. v3. now intros -> -> ->. Qed.
Lemma vdot_pos u : u <> (0, 0, 0) -> 0 < vdot u u.
Proof.
  destruct u as [[a b] c]. intros H. unfold vdot, vx, vy, vz. cbn [fst snd].
  destruct (Req_dec a 0) as [->|]; [|nra]. destruct (Req_dec b 0) as [->|]; [|nra]. destruct (Req_dec c 0) as [->|]; [|nra]. now exfalso.
Qed.
Lemma lagrange u v : vdot u u * vdot v v - vdot u v * vdot u v = vdot (vcross u v) (vcross u v).
Proof. v3. ring. Qed.
Lemma gram_pos u v : independent u v -> 0 < vdot u u * vdot v v - vdot u v * vdot u v.
Proof. intros H. rewrite lagrange. now apply vdot_pos. Qed.
(** pinv0, pinv1 are the dual basis. *)
Lemma pinv_dual u v : independent u v ->
  vdot (pinv0 u v) u = 1 /\ vdot (pinv0 u v) v = 0 /\ vdot (pinv1 u v) u = 0 /\ vdot (pinv1 u v) v = 1.
Proof.
  intros H. pose proof (gram_pos u v H) as G. unfold pinv0, pinv1. set (d := _ - _) in *.
  assert (D : d <> 0) by lra.
  assert (S : forall c a p b q w, vdot (vscale c (vsub (vscale a p) (vscale b q))) w = c * (a * vdot p w - b * vdot q w)) by (intros; v3; ring).
  assert (SY : vdot v u = vdot u v) by (v3; ring).
  rewrite !S, SY. repeat split.
  - replace (vdot v v * vdot u u - vdot u v * vdot u v) with d by (unfold d; ring). now field.
  - field; exact D.
  - field; exact D.
  - replace (vdot u u * vdot v v - vdot u v * vdot u v) with d by (unfold d; ring). now field.
Qed.
Lemma pinv_span u v : exists a b c e, pinv0 u v = point u v (a, b) /\ pinv1 u v = point u v (c, e).
Proof.
  unfold pinv0, pinv1, point. set (d := _ - _). exists (/ d * vdot v v), (- (/ d * vdot u v)), (- (/ d * vdot u v)), (/ d * vdot u u).
  split; apply v3_eq; v3; ring.
Qed.
(** any vector of the plane is recovered from its dual coordinates *)
Lemma coords_plane u v s : independent u v -> vdot (vcross u v) s = 0 ->
  point u v (vdot (pinv0 u v) s, vdot (pinv1 u v) s) = s.
Proof.
  intros H P. pose proof (gram_pos u v H) as G. unfold point, pinv0, pinv1. cbn [fst snd]. set (d := _ - _) in *.
  assert (E : vadd (vscale (vdot (vscale (/ d) (vsub (vscale (vdot v v) u) (vscale (vdot u v) v))) s) u)
     (vscale (vdot (vscale (/ d) (vsub (vscale (vdot u u) v) (vscale (vdot u v) u))) s) v) =
     vscale (/ d) (vsub (vscale d s) (vscale (vdot (vcross u v) s) (vcross u v)))).
  { unfold d. apply v3_eq; v3; ring. }
  rewrite E, P. apply v3_eq; v3; field; lra.
Qed.
Lemma plane_proj n t : vz n <> 0 ->
  projection_2 n (projection_1 t) = (vx t, vy t, - (vx n * vx t + vy n * vy t) / vz n).
Proof.
  intros H. unfold projection_2, solve3, det3, projection_1, ex, ey. apply v3_eq; v3; field; exact H.
Qed.
Lemma cramer_det b0 b1 n : independent b0 b1 -> vz n <> 0 ->
  let a := projection_rows b0 b1 n in
  vcross (fst a) (snd a) = (0, 0, vdot (vcross b0 b1) n / (vz n * (vdot b0 b0 * vdot b1 b1 - vdot b0 b1 * vdot b0 b1))).
Proof.
  intros H Hn. pose proof (gram_pos b0 b1 H) as G. cbv zeta. unfold projection_rows, translations_to_pixel.
  rewrite !plane_proj by exact Hn. unfold pinv0, pinv1. set (d := _ - _) in *.
  assert (D : d <> 0) by lra. clear G H. unfold ex, ey, ez.
  subst d. apply v3_eq; v3; field; auto.
Qed.
Lemma projection_linear b0 b1 n t : vz n <> 0 -> translations_to_pixel b0 b1 n t =
  (vdot (fst (projection_rows b0 b1 n)) t, vdot (snd (projection_rows b0 b1 n)) t).
Proof.
  intros H. unfold projection_rows, translations_to_pixel. rewrite !plane_proj by exact H.
  set (u := pinv0 b0 b1). set (v := pinv1 b0 b1). clearbody u v. clear b0 b1. unfold ex, ey, ez.
  f_equal; v3; field; exact H.
Qed.
Lemma rows_independent b0 b1 n : independent b0 b1 -> vz n <> 0 -> vdot (vcross b0 b1) n <> 0 ->
  independent (fst (projection_rows b0 b1 n)) (snd (projection_rows b0 b1 n)).
Proof.
  intros H Hn Hd. unfold independent. rewrite cramer_det by assumption. intros E. injection E as E.
  pose proof (gram_pos b0 b1 H). apply Hd. unfold Rdiv in E.
  apply Rmult_integral in E. destruct E as [E|E]; [exact E|]. exfalso. revert E. apply Rinv_neq_0_compat. nra.
Qed.
Lemma pixel_round_trip b0 b1 n p : independent b0 b1 -> vz n <> 0 -> vdot (vcross b0 b1) n <> 0 ->
  translations_to_pixel b0 b1 n (pixel_to_translations b0 b1 n p) = p.
Proof.
  intros H Hn Hd. rewrite projection_linear by exact Hn. unfold pixel_to_translations.
  destruct (pinv_dual _ _ (rows_independent b0 b1 n H Hn Hd)) as (A & B & C & D).
  set (a := projection_rows b0 b1 n) in *.
  assert (S : forall x p0 u p1 v, vdot x (vadd (vscale p0 u) (vscale p1 v)) = p0 * vdot u x + p1 * vdot v x) by (intros; v3; ring).
  rewrite !S, A, B, C, D. destruct p as [p0 p1]. cbn [fst snd]. f_equal; ring.
Qed.
Lemma translation_round_trip b0 b1 n t : independent b0 b1 -> vz n <> 0 -> vdot (vcross b0 b1) n <> 0 ->
  pixel_to_translations b0 b1 n (translations_to_pixel b0 b1 n t) = (vx t, vy t, 0).
Proof.
  intros H Hn Hd. set (t' := (vx t, vy t, 0) : V3).
  assert (E : translations_to_pixel b0 b1 n t = translations_to_pixel b0 b1 n t') by reflexivity. rewrite E.
  rewrite projection_linear by exact Hn. pose proof (rows_independent b0 b1 n H Hn Hd) as I.
  pose proof (cramer_det b0 b1 n H Hn) as CD. cbv zeta in CD. unfold pixel_to_translations. cbn [fst snd].
  set (a := projection_rows b0 b1 n) in *. clearbody a. destruct a as [a0 a1]. cbn [fst snd] in *.
  set (k := vdot (vcross b0 b1) n / _) in CD. clearbody k.
  assert (S : vdot (vcross a0 a1) t' = 0). { rewrite CD. unfold t'. v3. ring. }
  (* pinv0/pinv1 of the rows, evaluated at the row coordinates *)
  pose proof (gram_pos a0 a1 I) as G. unfold pinv0, pinv1. set (d := _ - _) in *.
  assert (F : vadd (vscale (vdot a0 t') (vscale (/ d) (vsub (vscale (vdot a1 a1) a0) (vscale (vdot a0 a1) a1))))
     (vscale (vdot a1 t') (vscale (/ d) (vsub (vscale (vdot a0 a0) a1) (vscale (vdot a0 a1) a0)))) =
     vscale (/ d) (vsub (vscale d t') (vscale (vdot (vcross a0 a1) t') (vcross a0 a1)))).
  { subst d. clear. apply v3_eq; v3; ring. }
  rewrite F, S. clear - G. clearbody d t'. apply v3_eq; v3; field; lra.
Qed.
Lemma pixel_on_plane b0 b1 n t : independent b0 b1 -> vz n <> 0 -> vdot n b0 = 0 -> vdot n b1 = 0 ->
  same_column (point b0 b1 (translations_to_pixel b0 b1 n t)) t.
Proof.
  intros H Hn N0 N1. unfold translations_to_pixel.
  rewrite coords_plane; [rewrite plane_proj by exact Hn; split; reflexivity|exact H|].
  rewrite plane_proj by exact Hn.
  assert (E : exists z, - (vx n * vx t + vy n * vy t) / vz n = z /\ vx n * vx t + vy n * vy t + vz n * z = 0).
  { eexists. split; [reflexivity|]. field. exact Hn. }
  destruct E as (z & -> & Z).
  destruct b0 as [[x0 y0] z0], b1 as [[x1 y1] z1], n as [[a b] c], t as [[p q] r].
  unfold vdot, vcross, vx, vy, vz in *. cbn [fst snd] in *.
  apply (Rmult_eq_reg_l c); [|exact Hn]. rewrite Rmult_0_r.
  (* (b0 x b1) is parallel to n *)
  assert (P1 : c * (y0 * z1 - z0 * y1) = a * (x0 * y1 - y0 * x1)).
  { assert (Z0 : c * z0 = - (a * x0 + b * y0)) by lra. assert (Z1 : c * z1 = - (a * x1 + b * y1)) by lra.
    replace (c * (y0 * z1 - z0 * y1)) with (y0 * (c * z1) - (c * z0) * y1) by ring. rewrite Z0, Z1. ring. }
  assert (P2 : c * (z0 * x1 - x0 * z1) = b * (x0 * y1 - y0 * x1)).
  { assert (Z0 : c * z0 = - (a * x0 + b * y0)) by lra. assert (Z1 : c * z1 = - (a * x1 + b * y1)) by lra.
    replace (c * (z0 * x1 - x0 * z1)) with ((c * z0) * x1 - x0 * (c * z1)) by ring. rewrite Z0, Z1. ring. }
  replace (c * ((y0 * z1 - z0 * y1) * p + (z0 * x1 - x0 * z1) * q + (x0 * y1 - y0 * x1) * z))
    with (c * (y0 * z1 - z0 * y1) * p + c * (z0 * x1 - x0 * z1) * q + c * z * (x0 * y1 - y0 * x1)) by ring.
  rewrite P1, P2. replace (c * z) with (- (a * p + b * q)) by lra. ring.
Qed.
Lemma projector_value n t : vz n <> 0 -> projector n t = (vx t, vy t, - (vx n * vx t + vy n * vy t) / vz n).
Proof.
  intros H. unfold projector, solve3, det3, gram_row, ex, ey.
  assert (P : 0 < vz n * vz n) by nra.
  apply v3_eq; v3; field; repeat split; try exact H; intros E; apply (Rlt_not_eq _ _ P); rewrite <- E; ring.
Qed.
Lemma vlen_pos u : u <> (0, 0, 0) -> 0 < vlen u.
Proof. intros H. apply sqrt_lt_R0. now apply vdot_pos. Qed.
Lemma project_sound b0 b1 t : vz (vcross b0 b1) <> 0 ->
  let r := project_translations_to_sample b0 b1 t in
  point b0 b1 (fst r) = vadd t (vscale (snd r) ez).
Proof.
  intros H. assert (I : independent b0 b1). { intros E. rewrite E in H. now apply H. }
  cbv zeta. unfold project_translations_to_sample. cbn [fst snd].
  set (n := sample_normal b0 b1).
  assert (NC : vcross b1 b0 <> (0, 0, 0)). { intros E. apply H. apply (f_equal vz) in E. unfold vcross, vx, vy, vz in *. cbn [fst snd] in *. lra. }
  pose proof (vlen_pos _ NC) as L.
  assert (Hn : vz n <> 0).
  { unfold n, sample_normal. intros E. apply H.
    assert (E' : / vlen (vcross b1 b0) * vz (vcross b1 b0) = 0) by exact E.
    apply Rmult_integral in E'. destruct E' as [E'|E'].
    - exfalso. revert E'. apply Rinv_neq_0_compat. lra.
    - unfold vcross, vx, vy, vz in *. cbn [fst snd] in *. lra. }
  rewrite projector_value by exact Hn.
  assert (N : forall s, vdot n s = 0 -> vdot (vcross b0 b1) s = 0).
  { intros s E. unfold n, sample_normal in E.
    assert (E' : / vlen (vcross b1 b0) * vdot (vcross b1 b0) s = 0). { rewrite <- E. generalize (vcross b1 b0) as c. intros c. generalize (/ vlen c). intros. v3. ring. }
    apply Rmult_integral in E'. destruct E' as [E'|E'].
    - exfalso. revert E'. apply Rinv_neq_0_compat. lra.
    - replace (vdot (vcross b0 b1) s) with (- vdot (vcross b1 b0) s) by (clear; v3; ring). rewrite E'. ring. }
  rewrite coords_plane; [|exact I|].
  - clearbody n. clear - Hn. apply v3_eq; unfold ez; v3; field; exact Hn.
  - apply N. clearbody n. clear - Hn. v3. field. exact Hn.
Qed.
