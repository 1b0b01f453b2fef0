(** C86: pictures in real-space coordinates. *)
From Verif Require Import Base Model_Prop Model_Geom Spec_Geom Model_Frame Spec_Frame Proofs_Geom Proofs_Frame.
Local Open Scope R_scope.

(** The contract on numpy's lstsq used below can be met. *)
Example C86_lstsq_exists : exists f, least_squares f.
Proof. exists lstsq_example. apply lstsq_exists. Qed.

(** Every unit has the factor it should have, in upper or lower case; anything else raises. *)
Theorem C86_units : forall u,
  (forall size, In (lower u, size) unit_sizes -> exists f, get_units_factor u = Ok f /\ f * size = 1) /\
  ((forall size, ~ In (lower u, size) unit_sizes) -> get_units_factor u = Raise UnboundLocalError).
Proof.
  intros u. unfold get_units_factor. cbv zeta. generalize (lower u). clear u. intros u. split.
  - intros size H. unfold unit_sizes in H. cbn [In] in H.
    repeat (destruct H as [H|H]; [inversion H; subst; cbn [String.eqb Ascii.eqb Bool.eqb orb]; eexists; (split; [reflexivity|]); field|]). destruct H.
  - intros H. assert (Q : forall s size, In (s, size) unit_sizes -> String.eqb u s = false).
    { intros s size I. apply String.eqb_neq. intros ->. apply (H size I). }
    unfold unit_sizes in Q. cbn [In] in Q.
    rewrite (Q "m"%string 1), (Q "cm"%string (/ 100)), (Q "mm"%string (/ 1000)), (Q "um"%string (/ 1000000)), (Q "$\mu$m"%string (/ 1000000)), (Q "nm"%string (/ 1000000000)), (Q "a"%string (/ 10000000000)), (Q "pm"%string (/ 1000000000000)) by tauto.
    reflexivity.
Qed.
Print Assumptions C86_units.

Section C86.
Variable lstsq : V3 -> V3 -> V3 -> R * R.
Hypothesis LS : least_squares lstsq.

Lemma pixel_own a b c d n0 n1 i j : (0 < n0)%nat -> (0 < n1)%nat ->
  pixel_at {| m_a := a; m_b := b; m_c := c; m_d := d; rows := n0; cols := n1 |} n0 n1 i j = (a * INR j + c * INR i, b * INR j + d * INR i).
Proof.
  intros H0 H1. unfold pixel_at, to_axes. cbn. apply lt_0_INR in H0. apply lt_0_INR in H1. f_equal; field; lra.
Qed.

(** The default view of an image with any basis of two independent vectors (not necessarily orthogonal, or of equal
    length): there is a transform, and it keeps all distances between pixels, in the chosen unit; rows run along x to
    the right, and the row index grows along y (which plot_image then turns downwards). *)
Theorem C86_ortho : forall b0 b1 factor n0 n1, independent b0 b1 -> 0 < factor -> (0 < n0)%nat -> (0 < n1)%nat ->
  exists f, frame_of lstsq (b0, b1) factor Ortho n0 n1 = Some f /\
  (forall i j i' j', dist2 (pixel_at f n0 n1 i j) (pixel_at f n0 n1 i' j') = factor * vlen (place b0 b1 (INR i - INR i') (INR j - INR j'))) /\
  (forall i j, fst (pixel_at f n0 n1 i j) = factor * (vdot (place b0 b1 (INR i) (INR j)) b1 / vlen b1)) /\
  (forall i j i' j', (i < i')%nat -> snd (pixel_at f n0 n1 i j) < snd (pixel_at f n0 n1 i' j')) /\
  (forall i j j', snd (pixel_at f n0 n1 i j) = snd (pixel_at f n0 n1 i j')).
Proof.
  intros b0 b1 factor n0 n1 I F H0 H1.
  set (B0 := vscale factor b0). set (B1 := vscale factor b1).
  assert (I' : independent B0 B1).
  { intros X. apply I. assert (Y : vcross b0 b1 = vscale (/ (factor * factor)) (vcross B0 B1)) by (unfold B0, B1; apply v3_eq; v3; field; lra). rewrite Y, X. apply v3_eq; v3; ring. }
  destruct (ortho_view_spec B0 B1 I') as (y & n & E & En & Un & Uy & Yn & P & D0).
  destruct (Proofs_AS.vcross_nonzero b0 b1 I) as [_ N1]. pose proof (vlen_pos b1 N1) as L1.
  unfold frame_of. cbn [fst snd]. fold B0 B1. rewrite E. cbn [obind fst snd].
  rewrite !(lstsq_orthonormal lstsq LS) by assumption. cbn [fst snd].
  eexists. split; [reflexivity|].
  assert (LB : vlen B1 = factor * vlen b1) by (unfold B1; rewrite Proofs_AS.vlen_scale, Rabs_right; lra).
  assert (D1 : B1 = vscale (vlen B1) n). { rewrite En. apply v3_eq; unfold vscale, vx, vy, vz; cbn [fst snd]; field; rewrite LB; apply Rgt_not_eq; apply Rmult_lt_0_compat; lra. }
  assert (B1y : vdot B1 y = 0). { rewrite D1. replace (vdot (vscale (vlen B1) n) y) with (vlen B1 * vdot y n) by (generalize (vlen B1); intros; clearbody B0; v3; ring). rewrite Yn. ring. }
  assert (PX : forall i j, pixel_at {| m_a := vdot B1 n; m_b := vdot B1 y; m_c := vdot B0 n; m_d := vdot B0 y; rows := n0; cols := n1 |} n0 n1 i j
                = (vdot B1 n * INR j + vdot B0 n * INR i, vdot B0 y * INR i)).
  { intros i j. rewrite pixel_own by assumption. rewrite B1y. f_equal. ring. }
  split; [|split; [|split]].
  - intros i j i' j'. rewrite !PX. unfold dist2. cbn [fst snd].
    set (di := INR i - INR i'). set (dj := INR j - INR j').
    replace (vdot B1 n * INR j + vdot B0 n * INR i - (vdot B1 n * INR j' + vdot B0 n * INR i')) with (vdot B1 n * dj + vdot B0 n * di) by (unfold di, dj; ring).
    replace (vdot B0 y * INR i - vdot B0 y * INR i') with (vdot B0 y * di) by (unfold di; ring).
    assert (SC : factor * vlen (place b0 b1 di dj) = vlen (place B0 B1 di dj)).
    { assert (X : place B0 B1 di dj = vscale factor (place b0 b1 di dj)) by (unfold place, B0, B1; clearbody di dj; apply v3_eq; v3; ring). rewrite X, Proofs_AS.vlen_scale, Rabs_right; lra. }
    rewrite SC. unfold vlen. f_equal.
    assert (W : place B0 B1 di dj = vadd (vscale (vdot B1 n * dj + vdot B0 n * di) n) (vscale (vdot B0 y * di) y)).
    { assert (B1n : vdot B1 n = vlen B1). { rewrite D1 at 1. replace (vdot (vscale (vlen B1) n) n) with (vlen B1 * vdot n n) by (generalize (vlen B1); intros; v3; ring). rewrite Un. ring. }
      rewrite B1n. unfold place. rewrite D0 at 1. rewrite D1 at 1. generalize (vlen B1) (vdot B0 n) (vdot B0 y). clearbody di dj. intros. clear - r. apply v3_eq; v3; ring. }
    rewrite W. set (p := vdot B1 n * dj + vdot B0 n * di). set (q := vdot B0 y * di). clearbody p q.
    replace (vdot (vadd (vscale p n) (vscale q y)) (vadd (vscale p n) (vscale q y))) with (p * p * vdot n n + 2 * (p * q * vdot y n) + q * q * vdot y y) by (clear; v3; ring).
    rewrite Un, Uy, Yn. ring.
  - intros i j. rewrite PX. cbn [fst].
    assert (Q : forall v, vdot (vscale factor v) n = factor * (vdot v b1 / vlen b1)).
    { intros v. rewrite En, LB. unfold B1. assert (X : vdot (vscale factor v) (vscale (/ (factor * vlen b1)) (vscale factor b1)) = factor * (/ (factor * vlen b1) * factor) * vdot v b1) by (generalize (/ (factor * vlen b1)); intros; v3; ring).
      rewrite X. field. split; lra. }
    unfold B0, B1. rewrite !Q. replace (vdot (place b0 b1 (INR i) (INR j)) b1) with (INR i * vdot b0 b1 + INR j * vdot b1 b1) by (unfold place; v3; ring). field. lra.
  - intros i j i' j' Hi. rewrite !PX. cbn [snd]. apply lt_INR in Hi. apply Rmult_lt_compat_l; assumption.
  - intros i j j'. rewrite !PX. reflexivity.
Qed.

(** Any other view: with a view basis of two independent vectors v0, v1, the plotted (x, y) of a pixel are the
    coordinates along v1 and v0 (made unit vectors) of the point of the view plane nearest to the pixel's place;
    if the image lies in the view plane, of its place itself. *)
Theorem C86_view : forall b0 b1 v0 v1 factor n0 n1, independent v0 v1 -> (0 < n0)%nat -> (0 < n1)%nat ->
  exists f, frame_of lstsq (b0, b1) factor (Given (v0, v1)) n0 n1 = Some f /\
  forall i j, let w := vscale factor (place b0 b1 (INR i) (INR j)) in let xy := pixel_at f n0 n1 i j in
    let shown := vadd (vscale (fst xy / vlen v1) v1) (vscale (snd xy / vlen v0) v0) in
    (forall p q, vlen (vsub w shown) <= vlen (vsub w (vadd (vscale p v1) (vscale q v0)))) /\
    (vdot (vcross v0 v1) b0 = 0 -> vdot (vcross v0 v1) b1 = 0 -> shown = w).
Proof.
  intros b0 b1 v0 v1 factor n0 n1 I H0 H1. destruct (Proofs_AS.vcross_nonzero v0 v1 I) as [N0 N1].
  pose proof (vlen_pos v0 N0) as P0. pose proof (vlen_pos v1 N1) as P1.
  set (u0 := vscale (/ vlen v0) v0). set (u1 := vscale (/ vlen v1) v1).
  set (B0 := vscale factor b0). set (B1 := vscale factor b1).
  assert (E : frame_of lstsq (b0, b1) factor (Given (v0, v1)) n0 n1 = Some {| m_a := fst (lstsq u1 u0 B1); m_b := snd (lstsq u1 u0 B1); m_c := fst (lstsq u1 u0 B0); m_d := snd (lstsq u1 u0 B0); rows := n0; cols := n1 |}).
  { unfold frame_of, given_view. cbn [fst snd]. rewrite (unit_of_ok v0 N0), (unit_of_ok v1 N1). cbn [obind fst snd]. reflexivity. }
  rewrite E. clear E.
  pose proof (normal_equations lstsq LS u1 u0 B1) as [A1 A2]. pose proof (normal_equations lstsq LS u1 u0 B0) as [A3 A4].
  destruct (lstsq u1 u0 B1) as [a b]. destruct (lstsq u1 u0 B0) as [c d]. cbn [fst snd] in A1, A2, A3, A4.
  eexists. split; [reflexivity|]. intros i j w xy shown.
  set (x := a * INR j + c * INR i). set (y := b * INR j + d * INR i).
  assert (SH : shown = vadd (vscale x u1) (vscale y u0)). { unfold shown, xy. rewrite pixel_own by assumption. cbn [fst snd]. fold x y. unfold u0, u1. clearbody x y. apply v3_eq; unfold vadd, vscale, vx, vy, vz; cbn [fst snd]; field; lra. }
  assert (W : w = vadd (vscale (INR i) B0) (vscale (INR j) B1)). { unfold w, place, B0, B1. generalize (INR i) (INR j). intros. apply v3_eq; v3; ring. }
  assert (RS : vsub w shown = residual u1 u0 w x y). { rewrite SH. unfold residual. clearbody w u0 u1 x y. apply v3_eq; v3; ring. }
  assert (LIN : residual u1 u0 w x y = vadd (vscale (INR j) (residual u1 u0 B1 a b)) (vscale (INR i) (residual u1 u0 B0 c d))).
  { rewrite W. unfold residual, x, y. generalize (INR i) (INR j). clearbody B0 B1 u0 u1. clear. intros. apply v3_eq; v3; ring. }
  assert (O1 : vdot (residual u1 u0 w x y) u1 = 0).
  { rewrite LIN. replace (vdot (vadd (vscale (INR j) (residual u1 u0 B1 a b)) (vscale (INR i) (residual u1 u0 B0 c d))) u1) with (INR j * vdot (residual u1 u0 B1 a b) u1 + INR i * vdot (residual u1 u0 B0 c d) u1).
    - rewrite A1, A3. ring.
    - generalize (residual u1 u0 B1 a b) (residual u1 u0 B0 c d) (INR i) (INR j). clearbody u1. clear. intros. v3. ring. }
  assert (O0 : vdot (residual u1 u0 w x y) u0 = 0).
  { rewrite LIN. replace (vdot (vadd (vscale (INR j) (residual u1 u0 B1 a b)) (vscale (INR i) (residual u1 u0 B0 c d))) u0) with (INR j * vdot (residual u1 u0 B1 a b) u0 + INR i * vdot (residual u1 u0 B0 c d) u0).
    - rewrite A2, A4. ring.
    - generalize (residual u1 u0 B1 a b) (residual u1 u0 B0 c d) (INR i) (INR j). clearbody u0. clear. intros. v3. ring. }
  split.
  - intros p q. rewrite RS.
    replace (vsub w (vadd (vscale p v1) (vscale q v0))) with (residual u1 u0 w (p * vlen v1) (q * vlen v0)).
    + apply orth_min; assumption.
    + unfold residual, u0, u1. clearbody w. clear - P0 P1. set (l0 := vlen v0) in *. set (l1 := vlen v1) in *. clearbody l0 l1. apply v3_eq; v3; field; lra.
  - intros Z0 Z1.
    (* the residual lies in the plane and is orthogonal to it *)
    set (r := residual u1 u0 w x y) in *.
    assert (R0 : vdot r v0 = 0). { replace v0 with (vscale (vlen v0) u0) by (unfold u0; apply v3_eq; unfold vscale, vx, vy, vz; cbn [fst snd]; field; lra). replace (vdot r (vscale (vlen v0) u0)) with (vlen v0 * vdot r u0) by (clearbody r u0; v3; ring). rewrite O0. ring. }
    assert (R1 : vdot r v1 = 0). { replace v1 with (vscale (vlen v1) u1) by (unfold u1; apply v3_eq; unfold vscale, vx, vy, vz; cbn [fst snd]; field; lra). replace (vdot r (vscale (vlen v1) u1)) with (vlen v1 * vdot r u1) by (clearbody r u1; v3; ring). rewrite O1. ring. }
    assert (RC : vdot (vcross v0 v1) r = 0).
    { assert (X : vdot (vcross v0 v1) r = vdot (vcross v0 v1) w). { unfold r, residual, u0, u1. generalize (/ vlen v0) (/ vlen v1). clearbody w x y. clear. intros. v3. ring. }
      rewrite X, W. unfold B0, B1. replace (vdot (vcross v0 v1) (vadd (vscale (INR i) (vscale factor b0)) (vscale (INR j) (vscale factor b1)))) with (factor * (INR i * vdot (vcross v0 v1) b0 + INR j * vdot (vcross v0 v1) b1)).
      - rewrite Z0, Z1. ring.
      - generalize (INR i) (INR j). clear. intros. v3. ring. }
    assert (RZ : r = (0, 0, 0)).
    { rewrite <- (coords_plane v0 v1 r I RC). unfold pinv0, pinv1, point. cbn [fst snd].
      replace (vdot (vscale (/ (vdot v0 v0 * vdot v1 v1 - vdot v0 v1 * vdot v0 v1)) (vsub (vscale (vdot v1 v1) v0) (vscale (vdot v0 v1) v1))) r) with 0.
      - replace (vdot (vscale (/ (vdot v0 v0 * vdot v1 v1 - vdot v0 v1 * vdot v0 v1)) (vsub (vscale (vdot v0 v0) v1) (vscale (vdot v0 v1) v0))) r) with 0.
        + clear. apply v3_eq; v3; ring.
        + transitivity (/ (vdot v0 v0 * vdot v1 v1 - vdot v0 v1 * vdot v0 v1) * (vdot v0 v0 * vdot r v1 - vdot v0 v1 * vdot r v0)); [rewrite R0, R1; ring|].
          generalize (/ (vdot v0 v0 * vdot v1 v1 - vdot v0 v1 * vdot v0 v1)). generalize (vdot v0 v0) (vdot v0 v1). clearbody r. clear. intros. v3. ring.
      - transitivity (/ (vdot v0 v0 * vdot v1 v1 - vdot v0 v1 * vdot v0 v1) * (vdot v1 v1 * vdot r v0 - vdot v0 v1 * vdot r v1)); [rewrite R0, R1; ring|].
        generalize (/ (vdot v0 v0 * vdot v1 v1 - vdot v0 v1 * vdot v0 v1)). generalize (vdot v1 v1) (vdot v0 v1). clearbody r. clear. intros. v3. ring. }
    rewrite RZ in RS. clearbody shown w. clear - RS. assert (X : forall s t : V3, vsub t s = (0, 0, 0) -> s = t).
    { intros [[s1 s2] s3] [[t1 t2] t3] H. unfold vsub, vx, vy, vz in H. cbn in H. inversion H. f_equal; [f_equal|]; lra. }
    apply X, RS.
Qed.

(** The limits of the axes hold exactly the picture: every point of it is inside, and each limit is reached at a corner. *)
Theorem C86_limits : forall f u v, - / 2 <= u <= INR (cols f) - / 2 -> - / 2 <= v <= INR (rows f) - / 2 ->
  let '((x0, x1), (y0, y1)) := limits f in
  x0 <= fst (to_axes f u v) <= x1 /\ y0 <= snd (to_axes f u v) <= y1 /\
  In x0 (map fst (corners f)) /\ In x1 (map fst (corners f)) /\ In y0 (map snd (corners f)) /\ In y1 (map snd (corners f)).
Proof.
  intros [a b c d n0 n1] u v Hu Hv. unfold limits. 
  assert (MN : forall l e x, In x l -> lmin l e <= x).
  { induction l as [|y l IH]; intros e x H; [destruct H|]. cbn. destruct H as [->|H]; [apply Rmin_l|]. eapply Rle_trans; [apply Rmin_r|]. apply IH, H. }
  assert (MX : forall l e x, In x l -> x <= lmax l e).
  { induction l as [|y l IH]; intros e x H; [destruct H|]. cbn. destruct H as [->|H]; [apply Rmax_l|]. eapply Rle_trans; [|apply Rmax_r]. apply IH, H. }
  assert (IN : forall l e, In (lmin l e) (e :: l)).
  { induction l as [|y l IH]; intros e; [left; reflexivity|]. cbn [lmin fold_right]. unfold Rmin at 1. destruct Rle_dec; [right; left; reflexivity|]. destruct (IH e) as [E|E]; [left; exact E|right; right; exact E]. }
  assert (IX : forall l e, In (lmax l e) (e :: l)).
  { induction l as [|y l IH]; intros e; [left; reflexivity|]. cbn [lmax fold_right]. unfold Rmax at 1. destruct Rle_dec; [|right; left; reflexivity]. destruct (IH e) as [E|E]; [left; exact E|right; right; exact E]. }
  set (f := {| m_a := a; m_b := b; m_c := c; m_d := d; rows := n0; cols := n1 |}) in *.
  assert (HD : forall (g : R * R -> R), In (hd 0 (map g (corners f))) (map g (corners f))) by (intros; left; reflexivity).
  assert (IN' : forall (g : R * R -> R), In (lmin (map g (corners f)) (hd 0 (map g (corners f)))) (map g (corners f))).
  { intros g. destruct (IN (map g (corners f)) (hd 0 (map g (corners f)))) as [E|E]; [rewrite <- E; apply HD|exact E]. }
  assert (IX' : forall (g : R * R -> R), In (lmax (map g (corners f)) (hd 0 (map g (corners f)))) (map g (corners f))).
  { intros g. destruct (IX (map g (corners f)) (hd 0 (map g (corners f)))) as [E|E]; [rewrite <- E; apply HD|exact E]. }
  assert (BX : forall p q lo hi, (forall s t, (s = - / 2 \/ s = INR n1 - / 2) -> (t = - / 2 \/ t = INR n0 - / 2) -> lo <= p * s + q * t <= hi) -> lo <= p * u + q * v <= hi).
  { intros p q lo hi H. cbn [cols rows f] in Hu, Hv.
    assert (E1 := H (- / 2) (- / 2) (or_introl eq_refl) (or_introl eq_refl)). assert (E2 := H (INR n1 - / 2) (- / 2) (or_intror eq_refl) (or_introl eq_refl)).
    assert (E3 := H (- / 2) (INR n0 - / 2) (or_introl eq_refl) (or_intror eq_refl)). assert (E4 := H (INR n1 - / 2) (INR n0 - / 2) (or_intror eq_refl) (or_intror eq_refl)).
    destruct (Rle_dec 0 p) as [Hp|Hp], (Rle_dec 0 q) as [Hq|Hq].
    - assert (p * - / 2 <= p * u <= p * (INR n1 - / 2)) by (split; apply Rmult_le_compat_l; lra). assert (q * - / 2 <= q * v <= q * (INR n0 - / 2)) by (split; apply Rmult_le_compat_l; lra). lra.
    - assert (p * - / 2 <= p * u <= p * (INR n1 - / 2)) by (split; apply Rmult_le_compat_l; lra). assert (q * (INR n0 - / 2) <= q * v <= q * - / 2) by (split; apply Rmult_le_compat_neg_l; lra). lra.
    - assert (p * (INR n1 - / 2) <= p * u <= p * - / 2) by (split; apply Rmult_le_compat_neg_l; lra). assert (q * - / 2 <= q * v <= q * (INR n0 - / 2)) by (split; apply Rmult_le_compat_l; lra). lra.
    - assert (p * (INR n1 - / 2) <= p * u <= p * - / 2) by (split; apply Rmult_le_compat_neg_l; lra). assert (q * (INR n0 - / 2) <= q * v <= q * - / 2) by (split; apply Rmult_le_compat_neg_l; lra). lra. }
  assert (IC : forall s t, (s = - / 2 \/ s = INR n1 - / 2) -> (t = - / 2 \/ t = INR n0 - / 2) -> In (to_axes f s t) (corners f)).
  { intros s t [-> | ->] [-> | ->]; unfold corners; cbn [cols rows f In]; tauto. }
  split; [|split; [|split; [|split; [|split]]]]; try apply IN'; try apply IX'.
  - replace (fst (to_axes f u v)) with (a * u + c * v) by reflexivity. apply BX. intros s t Hs Ht. change (a * s + c * t) with (fst (to_axes f s t)).
    split; [apply MN|apply MX]; apply (in_map fst), IC; assumption.
  - replace (snd (to_axes f u v)) with (b * u + d * v) by reflexivity. apply BX. intros s t Hs Ht. change (b * s + d * t) with (snd (to_axes f s t)).
    split; [apply MN|apply MX]; apply (in_map snd), IC; assumption.
Qed.

(** Plotting again on the same figure: with the same size and geometry the picture is where it should be; another pixel
    size (k times smaller) or another number of pixels is drawn where the first picture was, its distances off by k. *)
Theorem C86_replot : forall b factor v n0 n1 f, frame_of lstsq b factor v n0 n1 = Some f -> replot (Some f) (frame_of lstsq b factor v n0 n1) = frame_of lstsq b factor v n0 n1.
Proof. intros b factor v n0 n1 f E. rewrite E. reflexivity. Qed.
Theorem C86_replot_other_basis_refuted : forall b0 b1 factor k n0 n1 f, independent b0 b1 -> 0 < factor -> 0 < k -> (0 < n0)%nat -> (0 < n1)%nat ->
  frame_of lstsq (b0, b1) factor Ortho n0 n1 = Some f ->
  exists g, replot (Some f) (frame_of lstsq (vscale (/ k) b0, vscale (/ k) b1) factor Ortho n0 n1) = Some g /\
  forall i j i' j', dist2 (pixel_at g n0 n1 i j) (pixel_at g n0 n1 i' j') = k * (factor * vlen (place (vscale (/ k) b0) (vscale (/ k) b1) (INR i - INR i') (INR j - INR j'))).
Proof.
  intros b0 b1 factor k n0 n1 f I F K H0 H1 E. exists f. split; [reflexivity|]. intros i j i' j'.
  destruct (C86_ortho b0 b1 factor n0 n1 I F H0 H1) as (f' & E' & Q & _). rewrite E in E'. inversion E'; subst f'. rewrite Q.
  assert (X : place (vscale (/ k) b0) (vscale (/ k) b1) (INR i - INR i') (INR j - INR j') = vscale (/ k) (place b0 b1 (INR i - INR i') (INR j - INR j'))).
  { generalize (INR i - INR i') (INR j - INR j') (/ k). clear. intros. unfold place. apply v3_eq; v3; ring. }
  rewrite X, Proofs_AS.vlen_scale, Rabs_right by (left; apply Rinv_0_lt_compat, K). field. lra.
Qed.
Theorem C86_replot_other_size_refuted : forall b0 b1 factor k n0 n1 f, independent b0 b1 -> 0 < factor -> (0 < k)%nat -> (0 < n0)%nat -> (0 < n1)%nat ->
  frame_of lstsq (b0, b1) factor Ortho n0 n1 = Some f ->
  exists g, replot (Some f) (frame_of lstsq (b0, b1) factor Ortho (k * n0) (k * n1)) = Some g /\
  forall i j i' j', dist2 (pixel_at g (k * n0) (k * n1) i j) (pixel_at g (k * n0) (k * n1) i' j') = / INR k * (factor * vlen (place b0 b1 (INR i - INR i') (INR j - INR j'))).
Proof.
  intros b0 b1 factor k n0 n1 f I F K H0 H1 E. exists f. split; [reflexivity|].
  assert (SZ : rows f = n0 /\ cols f = n1). { unfold frame_of in E. destruct (ortho_view _); [|discriminate]. cbn [obind] in E. inversion E. cbn. auto. } destruct SZ as [SR SC].
  destruct (C86_ortho b0 b1 factor n0 n1 I F H0 H1) as (f' & E' & Q & _). rewrite E in E'. inversion E'; subst f'.
  apply lt_0_INR in K. pose proof (lt_0_INR _ H0) as P0. pose proof (lt_0_INR _ H1) as P1.
  assert (G : forall i j, pixel_at f n0 n1 i j = (m_a f * INR j + m_c f * INR i, m_b f * INR j + m_d f * INR i)).
  { intros i j. destruct f as [a b c d r cc]. cbn in SR, SC. subst r cc. apply pixel_own; assumption. }
  intros i j i' j'. rewrite <- Q, !G. unfold dist2, pixel_at, to_axes. cbn [fst snd]. rewrite SR, SC, !mult_INR.
  set (X := m_a f * INR j + m_c f * INR i - (m_a f * INR j' + m_c f * INR i')). set (Y := m_b f * INR j + m_d f * INR i - (m_b f * INR j' + m_d f * INR i')).
  match goal with |- sqrt (?A * ?A + ?B * ?B) = _ => replace A with (/ INR k * X) by (unfold X; field; lra); replace B with (/ INR k * Y) by (unfold Y; field; lra) end.
  replace (/ INR k * X * (/ INR k * X) + / INR k * Y * (/ INR k * Y)) with ((/ INR k) ^ 2 * (X * X + Y * Y)) by ring.
  assert (KI : 0 < / INR k) by (apply Rinv_0_lt_compat, K).
  rewrite sqrt_mult_alt by (apply pow2_ge_0). rewrite sqrt_pow2 by lra. reflexivity.
Qed.

(** A degenerate basis (two parallel vectors, or a zero one) has no default view: the norm of a zero vector is divided by. *)
Theorem C86_degenerate_refuted : forall b0 b1 factor n0 n1, ~ independent b0 b1 -> frame_of lstsq (b0, b1) factor Ortho n0 n1 = None.
Proof.
  intros b0 b1 factor n0 n1 NI. unfold frame_of. cbn [fst snd]. rewrite ortho_view_none; [reflexivity|]. intros X. apply NI. intros Z. apply X.
  replace (vcross (vscale factor b0) (vscale factor b1)) with (vscale (factor * factor) (vcross b0 b1)) by (apply v3_eq; v3; ring). rewrite Z. apply v3_eq; v3; ring.
Qed.
End C86.
Print Assumptions C86_ortho.
Print Assumptions C86_view.
Print Assumptions C86_limits.
Print Assumptions C86_replot.
Print Assumptions C86_replot_other_basis_refuted.
Print Assumptions C86_replot_other_size_refuted.
Print Assumptions C86_degenerate_refuted.

Lemma scal_sqrt f x : 0 <= f -> f * sqrt x = sqrt (f ^ 2 * x).
Proof. intros F. rewrite sqrt_mult_alt by apply pow2_ge_0. rewrite sqrt_pow2 by assumption. reflexivity. Qed.

(** Scan patterns and maps: positions are in the chosen unit, in both functions alike; for the object's convention they
    are mirrored at the origin; distances are kept. *)
Theorem C86_maps : forall factor t t', 0 <= factor ->
  translations_place factor t = (factor * fst t, factor * snd t) /\
  scatter_place factor true t = translations_place factor t /\
  scatter_place factor false t = (- fst (translations_place factor t), - snd (translations_place factor t)) /\
  forall p, dist2 (scatter_place factor p t) (scatter_place factor p t') = factor * dist2 t t'.
Proof.
  intros factor t t' F. unfold translations_place, scatter_place, dist2. split; [f_equal; ring|]. split; [f_equal; ring|]. split; [cbn; f_equal; ring|].
  intros p. rewrite scal_sqrt by assumption. f_equal. destruct p; cbn [fst snd]; ring.
Qed.
Print Assumptions C86_maps.

(** The x axis of plot_translations: over any sequence of calls on a figure it points left exactly if some call since
    the last one that cleared the figure (that one included) asked for it. *)
Theorem C86_axis : forall calls : list tcall, let inverted := fold_left after_call calls false in
  inverted = true <-> exists before c after, calls = before ++ c :: after /\ invert_xaxis c = true /\ Forall (fun d => clear_fig d = false) after.
Proof.
  intros calls. induction calls as [|c calls IH] using rev_ind; cbn zeta in *.
  - cbn. split; [discriminate|]. intros (b & c & a & E & _). destruct b; discriminate.
  - rewrite fold_left_app. cbn [fold_left]. set (s := fold_left after_call calls false) in *. unfold after_call. split.
    + intros H. destruct (invert_xaxis c) eqn:EI.
      * exists calls, c, []. auto.
      * destruct (clear_fig c) eqn:EC; [discriminate|]. apply IH in H. destruct H as (b & d & a & E & Hd & Ha). exists b, d, (a ++ [c]). split; [rewrite E, <- app_assoc; reflexivity|]. split; [exact Hd|]. apply Forall_app. auto.
    + intros (b & d & a & E & Hd & Ha). destruct (invert_xaxis c) eqn:EI.
      * destruct (clear_fig c); [reflexivity|]. destruct s; reflexivity.
      * destruct a as [|x a] using rev_ind.
        { apply app_inj_tail in E. destruct E as [_ ->]. congruence. }
        { clear IHa. apply Forall_app in Ha. destruct Ha as [Ha Hx]. inversion Hx as [|? ? Hx1 _]; subst.
          change (d :: a ++ [x]) with ((d :: a) ++ [x]) in E. rewrite app_assoc in E. apply app_inj_tail in E. destruct E as [E ->]. rewrite Hx1.
          apply IH. exists b, d, a. auto. }
Qed.
Print Assumptions C86_axis.

(** The image beside a nanomap, drawn into a rectangle: distances are kept for an orthogonal basis ... *)
Theorem C86_extent : forall b0 b1 factor n0 n1 i j i' j', vdot b0 b1 = 0 -> 0 <= factor -> (0 < n0)%nat -> (0 < n1)%nat ->
  dist2 (extent_pixel (b0, b1) factor n0 n1 i j) (extent_pixel (b0, b1) factor n0 n1 i' j') = factor * vlen (place b0 b1 (INR i - INR i') (INR j - INR j')).
Proof.
  intros b0 b1 factor n0 n1 i j i' j' O F H0 H1. apply lt_0_INR in H0. apply lt_0_INR in H1. unfold dist2, extent_pixel. cbn [fst snd].
  set (di := INR i - INR i'). set (dj := INR j - INR j').
  replace ((INR j + / 2) * (INR n1 * (vlen b1 * factor)) / INR n1 - (INR j' + / 2) * (INR n1 * (vlen b1 * factor)) / INR n1) with (factor * (vlen b1 * dj)) by (unfold dj; field; lra).
  replace (INR n0 * (vlen b0 * factor) - (INR i + / 2) * (INR n0 * (vlen b0 * factor)) / INR n0 - (INR n0 * (vlen b0 * factor) - (INR i' + / 2) * (INR n0 * (vlen b0 * factor)) / INR n0)) with (- (factor * (vlen b0 * di))) by (unfold di; field; lra).
  change (vlen (place b0 b1 di dj)) with (sqrt (vdot (place b0 b1 di dj) (place b0 b1 di dj))). rewrite scal_sqrt by assumption. f_equal.
  assert (P : vdot (place b0 b1 di dj) (place b0 b1 di dj) = di * di * vdot b0 b0 + 2 * (di * dj * vdot b0 b1) + dj * dj * vdot b1 b1) by (unfold place; generalize di dj; clear; intros; v3; ring).
  rewrite P, O, <- !vlen_sq. ring.
Qed.
Print Assumptions C86_extent.
(** ... and for no other one: the diagonals of a sheared pixel come out equal. *)
Theorem C86_extent_sheared_refuted : forall b0 b1 factor n0 n1, vdot b0 b1 <> 0 -> 0 < factor -> (0 < n0)%nat -> (0 < n1)%nat ->
  let at_ i j := extent_pixel (b0, b1) factor n0 n1 i j in
  dist2 (at_ 0%nat 0%nat) (at_ 1%nat 1%nat) = dist2 (at_ 1%nat 0%nat) (at_ 0%nat 1%nat) /\
  vlen (place b0 b1 1 1) <> vlen (place b0 b1 (-1) 1).
Proof.
  intros b0 b1 factor n0 n1 N F H0 H1. apply lt_0_INR in H0. apply lt_0_INR in H1. split.
  - unfold dist2, extent_pixel. cbn [fst snd]. f_equal. change (INR 1) with 1. change (INR 0) with 0. field. lra.
  - intros E. apply N. assert (Q : vlen (place b0 b1 1 1) * vlen (place b0 b1 1 1) = vlen (place b0 b1 (-1) 1) * vlen (place b0 b1 (-1) 1)) by (rewrite E; reflexivity).
    rewrite !vlen_sq in Q. assert (P : vdot (place b0 b1 1 1) (place b0 b1 1 1) - vdot (place b0 b1 (-1) 1) (place b0 b1 (-1) 1) = 4 * vdot b0 b1) by (unfold place; clear; v3; ring). lra.
Qed.
Print Assumptions C86_extent_sheared_refuted.

(** Concrete: a sheared basis in space, in micrometres. *)
Example C86_example : independent (1, 2, 0) (3, 0, 1) /\ vdot (1, 2, 0) (3, 0, 1) <> 0.
Proof. split; [unfold independent; intros E; apply (f_equal vx) in E; unfold vcross, vx, vy, vz in E; cbn in E; lra|unfold vdot, vx, vy, vz; cbn; lra]. Qed.

(** An image of any other number of pixels drawn in the frame of a rows x cols one fills the same place: its first and
    last pixel lie evenly about the middle of the frame, and the corners of its outermost pixels are the frame's. *)
Theorem C86_resized : forall f n0 n1, (0 < n0)%nat -> (0 < n1)%nat ->
  let first := pixel_at f n0 n1 0 0 in let last := pixel_at f n0 n1 (n0 - 1) (n1 - 1) in
  ((fst first + fst last) / 2, (snd first + snd last) / 2) = to_axes f ((INR (cols f) - 1) / 2) ((INR (rows f) - 1) / 2).
Proof.
  intros f n0 n1 H0 H1. unfold pixel_at, to_axes. rewrite !minus_INR by lia. apply lt_0_INR in H0. apply lt_0_INR in H1. cbn [fst snd]. change (INR 0) with 0. change (INR 1) with 1. f_equal; field; lra.
Qed.
Print Assumptions C86_resized.

(** The probe's convention may be asked for in any case; everything else is the object's. *)
Theorem C86_convention : forall s, is_probe_convention s = true <->
  exists p r o b e, s = String p (String r (String o (String b (String e EmptyString)))) /\
    (p = "p" \/ p = "P")%char /\ (r = "r" \/ r = "R")%char /\ (o = "o" \/ o = "O")%char /\ (b = "b" \/ b = "B")%char /\ (e = "e" \/ e = "E")%char.
Proof.
  assert (L : forall a l u, In (l, u) [("p", "P"); ("r", "R"); ("o", "O"); ("b", "B"); ("e", "E")]%char -> (lower_ascii a = l <-> a = l \/ a = u)).
  { intros a l u I. cbn in I. repeat (destruct I as [I|I]; [injection I as <- <-|]); try contradiction;
      destruct a as [[] [] [] [] [] [] [] []]; split; intros Q; try (right; reflexivity); try (left; reflexivity); try (vm_compute in Q; discriminate Q); try (vm_compute; reflexivity);
      destruct Q as [Q|Q]; discriminate Q. }
  intros s. unfold is_probe_convention. split.
  - intros E. apply String.eqb_eq in E. destruct s as [|p [|r [|o [|b [|e [|x s]]]]]]; try discriminate E. cbn [lower] in E. injection E as E1 E2 E3 E4 E5.
    exists p, r, o, b, e. split; [reflexivity|]. repeat split; (eapply L; [|eassumption]); cbn; tauto.
  - intros (p & r & o & b & e & -> & E1 & E2 & E3 & E4 & E5). apply String.eqb_eq. cbn [lower].
    repeat match goal with |- String (lower_ascii ?a) _ = String ?l _ => replace (lower_ascii a) with l by (symmetry; eapply L; [|eassumption]; cbn; tauto); f_equal end.
Qed.
Print Assumptions C86_convention.
