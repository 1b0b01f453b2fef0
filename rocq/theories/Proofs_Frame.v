From Verif Require Import Base Model_Prop Model_Geom Spec_Geom Model_Frame Spec_Frame Proofs_Geom.
From Verif Require Proofs_AS.
Local Open Scope R_scope.

Lemma vlen_sq v : vlen v * vlen v = vdot v v.
Proof. apply Proofs_AS.vlen_sq. Qed.
Lemma vlen_zero v : vlen v = 0 -> v = (0, 0, 0).
Proof.
  intros H. pose proof (vlen_sq v) as Q. rewrite H, Rmult_0_l in Q. destruct v as [[a b] c]. unfold vdot, vx, vy, vz in Q. cbn in Q.
  assert (a = 0) by nra. assert (b = 0) by nra. assert (c = 0) by nra. subst. reflexivity.
Qed.
Lemma unit_of_ok v : v <> (0, 0, 0) -> unit_of v = Some (vscale (/ vlen v) v).
Proof. intros H. unfold unit_of. destruct Req_EM_T as [E|]; [|reflexivity]. elim H. apply vlen_zero, E. Qed.
Lemma unit_dot v : v <> (0, 0, 0) -> vdot (vscale (/ vlen v) v) (vscale (/ vlen v) v) = 1.
Proof.
  intros H. pose proof (vlen_pos v H) as P. replace (vdot (vscale (/ vlen v) v) (vscale (/ vlen v) v)) with (/ vlen v * / vlen v * vdot v v) by (v3; ring).
  rewrite <- vlen_sq. field. lra.
Qed.

(** Minimal residuals are orthogonal to the columns. *)
Lemma quad_zero a c : (forall t, 2 * t * a <= t * t * c) -> 0 <= c -> a = 0.
Proof.
  intros H C. destruct (Req_dec c 0) as [->|N].
  - pose proof (H 1). pose proof (H (-1)). lra.
  - pose proof (H (a / c)) as Q. assert (E : 2 * (a / c) * a = 2 * (a * a / c)) by (field; exact N). assert (E' : a / c * (a / c) * c = a * a / c) by (field; exact N).
    rewrite E, E' in Q. assert (a * a / c <= 0) by lra. assert (P : 0 < / c) by (apply Rinv_0_lt_compat; lra).
    assert (a * a <= 0). { apply Rmult_le_reg_r with (/ c); [exact P|]. unfold Rdiv in *. lra. } nra.
Qed.
Lemma len_le_dot u v : vlen u <= vlen v -> vdot u u <= vdot v v.
Proof.
  intros H. rewrite <- !vlen_sq. assert (0 <= vlen u) by apply sqrt_pos. apply Rmult_le_compat; assumption.
Qed.
Lemma dot_le_len u v : vdot u u <= vdot v v -> vlen u <= vlen v.
Proof. apply sqrt_le_1_alt. Qed.
Lemma dot_nonneg u : 0 <= vdot u u.
Proof. v3. nra. Qed.

Lemma normal_equations lstsq : least_squares lstsq -> forall v1 v2 b, let r := residual v1 v2 b (fst (lstsq v1 v2 b)) (snd (lstsq v1 v2 b)) in
  vdot r v1 = 0 /\ vdot r v2 = 0.
Proof.
  intros L v1 v2 b. destruct (lstsq v1 v2 b) as [x y] eqn:E. cbn [fst snd]. cbn zeta. set (r := residual v1 v2 b x y). 
  split.
  - apply quad_zero with (c := vdot v1 v1); [|apply dot_nonneg]. intros t. pose proof (L v1 v2 b (x + t) y) as Q. rewrite E in Q. cbn [fst snd] in Q. apply len_le_dot in Q. fold r in Q.
    assert (Q2 : vdot (residual v1 v2 b (x + t) y) (residual v1 v2 b (x + t) y) = vdot r r - 2 * t * vdot r v1 + t * t * vdot v1 v1) by (unfold r, residual; v3; ring). lra.
  - apply quad_zero with (c := vdot v2 v2); [|apply dot_nonneg]. intros t. pose proof (L v1 v2 b x (y + t)) as Q. rewrite E in Q. cbn [fst snd] in Q. apply len_le_dot in Q. fold r in Q.
    assert (Q2 : vdot (residual v1 v2 b x (y + t)) (residual v1 v2 b x (y + t)) = vdot r r - 2 * t * vdot r v2 + t * t * vdot v2 v2) by (unfold r, residual; v3; ring). lra.
Qed.

(** With orthonormal columns the coefficients are the projections. *)
Lemma lstsq_orthonormal lstsq : least_squares lstsq -> forall v1 v2 b, vdot v1 v1 = 1 -> vdot v2 v2 = 1 -> vdot v2 v1 = 0 -> lstsq v1 v2 b = (vdot b v1, vdot b v2).
Proof.
  intros L v1 v2 b H1 H2 H12. pose proof (normal_equations lstsq L v1 v2 b) as [A B]. destruct (lstsq v1 v2 b) as [x y]. cbn [fst snd] in *.
  assert (A' : vdot (residual v1 v2 b x y) v1 = vdot b v1 - x * vdot v1 v1 - y * vdot v2 v1) by (unfold residual; v3; ring).
  assert (B' : vdot (residual v1 v2 b x y) v2 = vdot b v2 - x * vdot v2 v1 - y * vdot v2 v2) by (unfold residual; v3; ring).
  rewrite A in A'. rewrite B in B'. rewrite H1, H12 in A'. rewrite H12, H2 in B'. f_equal; lra.
Qed.

(** Such a function exists. *)
Definition lstsq1 (v b : V3) : R := if Req_EM_T (vdot v v) 0 then 0 else vdot b v / vdot v v.
Definition lstsq_example (v1 v2 b : V3) : R * R :=
  if Req_EM_T (vdot (vcross v1 v2) (vcross v1 v2)) 0
  then (if Req_EM_T (vdot v1 v1) 0 then (0, lstsq1 v2 b) else (lstsq1 v1 b, 0))
  else (vdot (pinv0 v1 v2) b, vdot (pinv1 v1 v2) b).
Lemma orth_min v1 v2 b x y : vdot (residual v1 v2 b x y) v1 = 0 -> vdot (residual v1 v2 b x y) v2 = 0 -> forall p q, vlen (residual v1 v2 b x y) <= vlen (residual v1 v2 b p q).
Proof.
  intros A B p q. apply dot_le_len. set (r := residual v1 v2 b x y) in *.
  set (s := vadd (vscale (x - p) v1) (vscale (y - q) v2)).
  assert (E : vdot (residual v1 v2 b p q) (residual v1 v2 b p q) = vdot r r + 2 * ((x - p) * vdot r v1 + (y - q) * vdot r v2) + vdot s s) by (unfold r, s, residual; v3; ring).
  rewrite A, B in E. pose proof (dot_nonneg s). lra.
Qed.
Lemma lstsq_exists : least_squares lstsq_example.
Proof.
  intros v1 v2 b p q. unfold lstsq_example. destruct Req_EM_T as [E|N].
  - destruct (Req_EM_T (vdot v1 v1) 0) as [E1|N1]; cbn [fst snd]; apply orth_min.
    + unfold vdot in *. assert (v1 = (0, 0, 0)). { apply vlen_zero. unfold vlen, vdot. rewrite E1. apply sqrt_0. } subst. unfold vx, vy, vz. cbn. ring.
    + assert (Z : v1 = (0, 0, 0)). { apply vlen_zero. unfold vlen. rewrite E1. apply sqrt_0. } subst. unfold lstsq1. destruct Req_EM_T as [E2|N2].
      * assert (v2 = (0, 0, 0)). { apply vlen_zero. unfold vlen. rewrite E2. apply sqrt_0. } subst. unfold residual. v3. ring.
      * replace (vdot (residual (0, 0, 0) v2 b 0 (vdot b v2 / vdot v2 v2)) v2) with (vdot b v2 - vdot b v2 / vdot v2 v2 * vdot v2 v2) by (unfold residual; v3; ring). field. exact N2.
    + unfold lstsq1. destruct Req_EM_T as [|_]; [contradiction|].
      replace (vdot (residual v1 v2 b (vdot b v1 / vdot v1 v1) 0) v1) with (vdot b v1 - vdot b v1 / vdot v1 v1 * vdot v1 v1) by (unfold residual; v3; ring). field. exact N1.
    + (* v2 is a multiple of v1 *)
      unfold lstsq1. destruct Req_EM_T as [|_]; [contradiction|]. set (r := residual v1 v2 b (vdot b v1 / vdot v1 v1) 0).
      assert (R1 : vdot r v1 = 0). { unfold r. replace (vdot (residual v1 v2 b (vdot b v1 / vdot v1 v1) 0) v1) with (vdot b v1 - vdot b v1 / vdot v1 v1 * vdot v1 v1) by (unfold residual; v3; ring). field. exact N1. }
      assert (Cz : vcross v1 v2 = (0, 0, 0)). { apply vlen_zero. unfold vlen. rewrite E. apply sqrt_0. }
      assert (M : vdot v1 v1 * vdot r v2 = vdot v1 v2 * vdot r v1 + vdot r (vcross v1 (vcross v2 v1))) by (clearbody r; v3; ring).
      assert (Cz' : vcross v1 (vcross v2 v1) = (0, 0, 0)). { assert (X : vcross v2 v1 = vscale (-1) (vcross v1 v2)) by (apply v3_eq; v3; ring). rewrite X, Cz. apply v3_eq; v3; ring. }
      rewrite Cz', R1 in M. assert (Z : vdot r (0, 0, 0) = 0) by (clearbody r; v3; ring). rewrite Z in M.
      apply Rmult_eq_reg_l with (vdot v1 v1); [lra|exact N1].
  - cbn [fst snd]. assert (I : independent v1 v2). { intros X. apply N. rewrite X. unfold vdot, vx, vy, vz. cbn. ring. }
    destruct (pinv_span v1 v2) as (a & c & d & e & P0 & P1). pose proof (pinv_dual v1 v2 I) as (D1 & D2 & D3 & D4).
    set (x := vdot (pinv0 v1 v2) b). set (y := vdot (pinv1 v1 v2) b).
    (* the residual is orthogonal to the dual vectors, hence to the columns *)
    set (r := residual v1 v2 b x y).
    assert (S0 : vdot r (pinv0 v1 v2) = 0).
    { unfold r. replace (vdot (residual v1 v2 b x y) (pinv0 v1 v2)) with (vdot (pinv0 v1 v2) b - x * vdot (pinv0 v1 v2) v1 - y * vdot (pinv0 v1 v2) v2) by (unfold residual; v3; ring). rewrite D1, D2. fold x. ring. }
    assert (S1 : vdot r (pinv1 v1 v2) = 0).
    { unfold r. replace (vdot (residual v1 v2 b x y) (pinv1 v1 v2)) with (vdot (pinv1 v1 v2) b - x * vdot (pinv1 v1 v2) v1 - y * vdot (pinv1 v1 v2) v2) by (unfold residual; v3; ring). rewrite D3, D4. fold y. ring. }
    (* v1 and v2 are combinations of the dual vectors *)
    assert (C1 : v1 = vadd (vscale (vdot v1 v1) (pinv0 v1 v2)) (vscale (vdot v1 v2) (pinv1 v1 v2))).
    { unfold pinv0, pinv1. pose proof (gram_pos v1 v2 I) as G. set (g := vdot v1 v1 * vdot v2 v2 - vdot v1 v2 * vdot v1 v2) in *.
      apply v3_eq.
      - replace (vx v1) with (/ g * g * vx v1) at 1 by (field; lra). unfold g at 2. clearbody g. v3; ring.
      - replace (vy v1) with (/ g * g * vy v1) at 1 by (field; lra). unfold g at 2. clearbody g. v3; ring.
      - replace (vz v1) with (/ g * g * vz v1) at 1 by (field; lra). unfold g at 2. clearbody g. v3; ring. }
    assert (C2 : v2 = vadd (vscale (vdot v1 v2) (pinv0 v1 v2)) (vscale (vdot v2 v2) (pinv1 v1 v2))).
    { unfold pinv0, pinv1. pose proof (gram_pos v1 v2 I) as G. set (g := vdot v1 v1 * vdot v2 v2 - vdot v1 v2 * vdot v1 v2) in *.
      apply v3_eq.
      - replace (vx v2) with (/ g * g * vx v2) at 1 by (field; lra). unfold g at 2. clearbody g. v3; ring.
      - replace (vy v2) with (/ g * g * vy v2) at 1 by (field; lra). unfold g at 2. clearbody g. v3; ring.
      - replace (vz v2) with (/ g * g * vz v2) at 1 by (field; lra). unfold g at 2. clearbody g. v3; ring. }
    apply orth_min; fold r.
    + rewrite C1. replace (vdot r (vadd (vscale (vdot v1 v1) (pinv0 v1 v2)) (vscale (vdot v1 v2) (pinv1 v1 v2)))) with (vdot v1 v1 * vdot r (pinv0 v1 v2) + vdot v1 v2 * vdot r (pinv1 v1 v2)).
      * rewrite S0, S1. ring.
      * generalize (pinv0 v1 v2) (pinv1 v1 v2) (vdot v1 v1) (vdot v1 v2). clearbody r. intros. v3. ring.
    + rewrite C2. replace (vdot r (vadd (vscale (vdot v1 v2) (pinv0 v1 v2)) (vscale (vdot v2 v2) (pinv1 v1 v2)))) with (vdot v1 v2 * vdot r (pinv0 v1 v2) + vdot v2 v2 * vdot r (pinv1 v1 v2)).
      * rewrite S0, S1. ring.
      * generalize (pinv0 v1 v2) (pinv1 v1 v2) (vdot v2 v2) (vdot v1 v2). clearbody r. intros. v3. ring.
Qed.

(** The view perpendicular to the plane of the basis. *)
Lemma ortho_view_spec b0 b1 : independent b0 b1 -> exists y n1, ortho_view (b0, b1) = Some (y, n1) /\
  n1 = vscale (/ vlen b1) b1 /\ vdot n1 n1 = 1 /\ vdot y y = 1 /\ vdot y n1 = 0 /\ 0 < vdot b0 y /\ b0 = vadd (vscale (vdot b0 n1) n1) (vscale (vdot b0 y) y).
Proof.
  intros I. destruct (Proofs_AS.vcross_nonzero b0 b1 I) as [N0 N1].
  pose proof (vlen_pos b0 N0) as P0. pose proof (vlen_pos b1 N1) as P1.
  unfold ortho_view. cbn [fst snd]. rewrite (unit_of_ok b0 N0), (unit_of_ok b1 N1). cbn [obind].
  set (n0 := vscale (/ vlen b0) b0). set (n1 := vscale (/ vlen b1) b1).
  assert (U1 : vdot n1 n1 = 1) by (apply unit_dot, N1). assert (U0 : vdot n0 n0 = 1) by (apply unit_dot, N0).
  assert (B0 : b0 = vscale (vlen b0) n0). { unfold n0. apply v3_eq; unfold vscale, vx, vy, vz; cbn [fst snd]; field; lra. }
  assert (CZ : vcross n1 n0 <> (0, 0, 0)).
  { intros E. apply I. assert (X : vcross b0 b1 = vscale (- (vlen b0 * vlen b1)) (vcross n1 n0)).
    { unfold n0, n1. set (l0 := vlen b0) in *. set (l1 := vlen b1) in *. clearbody l0 l1. apply v3_eq; v3; field; lra. }
    rewrite X, E. apply v3_eq; v3; ring. }
  rewrite (unit_of_ok _ CZ). cbn [obind]. set (s := / vlen (vcross n1 n0)). assert (SP : 0 < s) by (apply Rinv_0_lt_compat, vlen_pos, CZ).
  set (g := vsub n0 (vscale (vdot n0 n1) n1)).
  assert (EG : vcross (vscale s (vcross n1 n0)) n1 = vscale s g).
  { assert (X : vcross (vscale s (vcross n1 n0)) n1 = vscale s (vsub (vscale (vdot n1 n1) n0) (vscale (vdot n0 n1) n1))) by (clearbody n0 n1 s; apply v3_eq; v3; ring).
    rewrite X, U1. unfold g. f_equal. f_equal. clearbody n0. apply v3_eq; v3; ring. }
  rewrite EG. assert (GG : vdot g g = 1 - vdot n0 n1 * vdot n0 n1).
  { unfold g. replace (vdot (vsub n0 (vscale (vdot n0 n1) n1)) (vsub n0 (vscale (vdot n0 n1) n1))) with (vdot n0 n0 - 2 * (vdot n0 n1 * vdot n0 n1) + vdot n0 n1 * vdot n0 n1 * vdot n1 n1) by (clearbody n0 n1; v3; ring). rewrite U0, U1. ring. }
  assert (GP : 0 < vdot g g).
  { rewrite GG. pose proof (lagrange n1 n0) as L. rewrite U0, U1 in L. pose proof (vdot_pos _ CZ). replace (vdot n1 n0) with (vdot n0 n1) in L by (clearbody n0 n1; v3; ring). lra. }
  assert (GN : vscale s g <> (0, 0, 0)).
  { intros E. assert (X : vdot (vscale s g) (vscale s g) = s * s * vdot g g) by (clearbody g s; v3; ring). rewrite E in X. unfold vdot at 1, vx, vy, vz in X. cbn [fst snd] in X.
    assert (0 < s * s * vdot g g) by (apply Rmult_lt_0_compat; [apply Rmult_lt_0_compat; assumption|assumption]). lra. }
  rewrite (unit_of_ok _ GN). cbn [obind]. set (t := / vlen (vscale s g)). assert (TP : 0 < t) by (apply Rinv_0_lt_compat, vlen_pos, GN).
  set (y := vscale t (vscale s g)). exists y, n1. split; [reflexivity|]. split; [reflexivity|]. split; [exact U1|].
  assert (YY : vdot y y = 1) by (apply unit_dot, GN). split; [exact YY|].
  assert (GN1 : vdot g n1 = 0). { unfold g. replace (vdot (vsub n0 (vscale (vdot n0 n1) n1)) n1) with (vdot n0 n1 - vdot n0 n1 * vdot n1 n1) by (clearbody n0 n1; v3; ring). rewrite U1. ring. }
  assert (YN : vdot y n1 = 0). { unfold y. replace (vdot (vscale t (vscale s g)) n1) with (t * s * vdot g n1) by (clearbody g s t n1; v3; ring). rewrite GN1. ring. }
  split; [exact YN|].
  assert (N0G : n0 = vadd g (vscale (vdot n0 n1) n1)). { unfold g. clearbody n0 n1. apply v3_eq; v3; ring. }
  assert (GY : vdot g y = t * s * vdot g g) by (unfold y; clearbody g s t; v3; ring).
  assert (B0Y : vdot b0 y = vlen b0 * vdot g y).
  { rewrite B0 at 1. rewrite N0G. replace (vdot (vscale (vlen b0) (vadd g (vscale (vdot n0 n1) n1))) y) with (vlen b0 * (vdot g y + vdot n0 n1 * vdot y n1)) by (generalize (vlen b0) (vdot n0 n1); clearbody g y n1; intros; v3; ring).
    rewrite YN. ring. }
  split.
  - rewrite B0Y, GY. apply Rmult_lt_0_compat; [exact P0|]. apply Rmult_lt_0_compat; [|exact GP]. apply Rmult_lt_0_compat; assumption.
  - assert (GD : g = vscale (vdot g y) y).
    { rewrite GY. assert (TS : t * s * vdot g g * (t * s) = 1).
      { assert (X : vdot y y = t * s * vdot g g * (t * s)) by (unfold y; clearbody g s t; v3; ring). rewrite <- X. exact YY. }
      unfold y. transitivity (vscale (t * s * vdot g g * (t * s)) g); [rewrite TS; clearbody g; apply v3_eq; v3; ring|].
      generalize (vdot g g). clearbody g s t. intros. apply v3_eq; v3; ring. }
    assert (B0N : vdot b0 n1 = vlen b0 * vdot n0 n1) by (rewrite B0 at 1; generalize (vlen b0); clearbody n0 n1; intros; v3; ring).
    rewrite B0N, B0Y. rewrite B0 at 1. rewrite N0G at 1. rewrite GD at 1. generalize (vlen b0) (vdot g y) (vdot n0 n1). clearbody y n1. intros. apply v3_eq; v3; ring.
Qed.

Lemma ortho_view_none b0 b1 : ~ independent b0 b1 -> ortho_view (b0, b1) = None.
Proof.
  intros NI. assert (CR : vcross b0 b1 = (0, 0, 0)). { destruct (Req_EM_T (vlen (vcross b0 b1)) 0) as [E|E]; [apply vlen_zero, E|]. elim NI. intros X. apply E. rewrite X. unfold vlen, vdot, vx, vy, vz. cbn [fst snd]. rewrite !Rmult_0_l, !Rplus_0_l. apply sqrt_0. }
  assert (U : forall v, unit_of v = None \/ unit_of v = Some (vscale (/ vlen v) v)) by (intros v; unfold unit_of; destruct Req_EM_T; auto).
  unfold ortho_view. cbn [fst snd]. destruct (U b0) as [->| ->]; [reflexivity|]. cbn [obind]. destruct (U b1) as [->| ->]; [reflexivity|]. cbn [obind].
  unfold unit_of at 1. destruct Req_EM_T as [|E2]; [reflexivity|]. elim E2.
  assert (X : vcross (vscale (/ vlen b1) b1) (vscale (/ vlen b0) b0) = vscale (- (/ vlen b1 * / vlen b0)) (vcross b0 b1)).
  { generalize (/ vlen b1) (/ vlen b0). intros. apply v3_eq; v3; ring. }
  rewrite X, CR. unfold vlen, vdot, vscale, vx, vy, vz. cbn [fst snd]. rewrite !Rmult_0_r, !Rplus_0_l. apply sqrt_0.
Qed.
