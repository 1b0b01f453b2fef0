(** Lemmas about the models' propagators and geometry. *)
From Verif Require Import Base FinSum Fourier Model_Prop Spec_Prop Proofs_Prop Proofs_AS Model_Geom Spec_Geom Proofs_Geom Model_Models Spec_Models.
From Coquelicot Require Import Complex.
Local Open Scope R_scope.

(** ---- solving 3x3 systems ---- *)
Lemma solve3_unique r1 r2 r3 y v : det3 r1 r2 r3 <> 0 -> vdot r1 v = vx y -> vdot r2 v = vy y -> vdot r3 v = vz y ->
  solve3 r1 r2 r3 y = v.
Proof.
  intros D A B C. unfold solve3. rewrite <- A, <- B, <- C.
  assert (E : vadd (vadd (vscale (vdot r1 v) (vcross r2 r3)) (vscale (vdot r2 v) (vcross r3 r1))) (vscale (vdot r3 v) (vcross r1 r2))
            = vscale (det3 r1 r2 r3) v) by (unfold det3; clear; apply v3_eq; v3; ring).
  rewrite E. clear - D. set (d := det3 r1 r2 r3) in *. clearbody d. apply v3_eq; v3; field; exact D.
Qed.
(** the Gram matrix of the rows of [I - n n^T; s] *)
Lemma vdot_vadd_r u v w : vdot u (vadd v w) = vdot u v + vdot u w. Proof. v3. ring. Qed.
Lemma vdot_sym u v : vdot u v = vdot v u. Proof. v3. ring. Qed.
Lemma vdot_vscale_l a u v : vdot (vscale a u) v = a * vdot u v. Proof. v3. ring. Qed.
Lemma vdot_vscale_r a u v : vdot u (vscale a v) = a * vdot u v. Proof. v3. ring. Qed.
Lemma vdot_vsub_r u v w : vdot u (vsub v w) = vdot u v - vdot u w. Proof. v3. ring. Qed.
Lemma vdot_vsub_l u v w : vdot (vsub u v) w = vdot u w - vdot v w. Proof. v3. ring. Qed.

Lemma project_gram n s : unit_vec n ->
  let r1 := vsub ex (vscale (vx n) n) in let r2 := vsub ey (vscale (vy n) n) in let r3 := vsub ez (vscale (vz n) n) in
  (forall v, vdot (gram_row vx r1 r2 r3 s) v = vx v - vx n * vdot n v + vx s * vdot s v) /\
  (forall v, vdot (gram_row vy r1 r2 r3 s) v = vy v - vy n * vdot n v + vy s * vdot s v) /\
  (forall v, vdot (gram_row vz r1 r2 r3 s) v = vz v - vz n * vdot n v + vz s * vdot s v) /\
  det3 (gram_row vx r1 r2 r3 s) (gram_row vy r1 r2 r3 s) (gram_row vz r1 r2 r3 s) = vdot s n * vdot s n.
Proof.
  intros U r1 r2 r3.
  destruct n as [[a b] c], s as [[p q] r]. unfold unit_vec, vdot, vx, vy, vz in U. cbn [fst snd] in U.
  assert (C2 : c * c = 1 - a * a - b * b) by lra.
  assert (G1 : gram_row vx r1 r2 r3 (p, q, r) = (1 - a * a + p * p, - (a * b) + p * q, - (a * c) + p * r)).
  { unfold gram_row, r1, r2, r3, ex, ey, ez, vadd, vscale, vsub, vx, vy, vz. cbn [fst snd]. f_equal; [f_equal|]; ring_simplify; replace (c ^ 2) with (c * c) by ring; try replace (c ^ 3) with (c * c * c) by ring; rewrite ?C2; ring. }
  assert (G2 : gram_row vy r1 r2 r3 (p, q, r) = (- (a * b) + p * q, 1 - b * b + q * q, - (b * c) + q * r)).
  { unfold gram_row, r1, r2, r3, ex, ey, ez, vadd, vscale, vsub, vx, vy, vz. cbn [fst snd]. f_equal; [f_equal|]; ring_simplify; replace (c ^ 2) with (c * c) by ring; try replace (c ^ 3) with (c * c * c) by ring; rewrite ?C2; ring. }
  assert (G3 : gram_row vz r1 r2 r3 (p, q, r) = (- (a * c) + p * r, - (b * c) + q * r, 1 - c * c + r * r)).
  { unfold gram_row, r1, r2, r3, ex, ey, ez, vadd, vscale, vsub, vx, vy, vz. cbn [fst snd]. f_equal; [f_equal|]; ring_simplify; replace (c ^ 4) with (c * c * (c * c)) by ring; replace (c ^ 2) with (c * c) by ring; try replace (c ^ 3) with (c * c * c) by ring; rewrite ?C2; ring. }
  clearbody r1 r2 r3. rewrite G1, G2, G3. split; [|split; [|split]].
  1-3: intros v; destruct v as [[x y] z]; unfold vdot, vx, vy, vz; cbn [fst snd]; ring.
  unfold det3, vdot, vcross, vx, vy, vz. cbn [fst snd].
  match goal with |- ?l = ?rr => assert (E : l - rr = (1 - a * a - b * b - c * c) * (1 + p * p + q * q + r * r)) by ring end.
  assert (Z : 1 - a * a - b * b - c * c = 0) by lra. rewrite Z in E. lra.
Qed.
Lemma bragg_project_value n s y : unit_vec n -> vdot s n <> 0 -> vdot n y = 0 ->
  bragg_project n s y = vsub y (vscale (vdot s y / vdot s n) n).
Proof.
  intros U S Y. unfold bragg_project, pinv43.
  destruct (project_gram n s U) as (A & B & C & D). cbv zeta in A, B, C, D.
  set (v := vsub y (vscale (vdot s y / vdot s n) n)).
  assert (SV : vdot s v = 0). { unfold v. rewrite vdot_vsub_r, vdot_vscale_r. field. exact S. }
  assert (NV : vdot n v = - (vdot s y / vdot s n)). { unfold v. rewrite vdot_vsub_r, vdot_vscale_r, Y. unfold unit_vec in U. rewrite U. ring. }
  assert (RHS : vadd (vadd (vscale (vx y) (vsub ex (vscale (vx n) n))) (vscale (vy y) (vsub ey (vscale (vy n) n)))) (vscale (vz y) (vsub ez (vscale (vz n) n)))
              = vsub y (vscale (vdot n y) n)) by (unfold ex, ey, ez; clear; apply v3_eq; v3; ring).
  apply solve3_unique.
  - rewrite D. apply Rmult_integral_contrapositive_currified; exact S.
  - rewrite A, RHS, SV, NV, Y. unfold v. clear. generalize (vdot s y / vdot s n). intros k. v3. ring.
  - rewrite B, RHS, SV, NV, Y. unfold v. clear. generalize (vdot s y / vdot s n). intros k. v3. ring.
  - rewrite C, RHS, SV, NV, Y. unfold v. clear. generalize (vdot s y / vdot s n). intros k. v3. ring.
Qed.
Lemma vlen_sq u : vlen u * vlen u = vdot u u.
Proof. apply sqrt_sqrt. v3. nra. Qed.
Lemma unit_normalised u : u <> (0, 0, 0) -> unit_vec (vscale (/ vlen u) u).
Proof.
  intros H. pose proof (vlen_pos u H). unfold unit_vec. rewrite vdot_vscale_l, vdot_vscale_r, <- vlen_sq. field. lra.
Qed.
Lemma vcross_swap u v : vcross u v = vscale (-1) (vcross v u).
Proof. apply v3_eq; v3; ring. Qed.
Lemma vscale_0_inv k u : k <> 0 -> vscale k u = (0, 0, 0) -> u = (0, 0, 0).
Proof. intros H E. destruct u as [[a b] c]. unfold vscale, vx, vy, vz in E. cbn [fst snd] in E. injection E as A B C.
  assert (Z : forall x, k * x = 0 -> x = 0) by (intros x Hx; apply Rmult_integral in Hx; tauto). now rewrite (Z a A), (Z b B), (Z c C). Qed.
Lemma indep_swap u v : independent u v -> vcross v u <> (0, 0, 0).
Proof. intros H E. apply H. rewrite vcross_swap, E. apply v3_eq; v3; ring. Qed.
Lemma sample_normal_unit b0 b1 : independent b0 b1 -> unit_vec (sample_normal b0 b1).
Proof. intros H. apply unit_normalised. now apply indep_swap. Qed.
Lemma sample_normal_orth b0 b1 : vdot (sample_normal b0 b1) b0 = 0 /\ vdot (sample_normal b0 b1) b1 = 0.
Proof. unfold sample_normal. rewrite !vdot_vscale_l. split; apply Rmult_eq_0_compat_l; v3; ring. Qed.
Lemma vlen_scale k u : vlen (vscale k u) = Rabs k * vlen u.
Proof.
  unfold vlen. rewrite vdot_vscale_l, vdot_vscale_r, <- Rmult_assoc. rewrite sqrt_mult; [|nra|v3; nra].
  now rewrite (sqrt_Rsqr_abs k : sqrt (k * k) = Rabs k).
Qed.
(** The basis projected along n onto the plane normal to s: its cross product. *)
Lemma cross_projected n s y0 y1 : unit_vec n -> vdot s n <> 0 -> vdot n y0 = 0 -> vdot n y1 = 0 ->
  vscale (vdot s n) (vcross (vsub y1 (vscale (vdot s y1 / vdot s n) n)) (vsub y0 (vscale (vdot s y0 / vdot s n) n)))
  = vscale (vdot (vcross y1 y0) n) s.
Proof.
  intros U S A B. set (c := vdot s n) in *.
  assert (E : vscale c (vcross (vsub y1 (vscale (vdot s y1 / c) n)) (vsub y0 (vscale (vdot s y0 / c) n)))
            = vadd (vscale c (vcross y1 y0)) (vcross n (vsub (vscale (vdot s y0) y1) (vscale (vdot s y1) y0)))).
  { clearbody c. generalize (vdot s y0) (vdot s y1). clear - S. intros p q.
    assert (EP : forall x, x / c = x * / c) by reflexivity. rewrite !EP. assert (IC : c * / c = 1) by (now apply Rinv_r). set (d := / c) in *. clearbody d.
    assert (G : vscale c (vcross (vsub y1 (vscale (q * d) n)) (vsub y0 (vscale (p * d) n)))
              = vadd (vscale c (vcross y1 y0)) (vscale (c * d) (vcross n (vsub (vscale p y1) (vscale q y0))))) by (clear; apply v3_eq; v3; ring).
    rewrite G, IC. clear. apply v3_eq; v3; ring. }
  rewrite E.
  (* s (y1 x y0 . n) by expanding on n, y1 x y0 parallel to n *)
  assert (P : vcross n (vsub (vscale (vdot s y0) y1) (vscale (vdot s y1) y0)) = vcross n (vcross s (vcross y1 y0))).
  { clear. apply v3_eq; v3; ring. }
  rewrite P.
  assert (Q : vcross n (vcross s (vcross y1 y0)) = vsub (vscale (vdot n (vcross y1 y0)) s) (vscale (vdot n s) (vcross y1 y0))).
  { clear. apply v3_eq; v3; ring. }
  rewrite Q. unfold c. rewrite (vdot_sym n s), (vdot_sym n (vcross y1 y0)). clear.
  generalize (vcross y1 y0) as w. intros w. generalize (vdot s n) (vdot w n). intros. apply v3_eq; v3; ring.
Qed.
Lemma vdot_0_l u : vdot (0, 0, 0) u = 0.
Proof. v3. ring. Qed.
Lemma vlen_0 : vlen (0, 0, 0) = 0.
Proof. unfold vlen, vdot, vx, vy, vz. cbn [fst snd]. replace (0 * 0 + 0 * 0 + 0 * 0) with 0 by ring. apply sqrt_0. Qed.

Section Bragg.
Context (e0 e1 s : V3) (I : independent e0 e1).
Let n := sample_normal e0 e1.
Context (S : vdot s n <> 0).
Let b := bragg_obj_basis e0 e1 s.
Lemma bragg_basis_value : b = (vsub e0 (vscale (vdot s e0 / vdot s n) n), vsub e1 (vscale (vdot s e1 / vdot s n) n)).
Proof.
  unfold b, bragg_obj_basis. destruct (sample_normal_orth e0 e1) as [A B]. pose proof (sample_normal_unit _ _ I) as U.
  fold n in A, B, U. f_equal; apply bragg_project_value; assumption.
Qed.
Lemma bragg_basis_in_plane : orthogonal s (fst b) /\ orthogonal s (snd b).
Proof.
  rewrite bragg_basis_value. cbn [fst snd]. unfold orthogonal. rewrite !vdot_vsub_r, !vdot_vscale_r. split; field; exact S.
Qed.
Lemma normal_dot_cross : vdot (vcross e1 e0) n = vlen (vcross e1 e0).
Proof.
  unfold n, sample_normal. cbv zeta. rewrite vdot_vscale_r, <- vlen_sq. field. apply Rgt_not_eq. apply vlen_pos. now apply indep_swap.
Qed.
Lemma bragg_cross : vcross (snd b) (fst b) = vscale (vlen (vcross e1 e0) / vdot s n) s.
Proof.
  destruct (sample_normal_orth e0 e1) as [A B]. pose proof (sample_normal_unit _ _ I) as U. fold n in A, B, U.
  pose proof (cross_projected n s e0 e1 U S A B) as P. rewrite normal_dot_cross in P.
  rewrite bragg_basis_value. cbn [fst snd].
  apply (f_equal (vscale (/ vdot s n))) in P.
  assert (SS : forall a c v, vscale a (vscale c v) = vscale (a * c) v) by (clear; intros; apply v3_eq; v3; ring).
  rewrite !SS in P. rewrite Rinv_l in P by exact S.
  replace (vlen (vcross e1 e0) / vdot s n) with (/ vdot s n * vlen (vcross e1 e0)) by (field; exact S). rewrite <- P.
  assert (O : forall v, v = vscale 1 v) by (clear; intros; apply v3_eq; v3; ring). apply O.
Qed.
Lemma s_nonzero : s <> (0, 0, 0).
Proof. intros E. apply S. rewrite E. apply vdot_0_l. Qed.
Lemma bragg_normal_value : bragg_stored_normal (fst b) (snd b) = vscale (sgn (vdot s n) / vlen s) s.
Proof.
  unfold bragg_stored_normal, sample_normal. cbv zeta. rewrite bragg_cross, vlen_scale.
  pose proof (vlen_pos _ (indep_swap _ _ I)) as L. pose proof (vlen_pos _ s_nonzero) as LS.
  set (l := vlen (vcross e1 e0)) in *. set (k := vdot s n) in *.
  assert (SS : forall a c v, vscale a (vscale c v) = vscale (a * c) v) by (clear; intros; apply v3_eq; v3; ring).
  rewrite SS. f_equal. unfold Rdiv. rewrite Rabs_mult, Rabs_inv, (Rabs_pos_eq l) by lra.
  assert (AK : 0 < Rabs k) by (apply Rabs_pos_lt; exact S).
  assert (SG : k = sgn k * Rabs k).
  { unfold sgn, Rabs. destruct (Rlt_dec k 0), (Rcase_abs k); try lra. destruct (Rlt_dec 0 k); lra. }
  assert (SK : sgn k * sgn k = 1).
  { unfold sgn. destruct (Rlt_dec k 0); [ring|]. destruct (Rlt_dec 0 k); [ring|lra]. }
  assert (SN : sgn k <> 0) by nra.
  assert (KI : / k = sgn k * / Rabs k). { rewrite SG at 1. rewrite Rinv_mult. f_equal. apply (Rmult_eq_reg_l (sgn k)); [|exact SN]. rewrite SK. field. exact SN. }
  rewrite KI. field. repeat split; lra.
Qed.
End Bragg.
Lemma vscale_vscale a c v : vscale a (vscale c v) = vscale (a * c) v.
Proof. apply v3_eq; v3; ring. Qed.
Lemma pinv_cross u v : independent u v -> vcross (pinv1 u v) (pinv0 u v) = vscale (/ vdot (vcross v u) (vcross v u)) (vcross v u).
Proof.
  intros H. pose proof (gram_pos u v H) as G. unfold pinv0, pinv1. set (d := _ - _) in *.
  assert (D : d <> 0) by lra.
  assert (W : vdot (vcross v u) (vcross v u) = d) by (unfold d; rewrite lagrange; clear; v3; ring).
  rewrite W.
  assert (E : forall c a p b q a' p' b' q', vcross (vscale c (vsub (vscale a p) (vscale b q))) (vscale c (vsub (vscale a' p') (vscale b' q'))) =
     vscale (c * c) (vcross (vsub (vscale a p) (vscale b q)) (vsub (vscale a' p') (vscale b' q')))) by (clear; intros; apply v3_eq; v3; ring).
  rewrite E.
  assert (F : vcross (vsub (vscale (vdot u u) v) (vscale (vdot u v) u)) (vsub (vscale (vdot v v) u) (vscale (vdot u v) v)) = vscale d (vcross v u)).
  { unfold d. generalize (vdot u u) (vdot v v) (vdot u v). clear. intros. apply v3_eq; v3; ring. }
  rewrite F, vscale_vscale. f_equal. field. exact D.
Qed.
Lemma sample_normal_parallel k u v u' v' : 0 < k -> independent u v -> vcross v' u' = vscale k (vcross v u) -> sample_normal u' v' = sample_normal u v.
Proof.
  intros K H E. unfold sample_normal. cbv zeta. rewrite E, vlen_scale, vscale_vscale, Rabs_pos_eq by lra. f_equal.
  pose proof (vlen_pos _ (indep_swap _ _ H)). field. lra.
Qed.
Lemma indep_scale a c u v : a <> 0 -> c <> 0 -> independent u v -> independent (vscale a u) (vscale c v).
Proof.
  intros A C H E. apply H.
  assert (X : vcross (vscale a u) (vscale c v) = vscale (a * c) (vcross u v)) by (clear; apply v3_eq; v3; ring).
  rewrite X in E. apply vscale_0_inv in E; [exact E|]. now apply Rmult_integral_contrapositive_currified.
Qed.
Lemma ew_normal d0 d1 n0 n1 wl dist : independent d0 d1 -> (0 < n0)%nat -> (0 < n1)%nat -> wl * dist <> 0 ->
  let e := exit_wave_geometry d0 d1 n0 n1 wl dist in
  sample_normal (fst e) (snd e) = k_out d0 d1 /\ independent (fst e) (snd e).
Proof.
  intros H H0 H1 HW. cbv zeta. unfold exit_wave_geometry. cbn [fst snd].
  set (e0 := vscale (INR n0) d0). set (e1 := vscale (INR n1) d1).
  assert (N0 : 0 < INR n0) by (apply lt_0_INR; exact H0). assert (N1 : 0 < INR n1) by (apply lt_0_INR; exact H1).
  assert (IE : independent e0 e1) by (apply indep_scale; try lra; exact H).
  assert (C : vcross (vscale dist (vscale wl (pinv1 e0 e1))) (vscale dist (vscale wl (pinv0 e0 e1)))
       = vscale ((wl * dist) * (wl * dist) * (/ vdot (vcross e1 e0) (vcross e1 e0))) (vscale (INR n0 * INR n1) (vcross d1 d0))).
  { assert (X : forall a c u v, vcross (vscale a (vscale c u)) (vscale a (vscale c v)) = vscale ((c * a) * (c * a)) (vcross u v)) by (clear; intros; apply v3_eq; v3; ring).
    rewrite X, pinv_cross by exact IE. rewrite vscale_vscale. f_equal. unfold e0, e1. clear. generalize (INR n0) (INR n1). intros. apply v3_eq; v3; ring. }
  rewrite (vscale_vscale _ _ (vcross d1 d0)) in C.
  assert (K : 0 < (wl * dist) * (wl * dist) * (/ vdot (vcross e1 e0) (vcross e1 e0)) * (INR n0 * INR n1)).
  { apply Rmult_lt_0_compat; [apply Rmult_lt_0_compat|nra].
    - nra.
    - apply Rinv_0_lt_compat. apply vdot_pos. now apply indep_swap. }
  split.
  - etransitivity; [eapply sample_normal_parallel; [exact K|exact H|exact C]|reflexivity].
  - intros E. assert (E' : vcross (vscale dist (vscale wl (pinv1 e0 e1))) (vscale dist (vscale wl (pinv0 e0 e1))) = (0, 0, 0)).
    { rewrite vcross_swap, E. apply v3_eq; v3; ring. }
    rewrite C in E'. apply vscale_0_inv in E'; [|lra]. now apply (indep_swap _ _ H).
Qed.
Lemma k_out_unit d0 d1 : independent d0 d1 -> unit_vec (k_out d0 d1).
Proof. exact (sample_normal_unit d0 d1). Qed.
Lemma k_out_outgoing d0 d1 : independent d0 d1 -> outgoing_dir d0 d1 = vscale (-1) (k_out d0 d1).
Proof.
  intros H. unfold outgoing_dir, k_out. rewrite (vcross_swap d0 d1), vlen_scale, !vscale_vscale. f_equal.
  replace (Rabs (-1)) with 1 by (rewrite Rabs_left; lra). pose proof (vlen_pos _ (indep_swap _ _ H)). field. lra.
Qed.
Lemma unit_len v : unit_vec v -> vlen v = 1.
Proof. intros U. unfold vlen. rewrite U. apply sqrt_1. Qed.
Lemma sgn_pos x : 0 < x -> sgn x = 1.
Proof. intros. unfold sgn. destruct (Rlt_dec x 0); [lra|]. destruct (Rlt_dec 0 x); lra. Qed.
Lemma sgn_neg x : x < 0 -> sgn x = -1.
Proof. intros. unfold sgn. destruct (Rlt_dec x 0); lra. Qed.
(** the whole construction in one place *)
Lemma bragg_geometry_value d0 d1 n0 n1 wl dist g mode o s : independent d0 d1 -> (0 < n0)%nat -> (0 < n1)%nat -> wl * dist <> 0 ->
  bragg_normal d0 d1 g mode o = Ok s -> vdot s (k_out d0 d1) <> 0 ->
  let e := exit_wave_geometry d0 d1 n0 n1 wl dist in let n := k_out d0 d1 in
  bragg_geometry d0 d1 n0 n1 wl dist g mode o =
    Ok ((vsub (fst e) (vscale (vdot s (fst e) / vdot s n) n), vsub (snd e) (vscale (vdot s (snd e) / vdot s n) n)),
        vscale (sgn (vdot s n) / vlen s) s).
Proof.
  intros H H0 H1 HW B S e n. unfold bragg_geometry. rewrite B. cbn [rbind]. cbv zeta.
  destruct (ew_normal d0 d1 n0 n1 wl dist H H0 H1 HW) as [E I]. cbv zeta in E, I. fold e in E, I |- *.
  assert (S' : vdot s (sample_normal (fst e) (snd e)) <> 0) by (rewrite E; exact S).
  rewrite (bragg_normal_value (fst e) (snd e) s I S'), (bragg_basis_value (fst e) (snd e) s I S'), E. reflexivity.
Qed.

(** ---- chunks ---- *)
Lemma each_slices {I T P} (f : I -> T -> P) w : (0 < w)%nat -> forall fuel is ts i, (length is <= i + fuel)%nat -> length ts = length is ->
  concat (map (fun c => each f (fst c) (snd c))
    (combine (map (fun i => slice i (i + w) is) (starts fuel (length is) w i)) (map (fun i => slice i (i + w) ts) (starts fuel (length is) w i))))
  = each f (skipn i is) (skipn i ts).
Proof.
  intros Hw fuel. induction fuel as [|fuel IH]; intros is ts i L E.
  - cbn. rewrite skipn_all2 by lia. reflexivity.
  - cbn [starts]. destruct (Nat.ltb_spec i (length is)) as [Lt|Ge].
    + cbn [map combine concat fst snd]. rewrite IH by (try lia; exact E).
      unfold slice. replace (i + w - i)%nat with w by lia.
      assert (A : forall (is : list I) (ts : list T), each f is ts = each f (firstn w is) (firstn w ts) ++ each f (skipn w is) (skipn w ts)).
      { clear. induction w as [|w IH]; intros is ts; [reflexivity|]. destruct is as [|a is]; [reflexivity|].
        destruct ts as [|b ts]; [cbn; now destruct (skipn w is)|]. cbn. now rewrite <- IH. }
      assert (SS : forall X (l : list X) a b, skipn a (skipn b l) = skipn (b + a) l).
      { clear. intros X l a b. revert l. induction b as [|b IH]; intros l; [reflexivity|]. destruct l; [now rewrite !skipn_nil|]. cbn. apply IH. }
      rewrite (A (skipn i is) (skipn i ts)), !SS. reflexivity.
    + cbn. rewrite skipn_all2 by lia. reflexivity.
Qed.
Lemma sim_data_value {I T P} (f : I -> T -> P) is ts width : length ts = length is -> is <> nil ->
  match width with Some w => (0 < w)%nat | None => True end ->
  sim_data (each f) is ts width = Ok (each f is ts).
Proof.
  intros E NE W. unfold sim_data. set (w := match width with None => length is | Some w => w end).
  assert (Hw : (0 < w)%nat). { unfold w. destruct width; [exact W|]. destruct is; [contradiction|cbn; lia]. }
  destruct w as [|w']; [lia|]. set (w := S w') in *.
  pose proof (each_slices f w Hw (length is) is ts 0 ltac:(lia) E) as G. cbn [skipn] in G.
  destruct is as [|a is]; [contradiction|]. cbn [length starts] in *. destruct (Nat.ltb_spec 0 (S (length is))); [|lia].
  cbn [map combine] in *. now rewrite G.
Qed.
(** ---- orientation ---- *)
Lemma orientation_right_handed s : unit_vec s -> (vx s <> 0 \/ vz s <> 0) ->
  right_handed (fst (fst (sim_orientation s))) (snd (fst (sim_orientation s))) (snd (sim_orientation s)).
Proof.
  intros U NZ. unfold sim_orientation. cbv zeta. cbn [fst snd].
  set (c := vcross ey s).
  assert (CN : c <> (0, 0, 0)). { unfold c, ey. intros E. destruct s as [[a b] d]. unfold vcross, vx, vy, vz in *. cbn [fst snd] in *. injection E as E1 E2 E3. destruct NZ; lra. }
  set (x := vscale (/ vlen c) c). assert (UX : unit_vec x) by now apply unit_normalised.
  assert (OX : vdot s x = 0). { unfold x, c. rewrite vdot_vscale_r. apply Rmult_eq_0_compat_l. unfold ey. clear. v3. ring. }
  assert (UY : unit_vec (vcross s x)).
  { unfold unit_vec in *. rewrite <- lagrange, U, UX, OX. ring. }
  rewrite (unit_len _ UY), Rinv_1.
  assert (O1 : forall v, vscale 1 v = v) by (clear; intros; apply v3_eq; v3; ring). rewrite O1.
  clearbody x. clear c CN O1. unfold right_handed, orthogonal. repeat split; try assumption.
  - clear. v3. ring.
  - clear. v3. ring.
  - rewrite vdot_sym. exact OX.
  - assert (X : vcross x (vcross s x) = vsub (vscale (vdot x x) s) (vscale (vdot s x) x)) by (clear; apply v3_eq; v3; ring).
    rewrite X, OX. unfold unit_vec in UX. rewrite UX. clear. apply v3_eq; v3; ring.
Qed.
(** ---- positions ---- *)
Lemma pix_linear b0 b1 n t u : vz n <> 0 -> translations_to_pixel b0 b1 n (vadd t u) = padd2 (translations_to_pixel b0 b1 n t) (translations_to_pixel b0 b1 n u).
Proof.
  intros H. rewrite !projection_linear by exact H. unfold padd2. cbn [fst snd]. now rewrite !vdot_vadd_r.
Qed.
Lemma project_is_pixel b0 b1 t : vz (vcross b0 b1) <> 0 ->
  fst (project_translations_to_sample b0 b1 t) = translations_to_pixel b0 b1 (sample_normal b0 b1) t.
Proof.
  intros H. unfold project_translations_to_sample, translations_to_pixel. cbv zeta. cbn [fst].
  assert (Hn : vz (sample_normal b0 b1) <> 0).
  { assert (I : independent b0 b1). { intros E. rewrite E in H. now apply H. }
    pose proof (vlen_pos _ (indep_swap _ _ I)) as L.
    unfold sample_normal. cbv zeta. intros E. apply H.
    assert (E' : / vlen (vcross b1 b0) * vz (vcross b1 b0) = 0) by exact E.
    apply Rmult_integral in E'. destruct E' as [E'|E'].
    - exfalso. revert E'. apply Rinv_neq_0_compat. lra.
    - unfold vcross, vx, vy, vz in *. cbn [fst snd] in *. lra. }
  now rewrite projector_value, plane_proj by exact Hn.
Qed.
Lemma sample_normal_z b0 b1 : vz (vcross b0 b1) <> 0 -> vz (sample_normal b0 b1) <> 0 /\ vdot (vcross b0 b1) (sample_normal b0 b1) <> 0 /\ independent b0 b1.
Proof.
  intros H. assert (I : independent b0 b1). { intros E. rewrite E in H. now apply H. }
  pose proof (vlen_pos _ (indep_swap _ _ I)) as L. split; [|split; [|exact I]].
  - unfold sample_normal. cbv zeta. intros E. apply H.
    assert (E' : / vlen (vcross b1 b0) * vz (vcross b1 b0) = 0) by exact E.
    apply Rmult_integral in E'. destruct E' as [E'|E'].
    + exfalso. revert E'. apply Rinv_neq_0_compat. lra.
    + unfold vcross, vx, vy, vz in *. cbn [fst snd] in *. lra.
  - unfold sample_normal. cbv zeta. rewrite (vcross_swap b0 b1), vdot_vscale_l, vdot_vscale_r, <- vlen_sq.
    intros E. assert (X : vlen (vcross b1 b0) = 0); [|lra]. replace (vlen (vcross b1 b0)) with (- (-1 * (/ vlen (vcross b1 b0) * (vlen (vcross b1 b0) * vlen (vcross b1 b0))))) by (field; lra). rewrite E. ring.
Qed.
