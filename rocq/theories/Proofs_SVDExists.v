(** Every complex matrix has a QR decomposition and a singular value decomposition, so that the
    hypotheses about the linear algebra library can be met on every input. *)
From Verif Require Import Base FinSum Fourier Matrix Model_Prop Model_Analysis Spec_Analysis Proofs_SVD.
From Coquelicot Require Import Complex.
Local Open Scope R_scope.

(** ---- a Lipschitz function attains its maximum on the cube [-1,1]^d ---- *)
Definition upd (x : nat -> R) (d : nat) (t : R) : nat -> R := fun i => if Nat.eqb i d then t else x i.
Lemma Rabs_zero x : Rabs (x - x) = 0.
Proof. unfold Rminus. rewrite Rplus_opp_r. apply Rabs_R0. Qed.
Definition in_box (d : nat) (x : nat -> R) : Prop := forall i, (i < d)%nat -> -1 <= x i <= 1.
Definition lip (d : nat) (K : R) (F : (nat -> R) -> R) : Prop := forall x y, F x - F y <= K * rsum d (fun i => Rabs (x i - y i)).
Lemma upd_same x d t : upd x d t d = t.
Proof. unfold upd. rewrite Nat.eqb_refl. reflexivity. Qed.
Lemma upd_other x d t i : (i < d)%nat -> upd x d t i = x i.
Proof. intros H. unfold upd. replace (Nat.eqb i d) with false by (symmetry; apply Nat.eqb_neq; lia). reflexivity. Qed.
Lemma lip_upd d K F t : lip (S d) K F -> lip d K (fun x => F (upd x d t)).
Proof.
  intros H x y. eapply Rle_trans; [apply H|]. right. f_equal. rewrite rsum_S, !upd_same.
  rewrite Rabs_zero. rewrite Rplus_0_r.
  apply rsum_ext. intros i Hi. rewrite !upd_other by auto. reflexivity.
Qed.
Lemma lip_upd2 d K F x t t' : lip (S d) K F -> F (upd x d t) - F (upd x d t') <= K * Rabs (t - t').
Proof.
  intros H. eapply Rle_trans; [apply H|]. right. f_equal. rewrite rsum_S, !upd_same, rsum_zero'; [ring|].
  intros i Hi. rewrite !upd_other by auto. apply Rabs_zero.
Qed.
Theorem max_box d : forall K F, lip d K F -> exists x, in_box d x /\ forall y, in_box d y -> F y <= F x.
Proof.
  induction d; intros K F HF.
  - exists (fun _ => 0). split; [intros i Hi; lia|]. intros y _. specialize (HF y (fun _ => 0)). cbn in HF. lra.
  - set (E := fun t v => exists x, in_box d x /\ v = F (upd x d t)).
    assert (MX : forall t, exists x, in_box d x /\ forall y, in_box d y -> F (upd y d t) <= F (upd x d t)).
    { intros t. apply (IHd K (fun x => F (upd x d t))). apply lip_upd. auto. }
    assert (B : forall t, bound (E t)).
    { intros t. destruct (MX t) as [x [Hx M]]. exists (F (upd x d t)). intros v [y [Hy ->]]. auto. }
    assert (I : forall t, exists v, E t v).
    { intros t. destruct (MX t) as [x [Hx M]]. exists (F (upd x d t)). exists x. auto. }
    set (G := fun t => proj1_sig (completeness (E t) (B t) (I t))).
    assert (GX : forall t x, in_box d x -> (forall y, in_box d y -> F (upd y d t) <= F (upd x d t)) -> G t = F (upd x d t)).
    { intros t x Hx M. unfold G. destruct (completeness (E t) (B t) (I t)) as [g [U Lb]]. cbn [proj1_sig].
      apply Rle_antisym; [apply Lb; intros v [y [Hy ->]]; auto|]. apply U. exists x. auto. }
    assert (GL : forall t t', G t - G t' <= K * Rabs (t - t')).
    { intros t t'. destruct (MX t) as [x [Hx M]]. destruct (MX t') as [x' [Hx' M']]. rewrite (GX t x), (GX t' x') by auto.
      pose proof (lip_upd2 d K F x t t' HF). specialize (M' x Hx). lra. }
    assert (GC : forall c, -1 <= c <= 1 -> continuity_pt G c).
    { intros c _ eps He. exists (eps / (Rabs K + 1)). pose proof (Rabs_pos K). split; [apply Rdiv_lt_0_compat; lra|].
      intros x [_ Hx]. simpl in *. unfold R_dist in *.
      assert (Q : Rabs (G x - G c) <= Rabs K * Rabs (x - c)).
      { pose proof (GL x c). pose proof (GL c x). rewrite (Rabs_minus_sym c x) in *. pose proof (Rle_abs K). pose proof (Rabs_pos (x - c)).
        apply Rabs_le. nra. }
      apply Rle_lt_trans with (1 := Q).
      assert (P : (Rabs K + 1) * Rabs (x - c) < (Rabs K + 1) * (eps / (Rabs K + 1))) by (apply Rmult_lt_compat_l; lra).
      replace ((Rabs K + 1) * (eps / (Rabs K + 1))) with eps in P by (field; lra). pose proof (Rabs_pos (x - c)). nra. }
    destruct (continuity_ab_maj G (-1) 1 ltac:(lra) GC) as [t [MT HT]].
    destruct (MX t) as [x [Hx M]]. exists (upd x d t). split.
    + intros i Hi. destruct (Nat.eq_dec i d) as [-> | ]; [rewrite upd_same; auto|]. rewrite upd_other by lia. apply Hx. lia.
    + intros y Hy. rewrite <- (GX t x) by auto.
      assert (Hy' : in_box d y) by (intros i Hi; apply Hy; lia).
      destruct (MX (y d)) as [z [Hz Mz]].
      assert (Q : F y - F (upd y d (y d)) <= 0).
      { eapply Rle_trans; [apply HF|]. rewrite rsum_zero'; [lra|]. intros i Hi. unfold upd. destruct (Nat.eqb i d) eqn:Ei.
        - apply Nat.eqb_eq in Ei. subst i. apply Rabs_zero.
        - apply Rabs_zero. }
      pose proof (Mz y Hy'). specialize (MT (y d) (Hy d ltac:(lia))). rewrite (GX (y d) z) in MT by auto. lra.
Qed.

(** ---- norms ---- *)
Local Open Scope C_scope.
Definition nm (n : nat) (x : vec) : R := sqrt (nsq n x).
Lemma nm_nonneg n x : (0 <= nm n x)%R.
Proof. apply sqrt_pos. Qed.
Lemma nm_sq n x : (nm n x * nm n x = nsq n x)%R.
Proof. apply sqrt_sqrt, nsq_nonneg. Qed.
Lemma RtoC_m1 : RtoC (-1) = - RtoC 1.
Proof. apply C_ext; cbn; ring. Qed.
Lemma nsq_add n x y : nsq n (fun i => x i + y i) = (nsq n x + nsq n y + 2 * Re (ip n x y))%R.
Proof.
  rewrite (nsq_ext n _ (fun i => x i - (RtoC (-1) * y i))) by (intros; rewrite RtoC_m1; ring).
  rewrite nsq_sub, nsq_scal, ip_scal_r, nrm2_RtoC. unfold Re, RtoC, Cmult. cbn [fst snd]. ring.
Qed.
Lemma Re_le_mod (z : C) : (Re z <= Cmod z)%R.
Proof.
  destruct (Rle_dec (Re z) 0) as [N|P]; [pose proof (Cmod_ge_0 z); lra|]. apply Rsqr_incr_0_var; [|apply Cmod_ge_0].
  unfold Rsqr. pose proof (nrm2_Cmod z) as Q. unfold nrm2, Re in *. nra.
Qed.
Lemma nm_triangle n (x y : vec) : (nm n (fun i => x i + y i)%C <= nm n x + nm n y)%R.
Proof.
  apply Rsqr_incr_0_var; [|pose proof (nm_nonneg n x); pose proof (nm_nonneg n y); lra].
  unfold Rsqr. rewrite nm_sq, nsq_add. pose proof (Re_le_mod (ip n x y)). pose proof (cauchy_schwarz_mod n x y).
  fold (nm n x) (nm n y) in *. pose proof (nm_sq n x). pose proof (nm_sq n y). nra.
Qed.
Lemma nm_ext n x y : (forall i, (i < n)%nat -> x i = y i) -> nm n x = nm n y.
Proof. intros H. unfold nm. f_equal. apply nsq_ext. auto. Qed.
Lemma nm_diff n (x y : vec) : (nm n x - nm n y <= nm n (fun i => x i - y i)%C)%R.
Proof.
  pose proof (nm_triangle n (fun i => x i - y i) y) as H. rewrite (nm_ext n _ x) in H by (intros; ring). lra.
Qed.
Lemma nm_scal n c x : nm n (fun i => c * x i) = (Cmod c * nm n x)%R.
Proof. unfold nm. rewrite nsq_scal, sqrt_mult by (apply nrm2_nonneg || apply nsq_nonneg). rewrite Cmod_nrm2. reflexivity. Qed.
(** Frobenius bound. *)
Definition app (m : nat) (A : mat) (x : vec) : vec := fun i => csum m (fun j => A i j * x j).
Definition frob (n m : nat) (A : mat) : R := sqrt (rsum n (fun i => nsq m (A i))).
Lemma app_bound n m A x : (nm n (app m A x) <= frob n m A * nm m x)%R.
Proof.
  unfold nm, frob. rewrite <- sqrt_mult by (try apply nsq_nonneg; apply rsum_nonneg; intros; apply nsq_nonneg).
  apply sqrt_le_1_alt. unfold nsq at 1. rewrite Rmult_comm, rsum_scal. apply rsum_le. intros i _.
  unfold app. replace (csum m (fun j => A i j * x j)) with (ip m (fun j => Cconj (A i j)) x).
  2:{ apply csum_ext. intros j _. rewrite Cconj_invol. reflexivity. }
  eapply Rle_trans; [apply cauchy_schwarz|]. rewrite Rmult_comm. right. f_equal. apply rsum_ext. intros j _. apply nrm2_conj.
Qed.
Lemma app_sub m A x y i : app m A (fun j => x j - y j) i = app m A x i - app m A y i.
Proof. unfold app. rewrite <- csum_sub. apply csum_ext. intros; ring. Qed.
Lemma app_add m A x y i : app m A (fun j => x j + y j) i = app m A x i + app m A y i.
Proof. unfold app. rewrite <- csum_add. apply csum_ext. intros; ring. Qed.
Lemma app_scal m A c x i : app m A (fun j => c * x j) i = c * app m A x i.
Proof. unfold app. rewrite csum_scal. apply csum_ext. intros; ring. Qed.
Lemma nm_l1 m x : (nm m x <= rsum m (fun i => Rabs (fst (x i)) + Rabs (snd (x i))))%R.
Proof.
  induction m.
  - unfold nm, nsq. cbn. rewrite sqrt_0. lra.
  - rewrite rsum_S. apply Rsqr_incr_0_var.
    + unfold Rsqr. rewrite nm_sq. unfold nsq. rewrite rsum_S. fold (nsq m x). pose proof (nm_sq m x) as Q. pose proof (nm_nonneg m x).
      set (p := Rabs (fst (x m))). set (q := Rabs (snd (x m))).
      assert (N : (nrm2 (x m) <= (p + q) * (p + q))%R).
      { unfold nrm2. pose proof (pow2_abs (fst (x m))) as P1. pose proof (pow2_abs (snd (x m))) as P2. fold p in P1. fold q in P2.
        assert (0 <= p)%R by apply Rabs_pos. assert (0 <= q)%R by apply Rabs_pos. nra. }
      assert (0 <= p + q)%R by (unfold p, q; pose proof (Rabs_pos (fst (x m))); pose proof (Rabs_pos (snd (x m))); lra). nra.
    + pose proof (Rabs_pos (fst (x m))). pose proof (Rabs_pos (snd (x m))).
      assert (0 <= rsum m (fun i => Rabs (fst (x i)) + Rabs (snd (x i))))%R by (apply rsum_nonneg; intros i _; pose proof (Rabs_pos (fst (x i))); pose proof (Rabs_pos (snd (x i))); lra). lra.
Qed.

(** ---- a unit vector on which a matrix is largest ---- *)
Definition cpx (z : nat -> R) : vec := fun j => (z (2 * j)%nat, z (2 * j + 1)%nat).
Lemma rsum_pairs m (f : nat -> R) : rsum (2 * m) f = rsum m (fun j => f (2 * j)%nat + f (2 * j + 1)%nat)%R.
Proof.
  rewrite (Nat.mul_comm 2 m), rsum_block. apply rsum_ext. intros a _. cbn. replace (a * 2)%nat with (2 * a)%nat by lia.
  replace (2 * a + 0)%nat with (2 * a)%nat by lia. cbn. ring.
Qed.
Lemma max_vector n m A : (0 < m)%nat -> exists v, nsq m v = 1%R /\ forall x, (nm n (app m A x) <= nm n (app m A v) * nm m x)%R.
Proof.
  intros Hm. set (K := (frob n m A + 1)%R). assert (KP : (0 < K)%R) by (unfold K, frob; pose proof (sqrt_pos (rsum n (fun i => nsq m (A i)))); lra).
  assert (KB : forall x, (nm n (app m A x) <= K * nm m x)%R).
  { intros x. eapply Rle_trans; [apply app_bound|]. apply Rmult_le_compat_r; [apply nm_nonneg|]. unfold K. lra. }
  set (F := fun z => (nm n (app m A (cpx z)) - K * Rabs (nm m (cpx z) - 1))%R).
  assert (HL : lip (2 * m) (2 * K) F).
  { intros x y. unfold F.
    assert (D1 : (nm n (app m A (cpx x)) - nm n (app m A (cpx y)) <= K * nm m (fun j => cpx x j - cpx y j)%C)%R).
    { eapply Rle_trans; [apply nm_diff|]. rewrite (nm_ext n _ (app m A (fun j => cpx x j - cpx y j))) by (intros; rewrite app_sub; reflexivity). apply KB. }
    assert (D2 : (Rabs (nm m (cpx y) - 1) - Rabs (nm m (cpx x) - 1) <= nm m (fun j => cpx x j - cpx y j)%C)%R).
    { pose proof (nm_diff m (cpx x) (cpx y)). pose proof (nm_diff m (cpx y) (cpx x)) as Q.
      rewrite (nm_ext m (fun j => cpx y j - cpx x j) (fun j => RtoC (-1) * (cpx x j - cpx y j))), nm_scal in Q by (intros; rewrite RtoC_m1; ring).
      replace (Cmod (RtoC (-1))) with 1%R in Q by (rewrite Cmod_R, Rabs_left; lra).
      unfold Rabs. destruct (Rcase_abs (nm m (cpx y) - 1)); destruct (Rcase_abs (nm m (cpx x) - 1)); lra. }
    assert (D3 : (nm m (fun j => cpx x j - cpx y j)%C <= rsum (2 * m) (fun i => Rabs (x i - y i)))%R).
    { rewrite rsum_pairs. apply (nm_l1 m (fun j => cpx x j - cpx y j)). }
    pose proof (nm_nonneg m (fun j => cpx x j - cpx y j)). nra. }
  destruct (max_box (2 * m) (2 * K) F HL) as [z [Hz M]].
  (* every unit vector lies in the box *)
  assert (BX : forall e, nsq m e = 1%R -> (nm n (app m A e) <= F z)%R).
  { intros e He. set (ze := fun i => if Nat.even i then fst (e (i / 2)%nat) else snd (e (i / 2)%nat)).
    assert (CE : forall j, cpx ze j = e j).
    { intros j. unfold cpx, ze. replace (2 * j)%nat with (j * 2)%nat by lia. rewrite Nat.div_mul, Nat.div_add_l by lia.
      replace (1 / 2)%nat with 0%nat by reflexivity. rewrite Nat.add_0_r.
      replace (Nat.even (j * 2)) with true by (symmetry; apply Nat.even_spec; exists j; lia).
      replace (Nat.even (j * 2 + 1)) with false by (rewrite Nat.even_add; replace (Nat.even (j * 2)) with true by (symmetry; apply Nat.even_spec; exists j; lia); reflexivity).
      destruct (e j); reflexivity. }
    assert (IB : in_box (2 * m) ze).
    { intros i Hi. assert (Hj : (i / 2 < m)%nat) by (apply Nat.div_lt_upper_bound; lia).
      assert (N1 : (nrm2 (e (i / 2)%nat) <= 1)%R).
      { rewrite <- He. unfold nsq.
        replace (nrm2 (e (i / 2)%nat)) with (rsum m (fun j => if Nat.eqb j (i / 2)%nat then nrm2 (e j) else 0%R)).
        - apply rsum_le. intros j _. destruct (Nat.eqb j (i / 2)); [lra|apply nrm2_nonneg].
        - rewrite (rsum_single m (i / 2)%nat); auto.
          + rewrite Nat.eqb_refl. reflexivity.
          + intros j _ Hne. replace (Nat.eqb j (i / 2)) with false by (symmetry; apply Nat.eqb_neq; auto). reflexivity. }
      unfold ze, nrm2 in *. destruct (Nat.even i); nra. }
    eapply Rle_trans; [|apply (M ze IB)]. unfold F.
    rewrite (nm_ext n (app m A (cpx ze)) (app m A e)) by (intros; apply csum_ext; intros; rewrite CE; reflexivity).
    rewrite (nm_ext m (cpx ze) e) by (intros; apply CE). replace (nm m e) with 1%R by (unfold nm; rewrite He, sqrt_1; reflexivity). rewrite Rabs_zero. lra. }
  set (x0 := cpx z) in *. set (rho := nm m x0).
  assert (RP : (0 < rho)%R).
  { destruct (Rle_lt_or_eq_dec 0 rho (nm_nonneg m x0)) as [|E]; auto. exfalso.
    assert (Z0 : nsq m x0 = 0%R) by (rewrite <- nm_sq; fold rho; rewrite <- E; ring).
    set (e := fun j : nat => if Nat.eqb j 0 then RtoC 1 else RtoC 0).
    assert (He : nsq m e = 1%R).
    { unfold nsq. rewrite (rsum_single m 0%nat) by (auto; intros i _ Hi; unfold e; replace (Nat.eqb i 0) with false by (symmetry; apply Nat.eqb_neq; auto); rewrite nrm2_RtoC; ring).
      unfold e. cbn [Nat.eqb]. rewrite nrm2_RtoC. ring. }
    pose proof (BX e He) as Q. pose proof (nm_nonneg n (app m A e)).
    unfold F in Q. fold x0 in Q. pose proof (KB x0) as Q2. fold rho in Q, Q2. rewrite <- E in Q, Q2.
    replace (Rabs (0 - 1)) with 1%R in Q by (rewrite Rabs_left; lra). lra. }
  exists (fun j => RtoC (/ rho) * x0 j).
  assert (V1 : nsq m (fun j => RtoC (/ rho) * x0 j) = 1%R).
  { rewrite nsq_scal, nrm2_RtoC, <- nm_sq. fold rho. field. lra. }
  split; auto.
  set (s := nm n (app m A (fun j => RtoC (/ rho) * x0 j)%C)).
  assert (FS : (F z <= s)%R).
  { assert (SE : nm n (app m A x0) = (rho * s)%R).
    { unfold s. rewrite (nm_ext n (app m A (fun j => RtoC (/ rho) * x0 j)) (fun i => RtoC (/ rho) * app m A x0 i)) by (intros; apply app_scal).
      rewrite nm_scal, Cmod_R, Rabs_pos_eq by (left; apply Rinv_0_lt_compat; auto). field. lra. }
    unfold F. fold x0. fold rho. rewrite SE. assert (SK : (s <= K)%R).
    { unfold s. eapply Rle_trans; [apply KB|]. unfold nm. rewrite V1, sqrt_1. lra. }
    assert (0 <= s)%R by apply nm_nonneg. unfold Rabs. destruct (Rcase_abs (rho - 1)); nra. }
  intros x. destruct (Rle_lt_or_eq_dec 0 (nm m x) (nm_nonneg m x)) as [P|E].
  - assert (E1 : nsq m (fun j => RtoC (/ nm m x) * x j) = 1%R) by (rewrite nsq_scal, nrm2_RtoC, <- nm_sq; field; lra).
    pose proof (BX _ E1) as Q.
    rewrite (nm_ext n _ (fun i => RtoC (/ nm m x) * app m A x i)) in Q by (intros; apply app_scal).
    rewrite nm_scal, Cmod_R, Rabs_pos_eq in Q by (left; apply Rinv_0_lt_compat; auto).
    assert (Q2 : (/ nm m x * nm n (app m A x) <= s)%R) by lra.
    apply (Rmult_le_compat_r (nm m x)) in Q2; [|lra]. replace (/ nm m x * nm n (app m A x) * nm m x)%R with (nm n (app m A x)) in Q2 by (field; lra). exact Q2.
  - pose proof (KB x) as Q. rewrite <- E in *. lra.
Qed.

(** ---- orthonormal systems can be extended ---- *)
Definition unit_e (j : nat) : vec := fun i => delta i j.
Lemma ip_unit n x j : (j < n)%nat -> ip n x (unit_e j) = Cconj (x j).
Proof. intros H. unfold ip, unit_e. rewrite (csum_delta_r n j (fun i => Cconj (x i))); auto. Qed.
Lemma nsq_unit n j : (j < n)%nat -> nsq n (unit_e j) = 1%R.
Proof. intros H. apply RtoC_inj. rewrite <- ip_self, ip_unit by auto. unfold unit_e, delta. rewrite Nat.eqb_refl. apply Cconj_RtoC. Qed.
Definition residual (n k : nat) (U : mat) (x : vec) : vec := fun i => x i - csum k (fun a => ip n (fun i => U i a) x * U i a).
Lemma residual_total n k U : ortho_cols n k U -> rsum n (fun j => nsq n (residual n k U (unit_e j))) = (INR n - INR k)%R.
Proof.
  intros H. rewrite (rsum_ext n _ (fun j => 1 + (-1) * nsq k (fun a => ip n (fun i => U i a) (unit_e j)))%R).
  2:{ intros j Hj. unfold residual. rewrite bessel_eq by auto. rewrite nsq_unit by auto. ring. }
  rewrite rsum_add, <- rsum_scal, rsum_const. unfold nsq. rewrite rsum_swap.
  rewrite (rsum_ext k _ (fun _ => 1%R)).
  2:{ intros a Ha. rewrite (rsum_ext n _ (fun j => nrm2 (U j a))).
      - pose proof (H a a Ha Ha) as Q. rewrite ip_self in Q. unfold delta in Q. rewrite Nat.eqb_refl in Q. apply RtoC_inj in Q. exact Q.
      - intros j Hj. rewrite ip_unit by auto. apply nrm2_conj. }
  rewrite rsum_const. ring.
Qed.
Lemma residual_ortho n k U x b : ortho_cols n k U -> (b < k)%nat -> ip n (fun i => U i b) (residual n k U x) = RtoC 0.
Proof.
  intros H Hb. unfold residual. rewrite ip_sub_r, (ip_csum_r n k _ _ (fun a i => U i a)).
  rewrite (csum_ext k _ (fun a => ip n (fun i => U i a) x * delta a b)).
  2:{ intros a Ha. rewrite (H b a Hb Ha), delta_sym. reflexivity. }
  rewrite (csum_delta_r k b (fun a => ip n (fun i => U i a) x)) by auto. ring.
Qed.
Lemma complete_span n U x : ortho_cols n n U -> forall i, (i < n)%nat -> x i = csum n (fun a => ip n (fun i => U i a) x * U i a).
Proof.
  intros H. pose proof (residual_total n n U H) as T. replace (INR n - INR n)%R with 0%R in T by ring.
  assert (Z : forall j, (j < n)%nat -> nsq n (residual n n U (unit_e j)) = 0%R).
  { apply rsum_zero_iff; auto. intros. apply nsq_nonneg. }
  (* the orthogonal complement is trivial: w orthogonal to all columns is 0 *)
  assert (W0 : forall w, (forall a, (a < n)%nat -> ip n (fun i => U i a) w = RtoC 0) -> forall i, (i < n)%nat -> w i = RtoC 0).
  { intros w Hw i Hi. assert (E : forall p, (p < n)%nat -> unit_e i p = csum n (fun a => ip n (fun i => U i a) (unit_e i) * U p a)).
    { intros p Hp. pose proof (nsq_zero n _ (Z i Hi) p Hp) as Q. unfold residual in Q.
      replace (unit_e i p) with (unit_e i p - csum n (fun a => ip n (fun i => U i a) (unit_e i) * U p a) + csum n (fun a => ip n (fun i => U i a) (unit_e i) * U p a)) by ring.
      rewrite Q. ring. }
    assert (Q : ip n w (unit_e i) = RtoC 0).
    { rewrite (ip_ext n w w (unit_e i) (fun p => csum n (fun a => ip n (fun i => U i a) (unit_e i) * U p a))) by auto.
      rewrite (ip_csum_r n n _ _ (fun a i => U i a)). apply csum_zero'. intros a Ha. rewrite <- (ip_conj n (fun i0 => U i0 a) w), Hw by auto. rewrite Cconj_RtoC. ring. }
    rewrite ip_unit in Q by auto. rewrite <- (Cconj_invol (w i)), Q. apply Cconj_RtoC. }
  intros i Hi. pose proof (W0 (residual n n U x) (fun a Ha => residual_ortho n n U x a H Ha) i Hi) as Q. unfold residual in Q.
  replace (x i) with (x i - csum n (fun a => ip n (fun i => U i a) x * U i a) + csum n (fun a => ip n (fun i => U i a) x * U i a)) by ring.
  rewrite Q. ring.
Qed.
Lemma rsum_pos_ex n f : (0 < rsum n f)%R -> exists i, (i < n)%nat /\ (0 < f i)%R.
Proof.
  induction n; intros H; [cbn in H; lra|]. rewrite rsum_S in H. destruct (Rlt_dec 0 (f n)) as [P|P]; [exists n; auto|].
  destruct IHn as [i [Hi Q]]; [lra|]. exists i. auto.
Qed.
Lemma extend n k U : ortho_cols n k U -> (k < n)%nat -> exists u, nsq n u = 1%R /\ forall a, (a < k)%nat -> ip n (fun i => U i a) u = RtoC 0.
Proof.
  intros H Hk. assert (P : (0 < rsum n (fun j => nsq n (residual n k U (unit_e j))))%R).
  { rewrite residual_total by auto. apply lt_INR in Hk. lra. }
  destruct (rsum_pos_ex _ _ P) as [j [Hj Q]]. set (w := residual n k U (unit_e j)) in *. set (rho := nm n w).
  assert (RP : (0 < rho)%R) by (apply sqrt_lt_R0; auto).
  exists (fun i => RtoC (/ rho) * w i). split.
  - rewrite nsq_scal, nrm2_RtoC, <- nm_sq. fold rho. field. lra.
  - intros a Ha. rewrite ip_scal_r. unfold w. rewrite residual_ortho by auto. ring.
Qed.
(** Append a column. *)
Definition addcol (U : mat) (k : nat) (u : vec) : mat := fun i a => if Nat.eqb a k then u i else U i a.
Lemma addcol_old U k u i a : (a < k)%nat -> addcol U k u i a = U i a.
Proof. intros H. unfold addcol. replace (Nat.eqb a k) with false by (symmetry; apply Nat.eqb_neq; lia). reflexivity. Qed.
Lemma addcol_new U k u i : addcol U k u i k = u i.
Proof. unfold addcol. rewrite Nat.eqb_refl. reflexivity. Qed.
Lemma ortho_addcol n k U u : ortho_cols n k U -> nsq n u = 1%R -> (forall a, (a < k)%nat -> ip n (fun i => U i a) u = RtoC 0) ->
  ortho_cols n (S k) (addcol U k u).
Proof.
  intros H N O a b Ha Hb. destruct (Nat.eq_dec a k) as [-> | Na]; destruct (Nat.eq_dec b k) as [-> | Nb].
  - rewrite (ip_ext n _ u _ u) by (intros; apply addcol_new). rewrite ip_self, N. unfold delta. rewrite Nat.eqb_refl. reflexivity.
  - rewrite (ip_ext n _ u _ (fun i => U i b)) by (intros; try apply addcol_new; apply addcol_old; lia).
    rewrite <- ip_conj, O by lia. rewrite Cconj_RtoC. unfold delta. replace (Nat.eqb k b) with false by (symmetry; apply Nat.eqb_neq; lia). reflexivity.
  - rewrite (ip_ext n _ (fun i => U i a) _ u) by (intros; try apply addcol_new; apply addcol_old; lia).
    rewrite O by lia. unfold delta. replace (Nat.eqb a k) with false by (symmetry; apply Nat.eqb_neq; lia). reflexivity.
  - rewrite (ip_ext n _ (fun i => U i a) _ (fun i => U i b)) by (intros; apply addcol_old; lia). apply H; lia.
Qed.

(** ---- QR ---- *)
Lemma qr_cols n A : forall m, exists Q, ortho_cols n (Nat.min n m) Q /\
  forall j, (j < m)%nat -> exists c : vec, (forall a, (a > j)%nat -> c a = RtoC 0) /\ forall i, (i < n)%nat -> A i j = csum (Nat.min n m) (fun a => Q i a * c a).
Proof.
  induction m.
  - exists (fun _ _ => RtoC 0). split; [|intros; lia]. intros a b Ha. rewrite Nat.min_0_r in Ha. lia.
  - destruct IHm as [Q [HQ S]]. destruct (le_lt_dec n m) as [L|L].
    + rewrite Nat.min_l in HQ, S by auto. rewrite Nat.min_l by lia. exists Q. split; auto. intros j Hj.
      destruct (Nat.eq_dec j m) as [-> | ]; [|apply S; lia].
      exists (fun a => if Nat.ltb a n then ip n (fun i => Q i a) (fun i => A i m) else RtoC 0). split.
      * intros a Ha. replace (Nat.ltb a n) with false by (symmetry; apply Nat.ltb_ge; lia). reflexivity.
      * intros i Hi. rewrite (complete_span n Q (fun i => A i m) HQ i Hi). apply csum_ext. intros a Ha.
        replace (Nat.ltb a n) with true by (symmetry; apply Nat.ltb_lt; auto). ring.
    + rewrite Nat.min_r in HQ, S by lia. rewrite Nat.min_r by lia.
      set (w := residual n m Q (fun i => A i m)).
      assert (X : exists u (r : C), nsq n u = 1%R /\ (forall a, (a < m)%nat -> ip n (fun i => Q i a) u = RtoC 0) /\ forall i, (i < n)%nat -> w i = u i * r).
      { destruct (Rle_lt_or_eq_dec 0 (nsq n w) (nsq_nonneg n w)) as [P|E].
        - exists (fun i => RtoC (/ nm n w) * w i), (RtoC (nm n w)). assert (0 < nm n w)%R by (apply sqrt_lt_R0; auto). repeat split.
          + rewrite nsq_scal, nrm2_RtoC, <- nm_sq. field. lra.
          + intros a Ha. rewrite ip_scal_r. unfold w. rewrite residual_ortho by auto. ring.
          + intros i _. replace (RtoC (/ nm n w) * w i * RtoC (nm n w)) with (RtoC (/ nm n w * nm n w) * w i) by (rewrite RtoC_mult; ring).
            rewrite Rinv_l by lra. ring.
        - destruct (extend n m Q HQ L) as [u [U1 U2]]. exists u, (RtoC 0). repeat split; auto. intros i Hi.
          rewrite (nsq_zero n w (eq_sym E) i Hi). ring. }
      destruct X as [u [r [U1 [U2 U3]]]]. exists (addcol Q m u). split; [apply ortho_addcol; auto|].
      intros j Hj. destruct (Nat.eq_dec j m) as [-> | NJ].
      * exists (fun a => if Nat.ltb a m then ip n (fun i => Q i a) (fun i => A i m) else if Nat.eqb a m then r else RtoC 0). split.
        { intros a Ha. replace (Nat.ltb a m) with false by (symmetry; apply Nat.ltb_ge; lia). replace (Nat.eqb a m) with false by (symmetry; apply Nat.eqb_neq; lia). reflexivity. }
        intros i Hi. rewrite csum_S, addcol_new, Nat.ltb_irrefl, Nat.eqb_refl, <- U3 by auto. unfold w, residual.
        rewrite (csum_ext m _ (fun a => ip n (fun i => Q i a) (fun i => A i m) * Q i a)).
        2:{ intros a Ha. rewrite addcol_old by auto. replace (Nat.ltb a m) with true by (symmetry; apply Nat.ltb_lt; auto). ring. }
        ring.
      * destruct (S j ltac:(lia)) as [c [C1 C2]]. exists (fun a => if Nat.eqb a m then RtoC 0 else c a). split.
        { intros a Ha. destruct (Nat.eqb a m); auto. }
        intros i Hi. rewrite csum_S, Nat.eqb_refl, (C2 i Hi).
        rewrite (csum_ext m (fun a => addcol Q m u i a * (if Nat.eqb a m then RtoC 0 else c a)) (fun a => Q i a * c a)); [ring|].
        intros a Ha. rewrite addcol_old by auto. replace (Nat.eqb a m) with false by (symmetry; apply Nat.eqb_neq; lia). reflexivity.
Qed.
Lemma finite_choice {T} (d : T) m (P : nat -> T -> Prop) : (forall j, (j < m)%nat -> exists c, P j c) -> exists f, forall j, (j < m)%nat -> P j (f j).
Proof.
  induction m; intros H; [exists (fun _ => d); intros; lia|].
  destruct IHm as [f Hf]; [intros; apply H; lia|]. destruct (H m ltac:(lia)) as [c Hc].
  exists (fun j => if Nat.eqb j m then c else f j). intros j Hj. destruct (Nat.eqb j m) eqn:E.
  - apply Nat.eqb_eq in E. subst. auto.
  - apply Nat.eqb_neq in E. apply Hf. lia.
Qed.
Theorem qr_exists n m A : exists r, is_qr n m A r.
Proof.
  destruct (qr_cols n A m) as [Q [HQ S]].
  destruct (finite_choice (fun _ => RtoC 0) m _ S) as [c Hc]. exists (Q, fun a j => c j a). unfold is_qr. cbn [fst snd]. split; [|split]; auto.
  - intros i j _ Hj L. apply (Hc j Hj). auto.
  - intros i j Hi Hj. apply (Hc j Hj). auto.
Qed.

(** ---- SVD, one singular triple after the other ---- *)
Definition resid_mat (k : nat) (A : mat) (r : svd_result) : mat :=
  fun i j => A i j - csum k (fun a => svd_U r i a * RtoC (svd_S r a) * svd_Vh r a j).
Definition stage (n m k : nat) (A : mat) (r : svd_result) (top : R) : Prop :=
  ortho_cols n k (svd_U r) /\ ortho_rows k m (svd_Vh r) /\
  (forall a, (a < k)%nat -> (0 <= svd_S r a)%R) /\
  (forall a b, (a <= b)%nat -> (b < k)%nat -> (svd_S r b <= svd_S r a)%R) /\
  (forall a, (a < k)%nat -> (top <= svd_S r a)%R) /\ (0 <= top)%R /\
  (forall a i, (a < k)%nat -> (i < n)%nat -> app m (resid_mat k A r) (fun j => herm (svd_Vh r) j a) i = RtoC 0) /\
  (forall a j, (a < k)%nat -> (j < m)%nat -> ip n (fun i => svd_U r i a) (fun i => resid_mat k A r i j) = RtoC 0) /\
  (forall x, (nm n (app m (resid_mat k A r) x) <= top * nm m x)%R).
Definition addtriple (r : svd_result) (k : nat) (u : vec) (s : R) (v : vec) : svd_result :=
  {| svd_U := addcol (svd_U r) k u; svd_S := fun a => if Nat.eqb a k then s else svd_S r a;
     svd_Vh := fun a j => if Nat.eqb a k then Cconj (v j) else svd_Vh r a j |}.
Lemma resid_addtriple k A r u s v i j : resid_mat (S k) A (addtriple r k u s v) i j = resid_mat k A r i j - u i * RtoC s * Cconj (v j).
Proof.
  unfold resid_mat, addtriple. cbn [svd_U svd_S svd_Vh]. rewrite csum_S, addcol_new, !Nat.eqb_refl.
  rewrite (csum_ext k _ (fun a => svd_U r i a * RtoC (svd_S r a) * svd_Vh r a j)); [ring|].
  intros a Ha. rewrite addcol_old by auto. replace (Nat.eqb a k) with false by (symmetry; apply Nat.eqb_neq; lia). reflexivity.
Qed.
Lemma ip_app n m A x y : ip n x (app m A y) = csum m (fun j => y j * ip n x (fun i => A i j)).
Proof.
  rewrite (ip_ext n x x (app m A y) (fun i => csum m (fun j => y j * A i j))) by (auto; intros; apply csum_ext; intros; ring).
  apply (ip_csum_r n m x y (fun j i => A i j)).
Qed.
Lemma ip_add_r n x y z : ip n x (fun i => y i + z i) = ip n x y + ip n x z.
Proof. unfold ip. rewrite <- csum_add. apply csum_ext. intros; ring. Qed.
(** First-order condition at a maximiser. *)
Lemma max_ortho n m A v x : nsq m v = 1%R -> (forall x, (nm n (app m A x) <= nm n (app m A v) * nm m x)%R) ->
  ip m v x = RtoC 0 -> ip n (app m A v) (app m A x) = RtoC 0.
Proof.
  intros V1 M O. set (z := ip n (app m A v) (app m A x)). set (s2 := nsq n (app m A v)).
  apply nrm2_0. apply Rle_antisym; [|apply nrm2_nonneg]. apply Rnot_lt_le. intros P.
  pose proof (nsq_nonneg n (app m A v)) as S0. fold s2 in S0. set (X := nsq m x). pose proof (nsq_nonneg m x) as X0. fold X in X0.
  set (d := (/ (s2 * X + 1))%R). assert (SX : (0 <= s2 * X)%R) by (apply Rmult_le_pos; auto). assert (D0 : (0 < d)%R) by (apply Rinv_0_lt_compat; lra).
  set (e := RtoC d * Cconj z).
  specialize (M (fun j => v j + e * x j)%C).
  assert (Q : (nsq n (app m A (fun j => v j + e * x j)%C) <= s2 * nsq m (fun j => v j + e * x j)%C)%R).
  { rewrite <- !nm_sq. unfold s2. rewrite <- nm_sq. pose proof (nm_nonneg n (app m A (fun j => v j + e * x j)%C)).
    pose proof (nm_nonneg n (app m A v)). pose proof (nm_nonneg m (fun j => v j + e * x j)%C).
    replace (nm n (app m A v) * nm n (app m A v) * (nm m (fun j => v j + e * x j)%C * nm m (fun j => v j + e * x j)%C))%R
      with ((nm n (app m A v) * nm m (fun j => v j + e * x j)%C) * (nm n (app m A v) * nm m (fun j => v j + e * x j)%C))%R by ring.
    apply Rmult_le_compat; auto. }
  rewrite (nsq_ext n _ (fun i => app m A v i + e * app m A x i)) in Q.
  2:{ intros i _. rewrite app_add, app_scal. reflexivity. }
  rewrite !nsq_add, !nsq_scal, !ip_scal_r, O, V1 in Q. fold z s2 X in Q.
  replace (Re (e * RtoC 0)) with 0%R in Q by (unfold Re, RtoC, Cmult; cbn [fst snd]; ring).
  assert (RE : Re (e * z) = (d * nrm2 z)%R).
  { unfold e. replace (RtoC d * Cconj z * z) with (RtoC (d * nrm2 z)) by (rewrite RtoC_mult, <- mult_conj; ring). reflexivity. }
  rewrite RE in Q. replace (nrm2 e) with (d * d * nrm2 z)%R in Q by (unfold e; rewrite nrm2_mult, nrm2_RtoC, nrm2_conj; ring).
  pose proof (nsq_nonneg n (app m A x)) as AX.
  assert (0 <= d * d * nrm2 z * nsq n (app m A x))%R by (apply Rmult_le_pos; auto; apply Rmult_le_pos; [nra|lra]).
  assert (DX : (d * (s2 * X) < 1)%R). { unfold d. apply Rmult_lt_reg_l with (s2 * X + 1)%R; [lra|]. field_simplify; lra. }
  assert (2 * (d * nrm2 z) <= (d * (s2 * X)) * (d * nrm2 z))%R by nra.
  assert (0 < d * nrm2 z)%R by (apply Rmult_lt_0_compat; auto). nra.
Qed.
Lemma herm_addtriple r k u s v : forall j, (herm (svd_Vh (addtriple r k u s v)) j k = v j)%C.
Proof. intros j. unfold herm, addtriple. cbn [svd_Vh]. rewrite Nat.eqb_refl. apply Cconj_invol. Qed.
Lemma herm_addtriple_old r k u s v j a : (a < k)%nat -> herm (svd_Vh (addtriple r k u s v)) j a = herm (svd_Vh r) j a.
Proof. intros H. unfold herm, addtriple. cbn [svd_Vh]. replace (Nat.eqb a k) with false by (symmetry; apply Nat.eqb_neq; lia). reflexivity. Qed.
Lemma nsq_one_nm n x : nsq n x = 1%R -> nm n x = 1%R.
Proof. intros H. unfold nm. rewrite H. apply sqrt_1. Qed.

Lemma stage_step n m k A r top : (k < n)%nat -> (k < m)%nat -> stage n m k A r top -> exists r' top', stage n m (S k) A r' top'.
Proof.
  intros Kn Km [HU [HV [S0 [SD [ST [T0 [RV [UR RB]]]]]]]]. set (R := resid_mat k A r) in *.
  pose proof (proj1 (ortho_rows_herm k m (svd_Vh r)) HV) as HV'.
  destruct (max_vector n m R ltac:(lia)) as [v [V1 M]]. set (s := nm n (app m R v)) in *.
  assert (SN : (0 <= s)%R) by apply nm_nonneg.
  assert (STOP : (s <= top)%R). { specialize (RB v). fold s in RB. rewrite (nsq_one_nm m v V1) in RB. lra. }
  (* choose the new vectors *)
  assert (X : exists u v', nsq n u = 1%R /\ nsq m v' = 1%R /\
     (forall a, (a < k)%nat -> ip n (fun i => svd_U r i a) u = RtoC 0) /\
     (forall a, (a < k)%nat -> ip m (fun j => herm (svd_Vh r) j a) v' = RtoC 0) /\
     (forall i, (i < n)%nat -> app m R v' i = RtoC s * u i) /\
     (forall x, ip m v' x = RtoC 0 -> ip n u (app m R x) = RtoC 0)).
  { destruct (Rle_lt_or_eq_dec 0 s SN) as [P|E].
    - exists (fun i => RtoC (/ s) * app m R v i), v. repeat split; auto.
      + rewrite nsq_scal, nrm2_RtoC, <- nm_sq. fold s. field. lra.
      + intros a Ha. rewrite ip_scal_r, ip_app, csum_zero'; [ring|]. intros j Hj. rewrite UR by auto. ring.
      + intros a Ha. set (va := fun j => herm (svd_Vh r) j a). set (c := ip m va v).
        assert (N : nsq m (fun j => v j - c * va j)%C = (1 - nrm2 c)%R).
        { rewrite nsq_sub, nsq_scal, ip_scal_r, V1. assert (VA : nsq m va = 1%R).
          { apply RtoC_inj. rewrite <- ip_self. unfold va. rewrite HV' by auto. unfold delta. rewrite Nat.eqb_refl. reflexivity. }
          rewrite VA. rewrite <- (ip_conj m va v). fold c. rewrite mult_conj. unfold Re, RtoC. cbn [fst]. ring. }
        assert (E : nm n (app m R (fun j => v j - c * va j)%C) = s).
        { apply nm_ext. intros i Hi. rewrite app_sub, app_scal. unfold va. rewrite RV by auto. ring. }
        specialize (M (fun j => v j - c * va j)%C). rewrite E in M.
        assert (G : (1 <= nm m (fun j => v j - c * va j)%C)%R) by (apply Rmult_le_reg_l with s; lra).
        apply nrm2_0. apply Rle_antisym; [|apply nrm2_nonneg].
        pose proof (nm_sq m (fun j => v j - c * va j)%C) as Q. rewrite N in Q. nra.
      + intros i Hi. replace (RtoC s * (RtoC (/ s) * app m R v i)) with (RtoC (s * / s) * app m R v i) by (rewrite RtoC_mult; ring).
        rewrite Rinv_r by lra. ring.
      + intros x O. rewrite ip_scal_l. rewrite (max_ortho n m R v x V1 M O). ring.
    - destruct (extend n k (svd_U r) HU Kn) as [u [U1 U2]]. destruct (extend m k (herm (svd_Vh r)) HV' Km) as [v' [V1' V2]].
      assert (Z : forall x i, (i < n)%nat -> app m R x i = RtoC 0).
      { intros x. apply nsq_zero. specialize (M x). rewrite <- E in M. pose proof (nm_nonneg n (app m R x)).
        rewrite <- nm_sq. replace (nm n (app m R x)) with 0%R by lra. ring. }
      exists u, v'. repeat split; auto.
      + intros i Hi. rewrite Z, <- E by auto. ring.
      + intros x _. rewrite (ip_ext n u u (app m R x) (fun _ => RtoC 0)) by auto. unfold ip. apply csum_zero'. intros; ring. }
  destruct X as [u [v' [U1 [V1' [UO [VO [RV' RO]]]]]]].
  exists (addtriple r k u s v'), s.
  set (r' := addtriple r k u s v'). set (R' := resid_mat (S k) A r').
  assert (RE : forall i j, R' i j = R i j - u i * RtoC s * Cconj (v' j)) by (intros; apply resid_addtriple).
  assert (RA : forall x i, app m R' x i = app m R x i - RtoC s * u i * ip m v' x).
  { intros x i. unfold app. rewrite (csum_ext m _ (fun j => R i j * x j - RtoC s * u i * (Cconj (v' j) * x j))) by (intros; rewrite RE; ring).
    rewrite csum_sub, <- csum_scal. reflexivity. }
  assert (VV : ip m v' v' = RtoC 1) by (rewrite ip_self, V1'; reflexivity).
  (* R' kills v', agrees with R on the complement *)
  assert (K1 : forall i, (i < n)%nat -> app m R' v' i = RtoC 0) by (intros i Hi; rewrite RA, RV', VV by auto; ring).
  assert (SB : (s <= top)%R) by auto.
  unfold stage. cbv zeta. fold r'. fold R'.
  split; [|split; [|split; [|split; [|split; [|split; [|split; [|split]]]]]]].
  - apply ortho_addcol; auto.
  - apply ortho_rows_herm. apply ortho_cols_ext with (addcol (herm (svd_Vh r)) k v'); [|apply ortho_addcol; auto].
    intros j a _ Ha. destruct (Nat.eq_dec a k) as [-> | ].
    + rewrite addcol_new. unfold r'. rewrite herm_addtriple. reflexivity.
    + rewrite addcol_old by lia. unfold r'. rewrite herm_addtriple_old by lia. reflexivity.
  - intros a Ha. unfold r', addtriple. cbn [svd_S]. destruct (Nat.eqb a k) eqn:E; auto. apply Nat.eqb_neq in E. apply S0. lia.
  - intros a b Hab Hb. unfold r', addtriple. cbn [svd_S]. destruct (Nat.eqb_spec b k) as [Eb|Eb]; destruct (Nat.eqb_spec a k) as [Ea|Ea].
    + lra.
    + specialize (ST a ltac:(lia)). lra.
    + lia.
    + apply SD; lia.
  - intros a Ha. unfold r', addtriple. cbn [svd_S]. destruct (Nat.eqb a k) eqn:E; [lra|]. apply Nat.eqb_neq in E. specialize (ST a ltac:(lia)). lra.
  - auto.
  - intros a i Ha Hi. destruct (Nat.eq_dec a k) as [-> | Na].
    + rewrite <- (K1 i Hi). apply csum_ext. intros j _. f_equal. unfold r'. rewrite herm_addtriple. reflexivity.
    + transitivity (app m R' (fun j => herm (svd_Vh r) j a) i).
      * apply csum_ext. intros j _. f_equal. unfold r'. rewrite herm_addtriple_old by lia. reflexivity.
      * rewrite RA, RV by (auto; lia). rewrite <- ip_conj, VO by lia. rewrite Cconj_RtoC. ring.
  - intros a j Ha Hj.
    assert (RJ : forall x, ip n x (fun i => R' i j) = ip n x (fun i => R i j) - RtoC s * Cconj (v' j) * ip n x u).
    { intros x. rewrite (ip_ext n x x (fun i => R' i j) (fun i => R i j - (RtoC s * Cconj (v' j)) * u i)) by (auto; intros; rewrite RE; ring).
      rewrite ip_sub_r, ip_scal_r. reflexivity. }
    destruct (Nat.eq_dec a k) as [-> | Na].
    + rewrite (ip_ext n _ u _ (fun i => R' i j)) by (auto; intros; apply addcol_new).
      rewrite RJ, ip_self, U1. (* <u, R e_j> with e_j = conj(v_j) v + w *)
      set (w := fun q => unit_e j q - Cconj (v' j) * v' q).
      assert (WO : ip m v' w = RtoC 0).
      { unfold w. rewrite ip_sub_r, ip_scal_r, VV, ip_unit by auto. ring. }
      pose proof (RO w WO) as Q. rewrite (ip_ext n u u (app m R w) (fun i => R i j - (Cconj (v' j) * RtoC s) * u i)) in Q; auto.
      * rewrite ip_sub_r, ip_scal_r, ip_self, U1 in Q.
        replace (ip n u (fun i => R i j)) with (ip n u (fun i => R i j) - Cconj (v' j) * RtoC s * RtoC 1 + Cconj (v' j) * RtoC s * RtoC 1) by ring.
        rewrite Q. ring.
      * intros i Hi. unfold w. rewrite app_sub, app_scal, RV' by auto. unfold app, unit_e. rewrite (csum_delta_r m j (fun q => R i q)) by auto. ring.
    + rewrite (ip_ext n _ (fun i => svd_U r i a) _ (fun i => R' i j)) by (auto; intros; apply addcol_old; lia).
      rewrite RJ, UR, UO by (auto; lia). ring.
  - intros x. set (c := ip m v' x). set (w := fun j => x j - c * v' j).
    assert (WO : ip m v' w = RtoC 0) by (unfold w; rewrite ip_sub_r, ip_scal_r, VV; fold c; ring).
    assert (E : nm n (app m R' x) = nm n (app m R w)).
    { apply nm_ext. intros i Hi. unfold w. rewrite app_sub, app_scal, RA, RV' by auto. fold c. ring. }
    rewrite E. eapply Rle_trans; [apply M|]. apply Rmult_le_compat_l; auto.
    apply sqrt_le_1_alt. unfold w. rewrite nsq_sub, nsq_scal, ip_scal_r, V1'. rewrite <- (ip_conj m v' x). fold c. rewrite mult_conj.
    unfold Re, RtoC. cbn [fst]. pose proof (nrm2_nonneg c). lra.
Qed.
Lemma stage_exists n m A k : (k <= n)%nat -> (k <= m)%nat -> exists r top, stage n m k A r top.
Proof.
  induction k; intros Hn Hm.
  - exists {| svd_U := fun _ _ => RtoC 0; svd_S := fun _ => 0%R; svd_Vh := fun _ _ => RtoC 0 |}.
    exists (frob n m (resid_mat 0 A {| svd_U := fun _ _ => RtoC 0; svd_S := fun _ => 0%R; svd_Vh := fun _ _ => RtoC 0 |})).
    unfold stage. split; [|split; [|split; [|split; [|split; [|split; [|split; [|split]]]]]]]; try (intros; lia).
    + intros a b Ha; lia.
    + intros a b Ha; lia.
    + apply sqrt_pos.
    + apply app_bound.
  - destruct IHk as [r [top H]]; try lia. apply (stage_step n m k A r top); auto; lia.
Qed.
Theorem svd_exists n m A : exists r, is_svd n m A r.
Proof.
  destruct (stage_exists n m A (Nat.min n m)) as [r [top [HU [HV [S0 [SD [_ [_ [RV [UR _]]]]]]]]]]; try lia.
  exists r. unfold is_svd. split; [|split; [|split; [|split]]]; auto. intros i j Hi Hj.
  set (k := Nat.min n m) in *.
  assert (Z : resid_mat k A r i j = RtoC 0).
  { destruct (le_lt_dec n m) as [L|L].
    - assert (KN : k = n) by (unfold k; lia). rewrite KN in HU at 1.
      pose proof (complete_span n (svd_U r) (fun i => resid_mat k A r i j) HU i Hi) as Q. cbv beta in Q. rewrite Q.
      apply csum_zero'. intros a Ha. rewrite UR by (auto; lia). ring.
    - assert (KM : k = m) by (unfold k; lia). apply ortho_rows_herm in HV. rewrite KM in HV at 1.
      (* row i of the residual is orthogonal to a complete system *)
      pose proof (complete_span m (herm (svd_Vh r)) (fun q => Cconj (resid_mat k A r i q)) HV j Hj) as Q. cbv beta in Q.
      rewrite csum_zero' in Q.
      + rewrite <- (Cconj_invol (resid_mat k A r i j)), Q. apply Cconj_RtoC.
      + intros a Ha. rewrite <- ip_conj. replace (ip m (fun q => Cconj (resid_mat k A r i q)) (fun q => herm (svd_Vh r) q a)) with (app m (resid_mat k A r) (fun q => herm (svd_Vh r) q a) i).
        * rewrite RV by (auto; lia). rewrite Cconj_RtoC. ring.
        * apply csum_ext. intros q _. rewrite Cconj_invol. reflexivity. }
  unfold resid_mat in Z. set (t := csum k _) in *.
  replace (A i j) with (A i j - t + t) by ring. rewrite Z. ring.
Qed.
