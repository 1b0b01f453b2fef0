(** The discrete Fourier transform over the complex numbers, for every size.
    Nothing here models a particular cdtools function. *)
From Verif Require Import Base FinSum.
From Coquelicot Require Import Complex.
Notation "0" := (RtoC 0) : C_scope.
Notation "1" := (RtoC 1) : C_scope.
Local Open Scope C_scope.

(** e^{i x} and e^{2 pi i k / n}. *)
Definition cis (x : R) : C := (cos x, sin x).
Definition w (n : nat) (k : Z) : C := cis (2 * PI * IZR k / INR n).
(** |z|^2 as a real number. *)
Definition nrm2 (z : C) : R := (fst z ^ 2 + snd z ^ 2)%R.

Lemma C_ext (a b : C) : fst a = fst b -> snd a = snd b -> a = b.
Proof. destruct a, b; cbn; intros; subst; reflexivity. Qed.
Lemma cis_0 : cis 0 = 1.
Proof. unfold cis. rewrite cos_0, sin_0. reflexivity. Qed.
Lemma cis_add x y : cis (x + y) = cis x * cis y.
Proof. unfold cis. rewrite cos_plus, sin_plus. apply C_ext; cbn; ring. Qed.
Lemma cis_conj x : Cconj (cis x) = cis (- x).
Proof. unfold cis, Cconj. cbn. now rewrite cos_neg, sin_neg. Qed.
Lemma nrm2_cis x : nrm2 (cis x) = 1%R.
Proof. unfold nrm2, cis. cbn. pose proof (sin2_cos2 x) as H. unfold Rsqr in H. lra. Qed.
Lemma cis_2PI_Z k : cis (2 * PI * IZR k) = 1.
Proof.
  assert (P : forall n, cis (2 * PI * INR n) = 1).
  { intros n. unfold cis. replace (2 * PI * INR n)%R with (0 + 2 * INR n * PI)%R by ring.
    rewrite cos_period, sin_period, cos_0, sin_0. reflexivity. }
  destruct (Z_le_gt_dec 0 k) as [H|H].
  - rewrite <- (Z2Nat.id k H), <- INR_IZR_INZ. apply P.
  - assert (E : (2 * PI * IZR k = - (2 * PI * INR (Z.to_nat (- k))))%R).
    { rewrite INR_IZR_INZ, Z2Nat.id, opp_IZR by lia. ring. }
    rewrite E, <- cis_conj, P. apply C_ext; cbn; ring.
Qed.
Lemma nrm2_mult a b : nrm2 (a * b) = (nrm2 a * nrm2 b)%R.
Proof. unfold nrm2. destruct a, b. cbn. ring. Qed.
Lemma nrm2_conj a : nrm2 (Cconj a) = nrm2 a.
Proof. unfold nrm2. destruct a. cbn. ring. Qed.
Lemma nrm2_RtoC r : nrm2 (RtoC r) = (r * r)%R.
Proof. unfold nrm2. cbn. ring. Qed.
Lemma nrm2_nonneg a : (0 <= nrm2 a)%R.
Proof. unfold nrm2. nra. Qed.
Lemma nrm2_0 a : nrm2 a = 0%R -> a = 0.
Proof. unfold nrm2. intros H. apply C_ext; cbn; nra. Qed.
Lemma mult_conj a : a * Cconj a = RtoC (nrm2 a).
Proof. destruct a. apply C_ext; unfold nrm2; cbn; ring. Qed.
Lemma Cmod_nrm2 a : Cmod a = sqrt (nrm2 a).
Proof. reflexivity. Qed.
Lemma nrm2_Cmod a : nrm2 a = (Cmod a ^ 2)%R.
Proof. rewrite Cmod_nrm2. rewrite pow2_sqrt by apply nrm2_nonneg. reflexivity. Qed.
Lemma Cconj_mult a b : Cconj (a * b) = Cconj a * Cconj b.
Proof. destruct a, b. apply C_ext; cbn; ring. Qed.
Lemma Cconj_plus a b : Cconj (a + b) = Cconj a + Cconj b.
Proof. destruct a, b. apply C_ext; cbn; ring. Qed.
Lemma Cconj_invol a : Cconj (Cconj a) = a.
Proof. destruct a. apply C_ext; cbn; ring. Qed.
Lemma Cconj_RtoC r : Cconj (RtoC r) = RtoC r.
Proof. apply C_ext; cbn; ring. Qed.

Fixpoint Cpow (z : C) (k : nat) : C := match k with O => RtoC 1 | S k' => z * Cpow z k' end.

(** roots of unity *)
Section Roots.
Context (n : nat) (Hn : 0 < n).
Lemma INRn : INR n <> 0%R.
Proof. apply not_0_INR. lia. Qed.
Lemma w_0 : w n 0 = 1.
Proof. unfold w. replace (2 * PI * 0 / INR n)%R with 0%R by (unfold Rdiv; ring). apply cis_0. Qed.
Lemma w_add a b : w n (a + b) = w n a * w n b.
Proof. unfold w. rewrite <- cis_add, plus_IZR. f_equal. field. apply INRn. Qed.
Lemma w_conj a : Cconj (w n a) = w n (- a).
Proof. unfold w. rewrite cis_conj, opp_IZR. f_equal. field. apply INRn. Qed.
Lemma w_neg a : w n a * w n (- a) = 1.
Proof. rewrite <- w_add, Z.add_opp_diag_r. apply w_0. Qed.
Lemma w_nrm2 a : nrm2 (w n a) = 1%R.
Proof. apply nrm2_cis. Qed.
Lemma w_mul_n a : w n (Z.of_nat n * a) = 1.
Proof.
  unfold w. rewrite mult_IZR, <- INR_IZR_INZ.
  replace (2 * PI * (INR n * IZR a) / INR n)%R with (2 * PI * IZR a)%R by (field; apply INRn). apply cis_2PI_Z.
Qed.
Lemma w_period a b : w n (a + Z.of_nat n * b) = w n a.
Proof. rewrite w_add, w_mul_n. ring. Qed.
Lemma w_mod a : w n (a mod Z.of_nat n) = w n a.
Proof.
  rewrite (Z.div_mod a (Z.of_nat n)) at 2 by lia. rewrite (Z.add_comm (_ * _)). now rewrite w_period.
Qed.
Lemma w_congr a b : (a mod Z.of_nat n = b mod Z.of_nat n)%Z -> w n a = w n b.
Proof. intros H. rewrite <- (w_mod a), H. apply w_mod. Qed.
Lemma w_ne_1 a : (a mod Z.of_nat n <> 0)%Z -> w n a <> 1.
Proof.
  intros H E. rewrite <- w_mod in E. set (r := (a mod Z.of_nat n)%Z) in *.
  assert (B : (0 < r < Z.of_nat n)%Z) by (pose proof (Z.mod_pos_bound a (Z.of_nat n)); lia).
  unfold w, cis in E. injection E as Ec Es.
  set (x := (2 * PI * IZR r / INR n)%R) in *.
  assert (0 < INR n)%R by (apply lt_0_INR; lia).
  assert (R0 : (0 < IZR r)%R) by (apply IZR_lt; lia).
  assert (R1 : (IZR r < INR n)%R) by (rewrite INR_IZR_INZ; apply IZR_lt; lia).
  pose proof PI_RGT_0.
  assert (X0 : (0 < x / 2)%R).
  { unfold x. apply Rmult_lt_0_compat; [|lra]. apply Rdiv_lt_0_compat; [|lra]. apply Rmult_lt_0_compat; lra. }
  assert (X1 : (x / 2 < PI)%R).
  { unfold x. replace (2 * PI * IZR r / INR n / 2)%R with (PI * (IZR r / INR n))%R by (field; lra).
    rewrite <- (Rmult_1_r PI) at 2. apply Rmult_lt_compat_l; [lra|].
    apply Rmult_lt_reg_r with (INR n); [lra|]. replace (IZR r / INR n * INR n)%R with (IZR r) by (field; lra). lra. }
  pose proof (sin_gt_0 _ X0 X1) as S.
  replace x with (2 * (x / 2))%R in Ec by field. rewrite cos_2a_sin in Ec. nra.
Qed.
Lemma geom (z : C) k : (1 - z) * csum k (fun j => Cpow z j) = 1 - Cpow z k.
Proof.
  induction k as [|k IH]; [unfold csum; cbn; ring|]. rewrite csum_S, Cmult_plus_distr_l, IH. cbn. ring.
Qed.
Lemma w_pow a k : Cpow (w n a) k = w n (Z.of_nat k * a).
Proof.
  induction k as [|k IH]; [cbn; now rewrite w_0|]. cbn [Cpow]. rewrite IH, <- w_add. f_equal. lia.
Qed.
Lemma orth a : csum n (fun k => w n (Z.of_nat k * a)) = if (a mod Z.of_nat n =? 0)%Z then RtoC (INR n) else 0.
Proof.
  destruct (Z.eqb_spec (a mod Z.of_nat n) 0) as [E|E].
  - assert (D : a = (Z.of_nat n * (a / Z.of_nat n))%Z) by (apply Z_div_exact_full_2; lia).
    rewrite (csum_ext _ _ (fun _ => 1)).
    + rewrite csum_const. ring.
    + intros k _. rewrite D. replace (Z.of_nat k * (Z.of_nat n * (a / Z.of_nat n)))%Z with (Z.of_nat n * (Z.of_nat k * (a / Z.of_nat n)))%Z by ring.
      apply w_mul_n.
  - pose proof (geom (w n a) n) as Gm. rewrite w_pow, w_mul_n in Gm.
    rewrite (csum_ext _ _ (fun j => Cpow (w n a) j)) by (intros; now rewrite w_pow).
    assert (NZ : 1 - w n a <> 0).
    { intros C. apply (w_ne_1 a E). replace (w n a) with (1 - (1 - w n a)) by ring. rewrite C. ring. }
    assert (Zr : (1 - w n a) * csum n (fun j => Cpow (w n a) j) = 0) by (rewrite Gm; ring).
    replace (csum n (fun j => Cpow (w n a) j)) with (/ (1 - w n a) * ((1 - w n a) * csum n (fun j => Cpow (w n a) j))) by (field; exact NZ).
    rewrite Zr. ring.
Qed.
(** selecting one sample out of a double sum *)
Lemma orth_select (f : nat -> C) m : m < n ->
  csum n (fun j => f j * csum n (fun k => w n (Z.of_nat k * (Z.of_nat m - Z.of_nat j)))) = RtoC (INR n) * f m.
Proof.
  intros Hm. rewrite (csum_single n m); [|exact Hm|].
  - rewrite orth, Z.sub_diag, Z.mod_0_l by lia. cbn [Z.eqb]. ring.
  - intros j Hj Hne. rewrite orth.
    assert (E : (((Z.of_nat m - Z.of_nat j) mod Z.of_nat n =? 0) = false)%Z).
    { apply Z.eqb_neq. intros C. apply Z.mod_divide in C; [|lia]. destruct C as [q Q].
      assert (q = 0)%Z by nia. subst. lia. }
    rewrite E. ring.
Qed.

(** ---- one-dimensional transforms ---- *)
Definition dft (x : nat -> C) (k : nat) : C := csum n (fun j => x j * w n (- (Z.of_nat k * Z.of_nat j))).
Definition idft (x : nat -> C) (k : nat) : C :=
  RtoC (/ INR n) * csum n (fun j => x j * w n (Z.of_nat k * Z.of_nat j)).
Lemma dft_ext x y k : (forall j, j < n -> x j = y j) -> dft x k = dft y k.
Proof. intros H. apply csum_ext. intros j Hj. now rewrite H. Qed.
Lemma idft_ext x y k : (forall j, j < n -> x j = y j) -> idft x k = idft y k.
Proof. intros H. unfold idft. f_equal. apply csum_ext. intros j Hj. now rewrite H. Qed.
Lemma RtoC_inv_n : RtoC (/ INR n) * RtoC (INR n) = 1.
Proof. rewrite <- RtoC_mult. rewrite Rinv_l by apply INRn. reflexivity. Qed.
Lemma idft_dft x m : m < n -> idft (dft x) m = x m.
Proof.
  intros Hm. unfold idft, dft.
  rewrite (csum_ext _ _ (fun k => csum n (fun j => x j * w n (Z.of_nat k * (Z.of_nat m - Z.of_nat j))))).
  2:{ intros k Hk. rewrite csum_scal_r. apply csum_ext. intros j Hj. rewrite <- Cmult_assoc, <- w_add.
      do 2 f_equal. ring. }
  rewrite csum_swap.
  rewrite (csum_ext _ _ (fun j => x j * csum n (fun k => w n (Z.of_nat k * (Z.of_nat m - Z.of_nat j))))).
  2:{ intros j Hj. now rewrite csum_scal. }
  rewrite (orth_select x m Hm), Cmult_assoc, RtoC_inv_n. ring.
Qed.
Lemma dft_idft x m : m < n -> dft (idft x) m = x m.
Proof.
  intros Hm. unfold idft, dft.
  rewrite (csum_ext _ _ (fun k => csum n (fun j => RtoC (/ INR n) * x j * w n (Z.of_nat k * (Z.of_nat j - Z.of_nat m))))).
  2:{ intros k Hk. rewrite csum_scal, csum_scal_r. apply csum_ext. intros j Hj.
      replace (Z.of_nat k * (Z.of_nat j - Z.of_nat m))%Z with (Z.of_nat k * Z.of_nat j + - (Z.of_nat m * Z.of_nat k))%Z by ring.
      rewrite w_add. ring. }
  rewrite csum_swap.
  rewrite (csum_ext _ _ (fun j => (RtoC (/ INR n) * x j) * csum n (fun k => w n (Z.of_nat k * (Z.of_nat j - Z.of_nat m))))).
  2:{ intros j Hj. now rewrite csum_scal. }
  rewrite (csum_single n m); [|exact Hm|].
  - rewrite orth, Z.sub_diag, Z.mod_0_l by lia. cbn [Z.eqb]. rewrite <- Cmult_assoc, (Cmult_comm (x m)), Cmult_assoc, RtoC_inv_n. ring.
  - intros j Hj Hne. rewrite orth.
    assert (E : (((Z.of_nat j - Z.of_nat m) mod Z.of_nat n =? 0) = false)%Z).
    { apply Z.eqb_neq. intros C. apply Z.mod_divide in C; [|lia]. destruct C as [q Q].
      assert (q = 0)%Z by nia. subst. lia. }
    rewrite E. ring.
Qed.
Lemma plancherel x y : csum n (fun k => dft x k * Cconj (dft y k)) = RtoC (INR n) * csum n (fun j => x j * Cconj (y j)).
Proof.
  unfold dft.
  rewrite (csum_ext _ _ (fun k => csum n (fun j => csum n (fun i => x j * Cconj (y i) * w n (Z.of_nat k * (Z.of_nat i - Z.of_nat j)))))).
  2:{ intros k Hk. rewrite csum_conj, csum_scal_r. apply csum_ext. intros j Hj. rewrite csum_scal. apply csum_ext. intros i Hi.
      rewrite Cconj_mult, w_conj, Z.opp_involutive.
      replace (Z.of_nat k * (Z.of_nat i - Z.of_nat j))%Z with (- (Z.of_nat k * Z.of_nat j) + Z.of_nat k * Z.of_nat i)%Z by ring.
      rewrite w_add. ring. }
  rewrite csum_swap, csum_scal. apply csum_ext. intros j Hj. rewrite csum_swap.
  rewrite (csum_single n j); [|exact Hj|].
  - rewrite <- csum_scal, orth, Z.sub_diag, Z.mod_0_l by lia. cbn [Z.eqb]. ring.
  - intros i Hi Hne. rewrite <- csum_scal, orth.
    assert (E : (((Z.of_nat i - Z.of_nat j) mod Z.of_nat n =? 0) = false)%Z).
    { apply Z.eqb_neq. intros C. apply Z.mod_divide in C; [|lia]. destruct C as [q Q].
      assert (q = 0)%Z by nia. subst. lia. }
    rewrite E. ring.
Qed.
Lemma parseval x : rsum n (fun k => nrm2 (dft x k)) = (INR n * rsum n (fun j => nrm2 (x j)))%R.
Proof.
  apply RtoC_inj. rewrite RtoC_mult, <- !csum_RtoC.
  rewrite (csum_ext _ _ (fun k => dft x k * Cconj (dft x k))) by (intros; now rewrite mult_conj).
  rewrite plancherel. f_equal. apply csum_ext. intros j Hj. apply mult_conj.
Qed.
Lemma dft_lin a b x y k : dft (fun j => a * x j + b * y j) k = a * dft x k + b * dft y k.
Proof. unfold dft. rewrite !csum_scal, <- csum_add. apply csum_ext. intros. ring. Qed.
Lemma idft_lin a b x y k : idft (fun j => a * x j + b * y j) k = a * idft x k + b * idft y k.
Proof.
  unfold idft. replace (a * (RtoC (/ INR n) * csum n (fun j => x j * w n (Z.of_nat k * Z.of_nat j))) + b * (RtoC (/ INR n) * csum n (fun j => y j * w n (Z.of_nat k * Z.of_nat j))))
    with (RtoC (/ INR n) * (a * csum n (fun j => x j * w n (Z.of_nat k * Z.of_nat j)) + b * csum n (fun j => y j * w n (Z.of_nat k * Z.of_nat j)))) by ring.
  f_equal. rewrite !csum_scal, <- csum_add. apply csum_ext. intros. ring.
Qed.
(** the transform is periodic *)
Lemma dft_mod x k : dft x (k mod n) = dft x k.
Proof.
  apply csum_ext. intros j Hj. f_equal. apply w_congr. rewrite Nat2Z.inj_mod, <- !Z.mul_opp_r.
  now rewrite Z.mul_mod_idemp_l by lia.
Qed.
Lemma idft_mod x k : idft x (k mod n) = idft x k.
Proof.
  unfold idft. f_equal. apply csum_ext. intros j Hj. f_equal. apply w_congr. rewrite Nat2Z.inj_mod.
  now rewrite Z.mul_mod_idemp_l by lia.
Qed.
End Roots.
