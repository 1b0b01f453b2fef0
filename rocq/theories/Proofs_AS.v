(** Lemmas about the angular spectrum propagators. *)
From Verif Require Import Base FinSum Fourier Model_Prop Spec_Prop Proofs_Prop.
From Coquelicot Require Import Complex.

Lemma fftfreq_freq n k : fftfreq n k = freq n k.
Proof.
  unfold fftfreq, freq. destruct (Nat.ltb_spec k ((n + 1) / 2)) as [L|L]; destruct (Z.ltb_spec (2 * Z.of_nat k) (Z.of_nat n)) as [L'|L'].
  - now rewrite <- INR_IZR_INZ.
  - exfalso. pose proof (Nat.div_mod (n + 1) 2 ltac:(lia)). pose proof (Nat.mod_upper_bound (n + 1) 2 ltac:(lia)). lia.
  - exfalso. pose proof (Nat.div_mod (n + 1) 2 ltac:(lia)). pose proof (Nat.mod_upper_bound (n + 1) 2 ltac:(lia)). lia.
  - now rewrite minus_IZR, <- !INR_IZR_INZ.
Qed.
(** freq n k is the representative of k/n modulo 1 in [-1/2, 1/2). *)
Lemma freq_range n k : k < n -> (- / 2 <= freq n k < / 2)%R /\ exists z, (freq n k + IZR z = INR k / INR n)%R.
Proof.
  intros H. assert (Hn : (0 < INR n)%R) by (apply lt_0_INR; lia). unfold freq. set (z := if Z.ltb _ _ then _ else _).
  assert (B : (- Z.of_nat n <= 2 * z < Z.of_nat n)%Z) by (unfold z; destruct (Z.ltb_spec (2 * Z.of_nat k) (Z.of_nat n)); lia).
  assert (B1 : (- INR n <= 2 * IZR z < INR n)%R).
  { rewrite !INR_IZR_INZ, <- opp_IZR, <- mult_IZR. split; [apply IZR_le|apply IZR_lt]; lia. }
  split.
  - split; [apply Rmult_le_reg_r with (INR n)|apply Rmult_lt_reg_r with (INR n)]; auto;
      unfold Rdiv; rewrite Rmult_assoc, Rinv_l; lra.
  - exists (if Z.ltb (2 * Z.of_nat k) (Z.of_nat n) then 0 else 1)%Z. unfold z.
    destruct (Z.ltb _ _); [|rewrite minus_IZR]; rewrite <- ?INR_IZR_INZ; field; lra.
Qed.
Lemma maxfreq_top n : 0 < n -> top_freq n (maxfreq n).
Proof.
  intros H. assert (Hn : (0 < INR n)%R) by (apply lt_0_INR; lia).
  pose proof (Nat.div_mod (n - 1) 2 ltac:(lia)). pose proof (Nat.mod_upper_bound (n - 1) 2 ltac:(lia)). split.
  - intros k Hk. unfold freq, maxfreq, Rdiv. apply Rmult_le_compat_r; [left; now apply Rinv_0_lt_compat|].
    rewrite INR_IZR_INZ. apply IZR_le. destruct (Z.ltb_spec (2 * Z.of_nat k) (Z.of_nat n)); lia.
  - exists ((n - 1) / 2). split; [lia|]. unfold freq, maxfreq.
    destruct (Z.ltb_spec (2 * Z.of_nat ((n - 1) / 2)) (Z.of_nat n)); [|lia]. now rewrite <- INR_IZR_INZ.
Qed.
Lemma top_unique n a b : top_freq n a -> top_freq n b -> a = b.
Proof. intros [Ha [i [Hi <-]]] [Hb [j [Hj <-]]]. apply Rle_antisym; auto. Qed.
Lemma Koop_closed wl K : (0 < wl)%R -> gen_Koop wl K = (wave_phase wl (vdot K K), wave_decay wl (vdot K K)).
Proof.
  intros Hw. unfold gen_Koop, wave_phase, wave_decay. set (k2 := vdot K K).
  assert (H0 : (0 <= k2)%R) by (unfold k2, vdot; nra).
  assert (Hk : (0 < 2 * PI / wl)%R) by (apply Rdiv_lt_0_compat; [pose proof PI_RGT_0; lra|exact Hw]).
  set (k0 := (2 * PI / wl)%R) in *. unfold csqrt.
  destruct (Rlt_dec (k0 ^ 2 - k2) 0) as [L|L]; destruct (Rle_dec k2 (k0 ^ 2)) as [L'|L']; try lra.
  - replace (- (k0 ^ 2 - k2))%R with (k2 - k0 ^ 2)%R by ring. set (s := sqrt (k2 - k0 ^ 2)).
    assert (S : (s * s = k2 - k0 ^ 2)%R) by (apply sqrt_sqrt; lra).
    apply C_ext; unfold Cdiv, Cinv, Cmult, Cplus, RtoC; cbn [fst snd];
      (assert (D : ((0 + k0) ^ 2 + (s + 0) ^ 2 = k2)%R) by nra); rewrite D;
      (assert (NZ : k2 <> 0%R) by nra); field_simplify_eq; auto; nra.
  - set (s := sqrt (k0 ^ 2 - k2)). assert (S : (s * s = k0 ^ 2 - k2)%R) by (apply sqrt_sqrt; lra).
    assert (S0 : (0 <= s)%R) by apply sqrt_pos.
    apply C_ext; unfold Cdiv, Cinv, Cmult, Cplus, RtoC; cbn [fst snd].
    + assert (NZ : ((s + k0) ^ 2 + (0 + 0) ^ 2 <> 0)%R) by nra. field_simplify_eq; [|nra]. nra.
    + assert (NZ : ((s + k0) ^ 2 + (0 + 0) ^ 2 <> 0)%R) by nra. field_simplify_eq; [|nra]. nra.
Qed.
Lemma cexp_i a b : cexp (Cmult Ci (a, b)) = Cmult (RtoC (exp (- b))) (cis a).
Proof.
  unfold cexp. assert (E1 : fst (Cmult Ci (a, b)) = (- b)%R) by (cbn; ring).
  assert (E2 : snd (Cmult Ci (a, b)) = a) by (cbn; ring). now rewrite E1, E2.
Qed.
Lemma nrm2_cexp r a : nrm2 (Cmult (RtoC (exp r)) (cis a)) = exp (2 * r).
Proof. rewrite nrm2_mult, nrm2_cis, nrm2_RtoC, Rmult_1_r, <- exp_plus. f_equal. ring. Qed.
Lemma sgn_abs z : (z * (sgn (0 * 0 + 0 * 0 + -1 * z) * -1) = Rabs z)%R.
Proof.
  unfold sgn. destruct (Rlt_dec (0 * 0 + 0 * 0 + -1 * z) 0); [|destruct (Rlt_dec 0 (0 * 0 + 0 * 0 + -1 * z))].
  - rewrite Rabs_pos_eq; lra.
  - rewrite Rabs_left; lra.
  - assert (z = 0%R) by lra. subst. rewrite Rabs_R0. ring.
Qed.
Section AS.
Context (N M : nat) (s0 s1 wl z : R) (H0 : (0 < s0)%R) (H1 : (0 < s1)%R) (Hw : (0 < wl)%R).
Notation b0 := (0, - s0, 0)%R. Notation b1 := (- s1, 0, 0)%R. Notation d := (0, 0, z)%R.
Lemma as_pinv0 : pinv0 b0 b1 = (0, - / s0, 0)%R.
Proof. unfold pinv0, vscale, vsub, vdot, vx, vy, vz. cbn [fst snd]. f_equal; [f_equal|]; field; lra. Qed.
Lemma as_pinv1 : pinv1 b0 b1 = (- / s1, 0, 0)%R.
Proof. unfold pinv1, vscale, vsub, vdot, vx, vy, vz. cbn [fst snd]. f_equal; [f_equal|]; field; lra. Qed.
Lemma as_perp0 : perp0 b0 b1 = (0, 0, -1)%R.
Proof.
  unfold perp0. assert (L0 : vlen b0 = s0).
  { unfold vlen, vdot, vx, vy, vz. cbn [fst snd]. replace (0 * 0 + - s0 * - s0 + 0 * 0)%R with (s0 * s0)%R by ring. apply sqrt_square. lra. }
  assert (L1 : vlen b1 = s1).
  { unfold vlen, vdot, vx, vy, vz. cbn [fst snd]. replace (- s1 * - s1 + 0 * 0 + 0 * 0)%R with (s1 * s1)%R by ring. apply sqrt_square. lra. }
  rewrite L0, L1.
  assert (E : vcross (vscale (/ s0) b0) (vscale (/ s1) b1) = (0, 0, -1)%R).
  { unfold vcross, vscale, vx, vy, vz. cbn [fst snd]. f_equal; [f_equal|]; field; lra. }
  rewrite E. assert (L : vlen (0, 0, -1)%R = 1%R).
  { unfold vlen, vdot, vx, vy, vz. cbn [fst snd]. replace (0 * 0 + 0 * 0 + -1 * -1)%R with 1%R by ring. apply sqrt_1. }
  rewrite L. unfold vscale, vx, vy, vz. cbn [fst snd]. rewrite Rinv_1. f_equal; [f_equal|]; ring.
Qed.
Lemma as_phase i j : gen_phase N M b0 b1 wl d None i j =
  (Rabs z * wave_phase wl (kpar2 N M s0 s1 i j), Rabs z * wave_decay wl (kpar2 N M s0 s1 i j))%R.
Proof.
  unfold gen_phase, gen_Kip, gen_perp. rewrite Koop_closed by exact Hw. rewrite as_pinv0, as_pinv1, as_perp0.
  set (K := vadd _ _).
  assert (EK : vdot K K = kpar2 N M s0 s1 i j).
  { unfold K, vadd, vscale, vdot, vx, vy, vz, kpar2. cbn [fst snd]. rewrite !fftfreq_freq. field. lra. }
  rewrite EK.
  assert (ED : vdot d (vscale (sgn (vdot (0, 0, -1)%R d)) (0, 0, -1)%R) = Rabs z).
  { unfold vdot, vscale, vx, vy, vz. cbn [fst snd]. rewrite <- (sgn_abs z). ring. }
  rewrite ED.
  assert (EZ : vdot d (vsub K (gen_K0 b0 b1 wl d None)) = 0%R).
  { unfold K, gen_K0, vsub, vadd, vscale, vdot, vx, vy, vz. cbn [fst snd]. ring. }
  rewrite EZ. apply C_ext; cbn; ring.
Qed.
Lemma as_closed i j : as_propagator N M s0 s1 wl z None i j =
  Cmult (RtoC (exp (- (wave_decay wl (kpar2 N M s0 s1 i j) * Rabs z)))) (cis (z * wave_phase wl (kpar2 N M s0 s1 i j))).
Proof.
  unfold as_propagator, gen_propagator. rewrite as_phase, cexp_i.
  destruct (Rlt_dec z 0) as [L|L].
  - rewrite Cconj_mult, Cconj_RtoC, cis_conj, (Rabs_left z L). f_equal; [do 2 f_equal|f_equal]; ring.
  - rewrite Rabs_pos_eq by lra. f_equal. do 2 f_equal. ring.
Qed.
End AS.
Lemma as_band N M s0 s1 wl z b i j : as_propagator N M s0 s1 wl z (Some b) i j =
  Cmult (as_propagator N M s0 s1 wl z None i j) (if band N M b i j then RtoC 1 else RtoC 0).
Proof. reflexivity. Qed.
Lemma decay_nonneg wl k2 : (0 <= wave_decay wl k2)%R.
Proof. unfold wave_decay. destruct Rle_dec; [lra|apply sqrt_pos]. Qed.

(** ---- the generalized propagator ---- *)
Lemma gen_norm N M b0 b1 wl d pv i j : nrm2 (gen_propagator N M b0 b1 wl d pv i j) = exp (-2 * snd (gen_phase N M b0 b1 wl d pv i j)).
Proof.
  unfold gen_propagator. destruct (gen_phase N M b0 b1 wl d pv i j) as [a b]. rewrite cexp_i, nrm2_cexp. cbn [snd]. f_equal. ring.
Qed.
Lemma vdot_comm u v : vdot u v = vdot v u.
Proof. unfold vdot. ring. Qed.
Lemma sgn_mul x : (0 <= sgn x * x)%R.
Proof. unfold sgn. destruct (Rlt_dec x 0); [|destruct (Rlt_dec 0 x)]; nra. Qed.
Lemma vdot_vscale a u v : vdot u (vscale a v) = (a * vdot u v)%R.
Proof. unfold vdot, vscale, vx, vy, vz. cbn. ring. Qed.
Lemma gen_phase_im N M b0 b1 wl d pv i j : (0 < wl)%R ->
  let k2 := vdot (gen_Kip N M b0 b1 wl d pv i j) (gen_Kip N M b0 b1 wl d pv i j) in
  let im := (vdot d (gen_perp b0 b1 d pv) * wave_decay wl k2)%R in
  snd (gen_phase N M b0 b1 wl d pv i j) =
    match pv with Some v => if Rlt_dec (vdot v d) 0 then (- im)%R else im | None => im end.
Proof.
  intros Hw k2 im. unfold gen_phase. rewrite Koop_closed by exact Hw. fold k2.
  assert (E : snd (Cplus (RtoC (vdot d (vsub (gen_Kip N M b0 b1 wl d pv i j) (gen_K0 b0 b1 wl d pv))))
              (Cmult (RtoC (vdot d (gen_perp b0 b1 d pv))) (wave_phase wl k2, wave_decay wl k2))) = im).
  { cbn. unfold im. ring. }
  destruct pv as [v|]; [|exact E]. destruct (Rlt_dec (vdot v d) 0); [|exact E].
  unfold Cconj. cbn [snd]. f_equal. exact E.
Qed.
Lemma exp_le_1 x : (x <= 0)%R -> (exp x <= 1)%R.
Proof. intros H. rewrite <- exp_0. destruct (Req_dec x 0) as [->|]; [lra|]. left. apply exp_increasing. lra. Qed.

(** ---- plane geometry ---- *)
Ltac vec := unfold vcross, vadd, vsub, vscale, vdot, vx, vy, vz; cbn [fst snd].
Lemma v_ext (u v : V3) : vx u = vx v -> vy u = vy v -> vz u = vz v -> u = v.
Proof. destruct u as [[a b] c], v as [[a' b'] c']. unfold vx, vy, vz. cbn. now intros -> -> ->. Qed.
Lemma vdot_pos v : v <> (0, 0, 0)%R -> (0 < vdot v v)%R.
Proof.
  intros H. destruct v as [[a b] c]. unfold vdot, vx, vy, vz; cbn [fst snd].
  destruct (Req_dec a 0) as [->|]; [destruct (Req_dec b 0) as [->|]; [destruct (Req_dec c 0) as [->|]|]|]; [now destruct H| | |]; nra.
Qed.
Lemma vlen_sq v : (vlen v * vlen v = vdot v v)%R.
Proof. apply sqrt_sqrt. vec. nra. Qed.
Lemma vlen_pos v : v <> (0, 0, 0)%R -> (0 < vlen v)%R.
Proof. intros H. apply sqrt_lt_R0, vdot_pos, H. Qed.
Lemma vlen_scale a v : vlen (vscale a v) = (Rabs a * vlen v)%R.
Proof.
  unfold vlen. replace (vdot (vscale a v) (vscale a v)) with (a ^ 2 * vdot v v)%R by (vec; ring).
  rewrite sqrt_mult_alt by nra. f_equal. rewrite <- (sqrt_Rsqr_abs a). f_equal. unfold Rsqr. ring.
Qed.
Lemma vcross_nonzero b0 b1 : vcross b0 b1 <> (0, 0, 0)%R -> b0 <> (0, 0, 0)%R /\ b1 <> (0, 0, 0)%R.
Proof. intros H. split; intros ->; apply H; vec; f_equal; [f_equal| |f_equal|]; ring. Qed.
Lemma gram b0 b1 : (vdot b0 b0 * vdot b1 b1 - vdot b0 b1 * vdot b0 b1 = vdot (vcross b0 b1) (vcross b0 b1))%R.
Proof. vec. ring. Qed.
Lemma perp0_is b0 b1 : vcross b0 b1 <> (0, 0, 0)%R -> perp0 b0 b1 = vscale (/ vlen (vcross b0 b1)) (vcross b0 b1).
Proof.
  intros H. destruct (vcross_nonzero _ _ H) as [H0 H1]. pose proof (vlen_pos _ H0) as P0. pose proof (vlen_pos _ H1) as P1. pose proof (vlen_pos _ H) as P.
  unfold perp0.
  assert (E : vcross (vscale (/ vlen b0) b0) (vscale (/ vlen b1) b1) = vscale (/ (vlen b0 * vlen b1)) (vcross b0 b1)).
  { rewrite Rinv_mult. apply v_ext; vec; ring. }
  assert (Q : (0 < / (vlen b0 * vlen b1))%R) by (apply Rinv_0_lt_compat; nra).
  rewrite E, vlen_scale, Rabs_pos_eq by lra.
  set (a := (/ (vlen b0 * vlen b1))%R) in *. set (l := vlen (vcross b0 b1)) in *.
  apply v_ext; vec; field; split; lra.
Qed.
Lemma pinv_dual b0 b1 : vcross b0 b1 <> (0, 0, 0)%R ->
  vdot (pinv0 b0 b1) b0 = 1%R /\ vdot (pinv0 b0 b1) b1 = 0%R /\ vdot (pinv1 b0 b1) b0 = 0%R /\ vdot (pinv1 b0 b1) b1 = 1%R /\
  vdot (pinv0 b0 b1) (vcross b0 b1) = 0%R /\ vdot (pinv1 b0 b1) (vcross b0 b1) = 0%R.
Proof.
  intros H. pose proof (vdot_pos _ H) as P. rewrite <- gram in P. unfold pinv0, pinv1.
  set (D := (vdot b0 b0 * vdot b1 b1 - vdot b0 b1 * vdot b0 b1)%R) in *.
  assert (HD : D <> 0%R) by lra.
  repeat split; (apply (Rmult_eq_reg_l D); [|exact HD]); unfold D in *; clear P H; clear D.
  all: revert HD; destruct b0 as [[a b] c], b1 as [[a' b'] c']; vec; intros HD; field_simplify_eq; try exact HD; ring.
Qed.
(** three scalar products determine a vector *)
Lemma v_determined b0 b1 u v : vcross b0 b1 <> (0, 0, 0)%R ->
  vdot u b0 = vdot v b0 -> vdot u b1 = vdot v b1 -> vdot u (vcross b0 b1) = vdot v (vcross b0 b1) -> u = v.
Proof.
  intros H A B C. set (x := vsub u v).
  assert (X0 : vdot x b0 = 0%R) by (transitivity (vdot u b0 - vdot v b0)%R; [unfold x; vec; ring|lra]).
  assert (X1 : vdot x b1 = 0%R) by (transitivity (vdot u b1 - vdot v b1)%R; [unfold x; vec; ring|lra]).
  assert (X2 : vdot x (vcross b0 b1) = 0%R) by (transitivity (vdot u (vcross b0 b1) - vdot v (vcross b0 b1))%R; [unfold x; vec; ring|lra]).
  assert (E : (vdot x x * vdot (vcross b0 b1) (vcross b0 b1) = 
     vdot x (vcross b0 b1) ^ 2 + (vdot x b1 ^ 2 * vdot b0 b0 - 2 * vdot x b1 * vdot x b0 * vdot b0 b1 + vdot x b0 ^ 2 * vdot b1 b1))%R) by (clear; vec; ring).
  rewrite X0, X1, X2 in E. pose proof (vdot_pos _ H) as P.
  assert (Z : (vdot x x = 0)%R) by nra.
  assert (x = (0, 0, 0)%R).
  { destruct x as [[a b] c]. unfold vdot, vx, vy, vz in Z. cbn [fst snd] in Z.
    assert (a = 0%R) by nra. assert (b = 0%R) by nra. assert (c = 0%R) by nra. now subst. }
  assert (X : vx x = 0%R /\ vy x = 0%R /\ vz x = 0%R) by now rewrite H0.
  unfold x, vsub, vx, vy, vz in X. cbn [fst snd] in X. apply v_ext; unfold vx, vy, vz; lra.
Qed.
Lemma vdot_add_l u v w : vdot (vadd u v) w = (vdot u w + vdot v w)%R. Proof. vec. ring. Qed.
Lemma vdot_sub_l u v w : vdot (vsub u v) w = (vdot u w - vdot v w)%R. Proof. vec. ring. Qed.
Lemma vdot_scale_l a u w : vdot (vscale a u) w = (a * vdot u w)%R. Proof. vec. ring. Qed.
Lemma sgn_cases x : (sgn x = 1 /\ 0 < x)%R \/ (sgn x = -1 /\ x < 0)%R \/ (sgn x = 0 /\ x = 0)%R.
Proof. unfold sgn. destruct (Rlt_dec x 0); [|destruct (Rlt_dec 0 x)]; [right; left|left|right; right]; split; lra. Qed.
Lemma sgn_mul_abs x : (sgn x * x = Rabs x)%R.
Proof. unfold Rabs. destruct (sgn_cases x) as [[-> ?]|[[-> ?]|[-> ?]]]; destruct (Rcase_abs x); lra. Qed.
Lemma sgn_scale a x : (0 < a)%R -> sgn (a * x) = sgn x.
Proof. intros A. destruct (sgn_cases x) as [[-> ?]|[[-> ?]|[-> ?]]]; unfold sgn; destruct (Rlt_dec (a * x) 0); try destruct (Rlt_dec 0 (a * x)); nra. Qed.
(** the in-plane frequency of the mask *)
Definition Kf (N M : nat) (b0 b1 : V3) (i j : nat) : V3 :=
  vadd (vscale (2 * PI * fftfreq N i) (pinv0 b0 b1)) (vscale (2 * PI * fftfreq M j) (pinv1 b0 b1)).
Lemma Kf_dots N M b0 b1 i j : vcross b0 b1 <> (0, 0, 0)%R ->
  vdot (Kf N M b0 b1 i j) b0 = (2 * PI * freq N i)%R /\ vdot (Kf N M b0 b1 i j) b1 = (2 * PI * freq M j)%R /\
  vdot (Kf N M b0 b1 i j) (vcross b0 b1) = 0%R.
Proof.
  intros H. destruct (pinv_dual b0 b1 H) as (A & B & C & D & P & Q). unfold Kf.
  rewrite !vdot_add_l, !vdot_scale_l, A, B, C, D, P, Q, !fftfreq_freq. repeat split; ring.
Qed.

Section Gen.
Context (N M : nat) (b0 b1 : V3) (wl : R) (d : V3) (i j : nat).
Context (Hw : (0 < wl)%R) (Hn : vcross b0 b1 <> (0, 0, 0)%R).
Notation n := (vcross b0 b1). Notation k0 := (2 * PI / wl)%R.
Lemma n_b0 : vdot n b0 = 0%R. Proof. vec. ring. Qed.
Lemma n_b1 : vdot n b1 = 0%R. Proof. vec. ring. Qed.
Lemma gen_none q : vdot q b0 = (2 * PI * freq N i)%R -> vdot q b1 = (2 * PI * freq M j)%R -> vdot q n = 0%R ->
  let h := (Rabs (vdot d n) / vlen n)%R in
  gen_propagator N M b0 b1 wl d None i j =
    Cmult (RtoC (exp (- (h * wave_decay wl (vdot q q))))) (cis (vdot d q + h * wave_phase wl (vdot q q))).
Proof.
  intros Q0 Q1 Q2 h. destruct (Kf_dots N M b0 b1 i j Hn) as (K0 & K1 & K2).
  assert (EQ : gen_Kip N M b0 b1 wl d None i j = q).
  { unfold gen_Kip. fold (Kf N M b0 b1 i j). apply (v_determined b0 b1 _ _ Hn); congruence. }
  unfold gen_propagator, gen_phase. rewrite EQ, Koop_closed by exact Hw. cbn [gen_K0].
  assert (EP : vdot d (gen_perp b0 b1 d None) = h).
  { unfold gen_perp. rewrite perp0_is by exact Hn. pose proof (vlen_pos _ Hn) as L.
    rewrite vdot_vscale, vdot_scale_l, (vdot_comm n d), vdot_vscale, sgn_mul_abs, Rabs_mult, Rabs_pos_eq.
    - unfold h. field. lra.
    - left. now apply Rinv_0_lt_compat. }
  rewrite EP.
  assert (ED : vdot d (vsub q (0, 0, 0)%R) = vdot d q) by (vec; ring). rewrite ED.
  rewrite <- cexp_i. f_equal. f_equal. apply C_ext; cbn; ring.
Qed.
Context (v : V3) (Hv : vdot v n <> 0%R).
Notation u := (vscale (/ vlen v) v). Notation p := (gen_perp b0 b1 d (Some v)).
Notation s := (sgn (vdot v n)).
Lemma v_len : (0 < vlen v)%R.
Proof. apply vlen_pos. intros V. apply Hv. rewrite V. vec. ring. Qed.
Lemma s_sq : (s * s = 1)%R.
Proof. destruct (sgn_cases (vdot v n)) as [[-> ?]|[[-> ?]|[_ ?]]]; try lra; contradiction. Qed.
Lemma gen_p : p = vscale (s * / vlen n) n.
Proof.
  unfold gen_perp. rewrite perp0_is by exact Hn. rewrite vdot_scale_l, (vdot_comm n v), sgn_scale.
  - apply v_ext; vec; ring.
  - apply Rinv_0_lt_compat, vlen_pos, Hn.
Qed.
Lemma p_unit : vdot p p = 1%R.
Proof.
  rewrite gen_p, vdot_scale_l, vdot_vscale, <- vlen_sq. pose proof s_sq as S. pose proof (vlen_pos _ Hn).
  replace (s * / vlen n * (s * / vlen n * (vlen n * vlen n)))%R with ((s * s) * (vlen n * / vlen n) ^ 2)%R by ring.
  rewrite S, Rinv_r by lra. ring.
Qed.
Lemma Kip_some q : vdot q b0 = (2 * PI * freq N i + k0 * vdot u b0)%R -> vdot q b1 = (2 * PI * freq M j + k0 * vdot u b1)%R -> vdot q n = 0%R ->
  gen_Kip N M b0 b1 wl d (Some v) i j = q.
Proof.
  intros Q0 Q1 Q2. destruct (Kf_dots N M b0 b1 i j Hn) as (K0 & K1 & K2).
  unfold gen_Kip. fold (Kf N M b0 b1 i j). unfold gen_K0.
  apply (v_determined b0 b1 _ _ Hn); rewrite vdot_add_l, vdot_sub_l, !vdot_scale_l, vdot_sub_l.
  - rewrite K0, Q0. rewrite gen_p, !vdot_scale_l, n_b0. ring.
  - rewrite K1, Q1. rewrite gen_p, !vdot_scale_l, n_b1. ring.
  - rewrite K2, Q2. rewrite gen_p. rewrite !vdot_scale_l. rewrite !vdot_vscale, (vdot_comm n (vsub _ _)), vdot_sub_l, !vdot_scale_l, <- vlen_sq.
    pose proof s_sq as S. pose proof (vlen_pos _ Hn) as L. set (a := vdot v n) in *. set (l := vlen n) in *.
    pose proof v_len as LV. field_simplify_eq; [|repeat split; lra].
    replace (sgn a ^ 3)%R with (sgn a)%R by (transitivity (sgn a * (sgn a * sgn a))%R; [rewrite S|]; ring).
    replace (sgn a ^ 2)%R with 1%R by (rewrite <- S; ring). ring.
Qed.
Lemma gen_some q : vdot q b0 = (2 * PI * freq N i + k0 * vdot u b0)%R -> vdot q b1 = (2 * PI * freq M j + k0 * vdot u b1)%R -> vdot q n = 0%R ->
  let h := (s * vdot d n / vlen n)%R in
  gen_propagator N M b0 b1 wl d (Some v) i j =
    Cmult (RtoC (exp (- ((if Rlt_dec (vdot v d) 0 then -1 else 1) * (h * wave_decay wl (vdot q q))))))
          (cis (vdot d q - k0 * vdot d u + h * (wave_phase wl (vdot q q) + k0))).
Proof.
  intros Q0 Q1 Q2 h. unfold gen_propagator, gen_phase. rewrite (Kip_some q Q0 Q1 Q2), Koop_closed by exact Hw.
  assert (EP : vdot d p = h). { rewrite gen_p, vdot_vscale. unfold h. field. apply Rgt_not_eq, vlen_pos, Hn. }
  assert (ED : vdot d (vsub q (gen_K0 b0 b1 wl d (Some v))) = (vdot d q - k0 * vdot d u + k0 * h)%R).
  { rewrite <- EP. unfold gen_K0. generalize p u. intros a b. vec. ring. }
  rewrite ED, EP. set (w := wave_phase wl (vdot q q)). set (w' := wave_decay wl (vdot q q)).
  set (D := (vdot d q - k0 * vdot d u)%R).
  destruct (Rlt_dec (vdot v d) 0) as [L|L].
  - replace (Cconj (Cplus (RtoC (D + k0 * h)) (Cmult (RtoC h) (w, w')))) with (D + h * (w + k0), - (h * w'))%R by (apply C_ext; cbn; ring).
    rewrite cexp_i. f_equal. do 2 f_equal. ring.
  - replace (Cplus (RtoC (D + k0 * h)) (Cmult (RtoC h) (w, w'))) with (D + h * (w + k0), (h * w'))%R by (apply C_ext; cbn; ring).
    rewrite cexp_i. f_equal. do 2 f_equal. ring.
Qed.
(** the plane wave with wave vector K *)
Lemma gen_plane_wave K : vdot K b0 = (2 * PI * freq N i + k0 * vdot u b0)%R -> vdot K b1 = (2 * PI * freq M j + k0 * vdot u b1)%R ->
  vdot K K = (k0 ^ 2)%R -> (0 <= vdot K n * vdot v n)%R ->
  gen_propagator N M b0 b1 wl d (Some v) i j = cis (vdot d K - k0 * vdot d u).
Proof.
  intros Q0 Q1 Q2 Q3. pose proof p_unit as P1. pose proof gen_p as GP. pose proof s_sq as S. pose proof (vlen_pos _ Hn) as L.
  set (e := vscale (s * / vlen n) n) in *. rewrite GP in P1.
  set (q := vsub K (vscale (vdot K e) e)).
  assert (E0 : vdot e b0 = 0%R) by (unfold e; rewrite vdot_scale_l, n_b0; ring).
  assert (E1 : vdot e b1 = 0%R) by (unfold e; rewrite vdot_scale_l, n_b1; ring).
  assert (EN : vdot e n = (s * vlen n)%R) by (unfold e; rewrite vdot_scale_l, <- vlen_sq; field; lra).
  assert (KE : vdot K e = (s * / vlen n * vdot K n)%R) by (unfold e; now rewrite vdot_vscale).
  rewrite (gen_some q).
  - assert (QQ : vdot q q = (k0 ^ 2 - vdot K e ^ 2)%R).
    { unfold q. transitivity (vdot K K - 2 * vdot K e * vdot K e + vdot K e ^ 2 * vdot e e)%R; [generalize e; intros; vec; ring|]. rewrite P1, Q2. ring. }
    assert (KP : (0 <= vdot K e)%R).
    { rewrite KE. assert (0 < / vlen n)%R by now apply Rinv_0_lt_compat.
      destruct (sgn_cases (vdot v n)) as [[-> X]|[[-> X]|[_ X]]]; [| |contradiction].
      - assert (0 <= vdot K n)%R by nra. nra.
      - assert (vdot K n <= 0)%R by nra. nra. }
    unfold wave_phase, wave_decay. rewrite QQ. destruct (Rle_dec _ _) as [_|C]; [|exfalso; apply C; nra].
    rewrite !Rmult_0_r, Ropp_0, exp_0. replace (k0 ^ 2 - (k0 ^ 2 - vdot K e ^ 2))%R with (vdot K e * vdot K e)%R by ring.
    rewrite sqrt_square by exact KP. rewrite Cmult_1_l. f_equal.
    assert (DE : (s * vdot d n / vlen n = vdot d e)%R) by (unfold e; rewrite vdot_vscale; field; lra).
    rewrite DE. unfold q. transitivity (vdot d K - vdot K e * vdot d e - k0 * vdot d u + vdot d e * vdot K e)%R; [|ring].
    rewrite (vdot_comm d (vsub _ _)), vdot_sub_l, vdot_scale_l, !(vdot_comm _ d). ring.
  - unfold q. rewrite vdot_sub_l, vdot_scale_l, E0, Q0. ring.
  - unfold q. rewrite vdot_sub_l, vdot_scale_l, E1, Q1. ring.
  - unfold q. rewrite vdot_sub_l, vdot_scale_l, EN, KE. transitivity (vdot K n - vdot K n * (s * s) * (/ vlen n * vlen n))%R; [ring|].
    rewrite S, Rinv_l by lra. ring.
Qed.
End Gen.
