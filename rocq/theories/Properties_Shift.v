(** C72: find_subpixel_shift and find_shift. *)
From Verif Require Import Base FinSum Fourier Model_Prop Spec_Prop Proofs_Prop Model_Image Spec_Image Proofs_Image Properties_Image Model_Shift.
From Coquelicot Require Import Complex.
Local Open Scope C_scope.

(** ---- one axis ---- *)
Lemma zroll_circ n s i : zroll n s i = circ n (Z.of_nat i - s).
Proof. reflexivity. Qed.
(** The upsampled window of an image that is a lone pixel at p. *)
Definition line (ws rs : nat) (D : nat -> C) : nat -> C := fun k => let k := zroll (2 * ws * rs) (- Z.of_nat ws) k in if Nat.ltb k (2 * ws) then D (roll (2 * ws) ws k) else 0.
Lemma Cmod_cis x : Cmod (cis x) = 1%R.
Proof. rewrite Cmod_nrm2, nrm2_cis. apply sqrt_1. Qed.
Lemma Cmod_csum_le n f : (Cmod (csum n f) <= rsum n (fun k => Cmod (f k)))%R.
Proof.
  induction n as [|n IH]; [unfold csum, rsum; cbn; rewrite Cmod_0; lra|]. rewrite csum_S, rsum_S.
  pose proof (Cmod_triangle (csum n f) (f n)). lra.
Qed.
Lemma two_lt z : nrm2 z = 1%R -> z <> 1 -> (Cmod (1 + z)%C < 2)%R.
Proof.
  intros H NE. rewrite Cmod_nrm2. rewrite <- (sqrt_square 2) by lra. apply sqrt_lt_1; [apply nrm2_nonneg|lra|].
  destruct z as [a b]. unfold nrm2 in *. cbn in *. assert (a < 1)%R; [|nra].
  assert (a <= 1)%R by nra. destruct (Req_dec a 1) as [E|E]; [|lra]. exfalso. apply NE. subst a. apply C_ext; cbn; [reflexivity|nra].
Qed.
(** |1 + z + ... + z^(n-1)| < n for a unit z <> 1. *)
Lemma geom_lt n S a : (2 <= n)%nat -> (0 < S)%nat -> (a mod Z.of_nat S <> 0)%Z -> (Cmod (csum n (fun k => w S (Z.of_nat k * a))) < INR n)%R.
Proof.
  intros Hn HS HA. destruct n as [|[|n]]; try lia. rewrite csum_first, csum_first.
  change (Z.of_nat 0 * a)%Z with 0%Z. rewrite w_0 by lia. replace (Z.of_nat 1 * a)%Z with a by lia.
  pose proof (two_lt (w S a) (w_nrm2 S a) (w_ne_1 S HS a HA)) as T.
  pose proof (Cmod_csum_le n (fun k => w S (Z.of_nat (Datatypes.S (Datatypes.S k)) * a))) as L.
  rewrite (rsum_ext n _ (fun _ => 1%R)) in L by (intros; unfold w; apply Cmod_cis). rewrite rsum_const in L.
  replace (1 + (w S a + csum n (fun k => w S (Z.of_nat (Datatypes.S (Datatypes.S k)) * a)))) with ((1 + w S a) + csum n (fun k => w S (Z.of_nat (Datatypes.S (Datatypes.S k)) * a))) by ring.
  pose proof (Cmod_triangle (1 + w S a) (csum n (fun k => w S (Z.of_nat (Datatypes.S (Datatypes.S k)) * a)))). rewrite !S_INR. lra.
Qed.
Lemma w_scale n rs a : (0 < n)%nat -> (0 < rs)%nat -> w n a = w (n * rs) (Z.of_nat rs * a).
Proof.
  intros Hn HR. unfold w. f_equal. rewrite mult_IZR, mult_INR, <- INR_IZR_INZ. field. split; apply not_0_INR; lia.
Qed.
Lemma dft_lone n p k : (p < n)%nat -> dft n (fun i => if Nat.eqb i p then 1 else 0) k = w n (- (Z.of_nat k * Z.of_nat p)).
Proof.
  intros Hp. unfold dft. rewrite (csum_single n p); [rewrite Nat.eqb_refl; ring|exact Hp|].
  intros i _ NE. replace (Nat.eqb i p) with false by (symmetry; apply Nat.eqb_neq; auto). ring.
Qed.
Lemma line_value ws rs p i : (0 < ws)%nat -> (0 < rs)%nat -> (p < 2 * ws)%nat ->
  idft (2 * ws * rs) (line ws rs (dft (2 * ws) (fun i => if Nat.eqb i p then 1 else 0))) i =
  RtoC (/ INR (2 * ws * rs)) * (w (2 * ws * rs) (- (Z.of_nat ws * (Z.of_nat i - Z.of_nat (p * rs)))) * csum (2 * ws) (fun k => w (2 * ws * rs) (Z.of_nat k * (Z.of_nat i - Z.of_nat (p * rs))))).
Proof.
  intros Hw HR Hp. set (S := (2 * ws * rs)%nat). assert (HS : (0 < S)%nat) by (unfold S; nia). assert (HL : (2 * ws <= S)%nat) by (unfold S; nia).
  unfold idft. f_equal.
  set (g := fun k => (if Nat.ltb k (2 * ws) then dft (2 * ws) (fun i => if Nat.eqb i p then 1 else 0) (roll (2 * ws) ws k) else 0) * w S ((Z.of_nat k - Z.of_nat ws) * Z.of_nat i)).
  rewrite (csum_ext S _ (fun j => g (circ S (Z.of_nat j - - Z.of_nat ws)))).
  2:{ intros j Hj. unfold line, g. rewrite zroll_circ. fold S. f_equal. apply w_congr; [lia|]. rewrite circ_Z by lia.
      assert (X : (((Z.of_nat j - - Z.of_nat ws) mod Z.of_nat S - Z.of_nat ws) mod Z.of_nat S = Z.of_nat j mod Z.of_nat S)%Z) by (rewrite Zminus_mod_idemp_l; f_equal; lia).
      rewrite <- (Z.mul_mod_idemp_l ((Z.of_nat j - - Z.of_nat ws) mod Z.of_nat S - Z.of_nat ws)), X, Z.mul_mod_idemp_l by lia. f_equal. lia. }
  rewrite (csum_circ S (- Z.of_nat ws) g HS). rewrite (csum_extend (2 * ws) S g HL).
  - rewrite csum_scal. apply csum_ext. intros k Hk. unfold g. replace (Nat.ltb k (2 * ws)) with true by (symmetry; apply Nat.ltb_lt; exact Hk).
    rewrite dft_lone by exact Hp. unfold roll.
    assert (E : w (2 * ws) (- (Z.of_nat ((k + (2 * ws - ws mod (2 * ws))) mod (2 * ws)) * Z.of_nat p)) = w (2 * ws) ((Z.of_nat ws - Z.of_nat k) * Z.of_nat p)).
    { apply w_congr; [lia|]. rewrite Nat.mod_small with (a := ws) by lia. replace (2 * ws - ws)%nat with ws by lia.
      rewrite Nat2Z.inj_mod. rewrite <- Z.mul_opp_r. rewrite Z.mul_mod_idemp_l by lia.
      replace ((Z.of_nat ws - Z.of_nat k) * Z.of_nat p)%Z with (Z.of_nat (k + ws) * - Z.of_nat p + Z.of_nat p * Z.of_nat (2 * ws))%Z by lia.
      symmetry. apply Z.mod_add. lia. }
    rewrite E, (w_scale (2 * ws) rs) by lia. fold S. rewrite <- !w_add by lia. f_equal. lia.
  - intros k Hk. unfold g. replace (Nat.ltb k (2 * ws)) with false by (symmetry; apply Nat.ltb_ge; lia). ring.
Qed.
(** It peaks at p rs, and only there. *)
Lemma line_peak ws rs p i : (0 < ws)%nat -> (0 < rs)%nat -> (p < 2 * ws)%nat ->
  let f := fun i => Cmod (idft (2 * ws * rs) (line ws rs (dft (2 * ws) (fun i => if Nat.eqb i p then 1 else 0))) i) in
  (f i <= / INR rs)%R /\ (((Z.of_nat i - Z.of_nat (p * rs)) mod Z.of_nat (2 * ws * rs) = 0)%Z -> f i = (/ INR rs)%R) /\
  (((Z.of_nat i - Z.of_nat (p * rs)) mod Z.of_nat (2 * ws * rs) <> 0)%Z -> (f i < / INR rs)%R).
Proof.
  intros Hw HR Hp f. set (S := (2 * ws * rs)%nat) in *. assert (HS : (0 < S)%nat) by (unfold S; nia).
  assert (PS : (0 < INR S)%R) by (apply lt_0_INR; lia). assert (PR : (0 < INR rs)%R) by (apply lt_0_INR; lia). assert (PW : (0 < INR (2 * ws))%R) by (apply lt_0_INR; lia).
  assert (Q : (/ INR S * INR (2 * ws) = / INR rs)%R) by (unfold S; rewrite (mult_INR (2 * ws) rs); field; lra).
  assert (V : f i = (/ INR S * Cmod (csum (2 * ws) (fun k => w S (Z.of_nat k * (Z.of_nat i - Z.of_nat (p * rs))))))%R).
  { unfold f, S. rewrite line_value by assumption. fold S. rewrite !Cmod_mult, Cmod_R. unfold w at 1. rewrite Cmod_cis. rewrite Rabs_pos_eq; [ring|].
    left. now apply Rinv_0_lt_compat. }
  assert (A : ((Z.of_nat i - Z.of_nat (p * rs)) mod Z.of_nat S = 0)%Z -> f i = (/ INR rs)%R).
  { intros Z. rewrite V, (csum_ext _ _ (fun _ => 1)).
    - rewrite csum_const, Cmult_1_r, Cmod_R, Rabs_pos_eq by lra. exact Q.
    - intros k _. rewrite <- (w_0 S). apply w_congr; [lia|]. rewrite <- Z.mul_mod_idemp_r, Z by lia. now rewrite Z.mul_0_r. }
  assert (B : ((Z.of_nat i - Z.of_nat (p * rs)) mod Z.of_nat S <> 0)%Z -> (f i < / INR rs)%R).
  { intros Z. rewrite V, <- Q. apply Rmult_lt_compat_l; [now apply Rinv_0_lt_compat|]. apply geom_lt; auto; lia. }
  split; [|split; assumption]. destruct (Z.eq_dec ((Z.of_nat i - Z.of_nat (p * rs)) mod Z.of_nat S) 0) as [E|E]; [rewrite A by exact E; lra|left; now apply B].
Qed.

(** ---- two axes ---- *)
Lemma fft2_prod N M (f g : nat -> C) k l : fft2 N M (fun i j => f i * g j) k l = dft N f k * dft M g l.
Proof.
  unfold fft2. rewrite (dft_ext N _ (fun n => dft M g l * f n)).
  - rewrite (linop_scal N (dft N) _ f k (linop_dft N)). ring.
  - intros n Hn. rewrite (linop_scal M (dft M) (f n) g l (linop_dft M)). ring.
Qed.
Lemma argmax_ext n f g : (forall i, (i < n)%nat -> f i = g i) -> argmax n f = argmax n g.
Proof.
  induction n as [|[|n] IH]; intros H; [reflexivity|reflexivity|].
  change (argmax (S (S n)) f) with (if Rlt_dec (f (argmax (S n) f)) (f (S n)) then S n else argmax (S n) f).
  change (argmax (S (S n)) g) with (if Rlt_dec (g (argmax (S n) g)) (g (S n)) then S n else argmax (S n) g).
  rewrite IH by (intros; apply H; lia). destruct (argmax_spec (S n) g ltac:(lia)) as [B _]. rewrite !H by lia. reflexivity.
Qed.
(** The peak of a product of two single-peaked lines. *)
Lemma argmax_product S0 S1 (f g : nat -> R) a b : (a < S0)%nat -> (b < S1)%nat ->
  (forall i, (0 <= f i)%R) -> (forall j, (0 <= g j)%R) -> (0 < f a)%R -> (0 < g b)%R ->
  (forall i, (i < S0)%nat -> i <> a -> (f i < f a)%R) -> (forall j, (j < S1)%nat -> j <> b -> (g j < g b)%R) ->
  argmax (S0 * S1) (fun p => (f (p / S1)%nat * g (p mod S1)) ^ 2)%R = (a * S1 + b)%nat.
Proof.
  intros Ha Hb F0 G0 FA GB FL GL.
  assert (D : ((a * S1 + b) / S1)%nat = a) by (rewrite Nat.add_comm, Nat.div_add, Nat.div_small by lia; lia).
  assert (D' : ((a * S1 + b) mod S1)%nat = b) by (rewrite Nat.add_comm, Nat.mod_add, Nat.mod_small by lia; lia).
  apply argmax_unique; [nia|]. intros p Hp NE. rewrite D, D'.
  assert (Pi : (p / S1 < S0)%nat) by (apply Nat.div_lt_upper_bound; lia). assert (Pj : (p mod S1 < S1)%nat) by (apply Nat.mod_upper_bound; lia).
  set (i := (p / S1)%nat) in *. set (j := (p mod S1)%nat) in *.
  assert (L : (f i * g j < f a * g b)%R).
  { destruct (Nat.eq_dec i a) as [E0|E].
    - destruct (Nat.eq_dec j b) as [E|E]; [exfalso; apply NE; rewrite (Nat.div_mod p S1) by lia; fold i j; rewrite E, E0; lia|].
      rewrite E0. apply Rmult_lt_compat_l; auto.
    - specialize (FL i Pi E). assert (g j <= g b)%R by (destruct (Nat.eq_dec j b) as [E1|E2]; [rewrite E1; lra|left; now apply GL]).
      specialize (F0 i). specialize (G0 j). nra. }
  pose proof (Rmult_le_pos _ _ (F0 i) (G0 j)). nra.
Qed.
Lemma zroll_lt n s i : (0 < n)%nat -> (zroll n s i < n)%nat.
Proof. intros H. rewrite zroll_circ. now apply circ_bound. Qed.
(** The window of a correlation that is a lone pixel, d away from search_around. *)
Lemma lone_window ws N s d a i : (0 < ws)%nat -> (2 * ws <= N)%nat -> (- Z.of_nat ws <= d < Z.of_nat ws)%Z -> ((s + d) mod Z.of_nat N = (- a) mod Z.of_nat N)%Z -> (i < 2 * ws)%nat ->
  (if ((Z.of_nat (zroll N (- s + Z.of_nat ws) i) + a) mod Z.of_nat N =? 0)%Z then 1 else 0) = (if Nat.eqb i (Z.to_nat (Z.of_nat ws + d)) then RtoC 1 else RtoC 0).
Proof.
  intros Hw HN Hd Ha Hi. assert (E : ((Z.of_nat (zroll N (- s + Z.of_nat ws) i) + a) mod Z.of_nat N = (Z.of_nat i - Z.of_nat ws - d) mod Z.of_nat N)%Z).
  { rewrite zroll_circ, circ_Z by lia. rewrite Z.add_mod_idemp_l by lia.
    replace (Z.of_nat i - (- s + Z.of_nat ws) + a)%Z with (Z.of_nat i - Z.of_nat ws - d + ((s + d) - - a))%Z by ring.
    rewrite Z.add_mod by lia. rewrite (Zminus_mod (s + d) (- a)), Ha, Z.sub_diag, Z.mod_0_l, Z.add_0_r by lia. apply Z.mod_mod. lia. }
  rewrite E. destruct (Nat.eqb_spec i (Z.to_nat (Z.of_nat ws + d))) as [Q|Q].
  - replace (Z.of_nat i - Z.of_nat ws - d)%Z with 0%Z by lia. reflexivity.
  - replace ((Z.of_nat i - Z.of_nat ws - d) mod Z.of_nat N =? 0)%Z with false; [reflexivity|]. symmetry. apply Z.eqb_neq. intros Z.
    apply Z.mod_divide in Z; [|lia]. destruct Z as [q Z]. assert (q = 0)%Z by nia. apply Q. lia.
Qed.
Lemma wrap_exact n z : (0 < n)%nat -> (- Z.of_nat (n / 2) <= z)%Z -> (z + Z.of_nat (n / 2) < Z.of_nat n)%Z -> wrap n (circ n z) = z.
Proof.
  intros H L U. unfold wrap. rewrite Nat2Z.inj_mod, Nat2Z.inj_add, circ_Z by lia. rewrite Z.add_mod_idemp_l by lia. rewrite Z.mod_small by lia. lia.
Qed.
Lemma peak_line ws rs d : (0 < ws)%nat -> (0 < rs)%nat -> (- Z.of_nat ws <= d < Z.of_nat ws)%Z ->
  let S := (2 * ws * rs)%nat in let p := Z.to_nat (Z.of_nat ws + d) in
  let f := fun i => Cmod (idft S (line ws rs (dft (2 * ws) (fun i => if Nat.eqb i p then 1 else 0))) (zroll S (- Z.of_nat (ws * rs)) i)) in
  let c := circ S (d * Z.of_nat rs) in (c < S)%nat /\ (0 < f c)%R /\ forall i, (i < S)%nat -> i <> c -> (f i < f c)%R.
Proof.
  intros Hw HR Hd S p f c. assert (HS : (0 < S)%nat) by (unfold S; nia). assert (Hc : (c < S)%nat) by now apply circ_bound.
  assert (Hp : (p < 2 * ws)%nat) by (unfold p; lia).
  assert (E : forall i, ((Z.of_nat (zroll S (- Z.of_nat (ws * rs)) i) - Z.of_nat (p * rs)) mod Z.of_nat S = (Z.of_nat i - d * Z.of_nat rs) mod Z.of_nat S)%Z).
  { intros i. rewrite zroll_circ, circ_Z by lia. rewrite Zminus_mod_idemp_l. f_equal. unfold p. rewrite !Nat2Z.inj_mul, Z2Nat.id by lia. ring. }
  assert (FC : f c = (/ INR rs)%R).
  { apply (line_peak ws rs p (zroll S (- Z.of_nat (ws * rs)) c) Hw HR Hp). fold S. rewrite E. unfold c. rewrite circ_Z by lia. rewrite Zminus_mod_idemp_l, Z.sub_diag. apply Z.mod_0_l. lia. }
  split; [exact Hc|]. split.
  - rewrite FC. apply Rinv_0_lt_compat, lt_0_INR. lia.
  - intros i Hi NE. rewrite FC. apply (line_peak ws rs p (zroll S (- Z.of_nat (ws * rs)) i) Hw HR Hp). fold S. rewrite E. intros Z. apply NE. unfold c.
    replace (d * Z.of_nat rs)%Z with (- (- (d * Z.of_nat rs)))%Z by ring. apply zero_mod_circ; auto.
Qed.
Lemma subpixel_lone ws N M cor1 cor2 a b s d rs : (0 < ws)%nat -> (2 * ws <= N)%nat -> (2 * ws <= M)%nat -> (0 < rs)%nat ->
  (forall i j, correlation N M cor1 cor2 i j = (if ((Z.of_nat i + a) mod Z.of_nat N =? 0)%Z then 1 else 0) * (if ((Z.of_nat j + b) mod Z.of_nat M =? 0)%Z then 1 else 0)) ->
  (- Z.of_nat ws <= fst d < Z.of_nat ws)%Z -> (- Z.of_nat ws <= snd d < Z.of_nat ws)%Z ->
  ((fst s + fst d) mod Z.of_nat N = (- a) mod Z.of_nat N)%Z -> ((snd s + snd d) mod Z.of_nat M = (- b) mod Z.of_nat M)%Z ->
  subpixel ws N M cor1 cor2 s rs = Ok (IZR (fst s + fst d), IZR (snd s + snd d)).
Proof.
  intros Hw HN HM HR CR D0 D1 M0 M1. unfold subpixel. rewrite !Nat.min_r by assumption.
  assert (AS : assignable ws (2 * ws) rs = true) by (unfold assignable; rewrite Nat.min_l by nia; now rewrite Nat.eqb_refl).
  rewrite AS. cbn [andb]. set (S := (2 * ws * rs)%nat). assert (HS : (0 < S)%nat) by (unfold S; nia).
  set (p0 := Z.to_nat (Z.of_nat ws + fst d)). set (p1 := Z.to_nat (Z.of_nat ws + snd d)).
  set (x0 := fun i => if Nat.eqb i p0 then 1 else 0 : C). set (x1 := fun i => if Nat.eqb i p1 then 1 else 0 : C).
  set (f := fun i => Cmod (idft S (line ws rs (dft (2 * ws) x0)) (zroll S (- Z.of_nat (ws * rs)) i))).
  set (g := fun i => Cmod (idft S (line ws rs (dft (2 * ws) x1)) (zroll S (- Z.of_nat (ws * rs)) i))).
  match goal with |- context [argmax (S * S) ?h] => assert (EH : argmax (S * S) h = argmax (S * S) (fun p => (f (p / S)%nat * g (p mod S)%nat) ^ 2)%R) end.
  { apply argmax_ext. intros p _. unfold f, g. rewrite <- Cmod_mult, <- ifft2_prod. f_equal. f_equal. apply ifft2_ext. intros k l Hk Hl. unfold line. fold S.
    set (k' := zroll S (- Z.of_nat ws) k). set (l' := zroll S (- Z.of_nat ws) l).
    destruct (Nat.ltb k' (2 * ws)) eqn:K; cbn [andb]; [|ring]. destruct (Nat.ltb l' (2 * ws)) eqn:L'; [|ring].
    unfold source. replace (Nat.eqb (2 * ws) 1) with false by (symmetry; apply Nat.eqb_neq; lia).
    unfold fftshift2. replace ((2 * ws) / 2)%nat with ws by (rewrite Nat.mul_comm, Nat.div_mul; lia). rewrite <- fft2_prod.
    apply fft2_ext. intros i j Hi Hj. rewrite CR. unfold x0, x1.
    rewrite (lone_window ws N (fst s) (fst d) a i), (lone_window ws M (snd s) (snd d) b j) by assumption. reflexivity. }
  rewrite EH. clear EH.
  destruct (peak_line ws rs (fst d) Hw HR D0) as (C0 & P0 & U0). destruct (peak_line ws rs (snd d) Hw HR D1) as (C1 & P1 & U1).
  fold S p0 in C0, P0, U0. fold S p1 in C1, P1, U1. fold x0 in P0, U0. fold x1 in P1, U1. fold (f) in P0, U0.
  set (c0 := circ S (fst d * Z.of_nat rs)) in *. set (c1 := circ S (snd d * Z.of_nat rs)) in *.
  rewrite (argmax_product S S f g c0 c1 C0 C1 (fun i => Cmod_ge_0 _) (fun i => Cmod_ge_0 _) P0 P1 U0 U1).
  replace ((c0 * S + c1) / S)%nat with c0 by (rewrite Nat.add_comm, Nat.div_add, Nat.div_small by lia; lia).
  replace ((c0 * S + c1) mod S)%nat with c1 by (rewrite Nat.add_comm, Nat.mod_add, Nat.mod_small by lia; lia).
  assert (S2 : (S / 2 = ws * rs)%nat) by (unfold S; replace (2 * ws * rs)%nat with (ws * rs * 2)%nat by lia; apply Nat.div_mul; lia).
  assert (PR : (INR rs <> 0)%R) by (apply not_0_INR; lia).
  f_equal. f_equal; unfold c0, c1; rewrite wrap_exact; try lia; try (rewrite S2; unfold S; nia).
  - rewrite mult_IZR, plus_IZR, <- INR_IZR_INZ. field. exact PR.
  - rewrite mult_IZR, plus_IZR, <- INR_IZR_INZ. field. exact PR.
Qed.

(** ---- theorems ---- *)
(** C72: if im2 is im1 rolled by (a, b) (see C30 for the sign) and no Fourier coefficient vanishes,
    find_subpixel_shift returns the exact shift whenever it is at most 15 pixels before or 14 after
    search_around (modulo the image), for every resolution, ... *)
Theorem C72_subpixel : forall N M im a b s d rs, (30 <= N)%nat -> (30 <= M)%nat -> (1 <= rs)%nat ->
  (forall k l, (k < N)%nat -> (l < M)%nat -> fft2 N M im k l <> 0) ->
  (-15 <= fst d <= 14)%Z -> (-15 <= snd d <= 14)%Z ->
  ((fst s + fst d) mod Z.of_nat N = (- a) mod Z.of_nat N)%Z -> ((snd s + snd d) mod Z.of_nat M = (- b) mod Z.of_nat M)%Z ->
  find_subpixel_shift N M im (rolled N M im a b) s rs = Ok (IZR (fst s + fst d), IZR (snd s + snd d)).
Proof.
  intros N M im a b s d rs HN HM HR NZ D0 D1 M0 M1. unfold find_subpixel_shift.
  apply (subpixel_lone 15 N M im (rolled N M im a b) a b); try lia; try assumption. intros i j. apply correlation_rolled; auto; lia.
Qed.
Print Assumptions C72_subpixel.
(** ... so that find_shift does, for every roll: rolling im2 by the result gives im1 back. *)
Theorem C72_find_shift : forall N M im a b rs, (30 <= N)%nat -> (30 <= M)%nat -> (1 <= rs)%nat ->
  (forall k l, (k < N)%nat -> (l < M)%nat -> fft2 N M im k l <> 0) ->
  exists u v, find_shift N M im (rolled N M im a b) rs = Ok (IZR u, IZR v) /\
  (u mod Z.of_nat N = (- a) mod Z.of_nat N)%Z /\ (v mod Z.of_nat M = (- b) mod Z.of_nat M)%Z /\ same N M (rolled N M (rolled N M im a b) u v) im.
Proof.
  intros N M im a b rs HN HM HR NZ. destruct (C30_finds_shift N M im a b ltac:(lia) ltac:(lia) NZ) as (M0 & M1 & SA).
  set (s := find_pixel_shift N M im (rolled N M im a b)) in *. exists (fst s), (snd s). split; [|auto]. unfold find_shift. fold s.
  rewrite (C72_subpixel N M im a b s (0, 0)%Z rs) by (cbn [fst snd]; rewrite ?Z.add_0_r; auto; lia). cbn [fst snd]. now rewrite !Z.add_0_r.
Qed.
Print Assumptions C72_find_shift.
(** C72: whatever the images, the result is search_around plus a whole multiple of 1/resolution, at least -15
    and less than 15 pixels. *)
Theorem C72_grid : forall N M im1 im2 s rs r, (30 <= N)%nat -> (30 <= M)%nat -> (1 <= rs)%nat ->
  find_subpixel_shift N M im1 im2 s rs = Ok r ->
  exists p q, fst r = (IZR (fst s) + IZR p / INR rs)%R /\ snd r = (IZR (snd s) + IZR q / INR rs)%R /\
    (- (15 * Z.of_nat rs) <= p < 15 * Z.of_nat rs)%Z /\ (- (15 * Z.of_nat rs) <= q < 15 * Z.of_nat rs)%Z.
Proof.
  intros N M im1 im2 s rs r HN HM HR E. unfold find_subpixel_shift, subpixel in E. rewrite !Nat.min_r in E by lia. cbv zeta in E.
  destruct (_ && _)%bool; [|discriminate]. injection E as <-. cbn [fst snd]. eexists. eexists. split; [reflexivity|]. split; [reflexivity|].
  assert (S2 : ((2 * 15 * rs) / 2 = 15 * rs)%nat) by (replace (2 * 15 * rs)%nat with (15 * rs * 2)%nat by lia; apply Nat.div_mul; lia).
  split; match goal with |- context [wrap ?n ?c] => pose proof (wrap_range n c ltac:(lia)) as W; generalize dependent (wrap n c); intros w0 W; assert (EN : n = (2 * 15 * rs)%nat) by lia; rewrite EN, S2 in W end; lia.
Qed.
Print Assumptions C72_grid.
(** C72: a constant factor on either image (its brightness and global phase) does not matter. *)
Theorem C72_scale : forall N M im1 im2 c e s rs, c <> 0 -> e <> 0 ->
  (forall k l, (k < N)%nat -> (l < M)%nat -> fft2 N M im1 k l <> 0 /\ fft2 N M im2 k l <> 0) ->
  find_subpixel_shift N M (fun i j => c * im1 i j) (fun i j => e * im2 i j) s rs = find_subpixel_shift N M im1 im2 s rs.
Proof.
  intros N M im1 im2 c e s rs Hc He NZ. set (g := c * Cconj e / RtoC (Cmod (c * Cconj e))).
  assert (HD : c * Cconj e <> 0). { apply Cmult_neq_0; auto. intros Z. apply He. rewrite <- (Cconj_invol e), Z. apply Cconj_RtoC. }
  assert (NG : Cmod g = 1%R). { unfold g. rewrite Cmod_div by (intros Z; apply RtoC_inj in Z; now apply Cmod_eq_0 in Z). rewrite Cmod_R, Rabs_pos_eq by apply Cmod_ge_0. field. intros Z. now apply Cmod_eq_0 in Z. }
  assert (FS : forall x y, (forall k l, fft2 N M (fun i j => x * y i j) k l = x * fft2 N M y k l)).
  { intros x y k l. unfold fft2. rewrite (dft_ext N _ (fun n => x * dft M (y n) l)).
    - apply (linop_scal N (dft N) x _ k (linop_dft N)).
    - intros n _. apply (linop_scal M (dft M) x (y n) l (linop_dft M)). }
  assert (CG : forall i j, correlation N M (fun i j => c * im1 i j) (fun i j => e * im2 i j) i j = g * correlation N M im1 im2 i j).
  { intros i j. unfold correlation.
    assert (IS : forall y, ifft2 N M (fun k l => g * y k l) i j = g * ifft2 N M y i j).
    { intros y. unfold ifft2. rewrite (idft_ext N _ (fun n => g * idft M (y n) j)).
      - apply (linop_scal N (idft N) g _ i (linop_idft N)).
      - intros n _. apply (linop_scal M (idft M) g (y n) j (linop_idft M)). }
    rewrite <- IS. apply ifft2_ext. intros k l Hk Hl. rewrite !FS. destruct (NZ k l Hk Hl) as [N1 N2].
    set (z := fft2 N M im1 k l * Cconj (fft2 N M im2 k l)). replace (c * fft2 N M im1 k l * Cconj (e * fft2 N M im2 k l)) with (c * Cconj e * z) by (unfold z; rewrite Cconj_mult; ring).
    rewrite Cmod_mult, RtoC_mult. unfold g. field. split; intros Z; apply RtoC_inj in Z; apply Cmod_eq_0 in Z; [|contradiction].
    unfold z in Z. revert Z. apply Cmult_neq_0; auto. intros Z. apply N2. rewrite <- (Cconj_invol (fft2 N M im2 k l)), Z. apply Cconj_RtoC. }
  unfold find_subpixel_shift, subpixel. set (n0 := Nat.min N (2 * 15)). set (n1 := Nat.min M (2 * 15)). cbv zeta.
  destruct (_ && _)%bool; [|reflexivity].
  match goal with |- context [argmax ?k ?h] => match goal with |- _ = Ok (_ + IZR (wrap _ (argmax _ ?h' / _)) / _, _)%R => assert (EH : argmax k h = argmax k h') end end.
  { apply argmax_ext. intros p _. f_equal. 
    match goal with |- Cmod ?u = Cmod (ifft2 ?A ?B ?x ?i ?j) => assert (EU : u = g * ifft2 A B x i j) end.
    { assert (IS : forall A B y i j, ifft2 A B (fun k l => g * y k l) i j = g * ifft2 A B y i j).
      { intros A B y i j. unfold ifft2. rewrite (idft_ext A _ (fun n => g * idft B (y n) j)).
        - apply (linop_scal A (idft A) g _ i (linop_idft A)).
        - intros n _. apply (linop_scal B (idft B) g (y n) j (linop_idft B)). }
      rewrite <- IS. apply ifft2_ext. intros k l _ _. destruct (_ && _)%bool; [|ring]. unfold fftshift2.
      assert (FG : forall y k l, fft2 n0 n1 (fun i j => g * y i j) k l = g * fft2 n0 n1 y k l).
      { intros y k' l'. unfold fft2. rewrite (dft_ext n0 _ (fun n => g * dft n1 (y n) l')).
        - apply (linop_scal n0 (dft n0) g _ k' (linop_dft n0)).
        - intros n _. apply (linop_scal n1 (dft n1) g (y n) l' (linop_dft n1)). }
      rewrite <- FG. apply fft2_ext. intros i j _ _. apply CG. }
    rewrite EU, Cmod_mult, NG. ring. }
  rewrite EH. reflexivity.
Qed.
Print Assumptions C72_scale.
(** C72, for smaller images, is refuted: with a side of 2 to 29 pixels any resolution above 1 is a RuntimeError,
    whatever the images (the spectrum of the clipped window does not fit the 30 x 30 corner). *)
Theorem C72_small_refuted : forall N M im1 im2 s rs, (2 <= rs)%nat -> ((2 <= N < 30) \/ (2 <= M < 30))%nat ->
  find_subpixel_shift N M im1 im2 s rs = Raise RuntimeError /\ find_shift N M im1 im2 rs = Raise RuntimeError.
Proof.
  assert (A : forall N rs, (2 <= rs)%nat -> (2 <= N < 30)%nat -> assignable 15 (Nat.min N (2 * 15)) rs = false).
  { intros N rs HR HN. unfold assignable. rewrite (Nat.min_l N) by lia. apply orb_false_iff. split; apply Nat.eqb_neq; nia. }
  intros N M im1 im2 s rs HR H.
  assert (G : forall s, find_subpixel_shift N M im1 im2 s rs = Raise RuntimeError).
  { intros s'. unfold find_subpixel_shift, subpixel. destruct H as [H|H]; rewrite (A _ rs HR H); [|rewrite andb_false_r]; reflexivity. }
  split; [apply G|apply G].
Qed.
Print Assumptions C72_small_refuted.
(** An image that meets the hypotheses: a lone pixel in a 30 x 31 image, rolled by (20, -3): the shift found is (10, 3), since -20 is 10 modulo 30. *)
Example C72_case : (forall k l, (k < 30)%nat -> (l < 31)%nat -> fft2 30 31 (fun i j => (if Nat.eqb i 7 then 1 else 0) * (if Nat.eqb j 9 then 1 else 0)) k l <> 0) /\
  ((0 + 10) mod Z.of_nat 30 = (- (20)) mod Z.of_nat 30)%Z /\ ((0 + 3) mod Z.of_nat 31 = (- (-3)) mod Z.of_nat 31)%Z.
Proof.
  split; [|split; reflexivity]. intros k l Hk Hl. rewrite fft2_prod, !dft_lone by lia. intros Z. apply (f_equal nrm2) in Z. rewrite nrm2_mult, !w_nrm2, nrm2_RtoC in Z. lra.
Qed.
