From Verif Require Import Base FinSum Fourier Model_Prop Spec_Prop Proofs_Prop Proofs_FRC Proofs_Image Model_Meas Model_Finite Spec_Finite.
From Coquelicot Require Import Complex.
Local Open Scope C_scope.

Lemma csum_hom (F : img -> C) n (f : nat -> img) :
  (forall x y, F (fun i j => x i j + y i j) = F x + F y) -> F (fun _ _ => 0) = 0 -> (forall x y, (forall i j, x i j = y i j) -> F x = F y) ->
  F (fun i j => csum n (fun t => f t i j)) = csum n (fun t => F (f t)).
Proof.
  intros A Z E. induction n as [|n IH].
  - rewrite (E _ (fun _ _ => 0)) by reflexivity. rewrite Z. reflexivity.
  - rewrite (E _ (fun i j => csum n (fun t => f t i j) + f n i j)) by (intros i j; exact (csum_S n (fun t => f t i j))). rewrite A, IH, csum_S. reflexivity.
Qed.

Lemma w_double N a : (0 < N)%nat -> w (N + N) (2 * a) = w N a.
Proof. intros H. unfold w. f_equal. rewrite mult_IZR, plus_INR. apply lt_0_INR in H. field. lra. Qed.
Lemma w_cis n a : w n a = cis (2 * PI * IZR a / INR n).
Proof. reflexivity. Qed.

Lemma roll_half N i : (0 < N)%nat -> (i < N + N)%nat -> roll (N + N) N i = ((i + N) mod (N + N))%nat.
Proof. intros H Hi. unfold roll. rewrite (Nat.mod_small N) by lia. f_equal. lia. Qed.
Lemma roll_twice N i : (0 < N)%nat -> (i < N + N)%nat -> roll (N + N) ((N + N + 1) / 2) (roll (N + N) ((N + N + 1) / 2) i) = i.
Proof.
  intros H Hi. replace ((N + N + 1) / 2)%nat with N by (replace (N + N + 1)%nat with (1 + N * 2)%nat by lia; rewrite Nat.div_add by lia; reflexivity).
  rewrite (roll_half N i) by assumption. rewrite roll_half by (try assumption; apply Nat.mod_upper_bound; lia).
  rewrite Nat.add_mod_idemp_l by lia. replace (i + N + N)%nat with (i + 1 * (N + N))%nat by lia. rewrite Nat.mod_add by lia. apply Nat.mod_small. exact Hi.
Qed.

(** ---- one axis ---- *)
Definition line (N : nat) (f : nat -> C) (k : nat) : C :=
  dft (N + N) (fun i => RtoC (sinc (axis (N + N) i)) * idft (N + N) f (roll (N + N) ((N + N) / 2) i)) (2 * k).
Definition shrunk (N : nat) (d : Z) : R := sinc ((2 * IZR d + 1) / (2 * INR N - 1)).

Lemma line_wave N d k : (0 < N)%nat -> (- Z.of_nat N < d < Z.of_nat N)%Z ->
  line N (fun j => w (N + N) (- (Z.of_nat j * d))) k = RtoC (shrunk N d) * w N (- (Z.of_nat k * d)).
Proof.
  intros H Hd. unfold line. set (P := (N + N)%nat). assert (HP : (0 < P)%nat) by (unfold P; lia).
  assert (HZ : Z.of_nat P = (2 * Z.of_nat N)%Z) by (unfold P; lia).
  assert (E : forall a, idft P (fun j => w P (- (Z.of_nat j * d))) a = if ((Z.of_nat a - d) mod Z.of_nat P =? 0)%Z then 1 else 0).
  { intros a. unfold idft. rewrite (csum_ext P _ (fun j => w P (Z.of_nat j * (Z.of_nat a - d)))).
    - rewrite (orth P HP). destruct (Z.eqb _ _); [|ring]. apply RtoC_inv_n. exact HP.
    - intros j _. rewrite <- (w_add P HP). f_equal. lia. }
  set (i0 := Z.to_nat (d + Z.of_nat N)). assert (Hi0 : (i0 < P)%nat) by (unfold i0, P; lia).
  assert (D : ((P / 2) = N)%nat) by (unfold P; replace (N + N)%nat with (N * 2)%nat by lia; apply Nat.div_mul; lia).
  unfold dft. rewrite (csum_single P i0).
  - rewrite E, D. unfold P. rewrite roll_half by (unfold P in Hi0; assumption). fold P.
    assert (M : ((Z.of_nat ((i0 + N) mod P) - d) mod Z.of_nat P = 0)%Z).
    { rewrite Nat2Z.inj_mod. rewrite Zminus_mod_idemp_l. replace (Z.of_nat (i0 + N) - d)%Z with (1 * Z.of_nat P)%Z by (unfold i0; lia). apply Z_mod_mult. }
    rewrite M. cbn [Z.eqb]. rewrite Cmult_1_r.
    assert (AX : axis P i0 = ((2 * IZR d + 1) / (2 * INR N - 1))%R).
    { unfold axis. unfold i0 at 1. rewrite (INR_IZR_INZ (Z.to_nat (d + Z.of_nat N))), Z2Nat.id by lia. rewrite plus_IZR, <- INR_IZR_INZ. rewrite minus_INR by lia. unfold P. rewrite plus_INR. cbn [INR].
      assert (1 <= INR N)%R by (apply (le_INR 1); lia). field. lra. }
    rewrite AX. fold (shrunk N d). f_equal.
    assert (Z0 : (- (Z.of_nat (2 * k) * Z.of_nat i0) = 2 * (- (Z.of_nat k * d)) + Z.of_nat P * (- Z.of_nat k))%Z) by (unfold i0; rewrite Z2Nat.id by lia; rewrite HZ; lia).
    rewrite Z0, (w_period P HP). unfold P. apply w_double. exact H.
  - exact Hi0.
  - intros i Hi Ne. rewrite E, D. unfold P. rewrite roll_half by (unfold P in Hi; assumption). fold P.
    assert (M : ((Z.of_nat ((i + N) mod P) - d) mod Z.of_nat P <> 0)%Z).
    { rewrite Nat2Z.inj_mod. rewrite Zminus_mod_idemp_l. intros Q. apply Ne. apply Z.mod_divide in Q; [|lia]. destruct Q as [q Q]. rewrite Nat2Z.inj_add, HZ in Q.
      assert (q = 1)%Z by nia. subst q. unfold i0. lia. }
    apply Z.eqb_neq in M. rewrite M. ring.
Qed.

Lemma line_ext N f g k : (0 < N)%nat -> (forall j, (j < N + N)%nat -> f j = g j) -> line N f k = line N g k.
Proof. intros H E. unfold line. apply dft_ext. intros i Hi. f_equal. apply idft_ext. exact E. Qed.

(** ---- the whole of the blur, on a sum of waves ---- *)
Lemma blur_lines N I k l : (0 < N)%nat -> every_other (blurred_intensity (N + N) (N + N) I) k l =
  dft (N + N) (fun i => dft (N + N) (fun j => RtoC (sinc (axis (N + N) i) * sinc (axis (N + N) j)) * ifft2 (N + N) (N + N) I (roll (N + N) ((N + N) / 2) i) (roll (N + N) ((N + N) / 2) j)) (2 * l)) (2 * k).
Proof.
  intros H. unfold every_other, blurred_intensity. cbv zeta. set (P := (N + N)%nat). unfold fft2, fftshift2, ifftshift_rows_twice.
  apply dft_ext. intros i Hi. apply dft_ext. intros j Hj. unfold P. rewrite roll_twice by assumption. reflexivity.
Qed.
Lemma blur_product N a f g k l : (0 < N)%nat -> every_other (blurred_intensity (N + N) (N + N) (fun i j => a * (f i * g j))) k l = a * (line N f k * line N g l).
Proof.
  intros H. rewrite blur_lines by exact H. set (P := (N + N)%nat). unfold line. fold P.
  assert (E : forall x y, ifft2 P P (fun i j => a * (f i * g j)) x y = a * (idft P f x * idft P g y)).
  { intros x y. rewrite (ifft2_ext P P _ (fun i j => (a * f i) * g j)) by (intros i j _ _; ring). rewrite Proofs_Image.ifft2_prod.
    replace (idft P (fun i => a * f i) x) with (a * idft P f x); [ring|].
    pose proof (idft_lin P a 0 f f x) as Q. transitivity (a * idft P f x + 0 * idft P f x); [ring|]. rewrite <- Q. apply idft_ext. intros. ring. }
  rewrite (dft_ext P _ (fun i => (a * (RtoC (sinc (axis P i)) * idft P f (roll P (P / 2) i)) * dft P (fun j => RtoC (sinc (axis P j)) * idft P g (roll P (P / 2) j)) (2 * l)))).
  - unfold dft at 1. rewrite (csum_ext P _ (fun j => a * dft P (fun j => RtoC (sinc (axis P j)) * idft P g (roll P (P / 2) j)) (2 * l) * (RtoC (sinc (axis P j)) * idft P f (roll P (P / 2) j) * w P (- (Z.of_nat (2 * k) * Z.of_nat j))))) by (intros; ring).
    rewrite <- csum_scal. change (csum P (fun j => RtoC (sinc (axis P j)) * idft P f (roll P (P / 2) j) * w P (- (Z.of_nat (2 * k) * Z.of_nat j)))) with (dft P (fun j => RtoC (sinc (axis P j)) * idft P f (roll P (P / 2) j)) (2 * k)). ring.
  - intros i _. unfold dft. rewrite (csum_ext P _ (fun j => a * (RtoC (sinc (axis P i)) * idft P f (roll P (P / 2) i)) * (RtoC (sinc (axis P j)) * idft P g (roll P (P / 2) j) * w P (- (Z.of_nat (2 * l) * Z.of_nat j))))).
    + rewrite <- csum_scal. reflexivity.
    + intros j _. rewrite E, RtoC_mult. ring.
Qed.
Lemma blur_ext N x y k l : (0 < N)%nat -> (forall i j, (i < N + N)%nat -> (j < N + N)%nat -> x i j = y i j) ->
  every_other (blurred_intensity (N + N) (N + N) x) k l = every_other (blurred_intensity (N + N) (N + N) y) k l.
Proof. intros H E. rewrite !blur_lines by exact H. apply dft_ext. intros i Hi. apply dft_ext. intros j Hj. f_equal. apply ifft2_ext. intros a b Ha Hb. apply E; assumption. Qed.
Lemma blur_add N x y k l : (0 < N)%nat -> every_other (blurred_intensity (N + N) (N + N) (fun i j => x i j + y i j)) k l =
  every_other (blurred_intensity (N + N) (N + N) x) k l + every_other (blurred_intensity (N + N) (N + N) y) k l.
Proof.
  intros H. rewrite !blur_lines by exact H. set (P := (N + N)%nat).
  assert (L : forall f g q, dft P (fun j => f j + g j) q = dft P f q + dft P g q).
  { intros f g q. pose proof (dft_lin P 1 1 f g q) as Q. rewrite !Cmult_1_l in Q. rewrite <- Q. apply dft_ext. intros. ring. }
  assert (L' : forall f g q, idft P (fun j => f j + g j) q = idft P f q + idft P g q).
  { intros f g q. pose proof (idft_lin P 1 1 f g q) as Q. rewrite !Cmult_1_l in Q. rewrite <- Q. apply idft_ext. intros. ring. }
  rewrite <- L. apply dft_ext. intros i _. rewrite <- L. apply dft_ext. intros j _. rewrite <- Cmult_plus_distr_l. f_equal. unfold ifft2. rewrite <- L'. apply idft_ext. intros a _. apply L'.
Qed.
Lemma blur_csum N n (f : nat -> img) k l : (0 < N)%nat -> every_other (blurred_intensity (N + N) (N + N) (fun i j => csum n (fun t => f t i j))) k l =
  csum n (fun t => every_other (blurred_intensity (N + N) (N + N) (f t)) k l).
Proof.
  intros H. apply (csum_hom (fun x => every_other (blurred_intensity (N + N) (N + N) x) k l)).
  - intros. apply blur_add, H.
  - pose proof (blur_product N 0 (fun _ => 0) (fun _ => 0) k l H) as Q. rewrite Cmult_0_l in Q. refine (eq_trans _ Q). apply blur_ext; [exact H|]. intros. ring.
  - intros x y E. apply blur_ext; [exact H|]. intros. apply E.
Qed.

(** ---- the upsampled field ---- *)
Lemma csum_window P c N f : (c + N <= P)%nat -> csum P (fun i => if (Nat.leb c i && Nat.ltb i (c + N))%bool then f (i - c)%nat else 0) = csum N f.
Proof.
  intros H. replace P with (c + (N + (P - c - N)))%nat by lia. rewrite !csum_split.
  rewrite (csum_zero' c), (csum_zero' (P - c - N)).
  - rewrite Cplus_0_l, Cplus_0_r. apply csum_ext. intros i Hi. replace (Nat.leb c (c + i)) with true by (symmetry; apply Nat.leb_le; lia). replace (Nat.ltb (c + i) (c + N)) with true by (symmetry; apply Nat.ltb_lt; lia). cbn [andb]. f_equal. lia.
  - intros i Hi. replace (Nat.ltb (c + (N + i)) (c + N)) with false by (symmetry; apply Nat.ltb_ge; lia). rewrite Bool.andb_false_r. reflexivity.
  - intros i Hi. replace (Nat.leb c i) with false by (symmetry; apply Nat.leb_gt; lia). reflexivity.
Qed.
Definition spectrum_of (N : nat) (psi : img) : img := fftshift2 N N (ifft2 N N psi).
Definition wave_sum (N : nat) (c : img) (k l : nat) : C :=
  csum N (fun m => csum N (fun n => c m n * (w (N + N) (- (Z.of_nat k * Z.of_nat m)) * w (N + N) (- (Z.of_nat l * Z.of_nat n))))).
Lemma upsampled_wave N psi k l : (0 < N)%nat -> Cmod (upsampled_field N N psi k l) = Cmod (wave_sum N (spectrum_of N psi) k l).
Proof.
  intros H. unfold upsampled_field. cbv zeta. fold (spectrum_of N psi). set (c := spectrum_of N psi). clearbody c. set (P := (N + N)%nat). assert (HP : (0 < P)%nat) by (unfold P; lia).
  assert (D : (N / 2 + N <= P)%nat) by (unfold P; pose proof (Nat.div_le_upper_bound N 2 N); lia).
  rewrite (fft2_ext P P _ (pad N N (N / 2) (N / 2) c)).
  2:{ intros i j Hi Hj. unfold ifftshift_rows_twice, P. rewrite roll_twice by assumption. reflexivity. }
  rewrite fft2_kernel.
  rewrite (csum_ext P _ (fun i => if (Nat.leb (N / 2) i && Nat.ltb i (N / 2 + N))%bool then
     csum N (fun n => c (i - N / 2)%nat n * (w P (- (Z.of_nat l * Z.of_nat (n + N / 2))) * w P (- (Z.of_nat k * Z.of_nat (i - N / 2 + N / 2))))) else 0)).
  - rewrite (csum_window P (N / 2) N (fun i => csum N (fun n => c i n * (w P (- (Z.of_nat l * Z.of_nat (n + N / 2))) * w P (- (Z.of_nat k * Z.of_nat (i + N / 2))))))) by exact D.
    set (ph := w P (- (Z.of_nat l * Z.of_nat (N / 2))) * w P (- (Z.of_nat k * Z.of_nat (N / 2)))).
    assert (E : csum N (fun i => csum N (fun n => c i n * (w P (- (Z.of_nat l * Z.of_nat (n + N / 2))) * w P (- (Z.of_nat k * Z.of_nat (i + N / 2)))))) = ph * wave_sum N c k l).
    { unfold wave_sum. fold P. rewrite csum_scal. apply csum_ext. intros i _. rewrite csum_scal. apply csum_ext. intros n _. unfold ph.
      replace (- (Z.of_nat l * Z.of_nat (n + N / 2)))%Z with (- (Z.of_nat l * Z.of_nat n) + - (Z.of_nat l * Z.of_nat (N / 2)))%Z by lia.
      replace (- (Z.of_nat k * Z.of_nat (i + N / 2)))%Z with (- (Z.of_nat k * Z.of_nat i) + - (Z.of_nat k * Z.of_nat (N / 2)))%Z by lia.
      rewrite !(w_add P HP). ring. }
    rewrite E, Cmod_mult. unfold ph. rewrite Cmod_mult, !Cmod_nrm2, !w_nrm2, sqrt_1. ring.
  - intros i Hi. unfold pad. destruct (Nat.leb (N / 2) i) eqn:E1; [|cbn [andb]; apply csum_zero'; intros; ring].
    destruct (Nat.ltb i (N / 2 + N)) eqn:E2; [|cbn [andb]; apply csum_zero'; intros; ring]. cbn [andb].
    apply Nat.leb_le in E1. replace (i - N / 2 + N / 2)%nat with i by lia.
    rewrite (csum_ext P _ (fun j => if (Nat.leb (N / 2) j && Nat.ltb j (N / 2 + N))%bool then c (i - N / 2)%nat (j - N / 2)%nat * (w P (- (Z.of_nat l * Z.of_nat (j - N / 2 + N / 2))) * w P (- (Z.of_nat k * Z.of_nat i))) else 0)).
    + apply (csum_window P (N / 2) N (fun n => c (i - N / 2)%nat n * (w P (- (Z.of_nat l * Z.of_nat (n + N / 2))) * w P (- (Z.of_nat k * Z.of_nat i))))). exact D.
    + intros j Hj. destruct (Nat.leb (N / 2) j) eqn:F1; [|cbn [andb]; ring]. destruct (Nat.ltb j (N / 2 + N)); cbn [andb]; [|ring].
      apply Nat.leb_le in F1. replace (j - N / 2 + N / 2)%nat with j by lia. reflexivity.
Qed.

(** |sum|^2 as a sum of interference terms *)
Lemma wave_power N c k l : (0 < N)%nat -> RtoC (Cmod (wave_sum N c k l) ^ 2) =
  csum N (fun m => csum N (fun n => csum N (fun m' => csum N (fun n' => c m n * Cconj (c m' n') *
    (w (N + N) (- (Z.of_nat k * (Z.of_nat m - Z.of_nat m'))) * w (N + N) (- (Z.of_nat l * (Z.of_nat n - Z.of_nat n')))))))).
Proof.
  intros H. set (P := (N + N)%nat). assert (HP : (0 < P)%nat) by (unfold P; lia). rewrite <- nrm2_Cmod, <- mult_conj. unfold wave_sum. fold P. rewrite csum_conj.
  rewrite csum_scal_r. apply csum_ext. intros m _. rewrite csum_scal_r. apply csum_ext. intros n _. rewrite csum_scal. apply csum_ext. intros m' _. rewrite csum_conj, csum_scal. apply csum_ext. intros n' _.
  rewrite !Cconj_mult, !(w_conj P HP).
  replace (- (Z.of_nat k * (Z.of_nat m - Z.of_nat m')))%Z with (- (Z.of_nat k * Z.of_nat m) + - - (Z.of_nat k * Z.of_nat m'))%Z by lia.
  replace (- (Z.of_nat l * (Z.of_nat n - Z.of_nat n')))%Z with (- (Z.of_nat l * Z.of_nat n) + - - (Z.of_nat l * Z.of_nat n'))%Z by lia.
  rewrite !(w_add P HP). ring.
Qed.

Lemma finite_value N J psi k l : (0 < N)%nat -> finite_pattern N N J psi k l =
  csum J (fun a => csum N (fun m => csum N (fun n => csum N (fun m' => csum N (fun n' =>
    let d := (Z.of_nat m - Z.of_nat m')%Z in let e := (Z.of_nat n - Z.of_nat n')%Z in
    spectrum_of N (psi a) m n * Cconj (spectrum_of N (psi a) m' n') * RtoC (shrunk N d * shrunk N e) * (w N (- (Z.of_nat k * d)) * w N (- (Z.of_nat l * e)))))))).
Proof.
  intros H. unfold finite_pattern.
  rewrite (blur_ext N _ (fun i j => csum J (fun a => csum N (fun m => csum N (fun n => csum N (fun m' => csum N (fun n' => spectrum_of N (psi a) m n * Cconj (spectrum_of N (psi a) m' n') *
    (w (N + N) (- (Z.of_nat i * (Z.of_nat m - Z.of_nat m'))) * w (N + N) (- (Z.of_nat j * (Z.of_nat n - Z.of_nat n'))))))))))).
  - rewrite (blur_csum N J (fun a i j => csum N (fun m => csum N (fun n => csum N (fun m' => csum N (fun n' => _)))))) by exact H. apply csum_ext. intros a _.
    rewrite (blur_csum N N (fun m i j => csum N (fun n => csum N (fun m' => csum N (fun n' => _))))) by exact H. apply csum_ext. intros m Hm.
    rewrite (blur_csum N N (fun n i j => csum N (fun m' => csum N (fun n' => _)))) by exact H. apply csum_ext. intros n Hn.
    rewrite (blur_csum N N (fun m' i j => csum N (fun n' => _))) by exact H. apply csum_ext. intros m' Hm'.
    rewrite (blur_csum N N (fun n' i j => _)) by exact H. apply csum_ext. intros n' Hn'.
    rewrite (blur_product N _ (fun i => w (N + N) (- (Z.of_nat i * (Z.of_nat m - Z.of_nat m')))) (fun j => w (N + N) (- (Z.of_nat j * (Z.of_nat n - Z.of_nat n'))))) by exact H.
    rewrite !line_wave by lia. cbv zeta. rewrite RtoC_mult. ring.
  - exact H.
  - intros i j _ _. unfold upsampled_intensity. rewrite <- csum_RtoC. apply csum_ext. intros a _. rewrite upsampled_wave by exact H. apply wave_power, H.
Qed.
