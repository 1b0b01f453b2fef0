(** C88: patterns on pixels of finite size (simulate_finite_pixels=True). *)
From Verif Require Import Base FinSum Fourier Model_Prop Spec_Prop Proofs_Prop Proofs_FRC Proofs_Image Model_Meas Spec_Meas Proofs_Meas Model_Finite Spec_Finite Proofs_Finite.
From Coquelicot Require Import Coquelicot.
Local Open Scope C_scope.

(** Lemmas on the coefficients. *)
Lemma idft_wave N d a : (0 < N)%nat -> idft N (fun k => w N (- (Z.of_nat k * d))) a = if ((Z.of_nat a - d) mod Z.of_nat N =? 0)%Z then 1 else 0.
Proof.
  intros H. unfold idft. rewrite (csum_ext N _ (fun j => w N (Z.of_nat j * (Z.of_nat a - d)))).
  - rewrite (orth N H). destruct (Z.eqb _ _); [|ring]. apply RtoC_inv_n. exact H.
  - intros j _. rewrite <- (w_add N H). f_equal. lia.
Qed.
Lemma field_w N c k l : (0 < N)%nat -> field N c (INR k) (INR l) =
  csum N (fun m => csum N (fun n => c m n * (w N (- (Z.of_nat k * (Z.of_nat m - Z.of_nat (N / 2)))) * w N (- (Z.of_nat l * (Z.of_nat n - Z.of_nat (N / 2))))))).
Proof.
  intros H. unfold field. apply csum_ext. intros m _. apply csum_ext. intros n _. f_equal. unfold w. rewrite <- cis_add. f_equal.
  rewrite !opp_IZR, !mult_IZR, !minus_IZR, <- !INR_IZR_INZ. apply lt_0_INR in H. field. lra.
Qed.
Lemma roll_centre N m : (0 < N)%nat -> (m < N)%nat -> ((Z.of_nat (roll N (N / 2) m) - (Z.of_nat m - Z.of_nat (N / 2))) mod Z.of_nat N = 0)%Z.
Proof.
  intros H Hm. rewrite roll_fft by exact H. rewrite Nat2Z.inj_mod, Zminus_mod_idemp_l. pose proof (Nat.div_le_upper_bound N 2 N). 
  replace (Z.of_nat (m + (N - N / 2)) - (Z.of_nat m - Z.of_nat (N / 2)))%Z with (1 * Z.of_nat N)%Z by lia. apply Z_mod_mult.
Qed.
Lemma spectrum_through N psi : (0 < N)%nat -> through N (spectrum_of N psi) psi.
Proof.
  intros H k l Hk Hl. rewrite field_w by exact H. rewrite <- (fft2_ifft2 N N psi H H k l Hk Hl). rewrite fft2_kernel. unfold spectrum_of, fftshift2.
  set (g := ifft2 N N psi). rewrite <- (csum_roll N (N / 2) (fun i => csum N (fun j => g i j * (w N (- (Z.of_nat l * Z.of_nat j)) * w N (- (Z.of_nat k * Z.of_nat i)))))) by exact H.
  apply csum_ext. intros m Hm. rewrite <- (csum_roll N (N / 2) (fun j => g (roll N (N / 2) m) j * (w N (- (Z.of_nat l * Z.of_nat j)) * w N (- (Z.of_nat k * Z.of_nat (roll N (N / 2) m)))))) by exact H.
  apply csum_ext. intros n Hn. f_equal. rewrite Cmult_comm.
  assert (Q : forall p q, (q < N)%nat -> w N (- (Z.of_nat p * (Z.of_nat q - Z.of_nat (N / 2)))) = w N (- (Z.of_nat p * Z.of_nat (roll N (N / 2) q)))).
  { intros p q Hq. apply (w_congr N H). pose proof (roll_centre N q H Hq) as E. apply Z.mod_divide in E; [|lia]. destruct E as [z E].
    replace (- (Z.of_nat p * Z.of_nat (roll N (N / 2) q)))%Z with (- (Z.of_nat p * (Z.of_nat q - Z.of_nat (N / 2))) + (- Z.of_nat p * z) * Z.of_nat N)%Z by nia.
    symmetry. apply Z_mod_plus_full. }
  rewrite !Q by assumption. reflexivity.
Qed.
Lemma through_unique N c psi m n : (0 < N)%nat -> (m < N)%nat -> (n < N)%nat -> through N c psi -> spectrum_of N psi m n = c m n.
Proof.
  intros H Hm Hn T. unfold spectrum_of, fftshift2.
  rewrite (ifft2_ext N N psi (fun k l => csum N (fun m => csum N (fun n => c m n * (w N (- (Z.of_nat k * (Z.of_nat m - Z.of_nat (N / 2)))) * w N (- (Z.of_nat l * (Z.of_nat n - Z.of_nat (N / 2))))))))).
  2:{ intros k l Hk Hl. rewrite <- field_w by exact H. symmetry. apply T; assumption. }
  set (a := roll N (N / 2) m). set (b := roll N (N / 2) n).
  assert (Z0 : ifft2 N N (fun _ _ => 0) a b = 0). { unfold ifft2, idft. rewrite csum_zero'; [ring|]. intros. rewrite csum_zero'; [ring|]. intros. ring. }
  assert (L' : forall f g q, idft N (fun j => f j + g j) q = idft N f q + idft N g q).
  { intros f g q. pose proof (idft_lin N 1 1 f g q) as Q. rewrite !Cmult_1_l in Q. rewrite <- Q. apply idft_ext. intros. ring. }
  assert (A : forall x y : img, ifft2 N N (fun i j => x i j + y i j) a b = ifft2 N N x a b + ifft2 N N y a b).
  { intros x y. unfold ifft2. rewrite <- L'. apply idft_ext. intros i _. apply L'. }
  assert (X : forall x y : img, (forall i j, x i j = y i j) -> ifft2 N N x a b = ifft2 N N y a b) by (intros; apply ifft2_ext; intros ? ? _ _; auto).
  rewrite (csum_hom (fun x => ifft2 N N x a b) N (fun m k l => csum N (fun n => c m n * (w N (- (Z.of_nat k * (Z.of_nat m - Z.of_nat (N / 2)))) * w N (- (Z.of_nat l * (Z.of_nat n - Z.of_nat (N / 2)))))))) by assumption.
  rewrite (csum_ext N _ (fun m' => csum N (fun n' => c m' n' * ((if ((Z.of_nat a - (Z.of_nat m' - Z.of_nat (N / 2))) mod Z.of_nat N =? 0)%Z then 1 else 0) * (if ((Z.of_nat b - (Z.of_nat n' - Z.of_nat (N / 2))) mod Z.of_nat N =? 0)%Z then 1 else 0))))).
  - assert (SEL : forall p q, (p < N)%nat -> (q < N)%nat -> ((Z.of_nat (roll N (N / 2) p) - (Z.of_nat q - Z.of_nat (N / 2))) mod Z.of_nat N =? 0)%Z = Nat.eqb p q).
    { intros p q Hp Hq. pose proof (roll_centre N p H Hp) as E. apply Z.mod_divide in E; [|lia]. destruct E as [z E]. destruct (Nat.eqb_spec p q) as [->|Ne].
      - apply Z.eqb_eq. rewrite E. apply Z_mod_mult.
      - apply Z.eqb_neq. intros Q. apply Z.mod_divide in Q; [|lia]. destruct Q as [y Q]. assert (y - z = 0)%Z by nia. assert (y = z) by lia. subst y. lia. }
    rewrite (csum_single N m); [|exact Hm|].
    + rewrite (csum_single N n); [|exact Hn|].
      * unfold a, b. rewrite !SEL, !Nat.eqb_refl by assumption. ring.
      * intros n' Hn' Ne. unfold a, b. rewrite (SEL n n') by assumption. apply Nat.neq_sym, Nat.eqb_neq in Ne. rewrite Ne. ring.
    + intros m' Hm' Ne. apply csum_zero'. intros n' Hn'. unfold a. rewrite (SEL m m') by assumption. apply Nat.neq_sym, Nat.eqb_neq in Ne. rewrite Ne. ring.
  - intros m' _. rewrite (csum_hom (fun x => ifft2 N N x a b) N (fun n k l => c m' n * (w N (- (Z.of_nat k * (Z.of_nat m' - Z.of_nat (N / 2)))) * w N (- (Z.of_nat l * (Z.of_nat n - Z.of_nat (N / 2))))))) by assumption.
    apply csum_ext. intros n' _. rewrite (X _ (fun k l => (c m' n' * w N (- (Z.of_nat k * (Z.of_nat m' - Z.of_nat (N / 2))))) * w N (- (Z.of_nat l * (Z.of_nat n' - Z.of_nat (N / 2)))))) by (intros; ring).
    rewrite ifft2_prod. rewrite <- (idft_wave N _ b H), <- (idft_wave N _ a H).
    set (f := fun k => w N (- (Z.of_nat k * (Z.of_nat m' - Z.of_nat (N / 2))))).
    assert (HF : idft N (fun i => c m' n' * f i) a = c m' n' * idft N f a); [|unfold f in *; rewrite HF; symmetry; apply Cmult_assoc]. symmetry.
    pose proof (idft_lin N (c m' n') 0 f f a) as Q. transitivity (c m' n' * idft N f a + 0 * idft N f a); [ring|]. rewrite <- Q. apply idft_ext. intros. ring.
Qed.
Lemma sinc_is_sinc : is_sinc sinc.
Proof. split; [unfold sinc; destruct Req_EM_T; [reflexivity|lra]|]. intros x N. unfold sinc. destruct Req_EM_T; [contradiction|reflexivity]. Qed.
Lemma sinc_unique s x : is_sinc s -> s x = sinc x.
Proof. intros [S0 S1]. unfold sinc. destruct Req_EM_T as [->|N]; [exact S0|apply S1, N]. Qed.

(** Every wavefield of N x N pixels has coefficients, and only one set of them. *)
Theorem C88_coefficients : forall N psi, (0 < N)%nat -> exists c, through N c psi /\
  forall c', through N c' psi -> forall m n, (m < N)%nat -> (n < N)%nat -> c' m n = c m n.
Proof.
  intros N psi H. exists (spectrum_of N psi). split; [apply spectrum_through, H|]. intros c' T m n Hm Hn. symmetry. apply through_unique; assumption.
Qed.
Print Assumptions C88_coefficients.

(** The pattern of any number of modes on N x N pixels: the interference terms of the coefficients, a difference d of two
    frequencies weighed by sinc((2 d + 1) / (2 N - 1)). *)
Theorem C88_value : forall N J psi c s k l, (0 < N)%nat -> (forall a, (a < J)%nat -> through N (c a) (psi a)) -> is_sinc s ->
  finite_pattern N N J psi k l = response_pattern N J c (fun d => s ((2 * IZR d + 1) / (2 * INR N - 1))%R) (INR k) (INR l).
Proof.
  intros N J psi c s k l H T S. rewrite finite_value by exact H. unfold response_pattern. apply csum_ext. intros a Ha.
  apply csum_ext. intros m Hm. apply csum_ext. intros n Hn. apply csum_ext. intros m' Hm'. apply csum_ext. intros n' Hn'. cbv zeta.
  rewrite !(through_unique N (c a) (psi a)) by auto. unfold shrunk. rewrite !(sinc_unique s) by exact S. f_equal.
  unfold w. rewrite <- cis_add. f_equal. rewrite !opp_IZR, !mult_IZR, <- !INR_IZR_INZ. apply lt_0_INR in H. field. lra.
Qed.
Print Assumptions C88_value.

(** What a pixel should collect: the same with sinc(d / N). *)
Lemma int_cos th om y : is_RInt (fun t => cos (th + om * t)) (y - / 2) (y + / 2) (cos (th + om * y) * sinc (om / (2 * PI)))%R.
Proof.
  pose proof PI_RGT_0 as PP. destruct (Req_dec om 0) as [->|N].
  - replace (0 / (2 * PI))%R with 0%R by (field; lra). unfold sinc. destruct Req_EM_T; [|lra].
    apply (is_RInt_ext (fun _ => cos (th + 0 * y))). { intros x _. f_equal. ring. }
    replace (cos (th + 0 * y) * 1)%R with (scal ((y + / 2) - (y - / 2))%R (cos (th + 0 * y))) by (unfold scal; cbn; unfold mult; cbn; field). apply (is_RInt_const (V := R_NormedModule)).
  - assert (V : (cos (th + om * y) * sinc (om / (2 * PI)))%R = minus (sin (th + om * (y + / 2)) / om)%R (sin (th + om * (y - / 2)) / om)%R).
    { unfold sinc. destruct Req_EM_T as [E|_]. { exfalso. apply N. replace om with (om / (2 * PI) * (2 * PI))%R by (field; lra). rewrite E. ring. }
      replace (PI * (om / (2 * PI)))%R with (om / 2)%R by (field; lra). unfold minus, plus, opp. cbn.
      replace (th + om * (y + / 2))%R with ((th + om * y) + om / 2)%R by field. replace (th + om * (y - / 2))%R with ((th + om * y) - om / 2)%R by field.
      rewrite sin_plus, sin_minus. field. exact N. }
    rewrite V. apply (is_RInt_derive (fun t => sin (th + om * t) / om)%R).
    + intros t _. auto_derive; [exact I|]. field. exact N.
    + intros t _. apply (ex_derive_continuous (fun t => cos (th + om * t))). auto_derive. exact I.
Qed.
Lemma sinc_even x : sinc (- x) = sinc x.
Proof.
  unfold sinc. destruct (Req_EM_T (- x) 0), (Req_EM_T x 0); try lra; try reflexivity. replace (PI * - x)%R with (- (PI * x))%R by ring. rewrite sin_neg. pose proof PI_RGT_0. field. split; lra.
Qed.
Lemma int_wave (z : C) N p d y : (0 < N)%nat -> is_RInt (fun t => Re (z * cis (- (2 * PI) * ((p + t * IZR d) / INR N)))) (y - / 2) (y + / 2)
   (Re (z * RtoC (sinc (IZR d / INR N)) * cis (- (2 * PI) * ((p + y * IZR d) / INR N)))).
Proof.
  intros H. apply lt_0_INR in H. pose proof PI_RGT_0 as PP. set (om := (- (2 * PI) * (IZR d / INR N))%R). set (th := (- (2 * PI) * (p / INR N))%R).
  assert (SO : sinc (om / (2 * PI)) = sinc (IZR d / INR N)) by (unfold om; replace (- (2 * PI) * (IZR d / INR N) / (2 * PI))%R with (- (IZR d / INR N))%R by (field; lra); apply sinc_even).
  pose proof (int_cos th om y) as I1. pose proof (int_cos (th - PI / 2) om y) as I2. rewrite SO in I1, I2.
  assert (CS : forall x, cos (th - PI / 2 + x) = sin (th + x)). { intros x. replace (th - PI / 2 + x)%R with (- (PI / 2 - (th + x)))%R by ring. rewrite cos_neg. apply cos_shift. }
  apply (is_RInt_scal _ _ _ (fst z)) in I1. apply (is_RInt_scal _ _ _ (- snd z)%R) in I2. pose proof (is_RInt_plus _ _ _ _ _ _ I1 I2) as I3. clear I1 I2.
  match type of I3 with is_RInt _ _ _ ?v => replace (Re (z * RtoC (sinc (IZR d / INR N)) * cis (- (2 * PI) * ((p + y * IZR d) / INR N)))) with v end.
  - eapply is_RInt_ext; [|exact I3]. intros t _. cbn beta. rewrite CS. unfold plus, scal. cbn. unfold mult. cbn. unfold Re, cis. cbn [fst snd Cmult].
    replace (- (2 * PI) * ((p + t * IZR d) / INR N))%R with (th + om * t)%R by (unfold th, om; field; lra). ring.
  - rewrite CS. unfold plus, scal. cbn. unfold mult. cbn. unfold Re, cis, RtoC. cbn [fst snd Cmult].
    replace (- (2 * PI) * ((p + y * IZR d) / INR N))%R with (th + om * y)%R by (unfold th, om; field; lra). ring.
Qed.
Lemma is_RInt_rsum n (f : nat -> R -> R) a b v : (forall i, (i < n)%nat -> is_RInt (f i) a b (v i)) -> is_RInt (fun x => rsum n (fun i => f i x)) a b (rsum n v).
Proof.
  induction n as [|n IH]; intros H.
  - change (rsum 0 v) with 0%R. apply (is_RInt_ext (fun _ => 0%R)); [reflexivity|]. assert (E : scal (b - a)%R (0%R : R_NormedModule) = 0%R) by (unfold scal; cbn; unfold mult; cbn; ring).
    pose proof (is_RInt_const (V := R_NormedModule) a b 0%R) as Q. rewrite E in Q. exact Q.
  - rewrite rsum_S. apply (is_RInt_ext (fun x => plus (rsum n (fun i => f i x)) (f n x))); [intros; rewrite rsum_S; reflexivity|].
    apply (is_RInt_plus (fun x => rsum n (fun i => f i x)) (f n)); [apply IH; intros; apply H; lia|apply H; lia].
Qed.
Definition terms (N J : nat) (F : nat -> nat -> nat -> nat -> nat -> R) : R :=
  rsum J (fun a => rsum N (fun m => rsum N (fun n => rsum N (fun m' => rsum N (fun n' => F a m n m' n'))))).
Lemma Re_response N J c r x y : Re (response_pattern N J c r x y) = terms N J (fun a m n m' n' =>
  Re (c a m n * Cconj (c a m' n') * RtoC (r (Z.of_nat m - Z.of_nat m')%Z * r (Z.of_nat n - Z.of_nat n')%Z) * cis (- (2 * PI) * ((x * IZR (Z.of_nat m - Z.of_nat m') + y * IZR (Z.of_nat n - Z.of_nat n')) / INR N)))).
Proof.
  unfold response_pattern, terms. rewrite Re_csum. apply rsum_ext. intros a _. rewrite Re_csum. apply rsum_ext. intros m _. rewrite Re_csum. apply rsum_ext. intros n _.
  rewrite Re_csum. apply rsum_ext. intros m' _. rewrite Re_csum. reflexivity.
Qed.
Lemma field_power N J c u t : (0 < N)%nat -> rsum J (fun a => Cmod (field N (c a) u t) ^ 2)%R = Re (response_pattern N J c (fun _ => 1%R) u t).
Proof.
  intros H. apply lt_0_INR in H. unfold response_pattern. rewrite Re_csum. apply rsum_ext. intros a _. rewrite <- nrm2_Cmod. transitivity (Re (field N (c a) u t * Cconj (field N (c a) u t))); [rewrite mult_conj; reflexivity|]. f_equal. unfold field. rewrite csum_conj.
  rewrite csum_scal_r. apply csum_ext. intros m _. rewrite csum_scal_r. apply csum_ext. intros n _. rewrite csum_scal. apply csum_ext. intros m' _. rewrite csum_conj, csum_scal. apply csum_ext. intros n' _.
  rewrite Cconj_mult, cis_conj. cbv zeta. rewrite Rmult_1_l.
  match goal with |- _ * cis ?A * (_ * cis ?B) = _ * _ * _ * cis ?D => assert (E : D = (A + B)%R) by (rewrite !minus_IZR, <- !INR_IZR_INZ; field; lra); rewrite E, cis_add end. ring.
Qed.
Theorem C88_ideal : forall N J c s x y, (0 < N)%nat -> is_sinc s ->
  collects N J c x y (Re (response_pattern N J c (fun d => s (IZR d / INR N)%R) x y)).
Proof.
  intros N J c s x y H S. set (r := fun d : Z => s (IZR d / INR N)%R).
  exists (fun u => terms N J (fun a m n m' n' => Re (c a m n * Cconj (c a m' n') * RtoC (r (Z.of_nat n - Z.of_nat n')%Z) * cis (- (2 * PI) * ((u * IZR (Z.of_nat m - Z.of_nat m') + y * IZR (Z.of_nat n - Z.of_nat n')) / INR N))))). split.
  - intros u. apply (is_RInt_ext (fun t => terms N J (fun a m n m' n' => Re (c a m n * Cconj (c a m' n') * cis (- (2 * PI) * ((u * IZR (Z.of_nat m - Z.of_nat m') + t * IZR (Z.of_nat n - Z.of_nat n')) / INR N)))))).
    + intros t _. rewrite field_power by exact H. rewrite Re_response. unfold terms. apply rsum_ext; intros a _. apply rsum_ext; intros m _. apply rsum_ext; intros n _. apply rsum_ext; intros m' _. apply rsum_ext; intros n' _. f_equal. rewrite Rmult_1_l. ring.
    + unfold terms. apply is_RInt_rsum; intros a _. apply is_RInt_rsum; intros m _. apply is_RInt_rsum; intros n _. apply is_RInt_rsum; intros m' _. apply is_RInt_rsum; intros n' _.
      unfold r. rewrite (sinc_unique s) by exact S. apply int_wave, H.
  - rewrite Re_response. unfold terms. apply is_RInt_rsum; intros a _. apply is_RInt_rsum; intros m _. apply is_RInt_rsum; intros n _. apply is_RInt_rsum; intros m' _. apply is_RInt_rsum; intros n' _.
    set (d := (Z.of_nat m - Z.of_nat m')%Z). set (e := (Z.of_nat n - Z.of_nat n')%Z).
    pose proof (int_wave (c a m n * Cconj (c a m' n') * RtoC (r e)) N (y * IZR e)%R d x H) as Q.
    replace (c a m n * Cconj (c a m' n') * RtoC (r d * r e)%R * cis (- (2 * PI) * ((x * IZR d + y * IZR e) / INR N))) with
      (c a m n * Cconj (c a m' n') * RtoC (r e) * RtoC (sinc (IZR d / INR N)) * cis (- (2 * PI) * ((y * IZR e + x * IZR d) / INR N))).
    2:{ assert (Er : r d = sinc (IZR d / INR N)) by (apply sinc_unique, S). rewrite RtoC_mult, Er. rewrite (Rplus_comm (y * IZR e)). ring. }
    eapply is_RInt_ext; [|exact Q]. intros t _. cbn beta. rewrite (Rplus_comm (y * IZR e)). reflexivity.
Qed.
Print Assumptions C88_ideal.

(** Photons: the ideal pattern adds up to the power of the wavefields; the simulated one to sinc(1 / (2 N - 1))^2 of it. *)
Lemma response_total N J c psi r : (0 < N)%nat -> (forall a, (a < J)%nat -> through N (c a) (psi a)) ->
  csum N (fun k => csum N (fun l => response_pattern N J c r (INR k) (INR l))) = RtoC (r 0%Z * r 0%Z * rsum J (fun a => energy N N (psi a))).
Proof.
  intros H T. assert (HP : (0 < INR N)%R) by (apply lt_0_INR, H). unfold response_pattern.
  rewrite (csum_ext N _ (fun k => csum J (fun a => csum N (fun m => csum N (fun n => csum N (fun m' => csum N (fun n' =>
    c a m n * Cconj (c a m' n') * RtoC (r (Z.of_nat m - Z.of_nat m')%Z * r (Z.of_nat n - Z.of_nat n')%Z) * (w N (Z.of_nat k * (Z.of_nat m' - Z.of_nat m)) * csum N (fun l => w N (Z.of_nat l * (Z.of_nat n' - Z.of_nat n))))))))))).
  - rewrite csum_swap. rewrite rsum_scal, <- csum_RtoC. apply csum_ext. intros a Ha.
    rewrite csum_swap. rewrite (csum_ext N _ (fun m => csum N (fun n => RtoC (r 0%Z * r 0%Z * (INR N * INR N) * nrm2 (c a m n))))).
    + assert (EN : energy N N (psi a) = (INR N * INR N * rsum N (fun m => rsum N (fun n => nrm2 (c a m n))))%R).
      { pose proof (ifft2_energy N N (psi a) H H) as Q.
        assert (Q2 : energy N N (ifft2 N N (psi a)) = rsum N (fun m => rsum N (fun n => nrm2 (c a m n)))).
        { unfold energy. rewrite <- (rsum_roll N (N / 2)) by exact H. apply rsum_ext. intros m Hm. rewrite <- (rsum_roll N (N / 2) (fun j => nrm2 (ifft2 N N (psi a) (roll N (N / 2) m) j))) by exact H.
          apply rsum_ext. intros n Hn. rewrite <- (through_unique N (c a) (psi a) m n H Hm Hn (T a Ha)). reflexivity. }
        rewrite <- Q2, Q. field. lra. }
      rewrite EN. transitivity (RtoC ((r 0%Z * r 0%Z * (INR N * INR N)) * rsum N (fun m => rsum N (fun n => nrm2 (c a m n))))%R); [|f_equal; ring]. rewrite rsum_scal, <- csum_RtoC. apply csum_ext. intros m _. rewrite rsum_scal, <- csum_RtoC. reflexivity.
    + intros m Hm. rewrite csum_swap. apply csum_ext. intros n Hn. rewrite csum_swap. rewrite (csum_single N m); [|exact Hm|].
      * rewrite csum_swap. rewrite (csum_single N n); [|exact Hn|].
        -- rewrite !Z.sub_diag. rewrite (csum_ext N _ (fun _ => c a m n * Cconj (c a m n) * RtoC (r 0%Z * r 0%Z) * RtoC (INR N))).
           ++ rewrite csum_const, mult_conj. rewrite <- !RtoC_mult. f_equal. ring.
           ++ intros k _. rewrite Z.mul_0_r, w_0. rewrite (csum_ext N _ (fun _ => 1)) by (intros; rewrite Z.mul_0_r; apply w_0). rewrite csum_const. ring.
        -- intros n' Hn' Ne. apply csum_zero'. intros k _. rewrite (orth N H). 
           assert (E : ((Z.of_nat n' - Z.of_nat n) mod Z.of_nat N =? 0)%Z = false) by (apply Z.eqb_neq; intros Q; apply Z.mod_divide in Q; [|lia]; destruct Q as [q Q]; assert (q = 0)%Z by nia; subst; lia).
           rewrite E. ring.
      * intros m' Hm' Ne. rewrite csum_swap. apply csum_zero'. intros n' _. 
        rewrite (csum_ext N _ (fun k => c a m n * Cconj (c a m' n') * RtoC (r (Z.of_nat m - Z.of_nat m')%Z * r (Z.of_nat n - Z.of_nat n')%Z) * csum N (fun l => w N (Z.of_nat l * (Z.of_nat n' - Z.of_nat n))) * w N (Z.of_nat k * (Z.of_nat m' - Z.of_nat m)))) by (intros; ring).
        rewrite <- csum_scal, (orth N H (Z.of_nat m' - Z.of_nat m)).
        assert (E : ((Z.of_nat m' - Z.of_nat m) mod Z.of_nat N =? 0)%Z = false) by (apply Z.eqb_neq; intros Q; apply Z.mod_divide in Q; [|lia]; destruct Q as [q Q]; assert (q = 0)%Z by nia; subst; lia).
        rewrite E. ring.
  - intros k _. rewrite csum_swap. apply csum_ext. intros a _. rewrite csum_swap. apply csum_ext. intros m _. rewrite csum_swap. apply csum_ext. intros n _. rewrite csum_swap. apply csum_ext. intros m' _. rewrite csum_swap. apply csum_ext. intros n' _.
    cbv zeta. rewrite csum_scal, csum_scal. apply csum_ext. intros l _. f_equal. unfold w. rewrite <- cis_add. f_equal. rewrite !mult_IZR, !minus_IZR, <- !INR_IZR_INZ. field. lra.
Qed.
Theorem C88_photons : forall N J psi c s, (0 < N)%nat -> (forall a, (a < J)%nat -> through N (c a) (psi a)) -> is_sinc s ->
  let power := rsum J (fun a => energy N N (psi a)) in
  csum N (fun k => csum N (fun l => response_pattern N J c (fun d => s (IZR d / INR N)%R) (INR k) (INR l))) = RtoC power /\
  csum N (fun k => csum N (fun l => finite_pattern N N J psi k l)) = RtoC (s (1 / (2 * INR N - 1))%R ^ 2 * power).
Proof.
  intros N J psi c s H T S power. split.
  - rewrite (response_total N J c psi) by assumption. fold power. f_equal. replace (0 / INR N)%R with 0%R by (apply lt_0_INR in H; field; lra). destruct S as [-> _]. ring.
  - rewrite (csum_ext N _ (fun k => csum N (fun l => response_pattern N J c (fun d => s ((2 * IZR d + 1) / (2 * INR N - 1))%R) (INR k) (INR l)))).
    + rewrite (response_total N J c psi) by assumption. fold power. f_equal. rewrite Rmult_0_r, Rplus_0_l. ring.
    + intros k _. apply csum_ext. intros l _. apply C88_value; assumption.
Qed.
Print Assumptions C88_photons.
Lemma sinc_range x : (0 < x <= 1)%R -> (0 <= sinc x < 1)%R.
Proof.
  intros H. unfold sinc. pose proof PI_RGT_0 as PP. destruct Req_EM_T; [lra|]. assert (0 < PI * x)%R by (apply Rmult_lt_0_compat; lra). split.
  - apply Rdiv_le_0_compat; [|assumption]. apply sin_ge_0; [lra|]. rewrite <- (Rmult_1_r PI) at 2. apply Rmult_le_compat_l; lra.
  - apply Rmult_lt_reg_r with (PI * x)%R; [assumption|]. unfold Rdiv. rewrite Rmult_assoc, Rinv_l, Rmult_1_r, Rmult_1_l by lra. apply sin_lt_x. assumption.
Qed.
(** So it loses photons, for every number of pixels: a pattern on one pixel is dark, one on two by two pixels loses almost
    a third. *)
Theorem C88_photons_refuted : forall N J psi s, (0 < N)%nat -> is_sinc s -> (0 < rsum J (fun a => energy N N (psi a)))%R ->
  (Re (csum N (fun k => csum N (fun l => finite_pattern N N J psi k l))) < rsum J (fun a => energy N N (psi a)))%R /\
  (N = 1%nat -> finite_pattern N N J psi 0%nat 0%nat = 0).
Proof.
  intros N J psi s H S P. assert (TH : forall a, (a < J)%nat -> through N (spectrum_of N (psi a)) (psi a)) by (intros; apply spectrum_through, H). split.
  - destruct (C88_photons N J psi (fun a => spectrum_of N (psi a)) s H TH S) as [_ E].
    cbv zeta in E. rewrite E. cbn [Re RtoC fst]. rewrite !(sinc_unique s) by exact S. apply (le_INR 1%nat) in H. cbn [INR] in H.
    assert (Rg : (0 < 1 / (2 * INR N - 1) <= 1)%R). { split; [apply Rdiv_lt_0_compat; lra|]. apply Rmult_le_reg_r with (2 * INR N - 1)%R; [lra|]. unfold Rdiv. rewrite Rmult_assoc, Rinv_l by lra. lra. }
    apply sinc_range in Rg. set (q := sinc _) in *. rewrite <- (Rmult_1_l (rsum J _)) at 2. apply Rmult_lt_compat_r; [exact P|]. nra.
  - intros ->. pose proof (C88_value 1%nat J psi (fun a => spectrum_of 1%nat (psi a)) s 0%nat 0%nat H TH S) as E. rewrite E. unfold response_pattern.
    apply csum_zero'. intros a _. apply csum_zero'. intros m Hm. apply csum_zero'. intros n Hn. apply csum_zero'. intros m' Hm'. apply csum_zero'. intros n' Hn'. cbv zeta.
    assert (m = 0 /\ n = 0 /\ m' = 0 /\ n' = 0)%nat as (-> & -> & -> & ->) by lia. cbn [Z.of_nat Z.sub Z.opp Z.add]. replace ((2 * 0 + 1) / (2 * INR 1 - 1))%R with 1%R by (cbn; field).
    destruct S as [_ S1]. rewrite S1 by lra. rewrite Rmult_1_r, sin_PI. replace (0 / PI * (0 / PI))%R with 0%R by (unfold Rdiv; ring). ring.
Qed.
Print Assumptions C88_photons_refuted.

(** A wave of one frequency fills all pixels alike; the simulated pattern is sinc(1 / (2 N - 1))^2 of its intensity. *)
Theorem C88_plane_wave : forall N s A m0 n0 k l, (0 < N)%nat -> is_sinc s -> (m0 < N)%nat -> (n0 < N)%nat ->
  let psi : img := fun k l => A * cis (- (2 * PI) * ((INR k * (INR m0 - INR (N / 2)) + INR l * (INR n0 - INR (N / 2))) / INR N)) in
  finite_pattern N N 1%nat (fun _ => psi) k l = RtoC (s (1 / (2 * INR N - 1)) ^ 2 * Cmod A ^ 2)%R.
Proof.
  intros N s A m0 n0 k l H S Hm Hn psi. set (c := fun m n => if (Nat.eqb m m0 && Nat.eqb n n0)%bool then A else 0).
  assert (T : through N c psi).
  { intros k' l' _ _. unfold field. rewrite (csum_single N m0); [|exact Hm|].
    - rewrite (csum_single N n0); [|exact Hn|].
      + unfold c. rewrite !Nat.eqb_refl. reflexivity.
      + intros n _ Ne. unfold c. apply Nat.eqb_neq in Ne. rewrite Ne, Bool.andb_false_r. ring.
    - intros m _ Ne. apply csum_zero'. intros n _. unfold c. apply Nat.eqb_neq in Ne. rewrite Ne. cbn [andb]. ring. }
  rewrite (C88_value N 1%nat _ (fun _ => c) s k l H (fun _ _ => T) S). unfold response_pattern. rewrite (csum_single 1%nat 0%nat); [|lia|intros; lia].
  rewrite (csum_single N m0); [|exact Hm|].
  - rewrite (csum_single N n0); [|exact Hn|].
    + rewrite (csum_single N m0); [|exact Hm|].
      * rewrite (csum_single N n0); [|exact Hn|].
        -- unfold c. rewrite !Nat.eqb_refl. cbn [andb]. cbv zeta. rewrite !Z.sub_diag. rewrite mult_conj, nrm2_Cmod. rewrite !Rmult_0_r, !Rplus_0_l. replace (- (2 * PI) * (0 / INR N))%R with 0%R by (unfold Rdiv; ring). rewrite cis_0, Cmult_1_r, <- RtoC_mult. f_equal. ring.
        -- intros n _ Ne. unfold c at 2. apply Nat.eqb_neq in Ne. rewrite Ne, Bool.andb_false_r. cbv zeta. rewrite Cconj_RtoC. ring.
      * intros m _ Ne. apply csum_zero'. intros n _. unfold c at 2. apply Nat.eqb_neq in Ne. rewrite Ne. cbn [andb]. cbv zeta. rewrite Cconj_RtoC. ring.
    + intros n _ Ne. apply csum_zero'. intros m' _. apply csum_zero'. intros n' _. unfold c at 1. apply Nat.eqb_neq in Ne. rewrite Ne, Bool.andb_false_r. cbv zeta. ring.
  - intros m _ Ne. apply csum_zero'. intros n _. apply csum_zero'. intros m' _. apply csum_zero'. intros n' _. unfold c at 1. apply Nat.eqb_neq in Ne. rewrite Ne. cbn [andb]. cbv zeta. ring.
Qed.
Print Assumptions C88_plane_wave.

(** Before the modulus is taken, modes add incoherently. *)
Theorem C88_additive : forall N J J' psi k l, (0 < N)%nat ->
  finite_pattern N N (J + J') psi k l = finite_pattern N N J psi k l + finite_pattern N N J' (fun a => psi (J + a)%nat) k l.
Proof. intros N J J' psi k l H. rewrite !finite_value by exact H. apply csum_split. Qed.
Print Assumptions C88_additive.

(** From there incoherent_sum goes on as without finite pixels (C38): its pattern is that of one field whose power is the
    modulus of the pattern. *)
Theorem C88_detector : forall o N M J psi bg qe i j,
  let v : img := fun k l => RtoC (sqrt (Cmod (finite_pattern N M J psi k l))) in
  incoherent_sum_finite o N M J psi i j = incoherent_sum o (v :: nil) i j /\
  quadratic_background_finite o N M J psi bg qe i j = quadratic_background o (v :: nil) bg qe i j.
Proof.
  intros o N M J psi bg qe i j v.
  assert (E : forall o i j, incoherent_sum_finite o N M J psi i j = incoherent_sum o (v :: nil) i j).
  { intros o' i' j'. unfold incoherent_sum_finite, incoherent_sum, finish.
    assert (P : forall a b, Cmod (finite_pattern N M J psi a b) = lsum (map (fun p : img => (Cmod (p a b) ^ 2)%R) (v :: nil))).
    { intros a b. unfold lsum. cbn [map fold_right]. unfold v. rewrite Cmod_R, Rabs_right by (apply Rle_ge, sqrt_pos). cbn [pow]. rewrite Rmult_1_r, sqrt_sqrt by apply Cmod_ge_0. ring. }
    f_equal. f_equal. destruct (Nat.eqb (o_over o') 1%nat), (o_slice o') as [[r c]|]; try apply P; unfold avg_pool2d; f_equal; apply rsum_ext; intros a _; apply rsum_ext; intros b _; apply P. }
  split; [apply E|]. unfold quadratic_background_finite, quadratic_background. rewrite !E. reflexivity.
Qed.
Print Assumptions C88_detector.

(** intensity returns complex numbers: for some wavefield of 2 x 2 pixels none of the pattern's values is real. With
    oversampling or saturation it raises. *)
Theorem C88_intensity_refuted :
  (exists psi, forall k l, (k < 2)%nat -> (l < 2)%nat -> Im (finite_pattern 2%nat 2%nat 1%nat (fun _ => psi) k l) <> 0%R) /\
  forall o N M psi, (o_over o <> 1%nat \/ o_sat o <> None) -> intensity_finite o N M psi = Raise RuntimeError.
Proof.
  split.
  - set (c := fun m n => match m, n with O, O => RtoC 1 | S O, O => Ci | _, _ => RtoC 0 end : C). exists (fun k l => field 2%nat c (INR k) (INR l)). intros k l Hk Hl.
    rewrite (C88_value 2%nat 1%nat _ (fun _ => c) sinc k l ltac:(lia)); [|intros _ _ k' l' _ _; reflexivity|apply sinc_is_sinc].
    unfold response_pattern, csum, fsum. cbn [Z.of_nat Pos.of_succ_nat Z.sub Z.opp Z.add Z.pos_sub]. unfold c.
    replace (2 * INR 2%nat - 1)%R with 3%R by (cbn; ring).
    assert (S0 : sinc ((2 * 0 + 1) / 3) = sinc (1 / 3)) by (f_equal; field). assert (S1 : sinc ((2 * 1 + 1) / 3) = 0%R).
    { replace ((2 * 1 + 1) / 3)%R with 1%R by field. unfold sinc. destruct Req_EM_T; [lra|]. rewrite Rmult_1_r, sin_PI. unfold Rdiv. ring. }
    assert (S2 : sinc ((2 * -1 + 1) / 3) = sinc (1 / 3)) by (rewrite <- sinc_even; f_equal; field).
    rewrite S0, S1, S2.
    assert (SP : (0 < sinc (1 / 3))%R). { unfold sinc. destruct Req_EM_T; [lra|]. pose proof PI_RGT_0. apply Rdiv_lt_0_compat; [apply sin_gt_0; lra|lra]. }
    set (q := sinc (1 / 3)) in *. clearbody q.
    assert (KC : forall k l, (k < 2)%nat -> (l < 2)%nat -> exists e, (e = 1 \/ e = -1)%R /\ cis (- (2 * PI) * ((INR k * -1 + INR l * 0) / INR 2%nat)) = RtoC e).
    { intros k' l' Hk' _. destruct k' as [|[|k']]; [exists 1%R|exists (-1)%R|lia].
      - split; [auto|]. replace (- (2 * PI) * ((INR 0%nat * -1 + INR l' * 0) / INR 2%nat))%R with 0%R by (cbn; field). apply cis_0.
      - split; [auto|]. replace (- (2 * PI) * ((INR 1%nat * -1 + INR l' * 0) / INR 2%nat))%R with PI by (cbn; field). unfold cis. rewrite cos_PI, sin_PI. reflexivity. }
    destruct (KC k l Hk Hl) as (e & He & Ee). 
    assert (Z0 : cis (- (2 * PI) * ((INR k * 0 + INR l * 0) / INR 2%nat)) = 1) by (replace (- (2 * PI) * ((INR k * 0 + INR l * 0) / INR 2%nat))%R with 0%R by (cbn; field); apply cis_0).
    rewrite Z0, Ee. unfold Im, Ci, Cconj, Cmult, Cplus, RtoC. cbn [fst snd]. intros Q. ring_simplify in Q. destruct He as [-> | ->]; nra.
  - intros o N M psi Q. unfold intensity_finite. destruct (Nat.eqb_spec (o_over o) 1%nat) as [E|E]; [|reflexivity]. cbn [negb]. destruct Q as [Q|Q]; [contradiction|]. destruct (o_sat o); [reflexivity|congruence].
Qed.
Print Assumptions C88_intensity_refuted.

(** Concrete: coefficients of a constant wavefield of three by three pixels, with its power. *)
Example C88_example : through 3%nat (fun m n => if (Nat.eqb m 1%nat && Nat.eqb n 1%nat)%bool then RtoC 2 else RtoC 0) (fun _ _ => RtoC 2) /\ energy 3%nat 3%nat (fun _ _ => RtoC 2) = 36%R.
Proof.
  split.
  - intros k l _ _. unfold field, csum, fsum. cbn [Nat.eqb andb]. change (3 / 2)%nat with 1%nat. rewrite !(Rminus_diag_eq (INR 1%nat) (INR 1%nat)) by reflexivity. match goal with |- context [RtoC 2 * cis ?x] => replace x with 0%R by (unfold Rdiv; ring) end. rewrite cis_0. ring.
  - unfold energy, rsum, fsum, nrm2, RtoC. cbn [fst snd]. ring.
Qed.
