(** Property theorems about standardize, remove_phase_ramp, remove_amplitude_exponent (C43) and
    make_illumination_map (C54). *)
From Verif Require Import Base FinSum Fourier Matrix Model_Prop Spec_Prop Model_Interact Model_Analysis Spec_Analysis Proofs_Prop Proofs_Ortho Proofs_Standard.
From Coquelicot Require Import Complex.
Local Open Scope C_scope.

(** C43: every mode's exit wave at every position changes only by a factor of modulus 1; *)
Theorem C43_standardize_exit_waves H W OH OW probe obj sl ramp k a b :
  (0 < H)%nat -> (0 < W)%nat -> (0 < power H W (probe 0%nat))%R ->
  let r := standardize H W OH OW probe obj sl ramp in
  exists c, unit_modulus c /\ forall i j, exit_wave (fst r k) (snd r) a b i j = c * exit_wave (probe k) obj a b i j.
Proof. intros PH PW P. apply standardize_exit. apply nrm_pos; auto. Qed.
Print Assumptions C43_standardize_exit_waves.
(** so that every far-field diffraction pattern is the same. *)
Theorem C43_standardize_patterns H W OH OW probe obj sl ramp k a b :
  (0 < H)%nat -> (0 < W)%nat -> (0 < power H W (probe 0%nat))%R ->
  let r := standardize H W OH OW probe obj sl ramp in
  forall i j, Cmod (far_field H W (exit_wave (fst r k) (snd r) a b) i j) = Cmod (far_field H W (exit_wave (probe k) obj a b) i j).
Proof.
  intros PH PW P r i j. destruct (C43_standardize_exit_waves H W OH OW probe obj sl ramp k a b PH PW P) as [c [U E]].
  rewrite (far_field_scal H W c (exit_wave (probe k) obj a b)) by (auto; intros; apply E). rewrite Cmod_mult, U. ring.
Qed.
Print Assumptions C43_standardize_patterns.
(** C43: the first probe mode gets mean intensity 1, all modes are divided by the same amplitude, *)
Theorem C43_standardize_intensity H W OH OW probe obj sl ramp :
  (0 < H)%nat -> (0 < W)%nat -> (0 < power H W (probe 0%nat))%R ->
  let r := standardize H W OH OW probe obj sl ramp in
  (power H W (fst r 0%nat) / INR (H * W) = 1)%R /\
  (forall k, power H W (fst r k) * power H W (probe 0%nat) = power H W (probe k) * power H W (fst r 0%nat))%R.
Proof.
  intros PH PW P. pose proof (nrm_pos H W probe PH PW P) as NP. split; [apply standardize_mean; auto|].
  intros k. rewrite !standardize_power by auto. field. lra.
Qed.
Print Assumptions C43_standardize_intensity.
(** and the sums over every probe mode and over the chosen slice of the object (by default 3/8 to 5/8) are
    real and non-negative. *)
Theorem C43_standardize_phases H W OH OW probe obj sl ramp :
  let r := standardize H W OH OW probe obj sl ramp in
  let '((r0, r1), (c0, c1)) := match sl with Some s => s | None => ((OH / 8 * 3, OH / 8 * 5), (OW / 8 * 3, OW / 8 * 5))%nat end in
  (forall k, positive_real (csum H (fun i => csum W (fun j => fst r k i j)))) /\
  positive_real (csum (r1 - r0) (fun i => csum (c1 - c0) (fun j => snd r (r0 + i)%nat (c0 + j)%nat))).
Proof.
  cbv zeta. destruct sl as [[[r0 r1] [c0 c1]]|].
  - split; [intros k; apply standardize_probe_phase|apply standardize_obj_phase].
  - rewrite standardize_default. split; [intros k; apply standardize_probe_phase|apply standardize_obj_phase].
Qed.
Print Assumptions C43_standardize_phases.
(** C43: correct_ramp centres the spectrum of the first mode on the zero frequency when it sits at a whole
    number of pixels and does not wrap around; *)
Theorem C43_ramp_centred_whole_pixels H W OH OW probe obj sl d0 d1 :
  (0 < H)%nat -> (0 < W)%nat -> (0 < power H W (probe 0%nat))%R -> integer_ramp H W (probe 0%nat) d0 d1 ->
  centred_spectrum H W (fst (standardize H W OH OW probe obj sl true) 0%nat).
Proof. apply standardize_centred. Qed.
Print Assumptions C43_ramp_centred_whole_pixels.

Lemma w2_1 : w 2 (-1) = - RtoC 1.
Proof. unfold w. change (INR 2) with 2%R. replace (2 * PI * -1 / 2)%R with (- PI)%R by field. unfold cis. rewrite cos_neg, sin_neg, cos_PI, sin_PI. apply C_ext; cbn; ring. Qed.
Lemma dft1 x : dft 1 x 0%nat = x 0%nat.
Proof. unfold dft, csum, fsum. cbn [Z.of_nat Z.mul Z.opp]. rewrite w_0 by lia. ring. Qed.
Lemma dft2_0 x : dft 2 x 0%nat = x 0%nat + x 1%nat.
Proof. unfold dft, csum, fsum. cbn [Z.of_nat Z.mul Z.opp]. rewrite w_0 by lia. ring. Qed.
Lemma dft2_1 x : dft 2 x 1%nat = x 0%nat - x 1%nat.
Proof. unfold dft, csum, fsum. cbn [Z.of_nat Z.mul Z.opp Pos.mul Pos.of_succ_nat]. rewrite w_0, w2_1 by lia. ring. Qed.
Lemma spec12 x : fftshift2 1 2 (fft2 1 2 x) 0%nat 0%nat = x 0%nat 0%nat - x 0%nat 1%nat /\ fftshift2 1 2 (fft2 1 2 x) 0%nat 1%nat = x 0%nat 0%nat + x 0%nat 1%nat.
Proof. unfold fftshift2, fft2. change (roll 1 (1 / 2) 0) with 0%nat. change (roll 2 (2 / 2) 0) with 1%nat. change (roll 2 (2 / 2) 1) with 0%nat. rewrite !dft1, dft2_0, dft2_1. auto. Qed.
(** the hypothesis is met by the 1 x 2 probe (1, -1), whose spectrum sits one pixel below the centre; *)
Example C43_ramp_case : integer_ramp 1 2 (fun _ j => if Nat.eqb j 0 then 1 else - RtoC 1) 0 (-1).
Proof.
  destruct (spec12 (fun _ j => if Nat.eqb j 0 then 1 else - RtoC 1)) as [A B]. cbn [Nat.eqb] in A, B. unfold integer_ramp, isum.
  split; [|split].
  - cbn [rsum fsum]. change (1 / 2)%nat with 0%nat. cbn [INR]. ring.
  - unfold rsum, fsum. rewrite A, B. change (2 / 2)%nat with 1%nat. unfold nrm2. cbn. ring.
  - intros i j Hi Hj NZ. assert (i = 0%nat) by lia. subst i. destruct j as [|[|j]]; [lia| |lia]. exfalso. apply NZ. rewrite B. apply C_ext; cbn; ring.
Qed.
(** but not in general: it is no fixed point for the 1 x 2 probe (1, 0). *)
Theorem C43_ramp_centred_refuted : exists H W OH OW probe obj sl,
  (0 < H)%nat /\ (0 < W)%nat /\ (0 < power H W (probe 0%nat))%R /\
  ~ centred_spectrum H W (fst (standardize H W OH OW probe obj sl true) 0%nat).
Proof.
  set (p := fun (_ : nat) (_ j : nat) => if Nat.eqb j 0 then RtoC 1 else RtoC 0).
  exists 1%nat, 2%nat, 8%nat, 8%nat, p, (fun _ _ => RtoC 1), None.
  assert (P : (0 < power 1 2 (p 0%nat))%R) by (unfold power, p, nrm2; cbn; lra).
  split; [lia|]. split; [lia|]. split; [exact P|]. intros [_ B].
  pose proof (nrm_pos 1 2 p ltac:(lia) ltac:(lia) P) as NP.
  destruct (standardize_form 1 2 8 8 p (fun _ _ => RtoC 1) None true) as [f [u [v [_ [V [_ E]]]]]].
  set (y := fst (standardize 1 2 8 8 p (fun _ _ => RtoC 1) None true) 0%nat) in *.
  assert (Y1 : y 0%nat 1%nat = RtoC 0). { unfold y. rewrite E. unfold p. cbn [Nat.eqb]. unfold Cdiv. ring. }
  assert (Y0 : y 0%nat 0%nat <> RtoC 0).
  { unfold y. rewrite E. unfold p. cbn [Nat.eqb]. intros Z. apply (f_equal Cmod) in Z. rewrite !Cmod_mult, Cmod_div in Z.
    2:{ intros Q. apply (f_equal fst) in Q. cbn in Q. unfold p in NP. cbn [Nat.eqb] in NP. lra. }
    rewrite (V 0%nat), (Cmod_nrm2 (Cconj _)), nrm2_conj, <- Cmod_nrm2, Cmod_ramp, !Cmod_R, Rabs_R0, Rabs_R1 in Z. rewrite Rabs_right in Z by (left; exact NP).
    assert (0 < / sqrt (mean2 1 2 (abs2 (p 0%nat))))%R by (apply Rinv_0_lt_compat; exact NP). unfold p in H. cbn [Nat.eqb] in H. lra. }
  destruct (spec12 y) as [S0 S1]. unfold isum, rsum, fsum in B. rewrite S0, S1, Y1 in B. change (2 / 2)%nat with 1%nat in B. cbn [INR] in B.
  replace (y 0%nat 0%nat - RtoC 0) with (y 0%nat 0%nat) in B by ring.
  assert (N : nrm2 (y 0%nat 0%nat) = 0%R) by lra. apply nrm2_0 in N. auto.
Qed.
Print Assumptions C43_ramp_centred_refuted.
(** C43: remove_phase_ramp, whatever the optimiser returned: one factor of modulus 1 per position. *)
Theorem C43_remove_phase_ramp f im probe a b : let '(im', probe') := remove_phase_ramp f im probe in
  exists c, unit_modulus c /\ forall k i j, exit_wave (probe' k) im' a b i j = c * exit_wave (probe k) im a b i j.
Proof. exists (phase_ramp f a b). split; [apply Cmod_ramp|]. intros. apply remove_phase_ramp_exit. Qed.
Print Assumptions C43_remove_phase_ramp.
(** C43: remove_amplitude_exponent, whatever the optimiser returned: with the weights included, the exit
    waves of all shots, modes and pixels change by one and the same positive factor, for shots at whole
    pixels of the object array (whose origin is c0, c1 pixels before the smallest translation). *)
Theorem C43_remove_amplitude_exponent g im probe weights pix (c0 c1 : R) :
  let '(im', probe', weights') := remove_amplitude_exponent g im probe weights pix in
  exists K : R, (0 < K)%R /\ forall s w0 t (a b : nat),
    nth_error weights s = Some w0 -> nth_error pix s = Some t ->
    INR a = (fst t - rmin (map fst pix) + c0)%R -> INR b = (snd t - rmin (map snd pix) + c1)%R ->
    exists w', nth_error weights' s = Some w' /\ forall k i j,
    RtoC w' * exit_wave (probe' k) im' a b i j = RtoC K * (RtoC w0 * exit_wave (probe k) im a b i j).
Proof.
  destruct (remove_amplitude_exponent g im probe weights pix) as [[im' probe'] weights'] eqn:E.
  exists (exp (- (fst g * c0 + snd g * c1))). split; [apply exp_pos|]. intros s w0 t a b Hw Ht Ha Hb.
  pose proof (fun k i j => amplitude_exit g im probe weights pix s k a b i j c0 c1 w0 t Hw Ht Ha Hb) as Q. rewrite E in Q.
  destruct (Q 0%nat 0%nat 0%nat) as [w' [N _]]. exists w'. split; auto. intros k i j. destruct (Q k i j) as [w'' [N' V]]. congruence.
Qed.
Print Assumptions C43_remove_amplitude_exponent.
(** a case of its hypotheses: three shots, the smallest translation at pixel (2, 2) *)
Example C43_amplitude_case : let pix := [(5, 7); (4, 9); (6, 7)]%R in
  INR 3 = (fst (5, 7) - rmin (map fst pix) + 2)%R /\ INR 2 = (snd (5, 7) - rmin (map snd pix) + 2)%R.
Proof. cbn. rewrite (Rmin_right 5 4), (Rmin_left 4 6), (Rmin_left 7 9), (Rmin_left 7 7) by lra. split; ring. Qed.

(** ---- C54: make_illumination_map ---- *)
(** Every pixel receives, from each shot whose window covers it, the probe intensity at the corresponding
    pixel of the window - rescaled to the requested total if one is given. *)
Theorem C54_map l H W probe total pos i j :
  let inten := fun a b => rsum l (fun k => nrm2 (probe k a b)) in
  let scale := match total with None => 1%R | Some t => (t / rsum H (fun a => rsum W (inten a)))%R end in
  make_illumination_map l H W probe total pos i j =
  lsum (map (fun ab => if (Nat.leb (fst ab) i && Nat.ltb i (fst ab + H) && Nat.leb (snd ab) j && Nat.ltb j (snd ab + W))%bool
                       then (inten (i - fst ab)%nat (j - snd ab)%nat * scale)%R else 0%R) pos).
Proof.
  intros inten scale. unfold make_illumination_map. rewrite illumination_map_at, Rplus_0_l. f_equal. apply map_ext. intros [a b]. cbn [fst snd].
  destruct (_ && _ && _ && _)%bool; auto. unfold illumination, scale.
  assert (E : forall a b, rsum l (fun k => (Cmod (probe k a b) ^ 2)%R) = inten a b) by (intros; apply rsum_ext; intros; symmetry; apply nrm2_Cmod).
  destruct total; rewrite E; [|ring].
  replace (isum H W (fun i0 j0 => rsum l (fun k => (Cmod (probe k i0 j0) ^ 2)%R))) with (rsum H (fun a => rsum W (inten a))).
  - unfold Rdiv. ring.
  - apply rsum_ext. intros. apply rsum_ext. intros. symmetry. apply E.
Qed.
Print Assumptions C54_map.
Lemma window_sum OH OW H W (p : nat -> nat -> R) a b : (a + H <= OH)%nat -> (b + W <= OW)%nat ->
  isum OH OW (fun i j => if (Nat.leb a i && Nat.ltb i (a + H) && Nat.leb b j && Nat.ltb j (b + W))%bool then p (i - a)%nat (j - b)%nat else 0%R) = isum H W p.
Proof.
  intros HA HB. unfold isum.
  assert (L : forall n m c (f : nat -> R), (c + m <= n)%nat -> rsum n (fun i => if (Nat.leb c i && Nat.ltb i (c + m))%bool then f (i - c)%nat else 0%R) = rsum m f).
  { intros n m c f B. replace n with (c + (m + (n - c - m)))%nat by lia. rewrite rsum_split, rsum_zero', Rplus_0_l.
    2:{ intros i Hi. replace (Nat.leb c i) with false by (symmetry; apply Nat.leb_gt; lia). reflexivity. }
    rewrite rsum_split. rewrite (rsum_zero' (n - c - m)), Rplus_0_r.
    2:{ intros i Hi. replace (Nat.ltb (c + (m + i)) (c + m)) with false by (symmetry; apply Nat.ltb_ge; lia). rewrite andb_false_r. reflexivity. }
    apply rsum_ext. intros i Hi. replace (Nat.leb c (c + i)) with true by (symmetry; apply Nat.leb_le; lia). replace (Nat.ltb (c + i) (c + m)) with true by (symmetry; apply Nat.ltb_lt; lia).
    cbn. f_equal. lia. }
  rewrite <- (L OH H a (fun i => rsum W (p i)) HA). apply rsum_ext. intros i _. destruct (Nat.leb a i && Nat.ltb i (a + H))%bool.
  - rewrite <- (L OW W b (p (i - a)%nat) HB). apply rsum_ext. intros j _. cbn [andb]. destruct (Nat.leb b j); reflexivity.
  - apply rsum_zero'. intros. reflexivity.
Qed.
(** Over the whole object the map adds up to the number of shots times the total intensity per shot. *)
Theorem C54_total l H W OH OW probe total pos :
  (forall ab, In ab pos -> (fst ab + H <= OH)%nat /\ (snd ab + W <= OW)%nat) ->
  (0 < total_power H W l probe)%R ->
  rsum OH (fun i => rsum OW (make_illumination_map l H W probe total pos i)) =
  (INR (length pos) * match total with None => total_power H W l probe | Some t => t end)%R.
Proof.
  intros B P. set (p := illumination l probe H W total).
  assert (PS : forall f, (forall i j, f i j = rsum l (fun k => (Cmod (probe k i j) ^ 2)%R)) -> isum H W f = total_power H W l probe).
  { intros f E. unfold total_power, power. rewrite (rsum_swap l H). apply rsum_ext. intros i _. rewrite (rsum_swap l W). apply rsum_ext. intros j _. rewrite E. apply rsum_ext. intros. symmetry. apply nrm2_Cmod. }
  assert (S : isum H W p = match total with None => total_power H W l probe | Some t => t end).
  { unfold p, illumination. destruct total as [t|]; [|apply PS; auto].
    rewrite (PS (fun i j => rsum l (fun k => (Cmod (probe k i j) ^ 2)%R))) by auto.
    rewrite (isum_ext H W _ (fun i j => t / total_power H W l probe * rsum l (fun k => Cmod (probe k i j) ^ 2))%R) by (intros; field; lra).
    rewrite isum_scal, PS by auto. field. lra. }
  change (isum OH OW (make_illumination_map l H W probe total pos) = (INR (length pos) * match total with None => total_power H W l probe | Some t => t end)%R).
  rewrite <- S. unfold make_illumination_map. fold p.
  rewrite (isum_ext OH OW _ (fun i j => lsum (map (fun ab => if (Nat.leb (fst ab) i && Nat.ltb i (fst ab + H) && Nat.leb (snd ab) j && Nat.ltb j (snd ab + W))%bool then p (i - fst ab)%nat (j - snd ab)%nat else 0%R) pos))).
  2:{ intros. rewrite illumination_map_at. ring. }
  clear S PS P. induction pos as [|ab r IH].
  - cbn [map lsum fold_right length INR]. rewrite Rmult_0_l. apply rsum_zero'. intros. apply rsum_zero'. auto.
  - cbn [map length]. rewrite S_INR, Rmult_plus_distr_r, Rmult_1_l, <- IH by (intros; apply B; right; auto).
    destruct (B ab (or_introl eq_refl)) as [B1 B2]. rewrite <- (window_sum OH OW H W p (fst ab) (snd ab)) by auto.
    rewrite Rplus_comm, <- isum_add. apply isum_ext. intros. reflexivity.
Qed.
Print Assumptions C54_total.
Example C54_case : (0 < total_power 2 2 1 (fun _ _ _ => RtoC 1))%R /\ forall ab, In ab [(0, 0); (1, 2)]%nat -> (fst ab + 2 <= 4)%nat /\ (snd ab + 2 <= 4)%nat.
Proof. split; [unfold total_power, power, nrm2; cbn; lra|]. intros ab [<-|[<-|[]]]; cbn; lia. Qed.
