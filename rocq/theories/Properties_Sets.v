(** C80: standardize_reconstruction_set and standardize_reconstruction_pair. *)
From Verif Require Import Base FinSum Fourier Matrix Model_Prop Spec_Prop Proofs_Prop Model_Meas Model_Interact Model_Geom Model_Image Spec_Image Proofs_Image Properties_Image
  Model_Shift Properties_Shift Model_Analysis Spec_Analysis Proofs_Ortho Proofs_Standard Proofs_Metrics Proofs_FRC Properties_Standard Properties_Metrics Model_Sets Spec_Sets Proofs_Sets.
From Coquelicot Require Import Complex.
From Coq Require Import FunctionalExtensionality.
Local Open Scope C_scope.

Lemma ramped_waves S win b r a0 b0 : exists c, unit_modulus c /\ forall k i j,
  exit_wave (snd (ramped S win b r) k) (fst (ramped S win b r)) a0 b0 i j = c * exit_wave (r_probe r k) (r_obj r) a0 b0 i j.
Proof.
  unfold ramped. destruct b.
  - exact (C43_remove_phase_ramp (ramp_freq S (r_H r) (r_W r) (r_obj r) win) (r_obj r) (r_probe r) a0 b0).
  - exists 1. split; [apply Cmod_1|]. intros. cbn [fst snd]. ring.
Qed.
Lemma prepared_waves S win b b' r H W a0 b0 : exists c, unit_modulus c /\ forall k i j,
  exit_wave (snd (ramped S win b r) k) (offset win b' H W (fst (ramped S win b r))) a0 b0 i j = c * exit_wave (r_probe r k) (r_obj r) a0 b0 i j.
Proof.
  destruct (ramped_waves S win b r a0 b0) as [c [U E]]. destruct (offset_factor win b' H W (fst (ramped S win b r))) as [d [V F]].
  exists (d * c). split; [unfold unit_modulus; rewrite Cmod_mult, U, V; ring|]. intros k i j. rewrite <- Cmult_assoc, <- E. unfold exit_wave. rewrite F. ring.
Qed.
Lemma shift_waves S win b b' r s x : tenths (fst s) -> tenths (snd s) ->
  x = shift_by (r_H r) (r_W r) s (offset win b' (r_H r) (r_W r) (fst (ramped S win b r))) ->
  same_after_shift (r_H r) (r_W r) (r_l r) (r_h r) (r_w r) (r_probe r) (snd (ramped S win b r)) (r_obj r) x.
Proof.
  intros T0 T1 ->. exists (fst s), (snd s). split; [exact T0|split; [exact T1|]]. intros a0 b0.
  destruct (prepared_waves S win b b' r (r_H r) (r_W r) a0 b0) as [c [U E]]. exists c. split; [exact U|]. intros k i j _ _ _ Hi Hj.
  rewrite <- E. unfold exit_wave. f_equal. apply shift_back; lia.
Qed.

(** C80: without the amplitude correction, a successful call returns the full reconstruction with the same exit
    waves up to a phase, and its weights; each half with the same exit waves once its object is moved back by the
    tenths of a pixel it was shifted by, and its weights; and the other inputs as they are. *)
Theorem C80_set_exit_waves : forall S h1 h2 full cpo cpr win nb lim r,
  (30 <= win_H (r_H full) win)%nat -> (30 <= win_W (r_W full) win)%nat ->
  standardize_reconstruction_set S h1 h2 full cpo cpr false win nb lim = Ok r ->
  same_exit_waves (r_H full) (r_W full) (r_l full) (r_h full) (r_w full) (r_probe full) (s_probe_full r) (r_obj full) (s_obj_full r) /\
  same_after_shift (r_H h1) (r_W h1) (r_l h1) (r_h h1) (r_w h1) (r_probe h1) (s_probe_half_1 r) (r_obj h1) (s_obj_half_1 r) /\
  same_after_shift (r_H h2) (r_W h2) (r_l h2) (r_h h2) (r_w h2) (r_probe h2) (s_probe_half_2 r) (r_obj h2) (s_obj_half_2 r) /\
  (s_weights_full r = r_weights full /\ s_weights_half_1 r = r_weights h1 /\ s_weights_half_2 r = r_weights h2) /\
  (s_translations_full r = r_translations full /\ s_translations_half_1 r = r_translations h1 /\ s_translations_half_2 r = r_translations h2) /\
  (s_background_full r = r_background full /\ s_background_1 r = r_background h1 /\ s_background_2 r = r_background h2) /\
  s_wavelength r = r_wavelength full /\ s_obj_basis r = r_obj_basis full /\ s_probe_basis r = r_probe_basis full.
Proof.
  intros S h1 h2 full cpo cpr win nb lim r Hh Hw. unfold standardize_reconstruction_set, decayed. cbn [rbind].
  destruct (shift_between _ _ (win_H (r_H h1) win) _ _ _) as [s1|] eqn:E1; [|discriminate]. cbn [rbind].
  destruct (shift_between _ _ (win_H (r_H h2) win) _ _ _) as [s2|] eqn:E2; [|discriminate].
  apply shift_between_inv in E1; [|exact Hh|exact Hw]. apply shift_between_inv in E2; [|exact Hh|exact Hw].
  destruct E1 as (_ & _ & T10 & T11). destruct E2 as (_ & _ & T20 & T21).
  cbn [rbind]. intros E. injection E as <-. cbn [s_probe_full s_obj_full s_probe_half_1 s_obj_half_1 s_probe_half_2 s_obj_half_2 s_weights_full s_weights_half_1 s_weights_half_2
    s_translations_full s_translations_half_1 s_translations_half_2 s_background_full s_background_1 s_background_2 s_wavelength s_obj_basis s_probe_basis].
  split; [|split; [|split; [|repeat split]]].
  - intros a b. destruct (prepared_waves S win cpr cpo full (r_H full) (r_W full) a b) as [c [U E]]. exists c. split; [exact U|]. intros. apply E.
  - now apply (shift_waves S win cpr cpo h1 s1).
  - now apply (shift_waves S win cpr cpo h2 s2).
Qed.
Print Assumptions C80_set_exit_waves.
(** C80: the sum of the full object over the window is then real and not negative. *)
Theorem C80_set_phase : forall S h1 h2 full cpr cae win nb lim r,
  standardize_reconstruction_set S h1 h2 full true cpr cae win nb lim = Ok r -> positive_real (window_total (r_H full) (r_W full) win (s_obj_full r)).
Proof.
  intros S h1 h2 full cpr cae win nb lim r. unfold standardize_reconstruction_set.
  destruct (decayed S win cae h1 _) as [[[o1 p1] w1]|]; [|discriminate]. cbn [rbind].
  destruct (decayed S win cae h2 _) as [[[o2 p2] w2]|]; [|discriminate]. cbn [rbind].
  destruct (decayed S win cae full _) as [[[o p] w]|]; [|discriminate]. cbn [rbind].
  destruct (shift_between _ _ (win_H (r_H h1) win) _ _ _) as [s1|]; [|discriminate]. cbn [rbind].
  destruct (shift_between _ _ (win_H (r_H h2) win) _ _ _) as [s2|]; [|discriminate]. cbn [rbind].
  intros E. injection E as <-. cbn [s_obj_full]. apply offset_total.
Qed.
Print Assumptions C80_set_phase.

Lemma ramped_phase S win b r c : unit_modulus c ->
  ramped S win b (with_obj r (scaled c (r_obj r))) = (scaled c (fst (ramped S win b r)), snd (ramped S win b r)).
Proof.
  intros U. unfold ramped. cbn [with_obj r_H r_W r_obj r_probe]. destruct b; [|reflexivity]. unfold ramp_freq.
  change (cut (r_H r) (r_W r) win (scaled c (r_obj r))) with (fun i j => c * cut (r_H r) (r_W r) win (r_obj r) i j). rewrite zero_freq_phase by exact U.
  unfold remove_phase_ramp, scaled. cbn [fst snd]. f_equal. apply functional_extensionality. intros i. apply functional_extensionality. intros j. ring.
Qed.
(** C80: global phases of the three objects do not change any result, when the sums over the window do not vanish
    and the optimiser does not return a worse point than it starts from. *)
Theorem C80_set_global_phase : forall S h1 h2 full cpr win nb lim c1 c2 c, scipy_improves S ->
  unit_modulus c1 -> unit_modulus c2 -> unit_modulus c ->
  window_total (r_H h1) (r_W h1) win (r_obj h1) <> 0 -> window_total (r_H h2) (r_W h2) win (r_obj h2) <> 0 -> window_total (r_H full) (r_W full) win (r_obj full) <> 0 ->
  standardize_reconstruction_set S (with_obj h1 (scaled c1 (r_obj h1))) (with_obj h2 (scaled c2 (r_obj h2))) (with_obj full (scaled c (r_obj full))) true cpr false win nb lim =
  standardize_reconstruction_set S h1 h2 full true cpr false win nb lim.
Proof.
  intros S h1 h2 full cpr win nb lim c1 c2 c I U1 U2 U N1 N2 N. unfold standardize_reconstruction_set, decayed. rewrite !ramped_phase by assumption. cbn [rbind fst snd].
  cbn [with_obj r_H r_W r_l r_h r_w r_weights r_translations r_background r_wavelength r_obj_basis r_probe_basis r_basis]. unfold scaled.
  rewrite !offset_phase by (try assumption; apply ramped_total; assumption). reflexivity.
Qed.
Print Assumptions C80_set_global_phase.
Lemma full_spectrum_rolled N M x a b : (0 < N)%nat -> (0 < M)%nat -> full_spectrum N M x -> full_spectrum N M (rolled N M x a b).
Proof.
  intros HN HM F k l Hk Hl. rewrite fft2_rolled by assumption. intros Z. apply (f_equal Cmod) in Z. rewrite !Cmod_mult, Cmod_0 in Z.
  assert (M1 : forall n z, Cmod (w n z) = 1%R) by (intros; unfold w; apply Cmod_cis). rewrite !M1 in Z.
  apply (F k l Hk Hl). apply Cmod_eq_0. lra.
Qed.
Lemma prepared_same S win cpr r full c : scipy_improves S -> unit_modulus c -> r_H r = r_H full -> r_W r = r_W full ->
  same (r_H full) (r_W full) (r_obj r) (scaled c (r_obj full)) -> window_total (r_H full) (r_W full) win (r_obj full) <> 0 ->
  same (r_H full) (r_W full) (offset win true (r_H full) (r_W full) (fst (ramped S win cpr r))) (offset win true (r_H full) (r_W full) (fst (ramped S win cpr full))).
Proof.
  intros I U EH EW E NZ. rewrite <- (offset_phase win (r_H full) (r_W full) c (fst (ramped S win cpr full)) U) by (now apply ramped_total).
  apply offset_same. intros i j Hi Hj. unfold ramped. destruct cpr; [|exact (E i j Hi Hj)]. unfold remove_phase_ramp. cbn [fst]. rewrite (E i j Hi Hj). unfold scaled.
  assert (RF : ramp_freq S (r_H r) (r_W r) (r_obj r) win = ramp_freq S (r_H full) (r_W full) (r_obj full) win).
  { unfold ramp_freq. rewrite EH, EW. f_equal. rewrite <- (zero_freq_phase _ _ c (cut (r_H full) (r_W full) win (r_obj full)) U). apply zero_freq_same.
    intros a b Ha Hb. exact (cut_same _ _ win _ _ E a b Ha Hb). }
  rewrite RF. ring.
Qed.
Lemma ramped_mod S win b r i j : Cmod (fst (ramped S win b r) i j) = Cmod (r_obj r i j).
Proof. unfold ramped. destruct b; [|reflexivity]. unfold remove_phase_ramp. cbn [fst]. rewrite Cmod_mult, phase_ramp_unit. ring. Qed.
Lemma prepared_mod S win b b' r H W i j : Cmod (offset win b' H W (fst (ramped S win b r)) i j) = Cmod (r_obj r i j).
Proof. destruct (offset_factor win b' H W (fst (ramped S win b r))) as [d [V F]]. rewrite F, Cmod_mult, V, ramped_mod. ring. Qed.
Lemma hann_abs_prepared S win b b' r H W h w : hann_abs h w (cut H W win (offset win b' H W (fst (ramped S win b r)))) = hann_abs h w (cut H W win (r_obj r)).
Proof.
  apply functional_extensionality. intros i. apply functional_extensionality. intros j. unfold hann_abs, hann_window, cut. do 2 f_equal. apply prepared_mod.
Qed.
Lemma hann_abs_same h w x y : same h w x y -> same h w (hann_abs h w x) (hann_abs h w y).
Proof. intros E i j Hi Hj. unfold hann_abs, hann_window. now rewrite (E i j Hi Hj). Qed.
Lemma hann_c_same h w x y : same h w x y -> same h w (hann_c h w x) (hann_c h w y).
Proof. intros E i j Hi Hj. unfold hann_c. now rewrite (E i j Hi Hj). Qed.
Lemma win_pos n s : (0 < snd (slice_of n s))%nat -> (0 < n)%nat.
Proof. intros H. pose proof (slice_lt n s 0 H). lia. Qed.

(** C80: three reconstructions of the same object, each with its own global phase: the call succeeds, the three
    returned objects are equal, and the Fourier ring correlation is 1 in every ring with signal. *)
Theorem C80_set_identical : forall S h1 h2 full cpr win nb lim c1 c2, scipy_improves S -> unit_modulus c1 -> unit_modulus c2 ->
  let H := r_H full in let W := r_W full in let h := win_H H win in let w := win_W W win in
  r_H h1 = H -> r_W h1 = W -> same H W (r_obj h1) (scaled c1 (r_obj full)) ->
  r_H h2 = H -> r_W h2 = W -> same H W (r_obj h2) (scaled c2 (r_obj full)) ->
  (30 <= h)%nat -> (30 <= w)%nat -> window_total H W win (r_obj full) <> 0 -> full_spectrum h w (hann_abs h w (cut H W win (r_obj full))) ->
  exists r, standardize_reconstruction_set S h1 h2 full true cpr false win nb lim = Ok r /\
  same H W (s_obj_half_1 r) (s_obj_full r) /\ same H W (s_obj_half_2 r) (s_obj_full r) /\
  forall b, (0 < power h w (masked (frc_bin h w nb (length3 (fst (r_obj_basis full))) (length3 (snd (r_obj_basis full))) lim b) (spectrum h w (hann_c h w (cut H W win (s_obj_full r))))))%R ->
  s_frc r b = 1.
Proof.
  intros S h1 h2 full cpr win nb lim c1 c2 I U1 U2 H W h w H1 W1 E1 H2 W2 E2 Hh Hw NZ FS.
  pose proof (prepared_same S win cpr h1 full c1 I U1 H1 W1 E1 NZ) as P1. pose proof (prepared_same S win cpr h2 full c2 I U2 H2 W2 E2 NZ) as P2.
  assert (PH : (0 < H)%nat) by (apply (win_pos H (fst win)); change (0 < h)%nat; lia). assert (PW : (0 < W)%nat) by (apply (win_pos W (snd win)); change (0 < w)%nat; lia).
  unfold standardize_reconstruction_set, decayed. cbn [rbind]. rewrite H1, W1, H2, W2. fold H W. fold H W in P1, P2. fold h w.
  set (o := offset win true H W (fst (ramped S win cpr full))) in *.
  set (o1 := offset win true H W (fst (ramped S win cpr h1))) in *. set (o2 := offset win true H W (fst (ramped S win cpr h2))) in *.
  assert (SH : forall x, same H W x o -> shift_between h w h w (hann_abs h w (cut H W win o)) (hann_abs h w (cut H W win x)) = Ok (0, 0)%R).
  { intros x E. unfold shift_between. rewrite !Nat.eqb_refl. cbn [andb].
    assert (HO : hann_abs h w (cut H W win o) = hann_abs h w (cut H W win (r_obj full))) by (unfold o; apply hann_abs_prepared).
    rewrite (find_shift_ext h w _ _ (hann_abs h w (cut H W win (r_obj full))) (hann_abs h w (cut H W win (r_obj full))) 10).
    - apply find_shift_self; [exact Hh|exact Hw|lia|exact FS].
    - rewrite HO. intros i j _ _. reflexivity.
    - rewrite <- HO. apply hann_abs_same. apply (cut_same H W win). exact E. }
  rewrite (SH o1 P1). cbn [rbind]. rewrite (SH o2 P2). cbn [rbind]. eexists. split; [reflexivity|].
  cbn [s_obj_half_1 s_obj_half_2 s_obj_full s_frc].
  assert (Q1 : same H W (shift_by H W (0, 0)%R o1) o) by (intros i j Hi Hj; rewrite (shift_by_0 H W o1 PH PW i j Hi Hj); now apply P1).
  assert (Q2 : same H W (shift_by H W (0, 0)%R o2) o) by (intros i j Hi Hj; rewrite (shift_by_0 H W o2 PH PW i j Hi Hj); now apply P2).
  split; [exact Q1|]. split; [exact Q2|]. intros b PB.
  rewrite (calc_frc_same h w nb _ _ (hann_c h w (cut H W win o)) (hann_c h w (cut H W win o))).
  - apply calc_frc_self. exact PB.
  - apply hann_c_same. apply (cut_same H W win). exact Q1.
  - apply hann_c_same. apply (cut_same H W win). exact Q2.
Qed.
Print Assumptions C80_set_identical.

(** C80: if the apodized modulus of the first half's window is that of the full reconstruction, rolled by whole
    pixels and rescaled, the first half's object is rolled back by that (modulo the window). *)
Theorem C80_set_alignment : forall S h1 h2 full cpo cpr win nb lim r e a b,
  let h := win_H (r_H full) win in let w := win_W (r_W full) win in let x := hann_abs h w (cut (r_H full) (r_W full) win (r_obj full)) in
  (30 <= h)%nat -> (30 <= w)%nat -> full_spectrum h w x -> (0 < e)%R ->
  same h w (hann_abs h w (cut (r_H h1) (r_W h1) win (r_obj h1))) (scaled (RtoC e) (rolled h w x a b)) ->
  standardize_reconstruction_set S h1 h2 full cpo cpr false win nb lim = Ok r ->
  exists u v : Z, (u mod Z.of_nat h = (- a) mod Z.of_nat h)%Z /\ (v mod Z.of_nat w = (- b) mod Z.of_nat w)%Z /\
  forall i j, (i < r_H h1)%nat -> (j < r_W h1)%nat -> Cmod (s_obj_half_1 r i j) = Cmod (rolled (r_H h1) (r_W h1) (r_obj h1) u v i j).
Proof.
  intros S h1 h2 full cpo cpr win nb lim r e a b h w x Hh Hw FS He E. unfold standardize_reconstruction_set, decayed. cbn [rbind]. fold h w.
  destruct (shift_between _ _ (win_H (r_H h1) win) _ _ _) as [s1|] eqn:E1; [|discriminate]. cbn [rbind].
  destruct (shift_between _ _ (win_H (r_H h2) win) _ _ _) as [s2|] eqn:E2; [|discriminate]. cbn [rbind]. clear E2.
  intros X. injection X as <-. cbn [s_obj_half_1]. pose proof (shift_between_inv _ _ _ _ _ _ _ Hh Hw E1) as (EH & EW & _).
  rewrite EH, EW in E1. unfold shift_between in E1. rewrite !Nat.eqb_refl in E1. cbn [andb] in E1. rewrite !hann_abs_prepared in E1. fold x in E1.
  assert (RX : full_spectrum h w (rolled h w x a b)) by (apply full_spectrum_rolled; [lia|lia|exact FS]).
  rewrite (find_shift_ext h w x _ x (fun i j => RtoC e * rolled h w x a b i j) 10 (fun i j _ _ => eq_refl) E) in E1.
  rewrite find_shift_scale in E1; [|intros Z; apply RtoC_inj in Z; lra|exact FS|exact RX].
  destruct (C72_find_shift h w x a b 10 Hh Hw ltac:(lia) FS) as (u & v & F & MU & MV & _). rewrite F in E1. injection E1 as <-.
  exists u, v. split; [exact MU|split; [exact MV|]]. intros i j Hi Hj. unfold shift_by. cbn [fst snd].
  rewrite (C29_integer (r_H h1) (r_W h1) _ u v ltac:(lia) ltac:(lia) i j Hi Hj). unfold rolled. apply prepared_mod.
Qed.
Print Assumptions C80_set_alignment.
(** C80: the Fourier ring correlation is that of the apodized windows of the two returned halves, its modulus is at
    most 1; the ssnr is not negative, and it is twice the ratio of signal to noise power S/N when the correlation is
    S/(S+N); rings are numbered by their lower edges, and in a non-empty one the threshold lies in (0, 1]. *)
Theorem C80_set_frc : forall S h1 h2 full cpo cpr cae win nb lim r,
  standardize_reconstruction_set S h1 h2 full cpo cpr cae win nb lim = Ok r ->
  let h := win_H (r_H full) win in let w := win_W (r_W full) win in
  let di := length3 (fst (r_obj_basis full)) in let dj := length3 (snd (r_obj_basis full)) in
  (forall b, s_frc r b = calc_frc h w nb (hann_c h w (cut (r_H h1) (r_W h1) win (s_obj_half_1 r))) (hann_c h w (cut (r_H h2) (r_W h2) win (s_obj_half_2 r))) di dj lim b) /\
  (forall b, (Cmod (s_frc r b) <= 1)%R) /\
  (forall b, (Cmod (s_frc r b) < 1 -> 0 <= s_ssnr r b)%R) /\
  (forall b sig noise, (0 <= sig)%R -> (0 < noise)%R -> Cmod (s_frc r b) = (sig / (sig + noise))%R -> s_ssnr r b = (2 * (sig / noise))%R) /\
  (forall b, (0 < frc_range h w di dj lim)%R -> s_frc_freqs r b = (INR b * frc_range h w di dj lim / INR nb)%R) /\
  (forall b i j, (i < h)%nat -> (j < w)%nat -> frc_bin h w nb di dj lim b i j = true -> (0 < s_frc_threshold r b <= 1)%R).
Proof.
  intros S h1 h2 full cpo cpr cae win nb lim r. unfold standardize_reconstruction_set.
  destruct (decayed S win cae h1 _) as [[[o1 p1] w1]|]; [|discriminate]. cbn [rbind].
  destruct (decayed S win cae h2 _) as [[[o2 p2] w2]|]; [|discriminate]. cbn [rbind].
  destruct (decayed S win cae full _) as [[[o p] w0]|]; [|discriminate]. cbn [rbind].
  destruct (shift_between _ _ (win_H (r_H h1) win) _ _ _) as [s1|]; [|discriminate]. cbn [rbind].
  destruct (shift_between _ _ (win_H (r_H h2) win) _ _ _) as [s2|]; [|discriminate]. cbn [rbind].
  intros E. set (h := win_H (r_H full) win). set (w := win_W (r_W full) win). set (di := length3 (fst (r_obj_basis full))). set (dj := length3 (snd (r_obj_basis full))). injection E as <-. cbn [s_frc s_obj_half_1 s_obj_half_2 s_ssnr s_frc_freqs s_frc_threshold]. fold h w di dj.
  assert (B : forall b, (Cmod (calc_frc h w nb (hann_c h w (cut (r_H h1) (r_W h1) win (shift_by (r_H h1) (r_W h1) s1 (offset win cpo (r_H h1) (r_W h1) o1))))
    (hann_c h w (cut (r_H h2) (r_W h2) win (shift_by (r_H h2) (r_W h2) s2 (offset win cpo (r_H h2) (r_W h2) o2)))) di dj lim b) <= 1)%R) by (intros; apply C44_frc_bound).
  split; [reflexivity|]. split; [exact B|]. split; [|split; [|split]].
  - intros b L. pose proof (Cmod_ge_0 (calc_frc h w nb (hann_c h w (cut (r_H h1) (r_W h1) win (shift_by (r_H h1) (r_W h1) s1 (offset win cpo (r_H h1) (r_W h1) o1))))
    (hann_c h w (cut (r_H h2) (r_W h2) win (shift_by (r_H h2) (r_W h2) s2 (offset win cpo (r_H h2) (r_W h2) o2)))) di dj lim b)) as G.
    apply Rmult_le_pos; [lra|]. apply Rlt_le, Rinv_0_lt_compat. lra.
  - intros b sig noise HS HN EF. rewrite EF. field. split; lra.
  - intros b TP. unfold edge. destruct (Req_EM_T _ 0) as [Z|_]; [lra|reflexivity].
  - intros b i j Hi Hj IB. apply C44_frc_threshold; [lra|]. rewrite C44_frc_count. replace 1%R with (INR 1) by reflexivity. apply le_INR.
    assert (IN : In (i, j) (filter (fun p0 => frc_bin h w nb di dj lim b (fst p0) (snd p0)) (list_prod (seq 0 h) (seq 0 w)))).
    { apply filter_In. split; [apply in_prod; apply in_seq; lia|exact IB]. }
    destruct (filter _ _); [destruct IN|cbn; lia].
Qed.
Print Assumptions C80_set_frc.
(** C80 is refuted for objects of different shapes (the default window is the whole object), ... *)
Theorem C80_set_shapes_refuted : forall S h1 h2 full cpo cpr nb lim, (r_H h1 <> r_H full \/ r_W h1 <> r_W full) ->
  standardize_reconstruction_set S h1 h2 full cpo cpr false (None, None) nb lim = Raise RuntimeError.
Proof.
  intros S h1 h2 full cpo cpr nb lim D. unfold standardize_reconstruction_set, decayed, shift_between. cbn [rbind win_H win_W slice_of fst snd].
  replace (Nat.eqb (r_H full) (r_H h1) && Nat.eqb (r_W full) (r_W h1))%bool with false; [reflexivity|]. symmetry. apply andb_false_iff.
  destruct D as [D|D]; [left|right]; apply Nat.eqb_neq; congruence.
Qed.
Print Assumptions C80_set_shapes_refuted.
(** ... for windows with a side of 2 to 29 pixels, ... *)
Theorem C80_set_small_refuted : forall S h1 h2 full cpo cpr win nb lim, (2 <= win_H (r_H full) win < 30 \/ 2 <= win_W (r_W full) win < 30)%nat ->
  standardize_reconstruction_set S h1 h2 full cpo cpr false win nb lim = Raise RuntimeError.
Proof.
  intros S h1 h2 full cpo cpr win nb lim D. unfold standardize_reconstruction_set, decayed. cbn [rbind].
  destruct (shift_between _ _ (win_H (r_H h1) win) _ _ _) as [s1|e1] eqn:E1.
  - exfalso. unfold shift_between in E1. rewrite (proj2 (C72_small_refuted _ _ _ _ (0, 0)%Z 10 ltac:(lia) D)) in E1. now destruct (_ && _)%bool in E1.
  - unfold shift_between in E1. rewrite (proj2 (C72_small_refuted _ _ _ _ (0, 0)%Z 10 ltac:(lia) D)) in E1. destruct (_ && _)%bool in E1; injection E1 as <-; reflexivity.
Qed.
Print Assumptions C80_set_small_refuted.
(** ... and with correct_amplitude_exponent, which asks saved results for a key they do not have: a KeyError. *)
Theorem C80_set_amplitude_refuted : forall S h1 h2 full cpo cpr win nb lim, r_basis h1 = None ->
  standardize_reconstruction_set S h1 h2 full cpo cpr true win nb lim = Raise KeyError.
Proof. intros S h1 h2 full cpo cpr win nb lim E. unfold standardize_reconstruction_set, decayed. rewrite E. reflexivity. Qed.
Print Assumptions C80_set_amplitude_refuted.
(** C80: with that key added, the amplitude correction keeps the weighted exit waves of the full reconstruction up to
    one positive factor and a phase per shot, for shots at whole pixels of the object array. *)
Theorem C80_set_amplitude : forall S h1 h2 full cpo cpr win nb lim r basis (c0 c1 : R), r_basis full = Some basis ->
  standardize_reconstruction_set S h1 h2 full cpo cpr true win nb lim = Ok r ->
  let pix := map (translations_to_pixel (fst basis) (snd basis) (0, 0, 1)%R) (r_translations full) in
  exists K : R, (0 < K)%R /\ forall s w0 t (a b : nat),
    nth_error (r_weights full) s = Some w0 -> nth_error pix s = Some t ->
    INR a = (fst t - rmin (map fst pix) + c0)%R -> INR b = (snd t - rmin (map snd pix) + c1)%R ->
    exists w' c, nth_error (s_weights_full r) s = Some w' /\ unit_modulus c /\ forall k i j,
    RtoC w' * exit_wave (s_probe_full r k) (s_obj_full r) a b i j = RtoC K * c * (RtoC w0 * exit_wave (r_probe full k) (r_obj full) a b i j).
Proof.
  intros S h1 h2 full cpo cpr win nb lim r basis c0 c1 EB. unfold standardize_reconstruction_set.
  destruct (decayed S win true h1 _) as [[[o1 p1] w1]|]; [|discriminate]. cbn [rbind].
  destruct (decayed S win true h2 _) as [[[o2 p2] w2]|]; [|discriminate]. cbn [rbind].
  unfold decayed. rewrite EB. cbn [rbind].
  set (g := growth_rate S (r_H full) (r_W full) (fst (ramped S win cpr full)) win).
  pose proof (C43_remove_amplitude_exponent g (fst (ramped S win cpr full)) (snd (ramped S win cpr full)) (r_weights full) (pix_translations basis (r_translations full)) c0 c1) as A.
  destruct (remove_amplitude_exponent g _ _ _ _) as [[o p] w0'].
  destruct (shift_between _ _ (win_H (r_H h1) win) _ _ _) as [s1|]; [|discriminate]. cbn [rbind].
  destruct (shift_between _ _ (win_H (r_H h2) win) _ _ _) as [s2|]; [|discriminate]. cbn [rbind].
  intros E. injection E as <-. cbn [s_weights_full s_probe_full s_obj_full]. destruct A as [K [PK A]]. exists K. split; [exact PK|].
  intros s w0 t a b EW ET EA EBB. destruct (A s w0 t a b EW ET EA EBB) as [w' [EW' Q]].
  destruct (ramped_waves S win cpr full a b) as [c [U F]]. destruct (offset_factor win cpo (r_H full) (r_W full) o) as [d [V G]].
  exists w', (d * c). split; [exact EW'|]. split; [unfold unit_modulus; rewrite Cmod_mult, U, V; ring|]. intros k i j.
  assert (X : exit_wave (p k) (offset win cpo (r_H full) (r_W full) o) a b i j = d * exit_wave (p k) o a b i j) by (unfold exit_wave; rewrite G; ring).
  rewrite X. replace (RtoC w' * (d * exit_wave (p k) o a b i j)) with (d * (RtoC w' * exit_wave (p k) o a b i j)) by ring. rewrite Q, F. ring.
Qed.
Print Assumptions C80_set_amplitude.

(** A set of saved results: an object of n x n pixels, one constant probe mode. *)
Definition saved (n : nat) (obj : img) (l : nat) (probe : nat -> img) : recon :=
  {| r_H := n; r_W := n; r_obj := obj; r_l := l; r_h := n; r_w := n; r_probe := probe; r_weights := [1%R]; r_translations := [(0, 0, 0)%R];
     r_background := fun _ _ => 0%R; r_wavelength := 1; r_obj_basis := ((0, -1, 0), (-1, 0, 0))%R; r_probe_basis := ((0, -1, 0), (-1, 0, 0))%R; r_basis := None |}.
Definition pixel (a b : nat) : img := fun i j => (if Nat.eqb i a then 1 else 0) * (if Nat.eqb j b then 1 else 0).
Lemma pixel_spectrum n a b c : (a < n)%nat -> (b < n)%nat -> c <> 0 -> full_spectrum n n (fun i j => c * pixel a b i j).
Proof.
  intros Ha Hb Hc k l Hk Hl. rewrite fft2_scal. unfold pixel. rewrite fft2_prod, !dft_lone by lia. apply Cmult_neq_0; [exact Hc|].
  intros Z. apply (f_equal nrm2) in Z. rewrite nrm2_mult, !w_nrm2, nrm2_RtoC in Z. lra.
Qed.
Lemma Cmod_pixel a b i j : RtoC (Cmod (pixel a b i j)) = pixel a b i j.
Proof. unfold pixel. destruct (Nat.eqb i a), (Nat.eqb j b); rewrite ?Cmult_0_l, ?Cmult_0_r, ?Cmult_1_l, ?Cmod_0, ?Cmod_1; reflexivity. Qed.
Lemma hann_pixel h w a b i j : hann_abs h w (pixel a b) i j = RtoC (hann h w a b) * pixel a b i j.
Proof.
  unfold hann_abs, hann_window. rewrite RtoC_mult, Cmod_pixel. unfold pixel. destruct (Nat.eqb_spec i a) as [->|]; [|ring]. destruct (Nat.eqb_spec j b) as [->|]; ring.
Qed.
Lemma hann_inside h w a b : (0 < a < w - 1)%nat -> (0 < b < h - 1)%nat -> (0 < hann h w a b)%R.
Proof.
  intros Ha Hb. assert (X : forall n c, (0 < c < n - 1)%nat -> (0 < sin (PI * INR c / (INR n - 1)))%R).
  { intros n c Hc. assert (C0 : (0 < INR c)%R) by (apply lt_0_INR; lia). assert (CN : (INR c < INR n - 1)%R).
    { replace (INR n - 1)%R with (INR (n - 1)) by (rewrite minus_INR by lia; reflexivity). apply lt_INR. lia. }
    pose proof PI_RGT_0 as P. apply sin_gt_0.
    - apply Rdiv_lt_0_compat; [apply Rmult_lt_0_compat|]; lra.
    - apply (Rmult_lt_reg_r (INR n - 1)); [lra|]. unfold Rdiv. rewrite Rmult_assoc, Rinv_l by lra. nra. }
  unfold hann. pose proof (X w a Ha). pose proof (X h b Hb). apply Rmult_lt_0_compat; apply pow_lt; assumption.
Qed.
Lemma pixel_rolled n a b u v i j : (a < n)%nat -> (b < n)%nat -> (i < n)%nat -> (j < n)%nat ->
  rolled n n (pixel a b) u v i j = pixel (circ n (Z.of_nat a + u)) (circ n (Z.of_nat b + v)) i j.
Proof.
  intros Ha Hb Hi Hj. unfold rolled, pixel.
  assert (X : forall c i z, (c < n)%nat -> (i < n)%nat -> Nat.eqb (circ n (Z.of_nat i - z)) c = Nat.eqb i (circ n (Z.of_nat c + z))).
  { intros c i' z Hc Hi'. unfold circ. apply eq_true_iff_eq. rewrite !Nat.eqb_eq. split; intros E.
    - rewrite <- E. rewrite Z2Nat.id by (apply Z.mod_pos_bound; lia). rewrite Zplus_mod_idemp_l. replace (Z.of_nat i' - z + z)%Z with (Z.of_nat i') by lia. rewrite Z.mod_small by lia. now rewrite Nat2Z.id.
    - rewrite E. rewrite Z2Nat.id by (apply Z.mod_pos_bound; lia). rewrite Zminus_mod_idemp_l. replace (Z.of_nat c + z - z)%Z with (Z.of_nat c) by lia. rewrite Z.mod_small by lia. now rewrite Nat2Z.id. }
  now rewrite !X.
Qed.
(** C80 is refuted for the halves: an object is shifted, its probe and translations are not, so that the returned half
    no longer describes the measurement: lone pixels two pixels apart. *)
Theorem C80_set_halves_refuted : exists h1 h2 full, forall S, exists r,
  standardize_reconstruction_set S h1 h2 full false false false (None, None) 50 Side = Ok r /\
  ~ same_exit_waves (r_H h1) (r_W h1) (r_l h1) (r_h h1) (r_w h1) (r_probe h1) (s_probe_half_1 r) (r_obj h1) (s_obj_half_1 r).
Proof.
  exists (saved 30 (pixel 12 10) 1 (fun _ _ _ => 1)), (saved 30 (pixel 10 10) 1 (fun _ _ _ => 1)), (saved 30 (pixel 10 10) 1 (fun _ _ _ => 1)). intros S.
  set (h1 := saved 30 (pixel 12 10) 1 (fun _ _ _ => 1)). set (f := saved 30 (pixel 10 10) 1 (fun _ _ _ => 1)).
  destruct (standardize_reconstruction_set S h1 f f false false false (None, None) 50 Side) as [r|e] eqn:E.
  2:{ exfalso. unfold standardize_reconstruction_set, decayed in E. cbn [rbind] in E.
      destruct (shift_between_ok 30 30 (hann_abs 30 30 (cut 30 30 (None, None) (pixel 10 10))) (hann_abs 30 30 (cut 30 30 (None, None) (pixel 12 10))) ltac:(lia) ltac:(lia)) as (s1 & E1 & _).
      destruct (shift_between_ok 30 30 (hann_abs 30 30 (cut 30 30 (None, None) (pixel 10 10))) (hann_abs 30 30 (cut 30 30 (None, None) (pixel 10 10))) ltac:(lia) ltac:(lia)) as (s2 & E2 & _).
      unfold offset, ramped in E. cbn [fst snd h1 f saved r_H r_W r_obj] in E. change (win_H 30 (None, None)) with 30%nat in E. change (win_W 30 (None, None)) with 30%nat in E.
      rewrite E1 in E. cbn [rbind] in E. rewrite E2 in E. cbn [rbind] in E. discriminate E. }
  exists r. split; [reflexivity|]. intros SE.
  assert (P10 : (0 < hann 30 30 10 10)%R) by (apply hann_inside; lia). assert (P12 : (0 < hann 30 30 12 10)%R) by (apply hann_inside; lia).
  destruct (C80_set_alignment S h1 f f false false (None, None) 50 Side r (hann 30 30 12 10 / hann 30 30 10 10) 2 0) as (u & v & MU & MV & Q).
  - cbn. lia.
  - cbn. lia.
  - change (full_spectrum 30 30 (hann_abs 30 30 (pixel 10 10))). intros k l Hk Hl.
    rewrite (fft2_ext 30 30 _ (fun i j => RtoC (hann 30 30 10 10) * pixel 10 10 i j) k l) by (intros i j _ _; apply hann_pixel).
    apply (pixel_spectrum 30 10 10 (RtoC (hann 30 30 10 10))); try lia. intros Z. apply RtoC_inj in Z. lra.
  - apply Rdiv_lt_0_compat; assumption.
  - change (same 30 30 (hann_abs 30 30 (pixel 12 10)) (scaled (RtoC (hann 30 30 12 10 / hann 30 30 10 10)) (rolled 30 30 (hann_abs 30 30 (pixel 10 10)) 2 0))).
    intros i j Hi Hj. rewrite hann_pixel. unfold scaled.
    assert (RR : rolled 30 30 (hann_abs 30 30 (pixel 10 10)) 2 0 i j = RtoC (hann 30 30 10 10) * rolled 30 30 (pixel 10 10) 2 0 i j) by (unfold rolled; apply hann_pixel).
    rewrite RR, pixel_rolled by lia. change (circ 30 (Z.of_nat 10 + 2)) with 12%nat. change (circ 30 (Z.of_nat 10 + 0)) with 10%nat.
    rewrite Cmult_assoc, <- RtoC_mult. do 2 f_equal. field. lra.
  - exact E.
  - change (win_H (r_H f) (None, None)) with 30%nat in MU. change (- (2))%Z with (-2)%Z in MU.
    destruct (SE 0%nat 0%nat) as [c [U X]]. specialize (X 0%nat 12%nat 10%nat ltac:(cbn; lia) ltac:(cbn; lia) ltac:(cbn; lia) ltac:(cbn; lia) ltac:(cbn; lia)).
    specialize (Q 12%nat 10%nat ltac:(cbn; lia) ltac:(cbn; lia)). unfold exit_wave in X. cbn [Nat.add] in X.
    assert (ZQ : Cmod (s_obj_half_1 r 12 10) = 0%R).
    { rewrite Q. change (Cmod (rolled 30 30 (pixel 12 10) u v 12 10) = 0%R). rewrite pixel_rolled by lia. unfold pixel.
      replace (Nat.eqb 12 (circ 30 (Z.of_nat 12 + u))) with false; [rewrite Cmult_0_l; apply Cmod_0|]. symmetry. apply Nat.eqb_neq. unfold circ. intros Z.
      rewrite <- Zplus_mod_idemp_r, MU in Z. vm_compute in Z. discriminate Z. }
    apply Cmod_eq_0 in ZQ. rewrite ZQ in X. cbn in X. apply (f_equal Cmod) in X. rewrite !Cmod_mult, U, Cmod_0 in X.
    change (Cmod (s_probe_half_1 r 0%nat 12%nat 10%nat) * 0 = 1 * (Cmod 1 * (Cmod (pixel 12 10 12%nat 10%nat))))%R in X.
    unfold pixel in X. rewrite !Nat.eqb_refl, Cmult_1_l, Cmod_1 in X. lra.
Qed.
Print Assumptions C80_set_halves_refuted.
Lemma rsum_ge_term n f k : (forall i, (i < n)%nat -> (0 <= f i)%R) -> (k < n)%nat -> (f k <= rsum n f)%R.
Proof.
  induction n as [|n IH]; intros H Hk; [lia|]. rewrite rsum_S. pose proof (H n ltac:(lia)). pose proof (rsum_nonneg n f (fun i Hi => H i ltac:(lia))).
  destruct (Nat.eq_dec k n) as [->|NE]; [lra|]. pose proof (IH (fun i Hi => H i ltac:(lia)) ltac:(lia)). lra.
Qed.
Lemma nrm2_pos z : z <> 0 -> (0 < nrm2 z)%R.
Proof. intros NZ. destruct (nrm2_nonneg z) as [L|E]; [exact L|]. exfalso. apply NZ. now apply nrm2_0. Qed.
(** A case of the hypotheses of C80_set_identical: an optimiser that stays where it starts, a lone pixel, ring 0. *)
Example C80_set_case : scipy_improves {| minimize2 := fun _ x => x; minimize3 := fun _ x => x |} /\
  (30 <= win_H 30 (None, None))%nat /\ window_total 30 30 (None, None) (pixel 10 10) <> 0 /\
  full_spectrum 30 30 (hann_abs 30 30 (cut 30 30 (None, None) (pixel 10 10))) /\
  (0 < power 30 30 (masked (frc_bin 30 30 50 1 1 Side 0) (spectrum 30 30 (hann_c 30 30 (cut 30 30 (None, None) (pixel 10 10))))))%R.
Proof.
  assert (P10 : (0 < hann 30 30 10 10)%R) by (apply hann_inside; lia).
  assert (FS : full_spectrum 30 30 (fun i j => RtoC (hann 30 30 10 10) * pixel 10 10 i j)).
  { apply (pixel_spectrum 30 10 10 (RtoC (hann 30 30 10 10))); try lia. intros Z. apply RtoC_inj in Z. lra. }
  split; [intros f x0; cbn; lra|]. split; [cbn; lia|]. split; [|split].
  - rewrite window_total_cut. change (icsum 30 30 (pixel 10 10) <> 0). unfold icsum.
    rewrite (csum_single 30 10); [rewrite (csum_single 30 10)|lia|]; try lia.
    + unfold pixel. cbn [Nat.eqb]. rewrite Cmult_1_l. intros Z. apply RtoC_inj in Z. lra.
    + intros j _ NE. unfold pixel. replace (Nat.eqb j 10) with false by (symmetry; now apply Nat.eqb_neq). ring.
    + intros i _ NE. apply csum_zero'. intros j _. unfold pixel. replace (Nat.eqb i 10) with false by (symmetry; now apply Nat.eqb_neq). ring.
  - change (full_spectrum 30 30 (hann_abs 30 30 (pixel 10 10))). intros k l Hk Hl.
    rewrite (fft2_ext 30 30 _ (fun i j => RtoC (hann 30 30 10 10) * pixel 10 10 i j) k l) by (intros i j _ _; apply hann_pixel). now apply FS.
  - assert (HC : forall k l, fft2 30 30 (hann_c 30 30 (cut 30 30 (None, None) (pixel 10 10))) k l = fft2 30 30 (fun i j => RtoC (hann 30 30 10 10) * pixel 10 10 i j) k l).
    { intros k l. apply fft2_ext. intros i j _ _. change (pixel 10 10 i j * RtoC (hann 30 30 i j) = RtoC (hann 30 30 10 10) * pixel 10 10 i j).
      unfold pixel. destruct (Nat.eqb_spec i 10) as [->|]; [|ring]. destruct (Nat.eqb_spec j 10) as [->|]; ring. }
    assert (MF : (0 < max_freq 30 1)%R) by (unfold max_freq; cbn; lra).
    assert (TOP : (0 < frc_range 30 30 1 1 Side)%R) by (unfold frc_range; pose proof (Rmax_l (max_freq 30 1) (max_freq 30 1)); lra).
    assert (IN : frc_bin 30 30 50 1 1 Side 0 15 15 = true).
    { unfold frc_bin. generalize dependent (frc_range 30 30 1 1 Side). intros top TOP.
      assert (RZ : radius 30 30 1 1 15 15 = 0%R).
      { unfold radius, shifted_freq. replace (roll 30 (30 / 2) 15) with 0%nat by reflexivity. assert (F0 : fftfreq 30 0 = 0%R) by (unfold fftfreq; replace (Nat.ltb 0 ((30 + 1) / 2)) with true by reflexivity; cbn [INR]; unfold Rdiv; ring).
        rewrite F0. replace ((0 / 1) ^ 2 + (0 / 1) ^ 2)%R with 0%R by field. apply sqrt_0. }
      rewrite RZ. unfold in_bin, edge. destruct (Req_EM_T top 0) as [Z|_]; [lra|].
      destruct (Rle_dec (INR 0 * top / INR 50) 0) as [_|N]; [|exfalso; apply N; cbn [INR]; unfold Rdiv; rewrite !Rmult_0_l; lra].
      destruct (Rlt_dec 0 (INR 1 * top / INR 50)) as [_|N]; [reflexivity|]. exfalso. apply N. cbn [INR]. apply Rdiv_lt_0_compat; [lra|]. apply (lt_0_INR 50). lia. }
    unfold power. apply Rlt_le_trans with (nrm2 (masked (frc_bin 30 30 50 1 1 Side 0) (spectrum 30 30 (hann_c 30 30 (cut 30 30 (None, None) (pixel 10 10)))) 15%nat 15%nat)).
    + unfold masked. rewrite IN. unfold spectrum, fftshift2. rewrite HC. apply nrm2_pos. apply FS; vm_compute; lia.
    + apply Rle_trans with (rsum 30 (fun j => nrm2 (masked (frc_bin 30 30 50 1 1 Side 0) (spectrum 30 30 (hann_c 30 30 (cut 30 30 (None, None) (pixel 10 10)))) 15%nat j))).
      * apply (rsum_ge_term 30 (fun j => nrm2 (masked (frc_bin 30 30 50 1 1 Side 0) (spectrum 30 30 (hann_c 30 30 (cut 30 30 (None, None) (pixel 10 10)))) 15%nat j)) 15); [|lia]. intros. apply nrm2_nonneg.
      * apply (rsum_ge_term 30 (fun i => rsum 30 (fun j => nrm2 (masked (frc_bin 30 30 50 1 1 Side 0) (spectrum 30 30 (hann_c 30 30 (cut 30 30 (None, None) (pixel 10 10)))) i j))) 15); [|lia]. intros. apply rsum_nonneg. intros. apply nrm2_nonneg.
Qed.
