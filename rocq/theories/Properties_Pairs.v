(** C80: standardize_reconstruction_pair. *)
From Verif Require Import Base FinSum Fourier Matrix Model_Prop Spec_Prop Proofs_Prop Model_Meas Model_Interact Model_Geom Model_Image Spec_Image Proofs_Image Properties_Image
  Model_Shift Properties_Shift Model_Analysis Spec_Analysis Proofs_Ortho Proofs_Standard Proofs_Metrics Proofs_FRC Properties_Standard Properties_Metrics Model_Sets Spec_Sets Proofs_Sets Properties_Sets.
From Coquelicot Require Import Complex.
From Coq Require Import FunctionalExtensionality IndefiniteDescription.
Local Open Scope C_scope.

(** C80: without the amplitude correction, a successful call returns the first reconstruction with the same exit
    waves up to a phase; the second one, once its object and its probe are moved back (by different tenths of a
    pixel, and only the probe modes there are); and the other inputs as they are. *)
Theorem C80_pair_exit_waves : forall S L h1 h2 cpo cpr win nb pnb lim r h2',
  (30 <= win_H (r_H h1) win)%nat -> (30 <= win_W (r_W h1) win)%nat -> (30 <= r_h h1)%nat -> (30 <= r_w h1)%nat ->
  standardize_reconstruction_pair S L h1 h2 cpo cpr false win nb pnb lim = (Ok r, h2') ->
  same_exit_waves (r_H h1) (r_W h1) (r_l h1) (r_h h1) (r_w h1) (r_probe h1) (p_probe_1 r) (r_obj h1) (p_obj_1 r) /\
  (exists t0 t1, tenths t0 /\ tenths t1 /\
   same_after_shift (r_H h2) (r_W h2) (r_l h2) (r_h h2) (r_w h2) (r_probe h2) (fun k => sinc_subpixel_shift (r_h h2) (r_w h2) (p_probe_2 r k) (- t0) (- t1)) (r_obj h2) (p_obj_2 r)) /\
  (p_weights_1 r = r_weights h1 /\ p_weights_2 r = r_weights h2 /\ p_translations_1 r = r_translations h1 /\ p_translations_2 r = r_translations h2 /\
   p_background_1 r = r_background h1 /\ p_background_2 r = r_background h2) /\
  p_wavelength r = r_wavelength h1 /\ p_obj_basis r = r_obj_basis h1 /\ p_probe_basis r = r_probe_basis h1.
Proof.
  intros S L h1 h2 cpo cpr win nb pnb lim r h2' Hh Hw Ph Pw. unfold standardize_reconstruction_pair, decayed_pair.
  destruct (ramped S win cpr h1) as [o1 p1] eqn:R1. destruct (ramped S win cpr h2) as [o2 p2] eqn:R2.
  destruct (shift_between _ _ (win_H (r_H h2) win) _ _ _) as [s|] eqn:E1; [|discriminate].
  destruct (shift_between _ _ (r_h h2) _ _ _) as [t|] eqn:E2; [|discriminate].
  apply shift_between_inv in E1; [|exact Hh|exact Hw]. apply shift_between_inv in E2; [|exact Ph|exact Pw].
  destruct E1 as (_ & _ & T0 & T1). destruct E2 as (EH & EW & U0 & U1).
  destruct (calc_generalized_frc_call _ _ _ _ _ _ _ _ _ _ _) as [[[[n pf] pc] pt]|]; [|discriminate]. cbn [rbind].
  intros E. injection E as <- <-. cbn [p_probe_1 p_obj_1 p_probe_2 p_obj_2 p_weights_1 p_weights_2 p_translations_1 p_translations_2 p_background_1 p_background_2 p_wavelength p_obj_basis p_probe_basis].
  split; [|split; [|repeat split]].
  - intros a b. destruct (prepared_waves S win cpr cpo h1 (r_H h1) (r_W h1) a b) as [c [U E]]. exists c. split; [exact U|]. intros k i j _ _ _ _ _. rewrite <- E, R1. reflexivity.
  - exists (fst t), (snd t). split; [exact U0|split; [exact U1|]]. exists (fst s), (snd s). split; [exact T0|split; [exact T1|]].
    intros a b. destruct (prepared_waves S win cpr cpo h2 (r_H h2) (r_W h2) a b) as [c [U E]]. exists c. split; [exact U|]. intros k i j Hk Hi Hj Ha Hb. rewrite <- E, R2. cbn [fst snd].
    replace (Nat.ltb k (r_l h2)) with true by (symmetry; now apply Nat.ltb_lt). unfold exit_wave. f_equal; apply shift_back; lia.
Qed.
Print Assumptions C80_pair_exit_waves.
(** C80: global phases of the two objects do not change any result, ... *)
Theorem C80_pair_global_phase : forall S L h1 h2 cpr win nb pnb lim c1 c2, scipy_improves S -> unit_modulus c1 -> unit_modulus c2 ->
  window_total (r_H h1) (r_W h1) win (r_obj h1) <> 0 -> window_total (r_H h2) (r_W h2) win (r_obj h2) <> 0 ->
  fst (standardize_reconstruction_pair S L (with_obj h1 (scaled c1 (r_obj h1))) (with_obj h2 (scaled c2 (r_obj h2))) true cpr false win nb pnb lim) =
  fst (standardize_reconstruction_pair S L h1 h2 true cpr false win nb pnb lim).
Proof.
  intros S L h1 h2 cpr win nb pnb lim c1 c2 I U1 U2 N1 N2. unfold standardize_reconstruction_pair, decayed_pair. rewrite !ramped_phase by assumption.
  pose proof (ramped_total S win h1 I N1 cpr) as T1. pose proof (ramped_total S win h2 I N2 cpr) as T2.
  destruct (ramped S win cpr h1) as [o1 p1]. destruct (ramped S win cpr h2) as [o2 p2]. cbn [fst snd] in *.
  cbn [with_obj r_H r_W r_l r_h r_w r_weights r_translations r_background r_wavelength r_obj_basis r_probe_basis r_basis]. unfold scaled.
  rewrite !offset_phase by assumption.
  destruct (shift_between _ _ (win_H (r_H h2) win) _ _ _) as [s|]; [|reflexivity].
  destruct (shift_between _ _ (r_h h2) _ _ _) as [t|]; reflexivity.
Qed.
Print Assumptions C80_pair_global_phase.
(** ... and the sum of the first object over the window is real and not negative. *)
Theorem C80_pair_phase : forall S L h1 h2 cpr cae win nb pnb lim r h2',
  standardize_reconstruction_pair S L h1 h2 true cpr cae win nb pnb lim = (Ok r, h2') -> positive_real (window_total (r_H h1) (r_W h1) win (p_obj_1 r)).
Proof.
  intros S L h1 h2 cpr cae win nb pnb lim r h2'. unfold standardize_reconstruction_pair.
  destruct (decayed_pair S win cae h1 _) as [o1 p1]. destruct (decayed_pair S win cae h2 _) as [o2 p2].
  destruct (shift_between _ _ (win_H (r_H h2) win) _ _ _) as [s|]; [|discriminate].
  destruct (shift_between _ _ (r_h h2) _ _ _) as [t|]; [|discriminate].
  destruct (calc_generalized_frc_call _ _ _ _ _ _ _ _ _ _ _) as [[[[n pf] pc] pt]|]; [|discriminate]. cbn [rbind].
  intros E. injection E as <- <-. cbn [p_obj_1]. apply offset_total.
Qed.
Print Assumptions C80_pair_phase.
Lemma powers h w l p : rsum l (fun k => isum h w (abs2 (p k))) = total_power h w l p.
Proof.
  unfold total_power, power, isum, abs2. apply rsum_ext. intros k _. apply rsum_ext. intros i _. apply rsum_ext. intros j _. rewrite Cmod_nrm2, pow2_sqrt by apply nrm2_nonneg. reflexivity.
Qed.
(** C80: what the numbers mean: the correlation is that of the apodized windows of the two returned objects, of
    modulus at most 1, the ssnr is the ratio of signal to noise power of one of them, the normalized mean square
    error of the probes lies between 0 and 1, and the probes' ring correlations lie in [0, 1]. *)
Theorem C80_pair_metrics : forall S L h1 h2 cpo cpr cae win nb pnb lim r h2',
  standardize_reconstruction_pair S L h1 h2 cpo cpr cae win nb pnb lim = (Ok r, h2') ->
  let h := win_H (r_H h1) win in let w := win_W (r_W h1) win in
  (forall b, p_frc r b = calc_frc h w nb (hann_c h w (cut (r_H h1) (r_W h1) win (p_obj_1 r))) (hann_c h w (cut (r_H h2) (r_W h2) win (p_obj_2 r)))
                       (length3 (fst (r_obj_basis h1))) (length3 (snd (r_obj_basis h1))) lim b) /\
  (forall b, (Cmod (p_frc r b) <= 1)%R) /\
  (forall b sig noise, (0 <= sig)%R -> (0 < noise)%R -> Cmod (p_frc r b) = (sig / (sig + noise))%R -> p_ssnr r b = (sig / noise)%R) /\
  (svdvals_right L (r_l h2) (r_l h1) (overlap_matrix (r_h h1) (r_w h1) (p_probe_1 r) (p_probe_2 r)) ->
   (0 < total_power (r_h h1) (r_w h1) (r_l h1) (p_probe_1 r))%R -> (0 < total_power (r_h h1) (r_w h1) (r_l h2) (p_probe_2 r))%R -> (0 <= p_probe_nmse r <= 1)%R) /\
  exists n, pnb = Some n /\ forall b, gfrc_right L (r_l h1) (r_l h2) (r_h h1) (r_w h1) n (p_probe_1 r) (p_probe_2 r) (length3 (fst (r_probe_basis h1))) (length3 (snd (r_probe_basis h1))) lim b ->
   (0 <= p_probe_frc r b <= 1)%R.
Proof.
  intros S L h1 h2 cpo cpr cae win nb pnb lim r h2'. unfold standardize_reconstruction_pair.
  destruct (decayed_pair S win cae h1 _) as [o1 p1]. destruct (decayed_pair S win cae h2 _) as [o2 p2].
  destruct (shift_between _ _ (win_H (r_H h2) win) _ _ _) as [s|]; [|discriminate].
  destruct (shift_between _ _ (r_h h2) _ _ _) as [t|]; [|discriminate].
  unfold calc_generalized_frc_call. destruct pnb as [n|]; [|discriminate]. destruct (_ || _ || _)%bool; [|discriminate]. cbn [rbind].
  intros E. injection E as <- <-. cbn [p_frc p_obj_1 p_obj_2 p_ssnr p_probe_1 p_probe_2 p_probe_nmse p_probe_frc].
  split; [reflexivity|]. split; [intros; apply C44_frc_bound|]. split; [|split].
  - intros b sig noise HS HN EF. rewrite EF. field. lra.
  - set (q2 := fun idx => if Nat.ltb idx (r_l h2) then shift_by (r_h h2) (r_w h2) t (p2 idx) else p2 idx). rewrite !powers. intros SV T1 T2. pose proof (C44_fidelity_bounds L _ _ _ _ _ _ SV) as [B0 B1].
    set (P := (total_power (r_h h1) (r_w h1) (r_l h1) p1 * total_power (r_h h1) (r_w h1) (r_l h2) q2)%R) in *. assert (0 < P)%R by (apply Rmult_lt_0_compat; assumption).
    set (F := calc_fidelity L (r_l h1) (r_l h2) (r_h h1) (r_w h1) p1 q2) in *. assert (0 <= F / P <= 1)%R; [|change ((0 <= 1 - F / P <= 1)%R); lra].
    split; [apply Rmult_le_pos; [exact B0|apply Rlt_le, Rinv_0_lt_compat; lra]|]. apply (Rmult_le_reg_r P); [lra|]. unfold Rdiv. rewrite Rmult_assoc, Rinv_l by lra. lra.
  - exists n. split; [reflexivity|]. intros b G. now apply C44_gfrc_bounds.
Qed.
Print Assumptions C80_pair_metrics.
Lemma coherence_scaled h w l f g c : unit_modulus c -> (forall k, (k < l)%nat -> same h w (g k) (scaled c (f k))) -> same_coherence h w l f l g.
Proof.
  intros U E i j i' j' Hi Hj Hi' Hj'. unfold coherence. apply csum_ext. intros k Hk. rewrite (E k Hk i j Hi Hj), (E k Hk i' j' Hi' Hj'). unfold scaled.
  rewrite Cconj_mult. replace (Cconj c * Cconj (f k i j) * (c * f k i' j')) with (Cconj c * c * (Cconj (f k i j) * f k i' j')) by ring.
  replace (Cconj c * c) with (RtoC 1); [ring|]. assert (N : nrm2 c = 1%R) by (unfold unit_modulus in U; rewrite Cmod_nrm2 in U; rewrite <- (sqrt_sqrt (nrm2 c)) by apply nrm2_nonneg; rewrite U; ring). destruct c as [x y]. unfold nrm2 in N. cbn [fst snd] in N. unfold Cconj, Cmult, RtoC. cbn [fst snd]. f_equal; lra.
Qed.
(** The probe metrics of two stacks that agree up to a phase. *)
Lemma probe_metrics L h w l f g c : (0 < h)%nat -> (0 < w)%nat -> unit_modulus c -> (forall k, (k < l)%nat -> same h w (g k) (scaled c (f k))) ->
  svdvals_right L l l (overlap_matrix h w f g) -> (0 < total_power h w l f)%R ->
  (1 - calc_fidelity L l l h w f g / (total_power h w l f * total_power h w l g) = 0)%R /\ calc_generalized_rms_error L l l h w f g true = 0%R.
Proof.
  intros Hh Hw U E SV T. pose proof (coherence_scaled h w l f g c U E) as SC.
  assert (TG : total_power h w l g = total_power h w l f).
  { unfold total_power, power. apply rsum_ext. intros k Hk. apply rsum_ext. intros i Hi. apply rsum_ext. intros j Hj. rewrite (E k Hk i j Hi Hj). unfold scaled. rewrite nrm2_mult.
    assert (nrm2 c = 1%R) as -> by (unfold unit_modulus in U; rewrite Cmod_nrm2 in U; rewrite <- (sqrt_sqrt (nrm2 c)) by apply nrm2_nonneg; rewrite U; ring). ring. }
  pose proof (proj2 (C44_grms_zero L l l h w f g Hh Hw SV) SC) as Z. destruct (C44_grms_real L l l h w f g Hh Hw SV) as [R0 R1]. rewrite R1 in Z.
  assert (NP : (0 < INR (h * w))%R) by (apply lt_0_INR; nia).
  apply sqrt_eq_0 in Z; [|apply Rmult_le_pos; [exact R0|apply Rlt_le, Rinv_0_lt_compat; exact NP]].
  assert (Z' : (total_power h w l f + total_power h w l g - 2 * sqrt (calc_fidelity L l l h w f g) = 0)%R).
  { apply (Rmult_eq_reg_r (/ INR (h * w))); [rewrite Rmult_0_l; exact Z|]. apply Rinv_neq_0_compat. lra. }
  pose proof (proj1 (C44_fidelity_bounds L l l h w f g SV)) as B0.
  assert (SQ : sqrt (calc_fidelity L l l h w f g) = total_power h w l f) by (rewrite TG in Z'; lra).
  assert (F : calc_fidelity L l l h w f g = (total_power h w l f * total_power h w l f)%R) by (rewrite <- SQ; rewrite sqrt_sqrt by exact B0; reflexivity).
  split.
  - rewrite F, TG. field. lra.
  - unfold calc_generalized_rms_error. rewrite !powers, TG. rewrite F.
    replace (total_power h w l f * total_power h w l f / INR (h * w) ^ 2)%R with ((total_power h w l f / INR (h * w)) * (total_power h w l f / INR (h * w)))%R by (field; lra).
    rewrite sqrt_square by (apply Rmult_le_pos; [lra|apply Rlt_le, Rinv_0_lt_compat; exact NP]).
    set (q := (total_power h w l f / INR (h * w))%R). replace (q + q - 2 * q)%R with 0%R by ring. unfold Rdiv. rewrite Rmult_0_l. apply sqrt_0.
Qed.
(** C80: two reconstructions with the same object up to a global phase, and the same probe modes up to a global phase
    (and, if the phase ramps are left alone, up to a common roll): the call succeeds, the objects returned are equal,
    the returned probes agree up to the phase, and every error is 0 and every correlation 1 (in rings with signal). *)
Theorem C80_pair_identical : forall S L h1 h2 cpr win nb n lim c d a b, scipy_improves S -> unit_modulus c -> unit_modulus d ->
  let H := r_H h1 in let W := r_W h1 in let h := win_H H win in let w := win_W W win in let ph := r_h h1 in let pw := r_w h1 in let l := r_l h1 in
  r_H h2 = H -> r_W h2 = W -> same H W (r_obj h2) (scaled c (r_obj h1)) ->
  r_h h2 = ph -> r_w h2 = pw -> r_l h2 = l -> (0 < l)%nat -> (forall k, (k < l)%nat -> same ph pw (r_probe h2 k) (scaled d (rolled ph pw (r_probe h1 k) a b))) ->
  (cpr = false \/ a = 0%Z /\ b = 0%Z) ->
  (30 <= h)%nat -> (30 <= w)%nat -> (30 <= ph)%nat -> (30 <= pw)%nat ->
  window_total H W win (r_obj h1) <> 0 -> full_spectrum h w (hann_c h w (cut H W win (fst (ramped S win cpr h1)))) -> full_spectrum ph pw (snd (ramped S win cpr h1) 0%nat) ->
  exists r h2', standardize_reconstruction_pair S L h1 h2 true cpr false win nb (Some n) lim = (Ok r, h2') /\
  same H W (p_obj_2 r) (p_obj_1 r) /\ (forall k, (k < l)%nat -> same ph pw (p_probe_2 r k) (scaled d (p_probe_1 r k))) /\
  (forall b, (0 < power h w (masked (frc_bin h w nb (length3 (fst (r_obj_basis h1))) (length3 (snd (r_obj_basis h1))) lim b) (spectrum h w (hann_c h w (cut H W win (p_obj_1 r))))))%R -> p_frc r b = 1) /\
  (svdvals_right L l l (overlap_matrix ph pw (p_probe_1 r) (p_probe_2 r)) -> (0 < total_power ph pw l (p_probe_1 r))%R ->
   p_probe_nmse r = 0%R /\ p_probe_nrms_error r = 0%R) /\
  (forall b, gfrc_right L l l ph pw n (p_probe_1 r) (p_probe_2 r) (length3 (fst (r_probe_basis h1))) (length3 (snd (r_probe_basis h1))) lim b ->
   (0 < total_power ph pw l (fun k => masked (gfrc_mask ph pw n (length3 (fst (r_probe_basis h1))) (length3 (snd (r_probe_basis h1))) lim b) (spectrum ph pw (p_probe_1 r k))))%R ->
   p_probe_frc r b = 1%R).
Proof.
  intros S L h1 h2 cpr win nb n lim c d a b I Uc Ud H W h w ph pw l EH EW EO Eh Ew El HL EP CP Hh Hw Hph Hpw NZ FSO FSP.
  pose proof (prepared_same S win cpr h2 h1 c I Uc EH EW EO NZ) as PO. fold H W in PO.
  assert (PH : (0 < H)%nat) by (apply (win_pos H (fst win)); change (0 < h)%nat; lia). assert (PW : (0 < W)%nat) by (apply (win_pos W (snd win)); change (0 < w)%nat; lia).
  assert (NC : d <> 0) by (intros Z; unfold unit_modulus in Ud; rewrite Z, Cmod_0 in Ud; lra).
  (* the prepared probes *)
  assert (RP : forall k, (k < l)%nat -> same ph pw (snd (ramped S win cpr h2) k) (scaled d (rolled ph pw (snd (ramped S win cpr h1) k) a b))).
  { intros k Hk i j Hi Hj. unfold ramped. destruct cpr; [|exact (EP k Hk i j Hi Hj)]. destruct CP as [CP|[-> ->]]; [discriminate|].
    assert (RF : ramp_freq S (r_H h2) (r_W h2) (r_obj h2) win = ramp_freq S (r_H h1) (r_W h1) (r_obj h1) win).
    { unfold ramp_freq. rewrite EH, EW. f_equal. rewrite <- (zero_freq_phase _ _ c (cut (r_H h1) (r_W h1) win (r_obj h1)) Uc). apply zero_freq_same.
      intros x y Hx Hy. exact (cut_same _ _ win _ _ EO x y Hx Hy). }
    rewrite RF. unfold remove_phase_ramp. cbn [snd]. rewrite (EP k Hk i j Hi Hj). unfold scaled, rolled.
    assert (C0 : forall m x, (x < m)%nat -> circ m (Z.of_nat x - 0) = x) by (intros m x Hx; unfold circ; rewrite Z.sub_0_r, Z.mod_small, Nat2Z.id by lia; reflexivity).
    rewrite !C0 by assumption. ring. }
  unfold standardize_reconstruction_pair, decayed_pair. rewrite EH, EW, Eh, Ew, El. fold H W h w ph pw l.
  destruct (ramped S win cpr h1) as [o1 p1] eqn:R1. destruct (ramped S win cpr h2) as [o2 p2] eqn:R2. cbn [fst snd] in *.
  set (q1 := offset win true H W o1) in *. set (q2 := offset win true H W o2) in *.
  assert (SO : shift_between h w h w (hann_c h w (cut H W win q1)) (hann_c h w (cut H W win q2)) = Ok (0, 0)%R).
  { unfold shift_between. rewrite !Nat.eqb_refl. cbn [andb]. rewrite (find_shift_ext h w _ _ (hann_c h w (cut H W win q1)) (hann_c h w (cut H W win q1)) 10 (fun i j _ _ => eq_refl)).
    - apply find_shift_self; [exact Hh|exact Hw|lia|]. destruct (offset_factor win true H W o1) as [e [UE FE]]. intros k m Hk Hm.
      rewrite (fft2_ext h w _ (fun i j => e * hann_c h w (cut H W win o1) i j) k m) by (intros i j _ _; unfold hann_c, cut, q1; rewrite FE; ring).
      rewrite fft2_scal. apply Cmult_neq_0; [intros Z; unfold unit_modulus in UE; rewrite Z, Cmod_0 in UE; lra|now apply FSO].
    - apply hann_c_same. apply (cut_same H W win). exact PO. }
  rewrite SO.
  assert (SP : exists u v, shift_between ph pw ph pw (p1 0%nat) (p2 0%nat) = Ok (IZR u, IZR v) /\ (u mod Z.of_nat ph = (- a) mod Z.of_nat ph)%Z /\ (v mod Z.of_nat pw = (- b) mod Z.of_nat pw)%Z).
  { unfold shift_between. rewrite !Nat.eqb_refl. cbn [andb].
    destruct (C72_find_shift ph pw (p1 0%nat) a b 10 Hph Hpw ltac:(lia) FSP) as (u & v & F & MU & MV & _). exists u, v. split; [|split; assumption].
    rewrite (find_shift_ext ph pw (p1 0%nat) _ (p1 0%nat) (fun i j => d * rolled ph pw (p1 0%nat) a b i j) 10 (fun i j _ _ => eq_refl) (RP 0%nat HL)).
    rewrite find_shift_scale; [exact F|exact NC|exact FSP|]. apply full_spectrum_rolled; [lia|lia|exact FSP]. }
  destruct SP as (u & v & SP & MU & MV). rewrite SP. unfold calc_generalized_frc_call. rewrite Nat.eqb_refl. cbn [orb rbind].
  set (g2 := fun idx => if Nat.ltb idx l then shift_by ph pw (IZR u, IZR v) (p2 idx) else p2 idx).
  assert (GP : forall k, (k < l)%nat -> same ph pw (g2 k) (scaled d (p1 k))).
  { intros k Hk i j Hi Hj. unfold g2. replace (Nat.ltb k l) with true by (symmetry; now apply Nat.ltb_lt).
    rewrite (shift_by_same ph pw (IZR u, IZR v) _ _ (RP k Hk) i j Hi Hj). unfold shift_by. cbn [fst snd].
    rewrite (C29_integer ph pw _ u v ltac:(lia) ltac:(lia) i j Hi Hj). unfold scaled, rolled. f_equal.
    assert (CC : forall m x s z, (30 <= m)%nat -> (x < m)%nat -> (s mod Z.of_nat m = (- z) mod Z.of_nat m)%Z -> circ m (Z.of_nat (circ m (Z.of_nat x - s)) - z) = x).
    { intros m x s z Hm Hx MS. unfold circ. rewrite Z2Nat.id by (apply Z.mod_pos_bound; lia). rewrite Zminus_mod_idemp_l.
      replace (Z.of_nat x - s - z)%Z with (Z.of_nat x - (s + z))%Z by lia. rewrite <- Zminus_mod_idemp_r.
      assert (X : ((s + z) mod Z.of_nat m = 0)%Z) by (rewrite <- Zplus_mod_idemp_l, MS, Zplus_mod_idemp_l; replace (- z + z)%Z with 0%Z by lia; apply Z.mod_0_l; lia).
      rewrite X, Z.sub_0_r, Z.mod_small, Nat2Z.id by lia. reflexivity. }
    now rewrite (CC ph i u a Hph Hi MU), (CC pw j v b Hpw Hj MV). }
  assert (QO : same H W (shift_by H W (0, 0)%R q2) q1) by (intros i j Hi Hj; rewrite (shift_by_0 H W q2 PH PW i j Hi Hj); now apply PO).
  eexists. eexists. split; [reflexivity|]. cbn [p_obj_1 p_obj_2 p_probe_1 p_probe_2 p_frc p_probe_nmse p_probe_nrms_error p_probe_frc].
  split; [exact QO|]. split; [exact GP|]. split; [|split].
  - intros m PB. rewrite (calc_frc_same h w nb _ _ (hann_c h w (cut H W win q1)) (hann_c h w (cut H W win q1))).
    + apply calc_frc_self. exact PB.
    + intros i j _ _. reflexivity.
    + apply hann_c_same. apply (cut_same H W win). exact QO.
  - intros SV TP. rewrite !powers. apply (probe_metrics L ph pw l p1 g2 d); try assumption; lia.
  - intros m G TP. apply C44_gfrc_same; [exact G|now apply (coherence_scaled ph pw l p1 g2 d)|exact TP].
Qed.
Print Assumptions C80_pair_identical.
(** C80: with either correction the second reconstruction's input is left as it is; without them its probe array is
    overwritten: every mode is shifted by the same tenths of a pixel. *)
Theorem C80_pair_inputs : forall S L h1 h2 cpo cpr cae win nb pnb lim, (cpr || cae)%bool = true ->
  snd (standardize_reconstruction_pair S L h1 h2 cpo cpr cae win nb pnb lim) = h2.
Proof.
  intros S L h1 h2 cpo cpr cae win nb pnb lim C. unfold standardize_reconstruction_pair.
  destruct (decayed_pair S win cae h1 _) as [o1 p1]. destruct (decayed_pair S win cae h2 _) as [o2 p2].
  destruct (shift_between _ _ (win_H (r_H h2) win) _ _ _) as [s|]; [|reflexivity].
  destruct (shift_between _ _ (r_h h2) _ _ _) as [t|]; [|reflexivity]. rewrite C. reflexivity.
Qed.
Print Assumptions C80_pair_inputs.
(** C80 is refuted for stacks with different numbers of modes (neither 1): a RuntimeError, raised after the probe
    array of the second reconstruction has been overwritten (if no correction was asked for), ... *)
Theorem C80_pair_modes_refuted : forall S L h1 h2 cpo win nb pnb lim, r_l h1 <> r_l h2 -> r_l h1 <> 1%nat -> r_l h2 <> 1%nat ->
  win_H (r_H h2) win = win_H (r_H h1) win -> win_W (r_W h2) win = win_W (r_W h1) win -> r_h h2 = r_h h1 -> r_w h2 = r_w h1 ->
  (30 <= win_H (r_H h1) win)%nat -> (30 <= win_W (r_W h1) win)%nat -> (30 <= r_h h1)%nat -> (30 <= r_w h1)%nat ->
  (forall cpr, exists e, fst (standardize_reconstruction_pair S L h1 h2 cpo cpr false win nb pnb lim) = Raise e) /\
  exists s, find_shift (r_h h1) (r_w h1) (r_probe h1 0%nat) (r_probe h2 0%nat) 10 = Ok s /\
  forall k, (k < r_l h2)%nat -> r_probe (snd (standardize_reconstruction_pair S L h1 h2 cpo false false win nb pnb lim)) k = sinc_subpixel_shift (r_h h1) (r_w h1) (r_probe h2 k) (fst s) (snd s).
Proof.
  intros S L h1 h2 cpo win nb pnb lim D D1 D2 EH EW Eh Ew Hh Hw Hph Hpw.
  assert (G : forall p1 p2, exists e, calc_generalized_frc_call L (r_l h1) (r_l h2) (r_h h1) (r_w h1) pnb p1 p2 (length3 (fst (r_probe_basis h1))) (length3 (snd (r_probe_basis h1))) lim = Raise e).
  { intros p1 p2. unfold calc_generalized_frc_call. destruct pnb; [|eexists; reflexivity].
    rewrite (proj2 (Nat.eqb_neq _ _) D), (proj2 (Nat.eqb_neq _ _) D1), (proj2 (Nat.eqb_neq _ _) D2). eexists. reflexivity. }
  split.
  - intros cpr. unfold standardize_reconstruction_pair, decayed_pair. destruct (ramped S win cpr h1) as [o1 p1]. destruct (ramped S win cpr h2) as [o2 p2].
    destruct (shift_between _ _ (win_H (r_H h2) win) _ _ _) as [s|]; [|eexists; reflexivity].
    destruct (shift_between _ _ (r_h h2) _ _ _) as [t|]; [|eexists; reflexivity]. cbn [fst].
    set (g2 := fun idx => if Nat.ltb idx (r_l h2) then shift_by (r_h h2) (r_w h2) t (p2 idx) else p2 idx). destruct (G p1 g2) as [e Q]. exists e. rewrite Q. reflexivity.
  - destruct (find_shift_ok (r_h h1) (r_w h1) (r_probe h1 0%nat) (r_probe h2 0%nat) Hph Hpw) as (s & E & _). exists s. split; [exact E|]. intros k Hk.
    unfold standardize_reconstruction_pair, decayed_pair, ramped.
    destruct (shift_between_ok (win_H (r_H h1) win) (win_W (r_W h1) win) (hann_c (win_H (r_H h1) win) (win_W (r_W h1) win) (cut (r_H h1) (r_W h1) win (offset win cpo (r_H h1) (r_W h1) (r_obj h1))))
      (hann_c (win_H (r_H h1) win) (win_W (r_W h1) win) (cut (r_H h2) (r_W h2) win (offset win cpo (r_H h2) (r_W h2) (r_obj h2)))) Hh Hw) as (t & T & _).
    rewrite EH, EW, T, Eh, Ew. unfold shift_between at 1. rewrite !Nat.eqb_refl. cbn [andb]. rewrite E. cbn [snd orb with_probe r_probe].
    replace (Nat.ltb k (r_l h2)) with true by (symmetry; now apply Nat.ltb_lt). reflexivity.
Qed.
Print Assumptions C80_pair_modes_refuted.
(** ... its inputs change: with correct_phase_ramp off, on lone-pixel probes; ... *)
Theorem C80_pair_inputs_refuted : exists h1 h2, forall S L, let h2' := snd (standardize_reconstruction_pair S L h1 h2 true false false (None, None) 50 (Some 50%nat) Side) in
  exists i j, (i < r_h h2)%nat /\ (j < r_w h2)%nat /\ r_probe h2' 0%nat i j <> r_probe h2 0%nat i j.
Proof.
  exists (saved 30 (pixel 10 10) 1 (fun _ => pixel 12 10)), (saved 30 (pixel 10 10) 1 (fun _ => pixel 10 10)). intros S L.
  set (h1 := saved 30 (pixel 10 10) 1 (fun _ => pixel 12 10)). set (h2 := saved 30 (pixel 10 10) 1 (fun _ => pixel 10 10)). cbv zeta.
  assert (P1 : forall a b, (a < 30)%nat -> (b < 30)%nat -> full_spectrum 30 30 (pixel a b)).
  { intros a b Ha Hb k l Hk Hl. rewrite (fft2_ext 30 30 _ (fun i j => 1 * pixel a b i j) k l) by (intros i j _ _; ring). apply (pixel_spectrum 30 a b 1); auto. intros Z. apply RtoC_inj in Z. lra. }
  destruct (shift_between_ok 30 30 (hann_c 30 30 (cut 30 30 (None, None) (offset (None, None) true 30 30 (pixel 10 10)))) (hann_c 30 30 (cut 30 30 (None, None) (offset (None, None) true 30 30 (pixel 10 10)))) ltac:(lia) ltac:(lia)) as (t & T & _).
  destruct (C72_find_shift 30 30 (pixel 12 10) (-2) 0 10 ltac:(lia) ltac:(lia) ltac:(lia) (P1 12%nat 10%nat ltac:(lia) ltac:(lia))) as (u & v & F & MU & MV & _).
  assert (E : snd (standardize_reconstruction_pair S L h1 h2 true false false (None, None) 50 (Some 50%nat) Side) =
    with_probe h2 (fun idx => if Nat.ltb idx 1 then shift_by 30 30 (IZR u, IZR v) (pixel 10 10) else pixel 10 10)).
  { unfold standardize_reconstruction_pair, decayed_pair, ramped. cbn [h1 h2 saved r_H r_W r_obj r_l r_h r_w r_probe]. change (win_H 30 (None, None)) with 30%nat. change (win_W 30 (None, None)) with 30%nat.
    rewrite T. unfold shift_between at 1. rewrite !Nat.eqb_refl. cbn [andb].
    rewrite (find_shift_ext 30 30 (pixel 12 10) (pixel 10 10) (pixel 12 10) (rolled 30 30 (pixel 12 10) (-2) 0) 10 (fun i j _ _ => eq_refl)).
    - rewrite F. cbn [snd orb]. reflexivity.
    - intros i j Hi Hj. rewrite pixel_rolled by lia. reflexivity. }
  rewrite E. exists 10%nat, 10%nat. split; [cbn; lia|]. split; [cbn; lia|]. cbn [with_probe r_probe]. replace (Nat.ltb 0 1) with true by reflexivity.
  unfold shift_by. cbn [fst snd]. rewrite (C29_integer 30 30 (pixel 10 10) u v ltac:(lia) ltac:(lia) 10%nat 10%nat ltac:(lia) ltac:(lia)).
  rewrite pixel_rolled by lia. change (r_probe h2 0%nat 10%nat 10%nat) with (pixel 10 10 10%nat 10%nat). unfold pixel at 1.
  replace (Nat.eqb 10 (circ 30 (Z.of_nat 10 + u))) with false.
  - rewrite Cmult_0_l. unfold pixel. rewrite Nat.eqb_refl, Cmult_1_l. intros Z. apply RtoC_inj in Z. lra.
  - symmetry. apply Nat.eqb_neq. unfold circ. rewrite <- Zplus_mod_idemp_r, MU. vm_compute. discriminate.
Qed.
Print Assumptions C80_pair_inputs_refuted.
(** ... and with correct_amplitude_exponent the exit waves of different shots are scaled differently, since the
    weights are not corrected (whatever L is, and for an optimiser that finds the minimum). *)
Theorem C80_pair_amplitude_refuted : exists h1 h2, forall S L, scipy_exact S -> exists r h2',
  standardize_reconstruction_pair S L h1 h2 false false true (None, None) 50 (Some 50%nat) Side = (Ok r, h2') /\ p_weights_1 r = r_weights h1 /\
  ~ exists K : R, forall a b k i j, (k < r_l h1)%nat -> (i < r_h h1)%nat -> (j < r_w h1)%nat -> (a + i < r_H h1)%nat -> (b + j < r_W h1)%nat ->
    Cmod (exit_wave (p_probe_1 r k) (p_obj_1 r) a b i j) = (K * Cmod (exit_wave (r_probe h1 k) (r_obj h1) a b i j))%R.
Proof.
  set (o := (fun i _ => RtoC (exp (INR i))) : img). exists (saved 31 o 1 (fun _ _ _ => 1)), (saved 31 o 1 (fun _ _ _ => 1)). intros S L X.
  set (h1 := saved 31 o 1 (fun _ _ _ => 1)).
  assert (G : growth_rate S 31 31 o (None, None) = (1, 0)%R).
  { unfold growth_rate. set (f := decay_error _ _ _). pose proof (X f (1, 0, 0)%R (1, 1, 0)%R) as Q. set (m := minimize3 S f (1, 0, 0)%R) in *. clearbody m.
    assert (F1 : f (1, 1, 0)%R = 0%R).
    { unfold f, decay_error. apply rsum_zero'. intros i _. apply rsum_zero'. intros j _. cbn [fst snd]. unfold cut, o. cbn [slice_of fst snd Nat.add].
      rewrite Cmod_R, Rabs_pos_eq by (apply Rlt_le, exp_pos). replace (1 * INR i + 0 * INR j)%R with (INR i) by ring. ring. }
    rewrite F1 in Q.
    assert (Z : forall i j, (i < 31)%nat -> (j < 31)%nat -> (exp (INR i) - fst (fst m) * exp (snd (fst m) * INR i + snd m * INR j) = 0)%R).
    { intros i j Hi Hj. assert (N : forall i j, (0 <= (cut 31 31 (None, None) (fun i j => Cmod (o i j)) i j - fst (fst m) * exp (snd (fst m) * INR i + snd m * INR j)) ^ 2)%R) by (intros; apply pow2_ge_0).
      assert (FZ : f m = 0%R). { apply Rle_antisym; [apply Q; intros p; unfold f, decay_error; apply rsum_nonneg; intros; apply rsum_nonneg; intros; apply pow2_ge_0|]. unfold f, decay_error. apply rsum_nonneg. intros. apply rsum_nonneg. intros. apply N. }
      unfold f, decay_error in FZ. apply rsum_zero_iff with (i := i) in FZ; [|intros; apply rsum_nonneg; intros; apply N|exact Hi].
      apply rsum_zero_iff with (i := j) in FZ; [|intros; apply N|exact Hj]. unfold cut, o in FZ. cbn [slice_of fst snd Nat.add] in FZ.
      rewrite Cmod_R, Rabs_pos_eq in FZ by (apply Rlt_le, exp_pos). apply Rsqr_0_uniq. rewrite Rsqr_pow2. exact FZ. }
    destruct m as [[m0 m1] m2]. cbn [fst snd] in *.
    pose proof (Z 0%nat 0%nat ltac:(lia) ltac:(lia)) as Z00. pose proof (Z 1%nat 0%nat ltac:(lia) ltac:(lia)) as Z10. pose proof (Z 0%nat 1%nat ltac:(lia) ltac:(lia)) as Z01.
    cbn [INR] in Z00, Z10, Z01. rewrite !Rmult_0_r, Rplus_0_r, exp_0 in Z00. assert (M0 : m0 = 1%R) by lra. subst m0.
    rewrite Rmult_0_r, Rplus_0_r, Rmult_1_r in Z10. rewrite Rmult_0_r, Rplus_0_l, Rmult_1_r, exp_0 in Z01.
    assert (M1 : exp m1 = exp 1) by lra. assert (M2 : exp m2 = exp 0) by (rewrite exp_0; lra). apply exp_inv in M1. apply exp_inv in M2. now subst. }
  assert (OK : exists r h2', standardize_reconstruction_pair S L h1 h1 false false true (None, None) 50 (Some 50%nat) Side = (Ok r, h2') /\
     p_weights_1 r = r_weights h1 /\ p_obj_1 r = (fun i j => o i j * RtoC (exp (- (1 * INR i + 0 * INR j)))) /\ p_probe_1 r = (fun k i j => 1 * RtoC (exp (1 * INR i + 0 * INR j)))).
  { unfold standardize_reconstruction_pair, decayed_pair, ramped, offset. cbn [h1 saved r_H r_W r_obj r_l r_h r_w r_probe fst snd]. rewrite G. unfold remove_amplitude_exponent. cbn [fst snd].
    change (win_H 31 (None, None)) with 31%nat. change (win_W 31 (None, None)) with 31%nat.
    set (y := hann_c 31 31 _). destruct (shift_between_ok 31 31 y y ltac:(lia) ltac:(lia)) as (t & T & _). rewrite T.
    match goal with |- context [shift_between 31 31 31 31 ?p ?q] => destruct (shift_between_ok 31 31 p q ltac:(lia) ltac:(lia)) as (t' & T' & _); rewrite T' end.
    eexists. eexists. split; [reflexivity|]. split; [reflexivity|]. split; reflexivity. }
  destruct OK as (r & h2' & E & EW & EO & EP). exists r, h2'. split; [exact E|]. split; [exact EW|]. intros [K A]. rewrite EO, EP in A.
  assert (B : forall i a, (exp (INR a) * exp (- (1 * INR a + 0 * INR i)) = 1)%R) by (intros; rewrite <- exp_plus; replace (INR a + - (1 * INR a + 0 * INR i))%R with 0%R by ring; apply exp_0).
  pose proof (A 0%nat 0%nat 0%nat 0%nat 0%nat ltac:(cbn; lia) ltac:(cbn; lia) ltac:(cbn; lia) ltac:(cbn; lia) ltac:(cbn; lia)) as A0.
  pose proof (A 1%nat 0%nat 0%nat 0%nat 0%nat ltac:(cbn; lia) ltac:(cbn; lia) ltac:(cbn; lia) ltac:(cbn; lia) ltac:(cbn; lia)) as A1.
  unfold exit_wave in A0, A1. cbn [Nat.add h1 saved r_probe r_obj] in A0, A1. unfold o in A0, A1. rewrite <- !RtoC_mult, !B, !Cmod_R in A0, A1.
  cbn [INR] in A0, A1. replace (1 * 0 + 0 * 0)%R with 0%R in * by ring. rewrite !Rmult_1_r, !Rmult_1_l, ?exp_0, !Rabs_R1 in A0. rewrite ?Rmult_1_r, ?Rmult_1_l, ?exp_0, ?Rabs_R1 in A1. rewrite (Rabs_pos_eq (exp 1)) in A1 by (apply Rlt_le, exp_pos).
  assert (K1 : K = 1%R) by lra. subst K. pose proof (exp_ineq1 1 ltac:(lra)). lra.
Qed.
Print Assumptions C80_pair_amplitude_refuted.
(** C44: calc_generalized_frc is refuted for stacks with different numbers of modes (neither 1), and without nbins. *)
Theorem C44_gfrc_call_refuted : forall L l1 l2 H W f1 f2 di dj lim,
  (forall n, l1 <> l2 -> l1 <> 1%nat -> l2 <> 1%nat -> calc_generalized_frc_call L l1 l2 H W (Some n) f1 f2 di dj lim = Raise RuntimeError) /\
  exists e, calc_generalized_frc_call L l1 l2 H W None f1 f2 di dj lim = Raise e.
Proof.
  intros. split; [|eexists; reflexivity]. intros n D D1 D2. unfold calc_generalized_frc_call.
  rewrite (proj2 (Nat.eqb_neq _ _) D), (proj2 (Nat.eqb_neq _ _) D1), (proj2 (Nat.eqb_neq _ _) D2). reflexivity.
Qed.
Print Assumptions C44_gfrc_call_refuted.
(** There are optimisers as asked for (this witness uses the axiom of indefinite description, the theorems do not). *)
Example C80_scipy_exists : exists S, scipy_improves S /\ scipy_exact S.
Proof.
  destruct (functional_choice (fun (x : (R * R * R -> R) * (R * R * R)) r => forall q, (forall p, (fst x q <= fst x p)%R) -> (fst x r <= fst x q)%R)) as [f Hf].
  { intros [f x0]. destruct (Classical_Prop.classic (exists q, forall p, (f q <= f p)%R)) as [[q Q]|N]; [exists q; intros q' _; apply Q|].
    exists x0. intros q Q. exfalso. apply N. now exists q. }
  exists {| minimize2 := fun _ x => x; minimize3 := fun f0 x => f (f0, x) |}. split; [intros g x; cbn; lra|].
  intros g x0 q Q. exact (Hf (g, x0) q Q).
Qed.
Print Assumptions C80_scipy_exists.
(** A case of C80_pair_identical: a lone pixel as object, probes of one pixel rolled by (2, 3), phases -1 and i. *)
Example C80_pair_case : forall S L, scipy_improves S -> let h1 := saved 40 (pixel 10 10) 2%nat (fun _ => pixel 12 10) in
  let h2 := saved 40 (scaled (-(1)) (pixel 10 10)) 2 (fun _ => scaled Ci (rolled 40 40 (pixel 12 10) 2 3)) in
  exists r h2', standardize_reconstruction_pair S L h1 h2 true false false (None, None) 50 (Some 50%nat) Side = (Ok r, h2') /\
  same 40%nat 40%nat (p_obj_2 r) (p_obj_1 r) /\ forall k, (k < 2)%nat -> same 40%nat 40%nat (p_probe_2 r k) (scaled Ci (p_probe_1 r k)).
Proof.
  intros S L I h1 h2.
  assert (P1 : forall a b, (a < 40)%nat -> (b < 40)%nat -> full_spectrum 40%nat 40%nat (pixel a b)).
  { intros a b Ha Hb k l Hk Hl. rewrite (fft2_ext 40 40 _ (fun i j => 1 * pixel a b i j) k l) by (intros i j _ _; ring). apply (pixel_spectrum 40 a b 1); auto. intros Z. apply RtoC_inj in Z. lra. }
  destruct (C80_pair_identical S L h1 h2 false (None, None) 50 50 Side (-(1)) Ci 2 3 I) as (r & h2' & E & A & B & _).
  - unfold unit_modulus. rewrite Cmod_opp. apply Cmod_1.
  - unfold unit_modulus, Cmod, Ci. cbn [fst snd]. replace (0 ^ 2 + 1 ^ 2)%R with 1%R by (cbn; ring). apply sqrt_1.
  - reflexivity.
  - reflexivity.
  - intros i j _ _. reflexivity.
  - reflexivity.
  - reflexivity.
  - reflexivity.
  - cbn. lia.
  - intros k _ i j _ _. reflexivity.
  - now left.
  - change (30 <= 40)%nat. lia.
  - change (30 <= 40)%nat. lia.
  - change (30 <= 40)%nat. lia.
  - change (30 <= 40)%nat. lia.
  - rewrite window_total_cut. change (icsum 40 40 (pixel 10 10) <> 0). unfold icsum.
    rewrite (csum_single 40 10); [rewrite (csum_single 40 10)|lia|]; try lia.
    + unfold pixel. cbn [Nat.eqb]. rewrite Cmult_1_l. intros Z. apply RtoC_inj in Z. lra.
    + intros j _ NE. unfold pixel. replace (Nat.eqb j 10) with false by (symmetry; now apply Nat.eqb_neq). ring.
    + intros i _ NE. apply csum_zero'. intros j _. unfold pixel. replace (Nat.eqb i 10) with false by (symmetry; now apply Nat.eqb_neq). ring.
  - change (full_spectrum 40 40 (hann_c 40 40 (pixel 10 10))). intros k l Hk Hl.
    assert (P10 : (0 < hann 40 40 10 10)%R) by (apply hann_inside; lia).
    rewrite (fft2_ext 40 40 _ (fun i j => RtoC (hann 40 40 10 10) * pixel 10 10 i j) k l).
    + apply (pixel_spectrum 40 10 10 (RtoC (hann 40 40 10 10))); try lia. intros Z. apply RtoC_inj in Z. lra.
    + intros i j _ _. change (pixel 10 10 i j * RtoC (hann 40 40 i j) = RtoC (hann 40 40 10 10) * pixel 10 10 i j).
      unfold pixel. destruct (Nat.eqb_spec i 10) as [->|]; [|ring]. destruct (Nat.eqb_spec j 10) as [->|]; ring.
  - cbn [ramped h1 saved r_probe snd]. apply P1; lia.
  - exists r, h2'. split; [exact E|]. split; [exact A|exact B].
Qed.
