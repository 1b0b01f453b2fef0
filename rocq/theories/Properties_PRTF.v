(** C82: calc_consistency_prtf. *)
From Verif Require Import Base FinSum Fourier Matrix Model_Prop Spec_Prop Proofs_Prop Model_Meas Model_Interact Model_Geom Model_Image Spec_Image Proofs_Image Properties_Image
  Model_Shift Properties_Shift Model_Analysis Spec_Analysis Proofs_Ortho Proofs_Standard Proofs_Metrics Proofs_FRC Properties_Standard Properties_Metrics Model_Sets Spec_Sets Proofs_Sets Properties_Sets
  Model_Synth Spec_Synth Properties_Synth.
From Coquelicot Require Import Complex.
From Coq Require Import FunctionalExtensionality.
Local Open Scope C_scope.

(** The power of the h x w image x in ring b of n. *)
Definition ring_signal (h w n : nat) (di dj : R) (x : img) (b : nat) : R := power h w (masked (frc_bin h w n di dj Corner b) (spectrum h w x)).
Lemma ring_power_signal h w n di dj x b : ring_power h w n di dj x b = ring_signal h w n di dj x b.
Proof.
  unfold ring_power, ring_signal, histogram_r, isum, power, masked, spectrum. apply rsum_ext. intros i _. apply rsum_ext. intros j _.
  destruct (frc_bin h w n di dj Corner b i j); [now rewrite Cmod_nrm2, pow2_sqrt by apply nrm2_nonneg|]. unfold nrm2, RtoC. cbn [fst snd]. ring.
Qed.
Lemma mean_const {A} (l : list A) v : l <> [] -> mean_list (map (fun _ => v) l) = v.
Proof.
  intros N. unfold mean_list. rewrite map_length. assert (S : fold_right Rplus 0%R (map (fun _ => v) l) = (INR (length l) * v)%R).
  { clear N. induction l as [|a l IH]; [cbn; ring|]. cbn [map fold_right length]. rewrite IH, S_INR. ring. }
  rewrite S. assert (INR (length l) <> 0)%R by (apply not_0_INR; destruct l; [contradiction|discriminate]). field. exact H.
Qed.
Lemma mean_ext {A} (f g : A -> R) l : (forall a, In a l -> f a = g a) -> mean_list (map f l) = mean_list (map g l).
Proof. intros E. f_equal. now apply map_ext_in. Qed.
(** The part of an H x W object that is compared. *)
Definition compared (sl : option region) (o0 o : obj_array) : region := clip2 (o_H o) (o_W o) (chosen (o_H o0) (o_W o0) sl).
Lemma prtf_form synth o0 os b1 b2 sl nb : let h := reg_H (compared sl o0 synth) in let w := reg_W (compared sl o0 synth) in
  let n := match nb with Some n => n | None => (Nat.max h w / 4)%nat end in
  (0 < n)%nat -> (forall o, In o (o0 :: os) -> reg_H (compared sl o0 o) = h /\ reg_W (compared sl o0 o) = w) ->
  calc_consistency_prtf synth (o0 :: os) b1 b2 sl nb = Ok (n, edge n (frc_range h w (length3 b1) (length3 b2) Corner),
    fun b => mean_list (map (fun o => (ring_signal h w n (length3 b1) (length3 b2) (at_region (compared sl o0 synth) (o_data synth)) b /
                                       ring_signal h w n (length3 b1) (length3 b2) (at_region (compared sl o0 o) (o_data o)) b)%R) (o0 :: os))).
Proof.
  intros h w n Hn SH. unfold calc_consistency_prtf.
  assert (C : (match sl with Some s => s | None => (default_slice (o_H o0), default_slice (o_W o0)) end) = chosen (o_H o0) (o_W o0) sl) by (destruct sl; reflexivity).
  rewrite C. fold (compared sl o0 synth). fold h w. fold n. replace (Nat.eqb n 0) with false by (symmetry; apply Nat.eqb_neq; lia). cbn [orb].
  assert (F : forallb (fun o => (Nat.eqb (reg_H (clip2 (o_H o) (o_W o) (chosen (o_H o0) (o_W o0) sl))) h && Nat.eqb (reg_W (clip2 (o_H o) (o_W o) (chosen (o_H o0) (o_W o0) sl))) w)%bool) (o0 :: os) = true).
  { apply forallb_forall. intros o Ho. destruct (SH o Ho) as [E1 E2]. apply andb_true_intro. split; apply Nat.eqb_eq; assumption. }
  rewrite F. cbn [negb]. do 2 f_equal. apply functional_extensionality. intros b. apply mean_ext. intros o Ho. rewrite !ring_power_signal. reflexivity.
Qed.
Lemma rmax_ge m : forall f k, (k < m)%nat -> (f k <= rmax_n m f)%R.
Proof. induction m as [|m IH]; intros f k Hk; [lia|]. cbn [rmax_n]. destruct (Nat.eq_dec k m) as [->|NE]; [apply Rmax_r|]. apply Rle_trans with (rmax_n m f); [apply IH; lia|apply Rmax_l]. Qed.
Lemma in_bin_ring n top b r : (0 < n)%nat -> (0 < top)%R -> in_bin n top b r = true <-> in_ring n top b r.
Proof.
  intros Hn TP. assert (E : forall b, edge n top b = (INR b / INR n * top)%R) by (intros c; unfold edge; destruct (Req_EM_T top 0) as [Z|_]; [lra|]; field; apply not_0_INR; lia).
  assert (EN : edge n top n = top) by (rewrite E; field; apply not_0_INR; lia).
  assert (LT : (INR b / INR n * top < INR (S b) / INR n * top)%R).
  { apply Rmult_lt_compat_r; [exact TP|]. unfold Rdiv. apply Rmult_lt_compat_r; [apply Rinv_0_lt_compat, lt_0_INR; lia|]. apply lt_INR. lia. }
  unfold in_bin, in_ring. rewrite EN, !E. destruct (Rle_dec _ r) as [L|L].
  - destruct (Rlt_dec r _) as [M|M]; [split; [left; split; assumption|reflexivity]|]. destruct (Nat.eqb (S b) n) eqn:EB.
    + apply Nat.eqb_eq in EB. destruct (Req_EM_T r top) as [->|NE]; [split; [right; split; [exact EB|reflexivity]|reflexivity]|]. split; [discriminate|]. intros [[_ Q]|[_ Q]]; contradiction.
    + apply Nat.eqb_neq in EB. split; [discriminate|]. intros [[_ Q]|[Q _]]; contradiction.
  - split; [discriminate|]. intros [[Q _]|[Q ->]]; [contradiction|]. exfalso. apply L. assert (T : (INR (S b) / INR n * top = top)%R) by (rewrite Q; field; apply not_0_INR; lia). lra.
Qed.
(** C82: the call succeeds when there is an object, all compared parts have the shape of the synthesized object's, and
    there is at least one ring; the frequencies are the lower edges of n rings of equal width, from 0 to the largest
    frequency in the (rectangular) spectrum; a value is the mean, over the objects, of the ratio of the powers in the
    ring. *)
Theorem C82_value : forall synth o0 os b1 b2 sl nb, let h := reg_H (compared sl o0 synth) in let w := reg_W (compared sl o0 synth) in
  let n := match nb with Some n => n | None => (Nat.max h w / 4)%nat end in
  (0 < n)%nat -> (forall o, In o (o0 :: os) -> reg_H (compared sl o0 o) = h /\ reg_W (compared sl o0 o) = w) ->
  exists freqs prtf, calc_consistency_prtf synth (o0 :: os) b1 b2 sl nb = Ok (n, freqs, prtf) /\
  (let top := frc_range h w (length3 b1) (length3 b2) Corner in (0 < top)%R -> (forall b, freqs b = (INR b / INR n * top)%R) /\
     (forall i j, (i < h)%nat -> (j < w)%nat -> (0 <= radius h w (length3 b1) (length3 b2) i j <= top)%R) /\
     (forall b i j, (b < n)%nat -> frc_bin h w n (length3 b1) (length3 b2) Corner b i j = true <-> in_ring n top b (radius h w (length3 b1) (length3 b2) i j))) /\
  forall b, prtf b = mean_list (map (fun o => (ring_signal h w n (length3 b1) (length3 b2) (at_region (compared sl o0 synth) (o_data synth)) b /
                                       ring_signal h w n (length3 b1) (length3 b2) (at_region (compared sl o0 o) (o_data o)) b)%R) (o0 :: os)).
Proof.
  intros synth o0 os b1 b2 sl nb h w n Hn SH. eexists. eexists. split; [exact (prtf_form synth o0 os b1 b2 sl nb Hn SH)|]. split; [|intros b; reflexivity].
  intros top TP. fold h w n. fold top. split; [|split].
  - intros b. unfold edge. destruct (Req_EM_T top 0) as [Z|_]; [lra|]. field. apply not_0_INR. lia.
  - intros i j Hi Hj. split; [apply sqrt_pos|]. unfold top, frc_range.
    apply Rle_trans with (rmax_n w (radius h w (length3 b1) (length3 b2) i)); [now apply rmax_ge|]. exact (rmax_ge h (fun i => rmax_n w (radius h w (length3 b1) (length3 b2) i)) i Hi).
  - intros b i j Hb. unfold frc_bin. fold top. now apply in_bin_ring.
Qed.
Print Assumptions C82_value.
(** The powers do not see a phase and a roll, ... *)
Lemma ring_signal_scaled h w n di dj x y c a b r : (0 < h)%nat -> (0 < w)%nat -> same h w y (scaled c (rolled h w x a b)) -> ring_signal h w n di dj y r = (nrm2 c * ring_signal h w n di dj x r)%R.
Proof.
  intros Hh Hw E. unfold ring_signal, power. rewrite rsum_scal. apply rsum_ext. intros i _. rewrite rsum_scal. apply rsum_ext. intros j _. unfold masked, spectrum, fftshift2.
  destruct (frc_bin h w n di dj Corner r i j); [|unfold nrm2, RtoC; cbn [fst snd]; ring].
  rewrite (fft2_ext h w _ _ _ _ E). unfold scaled. rewrite fft2_scal, fft2_rolled by assumption. rewrite !nrm2_mult.
  assert (U : forall m z, nrm2 (Fourier.w m z) = 1%R) by (intros m z; pose proof (Cmod_cis (2 * PI * IZR z / INR m)) as Q; rewrite Cmod_nrm2 in Q; unfold Fourier.w; rewrite <- (sqrt_sqrt (nrm2 (cis (2 * PI * IZR z / INR m)))) by apply nrm2_nonneg; rewrite Q; ring).
  rewrite !U. ring.
Qed.
Lemma nrm2_unit c : unit_modulus c -> nrm2 c = 1%R.
Proof. intros U. unfold unit_modulus in U. rewrite Cmod_nrm2 in U. rewrite <- (sqrt_sqrt (nrm2 c)) by apply nrm2_nonneg. rewrite U. ring. Qed.
(** C82: the synthesized object's brightness scales the values; global phases and rolls of the compared parts do not
    matter. *)
Theorem C82_insensitive : forall synth synth' o0 os o0' os' b1 b2 sl nb c, let s := compared sl o0 synth in let h := reg_H s in let w := reg_W s in (0 < h)%nat -> (0 < w)%nat ->
  (nb <> Some 0 /\ (nb = None -> 4 <= Nat.max h w))%nat ->
  (forall o, In o (synth' :: o0 :: os ++ o0' :: os') -> o_H o = o_H synth /\ o_W o = o_W synth) ->
  (exists a b, same h w (at_region s (o_data synth')) (scaled c (rolled h w (at_region s (o_data synth)) a b))) ->
  Forall2 (fun o o' => exists a b d, unit_modulus d /\ same h w (at_region s (o_data o')) (scaled d (rolled h w (at_region s (o_data o)) a b))) (o0 :: os) (o0' :: os') ->
  exists n freqs prtf prtf', calc_consistency_prtf synth (o0 :: os) b1 b2 sl nb = Ok (n, freqs, prtf) /\ calc_consistency_prtf synth' (o0' :: os') b1 b2 sl nb = Ok (n, freqs, prtf') /\
  forall b, prtf' b = (Cmod c ^ 2 * prtf b)%R.
Proof.
  intros synth synth' o0 os o0' os' b1 b2 sl nb c s h w Hh Hw NB SH (a & b & ES) F.
  assert (CE : forall o o1, In o (synth :: synth' :: o0 :: os ++ o0' :: os') -> In o1 (o0 :: os ++ o0' :: os') -> compared sl o1 o = s).
  { intros o o1 Ho Ho1. unfold s, compared. assert (EO : o_H o = o_H synth /\ o_W o = o_W synth) by (destruct Ho as [<-|Ho]; [auto|now apply SH]). destruct EO as [-> ->].
    destruct (SH o1 (or_intror Ho1)) as [-> ->]. destruct (SH o0 ltac:(cbn; auto)) as [-> ->]. reflexivity. }
  set (n := match nb with Some n => n | None => (Nat.max h w / 4)%nat end).
  assert (Hn : (0 < n)%nat). { unfold n. destruct NB as [N1 N2]. destruct nb as [[|m]|]; [contradiction|lia|]. apply Nat.div_str_pos. specialize (N2 eq_refl). lia. }
  assert (I0 : In o0 (o0 :: os ++ o0' :: os')) by now left. assert (I0' : In o0' (o0 :: os ++ o0' :: os')) by (right; apply in_or_app; right; now left).
  pose proof (prtf_form synth o0 os b1 b2 sl nb) as P. cbv zeta in P. fold s in P. fold h w in P. fold n in P.
  pose proof (prtf_form synth' o0' os' b1 b2 sl nb) as P'. cbv zeta in P'. rewrite (CE synth' o0' ltac:(cbn; auto) I0') in P'. fold h w in P'. fold n in P'.
  eexists. eexists. eexists. eexists. split; [|split].
  - apply P; [exact Hn|]. intros o Ho. rewrite (CE o o0) by (cbn [In] in *; rewrite in_app_iff; intuition). split; reflexivity.
  - apply P'; [exact Hn|]. intros o Ho. rewrite (CE o o0'); [split; reflexivity| |exact I0']. cbn [In]. rewrite in_app_iff. auto.
  - intros r. cbv beta. set (di := length3 b1). set (dj := length3 b2).
    set (S := ring_signal h w n di dj (at_region s (o_data synth)) r).
    rewrite (ring_signal_scaled h w n di dj _ _ c a b r Hh Hw ES). fold S.
    replace (Cmod c ^ 2)%R with (nrm2 c) by (rewrite Cmod_nrm2, pow2_sqrt by apply nrm2_nonneg; reflexivity).
    assert (LE : map (fun o => (nrm2 c * S / ring_signal h w n di dj (at_region (compared sl o0' o) (o_data o)) r)%R) (o0' :: os') =
                 map (fun o => (nrm2 c * (S / ring_signal h w n di dj (at_region (compared sl o0 o) (o_data o)) r))%R) (o0 :: os)).
    { assert (IL : incl (o0 :: os) (o0 :: os ++ o0' :: os')) by (intros z Hz; cbn [In] in *; rewrite in_app_iff; intuition).
      assert (IR : incl (o0' :: os') (o0 :: os ++ o0' :: os')) by (intros z Hz; cbn [In] in *; rewrite in_app_iff; auto).
      assert (G : forall l l', incl l (o0 :: os ++ o0' :: os') -> incl l' (o0 :: os ++ o0' :: os') ->
        Forall2 (fun o o' => exists a b d, unit_modulus d /\ same h w (at_region s (o_data o')) (scaled d (rolled h w (at_region s (o_data o)) a b))) l l' ->
        map (fun o => (nrm2 c * S / ring_signal h w n di dj (at_region (compared sl o0' o) (o_data o)) r)%R) l' =
        map (fun o => (nrm2 c * (S / ring_signal h w n di dj (at_region (compared sl o0 o) (o_data o)) r))%R) l).
      { intros l l' JL JR G. induction G as [|o o' l l' Q G IH]; [reflexivity|]. cbn [map]. f_equal.
        - destruct Q as (x & y & d & U & Q). rewrite (CE o' o0'), (CE o o0); [|right; right; apply JL; now left|exact I0|right; right; apply JR; now left|exact I0'].
          rewrite (ring_signal_scaled h w n di dj _ _ d x y r Hh Hw Q), (nrm2_unit d U), Rmult_1_l. unfold Rdiv. ring.
        - apply IH; intros z Hz; [apply JL|apply JR]; now right. }
      exact (G _ _ IL IR F). }
    rewrite LE. unfold mean_list. rewrite !map_length.
    assert (SC : forall (l : list obj_array) (g : obj_array -> R), fold_right Rplus 0%R (map (fun o => (nrm2 c * g o)%R) l) = (nrm2 c * fold_right Rplus 0%R (map g l))%R).
    { induction l as [|z l IH]; intros g; [cbn; ring|]. cbn [map fold_right]. rewrite IH. ring. }
    rewrite SC. unfold Rdiv. ring.
Qed.
Print Assumptions C82_insensitive.
(** ... and are 1 where every object is the synthesized one up to a phase and a roll. *)
Theorem C82_identical : forall synth o0 os b1 b2 sl nb, let s := compared sl o0 synth in let h := reg_H s in let w := reg_W s in (0 < h)%nat -> (0 < w)%nat ->
  (nb <> Some 0 /\ (nb = None -> 4 <= Nat.max h w))%nat ->
  (forall o, In o (o0 :: os) -> o_H o = o_H synth /\ o_W o = o_W synth /\
     exists a b d, unit_modulus d /\ same h w (at_region s (o_data o)) (scaled d (rolled h w (at_region s (o_data synth)) a b))) ->
  exists n freqs prtf, calc_consistency_prtf synth (o0 :: os) b1 b2 sl nb = Ok (n, freqs, prtf) /\ n = match nb with Some n => n | None => (Nat.max h w / 4)%nat end /\
  forall r, ring_signal h w n (length3 b1) (length3 b2) (at_region s (o_data synth)) r <> 0%R -> prtf r = 1%R.
Proof.
  intros synth o0 os b1 b2 sl nb s h w Hh Hw NB F.
  assert (CE : forall o, In o (o0 :: os) -> compared sl o0 o = s) by (intros o Ho; unfold s, compared; destruct (F o Ho) as (-> & -> & _); reflexivity).
  set (n := match nb with Some n => n | None => (Nat.max h w / 4)%nat end).
  assert (Hn : (0 < n)%nat). { unfold n. destruct NB as [N1 N2]. destruct nb as [[|m]|]; [contradiction|lia|]. apply Nat.div_str_pos. specialize (N2 eq_refl). lia. }
  eexists. eexists. eexists. split.
  - apply (prtf_form synth o0 os b1 b2 sl nb); [exact Hn|]. intros o Ho. rewrite (CE o Ho). split; reflexivity.
  - split; [reflexivity|]. intros r N. cbv beta. fold s. fold h w. fold n in N |- *. rewrite <- (mean_const (o0 :: os) 1%R) by discriminate. apply mean_ext. intros o Ho. rewrite (CE o Ho).
    destruct (F o Ho) as (_ & _ & a & b & d & U & E). rewrite (ring_signal_scaled h w n _ _ _ _ d a b r Hh Hw E), (nrm2_unit d U), Rmult_1_l. now apply Rinv_r.
Qed.
Print Assumptions C82_identical.
Lemma in_bin_one top r : (0 <= r <= top)%R -> in_bin 1 top 0 r = true.
Proof.
  intros [R0 R1]. unfold in_bin, edge. destruct (Req_EM_T top 0) as [T|T].
  - destruct (Rle_dec _ r) as [_|N]; [|cbn [INR] in N; lra]. destruct (Rlt_dec r _) as [_|N]; [reflexivity|cbn [INR] in N; lra].
  - destruct (Rle_dec _ r) as [_|N]; [|cbn [INR] in N; lra]. destruct (Rlt_dec r _) as [_|N]; [reflexivity|]. cbn [Nat.eqb]. destruct (Req_EM_T r _) as [_|M]; [reflexivity|]. cbn [INR] in N, M. lra.
Qed.
Lemma one_ring h w di dj x : (0 < h)%nat -> (0 < w)%nat -> ring_signal h w 1 di dj x 0 = (INR h * INR w * power h w x)%R.
Proof.
  intros Hh Hw. unfold ring_signal. transitivity (power h w (spectrum h w x)).
  - unfold power. apply rsum_ext. intros i Hi. apply rsum_ext. intros j Hj. unfold masked, frc_bin. rewrite in_bin_one; [reflexivity|]. split; [apply sqrt_pos|].
    apply Rle_trans with (rmax_n w (radius h w di dj i)); [now apply rmax_ge|]. exact (rmax_ge h (fun i => rmax_n w (radius h w di dj i)) i Hi).
  - unfold spectrum. change power with energy. now rewrite fftshift_energy, fft2_energy by assumption.
Qed.
(** C82: with one bin, the value is the mean ratio of the total intensities of the compared parts. *)
Theorem C82_one_ring : forall synth o0 os b1 b2 sl, let s := compared sl o0 synth in let h := reg_H s in let w := reg_W s in (0 < h)%nat -> (0 < w)%nat ->
  (forall o, In o (o0 :: os) -> o_H o = o_H synth /\ o_W o = o_W synth) ->
  exists freqs prtf, calc_consistency_prtf synth (o0 :: os) b1 b2 sl (Some 1%nat) = Ok (1%nat, freqs, prtf) /\
  prtf 0%nat = mean_list (map (fun o => (power h w (at_region s (o_data synth)) / power h w (at_region s (o_data o)))%R) (o0 :: os)).
Proof.
  intros synth o0 os b1 b2 sl s h w Hh Hw F.
  assert (CE : forall o, In o (o0 :: os) -> compared sl o0 o = s) by (intros o Ho; unfold s, compared; destruct (F o Ho) as [-> ->]; reflexivity).
  eexists. eexists. split.
  - apply (prtf_form synth o0 os b1 b2 sl (Some 1%nat)); [lia|]. intros o Ho. rewrite (CE o Ho). split; reflexivity.
  - cbv beta. fold s. fold h w. apply mean_ext. intros o Ho. rewrite (CE o Ho). fold h w. rewrite !one_ring by assumption. unfold Rdiv.
    assert (P : (INR h * INR w <> 0)%R) by (apply Rmult_integral_contrapositive; split; apply not_0_INR; lia).
    rewrite Rinv_mult. set (k := (INR h * INR w)%R) in *. set (x := power h w _). set (y := (/ power h w _)%R). transitivity (k * / k * (x * y))%R; [ring|]. rewrite Rinv_r by exact P. ring.
Qed.
Print Assumptions C82_one_ring.
(** The power in a ring of a mean is at most the mean of the powers. *)
Lemma sum_square (n a S Q : R) : (0 <= n)%R -> (0 <= Q)%R -> (S * S <= n * Q)%R -> ((a + S) * (a + S) <= (n + 1) * (a * a + Q))%R.
Proof.
  intros Hn HQ HS. assert (K : (2 * a * S <= n * (a * a) + Q)%R).
  { destruct (Req_dec n 0) as [->|NZ].
    - assert (S = 0)%R by nra. subst S. nra.
    - assert (PN : (0 < n)%R) by lra. apply Rmult_le_reg_l with n; [exact PN|]. pose proof (Rle_0_sqr (n * a - S)) as SQ. unfold Rsqr in SQ. lra. }
  lra.
Qed.
Lemma nrm2_total {A} (f : A -> C) (l : list A) : (nrm2 (total f l) <= INR (length l) * fold_right Rplus 0 (map (fun a => nrm2 (f a)) l))%R.
Proof.
  assert (G : forall g : A -> R, (0 <= fold_right Rplus 0 (map (fun a => g a * g a) l) /\ fold_right Rplus 0 (map g l) * fold_right Rplus 0 (map g l) <= INR (length l) * fold_right Rplus 0 (map (fun a => g a * g a) l))%R).
  { intros g. induction l as [|a l [I1 I2]]; [cbn; lra|]. cbn [map fold_right length]. rewrite S_INR. split; [nra|]. apply sum_square; [apply pos_INR|exact I1|exact I2]. }
  assert (E1 : fst (total f l) = fold_right Rplus 0%R (map (fun a => fst (f a)) l)) by (clear G; induction l as [|a l IH]; [reflexivity|cbn [total map fold_right fst Cplus] in *; now rewrite <- IH]).
  assert (E2 : snd (total f l) = fold_right Rplus 0%R (map (fun a => snd (f a)) l)) by (clear G E1; induction l as [|a l IH]; [reflexivity|cbn [total map fold_right snd Cplus] in *; now rewrite <- IH]).
  assert (E3 : fold_right Rplus 0%R (map (fun a => nrm2 (f a)) l) = (fold_right Rplus 0 (map (fun a => fst (f a) * fst (f a)) l) + fold_right Rplus 0 (map (fun a => snd (f a) * snd (f a)) l))%R).
  { clear. induction l as [|a l IH]; [cbn; ring|]. cbn [map fold_right]. rewrite IH. unfold nrm2. ring. }
  unfold nrm2 at 1. rewrite E1, E2, E3. destruct (G (fun a => fst (f a))) as [_ G1], (G (fun a => snd (f a))) as [_ G2]. nra.
Qed.
Lemma fft2_total {A} N M (x : A -> img) l i j : fft2 N M (fun a b => total (fun o => x o a b) l) i j = total (fun o => fft2 N M (x o) i j) l.
Proof.
  induction l as [|o l IH].
  - unfold fft2, dft. apply csum_zero'. intros a _. rewrite csum_zero'; [ring|]. intros b _. cbn. ring.
  - change (fft2 N M (fun a b => x o a b + total (fun o => x o a b) l) i j = fft2 N M (x o) i j + total (fun o => fft2 N M (x o) i j) l). rewrite <- IH. unfold fft2, dft. rewrite <- csum_add. apply csum_ext. intros a _. rewrite <- Cmult_plus_distr_r. f_equal. rewrite <- csum_add. apply csum_ext. intros b _. ring.
Qed.
Lemma rsum_list {A} n (g : A -> nat -> R) l : rsum n (fun i => fold_right Rplus 0%R (map (fun a => g a i) l)) = fold_right Rplus 0%R (map (fun a => rsum n (g a)) l).
Proof.
  induction l as [|a l IH]; cbn [map fold_right]; [|rewrite <- IH, rsum_add; reflexivity]. apply rsum_zero.
Qed.
Lemma ring_signal_mean {A} h w n di dj (x : A -> img) (l : list A) y r : l <> [] -> same h w y (fun i j => total (fun o => x o i j) l / RtoC (INR (length l))) ->
  (ring_signal h w n di dj y r <= mean_list (map (fun o => ring_signal h w n di dj (x o) r) l))%R.
Proof.
  intros NE E. assert (PL : (0 < INR (length l))%R) by (apply lt_0_INR; destruct l; [contradiction|cbn; lia]).
  unfold mean_list. rewrite map_length. unfold ring_signal at 2. unfold power.
  rewrite <- (rsum_list h (fun o i => rsum w (fun j => nrm2 (masked (frc_bin h w n di dj Corner r) (spectrum h w (x o)) i j)))).
  unfold Rdiv. rewrite Rmult_comm, rsum_scal. apply rsum_le. intros i _. rewrite <- (rsum_list w (fun o j => nrm2 (masked (frc_bin h w n di dj Corner r) (spectrum h w (x o)) i j))). rewrite rsum_scal. apply rsum_le. intros j _.
  unfold masked, spectrum, fftshift2. destruct (frc_bin h w n di dj Corner r i j).
  - rewrite (fft2_ext h w _ _ _ _ E). unfold Cdiv.
    rewrite (fft2_ext h w _ (fun i j => / RtoC (INR (length l)) * total (fun o => x o i j) l)) by (intros a b _ _; ring). rewrite fft2_scal, fft2_total, nrm2_mult.
    set (u := total _ l). pose proof (nrm2_total (fun o => fft2 h w (x o) (roll h (h / 2) i) (roll w (w / 2) j)) l) as T. fold u in T.
    rewrite <- RtoC_inv by lra. replace (nrm2 (RtoC (/ INR (length l)))) with (/ INR (length l) * / INR (length l))%R by (unfold nrm2, RtoC; cbn [fst snd]; ring).
    rewrite Rmult_assoc. apply Rmult_le_compat_l; [left; now apply Rinv_0_lt_compat|].
    apply Rmult_le_reg_l with (INR (length l)); [exact PL|]. rewrite <- Rmult_assoc, Rinv_r, Rmult_1_l by lra. exact T.
  - replace (nrm2 0) with 0%R by (unfold nrm2, RtoC; cbn [fst snd]; ring). apply Rmult_le_pos; [left; now apply Rinv_0_lt_compat|]. clear. induction l as [|a l IH]; cbn [map fold_right]; [lra|]. lra.
Qed.
(** C82: when the synthesized object is the mean of the objects over the compared part, a value is at most the product of
    the mean power and the mean inverse power of the objects in the ring; so it is at most 1 when all objects have the
    same power there (as reconstructions of one data set should) ... *)
Theorem C82_mean : forall synth o0 os b1 b2 sl nb, let s := compared sl o0 synth in let h := reg_H s in let w := reg_W s in (0 < h)%nat -> (0 < w)%nat ->
  (nb <> Some 0 /\ (nb = None -> 4 <= Nat.max h w))%nat ->
  (forall o, In o (o0 :: os) -> o_H o = o_H synth /\ o_W o = o_W synth) ->
  same h w (at_region s (o_data synth)) (fun i j => total (fun o => at_region s (o_data o) i j) (o0 :: os) / RtoC (INR (length (o0 :: os)))) ->
  exists n freqs prtf, calc_consistency_prtf synth (o0 :: os) b1 b2 sl nb = Ok (n, freqs, prtf) /\
  forall r, let P := fun o => ring_signal h w n (length3 b1) (length3 b2) (at_region s (o_data o)) r in
    ((forall o, In o (o0 :: os) -> 0 < P o) -> 0 <= prtf r <= mean_list (map P (o0 :: os)) * mean_list (map (fun o => / P o) (o0 :: os)))%R /\
    ((exists v, 0 < v /\ forall o, In o (o0 :: os) -> P o = v) -> 0 <= prtf r <= 1)%R.
Proof.
  intros synth o0 os b1 b2 sl nb s h w Hh Hw NB F ES.
  assert (CE : forall o, In o (o0 :: os) -> compared sl o0 o = s) by (intros o Ho; unfold s, compared; destruct (F o Ho) as [-> ->]; reflexivity).
  set (n := match nb with Some n => n | None => (Nat.max h w / 4)%nat end).
  assert (Hn : (0 < n)%nat). { unfold n. destruct NB as [N1 N2]. destruct nb as [[|m]|]; [contradiction|lia|]. apply Nat.div_str_pos. specialize (N2 eq_refl). lia. }
  eexists. eexists. eexists. split.
  - apply (prtf_form synth o0 os b1 b2 sl nb); [exact Hn|]. intros o Ho. rewrite (CE o Ho). split; reflexivity.
  - intros r P. cbv beta. fold s. fold h w. fold n in P |- *.
    assert (EM : mean_list (map (fun o => (ring_signal h w n (length3 b1) (length3 b2) (at_region s (o_data synth)) r / ring_signal h w n (length3 b1) (length3 b2) (at_region (compared sl o0 o) (o_data o)) r)%R) (o0 :: os)) =
                 (ring_signal h w n (length3 b1) (length3 b2) (at_region s (o_data synth)) r * mean_list (map (fun o => / P o) (o0 :: os)))%R).
    { rewrite (mean_ext _ (fun o => (ring_signal h w n (length3 b1) (length3 b2) (at_region s (o_data synth)) r * / P o)%R)) by (intros o Ho; rewrite (CE o Ho); reflexivity).
      unfold mean_list. rewrite !map_length. unfold Rdiv. rewrite <- Rmult_assoc. f_equal. generalize (o0 :: os) as l. induction l as [|z l IH]; [cbn; ring|]. cbn [map fold_right]. rewrite IH. ring. }
    rewrite EM. pose proof (ring_signal_mean h w n (length3 b1) (length3 b2) (fun o => at_region s (o_data o)) (o0 :: os) _ r ltac:(discriminate) ES) as B. fold P in B.
    assert (N0 : (0 <= ring_signal h w n (length3 b1) (length3 b2) (at_region s (o_data synth)) r)%R) by (apply rsum_nonneg; intros i _; apply rsum_nonneg; intros j _; apply nrm2_nonneg).
    assert (G : (forall o, In o (o0 :: os) -> 0 < P o)%R -> (0 <= mean_list (map (fun o => / P o) (o0 :: os)))%R).
    { intros PP. unfold mean_list. apply Rmult_le_pos; [|left; apply Rinv_0_lt_compat, lt_0_INR; cbn; lia]. revert PP. generalize (o0 :: os) as l. induction l as [|z l IH]; intros PP; [cbn; lra|]. cbn [map fold_right].
      apply Rplus_le_le_0_compat; [left; apply Rinv_0_lt_compat, PP; now left|apply IH; intros; apply PP; now right]. }
    split.
    + intros PP. specialize (G PP). split; [now apply Rmult_le_pos|]. now apply Rmult_le_compat_r.
    + intros (v & Pv & PV). assert (G' := G ltac:(intros o Ho; rewrite PV by exact Ho; exact Pv)). split; [now apply Rmult_le_pos|].
      rewrite (mean_ext P (fun _ => v)) in B by exact PV. rewrite mean_const in B by discriminate. rewrite (mean_ext _ (fun _ => (/ v)%R)) by (intros o Ho; now rewrite PV). rewrite mean_const by discriminate.
      apply Rmult_le_reg_r with v; [exact Pv|]. rewrite Rmult_assoc, Rinv_l by lra. lra.
Qed.
Print Assumptions C82_mean.
(** ... but not in general: for an object and three times that object, the mean has a value of 20/9 wherever there is signal. *)
Theorem C82_above_one_refuted : forall o0 b1 b2 sl nb, let s := compared sl o0 o0 in let h := reg_H s in let w := reg_W s in (0 < h)%nat -> (0 < w)%nat ->
  (nb <> Some 0 /\ (nb = None -> 4 <= Nat.max h w))%nat ->
  let times c := {| o_H := o_H o0; o_W := o_W o0; o_data := scaled (RtoC c) (o_data o0) |} in
  exists n freqs prtf, calc_consistency_prtf (times 2%R) [o0; times 3%R] b1 b2 sl nb = Ok (n, freqs, prtf) /\
  forall r, ring_signal h w n (length3 b1) (length3 b2) (at_region s (o_data o0)) r <> 0%R -> prtf r = (20 / 9)%R.
Proof.
  intros o0 b1 b2 sl nb s h w Hh Hw NB times.
  set (n := match nb with Some n => n | None => (Nat.max h w / 4)%nat end).
  assert (Hn : (0 < n)%nat). { unfold n. destruct NB as [N1 N2]. destruct nb as [[|m]|]; [contradiction|lia|]. apply Nat.div_str_pos. specialize (N2 eq_refl). lia. }
  eexists. eexists. eexists. split.
  - apply (prtf_form (times 2%R) o0 [times 3%R] b1 b2 sl nb); [exact Hn|]. intros o [<-|[<-|[]]]; split; reflexivity.
  - intros r N. cbv beta. change (compared sl o0 (times 2%R)) with s. fold h w. fold n in N |- *. cbn [map]. change (compared sl o0 (times 3%R)) with s. change (compared sl o0 o0) with s.
    assert (K : forall c, ring_signal h w n (length3 b1) (length3 b2) (at_region s (o_data (times c))) r = (c * c * ring_signal h w n (length3 b1) (length3 b2) (at_region s (o_data o0)) r)%R).
    { intros c. rewrite (ring_signal_scaled h w n _ _ (at_region s (o_data o0)) (at_region s (o_data (times c))) (RtoC c) 0 0 r Hh Hw).
      - f_equal. unfold nrm2, RtoC. cbn [fst snd]. ring.
      - intros i j Hi Hj. unfold scaled. rewrite rolled_0 by assumption. reflexivity. }
    rewrite !K. unfold mean_list. cbn [fold_right length INR]. field. exact N.
Qed.
Print Assumptions C82_above_one_refuted.
(** C82: the calls that fail: no objects, no bins, compared parts of different shapes; and, without a number of bins,
    whenever the compared part has fewer than 4 rows and columns - with the default part, objects of fewer than 16 pixels
    a side. *)
Theorem C82_errors : forall synth b1 b2 sl nb,
  calc_consistency_prtf synth [] b1 b2 sl nb = Raise IndexError /\
  forall o0 os,
  (nb = Some 0%nat \/ (exists o, In o (o0 :: os) /\ (reg_H (compared sl o0 o) <> reg_H (compared sl o0 synth) \/ reg_W (compared sl o0 o) <> reg_W (compared sl o0 synth))) \/
   (nb = None /\ sl = None /\ (o_H o0 < 16)%nat /\ (o_W o0 < 16)%nat) ->
   calc_consistency_prtf synth (o0 :: os) b1 b2 sl nb = Raise ValueError) /\
  (forall e, calc_consistency_prtf synth (o0 :: os) b1 b2 sl nb = Raise e -> e = ValueError).
Proof.
  intros synth b1 b2 sl nb. split; [reflexivity|]. intros o0 os. unfold calc_consistency_prtf.
  assert (C : (match sl with Some s => s | None => (default_slice (o_H o0), default_slice (o_W o0)) end) = chosen (o_H o0) (o_W o0) sl) by (destruct sl; reflexivity).
  rewrite C. fold (compared sl o0 synth). split.
  - intros D. set (bb := (_ || _)%bool). enough (E : bb = true) by now rewrite E. unfold bb. clear bb. apply Bool.orb_true_iff. destruct D as [->|[(o & Ho & D)|(-> & -> & D1 & D2)]].
    + now left.
    + right. apply Bool.negb_true_iff. destruct (forallb _ _) eqn:EF; [|reflexivity]. exfalso. rewrite forallb_forall in EF. specialize (EF o Ho). apply andb_prop in EF. destruct EF as [E1 E2].
      apply Nat.eqb_eq in E1, E2. destruct D as [D|D]; contradiction.
    + left. apply Nat.eqb_eq. apply Nat.div_small. unfold compared, chosen, clip2, clip, reg_H, reg_W. cbn [fst snd].
      assert (o_H o0 / 8 <= 1)%nat by (apply Nat.lt_succ_r; apply Nat.div_lt_upper_bound; lia). assert (o_W o0 / 8 <= 1)%nat by (apply Nat.lt_succ_r; apply Nat.div_lt_upper_bound; lia). lia.
  - intros e. destruct (_ || _)%bool; intros E; [now injection E|discriminate].
Qed.
Print Assumptions C82_errors.
(** A case: an object of 32 x 32 pixels with one bright pixel in the default part, and the object rolled. *)
Example C82_case : let o := {| o_H := 32; o_W := 32; o_data := pixel 14 15 |} in let o' := {| o_H := 32; o_W := 32; o_data := scaled Ci (pixel 16 13) |} in
  exists n freqs prtf, calc_consistency_prtf o [o; o'] (1, 0, 0)%R (0, 1, 0)%R None (Some 1%nat) = Ok (n, freqs, prtf) /\ n = 1%nat /\ prtf 0%nat = 1%R.
Proof.
  intros o o'. pose proof (C82_identical o o [o'] (1, 0, 0)%R (0, 1, 0)%R None (Some 1%nat)) as Q. cbv zeta in Q.
  change (reg_H (compared None o o)) with 8%nat in Q. change (reg_W (compared None o o)) with 8%nat in Q.
  destruct Q as (n & freqs & prtf & E & EN & V); try lia.
  - split; discriminate.
  - intros x [<-|[<-|[]]]; (split; [reflexivity|split; [reflexivity|]]).
    + exists 0%Z, 0%Z, (RtoC 1). split; [unfold unit_modulus; now rewrite Cmod_1|]. intros i j Hi Hj. unfold scaled. rewrite rolled_0 by assumption. now rewrite Cmult_1_l.
    + exists 2%Z, (-2)%Z, Ci. split; [unfold unit_modulus, Cmod, Ci; cbn [fst snd]; replace (0 ^ 2 + 1 ^ 2)%R with 1%R by ring; apply sqrt_1|].
      intros i j Hi Hj. unfold scaled, rolled, at_region, o', o, o_data. f_equal. change (fst (fst (compared None _ _))) with 12%nat. change (fst (snd (compared None _ _))) with 12%nat.
      do 8 (destruct i as [|i]; [do 8 (destruct j as [|j]; [reflexivity|]); lia|]). lia.
  - exists n, freqs, prtf. split; [exact E|]. split; [exact EN|]. apply V. rewrite EN, one_ring by lia.
    assert (PW : (0 < power 8 8 (at_region (compared None o o) (o_data o)))%R).
    { assert (G : (1 <= power 8 8 (at_region (compared None o o) (o_data o)))%R); [|lra]. unfold power. change (fun i => rsum 8 _) with (fun i => rsum 8 (fun j => nrm2 (pixel 2 3 i j))).
      rewrite (rsum_single 8 2); [|lia|].
      - rewrite (rsum_single 8 3); [|lia|]; [unfold pixel, nrm2, RtoC; cbn; lra|]. intros j _ NE. unfold pixel. cbn [Nat.eqb]. replace (Nat.eqb j 3) with false by (symmetry; now apply Nat.eqb_neq). unfold nrm2, RtoC. cbn. ring.
      - intros i _ NE. apply rsum_zero'. intros j _. unfold pixel. replace (Nat.eqb i 2) with false by (symmetry; now apply Nat.eqb_neq). unfold nrm2, RtoC. cbn. ring. }
    cbn [INR]. lra.
Qed.
