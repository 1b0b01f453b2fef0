(** C87: the colours of complex pictures. *)
From Verif Require Import Base FinSum Fourier Matrix Model_Prop Model_Analysis Model_Color Spec_Color Proofs_Standard Proofs_Color.
From Coquelicot Require Import Rcomplements Complex.
From Flocq Require Import Core.Raux.
Local Open Scope R_scope.

Lemma cis_Cmod x : Cmod (cis x) = 1.
Proof. unfold cis, Cmod. cbn [fst snd]. replace (cos x ^ 2 + sin x ^ 2) with 1. - apply sqrt_1. - pose proof (sin2_cos2 x) as Q. unfold Rsqr in Q. lra. Qed.
Lemma cis_period x k : cis (x + 2 * PI * IZR k) = cis x.
Proof. rewrite cis_add, cis_2PI_Z. ring. Qed.
Lemma Cmod_pos_scal c z : 0 < c -> Cmod (RtoC c * z)%C = c * Cmod z.
Proof. intros C. rewrite Cmod_mult, Cmod_R, Rabs_right by lra. reflexivity. Qed.
Lemma color_scal b a c z : 0 < c -> color b a (degrees (RtoC c * z)%C) = color b a (degrees z).
Proof.
  intros C. destruct (Req_dec (Cmod z) 0) as [E|N].
  - apply Cmod_eq_0 in E. subst z. rewrite Cmult_0_r. reflexivity.
  - assert (Z : z <> 0%C) by (intros ->; apply N, Cmod_0). assert (Z' : (RtoC c * z)%C <> 0%C). { intros E. apply N. pose proof (Cmod_pos_scal c z C) as Q. rewrite E, Cmod_0 in Q. nra. }
    apply color_same_direction; try assumption. rewrite (Cmod_pos_scal c z C). rewrite Cmult_assoc, <- RtoC_mult. f_equal. f_equal. field. split; [exact N|lra].
Qed.
Lemma is_max_scal H W z M c : 0 < c -> is_max H W z M -> is_max H W (fun i j => RtoC c * z i j)%C (c * M).
Proof.
  intros C [A (i & j & Hi & Hj & E)]. split.
  - intros i' j' Hi' Hj'. rewrite Cmod_pos_scal by assumption. apply Rmult_le_compat_l; [lra|]. apply A; assumption.
  - exists i, j. rewrite Cmod_pos_scal by assumption. rewrite E. auto.
Qed.
Lemma max_pos H W z M : is_max H W z M -> 0 <= M.
Proof. intros [_ (i & j & _ & _ & <-)]. apply Cmod_ge_0. Qed.
Lemma amp_range H W z M i j : is_max H W z M -> M <> 0 -> (i < H)%nat -> (j < W)%nat -> 0 <= Cmod (z i j) / M <= 1.
Proof.
  intros IM N Hi Hj. pose proof (max_pos _ _ _ _ IM). pose proof (Cmod_ge_0 (z i j)). destruct IM as [A _]. specialize (A i j Hi Hj). split.
  - apply Rdiv_le_0_compat; lra.
  - apply Rmult_le_reg_r with M; [lra|]. unfold Rdiv. rewrite Rmult_assoc, Rinv_l by exact N. lra.
Qed.

(** The picture does not depend on the overall scale of the data: c z is drawn as z. *)
Theorem C87_scale : forall cmocean s H W z c, (0 < H)%nat -> (0 < W)%nat -> 0 < c ->
  same_picture H W (colorize cmocean s H W (fun i j => RtoC c * z i j)%C) (colorize cmocean s H W z).
Proof.
  intros b s H W z c H0 W0 C. pose proof (max_abs_is_max H W z H0 W0) as IM. set (M := max_abs H W z) in *.
  pose proof (is_max_scal H W z M c C IM) as IM'. destruct (Req_dec M 0) as [E|N].
  - unfold colorize. fold M. rewrite (is_max_unique _ _ _ _ _ (max_abs_is_max H W _ H0 W0) IM'). rewrite E, Rmult_0_r. destruct Req_EM_T; [exact I|congruence].
  - rewrite (colorize_some b s H W z M H0 W0 IM N). rewrite (colorize_some b s H W _ (c * M) H0 W0 IM') by (intros Q; apply N; nra).
    cbn. intros i j _ _. rewrite color_scal, Cmod_pos_scal by assumption. f_equal. f_equal. field. split; [exact N|lra].
Qed.
Print Assumptions C87_scale.

(** The default map and the hue map are total on pictures that are not zero everywhere: every pixel has a colour, each
    channel between 0 and the scaled amplitude. In the hue map the brightest channel is the scaled amplitude and the
    darkest 15 % of it. *)
Theorem C87_brightness : forall cmocean s H W z M, (0 < H)%nat -> (0 < W)%nat -> is_max H W z M -> M <> 0 -> (forall x, 0 <= x <= 1 -> 0 <= s x) ->
  exists f, colorize cmocean s H W z = Some f /\ forall i j, (i < H)%nat -> (j < W)%nat ->
    let a := s (Cmod (z i j) / M) in within 0 a (f i j) /\
    (cmocean = false -> Rmax (red (f i j)) (Rmax (green (f i j)) (blue (f i j))) = a /\ Rmin (red (f i j)) (Rmin (green (f i j)) (blue (f i j))) = 15 / 100 * a).
Proof.
  intros b s H W z M H0 W0 IM N Hs. rewrite (colorize_some b s H W z M H0 W0 IM N). eexists. split; [reflexivity|]. intros i j Hi Hj. cbn beta zeta.
  pose proof (amp_range H W z M i j IM N Hi Hj) as A. pose proof (Hs _ A) as P. set (a := s (Cmod (z i j) / M)) in *. clearbody a. unfold color. destruct b.
  - split; [|discriminate]. unfold cmocean_color. cbv zeta. pose proof (rmod_range (degrees (z i j) + 100) 360 ltac:(lra)) as Rg.
    pose proof (interp_range 0 _ Rg) as X0. pose proof (interp_range 1 _ Rg) as X1. pose proof (interp_range 2 _ Rg) as X2. set (x := rmod (degrees (z i j) + 100) 360) in *.
    set (y0 := interp 0 x) in *. set (y1 := interp 1 x) in *. set (y2 := interp 2 x) in *. clearbody y0 y1 y2.
    assert (Q : forall y, 0 <= y <= 1 -> 0 <= y * a <= a) by (intros y [Y1 Y2]; split; [apply Rmult_le_pos; assumption|rewrite <- (Rmult_1_l a) at 2; apply Rmult_le_compat_r; assumption]).
    unfold within, red, green, blue. cbn [fst snd]. auto 6.
  - unfold hsv_color. pose proof (rmod_range (degrees (z i j) + 170) 360 ltac:(lra)) as HR. set (h := rmod (degrees (z i j) + 170) 360) in *. clearbody h.
    destruct (hsv_extremes (h / 360) a ltac:(lra) P) as (E1 & E2 & E3). split; [|intros _; split; assumption].
    unfold within in *. lra.
Qed.
Print Assumptions C87_brightness.

(** The hue map loses nothing: in one picture or two, two pixels have the same colour exactly if they are equal as
    complex numbers, each relative to its picture's largest modulus. *)
Theorem C87_distinct : forall s H W z M H' W' z' M' f f' i j i' j', faithful s ->
  (0 < H)%nat -> (0 < W)%nat -> (0 < H')%nat -> (0 < W')%nat -> is_max H W z M -> M <> 0 -> is_max H' W' z' M' -> M' <> 0 ->
  colorize false s H W z = Some f -> colorize false s H' W' z' = Some f' -> (i < H)%nat -> (j < W)%nat -> (i' < H')%nat -> (j' < W')%nat ->
  (f i j = f' i' j' <-> (RtoC M' * z i j)%C = (RtoC M * z' i' j')%C).
Proof.
  intros s H W z M H' W' z' M' f f' i j i' j' (S0 & SP & SI) H0 W0 H0' W0' IM N IM' N' E E' Hi Hj Hi' Hj'.
  rewrite (colorize_some false s H W z M H0 W0 IM N) in E. rewrite (colorize_some false s H' W' z' M' H0' W0' IM' N') in E'. injection E as <-. injection E' as <-.
  pose proof (max_pos _ _ _ _ IM) as MP. pose proof (max_pos _ _ _ _ IM') as MP'.
  pose proof (amp_range H W z M i j IM N Hi Hj) as A. pose proof (amp_range H' W' z' M' i' j' IM' N' Hi' Hj') as A'.
  set (w := z i j) in *. set (w' := z' i' j') in *. clearbody w w'. split.
  - intros E. unfold color, hsv_color in E.
    pose proof (rmod_range (degrees w + 170) 360 ltac:(lra)) as Rg. pose proof (rmod_range (degrees w' + 170) 360 ltac:(lra)) as Rg'.
    apply hsv_inj in E; [|lra|lra|apply SP, A|apply SP, A']. destruct E as [EA EH]. pose proof (SI _ _ A A' EA) as EM.
    assert (EM' : M' * Cmod w = M * Cmod w'). { apply (f_equal (fun x => x * (M * M'))) in EM. replace (Cmod w / M * (M * M')) with (M' * Cmod w) in EM by (field; exact N). rewrite EM. field. exact N'. }
    destruct EH as [Z|EH].
    + assert (Cmod w / M = 0) by (apply SI; [exact A|lra|rewrite S0; exact Z]). assert (Z1 : Cmod w = 0). { replace (Cmod w) with (Cmod w / M * M) by (field; exact N). rewrite H1. ring. }
      assert (Z2 : Cmod w' = 0) by (rewrite Z1, Rmult_0_r in EM'; symmetry in EM'; apply Rmult_integral in EM'; tauto).
      apply Cmod_eq_0 in Z1. apply Cmod_eq_0 in Z2. subst. rewrite !Cmult_0_r. reflexivity.
    + assert (ER : rmod (degrees w + 170) 360 = rmod (degrees w' + 170) 360) by lra. unfold rmod in ER.
      set (k := Zfloor ((degrees w + 170) / 360)) in *. set (k' := Zfloor ((degrees w' + 170) / 360)) in *. clearbody k k'.
      assert (EA2 : angle w = angle w' + 2 * PI * IZR (k - k')).
      { rewrite minus_IZR. unfold degrees in ER. pose proof PI_RGT_0. assert (ER' : angle w * (180 / PI) = angle w' * (180 / PI) + 360 * (IZR k - IZR k')) by lra.
        apply (f_equal (fun x => x * (PI / 180))) in ER'. replace (angle w * (180 / PI) * (PI / 180)) with (angle w) in ER' by (field; lra). rewrite ER'. field. lra. }
      assert (EC : cis (angle w) = cis (angle w')) by (rewrite EA2; apply cis_period).
      rewrite <- (angle_spec w), <- (angle_spec w'), EC. rewrite !(Cmult_comm (RtoC _) (cis _ * _)%C), <- !Cmult_assoc, <- !RtoC_mult. f_equal. f_equal. lra.
  - intros E. assert (EM : Cmod w / M = Cmod w' / M').
    { apply (f_equal Cmod) in E. rewrite !Cmod_mult, !Cmod_R, !Rabs_right in E by lra. apply Rmult_eq_reg_r with (M * M'); [|apply Rmult_integral_contrapositive; split; assumption].
      replace (Cmod w / M * (M * M')) with (M' * Cmod w) by (field; exact N). rewrite E. field. exact N'. }
    rewrite EM. assert (P : 0 < M) by lra. assert (P' : 0 < M') by lra. rewrite <- (color_scal false _ M' w P'), E. apply color_scal, P.
Qed.
Print Assumptions C87_distinct.

Lemma angle_turn z w d : w <> 0%C -> z <> 0%C -> (RtoC (/ Cmod w) * w = RtoC (/ Cmod z) * z * cis d)%C -> exists k, angle w = angle z + d + 2 * PI * IZR k.
Proof.
  intros N N' E. apply cis_eq. pose proof (Cmod_gt_0 w) as G. pose proof (Cmod_gt_0 z) as G'. apply G in N. apply G' in N'.
  assert (A : forall v, 0 < Cmod v -> cis (angle v) = (RtoC (/ Cmod v) * v)%C).
  { intros v P. rewrite <- (angle_spec v) at 3. rewrite Cmult_comm, <- Cmult_assoc, <- RtoC_mult. rewrite Rinv_r by lra. ring. }
  rewrite cis_add, !A by assumption. exact E.
Qed.

(** Both maps are smooth in the phase, also across the cut at -pi = pi: turning a value by d radians changes no channel
    by more than d times the scaled amplitude. *)
Theorem C87_smooth : forall cmocean s H W z M H' W' z' M' f f' i j i' j' d, (forall x, 0 <= x <= 1 -> 0 <= s x) ->
  (0 < H)%nat -> (0 < W)%nat -> (0 < H')%nat -> (0 < W')%nat -> is_max H W z M -> M <> 0 -> is_max H' W' z' M' -> M' <> 0 ->
  colorize cmocean s H W z = Some f -> colorize cmocean s H' W' z' = Some f' -> (i < H)%nat -> (j < W)%nat -> (i' < H')%nat -> (j' < W')%nat ->
  (RtoC M * z' i' j')%C = (RtoC M' * z i j * cis d)%C -> near (s (Cmod (z i j) / M) * Rabs d) (f' i' j') (f i j).
Proof.
  intros b s H W z M H' W' z' M' f f' i j i' j' d SP H0 W0 H0' W0' IM N IM' N' E E' Hi Hj Hi' Hj'.
  rewrite (colorize_some b s H W z M H0 W0 IM N) in E. rewrite (colorize_some b s H' W' z' M' H0' W0' IM' N') in E'. injection E as <-. injection E' as <-.
  pose proof (max_pos _ _ _ _ IM) as MP. pose proof (max_pos _ _ _ _ IM') as MP'.
  pose proof (amp_range H W z M i j IM N Hi Hj) as A. 
  set (w := z i j) in *. set (w' := z' i' j') in *. clearbody w w'. intros E.
  assert (EM : Cmod w' / M' = Cmod w / M).
  { apply (f_equal Cmod) in E. rewrite !Cmod_mult, !Cmod_R, !Rabs_right, cis_Cmod in E by lra. apply Rmult_eq_reg_r with (M * M'); [|apply Rmult_integral_contrapositive; split; assumption].
    replace (Cmod w' / M' * (M * M')) with (M * Cmod w') by (field; exact N'). rewrite E. field. exact N. }
  rewrite EM. pose proof (SP _ A) as P. set (a := s (Cmod w / M)) in *. clearbody a.
  assert (K : exists k, degrees w' = degrees w + d * (180 / PI) + 360 * IZR k \/ w = 0%C /\ w' = 0%C).
  { destruct (Req_dec (Cmod w) 0) as [Z|Z].
    - exists 0%Z. right. apply Cmod_eq_0 in Z. split; [exact Z|]. apply Cmod_eq_0. rewrite Z, Cmod_0 in EM. replace (Cmod w') with (Cmod w' / M' * M') by (field; exact N'). rewrite EM. field. exact N.
    - assert (Z1 : w <> 0%C) by (intros ->; apply Z, Cmod_0).
      assert (Z2 : w' <> 0%C). { intros ->. rewrite Cmod_0 in EM. apply Z. replace (Cmod w) with (Cmod w / M * M) by (field; exact N). rewrite <- EM. field. exact N'. }
      destruct (angle_turn w w' d Z2 Z1) as [k K].
      { assert (EM2 : Cmod w' = M' * Cmod w / M). { apply Rmult_eq_reg_r with (/ M'); [|apply Rinv_neq_0_compat, N']. change (Cmod w' * / M') with (Cmod w' / M'). rewrite EM. field. auto. }
        rewrite EM2. assert (E2 : w' = (RtoC (/ M * M') * w * cis d)%C).
        { rewrite RtoC_mult. rewrite <- !Cmult_assoc in *. rewrite <- E, Cmult_assoc, <- RtoC_mult, Rinv_l by exact N. ring. }
        rewrite E2. rewrite !Cmult_assoc, <- RtoC_mult. f_equal. f_equal. f_equal. field. repeat split; assumption. }
      exists k. left. unfold degrees. pose proof PI_RGT_0. rewrite K. field. lra. }
  destruct K as [k [K|[-> ->]]].
  2:{ unfold near. rewrite !Rminus_diag_eq by reflexivity. rewrite Rabs_R0. pose proof (Rabs_pos d). repeat split; apply Rmult_le_pos; assumption. }
  rewrite K, color_turn. set (x := degrees w). clearbody x. pose proof PI_RGT_0 as PP.
  assert (PL : 3 < PI) by (pose proof PI2_3_2; lra).
  assert (Dg : 180 / PI <= 60). { apply Rmult_le_reg_r with PI; [exact PP|]. replace (180 / PI * PI) with 180 by (field; lra). lra. }
  assert (AB : forall off, Rabs (x + d * (180 / PI) + off - (x + off)) = 180 / PI * Rabs d).
  { intros off. replace (x + d * (180 / PI) + off - (x + off)) with (180 / PI * d) by ring. rewrite Rabs_mult, (Rabs_right (180 / PI)); [reflexivity|]. apply Rle_ge, Rdiv_le_0_compat; lra. }
  pose proof (Rabs_pos d) as DP. assert (B60 : 180 / PI * Rabs d <= 60 * Rabs d) by (apply Rmult_le_compat_r; assumption).
  destruct b; unfold color, near.
  - unfold cmocean_color, red, green, blue. cbv zeta. cbn [fst snd].
    assert (Q : forall c, Rabs (interp c (rmod (x + d * (180 / PI) + 100) 360) * a - interp c (rmod (x + 100) 360) * a) <= a * Rabs d).
    { intros c. pose proof (cmocean_lipschitz c (x + 100) (x + d * (180 / PI) + 100)) as L. rewrite AB in L. rewrite <- Rmult_minus_distr_r, Rabs_mult, (Rabs_right a) by lra.
      rewrite (Rmult_comm a). apply Rmult_le_compat_r; [exact P|]. lra. }
    repeat split; apply Q.
  - assert (Q : forall ch, (ch = red \/ ch = green \/ ch = blue) -> Rabs (ch (hsv_color a (x + d * (180 / PI))) - ch (hsv_color a x)) <= a * Rabs d).
    { intros ch Hc. pose proof (hsv_lipschitz ch a (x + 170) (x + d * (180 / PI) + 170) Hc P) as L. rewrite AB in L. unfold hsv_color. eapply Rle_trans; [exact L|].
      apply Rle_trans with (85 / 100 / 60 * a * (60 * Rabs d)); [apply Rmult_le_compat_l; [|exact B60]; lra|]. replace (85 / 100 / 60 * a * (60 * Rabs d)) with (85 / 100 * (a * Rabs d)) by field. pose proof (Rmult_le_pos _ _ P DP). lra. }
    repeat split; apply Q; auto.
Qed.
Print Assumptions C87_smooth.

(** The colour bar: its 256 x 64 samples are drawn, by the same function and scaling, and a pixel of any picture has the
    colour of the sample with its phase and its modulus relative to the largest. *)
Lemma bar_max : is_max 256 64 bar 1.
Proof.
  assert (Q : forall l k, Cmod (bar l k) = INR k / 63).
  { intros l k. unfold bar. rewrite Cmod_mult, cis_Cmod, Cmod_R, Rabs_right; [ring|]. apply Rle_ge, Rdiv_le_0_compat; [apply pos_INR|lra]. }
  split.
  - intros l k _ Hk. rewrite Q. assert (INR k <= 63) by (replace 63 with (INR 63) by (rewrite INR_IZR_INZ; reflexivity); apply le_INR; lia). lra.
  - exists 0%nat, 63%nat. split; [lia|]. split; [lia|]. rewrite Q. replace (INR 63) with 63 by (rewrite INR_IZR_INZ; reflexivity). field.
Qed.
Theorem C87_colorbar : forall cmocean s H W z M f i j l k, (0 < H)%nat -> (0 < W)%nat -> is_max H W z M -> M <> 0 ->
  colorize cmocean s H W z = Some f -> (i < H)%nat -> (j < W)%nat -> (l < 256)%nat -> (k < 64)%nat ->
  z i j = (RtoC (M * (INR k / 63)) * cis (- PI + 2 * PI * (INR l / 255)))%C ->
  exists g, colorbar cmocean s = Some g /\ f i j = g l k.
Proof.
  intros b s H W z M f i j l k H0 W0 IM N E Hi Hj Hl Hk Ez. unfold colorbar. rewrite (colorize_some b s 256 64 bar 1 ltac:(lia) ltac:(lia) bar_max ltac:(lra)).
  eexists. split; [reflexivity|]. rewrite (colorize_some b s H W z M H0 W0 IM N) in E. injection E as <-. pose proof (max_pos _ _ _ _ IM) as MP. assert (P : 0 < M) by lra.
  assert (EZ : z i j = (RtoC M * bar l k)%C) by (rewrite Ez; unfold bar; rewrite RtoC_mult; ring).
  rewrite EZ, color_scal, Cmod_pos_scal by assumption. f_equal. f_equal. field. exact N.
Qed.
Print Assumptions C87_colorbar.
(** imshow spreads the 256 rows evenly over -pi..pi: each stands within half a row of the phase it shows. *)
Theorem C87_colorbar_rows : forall l, (l < 256)%nat ->
  Rabs ((- PI + 2 * PI * ((INR l + / 2) / 256)) - (- PI + 2 * PI * (INR l / 255))) <= / 2 * (2 * PI / 256).
Proof.
  intros l Hl. pose proof PI_RGT_0. pose proof (pos_INR l). assert (INR l <= 255) by (replace 255 with (INR 255) by (rewrite INR_IZR_INZ; reflexivity); apply le_INR; lia).
  replace (- PI + 2 * PI * ((INR l + / 2) / 256) - (- PI + 2 * PI * (INR l / 255))) with (PI / 256 * ((255 - 2 * INR l) / 255)) by field.
  rewrite Rabs_mult, (Rabs_right (PI / 256)) by lra. replace (/ 2 * (2 * PI / 256)) with (PI / 256 * 1) by field. apply Rmult_le_compat_l; [lra|]. apply Rabs_le. split; lra.
Qed.
Print Assumptions C87_colorbar_rows.

(** The default map shows the table: a value of phase (360 k / 255 - 100) degrees has entry k, counted from the end, times
    its scaled amplitude; between two entries the colour lies between theirs. *)
Theorem C87_table : forall s H W z M f i j n t, (0 < H)%nat -> (0 < W)%nat -> is_max H W z M -> M <> 0 ->
  colorize true s H W z = Some f -> (i < H)%nat -> (j < W)%nat -> (n < 255)%nat -> 0 <= t <= 1 ->
  z i j <> 0%C -> z i j = (RtoC (Cmod (z i j)) * cis (((INR n + t) * (360 / 255) - 100) * (PI / 180)))%C ->
  let entry c m := IZR (channel c (nth m cm_data (0, 0, 0)%Z)) / 10 ^ 8 in
  let mix c := (1 - t) * entry c (255 - n)%nat + t * entry c (254 - n)%nat in let a := s (Cmod (z i j) / M) in
  f i j = (mix 0%nat * a, mix 1%nat * a, mix 2%nat * a).
Proof.
  intros s H W z M f i j n t H0 W0 IM N E Hi Hj Hn Ht Nz Ez entry mix a. rewrite (colorize_some true s H W z M H0 W0 IM N) in E. injection E as <-. fold a.
  set (w := z i j) in *. clearbody w. clearbody a. unfold color, cmocean_color. cbv zeta.
  assert (MX : forall c, interp c (rmod (degrees w + 100) 360) = mix c).
  { intros c. set (th := ((INR n + t) * (360 / 255) - 100) * (PI / 180)) in *. pose proof PI_RGT_0 as PP.
    assert (K : exists k, angle w = th + 2 * PI * IZR k).
    { apply cis_eq. pose proof (Cmod_gt_0 w) as G. apply G in Nz. pose proof (angle_spec w) as Q.
      assert (X : (cis (angle w) * RtoC (Cmod w) * RtoC (/ Cmod w))%C = (cis th * RtoC (Cmod w) * RtoC (/ Cmod w))%C) by (rewrite Q; rewrite Ez at 1; ring).
      rewrite <- !Cmult_assoc, <- RtoC_mult, Rinv_r, !Cmult_1_r in X by lra. exact X. }
    destruct K as [k K]. unfold degrees. rewrite K. replace ((th + 2 * PI * IZR k) * (180 / PI) + 100) with ((INR n + t) * (360 / 255) + 360 * IZR k) by (unfold th; field; lra). rewrite rmod_shift by lra.
    assert (NB : 0 <= INR n <= 254). { split; [apply pos_INR|]. replace 254 with (INR 254) by (rewrite INR_IZR_INZ; reflexivity). apply le_INR. lia. }
    assert (F1 : entry c (255 - n)%nat = flipped c n) by reflexivity. assert (F2 : entry c (254 - n)%nat = flipped c (S n)) by (unfold flipped, entry; replace (255 - S n)%nat with (254 - n)%nat by lia; reflexivity).
    unfold mix. rewrite F1, F2. destruct (Rle_lt_or_eq_dec t 1 (proj2 Ht)) as [T|T].
    - rewrite rmod_id by lra. rewrite (interp_piece c n) by (try assumption; replace ((INR n + t) * (360 / 255) * 255 / 360) with (INR n + t) by field; lra). field.
    - subst t. destruct (Nat.eq_dec n 254) as [En|En].
      + subst n. replace (INR 254) with 254 by (rewrite INR_IZR_INZ; reflexivity). replace ((254 + 1) * (360 / 255)) with (0 + 360 * IZR 1) by (cbn; field). rewrite rmod_shift, rmod_id by lra.
        rewrite (interp_piece c 0) by (try lia; cbn; lra). rewrite (table_closed c). cbn [INR]. field.
      + assert (NB' : INR n <= 253). { replace 253 with (INR 253) by (rewrite INR_IZR_INZ; reflexivity). apply le_INR. lia. }
        rewrite rmod_id by lra. rewrite (interp_piece c (S n)); [|lia|].
        * rewrite S_INR. field.
        * rewrite S_INR. replace ((INR n + 1) * (360 / 255) * 255 / 360) with (INR n + 1) by field. lra. }
  rewrite !MX. reflexivity.
Qed.
Print Assumptions C87_table.

(** Red is at the cut: a negative real number has more red than green or blue, in both maps. *)
Theorem C87_cut : forall cmocean s H W z M f i j x, (0 < H)%nat -> (0 < W)%nat -> is_max H W z M -> M <> 0 ->
  colorize cmocean s H W z = Some f -> (i < H)%nat -> (j < W)%nat -> z i j = RtoC (- x) -> 0 < x -> 0 < s (x / M) ->
  green (f i j) < red (f i j) /\ blue (f i j) < red (f i j).
Proof.
  intros b s H W z M f i j x H0 W0 IM N E Hi Hj Ez X Ps. destruct b.
  - assert (Cx : Cmod (z i j) = x) by (rewrite Ez, Cmod_R, Rabs_Ropp, Rabs_right; lra).
    assert (PP := PI_RGT_0).
    rewrite (C87_table s H W z M f i j 198 (1 / 3) H0 W0 IM N E Hi Hj ltac:(lia) ltac:(lra)).
    + rewrite Cx. set (a := s (x / M)) in *. unfold red, green, blue. cbn [fst snd].
      assert (T : channel 0 (nth (255 - 198) cm_data (0, 0, 0)%Z) = 87129781%Z /\ channel 1 (nth (255 - 198) cm_data (0, 0, 0)%Z) = 20112240%Z /\ channel 2 (nth (255 - 198) cm_data (0, 0, 0)%Z) = 49457479%Z /\
                 channel 0 (nth (254 - 198) cm_data (0, 0, 0)%Z) = 87037274%Z /\ channel 1 (nth (254 - 198) cm_data (0, 0, 0)%Z) = 20667988%Z /\ channel 2 (nth (254 - 198) cm_data (0, 0, 0)%Z) = 48316015%Z) by (vm_compute; repeat split).
      destruct T as (-> & -> & -> & -> & -> & ->). split; apply Rmult_lt_compat_r; lra.
    + rewrite Ez. intros Q. apply (f_equal fst) in Q. cbn in Q. lra.
    + rewrite Cx, Ez. assert (TH : ((INR 198 + 1 / 3) * (360 / 255) - 100) * (PI / 180) = PI) by (replace (INR 198) with 198 by (rewrite INR_IZR_INZ; reflexivity); field).
      rewrite TH. unfold cis. rewrite cos_PI, sin_PI. apply injective_projections; cbn; ring.
  - rewrite (colorize_some false s H W z M H0 W0 IM N) in E. injection E as <-. unfold color.
    assert (Cx : Cmod (z i j) = x) by (rewrite Ez, Cmod_R, Rabs_Ropp, Rabs_right; lra). rewrite Cx. set (a := s (x / M)) in *. clearbody a.
    assert (K : exists k, degrees (z i j) = 180 + 360 * IZR k).
    { destruct (cis_eq (angle (z i j)) PI) as [k K].
      - pose proof (angle_spec (z i j)) as Q. rewrite Cx in Q. rewrite Ez in Q at 2. unfold cis at 2. rewrite cos_PI, sin_PI.
        assert (Y : (cis (angle (z i j)) * RtoC x * RtoC (/ x))%C = (RtoC (- x) * RtoC (/ x))%C) by (rewrite Q; reflexivity).
        rewrite <- Cmult_assoc, <- !RtoC_mult, Rinv_r, Cmult_1_r in Y by lra. rewrite Y. apply injective_projections; cbn; [field; lra|ring].
      - exists k. unfold degrees. rewrite K. pose proof PI_RGT_0. field. lra. }
    destruct K as [k K]. rewrite K. unfold hsv_color. replace (180 + 360 * IZR k + 170) with (350 + 360 * IZR k) by ring. rewrite rmod_shift, rmod_id by lra.
    destruct (hsv_sextant (350 / 360) a ltac:(lra)) as (n & g & Hn & Hg & Eg & ->).
    assert (n = 5%Z) by (assert (A1 : (n < 6)%Z) by lia; assert (A2 : (4 < n)%Z) by (apply lt_IZR; lra); lia). subst n. unfold red, green, blue. cbn [fst snd].
    assert (g = 5 / 6) by lra. subst g. lra.
Qed.
Print Assumptions C87_cut.

(** A picture that is zero everywhere: 0 / 0. *)
Theorem C87_zero_refuted : forall cmocean s H W z, (0 < H)%nat -> (0 < W)%nat -> (forall i j, (i < H)%nat -> (j < W)%nat -> z i j = 0%C) -> colorize cmocean s H W z = None.
Proof.
  intros b s H W z H0 W0 Z. assert (IM : is_max H W z 0). { split; [intros; rewrite Z, Cmod_0 by assumption; lra|exists 0%nat, 0%nat; rewrite Z, Cmod_0 by assumption; auto]. }
  unfold colorize. rewrite (is_max_unique _ _ _ _ _ (max_abs_is_max H W z H0 W0) IM). destruct Req_EM_T; [reflexivity|congruence].
Qed.
Print Assumptions C87_zero_refuted.

(** Concrete: the default scaling is faithful, and so is the square root; a picture with a largest modulus. *)
Example C87_example : faithful (fun x => x) /\ faithful sqrt /\ is_max 1 2 (fun _ j => if Nat.eqb j 0 then RtoC 3 else Ci) 3.
Proof.
  split; [repeat split; intros; lra|]. split.
  - split; [apply sqrt_0|]. split; [intros; apply sqrt_pos|]. intros x y X Y E. apply sqrt_inj; tauto.
  - split.
    + intros i j _ Hj. destruct j as [|[|j]]; [| |lia]; cbn [Nat.eqb]; [rewrite Cmod_R, Rabs_right; lra|]. unfold Cmod, Ci. cbn [fst snd]. replace (0 ^ 2 + 1 ^ 2) with 1 by ring. rewrite sqrt_1. lra.
    + exists 0%nat, 0%nat. cbn [Nat.eqb]. rewrite Cmod_R, Rabs_right by lra. auto.
Qed.
