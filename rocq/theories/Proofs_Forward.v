(** Lemmas about the forward models. *)
From Verif Require Import Base FinSum Fourier Model_Prop Spec_Prop Proofs_Prop Model_Image Spec_Image Proofs_Image
  Model_Interact Spec_Interact Proofs_Interact Model_Meas Spec_Meas Proofs_Meas Model_Geom Model_Models Model_Forward Spec_Forward.
From Coquelicot Require Import Complex.
From Flocq Require Import Core.Raux.
Local Open Scope C_scope.

(** ---- near field in the centred picture ---- *)
Lemma roll_circ n s i : (0 < n)%nat -> roll n s i = circ n (Z.of_nat i - Z.of_nat s).
Proof.
  intros H. unfold roll, circ. apply Nat2Z.inj. rewrite Z2Nat.id by (apply Z.mod_pos_bound; lia).
  rewrite Nat2Z.inj_mod. pose proof (Nat.mod_upper_bound s n ltac:(lia)).
  rewrite Nat2Z.inj_add, Nat2Z.inj_sub by lia. rewrite Nat2Z.inj_mod.
  rewrite (Z.mod_eq (Z.of_nat s) (Z.of_nat n)) by lia.
  replace (Z.of_nat i + (Z.of_nat n - (Z.of_nat s - Z.of_nat n * (Z.of_nat s / Z.of_nat n))))%Z
    with (Z.of_nat i - Z.of_nat s + (1 + Z.of_nat s / Z.of_nat n) * Z.of_nat n)%Z by ring.
  now rewrite Z.mod_add by lia.
Qed.
Lemma ifftshift_rolled N M x i j : (0 < N)%nat -> (0 < M)%nat ->
  ifftshift2 N M x i j = rolled N M x (Z.of_nat ((N + 1) / 2)) (Z.of_nat ((M + 1) / 2)) i j.
Proof. intros HN HM. unfold ifftshift2, rolled. now rewrite !roll_circ. Qed.
Lemma far_near N M x p k l : (0 < N)%nat -> (0 < M)%nat -> (k < N)%nat -> (l < M)%nat ->
  far_field N M (near_field N M x p) k l = p (roll N (N / 2) k) (roll M (M / 2) l) * far_field N M x k l.
Proof.
  intros HN HM Hk Hl. unfold far_field, fftshift2, fft2_ortho.
  assert (Q : forall y a b, fft2 N M (ifftshift2 N M y) a b =
     w N (- (Z.of_nat a * Z.of_nat ((N + 1) / 2))) * w M (- (Z.of_nat b * Z.of_nat ((M + 1) / 2))) * fft2 N M y a b).
  { intros y a b. rewrite <- fft2_rolled by assumption. apply fft2_ext. intros i j _ _. now apply ifftshift_rolled. }
  rewrite !Q. unfold near_field. rewrite fft2_ifft2 by (try assumption; apply roll_bound; assumption). ring.
Qed.
Lemma near_formula N M x p i j : (0 < N)%nat -> (0 < M)%nat -> (i < N)%nat -> (j < M)%nat ->
  near_field N M x p i j = RtoC (/ sqrt (INR (N * M))) * csum N (fun k => csum M (fun l =>
    p (roll N (N / 2) k) (roll M (M / 2) l) * far_field N M x k l * (w N (off N i * off N k) * w M (off M j * off M l)))).
Proof.
  intros HN HM Hi Hj. destruct (far_inverse N M (near_field N M x p) HN HM) as [B A].
  rewrite <- (B i j Hi Hj). rewrite inv_far_centred by assumption. f_equal.
  apply csum_ext. intros k Hk. apply csum_ext. intros l Hl. now rewrite far_near.
Qed.
Lemma sfreq_roll n k : (k < n)%nat -> sfreq n (roll n (n / 2) k) = IZR (off n k).
Proof.
  intros H. unfold sfreq. rewrite roll_inv1 by exact H. unfold centred_index, off. rewrite minus_IZR, <- !INR_IZR_INZ. reflexivity.
Qed.
(** sub-pixel shifting is trigonometric interpolation at the displaced points *)
Lemma shift_formula N M x s0 s1 i j : (0 < N)%nat -> (0 < M)%nat -> (i < N)%nat -> (j < M)%nat ->
  sinc_subpixel_shift N M x s0 s1 i j = trig_interp N M x (IZR (off N i) - s0) (IZR (off M j) - s1).
Proof.
  intros HN HM Hi Hj. rewrite shift_near, near_formula by assumption. unfold trig_interp. f_equal.
  apply csum_ext. intros k Hk. apply csum_ext. intros l Hl. rewrite <- far_centred by assumption.
  unfold shift_mask. rewrite !sfreq_roll by assumption. unfold w. rewrite <- cis_add.
  match goal with |- ?a * ?f * ?b = _ => replace (a * f * b) with (f * (a * b)) by ring end.
  rewrite <- cis_add. do 2 f_equal. rewrite !mult_IZR. field. split; now apply INRn.
Qed.
Lemma shift_scal N M c x s0 s1 i j : sinc_subpixel_shift N M (fun i j => c * x i j) s0 s1 i j = c * sinc_subpixel_shift N M x s0 s1 i j.
Proof.
  rewrite !shift_near. pose proof (near_linear N M c x 0 x (shift_mask N M s0 s1) i j) as L.
  rewrite <- (near_ext N M (lin c x 0 x) _ (shift_mask N M s0 s1) _).
  - rewrite L. ring.
  - intros u v _ _. unfold lin. ring.
  - now intros ? ? _ _.
Qed.

(** ---- Fourier padding ---- *)
Lemma pad_front n N : centred_in n N -> ((Z.of_nat N - Z.of_nat n) / 2 = Z.of_nat (N / 2 - n / 2))%Z /\ (n / 2 <= N / 2)%nat.
Proof.
  intros [H P]. destruct (half_mono n N H) as [A _]. split; [|exact A].
  rewrite Nat2Z.inj_sub by exact A.
  pose proof (Nat.div_mod n 2 ltac:(lia)) as D1. pose proof (Nat.div_mod N 2 ltac:(lia)) as D2.
  pose proof (Nat.mod_upper_bound n 2 ltac:(lia)). pose proof (Nat.mod_upper_bound N 2 ltac:(lia)).
  assert (P' : (n mod 2 = 0 \/ N mod 2 = 1)%nat).
  { destruct P as [P|P]; [left; apply Nat.even_spec in P; destruct P as [q ->]; rewrite Nat.mul_comm; apply Nat.mod_mul; lia|right].
    destruct (Nat.eq_dec (N mod 2) 0) as [Z|]; [|lia]. exfalso. assert (Nat.even N = true) by (apply Nat.even_spec; exists (N / 2)%nat; lia). congruence. }
  symmetry. apply Z.div_unique with (r := (Z.of_nat (N mod 2) - Z.of_nat (n mod 2))%Z); lia.
Qed.
Lemma pad_axis_some n N i : centred_in n N ->
  pad_axis n N i = if (Nat.leb (N / 2 - n / 2) i && Nat.ltb i (N / 2 - n / 2 + n))%bool then Some (i - (N / 2 - n / 2))%nat else None.
Proof.
  intros C. destruct (pad_front n N C) as [F L]. unfold pad_axis. rewrite F. set (f := (N / 2 - n / 2)%nat).
  destruct (Nat.leb_spec f i) as [A|A]; cbn [andb].
  - destruct (Z.leb_spec 0 (Z.of_nat i - Z.of_nat f)); [|lia]. cbn [andb].
    destruct (Nat.ltb_spec i (f + n)); destruct (Z.ltb_spec (Z.of_nat i - Z.of_nat f) (Z.of_nat n)); try lia; [|reflexivity].
    f_equal. lia.
  - destruct (Z.leb_spec 0 (Z.of_nat i - Z.of_nat f)); [lia|]. reflexivity.
Qed.
Lemma pad_place n0 n1 N0 N1 x i j : centred_in n0 N0 -> centred_in n1 N1 ->
  pad_img n0 n1 N0 N1 x i j = place n0 n1 (N0 / 2 - n0 / 2) (N1 / 2 - n1 / 2) x i j.
Proof.
  intros C0 C1. unfold pad_img, place. rewrite !pad_axis_some by assumption.
  destruct (Nat.leb (N0 / 2 - n0 / 2) i && Nat.ltb i (N0 / 2 - n0 / 2 + n0))%bool; cbn [andb]; [|reflexivity].
  destruct (Nat.leb (N1 / 2 - n1 / 2) j && Nat.ltb j (N1 / 2 - n1 / 2 + n1))%bool; reflexivity.
Qed.
Lemma trig_interp_scal_arg n0 n1 E u v u' v' : u = u' -> v = v' -> trig_interp n0 n1 E u v = trig_interp n0 n1 E u' v'.
Proof. now intros -> ->. Qed.
(** the spectrum of the padded probe *)
Lemma far_fourier_pad n0 n1 N0 N1 x k l : (0 < n0)%nat -> (0 < n1)%nat -> centred_in n0 N0 -> centred_in n1 N1 -> (k < N0)%nat -> (l < N1)%nat ->
  far_field N0 N1 (fourier_pad n0 n1 N0 N1 x) k l = place n0 n1 (N0 / 2 - n0 / 2) (N1 / 2 - n1 / 2) (far_field n0 n1 x) k l.
Proof.
  intros H0 H1 C0 C1 Hk Hl. unfold fourier_pad.
  destruct (Nat.eqb_spec n0 N0) as [E0|E0]; cbn [andb].
  - destruct (Nat.eqb_spec n1 N1) as [E1|E1]; cbn [andb].
    + subst. rewrite !Nat.sub_diag. symmetry. apply (place_at N0 N1 0 0); assumption.
    + destruct (far_inverse N0 N1 (pad_img n0 n1 N0 N1 (far_field n0 n1 x)) ltac:(lia) ltac:(lia)) as [_ A]. rewrite A by assumption. now apply pad_place.
  - destruct (far_inverse N0 N1 (pad_img n0 n1 N0 N1 (far_field n0 n1 x)) ltac:(lia) ltac:(lia)) as [_ A]. rewrite A by assumption. now apply pad_place.
Qed.
(** the padded and displaced probe *)
Lemma shifted_pad n0 n1 N0 N1 x s0 s1 : (0 < n0)%nat -> (0 < n1)%nat -> centred_in n0 N0 -> centred_in n1 N1 ->
  same N0 N1 (sinc_subpixel_shift N0 N1 (fourier_pad n0 n1 N0 N1 x) s0 s1) (illumination n0 n1 N0 N1 x s0 s1).
Proof.
  intros H0 H1 C0 C1 i j Hi Hj. rewrite shift_formula by lia. unfold illumination, trig_interp at 1.
  destruct (half_mono n0 N0 (proj1 C0)) as [A0 B0]. destruct (half_mono n1 N1 (proj1 C1)) as [A1 B1].
  set (L0 := (N0 / 2 - n0 / 2)%nat) in *. set (L1 := (N1 / 2 - n1 / 2)%nat) in *.
  rewrite (csum_ext N0 _ (fun k => csum N1 (fun l => place n0 n1 L0 L1 (far_field n0 n1 x) k l *
     cis (2 * PI * (IZR (off N0 k) * (IZR (off N0 i) - s0) / INR N0 + IZR (off N1 l) * (IZR (off N1 j) - s1) / INR N1))))).
  2:{ intros k Hk. apply csum_ext. intros l Hl. rewrite <- far_centred by lia. now rewrite far_fourier_pad by assumption. }
  rewrite csum_place by lia. unfold trig_interp.
  assert (OF0 : forall i, off N0 (L0 + i) = off n0 i) by (intros a; unfold off, L0; lia).
  assert (OF1 : forall i, off N1 (L1 + i) = off n1 i) by (intros a; unfold off, L1; lia).
  rewrite Cmult_assoc, <- RtoC_mult.
  assert (P : (0 < INR (N0 * N1))%R) by (apply lt_0_INR; nia). assert (p : (0 < INR (n0 * n1))%R) by (apply lt_0_INR; nia).
  f_equal.
  - f_equal. rewrite <- !sqrt_inv, <- sqrt_mult.
    + f_equal. field. lra.
    + apply Rlt_le, Rdiv_lt_0_compat; assumption.
    + apply Rlt_le, Rinv_0_lt_compat. assumption.
  - apply csum_ext. intros k Hk. apply csum_ext. intros l Hl. rewrite <- far_centred by lia. f_equal. rewrite OF0, OF1. f_equal.
    pose proof (INRn n0 H0). pose proof (INRn n1 H1). pose proof (INRn N0 ltac:(lia)). pose proof (INRn N1 ltac:(lia)). field. auto.
Qed.
Lemma fourier_pad_energy n0 n1 N0 N1 x : (0 < n0)%nat -> (0 < n1)%nat -> centred_in n0 N0 -> centred_in n1 N1 ->
  energy N0 N1 (fourier_pad n0 n1 N0 N1 x) = energy n0 n1 x.
Proof.
  intros H0 H1 C0 C1. destruct (half_mono n0 N0 (proj1 C0)) as [A0 B0]. destruct (half_mono n1 N1 (proj1 C1)) as [A1 B1].
  assert (0 < N0)%nat by (destruct C0; lia). assert (0 < N1)%nat by (destruct C1; lia).
  rewrite <- (proj1 (far_energy N0 N1 (fourier_pad n0 n1 N0 N1 x) ltac:(assumption) ltac:(assumption))).
  rewrite (energy_ext N0 N1 _ (place n0 n1 (N0 / 2 - n0 / 2) (N1 / 2 - n1 / 2) (far_field n0 n1 x))).
  2:{ intros k l Hk Hl. now apply far_fourier_pad. }
  rewrite place_energy by lia. apply far_energy; assumption.
Qed.
Lemma illumination_energy n0 n1 N0 N1 E s0 s1 : (0 < n0)%nat -> (0 < n1)%nat -> centred_in n0 N0 -> centred_in n1 N1 ->
  energy N0 N1 (illumination n0 n1 N0 N1 E s0 s1) = energy n0 n1 E.
Proof.
  intros H0 H1 C0 C1. rewrite <- (energy_ext _ _ _ _ (shifted_pad n0 n1 N0 N1 E s0 s1 H0 H1 C0 C1)).
  rewrite shift_energy by (destruct C0, C1; lia). now apply fourier_pad_energy.
Qed.
(** ---- the interaction ---- *)
Lemma sinc_value H W obj N0 N1 pr pos back : inside H N0 0 (Zfloor (fst pos)) -> inside W N1 0 (Zfloor (snd pos)) ->
  ptycho_2D_sinc H W obj N0 N1 pr pos back = Some
   (let out := times_img (sinc_subpixel_shift N0 N1 pr (sub_part (fst pos)) (sub_part (snd pos)))
                 (fun i j => obj (Zfloor (fst pos) + Z.of_nat i)%Z (Zfloor (snd pos) + Z.of_nat j)%Z) in
    if back then ifft2 N0 N1 (ifftshift2 N0 N1 (times_img (fftshift2 N0 N1 (fft2 N0 N1 out)) (fun i j => Cconj (cis (- sub_part (fst pos) * (2 * PI * centred_index N0 i / INR N0) - sub_part (snd pos) * (2 * PI * centred_index N1 j / INR N1))))))
    else out).
Proof.
  intros [A B] [C D]. unfold ptycho_2D_sinc. rewrite window_some by lia. cbn [option_map]. rewrite sinc_filter. reflexivity.
Qed.
Lemma all_ok_map {A B} (f : A -> res B) (g : A -> B) l : (forall x, In x l -> f x = Ok (g x)) -> all_ok (map f l) = Ok (map g l).
Proof.
  induction l as [|a l IH]; intros H; [reflexivity|]. cbn [map all_ok]. rewrite (H a (or_introl eq_refl)). cbn [rbind].
  rewrite IH by (intros x Hx; apply H; now right). reflexivity.
Qed.

(** ---- FancyPtycho ---- *)
Lemma inv_far_csum N M n (W : nat -> C) (f : nat -> img) i j :
  inverse_far_field N M (fun a b => csum n (fun q => W q * f q a b)) i j = csum n (fun q => W q * inverse_far_field N M (f q) i j).
Proof.
  induction n as [|n IH].
  - change (csum 0 (fun q => W q * inverse_far_field N M (f q) i j)) with (RtoC 0).
    change (inverse_far_field N M (fun _ _ => RtoC 0) i j = RtoC 0).
    pose proof (proj2 (far_linear N M 0 (fun _ _ => RtoC 0) 0 (fun _ _ => RtoC 0) i j)) as L.
    replace (lin 0 (fun _ _ => RtoC 0) 0 (fun _ _ => RtoC 0)) with (fun _ _ : nat => RtoC 0) in L.
    + rewrite L. ring.
    + unfold lin. replace (0 * 0 + 0 * 0) with (RtoC 0) by ring. reflexivity.
  - rewrite csum_S, <- IH.
    pose proof (proj2 (far_linear N M 1 (fun a b => csum n (fun q => W q * f q a b)) (W n) (f n) i j)) as L.
    rewrite Cmult_1_l in L. rewrite <- L. unfold inverse_far_field, fftshift2, ifft2_ortho. f_equal. apply ifft2_ext.
    intros a b _ _. unfold ifftshift2, lin. rewrite csum_S. ring.
Qed.
Lemma nth_map_seq {A} (f : nat -> A) n k d : (k < n)%nat -> nth k (map f (seq 0 n)) d = f k.
Proof. intros H. rewrite (nth_indep _ d (f 0%nat)) by (rewrite map_length, seq_length; exact H). rewrite map_nth, seq_nth by exact H. reflexivity. Qed.
Lemma nth_map_in {A B} (f : A -> B) l d d' k : (k < length l)%nat -> nth k (map f l) d' = f (nth k l d).
Proof. intros H. rewrite (nth_indep _ d' (f d)) by now rewrite map_length. apply map_nth. Qed.
Lemma csum_diag n c k (f : nat -> C) : (k < n)%nat -> csum n (fun q => diag c k q * f q) = RtoC c * f k.
Proof.
  intros H. rewrite (csum_single n k); [|exact H|].
  - unfold diag. now rewrite Nat.eqb_refl.
  - intros q Hq N. unfold diag. destruct (Nat.eqb_spec k q); [congruence|]. ring.
Qed.
Lemma fancy_basis_nth m q : (q < length (f_probe m))%nat ->
  nth q (fancy_basis m) no_img = let p := restrict (f_support m) (nth q (f_probe m) no_img) in if f_fourier m then inverse_far_field (f_n0 m) (f_n1 m) p else p.
Proof.
  intros H. unfold fancy_basis.
  now rewrite (nth_map_in _ _ no_img) by exact H.
Qed.
Lemma mix_basis m W k i j :
  csum (length (f_probe m)) (fun q => W k q * nth q (fancy_basis m) no_img i j) = shot m W k i j.
Proof.
  unfold shot, mixture. rewrite (csum_ext _ _ (fun q => W k q * (let p := restrict (f_support m) (nth q (f_probe m) no_img) in if f_fourier m then inverse_far_field (f_n0 m) (f_n1 m) p else p) i j)).
  2:{ intros q Hq. now rewrite fancy_basis_nth. }
  cbv zeta. destruct (f_fourier m); [|reflexivity].
  rewrite <- (inv_far_csum (f_n0 m) (f_n1 m) (length (f_probe m)) (W k) (fun q => restrict (f_support m) (nth q (f_probe m) no_img)) i j). reflexivity.
Qed.
Lemma shot_modes_spec m ix rows W : coefficients (f_weights m) ix (length (f_probe m)) rows W ->
  exists prs, shot_modes (f_weights m) ix (fancy_basis m) = Ok prs /\ length prs = rows /\
  forall k i j, (k < rows)%nat -> nth k prs no_img i j = shot m W k i j.
Proof.
  intros C. assert (LB : length (fancy_basis m) = length (f_probe m)) by (unfold fancy_basis; apply map_length).
  assert (D : forall c k i j, (k < length (f_probe m))%nat -> nth k (map (scale_img c) (fancy_basis m)) no_img i j = shot m (diag c) k i j).
  { intros c k i j Hk. rewrite <- mix_basis, csum_diag by exact Hk.
    rewrite (nth_map_in _ _ no_img) by lia. reflexivity. }
  destruct (f_weights m) as [|l|r l]; cbn [coefficients] in C.
  - destruct C as (E & -> & ->). exists (map (scale_img 1) (fancy_basis m)). rewrite E. cbn [shot_modes]. split; [reflexivity|]. split; [now rewrite map_length|]. intros. now apply D.
  - destruct C as (c & E & -> & ->). exists (map (scale_img c) (fancy_basis m)). unfold shot_modes, entry. rewrite E. cbn [rbind]. split; [reflexivity|]. split; [now rewrite map_length|]. intros. now apply D.
  - destruct C as (E & ->). unfold shot_modes, entry. rewrite E. cbn [rbind]. eexists. split; [reflexivity|]. split; [now rewrite map_length, seq_length|].
    intros k i j Hk. rewrite nth_map_seq by exact Hk. rewrite <- mix_basis, LB. reflexivity.
Qed.
Lemma position_spec m ix t pos : position m ix t pos -> fancy_position m ix t = Ok pos.
Proof.
  unfold position, fancy_position. destruct (f_offsets m) as [l|].
  - intros (o & E & ->). unfold entry. rewrite E. reflexivity.
  - intros ->. reflexivity.
Qed.
Lemma transmit_spec m o : transmission (f_exp m) (f_phase_only m) o = transmit m o.
Proof.
  unfold transmission, transmit, cexp, Ci. destruct (f_exp m); [|reflexivity]. destruct (f_phase_only m).
  - destruct o as [a b]. cbn [fst snd RtoC Cmult]. replace (0 * a - 1 * 0)%R with 0%R by ring. rewrite exp_0.
    rewrite Cmult_1_l. f_equal. ring.
  - destruct o as [a b]. cbn [fst snd Cmult]. replace (0 * a - 1 * b)%R with (- b)%R by ring. replace (0 * b + 1 * a)%R with a by ring. reflexivity.
Qed.
Lemma bcast_max rows planes : (1 <= rows)%nat -> (1 <= planes)%nat -> (planes = 1 \/ rows = 1 \/ planes = rows)%nat ->
  bcast rows planes = Ok (Nat.max rows planes).
Proof.
  intros A B C. unfold bcast. destruct (Nat.eqb_spec rows planes); [f_equal; lia|]. destruct (Nat.eqb_spec rows 1); [f_equal; lia|].
  destruct (Nat.eqb_spec planes 1); [f_equal; lia|lia].
Qed.
Lemma pick_sel n k : pick n k = sel n k.
Proof. unfold pick, sel. destruct n as [|[|n]]; reflexivity. Qed.
Definition masked (mask : option img) (E : nat -> img) : nat -> img :=
  match mask with None => E | Some k => fun q => times_img (E q) k end.
Lemma trig_ext N M x y u v : same N M x y -> trig_interp N M x u v = trig_interp N M y u v.
Proof.
  intros H. unfold trig_interp. f_equal. apply csum_ext. intros k Hk. apply csum_ext. intros l Hl. f_equal.
  unfold centred_ft. f_equal. apply csum_ext. intros n Hn. apply csum_ext. intros n' Hn'. now rewrite H.
Qed.
Lemma fourier_pad_ext n0 n1 N0 N1 x y : (0 < n0)%nat -> (0 < n1)%nat -> (0 < N0)%nat -> (0 < N1)%nat -> same n0 n1 x y -> same N0 N1 (fourier_pad n0 n1 N0 N1 x) (fourier_pad n0 n1 N0 N1 y).
Proof.
  intros H0 H1 P0 P1 E. unfold fourier_pad. destruct (Nat.eqb n0 N0 && Nat.eqb n1 N1)%bool eqn:B.
  - apply andb_prop in B. destruct B as [B0 B1]. apply Nat.eqb_eq in B0. apply Nat.eqb_eq in B1. now subst.
  - apply inv_far_ext; try assumption. intros i j Hi Hj. unfold pad_img.
    destruct (pad_axis n0 N0 i) as [a|] eqn:A; [|reflexivity]. destruct (pad_axis n1 N1 j) as [b|] eqn:A'; [|reflexivity].
    unfold pad_axis in A, A'.
    destruct (_ && _)%bool eqn:Q in A; [|discriminate]. injection A as <-. apply andb_prop in Q. destruct Q as [Q1 Q2].
    destruct (_ && _)%bool eqn:Q' in A'; [|discriminate]. injection A' as <-. apply andb_prop in Q'. destruct Q' as [Q1' Q2'].
    apply Z.leb_le in Q1. apply Z.leb_le in Q1'. apply Z.ltb_lt in Q2. apply Z.ltb_lt in Q2'.
    apply far_ext; try assumption; lia.
Qed.
Lemma fancy_exits m ix t pos rows W mask : position m ix t pos -> coefficients (f_weights m) ix (length (f_probe m)) rows W ->
  fancy_mask m ix t = Ok mask -> fits m rows pos ->
  exists ws, fancy_interaction m ix t = Ok ws /\ length ws = length (exits m (masked mask (shot m W)) rows pos) /\
  forall k, (k < length ws)%nat -> same (fancy_N0 m) (fancy_N1 m) (nth k ws no_img) (nth k (exits m (masked mask (shot m W)) rows pos) no_img).
Proof.
  intros HP HC HM (n0p & n1p & osp & C0 & C1 & I0 & I1 & R1 & O1 & RO & _).
  destruct (shot_modes_spec m ix rows W HC) as (prs & EP & LP & VP).
  unfold fancy_interaction. rewrite (position_spec _ _ _ _ HP). cbn [rbind]. rewrite EP. cbn [rbind]. rewrite HM. cbn [rbind].
  set (prs' := match mask with None => prs | Some k => map (fun p => times_img p k) prs end).
  assert (LP' : length prs' = rows) by (unfold prs'; destruct mask; rewrite ?map_length; exact LP).
  assert (VP' : forall k i j, (k < rows)%nat -> nth k prs' no_img i j = masked mask (shot m W) k i j).
  { intros k i j Hk. unfold prs', masked. destruct mask as [u|]; [|now apply VP].
    rewrite (nth_map_in _ _ no_img) by lia. unfold times_img. now rewrite VP. }
  fold (obj_planes m). rewrite map_length, LP', bcast_max by assumption. cbn [rbind].
  set (K := Nat.max rows (obj_planes m)).
  set (g := fun k => scale_img (f_norm m) (let out := times_img (sinc_subpixel_shift (fancy_N0 m) (fancy_N1 m) (nth (pick rows k) (map (fourier_pad (f_n0 m) (f_n1 m) (fancy_N0 m) (fancy_N1 m)) prs') no_img) (sub_part (fst pos)) (sub_part (snd pos)))
                 (fun i j => transmission (f_exp m) (f_phase_only m) (f_obj m (pick (obj_planes m) k) (Zfloor (fst pos) + Z.of_nat i)%Z (Zfloor (snd pos) + Z.of_nat j)%Z)) in
    if f_near m then ifft2 (fancy_N0 m) (fancy_N1 m) (ifftshift2 (fancy_N0 m) (fancy_N1 m) (times_img (fftshift2 (fancy_N0 m) (fancy_N1 m) (fft2 (fancy_N0 m) (fancy_N1 m) out)) (fun i j => Cconj (cis (- sub_part (fst pos) * (2 * PI * centred_index (fancy_N0 m) i / INR (fancy_N0 m)) - sub_part (snd pos) * (2 * PI * centred_index (fancy_N1 m) j / INR (fancy_N1 m)))))))
    else out)).
  exists (map g (seq 0 K)). split; [|split].
  - apply all_ok_map. intros k _. rewrite (sinc_value _ _ _ _ _ _ _ _ I0 I1). reflexivity.
  - unfold exits. rewrite !map_length. reflexivity.
  - intros k Hk. rewrite map_length, seq_length in Hk. unfold exits. fold K. rewrite !nth_map_seq by exact Hk.
    intros i j Hi Hj. unfold g, exit_wave. change (f_os m * f_det0 m)%nat with (fancy_N0 m) in *. change (f_os m * f_det1 m)%nat with (fancy_N1 m) in *.
    rewrite !pick_sel.
    assert (SL : (sel rows k < rows)%nat).
    { unfold K in Hk. destruct rows as [|[|rows]]; cbn; lia. }
    set (ill := illumination (f_n0 m) (f_n1 m) (fancy_N0 m) (fancy_N1 m) (masked mask (shot m W) (sel rows k)) (fst pos - IZR (Zfloor (fst pos))) (snd pos - IZR (Zfloor (snd pos)))).
    assert (P0 : (0 < fancy_N0 m)%nat) by (pose proof (proj1 C0); lia). assert (P1 : (0 < fancy_N1 m)%nat) by (pose proof (proj1 C1); lia).
    set (out := times_img (sinc_subpixel_shift _ _ _ _ _) _).
    assert (OUT : same (fancy_N0 m) (fancy_N1 m) out (fun i j => ill i j * transmit m (f_obj m (sel (obj_planes m) k) (Zfloor (fst pos) + Z.of_nat i)%Z (Zfloor (snd pos) + Z.of_nat j)%Z))).
    { intros a b Ha Hb. unfold out, times_img. rewrite transmit_spec. f_equal. unfold ill.
      rewrite <- (shifted_pad _ _ _ _ _ _ _ n0p n1p C0 C1 a b Ha Hb). apply sinc_ext.
      rewrite (nth_map_in _ _ no_img) by lia. apply fourier_pad_ext; try assumption. intros c d _ _. now apply VP'. }
    destruct (f_near m).
    + unfold scale_img. rewrite sinc_back.
      rewrite <- (shift_scal (fancy_N0 m) (fancy_N1 m) (RtoC (f_norm m))). rewrite shift_formula by assumption.
      unfold sub_part. unfold Rminus at 1 3. rewrite !Ropp_involutive. apply trig_ext. intros a b Ha Hb. rewrite (OUT a b Ha Hb). reflexivity.
    + unfold scale_img. rewrite (OUT i j Hi Hj). reflexivity.
Qed.
