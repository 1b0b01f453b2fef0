(** Lemmas about probe-object interactions. *)
From Verif Require Import Base FinSum Fourier Model_Prop Spec_Prop Proofs_Prop Model_Image Spec_Image Proofs_Image Model_Interact Spec_Interact.
From Coquelicot Require Import Complex.
From Coq Require Import Sorted.
From Flocq Require Import Core.Raux Core.Generic_fmt Core.Round_NE.
Local Open Scope R_scope.

(** ---- object setup ---- *)
Lemma fold_min_le l x : fold_left Rmin l x <= x /\ forall y, In y l -> fold_left Rmin l x <= y.
Proof.
  revert x. induction l as [|a l IH]; intros x; cbn; [split; [lra|tauto]|].
  destruct (IH (Rmin x a)) as [A B]. pose proof (Rmin_l x a). pose proof (Rmin_r x a). split; [lra|].
  intros y [->|H']; [lra|]. apply B, H'.
Qed.
Lemma fold_max_ge l x : x <= fold_left Rmax l x /\ forall y, In y l -> y <= fold_left Rmax l x.
Proof.
  revert x. induction l as [|a l IH]; intros x; cbn; [split; [lra|tauto]|].
  destruct (IH (Rmax x a)) as [A B]. pose proof (Rmax_l x a). pose proof (Rmax_r x a). split; [lra|].
  intros y [->|H']; [lra|]. apply B, H'.
Qed.
Lemma rmin_le l y : In y l -> rmin l <= y.
Proof. destruct l as [|x l]; [easy|]. unfold rmin. destruct (fold_min_le l x) as [A B]. intros [->|H]; auto. Qed.
Lemma rmax_ge l y : In y l -> y <= rmax l.
Proof. destruct l as [|x l]; [easy|]. unfold rmax. destruct (fold_max_ge l x) as [A B]. intros [->|H]; auto. Qed.
Lemma rmin_in l : l <> [] -> In (rmin l) l.
Proof.
  destruct l as [|x l]; [easy|]. intros _. unfold rmin. revert x. induction l as [|a l IH]; intros x; cbn; [now left|].
  destruct (IH (Rmin x a)) as [E|H]; [|auto]. unfold Rmin in *. destruct (Rle_dec x a); auto.
Qed.
Lemma ZnearestE_le x y : x <= y -> (ZnearestE x <= ZnearestE y)%Z.
Proof. apply valid_rnd_N. Qed.
Lemma ZnearestE_IZR z : ZnearestE (IZR z) = z.
Proof. apply valid_rnd_N. Qed.
Lemma rounded_bounds (f : R -> Z) x p r : (forall a b, a <= b -> (f a <= f b)%Z) -> (forall z, f (IZR z) = z) ->
  INR p <= x <= INR p + IZR r -> (Z.of_nat p <= f x <= Z.of_nat p + r)%Z.
Proof.
  intros M I [A B]. rewrite INR_IZR_INZ in *. rewrite <- plus_IZR in B.
  pose proof (M _ _ A) as A'. pose proof (M _ _ B) as B'. rewrite !I in *. lia.
Qed.
Lemma axis_inside (f : R -> Z) P ts pad x : (forall a b, a <= b -> (f a <= f b)%Z) -> (forall z, f (IZR z) = z) -> In x ts ->
  inside (fst (calc_axis P ts pad)) P pad (f (x - snd (calc_axis P ts pad))).
Proof.
  intros M I H. unfold calc_axis, inside. cbn [fst snd].
  pose proof (rmin_le ts x H). pose proof (rmax_ge ts x H). pose proof (Zceil_ub (rmax ts - rmin ts)).
  pose proof (rounded_bounds f (x - (rmin ts - INR pad)) pad (Zceil (rmax ts - rmin ts)) M I ltac:(lra)). lia.
Qed.
Lemma floor_le x y : x <= y -> (Zfloor x <= Zfloor y)%Z. Proof. apply Zfloor_le. Qed.
Lemma window_some H W obj P0 P1 a b : (0 <= a)%Z -> (a + Z.of_nat P0 <= H)%Z -> (0 <= b)%Z -> (b + Z.of_nat P1 <= W)%Z ->
  window H W obj P0 P1 a b = Some (fun i j => obj (a + Z.of_nat i)%Z (b + Z.of_nat j)%Z).
Proof.
  intros A B C D. unfold window. apply Z.leb_le in A, B, C, D. now rewrite A, B, C, D.
Qed.
(** ---- interpolation ---- *)
Lemma sub_part_range x : 0 <= sub_part x < 1.
Proof. unfold sub_part. pose proof (Zfloor_lb x). pose proof (Zfloor_ub x). lra. Qed.
Lemma sub_part_Z z : sub_part (IZR z) = 0.
Proof. unfold sub_part. rewrite Zfloor_IZR. ring. Qed.
Local Open Scope C_scope.
Lemma mix4_0 x00 x10 x01 x11 i j : mix4 0 0 x00 x10 x01 x11 i j = x00 i j.
Proof. unfold mix4. rewrite !Rminus_0_r. ring. Qed.
Lemma times_ext N M p p' q q' : same N M p p' -> same N M q q' -> same N M (times_img p q) (times_img p' q').
Proof. intros A B i j Hi Hj. unfold times_img. now rewrite A, B. Qed.
(** the sinc filter is sinc_subpixel_shift *)
Lemma sinc_filter P0 P1 x s0 s1 :
  ifft2 P0 P1 (ifftshift2 P0 P1 (times_img (fftshift2 P0 P1 (fft2 P0 P1 x))
    (fun i j => cis (- s0 * (2 * PI * centred_index P0 i / INR P0) - s1 * (2 * PI * centred_index P1 j / INR P1))))) =
  sinc_subpixel_shift P0 P1 x s0 s1.
Proof. reflexivity. Qed.
Lemma sinc_ext N M x y s0 s1 i j : same N M x y -> sinc_subpixel_shift N M x s0 s1 i j = sinc_subpixel_shift N M y s0 s1 i j.
Proof. intros H. rewrite !shift_near. apply near_ext; [exact H|]. now intros ? ? _ _. Qed.
Lemma sinc_back P0 P1 x s0 s1 i j :
  ifft2 P0 P1 (ifftshift2 P0 P1 (times_img (fftshift2 P0 P1 (fft2 P0 P1 x))
    (fun i j => Cconj (cis (- s0 * (2 * PI * centred_index P0 i / INR P0) - s1 * (2 * PI * centred_index P1 j / INR P1)))))) i j =
  sinc_subpixel_shift P0 P1 x (- s0) (- s1) i j.
Proof.
  unfold sinc_subpixel_shift. apply ifft2_ext. intros k l Hk Hl. unfold ifftshift2, times_img. f_equal. rewrite cis_conj. f_equal. ring.
Qed.
(** ---- placing in a larger array ---- *)
Lemma csum_place P0 P1 O0 O1 L0 L1 y (h : nat -> nat -> C) : (L0 + O0 <= P0)%nat -> (L1 + O1 <= P1)%nat ->
  csum P0 (fun i => csum P1 (fun j => place O0 O1 L0 L1 y i j * h i j)) =
  csum O0 (fun i => csum O1 (fun j => y i j * h (L0 + i)%nat (L1 + j)%nat)).
Proof.
  intros H0 H1.
  rewrite (csum_ext P0 _ (fun i => if (Nat.leb L0 i && Nat.ltb i (L0 + O0))%bool
     then csum O1 (fun j => y (i - L0)%nat j * h i (L1 + j)%nat) else 0)).
  2:{ intros i Hi. destruct (Nat.leb L0 i && Nat.ltb i (L0 + O0))%bool eqn:B.
      - rewrite (csum_ext P1 _ (fun j => if (Nat.leb L1 j && Nat.ltb j (L1 + O1))%bool then y (i - L0)%nat (j - L1)%nat * h i j else 0)).
        + rewrite csum_embed1 by exact H1. apply csum_ext. intros j Hj. do 2 f_equal. lia.
        + intros j Hj. unfold place. rewrite <- andb_assoc, B. cbn [andb]. destruct (Nat.leb L1 j && Nat.ltb j (L1 + O1))%bool; [reflexivity|ring].
      - apply csum_zero'. intros j Hj. unfold place. rewrite <- andb_assoc, B. cbn [andb]. ring. }
  rewrite (csum_embed1 P0 L0 O0 (fun i => csum O1 (fun j => y (i - L0)%nat j * h i (L1 + j)%nat))) by exact H0.
  apply csum_ext. intros i Hi. apply csum_ext. intros j Hj. do 2 f_equal. lia.
Qed.
Lemma place_at O0 O1 L0 L1 y i j : (i < O0)%nat -> (j < O1)%nat -> place O0 O1 L0 L1 y (L0 + i)%nat (L1 + j)%nat = y i j.
Proof.
  intros Hi Hj. unfold place.
  assert (A : forall L n k, (k < n)%nat -> Nat.leb L (L + k) = true /\ Nat.ltb (L + k) (L + n) = true).
  { intros L n k Hk. split; [apply Nat.leb_le; lia|apply Nat.ltb_lt; lia]. }
  destruct (A L0 O0 i Hi) as [-> ->]. destruct (A L1 O1 j Hj) as [-> ->]. cbn [andb]. f_equal; lia.
Qed.
Lemma place_energy P0 P1 O0 O1 L0 L1 y : (L0 + O0 <= P0)%nat -> (L1 + O1 <= P1)%nat ->
  energy P0 P1 (place O0 O1 L0 L1 y) = energy O0 O1 y.
Proof.
  intros H0 H1. apply RtoC_inj. unfold energy. rewrite <- !csum_RtoC.
  rewrite (csum_ext P0 _ (fun i => csum P1 (fun j => place O0 O1 L0 L1 y i j * Cconj (place O0 O1 L0 L1 y i j)))).
  2:{ intros i _. rewrite <- csum_RtoC. apply csum_ext. intros j _. now rewrite mult_conj. }
  rewrite (csum_place P0 P1 O0 O1 L0 L1 y (fun i j => Cconj (place O0 O1 L0 L1 y i j)) H0 H1).
  apply csum_ext. intros i Hi. rewrite <- csum_RtoC. apply csum_ext. intros j Hj. rewrite place_at by assumption. now rewrite mult_conj.
Qed.
Lemma half_mono a b : (a <= b)%nat -> (a / 2 <= b / 2)%nat /\ (b / 2 - a / 2 + a <= b)%nat.
Proof.
  intros H. split; [now apply Nat.div_le_mono|].
  pose proof (Nat.div_mod a 2 ltac:(lia)). pose proof (Nat.div_mod b 2 ltac:(lia)).
  pose proof (Nat.mod_upper_bound a 2 ltac:(lia)). pose proof (Nat.mod_upper_bound b 2 ltac:(lia)).
  pose proof (Nat.div_le_mono a b 2 ltac:(lia) H). lia.
Qed.
Lemma w_frac n k p m : (0 < n)%nat -> (0 < m)%nat -> w n (k * p) = cis (2 * PI * (IZR k * (IZR p * INR m / INR n) / INR m)).
Proof.
  intros Hn Hm. unfold w. f_equal. rewrite mult_IZR. field. split; now apply INRn.
Qed.
Lemma RPI_formula P0 P1 O0 O1 obj p q : (0 < O0 <= P0)%nat -> (0 < O1 <= P1)%nat ->
  RPI_upsample P0 P1 O0 O1 obj p q =
  trig_interp O0 O1 obj (IZR (off P0 p) * INR O0 / INR P0) (IZR (off P1 q) * INR O1 / INR P1).
Proof.
  intros [HO0 H0] [HO1 H1]. unfold RPI_upsample, trig_interp. rewrite inv_far_centred by lia.
  destruct (half_mono O0 P0 H0) as [A0 B0]. destruct (half_mono O1 P1 H1) as [A1 B1].
  set (L0 := (P0 / 2 - O0 / 2)%nat) in *. set (L1 := (P1 / 2 - O1 / 2)%nat) in *.
  rewrite csum_place by lia.
  assert (OF0 : forall i, off P0 (L0 + i) = off O0 i) by (intros i; unfold off, L0; lia).
  assert (OF1 : forall i, off P1 (L1 + i) = off O1 i) by (intros i; unfold off, L1; lia).
  rewrite Cmult_assoc, <- RtoC_mult. f_equal.
  - f_equal. rewrite <- (sqrt_inv (INR (P0 * P1))), <- sqrt_inv.
    assert (0 < INR (P0 * P1))%R by (apply lt_0_INR; nia). assert (0 < INR (O0 * O1))%R by (apply lt_0_INR; nia).
    rewrite <- sqrt_mult.
    + f_equal. field. lra.
    + apply Rlt_le, Rdiv_lt_0_compat; assumption.
    + apply Rlt_le, Rinv_0_lt_compat. assumption.
  - apply csum_ext. intros k Hk. apply csum_ext. intros l Hl. rewrite far_centred by assumption. f_equal.
    rewrite OF0, OF1, Rmult_plus_distr_l, cis_add. f_equal.
    + rewrite Z.mul_comm, (w_frac P0 _ _ O0) by lia. reflexivity.
    + rewrite Z.mul_comm, (w_frac P1 _ _ O1) by lia. reflexivity.
Qed.
(** the interpolation passes through the pixels *)
Lemma trig_interp_pixels O0 O1 obj n m : (n < O0)%nat -> (m < O1)%nat ->
  trig_interp O0 O1 obj (IZR (off O0 n)) (IZR (off O1 m)) = obj n m.
Proof.
  intros Hn Hm. rewrite <- (proj1 (far_inverse O0 O1 obj ltac:(lia) ltac:(lia)) n m Hn Hm).
  rewrite inv_far_centred by lia. unfold trig_interp. f_equal. apply csum_ext. intros k Hk. apply csum_ext. intros l Hl.
  rewrite far_centred by lia. f_equal. rewrite Rmult_plus_distr_l, cis_add. unfold w. f_equal; f_equal; rewrite mult_IZR; unfold Rdiv; ring.
Qed.
Lemma RPI_energy P0 P1 O0 O1 obj : (0 < O0 <= P0)%nat -> (0 < O1 <= P1)%nat ->
  (energy P0 P1 (RPI_upsample P0 P1 O0 O1 obj) = INR (P0 * P1) / INR (O0 * O1) * energy O0 O1 obj)%R.
Proof.
  intros [HO0 H0] [HO1 H1]. unfold RPI_upsample. rewrite energy_scal, nrm2_RtoC.
  assert (0 < INR (P0 * P1))%R by (apply lt_0_INR; nia). assert (0 < INR (O0 * O1))%R by (apply lt_0_INR; nia).
  rewrite sqrt_sqrt by (apply Rlt_le, Rdiv_lt_0_compat; assumption). f_equal.
  rewrite (proj2 (far_energy P0 P1 _ ltac:(lia) ltac:(lia))).
  destruct (half_mono O0 P0 H0) as [A0 B0]. destruct (half_mono O1 P1 H1) as [A1 B1].
  rewrite place_energy by assumption. apply far_energy; lia.
Qed.
Lemma RPI_total P0 P1 O0 O1 obj : (0 < O0 <= P0)%nat -> (0 < O1 <= P1)%nat ->
  RtoC (/ INR (P0 * P1)) * total P0 P1 (RPI_upsample P0 P1 O0 O1 obj) = RtoC (/ INR (O0 * O1)) * total O0 O1 obj.
Proof.
  intros [HO0 H0] [HO1 H1].
  set (S := sqrt (INR (P0 * P1) / INR (O0 * O1))).
  set (pl := place O0 O1 (P0 / 2 - O0 / 2) (P1 / 2 - O1 / 2) (far_field O0 O1 obj)).
  assert (T : total P0 P1 (RPI_upsample P0 P1 O0 O1 obj) = RtoC S * total P0 P1 (inverse_far_field P0 P1 pl)).
  { unfold total. rewrite csum_scal. apply csum_ext. intros i _. rewrite csum_scal. reflexivity. }
  rewrite T. clear T.
  pose proof (far_centre P0 P1 (inverse_far_field P0 P1 pl) ltac:(lia) ltac:(lia)) as E.
  rewrite (proj2 (far_inverse P0 P1 pl ltac:(lia) ltac:(lia))) in E by (apply half_lt; lia).
  assert (PL : pl (P0 / 2)%nat (P1 / 2)%nat = far_field O0 O1 obj (O0 / 2)%nat (O1 / 2)%nat).
  { destruct (half_mono O0 P0 H0) as [A0 B0]. destruct (half_mono O1 P1 H1) as [A1 B1].
    replace (P0 / 2)%nat with (P0 / 2 - O0 / 2 + O0 / 2)%nat at 1 by lia. replace (P1 / 2)%nat with (P1 / 2 - O1 / 2 + O1 / 2)%nat at 1 by lia.
    apply place_at; apply half_lt; lia. }
  rewrite PL, far_centre in E by lia.
  assert (HP : (0 < INR (P0 * P1))%R) by (apply lt_0_INR; nia). assert (HO : (0 < INR (O0 * O1))%R) by (apply lt_0_INR; nia).
  set (a := INR (P0 * P1)) in *. set (b := INR (O0 * O1)) in *. set (X := total P0 P1 _) in *. set (Y := total O0 O1 obj) in *.
  assert (EX : X = RtoC (sqrt a * / sqrt b) * Y).
  { pose proof (sqrt_lt_R0 a HP). rewrite RtoC_mult, <- Cmult_assoc, E, Cmult_assoc, <- RtoC_mult. rewrite Rinv_r by lra. ring. }
  rewrite EX. rewrite !Cmult_assoc, <- !RtoC_mult. f_equal. f_equal. unfold S. rewrite sqrt_div_alt by exact HO.
  pose proof (sqrt_lt_R0 a HP). pose proof (sqrt_lt_R0 b HO).
  replace (/ a)%R with (/ (sqrt a * sqrt a))%R by (rewrite sqrt_sqrt by lra; reflexivity).
  replace (/ b)%R with (/ (sqrt b * sqrt b))%R by (rewrite sqrt_sqrt by lra; reflexivity). field. lra.
Qed.
(** ---- inner products ---- *)
Definition linear_op (A : img -> img) : Prop := forall a x b y i j, A (lin a x b y) i j = a * A x i j + b * A y i j.
Lemma polar (x y : C) : 
  RtoC 4 * (x * Cconj y) =
  RtoC (nrm2 (1 * x + 1 * y)) - RtoC (nrm2 (1 * x + (- RtoC 1) * y)) + Ci * RtoC (nrm2 (1 * x + Ci * y)) - Ci * RtoC (nrm2 (1 * x + (- Ci) * y)).
Proof.
  destruct x as [a b], y as [c d]. unfold nrm2, Ci. apply C_ext; cbn; ring.
Qed.
Lemma csum2_scal N M c (f : nat -> nat -> C) : c * csum N (fun i => csum M (fun j => f i j)) = csum N (fun i => csum M (fun j => c * f i j)).
Proof. rewrite csum_scal. apply csum_ext. intros. apply csum_scal. Qed.
Lemma csum2_add N M (f g : nat -> nat -> C) : csum N (fun i => csum M (fun j => f i j)) + csum N (fun i => csum M (fun j => g i j)) = csum N (fun i => csum M (fun j => f i j + g i j)).
Proof. rewrite <- csum_add. apply csum_ext. intros. now rewrite <- csum_add. Qed.
Lemma energy_csum N M x : RtoC (energy N M x) = csum N (fun i => csum M (fun j => RtoC (nrm2 (x i j)))).
Proof. unfold energy. rewrite <- csum_RtoC. apply csum_ext. intros. now rewrite <- csum_RtoC. Qed.
Lemma inner_polar N M x y : RtoC 4 * inner N M x y =
  RtoC (energy N M (lin 1 x 1 y)) - RtoC (energy N M (lin 1 x (- RtoC 1) y)) + Ci * RtoC (energy N M (lin 1 x Ci y)) - Ci * RtoC (energy N M (lin 1 x (- Ci) y)).
Proof.
  unfold inner. rewrite csum2_scal, !energy_csum, !csum2_scal. unfold Cminus.
  assert (OP : forall (f : nat -> nat -> C), - csum N (fun i => csum M (fun j => f i j)) = csum N (fun i => csum M (fun j => - f i j))).
  { intros f. rewrite <- csum_opp. apply csum_ext. intros. now rewrite <- csum_opp. }
  rewrite !OP, !csum2_add. apply csum_ext. intros i _. apply csum_ext. intros j _. rewrite polar. unfold lin, Cminus. reflexivity.
Qed.
Lemma inner_ext N M x x' y y' : same N M x x' -> same N M y y' -> inner N M x y = inner N M x' y'.
Proof. intros A B. unfold inner. apply csum_ext. intros i Hi. apply csum_ext. intros j Hj. now rewrite A, B. Qed.
Lemma inner_preserved N M N' M' A x y : linear_op A -> (forall z, energy N' M' (A z) = energy N M z) ->
  inner N' M' (A x) (A y) = inner N M x y.
Proof.
  intros L E.
  assert (K : RtoC 4 * inner N' M' (A x) (A y) = RtoC 4 * inner N M x y).
  { rewrite !inner_polar.
    assert (EL : forall a b, energy N' M' (lin a (A x) b (A y)) = energy N M (lin a x b y)).
    { intros a b. rewrite <- E. apply energy_ext. intros i j _ _. unfold lin at 1. now rewrite L. }
    now rewrite !EL. }
  assert (NZ : RtoC 4 <> 0) by (intros H; apply RtoC_inj in H; lra).
  apply (f_equal (fun z => / RtoC 4 * z)) in K. rewrite !Cmult_assoc, Cinv_l, !Cmult_1_l in K by exact NZ. exact K.
Qed.
Lemma far_inner N M x y : (0 < N)%nat -> (0 < M)%nat -> inner N M (far_field N M x) (far_field N M y) = inner N M x y.
Proof.
  intros HN HM. apply inner_preserved; [|intros; now apply far_energy]. intros a u b v i j. now rewrite (proj1 (far_linear N M a u b v i j)).
Qed.
Lemma far_adjoint N M x y : (0 < N)%nat -> (0 < M)%nat -> inner N M (far_field N M x) y = inner N M x (inverse_far_field N M y).
Proof.
  intros HN HM. rewrite <- (far_inner N M x (inverse_far_field N M y)) by assumption. apply inner_ext; [now intros ? ? _ _|].
  intros i j Hi Hj. symmetry. now apply far_inverse.
Qed.
Lemma inner_sym N M x y : inner N M y x = Cconj (inner N M x y).
Proof.
  unfold inner. rewrite csum_conj. apply csum_ext. intros. rewrite csum_conj. apply csum_ext. intros.
  rewrite Cconj_mult, Cconj_invol. ring.
Qed.
Lemma inv_adjoint N M x y : (0 < N)%nat -> (0 < M)%nat -> inner N M (inverse_far_field N M x) y = inner N M x (far_field N M y).
Proof.
  intros HN HM. rewrite (inner_sym N M y), (inner_sym N M (far_field N M y)). now rewrite far_adjoint.
Qed.
Lemma times_adjoint N M p x y : inner N M (times_img p x) y = inner N M x (times_img (fun i j => Cconj (p i j)) y).
Proof.
  unfold inner, times_img. apply csum_ext. intros. apply csum_ext. intros. rewrite Cconj_mult, Cconj_invol. ring.
Qed.
Lemma far_ext N M x y : (0 < N)%nat -> (0 < M)%nat -> same N M x y -> same N M (far_field N M x) (far_field N M y).
Proof.
  intros HN HM H i j Hi Hj. unfold far_field, fftshift2, fft2_ortho. f_equal. apply fft2_ext. intros k l Hk Hl.
  unfold ifftshift2. apply H; now apply roll_bound.
Qed.
Lemma inv_far_ext N M x y : (0 < N)%nat -> (0 < M)%nat -> same N M x y -> same N M (inverse_far_field N M x) (inverse_far_field N M y).
Proof.
  intros HN HM H i j Hi Hj. unfold inverse_far_field, fftshift2, ifft2_ortho. f_equal. apply ifft2_ext. intros k l Hk Hl.
  unfold ifftshift2. apply H; now apply roll_bound.
Qed.
Lemma spectral_adjoint P0 P1 O0 O1 probe x y : (0 < O0 <= P0)%nat -> (0 < O1 <= P1)%nat ->
  inner P0 P1 (spectral_a_dagger P0 P1 O0 O1 probe x) y = inner O0 O1 x (spectral_a P0 P1 O0 O1 probe y).
Proof.
  intros [HO0 H0] [HO1 H1]. unfold spectral_a_dagger, spectral_a.
  rewrite far_adjoint, times_adjoint, inv_adjoint by lia.
  set (z := far_field P0 P1 _).
  assert (F : forall a b, (b <= a -> (a - b) / 2 + b <= a)%nat).
  { intros a b Hab. pose proof (Nat.div_le_upper_bound (a - b) 2 (a - b) ltac:(lia) ltac:(lia)). lia. }
  unfold inner at 1. rewrite csum_place by (apply F; lia).
  fold (inner O0 O1 (far_field O0 O1 x) (fun i j => z ((P0 - O0) / 2 + i)%nat ((P1 - O1) / 2 + j)%nat)).
  now rewrite far_adjoint by lia.
Qed.
(** ---- mode orders ---- *)
Local Close Scope C_scope.

Local Open Scope nat_scope.
Definition tot (o : nat * nat) : nat := fst o + snd o.
Lemma make_orders_length f n i : length (make_orders f n i) = f.
Proof. revert n i. induction f as [|f IH]; intros n i; cbn [make_orders length]; [reflexivity|]. f_equal. destruct (Nat.ltb n i); apply IH. Qed.
(** everything produced from state (n, i) comes at or after (n, i - n) *)
Lemma make_orders_after f n i o : n <= i -> In o (make_orders f n i) ->
  (i < tot o \/ (tot o = i /\ n <= fst o)).
Proof.
  revert n i. induction f as [|f IH]; intros n i Hn; cbn [make_orders]; [easy|]. intros [<-|H].
  - right. unfold tot. cbn [fst snd]. lia.
  - destruct (Nat.ltb_spec n i).
    + destruct (IH (S n) i ltac:(lia) H) as [A|A]; lia.
    + destruct (IH 0%nat (S i) ltac:(lia) H) as [A|A]; lia.
Qed.
Lemma make_orders_sorted f n i : n <= i -> StronglySorted before (make_orders f n i).
Proof.
  revert n i. induction f as [|f IH]; intros n i Hn; cbn [make_orders]; [constructor|].
  constructor.
  - destruct (Nat.ltb_spec n i); apply IH; lia.
  - apply Forall_forall. intros o Ho. unfold before. cbn [fst snd].
    destruct (Nat.ltb_spec n i).
    + destruct (make_orders_after f (S n) i o ltac:(lia) Ho) as [A|A]; unfold tot in A; lia.
    + destruct (make_orders_after f 0 (S i) o ltac:(lia) Ho) as [A|A]; unfold tot in A; lia.
Qed.
Lemma make_orders_closed f n i o o' : n <= i -> In o (make_orders f n i) -> before o' o ->
  (i < tot o' \/ (tot o' = i /\ n <= fst o')) -> In o' (make_orders f n i).
Proof.
  revert n i. induction f as [|f IH]; intros n i Hn; cbn [make_orders]; [easy|]. intros [<-|H] B A.
  - exfalso. unfold before, tot in *. cbn [fst snd] in *. lia.
  - destruct (Nat.eq_dec (tot o') i) as [Et|Et]; [destruct (Nat.eq_dec (fst o') n) as [Ef|Ef]|].
    + left. destruct o' as [u v]. unfold tot in *. cbn [fst snd] in *. f_equal; lia.
    + right. destruct (Nat.ltb_spec n i).
      * apply IH; auto; lia.
      * exfalso. unfold tot in *. lia.
    + right. destruct (Nat.ltb_spec n i).
      * apply IH; auto; lia.
      * apply IH; auto; lia.
Qed.
