(** C71: center and center_probes. *)
From Verif Require Import Base FinSum Fourier Matrix Model_Analysis Spec_Analysis.
From Verif Require Import Model_Prop Spec_Prop Proofs_Prop Model_Image Spec_Image Proofs_Image Properties_Image
  Model_Interact Spec_Interact Proofs_Interact Model_Meas Spec_Meas Proofs_Meas Model_Geom Model_Models Model_Forward Spec_Forward Proofs_Forward Proofs_ForwardSym Properties_Sinc Model_Center.
From Coquelicot Require Import Complex.
Local Open Scope R_scope.

(** ---- specification ---- *)
(** The power of a stack at a pixel. *)
Definition brightness (ims : list img) (i j : nat) : R := lsum (map (fun x : img => nrm2 (x i j)) ims).
Definition nonzero_on (N M : nat) (ims : list img) : Prop := exists x i j, In x ims /\ (i < N)%nat /\ (j < M)%nat /\ x i j <> RtoC 0.
(** (c0, c1) is the centre of mass of the weights w. *)
Definition mass_centre (N M : nat) (w : nat -> nat -> R) (c0 c1 : R) : Prop :=
  rsum N (fun i => rsum M (fun j => (INR i - c0) * w i j)) = 0 /\ rsum N (fun i => rsum M (fun j => (INR j - c1) * w i j)) = 0.
(** The weights whose centre of mass is used. *)
Definition mass (p : bool) (ims : list img) : nat -> nat -> R := if p then brightness ims else fun i j => lsum (map (fun x : img => Cmod (x i j)) ims).
(** Stacks that agree pixel by pixel. *)
Definition alike (N M : nat) : list img -> list img -> Prop := Forall2 (same N M).
Definition alike_opt (N M : nat) (a b : option (list img)) : Prop :=
  match a, b with Some x, Some y => alike N M x y | None, None => True | _, _ => False end.

(** No part of the images leaves the array when they are moved by (d0, d1) pixels. *)
Definition fits_inside (N M : nat) (ims : list img) (d0 d1 : Z) : Prop := forall x i j, In x ims -> (i < N)%nat -> (j < M)%nat -> x i j <> RtoC 0 ->
  (0 <= Z.of_nat i + d0 < Z.of_nat N)%Z /\ (0 <= Z.of_nat j + d1 < Z.of_nat M)%Z.
(** The image moved by (d0, d1) pixels, nothing coming in over the edges. *)
Definition moved (N M : nat) (x : img) (d0 d1 : Z) : img := fun i j =>
  let a := (Z.of_nat i - d0)%Z in let b := (Z.of_nat j - d1)%Z in
  if (0 <=? a)%Z && (a <? Z.of_nat N)%Z && (0 <=? b)%Z && (b <? Z.of_nat M)%Z then x (Z.to_nat a) (Z.to_nat b) else RtoC 0.

(** ---- lemmas ---- *)
Lemma mag_nonneg (p : bool) (z : C) : 0 <= (if p then Cmod z ^ 2 else Cmod z).
Proof. pose proof (Cmod_ge_0 z). destruct p; [apply pow2_ge_0|assumption]. Qed.
Lemma mag_zero (p : bool) (z : C) : (if p then Cmod z ^ 2 else Cmod z) = 0 <-> z = RtoC 0.
Proof.
  split; [|intros ->; rewrite Cmod_0; destruct p; ring]. intros H. apply Cmod_eq_0. destruct p; [|exact H].
  destruct (Req_dec (Cmod z) 0) as [E|E]; [exact E|]. exfalso. exact (pow_nonzero _ 2 E H).
Qed.
Lemma lsum_nonneg l : (forall x, In x l -> 0 <= x) -> 0 <= lsum l.
Proof. unfold lsum. induction l as [|a l IH]; cbn; intros H; [lra|]. specialize (H a (or_introl eq_refl)) as Ha. specialize (IH (fun x I => H x (or_intror I))). lra. Qed.
Lemma lsum_zero l : (forall x, In x l -> 0 <= x) -> lsum l = 0 -> forall x, In x l -> x = 0.
Proof.
  induction l as [|a l IH]; cbn; intros H E x; [tauto|]. pose proof (H a (or_introl eq_refl)) as Ha. pose proof (lsum_nonneg l (fun x I => H x (or_intror I))) as Hl.
  unfold lsum in *. cbn in E. intros [->|I]; [lra|]. apply IH; auto. lra.
Qed.
Lemma weight_nonneg p ims i j : 0 <= to_center p ims i j.
Proof. apply lsum_nonneg. intros x I. apply in_map_iff in I. destruct I as (y & <- & _). apply mag_nonneg. Qed.
Lemma total_nonneg N M p ims : 0 <= isum N M (to_center p ims).
Proof. apply rsum_nonneg. intros i _. apply rsum_nonneg. intros j _. apply weight_nonneg. Qed.
Lemma total_zero N M p ims : isum N M (to_center p ims) = 0 <-> ~ nonzero_on N M ims.
Proof.
  unfold isum. split.
  - intros H (x & i & j & I & Hi & Hj & NZ). apply NZ.
    assert (A : rsum M (to_center p ims i) = 0) by (apply (proj1 (rsum_zero_iff N (fun i => rsum M (to_center p ims i)) (fun i _ => rsum_nonneg M _ (fun j _ => weight_nonneg p ims i j))) H i Hi)).
    assert (B : to_center p ims i j = 0) by (apply (proj1 (rsum_zero_iff M (to_center p ims i) (fun j _ => weight_nonneg p ims i j)) A j Hj)).
    apply (mag_zero p). refine (lsum_zero _ _ B _ _).
    + intros y Y. apply in_map_iff in Y. destruct Y as (z & <- & _). apply mag_nonneg.
    + apply in_map_iff. exists x. auto.
  - intros H. apply rsum_zero'. intros i Hi. apply rsum_zero'. intros j Hj. unfold to_center, lsum.
    assert (G : forall l, (forall x, In x l -> In x ims) -> fold_right Rplus 0 (map (fun x : img => if p then Cmod (x i j) ^ 2 else Cmod (x i j)) l) = 0).
    { induction l as [|x l IH]; cbn [map fold_right]; intros I; [reflexivity|]. rewrite IH by (intros; apply I; now right). destruct (Req_dec (if p then Cmod (x i j) ^ 2 else Cmod (x i j)) 0) as [E|E].
      - rewrite E. ring.
      - exfalso. apply H. exists x, i, j. repeat split; auto; [apply I; now left|]. intros Z. apply E. now apply mag_zero. }
    apply G. auto.
Qed.
Lemma centroid_mass N M w : isum N M w <> 0 -> mass_centre N M w (fst (centroid N M w)) (snd (centroid N M w)).
Proof.
  intros H. unfold centroid, mass_centre. cbn [fst snd].
  assert (G : forall (u : nat -> nat -> R) d, rsum N (fun i => rsum M (fun j => (u i j - d) * w i j)) = isum N M (fun i j => u i j * w i j) - d * isum N M w).
  { intros u d. unfold isum. replace (rsum N (fun i => rsum M (fun j => u i j * w i j)) - d * rsum N (fun i => rsum M (w i))) with
      (rsum N (fun i => rsum M (fun j => u i j * w i j)) + (- d) * rsum N (fun i => rsum M (w i))) by ring.
    rewrite rsum_scal, <- rsum_add. apply rsum_ext. intros i _. rewrite rsum_scal, <- rsum_add. apply rsum_ext. intros j _. ring. }
  split; [rewrite (G (fun i _ => INR i))|rewrite (G (fun _ j => INR j))]; field; exact H.
Qed.
Lemma mass_unique N M w c0 c1 : isum N M w <> 0 -> mass_centre N M w c0 c1 -> centroid N M w = (c0, c1).
Proof.
  intros H [A B]. unfold centroid.
  assert (G : forall (u : nat -> nat -> R) d, rsum N (fun i => rsum M (fun j => (u i j - d) * w i j)) = isum N M (fun i j => u i j * w i j) - d * isum N M w).
  { intros u d. unfold isum. replace (rsum N (fun i => rsum M (fun j => u i j * w i j)) - d * rsum N (fun i => rsum M (w i))) with
      (rsum N (fun i => rsum M (fun j => u i j * w i j)) + (- d) * rsum N (fun i => rsum M (w i))) by ring.
    rewrite rsum_scal, <- rsum_add. apply rsum_ext. intros i _. rewrite rsum_scal, <- rsum_add. apply rsum_ext. intros j _. ring. }
  rewrite (G (fun i _ => INR i)) in A. rewrite (G (fun _ j => INR j)) in B.
  f_equal; apply (Rmult_eq_reg_r (isum N M w)); auto; unfold Rdiv; rewrite Rmult_assoc, Rinv_l, Rmult_1_r by auto; lra.
Qed.
Lemma alike_refl N M l : alike N M l l.
Proof. induction l; constructor; auto. now intros i j _ _. Qed.
Lemma alike_trans N M a b c : alike N M a b -> alike N M b c -> alike N M a c.
Proof.
  intros H. revert c. induction H as [|x y a b Hx H IH]; intros c K; inversion K; subst; constructor.
  - intros i j Hi Hj. rewrite Hx by assumption. auto.
  - now apply IH.
Qed.
Lemma to_center_alike N M p a b i j : alike N M a b -> (i < N)%nat -> (j < M)%nat -> to_center p a i j = to_center p b i j.
Proof. intros H Hi Hj. unfold to_center, lsum. induction H as [|x y a b Hx H IH]; cbn [map fold_right]; [reflexivity|]. rewrite IH, (Hx i j Hi Hj). reflexivity. Qed.
Lemma isum_ext N M f g : (forall i j, (i < N)%nat -> (j < M)%nat -> f i j = g i j) -> isum N M f = isum N M g.
Proof. intros H. apply rsum_ext. intros i Hi. apply rsum_ext. intros j Hj. auto. Qed.
Lemma centroid_ext N M f g : (forall i j, (i < N)%nat -> (j < M)%nat -> f i j = g i j) -> centroid N M f = centroid N M g.
Proof. intros H. unfold centroid. rewrite (isum_ext N M f g H). f_equal; f_equal; apply isum_ext; intros; rewrite H; auto. Qed.
Lemma shift_ext N M x y s0 s1 : same N M x y -> same N M (sinc_subpixel_shift N M x s0 s1) (sinc_subpixel_shift N M y s0 s1).
Proof. intros H i j Hi Hj. rewrite !shift_near. now apply (proj1 (near_linear_map N M (shift_mask N M s0 s1)) x y H). Qed.
Lemma step_alike N M p a b : alike N M a b -> alike_opt N M (center_step N M p a) (center_step N M p b).
Proof.
  intros H. unfold center_step. assert (E : forall i j, (i < N)%nat -> (j < M)%nat -> to_center p a i j = to_center p b i j) by (intros; now apply (to_center_alike N M)).
  rewrite (isum_ext N M _ _ E), (centroid_ext N M _ _ E). destruct (Req_EM_T (isum N M (to_center p b)) 0); [exact I|]. unfold alike_opt.
  generalize (- fst (centroid N M (to_center p b)) + INR N / 2) (- snd (centroid N M (to_center p b)) + INR M / 2). intros s0 s1. clear E n. unfold alike in *. induction H as [|x y l l' Hx H IH]; cbn [map]; [apply Forall2_nil|apply Forall2_cons; [now apply shift_ext|exact IH]].
Qed.
Lemma center_alike N M p k a b : alike N M a b -> alike_opt N M (center N M p k a) (center N M p k b).
Proof.
  revert a b. induction k as [|k IH]; intros a b H; cbn [center]; [exact H|]. pose proof (step_alike N M p a b H) as S.
  destruct (center_step N M p a), (center_step N M p b); cbn in S; try tauto. now apply IH.
Qed.
Lemma shift_add N M x s0 s1 t0 t1 : (0 < N)%nat -> (0 < M)%nat ->
  same N M (sinc_subpixel_shift N M (sinc_subpixel_shift N M x s0 s1) t0 t1) (sinc_subpixel_shift N M x (s0 + t0) (s1 + t1)).
Proof. intros. now apply C29_additive. Qed.
Lemma Forall2_map_l {A B C} (f : A -> B) (P : B -> C -> Prop) l l' : Forall2 P (map f l) l' <-> Forall2 (fun x y => P (f x) y) l l'.
Proof.
  split.
  - revert l'. induction l; intros l' H; inversion H; subst; constructor; auto.
  - intros H. induction H; cbn; constructor; auto.
Qed.
Lemma F2_impl {A B} (P Q : A -> B -> Prop) l l' : (forall x y, P x y -> Q x y) -> Forall2 P l l' -> Forall2 Q l l'.
Proof. intros I H. induction H; constructor; auto. Qed.
Lemma F2_length {A B} (P : A -> B -> Prop) l l' : Forall2 P l l' -> length l = length l'.
Proof. intros H. induction H; cbn; auto. Qed.
Lemma Forall2_self {A} (P : A -> A -> Prop) l : (forall x, P x x) -> Forall2 P l l.
Proof. intros H. induction l; constructor; auto. Qed.

(** ---- theorems ---- *)
(** C71: center moves every image of the stack by one common amount (a sinc_subpixel_shift, C29), ... *)
Theorem C71_common_shift : forall N M p k ims ys, (0 < N)%nat -> (0 < M)%nat -> center N M p k ims = Some ys ->
  exists s0 s1, Forall2 (fun x y => same N M y (sinc_subpixel_shift N M x s0 s1)) ims ys.
Proof.
  intros N M p k. induction k as [|k IH]; intros ims ys HN HM E; cbn [center] in E.
  - injection E as <-. exists 0, 0. apply Forall2_self. intros x i j Hi Hj. symmetry. now apply shift_zero.
  - unfold center_step in E. destruct (Req_EM_T (isum N M (to_center p ims)) 0); [discriminate|].
    destruct (IH _ _ HN HM E) as (s0 & s1 & H). apply Forall2_map_l in H.
    exists (- fst (centroid N M (to_center p ims)) + INR N / 2 + s0), (- snd (centroid N M (to_center p ims)) + INR M / 2 + s1). revert H. apply F2_impl. intros x y H i j Hi Hj. rewrite (H i j Hi Hj). now apply shift_add.
Qed.
Print Assumptions C71_common_shift.
(** ... so that it keeps the power of each image and the inner product of any two, ... *)
Lemma dot_energy N M x y : RtoC (energy N M (fun i j => (x i j + y i j)%C)) = (RtoC (energy N M x) + RtoC (energy N M y) + (dot N M x y + Cconj (dot N M x y)))%C.
Proof.
  assert (E : forall z, RtoC (energy N M z) = csum N (fun i => csum M (fun j => (z i j * Cconj (z i j))%C))).
  { intros z. unfold energy. rewrite <- csum_RtoC. apply csum_ext. intros i _. rewrite <- csum_RtoC. apply csum_ext. intros j _. unfold nrm2. destruct (z i j) as [a b]. apply C_ext; cbn; ring. }
  rewrite !E. unfold dot. rewrite csum_conj, <- !csum_add. apply csum_ext. intros i _. rewrite csum_conj, <- !csum_add. apply csum_ext. intros j _.
  destruct (x i j) as [a b]. destruct (y i j) as [c d]. apply C_ext; cbn; ring.
Qed.
Lemma isometry_dot N M A x y : linear_map N M N M A -> (forall z, energy N M (A z) = energy N M z) -> dot N M (A x) (A y) = dot N M x y.
Proof.
  intros L E.
  assert (EX : forall u v, same N M u v -> energy N M u = energy N M v) by (intros u v H; apply rsum_ext; intros i Hi; apply rsum_ext; intros j Hj; now rewrite H).
  assert (G : forall c, (dot N M (A x) (fun i j => c * A y i j)%C + Cconj (dot N M (A x) (fun i j => c * A y i j)%C) = dot N M x (fun i j => c * y i j)%C + Cconj (dot N M x (fun i j => c * y i j)%C))%C).
  { intros c. pose proof (dot_energy N M x (fun i j => c * y i j)%C) as P. pose proof (dot_energy N M (A x) (fun i j => c * A y i j)%C) as Q. cbv beta in P, Q.
    assert (R1 : energy N M (fun i j => (A x i j + c * A y i j)%C) = energy N M (fun i j => (x i j + c * y i j)%C)).
    { rewrite <- (E (fun i j => (x i j + c * y i j)%C)). apply EX. intros i j Hi Hj.
      symmetry. rewrite (proj1 L _ (comb 2 (fun q => match q with O => RtoC 1 | _ => c end) (fun q => match q with O => x | _ => y end))); [|intros a b _ _; unfold comb; rewrite !csum_S; change (csum 0 _) with (RtoC 0); cbv beta iota; ring|assumption|assumption].
      rewrite (proj2 L 2%nat (fun q => match q with O => RtoC 1 | _ => c end) (fun q => match q with O => x | _ => y end) i j Hi Hj). unfold comb. rewrite !csum_S. change (csum 0 _) with (RtoC 0). cbv beta iota. ring. }
    assert (R2 : energy N M (fun i j => (c * A y i j)%C) = energy N M (fun i j => (c * y i j)%C)).
    { rewrite <- (E (fun i j => (c * y i j)%C)). apply EX. intros i j Hi Hj. symmetry. now apply (lin_scal _ _ _ _ _ c y L). }
    rewrite R1, R2, P, E in Q.
    apply (f_equal (fun z => (z - RtoC (energy N M x) - RtoC (energy N M (fun i j => c * y i j)%C))%C)) in Q. ring_simplify in Q. symmetry. ring_simplify. exact Q. }
  assert (S : forall c u v, dot N M u (fun i j => c * v i j)%C = (c * dot N M u v)%C).
  { intros c u v. unfold dot. rewrite csum_scal. apply csum_ext. intros i _. rewrite csum_scal. apply csum_ext. intros j _. ring. }
  pose proof (G 1%C) as G1. pose proof (G Ci) as G2. rewrite !S in G1, G2.
  destruct (dot N M (A x) (A y)) as [a b]. destruct (dot N M x y) as [c d]. apply (f_equal fst) in G1. apply (f_equal fst) in G2. cbn in G1, G2. apply C_ext; cbn; lra.
Qed.
Lemma shift_linear N M s0 s1 : linear_map N M N M (fun x => sinc_subpixel_shift N M x s0 s1).
Proof.
  pose proof (near_linear_map N M (shift_mask N M s0 s1)) as [A B]. split.
  - intros x y H. now apply shift_ext.
  - intros n u f i j Hi Hj. rewrite shift_near, (B n u f i j Hi Hj). unfold comb. apply csum_ext. intros q _. now rewrite shift_near.
Qed.
Theorem C71_keeps : forall N M p k ims ys, (0 < N)%nat -> (0 < M)%nat -> center N M p k ims = Some ys -> length ys = length ims /\
  forall a b, (a < length ims)%nat -> (b < length ims)%nat ->
    energy N M (nth a ys no_img) = energy N M (nth a ims no_img) /\ dot N M (nth a ys no_img) (nth b ys no_img) = dot N M (nth a ims no_img) (nth b ims no_img).
Proof.
  intros N M p k ims ys HN HM E. destruct (C71_common_shift N M p k ims ys HN HM E) as (s0 & s1 & H).
  pose proof (F2_length _ _ _ H) as LE. split; [auto|]. intros a b Ha Hb.
  assert (P : forall q, (q < length ims)%nat -> same N M (nth q ys no_img) (sinc_subpixel_shift N M (nth q ims no_img) s0 s1)).
  { clear -H. induction H as [|x y l l' Hx H IH]; intros q Hq; cbn in Hq; [lia|]. destruct q; cbn; [exact Hx|]. apply IH. lia. }
  split.
  - rewrite <- (C29_intensity N M (nth a ims no_img) s0 s1 HN HM). apply rsum_ext. intros i Hi. apply rsum_ext. intros j Hj. now rewrite P.
  - rewrite <- (isometry_dot N M _ (nth a ims no_img) (nth b ims no_img) (shift_linear N M s0 s1) (fun z => C29_intensity N M z s0 s1 HN HM)).
    apply csum_ext. intros i Hi. apply csum_ext. intros j Hj. now rewrite !P.
Qed.
Print Assumptions C71_keeps.
(** ... gives numbers exactly for stacks that do not vanish, ... *)
Theorem C71_defined : forall N M p k ims, (0 < N)%nat -> (0 < M)%nat -> center N M p (S k) ims <> None <-> nonzero_on N M ims.
Proof.
  intros N M p k. induction k as [|k IH]; intros ims HN HM.
  - cbn [center]. unfold center_step. destruct (Req_EM_T (isum N M (to_center p ims)) 0) as [Z|Z].
    + apply total_zero in Z. split; congruence.
    + split; [intros _|discriminate]. destruct (Classical_Prop.classic (nonzero_on N M ims)) as [Y|Y]; [exact Y|]. apply (total_zero N M p) in Y. contradiction.
  - change (center N M p (S (S k)) ims) with (match center_step N M p ims with None => None | Some ys => center N M p (S k) ys end).
    unfold center_step. destruct (Req_EM_T (isum N M (to_center p ims)) 0) as [Z|Z].
    + apply total_zero in Z. split; congruence.
    + rewrite IH by assumption. set (s0 := - fst (centroid N M (to_center p ims)) + INR N / 2). set (s1 := - snd (centroid N M (to_center p ims)) + INR M / 2).
      split; intros (x & i & j & I & Hi & Hj & NZ).
      * apply in_map_iff in I. destruct I as (y & <- & I).
        destruct (Classical_Prop.classic (exists a b, (a < N)%nat /\ (b < M)%nat /\ y a b <> RtoC 0)) as [(a & b & Ha & Hb & Y)|Y].
        -- exists y, a, b. auto.
        -- exfalso. apply NZ.
           assert (EN : energy N M (sinc_subpixel_shift N M y s0 s1) = 0).
           { rewrite C29_intensity by assumption. apply rsum_zero'. intros a Ha. apply rsum_zero'. intros b Hb.
             replace (y a b) with (RtoC 0); [unfold nrm2; cbn; ring|]. symmetry. apply Classical_Prop.NNPP. intros Q. apply Y. exists a, b. auto. }
           unfold energy in EN. rewrite rsum_zero_iff in EN by (intros; apply rsum_nonneg; intros; apply nrm2_nonneg). specialize (EN i Hi).
           rewrite rsum_zero_iff in EN by (intros; apply nrm2_nonneg). specialize (EN j Hj). now apply nrm2_0.
      * exists (sinc_subpixel_shift N M x s0 s1).
        destruct (Classical_Prop.classic (exists a b, (a < N)%nat /\ (b < M)%nat /\ sinc_subpixel_shift N M x s0 s1 a b <> RtoC 0)) as [(a & b & Ha & Hb & Y)|Y].
        -- exists a, b. repeat split; auto. now apply in_map_iff; exists x.
        -- exfalso. apply NZ. assert (EN : energy N M x = 0).
           { rewrite <- (C29_intensity N M x s0 s1) by assumption. apply rsum_zero'. intros a Ha. apply rsum_zero'. intros b Hb.
             replace (sinc_subpixel_shift N M x s0 s1 a b) with (RtoC 0); [unfold nrm2; cbn; ring|]. symmetry. apply Classical_Prop.NNPP. intros Q. apply Y. exists a, b. auto. }
           unfold energy in EN. rewrite rsum_zero_iff in EN by (intros; apply rsum_nonneg; intros; apply nrm2_nonneg). specialize (EN i Hi).
           rewrite rsum_zero_iff in EN by (intros; apply nrm2_nonneg). specialize (EN j Hj). now apply nrm2_0.
Qed.
Print Assumptions C71_defined.
(** ... does a + b iterations as a iterations and then b more, ... *)
Theorem C71_iterations : forall N M p a b ims, center N M p (a + b) ims = match center N M p a ims with None => None | Some ys => center N M p b ys end.
Proof. intros N M p a. induction a as [|a IH]; intros b ims; cbn [center Nat.add]; [reflexivity|]. destruct (center_step N M p ims); [apply IH|reflexivity]. Qed.
Print Assumptions C71_iterations.
(** ... leaves alone a stack whose centre of mass (of the summed powers, or magnitudes) is (N/2, M/2), ... *)
Lemma step_shift N M p ims c0 c1 : nonzero_on N M ims -> mass_centre N M (to_center p ims) c0 c1 ->
  center_step N M p ims = Some (map (fun x => sinc_subpixel_shift N M x (- c0 + INR N / 2) (- c1 + INR M / 2)) ims).
Proof.
  intros NZ MC. unfold center_step. destruct (Req_EM_T (isum N M (to_center p ims)) 0) as [Z|Z]; [apply total_zero in Z; contradiction|].
  now rewrite (mass_unique N M _ c0 c1 Z MC).
Qed.
Lemma mass_alike N M p a b c0 c1 : alike N M a b -> mass_centre N M (to_center p a) c0 c1 -> mass_centre N M (to_center p b) c0 c1.
Proof.
  intros H [A B]. split; [rewrite <- A|rewrite <- B]; apply rsum_ext; intros i Hi; apply rsum_ext; intros j Hj; now rewrite (to_center_alike N M p a b).
Qed.
Lemma nonzero_alike N M a b : alike N M a b -> nonzero_on N M a -> nonzero_on N M b.
Proof.
  intros H (x & i & j & I & Hi & Hj & NZ). induction H as [|y z a b Hy H IH]; [contradiction|]. destruct I as [<-|I].
  - exists z, i, j. repeat split; auto; [now left|]. rewrite <- Hy by assumption. exact NZ.
  - destruct (IH I) as (x' & i' & j' & I' & R). exists x', i', j'. split; [now right|exact R].
Qed.
Theorem C71_fixed : forall N M (p : bool) k ims, (0 < N)%nat -> (0 < M)%nat -> nonzero_on N M ims ->
  mass_centre N M (mass p ims) (INR N / 2) (INR M / 2) ->
  exists ys, center N M p k ims = Some ys /\ alike N M ims ys.
Proof.
  intros N M p k ims HN HM NZ MC.
  assert (MC' : mass_centre N M (to_center p ims) (INR N / 2) (INR M / 2)).
  { destruct p; [|exact MC]. unfold mass in MC. destruct MC as [A B].
    assert (EQ : forall i j, brightness ims i j = to_center true ims i j) by (intros; unfold brightness, to_center, lsum; f_equal; apply map_ext; intros; apply nrm2_Cmod).
    split; [rewrite <- A|rewrite <- B]; apply rsum_ext; intros i Hi; apply rsum_ext; intros j Hj; now rewrite EQ. }
  clear MC. revert ims NZ MC'. induction k as [|k IH]; intros ims NZ MC; cbn [center].
  - exists ims. split; [reflexivity|apply alike_refl].
  - rewrite (step_shift N M p ims _ _ NZ MC). set (zs := map _ ims).
    assert (A : alike N M ims zs).
    { unfold zs, alike. replace (- (INR N / 2) + INR N / 2) with 0 by ring. replace (- (INR M / 2) + INR M / 2) with 0 by ring. clear. induction ims as [|x l IH]; cbn [map]; constructor; [|exact IH].
      intros i j Hi Hj. symmetry. apply shift_zero; auto; lia. }
    destruct (IH zs (nonzero_alike _ _ _ _ A NZ) (mass_alike _ _ _ _ _ _ _ A MC)) as (ys & E & B). exists ys. split; [exact E|]. now apply (alike_trans N M ims zs ys).
Qed.
Print Assumptions C71_fixed.
(** ... scales with its input, ... *)
Theorem C71_scale : forall N M (p : bool) k c ims ys, (0 < N)%nat -> (0 < M)%nat -> c <> RtoC 0 -> center N M p k ims = Some ys ->
  exists zs, center N M p k (map (fun x i j => c * x i j)%C ims) = Some zs /\ alike N M (map (fun x i j => c * x i j)%C ys) zs.
Proof.
  intros N M p k c ims ys HN HM Hc. revert ims ys. induction k as [|k IH]; intros ims ys E; cbn [center] in *.
  - injection E as <-. eexists. split; [reflexivity|apply alike_refl].
  - unfold center_step in E. destruct (Req_EM_T (isum N M (to_center p ims)) 0) as [Z|Z]; [discriminate|].
    set (cs := map (fun x i j => c * x i j)%C ims).
    set (g := if p then Cmod c ^ 2 else Cmod c). assert (Hg : g <> 0). { unfold g. rewrite (mag_zero p c). exact Hc. }
    assert (T : forall i j, to_center p cs i j = g * to_center p ims i j).
    { intros i j. unfold to_center, cs, lsum. clear. induction ims as [|x l IH]; cbn [map fold_right]; [ring|]. rewrite IH, Cmod_mult. unfold g. destruct p; ring. }
    assert (T1 : isum N M (to_center p cs) <> 0).
    { rewrite (isum_ext N M _ (fun i j => g * to_center p ims i j)) by (intros; apply T). unfold isum in *. intros Q. apply Z.
      rewrite (rsum_ext N _ (fun i => g * rsum M (to_center p ims i))) in Q by (intros; symmetry; apply rsum_scal). rewrite <- rsum_scal in Q.
      apply Rmult_integral in Q. tauto. }
    unfold center_step. destruct (Req_EM_T (isum N M (to_center p cs)) 0) as [Z1|_]; [contradiction|].
    rewrite (mass_unique N M (to_center p cs) (fst (centroid N M (to_center p ims))) (snd (centroid N M (to_center p ims))) T1).
    2:{ destruct (centroid_mass N M (to_center p ims) Z) as [A B]. split.
        - rewrite <- (Rmult_0_r g), <- A, rsum_scal. apply rsum_ext. intros i _. rewrite rsum_scal. apply rsum_ext. intros j _. rewrite T. ring.
        - rewrite <- (Rmult_0_r g), <- B, rsum_scal. apply rsum_ext. intros i _. rewrite rsum_scal. apply rsum_ext. intros j _. rewrite T. ring. }
    cbn [fst snd] in *. set (s0 := - fst (centroid N M (to_center p ims)) + INR N / 2) in *. set (s1 := - snd (centroid N M (to_center p ims)) + INR M / 2) in *.
    destruct (IH _ _ E) as (zs & E1 & A1).
    assert (AL : alike N M (map (fun x i j => c * x i j)%C (map (fun x => sinc_subpixel_shift N M x s0 s1) ims)) (map (fun x => sinc_subpixel_shift N M x s0 s1) cs)).
    { unfold cs, alike. clearbody s0 s1. clear. induction ims as [|x l IH]; cbn [map]; [constructor|]. constructor; [|exact IH]. intros i j _ _. symmetry. apply shift_scal. }
    pose proof (center_alike N M p k _ _ AL) as CA. rewrite E1 in CA. destruct (center N M p k (map (fun x => sinc_subpixel_shift N M x s0 s1) cs)) as [ws|]; [|contradiction].
    exists ws. split; [reflexivity|]. now apply (alike_trans N M _ zs ws).
Qed.
Print Assumptions C71_scale.
(** ... and does what it says when the centre of mass is a whole number of pixels (d0, d1) from (N/2, M/2) and
    moving the images by that much pushes none of them over the edge: it moves them there, and they stay there
    however many iterations follow. *)
Lemma circ_in n z : (0 <= z < Z.of_nat n)%Z -> circ n z = Z.to_nat z.
Proof. intros H. unfold circ. rewrite Z.mod_small by exact H. reflexivity. Qed.
Lemma roll_sum n d (f g : nat -> R) : (0 < n)%nat -> (forall i, (i < n)%nat -> f (circ n (Z.of_nat i - d)) = g i) -> rsum n f = rsum n g.
Proof.
  intros Hn H. rewrite (rsum_ext n g (fun i => f (circ n (Z.of_nat i - d)))) by (intros; symmetry; auto).
  symmetry. apply (rsum_reindex n (fun i => circ n (Z.of_nat i - d)) f).
  - intros i Hi. unfold circ. pose proof (Z.mod_pos_bound (Z.of_nat i - d) (Z.of_nat n) ltac:(lia)). lia.
  - intros i j Hi Hj E. unfold circ in E. apply Z2Nat.inj in E; try (apply Z.mod_pos_bound; lia).
    assert (((Z.of_nat i - d) - (Z.of_nat j - d)) mod Z.of_nat n = 0)%Z by (rewrite Zminus_mod, E, Z.sub_diag; apply Z.mod_0_l; lia).
    replace ((Z.of_nat i - d) - (Z.of_nat j - d))%Z with (Z.of_nat i - Z.of_nat j)%Z in H0 by ring.
    apply Z.mod_divide in H0; [|lia]. destruct H0 as [q Hq]. assert (q = 0)%Z by nia. lia.
Qed.
Lemma mass_to_center p ims i j : mass p ims i j = to_center p ims i j.
Proof. destruct p; [|reflexivity]. unfold mass, brightness, to_center, lsum. f_equal. apply map_ext. intros. apply nrm2_Cmod. Qed.
Lemma mass_centre_ext N M f g c0 c1 : (forall i j, (i < N)%nat -> (j < M)%nat -> f i j = g i j) -> mass_centre N M f c0 c1 -> mass_centre N M g c0 c1.
Proof. intros E [A B]. split; [rewrite <- A|rewrite <- B]; apply rsum_ext; intros i Hi; apply rsum_ext; intros j Hj; now rewrite E. Qed.
Lemma circ_lt n z : (0 < n)%nat -> (circ n z < n)%nat.
Proof. intros H. unfold circ. pose proof (Z.mod_pos_bound z (Z.of_nat n) ltac:(lia)). lia. Qed.
Lemma circ_back n i d : (0 < n)%nat -> (i < n)%nat -> (0 <= Z.of_nat (circ n (Z.of_nat i - d)) + d < Z.of_nat n)%Z -> (Z.of_nat (circ n (Z.of_nat i - d)) = Z.of_nat i - d)%Z.
Proof.
  intros Hn Hi H. unfold circ in *. rewrite Z2Nat.id in * by (apply Z.mod_pos_bound; lia).
  pose proof (Z.div_mod (Z.of_nat i - d) (Z.of_nat n) ltac:(lia)) as E. set (q := ((Z.of_nat i - d) / Z.of_nat n)%Z) in *. set (r := ((Z.of_nat i - d) mod Z.of_nat n)%Z) in *.
  assert (q = 0)%Z by nia. nia.
Qed.
Lemma rolled_moved N M ims x d0 d1 : (0 < N)%nat -> (0 < M)%nat -> fits_inside N M ims d0 d1 -> In x ims -> same N M (rolled N M x d0 d1) (moved N M x d0 d1).
Proof.
  intros HN HM F I i j Hi Hj. unfold rolled, moved. set (a := (Z.of_nat i - d0)%Z). set (b := (Z.of_nat j - d1)%Z).
  destruct (_ && _)%bool eqn:Q.
  - rewrite !andb_true_iff, !Z.leb_le, !Z.ltb_lt in Q. rewrite !circ_in by lia. reflexivity.
  - destruct (Classical_Prop.classic (x (circ N a) (circ M b) = RtoC 0)) as [Z|Z]; [exact Z|]. exfalso.
    destruct (F x _ _ I (circ_lt N a HN) (circ_lt M b HM) Z) as [F0 F1].
    pose proof (circ_back N i d0 HN Hi F0) as A. pose proof (circ_back M j d1 HM Hj F1) as B. fold a in A. fold b in B.
    pose proof (circ_lt N a HN). pose proof (circ_lt M b HM).
    rewrite <- not_true_iff_false in Q. apply Q. rewrite !andb_true_iff, !Z.leb_le, !Z.ltb_lt. lia.
Qed.
Lemma mass_rolled N M p ims d0 d1 c0 c1 : (0 < N)%nat -> (0 < M)%nat -> fits_inside N M ims d0 d1 ->
  mass_centre N M (to_center p ims) c0 c1 -> mass_centre N M (to_center p (map (fun x => rolled N M x d0 d1) ims)) (c0 + IZR d0) (c1 + IZR d1).
Proof.
  intros HN HM F MC. set (w' := to_center p (map (fun x => rolled N M x d0 d1) ims)). set (w := to_center p ims) in *.
  assert (E : forall i j, w' i j = w (circ N (Z.of_nat i - d0)) (circ M (Z.of_nat j - d1))) by (intros; unfold w', w, to_center; rewrite map_map; reflexivity).
  assert (Q : forall i j, (i < N)%nat -> (j < M)%nat -> w' i j <> 0 ->
     (Z.of_nat (circ N (Z.of_nat i - d0)) = Z.of_nat i - d0)%Z /\ (Z.of_nat (circ M (Z.of_nat j - d1)) = Z.of_nat j - d1)%Z).
  { intros i j Hi Hj NZ. rewrite E in NZ. assert (X : exists x, In x ims /\ x (circ N (Z.of_nat i - d0)) (circ M (Z.of_nat j - d1)) <> RtoC 0).
    { apply Classical_Prop.NNPP. intros K. apply NZ. unfold w, to_center, lsum. revert K. clear. induction ims as [|x l IH]; intros K; cbn [map fold_right]; [reflexivity|].
      rewrite IH by (intros (y & Y & Z); apply K; exists y; split; [now right|exact Z]).
      destruct (Classical_Prop.classic (x (circ N (Z.of_nat i - d0)) (circ M (Z.of_nat j - d1)) = RtoC 0)) as [Z|Z].
      - apply (mag_zero p) in Z. rewrite Z. ring.
      - exfalso. apply K. exists x. split; [now left|exact Z]. }
    destruct X as (x & I & NX). destruct (F x _ _ I (circ_lt N _ HN) (circ_lt M _ HM) NX) as [F0 F1].
    split; now apply circ_back. }
  assert (G : forall (u : nat -> nat -> R) (v : nat -> nat -> R), (forall i j, (i < N)%nat -> (j < M)%nat ->
       (Z.of_nat (circ N (Z.of_nat i - d0)) = Z.of_nat i - d0)%Z -> (Z.of_nat (circ M (Z.of_nat j - d1)) = Z.of_nat j - d1)%Z -> u (circ N (Z.of_nat i - d0)) (circ M (Z.of_nat j - d1)) = v i j) ->
     rsum N (fun i => rsum M (fun j => u i j * w i j)) = rsum N (fun i => rsum M (fun j => v i j * w' i j))).
  { intros u v UV. apply (roll_sum N d0); [exact HN|]. intros i Hi. apply (roll_sum M d1); [exact HM|]. intros j Hj.
    rewrite <- E. destruct (Req_dec (w' i j) 0) as [Z|Z]; [rewrite Z; ring|]. destruct (Q i j Hi Hj Z) as [Q0 Q1]. now rewrite (UV i j Hi Hj Q0 Q1). }
  assert (ZR : forall n z d, (Z.of_nat n = Z.of_nat z - d)%Z -> INR n = INR z - IZR d) by (intros n z d H; rewrite !INR_IZR_INZ, H, minus_IZR; reflexivity).
  destruct MC as [A B]. split.
  - rewrite <- A. symmetry. apply G. intros i j Hi Hj E0 _. rewrite (ZR _ _ _ E0). ring.
  - rewrite <- B. symmetry. apply G. intros i j Hi Hj _ E1. rewrite (ZR _ _ _ E1). ring.
Qed.
Theorem C71_centres : forall N M (p : bool) k ims d0 d1, (0 < N)%nat -> (0 < M)%nat -> nonzero_on N M ims -> fits_inside N M ims d0 d1 ->
  mass_centre N M (mass p ims) (INR N / 2 - IZR d0) (INR M / 2 - IZR d1) ->
  exists ys, center N M p (S k) ims = Some ys /\ alike N M (map (fun x => moved N M x d0 d1) ims) ys /\ mass_centre N M (mass p ys) (INR N / 2) (INR M / 2).
Proof.
  intros N M p k ims d0 d1 HN HM NZ F MC.
  assert (MC' : mass_centre N M (to_center p ims) (INR N / 2 - IZR d0) (INR M / 2 - IZR d1)) by (revert MC; apply mass_centre_ext; intros; apply mass_to_center).
  cbn [center]. rewrite (step_shift N M p ims _ _ NZ MC'). set (zs := map _ ims). set (rs := map (fun x => rolled N M x d0 d1) ims).
  assert (RZ : alike N M rs zs).
  { unfold rs, zs, alike. replace (- (INR N / 2 - IZR d0) + INR N / 2) with (IZR d0) by ring. replace (- (INR M / 2 - IZR d1) + INR M / 2) with (IZR d1) by ring.
    revert HN HM. clear. intros HN HM. induction ims as [|x l IH]; cbn [map]; [constructor|]. constructor; [|exact IH]. intros i j Hi Hj. symmetry. now apply shift_integer. }
  pose proof (mass_rolled N M p ims d0 d1 _ _ HN HM F MC') as MR. fold rs in MR.
  replace (INR N / 2 - IZR d0 + IZR d0) with (INR N / 2) in MR by ring. replace (INR M / 2 - IZR d1 + IZR d1) with (INR M / 2) in MR by ring.
  assert (NR : nonzero_on N M zs).
  { destruct (Classical_Prop.classic (nonzero_on N M zs)) as [Y|Y]; [exact Y|]. exfalso.
    assert (D : center N M p 1 zs = None). { destruct (center N M p 1 zs) eqn:Q; [|reflexivity]. exfalso. apply Y. apply (proj1 (C71_defined N M p 0 zs HN HM)). rewrite Q. discriminate. }
    assert (D2 : center N M p 2 ims = None) by (change 2%nat with (1 + 1)%nat; rewrite C71_iterations; cbn [center]; rewrite (step_shift N M p ims _ _ NZ MC'); exact D).
    exact (proj2 (C71_defined N M p 1 ims HN HM) NZ D2). }
  assert (MZ : mass_centre N M (to_center p zs) (INR N / 2) (INR M / 2)) by (apply (mass_alike N M p rs); assumption).
  destruct (C71_fixed N M p k zs HN HM NR) as (ys & E & A).
  { revert MZ. apply mass_centre_ext. intros i j _ _. symmetry. apply mass_to_center. }
  exists ys. split; [exact E|]. split.
  - apply (alike_trans N M _ zs); [|exact A]. apply (alike_trans N M _ rs); [|exact RZ]. unfold rs, alike. revert F HN HM. clear. intros F HN HM.
    assert (G : forall l, incl l ims -> Forall2 (same N M) (map (fun x => moved N M x d0 d1) l) (map (fun x => rolled N M x d0 d1) l)).
    { induction l as [|x l IH]; intros I; cbn [map]; constructor.
      - intros i j Hi Hj. symmetry. apply (rolled_moved N M ims); auto. apply I. now left.
      - apply IH. intros y Y. apply I. now right. }
    apply G. apply incl_refl.
  - apply (mass_centre_ext N M (to_center p ys)); [intros; symmetry; apply mass_to_center|]. now apply (mass_alike N M p zs).
Qed.
Print Assumptions C71_centres.
(** The centre of mass used lies within the pixels that carry weight. *)
Theorem C71_centroid_between : forall N M w lo hi, (forall i j, (i < N)%nat -> (j < M)%nat -> 0 <= w i j) -> 0 < isum N M w ->
  (forall i j, (i < N)%nat -> (j < M)%nat -> w i j <> 0 -> (lo <= i <= hi)%nat) -> INR lo <= fst (centroid N M w) <= INR hi.
Proof.
  intros N M w lo hi W P H. unfold centroid. cbn [fst].
  assert (G : forall d, isum N M (fun i j => INR i * w i j) - d * isum N M w = isum N M (fun i j => (INR i - d) * w i j)).
  { intros d. unfold isum. replace (rsum N (fun i => rsum M (fun j => INR i * w i j)) - d * rsum N (fun i => rsum M (w i))) with
      (rsum N (fun i => rsum M (fun j => INR i * w i j)) + (- d) * rsum N (fun i => rsum M (w i))) by ring.
    rewrite rsum_scal, <- rsum_add. apply rsum_ext. intros i _. rewrite rsum_scal, <- rsum_add. apply rsum_ext. intros j _. ring. }
  assert (A : 0 <= isum N M (fun i j => (INR i - INR lo) * w i j)).
  { apply rsum_nonneg. intros i Hi. apply rsum_nonneg. intros j Hj. destruct (Req_dec (w i j) 0) as [Z|Z]; [rewrite Z; lra|].
    apply Rmult_le_pos; [|auto]. destruct (H i j Hi Hj Z) as [L _]. apply le_INR in L. lra. }
  assert (B : 0 <= isum N M (fun i j => (INR hi - INR i) * w i j)).
  { apply rsum_nonneg. intros i Hi. apply rsum_nonneg. intros j Hj. destruct (Req_dec (w i j) 0) as [Z|Z]; [rewrite Z; lra|].
    apply Rmult_le_pos; [|auto]. destruct (H i j Hi Hj Z) as [_ L]. apply le_INR in L. lra. }
  rewrite <- G in A. pose proof (G (INR hi)) as G2.
  assert (B2 : isum N M (fun i j => (INR hi - INR i) * w i j) = - isum N M (fun i j => (INR i - INR hi) * w i j)).
  { unfold isum. replace (- rsum N (fun i => rsum M (fun j => (INR i - INR hi) * w i j))) with ((-1) * rsum N (fun i => rsum M (fun j => (INR i - INR hi) * w i j))) by ring.
    rewrite rsum_scal. apply rsum_ext. intros i _. rewrite rsum_scal. apply rsum_ext. intros j _. ring. }
  split.
  - apply (Rmult_le_reg_r (isum N M w)); [exact P|]. unfold Rdiv. rewrite Rmult_assoc, Rinv_l by lra. lra.
  - apply (Rmult_le_reg_r (isum N M w)); [exact P|]. unfold Rdiv. rewrite Rmult_assoc, Rinv_l by lra. lra.
Qed.
Print Assumptions C71_centroid_between.

(** C71: center_probes centres the probe in real space: if the probe is stored in Fourier space, the inverse far
    field of the new probe is the centred inverse far field of the old. *)
Theorem C71_probes : forall m k probe', (0 < f_n0 m)%nat -> (0 < f_n1 m)%nat -> center_probes m k = Some probe' ->
  let real_space := fun l => if f_fourier m then map (inverse_far_field (f_n0 m) (f_n1 m)) l else l in
  exists ys, center (f_n0 m) (f_n1 m) true k (real_space (f_probe m)) = Some ys /\ alike (f_n0 m) (f_n1 m) ys (real_space probe').
Proof.
  intros m k probe' H0 H1 E real_space. unfold center_probes in E. fold (real_space (f_probe m)) in E.
  destruct (center (f_n0 m) (f_n1 m) true k (real_space (f_probe m))) as [ys|]; [|discriminate]. injection E as <-. exists ys. split; [reflexivity|].
  unfold real_space. destruct (f_fourier m); [|apply alike_refl]. unfold alike. rewrite map_map. revert H0 H1. clear. intros H0 H1.
  induction ys as [|x l IH]; cbn [map]; [constructor|]. constructor; [|exact IH]. intros i j Hi Hj. symmetry. now apply far_inverse.
Qed.
Print Assumptions C71_probes.

(** Limit: for an odd size N/2 is half a pixel past the central pixel: a lone pixel in the middle of a 3 x 1
    image is moved off it. *)
Definition lone (a b : nat) : img := fun i j => if (Nat.eqb i a && Nat.eqb j b)%bool then RtoC 1 else RtoC 0.
Theorem C71_odd_refuted : exists ys, center 3 1 true 1 [lone 1 0] = Some ys /\ nth 0 ys no_img 1%nat 0%nat = RtoC (2 / 3).
Proof.
  assert (NZ : nonzero_on 3 1 [lone 1 0]) by (exists (lone 1 0), 1%nat, 0%nat; repeat split; try lia; [now left|]; intros E; apply (f_equal fst) in E; cbn in E; lra).
  assert (MC : mass_centre 3 1 (to_center true [lone 1 0]) 1 0).
  { apply (mass_centre_ext 3 1 (mass true [lone 1 0])); [intros; apply mass_to_center|]. unfold mass, brightness, mass_centre, lone, lsum, nrm2. cbn. split; lra. }
  cbn [center]. rewrite (step_shift 3 1 true _ 1 0 NZ MC). cbn [map nth]. eexists. split; [reflexivity|]. cbn [nth].
  replace (- (1) + INR 3 / 2) with (/ 2) by (cbn; lra). replace (- 0 + INR 1 / 2) with (/ 2) by (cbn; lra).
  rewrite C29_interpolation by lia. unfold trig_interp.
  assert (F : forall k, centred_ft 3 1 (lone 1 0) k 0%nat = RtoC (/ sqrt (INR (3 * 1)))).
  { intros k. unfold centred_ft. rewrite (csum_single 3 1%nat); [|lia|].
    - unfold csum, fsum. unfold lone. cbn [Nat.eqb andb]. unfold off. change (Z.of_nat 1 - Z.of_nat (3 / 2))%Z with 0%Z. change (Z.of_nat 0 - Z.of_nat (1 / 2))%Z with 0%Z.
      rewrite !Z.mul_0_r. replace (- (2 * PI) * (0 / INR 3 + 0 / INR 1)) with 0 by (unfold Rdiv; ring). rewrite cis_0. ring.
    - intros i Hi NE. apply csum_zero'. intros j Hj. unfold lone. replace (Nat.eqb i 1) with false by (symmetry; apply Nat.eqb_neq; auto). cbn [andb]. ring. }
  rewrite !csum_S. change (csum 0 _) with (RtoC 0). rewrite !F. unfold off. change (Z.of_nat 0 - Z.of_nat (3 / 2))%Z with (-1)%Z. change (Z.of_nat 1 - Z.of_nat (3 / 2))%Z with 0%Z. change (Z.of_nat 2 - Z.of_nat (3 / 2))%Z with 1%Z. change (Z.of_nat 0 - Z.of_nat (1 / 2))%Z with 0%Z.
  replace (2 * PI * (-1 * (0 - / 2) / INR 3 + 0 * (0 - / 2) / INR 1)) with (PI / 3) by (cbn; field).
  replace (2 * PI * (0 * (0 - / 2) / INR 3 + 0 * (0 - / 2) / INR 1)) with 0 by (cbn; field).
  replace (2 * PI * (1 * (0 - / 2) / INR 3 + 0 * (0 - / 2) / INR 1)) with (- (PI / 3)) by (cbn; field).
  replace (INR (3 * 1)) with 3 by (cbn; ring). unfold cis. rewrite cos_neg, sin_neg, cos_0, sin_0, cos_PI3.
  assert (S3 : / sqrt 3 * / sqrt 3 = / 3) by (rewrite <- Rinv_mult, sqrt_sqrt by lra; reflexivity).
  apply C_ext; cbn; [|ring]. transitivity (/ sqrt 3 * / sqrt 3 * 2); [field; pose proof (sqrt_lt_R0 3 ltac:(lra)); lra|]. rewrite S3. lra.
Qed.
Print Assumptions C71_odd_refuted.
(** A stack that meets the hypotheses of C71_centres: two images in opposite corners of a 2 x 2 block of a 4 x 6 image. *)
Example C71_case : let ims := [lone 0 1; lone 2 3] in nonzero_on 4 6 ims /\ fits_inside 4 6 ims 1 1 /\ mass_centre 4 6 (mass true ims) (INR 4 / 2 - IZR 1) (INR 6 / 2 - IZR 1).
Proof.
  split; [|split].
  - exists (lone 0 1), 0%nat, 1%nat. repeat split; try lia; [now left|]. intros E. apply (f_equal fst) in E. cbn in E. lra.
  - intros x i j [<-|[<-|[]]] Hi Hj NZ; unfold lone in NZ; destruct (Nat.eqb i _ && Nat.eqb j _)%bool eqn:Q; try congruence; apply andb_true_iff in Q; rewrite !Nat.eqb_eq in Q; lia.
  - unfold mass, brightness, mass_centre, lone, lsum, nrm2. cbn. split; lra.
Qed.
