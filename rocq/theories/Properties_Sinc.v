(** Sub-pixel shifts and sinc interactions in closed form (C29, C37). *)
From Verif Require Import Base FinSum Fourier Model_Prop Spec_Prop Proofs_Prop Model_Image Spec_Image Proofs_Image
  Model_Interact Spec_Interact Proofs_Interact Model_Meas Spec_Meas Proofs_Meas Model_Geom Model_Models Model_Forward Spec_Forward Proofs_Forward.
From Coquelicot Require Import Complex.
From Flocq Require Import Core.Raux.
Local Open Scope R_scope.

(** C29: shifting by (s0, s1) reads the image's trigonometric interpolation at the displaced points, for every
    real shift. *)
Theorem C29_interpolation : forall N M im s0 s1 i j, (0 < N)%nat -> (0 < M)%nat -> (i < N)%nat -> (j < M)%nat ->
  sinc_subpixel_shift N M im s0 s1 i j = trig_interp N M im (IZR (off N i) - s0) (IZR (off M j) - s1).
Proof. exact shift_formula. Qed.
Print Assumptions C29_interpolation.

(** C37: the sinc interaction at every translation inside the object, without and with shift_back_ew: the probe
    interpolated at the points displaced by the fractional part of the translation, times the object window at its
    whole part; shifting back displaces this product by the opposite amount. *)
Theorem C37_sinc_formula : forall H W obj P0 P1 probe t back, (0 < P0)%nat -> (0 < P1)%nat ->
  inside H P0 0 (Zfloor (fst t)) -> inside W P1 0 (Zfloor (snd t)) ->
  let a := Zfloor (fst t) in let b := Zfloor (snd t) in let s0 := fst t - IZR a in let s1 := snd t - IZR b in
  let psi := fun i j => (trig_interp P0 P1 probe (IZR (off P0 i) - s0) (IZR (off P1 j) - s1) * obj (a + Z.of_nat i)%Z (b + Z.of_nat j)%Z)%C in
  exists y, ptycho_2D_sinc H W obj P0 P1 probe t back = Some y /\
  same P0 P1 y (if back then fun i j => trig_interp P0 P1 psi (IZR (off P0 i) + s0) (IZR (off P1 j) + s1) else psi).
Proof.
  intros H W obj P0 P1 probe t back H0 H1 I0 I1 a b s0 s1 psi. rewrite sinc_value by assumption. cbv zeta. eexists. split; [reflexivity|].
  set (out := times_img (sinc_subpixel_shift _ _ _ _ _) _).
  assert (Q : same P0 P1 out psi).
  { intros i j Hi Hj. unfold out, psi, times_img. rewrite shift_formula by assumption. reflexivity. }
  destruct back; [|exact Q]. intros i j Hi Hj. rewrite <- (trig_ext _ _ _ _ _ _ Q).
  replace (IZR (off P0 i) + s0) with (IZR (off P0 i) - - s0) by ring. replace (IZR (off P1 j) + s1) with (IZR (off P1 j) - - s1) by ring.
  rewrite <- shift_formula by assumption. rewrite sinc_back. reflexivity.
Qed.
Print Assumptions C37_sinc_formula.
(** A case: half a pixel beyond (3, 2). *)
Theorem C37_sinc_case : let t := (IZR 3 + / 2, IZR 2) in inside 10 4 0 (Zfloor (fst t)) /\ inside 10 4 0 (Zfloor (snd t)) /\ fst t - IZR (Zfloor (fst t)) = / 2.
Proof.
  cbv zeta. cbn [fst snd]. replace (Zfloor (IZR 3 + / 2)) with 3%Z by (symmetry; apply Zfloor_imp; cbn; lra). rewrite Zfloor_IZR. unfold inside. split; [lia|]. split; [lia|]. lra.
Qed.
Print Assumptions C37_sinc_case.
