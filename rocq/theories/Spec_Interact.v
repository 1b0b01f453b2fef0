(** Specification vocabulary for probe-object interactions. *)
From Verif Require Import Base FinSum Fourier Model_Prop Spec_Prop.
From Coquelicot Require Import Complex.
Local Open Scope R_scope.

(** A P-pixel window starting at row a stays inside an H-pixel axis, at least `margin` pixels from both
    ends. *)
Definition inside (H : Z) (P : nat) (margin : nat) (a : Z) : Prop :=
  (Z.of_nat margin <= a /\ a + Z.of_nat P + Z.of_nat margin <= H)%Z.
(** The exit wave of a probe over the part of the object that starts at pixel (a, b). *)
Definition exit_at (probe : img) (obj : Z -> Z -> C) (a b : Z) : img :=
  fun i j => (probe i j * obj (a + Z.of_nat i)%Z (b + Z.of_nat j)%Z)%C.
(** A result that exists and agrees with x on the P0 x P1 pixels. *)
Definition gives (P0 P1 : nat) (r : option img) (x : img) : Prop := exists y, r = Some y /\ same P0 P1 y x.
(** Inner product of two images. *)
Definition inner (N M : nat) (x y : img) : C := csum N (fun i => csum M (fun j => (x i j * Cconj (y i j))%C)).
(** The trigonometric interpolation of an O0 x O1 image at the point (u, v) measured in image pixels
    from its centre pixel: the sum of its Fourier components. *)
Definition trig_interp (O0 O1 : nat) (obj : img) (u v : R) : C :=
  (RtoC (/ sqrt (INR (O0 * O1))) * csum O0 (fun k => csum O1 (fun l =>
     centred_ft O0 O1 obj k l * cis (2 * PI * (IZR (off O0 k) * u / INR O0 + IZR (off O1 l) * v / INR O1)))))%C.

(** Order of the pairs of exponents: by total order, then by the first exponent. *)
Definition before (o o' : nat * nat) : Prop :=
  (fst o + snd o < fst o' + snd o' \/ (fst o + snd o = fst o' + snd o' /\ fst o < fst o'))%nat.
(** A bilinear function of position. *)
Definition bilin (a b c d : C) (u v : R) : C := (a + b * RtoC u + c * RtoC v + d * RtoC (u * v))%C.

(** Spectrum of the derivative of order (a, b) at pixel (i, j), at distance (u, v) from the zero frequency, up to
    a constant: (u + iv)^a (u - iv)^b, or u^a v^b. *)
Definition derivative (circular : bool) (N M a b : nat) (i j : nat) : C :=
  let u := RtoC (IZR (off N i)) in let v := RtoC (IZR (off M j)) in
  if circular then (Cpow (u + (0%R, 1%R) * v) a * Cpow (u - (0%R, 1%R) * v) b)%C else (Cpow u a * Cpow v b)%C.
