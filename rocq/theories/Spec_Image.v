(** Specification vocabulary for image processing. *)
From Verif Require Import Base FinSum Fourier Model_Prop Spec_Prop.
From Coquelicot Require Import Complex.
Local Open Scope C_scope.

(** numpy.roll by integers of any sign: pixel (i, j) of the result is pixel (i - a, j - b) of the
    image, modulo its size. *)
Definition circ (n : nat) (z : Z) : nat := Z.to_nat (z mod Z.of_nat n).
Definition rolled (N M : nat) (x : img) (a b : Z) : img :=
  fun i j => x (circ N (Z.of_nat i - a)) (circ M (Z.of_nat j - b)).
(** Sum of all pixels. *)
Definition total (N M : nat) (x : img) : C := csum N (fun i => csum M (fun j => x i j)).
(** A pixel on the border. *)
Definition border (H W i j : nat) : Prop := i = 0%nat \/ i = (H - 1)%nat \/ j = 0%nat \/ j = (W - 1)%nat.
(** Row (or column) of the upsampled image that sits on row n of the original: the centre pixels
    coincide and the spacing is f. *)
Definition grid_point (f n i p : nat) : Prop :=
  (Z.of_nat p - Z.of_nat ((f * n) / 2) = Z.of_nat f * (Z.of_nat i - Z.of_nat (n / 2)))%Z.
