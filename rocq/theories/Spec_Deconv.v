(** Vocabulary for the deconvolved cross-correlation. *)
From Verif Require Import Base FinSum Fourier Model_Prop Spec_Image.
From Coquelicot Require Import Complex.
Local Open Scope C_scope.

(** The h x w window of an image with its first pixel at (a, c). *)
Definition window (a c : nat) (im : img) : img := fun i j => im (a + i)%nat (c + j)%nat.
(** Every Fourier coefficient of an h x w picture is different from zero: the sum of the picture against every wave
    that fits it. *)
Definition no_dark (h w : nat) (x : img) : Prop := forall k l, (k < h)%nat -> (l < w)%nat ->
  csum h (fun i => csum w (fun j => x i j * cis (- (2 * PI) * (INR k * INR i / INR h + INR l * INR j / INR w)))) <> 0.
(** Circular convolution with a kernel. *)
Definition blurred (h w : nat) (kernel x : img) : img := fun i j =>
  csum h (fun a => csum w (fun b => kernel a b * x (circ h (Z.of_nat i - Z.of_nat a)) (circ w (Z.of_nat j - Z.of_nat b)))).
(** A picture with a single pixel set to 1. *)
Definition point (a b : nat) : img := fun i j => if (Nat.eqb i a && Nat.eqb j b)%bool then 1 else 0.
Definition is_real (h w : nat) (x : img) : Prop := forall i j, (i < h)%nat -> (j < w)%nat -> Im (x i j) = 0%R.
(** The window an H x W image is cut to: by a pair of slices (r0:r1, c0:c1), or by default. *)
Definition windows_of (H W : nat) (s : option ((nat * nat) * (nat * nat))) (h w a c : nat) : Prop :=
  match s with
  | None => a = (3 * (H / 8))%nat /\ h = (2 * (H / 8))%nat /\ c = (3 * (W / 8))%nat /\ w = (2 * (W / 8))%nat
  | Some ((r0, r1), (c0, c1)) => a = Nat.min r0 H /\ h = (Nat.min r1 H - a)%nat /\ c = Nat.min c0 W /\ w = (Nat.min c1 W - c)%nat
  end.
