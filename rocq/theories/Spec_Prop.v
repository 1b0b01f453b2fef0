(** Specification vocabulary for the propagators. *)
From Verif Require Import Base FinSum Fourier Model_Prop.
From Coquelicot Require Import Complex.
Local Open Scope C_scope.

(** Equality on the shape, total intensity, pointwise algebra. *)
Definition same (N M : nat) (x y : img) : Prop := forall i j, i < N -> j < M -> x i j = y i j.
Definition energy (N M : nat) (x : img) : R := rsum N (fun i => rsum M (fun j => nrm2 (x i j))).
Definition lin (a : C) (x : img) (b : C) (y : img) : img := fun i j => a * x i j + b * y i j.
Definition times (p q : img) : img := fun i j => p i j * q i j.

(** Position of index k relative to the centre pixel n//2. *)
Definition off (n k : nat) : Z := (Z.of_nat k - Z.of_nat (n / 2))%Z.
(** The unitary Fourier transform with both origins in the centre pixel: element (k, l) is
    1/sqrt(NM) sum over (n, m) of x[n,m] exp(-2 pi i (off k off n / N + off l off m / M)). *)
Definition centred_ft (N M : nat) (x : img) (k l : nat) : C :=
  RtoC (/ sqrt (INR (N * M))) *
  csum N (fun n => csum M (fun m =>
    x n m * cis (- (2 * PI) * (IZR (off N k * off N n) / INR N + IZR (off M l * off M m) / INR M)))).

(** Index k of a length-n Fourier transform in cycles per sample, taken in [-1/2, 1/2). *)
Definition freq (n k : nat) : R :=
  (IZR (if Z.ltb (2 * Z.of_nat k) (Z.of_nat n) then Z.of_nat k else Z.of_nat k - Z.of_nat n) / INR n)%R.
(** m is the greatest frequency of the axis. *)
Definition top_freq (n : nat) (m : R) : Prop :=
  (forall k, k < n -> (freq n k <= m)%R) /\ exists k, k < n /\ freq n k = m.
(** In-plane spatial frequency squared (rad^2 / length^2) at pixel (i, j) of the mask. *)
Definition kpar2 (N M : nat) (s0 s1 : R) (i j : nat) : R :=
  ((2 * PI * freq N i / s0) ^ 2 + (2 * PI * freq M j / s1) ^ 2)%R.
(** Propagating: at most the wavenumber. *)
Definition propagating (N M : nat) (s0 s1 wl : R) (i j : nat) : Prop :=
  (kpar2 N M s0 s1 i j <= (2 * PI / wl) ^ 2)%R.

(** The angular spectrum method: a plane wave with squared in-plane frequency k2 advances over z by
    the phase z (sqrt(k0^2 - k2) - k0) when it propagates, and decays as exp(- |z| sqrt(k2 - k0^2))
    with phase - z k0 when it is evanescent (the carrier phase z k0 being removed). *)
Definition wave_phase (wl k2 : R) : R :=
  let k0 := (2 * PI / wl)%R in if Rle_dec k2 (k0 ^ 2) then (sqrt (k0 ^ 2 - k2) - k0)%R else (- k0)%R.
Definition wave_decay (wl k2 : R) : R :=
  let k0 := (2 * PI / wl)%R in if Rle_dec k2 (k0 ^ 2) then 0%R else sqrt (k2 - k0 ^ 2).
