(** The finite-pixel branch (simulate_finite_pixels=True) of tools/measurements/measurements.py: intensity (43-65) and
    incoherent_sum (116-134), for one exposure, with what follows it (66-85, 137-155).
    Simplified: exact arithmetic; the mode axis is a number of modes and a function. *)
From Verif Require Import Base FinSum Fourier Model_Prop Model_Meas.
From Coquelicot Require Import Complex.
Local Open Scope C_scope.

(** t.special.sinc *)
Definition sinc (x : R) : R := if Req_EM_T x 0 then 1%R else (sin (PI * x) / (PI * x))%R.
(** F.pad(x, (left, right, top, bottom)) of an N x M image: the first pair belongs to the last dimension. *)
Definition pad (N M left top : nat) (x : img) : img := fun i j =>
  if (Nat.leb top i && Nat.ltb i (top + N) && Nat.leb left j && Nat.ltb j (left + M))%bool then x (i - top)%nat (j - left)%nat else 0.
(** t.fft.ifftshift(x, dim=(-2, -2)): dimension -2 is rolled twice, dimension -1 not at all. *)
Definition ifftshift_rows_twice (P : nat) (x : img) : img := fun i j => x (roll P ((P + 1) / 2) (roll P ((P + 1) / 2) i)) j.

(** 44-50 (117-123): the upsampled field of an N x M wavefield; it has N + M rows and N + M columns, because the pair of
    dimension -2 pads dimension -1 and the other way round. *)
Definition upsampled_field (N M : nat) (psi : img) : img :=
  let inverse_fft := fftshift2 N M (ifft2 N M psi) in
  let padded := pad N M (N / 2) (M / 2) inverse_fft in
  fft2 (N + M) (M + N) (ifftshift_rows_twice (N + M) padded).
(** 51 (124) *)
Definition upsampled_intensity (N M J : nat) (psi : nat -> img) : img := fun k l =>
  RtoC (rsum J (fun a => Cmod (upsampled_field N M (psi a) k l) ^ 2)%R).
(** 54-58 (127-131) *)
Definition axis (P : nat) (i : nat) : R := (INR i / INR (P - 1) * 2 - 1)%R.
Definition blurred_intensity (P Q : nat) (I : img) : img :=
  let ifft_intensity := fftshift2 P Q (ifft2 P Q I) in
  let mask := fun i j => (sinc (axis P i) * sinc (axis Q j))%R in
  fft2 P Q (ifftshift_rows_twice P (fun i j => RtoC (mask i j) * ifft_intensity i j)).
(** 61-62 (134 without t.abs): every other pixel. *)
Definition every_other (x : img) : img := fun i j => x (2 * i)%nat (2 * j)%nat.
Definition finite_pattern (N M J : nat) (psi : nat -> img) : img :=
  every_other (blurred_intensity (N + M) (M + N) (upsampled_intensity N M J psi)).

(** incoherent_sum takes the modulus; then 137-155 as without finite pixels. *)
Definition incoherent_sum_finite (o : opts) (N M J : nat) (psi : nat -> img) : rimg :=
  finish o (fun i j => Cmod (finite_pattern N M J psi i j)).
(** quadratic_background (158-219) with measurement=incoherent_sum. *)
Definition quadratic_background_finite (o : opts) (N M J : nat) (psi : nat -> img) (background : rimg) (qe : option rimg) : rimg :=
  let raw := incoherent_sum_finite {| o_slice := o_slice o; o_eps := o_eps o; o_sat := None; o_over := o_over o |} N M J psi in
  fun i j => saturate (o_sat o) ((match qe with None => raw i j | Some q => (q i j * raw i j)%R end) + background i j ^ 2)%R.
(** intensity does not: its result stays complex; avg_pool2d and t.clamp refuse complex tensors. *)
Definition intensity_finite (o : opts) (N M : nat) (psi : img) : res img :=
  if negb (Nat.eqb (o_over o) 1) then Raise RuntimeError else
  match o_sat o with Some _ => Raise RuntimeError | None =>
    let x := finite_pattern N M 1 (fun _ => psi) in
    Ok (fun i j => (match o_slice o with None => x i j | Some (r, c) => x (r + i)%nat (c + j)%nat end) + RtoC (o_eps o)) end.
