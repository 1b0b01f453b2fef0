(** Model of find_subpixel_shift and find_shift, src/cdtools/tools/image_processing/image_processing.py 137-275.
    Exact arithmetic; 2-D images; an integer search_around; resolution at least 1.  Division by a vanishing
    |cor_fft| (NaN) is excluded by the theorems' hypotheses, as for find_pixel_shift (Model_Image). *)
From Verif Require Import Base FinSum Fourier Model_Prop Model_Image.
From Coquelicot Require Import Complex.
Local Open Scope R_scope.

(** Source index of t.roll(x, s) at i, for a shift s of either sign. *)
Definition zroll (n : nat) (s : Z) (i : nat) : nat := Z.to_nat ((Z.of_nat i - s) mod Z.of_nat n).
(** upsampled[:2*w] = a tensor of n lines (191): the slice has min(2w, n resolution) lines; a tensor with one line is
    broadcast, any other number of lines is a RuntimeError. *)
Definition assignable (ws n rs : nat) : bool := (Nat.eqb n (Nat.min (2 * ws) (n * rs)) || Nat.eqb n 1)%bool.
Definition source (n i : nat) : nat := if Nat.eqb n 1 then O else i.
(** 166-211 with window_size = ws *)
Definition subpixel (ws N M : nat) (im1 im2 : img) (s : Z * Z) (rs : nat) : res (R * R) :=
  let cor := correlation N M im1 im2 in
  let n0 := Nat.min N (2 * ws) in let n1 := Nat.min M (2 * ws) in
  let win : img := fun i j => cor (zroll N (- fst s + Z.of_nat ws) i) (zroll M (- snd s + Z.of_nat ws) j) in
  let wf := fftshift2 n0 n1 (fft2 n0 n1 win) in
  let S0 := (n0 * rs)%nat in let S1 := (n1 * rs)%nat in
  if (assignable ws n0 rs && assignable ws n1 rs)%bool then
    let up : img := fun i j => if (Nat.ltb i (2 * ws) && Nat.ltb j (2 * ws))%bool then wf (source n0 i) (source n1 j) else RtoC 0 in
    let up : img := fun i j => up (zroll S0 (- Z.of_nat ws) i) (zroll S1 (- Z.of_nat ws) j) in
    let pw := fun i j => Cmod (ifft2 S0 S1 up i j) ^ 2 in
    let pw := fun i j => pw (zroll S0 (- Z.of_nat (ws * rs)) i) (zroll S1 (- Z.of_nat (ws * rs)) j) in
    let c := argmax (S0 * S1) (fun p => pw (p / S1)%nat (p mod S1)) in
    Ok (IZR (fst s) + IZR (wrap S0 (c / S1)) / INR rs, IZR (snd s) + IZR (wrap S1 (c mod S1)) / INR rs)
  else Raise RuntimeError.
(** 137-211: window_size = 15 *)
Definition find_subpixel_shift (N M : nat) (im1 im2 : img) (s : Z * Z) (rs : nat) : res (R * R) := subpixel 15 N M im1 im2 s rs.
(** 250-275 *)
Definition find_shift (N M : nat) (im1 im2 : img) (rs : nat) : res (R * R) :=
  find_subpixel_shift N M im1 im2 (find_pixel_shift N M im1 im2) rs.
