(** Model of src/cdtools/tools/image_processing/image_processing.py: hann_window, sinc_subpixel_shift,
    find_pixel_shift, convolve_1d, fourier_upsample.  Images as in Model_Prop. *)
From Verif Require Import Base FinSum Fourier Model_Prop.
From Coquelicot Require Import Complex.
Local Open Scope C_scope.

(** hann_window (18-37): note which axis each length divides. *)
Definition hann (H W : nat) (i j : nat) : R :=
  (sin (PI * INR i / (INR W - 1)) ^ 2 * sin (PI * INR j / (INR H - 1)) ^ 2)%R.
Definition hann_window (H W : nat) (im : nat -> nat -> R) : nat -> nat -> R := fun i j => (im i j * hann H W i j)%R.

(** sinc_subpixel_shift (104-133). *)
Definition centred_index (n i : nat) : R := (INR i - INR (n / 2)%nat)%R.
Definition sinc_subpixel_shift (N M : nat) (im : img) (s0 s1 : R) : img :=
  let fft_im := fftshift2 N M (fft2 N M im) in
  let shifted := fun i j => fft_im i j *
    cis (- s0 * (2 * PI * centred_index N i / INR N) - s1 * (2 * PI * centred_index M j / INR M)) in
  ifft2 N M (ifftshift2 N M shifted).

(** t.argmax of a flattened array: the first index holding the largest value. *)
Fixpoint argmax (n : nat) (f : nat -> R) : nat :=
  match n with
  | O => O
  | S O => O
  | S m => let b := argmax m f in if Rlt_dec (f b) (f m) then m else b
  end.
(** find_pixel_shift (214-246).  Division by a vanishing |cor_fft| (NaN in torch) is excluded by the
    theorems' hypotheses. *)
Definition correlation (N M : nat) (im1 im2 : img) : img :=
  let c := fun k l => fft2 N M im1 k l * Cconj (fft2 N M im2 k l) in
  ifft2 N M (fun k l => c k l / RtoC (Cmod (c k l))).
Definition wrap (n c : nat) : Z := (Z.of_nat ((c + n / 2) mod n) - Z.of_nat (n / 2))%Z.
Definition find_pixel_shift (N M : nat) (im1 im2 : img) : Z * Z :=
  let cor := fun p => Cmod (correlation N M im1 im2 (p / M)%nat (p mod M)) in
  let c := argmax (N * M) cor in
  (wrap N (c / M), wrap M (c mod M)).

(** convolve_1d (278-321) along dimension 0 or 1 of an N x M image; the kernel has the length of that
    dimension. *)
Definition convolve_line (n : nat) (x kernel : nat -> C) (fftshift_kernel : bool) : nat -> C :=
  let ker := if fftshift_kernel then (fun i => kernel (roll n ((n + 1) / 2) i)) else kernel in
  idft n (fun k => dft n x k * dft n ker k).
Definition convolve_1d (N M : nat) (im : img) (kernel : nat -> C) (dim : nat) (fs : bool) : img :=
  fun i j => match dim with
             | O => convolve_line N (fun a => im a j) kernel fs i
             | _ => convolve_line M (im i) kernel fs j
             end.

(** fourier_upsample (324-341). *)
Definition up_left (f n : nat) : nat := ((f - 1) * n) / 2.
Definition embed (f N M : nat) (y : img) : img := fun i j =>
  if (Nat.leb (up_left f N) i && Nat.ltb i (up_left f N + N) && Nat.leb (up_left f M) j && Nat.ltb j (up_left f M + M))%bool
  then y (i - up_left f N)%nat (j - up_left f M)%nat else 0.
Definition fourier_upsample (N M : nat) (im : img) (f : nat) (preserve_mean : bool) : img :=
  let up := embed f N M (far_field N M im) in
  let up := if preserve_mean then (fun i j => RtoC (INR f) * up i j) else up in
  inverse_far_field (f * N) (f * M) up.
