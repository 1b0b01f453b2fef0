(** Specification vocabulary for the reconstruction sets and pairs. *)
From Verif Require Import Base FinSum Fourier Matrix Model_Prop Model_Meas Model_Interact Model_Geom Model_Image Model_Shift Model_Analysis Spec_Analysis Model_Sets.
From Coquelicot Require Import Complex.
Local Open Scope C_scope.

(** scipy.optimize.minimize never answers with a point that is worse than its starting point; or it answers with a
    global minimum whenever there is one. *)
Definition scipy_improves (S : scipy) : Prop := forall f x0, (f (minimize2 S f x0) <= f x0)%R.
Definition scipy_exact (S : scipy) : Prop := forall f x0 q, (forall p, (f q <= f p)%R) -> (f (minimize3 S f x0) <= f q)%R.
(** Index i of an axis of length n lies in the slice [:] or [a:b]. *)
Definition in_slice (s : option (nat * nat)) (i : nat) : bool :=
  match s with None => true | Some (a, b) => (Nat.leb a i && Nat.ltb i b)%bool end.
(** The sum of an H x W image over a window. *)
Definition window_total (H W : nat) (win : window) (x : img) : C :=
  csum H (fun i => csum W (fun j => if (in_slice (fst win) i && in_slice (snd win) j)%bool then x i j else 0)).
(** No Fourier coefficient vanishes. *)
Definition full_spectrum (h w : nat) (x : img) : Prop := forall k l, (k < h)%nat -> (l < w)%nat -> fft2 h w x k l <> 0.
(** The saved results with another object array. *)
Definition with_obj (r : recon) (o : img) : recon :=
  {| r_H := r_H r; r_W := r_W r; r_obj := o; r_l := r_l r; r_h := r_h r; r_w := r_w r; r_probe := r_probe r;
     r_weights := r_weights r; r_translations := r_translations r; r_background := r_background r;
     r_wavelength := r_wavelength r; r_obj_basis := r_obj_basis r; r_probe_basis := r_probe_basis r; r_basis := r_basis r |}.
(** The image multiplied by a constant. *)
Definition scaled (c : C) (x : img) : img := fun i j => c * x i j.
(** The number of tenths of a pixel is whole. *)
Definition tenths (s : R) : Prop := exists k : Z, s = (IZR k / 10)%R.
(** The exit waves of (probe, obj), at every position where the h x w probe fits on the H x W object, are those of
    (probe', obj') up to one phase factor per position. *)
Definition same_exit_waves (H W l h w : nat) (probe probe' : nat -> img) (obj obj' : img) : Prop :=
  forall a b, exists c, unit_modulus c /\ forall k i j, (k < l)%nat -> (i < h)%nat -> (j < w)%nat -> (a + i < H)%nat -> (b + j < W)%nat ->
  exit_wave (probe' k) obj' a b i j = c * exit_wave (probe k) obj a b i j.
(** They are, after obj' is moved back by a whole number of tenths of a pixel. *)
Definition same_after_shift (H W l h w : nat) (probe probe' : nat -> img) (obj obj' : img) : Prop :=
  exists s0 s1, tenths s0 /\ tenths s1 /\ same_exit_waves H W l h w probe probe' obj (sinc_subpixel_shift H W obj' (- s0) (- s1)).
