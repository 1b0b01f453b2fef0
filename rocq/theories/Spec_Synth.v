(** Specification vocabulary for synthesized reconstructions and PRTFs. *)
From Verif Require Import Base FinSum Fourier Matrix Model_Prop Spec_Prop Model_Meas Model_Interact Model_Geom Model_Image Model_Shift Model_Analysis Spec_Analysis Model_Sets Spec_Sets Model_Synth.
From Coquelicot Require Import Complex.
Local Open Scope C_scope.

(** The sum of f over a list. *)
Definition total {A} (f : A -> C) (l : list A) : C := fold_right (fun a s => f a + s) 0 l.
(** A whole number of fiftieths of a pixel. *)
Definition fiftieths (s : R) : Prop := exists k : Z, s = (IZR k / 50)%R.
(** The region that was asked for, or the rows and columns from 3/8 to 5/8. *)
Definition chosen (H W : nat) (sl : option region) : region :=
  match sl with Some s => s | None => ((H / 8 * 3, H / 8 * 5), (W / 8 * 3, W / 8 * 5))%nat end.
(** (probe', obj') is a standard form of (probe, obj): it has the same exit waves up to one phase per mode and position,
    the first mode has mean intensity 1, and the sums of every mode and of the object over the region are real and
    not negative. *)
Definition standard_form (h w H W : nat) (s : region) (probe : nat -> img) (obj : img) (probe' : nat -> img) (obj' : img) : Prop :=
  (forall k a b, exists c, unit_modulus c /\ forall i j, exit_wave (probe' k) obj' a b i j = c * exit_wave (probe k) obj a b i j) /\
  power h w (probe' 0%nat) = INR (h * w) /\
  (forall k, positive_real (csum h (fun i => csum w (fun j => probe' k i j)))) /\
  positive_real (window_total H W (Some (fst s), Some (snd s)) obj').
(** A reconstruction that takes part in the synthesis: probe, object and the shift that is applied to both. *)
Record aligned := { a_probe : nat -> img; a_obj : img; a_shift : R * R }.
(** An image moved by a shift. *)
Definition moved (N M : nat) (s : R * R) (x : img) : img := sinc_subpixel_shift N M x (fst s) (snd s).
(** Frequency r belongs to ring b of n rings of equal width between 0 and top; the last ring contains top. *)
Definition in_ring (n : nat) (top : R) (b : nat) (r : R) : Prop :=
  ((INR b / INR n * top <= r < INR (S b) / INR n * top) \/ (S b = n /\ r = top))%R.
