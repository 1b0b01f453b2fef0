(** Model of tools/initializers/initializers.py calc_object_setup, generate_subdominant_modes and the
    operators of RPI_spectral_init, and of tools/interactions/interactions.py ptycho_2D_round,
    ptycho_2D_linear, ptycho_2D_sinc, RPI_interaction.  Exact arithmetic; one translation at a time and
    one mode at a time (the code maps over stacks and broadcasts). *)
From Verif Require Import Base FinSum Fourier Model_Prop Model_Image.
From Coquelicot Require Import Complex.
From Flocq Require Import Core.Raux Core.Round_NE.
Local Open Scope R_scope.

(** Minimum and maximum of a non-empty list (t.min / t.max over dim 0). *)
Definition rmin (l : list R) : R := match l with [] => 0 | x :: r => fold_left Rmin r x end.
Definition rmax (l : list R) : R := match l with [] => 0 | x :: r => fold_left Rmax r x end.
(** calc_object_setup (86-127), one axis: (shape, min_translation). *)
Definition calc_axis (probe_n : nat) (ts : list R) (padding : nat) : Z * R :=
  let m := rmin ts in
  ((Zceil (rmax ts - m) + Z.of_nat probe_n + 2 * Z.of_nat padding)%Z, m - INR padding).
Definition calc_object_setup (P0 P1 : nat) (ts : list (R * R)) (padding : nat) : (Z * Z) * (R * R) :=
  let a := calc_axis P0 (map fst ts) padding in
  let b := calc_axis P1 (map snd ts) padding in
  ((fst a, fst b), (snd a, snd b)).

(** obj[a:a+P0, b:b+P1].  A slice that leaves the H x W array (or starts below 0) has another shape, so
    that the product with the probe raises; None. *)
Definition window (H W : Z) (obj : Z -> Z -> C) (P0 P1 : nat) (a b : Z) : option img :=
  if ((0 <=? a) && (a + Z.of_nat P0 <=? H) && (0 <=? b) && (b + Z.of_nat P1 <=? W))%Z%bool
  then Some (fun i j => obj (a + Z.of_nat i)%Z (b + Z.of_nat j)%Z) else None.
Definition times_img (p q : img) : img := fun i j => (p i j * q i j)%C.

(** ptycho_2D_round (229-293), without upsample_obj. *)
Definition ptycho_2D_round (H W : Z) (obj : Z -> Z -> C) (P0 P1 : nat) (probe : img) (t : R * R) : option img :=
  option_map (times_img probe) (window H W obj P0 P1 (ZnearestE (fst t)) (ZnearestE (snd t))).
(** ptycho_2D_linear (297-389). *)
Definition sub_part (x : R) : R := x - IZR (Zfloor x).
Definition roll_rows (n : nat) (x : img) : img := fun i j => x (match i with O => (n - 1)%nat | S k => k end) j.
Definition roll_cols (n : nat) (x : img) : img := fun i j => x i (match j with O => (n - 1)%nat | S k => k end).
Definition mix4 (s0 s1 : R) (x00 x10 x01 x11 : img) : img := fun i j =>
  (x00 i j * RtoC (1 - s0) * RtoC (1 - s1) + x10 i j * RtoC s0 * RtoC (1 - s1) +
   x01 i j * RtoC (1 - s0) * RtoC s1 + x11 i j * RtoC s0 * RtoC s1)%C.
Definition ptycho_2D_linear (H W : Z) (obj : Z -> Z -> C) (P0 P1 : nat) (probe : img) (t : R * R) (shift_probe : bool) : option img :=
  let a := Zfloor (fst t) in let b := Zfloor (snd t) in
  let s0 := sub_part (fst t) in let s1 := sub_part (snd t) in
  if shift_probe then
    let sel01 := roll_cols P1 probe in
    let selection := mix4 s0 s1 probe (roll_rows P0 probe) sel01 (roll_rows P0 sel01) in
    option_map (times_img selection) (window H W obj P0 P1 a b)
  else
    match window H W obj P0 P1 a b, window H W obj P0 P1 (a + 1) b, window H W obj P0 P1 a (b + 1), window H W obj P0 P1 (a + 1) (b + 1) with
    | Some x00, Some x10, Some x01, Some x11 => Some (times_img probe (mix4 s0 s1 x00 x10 x01 x11))
    | _, _, _, _ => None
    end.
(** ptycho_2D_sinc (392-502): the probe is shifted by sinc interpolation, as in sinc_subpixel_shift; with
    shift_back_ew the product is shifted back. *)
Definition ptycho_2D_sinc (H W : Z) (obj : Z -> Z -> C) (P0 P1 : nat) (probe : img) (t : R * R) (back : bool) : option img :=
  let s0 := sub_part (fst t) in let s1 := sub_part (snd t) in
  let phase := fun i j => cis (- s0 * (2 * PI * centred_index P0 i / INR P0) - s1 * (2 * PI * centred_index P1 j / INR P1)) in
  let filt := fun (x ph : img) => ifft2 P0 P1 (ifftshift2 P0 P1 (times_img (fftshift2 P0 P1 (fft2 P0 P1 x)) ph)) in
  option_map (fun sel => let out := times_img (filt probe phase) sel in
                         if back then filt out (fun i j => Cconj (phase i j)) else out)
    (window H W obj P0 P1 (Zfloor (fst t)) (Zfloor (snd t))).

(** RPI_interaction (599-656): object O0 x O1, probe P0 x P1 with O <= P on both axes. *)
Definition place (O0 O1 L0 L1 : nat) (y : img) : img := fun i j =>
  if (Nat.leb L0 i && Nat.ltb i (L0 + O0) && Nat.leb L1 j && Nat.ltb j (L1 + O1))%bool
  then y (i - L0)%nat (j - L1)%nat else RtoC 0.
Definition RPI_upsample (P0 P1 O0 O1 : nat) (obj : img) : img :=
  let padded := place O0 O1 (P0 / 2 - O0 / 2) (P1 / 2 - O1 / 2) (far_field O0 O1 obj) in
  let up := inverse_far_field P0 P1 padded in
  fun i j => (RtoC (sqrt (INR (P0 * P1) / INR (O0 * O1))) * up i j)%C.
Definition RPI_interaction (P0 P1 O0 O1 : nat) (probe obj : img) : img := times_img probe (RPI_upsample P0 P1 O0 O1 obj).

(** RPI_spectral_init (530-593): the operators a_dagger and a. *)
Definition spectral_a_dagger (P0 P1 O0 O1 : nat) (probe im : img) : img :=
  let im := inverse_far_field P0 P1 (place O0 O1 ((P0 - O0) / 2) ((P1 - O1) / 2) (far_field O0 O1 im)) in
  far_field P0 P1 (times_img probe im).
Definition spectral_a (P0 P1 O0 O1 : nat) (probe measured : img) : img :=
  let im := inverse_far_field P0 P1 measured in
  let multiplied := times_img (fun i j => Cconj (probe i j)) im in
  let backplane := far_field P0 P1 multiplied in
  inverse_far_field O0 O1 (fun i j => backplane ((P0 - O0) / 2 + i)%nat ((P1 - O1) / 2 + j)%nat).

(** generate_subdominant_modes (596-670): make_orders as a state machine over (n, i), and the modes. *)
Fixpoint make_orders (fuel : nat) (n i : nat) : list (nat * nat) :=
  match fuel with
  | O => []
  | S f => (n, (i - n)%nat) :: if Nat.ltb n i then make_orders f (S n) i else make_orders f 0 (S i)
  end.
Definition orders (n_orders : nat) : list (nat * nat) := make_orders n_orders 0 1.
Definition mode_mask (circular : bool) (N M : nat) (o : nat * nat) : img := fun i j =>
  let ci := RtoC (IZR (Z.of_nat i - Z.of_nat (N / 2))) in
  let cj := RtoC (IZR (Z.of_nat j - Z.of_nat (M / 2))) in
  let a := if circular then (ci + Ci * cj)%C else ci in
  let b := if circular then (ci - Ci * cj)%C else cj in
  (Cpow a (fst o) * Cpow b (snd o))%C.
Definition subdominant_mode (circular : bool) (N M : nat) (dom : img) (o : nat * nat) : img :=
  let new := inverse_far_field N M (times_img (mode_mask circular N M o) (far_field N M dom)) in
  let probe_norm := rsum N (fun i => rsum M (fun j => Cmod (dom i j) ^ 2)) in
  let s := rsum N (fun i => rsum M (fun j => Cmod (new i j))) in
  fun i j => (RtoC (probe_norm / s) * new i j)%C.
(** The whole function: more than 1024 modes raise KeyError (623-625, at the generator's first step), none is
    t.stack of an empty list, RuntimeError (670).  A mode whose amplitudes sum to 0 is NaN in the code (668)
    and 0 here; theorems exclude it. *)
Definition generate_subdominant_modes (N M : nat) (dom : img) (n_modes : nat) (circular : bool) : res (list img) :=
  if Nat.ltb 1024 n_modes then Raise KeyError
  else match orders n_modes with
       | [] => Raise RuntimeError
       | os => Ok (map (subdominant_mode circular N M dom) os)
       end.
