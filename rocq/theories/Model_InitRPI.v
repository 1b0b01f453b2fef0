(** Model of RPI.from_dataset, RPI.from_calibration and RPI.init_obj (models/rpi.py 43-482), followed by the
    constructor, and of the simulation of a batch of exposures by the model they build.  Exact real and complex
    arithmetic, as in Model_Init.  An object larger than the probe is left out. *)
From Verif Require Import Base FinSum Fourier Model_Cxi Model_Prop Model_Image Model_Interact Model_Meas Model_Geom Model_Models Model_Forward Model_Init.
From Verif Require Model_Analysis.
From Coquelicot Require Import Complex.
Local Open Scope R_scope.

(** The model: what simulates the patterns, the shape of the background (None: no leading axis), the shape of
    obj_support, the bases of probe and object. *)
Record rpi_model := {
  rm_rpi : rpi; rm_bg : option nat * nat * nat; rm_sup0 : nat; rm_sup1 : nat; rm_probe_basis : V3 * V3; rm_obj_basis : V3 * V3 }.
(** The values that t.rand and the eigensolver of RPI_spectral_init return. *)
Record rpi_chance := { rc_rand : nat -> rimg; rc_spectral : nat -> img }.
(** The options of from_dataset.  ro_background has the shape of the patterns.  scattering_mode is never read;
    mask, loss, weight_matrix (which only decides what is optimised) and plotting are left out. *)
Record rpi_options := {
  ro_size : option (nat * nat); ro_background : option rimg; ro_modes : nat; ro_saturation : option R; ro_os : nat;
  ro_init : string; ro_exp : bool; ro_phase : bool; ro_threshold : R }.
(** 245-246, 334-335 *)
Definition obj_shape (size : option (nat * nat)) (n0 n1 : nat) : nat * nat := match size with Some s => s | None => (n0 / 2, n1 / 2)%nat end.

(** 253-261: the amplitude of the probe on the grid of the object ... *)
Definition probe_lr (n0 n1 o0 o1 : nat) (probe : list img) : rimg :=
  let total : img := fun i j => RtoC (sqrt (lsum (map (fun p : img => Cmod (p i j) ^ 2) probe))) in
  let f := far_field n0 n1 total in
  fun i j => Cmod (inverse_far_field o0 o1 (fun u v => f ((n0 - o0) / 2 + u)%nat ((n1 - o1) / 2 + v)%nat) i j).
(** ... where probe_fft[pad0l:-pad0r, pad1l:-pad1r] is empty if pad0r or pad1r is 0 (or the object is empty). *)
Definition lr_length (n o : nat) : nat :=
  let l := ((n - o) / 2)%nat in let r := (n - o - l)%nat in match r with O => 0%nat | _ => (n - r - l)%nat end.
(** 263-264: scipy's binary_dilation, with the cross as structuring element and False outside. *)
Definition rmax2 (n m : nat) (x : rimg) : R := rmax (map (fun i => rmax (map (fun j => x i j) (seq 0 m))) (seq 0 n)).
Definition above (x : rimg) (t : R) (i j : nat) : bool := if Rlt_dec t (x i j) then true else false.
Definition binary_dilation (n m : nat) (s : nat -> nat -> bool) (i j : nat) : bool :=
  (s i j || (match i with O => false | S k => s k j end) || (Nat.ltb (S i) n && s (S i) j) ||
   (match j with O => false | S k => s i k end) || (Nat.ltb (S j) m && s i (S j)))%bool.
Definition obj_support (n0 n1 o0 o1 : nat) (probe : list img) (threshold : R) : nat -> nat -> R := fun i j =>
  let lr := probe_lr n0 n1 o0 o1 probe in
  if binary_dilation o0 o1 (above lr (rmax2 o0 o1 lr * threshold)) i j then 1 else 0.

(** ---- init_obj (370-396) and the three initialisations (399-482) ---- *)
Definition with_obj (m : rpi_model) (o0 o1 : nat) (l : list img) : rpi_model :=
  let r := rm_rpi m in
  {| rm_rpi := {| r_n0 := r_n0 r; r_n1 := r_n1 r; r_probe := r_probe r; r_weights := r_weights r; r_o0 := o0; r_o1 := o1; r_obj := l;
                  r_support := r_support r; r_exp := r_exp r; r_phase_only := r_phase_only r; r_os := r_os r;
                  r_background := r_background r; r_saturation := r_saturation r |};
     rm_bg := rm_bg m; rm_sup0 := rm_sup0 m; rm_sup1 := rm_sup1 m; rm_probe_basis := rm_probe_basis m; rm_obj_basis := rm_obj_basis m |}.
(** RPI_spectral_init (initializers.py 530-593) gets the three-dimensional probe.  Of K modes the exit waves have
    K n0 n1 values where h w are expected, and a[pad0l:pad0l+o0, pad1l:pad1l+o1] cuts the first two of the three
    axes (K, n0, n1): reshaping an array of another size is a ValueError. *)
Definition slice_length (n start len : nat) : nat := (Nat.min (start + len) n - Nat.min start n)%nat.
Definition spectral_fits (K n0 n1 o0 o1 h w : nat) : bool :=
  (Nat.eqb (K * n0 * n1) (h * w) &&
   Nat.eqb (slice_length K ((n0 - o0) / 2) o0 * slice_length n0 ((n1 - o1) / 2) o1 * n1) (o0 * o1))%bool.
(** pattern: the shape of the pattern given. *)
Definition init_obj (m : rpi_model) (ch : rpi_chance) (name : string) (shape : option (nat * nat)) (modes : option nat) (pattern : option (nat * nat)) : res rpi_model :=
  let r := rm_rpi m in
  let '(o0, o1) := match shape with Some s => s | None => (r_o0 r, r_o1 r) end in
  let M := match modes with Some k => k | None => length (r_obj r) end in
  if String.eqb (clean name) "random" then Ok (with_obj m o0 o1 (map (fun k => fun i j => cexp (RtoC (2 * PI) * Ci * RtoC (rc_rand ch k i j))%C) (seq 0 M)))
  else if String.eqb (clean name) "uniform" then Ok (with_obj m o0 o1 (map (fun _ => fun _ _ => RtoC 1) (seq 0 M)))
  else if String.eqb (clean name) "spectral" then
    match pattern with
    | None => Raise KeyError
    | Some (h, w) => if spectral_fits (length (r_probe r)) (r_n0 r) (r_n1 r) o0 o1 h w then Ok (with_obj m o0 o1 (map (rc_spectral ch) (seq 0 M))) else Raise ValueError
    end
  else Raise KeyError.
(** 290-296, 360-364: -1j * t.log(obj), then obj.imag = 0.  (The logarithm of 0, which is infinite, is 0 here.) *)
Definition clog (z : C) : C := (ln (Cmod z), Model_Analysis.angle z).
Definition unexponentiate (m : rpi_model) : rpi_model :=
  let r := rm_rpi m in
  let l := if r_exp r then map (fun o : img => fun i j => ((- Ci) * clog (o i j))%C) (r_obj r) else r_obj r in
  let l := if r_phase_only r then map (fun o : img => fun i j => RtoC (fst (o i j))) l else l in
  with_obj m (r_o0 r) (r_o1 r) l.

(** ---- __init__ (43-165): background None is 1e-6 of the shape of the probe. ---- *)
Definition eye : nat -> nat -> C := fun k q => if Nat.eqb k q then RtoC 1 else RtoC 0.
Definition rpi_construct (n0 n1 : nat) (probe : list img) (basis : V3 * V3) (o0 o1 M : nat) (support : nat -> nat -> R)
    (background : option (option nat * nat * nat * rimg)) (saturation : option R) (os : nat) (exponentiate phase_only : bool) : rpi_model :=
  let bg := match background with Some b => b | None => (None, n0, n1, fun _ _ => / 10 ^ 6 * 1) end in
  {| rm_rpi := {| r_n0 := n0; r_n1 := n1; r_probe := probe; r_weights := eye; r_o0 := o0; r_o1 := o1;
                  r_obj := map (fun _ => fun i j => (RtoC 1 * RtoC (support i j))%C) (seq 0 M); r_support := support;
                  r_exp := exponentiate; r_phase_only := phase_only; r_os := os; r_background := snd bg; r_saturation := saturation |};
     rm_bg := fst bg; rm_sup0 := o0; rm_sup1 := o1; rm_probe_basis := basis; rm_obj_basis := rpi_obj_basis (fst basis) (snd basis) n0 n1 o0 o1 |}.

(** ---- from_dataset (170-299); the probe: modes of shape n0 x n1. ---- *)
Definition rpi_from_dataset (d : data) (n0 n1 : nat) (probe : list img) (o : rpi_options) (ch : rpi_chance) : res rpi_model :=
  match d_patterns d with
  | [] => Raise IndexError
  | _ =>
    let '(o0, o1) := obj_shape (ro_size o) n0 n1 in
    if (Nat.eqb (lr_length n0 o0) 0 || Nat.eqb (lr_length n1 o1) 0)%bool then Raise RuntimeError
    else
      let root (b : rimg) : rimg := fun i j => sqrt (b i j) in
      let background := match ro_background o, d_background d with
                        | Some b, _ => Some (None, d_h d, d_w d, root b)
                        | None, Some b => Some (None, d_h d, d_w d, root b)
                        | None, None => None
                        end in
      let m := rpi_construct n0 n1 probe (exit_wave_geometry (d_b0 d) (d_b1 d) (d_h d) (d_w d) (d_wl d) (d_dist d)) o0 o1 (ro_modes o)
                 (obj_support n0 n1 o0 o1 probe (ro_threshold o)) background (ro_saturation o) (ro_os o) (ro_exp o) (ro_phase o) in
      rmap unexponentiate (init_obj m ch (ro_init o) None None (Some (d_h d, d_w d)))
  end.

(** ---- from_calibration (302-367) ---- *)
(** calibration['background'], if there, has the shape of the probe. *)
Record calibration := { cal_wl : R; cal_b0 : V3; cal_b1 : V3; cal_n0 : nat; cal_n1 : nat; cal_probe : list img; cal_background : option rimg }.
Record cal_options := { co_size : option (nat * nat); co_modes : nat; co_saturation : option R; co_exp : bool; co_phase : bool; co_init : string }.
(** Without a background it is t.zeros_like(probe.real), with the axis of the modes; saturation is not passed on;
    the factor between the bases divides by the sides of the object (81-82). *)
Definition rpi_from_calibration (c : calibration) (o : cal_options) (ch : rpi_chance) : res rpi_model :=
  let n0 := cal_n0 c in let n1 := cal_n1 c in
  let '(o0, o1) := obj_shape (co_size o) n0 n1 in
  if (Nat.eqb o0 0 || Nat.eqb o1 0)%bool then Raise ZeroDivisionError
  else
    let background := match cal_background c with
                      | Some b => (None, n0, n1, fun i j => sqrt (b i j))
                      | None => (Some (length (cal_probe c)), n0, n1, fun _ _ => 0)
                      end in
    let m := rpi_construct n0 n1 (cal_probe c) (cal_b0 c, cal_b1 c) o0 o1 (co_modes o) (fun _ _ => 1) (Some background) None 1 (co_exp o) (co_phase o) in
    rmap unexponentiate (init_obj m ch (co_init o) None None None).
(** 341-342: wavelength / probe_basis, element by element (None: division by 0), at distance 1. *)
Definition over (x y : R) : option R := if Req_EM_T y 0 then None else Some (x / y).
Definition calibration_column (wl : R) (b : V3) : option R * option R * option R := (over wl (vx b), over wl (vy b), over wl (vz b)).

(** ---- forward (base.py 98-108, rpi.py 485-551) for a batch of b exposures ---- *)
(** Two axes of lengths n and m broadcast against each other; entry i of an axis of length n broadcast to length k. *)
Definition bcast (n m : nat) : option nat := if Nat.eqb n m then Some n else if Nat.eqb n 1 then Some m else if Nat.eqb m 1 then Some n else None.
Definition spread (n k i : nat) : nat := if Nat.eqb n k then i else 0%nat.
(** The number of patterns, their shape, and the pattern (all are the same). *)
Definition rpi_simulate (m : rpi_model) (b : nat) : res (nat * nat * nat * rimg) :=
  let r := rm_rpi m in
  match bcast (rm_sup0 m) (r_o0 r), bcast (rm_sup1 m) (r_o1 r) with
  | Some a0, Some a1 =>
    let h := (r_n0 r / r_os r)%nat in let w := (r_n1 r / r_os r)%nat in
    let '(depth, bh, bw) := rm_bg m in
    match match depth with None => Some b | Some k => bcast b k end, bcast h bh, bcast w bw with
    | Some B, Some H, Some W =>
      let pattern i j := rpi_pattern {| r_n0 := r_n0 r; r_n1 := r_n1 r; r_probe := r_probe r; r_weights := r_weights r; r_o0 := a0; r_o1 := a1;
          r_obj := map (fun o : img => fun x y => o (spread (r_o0 r) a0 x) (spread (r_o1 r) a1 y)) (r_obj r);
          r_support := fun x y => r_support r (spread (rm_sup0 m) a0 x) (spread (rm_sup1 m) a1 y);
          r_exp := r_exp r; r_phase_only := r_phase_only r; r_os := r_os r;
          r_background := fun _ _ => r_background r (spread bh H i) (spread bw W j); r_saturation := r_saturation r |} (spread h H i) (spread w W j) in
      Ok (B, H, W, pattern)
    | _, _, _ => Raise RuntimeError
    end
  | _, _ => Raise RuntimeError
  end.
