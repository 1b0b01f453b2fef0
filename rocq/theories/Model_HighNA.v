(** Model of the high-NA far field (tools/propagators/propagators.py 80-320): generate_high_NA_k_intensity_map and
    high_NA_far_field, and of Bragg2DPtycho's forward model with correct_tilt=True.  Exact arithmetic.  In the lens
    branch np.sqrt of a negative number (NaN) is 0 here; the theorems ask for pixels nearer than the distance. *)
From Verif Require Import Base FinSum Fourier Model_Prop Model_Image Model_Interact Model_Meas Model_Geom Model_Models Model_Forward.
From Coquelicot Require Import Complex.
From Flocq Require Import Core.Raux.
Local Open Scope R_scope.

(** 163-166: np.arange(n) - np.mean(np.arange(n)). *)
Definition centred_index (n i : nat) : R := INR i - rsum n (fun a => INR a) / INR n.
(** 168-176 *)
Definition samp_det_vec (d0 d1 : V3) (dist : R) : V3 :=
  let c := vcross d0 d1 in vscale (-1) (vscale (dist / vlen c) c).
(** 178-193: the vector to pixel (i, j). *)
Definition ray (d0 d1 : V3) (n m : nat) (dist : R) (lens : bool) (i j : nat) : V3 :=
  let v := samp_det_vec d0 d1 dist in
  let r := vadd (vscale (centred_index n i) d0) (vscale (centred_index m j) d1) in
  if lens then vadd r (vscale (sqrt (vdot v v - vdot r r)) (vscale (/ vlen v) v)) else vadd r v.
(** 195-198 *)
Definition ray_k (d0 d1 : V3) (n m : nat) (dist wl : R) (lens : bool) (i j : nat) : V3 :=
  let r := ray d0 d1 n m dist lens i j in vscale (/ vlen r) (vscale (2 * PI / wl) r).
(** 204-213 *)
Definition intensity_map (d0 d1 : V3) (n m : nat) (dist wl : R) (lens : bool) : rimg := fun i j =>
  let k0 := 2 * PI / wl in
  let cosine := vdot (vscale (/ (k0 * dist)) (samp_det_vec d0 d1 dist)) (ray_k d0 d1 n m dist wl lens i j) in
  let nearest := rmin (map (fun a => rmin (map (fun b => vlen (ray d0 d1 n m dist lens a b)) (seq 0 m))) (seq 0 n)) in
  if lens then 1 else nearest ^ 2 * (cosine / vlen (ray d0 d1 n m dist lens i j) ^ 2).
(** 217-242: the last axis first. *)
Definition k_map (s0 s1 d0 d1 : V3) (n m : nat) (dist wl : R) (lens : bool) (i j : nat) : R * R :=
  let k0 := 2 * PI / wl in
  let q := vsub (ray_k d0 d1 n m dist wl lens i j) (vscale (/ dist) (vscale k0 (samp_det_vec d0 d1 dist))) in
  (vdot (vscale (/ (2 * PI)) (vscale 2 s1)) q, vdot (vscale (/ (2 * PI)) (vscale 2 s0)) q).

(** torch's grid_sample, mode='bilinear', padding_mode='zeros', align_corners=False, of an H x W image at (x, y). *)
Definition unnormalize (n : nat) (x : R) : R := ((x + 1) * INR n - 1) / 2.
Definition pixel_or_zero (H W : nat) (f : rimg) (a b : Z) : R :=
  if ((0 <=? a) && (a <? Z.of_nat H) && (0 <=? b) && (b <? Z.of_nat W))%Z%bool then f (Z.to_nat a) (Z.to_nat b) else 0.
Definition grid_sample (H W : nat) (f : rimg) (xy : R * R) : R :=
  let ix := unnormalize W (fst xy) in let iy := unnormalize H (snd xy) in
  let x0 := Zfloor ix in let y0 := Zfloor iy in
  let dx := ix - IZR x0 in let dy := iy - IZR y0 in
  pixel_or_zero H W f y0 x0 * ((1 - dx) * (1 - dy)) + pixel_or_zero H W f y0 (x0 + 1) * (dx * (1 - dy)) +
  pixel_or_zero H W f (y0 + 1) x0 * ((1 - dx) * dy) + pixel_or_zero H W f (y0 + 1) (x0 + 1) * (dx * dy).
(** 291-308: one wavefront of H x W pixels. *)
Definition high_NA_one (H W : nat) (w : img) (km : nat -> nat -> R * R) (im : option rimg) : img := fun i j =>
  let f := far_field H W w in
  let z := (RtoC (grid_sample H W (fun a b => fst (f a b)) (km i j)) + Ci * RtoC (grid_sample H W (fun a b => snd (f a b)) (km i j)))%C in
  match im with None => z | Some g => (z * RtoC (g i j))%C end.
(** A tensor of wavefronts by its number of dimensions (310-320): 2, 3 and 4 are handled. *)
Inductive stack := Stack2 (w : img) | Stack3 (ws : list img) | Stack4 (ws : list (list img)) | StackOther.
Definition high_NA_far_field (H W : nat) (s : stack) (km : nat -> nat -> R * R) (im : option rimg) : res stack :=
  let f := fun w => high_NA_one H W w km im in
  match s with
  | Stack2 w => Ok (Stack2 (f w))
  | Stack3 ws => Ok (Stack3 (map f ws))
  | Stack4 ws => Ok (Stack4 (map (map f) ws))
  | StackOther => Raise IndexError
  end.

(** Bragg2DPtycho with correct_tilt=True (bragg_2d_ptycho.py 204-226, 537-541, 552-560): the maps made by the
    constructor from the detector's geometry (d0, d1, dist), and the pattern of an exposure of a batch. *)
Definition bragg_maps (m : bragg) (d0 d1 : V3) (dist : R) (lens : bool) : (nat -> nat -> R * R) * rimg :=
  let e0 := vscale (/ INR (g_os m)) d0 in let e1 := vscale (/ INR (g_os m)) d1 in
  (k_map (g_b0 m) (g_b1 m) e0 e1 (g_os m * g_det0 m) (g_os m * g_det1 m) dist (g_wl m) lens,
   intensity_map e0 e1 (g_os m * g_det0 m) (g_os m * g_det1 m) dist (g_wl m) lens).
Definition bragg_tilt_pattern (m : bragg) (d0 d1 : V3) (dist : R) (lens : bool) (i : nat) (t : V3) : res rimg :=
  let maps := bragg_maps m d0 d1 dist lens in
  rmap (fun ws => quadratic_background {| o_slice := None; o_eps := eps; o_sat := g_saturation m; o_over := g_os m |}
                    (map (fun w => high_NA_one (g_os m * g_det0 m) (g_os m * g_det1 m) w (fst maps) (Some (snd maps))) ws) (g_background m) None)
    (bragg_interaction m i t).
