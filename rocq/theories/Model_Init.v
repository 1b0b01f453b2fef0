(** Model of the initial guesses: the probe initializers of tools/initializers/initializers.py and
    FancyPtycho.from_dataset, SimplePtycho.from_dataset.  Exact real and complex arithmetic; sqrt of a negative
    mean (NaN in the code) is 0 here, so the theorems ask for non-negative means. *)
From Verif Require Import Base FinSum Fourier Model_Prop Model_Image Model_Interact Model_Meas Model_Geom Model_Models Model_Forward.
From Coquelicot Require Import Complex.
Local Open Scope R_scope.

(** What the initializers read of a Ptycho2DDataset (ptycho_2d_dataset.py 27-80): shape of the patterns, the
    patterns, translations and optional arrays, detector geometry (two basis columns, distance), wavelength and
    the third row of sample_info['orientation'].  A dataset always has a mask (base.py 37-93). *)
Record data := {
  d_h : nat; d_w : nat; d_patterns : list rimg; d_translations : list V3; d_mask : nat -> nat -> bool;
  d_background : option rimg; d_qe : option rimg; d_intensities : option (list R);
  d_b0 : V3; d_b1 : V3; d_dist : R; d_wl : R; d_orientation : option V3 }.

(** SHARP_style_probe (298-320) and SHARP_style_near_field_probe (392-414): the mean of the masked patterns, less
    the background, clipped at 0.  factors[params[0]] is always 1. *)
Definition masked_image (d : data) (im : rimg) : rimg := fun i j => (if d_mask d i j then 1 else 0) * im i j / 1.
Definition sharp_intensities (d : data) : rimg := fun i j =>
  let m := lsum (map (fun im => masked_image d im i j) (d_patterns d)) / INR (length (d_patterns d)) in
  match d_background d with None => m | Some b => Rmax (m - b i j) 0 end.
Definition sqrt_img (x : rimg) : img := fun i j => RtoC (sqrt (x i j)).
(** 321-332: the inverse far field of the root, in the middle of an array of zeros. *)
Definition sharp_focus (d : data) (os : nat) : img :=
  let h := d_h d in let w := d_w d in
  place h w ((os * h) / 2 - h / 2) ((os * w) / 2 - w / 2) (inverse_far_field h w (sqrt_img (sharp_intensities d))).
(** 335-358: norm of a column of basis_dirs * wavelength * distance / (probe_shape * norm(det_basis)). *)
Definition guess_spacing (wl dist : R) (n : nat) (b : V3) : R :=
  vlen (vscale (/ (INR n * vlen b)) (vscale dist (vscale wl (vscale (/ vlen b) b)))).
Definition guess_propagator (d : data) (N M : nat) (n m : nat) (z : R) : img :=
  as_propagator N M (guess_spacing (d_wl d) (d_dist d) n (d_b0 d)) (guess_spacing (d_wl d) (d_dist d) m (d_b1 d)) (d_wl d) z None.
Definition SHARP_style_probe (d : data) (pd : option R) (os : nat) : img :=
  let h := d_h d in let w := d_w d in
  match pd with
  | None => sharp_focus d os
  | Some z => near_field (os * h) (os * w) (sharp_focus d os) (guess_propagator d (os * h) (os * w) h w z)
  end.
(** 416-427 *)
Definition SHARP_style_near_field_probe (d : data) (backward : img -> img) (os : nat) : img :=
  let p := backward (sqrt_img (sharp_intensities d)) in
  if Nat.eqb os 1 then p else fourier_upsample (d_h d) (d_w d) p os false.

(** gaussian (131-172), with center=None: one axis of the exponent is (i curvature / 2 - 1 / (2 sigma^2)) x^2. *)
Definition gaussian_axis (n : nat) (sigma curvature : R) (i : nat) : C :=
  let x := INR i - (INR n - 1) / 2 in
  (RtoC (x ^ 2) * (RtoC (- / (2 * sigma ^ 2)) + Ci * RtoC (curvature / 2)))%C.
Definition gaussian (n m : nat) (sigma0 sigma1 amplitude curv0 curv1 : R) : img := fun i j =>
  (RtoC amplitude * cexp (gaussian_axis n sigma0 curv0 i + gaussian_axis m sigma1 curv1 j))%C.
(** gaussian_probe (174-258), polarized=False; sigma as a pair; propagation_distance None is 0. *)
Definition waist (wl sigma z : R) : R := let k := 2 * PI / wl in let zr := k * sigma ^ 2 in sigma * sqrt (1 + (z / zr) ^ 2).
Definition curving (wl sigma z : R) : R := let k := 2 * PI / wl in let zr := k * sigma ^ 2 in - k * z / (z ^ 2 + zr ^ 2).
Definition gaussian_probe (d : data) (b0 b1 : V3) (n m : nat) (sigma0 sigma1 : R) (pd : option R) : img :=
  let z := match pd with None => 0 | Some z => z end in
  let p0 := vlen b0 in let p1 := vlen b1 in
  let g := gaussian n m (waist (d_wl d) sigma0 z / p0) (waist (d_wl d) sigma1 z / p1) 1
             (curving (d_wl d) sigma0 z * p0 ^ 2) (curving (d_wl d) sigma1 z * p1 ^ 2) in
  let avg := lsum (map (fun im : rimg => rsum (d_h d) (fun i => rsum (d_w d) (fun j => im i j))) (d_patterns d)) / INR (length (d_patterns d)) in
  let power := rsum n (fun i => rsum m (fun j => Cmod (g i j) ^ 2)) in
  fun i j => (RtoC (sqrt (avg / power)) * g i j)%C.

(** STEM_style_probe (431-527): det_slice is not used; the aperture in mrad around the centroid of the mean
    pattern (image_processing.centroid 39-68). *)
Definition mean_image (d : data) : rimg := fun i j => lsum (map (fun im : rimg => im i j) (d_patterns d)) / INR (length (d_patterns d)).
Definition centroid (n m : nat) (x : rimg) : R * R :=
  let s := rsum n (fun i => rsum m (fun j => x i j)) in
  (rsum n (fun i => rsum m (fun j => x i j * INR i)) / s, rsum n (fun i => rsum m (fun j => x i j * INR j)) / s).
Definition stem_angle (d : data) (os : nat) (i j : nat) : R :=
  let c := centroid (d_h d) (d_w d) (mean_image d) in
  let r := vadd (vscale (d_dist d) (0, 0, 1)) (vadd (vscale (INR i - fst c) (vscale (/ INR os) (d_b0 d))) (vscale (INR j - snd c) (vscale (/ INR os) (d_b1 d)))) in
  acos (vdot (0, 0, 1) (vscale (/ vlen r) r)) * 1000.
Definition mean2 (n m : nat) (x : rimg) : R := rsum n (fun i => rsum m (fun j => x i j)) / INR (n * m).
Definition stem_aperture (d : data) (n m os : nat) (semi : R) : img :=
  let a : img := fun i j => if Rlt_dec (stem_angle d os i j) semi then RtoC 1 else RtoC 0 in
  let level := sqrt (mean2 (d_h d) (d_w d) (mean_image d) / mean2 n m (fun i j => Cmod (a i j) ^ 2)) in
  fun i j => (a i j * RtoC level)%C.
(** The final array has the shape of the guess: left = top = 0. *)
Definition STEM_style_probe (d : data) (n m : nat) (semi : R) (pd : option R) (os : nat) : img :=
  let p := inverse_far_field n m (stem_aperture d n m os semi) in
  let p := match pd with None => p | Some z => near_field n m p (guess_propagator d n m n m z) end in
  place n m (n / 2 - n / 2) (m / 2 - m / 2) p.

(** ---- FancyPtycho.from_dataset (fancy_ptycho.py 248-541) ---- *)
(** Its options; loss, units, plotting and simulate_finite_pixels are left out (the latter is False), as is
    obj_view_crop. *)
Record options := {
  op_n_modes : nat; op_randomize : R; op_dm_rank : option Z; op_planes : nat; op_scale : R; op_saturation : option R;
  op_radius : option R; op_crop : option nat; op_pd : option R; op_mode : smode; op_os : nat; op_fourier : bool;
  op_shifts : bool; op_simulate : bool; op_exp : bool; op_phase_only : bool; op_pad : nat; op_near : bool; op_qe : bool }.
(** The values t.rand returns: complex ones for the further probe modes, real ones for the object. *)
Record chance := { rand_mode : nat -> img; rand_obj : Z -> Z -> R }.
(** t.max(t.abs(x)) *)
Definition amax (n m : nat) (x : img) : R := rmax (map (fun i => rmax (map (fun j => Cmod (x i j)) (seq 0 m))) (seq 0 n)).
(** probe_fourier_crop (406-418): cutting c pixels off every side of the spectrum.  An empty array fails in the
    Fourier transform. *)
Definition fourier_crop (N M c : nat) (x : img) : img :=
  inverse_far_field (crop_len N c) (crop_len M c) (fun i j => far_field N M x (c + i)%nat (c + j)%nat).
(** probe_support_radius (496-507): pixels nearer to the centre of the array than r. *)
Definition disc (n m : nat) (r : R) (i j : nat) : bool :=
  if Rlt_dec (sqrt ((INR i - (INR n - 1) / 2) ^ 2 + (INR j - (INR m - 1) / 2) ^ 2)) r then true else false.
(** 285-366: object basis, probe guess and propagator. *)
Definition from_geometry (d : data) (o : options) : V3 * V3 :=
  if op_near o then fst (near_geometry (d_b0 d) (d_b1 d) (d_dist d) (op_os o) (op_pd o))
  else exit_wave_geometry (d_b0 d) (d_b1 d) (d_h d) (d_w d) (d_wl d) (d_dist d).
Definition from_backward (d : data) (o : options) : img -> img :=
  let '(b0, b1, z) := near_geometry (d_b0 d) (d_b1 d) (d_dist d) (op_os o) (op_pd o) in
  let p := gen_propagator (d_h d) (d_w d) b0 b1 (d_wl d) (0, 0, z) None in
  fun x => near_field (d_h d) (d_w d) x (fun i j => Cconj (p i j)).
Definition from_probe (d : data) (o : options) : img :=
  if op_near o then SHARP_style_near_field_probe d (from_backward d o) (op_os o)
  else SHARP_style_probe d (op_pd o) (op_os o).
(** 455-482 *)
Definition from_weights (d : data) (o : options) : res weights :=
  let per := fancy_weights (length (d_patterns d)) (d_intensities d) in
  match op_dm_rank o with
  | None => Ok (Scalars per)
  | Some 0%Z => Ok (Scalars per)
  | Some r => rmap (fun w => Matrices (fst w) (map (fun c => fun i k => RtoC (snd w i k * c)) per)) (dm_weights r (op_n_modes o))
  end.
(** 428-438: plane q of the object. *)
Definition from_object (o : options) (ch : chance) (q : nat) (a b : Z) : C :=
  let v := op_randomize o * (rand_obj ch a b - / 2) in
  let first := if op_exp o then RtoC v else cexp (Ci * RtoC v)%C in
  let z := if Nat.eqb q 0 then first else RtoC (5 / 100) in
  if op_phase_only o then RtoC (fst z) else z.
(** 406-418: the probe guess after probe_fourier_crop, and its shape. *)
Definition crop_of (o : options) : nat := match op_crop o with None => 0%nat | Some c => c end.
Definition from_n0 (d : data) (o : options) : nat := crop_len (op_os o * d_h d) (crop_of o).
Definition from_n1 (d : data) (o : options) : nat := crop_len (op_os o * d_w d) (crop_of o).
Definition from_guess (d : data) (o : options) : res img :=
  match op_crop o with
  | None => Ok (from_probe d o)
  | Some c => if (Nat.eqb (from_n0 d o) 0 || Nat.eqb (from_n1 d o) 0)%bool then Raise RuntimeError
              else Ok (fourier_crop (op_os o * d_h d) (op_os o * d_w d) c (from_probe d o))
  end.
(** 421-428, 496-507: the probe modes. *)
Definition from_support (d : data) (o : options) : nat -> nat -> bool :=
  match op_radius o with None => fun _ _ => true | Some r => disc (from_n0 d o) (from_n1 d o) r end.
Definition from_modes (d : data) (o : options) (ch : chance) (guess : img) : list img :=
  let n0 := from_n0 d o in let n1 := from_n1 d o in
  let more := map (fun k => fun i j => (RtoC (/ 100 * amax n0 n1 guess) * rand_mode ch k i j)%C) (seq 0 (op_n_modes o - 1)) in
  let first := if op_fourier o then far_field n0 n1 guess else guess in
  match op_radius o with None => first :: more | Some _ => map (restrict (from_support d o)) (first :: more) end.
(** 385-405, 428-541 and __init__ (the probe is divided by the maximum of its first mode, 132-137). *)
Definition fancy_assemble (d : data) (o : options) (ch : chance) (guess : img) (ws : weights) : fancy :=
  let os := op_os o in let h := d_h d in let w := d_w d in
  let n0 := from_n0 d o in let n1 := from_n1 d o in
  let b := from_geometry d o in
  let normal := fancy_normal (d_b0 d) (d_b1 d) (op_mode o) (d_orientation d) in
  let setup := calc_object_setup (h * os) (w * os) (map (translations_to_pixel (fst b) (snd b) normal) (d_translations d)) (op_pad o) in
  let norm := amax n0 n1 (nth 0 (from_modes d o ch guess) no_img) in
  {| f_b0 := fst b; f_b1 := snd b; f_normal := normal; f_min := snd setup;
     f_scale := op_scale o; f_offsets := Some (repeat (0 / op_scale o, 0 / op_scale o) (length (d_patterns d)));
     f_n0 := n0; f_n1 := n1; f_probe := map (fun (p : img) i j => (p i j / RtoC norm)%C) (from_modes d o ch guess);
     f_support := from_support d o; f_norm := norm;
     f_fourier := op_fourier o; f_weights := ws; f_simulate := op_simulate o;
     f_shifts := if op_shifts o then Some (repeat (0, 0) (length (d_patterns d))) else None;
     f_d0 := d_b0 d; f_d1 := d_b1 d; f_os := os; f_det0 := h; f_det1 := w;
     f_background := match d_background d with Some g => fun i j => sqrt (g i j) | None => fun _ _ => / 10 ^ 6 * 1 end;
     f_qe := if op_qe o then Some (match d_qe d with Some q => q | None => fun _ _ => 1 end) else None;
     f_saturation := op_saturation o; f_H := fst (fst setup); f_W := snd (fst setup);
     f_obj_modes := if Nat.eqb (op_planes o) 1 then None else Some (S (op_planes o - 1)); f_obj := from_object o ch;
     f_exp := op_exp o; f_phase_only := op_phase_only o; f_near := op_near o;
     f_propagator := if op_near o then Some (fst (near_propagators (d_b0 d) (d_b1 d) h w (d_wl d) (d_dist d) os (op_pd o))) else None |}.
(** dataset[0] of an empty dataset is an IndexError. *)
Definition fancy_from_dataset (d : data) (o : options) (ch : chance) : res fancy :=
  match d_patterns d with
  | [] => Raise IndexError
  | _ => rbind (from_guess d o) (fun guess => rbind (from_weights d o) (fun ws => Ok (fancy_assemble d o ch guess ws)))
  end.

(** ---- SimplePtycho.from_dataset (simple_ptycho.py 50-84) ---- *)
Definition simple_from_dataset (d : data) : res simple :=
  match d_patterns d with
  | [] => Raise IndexError
  | _ =>
    let h := d_h d in let w := d_w d in
    let b := exit_wave_geometry (d_b0 d) (d_b1 d) h w (d_wl d) (d_dist d) in
    let setup := calc_object_setup h w (map (translations_to_pixel (fst b) (snd b) ez) (d_translations d)) 0 in
    let guess := SHARP_style_probe d None 1 in
    let norm := amax h w guess in
    Ok {| s_b0 := fst b; s_b1 := snd b; s_min := snd setup; s_norm := norm; s_n0 := h; s_n1 := w;
          s_probe := fun i j => (guess i j / RtoC norm)%C; s_H := fst (fst setup); s_W := snd (fst setup); s_obj := fun _ _ => RtoC 1 |}
  end.
