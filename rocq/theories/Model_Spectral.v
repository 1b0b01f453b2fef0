(** Model of calc_spectral_info (src/cdtools/tools/analysis/analysis.py 1438-1527).  Exact arithmetic.  The area of the
    convex hull that scipy computes of the scan positions is an unknown function of the positions, None standing for
    the QhullError of colinear positions; the data set is the record of Model_Init (its mask is never None). *)
From Verif Require Import Base FinSum Model_Prop Model_Meas Model_Geom Model_Image Model_Analysis Model_Init.
Local Open Scope R_scope.

(** 1477-1483: the exit wave basis *)
Definition spectral_basis (d : data) : V3 * V3 := exit_wave_geometry (d_b0 d) (d_b1 d) (d_h d) (d_w d) (d_wl d) (d_dist d).
(** 1485-1488: the area of the field of view that is conjugate to the detector *)
Definition fov_area (d : data) : R :=
  vlen (vcross (vscale (INR (d_h d)) (fst (spectral_basis d))) (vscale (INR (d_w d)) (snd (spectral_basis d)))).
(** 1470-1475, 1490-1494: only the x and y of a position count *)
Definition scale_factor (hull : list (R * R) -> option R) (d : data) : R :=
  match hull (map (fun t => (vx t, vy t)) (d_translations d)) with
  | Some scan_area => fov_area d / scan_area
  | None => 1 / INR (length (d_patterns d))
  end.
(** 1496-1498 *)
Definition mask_value (d : data) (i j : nat) : R := if d_mask d i j then 1 else 0.
Definition sum_pattern (hull : list (R * R) -> option R) (d : data) : rimg :=
  fun i j => mask_value d i j * lsum (map (fun im : rimg => im i j) (d_patterns d)) * scale_factor hull d.
(** 1501-1527: the pattern, the frequencies and the third result.  No patterns or no bins: ValueError.  A ring without
    unmasked pixels, whose value is NaN, is not modelled. *)
Definition calc_spectral_info (hull : list (R * R) -> option R) (d : data) (nbins : nat) : res (rimg * (nat -> R) * (nat -> R)) :=
  match d_patterns d with
  | [] => Raise ValueError
  | _ :: _ =>
    if Nat.eqb nbins 0 then Raise ValueError
    else
      let h := d_h d in let w := d_w d in
      let di := vlen (fst (spectral_basis d)) in let dj := vlen (snd (spectral_basis d)) in
      let ring b := frc_bin h w nbins di dj Side b in
      let n_pix b := histogram_r h w (ring b) (mask_value d) in
      let sum_spectrum b := histogram_r h w (ring b) (sum_pattern hull d) in
      Ok (sum_pattern hull d, edge nbins (frc_range h w di dj Side), fun b => sum_spectrum b / n_pix b)
  end.
