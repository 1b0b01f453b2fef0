(** Model of standardize_reconstruction_set and standardize_reconstruction_pair,
    src/cdtools/tools/analysis/analysis.py 1149-1435, and of the parts of remove_phase_ramp (1063-1086) and
    remove_amplitude_exponent (1089-1123) that precede the removal.  Exact arithmetic; torch/numpy conversions are
    identities; a window is a pair of slices with non-negative bounds or [:]; windows with a side of 0 or 1 are not
    modelled (hann_window divides by 0). *)
From Verif Require Import Base FinSum Fourier Matrix Model_Prop Model_Meas Model_Interact Model_Geom Model_Image Model_Shift Model_Analysis.
From Coquelicot Require Import Complex.
Local Open Scope C_scope.

(** The dictionary returned by model.save_results, as far as it is read here: an object of H x W pixels, l probe
    modes of h x w pixels, one weight per shot, the translations, ... and the key 'basis' (asked for in
    1216-1227; no save_results in the package writes it). *)
Record recon := {
  r_H : nat; r_W : nat; r_obj : img;
  r_l : nat; r_h : nat; r_w : nat; r_probe : nat -> img;
  r_weights : list R; r_translations : list V3; r_background : rimg; r_wavelength : R;
  r_obj_basis : V3 * V3; r_probe_basis : V3 * V3; r_basis : option (V3 * V3) }.
(** a[idx] = value on the array stored under 'probe' *)
Definition with_probe (r : recon) (p : nat -> img) : recon :=
  {| r_H := r_H r; r_W := r_W r; r_obj := r_obj r; r_l := r_l r; r_h := r_h r; r_w := r_w r; r_probe := p;
     r_weights := r_weights r; r_translations := r_translations r; r_background := r_background r;
     r_wavelength := r_wavelength r; r_obj_basis := r_obj_basis r; r_probe_basis := r_probe_basis r; r_basis := r_basis r |}.

(** scipy.optimize.minimize, as an unknown: the point it returns for an objective and a starting point. *)
Record scipy := { minimize2 : (R * R -> R) -> R * R -> R * R; minimize3 : (R * R * R -> R) -> R * R * R -> R * R * R }.

(** numpy slicing: first index and number of elements of a slice [:] or [a:b] of an axis of length n. *)
Definition slice_of (n : nat) (s : option (nat * nat)) : nat * nat :=
  match s with None => (0, n)%nat | Some (a, b) => (Nat.min a n, Nat.min b n - Nat.min a n)%nat end.
Definition window := (option (nat * nat) * option (nat * nat))%type.
Definition win_H (H : nat) (win : window) : nat := snd (slice_of H (fst win)).
Definition win_W (W : nat) (win : window) : nat := snd (slice_of W (snd win)).
Definition cut {A} (H W : nat) (win : window) (x : nat -> nat -> A) : nat -> nat -> A :=
  fun i j => x (fst (slice_of H (fst win)) + i)%nat (fst (slice_of W (snd win)) + j)%nat.

(** remove_phase_ramp 1065-1075: the objective and the frequency chosen. *)
Definition zero_freq_component (h w : nat) (x : img) (f : R * R) : R :=
  (- Cmod (icsum h w (fun i j => (phase_ramp f i j * x i j)%C)) ^ 2)%R.
Definition ramp_freq (S : scipy) (H W : nat) (im : img) (win : window) : R * R :=
  minimize2 S (zero_freq_component (win_H H win) (win_W W win) (cut H W win im)) (0, 0)%R.
(** remove_amplitude_exponent 1090-1102: the objective and the growth rate chosen. *)
Definition decay_error (h w : nat) (x : rimg) (p : R * R * R) : R :=
  isum h w (fun i j => (x i j - fst (fst p) * exp (snd (fst p) * INR i + snd p * INR j)) ^ 2)%R.
Definition growth_rate (S : scipy) (H W : nat) (im : img) (win : window) : R * R :=
  let x := minimize3 S (decay_error (win_H H win) (win_W W win) (cut H W win (fun i j => Cmod (im i j)))) (1, 0, 0)%R in
  (snd (fst x), snd x).
(** 1117-1118: the pixel translations; the surface normal is the default (0, 0, 1). *)
Definition pix_translations (basis : V3 * V3) (tr : list V3) : list (R * R) :=
  map (translations_to_pixel (fst basis) (snd basis) ez) tr.

(** 1204-1210, 1338-1342 *)
Definition ramped (S : scipy) (win : window) (correct : bool) (r : recon) : img * (nat -> img) :=
  if correct then remove_phase_ramp (ramp_freq S (r_H r) (r_W r) (r_obj r) win) (r_obj r) (r_probe r) else (r_obj r, r_probe r).
(** 1212-1228 *)
Definition decayed (S : scipy) (win : window) (correct : bool) (r : recon) (op : img * (nat -> img)) : res (img * (nat -> img) * list R) :=
  if correct then
    match r_basis r with
    | None => Raise KeyError
    | Some b => Ok (remove_amplitude_exponent (growth_rate S (r_H r) (r_W r) (fst op) win) (fst op) (snd op) (r_weights r) (pix_translations b (r_translations r)))
    end
  else Ok (fst op, snd op, r_weights r).
(** 1344-1353: the weights are not passed, and not changed. *)
Definition decayed_pair (S : scipy) (win : window) (correct : bool) (r : recon) (op : img * (nat -> img)) : img * (nat -> img) :=
  if correct then fst (remove_amplitude_exponent (growth_rate S (r_H r) (r_W r) (fst op) win) (fst op) (snd op) [] (pix_translations (r_obj_basis r) (r_translations r)))
  else op.
(** 1230-1233, 1356-1358 *)
Definition offset (win : window) (correct : bool) (H W : nat) (obj : img) : img :=
  if correct then let a := angle (icsum (win_H H win) (win_W W win) (cut H W win obj)) in fun i j => cis (- a) * obj i j else obj.

(** hann_window (image_processing.py 18-37) of a complex and of a real h x w image. *)
Definition hann_c (h w : nat) (x : img) : img := fun i j => x i j * RtoC (hann h w i j).
Definition hann_abs (h w : nat) (x : img) : img := fun i j => RtoC (hann_window h w (fun i j => Cmod (x i j)) i j).
(** find_shift with its default resolution; the product of the two spectra is a RuntimeError unless the shapes agree. *)
Definition shift_between (h w h' w' : nat) (x y : img) : res (R * R) :=
  if (Nat.eqb h h' && Nat.eqb w w')%bool then find_shift h w x y 10 else Raise RuntimeError.
Definition shift_by (N M : nat) (s : R * R) (x : img) : img := sinc_subpixel_shift N M x (fst s) (snd s).
Definition length3 (v : V3) : R := sqrt (vdot v v).

Record set_results := {
  s_obj_half_1 : img; s_probe_half_1 : nat -> img; s_weights_half_1 : list R; s_translations_half_1 : list V3; s_background_1 : rimg;
  s_obj_half_2 : img; s_probe_half_2 : nat -> img; s_weights_half_2 : list R; s_translations_half_2 : list V3; s_background_2 : rimg;
  s_obj_full : img; s_probe_full : nat -> img; s_weights_full : list R; s_translations_full : list V3; s_background_full : rimg;
  s_wavelength : R; s_obj_basis : V3 * V3; s_probe_basis : V3 * V3;
  s_frc_freqs : nat -> R; s_frc : nat -> C; s_frc_threshold : nat -> R; s_ssnr : nat -> R }.

(** standardize_reconstruction_set (1149-1283); the arrays of length nbins are functions of the ring. *)
Definition standardize_reconstruction_set (S : scipy) (half_1 half_2 full : recon)
    (correct_phase_offset correct_phase_ramp correct_amplitude_exponent : bool) (win : window) (nbins : nat) (limit : frc_limit)
  : res set_results :=
  (do (obj_1, probe_1, weights_1) <- decayed S win correct_amplitude_exponent half_1 (ramped S win correct_phase_ramp half_1);
   do (obj_2, probe_2, weights_2) <- decayed S win correct_amplitude_exponent half_2 (ramped S win correct_phase_ramp half_2);
   do (obj, probe, weights) <- decayed S win correct_amplitude_exponent full (ramped S win correct_phase_ramp full);
   let H1 := r_H half_1 in let W1 := r_W half_1 in let H2 := r_H half_2 in let W2 := r_W half_2 in let H := r_H full in let W := r_W full in
   let obj_1 := offset win correct_phase_offset H1 W1 obj_1 in
   let obj_2 := offset win correct_phase_offset H2 W2 obj_2 in
   let obj := offset win correct_phase_offset H W obj in
   let h := win_H H win in let w := win_W W win in
   do shift_1 <- shift_between h w (win_H H1 win) (win_W W1 win)
                   (hann_abs h w (cut H W win obj)) (hann_abs (win_H H1 win) (win_W W1 win) (cut H1 W1 win obj_1));
   let obj_1 := shift_by H1 W1 shift_1 obj_1 in
   do shift_2 <- shift_between h w (win_H H2 win) (win_W W2 win)
                   (hann_abs h w (cut H W win obj)) (hann_abs (win_H H2 win) (win_W W2 win) (cut H2 W2 win obj_2));
   let obj_2 := shift_by H2 W2 shift_2 obj_2 in
   let im_1 := hann_c h w (cut H1 W1 win obj_1) in
   let im_2 := hann_c h w (cut H2 W2 win obj_2) in
   let di := length3 (fst (r_obj_basis full)) in let dj := length3 (snd (r_obj_basis full)) in
   let frc := calc_frc h w nbins im_1 im_2 di dj limit in
   Ok {| s_obj_half_1 := obj_1; s_probe_half_1 := probe_1; s_weights_half_1 := weights_1;
         s_translations_half_1 := r_translations half_1; s_background_1 := r_background half_1;
         s_obj_half_2 := obj_2; s_probe_half_2 := probe_2; s_weights_half_2 := weights_2;
         s_translations_half_2 := r_translations half_2; s_background_2 := r_background half_2;
         s_obj_full := obj; s_probe_full := probe; s_weights_full := weights;
         s_translations_full := r_translations full; s_background_full := r_background full;
         s_wavelength := r_wavelength full; s_obj_basis := r_obj_basis full; s_probe_basis := r_probe_basis full;
         s_frc_freqs := edge nbins (frc_range h w di dj limit); s_frc := frc;
         s_frc_threshold := fun b => frc_threshold 1 (frc_npix h w nbins di dj limit b);
         s_ssnr := fun b => (2 * Cmod (frc b) / (1 - Cmod (frc b)))%R |})%res.

Record pair_results := {
  p_obj_1 : img; p_probe_1 : nat -> img; p_weights_1 : list R; p_translations_1 : list V3; p_background_1 : rimg;
  p_obj_2 : img; p_probe_2 : nat -> img; p_weights_2 : list R; p_translations_2 : list V3; p_background_2 : rimg;
  p_wavelength : R; p_obj_basis : V3 * V3; p_probe_basis : V3 * V3;
  p_frc_freqs : nat -> R; p_frc : nat -> C; p_frc_threshold : nat -> R; p_ssnr : nat -> R;
  p_probe_freqs : nat -> R; p_probe_frc : nat -> R; p_probe_frc_threshold : nat -> R;
  p_probe_nrms_error : R; p_probe_nmse : R }.

(** calc_generalized_frc (948-1060) as it is called: with nbins=None, the expression fields_1[...,im_slice] (998) has
    a tuple inside the index and raises (which exception is not determined here); the product of the two spectra
    (1003) is a RuntimeError unless the numbers of modes agree or one of them is 1.  The rings are those of
    Model_Analysis.calc_generalized_frc. *)
Definition calc_generalized_frc_call (L : linalg) (l1 l2 H W : nat) (nbins : option nat) (f1 f2 : nat -> img) (di dj : R) (limit : frc_limit)
  : res (nat * (nat -> R) * (nat -> R) * (nat -> R)) :=
  match nbins with
  | None => Raise (UserExn 0)
  | Some n => if (Nat.eqb l1 l2 || Nat.eqb l1 1 || Nat.eqb l2 1)%bool
              then Ok (n, edge n (frc_range H W di dj limit), calc_generalized_frc L l1 l2 H W n f1 f2 di dj limit,
                       fun b => gfrc_threshold 1 (frc_npix H W n di dj limit b))
              else Raise RuntimeError
  end.

(** standardize_reconstruction_pair (1286-1435).  Also gives half_2 as the caller finds it afterwards, whether or
    not the call raises: the loop 1372-1374 assigns to the array probe_2, which is half_2['probe'] itself unless a
    correction has made a new array. *)
Definition standardize_reconstruction_pair (S : scipy) (L : linalg) (half_1 half_2 : recon)
    (correct_phase_offset correct_phase_ramp correct_amplitude_exponent : bool) (win : window) (nbins : nat) (probe_nbins : option nat) (limit : frc_limit)
  : res pair_results * recon :=
   let '(obj_1, probe_1) := decayed_pair S win correct_amplitude_exponent half_1 (ramped S win correct_phase_ramp half_1) in
   let '(obj_2, probe_2) := decayed_pair S win correct_amplitude_exponent half_2 (ramped S win correct_phase_ramp half_2) in
   let H1 := r_H half_1 in let W1 := r_W half_1 in let H2 := r_H half_2 in let W2 := r_W half_2 in
   let obj_1 := offset win correct_phase_offset H1 W1 obj_1 in
   let obj_2 := offset win correct_phase_offset H2 W2 obj_2 in
   let h := win_H H1 win in let w := win_W W1 win in
   match shift_between h w (win_H H2 win) (win_W W2 win)
           (hann_c h w (cut H1 W1 win obj_1)) (hann_c (win_H H2 win) (win_W W2 win) (cut H2 W2 win obj_2)) with
   | Raise e => (Raise e, half_2)
   | Ok shift =>
   let obj_2 := shift_by H2 W2 shift obj_2 in
   let ph := r_h half_1 in let pw := r_w half_1 in
   match shift_between ph pw (r_h half_2) (r_w half_2) (probe_1 0%nat) (probe_2 0%nat) with
   | Raise e => (Raise e, half_2)
   | Ok probe_shift =>
   let probe_2 := fun idx => if Nat.ltb idx (r_l half_2) then shift_by (r_h half_2) (r_w half_2) probe_shift (probe_2 idx) else probe_2 idx in
   let half_2_after := if (correct_phase_ramp || correct_amplitude_exponent)%bool then half_2 else with_probe half_2 probe_2 in
   let im_1 := hann_c h w (cut H1 W1 win obj_1) in
   let im_2 := hann_c h w (cut H2 W2 win obj_2) in
   let di := length3 (fst (r_obj_basis half_1)) in let dj := length3 (snd (r_obj_basis half_1)) in
   let pdi := length3 (fst (r_probe_basis half_1)) in let pdj := length3 (snd (r_probe_basis half_1)) in
   let frc := calc_frc h w nbins im_1 im_2 di dj limit in
   let l1 := r_l half_1 in let l2 := r_l half_2 in
   let probe_1_intensity := rsum l1 (fun k => isum ph pw (abs2 (probe_1 k))) in
   let probe_2_intensity := rsum l2 (fun k => isum ph pw (abs2 (probe_2 k))) in
   ((do (n, probe_freqs, probe_frc, probe_threshold) <- calc_generalized_frc_call L l1 l2 ph pw probe_nbins probe_1 probe_2 pdi pdj limit;
     Ok {| p_obj_1 := obj_1; p_probe_1 := probe_1; p_weights_1 := r_weights half_1;
           p_translations_1 := r_translations half_1; p_background_1 := r_background half_1;
           p_obj_2 := obj_2; p_probe_2 := probe_2; p_weights_2 := r_weights half_2;
           p_translations_2 := r_translations half_2; p_background_2 := r_background half_2;
           p_wavelength := r_wavelength half_1; p_obj_basis := r_obj_basis half_1; p_probe_basis := r_probe_basis half_1;
           p_frc_freqs := edge nbins (frc_range h w di dj limit); p_frc := frc;
           p_frc_threshold := fun b => frc_threshold 1 (frc_npix h w nbins di dj limit b);
           p_ssnr := fun b => (Cmod (frc b) / (1 - Cmod (frc b)))%R;
           p_probe_freqs := probe_freqs; p_probe_frc := probe_frc; p_probe_frc_threshold := probe_threshold;
           p_probe_nrms_error := calc_generalized_rms_error L l1 l2 ph pw probe_1 probe_2 true;
           p_probe_nmse := (1 - calc_fidelity L l1 l2 ph pw probe_1 probe_2 / (probe_1_intensity * probe_2_intensity))%R |})%res,
    half_2_after)
   end end.
