(** Model of src/cdtools/tools/analysis/analysis.py: product_svd, orthogonalize_probes, standardize,
    calc_frc, calc_vn_entropy, calc_mode_power_fractions, calc_rms_error, calc_fidelity,
    calc_generalized_rms_error, calc_generalized_frc, remove_phase_ramp, remove_amplitude_exponent,
    make_illumination_map; of image_processing.centroid; and of FancyPtycho.tidy_probes and
    get_probe_intensities.  Exact real and complex arithmetic; torch/numpy conversions are identities.
    A stack of l images is a function of the mode and of two pixel indices, used below its sizes. *)
From Verif Require Import Base FinSum Fourier Matrix Model_Prop Model_Meas Model_Interact.
From Coquelicot Require Import Complex.
Local Open Scope C_scope.

(** The linear algebra library, as an unknown: torch.linalg.qr, torch.linalg.svd(full_matrices=False),
    torch.linalg.svdvals, numpy.linalg.eigh(...)[0].  What they guarantee is in Spec_Analysis. *)
Record svd_result := { svd_U : mat; svd_S : nat -> R; svd_Vh : mat }.
Record linalg := {
  qr : nat -> nat -> mat -> mat * mat;
  svd : nat -> nat -> mat -> svd_result;
  svdvals : nat -> nat -> mat -> nat -> R;
  eigh : nat -> mat -> nat -> R }.

(** product_svd (40-90): A is n x r, B is r x m. *)
Definition product_svd (L : linalg) (n r m : nat) (A B : mat) : svd_result :=
  let '(Qa, Ra) := qr L n r A in
  let '(Qb, Rb) := qr L m r (herm B) in
  let k1 := Nat.min n r in let k2 := Nat.min m r in
  let s := svd L k1 k2 (mm r Ra (herm Rb)) in
  {| svd_U := mm k1 Qa (svd_U s); svd_S := svd_S s; svd_Vh := mm k2 (svd_Vh s) (herm Qb) |}.

(** reshape of an l x H x W stack to l x (H W), and of a row back to an image (row-major). *)
Definition flat (W : nat) (x : img) : vec := fun p => x (p / W)%nat (p mod W).
Definition unflat (W : nat) (v : vec) : img := fun i j => v (i * W + j)%nat.
Definition flat_stack (W : nat) (probes : nat -> img) : mat := fun l => flat W (probes l).

(** orthogonalize_probes (93-182) with n_probe_dims=2: the number of modes returned, the modes, and the
    re-expressed weights. *)
Definition ortho_count (l m_pix : nat) (weights : option (nat * mat)) : nat :=
  match weights with None => Nat.min l m_pix | Some (m, _) => Nat.min (Nat.min m l) (Nat.min m_pix l) end.
Definition ortho_svd (L : linalg) (l H W : nat) (probes : nat -> img) (weights : option (nat * mat)) : svd_result :=
  match weights with
  | None => svd L l (H * W) (flat_stack W probes)
  | Some (m, Wt) => product_svd L m l (H * W) Wt (flat_stack W probes)
  end.
Definition orthogonalize_probes (L : linalg) (l H W : nat) (probes : nat -> img) (weights : option (nat * mat))
  : nat * (nat -> img) * mat :=
  let s := ortho_svd L l H W probes weights in
  (ortho_count l (H * W) weights,
   fun a => unflat W (fun p => RtoC (svd_S s a) * svd_Vh s a p),
   svd_U s).

(** sum(weight_matrix[..., None, None] * probes, axis=-3) *)
Definition weighted (l : nat) (Wt : mat) (probes : nat -> img) : nat -> img :=
  fun k i j => csum l (fun q => Wt k q * probes q i j).
Definition isum (H W : nat) (f : nat -> nat -> R) : R := rsum H (fun i => rsum W (f i)).
Definition icsum (H W : nat) (f : nat -> nat -> C) : C := csum H (fun i => csum W (f i)).
Definition mean2 (H W : nat) (f : nat -> nat -> R) : R := (isum H W f / INR (H * W))%R.
Definition abs2 (x : img) : nat -> nat -> R := fun i j => (Cmod (x i j) ^ 2)%R.

(** calc_mode_power_fractions (679-727). *)
Definition calc_mode_power_fractions (L : linalg) (l H W : nat) (probes : nat -> img)
    (weights : option (nat * mat)) (assume_preorthogonalized : bool) : nat * (nat -> R) :=
  let '(k, modes) :=
    if assume_preorthogonalized
    then match weights with None => (l, probes) | Some (m, Wt) => (m, weighted l Wt probes) end
    else fst (orthogonalize_probes L l H W probes weights) in
  let power := fun a => isum H W (abs2 (modes a)) in
  (k, fun a => (power a / rsum k power)%R).

(** tidy_probes (fancy_ptycho.py 790-871).  1D weights: only the basis changes. *)
Definition tidy_probes_1d (L : linalg) (l H W : nat) (probe : nat -> img) : nat * (nat -> img) :=
  fst (orthogonalize_probes L l H W probe None).
(** 2D weights: N shots, each with an m x l matrix.  The last statement divides by the amplitude of each
    basis probe; if one of them is 0 the weights become NaN (0/0), here None. *)
Definition all_weights (m : nat) (weights : nat -> mat) : mat := fun r c => weights (r / m)%nat (r mod m) c.
Fixpoint all_nonzero (k : nat) (f : nat -> R) : bool :=
  match k with O => true | S k' => (all_nonzero k' f && if Req_EM_T (f k') 0 then false else true)%bool end.
Record tidied := { t_modes : nat; t_probe : nat -> img; t_rows : nat; t_weights : option (nat -> mat) }.
Definition tidy_probes (L : linalg) (N m l H W : nat) (weights : nat -> mat) (probe : nat -> img) : tidied :=
  let '(k, ortho, U) := orthogonalize_probes L l H W probe (Some (N * m, all_weights m weights)%nat) in
  let ortho := fun a i j => ortho a i j / RtoC (sqrt (INR N)) in
  let U := fun r c => U r c * RtoC (sqrt (INR N)) in
  let new_weights := fun s r c => U (s * m + r)%nat c in
  let sqrt_int := fun c => sqrt (isum H W (abs2 (ortho c))) in
  let sv := fun s => svd L m k (fun r c => new_weights s r c * RtoC (sqrt_int c)) in
  {| t_modes := k; t_probe := ortho; t_rows := Nat.min m k;
     t_weights := if all_nonzero k sqrt_int
                  then Some (fun s a c => RtoC (svd_S (sv s) a) * (svd_Vh (sv s) a c / RtoC (sqrt_int c)))
                  else None |}.

(** get_probe_intensities (fancy_ptycho.py 874-918), shot s. *)
Definition probe_matrix (H W : nat) (probe : nat -> img) : mat :=
  fun i j => icsum H W (fun a b => probe i a b * Cconj (probe j a b)).
Definition get_probe_intensities_1d (weights : nat -> R) (s : nat) : R := (weights s ^ 2)%R.
Definition get_probe_intensities (m l H W : nat) (weights : nat -> mat) (probe : nat -> img) (s : nat) : R :=
  let pm := probe_matrix H W probe in
  let wpm := fun a b => csum l (fun q => csum l (fun p => weights s a p * pm p q) * Cconj (weights s b q)) in
  Re (csum m (fun a => wpm a a) / csum l (fun a => pm a a)).

(** t.angle / np.angle: the argument in (-pi, pi], 0 for 0. *)
Definition angle (z : C) : R :=
  if Req_EM_T (Cmod z) 0 then 0
  else if Rle_dec 0 (snd z) then acos (fst z / Cmod z) else (- acos (fst z / Cmod z))%R.

(** image_processing.centroid (39-68), dims=2. *)
Definition centroid (H W : nat) (im : rimg) : R * R :=
  let d := isum H W im in
  ((isum H W (fun i j => INR i * im i j) / d)%R, (isum H W (fun i j => INR j * im i j) / d)%R).
(** exp(2j pi (f0 Is + f1 Js)) *)
Definition phase_ramp (f : R * R) : img := fun i j => cis (2 * PI * (fst f * INR i + snd f * INR j)).

(** standardize (185-290).  The probe is a stack of n_modes H x W modes (a single probe is a stack of 1),
    the object OH x OW, the slice rows r0 <= i < r1 and columns c0 <= j < c1 of it. *)
Definition center_freq (H W : nat) (p : img) : R * R :=
  let c := centroid H W (abs2 (fftshift2 H W (fft2 H W p))) in
  (((fst c - INR (H / 2)) / INR H)%R, ((snd c - INR (W / 2)) / INR W)%R).
Definition slice_sum (r0 r1 c0 c1 : nat) (x : img) : C :=
  csum (r1 - r0) (fun i => csum (c1 - c0) (fun j => x (r0 + i)%nat (c0 + j)%nat)).
Definition default_slice (n : nat) : nat * nat := ((n / 8) * 3, (n / 8) * 5)%nat.
Definition standardize (H W OH OW : nat) (probe : nat -> img) (obj : img)
    (obj_slice : option ((nat * nat) * (nat * nat))) (correct_ramp : bool) : (nat -> img) * img :=
  let normalization := sqrt (mean2 H W (abs2 (probe 0%nat))) in
  let probe := fun k i j => probe k i j / RtoC normalization in
  let obj := fun i j => obj i j * RtoC normalization in
  let '((r0, r1), (c0, c1)) := match obj_slice with Some s => s | None => (default_slice OH, default_slice OW) end in
  let '(probe, obj) :=
    if correct_ramp then
      let f := center_freq H W (probe 0%nat) in
      ((fun k i j => probe k i j * Cconj (phase_ramp f i j)), (fun i j => obj i j * phase_ramp f i j))
    else (probe, obj) in
  let obj_angle := angle (slice_sum r0 r1 c0 c1 obj) in
  let obj := fun i j => obj i j * cis (- obj_angle) in
  let probe := fun k i j => probe k i j * cis (- angle (icsum H W (probe k))) in
  (probe, obj).

(** remove_phase_ramp (1063-1086), after scipy's optimiser has returned center_freq. *)
Definition remove_phase_ramp (center_freq : R * R) (im : img) (probe : nat -> img) : img * (nat -> img) :=
  ((fun i j => im i j * phase_ramp center_freq i j),
   (fun k i j => probe k i j * cis (- (2 * PI * (fst center_freq * INR i + snd center_freq * INR j))))).
(** remove_amplitude_exponent (1089-1123), after the optimiser has returned growth_rate; pix_translations
    are the pixel translations of the shots. *)
Definition remove_amplitude_exponent (g : R * R) (im : img) (probe : nat -> img) (weights : list R) (pix : list (R * R))
  : img * (nat -> img) * list R :=
  let m0 := rmin (map fst pix) in let m1 := rmin (map snd pix) in
  ((fun i j => im i j * RtoC (exp (- (fst g * INR i + snd g * INR j)))),
   (fun k i j => probe k i j * RtoC (exp (fst g * INR i + snd g * INR j))),
   map (fun wt => (fst wt * exp (fst g * (fst (snd wt) - m0) + snd g * (snd (snd wt) - m1)))%R) (combine weights pix)).

(** calc_rms_error (730-801), dims=2. *)
Definition rms_gamma (H W : nat) (f1 f2 : img) (align_phases : bool) : C :=
  if align_phases then cis (angle (icsum H W (fun i j => f1 i j * Cconj (f2 i j)))) else 1.
Definition calc_rms_error (H W : nat) (f1 f2 : img) (align_phases normalize : bool) : R :=
  let gamma := rms_gamma H W f1 f2 align_phases in
  let norm := if normalize then (1 / mean2 H W (abs2 f1))%R else 1%R in
  sqrt (norm * mean2 H W (abs2 (fun i j => f1 i j - gamma * f2 i j))).

(** calc_fidelity (804-866), dims=2. *)
Definition overlap_matrix (H W : nat) (f1 f2 : nat -> img) : mat :=
  fun b a => icsum H W (fun i j => f1 a i j * Cconj (f2 b i j)).
Definition calc_fidelity (L : linalg) (l1 l2 H W : nat) (f1 f2 : nat -> img) : R :=
  (rsum (Nat.min l2 l1) (svdvals L l2 l1 (overlap_matrix H W f1 f2)) ^ 2)%R.
(** calc_generalized_rms_error (869-945). *)
Definition calc_generalized_rms_error (L : linalg) (l1 l2 H W : nat) (f1 f2 : nat -> img) (normalize : bool) : R :=
  let npix := INR (H * W) in
  let i1 := (rsum l1 (fun k => isum H W (abs2 (f1 k))) / npix)%R in
  let i2 := (rsum l2 (fun k => isum H W (abs2 (f2 k))) / npix)%R in
  let fidelity := (calc_fidelity L l1 l2 H W f1 f2 / npix ^ 2)%R in
  let result := (i1 + i2 - 2 * sqrt fidelity)%R in
  sqrt (if normalize then result / i1 else result).

(** calc_frc (517-643) on the H x W slice of the images; di, dj are the lengths of the basis vectors. *)
Inductive frc_limit := Side | Corner.
Definition shifted_freq (n : nat) (d : R) (i : nat) : R := (fftfreq n (roll n (n / 2) i) / d)%R.
Definition radius (H W : nat) (di dj : R) (i j : nat) : R :=
  sqrt (shifted_freq H di i ^ 2 + shifted_freq W dj j ^ 2).
Definition max_freq (n : nat) (d : R) : R := (INR ((n - 1) / 2) / INR n / d)%R.
Fixpoint rmax_n (n : nat) (f : nat -> R) : R := match n with O => 0 | S n' => Rmax (rmax_n n' f) (f n') end.
Definition frc_range (H W : nat) (di dj : R) (limit : frc_limit) : R :=
  match limit with
  | Side => Rmax (max_freq H di) (max_freq W dj)
  | Corner => rmax_n H (fun i => rmax_n W (radius H W di dj i))
  end.
(** np.histogram with range (0, top): edge b of nbins bins (an empty range is widened by 1/2 both ways);
    every bin is half-open, except the last, which contains its right edge. *)
Definition edge (nbins : nat) (top : R) (b : nat) : R :=
  if Req_EM_T top 0 then (- (1 / 2) + INR b / INR nbins)%R else (INR b * top / INR nbins)%R.
Definition in_bin (nbins : nat) (top : R) (b : nat) (r : R) : bool :=
  if Rle_dec (edge nbins top b) r then
    if Rlt_dec r (edge nbins top (S b)) then true
    else if Nat.eqb (S b) nbins then (if Req_EM_T r (edge nbins top nbins) then true else false) else false
  else false.
Definition histogram_c (H W : nat) (inb : nat -> nat -> bool) (x : img) : C := icsum H W (fun i j => if inb i j then x i j else 0).
Definition histogram_r (H W : nat) (inb : nat -> nat -> bool) (x : rimg) : R := isum H W (fun i j => if inb i j then x i j else 0%R).
Definition frc_bin (H W nbins : nat) (di dj : R) (limit : frc_limit) (b : nat) : nat -> nat -> bool :=
  fun i j => in_bin nbins (frc_range H W di dj limit) b (radius H W di dj i j).
Definition calc_frc (H W nbins : nat) (im1 im2 : img) (di dj : R) (limit : frc_limit) (b : nat) : C :=
  let f1 := fftshift2 H W (fft2 H W im1) in
  let f2 := fftshift2 H W (fft2 H W im2) in
  let inb := frc_bin H W nbins di dj limit b in
  histogram_c H W inb (fun i j => f1 i j * Cconj (f2 i j)) /
  RtoC (sqrt (histogram_r H W inb (abs2 f1) * histogram_r H W inb (abs2 f2))).
Definition frc_npix (H W nbins : nat) (di dj : R) (limit : frc_limit) (b : nat) : R :=
  histogram_r H W (frc_bin H W nbins di dj limit b) (fun _ _ => 1%R).
Definition frc_threshold (snr n_pix : R) : R :=
  let snr := (snr / 2)%R in
  ((snr + (2 * sqrt snr + 1) / sqrt n_pix) / (1 + snr + (2 * sqrt snr) / sqrt n_pix))%R.

(** calc_generalized_frc (948-1060), nbins given. *)
Definition gfrc_mask (H W nbins : nat) (di dj : R) (limit : frc_limit) (b : nat) (i j : nat) : bool :=
  let top := frc_range H W di dj limit in
  let r := radius H W di dj i j in
  if Rlt_dec r (edge nbins top (S b)) then (if Rle_dec (edge nbins top b) r then true else false) else false.
Definition masked (m : nat -> nat -> bool) (x : img) : img := fun i j => if m i j then x i j else 0.
Definition calc_generalized_frc (L : linalg) (l1 l2 H W nbins : nat) (f1 f2 : nat -> img) (di dj : R) (limit : frc_limit) (b : nat) : R :=
  let m := gfrc_mask H W nbins di dj limit b in
  let g1 := fun k => masked m (fftshift2 H W (fft2 H W (f1 k))) in
  let g2 := fun k => masked m (fftshift2 H W (fft2 H W (f2 k))) in
  let numerator := sqrt (calc_fidelity L l1 l2 H W g1 g2) in
  let d1 := sqrt (calc_fidelity L l1 l1 H W g1 g1) in
  let d2 := sqrt (calc_fidelity L l2 l2 H W g2 g2) in
  (numerator / sqrt (d1 * d2))%R.
Definition gfrc_threshold (snr n_pix : R) : R :=
  let snr := (snr / 2)%R in
  ((snr + (2 * snr + 1) / sqrt n_pix) / (1 + snr + (2 * sqrt snr) / sqrt n_pix))%R.

(** scipy.special.xlogy(x, x) for x >= 0, and calc_vn_entropy (646-676). *)
Definition xlogy (x y : R) : R := if Req_EM_T x 0 then 0%R else (x * ln y)%R.
Definition calc_vn_entropy_stack (L : linalg) (n : nat) (matrices : list mat) : list R :=
  let eigs := map (fun a => eigh L n a) matrices in
  let eigs := map (fun eig => fun q => (eig q / rsum n eig)%R) eigs in
  map (fun eig : nat -> R => (- rsum n (fun q => xlogy (eig q) (eig q)))%R) eigs.
Definition calc_vn_entropy (L : linalg) (n : nat) (a : mat) : R :=
  let eig := eigh L n a in (- rsum n (fun q => xlogy (eig q) (eig q)) / rsum n eig)%R.

(** make_illumination_map (1125-1146): the rounded pixel positions relative to min_translation; every
    window must lie inside the map, as in the models. *)
Definition illumination (l : nat) (probe : nat -> img) (H W : nat) (total : option R) : rimg :=
  let p := fun i j => rsum l (fun k => (Cmod (probe k i j) ^ 2)%R) in
  match total with None => p | Some t => fun i j => (p i j / isum H W p * t)%R end.
Definition add_window (H W : nat) (p : rimg) (a b : nat) (x : rimg) : rimg := fun i j =>
  (x i j + (if Nat.leb a i && Nat.ltb i (a + H) && Nat.leb b j && Nat.ltb j (b + W) then p (i - a)%nat (j - b)%nat else 0))%R%bool.
Definition make_illumination_map (l H W : nat) (probe : nat -> img) (total : option R) (pos : list (nat * nat)) : rimg :=
  fold_left (fun x ab => add_window H W (illumination l probe H W total) (fst ab) (snd ab) x) pos (fun _ _ => 0%R).
