(** Model of the geometry and propagators of the ptychography models: models/fancy_ptycho.py,
    models/bragg_2d_ptycho.py, models/multislice_ptycho.py, models/rpi.py, models/simple_ptycho.py.
    Exact real and complex arithmetic.  A 3x2 basis is its two columns. *)
From Verif Require Import Base FinSum Fourier Model_Prop Model_Geom.
From Coquelicot Require Import Complex.
Local Open Scope R_scope.

(** ---- attributes of a model object ---- *)
(** Attribute values that the modelled methods read: None, a boolean buffer, an image, text, a vector. *)
Inductive attr := ANone | ABool (b : bool) | AImg (p : img) | AStr (s : string) | AVec (v : V3).
Definition attrs := list (string * attr).
(** torch.nn.Module.__getattr__: an attribute that was never set raises AttributeError. *)
Fixpoint getattr (o : attrs) (n : string) : res attr :=
  match o with
  | nil => Raise AttributeError
  | (m, v) :: o => if String.eqb m n then Ok v else getattr o n
  end.
Definition opt_img (p : option img) : attr := match p with None => ANone | Some p => AImg p end.
(** The truth value Python gives to an attribute in `if`. *)
Definition truth (a : attr) : bool := match a with ABool b => b | ANone => false | _ => true end.

(** FancyPtycho.__init__ (fancy_ptycho.py 86-105): the attributes the propagators read. *)
Definition fancy_attrs (near_field : bool) (asp inv_asp : option img) : attrs :=
  [ ("near_field"%string, ABool near_field);
    ("angular_spectrum_propagator"%string, opt_img asp);
    ("inv_angular_spectrum_propagator"%string, opt_img inv_asp) ].
(** tools.propagators.near_field called with an attribute: None * tensor is a TypeError. *)
Definition near_field_call (N M : nat) (w : img) (p : attr) : res img :=
  match p with AImg p => Ok (near_field N M w p) | _ => Raise TypeError end.
(** FancyPtycho.forward_propagator (645-651) and backward_propagator (654-660). *)
Definition fancy_forward (o : attrs) (N M : nat) (w : img) : res img :=
  rbind (getattr o "near_field") (fun nf =>
  if truth nf then rbind (getattr o "angular_spectrum_propagator") (near_field_call N M w)
  else Ok (far_field N M w)).
Definition fancy_backward (o : attrs) (N M : nat) (w : img) : res img :=
  rbind (getattr o "near_field") (fun nf =>
  if truth nf then rbind (getattr o "inverse_angular_spectrum_propagator") (near_field_call N M w)
  else Ok (inverse_far_field N M w)).

(** FancyPtycho.from_dataset, near-field geometry (306-355): the object basis and the two propagators
    stored in the model, for a detector of shape det_shape.  [pd] is the propagation_distance argument. *)
Definition near_geometry (d0 d1 : V3) (dist : R) (os : nat) (pd : option R) : V3 * V3 * R :=
  let direct := (vscale (/ INR os) d0, vscale (/ INR os) d1, dist) in
  match pd with
  | None => direct
  | Some p => if Req_EM_T p 0 then direct else
      let Mg := (p + dist) / p in
      (vscale (/ (INR os * Mg)) d0, vscale (/ (INR os * Mg)) d1, dist / Mg)
  end.
Definition near_propagators (d0 d1 : V3) (n0 n1 : nat) (wl dist : R) (os : nat) (pd : option R) : img * img :=
  let '(b0, b1, z) := near_geometry d0 d1 dist os pd in
  let p := gen_propagator (n0 * os) (n1 * os) b0 b1 wl (0, 0, z) None in
  (p, fun i j => Cconj (p i j)).
(** The near-field FancyPtycho that from_dataset builds (531-538). *)
Definition fancy_near (d0 d1 : V3) (n0 n1 : nat) (wl dist : R) (os : nat) (pd : option R) : attrs :=
  let ps := near_propagators d0 d1 n0 n1 wl dist os pd in
  fancy_attrs true (Some (fst ps)) (Some (snd ps)).
(** The far-field FancyPtycho that from_dataset builds (304-305). *)
Definition fancy_far : attrs := fancy_attrs false None None.

(** SimplePtycho: forward 104-105, no backward_propagator, so CDIModel's (base.py 90-91) applies. *)
Definition simple_forward (N M : nat) (w : img) : res img := Ok (far_field N M w).
Definition simple_backward (N M : nat) (w : img) : res img := Raise NotImplementedError.
(** MultislicePtycho (multislice_ptycho.py 526-531), RPI (rpi.py 532-538). *)
Definition multislice_forward (N M : nat) (w : img) : res img := Ok (far_field N M w).
Definition multislice_backward (N M : nat) (w : img) : res img := Ok (inverse_far_field N M w).
Definition rpi_forward (N M : nat) (w : img) : res img := Ok (far_field N M w).
Definition rpi_backward (N M : nat) (w : img) : res img := Ok (inverse_far_field N M w).
(** Bragg2DPtycho (bragg_2d_ptycho.py 537-549).  high_NA_far_field is a parameter [hna].
    `assert NotImplementedError(...)` asserts a true object and does nothing, so the function falls off its
    end and returns None. *)
Definition bragg_forward (hna : img -> img) (correct_tilt : bool) (N M : nat) (w : img) : res img :=
  Ok (if correct_tilt then hna w else far_field N M w).
Definition bragg_backward (correct_tilt : bool) (N M : nat) (w : img) : res (option img) :=
  if correct_tilt then Ok None else Ok (Some (inverse_far_field N M w)).

(** ---- surface normals ---- *)
(** The scattering_mode argument: not given, a recognised name, another string, or not a string. *)
Inductive smode := SNone | STransmission | SReflection | SOtherString | SNotString.
Definition outgoing_dir (d0 d1 : V3) : V3 := vscale (/ vlen (vcross d0 d1)) (vcross d0 d1).
(** FancyPtycho.from_dataset (367-384): scattering_mode overrides the dataset's orientation; anything not
    recognised is ignored. *)
Definition fancy_normal (d0 d1 : V3) (mode : smode) (orientation2 : option V3) : V3 :=
  let base := match orientation2 with Some n => n | None => ez end in
  match mode with
  | STransmission => ez
  | SReflection => let s := vadd (outgoing_dir d0 d1) ez in vscale (/ - vlen s) s
  | _ => base
  end.
(** Bragg2DPtycho.from_dataset (309-341).  In the reflection branch the length of outgoing_dir, already 1,
    is divided by (322).  An unrecognised string leaves surface_normal None, whose .shape is an
    AttributeError. *)
Definition bragg_normal (d0 d1 : V3) (given : option V3) (mode : smode) (orientation2 : option V3) : res V3 :=
  match given with
  | Some s => Ok s
  | None =>
    match mode with
    | STransmission => Ok ez
    | SReflection => let o := outgoing_dir d0 d1 in Ok (vscale (/ vlen o) (vadd o ez))
    | SOtherString => Raise AttributeError
    | SNotString => Raise ValueError
    | SNone => Ok (match orientation2 with Some n => n | None => ez end)
    end
  end.
(** ---- the object basis of a Bragg model (343-362) ---- *)
(** np.linalg.pinv of the 4x3 matrix with rows r1 r2 r3 r4 and full column rank, restricted to its first
    three columns, applied to y: (A^T A)^-1 (y_1 r1 + y_2 r2 + y_3 r3). *)
Definition pinv43 (r1 r2 r3 r4 y : V3) : V3 :=
  solve3 (gram_row vx r1 r2 r3 r4) (gram_row vy r1 r2 r3 r4) (gram_row vz r1 r2 r3 r4)
    (vadd (vadd (vscale (vx y) r1) (vscale (vy y) r2)) (vscale (vz y) r3)).
Definition bragg_project (n s y : V3) : V3 :=
  pinv43 (vsub ex (vscale (vx n) n)) (vsub ey (vscale (vy n) n)) (vsub ez (vscale (vz n) n)) s y.
(** ew_normal (343-345) is the same expression as project_translations_to_sample's normal. *)
Definition bragg_obj_basis (e0 e1 s : V3) : V3 * V3 :=
  let n := sample_normal e0 e1 in (bragg_project n s e0, bragg_project n s e1).
(** __init__ (124-129): the stored surface normal, recomputed from the object basis. *)
Definition bragg_stored_normal (b0 b1 : V3) : V3 := sample_normal b0 b1.
(** from_dataset followed by __init__: object basis and stored normal. *)
Definition bragg_geometry (d0 d1 : V3) (n0 n1 : nat) (wl dist : R)
    (given : option V3) (mode : smode) (orientation2 : option V3) : res ((V3 * V3) * V3) :=
  rbind (bragg_normal d0 d1 given mode orientation2) (fun s =>
  let e := exit_wave_geometry d0 d1 n0 n1 wl dist in
  let b := bragg_obj_basis (fst e) (snd e) s in
  Ok (b, bragg_stored_normal (fst b) (snd b))).
(** __init__ (112-119): `self.units = units` is inside the else branch. *)
Definition bragg_units (probe_basis_given : bool) (units : string) : attrs :=
  if probe_basis_given then [("units"%string, AStr units)] else nil.

(** sim_to_dataset (fancy_ptycho.py 687-692, bragg_2d_ptycho.py 571-576): the orientation recorded in the
    simulated dataset: rows x, y, normal. *)
Definition sim_orientation (s : V3) : V3 * V3 * V3 :=
  let x := vcross ey s in let x := vscale (/ vlen x) x in
  let y := vcross s x in let y := vscale (/ vlen y) y in
  (x, y, s).

(** ---- Fourier-cropped probes ---- *)
(** Length of the slice [c : n - c], c >= 0 (fancy_ptycho.py 409-412, multislice_ptycho.py 301-304) and of
    [c : -c] (bragg_2d_ptycho.py 404-406, which is empty for c = 0). *)
Definition crop_len (n c : nat) : nat := n - c - c.
Definition crop_len_neg (n c : nat) : nat := match c with O => 0%nat | _ => n - c - c end.
(** probe_basis, one axis: obj_basis * scale_factor.  FancyPtycho divides the shape of the uncropped probe
    by the cropped one (407, 415-416); Bragg2DPtycho (409-410) and MultislicePtycho (307-308) divide the
    detector's shape.  The uncropped probe has oversampling * det_shape pixels. *)
Definition fancy_probe_basis (b : V3) (det os c : nat) : V3 :=
  vscale (INR (os * det) / INR (crop_len (os * det) c)) b.
Definition bragg_probe_basis (b : V3) (det os c : nat) : V3 :=
  vscale (INR det / INR (crop_len_neg (os * det) c)) b.
Definition multislice_probe_basis (b : V3) (det os c : nat) : V3 :=
  vscale (INR det / INR (crop_len (os * det) c)) b.

(** ---- multislice propagation ---- *)
(** MultislicePtycho.from_dataset (384-392): spacing = [|obj_basis[0,1]|, |obj_basis[1,0]|], that is the x
    component of the second basis vector and the y component of the first. *)
Definition interslice (n0 n1 : nat) (b0 b1 : V3) (wl dz : R) : img :=
  as_propagator n0 n1 (Rabs (vx b1)) (Rabs (vy b0)) wl dz None.

(** ---- initial weights (fancy_ptycho.py 455-482, multislice_ptycho.py 343-365) ---- *)
Definition rmean (l : list R) : R := lsum l / INR (length l).
(** One weight per exposure (dm_rank None or 0): FancyPtycho uses square roots, MultislicePtycho does not. *)
Definition fancy_weights (n : nat) (intensities : option (list R)) : list R :=
  match intensities with
  | None => repeat 1 n
  | Some l => let w := map sqrt l in map (fun x => 1 * (x / rmean w)) w
  end.
Definition multislice_weights (n : nat) (intensities : option (list R)) : list R :=
  match intensities with None => repeat 1 n | Some l => map (fun x => 1 * (x / rmean l)) l end.
(** Density matrices (dm_rank = r <> 0): entry (i, k) of the r x n_modes weight matrix of every exposure;
    -1 means n_modes, more than n_modes is a KeyError, other negative ranks fail in t.zeros. *)
Definition dm_weights (dm_rank : Z) (n_modes : nat) : res (nat * (nat -> nat -> R)) :=
  if Z.ltb (Z.of_nat n_modes) dm_rank then Raise KeyError
  else
    let r := if Z.eqb dm_rank (-1) then Z.of_nat n_modes else dm_rank in
    if Z.ltb r 0 then Raise RuntimeError
    else Ok (Z.to_nat r, fun i k => if Nat.eqb i k then 1 else 0).

(** ---- probe positions and corrected_translations ---- *)
Definition padd2 (p q : R * R) : R * R := (fst p + fst q, snd p + snd q).
Definition psub2 (p q : R * R) : R * R := (fst p - fst q, snd p - snd q).
Definition pscale2 (a : R) (p : R * R) : R * R := (a * fst p, a * snd p).
(** FancyPtycho.interaction (551-559), one exposure: the position in the object array, in pixels.  [off] is
    the row of translation_offsets of that exposure, if the attribute is not None. *)
Definition fancy_pix (b0 b1 n : V3) (mn : R * R) (scale : R) (off : option (R * R)) (t : V3) : R * R :=
  let p := psub2 (translations_to_pixel b0 b1 n t) mn in
  match off with None => p | Some o => padd2 p (pscale2 scale o) end.
(** corrected_translations (730-752; the same code in multislice_ptycho.py 600-622 and
    bragg_2d_ptycho.py 599-620). *)
Definition corrected (b0 b1 n : V3) (scale : R) (off : option (R * R)) (t : V3) : V3 :=
  match off with None => t | Some o => vadd t (pixel_to_translations b0 b1 n (pscale2 scale o)) end.
(** Bragg2DPtycho.interaction (488-497): position and propagation distance. *)
Definition bragg_pix (b0 b1 : V3) (mn : R * R) (med scale : R) (off : option (R * R)) (t : V3) : (R * R) * R :=
  let r := project_translations_to_sample b0 b1 t in
  let p := psub2 (fst r) mn in
  (match off with None => p | Some o => padd2 p (pscale2 scale o) end, snd r - med).

(** ---- sim_to_dataset in chunks (fancy_ptycho.py 701-717) ---- *)
(** range(0, n, w), w > 0 *)
Fixpoint starts (fuel n w i : nat) : list nat :=
  match fuel with O => nil | S f => if Nat.ltb i n then i :: starts f n w (i + w) else nil end.
(** [forward] maps a batch of indices and translations to a batch of patterns; range() with step 0 is a
    ValueError, t.cat of no tensors a RuntimeError. *)
Definition sim_data {I T P} (forward : list I -> list T -> list P) (indices : list I) (translations : list T)
    (width : option nat) : res (list P) :=
  let w := match width with None => length indices | Some w => w end in
  match w with
  | O => Raise ValueError
  | _ =>
    let ss := starts (length indices) (length indices) w 0 in
    let ics := map (fun i => slice i (i + w) indices) ss in
    let tcs := map (fun i => slice i (i + w) translations) ss in
    match combine ics tcs with
    | nil => Raise RuntimeError
    | cs => Ok (concat (map (fun c => forward (fst c) (snd c)) cs))
    end
  end.
