(** Model of Multislice2DPtycho (src/cdtools/models/multislice_2d_ptycho.py): the constructor as regards the
    propagator (150-158), the call of exit_wave_geometry in from_dataset (198-206), interaction (327-414),
    forward_propagator and measurement (417-435) for one exposure, and tidy_probes (518-600).  Exact arithmetic. *)
From Verif Require Import Base FinSum Fourier Matrix Model_Prop Model_Image Model_Interact Model_Meas Model_Geom Model_Models Model_Forward Model_Analysis.
From Coquelicot Require Import Complex.
From Flocq Require Import Core.Raux Core.Round_NE.
Local Open Scope R_scope.

(** The object: one plane for every slice, or one plane per slice (obj.dim() 2 or 3). *)
Inductive planes := Replicated (o : Z -> Z -> C) | Separate (l : list (Z -> Z -> C)).
(** The fields it shares with FancyPtycho are taken from a [fancy] record: basis, surface normal, minimum translation,
    offsets, probe (n0 x n1 modes), support (all true for None), norm, fourier_probe, weights, oversampling, background,
    saturation, exponentiate_obj, phase_only and the shape H x W of the planes; its other fields are not used. *)
Record multi2d := { u_base : fancy; u_planes : planes; u_nz : nat; u_subpixel : bool; u_alias : bool; u_prop : img;
                    u_slice : option (nat * nat) }.
(** 150-158: the bandlimit is passed as a fifth positional argument, which generate_angular_spectrum_propagator(shape,
    spacing, wavelength, z, *args, bandlimit=None, **kwargs) collects in args and ignores. *)
Definition as_prop (n0 n1 : nat) (b0 b1 : V3) (wl dz : R) (alias : bool) (bandlimit : option R) : img :=
  let f := if alias then 2%nat else 1%nat in
  as_propagator (f * n0) (f * n1) (vlen b0 / INR f) (vlen b1 / INR f) wl dz None.

(** A Python call f( *positional, **keywords ) of a function without *args and **kwargs, given its parameters in order:
    unknown keywords and surplus positional arguments are a TypeError. *)
Definition binds (params : list string) (positional : nat) (keywords : list string) : bool :=
  (Nat.leb positional (List.length params) && forallb (fun k => existsb (String.eqb k) (skipn positional params)) keywords)%bool.
(** exit_wave_geometry (initializers.py 31) and the call in from_dataset (198-206).  What precedes the call does not
    fail for a data set with patterns and a detector geometry. *)
Definition exit_wave_geometry_params : list string := ["det_basis"; "det_shape"; "wavelength"; "distance"; "oversampling"]%string.
Definition from_dataset_call {A} (rest : A) : res A :=
  if binds exit_wave_geometry_params 4 ["center"; "padding"; "oversampling"]%string then Ok rest else Raise TypeError.

(** ptycho_2D_round with upsample_obj (interactions.py 268-276): half the probe's shape, upsampled. *)
Definition round_upsampled (H W : Z) (obj : Z -> Z -> C) (P0 P1 : nat) (probe : img) (t : R * R) : option img :=
  option_map (fun sel => times_img probe (fourier_upsample (P0 / 2) (P1 / 2) sel 2 true))
    (window H W obj (P0 / 2) (P1 / 2) (ZnearestE (fst t)) (ZnearestE (snd t))).
(** Shape of the wavefields. *)
Definition u_N0 (u : multi2d) : nat := ((if u_alias u then 2 else 1) * f_n0 (u_base u))%nat.
Definition u_N1 (u : multi2d) : nat := ((if u_alias u then 2 else 1) * f_n1 (u_base u))%nat.
(** 373-397: slice i *)
Definition plane (p : planes) (i : nat) : res (Z -> Z -> C) := match p with Replicated o => Ok o | Separate l => entry l i end.
Definition through_plane (u : multi2d) (pos : R * R) (i : nat) (w : img) : res img :=
  let m := u_base u in
  rbind (plane (u_planes u) i) (fun o =>
  let o := fun a b => transmission (f_exp m) (f_phase_only m) (o a b) in
  need (if (Nat.eqb i 0 && u_subpixel u)%bool then ptycho_2D_sinc (f_H m) (f_W m) o (u_N0 u) (u_N1 u) w pos false
        else if u_alias u then round_upsampled (f_H m) (f_W m) o (u_N0 u) (u_N1 u) w pos
        else ptycho_2D_round (f_H m) (f_W m) o (u_N0 u) (u_N1 u) w pos)).
(** 371-412: [left] slices to go, from slice i; propagation but after the last *)
Fixpoint through_planes (u : multi2d) (pos : R * R) (left i : nat) (w : img) : res img :=
  match left with
  | O => Ok w
  | S rest => rbind (through_plane u pos i w) (fun w =>
      through_planes u pos rest (S i) (if Nat.eqb rest 0 then w else near_field (u_N0 u) (u_N1 u) w (u_prop u)))
  end.
(** 327-414; weights=None cannot be indexed: TypeError *)
Definition multi2d_interaction (u : multi2d) (ix : index) (t : V3) : res (list img) :=
  let m := u_base u in
  rbind (fancy_position m ix t) (fun pos =>
  let basis := if u_alias u then map (fun p => fourier_upsample (f_n0 m) (f_n1 m) p 2 false) (fancy_basis m) else fancy_basis m in
  rbind (match f_weights m with NoWeights => Raise TypeError | w => shot_modes w ix basis end) (fun prs =>
  all_ok (map (fun p => through_planes u pos (u_nz u) 0 (scale_img (f_norm m) p)) prs))).
(** 417-426 *)
Definition multi2d_propagate (u : multi2d) (w : img) : img :=
  let x := far_field (u_N0 u) (u_N1 u) w in
  if u_alias u then fun i j => x (f_n0 (u_base u) / 2 + i)%nat (f_n1 (u_base u) / 2 + j)%nat else x.
(** 429-435, base.py 98-108 *)
Definition multi2d_pattern (u : multi2d) (ix : index) (t : V3) : res rimg :=
  let m := u_base u in
  rmap (fun ws => quadratic_background {| o_slice := u_slice u; o_eps := eps; o_sat := f_saturation m; o_over := f_os m |}
                    (map (multi2d_propagate u) ws) (f_background m) None)
    (multi2d_interaction u ix t).

(** tidy_probes (518-600): `self.probe` is a property that builds a new tensor, so that `self.probe.data = ...` changes a
    temporary.  Scalar weights: the model stays as it was (534-541).  Weight matrices, N shots of m x l (k = l modes found;
    else a shape error): the new weights, with the amplitudes of the old probe (590-600). *)
Definition multi2d_tidy_weights (L : linalg) (N m l H W : nat) (weights : nat -> mat) (probe : nat -> img) : nat -> mat :=
  let '(_, _, U) := orthogonalize_probes L l H W probe (Some (N * m, all_weights m weights)%nat) in
  let U := fun r c => (U r c * RtoC (sqrt (INR N)))%C in
  let new_weights := fun s r c => U (s * m + r)%nat c in
  let sqrt_int := fun c => sqrt (isum H W (abs2 (probe c))) in
  let sv := fun s => svd L m l (fun r c => (new_weights s r c * RtoC (sqrt_int c))%C) in
  fun s a c => (RtoC (svd_S (sv s) a) * (svd_Vh (sv s) a c / RtoC (sqrt_int c)))%C.
