(** Model of MultislicePtycho.from_dataset (models/multislice_ptycho.py 192-430) and of the simulation of an
    exposure by the model it builds.  Exact real and complex arithmetic, as in Model_Init. *)
From Verif Require Import Base FinSum Fourier Model_Prop Model_Image Model_Interact Model_Meas Model_Geom Model_Models Model_Forward Model_Init.
From Coquelicot Require Import Complex.
Local Open Scope R_scope.

(** Its options.  Those it shares with FancyPtycho.from_dataset are in [mo_common] (op_planes stands for
    n_obj_modes, which is never read); op_shifts, op_phase_only, op_near and op_qe do not exist here.  loss,
    units, plotting, obj_view_crop and simulate_finite_pixels (False) are left out.  propagator_fourier_crop is
    taken to be non-negative. *)
Record ms_options := {
  mo_common : options; mo_dz : R; mo_nz : nat; mo_probe_shape : option (nat * nat); mo_prop_crop : option nat }.
(** The same options for the code shared with FancyPtycho: far field, no shifts, no phase_only, no qe_mask. *)
Definition far_only (o : options) : options := {|
  op_n_modes := op_n_modes o; op_randomize := op_randomize o; op_dm_rank := op_dm_rank o; op_planes := 1; op_scale := op_scale o;
  op_saturation := op_saturation o; op_radius := op_radius o; op_crop := op_crop o; op_pd := op_pd o; op_mode := op_mode o;
  op_os := op_os o; op_fourier := op_fourier o; op_shifts := false; op_simulate := op_simulate o; op_exp := op_exp o;
  op_phase_only := false; op_pad := op_pad o; op_near := false; op_qe := false |}.
(** The values t.rand returns, per further probe mode and per slice. *)
Record ms_chance := { rand_probe : nat -> img; rand_slice : nat -> Z -> Z -> R }.
(** 344-370: Ws *= intensities[:, ...] / mean.  The (N,) vector is aligned with the last axis: for scalar weights
    that is the exposure, for (N, rank, n_modes) matrices it is the mode, so it has to have 1 or n_modes entries. *)
Definition ms_weights (d : data) (o : options) : res weights :=
  let n := length (d_patterns d) in
  let matrices r := rbind (dm_weights r (op_n_modes o)) (fun w =>
    match d_intensities d with
    | None => Ok (Matrices (fst w) (repeat (fun i k => RtoC (snd w i k)) n))
    | Some l => if (Nat.eqb (length l) 1 || Nat.eqb (length l) (op_n_modes o))%bool
                then Ok (Matrices (fst w) (repeat (fun i k => RtoC (snd w i k * (nth (pick (length l) k) l 0 / rmean l))) n))
                else Raise RuntimeError
    end) in
  match op_dm_rank o with
  | None => Ok (Scalars (multislice_weights n (d_intensities d)))
  | Some 0%Z => Ok (Scalars (multislice_weights n (d_intensities d)))
  | Some r => matrices r
  end.
(** 321-329: slice q of the object. *)
Definition ms_slice (o : options) (ch : ms_chance) (q : nat) (a b : Z) : C :=
  let v := op_randomize o * (rand_slice ch q a b - / 2) in if op_exp o then RtoC v else cexp (Ci * RtoC v)%C.
(** 391-407: the propagator between the slices, on the detector's grid; propagator_fourier_crop clears the outermost
    frequencies. *)
Definition ms_propagator (d : data) (mo : ms_options) : img :=
  let h := d_h d in let w := d_w d in
  let b := exit_wave_geometry (d_b0 d) (d_b1 d) h w (d_wl d) (d_dist d) in
  let p := interslice h w (fst b) (snd b) (d_wl d) (mo_dz mo) in
  match mo_prop_crop mo with
  | None => p
  | Some 0%nat => p
  | Some c => ifftshift2 h w (fun i j => if (Nat.ltb i c || Nat.ltb j c || Nat.leb (h - c) i || Nat.leb (w - c) j)%bool then RtoC 0 else fftshift2 h w p i j)
  end.
(** The model that is built, with the shape of its propagator. *)
Record ms_model := { mm_model : multislice; mm_h : nat; mm_w : nat }.
Definition ms_assemble (d : data) (mo : ms_options) (ch : ms_chance) (guess : img) (ws : weights) : ms_model :=
  let o := far_only (mo_common mo) in
  {| mm_model := {| ms_base := fancy_assemble d o {| rand_mode := rand_probe ch; rand_obj := rand_slice ch 0 |} guess ws;
                    ms_slices := map (ms_slice o ch) (seq 0 (mo_nz mo)); ms_interslice := ms_propagator d mo |};
     mm_h := d_h d; mm_w := d_w d |}.
(** 192-430.  With probe_shape, gaussian_probe is called without its argument sigma: TypeError.  t.stack of no
    slices is a RuntimeError. *)
Definition multislice_from_dataset (d : data) (mo : ms_options) (ch : ms_chance) : res ms_model :=
  match d_patterns d with
  | [] => Raise IndexError
  | _ => match mo_probe_shape mo with
         | Some _ => Raise TypeError
         | None => rbind (from_guess d (far_only (mo_common mo))) (fun guess =>
             if Nat.eqb (mo_nz mo) 0 then Raise RuntimeError
             else rbind (ms_weights d (mo_common mo)) (fun ws => Ok (ms_assemble d mo ch guess ws)))
         end
  end.
(** Simulating an exposure: near_field (tools/propagators/propagators.py 607-630) multiplies the spectrum of the
    wave, oversampling times the detector's shape, by the propagator of the detector's shape; other shapes than 1
    must agree.  (The check comes first here: the models that from_dataset builds have no earlier failure.) *)
Definition fit_propagator (N0 N1 h w : nat) (p : img) : res img :=
  if ((Nat.eqb N0 h || Nat.eqb h 1) && (Nat.eqb N1 w || Nat.eqb w 1))%bool then Ok (fun i j => p (pick h i) (pick w j)) else Raise RuntimeError.
Definition ms_simulate (mm : ms_model) (ix : index) (t : V3) : res rimg :=
  let ms := mm_model mm in let m := ms_base ms in
  rbind (fit_propagator (fancy_N0 m) (fancy_N1 m) (mm_h mm) (mm_w mm) (ms_interslice ms)) (fun p =>
  multislice_pattern {| ms_base := m; ms_slices := ms_slices ms; ms_interslice := p |} ix t).
