(** Specification vocabulary for MultislicePtycho.from_dataset (C76). *)
From Verif Require Import Base FinSum Fourier Model_Prop Spec_Prop Model_Geom Model_Models Model_Meas Model_Init Spec_Init Model_InitSlices.
From Coquelicot Require Import Complex.
Local Open Scope R_scope.

(** Options that fit together: those of FancyPtycho (one object plane), at least one slice, no probe_shape, and no
    density matrices for a dataset with recorded intensities. *)
Definition ms_sensible (d : data) (mo : ms_options) : Prop :=
  sensible d (far_only (mo_common mo)) /\ (1 <= mo_nz mo)%nat /\ mo_probe_shape mo = None /\
  (d_intensities d = None \/ op_dm_rank (mo_common mo) = None \/ op_dm_rank (mo_common mo) = Some 0%Z).
(** The weight of exposure k: 1, or its recorded intensity in units of the mean. *)
Definition ms_weight (d : data) (k : nat) (w : R) : Prop :=
  match d_intensities d with
  | None => w = 1
  | Some l => exists x, nth_error l k = Some x /\ w * (lsum l / INR (length l)) = x
  end.
(** The pixel sizes that from_dataset hands to the propagation between the slices: the x component of the second
    vector of the object basis for the first axis, the y component of the first for the second. *)
Definition slice_pixels (d : data) : R * R :=
  let b := exit_wave_geometry (d_b0 d) (d_b1 d) (d_h d) (d_w d) (d_wl d) (d_dist d) in (Rabs (vx (snd b)), Rabs (vy (fst b))).
(** Detector pixel (i, j) is the frequency of a wave that propagates on a grid of these pixels: its direction has
    a sine of at most 1. *)
Definition passes (d : data) (i j : nat) : Prop :=
  (d_wl d * IZR (off (d_h d) i) / (INR (d_h d) * fst (slice_pixels d))) ^ 2 + (d_wl d * IZR (off (d_w d) j) / (INR (d_w d) * snd (slice_pixels d))) ^ 2 <= 1.
(** The part of an n-pixel axis that propagator_fourier_crop keeps. *)
Definition spared (mo : ms_options) (n i : nat) : Prop := match mo_prop_crop mo with None => True | Some c => (c <= i < n - c)%nat end.
(** The defaults that matter for the starting point. *)
Definition plain_slices (o : options) : Prop := op_n_modes o = 1%nat /\ op_randomize o = 0 /\ op_radius o = None /\ op_simulate o = false.
