(** Specification vocabulary for the initial guesses (C74, C75). *)
From Verif Require Import Base FinSum Fourier Model_Prop Spec_Prop Model_Meas Model_Models Model_Init.
From Coquelicot Require Import Complex.
Local Open Scope R_scope.

(** The pattern that the data show on average at pixel (i, j), 0 where the mask is off ... *)
Definition average (d : data) (i j : nat) : R :=
  lsum (map (fun im : rimg => if d_mask d i j then im i j else 0) (d_patterns d)) / INR (length (d_patterns d)).
(** ... and the part of it that is not background. *)
Definition signal (d : data) (i j : nat) : R :=
  match d_background d with None => average d i j | Some b => Rmax 0 (average d i j - b i j) end.
(** The sum over an n x m detector. *)
Definition total_of (n m : nat) (x : nat -> nat -> R) : R := rsum n (fun i => rsum m (fun j => x i j)).
(** A dataset with something to start from: it has patterns, a detector with two directions, and no pixel whose
    average is negative. *)
Definition usable (d : data) : Prop :=
  d_patterns d <> [] /\ (0 < d_h d)%nat /\ (0 < d_w d)%nat /\ 0 < d_wl d /\ 0 < d_dist d /\ vlen (d_b0 d) <> 0 /\ vlen (d_b1 d) <> 0 /\
  forall i j, (i < d_h d)%nat -> (j < d_w d)%nat -> 0 <= signal d i j.
(** Pixel (k, l) of an n x m detector lies within 45 degrees of its centre, seen from the sample. *)
Definition within_45_degrees (d : data) (n m k l : nat) : Prop :=
  (IZR (off n k) * vlen (d_b0 d)) ^ 2 + (IZR (off m l) * vlen (d_b1 d)) ^ 2 <= d_dist d ^ 2.
(** Complex width of a Gaussian beam of width sigma at its focus: sigma^2 - i z / k. *)
Definition beam_width (wl sigma z : R) : C := (sigma ^ 2, - z / (2 * PI / wl)).
(** Distance of index i from the middle of n pixels of size p. *)
Definition from_middle (n : nat) (p : R) (i : nat) : R := p * (INR i - (INR n - 1) / 2).
(** Mean of the summed patterns. *)
Definition mean_total (d : data) : R :=
  lsum (map (fun im : rimg => total_of (d_h d) (d_w d) im) (d_patterns d)) / INR (length (d_patterns d)).
(** Seen from the sample, pixel (i, j) of a detector with pixels os times smaller lies within the cone of half-angle a (mrad) around
    the beam axis, when the axis meets the detector at the point c (in pixels). *)
Definition in_cone (d : data) (os : nat) (c : R * R) (a : R) (i j : nat) : Prop :=
  let r := vadd (0, 0, d_dist d) (vscale (/ INR os) (vadd (vscale (INR i - fst c) (d_b0 d)) (vscale (INR j - snd c) (d_b1 d)))) in
  acos (vz r / vlen r) * 1000 < a.
(** The mean of the patterns, without mask, and its centre of mass. *)
Definition plain_average (d : data) (i j : nat) : R := lsum (map (fun im : rimg => im i j) (d_patterns d)) / INR (length (d_patterns d)).
Definition centre_of_mass (d : data) (c : R * R) : Prop :=
  fst c * total_of (d_h d) (d_w d) (plain_average d) = total_of (d_h d) (d_w d) (fun i j => plain_average d i j * INR i) /\
  snd c * total_of (d_h d) (d_w d) (plain_average d) = total_of (d_h d) (d_w d) (fun i j => plain_average d i j * INR j).

(** ---- from_dataset ---- *)
(** The number of waves the options ask for: one per probe mode, or per row of the density matrices. *)
Definition modes_used (o : options) : nat :=
  match op_dm_rank o with
  | None => op_n_modes o
  | Some r => if (r =? 0)%Z || (r =? -1)%Z then op_n_modes o else Z.to_nat r
  end%bool.
(** Options that fit together and a dataset whose lists have one entry per exposure. *)
Definition sensible (d : data) (o : options) : Prop :=
  length (d_translations d) = length (d_patterns d) /\ (forall l, d_intensities d = Some l -> length l = length (d_patterns d) /\ forall x, In x l -> 0 < x) /\
  (0 < op_os o)%nat /\ (forall c, op_crop o = Some c -> 2 * c < op_os o * d_h d /\ 2 * c < op_os o * d_w d)%nat /\
  (1 <= op_n_modes o)%nat /\ op_scale o <> 0 /\ (forall r, op_dm_rank o = Some r -> (r = -1 \/ 0 <= r <= Z.of_nat (op_n_modes o))%Z) /\
  (op_planes o <= 1 \/ modes_used o = 1 \/ op_planes o = modes_used o)%nat.
(** The weight of exposure k: 1, or the root of its recorded intensity in units of the mean root. *)
Definition shot_weight (d : data) (k : nat) (w : R) : Prop :=
  match d_intensities d with
  | None => w = 1
  | Some l => exists x, nth_error l k = Some x /\ w * (lsum (map sqrt l) / INR (length l)) = sqrt x
  end.
(** What the simulation adds to the photons as background: that of the dataset, or 10^-12. *)
Definition start_background (d : data) : rimg := fun i j => match d_background d with Some b => sqrt (b i j) | None => / 10 ^ 6 end.
Definition start_qe (d : data) (o : options) : option rimg :=
  if op_qe o then Some (match d_qe d with Some q => q | None => fun _ _ => 1 end) else None.
(** The defaults that matter for the starting point: one probe mode, one object plane without random phases, no
    support, no phase ramps. *)
Definition plain_start (o : options) : Prop :=
  op_n_modes o = 1%nat /\ (op_planes o <= 1)%nat /\ op_randomize o = 0 /\ op_radius o = None /\ op_shifts o = false /\ op_simulate o = false.
(** The part of an n-pixel axis that probe_fourier_crop keeps. *)
Definition kept (o : options) (n i : nat) : Prop := match op_crop o with None => True | Some c => (c <= i < n - c)%nat end.
(** A pixel whose spectral component survives the propagation of the guess: every one without a propagation
    distance, else those within 45 degrees. *)
Definition lit (d : data) (o : options) (i j : nat) : Prop := op_pd o = None \/ within_45_degrees d (d_h d) (d_w d) i j.
(** Near field: no frequency of the object grid, or of that of the guess, is evanescent. *)
Definition no_evanescent (d : data) (o : options) : Prop := op_near o = true ->
  let '(b0, b1, z) := near_geometry (d_b0 d) (d_b1 d) (d_dist d) (op_os o) (op_pd o) in
  (forall k l, (k < d_h d * op_os o)%nat -> (l < d_w d * op_os o)%nat -> Cmod (gen_propagator (d_h d * op_os o) (d_w d * op_os o) b0 b1 (d_wl d) (0, 0, z) None k l) = 1) /\
  (forall k l, (k < d_h d)%nat -> (l < d_w d)%nat -> Cmod (gen_propagator (d_h d) (d_w d) b0 b1 (d_wl d) (0, 0, z) None k l) = 1).
