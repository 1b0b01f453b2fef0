(** Specification vocabulary for RPI.from_dataset, from_calibration and init_obj (C79). *)
From Verif Require Import Base FinSum Fourier Model_Prop Spec_Prop Spec_Interact Model_Meas Model_Models Model_Forward Spec_Forward Model_Init Model_InitRPI.
From Coquelicot Require Import Complex.
Local Open Scope R_scope.

(** The amplitude of all modes of a probe together. *)
Definition total_amplitude (probe : list img) : img := fun i j => RtoC (sqrt (lsum (map (fun p : img => nrm2 (p i j)) probe))).
(** x, an o0 x o1 image, has the Fourier components of the n0 x n1 image A in the o0 x o1 window that starts at
    pixel (s0, s1) of its centred spectrum. *)
Definition band_of (n0 n1 o0 o1 s0 s1 : nat) (A x : img) : Prop := forall u v, (u < o0)%nat -> (v < o1)%nat ->
  centred_ft o0 o1 x u v = centred_ft n0 n1 A (s0 + u)%nat (s1 + v)%nat.
(** M is the largest modulus in x. *)
Definition peak (n m : nat) (x : img) (M : R) : Prop :=
  (forall a b, (a < n)%nat -> (b < m)%nat -> Cmod (x a b) <= M) /\ exists a b, (a < n)%nat /\ (b < m)%nat /\ Cmod (x a b) = M.
(** (i, j) is (u, v) or one of the four pixels next to it. *)
Definition adjacent (i j u v : nat) : Prop := (Z.abs (Z.of_nat i - Z.of_nat u) + Z.abs (Z.of_nat j - Z.of_nat v) <= 1)%Z.
(** The support a probe gives: the pixels where x exceeds the fraction t of its peak, and their neighbours. *)
Definition lit_support (n m : nat) (x : img) (t : R) (i j : nat) : Prop :=
  exists M u v, peak n m x M /\ (u < n)%nat /\ (v < m)%nat /\ adjacent i j u v /\ M * t < Cmod (x u v).

(** Sizes that fit together: the probe covers the oversampled detector, and the object array is smaller. *)
Definition rpi_fits (d : data) (n0 n1 : nat) (o : rpi_options) (o0 o1 : nat) : Prop :=
  d_patterns d <> [] /\ (0 < d_h d)%nat /\ (0 < d_w d)%nat /\ (0 < ro_os o)%nat /\ n0 = (ro_os o * d_h d)%nat /\ n1 = (ro_os o * d_w d)%nat /\
  (match ro_size o with Some s => s = (o0, o1) | None => o0 = (n0 / 2)%nat /\ o1 = (n1 / 2)%nat end) /\ (0 < o0 < n0)%nat /\ (0 < o1 < n1)%nat.
(** The transmission that an initialisation asks for, in object mode q. *)
Definition start_object (name : string) (ch : rpi_chance) (q : nat) (T : img) : Prop :=
  (name = "random"%string /\ T = fun i j => cis (2 * PI * rc_rand ch q i j)) \/ (name = "uniform"%string /\ T = fun _ _ => RtoC 1).
(** The background the simulation adds (as its root): that given, else that of the dataset, else 1e-6. *)
Definition rpi_background (d : data) (o : rpi_options) : rimg := fun i j =>
  match ro_background o with Some b => sqrt (b i j) | None => match d_background d with Some b => sqrt (b i j) | None => / 10 ^ 6 end end.
(** The exit wave of a probe mode behind an object of transmission T on a coarser grid of the same extent: T is
    interpolated trigonometrically, centre pixels coinciding. *)
Definition behind (n0 n1 o0 o1 : nat) (P T : img) : img := fun i j =>
  (P i j * trig_interp o0 o1 T (IZR (off n0 i) * INR o0 / INR n0) (IZR (off n1 j) * INR o1 / INR n1))%C.
(** The photons on detector pixel (i, j): every probe mode behind every one of M objects, incoherently. *)
Definition rpi_photons (os n0 n1 o0 o1 : nat) (probe : list img) (M : nat) (T : nat -> img) (i j : nat) : R :=
  lsum (map (fun P => lsum (map (fun q => photons os [centred_ft n0 n1 (behind n0 n1 o0 o1 P (T q))] i j) (seq 0 M))) probe).
(** A model simulates batches of b patterns of h x w pixels showing f. *)
Definition shows (m : rpi_model) (b h w : nat) (f : nat -> nat -> R) : Prop :=
  exists r, rpi_simulate m b = Ok (b, h, w, r) /\ forall i j, (i < h)%nat -> (j < w)%nat -> r i j = f i j.
(** S is the support that a probe gives at threshold t: 1 in lit_support, 0 elsewhere, where x is the total amplitude
    of the probe seen through the window of its spectrum that starts (n - o) / 2 pixels from its edge. *)
Definition support_from (n0 n1 o0 o1 : nat) (probe : list img) (t : R) (S : nat -> nat -> R) : Prop :=
  exists x, band_of n0 n1 o0 o1 ((n0 - o0) / 2) ((n1 - o1) / 2) (total_amplitude probe) x /\
  forall i j, (i < o0)%nat -> (j < o1)%nat -> (lit_support o0 o1 x t i j -> S i j = 1) /\ (~ lit_support o0 o1 x t i j -> S i j = 0).
(** What RPI.from_calibration reads of the results a FancyPtycho saves (fancy_ptycho.py save_results): the object
    grid, the probe in photons, the background, not its root. *)
Definition saved (m : fancy) (wl : R) : calibration :=
  {| cal_wl := wl; cal_b0 := f_b0 m; cal_b1 := f_b1 m; cal_n0 := f_n0 m; cal_n1 := f_n1 m;
     cal_probe := map (fun (p : img) i j => (p i j * RtoC (f_norm m))%C) (f_probe m); cal_background := Some (fun i j => f_background m i j ^ 2) |}.
