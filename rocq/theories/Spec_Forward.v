(** Specification vocabulary for the forward models. *)
From Verif Require Import Base FinSum Fourier Model_Prop Spec_Prop Model_Meas Spec_Interact Model_Geom Model_Models Model_Forward.
From Flocq Require Import Core.Raux.
From Coquelicot Require Import Complex.
Local Open Scope R_scope.

(** The centre pixels n//2 and N//2 coincide when n pixels are padded to N >= n with (N-n)//2 in front:
    always but for an odd n in an even N. *)
Definition centred_in (n N : nat) : Prop := (n <= N)%nat /\ (Nat.even n = true \/ Nat.even N = false).
(** The wave arriving at pixel (i, j) of an N0 x N1 grid that covers the field of view of the n0 x n1 image E
    (centre pixels coinciding), when E is displaced by (s0, s1) pixels of the N0 x N1 grid: the trigonometric
    interpolation of E at that point, scaled to keep the total power. *)
Definition illumination (n0 n1 N0 N1 : nat) (E : img) (s0 s1 : R) : img := fun i j =>
  (RtoC (sqrt (INR (n0 * n1) / INR (N0 * N1))) *
   trig_interp n0 n1 E ((IZR (off N0 i) - s0) * INR n0 / INR N0) ((IZR (off N1 j) - s1) * INR n1 / INR N1))%C.
(** The coherent modes of an exposure: mode k mixes the basis modes, restricted to the support, by row k of W. *)
Definition mixture (W : nat -> nat -> C) (support : nat -> nat -> bool) (basis : list img) (k : nat) : img := fun i j =>
  csum (length basis) (fun q => (W k q * (if support i j then nth q basis (fun _ _ => RtoC 0) i j else RtoC 0))%C).
(** The diagonal weights of exposures that share one stable illumination. *)
Definition diag (c : R) : nat -> nat -> C := fun k q => if Nat.eqb k q then RtoC c else RtoC 0.
(** Detector reading of a pixel: photons x times its quantum efficiency plus its background, at most the
    saturation level. *)
Definition reading (sat : option R) (qe : option rimg) (bg : rimg) (i j : nat) (x : R) : R :=
  let v := match qe with Some q => q i j | None => 1 end * x + bg i j ^ 2 in
  match sat with None => v | Some s => Rmin v s end.
(** Photons on detector pixel (i, j): the mean of the total power of the waves over its os x os block. *)
Definition photons (os : nat) (waves : list img) (i j : nat) : R :=
  lsum (map (fun x : img => rsum os (fun a => rsum os (fun b => nrm2 (x (os * i + a)%nat (os * j + b)%nat)))) waves) / INR (os * os).

(** ---- FancyPtycho ---- *)
(** The weights of an exposure: W mixes the basis modes into `rows` modes. *)
Definition coefficients (w : weights) (ix : index) (modes rows : nat) (W : nat -> nat -> C) : Prop :=
  match w with
  | NoWeights => ix = Listed (the ix) /\ rows = modes /\ W = diag 1
  | Scalars l => exists c, nth_error l (the ix) = Some c /\ rows = modes /\ W = diag c
  | Matrices r l => nth_error l (the ix) = Some W /\ rows = r
  end.
(** The position, in pixels of the object array, of an exposure at the real-space translation t. *)
Definition position (m : fancy) (ix : index) (t : V3) (pos : R * R) : Prop :=
  let p := translations_to_pixel (f_b0 m) (f_b1 m) (f_normal m) t in
  match f_offsets m with
  | None => pos = (fst p - fst (f_min m), snd p - snd (f_min m))
  | Some l => exists o, nth_error l (the ix) = Some o /\
      pos = (fst p - fst (f_min m) + f_scale m * fst o, snd p - snd (f_min m) + f_scale m * snd o)
  end.
(** Mode k of the exposure, on the probe's own grid, before the phase mask. *)
Definition shot (m : fancy) (W : nat -> nat -> C) (k : nat) : img :=
  let x := mixture W (f_support m) (f_probe m) k in
  if f_fourier m then inverse_far_field (f_n0 m) (f_n1 m) x else x.
(** What the stored object value o does to the wave. *)
Definition transmit (m : fancy) (o : C) : C :=
  if f_exp m then (if f_phase_only m then cis (fst o) else (RtoC (exp (- snd o)) * cis (fst o))%C) else o.
(** The exit wave of probe mode E over plane q of the object at position pos: the displaced illumination times
    the object window that starts at the whole-pixel part of pos; shifted back by the fractional part for
    near-field models. *)
Definition exit_wave (m : fancy) (E : img) (q : nat) (pos : R * R) : img :=
  let a := Zfloor (fst pos) in let b := Zfloor (snd pos) in
  let s0 := fst pos - IZR a in let s1 := snd pos - IZR b in
  let N0 := (f_os m * f_det0 m)%nat in let N1 := (f_os m * f_det1 m)%nat in
  let psi := fun i j => (RtoC (f_norm m) * (illumination (f_n0 m) (f_n1 m) N0 N1 E s0 s1 i j *
                         transmit m (f_obj m q (a + Z.of_nat i)%Z (b + Z.of_nat j)%Z)))%C in
  if f_near m then fun i j => trig_interp N0 N1 psi (IZR (off N0 i) + s0) (IZR (off N1 j) + s1) else psi.
(** The wave at the detector. *)
Definition at_detector (m : fancy) (x : img) : img :=
  let N0 := (f_os m * f_det0 m)%nat in let N1 := (f_os m * f_det1 m)%nat in
  match f_near m, f_propagator m with
  | true, Some p => near_field N0 N1 x p
  | _, _ => centred_ft N0 N1 x
  end.
Definition obj_planes (m : fancy) : nat := match f_obj_modes m with None => 1%nat | Some k => k end.
(** A model whose arrays fit together, for an exposure at position pos with `rows` modes. *)
Definition fits (m : fancy) (rows : nat) (pos : R * R) : Prop :=
  (0 < f_n0 m)%nat /\ (0 < f_n1 m)%nat /\ (0 < f_os m)%nat /\
  centred_in (f_n0 m) (f_os m * f_det0 m) /\ centred_in (f_n1 m) (f_os m * f_det1 m) /\
  inside (f_H m) (f_os m * f_det0 m) 0 (Zfloor (fst pos)) /\ inside (f_W m) (f_os m * f_det1 m) 0 (Zfloor (snd pos)) /\
  (1 <= rows)%nat /\ (1 <= obj_planes m)%nat /\ (obj_planes m = 1 \/ rows = 1 \/ obj_planes m = rows)%nat /\
  (f_near m = true -> f_propagator m <> None).
(** Probe mode and object plane of wave k: a single one is used for every wave. *)
Definition sel (n k : nat) : nat := match n with 1%nat => 0%nat | _ => k end.
Definition exits (m : fancy) (E : nat -> img) (rows : nat) (pos : R * R) : list img :=
  map (fun k => exit_wave m (E (sel rows k)) (sel (obj_planes m) k) pos) (seq 0 (Nat.max rows (obj_planes m))).
(** The same model with another probe, weights, minimum translation or object. *)
Definition remake (m : fancy) (probe : list img) (w : weights) (mn : R * R) (obj : nat -> Z -> Z -> C) : fancy :=
  {| f_b0 := f_b0 m; f_b1 := f_b1 m; f_normal := f_normal m; f_min := mn; f_scale := f_scale m; f_offsets := f_offsets m;
     f_n0 := f_n0 m; f_n1 := f_n1 m; f_probe := probe; f_support := f_support m; f_norm := f_norm m; f_fourier := f_fourier m;
     f_weights := w; f_simulate := f_simulate m; f_shifts := f_shifts m; f_d0 := f_d0 m; f_d1 := f_d1 m; f_os := f_os m;
     f_det0 := f_det0 m; f_det1 := f_det1 m; f_background := f_background m; f_qe := f_qe m; f_saturation := f_saturation m;
     f_H := f_H m; f_W := f_W m; f_obj_modes := f_obj_modes m; f_obj := obj; f_exp := f_exp m; f_phase_only := f_phase_only m;
     f_near := f_near m; f_propagator := f_propagator m |}.
(** Two results that agree on the n0 x n1 detector. *)
Definition same_pattern (n0 n1 : nat) (r r' : res rimg) : Prop :=
  exists x y, r = Ok x /\ r' = Ok y /\ forall i j, (i < n0)%nat -> (j < n1)%nat -> x i j = y i j.
(** The weight matrix U W. *)
Definition mixed_weights (n : nat) (U W : nat -> nat -> C) : nat -> nat -> C := fun k q => csum n (fun p => (U k p * W p q)%C).
(** Total photons of the incident modes used by the waves of an exposure. *)
Definition incident (m : fancy) (W : nat -> nat -> C) (rows : nat) : R :=
  f_norm m ^ 2 * lsum (map (fun k => energy (f_n0 m) (f_n1 m) (mixture W (f_support m) (f_probe m) (sel rows k))) (seq 0 (Nat.max rows (obj_planes m)))).
(** The shift, in detector pixels, asked for an exposure: its entry of probe_fourier_shifts and, with
    simulate_probe_translation, the sample translation seen on the detector. *)
Definition asked_shift (m : fancy) (i : nat) (t : V3) (d : R * R) : Prop :=
  exists l x, f_shifts m = Some l /\ nth_error l i = Some x /\
  let s := translations_to_pixel (f_d0 m) (f_d1 m) (f_normal m) t in
  d = if f_simulate m then (fst x + fst s, snd x + snd s) else x.
(** Probe modes with the phase ramp of a detector shift of d pixels, as the code builds it. *)
Definition ramped (m : fancy) (d : R * R) (E : nat -> img) : nat -> img := fun k i j =>
  (E k i j * cis (2 * PI * INR (f_os m) * (fst d * INR i / INR (f_n0 m - 1) + snd d * INR j / INR (f_n1 m - 1))))%C.

(** ---- MultislicePtycho ---- *)
(** A multislice model whose arrays fit together at position pos. *)
Definition ms_fits (m : fancy) (pos : R * R) : Prop :=
  (0 < f_n0 m)%nat /\ (0 < f_n1 m)%nat /\ (0 < f_os m)%nat /\
  centred_in (f_n0 m) (f_os m * f_det0 m) /\ centred_in (f_n1 m) (f_os m * f_det1 m) /\
  inside (f_H m) (f_os m * f_det0 m) 0 (Zfloor (fst pos)) /\ inside (f_W m) (f_os m * f_det1 m) 0 (Zfloor (snd pos)).
Definition slice_transmit (m : fancy) (o : C) : C := if f_exp m then (RtoC (exp (- snd o)) * cis (fst o))%C else o.
(** What a slice does to the wave x: displaced by the fractional part of the position, times what the window of
    the slice at the whole-pixel part transmits, then free propagation (near_field, see C26) by p. *)
Definition slice_step (m : fancy) (p : img) (pos : R * R) (x : img) (o : Z -> Z -> C) : img :=
  let a := Zfloor (fst pos) in let b := Zfloor (snd pos) in
  let N0 := (f_os m * f_det0 m)%nat in let N1 := (f_os m * f_det1 m)%nat in
  near_field N0 N1 (fun i j => (trig_interp N0 N1 x (IZR (off N0 i) - (fst pos - IZR a)) (IZR (off N1 j) - (snd pos - IZR b)) *
                                slice_transmit m (o (a + Z.of_nat i)%Z (b + Z.of_nat j)%Z))%C) p.
Definition sliced (m : fancy) (p : img) (slices : list (Z -> Z -> C)) (pos : R * R) (E : img) : img :=
  fold_left (slice_step m p pos) slices
    (fun i j => (RtoC (f_norm m) * illumination (f_n0 m) (f_n1 m) (f_os m * f_det0 m) (f_os m * f_det1 m) E 0 0 i j)%C).
(** The probe modes of an exposure: with simulate_probe_translation (for a list of indices) the modes get the
    phase ramp of the sample translation in detector pixels. *)
Definition ms_modes (m : fancy) (ix : index) (t : V3) (W : nat -> nat -> C) (E : nat -> img) : Prop :=
  if f_simulate m then ix = Listed (the ix) /\ E = ramped m (translations_to_pixel (f_d0 m) (f_d1 m) (f_normal m) t) (shot m W)
  else E = shot m W.

(** ---- SimplePtycho ---- *)
(** The exit wave over the object window that starts at pixel (a, b). *)
Definition simple_exit (m : simple) (a b : Z) : img := fun i j =>
  (RtoC (s_norm m) * s_probe m i j * s_obj m (a + Z.of_nat i)%Z (b + Z.of_nat j)%Z)%C.

(** ---- RPI ---- *)
(** Object mode q: the stored values, transmitted and cut to the support. *)
Definition rpi_object (m : rpi) (q : nat) : img := fun i j =>
  let o := nth q (r_obj m) (fun _ _ => RtoC 0) i j in
  (RtoC (r_support m i j) * (if r_exp m then (if r_phase_only m then cis (fst o) else RtoC (exp (- snd o)) * cis (fst o)) else o))%C.
(** Probe mode k: row k of the weight matrix applied to the stored modes. *)
Definition rpi_probe (m : rpi) (k : nat) : img := fun i j =>
  csum (length (r_probe m)) (fun q => (r_weights m k q * nth q (r_probe m) (fun _ _ => RtoC 0) i j)%C).
(** The exit wave of probe mode k and object mode q: the object's trigonometric interpolation on the probe's
    finer grid of the same extent (centre pixels coinciding) times the probe. *)
Definition rpi_exit (m : rpi) (k q : nat) : img := fun i j =>
  (rpi_probe m k i j * trig_interp (r_o0 m) (r_o1 m) (rpi_object m q)
     (IZR (off (r_n0 m) i) * INR (r_o0 m) / INR (r_n0 m)) (IZR (off (r_n1 m) j) * INR (r_o1 m) / INR (r_n1 m)))%C.

(** ---- Bragg2DPtycho ---- *)
(** The position (in pixels of the object array) and the propagation distance of an exposure: the point of the
    sample plane reached from the translation t by travelling d along the beam. *)
Definition bragg_place (m : bragg) (i : nat) (t : V3) (pos : R * R) (dist : R) : Prop :=
  exists p d, vadd (vscale (fst p) (g_b0 m)) (vscale (snd p) (g_b1 m)) = vadd t (vscale d (0, 0, 1)) /\ dist = d - g_median m /\
  match g_offsets m with
  | None => pos = (fst p - fst (g_min m), snd p - snd (g_min m))
  | Some l => exists o, nth_error l i = Some o /\
      pos = (fst p - fst (g_min m) + g_scale m * fst o, snd p - snd (g_min m) + g_scale m * snd o)
  end.
(** A model whose arrays fit together, the sample plane not containing the beam. *)
Definition bragg_fits (m : bragg) (pos : R * R) : Prop :=
  (0 < g_n0 m)%nat /\ (0 < g_n1 m)%nat /\ (0 < g_os m)%nat /\
  centred_in (g_n0 m) (g_os m * g_det0 m) /\ centred_in (g_n1 m) (g_os m * g_det1 m) /\
  inside (g_H m) (g_os m * g_det0 m) 0 (Zfloor (fst pos)) /\ inside (g_W m) (g_os m * g_det1 m) 0 (Zfloor (snd pos)) /\
  vz (vcross (g_b0 m) (g_b1 m)) <> 0.
(** Probe mode k, weighted and restricted to its support. *)
Definition bragg_shot (m : bragg) (c : R) (k : nat) : img := fun i j =>
  (RtoC c * (if g_support m i j then nth k (g_probe m) (fun _ _ => RtoC 0) i j else RtoC 0))%C.
(** The probe where it meets the sample, dist farther along the beam. *)
Definition bragg_probe (m : bragg) (P : img) (c : R) (k : nat) : img :=
  if g_propagate m then near_field (g_n0 m) (g_n1 m) (bragg_shot m c k) P else bragg_shot m c k.
Definition bragg_exit (m : bragg) (E : img) (pos : R * R) : img := fun i j =>
  let a := Zfloor (fst pos) in let b := Zfloor (snd pos) in
  (RtoC (g_norm m) * (illumination (g_n0 m) (g_n1 m) (g_os m * g_det0 m) (g_os m * g_det1 m) E (fst pos - IZR a) (snd pos - IZR b) i j *
   g_obj m (a + Z.of_nat i)%Z (b + Z.of_nat j)%Z))%C.
