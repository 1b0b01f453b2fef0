(** Model of the complete forward models, forward = measurement o forward_propagator o interaction
    (models/base.py 98-108), of SimplePtycho, FancyPtycho, MultislicePtycho, Bragg2DPtycho and RPI, for one
    exposure: the code maps over the exposures of a batch.  Exact real and complex arithmetic;
    simulate_finite_pixels=False. *)
From Verif Require Import Base FinSum Fourier Model_Prop Model_Image Model_Interact Model_Meas Model_Geom Model_Models.
From Coquelicot Require Import Complex.
Local Open Scope R_scope.

(** epsilon=1e-7, the default of intensity and quadratic_background (measurements.py 20, 158). *)
Definition eps : R := / 10 ^ 7.
(** An entry of a per-exposure tensor: x[index]; IndexError beyond its end (negative indices are not modelled). *)
Definition entry {A} (l : list A) (i : nat) : res A := match nth_error l i with Some x => Ok x | None => Raise IndexError end.
(** Mixing object windows whose shape differs from the probe's is an error of torch (shapes (P,) and fewer). *)
Definition need {A} (o : option A) : res A := match o with Some x => Ok x | None => Raise RuntimeError end.
(** All results or the first error, in order. *)
Fixpoint all_ok {A} (l : list (res A)) : res (list A) :=
  match l with [] => Ok [] | r :: l => rbind r (fun x => rbind (all_ok l) (fun xs => Ok (x :: xs))) end.
Definition scale_img (c : R) (x : img) : img := fun i j => (RtoC c * x i j)%C.
(** tensor * boolean tensor *)
Definition restrict (s : nat -> nat -> bool) (x : img) : img := fun i j => if s i j then x i j else RtoC 0.

(** ---- steps shared by FancyPtycho, MultislicePtycho and Bragg2DPtycho ---- *)
(** The `weights` attribute: None, one real number per exposure, or one rows x modes complex matrix per
    exposure (fancy_ptycho.py 163-176). *)
Inductive weights := NoWeights | Scalars (l : list R) | Matrices (rows : nat) (l : list (nat -> nat -> C)).
(** How the exposure is asked for: an int, or an entry of a list of indices. *)
Inductive index := Alone (i : nat) | Listed (i : nat).
Definition the (i : index) : nat := match i with Alone i | Listed i => i end.
(** fancy_ptycho.py 569-588 (multislice_ptycho.py 459-478): the modes of one exposure.  With weights=None an
    int has no len(), Ws becomes the int 1 and 1[..., None, None, None] is a TypeError. *)
Definition shot_modes (w : weights) (ix : index) (basis : list img) : res (list img) :=
  match w with
  | NoWeights => match ix with Alone _ => Raise TypeError | Listed _ => Ok (map (scale_img 1) basis) end
  | Scalars l => rbind (entry l (the ix)) (fun c => Ok (map (scale_img c) basis))
  | Matrices rows l => rbind (entry l (the ix)) (fun W =>
      Ok (map (fun k => fun i j => csum (length basis) (fun q => W k q * nth q basis (fun _ _ => RtoC 0) i j)%C) (seq 0 rows)))
  end.
(** I_phase, J_phase (fancy_ptycho.py 196-204): 2 pi (i / (n - 1)) oversampling. *)
Definition ramp_phase (n os i : nat) : R := 2 * PI * (INR i / INR (n - 1)) * INR os.
Definition probe_mask (n0 n1 os : nat) (d : R * R) : img := fun i j =>
  cis (fst d * ramp_phase n0 os i + snd d * ramp_phase n1 os j).
(** t.nn.functional.pad by p//2 in front and p - p//2 behind, p = N - n (negative p removes pixels). *)
Definition pad_axis (n N : nat) (i : nat) : option nat :=
  let k := (Z.of_nat i - (Z.of_nat N - Z.of_nat n) / 2)%Z in
  if ((0 <=? k) && (k <? Z.of_nat n))%Z%bool then Some (Z.to_nat k) else None.
Definition pad_img (n0 n1 N0 N1 : nat) (x : img) : img := fun i j =>
  match pad_axis n0 N0 i, pad_axis n1 N1 j with Some a, Some b => x a b | _, _ => RtoC 0 end.
(** fancy_ptycho.py 612-620 (multislice_ptycho.py 492-503, bragg_2d_ptycho.py 510-531). *)
Definition fourier_pad (n0 n1 N0 N1 : nat) (x : img) : img :=
  if (Nat.eqb n0 N0 && Nat.eqb n1 N1)%bool then x
  else inverse_far_field N0 N1 (pad_img n0 n1 N0 N1 (far_field n0 n1 x)).
(** exponentiate_obj and phase_only (623-629). *)
Definition transmission (expo phase_only : bool) (o : C) : C :=
  if expo then (if phase_only then cexp (Ci * RtoC (fst o))%C else cexp (Ci * o)%C) else o.
(** Broadcasting of two mode dimensions: the common length, and the entry used of a dimension of length n. *)
Definition bcast (a b : nat) : res nat :=
  if Nat.eqb a b then Ok a else if Nat.eqb a 1 then Ok b else if Nat.eqb b 1 then Ok a else Raise RuntimeError.
Definition pick (n k : nat) : nat := if Nat.eqb n 1 then 0%nat else k.
Definition no_img : img := fun _ _ => RtoC 0.

(** ---- SimplePtycho (simple_ptycho.py 87-109) ---- *)
Record simple := {
  s_b0 : V3; s_b1 : V3; s_min : R * R; s_norm : R;
  s_n0 : nat; s_n1 : nat; s_probe : img; s_H : Z; s_W : Z; s_obj : Z -> Z -> C }.
Definition simple_interaction (m : simple) (t : V3) : res img :=
  let p := psub2 (translations_to_pixel (s_b0 m) (s_b1 m) ez t) (s_min m) in
  need (ptycho_2D_round (s_H m) (s_W m) (s_obj m) (s_n0 m) (s_n1 m) (scale_img (s_norm m) (s_probe m)) p).
Definition simple_pattern (m : simple) (t : V3) : res rimg :=
  rmap (fun w => intensity {| o_slice := None; o_eps := eps; o_sat := None; o_over := 1 |} (far_field (s_n0 m) (s_n1 m) w))
    (simple_interaction m t).

(** ---- FancyPtycho (fancy_ptycho.py 544-674) ---- *)
Record fancy := {
  f_b0 : V3; f_b1 : V3; f_normal : V3; f_min : R * R;             (* obj_basis, surface_normal, min_translation *)
  f_scale : R; f_offsets : option (list (R * R));                  (* translation_scale, translation_offsets *)
  f_n0 : nat; f_n1 : nat; f_probe : list img; f_support : nat -> nat -> bool; f_norm : R;
  f_fourier : bool; f_weights : weights;
  f_simulate : bool; f_shifts : option (list (R * R)); f_d0 : V3; f_d1 : V3;  (* simulate_probe_translation, probe_fourier_shifts, det_basis *)
  f_os : nat; f_det0 : nat; f_det1 : nat; f_background : rimg;     (* oversampling; shape of the background *)
  f_qe : option rimg; f_saturation : option R;
  f_H : Z; f_W : Z; f_obj_modes : option nat; f_obj : nat -> Z -> Z -> C;  (* None: obj is a 2-D array, plane 0 *)
  f_exp : bool; f_phase_only : bool; f_near : bool; f_propagator : option img }.
(** 547-559: see fancy_pix. *)
Definition fancy_position (m : fancy) (ix : index) (t : V3) : res (R * R) :=
  match f_offsets m with
  | None => Ok (fancy_pix (f_b0 m) (f_b1 m) (f_normal m) (f_min m) (f_scale m) None t)
  | Some l => rbind (entry l (the ix)) (fun o =>
      Ok (fancy_pix (f_b0 m) (f_b1 m) (f_normal m) (f_min m) (f_scale m) (Some o) t))
  end.
(** 562-566 *)
Definition fancy_basis (m : fancy) : list img :=
  map (fun p => let p := restrict (f_support m) p in if f_fourier m then inverse_far_field (f_n0 m) (f_n1 m) p else p) (f_probe m).
(** 590-606: the phase mask.  Without probe_fourier_shifts, det_pix_trans starts as zeros_like(translations),
    which has three columns, and cannot be added to the two columns of pixel coordinates: RuntimeError (for
    an int index too: shapes (3,) and (2,)).  With an int index the indexing [:, 0] of a vector is an IndexError. *)
Definition fancy_mask (m : fancy) (ix : index) (t : V3) : res (option img) :=
  let sim := translations_to_pixel (f_d0 m) (f_d1 m) (f_normal m) t in
  match f_shifts m with
  | None => if f_simulate m then Raise RuntimeError else Ok None
  | Some l => rbind (entry l (the ix)) (fun d =>
      match ix with
      | Alone _ => Raise IndexError
      | Listed _ => Ok (Some (probe_mask (f_n0 m) (f_n1 m) (f_os m) (if f_simulate m then padd2 d sim else d)))
      end)
  end.
(** Shape of the wavefields. *)
Definition fancy_N0 (m : fancy) : nat := f_os m * f_det0 m.
Definition fancy_N1 (m : fancy) : nat := f_os m * f_det1 m.
(** 544-642 *)
Definition fancy_interaction (m : fancy) (ix : index) (t : V3) : res (list img) :=
  rbind (fancy_position m ix t) (fun pos =>
  rbind (shot_modes (f_weights m) ix (fancy_basis m)) (fun prs =>
  rbind (fancy_mask m ix t) (fun mask =>
  let prs := match mask with None => prs | Some k => map (fun p => times_img p k) prs end in
  let N0 := fancy_N0 m in let N1 := fancy_N1 m in
  let prs := map (fourier_pad (f_n0 m) (f_n1 m) N0 N1) prs in
  let obj := fun q a b => transmission (f_exp m) (f_phase_only m) (f_obj m q a b) in
  let planes := match f_obj_modes m with None => 1%nat | Some k => k end in
  rbind (bcast (length prs) planes) (fun K =>
  all_ok (map (fun k =>
    rmap (scale_img (f_norm m))
      (need (ptycho_2D_sinc (f_H m) (f_W m) (obj (pick planes k)) N0 N1 (nth (pick (length prs) k) prs no_img) pos (f_near m))))
    (seq 0 K)))))).
(** 645-651 *)
Definition fancy_propagate (m : fancy) (w : img) : res img :=
  if f_near m then match f_propagator m with Some p => Ok (near_field (fancy_N0 m) (fancy_N1 m) w p) | None => Raise TypeError end
  else Ok (far_field (fancy_N0 m) (fancy_N1 m) w).
(** 663-674 *)
Definition fancy_measure (m : fancy) (ws : list img) : rimg :=
  quadratic_background {| o_slice := None; o_eps := eps; o_sat := f_saturation m; o_over := f_os m |} ws (f_background m) (f_qe m).
(** base.py 98-108 *)
Definition fancy_pattern (m : fancy) (ix : index) (t : V3) : res rimg :=
  rbind (fancy_interaction m ix t) (fun ws => rbind (all_ok (map (fancy_propagate m) ws)) (fun ps => Ok (fancy_measure m ps))).

(** ---- MultislicePtycho (multislice_ptycho.py 432-552) ---- *)
(** The fields it shares with FancyPtycho are taken from a [fancy] record (its probe_fourier_shifts, qe_mask,
    phase_only, near_field and propagator are not used); [ms_slices] are the planes of the object,
    [ms_interslice] the propagator between them. *)
Record multislice := { ms_base : fancy; ms_slices : list (Z -> Z -> C); ms_interslice : img }.
(** 480-490 *)
Definition multislice_mask (m : fancy) (ix : index) (t : V3) : res (option img) :=
  if f_simulate m then
    match ix with
    | Alone _ => Raise IndexError
    | Listed _ => Ok (Some (probe_mask (f_n0 m) (f_n1 m) (f_os m) (translations_to_pixel (f_d0 m) (f_d1 m) (f_normal m) t)))
    end
  else Ok None.
(** 505-522: `idx <= self.obj.shape[0] - 1` holds for every idx, so the wave is propagated after the last
    slice too. *)
Fixpoint through_slices (H W : Z) (N0 N1 : nat) (prop : img) (pos : R * R) (slices : list (Z -> Z -> C)) (w : img) : res img :=
  match slices with
  | [] => Ok w
  | o :: rest => rbind (need (ptycho_2D_sinc H W o N0 N1 w pos false)) (fun w =>
      through_slices H W N0 N1 prop pos rest (near_field N0 N1 w prop))
  end.
Definition multislice_interaction (ms : multislice) (ix : index) (t : V3) : res (list img) :=
  let m := ms_base ms in
  rbind (fancy_position m ix t) (fun pos =>
  rbind (shot_modes (f_weights m) ix (fancy_basis m)) (fun prs =>
  rbind (multislice_mask m ix t) (fun mask =>
  let prs := match mask with None => prs | Some k => map (fun p => times_img p k) prs end in
  let N0 := fancy_N0 m in let N1 := fancy_N1 m in
  let prs := map (fourier_pad (f_n0 m) (f_n1 m) N0 N1) prs in
  let slices := map (fun o a b => transmission (f_exp m) false (o a b)) (ms_slices ms) in
  all_ok (map (fun p => through_slices (f_H m) (f_W m) N0 N1 (ms_interslice ms) pos slices (scale_img (f_norm m) p)) prs)))).
Definition multislice_pattern (ms : multislice) (ix : index) (t : V3) : res rimg :=
  let m := ms_base ms in
  rmap (fun ws => quadratic_background {| o_slice := None; o_eps := eps; o_sat := f_saturation m; o_over := f_os m |}
                    (map (far_field (fancy_N0 m) (fancy_N1 m)) ws) (f_background m) None)
    (multislice_interaction ms ix t).

(** ---- RPI (rpi.py 485-551) ---- *)
(** Probe: modes of shape n0 x n1; object: modes of shape o0 x o1 with obj_support; weights: modes x modes. *)
Record rpi := {
  r_n0 : nat; r_n1 : nat; r_probe : list img; r_weights : nat -> nat -> C;
  r_o0 : nat; r_o1 : nat; r_obj : list img; r_support : nat -> nat -> R;
  r_exp : bool; r_phase_only : bool; r_os : nat; r_background : rimg; r_saturation : option R }.
Definition rpi_interaction (m : rpi) : list img :=
  let prs := map (fun k => fun i j => csum (length (r_probe m)) (fun q => r_weights m k q * nth q (r_probe m) no_img i j)%C)
               (seq 0 (length (r_probe m))) in
  let obj := map (fun o : img => fun i j => (RtoC (r_support m i j) * transmission (r_exp m) (r_phase_only m) (o i j))%C) (r_obj m) in
  concat (map (fun pr => map (RPI_interaction (r_n0 m) (r_n1 m) (r_o0 m) (r_o1 m) pr) obj) prs).
Definition rpi_pattern (m : rpi) : rimg :=
  quadratic_background {| o_slice := None; o_eps := eps; o_sat := r_saturation m; o_over := r_os m |}
    (map (far_field (r_n0 m) (r_n1 m)) (rpi_interaction m)) (r_background m) None.
(** obj_basis (rpi.py 81-84): column 0 (axis -2) is scaled by the ratio of the axes -1 and conversely. *)
Definition rpi_obj_basis (b0 b1 : V3) (n0 n1 o0 o1 : nat) : V3 * V3 :=
  (vscale (INR n1 / INR o1) b0, vscale (INR n0 / INR o0) b1).

(** ---- Bragg2DPtycho (bragg_2d_ptycho.py 486-560), an exposure of a batch ---- *)
(** t.angle: the argument in (-pi, pi]. *)
Definition angle (z : C) : R :=
  if Rlt_dec 0 (fst z) then atan (snd z / fst z)
  else if Rlt_dec (fst z) 0 then (if Rlt_dec (snd z) 0 then atan (snd z / fst z) - PI else atan (snd z / fst z) + PI)
  else if Rlt_dec 0 (snd z) then PI / 2 else if Rlt_dec (snd z) 0 then - (PI / 2) else 0.
(** universal_propagator (228-241): probe_basis columns p0 p1; propagate_along_offset=True overrides the
    propagation_vector given. *)
Definition universal_propagator (n0 n1 : nat) (p0 p1 : V3) (wl : R) : nat -> nat -> R := fun i j =>
  let d : V3 := (0, 0, wl / (2 * PI)) in angle (gen_propagator n0 n1 p0 p1 wl d (Some d) i j).
(** 512-519 *)
Definition bragg_propagator (n0 n1 : nat) (p0 p1 : V3) (wl : R) (d : R) : img := fun i j =>
  cis (d * (2 * PI) / wl * universal_propagator n0 n1 p0 p1 wl i j).
Record bragg := {
  g_b0 : V3; g_b1 : V3; g_min : R * R; g_median : R; g_scale : R; g_offsets : option (list (R * R));
  g_p0 : V3; g_p1 : V3; g_wl : R;
  g_n0 : nat; g_n1 : nat; g_probe : list img; g_support : nat -> nat -> bool; g_norm : R; g_weights : list R;
  g_propagate : bool; g_os : nat; g_det0 : nat; g_det1 : nat; g_background : rimg; g_saturation : option R;
  g_H : Z; g_W : Z; g_obj : Z -> Z -> C }.
Definition bragg_interaction (m : bragg) (i : nat) (t : V3) : res (list img) :=
  rbind (match g_offsets m with
         | None => Ok (bragg_pix (g_b0 m) (g_b1 m) (g_min m) (g_median m) (g_scale m) None t)
         | Some l => rbind (entry l i) (fun o => Ok (bragg_pix (g_b0 m) (g_b1 m) (g_min m) (g_median m) (g_scale m) (Some o) t))
         end) (fun pd =>
  rbind (entry (g_weights m) i) (fun c =>
  let prs := map (fun p => restrict (g_support m) (scale_img c p)) (g_probe m) in
  let prs := if g_propagate m then map (fun p => near_field (g_n0 m) (g_n1 m) p (bragg_propagator (g_n0 m) (g_n1 m) (g_p0 m) (g_p1 m) (g_wl m) (snd pd))) prs else prs in
  let N0 := (g_os m * g_det0 m)%nat in let N1 := (g_os m * g_det1 m)%nat in
  let prs := map (fourier_pad (g_n0 m) (g_n1 m) N0 N1) prs in
  all_ok (map (fun p => rmap (scale_img (g_norm m)) (need (ptycho_2D_sinc (g_H m) (g_W m) (g_obj m) N0 N1 p (fst pd) false))) prs))).
(** correct_tilt=False *)
Definition bragg_pattern (m : bragg) (i : nat) (t : V3) : res rimg :=
  rmap (fun ws => quadratic_background {| o_slice := None; o_eps := eps; o_sat := g_saturation m; o_over := g_os m |}
                    (map (far_field (g_os m * g_det0 m) (g_os m * g_det1 m)) ws) (g_background m) None)
    (bragg_interaction m i t).
