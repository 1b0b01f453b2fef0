(** Specification vocabulary for Multislice2DPtycho (C84). *)
From Verif Require Import Base FinSum Fourier Model_Prop Spec_Prop Model_Meas Spec_Meas Model_Interact Spec_Interact Model_Geom Model_Models Model_Forward Spec_Forward Model_Multi2D.
From Coquelicot Require Import Complex.
From Flocq Require Import Core.Raux Core.Round_NE.
Local Open Scope R_scope.

(** The planes that the wave crosses, in order: nz times the only plane, or the first nz planes. *)
Definition crossed (u : multi2d) (l : list (Z -> Z -> C)) : Prop :=
  match u_planes u with
  | Replicated o => l = repeat o (u_nz u)
  | Separate s => (u_nz u <= length s)%nat /\ l = firstn (u_nz u) s
  end.
(** Pixels of the wavefields per probe pixel. *)
Definition grain (u : multi2d) : nat := if u_alias u then 2%nat else 1%nat.
(** What plane o transmits over the probe's field of view, of which the first pixel lies at (a, b); on the finer grid:
    interpolated (the centre pixels coincide). *)
Definition seen (u : multi2d) (o : Z -> Z -> C) (a b : Z) : img :=
  let m := u_base u in
  let view : img := fun i j => transmit m (o (a + Z.of_nat i)%Z (b + Z.of_nat j)%Z) in
  if u_alias u then fun i j => trig_interp (f_n0 m) (f_n1 m) view (IZR (off (2 * f_n0 m) i) / 2) (IZR (off (2 * f_n1 m) j) / 2) else view.
(** The wave behind the first plane.  With subpixel: displaced by the fractional part of the position, in pixels of its
    own grid, and multiplied, pixel by pixel of that grid, by what the plane transmits from the whole-pixel part on.
    Without: times what is seen from the nearest whole position. *)
Definition behind_first (u : multi2d) (pos : R * R) (o : Z -> Z -> C) (x : img) : img :=
  let m := u_base u in
  let N0 := (grain u * f_n0 m)%nat in let N1 := (grain u * f_n1 m)%nat in
  let a := Zfloor (fst pos) in let b := Zfloor (snd pos) in
  if u_subpixel u
  then fun i j => (trig_interp N0 N1 x (IZR (off N0 i) - (fst pos - IZR a)) (IZR (off N1 j) - (snd pos - IZR b)) *
                   transmit m (o (a + Z.of_nat i)%Z (b + Z.of_nat j)%Z))%C
  else fun i j => (x i j * seen u o (ZnearestE (fst pos)) (ZnearestE (snd pos)) i j)%C.
(** ... and behind each of the others: propagated from the plane before, times what is seen from the nearest whole
    position. *)
Definition behind_next (u : multi2d) (pos : R * R) (x : img) (o : Z -> Z -> C) : img := fun i j =>
  let N0 := (grain u * f_n0 (u_base u))%nat in let N1 := (grain u * f_n1 (u_base u))%nat in
  (near_field N0 N1 x (u_prop u) i j * seen u o (ZnearestE (fst pos)) (ZnearestE (snd pos)) i j)%C.
(** The wave of probe mode E behind the planes l. *)
Definition multi2d_wave (u : multi2d) (pos : R * R) (l : list (Z -> Z -> C)) (E : img) : img :=
  let m := u_base u in
  let x : img := fun i j => (RtoC (f_norm m) * illumination (f_n0 m) (f_n1 m) (grain u * f_n0 m) (grain u * f_n1 m) E 0 0 i j)%C in
  match l with [] => x | o :: rest => fold_left (behind_next u pos) rest (behind_first u pos o x) end.
(** Arrays that fit together at position pos: what is cut out of the planes lies inside them; even probes with
    prevent_aliasing. *)
Definition u_fits (u : multi2d) (pos : R * R) : Prop :=
  let m := u_base u in
  (0 < f_n0 m)%nat /\ (0 < f_n1 m)%nat /\ (0 < f_os m)%nat /\
  (u_alias u = true -> Nat.even (f_n0 m) = true /\ Nat.even (f_n1 m) = true) /\
  ((u_subpixel u = false \/ 2 <= u_nz u)%nat -> inside (f_H m) (f_n0 m) 0 (ZnearestE (fst pos)) /\ inside (f_W m) (f_n1 m) 0 (ZnearestE (snd pos))) /\
  (u_subpixel u = true -> inside (f_H m) (grain u * f_n0 m) 0 (Zfloor (fst pos)) /\ inside (f_W m) (grain u * f_n1 m) 0 (Zfloor (snd pos))).
(** The weights of Multislice2DPtycho: never None. *)
Definition u_coefficients (u : multi2d) (ix : index) (rows : nat) (W : nat -> nat -> C) : Prop :=
  f_weights (u_base u) <> NoWeights /\ coefficients (f_weights (u_base u)) ix (length (f_probe (u_base u))) rows W.
(** The wave at the detector: the centred Fourier transform, of the finer grid the middle n0 x n1 frequencies. *)
Definition u_far (u : multi2d) (x : img) : img :=
  let n0 := f_n0 (u_base u) in let n1 := f_n1 (u_base u) in
  if u_alias u then fun i j => centred_ft (2 * n0) (2 * n1) x (n0 / 2 + i)%nat (n1 / 2 + j)%nat else centred_ft n0 n1 x.
