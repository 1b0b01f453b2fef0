(** Specification vocabulary for the high-NA far field (C77). *)
From Verif Require Import Base FinSum Fourier Model_Prop Spec_Prop Spec_Models Model_Geom.
From Coquelicot Require Import Complex.
Local Open Scope R_scope.

(** The unit triangle: linear interpolation between neighbouring pixels. *)
Definition hat (t : R) : R := Rmax 0 (1 - Rabs t).
(** An H x W image at a point (y, x) given in pixels, interpolated linearly along both axes; 0 outside. *)
Definition interpolate (H W : nat) (f : img) (y x : R) : C :=
  csum H (fun a => csum W (fun b => (RtoC (hat (y - INR a) * hat (x - INR b)) * f a b)%C)).
(** From the sample to the middle of pixel (i, j) of an n x m detector with pixel vectors d0, d1, at the distance
    dist in the direction k_out perpendicular to it; the middle of the detector is on the axis. *)
Definition offset (d0 d1 : V3) (n m : nat) (i j : nat) : V3 :=
  vadd (vscale (INR i - (INR n - 1) / 2) d0) (vscale (INR j - (INR m - 1) / 2) d1).
Definition to_pixel (d0 d1 : V3) (n m : nat) (dist : R) (i j : nat) : V3 := vadd (offset d0 d1 n m i j) (vscale dist (k_out d0 d1)).
(** The unit vector of the light that pixel (i, j) receives: along to_pixel, or, behind a lens, at the distance
    |offset| from the axis on a sphere of radius dist. *)
Definition seen (d0 d1 : V3) (n m : nat) (dist : R) (lens : bool) (i j : nat) (u : V3) : Prop :=
  if lens then unit_vec u /\ 0 <= vdot u (k_out d0 d1) /\ exists c, vscale dist u = vadd (offset d0 d1 n m i j) (vscale c (k_out d0 d1))
  else vscale (vlen (to_pixel d0 d1 n m dist i j)) u = to_pixel d0 d1 n m dist i j.
(** The place in an n-pixel far field (of a sample with pixel vector s, zero frequency at the middle (n-1)/2) of the
    light in direction u: its phase advance per pixel relative to the light along the axis, as a fraction of a
    full turn, times the number of pixels. *)
Definition place_of (n : nat) (s u kout : V3) (wl : R) : R := (INR n - 1) / 2 + INR n * (vdot s (vsub u kout) / wl).
(** The lens can only image pixels within the sphere. *)
Definition within_lens (d0 d1 : V3) (n m : nat) (dist : R) (i j : nat) : Prop := vlen (offset d0 d1 n m i j) <= dist.
(** The correction factor of pixel (i, j): the cosine of the angle at which the light arrives times the inverse
    square of the distance, in units of the nearest pixel's; none behind a lens. *)
Definition falloff (d0 d1 : V3) (n m : nat) (dist : R) (lens : bool) (i j : nat) (g : R) : Prop :=
  if lens then g = 1 else exists a b, (a < n)%nat /\ (b < m)%nat /\
    (forall a' b', (a' < n)%nat -> (b' < m)%nat -> vlen (to_pixel d0 d1 n m dist a b) <= vlen (to_pixel d0 d1 n m dist a' b')) /\
    g = (dist / vlen (to_pixel d0 d1 n m dist i j)) * (vlen (to_pixel d0 d1 n m dist a b) / vlen (to_pixel d0 d1 n m dist i j)) ^ 2.
(** v is the light that a wave w leaving a sample grid (s0, s1) brings to an N x M detector with pixels e0, e1. *)
Definition arrives (s0 s1 e0 e1 : V3) (N M : nat) (dist wl : R) (lens : bool) (w v : img) : Prop :=
  forall i j, (i < N)%nat -> (j < M)%nat -> exists u g, seen e0 e1 N M dist lens i j u /\ unit_vec u /\ falloff e0 e1 N M dist lens i j g /\
  v i j = (RtoC g * interpolate N M (centred_ft N M w) (place_of N s0 u (k_out e0 e1) wl) (place_of M s1 u (k_out e0 e1) wl))%C.
