(** Model of the wave propagators (src/cdtools/tools/propagators/propagators.py).
    An image is a function of two indices together with its shape (N, M); values outside the shape
    are never looked at.  Leading (batch) dimensions are handled image by image by torch and are not
    modelled.  Floating point is modelled by exact real and complex arithmetic. *)
From Verif Require Import Base FinSum Fourier.
From Coquelicot Require Import Complex.
Local Open Scope C_scope.

Definition img := nat -> nat -> C.

(** t.fft.fft2 / t.fft.ifft2 with the default normalisation: one-dimensional transforms along both axes. *)
Definition fft2 (N M : nat) (x : img) : img := fun k l => dft N (fun n => dft M (x n) l) k.
Definition ifft2 (N M : nat) (x : img) : img := fun k l => idft N (fun n => idft M (x n) l) k.
(** norm='ortho' *)
Definition fft2_ortho (N M : nat) (x : img) : img := fun k l => RtoC (/ sqrt (INR (N * M))) * fft2 N M x k l.
Definition ifft2_ortho (N M : nat) (x : img) : img := fun k l => RtoC (sqrt (INR (N * M))) * ifft2 N M x k l.
(** t.fft.fftshift / ifftshift on the last two dimensions: rolls by n//2 and by (n+1)//2. *)
Definition roll (n s : nat) (i : nat) : nat := (i + (n - s mod n)) mod n.   (* source index of t.roll(x, s) at i *)
Definition fftshift2 (N M : nat) (x : img) : img := fun i j => x (roll N (N / 2) i) (roll M (M / 2) j).
Definition ifftshift2 (N M : nat) (x : img) : img := fun i j => x (roll N ((N + 1) / 2) i) (roll M ((M + 1) / 2) j).

(** far_field (19-49) and inverse_far_field (52-77). *)
Definition far_field (N M : nat) (x : img) : img := fftshift2 N M (fft2_ortho N M (ifftshift2 N M x)).
Definition inverse_far_field (N M : nat) (x : img) : img := fftshift2 N M (ifft2_ortho N M (ifftshift2 N M x)).

(** near_field (607-630) and inverse_near_field (634-672). *)
Definition near_field (N M : nat) (x : img) (p : img) : img :=
  ifft2 N M (fun k l => p k l * fft2 N M x k l).
Definition inverse_near_field (N M : nat) (x : img) (p : img) : img :=
  ifft2 N M (fun k l => fft2 N M x k l * Cconj (p k l)).

(** ---- angular spectrum propagators ---- *)
Definition V3 := (R * R * R)%type.
Definition vx (v : V3) : R := fst (fst v).
Definition vy (v : V3) : R := snd (fst v).
Definition vz (v : V3) : R := snd v.
Definition vdot (u v : V3) : R := (vx u * vx v + vy u * vy v + vz u * vz v)%R.
Definition vscale (a : R) (v : V3) : V3 := (a * vx v, a * vy v, a * vz v)%R.
Definition vadd (u v : V3) : V3 := (vx u + vx v, vy u + vy v, vz u + vz v)%R.
Definition vsub (u v : V3) : V3 := (vx u - vx v, vy u - vy v, vz u - vz v)%R.
Definition vcross (u v : V3) : V3 :=
  (vy u * vz v - vz u * vy v, vz u * vx v - vx u * vz v, vx u * vy v - vy u * vx v)%R.
Definition vlen (v : V3) : R := sqrt (vdot v v).
Definition sgn (x : R) : R := if Rlt_dec x 0 then (-1)%R else if Rlt_dec 0 x then 1%R else 0%R.

(** t.fft.fftfreq(n)[k] *)
Definition fftfreq (n k : nat) : R :=
  (if Nat.ltb k ((n + 1) / 2) then INR k / INR n else (INR k - INR n) / INR n)%R.
(** Columns of t.linalg.pinv(basis)^T for a basis (b0, b1) of full rank: B (B^T B)^-1. *)
Definition pinv0 (b0 b1 : V3) : V3 :=
  let d := (vdot b0 b0 * vdot b1 b1 - vdot b0 b1 * vdot b0 b1)%R in
  vscale (/ d) (vsub (vscale (vdot b1 b1) b0) (vscale (vdot b0 b1) b1)).
Definition pinv1 (b0 b1 : V3) : V3 :=
  let d := (vdot b0 b0 * vdot b1 b1 - vdot b0 b1 * vdot b0 b1)%R in
  vscale (/ d) (vsub (vscale (vdot b0 b0) b1) (vscale (vdot b0 b1) b0)).
(** t.sqrt of a real number made complex. *)
Definition csqrt (r : R) : C := if Rlt_dec r 0 then (0%R, sqrt (- r)) else RtoC (sqrt r).
Definition cexp (z : C) : C := RtoC (exp (fst z)) * cis (snd z).
Definition Ci : C := (0%R, 1%R).

(** The unit normal, before its sign is fixed (505-510). *)
Definition perp0 (b0 b1 : V3) : V3 :=
  let p := vcross (vscale (/ vlen b0) b0) (vscale (/ vlen b1) b1) in vscale (/ vlen p) p.
(** generate_generalized_angular_spectrum_propagator (404-604), one pixel (i, j) of the mask;
    propagate_along_offset is [pv := Some offset]. *)
Definition gen_perp (b0 b1 d : V3) (pv : option V3) : V3 :=
  let p := perp0 b0 b1 in
  match pv with
  | Some v => vscale (sgn (vdot p v)) p
  | None => vscale (sgn (vdot p d)) p
  end.
Definition gen_K0 (b0 b1 : V3) (wl : R) (d : V3) (pv : option V3) : V3 :=
  match pv with
  | Some v => vscale (2 * PI / wl) (vsub (vscale (/ vlen v) v) (gen_perp b0 b1 d pv))
  | None => (0, 0, 0)%R
  end.
Definition gen_Kip (N M : nat) (b0 b1 : V3) (wl : R) (d : V3) (pv : option V3) (i j : nat) : V3 :=
  let k := vadd (vscale (2 * PI * fftfreq N i) (pinv0 b0 b1)) (vscale (2 * PI * fftfreq M j) (pinv1 b0 b1)) in
  match pv with
  | Some _ => let K0 := gen_K0 b0 b1 wl d pv in let p := gen_perp b0 b1 d pv in
              vadd k (vsub K0 (vscale (vdot p K0) p))
  | None => k
  end.
Definition gen_Koop (wl : R) (Kip : V3) : C :=
  RtoC (- (vdot Kip Kip)) / (csqrt ((2 * PI / wl) ^ 2 - vdot Kip Kip) + RtoC (2 * PI / wl)).
Definition gen_phase (N M : nat) (b0 b1 : V3) (wl : R) (d : V3) (pv : option V3) (i j : nat) : C :=
  let Kip := gen_Kip N M b0 b1 wl d pv i j in
  let ph := RtoC (vdot d (vsub Kip (gen_K0 b0 b1 wl d pv))) + RtoC (vdot d (gen_perp b0 b1 d pv)) * gen_Koop wl Kip in
  match pv with
  | Some v => if Rlt_dec (vdot v d) 0 then Cconj ph else ph
  | None => ph
  end.
Definition gen_propagator (N M : nat) (b0 b1 : V3) (wl : R) (d : V3) (pv : option V3) : img :=
  fun i j => cexp (Ci * gen_phase N M b0 b1 wl d pv i j).

(** max of fftfreq over its indices *)
Definition maxfreq (n : nat) : R := (INR ((n - 1) / 2) / INR n)%R.
(** generate_angular_spectrum_propagator (324-400).  The mask (Rs < bandlimit) is false everywhere
    when the largest frequency of an axis is 0 (0/0 = NaN, x/0 = inf). *)
Definition band (N M : nat) (bl : R) (i j : nat) : bool :=
  if Req_EM_T (maxfreq N) 0 then false else if Req_EM_T (maxfreq M) 0 then false
  else if Rlt_dec (sqrt ((fftfreq N i / maxfreq N) ^ 2 + (fftfreq M j / maxfreq M) ^ 2)) bl then true else false.
Definition as_propagator (N M : nat) (s0 s1 wl z : R) (bl : option R) : img :=
  fun i j =>
    let p := gen_propagator N M (0, - s0, 0)%R (- s1, 0, 0)%R wl (0, 0, z)%R None i j in
    let p := if Rlt_dec z 0 then Cconj p else p in
    match bl with
    | None => p
    | Some b => p * (if band N M b i j then 1 else 0)
    end.
