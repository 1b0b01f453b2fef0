(** Model of the geometry helpers: tools/initializers/initializers.py exit_wave_geometry and
    tools/interactions/interactions.py translations_to_pixel, pixel_to_translations,
    project_translations_to_sample.  Exact real arithmetic; a 3x2 basis is its two columns; one
    translation at a time (the code maps each row of a stack through the same matrix).
    Pseudo-inverses are given by (A^T A)^-1 A^T resp. A^T (A A^T)^-1, so rank-deficient inputs (where the
    determinants vanish) are outside the theorems' hypotheses. *)
From Verif Require Import Base Model_Prop.
Local Open Scope R_scope.

(** exit_wave_geometry (31-70): pinv(det_basis * det_shape)^T * wavelength * distance. *)
Definition exit_wave_geometry (d0 d1 : V3) (n0 n1 : nat) (wl dist : R) : V3 * V3 :=
  let e0 := vscale (INR n0) d0 in
  let e1 := vscale (INR n1) d1 in
  (vscale dist (vscale wl (pinv0 e0 e1)), vscale dist (vscale wl (pinv1 e0 e1))).

(** t.linalg.inv of the 3x3 matrix with rows r1 r2 r3, applied to y. *)
Definition det3 (r1 r2 r3 : V3) : R := vdot r1 (vcross r2 r3).
Definition solve3 (r1 r2 r3 y : V3) : V3 :=
  vscale (/ det3 r1 r2 r3)
    (vadd (vadd (vscale (vx y) (vcross r2 r3)) (vscale (vy y) (vcross r3 r1))) (vscale (vz y) (vcross r1 r2))).
Definition ex : V3 := (1, 0, 0).
Definition ey : V3 := (0, 1, 0).
Definition ez : V3 := (0, 0, 1).

(** translations_to_pixel (18-74): projection = pinv(basis) @ (projection_2 @ projection_1). *)
Definition projection_1 (t : V3) : V3 := (vx t, vy t, 0).
Definition projection_2 (n t : V3) : V3 := solve3 ex ey (vscale (/ vz n) (vscale (-1) n)) t.
Definition translations_to_pixel (b0 b1 n t : V3) : R * R :=
  let s := projection_2 n (projection_1 t) in
  (vdot (pinv0 b0 b1) s, vdot (pinv1 b0 b1) s).
(** pixel_to_translations (77-130): the pseudo-inverse of the same 2x3 matrix, whose rows are a0 and a1. *)
Definition projection_rows (b0 b1 n : V3) : V3 * V3 :=
  let c := fun e => translations_to_pixel b0 b1 n e in
  ((fst (c ex), fst (c ey), fst (c ez)), (snd (c ex), snd (c ey), snd (c ez))).
Definition pixel_to_translations (b0 b1 n : V3) (p : R * R) : V3 :=
  let a := projection_rows b0 b1 n in
  vadd (vscale (fst p) (pinv0 (fst a) (snd a))) (vscale (snd p) (pinv1 (fst a) (snd a))).

(** project_translations_to_sample (134-224).  mat is the 4x3 matrix with rows ex, ey, 0 and the unit
    normal; its pseudo-inverse restricted to the first three columns maps t to
    (mat^T mat)^-1 (t_x ex + t_y ey + t_z 0). *)
Definition sample_normal (b0 b1 : V3) : V3 := let c := vcross b1 b0 in vscale (/ vlen c) c.
Definition gram_row (k : V3 -> R) (m1 m2 m3 m4 : V3) : V3 :=
  vadd (vadd (vscale (k m1) m1) (vscale (k m2) m2)) (vadd (vscale (k m3) m3) (vscale (k m4) m4)).
Definition projector (n t : V3) : V3 :=
  let m3 := (0, 0, 0) : V3 in
  solve3 (gram_row vx ex ey m3 n) (gram_row vy ex ey m3 n) (gram_row vz ex ey m3 n)
    (vadd (vadd (vscale (vx t) ex) (vscale (vy t) ey)) (vscale (vz t) m3)).
Definition project_translations_to_sample (b0 b1 t : V3) : (R * R) * R :=
  let s := projector (sample_normal b0 b1) t in
  ((vdot (pinv0 b0 b1) s, vdot (pinv1 b0 b1) s), vdot ez s - vdot t ez).
