(** tools/plotting/plotting.py: where things are drawn.  get_units_factor (84-113); the basis part of plot_image
    (327-381) and what a second plot on the same figure keeps of it (239-259); plot_translations (773-878) and
    plot_nanomap (881-990); the image axes of plot_nanomap_with_images (1113-1134).
    Simplified: exact reals; a picture's place is the place of each pixel's centre in the coordinates of the axes;
    matplotlib's share is trusted: imshow puts pixel (i, j) at x = j, y = i of its data coordinates, or evenly inside an
    explicit extent, fixes the extent at the first call (Axes.imshow: set_extent(get_extent())), and
    Affine2D.from_values(a, b, c, d, 0, 0) sends (x, y) to (a x + c y, b x + d y). *)
From Verif Require Import Base Model_Prop.
Local Open Scope R_scope.

(** str.lower on ASCII. *)
Definition lower_ascii (a : ascii) : ascii :=
  let n := nat_of_ascii a in if (Nat.leb 65 n && Nat.leb n 90)%bool then ascii_of_nat (n + 32) else a.
Fixpoint lower (s : string) : string := match s with EmptyString => EmptyString | String a r => String (lower_ascii a) (lower r) end.

(** get_units_factor (84-113): a chain of ifs without an else; an unknown unit is an UnboundLocalError. *)
Definition UnboundLocalError : exn := UserExn 0.
Definition get_units_factor (units : string) : res R :=
  let u := lower units in
  let factor : option R := None in
  let factor := if String.eqb u "m" then Some 1 else factor in
  let factor := if String.eqb u "cm" then Some (10 ^ 2) else factor in
  let factor := if String.eqb u "mm" then Some (10 ^ 3) else factor in
  let factor := if (String.eqb u "um" || String.eqb u "$\mu$m")%bool then Some (10 ^ 6) else factor in
  let factor := if String.eqb u "nm" then Some (10 ^ 9) else factor in
  let factor := if String.eqb u "a" then Some (10 ^ 10) else factor in
  let factor := if String.eqb u "pm" then Some (10 ^ 12) else factor in
  match factor with Some f => Ok f | None => Raise UnboundLocalError end.

(** A basis is its two columns: the step of the row index and the step of the column index. *)
Definition basis := (V3 * V3)%type.

(** 331-348: view_basis = 'ortho'; None: a division by a zero norm (numpy: nan, then lstsq fails). *)
Definition unit_of (v : V3) : option V3 := if Req_EM_T (vlen v) 0 then None else Some (vscale (/ vlen v) v).
Definition obind {A B} (o : option A) (f : A -> option B) : option B := match o with Some a => f a | None => None end.
Definition ortho_view (b : basis) : option basis :=
  obind (unit_of (fst b)) (fun n0 => obind (unit_of (snd b)) (fun n1 =>
  obind (unit_of (vcross n1 n0)) (fun z => obind (unit_of (vcross z n1)) (fun y => Some (y, n1))))).
(** 350-358: an explicit view basis is normalised column by column. *)
Definition given_view (v : basis) : option basis := obind (unit_of (fst v)) (fun v0 => obind (unit_of (snd v)) (fun v1 => Some (v0, v1))).

Section Frame.
(** np.linalg.lstsq for two columns v1, v2 and one right hand side: the two coefficients (an unknown function;
    numpy treats the columns of the right hand side separately). *)
Variable lstsq : V3 -> V3 -> V3 -> R * R.

(** What an image is drawn with: the matrix [[a, c], [b, d]] and the image size that fixed the extent. *)
Record frame := { m_a : R; m_b : R; m_c : R; m_d : R; rows : nat; cols : nat }.
Inductive view := Ortho | Given (v : basis).

(** 327-367: the transform of a basis; np_basis times the units factor; both bases with their columns reversed. *)
Definition frame_of (b : basis) (factor : R) (v : view) (n0 n1 : nat) : option frame :=
  let b := (vscale factor (fst b), vscale factor (snd b)) in
  obind (match v with Ortho => ortho_view b | Given v => given_view v end) (fun vb =>
  let ab := lstsq (snd vb) (fst vb) (snd b) in
  let cd := lstsq (snd vb) (fst vb) (fst b) in
  Some {| m_a := fst ab; m_b := snd ab; m_c := fst cd; m_d := snd cd; rows := n0; cols := n1 |}).

(** A point of the data coordinates (column coordinate, row coordinate) in the axes. *)
Definition to_axes (f : frame) (x y : R) : R * R := (m_a f * x + m_c f * y, m_b f * x + m_d f * y).
(** The centre of pixel (i, j) of an n0 x n1 image drawn in a frame: spread evenly over the extent from -0.5 to
    cols - 0.5 and -0.5 to rows - 0.5. *)
Definition pixel_at (f : frame) (n0 n1 i j : nat) : R * R :=
  to_axes f ((INR j + / 2) * INR (cols f) / INR n1 - / 2) ((INR i + / 2) * INR (rows f) / INR n0 - / 2).

(** 371-380: the limits of the axes: the extrema of the corners. *)
Definition corners (f : frame) : list (R * R) :=
  [to_axes f (- / 2) (- / 2); to_axes f (INR (cols f) - / 2) (- / 2);
   to_axes f (- / 2) (INR (rows f) - / 2); to_axes f (INR (cols f) - / 2) (INR (rows f) - / 2)].
Definition lmin (l : list R) (d : R) : R := fold_right Rmin d l.
Definition lmax (l : list R) (d : R) : R := fold_right Rmax d l.
Definition limits (f : frame) : (R * R) * (R * R) :=
  let xs := map fst (corners f) in let ys := map snd (corners f) in
  ((lmin xs (hd 0 xs), lmax xs (hd 0 xs)), (lmin ys (hd 0 ys), lmax ys (hd 0 ys))).

(** 239-259, 264-385: plotting once more on the figure only replaces the data: the frame of the first plot stays. *)
Definition replot (old : option frame) (new : option frame) : option frame := match old with Some f => Some f | None => new end.
End Frame.

(** plot_translations (773-878) and plot_nanomap (881-990): the place of a translation; the former has no convention. *)
Definition scatter_place (factor : R) (probe_convention : bool) (t : R * R) : R * R :=
  let t := if probe_convention then t else (fst t * -1, snd t * -1) in (factor * fst t, factor * snd t).
Definition translations_place (factor : R) (t : R * R) : R * R := (fst t * factor, snd t * factor).
(** 'probe' is compared in lower case (941, 1103). *)
Definition is_probe_convention (s : string) : bool := String.eqb (lower s) "probe".

(** The direction of the x axis (true: inverted) after one plot_translations call: 826-836, 868-872. *)
Record tcall := { clear_fig : bool; invert_xaxis : bool }.
Definition after_call (inverted : bool) (c : tcall) : bool :=
  let inverted := if clear_fig c then false else inverted in       (* a cleared figure gets new axes *)
  if invert_xaxis c then (if inverted then inverted else true)     (* x_min <= x_max: invert *)
  else inverted.

(** 1113-1134: plot_nanomap_with_images draws an n0 x n1 image into the extent [0, n1 |b1|, 0, n0 |b0|]; the first row
    is at the top. *)
Definition extent_pixel (b : basis) (factor : R) (n0 n1 i j : nat) : R * R :=
  let s0 := vlen (fst b) * factor in let s1 := vlen (snd b) * factor in
  ((INR j + / 2) * (INR n1 * s1) / INR n1, INR n0 * s0 - (INR i + / 2) * (INR n0 * s0) / INR n0).
