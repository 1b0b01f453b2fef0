(** Model of Ptycho2DDataset: src/cdtools/datasets/ptycho_2d_dataset.py (construction, access,
    split, pad, downsample, remove_translations_mask, crop_translations) and
    src/cdtools/datasets/base.py:37-153. *)
From Verif Require Import Base FinSum.

(** A 2D array: shape and pixel function (only indices inside the shape are meaningful). *)
Record img (A : Type) := mkImg { im_h : nat; im_w : nat; im_px : nat -> nat -> A }.
Arguments mkImg {A}. Arguments im_h {A}. Arguments im_w {A}. Arguments im_px {A}.

(** Attributes of a Ptycho2DDataset.  The pattern stack is an n x h x w tensor: ds_h, ds_w and
    the list of the n images.  ds_basis is detector_geometry['basis'] (None: no geometry).
    Everything else (entry_info, sample_info, wavelength, axes, other geometry) is ds_meta. *)
Record dataset (Meta : Type) := mkDs {
  ds_h : nat; ds_w : nat;
  ds_patterns : list (nat -> nat -> R);
  ds_translations : list (R * R * R);
  ds_intensities : option (list R);
  ds_mask : option (img bool);
  ds_qe_mask : option (img R);
  ds_background : option (img R);
  ds_basis : option (nat -> nat -> R);
  ds_meta : Meta
}.
Arguments mkDs {Meta}. Arguments ds_h {Meta}. Arguments ds_w {Meta}. Arguments ds_patterns {Meta}.
Arguments ds_translations {Meta}. Arguments ds_intensities {Meta}. Arguments ds_mask {Meta}.
Arguments ds_qe_mask {Meta}. Arguments ds_background {Meta}. Arguments ds_basis {Meta}.
Arguments ds_meta {Meta}.

Section Dataset.
Context {Meta : Type}.
Notation ds := (dataset Meta).

(** Ptycho2DDataset.__init__ (ptycho_2d_dataset.py:66-80, base.py:71-93).  A raw pixel is
    [None] when it is NaN.  isnan(sum over patterns) is modelled as "some pattern is NaN
    there": infinities (whose sum may be NaN) are not modelled. *)
Definition is_none {A} (x : option A) : bool := match x with None => true | Some _ => false end.
Definition nan_anywhere (pats : list (nat -> nat -> option R)) (i j : nat) : bool :=
  existsb (fun p => is_none (p i j)) pats.
Definition init_dataset (h w : nat) (translations : list (R * R * R))
    (patterns : list (nat -> nat -> option R)) (intensities : option (list R))
    (mask : option (img bool)) (qe background : option (img R))
    (basis : option (nat -> nat -> R)) (meta : Meta) : ds :=
  let mask0 := match mask with Some m => m | None => mkImg h w (fun _ _ => true) end in
  let mask1 := mkImg (im_h mask0) (im_w mask0)
                 (fun i j => if nan_anywhere patterns i j then false else im_px mask0 i j) in
  mkDs h w (map (fun p i j => match p i j with Some x => x | None => 0%R end) patterns)
       translations intensities (Some mask1) qe background basis meta.

(** __len__ (83-84). *)
Definition ds_len (d : ds) : nat := length (ds_patterns d).

(** __getitem__/_load with an int index (86-113, base.py:139-153): Python wraps negative
    indices.  get_as only changes device/dtype, which are not modelled. *)
Definition py_index {A} (l : list A) (i : Z) : res A :=
  let k := if (i <? 0)%Z then (i + Z.of_nat (length l))%Z else i in
  if (k <? 0)%Z then Raise IndexError
  else match nth_error l (Z.to_nat k) with Some x => Ok x | None => Raise IndexError end.
Definition ds_getitem (d : ds) (i : Z) : res ((Z * (R * R * R)) * (nat -> nat -> R)) :=
  rbind (py_index (ds_translations d) i) (fun tr =>
  rbind (py_index (ds_patterns d) i) (fun p => Ok ((i, tr), p))).
(** ... with a slice a:b, 0 <= a, 0 <= b. *)
Definition ds_getslice (d : ds) (a b : nat) : list (R * R * R) * list (nat -> nat -> R) :=
  (slice a b (ds_translations d), slice a b (ds_patterns d)).

(** Boolean indexing x[mask]: lengths must match. *)
Definition bindex {A} (mask : list bool) (l : list A) : res (list A) :=
  if Nat.eqb (length mask) (length l) then Ok (map snd (filter fst (combine mask l)))
  else Raise IndexError.
Definition bindex_opt {A} (mask : list bool) (l : option (list A)) : res (option (list A)) :=
  match l with None => Ok None | Some x => rmap Some (bindex mask x) end.

(** split (303-328).  [sel] is the constant random_selection as booleans. *)
Definition repeat_cut (sel : list bool) (n : nat) : list bool :=
  firstn n (concat (repeat sel ((n + length sel - 1) / length sel))).
Definition with_rows (d : ds) pats trs ints : ds :=
  mkDs (ds_h d) (ds_w d) pats trs ints (ds_mask d) (ds_qe_mask d) (ds_background d)
       (ds_basis d) (ds_meta d).
Definition ds_select (mask : list bool) (d : ds) : res ds :=
  rbind (bindex mask (ds_translations d)) (fun trs =>
  rbind (bindex mask (ds_patterns d)) (fun pats =>
  rbind (bindex_opt mask (ds_intensities d)) (fun ints =>
  Ok (with_rows d pats trs ints)))).
Definition split (sel : list bool) (d : ds) : res (ds * ds) :=
  let cut := repeat_cut sel (ds_len d) in
  rbind (ds_select cut d) (fun d1 =>
  rbind (ds_select (map negb cut) d) (fun d2 => Ok (d1, d2))).

(** pad (331-372).  torch.nn.functional.pad on the last two dimensions; negative amounts (which
    crop) are not modelled. *)
Inductive pad_arg := PadInt (n : nat) | Pad2 (a b : nat) | Pad4 (l r t b : nat).
Definition pad_amounts (a : pad_arg) : nat * nat * nat * nat :=     (* left, right, top, bottom *)
  match a with
  | PadInt n => (n, n, n, n)
  | Pad2 x y => (x, x, y, y)
  | Pad4 l r t b => (l, r, t, b)
  end.
Definition pad_px {A} (h w : nat) (amt : nat * nat * nat * nat) (v : A) (px : nat -> nat -> A)
  : nat -> nat -> A :=
  let '(l, r, t, b) := amt in
  fun i j => if (t <=? i) && (i <? t + h) && (l <=? j) && (j <? l + w)
             then px (i - t) (j - l) else v.
Definition pad_img {A} (amt : nat * nat * nat * nat) (v : A) (m : img A) : img A :=
  let '(l, r, t, b) := amt in
  mkImg (t + im_h m + b) (l + im_w m + r) (pad_px (im_h m) (im_w m) amt v (im_px m)).
Definition pad (a : pad_arg) (value : R) (mask : bool) (d : ds) : ds :=
  let amt := pad_amounts a in
  let '(l, r, t, b) := amt in
  mkDs (t + ds_h d + b) (l + ds_w d + r)
       (map (pad_px (ds_h d) (ds_w d) amt value) (ds_patterns d))
       (ds_translations d) (ds_intensities d)
       (option_map (pad_img amt (negb mask)) (ds_mask d))
       (ds_qe_mask d)                                   (* not padded by the code *)
       (option_map (pad_img amt 0%R) (ds_background d))
       (ds_basis d) (ds_meta d).

(** avg_pool2d(x, f, divisor_override=1): sum over f x f blocks; plain avg_pool2d divides. *)
Definition block_sum (f : nat) (px : nat -> nat -> R) (i j : nat) : R :=
  rsum f (fun a => rsum f (fun b => px (i * f + a) (j * f + b))).
(** max_pool2d of a 0/1 image, as a boolean. *)
Definition block_any (f : nat) (px : nat -> nat -> bool) (i j : nat) : bool :=
  existsb (fun a => existsb (fun b => px (i * f + a) (j * f + b)) (seq 0 f)) (seq 0 f).
Definition b2r (b : bool) : R := if b then 1%R else 0%R.

(** pooling is defined when the kernel is positive and not larger than the image *)
Definition poolable (f h w : nat) : bool := (1 <=? f) && (f <=? h) && (f <=? w).

(** downsample (375-444).  Each statement assigns attributes before the next one may raise, so
    the dataset after an exception is returned as well.  Broadcasting of shapes with a size of 1
    is not modelled: differing shapes raise RuntimeError. *)
Definition same_shape {A B} (a : img A) (b : img B) : bool :=
  Nat.eqb (im_h a) (im_h b) && Nat.eqb (im_w a) (im_w b).
Definition set_pats (d : ds) h w p := mkDs h w p (ds_translations d) (ds_intensities d)
  (ds_mask d) (ds_qe_mask d) (ds_background d) (ds_basis d) (ds_meta d).
Definition set_masks (d : ds) m q := mkDs (ds_h d) (ds_w d) (ds_patterns d) (ds_translations d)
  (ds_intensities d) m q (ds_background d) (ds_basis d) (ds_meta d).
Definition set_basis (d : ds) b := mkDs (ds_h d) (ds_w d) (ds_patterns d) (ds_translations d)
  (ds_intensities d) (ds_mask d) (ds_qe_mask d) (ds_background d) b (ds_meta d).
Definition set_bg (d : ds) b := mkDs (ds_h d) (ds_w d) (ds_patterns d) (ds_translations d)
  (ds_intensities d) (ds_mask d) (ds_qe_mask d) b (ds_basis d) (ds_meta d).

Definition down_patterns (f : nat) (d : ds) : ds * res unit :=
  match ds_mask d with
  | Some m =>
      if negb (Nat.eqb (im_h m) (ds_h d) && Nat.eqb (im_w m) (ds_w d)) then (d, Raise RuntimeError)
      else if negb (poolable f (ds_h d) (ds_w d)) then (d, Raise RuntimeError)
      else (set_pats d (ds_h d / f) (ds_w d / f)
              (map (fun p => block_sum f (fun i j => b2r (im_px m i j) * p i j)%R) (ds_patterns d)),
            Ok tt)
  | None =>
      if negb (poolable f (ds_h d) (ds_w d)) then (d, Raise RuntimeError)
      else (set_pats d (ds_h d / f) (ds_w d / f) (map (block_sum f) (ds_patterns d)), Ok tt)
  end.
Definition down_masks (f : nat) (d : ds) : ds * res unit :=
  match ds_qe_mask d, ds_mask d with
  | Some q, Some m =>
      if negb (same_shape m q) then (d, Raise RuntimeError)
      else if negb (poolable f (im_h m) (im_w m)) then (d, Raise RuntimeError)
      else (set_masks d
              (Some (mkImg (im_h m / f) (im_w m / f) (block_any f (im_px m))))
              (Some (mkImg (im_h q / f) (im_w q / f)
                 (fun i j => block_sum f (fun i j => b2r (im_px m i j) * im_px q i j) i j
                             / (INR f * INR f))%R)), Ok tt)
  | Some q, None => (d, Raise TypeError)                 (* None * tensor *)
  | None, Some m =>
      if negb (poolable f (im_h m) (im_w m)) then (d, Raise RuntimeError)
      else (set_masks d
              (Some (mkImg (im_h m / f) (im_w m / f)
                 (fun i j => negb (block_any f (fun i j => negb (im_px m i j)) i j)))) None, Ok tt)
  | None, None => (d, Ok tt)
  end.
Definition down_basis (f : nat) (d : ds) : ds * res unit :=
  match ds_basis d with
  | None => (d, Raise TypeError)
  | Some b => (set_basis d (Some (fun i j => b i j * INR f)%R), Ok tt)
  end.
Definition down_background (f : nat) (d : ds) : ds * res unit :=
  match ds_background d with
  | None => (d, Ok tt)
  | Some g =>
      if negb (poolable f (im_h g) (im_w g)) then (d, Raise RuntimeError)
      else (set_bg d (Some (mkImg (im_h g / f) (im_w g / f) (block_sum f (im_px g)))), Ok tt)
  end.
Definition then_ {S} (s : S * res unit) (k : S -> S * res unit) : S * res unit :=
  match s with (d, Ok _) => k d | (d, Raise e) => (d, Raise e) end.
Definition downsample (f : nat) (d : ds) : ds * res unit :=
  then_ (then_ (then_ (down_patterns f d) (down_masks f)) (down_basis f)) (down_background f).

(** remove_translations_mask (447-475).  patterns, translations and intensities are assigned one
    after the other. *)
Definition remove_translations_mask (rm : list bool) (d : ds) : ds * res unit :=
  if negb (Nat.eqb (length rm) (length (ds_translations d))) then (d, Raise ValueError)
  else
    let keep := map negb rm in
    match bindex keep (ds_patterns d) with
    | Raise e => (d, Raise e)
    | Ok pats =>
        match bindex keep (ds_translations d) with
        | Raise e => (with_rows d pats (ds_translations d) (ds_intensities d), Raise e)
        | Ok trs =>
            match bindex_opt keep (ds_intensities d) with
            | Raise e => (with_rows d pats trs (ds_intensities d), Raise e)
            | Ok ints => (with_rows d pats trs ints, Ok tt)
            end
        end
    end.

(** crop_translations (478-520); roi = (x1, x2, y1, y2). *)
Definition sorted2 (a b : R) : R * R := if Rle_dec a b then (a, b) else (b, a).
Definition rle (a b : R) : bool := if Rle_dec a b then true else false.
Definition crop_translations (roi : R * R * R * R) (d : ds) : ds * res unit :=
  let '(r0, r1, r2, r3) := roi in
  let '(x_left, x_right) := sorted2 r0 r1 in
  let '(y_top, y_bottom) := sorted2 r2 r3 in
  let inside := map (fun tr => let '(x, y, _) := tr in
                  rle x_left x && rle x x_right && rle y y_bottom && rle y_top y)
                  (ds_translations d) in
  if existsb (fun b => b) inside then remove_translations_mask (map negb inside) d
  else (d, Raise ValueError).

End Dataset.
