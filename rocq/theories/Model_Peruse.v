(** datasets/ptycho_2d_dataset.py: inspect (218-274) and plot_mean_pattern (276-300).
    Simplified: exact reals; the data set is the record of Model_Init (its mask is never None after the constructor);
    titles, units and the mask's picture (plot_mask) are left out; the map and its browser are those of Model_Browse. *)
From Verif Require Import Base FinSum Model_Prop Model_Meas Model_Geom Model_Analysis Model_Init Model_Spectral Model_Browse.
Local Open Scope R_scope.

(** numpy: dst[i:i+k] = src, where one value fills the slice. *)
Definition slice_assign (i k : nat) (src dst : list R) : res (list R) :=
  let m := length (firstn k (skipn i dst)) in
  if Nat.eqb (length src) m then Ok (firstn i dst ++ src ++ skipn (i + k) dst)
  else match src with
       | x :: nil => Ok (firstn i dst ++ repeat x m ++ skipn (i + k) dst)
       | _ => Raise ValueError
       end.
(** 257-258: t.sum(self.mask * patterns, dim=(1,2)) *)
Definition masked_sums (d : data) (ps : list rimg) : list R :=
  map (fun p => isum (d_h d) (d_w d) (fun i j => mask_value d i j * p i j)) ps.
(** 253-258: the loop over chunks of 10 *)
Definition nanomap_values (d : data) : res (list R) :=
  let n := length (d_translations d) in
  fold_left (fun r k => rbind r (fun values => slice_assign (10 * k) 10 (masked_sums d (firstn 10 (skipn (10 * k) (d_patterns d)))) values))
            (seq 0 (Nat.div (n + 9) 10)) (Ok (repeat 1 n)).

Section Inspect.
Variable logarithmic : bool.
Variable log_offset : R.
Definition log10 (x : R) : R := ln x / ln 10.
(** 236-247: get_images; 0 beyond the last pattern, where the code raises IndexError (never asked for below) *)
Definition get_images (d : data) (idx : nat) : rimg := fun i j =>
  let v := nth idx (d_patterns d) (fun _ _ => 0) i j * mask_value d i j in
  if logarithmic then log10 (v + log_offset) else v.
(** 293-300 *)
Definition plot_mean_pattern (hull : list (R * R) -> option R) (d : data) : res rimg :=
  rmap (fun r : rimg * (nat -> R) * (nat -> R) => fun i j => log10 (fst (fst r) i j + log_offset)) (calc_spectral_info hull d 50).
(** 249-274: the values of the map, the mean pattern's picture, and the state of the browser after some events; without
    positions or patterns the first image raises IndexError. *)
Definition inspect (hull : list (R * R) -> option R) (mean : bool) (d : data) (es : list nevent)
  : res (list R * option rimg * (view rimg * list (res unit))) :=
  rbind (nanomap_values d) (fun values =>
  rbind (if mean then rmap Some (plot_mean_pattern hull d) else Ok None) (fun m =>
  if Nat.eqb (length (d_translations d)) 0 || Nat.eqb (length (d_patterns d)) 0 then Raise IndexError else
  let image i := One (get_images d i) in
  rbind (snd (Model_Browse.open image)) (fun _ =>
  Ok (values, m, nrun (length (d_translations d)) image es (fst (Model_Browse.open image)))))).
End Inspect.
