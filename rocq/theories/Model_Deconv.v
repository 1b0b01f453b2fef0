(** calc_deconvolved_cross_correlation (467-514) of tools/analysis/analysis.py.
    Simplified: exact arithmetic; the two images have one shape; a slice has non-negative bounds.  An entry 0 / 0 is a
    nan, and then the inverse transform is nan everywhere: None. *)
From Verif Require Import Base FinSum Fourier Model_Prop.
From Coquelicot Require Import Complex.
Local Open Scope C_scope.

(** The slice a:b of an axis of length n: its first index and its number of entries. *)
Definition slice_range (n a b : nat) : nat * nat := (Nat.min a n, (Nat.min b n - Nat.min a n)%nat).
(** 498-500, one axis: (n // 8) * 3 : (n // 8) * 5 *)
Definition middle (n : nat) : nat * nat := slice_range n ((n / 8) * 3) ((n / 8) * 5).
Definition sliced (r c : nat * nat) (im : img) : img := fun i j => im (fst r + i)%nat (fst c + j)%nat.
(** Some entry of an h x w array is zero. *)
Definition is_zero (z : C) : bool := if Req_EM_T (Cmod z) 0 then true else false.
Definition any_zero (h w : nat) (x : img) : bool :=
  existsb (fun k => existsb (fun l => is_zero (x k l)) (seq 0 w)) (seq 0 h).

(** torch refuses to transform an empty axis. *)
Definition calc_deconvolved_cross_correlation (H W : nat) (im1 im2 : img) (im_slice : option ((nat * nat) * (nat * nat)))
  : res (option img) :=
  let '(r, c) := match im_slice with
                 | None => (middle H, middle W)
                 | Some ((r0, r1), (c0, c1)) => (slice_range H r0 r1, slice_range W c0 c1) end in
  let h := snd r in let w := snd c in
  if (Nat.eqb h 0 || Nat.eqb w 0)%bool then Raise RuntimeError else
  let cor_fft := fun k l => fft2 h w (sliced r c im1) k l * Cconj (fft2 h w (sliced r c im2) k l) in
  Ok (if any_zero h w cor_fft then None
      else Some (ifft2 h w (fun k l => cor_fft k l / RtoC (Cmod (cor_fft k l))))).
