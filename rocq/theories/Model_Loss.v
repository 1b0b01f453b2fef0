(** Model of the loss functions and their normalizers: src/cdtools/tools/losses/losses.py.
    A diffraction pattern is the list of its pixels; a batch is a list of patterns.  The mask
    (one pattern's worth of booleans) is broadcast along the batch.  Pixels are reals: NaN and
    infinities are not modelled, nor are shapes that only match by broadcasting. *)
From Verif Require Import Base.
Open Scope R_scope.

Definition pattern : Type := list R.

(** [x.masked_select(mask)] for a batch [x] and a broadcast mask; [None] stands for the
    branches without a mask (losses.py:63-80, 159-171, 285-311). *)
Definition pix_select (m : list bool) (p : pattern) : list R :=
  map snd (filter fst (combine m p)).
Definition select (mask : option (list bool)) (pats : list pattern) : list R :=
  match mask with
  | None => concat pats
  | Some m => concat (map (pix_select m) pats)
  end.

(** Elementwise [f sim measured] over the selected pixels. *)
Definition pixelwise (f : R -> R -> R) (mask : option (list bool)) (ints sims : list pattern)
  : list R :=
  map (fun xy => f (fst xy) (snd xy)) (combine (select mask ints) (select mask sims)).

(** t.mean of a flat tensor (0/0 on an empty selection is NaN in torch, /0 here). *)
Definition mean (l : list R) : R := lsum l / INR (length l).

(** amplitude_mse (losses.py:21-80).  sqrt of a negative number is NaN in torch and 0 here. *)
Definition amp_pix (i s : R) : R := (sqrt s - sqrt i) ^ 2.
Definition amplitude_mse (ints sims : list pattern) (mask : option (list bool)) (use_sum : bool) : R :=
  let d := pixelwise amp_pix mask ints sims in if use_sum then lsum d else mean d.

(** intensity_mse (losses.py:125-174). *)
Definition int_pix (i s : R) : R := (s - i) ^ 2.
Definition intensity_mse (ints sims : list pattern) (mask : option (list bool)) (use_sum : bool) : R :=
  let d := pixelwise int_pix mask ints sims in if use_sum then lsum d else mean d.

(** t.xlogy: 0 when the first argument is 0 (for a log argument > 0). *)
Definition xlogy (x y : R) : R := if Req_EM_T x 0 then 0 else x * ln y.

(** poisson_nll (losses.py:245-311).  The log of a non-positive number is not a number in torch
    and 0 here, so theorems ask for sim + eps > 0. *)
Definition nll_pix (eps i s : R) : R := s + eps - xlogy i (s + eps).
Definition min_pix (i _s : R) : R := i - xlogy i i.
Definition poisson_nll (ints sims : list pattern) (mask : option (list bool)) (eps : R)
    (subtract_min : bool) : R :=
  let nll := lsum (pixelwise (nll_pix eps) mask ints sims) in
  if subtract_min then nll - lsum (pixelwise min_pix mask ints ints) else nll.

(** The default eps=1e-6 (losses.py:249). *)
Definition default_eps : R := / 1000000.

(** loss / n on a Python number or a tensor: a Python division by zero raises, a tensor one
    gives nan or inf (an unspecified real here). *)
Definition pydiv (x : pynum) (d : R) : res pynum :=
  match x with
  | Tens r => Ok (Tens (r / d))
  | PyNum r => if Req_EM_T d 0 then Raise ZeroDivisionError else Ok (PyNum (r / d))
  end.

(** AmplitudeMSENormalizer and IntensityMSENormalizer, whose code is identical
    (losses.py:82-122 and 178-242). *)
Record mse_norm := mkMse { mse_first_pass_complete : bool; mse_num_pix : nat }.
Definition mse_init : mse_norm := mkMse false 0.
Definition mse_accumulate (mask : option (list bool)) (n : mse_norm) (pats : list pattern) : mse_norm :=
  if mse_first_pass_complete n then n
  else mkMse false (mse_num_pix n + length (select mask pats)).
Definition mse_normalize (n : mse_norm) (loss : pynum) : mse_norm * res pynum :=
  (mkMse true (mse_num_pix n), pydiv loss (INR (mse_num_pix n))).

(** SimplePoissonNLLNormalizer (losses.py:314-397).  [normalization] exists once the first pass
    is complete.  t.sum(patterns >= 1) counts pixels. *)
Record nll_norm := mkNll {
  nll_first_pass_complete : bool;
  nll_sum_nonzero : pynum;
  nll_offset : pynum;
  nll_normalization : option pynum
}.
Definition nll_init : nll_norm := mkNll false (PyNum 0) (PyNum 0) None.
Definition count_ge1 (l : list R) : nat :=
  length (filter (fun x => if Rle_dec 1 x then true else false) l).
Definition nll_accumulate (mask : option (list bool)) (n : nll_norm) (pats : list pattern) : nll_norm :=
  if nll_first_pass_complete n then n
  else mkNll false
         (pyadd (nll_sum_nonzero n) (Tens (INR (count_ge1 (select mask pats)))))
         (pyadd (nll_offset n) (Tens (poisson_nll pats pats mask default_eps false)))
         (nll_normalization n).
Definition pysub (a b : pynum) : pynum :=
  match a, b with
  | PyNum x, PyNum y => PyNum (x - y)
  | _, _ => Tens (pyval a - pyval b)
  end.
Definition pyscale (c : R) (a : pynum) : pynum :=
  match a with PyNum x => PyNum (c * x) | Tens x => Tens (c * x) end.
Definition pydiv2 (a b : pynum) : res pynum :=
  match a, b with
  | PyNum _, PyNum d => pydiv a d
  | _, _ => Ok (Tens (pyval a / pyval b))
  end.
Definition nll_normalize (n : nll_norm) (loss : pynum) : nll_norm * res pynum :=
  let n' := if nll_first_pass_complete n then n
            else mkNll true (nll_sum_nonzero n) (nll_offset n)
                       (Some (pyscale (1/2) (nll_sum_nonzero n))) in
  (n', match nll_normalization n' with
       | Some d => pydiv2 (pysub loss (nll_offset n')) d
       | None => Raise AttributeError
       end).

(** One chunk of the closure (reconstructors/base.py:199-211): the model's forward simulation of
    every row, its loss, and the gradient that backward() accumulates (the sum of per-image
    gradients [gi]; automatic differentiation itself is not modelled).  [lossf measured
    simulated] is model.loss with the model's mask. *)
Definition loss_chunk {Prm Gr Inp : Type} (gzero : Gr) (gadd : Gr -> Gr -> Gr)
    (lossf : list pattern -> list pattern -> R)
    (sim : Prm -> Inp -> pattern) (gi : Prm -> Inp -> pattern -> Gr)
    (p : Prm) (ins : list Inp) (pats : list pattern) : res (R * Gr) :=
  Ok (lossf pats (map (sim p) ins),
      fold_right gadd gzero (map (fun r => gi p (fst r) (snd r)) (combine ins pats))).
