(** Model of src/cdtools/tools/measurements/measurements.py for one pattern: intensity (20-85),
    incoherent_sum (88-155), quadratic_background (158-219), with simulate_finite_pixels=False; of the
    finite-pixel branch only the array shapes are modelled here (Model_Finite has its values).  Exact arithmetic. *)
From Verif Require Import Base FinSum Fourier Model_Prop.
From Coquelicot Require Import Complex.
Local Open Scope R_scope.

Definition rimg := nat -> nat -> R.
(** avg_pool2d with kernel and stride k (trailing incomplete blocks are dropped: the output has n / k rows). *)
Definition avg_pool2d (k : nat) (x : rimg) : rimg := fun i j =>
  (rsum k (fun a => rsum k (fun b => x (i * k + a)%nat (j * k + b)%nat))) / INR (k * k).
Record opts := { o_slice : option (nat * nat);   (* first row and column of the detector slice *)
                 o_eps : R; o_sat : option R; o_over : nat }.
Definition clamp (x lo hi : R) : R := Rmin (Rmax x lo) hi.
Definition saturate (sat : option R) (x : R) : R := match sat with None => x | Some s => clamp x 0 s end.
(** The common tail of intensity (65-85) and incoherent_sum (137-155). *)
Definition finish (o : opts) (x : rimg) : rimg :=
  let x := if Nat.eqb (o_over o) 1 then x else avg_pool2d (o_over o) x in
  let x := match o_slice o with None => x | Some (r, c) => fun i j => x (r + i)%nat (c + j)%nat end in
  fun i j => saturate (o_sat o) (x i j + o_eps o).
Definition intensity (o : opts) (psi : img) : rimg := finish o (fun i j => Cmod (psi i j) ^ 2).
Definition incoherent_sum (o : opts) (modes : list img) : rimg :=
  finish o (fun i j => lsum (map (fun psi : img => Cmod (psi i j) ^ 2) modes)).
(** quadratic_background with measurement=incoherent_sum (a single mode gives measurement=intensity). *)
Definition quadratic_background (o : opts) (modes : list img) (background : rimg) (qe : option rimg) : rimg :=
  let raw := incoherent_sum {| o_slice := o_slice o; o_eps := o_eps o; o_sat := None; o_over := o_over o |} modes in
  fun i j => saturate (o_sat o) ((match qe with None => raw i j | Some q => q i j * raw i j end) + background i j ^ 2).
(** Shape of the output of the finite-pixel branch (51-65, 118-134): F.pad takes its pairs from the last
    dimension backwards, but is given the pair computed from dimension -2 first; then every other pixel. *)
Definition finite_pixels_shape (H W : nat) : nat * nat :=
  let pad1 := (H / 2 + (H - H / 2))%nat in
  let pad2 := (W / 2 + (W - W / 2))%nat in
  let rows := (H + pad2)%nat in let cols := (W + pad1)%nat in
  ((rows + 1) / 2, (cols + 1) / 2)%nat.
