(** Model of image_processing.center (344-414) and FancyPtycho.center_probes (fancy_ptycho.py 755-787), with
    image_processing.centroid (39-68) from Model_Analysis.  Exact arithmetic; image_dims=2 (other values raise
    NotImplementedError); complex images (a real tensor would only keep the real part of each shift); the extra
    dimensions ravelled to a list. *)
From Verif Require Import Base FinSum Fourier Model_Analysis Model_Prop Model_Image Model_Forward.
From Coquelicot Require Import Complex.
Local Open Scope R_scope.

(** to_center (400-403): the summed powers or magnitudes. *)
Definition to_center (use_power : bool) (ims : list img) : nat -> nat -> R := fun i j =>
  lsum (map (fun x : img => if use_power then Cmod (x i j) ^ 2 else Cmod (x i j)) ims).
(** One iteration (399-411).  None: the sum is 0, the centroid is 0/0 and every pixel becomes NaN. *)
Definition center_step (N M : nat) (use_power : bool) (ims : list img) : option (list img) :=
  let w := to_center use_power ims in
  if Req_EM_T (isum N M w) 0 then None
  else let c := centroid N M w in
       Some (map (fun x => sinc_subpixel_shift N M x (- fst c + INR N / 2) (- snd c + INR M / 2)) ims).
(** center (344-414); the input is cloned first. *)
Fixpoint center (N M : nat) (use_power : bool) (iterations : nat) (ims : list img) : option (list img) :=
  match iterations with
  | O => Some ims
  | S k => match center_step N M use_power ims with None => None | Some ys => center N M use_power k ys end
  end.
(** center_probes: the new value of the probe. *)
Definition center_probes (m : fancy) (iterations : nat) : option (list img) :=
  let prs := if f_fourier m then map (inverse_far_field (f_n0 m) (f_n1 m)) (f_probe m) else f_probe m in
  match center (f_n0 m) (f_n1 m) true iterations prs with
  | None => None
  | Some ys => Some (if f_fourier m then map (far_field (f_n0 m) (f_n1 m)) ys else ys)
  end.
