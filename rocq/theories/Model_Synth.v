(** Model of synthesize_reconstructions (src/cdtools/tools/analysis/analysis.py 294-381) and
    calc_consistency_prtf (385-463).  Exact arithmetic; torch/numpy conversions are identities.  An empty slice, on which
    fft2 raises, is not modelled: the theorems require a non-empty one. *)
From Verif Require Import Base FinSum Fourier Matrix Model_Prop Model_Meas Model_Interact Model_Geom Model_Image Model_Shift Model_Analysis Model_Sets.
From Coquelicot Require Import Complex.
Local Open Scope C_scope.

(** An array of probes: l modes of h x w pixels, or (2-D) a single probe without the mode axis. *)
Record probe_array := { q_2d : bool; q_l : nat; q_h : nat; q_w : nat; q_data : nat -> img }.
(** An object of H x W pixels. *)
Record obj_array := { o_H : nat; o_W : nat; o_data : img }.
Definition region := ((nat * nat) * (nat * nat))%type.
(** Torch slicing: the indices a:b of an axis of length n, cut to the axis. *)
Definition clip (n : nat) (s : nat * nat) : nat * nat := (Nat.min (fst s) n, Nat.min (snd s) n).
Definition clip2 (H W : nat) (s : region) : region := (clip H (fst s), clip W (snd s)).
Definition reg_H (s : region) : nat := (snd (fst s) - fst (fst s))%nat.
Definition reg_W (s : region) : nat := (snd (snd s) - fst (snd s))%nat.
Definition at_region (s : region) (x : img) : img := fun i j => x (fst (fst s) + i)%nat (fst (snd s) + j)%nat.

(** 336-337: objects are cut to the least number of rows and columns *)
Definition min_H (objs : list obj_array) : nat := match objs with [] => O | o :: r => fold_left Nat.min (map o_H r) (o_H o) end.
Definition min_W (objs : list obj_array) : nat := match objs with [] => O | o :: r => fold_left Nat.min (map o_W r) (o_W o) end.
(** 345, 350: standardize on a copy *)
Definition standard (H W : nat) (s : region) (ramp : bool) (p : probe_array) (o : obj_array) : probe_array * img :=
  let r := standardize (q_h p) (q_w p) H W (q_data p) (o_data o) (Some s) ramp in
  ({| q_2d := q_2d p; q_l := q_l p; q_h := q_h p; q_w := q_w p; q_data := fst r |}, snd r).
Definition same_shape (p q : probe_array) : bool :=
  (Bool.eqb (q_2d p) (q_2d q) && Nat.eqb (q_l p) (q_l q) && Nat.eqb (q_h p) (q_h q) && Nat.eqb (q_w p) (q_w q))%bool.
(** 351-354: the shift.  A 2-D probe has no first mode: probe[0] is a row, and fft2 of a row is an IndexError. *)
Definition synth_shift (use_probe : bool) (s : region) (sp : probe_array) (so : img) (p : probe_array) (o : img) : res (R * R) :=
  if use_probe then
    if (q_2d sp || q_2d p)%bool then Raise IndexError
    else if (Nat.eqb (q_h sp) (q_h p) && Nat.eqb (q_w sp) (q_w p))%bool then find_shift (q_h sp) (q_w sp) (q_data sp 0%nat) (q_data p 0%nat) 50
    else Raise RuntimeError
  else find_shift (reg_H s) (reg_W s) (at_region s so) (at_region s o) 50.
(** 349-366: one round of the loop.  Probe arrays of different shapes, which torch rejects or broadcasts, are not
    modelled: they raise here. *)
Definition synth_step (H W : nat) (use_probe : bool) (s : region) (ramp : bool)
    (acc : probe_array * img * list img) (po : probe_array * obj_array) : res (probe_array * img * list img) :=
  let '(sp, so, stack) := acc in
  let '(p, o) := standard H W s ramp (fst po) (snd po) in
  (do shift <- synth_shift use_probe s sp so p o;
   let o := shift_by H W shift o in
   let q := fun k => shift_by (q_h p) (q_w p) shift (q_data p k) in
   if same_shape sp p then
     Ok ({| q_2d := q_2d sp; q_l := q_l sp; q_h := q_h sp; q_w := q_w sp; q_data := fun k i j => q_data sp k i j + q k i j |},
         (fun i j => so i j + o i j), stack ++ [o])
   else Raise RuntimeError)%res.
Fixpoint synth_loop (H W : nat) (use_probe : bool) (s : region) (ramp : bool) (pos : list (probe_array * obj_array))
    (acc : probe_array * img * list img) : res (probe_array * img * list img) :=
  match pos with [] => Ok acc | po :: r => (do acc <- synth_step H W use_probe s ramp acc po; synth_loop H W use_probe s ramp r acc)%res end.
(** synthesize_reconstructions: the synthesized probe, the synthesized object and the stack of objects, all objects
    with min_H x min_W pixels.  zip stops at the end of the shorter list; i + 2 (380) is the number of pairs used. *)
Definition synthesize_reconstructions (probes : list probe_array) (objects : list obj_array) (use_probe : bool)
    (obj_slice : option region) (correct_ramp : bool) : res (probe_array * img * list img) :=
  match probes, objects with
  | p :: ps, o :: os =>
    let H := min_H objects in let W := min_W objects in
    let s := clip2 H W (match obj_slice with Some s => s | None => (default_slice H, default_slice W) end) in
    let '(sp, so) := standard H W s correct_ramp p o in
    (do (sp, so, stack) <- synth_loop H W use_probe s correct_ramp (combine ps os) (sp, so, [so]);
     let n := RtoC (INR (length (combine ps os) + 1)) in
     Ok ({| q_2d := q_2d sp; q_l := q_l sp; q_h := q_h sp; q_w := q_w sp; q_data := fun k i j => q_data sp k i j / n |},
         (fun i j => so i j / n), stack))%res
  | _, _ => Raise IndexError
  end.

(** calc_consistency_prtf on the slice: ring b of the histogram over the whole range of frequencies (424-441). *)
Definition ring_power (h w nbins : nat) (di dj : R) (x : img) (b : nat) : R :=
  histogram_r h w (frc_bin h w nbins di dj Corner b) (fun i j => (Cmod (fftshift2 h w (fft2 h w x) i j) ^ 2)%R).
Definition mean_list (l : list R) : R := (fold_right Rplus 0 l / INR (length l))%R.
(** calc_consistency_prtf: the frequencies and the values of the nbins rings.  The weights of a histogram must have
    the shape of the frequencies, else ValueError; no bins: ValueError; a ring without pixels or signal, whose value
    is NaN or infinite, is not modelled. *)
Definition calc_consistency_prtf (synth_obj : obj_array) (objects : list obj_array) (b1 b2 : V3) (obj_slice : option region) (nbins : option nat)
  : res (nat * (nat -> R) * (nat -> R)) :=
  match objects with
  | [] => Raise IndexError
  | o0 :: _ =>
    let sl := match obj_slice with Some s => s | None => (default_slice (o_H o0), default_slice (o_W o0)) end in
    let cut o := at_region (clip2 (o_H o) (o_W o) sl) (o_data o) in
    let side_H o := reg_H (clip2 (o_H o) (o_W o) sl) in let side_W o := reg_W (clip2 (o_H o) (o_W o) sl) in
    let h := side_H synth_obj in let w := side_W synth_obj in
    let n := match nbins with Some n => n | None => (Nat.max h w / 4)%nat end in
    if (Nat.eqb n 0 || negb (forallb (fun o => Nat.eqb (side_H o) h && Nat.eqb (side_W o) w) objects))%bool then Raise ValueError
    else
      let di := length3 b1 in let dj := length3 b2 in
      Ok (n, edge n (frc_range h w di dj Corner),
          fun b => mean_list (map (fun o => (ring_power h w n di dj (cut synth_obj) b / ring_power h w n di dj (cut o) b)%R) objects))
  end.
