(** Model of Bragg2DPtycho.from_dataset (models/bragg_2d_ptycho.py 267-485) followed by the constructor, and of the
    simulation of an exposure (in a batch) by the model it builds.  Exact real and complex arithmetic, as in
    Model_Init. *)
From Verif Require Import Base FinSum Fourier Model_Prop Model_Image Model_Interact Model_Meas Model_Geom Model_Models Model_Forward Model_HighNA Model_Init.
From Coquelicot Require Import Complex.
Local Open Scope R_scope.

(** Its options.  bo_normal: surface_normal, None if not given, Some None if it is an array of another shape than
    (3,).  bo_crop: probe_fourier_crop, a pair.  bo_propagate, bo_tilt: propagate_probe and correct_tilt, None if
    they are neither True nor False.  `padding` is never read; loss, units, plotting and obj_view_crop are left out. *)
Record bragg_options := {
  bo_n_modes : nat; bo_randomize : R; bo_scale : R; bo_saturation : option R; bo_radius : option R; bo_pd : option R;
  bo_mode : smode; bo_normal : option (option V3); bo_os : nat; bo_crop : option (nat * nat);
  bo_propagate : option bool; bo_tilt : option bool; bo_lens : bool; bo_pad : nat }.
(** 309-341 *)
Definition from_bragg_normal (d : data) (o : bragg_options) : res V3 :=
  match bo_normal o with
  | Some None => Raise ValueError
  | Some (Some s) => bragg_normal (d_b0 d) (d_b1 d) (Some s) (bo_mode o) (d_orientation d)
  | None => bragg_normal (d_b0 d) (d_b1 d) None (bo_mode o) (d_orientation d)
  end.
(** 300-307, 343-362 *)
Definition from_bragg_basis (d : data) (s : V3) : V3 * V3 :=
  let e := exit_wave_geometry (d_b0 d) (d_b1 d) (d_h d) (d_w d) (d_wl d) (d_dist d) in bragg_obj_basis (fst e) (snd e) s.
(** t.median: of the sorted values the one at position (n - 1) / 2. *)
Fixpoint insert_sorted (x : R) (l : list R) : list R :=
  match l with nil => x :: nil | y :: r => if Rle_dec x y then x :: y :: r else y :: insert_sorted x r end.
Definition lower_median (l : list R) : R := nth ((length l - 1) / 2) (fold_right insert_sorted nil l) 0.
(** 401-407: the shape of the guess and the guess itself; [c : -c] is empty for c = 0, and the Fourier transform of
    an empty array a RuntimeError. *)
Definition bragg_n0 (d : data) (o : bragg_options) : nat :=
  match bo_crop o with None => bo_os o * d_h d | Some c => crop_len_neg (bo_os o * d_h d) (fst c) end.
Definition bragg_n1 (d : data) (o : bragg_options) : nat :=
  match bo_crop o with None => bo_os o * d_w d | Some c => crop_len_neg (bo_os o * d_w d) (snd c) end.
Definition bragg_guess (d : data) (o : bragg_options) : res img :=
  let p := SHARP_style_probe d (bo_pd o) (bo_os o) in
  match bo_crop o with
  | None => Ok p
  | Some c => if (Nat.eqb (bragg_n0 d o) 0 || Nat.eqb (bragg_n1 d o) 0)%bool then Raise RuntimeError
              else Ok (inverse_far_field (bragg_n0 d o) (bragg_n1 d o) (fun i j => far_field (bo_os o * d_h d) (bo_os o * d_w d) p (fst c + i)%nat (snd c + j)%nat))
  end.
(** 409-412 *)
Definition from_bragg_probe_basis (d : data) (o : bragg_options) (b : V3 * V3) : V3 * V3 :=
  match bo_crop o with
  | None => b
  | Some c => (bragg_probe_basis (fst b) (d_h d) (bo_os o) (fst c), bragg_probe_basis (snd b) (d_w d) (bo_os o) (snd c))
  end.
(** 415-418, 446-457 *)
Definition bragg_support (d : data) (o : bragg_options) : nat -> nat -> bool :=
  match bo_radius o with None => fun _ _ => true | Some r => disc (bragg_n0 d o) (bragg_n1 d o) r end.
Definition bragg_modes (d : data) (o : bragg_options) (ch : chance) (guess : img) : list img :=
  let n0 := bragg_n0 d o in let n1 := bragg_n1 d o in
  let more := map (fun k => fun i j => (RtoC (/ 100 * amax n0 n1 guess) * rand_mode ch k i j)%C) (seq 0 (bo_n_modes o - 1)) in
  match bo_radius o with None => guess :: more | Some _ => map (restrict (bragg_support d o)) (guess :: more) end.
(** The model, with what its forward propagator needs. *)
Record bragg_model := { bm_model : bragg; bm_tilt : bool; bm_lens : bool; bm_d0 : V3; bm_d1 : V3; bm_dist : R }.
(** 364-485 and __init__ (the probe is divided by the maximum of its first mode, 147-153). *)
Definition bragg_assemble (d : data) (o : bragg_options) (ch : chance) (s : V3) (guess : img) (propagate tilt : bool) : bragg_model :=
  let os := bo_os o in let b := from_bragg_basis d s in
  let places := map (project_translations_to_sample (fst b) (snd b)) (d_translations d) in
  let setup := calc_object_setup (d_h d * os) (d_w d * os) (map fst places) (bo_pad o) in
  let pb := from_bragg_probe_basis d o b in
  let modes := bragg_modes d o ch guess in
  let norm := amax (bragg_n0 d o) (bragg_n1 d o) (nth 0 modes no_img) in
  let m := {| g_b0 := fst b; g_b1 := snd b; g_min := snd setup; g_median := lower_median (map snd places); g_scale := bo_scale o;
     g_offsets := Some (repeat (0 / bo_scale o, 0 / bo_scale o) (length (d_patterns d)));
     g_p0 := fst pb; g_p1 := snd pb; g_wl := d_wl d; g_n0 := bragg_n0 d o; g_n1 := bragg_n1 d o;
     g_probe := map (fun (p : img) i j => (p i j / RtoC norm)%C) modes; g_support := bragg_support d o; g_norm := norm;
     g_weights := repeat 1 (length (d_patterns d)); g_propagate := propagate; g_os := os; g_det0 := d_h d; g_det1 := d_w d;
     g_background := match d_background d with Some g => fun i j => sqrt (g i j) | None => fun _ _ => / 10 ^ 6 * 1 end;
     g_saturation := bo_saturation o; g_H := fst (fst setup); g_W := snd (fst setup);
     g_obj := fun a b => cexp (Ci * RtoC (bo_randomize o * (rand_obj ch a b - / 2)))%C |} in
  {| bm_model := m; bm_tilt := tilt; bm_lens := bo_lens o; bm_d0 := d_b0 d; bm_d1 := d_b1 d; bm_dist := d_dist d |}.
Definition bragg_from_dataset (d : data) (o : bragg_options) (ch : chance) : res bragg_model :=
  match d_patterns d with
  | [] => Raise IndexError
  | _ => rbind (from_bragg_normal d o) (fun s => rbind (bragg_guess d o) (fun guess =>
           match bo_propagate o, bo_tilt o with
           | Some p, Some t => Ok (bragg_assemble d o ch s guess p t)
           | _, _ => Raise NotImplementedError
           end))
  end.
(** An exposure of a batch. *)
Definition bragg_simulate (bm : bragg_model) (k : nat) (t : V3) : res rimg :=
  if bm_tilt bm then bragg_tilt_pattern (bm_model bm) (bm_d0 bm) (bm_d1 bm) (bm_dist bm) (bm_lens bm) k t else bragg_pattern (bm_model bm) k t.
