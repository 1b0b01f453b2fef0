(** Model of saving a whole CDI model and rebuilding it from its results: the constructors, the
    save_results methods and the from_results_dict class methods of SimplePtycho, FancyPtycho,
    MultislicePtycho, Bragg2DPtycho and RPI (src/cdtools/models/*.py), on top of
    CDIModel.save_results / _load_results_dict (Model_H5). *)
From Verif Require Import Base Model_H5 Model_Cxi.
Local Open Scope string_scope.
Local Open Scope res_scope.

(** The state a CDIModel registers with torch: buffers, and parameters with their requires_grad
    flag.  A slot without a value stands for an attribute that is None (or absent) and therefore
    not in state_dict(). *)
Inductive kind := KBuffer | KParam (requires_grad : bool).
Definition is_param (k : kind) : bool := match k with KParam _ => true | KBuffer => false end.
(** The loss functions a model can be given, and the names save_results writes for them
    (functions' __name__; base.py:195-198). *)
Inductive lossfn := AmplitudeMSE | PoissonNLL | IntensityMSE.
Definition loss_name (l : lossfn) : string :=
  match l with AmplitudeMSE => "amplitude_mse" | PoissonNLL => "poisson_nll" | IntensityMSE => "intensity_mse" end.
(** loss.lower().strip() compared with the six accepted names (fancy_ptycho.py:226-241 and the
    same lines in the other models). *)
Definition loss_of (s : string) : res lossfn :=
  let s := clean s in
  if (s =? "amplitude mse") || (s =? "amplitude_mse") then Ok AmplitudeMSE
  else if (s =? "poisson nll") || (s =? "poisson_nll") then Ok PoissonNLL
  else if (s =? "intensity mse") || (s =? "intensity_mse") then Ok IntensityMSE
  else Raise KeyError.

Section Reload.
Context {E : Type}.
Notation arr := (arr E).
Notation pyv := (pyv E).
Record slot := mkSlot { sl_name : string; sl_kind : kind; sl_val : option arr }.

(** Arithmetic on elements is left abstract: conversion to a type, |max| of a list, division,
    multiplication by a support, booleans, and the contents of tensors computed by the
    constructors (phase ramps, propagators, ...) from their inputs. *)
Context (cast : dtype -> E -> E) (maxabs : list E -> E) (ediv emul : E -> E -> E)
        (of_bool : bool -> E) (truth : E -> bool) (one : E)
        (fresh : string -> list arr -> list nat -> list E)
        (int_of : E -> Z) (of_int : Z -> E).

(** t.as_tensor(a, dtype=dt) *)
Definition tens (dt : dtype) (a : arr) : arr := mkArr dt (a_shape a) (map (cast dt) (a_data a)).
Definition num (dt : dtype) (e : E) : arr := mkArr dt [] [cast dt e].
Definition flag (b : bool) : arr := mkArr DBool [] [of_bool b].
Definition buf (k : string) (v : option arr) : slot := mkSlot k KBuffer v.
Definition par (k : string) (v : option arr) : slot := mkSlot k (KParam true) v.
Definition lastn (n : nat) (s : list nat) : list nat := skipn (length s - n) s.
Definition ones (dt : dtype) (s : list nat) : arr := mkArr dt s (repeat (cast dt one) (prod s)).

(** probe / probe_norm, then *= probe_support, broadcast over the leading dimensions
    (fancy_ptycho.py:132-137, 194-198; the same in multislice and bragg). *)
Definition probe_norm_of (p : arr) : E :=
  maxabs (if Nat.ltb 2 (length (a_shape p)) then firstn (prod (tl (a_shape p))) (a_data p) else a_data p).
Definition scaled (p sup : arr) (nrm : E) : arr :=
  mkArr (a_dt p) (a_shape p)
    (map (fun i => emul (ediv (nth i (a_data p) one) nrm) (nth (i mod length (a_data sup)) (a_data sup) one))
         (seq 0 (length (a_data p)))).
(** Weights: real when one-dimensional, complex otherwise (fancy_ptycho.py:165-176). *)
Definition weights_dt (w : arr) : dtype := if Nat.eqb (length (a_shape w)) 1 then DF32 else DC64.

(** ---- FancyPtycho.__init__ (fancy_ptycho.py:15-247) and MultislicePtycho.__init__
    (multislice_ptycho.py:15-186), which registers a subset plus the interslice propagator. ---- *)
Record pargs := mkPargs {
  pa_wavelength : arr; pa_det_basis : arr; pa_det_distance : option arr; pa_det_corner : option arr;
  pa_obj_basis : arr; pa_probe : arr; pa_obj : arr; pa_surface_normal : arr; pa_min_translation : arr;
  pa_background : option arr; pa_probe_basis : option arr; pa_translation_offsets : option arr;
  pa_probe_fourier_shifts : option arr; pa_mask : option arr; pa_weights : option arr;
  pa_qe_mask : option arr; pa_translation_scale : E; pa_saturation : option arr;
  pa_probe_support : option arr; pa_oversampling : E;
  pa_fourier_probe : bool; pa_loss : string; pa_simulate_probe_translation : bool;
  pa_simulate_finite_pixels : bool; pa_exponentiate_obj : bool; pa_phase_only : bool; pa_near_field : bool;
  pa_asp : option arr; pa_iasp : option arr; pa_interslice : arr; pa_dtype : dtype; pa_translations : option arr }.

Definition support_of (p : arr) (s : option arr) : arr :=
  match s with Some s => tens DBool s | None => ones DBool (tl (a_shape p)) end.
Definition phase_ramp (k : string) (dt : dtype) (on : bool) (p : arr) (os : E) : option arr :=
  if on then Some (mkArr dt (lastn 2 (a_shape p)) (fresh k [p; num DInt os] (lastn 2 (a_shape p)))) else None.

Definition fancy_init (a : pargs) : res (list slot * lossfn) :=
  let dt := pa_dtype a in
  match pa_background a, pa_probe_fourier_shifts a, pa_translation_offsets a with
  | None, _, _ => Raise NotImplementedError
  | _, Some _, None => Raise TypeError                         (* t.as_tensor(None, ...) *)
  | Some bg, pfs, toff =>
    do l <- loss_of (pa_loss a);
    let p := tens DC64 (pa_probe a) in
    let nrm := probe_norm_of p in
    let sup := support_of p (pa_probe_support a) in
    let ramp k := phase_ramp k dt (pa_simulate_probe_translation a || match pfs with Some _ => true | None => false end)
                    p (pa_oversampling a) in
    Ok ([ buf "wavelength" (Some (tens dt (pa_wavelength a)));
          buf "det_basis" (Some (tens dt (pa_det_basis a)));
          buf "det_distance" (option_map (tens dt) (pa_det_distance a));
          buf "det_corner" (option_map (tens dt) (pa_det_corner a));
          buf "min_translation" (Some (tens dt (pa_min_translation a)));
          buf "obj_basis" (Some (tens dt (pa_obj_basis a)));
          buf "probe_basis" (Some (tens dt (match pa_probe_basis a with Some b => b | None => pa_obj_basis a end)));
          buf "surface_normal" (Some (tens dt (pa_surface_normal a)));
          buf "saturation" (option_map (tens dt) (pa_saturation a));
          buf "fourier_probe" (Some (flag (pa_fourier_probe a)));
          buf "exponentiate_obj" (Some (flag (pa_exponentiate_obj a)));
          buf "phase_only" (Some (flag (pa_phase_only a)));
          buf "near_field" (Some (flag (pa_near_field a)));
          buf "angular_spectrum_propagator" (option_map (tens DC64) (pa_asp a));
          buf "inv_angular_spectrum_propagator" (option_map (tens DC64) (pa_iasp a));
          buf "mask" (option_map (tens DBool) (pa_mask a));
          mkSlot "qe_mask" (KParam false) (option_map (tens dt) (pa_qe_mask a));
          buf "probe_norm" (Some (num dt nrm));
          par "probe" (Some (scaled p sup (cast dt nrm)));
          par "obj" (Some (tens DC64 (pa_obj a)));
          par "background" (Some (tens dt bg));
          par "weights" (option_map (fun w => tens (weights_dt w) w) (pa_weights a));
          par "translation_offsets"
            (option_map (fun o => mkArr DF32 (a_shape o) (map (fun e => ediv (cast DF32 e) (pa_translation_scale a)) (a_data o))) toff);
          par "probe_fourier_shifts"
            (match pfs, toff with Some _, Some o => Some (tens DF32 o) | _, _ => None end);   (* 187-189: the offsets *)
          buf "translation_scale" (Some (num dt (pa_translation_scale a)));
          buf "probe_support" (Some sup);
          buf "oversampling" (Some (num DInt (pa_oversampling a)));
          buf "simulate_probe_translation" (Some (flag (pa_simulate_probe_translation a)));
          buf "I_phase" (ramp "I_phase");
          buf "J_phase" (ramp "J_phase");
          buf "simulate_finite_pixels" (Some (flag (pa_simulate_finite_pixels a)));
          buf "original_translations" (option_map (tens dt) (pa_translations a)) ], l)
  end.

Definition multislice_init (a : pargs) : res (list slot * lossfn) :=
  let dt := pa_dtype a in
  match pa_background a with
  | None => Raise NotImplementedError
  | Some bg =>
    do l <- loss_of (pa_loss a);
    let p := tens DC64 (pa_probe a) in
    let nrm := probe_norm_of p in
    let sup := support_of p (pa_probe_support a) in
    let ramp k := phase_ramp k dt (pa_simulate_probe_translation a) p (pa_oversampling a) in
    Ok ([ buf "wavelength" (Some (tens dt (pa_wavelength a)));
          buf "det_basis" (Some (tens dt (pa_det_basis a)));
          buf "det_distance" (option_map (tens dt) (pa_det_distance a));
          buf "det_corner" (option_map (tens dt) (pa_det_corner a));
          buf "min_translation" (Some (tens dt (pa_min_translation a)));
          buf "obj_basis" (Some (tens dt (pa_obj_basis a)));
          buf "exponentiate_obj" (Some (flag (pa_exponentiate_obj a)));
          buf "interslice_propagator" (Some (tens DC64 (pa_interslice a)));
          buf "probe_basis" (Some (tens dt (match pa_probe_basis a with Some b => b | None => pa_obj_basis a end)));
          buf "surface_normal" (Some (tens dt (pa_surface_normal a)));
          buf "saturation" (option_map (tens dt) (pa_saturation a));
          buf "fourier_probe" (Some (flag (pa_fourier_probe a)));
          buf "mask" (option_map (tens DBool) (pa_mask a));
          buf "probe_norm" (Some (num dt nrm));
          par "probe" (Some (scaled p sup (cast dt nrm)));
          par "obj" (Some (tens DC64 (pa_obj a)));
          par "background" (Some (tens dt bg));
          par "weights" (option_map (fun w => tens (weights_dt w) w) (pa_weights a));
          par "translation_offsets"
            (option_map (fun o => mkArr DF32 (a_shape o) (map (fun e => ediv (cast DF32 e) (pa_translation_scale a)) (a_data o)))
               (pa_translation_offsets a));
          buf "translation_scale" (Some (num dt (pa_translation_scale a)));
          buf "probe_support" (Some sup);
          buf "oversampling" (Some (num DInt (pa_oversampling a)));
          buf "simulate_probe_translation" (Some (flag (pa_simulate_probe_translation a)));
          buf "I_phase" (ramp "I_phase");
          buf "J_phase" (ramp "J_phase");
          buf "simulate_finite_pixels" (Some (flag (pa_simulate_finite_pixels a)));
          buf "original_translations" (option_map (tens dt) (pa_translations a)) ], l)
  end.

(** ---- Bragg2DPtycho.__init__ (bragg_2d_ptycho.py:61-263).  [hna_shape] is the shape of the two
    maps of generate_high_NA_k_intensity_map: (N, M, 2) and (N, M) for N, M = oversampling times
    the background's dimensions. ---- *)
Context (times : E -> nat -> nat).
Definition hna_shape (os : E) (bg : list nat) : list nat := map (times os) bg.
Record bargs := mkBargs {
  ba_wavelength : arr; ba_det_basis : arr; ba_det_distance : option arr; ba_det_corner : option arr;
  ba_obj_basis : arr; ba_probe : arr; ba_obj : arr; ba_min_translation : arr; ba_probe_basis : option arr;
  ba_median_propagation : arr; ba_background : option arr; ba_translation_offsets : option arr;
  ba_mask : option arr; ba_weights : option arr; ba_translation_scale : E; ba_saturation : option arr;
  ba_probe_support : option arr; ba_oversampling : E; ba_propagate_probe : bool; ba_correct_tilt : bool;
  ba_lens : bool; ba_loss : string; ba_dtype : dtype; ba_translations : option arr }.

Definition bragg_init (a : bargs) : res (list slot * lossfn) :=
  let dt := ba_dtype a in
  match ba_background a, ba_det_distance a with
  | None, _ => Raise NotImplementedError
  | Some bg, dist =>
    match ba_correct_tilt a, dist with
    | true, None => Raise KeyError                    (* get_detector_geometry()['distance'] *)
    | tilt, _ =>
    do l <- loss_of (ba_loss a);
    let p := tens DC64 (ba_probe a) in
    let nrm := probe_norm_of p in
    let sup := support_of p (ba_probe_support a) in
    let hs := hna_shape (ba_oversampling a) (a_shape bg) in
    let ins := [ba_obj_basis a; ba_det_basis a; flag (ba_lens a)] in
    Ok ([ buf "wavelength" (Some (tens dt (ba_wavelength a)));
          buf "det_basis" (Some (tens dt (ba_det_basis a)));
          buf "det_distance" (option_map (tens dt) dist);
          buf "det_corner" (option_map (tens dt) (ba_det_corner a));
          buf "min_translation" (Some (tens dt (ba_min_translation a)));
          buf "median_propagation" (Some (tens dt (ba_median_propagation a)));
          buf "obj_basis" (Some (tens dt (ba_obj_basis a)));
          buf "probe_basis" (Some (tens dt (match ba_probe_basis a with Some b => b | None => ba_obj_basis a end)));
          buf "surface_normal" (Some (mkArr dt [3] (fresh "surface_normal" [ba_obj_basis a] [3])));
          buf "saturation" (option_map (tens dt) (ba_saturation a));
          buf "mask" (option_map (tens DBool) (ba_mask a));
          buf "probe_norm" (Some (num dt nrm));
          par "probe" (Some (scaled p sup (cast dt nrm)));
          par "obj" (Some (tens DC64 (ba_obj a)));
          buf "probe_support" (Some sup);
          par "background" (Some (tens dt bg));
          par "weights" (option_map (tens DF32) (ba_weights a));
          par "translation_offsets"
            (option_map (fun o => mkArr DF32 (a_shape o) (map (fun e => ediv (cast DF32 e) (ba_translation_scale a)) (a_data o)))
               (ba_translation_offsets a));
          buf "translation_scale" (Some (num dt (ba_translation_scale a)));
          buf "oversampling" (Some (num DInt (ba_oversampling a)));
          buf "propagate_probe" (Some (flag (ba_propagate_probe a)));
          buf "correct_tilt" (Some (flag tilt));
          buf "k_map" (if tilt then Some (mkArr dt (hs ++ [2])%list (fresh "k_map" ins (hs ++ [2])%list)) else None);
          buf "intensity_map" (if tilt then Some (mkArr dt hs (fresh "intensity_map" ins hs)) else None);
          buf "prop_dir" (Some (mkArr dt [3] (fresh "prop_dir" [] [3])));
          buf "universal_propagator"
            (Some (mkArr DF32 (lastn 2 (a_shape p)) (fresh "universal_propagator" [p; ba_obj_basis a] (lastn 2 (a_shape p)))));
          buf "original_translations" (option_map (tens dt) (ba_translations a)) ], l)
    end
  end.

(** ---- RPI.__init__ (rpi.py:42-164). ---- *)
Record rargs := mkRargs {
  ra_wavelength : arr; ra_det_basis : arr; ra_det_distance : option arr; ra_det_corner : option arr;
  ra_probe_basis : arr; ra_probe : arr; ra_obj : arr; ra_background : option arr; ra_mask : option arr;
  ra_saturation : option arr; ra_obj_support : option arr; ra_oversampling : E; ra_weight_matrix : bool;
  ra_exponentiate_obj : bool; ra_phase_only : bool; ra_propagation_distance : arr; ra_loss : string; ra_dtype : dtype }.
Definition complex_of (dt : dtype) : dtype := match dt with DF64 => DC128 | _ => DC64 end.
Definition rpi_init (a : rargs) : res (list slot * lossfn) :=
  let dt := ra_dtype a in
  let cdt := complex_of dt in
  do l <- loss_of (ra_loss a);
  let p := tens cdt (ra_probe a) in
  let o0 := tens cdt (ra_obj a) in
  let o := if Nat.eqb (length (a_shape o0)) 2 then mkArr cdt (1 :: a_shape o0)%list (a_data o0) else o0 in
  let n := hd 0 (a_shape p) in
  let sup := match ra_obj_support a with Some s => tens DInt s | None => ones DInt (tl (a_shape o)) end in
  Ok ([ buf "wavelength" (Some (tens dt (ra_wavelength a)));
        buf "det_basis" (Some (tens dt (ra_det_basis a)));
        buf "det_distance" (option_map (tens dt) (ra_det_distance a));
        buf "det_corner" (option_map (tens dt) (ra_det_corner a));
        buf "probe_basis" (Some (tens dt (ra_probe_basis a)));
        buf "obj_basis" (Some (mkArr dt (a_shape (ra_probe_basis a))
                                 (fresh "obj_basis" [ra_probe_basis a; p; o] (a_shape (ra_probe_basis a)))));
        buf "saturation" (option_map (tens dt) (ra_saturation a));
        buf "mask" (option_map (tens DBool) (ra_mask a));
        buf "probe" (Some p);
        buf "exponentiate_obj" (Some (flag (ra_exponentiate_obj a)));
        buf "phase_only" (Some (flag (ra_phase_only a)));
        par "obj" (Some (scaled o sup (cast cdt one)));
        mkSlot "weights" (KParam (ra_weight_matrix a)) (Some (mkArr cdt [n; n] (fresh "eye" [] [n; n])));
        buf "background" (Some (match ra_background a with
                                | Some b => tens DF32 b
                                | None => mkArr DF32 (tl (a_shape p)) (fresh "background" [] (tl (a_shape p)))
                                end));
        buf "obj_support" (Some sup);
        buf "oversampling" (Some (num DInt (ra_oversampling a)));
        buf "propagation_distance" (Some (tens dt (ra_propagation_distance a)));
        buf "prop_dir" (Some (mkArr dt [3] (fresh "prop_dir" [] [3]))) ], l).

(** ---- SimplePtycho.__init__ (simple_ptycho.py:9-48): buffers keep the type they come with. ---- *)
Record sargs := mkSargs { sa_wavelength : arr; sa_probe_basis : arr; sa_probe : arr; sa_obj : arr; sa_min_translation : arr }.
Definition simple_init (a : sargs) : res (list slot * lossfn) :=
  let p := tens DC64 (sa_probe a) in
  let nrm := maxabs (a_data p) in
  Ok ([ buf "wavelength" (Some (sa_wavelength a));
        buf "min_translation" (Some (sa_min_translation a));
        buf "probe_basis" (Some (sa_probe_basis a));
        buf "probe_norm" (Some (mkArr DF32 [] [nrm]));
        par "probe" (Some (mkArr DC64 (a_shape p) (map (fun z => ediv z nrm) (a_data p))));
        par "obj" (Some (tens DC64 (sa_obj a))) ], AmplitudeMSE).

(** ---- a model object and its results ---- *)
Record model := mkModel { md_slots : list slot; md_loss : lossfn; md_history : list E; md_epoch : Z; md_training : string }.
(** state_dict(): parameters first, then buffers, each in registration order. *)
Definition named (p : bool) (s : list slot) : list (string * arr) :=
  flat_map (fun x => if Bool.eqb (is_param (sl_kind x)) p
                     then match sl_val x with Some a => [(sl_name x, a)] | None => [] end else []) s.
Definition state_dict (s : list slot) : list (string * arr) := (named true s ++ named false s)%list.
Fixpoint slot_val (k : string) (s : list slot) : option arr :=
  match s with [] => None | x :: s' => if String.eqb k (sl_name x) then sl_val x else slot_val k s' end.

(** CDIModel.save_results (base.py:189-202) *)
Definition base_results (m : model) (cls version : string) : res (list (string * pyv)) :=
  save_results of_int (mkMs (state_dict (md_slots m)) (md_history m) (md_epoch m) (md_training m))
    (loss_name (md_loss m)) cls version.
(** The readable copies appended by the subclasses; [ds] are the translations of the dataset passed
    to save_results, if any (fancy_ptycho.py:1199-1233; the same in bragg and multislice).
    corrected_translations raises ValueError without translations, and self.weights.detach()
    AttributeError when weights is None. *)
Definition ptycho_extras (m : model) (ds : option arr) : res (list (string * pyv)) :=
  let v k := match slot_val k (md_slots m) with Some a => a | None => mkArr DF32 [] [] end in
  match (match ds with Some a => Some a | None => slot_val "original_translations" (md_slots m) end) with
  | None => Raise ValueError
  | Some tr =>
    match slot_val "weights" (md_slots m) with
    | None => Raise AttributeError
    | Some w =>
      Ok [("obj_basis", PArr (v "obj_basis")); ("probe_basis", PArr (v "probe_basis"));
          ("translations", PArr (mkArr DF32 (a_shape tr) (fresh "corrected" [tr] (a_shape tr))));
          ("original_translations", PArr tr);
          ("probe", PArr (mkArr DC64 (a_shape (v "probe")) (map (fun e => emul e (hd one (a_data (v "probe_norm")))) (a_data (v "probe")))));
          ("obj", PArr (v "obj"));
          ("background", PArr (mkArr (a_dt (v "background")) (a_shape (v "background")) (map (fun e => emul e e) (a_data (v "background")))));
          ("oversampling", PArr (v "oversampling")); ("weights", PArr w); ("wavelength", PArr (v "wavelength"))]
    end
  end.
Definition ptycho_save (cls version : string) (m : model) (ds : option arr) : res (list (string * pyv)) :=
  do b <- base_results m cls version;
  rmap (app b) (ptycho_extras m ds).
(** rpi.py:662-690, simple_ptycho.py:130-149 *)
Definition rpi_save (cls version : string) (m : model) : res (list (string * pyv)) :=
  let v k := match slot_val k (md_slots m) with Some a => a | None => mkArr DF32 [] [] end in
  do b <- base_results m cls version;
  Ok (b ++ [("probe_basis", PArr (v "probe_basis")); ("obj_basis", PArr (v "obj_basis")); ("probe", PArr (v "probe"));
            ("obj", PArr (mkArr DC64 (tl (a_shape (v "obj"))) (firstn (prod (tl (a_shape (v "obj")))) (a_data (v "obj")))));
            ("background", PArr (mkArr DF32 (a_shape (v "background")) (map (fun e => emul e e) (a_data (v "background")))))])%list.
Definition simple_save (cls version : string) (m : model) : res (list (string * pyv)) :=
  let v k := match slot_val k (md_slots m) with Some a => a | None => mkArr DF32 [] [] end in
  do b <- base_results m cls version;
  Ok (b ++ [("probe_basis", PArr (v "probe_basis"));
            ("probe", PArr (mkArr DC64 (a_shape (v "probe")) (map (fun e => emul e (hd one (a_data (v "probe_norm")))) (a_data (v "probe")))));
            ("obj", PArr (v "obj")); ("wavelength", PArr (v "wavelength"))])%list.

(** Reading values out of results_dict['state_dict']: sd[k], sd.get(k), and bool / int / float of a
    single number. *)
Definition as_arr (v : pyv) : res arr :=
  match v with PArr a | PTensor a _ => Ok a | PNum t e => Ok (mkArr t [] [e]) | _ => Raise TypeError end.
Definition req (k : string) (sd : list (string * pyv)) : res arr :=
  match lookup k sd with Some v => as_arr v | None => Raise KeyError end.
Definition get (k : string) (sd : list (string * pyv)) : res (option arr) :=
  match lookup k sd with Some v => rmap Some (as_arr v) | None => Ok None end.
Definition get_or (k : string) (d : arr) (sd : list (string * pyv)) : res arr :=
  match lookup k sd with Some v => as_arr v | None => Ok d end.
Definition single (a : arr) : res E := match a_data a with [e] => Ok e | _ => Raise ValueError end.
Definition get_num (k : string) (d : E) (sd : list (string * pyv)) : res E :=
  match lookup k sd with Some v => rbind (as_arr v) single | None => Ok d end.
Definition get_bool (k : string) (d : bool) (sd : list (string * pyv)) : res bool :=
  match lookup k sd with Some v => rmap truth (rbind (as_arr v) single) | None => Ok d end.
Definition get_loss (d : list (string * pyv)) : res string :=
  match lookup "loss_function" d with Some (PStr s) => Ok s | Some _ => Raise AttributeError | None => Ok "amplitude mse" end.
Definition get_sd (d : list (string * pyv)) : res (list (string * pyv)) :=
  match lookup "state_dict" d with Some (PDict sd) => Ok sd | Some _ => Raise TypeError | None => Raise KeyError end.

(** model._load_results_dict(results_dict) on a freshly built model (base.py:218-235): load_state_dict
    writes into the registered tensors, then the training metadata is replaced. *)
Definition finish (sl : list slot * lossfn) (d : list (string * pyv)) : res model :=
  do ms <- load_results int_of (mkMs (state_dict (fst sl)) [] 0%Z "") d;
  Ok (mkModel (map (fun x => mkSlot (sl_name x) (sl_kind x)
                      (match sl_val x with Some _ => lookup (sl_name x) (ms_params ms) | None => None end)) (fst sl))
              (snd sl) (ms_loss_history ms) (ms_epoch ms) (ms_training ms)).

Definition vec (l : list E) : arr := mkArr DF64 [length l] l.
Context (zero : E).
(** The constructor arguments FancyPtycho.from_results_dict (1236-1302) and
    MultislicePtycho.from_results_dict (907-942) pass; [inter] reads the interslice propagator. *)
Definition pargs_of (inter : list (string * pyv) -> res arr) (d : list (string * pyv)) : res pargs :=
  do sd <- get_sd d;
  do wl <- req "wavelength" sd; do db <- req "det_basis" sd; do dd <- get "det_distance" sd; do dc <- get "det_corner" sd;
  do ob <- req "obj_basis" sd; do p <- req "probe" sd; do o <- req "obj" sd;
  do sn <- get_or "surface_normal" (vec [zero; zero; one]) sd;
  do mt <- get_or "min_translation" (vec [zero; zero]) sd;
  do bg <- req "background" sd; do pb <- get "probe_basis" sd; do toff <- get "translation_offsets" sd;
  do pfs <- get "probe_fourier_shifts" sd; do mk <- get "mask" sd; do w <- get "weights" sd; do qe <- get "qe_mask" sd;
  do sat <- get "saturation" sd; do ts <- get_num "translation_scale" one sd; do os <- get_num "oversampling" one sd;
  do fp <- get_bool "fourier_probe" false sd; do l <- get_loss d;
  do spt <- get_bool "simulate_probe_translation" false sd; do sfp <- get_bool "simulate_finite_pixels" false sd;
  do ex <- get_bool "exponentiate_obj" false sd; do po <- get_bool "phase_only" false sd; do nf <- get_bool "near_field" false sd;
  do asp <- get "angular_spectrum_propagator" sd; do iasp <- get "inv_angular_spectrum_propagator" sd;
  do tr <- get "original_translations" sd;
  do ip <- inter sd;
  Ok (mkPargs wl db dd dc ob p o sn mt (Some bg) pb toff pfs mk w qe ts sat None os fp l spt sfp ex po nf asp iasp ip DF32 tr).
Definition fancy_from_results (d : list (string * pyv)) : res model :=
  do a <- pargs_of (fun _ => Ok (vec [])) d; do sl <- fancy_init a; finish sl d.
Definition multislice_from_results (d : list (string * pyv)) : res model :=
  do a <- pargs_of (req "interslice_propagator") d; do sl <- multislice_init a; finish sl d.

(** Bragg2DPtycho.from_results_dict (bragg_2d_ptycho.py:709-741); lens keeps its default. *)
Definition bragg_from_results (d : list (string * pyv)) : res model :=
  do sd <- get_sd d;
  do wl <- req "wavelength" sd; do db <- req "det_basis" sd; do dd <- get "det_distance" sd; do dc <- get "det_corner" sd;
  do ob <- req "obj_basis" sd; do p <- req "probe" sd; do o <- req "obj" sd;
  do mt <- get_or "min_translation" (vec [zero; zero]) sd; do pb <- get "probe_basis" sd;
  do mp <- get_or "median_propagation" (mkArr DF64 [] [zero]) sd;
  do bg <- req "background" sd; do toff <- get "translation_offsets" sd; do mk <- get "mask" sd; do w <- get "weights" sd;
  do ts <- get_num "translation_scale" one sd; do sat <- get "saturation" sd; do os <- get_num "oversampling" one sd;
  do pp <- get_bool "propagate_probe" true sd; do ct <- get_bool "correct_tilt" true sd; do l <- get_loss d;
  do tr <- get "original_translations" sd;
  do sl <- bragg_init (mkBargs wl db dd dc ob p o mt pb mp (Some bg) toff mk w ts sat None os pp ct false l DF32 tr);
  finish sl d.

(** RPI.from_results_dict (rpi.py:637-659): weight_matrix, obj_support and propagation_distance keep
    their defaults. *)
Definition rpi_from_results (d : list (string * pyv)) : res model :=
  do sd <- get_sd d;
  do wl <- req "wavelength" sd; do db <- req "det_basis" sd; do dd <- get "det_distance" sd; do dc <- get "det_corner" sd;
  do pb <- req "probe_basis" sd; do p <- req "probe" sd; do o <- req "obj" sd; do bg <- get "background" sd;
  do mk <- get "mask" sd; do sat <- get "saturation" sd; do os <- get_num "oversampling" one sd;
  do ex <- get_bool "exponentiate_obj" false sd; do po <- get_bool "phase_only" false sd; do l <- get_loss d;
  do sl <- rpi_init (mkRargs wl db dd dc pb p o bg mk sat None os false ex po (mkArr DF64 [] [zero]) l DF32);
  finish sl d.

(** SimplePtycho.from_results_dict (simple_ptycho.py:152-184). *)
Definition simple_from_results (d : list (string * pyv)) : res model :=
  do sd <- get_sd d;
  do wl <- req "wavelength" sd; do pb <- req "probe_basis" sd; do p <- req "probe" sd; do o <- req "obj" sd;
  do mt <- req "min_translation" sd;
  do sl <- simple_init (mkSargs wl pb p o mt); finish sl d.
End Reload.
Arguments slot : clear implicits.
Arguments model : clear implicits.
Arguments pargs : clear implicits.
Arguments bargs : clear implicits.
Arguments rargs : clear implicits.
Arguments sargs : clear implicits.
