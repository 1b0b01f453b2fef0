(** FancyPtycho and MultislicePtycho with simulate_finite_pixels=True (fancy_ptycho.py 663-674, multislice_ptycho.py
    534-545): interaction() and forward_propagator() as in Model_Forward, then the finite-pixel branch of Model_Finite.
    Simplified as there; the shapes are meant for square detectors (others: finite_pixels_shape of Model_Meas). *)
From Verif Require Import Base FinSum Fourier Model_Prop Model_Meas Model_Forward Model_Finite.
From Coquelicot Require Import Complex.

(** fancy_ptycho.py 663-674 *)
Definition fancy_measure_finite (m : fancy) (ws : list img) : rimg :=
  quadratic_background_finite {| o_slice := None; o_eps := eps; o_sat := f_saturation m; o_over := f_os m |}
    (fancy_N0 m) (fancy_N1 m) (List.length ws) (fun k => nth k ws no_img) (f_background m) (f_qe m).
(** base.py 98-108 *)
Definition fancy_pattern_finite (m : fancy) (ix : index) (t : V3) : res rimg :=
  rbind (fancy_interaction m ix t) (fun ws => rbind (all_ok (map (fancy_propagate m) ws)) (fun ps => Ok (fancy_measure_finite m ps))).
(** multislice_ptycho.py 526-545, base.py 98-108 *)
Definition multislice_pattern_finite (ms : multislice) (ix : index) (t : V3) : res rimg :=
  let m := ms_base ms in
  rmap (fun ws =>
    let ps := map (far_field (fancy_N0 m) (fancy_N1 m)) ws in
    quadratic_background_finite {| o_slice := None; o_eps := eps; o_sat := f_saturation m; o_over := f_os m |}
      (fancy_N0 m) (fancy_N1 m) (List.length ps) (fun k => nth k ps no_img) (f_background m) None)
    (multislice_interaction ms ix t).
