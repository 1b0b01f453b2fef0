(** Specification vocabulary for Bragg2DPtycho.from_dataset (C78). *)
From Verif Require Import Base FinSum Fourier Model_Prop Spec_Prop Model_Geom Spec_Geom Model_Meas Model_Models Spec_Models Model_Init Spec_Init Model_InitBragg.
From Coquelicot Require Import Complex.
Local Open Scope R_scope.

(** The surface normal that arguments and dataset ask for: the one given; else that of the scattering mode (for
    reflection the bisector that mirrors the beam into the direction of the detector); else that of the dataset;
    else the beam. *)
Definition surface (d : data) (o : bragg_options) (s : V3) : Prop :=
  match bo_normal o with
  | Some g => g = Some s
  | None => match bo_mode o with
            | STransmission => s = (0, 0, 1)
            | SReflection => s = vsub (0, 0, 1) (k_out (d_b0 d) (d_b1 d))
            | SNone => match d_orientation d with Some v => s = v | None => s = (0, 0, 1) end
            | _ => False
            end
  end.
(** Options that fit together, and a sample that neither the beam nor the scattered wave grazes. *)
Definition bragg_sensible (d : data) (o : bragg_options) (s : V3) : Prop :=
  length (d_translations d) = length (d_patterns d) /\ (0 < bo_os o)%nat /\
  (forall c0 c1, bo_crop o = Some (c0, c1) -> 0 < c0 /\ 0 < c1 /\ 2 * c0 < bo_os o * d_h d /\ 2 * c1 < bo_os o * d_w d)%nat /\
  (1 <= bo_n_modes o)%nat /\ bo_scale o <> 0 /\ independent (d_b0 d) (d_b1 d) /\
  surface d o s /\ vdot s (k_out (d_b0 d) (d_b1 d)) <> 0 /\ vdot s (0, 0, 1) <> 0 /\ bo_propagate o <> None /\ bo_tilt o <> None.
(** The pixels that probe_fourier_crop keeps, and those whose spectral component survives the propagation of the guess. *)
Definition bragg_kept (d : data) (o : bragg_options) (i j : nat) : Prop :=
  match bo_crop o with None => True | Some c => (fst c <= i < d_h d - fst c /\ snd c <= j < d_w d - snd c)%nat end.
Definition bragg_lit (d : data) (o : bragg_options) (i j : nat) : Prop := bo_pd o = None \/ within_45_degrees d (d_h d) (d_w d) i j.
(** One probe mode, an object without random phases, no support, no oversampling. *)
Definition bragg_plain (o : bragg_options) : Prop := bo_n_modes o = 1%nat /\ bo_randomize o = 0 /\ bo_radius o = None /\ bo_os o = 1%nat.
(** Half of the values are not above x and half not below it. *)
Definition halfway (l : list R) (x : R) : Prop :=
  In x l /\ (2 * length (filter (fun y => if Rlt_dec y x then true else false) l) < length l)%nat /\ (2 * length (filter (fun y => if Rlt_dec x y then true else false) l) <= length l)%nat.
(** The point of the plane of b0, b1 reached from t along the beam: its position in units of b0, b1, and the
    distance travelled. *)
Definition reached (b0 b1 t : V3) (p : R * R) (z : R) : Prop := vadd (vscale (fst p) b0) (vscale (snd p) b1) = vadd t (vscale z (0, 0, 1)).
