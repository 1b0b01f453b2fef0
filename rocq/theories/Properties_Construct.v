(** C73: what the constructors of the ptychography models store. *)
From Verif Require Import Base FinSum Fourier Model_H5 Model_Cxi Model_Reload Spec_Reload Proofs_Reload Properties_Reload.
From Coquelicot Require Import Complex.
Local Open Scope string_scope.

(** The array given, converted to a type; a single number; a truth value. *)
Definition as_type {E} (cast : dtype -> E -> E) (dt : dtype) (x : arr E) : arr E := mkArr dt (a_shape x) (map (cast dt) (a_data x)).
Definition as_number {E} (cast : dtype -> E -> E) (dt : dtype) (e : E) : arr E := mkArr dt [] [cast dt e].
(** Attribute [k] of the new model is the array [v], or is None. *)
Definition holds {E} (s : list (slot E)) (k : string) (v : option (arr E)) : Prop :=
  match v with Some x => entry s k x | None => no_entry s k end.
(** Attribute [k] is a parameter that an optimiser changes. *)
Definition optimised {E} (s : list (slot E)) (k : string) : Prop := exists x, In (mkSlot k (KParam true) (Some x)) s.
Definition given {A} (x : option A) : Prop := x <> None.
Definition known_loss (s : string) (l : lossfn) : Prop :=
  In (clean s, l) [("amplitude mse", AmplitudeMSE); ("amplitude_mse", AmplitudeMSE); ("poisson nll", PoissonNLL); ("poisson_nll", PoissonNLL);
                   ("intensity mse", IntensityMSE); ("intensity_mse", IntensityMSE)].

Lemma loss_of_ok s l : loss_of s = Ok l <-> known_loss s l.
Proof.
  unfold loss_of, known_loss. cbv zeta. generalize (clean s). clear s. intros s. split.
  - destruct (String.eqb_spec s "amplitude mse") as [->|]; [intros [= <-]; cbn; auto 10|]. destruct (String.eqb_spec s "amplitude_mse") as [->|]; [intros [= <-]; cbn; auto 10|].
    destruct (String.eqb_spec s "poisson nll") as [->|]; [intros [= <-]; cbn; auto 10|]. destruct (String.eqb_spec s "poisson_nll") as [->|]; [intros [= <-]; cbn; auto 10|].
    destruct (String.eqb_spec s "intensity mse") as [->|]; [intros [= <-]; cbn; auto 10|]. destruct (String.eqb_spec s "intensity_mse") as [->|]; [intros [= <-]; cbn; auto 10|]. discriminate.
  - intros H. repeat destruct H as [H|H]; try contradiction; injection H as <- <-; reflexivity.
Qed.
Lemma holds_entry {E} (s : list (slot E)) k kd v : NoDup (map sl_name s) -> In (mkSlot k kd v) s -> holds s k v.
Proof.
  intros ND H. destruct v as [v|].
  - exists (mkSlot k kd (Some v)). auto.
  - intros x Hx Hk. rewrite <- (slot_val_in s x ND Hx), Hk. exact (slot_val_in s _ ND H).
Qed.

Section Construct.
Context {E : Type}.
Notation arr := (arr E).
Context (cast : dtype -> E -> E) (maxabs : list E -> E) (ediv emul : E -> E -> E)
        (of_bool : bool -> E) (one : E) (fresh : string -> list arr -> list nat -> list E) (times : E -> nat -> nat).
Definition as_flag (b : bool) : arr := mkArr DBool [] [of_bool b].
Let as_type := as_type cast.
Let as_number := as_number cast.
(** Real weights, one per exposure, stay real; a stack of matrices is complex. *)
Definition as_weights (w : arr) : arr := as_type (match a_shape w with [_] => DF32 | _ => DC64 end) w.
(** Offsets are stored in units of translation_scale. *)
Definition in_units (scale : E) (o : arr) : arr := mkArr DF32 (a_shape o) (map (fun e => ediv (cast DF32 e) scale) (a_data o)).
Definition default {A} (d : A) (x : option A) : A := match x with Some x => x | None => d end.

Lemma weights_as w : tens cast (weights_dt w) w = as_weights w.
Proof. unfold tens, as_weights, as_type, Properties_Construct.as_type, weights_dt. now destruct (a_shape w) as [|? [|]]. Qed.

Ltac table ND := repeat (apply Forall_cons; [refine (holds_entry _ _ _ _ ND _); repeat (first [left; reflexivity | right])|]); apply Forall_nil.

Lemma weights_map w : option_map (fun w => tens cast (weights_dt w) w) w = option_map as_weights w.
Proof. destruct w as [w|]; [cbn [option_map]; now rewrite weights_as|reflexivity]. Qed.
Ltac find_slot := repeat (first [left; reflexivity | right]).
Ltac which_optimised := let k := fresh "k" in let x := fresh "x" in let H := fresh "H" in intros k; split;
  [ intros [x H]; cbn in H; unfold buf, par in H;
    repeat match goal with H : _ \/ _ |- _ => destruct H as [H|H] end; try contradiction; try discriminate; injection H as <- ?; subst; cbn; auto 10;
    repeat match goal with H : option_map _ ?o = Some _ |- _ => destruct o; cbn in H; try discriminate end; unfold given; repeat (first [left; split; [reflexivity|discriminate] | right]); try (split; [reflexivity|discriminate])
  | intros H; unfold given in *; cbn [In] in H; repeat match goal with H : _ \/ _ |- _ => destruct H as [H|H] end; try contradiction; try subst k; try (eexists; solve [find_slot]);
    try match goal with H : _ /\ _ |- _ => destruct H as [? H]; subst k; first [now destruct (H eq_refl) | eexists; solve [find_slot] | match type of H with ?o <> None => destruct o; [eexists; find_slot|now destruct (H eq_refl)] end] end ].
(** C73, FancyPtycho: construction succeeds exactly with a background, a known loss name and, if
    probe_fourier_shifts are given, translation_offsets. *)
Theorem C73_fancy_succeeds : forall (a : pargs E), (exists m, fancy_init cast maxabs ediv emul of_bool one fresh a = Ok m) <->
   given (pa_background a) /\ (exists l, known_loss (pa_loss a) l) /\ (given (pa_probe_fourier_shifts a) -> given (pa_translation_offsets a)).
Proof.
  intros a. setoid_rewrite <- loss_of_ok. unfold fancy_init, given. cbv zeta.
  destruct (pa_background a) as [bg|]; [|split; [intros [? ?]; discriminate|intros (H & _); congruence]].
  destruct (loss_of (pa_loss a)) as [l|e]; cbn [rbind].
  - destruct (pa_probe_fourier_shifts a), (pa_translation_offsets a); (split; [intros [m Hm]; try discriminate Hm; repeat split; try congruence; eauto|intros (_ & _ & H); eauto; exfalso; apply H; congruence]).
  - split; [intros [m Hm]; exfalso; destruct (pa_probe_fourier_shifts a), (pa_translation_offsets a); discriminate|intros (_ & [l Hl] & _); discriminate].
Qed.
Print Assumptions C73_fancy_succeeds.
(** The model then holds what it was given, in the types named, under the same names, with None where nothing
    was given; an optimiser changes exactly the probe, object, background, weights and offsets there are. *)
Theorem C73_fancy : forall (a : pargs E) s0 l, fancy_init cast maxabs ediv emul of_bool one fresh a = Ok (s0, l) ->
  let dt := pa_dtype a in
  known_loss (pa_loss a) l /\ NoDup (map sl_name s0) /\
  Forall (fun e => holds s0 (fst e) (snd e))
   [ ("wavelength", Some (as_type dt (pa_wavelength a))); ("det_basis", Some (as_type dt (pa_det_basis a)));
     ("det_distance", option_map (as_type dt) (pa_det_distance a)); ("det_corner", option_map (as_type dt) (pa_det_corner a));
     ("min_translation", Some (as_type dt (pa_min_translation a))); ("obj_basis", Some (as_type dt (pa_obj_basis a)));
     ("probe_basis", Some (as_type dt (default (pa_obj_basis a) (pa_probe_basis a)))); ("surface_normal", Some (as_type dt (pa_surface_normal a)));
     ("saturation", option_map (as_type dt) (pa_saturation a)); ("fourier_probe", Some (as_flag (pa_fourier_probe a)));
     ("exponentiate_obj", Some (as_flag (pa_exponentiate_obj a))); ("phase_only", Some (as_flag (pa_phase_only a)));
     ("near_field", Some (as_flag (pa_near_field a))); ("angular_spectrum_propagator", option_map (as_type DC64) (pa_asp a));
     ("inv_angular_spectrum_propagator", option_map (as_type DC64) (pa_iasp a)); ("mask", option_map (as_type DBool) (pa_mask a));
     ("qe_mask", option_map (as_type dt) (pa_qe_mask a)); ("obj", Some (as_type DC64 (pa_obj a)));
     ("background", option_map (as_type dt) (pa_background a)); ("weights", option_map as_weights (pa_weights a));
     ("translation_offsets", option_map (in_units (pa_translation_scale a)) (pa_translation_offsets a));
     ("translation_scale", Some (as_number dt (pa_translation_scale a))); ("oversampling", Some (as_number DInt (pa_oversampling a)));
     ("simulate_probe_translation", Some (as_flag (pa_simulate_probe_translation a)));
     ("simulate_finite_pixels", Some (as_flag (pa_simulate_finite_pixels a))); ("original_translations", option_map (as_type dt) (pa_translations a)) ] /\
  (forall k, optimised s0 k <-> In k ["probe"; "obj"; "background"] \/ k = "weights" /\ given (pa_weights a) \/
     k = "translation_offsets" /\ given (pa_translation_offsets a) \/ k = "probe_fourier_shifts" /\ given (pa_probe_fourier_shifts a)).
Proof.
  intros a s0 l HI dt. unfold fancy_init in HI. cbv zeta in HI. rewrite weights_map in HI. destruct (pa_background a) as [bg|] eqn:EB; [|discriminate].
  destruct (loss_of (pa_loss a)) as [l'|] eqn:EL; [|destruct (pa_probe_fourier_shifts a), (pa_translation_offsets a); discriminate].
  apply loss_of_ok in EL. cbn [rbind] in HI.
  destruct (pa_probe_fourier_shifts a) as [pfs|] eqn:EP, (pa_translation_offsets a) as [toff|] eqn:ET; try discriminate; injection HI as <- <-; (split; [exact EL|]).
  all: match goal with |- NoDup (map sl_name ?s) /\ _ => assert (ND : NoDup (map sl_name s)) by (apply nodup_lit; vm_compute; reflexivity) end; (split; [exact ND|]); (split; [table ND|]).
  all: which_optimised.
Qed.
Print Assumptions C73_fancy.

(** C73, MultislicePtycho: a background and a known loss name are needed. *)
Theorem C73_multislice_succeeds : forall (a : pargs E), (exists m, multislice_init cast maxabs ediv emul of_bool one fresh a = Ok m) <->
   given (pa_background a) /\ (exists l, known_loss (pa_loss a) l).
Proof.
  intros a. setoid_rewrite <- loss_of_ok. unfold multislice_init, given. cbv zeta.
  destruct (pa_background a) as [bg|]; [|split; [intros [? ?]; discriminate|intros (H & _); congruence]].
  destruct (loss_of (pa_loss a)) as [l|e]; cbn [rbind].
  - split; [intros _; split; [discriminate|eauto]|eauto].
  - split; [intros [m Hm]; discriminate|intros (_ & [l Hl]); discriminate].
Qed.
Print Assumptions C73_multislice_succeeds.
Theorem C73_multislice : forall (a : pargs E) s0 l, multislice_init cast maxabs ediv emul of_bool one fresh a = Ok (s0, l) ->
  let dt := pa_dtype a in
  known_loss (pa_loss a) l /\ NoDup (map sl_name s0) /\
  Forall (fun e => holds s0 (fst e) (snd e))
   [ ("wavelength", Some (as_type dt (pa_wavelength a))); ("det_basis", Some (as_type dt (pa_det_basis a)));
     ("det_distance", option_map (as_type dt) (pa_det_distance a)); ("det_corner", option_map (as_type dt) (pa_det_corner a));
     ("min_translation", Some (as_type dt (pa_min_translation a))); ("obj_basis", Some (as_type dt (pa_obj_basis a)));
     ("probe_basis", Some (as_type dt (default (pa_obj_basis a) (pa_probe_basis a)))); ("surface_normal", Some (as_type dt (pa_surface_normal a)));
     ("saturation", option_map (as_type dt) (pa_saturation a)); ("fourier_probe", Some (as_flag (pa_fourier_probe a)));
     ("exponentiate_obj", Some (as_flag (pa_exponentiate_obj a))); ("interslice_propagator", Some (as_type DC64 (pa_interslice a)));
     ("mask", option_map (as_type DBool) (pa_mask a)); ("obj", Some (as_type DC64 (pa_obj a)));
     ("background", option_map (as_type dt) (pa_background a)); ("weights", option_map as_weights (pa_weights a));
     ("translation_offsets", option_map (in_units (pa_translation_scale a)) (pa_translation_offsets a));
     ("translation_scale", Some (as_number dt (pa_translation_scale a))); ("oversampling", Some (as_number DInt (pa_oversampling a)));
     ("simulate_probe_translation", Some (as_flag (pa_simulate_probe_translation a)));
     ("simulate_finite_pixels", Some (as_flag (pa_simulate_finite_pixels a))); ("original_translations", option_map (as_type dt) (pa_translations a)) ] /\
  (forall k, optimised s0 k <-> In k ["probe"; "obj"; "background"] \/ k = "weights" /\ given (pa_weights a) \/
     k = "translation_offsets" /\ given (pa_translation_offsets a)).
Proof.
  intros a s0 l HI dt. unfold multislice_init in HI. cbv zeta in HI. rewrite weights_map in HI. destruct (pa_background a) as [bg|] eqn:EB; [|discriminate].
  destruct (loss_of (pa_loss a)) as [l'|] eqn:EL; [|discriminate]. apply loss_of_ok in EL. cbn [rbind] in HI. injection HI as <- <-. split; [exact EL|].
  match goal with |- NoDup (map sl_name ?s) /\ _ => assert (ND : NoDup (map sl_name s)) by (apply nodup_lit; vm_compute; reflexivity) end. split; [exact ND|]. split; [table ND|].
  which_optimised.
Qed.
Print Assumptions C73_multislice.

(** C73, Bragg2DPtycho: as above, and correct_tilt needs the detector distance. *)
Theorem C73_bragg_succeeds : forall (a : bargs E), (exists m, bragg_init cast maxabs ediv emul of_bool one fresh times a = Ok m) <->
   given (ba_background a) /\ (exists l, known_loss (ba_loss a) l) /\ (ba_correct_tilt a = true -> given (ba_det_distance a)).
Proof.
  intros a. setoid_rewrite <- loss_of_ok. unfold bragg_init, given. cbv zeta.
  destruct (ba_background a) as [bg|]; [|split; [intros [? ?]; discriminate|intros (H & _); congruence]].
  destruct (loss_of (ba_loss a)) as [l|e]; cbn [rbind].
  - destruct (ba_correct_tilt a), (ba_det_distance a); (split; [intros [m Hm]; try discriminate Hm; repeat split; try congruence; eauto|intros (_ & _ & H); eauto; exfalso; now apply H]).
  - split; [intros [m Hm]; exfalso; destruct (ba_correct_tilt a), (ba_det_distance a); discriminate|intros (_ & [l Hl] & _); discriminate].
Qed.
Print Assumptions C73_bragg_succeeds.
Theorem C73_bragg : forall (a : bargs E) s0 l, bragg_init cast maxabs ediv emul of_bool one fresh times a = Ok (s0, l) ->
  let dt := ba_dtype a in
  known_loss (ba_loss a) l /\ NoDup (map sl_name s0) /\
  Forall (fun e => holds s0 (fst e) (snd e))
   [ ("wavelength", Some (as_type dt (ba_wavelength a))); ("det_basis", Some (as_type dt (ba_det_basis a)));
     ("det_distance", option_map (as_type dt) (ba_det_distance a)); ("det_corner", option_map (as_type dt) (ba_det_corner a));
     ("min_translation", Some (as_type dt (ba_min_translation a))); ("median_propagation", Some (as_type dt (ba_median_propagation a)));
     ("obj_basis", Some (as_type dt (ba_obj_basis a))); ("probe_basis", Some (as_type dt (default (ba_obj_basis a) (ba_probe_basis a))));
     ("saturation", option_map (as_type dt) (ba_saturation a)); ("mask", option_map (as_type DBool) (ba_mask a));
     ("obj", Some (as_type DC64 (ba_obj a))); ("background", option_map (as_type dt) (ba_background a));
     ("weights", option_map (as_type DF32) (ba_weights a));
     ("translation_offsets", option_map (in_units (ba_translation_scale a)) (ba_translation_offsets a));
     ("translation_scale", Some (as_number dt (ba_translation_scale a))); ("oversampling", Some (as_number DInt (ba_oversampling a)));
     ("propagate_probe", Some (as_flag (ba_propagate_probe a))); ("correct_tilt", Some (as_flag (ba_correct_tilt a)));
     ("original_translations", option_map (as_type dt) (ba_translations a)) ] /\
  (forall k, optimised s0 k <-> In k ["probe"; "obj"; "background"] \/ k = "weights" /\ given (ba_weights a) \/
     k = "translation_offsets" /\ given (ba_translation_offsets a)).
Proof.
  intros a s0 l HI dt. unfold bragg_init in HI. cbv zeta in HI. destruct (ba_background a) as [bg|] eqn:EB; [|discriminate].
  destruct (loss_of (ba_loss a)) as [l'|] eqn:EL; [|destruct (ba_correct_tilt a), (ba_det_distance a); discriminate]. apply loss_of_ok in EL. cbn [rbind] in HI.
  destruct (ba_correct_tilt a) eqn:ECT, (ba_det_distance a) as [dd|] eqn:ED; try discriminate; injection HI as <- <-; (split; [exact EL|]).
  all: match goal with |- NoDup (map sl_name ?s) /\ _ => assert (ND : NoDup (map sl_name s)) by (apply nodup_lit; vm_compute; reflexivity) end; (split; [exact ND|]); (split; [table ND|]).
  all: which_optimised.
Qed.
Print Assumptions C73_bragg.

(** C73, RPI: only the loss name can be wrong; the object (times its support) is the parameter, and the weights are
    if weight_matrix is set.  An object without leading dimension gets one. *)
Theorem C73_rpi_succeeds : forall (a : rargs E), (exists m, rpi_init cast ediv emul of_bool one fresh a = Ok m) <-> exists l, known_loss (ra_loss a) l.
Proof.
  intros a. setoid_rewrite <- loss_of_ok. unfold rpi_init. cbv zeta. destruct (loss_of (ra_loss a)) as [l|e]; cbn [rbind].
  - split; eauto.
  - split; [intros [m Hm]; discriminate|intros [l Hl]; discriminate].
Qed.
Print Assumptions C73_rpi_succeeds.
Theorem C73_rpi : forall (a : rargs E) s0 l, rpi_init cast ediv emul of_bool one fresh a = Ok (s0, l) ->
  let dt := ra_dtype a in let cdt := match dt with DF64 => DC128 | _ => DC64 end in
  known_loss (ra_loss a) l /\ NoDup (map sl_name s0) /\
  Forall (fun e => holds s0 (fst e) (snd e))
   [ ("wavelength", Some (as_type dt (ra_wavelength a))); ("det_basis", Some (as_type dt (ra_det_basis a)));
     ("det_distance", option_map (as_type dt) (ra_det_distance a)); ("det_corner", option_map (as_type dt) (ra_det_corner a));
     ("probe_basis", Some (as_type dt (ra_probe_basis a))); ("saturation", option_map (as_type dt) (ra_saturation a));
     ("mask", option_map (as_type DBool) (ra_mask a)); ("probe", Some (as_type cdt (ra_probe a)));
     ("exponentiate_obj", Some (as_flag (ra_exponentiate_obj a))); ("phase_only", Some (as_flag (ra_phase_only a)));
     ("oversampling", Some (as_number DInt (ra_oversampling a))); ("propagation_distance", Some (as_type dt (ra_propagation_distance a))) ] /\
  (forall b, ra_background a = Some b -> holds s0 "background" (Some (as_type DF32 b))) /\
  (forall s, ra_obj_support a = Some s -> holds s0 "obj_support" (Some (as_type DInt s))) /\
  (forall k, optimised s0 k <-> k = "obj" \/ k = "weights" /\ ra_weight_matrix a = true).
Proof.
  intros a s0 l HI dt cdt. unfold rpi_init in HI. cbv zeta in HI.
  destruct (loss_of (ra_loss a)) as [l'|] eqn:EL; [|discriminate]. apply loss_of_ok in EL. cbn [rbind] in HI. injection HI as <- <-. split; [exact EL|].
  match goal with |- NoDup (map sl_name ?s) /\ _ => assert (ND : NoDup (map sl_name s)) by (apply nodup_lit; vm_compute; reflexivity) end. split; [exact ND|]. split; [table ND|].
  split; [intros b HB; rewrite HB in *; refine (holds_entry _ _ _ _ ND _); find_slot|].
  split; [intros b HB; rewrite HB in *; refine (holds_entry _ _ _ _ ND _); find_slot|].
  intros k. split.
  - intros [x H]. cbn in H. unfold buf, par in H. repeat match goal with H : _ \/ _ |- _ => destruct H as [H|H] end; try contradiction; try discriminate; injection H as <- ?; auto.
  - intros [->|[-> HW]]; [|rewrite HW]; eexists; find_slot.
Qed.
Print Assumptions C73_rpi.

(** C73, SimplePtycho: always the amplitude error; probe and object are the parameters. *)
Theorem C73_simple : forall (a : sargs E), exists s0, simple_init cast maxabs ediv a = Ok (s0, AmplitudeMSE) /\ NoDup (map sl_name s0) /\
  Forall (fun e => holds s0 (fst e) (snd e))
   [ ("wavelength", Some (sa_wavelength a)); ("min_translation", Some (sa_min_translation a)); ("probe_basis", Some (sa_probe_basis a)); ("obj", Some (as_type DC64 (sa_obj a))) ] /\
  (forall k, optimised s0 k <-> In k ["probe"; "obj"]).
Proof.
  intros a. eexists. split; [reflexivity|].
  match goal with |- NoDup (map sl_name ?s) /\ _ => assert (ND : NoDup (map sl_name s)) by (apply nodup_lit; vm_compute; reflexivity) end. split; [exact ND|]. split; [table ND|].
  which_optimised.
Qed.
Print Assumptions C73_simple.
End Construct.

(** ---- the probe, in exact arithmetic ---- *)
Local Open Scope C_scope.
(** Numbers are complex numbers; only the conversion to bool changes one. *)
Definition exact (dt : dtype) (z : C) : C := match dt with DBool => if Ceq_dec z 0 then 0 else 1 | _ => z end.
Definition biggest (l : list C) : C := RtoC (fold_right (fun z m => Rmax (Cmod z) m) 0%R l).
Definition bool01 (b : bool) : C := if b then 1 else 0.
(** The product probe_norm x probe, which is what a simulation uses, is the guess, cut to its support. *)
Definition starts_from (s0 : list (slot C)) (guess : arr C) (support : option (arr C)) : Prop :=
  exists nrm p, entry s0 "probe_norm" nrm /\ entry s0 "probe" p /\ a_shape nrm = [] /\ a_shape p = a_shape guess /\
    length (a_data p) = length (a_data guess) /\
    forall i, (i < length (a_data guess))%nat ->
      hd 0 (a_data nrm) * nth i (a_data p) 0 =
      match support with
      | None => nth i (a_data guess) 0
      | Some s => if Ceq_dec (nth (i mod length (a_data s)) (a_data s) 0) 0 then 0 else nth i (a_data guess) 0
      end.
(** The first mode does not vanish. *)
Definition has_power (guess : arr C) : Prop :=
  exists z, In z (match a_shape guess with _ :: _ :: _ :: _ => firstn (prod (tl (a_shape guess))) (a_data guess) | _ => a_data guess end) /\ z <> 0.

Lemma biggest_pos l z : In z l -> z <> 0 -> biggest l <> 0.
Proof.
  intros HI HZ. assert (H : (0 < fold_right (fun z m => Rmax (Cmod z) m) 0 l)%R).
  { induction l as [|x l IH]; [contradiction|]. cbn. destruct HI as [->|HI].
    - pose proof (Rmax_l (Cmod z) (fold_right (fun z m => Rmax (Cmod z) m) 0%R l)). assert (0 < Cmod z)%R by now apply Cmod_gt_0. lra.
    - pose proof (Rmax_r (Cmod x) (fold_right (fun z m => Rmax (Cmod z) m) 0%R l)). specialize (IH HI). lra. }
  unfold biggest. intros E. apply RtoC_inj in E. lra.
Qed.
Lemma exact_map dt l : dt <> DBool -> map (exact dt) l = l.
Proof. intros H. rewrite <- (map_id l) at 2. apply map_ext. intros z. destruct dt; try reflexivity. congruence. Qed.
Lemma norm_pos guess : has_power guess -> probe_norm_of biggest (tens exact DC64 guess) <> 0.
Proof.
  intros (z & HI & HZ). unfold probe_norm_of, tens. cbn [a_shape a_data]. rewrite exact_map by discriminate. revert HI.
  destruct (a_shape guess) as [|? [|? [|? ?]]]; cbn [length Nat.ltb Nat.leb]; intros HI; now apply (biggest_pos _ z).
Qed.
Lemma nth_map_lt {A B} (f : A -> B) l i d e : (i < length l)%nat -> nth i (map f l) d = f (nth i l e).
Proof. intros H. rewrite (nth_indep _ d (f e)) by now rewrite map_length. apply map_nth. Qed.
Lemma nth_repeat_lt (x d : C) n i : (i < n)%nat -> nth i (repeat x n) d = x.
Proof. revert i. induction n as [|n IH]; [lia|]. intros [|i] H; [reflexivity|]. apply IH. lia. Qed.
Lemma scaled_value guess support nrm i :
  nrm <> 0 -> (i < length (a_data guess))%nat ->
  (forall s, support = Some s -> a_data s <> []) -> (support = None -> (0 < prod (tl (a_shape guess)))%nat) ->
  nrm * nth i (a_data (scaled Cdiv Cmult 1 (tens exact DC64 guess) (support_of exact 1 (tens exact DC64 guess) support) nrm)) 0 =
  match support with
  | None => nth i (a_data guess) 0
  | Some s => if Ceq_dec (nth (i mod length (a_data s)) (a_data s) 0) 0 then 0 else nth i (a_data guess) 0
  end.
Proof.
  intros HN HI HS HP. assert (T : tens exact DC64 guess = mkArr DC64 (a_shape guess) (a_data guess)) by (unfold tens; now rewrite exact_map by discriminate).
  rewrite T. unfold scaled. cbn [a_data a_dt a_shape].
  rewrite (nth_map_lt _ _ i 0 0%nat) by (rewrite seq_length; exact HI). rewrite seq_nth by exact HI. cbn [Nat.add].
  rewrite (nth_indep _ 1 0) by exact HI. unfold support_of. destruct support as [s|].
  - unfold tens. cbn [a_data]. rewrite map_length. specialize (HS s eq_refl).
    assert (HM : (i mod length (a_data s) < length (a_data s))%nat) by (apply Nat.mod_upper_bound; destruct (a_data s); [congruence|discriminate]).
    rewrite (nth_map_lt _ _ _ 1 0) by exact HM. unfold exact. destruct (Ceq_dec _ 0); [ring|field; exact HN].
  - specialize (HP eq_refl). unfold ones, tens. cbn [a_data a_shape]. rewrite repeat_length, nth_repeat_lt by (apply Nat.mod_upper_bound; lia).
    unfold exact. destruct (Ceq_dec 1 0) as [X|_]; [|field; exact HN]. exfalso. apply RtoC_inj in X. lra.
Qed.

Lemma entry_cons {E} x (s : list (slot E)) k a : entry s k a -> entry (x :: s) k a.
Proof. intros (y & H & R). exists y. split; [right; exact H|exact R]. Qed.
Ltac find_entry := repeat first [ solve [eexists; split; [left; reflexivity|split; reflexivity]] | apply entry_cons ].
Ltac starts HP HS HL := eexists; eexists; (split; [find_entry|]); (split; [find_entry|]); (split; [reflexivity|]); (split; [reflexivity|]);
  (split; [unfold scaled; cbn [a_data]; now rewrite map_length, seq_length; unfold tens; cbn [a_data]; rewrite map_length|]);
  let i := fresh in let Hi := fresh in intros i Hi; cbn [hd a_data num]; apply scaled_value; [now apply norm_pos|exact Hi|exact HS|exact HL].
(** C73: a simulation of the new model uses the guess of the probe, cut to probe_support where that is given; the
    guess is divided by the largest magnitude of its first mode, which must not be 0 everywhere. *)
Theorem C73_fancy_probe : forall (a : pargs C) fresh s0 l, pa_dtype a <> DBool -> has_power (pa_probe a) ->
  (forall s, pa_probe_support a = Some s -> a_data s <> []) -> (pa_probe_support a = None -> (0 < prod (tl (a_shape (pa_probe a))))%nat) ->
  fancy_init exact biggest Cdiv Cmult bool01 1 fresh a = Ok (s0, l) -> starts_from s0 (pa_probe a) (pa_probe_support a).
Proof.
  intros a fr s0 l HD HP HS HL HI. unfold fancy_init in HI. cbv zeta in HI. destruct (pa_background a) as [bg|] eqn:EB; [|discriminate].
  destruct (loss_of (pa_loss a)) as [l'|] eqn:EL; [|destruct (pa_probe_fourier_shifts a), (pa_translation_offsets a); discriminate]. cbn [rbind] in HI.
  assert (EX : forall z, exact (pa_dtype a) z = z) by (intros z; destruct (pa_dtype a); try reflexivity; congruence).
  unfold num in HI. rewrite !EX in HI.
  destruct (pa_probe_fourier_shifts a) as [pfs|] eqn:EP, (pa_translation_offsets a) as [toff|] eqn:ET; try discriminate; injection HI as <- <-.
  all: starts HP HS HL.
Qed.
Print Assumptions C73_fancy_probe.
Theorem C73_multislice_probe : forall (a : pargs C) fresh s0 l, pa_dtype a <> DBool -> has_power (pa_probe a) ->
  (forall s, pa_probe_support a = Some s -> a_data s <> []) -> (pa_probe_support a = None -> (0 < prod (tl (a_shape (pa_probe a))))%nat) ->
  multislice_init exact biggest Cdiv Cmult bool01 1 fresh a = Ok (s0, l) -> starts_from s0 (pa_probe a) (pa_probe_support a).
Proof.
  intros a fr s0 l HD HP HS HL HI. unfold multislice_init in HI. cbv zeta in HI. destruct (pa_background a) as [bg|] eqn:EB; [|discriminate].
  destruct (loss_of (pa_loss a)) as [l'|] eqn:EL; [|discriminate]. cbn [rbind] in HI.
  assert (EX : forall z, exact (pa_dtype a) z = z) by (intros z; destruct (pa_dtype a); try reflexivity; congruence).
  unfold num in HI. rewrite !EX in HI. injection HI as <- <-. starts HP HS HL.
Qed.
Print Assumptions C73_multislice_probe.
Theorem C73_bragg_probe : forall (a : bargs C) fresh times s0 l, ba_dtype a <> DBool -> has_power (ba_probe a) ->
  (forall s, ba_probe_support a = Some s -> a_data s <> []) -> (ba_probe_support a = None -> (0 < prod (tl (a_shape (ba_probe a))))%nat) ->
  bragg_init exact biggest Cdiv Cmult bool01 1 fresh times a = Ok (s0, l) -> starts_from s0 (ba_probe a) (ba_probe_support a).
Proof.
  intros a fr tm s0 l HD HP HS HL HI. unfold bragg_init in HI. cbv zeta in HI. destruct (ba_background a) as [bg|] eqn:EB; [|discriminate].
  destruct (loss_of (ba_loss a)) as [l'|] eqn:EL; [|destruct (ba_correct_tilt a), (ba_det_distance a); discriminate]. cbn [rbind] in HI.
  assert (EX : forall z, exact (ba_dtype a) z = z) by (intros z; destruct (ba_dtype a); try reflexivity; congruence).
  unfold num in HI. rewrite !EX in HI.
  destruct (ba_correct_tilt a) eqn:ECT, (ba_det_distance a) as [dd|] eqn:ED; try discriminate; injection HI as <- <-.
  all: starts HP HS HL.
Qed.
Print Assumptions C73_bragg_probe.
(** SimplePtycho divides by the largest magnitude of the whole array. *)
Theorem C73_simple_probe : forall (a : sargs C) s0 l, (exists z, In z (a_data (sa_probe a)) /\ z <> 0) ->
  simple_init exact biggest Cdiv a = Ok (s0, l) -> starts_from s0 (sa_probe a) None.
Proof.
  intros a s0 l (z & HI & HZ) H. unfold simple_init in H. cbv zeta in H.
  assert (T : tens exact DC64 (sa_probe a) = mkArr DC64 (a_shape (sa_probe a)) (a_data (sa_probe a))) by (unfold tens; now rewrite exact_map by discriminate).
  rewrite T in H. cbn [a_data a_shape] in H. injection H as <- <-.
  eexists. eexists. split; [find_entry|]. split; [find_entry|]. cbn [a_data a_shape]. split; [reflexivity|]. split; [reflexivity|]. split; [apply map_length|].
  intros i Hi. cbn [hd]. rewrite (nth_map_lt _ _ i 0 0) by exact Hi. field. now apply (biggest_pos _ z).
Qed.
Print Assumptions C73_simple_probe.
(** C73: the offsets a simulation adds (translation_scale x translation_offsets) are the ones given. *)
Theorem C73_offsets : forall (a : pargs C) fresh s0 l o, pa_dtype a <> DBool -> pa_translation_scale a <> 0 -> pa_translation_offsets a = Some o ->
  fancy_init exact biggest Cdiv Cmult bool01 1 fresh a = Ok (s0, l) \/ multislice_init exact biggest Cdiv Cmult bool01 1 fresh a = Ok (s0, l) ->
  exists sc off, entry s0 "translation_scale" sc /\ entry s0 "translation_offsets" off /\ a_shape off = a_shape o /\
    map (Cmult (hd 0 (a_data sc))) (a_data off) = a_data o.
Proof.
  intros a fr s0 l o HD HZ HO HI.
  assert (EX : forall z, exact (pa_dtype a) z = z) by (intros z; destruct (pa_dtype a); try reflexivity; congruence).
  assert (H : holds s0 "translation_scale" (Some (as_number exact (pa_dtype a) (pa_translation_scale a))) /\
              holds s0 "translation_offsets" (Some (in_units exact Cdiv (pa_translation_scale a) o))).
  { destruct HI as [HI|HI].
    - apply C73_fancy in HI as (_ & _ & H & _). rewrite Forall_forall in H. rewrite HO in H.
      split; [refine (H ("translation_scale", _) _); cbn; auto 40|refine (H ("translation_offsets", Some _) _); cbn; auto 40].
    - apply C73_multislice in HI as (_ & _ & H & _). rewrite Forall_forall in H. rewrite HO in H.
      split; [refine (H ("translation_scale", _) _); cbn; auto 40|refine (H ("translation_offsets", Some _) _); cbn; auto 40]. }
  destruct H as [H1 H2]. eexists. eexists. split; [exact H1|]. split; [exact H2|]. split; [reflexivity|].
  cbn [as_number a_data hd in_units]. rewrite EX, map_map. rewrite <- (map_id (a_data o)) at 2. apply map_ext. intros z. cbn [exact]. field. exact HZ.
Qed.
Print Assumptions C73_offsets.
(** A case that meets the hypotheses: two modes, a support, offsets in units of 1/2. *)
Definition c_arr (s : list nat) (l : list R) : arr C := mkArr DF64 s (map RtoC l).
Definition c_case : pargs C :=
  {| pa_wavelength := c_arr []%nat [1%R]; pa_det_basis := c_arr [3; 2]%nat [0; 1; 1; 0; 0; 0]%R; pa_det_distance := Some (c_arr []%nat [1%R]); pa_det_corner := None;
     pa_obj_basis := c_arr [3; 2]%nat [0; 1; 1; 0; 0; 0]%R; pa_probe := c_arr (2 :: 1 :: 2 :: nil)%nat [2; 4; 6; 8]%R; pa_obj := c_arr [1; 3]%nat [1; 1; 1]%R; pa_surface_normal := c_arr [3]%nat [0; 0; 1]%R;
     pa_min_translation := c_arr [2]%nat [0; 0]%R; pa_background := Some (c_arr [1; 2]%nat [0; 0]%R); pa_probe_basis := None; pa_translation_offsets := Some (c_arr [1; 2]%nat [3; 5]%R);
     pa_probe_fourier_shifts := None; pa_mask := None; pa_weights := None; pa_qe_mask := None; pa_translation_scale := RtoC 2; pa_saturation := None;
     pa_probe_support := Some (c_arr [1; 2]%nat [0; 1]%R); pa_oversampling := RtoC 1; pa_fourier_probe := false; pa_loss := " Poisson_NLL "; pa_simulate_probe_translation := false;
     pa_simulate_finite_pixels := false; pa_exponentiate_obj := true; pa_phase_only := false; pa_near_field := false; pa_asp := None; pa_iasp := None;
     pa_interslice := c_arr [1; 2]%nat [1; 1]%R; pa_dtype := DF32; pa_translations := None |}.
Example C73_case : given (pa_background c_case) /\ known_loss (pa_loss c_case) PoissonNLL /\ pa_dtype c_case <> DBool /\ has_power (pa_probe c_case) /\
  (forall s, pa_probe_support c_case = Some s -> a_data s <> []) /\ pa_translation_scale c_case <> 0 /\
  exists s0, fancy_init exact biggest Cdiv Cmult bool01 1 (fun _ _ _ => []) c_case = Ok (s0, PoissonNLL) /\ optimised s0 "translation_offsets" /\ ~ optimised s0 "weights".
Proof.
  assert (KL : known_loss (pa_loss c_case) PoissonNLL) by (unfold known_loss; cbn; auto 10).
  split; [discriminate|]. split; [exact KL|]. split; [discriminate|].
  split. { exists (RtoC 2). split; [cbn; auto|]. intros X. apply RtoC_inj in X. lra. }
  split; [intros s [= <-]; discriminate|]. split; [intros X; apply RtoC_inj in X; lra|].
  destruct (proj2 (C73_fancy_succeeds exact biggest Cdiv Cmult bool01 1 (fun _ _ _ => []) c_case)) as [[s0 l] HI].
  { split; [discriminate|]. split; [eauto|]. intros X. now destruct (X eq_refl). }
  destruct (C73_fancy _ _ _ _ _ _ _ _ _ _ HI) as (HL & _ & _ & HO). exists s0. split.
  - rewrite HI. apply loss_of_ok in HL, KL. congruence.
  - split; [apply HO; cbn; right; right; left; split; [reflexivity|discriminate]|]. intros X. apply HO in X. cbn in X.
    decompose [or and] X; try discriminate; try contradiction.
Qed.
