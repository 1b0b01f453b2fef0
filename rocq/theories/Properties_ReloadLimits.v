(** C55: when saving succeeds, concrete cases, and what is not restored. *)
From Verif Require Import Base Model_H5 Model_Cxi Model_Reload Spec_H5 Proofs_H5 Properties_H5 Spec_Reload Proofs_Reload.
Local Open Scope string_scope.
Local Open Scope res_scope.

Lemma slot_val_entry {E} (s : list (slot E)) k a : slot_val k s = Some a -> entry s k a.
Proof.
  induction s as [|x s IH]; [discriminate|]. cbn. destruct (String.eqb_spec k (sl_name x)) as [->|].
  - intros H. exists x. cbn. auto.
  - intros H. destruct (IH H) as (y & Hy & ?). exists y. cbn. auto.
Qed.
Lemma slot_val_no_entry {E} (s : list (slot E)) k : NoDup (map sl_name s) -> slot_val k s = None -> no_entry s k.
Proof. intros ND H x Hx <-. now rewrite <- (slot_val_in s x ND Hx). Qed.
Lemma entry_slot_val {E} (s : list (slot E)) k a : NoDup (map sl_name s) -> entry s k a -> slot_val k s = Some a.
Proof. intros ND (x & Hx & <- & Hv). now rewrite (slot_val_in s x ND Hx). Qed.

(** save_results of a FancyPtycho, MultislicePtycho or Bragg2DPtycho model succeeds exactly when the
    model has weights and translations are known: from the dataset passed in or stored in the
    model.  Otherwise it raises ValueError (no translations) or AttributeError (no weights). *)
Theorem C55_save_succeeds : forall (E : Type) emul (one : E) fresh of_int cls ver (m : model E) ds, NoDup (map sl_name (md_slots m)) ->
  ((exists d, ptycho_save emul one fresh of_int cls ver m ds = Ok d) <->
   ((exists w, entry (md_slots m) "weights" w) /\ (ds <> None \/ exists t, entry (md_slots m) "original_translations" t))) /\
  (ds = None -> no_entry (md_slots m) "original_translations" ->
     ptycho_save emul one fresh of_int cls ver m ds = Raise ValueError) /\
  (ds <> None -> no_entry (md_slots m) "weights" ->
     ptycho_save emul one fresh of_int cls ver m ds = Raise AttributeError).
Proof.
  intros E emul one fresh of_int cls ver m ds ND.
  assert (B : exists b, base_results of_int m cls ver = Ok b).
  { unfold base_results, save_results. cbn [ms_params].
    assert (H : forall l : list (string * arr E), exists sd, nested_dict_to_numpy (map (fun kv => (fst kv, PTensor (snd kv) false)) l) = Ok sd).
    { induction l as [|[k a] l [sd IH]]; [eexists; reflexivity|]. unfold nested_dict_to_numpy in *. cbn [map fst snd mapm to_numpy rbind]. rewrite IH. eexists; reflexivity. }
    destruct (H (state_dict (md_slots m))) as [sd ->]. cbn [rbind]. eexists; reflexivity. }
  destruct B as [b HB]. unfold ptycho_save. rewrite HB. cbn [rbind]. unfold ptycho_extras.
  assert (NE : forall k, no_entry (md_slots m) k -> slot_val k (md_slots m) = None).
  { intros k H. destruct (slot_val k (md_slots m)) eqn:Ek; [|reflexivity]. apply slot_val_entry in Ek as (x & Hx & Hn & Hv).
    rewrite (H x Hx Hn) in Hv. discriminate. }
  split; [split|split].
  - intros [d H]. destruct ds as [t|].
    + destruct (slot_val "weights" (md_slots m)) as [w|] eqn:Ew; [|discriminate]. split; [exists w; now apply slot_val_entry|left; discriminate].
    + destruct (slot_val "original_translations" (md_slots m)) as [t|] eqn:Et; [|discriminate].
      destruct (slot_val "weights" (md_slots m)) as [w|] eqn:Ew; [|discriminate].
      split; [exists w|right; exists t]; now apply slot_val_entry.
  - intros [[w Hw] Ht]. rewrite (entry_slot_val _ _ _ ND Hw). destruct ds as [t|]; [eexists; reflexivity|].
    destruct Ht as [C|[t Ht]]; [congruence|]. rewrite (entry_slot_val _ _ _ ND Ht). eexists; reflexivity.
  - intros -> H. rewrite (NE _ H). reflexivity.
  - intros Hd H. destruct ds; [|congruence]. rewrite (NE _ H). reflexivity.
Qed.
Print Assumptions C55_save_succeeds.

(** ---- concrete models over the integers ---- *)
Definition z_cast (t : dtype) (e : Z) : Z := e.
Definition z_max (l : list Z) : Z := fold_right (fun e m => Z.max (Z.abs e) m) 0%Z l.
Definition z_fresh (k : string) (ins : list (arr Z)) (s : list nat) : list Z := repeat 7%Z (prod s).
Definition z_bool (b : bool) : Z := if b then 1%Z else 0%Z.
Definition z_truth (e : Z) : bool := negb (Z.eqb e 0).
Definition f32 (s : list nat) (l : list Z) : arr Z := mkArr DF32 s l.
Definition fancy_case : pargs Z := mkPargs (f32 [] [5%Z]) (f32 [3; 2] [0; 1; 1; 0; 0; 0]%Z) (Some (f32 [] [9%Z])) None
  (f32 [3; 2] [0; 2; 2; 0; 0; 0]%Z) (mkArr DC64 [2; 2; 2] [8; 4; 4; 8; 1; 2; 2; 1]%Z) (mkArr DC64 [3; 3] [1; 1; 1; 1; 1; 1; 1; 1; 1]%Z)
  (f32 [3] [0; 0; 1]%Z) (f32 [2] [0; 0]%Z) (Some (f32 [2; 2] [1; 1; 1; 1]%Z)) None (Some (f32 [4; 2] [0; 1; 2; 3; 4; 5; 6; 7]%Z))
  None (Some (mkArr DBool [2; 2] [1; 1; 0; 1]%Z)) (Some (f32 [4] [1; 1; 1; 1]%Z)) None 3%Z None (Some (mkArr DBool [2; 2] [1; 0; 1; 1]%Z))
  1%Z false "Poisson NLL" true false false false false None None (f32 [] [0%Z]) DF32 (Some (f32 [4; 2] [0; 0; 1; 0; 0; 1; 1; 1]%Z)).
Definition z_fancy_init := fancy_init z_cast z_max Z.div Z.mul z_bool 1%Z z_fresh.
Definition z_fancy_load := fancy_from_results z_cast z_max Z.div Z.mul z_bool z_truth 1%Z z_fresh (fun z : Z => z) 0%Z.
Definition z_save := @ptycho_save Z Z.mul 1%Z z_fresh (fun z : Z => z) "FancyPtycho" "0.3".
(** Every parameter of a model set to new values, one probe mode dropped. *)
Definition edit (s : list (slot Z)) : list (slot Z) :=
  map (fun x => match sl_kind x, sl_val x with
    | KParam rg, Some a => mkSlot (sl_name x) (KParam rg)
        (Some (if sl_name x =? "probe" then mkArr DC64 (1 :: tl (a_shape a))%list [3; 0; 1; 9]%Z
               else mkArr (a_dt a) (a_shape a) (map (Z.add 11) (a_data a))))
    | _, _ => x
    end) s.

(** C55: a model that meets the hypotheses of the round-trip theorem, and is restored, in memory and
    through a file. *)
Example C55_fancy_case : exists s0 l, z_fancy_init fancy_case = Ok (s0, l) /\ l = PoissonNLL /\
  let m := mkModel (edit s0) l [10; 8; 7]%Z 3%Z "ran Adam" in
  trained true s0 (md_slots m) /\
  rbind (z_save m None) z_fancy_load = Ok m /\
  (do d <- z_save m None; do g <- nested_dict_to_h5 d; do d' <- h5_to_nested_dict g; z_fancy_load d') = Ok m.
Proof.
  eexists. eexists. split; [vm_compute; reflexivity|]. split; [reflexivity|]. split; [|split; vm_compute; reflexivity].
  unfold trained. cbn [md_slots edit map sl_kind sl_val sl_name].
  repeat (constructor; [repeat split; try reflexivity; cbn; try (left; repeat split; cbn; try lia; reflexivity); reflexivity|]). constructor.
Qed.

(** C55, limits: a model built with dtype=float64 is not restored: its buffers come back as float32. *)
Definition set_dtype (a : pargs Z) (t : dtype) : pargs Z :=
  mkPargs (pa_wavelength a) (pa_det_basis a) (pa_det_distance a) (pa_det_corner a) (pa_obj_basis a) (pa_probe a) (pa_obj a)
    (pa_surface_normal a) (pa_min_translation a) (pa_background a) (pa_probe_basis a) (pa_translation_offsets a) (pa_probe_fourier_shifts a)
    (pa_mask a) (pa_weights a) (pa_qe_mask a) (pa_translation_scale a) (pa_saturation a) (pa_probe_support a) (pa_oversampling a)
    (pa_fourier_probe a) (pa_loss a) (pa_simulate_probe_translation a) (pa_simulate_finite_pixels a) (pa_exponentiate_obj a)
    (pa_phase_only a) (pa_near_field a) (pa_asp a) (pa_iasp a) (pa_interslice a) t (pa_translations a).
Theorem C55_float64_refuted : exists s0 l m', z_fancy_init (set_dtype fancy_case DF64) = Ok (s0, l) /\
  let m := mkModel s0 l [] 0%Z "" in
  rbind (z_save m None) z_fancy_load = Ok m' /\
  (exists x y, entry (md_slots m) "wavelength" x /\ entry (md_slots m') "wavelength" y /\ a_dt x = DF64 /\ a_dt y = DF32).
Proof.
  eexists. eexists. eexists. split; [vm_compute; reflexivity|]. cbv zeta. split; [vm_compute; reflexivity|].
  eexists. eexists. cbn [md_slots]. split; [eexists; split; [left; reflexivity|split; reflexivity]|].
  split; [eexists; split; [left; reflexivity|split; reflexivity]|]. split; reflexivity.
Qed.
Print Assumptions C55_float64_refuted.

(** A two-dimensional probe given together with a support of its own shape makes a model that can be
    saved but not rebuilt: the rebuilt model's default support has the shape of one probe row. *)
Definition flat_case : pargs Z := mkPargs (f32 [] [5%Z]) (f32 [3; 2] [0; 1; 1; 0; 0; 0]%Z) None None
  (f32 [3; 2] [0; 2; 2; 0; 0; 0]%Z) (mkArr DC64 [2; 2] [8; 4; 4; 8]%Z) (mkArr DC64 [3; 3] [1; 1; 1; 1; 1; 1; 1; 1; 1]%Z)
  (f32 [3] [0; 0; 1]%Z) (f32 [2] [0; 0]%Z) (Some (f32 [2; 2] [1; 1; 1; 1]%Z)) None None
  None None (Some (f32 [1] [1]%Z)) None 1%Z None (Some (mkArr DBool [2; 2] [1; 0; 1; 1]%Z))
  1%Z false "amplitude mse" false false false false false None None (f32 [] [0%Z]) DF32 (Some (f32 [1; 2] [0; 0]%Z)).
Theorem C55_flat_probe_support_refuted : exists s0 l d, z_fancy_init flat_case = Ok (s0, l) /\
  z_save (mkModel s0 l [] 0%Z "") None = Ok d /\ z_fancy_load d = Raise RuntimeError.
Proof.
  eexists. eexists. eexists. split; [vm_compute; reflexivity|]. split; [vm_compute; reflexivity|]. vm_compute. reflexivity.
Qed.
Print Assumptions C55_flat_probe_support_refuted.

(** RPI with weight_matrix=True: the rebuilt model does not optimise its weights. *)
Definition rpi_case (wm : bool) : rargs Z := mkRargs (f32 [] [5%Z]) (f32 [3; 2] [0; 1; 1; 0; 0; 0]%Z) (Some (f32 [] [9%Z])) None
  (f32 [3; 2] [0; 2; 2; 0; 0; 0]%Z) (mkArr DC64 [2; 2; 2] [8; 4; 4; 8; 1; 2; 2; 1]%Z) (mkArr DC64 [2; 1] [6; 7]%Z) None
  (Some (mkArr DBool [2; 2] [1; 1; 0; 1]%Z)) None (Some (mkArr DInt [2; 1] [1; 0]%Z)) 1%Z wm false false (f32 [] [0%Z]) "intensity_mse" DF32.
Definition z_rpi_init := rpi_init z_cast Z.div Z.mul z_bool 1%Z z_fresh.
Definition z_rpi_load := rpi_from_results z_cast Z.div Z.mul z_bool z_truth 1%Z z_fresh (fun z : Z => z) 0%Z.
Definition z_rpi_save := @rpi_save Z Z.mul (fun z : Z => z) "RPI" "0.3".
Theorem C55_rpi_weights_refuted : exists s0 l m', z_rpi_init (rpi_case true) = Ok (s0, l) /\
  rbind (z_rpi_save (mkModel s0 l [] 0%Z "")) z_rpi_load = Ok m' /\
  (exists v, In (mkSlot "weights" (KParam true) v) s0) /\ ~ (exists v, In (mkSlot "weights" (KParam true) v) (md_slots m')).
Proof.
  eexists. eexists. eexists. split; [vm_compute; reflexivity|]. split; [vm_compute; reflexivity|]. split.
  - eexists. do 12 right. left. reflexivity.
  - intros [v H]. cbn in H. repeat (destruct H as [H|H]; [discriminate H|]). exact H.
Qed.
Print Assumptions C55_rpi_weights_refuted.
Example C55_rpi_case : exists s0 l, z_rpi_init (rpi_case false) = Ok (s0, l) /\
  let m := mkModel (map (fun x => if sl_name x =? "obj" then mkSlot "obj" (KParam true) (Some (mkArr DC64 [1; 2; 1] [40; 41]%Z)) else x) s0) l [4%Z] 1%Z "x" in
  trained false s0 (md_slots m) /\ rbind (z_rpi_save m) z_rpi_load = Ok m.
Proof.
  eexists. eexists. split; [vm_compute; reflexivity|]. split; [|vm_compute; reflexivity].
  unfold trained. cbn [md_slots map sl_kind sl_val sl_name String.eqb Ascii.eqb Bool.eqb].
  repeat (constructor; [repeat split; try reflexivity; cbn; reflexivity|]). constructor.
Qed.

Definition bragg_case : bargs Z := mkBargs (f32 [] [5%Z]) (f32 [3; 2] [0; 1; 1; 0; 0; 0]%Z) (Some (f32 [] [9%Z])) None
  (f32 [3; 2] [0; 2; 2; 0; 0; 0]%Z) (mkArr DC64 [1; 2; 2] [8; 4; 4; 8]%Z) (mkArr DC64 [3; 3] [1; 1; 1; 1; 1; 1; 1; 1; 1]%Z)
  (f32 [2] [0; 0]%Z) None (f32 [] [2%Z]) (Some (f32 [1; 1] [1]%Z)) None None (Some (f32 [2] [1; 1]%Z)) 1%Z None None 2%Z true true true
  "amplitude mse" DF32 (Some (f32 [2; 3] [0; 0; 0; 1; 1; 1]%Z)).
Definition z_times (e : Z) (n : nat) : nat := Z.to_nat e * n.
Example C55_bragg_case : exists s0 l, bragg_init z_cast z_max Z.div Z.mul z_bool 1%Z z_fresh z_times bragg_case = Ok (s0, l) /\
  let m := mkModel s0 l [4%Z] 1%Z "x" in
  trained true s0 (md_slots m) /\
  rbind (z_save m None) (bragg_from_results z_cast z_max Z.div Z.mul z_bool z_truth 1%Z z_fresh (fun z : Z => z) z_times 0%Z) = Ok m.
Proof.
  eexists. eexists. split; [vm_compute; reflexivity|]. split; [|vm_compute; reflexivity].
  unfold trained. cbn [md_slots]. repeat (constructor; [repeat split; try reflexivity; cbn; try (right; reflexivity); reflexivity|]). constructor.
Qed.
Definition z_multi_init := multislice_init z_cast z_max Z.div Z.mul z_bool 1%Z z_fresh.
Example C55_multislice_case : exists s0 l, z_multi_init fancy_case = Ok (s0, l) /\
  let m := mkModel (edit s0) l [4%Z] 1%Z "x" in
  trained true s0 (md_slots m) /\
  rbind (z_save m (Some (mkArr DF64 [1; 3] [1; 2; 3]%Z))) (multislice_from_results z_cast z_max Z.div Z.mul z_bool z_truth 1%Z z_fresh (fun z : Z => z) 0%Z) = Ok m.
Proof.
  eexists. eexists. split; [vm_compute; reflexivity|]. split; [|vm_compute; reflexivity].
  unfold trained. cbn [md_slots edit map sl_kind sl_val sl_name].
  repeat (constructor; [repeat split; try reflexivity; cbn; try (left; repeat split; cbn; try lia; reflexivity); reflexivity|]). constructor.
Qed.
Definition simple_case : sargs Z := mkSargs (mkArr DF64 [] [5%Z]) (f32 [3; 2] [0; 1; 1; 0; 0; 0]%Z) (mkArr DC128 [2; 2] [8; 4; 4; 8]%Z)
  (mkArr DC64 [1; 1] [6]%Z) (mkArr DInt [2] [0; 0]%Z).
Example C55_simple_case : exists s0 l, simple_init z_cast z_max Z.div simple_case = Ok (s0, l) /\
  let m := mkModel s0 l [4%Z] 1%Z "x" in
  trained false s0 (md_slots m) /\
  rbind (simple_save Z.mul 1%Z (fun z : Z => z) "SimplePtycho" "0.3" m) (simple_from_results z_cast z_max Z.div (fun z : Z => z)) = Ok m.
Proof.
  eexists. eexists. split; [vm_compute; reflexivity|]. split; [|vm_compute; reflexivity].
  unfold trained. cbn [md_slots]. repeat (constructor; [repeat split; try reflexivity; cbn; reflexivity|]). constructor.
Qed.

(** FancyPtycho: giving probe_fourier_shifts without translation_offsets fails, and otherwise the
    values given are ignored (the offsets are used in their place, fancy_ptycho.py:187-189). *)
Theorem C55_fourier_shifts_argument_refuted : forall (E : Type) cast maxabs ediv emul of_bool (one : E) fresh a bg p,
  pa_background a = Some bg -> pa_probe_fourier_shifts a = Some p ->
  (pa_translation_offsets a = None -> fancy_init cast maxabs ediv emul of_bool one fresh a = Raise TypeError) /\
  (forall o s0 l, pa_translation_offsets a = Some o -> fancy_init cast maxabs ediv emul of_bool one fresh a = Ok (s0, l) ->
     entry s0 "probe_fourier_shifts" (mkArr DF32 (a_shape o) (map (cast DF32) (a_data o)))).
Proof.
  intros E cast maxabs ediv emul of_bool one fresh a bg p HB HP. unfold fancy_init. rewrite HB, HP. split.
  - intros ->. reflexivity.
  - intros o s0 l ->. destruct (loss_of (pa_loss a)); [|discriminate]. cbn [rbind]. intros [= <- <-]. apply slot_val_entry. reflexivity.
Qed.
Print Assumptions C55_fourier_shifts_argument_refuted.

(** The loss is chosen by name, ignoring case and blanks around it; any other name is refused. *)
Theorem C55_loss_name : forall (E : Type) cast maxabs ediv emul of_bool (one : E) fresh a,
  (exists s0 l, fancy_init cast maxabs ediv emul of_bool one fresh a = Ok (s0, l)) ->
  exists s0 l, fancy_init cast maxabs ediv emul of_bool one fresh a = Ok (s0, l) /\
  (clean (pa_loss a) = "amplitude mse" \/ clean (pa_loss a) = "amplitude_mse" -> l = AmplitudeMSE) /\
  (clean (pa_loss a) = "poisson nll" \/ clean (pa_loss a) = "poisson_nll" -> l = PoissonNLL) /\
  (clean (pa_loss a) = "intensity mse" \/ clean (pa_loss a) = "intensity_mse" -> l = IntensityMSE) /\
  In (clean (pa_loss a)) ["amplitude mse"; "amplitude_mse"; "poisson nll"; "poisson_nll"; "intensity mse"; "intensity_mse"].
Proof.
  intros E cast maxabs ediv emul of_bool one fresh a (s0 & l & H). exists s0, l. split; [exact H|].
  assert (HL : loss_of (pa_loss a) = Ok l).
  { unfold fancy_init in H. destruct (pa_background a), (pa_probe_fourier_shifts a), (pa_translation_offsets a); try discriminate;
    destruct (loss_of (pa_loss a)); try discriminate; cbn [rbind] in H; injection H as _ ->; reflexivity. }
  clear H. unfold loss_of in HL. cbv zeta in HL. revert HL. generalize (clean (pa_loss a)). intros c HL.
  destruct (String.eqb_spec c "amplitude mse") as [Q|N1]; [subst c; injection HL as <-; cbn; intuition discriminate|].
  destruct (String.eqb_spec c "amplitude_mse") as [Q|N2]; [subst c; injection HL as <-; cbn; intuition discriminate|].
  destruct (String.eqb_spec c "poisson nll") as [Q|N3]; [subst c; injection HL as <-; cbn; intuition discriminate|].
  destruct (String.eqb_spec c "poisson_nll") as [Q|N4]; [subst c; injection HL as <-; cbn; intuition discriminate|].
  destruct (String.eqb_spec c "intensity mse") as [Q|N5]; [subst c; injection HL as <-; cbn; intuition discriminate|].
  destruct (String.eqb_spec c "intensity_mse") as [Q|N6]; [subst c; injection HL as <-; cbn; intuition discriminate|].
  discriminate.
Qed.
Print Assumptions C55_loss_name.
