(** Property theorems about rebuilding a whole model from its saved results (C55). *)
From Verif Require Import Base Model_H5 Model_Cxi Model_Reload Spec_H5 Proofs_H5 Properties_H5 Spec_Reload Proofs_Reload.
Local Open Scope string_scope.
Local Open Scope res_scope.

Section Reload.
Context {E : Type}.
Notation arr := (arr E).
Notation pyv := (pyv E).
Context (cast : dtype -> E -> E) (maxabs : list E -> E) (ediv emul : E -> E -> E)
        (of_bool : bool -> E) (truth : E -> bool) (one zero : E)
        (fresh : string -> list arr -> list nat -> list E)
        (int_of : E -> Z) (of_int : Z -> E) (times : E -> nat -> nat).
Context (truth_of : forall b, truth (of_bool b) = b) (int_of_int : forall z, int_of (of_int z) = z).

Lemma trained_nil md S : trained (E := E) md [] S -> S = [].
Proof. intros H. now inversion H. Qed.
Lemma trained_buf md k v s0 S : trained (E := E) md (buf k v :: s0) S -> exists S', S = buf k v :: S' /\ trained md s0 S'.
Proof.
  intros H. inversion H as [|? y ? S' (Hn & Hk & Hv) H']; subst. exists S'. split; [|assumption]. f_equal. destruct y as [n kd w].
  cbn in *. subst. unfold buf. f_equal. destruct v as [a|], w as [b|]; try contradiction; [|reflexivity]. destruct Hv as [_ ->]. reflexivity.
Qed.
Lemma trained_par md k rg v s0 S : trained (E := E) md (mkSlot k (KParam rg) v :: s0) S -> exists w S', S = mkSlot k (KParam rg) w :: S' /\
  match v, w with None, None => True | Some a, Some b => may_become md k true a b | _, _ => False end /\ trained md s0 S'.
Proof.
  intros H. inversion H as [|? y ? S' (Hn & Hk & Hv) H']; subst. destruct y as [n kd w]. cbn in *. subst. exists w, S'. auto.
Qed.
Lemma trained_some md k rg a s0 S : trained (E := E) md (mkSlot k (KParam rg) (Some a) :: s0) S -> exists b S',
  S = mkSlot k (KParam rg) (Some b) :: S' /\ may_become md k true a b /\ trained md s0 S'.
Proof. intros H. apply trained_par in H as ([b|] & S' & -> & Hm & HT); [|contradiction]. eauto. Qed.
Ltac slots H :=
  repeat match type of H with
  | trained _ (buf _ _ :: _) _ => let S' := fresh "S" in apply trained_buf in H; destruct H as (S' & -> & H)
  | trained _ (par _ (Some _) :: _) _ => unfold par in H at 1;
      let b := fresh "b" in let S' := fresh "S" in let M := fresh "M" in apply trained_some in H; destruct H as (b & S' & -> & M & H)
  | trained _ (par _ _ :: _) _ => unfold par in H at 1
  | trained _ (mkSlot _ (KParam _) (Some _) :: _) _ =>
      let b := fresh "b" in let S' := fresh "S" in let M := fresh "M" in apply trained_some in H; destruct H as (b & S' & -> & M & H)
  | trained _ (mkSlot _ (KParam _) _ :: _) _ =>
      let b := fresh "w" in let S' := fresh "S" in let M := fresh "M" in apply trained_par in H; destruct H as (b & S' & -> & M & H)
  end; apply trained_nil in H; subst.

Lemma probe_tl a b : may_become (E := E) true "probe" true a b -> tl (a_shape b) = tl (a_shape a).
Proof. intros (_ & [(_ & H & _)|H]); [exact H|now rewrite H]. Qed.
Lemma probe_last a b : may_become (E := E) true "probe" true a b -> lastn 2 (a_shape b) = lastn 2 (a_shape a).
Proof.
  intros (_ & [(L & H & Q)|H]); [|now rewrite H]. unfold lastn. rewrite Q.
  destruct (a_shape a) as [|x [|y [|z s]]]; cbn in L; try lia. destruct (a_shape b) as [|x' s']; [discriminate|]. cbn in H. subst.
  cbn [length]. replace (Datatypes.S (Datatypes.S (Datatypes.S (length s))) - 2) with (Datatypes.S (length s)) by lia. reflexivity.
Qed.

Lemma slot_val_native (s : list (slot E)) k : keys_ok s ->
  torch_native (a_dt (match slot_val k s with Some a => a | None => mkArr DF32 [] [] end)).
Proof.
  intros (ND & _ & TN). destruct (slot_val k s) as [a|] eqn:Ea; [|cbn; intros [|[|[|[]]]]; discriminate].
  rewrite <- lookup_state_dict in Ea by assumption. apply lookup_In in Ea. apply in_state_dict in Ea as (x & Hx & _ & Hv).
  rewrite Forall_forall in TN. specialize (TN x Hx). now rewrite Hv in TN.
Qed.
Lemma plain_lit ks : forallb (fun k => match split_slash k with [k'] => String.eqb k k' && negb (String.eqb k "") && negb (String.eqb k ".") | _ => false end) ks = true ->
  Forall plain_key ks.
Proof.
  intros H. rewrite forallb_forall in H. apply Forall_forall. intros k Hk. specialize (H k Hk).
  destruct (split_slash k) as [|k' [|]] eqn:Es; try discriminate. apply andb_prop in H as [H H3]. apply andb_prop in H as [H1 H2].
  apply String.eqb_eq in H1. subst k'. repeat split.
  - intros ->. discriminate.
  - intros ->. discriminate.
  - now apply split_slash_single.
Qed.
Fixpoint nodupb (l : list string) : bool := match l with [] => true | x :: l => negb (existsb (String.eqb x) l) && nodupb l end.
Lemma nodup_lit l : nodupb l = true -> NoDup l.
Proof.
  induction l as [|x l IH]; [constructor|]. cbn. intros H. apply andb_prop in H as [H1 H2]. constructor; [|auto].
  intros Hin. apply Bool.negb_true_iff in H1. assert (existsb (String.eqb x) l = true); [|congruence].
  apply existsb_exists. exists x. split; [assumption|apply String.eqb_refl].
Qed.
Lemma reload_both (from : list (string * pyv) -> res (model E)) (m : model E) cls ver b ex :
  keys_ok (md_slots m) -> (forall d, faithful of_int d m -> from d = Ok m) ->
  base_results of_int m cls ver = Ok b ->
  NoDup (map fst ex) -> (forall k, In k (map fst ex) ->
    ~ In k ["state_dict"; "loss_history"; "epoch"; "training_history"; "loss_function"; "model_class"; "cdtools_version"]) ->
  Forall (fun kv => plain_key (fst kv)) ex ->
  from (b ++ ex)%list = Ok m /\
  (nul_free (md_training m) -> nul_free cls -> nul_free ver ->
   Forall (fun kv => exists a, snd kv = PArr a /\ h5_native (a_dt a)) ex ->
   exists g d', nested_dict_to_h5 (b ++ ex)%list = Ok g /\ h5_to_nested_dict g = Ok d' /\ from d' = Ok m).
Proof.
  intros K HF HB NX DX PX. split; [apply HF; eapply base_faithful; eassumption|]. intros N1 N2 N3 AX.
  destruct (file_faithful of_int m cls ver b ex K HB N1 N2 N3) as (g & d' & W & Rd & F).
  - rewrite base_results_eq in HB by assumption. injection HB as <-. rewrite map_app. apply NoDup_append.
    + cbn. repeat (constructor; [cbn; intuition discriminate|]). constructor.
    + intros k H1 H2. exact (DX k H2 H1).
    + assumption.
  - clear -PX AX. induction PX; constructor; inversion AX; subst; [split|]; auto.
  - exists g, d'. auto.
Qed.
Lemma ptycho_reload (from : list (string * pyv) -> res (model E)) (m : model E) cls ver ds d :
  keys_ok (md_slots m) -> (forall d, faithful of_int d m -> from d = Ok m) ->
  ptycho_save emul one fresh of_int cls ver m ds = Ok d ->
  from d = Ok m /\
  (nul_free (md_training m) -> nul_free cls -> nul_free ver -> (forall t, ds = Some t -> h5_native (a_dt t)) ->
   exists g d', nested_dict_to_h5 d = Ok g /\ h5_to_nested_dict g = Ok d' /\ from d' = Ok m).
Proof.
  intros K HF HV. unfold ptycho_save in HV. destruct (base_results of_int m cls ver) as [b|] eqn:HB; [|discriminate]. cbn [rbind] in HV.
  destruct (ptycho_extras emul one fresh m ds) as [ex|] eqn:HX; [|discriminate]. cbn [rmap] in HV. injection HV as <-.
  unfold ptycho_extras in HX.
  destruct (match ds with Some a => Some a | None => slot_val "original_translations" (md_slots m) end) as [tr|] eqn:HTR; [|discriminate].
  destruct (slot_val "weights" (md_slots m)) as [w|] eqn:HW; [|discriminate].
  apply (f_equal (fun r => match r with Ok x => x | Raise _ => [] end)) in HX. cbv beta iota in HX.
  assert (KEYS : map fst ex = ["obj_basis"; "probe_basis"; "translations"; "original_translations"; "probe"; "obj"; "background"; "oversampling"; "weights"; "wavelength"])
    by (subst ex; reflexivity).
  destruct (reload_both from m cls ver b ex K HF HB) as [R1 R2].
  - rewrite KEYS. repeat (constructor; [cbn; intuition discriminate|]). constructor.
  - rewrite KEYS. intros k H1 H2. cbn in H1, H2. repeat (destruct H1 as [<-|H1]; [intuition discriminate|]). exact H1.
  - assert (P : Forall plain_key (map fst ex)) by (rewrite KEYS; apply plain_lit; reflexivity).
    clear -P. induction ex as [|x ex IH]; constructor; inversion P; subst; auto.
  - split; [exact R1|]. intros N1 N2 N3 NT. apply R2; try assumption. subst ex.
    assert (TRN : h5_native (a_dt tr)).
    { destruct ds as [t|]; [injection HTR as <-; now apply NT|].
      pose proof (slot_val_native (md_slots m) "original_translations" K) as T. rewrite HTR in T. now apply torch_h5_native. }
    assert (WN : h5_native (a_dt w)).
    { pose proof (slot_val_native (md_slots m) "weights" K) as T. rewrite HW in T. now apply torch_h5_native. }
    repeat (constructor; [cbn [snd]; eexists; split; [reflexivity|]; cbn [a_dt]; first [assumption | discriminate | apply torch_h5_native, slot_val_native, K]|]).
    constructor.
Qed.
Lemma tn t : torch_ok t = true -> torch_native t.
Proof. destruct t; intros HT HH; cbn in HH; try discriminate HT; repeat destruct HH as [HH|HH]; try discriminate HH; contradiction. Qed.
Ltac solve_native := cbn [md_slots]; unfold buf, par; repeat (constructor; [cbn [sl_val]|]); [..|constructor];
  repeat match goal with
  | |- match option_map _ ?x with _ => _ end => destruct x; cbn [option_map]
  | M : match option_map _ ?x with _ => _ end |- _ => destruct x; cbn [option_map] in M
  | M : match ?w with Some _ => _ | None => _ end |- match ?w with _ => _ end => destruct w; try contradiction
  | M : may_become _ _ _ _ ?b |- torch_native (a_dt ?b) => destruct M as [M _]; rewrite M; cbn [tens scaled a_dt]
  | |- context [weights_dt ?w] => unfold weights_dt; destruct (Nat.eqb _ _)
  | |- context [phase_ramp] => unfold phase_ramp
  | |- context [if ?b then _ else _] => destruct b
  | |- context [support_of _ _ _ ?s] => unfold support_of; destruct s
  | |- context [a_dt match ?x with _ => _ end] => destruct x
  | |- True => exact Logic.I
  | H : a_dt ?o = DC64 |- torch_native (a_dt ?o) => rewrite H
  | |- torch_native _ => apply tn; reflexivity
  end.
Ltac reading sd Hh := repeat match goal with
  | |- context [req ?k sd] => erewrite (req_ok sd _ k) by (exact Hh || reflexivity); cbn [rbind]
  | |- context [get ?k sd] => rewrite (get_ok sd _ k Hh); cbn [rbind slot_val sl_name sl_val buf par String.eqb Ascii.eqb Bool.eqb]
  | |- context [get_or ?k ?d sd] => erewrite (get_or_ok sd _ k d) by (exact Hh || reflexivity); cbn [rbind]
  | |- context [get_num ?k ?d sd] => erewrite (get_num_ok sd _ k d) by (exact Hh || reflexivity); cbn [rbind]
  | |- context [get_bool truth ?k ?d sd] => first
      [erewrite (get_bool_ok truth sd _ k d) by (exact Hh || reflexivity); rewrite truth_of; cbn [rbind]
      |erewrite (get_bool_none truth sd _ k d) by (exact Hh || reflexivity); cbn [rbind]]
  end.
Lemma support_default (p : arr) : a_shape (support_of cast one p None) = tl (a_shape p).
Proof. reflexivity. Qed.
Lemma support_dt (p : arr) s : a_dt (support_of cast one p s) = DBool.
Proof. destruct s; reflexivity. Qed.
Lemma support_shape (p : arr) s : (forall q, s = Some q -> a_shape q = tl (a_shape p)) ->
  a_shape (support_of cast one (tens cast DC64 p) s) = tl (a_shape p).
Proof. intros H. destruct s; [exact (H _ eq_refl)|reflexivity]. Qed.
Ltac compat_slot := repeat match goal with
  | |- True => exact Logic.I
  | |- _ /\ _ => split
  | |- match option_map _ (option_map _ ?x) with _ => _ end => destruct x; cbn [option_map]
  | |- match option_map _ ?x with _ => _ end => destruct x; cbn [option_map]
  | |- match phase_ramp _ _ _ _ _ _ _ with _ => _ end => unfold phase_ramp; cbn [orb]
  | |- match (if ?b then _ else _) with _ => _ end => destruct b; cbn [orb]
  | |- a_dt ?b = _ => first [reflexivity | match goal with M : may_become _ _ _ _ b |- _ => let X := fresh in destruct M as [X _]; rewrite X; reflexivity end]
  | |- a_dt (support_of _ _ _ _) = _ => now rewrite !support_dt
  | M : may_become _ "probe" _ _ ?b |- a_shape (support_of _ _ _ _) = a_shape (support_of _ _ _ None) =>
      rewrite support_default; cbn [tens a_shape]; rewrite (probe_tl _ _ M); cbn [scaled tens a_shape]; apply support_shape; assumption
  | M : may_become _ "probe" _ _ ?b |- a_shape {| a_dt := _; a_shape := lastn 2 _; a_data := _ |} = _ =>
      cbn [tens a_shape]; rewrite (probe_last _ _ M); reflexivity
  | M : may_become _ "probe_fourier_shifts" _ _ ?b3, M' : may_become _ "translation_offsets" _ _ ?b2 |- a_shape ?b3 = a_shape (tens _ _ ?b2) =>
      let X := fresh in let Y := fresh in destruct M as [_ X]; destruct M' as [_ Y]; cbn in X, Y |- *; congruence
  | |- a_dt ?w = a_dt (tens _ (weights_dt _) _) =>
      match goal with M : may_become _ "weights" _ _ w |- _ =>
      let X := fresh in let Y := fresh in destruct M as [X Y]; rewrite X; cbn in Y |- *; unfold weights_dt; now rewrite Y end
  | |- a_shape ?b = _ => first [reflexivity | match goal with M : may_become _ _ _ _ b |- _ => let X := fresh in destruct M as [_ X]; exact X end]
  end.
(** The keys of an explicit list of slots. *)
Ltac solve_keys := split; [apply nodup_lit; vm_compute; reflexivity|split;
  [match goal with |- Forall _ ?s => assert (PL : Forall plain_key (map sl_name s)) by (apply plain_lit; vm_compute; reflexivity); revert PL; generalize s;
     let q := fresh in let IH := fresh in intros q; induction q as [|? ? IH]; intros PL; constructor; inversion PL; subst; auto end|]].

Theorem C55_fancy_round_trip : forall (a : pargs E) s0 l m cls ver ds d,
  pa_dtype a = DF32 ->
  (forall s, pa_probe_support a = Some s -> a_shape s = tl (a_shape (pa_probe a))) ->
  fancy_init cast maxabs ediv emul of_bool one fresh a = Ok (s0, l) ->
  trained true s0 (md_slots m) -> md_loss m = l ->
  ptycho_save emul one fresh of_int cls ver m ds = Ok d ->
  fancy_from_results cast maxabs ediv emul of_bool truth one fresh int_of zero d = Ok m /\
  (nul_free (md_training m) -> nul_free cls -> nul_free ver -> (forall t, ds = Some t -> h5_native (a_dt t)) ->
   exists g d', nested_dict_to_h5 d = Ok g /\ h5_to_nested_dict g = Ok d' /\
     fancy_from_results cast maxabs ediv emul of_bool truth one fresh int_of zero d' = Ok m).
Proof.
  intros a s0 l m cls ver ds d HD HS HI HT HL HV.
  unfold fancy_init in HI. rewrite HD in HI. destruct (pa_background a) as [bg|]; [|discriminate].
  destruct m as [S ml mh me mt]. cbn [md_slots md_loss] in *. subst ml.
  destruct (loss_of (pa_loss a)) as [l'|] eqn:EL;
    [|destruct (pa_probe_fourier_shifts a), (pa_translation_offsets a); discriminate].
  cbn [rbind] in HI.
  destruct (pa_probe_fourier_shifts a) as [pfs|] eqn:EP, (pa_translation_offsets a) as [toff|] eqn:ET; try discriminate;
    injection HI as <- <-; slots HT.
  all: apply (ptycho_reload _ _ cls ver ds d); [cbn [md_slots]; solve_keys; solve_native|clear HV d|exact HV].
  all: intros d F; pose proof F as ((sd & Hsd & Hh) & _); cbn [md_slots] in Hh.
  all: unfold fancy_from_results, pargs_of, get_sd; rewrite Hsd; cbn [rbind].
  all: repeat match goal with M : match option_map _ ?x with _ => _ end |- _ => destruct x; cbn [option_map] in M end;
    repeat match goal with M : match ?w with Some _ => _ | None => _ end |- _ => destruct w; try contradiction end.
  all: reading sd Hh.
  all: rewrite (get_loss_ok of_int _ _ F); cbn [rbind md_loss]; unfold fancy_init; cbv beta iota zeta.
  all: cbn [pa_wavelength pa_det_basis pa_det_distance pa_det_corner pa_obj_basis pa_probe pa_obj pa_surface_normal pa_min_translation
      pa_background pa_probe_basis pa_translation_offsets pa_probe_fourier_shifts pa_mask pa_weights pa_qe_mask pa_translation_scale
      pa_saturation pa_probe_support pa_oversampling pa_fourier_probe pa_loss pa_simulate_probe_translation pa_simulate_finite_pixels
      pa_exponentiate_obj pa_phase_only pa_near_field pa_asp pa_iasp pa_interslice pa_dtype pa_translations].
  all: cbn [option_map]; rewrite loss_of_name; cbn [rbind].
  all: (apply (finish_ok of_int int_of); [exact int_of_int|exact F|apply nodup_lit; vm_compute; reflexivity| |reflexivity]).
  all: cbn [md_slots]; unfold buf, par; repeat (constructor; [split; [reflexivity|split; [reflexivity|cbn [sl_val]]]|]); [..|constructor].
  all: compat_slot.
Qed.
Print Assumptions C55_fancy_round_trip.

Ltac split_options := repeat match goal with M : match option_map _ ?x with _ => _ end |- _ => destruct x; cbn [option_map] in M end;
    repeat match goal with M : match ?w with Some _ => _ | None => _ end |- _ => destruct w; try contradiction end.
Ltac compare F := (apply (finish_ok of_int int_of); [exact int_of_int|exact F|apply nodup_lit; vm_compute; reflexivity| |reflexivity]);
  cbn [md_slots]; unfold buf, par; repeat (constructor; [split; [reflexivity|split; [reflexivity|cbn [sl_val]]]|]); [..|constructor].

(** C55, MultislicePtycho. *)
Theorem C55_multislice_round_trip : forall (a : pargs E) s0 l m cls ver ds d,
  pa_dtype a = DF32 ->
  (forall s, pa_probe_support a = Some s -> a_shape s = tl (a_shape (pa_probe a))) ->
  multislice_init cast maxabs ediv emul of_bool one fresh a = Ok (s0, l) ->
  trained true s0 (md_slots m) -> md_loss m = l ->
  ptycho_save emul one fresh of_int cls ver m ds = Ok d ->
  multislice_from_results cast maxabs ediv emul of_bool truth one fresh int_of zero d = Ok m /\
  (nul_free (md_training m) -> nul_free cls -> nul_free ver -> (forall t, ds = Some t -> h5_native (a_dt t)) ->
   exists g d', nested_dict_to_h5 d = Ok g /\ h5_to_nested_dict g = Ok d' /\
     multislice_from_results cast maxabs ediv emul of_bool truth one fresh int_of zero d' = Ok m).
Proof.
  intros a s0 l m cls ver ds d HD HS HI HT HL HV.
  unfold multislice_init in HI. rewrite HD in HI. destruct (pa_background a) as [bg|]; [|discriminate].
  destruct m as [S ml mh me mt]. cbn [md_slots md_loss] in *. subst ml.
  destruct (loss_of (pa_loss a)) as [l'|] eqn:EL; [|discriminate].
  cbn [rbind] in HI. injection HI as <- <-. slots HT.
  apply (ptycho_reload _ _ cls ver ds d); [cbn [md_slots]; solve_keys; solve_native|clear HV d|exact HV].
  intros d F; pose proof F as ((sd & Hsd & Hh) & _); cbn [md_slots] in Hh.
  unfold multislice_from_results, pargs_of, get_sd; rewrite Hsd; cbn [rbind].
  split_options.
  all: reading sd Hh.
  all: rewrite (get_loss_ok of_int _ _ F); cbn [rbind md_loss]; unfold multislice_init; cbv beta iota zeta.
  all: cbn [pa_wavelength pa_det_basis pa_det_distance pa_det_corner pa_obj_basis pa_probe pa_obj pa_surface_normal pa_min_translation
      pa_background pa_probe_basis pa_translation_offsets pa_probe_fourier_shifts pa_mask pa_weights pa_qe_mask pa_translation_scale
      pa_saturation pa_probe_support pa_oversampling pa_fourier_probe pa_loss pa_simulate_probe_translation pa_simulate_finite_pixels
      pa_exponentiate_obj pa_phase_only pa_near_field pa_asp pa_iasp pa_interslice pa_dtype pa_translations].
  all: cbn [option_map]; rewrite loss_of_name; cbn [rbind].
  all: compare F.
  all: compat_slot.
Qed.
Print Assumptions C55_multislice_round_trip.

(** C55, Bragg2DPtycho; the oversampling factor is an integer. *)
Theorem C55_bragg_round_trip : forall (a : bargs E) s0 l m cls ver ds d,
  ba_dtype a = DF32 ->
  (forall s, ba_probe_support a = Some s -> a_shape s = tl (a_shape (ba_probe a))) ->
  cast DInt (ba_oversampling a) = ba_oversampling a ->
  bragg_init cast maxabs ediv emul of_bool one fresh times a = Ok (s0, l) ->
  trained true s0 (md_slots m) -> md_loss m = l ->
  ptycho_save emul one fresh of_int cls ver m ds = Ok d ->
  bragg_from_results cast maxabs ediv emul of_bool truth one fresh int_of times zero d = Ok m /\
  (nul_free (md_training m) -> nul_free cls -> nul_free ver -> (forall t, ds = Some t -> h5_native (a_dt t)) ->
   exists g d', nested_dict_to_h5 d = Ok g /\ h5_to_nested_dict g = Ok d' /\
     bragg_from_results cast maxabs ediv emul of_bool truth one fresh int_of times zero d' = Ok m).
Proof.
  intros a s0 l m cls ver ds d HD HS HO HI HT HL HV.
  unfold bragg_init in HI. rewrite HD in HI. destruct (ba_background a) as [bg|]; [|discriminate].
  destruct m as [S ml mh me mt]. cbn [md_slots md_loss] in *. subst ml.
  assert (HTD : ba_correct_tilt a = true -> ba_det_distance a <> None).
  { intros HC HN. rewrite HC, HN in HI. discriminate. }
  assert (HI' : (do l <- loss_of (ba_loss a); Ok l) = Ok l).
  { destruct (ba_correct_tilt a), (ba_det_distance a); try discriminate; destruct (loss_of (ba_loss a)); try discriminate;
    cbn [rbind] in HI; injection HI as _ <-; reflexivity. }
  destruct (loss_of (ba_loss a)) as [l'|] eqn:EL; [|discriminate]. cbn [rbind] in HI'. injection HI' as ->.
  cbn [rbind] in HI. destruct (ba_correct_tilt a) eqn:ETI, (ba_det_distance a) as [dd|] eqn:EDD; try (elim (HTD eq_refl); reflexivity);
    injection HI as <-; slots HT.
  all: apply (ptycho_reload _ _ cls ver ds d); [cbn [md_slots]; solve_keys; solve_native|clear HV d|exact HV].
  all: intros d F; pose proof F as ((sd & Hsd & Hh) & _); cbn [md_slots] in Hh.
  all: unfold bragg_from_results, get_sd; rewrite Hsd; cbn [rbind].
  all: split_options.
  all: reading sd Hh.
  all: rewrite (get_loss_ok of_int _ _ F); cbn [rbind md_loss]; unfold bragg_init; cbv beta iota zeta.
  all: cbn [ba_wavelength ba_det_basis ba_det_distance ba_det_corner ba_obj_basis ba_probe ba_obj ba_min_translation ba_probe_basis
     ba_median_propagation ba_background ba_translation_offsets ba_mask ba_weights ba_translation_scale ba_saturation ba_probe_support
     ba_oversampling ba_propagate_probe ba_correct_tilt ba_lens ba_loss ba_dtype ba_translations].
  all: cbn [option_map]; rewrite loss_of_name; cbn [rbind].
  all: compare F.
  all: compat_slot.
  all: cbn [a_shape]; unfold hna_shape; rewrite HO; try reflexivity;
    match goal with M : may_become _ "background" _ _ ?b |- _ => let X := fresh in destruct M as [_ X]; cbn in X; rewrite X; reflexivity end.
Qed.
Print Assumptions C55_bragg_round_trip.

Lemma extras_reload (from : list (string * pyv) -> res (model E)) (m : model E) cls ver b ex d :
  keys_ok (md_slots m) -> (forall d, faithful of_int d m -> from d = Ok m) ->
  base_results of_int m cls ver = Ok b -> d = (b ++ ex)%list ->
  nodupb (map fst ex) = true ->
  forallb (fun k => negb (existsb (String.eqb k)
    ["state_dict"; "loss_history"; "epoch"; "training_history"; "loss_function"; "model_class"; "cdtools_version"])) (map fst ex) = true ->
  Forall plain_key (map fst ex) ->
  Forall (fun kv => exists a, snd kv = PArr a /\ h5_native (a_dt a)) ex ->
  from d = Ok m /\
  (nul_free (md_training m) -> nul_free cls -> nul_free ver ->
   exists g d', nested_dict_to_h5 d = Ok g /\ h5_to_nested_dict g = Ok d' /\ from d' = Ok m).
Proof.
  intros K HF HB -> ND DJ PK AX. destruct (reload_both from m cls ver b ex K HF HB) as [R1 R2].
  - now apply nodup_lit.
  - intros k Hk Hi. rewrite forallb_forall in DJ. specialize (DJ k Hk). apply Bool.negb_true_iff in DJ.
    assert (C : existsb (String.eqb k) ["state_dict"; "loss_history"; "epoch"; "training_history"; "loss_function"; "model_class"; "cdtools_version"] = true); [|congruence].
    apply existsb_exists. exists k. split; [assumption|apply String.eqb_refl].
  - clear -PK. induction ex as [|x ex IH]; constructor; inversion PK; subst; auto.
  - split; [exact R1|]. intros N1 N2 N3. now apply R2.
Qed.

(** C55, RPI (with the default weight_matrix=False). *)
Theorem C55_rpi_round_trip : forall (a : rargs E) s0 l m cls ver d,
  ra_dtype a = DF32 -> ra_weight_matrix a = false ->
  length (a_shape (ra_obj a)) = 2 \/ length (a_shape (ra_obj a)) = 3 ->
  (forall s, ra_obj_support a = Some s -> a_shape s = lastn 2 (a_shape (ra_obj a))) ->
  a_shape (ra_propagation_distance a) = [] ->
  rpi_init cast ediv emul of_bool one fresh a = Ok (s0, l) ->
  trained false s0 (md_slots m) -> md_loss m = l ->
  rpi_save emul of_int cls ver m = Ok d ->
  rpi_from_results cast ediv emul of_bool truth one fresh int_of zero d = Ok m /\
  (nul_free (md_training m) -> nul_free cls -> nul_free ver ->
   exists g d', nested_dict_to_h5 d = Ok g /\ h5_to_nested_dict g = Ok d' /\
     rpi_from_results cast ediv emul of_bool truth one fresh int_of zero d' = Ok m).
Proof.
  intros a s0 l m cls ver d HD HW HO HS HP HI HT HL HV.
  unfold rpi_init in HI. rewrite HD, HW in HI. destruct (loss_of (ra_loss a)) as [l'|] eqn:EL; [|discriminate].
  cbn [rbind complex_of] in HI.
  set (o := if Nat.eqb (length (a_shape (tens cast DC64 (ra_obj a)))) 2
            then mkArr DC64 (1 :: a_shape (tens cast DC64 (ra_obj a)))%list (a_data (tens cast DC64 (ra_obj a)))
            else tens cast DC64 (ra_obj a)) in *.
  assert (O3 : length (a_shape o) = 3).
  { unfold o. cbn [tens a_shape]. destruct HO as [HO|HO]; rewrite HO; cbn; lia. }
  assert (OT : tl (a_shape o) = lastn 2 (a_shape (ra_obj a))).
  { unfold o. cbn [tens a_shape]. destruct HO as [HO|HO]; rewrite HO; cbn [Nat.eqb a_shape tl]; unfold lastn; rewrite HO; [reflexivity|].
    cbn [tens a_shape]. destruct (a_shape (ra_obj a)); [discriminate|reflexivity]. }
  assert (OD : a_dt o = DC64) by (unfold o; destruct (Nat.eqb _ 2); reflexivity). clearbody o.
  injection HI as <- <-. destruct m as [S ml mh me mt]. cbn [md_slots md_loss] in *. subst ml.
  slots HT.
  unfold rpi_save in HV. 
  match type of HV with rbind ?B _ = _ => destruct B as [b0'|] eqn:HB; [|discriminate] end. cbn [rbind] in HV. injection HV as HV.
  eapply (extras_reload _ _ cls ver b0'); [cbn [md_slots]; solve_keys; solve_native| |exact HB|symmetry; exact HV
    |reflexivity|reflexivity|apply plain_lit; reflexivity|cbn [md_slots]; repeat (constructor; [cbn [snd]; eexists; split; [reflexivity|]; try (cbn; discriminate)|]); constructor].
  all: clear HV HB; try clear d; intros d F; pose proof F as ((sd & Hsd & Hh) & _); cbn [md_slots] in Hh.
  all: unfold rpi_from_results, get_sd; rewrite Hsd; cbn [rbind].
  all: reading sd Hh.
  all: rewrite (get_loss_ok of_int _ _ F); cbn [rbind md_loss]; unfold rpi_init; cbv beta iota zeta.
  all: cbn [ra_wavelength ra_det_basis ra_det_distance ra_det_corner ra_probe_basis ra_probe ra_obj ra_background ra_mask
     ra_saturation ra_obj_support ra_oversampling ra_weight_matrix ra_exponentiate_obj ra_phase_only ra_propagation_distance ra_loss ra_dtype].
  all: rewrite loss_of_name; cbn [rbind complex_of].
  match goal with M : may_become _ "obj" _ _ ?b |- _ => assert (OB : a_shape b = a_shape o) by (destruct M as [_ X]; exact X) end.
  compare F.
  all: compat_slot.
  all: cbn [tens a_shape scaled]; rewrite ?OB, ?O3; cbn [Nat.eqb a_shape tens]; rewrite ?OB; try reflexivity.
  1: match goal with M : may_become _ "obj" _ _ ?b |- _ => let X := fresh in destruct M as [X _]; rewrite X; exact OD end.
  1: destruct (ra_background a); reflexivity.
  1: destruct (ra_obj_support a); reflexivity.
  1: rewrite OT; destruct (ra_obj_support a) as [q|]; [exact (HS q eq_refl)|reflexivity].
  exact HP.
Qed.
Print Assumptions C55_rpi_round_trip.

(** C55, SimplePtycho: buffers keep the type they were given, which must be one torch has; wavelength,
    geometry and minimum translation may be anything. *)
Theorem C55_simple_round_trip : forall (a : sargs E) s0 l m cls ver d,
  torch_native (a_dt (sa_wavelength a)) -> torch_native (a_dt (sa_probe_basis a)) -> torch_native (a_dt (sa_min_translation a)) ->
  simple_init cast maxabs ediv a = Ok (s0, l) ->
  trained false s0 (md_slots m) -> md_loss m = l ->
  simple_save emul one of_int cls ver m = Ok d ->
  simple_from_results cast maxabs ediv int_of d = Ok m /\
  (nul_free (md_training m) -> nul_free cls -> nul_free ver ->
   exists g d', nested_dict_to_h5 d = Ok g /\ h5_to_nested_dict g = Ok d' /\
     simple_from_results cast maxabs ediv int_of d' = Ok m).
Proof.
  intros a s0 l m cls ver d H1 H2 H3 HI HT HL HV. unfold simple_init in HI. injection HI as <- <-.
  destruct m as [S ml mh me mt]. cbn [md_slots md_loss] in *. subst ml. slots HT.
  unfold simple_save in HV.
  match type of HV with rbind ?B _ = _ => destruct B as [b0'|] eqn:HB; [|discriminate] end. cbn [rbind] in HV. injection HV as HV.
  eapply (extras_reload _ _ cls ver b0'); [cbn [md_slots]; solve_keys| |exact HB|symmetry; exact HV
    |reflexivity|reflexivity|apply plain_lit; reflexivity|].
  - unfold buf, par. repeat (constructor; [cbn [sl_val]; try assumption; try (apply tn; reflexivity)|]); [..|constructor];
    match goal with M : may_become _ _ _ _ ?b |- torch_native (a_dt ?b) => let X := fresh in destruct M as [X _]; rewrite X; apply tn; reflexivity end.
  - clear HV HB; clear d; intros d F; pose proof F as ((sd & Hsd & Hh) & _); cbn [md_slots] in Hh.
    unfold simple_from_results, get_sd; rewrite Hsd; cbn [rbind]. reading sd Hh. unfold simple_init. cbn [rbind].
    cbn [sa_wavelength sa_probe_basis sa_probe sa_obj sa_min_translation].
    compare F. all: compat_slot.
  - cbn [md_slots]. assert (X : forall k, h5_native (a_dt (match slot_val k [buf "wavelength" (Some (sa_wavelength a))] with Some x => x | None => mkArr DF32 [] [] end))).
    { intros k. cbn. destruct (k =? "wavelength"); [now apply torch_h5_native|discriminate]. }
    repeat (constructor; [cbn [snd]; eexists; split; [reflexivity|]; cbn [a_dt]|]); try constructor; try (cbn; discriminate); cbn [slot_val buf sl_name sl_val String.eqb Ascii.eqb Bool.eqb].
    + now apply torch_h5_native.
    + match goal with M : may_become _ "obj" _ _ ?b |- _ => let Y := fresh in destruct M as [Y _]; cbn; rewrite Y; discriminate end.
    + now apply torch_h5_native.
Qed.
Print Assumptions C55_simple_round_trip.
End Reload.
