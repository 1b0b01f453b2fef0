(** Property theorems about the models' propagators and geometry (C51, C52, C56-C61). *)
From Verif Require Import Base FinSum Fourier Model_Prop Spec_Prop Proofs_Prop Proofs_AS Properties_Prop
  Model_Geom Spec_Geom Proofs_Geom Properties_Geom Model_Models Spec_Models Proofs_Models.
From Coquelicot Require Import Complex.
Local Open Scope R_scope.

(** C51: in every far-field model that offers a backward propagator, the two propagators undo each other
    in both orders, for every image size and wave. *)
Theorem C51_far_field : forall N M hna, (0 < N)%nat -> (0 < M)%nat ->
  let pairs := [ (fancy_forward fancy_far N M, fancy_backward fancy_far N M);
                 (multislice_forward N M, multislice_backward N M);
                 (rpi_forward N M, rpi_backward N M);
                 (bragg_forward hna false N M,
                  fun w => rbind (bragg_backward false N M w) (fun o => match o with Some v => Ok v | None => Raise TypeError end)) ] in
  forall p, In p pairs -> undoes N M (fst p) (snd p) /\ undoes N M (snd p) (fst p).
Proof.
  intros N M hna HN HM pairs p Hp.
  assert (G : undoes N M (fun w => Ok (far_field N M w)) (fun w => Ok (inverse_far_field N M w)) /\
              undoes N M (fun w => Ok (inverse_far_field N M w)) (fun w => Ok (far_field N M w))).
  { split; intros w; do 2 eexists; (split; [reflexivity|]; split; [reflexivity|]); now apply far_inverse. }
  repeat (destruct Hp as [ <- | Hp]; [exact G|]). destruct Hp.
Qed.
Print Assumptions C51_far_field.
(** C51: a near-field model's forward propagator always works, is linear and never amplifies. *)
Theorem C51_near_forward : forall d0 d1 n0 n1 wl dist os pd w, (0 < n0)%nat -> (0 < n1)%nat -> (0 < os)%nat -> 0 < wl ->
  exists v, fancy_forward (fancy_near d0 d1 n0 n1 wl dist os pd) (n0 * os) (n1 * os) w = Ok v /\
    energy (n0 * os) (n1 * os) v <= energy (n0 * os) (n1 * os) w.
Proof.
  intros d0 d1 n0 n1 wl dist os pd w H0 H1 Ho Hw. eexists. split; [reflexivity|].
  unfold near_propagators. destruct (near_geometry d0 d1 dist os pd) as [[b0 b1] z]. cbn [fst].
  apply near_energy_le; try lia. intros k l _ _. rewrite nrm2_Cmod.
  pose proof (C27_generalized_bounded (n0 * os) (n1 * os) b0 b1 wl (0, 0, z) k l Hw). pose proof (Cmod_ge_0 (gen_propagator (n0 * os) (n1 * os) b0 b1 wl (0, 0, z) None k l)). nra.
Qed.
Print Assumptions C51_near_forward.
(** C51: the inverse propagator that a near-field model stores undoes its forward propagator whenever no
    frequency is evanescent (the forward propagator has modulus 1), ... *)
Theorem C51_near_stored_inverse : forall d0 d1 n0 n1 wl dist os pd w, (0 < n0)%nat -> (0 < n1)%nat -> (0 < os)%nat ->
  let m := fancy_near d0 d1 n0 n1 wl dist os pd in
  exists p q v, getattr m "angular_spectrum_propagator" = Ok (AImg p) /\ getattr m "inv_angular_spectrum_propagator" = Ok (AImg q) /\
    fancy_forward m (n0 * os) (n1 * os) w = Ok v /\
    ((forall k l, (k < n0 * os)%nat -> (l < n1 * os)%nat -> Cmod (p k l) = 1) -> same (n0 * os) (n1 * os) (near_field (n0 * os) (n1 * os) v q) w).
Proof.
  intros d0 d1 n0 n1 wl dist os pd w H0 H1 Ho m. unfold m, fancy_near.
  unfold near_propagators. destruct (near_geometry d0 d1 dist os pd) as [[b0 b1] z]. cbn [fst snd].
  do 3 eexists. split; [reflexivity|]. split; [reflexivity|]. split; [reflexivity|].
  intros U i j Hi Hj. rewrite <- inverse_near_is.
  apply (proj2 (C26_inverse_iff (n0 * os) (n1 * os) _ ltac:(lia) ltac:(lia)) U w i j Hi Hj).
Qed.
Print Assumptions C51_near_stored_inverse.
(** ... but the backward propagator of a near-field model always raises AttributeError: it asks for an
    attribute under another name than the one stored.  So the advertised option does not work both ways. *)
Theorem C51_near_field_refuted : forall asp inv_asp N M w, fancy_backward (fancy_attrs true asp inv_asp) N M w = Raise AttributeError.
Proof. reflexivity. Qed.
Print Assumptions C51_near_field_refuted.
(** C51: with tilt correction a Bragg model returns None instead of a wave or the intended
    NotImplementedError, and SimplePtycho has no backward propagator at all. *)
Theorem C51_tilt_refuted : forall N M w, bragg_backward true N M w = Ok None /\ bragg_backward true N M w <> Raise NotImplementedError.
Proof. split; [reflexivity|discriminate]. Qed.
Print Assumptions C51_tilt_refuted.
Theorem C51_simple_refuted : forall N M w, simple_backward N M w = Raise NotImplementedError.
Proof. reflexivity. Qed.
Print Assumptions C51_simple_refuted.
(** A case with modulus 1 everywhere: a 4 x 4 detector with unit pixels, wavelength 1/2, distance 3. *)
Lemma near_std s0 s1 n0 n1 wl dist os p i j : 0 < s0 -> 0 < s1 -> 0 < wl -> 0 < dist -> (0 < os)%nat -> 0 < p ->
  fst (near_propagators (0, - s0, 0) (- s1, 0, 0) n0 n1 wl dist os (Some p)) i j =
  as_propagator (n0 * os) (n1 * os) (s0 / (INR os * ((p + dist) / p))) (s1 / (INR os * ((p + dist) / p))) wl (dist / ((p + dist) / p)) None i j.
Proof.
  intros H0 H1 Hw Hd Ho Hp. unfold near_propagators, near_geometry. destruct (Req_EM_T p 0) as [E|_]; [lra|].
  assert (O : 0 < INR os) by (apply lt_0_INR; exact Ho).
  assert (MG : 0 < (p + dist) / p) by (apply Rdiv_lt_0_compat; lra). set (mg := (p + dist) / p) in *.
  assert (Z : 0 < dist / mg) by now apply Rdiv_lt_0_compat.
  unfold as_propagator. destruct (Rlt_dec (dist / mg) 0); [lra|]. cbn [fst].
  f_equal; unfold vscale, vx, vy, vz; cbn [fst snd]; f_equal; try (f_equal; field; lra); field; lra.
Qed.
Lemma near_std_direct s0 s1 n0 n1 wl dist os pd i j : 0 < s0 -> 0 < s1 -> 0 < wl -> 0 < dist -> (0 < os)%nat -> pd = None \/ pd = Some 0 ->
  fst (near_propagators (0, - s0, 0) (- s1, 0, 0) n0 n1 wl dist os pd) i j =
  as_propagator (n0 * os) (n1 * os) (s0 / INR os) (s1 / INR os) wl dist None i j.
Proof.
  intros H0 H1 Hw Hd Ho Hp.
  assert (G : near_geometry (0, - s0, 0) (- s1, 0, 0) dist os pd = (vscale (/ INR os) (0, - s0, 0), vscale (/ INR os) (- s1, 0, 0), dist)).
  { destruct Hp as [ -> | -> ]; [reflexivity|]. unfold near_geometry. destruct (Req_EM_T 0 0); [reflexivity|lra]. }
  unfold near_propagators. rewrite G. assert (O : 0 < INR os) by (apply lt_0_INR; exact Ho).
  unfold as_propagator. destruct (Rlt_dec dist 0); [lra|]. cbn [fst].
  f_equal; unfold vscale, vx, vy, vz; cbn [fst snd]; f_equal; try (f_equal; field; lra); field; lra.
Qed.
Example C51_case : forall k l, (k < 4 * 1)%nat -> (l < 4 * 1)%nat ->
  Cmod (fst (near_propagators (0, -1, 0) (-1, 0, 0) 4 4 (1 / 2) 3 1 None) k l) = 1.
Proof.
  intros k l Hk Hl. replace (-1) with (- (1)) by ring. rewrite near_std_direct; try lra; try (now left); try lia.
  change (INR 1) with 1. replace (1 / 1) with 1 by field. apply C27_modulus; try lra. now apply C27_case_propagating.
Qed.

(** C52: whatever way the surface normal s is chosen (argument, mode, dataset), as long as the exit wave is
    not seen edge-on (s not perpendicular to the scattered direction), the model is built, its stored normal
    is the unit normal along s that points downstream, the object basis lies in the sample plane, and each
    basis vector is the exit-wave basis vector displaced along the scattered direction only. *)
Theorem C52_object_plane : forall d0 d1 n0 n1 wl dist given mode orient s,
  independent d0 d1 -> (0 < n0)%nat -> (0 < n1)%nat -> wl * dist <> 0 ->
  bragg_normal d0 d1 given mode orient = Ok s -> vdot s (k_out d0 d1) <> 0 ->
  exists b0 b1 m, bragg_geometry d0 d1 n0 n1 wl dist given mode orient = Ok ((b0, b1), m) /\
    unit_vec m /\ (same_direction s m \/ same_direction (vscale (-1) s) m) /\ 0 < vdot m (k_out d0 d1) /\
    orthogonal m b0 /\ orthogonal m b1 /\
    exists a0 a1, b0 = vadd (fst (exit_wave_geometry d0 d1 n0 n1 wl dist)) (vscale a0 (k_out d0 d1)) /\
                  b1 = vadd (snd (exit_wave_geometry d0 d1 n0 n1 wl dist)) (vscale a1 (k_out d0 d1)).
Proof.
  intros d0 d1 n0 n1 wl dist g mode o s H H0 H1 HW B S.
  do 3 eexists. split; [exact (bragg_geometry_value d0 d1 n0 n1 wl dist g mode o s H H0 H1 HW B S)|].
  set (e := exit_wave_geometry d0 d1 n0 n1 wl dist). set (n := k_out d0 d1) in *.
  assert (SN : s <> (0, 0, 0)). { intros E. apply S. rewrite E. apply vdot_0_l. }
  pose proof (vlen_pos s SN) as L.
  assert (SG : (0 < vdot s n /\ sgn (vdot s n) = 1) \/ (vdot s n < 0 /\ sgn (vdot s n) = -1)).
  { destruct (Rtotal_order (vdot s n) 0) as [Q|[Q|Q]]; [right|contradiction|left]; split; try exact Q; [now apply sgn_neg|now apply sgn_pos]. }
  split; [|split; [|split; [|split; [|split]]]].
  - unfold unit_vec. rewrite vdot_vscale_l, vdot_vscale_r, <- vlen_sq. destruct SG as [[_ ->]|[_ ->]]; field; lra.
  - destruct SG as [[_ ->]|[_ ->]].
    + left. exists (1 / vlen s). split; [apply Rdiv_lt_0_compat; lra|reflexivity].
    + right. exists (1 / vlen s). split; [apply Rdiv_lt_0_compat; lra|]. rewrite vscale_vscale. f_equal. field. lra.
  - rewrite vdot_vscale_l. destruct SG as [[P ->]|[P ->]].
    + apply Rmult_lt_0_compat; [apply Rdiv_lt_0_compat; lra|exact P].
    + replace (-1 / vlen s * vdot s n) with (1 / vlen s * - vdot s n) by (field; lra). apply Rmult_lt_0_compat; [apply Rdiv_lt_0_compat; lra|lra].
  - unfold orthogonal. rewrite vdot_vscale_l, vdot_vsub_r, vdot_vscale_r. field. split; lra.
  - unfold orthogonal. rewrite vdot_vscale_l, vdot_vsub_r, vdot_vscale_r. field. split; lra.
  - exists (- (vdot s (fst e) / vdot s n)), (- (vdot s (snd e) / vdot s n)). clear. generalize (vdot s (fst e) / vdot s n) (vdot s (snd e) / vdot s n). intros p q. split; apply v3_eq; v3; ring.
Qed.
Print Assumptions C52_object_plane.
(** C52: in reflection mode the stored normal is the one for which the sample mirrors the incoming beam
    into the scattered direction, for every detector that is not in the direct beam. *)
Theorem C52_reflection_is_specular : forall d0 d1 n0 n1 wl dist orient,
  independent d0 d1 -> (0 < n0)%nat -> (0 < n1)%nat -> wl * dist <> 0 -> k_out d0 d1 <> k_in ->
  exists b m, bragg_geometry d0 d1 n0 n1 wl dist None SReflection orient = Ok (b, m) /\
    unit_vec m /\ mirror m k_in = k_out d0 d1 /\ orthogonal m (fst b) /\ orthogonal m (snd b).
Proof.
  intros d0 d1 n0 n1 wl dist o H H0 H1 HW NE.
  pose proof (k_out_unit d0 d1 H) as U.
  assert (B : bragg_normal d0 d1 None SReflection o = Ok (vsub ez (k_out d0 d1))).
  { unfold bragg_normal. cbv zeta. rewrite (k_out_outgoing d0 d1 H), vlen_scale, (unit_len _ U).
    replace (Rabs (-1)) with 1 by (rewrite Rabs_left; lra). f_equal. clear. generalize (k_out d0 d1). intros n. unfold ez. replace (/ (1 * 1)) with 1 by field. apply v3_eq; v3; ring. }
  set (n := k_out d0 d1) in *. set (s := vsub ez n) in *.
  assert (Q : vdot s s = - (2 * vdot s n)).
  { unfold s, ez. unfold unit_vec in U. clear - U. v3. nra. }
  assert (SP : 0 < vdot s s).
  { apply vdot_pos. intros E. apply NE. unfold k_in. unfold s, ez in E. clear - E. destruct n as [[a b] c]. unfold vsub, vx, vy, vz in E. cbn [fst snd] in E. injection E as A B C. f_equal; [f_equal|]; lra. }
  assert (S : vdot s n < 0) by lra.
  destruct (C52_object_plane d0 d1 n0 n1 wl dist None SReflection o s H H0 H1 HW B ltac:(fold n; lra))
    as (b0 & b1 & m & E & UM & D & _ & O0 & O1 & _).
  exists (b0, b1), m. split; [exact E|]. split; [exact UM|]. split; [|split; [exact O0|exact O1]].
  (* m = -s / |s| or s / |s|: the mirror does not depend on the sign *)
  assert (DM : exists k, m = vscale k s).
  { destruct D as [[k [_ ->]]|[k [_ ->]]]; [now exists k|]. exists (k * -1). now rewrite vscale_vscale. }
  destruct DM as [k ->]. unfold unit_vec in UM. rewrite vdot_vscale_l, vdot_vscale_r in UM.
  unfold mirror. rewrite vdot_vscale_r, vscale_vscale.
  assert (KS : vdot k_in s = vdot s s / 2).
  { unfold k_in, s, ez. unfold unit_vec in U. clear - U. v3. nra. }
  replace (2 * (k * vdot k_in s) * k) with (k * (k * vdot s s)) by (rewrite KS; field). rewrite UM.
  unfold s, k_in, ez. clear. generalize n. intros u. apply v3_eq; v3; ring.
Qed.
Print Assumptions C52_reflection_is_specular.
(** C52: in transmission mode the sample plane is perpendicular to the beam. *)
Theorem C52_transmission_is_flat : forall d0 d1 n0 n1 wl dist orient,
  independent d0 d1 -> (0 < n0)%nat -> (0 < n1)%nat -> wl * dist <> 0 -> vz (k_out d0 d1) <> 0 ->
  exists b m, bragg_geometry d0 d1 n0 n1 wl dist None STransmission orient = Ok (b, m) /\
    vz (fst b) = 0 /\ vz (snd b) = 0 /\ (m = (0, 0, 1) \/ m = (0, 0, -1)).
Proof.
  intros d0 d1 n0 n1 wl dist o H H0 H1 HW NE.
  assert (Z : forall u, vdot ez u = vz u) by (clear; intros; unfold ez; v3; ring).
  destruct (C52_object_plane d0 d1 n0 n1 wl dist None STransmission o ez H H0 H1 HW eq_refl ltac:(rewrite Z; exact NE))
    as (b0 & b1 & m & E & UM & D & _ & O0 & O1 & _).
  assert (DM : exists k, m = vscale k ez).
  { destruct D as [[k [_ ->]]|[k [_ ->]]]; [now exists k|]. exists (k * -1). now rewrite vscale_vscale. }
  destruct DM as [k ->]. unfold unit_vec, orthogonal in *. rewrite ?vdot_vscale_l, ?vdot_vscale_r, Z in *.
  change (vz ez) with 1 in UM. assert (KK : k = 1 \/ k = -1).
  { assert ((k - 1) * (k + 1) = 0) as X by lra. apply Rmult_integral in X. destruct X; [left|right]; lra. }
  exists (b0, b1), (vscale k ez). split; [exact E|]. cbn [fst snd].
  split; [destruct KK as [ -> | -> ]; lra|]. split; [destruct KK as [ -> | -> ]; lra|].
  destruct KK as [ -> | -> ]; [left|right]; unfold ez; apply v3_eq; v3; ring.
Qed.
Print Assumptions C52_transmission_is_flat.
(** C52: FancyPtycho's normal: in reflection mode the unit normal that mirrors the incoming into the scattered beam
    and points to the side of the scattered beam; in transmission mode along the beam; otherwise the
    dataset's, if it has one, else along the beam. *)
Theorem C52_fancy_normal : forall d0 d1 orient,
  (independent d0 d1 -> k_out d0 d1 <> k_in ->
     let m := fancy_normal d0 d1 SReflection orient in unit_vec m /\ mirror m k_in = k_out d0 d1 /\ 0 < vdot m (k_out d0 d1)) /\
  fancy_normal d0 d1 STransmission orient = k_in /\
  fancy_normal d0 d1 SNone orient = match orient with Some n => n | None => k_in end.
Proof.
  intros d0 d1 o. split; [|split; reflexivity]. intros H NE. pose proof (k_out_unit d0 d1 H) as U. unfold fancy_normal. rewrite (k_out_outgoing d0 d1 H).
  set (n := k_out d0 d1) in *. set (s := vadd (vscale (-1) n) ez).
  assert (Q : vdot s s = - (2 * vdot s n)) by (unfold s, ez; unfold unit_vec in U; clear - U; v3; nra).
  assert (SP : 0 < vdot s s).
  { apply vdot_pos. intros E. apply NE. unfold k_in. unfold s, ez in E. clear - E. destruct n as [[a b] c]. unfold vadd, vscale, vx, vy, vz in E. cbn [fst snd] in E. injection E as A B C. f_equal; [f_equal|]; lra. }
  assert (L : vlen s * vlen s = vdot s s) by (unfold vlen; apply sqrt_sqrt; lra).
  assert (LP : 0 < vlen s) by (unfold vlen; now apply sqrt_lt_R0).
  cbv zeta. split; [|split].
  - unfold unit_vec. rewrite vdot_vscale_l, vdot_vscale_r, <- L. field. lra.
  - unfold mirror. rewrite vdot_vscale_r, vscale_vscale. assert (KS : vdot k_in s = vdot s s / 2) by (unfold k_in, s, ez; unfold unit_vec in U; clear - U; v3; nra).
    replace (2 * (/ - vlen s * vdot k_in s) * / - vlen s) with 1 by (rewrite KS, <- L; field; lra).
    unfold s, k_in, ez. clear. generalize n. intros u. apply v3_eq; v3; ring.
  - rewrite vdot_vscale_l. replace (vdot s n) with (- (vlen s * vlen s / 2)) by lra. replace (/ - vlen s * - (vlen s * vlen s / 2)) with (vlen s / 2) by (field; lra). lra.
Qed.
Print Assumptions C52_fancy_normal.
(** C52: the geometry depends on the direction of the normal only, not on its length or sign, so a
    normal that was not normalised is harmless; ... *)
Theorem C52_any_length : forall d0 d1 n0 n1 wl dist s k mode orient,
  independent d0 d1 -> (0 < n0)%nat -> (0 < n1)%nat -> wl * dist <> 0 -> vdot s (k_out d0 d1) <> 0 -> k <> 0 ->
  bragg_geometry d0 d1 n0 n1 wl dist (Some (vscale k s)) mode orient = bragg_geometry d0 d1 n0 n1 wl dist (Some s) mode orient.
Proof.
  intros d0 d1 n0 n1 wl dist s k mode o H H0 H1 HW S K.
  rewrite (bragg_geometry_value d0 d1 n0 n1 wl dist (Some s) mode o s H H0 H1 HW eq_refl S).
  rewrite (bragg_geometry_value d0 d1 n0 n1 wl dist (Some (vscale k s)) mode o (vscale k s) H H0 H1 HW eq_refl).
  2:{ rewrite vdot_vscale_l. now apply Rmult_integral_contrapositive_currified. }
  assert (SN : s <> (0, 0, 0)). { intros E. apply S. rewrite E. apply vdot_0_l. }
  pose proof (vlen_pos s SN) as L.
  rewrite !vdot_vscale_l, vlen_scale, vscale_vscale. set (n := k_out d0 d1) in *.
  f_equal. f_equal; [f_equal|].
  - do 2 f_equal. field. auto.
  - do 2 f_equal. field. auto.
  - f_equal. assert (AK : 0 < Rabs k) by now apply Rabs_pos_lt.
    assert (X : sgn (k * vdot s n) * k = sgn (vdot s n) * Rabs k).
    { set (x := vdot s n) in *. clearbody x. clear - S K.
      unfold sgn, Rabs. destruct (Rcase_abs k), (Rlt_dec x 0), (Rlt_dec (k * x) 0), (Rlt_dec 0 x), (Rlt_dec 0 (k * x)); try nra; exfalso; try nra;
      destruct (Rtotal_order x 0) as [?|[?|?]]; destruct (Rtotal_order k 0) as [?|[?|?]]; nra. }
    apply (Rmult_eq_reg_r (Rabs k * vlen s)); [|nra].
    replace (sgn (vdot s n) / vlen s * (Rabs k * vlen s)) with (sgn (vdot s n) * Rabs k) by (field; lra). rewrite <- X. field. split; lra.
Qed.
Print Assumptions C52_any_length.
(** ... and a model rebuilt from the dataset it simulates (whose orientation records the stored normal) has
    exactly the same object basis and normal. *)
Theorem C52_simulated_dataset : forall d0 d1 n0 n1 wl dist given mode orient s b m,
  independent d0 d1 -> (0 < n0)%nat -> (0 < n1)%nat -> wl * dist <> 0 ->
  bragg_normal d0 d1 given mode orient = Ok s -> vdot s (k_out d0 d1) <> 0 ->
  bragg_geometry d0 d1 n0 n1 wl dist given mode orient = Ok (b, m) ->
  bragg_geometry d0 d1 n0 n1 wl dist None SNone (Some (snd (sim_orientation m))) = Ok (b, m).
Proof.
  intros d0 d1 n0 n1 wl dist g mode o s b m H H0 H1 HW B S E.
  pose proof (bragg_geometry_value d0 d1 n0 n1 wl dist g mode o s H H0 H1 HW B S) as V. cbv zeta in V.
  assert (ES : bragg_geometry d0 d1 n0 n1 wl dist (Some s) mode o = Ok (b, m)).
  { rewrite <- E, V. exact (bragg_geometry_value d0 d1 n0 n1 wl dist (Some s) mode o s H H0 H1 HW eq_refl S). }
  change (snd (sim_orientation m)) with m.
  assert (EM : m = vscale (sgn (vdot s (k_out d0 d1)) / vlen s) s) by congruence.
  assert (K : sgn (vdot s (k_out d0 d1)) / vlen s <> 0).
  { assert (SN : s <> (0, 0, 0)). { intros X. apply S. rewrite X. apply vdot_0_l. }
    pose proof (vlen_pos s SN). unfold Rdiv. apply Rmult_integral_contrapositive_currified; [|apply Rinv_neq_0_compat; lra].
    unfold sgn. destruct (Rlt_dec _ 0); [lra|]. destruct (Rlt_dec 0 _); lra. }
  rewrite <- ES. rewrite <- (C52_any_length d0 d1 n0 n1 wl dist s _ mode o H H0 H1 HW S K), <- EM. reflexivity.
Qed.
Print Assumptions C52_simulated_dataset.
(** C52: built without a probe_basis, the model has no `units` attribute, which its plots read. *)
Theorem C52_units_refuted : forall u, getattr (bragg_units true u) "units" = Ok (AStr u) /\ getattr (bragg_units false u) "units" = Raise AttributeError.
Proof. split; reflexivity. Qed.
Print Assumptions C52_units_refuted.
(** C52: an unknown scattering mode is a ValueError only when it is not a string; a misspelt string gives
    an AttributeError on None (and FancyPtycho ignores it). *)
Theorem C52_unknown_mode_refuted : forall d0 d1 n0 n1 wl dist orient,
  bragg_geometry d0 d1 n0 n1 wl dist None SNotString orient = Raise ValueError /\
  bragg_geometry d0 d1 n0 n1 wl dist None SOtherString orient = Raise AttributeError /\
  fancy_normal d0 d1 SOtherString orient = fancy_normal d0 d1 SNone orient.
Proof. repeat split. Qed.
Print Assumptions C52_unknown_mode_refuted.
(** A reflection geometry: detector perpendicular to the y axis, scattered direction y; the sample is at 45 degrees. *)
Example C52_case : independent (0, 0, -2) (2, 0, 0) /\ k_out (0, 0, -2) (2, 0, 0) = (0, 1, 0) /\ k_out (0, 0, -2) (2, 0, 0) <> k_in.
Proof.
  assert (E : k_out (0, 0, -2) (2, 0, 0) = (0, 1, 0)).
  { unfold k_out. assert (C : vcross (2, 0, 0) (0, 0, -2) = (0, 4, 0)) by (apply v3_eq; unfold vcross, vx, vy, vz; cbn [fst snd]; ring). rewrite C.
    assert (L : vlen (0, 4, 0) = 4). { unfold vlen, vdot, vx, vy, vz. cbn [fst snd]. replace (0 * 0 + 4 * 4 + 0 * 0) with (4 * 4) by ring. apply sqrt_square. lra. }
    rewrite L. apply v3_eq; unfold vscale, vx, vy, vz; cbn [fst snd]; field. }
  split; [|split; [exact E|]].
  - unfold independent, vcross, vx, vy, vz. cbn [fst snd]. intros X. injection X. lra.
  - rewrite E. unfold k_in. intros X. injection X. lra.
Qed.

(** C56: in a near-field model the propagator is the angular spectrum formula of the equivalent parallel-beam
    geometry: for a point source at distance p > 0 upstream, pixels demagnified by (p + d)/p and effective
    distance z with 1/z = 1/p + 1/d; ... *)
Theorem C56_projection : forall s0 s1 n0 n1 wl dist os p, 0 < s0 -> 0 < s1 -> 0 < wl -> 0 < dist -> (0 < os)%nat -> 0 < p ->
  exists z r0 r1, / z = / p + / dist /\ r0 * (INR os * ((p + dist) / p)) = s0 /\ r1 * (INR os * ((p + dist) / p)) = s1 /\
    snd (near_geometry (0, - s0, 0) (- s1, 0, 0) dist os (Some p)) = z /\
    fst (near_geometry (0, - s0, 0) (- s1, 0, 0) dist os (Some p)) = ((0, - r0, 0), (- r1, 0, 0)) /\
    forall i j, fst (near_propagators (0, - s0, 0) (- s1, 0, 0) n0 n1 wl dist os (Some p)) i j =
      (RtoC (exp (- (wave_decay wl (kpar2 (n0 * os) (n1 * os) r0 r1 i j) * z))) * cis (z * wave_phase wl (kpar2 (n0 * os) (n1 * os) r0 r1 i j)))%C.
Proof.
  intros s0 s1 n0 n1 wl dist os p H0 H1 Hw Hd Ho Hp.
  assert (O : 0 < INR os) by (apply lt_0_INR; exact Ho).
  assert (MG : 0 < (p + dist) / p) by (apply Rdiv_lt_0_compat; lra).
  exists (dist / ((p + dist) / p)), (s0 / (INR os * ((p + dist) / p))), (s1 / (INR os * ((p + dist) / p))).
  split; [field; lra|]. split; [field; lra|]. split; [field; lra|].
  unfold near_geometry. destruct (Req_EM_T p 0) as [E|_]; [lra|].
  split; [reflexivity|]. split.
  - cbn [fst snd]. unfold vscale, vx, vy, vz. cbn [fst snd]. f_equal; (f_equal; [f_equal|]); field; lra.
  - intros i j. rewrite near_std by assumption.
    assert (Z : 0 < dist / ((p + dist) / p)) by now apply Rdiv_lt_0_compat.
    rewrite C27_formula; [rewrite (Rabs_pos_eq (dist / _)) by lra; reflexivity| | |exact Hw]; apply Rdiv_lt_0_compat; nra.
Qed.
Print Assumptions C56_projection.
(** ... without a source distance (or 0): the detector's own pixels and distance. *)
Theorem C56_parallel_beam : forall s0 s1 n0 n1 wl dist os pd, 0 < s0 -> 0 < s1 -> 0 < wl -> 0 < dist -> (0 < os)%nat -> pd = None \/ pd = Some 0 ->
  let r0 := s0 / INR os in let r1 := s1 / INR os in
  near_geometry (0, - s0, 0) (- s1, 0, 0) dist os pd = ((0, - r0, 0), (- r1, 0, 0), dist) /\
  forall i j, fst (near_propagators (0, - s0, 0) (- s1, 0, 0) n0 n1 wl dist os pd) i j =
    (RtoC (exp (- (wave_decay wl (kpar2 (n0 * os) (n1 * os) r0 r1 i j) * dist))) * cis (dist * wave_phase wl (kpar2 (n0 * os) (n1 * os) r0 r1 i j)))%C.
Proof.
  intros s0 s1 n0 n1 wl dist os pd H0 H1 Hw Hd Ho Hp r0 r1.
  assert (O : 0 < INR os) by (apply lt_0_INR; exact Ho). split.
  - assert (G : near_geometry (0, - s0, 0) (- s1, 0, 0) dist os pd = (vscale (/ INR os) (0, - s0, 0), vscale (/ INR os) (- s1, 0, 0), dist)).
    { destruct Hp as [ -> | -> ]; [reflexivity|]. unfold near_geometry. destruct (Req_EM_T 0 0); [reflexivity|lra]. }
    rewrite G. unfold r0, r1, vscale, vx, vy, vz. cbn [fst snd]. f_equal; f_equal; (f_equal; [f_equal|]); field; lra.
  - intros i j. rewrite near_std_direct by assumption. rewrite C27_formula; [rewrite (Rabs_pos_eq dist) by lra; reflexivity| | |exact Hw]; apply Rdiv_lt_0_compat; lra.
Qed.
Print Assumptions C56_parallel_beam.
(** C56, the exception: for a source (focus) downstream between sample and detector, -d < p < 0, the effective
    distance is negative, but the stored propagator is the one for the opposite, positive distance. *)
Lemma near_std_neg s0 s1 n0 n1 wl dist os p i j : 0 < s0 -> 0 < s1 -> 0 < wl -> (0 < os)%nat -> p < 0 -> 0 < p + dist ->
  let mg := (p + dist) / p in
  fst (near_propagators (0, - s0, 0) (- s1, 0, 0) n0 n1 wl dist os (Some p)) i j =
  as_propagator (n0 * os) (n1 * os) (- (s0 / (INR os * mg))) (- (s1 / (INR os * mg))) wl (- (dist / mg)) None i j.
Proof.
  intros H0 H1 Hw Ho Hp Hd mg.
  assert (O : 0 < INR os) by (apply lt_0_INR; exact Ho).
  assert (MG : mg < 0). { unfold mg. assert (/ p < 0) by now apply Rinv_lt_0_compat. unfold Rdiv. nra. }
  unfold near_propagators, near_geometry. destruct (Req_EM_T p 0) as [E|_]; [lra|]. fold mg. cbn [fst].
  set (z := dist / mg). set (r0 := s0 / (INR os * mg)). set (r1 := s1 / (INR os * mg)).
  assert (OM : INR os * mg < 0) by nra.
  assert (IOM : / (INR os * mg) < 0) by now apply Rinv_lt_0_compat.
  assert (R0 : 0 < - r0) by (unfold r0, Rdiv; nra). assert (R1 : 0 < - r1) by (unfold r1, Rdiv; nra).
  assert (Z : z < 0). { assert (/ mg < 0) by now apply Rinv_lt_0_compat. assert (0 < dist) by lra. unfold z, Rdiv. nra. }
  assert (B0 : vscale (/ (INR os * mg)) (0, - s0, 0) = (0, - r0, 0)) by (unfold r0, vscale, vx, vy, vz; cbn [fst snd]; f_equal; [f_equal|]; field; nra).
  assert (B1 : vscale (/ (INR os * mg)) (- s1, 0, 0) = (- r1, 0, 0)) by (unfold r1, vscale, vx, vy, vz; cbn [fst snd]; f_equal; [f_equal|]; field; nra).
  rewrite B0, B1. rewrite as_closed by assumption.
  (* the basis with both vectors reversed gives the same in-plane frequencies up to sign *)
  unfold gen_propagator.
  assert (PH : gen_phase (n0 * os) (n1 * os) (0, - r0, 0) (- r1, 0, 0) wl (0, 0, z) None i j =
    (Rabs z * wave_phase wl (kpar2 (n0 * os) (n1 * os) (- r0) (- r1) i j), Rabs z * wave_decay wl (kpar2 (n0 * os) (n1 * os) (- r0) (- r1) i j))).
  { unfold gen_phase, gen_Kip, gen_perp. rewrite Koop_closed by exact Hw.
    assert (P0 : pinv0 (0, - r0, 0) (- r1, 0, 0) = (0, - / r0, 0)) by (unfold pinv0, vscale, vsub, vdot, vx, vy, vz; cbn [fst snd]; f_equal; [f_equal|]; field; lra).
    assert (P1 : pinv1 (0, - r0, 0) (- r1, 0, 0) = (- / r1, 0, 0)) by (unfold pinv1, vscale, vsub, vdot, vx, vy, vz; cbn [fst snd]; f_equal; [f_equal|]; field; lra).
    assert (PP : perp0 (0, - r0, 0) (- r1, 0, 0) = (0, 0, -1)).
    { unfold perp0. assert (L0 : vlen (0, - r0, 0) = - r0).
      { unfold vlen, vdot, vx, vy, vz. cbn [fst snd]. replace (0 * 0 + - r0 * - r0 + 0 * 0) with (- r0 * - r0) by ring. apply sqrt_square. lra. }
      assert (L1 : vlen (- r1, 0, 0) = - r1).
      { unfold vlen, vdot, vx, vy, vz. cbn [fst snd]. replace (- r1 * - r1 + 0 * 0 + 0 * 0) with (- r1 * - r1) by ring. apply sqrt_square. lra. }
      rewrite L0, L1.
      assert (E : vcross (vscale (/ - r0) (0, - r0, 0)) (vscale (/ - r1) (- r1, 0, 0)) = (0, 0, -1)).
      { unfold vcross, vscale, vx, vy, vz. cbn [fst snd]. f_equal; [f_equal|]; field; lra. }
      rewrite E. assert (L : vlen (0, 0, -1) = 1).
      { unfold vlen, vdot, vx, vy, vz. cbn [fst snd]. replace (0 * 0 + 0 * 0 + -1 * -1) with 1 by ring. apply sqrt_1. }
      rewrite L. unfold vscale, vx, vy, vz. cbn [fst snd]. rewrite Rinv_1. f_equal; [f_equal|]; ring. }
    rewrite P0, P1, PP. set (K := vadd _ _).
    assert (EK : vdot K K = kpar2 (n0 * os) (n1 * os) (- r0) (- r1) i j).
    { unfold K, vadd, vscale, vdot, vx, vy, vz, kpar2. cbn [fst snd]. rewrite !fftfreq_freq. field. lra. }
    rewrite EK.
    assert (ED : vdot (0, 0, z) (vscale (sgn (vdot (0, 0, -1) (0, 0, z))) (0, 0, -1)) = Rabs z).
    { unfold vdot, vscale, vx, vy, vz. cbn [fst snd]. rewrite <- (sgn_abs z). ring. }
    rewrite ED.
    assert (EZ : vdot (0, 0, z) (vsub K (gen_K0 (0, - r0, 0) (- r1, 0, 0) wl (0, 0, z) None)) = 0).
    { unfold K, gen_K0, vsub, vadd, vscale, vdot, vx, vy, vz. cbn [fst snd]. ring. }
    rewrite EZ. apply C_ext; cbn; ring. }
  rewrite PH, cexp_i, Rabs_Ropp, (Rabs_left z Z). f_equal. do 2 f_equal. ring.
Qed.
Lemma wave_phase_half : let x := 2 * wave_phase (1 / 2) (kpar2 4 4 1 1 1%nat 0%nat) in - PI < x < 0.
Proof.
  cbv zeta. pose proof PI_RGT_0 as P.
  assert (K : kpar2 4 4 1 1 1%nat 0%nat = PI ^ 2 / 4). { unfold kpar2, freq. cbn -[PI pow]. field. }
  rewrite K. unfold wave_phase. replace (2 * PI / (1 / 2)) with (4 * PI) by field.
  destruct (Rle_dec (PI ^ 2 / 4) ((4 * PI) ^ 2)) as [_|N]; [|exfalso; apply N; nra].
  set (q := sqrt ((4 * PI) ^ 2 - PI ^ 2 / 4)).
  assert (Q : q * q = (4 * PI) ^ 2 - PI ^ 2 / 4) by (apply sqrt_sqrt; nra).
  assert (Q0 : 0 <= q) by apply sqrt_pos. nra.
Qed.
Theorem C56_downstream_focus_refuted : exists s0 s1 n0 n1 wl dist os p i j,
  0 < s0 /\ 0 < s1 /\ 0 < wl /\ 0 < dist /\ (0 < os)%nat /\ p < 0 /\ 0 < p + dist /\ (i < n0 * os)%nat /\ (j < n1 * os)%nat /\
  let mg := (p + dist) / p in let z := dist / mg in
  / z = / p + / dist /\ z < 0 /\
  fst (near_propagators (0, - s0, 0) (- s1, 0, 0) n0 n1 wl dist os (Some p)) i j
    <> as_propagator (n0 * os) (n1 * os) (Rabs (s0 / (INR os * mg))) (Rabs (s1 / (INR os * mg))) wl z None i j /\
  fst (near_propagators (0, - s0, 0) (- s1, 0, 0) n0 n1 wl dist os (Some p)) i j
    = as_propagator (n0 * os) (n1 * os) (Rabs (s0 / (INR os * mg))) (Rabs (s1 / (INR os * mg))) wl (- z) None i j.
Proof.
  exists 1, 1, 4%nat, 4%nat, (1 / 2), 2, 1%nat, (-1), 1%nat, 0%nat.
  do 4 (split; [lra|]). split; [lia|]. do 2 (split; [lra|]). do 2 (split; [cbn; lia|]).
  cbv zeta. split; [field|]. split; [lra|].
  assert (A : as_propagator (4 * 1)%nat (4 * 1)%nat (Rabs (1 / (INR 1 * ((-1 + 2) / -1)))) (Rabs (1 / (INR 1 * ((-1 + 2) / -1)))) (1 / 2) (2 / ((-1 + 2) / -1)) None 1%nat 0%nat
    = as_propagator 4%nat 4%nat 1 1 (1 / 2) (-2) None 1%nat 0%nat).
  { change (4 * 1)%nat with 4%nat. change (INR 1) with 1. replace (1 / (1 * ((-1 + 2) / -1))) with (-1) by field. replace (2 / ((-1 + 2) / -1)) with (-2) by field.
    now rewrite Rabs_left by lra; replace (- -1) with 1 by ring. }
  assert (A' : as_propagator (4 * 1)%nat (4 * 1)%nat (Rabs (1 / (INR 1 * ((-1 + 2) / -1)))) (Rabs (1 / (INR 1 * ((-1 + 2) / -1)))) (1 / 2) (- (2 / ((-1 + 2) / -1))) None 1%nat 0%nat
    = as_propagator 4%nat 4%nat 1 1 (1 / 2) 2 None 1%nat 0%nat).
  { change (4 * 1)%nat with 4%nat. change (INR 1) with 1. replace (1 / (1 * ((-1 + 2) / -1))) with (-1) by field. replace (- (2 / ((-1 + 2) / -1))) with 2 by field.
    now rewrite Rabs_left by lra; replace (- -1) with 1 by ring. }
  rewrite A, A', (near_std_neg 1 1 4%nat 4%nat (1 / 2) 2 1%nat (-1) 1%nat 0%nat) by (try lra; lia).
  assert (B : as_propagator (4 * 1)%nat (4 * 1)%nat (- (1 / (INR 1 * ((-1 + 2) / -1)))) (- (1 / (INR 1 * ((-1 + 2) / -1)))) (1 / 2) (- (2 / ((-1 + 2) / -1))) None 1%nat 0%nat
    = as_propagator 4%nat 4%nat 1 1 (1 / 2) 2 None 1%nat 0%nat).
  { change (4 * 1)%nat with 4%nat. change (INR 1) with 1. replace (- (1 / (1 * ((-1 + 2) / -1)))) with 1 by field. now replace (- (2 / ((-1 + 2) / -1))) with 2 by field. }
  rewrite B. split; [|reflexivity]. rewrite !as_closed by lra. intros E.
  pose proof wave_phase_half as W. cbv zeta in W.
  assert (D : wave_decay (1 / 2) (kpar2 4 4 1 1 1%nat 0%nat) = 0).
  { unfold wave_decay. destruct Rle_dec as [_|N]; [reflexivity|]. exfalso. apply N. exact (C27_case_propagating 1%nat 0%nat ltac:(lia) ltac:(lia)). }
  rewrite D, !Rmult_0_l, Ropp_0, exp_0, !Cmult_1_l in E. set (x := 2 * wave_phase (1 / 2) (kpar2 4 4 1 1 1%nat 0%nat)) in *.
  replace (-2 * wave_phase (1 / 2) (kpar2 4 4 1 1 1%nat 0%nat)) with (- x) in E by (unfold x; ring).
  apply (f_equal snd) in E. unfold cis in E. cbn [snd] in E. rewrite sin_neg in E.
  pose proof (sin_lt_0_var x ltac:(lra) ltac:(lra)). lra.
Qed.
Print Assumptions C56_downstream_focus_refuted.
(** A source 3 upstream of the sample and the detector 6 downstream: magnification 3, effective distance 2. *)
Example C56_case : near_geometry (0, -3, 0) (-3, 0, 0) 6 1 (Some 3) = ((0, -1, 0), (-1, 0, 0), 2).
Proof.
  unfold near_geometry. destruct (Req_EM_T 3 0) as [E|_]; [lra|]. change (INR 1) with 1.
  unfold vscale, vx, vy, vz. cbn [fst snd]. f_equal; [f_equal; (f_equal; [f_equal|])|]; field.
Qed.

(** C57: with recorded intensities FancyPtycho starts from weights whose squares (the simulated powers) are
    proportional to them and whose mean is 1; without them all weights are 1. *)
Theorem C57_weights : forall n l, (forall x, In x l -> 0 < x) -> l <> nil ->
  exists c, 0 < c /\ map (fun w => w * w) (fancy_weights n (Some l)) = map (fun x => c * x) l /\
    lsum (fancy_weights n (Some l)) = INR (length l) /\ (forall w, In w (fancy_weights n (Some l)) -> 0 < w) /\
    fancy_weights n None = repeat 1 n.
Proof.
  intros n l H NE. unfold fancy_weights. set (m := rmean (map sqrt l)).
  assert (L : 0 < INR (length l)) by (apply lt_0_INR; destruct l; [contradiction|cbn; lia]).
  assert (SP : 0 < lsum (map sqrt l)).
  { assert (P : forall l, (forall x, In x l -> 0 < x) -> 0 <= lsum (map sqrt l)).
    { clear. induction l as [|a l IH]; intros H; [cbn; lra|]. cbn. pose proof (sqrt_pos a). pose proof (IH (fun x i => H x (or_intror i))). unfold lsum in *. lra. }
    destruct l as [|a l]; [contradiction|]. cbn. pose proof (sqrt_lt_R0 a (H a (or_introl eq_refl))). pose proof (P l (fun x i => H x (or_intror i))). unfold lsum in *. lra. }
  assert (M : 0 < m). { unfold m, rmean. rewrite map_length. apply Rdiv_lt_0_compat; assumption. }
  exists (/ (m * m)). split; [apply Rinv_0_lt_compat; nra|]. split; [|split; [|split; [|reflexivity]]].
  - rewrite !map_map. apply map_ext_in. intros x Hx. pose proof (H x Hx) as X. pose proof (sqrt_sqrt x ltac:(lra)) as Q.
    replace (1 * (sqrt x / m) * (1 * (sqrt x / m))) with (sqrt x * sqrt x * / (m * m)) by (field; lra). rewrite Q. ring.
  - assert (S : forall l, lsum (map (fun x => 1 * (x / m)) l) = lsum l / m).
    { clearbody m. clear - M. induction l as [|a l IH]; [cbn; field; lra|]. cbn. unfold lsum in *. rewrite IH. field. lra. }
    rewrite S. unfold m, rmean. rewrite map_length. field. split; lra.
  - intros w Hw. apply in_map_iff in Hw. destruct Hw as (y & <- & Hy). apply in_map_iff in Hy. destruct Hy as (x & <- & Hx).
    pose proof (sqrt_lt_R0 x (H x Hx)). rewrite Rmult_1_l. apply Rdiv_lt_0_compat; lra.
Qed.
Print Assumptions C57_weights.
(** C57: MultislicePtycho's weights are proportional to the recorded intensities themselves, with mean 1; ... *)
Theorem C57_multislice : forall n l, (forall x, In x l -> 0 < x) -> l <> nil ->
  exists c, 0 < c /\ multislice_weights n (Some l) = map (fun x => c * x) l /\ lsum (multislice_weights n (Some l)) = INR (length l) /\
    multislice_weights n None = repeat 1 n.
Proof.
  intros n l H NE. unfold multislice_weights.
  assert (L : 0 < INR (length l)) by (apply lt_0_INR; destruct l; [contradiction|cbn; lia]).
  assert (SP : 0 < lsum l).
  { assert (P : forall l, (forall x, In x l -> 0 < x) -> 0 <= lsum l).
    { clear. induction l as [|a l IH]; intros H; [cbn; lra|]. cbn. pose proof (H a (or_introl eq_refl)). pose proof (IH (fun x i => H x (or_intror i))). unfold lsum in *. lra. }
    destruct l as [|a l]; [contradiction|]. cbn. pose proof (H a (or_introl eq_refl)). pose proof (P l (fun x i => H x (or_intror i))). unfold lsum in *. lra. }
  assert (M : 0 < rmean l) by (unfold rmean; now apply Rdiv_lt_0_compat).
  assert (S : forall l' m, 0 < m -> lsum (map (fun x => 1 * (x / m)) l') = lsum l' / m).
  { clear. intros l' m M. induction l' as [|a l' IH]; [cbn; field; lra|]. cbn. unfold lsum in *. rewrite IH. field. lra. }
  exists (/ rmean l). split; [now apply Rinv_0_lt_compat|]. split; [apply map_ext; intros x; field; lra|]. split; [|reflexivity].
  rewrite S by exact M. unfold rmean. field. lra.
Qed.
Print Assumptions C57_multislice.
(** ... as these are amplitude weights, the simulated powers
    are not proportional to the recorded intensities. *)
Theorem C57_multislice_refuted : exists n l, (forall x, In x l -> 0 < x) /\ l <> nil /\
  ~ exists c, map (fun w => w * w) (multislice_weights n (Some l)) = map (fun x => c * x) l.
Proof.
  exists 2%nat, [1; 4]. split; [intros x [ <- | [ <- | []]]; lra|]. split; [discriminate|].
  intros [c E]. cbn in E. injection E as A B. unfold rmean in *. cbn in *. field_simplify in A. field_simplify in B. lra.
Qed.
Print Assumptions C57_multislice_refuted.
(** C57: a density-matrix model of rank r (or -1 for full rank) starts with the first r basis modes as they
    are, in every exposure; a rank above the number of modes is refused. *)
Theorem C57_density_matrix : forall rk n_modes, (rk = -1 \/ 0 <= rk)%Z ->
  (Z.of_nat n_modes < rk)%Z /\ dm_weights rk n_modes = Raise KeyError \/
  (exists r W, dm_weights rk n_modes = Ok (r, W) /\ (r <= n_modes)%nat /\ (rk = -1 -> r = n_modes)%Z /\ (0 <= rk -> Z.of_nat r = rk)%Z /\
     forall (basis : nat -> R) i, (i < r)%nat -> rsum n_modes (fun k => W i k * basis k) = basis i).
Proof.
  intros rk nm H. unfold dm_weights. destruct (Z.ltb_spec (Z.of_nat nm) rk) as [L|L]; [left; split; [exact L|reflexivity]|]. right.
  destruct (Z.eqb_spec rk (-1)) as [ -> | NE].
  - destruct (Z.ltb_spec (Z.of_nat nm) 0); [lia|]. rewrite Nat2Z.id. do 2 eexists. split; [reflexivity|]. repeat split; try lia.
    intros basis i Hi. rewrite (rsum_single nm i) by (first [lia | intros k Hk NE'; destruct (Nat.eqb_spec i k); [lia|ring]]). rewrite Nat.eqb_refl. ring.
  - destruct (Z.ltb_spec rk 0); [lia|]. do 2 eexists. split; [reflexivity|]. repeat split; try lia.
    intros basis i Hi. rewrite (rsum_single nm i) by (first [lia | intros k Hk NE'; destruct (Nat.eqb_spec i k); [lia|ring]]). rewrite Nat.eqb_refl. ring.
Qed.
Print Assumptions C57_density_matrix.
Example C57_case : (forall x, In x [1; 4; 9] -> 0 < x) /\ [1; 4; 9] <> nil /\ fst (match dm_weights 2 3 with Ok p => p | Raise _ => (0%nat, fun _ _ => 0) end) = 2%nat.
Proof. split; [intros x [ <- | [ <- | [ <- | []]]]; lra|]. split; [discriminate|reflexivity]. Qed.

(** C58: cropping c pixels of Fourier space from each side keeps the probe's field of view: pixel size times
    number of pixels is unchanged in FancyPtycho for every oversampling and crop that leaves something. *)
Theorem C58_field_of_view : forall b det os c, (2 * c < os * det)%nat ->
  vscale (INR (crop_len (os * det) c)) (fancy_probe_basis b det os c) = vscale (INR (os * det)) b.
Proof.
  intros b det os c H. unfold fancy_probe_basis. rewrite vscale_vscale. f_equal.
  assert (0 < INR (crop_len (os * det) c)) by (apply lt_0_INR; unfold crop_len; lia). field. lra.
Qed.
Print Assumptions C58_field_of_view.
(** C58: the other two models keep it without oversampling only (and Bragg2DPtycho only when c > 0). *)
Theorem C58_other_models : forall b det os c, (2 * c < os * det)%nat -> (0 < c)%nat ->
  (os = 1%nat -> vscale (INR (crop_len_neg (os * det) c)) (bragg_probe_basis b det os c) = vscale (INR (os * det)) b /\
                 vscale (INR (crop_len (os * det) c)) (multislice_probe_basis b det os c) = vscale (INR (os * det)) b) /\
  (os <> 1%nat -> b <> (0, 0, 0) ->
     vscale (INR (crop_len_neg (os * det) c)) (bragg_probe_basis b det os c) <> vscale (INR (os * det)) b /\
     vscale (INR (crop_len (os * det) c)) (multislice_probe_basis b det os c) <> vscale (INR (os * det)) b).
Proof.
  intros b det os c H C.
  assert (P : 0 < INR (crop_len (os * det) c)) by (apply lt_0_INR; unfold crop_len; lia).
  assert (E : crop_len_neg (os * det) c = crop_len (os * det) c) by (destruct c; [lia|reflexivity]).
  unfold bragg_probe_basis, multislice_probe_basis. rewrite E, !vscale_vscale.
  replace (INR (crop_len (os * det) c) * (INR det / INR (crop_len (os * det) c))) with (INR det) by (field; lra).
  split.
  - intros ->. rewrite Nat.mul_1_l. split; reflexivity.
  - intros NO NB.
    assert (X : vscale (INR det) b <> vscale (INR (os * det)) b); [|split; exact X].
    intros X. apply NB. apply (vscale_0_inv (INR det - INR (os * det))).
    + intros Z. assert (Y : INR det = INR (os * det)) by lra. apply INR_eq in Y. destruct os as [|[|os]]; [lia|lia|]. nia.
    + assert (D : vscale (INR det - INR (os * det)) b = vsub (vscale (INR det) b) (vscale (INR (os * det)) b)) by (clear; generalize (INR det) (INR (os * det)); intros; apply v3_eq; v3; ring).
      rewrite D, X. clear. generalize (INR (os * det)). intros. apply v3_eq; v3; ring.
Qed.
Print Assumptions C58_other_models.
Theorem C58_oversampled_refuted : exists b det os c, (2 * c < os * det)%nat /\ (0 < c)%nat /\
  vscale (INR (crop_len_neg (os * det) c)) (bragg_probe_basis b det os c) <> vscale (INR (os * det)) b /\
  vscale (INR (crop_len (os * det) c)) (multislice_probe_basis b det os c) <> vscale (INR (os * det)) b.
Proof.
  exists (1, 0, 0), 8%nat, 2%nat, 1%nat. split; [cbn; lia|]. split; [lia|].
  apply (C58_other_models (1, 0, 0) 8 2 1); [cbn; lia|lia|lia|]. intros E. injection E. lra.
Qed.
Print Assumptions C58_oversampled_refuted.

(** C59: between slices MultislicePtycho propagates with the angular spectrum formula of the object's pixel
    pitches when they are equal ... *)
Theorem C59_square_pixels : forall n0 n1 s wl dz i j, 0 < s -> 0 < wl ->
  interslice n0 n1 (0, - s, 0) (- s, 0, 0) wl dz i j =
    (RtoC (exp (- (wave_decay wl (kpar2 n0 n1 s s i j) * Rabs dz))) * cis (dz * wave_phase wl (kpar2 n0 n1 s s i j)))%C.
Proof.
  intros n0 n1 s wl dz i j Hs Hw. unfold interslice, vx, vy. cbn [fst snd]. rewrite Rabs_Ropp, (Rabs_pos_eq s) by lra. now apply C27_formula.
Qed.
Print Assumptions C59_square_pixels.
(** ... but it exchanges the two pitches when they differ. *)
Theorem C59_swapped : forall n0 n1 s0 s1 wl dz i j, 0 < s0 -> 0 < s1 -> 0 < wl ->
  interslice n0 n1 (0, - s0, 0) (- s1, 0, 0) wl dz i j = as_propagator n0 n1 s1 s0 wl dz None i j.
Proof. intros n0 n1 s0 s1 wl dz i j H0 H1 Hw. unfold interslice, vx, vy. cbn [fst snd]. now rewrite !Rabs_Ropp, !Rabs_pos_eq by lra. Qed.
Print Assumptions C59_swapped.
Theorem C59_rectangular_pixels_refuted : exists n0 n1 s0 s1 wl dz i j, 0 < s0 /\ 0 < s1 /\ 0 < wl /\ (i < n0)%nat /\ (j < n1)%nat /\
  interslice n0 n1 (0, - s0, 0) (- s1, 0, 0) wl dz i j <> as_propagator n0 n1 s0 s1 wl dz None i j.
Proof.
  exists 4%nat, 4%nat, 1, 2, (1 / 2), 1, 1%nat, 0%nat. do 3 (split; [lra|]). do 2 (split; [lia|]).
  rewrite C59_swapped, !as_closed by lra. intros E. pose proof PI_RGT_0 as P.
  assert (K : kpar2 4 4 1 2 1 0 = PI ^ 2 / 4). { unfold kpar2, freq. cbn -[PI pow]. field. }
  assert (K' : kpar2 4 4 2 1 1 0 = PI ^ 2 / 16). { unfold kpar2, freq. cbn -[PI pow]. field. }
  rewrite K, K' in E. unfold wave_phase, wave_decay in E. replace (2 * PI / (1 / 2)) with (4 * PI) in E by field.
  destruct (Rle_dec (PI ^ 2 / 4) ((4 * PI) ^ 2)) as [_|N]; [|apply N; nra].
  destruct (Rle_dec (PI ^ 2 / 16) ((4 * PI) ^ 2)) as [_|N]; [|apply N; nra].
  rewrite !Rmult_0_l, Ropp_0, exp_0, !Cmult_1_l, !Rmult_1_l in E.
  set (q := sqrt ((4 * PI) ^ 2 - PI ^ 2 / 4)) in *. set (q' := sqrt ((4 * PI) ^ 2 - PI ^ 2 / 16)) in *.
  assert (Q : q * q = (4 * PI) ^ 2 - PI ^ 2 / 4) by (apply sqrt_sqrt; nra). assert (Q0 : 0 <= q) by apply sqrt_pos.
  assert (Q' : q' * q' = (4 * PI) ^ 2 - PI ^ 2 / 16) by (apply sqrt_sqrt; nra). assert (Q0' : 0 <= q') by apply sqrt_pos.
  assert (D : 0 < q' - q < PI) by (split; nra).
  assert (S : sin (q' - q) = 0).
  { replace (q' - q) with ((q' - 4 * PI) - (q - 4 * PI)) by ring. rewrite sin_minus.
    injection E as E1 E2. rewrite E1, E2. ring. }
  pose proof (sin_gt_0 (q' - q) ltac:(lra) ltac:(lra)). lra.
Qed.
Print Assumptions C59_rectangular_pixels_refuted.

(** C60: simulating a dataset in chunks of any size gives the same patterns, in order, as one batch. *)
Theorem C60_chunks : forall (I T P : Type) (f : I -> T -> P) indices translations width,
  length translations = length indices -> indices <> nil -> (match width with Some w => (0 < w)%nat | None => True end) ->
  sim_data (each f) indices translations width = Ok (each f indices translations).
Proof. intros. now apply sim_data_value. Qed.
Print Assumptions C60_chunks.
(** C60: a simulation of no exposures, or chunks of size 0, is a ValueError. *)
Theorem C60_empty_refuted : forall (I T P : Type) (f : list I -> list T -> list P),
  sim_data f nil nil None = Raise ValueError /\ forall indices translations, sim_data f indices translations (Some 0%nat) = Raise ValueError.
Proof. split; reflexivity. Qed.
Print Assumptions C60_empty_refuted.
(** C60: the recorded sample orientation is a right-handed orthonormal frame whose third row is the model's
    surface normal, unless that normal is along the y axis. *)
Theorem C60_orientation : forall s, unit_vec s -> vx s <> 0 \/ vz s <> 0 ->
  right_handed (fst (fst (sim_orientation s))) (snd (fst (sim_orientation s))) (snd (sim_orientation s)) /\ snd (sim_orientation s) = s.
Proof. intros s U NZ. split; [now apply orientation_right_handed|reflexivity]. Qed.
Print Assumptions C60_orientation.
Example C60_case : unit_vec (0, 0, 1) /\ sim_data (each (fun i t => (i + t)%nat)) [1; 2; 3]%nat [10; 20; 30]%nat (Some 2%nat) = Ok [11; 22; 33]%nat.
Proof. split; [unfold unit_vec, vdot, vx, vy, vz; cbn [fst snd]; ring|reflexivity]. Qed.

(** C61: the translations that a model reports as corrected are those at which it simulates: at them, with no
    further offset, every exposure sits at the same place of the object array. *)
Theorem C61_corrected_positions : forall b0 b1 n mn scale off t, independent b0 b1 -> vz n <> 0 -> vdot (vcross b0 b1) n <> 0 ->
  relative mn (translations_to_pixel b0 b1 n (corrected b0 b1 n scale off t)) = fancy_pix b0 b1 n mn scale off t.
Proof.
  intros b0 b1 n mn scale off t H Hn Hd. unfold corrected, fancy_pix. destruct off as [o|]; [|reflexivity].
  rewrite pix_linear, pixel_round_trip by assumption. unfold relative, padd2, psub2, pscale2. cbn [fst snd]. f_equal; ring.
Qed.
Print Assumptions C61_corrected_positions.
(** C61: the correction stays in the plane across the beam. *)
Theorem C61_correction_is_lateral : forall b0 b1 n scale off t, independent b0 b1 -> vz n <> 0 -> vdot (vcross b0 b1) n <> 0 ->
  vz (corrected b0 b1 n scale off t) = vz t.
Proof.
  intros b0 b1 n scale off t H Hn Hd. unfold corrected. destruct off as [o|]; [|reflexivity].
  pose proof (translation_round_trip b0 b1 n (pixel_to_translations b0 b1 n (pscale2 scale o)) H Hn Hd) as E.
  rewrite pixel_round_trip in E by assumption. set (u := pixel_to_translations b0 b1 n (pscale2 scale o)) in *. clearbody u.
  assert (Z : vz u = 0) by (rewrite E; reflexivity). clear E. unfold vadd, vz in *. cbn [snd]. rewrite Z. ring.
Qed.
Print Assumptions C61_correction_is_lateral.
(** C61: the Bragg model's positions likewise, ... *)
Theorem C61_bragg_positions : forall b0 b1 mn med scale off t, vz (vcross b0 b1) <> 0 ->
  relative mn (fst (project_translations_to_sample b0 b1 (corrected b0 b1 (sample_normal b0 b1) scale off t))) = fst (bragg_pix b0 b1 mn med scale off t).
Proof.
  intros b0 b1 mn med scale off t H. destruct (sample_normal_z b0 b1 H) as (A & B & C).
  unfold bragg_pix. cbv zeta. cbn [fst]. rewrite !project_is_pixel by exact H.
  rewrite (C61_corrected_positions b0 b1 (sample_normal b0 b1) mn scale off t C A B). reflexivity.
Qed.
Print Assumptions C61_bragg_positions.
(** ... but the probe is not propagated to the corrected position on a tilted sample. *)
Theorem C61_bragg_propagation_refuted : exists b0 b1 scale o t, vz (vcross b0 b1) <> 0 /\
  snd (project_translations_to_sample b0 b1 (corrected b0 b1 (sample_normal b0 b1) scale (Some o) t)) <> snd (bragg_pix b0 b1 (0, 0) 0 scale (Some o) t).
Proof.
  exists (0, -1, 1), (-1, 0, 0), 1, (1, 0), (0, 0, 0).
  assert (H : vz (vcross (0, -1, 1) (-1, 0, 0)) <> 0) by (unfold vcross, vx, vy, vz; cbn [fst snd]; lra).
  split; [exact H|]. unfold bragg_pix. cbv zeta. cbn [snd].
  pose proof (C34_sign (0, -1, 1) (-1, 0, 0) 0 H) as E0. rewrite E0. cbn [snd].
  destruct (sample_normal_z _ _ H) as (A & B & C).
  pose proof (C61_bragg_positions (0, -1, 1) (-1, 0, 0) (0, 0) 0 1 (Some (1, 0)) (0, 0, 0) H) as P.
  pose proof (C61_correction_is_lateral (0, -1, 1) (-1, 0, 0) (sample_normal (0, -1, 1) (-1, 0, 0)) 1 (Some (1, 0)) (0, 0, 0) C A B) as Z.
  set (t' := corrected _ _ _ _ _ _) in *. pose proof (project_sound (0, -1, 1) (-1, 0, 0) t' H) as S. cbv zeta in S.
  unfold bragg_pix in P. cbv zeta in P. rewrite E0 in P. cbn [fst snd] in P.
  destruct (project_translations_to_sample (0, -1, 1) (-1, 0, 0) t') as [[p0 p1] d]. cbn [fst snd] in *.
  unfold relative, padd2, psub2, pscale2 in P. cbn [fst snd] in P. injection P as P0 P1.
  destruct t' as [[a b] c]. unfold point, vadd, vscale, ez, vx, vy, vz in *. cbn [fst snd] in *. injection S as S1 S2 S3. lra.
Qed.
Print Assumptions C61_bragg_propagation_refuted.
Example C61_case : independent (2, 0, 2) (0, 3, 0) /\ vz (-1, 0, 1) <> 0 /\ vdot (vcross (2, 0, 2) (0, 3, 0)) (-1, 0, 1) <> 0.
Proof. split; [|split]; apply C33_case. Qed.
