(** Property theorems about the models that Bragg2DPtycho.from_dataset builds (C78). *)
From Verif Require Import Base FinSum Fourier Model_Prop Spec_Prop Proofs_Prop Proofs_AS Model_Image Spec_Image Proofs_Image
  Model_Interact Spec_Interact Proofs_Interact Properties_Interact Model_Meas Spec_Meas Proofs_Meas Model_Geom Spec_Geom Proofs_Geom Properties_Geom Model_Models Spec_Models Proofs_Models Properties_Models
  Model_Forward Spec_Forward Proofs_Forward
  Properties_Forward Proofs_ForwardSym Properties_ForwardPower Properties_ForwardShift Properties_RPI Properties_Prop Properties_Multislice Properties_Bragg Model_HighNA Spec_HighNA Properties_HighNA
  Model_Init Spec_Init Properties_Init Properties_FromData Model_InitBragg Spec_InitBragg.
From Coq Require Import FunctionalExtensionality Permutation Sorted.
From Coquelicot Require Import Complex.
From Flocq Require Import Core.Raux.
Local Open Scope R_scope.

(** ---- geometry ---- *)
Lemma surface_ok d o s : independent (d_b0 d) (d_b1 d) -> surface d o s -> from_bragg_normal d o = Ok s.
Proof.
  intros I. unfold surface, from_bragg_normal. destruct (bo_normal o) as [g|].
  - intros ->. reflexivity.
  - unfold bragg_normal. destruct (bo_mode o); try contradiction.
    + destruct (d_orientation d); intros ->; reflexivity.
    + intros ->. reflexivity.
    + intros ->. cbv zeta. rewrite (k_out_outgoing _ _ I), vlen_scale, (unit_len _ (k_out_unit _ _ I)). f_equal.
      replace (Rabs (-1)) with 1 by (rewrite Rabs_left; lra). unfold ez. generalize (k_out (d_b0 d) (d_b1 d)). intros v. apply v3_eq; v3; field.
Qed.
Lemma basis_facts d o s : usable d -> bragg_sensible d o s -> let b := from_bragg_basis d s in
  vz (vcross (fst b) (snd b)) <> 0 /\ orthogonal s (fst b) /\ orthogonal s (snd b) /\
  exists a0 a1, let e := exit_wave_geometry (d_b0 d) (d_b1 d) (d_h d) (d_w d) (d_wl d) (d_dist d) in
    fst b = vadd (fst e) (vscale a0 (k_out (d_b0 d) (d_b1 d))) /\ snd b = vadd (snd e) (vscale a1 (k_out (d_b0 d) (d_b1 d))) /\
    a0 * vdot s (k_out (d_b0 d) (d_b1 d)) = - vdot s (fst e) /\ a1 * vdot s (k_out (d_b0 d) (d_b1 d)) = - vdot s (snd e).
Proof.
  intros (_ & H & W & Wl & D & _) (_ & _ & _ & _ & _ & I & _ & SK & SZ & _) b.
  assert (WD : d_wl d * d_dist d <> 0) by (apply Rmult_integral_contrapositive_currified; lra).
  destruct (ew_normal (d_b0 d) (d_b1 d) (d_h d) (d_w d) (d_wl d) (d_dist d) I H W WD) as [E IE]. cbv zeta in E, IE.
  set (e := exit_wave_geometry (d_b0 d) (d_b1 d) (d_h d) (d_w d) (d_wl d) (d_dist d)) in *.
  assert (S' : vdot s (sample_normal (fst e) (snd e)) <> 0) by (rewrite E; exact SK).
  assert (Eb : b = bragg_obj_basis (fst e) (snd e) s) by reflexivity.
  pose proof (bragg_cross (fst e) (snd e) s IE S') as X. cbv zeta in X. rewrite <- Eb in X.
  destruct (bragg_basis_in_plane (fst e) (snd e) s IE S') as [O0 O1]. rewrite <- Eb in O0, O1.
  split; [|split; [exact O0|split; [exact O1|]]].
  - rewrite vcross_swap, X. pose proof (vlen_pos _ (indep_swap _ _ IE)) as L.
    assert (SZ' : vz s <> 0) by (intros Z; apply SZ; destruct s as [[x y] z]; unfold vdot, vx, vy, vz in *; cbn [fst snd] in *; subst z; ring).
    set (k := vlen (vcross (snd e) (fst e)) / vdot s (sample_normal (fst e) (snd e))).
    assert (K : k <> 0) by (unfold k, Rdiv; apply Rmult_integral_contrapositive_currified; [lra|now apply Rinv_neq_0_compat]).
    assert (G : vz (vscale (-1) (vscale k s)) = - k * vz s) by (destruct s as [[x y] z]; unfold vscale, vx, vy, vz; cbn [fst snd]; ring).
    rewrite G. apply Rmult_integral_contrapositive_currified; [lra|exact SZ'].
  - rewrite Eb, (bragg_basis_value (fst e) (snd e) s IE S'), E. cbn [fst snd].
    exists (- (vdot s (fst e) / vdot s (k_out (d_b0 d) (d_b1 d)))), (- (vdot s (snd e) / vdot s (k_out (d_b0 d) (d_b1 d)))).
    split; [|split; [|split]].
    + generalize (vdot s (fst e) / vdot s (k_out (d_b0 d) (d_b1 d))). intros p. apply v3_eq; v3; ring.
    + generalize (vdot s (snd e) / vdot s (k_out (d_b0 d) (d_b1 d))). intros p. apply v3_eq; v3; ring.
    + field. exact SK.
    + field. exact SK.
Qed.
(** ---- the guess ---- *)
Definition bc0 (o : bragg_options) : nat := match bo_crop o with None => 0%nat | Some c => fst c end.
Definition bc1 (o : bragg_options) : nat := match bo_crop o with None => 0%nat | Some c => snd c end.
Lemma bragg_shape d o s : usable d -> bragg_sensible d o s ->
  (2 * bc0 o < bo_os o * d_h d)%nat /\ (2 * bc1 o < bo_os o * d_w d)%nat /\ bragg_n0 d o = crop_len (bo_os o * d_h d) (bc0 o) /\ bragg_n1 d o = crop_len (bo_os o * d_w d) (bc1 o).
Proof.
  intros (_ & H & W & _) (_ & O & CR & _). unfold bc0, bc1, bragg_n0, bragg_n1, crop_len. destruct (bo_crop o) as [[c0 c1]|].
  - destruct (CR c0 c1 eq_refl) as (P0 & P1 & L0 & L1). cbn [fst snd]. unfold crop_len_neg. destruct c0, c1; try lia.
  - pose proof (Nat.mul_pos_pos _ _ O H). pose proof (Nat.mul_pos_pos _ _ O W). split; [lia|]. split; [lia|]. split; lia.
Qed.
Definition bragg_guess_of (d : data) (o : bragg_options) : img :=
  let p := SHARP_style_probe d (bo_pd o) (bo_os o) in
  match bo_crop o with None => p | Some c => inverse_far_field (bragg_n0 d o) (bragg_n1 d o) (fun i j => far_field (bo_os o * d_h d) (bo_os o * d_w d) p (fst c + i)%nat (snd c + j)%nat) end.
Lemma bragg_guess_ok d o s : usable d -> bragg_sensible d o s -> bragg_guess d o = Ok (bragg_guess_of d o).
Proof.
  intros U S. destruct (bragg_shape d o s U S) as (A & B & E0 & E1). unfold bragg_guess, bragg_guess_of. destruct (bo_crop o) as [c|]; [|reflexivity].
  rewrite E0, E1. unfold crop_len. destruct (Nat.eqb_spec (bo_os o * d_h d - bc0 o - bc0 o) 0); [lia|]. destruct (Nat.eqb_spec (bo_os o * d_w d - bc1 o - bc1 o) 0); [lia|]. reflexivity.
Qed.
Lemma bragg_guess_far d o s i j : usable d -> bragg_sensible d o s -> (i < bragg_n0 d o)%nat -> (j < bragg_n1 d o)%nat ->
  far_field (bragg_n0 d o) (bragg_n1 d o) (bragg_guess_of d o) i j = far_field (bo_os o * d_h d) (bo_os o * d_w d) (SHARP_style_probe d (bo_pd o) (bo_os o)) (bc0 o + i)%nat (bc1 o + j)%nat.
Proof.
  intros U S Hi Hj. unfold bragg_guess_of, bc0, bc1 in *. destruct (bo_crop o) as [c|] eqn:E.
  - set (X := fun i j => _ : C). exact (proj2 (far_inverse (bragg_n0 d o) (bragg_n1 d o) X ltac:(lia) ltac:(lia)) i j Hi Hj).
  - unfold bragg_n0, bragg_n1. rewrite E, !Nat.add_0_l. reflexivity.
Qed.
Lemma bragg_modes_length d o ch g : (1 <= bo_n_modes o)%nat -> length (bragg_modes d o ch g) = bo_n_modes o.
Proof. intros H. unfold bragg_modes. destruct (bo_radius o); cbn [map length]; rewrite ?map_length, seq_length; lia. Qed.

Lemma bragg_from_dataset_ok d o ch s : usable d -> bragg_sensible d o s -> exists p tl, bo_propagate o = Some p /\ bo_tilt o = Some tl /\
  let bm := bragg_assemble d o ch s (bragg_guess_of d o) p tl in let m := bm_model bm in bragg_from_dataset d o ch = Ok bm /\
  forall k t, nth_error (d_translations d) k = Some t -> exists pos dist, bragg_place m k t pos dist /\ nth_error (g_weights m) k = Some 1 /\ bragg_fits m pos.
Proof.
  intros U S. pose proof U as (NE & H & W & _). pose proof S as (LT & O & CR & NM & SC & I & SF & SK & SZ & PR & TI).
  destruct (bo_propagate o) as [p|] eqn:EP; [|contradiction]. destruct (bo_tilt o) as [tl|] eqn:ET; [|contradiction]. exists p, tl. split; [reflexivity|]. split; [reflexivity|].
  cbv zeta. set (bm := bragg_assemble d o ch s (bragg_guess_of d o) p tl). set (m := bm_model bm).
  split.
  { unfold bragg_from_dataset. rewrite (surface_ok d o s I SF), (bragg_guess_ok d o s U S), EP, ET. cbn [rbind]. destruct (d_patterns d); [contradiction|reflexivity]. }
  intros k t Ht. assert (Hk : (k < length (d_patterns d))%nat) by (rewrite <- LT; apply nth_error_Some; congruence).
  destruct (basis_facts d o s U S) as (VZ & _). set (b := from_bragg_basis d s) in *.
  set (r := project_translations_to_sample (fst b) (snd b) t).
  set (setup := calc_object_setup (d_h d * bo_os o) (d_w d * bo_os o) (map fst (map (project_translations_to_sample (fst b) (snd b)) (d_translations d))) (bo_pad o)).
  exists (fst (fst r) - fst (snd setup) + bo_scale o * (0 / bo_scale o), snd (fst r) - snd (snd setup) + bo_scale o * (0 / bo_scale o)), (snd r - g_median m).
  split; [|split].
  - exists (fst r), (snd r). split; [exact (C34_sample_point (fst b) (snd b) t VZ)|]. split; [reflexivity|]. exists (0 / bo_scale o, 0 / bo_scale o). split; [|reflexivity].
    apply nth_error_repeat. exact Hk.
  - apply nth_error_repeat. exact Hk.
  - destruct (bragg_shape d o s U S) as (A & B & E0 & E1). destruct (crop_centred _ _ A) as (n0p & C0 & _). destruct (crop_centred _ _ B) as (n1p & C1 & _).
    assert (PX : map fst (map (project_translations_to_sample (fst b) (snd b)) (d_translations d)) = map (translations_to_pixel (fst b) (snd b) (sample_normal (fst b) (snd b))) (d_translations d)).
    { rewrite map_map. apply map_ext. intros x. now apply project_is_pixel. }
    destruct (C62_reachable (fst b) (snd b) (sample_normal (fst b) (snd b)) (d_translations d) (bo_pad o) (d_h d * bo_os o) (d_w d * bo_os o) (0, 0) t (nth_error_In _ _ Ht)) as [I0 I1];
      [cbn [fst]; rewrite Rabs_R0; apply pos_INR|cbn [snd]; rewrite Rabs_R0; apply pos_INR|]. cbv zeta in I0, I1. rewrite <- PX in I0, I1. rewrite <- project_is_pixel in I0, I1 by exact VZ. fold r in I0, I1. fold setup in I0, I1. cbn [fst snd] in I0, I1.
    rewrite (Nat.mul_comm (d_h d)) in I0. rewrite (Nat.mul_comm (d_w d)) in I1.
    unfold bragg_fits. cbn [fst snd]. replace (bo_scale o * (0 / bo_scale o)) with 0 by (field; exact SC).
    change (g_n0 m) with (bragg_n0 d o). change (g_n1 m) with (bragg_n1 d o). change (g_os m) with (bo_os o). change (g_det0 m) with (d_h d). change (g_det1 m) with (d_w d). rewrite E0, E1.
    exact (conj n0p (conj n1p (conj O (conj C0 (conj C1 (conj I0 (conj I1 VZ))))))).
Qed.
(** C78: for every dataset and all options that fit together, and every surface that neither the beam nor the
    scattered wave grazes, Bragg2DPtycho.from_dataset builds a model that can simulate every exposure of the
    dataset. *)
Theorem C78_simulates : forall d o ch s, usable d -> bragg_sensible d o s -> exists m, bragg_from_dataset d o ch = Ok m /\
  forall k t, nth_error (d_translations d) k = Some t -> exists r, bragg_simulate m k t = Ok r.
Proof.
  intros d o ch s U S. destruct (bragg_from_dataset_ok d o ch s U S) as (p & tl & _ & _ & E & G). eexists. split; [exact E|]. intros k t Ht.
  destruct (G k t Ht) as (pos & dist & P & C & F). set (bm := bragg_assemble d o ch s (bragg_guess_of d o) p tl) in *.
  destruct (C69_exit_waves (bm_model bm) k t pos dist 1 P C F) as (ws & EW & _). unfold bragg_simulate, bragg_tilt_pattern, bragg_pattern. rewrite EW. destruct (bm_tilt bm); cbn [rmap]; eauto.
Qed.
Print Assumptions C78_simulates.

(** C78: the object lies in the surface asked for, each of its grid directions displaced from that of the exit wave
    along the scattered direction only; an exposure is where the beam through its translation meets the surface,
    less the smallest such position, and the probe is carried by its distance to the surface less the median of
    these. *)
Lemma insert_perm x l : Permutation (insert_sorted x l) (x :: l).
Proof.
  induction l as [|y l IH]; cbn; [reflexivity|]. destruct (Rle_dec x y); [reflexivity|]. rewrite IH. apply perm_swap.
Qed.
Lemma insert_in x l y : In y (insert_sorted x l) -> y = x \/ In y l.
Proof. intros H. apply (Permutation_in _ (insert_perm x l)) in H. destruct H; auto. Qed.
Lemma insert_sort x l : StronglySorted Rle l -> StronglySorted Rle (insert_sorted x l).
Proof.
  induction 1 as [|y l S IH F]; cbn; [constructor; constructor|]. destruct (Rle_dec x y) as [L|L].
  - constructor; [constructor; assumption|]. constructor; [exact L|]. eapply Forall_impl; [|exact F]. intros a. cbn. lra.
  - constructor; [exact IH|]. apply Forall_forall. intros a Ha. apply insert_in in Ha as [->|Ha]; [lra|]. rewrite Forall_forall in F. now apply F.
Qed.
Lemma sort_facts l : let s := fold_right insert_sorted nil l in Permutation s l /\ StronglySorted Rle s.
Proof. induction l as [|x l [P S]]; cbn; [split; constructor|]. split; [rewrite insert_perm; now constructor|now apply insert_sort]. Qed.
Lemma filter_perm {A} (f : A -> bool) l l' : Permutation l l' -> length (filter f l) = length (filter f l').
Proof. induction 1; cbn; [reflexivity|destruct (f x); cbn; congruence|destruct (f x), (f y); reflexivity|congruence]. Qed.
Lemma filter_nil {A} (f : A -> bool) l : (forall x, In x l -> f x = false) -> filter f l = nil.
Proof. induction l as [|x l IH]; cbn; [reflexivity|]. intros H. rewrite (H x) by now left. apply IH. intros; apply H; now right. Qed.
Lemma filter_le {A} (f : A -> bool) l : (length (filter f l) <= length l)%nat.
Proof. induction l as [|x l IH]; cbn; [lia|]. destruct (f x); cbn; lia. Qed.
Lemma sorted_split s k : StronglySorted Rle s -> (k < length s)%nat ->
  (length (filter (fun y => if Rlt_dec y (nth k s 0%R) then true else false) s) <= k)%nat /\ (length (filter (fun y => if Rlt_dec (nth k s 0%R) y then true else false) s) <= length s - S k)%nat.
Proof.
  intros S Hk. set (x := nth k s 0). assert (E : s = firstn k s ++ x :: skipn (Datatypes.S k) s).
  { unfold x. clear S x. revert k Hk. induction s as [|a s IH]; intros k Hk; [cbn in Hk; lia|]. destruct k; [reflexivity|]. cbn [nth firstn app skipn]. f_equal. apply IH. cbn in Hk. lia. }
  assert (LF : length (firstn k s) = k) by (rewrite firstn_length; lia). assert (LS : length (skipn (Datatypes.S k) s) = (length s - Datatypes.S k)%nat) by apply skipn_length.
  assert (A : forall y, In y (firstn k s) -> y <= x).
  { clear LF LS. rewrite E in S. clearbody x. clear E Hk. revert S. generalize (firstn k s) (skipn (Datatypes.S k) s). intros l l' S y Hy. induction l as [|a l IH]; [destruct Hy|].
    cbn in S. inversion S; subst. rewrite Forall_forall in H2. destruct Hy as [->|Hy]; [apply H2; apply in_or_app; right; now left|now apply IH]. }
  assert (B : forall y, In y (skipn (Datatypes.S k) s) -> x <= y).
  { clear LF LS A. rewrite E in S. clearbody x. clear E Hk. revert S. generalize (firstn k s) (skipn (Datatypes.S k) s). intros l l' S y Hy. induction l as [|a l IH].
    - cbn in S. inversion S; subst. rewrite Forall_forall in H2. now apply H2.
    - cbn in S. inversion S; subst. now apply IH. }
  rewrite E. rewrite !filter_app, !app_length. cbn [filter]. destruct (Rlt_dec x x); [lra|]. split.
  - rewrite (filter_nil _ (skipn (Datatypes.S k) s)) by (intros y Hy; destruct (Rlt_dec y x); [pose proof (B y Hy); lra|reflexivity]). cbn [length].
    pose proof (filter_le (fun y => if Rlt_dec y x then true else false) (firstn k s)). lia.
  - rewrite (filter_nil _ (firstn k s)) by (intros y Hy; destruct (Rlt_dec x y); [pose proof (A y Hy); lra|reflexivity]).
    pose proof (filter_le (fun y => if Rlt_dec x y then true else false) (skipn (Datatypes.S k) s)). cbn [length]. rewrite LF, LS in *. lia.
Qed.
Lemma median_halfway l : l <> nil -> halfway l (lower_median l).
Proof.
  intros NE. destruct (sort_facts l) as [P S]. cbv zeta in P, S. set (s := fold_right insert_sorted nil l) in *.
  assert (L : length s = length l) by now apply Permutation_length. assert (N : (0 < length l)%nat) by (destruct l; [contradiction|cbn; lia]).
  set (k := ((length l - 1) / 2)%nat). assert (K : (k < length s)%nat) by (rewrite L; unfold k; apply Nat.div_lt_upper_bound; lia).
  assert (E : lower_median l = nth k s 0) by reflexivity. rewrite E. destruct (sorted_split s k S K) as [A B]. unfold halfway.
  pose proof (Nat.div_mod (length l - 1) 2 ltac:(lia)) as DM. pose proof (Nat.mod_upper_bound (length l - 1) 2 ltac:(lia)). fold k in DM.
  split; [apply (Permutation_in _ P), nth_In, K|]. rewrite <- (filter_perm _ _ _ P), <- (filter_perm _ _ _ P). split; lia.
Qed.
Theorem C78_geometry : forall d o ch s, usable d -> bragg_sensible d o s -> exists m, bragg_from_dataset d o ch = Ok m /\ let g := bm_model m in
  orthogonal s (g_b0 g) /\ orthogonal s (g_b1 g) /\
  (exists a0 a1, let e := exit_wave_geometry (d_b0 d) (d_b1 d) (d_h d) (d_w d) (d_wl d) (d_dist d) in
     g_b0 g = vadd (fst e) (vscale a0 (k_out (d_b0 d) (d_b1 d))) /\ g_b1 g = vadd (snd e) (vscale a1 (k_out (d_b0 d) (d_b1 d)))) /\
  exists spots, length spots = length (d_translations d) /\
  (forall k t, nth_error (d_translations d) k = Some t -> exists p z, nth_error spots k = Some (p, z) /\ reached (g_b0 g) (g_b1 g) t p z /\
     bragg_place g k t (fst p - fst (g_min g), snd p - snd (g_min g)) (z - g_median g)) /\
  halfway (map snd spots) (g_median g).
Proof.
  intros d o ch s U S. destruct (bragg_from_dataset_ok d o ch s U S) as (p & tl & _ & _ & E & _). eexists. split; [exact E|]. cbv zeta.
  destruct (basis_facts d o s U S) as (VZ & O0 & O1 & a0 & a1 & B0 & B1 & _). split; [exact O0|]. split; [exact O1|]. split; [exists a0, a1; split; [exact B0|exact B1]|].
  set (b := from_bragg_basis d s) in *. exists (map (project_translations_to_sample (fst b) (snd b)) (d_translations d)). split; [apply map_length|].
  pose proof S as (LT & _ & _ & _ & SC & _). split.
  - intros k t Ht. assert (Hk : (k < length (d_patterns d))%nat) by (rewrite <- LT; apply nth_error_Some; congruence).
    set (r := project_translations_to_sample (fst b) (snd b) t). exists (fst r), (snd r). split; [rewrite nth_error_map, Ht; cbn; f_equal; fold r; now destruct r|]. 
    split; [exact (C34_sample_point (fst b) (snd b) t VZ)|].
    exists (fst r), (snd r). split; [exact (C34_sample_point (fst b) (snd b) t VZ)|]. split; [reflexivity|]. exists (0 / bo_scale o, 0 / bo_scale o). split; [apply nth_error_repeat; exact Hk|].
    cbn [fst snd]. change (g_scale _) with (bo_scale o). replace (bo_scale o * (0 / bo_scale o)) with 0 by (field; exact SC). f_equal; ring.
  - apply median_halfway. destruct U as (NE & _). intros Z. apply map_eq_nil in Z. apply map_eq_nil in Z. rewrite Z in LT. destruct (d_patterns d); [contradiction|discriminate].
Qed.
Print Assumptions C78_geometry.

(** C78: the model keeps the settings and the detector geometry; its probe grid spans the same field as the object's
    (without oversampling), so that the propagator of C69 is that of the plane waves of the probe; ... *)
Theorem C78_probe_grid : forall d o ch s, usable d -> bragg_sensible d o s -> exists m, bragg_from_dataset d o ch = Ok m /\ let g := bm_model m in
  (bo_propagate o = Some (g_propagate g) /\ bo_tilt o = Some (bm_tilt m) /\ bm_lens m = bo_lens o /\
   bm_d0 m = d_b0 d /\ bm_d1 m = d_b1 d /\ bm_dist m = d_dist d /\ g_wl g = d_wl d) /\
  (bo_os o = 1%nat -> vscale (INR (g_n0 g)) (g_p0 g) = vscale (INR (d_h d)) (g_b0 g) /\ vscale (INR (g_n1 g)) (g_p1 g) = vscale (INR (d_w d)) (g_b1 g)) /\
  (bo_crop o = None -> g_p0 g = g_b0 g /\ g_p1 g = g_b1 g).
Proof.
  intros d o ch s U S. destruct (bragg_from_dataset_ok d o ch s U S) as (p & tl & EP & ET & E & _). eexists. split; [exact E|]. cbv zeta.
  split; [exact (conj EP (conj ET (conj eq_refl (conj eq_refl (conj eq_refl (conj eq_refl eq_refl))))))|].
  destruct (bragg_shape d o s U S) as (A & B & E0 & E1). pose proof U as (_ & H & W & _). cbn [bm_model bragg_assemble g_n0 g_n1 g_p0 g_p1 g_b0 g_b1]. split.
  - intros OS. unfold from_bragg_probe_basis. destruct (bo_crop o) as [[c0 c1]|] eqn:CR.
    + cbn [fst snd]. unfold bragg_probe_basis. rewrite !vscale_vscale.
      assert (F0 : bragg_n0 d o = crop_len_neg (bo_os o * d_h d) c0) by (unfold bragg_n0; now rewrite CR). assert (F1 : bragg_n1 d o = crop_len_neg (bo_os o * d_w d) c1) by (unfold bragg_n1; now rewrite CR).
      rewrite <- F0, <- F1. assert (0 < INR (bragg_n0 d o)) by (apply lt_0_INR; rewrite E0; unfold crop_len; lia). assert (0 < INR (bragg_n1 d o)) by (apply lt_0_INR; rewrite E1; unfold crop_len; lia).
      split; f_equal; field; lra.
    + cbn [fst snd]. unfold bragg_n0, bragg_n1. rewrite CR, OS, !Nat.mul_1_l. split; reflexivity.
  - intros CR. unfold from_bragg_probe_basis. rewrite CR. split; reflexivity.
Qed.
Print Assumptions C78_probe_grid.
(** ... defect: with oversampling and a crop the probe's grid spans a smaller field than the object's. *)
Theorem C78_probe_grid_refuted : forall d o ch s, usable d -> bragg_sensible d o s -> bo_crop o <> None -> (2 <= bo_os o)%nat -> exists m, bragg_from_dataset d o ch = Ok m /\ let g := bm_model m in
  vscale (INR (g_n0 g)) (g_p0 g) = vscale (INR (d_h d)) (g_b0 g) /\ vscale (INR (g_n0 g)) (g_p0 g) <> vscale (INR (bo_os o * d_h d)) (g_b0 g).
Proof.
  intros d o ch s U S CR OS. destruct (bragg_from_dataset_ok d o ch s U S) as (p & tl & EP & ET & E & _). eexists. split; [exact E|]. cbv zeta.
  destruct (bragg_shape d o s U S) as (A & B & E0 & E1). pose proof U as (_ & H & W & _). cbn [bm_model bragg_assemble g_n0 g_p0 g_b0].
  assert (V : vscale (INR (bragg_n0 d o)) (fst (from_bragg_probe_basis d o (from_bragg_basis d s))) = vscale (INR (d_h d)) (fst (from_bragg_basis d s))).
  { unfold from_bragg_probe_basis. destruct (bo_crop o) as [[c0 c1]|] eqn:CE; [|contradiction]. cbn [fst snd]. unfold bragg_probe_basis. rewrite !vscale_vscale.
    assert (F0 : bragg_n0 d o = crop_len_neg (bo_os o * d_h d) c0) by (unfold bragg_n0; now rewrite CE). rewrite <- F0.
    assert (0 < INR (bragg_n0 d o)) by (apply lt_0_INR; rewrite E0; unfold crop_len; lia). f_equal. field. lra. }
  split; [exact V|]. rewrite V. intros Q. destruct (basis_facts d o s U S) as (VZ & _). set (b := from_bragg_basis d s) in *. apply VZ.
  rewrite mult_INR in Q. assert (HP : 0 < INR (d_h d)) by now apply lt_0_INR. assert (OP : 2 <= INR (bo_os o)) by (change 2 with (INR 2); now apply le_INR).
  assert (Z : vscale (INR (d_h d) * (1 - INR (bo_os o))) (fst b) = (0, 0, 0)).
  { transitivity (vsub (vscale (INR (d_h d)) (fst b)) (vscale (INR (bo_os o) * INR (d_h d)) (fst b))); [apply v3_eq; v3; ring|]. rewrite Q. apply v3_eq; v3; ring. }
  apply vscale_0_inv in Z; [|apply Rmult_integral_contrapositive_currified; lra]. rewrite Z. destruct (snd b) as [[x y] z]. unfold vcross, vx, vy, vz. cbn [fst snd]. ring.
Qed.
Print Assumptions C78_probe_grid_refuted.

(** ---- the starting point ---- *)
Lemma bragg_start_far m E pos i j : bragg_fits m pos ->
  (forall a b, g_obj m a b = RtoC 1) -> let N0 := (g_os m * g_det0 m)%nat in let N1 := (g_os m * g_det1 m)%nat in (i < N0)%nat -> (j < N1)%nat ->
  nrm2 (centred_ft N0 N1 (bragg_exit m E pos) i j) =
  g_norm m ^ 2 * nrm2 (place (g_n0 m) (g_n1 m) (N0 / 2 - g_n0 m / 2) (N1 / 2 - g_n1 m / 2) (far_field (g_n0 m) (g_n1 m) E) i j).
Proof.
  intros (n0p & n1p & _ & C0 & C1 & _) T N0 N1 Hi Hj. fold N0 in C0. fold N1 in C1. assert (0 < N0)%nat by lia. assert (0 < N1)%nat by lia.
  rewrite <- far_centred by assumption.
  rewrite (far_ext N0 N1 _ (fun a b => RtoC (g_norm m) * sinc_subpixel_shift N0 N1 (fourier_pad (g_n0 m) (g_n1 m) N0 N1 E) (fst pos - IZR (Zfloor (fst pos))) (snd pos - IZR (Zfloor (snd pos))) a b)%C); try assumption.
  2:{ intros a b Ha Hb. unfold bragg_exit. cbv zeta. fold N0 N1. rewrite T. rewrite (shifted_pad (g_n0 m) (g_n1 m) N0 N1) by assumption. ring. }
  rewrite far_scal, nrm2_mult, nrm2_RtoC.
  rewrite (far_ext N0 N1 _ (near_field N0 N1 (fourier_pad (g_n0 m) (g_n1 m) N0 N1 E) (shift_mask N0 N1 (fst pos - IZR (Zfloor (fst pos))) (snd pos - IZR (Zfloor (snd pos)))))); try assumption.
  2:{ intros a b _ _. apply shift_near. }
  rewrite far_near, nrm2_mult, shift_mask_unit, Rmult_1_l by assumption. rewrite far_fourier_pad by assumption. ring.
Qed.
(** the propagation to the sample changes phases only *)
Lemma bragg_probe_far m dist c k i j : (0 < g_n0 m)%nat -> (0 < g_n1 m)%nat -> (i < g_n0 m)%nat -> (j < g_n1 m)%nat ->
  nrm2 (far_field (g_n0 m) (g_n1 m) (bragg_probe m (bragg_propagator (g_n0 m) (g_n1 m) (g_p0 m) (g_p1 m) (g_wl m) dist) c k) i j) = nrm2 (far_field (g_n0 m) (g_n1 m) (bragg_shot m c k) i j).
Proof.
  intros P0 P1 Hi Hj. unfold bragg_probe. destruct (g_propagate m); [|reflexivity]. rewrite far_near, nrm2_mult by assumption.
  rewrite (nrm2_Cmod (bragg_propagator _ _ _ _ _ _ _ _)), (proj1 (C69_unit (g_n0 m) (g_n1 m) (g_p0 m) (g_p1 m) (g_wl m) dist 0 _ _)). ring.
Qed.
Lemma bragg_plain_shot d o ch s g p tl a b : bo_n_modes o = 1%nat -> bo_radius o = None -> let m := bm_model (bragg_assemble d o ch s g p tl) in
  g_norm m <> 0 -> (RtoC (g_norm m) * bragg_shot m 1 0 a b = g a b)%C.
Proof.
  intros NM R m NZ. assert (NZC : RtoC (g_norm m) <> RtoC 0) by (intros E; apply NZ; now injection E).
  assert (EN : g_norm m = amax (bragg_n0 d o) (bragg_n1 d o) g) by (unfold m; cbn [bm_model bragg_assemble g_norm]; unfold bragg_modes; now rewrite R).
  unfold bragg_shot. assert (ES : g_support m a b = true) by (unfold m; cbn [bm_model bragg_assemble g_support]; unfold bragg_support; now rewrite R). rewrite ES.
  assert (EP : nth 0 (g_probe m) (fun _ _ => RtoC 0) a b = (g a b / RtoC (g_norm m))%C).
  { rewrite EN. unfold m. cbn [bm_model bragg_assemble g_probe]. unfold bragg_modes. rewrite R. reflexivity. }
  rewrite EP. field. exact NZC.
Qed.
Lemma bragg_clear d o ch s g p tl a b : bo_randomize o = 0 -> g_obj (bm_model (bragg_assemble d o ch s g p tl)) a b = RtoC 1.
Proof. intros R. cbn [bm_model bragg_assemble g_obj]. rewrite R, Rmult_0_l, Cmult_0_r. unfold cexp, RtoC. cbn [fst snd]. rewrite exp_0, cis_0. apply Cmult_1_l. Qed.
Lemma sharp_far d o i j : usable d -> bo_os o = 1%nat -> (i < d_h d)%nat -> (j < d_w d)%nat -> bragg_lit d o i j ->
  nrm2 (far_field (d_h d) (d_w d) (SHARP_style_probe d (bo_pd o) 1) i j) = signal d i j.
Proof.
  intros U OS Hi Hj L. rewrite nrm2_Cmod. destruct (bo_pd o) as [z|] eqn:PD.
  - destruct L as [L|L]; [congruence|]. now apply (proj2 (C74_sharp_propagated d z i j U Hi Hj)).
  - now apply C74_sharp_pattern.
Qed.
Lemma bragg_kept_iff d o s i j : usable d -> bragg_sensible d o s -> bo_os o = 1%nat -> (i < d_h d)%nat -> (j < d_w d)%nat ->
  (bragg_kept d o i j <-> (bc0 o <= i < bc0 o + bragg_n0 d o /\ bc1 o <= j < bc1 o + bragg_n1 d o)%nat).
Proof.
  intros U S OS Hi Hj. destruct (bragg_shape d o s U S) as (A & B & -> & ->). rewrite OS, !Nat.mul_1_l in *. unfold bragg_kept, bc0, bc1, crop_len in *. destruct (bo_crop o) as [[c0 c1]|]; cbn [fst snd] in *; [lia|]. split; [lia|trivial].
Qed.
Lemma bragg_norm_pos d o ch s p tl a b : usable d -> bragg_sensible d o s -> bo_radius o = None -> bo_os o = 1%nat ->
  (a < d_h d)%nat -> (b < d_w d)%nat -> bragg_kept d o a b -> bragg_lit d o a b -> 0 < signal d a b ->
  g_norm (bm_model (bragg_assemble d o ch s (bragg_guess_of d o) p tl)) <> 0.
Proof.
  intros U S R OS Ha Hb K L P. destruct (bragg_shape d o s U S) as (A & B & E0 & E1). apply (bragg_kept_iff d o s) in K; try assumption. 
  assert (Q0 : (0 < bragg_n0 d o)%nat) by lia. assert (Q1 : (0 < bragg_n1 d o)%nat) by lia.
  cbn [bm_model bragg_assemble g_norm]. unfold bragg_modes. rewrite R. cbn [nth].
  apply Rgt_not_eq. apply far_nonzero; try assumption. exists (a - bc0 o)%nat, (b - bc1 o)%nat. split; [lia|]. split; [lia|]. intros E.
  rewrite (bragg_guess_far d o s) in E by (try assumption; lia). rewrite OS, !Nat.mul_1_l in E. replace (bc0 o + (a - bc0 o))%nat with a in E by lia. replace (bc1 o + (b - bc1 o))%nat with b in E by lia.
  pose proof (sharp_far d o a b U OS Ha Hb L) as V. rewrite E in V. unfold nrm2, RtoC in V. cbn [fst snd] in V. lra.
Qed.
Lemma bragg_plain_pattern d o ch s p tl k t : usable d -> bragg_sensible d o s -> bragg_plain o ->
  (exists a b, (a < d_h d)%nat /\ (b < d_w d)%nat /\ bragg_kept d o a b /\ bragg_lit d o a b /\ 0 < signal d a b) ->
  nth_error (d_translations d) k = Some t -> let m := bm_model (bragg_assemble d o ch s (bragg_guess_of d o) p tl) in
  (exists pos dist, bragg_place m k t pos dist /\ nth_error (g_weights m) k = Some 1 /\ bragg_fits m pos) ->
  exists r, bragg_pattern m k t = Ok r /\ forall i j, (i < d_h d)%nat -> (j < d_w d)%nat ->
   (bragg_kept d o i j -> bragg_lit d o i j -> r i j = reading (bo_saturation o) None (start_background d) i j (signal d i j + / 10 ^ 7)) /\
   (~ bragg_kept d o i j -> r i j = reading (bo_saturation o) None (start_background d) i j (/ 10 ^ 7)).
Proof.
  intros U S (NM & RN & RA & OS) (a0 & b0 & Ha & Hb & Ka & La & Pa) Ht m (pos & dist & P & C & F).
  destruct (C69_pattern m k t pos dist 1 P C F) as (r & R & V). exists r. split; [exact R|]. intros i j Hi Hj.
  specialize (V i j Hi Hj). change (g_os m) with (bo_os o) in V. change (g_det0 m) with (d_h d) in V. change (g_det1 m) with (d_w d) in V.
  assert (LP : length (g_probe m) = 1%nat). { unfold m. cbn [bm_model bragg_assemble g_probe]. rewrite map_length, bragg_modes_length; lia. }
  rewrite LP in V. cbn [seq map] in V. rewrite OS, photons_one, !Nat.mul_1_l in V.
  pose proof F as (n0p & n1p & _ & C0 & C1 & _). 
  assert (NZ : g_norm m <> 0) by (apply (bragg_norm_pos d o ch s p tl a0 b0); assumption).
  pose proof (bragg_start_far m (bragg_probe m (bragg_propagator (g_n0 m) (g_n1 m) (g_p0 m) (g_p1 m) (g_wl m) dist) 1 0) pos i j F (fun a b => bragg_clear d o ch s _ p tl a b RN)) as SF. cbv zeta in SF.
  change (g_os m) with (bo_os o) in SF. change (g_det0 m) with (d_h d) in SF. change (g_det1 m) with (d_w d) in SF. rewrite OS, !Nat.mul_1_l in SF. rewrite SF in V by assumption.
  destruct (bragg_shape d o s U S) as (A & B & E0 & E1). rewrite OS, !Nat.mul_1_l in A, B, E0, E1.
  destruct (crop_centred _ _ A) as (_ & _ & L0). destruct (crop_centred _ _ B) as (_ & _ & L1). rewrite <- E0 in L0. rewrite <- E1 in L1.
  change (g_n0 m) with (bragg_n0 d o) in *. change (g_n1 m) with (bragg_n1 d o) in *. rewrite L0, L1 in V.
  assert (RD : forall x, reading (g_saturation m) None (g_background m) i j x = reading (bo_saturation o) None (start_background d) i j x).
  { intros x. unfold reading. change (g_saturation m) with (bo_saturation o). replace (g_background m i j) with (start_background d i j); [reflexivity|]. unfold m, start_background. cbn [bm_model bragg_assemble g_background]. destruct (d_background d); [reflexivity|ring]. }
  rewrite RD in V. unfold place in V. rewrite V. split.
  - intros K L. apply (bragg_kept_iff d o s) in K; try assumption.
    replace (_ && _)%bool with true by (symmetry; rewrite !andb_true_iff, !Nat.leb_le, !Nat.ltb_lt; lia).
    f_equal. f_equal. pose proof (bragg_probe_far m dist 1 0 (i - bc0 o) (j - bc1 o)) as BF. change (g_n0 m) with (bragg_n0 d o) in BF. change (g_n1 m) with (bragg_n1 d o) in BF. rewrite BF by (try assumption; lia).
    transitivity (nrm2 (RtoC (g_norm m) * far_field (bragg_n0 d o) (bragg_n1 d o) (bragg_shot m 1 0) (i - bc0 o)%nat (j - bc1 o)%nat)%C).
    { rewrite nrm2_mult, nrm2_RtoC. ring. }
    rewrite <- far_scal. rewrite (far_ext (bragg_n0 d o) (bragg_n1 d o) _ (bragg_guess_of d o)); try assumption; try lia.
    2:{ intros a b _ _. now apply bragg_plain_shot. }
    rewrite (bragg_guess_far d o s) by (try assumption; lia). rewrite OS, !Nat.mul_1_l. replace (bc0 o + (i - bc0 o))%nat with i by lia. replace (bc1 o + (j - bc1 o))%nat with j by lia. now apply sharp_far.
  - intros NK. rewrite (bragg_kept_iff d o s) in NK by assumption. replace (_ && _)%bool with false.
    + unfold nrm2, RtoC. cbn [fst snd]. f_equal. ring.
    + symmetry. rewrite !andb_false_iff, !Nat.leb_gt, !Nat.ltb_ge. lia.
Qed.
(** C78: for a plain start with correct_tilt=False the model simulates, for every exposure and whether or not the
    probe is propagated to the surface, the average pattern of the data less the background, as its detector reads
    it; nothing on the pixels that probe_fourier_crop cuts away; with a propagation distance, at the pixels within
    45 degrees of the axis. *)
Theorem C78_initial_pattern : forall d o ch s k t, usable d -> bragg_sensible d o s -> bragg_plain o -> bo_tilt o = Some false ->
  (exists a b, (a < d_h d)%nat /\ (b < d_w d)%nat /\ bragg_kept d o a b /\ bragg_lit d o a b /\ 0 < signal d a b) ->
  nth_error (d_translations d) k = Some t ->
  exists m r, bragg_from_dataset d o ch = Ok m /\ bragg_simulate m k t = Ok r /\ forall i j, (i < d_h d)%nat -> (j < d_w d)%nat ->
   (bragg_kept d o i j -> bragg_lit d o i j -> r i j = reading (bo_saturation o) None (start_background d) i j (signal d i j + / 10 ^ 7)) /\
   (~ bragg_kept d o i j -> r i j = reading (bo_saturation o) None (start_background d) i j (/ 10 ^ 7)).
Proof.
  intros d o ch s k t U S PL TI EX Ht. destruct (bragg_from_dataset_ok d o ch s U S) as (p & tl & EP & ET & E & G). rewrite TI in ET. injection ET as <-.
  destruct (bragg_plain_pattern d o ch s p false k t U S PL EX Ht (G k t Ht)) as (r & R & V). eexists. exists r. split; [exact E|]. split; [exact R|]. exact V.
Qed.
Print Assumptions C78_initial_pattern.
(** C78: the same with correct_tilt=True behind a lens, for a surface across the scattered direction and a detector
    that the lens covers. *)
Theorem C78_lens_pattern : forall d o ch s k t, usable d -> bragg_sensible d o s -> bragg_plain o -> bo_lens o = true ->
  (exists c, s = vscale c (k_out (d_b0 d) (d_b1 d))) -> (forall a b, (a < d_h d)%nat -> (b < d_w d)%nat -> within_lens (d_b0 d) (d_b1 d) (d_h d) (d_w d) (d_dist d) a b) ->
  (exists a b, (a < d_h d)%nat /\ (b < d_w d)%nat /\ bragg_kept d o a b /\ bragg_lit d o a b /\ 0 < signal d a b) ->
  nth_error (d_translations d) k = Some t ->
  exists m r, bragg_from_dataset d o ch = Ok m /\ bragg_simulate m k t = Ok r /\ forall i j, (i < d_h d)%nat -> (j < d_w d)%nat ->
   (bragg_kept d o i j -> bragg_lit d o i j -> r i j = reading (bo_saturation o) None (start_background d) i j (signal d i j + / 10 ^ 7)) /\
   (~ bragg_kept d o i j -> r i j = reading (bo_saturation o) None (start_background d) i j (/ 10 ^ 7)).
Proof.
  intros d o ch s k t U S PL LE (c & Hs) WL EX Ht. destruct (bragg_from_dataset_ok d o ch s U S) as (p & tl & EP & ET & E & G).
  pose proof (G k t Ht) as (pos & dist & P & C & F).
  destruct (bragg_plain_pattern d o ch s p tl k t U S PL EX Ht (G k t Ht)) as (r' & R' & V). 
  destruct PL as (NM & RN & RA & OS). pose proof U as (_ & H & W & Wl & D & _). pose proof S as (_ & _ & _ & _ & _ & I & _ & SK & _).
  set (m := bm_model (bragg_assemble d o ch s (bragg_guess_of d o) p tl)) in *.
  assert (V1 : forall v, vscale (/ INR 1) v = v) by (intros v; change (INR 1) with 1; apply v3_eq; v3; field).
  destruct (C77_bragg_flat m (d_b0 d) (d_b1 d) (d_dist d) k t pos dist 1 P C F I D Wl) as (r & r2 & R & R2 & Q).
  - change (g_b0 m) with (fst (from_bragg_basis d s)). change (g_b1 m) with (snd (from_bragg_basis d s)). rewrite <- surjective_pairing.
    destruct (basis_facts d o s U S) as (_ & _ & _ & a0 & a1 & B0 & B1 & A0 & A1). change (g_det0 m) with (d_h d). change (g_det1 m) with (d_w d). change (g_wl m) with (d_wl d).
    set (e := exit_wave_geometry (d_b0 d) (d_b1 d) (d_h d) (d_w d) (d_wl d) (d_dist d)) in *.
    assert (WD : d_wl d * d_dist d <> 0) by (apply Rmult_integral_contrapositive_currified; lra).
    destruct (ew_normal (d_b0 d) (d_b1 d) (d_h d) (d_w d) (d_wl d) (d_dist d) I H W WD) as [EN _]. cbv zeta in EN. fold e in EN.
    destruct (sample_normal_orth (fst e) (snd e)) as [O0 O1]. rewrite EN in O0, O1. 
    assert (Z0 : vdot s (fst e) = 0) by (rewrite Hs, vdot_vscale_l, O0; ring). assert (Z1 : vdot s (snd e) = 0) by (rewrite Hs, vdot_vscale_l, O1; ring).
    assert (a0 = 0) by (rewrite Z0 in A0; apply Rmult_integral in A0 as [A0|A0]; [exact A0|contradiction]|| (rewrite Z0, Ropp_0 in A0; apply Rmult_integral in A0 as [A0|A0]; [exact A0|contradiction])).
    assert (a1 = 0) by (rewrite Z1, Ropp_0 in A1; apply Rmult_integral in A1 as [A1|A1]; [exact A1|contradiction]). subst a0 a1.
    rewrite (surjective_pairing (from_bragg_basis d s)), B0, B1, (surjective_pairing e). cbn [fst snd]. f_equal; apply v3_eq; v3; ring.
  - change (g_os m) with (bo_os o). rewrite OS. change (g_det0 m) with (d_h d). change (g_det1 m) with (d_w d). rewrite !V1, !Nat.mul_1_l. exact WL.
  - eexists. exists (if tl then r else r'). split; [exact E|]. split.
    + unfold bragg_simulate. cbn [bm_tilt bragg_assemble]. destruct tl; [|exact R']. cbn [bm_lens bm_d0 bm_d1 bm_dist bragg_assemble]. rewrite LE. exact R.
    + intros i j Hi Hj. rewrite R' in R2. injection R2 as <-. specialize (V i j Hi Hj). specialize (Q i j Hi Hj). destruct tl; [rewrite Q|]; exact V.
Qed.
Print Assumptions C78_lens_pattern.
(** C78: with random object phases and oversampling the photons of every exposure (correct_tilt=False) add up to those of the average
    pattern less the background. *)
Theorem C78_photons : forall d o ch s k t, usable d -> bragg_sensible d o s -> bo_n_modes o = 1%nat -> bo_radius o = None -> bo_crop o = None -> bo_pd o = None ->
  bo_saturation o = None -> bo_tilt o = Some false -> (exists a b, (a < d_h d)%nat /\ (b < d_w d)%nat /\ 0 < signal d a b) -> nth_error (d_translations d) k = Some t ->
  exists m r, bragg_from_dataset d o ch = Ok m /\ bragg_simulate m k t = Ok r /\
    INR (bo_os o * bo_os o) * total_of (d_h d) (d_w d) (fun i j => r i j - (start_background d i j ^ 2 + / 10 ^ 7)) = total_of (d_h d) (d_w d) (signal d).
Proof.
  intros d o ch s k t U S NM RA CR PD SA TI EX Ht. destruct (bragg_from_dataset_ok d o ch s U S) as (p & tl & EP & ET & E & G). rewrite TI in ET. injection ET as <-.
  destruct (G k t Ht) as (pos & dist & P & C & F). set (bm := bragg_assemble d o ch s (bragg_guess_of d o) p false) in *. set (m := bm_model bm) in *.
  destruct (C69_conservation m k t pos dist 1 P C F SA) as (r & R & V).
  { intros a b _ _. cbn [m bm bm_model bragg_assemble g_obj]. rewrite Cmod_nrm2. set (v := bo_randomize o * (rand_obj ch a b - / 2)). change (RtoC v) with (v, 0)%R.
    rewrite cexp_i, Ropp_0, exp_0, Cmult_1_l, nrm2_cis. apply sqrt_1. }
  exists bm, r. split; [exact E|]. split; [exact R|].
  assert (LP : length (g_probe m) = 1%nat). { unfold m, bm. cbn [bm_model bragg_assemble g_probe]. rewrite map_length, bragg_modes_length; lia. }
  rewrite LP in V. cbn [seq map] in V. unfold lsum in V. cbn [fold_right] in V. rewrite Rplus_0_r in V.
  assert (EG : bragg_guess_of d o = SHARP_style_probe d None (bo_os o)) by (unfold bragg_guess_of; now rewrite CR, PD).
  assert (N0 : bragg_n0 d o = (bo_os o * d_h d)%nat) by (unfold bragg_n0; now rewrite CR). assert (N1 : bragg_n1 d o = (bo_os o * d_w d)%nat) by (unfold bragg_n1; now rewrite CR).
  pose proof S as (_ & O & _). pose proof U as (_ & H & W & _).
  assert (KE : energy (bragg_n0 d o) (bragg_n1 d o) (bragg_guess_of d o) = total_of (d_h d) (d_w d) (signal d)).
  { rewrite EG, N0, N1. now apply C74_sharp_power. }
  assert (NZ : g_norm m <> 0).
  { cbn [m bm bm_model bragg_assemble g_norm]. unfold bragg_modes. rewrite RA. cbn [nth]. apply Rgt_not_eq, energy_amax. rewrite KE. now apply total_pos. }
  replace (g_norm m ^ 2) with (nrm2 (RtoC (g_norm m))) in V by (rewrite nrm2_RtoC; ring). rewrite <- energy_scal in V.
  rewrite (energy_ext (g_n0 m) (g_n1 m) _ (bragg_guess_of d o)) in V by (intros a b _ _; now apply bragg_plain_shot).
  change (g_n0 m) with (bragg_n0 d o) in V. change (g_n1 m) with (bragg_n1 d o) in V. rewrite KE in V. rewrite <- V. change (g_os m) with (bo_os o). f_equal. unfold total_of.
  change (g_det0 m) with (d_h d). change (g_det1 m) with (d_w d). apply rsum_ext. intros i Hi. apply rsum_ext. intros j Hj. unfold start_background. cbn [m bm bm_model bragg_assemble g_background]. destruct (d_background d); [reflexivity|]. now rewrite Rmult_1_r.
Qed.
Print Assumptions C78_photons.
(** C78: defects.  Recorded intensities are ignored, unlike in FancyPtycho (C75) and MultislicePtycho (C76); ... *)
Definition with_intensities (d : data) (l : option (list R)) : data :=
  {| d_h := d_h d; d_w := d_w d; d_patterns := d_patterns d; d_translations := d_translations d; d_mask := d_mask d; d_background := d_background d; d_qe := d_qe d;
     d_intensities := l; d_b0 := d_b0 d; d_b1 := d_b1 d; d_dist := d_dist d; d_wl := d_wl d; d_orientation := d_orientation d |}.
Theorem C78_intensities_refuted : forall d o ch l, bragg_from_dataset (with_intensities d l) o ch = bragg_from_dataset d o ch.
Proof. reflexivity. Qed.
Print Assumptions C78_intensities_refuted.
(** ... a probe_fourier_crop that leaves one axis alone is refused. *)
Theorem C78_crop_zero_refuted : forall d o ch s c0 c1, usable d -> independent (d_b0 d) (d_b1 d) -> surface d o s -> bo_crop o = Some (c0, c1) -> (c0 = 0 \/ c1 = 0)%nat ->
  bragg_from_dataset d o ch = Raise RuntimeError.
Proof.
  intros d o ch s c0 c1 (NE & _) I SF CR Z. unfold bragg_from_dataset. rewrite (surface_ok d o s I SF). unfold bragg_guess, bragg_n0, bragg_n1. rewrite CR. cbn [fst snd rbind].
  assert (B : (Nat.eqb (crop_len_neg (bo_os o * d_h d) c0) 0 || Nat.eqb (crop_len_neg (bo_os o * d_w d) c1) 0)%bool = true).
  { apply orb_true_iff. destruct Z as [Z|Z]; rewrite Z; [left|right]; reflexivity. }
  rewrite B. destruct (d_patterns d); [contradiction|reflexivity].
Qed.
Print Assumptions C78_crop_zero_refuted.
(** C78: what else is refused. *)
Theorem C78_refused : forall d o ch,
  (d_patterns d = [] -> bragg_from_dataset d o ch = Raise IndexError) /\
  (d_patterns d <> [] -> bo_normal o = Some None -> bragg_from_dataset d o ch = Raise ValueError) /\
  (d_patterns d <> [] -> bo_normal o = None -> bo_mode o = SNotString -> bragg_from_dataset d o ch = Raise ValueError) /\
  (d_patterns d <> [] -> bo_normal o = None -> bo_mode o = SOtherString -> bragg_from_dataset d o ch = Raise AttributeError) /\
  (forall s, d_patterns d <> [] -> independent (d_b0 d) (d_b1 d) -> surface d o s -> bo_crop o = None -> (bo_propagate o = None \/ bo_tilt o = None) -> bragg_from_dataset d o ch = Raise NotImplementedError).
Proof.
  intros d o ch. unfold bragg_from_dataset. split; [now intros ->|]. split; [|split; [|split]].
  - intros NE N. unfold from_bragg_normal. rewrite N. destruct (d_patterns d); [contradiction|reflexivity].
  - intros NE N M. unfold from_bragg_normal, bragg_normal. rewrite N, M. destruct (d_patterns d); [contradiction|reflexivity].
  - intros NE N M. unfold from_bragg_normal, bragg_normal. rewrite N, M. destruct (d_patterns d); [contradiction|reflexivity].
  - intros s NE I SF CR Z. rewrite (surface_ok d o s I SF). unfold bragg_guess. rewrite CR. cbn [rbind]. destruct (d_patterns d); [contradiction|]. destruct (bo_propagate o), (bo_tilt o), Z; try discriminate; reflexivity.
Qed.
Print Assumptions C78_refused.
(** C74's case on a sample turned by 45 degrees, and, behind a lens, on one across the beam. *)
Definition turned (v : V3) (os : nat) (tilt : bool) : bragg_options :=
  {| bo_n_modes := 1; bo_randomize := 0; bo_scale := 3; bo_saturation := None; bo_radius := None; bo_pd := None; bo_mode := SReflection; bo_normal := Some (Some v);
     bo_os := os; bo_crop := None; bo_propagate := Some true; bo_tilt := Some tilt; bo_lens := true; bo_pad := 5 |}.
Example C78_case : let quiet := {| rand_mode := fun _ _ _ => RtoC 0; rand_obj := fun _ _ => 0 |} in
  usable two_shots /\ (forall v os tilt, In v [(1, 0, 1); (0, 0, 2)] -> (1 <= os)%nat -> bragg_sensible two_shots (turned v os tilt) v) /\
  (forall v tilt, bragg_plain (turned v 1 tilt)) /\ (forall a b, (a < 2)%nat -> (b < 2)%nat -> within_lens (d_b0 two_shots) (d_b1 two_shots) 2 2 10 a b) /\
  (exists m r, bragg_from_dataset two_shots (turned (1, 0, 1) 1 false) quiet = Ok m /\ bragg_simulate m 1 (1, 2, 0) = Ok r /\ r 1%nat 1%nat = 7 / 2 + / 10 ^ 7) /\
  (exists m r, bragg_from_dataset two_shots (turned (0, 0, 2) 1 true) quiet = Ok m /\ bragg_simulate m 1 (1, 2, 0) = Ok r /\ r 1%nat 1%nat = 7 / 2 + / 10 ^ 7).
Proof.
  cbv zeta. destruct C74_case as (U & _ & S11 & _ & _). split; [exact U|].
  destruct C77_case as (I & K & _). 
  assert (SE : forall v os tilt, In v [(1, 0, 1); (0, 0, 2)] -> (1 <= os)%nat -> bragg_sensible two_shots (turned v os tilt) v).
  { intros v os tilt Hv Ho. unfold bragg_sensible. cbn [two_shots turned d_translations d_patterns bo_os bo_crop bo_n_modes bo_scale d_b0 d_b1 bo_propagate bo_tilt length]. rewrite K.
    split; [reflexivity|]. split; [lia|]. split; [discriminate|]. split; [lia|]. split; [lra|]. split; [exact I|]. split; [reflexivity|].
    destruct Hv as [<-|[<-|[]]]; (split; [unfold vdot, vx, vy, vz; cbn [fst snd]; lra|]; split; [unfold vdot, vx, vy, vz; cbn [fst snd]; lra|]; split; discriminate). }
  split; [exact SE|]. assert (PL : forall v tilt, bragg_plain (turned v 1 tilt)) by (intros; unfold bragg_plain; cbn; auto). split; [exact PL|].
  assert (WL : forall a b, (a < 2)%nat -> (b < 2)%nat -> within_lens (d_b0 two_shots) (d_b1 two_shots) 2 2 10 a b).
  { intros a b Ha Hb. unfold within_lens, offset, vlen. cbn [two_shots d_b0 d_b1]. rewrite <- (sqrt_square 10) by lra. apply sqrt_le_1_alt.
    assert (0 <= INR a <= 1) by (split; [apply pos_INR|change 1 with (INR 1); apply le_INR; lia]). assert (0 <= INR b <= 1) by (split; [apply pos_INR|change 1 with (INR 1); apply le_INR; lia]).
    replace (INR 2) with 2 by (cbn; ring). v3. nra. }
  split; [exact WL|].
  assert (EX : forall v tilt, exists a b, (a < d_h two_shots)%nat /\ (b < d_w two_shots)%nat /\ bragg_kept two_shots (turned v 1 tilt) a b /\ bragg_lit two_shots (turned v 1 tilt) a b /\ 0 < signal two_shots a b).
  { intros v tilt. exists 1%nat, 1%nat. split; [cbn; lia|]. split; [cbn; lia|]. split; [exact Logic.I|]. split; [now left|]. rewrite S11. lra. }
  assert (RD : reading None None (start_background two_shots) 1 1 (signal two_shots 1 1 + / 10 ^ 7) = 7 / 2 + / 10 ^ 7).
  { rewrite S11. unfold reading, start_background. cbn. pose proof (sqrt_sqrt 2 ltac:(lra)). lra. }
  split.
  - destruct (C78_initial_pattern two_shots (turned (1, 0, 1) 1 false) {| rand_mode := fun _ _ _ => RtoC 0; rand_obj := fun _ _ => 0 |} (1, 0, 1) 1 (1, 2, 0) U) as (m & r & E & R & V).
    + apply SE; [now left|lia].
    + apply PL.
    + reflexivity.
    + apply EX.
    + reflexivity.
    + exists m, r. split; [exact E|]. split; [exact R|]. destruct (V 1%nat 1%nat ltac:(cbn; lia) ltac:(cbn; lia)) as [V1 _]. rewrite V1; [exact RD|exact Logic.I|now left].
  - destruct (C78_lens_pattern two_shots (turned (0, 0, 2) 1 true) {| rand_mode := fun _ _ _ => RtoC 0; rand_obj := fun _ _ => 0 |} (0, 0, 2) 1 (1, 2, 0) U) as (m & r & E & R & V).
    + apply SE; [right; now left|lia].
    + apply PL.
    + reflexivity.
    + exists 2. cbn [two_shots d_b0 d_b1]. rewrite K. unfold vscale, vx, vy, vz. cbn [fst snd]. repeat f_equal; ring.
    + exact WL.
    + apply EX.
    + reflexivity.
    + exists m, r. split; [exact E|]. split; [exact R|]. destruct (V 1%nat 1%nat ltac:(cbn; lia) ltac:(cbn; lia)) as [V1 _]. rewrite V1; [exact RD|exact Logic.I|now left].
Qed.
(** Oversampling 2 and a crop of one pixel: a probe of 2 x 2 pixels on a detector of 2 x 2. *)
Example C78_case_crop : let o := {| bo_n_modes := 3; bo_randomize := 1; bo_scale := 3; bo_saturation := Some 9; bo_radius := Some 1; bo_pd := Some 5; bo_mode := SNone; bo_normal := None;
     bo_os := 2; bo_crop := Some (1%nat, 1%nat); bo_propagate := Some true; bo_tilt := Some true; bo_lens := false; bo_pad := 5 |} in
  bragg_sensible two_shots o (0, 0, 1) /\ bo_crop o <> None /\ (2 <= bo_os o)%nat.
Proof.
  cbv zeta. destruct C77_case as (I & K & _). split; [|split; [discriminate|cbn; lia]].
  unfold bragg_sensible. cbn [two_shots d_translations d_patterns bo_os bo_crop bo_n_modes bo_scale d_b0 d_b1 bo_propagate bo_tilt length d_h d_w]. rewrite K.
  split; [reflexivity|]. split; [lia|]. split; [intros c0 c1 E; injection E as <- <-; lia|]. split; [lia|]. split; [lra|]. split; [exact I|]. split; [reflexivity|].
  split; [unfold vdot, vx, vy, vz; cbn [fst snd]; lra|]. split; [unfold vdot, vx, vy, vz; cbn [fst snd]; lra|]. split; discriminate.
Qed.
