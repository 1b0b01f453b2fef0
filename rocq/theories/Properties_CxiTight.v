(** Further property theorems about CXI files (C16): where the additions are stored, and what the
    readers do with files written by other programs (fallbacks). *)
From Verif Require Import Base Model_Cxi Spec_Cxi Proofs_Cxi Proofs_CxiDataset Properties_Cxi.
From Flocq Require Import Core Relative.
Local Open Scope string_scope.

Lemma det_resolves k n f f1 f2 : create (det k) n f = Ok f1 -> (forall q, n <> NSoft q) -> extends f1 f2 ->
  resolve (det k) f2 = Some n.
Proof. intros H Hs X. apply X. eapply create_resolve; [exact H|discriminate|exact Hs]. Qed.

(** C16: the layout of the file, for any additions in any order on any file: a program that follows
    the CXI specification finds the wavelength and the photon energy hc / wavelength under
    source_1; the distance, the pixel sizes (the lengths of the second and first basis vector)
    and the basis under detector_1; a mask that is 0 exactly on the good pixels; the data under
    both detector_1 and data_1; shot-to-shot information under geometry_1, data_1 and detector_1;
    and the translations negated. *)
Theorem C16_layout : forall l f0 f, do_adds l f0 = Ok f ->
  (forall w, In (ASource w) l ->
     resolve ["entry_1"; "instrument_1"; "source_1"; "wavelength"] f = Some (NArr (mkC CF32 [] [Some (f32 w)]) None) /\
     resolve ["entry_1"; "instrument_1"; "source_1"; "energy"] f
       = Some (NArr (mkC CF32 [] [Some (f32 (1.9864459e-25 / w))]) None)) /\
  (forall dist c b00 b10 b20 b01 b11 b21, In (ADetector dist [[b00; b01]; [b10; b11]; [b20; b21]] c) l ->
     resolve ["entry_1"; "instrument_1"; "detector_1"; "distance"] f = Some (NArr (mkC CF32 [] [Some (f32 dist)]) None) /\
     resolve ["entry_1"; "instrument_1"; "detector_1"; "x_pixel_size"] f
       = Some (NArr (mkC CF64 [] [Some (sqrt (b01 * b01 + b11 * b11 + b21 * b21))%R]) None) /\
     resolve ["entry_1"; "instrument_1"; "detector_1"; "y_pixel_size"] f
       = Some (NArr (mkC CF64 [] [Some (sqrt (b00 * b00 + b10 * b10 + b20 * b20))%R]) None) /\
     resolve ["entry_1"; "instrument_1"; "detector_1"; "basis_vectors"] f
       = Some (NMat [[b00; b01]; [b10; b11]; [b20; b21]])) /\
  (forall s m, In (AMask s m) l -> exists vals,
     resolve ["entry_1"; "instrument_1"; "detector_1"; "mask"] f = Some (NMask s vals) /\ length vals = length m /\
     forall i, i < length m -> nth i vals 7%Z = 0%Z /\ nth i m false = true \/ nth i vals 7%Z = 1%Z /\ nth i m true = false) /\
  (forall d ax, In (AData d ax) l -> forall p,
     p = ["entry_1"; "instrument_1"; "detector_1"; "data"] \/ p = ["entry_1"; "data_1"; "data"] ->
     resolve p f = Some (NArr d (option_map (String.concat ":") ax))) /\
  (forall d k, In (AShot d k) l -> forall p,
     p = ["entry_1"; "sample_1"; "geometry_1"; k] \/ p = ["entry_1"; "data_1"; k] \/
     p = ["entry_1"; "instrument_1"; "detector_1"; k] -> resolve p f = Some (NArr d None)) /\
  (forall d, In (ATranslations d) l ->
     resolve ["entry_1"; "sample_1"; "geometry_1"; "translation"] f
       = Some (NArr (mkC (c_dt d) (c_shape d) (map (option_map Ropp) (c_data d))) None)).
Proof.
  intros l f0 f H.
  assert (SP : forall a, In a l -> exists f1 f2, do_add a f1 = Ok f2 /\ extends f0 f1 /\ extends f2 f)
    by (intros a; now apply do_adds_split).
  assert (SHOT : forall d k f1 f2, add_shot_to_shot d k f1 = Ok f2 -> extends f2 f -> forall p,
     p = geo k \/ p = data1 k \/ p = det k -> resolve p f = Some (NArr d None)).
  { intros d k f1 f2 E X p Hp. unfold add_shot_to_shot in E. steps.
    assert (F : find (geo k) f7 = Some (NArr d None)).
    { pose proof (create_inv _ _ _ _ S3) as (-> & _ & _). rewrite find_cons.
      destruct (path_eqb_spec (geo k) (geo k)) as [_|C]; [reflexivity|contradiction]. }
    assert (F' : find (geo k) f8 = Some (NArr d None)).
    { rewrite (create_frame _ _ _ _ (geo k) S4); [exact F|discriminate]. }
    apply X. destruct Hp as [->|[->| ->]].
    - eapply create_extends; [exact E|]. eapply create_extends; [exact S4|].
      eapply create_resolve; [exact S3|discriminate|discriminate].
    - eapply create_extends; [exact E|]. exact (create_soft _ _ _ _ _ S4 ltac:(discriminate) F ltac:(discriminate)).
    - exact (create_soft _ _ _ _ _ E ltac:(discriminate) F' ltac:(discriminate)). }
  split; [|split; [|split; [|split; [|split]]]].
  - intros w Hin. destruct (SP _ Hin) as (f1 & f2 & E & _ & X). cbn [do_add] in E. unfold add_source in E. steps. split; apply X.
    + eapply create_extends; [exact E|]. exact (create_resolve _ _ _ _ S1 ltac:(discriminate) ltac:(discriminate)).
    + replace (1.9864459e-25 / w)%R with (19864459 / 10 ^ 32 / w)%R by (unfold Rdiv; f_equal; lra).
      exact (create_resolve _ _ _ _ E ltac:(discriminate) ltac:(discriminate)).
  - intros dist c b00 b10 b20 b01 b11 b21 Hin. destruct (SP _ Hin) as (f1 & f2 & E & _ & X). cbn [do_add] in E.
    unfold add_detector in E. steps.
    assert (X' : extends f7 f).
    { destruct c; [eapply extends_trans; [eapply create_extends; exact E|exact X]|injection E as <-; exact X]. }
    repeat match goal with |- _ /\ _ => split end; apply X'.
    + do 3 (eapply create_extends; [eassumption|]). exact (create_resolve _ _ _ _ S0 ltac:(discriminate) ltac:(discriminate)).
    + do 2 (eapply create_extends; [eassumption|]).
      replace (sqrt (b01 * b01 + b11 * b11 + b21 * b21)) with (vnorm (col 1 (norm_basis [[b00; b01]; [b10; b11]; [b20; b21]])))
        by (unfold vnorm; cbn; f_equal; ring).
      exact (create_resolve _ _ _ _ S1 ltac:(discriminate) ltac:(discriminate)).
    + do 1 (eapply create_extends; [eassumption|]).
      replace (sqrt (b00 * b00 + b10 * b10 + b20 * b20)) with (vnorm (col 0 (norm_basis [[b00; b01]; [b10; b11]; [b20; b21]])))
        by (unfold vnorm; cbn; f_equal; ring).
      exact (create_resolve _ _ _ _ S2 ltac:(discriminate) ltac:(discriminate)).
    + exact (create_resolve _ _ _ _ S3 ltac:(discriminate) ltac:(discriminate)).
  - intros s m Hin. destruct (SP _ Hin) as (f1 & f2 & E & _ & X). cbn [do_add] in E. unfold add_mask in E. steps.
    eexists. split; [apply X; exact (create_resolve _ _ _ _ E ltac:(discriminate) ltac:(discriminate))|].
    split; [apply map_length|]. intros i Hi.
    set (q := fun b : bool => if b then 0%Z else 1%Z).
    assert (M : nth i (map q m) 7%Z = q (nth i m true)).
    { rewrite nth_indep with (d' := q true); [apply map_nth|now rewrite map_length]. }
    rewrite M, (nth_indep m false true Hi). destruct (nth i m true); cbn; auto.
  - intros d ax Hin p Hp. destruct (SP _ Hin) as (f1 & f2 & E & _ & X). cbn [do_add] in E. unfold add_data in E. steps.
    assert (F : find (det "data") f5 = Some (NArr d (option_map join ax))).
    { pose proof (create_inv _ _ _ _ S1) as (-> & _ & _). rewrite find_cons.
      destruct (path_eqb_spec (det "data") (det "data")) as [_|C]; [reflexivity|contradiction]. }
    apply X. destruct Hp as [->| ->].
    + eapply create_extends; [exact E|]. exact (create_resolve _ _ _ _ S1 ltac:(discriminate) ltac:(discriminate)).
    + exact (create_soft _ _ _ _ _ E ltac:(discriminate) F ltac:(discriminate)).
  - intros d k Hin. destruct (SP _ Hin) as (f1 & f2 & E & _ & X). exact (SHOT _ _ _ _ E X).
  - intros d Hin. destruct (SP _ Hin) as (f1 & f2 & E & _ & X). cbn [do_add] in E. unfold add_translations in E.
    apply (SHOT _ _ _ _ E X). left. reflexivity.
Qed.
Print Assumptions C16_layout.

(** C16: a file without a wavelength but with a photon energy E (in joules) is read with the
    wavelength hc / E; with neither, KeyError. *)
Theorem C16_wavelength_from_energy : forall f g e ax, resolve ["entry_1"; "instrument_1"] f = Some g ->
  resolve ["entry_1"; "instrument_1"; "source_1"; "wavelength"] f = None ->
  (resolve ["entry_1"; "instrument_1"; "source_1"; "energy"] f = Some (NArr e ax) ->
   forall x, c_data e = [Some x] -> get_wavelength f = Ok (Some (1.9864459e-25 / f32 x)%R)) /\
  (resolve ["entry_1"; "instrument_1"; "source_1"; "energy"] f = None -> get_wavelength f = Raise KeyError).
Proof.
  intros f g e ax Hi Hw. unfold get_wavelength, get_scalar, get_arr, contains, getitem, i1, src. rewrite Hi, Hw. cbn [rbind].
  split; intros He; rewrite He; [|reflexivity]. intros x Hx. cbn [rbind]. rewrite Hx. cbn [option_map rmap]. replace (1.9864459e-25 / f32 x)%R with (19864459 / 10 ^ 32 / f32 x)%R by (unfold Rdiv; f_equal; lra). reflexivity.
Qed.
Print Assumptions C16_wavelength_from_energy.

(** C16: energy and wavelength written by add_source agree: the wavelength recomputed from the
    stored energy is within a relative 2^-23 of the one given (for energies a binary32 can hold
    as a normal number). *)
Theorem C16_energy_consistent : forall w, (0 < w)%R -> (bpow radix2 (-126) <= 1.9864459e-25 / w)%R ->
  (Rabs (1.9864459e-25 / f32 (1.9864459e-25 / w) - w) <= bpow radix2 (-23) * w)%R.
Proof.
  intros w Hw HE. set (x := (1.9864459e-25 / w)%R) in *.
  assert (Hx : (0 < x)%R) by (eapply Rlt_le_trans; [apply (bpow_gt_0 radix2 (-126))|exact HE]).
  assert (RE : (Rabs (f32 x - x) <= / 2 * bpow radix2 (- 24 + 1) * Rabs x)%R).
  { apply relative_error_N_FLT; [unfold Prec_gt_0; lia|]. rewrite Rabs_pos_eq by lra. exact HE. }
  rewrite (Rabs_pos_eq x) in RE by lra. change (-24 + 1)%Z with (-23)%Z in RE.
  assert (B : bpow radix2 (-23) = (1 / 8388608)%R) by (cbn; lra). rewrite B in *.
  apply Rabs_le_inv in RE. set (y := f32 x) in *.
  assert (Hy : (0 < y)%R) by lra.
  assert (Hw' : w = (1.9864459e-25 / x)%R) by (unfold x; field; lra).
  set (h := 1.9864459e-25%R) in *. assert (Hh : (0 < h)%R) by (unfold h; lra).
  rewrite Hw'. replace (h / y - h / x)%R with (h * (x - y) * / (x * y))%R by (field; lra).
  rewrite !Rabs_mult. rewrite (Rabs_pos_eq h) by lra. rewrite (Rabs_pos_eq (/ (x * y))) by
    (left; apply Rinv_0_lt_compat, Rmult_lt_0_compat; lra).
  assert (A : (Rabs (x - y) <= 1 / 8388608 * y)%R) by (apply Rabs_le; lra).
  apply Rmult_le_reg_r with (x * y)%R; [now apply Rmult_lt_0_compat|].
  replace (h * Rabs (x - y) * / (x * y) * (x * y))%R with (h * Rabs (x - y))%R by (field; lra).
  replace (1 / 8388608 * (h / x) * (x * y))%R with (h * (1 / 8388608 * y))%R by (field; lra).
  apply Rmult_le_compat_l; lra.
Qed.
Print Assumptions C16_energy_consistent.
Example C16_energy_case : (bpow radix2 (-126) <= 1.9864459e-25 / 1e-10)%R.
Proof.
  apply Rle_trans with (bpow radix2 (-60)); [apply bpow_le; lia|].
  assert (B : bpow radix2 (-60) = (/ 1152921504606846976)%R) by (unfold bpow; do 2 f_equal).
  rewrite B. lra.
Qed.

(** C16: a file without basis vectors is read as an axis-aligned detector: the first basis vector
    is (0, -y, 0) and the second (-x, 0, 0), where a missing pixel size is taken from the other
    one; without any, KeyError. *)
Definition no_node (p : path) (f : file) : Prop := resolve p f = None.
Definition scalar_at (p : path) (f : file) (x : R) : Prop := exists a ax, resolve p f = Some (NArr a ax) /\ c_data a = [Some x].
Theorem C16_basis_from_pixel_sizes : forall f g g' dist c,
  resolve ["entry_1"; "instrument_1"] f = Some g -> resolve ["entry_1"; "instrument_1"; "detector_1"] f = Some g' ->
  no_node ["entry_1"; "instrument_1"; "detector_1"; "basis_vectors"] f ->
  scalar_at ["entry_1"; "instrument_1"; "detector_1"; "distance"] f dist ->
  (c = None /\ no_node ["entry_1"; "instrument_1"; "detector_1"; "corner_position"] f \/
   exists a ax, c = Some a /\ resolve ["entry_1"; "instrument_1"; "detector_1"; "corner_position"] f = Some (NArr a ax)) ->
  let X := ["entry_1"; "instrument_1"; "detector_1"; "x_pixel_size"] in
  let Y := ["entry_1"; "instrument_1"; "detector_1"; "y_pixel_size"] in
  let axis_aligned x y := Ok (Some (f32 dist), [[0; - f32 x]; [- f32 y; 0]; [0; 0]]%R, c) in
  (forall x y, scalar_at X f x -> scalar_at Y f y -> get_detector_geometry f = axis_aligned x y) /\
  (forall x, scalar_at X f x -> no_node Y f -> get_detector_geometry f = axis_aligned x x) /\
  (forall y, no_node X f -> scalar_at Y f y -> get_detector_geometry f = axis_aligned y y) /\
  (no_node X f -> no_node Y f -> get_detector_geometry f = Raise KeyError).
Proof.
  intros f g g' dist c Hi Hd Hb (ad & axd & Hdist & Ed) Hc X Y axis_aligned.
  assert (RED : forall b, get_basis f = b -> get_detector_geometry f = rmap (fun b => (Some (f32 dist), b, c)) b).
  { intros b Eb. unfold get_detector_geometry, getitem, i1, det1. rewrite Hi, Hd. cbn [rbind]. rewrite Eb.
    destruct b as [b|]; [|reflexivity]. cbn [rbind rmap].
    unfold get_scalar, get_arr, getitem, det. rewrite Hdist. cbn [rbind]. rewrite Ed. cbn [try_ option_map].
    destruct Hc as [[-> Hc]|(a & ax & -> & Hc)]; rewrite Hc; reflexivity. }
  assert (GB : get_basis f =
    (let g k := match try_ (get_scalar (det k) f) with Some (Some x) => Some x | _ => None end in
    match g "x_pixel_size", g "y_pixel_size" with
    | Some x, Some y => Ok [[0; - x]; [- y; 0]; [0; 0]]%R
    | Some x, None => Ok [[0; - x]; [- x; 0]; [0; 0]]%R
    | None, Some y => Ok [[0; - y]; [- y; 0]; [0; 0]]%R
    | None, None => Raise KeyError
    end)).
  { unfold get_basis, contains. unfold no_node in Hb. unfold det at 1. rewrite Hb. reflexivity. }
  assert (S : forall k x, scalar_at (det k) f x -> try_ (get_scalar (det k) f) = Some (Some (f32 x))).
  { intros k x (a & ax & R & D). unfold get_scalar, get_arr, getitem. rewrite R. cbn [rbind]. rewrite D. reflexivity. }
  assert (N : forall k, no_node (det k) f -> try_ (get_scalar (det k) f) = None).
  { intros k R. unfold get_scalar, get_arr, getitem. unfold no_node in R. rewrite R. reflexivity. }
  change X with (det "x_pixel_size"). change Y with (det "y_pixel_size").
  cbv zeta in GB.
  split; [|split; [|split]]; [intros x y Hx Hy|intros x Hx Hy|intros y Hx Hy|intros Hx Hy];
    rewrite (RED _ GB);
    first [rewrite (S _ _ Hx)|rewrite (N _ Hx)]; first [rewrite (S _ _ Hy)|rewrite (N _ Hy)]; reflexivity.
Qed.
Print Assumptions C16_basis_from_pixel_sizes.

(** C16: when the distance is missing but the corner position is known, the distance read is the
    distance from the sample (the origin) to the detector plane. *)
Definition vlen (v : list R) : R := sqrt (lsum (map (fun x => x * x)%R v)).
Theorem C16_distance_from_corner : forall f g g' b00 b10 b20 b01 b11 b21 c1 c2 c3 ac ax,
  resolve ["entry_1"; "instrument_1"] f = Some g -> resolve ["entry_1"; "instrument_1"; "detector_1"] f = Some g' ->
  resolve ["entry_1"; "instrument_1"; "detector_1"; "basis_vectors"] f = Some (NMat [[b00; b01]; [b10; b11]; [b20; b21]]) ->
  no_node ["entry_1"; "instrument_1"; "detector_1"; "distance"] f ->
  resolve ["entry_1"; "instrument_1"; "detector_1"; "corner_position"] f = Some (NArr ac ax) ->
  c_data ac = [Some c1; Some c2; Some c3] ->
  (* the two basis vectors are linearly independent *)
  (b10 * b21 - b20 * b11 <> 0 \/ b20 * b01 - b00 * b21 <> 0 \/ b00 * b11 - b10 * b01 <> 0)%R ->
  exists D, get_detector_geometry f = Ok (Some D, [[b00; b01]; [b10; b11]; [b20; b21]], Some ac) /\
    let point s t := [c1 + s * b00 + t * b01; c2 + s * b10 + t * b11; c3 + s * b20 + t * b21]%R in
    (forall s t, (D <= vlen (point s t))%R) /\ (exists s t, vlen (point s t) = D).
Proof.
  intros f g g' b00 b10 b20 b01 b11 b21 c1 c2 c3 ac ax Hi Hd Hb Hn Hc Ec Hind.
  set (n1 := (b10 * b21 - b20 * b11)%R) in *. set (n2 := (b20 * b01 - b00 * b21)%R) in *.
  set (n3 := (b00 * b11 - b10 * b01)%R) in *.
  set (N := (n1 * n1 + n2 * n2 + n3 * n3)%R).
  assert (HN : (0 < N)%R).
  { assert (Q : forall x, (x <> 0 -> 0 < x * x)%R) by (intros x Hx; destruct (Rtotal_order x 0) as [|[|]]; [nra|contradiction|nra]).
    assert (P : forall x, (0 <= x * x)%R) by (intros; nra).
    pose proof (P n1); pose proof (P n2); pose proof (P n3). unfold N.
    destruct Hind as [h|[h|h]]; pose proof (Q _ h); lra. }
  set (K := (c1 * n1 + c2 * n2 + c3 * n3)%R).
  set (S := sqrt N). assert (HS : (0 < S)%R) by now apply sqrt_lt_R0.
  assert (SS : (S * S = N)%R) by (apply sqrt_sqrt; lra).
  exists (Rabs (K / S)). split.
  - unfold get_detector_geometry, getitem, i1, det1. rewrite Hi, Hd. cbn [rbind].
    unfold get_basis, contains, getitem, det. rewrite Hb. cbn [rbind norm_basis].
    unfold get_scalar, get_arr, getitem. unfold no_node in Hn. rewrite Hn, Hc. cbn [rbind try_].
    do 4 f_equal. unfold reals. rewrite Ec. cbn [map col nth cross].
    fold n1 n2 n3.
    assert (E : vnorm [n1; n2; n3] = S).
    { unfold vnorm, S, N. f_equal. cbn. ring. }
    rewrite E. unfold dot. cbn. f_equal. unfold K. field. lra.
  - assert (KS : (K / S * (K / S) * N = K * K)%R) by (rewrite <- SS; field; lra).
    assert (PT : forall s t, ((c1 + s * b00 + t * b01) * n1 + (c2 + s * b10 + t * b11) * n2 + (c3 + s * b20 + t * b21) * n3 = K)%R)
      by (intros; unfold K, n1, n2, n3; ring).
    cbv zeta. split.
    + intros s t. specialize (PT s t). unfold vlen. cbn [map lsum fold_right].
      set (p1 := (c1 + s * b00 + t * b01)%R) in *. set (p2 := (c2 + s * b10 + t * b11)%R) in *. set (p3 := (c3 + s * b20 + t * b21)%R) in *.
      rewrite <- sqrt_Rsqr_abs. apply sqrt_le_1_alt. unfold Rsqr. cbn.
      assert (CS : (K * K <= (p1 * p1 + p2 * p2 + p3 * p3) * N)%R).
      { rewrite <- PT. unfold N.
        pose proof (Rle_0_sqr (p1 * n2 - p2 * n1)). pose proof (Rle_0_sqr (p1 * n3 - p3 * n1)). pose proof (Rle_0_sqr (p2 * n3 - p3 * n2)).
        unfold Rsqr in *. nra. }
      rewrite <- KS in CS. apply Rmult_le_reg_r in CS; [|exact HN]. lra.
    + (* the foot of the perpendicular *)
      set (a := (b00 * b00 + b10 * b10 + b20 * b20)%R). set (b := (b00 * b01 + b10 * b11 + b20 * b21)%R).
      set (d := (b01 * b01 + b11 * b11 + b21 * b21)%R).
      set (u := (c1 * b00 + c2 * b10 + c3 * b20)%R). set (v := (c1 * b01 + c2 * b11 + c3 * b21)%R).
      assert (G : (a * d - b * b = N)%R) by (unfold a, b, d, N, n1, n2, n3; ring).
      set (s := ((b * v - d * u) / N)%R). set (t := ((b * u - a * v) / N)%R).
      exists s, t.
      assert (O1 : (u + s * a + t * b = 0)%R) by (unfold s, t; rewrite <- G; field; lra).
      assert (O2 : (v + s * b + t * d = 0)%R) by (unfold s, t; rewrite <- G; field; lra).
      specialize (PT s t). unfold vlen. cbn [map lsum fold_right].
      set (p1 := (c1 + s * b00 + t * b01)%R) in *. set (p2 := (c2 + s * b10 + t * b11)%R) in *. set (p3 := (c3 + s * b20 + t * b21)%R) in *.
      assert (Q1 : (p1 * b00 + p2 * b10 + p3 * b20 = 0)%R) by (rewrite <- O1; unfold p1, p2, p3, u, a, b; ring).
      assert (Q2 : (p1 * b01 + p2 * b11 + p3 * b21 = 0)%R) by (rewrite <- O2; unfold p1, p2, p3, v, d, b; ring).
      (* p x n = 0 *)
      assert (Z1 : (p2 * n3 - p3 * n2 = 0)%R).
      { transitivity (b00 * (p1 * b01 + p2 * b11 + p3 * b21) - b01 * (p1 * b00 + p2 * b10 + p3 * b20))%R;
          [unfold n2, n3; ring|rewrite Q1, Q2; ring]. }
      assert (Z2 : (p3 * n1 - p1 * n3 = 0)%R).
      { transitivity (b10 * (p1 * b01 + p2 * b11 + p3 * b21) - b11 * (p1 * b00 + p2 * b10 + p3 * b20))%R;
          [unfold n1, n3; ring|rewrite Q1, Q2; ring]. }
      assert (Z3 : (p1 * n2 - p2 * n1 = 0)%R).
      { transitivity (b20 * (p1 * b01 + p2 * b11 + p3 * b21) - b21 * (p1 * b00 + p2 * b10 + p3 * b20))%R;
          [unfold n1, n2; ring|rewrite Q1, Q2; ring]. }
      rewrite <- sqrt_Rsqr_abs. f_equal. unfold Rsqr. cbn.
      apply Rmult_eq_reg_r with N; [|lra]. rewrite KS, <- PT.
      transitivity ((p1 * n1 + p2 * n2 + p3 * n3) * (p1 * n1 + p2 * n2 + p3 * n3)
        + (p2 * n3 - p3 * n2) * (p2 * n3 - p3 * n2) + (p3 * n1 - p1 * n3) * (p3 * n1 - p1 * n3)
        + (p1 * n2 - p2 * n1) * (p1 * n2 - p2 * n1))%R; [unfold N; ring|rewrite Z1, Z2, Z3; ring].
Qed.
Print Assumptions C16_distance_from_corner.
Example C16_fallback_case : exists f g g', resolve ["entry_1"; "instrument_1"] f = Some g /\
  resolve ["entry_1"; "instrument_1"; "detector_1"] f = Some g' /\
  resolve ["entry_1"; "instrument_1"; "detector_1"; "basis_vectors"] f = Some (NMat [[0; -1]; [-1; 0]; [0; 0]]%R) /\
  no_node ["entry_1"; "instrument_1"; "detector_1"; "distance"] f /\
  resolve ["entry_1"; "instrument_1"; "detector_1"; "corner_position"] f = Some (NArr (mkC CF64 [3] [Some 1; Some 2; Some 5]%R) None).
Proof.
  exists [(i1, NGroup); (det1, NGroup); (det "basis_vectors", NMat [[0; -1]; [-1; 0]; [0; 0]]%R);
          (det "corner_position", NArr (mkC CF64 [3] [Some 1; Some 2; Some 5]%R) None)].
  eexists _, _. unfold no_node. repeat match goal with |- _ /\ _ => split end; reflexivity.
Qed.

(** C16: data read with cut_zeros (the default) has every negative pixel replaced by zero and every
    other pixel, NaN included, as stored; data_1/data is preferred over detector_1/data. *)
Theorem C16_cut_zeros : forall f a ax, resolve ["entry_1"; "data_1"; "data"] f = Some (NArr a ax) \/
    no_node ["entry_1"; "data_1"; "data"] f /\ resolve ["entry_1"; "instrument_1"; "detector_1"; "data"] f = Some (NArr a ax) ->
  exists axes raw cut, get_data false f = Ok (raw, axes) /\ raw = a /\
    get_data true f = Ok (cut, axes) /\ c_shape cut = c_shape a /\ c_dt cut = c_dt a /\ length (c_data cut) = length (c_data a) /\
    forall i, (forall x, nth i (c_data a) None = Some x -> (x < 0 -> nth i (c_data cut) None = Some 0)%R /\
                                                         (0 <= x -> nth i (c_data cut) None = Some x)%R) /\
              (nth i (c_data a) None = None -> nth i (c_data cut) None = None).
Proof.
  intros f a ax H.
  exists (option_map (fun s => map clean (split_colon s)) ax), a,
    (mkC (c_dt a) (c_shape a) (map (option_map (Rmax 0)) (c_data a))).
  assert (RD : forall b, get_data b f = Ok ((if b then mkC (c_dt a) (c_shape a) (map (option_map (Rmax 0)) (c_data a)) else a),
            option_map (fun s => map clean (split_colon s)) ax)).
  { intros b. unfold get_data, contains, getitem, data1, det. unfold no_node in H.
    destruct H as [H|[H0 H]]; [rewrite H|rewrite H0, H]; reflexivity. }
  split; [exact (RD false)|]. split; [reflexivity|]. split; [exact (RD true)|].
  split; [reflexivity|]. split; [reflexivity|]. cbn [c_data]. split; [apply map_length|].
  assert (NM : forall i, nth i (map (option_map (Rmax 0)) (c_data a)) None = option_map (Rmax 0) (nth i (c_data a) None))
    by (intros i; change (@None R) with (option_map (Rmax 0) (@None R)) at 1; apply map_nth).
  intros i. rewrite NM. split.
  - intros x ->. cbn. split; intros Hx; f_equal; [apply Rmax_left|apply Rmax_right]; lra.
  - intros ->. reflexivity.
Qed.
Print Assumptions C16_cut_zeros.

(** C16: the background read from a stack of dark images, pixel by pixel: if some image has a number
    there, the value v with (number of such images) * v = their sum; otherwise NaN. *)
Fixpoint numbers (l : list (option R)) : list R :=
  match l with [] => [] | Some x :: l' => x :: numbers l' | None :: l' => numbers l' end.
Definition total (l : list R) : R := fold_right Rplus 0%R l.
Theorem C16_dark_stack_values : forall l f0 f d n h w, do_adds l f0 = Ok f -> In (ADark d) l ->
  c_shape d = [n; h; w] -> length (c_data d) = n * (h * w) ->
  exists a, get_dark f = Ok (Some a) /\ c_shape a = [h; w] /\
    forall k, k < h * w ->
      let stack := numbers (map (fun m => nth (m * (h * w) + k) (c_data d) None) (seq 0 n)) in
      (stack = [] -> nth k (c_data a) None = None) /\
      (stack <> [] -> exists v, nth k (c_data a) None = Some v /\ (INR (length stack) * v = total stack)%R).
Proof.
  intros l f0 f d n h w H Hin Hs HL. destruct (C16_dark_stack_mean _ _ _ _ _ _ _ H Hin Hs HL) as (a & E & S & V).
  exists a. split; [exact E|]. split; [exact S|]. intros k Hk. cbv zeta. rewrite (V k Hk).
  set (q := map _ (seq 0 n)). assert (NF : flat_map (fun x : option R => match x with Some r => [r] | None => [] end) q = numbers q).
  { clear. induction q as [|[x|] q IH]; cbn; [reflexivity|now rewrite IH|exact IH]. }
  unfold nanmean. rewrite NF. destruct (numbers q) as [|y r] eqn:EN.
  - split; [reflexivity|contradiction].
  - split; [discriminate|]. intros _. eexists. split; [reflexivity|]. unfold total.
    assert (LS : forall l, lsum l = fold_right Rplus 0%R l) by (intros l0; induction l0; cbn in *; congruence).
    rewrite LS. field. apply not_0_INR. cbn. lia.
Qed.
Print Assumptions C16_dark_stack_values.

(** C16: axes names of a file, whoever wrote it: the colon-separated parts, each stripped of
    surrounding blanks and in lower case. *)
Inductive lower_of : string -> string -> Prop :=
| lower_nil : lower_of "" ""
| lower_same : forall c s s', ~ capital c -> lower_of s s' -> lower_of (String c s) (String c s')
| lower_cap : forall c c' s s', capital c -> nat_of_ascii c' = nat_of_ascii c + 32 -> lower_of s s' ->
    lower_of (String c s) (String c' s').
Definition all_blank (s : string) : Prop := forall a c b, s = a ++ String c b -> blank c.
Lemma app_assoc_s (a b c : string) : (a ++ b) ++ c = a ++ (b ++ c).
Proof. induction a as [|x a IH]; [reflexivity|]. cbn. now rewrite IH. Qed.
Lemma app_nil_s (a : string) : a ++ "" = a.
Proof. induction a as [|x a IH]; [reflexivity|]. cbn. now rewrite IH. Qed.
Lemma lstrip_app pre s : all_blank pre -> lstrip (pre ++ s) = lstrip s.
Proof.
  induction pre as [|c pre IH]; intros H; [reflexivity|]. cbn.
  assert (B : is_space c = true) by (apply is_space_spec; apply (H "" c pre); reflexivity). rewrite B.
  apply IH. intros a d b ->. apply (H (String c a) d b). reflexivity.
Qed.
Lemma rstrip_blank s : all_blank s -> rstrip s = "".
Proof.
  induction s as [|c s IH]; intros H; [reflexivity|]. cbn. rewrite IH by (intros a d b ->; apply (H (String c a) d b); reflexivity).
  assert (B : is_space c = true) by (apply is_space_spec; apply (H "" c s); reflexivity). now rewrite B.
Qed.
Lemma rstrip_app s post : all_blank post -> (forall a c, s = a ++ String c "" -> ~ blank c) -> rstrip (s ++ post) = s.
Proof.
  intros HP. induction s as [|c s IH]; intros H; [now apply rstrip_blank|]. cbn.
  rewrite IH by (intros a d ->; apply (H (String c a) d); reflexivity).
  destruct s; [|reflexivity]. destruct (is_space c) eqn:E; [|reflexivity]. apply is_space_spec in E. elim (H "" c eq_refl E).
Qed.
Lemma smap_lower_spec s : lower_of s (smap lower_ascii s).
Proof.
  induction s as [|c s IH]; [constructor|]. cbn. unfold lower_ascii at 1.
  destruct (Nat.leb 65 (nat_of_ascii c) && Nat.leb (nat_of_ascii c) 90) eqn:E.
  - apply andb_true_iff in E as [E1 E2]. apply Nat.leb_le in E1, E2. apply lower_cap; [unfold capital; lia| |exact IH].
    apply nat_ascii_embedding. lia.
  - apply lower_same; [|exact IH]. intros [H1 H2]. apply Nat.leb_le in H1, H2. rewrite H1, H2 in E. discriminate.
Qed.
Fixpoint has_colon (s : string) : bool :=
  match s with EmptyString => false | String c s' => Ascii.eqb c ":" || has_colon s' end.
Lemma has_colon_app a b : has_colon (a ++ b) = has_colon a || has_colon b.
Proof. induction a as [|c a IH]; [reflexivity|]. cbn. now rewrite IH, orb_assoc. Qed.
Lemma no_colon_chars s : (forall x c y, s = x ++ String c y -> c <> ":"%char) -> has_colon s = false.
Proof.
  induction s as [|c s IH]; intros H; [reflexivity|]. cbn. rewrite IH by (intros x d y ->; apply (H (String c x) d y); reflexivity).
  destruct (Ascii.eqb_spec c ":") as [->|]; [|reflexivity]. elim (H "" ":"%char s eq_refl eq_refl).
Qed.
Theorem C16_axes_normalized : forall f a parts cut,
  resolve ["entry_1"; "data_1"; "data"] f = Some (NArr a (Some (String.concat ":" (map (fun p => fst (fst p) ++ snd (fst p) ++ snd p) parts)))) ->
  parts <> [] ->
  (forall p, In p parts -> all_blank (fst (fst p)) /\ all_blank (snd p) /\ trimmed (snd (fst p)) /\
     forall x c y, snd (fst p) = x ++ String c y -> c <> ":"%char) ->
  exists d names, get_data cut f = Ok (d, Some names) /\ length names = length parts /\
    forall i, i < length parts -> lower_of (snd (fst (nth i parts ("", "", "")))) (nth i names "").
Proof.
  intros f a parts cut Hr Hne HP.
  assert (BC : ~ blank ":"%char) by (unfold blank; cbn; lia).
  set (full := fun p : string * string * string => fst (fst p) ++ snd (fst p) ++ snd p) in *.
  assert (SP : split_colon (join (map full parts)) = map full parts).
  { apply join_split_raw; [destruct parts; [contradiction|discriminate]|].
    intros s Hs x y E. apply in_map_iff in Hs as ([[pre core] post] & Es & Hin). destruct (HP _ Hin) as (P1 & P2 & _ & P3).
    cbn [fst snd] in P1, P2, P3. unfold full in Es. cbn [fst snd] in Es.
    assert (HB : forall q, all_blank q -> has_colon q = false).
    { intros q Hq. apply no_colon_chars. intros u c v Eq Ec. subst c. apply BC. exact (Hq u _ v Eq). }
    assert (F : has_colon s = false).
    { rewrite <- Es, !has_colon_app, (HB _ P1), (HB _ P2), (no_colon_chars _ P3). reflexivity. }
    rewrite E, !has_colon_app in F. cbn in F. rewrite orb_true_r in F. discriminate. }
  assert (CL : forall p, In p parts -> clean (full p) = smap lower_ascii (snd (fst p))).
  { intros [[pre core] post] Hin. destruct (HP _ Hin) as (P1 & P2 & [T1 T2] & _). cbn [fst snd] in *.
    unfold clean, full. cbn [fst snd]. f_equal. rewrite (lstrip_app _ _ P1).
    destruct core as [|c core].
    - cbn [append]. rewrite <- (app_nil_s post), (lstrip_app _ _ P2). reflexivity.
    - rewrite lstrip_id; [exact (rstrip_app _ _ P2 T2)|]. intros d b [= <- _]. exact (T1 c core eq_refl). }
  eexists _, (map clean (map full parts)). split; [|split].
  - unfold get_data, contains, getitem, data1. rewrite Hr. cbn [rbind option_map].
    unfold join in SP. rewrite SP. reflexivity.
  - now rewrite !map_length.
  - intros i Hi. rewrite map_map. rewrite nth_indep with (d' := clean (full ("", "", ""))) by (now rewrite map_length).
    rewrite (map_nth (fun x => clean (full x))). rewrite CL by (now apply nth_In). apply smap_lower_spec.
Qed.
Print Assumptions C16_axes_normalized.
Example C16_axes_normalized_case : exists f a, resolve ["entry_1"; "data_1"; "data"] f
    = Some (NArr a (Some (String.concat ":" (map (fun p => fst (fst p) ++ snd (fst p) ++ snd p) [(" ", "Translation", ""); ("", "y", "  ")])))) /\
  get_data true f = Ok (a, Some ["translation"; "y"]).
Proof.
  exists [(data1 "data", NArr (mkC CF32 [0] []) (Some " Translation:y  "))], (mkC CF32 [0] []). split; reflexivity.
Qed.

(** C16: np.float32 keeps every number with a 24-bit significand (all integers up to 2^24 in
    absolute value, scaled by any power of two down to 2^-149) and moves any other number by at
    most a relative 2^-24 (normal range). *)
Theorem C16_float32_precision :
  (forall m e, (Z.abs m < 2 ^ 24)%Z -> (-149 <= e)%Z -> f32 (IZR m * bpow radix2 e) = (IZR m * bpow radix2 e)%R) /\
  (forall x, (bpow radix2 (-126) <= Rabs x)%R -> (Rabs (f32 x - x) <= bpow radix2 (-24) * Rabs x)%R).
Proof.
  split.
  - intros m e Hm He. unfold f32. apply round_generic; [apply valid_rnd_N|].
    apply generic_format_FLT. exists (Float radix2 m e); [reflexivity|exact Hm|exact He].
  - intros x Hx. assert (P : Prec_gt_0 24) by reflexivity.
    pose proof (relative_error_N_FLT radix2 (-149) 24 P (fun x => negb (Z.even x)) x) as RE.
    assert (B : bpow radix2 (-24) = (/ 2 * bpow radix2 (- 24 + 1))%R) by (cbn; lra).
    rewrite B. apply RE. exact Hx.
Qed.
Print Assumptions C16_float32_precision.
