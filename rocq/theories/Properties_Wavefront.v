(** C93: plot_wavefront_variation. *)
From Verif Require Import Base FinSum Fourier Matrix Model_Prop Model_Meas Model_Analysis Spec_Analysis Proofs_Ortho Properties_Ortho Model_Browse Spec_Browse Properties_Browse Model_Wavefront.
From Verif Require Model_Frame.
From Coq Require Import FunctionalExtensionality.
From Coquelicot Require Import Complex.
Local Open Scope C_scope.

(** The light of an exposure: its m modes on the basis probes, inside the support. *)
Definition light (l : nat) (probe : nat -> img) (support : rimg) (w : nat -> mat) (s : nat) : nat -> img :=
  fun a i j => csum l (fun q => w s a q * (probe q i j * RtoC (support i j))).
(** The mode is given in any case. *)
Definition mode_is (mode name : string) : Prop := Model_Frame.lower mode = name.

Section C93.
Variables (L : linalg) (l H W : nat) (probe : nat -> img) (support : rimg).
Notation plot := (plot_wavefront_variation L l H W probe support).
Notation light := (light l probe support).
(** The library is right about the modes of every exposure (C42_library_exists). *)
Definition right_for (n m : nat) (w : nat -> mat) : Prop := forall s, (s < n)%nat -> ortho_right L m H W (light w s) None.

Lemma values_length ws values : all_intensities l H W probe ws = Ok values -> List.length values = match ws with NoWeights => 0 | Factors N _ => N | Matrices N _ _ => N end%nat.
Proof. destruct ws; intros E; [discriminate| |]; injection E as <-; rewrite map_length, seq_length; reflexivity. Qed.

(** The colour of a point is the light of that exposure relative to the light of the basis probes, both without support. *)
Definition map_value (m : nat) (w : nat -> mat) (s : nat) : R :=
  (total_power H W m (fun a i j => csum l (fun c => w s a c * probe c i j)%C) / total_power H W l probe)%R.
Lemma map_values m w n : (0 < total_power H W l probe)%R ->
  map (fun s => get_probe_intensities m l H W w probe s) (seq 0 n) = map (map_value m w) (seq 0 n).
Proof. intros P. apply map_ext. intros s. apply C53_probe_intensities, P. Qed.

(** C93: amplitudes and phases: after any history the picture is of mode k of exposure p, of modes that are orthogonal,
    strongest first, and together the light of that exposure. *)
Theorem C93_modes : forall (phase : bool) mode n m w es, mode_is mode (if phase then "phase" else "amplitude") ->
  (1 <= n)%nat -> (1 <= m)%nat -> (1 <= H * W)%nat -> (0 < total_power H W l probe)%R -> right_for n m w -> Forall (npossible n) es ->
  let K := Nat.min m (H * W) in
  exists v o p k pic modes, plot n mode (Matrices n m w) es = Ok (map (map_value m w) (seq 0 n), (v, o)) /\ Forall (eq (Ok tt)) o /\
    (p, k) = fold_left (fun s e => nideal n K true e s) es (0, 0)%Z /\ (0 <= p < Z.of_nat n)%Z /\ (0 <= k < Z.of_nat K)%Z /\
    val v = p /\ marked v = p /\ image_idx v = Some k /\ display v = Some pic /\
    same_coherence H W K modes m (light w (Z.to_nat p)) /\ orthogonal_decreasing H W K modes /\
    forall i j, pic i j = if phase then angle (modes (Z.to_nat k) i j) else Cmod (modes (Z.to_nat k) i j).
Proof.
  intros phase mode n m w es M Hn Hm HW P Rt F K. unfold plot_wavefront_variation, plot_with. cbn [all_intensities rbind]. rewrite (map_values m w n P).
  destruct (Nat.eqb_spec n 0); [lia|]. rewrite map_length, seq_length, Nat.eqb_refl. cbn [negb].
  set (sh := fun z : C => if phase then angle z else Cmod z).
  set (mds := fun s => snd (exposure_modes L l H W probe support m w s)).
  set (imgs := fun (s a : nat) => (fun i j => sh (mds s a i j)) : rimg).
  assert (G : forall s, get_probes L l H W probe support mode m w s = Some (Many (map (imgs s) (seq 0 K)))).
  { intros s. unfold get_probes. assert (C : fst (exposure_modes L l H W probe support m w s) = K) by (unfold exposure_modes, K; apply (C42_mode_count L m H W _ None)).
    unfold imgs, mds. destruct (exposure_modes L l H W probe support m w s) as [k o]. cbn [fst snd] in *. subst k. unfold mode_is in M. rewrite M. unfold sh. destruct phase; reflexivity. }
  rewrite G.
  assert (IE : (fun i => match get_probes L l H W probe support mode m w i with Some x => x | None => Many nil end) = (fun i => Many (map (imgs i) (seq 0 K)))).
  { apply functional_extensionality. intros i. rewrite G. reflexivity. }
  rewrite IE. pose proof (C85_nanomap_stacks n K imgs es Hn ltac:(unfold K; lia) F) as S. cbv zeta in S.
  destruct (nrun n (fun i => Many (map (imgs i) (seq 0 K))) es (fst (Model_Browse.open (fun i => Many (map (imgs i) (seq 0 K)))))) as [v o] eqn:ER.
  destruct (fold_left (fun s e => nideal n K true e s) es (0, 0)%Z) as [p k] eqn:EF. destruct S as (S1 & S2 & S3 & S4 & S5). rewrite S1. cbn [rbind].
  exists v, o, p, k, (imgs (Z.to_nat p) (Z.to_nat k)), (mds (Z.to_nat p)).
  split; [reflexivity|]. split; [exact S2|]. split; [reflexivity|]. split; [exact S3|]. split; [exact S4|]. subst v. cbn [val marked display image_idx].
  split; [reflexivity|]. split; [reflexivity|]. split; [reflexivity|]. split; [reflexivity|].
  enough (X : same_coherence H W K (mds (Z.to_nat p)) m (light w (Z.to_nat p)) /\ orthogonal_decreasing H W K (mds (Z.to_nat p))) by (destruct X; split; [assumption|split; [assumption|reflexivity]]).
  pose proof (C42_same_coherence L m H W (light w (Z.to_nat p)) None (Rt (Z.to_nat p) ltac:(lia))) as Q.
  pose proof (C42_mode_count L m H W (light w (Z.to_nat p)) None) as QC.
  unfold mds, exposure_modes. change (weighted l (w (Z.to_nat p)) (fun q i j => probe q i j * RtoC (support i j))) with (light w (Z.to_nat p)).
  destruct (orthogonalize_probes L m H W (light w (Z.to_nat p)) None) as [[k' modes] U]. cbn [fst snd] in *. rewrite QC in Q. cbn [field fst snd] in Q. exact Q.
Qed.

(** C93: intensities: the picture is the total intensity of the exposure's light, pixel by pixel, whatever modes it is
    made of; with the wheel or keys over the picture one goes through the exposures, too. *)
Theorem C93_intensity : forall mode n m w es, mode_is mode "root_sum_intensity" ->
  (1 <= n)%nat -> (0 < total_power H W l probe)%R -> right_for n m w -> Forall (npossible n) es ->
  exists v o p pic, plot n mode (Matrices n m w) es = Ok (map (map_value m w) (seq 0 n), (v, o)) /\ Forall (eq (Ok tt)) o /\
    p = fst (fold_left (fun s e => nideal n 1 false e s) es (0, 0)%Z) /\ (0 <= p < Z.of_nat n)%Z /\
    val v = p /\ marked v = p /\ display v = Some pic /\
    forall i j, (i < H)%nat -> (j < W)%nat -> pic i j = rsum m (fun a => Cmod (light w (Z.to_nat p) a i j) ^ 2)%R.
Proof.
  intros mode n m w es M Hn P Rt F. unfold plot_wavefront_variation, plot_with. cbn [all_intensities rbind]. rewrite (map_values m w n P).
  destruct (Nat.eqb_spec n 0); [lia|]. rewrite map_length, seq_length, Nat.eqb_refl. cbn [negb].
  set (im := fun s => (fun i j => rsum (fst (exposure_modes L l H W probe support m w s)) (fun a => Cmod (snd (exposure_modes L l H W probe support m w s) a i j) ^ 2)%R) : rimg).
  assert (G : forall s, get_probes L l H W probe support mode m w s = Some (One (im s))).
  { intros s. unfold get_probes, im. destruct (exposure_modes L l H W probe support m w s) as [k o]. cbn [fst snd] in *. unfold mode_is in M. rewrite M. reflexivity. }
  rewrite G.
  assert (IE : (fun i => match get_probes L l H W probe support mode m w i with Some x => x | None => Many nil end) = (fun i => One (im i))).
  { apply functional_extensionality. intros i. rewrite G. reflexivity. }
  rewrite IE. pose proof (C85_nanomap_single n im es Hn F) as S. cbv zeta in S.
  destruct (nrun n (fun i => One (im i)) es (fst (Model_Browse.open (fun i => One (im i))))) as [v o] eqn:ER.
  destruct (fold_left (fun s e => nideal n 1 false e s) es (0, 0)%Z) as [p k] eqn:EF. destruct S as (S1 & S2 & S3 & S5). rewrite S1. cbn [rbind].
  exists v, o, p, (im (Z.to_nat p)).
  split; [reflexivity|]. split; [exact S2|]. split; [reflexivity|]. split; [exact S3|]. subst v. cbn [val marked display].
  split; [reflexivity|]. split; [reflexivity|]. split; [reflexivity|]. intros i j Hi Hj.
  pose proof (C42_same_intensity L m H W (light w (Z.to_nat p)) None i j (Rt (Z.to_nat p) ltac:(lia)) Hi Hj) as Q.
  unfold im, exposure_modes. change (weighted l (w (Z.to_nat p)) (fun q i j => probe q i j * RtoC (support i j))) with (light w (Z.to_nat p)).
  destruct (orthogonalize_probes L m H W (light w (Z.to_nat p)) None) as [[k' modes] U]. cbn [fst snd field] in *. exact Q.
Qed.
(** But no root is taken, although the mode is called root_sum_intensity and the colour bar "Square Root of Intensity". *)
Theorem C93_root_refuted : forall mode n m w i j, mode_is mode "root_sum_intensity" -> (1 <= n)%nat -> (0 < total_power H W l probe)%R -> right_for n m w ->
  (i < H)%nat -> (j < W)%nat -> let total := rsum m (fun a => Cmod (light w 0 a i j) ^ 2)%R in (0 < total)%R -> total <> 1%R ->
  exists values v pic, plot n mode (Matrices n m w) [] = Ok (values, (v, [])) /\ display v = Some pic /\ pic i j <> sqrt total.
Proof.
  intros mode n m w i j M Hn P Rt Hi Hj total T1 T2. destruct (C93_intensity mode n m w [] M Hn P Rt (Forall_nil _)) as (v & o & p & pic & E & _ & Ep & _ & _ & _ & D & V).
  cbn in Ep. subst p. assert (o = []). { pose proof E as E'. unfold plot_wavefront_variation, plot_with in E'. cbn [all_intensities rbind] in E'. destruct (Nat.eqb n 0); [discriminate|]. destruct (negb _); [discriminate|].
    destruct (get_probes _ _ _ _ _ _ _ _ _ _); [|discriminate]. cbn [nrun] in E'. destruct (snd _); cbn [rbind] in E'; [|discriminate]. injection E'. auto. }
  subst o. eexists _, v, pic. split; [exact E|]. split; [exact D|]. rewrite (V i j Hi Hj). change (Z.to_nat 0) with 0%nat. fold total. intros Q.
  assert (S : (total * total = total)%R) by (rewrite Q at 1 2; apply sqrt_sqrt; lra). apply T2. nra.
Qed.
(** The map leaves out the support: with nothing inside it no exposure has any light, but the map does not change. *)
Theorem C93_map_support_refuted : forall mode n m w, mode_is mode "root_sum_intensity" -> (1 <= n)%nat -> (0 < total_power H W l probe)%R -> right_for n m w ->
  (forall i j, support i j = 0%R) ->
  exists v pic, plot n mode (Matrices n m w) [] = Ok (map (map_value m w) (seq 0 n), (v, [])) /\ display v = Some pic /\
    forall i j, (i < H)%nat -> (j < W)%nat -> pic i j = 0%R.
Proof.
  intros mode n m w M Hn P Rt Z0. destruct (C93_intensity mode n m w [] M Hn P Rt (Forall_nil _)) as (v & o & p & pic & E & _ & Ep & _ & _ & _ & D & V).
  assert (o = []). { pose proof E as E'. unfold plot_wavefront_variation, plot_with in E'. cbn [all_intensities rbind] in E'. destruct (Nat.eqb n 0); [discriminate|]. destruct (negb _); [discriminate|].
    destruct (get_probes _ _ _ _ _ _ _ _ _ _); [|discriminate]. cbn [nrun] in E'. destruct (snd _); cbn [rbind] in E'; [|discriminate]. injection E'. auto. }
  subst o. exists v, pic. split; [exact E|]. split; [exact D|]. intros i j Hi Hj. rewrite (V i j Hi Hj). apply rsum_zero'. intros a _. unfold Properties_Wavefront.light.
  rewrite csum_zero'; [rewrite Cmod_0; ring|]. intros q _. rewrite Z0. ring.
Qed.
(** C93: MultislicePtycho's differs in the colours only, which are the light of the exposures itself (without support). *)
Theorem C93_multislice : forall n mode m w es, (1 <= n)%nat -> (0 < total_power H W l probe)%R ->
  plot_wavefront_variation_multislice L l H W probe support n mode n m w es =
  rmap (fun r => (map (fun s => total_power H W m (fun a i j => csum l (fun c => w s a c * probe c i j)%C)) (seq 0 n), snd r)) (plot n mode (Matrices n m w) es).
Proof.
  intros n mode m w es Hn P. unfold plot_wavefront_variation_multislice, plot_wavefront_variation, plot_with. cbn [all_intensities rbind].
  assert (V : total_intensities l H W probe n m w = map (fun s => total_power H W m (fun a i j => csum l (fun c => w s a c * probe c i j)%C)) (seq 0 n)).
  { unfold total_intensities. apply map_ext. intros s.
    pose proof (C53_probe_intensities m l H W w probe s P) as E. unfold get_probe_intensities in E.
    assert (T1 : csum l (fun a => probe_matrix H W probe a a) = RtoC (total_power H W l probe)).
    { unfold total_power. rewrite <- csum_RtoC. apply csum_ext. intros a _. unfold probe_matrix, icsum, power. rewrite <- csum_RtoC. apply csum_ext. intros i _. rewrite <- csum_RtoC. apply csum_ext. intros j _. unfold nrm2. destruct (probe a i j) as [x y]. unfold Cmult, Cconj, RtoC. cbn. f_equal; ring. }
    rewrite T1 in E. rewrite <- (Re_csum m). set (X := csum m _) in *. set (T := total_power H W m _) in *.
    assert (D : (Re X / total_power H W l probe = T / total_power H W l probe)%R) by (rewrite <- E; unfold Cdiv, Re; rewrite <- RtoC_inv by lra; destruct X as [x y]; cbn; unfold Rdiv; ring).
    apply (f_equal (fun z => (z * total_power H W l probe)%R)) in D. unfold Rdiv in D. rewrite !Rmult_assoc, !Rinv_l, !Rmult_1_r in D by lra. exact D. }
  rewrite V, !map_length, !seq_length, Nat.eqb_refl. destruct (Nat.eqb_spec n 0); [lia|]. cbn [negb].
  destruct (get_probes _ _ _ _ _ _ _ _ _ _); [|reflexivity]. destruct (snd _); reflexivity.
Qed.
(** C93: what raises. *)
Theorem C93_errors : forall n mode ws es,
  (ws = NoWeights -> plot n mode ws es = Raise NotImplementedError) /\
  (forall N f, ws = Factors N f -> exists e, plot n mode ws es = Raise e) /\
  (forall N m w, ws = Matrices N m w -> n <> N -> (1 <= n)%nat -> plot n mode ws es = Raise ValueError) /\
  (forall m w, ws = Matrices n m w -> (1 <= n)%nat -> ~ mode_is mode "amplitude" -> ~ mode_is mode "phase" -> ~ mode_is mode "root_sum_intensity" ->
     plot n mode ws es = Raise AttributeError).
Proof.
  intros n mode ws es. split; [intros ->; reflexivity|]. split; [|split].
  - intros N f ->. unfold plot_wavefront_variation, plot_with. cbn [all_intensities rbind]. destruct (Nat.eqb n 0); [eauto|]. destruct (negb _); eauto.
  - intros N m w -> NE Hn. unfold plot_wavefront_variation, plot_with. cbn [all_intensities rbind]. rewrite map_length, seq_length. destruct (Nat.eqb_spec n 0); [lia|]. destruct (Nat.eqb_spec N n); [lia|]. reflexivity.
  - intros m w -> Hn A B C. unfold plot_wavefront_variation, plot_with. cbn [all_intensities rbind]. rewrite map_length, seq_length, Nat.eqb_refl. destruct (Nat.eqb_spec n 0); [lia|]. cbn [negb].
    unfold get_probes. destruct (exposure_modes L l H W probe support m w 0) as [k o]. unfold mode_is in A, B, C.
    destruct (String.eqb_spec (Model_Frame.lower mode) "amplitude"); [contradiction|]. destruct (String.eqb_spec (Model_Frame.lower mode) "root_sum_intensity"); [contradiction|].
    destruct (String.eqb_spec (Model_Frame.lower mode) "phase"); [contradiction|]. reflexivity.
Qed.
End C93.
Print Assumptions C93_modes.
Print Assumptions C93_intensity.
Print Assumptions C93_root_refuted.
Print Assumptions C93_map_support_refuted.
Print Assumptions C93_errors.
Print Assumptions C93_multislice.

(** A concrete case: two exposures with one mode each on two 1 x 2 probes.  Libraries that are right exist
    (C42_library_exists). *)
Example C93_example :
  let probe : nat -> img := fun q i j => if Nat.eqb q j then RtoC 2 else RtoC 0 in let w : nat -> mat := fun s a q => RtoC (INR (s + q)) in
  mode_is "Root_Sum_Intensity" "root_sum_intensity" /\ mode_is "PHASE" "phase" /\ (0 < total_power 1 2 2 probe)%R /\
  rsum 1 (fun a => Cmod (light 2 probe (fun _ _ => 1%R) w 0%nat a 0%nat 1%nat) ^ 2)%R = 4%R /\
  fold_left (fun s e => nideal 2 3 true e s) [Action false 1; Action true (-1); Pick 0; Action true (-1)] (0, 0)%Z = (0, 1)%Z.
Proof.
  cbv zeta. split; [reflexivity|]. split; [reflexivity|]. split; [|split; [|reflexivity]].
  - unfold total_power, power, nrm2. cbn. lra.
  - unfold light, csum, rsum. cbn. rewrite Rplus_0_l. replace (_ : C) with (RtoC 2) by (unfold Cmult, Cplus, RtoC; cbn; f_equal; ring). rewrite Cmod_R, Rabs_pos_eq by lra. ring.
Qed.
