(** C81: synthesize_reconstructions. *)
From Verif Require Import Base FinSum Fourier Matrix Model_Prop Spec_Prop Proofs_Prop Model_Meas Model_Interact Model_Geom Model_Image Spec_Image Proofs_Image Properties_Image
  Model_Shift Properties_Shift Model_Analysis Spec_Analysis Proofs_Ortho Proofs_Standard Proofs_Metrics Proofs_FRC Properties_Standard Properties_Metrics Model_Sets Spec_Sets Proofs_Sets Properties_Sets
  Model_Synth Spec_Synth.
From Coquelicot Require Import Complex.
From Coq Require Import FunctionalExtensionality.
Local Open Scope C_scope.

Lemma clip_chosen H W sl : clip2 H W (match sl with Some s => s | None => (default_slice H, default_slice W) end) = clip2 H W (chosen H W sl).
Proof. destruct sl; reflexivity. Qed.
Lemma total_app {A} (f : A -> C) l a : total f (l ++ [a]) = total f l + f a.
Proof. induction l as [|b l IH]; cbn [app total fold_right]; [ring|]. unfold total in IH. rewrite IH. ring. Qed.
Lemma total_map {A B} (f : B -> C) (g : A -> B) l : total f (map g l) = total (fun a => f (g a)) l.
Proof. induction l as [|a l IH]; [reflexivity|]. cbn [map total fold_right]. unfold total in IH. now rewrite IH. Qed.
Lemma total_forall2 {A B} (R : A -> B -> Prop) f g l m : Forall2 R l m -> (forall a b, R a b -> f a = g b) -> total f l = total g m.
Proof. intros F E. induction F as [|a b l m Q F IH]; [reflexivity|]. cbn [total fold_right]. unfold total in IH. now rewrite IH, (E a b Q). Qed.
Lemma Forall2_length {A B} (R : A -> B -> Prop) l m : Forall2 R l m -> length l = length m.
Proof. intros F. induction F; cbn; congruence. Qed.
(** The standard form. *)
Lemma standard_is H W s r p o : (0 < q_h p)%nat -> (0 < q_w p)%nat -> (0 < power (q_h p) (q_w p) (q_data p 0%nat))%R ->
  standard_form (q_h p) (q_w p) H W s (q_data p) (o_data o) (q_data (fst (standard H W (clip2 H W s) r p o))) (snd (standard H W (clip2 H W s) r p o)).
Proof.
  intros Hh Hw P. unfold standard. cbn [fst snd q_data]. set (sl := Some (clip2 H W s)).
  split; [|split; [|split]].
  - intros k a b. exact (C43_standardize_exit_waves (q_h p) (q_w p) H W (q_data p) (o_data o) sl r k a b Hh Hw P).
  - pose proof (proj1 (C43_standardize_intensity (q_h p) (q_w p) H W (q_data p) (o_data o) sl r Hh Hw P)) as I.
    assert (NP : (0 < INR (q_h p * q_w p))%R) by (apply lt_0_INR; nia).
    apply (f_equal (fun x => (x * INR (q_h p * q_w p))%R)) in I. rewrite Rmult_1_l in I. rewrite <- I. field. lra.
  - pose proof (C43_standardize_phases (q_h p) (q_w p) H W (q_data p) (o_data o) sl r) as I. cbn [sl] in I.
    destruct (clip2 H W s) as [[r0 r1] [c0 c1]]. exact (proj1 I).
  - pose proof (C43_standardize_phases (q_h p) (q_w p) H W (q_data p) (o_data o) sl r) as I. cbn [sl] in I.
    rewrite window_total_cut. destruct s as [[r0 r1] [c0 c1]]. exact (proj2 I).
Qed.
(** What the loop keeps. *)
Definition loop_kept (H W : nat) (s : region) (h w : nat) (done : list (probe_array * obj_array)) (al : list aligned) (acc : probe_array * img * list img) : Prop :=
  let '(sp, so, stack) := acc in
  Forall2 (fun po a => q_h (fst po) = h /\ q_w (fst po) = w /\ standard_form h w H W s (q_data (fst po)) (o_data (snd po)) (a_probe a) (a_obj a)) done al /\
  Forall2 (fun a x => same H W x (moved H W (a_shift a) (a_obj a))) al stack /\
  (forall i j, so i j = total (fun x : img => x i j) stack) /\
  q_h sp = h /\ q_w sp = w /\ forall k, same h w (q_data sp k) (fun i j => total (fun a => moved h w (a_shift a) (a_probe a k) i j) al).
Lemma find_shift_grid N M x y s : (30 <= N)%nat -> (30 <= M)%nat -> find_shift N M x y 50 = Ok s -> fiftieths (fst s) /\ fiftieths (snd s).
Proof.
  intros HN HM E. unfold find_shift in E. destruct (C72_grid N M x y _ 50 s HN HM ltac:(lia) E) as (p & q & P & Q & _).
  replace (INR 50) with 50%R in P, Q by (rewrite INR_IZR_INZ; reflexivity).
  split; [exists (fst (find_pixel_shift N M x y) * 50 + p)%Z|exists (snd (find_pixel_shift N M x y) * 50 + q)%Z]; [rewrite P|rewrite Q]; rewrite plus_IZR, mult_IZR; field.
Qed.
Lemma loop_mean H W up s r h w : forall pos done al acc out,
  (forall po, In po pos -> (0 < q_h (fst po))%nat /\ (0 < q_w (fst po))%nat /\ (0 < power (q_h (fst po)) (q_w (fst po)) (q_data (fst po) 0%nat))%R) ->
  loop_kept H W s h w done al acc -> synth_loop H W up (clip2 H W s) r pos acc = Ok out ->
  exists al', loop_kept H W s h w (done ++ pos) (al ++ al') out /\
  (((if up then (30 <= h)%nat /\ (30 <= w)%nat else (30 <= reg_H (clip2 H W s))%nat /\ (30 <= reg_W (clip2 H W s))%nat)) ->
   Forall (fun a => fiftieths (fst (a_shift a)) /\ fiftieths (snd (a_shift a))) al').
Proof.
  induction pos as [|po pos IH]; intros done al acc out Pos K E.
  - injection E as <-. exists []. rewrite !app_nil_r. split; [exact K|]. intros _. constructor.
  - cbn [synth_loop] in E. destruct (synth_step H W up (clip2 H W s) r acc po) as [acc'|] eqn:ST; [|discriminate]. cbn [rbind] in E.
    destruct (Pos po (or_introl eq_refl)) as (Hh & Hw & PP).
    assert (Q : exists a, loop_kept H W s h w (done ++ [po]) (al ++ [a]) acc' /\
      ((if up then (30 <= h)%nat /\ (30 <= w)%nat else (30 <= reg_H (clip2 H W s))%nat /\ (30 <= reg_W (clip2 H W s))%nat) -> fiftieths (fst (a_shift a)) /\ fiftieths (snd (a_shift a)))).
    { destruct acc as [[sp so] stack]. unfold synth_step in ST. pose proof (standard_is H W s r (fst po) (snd po) Hh Hw PP) as SF.
      assert (SD : q_h (fst (standard H W (clip2 H W s) r (fst po) (snd po))) = q_h (fst po) /\ q_w (fst (standard H W (clip2 H W s) r (fst po) (snd po))) = q_w (fst po)) by (split; reflexivity).
      destruct (standard H W (clip2 H W s) r (fst po) (snd po)) as [p o]. cbn [fst snd] in SF, SD. destruct SD as [SD1 SD2].
      destruct (synth_shift up (clip2 H W s) sp so p o) as [sh|] eqn:SH; [|discriminate]. cbn [rbind] in ST.
      destruct (same_shape sp p) eqn:SS; [|discriminate]. injection ST as <-.
      unfold same_shape in SS. rewrite !andb_true_iff, !Nat.eqb_eq in SS. destruct SS as [[[_ _] EH] EW].
      destruct K as (F1 & F2 & SO & QH & QW & QD). exists {| a_probe := q_data p; a_obj := o; a_shift := sh |}. split.
      - unfold loop_kept. split; [|split; [|split; [|split; [|split]]]].
        + apply Forall2_app; [exact F1|]. constructor; [|constructor]. split; [congruence|]. split; [congruence|]. cbn [a_probe a_obj]. rewrite <- SD1, <- SD2, <- EH, <- EW, QH, QW in SF. exact SF.
        + apply Forall2_app; [exact F2|]. constructor; [|constructor]. intros i j _ _. reflexivity.
        + intros i j. rewrite total_app, SO. reflexivity.
        + exact QH.
        + exact QW.
        + intros k i j Hi Hj. cbn [q_data]. rewrite (QD k i j Hi Hj), total_app. cbn [a_shift a_probe]. rewrite <- EH, <- EW, QH, QW. reflexivity.
      - intros Big. cbn [a_shift]. unfold synth_shift in SH. destruct up.
        + destruct (q_2d sp || q_2d p)%bool; [discriminate|]. destruct (Nat.eqb (q_h sp) (q_h p) && Nat.eqb (q_w sp) (q_w p))%bool; [|discriminate].
          rewrite QH, QW in SH. exact (find_shift_grid h w _ _ sh (proj1 Big) (proj2 Big) SH).
        + exact (find_shift_grid _ _ _ _ sh (proj1 Big) (proj2 Big) SH). }
    destruct Q as (a & K' & B). destruct (IH (done ++ [po]) (al ++ [a]) acc' out (fun q Hq => Pos q (or_intror Hq)) K' E) as (al' & KK & BB).
    exists (a :: al'). rewrite <- !app_assoc in KK. split; [exact KK|]. intros Big. constructor; [exact (B Big)|exact (BB Big)].
Qed.
(** C81: a successful call: every reconstruction is brought to standard form (in the region asked for, by default
    3/8 to 5/8 of the common size) and moved as a whole, the first one not at all, the others by whole fiftieths of a
    pixel; the returned objects are these, the synthesized object is their mean, the synthesized probe is the mean of
    the probes, mode by mode.  If one list is longer, what is left of it only counts for the common size. *)
Theorem C81_mean : forall probes objects up sl r sp so stack,
  synthesize_reconstructions probes objects up sl r = Ok (sp, so, stack) ->
  (forall p, In p probes -> (0 < q_h p)%nat /\ (0 < q_w p)%nat /\ (0 < power (q_h p) (q_w p) (q_data p 0%nat))%R) ->
  exists H W, (forall o, In o objects -> (H <= o_H o)%nat /\ (W <= o_W o)%nat) /\ (exists o, In o objects /\ o_H o = H) /\ (exists o, In o objects /\ o_W o = W) /\
  let h := q_h sp in let w := q_w sp in
  exists al : list aligned,
    Forall2 (fun po a => q_h (fst po) = h /\ q_w (fst po) = w /\ standard_form h w H W (chosen H W sl) (q_data (fst po)) (o_data (snd po)) (a_probe a) (a_obj a)) (combine probes objects) al /\
    Forall2 (fun a x => same H W x (moved H W (a_shift a) (a_obj a))) al stack /\
    (forall i j, so i j = total (fun x : img => x i j) stack / RtoC (INR (length stack))) /\
    (forall k, same h w (q_data sp k) (fun i j => total (fun a => moved h w (a_shift a) (a_probe a k) i j) al / RtoC (INR (length stack)))) /\
    exists a0 al', al = a0 :: al' /\ a_shift a0 = (0, 0)%R /\
    ((if up then (30 <= h)%nat /\ (30 <= w)%nat else (30 <= reg_H (clip2 H W (chosen H W sl)))%nat /\ (30 <= reg_W (clip2 H W (chosen H W sl)))%nat) ->
     Forall (fun a => fiftieths (fst (a_shift a)) /\ fiftieths (snd (a_shift a))) al').
Proof.
  intros probes objects up sl r sp so stack E Pos. destruct probes as [|p ps]; [discriminate|]. destruct objects as [|o os]; [discriminate|].
  exists (min_H (o :: os)), (min_W (o :: os)).
  assert (FM : forall l a, (fold_left Nat.min l a <= a)%nat /\ (forall x, In x l -> (fold_left Nat.min l a <= x)%nat) /\ (fold_left Nat.min l a = a \/ In (fold_left Nat.min l a) l)).
  { induction l as [|x l IH]; intros a; cbn [fold_left]; [split; [lia|split; [intros ? []|now left]]|]. destruct (IH (Nat.min a x)) as (A & B & C). split; [lia|]. split.
    - intros y [<-|Hy]; [lia|now apply B].
    - destruct C as [C|C]; [|right; now right]. rewrite C. destruct (Nat.min_dec a x) as [D|D]; rewrite D; [now left|right; now left]. }
  split; [|split; [|split]].
  - intros q Hq. cbn [min_H min_W]. destruct (FM (map o_H os) (o_H o)) as (A & B & _). destruct (FM (map o_W os) (o_W o)) as (A' & B' & _).
    destruct Hq as [<-|Hq]; [lia|]. split; [apply B|apply B']; apply in_map; exact Hq.
  - cbn [min_H]. destruct (FM (map o_H os) (o_H o)) as (_ & _ & [C|C]); [exists o; split; [now left|auto]|]. apply in_map_iff in C. destruct C as (q & Q & I). exists q. split; [now right|exact Q].
  - cbn [min_W]. destruct (FM (map o_W os) (o_W o)) as (_ & _ & [C|C]); [exists o; split; [now left|auto]|]. apply in_map_iff in C. destruct C as (q & Q & I). exists q. split; [now right|exact Q].
  - unfold synthesize_reconstructions in E. set (H := min_H (o :: os)) in *. set (W := min_W (o :: os)) in *. rewrite clip_chosen in E. set (s := chosen H W sl) in *.
    destruct (Pos p (or_introl eq_refl)) as (Hh & Hw & PP). pose proof (standard_is H W s r p o Hh Hw PP) as SF.
    assert (SD : q_h (fst (standard H W (clip2 H W s) r p o)) = q_h p /\ q_w (fst (standard H W (clip2 H W s) r p o)) = q_w p) by (split; reflexivity).
    destruct (standard H W (clip2 H W s) r p o) as [sp0 so0]. cbn [fst snd] in SF, SD. destruct SD as [SD1 SD2].
    destruct (synth_loop H W up (clip2 H W s) r (combine ps os) (sp0, so0, [so0])) as [[[sp1 so1] st1]|] eqn:LP; [|discriminate]. cbn [rbind] in E.
    injection E as <- <- <-. cbn [q_h q_w q_data].
    destruct (loop_mean H W up s r (q_h p) (q_w p) (combine ps os) [(p, o)] [{| a_probe := q_data sp0; a_obj := so0; a_shift := (0, 0)%R |}] (sp0, so0, [so0]) (sp1, so1, st1)) as (al' & KK & BB).
    + intros [p' o'] Hin. apply Pos. right. now apply in_combine_l in Hin.
    + unfold loop_kept. split; [|split; [|split; [|split; [|split]]]].
      * constructor; [|constructor]. split; [reflexivity|]. split; [reflexivity|exact SF].
      * constructor; [|constructor]. cbn [a_shift a_obj]. intros i j Hi Hj. symmetry. apply (shift_by_0 H W so0); lia || assumption.
      * intros i j. cbn [total fold_right]. ring.
      * exact SD1.
      * exact SD2.
      * intros k i j Hi Hj. cbn [total fold_right a_shift a_probe]. rewrite Cplus_0_r. symmetry. exact (shift_by_0 (q_h p) (q_w p) (q_data sp0 k) Hh Hw i j Hi Hj).
    + exact LP.
    + destruct KK as (F1 & F2 & SO & QH & QW & QD). assert (LN : length st1 = (length (combine ps os) + 1)%nat).
      { rewrite <- (Forall2_length _ _ _ F2), <- (Forall2_length _ _ _ F1). cbn [app length]. lia. }
      rewrite <- LN. exists ([{| a_probe := q_data sp0; a_obj := so0; a_shift := (0, 0)%R |}] ++ al').
      split; [|split; [|split; [|split]]].
      * rewrite QH, QW. exact F1.
      * exact F2.
      * intros i j. now rewrite SO.
      * intros k i j Hi Hj. rewrite QH in Hi. rewrite QW in Hj. rewrite (QD k i j Hi Hj), QH, QW. reflexivity.
      * eexists. exists al'. split; [reflexivity|]. split; [reflexivity|]. rewrite QH, QW. exact BB.
Qed.
Print Assumptions C81_mean.
(** ---- success ---- *)
Lemma find_shift_50 N M x y : (30 <= N)%nat -> (30 <= M)%nat -> exists s, find_shift N M x y 50 = Ok s.
Proof.
  intros HN HM. unfold find_shift, find_subpixel_shift, subpixel. rewrite !(Nat.min_r _ (2 * 15)) by lia. cbv zeta.
  assert (A : assignable 15 (2 * 15) 50 = true) by reflexivity. rewrite A. cbn [andb]. eexists. reflexivity.
Qed.
Definition shaped (p0 p : probe_array) : Prop := q_2d p = q_2d p0 /\ q_l p = q_l p0 /\ q_h p = q_h p0 /\ q_w p = q_w p0.
Lemma shaped_same sp p0 p : shaped p0 sp -> shaped p0 p -> same_shape sp p = true.
Proof.
  intros (A & B & C & D) (A' & B' & C' & D'). unfold same_shape. rewrite A, A', B, B', C, C', D, D', !Nat.eqb_refl. now destruct (q_2d p0).
Qed.
Lemma loop_succeeds H W (up : bool) s r (p0 : probe_array) : (if up then q_2d p0 = false /\ (30 <= q_h p0)%nat /\ (30 <= q_w p0)%nat else (30 <= reg_H s)%nat /\ (30 <= reg_W s)%nat) ->
  forall pos acc, shaped p0 (fst (fst acc)) -> (forall po, In po pos -> shaped p0 (fst po)) -> exists out, synth_loop H W up s r pos acc = Ok out.
Proof.
  intros Big. induction pos as [|po pos IH]; intros acc SA SP; [now exists acc|]. cbn [synth_loop].
  destruct acc as [[sp so] stack]. cbn [fst] in SA. pose proof (SP po (or_introl eq_refl)) as Spo. unfold synth_step.
  assert (SD : shaped p0 (fst (standard H W s r (fst po) (snd po)))) by exact Spo.
  destruct (standard H W s r (fst po) (snd po)) as [p o]. cbn [fst] in SD.
  assert (SH : exists sh, synth_shift up s sp so p o = Ok sh).
  { unfold synth_shift. destruct up.
    - destruct SA as (A & B & C & D), SD as (A' & B' & C' & D'), Big as (E & F & G). rewrite A, A', E. cbn [orb]. rewrite C, C', D, D', !Nat.eqb_refl. cbn [andb]. now apply find_shift_50.
    - now apply find_shift_50. }
  destruct SH as [sh ->]. cbn [rbind]. rewrite (shaped_same sp p0 p SA SD). apply IH; [|intros q Hq; apply SP; now right].
  cbn [fst]. exact SA.
Qed.
(** C81: the call succeeds whenever the probe arrays that are used have the same shape, and what is aligned, the
    first modes of stacks or the regions of the objects, has at least 30 x 30 pixels; one reconstruction always
    succeeds. *)
Theorem C81_succeeds : forall (p0 : probe_array) (ps : list probe_array) (o0 : obj_array) (os : list obj_array) (up : bool) (sl : option region) (r : bool),
  let H := min_H (o0 :: os) in let W := min_W (o0 :: os) in
  (forall p o, In (p, o) (combine ps os) -> q_2d p = q_2d p0 /\ q_l p = q_l p0 /\ q_h p = q_h p0 /\ q_w p = q_w p0) ->
  (combine ps os = [] \/ if up then q_2d p0 = false /\ (30 <= q_h p0)%nat /\ (30 <= q_w p0)%nat
   else (30 <= reg_H (clip2 H W (chosen H W sl)))%nat /\ (30 <= reg_W (clip2 H W (chosen H W sl)))%nat) ->
  exists sp so stack, synthesize_reconstructions (p0 :: ps) (o0 :: os) up sl r = Ok (sp, so, stack).
Proof.
  intros p0 ps o0 os up sl r H W SP Big. unfold synthesize_reconstructions. fold H W. rewrite clip_chosen.
  assert (SD : shaped p0 (fst (standard H W (clip2 H W (chosen H W sl)) r p0 o0))) by (split; [|split; [|split]]; reflexivity).
  destruct (standard H W (clip2 H W (chosen H W sl)) r p0 o0) as [sp so]. cbn [fst] in SD.
  assert (L : exists out, synth_loop H W up (clip2 H W (chosen H W sl)) r (combine ps os) (sp, so, [so]) = Ok out).
  { destruct Big as [E|Big]; [rewrite E; now eexists|]. apply (loop_succeeds H W up _ r p0 Big); [exact SD|]. intros [p o] Hin. exact (SP p o Hin). }
  destruct L as [[[sp1 so1] st1] ->]. cbn [rbind]. eexists. eexists. eexists. reflexivity.
Qed.
Print Assumptions C81_succeeds.
(** ---- copies of one reconstruction ---- *)
Lemma csum_circ n a f : csum n (fun i => f (circ n (Z.of_nat i - a))) = csum n f.
Proof.
  destruct n as [|n]; [reflexivity|]. apply (csum_reindex (S n) (fun i => circ (S n) (Z.of_nat i - a)) f).
  - intros i Hi. unfold circ. pose proof (Z.mod_pos_bound (Z.of_nat i - a) (Z.of_nat (S n)) ltac:(lia)). lia.
  - intros i j Hi Hj E. unfold circ in E. apply Z2Nat.inj in E; try (apply Z.mod_pos_bound; lia).
    assert (X : (((Z.of_nat i - a) - (Z.of_nat j - a)) mod Z.of_nat (S n) = 0)%Z) by (rewrite Zminus_mod, E, Z.sub_diag; apply Z.mod_0_l; lia).
    replace ((Z.of_nat i - a) - (Z.of_nat j - a))%Z with (Z.of_nat i - Z.of_nat j)%Z in X by ring.
    apply Z.mod_divide in X; [|lia]. destruct X as [q Hq]. assert (q = 0)%Z by nia. lia.
Qed.
Lemma icsum_rolled N M x a b : icsum N M (rolled N M x a b) = icsum N M x.
Proof.
  unfold icsum, rolled. rewrite (csum_circ N a (fun i => csum M (fun j => x i (circ M (Z.of_nat j - b))))). apply csum_ext. intros i _. apply (csum_circ M b (x i)).
Qed.
Lemma csum_RtoC n f : csum n (fun i => RtoC (f i)) = RtoC (rsum n f).
Proof. induction n as [|n IH]; [reflexivity|]. rewrite csum_S, rsum_S, IH, RtoC_plus. reflexivity. Qed.
Lemma isum_rolled N M x a b : isum N M (abs2 (rolled N M x a b)) = isum N M (abs2 x).
Proof.
  apply RtoC_inj. unfold isum. rewrite <- !csum_RtoC.
  rewrite (csum_ext N _ (fun i => csum M (fun j => rolled N M (fun i j => RtoC (abs2 x i j)) a b i j))) by (intros i _; rewrite <- csum_RtoC; reflexivity).
  change (icsum N M (rolled N M (fun i j => RtoC (abs2 x i j)) a b) = csum N (fun i => RtoC (rsum M (abs2 x i)))). rewrite icsum_rolled. apply csum_ext. intros i _. apply csum_RtoC.
Qed.
Lemma rolled_same N M x y a b : (0 < N)%nat -> (0 < M)%nat -> same N M x y -> same N M (rolled N M x a b) (rolled N M y a b).
Proof. intros HN HM E i j _ _. unfold rolled. apply E; unfold circ; [pose proof (Z.mod_pos_bound (Z.of_nat i - a) (Z.of_nat N) ltac:(lia))|pose proof (Z.mod_pos_bound (Z.of_nat j - b) (Z.of_nat M) ltac:(lia))]; lia. Qed.
Lemma rolled_0 N M x : same N M (rolled N M x 0 0) x.
Proof. intros i j Hi Hj. unfold rolled, circ. rewrite !Z.sub_0_r, !Z.mod_small, !Nat2Z.id by lia. reflexivity. Qed.
Lemma correlation_positive N M x y m : (0 < m)%R -> correlation N M (fun i j => RtoC m * x i j) y = correlation N M x y.
Proof.
  intros Hm. apply functional_extensionality. intros i. apply functional_extensionality. intros j. unfold correlation. apply ifft2_ext. intros k l _ _.
  rewrite fft2_scal, <- Cmult_assoc, Cmod_mult, Cmod_R, Rabs_pos_eq by lra. set (z := fft2 N M x k l * Cconj (fft2 N M y k l)).
  destruct (Req_dec (Cmod z) 0) as [Z|Z]; [apply Cmod_eq_0 in Z; rewrite Z; unfold Cdiv; ring|]. rewrite RtoC_mult. field. split; intros Q; apply RtoC_inj in Q; lra.
Qed.
Lemma find_shift_positive N M x y m rs : (0 < m)%R -> find_shift N M (fun i j => RtoC m * x i j) y rs = find_shift N M x y rs.
Proof. intros Hm. unfold find_shift, find_subpixel_shift, subpixel, find_pixel_shift. now rewrite (correlation_positive N M x y m Hm). Qed.
(** (p, o) is (p0, o0) up to what ptychography cannot tell: p and o scaled inversely, by r > 0, one phase per mode and
    one for the object, and both rolled by (a, b). *)
Definition a_copy (p0 : probe_array) (o0 : obj_array) (a b : Z) (p : probe_array) (o : obj_array) : Prop :=
  q_2d p = q_2d p0 /\ q_l p = q_l p0 /\ q_h p = q_h p0 /\ q_w p = q_w p0 /\ o_H o = o_H o0 /\ o_W o = o_W o0 /\
  exists r d c, (0 < r)%R /\ (forall k, unit_modulus (d k)) /\ unit_modulus c /\
  (forall k, (k < q_l p0)%nat -> same (q_h p0) (q_w p0) (q_data p k) (scaled (RtoC r * d k) (rolled (q_h p0) (q_w p0) (q_data p0 k) a b))) /\
  same (o_H o0) (o_W o0) (o_data o) (scaled (c / RtoC r) (rolled (o_H o0) (o_W o0) (o_data o0) a b)).
(** The part of standardize before the phases are set, and the phases. *)
Definition scaled_parts (h w : nat) (ramp : bool) (probe : nat -> img) (obj : img) : (nat -> img) * img :=
  let n := sqrt (mean2 h w (abs2 (probe 0%nat))) in
  let probe := fun k i j => probe k i j / RtoC n in let obj := fun i j => obj i j * RtoC n in
  if ramp then let f := center_freq h w (probe 0%nat) in ((fun k i j => probe k i j * Cconj (phase_ramp f i j)), (fun i j => obj i j * phase_ramp f i j)) else (probe, obj).
Lemma standardize_parts h w H W probe obj s ramp : standardize h w H W probe obj (Some s) ramp =
  let q := scaled_parts h w ramp probe obj in
  ((fun k i j => fst q k i j * cis (- angle (icsum h w (fst q k)))), (fun i j => snd q i j * cis (- angle (icsum (reg_H s) (reg_W s) (at_region s (snd q)))))).
Proof. unfold standardize, scaled_parts. destruct s as [[r0 r1] [c0 c1]]. destruct ramp; reflexivity. Qed.
Lemma parts_copy h w H W l ramp P P' O O' a b r d c : (0 < h)%nat -> (0 < w)%nat -> (0 < l)%nat -> (0 < H)%nat -> (0 < W)%nat -> (0 < r)%R -> (forall k, unit_modulus (d k)) -> unit_modulus c ->
  (0 < power h w (P 0%nat))%R -> (ramp = false \/ a = 0%Z /\ b = 0%Z) ->
  (forall k, (k < l)%nat -> same h w (P' k) (scaled (RtoC r * d k) (rolled h w (P k) a b))) -> same H W O' (scaled (c / RtoC r) (rolled H W O a b)) ->
  (forall k, (k < l)%nat -> same h w (fst (scaled_parts h w ramp P' O') k) (scaled (d k) (rolled h w (fst (scaled_parts h w ramp P O) k) a b))) /\
  same H W (snd (scaled_parts h w ramp P' O')) (scaled c (rolled H W (snd (scaled_parts h w ramp P O)) a b)).
Proof.
  intros Hh Hw Hl HH HW Hr Ud Uc PP CS EP EO. unfold scaled_parts.
  assert (NP : (0 < INR (h * w))%R) by (apply lt_0_INR; nia).
  assert (AI : isum h w (abs2 (P 0%nat)) = power h w (P 0%nat)) by (unfold isum, power, abs2; apply rsum_ext; intros i _; apply rsum_ext; intros j _; rewrite Cmod_nrm2, pow2_sqrt by apply nrm2_nonneg; reflexivity).
  assert (NN : sqrt (mean2 h w (abs2 (P' 0%nat))) = (r * sqrt (mean2 h w (abs2 (P 0%nat))))%R).
  { assert (EI : isum h w (abs2 (P' 0%nat)) = (r * r * isum h w (abs2 (P 0%nat)))%R).
    { rewrite <- (isum_rolled h w (P 0%nat) a b). unfold isum. rewrite rsum_scal. apply rsum_ext. intros i Hi. rewrite rsum_scal. apply rsum_ext. intros j Hj.
      unfold abs2. rewrite (EP 0%nat Hl i j Hi Hj). unfold scaled. rewrite !Cmod_mult, Cmod_R, Rabs_pos_eq, (Ud 0%nat) by lra. ring. }
    unfold mean2. rewrite EI. replace (r * r * isum h w (abs2 (P 0%nat)) / INR (h * w))%R with ((r * r) * (isum h w (abs2 (P 0%nat)) / INR (h * w)))%R by (field; lra).
    rewrite sqrt_mult; [rewrite sqrt_square by lra; reflexivity|nra|]. rewrite AI. apply Rlt_le, Rdiv_lt_0_compat; assumption. }
  rewrite NN. set (n := sqrt (mean2 h w (abs2 (P 0%nat)))).
  assert (Hn : (0 < n)%R) by (apply sqrt_lt_R0; unfold mean2; rewrite AI; now apply Rdiv_lt_0_compat).
  assert (NC : RtoC n <> 0) by (intros Z; apply RtoC_inj in Z; lra). assert (RC : RtoC r <> 0) by (intros Z; apply RtoC_inj in Z; lra).
  assert (EP1 : forall k, (k < l)%nat -> same h w (fun i j => P' k i j / RtoC (r * n)) (fun i j => d k * (rolled h w (P k) a b i j / RtoC n))).
  { intros k Hk i j Hi Hj. cbv beta. rewrite (EP k Hk i j Hi Hj), RtoC_mult. unfold scaled. field. auto. }
  assert (EO1 : same H W (fun i j => O' i j * RtoC (r * n)) (fun i j => c * (rolled H W O a b i j * RtoC n))).
  { intros i j Hi Hj. cbv beta. rewrite (EO i j Hi Hj), RtoC_mult. unfold scaled. field. exact RC. }
  destruct ramp.
  - destruct CS as [CS|[-> ->]]; [discriminate|].
    assert (CF : center_freq h w (fun i j => P' 0%nat i j / RtoC (r * n)) = center_freq h w (fun i j => P 0%nat i j / RtoC n)).
    { unfold center_freq. assert (X : abs2 (fftshift2 h w (fft2 h w (fun i j => P' 0%nat i j / RtoC (r * n)))) = abs2 (fftshift2 h w (fft2 h w (fun i j => P 0%nat i j / RtoC n)))).
      { apply functional_extensionality. intros i. apply functional_extensionality. intros j. unfold abs2, fftshift2.
        rewrite (fft2_ext h w _ (fun i j => d 0%nat * (P 0%nat i j / RtoC n))).
        - rewrite fft2_scal, Cmod_mult, (Ud 0%nat). ring.
        - intros x y Hx Hy. rewrite (EP1 0%nat Hl x y Hx Hy). do 2 f_equal. now apply rolled_0. }
      now rewrite X. }
    rewrite CF. cbn [fst snd]. split.
    + intros k Hk i j Hi Hj. cbv beta. pose proof (EP1 k Hk i j Hi Hj) as Q. cbv beta in Q. rewrite Q. unfold scaled. rewrite (rolled_0 h w _ i j Hi Hj), (rolled_0 h w _ i j Hi Hj). ring.
    + intros i j Hi Hj. cbv beta. pose proof (EO1 i j Hi Hj) as Q. cbv beta in Q. rewrite Q. unfold scaled. rewrite (rolled_0 H W _ i j Hi Hj), (rolled_0 H W _ i j Hi Hj). ring.
  - cbn [fst snd]. split.
    + intros k Hk i j Hi Hj. exact (EP1 k Hk i j Hi Hj).
    + intros i j Hi Hj. exact (EO1 i j Hi Hj).
Qed.
(** The whole object as a region. *)
Definition whole (H W : nat) : region := ((0, H), (0, W))%nat.
Lemma region_same H W s x y : same H W x y -> same (reg_H (clip2 H W s)) (reg_W (clip2 H W s)) (at_region (clip2 H W s) x) (at_region (clip2 H W s) y).
Proof. intros E i j Hi Hj. unfold at_region. destruct s as [[r0 r1] [c0 c1]]. unfold reg_H, reg_W, clip2, clip in *. cbn [fst snd] in *. apply E; lia. Qed.
Lemma times_nz z t : z * cis t <> 0 -> z <> 0.
Proof. intros N E. apply N. rewrite E. ring. Qed.
Lemma standard_copy H W s ramp p0 o0 a b p o : a_copy p0 o0 a b p o -> o_H o0 = H -> o_W o0 = W -> (0 < q_h p0)%nat -> (0 < q_w p0)%nat -> (0 < q_l p0)%nat -> (0 < H)%nat -> (0 < W)%nat ->
  (0 < power (q_h p0) (q_w p0) (q_data p0 0%nat))%R -> ((a = 0 /\ b = 0)%Z \/ ramp = false /\ s = whole H W) ->
  let st := standard H W (clip2 H W s) ramp p0 o0 in
  (forall k, (k < q_l p0)%nat -> icsum (q_h p0) (q_w p0) (q_data (fst st) k) <> 0) -> icsum (reg_H (clip2 H W s)) (reg_W (clip2 H W s)) (at_region (clip2 H W s) (snd st)) <> 0 ->
  shaped p0 (fst (standard H W (clip2 H W s) ramp p o)) /\
  (forall k, (k < q_l p0)%nat -> same (q_h p0) (q_w p0) (q_data (fst (standard H W (clip2 H W s) ramp p o)) k) (rolled (q_h p0) (q_w p0) (q_data (fst st) k) a b)) /\
  same H W (snd (standard H W (clip2 H W s) ramp p o)) (rolled H W (snd st) a b).
Proof.
  intros (E1 & E2 & E3 & E4 & E5 & E6 & r & d & c & Hr & Ud & Uc & EP & EO) OH OW Hh Hw Hl HH HW PP CS st NP NO. subst st.
  rewrite OH, OW in EO. unfold standard in *. cbn [fst snd q_data] in *. rewrite E3, E4. rewrite standardize_parts in NP, NO. rewrite !standardize_parts. cbv zeta in *. cbn [fst snd] in *.
  destruct (parts_copy (q_h p0) (q_w p0) H W (q_l p0) ramp (q_data p0) (q_data p) (o_data o0) (o_data o) a b r d c Hh Hw Hl HH HW Hr Ud Uc PP) as [QP QO].
  { destruct CS as [CS|[CS _]]; [now right|now left]. } { exact EP. } { exact EO. }
  set (A := scaled_parts (q_h p0) (q_w p0) ramp (q_data p) (o_data o)) in *. set (B := scaled_parts (q_h p0) (q_w p0) ramp (q_data p0) (o_data o0)) in *. clearbody A B.
  split; [|split].
  - split; [exact E1|]. split; [exact E2|]. split; reflexivity.
  - intros k Hk i j Hi Hj. cbv beta. specialize (NP k Hk).
    assert (SB : icsum (q_h p0) (q_w p0) (fst B k) <> 0).
    { set (t := cis _) in NP. rewrite (icsum_same _ _ _ (fun i j => t * fst B k i j)) in NP by (intros x y _ _; ring). rewrite icsum_scal in NP. intros Z. apply NP. rewrite Z. ring. }
    assert (SA : icsum (q_h p0) (q_w p0) (fst A k) = d k * icsum (q_h p0) (q_w p0) (fst B k)).
    { rewrite (icsum_same _ _ _ _ (QP k Hk)). unfold scaled. rewrite icsum_scal, icsum_rolled. reflexivity. }
    rewrite SA, (QP k Hk i j Hi Hj). unfold scaled. transitivity (rolled (q_h p0) (q_w p0) (fst B k) a b i j * (cis (- angle (d k * icsum (q_h p0) (q_w p0) (fst B k))) * d k)); [ring|].
    rewrite angle_phase by auto. reflexivity.
  - intros i j Hi Hj. cbv beta.
    assert (SB : icsum (reg_H (clip2 H W s)) (reg_W (clip2 H W s)) (at_region (clip2 H W s) (snd B)) <> 0).
    { set (t := cis _) in NO. rewrite (icsum_same _ _ _ (fun i j => t * at_region (clip2 H W s) (snd B) i j)) in NO by (intros x y _ _; unfold at_region; ring). rewrite icsum_scal in NO. intros Z. apply NO. rewrite Z. ring. }
    assert (SA : icsum (reg_H (clip2 H W s)) (reg_W (clip2 H W s)) (at_region (clip2 H W s) (snd A)) = c * icsum (reg_H (clip2 H W s)) (reg_W (clip2 H W s)) (at_region (clip2 H W s) (snd B))).
    { rewrite (icsum_same _ _ _ _ (region_same H W s _ _ QO)).
      change (at_region (clip2 H W s) (scaled c (rolled H W (snd B) a b))) with (fun i j => c * at_region (clip2 H W s) (rolled H W (snd B) a b) i j). rewrite icsum_scal. f_equal.
      destruct CS as [[-> ->]|[_ ->]].
      - apply icsum_same, region_same, rolled_0.
      - unfold whole, clip2, clip, reg_H, reg_W, at_region. cbn [fst snd]. rewrite !Nat.min_id, !Nat.min_0_l, !Nat.sub_0_r. exact (icsum_rolled H W (snd B) a b). }
    rewrite SA, (QO i j Hi Hj). unfold scaled. transitivity (rolled H W (snd B) a b i j * (cis (- angle (c * icsum (reg_H (clip2 H W s)) (reg_W (clip2 H W s)) (at_region (clip2 H W s) (snd B)))) * c)); [ring|].
    rewrite angle_phase by auto. reflexivity.
Qed.
(** The shift found between a positive multiple of an image and a roll of it undoes the roll. *)
Lemma shift_undone N M x u v m a b : (30 <= N)%nat -> (30 <= M)%nat -> full_spectrum N M x -> (0 < m)%R -> same N M u (fun i j => RtoC m * x i j) -> same N M v (rolled N M x a b) ->
  exists p q, find_shift N M u v 50 = Ok (IZR p, IZR q) /\ (p mod Z.of_nat N = (- a) mod Z.of_nat N)%Z /\ (q mod Z.of_nat M = (- b) mod Z.of_nat M)%Z /\
  (2 * Z.abs a < Z.of_nat N -> p = - a)%Z /\ (2 * Z.abs b < Z.of_nat M -> q = - b)%Z.
Proof.
  intros HN HM F Hm EU EV. rewrite (find_shift_ext N M u v _ _ 50 EU EV), find_shift_positive by exact Hm.
  pose proof (C30_range N M x (rolled N M x a b) ltac:(lia) ltac:(lia)) as [RA RB].
  pose proof (C30_finds_shift N M x a b ltac:(lia) ltac:(lia) F) as [PA [PB _]]. cbv zeta in PA, PB.
  unfold find_shift. set (s := find_pixel_shift N M x (rolled N M x a b)) in *. clearbody s. destruct s as [p q]. cbn [fst snd] in *.
  exists p, q. split; [|split; [exact PA|split; [exact PB|]]].
  - rewrite (C72_subpixel N M x a b (p, q) (0, 0)%Z 50 HN HM ltac:(lia) F); cbn [fst snd]; try lia; rewrite ?Z.add_0_r; auto.
  - assert (SM : forall n (z c : Z), (30 <= n)%nat -> (- Z.of_nat (n / 2) <= z <= Z.of_nat (n - 1) - Z.of_nat (n / 2))%Z -> (z mod Z.of_nat n = (- c) mod Z.of_nat n)%Z -> (2 * Z.abs c < Z.of_nat n)%Z -> z = (- c)%Z).
    { intros n z c Hn RZ MZ SC. assert (DZ : ((z + c) mod Z.of_nat n = 0)%Z) by (rewrite <- Zplus_mod_idemp_l, MZ, Zplus_mod_idemp_l; replace (- c + c)%Z with 0%Z by ring; apply Z.mod_0_l; lia).
      apply Z.mod_divide in DZ; [|lia]. destruct DZ as [t Ht]. pose proof (Nat.div_mod n 2 ltac:(lia)) as D. pose proof (Nat.mod_upper_bound n 2 ltac:(lia)) as U.
      assert (t = 0%Z) by nia. subst t. lia. }
    split; intros SC; [apply (SM N)|apply (SM M)]; assumption.
Qed.
Lemma undone N M x y p q a b : (0 < N)%nat -> (0 < M)%nat -> same N M y (rolled N M x a b) -> (p mod Z.of_nat N = (- a) mod Z.of_nat N)%Z -> (q mod Z.of_nat M = (- b) mod Z.of_nat M)%Z ->
  same N M (shift_by N M (IZR p, IZR q) y) x.
Proof.
  intros HN HM E P Q i j Hi Hj. rewrite (shift_by_same N M (IZR p, IZR q) _ _ E i j Hi Hj). unfold shift_by. cbn [fst snd]. rewrite (C29_integer N M _ p q HN HM i j Hi Hj).
  exact (rolled_back N M x a b p q HN HM P Q i j Hi Hj).
Qed.
Lemma undone_0 N M x y : (0 < N)%nat -> (0 < M)%nat -> same N M y (rolled N M x 0 0) -> same N M (shift_by N M (0, 0)%R y) x.
Proof. intros HN HM E i j Hi Hj. rewrite (shift_by_0 N M y HN HM i j Hi Hj), (E i j Hi Hj). now apply rolled_0. Qed.
Lemma loop_copies H W up s ramp p0 o0 : o_H o0 = H -> o_W o0 = W -> (0 < q_h p0)%nat -> (0 < q_w p0)%nat -> (0 < q_l p0)%nat -> (0 < H)%nat -> (0 < W)%nat ->
  (0 < power (q_h p0) (q_w p0) (q_data p0 0%nat))%R ->
  let st := standard H W (clip2 H W s) ramp p0 o0 in
  (forall k, (k < q_l p0)%nat -> icsum (q_h p0) (q_w p0) (q_data (fst st) k) <> 0) -> icsum (reg_H (clip2 H W s)) (reg_W (clip2 H W s)) (at_region (clip2 H W s) (snd st)) <> 0 ->
  (if up : bool then q_2d p0 = false /\ (30 <= q_h p0)%nat /\ (30 <= q_w p0)%nat /\ full_spectrum (q_h p0) (q_w p0) (q_data (fst st) 0%nat)
   else (30 <= reg_H (clip2 H W s))%nat /\ (30 <= reg_W (clip2 H W s))%nat /\ full_spectrum (reg_H (clip2 H W s)) (reg_W (clip2 H W s)) (at_region (clip2 H W s) (snd st))) ->
  forall pos sp so stack m, (0 < m)%R ->
  (forall p o, In (p, o) pos -> exists a b, a_copy p0 o0 a b p o /\ ((a = 0 /\ b = 0)%Z \/ ramp = false /\ s = whole H W /\ (q_h p0 = H /\ q_w p0 = W \/ (2 * Z.abs a < Z.of_nat (if up then q_h p0 else H) /\ 2 * Z.abs b < Z.of_nat (if up then q_w p0 else W))%Z))) ->
  shaped p0 sp -> (forall k, (k < q_l p0)%nat -> same (q_h p0) (q_w p0) (q_data sp k) (fun i j => RtoC m * q_data (fst st) k i j)) -> same H W so (fun i j => RtoC m * snd st i j) ->
  Forall (fun x => same H W x (snd st)) stack ->
  exists sp' so' stack', synth_loop H W up (clip2 H W s) ramp pos (sp, so, stack) = Ok (sp', so', stack') /\ shaped p0 sp' /\
  (forall k, (k < q_l p0)%nat -> same (q_h p0) (q_w p0) (q_data sp' k) (fun i j => RtoC (m + INR (length pos)) * q_data (fst st) k i j)) /\
  same H W so' (fun i j => RtoC (m + INR (length pos)) * snd st i j) /\ Forall (fun x => same H W x (snd st)) stack' /\ length stack' = (length stack + length pos)%nat.
Proof.
  intros OH OW Hh Hw Hl HH HW PP st NP NO AL. induction pos as [|[p o] pos IH]; intros sp so stack m Hm CP SS ESP ESO FS.
  - exists sp, so, stack. cbn [length]. split; [reflexivity|]. split; [exact SS|]. change (INR 0) with 0%R. rewrite Rplus_0_r, Nat.add_0_r. auto.
  - destruct (CP p o (or_introl eq_refl)) as (a & b & CO & CS).
    destruct (standard_copy H W s ramp p0 o0 a b p o CO OH OW Hh Hw Hl HH HW PP) as (SP & QP & QO); [destruct CS as [CS|(C1 & C2 & _)]; auto|exact NP|exact NO|]. fold st in QP, QO.
    cbn [synth_loop]. unfold synth_step. cbn [fst snd]. destruct (standard H W (clip2 H W s) ramp p o) as [p1 o1]. cbn [fst snd] in SP, QP, QO.
    assert (SH : exists sh, synth_shift up (clip2 H W s) sp so p1 o1 = Ok sh /\ (forall k, (k < q_l p0)%nat -> same (q_h p0) (q_w p0) (shift_by (q_h p0) (q_w p0) sh (q_data p1 k)) (q_data (fst st) k)) /\ same H W (shift_by H W sh o1) (snd st)).
    { unfold synth_shift. destruct up.
      - destruct SS as (S1 & S2 & S3 & S4), SP as (T1 & T2 & T3 & T4), AL as (A1 & A2 & A3 & A4). rewrite S1, T1, A1. cbn [orb]. rewrite S3, S4, T3, T4, !Nat.eqb_refl. cbn [andb].
        destruct CS as [[-> ->]|(C1 & C2 & C3)].
        + exists (0, 0)%R. split; [|split].
          * rewrite (find_shift_ext (q_h p0) (q_w p0) _ _ _ (q_data (fst st) 0%nat) 50 (ESP 0%nat Hl)); [rewrite find_shift_positive by exact Hm; now apply find_shift_self; try lia|].
            intros i j Hi Hj. rewrite (QP 0%nat Hl i j Hi Hj). now apply rolled_0.
          * intros k Hk. apply undone_0; auto.
          * apply undone_0; auto.
        + destruct (shift_undone (q_h p0) (q_w p0) (q_data (fst st) 0%nat) (q_data sp 0%nat) (q_data p1 0%nat) m a b A2 A3 A4 Hm (ESP 0%nat Hl) (QP 0%nat Hl)) as (u & v & F & MU & MV & XU & XV).
          exists (IZR u, IZR v). split; [exact F|]. split.
          * intros k Hk. apply (undone _ _ _ _ u v a b); auto.
          * destruct C3 as [[C3 C4]|[C3 C4]]; [rewrite C3 in MU; rewrite C4 in MV|rewrite (XU C3), (XV C4)]; apply (undone _ _ _ _ _ _ a b); auto.
      - destruct AL as (A2 & A3 & A4). destruct CS as [[-> ->]|(C1 & C2 & C3)].
        + exists (0, 0)%R. split; [|split].
          * rewrite (find_shift_ext _ _ _ _ (fun i j => RtoC m * at_region (clip2 H W s) (snd st) i j) (at_region (clip2 H W s) (snd st)) 50); [rewrite find_shift_positive by exact Hm; now apply find_shift_self; try lia| |].
            -- exact (region_same H W s _ _ ESO).
            -- apply region_same. intros i j Hi Hj. rewrite (QO i j Hi Hj). now apply rolled_0.
          * intros k Hk. apply undone_0; auto.
          * apply undone_0; auto.
        + subst s. assert (RH : reg_H (clip2 H W (whole H W)) = H) by (unfold reg_H, clip2, clip, whole; cbn [fst snd]; lia). assert (RW : reg_W (clip2 H W (whole H W)) = W) by (unfold reg_W, clip2, clip, whole; cbn [fst snd]; lia).
          assert (AR : forall x, at_region (clip2 H W (whole H W)) x = x) by (intros x; unfold at_region, clip2, clip, whole; cbn [fst snd]; rewrite !Nat.min_0_l; reflexivity).
          rewrite RH, RW, !AR in *. destruct (shift_undone H W (snd st) so o1 m a b A2 A3 A4 Hm ESO QO) as (u & v & F & MU & MV & XU & XV).
          exists (IZR u, IZR v). split; [exact F|]. split.
          * intros k Hk. destruct C3 as [[C3 C4]|[C3 C4]]; [rewrite <- C3 in MU; rewrite <- C4 in MV|rewrite (XU C3), (XV C4)]; apply (undone _ _ _ _ _ _ a b); auto.
          * apply (undone _ _ _ _ u v a b); auto. }
    destruct SH as (sh & -> & UP & UO). cbn [rbind]. rewrite (shaped_same sp p0 p1 SS SP).
    destruct SP as (T1 & T2 & T3 & T4). rewrite T3, T4.
    set (sp2 := {| q_2d := q_2d sp; q_l := q_l sp; q_h := q_h sp; q_w := q_w sp; q_data := fun k i j => q_data sp k i j + shift_by (q_h p0) (q_w p0) sh (q_data p1 k) i j |}).
    destruct (IH sp2 (fun i j => so i j + shift_by H W sh o1 i j) (stack ++ [shift_by H W sh o1]) (m + 1)%R) as (sp' & so' & stack' & E & S' & P' & O' & F' & L').
    + lra.
    + intros p' o' Hin. apply CP. now right.
    + exact SS.
    + intros k Hk i j Hi Hj. cbn [sp2 q_data]. rewrite (ESP k Hk i j Hi Hj), (UP k Hk i j Hi Hj), RtoC_plus. ring.
    + intros i j Hi Hj. cbv beta. rewrite (ESO i j Hi Hj), (UO i j Hi Hj), RtoC_plus. ring.
    + apply Forall_app. split; [exact FS|]. constructor; [exact UO|constructor].
    + exists sp', so', stack'. split; [exact E|]. split; [exact S'|]. cbn [length]. rewrite S_INR. replace (m + (INR (length pos) + 1))%R with (m + 1 + INR (length pos))%R by ring.
      split; [exact P'|]. split; [exact O'|]. split; [exact F'|]. rewrite L', app_length. cbn [length]. lia.
Qed.
(** C81: copies of one reconstruction: inverse scales, phases of every mode and of the object, and, when no ramp is
    corrected and the region is the whole object, common rolls by less than half of the image that is aligned (any
    rolls if probe and object have the same size).  Their synthesis
    is the synthesis of the first one alone, and every returned object is the one returned for it. *)
Theorem C81_copies : forall (p0 : probe_array) (o0 : obj_array) (ps : list probe_array) (os : list obj_array) (up : bool) (sl : option region) (ramp : bool) sp0 so0 st0,
  let H := o_H o0 in let W := o_W o0 in let h := q_h p0 in let w := q_w p0 in let s := clip2 H W (chosen H W sl) in
  length ps = length os ->
  (forall p o, In (p, o) (combine ps os) -> exists a b, a_copy p0 o0 a b p o /\ ((a = 0 /\ b = 0)%Z \/ ramp = false /\ sl = Some (whole H W) /\ (h = H /\ w = W \/ (2 * Z.abs a < Z.of_nat (if up then h else H) /\ 2 * Z.abs b < Z.of_nat (if up then w else W))%Z))) ->
  (0 < h)%nat -> (0 < w)%nat -> (0 < q_l p0)%nat -> (0 < H)%nat -> (0 < W)%nat -> (0 < power h w (q_data p0 0%nat))%R ->
  synthesize_reconstructions [p0] [o0] up sl ramp = Ok (sp0, so0, st0) ->
  (forall k, (k < q_l p0)%nat -> csum h (fun i => csum w (fun j => q_data sp0 k i j)) <> 0) ->
  window_total H W (Some (fst (chosen H W sl)), Some (snd (chosen H W sl))) so0 <> 0 ->
  (if up then q_2d p0 = false /\ (30 <= h)%nat /\ (30 <= w)%nat /\ full_spectrum h w (q_data sp0 0%nat)
   else (30 <= reg_H s)%nat /\ (30 <= reg_W s)%nat /\ full_spectrum (reg_H s) (reg_W s) (at_region s so0)) ->
  exists sp so stack, synthesize_reconstructions (p0 :: ps) (o0 :: os) up sl ramp = Ok (sp, so, stack) /\
  (forall k, (k < q_l p0)%nat -> same h w (q_data sp k) (q_data sp0 k)) /\ same H W so so0 /\ length stack = S (length ps) /\ Forall (fun x => same H W x so0) stack.
Proof.
  intros p0 o0 ps os up sl ramp sp0 so0 st0 H W h w s LN CP Hh Hw Hl HH HW PP E0 NP NO AL.
  assert (MH : min_H (o0 :: os) = H /\ min_W (o0 :: os) = W).
  { assert (X : forall o, In o os -> o_H o = H /\ o_W o = W).
    { intros o Hin. destruct (In_nth os o o0 Hin) as (n & Hn & <-). destruct (CP (nth n ps p0) (nth n os o0)) as (a & b & (_ & _ & _ & _ & E5 & E6 & _) & _).
      - rewrite <- combine_nth by exact LN. apply nth_In. rewrite combine_length. lia.
      - auto. }
    cbn [min_H min_W]. fold H W. clear - X. induction os as [|o os IH]; [split; reflexivity|]. cbn [map fold_left]. destruct (X o (or_introl eq_refl)) as [-> ->]. rewrite !Nat.min_id. apply IH. intros q Hq. apply X. now right. }
  destruct MH as [MH MW]. unfold synthesize_reconstructions in *. rewrite MH, MW. change (min_H [o0]) with H in E0. change (min_W [o0]) with W in E0. rewrite clip_chosen in *. fold s in E0 |- *.
  destruct (loop_copies H W up (chosen H W sl) ramp p0 o0 eq_refl eq_refl Hh Hw Hl HH HW PP) with (pos := combine ps os) (sp := fst (standard H W s ramp p0 o0)) (so := snd (standard H W s ramp p0 o0)) (stack := [snd (standard H W s ramp p0 o0)]) (m := 1%R)
    as (sp' & so' & stack' & E & S' & P' & O' & F' & L'); fold s.
  - intros k Hk. specialize (NP k Hk). intros Z. apply NP. destruct (standard H W s ramp p0 o0) as [a b]. cbn [combine synth_loop rbind length] in E0. injection E0 as <- <- <-. cbn [fst q_data] in *.
    change (icsum h w (fun i j => q_data a k i j / RtoC (INR (0 + 1))) = 0). rewrite (icsum_same h w _ (fun i j => q_data a k i j)); [exact Z|]. intros i j _ _. change (INR (0 + 1)) with 1%R. field. intros Q. apply RtoC_inj in Q. lra.
  - intros Z. apply NO. rewrite window_total_cut. destruct (standard H W s ramp p0 o0) as [a b]. cbn [combine synth_loop rbind length] in E0. injection E0 as <- <- <-. cbn [snd] in *.
    rewrite (icsum_same _ _ _ (cut H W (Some (fst (chosen H W sl)), Some (snd (chosen H W sl))) b)).
    + unfold s in Z. destruct (chosen H W sl) as [[r0 r1] [c0 c1]]. exact Z.
    + intros i j _ _. unfold cut. change (INR (0 + 1)) with 1%R. field. intros Q. apply RtoC_inj in Q. lra.
  - assert (ONE : forall z, z / RtoC (INR (0 + 1)) = z) by (intros z; change (INR (0 + 1)) with 1%R; field; intros Q; apply RtoC_inj in Q; lra).
    assert (FE : forall N M x y, same N M x y -> full_spectrum N M x -> full_spectrum N M y) by (intros N M x y Q F k l Lk Ll; rewrite <- (fft2_ext N M x y k l Q); now apply F).
    destruct (standard H W s ramp p0 o0) as [a b]. cbn [combine synth_loop rbind length] in E0. injection E0 as <- <- <-. cbn [fst snd q_data] in *. destruct up.
    + destruct AL as (A1 & A2 & A3 & A4). split; [exact A1|]. split; [exact A2|]. split; [exact A3|]. apply (FE _ _ _ _ (fun i j _ _ => ONE (q_data a 0%nat i j)) A4).
    + destruct AL as (A2 & A3 & A4). split; [exact A2|]. split; [exact A3|]. refine (FE _ _ _ _ _ A4). intros i j _ _. unfold at_region. apply ONE.
  - lra.
  - intros p o Hin. destruct (CP p o Hin) as (a & b & CO & [C0|(C1 & C2 & C3)]); exists a, b; (split; [exact CO|]); [now left|]. right. subst sl. split; [exact C1|]. split; [reflexivity|exact C3].
  - split; [|split; [|split]]; reflexivity.
  - intros k _ i j _ _. ring.
  - intros i j _ _. ring.
  - constructor; [intros i j _ _; reflexivity|constructor].
  - fold s in E, P', O', F'. destruct (standard H W s ramp p0 o0) as [a b]. cbn [fst snd] in *. rewrite E. cbn [combine synth_loop rbind length] in *. injection E0 as <- <- <-.
    eexists. eexists. exists stack'. split; [reflexivity|]. cbn [q_data].
    assert (NZ : RtoC (1 + INR (length (combine ps os))) <> 0) by (intros Q; apply RtoC_inj in Q; pose proof (pos_INR (length (combine ps os))); lra).
    assert (EN : INR (length (combine ps os) + 1) = (1 + INR (length (combine ps os)))%R) by (rewrite plus_INR; change (INR 1) with 1%R; ring).
    assert (ONE : forall z, z / RtoC (INR (0 + 1)) = z) by (intros z; change (INR (0 + 1)) with 1%R; field; intros Q; apply RtoC_inj in Q; lra).
    split; [|split; [|split]].
    + intros k Hk i j Hi Hj. rewrite ONE, (P' k Hk i j Hi Hj), EN. field. exact NZ.
    + intros i j Hi Hj. rewrite ONE, (O' i j Hi Hj), EN. field. exact NZ.
    + rewrite L', combine_length. cbn [length]. rewrite <- LN. lia.
    + apply (Forall_impl _ (P := fun x => same H W x b)); [|exact F']. intros x Q i j Hi Hj. rewrite ONE. now apply Q.
Qed.
Print Assumptions C81_copies.
(** C81 is refuted for small objects: the default region of an object with less than 120 pixels along an axis has less
    than 30, and two or more reconstructions are a RuntimeError, whatever they are; ... *)
Theorem C81_small_refuted : forall p0 p1 ps o0 o1 os ramp, let H := min_H (o0 :: o1 :: os) in let W := min_W (o0 :: o1 :: os) in
  (8 <= H < 120 \/ 8 <= W < 120)%nat -> synthesize_reconstructions (p0 :: p1 :: ps) (o0 :: o1 :: os) false None ramp = Raise RuntimeError.
Proof.
  intros p0 p1 ps o0 o1 os ramp H W S. unfold synthesize_reconstructions. fold H W. set (s := clip2 H W (default_slice H, default_slice W)).
  destruct (standard H W s ramp p0 o0) as [sp so]. cbn [combine synth_loop]. unfold synth_step. destruct (standard H W s ramp (fst (p1, o1)) (snd (p1, o1))) as [p o].
  cbn [synth_shift]. assert (RG : (2 <= reg_H s < 30 \/ 2 <= reg_W s < 30)%nat).
  { assert (X : forall n, (8 <= n < 120)%nat -> (2 <= Nat.min (n / 8 * 5) n - Nat.min (n / 8 * 3) n < 30)%nat) by (intros n Hn; pose proof (Nat.div_mod n 8 ltac:(lia)); pose proof (Nat.mod_upper_bound n 8 ltac:(lia)); lia).
    unfold s, reg_H, reg_W, clip2, clip, default_slice. cbn [fst snd]. destruct S as [S|S]; [left|right]; now apply X. }
  unfold synth_shift. rewrite (proj2 (C72_small_refuted (reg_H s) (reg_W s) (at_region s so) (at_region s o) (0, 0)%Z 50 ltac:(lia) RG)). reflexivity.
Qed.
Print Assumptions C81_small_refuted.
(** ... and with use_probe for two or more reconstructions whose probes are 2-D arrays, as the documentation allows. *)
Theorem C81_flat_probe_refuted : forall p0 p1 ps o0 o1 os sl ramp, q_2d p0 = true ->
  synthesize_reconstructions (p0 :: p1 :: ps) (o0 :: o1 :: os) true sl ramp = Raise IndexError.
Proof.
  intros p0 p1 ps o0 o1 os sl ramp F. unfold synthesize_reconstructions. set (H := min_H _). set (W := min_W _). set (s := clip2 H W _).
  assert (E : q_2d (fst (standard H W s ramp p0 o0)) = true) by exact F. destruct (standard H W s ramp p0 o0) as [sp so]. cbn [fst] in E.
  cbn [combine synth_loop]. unfold synth_step. destruct (standard H W s ramp (fst (p1, o1)) (snd (p1, o1))) as [p o]. unfold synth_shift. rewrite E. reflexivity.
Qed.
Print Assumptions C81_flat_probe_refuted.
(** A case of C81_copies: 40 x 40 probe and object with a single lit pixel; the copy is twice as bright in the probe,
    has the phases i and -1, and is rolled by (3, -5). *)
Example C81_case : forall up : bool, let p0 := {| q_2d := false; q_l := 2; q_h := 40; q_w := 40; q_data := fun _ => pixel 12 10 |} in let o0 := {| o_H := 40; o_W := 40; o_data := pixel 20 21 |} in
  let p1 := {| q_2d := false; q_l := 2; q_h := 40; q_w := 40; q_data := fun _ => scaled (RtoC 2 * Ci) (rolled 40 40 (pixel 12 10) 3 (-5)) |} in
  let o1 := {| o_H := 40; o_W := 40; o_data := scaled (- (1) / RtoC 2) (rolled 40 40 (pixel 20 21) 3 (-5)) |} in
  exists sp0 so0 st0 sp so stack, synthesize_reconstructions [p0] [o0] up (Some (whole 40 40)) false = Ok (sp0, so0, st0) /\
  synthesize_reconstructions [p0; p1] [o0; o1] up (Some (whole 40 40)) false = Ok (sp, so, stack) /\
  (forall k, (k < 2)%nat -> same 40 40 (q_data sp k) (q_data sp0 k)) /\ same 40 40 so so0 /\ length stack = 2%nat.
Proof.
  intros up p0 o0 p1 o1. set (st := standard 40 40 (whole 40 40) false p0 o0).
  destruct (C81_succeeds p0 [] o0 [] up (Some (whole 40 40)) false) as (sp0 & so0 & st0 & E0); [intros p o []|now left|].
  assert (PS : forall x y k, (x < 40)%nat -> (y < 40)%nat -> k <> 0 -> full_spectrum 40 40 (fun i j => k * pixel x y i j)) by (intros; now apply pixel_spectrum).
  assert (TOT : forall x y, (x < 40)%nat -> (y < 40)%nat -> icsum 40 40 (pixel x y) = 1).
  { intros x y Hx Hy. unfold icsum. rewrite (csum_single 40 x); [rewrite (csum_single 40 y)| |]; try lia.
    - unfold pixel. rewrite !Nat.eqb_refl. ring.
    - intros j _ NE. unfold pixel. replace (Nat.eqb j y) with false by (symmetry; now apply Nat.eqb_neq). ring.
    - intros i _ NE. apply csum_zero'. intros j _. unfold pixel. replace (Nat.eqb i x) with false by (symmetry; now apply Nat.eqb_neq). ring. }
  assert (PW : power 40 40 (pixel 12 10) = 1%R).
  { apply RtoC_inj. unfold power. rewrite <- csum_RtoC. transitivity (icsum 40 40 (pixel 12 10)); [|now apply TOT; lia]. apply csum_ext. intros i _. rewrite <- csum_RtoC. apply csum_ext. intros j _.
    unfold pixel. destruct (Nat.eqb i 12), (Nat.eqb j 10); unfold nrm2, RtoC, Cmult; cbn [fst snd]; f_equal; ring. }
  assert (FORM : exists g g', g <> 0 /\ g' <> 0 /\ (forall k i j, q_data sp0 k i j = g * pixel 12 10 i j) /\ forall i j, so0 i j = g' * pixel 20 21 i j).
  { unfold synthesize_reconstructions in E0. change (min_H [o0]) with 40%nat in E0. change (min_W [o0]) with 40%nat in E0. change (clip2 40 40 (whole 40 40)) with (whole 40 40) in E0.
    fold st in E0. destruct st as [a b] eqn:ES. cbn [combine synth_loop rbind length] in E0. injection E0 as <- <- <-.
    unfold st, standard in ES. cbn [p0 o0 q_h q_w q_data o_data] in ES. rewrite standardize_parts in ES. unfold scaled_parts in ES. cbv zeta in ES. cbn [fst snd] in ES. injection ES as <- <-. cbn [q_data].
    assert (MM : sqrt (mean2 40 40 (abs2 (pixel 12 10))) <> 0%R).
    { apply Rgt_not_eq, sqrt_lt_R0. unfold mean2. replace (isum 40 40 (abs2 (pixel 12 10))) with (power 40 40 (pixel 12 10)) by (unfold isum, power, abs2; apply rsum_ext; intros i _; apply rsum_ext; intros j _; rewrite Cmod_nrm2, pow2_sqrt by apply nrm2_nonneg; reflexivity).
      rewrite PW. apply Rdiv_lt_0_compat; [lra|]. apply lt_0_INR. lia. }
    set (n := sqrt (mean2 40 40 (abs2 (pixel 12 10)))) in *. assert (NC : RtoC n <> 0) by (intros Z; apply RtoC_inj in Z; contradiction).
    assert (N1 : RtoC (INR (0 + 1)) <> 0) by (intros Z; apply RtoC_inj in Z; cbn in Z; lra).
    assert (CN : forall t, cis t <> 0) by (intros t Z; pose proof (Cmod_cis t) as Q; rewrite Z, Cmod_0 in Q; lra).
    set (t := cis (- angle (icsum 40 40 (fun i j => pixel 12 10 i j / RtoC n)))). set (t' := cis (- angle (icsum 40 40 (fun i j => pixel 20 21 i j * RtoC n)))).
    exists (/ RtoC n * t / RtoC (INR (0 + 1))), (RtoC n * t' / RtoC (INR (0 + 1))). split; [|split; [|split]].
    3:{ intros k i j. change (pixel 12 10 i j / RtoC n * t / RtoC (INR (0 + 1)) = / RtoC n * t / RtoC (INR (0 + 1)) * pixel 12 10 i j). unfold Cdiv. ring. }
    3:{ intros i j. change (pixel 20 21 i j * RtoC n * t' / RtoC (INR (0 + 1)) = RtoC n * t' / RtoC (INR (0 + 1)) * pixel 20 21 i j). unfold Cdiv. ring. }
    - unfold Cdiv. repeat apply Cmult_neq_0; try apply CN; intros Z; [apply (f_equal (fun u => RtoC n * u)) in Z; rewrite Cinv_r, Cmult_0_r in Z by exact NC|apply (f_equal (fun u => RtoC (INR (0 + 1)) * u)) in Z; rewrite Cinv_r, Cmult_0_r in Z by exact N1]; apply RtoC_inj in Z; lra.
    - unfold Cdiv. repeat apply Cmult_neq_0; try apply CN; try exact NC. intros Z. apply (f_equal (fun u => RtoC (INR (0 + 1)) * u)) in Z. rewrite Cinv_r, Cmult_0_r in Z by exact N1. apply RtoC_inj in Z. lra. }
  destruct FORM as (g & g' & NG & NG' & FP & FO).
  destruct (C81_copies p0 o0 [p1] [o1] up (Some (whole 40 40)) false sp0 so0 st0) as (sp & so & stack & E & A & B & L & _); cbn [p0 o0 o_H o_W q_h q_w q_l]; try lia.
  - reflexivity.
  - intros p o [Q|[]]. injection Q as <- <-. exists 3%Z, (-5)%Z. split; [|right; split; [reflexivity|split; [reflexivity|now left]]].
    split; [reflexivity|]. split; [reflexivity|]. split; [reflexivity|]. split; [reflexivity|]. split; [reflexivity|]. split; [reflexivity|].
    exists 2%R, (fun _ => Ci), (- (1)). split; [lra|]. split; [|split; [|split]].
    + intros _. unfold unit_modulus, Cmod, Ci. cbn [fst snd]. replace (0 ^ 2 + 1 ^ 2)%R with 1%R by (cbn; ring). apply sqrt_1.
    + unfold unit_modulus. rewrite Cmod_opp. apply Cmod_1.
    + intros k _ i j _ _. reflexivity.
    + intros i j _ _. reflexivity.
  - change (0 < power 40 40 (pixel 12 10))%R. rewrite PW. lra.
  - exact E0.
  - intros k _. change (icsum 40 40 (q_data sp0 k) <> 0). rewrite (icsum_same 40 40 _ (fun i j => g * pixel 12 10 i j)) by (intros i j _ _; apply FP).
    rewrite icsum_scal, TOT by lia. rewrite Cmult_1_r. exact NG.
  - rewrite window_total_cut. change (icsum 40 40 so0 <> 0). rewrite (icsum_same 40 40 _ (fun i j => g' * pixel 20 21 i j)) by (intros i j _ _; apply FO).
    rewrite icsum_scal, TOT by lia. rewrite Cmult_1_r. exact NG'.
  - assert (FE : forall x y, same 40 40 x y -> full_spectrum 40 40 x -> full_spectrum 40 40 y) by (intros x y Q F k l Lk Ll; rewrite <- (fft2_ext 40 40 x y k l Q); now apply F).
    destruct up.
    + split; [reflexivity|]. split; [lia|]. split; [lia|]. apply (FE (fun i j => g * pixel 12 10 i j)); [intros i j _ _; symmetry; apply FP|apply PS; auto; lia].
    + change (30 <= 40 /\ 30 <= 40 /\ full_spectrum 40 40 so0)%nat. split; [lia|]. split; [lia|]. apply (FE (fun i j => g' * pixel 20 21 i j)); [intros i j _ _; symmetry; apply FO|apply PS; auto; lia].
  - exists sp0, so0, st0, sp, so, stack. split; [exact E0|]. split; [exact E|]. split; [exact A|]. split; [exact B|exact L].
Qed.
