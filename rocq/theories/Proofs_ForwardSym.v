(** Linearity lemmas for the forward models. *)
From Verif Require Import Base FinSum Fourier Model_Prop Spec_Prop Proofs_Prop Model_Image Spec_Image Proofs_Image
  Model_Interact Spec_Interact Proofs_Interact Model_Meas Spec_Meas Proofs_Meas Model_Geom Model_Models Model_Forward Spec_Forward Proofs_Forward.
From Coquelicot Require Import Complex.
From Flocq Require Import Core.Raux.
Local Open Scope C_scope.

Definition comb (n : nat) (u : nat -> C) (f : nat -> img) : img := fun i j => csum n (fun q => u q * f q i j).
(** An operator that keeps linear combinations, on the shapes (n0, n1) -> (N0, N1). *)
Definition linear_map (n0 n1 N0 N1 : nat) (A : img -> img) : Prop :=
  (forall x y, same n0 n1 x y -> same N0 N1 (A x) (A y)) /\
  (forall n u f, same N0 N1 (A (comb n u f)) (comb n u (fun q => A (f q)))).
Lemma lin_scal n0 n1 N0 N1 A c x : linear_map n0 n1 N0 N1 A -> same N0 N1 (A (fun i j => c * x i j)) (fun i j => c * A x i j).
Proof.
  intros [E L] i j Hi Hj.
  rewrite (E _ (comb 1 (fun _ => c) (fun _ => x))); [|intros a b _ _; unfold comb, csum, fsum; ring|assumption|assumption].
  rewrite (L 1%nat (fun _ => c) (fun _ => x) i j Hi Hj). unfold comb, csum, fsum. ring.
Qed.
Lemma centred_linear N M : linear_map N M N M (centred_ft N M).
Proof.
  split.
  - intros x y H i j _ _. unfold centred_ft. f_equal. apply csum_ext. intros a Ha. apply csum_ext. intros b Hb. now rewrite H.
  - intros n u f i j _ _. unfold centred_ft, comb.
    rewrite (csum_ext N _ (fun a => csum n (fun q => csum M (fun b => u q * f q a b * cis (- (2 * PI) * (IZR (off N i * off N a) / INR N + IZR (off M j * off M b) / INR M)))))).
    2:{ intros a Ha. rewrite (csum_ext M _ (fun b => csum n (fun q => u q * f q a b * cis (- (2 * PI) * (IZR (off N i * off N a) / INR N + IZR (off M j * off M b) / INR M))))) by (intros b _; apply csum_scal_r). apply csum_swap. }
    rewrite csum_swap, csum_scal. apply csum_ext. intros q _. rewrite !csum_scal. apply csum_ext. intros a _. rewrite !csum_scal. apply csum_ext. intros b _. ring.
Qed.
Lemma trig_comb N M n u f a b : trig_interp N M (comb n u f) a b = csum n (fun q => u q * trig_interp N M (f q) a b).
Proof.
  unfold trig_interp.
  rewrite (csum_ext N _ (fun k => csum n (fun q => csum M (fun l => u q * centred_ft N M (f q) k l * cis (2 * PI * (IZR (off N k) * a / INR N + IZR (off M l) * b / INR M)))))).
  2:{ intros k Hk. rewrite (csum_ext M _ (fun l => csum n (fun q => u q * centred_ft N M (f q) k l * cis (2 * PI * (IZR (off N k) * a / INR N + IZR (off M l) * b / INR M))))).
      - apply csum_swap.
      - intros l Hl. rewrite (proj2 (centred_linear N M) n u f k l Hk Hl). unfold comb. apply csum_scal_r. }
  rewrite csum_swap, csum_scal. apply csum_ext. intros q _. rewrite !csum_scal. apply csum_ext. intros k _. rewrite !csum_scal. apply csum_ext. intros l _. ring.
Qed.
Lemma illumination_linear n0 n1 N0 N1 s0 s1 : linear_map n0 n1 N0 N1 (fun E => illumination n0 n1 N0 N1 E s0 s1).
Proof.
  split.
  - intros x y H i j _ _. unfold illumination. f_equal. now apply trig_ext.
  - intros n u f i j _ _. unfold illumination, comb at 2. fold (comb n u f). rewrite trig_comb, csum_scal. apply csum_ext. intros. ring.
Qed.
Lemma exit_linear m q pos : linear_map (f_n0 m) (f_n1 m) (fancy_N0 m) (fancy_N1 m) (fun E => exit_wave m E q pos).
Proof.
  destruct (illumination_linear (f_n0 m) (f_n1 m) (fancy_N0 m) (fancy_N1 m) (fst pos - IZR (Zfloor (fst pos))) (snd pos - IZR (Zfloor (snd pos)))) as [IE IL].
  unfold exit_wave. fold (fancy_N0 m) (fancy_N1 m). split.
  - intros x y H. destruct (f_near m).
    + intros i j _ _. apply trig_ext. intros a b Ha Hb. do 2 f_equal. now apply IE.
    + intros a b Ha Hb. do 2 f_equal. now apply IE.
  - intros n u f.
    assert (Q : same (fancy_N0 m) (fancy_N1 m) (fun i j => RtoC (f_norm m) * (illumination (f_n0 m) (f_n1 m) (fancy_N0 m) (fancy_N1 m) (comb n u f) (fst pos - IZR (Zfloor (fst pos))) (snd pos - IZR (Zfloor (snd pos))) i j * transmit m (f_obj m q (Zfloor (fst pos) + Z.of_nat i)%Z (Zfloor (snd pos) + Z.of_nat j)%Z)))
      (comb n u (fun q' i j => RtoC (f_norm m) * (illumination (f_n0 m) (f_n1 m) (fancy_N0 m) (fancy_N1 m) (f q') (fst pos - IZR (Zfloor (fst pos))) (snd pos - IZR (Zfloor (snd pos))) i j * transmit m (f_obj m q (Zfloor (fst pos) + Z.of_nat i)%Z (Zfloor (snd pos) + Z.of_nat j)%Z))))).
    { intros a b Ha Hb. rewrite (IL n u f a b Ha Hb). unfold comb. rewrite csum_scal_r, csum_scal. apply csum_ext. intros. ring. }
    destruct (f_near m); [|exact Q]. intros i j Hi Hj. rewrite (trig_ext _ _ _ _ _ _ Q). apply trig_comb.
Qed.
Lemma near_linear_map N M p : linear_map N M N M (fun x => near_field N M x p).
Proof.
  split.
  - intros x y H i j _ _. apply near_ext; [exact H|now intros ? ? _ _].
  - intros n u f i j Hi Hj. unfold comb at 2. induction n as [|n IH].
    + unfold csum at 1. cbn [fsum]. change (comb 0 u f) with (fun _ _ : nat => RtoC 0).
      pose proof (near_linear N M 0 (fun _ _ => RtoC 0) 0 (fun _ _ => RtoC 0) p i j) as L.
      rewrite (near_ext N M _ (fun _ _ => RtoC 0) p p) in L; [|intros a b _ _; unfold lin; ring|now intros ? ? _ _]. rewrite L. ring.
    + rewrite csum_S, <- IH. pose proof (near_linear N M 1 (comb n u f) (u n) (f n) p i j) as L.
      rewrite Cmult_1_l in L. rewrite <- L. apply near_ext; [|now intros ? ? _ _]. intros a b _ _. unfold lin, comb. rewrite csum_S. ring.
Qed.
Lemma detector_linear m : linear_map (fancy_N0 m) (fancy_N1 m) (fancy_N0 m) (fancy_N1 m) (at_detector m).
Proof.
  unfold at_detector. fold (fancy_N0 m) (fancy_N1 m). destruct (f_near m); [|apply centred_linear].
  destruct (f_propagator m); [apply near_linear_map|apply centred_linear].
Qed.
Lemma inv_far_linear N M : (0 < N)%nat -> (0 < M)%nat -> linear_map N M N M (inverse_far_field N M).
Proof.
  intros HN HM. split.
  - intros x y H. now apply inv_far_ext.
  - intros n u f i j _ _. unfold comb. apply inv_far_csum.
Qed.
(** photons of waves that agree up to a common factor *)
Lemma photons_ext os n0 n1 xs ys c i j : length xs = length ys -> (i < n0)%nat -> (j < n1)%nat ->
  (forall k, (k < length xs)%nat -> same (os * n0) (os * n1) (nth k ys no_img) (fun a b => c * nth k xs no_img a b)) ->
  photons os ys i j = (nrm2 c * photons os xs i j)%R.
Proof.
  intros L Hi Hj V. unfold photons.
  assert (NX : xs = map (fun k => nth k xs no_img) (seq 0 (length xs))).
  { apply nth_ext with (d := no_img) (d' := no_img); [now rewrite map_length, seq_length|]. intros n Hn. now rewrite nth_map_seq. }
  assert (NY : ys = map (fun k => nth k ys no_img) (seq 0 (length xs))).
  { apply nth_ext with (d := no_img) (d' := no_img); [now rewrite map_length, seq_length|]. intros n Hn. rewrite nth_map_seq by lia. reflexivity. }
  rewrite NX, NY at 1. rewrite !map_map.
  assert (SC : forall l (g : nat -> R), lsum (map (fun k => nrm2 c * g k)%R l) = (nrm2 c * lsum (map g l))%R).
  { intros l g. unfold lsum. induction l as [|a l IH]; cbn [map fold_right]; [ring|]. rewrite IH. ring. }
  unfold Rdiv. rewrite <- Rmult_assoc. f_equal. rewrite <- SC. apply lsum_ext. intros k Hk. apply in_seq in Hk.
  rewrite rsum_scal. apply rsum_ext. intros a Ha. rewrite rsum_scal. apply rsum_ext. intros b Hb.
  rewrite (V k) by (try lia; nia). apply nrm2_mult.
Qed.
Lemma photons_same os n0 n1 xs ys i j : length xs = length ys -> (i < n0)%nat -> (j < n1)%nat ->
  (forall k, (k < length xs)%nat -> same (os * n0) (os * n1) (nth k ys no_img) (nth k xs no_img)) ->
  photons os ys i j = photons os xs i j.
Proof.
  intros L Hi Hj V. rewrite (photons_ext os n0 n1 xs ys 1 i j L Hi Hj).
  - unfold nrm2. cbn. ring.
  - intros k Hk a b Ha Hb. rewrite (V k Hk a b Ha Hb). ring.
Qed.
