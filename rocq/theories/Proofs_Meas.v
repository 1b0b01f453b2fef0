(** Lemmas about measurements. *)
From Verif Require Import Base FinSum Fourier Model_Prop Spec_Prop Model_Meas Spec_Meas.
From Coquelicot Require Import Complex.
Local Open Scope R_scope.

Lemma lsum_app' a b : lsum (a ++ b) = lsum a + lsum b.
Proof. unfold lsum. induction a as [|x a IH]; cbn [app fold_right]; [ring|]. rewrite IH. ring. Qed.
Lemma lsum_ext {A} (f g : A -> R) l : (forall x, In x l -> f x = g x) -> lsum (map f l) = lsum (map g l).
Proof. intros H. f_equal. now apply map_ext_in. Qed.
Lemma lsum_nonneg' {A} (f : A -> R) l : (forall x, 0 <= f x) -> 0 <= lsum (map f l).
Proof. intros H. unfold lsum. induction l as [|a l IH]; cbn [map fold_right]; [lra|]. pose proof (H a). lra. Qed.
Lemma rsum_lsum_swap {A} n (f : nat -> A -> R) l : rsum n (fun i => lsum (map (f i) l)) = lsum (map (fun x => rsum n (fun i => f i x)) l).
Proof.
  unfold lsum. induction l as [|a l IH]; cbn [map fold_right]; [apply rsum_zero|]. now rewrite rsum_add, IH.
Qed.
Definition detector (k : nat) (modes : list img) (i j : nat) : R := block_power k modes i j / INR (k * k).
Lemma pooled k modes i j : (0 < k)%nat ->
  (if Nat.eqb k 1 then (fun i j => lsum (map (fun psi : img => Cmod (psi i j) ^ 2) modes)) else avg_pool2d k (fun i j => lsum (map (fun psi : img => Cmod (psi i j) ^ 2) modes))) i j
  = detector k modes i j.
Proof.
  intros Hk. unfold detector, block_power.
  assert (G : avg_pool2d k (fun i j => lsum (map (fun psi : img => Cmod (psi i j) ^ 2) modes)) i j = lsum (map (fun psi : img => rsum k (fun a => rsum k (fun b => nrm2 (psi (i * k + a)%nat (j * k + b)%nat)))) modes) / INR (k * k)).
  { unfold avg_pool2d. f_equal.
    rewrite <- (rsum_lsum_swap k (fun a (psi : img) => rsum k (fun b => nrm2 (psi (i * k + a)%nat (j * k + b)%nat))) modes).
    apply rsum_ext. intros a _. rewrite <- (rsum_lsum_swap k (fun b (psi : img) => nrm2 (psi (i * k + a)%nat (j * k + b)%nat)) modes).
    apply rsum_ext. intros b _. apply lsum_ext. intros psi _. now rewrite nrm2_Cmod. }
  destruct (Nat.eqb_spec k 1) as [->|Hne]; [|exact G]. rewrite <- G. unfold avg_pool2d, rsum, fsum. cbn [Nat.mul Nat.add INR].
  rewrite !Nat.mul_1_r, !Nat.add_0_r. field.
Qed.
Lemma incoherent_value o modes i j : (0 < o_over o)%nat ->
  incoherent_sum o modes i j = saturate (o_sat o) (at_slice (o_slice o) (detector (o_over o) modes) i j + o_eps o).
Proof.
  intros Hk. unfold incoherent_sum, finish, at_slice. destruct (o_slice o) as [[r c]|]; now rewrite pooled.
Qed.
Lemma intensity_is_sum o psi i j : intensity o psi i j = incoherent_sum o [psi] i j.
Proof.
  unfold intensity, incoherent_sum, finish. f_equal. f_equal.
  assert (E : forall i j, Cmod (psi i j) ^ 2 = lsum (map (fun p : img => Cmod (p i j) ^ 2) [psi])) by (intros; cbn; ring).
  destruct (Nat.eqb (o_over o) 1), (o_slice o) as [[r c]|]; try apply E; unfold avg_pool2d; f_equal; apply rsum_ext; intros a _; apply rsum_ext; intros b _; apply E.
Qed.
Lemma block_nonneg k modes i j : 0 <= block_power k modes i j.
Proof. apply lsum_nonneg'. intros psi. apply rsum_nonneg. intros a _. apply rsum_nonneg. intros b _. apply nrm2_nonneg. Qed.
Lemma detector_nonneg k modes i j : (0 < k)%nat -> 0 <= detector k modes i j.
Proof.
  intros H. unfold detector. apply Rmult_le_pos; [apply block_nonneg|]. apply Rlt_le, Rinv_0_lt_compat, lt_0_INR. nia.
Qed.
Lemma saturate_le sat x s : sat = Some s -> saturate sat x <= s.
Proof. intros ->. cbn. unfold clamp. apply Rmin_r. Qed.
Lemma saturate_ge sat x e : 0 <= e <= x -> (forall s, sat = Some s -> e <= s) -> e <= saturate sat x.
Proof.
  intros H Hs. destruct sat as [s|]; cbn; [|lra]. unfold clamp. apply Rmin_glb; [|now apply Hs]. eapply Rle_trans; [apply H|]. apply Rmax_l.
Qed.
Lemma saturate_mono sat x y : x <= y -> saturate sat x <= saturate sat y.
Proof.
  intros H. destruct sat as [s|]; cbn; [|exact H]. unfold clamp. apply Rle_min_compat_r. now apply Rle_max_compat_r.
Qed.
Lemma saturate_below sat x : 0 <= x -> (forall s, sat = Some s -> x <= s) -> saturate sat x = x.
Proof.
  intros H Hs. destruct sat as [s|]; cbn; [|reflexivity]. unfold clamp. rewrite Rmax_left, Rmin_left; [reflexivity|now apply Hs|exact H].
Qed.
Lemma mix_power u m n psi p q : isometry m n u ->
  lsum (map (fun f : img => nrm2 (f p q)) (mix u n psi m)) = lsum (map (fun f : img => nrm2 (f p q)) (map psi (seq 0 n))).
Proof.
  intros U. unfold mix. rewrite !map_map.
  rewrite <- (rsum_lsum m (fun k => nrm2 (csum n (fun l => (u k l * psi l p q)%C)))), <- (rsum_lsum n (fun l => nrm2 (psi l p q))).
  apply RtoC_inj. rewrite <- !csum_RtoC.
  rewrite (csum_ext m _ (fun k => csum n (fun l => csum n (fun l' => (psi l p q * Cconj (psi l' p q) * (u k l * Cconj (u k l')))%C)))).
  2:{ intros k _. rewrite <- mult_conj, csum_conj, csum_scal_r. apply csum_ext. intros l _. rewrite csum_scal. apply csum_ext. intros l' _. rewrite Cconj_mult. ring. }
  rewrite csum_swap. apply csum_ext. intros l Hl. rewrite csum_swap.
  rewrite (csum_ext n _ (fun l' => (psi l p q * Cconj (psi l' p q) * (if Nat.eqb l l' then RtoC 1 else RtoC 0))%C)).
  2:{ intros l' Hl'. rewrite <- csum_scal. now rewrite (U l l' Hl Hl'). }
  rewrite (csum_single n l); [|exact Hl|].
  - rewrite Nat.eqb_refl, <- mult_conj. ring.
  - intros l' _ Hne. destruct (Nat.eqb_spec l l'); [congruence|]. ring.
Qed.
