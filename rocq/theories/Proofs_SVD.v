(** Consequences of a singular value decomposition. *)
From Verif Require Import Base FinSum Fourier Matrix Model_Prop Model_Analysis Spec_Analysis.
From Coquelicot Require Import Complex.
Local Open Scope C_scope.

(** is_svd with an explicit number k of singular values. *)
Definition gsvd (n m k : nat) (A : mat) (r : svd_result) : Prop :=
  ortho_cols n k (svd_U r) /\ ortho_rows k m (svd_Vh r) /\
  (forall a, (a < k)%nat -> (0 <= svd_S r a)%R) /\
  (forall a b, (a <= b)%nat -> (b < k)%nat -> (svd_S r b <= svd_S r a)%R) /\
  (forall i j, (i < n)%nat -> (j < m)%nat -> A i j = csum k (fun a => svd_U r i a * RtoC (svd_S r a) * svd_Vh r a j)).
Lemma is_svd_gsvd n m A r : is_svd n m A r <-> gsvd n m (Nat.min n m) A r.
Proof. unfold is_svd, gsvd. tauto. Qed.

Lemma mm_ext k A A' B B' i j : (forall q, (q < k)%nat -> A i q = A' i q) -> (forall q, (q < k)%nat -> B q j = B' q j) -> mm k A B i j = mm k A' B' i j.
Proof. intros H1 H2. apply csum_ext. intros q H. rewrite H1, H2; auto. Qed.

Lemma product_gsvd L n r m A B : product_right L n r m A B ->
  gsvd n m (Nat.min (Nat.min n r) (Nat.min m r)) (mm r A B) (product_svd L n r m A B).
Proof.
  unfold product_right, qr_right, svd_right, product_svd.
  destruct (qr L n r A) as [Qa Ra]. destruct (qr L m r (herm B)) as [Qb Rb]. cbn [fst snd].
  set (k1 := Nat.min n r). set (k2 := Nat.min m r). set (s := svd L k1 k2 _).
  intros [[QA [_ EA]] [[QB [_ EB]] [SU [SV [S0 [SD SE]]]]]]. cbn [fst snd] in *. fold k1 in QA, EA. fold k2 in QB, EB.
  set (k := Nat.min k1 k2) in *.
  split; [|split; [|split; [|split]]]; cbn [svd_U svd_S svd_Vh]; auto.
  - apply ortho_cols_mm; auto.
  - apply ortho_rows_herm. apply ortho_rows_herm in SV.
    apply ortho_cols_ext with (mm k2 Qb (herm (svd_Vh s))); [|apply ortho_cols_mm; auto].
    intros i a _ _. rewrite herm_mm. apply mm_ext; intros; auto. rewrite herm_herm. reflexivity.
  - intros i j Hi Hj.
    transitivity (mm k1 Qa (mm k2 (mm r Ra (herm Rb)) (herm Qb)) i j).
    + rewrite <- mm_assoc. rewrite (mm_ext k2 (mm k1 Qa (mm r Ra (herm Rb))) (mm r (mm k1 Qa Ra) (herm Rb)) (herm Qb) (herm Qb)).
      2:{ intros q _. rewrite mm_assoc. reflexivity. } 2: reflexivity.
      rewrite mm_assoc. apply mm_ext; intros q Hq.
      * apply EA; auto.
      * rewrite <- herm_mm. unfold herm at 1. rewrite <- EB by auto. unfold herm. rewrite Cconj_invol. reflexivity.
    + rewrite (mm_ext k1 Qa Qa _ (mm k2 (fun a b => csum k (fun c => svd_U s a c * RtoC (svd_S s c) * svd_Vh s c b)) (herm Qb))); auto.
      2:{ intros q Hq. apply mm_ext; auto. }
      transitivity (mm k (fun a c => mm k1 Qa (svd_U s) a c * RtoC (svd_S s c)) (mm k2 (svd_Vh s) (herm Qb)) i j); [|reflexivity].
      rewrite <- mm_assoc.
      transitivity (mm k2 (mm k (fun a c => mm k1 Qa (svd_U s) a c * RtoC (svd_S s c)) (svd_Vh s)) (herm Qb) i j); [|apply mm_assoc].
      apply mm_ext; auto. intros q Hq. unfold mm.
      rewrite (csum_ext k1 _ (fun a => csum k (fun c => Qa i a * svd_U s a c * RtoC (svd_S s c) * svd_Vh s c q))).
      2:{ intros a _. rewrite csum_scal. apply csum_ext. intros c _. ring. }
      rewrite csum_swap. apply csum_ext. intros c _. rewrite !csum_scal_r. reflexivity.
Qed.

(** The rows of diag(S) Vh have the same coherence as those of A. *)
Lemma gsvd_coherence n m k A r p q : gsvd n m k A r -> (p < m)%nat -> (q < m)%nat ->
  csum n (fun i => Cconj (A i p) * A i q) =
  csum k (fun a => Cconj (RtoC (svd_S r a) * svd_Vh r a p) * (RtoC (svd_S r a) * svd_Vh r a q)).
Proof.
  intros [U [_ [_ [_ E]]]] Hp Hq.
  etransitivity; [|exact (iso_ip n k (svd_U r) (fun a => RtoC (svd_S r a) * svd_Vh r a p) (fun a => RtoC (svd_S r a) * svd_Vh r a q) U)].
  apply ip_ext; intros i Hi; rewrite E; auto; apply csum_ext; intros; ring.
Qed.
Lemma gsvd_dot n m k A r a b : gsvd n m k A r -> (a < k)%nat -> (b < k)%nat ->
  csum m (fun p => Cconj (RtoC (svd_S r a) * svd_Vh r a p) * (RtoC (svd_S r b) * svd_Vh r b p)) = RtoC (svd_S r a * svd_S r b) * delta a b.
Proof.
  intros [_ [V _]] Ha Hb. rewrite delta_sym, <- (V b a Hb Ha), csum_scal. apply csum_ext. intros p _.
  rewrite Cconj_mult, Cconj_RtoC, RtoC_mult. ring.
Qed.
Lemma gsvd_row_power n m k A r a : gsvd n m k A r -> (a < k)%nat ->
  rsum m (fun p => nrm2 (RtoC (svd_S r a) * svd_Vh r a p)) = (svd_S r a ^ 2)%R.
Proof.
  intros G Ha. apply RtoC_inj. rewrite <- csum_RtoC.
  rewrite (csum_ext m _ (fun p => Cconj (RtoC (svd_S r a) * svd_Vh r a p) * (RtoC (svd_S r a) * svd_Vh r a p))).
  2:{ intros p _. rewrite <- mult_conj. ring. }
  rewrite (gsvd_dot n m k A r a a) by auto. unfold delta. rewrite Nat.eqb_refl. rewrite Cmult_1_r. f_equal. ring.
Qed.

(** ---- Ky Fan: the singular values are determined by the coherence of the rows ---- *)
(** Total power of the rows of A in the direction x. *)
Definition energy (n m : nat) (A : mat) (x : vec) : R := nsq n (fun i => csum m (fun j => A i j * x j)).
Lemma energy_coherence n m A x : RtoC (energy n m A x) = csum m (fun p => csum m (fun q => Cconj (x p) * x q * csum n (fun i => Cconj (A i p) * A i q))).
Proof.
  unfold energy. rewrite <- ip_self.
  rewrite (ip_ext n _ (fun i => csum m (fun j => x j * A i j)) _ (fun i => csum m (fun j => x j * A i j))).
  2,3: intros; apply csum_ext; intros; ring.
  rewrite (ip_csum_l n m _ x (fun j i => A i j)). apply csum_ext. intros p _.
  rewrite (ip_csum_r n m _ x (fun j i => A i j)), csum_scal. apply csum_ext. intros q _. unfold ip. ring.
Qed.
Lemma gsvd_energy n m k A r x : gsvd n m k A r ->
  energy n m A x = rsum k (fun a => svd_S r a ^ 2 * nrm2 (ip m (fun j => herm (svd_Vh r) j a) x))%R.
Proof.
  intros [U [_ [_ [_ E]]]]. unfold energy.
  rewrite (nsq_ext n _ (fun i => csum k (fun a => (RtoC (svd_S r a) * ip m (fun j => herm (svd_Vh r) j a) x) * svd_U r i a))).
  - rewrite (iso_nsq n k (svd_U r)) by auto. apply rsum_ext. intros a _. rewrite nrm2_mult, nrm2_RtoC. ring.
  - intros i Hi. rewrite (csum_ext m _ (fun j => csum k (fun a => svd_U r i a * RtoC (svd_S r a) * (svd_Vh r a j * x j)))).
    2:{ intros j Hj. rewrite E by auto. rewrite csum_scal_r. apply csum_ext. intros; ring. }
    rewrite csum_swap. apply csum_ext. intros a _. rewrite <- csum_scal. unfold ip, herm.
    rewrite (csum_ext m (fun i0 => Cconj (Cconj (svd_Vh r a i0)) * x i0) (fun j => svd_Vh r a j * x j)); [ring|].
    intros j _. rewrite Cconj_invol. reflexivity.
Qed.
(** Weighted sums with weights in [0,1] of total at most t pick at most the t largest. *)
Lemma rearrange k t (s c : nat -> R) :
  (forall a, (a < k)%nat -> (0 <= s a)%R) -> (forall a b, (a <= b)%nat -> (b < k)%nat -> (s b <= s a)%R) ->
  (forall a, (a < k)%nat -> (0 <= c a <= 1)%R) -> (rsum k c <= INR t)%R ->
  (rsum k (fun a => s a * c a) <= rsum (Nat.min t k) s)%R.
Proof.
  intros S0 SD C0 CT. destruct (le_lt_dec k t) as [L|L].
  - rewrite Nat.min_r by auto. apply rsum_le. intros a Ha. specialize (C0 a Ha). specialize (S0 a Ha). nra.
  - rewrite Nat.min_l by lia. replace k with (t + (k - t))%nat in * by lia. remember (k - t)%nat as d.
    rewrite rsum_split in *.
    assert (A : (rsum d (fun i => s (t + i)%nat * c (t + i)%nat) <= s t * rsum d (fun i => c (t + i)%nat))%R).
    { rewrite rsum_scal. apply rsum_le. intros i Hi. apply Rmult_le_compat_r; [apply C0; lia|]. apply SD; lia. }
    assert (B : (s t * (INR t - rsum t c) <= rsum t (fun a => s a * (1 - c a)))%R).
    { replace (INR t - rsum t c)%R with (rsum t (fun a => 1 - c a))%R.
      - rewrite rsum_scal. apply rsum_le. intros a Ha. apply Rmult_le_compat_r; [specialize (C0 a ltac:(lia)); lra|]. apply SD; lia.
      - unfold Rminus. rewrite rsum_add, rsum_const. rewrite (rsum_ext t (fun i => - c i)%R (fun i => (-1) * c i)%R) by (intros; ring).
        rewrite <- rsum_scal. ring. }
    assert (D : rsum t (fun a => s a * (1 - c a))%R = (rsum t s - rsum t (fun a => s a * c a))%R).
    { rewrite (rsum_ext t (fun a => s a * (1 - c a))%R (fun a => s a + (-1) * (s a * c a))%R) by (intros; ring).
      rewrite rsum_add, <- rsum_scal. ring. }
    assert (P : (0 <= s t)%R) by (apply S0; lia).
    assert (Q : (s t * rsum d (fun i => c (t + i)%nat) <= s t * (INR t - rsum t c))%R) by (apply Rmult_le_compat_l; lra).
    lra.
Qed.
Lemma ky_fan_le n m k A r t X : gsvd n m k A r -> ortho_cols m t X ->
  (rsum t (fun i => energy n m A (fun j => X j i)) <= rsum (Nat.min t k) (fun a => svd_S r a ^ 2))%R.
Proof.
  intros G HX. destruct (G) as [U [V [S0 [SD E]]]]. apply ortho_rows_herm in V.
  rewrite (rsum_ext t _ (fun i => rsum k (fun a => svd_S r a ^ 2 * nrm2 (ip m (fun j => herm (svd_Vh r) j a) (fun j => X j i)))%R)).
  2:{ intros i _. apply gsvd_energy; auto. }
  rewrite rsum_swap. set (c := fun a => rsum t (fun i => nrm2 (ip m (fun j => herm (svd_Vh r) j a) (fun j => X j i)))).
  rewrite (rsum_ext k _ (fun a => svd_S r a ^ 2 * c a)%R).
  2:{ intros a _. unfold c. rewrite rsum_scal. reflexivity. }
  apply (rearrange k t (fun a => svd_S r a ^ 2)%R c).
  - intros a Ha. specialize (S0 a Ha). nra.
  - intros a b Hab Hb. specialize (SD a b Hab Hb). specialize (S0 b Hb). nra.
  - intros a Ha. split; [apply rsum_nonneg; intros; apply nrm2_nonneg|].
    unfold c. rewrite (rsum_ext t _ (fun i => nrm2 (ip m (fun j => X j i) (fun j => herm (svd_Vh r) j a)))).
    2:{ intros i _. rewrite <- ip_conj, nrm2_conj. reflexivity. }
    eapply Rle_trans; [apply (bessel m t X); auto|].
    apply Req_le. apply RtoC_inj. rewrite <- ip_self. rewrite V by auto. unfold delta. rewrite Nat.eqb_refl. reflexivity.
  - unfold c. rewrite rsum_swap. eapply Rle_trans; [apply rsum_le with (g := fun _ => 1%R)|].
    + intros i Hi. eapply Rle_trans; [apply (bessel m k (herm (svd_Vh r))); auto|].
      apply Req_le. apply RtoC_inj. rewrite <- ip_self. rewrite HX by auto. unfold delta. rewrite Nat.eqb_refl. reflexivity.
    + rewrite rsum_const. lra.
Qed.
Lemma ky_fan_eq n m k A r t : gsvd n m k A r -> (t <= k)%nat ->
  rsum t (fun i => energy n m A (fun j => herm (svd_Vh r) j i)) = rsum t (fun a => svd_S r a ^ 2)%R.
Proof.
  intros G Ht. apply rsum_ext. intros i Hi. rewrite (gsvd_energy n m k A r) by auto.
  destruct G as [_ [V _]]. apply ortho_rows_herm in V.
  rewrite (rsum_single k i); [|lia|].
  - rewrite V by lia. unfold delta. rewrite Nat.eqb_refl, nrm2_RtoC. ring.
  - intros a Ha N. rewrite V by lia. unfold delta. replace (Nat.eqb a i) with false by (symmetry; apply Nat.eqb_neq; auto).
    rewrite nrm2_RtoC. ring.
Qed.
(** Singular values continued by 0. *)
Definition padded (k : nat) (s : nat -> R) (a : nat) : R := if Nat.ltb a k then s a else 0%R.
Lemma rsum_padded k s t : rsum t (padded k s) = rsum (Nat.min t k) s.
Proof.
  destruct (le_lt_dec t k) as [L|L].
  - rewrite Nat.min_l by auto. apply rsum_ext. intros i Hi. unfold padded. replace (Nat.ltb i k) with true by (symmetry; apply Nat.ltb_lt; lia). reflexivity.
  - rewrite Nat.min_r by lia. rewrite (rsum_extend k t) by (try lia; intros i Hi; unfold padded; replace (Nat.ltb i k) with false by (symmetry; apply Nat.ltb_ge; lia); reflexivity).
    apply rsum_ext. intros i Hi. unfold padded. replace (Nat.ltb i k) with true by (symmetry; apply Nat.ltb_lt; lia). reflexivity.
Qed.
Lemma sums_determine (s s' : nat -> R) : (forall t, rsum t s = rsum t s') -> forall a, s a = s' a.
Proof. intros H a. pose proof (H (S a)) as B. rewrite !rsum_S, (H a) in B. lra. Qed.
Lemma ky_fan_half n n' m k k' A A' r r' : gsvd n m k A r -> gsvd n' m k' A' r' ->
  (forall p q, (p < m)%nat -> (q < m)%nat -> csum n (fun i => Cconj (A i p) * A i q) = csum n' (fun i => Cconj (A' i p) * A' i q)) ->
  forall t, (rsum (Nat.min t k') (fun a => svd_S r' a ^ 2) <= rsum (Nat.min t k) (fun a => svd_S r a ^ 2))%R.
Proof.
  intros G G' E t. set (u := Nat.min t k').
  rewrite <- (ky_fan_eq n' m k' A' r' u G') by lia.
  rewrite (rsum_ext u _ (fun i => energy n m A (fun j => herm (svd_Vh r') j i))).
  2:{ intros i _. apply RtoC_inj. rewrite !energy_coherence. apply csum_ext. intros p Hp. apply csum_ext. intros q Hq. rewrite E by auto. reflexivity. }
  eapply Rle_trans; [apply (ky_fan_le n m k A r u (herm (svd_Vh r'))); auto|].
  - destruct G' as [_ [V _]]. apply ortho_rows_herm in V. intros a b Ha Hb. apply V; lia.
  - destruct (Nat.eq_dec (Nat.min u k) (Nat.min t k)) as [-> | N]; [lra|].
    replace (Nat.min t k) with (Nat.min u k + (Nat.min t k - Nat.min u k))%nat by lia. rewrite rsum_split.
    assert (0 <= rsum (Nat.min t k - Nat.min u k) (fun i => svd_S r (Nat.min u k + i)%nat ^ 2))%R by (apply rsum_nonneg; intros; nra). lra.
Qed.
Theorem singular_values_unique n n' m k k' A A' r r' : gsvd n m k A r -> gsvd n' m k' A' r' ->
  (forall p q, (p < m)%nat -> (q < m)%nat -> csum n (fun i => Cconj (A i p) * A i q) = csum n' (fun i => Cconj (A' i p) * A' i q)) ->
  forall a, padded k (svd_S r) a = padded k' (svd_S r') a.
Proof.
  intros G G' E.
  assert (Q : forall a, padded k (fun a => svd_S r a ^ 2)%R a = padded k' (fun a => svd_S r' a ^ 2)%R a).
  { apply sums_determine. intros t. rewrite !rsum_padded. apply Rle_antisym.
    - eapply ky_fan_half; eauto. intros p q Hp Hq. symmetry. auto.
    - eapply ky_fan_half; eauto. }
  destruct G as [_ [_ [S0 _]]]. destruct G' as [_ [_ [S0' _]]].
  intros a. specialize (Q a). unfold padded in *. specialize (S0 a). specialize (S0' a).
  destruct (Nat.ltb a k) eqn:K; destruct (Nat.ltb a k') eqn:K'; try apply Nat.ltb_lt in K; try apply Nat.ltb_lt in K'; auto.
  - specialize (S0 K). specialize (S0' K'). nra.
  - specialize (S0 K). nra.
  - specialize (S0' K'). nra.
Qed.

(** ---- the sum of the singular values as a maximum ---- *)
Lemma gsvd_herm n m k A r : gsvd n m k A r -> gsvd m n k (herm A) {| svd_U := herm (svd_Vh r); svd_S := svd_S r; svd_Vh := herm (svd_U r) |}.
Proof.
  intros [U [V [S0 [SD E]]]]. split; [|split; [|split; [|split]]]; cbn [svd_U svd_S svd_Vh]; auto.
  - apply ortho_rows_herm; auto.
  - apply ortho_rows_herm. apply ortho_cols_ext with (svd_U r); auto. intros. rewrite herm_herm. reflexivity.
  - intros i j Hi Hj. unfold herm. rewrite E by auto. rewrite csum_conj. apply csum_ext. intros a _. rewrite !Cconj_mult, Cconj_RtoC. ring.
Qed.
(** tr(X^H A Y) <= sum of the singular values, for X and Y with orthonormal columns. *)
Lemma nuclear_dual n m k A r t X Y : gsvd n m k A r -> ortho_cols n t X -> ortho_cols m t Y ->
  (Re (csum t (fun i => ip n (fun p => X p i) (fun p => csum m (fun q => A p q * Y q i)%C))) <= rsum k (svd_S r))%R.
Proof.
  intros [U [V [S0 [SD E]]]] HX HY. apply ortho_rows_herm in V.
  set (x := fun a i => ip n (fun p => X p i) (fun p => svd_U r p a)).
  set (y := fun a i => ip m (fun q => herm (svd_Vh r) q a) (fun q => Y q i)).
  assert (T : csum t (fun i => ip n (fun p => X p i) (fun p => csum m (fun q => A p q * Y q i))) =
              csum k (fun a => RtoC (svd_S r a) * csum t (fun i => x a i * y a i))).
  { rewrite (csum_ext k _ (fun a => csum t (fun i => RtoC (svd_S r a) * (x a i * y a i)))).
    2:{ intros a _. apply csum_scal. }
    rewrite csum_swap. apply csum_ext. intros i _.
    rewrite (ip_ext n _ (fun p => X p i) _ (fun p => csum k (fun a => (RtoC (svd_S r a) * y a i) * svd_U r p a))); auto.
    - rewrite (ip_csum_r n k _ _ (fun a p => svd_U r p a)). apply csum_ext. intros a _. unfold x. ring.
    - intros p Hp. rewrite (csum_ext m _ (fun q => csum k (fun a => svd_U r p a * RtoC (svd_S r a) * (svd_Vh r a q * Y q i)))).
      2:{ intros q Hq. rewrite E by auto. rewrite csum_scal_r. apply csum_ext. intros; ring. }
      rewrite csum_swap. apply csum_ext. intros a _. rewrite <- csum_scal. unfold y, ip, herm.
      rewrite (csum_ext m (fun i0 => Cconj (Cconj (svd_Vh r a i0)) * Y i0 i) (fun q => svd_Vh r a q * Y q i)); [ring|].
      intros q _. rewrite Cconj_invol. reflexivity. }
  rewrite T, Re_csum. apply rsum_le. intros a Ha.
  replace (Re (RtoC (svd_S r a) * csum t (fun i => x a i * y a i))) with (svd_S r a * Re (csum t (fun i => x a i * y a i)%C))%R
    by (unfold Re, RtoC, Cmult; cbn [fst snd]; ring).
  assert (B : (Re (csum t (fun i => x a i * y a i)%C) <= 1)%R).
  { assert (N : (nrm2 (csum t (fun i => x a i * y a i)%C) <= 1)%R).
    { replace (csum t (fun i => x a i * y a i)) with (ip t (fun i => Cconj (x a i)) (y a)).
      2:{ apply csum_ext. intros i _. rewrite Cconj_invol. reflexivity. }
      eapply Rle_trans; [apply cauchy_schwarz|].
      assert (P1 : (nsq t (fun i => Cconj (x a i)) <= 1)%R).
      { unfold nsq, x.
        rewrite (rsum_ext t _ (fun i => nrm2 (ip n (fun p => X p i) (fun p => svd_U r p a)))) by (intros; rewrite nrm2_conj; reflexivity).
        eapply Rle_trans; [apply (bessel n t X); auto|]. apply Req_le, RtoC_inj. rewrite <- ip_self, U by auto. unfold delta. rewrite Nat.eqb_refl. reflexivity. }
      assert (P2 : (nsq t (y a) <= 1)%R).
      { unfold nsq, y. rewrite (rsum_ext t _ (fun i => nrm2 (ip m (fun q => Y q i) (fun q => herm (svd_Vh r) q a)))) by (intros; rewrite <- ip_conj, nrm2_conj; reflexivity).
        eapply Rle_trans; [apply (bessel m t Y); auto|]. apply Req_le, RtoC_inj. rewrite <- ip_self, V by auto. unfold delta. rewrite Nat.eqb_refl. reflexivity. }
      pose proof (nsq_nonneg t (fun i => Cconj (x a i))). pose proof (nsq_nonneg t (y a)). nra. }
    unfold nrm2, Re in *. nra. }
  specialize (S0 a Ha). nra.
Qed.
(** Equality for the singular vectors themselves. *)
Lemma nuclear_trace n m k A r : gsvd n m k A r ->
  csum k (fun a => ip n (fun p => svd_U r p a) (fun p => csum m (fun q => A p q * herm (svd_Vh r) q a))) = RtoC (rsum k (svd_S r)).
Proof.
  intros [U [V [S0 [SD E]]]]. rewrite <- csum_RtoC. apply csum_ext. intros a Ha.
  rewrite (ip_ext n _ (fun p => svd_U r p a) _ (fun p => RtoC (svd_S r a) * svd_U r p a)); auto.
  - rewrite ip_scal_r, U by auto. unfold delta. rewrite Nat.eqb_refl. ring.
  - intros p Hp. rewrite (csum_ext m _ (fun q => csum k (fun b => svd_U r p b * RtoC (svd_S r b) * (svd_Vh r b q * Cconj (svd_Vh r a q))))).
    2:{ intros q Hq. rewrite E by auto. rewrite csum_scal_r. unfold herm. apply csum_ext. intros; ring. }
    rewrite csum_swap. rewrite (csum_ext k _ (fun b => (svd_U r p b * RtoC (svd_S r b)) * delta b a)).
    + rewrite (csum_delta_r k a (fun b => svd_U r p b * RtoC (svd_S r b))) by auto. ring.
    + intros b Hb. rewrite <- csum_scal, V by auto. reflexivity.
Qed.
