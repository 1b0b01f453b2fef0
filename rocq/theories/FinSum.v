(** Finite sums over an abelian monoid, with instances for R and C (Coquelicot's complex
    numbers).  Shared mathematics; models no particular cdtools function. *)
From Verif Require Import Base.
From Coquelicot Require Import Complex.

Section Gen.
Context {A : Type} (add : A -> A -> A) (zero : A).
Hypothesis addA : forall a b c, add (add a b) c = add a (add b c).
Hypothesis addC : forall a b, add a b = add b a.
Hypothesis add0 : forall a, add zero a = a.

Fixpoint fsum (n : nat) (f : nat -> A) : A :=
  match n with O => zero | S n' => add (fsum n' f) (f n') end.

Lemma fsum_ext n f g : (forall i, i < n -> f i = g i) -> fsum n f = fsum n g.
Proof.
  induction n as [|n IH]; intros H; [reflexivity|]. cbn. rewrite IH, H by auto. reflexivity.
Qed.

Let add0r a : add a zero = a.
Proof. now rewrite addC, add0. Qed.

Lemma fsum_zero n : fsum n (fun _ => zero) = zero.
Proof. induction n as [|n IH]; cbn; [reflexivity|]. now rewrite IH, add0. Qed.

Lemma fsum_zero' n f : (forall i, i < n -> f i = zero) -> fsum n f = zero.
Proof. intros H. rewrite (fsum_ext n f (fun _ => zero) H). apply fsum_zero. Qed.

Lemma fsum_add n f g : fsum n (fun i => add (f i) (g i)) = add (fsum n f) (fsum n g).
Proof.
  induction n as [|n IH]; cbn; [now rewrite add0|]. rewrite IH, !addA. f_equal.
  rewrite <- !addA. f_equal. apply addC.
Qed.

Lemma fsum_split n m f : fsum (n + m) f = add (fsum n f) (fsum m (fun i => f (n + i))).
Proof.
  induction m as [|m IH]; [rewrite Nat.add_0_r; cbn; now rewrite add0r|].
  rewrite Nat.add_succ_r. cbn. now rewrite IH, addA.
Qed.

Lemma fsum_first n f : fsum (S n) f = add (f 0) (fsum n (fun i => f (S i))).
Proof. change (S n) with (1 + n). rewrite fsum_split. cbn. now rewrite add0. Qed.

Lemma fsum_swap n m f : fsum n (fun i => fsum m (fun j => f i j)) = fsum m (fun j => fsum n (fun i => f i j)).
Proof.
  induction n as [|n IH]; cbn; [now rewrite fsum_zero|]. rewrite IH, <- fsum_add. reflexivity.
Qed.

(** sum over a block structure *)
Lemma fsum_block n m f : fsum (n * m) f = fsum n (fun a => fsum m (fun b => f (a * m + b))).
Proof.
  induction n as [|n IH]; [reflexivity|]. cbn [fsum]. rewrite <- IH.
  replace (S n * m) with (n * m + m) by (cbn; lia). apply fsum_split.
Qed.

(** Only index k contributes. *)
Lemma fsum_single n k f : k < n -> (forall i, i < n -> i <> k -> f i = zero) -> fsum n f = f k.
Proof.
  induction n as [|n IH]; intros Hk H; [lia|]. cbn.
  destruct (Nat.eq_dec k n) as [->|Hne].
  - rewrite fsum_zero', add0; [reflexivity|]. intros i Hi. apply H; lia.
  - rewrite IH, (H n) by (try lia; intros; apply H; lia). apply add0r.
Qed.

Definition fold_add (l : list A) : A := fold_right add zero l.
Lemma fold_add_app a b : fold_add (a ++ b) = add (fold_add a) (fold_add b).
Proof. unfold fold_add. induction a as [|x a IH]; cbn; [now rewrite add0|]. now rewrite IH, addA. Qed.
Lemma fsum_fold n f : fsum n f = fold_add (map f (seq 0 n)).
Proof.
  induction n as [|n IH]; [reflexivity|]. rewrite seq_S, map_app, fold_add_app, <- IH. cbn.
  now rewrite add0r.
Qed.
Lemma fold_add_perm l l' : Permutation l l' -> fold_add l = fold_add l'.
Proof.
  unfold fold_add. induction 1; cbn; [reflexivity|congruence| |congruence].
  rewrite <- !addA. f_equal. apply addC.
Qed.

(** Re-indexing by an injective map of [0, n) into itself. *)
Lemma fsum_reindex n (s : nat -> nat) f :
  (forall i, i < n -> s i < n) -> (forall i j, i < n -> j < n -> s i = s j -> i = j) ->
  fsum n (fun i => f (s i)) = fsum n f.
Proof.
  intros Hr Hi. rewrite !fsum_fold. rewrite <- (map_map s f). apply fold_add_perm. apply Permutation_map.
  apply NoDup_Permutation_bis.
  - clear -Hi. assert (H : forall l, NoDup l -> (forall x, In x l -> x < n) -> NoDup (map s l)).
    { induction l as [|x l IH]; intros ND H; [constructor|]. inversion ND; subst. cbn. constructor.
      - intros Hin. apply in_map_iff in Hin as (y & E & Hy).
        assert (y = x). { apply Hi; [apply H; now right|apply H; now left|exact E]. }
        subst. contradiction.
      - apply IH; [assumption|]. intros z Hz. apply H. now right. }
    apply H; [apply seq_NoDup|]. intros x Hx. apply in_seq in Hx. lia.
  - now rewrite map_length.
  - intros x Hx. apply in_map_iff in Hx as (i & <- & Hin). apply in_seq in Hin. apply in_seq.
    pose proof (Hr i). lia.
Qed.

Lemma fsum_rev n f : fsum n (fun i => f (n - 1 - i)) = fsum n f.
Proof. apply (fsum_reindex n (fun i => n - 1 - i)); intros; lia. Qed.

(** Cyclic shift. *)
Lemma fsum_cyclic n k f : fsum n (fun i => f ((i + k) mod n)) = fsum n f.
Proof.
  destruct (Nat.eq_dec n 0) as [->|Hn]; [reflexivity|].
  apply (fsum_reindex n (fun i => (i + k) mod n)).
  - intros i Hi. now apply Nat.mod_upper_bound.
  - intros i j Hi Hj E.
    pose proof (Nat.div_mod (i + k) n Hn). pose proof (Nat.div_mod (j + k) n Hn). rewrite E in *.
    assert ((i + k) / n = (j + k) / n \/ (i + k) / n <> (j + k) / n) as [Q|Q] by lia; [nia|].
    exfalso. assert ((i + k) / n < (j + k) / n \/ (j + k) / n < (i + k) / n) as [Q'|Q'] by lia; nia.
Qed.

(** Zero extension. *)
Lemma fsum_extend n m f : n <= m -> (forall i, n <= i < m -> f i = zero) -> fsum m f = fsum n f.
Proof.
  intros H Hz. replace m with (n + (m - n)) by lia. rewrite fsum_split, (fsum_zero' (m - n)), add0r; [reflexivity|].
  intros i Hi. apply Hz. lia.
Qed.
End Gen.

(** homomorphisms *)
Lemma fsum_hom {A B} (addA : A -> A -> A) zA (addB : B -> B -> B) zB (h : A -> B) :
  h zA = zB -> (forall a b, h (addA a b) = addB (h a) (h b)) ->
  forall n f, h (fsum addA zA n f) = fsum addB zB n (fun i => h (f i)).
Proof. intros H0 Ha n f. induction n as [|n IH]; cbn; [exact H0|]. now rewrite Ha, IH. Qed.

(** ---- reals ---- *)
Definition rsum : nat -> (nat -> R) -> R := fsum Rplus 0%R.
Lemma rsum_ext n f g : (forall i, i < n -> f i = g i) -> rsum n f = rsum n g.
Proof. apply fsum_ext. Qed.
Lemma rsum_add n f g : rsum n (fun i => f i + g i)%R = (rsum n f + rsum n g)%R.
Proof. apply fsum_add; intros; lra. Qed.
Lemma rsum_zero n : rsum n (fun _ => 0%R) = 0%R.
Proof. apply fsum_zero; intros; lra. Qed.
Lemma rsum_zero' n f : (forall i, i < n -> f i = 0%R) -> rsum n f = 0%R.
Proof. apply fsum_zero'; intros; lra. Qed.
Lemma rsum_scal c n f : (c * rsum n f)%R = rsum n (fun i => c * f i)%R.
Proof. apply (fsum_hom Rplus 0%R Rplus 0%R (fun x => c * x)%R); intros; lra. Qed.
Lemma rsum_swap n m f : rsum n (fun i => rsum m (fun j => f i j)) = rsum m (fun j => rsum n (fun i => f i j)).
Proof. apply fsum_swap; intros; lra. Qed.
Lemma rsum_block n m f : rsum (n * m) f = rsum n (fun a => rsum m (fun b => f (a * m + b))).
Proof. apply fsum_block; intros; lra. Qed.
Lemma rsum_split n m f : rsum (n + m) f = (rsum n f + rsum m (fun i => f (n + i)%nat))%R.
Proof. apply fsum_split; intros; lra. Qed.
Lemma rsum_single n k f : k < n -> (forall i, i < n -> i <> k -> f i = 0%R) -> rsum n f = f k.
Proof. apply fsum_single; intros; lra. Qed.
Lemma rsum_reindex n (s : nat -> nat) f :
  (forall i, i < n -> s i < n) -> (forall i j, i < n -> j < n -> s i = s j -> i = j) ->
  rsum n (fun i => f (s i)) = rsum n f.
Proof. apply fsum_reindex; intros; lra. Qed.
Lemma rsum_cyclic n k f : rsum n (fun i => f ((i + k) mod n)) = rsum n f.
Proof. apply fsum_cyclic; intros; lra. Qed.
Lemma rsum_extend n m f : n <= m -> (forall i, n <= i < m -> f i = 0%R) -> rsum m f = rsum n f.
Proof. apply fsum_extend; intros; lra. Qed.
Lemma rsum_first n f : rsum (S n) f = (f 0%nat + rsum n (fun i => f (S i)))%R.
Proof. apply fsum_first; intros; lra. Qed.
Lemma rsum_const n c : rsum n (fun _ => c) = (INR n * c)%R.
Proof. induction n as [|n IH]; [cbn; lra|]. change (rsum (S n) (fun _ => c)) with (rsum n (fun _ => c) + c)%R. rewrite IH, S_INR. lra. Qed.
Lemma rsum_nonneg n f : (forall i, i < n -> (0 <= f i)%R) -> (0 <= rsum n f)%R.
Proof.
  induction n as [|n IH]; intros H; [cbn; lra|]. change (rsum (S n) f) with (rsum n f + f n)%R.
  pose proof (H n ltac:(lia)). pose proof (IH (fun i Hi => H i ltac:(lia))). lra.
Qed.
Lemma rsum_le n f g : (forall i, i < n -> (f i <= g i)%R) -> (rsum n f <= rsum n g)%R.
Proof.
  induction n as [|n IH]; intros H; [cbn; lra|]. change (rsum (S n) f) with (rsum n f + f n)%R.
  change (rsum (S n) g) with (rsum n g + g n)%R.
  pose proof (H n ltac:(lia)). pose proof (IH (fun i Hi => H i ltac:(lia))). lra.
Qed.
Lemma rsum_zero_iff n f : (forall i, i < n -> (0 <= f i)%R) ->
  (rsum n f = 0%R <-> forall i, i < n -> f i = 0%R).
Proof.
  intros H. split; [|apply rsum_zero'].
  induction n as [|n IH]; intros E i Hi; [lia|]. change (rsum (S n) f) with (rsum n f + f n)%R in E.
  pose proof (H n ltac:(lia)). pose proof (rsum_nonneg n f (fun i Hi => H i ltac:(lia))).
  destruct (Nat.eq_dec i n) as [->|]; [lra|]. apply IH; [intros; apply H; lia|lra|lia].
Qed.
Lemma rsum_lsum n f : rsum n f = lsum (map f (seq 0 n)).
Proof. apply fsum_fold; intros; lra. Qed.

(** ---- complex numbers ---- *)
Definition csum : nat -> (nat -> C) -> C := fsum Cplus (RtoC 0).
Lemma csum_ext n f g : (forall i, i < n -> f i = g i) -> csum n f = csum n g.
Proof. apply fsum_ext. Qed.
Local Ltac cmon := intros; ring.
Lemma csum_add n f g : csum n (fun i => f i + g i)%C = (csum n f + csum n g)%C.
Proof. apply fsum_add; cmon. Qed.
Lemma csum_zero n : csum n (fun _ => RtoC 0) = RtoC 0.
Proof. apply fsum_zero; cmon. Qed.
Lemma csum_zero' n f : (forall i, i < n -> f i = RtoC 0) -> csum n f = RtoC 0.
Proof. apply fsum_zero'; cmon. Qed.
Lemma csum_scal c n f : (c * csum n f)%C = csum n (fun i => c * f i)%C.
Proof. apply (fsum_hom Cplus (RtoC 0) Cplus (RtoC 0) (fun x => c * x)%C); cmon. Qed.
Lemma csum_scal_r c n f : (csum n f * c)%C = csum n (fun i => f i * c)%C.
Proof. apply (fsum_hom Cplus (RtoC 0) Cplus (RtoC 0) (fun x => x * c)%C); cmon. Qed.
Lemma csum_swap n m f : csum n (fun i => csum m (fun j => f i j)) = csum m (fun j => csum n (fun i => f i j)).
Proof. apply fsum_swap; cmon. Qed.
Lemma csum_block n m f : csum (n * m) f = csum n (fun a => csum m (fun b => f (a * m + b))).
Proof. apply fsum_block; cmon. Qed.
Lemma csum_split n m f : csum (n + m) f = (csum n f + csum m (fun i => f (n + i)%nat))%C.
Proof. apply fsum_split; cmon. Qed.
Lemma csum_single n k f : k < n -> (forall i, i < n -> i <> k -> f i = RtoC 0) -> csum n f = f k.
Proof. apply fsum_single; cmon. Qed.
Lemma csum_reindex n (s : nat -> nat) f :
  (forall i, i < n -> s i < n) -> (forall i j, i < n -> j < n -> s i = s j -> i = j) ->
  csum n (fun i => f (s i)) = csum n f.
Proof. apply fsum_reindex; cmon. Qed.
Lemma csum_cyclic n k f : csum n (fun i => f ((i + k) mod n)) = csum n f.
Proof. apply fsum_cyclic; cmon. Qed.
Lemma csum_extend n m f : n <= m -> (forall i, n <= i < m -> f i = RtoC 0) -> csum m f = csum n f.
Proof. apply fsum_extend; cmon. Qed.
Lemma csum_first n f : csum (S n) f = (f 0%nat + csum n (fun i => f (S i)))%C.
Proof. apply fsum_first; cmon. Qed.
Lemma csum_S n f : csum (S n) f = (csum n f + f n)%C.
Proof. reflexivity. Qed.
Lemma rsum_S n f : rsum (S n) f = (rsum n f + f n)%R.
Proof. reflexivity. Qed.
Lemma csum_opp n f : csum n (fun i => - f i)%C = (- csum n f)%C.
Proof. symmetry. apply (fsum_hom Cplus (RtoC 0) Cplus (RtoC 0) Copp); cmon. Qed.
Lemma csum_sub n f g : csum n (fun i => f i - g i)%C = (csum n f - csum n g)%C.
Proof. unfold Cminus. rewrite csum_add, csum_opp. reflexivity. Qed.
Lemma csum_conj n f : Cconj (csum n f) = csum n (fun i => Cconj (f i)).
Proof.
  apply (fsum_hom Cplus (RtoC 0) Cplus (RtoC 0) Cconj).
  - unfold Cconj, RtoC; cbn. f_equal. lra.
  - intros [a b] [c d]. unfold Cconj, Cplus; cbn. f_equal. lra.
Qed.
Lemma csum_RtoC n f : csum n (fun i => RtoC (f i)) = RtoC (rsum n f).
Proof.
  symmetry. apply (fsum_hom Rplus 0%R Cplus (RtoC 0) RtoC); [reflexivity|].
  intros. apply RtoC_plus.
Qed.
Lemma csum_const n c : csum n (fun _ => c) = (RtoC (INR n) * c)%C.
Proof.
  induction n as [|n IH]; [cbn; unfold csum; cbn; ring|]. rewrite csum_S, IH, S_INR, RtoC_plus. ring.
Qed.
Lemma Re_csum n f : Re (csum n f) = rsum n (fun i => Re (f i)).
Proof. apply (fsum_hom Cplus (RtoC 0) Rplus 0%R Re); [reflexivity|]. intros [a b] [c d]. reflexivity. Qed.
Lemma Im_csum n f : Im (csum n f) = rsum n (fun i => Im (f i)).
Proof. apply (fsum_hom Cplus (RtoC 0) Rplus 0%R Im); [reflexivity|]. intros [a b] [c d]. reflexivity. Qed.
