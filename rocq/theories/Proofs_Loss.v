(** Lemmas about Model_Loss. *)
From Verif Require Import Base Model_Recon Spec_Recon Proofs_Recon Model_Loss Spec_Loss.
Open Scope R_scope.

Definition sel1 (mask : option (list bool)) (p : pattern) : list R :=
  match mask with None => p | Some m => pix_select m p end.
Definition idx (mask : option (list bool)) (npix : nat) := filter (unmasked mask) (seq 0 npix).

Lemma select_sel1 mask pats : select mask pats = concat (map (sel1 mask) pats).
Proof. destruct mask; cbn; [reflexivity|]. now rewrite map_id. Qed.

Lemma seq_nth_self (p : list R) : p = map (fun i => nth i p 0) (seq 0 (length p)).
Proof.
  induction p as [|x p IH]; [reflexivity|]. cbn [length seq map nth]. f_equal.
  rewrite <- seq_shift, map_map. exact IH.
Qed.

Lemma filter_map_S (f : nat -> bool) l : filter f (map S l) = map S (filter (fun i => f (S i)) l).
Proof. induction l as [|x l IH]; cbn; [reflexivity|]. destruct (f (S x)); cbn; now rewrite IH. Qed.

Lemma pix_select_idx m : forall p, length m = length p ->
  pix_select m p = map (fun i => nth i p 0) (filter (fun i => nth i m false) (seq 0 (length p))).
Proof.
  induction m as [|b m IH]; intros [|x p] H; try discriminate; [reflexivity|].
  injection H as H. unfold pix_select in *. cbn [combine filter fst length seq nth].
  rewrite <- seq_shift, filter_map_S.
  destruct b; cbn [map snd nth].
  - f_equal. rewrite map_map. cbn [nth]. apply IH, H.
  - rewrite map_map. cbn [nth]. apply IH, H.
Qed.

Lemma filter_true {A} (l : list A) : filter (fun _ => true) l = l.
Proof. induction l as [|x l IH]; cbn; [reflexivity|]. now rewrite IH. Qed.

Lemma sel1_idx mask npix p : length p = npix ->
  match mask with Some m => length m = npix | None => True end ->
  sel1 mask p = map (fun i => nth i p 0) (idx mask npix).
Proof.
  intros <- Hm. unfold idx, sel1. destruct mask as [m|]; cbn [unmasked].
  - now apply pix_select_idx.
  - change (unmasked None) with (fun _ : nat => true). rewrite filter_true. apply seq_nth_self.
Qed.

Lemma combine_app {A B} (a1 a2 : list A) (b1 b2 : list B) : length a1 = length b1 ->
  combine (a1 ++ a2) (b1 ++ b2) = combine a1 b1 ++ combine a2 b2.
Proof.
  revert b1. induction a1 as [|x a1 IH]; intros [|y b1] H; try discriminate; [reflexivity|].
  cbn. f_equal. apply IH. now injection H.
Qed.

Lemma pixelwise_cons f mask npix p s ints sims :
  shaped mask npix (p :: ints) -> shaped mask npix (s :: sims) ->
  pixelwise f mask (p :: ints) (s :: sims) =
  map (fun i => f (nth i p 0) (nth i s 0)) (idx mask npix) ++ pixelwise f mask ints sims.
Proof.
  intros [Hp Hm] [Hs _]. inversion Hp; subst. inversion Hs; subst.
  unfold pixelwise. rewrite !select_sel1. cbn [map concat].
  rewrite (sel1_idx mask (length p) p eq_refl Hm), (sel1_idx mask (length p) s) by assumption.
  rewrite combine_app by now rewrite !map_length.
  rewrite map_app. f_equal. rewrite combine_map2, map_map. reflexivity.
Qed.

Lemma shaped_tl mask npix p ps : shaped mask npix (p :: ps) -> shaped mask npix ps.
Proof. intros [H1 H2]. inversion H1; subst. now split. Qed.

Lemma pixelwise_concat f mask npix ints : forall sims,
  shaped mask npix ints -> shaped mask npix sims -> length ints = length sims ->
  pixelwise f mask ints sims =
  concat (map (fun r => map (fun i => f (nth i (fst r) 0) (nth i (snd r) 0)) (idx mask npix))
              (combine ints sims)).
Proof.
  induction ints as [|p ints IH]; intros [|s sims] Hi Hs Hl; try discriminate.
  - unfold pixelwise. rewrite !select_sel1. reflexivity.
  - rewrite (pixelwise_cons f mask npix) by assumption. cbn [combine map concat fst snd]. f_equal.
    apply IH; eauto using shaped_tl.
Qed.

Lemma lsum_concat l : lsum (concat l) = lsum (map lsum l).
Proof. induction l as [|x l IH]; [reflexivity|]. cbn [concat map]. rewrite lsum_app, IH. reflexivity. Qed.

Lemma lsum_cons x l : lsum (x :: l) = x + lsum l.
Proof. reflexivity. Qed.

Lemma lsum_filter (b : nat -> bool) (g : nat -> R) l :
  lsum (map g (filter b l)) = lsum (map (fun i => if b i then g i else 0) l).
Proof.
  induction l as [|x l IH]; [reflexivity|]. cbn [filter map]. rewrite (lsum_cons (if b x then _ else _)).
  destruct (b x); cbn [map]; rewrite ?lsum_cons, IH; lra.
Qed.

Lemma pixelwise_total f mask npix ints sims :
  shaped mask npix ints -> shaped mask npix sims -> length ints = length sims ->
  lsum (pixelwise f mask ints sims) = dataset_total f mask npix (combine ints sims).
Proof.
  intros Hi Hs Hl. rewrite (pixelwise_concat f mask npix) by assumption.
  rewrite lsum_concat, map_map. unfold dataset_total, image_total, idx. f_equal.
  apply map_ext. intros r. apply (lsum_filter (unmasked mask) (fun i => f (nth i (fst r) 0) (nth i (snd r) 0))).
Qed.

Lemma pixelwise_length f mask npix ints sims :
  shaped mask npix ints -> shaped mask npix sims -> length ints = length sims ->
  length (pixelwise f mask ints sims) = (length ints * kept_pixels mask npix)%nat.
Proof.
  intros Hi Hs Hl. rewrite (pixelwise_concat f mask npix) by assumption.
  revert sims Hs Hl. induction ints as [|p ints IH]; intros [|s sims] Hs Hl; try discriminate; [reflexivity|].
  cbn [combine map concat]. rewrite app_length, map_length, IH; eauto using shaped_tl.
Qed.

Lemma select_length mask npix pats : shaped mask npix pats ->
  length (select mask pats) = (length pats * kept_pixels mask npix)%nat.
Proof.
  intros H. rewrite select_sel1. induction pats as [|p pats IH]; [reflexivity|].
  cbn [map concat length]. destruct H as [Hp Hm] eqn:E. inversion Hp; subst.
  rewrite app_length, (sel1_idx mask (length p) p eq_refl Hm), map_length, IH by (split; assumption).
  reflexivity.
Qed.

(** Membership view: each pixel value with its position. *)
Lemma in_pixelwise f mask npix ints sims x :
  shaped mask npix ints -> shaped mask npix sims -> length ints = length sims ->
  In x (pixelwise f mask ints sims) <->
  exists k i, (k < length ints)%nat /\ (i < npix)%nat /\ unmasked mask i = true /\
    x = f (nth i (nth k ints []) 0) (nth i (nth k sims []) 0).
Proof.
  intros Hi Hs Hl. rewrite (pixelwise_concat f mask npix) by assumption.
  rewrite in_concat. split.
  - intros (l & Hin & Hx). apply in_map_iff in Hin as ([p s] & <- & Hps).
    apply in_map_iff in Hx as (i & <- & Hidx). apply filter_In in Hidx as [Hseq Hu].
    apply in_seq in Hseq. apply In_nth with (d := ([], [])) in Hps as (k & Hk & Hnth).
    rewrite combine_length in Hk. rewrite combine_nth in Hnth by assumption.
    injection Hnth as <- <-. exists k, i. repeat split; auto; lia.
  - intros (k & i & Hk & Hin & Hu & ->).
    exists (map (fun i => f (nth i (nth k ints []) 0) (nth i (nth k sims []) 0)) (idx mask npix)).
    split.
    + apply in_map_iff. exists (nth k ints [], nth k sims []). split; [reflexivity|].
      rewrite <- combine_nth by assumption. apply nth_In. rewrite combine_length. lia.
    + apply in_map_iff. exists i. split; [reflexivity|]. apply filter_In. split; [|exact Hu].
      apply in_seq. lia.
Qed.

Lemma lsum_nonneg l : (forall x, In x l -> 0 <= x) -> 0 <= lsum l.
Proof.
  induction l as [|x l IH]; intros H; [cbn; lra|]. rewrite lsum_cons.
  pose proof (H x (or_introl eq_refl)). pose proof (IH (fun y Hy => H y (or_intror Hy))). lra.
Qed.

Lemma lsum_zero_iff l : (forall x, In x l -> 0 <= x) -> (lsum l = 0 <-> forall x, In x l -> x = 0).
Proof.
  induction l as [|x l IH]; intros H; [cbn; split; [intros _ y []|reflexivity]|].
  rewrite lsum_cons.
  pose proof (H x (or_introl eq_refl)). pose proof (lsum_nonneg l (fun y Hy => H y (or_intror Hy))).
  specialize (IH (fun y Hy => H y (or_intror Hy))). split.
  - intros E y [<-|Hy]; [lra|]. apply IH; [lra|exact Hy].
  - intros E. rewrite (E x (or_introl eq_refl)).
    rewrite (proj2 IH) by (intros y Hy; apply E; now right). lra.
Qed.

Lemma mean_sum l : l <> [] -> mean l * INR (length l) = lsum l.
Proof.
  intros H. unfold mean. field. apply not_0_INR. destruct l; [contradiction|discriminate].
Qed.

(** masked pixels do not matter *)
Lemma nth_cons_list {A} (x : A) l d k : nth (S k) (x :: l) d = nth k l d.
Proof. reflexivity. Qed.

Lemma agree_tl mask npix x a y b : agree mask npix (x :: a) (y :: b) -> agree mask npix a b.
Proof.
  intros [H1 H2]. split; [now injection H1|]. intros k i Hk. apply (H2 (S k) i). cbn. lia.
Qed.

Lemma select_agree mask npix a : forall b, shaped mask npix a -> shaped mask npix b ->
  agree mask npix a b -> select mask a = select mask b.
Proof.
  induction a as [|x a IH]; intros [|y b] Ha Hb Hag.
  - reflexivity.
  - destruct Hag; discriminate.
  - destruct Hag; discriminate.
  - rewrite !select_sel1. cbn [map concat]. rewrite <- !select_sel1.
    rewrite (IH b) by eauto using shaped_tl, agree_tl. f_equal.
    destruct Ha as [Ha Hm], Hb as [Hb _]. inversion Ha; subst. inversion Hb; subst.
    rewrite (sel1_idx mask (length x) x eq_refl Hm), (sel1_idx mask (length x) y) by assumption.
    apply map_ext_in. intros i Hi. apply filter_In in Hi as [Hi Hu]. apply in_seq in Hi.
    apply (proj2 Hag O i); cbn; auto; lia.
Qed.

Lemma select_app mask a b : select mask (a ++ b) = select mask a ++ select mask b.
Proof. rewrite !select_sel1, map_app, concat_app. reflexivity. Qed.

Lemma pixelwise_app f mask npix a b c d :
  shaped mask npix a -> shaped mask npix c -> length a = length c ->
  pixelwise f mask (a ++ b) (c ++ d) = pixelwise f mask a c ++ pixelwise f mask b d.
Proof.
  intros Ha Hc Hl. unfold pixelwise. rewrite !select_app, combine_app, map_app; [reflexivity|].
  rewrite (select_length mask npix a Ha), (select_length mask npix c Hc). now rewrite Hl.
Qed.

(** ---- Poisson ---- *)
Lemma ln_le_sub1 y : 0 < y -> ln y <= y - 1.
Proof.
  intros Hy. rewrite <- (ln_exp (y - 1)). destruct (Req_dec y 1) as [->|Hne].
  - replace (1 - 1) with 0 by lra. rewrite ln_exp, ln_1. lra.
  - left. apply ln_increasing; [exact Hy|]. pose proof (exp_ineq1 (y - 1)). 
    assert (y - 1 <> 0) by lra. specialize (H H0). lra.
Qed.
Lemma ln_lt_sub1 y : 0 < y -> y <> 1 -> ln y < y - 1.
Proof.
  intros Hy Hne. rewrite <- (ln_exp (y - 1)). apply ln_increasing; [exact Hy|].
  pose proof (exp_ineq1 (y - 1) ltac:(lra)). lra.
Qed.

Lemma gap_nonneg i u : 0 <= i -> 0 < u -> 0 <= (u - xlogy i u) - (i - xlogy i i).
Proof.
  intros Hi Hu. unfold xlogy. destruct (Req_EM_T i 0) as [->|Hn]; [lra|].
  assert (0 < i) by lra.
  assert (E : ln u = ln i + ln (u / i)).
  { rewrite <- ln_mult; [f_equal; field; lra|lra|apply Rdiv_lt_0_compat; lra]. }
  rewrite E. pose proof (ln_le_sub1 (u / i) ltac:(apply Rdiv_lt_0_compat; lra)) as Hl.
  apply (Rmult_le_compat_l i) in Hl; [|lra].
  replace (i * (u / i - 1)) with (u - i) in Hl by (field; lra). lra.
Qed.
Lemma gap_zero i u : 0 <= i -> 0 < u -> (u - xlogy i u) - (i - xlogy i i) = 0 -> u = i.
Proof.
  intros Hi Hu. unfold xlogy. destruct (Req_EM_T i 0) as [->|Hn]; [lra|].
  assert (0 < i) by lra.
  assert (E : ln u = ln i + ln (u / i)).
  { rewrite <- ln_mult; [f_equal; field; lra|lra|apply Rdiv_lt_0_compat; lra]. }
  rewrite E. intros H0. destruct (Req_dec (u / i) 1) as [E1|Hne].
  - apply (f_equal (fun x => x * i)) in E1. unfold Rdiv in E1.
    rewrite Rmult_assoc, Rinv_l, !Rmult_1_r, Rmult_1_l in E1 by lra. exact E1.
  - pose proof (ln_lt_sub1 (u / i) ltac:(apply Rdiv_lt_0_compat; lra) Hne) as Hl.
    apply (Rmult_lt_compat_l i) in Hl; [|lra].
    replace (i * (u / i - 1)) with (u - i) in Hl by (field; lra). lra.
Qed.

(** the normalizer's per-pixel baseline is eps-shifted: how much below it one can go *)
Lemma baseline_gap eps i s : 0 < eps -> 0 <= s -> (i = 0 \/ 1 <= i) ->
  (if Rle_dec 1 i then - eps ^ 2 else 0) <= nll_pix eps i s - nll_pix eps i i.
Proof.
  intros He Hs Hi. unfold nll_pix.
  assert (G := gap_nonneg i (s + eps) ltac:(lra) ltac:(lra)).
  destruct (Rle_dec 1 i) as [H1|H1].
  - unfold xlogy in *. destruct (Req_EM_T i 0); [lra|].
    assert (Hl : eps / (i + eps) <= ln ((i + eps) / i)).
    { assert (E : ln ((i + eps) / i) = - ln (i / (i + eps))).
      { rewrite <- ln_Rinv by (apply Rdiv_lt_0_compat; lra). f_equal. field. lra. }
      rewrite E. pose proof (ln_le_sub1 (i / (i + eps)) ltac:(apply Rdiv_lt_0_compat; lra)) as Hl.
      replace (eps / (i + eps)) with (- (i / (i + eps) - 1)) by (field; lra). lra. }
    assert (E2 : ln (i + eps) = ln i + ln ((i + eps) / i)).
    { rewrite <- ln_mult; [f_equal; field; lra|lra|apply Rdiv_lt_0_compat; lra]. }
    rewrite E2. apply (Rmult_le_compat_l i) in Hl; [|lra].
    assert (H3 : eps - eps ^ 2 <= i * (eps / (i + eps))).
    { replace (i * (eps / (i + eps))) with (eps - eps ^ 2 * / (i + eps)) by (field; lra).
      assert (/ (i + eps) <= 1) by (rewrite <- Rinv_1; apply Rinv_le_contravar; lra).
      assert (0 <= eps ^ 2) by apply pow2_ge_0. nra. }
    lra.
  - destruct Hi as [->|Hi]; [|lra]. unfold xlogy. destruct (Req_EM_T 0 0); lra.
Qed.

(** the weaker baseline gap for arbitrary non-negative data *)
Lemma baseline_gap_any eps i s : 0 < eps -> 0 <= s -> 0 <= i ->
  - eps <= nll_pix eps i s - nll_pix eps i i.
Proof.
  intros He Hs Hi. unfold nll_pix.
  assert (G := gap_nonneg i (s + eps) ltac:(lra) ltac:(lra)).
  unfold xlogy in *. destruct (Req_EM_T i 0) as [->|Hn]; [lra|].
  assert (ln i < ln (i + eps)) by (apply ln_increasing; lra). nra.
Qed.

Lemma lsum_map_sub {A} (f g : A -> R) l :
  lsum (map f l) - lsum (map g l) = lsum (map (fun x => f x - g x) l).
Proof. induction l as [|x l IH]; [cbn; lra|]. cbn [map]. rewrite !lsum_cons, <- IH. lra. Qed.
Lemma lsum_map_le {A} (f g : A -> R) l : (forall x, In x l -> f x <= g x) ->
  lsum (map f l) <= lsum (map g l).
Proof.
  induction l as [|x l IH]; intros H; [cbn; lra|]. cbn [map]. rewrite !lsum_cons.
  pose proof (H x (or_introl eq_refl)). specialize (IH (fun y Hy => H y (or_intror Hy))). lra.
Qed.
Lemma lsum_const {A} (c : R) (l : list A) : lsum (map (fun _ => c) l) = c * INR (length l).
Proof.
  induction l as [|x l IH]; [cbn; lra|]. cbn [map length]. rewrite lsum_cons, IH, S_INR. lra.
Qed.
Lemma combine_same {A} (l : list A) : combine l l = map (fun x => (x, x)) l.
Proof. induction l as [|x l IH]; cbn; [reflexivity|now rewrite IH]. Qed.
Lemma map_fst_combine {A B} (a : list A) (b : list B) : length a = length b -> map fst (combine a b) = a.
Proof. revert b; induction a as [|x a IH]; intros [|y b] H; try discriminate; [reflexivity|]. cbn. f_equal. apply IH. now injection H. Qed.

Lemma poisson_minus mask npix ints sims :
  shaped mask npix ints -> shaped mask npix sims -> length ints = length sims ->
  forall g h,
  lsum (pixelwise g mask ints sims) - lsum (pixelwise h mask ints ints) =
  lsum (map (fun xy => g (fst xy) (snd xy) - h (fst xy) (fst xy))
            (combine (select mask ints) (select mask sims))).
Proof.
  intros Hi Hs Hl g h. unfold pixelwise.
  assert (L : length (select mask ints) = length (select mask sims))
    by (rewrite (select_length mask npix), (select_length mask npix); auto; congruence).
  rewrite combine_same, map_map. cbn [fst snd].
  rewrite <- (map_fst_combine (select mask ints) (select mask sims) L) at 2.
  rewrite map_map. apply lsum_map_sub.
Qed.

Lemma in_select_pair mask npix ints sims xy :
  shaped mask npix ints -> shaped mask npix sims -> length ints = length sims ->
  In xy (combine (select mask ints) (select mask sims)) <->
  exists k i, (k < length ints)%nat /\ (i < npix)%nat /\ unmasked mask i = true /\
    xy = (nth i (nth k ints []) 0, nth i (nth k sims []) 0).
Proof.
  intros Hi Hs Hl. split.
  - intros Hin.
    assert (H : forall f : R -> R -> R, In (f (fst xy) (snd xy)) (pixelwise f mask ints sims))
      by (intros f; unfold pixelwise; apply in_map_iff; eauto).
    revert Hin. clear H. revert sims Hi Hs Hl.
    induction ints as [|p ints IH]; intros [|s sims] Hi Hs Hl Hin; try discriminate.
    + rewrite !select_sel1 in Hin. destruct Hin.
    + rewrite !select_sel1 in Hin. cbn [map concat] in Hin. rewrite <- !select_sel1 in Hin.
      destruct Hi as [Hp Hm] eqn:E1, Hs as [Hss Hm'] eqn:E2.
      inversion Hp; subst. inversion Hss; subst.
      rewrite (sel1_idx mask (length p) p eq_refl Hm), (sel1_idx mask (length p) s) in Hin by assumption.
      rewrite combine_app in Hin by now rewrite !map_length.
      apply in_app_or in Hin as [Hin|Hin].
      * rewrite combine_map2 in Hin. apply in_map_iff in Hin as (i & <- & Hx).
        apply filter_In in Hx as [Hx Hu]. apply in_seq in Hx.
        exists O, i. cbn. repeat split; auto; lia.
      * destruct (IH sims) as (k & i & Hk & Hin' & Hu & ->); try (split; assumption); auto.
        exists (S k), i. cbn [length nth]. repeat split; auto; lia.
  - intros (k & i & Hk & Hin & Hu & ->). revert k sims Hi Hs Hl Hk.
    induction ints as [|p ints IH]; intros k [|s sims] Hi Hs Hl Hk; try discriminate; [cbn in Hk; lia|].
    rewrite !select_sel1. cbn [map concat]. rewrite <- !select_sel1.
    destruct Hi as [Hp Hm] eqn:E1, Hs as [Hss Hm'] eqn:E2.
    inversion Hp; subst. inversion Hss; subst.
    rewrite (sel1_idx mask (length p) p eq_refl Hm), (sel1_idx mask (length p) s) by assumption.
    rewrite combine_app by now rewrite !map_length. apply in_or_app.
    destruct k as [|k]; cbn [nth].
    + left. rewrite combine_map2. apply in_map_iff. exists i. split; [reflexivity|].
      apply filter_In. split; [apply in_seq; lia|exact Hu].
    + right. apply IH; try (split; assumption); auto. cbn in Hk. lia.
Qed.

Lemma poisson_subtract_min_nonneg mask npix eps ints sims :
  shaped mask npix ints -> shaped mask npix sims -> length ints = length sims ->
  all_pixels (fun x => 0 <= x) mask npix ints -> all_pixels (fun x => 0 < x + eps) mask npix sims ->
  0 <= poisson_nll ints sims mask eps true.
Proof.
  intros Hi Hs Hl Pi Ps. unfold poisson_nll.
  rewrite (poisson_minus mask npix) by assumption. apply lsum_nonneg. intros x Hx.
  apply in_map_iff in Hx as (xy & <- & Hxy).
  apply (in_select_pair mask npix) in Hxy as (k & i & Hk & Hin & Hu & ->); try assumption.
  cbn [fst snd]. unfold nll_pix, min_pix. apply gap_nonneg.
  - now apply Pi.
  - apply Ps; auto. congruence.
Qed.

Lemma poisson_subtract_min_zero mask npix eps ints sims :
  shaped mask npix ints -> shaped mask npix sims -> length ints = length sims ->
  all_pixels (fun x => 0 <= x) mask npix ints -> all_pixels (fun x => 0 < x + eps) mask npix sims ->
  (poisson_nll ints sims mask eps true = 0 <->
   forall k i, (k < length ints)%nat -> (i < npix)%nat -> unmasked mask i = true ->
     nth i (nth k sims []) 0 + eps = nth i (nth k ints []) 0).
Proof.
  intros Hi Hs Hl Pi Ps. unfold poisson_nll.
  rewrite (poisson_minus mask npix) by assumption. rewrite lsum_zero_iff.
  - split.
    + intros H k i Hk Hin Hu. apply gap_zero; [now apply Pi|apply Ps; auto; congruence|].
      apply H. apply in_map_iff.
      exists (nth i (nth k ints []) 0, nth i (nth k sims []) 0). split; [reflexivity|].
      apply (in_select_pair mask npix); try assumption. exists k, i. auto.
    + intros H x Hx. apply in_map_iff in Hx as (xy & <- & Hxy).
      apply (in_select_pair mask npix) in Hxy as (k & i & Hk & Hin & Hu & ->); try assumption.
      cbn [fst snd]. unfold nll_pix, min_pix. rewrite (H k i Hk Hin Hu). lra.
  - intros x Hx. apply in_map_iff in Hx as (xy & <- & Hxy).
    apply (in_select_pair mask npix) in Hxy as (k & i & Hk & Hin & Hu & ->); try assumption.
    cbn [fst snd]. unfold nll_pix, min_pix. apply gap_nonneg.
    + now apply Pi.
    + apply Ps; auto. congruence.
Qed.

Lemma count_ge1_lsum l :
  INR (count_ge1 l) = lsum (map (fun x => if Rle_dec 1 x then 1 else 0) l).
Proof.
  unfold count_ge1. induction l as [|x l IH]; [reflexivity|]. cbn [filter map]. rewrite lsum_cons.
  destruct (Rle_dec 1 x); cbn [length]; [rewrite S_INR|]; rewrite <- IH; lra.
Qed.

Lemma normalized_count_bound mask npix eps ints sims :
  shaped mask npix ints -> shaped mask npix sims -> length ints = length sims ->
  0 < eps ->
  all_pixels (fun x => x = 0 \/ 1 <= x) mask npix ints -> all_pixels (fun x => 0 <= x) mask npix sims ->
  - eps ^ 2 * INR (count_ge1 (select mask ints)) <=
  poisson_nll ints sims mask eps false - poisson_nll ints ints mask eps false.
Proof.
  intros Hi Hs Hl He Pi Ps. unfold poisson_nll.
  rewrite (poisson_minus mask npix) by assumption.
  assert (L : length (select mask ints) = length (select mask sims))
    by (rewrite (select_length mask npix), (select_length mask npix); auto; congruence).
  rewrite count_ge1_lsum.
  rewrite <- (map_fst_combine (select mask ints) (select mask sims) L) at 1. rewrite map_map.
  assert (E : forall l : list (R * R), - eps ^ 2 * lsum (map (fun x => if Rle_dec 1 (fst x) then 1 else 0) l)
              = lsum (map (fun x => if Rle_dec 1 (fst x) then - eps ^ 2 else 0) l)).
  { induction l as [|x l IH]; [cbn; lra|]. cbn [map]. rewrite !lsum_cons, <- IH.
    destruct (Rle_dec 1 (fst x)); lra. }
  rewrite E. apply lsum_map_le. intros xy Hxy.
  apply (in_select_pair mask npix) in Hxy as (k & i & Hk & Hin & Hu & ->); try assumption.
  cbn [fst snd]. apply baseline_gap; [exact He|apply Ps; auto; congruence|now apply Pi].
Qed.

Lemma normalized_any_bound mask npix eps ints sims :
  shaped mask npix ints -> shaped mask npix sims -> length ints = length sims ->
  0 < eps ->
  all_pixels (fun x => 0 <= x) mask npix ints -> all_pixels (fun x => 0 <= x) mask npix sims ->
  - eps * INR (length ints * kept_pixels mask npix) <=
  poisson_nll ints sims mask eps false - poisson_nll ints ints mask eps false.
Proof.
  intros Hi Hs Hl He Pi Ps. unfold poisson_nll.
  rewrite (poisson_minus mask npix) by assumption.
  rewrite <- (select_length mask npix ints Hi).
  assert (L : length (select mask ints) = length (select mask sims))
    by (rewrite (select_length mask npix), (select_length mask npix); auto; congruence).
  assert (L2 : length (select mask ints) = length (combine (select mask ints) (select mask sims)))
    by (rewrite combine_length; lia).
  rewrite L2, <- lsum_const. apply lsum_map_le. intros xy Hxy.
  apply (in_select_pair mask npix) in Hxy as (k & i & Hk & Hin & Hu & ->); try assumption.
  cbn [fst snd]. apply baseline_gap_any; [exact He|apply Ps; auto; congruence|now apply Pi].
Qed.

(** permutation invariance *)
Lemma lsum_perm a b : Permutation a b -> lsum a = lsum b.
Proof. induction 1; rewrite ?lsum_cons in *; cbn in *; try lra. Qed.
