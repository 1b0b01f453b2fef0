(** Property theorems about losses and normalizers (C02, C39, C40). *)
From Verif Require Import Base Model_Recon Spec_Recon Proofs_Recon Model_Optim Proofs_Optim
  Model_Loss Spec_Loss Proofs_Loss Proofs_LossEpoch.
Open Scope R_scope.

(** ---------------- C39 ---------------- *)

(** C39: the summed losses are the sums over images and unmasked pixels. *)
Theorem C39_sum_losses_are_pixel_sums : forall mask npix ints sims eps,
  shaped mask npix ints -> shaped mask npix sims -> length ints = length sims ->
  amplitude_mse ints sims mask true =
    dataset_total (fun i s => (sqrt s - sqrt i) ^ 2) mask npix (combine ints sims) /\
  intensity_mse ints sims mask true =
    dataset_total (fun i s => (s - i) ^ 2) mask npix (combine ints sims) /\
  poisson_nll ints sims mask eps false =
    dataset_total (fun i s => s + eps - xlogy i (s + eps)) mask npix (combine ints sims).
Proof.
  intros mask npix ints sims eps Hi Hs Hl. repeat split;
  [exact (pixelwise_total amp_pix mask npix ints sims Hi Hs Hl)
  |exact (pixelwise_total int_pix mask npix ints sims Hi Hs Hl)
  |exact (pixelwise_total (nll_pix eps) mask npix ints sims Hi Hs Hl)].
Qed.
Print Assumptions C39_sum_losses_are_pixel_sums.

(** C39: the mean losses are the summed ones divided by the number of unmasked pixels. *)
Theorem C39_mean_losses : forall mask npix ints sims,
  shaped mask npix ints -> shaped mask npix sims -> length ints = length sims ->
  amplitude_mse ints sims mask false =
    amplitude_mse ints sims mask true / INR (length ints * kept_pixels mask npix) /\
  intensity_mse ints sims mask false =
    intensity_mse ints sims mask true / INR (length ints * kept_pixels mask npix).
Proof.
  intros mask npix ints sims Hi Hs Hl. unfold amplitude_mse, intensity_mse, mean.
  rewrite !(pixelwise_length _ mask npix) by assumption. split; reflexivity.
Qed.
Print Assumptions C39_mean_losses.

(** C39: non-negative, and zero exactly when the prediction matches on every unmasked pixel. *)
Theorem C39_intensity_mse_zero : forall mask npix ints sims,
  shaped mask npix ints -> shaped mask npix sims -> length ints = length sims ->
  0 <= intensity_mse ints sims mask true /\
  (intensity_mse ints sims mask true = 0 <-> agree mask npix ints sims).
Proof.
  intros mask npix ints sims Hi Hs Hl. unfold intensity_mse.
  assert (Hnn : forall x, In x (pixelwise int_pix mask ints sims) -> 0 <= x).
  { intros x Hx. apply (in_pixelwise _ mask npix) in Hx as (k & i & _ & _ & _ & ->); try assumption.
    apply pow2_ge_0. }
  split; [now apply lsum_nonneg|]. rewrite (lsum_zero_iff _ Hnn). split.
  - intros H. split; [exact Hl|]. intros k i Hk Hin Hu.
    assert (E : int_pix (nth i (nth k ints []) 0) (nth i (nth k sims []) 0) = 0).
    { apply H. apply (in_pixelwise _ mask npix); try assumption. exists k, i. auto. }
    unfold int_pix in E. nra.
  - intros [_ H] x Hx. apply (in_pixelwise _ mask npix) in Hx as (k & i & Hk & Hin & Hu & ->); try assumption.
    unfold int_pix. rewrite (H k i Hk Hin Hu). ring.
Qed.
Print Assumptions C39_intensity_mse_zero.

Theorem C39_amplitude_mse_zero : forall mask npix ints sims,
  shaped mask npix ints -> shaped mask npix sims -> length ints = length sims ->
  all_pixels (fun x => 0 <= x) mask npix ints -> all_pixels (fun x => 0 <= x) mask npix sims ->
  0 <= amplitude_mse ints sims mask true /\
  (amplitude_mse ints sims mask true = 0 <-> agree mask npix ints sims).
Proof.
  intros mask npix ints sims Hi Hs Hl Pi Ps. unfold amplitude_mse.
  assert (Hnn : forall x, In x (pixelwise amp_pix mask ints sims) -> 0 <= x).
  { intros x Hx. apply (in_pixelwise _ mask npix) in Hx as (k & i & _ & _ & _ & ->); try assumption.
    apply pow2_ge_0. }
  split; [now apply lsum_nonneg|]. rewrite (lsum_zero_iff _ Hnn). split.
  - intros H. split; [exact Hl|]. intros k i Hk Hin Hu.
    assert (E : amp_pix (nth i (nth k ints []) 0) (nth i (nth k sims []) 0) = 0).
    { apply H. apply (in_pixelwise _ mask npix); try assumption. exists k, i. auto. }
    unfold amp_pix in E. apply sqrt_inj; [now apply Pi|apply Ps; auto; congruence|].
    nra.
  - intros [_ H] x Hx. apply (in_pixelwise _ mask npix) in Hx as (k & i & Hk & Hin & Hu & ->); try assumption.
    unfold amp_pix. rewrite (H k i Hk Hin Hu). ring.
Qed.
Print Assumptions C39_amplitude_mse_zero.

(** C39: values under the mask never matter, for all three losses in all their modes. *)
Theorem C39_masked_pixels_never_matter : forall mask npix i1 i2 s1 s2 eps b,
  shaped mask npix i1 -> shaped mask npix i2 -> shaped mask npix s1 -> shaped mask npix s2 ->
  agree mask npix i1 i2 -> agree mask npix s1 s2 ->
  amplitude_mse i1 s1 mask b = amplitude_mse i2 s2 mask b /\
  intensity_mse i1 s1 mask b = intensity_mse i2 s2 mask b /\
  poisson_nll i1 s1 mask eps b = poisson_nll i2 s2 mask eps b.
Proof.
  intros mask npix i1 i2 s1 s2 eps b H1 H2 H3 H4 A1 A2.
  unfold amplitude_mse, intensity_mse, poisson_nll, pixelwise.
  rewrite (select_agree mask npix i1 i2 H1 H2 A1), (select_agree mask npix s1 s2 H3 H4 A2).
  repeat split.
Qed.
Print Assumptions C39_masked_pixels_never_matter.

(** C39: summed losses add over concatenated batches. *)
Theorem C39_losses_add : forall mask npix i1 i2 s1 s2 eps b,
  shaped mask npix i1 -> shaped mask npix s1 -> length i1 = length s1 ->
  amplitude_mse (i1 ++ i2) (s1 ++ s2) mask true =
    amplitude_mse i1 s1 mask true + amplitude_mse i2 s2 mask true /\
  intensity_mse (i1 ++ i2) (s1 ++ s2) mask true =
    intensity_mse i1 s1 mask true + intensity_mse i2 s2 mask true /\
  poisson_nll (i1 ++ i2) (s1 ++ s2) mask eps b =
    poisson_nll i1 s1 mask eps b + poisson_nll i2 s2 mask eps b.
Proof.
  intros mask npix i1 i2 s1 s2 eps b H1 H2 Hl.
  unfold amplitude_mse, intensity_mse, poisson_nll.
  rewrite !(pixelwise_app _ mask npix) by assumption. rewrite !lsum_app.
  rewrite !(pixelwise_app _ mask npix i1 i2 i1 i2) by auto. rewrite !lsum_app.
  repeat split. destruct b; lra.
Qed.
Print Assumptions C39_losses_add.

(** C39: poisson_nll with subtract_min is non-negative, and zero exactly at sim + eps = data. *)
Theorem C39_poisson_subtract_min : forall mask npix eps ints sims,
  shaped mask npix ints -> shaped mask npix sims -> length ints = length sims ->
  all_pixels (fun x => 0 <= x) mask npix ints -> all_pixels (fun x => 0 < x + eps) mask npix sims ->
  0 <= poisson_nll ints sims mask eps true /\
  (poisson_nll ints sims mask eps true = 0 <->
   forall k i, (k < length ints)%nat -> (i < npix)%nat -> unmasked mask i = true ->
     nth i (nth k sims []) 0 + eps = nth i (nth k ints []) 0).
Proof.
  intros. split; [eapply poisson_subtract_min_nonneg; eassumption|].
  eapply poisson_subtract_min_zero; eassumption.
Qed.
Print Assumptions C39_poisson_subtract_min.

Example C39_hypotheses_met :
  shaped (Some [true; false; true]) 3 [[1; 2; 3]; [4; 5; 6]] /\
  shaped (Some [true; false; true]) 3 [[1; 9; 3]; [4; 8; 6]] /\
  agree (Some [true; false; true]) 3 [[1; 2; 3]; [4; 5; 6]] [[1; 9; 3]; [4; 8; 6]] /\
  all_pixels (fun x => 0 <= x) (Some [true; false; true]) 3 [[1; 2; 3]; [4; 5; 6]].
Proof.
  split; [repeat constructor|]. split; [repeat constructor|]. split; [split; [reflexivity|]|].
  - intros k i Hk Hi Hu. destruct k as [|[|k]]; cbn in Hk; try lia;
      destruct i as [|[|[|i]]]; try lia; cbn in *; try discriminate; reflexivity.
  - intros k i Hk Hi Hu. destruct k as [|[|k]]; cbn in Hk; try lia;
      destruct i as [|[|[|i]]]; try lia; cbn in *; lra.
Qed.

(** ---------------- C02 ---------------- *)
Section C02.
Context {Prm Gr Opt Inp Sch : Type}.
Variable gzero : Gr.
Variable gadd : Gr -> Gr -> Gr.
Variable sim : Prm -> Inp -> pattern.
Variable gi : Prm -> Inp -> pattern -> Gr.
Variable reg_grad : Prm -> option (res Gr).
Variable ostep : Opt -> Prm -> oproc Prm Gr Opt.
Variable sched_step : Sch -> R -> Opt -> Sch * Opt.
Variable report : nat -> list R -> string.
Variable mask : option (list bool).
Variable npix : nat.
Notation W := (world Prm Opt Inp pattern mse_norm Sch).
Notation WN := (world Prm Opt Inp pattern nll_norm Sch).
Notation epoch_mse lossf := (run_epoch gzero gadd (loss_chunk gzero gadd lossf sim gi) reg_grad ostep
    (mse_accumulate mask) mse_normalize sched_step report).
Notation epoch_nll := (run_epoch gzero gadd
    (loss_chunk gzero gadd (fun pats sims => poisson_nll pats sims mask default_eps false) sim gi)
    reg_grad ostep (nll_accumulate mask) nll_normalize sched_step report).

Let setting (data : list (Inp * pattern)) : Prop :=
  grad_monoid gzero gadd /\ fixed_params ostep /\ (forall p e, reg_grad p <> Some (Raise e)) /\
  (forall p i, length (sim p i) = npix) /\
  shaped mask npix (map snd data) /\ data <> [].

Lemma loss_chunk_sum_type f (Hg : grad_monoid gzero gadd) :
  (forall p i, length (sim p i) = npix) ->
  match mask with Some m => length m = npix | None => True end ->
  sum_type gzero gadd (loss_chunk gzero gadd (fun pats sims => lsum (pixelwise f mask pats sims)) sim gi)
    (fun q => length q = npix) (fun p i q => image_total f mask npix q (sim p i)) gi.
Proof.
  intros Hsim Hm p ins pats Hl Hv. unfold loss_chunk. f_equal. f_equal.
  rewrite (pixelwise_total f mask npix).
  - unfold dataset_total. revert pats Hl Hv. induction ins as [|i ins IH]; intros [|q pats] Hl Hv;
      try discriminate; [reflexivity|].
    cbn [map combine fst snd]. rewrite !lsum_cons. f_equal. inversion Hv; subst.
    apply IH; [now injection Hl|assumption].
  - split; assumption.
  - split; [|exact Hm]. apply Forall_forall. intros x Hx. apply in_map_iff in Hx as (i & <- & _).
    apply Hsim.
  - rewrite map_length. now symmetry.
Qed.

Lemma feeds_valid {Nrm} (w : world Prm Opt Inp pattern Nrm Sch) data :
  feeds w data -> data <> [] -> shaped mask npix (map snd data) ->
  exists ld mbs, r_loader w = Some ld /\ ld (w_tick w) = Ok mbs /\ mbs <> [] /\
    Forall aligned mbs /\ Forall (fun mb => Forall (fun q => length q = npix) (snd mb)) mbs /\
    Forall (fun mb => fst mb <> []) mbs /\ Permutation (epoch_rows mbs) data /\
    Forall (shaped mask npix) (map snd mbs) /\
    Permutation (concat (map snd mbs)) (map snd data).
Proof.
  intros (ld & mbs & H1 & H2 & H3 & H4) Hne [Hs Hm].
  assert (Hrows : concat (map snd mbs) = map snd (epoch_rows mbs)).
  { clear -H3. unfold epoch_rows. induction H3 as [|mb mbs [Hl _] HF IH]; [reflexivity|].
    cbn [map concat]. rewrite map_app, <- IH. f_equal. destruct mb as [a b]. cbn [fst snd] in *.
    clear -Hl. revert b Hl. induction a as [|x a IH]; intros [|y b] H; try discriminate; [reflexivity|].
    cbn. f_equal. apply IH. now injection H. }
  assert (HP : Permutation (concat (map snd mbs)) (map snd data)) by (rewrite Hrows; now apply Permutation_map).
  assert (Hall : Forall (fun q : pattern => length q = npix) (concat (map snd mbs))).
  { rewrite Forall_forall in *. intros x Hx. apply Hs. eapply Permutation_in; [exact HP|exact Hx]. }
  assert (Hv : Forall (fun mb : list Inp * list pattern => Forall (fun q => length q = npix) (snd mb)) mbs).
  { rewrite Forall_forall in *. intros mb Hmb. rewrite Forall_forall. intros q Hq. apply Hall.
    apply in_concat. exists (snd mb). split; [now apply in_map|exact Hq]. }
  exists ld, mbs. repeat split; auto.
  - intros ->. apply Permutation_nil in H4. contradiction.
  - eapply Forall_impl; [|exact H3]. intros a [Ha _]. exact Ha.
  - eapply Forall_impl; [|exact H3]. intros a [_ Ha]. exact Ha.
  - rewrite Forall_forall in *. intros b Hb. apply in_map_iff in Hb as (mb & <- & Hmb).
    split; [now apply Hv|exact Hm].
Qed.

Lemma rowtotal_dataset f p data :
  rowtotal (fun p i q => image_total f mask npix q (sim p i)) p data =
  dataset_total f mask npix (with_sim (sim p) data).
Proof. unfold rowtotal, dataset_total, with_sim. now rewrite map_map. Qed.

Lemma mse_epoch f width (w : W) data k :
  setting data -> (1 <= width)%Z -> feeds w data ->
  m_norm w = Some (mkMse false k) ->
  let N := (k + length data * kept_pixels mask npix)%nat in
  exists w', run_nostop (epoch_mse (fun pats sims => lsum (pixelwise f mask pats sims)) width w) =
    (w', Ok (dataset_total f mask npix (with_sim (sim (m_params w)) data) / INR N)) /\
    m_norm w' = Some (mkMse true N) /\ m_params w' = m_params w.
Proof.
  intros (Hg & Hf & Hr & Hsim & Hsh & Hne) Hw Hfeed Hn N.
  destruct (feeds_valid w data Hfeed Hne Hsh) as (ld & mbs & H1 & H2 & H3 & H4 & H5 & H6 & H7 & H8 & H9).
  destruct (epoch_fixed gzero gadd _ reg_grad ostep (mse_accumulate mask) mse_normalize sched_step report
    _ _ gi width w ld mbs (mkMse false k)
    (dataset_total f mask npix (with_sim (sim (m_params w)) data) / INR N) (mkMse true N)
    Hg (loss_chunk_sum_type f Hg Hsim (proj2 Hsh)) Hf Hr Hw H1 H2 H3 H4 H5 H6 Hn)
    as (w' & E1 & E2 & E3 & _); [|eauto].
  rewrite (mse_fold mask npix) by exact H8.
  rewrite (Permutation_length H9), map_length. unfold mse_normalize. cbn [mse_num_pix pydiv].
  fold N. rewrite (rowtotal_perm _ _ _ _ H7), rowtotal_dataset. reflexivity.
Qed.

Lemma mse_epoch_done f width (w : W) data N :
  setting data -> (1 <= width)%Z -> feeds w data ->
  m_norm w = Some (mkMse true N) ->
  exists w', run_nostop (epoch_mse (fun pats sims => lsum (pixelwise f mask pats sims)) width w) =
    (w', Ok (dataset_total f mask npix (with_sim (sim (m_params w)) data) / INR N)) /\
    m_norm w' = Some (mkMse true N) /\ m_params w' = m_params w.
Proof.
  intros (Hg & Hf & Hr & Hsim & Hsh & Hne) Hw Hfeed Hn.
  destruct (feeds_valid w data Hfeed Hne Hsh) as (ld & mbs & H1 & H2 & H3 & H4 & H5 & H6 & H7 & H8 & H9).
  destruct (epoch_fixed gzero gadd _ reg_grad ostep (mse_accumulate mask) mse_normalize sched_step report
    _ _ gi width w ld mbs (mkMse true N)
    (dataset_total f mask npix (with_sim (sim (m_params w)) data) / INR N) (mkMse true N)
    Hg (loss_chunk_sum_type f Hg Hsim (proj2 Hsh)) Hf Hr Hw H1 H2 H3 H4 H5 H6 Hn)
    as (w' & E1 & E2 & E3 & _); [|eauto].
  rewrite mse_fold_done by reflexivity. unfold mse_normalize. cbn [mse_num_pix pydiv].
  rewrite (rowtotal_perm _ _ _ _ H7), rowtotal_dataset. reflexivity.
Qed.

(** C02: an epoch of the amplitude (or intensity) MSE at fixed parameters, first or later, with
    any batching, order and chunking of the dataset, reports the total squared error over the
    unmasked pixels divided by their number, and leaves the normalization at that number. *)
Theorem C02_mse_epoch_loss : forall width (w : W) data,
  setting data -> (1 <= width)%Z -> feeds w data ->
  let N := (length data * kept_pixels mask npix)%nat in
  m_norm w = Some mse_init \/ m_norm w = Some (mkMse true N) ->
  (exists w', run_nostop (epoch_mse (fun pats sims => amplitude_mse pats sims mask true) width w) =
     (w', Ok (dataset_total (fun i s => (sqrt s - sqrt i) ^ 2) mask npix
                (with_sim (sim (m_params w)) data) / INR N)) /\
     m_norm w' = Some (mkMse true N) /\ m_params w' = m_params w) /\
  (exists w', run_nostop (epoch_mse (fun pats sims => intensity_mse pats sims mask true) width w) =
     (w', Ok (dataset_total (fun i s => (s - i) ^ 2) mask npix
                (with_sim (sim (m_params w)) data) / INR N)) /\
     m_norm w' = Some (mkMse true N) /\ m_params w' = m_params w).
Proof.
  intros width w data Hset Hw Hfeed N [Hn|Hn]; split.
  - exact (mse_epoch amp_pix width w data 0 Hset Hw Hfeed Hn).
  - exact (mse_epoch int_pix width w data 0 Hset Hw Hfeed Hn).
  - exact (mse_epoch_done amp_pix width w data N Hset Hw Hfeed Hn).
  - exact (mse_epoch_done int_pix width w data N Hset Hw Hfeed Hn).
Qed.

(** C02: the Poisson loss likewise: (total - self total) / (half the number of pixels >= 1). *)
Theorem C02_poisson_epoch_loss : forall width (w : WN) data,
  setting data -> (1 <= width)%Z -> feeds w data ->
  let offset := dataset_total (nll_pix default_eps) mask npix (with_self data) in
  let scale := 1/2 * dataset_total ge1 mask npix (with_self data) in
  let frozen n := nll_first_pass_complete n = true /\ pyval (nll_offset n) = offset /\
                  option_map pyval (nll_normalization n) = Some scale in
  (exists n, m_norm w = Some n /\ (n = nll_init \/ frozen n)) ->
  exists w' n', run_nostop (epoch_nll width w) =
    (w', Ok ((dataset_total (nll_pix default_eps) mask npix (with_sim (sim (m_params w)) data) - offset)
             / scale)) /\
    m_norm w' = Some n' /\ frozen n' /\ m_params w' = m_params w.
Proof.
  intros width w data (Hg & Hf & Hr & Hsim & Hsh & Hne) Hw Hfeed offset scale frozen (n & Hn & Hcase).
  destruct (feeds_valid w data Hfeed Hne Hsh) as (ld & mbs & H1 & H2 & H3 & H4 & H5 & H6 & H7 & H8 & H9).
  assert (HN : exists n', nll_normalize (fold_left (nll_accumulate mask) (map snd mbs) n)
            (Tens (rowtotal (fun p i q => image_total (nll_pix default_eps) mask npix q (sim p i))
                     (m_params w) (epoch_rows mbs))) =
          (n', Ok (Tens ((dataset_total (nll_pix default_eps) mask npix (with_sim (sim (m_params w)) data) - offset)
             / scale))) /\ frozen n').
  { rewrite (rowtotal_perm _ _ _ _ H7), rowtotal_dataset.
    destruct Hcase as [->|Hfr].
    - destruct (nll_fold_norm mask npix (map snd mbs)
         (dataset_total (nll_pix default_eps) mask npix (with_sim (sim (m_params w)) data)) H8)
         as (n' & E1 & E2 & E3 & E4).
      assert (HPp : forall f, dataset_total f mask npix (map (fun p => (p, p)) (concat (map snd mbs)))
                   = dataset_total f mask npix (with_self data)).
      { intros f. unfold dataset_total. apply lsum_perm. apply Permutation_map.
        unfold with_self. rewrite <- (map_map snd (fun p => (p, p))). now apply Permutation_map. }
      rewrite !HPp in E1. rewrite !HPp in E3. rewrite !HPp in E4.
      exists n'. split; [exact E1|]. split; [exact E2|]. split; [exact E3|exact E4].
    - rewrite nll_fold_done by apply Hfr. destruct Hfr as (F1 & F2 & F3).
      unfold nll_normalize. rewrite F1. destruct (nll_normalization n) as [d|] eqn:Ed; [|discriminate].
      injection F3 as F3. exists n. split; [|split; [exact F1|split; [exact F2|]]].
      + f_equal. unfold pydiv2, pysub. cbn [pyval]. rewrite F2, F3. reflexivity.
      + rewrite Ed. cbn. now rewrite F3. }
  destruct HN as (n' & HN & Hfr').
  destruct (epoch_fixed gzero gadd _ reg_grad ostep (nll_accumulate mask) nll_normalize sched_step report
    _ _ gi width w ld mbs n _ n' Hg
    (loss_chunk_sum_type (nll_pix default_eps) Hg Hsim (proj2 Hsh)) Hf Hr Hw H1 H2 H3 H4 H5 H6 Hn HN)
    as (w' & E1 & E2 & E3 & _).
  exists w', n'. auto.
Qed.

(** C02: without a normalizer the epoch loss is the total. *)
Theorem C02_unnormalized_total : forall width (w : W) data,
  setting data -> (1 <= width)%Z -> feeds w data -> m_norm w = None ->
  snd (run_nostop (epoch_mse (fun pats sims => amplitude_mse pats sims mask true) width w)) =
  Ok (dataset_total (fun i s => (sqrt s - sqrt i) ^ 2) mask npix (with_sim (sim (m_params w)) data)).
Proof.
  intros width w data (Hg & Hf & Hr & Hsim & Hsh & Hne) Hw Hfeed Hn.
  destruct (feeds_valid w data Hfeed Hne Hsh) as (ld & mbs & H1 & H2 & H3 & H4 & H5 & H6 & H7 & H8 & H9).
  pose proof (epoch_fixed_plain gzero gadd _ reg_grad ostep (mse_accumulate mask) mse_normalize sched_step
    report _ _ gi width w ld mbs Hg
    (loss_chunk_sum_type amp_pix Hg Hsim (proj2 Hsh)) Hf Hr Hw H1 H2 H3 H4 H5 H6 Hn) as E.
  etransitivity; [exact E|]. rewrite (rowtotal_perm _ _ _ _ H7), rowtotal_dataset. reflexivity.
Qed.

(** C02, the normalization is frozen: whatever data later epochs run on (for instance the whole
    dataset after a first optimize call with [subset]), they are divided by the number of pixels
    [N] collected in the first completed epoch. *)
Theorem C02_normalization_frozen : forall width (w : W) data N,
  setting data -> (1 <= width)%Z -> feeds w data -> m_norm w = Some (mkMse true N) ->
  exists w', run_nostop (epoch_mse (fun pats sims => amplitude_mse pats sims mask true) width w) =
    (w', Ok (dataset_total (fun i s => (sqrt s - sqrt i) ^ 2) mask npix
               (with_sim (sim (m_params w)) data) / INR N)) /\
    m_norm w' = Some (mkMse true N).
Proof.
  intros width w data N Hset Hw Hfeed Hn.
  destruct (mse_epoch_done amp_pix width w data N Hset Hw Hfeed Hn) as (w' & E1 & E2 & _). eauto.
Qed.

(** C02, what an earlier incomplete epoch does: if [k] pixels were already counted by a first
    epoch that never completed, the next epoch divides by k plus the true count. *)
Theorem C02_leftover_count : forall width (w : W) data k,
  setting data -> (1 <= width)%Z -> feeds w data -> m_norm w = Some (mkMse false k) ->
  let N := (k + length data * kept_pixels mask npix)%nat in
  exists w', run_nostop (epoch_mse (fun pats sims => amplitude_mse pats sims mask true) width w) =
    (w', Ok (dataset_total (fun i s => (sqrt s - sqrt i) ^ 2) mask npix
               (with_sim (sim (m_params w)) data) / INR N)) /\
    m_norm w' = Some (mkMse true N).
Proof.
  intros width w data k Hset Hw Hfeed Hn N.
  destruct (mse_epoch amp_pix width w data k Hset Hw Hfeed Hn) as (w' & E1 & E2 & _). eauto.
Qed.
End C02.
Print Assumptions C02_mse_epoch_loss.
Print Assumptions C02_poisson_epoch_loss.
Print Assumptions C02_unnormalized_total.
Print Assumptions C02_normalization_frozen.
Print Assumptions C02_leftover_count.

(** C02: the loaders of setup_dataloader feed exactly the dataset (any batch size >= 1, with or
    without shuffling). *)
Theorem C02_setup_dataloader_feeds : forall (Prm Opt Inp Pat Nrm Sch : Type) perm
    (ds : list (Inp * Pat)) b shuffle (w : world Prm Opt Inp Pat Nrm Sch),
  (1 <= b)%Z -> Permutation (perm (w_tick w)) (seq 0 (length ds)) ->
  exists ld, setup_dataloader perm ds SubNone (Some b) shuffle = Ok ld /\
    feeds (set_loader w (Some ld)) ds.
Proof.
  intros Prm Opt Inp Pat Nrm Sch perm ds b shuffle w Hb HP.
  destruct (setup_dataloader_visits perm ds SubNone b shuffle (w_tick w) Hb) as
    (ld & mbs & sel & rows & H1 & H2 & H3 & H4 & H5 & _ & H6).
  - cbn [subset_indices]. now rewrite seq_length.
  - cbn [subset_indices]. apply Forall_forall. intros i Hi. apply in_seq in Hi. lia.
  - exists ld. split; [exact H1|]. exists ld, mbs. cbn [set_loader r_loader w_tick].
    split; [reflexivity|]. split; [exact H2|]. split.
    + apply Forall_forall. intros mb Hmb. apply In_nth_error in Hmb as (k & Hk).
      destruct (H6 k mb Hk) as (L1 & L2 & _). split; [exact L1|]. intros E. rewrite E in L2. cbn in L2. lia.
    + unfold epoch_rows. rewrite H4. assert (sel = ds) as <-; [|exact H5].
      cbn [subset_indices] in H3. clear -H3.
      assert (Hg : forall pre l sel, ds = pre ++ l ->
        Forall2 (fun i x => nth_error ds i = Some x) (seq (length pre) (length l)) sel -> sel = l).
      { intros pre l. revert pre. induction l as [|x l IH]; intros pre s E HF; inversion HF; subst; [reflexivity|].
        rewrite nth_error_app2, Nat.sub_diag in H1 by lia. injection H1 as ->. f_equal.
        apply (IH (pre ++ [y])); [now rewrite <- app_assoc|]. rewrite app_length. cbn [length].
        rewrite Nat.add_1_r. assumption. }
      exact (Hg [] ds sel eq_refl H3).
Qed.
Print Assumptions C02_setup_dataloader_feeds.

(** A concrete world: one-pixel images, pixel = parameter * input. *)
Definition exl_sim (p i : R) : pattern := [p * i].
Definition exl_step (o : unit) (p : R) : oproc R unit unit := OEval o p (fun l _ => ODone o p l).
Definition exl_loader : loader R pattern := fun _ => Ok [([1], [[2]]); ([1], [[3]])].
Definition exl_world (n : mse_norm) : world R unit R pattern mse_norm unit :=
  mkWorld 0 [] 0%Z ""%string (Some n) None tt None (Some exl_loader) false 0%nat.
Notation exl_epoch := (run_epoch tt (fun _ _ => tt)
    (loss_chunk tt (fun _ _ => tt) (fun pats sims => amplitude_mse pats sims None true) exl_sim
       (fun _ _ _ => tt))
    (fun _ => None) exl_step (mse_accumulate None) mse_normalize
    (fun (s : unit) (_ : R) (o : unit) => (s, o)) (fun _ _ => "line"%string)).

Example C02_hypotheses_met :
  grad_monoid tt (fun _ _ => tt) /\ fixed_params exl_step /\
  (forall p i, length (exl_sim p i) = 1%nat) /\ shaped None 1 (map snd [(1, [2]); (1, [3])]) /\
  feeds (exl_world mse_init) [(1, [2]); (1, [3])].
Proof.
  split; [repeat split; intros []; reflexivity|].
  split; [intros o p; eexists _, _; split; [reflexivity|]; intros l g; now exists o|].
  split; [reflexivity|]. split; [repeat constructor|].
  eexists _, _. split; [reflexivity|]. split; [reflexivity|]. split.
  - repeat constructor; discriminate.
  - apply Permutation_refl.
Qed.

(** C02, full claim refuted: an interrupted first epoch (the stop event is set after the first
    minibatch) leaves its count behind, and the next, complete epoch of the same two images
    reports half the loss that a fresh model reports. *)
Theorem C02_interrupted_first_epoch_refuted :
  let '(w1, r1) := run_stops (exl_epoch 1 (exl_world mse_init)) [false; true] in
  r1 = Raise SystemExit /\
  let d := [(1, [2]); (1, [3])] in
  let total := dataset_total (fun i s => (sqrt s - sqrt i) ^ 2) None 1 (with_sim (exl_sim 0) d) in
  (exists w', run_nostop (exl_epoch 1 (exl_world mse_init)) = (w', Ok (total / INR 2))) /\
  (exists w', run_nostop (exl_epoch 1 w1) = (w', Ok (total / INR 4))) /\
  total / INR 4 <> total / INR 2.
Proof.
  destruct (run_stops (exl_epoch 1 (exl_world mse_init)) [false; true]) as [w1 r1] eqn:E.
  assert (H : r1 = Raise SystemExit /\ m_norm w1 = Some (mkMse false 2) /\ m_params w1 = 0 /\
              r_loader w1 = Some exl_loader).
  { cbn in E. injection E as <- <-. repeat split. }
  destruct H as (H1 & H2 & H3 & H4). split; [exact H1|].
  destruct C02_hypotheses_met as (A1 & A2 & A3 & A4 & A5).
  assert (Hset : grad_monoid tt (fun _ _ => tt) /\ fixed_params exl_step /\
     (forall (p : R) e, (fun _ : R => @None (res unit)) p <> Some (Raise e)) /\
     (forall p i, length (exl_sim p i) = 1%nat) /\
     shaped None 1 (map snd [(1, [2]); (1, [3])]) /\ [(1, [2]); (1, [3])] <> []).
  { repeat split; try apply A1; try apply A2; try apply A4; try discriminate; auto. }
  intros d total. split; [|split].
  - destruct (C02_leftover_count tt (fun _ _ => tt) exl_sim (fun _ _ _ => tt) (fun _ => None) exl_step
      (fun (s : unit) (_ : R) (o : unit) => (s, o)) (fun _ _ => "line"%string) None 1 1
      (exl_world mse_init) d 0 Hset ltac:(lia) A5 eq_refl) as (w' & E1 & _).
    exists w'. rewrite E1. reflexivity.
  - assert (A5' : feeds w1 d).
    { eexists _, _. split; [exact H4|]. split; [reflexivity|]. split.
      - repeat constructor; discriminate.
      - apply Permutation_refl. }
    destruct (C02_leftover_count tt (fun _ _ => tt) exl_sim (fun _ _ _ => tt) (fun _ => None) exl_step
      (fun (s : unit) (_ : R) (o : unit) => (s, o)) (fun _ _ => "line"%string) None 1 1
      w1 d 2 Hset ltac:(lia) A5' H2) as (w' & E1 & _).
    exists w'. rewrite E1, H3. reflexivity.
  - assert (Ht : total = 5).
    { unfold total, dataset_total, image_total, with_sim, d, exl_sim, lsum. cbn.
      rewrite Rmult_0_l, sqrt_0.
      replace (0 - sqrt 2) with (- sqrt 2) by lra. replace (0 - sqrt 3) with (- sqrt 3) by lra.
      pose proof (sqrt_sqrt 2 ltac:(lra)). pose proof (sqrt_sqrt 3 ltac:(lra)). nra. }
    rewrite Ht. cbn. lra.
Qed.
Print Assumptions C02_interrupted_first_epoch_refuted.

(** ---------------- C40 ---------------- *)
(** The normalised loss of a first epoch is (nll(data, sim) - nll(data, data)) / (#pixels >= 1 / 2)
    by C02_poisson_epoch_loss. *)
Definition normalized_nll (ints sims : list pattern) (mask : option (list bool)) : R :=
  (poisson_nll ints sims mask default_eps false - poisson_nll ints ints mask default_eps false)
  / (1/2 * INR (count_ge1 (select mask ints))).

(** C40: perfect agreement gives 0. *)
Theorem C40_perfect_agreement_zero : forall ints mask, normalized_nll ints ints mask = 0.
Proof. intros. unfold normalized_nll, Rdiv. ring. Qed.
Print Assumptions C40_perfect_agreement_zero.

(** C40, non-negativity refuted: eps is added to the simulation but the baseline is
    nll(data, data) with its own eps, so predicting data - eps scores below zero. *)
Theorem C40_nonnegative_refuted : exists ints sims,
  all_pixels (fun x => 0 <= x) None 1 ints /\ all_pixels (fun x => 0 <= x) None 1 sims /\
  normalized_nll ints sims None < 0.
Proof.
  exists [[1]], [[1 - default_eps]].
  assert (He : 0 < default_eps < 1) by (unfold default_eps; split; [apply Rinv_0_lt_compat|rewrite <- Rinv_1; apply Rinv_lt_contravar]; lra).
  split; [|split].
  - intros k i Hk Hi _. cbn in Hk. destruct k; [|lia]. destruct i; [|lia]. cbn. lra.
  - intros k i Hk Hi _. cbn in Hk. destruct k; [|lia]. destruct i; [|lia]. cbn. lra.
  - unfold normalized_nll, poisson_nll, pixelwise, select. cbn [concat app combine map fst snd].
    unfold lsum. cbn [fold_right]. unfold count_ge1. cbn [filter].
    destruct (Rle_dec 1 1) as [_|H]; [|lra]. cbn [length INR].
    unfold nll_pix, xlogy. destruct (Req_EM_T 1 0); [lra|].
    replace (1 - default_eps + default_eps) with 1 by lra. rewrite ln_1.
    pose proof (ln_lt_sub1 (1 + default_eps) ltac:(lra) ltac:(lra)). lra.
Qed.
Print Assumptions C40_nonnegative_refuted.

(** C40, what does hold: for count data (every unmasked pixel 0 or >= 1) and non-negative
    predictions the loss is at least -2 eps^2 = -2e-12. *)
Theorem C40_count_data_lower_bound : forall mask npix ints sims,
  shaped mask npix ints -> shaped mask npix sims -> length ints = length sims ->
  all_pixels (fun x => x = 0 \/ 1 <= x) mask npix ints -> all_pixels (fun x => 0 <= x) mask npix sims ->
  (0 < count_ge1 (select mask ints))%nat ->
  -2 * default_eps ^ 2 <= normalized_nll ints sims mask.
Proof.
  intros mask npix ints sims Hi Hs Hl Pi Ps Hc. unfold normalized_nll.
  assert (He : 0 < default_eps) by (unfold default_eps; apply Rinv_0_lt_compat; lra).
  pose proof (normalized_count_bound mask npix default_eps ints sims Hi Hs Hl He Pi Ps) as B.
  assert (Hp : 0 < INR (count_ge1 (select mask ints))) by (apply lt_0_INR; exact Hc).
  apply Rmult_le_reg_r with (1/2 * INR (count_ge1 (select mask ints))); [lra|].
  set (c := INR (count_ge1 (select mask ints))) in *.
  set (a := poisson_nll ints sims mask default_eps false - poisson_nll ints ints mask default_eps false) in *.
  replace (a / (1 / 2 * c) * (1 / 2 * c)) with a by (field; lra). lra.
Qed.
Print Assumptions C40_count_data_lower_bound.

(** C40: for arbitrary non-negative data the deficit is at most eps per unmasked pixel. *)
Theorem C40_lower_bound : forall mask npix ints sims,
  shaped mask npix ints -> shaped mask npix sims -> length ints = length sims ->
  all_pixels (fun x => 0 <= x) mask npix ints -> all_pixels (fun x => 0 <= x) mask npix sims ->
  (0 < count_ge1 (select mask ints))%nat ->
  -2 * default_eps * INR (length ints * kept_pixels mask npix) / INR (count_ge1 (select mask ints))
  <= normalized_nll ints sims mask.
Proof.
  intros mask npix ints sims Hi Hs Hl Pi Ps Hc. unfold normalized_nll.
  assert (He : 0 < default_eps) by (unfold default_eps; apply Rinv_0_lt_compat; lra).
  pose proof (normalized_any_bound mask npix default_eps ints sims Hi Hs Hl He Pi Ps) as B.
  assert (Hp : 0 < INR (count_ge1 (select mask ints))) by (apply lt_0_INR; exact Hc).
  apply Rmult_le_reg_r with (1/2 * INR (count_ge1 (select mask ints))); [lra|].
  set (c := INR (count_ge1 (select mask ints))) in *. set (n := INR (length ints * kept_pixels mask npix)) in *.
  set (a := poisson_nll ints sims mask default_eps false - poisson_nll ints ints mask default_eps false) in *.
  replace (-2 * default_eps * n / c * (1 / 2 * c)) with (- default_eps * n) by (field; lra).
  replace (a / (1 / 2 * c) * (1 / 2 * c)) with a by (field; lra). exact B.
Qed.
Print Assumptions C40_lower_bound.
