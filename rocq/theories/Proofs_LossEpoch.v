(** The epoch loss with the real losses and normalizers (C02). *)
From Verif Require Import Base Model_Recon Spec_Recon Proofs_Recon Model_Loss Spec_Loss Proofs_Loss.
Open Scope R_scope.

Section Epoch.
Context {Prm Gr Opt Inp Pat Nrm Sch : Type}.
Variable gzero : Gr.
Variable gadd : Gr -> Gr -> Gr.
Variable chunk_eval : Prm -> list Inp -> list Pat -> res (R * Gr).
Variable reg_grad : Prm -> option (res Gr).
Variable ostep : Opt -> Prm -> oproc Prm Gr Opt.
Variable naccum : Nrm -> list Pat -> Nrm.
Variable nnormalize : Nrm -> pynum -> Nrm * res pynum.
Variable sched_step : Sch -> R -> Opt -> Sch * Opt.
Variable report : nat -> list R -> string.
Notation W := (world Prm Opt Inp Pat Nrm Sch).
Notation batch_loop := (batch_loop gzero gadd chunk_eval reg_grad ostep naccum).
Notation run_epoch := (run_epoch gzero gadd chunk_eval reg_grad ostep naccum nnormalize
                         sched_step report).

Definition rowtotal (li : Prm -> Inp -> Pat -> R) p (rows : list (Inp * Pat)) : R :=
  lsum (map (fun r => li p (fst r) (snd r)) rows).

Lemma batch_loop_fixed valid li gi width :
  grad_monoid gzero gadd -> sum_type gzero gadd chunk_eval valid li gi ->
  fixed_params ostep -> (forall p e, reg_grad p <> Some (Raise e)) -> (1 <= width)%Z ->
  forall mbs (w : W) acc,
  Forall aligned mbs -> Forall (fun mb => Forall valid (snd mb)) mbs ->
  Forall (fun mb => fst mb <> []) mbs ->
  exists w', run_nostop (batch_loop w width acc mbs) =
    (w', Ok (match mbs with
             | [] => acc
             | _ => Tens (pyval acc + rowtotal li (m_params w) (epoch_rows mbs))
             end)) /\
    m_params w' = m_params w /\
    m_norm w' = option_map (fun n => fold_left naccum (map snd mbs) n) (m_norm w) /\
    m_loss_history w' = m_loss_history w /\ r_loader w' = r_loader w /\
    r_sched w' = r_sched w /\ w_tick w' = w_tick w.
Proof.
  intros Hg Hs Hf Hr Hw. induction mbs as [|mb mbs IH]; intros w acc Ha Hv Hn.
  { exists w. cbn. destruct (m_norm w); repeat split. }
  inversion Ha as [|x1 l1 Ha1 Ha2]; subst. inversion Hv as [|x2 l2 Hv1 Hv2]; subst.
  inversion Hn as [|x3 l3 Hn1 Hn2]; subst.
  cbn [Model_Recon.batch_loop]. rewrite run_nostop_bind.
  set (w1 := match m_norm w with Some n => set_norm w (Some (naccum n (snd mb))) | None => w end).
  assert (E1 : m_params w1 = m_params w /\ r_opt w1 = r_opt w /\
     m_norm w1 = option_map (fun n => naccum n (snd mb)) (m_norm w) /\
     m_loss_history w1 = m_loss_history w /\ r_loader w1 = r_loader w /\
     r_sched w1 = r_sched w /\ w_tick w1 = w_tick w).
  { unfold w1. destruct (m_norm w) as [n|] eqn:E; cbn; rewrite ?E; repeat split. }
  destruct E1 as (P1 & P2 & P3 & P4 & P5 & P6 & P7).
  destruct (Hf (r_opt w1) (m_params w1)) as (o1 & k & Ek & Hk). rewrite Ek.
  cbn [Model_Recon.run_oproc]. rewrite run_nostop_bind.
  assert (Hcv : closure_value li (m_params (set_params w1 (m_params w1) o1)) mb =
                Tens (rowtotal li (m_params w) (combine (fst mb) (snd mb)))).
  { unfold closure_value, batch_rows, rowtotal. cbn [set_params m_params]. rewrite P1.
    destruct mb as [ins pats]. unfold aligned in Ha1. cbn [fst snd] in *.
    destruct ins as [|i ins]; [contradiction|]. destruct pats as [|q pats]; [discriminate|].
    reflexivity. }
  set (T := rowtotal li (m_params w) (combine (fst mb) (snd mb))) in *.
  assert (Hcl : exists g, run_nostop (closure gzero gadd chunk_eval reg_grad (set_params w1 (m_params w1) o1) width mb)
            = (set_params w1 (m_params w1) o1, Ok (Tens T, g))).
  { rewrite (closure_nostop gzero gadd chunk_eval reg_grad valid li gi) by assumption.
    unfold closure_result. rewrite Hcv.
    destruct (reg_grad (m_params (set_params w1 (m_params w1) o1))) as [[g|e]|] eqn:Er;
      [eauto|exfalso; exact (Hr _ _ Er)|eauto]. }
  destruct Hcl as (g & Hcl). rewrite Hcl. cbn [fst snd].
  destruct (Hk (Tens T) g) as (o2 & E2). rewrite E2.
  cbn [Model_Recon.run_oproc run_nostop].
  destruct (IH (set_params (set_params w1 (m_params w1) o1) (m_params w1) o2) (pyadd acc (Tens T)) Ha2 Hv2 Hn2)
    as (w' & E3 & Q1 & Q2 & Q3 & Q4 & Q5 & Q6).
  cbn [set_params m_params m_norm m_loss_history r_loader r_sched w_tick] in Q1, Q2, Q3, Q4, Q5, Q6, E3.
  exists w'. split; [|repeat split; try congruence; rewrite Q2, P3; destruct (m_norm w); reflexivity].
  etransitivity; [exact E3|]. rewrite P1. f_equal. f_equal.
  destruct mbs as [|mb2 mbs].
  - unfold epoch_rows. cbn [map concat]. rewrite app_nil_r. destruct acc; reflexivity.
  - assert (E4 : rowtotal li (m_params w) (epoch_rows (mb :: mb2 :: mbs)) =
                 T + rowtotal li (m_params w) (epoch_rows (mb2 :: mbs))).
    { unfold epoch_rows. rewrite (map_cons _ mb), concat_cons. unfold rowtotal.
      rewrite map_app, lsum_app. reflexivity. }
    rewrite E4. destruct acc; cbn [pyadd pyval]; f_equal; lra.
Qed.

(** One epoch at fixed parameters: the loss appended, the normalizer left behind. *)
Lemma epoch_fixed valid li gi width (w : W) ld mbs n l n' :
  grad_monoid gzero gadd -> sum_type gzero gadd chunk_eval valid li gi ->
  fixed_params ostep -> (forall p e, reg_grad p <> Some (Raise e)) -> (1 <= width)%Z ->
  r_loader w = Some ld -> ld (w_tick w) = Ok mbs -> mbs <> [] ->
  Forall aligned mbs -> Forall (fun mb => Forall valid (snd mb)) mbs ->
  Forall (fun mb => fst mb <> []) mbs ->
  m_norm w = Some n ->
  nnormalize (fold_left naccum (map snd mbs) n)
    (Tens (rowtotal li (m_params w) (epoch_rows mbs))) = (n', Ok (Tens l)) ->
  exists w', run_nostop (run_epoch width w) = (w', Ok l) /\
    m_norm w' = Some n' /\ m_params w' = m_params w /\ r_loader w' = Some ld /\
    w_tick w' = S (w_tick w) /\
    m_loss_history w' = m_loss_history w ++ [l].
Proof.
  intros Hg Hs Hf Hr Hw Hld Hmb Hne Ha Hv Hn Hnorm Hnl.
  unfold Model_Recon.run_epoch. rewrite Hld, Hmb. rewrite run_nostop_bind.
  destruct (batch_loop_fixed valid li gi width Hg Hs Hf Hr Hw mbs (set_tick w (S (w_tick w))) (PyNum 0) Ha Hv Hn)
    as (w' & E & P1 & P2 & P3 & P4 & P5 & P6).
  rewrite E. destruct mbs as [|mb mbs]; [contradiction|].
  cbn [set_tick m_params m_norm m_loss_history r_loader r_sched w_tick pyval] in *.
  rewrite Rplus_0_l. unfold finish_epoch. rewrite P2, Hnorm. cbn [option_map]. rewrite Hnl.
  cbn [set_norm r_sched].
  destruct (r_sched w') as [s|] eqn:Es;
    [destruct (sched_step s l (r_opt (set_norm w' (Some n')))) as [s' o'] eqn:Ess|];
    cbn; eexists; (split; [reflexivity|]); cbn; repeat split; auto; try congruence.
Qed.

(** The same without a normalizer. *)
Lemma epoch_fixed_plain valid li gi width (w : W) ld mbs :
  grad_monoid gzero gadd -> sum_type gzero gadd chunk_eval valid li gi ->
  fixed_params ostep -> (forall p e, reg_grad p <> Some (Raise e)) -> (1 <= width)%Z ->
  r_loader w = Some ld -> ld (w_tick w) = Ok mbs -> mbs <> [] ->
  Forall aligned mbs -> Forall (fun mb => Forall valid (snd mb)) mbs ->
  Forall (fun mb => fst mb <> []) mbs ->
  m_norm w = None ->
  snd (run_nostop (run_epoch width w)) = Ok (rowtotal li (m_params w) (epoch_rows mbs)).
Proof.
  intros Hg Hs Hf Hr Hw Hld Hmb Hne Ha Hv Hn Hnorm.
  unfold Model_Recon.run_epoch. rewrite Hld, Hmb. rewrite run_nostop_bind.
  destruct (batch_loop_fixed valid li gi width Hg Hs Hf Hr Hw mbs (set_tick w (S (w_tick w))) (PyNum 0) Ha Hv Hn)
    as (w' & E & P1 & P2 & P3 & P4 & P5 & P6).
  rewrite E. destruct mbs as [|mb mbs]; [contradiction|].
  cbn [set_tick m_params m_norm m_loss_history r_loader r_sched w_tick pyval] in *.
  rewrite Rplus_0_l. unfold finish_epoch. rewrite P2, Hnorm. cbn [option_map].
  destruct (r_sched w') as [s|] eqn:Es; [|reflexivity].
  destruct (sched_step s _ _) as [s' o'] eqn:Ess. reflexivity.
Qed.

Lemma rowtotal_perm li p a b : Permutation a b -> rowtotal li p a = rowtotal li p b.
Proof. intros H. unfold rowtotal. apply lsum_perm. now apply Permutation_map. Qed.
End Epoch.

(** ---- the normalizers over a first pass ---- *)
Lemma mse_fold_done mask batches : forall n, mse_first_pass_complete n = true ->
  fold_left (mse_accumulate mask) batches n = n.
Proof.
  induction batches as [|b batches IH]; intros n Hn; [reflexivity|].
  cbn [fold_left]. unfold mse_accumulate at 2. rewrite Hn. now apply IH.
Qed.
Lemma mse_fold mask npix batches : forall k, Forall (shaped mask npix) batches ->
  fold_left (mse_accumulate mask) batches (mkMse false k) =
  mkMse false (k + length (concat batches) * kept_pixels mask npix).
Proof.
  induction batches as [|b batches IH]; intros k HF; [cbn; f_equal; lia|].
  inversion HF; subst. cbn [fold_left]. unfold mse_accumulate at 2. cbn [mse_first_pass_complete mse_num_pix].
  rewrite IH by assumption. f_equal. rewrite (select_length mask npix) by assumption.
  cbn [concat]. rewrite app_length. lia.
Qed.
Lemma nll_fold_done mask batches : forall n, nll_first_pass_complete n = true ->
  fold_left (nll_accumulate mask) batches n = n.
Proof.
  induction batches as [|b batches IH]; intros n Hn; [reflexivity|].
  cbn [fold_left]. unfold nll_accumulate at 2. rewrite Hn. now apply IH.
Qed.

Lemma nll_self mask npix eps pats : shaped mask npix pats ->
  poisson_nll pats pats mask eps false = dataset_total (nll_pix eps) mask npix (map (fun p => (p, p)) pats).
Proof. intros H. unfold poisson_nll. rewrite (pixelwise_total _ mask npix) by auto. now rewrite combine_same. Qed.

Lemma count_ge1_total mask npix pats : shaped mask npix pats ->
  INR (count_ge1 (select mask pats)) =
  dataset_total (fun i _ => if Rle_dec 1 i then 1 else 0) mask npix (map (fun p => (p, p)) pats).
Proof.
  intros H. rewrite count_ge1_lsum, <- combine_same, <- (pixelwise_total _ mask npix) by auto.
  unfold pixelwise. rewrite combine_same, map_map. reflexivity.
Qed.

Lemma dataset_total_app f mask npix a b :
  dataset_total f mask npix (a ++ b) = dataset_total f mask npix a + dataset_total f mask npix b.
Proof. unfold dataset_total. now rewrite map_app, lsum_app. Qed.

Lemma nll_fold mask npix batches : forall s o, Forall (shaped mask npix) batches ->
  let pairs := map (fun p => (p, p)) (concat batches) in
  let n := fold_left (nll_accumulate mask) batches (mkNll false s o None) in
  pyval (nll_sum_nonzero n) = pyval s + dataset_total (fun i _ => if Rle_dec 1 i then 1 else 0) mask npix pairs /\
  pyval (nll_offset n) = pyval o + dataset_total (nll_pix default_eps) mask npix pairs /\
  nll_normalization n = None /\ nll_first_pass_complete n = false.
Proof.
  induction batches as [|b batches IH]; intros s o HF pairs n.
  - cbn. unfold dataset_total; cbn. repeat split; lra.
  - inversion HF; subst. subst n. cbn [fold_left]. unfold nll_accumulate at 2 4 6 8.
    cbn [nll_first_pass_complete nll_sum_nonzero nll_offset nll_normalization].
    destruct (IH (pyadd s (Tens (INR (count_ge1 (select mask b)))))
                 (pyadd o (Tens (poisson_nll b b mask default_eps false))) H2) as (A1 & A2 & A3 & A4).
    subst pairs. cbn [concat]. rewrite map_app, !dataset_total_app.
    rewrite A1, A2. repeat split; auto.
    + rewrite (count_ge1_total mask npix b H1). destruct s; cbn [pyadd pyval]; lra.
    + rewrite (nll_self mask npix _ b H1). destruct o; cbn [pyadd pyval]; lra.
Qed.

(** first epoch: which losses are tensors *)
Lemma nll_fold_norm mask npix batches loss : Forall (shaped mask npix) batches ->
  let pairs := map (fun p => (p, p)) (concat batches) in
  exists n', nll_normalize (fold_left (nll_accumulate mask) batches nll_init) (Tens loss) =
    (n', Ok (Tens ((loss - dataset_total (nll_pix default_eps) mask npix pairs) /
                   (1/2 * dataset_total (fun i _ => if Rle_dec 1 i then 1 else 0) mask npix pairs)))) /\
    nll_first_pass_complete n' = true /\
    pyval (nll_offset n') = dataset_total (nll_pix default_eps) mask npix pairs /\
    option_map pyval (nll_normalization n') =
      Some (1/2 * dataset_total (fun i _ => if Rle_dec 1 i then 1 else 0) mask npix pairs).
Proof.
  intros HF pairs. destruct (nll_fold mask npix batches (PyNum 0) (PyNum 0) HF) as (A1 & A2 & A3 & A4).
  fold pairs in A1, A2. change (mkNll false (PyNum 0) (PyNum 0) None) with nll_init in *.
  set (n := fold_left (nll_accumulate mask) batches nll_init) in *. cbn [pyval] in A1, A2.
  rewrite Rplus_0_l in A1, A2.
  unfold nll_normalize. rewrite A4.
  cbn [nll_normalization nll_offset nll_first_pass_complete option_map].
  eexists. split; [|repeat split].
  - f_equal. f_equal. unfold pydiv2, pysub. f_equal. cbn [pyval].
    rewrite A2. f_equal. f_equal. rewrite <- A1. destruct (nll_sum_nonzero n); reflexivity.
  - reflexivity.
  - exact A2.
  - rewrite <- A1. destruct (nll_sum_nonzero n); reflexivity.
Qed.
