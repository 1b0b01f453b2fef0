(** Lemmas about Model_Recon. *)
From Verif Require Import Base Model_Recon Spec_Recon.

(** ---- chunking ---- *)
Lemma firstn_add {A} (a b : nat) (l : list A) :
  firstn a l ++ firstn b (skipn a l) = firstn (a + b) l.
Proof.
  revert l; induction a as [|a IH]; intros l; simpl; [reflexivity|].
  destruct l as [|x l]; simpl; [now rewrite firstn_nil|]. now rewrite IH.
Qed.

Lemma slice_len {A} (i w : nat) (l : list A) : slice i (i + w) l = firstn w (skipn i l).
Proof. unfold slice. f_equal. lia. Qed.

Lemma concat_slices {A} (w m : nat) (l : list A) :
  concat (map (fun i => slice i (i + w) l) (map (fun k => k * w) (seq 0 m)))
  = firstn (m * w) l.
Proof.
  induction m as [|m IH]; [reflexivity|].
  rewrite seq_S, !map_app, concat_app, IH. simpl. rewrite app_nil_r, slice_len, firstn_add.
  f_equal. lia.
Qed.

Lemma ceil_mul (n w : nat) : 1 <= w -> n <= (n + w - 1) / w * w.
Proof.
  intros Hw. pose proof (Nat.div_mod (n + w - 1) w ltac:(lia)) as E.
  pose proof (Nat.mod_upper_bound (n + w - 1) w ltac:(lia)). nia.
Qed.

Lemma ceil_lt (n w k : nat) : 1 <= w -> k < (n + w - 1) / w -> k * w < n.
Proof.
  intros Hw Hk. pose proof (Nat.div_mod (n + w - 1) w ltac:(lia)) as E.
  pose proof (Nat.mod_upper_bound (n + w - 1) w ltac:(lia)). nia.
Qed.

Lemma py_range0_ok (n : nat) (w : Z) :
  (1 <= w)%Z ->
  py_range0 n w = Ok (map (fun k => k * Z.to_nat w) (seq 0 ((n + Z.to_nat w - 1) / Z.to_nat w))).
Proof.
  intros Hw. unfold py_range0.
  destruct (Z.eqb_spec w 0); [lia|]. destruct (Z.ltb_spec w 0); [lia|]. reflexivity.
Qed.

Lemma py_chunks_concat {A} (w : Z) (l : list A) :
  (1 <= w)%Z -> exists cs, py_chunks (List.length l) w l = Ok cs /\ concat cs = l.
Proof.
  intros Hw. unfold py_chunks. rewrite py_range0_ok by assumption. cbn [rmap].
  eexists; split; [reflexivity|]. rewrite concat_slices.
  apply firstn_all2. apply ceil_mul. lia.
Qed.

Lemma py_chunks_sizes {A} (w : Z) (l : list A) cs :
  (1 <= w)%Z -> py_chunks (List.length l) w l = Ok cs ->
  forall k c, nth_error cs k = Some c ->
    c = slice (k * Z.to_nat w) (k * Z.to_nat w + Z.to_nat w) l /\
    1 <= List.length c <= Z.to_nat w /\
    (S k < List.length cs -> List.length c = Z.to_nat w).
Proof.
  intros Hw. unfold py_chunks. rewrite py_range0_ok by assumption. cbn [rmap].
  set (wn := Z.to_nat w). intros H; injection H as <-. intros k c Hk.
  set (m := (List.length l + wn - 1) / wn) in *.
  assert (Hlen : List.length (map (fun i => slice i (i + wn) l)
                   (map (fun j => j * wn) (seq 0 m))) = m)
    by now rewrite !map_length, seq_length.
  assert (Hkm : k < m).
  { rewrite <- Hlen. apply nth_error_Some. rewrite Hk. discriminate. }
  rewrite map_map in Hk.
  assert (Hc : c = slice (k * wn) (k * wn + wn) l).
  { erewrite map_nth_error in Hk; [| rewrite nth_error_nth' with (d := 0);
       [reflexivity | now rewrite seq_length] ].
    rewrite seq_nth in Hk by lia. cbn in Hk. now injection Hk as <-. }
  split; [exact Hc|].
  assert (Hlt : k * wn < List.length l) by (apply ceil_lt; [lia|exact Hkm]).
  assert (Hl : List.length c = Nat.min wn (List.length l - k * wn)).
  { rewrite Hc, slice_len, firstn_length, skipn_length. reflexivity. }
  split; [rewrite Hl; lia|].
  rewrite Hlen. intros HS.
  assert (S k * wn < List.length l) by (apply ceil_lt; [lia|exact HS]). rewrite Hl. nia.
Qed.

Lemma combine_map2 {A B C} (f : A -> B) (g : A -> C) (l : list A) :
  combine (map f l) (map g l) = map (fun x => (f x, g x)) l.
Proof. induction l as [|x l IH]; simpl; [reflexivity|now rewrite IH]. Qed.

Lemma combine_slice {A B} (i j : nat) (xs : list A) (ys : list B) :
  combine (slice i j xs) (slice i j ys) = slice i j (combine xs ys).
Proof.
  unfold slice. generalize (j - i) as d. intros d. revert xs ys. induction i as [|i IH]; intros xs ys.
  - simpl. now rewrite combine_firstn.
  - destruct xs as [|x xs]; [now rewrite skipn_nil, !firstn_nil|].
    destruct ys as [|y ys].
    + rewrite !skipn_nil, !firstn_nil. destruct (firstn _ _); reflexivity.
    + simpl. apply IH.
Qed.

Lemma slice_same_length {A B} (i j : nat) (xs : list A) (ys : list B) :
  List.length xs = List.length ys ->
  List.length (slice i j xs) = List.length (slice i j ys).
Proof. intros H. unfold slice. rewrite !firstn_length, !skipn_length, H. reflexivity. Qed.

Section Recon.
Context {Prm Gr Opt Inp Pat Nrm Sch : Type}.
Variable gzero : Gr.
Variable gadd : Gr -> Gr -> Gr.
Variable chunk_eval : Prm -> list Inp -> list Pat -> res (R * Gr).
Variable reg_grad : Prm -> option (res Gr).
Variable ostep : Opt -> Prm -> oproc Prm Gr Opt.
Variable naccum : Nrm -> list Pat -> Nrm.
Variable nnormalize : Nrm -> pynum -> Nrm * res pynum.
Variable sched_step : Sch -> R -> Opt -> Sch * Opt.
Variable report : nat -> list R -> string.

Notation W := (world Prm Opt Inp Pat Nrm Sch).
Notation closure := (closure gzero gadd chunk_eval reg_grad).
Notation run_oproc := (run_oproc gzero gadd chunk_eval reg_grad).
Notation batch_loop := (batch_loop gzero gadd chunk_eval reg_grad ostep naccum).
Notation finish_epoch := (finish_epoch nnormalize sched_step report).
Notation run_epoch := (run_epoch gzero gadd chunk_eval reg_grad ostep naccum nnormalize
                         sched_step report).

Lemma run_nostop_bind {A B} (p : proc A) (f : W -> A -> proc B) :
  run_nostop (pbind p f) =
  match run_nostop p with
  | (w, Ok a) => run_nostop (f w a)
  | (w, Raise e) => (w, Raise e)
  end.
Proof.
  induction p as [w [a|e]|w k IH]; simpl; [reflexivity|reflexivity|]. apply IH.
Qed.

Notation gsum := (gsum gzero gadd).
Notation sum_type := (sum_type gzero gadd chunk_eval).
Notation grad_monoid := (grad_monoid gzero gadd).
Notation closure_result := (closure_result gzero gadd reg_grad).

Lemma gsum_app : grad_monoid -> forall a b, gsum (a ++ b) = gadd (gsum a) (gsum b).
Proof.
  intros (Ha & Hl & _) a b. induction a as [|x a IH]; simpl; [now rewrite Hl|].
  now rewrite Ha, <- IH.
Qed.

Lemma lsum_app a b : lsum (a ++ b) = (lsum a + lsum b)%R.
Proof. induction a as [|x a IH]; simpl; [lra|]. unfold lsum in *; simpl. rewrite IH. lra. Qed.

Lemma chunk_loop_nostop valid li gi (w : W) chunks :
  grad_monoid -> sum_type valid li gi ->
  Forall (fun c => List.length (fst c) = List.length (snd c) /\ Forall valid (snd c)) chunks ->
  forall acc,
  let rows := concat (map (fun c => combine (fst c) (snd c)) chunks) in
  run_nostop (chunk_loop gadd chunk_eval w acc chunks) =
  (w, Ok (match chunks with
          | [] => fst acc
          | _ => Tens (pyval (fst acc) + lsum (map (fun r => li (m_params w) (fst r) (snd r)) rows))
          end,
          gadd (snd acc) (gsum (map (fun r => gi (m_params w) (fst r) (snd r)) rows)))).
Proof.
  intros Hg Hs HF. induction HF as [|[ins pats] rest [Hl Hv] HF IH]; intros acc; cbn zeta in *.
  - simpl. destruct Hg as (_ & _ & Hr). destruct acc as [a g]. simpl. now rewrite Hr.
  - cbn [chunk_loop run_nostop]. cbn [fst snd] in Hl, Hv. rewrite (Hs _ _ _ Hl Hv).
    rewrite IH. cbn [fst snd map concat].
    rewrite !map_app, lsum_app, (gsum_app Hg). destruct Hg as (Ha & Hll & Hr).
    f_equal. f_equal. f_equal.
    + destruct rest as [|c rest].
      * destruct (fst acc); cbn [pyadd pyval concat map lsum fold_right];
          f_equal; unfold lsum; simpl; lra.
      * destruct (fst acc); cbn [pyadd pyval]; f_equal; lra.
    + now rewrite Ha.
Qed.

Lemma concat_combine_slices {A B} (w m : nat) (xs : list A) (ys : list B) :
  concat (map (fun c => combine (fst c) (snd c))
    (map (fun i => (slice i (i + w) xs, slice i (i + w) ys)) (map (fun k => k * w) (seq 0 m))))
  = firstn (m * w) (combine xs ys).
Proof.
  rewrite map_map. cbn [fst snd].
  rewrite (map_ext _ (fun i => slice i (i + w) (combine xs ys)))
    by (intros; apply combine_slice).
  apply concat_slices.
Qed.

Lemma Forall_slice {A} (P : A -> Prop) i j l : Forall P l -> Forall P (slice i j l).
Proof.
  rewrite !Forall_forall. intros H x Hx. apply H. unfold slice in Hx.
  rewrite <- (firstn_skipn i l). apply in_or_app. right.
  rewrite <- (firstn_skipn (j - i) (skipn i l)). apply in_or_app. now left.
Qed.

Lemma closure_nostop valid li gi (w : W) width mb :
  grad_monoid -> sum_type valid li gi -> aligned mb -> Forall valid (snd mb) -> (1 <= width)%Z ->
  run_nostop (closure w width mb) = closure_result li gi w mb.
Proof.
  intros Hg Hs Hal Hvl Hw. destruct mb as [ins pats]. unfold aligned in Hal. cbn [fst snd] in Hal, Hvl.
  unfold Model_Recon.closure, py_chunks. rewrite py_range0_ok by assumption. cbn [rmap].
  rewrite combine_map2.
  set (wn := Z.to_nat width). set (m := (List.length ins + wn - 1) / wn).
  rewrite run_nostop_bind.
  rewrite (chunk_loop_nostop valid li gi); [|assumption|assumption|].
  2:{ apply Forall_forall. intros c Hc. apply in_map_iff in Hc as (i & <- & _). cbn [fst snd].
      split; [now apply slice_same_length|now apply Forall_slice]. }
  cbn zeta. rewrite concat_combine_slices.
  assert (Hm : firstn (m * wn) (combine ins pats) = combine ins pats).
  { apply firstn_all2. rewrite combine_length. pose proof (ceil_mul (List.length ins) wn).
    unfold m. lia. }
  rewrite Hm. unfold Spec_Recon.closure_result, closure_value, closure_grad, batch_rows. cbn [fst snd].
  destruct Hg as (Ha & Hl & Hr).
  assert (Hv : match map (fun i => (slice i (i + wn) ins, slice i (i + wn) pats))
                    (map (fun k => k * wn) (seq 0 m)) with
               | [] => PyNum 0
               | _ :: _ => Tens (pyval (PyNum 0) + lsum (map (fun r => li (m_params w) (fst r) (snd r))
                                              (combine ins pats)))
               end = match combine ins pats with
                     | [] => PyNum 0
                     | rows => Tens (lsum (map (fun r => li (m_params w) (fst r) (snd r)) rows))
                     end).
  { destruct ins as [|i0 ins].
    - assert (m = 0) as ->. { unfold m. apply Nat.div_small. cbn. lia. } reflexivity.
    - destruct pats as [|p0 pats]; [discriminate|].
      assert (Hpos : m <> 0).
      { intros E. pose proof (ceil_mul (List.length (i0 :: ins)) wn ltac:(lia)) as Hc.
        fold m in Hc. rewrite E in Hc. cbn in Hc. lia. }
      destruct m as [|m']; [contradiction|]. cbn [seq map combine]. cbn [pyval]. f_equal.
      apply Rplus_0_l. }
  rewrite Hv, Hl.
  destruct (reg_grad (m_params w)) as [[g|e]|]; reflexivity.
Qed.

Lemma run_oproc_width valid li gi width1 width2 mb :
  grad_monoid -> sum_type valid li gi -> aligned mb -> Forall valid (snd mb) -> (1 <= width1)%Z -> (1 <= width2)%Z ->
  forall op (w : W), run_nostop (run_oproc w width1 mb op) = run_nostop (run_oproc w width2 mb op).
Proof.
  intros Hg Hs Hal Hvl H1 H2 op. induction op as [o p l|o p k IH]; intros w.
  - reflexivity.
  - cbn [Model_Recon.run_oproc]. rewrite !run_nostop_bind.
    rewrite !(closure_nostop valid li gi) by assumption.
    destruct (closure_result _ _ _ _) as [w' [[l g]|e]]; [apply IH|reflexivity].
Qed.

Lemma batch_loop_width valid li gi width1 width2 mbs :
  grad_monoid -> sum_type valid li gi -> Forall aligned mbs ->
  Forall (fun mb => Forall valid (snd mb)) mbs -> (1 <= width1)%Z -> (1 <= width2)%Z ->
  forall acc (w : W), run_nostop (batch_loop w width1 acc mbs) = run_nostop (batch_loop w width2 acc mbs).
Proof.
  intros Hg Hs HF HV H1 H2. induction HF as [|mb rest Hal HF IH]; intros acc w; [reflexivity|].
  inversion HV as [|x l Hvl HV']; subst. specialize (IH HV').
  cbn [Model_Recon.batch_loop]. rewrite !run_nostop_bind.
  rewrite (run_oproc_width valid li gi width1 width2) by assumption.
  destruct (run_nostop (run_oproc _ _ _ _)) as [w' [[r|r]|e]]; [reflexivity|apply IH|reflexivity].
Qed.

Lemma run_epoch_width valid li gi width1 width2 (w : W) :
  grad_monoid -> sum_type valid li gi ->
  (forall ld, r_loader w = Some ld -> loader_aligned ld /\ loader_valid valid ld) ->
  (1 <= width1)%Z -> (1 <= width2)%Z ->
  run_nostop (run_epoch width1 w) = run_nostop (run_epoch width2 w).
Proof.
  intros Hg Hs Hld H1 H2. unfold Model_Recon.run_epoch.
  destruct (r_loader w) as [ld|] eqn:E; [|reflexivity].
  destruct (ld (w_tick w)) as [mbs|e] eqn:Em; [|reflexivity].
  rewrite !run_nostop_bind. rewrite (batch_loop_width valid li gi width1 width2); try assumption.
  - reflexivity.
  - exact (proj1 (Hld ld eq_refl) _ _ Em).
  - exact (proj2 (Hld ld eq_refl) _ _ Em).
Qed.

(** ---- stop event ---- *)
Lemma run_stops_bind_nil {A} (p : proc A) :
  forall (w : W) r, run_nostop p = (w, r) -> run_stops p [] = (w, r).
Proof. induction p as [w r|w k IH]; intros w' r' H; simpl in *; [exact H|now apply IH]. Qed.

(** A predicate saying every [Chk] node, when answered true, raises SystemExit at once without
    changing the world. *)
Fixpoint graceful {A} (p : @proc Prm Opt Inp Pat Nrm Sch A) : Prop :=
  match p with
  | Fin _ _ => True
  | Chk w k => k true = Fin w (Raise SystemExit) /\ graceful (k false)
  end.

Lemma graceful_bind {A B} (p : proc A) (f : W -> A -> proc B) :
  graceful p -> (forall w a, graceful (f w a)) -> graceful (pbind p f).
Proof.
  intros Hp Hf. induction p as [w [a|e]|w k IH]; simpl in *; [apply Hf|exact I|].
  destruct Hp as [H1 H2]. split; [now rewrite H1|now apply IH].
Qed.

Lemma graceful_chunk_loop (w : W) chunks : forall acc, graceful (chunk_loop gadd chunk_eval w acc chunks).
Proof.
  induction chunks as [|[i p] rest IH]; intros acc; simpl; [exact I|].
  split; [reflexivity|]. destruct (chunk_eval _ _ _) as [[l g]|e]; [apply IH|exact I].
Qed.

Lemma graceful_closure (w : W) width mb : graceful (closure w width mb).
Proof.
  unfold Model_Recon.closure. destruct mb as [ins pats].
  destruct (py_chunks _ _ ins) as [ics|e]; [|exact I].
  destruct (py_chunks _ _ pats) as [pcs|e]; [|exact I].
  apply graceful_bind; [apply graceful_chunk_loop|].
  intros w' acc. destruct (reg_grad _) as [[g|e]|]; exact I.
Qed.

Lemma graceful_oproc width mb op : forall (w : W), graceful (run_oproc w width mb op).
Proof.
  induction op as [o p l|o p k IH]; intros w; cbn [Model_Recon.run_oproc]; [exact I|].
  apply graceful_bind; [apply graceful_closure|]. intros w' lg. apply IH.
Qed.

Lemma graceful_batch_loop width mbs : forall acc (w : W), graceful (batch_loop w width acc mbs).
Proof.
  induction mbs as [|mb rest IH]; intros acc w; cbn [Model_Recon.batch_loop]; [exact I|].
  apply graceful_bind; [apply graceful_oproc|]. intros w' [r|r]; [exact I|apply IH].
Qed.

Lemma graceful_finish (w : W) l : graceful (finish_epoch w l).
Proof.
  unfold Model_Recon.finish_epoch.
  destruct (match m_norm w with Some _ => _ | None => _ end) as [w1 [[r|r]|e]]; try exact I.
Qed.

Lemma graceful_run_epoch width (w : W) : graceful (run_epoch width w).
Proof.
  unfold Model_Recon.run_epoch. destruct (r_loader w) as [ld|]; [|exact I].
  destruct (ld _) as [mbs|e]; [|exact I].
  apply graceful_bind; [apply graceful_batch_loop|]. intros; apply graceful_finish.
Qed.

Lemma graceful_run_stops {A} (p : @proc Prm Opt Inp Pat Nrm Sch A) :
  graceful p -> forall answers,
    run_stops p answers = run_nostop p \/
    exists w, run_stops p answers = (w, Raise SystemExit).
Proof.
  induction p as [w r|w k IH]; intros Hg answers; simpl in *; [now left|].
  destruct Hg as [H1 H2]. destruct answers as [|[|] bs].
  - apply IH; assumption.
  - right. exists w. rewrite H1. reflexivity.
  - apply IH; assumption.
Qed.

(** ---- bookkeeping ---- *)
Lemma frame_refl (w : W) : frame w w.
Proof. repeat split. Qed.
Lemma frame_trans (a b c : W) : frame a b -> frame b c -> frame a c.
Proof.
  intros (A1 & A2 & A3 & A4 & A5 & A6) (B1 & B2 & B3 & B4 & B5 & B6).
  repeat split; etransitivity; eassumption.
Qed.

(** every world visible during or at the end of p satisfies P; final results satisfy Q *)
Fixpoint all_worlds {A} (P : W -> Prop) (Q : W -> res A -> Prop) (p : proc A) : Prop :=
  match p with
  | Fin w r => Q w r
  | Chk w k => P w /\ forall b, all_worlds P Q (k b)
  end.

Lemma all_worlds_mono {A} (P P' : W -> Prop) (Q Q' : W -> res A -> Prop) p :
  (forall w, P w -> P' w) -> (forall w r, Q w r -> Q' w r) ->
  all_worlds P Q p -> all_worlds P' Q' p.
Proof.
  intros HP HQ. induction p as [w r|w k IH]; simpl; [apply HQ|].
  intros [H1 H2]. split; [auto|]. intros b. apply IH, H2.
Qed.

Lemma all_worlds_bind {A B} (P : W -> Prop) (Q : W -> res B -> Prop) (p : proc A)
      (f : W -> A -> proc B) :
  all_worlds P (fun w r => match r with Ok a => all_worlds P Q (f w a)
                                   | Raise e => Q w (Raise e) end) p ->
  all_worlds P Q (pbind p f).
Proof.
  induction p as [w [a|e]|w k IH]; simpl; [auto|auto|].
  intros [H1 H2]. split; [exact H1|]. intros b. apply IH, H2.
Qed.

Lemma chunk_loop_worlds (w : W) chunks : forall acc,
  all_worlds (eq w) (fun w' _ => w' = w) (chunk_loop gadd chunk_eval w acc chunks).
Proof.
  induction chunks as [|[i p] rest IH]; intros acc; simpl; [reflexivity|].
  split; [reflexivity|]. intros [|]; [reflexivity|].
  destruct (chunk_eval _ _ _) as [[l g]|e]; [apply IH|reflexivity].
Qed.

Lemma closure_worlds (w : W) width mb :
  all_worlds (eq w) (fun w' _ => w' = w) (closure w width mb).
Proof.
  unfold Model_Recon.closure. destruct mb as [ins pats].
  destruct (py_chunks _ _ ins) as [ics|e]; [|reflexivity].
  destruct (py_chunks _ _ pats) as [pcs|e]; [|reflexivity].
  apply all_worlds_bind. eapply all_worlds_mono; [| |apply chunk_loop_worlds].
  1: auto.
  intros w' r ->. destruct r as [a|e]; [|reflexivity].
  destruct (reg_grad _) as [[g|e]|]; reflexivity.
Qed.

Lemma oproc_worlds width mb op : forall (w0 w : W), frame w0 w ->
  all_worlds (frame w0) (fun w' _ => frame w0 w') (run_oproc w width mb op).
Proof.
  induction op as [o p l|o p k IH]; intros w0 w Hf; cbn [Model_Recon.run_oproc].
  - eapply frame_trans; [exact Hf|]. repeat split.
  - apply all_worlds_bind. eapply all_worlds_mono; [| |apply closure_worlds].
    + intros w' <-. eapply frame_trans; [exact Hf|]. repeat split.
    + intros w' r ->. assert (frame w0 (set_params w p o))
        by (eapply frame_trans; [exact Hf|]; repeat split).
      destruct r as [a|e]; [now apply IH|assumption].
Qed.

Lemma batch_loop_worlds width mbs : forall acc (w0 w : W), frame w0 w ->
  all_worlds (frame w0) (fun w' _ => frame w0 w') (batch_loop w width acc mbs).
Proof.
  induction mbs as [|mb rest IH]; intros acc w0 w Hf; cbn [Model_Recon.batch_loop]; [exact Hf|].
  apply all_worlds_bind.
  eapply all_worlds_mono; [| |apply (oproc_worlds width mb _ w0)].
  - auto.
  - intros w' [[r|r]|e] H; cbn; [exact H|now apply IH|exact H].
  - eapply frame_trans; [exact Hf|]. destruct (m_norm w); repeat split.
Qed.

Lemma finish_worlds (w0 w : W) loss : frame w0 w ->
  all_worlds (frame w0) (fun w' r => match r with Ok l => epoch_done w0 w' l
                                             | Raise _ => frame w0 w' end)
             (finish_epoch w loss).
Proof.
  intros Hf. unfold Model_Recon.finish_epoch.
  assert (Hn : forall n, frame w0 (set_norm w n)).
  { intros n. eapply frame_trans; [exact Hf|]. repeat split. }
  set (pr := match m_norm w with Some n => _ | None => _ end).
  assert (Hpr : frame w0 (fst pr)).
  { unfold pr. destruct (m_norm w) as [n|]; [destruct (nnormalize n loss)|]; simpl; auto. }
  destruct pr as [w1 [[r|r]|e]]; simpl in Hpr; try exact Hpr.
  destruct Hpr as (H1 & H2 & H3 & H4 & H5 & H6).
  destruct (r_sched w1) as [s|]; [destruct (sched_step s r (r_opt w1)) as [s' o']|];
    simpl; unfold epoch_done; simpl; rewrite H1, H3;
    (split; [reflexivity|]; split; [reflexivity|]; split; [|repeat split; assumption]);
    eexists; (split; [reflexivity|]); eexists; reflexivity.
Qed.

Lemma run_epoch_worlds width (w : W) :
  all_worlds (frame w) (fun w' r => match r with Ok l => epoch_done w w' l
                                            | Raise _ => frame w w' end)
             (run_epoch width w).
Proof.
  unfold Model_Recon.run_epoch. destruct (r_loader w) as [ld|] eqn:E; [|apply frame_refl].
  assert (Hf : frame w (set_tick w (S (w_tick w)))) by repeat split.
  destruct (ld _) as [mbs|e]; [|exact Hf].
  apply all_worlds_bind. eapply all_worlds_mono; [| |apply (batch_loop_worlds width mbs _ w _ Hf)].
  - auto.
  - intros w' [a|e] H; [now apply finish_worlds|exact H].
Qed.

Lemma all_worlds_nostop {A} P Q (p : @proc Prm Opt Inp Pat Nrm Sch A) :
  all_worlds P Q p -> Q (fst (run_nostop p)) (snd (run_nostop p)).
Proof.
  induction p as [w r|w k IH]; simpl; [auto|]. intros [_ H]. apply IH, H.
Qed.

Lemma run_epoch_hist width (w w' : W) r :
  run_nostop (run_epoch width w) = (w', r) ->
  match r with Ok l => epoch_done w w' l | Raise _ => frame w w' end.
Proof.
  intros H. pose proof (all_worlds_nostop _ _ _ (run_epoch_worlds width w)) as Hq.
  rewrite H in Hq. exact Hq.
Qed.

End Recon.
