(** Lemmas about Model_Ckpt. *)
From Verif Require Import Base Model_Ckpt Spec_Ckpt.

Lemma fname_eqb_refl f : fname_eqb f f = true.
Proof. unfold fname_eqb. now rewrite String.eqb_refl, Z.eqb_refl. Qed.

Section Ckpt.
Context {Sv Un Os : Type}.
Notation M := (mdl Sv Un Os).
Notation D := (disk Sv Os).

Lemma run_items_app (a b : list (item Sv Un)) : forall (m : M),
  run_items m (a ++ b) =
  let '(m1, t1) := run_items m a in let '(m2, t2) := run_items m1 b in (m2, t1 ++ t2).
Proof.
  induction a as [|it a IH]; intros m; cbn [app run_items].
  - destruct (run_items m b) as [m2 t2]. reflexivity.
  - destruct (run_item m it) as [m1 t1]. rewrite IH.
    destruct (run_items m1 a) as [m2 t2]. destruct (run_items m2 b) as [m3 t3].
    now rewrite app_assoc.
Qed.

Lemma run_item_ids (m : M) it :
  md_ids (fst (run_item m it)) = md_ids m /\
  md_current_optimizer (fst (run_item m it)) = md_current_optimizer m.
Proof. destruct it; cbn; [destruct (skipping m)|]; auto. Qed.

Lemma run_items_ids its : forall (m : M),
  md_ids (fst (run_items m its)) = md_ids m /\
  md_current_optimizer (fst (run_items m its)) = md_current_optimizer m.
Proof.
  induction its as [|it its IH]; intros m; cbn [run_items]; [auto|].
  pose proof (run_item_ids m it) as [H1 H2]. destruct (run_item m it) as [m1 t1]. cbn in H1, H2.
  specialize (IH m1). destruct (run_items m1 its) as [m2 t2]. cbn in *.
  destruct IH as [H3 H4]. split; congruence.
Qed.

Lemma skipping_ids (m m' : M) : md_ids m' = md_ids m -> skipping m' = skipping m.
Proof. unfold skipping. now intros ->. Qed.

(** While skipping, no optimize loop runs. *)
Lemma run_items_skip its : forall (m : M), skipping m = true -> snd (run_items m its) = [].
Proof.
  induction its as [|it its IH]; intros m Hs; cbn [run_items]; [reflexivity|].
  assert (Ht : snd (run_item m it) = []) by (destruct it; cbn; rewrite ?Hs; reflexivity).
  pose proof (run_item_ids m it) as [H1 _].
  destruct (run_item m it) as [m1 t1]. cbn in *. subst t1.
  specialize (IH m1). rewrite (skipping_ids m m1 H1) in IH. specialize (IH Hs).
  destruct (run_items m1 its) as [m2 t2]. cbn in *. now subst.
Qed.

(** While not skipping, the items act on (saved, unsaved) as in the plain run. *)
Lemma run_items_active its : forall (m m' : M),
  skipping m = false -> skipping m' = false ->
  md_saved m = md_saved m' ->
  Forall saved_only its ->
  md_saved (fst (run_items m its)) = md_saved (fst (run_items m' its)) /\
  snd (run_items m its) = snd (run_items m' its).
Proof.
  induction its as [|it its IH]; intros m m' Hs Hs' Hsv HF; cbn [run_items]; [auto|].
  inversion HF as [|x l Hit HF']; subst.
  pose proof (run_item_ids m it) as [H1 _]. pose proof (run_item_ids m' it) as [H1' _].
  assert (Hitem : md_saved (fst (run_item m it)) = md_saved (fst (run_item m' it)) /\
                  snd (run_item m it) = snd (run_item m' it)).
  { destruct it as [name run skip|run]; cbn [run_item]; rewrite ?Hs, ?Hs'; cbn;
      rewrite Hsv; cbn in Hit; split; try reflexivity; apply Hit. }
  destruct (run_item m it) as [m1 t1]. destruct (run_item m' it) as [m1' t1']. cbn in *.
  destruct Hitem as [E1 E2].
  specialize (IH m1 m1').
  rewrite (skipping_ids m m1 H1), (skipping_ids m' m1' H1') in IH.
  specialize (IH Hs Hs' E1 HF').
  destruct (run_items m1 its) as [m2 t2]. destruct (run_items m1' its) as [m2' t2']. cbn in *.
  destruct IH as [E3 E4]. split; [exact E3|congruence].
Qed.

Notation nth_ck stem id d := (d (stem, id)).

Lemma disk_write_same (d : D) f c : disk_write d f c f = Some c.
Proof. unfold disk_write. now rewrite fname_eqb_refl. Qed.
Lemma disk_write_other (d : D) f g c : g <> f -> disk_write d f c g = d g.
Proof.
  intros H. unfold disk_write, fname_eqb. destruct (String.eqb_spec (fst g) (fst f));
    destruct (Z.eqb_spec (snd g) (snd f)); cbn; try reflexivity.
  destruct f, g; cbn in *; subst. contradiction.
Qed.

(** A job with id [cur + k] started in a model at checkpoint id [cur], with [k] more
    checkpoints before its own stage.  [sv] is what the previous job saved. *)
Lemma run_stages_skip stem job k : forall cur (m : M) (d : D) pre st rest sv,
  length pre = S k -> job = (cur + Z.of_nat (S k))%Z ->
  md_ids m = Some (cur, job, stem) -> md_current_optimizer m = None ->
  d (stem, (job - 1)%Z) = Some (mkCkpt sv None) ->
  exists m', md_saved m' = sv /\ md_ids m' = Some (job, job, stem) /\
    md_current_optimizer m' = None /\
    run_stages m d (pre ++ st :: rest) = run_stages m' d (st :: rest).
Proof.
  induction k as [|k IH]; intros cur m d pre st rest sv Hlen Hjob Hids Hopt Hd.
  - destruct pre as [|p [|q pre]]; try discriminate.
    cbn [app].
    assert (Hun : run_stages m d (p :: st :: rest) =
      let '(m1, t1) := run_items m p in
      match checkpoint m1 d with
      | (d', Raise e) => (d', Raise e, t1)
      | (d', Ok m2) => let '(d2, r, t2) := run_stages m2 d' (st :: rest) in (d2, r, t1 ++ t2)
      end) by reflexivity.
    rewrite Hun. clear Hun.
    assert (Hsk : skipping m = true).
    { unfold skipping. rewrite Hids. destruct (Z.eqb_spec cur job); [lia|reflexivity]. }
    pose proof (run_items_skip p m Hsk) as Ht. pose proof (run_items_ids p m) as [Hi Ho].
    destruct (run_items m p) as [m1 t1]. cbn in Ht, Hi, Ho. subst t1.
    unfold checkpoint. rewrite Hi, Hids.
    destruct (Z.eqb_spec cur job); [lia|]. destruct (Z.eqb_spec (cur + 1) job) as [_|]; [|lia].
    unfold load_checkpoint. rewrite Hi, Hids. replace cur with (job - 1)%Z by lia.
    rewrite Hd. rewrite Ho, Hopt.
    exists (mkMdl sv (md_unsaved m1) (Some (job, job, stem)) None).
    split; [reflexivity|]. split; [reflexivity|]. split; [reflexivity|].
    cbn [ck_saved md_saved md_unsaved md_current_optimizer].
    replace (job - 1 + 1)%Z with job by lia.
    match goal with |- context [run_stages ?mm d (st :: rest)] => destruct (run_stages mm d (st :: rest)) as [[d2 r] t2] end. reflexivity.
  - destruct pre as [|p pre]; [discriminate|].
    cbn [app].
    assert (Hpre : exists q pre', pre = q :: pre') by (destruct pre; [discriminate|eauto]).
    assert (Hun : run_stages m d (p :: pre ++ st :: rest) =
      let '(m1, t1) := run_items m p in
      match checkpoint m1 d with
      | (d', Raise e) => (d', Raise e, t1)
      | (d', Ok m2) => let '(d2, r, t2) := run_stages m2 d' (pre ++ st :: rest) in (d2, r, t1 ++ t2)
      end).
    { destruct Hpre as (q & pre' & ->). reflexivity. }
    rewrite Hun. clear Hun.
    assert (Hsk : skipping m = true).
    { unfold skipping. rewrite Hids. destruct (Z.eqb_spec cur job); [lia|reflexivity]. }
    pose proof (run_items_skip p m Hsk) as Ht. pose proof (run_items_ids p m) as [Hi Ho].
    destruct (run_items m p) as [m1 t1]. cbn in Ht, Hi, Ho. subst t1.
    unfold checkpoint. rewrite Hi, Hids.
    destruct (Z.eqb_spec cur job); [lia|]. destruct (Z.eqb_spec (cur + 1) job) as [|_]; [lia|].
    match goal with |- context [run_stages ?mm d (pre ++ _)] => set (m2 := mm) end.
    destruct (IH (cur + 1)%Z m2 d pre st rest sv) as (m' & E1 & E2 & E3 & E4).
    + now injection Hlen.
    + lia.
    + reflexivity.
    + cbn. now rewrite Ho.
    + exact Hd.
    + exists m'. repeat split; auto. rewrite E4.
      destruct (run_stages m' d (st :: rest)) as [[d2 r] t2]. reflexivity.
Qed.

(** One active stage. *)
Lemma run_stage_active stem job (m : M) (d : D) st rest :
  md_ids m = Some (job, job, stem) -> md_current_optimizer m = None ->
  run_stages m d (st :: rest) =
  let '(m1, t1) := run_items m st in
  match rest with
  | [] => (d, Ok m1, t1)
  | _ => (disk_write d (stem, job) (mkCkpt (md_saved m1) None), Raise SystemExit, t1)
  end.
Proof.
  intros Hids Hopt. pose proof (run_items_ids st m) as [Hi Ho].
  cbn [run_stages]. destruct (run_items m st) as [m1 t1]. cbn in Hi, Ho.
  destruct rest as [|q rest]; [reflexivity|].
  unfold checkpoint, save_checkpoint. rewrite Hi, Hids, Z.eqb_refl, Ho, Hopt. reflexivity.
Qed.

(** [progress s0 u0 stages j]: saved state of the plain run after the first j stages. *)
Lemma plain_split s0 u0 (stages1 : list (list (item Sv Un))) st :
  run_plain (Os := Os) s0 u0 (stages1 ++ [st]) =
  let '(m1, t1) := run_plain s0 u0 stages1 in
  let '(m2, t2) := run_items m1 st in (m2, t1 ++ t2).
Proof.
  unfold run_plain. rewrite concat_app. cbn [concat]. rewrite app_nil_r. apply run_items_app.
Qed.

Lemma plain_not_skipping s0 u0 stages :
  skipping (fst (run_plain (Os := Os) s0 u0 (stages : list (list (item Sv Un))))) = false.
Proof.
  unfold run_plain. pose proof (run_items_ids (concat stages) (mkMdl (Os := Os) s0 u0 None None)) as [H _].
  unfold skipping. rewrite H. reflexivity.
Qed.

Lemma job_step s0 u0 stem (stages : list (list (item Sv Un))) j pre st rest (d : D) :
  stages = pre ++ st :: rest -> length pre = j ->
  Forall saved_only st ->
  (forall j', j = S j' -> d (stem, Z.of_nat j') =
     Some (mkCkpt (md_saved (fst (run_plain (Os := Os) s0 u0 pre))) None)) ->
  let '(mp, tp) := run_plain (Os := Os) s0 u0 pre in
  let '(mq, tq) := run_items mp st in
  exists m' : M, md_saved m' = md_saved mq /\
    run_job s0 u0 stem stages (Z.of_nat j) d =
    match rest with
    | [] => (d, Ok m', tq)
    | _ => (disk_write d (stem, Z.of_nat j) (mkCkpt (md_saved mq) None), Raise SystemExit, tq)
    end.
Proof.
  intros Hst Hlen HF Hd. unfold run_job.
  set (m0 := use_checkpoints (Z.of_nat j) stem (mkMdl s0 u0 None None)).
  assert (Hm : exists m' : M, md_saved m' = md_saved (fst (run_plain (Os := Os) s0 u0 pre)) /\
     md_ids m' = Some (Z.of_nat j, Z.of_nat j, stem) /\ md_current_optimizer m' = None /\
     run_stages m0 d (pre ++ st :: rest) = run_stages m' d (st :: rest)).
  { destruct j as [|k].
    - destruct pre; [|discriminate]. exists m0. repeat split.
    - destruct (run_stages_skip stem (Z.of_nat (S k)) k 0 m0 d pre st rest
                  (md_saved (fst (run_plain (Os := Os) s0 u0 pre)))) as (m' & E1 & E2 & E3 & E4).
      + exact Hlen.
      + lia.
      + reflexivity.
      + reflexivity.
      + replace (Z.of_nat (S k) - 1)%Z with (Z.of_nat k) by lia. now apply Hd.
      + exists m'. auto. }
  destruct Hm as (m' & E1 & E2 & E3 & E4). rewrite Hst, E4.
  rewrite (run_stage_active stem (Z.of_nat j) m' d st rest E2 E3).
  pose proof (plain_not_skipping s0 u0 pre) as Hns.
  destruct (run_plain s0 u0 pre) as [mp tp]. cbn [fst] in *.
  assert (Hs' : skipping m' = false) by (unfold skipping; rewrite E2, Z.eqb_refl; reflexivity).
  destruct (run_items_active st m' mp Hs' Hns E1 HF) as [A1 A2].
  destruct (run_items m' st) as [m1 t1]. destruct (run_items mp st) as [mq tq]. cbn in A1, A2.
  subst t1. exists m1. split; [exact A1|].
  destruct rest; [reflexivity|]. now rewrite A1.
Qed.

Lemma firstn_split {A} (l : list A) n x rest : skipn n l = x :: rest ->
  l = firstn n l ++ x :: rest /\ firstn (S n) l = firstn n l ++ [x].
Proof.
  intros H. split; [rewrite <- H; symmetry; apply firstn_skipn|].
  revert l H. induction n as [|n IH]; intros l H; [cbn in H; subst; reflexivity|].
  destruct l as [|y l]; [discriminate|]. cbn in H. cbn [firstn app].
  f_equal. apply IH. exact H.
Qed.

Lemma run_jobs_inv s0 u0 stem (stages : list (list (item Sv Un))) :
  Forall (Forall saved_only) stages ->
  forall n (d : D), n < length stages ->
  let '(d', outs) := run_jobs s0 u0 stem stages n d in
  let '(mp, tp) := run_plain (Os := Os) s0 u0 (firstn n stages) in
  (forall k, n = S k -> d' (stem, Z.of_nat k) = Some (mkCkpt (md_saved mp) None)) /\
  concat (map snd outs) = tp /\
  Forall (fun o => fst o = Raise SystemExit) outs /\ length outs = n.
Proof.
  intros HF. induction n as [|n IH]; intros d Hn.
  - cbn. repeat split; auto. intros k Hk. discriminate.
  - cbn [run_jobs]. specialize (IH d ltac:(lia)).
    destruct (run_jobs s0 u0 stem stages n d) as [d1 outs].
    destruct (skipn n stages) as [|st rest] eqn:Es.
    { apply (f_equal (@length _)) in Es. rewrite skipn_length in Es. cbn in Es. lia. }
    destruct (firstn_split stages n st rest Es) as [E1 E2]. rewrite E2.
    rewrite plain_split.
    assert (Hst : Forall saved_only st).
    { rewrite Forall_forall in HF. apply HF. rewrite E1. apply in_or_app. right. now left. }
    assert (Hrest : rest <> []).
    { intros ->. apply (f_equal (@length _)) in Es. rewrite skipn_length in Es. cbn in Es. lia. }
    pose proof (job_step s0 u0 stem stages n (firstn n stages) st rest d1 E1) as HJ.
    rewrite firstn_length_le in HJ by lia. specialize (HJ eq_refl Hst).
    destruct (run_plain s0 u0 (firstn n stages)) as [mp tp]. cbn [fst] in HJ.
    destruct IH as (I1 & I2 & I3 & I4).
    specialize (HJ (fun j' Hj => I1 j' Hj)).
    destruct (run_items mp st) as [mq tq].
    destruct HJ as (m' & Hm' & HJ). rewrite HJ.
    destruct rest as [|r1 rest]; [contradiction|].
    split; [|split; [|split]].
    + intros k Hk. injection Hk as <-. apply disk_write_same.
    + rewrite map_app, concat_app, I2. cbn. now rewrite app_nil_r.
    + apply Forall_app. split; [exact I3|]. constructor; [reflexivity|constructor].
    + rewrite app_length, I4. cbn. lia.
Qed.

Lemma checkpointed_run s0 u0 stem (stages : list (list (item Sv Un))) (d : D) :
  stages <> [] -> Forall (Forall saved_only) stages ->
  let '(mp, tp) := run_plain (Os := Os) s0 u0 stages in
  let '(d', outs) := run_jobs s0 u0 stem stages (length stages) d in
  exists (m' : M) tl, md_saved m' = md_saved mp /\
    last outs (Raise SystemExit, []) = (Ok m', tl) /\
    Forall (fun o => fst o = Raise SystemExit) (removelast outs) /\
    concat (map snd outs) = tp.
Proof.
  intros Hne HF.
  destruct (exists_last Hne) as (pre & st & ->).
  rewrite app_length. cbn [length]. rewrite Nat.add_1_r. cbn [run_jobs].
  pose proof (run_jobs_inv s0 u0 stem (pre ++ [st]) HF (length pre) d) as HI.
  rewrite app_length in HI. cbn [length] in HI. specialize (HI ltac:(lia)).
  assert (Hfn : firstn (length pre) (pre ++ [st]) = pre).
  { rewrite firstn_app, Nat.sub_diag, firstn_all. cbn. apply app_nil_r. }
  rewrite Hfn in HI.
  destruct (run_jobs s0 u0 stem (pre ++ [st]) (length pre) d) as [d1 outs].
  rewrite plain_split.
  assert (Hst : Forall saved_only st).
  { rewrite Forall_forall in HF. apply HF. apply in_or_app. right. now left. }
  pose proof (job_step s0 u0 stem (pre ++ [st]) (length pre) pre st [] d1 eq_refl eq_refl Hst) as HJ.
  destruct (run_plain s0 u0 pre) as [mp tp]. cbn [fst] in HJ.
  destruct HI as (I1 & I2 & I3 & I4). specialize (HJ I1).
  destruct (run_items mp st) as [mq tq]. destruct HJ as (m' & Hm' & HJ). rewrite HJ.
  exists m', tq. split; [exact Hm'|]. split; [apply last_last|].
  split; [rewrite removelast_last; exact I3|].
  rewrite map_app, concat_app, I2. cbn. now rewrite app_nil_r.
Qed.

(** ---- current_optimizer ---- *)
Lemma optops_never_saved (ops : list (optop Os)) : forall a,
  at_model a = None -> Forall (eq None) (optops a ops).
Proof.
  induction ops as [|op ops IH]; intros a Ha; cbn; [constructor|].
  destruct op; cbn; [apply IH; exact Ha..|]. constructor; [now symmetry|apply IH; exact Ha].
Qed.
End Ckpt.

(** ---- context managers ---- *)
Section Save.
Context {Mod File : Type}.
Variable results : Mod -> File.
Variable save : string -> Mod -> fs File -> fs File * res unit.

Lemma save_on_exit_normal filename exc m f :
  honest results save -> snd (save filename m f) = Ok tt ->
  snd (save_on_exit save filename exc m (Ok tt) f) = Ok tt /\
  wrote results filename m f (fst (save_on_exit save filename exc m (Ok tt) f)).
Proof.
  intros Hh Hok. unfold save_on_exit. specialize (Hh filename m f).
  destruct (save filename m f) as [f1 [[]|e]]; cbn in *; [|discriminate]. split; [reflexivity|].
  apply Hh. reflexivity.
Qed.

Lemma save_on_exit_exception filename exc m e f :
  honest results save ->
  let name := match exc with Some n => n | None => filename end in
  snd (save name m f) = Ok tt ->
  snd (save_on_exit save filename exc m (Raise e) f) = Raise e /\
  wrote results name m f (fst (save_on_exit save filename exc m (Raise e) f)).
Proof.
  intros Hh name Hok. unfold save_on_exit. fold name. specialize (Hh name m f).
  destruct (save name m f) as [f1 [[]|e']]; cbn in *; [|discriminate]. split; [reflexivity|].
  apply Hh. reflexivity.
Qed.

Lemma save_on_exception_spec filename m f :
  honest results save ->
  save_on_exception save filename m (Ok tt) f = (f, Ok tt) /\
  (forall e, snd (save filename m f) = Ok tt ->
     snd (save_on_exception save filename m (Raise e) f) = Raise e /\
     wrote results filename m f (fst (save_on_exception save filename m (Raise e) f))).
Proof.
  intros Hh. split; [reflexivity|]. intros e Hok. unfold save_on_exception.
  specialize (Hh filename m f).
  destruct (save filename m f) as [f1 [[]|e']]; cbn in *; [|discriminate]. split; [reflexivity|].
  apply Hh. reflexivity.
Qed.

(** A failing body or a failing save is never swallowed. *)
Lemma save_on_exit_not_swallowed filename exc m body f e0 :
  snd (save_on_exit save filename exc m body f) = Ok tt ->
  body <> Raise e0.
Proof.
  unfold save_on_exit. intros H ->.
  destruct (save _ m f) as [f1 [u|e']]; discriminate.
Qed.
End Save.
