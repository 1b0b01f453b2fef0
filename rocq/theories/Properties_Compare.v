(** C90: comparing simulated and measured patterns. C91: saved figures and the stored detector geometry. *)
From Verif Require Import Base Model_Compare Spec_Compare.
Local Open Scope Z_scope.

Section C90.
Variable params : Type.
Variable forward : params -> dataset -> Z -> pic.
Variable mask : option pic.
Variable logarithmic : bool.
Notation run := (run params forward mask logarithmic).
Notation step := (step params forward mask logarithmic).
Notation shows := (shows params forward mask logarithmic).
Notation update := (update params forward mask logarithmic).
Notation track := (track params).
Notation track1 := (track1 params).

Lemma ln10_pos : (0 < ln 10)%R.
Proof. rewrite <- ln_1. apply ln_increasing; lra. Qed.
Lemma draw_shows p d idx : shows p d idx {| w_data := d; pattern_idx := idx; pics := Some (draw params forward mask logarithmic p d idx) |}.
Proof.
  split; [reflexivity|]. split; [reflexivity|]. eexists. split; [reflexivity|]. intros r c.
  exists (if logarithmic then (ln (forward p d idx r c) / ln 10)%R else forward p d idx r c), (if logarithmic then (ln (measured d idx r c) / ln 10)%R else measured d idx r c).
  assert (D : forall v, displayed logarithmic v (if logarithmic then (ln v / ln 10)%R else v)).
  { intros v. unfold displayed. destruct logarithmic; [|reflexivity]. intros V. unfold Rpower. replace (ln v / ln 10 * ln 10)%R with (ln v) by (pose proof ln10_pos; field; lra). apply exp_ln, V. }
  split; [apply D|]. split; [apply D|]. cbn. auto.
Qed.
Lemma update_window_ok p d i ps idx : 0 < ds_len d -> exists w, update_window params forward mask logarithmic p {| w_data := d; pattern_idx := i; pics := ps |} idx = Ok w /\ shows p d (idx mod ds_len d) w.
Proof.
  intros H. unfold update_window. cbn [w_data]. destruct (Z.eqb_spec (ds_len d) 0); [lia|]. eexists. split; [reflexivity|]. apply draw_shows.
Qed.
Definition one (st : state params) d i p q : Prop := par params st = p /\ slider params st = i /\ exists w, windows params st = [w] /\ shows q d i w.
Lemma set_val_one st d i p q v : 0 < ds_len d -> 0 <= v < ds_len d -> one st d i p q -> exists st', set_val params forward mask logarithmic v st = Ok st' /\ one st' d v p p.
Proof.
  intros H V (P & S & w & W & D). unfold set_val, Model_Compare.update. cbn [windows par slider]. rewrite W. cbn [at_window].
  destruct w as [wd wi ws]. destruct D as (D1 & D2 & D3). cbn in D1, D2. subst wd wi.
  destruct (update_window_ok (par params st) d i ws v H) as (w' & -> & D'). cbn [rbind]. eexists. split; [reflexivity|].
  rewrite Z.mod_small in D' by exact V. split; [exact P|]. split; [reflexivity|]. exists w'. split; [reflexivity|]. rewrite <- P at 1. exact D'.
Qed.
Lemma update_one st d i p q v : 0 < ds_len d -> one st d i p q -> exists st', update 0%nat v st = Ok st' /\ slider params st' = slider params st /\ par params st' = p /\ exists w, windows params st' = [w] /\ shows p d (v mod ds_len d) w.
Proof.
  intros H (P & S & w & W & D). unfold Model_Compare.update. rewrite W. cbn [at_window].
  destruct w as [wd wi ws]. destruct D as (D1 & D2 & D3). cbn in D1, D2. subst wd wi.
  destruct (update_window_ok (par params st) d i ws v H) as (w' & -> & D'). cbn [rbind]. eexists. split; [reflexivity|]. split; [reflexivity|]. split; [exact P|]. exists w'. split; [reflexivity|]. rewrite <- P. exact D'.
Qed.
Lemma act_one st d i p q v : 0 < ds_len d -> one st d i p q -> exists st', rbind (update 0%nat v st) (fun s => set_val params forward mask logarithmic (idx_of params 0 s) s) = Ok st' /\ one st' d (v mod ds_len d) p p.
Proof.
  intros H O. destruct (update_one st d i p q v H O) as (s1 & -> & S1 & P1 & w1 & W1 & D1). cbn [rbind].
  assert (E : idx_of params 0 s1 = v mod ds_len d) by (unfold idx_of; rewrite W1; apply D1). rewrite E.
  pose proof (Z.mod_pos_bound v (ds_len d) H) as B.
  assert (O1 : one {| par := par params s1; windows := windows params s1; slider := v mod ds_len d |} d (v mod ds_len d) p p) by (split; [exact P1|split; [reflexivity|exists w1; auto]]).
  destruct (set_val_one _ d _ p p (v mod ds_len d) H B O1) as (st' & E' & O'). exists st'. split; [|exact O']. exact E'.
Qed.
Lemma step_one st d i p q e : 0 < ds_len d -> 0 <= i < ds_len d -> single params e -> one st d i p q ->
  exists st' i' p' q', step e st = Ok st' /\ track1 (ds_len d) e (i, p, q) = (i', p', q') /\ 0 <= i' < ds_len d /\ one st' d i' p' q'.
Proof.
  intros H B Sg O. pose proof O as (P & S & w & W & D). destruct e as [d'|n dr|v|p']; cbn in Sg; [contradiction| | |].
  - subst n. assert (E : idx_of params 0 st = i) by (unfold idx_of; rewrite W; apply D). destruct dr; cbn [Model_Compare.step Spec_Compare.track1].
    + rewrite E. destruct (act_one st d i p q (i - 1) H O) as (st' & -> & O'). do 4 eexists. split; [reflexivity|]. split; [reflexivity|].
      assert (M : (i - 1) mod ds_len d = if i =? 0 then ds_len d - 1 else i - 1).
      { destruct (Z.eqb_spec i 0) as [->|N]; [|apply Z.mod_small; lia]. replace (0 - 1) with (ds_len d - 1 + (-1) * ds_len d) by ring. rewrite Z_mod_plus_full. apply Z.mod_small. lia. }
      rewrite <- M. split; [apply Z.mod_pos_bound; lia|exact O'].
    + rewrite E. destruct (act_one st d i p q (i + 1) H O) as (st' & -> & O'). do 4 eexists. split; [reflexivity|]. split; [reflexivity|].
      assert (M : (i + 1) mod ds_len d = if i =? ds_len d - 1 then 0 else i + 1).
      { destruct (Z.eqb_spec i (ds_len d - 1)) as [->|N]; [|apply Z.mod_small; lia]. replace (ds_len d - 1 + 1) with (ds_len d) by ring. apply Z_mod_same_full. }
      rewrite <- M. split; [apply Z.mod_pos_bound; lia|exact O'].
    + cbn [rbind]. rewrite E. destruct (set_val_one st d i p q i H B O) as (st' & -> & O'). do 4 eexists. split; [reflexivity|]. split; [reflexivity|]. split; [exact B|exact O'].
  - cbn [Model_Compare.step Spec_Compare.track1]. rewrite W. destruct D as (D1 & D2 & D3). rewrite D1. unfold clip.
    set (v' := Z.max 0 (Z.min v (ds_len d - 1))). rewrite S. destruct (Z.eqb_spec v' i) as [Ev|Nv].
    + exists st, i, p, q. auto.
    + assert (V : 0 <= v' < ds_len d) by (unfold v'; lia). destruct (set_val_one st d i p q v' H V O) as (st' & -> & O'). exists st', v', p, p. auto.
  - cbn [Model_Compare.step Spec_Compare.track1]. do 4 eexists. split; [reflexivity|]. split; [reflexivity|]. split; [exact B|]. split; [reflexivity|]. split; [exact S|]. exists w. auto.
Qed.

(** One window: after any history of keys, wheel turns, drags and work on the model, nothing has been raised, the slider
    agrees with the pattern number, which is the one the events lead to, and the three pictures show that pattern as the
    model was when they were last drawn. *)
Theorem C90_history : forall p d es, 0 < ds_len d -> Forall (single params) es ->
  exists st w i now then_, run (Open d :: es) (fresh params p) = Ok st /\ windows params st = [w] /\
    track (ds_len d) es (0, p, p) = (i, now, then_) /\ par params st = now /\
    0 <= i < ds_len d /\ slider params st = i /\ shows then_ d i w.
Proof.
  intros p d es H F.
  assert (G : forall es st i p q, Forall (single params) es -> 0 <= i < ds_len d -> one st d i p q ->
    exists st' i' p' q', run es st = Ok st' /\ track (ds_len d) es (i, p, q) = (i', p', q') /\ 0 <= i' < ds_len d /\ one st' d i' p' q').
  { clear es F. induction es as [|e es IH]; intros st i p0 q F B O.
    - exists st, i, p0, q. auto.
    - inversion F as [|? ? F1 F2]; subst. destruct (step_one st d i p0 q e H B F1 O) as (s1 & i1 & p1 & q1 & E1 & T1 & B1 & O1).
      cbn [Model_Compare.run]. rewrite E1. cbn [rbind]. destruct (IH s1 i1 p1 q1 F2 B1 O1) as (s2 & i2 & p2 & q2 & E2 & T2 & R2). exists s2, i2, p2, q2. split; [exact E2|]. split; [|exact R2].
      unfold Spec_Compare.track. cbn [fold_left]. rewrite T1. exact T2. }
  destruct (update_window_ok p d 0 None 0 H) as (w0 & E0 & D0). rewrite Z.mod_0_l in D0 by lia.
  set (s0 := {| par := p; windows := [w0]; slider := 0 |}).
  destruct (G es s0 0 p p F ltac:(lia)) as (st & i & p' & q' & E & T & B & P & S & w & W & D).
  { split; [reflexivity|]. split; [reflexivity|]. exists w0. auto. }
  exists st, w, i, p', q'. split; [|auto 10]. cbn [Model_Compare.run Model_Compare.step]. unfold Model_Compare.update. cbn [windows fresh par at_window]. rewrite E0. exact E.
Qed.

(** Pressing "down" k times from the start shows pattern k modulo the number of patterns. *)
Theorem C90_walk : forall p d k, 0 < ds_len d -> exists st w, run (Open d :: repeat (Action 0 Down) k) (fresh params p) = Ok st /\
  windows params st = [w] /\ shows p d (Z.of_nat k mod ds_len d) w.
Proof.
  intros p d k H. destruct (C90_history p d (repeat (Action 0 Down) k) H) as (st & w & i & now & q & E & W & T & _ & B & _ & D).
  { apply Forall_forall. intros e He. apply repeat_spec in He. subst e. reflexivity. }
  exists st, w. split; [exact E|]. split; [exact W|].
  assert (K : forall k i, 0 <= i < ds_len d -> track (ds_len d) (repeat (Action 0 Down) k) (i, p, p) = ((i + Z.of_nat k) mod ds_len d, p, p)).
  { clear - H. induction k as [|k IH]; intros i B.
    - cbn. rewrite Z.add_0_r, Z.mod_small by exact B. reflexivity.
    - cbn [repeat]. unfold Spec_Compare.track. cbn [fold_left Spec_Compare.track1]. fold (track (ds_len d) (repeat (Action 0 Down) k)).
      change (fold_left _ (repeat (Action 0 Down) k) ?t) with (track (ds_len d) (repeat (Action 0 Down) k) t). rewrite IH by (destruct (Z.eqb_spec i (ds_len d - 1)); lia).
      f_equal. f_equal. destruct (Z.eqb_spec i (ds_len d - 1)) as [->|N].
      + replace (ds_len d - 1 + Z.of_nat (S k)) with (0 + Z.of_nat k + 1 * ds_len d) by lia. rewrite Z_mod_plus_full. reflexivity.
      + f_equal. lia. }
  rewrite K in T by lia. injection T as <- <- <-. exact D.
Qed.

(** Any number of windows: nothing is raised, and every window shows the pattern of its own dataset it is at, with
    parameters the model has had. *)
Definition sane (ps : list params) (w : window) : Prop := 0 < ds_len (w_data w) /\ 0 <= pattern_idx w < ds_len (w_data w) /\ exists p, In p ps /\ shows p (w_data w) (pattern_idx w) w.
Lemma at_window_ok ps p n ws idx : In p ps -> (n < List.length ws)%nat -> Forall (sane ps) ws ->
  exists ws', at_window n ws (fun w => update_window params forward mask logarithmic p w idx) = Ok ws' /\ List.length ws' = List.length ws /\ Forall (sane ps) ws'.
Proof.
  intros I. revert n. induction ws as [|w ws IH]; intros n L F; [cbn in L; lia|]. inversion F as [|? ? (F0 & F1 & F2) F3]; subst. destruct n as [|n].
  - cbn [at_window]. destruct w as [wd wi wp]. cbn in F0. destruct (update_window_ok p wd wi wp idx F0) as (w' & -> & D). cbn [rbind]. eexists. split; [reflexivity|]. split; [reflexivity|].
    constructor; [|exact F3]. pose proof D as (D1 & D2 & _). unfold sane. rewrite D1, D2. split; [exact F0|]. split; [apply Z.mod_pos_bound, F0|]. exists p. auto.
  - cbn [at_window]. destruct (IH n ltac:(cbn in L; lia) F3) as (ws' & -> & L' & F'). cbn [rbind]. eexists. split; [reflexivity|]. split; [cbn; lia|]. constructor; [|exact F']. split; [exact F0|]. split; assumption.
Qed.
Lemma update_ok ps n idx st : In (par params st) ps -> (n < List.length (windows params st))%nat -> Forall (sane ps) (windows params st) ->
  exists st', update n idx st = Ok st' /\ par params st' = par params st /\ List.length (windows params st') = List.length (windows params st) /\ Forall (sane ps) (windows params st').
Proof.
  intros I L F. unfold Model_Compare.update. destruct (at_window_ok ps (par params st) n (windows params st) idx I L F) as (ws & -> & L' & F'). cbn [rbind]. eexists. split; [reflexivity|]. auto.
Qed.
Lemma had_first p es : In p (had params p es).
Proof. destruct es; left; reflexivity. Qed.
Theorem C90_windows : forall p es, possible params 0 es -> exists st, run es (fresh params p) = Ok st /\
  Forall (fun w => 0 <= pattern_idx w < ds_len (w_data w) /\ exists q, In q (had params p es) /\ shows q (w_data w) (pattern_idx w) w) (windows params st).
Proof.
  intros p es Q.
  assert (G : forall ps es st, possible params (List.length (windows params st)) es -> (forall q, In q (had params (par params st) es) -> In q ps) -> Forall (sane ps) (windows params st) ->
    exists st', run es st = Ok st' /\ Forall (sane ps) (windows params st')).
  { clear p es Q. intros ps es. induction es as [|e es IH]; intros st Q I F; [exists st; auto|].
    assert (I0 : In (par params st) ps) by (apply I, had_first). cbn [Model_Compare.run].
    assert (SV : forall st v, In (par params st) ps -> (0 < List.length (windows params st))%nat -> Forall (sane ps) (windows params st) -> exists st', set_val params forward mask logarithmic v st = Ok st' /\ par params st' = par params st /\ List.length (windows params st') = List.length (windows params st) /\ Forall (sane ps) (windows params st')).
    { intros s v Is Ls Fs. unfold set_val. apply (update_ok ps 0 v {| par := par params s; windows := windows params s; slider := v |}); assumption. }
    destruct e as [d|n dr|v|p'].
    - cbn in Q. destruct Q as [H Q]. cbn [Model_Compare.step]. unfold Model_Compare.update. cbn [windows par at_window].
      destruct (update_window_ok (par params st) d 0 None 0 H) as (w & -> & D). cbn [rbind]. apply IH; cbn [windows par List.length]; [exact Q|intros q Hq; apply I; cbn [had]; right; exact Hq|].
      constructor; [|exact F]. pose proof D as (D1 & D2 & _). unfold sane. rewrite D1, D2. rewrite Z.mod_0_l in * by lia. split; [exact H|]. split; [lia|]. eauto.
    - cbn in Q. destruct Q as [L Q]. cbn [Model_Compare.step].
      assert (U : exists s1, (match dr with Up => update n (idx_of params n st - 1) st | Down => update n (idx_of params n st + 1) st | Other => Ok st end) = Ok s1 /\ par params s1 = par params st /\ List.length (windows params s1) = List.length (windows params st) /\ Forall (sane ps) (windows params s1)).
      { destruct dr; [apply update_ok; assumption|apply update_ok; assumption|exists st; auto]. }
      destruct U as (s1 & -> & P1 & L1 & F1). cbn [rbind]. destruct (SV s1 (idx_of params n s1)) as (s2 & -> & P2 & L2 & F2); [rewrite P1; exact I0|lia|exact F1|]. cbn [rbind].
      apply IH; [rewrite L2, L1; exact Q|rewrite P2, P1; intros q Hq; apply I; cbn [had]; right; exact Hq|exact F2].
    - cbn in Q. destruct Q as [L Q]. cbn [Model_Compare.step]. destruct (windows params st) as [|w ws] eqn:W; [cbn in L; lia|]. rewrite <- W in *.
      destruct (_ =? _).
      + cbn [rbind]. apply IH; [exact Q|intros q Hq; apply I; cbn [had]; right; exact Hq|exact F].
      + destruct (SV st (clip v 0 (ds_len (w_data w) - 1)) I0 L F) as (s2 & -> & P2 & L2 & F2). cbn [rbind]. apply IH; [rewrite L2; exact Q|rewrite P2; intros q Hq; apply I; cbn [had]; right; exact Hq|exact F2].
    - cbn in Q. cbn [Model_Compare.step rbind]. apply IH; [exact Q|intros q Hq; apply I; cbn [had]; right; exact Hq|exact F]. }
  destruct (G (had params p es) es (fresh params p) Q ltac:(auto) ltac:(constructor)) as (st & E & F). exists st. split; [exact E|].
  eapply Forall_impl; [|exact F]. intros w (_ & B & D). auto.
Qed.

(** A new window starts at pattern 0, with the slider at 0, whatever the older ones show, and leaves them alone. *)
Theorem C90_open : forall st d, 0 < ds_len d ->
  exists st' w, step (Open d) st = Ok st' /\ windows params st' = w :: windows params st /\ slider params st' = 0 /\
    par params st' = par params st /\ shows (par params st) d 0 w.
Proof.
  intros st d H. cbn [Model_Compare.step]. unfold Model_Compare.update. cbn [windows par at_window].
  destruct (update_window_ok (par params st) d 0 None 0 H) as (w & -> & D). cbn [rbind].
  rewrite Z.mod_0_l in D by lia. eexists. exists w. split; [reflexivity|]. cbn [windows slider par]. auto.
Qed.

(** But the windows of one model share its slider: a key pressed in an older window moves the latest one too, to that
    window's pattern number. *)
Theorem C90_shared_refuted : forall p d1 d2, 1 < ds_len d1 -> 1 < ds_len d2 ->
  exists st w1 w2, run [Open d1; Open d2; Action 1 Down] (fresh params p) = Ok st /\ windows params st = [w2; w1] /\
    shows p d1 1 w1 /\ shows p d2 1 w2.
Proof.
  intros p d1 d2 H1 H2. destruct d1 as [l1 m1] eqn:E1, d2 as [l2 m2] eqn:E2. rewrite <- E1, <- E2 in *.
  assert (N1 : (ds_len d1 =? 0) = false) by (apply Z.eqb_neq; lia). assert (N2 : (ds_len d2 =? 0) = false) by (apply Z.eqb_neq; lia).
  cbn [Model_Compare.run Model_Compare.step]. unfold Model_Compare.update, set_val, Model_Compare.update, update_window, idx_of. cbn [windows fresh par at_window w_data rbind]. rewrite N1. cbn [windows fresh par at_window w_data rbind]. rewrite N2.
  cbn [windows fresh par at_window w_data rbind nth_error pattern_idx]. rewrite N1. cbn [windows fresh par at_window w_data rbind nth_error pattern_idx]. rewrite N2. cbn [rbind].
  rewrite Z.mod_0_l by lia. change (0 + 1) with 1. rewrite ?(Z.mod_small 1 (ds_len d1)) by lia. rewrite ?(Z.mod_small 1 (ds_len d2)) by lia.
  do 3 eexists. split; [reflexivity|]. split; [reflexivity|]. split; apply draw_shows.
Qed.
Theorem C90_empty_refuted : forall p d st, ds_len d = 0 -> par params st = p -> step (Open d) st = Raise ZeroDivisionError.
Proof. intros p d st H P. cbn [Model_Compare.step]. unfold Model_Compare.update, update_window. cbn. rewrite H. reflexivity. Qed.
End C90.
Print Assumptions C90_history.
Print Assumptions C90_walk.
Print Assumptions C90_windows.
Print Assumptions C90_open.
Print Assumptions C90_shared_refuted.
Print Assumptions C90_empty_refuted.

(** C90: a concrete history: two patterns, a step back (which wraps round), more work on the model, a drag to where the
    slider is (nothing is drawn), another key (everything is drawn again). *)
Example C90_example : let d := {| ds_len := 2; measured := fun _ _ _ => 1%R |} in
  Forall (single nat) [Action 0 Up; Work 5%nat; Drag 1] /\
  track nat 2 [Action 0 Up; Work 5%nat; Drag 1] (0, 3%nat, 3%nat) = (1, 5%nat, 3%nat) /\
  track nat 2 [Action 0 Up; Work 5%nat; Drag 1; Action 0 Other] (0, 3%nat, 3%nat) = (1, 5%nat, 5%nat) /\
  possible nat 0 [Open d; Open d; Action 1 Down; Drag 0].
Proof. cbn. repeat split; try lia; repeat constructor. Qed.

(** C91: save_figures: a file with the name of some figure holds the last figure of that name, other files are left
    alone. *)
Definition named {A} (prefix extension : string) (f : figure A) : string := (prefix ++ label_of f ++ extension)%string.
Theorem C91_saved : forall A (prefix extension : string) (figs : list (figure A)) files name,
  (forall figs1 f figs2, figs = figs1 ++ f :: figs2 -> name = named prefix extension f -> (forall g, In g figs2 -> named prefix extension g <> name) ->
     save_figures prefix extension figs files name = Some (content f)) /\
  ((forall f, In f figs -> named prefix extension f <> name) -> save_figures prefix extension figs files name = files name).
Proof.
  intros A prefix extension figs files name.
  assert (K : forall (figs : list (figure A)) files, (forall f, In f figs -> named prefix extension f <> name) -> save_figures prefix extension figs files name = files name).
  { clear figs files. induction figs as [|f figs IH]; intros files N; [reflexivity|]. unfold save_figures. cbn [fold_left]. 
    change (@save_figures A prefix extension figs (fun n => if String.eqb n (prefix ++ label_of f ++ extension)%string then Some (content f) else files n) name = files name).
    etransitivity; [apply (IH _ (fun g Hg => N g (or_intror Hg)))|]. cbn beta. destruct (String.eqb_spec name (prefix ++ label_of f ++ extension)%string); [|reflexivity]. exfalso. apply (N f (or_introl eq_refl)). symmetry. assumption. }
  split; [|apply K]. intros figs1 f figs2 -> E N. unfold save_figures. rewrite fold_left_app. cbn [fold_left]. etransitivity; [apply (K figs2 _ N)|]. cbn beta. rewrite E at 1. unfold named. rewrite String.eqb_refl. reflexivity.
Qed.
Print Assumptions C91_saved.
(** With different labels every figure is saved; of figures with one label (panels without label and title are all
    "figure") only the last. *)
Lemma append_inj_l (a b c : string) : (a ++ b = a ++ c)%string -> b = c.
Proof. induction a as [|x a IH]; cbn; [auto|]. intros E. injection E as E. auto. Qed.
Lemma String_length_app (a b : string) : String.length (a ++ b)%string = (String.length a + String.length b)%nat.
Proof. induction a as [|x a IH]; cbn; [reflexivity|]. f_equal. exact IH. Qed.
Lemma append_inj_r (a b c : string) : (a ++ c = b ++ c)%string -> a = b.
Proof.
  revert b. induction a as [|x a IH]; intros [|y b] E; cbn in E.
  - reflexivity.
  - exfalso. apply (f_equal String.length) in E. cbn in E. rewrite String_length_app in E. lia.
  - exfalso. apply (f_equal String.length) in E. cbn in E. rewrite String_length_app in E. lia.
  - injection E as -> E. f_equal. auto.
Qed.
Theorem C91_all_saved : forall A (prefix extension : string) (figs : list (figure A)) files,
  NoDup (map label_of figs) -> forall f, In f figs -> save_figures prefix extension figs files (prefix ++ label_of f ++ extension)%string = Some (content f).
Proof.
  intros A prefix extension figs files N f I. apply in_split in I. destruct I as (l1 & l2 & ->).
  apply (proj1 (C91_saved A prefix extension (l1 ++ f :: l2) files _) l1 f l2); [reflexivity|reflexivity|].
  intros g Hg E. unfold named in E. apply append_inj_l, append_inj_r in E. rewrite map_app in N. cbn [map] in N. apply NoDup_remove_2 in N. apply N, in_or_app. right. rewrite <- E. apply in_map, Hg.
Qed.
Print Assumptions C91_all_saved.
Theorem C91_overwritten_refuted : forall A (prefix extension : string) (f g : figure A) files, label_of f = label_of g -> content f <> content g ->
  ~ exists name, save_figures prefix extension [f; g] files name = Some (content f) /\ files name = None.
Proof.
  intros A prefix extension f g files L N (name & E & F). unfold save_figures in E. cbn [fold_left] in E. rewrite L in E.
  destruct (String.eqb _ _); [injection E as E; congruence|]. congruence.
Qed.
Print Assumptions C91_overwritten_refuted.

(** C91: after any history of stores (from a fresh model) the basis is the latest one, the distance and the corner are
    the latest ones given, and those never given are absent; a dictionary without a basis raises. *)
Fixpoint latest {X} (l : list (option X)) : option X :=
  match l with [] => None | x :: l => match latest l with Some y => Some y | None => x end end.
Fixpoint store_all {B V} (castB : B -> B) (castV : V -> V) (gs : list (geometry B V)) (buffers : geometry B V) : res (geometry B V) :=
  match gs with [] => Ok buffers | g :: gs => rbind (store_detector_geometry castB castV g buffers) (store_all castB castV gs) end.
Theorem C91_geometry : forall B V (castB : B -> B) (castV : V -> V) (gs : list (geometry B V)),
  (Forall (fun g => g_basis g <> None) gs ->
   exists buffers, store_all castB castV gs no_buffers = Ok buffers /\
     g_basis (get_detector_geometry buffers) = option_map castB (latest (map g_basis gs)) /\
     g_distance (get_detector_geometry buffers) = option_map castV (latest (map g_distance gs)) /\
     g_corner (get_detector_geometry buffers) = option_map castB (latest (map g_corner gs))) /\
  (Exists (fun g => g_basis g = None) gs -> store_all castB castV gs no_buffers = Raise KeyError).
Proof.
  intros B V castB castV gs.
  set (o := fun X (a b : option X) => match a with Some _ => a | None => b end).
  assert (K : forall gs b0, (Forall (fun g => g_basis g <> None) gs ->
   exists buffers, store_all castB castV gs b0 = Ok buffers /\
     g_basis buffers = o _ (option_map castB (latest (map g_basis gs))) (g_basis b0) /\
     g_distance buffers = o _ (option_map castV (latest (map g_distance gs))) (g_distance b0) /\
     g_corner buffers = o _ (option_map castB (latest (map g_corner gs))) (g_corner b0)) /\
   (Exists (fun g => g_basis g = None) gs -> store_all castB castV gs b0 = Raise KeyError)).
  { clear gs. induction gs as [|g gs IH]; intros b0.
    - split; [intros _; exists b0; cbn; auto|]. intros E. inversion E.
    - cbn [store_all]. unfold store_detector_geometry at 1 2. split.
      + intros F. inversion F as [|? ? F1 F2]; subst. destruct (g_basis g) as [b|] eqn:G; [|congruence]. cbn [rbind].
        match goal with |- context [store_all castB castV gs ?x] => destruct (proj1 (IH x) F2) as (bf & E & E1 & E2 & E3) end. exists bf.
        split; [exact E|]. cbn [g_basis g_distance g_corner] in *. rewrite E1, E2, E3. cbn [map latest]. rewrite G.
        destruct (latest (map g_basis gs)), (latest (map g_distance gs)), (latest (map g_corner gs)), (g_distance g), (g_corner g); cbn; auto.
      + intros E. destruct (g_basis g) as [b|] eqn:G; [|reflexivity]. cbn [rbind]. inversion E; subst; [congruence|]. apply (proj2 (IH _)). assumption. }
  split.
  - intros F. destruct (proj1 (K gs no_buffers) F) as (bf & E & E1 & E2 & E3). exists bf. split; [exact E|]. unfold get_detector_geometry, o in *. cbn in *.
    rewrite E1, E2, E3. destruct (latest (map g_basis gs)), (latest (map g_distance gs)), (latest (map g_corner gs)); cbn; auto.
  - apply K.
Qed.
Print Assumptions C91_geometry.
(** So what comes back after a second store need not be what was stored: a corner (or distance) it lacks is the old
    one's. *)
Theorem C91_stale_refuted : forall B V (castB : B -> B) (castV : V -> V) (b1 b2 c : B),
  exists buffers, store_all castB castV [{| g_basis := Some b1; g_distance := None; g_corner := Some c |}; {| g_basis := Some b2; g_distance := @None V; g_corner := None |}] no_buffers = Ok buffers /\
    get_detector_geometry buffers = {| g_basis := Some (castB b2); g_distance := None; g_corner := Some (castB c) |}.
Proof. intros. eexists. split; reflexivity. Qed.
Print Assumptions C91_stale_refuted.

Example C91_example :
  let f := {| panel_label := Some "Probe"%string; first_title := None; content := 1 |} in
  let g := {| panel_label := None; first_title := Some "Object"%string; content := 2 |} in
  let h := {| panel_label := Some ""%string; first_title := None; content := 3 |} in
  NoDup (map label_of [f; g; h]) /\ map (fun n => save_figures "run1_" ".pdf" [f; g; h] (fun _ => None) n) ["run1_Probe.pdf"; "run1_Object.pdf"; "run1_figure.pdf"; "run1_.pdf"]%string = [Some 1; Some 2; Some 3; None] /\
  store_all (B := Z) (V := Z) (fun x => x / 10) (fun x => x / 10) [{| g_basis := Some 10; g_distance := Some 23; g_corner := None |}; {| g_basis := Some 21; g_distance := Some 48; g_corner := None |}] no_buffers
    = Ok {| g_basis := Some 2; g_distance := Some 4; g_corner := None |}.
Proof.
  cbv zeta. split; [|split; reflexivity]. cbn. constructor; [cbn; intuition discriminate|]. constructor; [cbn; intuition discriminate|]. constructor; [cbn; tauto|constructor].
Qed.
