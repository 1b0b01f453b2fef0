(** C85: browsing a stack of images in one figure (plot_image, plot_nanomap_with_images). *)
From Verif Require Import Base Model_Browse Spec_Browse Proofs_Browse.
Local Open Scope Z_scope.

Section C85.
Context {D P : Type}.
Implicit Types (c : picture D P) (f : fig D P) (es : list (event D P)).

(** One figure, stacks of any shape without empty axes, and any history of replots of stacks of that shape (other
    images, other plot functions), of keys and of slider drags: nothing raises; on display is the image of the stack
    plotted last at the index the history leads to, and every slider stands at its axis' index. *)
Theorem C85_browsing : forall (dims : list Z) c es, Forall (fun n => 1 <= n) dims -> extra_dims c = dims -> Forall (plots_only dims) es ->
  let '(f, outcomes) := run (Plot c :: es) new_fig in
  let '(c', idx) := fold_left (fun s e => ideal dims e s) es (c, repeat 0 (List.length dims)) in
  Forall (eq (Ok tt)) outcomes /\ plot_idx f = Some idx /\ is_index dims idx /\ shown f = Some (func c' (pixels c' idx)) /\
  map (fun s => s_axis s) (sliders f) = long_axes dims /\ Forall (fun s => s_pos s = nth (s_axis s) idx 0) (sliders f).
Proof.
  intros dims c es Hp Hd He. cbn [run step]. destruct (first_plot dims c Hp Hd) as (f0 & E0 & G0). rewrite E0.
  pose proof (run_good dims es c (repeat 0 (List.length dims)) f0 Hp He G0) as [G O].
  destruct (run es f0) as [f os]. destruct (fold_left (fun s e => ideal dims e s) es (c, repeat 0 (List.length dims))) as [c' idx]. cbn [fst snd] in *.
  destruct G as [H1 H2 H3 H4 H5 H6 H7 H8]. split; [constructor; [reflexivity|assumption]|]. split; [assumption|]. split; [assumption|]. split; [assumption|].
  rewrite H5. unfold sliders_at. split.
  - rewrite map_map. cbn. rewrite smap_long, map_map. cbn. apply map_id.
  - apply Forall_forall. intros s Hs. apply in_map_iff in Hs. destruct Hs as (a & <- & _). reflexivity.
Qed.
Print Assumptions C85_browsing.

(** Non-vacuous: a 2 x 1 x 3 stack, replotted, with every kind of event. *)
Example C85_browsing_example :
  let c k := {| extra_dims := [2; 1; 3]; pixels := fun i => (k : nat, i); func := fun d => d |} in
  let '(f, outcomes) := run [Plot (c 0%nat); Down; Down; Down; Plot (c 1%nat); Slide 1 7; Down; Up; Slide 0 0; Up] new_fig in
  Forall (eq (Ok tt)) outcomes /\ shown f = Some (1%nat, [0; 0; 1]) /\ map (fun s => (s_axis s, s_pos s)) (sliders f) = [(0%nat, 0); (2%nat, 1)].
Proof. vm_compute. repeat split; repeat constructor. Qed.

(** The keys go through the stack in numpy's row-major order, every image exactly once a cycle. *)
Theorem C85_cycle : forall (dims : list Z) c, Forall (fun n => 1 <= n) dims -> extra_dims c = dims ->
  (forall k, plot_idx (fst (run (Plot c :: repeat Down k) new_fig)) = Some (unravel dims (Z.of_nat k mod total dims))) /\
  (forall k, plot_idx (fst (run (Plot c :: repeat Up k) new_fig)) = Some (unravel dims ((- Z.of_nat k) mod total dims))) /\
  (forall idx, is_index dims idx -> exists! p, 0 <= p < total dims /\ unravel dims p = idx).
Proof.
  intros dims c Hp Hd. pose proof (total_pos dims Hp) as HT.
  assert (Z0 : repeat 0 (List.length dims) = unravel dims 0).
  { symmetry. clear Hd c. induction Hp as [|n d Hn Hd' IH]; cbn [List.length repeat unravel]; [reflexivity|]. pose proof (total_pos d Hd'). rewrite IH by lia. rewrite Z.div_0_l, Z.mod_0_l by lia. reflexivity. }
  assert (GO : forall dr (e : event D P), (dr = 1 /\ e = Down \/ dr = -1 /\ e = Up) -> forall k,
    snd (fold_left (fun s e => ideal dims e s) (repeat e k) (c, repeat 0 (List.length dims))) = unravel dims ((dr * Z.of_nat k) mod total dims)).
  { intros dr e Hdr k. rewrite Z0. assert (Q : forall k c0 p, snd (fold_left (fun s e => ideal dims e s) (repeat e k) (c0, unravel dims (p mod total dims))) = unravel dims ((p + dr * Z.of_nat k) mod total dims)).
    { clear k. induction k as [|k IH]; intros c0 p.
      - cbn [repeat fold_left snd]. rewrite Z.mul_0_r, Z.add_0_r. reflexivity.
      - cbn [repeat fold_left]. assert (E : ideal dims e (c0, unravel dims (p mod total dims)) = (c0, unravel dims ((p + dr) mod total dims))).
        { destruct Hdr as [[-> ->]|[-> ->]]; cbn [ideal fst snd]; f_equal; unfold next_image, prev_image; rewrite ravel_unravel by assumption; rewrite Zmod_mod.
          - rewrite Zplus_mod_idemp_l. reflexivity.
          - rewrite Zminus_mod_idemp_l. reflexivity. }
        rewrite E, IH. f_equal. f_equal. lia. }
    specialize (Q k c 0). rewrite Z.mod_0_l, Z.add_0_l in Q by lia. exact Q. }
  assert (W : forall (e : event D P) k, (e = Down \/ e = Up) -> plot_idx (fst (run (Plot c :: repeat e k) new_fig)) = Some (snd (fold_left (fun s e => ideal dims e s) (repeat e k) (c, repeat 0 (List.length dims))))).
  { intros e k He. cbn [run step]. destruct (first_plot dims c Hp Hd) as (f0 & E0 & G0). rewrite E0.
    assert (Hes : Forall (plots_only dims) (repeat e k)) by (apply Forall_forall; intros x Hx; apply repeat_spec in Hx; subst; destruct He; subst; exact I).
    pose proof (run_good dims (repeat e k) c (repeat 0 (List.length dims)) f0 Hp Hes G0) as [G O].
    destruct (run (repeat e k) f0) as [f os]. cbn [fst] in *. apply G. }
  split; [|split].
  - intros k. rewrite W by auto. rewrite (GO 1) by auto. rewrite Z.mul_1_l. reflexivity.
  - intros k. rewrite W by auto. rewrite (GO (-1)) by auto. replace (-1 * Z.of_nat k) with (- Z.of_nat k) by ring. reflexivity.
  - intros idx Hi. exists (ravel dims idx). split.
    + split; [apply ravel_bound; assumption|apply unravel_ravel; assumption].
    + intros p [Hb E]. rewrite <- E, ravel_unravel by assumption. apply Z.mod_small. assumption.
Qed.
Print Assumptions C85_cycle.

(** Going down and up again, or up and down again, shows the same image. *)
Theorem C85_inverse : forall dims idx, Forall (fun n => 1 <= n) dims -> is_index dims idx ->
  prev_image dims (next_image dims idx) = idx /\ next_image dims (prev_image dims idx) = idx.
Proof.
  intros dims idx Hp Hi. pose proof (total_pos dims Hp). pose proof (ravel_bound dims Hp idx Hi) as B.
  unfold prev_image, next_image. rewrite !ravel_unravel, !Zmod_mod by assumption.
  rewrite Zminus_mod_idemp_l, Zplus_mod_idemp_l.
  replace (ravel dims idx + 1 - 1) with (ravel dims idx) by ring. replace (ravel dims idx - 1 + 1) with (ravel dims idx) by ring.
  rewrite Z.mod_small by assumption. split; apply unravel_ravel; assumption.
Qed.
Print Assumptions C85_inverse.

(** The limits: a figure reused for a stack of another shape.
    A shorter stack, when the index stands beyond its end, is an IndexError. *)
Theorem C85_shorter_stack_refuted : forall c c' (n m : Z), 1 <= m -> m < n -> extra_dims c = [n] -> extra_dims c' = [m] ->
  last (snd (run [Plot c; Up; Plot c'] new_fig)) (Ok tt) = Raise IndexError.
Proof.
  intros c c' n m Hm Hn E E'. assert (Hp : pos_dims [n]) by (constructor; [lia|constructor]).
  cbn [run step]. destruct (first_plot [n] c Hp E) as (f0 & E0 & G0). rewrite E0.
  destruct (key_good [n] c _ f0 (-1) Hp (or_intror eq_refl) G0) as (f1 & E1 & G1). rewrite E1.
  cbn [List.length repeat ravel unravel total fold_right] in G1.
  assert (EX : plot_idx f1 = Some [n - 1]).
  { rewrite (g_idx _ _ _ _ G1). do 2 f_equal. rewrite !Z.mul_1_r, Z.div_1_r, Zmod_mod. symmetry. apply Z.mod_unique with (q := -1); lia. }
  unfold plot_image. rewrite EX, E'. cbn [List.length Nat.eqb]. unfold make_plot, select. rewrite E'. cbn [in_bounds].
  destruct (Z.leb_spec 0 (n - 1)); [|lia]. destruct (Z.ltb_spec (n - 1) m); [lia|]. reflexivity.
Qed.
Print Assumptions C85_shorter_stack_refuted.

(** A stack of a single image replaces a longer one; the keys then bring back the images of the longer one. *)
Theorem C85_stale_keys_refuted : forall c c' n, 2 <= n -> extra_dims c = [n] -> extra_dims c' = [1] ->
  let '(f, outcomes) := run [Plot c; Plot c'; Down] new_fig in
  Forall (eq (Ok tt)) outcomes /\ shown f = Some (func c (pixels c [1])).
Proof.
  intros c c' n Hn E E'. cbn [run step]. assert (S1 : slider_axis_map c = [(0%nat, n)]).
  { unfold slider_axis_map. rewrite E. cbn. destruct (Z.ltb_spec 1 n); [reflexivity|lia]. }
  assert (S2 : slider_axis_map c' = []) by (unfold slider_axis_map; rewrite E'; reflexivity).
  assert (B : forall x, 0 <= x < n -> select c [x] = Ok (pixels c [x])) by (intros; apply select_ok; rewrite E; constructor; [lia|constructor]).
  assert (B' : select c' [0] = Ok (pixels c' [0])) by (apply select_ok; rewrite E'; constructor; [lia|constructor]).
  unfold plot_image at 1, make_plot at 1. cbn [plot_idx new_fig]. rewrite E. cbn [List.length repeat]. rewrite B by lia. cbn [shown new_fig sliders updating keys plot_idx last_make]. rewrite S1. cbn [map fst snd nth].
  unfold plot_image at 1, make_plot at 1. cbn [plot_idx]. rewrite E'. cbn [List.length Nat.eqb]. rewrite B'. cbn [shown sliders updating keys plot_idx last_make]. rewrite S2. cbn [sync sliders].
  unfold on_key. cbn [keys sliders plot_idx]. rewrite S1. cbn [rev app odometer nth_error]. cbn [Z.add]. destruct (Z.ltb_spec 1 0); [lia|]. destruct (Z.leb_spec n 1); [lia|]. cbn [set_nth].
  unfold make_plot. rewrite B by lia. cbn [shown sliders updating keys plot_idx last_make]. rewrite S1. cbn. split; [repeat constructor|reflexivity].
Qed.
Print Assumptions C85_stale_keys_refuted.

(** A stack with a second long axis is an IndexError on a figure with one slider, and the slider is dead from then on:
    it moves, but the image does not change. *)
Theorem C85_more_sliders_refuted : forall c c' n m, 2 <= n -> 2 <= m -> extra_dims c = [1; n] -> extra_dims c' = [m; n] ->
  let '(f, outcomes) := run [Plot c; Plot c'] new_fig in
  outcomes = [Ok tt; Raise IndexError] /\
  forall js, shown (fst (run (map (fun j => Slide (fst j) (snd j)) js) f)) = Some (func c' (pixels c' [0; 0])).
Proof.
  intros c c' n m Hn Hm E E'. cbn [run step]. assert (S1 : slider_axis_map c = [(1%nat, n)]).
  { unfold slider_axis_map. rewrite E. cbn. destruct (Z.ltb_spec 1 n); [reflexivity|lia]. }
  assert (S2 : slider_axis_map c' = [(0%nat, m); (1%nat, n)]).
  { unfold slider_axis_map. rewrite E'. cbn. destruct (Z.ltb_spec 1 m), (Z.ltb_spec 1 n); try lia. reflexivity. }
  assert (B : select c [0; 0] = Ok (pixels c [0; 0])) by (apply select_ok; rewrite E; repeat constructor; lia).
  assert (B' : select c' [0; 0] = Ok (pixels c' [0; 0])) by (apply select_ok; rewrite E'; repeat constructor; lia).
  unfold plot_image at 1, make_plot at 1. cbn [plot_idx new_fig]. rewrite E. cbn [List.length repeat]. rewrite B by lia. cbn [shown new_fig sliders updating keys plot_idx last_make]. rewrite S1. cbn [map fst snd nth].
  unfold plot_image at 1, make_plot at 1. cbn [plot_idx]. rewrite E'. cbn [List.length Nat.eqb]. rewrite B'. cbn [shown sliders updating keys plot_idx last_make]. rewrite S2. cbn [sync sliders nth].
  split; [reflexivity|].
  assert (Q : forall (js : list (nat * Z)) f p, updating f = true -> shown f = Some p -> shown (fst (run (map (fun j => Slide (fst j) (snd j)) js) f)) = Some p).
  { induction js as [|[j v] js IH]; intros f p U S; cbn [map run fst snd step]; [exact S|].
    assert (H : updating (fst (on_slide j v f)) = true /\ shown (fst (on_slide j v f)) = Some p).
    { unfold on_slide. destruct (nth_error (sliders f) j); [|auto]. cbv zeta. destruct (_ =? _); [auto|]. cbn [updating]. rewrite U. cbn. auto. }
    destruct (on_slide j v f) as [f1 o]. cbn [fst] in H. destruct H as [H1 H2]. specialize (IH f1 p H1 H2).
    destruct (run (map (fun j => Slide (fst j) (snd j)) js) f1). exact IH. }
  intros js. apply Q; reflexivity.
Qed.
Print Assumptions C85_more_sliders_refuted.
End C85.

Section C85_nanomap.
Context {D : Type}.

(** plot_nanomap_with_images over n points with a stack of m images each, or with one image each: after any history of
    keys over the map and over the image, clicks and slider drags nothing has raised; the slider, the marked point and
    the image agree, and are those the history leads to. *)
Theorem C85_nanomap_stacks : forall (n m : nat) (imgs : nat -> nat -> D) es, (1 <= n)%nat -> (1 <= m)%nat -> Forall (npossible n) es ->
  let image i := Many (map (imgs i) (seq 0 m)) in
  let '(v, o) := nrun n image es (fst (open image)) in
  let '(p, k) := fold_left (fun s e => nideal n m true e s) es (0, 0) in
  snd (open image) = Ok tt /\ Forall (eq (Ok tt)) o /\ 0 <= p < Z.of_nat n /\ 0 <= k < Z.of_nat m /\
  v = {| val := p; marked := p; image_idx := Some k; display := Some (imgs (Z.to_nat p) (Z.to_nat k)) |}.
Proof.
  intros n m imgs es Hn Hm He image. destruct (open_stack n m imgs Hn Hm) as (v0 & E & G). change image with (stacks m imgs). rewrite E. cbn [fst snd].
  pose proof (nrun_stack n m imgs Hn Hm es 0 0 v0 He G) as [A B]. destruct (nrun n (stacks m imgs) es v0) as [v o].
  destruct (fold_left (fun s e => nideal n m true e s) es (0, 0)) as [p k]. cbn [fst snd] in *. destruct A as (A1 & A2 & A3). auto.
Qed.
Print Assumptions C85_nanomap_stacks.

Theorem C85_nanomap_single : forall (n : nat) (img : nat -> D) es, (1 <= n)%nat -> Forall (npossible n) es ->
  let image i := One (img i) in
  let '(v, o) := nrun n image es (fst (open image)) in
  let '(p, _) := fold_left (fun s e => nideal n 1 false e s) es (0, 0) in
  snd (open image) = Ok tt /\ Forall (eq (Ok tt)) o /\ 0 <= p < Z.of_nat n /\
  v = {| val := p; marked := p; image_idx := None; display := Some (img (Z.to_nat p)) |}.
Proof.
  intros n img es Hn He image. destruct (open_single n 1 (fun i _ => img i) Hn (le_n 1)) as (v0 & E & G). change image with (single (fun i _ => img i)). rewrite E. cbn [fst snd].
  pose proof (nrun_single n 1 (fun i _ => img i) Hn (le_n 1) es 0 v0 He G) as [A B]. destruct (nrun n (single (fun i _ => img i)) es v0) as [v o].
  destruct (fold_left (fun s e => nideal n 1 false e s) es (0, 0)) as [p k]. cbn [fst snd] in *. destruct A as (A1 & A2 & A3). auto.
Qed.
Print Assumptions C85_nanomap_single.

(** The events of the right image's stack and those of the map do not disturb each other: the point and the image in
    the stack each follow their own events. *)
Example C85_nanomap_example : forall (imgs : nat -> nat -> nat),
  let image i := Many (map (imgs i) (seq 0 3)) in
  let '(v, o) := nrun 5 image [Action true (-1); Action false 1; Pick 4; Action false 1; Action false 1; Action true 0; Drag 9; Action true (-1)] (fst (open image)) in
  Forall (eq (Ok tt)) o /\ display v = Some (imgs 4%nat 1%nat) /\ marked v = 4.
Proof. intros imgs. vm_compute. repeat split; repeat constructor. Qed.

(** The limit: stacks of different lengths.  The index is stepped modulo the length of the first stack, so at a point
    with fewer images the display raises and the marked point is no longer the one the slider is at. *)
Theorem C85_nanomap_ragged_refuted : forall (n : nat) (a b c : D), (2 <= n)%nat ->
  let image i := match i with O => Many [a; b] | _ => Many [c] end in
  let '(v, o) := nrun n image [Action true 1; Action false 1] (fst (open image)) in
  o = [Ok tt; Raise IndexError] /\ val v = 1 /\ marked v = 0 /\ display v = Some b.
Proof.
  intros n a b c Hn image. assert (E : (0 + 1) mod Z.of_nat n = 1) by (apply Z.mod_small; lia).
  assert (E0 : fst (open image) = {| val := 0; marked := 0; image_idx := Some 0; display := Some a |}) by reflexivity. rewrite E0.
  cbn [nrun nstep]. assert (E1 : on_action n image true 1 {| val := 0; marked := 0; image_idx := Some 0; display := Some a |} = ({| val := 0; marked := 0; image_idx := Some 1; display := Some b |}, Ok tt)) by reflexivity.
  rewrite E1. assert (E2 : on_action n image false 1 {| val := 0; marked := 0; image_idx := Some 1; display := Some b |} = set_val image ((0 + 1) mod Z.of_nat n) {| val := 0; marked := 0; image_idx := Some 1; display := Some b |}) by reflexivity.
  rewrite E2, E. repeat split; reflexivity.
Qed.
Print Assumptions C85_nanomap_ragged_refuted.
End C85_nanomap.
