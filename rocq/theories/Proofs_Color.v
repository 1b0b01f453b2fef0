From Verif Require Import Base FinSum Fourier Matrix Model_Prop Model_Analysis Model_Color Spec_Color Proofs_Standard.
From Coquelicot Require Import Complex.
From Flocq Require Import Core.Raux.
Local Open Scope R_scope.

(** ---- remainders ---- *)
Lemma floor_spec x : IZR (Zfloor x) <= x < IZR (Zfloor x) + 1.
Proof. split; [apply Zfloor_lb|apply Zfloor_ub]. Qed.
Lemma floor_eq x n : IZR n <= x < IZR n + 1 -> Zfloor x = n.
Proof. intros [A B]. apply Zfloor_imp. rewrite plus_IZR. split; assumption. Qed.
Lemma rmod_range x m : 0 < m -> 0 <= rmod x m < m.
Proof.
  intros M. unfold rmod. pose proof (floor_spec (x / m)) as [A B]. set (n := IZR (Zfloor (x / m))) in *. clearbody n.
  assert (E : x = m * (x / m)) by (field; lra). split; [|].
  - rewrite E at 1. rewrite <- Rmult_minus_distr_l. apply Rmult_le_pos; lra.
  - rewrite E at 1. rewrite <- Rmult_minus_distr_l. assert (m * (x / m - n) < m * 1) by (apply Rmult_lt_compat_l; lra). lra.
Qed.
Lemma rmod_shift x m k : 0 < m -> rmod (x + m * IZR k) m = rmod x m.
Proof.
  intros M. unfold rmod. replace ((x + m * IZR k) / m) with (x / m + IZR k) by (field; lra).
  pose proof (floor_spec (x / m)) as F. rewrite (floor_eq (x / m + IZR k) (Zfloor (x / m) + k)%Z) by (rewrite plus_IZR; lra). rewrite plus_IZR. ring.
Qed.
Lemma rmod_eq x m n : 0 < m -> m * IZR n <= x < m * IZR n + m -> rmod x m = x - m * IZR n.
Proof.
  intros M [A B]. unfold rmod. rewrite (floor_eq (x / m) n); [reflexivity|]. split.
  - apply Rmult_le_reg_r with m; [exact M|]. unfold Rdiv. rewrite Rmult_assoc, Rinv_l, Rmult_1_r by lra. lra.
  - apply Rmult_lt_reg_r with m; [exact M|]. unfold Rdiv. rewrite Rmult_assoc, Rinv_l, Rmult_1_r by lra. lra.
Qed.
Lemma rmod_id x m : 0 <= x < m -> rmod x m = x.
Proof. intros H. rewrite (rmod_eq x m 0) by lra. ring. Qed.

(** ---- phases ---- *)
Lemma cis_eq a b : cis a = cis b -> exists k, a = b + 2 * PI * IZR k.
Proof.
  intros E. assert (C1 : cos (a - b) = 1).
  { rewrite cos_minus. unfold cis in E. inversion E as [[E1 E2]]. rewrite E1, E2. pose proof (sin2_cos2 b) as Q. unfold Rsqr in Q. lra. }
  assert (S0 : sin ((a - b) / 2) = 0).
  { pose proof (cos_2a_sin ((a - b) / 2)) as Q. replace (2 * ((a - b) / 2)) with (a - b) in Q by field. rewrite C1 in Q.
    assert (sin ((a - b) / 2) * sin ((a - b) / 2) = 0) by lra. nra. }
  apply sin_eq_0_0 in S0. destruct S0 as [k K]. exists k. lra.
Qed.
Lemma cis_inj z z' : z <> 0%C -> z' <> 0%C -> (RtoC (/ Cmod z) * z = RtoC (/ Cmod z') * z')%C -> exists k, angle z = angle z' + 2 * PI * IZR k.
Proof.
  intros N N' E. apply cis_eq. pose proof (Cmod_gt_0 z) as G. pose proof (Cmod_gt_0 z') as G'. apply G in N. apply G' in N'.
  assert (A : forall w, 0 < Cmod w -> cis (angle w) = (RtoC (/ Cmod w) * w)%C).
  { intros w P. rewrite <- (angle_spec w) at 3. rewrite Cmult_comm, <- Cmult_assoc, <- RtoC_mult. rewrite Rinv_r by lra. ring. }
  rewrite !A by assumption. exact E.
Qed.
Lemma degrees_shift a b k : a = b + 2 * PI * IZR k -> a * (180 / PI) = b * (180 / PI) + 360 * IZR k.
Proof. intros ->. pose proof PI_RGT_0. field. lra. Qed.

(** Colours depend on the phase up to full turns. *)
Lemma cmocean_turn a ph k : cmocean_color a (ph + 360 * IZR k) = cmocean_color a ph.
Proof. unfold cmocean_color. replace (ph + 360 * IZR k + 100) with (ph + 100 + 360 * IZR k) by ring. rewrite rmod_shift by lra. reflexivity. Qed.
Lemma hsv_turn a ph k : hsv_color a (ph + 360 * IZR k) = hsv_color a ph.
Proof. unfold hsv_color. replace (ph + 360 * IZR k + 170) with (ph + 170 + 360 * IZR k) by ring. rewrite rmod_shift by lra. reflexivity. Qed.
Definition color (b : bool) : R -> R -> rgb := if b then cmocean_color else hsv_color.
Lemma color_turn b a ph k : color b a (ph + 360 * IZR k) = color b a ph.
Proof. destruct b; [apply cmocean_turn|apply hsv_turn]. Qed.

Lemma color_same_direction b a z z' : z <> 0%C -> z' <> 0%C -> (RtoC (/ Cmod z) * z = RtoC (/ Cmod z') * z')%C -> color b a (degrees z) = color b a (degrees z').
Proof. intros N N' E. destruct (cis_inj z z' N N' E) as [k K]. unfold degrees. rewrite (degrees_shift _ _ k K). apply color_turn. Qed.

Lemma angle_0 : angle 0 = 0.
Proof. unfold angle. destruct Req_EM_T as [|N]; [reflexivity|]. elim N. apply Cmod_0. Qed.

(** ---- the largest modulus ---- *)
Lemma fold_max_le l x : In x l -> x <= fold_right Rmax 0 l.
Proof. induction l as [|y l IH]; intros H; [destruct H|]. cbn. destruct H as [->|H]; [apply Rmax_l|eapply Rle_trans; [apply IH, H|apply Rmax_r]]. Qed.
Lemma fold_max_in l : l <> [] -> Forall (fun x => 0 <= x) l -> In (fold_right Rmax 0 l) l.
Proof.
  induction l as [|y l IH]; intros N F; [congruence|]. inversion F; subst. cbn. destruct l as [|x l].
  - left. cbn. rewrite Rmax_left; auto.
  - unfold Rmax. destruct Rle_dec; [right; apply IH; [discriminate|assumption]|left; reflexivity].
Qed.
Lemma max_abs_is_max H W z : (0 < H)%nat -> (0 < W)%nat -> is_max H W z (max_abs H W z).
Proof.
  intros H0 W0. unfold max_abs. set (l := flat_map _ _).
  assert (IN : forall x, In x l <-> exists i j, (i < H)%nat /\ (j < W)%nat /\ x = Cmod (z i j)).
  { intros x. unfold l. rewrite in_flat_map. split.
    - intros (i & Hi & Hx). apply in_map_iff in Hx. destruct Hx as (j & E & Hj). apply in_seq in Hi. apply in_seq in Hj. exists i, j. repeat split; [lia|lia|congruence].
    - intros (i & j & Hi & Hj & ->). exists i. split; [apply in_seq; lia|]. apply in_map_iff. exists j. split; [reflexivity|apply in_seq; lia]. }
  split.
  - intros i j Hi Hj. apply fold_max_le, IN. eauto.
  - assert (Q : In (fold_right Rmax 0 l) l).
    { apply fold_max_in.
      - intros E. assert (In (Cmod (z 0%nat 0%nat)) l) by (apply IN; eauto). rewrite E in *. contradiction.
      - apply Forall_forall. intros x Hx. apply IN in Hx. destruct Hx as (i & j & _ & _ & ->). apply Cmod_ge_0. }
    apply IN in Q. destruct Q as (i & j & Hi & Hj & E). eauto.
Qed.
Lemma is_max_unique H W z M M' : is_max H W z M -> is_max H W z M' -> M = M'.
Proof. intros [A (i & j & Hi & Hj & E)] [A' (i' & j' & Hi' & Hj' & E')]. pose proof (A i' j' Hi' Hj'). pose proof (A' i j Hi Hj). lra. Qed.

Lemma colorize_some b s H W z M : (0 < H)%nat -> (0 < W)%nat -> is_max H W z M -> M <> 0 ->
  colorize b s H W z = Some (fun i j => color b (s (Cmod (z i j) / M)) (degrees (z i j))).
Proof.
  intros H0 W0 IM N. unfold colorize. rewrite (is_max_unique H W z _ M (max_abs_is_max H W z H0 W0) IM). destruct Req_EM_T; [contradiction|].
  destruct b; reflexivity.
Qed.

(** ---- hsv ---- *)
Lemma hsv_sextant h v : 0 <= h < 1 -> exists i f, (0 <= i < 6)%Z /\ 0 <= f < 1 /\ h * 6 = IZR i + f /\
  hsv_to_rgb h (85 / 100) v = let p := 15 / 100 * v in let q := v - 85 / 100 * (v * f) in let t := 15 / 100 * v + 85 / 100 * (v * f) in
    match i with 0%Z => (v, t, p) | 1%Z => (q, v, p) | 2%Z => (p, v, t) | 3%Z => (p, q, v) | 4%Z => (t, p, v) | _ => (v, p, q) end.
Proof.
  intros [A B]. exists (Zfloor (h * 6)), (h * 6 - IZR (Zfloor (h * 6))). pose proof (floor_spec (h * 6)) as F.
  assert (Z0 : (0 <= Zfloor (h * 6))%Z) by (apply Zfloor_lub; cbn; lra).
  assert (Z6 : (Zfloor (h * 6) < 6)%Z). { apply lt_IZR. cbn. lra. }
  split; [lia|]. split; [lra|]. split; [ring|]. unfold hsv_to_rgb. rewrite Z.mod_small by lia.
  set (f := h * 6 - IZR (Zfloor (h * 6))). clearbody f.
  assert (E1 : v * (1 - 85 / 100) = 15 / 100 * v) by lra. assert (E2 : v * (1 - 85 / 100 * f) = v - 85 / 100 * (v * f)) by ring. assert (E3 : v * (1 - 85 / 100 * (1 - f)) = 15 / 100 * v + 85 / 100 * (v * f)) by field.
  rewrite E1, E2, E3. cbn zeta. destruct (Zfloor (h * 6)) as [|p|p]; [reflexivity| |lia]. do 5 (destruct p as [p|p|]; try reflexivity; try lia).
Qed.

Ltac six i H := assert (i = 0%Z \/ i = 1%Z \/ i = 2%Z \/ i = 3%Z \/ i = 4%Z \/ i = 5%Z) as H by lia; destruct H as [-> | [-> | [-> | [-> | [-> | ->]]]]].

Lemma hsv_inj h h' v v' : 0 <= h < 1 -> 0 <= h' < 1 -> 0 <= v -> 0 <= v' -> hsv_to_rgb h (85 / 100) v = hsv_to_rgb h' (85 / 100) v' -> v = v' /\ (v = 0 \/ h = h').
Proof.
  intros Hh Hh' Hv Hv' E. destruct (hsv_sextant h v Hh) as (i & f & Hi & Hf & Ef & EE). destruct (hsv_sextant h' v' Hh') as (i' & f' & Hi' & Hf' & Ef' & EE').
  rewrite EE, EE' in E. clear EE EE'. cbn zeta in E.
  assert (U : 0 <= v * f <= v) by (split; nra). assert (U' : 0 <= v' * f' <= v') by (split; nra).
  assert (UL : 0 < v -> v * f < v) by (intros; nra). assert (UL' : 0 < v' -> v' * f' < v') by (intros; nra).
  assert (Q : v = v' /\ (0 < v -> i = i' /\ v * f = v' * f')).
  { remember (v * f) as u eqn:Eu. remember (v' * f') as u' eqn:Eu'. clear Eu Eu' Hf Hf' Ef Ef'.
    six i X; six i' X'; inversion E as [[A B C]]; clear E; (split; [lra|]); intros P; (assert (P0 : 0 < v) by lra); specialize (UL P0); (assert (P' : 0 < v') by lra); specialize (UL' P'); (split; [first [reflexivity|exfalso; lra]|lra]). }
  destruct Q as [Q1 Q2]. split; [exact Q1|]. destruct (Req_dec v 0) as [|N]; [left; assumption|right].
  destruct Q2 as [Q2 Q3]; [lra|]. subst i' v'. assert (f = f') by (apply Rmult_eq_reg_l with v; [exact Q3|exact N]). subst. lra.
Qed.

Lemma hsv_extremes h v : 0 <= h < 1 -> 0 <= v -> let c := hsv_to_rgb h (85 / 100) v in
  Rmax (red c) (Rmax (green c) (blue c)) = v /\ Rmin (red c) (Rmin (green c) (blue c)) = 15 / 100 * v /\ within (15 / 100 * v) v c.
Proof.
  intros Hh Hv c. unfold c. destruct (hsv_sextant h v Hh) as (i & f & Hi & Hf & Ef & ->). cbn zeta.
  assert (U : 0 <= v * f <= v) by (split; nra). set (u := v * f) in *. clearbody u. unfold within.
  six i X; unfold red, green, blue; cbn [fst snd]; unfold Rmax, Rmin; repeat destruct Rle_dec; repeat split; lra.
Qed.

(** ---- the table ---- *)
Lemma table_range : forallb (fun r => forallb (fun c => (0 <=? channel c r) && (channel c r <=? 100000000))%Z [0; 1; 2]%nat) cm_data = true.
Proof. vm_compute. reflexivity. Qed.
Lemma table_length : List.length cm_data = 256%nat.
Proof. vm_compute. reflexivity. Qed.
Lemma table_closed c : flipped c 0 = flipped c 255.
Proof. unfold flipped. assert (E : nth (255 - 0) cm_data (0, 0, 0)%Z = nth (255 - 255) cm_data (0, 0, 0)%Z) by (vm_compute; reflexivity). rewrite E. reflexivity. Qed.
Lemma table_steps : forallb (fun k => forallb (fun c => (Z.abs (channel c (nth (S k) cm_data (0, 0, 0)) - channel c (nth k cm_data (0, 0, 0))) <=? 1520000))%Z [0; 1; 2]%nat) (seq 0 255) = true.
Proof. vm_compute. reflexivity. Qed.
Lemma channel_small c : exists c', In c' [0; 1; 2]%nat /\ forall r, channel c r = channel c' r.
Proof. destruct c as [|[|c]]; [exists 0%nat|exists 1%nat|exists 2%nat]; cbn; auto. Qed.

Lemma flipped_range c k : (k <= 255)%nat -> 0 <= flipped c k <= 1.
Proof.
  intros Hk. destruct (channel_small c) as (c' & Hc & E). unfold flipped. rewrite E. pose proof table_range as T. rewrite forallb_forall in T.
  assert (I : In (nth (255 - k) cm_data (0, 0, 0)%Z) cm_data) by (apply nth_In; rewrite table_length; lia).
  specialize (T _ I). rewrite forallb_forall in T. specialize (T c' Hc). apply andb_prop in T. destruct T as [T1 T2]. apply Z.leb_le in T1. apply Z.leb_le in T2.
  apply IZR_le in T1. apply IZR_le in T2. lra.
Qed.
Lemma flipped_step c k : (k < 255)%nat -> Rabs (flipped c (S k) - flipped c k) <= 152 / 10000.
Proof.
  intros Hk. destruct (channel_small c) as (c' & Hc & E). unfold flipped. rewrite !E. pose proof table_steps as T. rewrite forallb_forall in T.
  specialize (T (255 - S k)%nat). rewrite in_seq in T. specialize (T ltac:(lia)). rewrite forallb_forall in T. specialize (T c' Hc). apply Z.leb_le in T.
  replace (S (255 - S k)) with (255 - k)%nat in T by lia.
  apply IZR_le in T. rewrite abs_IZR, minus_IZR in T. set (a := IZR (channel c' (nth (255 - k) cm_data (0, 0, 0)%Z))) in *. set (b := IZR (channel c' (nth (255 - S k) cm_data (0, 0, 0)%Z))) in *.
  clearbody a b. revert T. unfold Rabs. repeat destruct Rcase_abs; lra.
Qed.

(** interp on the piece n <= x * 255 / 360 <= n + 1. *)
Lemma interp_piece c n x : (n < 255)%nat -> INR n <= x * 255 / 360 < INR n + 1 -> interp c x = flipped c n + (x * 255 / 360 - INR n) * (flipped c (S n) - flipped c n).
Proof.
  intros Hn Hx. unfold interp. rewrite (floor_eq (x * 255 / 360) (Z.of_nat n)) by (rewrite <- INR_IZR_INZ; exact Hx). rewrite Nat2Z.id. rewrite Nat.min_l by lia.
  rewrite S_INR. field. lra.
Qed.
Lemma interp_last c : interp c 360 = flipped c 255.
Proof.
  unfold interp. rewrite (floor_eq (360 * 255 / 360) 255) by (cbn; lra). change (Nat.min (Z.to_nat 255) 254) with 254%nat.
  rewrite S_INR. replace (INR 254) with 254 by (rewrite INR_IZR_INZ; reflexivity). field.
Qed.
Lemma piece_of x : 0 <= x < 360 -> exists n, (n < 255)%nat /\ INR n <= x * 255 / 360 < INR n + 1.
Proof.
  intros H. exists (Z.to_nat (Zfloor (x * 255 / 360))). pose proof (floor_spec (x * 255 / 360)) as F.
  assert (A : (0 <= Zfloor (x * 255 / 360))%Z) by (apply Zfloor_lub; cbn; lra).
  assert (B : (Zfloor (x * 255 / 360) < 255)%Z) by (apply lt_IZR; cbn; lra).
  split; [lia|]. rewrite INR_IZR_INZ, Z2Nat.id by assumption. exact F.
Qed.
Lemma interp_range c x : 0 <= x < 360 -> 0 <= interp c x <= 1.
Proof.
  intros H. destruct (piece_of x H) as (n & Hn & Hx). rewrite (interp_piece c n x Hn Hx).
  pose proof (flipped_range c n ltac:(lia)). pose proof (flipped_range c (S n) ltac:(lia)). set (w := x * 255 / 360 - INR n). assert (0 <= w < 1) by (unfold w; lra). clearbody w. nra.
Qed.

(** ---- Lipschitz by pieces ---- *)
Lemma lipschitz_pieces (F : R -> R) L : 0 <= L ->
  (forall n x y, IZR n <= x -> x <= y -> y <= IZR n + 1 -> Rabs (F y - F x) <= L * (y - x)) -> forall x y, Rabs (F y - F x) <= L * Rabs (y - x).
Proof.
  intros L0 P. assert (Q : forall k x y, x <= y -> (Zfloor y - Zfloor x)%Z = Z.of_nat k -> Rabs (F y - F x) <= L * (y - x)).
  { induction k as [|k IH]; intros x y Hxy E; pose proof (floor_spec x) as Fx; pose proof (floor_spec y) as Fy.
    - assert (E' : Zfloor y = Zfloor x) by lia. apply (P (Zfloor x)); [lra|assumption|]. rewrite E' in Fy. lra.
    - set (m := IZR (Zfloor x) + 1). assert (Em : m = IZR (Zfloor x + 1)) by (rewrite plus_IZR; reflexivity).
      assert (Hm : m <= y). { rewrite Em. apply Rle_trans with (IZR (Zfloor y)); [apply IZR_le; lia|lra]. }
      assert (A : Rabs (F m - F x) <= L * (m - x)) by (apply (P (Zfloor x)); unfold m in *; lra).
      assert (B : Rabs (F y - F m) <= L * (y - m)). { apply IH; [assumption|]. rewrite Em, Zfloor_IZR. lia. }
      replace (F y - F x) with ((F y - F m) + (F m - F x)) by ring. eapply Rle_trans; [apply Rabs_triang|]. lra. }
  assert (Q' : forall x y, x <= y -> Rabs (F y - F x) <= L * (y - x)).
  { intros x y H. apply (Q (Z.to_nat (Zfloor y - Zfloor x))); [assumption|]. rewrite Z2Nat.id; [reflexivity|]. pose proof (Zfloor_le x y H). lia. }
  intros x y. destruct (Rle_dec x y) as [H|H].
  - rewrite (Rabs_right (y - x)) by lra. apply Q', H.
  - rewrite Rabs_minus_sym, (Rabs_left (y - x)) by lra. replace (- (y - x)) with (x - y) by ring. apply Q'. lra.
Qed.
(** It is enough to know F on each piece as an affine function that also fits at the right end. *)
Lemma affine_pieces (F : R -> R) L : 0 <= L ->
  (forall n : Z, exists a s, Rabs s <= L /\ (forall x, IZR n <= x < IZR n + 1 -> F x = a + s * (x - IZR n)) /\ F (IZR n + 1) = a + s) ->
  forall x y, Rabs (F y - F x) <= L * Rabs (y - x).
Proof.
  intros L0 P. apply lipschitz_pieces; [exact L0|]. intros n x y A B C. destruct (P n) as (a & s & Hs & Hi & He).
  assert (V : forall t, IZR n <= t <= IZR n + 1 -> F t = a + s * (t - IZR n)).
  { intros t [T1 T2]. destruct (Rle_lt_or_eq_dec t (IZR n + 1) T2) as [T|T]; [apply Hi; lra|]. rewrite T, He. ring. }
  rewrite !V by lra. replace (a + s * (y - IZR n) - (a + s * (x - IZR n))) with (s * (y - x)) by ring. rewrite Rabs_mult, (Rabs_right (y - x)) by lra.
  apply Rmult_le_compat_r; lra.
Qed.

Lemma cmocean_lipschitz c x y : Rabs (interp c (rmod y 360) - interp c (rmod x 360)) <= 152 / 10000 * (255 / 360) * Rabs (y - x).
Proof.
  set (F := fun u => interp c (rmod (u * (360 / 255)) 360)).
  assert (G : forall u v, Rabs (F v - F u) <= 152 / 10000 * Rabs (v - u)).
  { apply affine_pieces; [lra|]. intros n.
    set (k := Z.to_nat (n mod 255)). pose proof (Z.mod_pos_bound n 255 ltac:(lia)) as M. assert (Hk : (k < 255)%nat) by (unfold k; lia).
    assert (Nn : IZR n = 255 * IZR (n / 255) + INR k). { unfold k. rewrite INR_IZR_INZ, Z2Nat.id by lia. rewrite <- mult_IZR, <- plus_IZR. f_equal. apply Z.div_mod. lia. }
    exists (flipped c k), (flipped c (S k) - flipped c k). split; [apply flipped_step, Hk|].
    assert (KB : 0 <= INR k <= 254). { split; [apply pos_INR|]. replace 254 with (INR 254) by (rewrite INR_IZR_INZ; reflexivity). apply le_INR. lia. }
    split.
    - intros u Hu. unfold F. rewrite (rmod_eq _ 360 (n / 255)) by lra. rewrite (interp_piece c k).
      + rewrite Nn. field.
      + exact Hk.
      + replace ((u * (360 / 255) - 360 * IZR (n / 255)) * 255 / 360) with (u - 255 * IZR (n / 255)) by field. lra.
    - unfold F. destruct (Nat.eq_dec k 254) as [E|N].
      + rewrite E in *. replace (INR 254) with 254 in * by (rewrite INR_IZR_INZ; reflexivity).
        replace ((IZR n + 1) * (360 / 255)) with (0 + 360 * IZR (n / 255 + 1)) by (rewrite Nn, plus_IZR; field). rewrite rmod_shift, rmod_id by lra.
        rewrite (interp_piece c 0) by (try lia; cbn; lra). rewrite (table_closed c). cbn [INR]. field.
      + assert (KB' : INR k <= 253). { replace 253 with (INR 253) by (rewrite INR_IZR_INZ; reflexivity). apply le_INR. lia. }
        rewrite (rmod_eq _ 360 (n / 255)) by lra. rewrite (interp_piece c (S k)); [| lia |].
        * rewrite S_INR, Nn. field.
        * rewrite S_INR. replace (((IZR n + 1) * (360 / 255) - 360 * IZR (n / 255)) * 255 / 360) with (INR k + 1) by (rewrite Nn; field). lra. }
  pose proof (G (x * (255 / 360)) (y * (255 / 360))) as Q. unfold F in Q. replace (y * (255 / 360) * (360 / 255)) with y in Q by field. replace (x * (255 / 360) * (360 / 255)) with x in Q by field.
  replace (y * (255 / 360) - x * (255 / 360)) with ((255 / 360) * (y - x)) in Q by ring. rewrite Rabs_mult, (Rabs_right (255 / 360)) in Q by lra. lra.
Qed.

Lemma hsv_lipschitz (ch : rgb -> R) v x y : (ch = red \/ ch = green \/ ch = blue) -> 0 <= v ->
  Rabs (ch (hsv_to_rgb (rmod y 360 / 360) (85 / 100) v) - ch (hsv_to_rgb (rmod x 360 / 360) (85 / 100) v)) <= 85 / 100 / 60 * v * Rabs (y - x).
Proof.
  intros Hc Hv. set (F := fun u => ch (hsv_to_rgb (rmod (u * 60) 360 / 360) (85 / 100) v)).
  assert (G : forall a b, Rabs (F b - F a) <= 85 / 100 * v * Rabs (b - a)).
  { apply affine_pieces; [lra|]. intros n. pose proof (Z.mod_pos_bound n 6 ltac:(lia)) as M.
    assert (Nn : IZR n = 6 * IZR (n / 6) + IZR (n mod 6)). { rewrite <- mult_IZR, <- plus_IZR. f_equal. apply Z.div_mod. lia. }
    assert (V : forall (m : Z) u, IZR m <= u < IZR m + 1 -> hsv_to_rgb (rmod (u * 60) 360 / 360) (85 / 100) v =
      let f := u - IZR m in let p := 15 / 100 * v in let q := v - 85 / 100 * (v * f) in let t := 15 / 100 * v + 85 / 100 * (v * f) in
      match (m mod 6)%Z with 0%Z => (v, t, p) | 1%Z => (q, v, p) | 2%Z => (p, v, t) | 3%Z => (p, q, v) | 4%Z => (t, p, v) | _ => (v, p, q) end).
    { intros m u Hu. pose proof (Z.mod_pos_bound m 6 ltac:(lia)) as Mm.
      assert (Nm : IZR m = 6 * IZR (m / 6) + IZR (m mod 6)). { rewrite <- mult_IZR, <- plus_IZR. f_equal. apply Z.div_mod. lia. }
      assert (R6 : 0 <= IZR (m mod 6) <= 5). { split; [apply (IZR_le 0); lia|apply (IZR_le _ 5); lia]. }
      rewrite (rmod_eq _ 360 (m / 6)) by lra.
      assert (Hh : 0 <= (u * 60 - 360 * IZR (m / 6)) / 360 < 1) by lra.
      destruct (hsv_sextant _ v Hh) as (i & f & Hi & Hf & Ef & ->).
      assert (Ei : i = (m mod 6)%Z).
      { assert (X : (u * 60 - 360 * IZR (m / 6)) / 360 * 6 = u - 6 * IZR (m / 6)) by field. rewrite X in Ef.
        assert (A : Zfloor (u - 6 * IZR (m / 6)) = i) by (apply floor_eq; lra). assert (B : Zfloor (u - 6 * IZR (m / 6)) = (m mod 6)%Z) by (apply floor_eq; lra). congruence. }
      assert (EF : f = u - IZR m) by (subst i; lra). rewrite Ei, EF. reflexivity. }
    assert (Hn1 : IZR n + 1 = IZR (n + 1)) by (rewrite plus_IZR; reflexivity).
    assert (E1 : hsv_to_rgb (rmod ((IZR n + 1) * 60) 360 / 360) (85 / 100) v = let p := 15 / 100 * v in
       match (n mod 6)%Z with 0%Z => (v, v, p) | 1%Z => (p, v, p) | 2%Z => (p, v, v) | 3%Z => (p, p, v) | 4%Z => (v, p, v) | _ => (v, p, p) end).
    { rewrite (V (n + 1)%Z) by (rewrite Hn1; lra). rewrite Hn1. cbn zeta. rewrite Rminus_diag_eq by reflexivity. rewrite Rmult_0_r, Rmult_0_r, Rplus_0_r, Rminus_0_r.
      rewrite <- (Zplus_mod_idemp_l n 1 6). set (r := (n mod 6)%Z) in *. clearbody r. six r X; reflexivity. }
    set (r := (n mod 6)%Z) in *.
    assert (D : exists a s, Rabs s <= 85 / 100 * v /\ (forall f, ch (let p := 15 / 100 * v in let q := v - 85 / 100 * (v * f) in let t := 15 / 100 * v + 85 / 100 * (v * f) in
        match r with 0%Z => (v, t, p) | 1%Z => (q, v, p) | 2%Z => (p, v, t) | 3%Z => (p, q, v) | 4%Z => (t, p, v) | _ => (v, p, q) end) = a + s * f) /\
        ch (let p := 15 / 100 * v in match r with 0%Z => (v, v, p) | 1%Z => (p, v, p) | 2%Z => (p, v, v) | 3%Z => (p, p, v) | 4%Z => (v, p, v) | _ => (v, p, p) end) = a + s).
    { assert (RA : Rabs (85 / 100 * v) <= 85 / 100 * v) by (rewrite Rabs_right; lra).
      assert (RB : Rabs (- (85 / 100 * v)) <= 85 / 100 * v) by (rewrite Rabs_Ropp, Rabs_right; lra).
      assert (RC : Rabs 0 <= 85 / 100 * v) by (rewrite Rabs_R0; lra).
      clear - Hc M Hv RA RB RC. clearbody r.
      assert (T : forall g h (gv : R), (forall f, g f = h f) -> (exists a s, Rabs s <= 85 / 100 * v /\ (forall f, h f = a + s * f) /\ gv = a + s) -> exists a s, Rabs s <= 85 / 100 * v /\ (forall f : R, g f = a + s * f) /\ gv = a + s).
      { intros g h gv E (a & s & A & B & C). exists a, s. split; [assumption|]. split; [intros; rewrite E; apply B|assumption]. }
      destruct Hc as [-> | [-> | ->]]; six r X; unfold red, green, blue; cbn [fst snd];
      first [ exists v, 0; split; [exact RC|]; split; [intros; ring|ring]
            | exists (15 / 100 * v), 0; split; [exact RC|]; split; [intros; ring|ring]
            | exists (15 / 100 * v), (85 / 100 * v); split; [exact RA|]; split; [intros; ring|lra]
            | exists v, (- (85 / 100 * v)); split; [exact RB|]; split; [intros; ring|lra] ]. }
    destruct D as (a & s & D1 & D2 & D3). exists a, s. split; [exact D1|]. split.
    - intros u Hu. unfold F. rewrite (V n u Hu). fold r. apply (D2 (u - IZR n)).
    - unfold F. rewrite E1. exact D3. }
  pose proof (G (x / 60) (y / 60)) as Q. unfold F in Q. replace (y / 60 * 60) with y in Q by field. replace (x / 60 * 60) with x in Q by field.
  replace (y / 60 - x / 60) with (/ 60 * (y - x)) in Q by field. rewrite Rabs_mult, (Rabs_right (/ 60)) in Q by lra. lra.
Qed.
