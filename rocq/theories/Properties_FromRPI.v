(** Property theorems about the models that RPI.from_dataset and RPI.from_calibration build (C79). *)
From Verif Require Import Base FinSum Fourier Model_Cxi Model_Prop Spec_Prop Proofs_Prop Proofs_AS Model_Image Spec_Image Proofs_Image
  Model_Interact Spec_Interact Proofs_Interact Properties_Interact Model_Meas Spec_Meas Proofs_Meas Properties_Meas Model_Geom Spec_Geom Proofs_Geom Properties_Geom Model_Models
  Model_Forward Spec_Forward Proofs_Forward
  Properties_Forward Proofs_ForwardSym Properties_ForwardSym Properties_ForwardPower Properties_RPI
  Model_Init Spec_Init Properties_Init Model_InitRPI Spec_InitRPI.
From Verif Require Model_Analysis Proofs_Standard Proofs_Loss.
From Coq Require Import FunctionalExtensionality.
From Coquelicot Require Import Complex.
From Flocq Require Import Core.Raux.
Local Open Scope R_scope.

(** ---- the pattern of a model whose weights are the identity ---- *)
Lemma eye_probe (probe : list img) k i j : (k < length probe)%nat ->
  csum (length probe) (fun q => (eye k q * nth q probe (fun _ _ => RtoC 0) i j)%C) = nth k probe (fun _ _ => RtoC 0) i j.
Proof.
  intros H. rewrite (csum_single (length probe) k _ H); [|intros q Hq N; unfold eye; destruct (Nat.eqb_spec k q); [congruence|apply Cmult_0_l]].
  unfold eye. rewrite Nat.eqb_refl. apply Cmult_1_l.
Qed.
Lemma photons_one os (l : list img) i j : photons os l i j = lsum (map (fun x => photons os [x] i j) l).
Proof. rewrite <- (photons_concat os (fun x => [x]) l). f_equal. induction l as [|x l IH]; [reflexivity|]. cbn [map concat app]. now rewrite <- IH. Qed.
Lemma lsum_nth {A} (d : A) (g : A -> R) l : lsum (map (fun k => g (nth k l d)) (seq 0 (length l))) = lsum (map g l).
Proof.
  f_equal. apply nth_ext with (d := g d) (d' := g d); [now rewrite !map_length, seq_length|]. intros n Hn. rewrite map_length, seq_length in Hn.
  rewrite nth_map_seq by exact Hn. now rewrite map_nth.
Qed.
Lemma pattern_eye : forall r (T : nat -> img) i j, (0 < r_o0 r <= r_n0 r)%nat -> (0 < r_o1 r <= r_n1 r)%nat -> (0 < r_os r)%nat ->
  (r_os r * i + r_os r <= r_n0 r)%nat -> (r_os r * j + r_os r <= r_n1 r)%nat -> r_weights r = eye ->
  (forall q a b, (q < length (r_obj r))%nat -> (a < r_o0 r)%nat -> (b < r_o1 r)%nat -> rpi_object r q a b = T q a b) ->
  rpi_pattern r i j = reading (r_saturation r) None (r_background r) i j
    (rpi_photons (r_os r) (r_n0 r) (r_n1 r) (r_o0 r) (r_o1 r) (r_probe r) (length (r_obj r)) T i j + / 10 ^ 7).
Proof.
  intros r T i j H0 H1 OS Hi Hj WE HT. rewrite C68_pattern by assumption. do 2 f_equal.
  rewrite (map_list_prod (fun kq => centred_ft (r_n0 r) (r_n1 r) (rpi_exit r (fst kq) (snd kq)))), photons_concat. unfold rpi_photons.
  rewrite <- (lsum_nth (fun _ _ => RtoC 0) _ (r_probe r)). apply lsum_ext. intros k Hk. apply in_seq in Hk. cbn [fst snd].
  rewrite photons_one, map_map. apply lsum_ext. intros q Hq. apply in_seq in Hq. unfold photons. cbn [map]. do 3 f_equal.
  apply rsum_ext. intros a Ha. apply rsum_ext. intros b Hb. f_equal. unfold centred_ft. f_equal. apply csum_ext. intros u Hu. apply csum_ext. intros v Hv. f_equal.
  unfold rpi_exit, behind. rewrite (trig_ext (r_o0 r) (r_o1 r) (rpi_object r q) (T q)) by (intros x y Hx Hy; apply HT; lia). f_equal.
  unfold rpi_probe. rewrite WE. apply eye_probe. exact (proj2 Hk).
Qed.

(** ---- broadcasting arrays of equal shapes ---- *)
Lemma bcast_refl n : bcast n n = Some n.
Proof. unfold bcast. now rewrite Nat.eqb_refl. Qed.
Lemma spread_refl n i : spread n n i = i.
Proof. unfold spread. now rewrite Nat.eqb_refl. Qed.
Lemma bcast_none n m : n <> m -> n <> 1%nat -> m <> 1%nat -> bcast n m = None.
Proof. intros A B C. unfold bcast. destruct (Nat.eqb_spec n m), (Nat.eqb_spec n 1), (Nat.eqb_spec m 1); congruence. Qed.
Lemma reading_const s q (b : rimg) i j x : reading s q b i j x = reading s q (fun _ _ => b i j) i j x.
Proof. reflexivity. Qed.
Lemma nth_map_img (f : img -> img) l q (d : img) : (q < length l)%nat -> nth q (map f l) d = f (nth q l d).
Proof. intros H. rewrite (nth_indep _ d (f d)) by (now rewrite map_length). apply map_nth. Qed.
Lemma simulate_eye : forall m b (T : nat -> img) h w depth, let r := rm_rpi m in rm_sup0 m = r_o0 r -> rm_sup1 m = r_o1 r ->
  rm_bg m = (depth, h, w) -> (match depth with None => Some b | Some k => bcast b k end) = Some b -> r_n0 r = (r_os r * h)%nat -> r_n1 r = (r_os r * w)%nat ->
  (0 < r_o0 r <= r_n0 r)%nat -> (0 < r_o1 r <= r_n1 r)%nat -> (0 < r_os r)%nat -> r_weights r = eye ->
  (forall q a c, (q < length (r_obj r))%nat -> (a < r_o0 r)%nat -> (c < r_o1 r)%nat -> rpi_object r q a c = T q a c) ->
  shows m b h w (fun i j => reading (r_saturation r) None (r_background r) i j
    (rpi_photons (r_os r) (r_n0 r) (r_n1 r) (r_o0 r) (r_o1 r) (r_probe r) (length (r_obj r)) T i j + / 10 ^ 7)).
Proof.
  intros m b T h w depth r S0 S1 BG BC N0 N1 H0 H1 OS WE HT. unfold shows, rpi_simulate. cbv zeta. fold r.
  assert (D0 : (r_n0 r / r_os r)%nat = h) by (rewrite N0, Nat.mul_comm; apply Nat.div_mul; lia).
  assert (D1 : (r_n1 r / r_os r)%nat = w) by (rewrite N1, Nat.mul_comm; apply Nat.div_mul; lia).
  rewrite S0, S1, !bcast_refl, BG, BC, D0, D1, !bcast_refl.
  eexists. split; [reflexivity|]. cbv beta. intros i j Hi Hj. rewrite !spread_refl.
  set (r' := Build_rpi _ _ _ _ _ _ _ _ _ _ _ _ _). rewrite (pattern_eye r' T).
  - unfold r'. cbn [r_saturation r_background r_os r_n0 r_n1 r_o0 r_o1 r_probe r_obj]. rewrite map_length. reflexivity.
  - exact H0.
  - exact H1.
  - exact OS.
  - change (r_os r * i + r_os r <= r_n0 r)%nat. rewrite N0. nia.
  - change (r_os r * j + r_os r <= r_n1 r)%nat. rewrite N1. nia.
  - exact WE.
  - intros q a c Hq Ha Hc. unfold r' in Hq. cbn [r_obj] in Hq. rewrite map_length in Hq. rewrite <- (HT q a c Hq Ha Hc).
    unfold rpi_object, r'. cbn [r_obj r_support r_exp r_phase_only]. rewrite !spread_refl.
    rewrite nth_map_img by exact Hq. now rewrite !spread_refl.
Qed.

(** ---- the starting object ---- *)
Lemma clog_back (z : C) : Cmod z = 1 -> ((- Ci) * clog z)%C = (RtoC (Model_Analysis.angle z)) /\ cis (Model_Analysis.angle z) = z.
Proof.
  intros H. split.
  - unfold clog. rewrite H, ln_1. apply C_ext; cbn; ring.
  - pose proof (Proofs_Standard.angle_spec z) as Q. rewrite H in Q. now rewrite Cmult_1_r in Q.
Qed.
Lemma unexp_transmits e p (z : C) : Cmod z = 1 -> (e = true \/ p = false) ->
  transmission e p (let z1 := if e then ((- Ci) * clog z)%C else z in if p then RtoC (fst z1) else z1) = z.
Proof.
  intros H EP. destruct (clog_back z H) as [A B]. rewrite transmission_value. cbv zeta. destruct e.
  - rewrite A. destruct p; cbn [fst snd RtoC].
    + exact B.
    + replace (- 0) with 0 by ring. rewrite exp_0. rewrite B. apply Cmult_1_l.
  - destruct EP as [EP|EP]; [discriminate|]. rewrite EP. reflexivity.
Qed.
Lemma cexp_rand x : cexp (RtoC (2 * PI) * Ci * RtoC x)%C = cis (2 * PI * x).
Proof. replace (RtoC (2 * PI) * Ci * RtoC x)%C with ((0, 2 * PI * x) : C) by (apply C_ext; cbn; ring). unfold cexp. cbn [fst snd]. rewrite exp_0. apply Cmult_1_l. Qed.
Definition the_start (name : string) (ch : rpi_chance) (q : nat) : img :=
  if String.eqb name "random" then fun i j => cis (2 * PI * rc_rand ch q i j) else fun _ _ => RtoC 1.
Lemma the_start_spec name ch q T : start_object name ch q T -> T = the_start name ch q.
Proof. intros [[-> ->]|[-> ->]]; reflexivity. Qed.
Lemma start_ok m ch name pat (T : nat -> img) : (forall q, start_object (clean name) ch q (T q)) -> exists m1, init_obj m ch name None None pat = Ok m1 /\
  let m2 := unexponentiate m1 in let r := rm_rpi m in let r2 := rm_rpi m2 in
  rm_bg m2 = rm_bg m /\ rm_sup0 m2 = rm_sup0 m /\ rm_sup1 m2 = rm_sup1 m /\ rm_probe_basis m2 = rm_probe_basis m /\ rm_obj_basis m2 = rm_obj_basis m /\
  r_n0 r2 = r_n0 r /\ r_n1 r2 = r_n1 r /\ r_probe r2 = r_probe r /\ r_weights r2 = r_weights r /\ r_o0 r2 = r_o0 r /\ r_o1 r2 = r_o1 r /\
  r_support r2 = r_support r /\ r_exp r2 = r_exp r /\ r_phase_only r2 = r_phase_only r /\ r_os r2 = r_os r /\ r_background r2 = r_background r /\ r_saturation r2 = r_saturation r /\
  length (r_obj r2) = length (r_obj r) /\
  ((r_exp r = true \/ r_phase_only r = false) -> forall q a b, (q < length (r_obj r))%nat -> rpi_object r2 q a b = (RtoC (r_support r a b) * T q a b)%C).
Proof.
  intros HT. unfold init_obj.
  assert (X : exists m1, (if String.eqb (clean name) "random" then Ok (with_obj m (r_o0 (rm_rpi m)) (r_o1 (rm_rpi m)) (map (fun k => fun i j => cexp (RtoC (2 * PI) * Ci * RtoC (rc_rand ch k i j))%C) (seq 0 (length (r_obj (rm_rpi m))))))
     else if String.eqb (clean name) "uniform" then Ok (with_obj m (r_o0 (rm_rpi m)) (r_o1 (rm_rpi m)) (map (fun _ => fun _ _ => RtoC 1) (seq 0 (length (r_obj (rm_rpi m))))))
     else Raise KeyError) = Ok m1 /\ m1 = with_obj m (r_o0 (rm_rpi m)) (r_o1 (rm_rpi m)) (map T (seq 0 (length (r_obj (rm_rpi m)))))).
  { pose proof (HT 0%nat) as H0. destruct H0 as [[E _]|[E _]]; rewrite E; cbn [String.eqb Ascii.eqb Bool.eqb]; eexists; (split; [reflexivity|]); f_equal; apply map_ext; intros q; destruct (HT q) as [[E' ->]|[E' ->]]; try congruence.
    apply functional_extensionality. intros i. apply functional_extensionality. intros j. apply cexp_rand. }
  destruct X as (m1 & X1 & X2). exists m1. split.
  { destruct (String.eqb (clean name) "random"); [exact X1|]. destruct (String.eqb (clean name) "uniform"); [exact X1|discriminate]. }
  subst m1. cbv zeta. unfold unexponentiate, with_obj. cbn [rm_rpi rm_bg rm_sup0 rm_sup1 rm_probe_basis rm_obj_basis r_n0 r_n1 r_probe r_weights r_o0 r_o1 r_support r_exp r_phase_only r_os r_background r_saturation r_obj].
  repeat (split; [reflexivity|]). split.
  { destruct (r_exp (rm_rpi m)), (r_phase_only (rm_rpi m)); rewrite ?map_length, seq_length; reflexivity. }
  intros EP q a b Hq. unfold rpi_object. cbn [r_obj r_support r_exp r_phase_only]. f_equal.
  assert (M1 : Cmod (T q a b) = 1).
  { destruct (HT q) as [[_ ->]|[_ ->]]; [apply Proofs_Standard.Cmod_cis|apply Cmod_1]. }
  rewrite <- (unexp_transmits (r_exp (rm_rpi m)) (r_phase_only (rm_rpi m)) (T q a b) M1 EP) at 1. rewrite transmission_value. cbv zeta.
  set (d := fun _ _ => RtoC 0 : C).
  destruct (r_exp (rm_rpi m)), (r_phase_only (rm_rpi m)); rewrite ?nth_map_img by (rewrite ?map_length, ?seq_length; exact Hq); rewrite ?nth_map_seq by exact Hq; reflexivity.
Qed.

(** ---- a constant object stays constant ---- *)
Lemma row_sum N k : (k < N)%nat -> csum N (fun n => cis (- (2 * PI) * (IZR (off N k * off N n) / INR N))) = if Nat.eqb k (N / 2) then RtoC (INR N) else RtoC 0.
Proof.
  intros Hk. assert (NP : (0 < N)%nat) by lia.
  rewrite (csum_ext N _ (fun n => w N (off N k * Z.of_nat (N / 2)) * w N (Z.of_nat n * (- off N k)))%C).
  2:{ intros n _. rewrite <- (w_add N NP). unfold w. apply f_equal. replace (off N k * Z.of_nat (N / 2) + Z.of_nat n * - off N k)%Z with (- (off N k * off N n))%Z by (unfold off; ring). rewrite opp_IZR. unfold Rdiv. ring. }
  rewrite <- csum_scal, (orth N NP). assert (HN : (N / 2 < N)%nat) by (apply Nat.div_lt; lia).
  destruct (Nat.eqb_spec k (N / 2)) as [E|E].
  - replace (off N k) with 0%Z by (unfold off; lia). rewrite Z.mod_0_l by lia. cbn [Z.eqb]. rewrite Z.mul_0_l. rewrite (w_0 N). apply Cmult_1_l.
  - destruct (Z.eqb_spec ((- off N k) mod Z.of_nat N) 0) as [D|D]; [|apply Cmult_0_r]. exfalso.
    apply Z.mod_divide in D; [|lia]. destruct D as [q Q]. unfold off in Q. assert (q = 0)%Z by nia. subst. lia.
Qed.
Lemma centred_const n m (c : C) k l : (k < n)%nat -> (l < m)%nat ->
  centred_ft n m (fun _ _ => c) k l = if (Nat.eqb k (n / 2) && Nat.eqb l (m / 2))%bool then (c * RtoC (sqrt (INR (n * m))))%C else RtoC 0.
Proof.
  intros Hk Hl. unfold centred_ft.
  rewrite (csum_ext n _ (fun a => cis (- (2 * PI) * (IZR (off n k * off n a) / INR n)) * (c * csum m (fun b => cis (- (2 * PI) * (IZR (off m l * off m b) / INR m)))))%C).
  2:{ intros a _. rewrite !csum_scal. apply csum_ext. intros b _. rewrite Rmult_plus_distr_l, cis_add. ring. }
  rewrite <- csum_scal_r. rewrite (row_sum n k Hk), (row_sum m l Hl).
  destruct (Nat.eqb k (n / 2)), (Nat.eqb l (m / 2)); cbn [andb]; try ring.
  assert (P : 0 < INR (n * m)) by (apply lt_0_INR; nia). assert (Q : 0 < sqrt (INR (n * m))) by now apply sqrt_lt_R0.
  transitivity (c * (RtoC (/ sqrt (INR (n * m))) * (RtoC (INR n) * RtoC (INR m))))%C; [ring|]. f_equal. rewrite <- !RtoC_mult, <- mult_INR. f_equal.
  rewrite <- (sqrt_sqrt (INR (n * m))) at 2 by lra. field. lra.
Qed.
Lemma trig_const n m (c : C) u v : (0 < n)%nat -> (0 < m)%nat -> trig_interp n m (fun _ _ => c) u v = c.
Proof.
  intros Hn Hm. unfold trig_interp. assert (HN : (n / 2 < n)%nat) by (apply Nat.div_lt; lia). assert (HM : (m / 2 < m)%nat) by (apply Nat.div_lt; lia).
  rewrite (csum_single n (n / 2)%nat _ HN).
  - rewrite (csum_single m (m / 2)%nat _ HM).
    + rewrite centred_const by assumption. rewrite !Nat.eqb_refl. cbn [andb]. unfold off. rewrite !Z.sub_diag.
      replace (2 * PI * (0 * u / INR n + 0 * v / INR m)) with 0 by (unfold Rdiv; ring). rewrite cis_0.
      assert (P : 0 < INR (n * m)) by (apply lt_0_INR; nia). assert (Q : 0 < sqrt (INR (n * m))) by now apply sqrt_lt_R0.
      transitivity (c * (RtoC (/ sqrt (INR (n * m))) * RtoC (sqrt (INR (n * m)))))%C; [ring|]. rewrite <- RtoC_mult, Rinv_l by lra. apply Cmult_1_r.
    + intros l Hl NE. rewrite centred_const by assumption. destruct (Nat.eqb_spec l (m / 2)); [contradiction|]. rewrite andb_false_r. apply Cmult_0_l.
  - intros k Hk NE. apply csum_zero'. intros l Hl. rewrite centred_const by assumption. destruct (Nat.eqb_spec k (n / 2)); [contradiction|]. apply Cmult_0_l.
Qed.

(** ---- the support ---- *)
Lemma rmax_in l : l <> [] -> In (rmax l) l.
Proof.
  destruct l as [|x l]; [easy|]. intros _. unfold rmax. revert x. induction l as [|a l IH]; intros x; cbn; [now left|].
  destruct (IH (Rmax x a)) as [E|I]; [|now right; right]. rewrite <- E. unfold Rmax. destruct (Rle_dec x a); [right; left|left]; reflexivity.
Qed.
Lemma rmax2_ge n m x i j : (i < n)%nat -> (j < m)%nat -> x i j <= rmax2 n m x.
Proof.
  intros Hi Hj. unfold rmax2. eapply Rle_trans; [|apply rmax_ge; apply in_map_iff; exists i; split; [reflexivity|apply in_seq; lia]].
  apply rmax_ge. apply in_map_iff. exists j. split; [reflexivity|apply in_seq; lia].
Qed.
Lemma rmax2_in n m x : (0 < n)%nat -> (0 < m)%nat -> exists i j, (i < n)%nat /\ (j < m)%nat /\ x i j = rmax2 n m x.
Proof.
  intros Hn Hm. unfold rmax2. assert (NE : forall A (f : nat -> A) k, (0 < k)%nat -> map f (seq 0 k) <> []) by (intros A f [|k] H; [lia|discriminate]).
  pose proof (rmax_in _ (NE R (fun i => rmax (map (fun j => x i j) (seq 0 m))) n Hn)) as I. apply in_map_iff in I. destruct I as (i & E & Hi). apply in_seq in Hi.
  pose proof (rmax_in _ (NE R (fun j => x i j) m Hm)) as J. apply in_map_iff in J. destruct J as (j & E' & Hj). apply in_seq in Hj.
  exists i, j. split; [lia|]. split; [lia|]. rewrite <- E. exact E'.
Qed.
Lemma peak_rmax n m (x : img) M : (0 < n)%nat -> (0 < m)%nat -> (peak n m x M <-> M = rmax2 n m (fun i j => Cmod (x i j))).
Proof.
  intros Hn Hm. set (y := fun i j => Cmod (x i j)). destruct (rmax2_in n m y Hn Hm) as (a & b & Ha & Hb & E). split.
  - intros [U (c & d & Hc & Hd & V)]. apply Rle_antisym; [rewrite <- V; exact (rmax2_ge n m y c d Hc Hd)|]. rewrite <- E. now apply U.
  - intros ->. split; [intros c d Hc Hd; exact (rmax2_ge n m y c d Hc Hd)|]. exists a, b. auto.
Qed.
Lemma dilation_spec n m s i j : (i < n)%nat -> (j < m)%nat -> (binary_dilation n m s i j = true <-> exists u v, (u < n)%nat /\ (v < m)%nat /\ adjacent i j u v /\ s u v = true).
Proof.
  intros Hi Hj. unfold binary_dilation, adjacent. rewrite !orb_true_iff, !andb_true_iff, !Nat.ltb_lt. split.
  - intros [[[[H|H]|[K H]]|H]|[K H]].
    + exists i, j. repeat split; auto; lia.
    + destruct i as [|k]; [discriminate|]. exists k, j. repeat split; auto; lia.
    + exists (S i), j. repeat split; auto; lia.
    + destruct j as [|k]; [discriminate|]. exists i, k. repeat split; auto; lia.
    + exists i, (S j). repeat split; auto; lia.
  - intros (u & v & Hu & Hv & A & H). assert (CASES : (u = i /\ v = j) \/ (i = S u /\ v = j) \/ (u = S i /\ v = j) \/ (j = S v /\ u = i) \/ (v = S j /\ u = i)) by lia.
    destruct CASES as [(-> & ->)|[(-> & ->)|[(-> & ->)|[(-> & ->)|(-> & ->)]]]]; auto 10.
Qed.
Definition lr_image (n0 n1 o0 o1 : nat) (probe : list img) : img :=
  inverse_far_field o0 o1 (fun u v => far_field n0 n1 (fun i j => RtoC (sqrt (lsum (map (fun p : img => Cmod (p i j) ^ 2) probe)))) ((n0 - o0) / 2 + u)%nat ((n1 - o1) / 2 + v)%nat).
Lemma total_eq (probe : list img) i j : RtoC (sqrt (lsum (map (fun p : img => Cmod (p i j) ^ 2) probe))) = total_amplitude probe i j.
Proof. unfold total_amplitude. do 2 f_equal. apply lsum_ext. intros p _. now rewrite nrm2_Cmod. Qed.
Lemma centred_ext n m x y k l : same n m x y -> centred_ft n m x k l = centred_ft n m y k l.
Proof. intros H. unfold centred_ft. f_equal. apply csum_ext. intros a Ha. apply csum_ext. intros b Hb. now rewrite (H a b Ha Hb). Qed.
Lemma lr_band n0 n1 o0 o1 probe : (0 < o0 <= n0)%nat -> (0 < o1 <= n1)%nat ->
  band_of n0 n1 o0 o1 ((n0 - o0) / 2) ((n1 - o1) / 2) (total_amplitude probe) (lr_image n0 n1 o0 o1 probe).
Proof.
  intros H0 H1 u v Hu Hv. rewrite <- far_centred by lia. unfold lr_image. rewrite (proj2 (far_inverse o0 o1 _ ltac:(lia) ltac:(lia)) u v Hu Hv).
  assert (A : ((n0 - o0) / 2 + u < n0)%nat) by (pose proof (Nat.div_le_upper_bound (n0 - o0) 2 (n0 - o0) ltac:(lia) ltac:(lia)); lia).
  assert (B : ((n1 - o1) / 2 + v < n1)%nat) by (pose proof (Nat.div_le_upper_bound (n1 - o1) 2 (n1 - o1) ltac:(lia) ltac:(lia)); lia).
  rewrite far_centred by lia. apply centred_ext. intros i j _ _. apply total_eq.
Qed.
Lemma band_unique n0 n1 o0 o1 s0 s1 A x y : (0 < o0)%nat -> (0 < o1)%nat -> band_of n0 n1 o0 o1 s0 s1 A x -> band_of n0 n1 o0 o1 s0 s1 A y -> same o0 o1 x y.
Proof.
  intros H0 H1 X Y i j Hi Hj. rewrite <- (proj1 (far_inverse o0 o1 x H0 H1) i j Hi Hj), <- (proj1 (far_inverse o0 o1 y H0 H1) i j Hi Hj).
  rewrite !inv_far_centred by assumption. f_equal. apply csum_ext. intros k Hk. apply csum_ext. intros l Hl.
  rewrite !far_centred by assumption. now rewrite (X k l Hk Hl), (Y k l Hk Hl).
Qed.
Lemma support_ok n0 n1 o0 o1 probe t : (0 < o0 <= n0)%nat -> (0 < o1 <= n1)%nat -> support_from n0 n1 o0 o1 probe t (obj_support n0 n1 o0 o1 probe t).
Proof.
  intros H0 H1. exists (lr_image n0 n1 o0 o1 probe). split; [now apply lr_band|]. intros i j Hi Hj.
  set (x := lr_image n0 n1 o0 o1 probe). set (s := above (probe_lr n0 n1 o0 o1 probe) (rmax2 o0 o1 (probe_lr n0 n1 o0 o1 probe) * t)).
  assert (E : obj_support n0 n1 o0 o1 probe t i j = if binary_dilation o0 o1 s i j then 1 else 0) by reflexivity.
  assert (D : binary_dilation o0 o1 s i j = true <-> lit_support o0 o1 x t i j).
  { rewrite dilation_spec by assumption. unfold lit_support. split.
    - intros (u & v & Hu & Hv & A & B). exists (rmax2 o0 o1 (probe_lr n0 n1 o0 o1 probe)), u, v. split; [now apply peak_rmax|]. repeat (split; [assumption|]).
      unfold s, above in B. destruct (Rlt_dec _ _) as [L|L] in B; [exact L|discriminate].
    - intros (M & u & v & P & Hu & Hv & A & B). apply peak_rmax in P; try lia. exists u, v. repeat (split; [assumption|]).
      unfold s, above. destruct (Rlt_dec _ _) as [L|L]; [reflexivity|]. exfalso. apply L. rewrite P in B. exact B. }
  rewrite E. destruct (binary_dilation o0 o1 s i j); split; intros H; try reflexivity; exfalso; [apply H, D; reflexivity|apply D in H; discriminate].
Qed.

Lemma lsum_scale {A} (c : R) (g : A -> R) l : lsum (map (fun x => c * g x) l) = c * lsum (map g l).
Proof. unfold lsum. induction l as [|x l IH]; cbn [map fold_right]; [ring|]. rewrite IH. ring. Qed.

(** ---- from_dataset ---- *)
Lemma lr_length_ok n o : (0 < o < n)%nat -> lr_length n o = o.
Proof. intros H. unfold lr_length. pose proof (Nat.div_mod (n - o) 2 ltac:(lia)). pose proof (Nat.mod_upper_bound (n - o) 2 ltac:(lia)). destruct (n - o - (n - o) / 2)%nat eqn:E; lia. Qed.
Lemma lr_length_full n o : (o = 0 \/ o = n)%nat -> lr_length n o = 0%nat.
Proof. intros H. unfold lr_length. pose proof (Nat.div_mod (n - o) 2 ltac:(lia)). pose proof (Nat.mod_upper_bound (n - o) 2 ltac:(lia)). destruct (n - o - (n - o) / 2)%nat eqn:E; lia. Qed.
Definition ds_background (d : data) (n0 n1 : nat) (o : rpi_options) : option (option nat * nat * nat * rimg) :=
  match ro_background o, d_background d with
  | Some b, _ => Some (None, d_h d, d_w d, fun i j => sqrt (b i j))
  | None, Some b => Some (None, d_h d, d_w d, fun i j => sqrt (b i j))
  | None, None => None
  end.
Definition ds_construct (d : data) (n0 n1 : nat) (probe : list img) (o : rpi_options) (o0 o1 : nat) : rpi_model :=
  rpi_construct n0 n1 probe (exit_wave_geometry (d_b0 d) (d_b1 d) (d_h d) (d_w d) (d_wl d) (d_dist d)) o0 o1 (ro_modes o)
    (obj_support n0 n1 o0 o1 probe (ro_threshold o)) (ds_background d n0 n1 o) (ro_saturation o) (ro_os o) (ro_exp o) (ro_phase o).
Lemma from_dataset_value d n0 n1 probe o ch o0 o1 : rpi_fits d n0 n1 o o0 o1 ->
  rpi_from_dataset d n0 n1 probe o ch = rmap unexponentiate (init_obj (ds_construct d n0 n1 probe o o0 o1) ch (ro_init o) None None (Some (d_h d, d_w d))).
Proof.
  intros (NE & _ & _ & _ & _ & _ & SZ & H0 & H1). unfold rpi_from_dataset. destruct (d_patterns d) as [|p ps] eqn:E; [contradiction|].
  assert (S : obj_shape (ro_size o) n0 n1 = (o0, o1)) by (unfold obj_shape; destruct (ro_size o) as [s|]; [exact SZ|now destruct SZ as [-> ->]]).
  rewrite S, !lr_length_ok by assumption. destruct (Nat.eqb_spec o0 0); [lia|]. destruct (Nat.eqb_spec o1 0); [lia|]. reflexivity.
Qed.
Lemma ds_bg d n0 n1 o o0 o1 probe : rpi_fits d n0 n1 o o0 o1 -> (ro_background o <> None \/ d_background d <> None \/ ro_os o = 1%nat) ->
  let m := ds_construct d n0 n1 probe o o0 o1 in rm_bg m = (None, d_h d, d_w d) /\ r_background (rm_rpi m) = rpi_background d o.
Proof.
  intros (_ & _ & _ & _ & N0 & N1 & _) B m. unfold m, ds_construct, rpi_construct, ds_background, rpi_background. cbn [rm_bg rm_rpi r_background].
  destruct (ro_background o) as [b|]; [split; reflexivity|]. destruct (d_background d) as [b|]; [split; reflexivity|].
  destruct B as [B|[B|B]]; try congruence. cbn [fst snd]. rewrite N0, N1, B, !Nat.mul_1_l. split; [reflexivity|].
  apply functional_extensionality. intros i. apply functional_extensionality. intros j. apply Rmult_1_r.
Qed.
(** C79: for every dataset, probe and object size that fit together, one of the two plain initialisations, and a
    background (or no oversampling), RPI.from_dataset builds a model that simulates batches of any size, one
    pattern of the detector's shape per exposure. *)
Theorem C79_simulates : forall d n0 n1 probe o ch o0 o1, rpi_fits d n0 n1 o o0 o1 -> (clean (ro_init o) = "random" \/ clean (ro_init o) = "uniform")%string ->
  (ro_background o <> None \/ d_background d <> None \/ ro_os o = 1%nat) ->
  exists m f, rpi_from_dataset d n0 n1 probe o ch = Ok m /\ forall b, shows m b (d_h d) (d_w d) f.
Proof.
  intros d n0 n1 probe o ch o0 o1 F I B. pose proof F as (NE & H & W & O & N0 & N1 & SZ & H0 & H1).
  rewrite (from_dataset_value d n0 n1 probe o ch o0 o1 F). destruct (ds_bg d n0 n1 o o0 o1 probe F B) as [B1 B2].
  destruct (start_ok (ds_construct d n0 n1 probe o o0 o1) ch (ro_init o) (Some (d_h d, d_w d)) (the_start (clean (ro_init o)) ch)) as (m1 & E & G).
  { intros q. unfold the_start, start_object. destruct I as [-> | ->]; cbn [String.eqb Ascii.eqb Bool.eqb]; auto. }
  rewrite E. cbn [rmap]. cbv zeta in G. set (m2 := unexponentiate m1) in *.
  destruct G as (G1 & G2 & G3 & _ & _ & G4 & G5 & G6 & G7 & G8 & G9 & G10 & _ & _ & G11 & G12 & G13 & G14 & _).
  exists m2. eexists. split; [reflexivity|]. intros b.
  apply (simulate_eye m2 b (rpi_object (rm_rpi m2)) (d_h d) (d_w d) None).
  - rewrite G2, G8. reflexivity.
  - rewrite G3, G9. reflexivity.
  - rewrite G1. exact B1.
  - reflexivity.
  - rewrite G4, G11. exact N0.
  - rewrite G5, G11. exact N1.
  - rewrite G4, G8. cbn. lia.
  - rewrite G5, G9. cbn. lia.
  - rewrite G11. exact O.
  - rewrite G7. reflexivity.
  - reflexivity.
Qed.
Print Assumptions C79_simulates.
Lemma pattern_explicit : forall d n0 n1 probe o ch o0 o1 T, rpi_fits d n0 n1 o o0 o1 -> (forall q, start_object (clean (ro_init o)) ch q (T q)) ->
  (ro_background o <> None \/ d_background d <> None \/ ro_os o = 1%nat) -> (ro_exp o = true \/ ro_phase o = false) ->
  let S := obj_support n0 n1 o0 o1 probe (ro_threshold o) in
  exists m, rpi_from_dataset d n0 n1 probe o ch = Ok m /\ forall b, shows m b (d_h d) (d_w d) (fun i j =>
    reading (ro_saturation o) None (rpi_background d o) i j
      (rpi_photons (ro_os o) n0 n1 o0 o1 probe (ro_modes o) (fun q a c => (RtoC (S a c) * T q a c)%C) i j + / 10 ^ 7)).
Proof.
  intros d n0 n1 probe o ch o0 o1 T F I B EP S. pose proof F as (NE & H & W & O & N0 & N1 & SZ & H0 & H1).
  rewrite (from_dataset_value d n0 n1 probe o ch o0 o1 F). destruct (ds_bg d n0 n1 o o0 o1 probe F B) as [B1 B2].
  destruct (start_ok (ds_construct d n0 n1 probe o o0 o1) ch (ro_init o) (Some (d_h d, d_w d)) T I) as (m1 & E & G).
  rewrite E. cbn [rmap]. cbv zeta in G. set (m2 := unexponentiate m1) in *.
  destruct G as (G1 & G2 & G3 & _ & _ & G4 & G5 & G6 & G7 & G8 & G9 & G10 & _ & _ & G11 & G12 & G13 & G14 & G15).
  exists m2. split; [reflexivity|]. intros b.
  assert (LM : length (r_obj (rm_rpi (ds_construct d n0 n1 probe o o0 o1))) = ro_modes o) by (cbn; now rewrite map_length, seq_length).
  pose proof (simulate_eye m2 b (fun q a c => (RtoC (S a c) * T q a c)%C) (d_h d) (d_w d) None) as Q. cbv zeta in Q.
  rewrite G2, G8, G3, G9, G1, G4, G5, G6, G7, G11, G12, G13, G14, LM, B2 in Q.
  refine (Q eq_refl eq_refl B1 eq_refl N0 N1 _ _ O eq_refl _); [cbn; lia|cbn; lia|].
  intros q a c Hq Ha Hc. rewrite (G15 EP q a c) by (rewrite LM; exact Hq). reflexivity.
Qed.
(** C79: the starting pattern: every probe mode behind every object mode, each a pure phase object (random) or
    fully transparent (uniform) cut to the support that the probe gives, plus 1e-7 and the background, at most the
    saturation; the same whether the object is exponentiated or not. *)
Theorem C79_pattern : forall d n0 n1 probe o ch o0 o1 T, rpi_fits d n0 n1 o o0 o1 -> (forall q, start_object (clean (ro_init o)) ch q (T q)) ->
  (ro_background o <> None \/ d_background d <> None \/ ro_os o = 1%nat) -> (ro_exp o = true \/ ro_phase o = false) ->
  exists m S, rpi_from_dataset d n0 n1 probe o ch = Ok m /\ support_from n0 n1 o0 o1 probe (ro_threshold o) S /\ forall b, shows m b (d_h d) (d_w d) (fun i j =>
    reading (ro_saturation o) None (rpi_background d o) i j
      (rpi_photons (ro_os o) n0 n1 o0 o1 probe (ro_modes o) (fun q a c => (RtoC (S a c) * T q a c)%C) i j + / 10 ^ 7)).
Proof.
  intros d n0 n1 probe o ch o0 o1 T F I B EP. destruct (pattern_explicit d n0 n1 probe o ch o0 o1 T F I B EP) as (m & E & SH).
  exists m. eexists. split; [exact E|]. split; [|exact SH]. destruct F as (_ & _ & _ & _ & _ & _ & _ & H0 & H1). apply support_ok; lia.
Qed.
Print Assumptions C79_pattern.
(** C79: the uniform start behind a support that covers the whole array is the measurement of the bare probe, once
    per object mode. *)
Theorem C79_uniform : forall d n0 n1 probe o ch o0 o1, rpi_fits d n0 n1 o o0 o1 -> clean (ro_init o) = "uniform"%string ->
  (ro_background o <> None \/ d_background d <> None \/ ro_os o = 1%nat) -> (ro_exp o = true \/ ro_phase o = false) ->
  (forall S i j, support_from n0 n1 o0 o1 probe (ro_threshold o) S -> (i < o0)%nat -> (j < o1)%nat -> S i j = 1) ->
  exists m, rpi_from_dataset d n0 n1 probe o ch = Ok m /\ forall b, shows m b (d_h d) (d_w d) (fun i j =>
    reading (ro_saturation o) None (rpi_background d o) i j (INR (ro_modes o) * photons (ro_os o) (map (centred_ft n0 n1) probe) i j + / 10 ^ 7)).
Proof.
  intros d n0 n1 probe o ch o0 o1 F I B EP FULL. destruct (C79_pattern d n0 n1 probe o ch o0 o1 (fun _ _ _ => RtoC 1) F) as (m & S & E & SU & SH); try assumption.
  { intros q. right. split; [exact I|reflexivity]. }
  exists m. split; [exact E|]. intros b. destruct (SH b) as (r & R1 & R2). exists r. split; [exact R1|]. intros i j Hi Hj. rewrite R2 by assumption. do 2 f_equal.
  pose proof F as (_ & _ & _ & _ & _ & _ & _ & H0 & H1). unfold rpi_photons. rewrite (photons_one (ro_os o) (map (centred_ft n0 n1) probe)), map_map.
  transitivity (lsum (map (fun P => INR (ro_modes o) * photons (ro_os o) [centred_ft n0 n1 P] i j) probe)).
  2:{ apply lsum_scale. }
  apply lsum_ext. intros P _. transitivity (lsum (map (fun _ : nat => photons (ro_os o) [centred_ft n0 n1 P] i j) (seq 0 (ro_modes o)))).
  2:{ rewrite Proofs_Loss.lsum_const, seq_length. ring. }
  apply lsum_ext. intros q _. unfold photons. cbn [map]. do 3 f_equal. apply rsum_ext. intros a _. apply rsum_ext. intros c _. f_equal. apply centred_ext. intros u v Hu Hv.
  unfold behind. rewrite (trig_ext o0 o1 _ (fun _ _ => RtoC 1)) by (intros x y Hx Hy; cbv beta; rewrite (FULL S x y SU Hx Hy); apply Cmult_1_l).
  rewrite trig_const by lia. apply Cmult_1_r.
Qed.
Print Assumptions C79_uniform.

(** C79: whether the object is stored as its complex transmission or as the logarithm of it, phase only or not, is
    invisible in the starting pattern. *)
Theorem C79_exponentiate : forall d n0 n1 probe o ch o0 o1 e p e' p', rpi_fits d n0 n1 o o0 o1 -> (clean (ro_init o) = "random" \/ clean (ro_init o) = "uniform")%string ->
  (ro_background o <> None \/ d_background d <> None \/ ro_os o = 1%nat) -> (e = true \/ p = false) -> (e' = true \/ p' = false) ->
  let opt e p := {| ro_size := ro_size o; ro_background := ro_background o; ro_modes := ro_modes o; ro_saturation := ro_saturation o; ro_os := ro_os o;
                    ro_init := ro_init o; ro_exp := e; ro_phase := p; ro_threshold := ro_threshold o |} in
  exists m m' f, rpi_from_dataset d n0 n1 probe (opt e p) ch = Ok m /\ rpi_from_dataset d n0 n1 probe (opt e' p') ch = Ok m' /\
  forall b, shows m b (d_h d) (d_w d) f /\ shows m' b (d_h d) (d_w d) f.
Proof.
  intros d n0 n1 probe o ch o0 o1 e p e' p' F I B EP EP' opt.
  assert (ST : forall q, start_object (clean (ro_init o)) ch q (the_start (clean (ro_init o)) ch q)).
  { intros q. unfold the_start, start_object. destruct I as [-> | ->]; cbn [String.eqb Ascii.eqb Bool.eqb]; auto. }
  destruct (pattern_explicit d n0 n1 probe (opt e p) ch o0 o1 (the_start (clean (ro_init o)) ch) F ST B EP) as (m & E & SH).
  destruct (pattern_explicit d n0 n1 probe (opt e' p') ch o0 o1 (the_start (clean (ro_init o)) ch) F ST B EP') as (m' & E' & SH').
  exists m, m'. eexists. split; [exact E|]. split; [exact E'|]. intros b. split; [exact (SH b)|exact (SH' b)].
Qed.
Print Assumptions C79_exponentiate.

Lemma photons_dark os n0 n1 o0 o1 probe M T i j : (0 < o0)%nat -> (0 < o1)%nat -> (forall q a b, (a < o0)%nat -> (b < o1)%nat -> T q a b = RtoC 0) -> rpi_photons os n0 n1 o0 o1 probe M T i j = 0.
Proof.
  intros H0 H1 Z. unfold rpi_photons. transitivity (lsum (map (fun _ : img => 0) probe)); [|rewrite Proofs_Loss.lsum_const; ring].
  apply lsum_ext. intros P _. transitivity (lsum (map (fun _ : nat => 0) (seq 0 M))); [|rewrite Proofs_Loss.lsum_const; ring].
  apply lsum_ext. intros q _. unfold photons. cbn [map]. unfold lsum. cbn [fold_right].
  assert (D : forall k l, centred_ft n0 n1 (behind n0 n1 o0 o1 P (T q)) k l = RtoC 0).
  { intros k l. unfold centred_ft. rewrite (csum_zero' n0); [apply Cmult_0_r|]. intros x _. apply csum_zero'. intros y _. unfold behind.
    rewrite (trig_ext o0 o1 (T q) (fun _ _ => RtoC 0)) by (intros a b Ha Hb; now apply Z). rewrite trig_const by assumption. rewrite Cmult_0_r. apply Cmult_0_l. }
  rewrite (rsum_ext os _ (fun _ => 0)).
  - rewrite rsum_zero. unfold Rdiv. ring.
  - intros a _. apply rsum_zero'. intros b _. rewrite D. unfold nrm2. cbn. ring.
Qed.
(** C79: phase_only without exponentiate_obj does not give a phase object but the real part of one: where every
    random phase is a quarter turn no light gets through. *)
Theorem C79_phase_only_refuted : forall d n0 n1 probe o ch o0 o1, rpi_fits d n0 n1 o o0 o1 -> clean (ro_init o) = "random"%string ->
  (ro_background o <> None \/ d_background d <> None \/ ro_os o = 1%nat) -> ro_exp o = false -> ro_phase o = true -> (forall q a b, rc_rand ch q a b = 1 / 4) ->
  exists m, rpi_from_dataset d n0 n1 probe o ch = Ok m /\ forall b, shows m b (d_h d) (d_w d) (fun i j => reading (ro_saturation o) None (rpi_background d o) i j (/ 10 ^ 7)).
Proof.
  intros d n0 n1 probe o ch o0 o1 F I B EX PH Q. pose proof F as (NE & H & W & O & N0 & N1 & SZ & H0 & H1).
  rewrite (from_dataset_value d n0 n1 probe o ch o0 o1 F). destruct (ds_bg d n0 n1 o o0 o1 probe F B) as [B1 B2].
  set (m0 := ds_construct d n0 n1 probe o o0 o1) in *. unfold init_obj. rewrite I. cbn [String.eqb Ascii.eqb Bool.eqb rmap].
  eexists. split; [reflexivity|]. intros b. set (m2 := unexponentiate _).
  destruct (simulate_eye m2 b (fun _ _ _ => RtoC 0) (d_h d) (d_w d) None) as (r & R1 & R2); try reflexivity; try assumption; try (cbn; lia).
  - intros q a c Hq Ha Hc. unfold m2, unexponentiate, with_obj in *. cbn [rm_rpi r_exp r_phase_only r_obj r_o0 r_o1] in *. change (r_exp (rm_rpi m0)) with (ro_exp o) in *. change (r_phase_only (rm_rpi m0)) with (ro_phase o) in *.
    rewrite EX, PH in *. unfold rpi_object. cbn [r_obj r_support r_exp r_phase_only]. rewrite !map_length, seq_length in Hq.
    rewrite nth_map_img by (rewrite map_length, seq_length; exact Hq). rewrite nth_map_seq by exact Hq. cbv beta. rewrite cexp_rand, Q. unfold cis. cbn [fst].
    replace (2 * PI * (1 / 4)) with (PI / 2) by field. rewrite cos_PI2. apply Cmult_0_r.
  - exists r. split; [exact R1|]. intros i j Hi Hj. rewrite R2 by assumption. rewrite photons_dark by (try (cbn; lia); reflexivity). rewrite Rplus_0_l.
    change (r_saturation (rm_rpi m2)) with (ro_saturation o). change (r_background (rm_rpi m2)) with (r_background (rm_rpi m0)). now rewrite B2.
Qed.
Print Assumptions C79_phase_only_refuted.

(** C79: at a threshold of 1 or more the support is empty, and the model only ever simulates background. *)
Theorem C79_threshold : forall d n0 n1 probe o ch o0 o1, rpi_fits d n0 n1 o o0 o1 -> (clean (ro_init o) = "random" \/ clean (ro_init o) = "uniform")%string ->
  (ro_background o <> None \/ d_background d <> None \/ ro_os o = 1%nat) -> (ro_exp o = true \/ ro_phase o = false) -> 1 <= ro_threshold o ->
  exists m, rpi_from_dataset d n0 n1 probe o ch = Ok m /\ forall b, shows m b (d_h d) (d_w d) (fun i j => reading (ro_saturation o) None (rpi_background d o) i j (/ 10 ^ 7)).
Proof.
  intros d n0 n1 probe o ch o0 o1 F I B EP TH. destruct (C79_pattern d n0 n1 probe o ch o0 o1 (the_start (clean (ro_init o)) ch) F) as (m & S & E & SU & SH); try assumption.
  { intros q. unfold the_start, start_object. destruct I as [-> | ->]; cbn [String.eqb Ascii.eqb Bool.eqb]; auto. }
  exists m. split; [exact E|]. intros b. destruct (SH b) as (r & R1 & R2). exists r. split; [exact R1|]. intros i j Hi Hj. rewrite R2 by assumption.
  destruct F as (_ & _ & _ & _ & _ & _ & _ & H0 & H1). rewrite photons_dark; [now rewrite Rplus_0_l|lia|lia|].
  intros q a c Ha Hc. destruct SU as (x & _ & SU). destruct (SU a c Ha Hc) as [_ Z]. rewrite Z; [apply Cmult_0_l|].
  intros (M & u & v & [P (pa & pb & _ & _ & PM)] & Hu & Hv & _ & L). specialize (P u v Hu Hv). pose proof (Cmod_ge_0 (x pa pb)). nra.
Qed.
Print Assumptions C79_threshold.

(** C79: below 1 every probe with any light in it gives a support that is not empty (the object array having two
    pixels along each even axis of the probe). *)
Theorem C79_lit : forall n0 n1 o0 o1 probe t S, (0 < o0 <= n0)%nat -> (0 < o1 <= n1)%nat -> (2 <= o0 \/ Nat.Odd n0)%nat -> (2 <= o1 \/ Nat.Odd n1)%nat -> t < 1 ->
  (exists p i j, In p probe /\ (i < n0)%nat /\ (j < n1)%nat /\ p i j <> RtoC 0) -> support_from n0 n1 o0 o1 probe t S ->
  exists i j, (i < o0)%nat /\ (j < o1)%nat /\ S i j = 1.
Proof.
  intros n0 n1 o0 o1 probe t S H0 H1 P0 P1 T (p & i & j & Ip & Hi & Hj & NZ) (x & BD & SU).
  set (M := rmax2 o0 o1 (fun a b => Cmod (x a b))). assert (PM : peak o0 o1 x M) by (apply peak_rmax; [lia|lia|reflexivity]). destruct PM as [PU (a & b & Ha & Hb & PE)].
  exists a, b. split; [exact Ha|]. split; [exact Hb|]. apply (SU a b Ha Hb). exists M, a, b. split; [split; [exact PU|exists a, b; auto]|]. repeat (split; [assumption|]). split; [unfold adjacent; lia|].
  rewrite PE. enough (0 < M) by nra. pose proof (Cmod_ge_0 (x a b)) as G. rewrite PE in G. destruct G as [G|G]; [exact G|]. exfalso.
  assert (XZ : forall c d, (c < o0)%nat -> (d < o1)%nat -> x c d = RtoC 0).
  { intros c d Hc Hd. apply Cmod_eq_0. pose proof (PU c d Hc Hd) as U. pose proof (Cmod_ge_0 (x c d)). lra. }
  assert (CEN : forall n o, (0 < o <= n)%nat -> (2 <= o \/ Nat.Odd n)%nat -> exists u, (u < o)%nat /\ ((n - o) / 2 + u = n / 2)%nat).
  { intros n o Ho Pn. exists (n / 2 - (n - o) / 2)%nat. pose proof (Nat.div_mod n 2 ltac:(lia)). pose proof (Nat.div_mod (n - o) 2 ltac:(lia)).
    pose proof (Nat.mod_upper_bound n 2 ltac:(lia)). pose proof (Nat.mod_upper_bound (n - o) 2 ltac:(lia)).
    assert (OD : (2 <= o \/ n mod 2 = 1)%nat) by (destruct Pn as [Pn|[k K]]; [now left|right; subst n; rewrite Nat.add_comm, Nat.mul_comm, Nat.mod_add; [reflexivity|lia]]).
    clear Pn. lia. }
  destruct (CEN n0 o0 H0 P0) as (u & Hu & U). destruct (CEN n1 o1 H1 P1) as (v & Hv & V).
  pose proof (BD u v Hu Hv) as Q. rewrite U, V in Q. rewrite (centred_ext o0 o1 x (fun _ _ => RtoC 0)) in Q by (intros c d; apply XZ). rewrite centred_const in Q by assumption.
  assert (L : (if (Nat.eqb u (o0 / 2) && Nat.eqb v (o1 / 2))%bool then (RtoC 0 * RtoC (sqrt (INR (o0 * o1))))%C else RtoC 0) = RtoC 0) by (destruct (_ && _)%bool; [apply Cmult_0_l|reflexivity]).
  rewrite L in Q. clear L. rewrite <- far_centred in Q by (try (apply half_lt; lia); lia). pose proof (far_centre n0 n1 (total_amplitude probe) ltac:(lia) ltac:(lia)) as FC. rewrite <- Q in FC.
  assert (TT : total n0 n1 (total_amplitude probe) = RtoC (rsum n0 (fun a => rsum n1 (fun b => sqrt (lsum (map (fun p : img => nrm2 (p a b)) probe)))))).
  { unfold total, total_amplitude. rewrite <- csum_RtoC. apply csum_ext. intros c _. apply csum_RtoC. }
  rewrite TT, <- RtoC_mult in FC. apply RtoC_inj in FC.
  assert (LP : 0 < lsum (map (fun p : img => nrm2 (p i j)) probe)).
  { assert (NN : forall l : list img, 0 <= lsum (map (fun p : img => nrm2 (p i j)) l)).
    { induction l as [|q l IH]; unfold lsum in *; cbn [map fold_right]; [lra|]. pose proof (nrm2_nonneg (q i j)). lra. }
    assert (PP : 0 < nrm2 (p i j)) by (rewrite nrm2_Cmod; apply pow_lt; now apply Cmod_gt_0).
    clear - Ip NN PP. induction probe as [|q l IH]; [contradiction|]. unfold lsum in *. cbn [map fold_right]. destruct Ip as [->|Ip].
    - pose proof (NN l). lra.
    - pose proof (IH Ip). pose proof (nrm2_nonneg (q i j)). lra. }
  assert (0 < rsum n0 (fun a => rsum n1 (fun b => sqrt (lsum (map (fun p : img => nrm2 (p a b)) probe))))).
  { apply rsum_pos_one with i; [intros; apply rsum_nonneg; intros; apply sqrt_pos|exact Hi|]. apply rsum_pos_one with j; [intros; apply sqrt_pos|exact Hj|]. now apply sqrt_lt_R0. }
  assert (0 < / sqrt (INR (n0 * n1))) by (apply Rinv_0_lt_compat, sqrt_lt_R0, lt_0_INR; nia).
  pose proof (Rmult_lt_0_compat _ _ H2 H). lra.
Qed.
Print Assumptions C79_lit.

(** C79: the spectrum of the probe is cut around its zero frequency unless the probe has an even and the object an
    odd number of pixels; ... *)
Theorem C79_band : forall n o, (0 < o <= n)%nat -> (Nat.Odd n \/ Nat.Even o) -> ((n - o) / 2 + o / 2 = n / 2)%nat.
Proof.
  intros n o H P. pose proof (Nat.div_mod n 2 ltac:(lia)). pose proof (Nat.div_mod (n - o) 2 ltac:(lia)). pose proof (Nat.div_mod o 2 ltac:(lia)).
  pose proof (Nat.mod_upper_bound n 2 ltac:(lia)). pose proof (Nat.mod_upper_bound (n - o) 2 ltac:(lia)). pose proof (Nat.mod_upper_bound o 2 ltac:(lia)).
  destruct P as [[k K]|[k K]]; lia.
Qed.
Print Assumptions C79_band.
(** ... otherwise it is cut one pixel too low: a uniform probe of 2 x 2 pixels, whose object has the default size of
    one pixel, gets an empty support, and the model only simulates background. *)
Theorem C79_band_refuted : forall d n0 n1 o ch, rpi_fits d n0 n1 o 1 1 -> n0 = 2%nat -> n1 = 2%nat -> 0 <= ro_threshold o -> (clean (ro_init o) = "random" \/ clean (ro_init o) = "uniform")%string ->
  (ro_background o <> None \/ d_background d <> None \/ ro_os o = 1%nat) -> (ro_exp o = true \/ ro_phase o = false) ->
  exists m, rpi_from_dataset d n0 n1 [fun _ _ => RtoC 1] o ch = Ok m /\ forall b, shows m b (d_h d) (d_w d) (fun i j => reading (ro_saturation o) None (rpi_background d o) i j (/ 10 ^ 7)).
Proof.
  intros d n0 n1 o ch F E0 E1 TH I B EP. destruct (C79_pattern d n0 n1 [fun _ _ => RtoC 1] o ch 1 1 (the_start (clean (ro_init o)) ch) F) as (m & S & E & SU & SH); try assumption.
  { intros q. unfold the_start, start_object. destruct I as [-> | ->]; cbn [String.eqb Ascii.eqb Bool.eqb]; auto. }
  exists m. split; [exact E|]. intros b. destruct (SH b) as (r & R1 & R2). exists r. split; [exact R1|]. intros i j Hi Hj. rewrite R2 by assumption.
  rewrite photons_dark; [now rewrite Rplus_0_l|lia|lia|]. intros q a c Ha Hc. destruct SU as (x & BD & SU). destruct (SU a c Ha Hc) as [_ Z]. rewrite Z; [apply Cmult_0_l|].
  assert (X : x 0%nat 0%nat = RtoC 0).
  { pose proof (BD 0%nat 0%nat ltac:(lia) ltac:(lia)) as Q. rewrite (centred_ext 1 1 x (fun _ _ => x 0%nat 0%nat)) in Q by (intros u v Hu Hv; replace u with 0%nat by lia; now replace v with 0%nat by lia).
    subst n0 n1. rewrite (centred_ext 2 2 _ (fun _ _ => RtoC 1)) in Q.
    2:{ intros u v _ _. unfold total_amplitude, lsum. cbn [map fold_right]. f_equal. rewrite nrm2_RtoC, Rplus_0_r, Rmult_1_l. apply sqrt_1. }
    rewrite !centred_const in Q by (cbn; lia). cbn in Q. rewrite sqrt_1, Cmult_1_r in Q. exact Q. }
  intros (M & u & v & [P (pa & pb & Hpa & Hpb & PM)] & Hu & Hv & _ & L). replace u with 0%nat in L by lia. replace v with 0%nat in L by lia. replace pa with 0%nat in PM by lia. replace pb with 0%nat in PM by lia.
  rewrite X, Cmod_0 in L, PM. rewrite <- PM in L. lra.
Qed.
Print Assumptions C79_band_refuted.

(** C79: with one of the two plain initialisations and an object no larger than the probe, from_dataset succeeds
    exactly if the object is not empty and smaller than the probe along both axes ... *)
Theorem C79_sizes : forall d n0 n1 probe o ch o0 o1, d_patterns d <> [] -> (match ro_size o with Some s => s = (o0, o1) | None => o0 = (n0 / 2)%nat /\ o1 = (n1 / 2)%nat end) ->
  (o0 <= n0)%nat -> (o1 <= n1)%nat -> (clean (ro_init o) = "random" \/ clean (ro_init o) = "uniform")%string ->
  ((exists m, rpi_from_dataset d n0 n1 probe o ch = Ok m) <-> (0 < o0 < n0)%nat /\ (0 < o1 < n1)%nat).
Proof.
  intros d n0 n1 probe o ch o0 o1 NE SZ L0 L1 I.
  assert (S : obj_shape (ro_size o) n0 n1 = (o0, o1)) by (unfold obj_shape; destruct (ro_size o) as [s|]; [exact SZ|now destruct SZ as [-> ->]]).
  assert (LR : forall n k, (k <= n)%nat -> Nat.eqb (lr_length n k) 0 = negb (Nat.ltb 0 k && Nat.ltb k n)).
  { intros n k L. destruct (Nat.ltb_spec 0 k), (Nat.ltb_spec k n); cbn [andb negb].
    - rewrite lr_length_ok by lia. apply Nat.eqb_neq. lia.
    - rewrite lr_length_full by lia. reflexivity.
    - rewrite lr_length_full by lia. reflexivity.
    - rewrite lr_length_full by lia. reflexivity. }
  unfold rpi_from_dataset. destruct (d_patterns d) as [|p ps]; [contradiction|]. rewrite S, !LR by assumption.
  assert (INI : forall m, exists m1, init_obj m ch (ro_init o) None None (Some (d_h d, d_w d)) = Ok m1) by (intros m; unfold init_obj; destruct I as [-> | ->]; cbn [String.eqb Ascii.eqb Bool.eqb]; eauto).
  destruct (Nat.ltb_spec 0 o0), (Nat.ltb_spec o0 n0), (Nat.ltb_spec 0 o1), (Nat.ltb_spec o1 n1); cbn [andb negb orb]; split; try (intros [m D]; discriminate); try (intros; lia).
  intros _. match goal with |- exists m, rmap _ (init_obj ?mm _ _ _ _ _) = _ => destruct (INI mm) as [m1 M1]; rewrite M1 end. cbn [rmap]. eauto.
Qed.
Print Assumptions C79_sizes.
(** ... so that an object with as many pixels as the probe along an axis - nothing to interpolate - is refused. *)
Theorem C79_full_size_refuted : forall d n0 n1 probe o ch o0 o1, d_patterns d <> [] -> ro_size o = Some (o0, o1) -> (o0 <= n0)%nat -> (o1 <= n1)%nat -> (o0 = n0 \/ o1 = n1) ->
  rpi_from_dataset d n0 n1 probe o ch = Raise RuntimeError.
Proof.
  intros d n0 n1 probe o ch o0 o1 NE SZ L0 L1 E. unfold rpi_from_dataset. destruct (d_patterns d) as [|p ps]; [contradiction|]. unfold obj_shape. rewrite SZ.
  destruct E as [-> | ->]; [rewrite (lr_length_full n0 n0) by auto; reflexivity|]. rewrite (lr_length_full n1 n1) by auto. cbn [Nat.eqb]. now rewrite orb_true_r.
Qed.
Print Assumptions C79_full_size_refuted.
(** C79: with oversampling and no background from_dataset builds a model that cannot simulate anything (its default
    background has the shape of the probe, not that of the detector). *)
Theorem C79_background_refuted : forall d n0 n1 probe o ch o0 o1, rpi_fits d n0 n1 o o0 o1 -> (clean (ro_init o) = "random" \/ clean (ro_init o) = "uniform")%string ->
  ro_background o = None -> d_background d = None -> (2 <= ro_os o)%nat -> (2 <= d_h d)%nat ->
  exists m, rpi_from_dataset d n0 n1 probe o ch = Ok m /\ forall b, rpi_simulate m b = Raise RuntimeError.
Proof.
  intros d n0 n1 probe o ch o0 o1 F I B1 B2 OS HH. pose proof F as (NE & H & W & O & N0 & N1 & SZ & H0 & H1).
  rewrite (from_dataset_value d n0 n1 probe o ch o0 o1 F).
  destruct (start_ok (ds_construct d n0 n1 probe o o0 o1) ch (ro_init o) (Some (d_h d, d_w d)) (the_start (clean (ro_init o)) ch)) as (m1 & E & G).
  { intros q. unfold the_start, start_object. destruct I as [-> | ->]; cbn [String.eqb Ascii.eqb Bool.eqb]; auto. }
  rewrite E. cbn [rmap]. cbv zeta in G. set (m2 := unexponentiate m1) in *. exists m2. split; [reflexivity|]. intros b.
  destruct G as (G1 & G2 & G3 & _ & _ & G4 & G5 & G6 & G7 & G8 & G9 & G10 & _ & _ & G11 & _).
  unfold rpi_simulate. cbv zeta. rewrite G1, G2, G3, G4, G5, G8, G9, G11.
  assert (BG : rm_bg (ds_construct d n0 n1 probe o o0 o1) = (None, n0, n1)) by (unfold ds_construct, rpi_construct, ds_background; rewrite B1, B2; reflexivity).
  rewrite BG. change (r_n0 (rm_rpi (ds_construct d n0 n1 probe o o0 o1))) with n0. change (r_os (rm_rpi (ds_construct d n0 n1 probe o o0 o1))) with (ro_os o).
  assert (D0 : (n0 / ro_os o)%nat = d_h d) by (rewrite N0, Nat.mul_comm; apply Nat.div_mul; lia). rewrite D0.
  rewrite (bcast_none (d_h d) n0) by (rewrite ?N0; nia).
  change (rm_sup0 (ds_construct d n0 n1 probe o o0 o1)) with o0. change (rm_sup1 (ds_construct d n0 n1 probe o o0 o1)) with o1.
  change (r_o0 (rm_rpi (ds_construct d n0 n1 probe o o0 o1))) with o0. change (r_o1 (rm_rpi (ds_construct d n0 n1 probe o o0 o1))) with o1. rewrite !bcast_refl. reflexivity.
Qed.
Print Assumptions C79_background_refuted.
(** C79: spectral initialisation never works: for every object at least two pixels shorter than the probe (the
    default size for three pixels or more) it fails. *)
Theorem C79_spectral_refuted : forall d n0 n1 probe o ch o0 o1, rpi_fits d n0 n1 o o0 o1 -> clean (ro_init o) = "spectral"%string -> (o0 + 2 <= n0)%nat ->
  rpi_from_dataset d n0 n1 probe o ch = Raise ValueError.
Proof.
  intros d n0 n1 probe o ch o0 o1 F I L. rewrite (from_dataset_value d n0 n1 probe o ch o0 o1 F). pose proof F as (NE & H & W & O & N0 & N1 & SZ & H0 & H1).
  unfold init_obj. rewrite I. cbn [String.eqb Ascii.eqb Bool.eqb].
  match goal with |- context [if ?c then Ok _ else Raise ValueError] => replace c with false; [reflexivity|] end. symmetry. unfold spectral_fits.
  cbn [ds_construct rpi_construct rm_rpi r_probe r_n0 r_n1 r_o0 r_o1].
  destruct (Nat.eqb_spec (length probe * n0 * n1) (d_h d * d_w d)) as [K|K]; [|reflexivity]. cbn [andb]. apply Nat.eqb_neq. intros Q.
  assert (P : (0 < d_h d * d_w d)%nat) by nia.
  assert (K1 : (length probe = 1)%nat).
  { assert (length probe * (ro_os o * ro_os o) = 1)%nat by (rewrite N0, N1 in K; nia). nia. }
  assert (SL : slice_length (length probe) ((n0 - o0) / 2) o0 = 0%nat).
  { unfold slice_length. rewrite K1. assert (1 <= (n0 - o0) / 2)%nat by (apply Nat.div_le_lower_bound; lia). lia. }
  change (slice_length (length probe) ((n0 - o0) / 2) o0 * slice_length n0 ((n1 - o1) / 2) o1 * n1 = o0 * o1)%nat in Q. rewrite SL in Q. nia.
Qed.
Print Assumptions C79_spectral_refuted.
(** C79: an empty dataset and an unknown name of the initialisation are refused. *)
Theorem C79_refused : forall d n0 n1 probe o ch o0 o1,
  (d_patterns d = [] -> rpi_from_dataset d n0 n1 probe o ch = Raise IndexError) /\
  (rpi_fits d n0 n1 o o0 o1 -> (clean (ro_init o) <> "random" /\ clean (ro_init o) <> "uniform" /\ clean (ro_init o) <> "spectral")%string -> rpi_from_dataset d n0 n1 probe o ch = Raise KeyError).
Proof.
  intros d n0 n1 probe o ch o0 o1. split.
  - intros E. unfold rpi_from_dataset. now rewrite E.
  - intros F (A & B & C). rewrite (from_dataset_value d n0 n1 probe o ch o0 o1 F). unfold init_obj.
    destruct (String.eqb_spec (clean (ro_init o)) "random"); [contradiction|]. destruct (String.eqb_spec (clean (ro_init o)) "uniform"); [contradiction|].
    destruct (String.eqb_spec (clean (ro_init o)) "spectral"); [contradiction|]. reflexivity.
Qed.
Print Assumptions C79_refused.
(** C79: the probe lives on the grid of the exit wave of the detector; the object, at its default size on even
    axes, on one with pixels twice as large. *)
Theorem C79_bases : forall d n0 n1 probe o ch m, rpi_from_dataset d n0 n1 probe o ch = Ok m ->
  let e := exit_wave_geometry (d_b0 d) (d_b1 d) (d_h d) (d_w d) (d_wl d) (d_dist d) in rm_probe_basis m = e /\
  (ro_size o = None -> Nat.Even n0 -> Nat.Even n1 -> rm_obj_basis m = (vscale 2 (fst e), vscale 2 (snd e))).
Proof.
  intros d n0 n1 probe o ch m E e. unfold rpi_from_dataset in E. destruct (d_patterns d) as [|p ps]; [discriminate|].
  destruct (obj_shape (ro_size o) n0 n1) as [o0 o1] eqn:SH. destruct (Nat.eqb_spec (lr_length n0 o0) 0) as [Z0|Z0]; [discriminate|]. destruct (Nat.eqb_spec (lr_length n1 o1) 0) as [Z1|Z1]; [discriminate|].
  cbn [orb] in E. fold (ds_background d n0 n1 o) in E. fold (ds_construct d n0 n1 probe o o0 o1) in E.
  destruct (init_obj _ _ _ _ _ _) as [m1|x] eqn:I in E; [|discriminate]. cbn [rmap] in E. injection E as <-.
  assert (B : rm_probe_basis m1 = e /\ rm_obj_basis m1 = rpi_obj_basis (fst e) (snd e) n0 n1 o0 o1).
  { unfold init_obj in I. repeat match type of I with (if ?c then _ else _) = _ => destruct c end; try discriminate; injection I as <-; split; reflexivity. }
  destruct B as [B0 B1]. split; [exact B0|]. intros SZ [k0 K0] [k1 K1]. change (rm_obj_basis (unexponentiate m1)) with (rm_obj_basis m1). rewrite B1. unfold rpi_obj_basis.
  unfold obj_shape in SH. rewrite SZ in SH. pose proof (f_equal fst SH) as S0. pose proof (f_equal snd SH) as S1. cbn [fst snd] in S0, S1. subst o0 o1.
  assert (H : forall n k, n = (2 * k)%nat -> lr_length n (n / 2) <> 0%nat -> INR n / INR (n / 2) = 2).
  { intros n k -> NZ. rewrite Nat.mul_comm, Nat.div_mul, mult_INR by lia. assert (k <> 0)%nat by (intros ->; apply NZ; reflexivity). change (INR 2) with 2. field. now apply not_0_INR. }
  rewrite (H n1 k1 K1 Z1), (H n0 k0 K0 Z0). reflexivity.
Qed.
Print Assumptions C79_bases.

(** ---- starting again ---- *)
Definition with_init (o : rpi_options) (name : string) : rpi_options :=
  {| ro_size := ro_size o; ro_background := ro_background o; ro_modes := ro_modes o; ro_saturation := ro_saturation o; ro_os := ro_os o;
     ro_init := name; ro_exp := ro_exp o; ro_phase := ro_phase o; ro_threshold := ro_threshold o |}.
Lemma init_obj_with_obj m0 ch name l pat : length l = length (r_obj (rm_rpi m0)) ->
  init_obj (with_obj m0 (r_o0 (rm_rpi m0)) (r_o1 (rm_rpi m0)) l) ch name None None pat = init_obj m0 ch name None None pat.
Proof. intros H. unfold init_obj, with_obj. cbn [rm_rpi r_o0 r_o1 r_obj r_probe r_n0 r_n1]. rewrite H. reflexivity. Qed.
Lemma unexp_plain m : r_exp (rm_rpi m) = false -> r_phase_only (rm_rpi m) = false -> unexponentiate m = m.
Proof. intros A B. unfold unexponentiate. cbv zeta. rewrite A, B. destruct m as [r ? ? ? ? ?]. destruct r. reflexivity. Qed.
(** C79: init_obj starts a model with a plain object again as from_dataset would have with that initialisation;
    nothing of the state in between is left. *)
Theorem C79_restart : forall d n0 n1 probe o ch ch' name o0 o1 m, rpi_fits d n0 n1 o o0 o1 -> ro_exp o = false -> ro_phase o = false ->
  rpi_from_dataset d n0 n1 probe o ch = Ok m -> forall l, length l = ro_modes o ->
  init_obj (with_obj m o0 o1 l) ch' name None None (Some (d_h d, d_w d)) = rpi_from_dataset d n0 n1 probe (with_init o name) ch'.
Proof.
  intros d n0 n1 probe o ch ch' name o0 o1 m F EX PH E l L. rewrite (from_dataset_value d n0 n1 probe o ch o0 o1 F) in E.
  rewrite (from_dataset_value d n0 n1 probe (with_init o name) ch' o0 o1 F). set (m0 := ds_construct d n0 n1 probe o o0 o1) in *.
  change (ds_construct d n0 n1 probe (with_init o name) o0 o1) with m0. change (ro_init (with_init o name)) with name.
  assert (LM : length (r_obj (rm_rpi m0)) = ro_modes o) by (cbn; now rewrite map_length, seq_length).
  assert (W : exists k, m = with_obj m0 o0 o1 k).
  { destruct (init_obj m0 ch (ro_init o) None None (Some (d_h d, d_w d))) as [m1|x] eqn:I; [|discriminate]. cbn [rmap] in E. injection E as <-.
    unfold init_obj in I. repeat match type of I with (if ?c then _ else _) = _ => destruct c end; try discriminate; injection I as <-; rewrite unexp_plain by assumption; eexists; reflexivity. }
  destruct W as [k ->]. transitivity (init_obj (with_obj m0 o0 o1 l) ch' name None None (Some (d_h d, d_w d))); [reflexivity|].
  rewrite (init_obj_with_obj m0 ch' name l) by (now rewrite L, LM).
  destruct (init_obj m0 ch' name None None (Some (d_h d, d_w d))) as [m2|x] eqn:I; [|reflexivity]. cbn [rmap]. f_equal. symmetry. apply unexp_plain;
  unfold init_obj in I; repeat match type of I with (if ?c then _ else _) = _ => destruct c end; try discriminate; injection I as <-; assumption.
Qed.
Print Assumptions C79_restart.
(** C79: but a model that exponentiates its object does not restart with a random phase: the new values are
    exponentiated although they are transmissions already, and the amplitude varies between 1/e and e. *)
Theorem C79_restart_refuted : forall m ch name pat, clean name = "random"%string -> r_exp (rm_rpi m) = true -> r_phase_only (rm_rpi m) = false ->
  exists m', init_obj m ch name None None pat = Ok m' /\ forall q a b, (q < length (r_obj (rm_rpi m)))%nat ->
    Cmod (rpi_object (rm_rpi m') q a b) = Rabs (r_support (rm_rpi m) a b) * exp (- sin (2 * PI * rc_rand ch q a b)).
Proof.
  intros m ch name pat I EX PH. unfold init_obj. rewrite I. cbn [String.eqb Ascii.eqb Bool.eqb]. eexists. split; [reflexivity|]. intros q a b Hq.
  unfold rpi_object, with_obj. cbn [rm_rpi r_obj r_support r_exp r_phase_only]. rewrite EX, PH, nth_map_seq by exact Hq. rewrite cexp_rand.
  rewrite !Cmod_mult, Proofs_Standard.Cmod_cis, !Cmod_R, Rmult_1_r. f_equal. unfold cis. cbn [snd]. apply Rabs_pos_eq. left. apply exp_pos.
Qed.
Print Assumptions C79_restart_refuted.
(** C79: nor can a model be given an object of another size: the support keeps its shape. *)
Theorem C79_resize_refuted : forall m ch name p0 p1 modes pat m', init_obj m ch name (Some (p0, p1)) modes pat = Ok m' -> p0 <> rm_sup0 m -> p0 <> 1%nat -> rm_sup0 m <> 1%nat ->
  forall b, rpi_simulate m' b = Raise RuntimeError.
Proof.
  intros m ch name p0 p1 modes pat m' I A B C b.
  assert (W : r_o0 (rm_rpi m') = p0 /\ rm_sup0 m' = rm_sup0 m).
  { unfold init_obj in I. repeat match type of I with (if ?c then _ else _) = _ => destruct c end; try discriminate; try (injection I as <-; split; reflexivity).
    destruct pat as [[h w]|]; [|discriminate]. destruct (spectral_fits _ _ _ _ _ _ _); [|discriminate]. injection I as <-. split; reflexivity. }
  destruct W as [W0 W1]. unfold rpi_simulate. cbv zeta. rewrite W0, W1, bcast_none by congruence. reflexivity.
Qed.
Print Assumptions C79_resize_refuted.

(** ---- from_calibration ---- *)
Definition cal_construct (c : calibration) (o : cal_options) (o0 o1 : nat) : rpi_model :=
  rpi_construct (cal_n0 c) (cal_n1 c) (cal_probe c) (cal_b0 c, cal_b1 c) o0 o1 (co_modes o) (fun _ _ => 1)
    (Some (match cal_background c with Some b => (None, cal_n0 c, cal_n1 c, fun i j => sqrt (b i j)) | None => (Some (length (cal_probe c)), cal_n0 c, cal_n1 c, fun _ _ => 0) end)) None 1 (co_exp o) (co_phase o).
Lemma from_calibration_value c o ch o0 o1 : obj_shape (co_size o) (cal_n0 c) (cal_n1 c) = (o0, o1) -> (0 < o0)%nat -> (0 < o1)%nat ->
  rpi_from_calibration c o ch = rmap unexponentiate (init_obj (cal_construct c o o0 o1) ch (co_init o) None None None).
Proof. intros S H0 H1. unfold rpi_from_calibration. cbv zeta. rewrite S. destruct (Nat.eqb_spec o0 0); [lia|]. destruct (Nat.eqb_spec o1 0); [lia|]. reflexivity. Qed.
(** C79: from_calibration builds a model that simulates the probe modes of the calibration behind the same starting
    object, over the whole array, plus the background of the calibration - in batches of any size if there is one
    or if the probe has a single mode. *)
Theorem C79_calibration : forall c o ch o0 o1 T b, (match co_size o with Some s => s = (o0, o1) | None => o0 = (cal_n0 c / 2)%nat /\ o1 = (cal_n1 c / 2)%nat end) ->
  (0 < o0 <= cal_n0 c)%nat -> (0 < o1 <= cal_n1 c)%nat -> (forall q, start_object (clean (co_init o)) ch q (T q)) -> (co_exp o = true \/ co_phase o = false) ->
  (cal_background c <> None \/ length (cal_probe c) = 1%nat) ->
  exists m, rpi_from_calibration c o ch = Ok m /\ shows m b (cal_n0 c) (cal_n1 c) (fun i j =>
    rpi_photons 1 (cal_n0 c) (cal_n1 c) o0 o1 (cal_probe c) (co_modes o) T i j + / 10 ^ 7 + match cal_background c with Some g => sqrt (g i j) ^ 2 | None => 0 end).
Proof.
  intros c o ch o0 o1 T b SZ H0 H1 I EP BK.
  assert (S : obj_shape (co_size o) (cal_n0 c) (cal_n1 c) = (o0, o1)) by (unfold obj_shape; destruct (co_size o) as [s|]; [exact SZ|now destruct SZ as [-> ->]]).
  rewrite (from_calibration_value c o ch o0 o1 S) by lia. set (m0 := cal_construct c o o0 o1).
  destruct (start_ok m0 ch (co_init o) None T I) as (m1 & E & G). rewrite E. cbn [rmap]. cbv zeta in G. set (m2 := unexponentiate m1) in *. exists m2. split; [reflexivity|].
  destruct G as (G1 & G2 & G3 & _ & _ & G4 & G5 & G6 & G7 & G8 & G9 & G10 & _ & _ & G11 & G12 & G13 & G14 & G15).
  assert (LM : length (r_obj (rm_rpi m0)) = co_modes o) by (cbn; now rewrite map_length, seq_length).
  pose proof (simulate_eye m2 b T (cal_n0 c) (cal_n1 c) (match cal_background c with Some _ => None | None => Some (length (cal_probe c)) end)) as Q. cbv zeta in Q.
  rewrite G2, G8, G3, G9, G1, G4, G5, G6, G7, G11, G12, G13, G14, LM in Q.
  assert (QB : shows m2 b (cal_n0 c) (cal_n1 c) (fun i j => reading (r_saturation (rm_rpi m0)) None (r_background (rm_rpi m0)) i j
     (rpi_photons (r_os (rm_rpi m0)) (r_n0 (rm_rpi m0)) (r_n1 (rm_rpi m0)) (r_o0 (rm_rpi m0)) (r_o1 (rm_rpi m0)) (r_probe (rm_rpi m0)) (co_modes o) T i j + / 10 ^ 7))).
  { apply Q; clear Q; try reflexivity.
    - unfold m0, cal_construct, rpi_construct. cbn [rm_bg fst]. destruct (cal_background c); reflexivity.
    - destruct (cal_background c); [reflexivity|]. destruct BK as [BK|BK]; [congruence|]. rewrite BK. unfold bcast. destruct (Nat.eqb_spec b 1) as [-> |N]; reflexivity.
    - cbn. lia.
    - cbn. lia.
    - exact H0.
    - exact H1.
    - apply Nat.lt_0_1.
    - intros q a d Hq Ha Hd. rewrite (G15 EP q a d) by (rewrite LM; exact Hq). apply Cmult_1_l. }
  destruct QB as (r & R1 & R2). exists r. split; [exact R1|]. intros i j Hi Hj. rewrite R2 by assumption.
  unfold reading, m0, cal_construct, rpi_construct. cbn [rm_rpi r_saturation r_background r_os r_n0 r_n1 r_o0 r_o1 r_probe].
  destruct (cal_background c); cbn [snd]; ring.
Qed.
Print Assumptions C79_calibration.
