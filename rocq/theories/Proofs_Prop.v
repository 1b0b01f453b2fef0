(** Lemmas about two-dimensional transforms and the propagators. *)
From Verif Require Import Base FinSum Fourier Model_Prop Spec_Prop.
From Coquelicot Require Import Complex.
Local Open Scope C_scope.

(** ---- linear operators on vectors, lifted to images ---- *)
Definition linop (n : nat) (A : (nat -> C) -> nat -> C) : Prop :=
  exists a, forall x k, A x k = csum n (fun j => x j * a k j).
Lemma linop_dft n : linop n (dft n).
Proof. exists (fun k j => w n (- (Z.of_nat k * Z.of_nat j))). reflexivity. Qed.
Lemma linop_idft n : linop n (idft n).
Proof.
  exists (fun k j => RtoC (/ INR n) * w n (Z.of_nat k * Z.of_nat j)). intros x k. unfold idft. rewrite csum_scal.
  apply csum_ext. intros. ring.
Qed.
Lemma linop_ext n A x y k : linop n A -> (forall j, j < n -> x j = y j) -> A x k = A y k.
Proof. intros [a H] E. rewrite !H. apply csum_ext. intros j Hj. now rewrite E. Qed.
Lemma linop_lin n A a b x y k : linop n A -> A (fun j => a * x j + b * y j) k = a * A x k + b * A y k.
Proof. intros [c H]. rewrite !H, !csum_scal, <- csum_add. apply csum_ext. intros. ring. Qed.
Lemma linop_scal n A a x k : linop n A -> A (fun j => a * x j) k = a * A x k.
Proof. intros [c H]. rewrite !H, csum_scal. apply csum_ext. intros. ring. Qed.
Definition op2 (A B : (nat -> C) -> nat -> C) (x : img) : img := fun k l => A (fun n => B (x n) l) k.
Lemma op2_comm N M A B x k l : linop N A -> linop M B ->
  A (fun n => B (x n) l) k = B (fun m => A (fun n => x n m) k) l.
Proof.
  intros [a Ha] [b Hb]. rewrite Ha, Hb.
  rewrite (csum_ext N _ (fun n => csum M (fun m => x n m * b l m * a k n))).
  2:{ intros n Hn. rewrite Hb, csum_scal_r. reflexivity. }
  rewrite csum_swap. apply csum_ext. intros m Hm. rewrite Ha, csum_scal_r. apply csum_ext. intros. ring.
Qed.
Lemma op2_ext N M A B x y k l : linop N A -> linop M B -> same N M x y -> op2 A B x k l = op2 A B y k l.
Proof.
  intros HA HB E. unfold op2. apply (linop_ext N); [exact HA|]. intros n Hn. apply (linop_ext M); [exact HB|]. intros m Hm. now apply E.
Qed.
Lemma op2_inv N M A B A' B' x : linop N A -> linop M B -> linop N A' -> linop M B' ->
  (forall y k, k < N -> A' (A y) k = y k) -> (forall y k, k < M -> B' (B y) k = y k) ->
  same N M (op2 A' B' (op2 A B x)) x.
Proof.
  intros HA HB HA' HB' IA IB i j Hi Hj. unfold op2.
  rewrite (linop_ext N A' _ (A (fun n => x n j)) i HA'); [now apply (IA (fun n => x n j))|].
  intros k Hk. rewrite <- (op2_comm N M A B' (fun n l => B (x n) l) k j HA HB').
  apply (linop_ext N); [exact HA|]. intros n Hn. now apply IB.
Qed.
Lemma op2_lin N M A B a x b y k l : linop N A -> linop M B -> op2 A B (lin a x b y) k l = a * op2 A B x k l + b * op2 A B y k l.
Proof.
  intros HA HB. unfold op2, lin.
  rewrite (linop_ext N A _ (fun n => a * B (x n) l + b * B (y n) l) k HA).
  - now apply (linop_lin N).
  - intros n Hn. now apply (linop_lin M).
Qed.
Lemma op2_scal N M A B a x k l : linop N A -> linop M B -> op2 A B (fun i j => a * x i j) k l = a * op2 A B x k l.
Proof.
  intros HA HB. unfold op2. rewrite (linop_ext N A _ (fun n => a * B (x n) l) k HA).
  - now apply (linop_scal N).
  - intros n Hn. now apply (linop_scal M).
Qed.
Lemma op2_energy N M A B al be x : linop N A -> linop M B ->
  (forall y, rsum N (fun k => nrm2 (A y k)) = al * rsum N (fun k => nrm2 (y k)))%R ->
  (forall y, rsum M (fun k => nrm2 (B y k)) = be * rsum M (fun k => nrm2 (y k)))%R ->
  energy N M (op2 A B x) = (al * be * energy N M x)%R.
Proof.
  intros HA HB EA EB. unfold energy, op2. rewrite rsum_swap.
  rewrite (rsum_ext M _ (fun l => al * rsum N (fun n => nrm2 (B (x n) l)))%R) by (intros l Hl; apply EA).
  rewrite <- rsum_scal, rsum_swap.
  rewrite (rsum_ext N _ (fun n => be * rsum M (fun m => nrm2 (x n m)))%R) by (intros n Hn; apply EB).
  rewrite <- rsum_scal. ring.
Qed.

Lemma idft_energy n (Hn : 0 < n) y : rsum n (fun k => nrm2 (idft n y k)) = (/ INR n * rsum n (fun k => nrm2 (y k)))%R.
Proof.
  rewrite (rsum_ext n (fun k => nrm2 (y k)) (fun k => nrm2 (dft n (idft n y) k))).
  - rewrite (parseval n Hn). rewrite <- Rmult_assoc, Rinv_l by (now apply INRn). ring.
  - intros k Hk. now rewrite dft_idft.
Qed.
Lemma fft2_op2 N M : fft2 N M = op2 (dft N) (dft M).
Proof. reflexivity. Qed.
Lemma ifft2_op2 N M : ifft2 N M = op2 (idft N) (idft M).
Proof. reflexivity. Qed.
Lemma ifft2_fft2 N M x : 0 < N -> 0 < M -> same N M (ifft2 N M (fft2 N M x)) x.
Proof.
  intros HN HM. rewrite fft2_op2, ifft2_op2. apply op2_inv; try apply linop_dft; try apply linop_idft; intros; now apply idft_dft.
Qed.
Lemma fft2_ifft2 N M x : 0 < N -> 0 < M -> same N M (fft2 N M (ifft2 N M x)) x.
Proof.
  intros HN HM. rewrite fft2_op2, ifft2_op2. apply op2_inv; try apply linop_dft; try apply linop_idft; intros; now apply dft_idft.
Qed.
Lemma fft2_energy N M x : 0 < N -> 0 < M -> energy N M (fft2 N M x) = (INR N * INR M * energy N M x)%R.
Proof. intros HN HM. rewrite fft2_op2. apply op2_energy; try apply linop_dft; intros; now apply parseval. Qed.
Lemma ifft2_energy N M x : 0 < N -> 0 < M -> energy N M (ifft2 N M x) = (/ INR N * / INR M * energy N M x)%R.
Proof. intros HN HM. rewrite ifft2_op2. apply op2_energy; try apply linop_idft; intros; now apply idft_energy. Qed.
Lemma fft2_ext N M x y k l : same N M x y -> fft2 N M x k l = fft2 N M y k l.
Proof. intros. rewrite fft2_op2. apply (op2_ext N M); auto; apply linop_dft. Qed.
Lemma ifft2_ext N M x y k l : same N M x y -> ifft2 N M x k l = ifft2 N M y k l.
Proof. intros. rewrite ifft2_op2. apply (op2_ext N M); auto; apply linop_idft. Qed.

(** ---- shifts ---- *)
Local Close Scope C_scope.
Lemma half_up n : (n + 1) / 2 = n - n / 2.
Proof.
  rewrite (Nat.div_mod n 2) at 1 2 by lia. set (q := n / 2). pose proof (Nat.mod_upper_bound n 2 ltac:(lia)).
  destruct (n mod 2) as [|[|]] eqn:E; [| |lia].
  - replace (2 * q + 0 + 1) with (1 + q * 2) by lia. rewrite Nat.div_add by lia. cbn [Nat.div Nat.divmod fst]. lia.
  - replace (2 * q + 1 + 1) with (0 + (S q) * 2) by lia. rewrite Nat.div_add by lia. cbn [Nat.div Nat.divmod fst]. lia.
Qed.
Lemma half_lt n : 0 < n -> n / 2 < n.
Proof. intros. apply Nat.div_lt; lia. Qed.
Lemma roll_fft n i : 0 < n -> roll n (n / 2) i = (i + (n - n / 2)) mod n.
Proof. intros H. unfold roll. now rewrite (Nat.mod_small (n / 2)) by now apply half_lt. Qed.
Lemma roll_ifft n i : 0 < n -> roll n ((n + 1) / 2) i = (i + n / 2) mod n.
Proof.
  intros H. unfold roll. rewrite half_up.
  destruct (Nat.eq_dec (n / 2) 0) as [E|E].
  - rewrite E, Nat.sub_0_r, Nat.mod_same, Nat.sub_0_r by lia.
    replace (i + n) with (i + 1 * n) by lia. rewrite Nat.mod_add by lia. now rewrite Nat.add_0_r.
  - pose proof (half_lt n H). rewrite (Nat.mod_small (n - n / 2)) by lia. f_equal. lia.
Qed.
Lemma roll_bound n s i : 0 < n -> roll n s i < n.
Proof. intros. apply Nat.mod_upper_bound. lia. Qed.
Lemma roll_inv1 n i : i < n -> roll n ((n + 1) / 2) (roll n (n / 2) i) = i.
Proof.
  intros H. rewrite roll_ifft, roll_fft by lia. rewrite Nat.add_mod_idemp_l by lia.
  pose proof (half_lt n ltac:(lia)). replace (i + (n - n / 2) + n / 2) with (i + 1 * n) by lia.
  rewrite Nat.mod_add by lia. now apply Nat.mod_small.
Qed.
Lemma roll_inv2 n i : i < n -> roll n (n / 2) (roll n ((n + 1) / 2) i) = i.
Proof.
  intros H. rewrite roll_ifft, roll_fft by lia. rewrite Nat.add_mod_idemp_l by lia.
  pose proof (half_lt n ltac:(lia)). replace (i + n / 2 + (n - n / 2)) with (i + 1 * n) by lia.
  rewrite Nat.mod_add by lia. now apply Nat.mod_small.
Qed.
Lemma rsum_roll n s f : 0 < n -> rsum n (fun i => f (roll n s i)) = rsum n f.
Proof. intros. unfold roll. apply (rsum_cyclic n (n - s mod n)). Qed.
Lemma csum_roll n s f : 0 < n -> csum n (fun i => f (roll n s i)) = csum n f.
Proof. intros. unfold roll. apply (csum_cyclic n (n - s mod n)). Qed.
Lemma fftshift_energy N M x : 0 < N -> 0 < M -> energy N M (fftshift2 N M x) = energy N M x.
Proof.
  intros HN HM. unfold energy, fftshift2. rewrite (rsum_roll N (N / 2) (fun i => rsum M (fun j => nrm2 (x i (roll M (M / 2) j))))) by lia.
  apply rsum_ext. intros i Hi. now rewrite (rsum_roll M (M / 2) (fun j => nrm2 (x i j))) by lia.
Qed.
Lemma ifftshift_energy N M x : 0 < N -> 0 < M -> energy N M (ifftshift2 N M x) = energy N M x.
Proof.
  intros HN HM. unfold energy, ifftshift2.
  rewrite (rsum_roll N ((N + 1) / 2) (fun i => rsum M (fun j => nrm2 (x i (roll M ((M + 1) / 2) j))))) by lia.
  apply rsum_ext. intros i Hi. now rewrite (rsum_roll M ((M + 1) / 2) (fun j => nrm2 (x i j))) by lia.
Qed.
Lemma ifftshift_fftshift N M x : same N M (ifftshift2 N M (fftshift2 N M x)) x.
Proof. intros i j Hi Hj. unfold ifftshift2, fftshift2. now rewrite !roll_inv2. Qed.
Lemma fftshift_ifftshift N M x : same N M (fftshift2 N M (ifftshift2 N M x)) x.
Proof. intros i j Hi Hj. unfold ifftshift2, fftshift2. now rewrite !roll_inv1. Qed.

Lemma sqrtNM N M : 0 < N -> 0 < M -> (0 < sqrt (INR (N * M)))%R.
Proof. intros. apply sqrt_lt_R0. apply lt_0_INR. nia. Qed.
Lemma energy_scal N M a x : energy N M (fun i j => a * x i j)%C = (nrm2 a * energy N M x)%R.
Proof.
  unfold energy. rewrite rsum_scal. apply rsum_ext. intros. rewrite rsum_scal. apply rsum_ext. intros. apply nrm2_mult.
Qed.
Lemma energy_ext N M x y : same N M x y -> energy N M x = energy N M y.
Proof. intros H. unfold energy. apply rsum_ext. intros. apply rsum_ext. intros. now rewrite H. Qed.

(** ---- far field ---- *)
Local Open Scope C_scope.
Lemma far_inverse N M x : 0 < N -> 0 < M ->
  same N M (inverse_far_field N M (far_field N M x)) x /\ same N M (far_field N M (inverse_far_field N M x)) x.
Proof.
  intros HN HM. pose proof (sqrtNM N M HN HM) as S.
  assert (SS : RtoC (/ sqrt (INR (N * M))) * RtoC (sqrt (INR (N * M))) = 1).
  { rewrite <- RtoC_mult, Rinv_l by lra. reflexivity. }
  split; intros i j Hi Hj; unfold inverse_far_field, far_field.
  - unfold fftshift2 at 1. set (i' := roll N (N / 2) i). set (j' := roll M (M / 2) j). unfold ifft2_ortho.
    rewrite (ifft2_ext N M _ _ i' j' (ifftshift_fftshift N M _)). unfold fft2_ortho.
    rewrite ifft2_op2, (op2_scal N M) by apply linop_idft. rewrite <- ifft2_op2.
    rewrite (ifft2_fft2 N M _ HN HM i' j') by (apply roll_bound; lia).
    unfold ifftshift2, i', j'. rewrite !roll_inv1 by lia.
    rewrite Cmult_assoc, (Cmult_comm (RtoC (sqrt _))), SS. ring.
  - unfold fftshift2 at 1. set (i' := roll N (N / 2) i). set (j' := roll M (M / 2) j). unfold fft2_ortho.
    rewrite (fft2_ext N M _ _ i' j' (ifftshift_fftshift N M _)). unfold ifft2_ortho.
    rewrite fft2_op2, (op2_scal N M) by apply linop_dft. rewrite <- fft2_op2.
    rewrite (fft2_ifft2 N M _ HN HM i' j') by (apply roll_bound; lia).
    unfold ifftshift2, i', j'. rewrite !roll_inv1 by lia.
    rewrite Cmult_assoc, SS. ring.
Qed.
Lemma far_energy N M x : 0 < N -> 0 < M ->
  energy N M (far_field N M x) = energy N M x /\ energy N M (inverse_far_field N M x) = energy N M x.
Proof.
  intros HN HM. pose proof (sqrtNM N M HN HM) as S.
  assert (SQ : (sqrt (INR (N * M)) * sqrt (INR (N * M)) = INR N * INR M)%R).
  { rewrite sqrt_sqrt by apply pos_INR. apply mult_INR. }
  assert (PN : (0 < INR N)%R) by (apply lt_0_INR; lia). assert (PM : (0 < INR M)%R) by (apply lt_0_INR; lia).
  split; unfold far_field, inverse_far_field; rewrite fftshift_energy by lia.
  - unfold fft2_ortho. rewrite energy_scal, fft2_energy, ifftshift_energy by lia.
    rewrite nrm2_RtoC. rewrite <- Rinv_mult, SQ. field. lra.
  - unfold ifft2_ortho. rewrite energy_scal, ifft2_energy, ifftshift_energy by lia.
    rewrite nrm2_RtoC, SQ. field. lra.
Qed.
Lemma far_linear N M a x b y i j :
  far_field N M (lin a x b y) i j = a * far_field N M x i j + b * far_field N M y i j /\
  inverse_far_field N M (lin a x b y) i j = a * inverse_far_field N M x i j + b * inverse_far_field N M y i j.
Proof.
  unfold far_field, inverse_far_field, fftshift2, fft2_ortho, ifft2_ortho.
  change (ifftshift2 N M (lin a x b y)) with (lin a (ifftshift2 N M x) b (ifftshift2 N M y)).
  rewrite fft2_op2, ifft2_op2.
  rewrite !(op2_lin N M) by (apply linop_dft || apply linop_idft). split; ring.
Qed.

(** one axis of the centred transform *)
Lemma dft_centred n (Hn : 0 < n) x k :
  dft n (fun j => x (roll n ((n + 1) / 2) j)) (roll n (n / 2) k) =
  csum n (fun j => x j * w n (- (off n k * off n j))).
Proof.
  unfold dft. rewrite <- (csum_roll n (n / 2) _ Hn). apply csum_ext. intros j Hj. rewrite roll_inv1 by lia. f_equal.
  apply w_congr; [exact Hn|]. rewrite !roll_fft by lia. rewrite !Nat2Z.inj_mod.
  pose proof (half_lt n Hn).
  assert (E : forall a, (Z.of_nat (a + (n - n / 2)) = off n a + 1 * Z.of_nat n)%Z) by (intros a; unfold off; lia).
  rewrite !E, !Z.mod_add by lia.
  assert (Q : forall u, ((- u) mod Z.of_nat n = ((-1) * (u mod Z.of_nat n)) mod Z.of_nat n)%Z).
  { intros u. rewrite Z.mul_mod_idemp_r by lia. f_equal; lia. }
  rewrite Q, <- Z.mul_mod by lia. now rewrite <- Q.
Qed.
Lemma w_cis n a b m k l : 0 < n -> 0 < m ->
  w n (- (a * b)) * w m (- (k * l)) = cis (- (2 * PI) * (IZR (a * b) / INR n + IZR (k * l) / INR m)).
Proof.
  intros Hn Hm. unfold w. rewrite <- cis_add, !opp_IZR. f_equal. field. split; now apply INRn.
Qed.
Lemma far_centred N M x k l : 0 < N -> 0 < M -> k < N -> l < M -> far_field N M x k l = centred_ft N M x k l.
Proof.
  intros HN HM Hk Hl. unfold far_field, fftshift2, fft2_ortho, centred_ft. f_equal. unfold fft2, ifftshift2.
  rewrite (dft_ext N _ (fun n => csum M (fun m => x (roll N ((N + 1) / 2) n) m * w M (- (off M l * off M m))))).
  2:{ intros n Hn. apply (dft_centred M HM (fun m => x (roll N ((N + 1) / 2) n) m)). }
  rewrite (dft_centred N HN (fun n => csum M (fun m => x n m * w M (- (off M l * off M m)))) k).
  apply csum_ext. intros n Hn. rewrite csum_scal_r. apply csum_ext. intros m Hm.
  rewrite <- w_cis by assumption. ring.
Qed.

(** ---- near field ---- *)
Lemma near_linear N M a x b y p i j :
  near_field N M (lin a x b y) p i j = a * near_field N M x p i j + b * near_field N M y p i j.
Proof.
  unfold near_field. rewrite ifft2_op2, <- (op2_lin N M) by apply linop_idft.
  apply (op2_ext N M); try apply linop_idft. intros k l Hk Hl. unfold lin at 2.
  rewrite fft2_op2, (op2_lin N M) by apply linop_dft. ring.
Qed.
Lemma near_compose N M x p q : 0 < N -> 0 < M ->
  same N M (near_field N M (near_field N M x p) q) (near_field N M x (times q p)).
Proof.
  intros HN HM i j Hi Hj. unfold near_field at 1 3. apply ifft2_ext. intros k l Hk Hl. unfold near_field.
  rewrite (fft2_ifft2 N M _ HN HM k l Hk Hl). unfold times. ring.
Qed.
Lemma near_ext N M x y p q i j : same N M x y -> same N M p q -> near_field N M x p i j = near_field N M y q i j.
Proof.
  intros E F. unfold near_field. apply ifft2_ext. intros k l Hk Hl. rewrite F by assumption. f_equal. now apply fft2_ext.
Qed.
Lemma near_one N M x p : 0 < N -> 0 < M -> (forall k l, k < N -> l < M -> p k l = 1) -> same N M (near_field N M x p) x.
Proof.
  intros HN HM Hp i j Hi Hj. unfold near_field.
  rewrite (ifft2_ext N M _ (fft2 N M x)); [now apply ifft2_fft2|]. intros k l Hk Hl. rewrite Hp by assumption. ring.
Qed.
Lemma inverse_near_is N M x p i j : inverse_near_field N M x p i j = near_field N M x (fun k l => Cconj (p k l)) i j.
Proof. unfold inverse_near_field, near_field. apply ifft2_ext. intros k l _ _. ring. Qed.
Lemma near_energy N M x p : 0 < N -> 0 < M ->
  energy N M (near_field N M x p) = (/ INR N * / INR M * rsum N (fun k => rsum M (fun l => nrm2 (p k l) * nrm2 (fft2 N M x k l))))%R.
Proof.
  intros HN HM. unfold near_field. rewrite ifft2_energy by assumption. f_equal. unfold energy.
  apply rsum_ext. intros. apply rsum_ext. intros. apply nrm2_mult.
Qed.
Lemma energy_fft_half N M x : 0 < N -> 0 < M -> energy N M x = (/ INR N * / INR M * energy N M (fft2 N M x))%R.
Proof. intros HN HM. rewrite fft2_energy by assumption. field. split; now apply INRn. Qed.
Lemma near_energy_le N M x p : 0 < N -> 0 < M -> (forall k l, k < N -> l < M -> (nrm2 (p k l) <= 1)%R) ->
  (energy N M (near_field N M x p) <= energy N M x)%R.
Proof.
  intros HN HM Hp. rewrite near_energy, (energy_fft_half N M x) by assumption.
  assert (0 < / INR N * / INR M)%R by (apply Rmult_lt_0_compat; apply Rinv_0_lt_compat; apply lt_0_INR; lia).
  apply Rmult_le_compat_l; [lra|]. apply rsum_le. intros k Hk. apply rsum_le. intros l Hl.
  pose proof (nrm2_nonneg (fft2 N M x k l)). pose proof (Hp k l Hk Hl). pose proof (nrm2_nonneg (p k l)). nra.
Qed.
Lemma near_energy_eq N M x p : 0 < N -> 0 < M -> (forall k l, k < N -> l < M -> nrm2 (p k l) = 1%R) ->
  energy N M (near_field N M x p) = energy N M x.
Proof.
  intros HN HM Hp. rewrite near_energy, (energy_fft_half N M x) by assumption. f_equal. unfold energy.
  apply rsum_ext. intros k Hk. apply rsum_ext. intros l Hl. rewrite Hp by assumption. ring.
Qed.
Lemma near_inverse N M x p : 0 < N -> 0 < M -> (forall k l, k < N -> l < M -> nrm2 (p k l) = 1%R) ->
  same N M (inverse_near_field N M (near_field N M x p) p) x.
Proof.
  intros HN HM Hp i j Hi Hj. rewrite inverse_near_is, (near_compose N M x p _ HN HM i j Hi Hj).
  apply near_one; auto. intros k l Hk Hl. unfold times. rewrite Cmult_comm, mult_conj, Hp by assumption. reflexivity.
Qed.
(** the delta whose transform is nonzero only at (k, l) *)
Lemma near_inverse_conv N M p : 0 < N -> 0 < M ->
  (forall x, same N M (inverse_near_field N M (near_field N M x p) p) x) ->
  forall k l, k < N -> l < M -> nrm2 (p k l) = 1%R.
Proof.
  intros HN HM H k l Hk Hl.
  set (e := fun a b => if Nat.eqb a k then if Nat.eqb b l then 1 else 0 else 0 : C).
  set (x := ifft2 N M e). specialize (H x).
  assert (F : same N M (fft2 N M (inverse_near_field N M (near_field N M x p) p)) (fun a b => RtoC (nrm2 (p a b)) * e a b)).
  { intros a b Ha Hb.
    rewrite (fft2_ext N M _ (near_field N M x (times (fun k l => Cconj (p k l)) p))).
    2:{ intros i j Hi Hj. rewrite inverse_near_is. now apply near_compose. }
    unfold near_field. rewrite (fft2_ifft2 N M _ HN HM a b Ha Hb). unfold times, x.
    rewrite (fft2_ifft2 N M e HN HM a b Ha Hb). rewrite (Cmult_comm (Cconj _)), mult_conj. reflexivity. }
  specialize (F k l Hk Hl). rewrite (fft2_ext N M _ x k l H) in F. unfold x in F.
  rewrite (fft2_ifft2 N M e HN HM k l Hk Hl) in F. unfold e in F. rewrite !Nat.eqb_refl in F.
  apply RtoC_inj. rewrite F. ring.
Qed.
