(** Lemmas about image processing. *)
From Verif Require Import Base FinSum Fourier Model_Prop Spec_Prop Proofs_Prop Model_Image Spec_Image.
From Coquelicot Require Import Complex.
Local Open Scope C_scope.

Lemma circ_bound n z : 0 < n -> circ n z < n.
Proof. intros H. unfold circ. pose proof (Z.mod_pos_bound z (Z.of_nat n) ltac:(lia)). lia. Qed.
Lemma circ_Z n z : 0 < n -> Z.of_nat (circ n z) = (z mod Z.of_nat n)%Z.
Proof. intros H. unfold circ. pose proof (Z.mod_pos_bound z (Z.of_nat n) ltac:(lia)). now rewrite Z2Nat.id by lia. Qed.
Lemma circ_congr n a b : (a mod Z.of_nat n = b mod Z.of_nat n)%Z -> circ n a = circ n b.
Proof. intros H. unfold circ. now rewrite H. Qed.
Lemma circ_small n i : i < n -> circ n (Z.of_nat i) = i.
Proof. intros H. unfold circ. rewrite Z.mod_small by lia. apply Nat2Z.id. Qed.
Lemma circ_sub n j a : 0 < n -> circ n (Z.of_nat j - a) = ((j + circ n (- a)) mod n)%nat.
Proof.
  intros H. apply Nat2Z.inj. rewrite circ_Z, Nat2Z.inj_mod, Nat2Z.inj_add, circ_Z by lia.
  rewrite Z.add_mod_idemp_r by lia. f_equal; lia.
Qed.
Lemma csum_circ n a f : 0 < n -> csum n (fun j => f (circ n (Z.of_nat j - a))) = csum n f.
Proof.
  intros H. rewrite <- (csum_cyclic n (circ n (- a)) f). apply csum_ext. intros j Hj. now rewrite circ_sub.
Qed.
Lemma dft_shift n x a k : 0 < n -> dft n (fun j => x (circ n (Z.of_nat j - a))) k = w n (- (Z.of_nat k * a)) * dft n x k.
Proof.
  intros H. unfold dft. rewrite csum_scal.
  rewrite <- (csum_circ n a (fun j => w n (- (Z.of_nat k * a)) * (x j * w n (- (Z.of_nat k * Z.of_nat j)))) H).
  apply csum_ext. intros j Hj. rewrite circ_Z by lia.
  replace (w n (- (Z.of_nat k * Z.of_nat j))) with (w n (- (Z.of_nat k * a)) * w n (- (Z.of_nat k * ((Z.of_nat j - a) mod Z.of_nat n)))).
  - ring.
  - rewrite <- w_add by lia. apply w_congr; [lia|].
    replace (- (Z.of_nat k * a) + - (Z.of_nat k * ((Z.of_nat j - a) mod Z.of_nat n)))%Z
      with (- (Z.of_nat k * a) + (- Z.of_nat k) * ((Z.of_nat j - a) mod Z.of_nat n))%Z by ring.
    rewrite Z.add_mod, Z.mul_mod_idemp_r, <- Z.add_mod by lia. f_equal. ring.
Qed.
Lemma fft2_rolled N M x a b k l : 0 < N -> 0 < M ->
  fft2 N M (rolled N M x a b) k l = w N (- (Z.of_nat k * a)) * w M (- (Z.of_nat l * b)) * fft2 N M x k l.
Proof.
  intros HN HM. unfold fft2, rolled.
  rewrite (dft_ext N _ (fun n => w M (- (Z.of_nat l * b)) * dft M (x (circ N (Z.of_nat n - a))) l)).
  2:{ intros n Hn. apply (dft_shift M (fun j => x (circ N (Z.of_nat n - a)) j) b l HM). }
  rewrite (dft_shift N (fun n => w M (- (Z.of_nat l * b)) * dft M (x n) l) a k HN).
  rewrite (linop_scal N (dft N) _ (fun n => dft M (x n) l) k (linop_dft N)). ring.
Qed.

(** ---- sub-pixel shift ---- *)
Definition sfreq (n k : nat) : R := centred_index n (roll n ((n + 1) / 2) k).
Definition shift_mask (N M : nat) (s0 s1 : R) : img :=
  fun k l => cis (- s0 * (2 * PI * sfreq N k / INR N) - s1 * (2 * PI * sfreq M l / INR M)).
Lemma shift_near N M x s0 s1 i j : sinc_subpixel_shift N M x s0 s1 i j = near_field N M x (shift_mask N M s0 s1) i j.
Proof.
  unfold sinc_subpixel_shift, near_field. apply ifft2_ext. intros k l Hk Hl.
  unfold ifftshift2 at 1. unfold fftshift2. rewrite !roll_inv2 by lia. unfold shift_mask, sfreq. ring.
Qed.
Lemma shift_mask_unit N M s0 s1 k l : nrm2 (shift_mask N M s0 s1 k l) = 1%R.
Proof. apply nrm2_cis. Qed.
Lemma shift_mask_add N M s0 s1 t0 t1 k l :
  shift_mask N M s0 s1 k l * shift_mask N M t0 t1 k l = shift_mask N M (s0 + t0) (s1 + t1) k l.
Proof. unfold shift_mask. rewrite <- cis_add. f_equal. unfold Rdiv. ring. Qed.
Lemma sfreq_Z n k : 0 < n -> k < n -> exists q, sfreq n k = IZR (Z.of_nat k + q * Z.of_nat n).
Proof.
  intros H Hk. unfold sfreq, centred_index. rewrite roll_ifft by lia. rewrite !INR_IZR_INZ, <- minus_IZR.
  exists (- (Z.of_nat (k + n / 2) / Z.of_nat n))%Z. f_equal. rewrite Nat2Z.inj_mod, Z.mod_eq by lia. lia.
Qed.
Lemma cis_w n (Hn : 0 < n) s k : k < n -> cis (- IZR s * (2 * PI * sfreq n k / INR n)) = w n (- (Z.of_nat k * s)).
Proof.
  intros Hk. destruct (sfreq_Z n k Hn Hk) as [q ->].
  rewrite <- (w_period n Hn (- (Z.of_nat k * s)) (- (q * s))). unfold w. f_equal.
  replace (- (Z.of_nat k * s) + Z.of_nat n * - (q * s))%Z with (- (s * (Z.of_nat k + q * Z.of_nat n)))%Z by ring.
  rewrite opp_IZR, mult_IZR. unfold Rdiv. ring.
Qed.
Lemma shift_integer N M x a b : 0 < N -> 0 < M -> same N M (sinc_subpixel_shift N M x (IZR a) (IZR b)) (rolled N M x a b).
Proof.
  intros HN HM i j Hi Hj. rewrite shift_near. unfold near_field.
  rewrite (ifft2_ext N M _ (fft2 N M (rolled N M x a b))).
  - now apply ifft2_fft2.
  - intros k l Hk Hl. rewrite fft2_rolled by lia. f_equal. unfold shift_mask, Rminus.
    rewrite cis_add, cis_w by lia. f_equal. rewrite <- cis_w by lia. f_equal. ring.
Qed.
Lemma shift_compose N M x s0 s1 t0 t1 : 0 < N -> 0 < M ->
  same N M (sinc_subpixel_shift N M (sinc_subpixel_shift N M x s0 s1) t0 t1) (sinc_subpixel_shift N M x (s0 + t0) (s1 + t1)).
Proof.
  intros HN HM i j Hi Hj. rewrite !shift_near.
  rewrite (near_ext N M _ (near_field N M x (shift_mask N M s0 s1)) _ (shift_mask N M t0 t1)).
  - rewrite (near_compose N M x _ _ HN HM i j Hi Hj). apply near_ext; [now intros ? ? _ _|].
    intros k l _ _. unfold times. rewrite shift_mask_add. f_equal; ring.
  - intros k l _ _. apply shift_near.
  - now intros ? ? _ _.
Qed.
Lemma shift_energy N M x s0 s1 : 0 < N -> 0 < M -> energy N M (sinc_subpixel_shift N M x s0 s1) = energy N M x.
Proof.
  intros HN HM. rewrite (energy_ext N M _ (near_field N M x (shift_mask N M s0 s1))) by (intros ? ? _ _; apply shift_near).
  apply near_energy_eq; auto. intros. apply shift_mask_unit.
Qed.
Lemma shift_zero N M x : 0 < N -> 0 < M -> same N M (sinc_subpixel_shift N M x 0 0) x.
Proof.
  intros HN HM i j Hi Hj. rewrite shift_near. apply near_one; auto. intros k l _ _. unfold shift_mask.
  replace (- 0 * _ - 0 * _)%R with 0%R by ring. apply cis_0.
Qed.

(** ---- argmax ---- *)
Lemma argmax_spec n f : 0 < n -> argmax n f < n /\ forall i, i < n -> (f i <= f (argmax n f))%R.
Proof.
  induction n as [|[|n] IH]; intros H; [lia| |].
  - split; [cbn; lia|]. intros i Hi. replace i with 0%nat by lia. cbn. lra.
  - destruct (IH ltac:(lia)) as [B M]. change (argmax (S (S n)) f) with
      (if Rlt_dec (f (argmax (S n) f)) (f (S n)) then S n else argmax (S n) f).
    destruct (Rlt_dec _ _) as [L|L]; (split; [lia|]); intros i Hi; destruct (Nat.eq_dec i (S n)) as [->|Hne].
    + lra.
    + specialize (M i ltac:(lia)). lra.
    + lra.
    + apply M. lia.
Qed.
Lemma argmax_unique n f p : p < n -> (forall i, i < n -> i <> p -> (f i < f p)%R) -> argmax n f = p.
Proof.
  intros Hp H. destruct (argmax_spec n f ltac:(lia)) as [B M].
  destruct (Nat.eq_dec (argmax n f) p) as [E|E]; [exact E|]. specialize (H _ B E). specialize (M p Hp). lra.
Qed.

(** ---- find_pixel_shift ---- *)
Lemma idft_w n a i : 0 < n -> idft n (fun k => w n (Z.of_nat k * a)) i = if ((Z.of_nat i + a) mod Z.of_nat n =? 0)%Z then 1 else 0.
Proof.
  intros H. unfold idft.
  rewrite (csum_ext _ _ (fun k => w n (Z.of_nat k * (Z.of_nat i + a)))).
  2:{ intros k Hk. rewrite <- w_add by lia. f_equal. ring. }
  rewrite orth by lia. destruct (Z.eqb _ 0); [apply RtoC_inv_n; lia|ring].
Qed.
Lemma ifft2_prod N M (f g : nat -> C) i j : ifft2 N M (fun k l => f k * g l) i j = idft N f i * idft M g j.
Proof.
  unfold ifft2. rewrite (idft_ext N _ (fun n => idft M g j * f n)).
  - rewrite (linop_scal N (idft N) _ f i (linop_idft N)). ring.
  - intros n Hn. rewrite (linop_scal M (idft M) (f n) g j (linop_idft M)). ring.
Qed.
Lemma correlation_rolled N M x a b i j : 0 < N -> 0 < M ->
  (forall k l, k < N -> l < M -> fft2 N M x k l <> 0) ->
  correlation N M x (rolled N M x a b) i j =
    (if ((Z.of_nat i + a) mod Z.of_nat N =? 0)%Z then 1 else 0) * (if ((Z.of_nat j + b) mod Z.of_nat M =? 0)%Z then 1 else 0).
Proof.
  intros HN HM Hnz. unfold correlation.
  rewrite (ifft2_ext N M _ (fun k l => w N (Z.of_nat k * a) * w M (Z.of_nat l * b))).
  - rewrite ifft2_prod, !idft_w by lia. reflexivity.
  - intros k l Hk Hl. rewrite fft2_rolled by lia. set (z := fft2 N M x k l).
    assert (E : z * Cconj (w N (- (Z.of_nat k * a)) * w M (- (Z.of_nat l * b)) * z) = RtoC (nrm2 z) * (w N (Z.of_nat k * a) * w M (Z.of_nat l * b))).
    { rewrite !Cconj_mult, !w_conj by lia. rewrite !Z.opp_involutive, <- mult_conj. ring. }
    rewrite E. rewrite Cmod_mult, Cmod_R, Cmod_mult, !(Cmod_nrm2 (w _ _)), !w_nrm2, sqrt_1, !Rmult_1_r.
    rewrite Rabs_pos_eq by apply nrm2_nonneg.
    assert (NZ : RtoC (nrm2 z) <> 0). { intros C. apply RtoC_inj in C. apply nrm2_0 in C. now apply (Hnz k l Hk Hl). }
    field. exact NZ.
Qed.
Lemma wrap_range n c : 0 < n -> (- Z.of_nat (n / 2) <= wrap n c <= Z.of_nat (n - 1) - Z.of_nat (n / 2))%Z.
Proof. intros H. unfold wrap. pose proof (Nat.mod_upper_bound (c + n / 2) n ltac:(lia)). lia. Qed.
Lemma wrap_mod n c : 0 < n -> (wrap n c mod Z.of_nat n = Z.of_nat c mod Z.of_nat n)%Z.
Proof.
  intros H. unfold wrap. rewrite Nat2Z.inj_mod. rewrite Zminus_mod_idemp_l. f_equal. lia.
Qed.
Lemma zero_mod_circ n i a : 0 < n -> i < n -> ((Z.of_nat i + a) mod Z.of_nat n = 0)%Z <-> i = circ n (- a).
Proof.
  intros H Hi. split.
  - intros E. rewrite <- (circ_small n i Hi). apply circ_congr. apply Z.mod_divide in E; [|lia]. destruct E as [q Q].
    replace (Z.of_nat i) with (- a + q * Z.of_nat n)%Z by lia. apply Z.mod_add. lia.
  - intros ->. rewrite circ_Z by lia. rewrite Z.add_mod_idemp_l by lia. rewrite Z.add_opp_diag_l. apply Z.mod_0_l. lia.
Qed.
Lemma find_shift_value N M x a b : 0 < N -> 0 < M -> (forall k l, k < N -> l < M -> fft2 N M x k l <> 0) ->
  find_pixel_shift N M x (rolled N M x a b) = (wrap N (circ N (- a)), wrap M (circ M (- b))).
Proof.
  intros HN HM Hnz. unfold find_pixel_shift.
  set (u := circ N (- a)). set (v := circ M (- b)).
  assert (Hu : u < N) by now apply circ_bound. assert (Hv : v < M) by now apply circ_bound.
  set (f := fun p => Cmod (correlation N M x (rolled N M x a b) (p / M)%nat (p mod M))).
  assert (A : argmax (N * M) f = (u * M + v)%nat).
  { assert (D : ((u * M + v) / M)%nat = u) by (rewrite Nat.add_comm, Nat.div_add, Nat.div_small by lia; lia).
    assert (D' : ((u * M + v) mod M)%nat = v) by (rewrite Nat.add_comm, Nat.mod_add, Nat.mod_small by lia; lia).
    apply argmax_unique; [nia|]. intros p Hp Hne. unfold f. rewrite D, D', !correlation_rolled by assumption.
    assert (E1 : ((Z.of_nat u + a) mod Z.of_nat N =? 0)%Z = true) by (apply Z.eqb_eq; now apply zero_mod_circ).
    assert (E2 : ((Z.of_nat v + b) mod Z.of_nat M =? 0)%Z = true) by (apply Z.eqb_eq; now apply zero_mod_circ).
    rewrite E1, E2.
    assert (Pi : (p / M < N)%nat) by (apply Nat.div_lt_upper_bound; lia).
    assert (Pj : (p mod M < M)%nat) by (apply Nat.mod_upper_bound; lia).
    replace (1 * 1) with 1 by ring. rewrite Cmod_1.
    destruct (Z.eqb_spec ((Z.of_nat (p / M) + a) mod Z.of_nat N) 0) as [F1|F1];
    destruct (Z.eqb_spec ((Z.of_nat (p mod M) + b) mod Z.of_nat M) 0) as [F2|F2].
    - apply zero_mod_circ in F1; [|lia|exact Pi]. apply zero_mod_circ in F2; [|lia|exact Pj].
      exfalso. apply Hne. rewrite (Nat.div_mod p M) by lia. unfold u, v. rewrite <- F1, <- F2. lia.
    - replace (1 * 0) with 0 by ring. rewrite Cmod_0. lra.
    - replace (0 * 1) with 0 by ring. rewrite Cmod_0. lra.
    - replace (0 * 0) with 0 by ring. rewrite Cmod_0. lra. }
  rewrite A. f_equal; f_equal; [rewrite Nat.add_comm, Nat.div_add, Nat.div_small by lia; lia|rewrite Nat.add_comm, Nat.mod_add, Nat.mod_small by lia; lia].
Qed.
Lemma rolled_back N M x a b u v : 0 < N -> 0 < M -> (u mod Z.of_nat N = (- a) mod Z.of_nat N)%Z -> (v mod Z.of_nat M = (- b) mod Z.of_nat M)%Z ->
  same N M (rolled N M (rolled N M x a b) u v) x.
Proof.
  intros HN HM Hu Hv i j Hi Hj. unfold rolled.
  assert (K : forall n t c i, 0 < n -> i < n -> (t mod Z.of_nat n = (- c) mod Z.of_nat n)%Z -> circ n (Z.of_nat (circ n (Z.of_nat i - t)) - c) = i).
  { intros n t c k Hn Hk E. rewrite circ_Z by lia. transitivity (circ n (Z.of_nat k)); [|now apply circ_small].
    apply circ_congr. rewrite Zminus_mod_idemp_l. replace (Z.of_nat k - t - c)%Z with (Z.of_nat k - c - t)%Z by ring.
    rewrite <- Zminus_mod_idemp_r, E, Zminus_mod_idemp_r. f_equal. ring. }
  f_equal; now apply K.
Qed.

(** ---- convolution ---- *)
Lemma convolution n x y i : 0 < n -> i < n ->
  idft n (fun k => dft n x k * dft n y k) i = csum n (fun j => x j * y (circ n (Z.of_nat i - Z.of_nat j))).
Proof.
  intros H Hi.
  rewrite (idft_ext n _ (dft n (fun i => csum n (fun j => x j * y (circ n (Z.of_nat i - Z.of_nat j)))))).
  - now apply (idft_dft n H (fun i => csum n (fun j => x j * y (circ n (Z.of_nat i - Z.of_nat j))))).
  - intros k Hk. unfold dft at 3.
    rewrite (csum_ext n (fun j => csum n _ * _) (fun i => csum n (fun j => x j * (y (circ n (Z.of_nat i - Z.of_nat j)) * w n (- (Z.of_nat k * Z.of_nat i)))))).
    2:{ intros a Ha. rewrite csum_scal_r. apply csum_ext. intros. ring. }
    rewrite csum_swap. unfold dft at 1. rewrite csum_scal_r. apply csum_ext. intros j Hj. rewrite <- csum_scal.
    change (csum n (fun i0 => y (circ n (Z.of_nat i0 - Z.of_nat j)) * w n (- (Z.of_nat k * Z.of_nat i0))))
      with (dft n (fun i0 => y (circ n (Z.of_nat i0 - Z.of_nat j))) k).
    rewrite dft_shift by exact H. ring.
Qed.

(** ---- upsampling ---- *)
Lemma idft_centred n (Hn : 0 < n) x k :
  idft n (fun j => x (roll n ((n + 1) / 2) j)) (roll n (n / 2) k) =
  RtoC (/ INR n) * csum n (fun j => x j * w n (off n k * off n j)).
Proof.
  unfold idft. f_equal. rewrite <- (csum_roll n (n / 2) _ Hn). apply csum_ext. intros j Hj. rewrite roll_inv1 by lia. f_equal.
  apply w_congr; [exact Hn|]. rewrite !roll_fft by lia. rewrite !Nat2Z.inj_mod.
  pose proof (half_lt n Hn).
  assert (E : forall a, (Z.of_nat (a + (n - n / 2)) = off n a + 1 * Z.of_nat n)%Z) by (intros a; unfold off; lia).
  rewrite !E, !Z.mod_add by lia. now rewrite <- Z.mul_mod by lia.
Qed.
Lemma inv_far_centred N M x k l : 0 < N -> 0 < M -> inverse_far_field N M x k l =
  RtoC (/ sqrt (INR (N * M))) * csum N (fun n => csum M (fun m => x n m * (w N (off N k * off N n) * w M (off M l * off M m)))).
Proof.
  intros HN HM. unfold inverse_far_field, fftshift2, ifft2_ortho. unfold ifft2, ifftshift2.
  rewrite (idft_ext N _ (fun n => RtoC (/ INR M) * csum M (fun m => x (roll N ((N + 1) / 2) n) m * w M (off M l * off M m)))).
  2:{ intros n Hn. apply (idft_centred M HM (fun m => x (roll N ((N + 1) / 2) n) m)). }
  rewrite (idft_centred N HN (fun n => RtoC (/ INR M) * csum M (fun m => x n m * w M (off M l * off M m))) k).
  rewrite Cmult_assoc.
  rewrite (csum_ext N _ (fun n => RtoC (/ INR M) * csum M (fun m => x n m * (w N (off N k * off N n) * w M (off M l * off M m))))).
  2:{ intros n Hn. rewrite <- Cmult_assoc. f_equal. rewrite csum_scal_r. apply csum_ext. intros. ring. }
  rewrite <- csum_scal, Cmult_assoc. f_equal. rewrite <- !RtoC_mult. f_equal.
  pose proof (sqrtNM N M HN HM) as S. assert (SQ : (sqrt (INR (N * M)) * sqrt (INR (N * M)) = INR N * INR M)%R).
  { rewrite sqrt_sqrt by apply pos_INR. apply mult_INR. }
  assert (INR N <> 0)%R by now apply INRn. assert (INR M <> 0)%R by now apply INRn.
  field_simplify_eq; [|repeat split; lra]. rewrite <- SQ. ring.
Qed.

(** distance between the true centre and the centre of the inserted block: 0 or 1 *)
Definition defect (f n : nat) : Z := (Z.of_nat ((f * n) / 2) - Z.of_nat (up_left f n + n / 2))%Z.
Lemma defect_value f n : 1 <= f ->
  defect f n = if (Nat.odd n && Nat.even f)%bool then 1%Z else 0%Z.
Proof.
  intros Hf. unfold defect, up_left.
  assert (V : forall m, (2 * Z.of_nat (m / 2) = Z.of_nat m - (if Nat.odd m then 1 else 0))%Z).
  { intros m. rewrite (Nat.div_mod m 2) at 2 by lia. rewrite <- Nat.bit0_mod. rewrite Nat.bit0_odd. destruct (Nat.odd m); cbn [Nat.b2n]; lia. }
  pose proof (V (f * n)%nat). pose proof (V ((f - 1) * n)%nat). pose proof (V n).
  rewrite !Nat.odd_mul, !Nat.odd_sub in * by lia. rewrite Nat.mul_sub_distr_r, Nat2Z.inj_sub in H0 by nia.
  rewrite <- (Nat.negb_odd f). change (Nat.odd 1) with true in *. rewrite Nat.mul_sub_distr_r in *.
  destruct (Nat.odd f), (Nat.odd n); cbn [andb negb xorb] in *; lia.
Qed.
Lemma up_fits f n : 1 <= f -> up_left f n + n <= f * n.
Proof.
  intros Hf. unfold up_left. assert (K : (((f - 1) * n) / 2 <= (f - 1) * n)%nat) by (generalize ((f - 1) * n)%nat; intros k; apply Nat.div_le_upper_bound; lia).
  assert ((f * n = (f - 1) * n + n)%nat) by nia. lia.
Qed.
(** sums over the embedded block *)
Lemma csum_embed1 P L n (g : nat -> C) : L + n <= P ->
  csum P (fun i => if (Nat.leb L i && Nat.ltb i (L + n))%bool then g i else 0) = csum n (fun i => g (L + i)%nat).
Proof.
  intros H. replace P with (L + (n + (P - L - n)))%nat by lia. rewrite csum_split.
  rewrite (csum_zero' L) by (intros i Hi; assert (E : Nat.leb L i = false) by (apply Nat.leb_gt; lia); now rewrite E).
  rewrite csum_split. rewrite (csum_zero' (P - L - n)).
  2:{ intros i Hi. assert (E : Nat.ltb (L + (n + i)) (L + n) = false) by (apply Nat.ltb_ge; lia). now rewrite E, andb_false_r. }
  rewrite Cplus_0_l, Cplus_0_r. apply csum_ext. intros i Hi.
  assert (E : Nat.leb L (L + i) = true) by (apply Nat.leb_le; lia). assert (E' : Nat.ltb (L + i) (L + n) = true) by (apply Nat.ltb_lt; lia).
  now rewrite E, E'.
Qed.
Lemma csum_embed f N M y (h : nat -> nat -> C) : 1 <= f ->
  csum (f * N) (fun i => csum (f * M) (fun j => embed f N M y i j * h i j)) =
  csum N (fun i => csum M (fun j => y i j * h (up_left f N + i)%nat (up_left f M + j)%nat)).
Proof.
  intros Hf.
  rewrite (csum_ext (f * N) _ (fun i => if (Nat.leb (up_left f N) i && Nat.ltb i (up_left f N + N))%bool
     then csum M (fun j => y (i - up_left f N)%nat j * h i (up_left f M + j)%nat) else 0)).
  2:{ intros i Hi. destruct (Nat.leb (up_left f N) i && Nat.ltb i (up_left f N + N))%bool eqn:B.
      - rewrite (csum_ext (f * M) _ (fun j => if (Nat.leb (up_left f M) j && Nat.ltb j (up_left f M + M))%bool
            then y (i - up_left f N)%nat (j - up_left f M)%nat * h i j else 0)).
        + rewrite csum_embed1 by now apply up_fits. apply csum_ext. intros j Hj. do 2 f_equal. lia.
        + intros j Hj. unfold embed. rewrite <- andb_assoc, B. cbn [andb].
          destruct (Nat.leb (up_left f M) j && Nat.ltb j (up_left f M + M))%bool; [reflexivity|ring].
      - apply csum_zero'. intros j Hj. unfold embed. rewrite <- andb_assoc, B. cbn [andb]. ring. }
  rewrite (csum_embed1 (f * N) (up_left f N) N (fun i => csum M (fun j => y (i - up_left f N)%nat j * h i (up_left f M + j)%nat))) by now apply up_fits.
  apply csum_ext. intros i Hi. apply csum_ext. intros j Hj. do 2 f_equal. lia.
Qed.
Lemma w_scale f n z : 0 < f -> 0 < n -> w (f * n) (Z.of_nat f * z) = w n z.
Proof.
  intros Hf Hn. unfold w. f_equal. rewrite mult_IZR, mult_INR, <- INR_IZR_INZ. field. split; now apply INRn.
Qed.
Lemma upsample_formula N M im f p q : 1 <= f -> 0 < N -> 0 < M ->
  fourier_upsample N M im f true p q =
  RtoC (/ sqrt (INR (N * M))) * (w (f * N) (- (defect f N * off (f * N) p)) * w (f * M) (- (defect f M * off (f * M) q))) *
  csum N (fun k => csum M (fun l => far_field N M im k l * (w (f * N) (off N k * off (f * N) p) * w (f * M) (off M l * off (f * M) q)))).
Proof.
  intros Hf HN HM. unfold fourier_upsample. rewrite inv_far_centred by nia.
  set (cN := w (f * N) (- (defect f N * off (f * N) p))). set (cM := w (f * M) (- (defect f M * off (f * M) q))).
  rewrite (csum_ext (f * N) _ (fun i => csum (f * M) (fun j => embed f N M (far_field N M im) i j *
     (RtoC (INR f) * (w (f * N) (off (f * N) p * off (f * N) i) * w (f * M) (off (f * M) q * off (f * M) j)))))).
  2:{ intros i Hi. apply csum_ext. intros j Hj. ring. }
  rewrite csum_embed by exact Hf.
  rewrite (csum_ext N _ (fun k => csum M (fun l => RtoC (INR f) * (cN * cM) *
     (far_field N M im k l * (w (f * N) (off N k * off (f * N) p) * w (f * M) (off M l * off (f * M) q)))))).
  2:{ intros k Hk. apply csum_ext. intros l Hl.
      assert (OD : forall n i, off (f * n) (up_left f n + i) = (off n i - defect f n)%Z) by (intros; unfold off, defect; lia).
      rewrite !OD.
      replace (off (f * N) p * (off N k - defect f N))%Z with (off N k * off (f * N) p + - (defect f N * off (f * N) p))%Z by ring.
      replace (off (f * M) q * (off M l - defect f M))%Z with (off M l * off (f * M) q + - (defect f M * off (f * M) q))%Z by ring.
      rewrite !w_add by nia. unfold cN, cM. ring. }
  rewrite (csum_ext N _ (fun k => RtoC (INR f) * (cN * cM) * csum M (fun l => far_field N M im k l * (w (f * N) (off N k * off (f * N) p) * w (f * M) (off M l * off (f * M) q))))).
  2:{ intros k Hk. now rewrite csum_scal. }
  rewrite <- csum_scal, !Cmult_assoc. do 3 f_equal. rewrite <- RtoC_mult. f_equal.
  replace (f * N * (f * M))%nat with (f * f * (N * M))%nat by ring. rewrite mult_INR, sqrt_mult by apply pos_INR.
  rewrite mult_INR, sqrt_square by apply pos_INR. pose proof (sqrtNM N M HN HM). field. split; [lra|now apply INRn].
Qed.
Lemma upsample_grid N M im f n m p q : 1 <= f -> n < N -> m < M -> grid_point f N n p -> grid_point f M m q ->
  fourier_upsample N M im f true p q =
  w (f * N) (- (defect f N * off (f * N) p)) * w (f * M) (- (defect f M * off (f * M) q)) * im n m.
Proof.
  intros Hf Hn Hm Gp Gq. rewrite upsample_formula by lia.
  rewrite <- (proj1 (far_inverse N M im ltac:(lia) ltac:(lia)) n m Hn Hm), inv_far_centred by lia.
  rewrite (csum_ext N _ (fun k => csum M (fun l => far_field N M im k l * (w N (off N n * off N k) * w M (off M m * off M l))))).
  - ring.
  - intros k Hk. apply csum_ext. intros l Hl. do 2 f_equal.
    + unfold grid_point in Gp. unfold off at 2. rewrite Gp. fold (off N n).
      replace (off N k * (Z.of_nat f * off N n))%Z with (Z.of_nat f * (off N n * off N k))%Z by ring. apply w_scale; lia.
    + unfold grid_point in Gq. unfold off at 2. rewrite Gq. fold (off M m).
      replace (off M l * (Z.of_nat f * off M m))%Z with (Z.of_nat f * (off M m * off M l))%Z by ring. apply w_scale; lia.
Qed.
Lemma embed_energy f N M y : 1 <= f -> energy (f * N) (f * M) (embed f N M y) = energy N M y.
Proof.
  intros Hf. apply RtoC_inj. unfold energy. rewrite <- !csum_RtoC.
  rewrite (csum_ext (f * N) _ (fun i => csum (f * M) (fun j => embed f N M y i j * Cconj (embed f N M y i j)))).
  2:{ intros i _. rewrite <- csum_RtoC. apply csum_ext. intros j _. now rewrite mult_conj. }
  rewrite (csum_embed f N M y (fun i j => Cconj (embed f N M y i j)) Hf).
  apply csum_ext. intros i Hi. rewrite <- csum_RtoC. apply csum_ext. intros j Hj. rewrite <- mult_conj. do 2 f_equal.
  unfold embed.
  assert (A : forall n k, k < n -> (Nat.leb (up_left f n) (up_left f n + k) = true) /\ (Nat.ltb (up_left f n + k) (up_left f n + n) = true)).
  { intros n k Hk. split; [apply Nat.leb_le; lia|apply Nat.ltb_lt; lia]. }
  destruct (A N i Hi) as [-> ->]. destruct (A M j Hj) as [-> ->]. cbn [andb]. f_equal; lia.
Qed.
Lemma upsample_energy N M im f pm : 1 <= f -> 0 < N -> 0 < M ->
  energy (f * N) (f * M) (fourier_upsample N M im f pm) = ((if pm then INR f * INR f else 1) * energy N M im)%R.
Proof.
  intros Hf HN HM. unfold fourier_upsample. rewrite (proj2 (far_energy (f * N) (f * M) _ ltac:(nia) ltac:(nia))).
  destruct pm.
  - rewrite energy_scal, embed_energy, nrm2_RtoC by lia. f_equal. now apply far_energy.
  - rewrite embed_energy by lia. rewrite Rmult_1_l. now apply far_energy.
Qed.
Lemma far_centre N M x : 0 < N -> 0 < M -> far_field N M x (N / 2)%nat (M / 2)%nat = RtoC (/ sqrt (INR (N * M))) * total N M x.
Proof.
  intros HN HM. rewrite far_centred by (try lia; now apply half_lt). unfold centred_ft, total. f_equal.
  apply csum_ext. intros n Hn. apply csum_ext. intros m Hm.
  assert (Z0 : forall n, off n (n / 2)%nat = 0%Z) by (intros; unfold off; lia). rewrite !Z0. cbn [Z.mul].
  unfold Rdiv. rewrite !Rmult_0_l, Rplus_0_l, Rmult_0_r, cis_0. ring.
Qed.
Lemma upsample_total N M im f : 1 <= f -> 0 < N -> 0 < M -> defect f N = 0%Z -> defect f M = 0%Z ->
  total (f * N) (f * M) (fourier_upsample N M im f true) = RtoC (INR (f * f)) * total N M im.
Proof.
  intros Hf HN HM D1 D2. assert (FN : 0 < f * N) by nia. assert (FM : 0 < f * M) by nia.
  pose proof (far_centre (f * N) (f * M) (fourier_upsample N M im f true) FN FM) as E.
  unfold fourier_upsample in E. rewrite (proj2 (far_inverse (f * N) (f * M) _ FN FM) _ _ (half_lt _ FN) (half_lt _ FM)) in E.
  fold (fourier_upsample N M im f true) in E.
  assert (EM : embed f N M (far_field N M im) (f * N / 2)%nat (f * M / 2)%nat = far_field N M im (N / 2)%nat (M / 2)%nat).
  { unfold embed, defect in *.
    assert (B : forall n, 0 < n -> (Z.of_nat (f * n / 2) - Z.of_nat (up_left f n + n / 2)%nat = 0)%Z ->
       Nat.leb (up_left f n) (f * n / 2)%nat = true /\ Nat.ltb (f * n / 2)%nat (up_left f n + n) = true /\ (f * n / 2 - up_left f n)%nat = (n / 2)%nat).
    { intros n Hn D. pose proof (half_lt n Hn). repeat split; [apply Nat.leb_le; lia|apply Nat.ltb_lt; lia|lia]. }
    destruct (B N HN D1) as (-> & -> & ->). destruct (B M HM D2) as (-> & -> & ->). reflexivity. }
  rewrite EM, far_centre in E by assumption.
  pose proof (sqrtNM N M HN HM) as S. pose proof (sqrtNM _ _ FN FM) as S'.
  assert (T : forall T1 T2 : C, RtoC (INR f) * (RtoC (/ sqrt (INR (N * M))) * T1) = RtoC (/ sqrt (INR (f * N * (f * M)))) * T2 -> T2 = RtoC (INR (f * f)) * T1).
  { intros T1 T2 H. replace (f * N * (f * M))%nat with (f * f * (N * M))%nat in H by ring. rewrite (mult_INR (f * f)), (mult_INR f f), sqrt_mult in H by (try apply Rmult_le_pos; apply pos_INR).
    rewrite sqrt_square in H by apply pos_INR.
    assert (F0 : INR f <> 0%R) by (apply INRn; lia).
    rewrite mult_INR.
    apply (f_equal (fun z => RtoC (INR f * sqrt (INR (N * M))) * z)) in H. rewrite !Cmult_assoc, <- !RtoC_mult in H.
    replace (INR f * sqrt (INR (N * M)) * / (INR f * sqrt (INR (N * M))))%R with 1%R in H by (field; split; lra).
    replace (INR f * sqrt (INR (N * M)) * INR f * / sqrt (INR (N * M)))%R with (INR f * INR f)%R in H by (field; lra).
    rewrite H. ring. }
  apply T. exact E.
Qed.
(** ---- Hann window ---- *)
Lemma hann_range H W i j : (0 <= hann H W i j <= 1)%R.
Proof.
  unfold hann. assert (B : forall a, (0 <= sin a ^ 2 <= 1)%R).
  { intros a. pose proof (SIN_bound a). split; [apply pow2_ge_0|]. nra. }
  pose proof (B (PI * INR i / (INR W - 1))%R). pose proof (B (PI * INR j / (INR H - 1))%R). split; nra.
Qed.
Lemma hann_border n i j : 2 <= n -> border n n i j -> hann n n i j = 0%R.
Proof.
  intros Hn B. unfold hann. assert (NZ : (INR n - 1 <> 0)%R). { change 1%R with (INR 1). rewrite <- minus_INR by lia. apply INRn. lia. }
  assert (E : (PI * INR (n - 1) / (INR n - 1) = PI)%R) by (rewrite minus_INR by lia; cbn [INR]; field; exact NZ).
  assert (E0 : (PI * INR 0 / (INR n - 1) = 0)%R) by (cbn [INR]; field; exact NZ).
  destruct B as [ -> | [ -> | [ -> | -> ]]]; rewrite ?E, ?E0, ?sin_PI, ?sin_0; ring.
Qed.
