(** What a pattern on pixels of finite size is. Independent of the model of the code. *)
From Verif Require Import Base FinSum Fourier Model_Prop.
From Coquelicot Require Import Coquelicot.
Local Open Scope C_scope.

(** sin(pi x) / (pi x) *)
Definition is_sinc (s : R -> R) : Prop := s 0%R = 1%R /\ forall x, (x <> 0 -> s x = sin (PI * x) / (PI * x))%R.

(** The band-limited field through the samples of an N x N wavefield: c holds its N^2 Fourier coefficients, of the
    frequencies m - N/2, n - N/2. *)
Definition field (N : nat) (c : img) (u v : R) : C :=
  csum N (fun m => csum N (fun n => c m n * cis (- (2 * PI) * ((u * (INR m - INR (N / 2)) + v * (INR n - INR (N / 2))) / INR N)))).
Definition through (N : nat) (c psi : img) : Prop := forall k l, (k < N)%nat -> (l < N)%nat -> field N c (INR k) (INR l) = psi k l.

(** I is the power of J modes collected by the pixel centred at (x, y), of width 1, through a response r: the sum of
    the interference terms of the coefficients, each weighed by r of its two frequencies. *)
Definition response_pattern (N J : nat) (c : nat -> img) (r : Z -> R) (x y : R) : C :=
  csum J (fun a => csum N (fun m => csum N (fun n => csum N (fun m' => csum N (fun n' =>
    let d := (Z.of_nat m - Z.of_nat m')%Z in let e := (Z.of_nat n - Z.of_nat n')%Z in
    c a m n * Cconj (c a m' n') * RtoC (r d * r e) * cis (- (2 * PI) * ((x * IZR d + y * IZR e) / INR N))))))).
(** The power collected by the pixel of width 1 centred at (x, y): the field's intensity, summed over the modes,
    integrated over the pixel. *)
Definition collects (N J : nat) (c : nat -> img) (x y v : R) : Prop := exists inner : R -> R,
  (forall u, is_RInt (fun t => rsum J (fun a => Cmod (field N (c a) u t) ^ 2)) (y - / 2) (y + / 2) (inner u))%R /\
  is_RInt inner (x - / 2)%R (x + / 2)%R v.
