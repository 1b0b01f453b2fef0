(** Shared vocabulary: Python exceptions as values, Python numbers, list helpers.
    Nothing here models a particular cdtools function. *)
From Coq Require Export Ascii String.
From Coq Require Export List Arith ZArith Lia Bool Reals Lra Permutation.
Export ListNotations.

(** Python exception classes that occur in the modelled code.  [UserExn k] stands for any
    other subclass of [Exception] (k names it). *)
Inductive exn :=
| ValueError | KeyError | TypeError | AttributeError | RuntimeError | IndexError
| NotImplementedError | ZeroDivisionError | OSError | PlainException
| KeyboardInterrupt | SystemExit | UserExn (k : nat).

Lemma exn_eq_dec (a b : exn) : {a = b} + {a <> b}.
Proof. decide equality; apply Nat.eq_dec. Defined.

(** Python: [isinstance(e, Exception)]; KeyboardInterrupt and SystemExit derive from
    BaseException only. *)
Definition is_Exception (e : exn) : bool :=
  match e with KeyboardInterrupt | SystemExit => false | _ => true end.

Inductive res (A : Type) := Ok (a : A) | Raise (e : exn).
Arguments Ok {A} a.
Arguments Raise {A} e.

Definition rbind {A B} (r : res A) (f : A -> res B) : res B :=
  match r with Ok a => f a | Raise e => Raise e end.
Definition rmap {A B} (f : A -> B) (r : res A) : res B :=
  match r with Ok a => Ok (f a) | Raise e => Raise e end.

Declare Scope res_scope.
Delimit Scope res_scope with res.
Notation "'do' x <- r ; k" := (rbind r (fun x => k))
  (at level 200, x pattern, r at level 100, k at level 200, right associativity) : res_scope.

(** A numeric result is either a plain Python number or a torch tensor: methods such as
    [.detach()] and [.cpu()] exist only on the latter. *)
Inductive pynum := PyNum (r : R) | Tens (r : R).
Definition pyval (x : pynum) : R := match x with PyNum r | Tens r => r end.
(** [a + b] on Python numbers / tensors: a tensor if either is. *)
Definition pyadd (a b : pynum) : pynum :=
  match a, b with
  | PyNum x, PyNum y => PyNum (x + y)
  | _, _ => Tens (pyval a + pyval b)
  end.

(** Python slicing [l[i:j]] for 0 <= i, 0 <= j (clipped to the length). *)
Definition slice {A} (i j : nat) (l : list A) : list A := firstn (j - i) (skipn i l).

(** Sum of a list of reals. *)
Definition lsum (l : list R) : R := fold_right Rplus 0%R l.
