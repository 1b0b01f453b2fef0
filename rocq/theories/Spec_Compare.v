(** What comparing patterns should show. *)
From Verif Require Import Base Model_Compare.
Local Open Scope Z_scope.

Section Compare.
Variable params : Type.
Variable forward : params -> dataset -> Z -> pic.
Variable mask : option pic.
Variable logarithmic : bool.

(** x is how a pixel value v is displayed: v itself, or its base-10 logarithm. *)
Definition displayed (v x : R) : Prop := if logarithmic then (0 < v -> Rpower 10 x = v)%R else x = v.
(** The window shows pattern i of the data: simulated with the parameters p, measured times the mask, and the
    difference times the mask. *)
Definition shows (p : params) (d : dataset) (i : Z) (w : window) : Prop :=
  w_data w = d /\ pattern_idx w = i /\ exists s, pics w = Some s /\ forall r c, exists a b,
    displayed (forward p d i r c) a /\ displayed (measured d i r c) b /\
    let m := match mask with None => 1%R | Some m => m r c end in
    sim s r c = a /\ meas s r c = (b * m)%R /\ diff s r c = ((a - b) * m)%R.

(** One window over n patterns: the pattern number, the parameters of the model, and the parameters its pictures
    were made with. *)
Definition track1 (n : Z) (e : event params) (t : Z * params * params) : Z * params * params :=
  let '(i, p, q) := t in
  match e with
  | Action _ Up => ((if i =? 0 then n - 1 else i - 1), p, p)
  | Action _ Down => ((if i =? n - 1 then 0 else i + 1), p, p)
  | Action _ Other => (i, p, p)
  | Drag v => let v := Z.max 0 (Z.min v (n - 1)) in if v =? i then t else (v, p, p)
  | Work p => (i, p, q)
  | Open _ => t
  end.
Definition track (n : Z) (es : list (event params)) (t : Z * params * params) : Z * params * params := fold_left (fun t e => track1 n e t) es t.
(** Only events in the one window, no second call of compare. *)
Definition single (e : event params) : Prop := match e with Open _ => False | Action n _ => n = 0%nat | _ => True end.
(** Events that can happen with k windows open, and the number of windows afterwards; datasets are not empty. *)
Fixpoint possible (k : nat) (es : list (event params)) : Prop :=
  match es with
  | [] => True
  | Open d :: es => 0 < ds_len d /\ possible (S k) es
  | Action n _ :: es => (n < k)%nat /\ possible k es
  | Drag _ :: es => (0 < k)%nat /\ possible k es
  | Work _ :: es => possible k es
  end.
(** The parameters the model had in a history. *)
Fixpoint had (p : params) (es : list (event params)) : list params :=
  p :: match es with [] => [] | Work q :: es => had q es | _ :: es => had p es end.
End Compare.
