(** Specification vocabulary for nested dictionaries and results files. *)
From Verif Require Import Base Model_H5.
Local Open Scope string_scope.

Section Spec.
Context {E : Type}.
Notation pyv := (pyv E).

(** A key that names exactly one HDF5 link: not empty, not ".", without '/'. *)
Definition plain_key (k : string) : Prop := k <> "" /\ k <> "." /\ forall a b, k <> a ++ "/" ++ b.

(** Element types with an HDF5 (resp. torch) equivalent; strings without NUL characters. *)
Definition h5_native (t : dtype) : Prop := t <> DText.
Definition torch_native (t : dtype) : Prop := ~ In t [DUint; DBytes; DText].
Definition nul_free (s : string) : Prop := forall a b, s <> a ++ String "000"%char b.

(** Values the file format can hold: numbers, arrays and tensors of a native type, strings
    without NUL, and dictionaries with distinct plain keys of such values. *)
Inductive storable : pyv -> Prop :=
| st_num t e : storable (PNum t e)
| st_arr a : h5_native (a_dt a) -> storable (PArr a)
| st_tensor a rg : h5_native (a_dt a) -> storable (PTensor a rg)
| st_str s : nul_free s -> storable (PStr s)
| st_dict d : NoDup (map fst d) -> Forall (fun kv => plain_key (fst kv) /\ storable (snd kv)) d ->
              storable (PDict d).

(** The value read back for a stored value: tensors come back as arrays, zero-dimensional arrays
    as numbers; dictionaries with the same keys and corresponding values in any order. *)
Definition reads_as_arr (a : arr E) (v : pyv) : Prop :=
  match a_shape a, a_data a with
  | [], [e] => v = PNum (a_dt a) e
  | _, _ => v = PArr a
  end.
Inductive reads_as : pyv -> pyv -> Prop :=
| ra_num t e : reads_as (PNum t e) (PNum t e)
| ra_arr a v : reads_as_arr a v -> reads_as (PArr a) v
| ra_tensor a rg v : reads_as_arr a v -> reads_as (PTensor a rg) v
| ra_str s : reads_as (PStr s) (PStr s)
| ra_dict d d' :
    (forall k v, lookup k d = Some v -> exists v', lookup k d' = Some v' /\ reads_as v v') ->
    (forall k, lookup k d = None -> lookup k d' = None) ->
    NoDup (map fst d') -> reads_as (PDict d) (PDict d').

(** A dictionary tree without tensors that require grad and without unsupported leaves; and one
    whose arrays all have torch equivalents. *)
Inductive plain_tree : pyv -> Prop :=
| pt_num t e : plain_tree (PNum t e)
| pt_arr a : plain_tree (PArr a)
| pt_tensor a : plain_tree (PTensor a false)
| pt_str s : plain_tree (PStr s)
| pt_dict d : Forall (fun kv => plain_tree (snd kv)) d -> plain_tree (PDict d).
Inductive torch_tree : pyv -> Prop :=
| tt_num t e : torch_native t -> torch_tree (PNum t e)
| tt_arr a : torch_native (a_dt a) -> torch_tree (PArr a)
| tt_tensor a rg : torch_tree (PTensor a rg)
| tt_str s : torch_tree (PStr s)
| tt_dict d : Forall (fun kv => torch_tree (snd kv)) d -> torch_tree (PDict d).

(** Leaves converted, everything else as it is: numbers and arrays / tensors. *)
Fixpoint as_np (v : pyv) : pyv :=
  match v with
  | PTensor a _ => PArr a
  | PDict d => PDict (map (fun kv => (fst kv, as_np (snd kv))) d)
  | _ => v
  end.
Fixpoint as_torch (v : pyv) : pyv :=
  match v with
  | PNum t e => PTensor (mkArr t [] [e]) false
  | PArr a => PTensor a false
  | PDict d => PDict (map (fun kv => (fst kv, as_torch (snd kv))) d)
  | _ => v
  end.
End Spec.
