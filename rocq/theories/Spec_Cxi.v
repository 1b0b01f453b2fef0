(** Specification vocabulary for CXI files. *)
From Verif Require Import Base Model_Cxi.
Local Open Scope string_scope.

(** Everything that could be read from f can still be read, with the same contents, from f'. *)
Definition extends (f f' : file) : Prop := forall p n, resolve p f = Some n -> resolve p f' = Some n.

(** All elements are binary32 numbers (or NaN). *)
Definition is_f32 (x : R) : Prop := f32 x = x.
Definition f32_array (a : carr) : Prop := c_dt a = CF32 /\ forall x, In (Some x) (c_data a) -> is_f32 x.
(** No negative element. *)
Definition non_negative (a : carr) : Prop := forall x, In (Some x) (c_data a) -> (0 <= x)%R.
(** A two-dimensional image. *)
Definition image (a : carr) : Prop := exists h w, c_shape a = [h; w] /\ length (c_data a) = h * w.

(** An axis name that survives: no ':', no capital letter, no blank at either end (blanks: the
    ASCII characters Python's str.strip removes). *)
Definition blank (c : ascii) : Prop :=
  let n := nat_of_ascii c in n = 32 \/ 9 <= n <= 13 \/ 28 <= n <= 31.
Definition capital (c : ascii) : Prop := 65 <= nat_of_ascii c <= 90.
Definition trimmed (s : string) : Prop :=
  (forall c b, s = String c b -> ~ blank c) /\ (forall a c, s = a ++ String c "" -> ~ blank c).
Definition plain_axis (s : string) : Prop :=
  (forall a c b, s = a ++ String c b -> c <> ":"%char /\ ~ capital c) /\ trimmed s.

(** Entry metadata. *)
Section Entry.
Context {DT : Type} (iso : DT -> string) (parse : string -> res DT).
Notation meta := (meta DT).
Fixpoint assoc (k : string) (l : list (string * meta)) : option meta :=
  match l with [] => None | (k', v) :: l' => if String.eqb k k' then Some v else assoc k l' end.
Definition entry_keys : list string :=
  ["title"; "experiment_identifier"; "experiment_description"; "program_name"; "start_time"; "end_time";
   "polarization_states"].
(** What a stored text comes back as: a date if the date parser accepts it. *)
Definition redate (s : string) : meta := match parse s with Ok d => MDate d | Raise _ => MStr s end.
Definition reread (v : meta) : option meta :=
  match v with MStr s => Some (redate s) | MDate d => Some (redate (iso d)) | MArr a => Some (MArr a) | MOther => None end.
Definition reread1 (l : list (string * meta)) (k : string) : list (string * meta) :=
  match assoc k l with Some v => match reread v with Some v' => [(k, v')] | None => [] end | None => [] end.
Definition reread_all (l : list (string * meta)) (ks : list string) : list (string * meta) := flat_map (reread1 l) ks.
(** A text on which the date parser either answers or raises ValueError. *)
Definition text_meta (v : meta) : Prop :=
  match v with
  | MStr s => forall e, parse s = Raise e -> e = ValueError
  | MDate d => forall e, parse (iso d) = Raise e -> e = ValueError
  | MArr _ => False
  | MOther => True
  end.
(** The textual attributes are texts; polarization_states is an array. *)
Definition standard_entry (l : list (string * meta)) : Prop :=
  (forall k v, In k metadata_attrs -> assoc k l = Some v -> text_meta v) /\
  (forall v, assoc "polarization_states" l = Some v -> match v with MArr _ | MOther => True | _ => False end).
End Entry.

(** Additions to a CXI file, in any order. *)
Inductive addition :=
| ASource (wavelength : R)
| ADetector (distance : R) (basis : list (list R)) (corner : option carr)
| AMask (shape : list nat) (kept : list bool)
| AQe (q : carr)
| ADark (d : carr)
| AData (d : carr) (axes : option (list string))
| AShot (d : carr) (name : string)
| ATranslations (d : carr).
Definition do_add (a : addition) : file -> res file :=
  match a with
  | ASource w => add_source w
  | ADetector d b c => add_detector d b c
  | AMask s m => add_mask s m
  | AQe q => add_qe_mask q
  | ADark d => add_dark d
  | AData d ax => add_data d ax
  | AShot d k => add_shot_to_shot d k
  | ATranslations d => add_translations d
  end.
Fixpoint do_adds (l : list addition) (f : file) : res file :=
  match l with [] => Ok f | a :: l' => match do_add a f with Ok f' => do_adds l' f' | Raise e => Raise e end end.
(** The dataset names an addition uses; two additions clash when they share one. *)
Definition uses (a : addition) : list string :=
  match a with
  | ASource _ => ["wavelength"]
  | ADetector _ _ _ => ["distance"; "x_pixel_size"; "y_pixel_size"; "basis_vectors"; "corner_position"]
  | AMask _ _ => ["mask"]
  | AQe _ => ["qe_mask"]
  | ADark _ => ["data_dark"]
  | AData _ _ => ["data"]
  | AShot _ k => [k]
  | ATranslations _ => ["translation"]
  end.
Fixpoint no_clash (l : list addition) : Prop :=
  match l with [] => True | a :: l' => (forall b k, In b l' -> In k (uses a) -> ~ In k (uses b)) /\ no_clash l' end.
