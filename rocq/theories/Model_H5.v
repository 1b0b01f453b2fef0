(** Model of the nested-dictionary HDF5 store (src/cdtools/tools/data/data.py:873-1020) and of
    CDIModel.save_results / _load_results_dict (src/cdtools/models/base.py:169-235). *)
From Verif Require Import Base.
Local Open Scope string_scope.

(** Element types of arrays.  [DUint] stands for the unsigned types torch has no tensor for
    (uint16/32/64), [DText] for numpy unicode or object arrays (no HDF5 equivalent), [DBytes] for
    numpy 'S' arrays (HDF5 yes, torch no). *)
Inductive dtype := DBool | DInt | DUint | DF32 | DF64 | DC64 | DC128 | DBytes | DText.
Definition h5_ok (t : dtype) : bool := match t with DText => false | _ => true end.
Definition torch_ok (t : dtype) : bool :=
  match t with DUint | DBytes | DText => false | _ => true end.

Section H5.
Context {E : Type}.      (* array elements, never inspected by the code *)

Record arr := mkArr { a_dt : dtype; a_shape : list nat; a_data : list E }.

(** Python values that can occur in a dictionary.  [PNum]: Python number or numpy scalar
    (numbers.Number, np.bool_).  [PTensor a rg]: torch tensor, [rg] = requires_grad.  [POther]:
    anything else (list, None, bytes, ...). *)
Inductive pyv :=
| PNum (t : dtype) (e : E)
| PArr (a : arr)
| PTensor (a : arr) (rg : bool)
| PStr (s : string)
| PDict (d : list (string * pyv))
| POther (n : nat).

(** HDF5 objects: datasets (array, variable-length string, array of such strings) and groups. *)
Inductive h5 :=
| HArr (a : arr)
| HStr (s : string)
| HStrArr (l : list string)
| HGrp (g : list (string * h5)).

Fixpoint lookup {V} (k : string) (l : list (string * V)) : option V :=
  match l with
  | [] => None
  | (k', v) :: l' => if String.eqb k k' then Some v else lookup k l'
  end.

(** Path components of a key: HDF5 splits names at '/', ignoring empty components and ".".
    (A leading '/', which HDF5 resolves from the file root, is not modelled.) *)
Fixpoint split_slash (s : string) : list string :=
  match s with
  | EmptyString => [""]
  | String c s' =>
      if Ascii.eqb c "/" then "" :: split_slash s'
      else match split_slash s' with
           | [] => [String c ""]
           | w :: ws => String c w :: ws
           end
  end.
Definition components (k : string) : list string :=
  filter (fun c => negb (String.eqb c "" || String.eqb c ".")) (split_slash k).

(** Groups list their members by name. *)
Fixpoint insert (k : string) (n : h5) (g : list (string * h5)) : list (string * h5) :=
  match g with
  | [] => [(k, n)]
  | (k', n') :: g' => match String.compare k k' with
                      | Lt => (k, n) :: g
                      | _ => (k', n') :: insert k n g'
                      end
  end.
Fixpoint replace (k : string) (n : h5) (g : list (string * h5)) : list (string * h5) :=
  match g with
  | [] => []
  | (k', n') :: g' => if String.eqb k k' then (k, n) :: g' else (k', n') :: replace k n g'
  end.
(** create_dataset / create_group: intermediate groups are created, an existing name is an
    error.  The empty name is an error (h5py: anonymous dataset, not modelled). *)
Fixpoint put (p : list string) (n : h5) (g : list (string * h5)) : res (list (string * h5)) :=
  match p with
  | [] => Raise ValueError
  | [k] => match lookup k g with Some _ => Raise ValueError | None => Ok (insert k n g) end
  | k :: p' =>
      match lookup k g with
      | Some (HGrp g') => rmap (fun x => replace k (HGrp x) g) (put p' n g')
      | Some _ => Raise ValueError
      | None => rmap (fun x => insert k (HGrp x) g) (put p' n [])
      end
  end.

(** Variable-length strings cannot hold NUL characters. *)
Fixpoint no_nul (s : string) : bool :=
  match s with EmptyString => true | String c s' => negb (Ascii.eqb c "000") && no_nul s' end.

(** nested_dict_to_h5 (873-906): the HDF5 object created for one value, and the loop over keys
    (data.py:888-904).  The contents of the file after an exception are not modelled. *)
Definition write_arr (a : arr) : res h5 := if h5_ok (a_dt a) then Ok (HArr a) else Raise TypeError.
Fixpoint write_value (v : pyv) : res h5 :=
  match v with
  | PNum t e => Ok (HArr (mkArr t [] [e]))
  | PArr a => write_arr a
  | PTensor a _ => write_arr a                    (* .detach().cpu().numpy() *)
  | PStr s => if no_nul s then Ok (HStr s) else Raise ValueError
  | PDict d =>
      rmap HGrp ((fix go (d : list (string * pyv)) (g : list (string * h5)) :=
        match d with
        | [] => Ok g
        | (k, v) :: d' => rbind (write_value v) (fun n => rbind (put (components k) n g) (go d'))
        end) d [])
  | POther _ => Raise ValueError
  end.
Fixpoint write_items (d : list (string * pyv)) (g : list (string * h5)) : res (list (string * h5)) :=
  match d with
  | [] => Ok g
  | (k, v) :: d' => rbind (write_value v) (fun n => rbind (put (components k) n g) (write_items d'))
  end.
Definition nested_dict_to_h5 (d : list (string * pyv)) : res (list (string * h5)) := write_items d [].

(** h5_to_nested_dict (909-949).  A scalar dataset reads back as a numpy scalar; an array of
    strings yields its first element (IndexError if there is none). *)
Fixpoint read_value (n : h5) : res pyv :=
  match n with
  | HArr a => match a_shape a, a_data a with
              | [], [e] => Ok (PNum (a_dt a) e)
              | _, _ => Ok (PArr a)
              end
  | HStr s => Ok (PStr s)
  | HStrArr (s :: _) => Ok (PStr s)
  | HStrArr [] => Raise IndexError
  | HGrp g =>
      rmap PDict ((fix go (g : list (string * h5)) :=
        match g with
        | [] => Ok []
        | (k, n) :: g' => rbind (read_value n) (fun v => rmap (cons (k, v)) (go g'))
        end) g)
  end.
Fixpoint read_items (g : list (string * h5)) : res (list (string * pyv)) :=
  match g with
  | [] => Ok []
  | (k, n) :: g' => rbind (read_value n) (fun v => rmap (cons (k, v)) (read_items g'))
  end.
Definition h5_to_nested_dict (g : list (string * h5)) : res (list (string * pyv)) := read_items g.

(** nested_dict_to_numpy (952-981): .cpu().numpy() without detach raises RuntimeError on a tensor
    that requires grad.  nested_dict_to_torch (983-1020). *)
Fixpoint to_numpy (v : pyv) : res pyv :=
  match v with
  | PNum _ _ | PArr _ | PStr _ => Ok v
  | PTensor a rg => if rg then Raise RuntimeError else Ok (PArr a)
  | PDict d =>
      rmap PDict ((fix go (d : list (string * pyv)) :=
        match d with
        | [] => Ok []
        | (k, v) :: d' => rbind (to_numpy v) (fun w => rmap (cons (k, w)) (go d'))
        end) d)
  | POther _ => Raise ValueError
  end.
Definition as_tensor (a : arr) : res pyv := if torch_ok (a_dt a) then Ok (PTensor a false) else Raise TypeError.
Fixpoint to_torch (v : pyv) : res pyv :=
  match v with
  | PNum t e => as_tensor (mkArr t [] [e])
  | PArr a => as_tensor a
  | PTensor a rg => Ok (PTensor a rg)
  | PStr s => Ok v
  | PDict d =>
      rmap PDict ((fix go (d : list (string * pyv)) :=
        match d with
        | [] => Ok []
        | (k, v) :: d' => rbind (to_torch v) (fun w => rmap (cons (k, w)) (go d'))
        end) d)
  | POther _ => Raise ValueError
  end.
Fixpoint mapm {A B} (f : A -> res B) (d : list (string * A)) : res (list (string * B)) :=
  match d with
  | [] => Ok []
  | (k, v) :: d' => rbind (f v) (fun w => rmap (cons (k, w)) (mapm f d'))
  end.
Definition nested_dict_to_numpy (d : list (string * pyv)) : res (list (string * pyv)) := mapm to_numpy d.
Definition nested_dict_to_torch (d : list (string * pyv)) : res (list (string * pyv)) := mapm to_torch d.

(** What CDIModel keeps: state_dict() (parameters and buffers, detached), loss_history, epoch,
    training_history; and the names written for information.  [fl] embeds a loss, [int_of] and
    [of_int] the epoch number. *)
Record mstate := mkMs {
  ms_params : list (string * arr);
  ms_loss_history : list E;
  ms_epoch : Z;
  ms_training : string
}.
Context (of_int : Z -> E) (int_of : E -> Z).

(** save_results (base.py:189-202). *)
Definition save_results (m : mstate) (loss_fn cls version : string) : res (list (string * pyv)) :=
  rbind (nested_dict_to_numpy (map (fun kv => (fst kv, PTensor (snd kv) false)) (ms_params m))) (fun sd =>
  Ok [("state_dict", PDict sd);
      ("loss_history", PArr (mkArr DF64 [length (ms_loss_history m)] (ms_loss_history m)));
      ("epoch", PNum DInt (of_int (ms_epoch m)));
      ("training_history", PStr (ms_training m));
      ("loss_function", PStr loss_fn);
      ("model_class", PStr cls);
      ("cdtools_version", PStr version)]).

(** Module.load_state_dict(strict=False): entries whose name the model has are copied (shapes must
    agree); the others and missing ones are ignored.  Every mismatch is collected and one
    RuntimeError raised. *)
Fixpoint load_params (ps : list (string * arr)) (sd : list (string * pyv)) : res (list (string * arr)) :=
  match ps with
  | [] => Ok []
  | (k, a) :: ps' =>
      match lookup k sd with
      | Some (PTensor b _) =>
          if list_eq_dec Nat.eq_dec (a_shape a) (a_shape b)
          then rmap (cons (k, mkArr (a_dt a) (a_shape a) (a_data b))) (load_params ps' sd)
          else Raise RuntimeError
      | Some _ => Raise RuntimeError
      | None => rmap (cons (k, a)) (load_params ps' sd)
      end
  end.
(** _load_results_dict (base.py:230-235). *)
Definition load_results (m : mstate) (d : list (string * pyv)) : res mstate :=
  match lookup "state_dict" d with
  | None => Raise KeyError
  | Some (PDict sd0) =>
      rbind (nested_dict_to_torch sd0) (fun sd =>
      rbind (load_params (ms_params m) sd) (fun ps =>
      rbind (match lookup "loss_history" d with
             | None => Ok [] | Some (PArr a) => Ok (a_data a) | Some _ => Raise TypeError end) (fun lh =>
      rbind (match lookup "epoch" d with
             | None => Ok 0%Z | Some (PNum _ e) => Ok (int_of e) | Some _ => Raise TypeError end) (fun ep =>
      rbind (match lookup "training_history" d with
             | None => Ok "" | Some (PStr s) => Ok s | Some _ => Raise TypeError end) (fun th =>
      Ok (mkMs ps lh ep th))))))
  | Some _ => Raise AttributeError
  end.
End H5.
Arguments arr : clear implicits.
Arguments pyv : clear implicits.
Arguments h5 : clear implicits.
Arguments mstate : clear implicits.
