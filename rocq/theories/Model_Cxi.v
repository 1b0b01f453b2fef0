(** Model of the CXI reader and writer (src/cdtools/tools/data/data.py:54-870) and of
    CDataset / Ptycho2DDataset to_cxi and from_cxi (datasets/base.py:178-261,
    datasets/ptycho_2d_dataset.py:132-215). *)
From Verif Require Import Base.
From Flocq Require Import Core.
Local Open Scope string_scope.

(** np.float32(x): rounding to the nearest binary32 number, ties to even.  Overflow to infinity is
    not modelled. *)
Definition f32 (x : R) : R := round radix2 (FLT_exp (-149) 24) ZnearestE x.

(** Real-valued arrays: element type, shape, elements in row-major order ([None] is NaN). *)
Inductive cdt := CF32 | CF64 | CI.
Record carr := mkC { c_dt : cdt; c_shape : list nat; c_data : list (option R) }.
Definition scalar (dt : cdt) (x : R) : carr := mkC dt [] [Some x].
Definition to_f32 (a : carr) : carr := mkC CF32 (c_shape a) (map (option_map f32) (c_data a)).
Definition neg_arr (a : carr) : carr := mkC (c_dt a) (c_shape a) (map (option_map Ropp) (c_data a)).

(** An HDF5 file as a table of absolute paths.  Soft links are followed once (the code only links
    to datasets).  [NMat] is a real matrix (basis vectors), [NMask] an integer image, [NBytes] a
    byte string; [NArr]'s second component is the "axes" attribute. *)
Definition path := list string.
Inductive node :=
| NGroup
| NArr (a : carr) (axes : option string)
| NMask (shape : list nat) (l : list Z)
| NMat (rows : list (list R))
| NBytes (s : string)
| NSoft (p : path).
Definition file := list (path * node).
Definition path_eqb (p q : path) : bool := if list_eq_dec string_dec p q then true else false.
Fixpoint find (p : path) (f : file) : option node :=
  match f with
  | [] => None
  | (q, n) :: f' => if path_eqb p q then Some n else find p f'
  end.
Definition resolve (p : path) (f : file) : option node :=
  match p with
  | [] => Some NGroup
  | _ => match find p f with
         | Some (NSoft q) => match find q f with Some (NSoft _) => None | r => r end
         | r => r
         end
  end.
Definition contains (p : path) (f : file) : bool := match resolve p f with Some _ => true | None => false end.
Definition getitem (p : path) (f : file) : res node :=
  match resolve p f with Some n => Ok n | None => Raise KeyError end.
Definition parent (p : path) : path := removelast p.
(** create_dataset / create_group / group[key] = value: the parent is looked up first (KeyError),
    an existing name is an error. *)
Definition create (p : path) (n : node) (f : file) : res file :=
  match getitem (parent p) f with
  | Ok NGroup => match find p f with Some _ => Raise ValueError | None => Ok ((p, n) :: f) end
  | Ok _ => Raise TypeError
  | Raise e => Raise e
  end.
Definition ensure_group (p : path) (f : file) : res file :=
  if contains p f then Ok f else create p NGroup f.

Definition e1 : path := ["entry_1"].
Definition i1 : path := ["entry_1"; "instrument_1"].
Definition det (k : string) : path := ["entry_1"; "instrument_1"; "detector_1"; k].
Definition det1 : path := ["entry_1"; "instrument_1"; "detector_1"].
Definition src (k : string) : path := ["entry_1"; "instrument_1"; "source_1"; k].
Definition data1 (k : string) : path := ["entry_1"; "data_1"; k].
Definition geo (k : string) : path := ["entry_1"; "sample_1"; "geometry_1"; k].

(** create_cxi (497-509). *)
Definition create_cxi : file :=
  [(e1, NGroup); (["number_of_entries"], NArr (scalar CI 1) None); (["cxi_version"], NArr (scalar CI 160) None)].
(** h5py.File(path, 'w') *)
Definition bare_file : file := [].

Local Open Scope res_scope.
Definition ensure_detector (f : file) : res file :=
  do f <- ensure_group i1 f; ensure_group det1 f.

(** add_source (578-598). *)
Definition add_source (wl : R) (f : file) : res file :=
  do f <- ensure_group i1 f;
  do f <- ensure_group ["entry_1"; "instrument_1"; "source_1"] f;
  do f <- create (src "wavelength") (NArr (scalar CF32 (f32 wl)) None) f;
  create (src "energy") (NArr (scalar CF32 (f32 (19864459 / 10 ^ 32 / wl))) None) f.

(** Transposing a 2 x 3 basis (add_detector 630-631, get_detector_geometry 224-225). *)
Definition norm_basis (m : list (list R)) : list (list R) :=
  match m with
  | [[a; b; c]; [d; e; g]] => [[a; d]; [b; e]; [c; g]]
  | _ => m
  end.
Definition col (j : nat) (m : list (list R)) : list R := map (fun r => nth j r 0%R) m.
Definition vnorm (v : list R) : R := sqrt (lsum (map (fun x => x * x)%R v)).

(** add_detector (602-641). *)
Definition add_detector (distance : R) (basis : list (list R)) (corner : option carr) (f : file) : res file :=
  do f <- ensure_detector f;
  do f <- create (det "distance") (NArr (scalar CF32 (f32 distance)) None) f;
  let b := norm_basis basis in
  do f <- create (det "x_pixel_size") (NArr (scalar CF64 (vnorm (col 1 b))) None) f;
  do f <- create (det "y_pixel_size") (NArr (scalar CF64 (vnorm (col 0 b))) None) f;
  do f <- create (det "basis_vectors") (NMat b) f;
  match corner with None => Ok f | Some c => create (det "corner_position") (NArr c None) f end.

(** add_mask (644-673): 1 where mask == 0, else 0.  [nz] says which pixels of the given mask are
    nonzero. *)
Definition add_mask (shape : list nat) (nz : list bool) (f : file) : res file :=
  do f <- ensure_detector f;
  create (det "mask") (NMask shape (map (fun b : bool => if b then 0%Z else 1%Z) nz)) f.
(** add_qe_mask (676-710), add_dark (713-735). *)
Definition add_qe_mask (q : carr) (f : file) : res file :=
  do f <- ensure_detector f; create (det "qe_mask") (NArr q None) f.
Definition add_dark (d : carr) (f : file) : res file :=
  do f <- ensure_detector f; create (det "data_dark") (NArr d None) f.

(** add_data (738-779); the axes list is joined with ':'. *)
Definition join (l : list string) : string := String.concat ":" l.
Definition add_data (d : carr) (axes : option (list string)) (f : file) : res file :=
  do f <- ensure_group ["entry_1"; "data_1"] f;
  do f <- ensure_detector f;
  do f <- create (det "data") (NArr d (option_map join axes)) f;
  create (data1 "data") (NSoft (det "data")) f.

(** add_shot_to_shot_info (782-843) and add_ptycho_translations (846-870). *)
Definition add_shot_to_shot (d : carr) (name : string) (f : file) : res file :=
  do f <- ensure_group ["entry_1"; "sample_1"] f;
  do f <- ensure_group ["entry_1"; "sample_1"; "geometry_1"] f;
  do f <- ensure_group ["entry_1"; "data_1"] f;
  do f <- ensure_detector f;
  do f <- create (geo name) (NArr d None) f;
  do f <- create (data1 name) (NSoft (geo name)) f;
  create (det name) (NSoft (geo name)) f.
Definition add_translations (d : carr) (f : file) : res file := add_shot_to_shot (neg_arr d) "translation" f.

(** ---- readers ---- *)
Definition get_arr (p : path) (f : file) : res carr :=
  do n <- getitem p f; match n with NArr a _ => Ok a | _ => Raise TypeError end.
(** np.float32(dataset) for a scalar *)
Definition get_scalar (p : path) (f : file) : res (option R) :=
  do a <- get_arr p f;
  match c_data a with [x] => Ok (option_map f32 x) | _ => Raise TypeError end.

(** get_wavelength (164-186). *)
Definition get_wavelength (f : file) : res (option R) :=
  do _ <- getitem i1 f;
  if contains (src "wavelength") f then get_scalar (src "wavelength") f
  else if contains (src "energy") f then
    rmap (option_map (fun e => 19864459 / 10 ^ 32 / e)%R) (get_scalar (src "energy") f)
  else Raise KeyError.

Definition try_ {A} (r : res A) : option A := match r with Ok a => Some a | Raise _ => None end.
Definition cross (u v : list R) : list R :=
  match u, v with
  | [a; b; c], [d; e; g] => [b * g - c * e; c * d - a * g; a * e - b * d]%R
  | _, _ => []
  end.
Definition dot (u v : list R) : R := lsum (map (fun p => fst p * snd p)%R (combine u v)).

(** get_detector_geometry (189-269): distance, basis (3 x 2), corner. *)
Definition get_basis (f : file) : res (list (list R)) :=
  if contains (det "basis_vectors") f then
    do n <- getitem (det "basis_vectors") f;
    match n with NMat m => Ok (norm_basis m) | _ => Raise TypeError end
  else
    let g k := match try_ (get_scalar (det k) f) with Some (Some x) => Some x | _ => None end in
    match g "x_pixel_size", g "y_pixel_size" with
    | Some x, Some y => Ok [[0; - x]; [- y; 0]; [0; 0]]%R
    | Some x, None => Ok [[0; - x]; [- x; 0]; [0; 0]]%R
    | None, Some y => Ok [[0; - y]; [- y; 0]; [0; 0]]%R
    | None, None => Raise KeyError
    end.
Definition reals (a : carr) : list R := map (fun x => match x with Some r => r | None => 0%R end) (c_data a).
Definition get_detector_geometry (f : file) : res (option R * list (list R) * option carr) :=
  do _ <- getitem i1 f;
  do _ <- getitem det1 f;
  do b <- get_basis f;
  let distance := try_ (get_scalar (det "distance") f) in
  let corner := try_ (get_arr (det "corner_position") f) in
  match distance, corner with
  | Some d, c => Ok (d, b, c)
  | None, Some c =>
      let n := cross (col 0 b) (col 1 b) in
      Ok (Some (Rabs (dot (reals c) (map (fun x => x / vnorm n)%R n))), b, Some c)
  | None, None => Raise KeyError
  end.

(** get_mask (272-302): astype(uint32), kept iff 0 or 0x1000. *)
Definition keeps (z : Z) : bool :=
  let u := (z mod 2 ^ 32)%Z in Z.eqb u 0 || Z.eqb u 4096.
Definition get_mask (f : file) : res (option (list nat * list bool)) :=
  do _ <- getitem i1 f;
  if contains (det "mask") f then
    do n <- getitem (det "mask") f;
    match n with NMask sh l => Ok (Some (sh, map keeps l)) | _ => Raise TypeError end
  else Ok None.
(** get_qe_mask (305-338). *)
Definition get_qe_mask (f : file) : res (option carr) :=
  do _ <- getitem i1 f;
  if contains (det "qe_mask") f then rmap (fun a => Some (to_f32 a)) (get_arr (det "qe_mask") f) else Ok None.

(** get_dark (341-371): nanmean over all axes but the last two. *)
Definition prod (l : list nat) : nat := fold_right Nat.mul 1 l.
Definition nanmean (l : list (option R)) : option R :=
  let v := flat_map (fun x => match x with Some r => [r] | None => [] end) l in
  match v with [] => None | _ => Some (lsum v / INR (length v))%R end.
Definition mean_dark (a : carr) : carr :=
  let lead := firstn (length (c_shape a) - 2) (c_shape a) in
  let tail := skipn (length (c_shape a) - 2) (c_shape a) in
  mkC (match c_dt a with CI => CF64 | t => t end) tail
    (map (fun k => nanmean (map (fun m => nth (m * prod tail + k) (c_data a) None) (seq 0 (prod lead))))
         (seq 0 (prod tail))).
Definition get_dark (f : file) : res (option carr) :=
  do _ <- getitem i1 f;
  if contains (det "data_dark") f then rmap (fun a => Some (mean_dark a)) (get_arr (det "data_dark") f)
  else Ok None.

(** str.split(':'), str.strip(), str.lower() on ASCII strings (410-421). *)
Fixpoint split_colon (s : string) : list string :=
  match s with
  | EmptyString => [""]
  | String c s' =>
      if Ascii.eqb c ":" then "" :: split_colon s'
      else match split_colon s' with [] => [String c ""] | w :: ws => String c w :: ws end
  end.
Definition is_space (c : ascii) : bool :=
  let n := nat_of_ascii c in Nat.eqb n 32 || (Nat.leb 9 n && Nat.leb n 13) || (Nat.leb 28 n && Nat.leb n 31).
Definition lower_ascii (c : ascii) : ascii :=
  let n := nat_of_ascii c in if Nat.leb 65 n && Nat.leb n 90 then ascii_of_nat (n + 32) else c.
Fixpoint smap (g : ascii -> ascii) (s : string) : string :=
  match s with EmptyString => "" | String c s' => String (g c) (smap g s') end.
Fixpoint lstrip (s : string) : string :=
  match s with String c s' => if is_space c then lstrip s' else s | EmptyString => "" end.
Fixpoint rstrip (s : string) : string :=
  match s with
  | EmptyString => ""
  | String c s' => match rstrip s' with
                   | EmptyString => if is_space c then "" else String c ""
                   | r => String c r
                   end
  end.
Definition clean (s : string) : string := smap lower_ascii (rstrip (lstrip s)).

(** get_data (374-424). *)
Definition get_data (cut_zeros : bool) (f : file) : res (carr * option (list string)) :=
  let read p := do n <- getitem p f;
    match n with
    | NArr a ax =>
        Ok ((if cut_zeros then mkC (c_dt a) (c_shape a) (map (option_map (Rmax 0)) (c_data a)) else a),
            option_map (fun s => map clean (split_colon s)) ax)
    | _ => Raise TypeError
    end in
  if contains (data1 "data") f then read (data1 "data")
  else if contains (det "data") f then read (det "data")
  else Raise KeyError.

(** get_shot_to_shot_info (427-467) and get_ptycho_translations (470-489). *)
Definition get_shot_to_shot (name : string) (f : file) : res carr :=
  rmap to_f32
    (if contains (data1 name) f then get_arr (data1 name) f
     else if contains (geo name) f then get_arr (geo name) f
     else if contains det1 f then get_arr (det name) f
     else Raise KeyError).
Definition get_translations (f : file) : res carr := rmap neg_arr (get_shot_to_shot "translation" f).

(** ---- entry metadata (54-95, 512-535) ---- *)
Section Meta.
Context {DT : Type} (isoformat : DT -> string) (parse : string -> res DT).   (* dateutil.parser.parse *)
Inductive meta := MStr (s : string) | MDate (d : DT) | MArr (a : carr) | MOther.
(** np.bytes_(str) encodes as ASCII; anything else raises UnicodeEncodeError (a ValueError). *)
Fixpoint is_ascii (s : string) : bool :=
  match s with EmptyString => true | String c s' => Nat.ltb (nat_of_ascii c) 128 && is_ascii s' end.
Definition bytes_ (s : string) : res node := if is_ascii s then Ok (NBytes s) else Raise ValueError.
Definition add_entry1 (k : string) (v : meta) (f : file) : res file :=
  match v with
  | MStr s => do n <- bytes_ s; create ["entry_1"; k] n f
  | MDate d => do n <- bytes_ (isoformat d); create ["entry_1"; k] n f
  | MArr a => create ["entry_1"; k] (NArr a None) f
  | MOther => Ok f
  end.
Fixpoint add_entry_info (l : list (string * meta)) (f : file) : res file :=
  match l with [] => Ok f | (k, v) :: l' => do f <- add_entry1 k v f; add_entry_info l' f end.

Definition metadata_attrs : list string :=
  ["title"; "experiment_identifier"; "experiment_description"; "program_name"; "start_time"; "end_time"].
(** Every attribute, date field or not, goes through the date parser; only ValueError is caught. *)
Definition read_entry (f : file) (k : string) : res (list (string * meta)) :=
  if contains ["entry_1"; k] f then
    do n <- getitem ["entry_1"; k] f;
    match n with
    | NBytes s => match parse s with
                  | Ok d => Ok [(k, MDate d)]
                  | Raise ValueError => Ok [(k, MStr s)]
                  | Raise e => Raise e
                  end
    | _ => Raise AttributeError
    end
  else Ok [].
Fixpoint read_entries (f : file) (ks : list string) : res (list (string * meta)) :=
  match ks with
  | [] => Ok []
  | k :: ks' => do x <- read_entry f k; rmap (app x) (read_entries f ks')
  end.
Definition get_entry_info (f : file) : res (list (string * meta)) :=
  do _ <- getitem e1 f;
  do l <- read_entries f metadata_attrs;
  if contains ["entry_1"; "polarization_states"] f
  then rmap (fun a => l ++ [("polarization_states", MArr a)])%list (get_arr ["entry_1"; "polarization_states"] f)
  else Ok l.

(** ---- datasets ---- *)
(** The attributes of a Ptycho2DDataset that to_cxi writes; sample_info is taken to be None. *)
Record cdataset := mkCd {
  cd_entry : option (list (string * meta));
  cd_wavelength : option R;
  cd_geometry : option (R * list (list R) * option carr);
  cd_mask : option (list nat * list bool);
  cd_qe : option carr;
  cd_background : option carr
}.
Record pdataset := mkPd {
  pd_base : cdataset;
  pd_patterns : carr;
  pd_axes : option (list string);
  pd_translations : carr;
  pd_intensities : option carr
}.
Definition opt {A} (o : option A) (g : A -> file -> res file) (f : file) : res file :=
  match o with None => Ok f | Some x => g x f end.
(** CDataset.to_cxi with an open file (base.py:240-261). *)
Definition base_to_cxi (d : cdataset) (f : file) : res file :=
  do f <- opt (cd_entry d) add_entry_info f;
  do f <- opt (cd_wavelength d) add_source f;
  do f <- opt (cd_geometry d) (fun g => let '(dist, b, c) := g in add_detector dist b c) f;
  do f <- opt (cd_mask d) (fun m => add_mask (fst m) (snd m)) f;
  do f <- opt (cd_qe d) add_qe_mask f;
  opt (cd_background d) add_dark f.
(** ... with a path (236-238): the file is opened bare, without entry_1. *)
Definition base_to_cxi_path (d : cdataset) : res file := base_to_cxi d bare_file.
(** Ptycho2DDataset.to_cxi (188-215), open file and path. *)
Definition to_cxi (d : pdataset) (f : file) : res file :=
  do f <- base_to_cxi (pd_base d) f;
  do f <- add_data (pd_patterns d) (pd_axes d) f;
  do f <- add_translations (pd_translations d) f;
  opt (pd_intensities d) (fun a => add_shot_to_shot a "intensities") f.
Definition to_cxi_path (d : pdataset) : res file := to_cxi d create_cxi.

(** CDataset.from_cxi (194-220).  The distance is a float; NaN distances are not modelled
    (TypeError here). *)
Definition base_from_cxi (f : file) : res cdataset :=
  do en <- get_entry_info f;
  do wl <- get_wavelength f;
  do g <- get_detector_geometry f;
  do m <- get_mask f;
  do q <- get_qe_mask f;
  do b <- get_dark f;
  let '(dist, bs, c) := g in
  match dist, wl with
  | Some dd, Some w => Ok (mkCd (Some en) (Some w) (Some (dd, bs, c)) m q (option_map to_f32 b))
  | _, _ => Raise TypeError
  end.
(** Ptycho2DDataset.from_cxi (132-186), load_patterns=True.  A missing mask becomes all ones of the
    last two dimensions; 64-bit patterns become 32-bit; NaN pixels are not treated. *)
Definition last2 (l : list nat) : list nat := skipn (length l - 2) l.
Definition from_cxi (cut_zeros : bool) (f : file) : res pdataset :=
  do b <- base_from_cxi f;
  do tr <- get_translations f;
  do pa <- get_data cut_zeros f;
  let p := match c_dt (fst pa) with CF64 => to_f32 (fst pa) | _ => fst pa end in
  let m := match cd_mask b with
           | Some m => m
           | None => (last2 (c_shape p), repeat true (prod (last2 (c_shape p))))
           end in
  do ints <- match get_shot_to_shot "intensities" f with
             | Ok a => Ok (Some (to_f32 a))
             | Raise KeyError => Ok None
             | Raise e => Raise e
             end;
  Ok (mkPd (mkCd (cd_entry b) (cd_wavelength b) (cd_geometry b) (Some m) (cd_qe b) (cd_background b))
           p (snd pa) (to_f32 tr) ints).
End Meta.
Arguments meta : clear implicits.
Arguments cdataset : clear implicits.
Arguments pdataset : clear implicits.
