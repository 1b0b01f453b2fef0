(** models/base.py: compare (1054-1161), save_figures (1021-1051), store_detector_geometry and get_detector_geometry
    (118-167).
    Simplified: a model is its parameters (a value that changes while it is reconstructed) and the function that
    simulates a pattern; exact reals; with logarithmic=True pixel values are positive.  The colour limits and colour bars
    are not modelled.  matplotlib's Slider is taken to start at 0 (valinit = 0.5 rounded to a step), to clip dragged values
    to its range, to call back on set_val always and on drags when the value changes. *)
From Verif Require Import Base.
Local Open Scope Z_scope.

Definition pic := nat -> nat -> R.

Section Compare.
(** The parameters of the model; a dataset: its length and its measured patterns. *)
Variable params : Type.
Record dataset := { ds_len : Z; measured : Z -> pic }.
(** self.forward(dataset[idx:idx+1]): the (first) simulated pattern. *)
Variable forward : params -> dataset -> Z -> pic.
Variable mask : option pic.
Variable logarithmic : bool.

(** A window: what the figure and its axes hold. *)
Record shown := { sim : pic; meas : pic; diff : pic }.
Record window := { w_data : dataset; pattern_idx : Z; pics : option shown }.
(** All windows of one model, the latest first; self.slider: its value, and its callback is that of the latest window. *)
Record state := { par : params; windows : list window; slider : Z }.

(** 1086-1140 (the function update), for the window opened at depth n of the list. *)
Definition draw (p : params) (d : dataset) (idx : Z) : shown :=
  let sc := fun x : R => if logarithmic then (ln x / ln 10)%R else x in
  let mk := fun i j => match mask with None => 1%R | Some m => m i j end in
  let sim_data := fun i j => sc (forward p d idx i j) in
  let meas_data := fun i j => sc (measured d idx i j) in
  {| sim := sim_data; meas := fun i j => (meas_data i j * mk i j)%R; diff := fun i j => ((sim_data i j - meas_data i j) * mk i j)%R |}.
Definition update_window (p : params) (w : window) (idx : Z) : res window :=
  if ds_len (w_data w) =? 0 then Raise ZeroDivisionError else
  let idx := idx mod ds_len (w_data w) in
  Ok {| w_data := w_data w; pattern_idx := idx; pics := Some (draw p (w_data w) idx) |}.
Fixpoint at_window (n : nat) (ws : list window) (f : window -> res window) : res (list window) :=
  match ws, n with
  | [], _ => Raise IndexError
  | w :: r, O => rbind (f w) (fun w => Ok (w :: r))
  | w :: r, S n => rbind (at_window n r f) (fun r => Ok (w :: r))
  end.
Definition update (n : nat) (idx : Z) (s : state) : res state :=
  rbind (at_window n (windows s) (fun w => update_window (par s) w idx)) (fun ws => Ok {| par := par s; windows := ws; slider := slider s |}).
(** Slider.set_val: the value, then the callback of the latest window. *)
Definition set_val (v : Z) (s : state) : res state := update 0 v {| par := par s; windows := windows s; slider := v |}.

Inductive direction := Up | Down | Other.
Inductive event :=
| Open (d : dataset)                     (* compare is called *)
| Action (n : nat) (d : direction)       (* a key is pressed in, or the wheel turned over, a window *)
| Drag (v : Z)                           (* the slider of the latest window is dragged *)
| Work (p : params).                     (* the model goes on being reconstructed *)

Definition idx_of (n : nat) (s : state) : Z := match nth_error (windows s) n with Some w => pattern_idx w | None => 0 end.
Definition clip (v lo hi : Z) : Z := Z.max lo (Z.min v hi).
Definition step (e : event) (s : state) : res state :=
  match e with
  | Open d => (* 1073-1075, 1143-1161 *)
      update 0 0 {| par := par s; windows := {| w_data := d; pattern_idx := 0; pics := None |} :: windows s; slider := 0 |}
  | Action n d => (* 1146-1158 *)
      rbind (match d with Up => update n (idx_of n s - 1) s | Down => update n (idx_of n s + 1) s | Other => Ok s end)
            (fun s => set_val (idx_of n s) s)
  | Drag v => match windows s with
              | [] => Raise IndexError
              | w :: _ => let v := clip v 0 (ds_len (w_data w) - 1) in if v =? slider s then Ok s else set_val v s
              end
  | Work p => Ok {| par := p; windows := windows s; slider := slider s |}
  end.
Fixpoint run (es : list event) (s : state) : res state :=
  match es with [] => Ok s | e :: es => rbind (step e s) (run es) end.
Definition fresh (p : params) : state := {| par := p; windows := []; slider := 0 |}.
End Compare.
Arguments Open {params} d. Arguments Action {params} n d. Arguments Drag {params} v. Arguments Work {params} p.

(** save_figures: the files written, newest first; a figure is anything with a panel label (if any), and the title of its
    first axes (if any). *)
Record figure (A : Type) := { panel_label : option string; first_title : option string; content : A }.
Arguments panel_label {A} f. Arguments first_title {A} f. Arguments content {A} f.
Definition label_of {A} (f : figure A) : string :=
  match panel_label f with
  | Some l => if String.eqb l "" then match first_title f with Some t => t | None => "figure"%string end else l
  | None => match first_title f with Some t => t | None => "figure"%string end end.
Definition save_figures {A} (prefix extension : string) (figs : list (figure A)) (files : string -> option A) : string -> option A :=
  fold_left (fun fs f => fun name => if String.eqb name (prefix ++ label_of f ++ extension)%string then Some (content f) else fs name) figs files.

(** store_detector_geometry: the buffers; a dictionary: absent keys and None are the same for distance and corner. *)
Record geometry (B V : Type) := { g_basis : option B; g_distance : option V; g_corner : option B }.
Arguments g_basis {B V} g. Arguments g_distance {B V} g. Arguments g_corner {B V} g.
Definition no_buffers {B V} : geometry B V := {| g_basis := None; g_distance := None; g_corner := None |}.
Definition store_detector_geometry {B V} (castB : B -> B) (castV : V -> V) (g buffers : geometry B V) : res (geometry B V) :=
  match g_basis g with
  | None => Raise KeyError
  | Some b => Ok {| g_basis := Some (castB b);
                    g_distance := match g_distance g with Some d => Some (castV d) | None => g_distance buffers end;
                    g_corner := match g_corner g with Some c => Some (castB c) | None => g_corner buffers end |}
  end.
Definition get_detector_geometry {B V} (buffers : geometry B V) : geometry B V := buffers.
