(** models/base.py: inspect (642-716), _get_canvas_callback_ids (736-754), _inspect_individual_figures (757-838),
    _inspect_panel (841-960).
    Simplified: titles inside the axes, figure sizes, grid positions, draw() / pause() and window raising are left
    out; pyplot is a collection of open figures addressed by title, each with the callbacks of its canvas. *)
From Verif Require Import Base.
From Coq Require Import Reals.

Section Inspect.
Context {M D : Type}.     (* states of the model; datasets *)
(** An entry of plot_list, or of a panel's 'plots'.  The callables receive the model, and the dataset if they are
    called with one.  Drawing connects some number of callbacks to the canvas. *)
Record plot := { title : nat; level : R; condition : option (M -> option (option D) -> res bool); plot_func : M -> option D -> res unit * nat }.
Record panel := { panel_title : nat; panel_level : R; panel_condition : option (M -> option (option D) -> res bool); plots : list plot }.

(** A figure: the ids of the callbacks on its canvas, the next free id, and _cdtools_render_cids. *)
Record figure := { cids : list nat; next_cid : nat; render_cids : list nat }.
Record state := {
  open_figs : list (nat * figure);      (* pyplot's open figures, by title *)
  figs : list nat;                      (* self.figs *)
  last_inspected : option R             (* self.last_inspected_time *)
}.
Definition get (s : list (nat * figure)) (t : nat) : option figure := option_map snd (find (fun x => Nat.eqb (fst x) t) s).
Definition fignum_exists (s : list (nat * figure)) (t : nat) : bool := match get s t with Some _ => true | None => false end.
Definition put (s : list (nat * figure)) (t : nat) (f : figure) : list (nat * figure) :=
  if fignum_exists s t then map (fun x => if Nat.eqb (fst x) t then (t, f) else x) s else s ++ [(t, f)].

(** The callbacks a backend connects to a fresh canvas. *)
Variable base : nat.
Definition fresh : figure := {| cids := seq 0 base; next_cid := base; render_cids := [] |}.
(** plt.figure(title) *)
Definition plt_figure (s : list (nat * figure)) (t : nat) : figure := match get s t with Some f => f | None => fresh end.
Definition connect (f : figure) (k : nat) : figure :=
  {| cids := cids f ++ seq (next_cid f) k; next_cid := next_cid f + k; render_cids := render_cids f |}.

(** The callables return or raise (res).  The try: condition(self) / except TypeError: condition(self, dataset) blocks (792-799, 876-883, 919-926). *)
Definition check (c : option (M -> option (option D) -> res bool)) (m : M) (d : option D) : res bool :=
  match c with None => Ok true | Some c => match c m None with Raise TypeError => c m (Some d) | r => r end end.
(** The try: plot_func(self, fig) / except TypeError: plot_func(self, fig, dataset) blocks: the callbacks connected,
    whether the plot function completed, and what propagates.  quiet: _inspect_individual_figures (812-829) passes
    over every exception, _inspect_panel (930-946) only over those of the second attempt. *)
Definition draw (quiet : bool) (p : plot) (m : M) (d : option D) : nat * bool * res unit :=
  match plot_func p m None with
  | (Ok _, k) => (k, true, Ok tt)
  | (Raise TypeError, k) => match d with
                            | None => (k, false, Ok tt)
                            | Some ds => match plot_func p m (Some ds) with
                                         | (Ok _, k') => (k + k', true, Ok tt)
                                         | (Raise e, k') => (k + k', false, if is_Exception e then Ok tt else Raise e)
                                         end
                            end
  | (Raise e, k) => (k, false, if quiet && is_Exception e then Ok tt else Raise e)
  end.

(** What has happened so far: open figures, figures rendered, plots drawn to completion. *)
Record progress := { now_open : list (nat * figure); rendered : list nat; drawn : list (nat * plot) }.
(** plot['plot_level'] > self.plot_level; self.plot_level = None is infinity. *)
Definition level_ok (plot_level : option R) (l : R) : bool := match plot_level with None => true | Some pl => if Rle_dec l pl then true else false end.
(** self.last_inspected_time is not None and not replot_all and not plt.fignum_exists(title) *)
Definition left_closed (last : option R) (replot_all : bool) (s : list (nat * figure)) (t : nat) : bool :=
  match last with Some _ => negb replot_all && negb (fignum_exists s t) | None => false end.

(** _inspect_individual_figures (757-838) *)
Fixpoint individual (plot_level : option R) (last : option R) (replot_all : bool) (m : M) (d : option D) (ps : list plot) (g : progress) : progress * res unit :=
  match ps with
  | [] => (g, Ok tt)
  | p :: ps =>
    let continue := individual plot_level last replot_all m d ps in
    if negb (level_ok plot_level (level p)) then continue g else
    match check (condition p) m d with
    | Ok false => continue g
    | Ok true =>
        if left_closed last replot_all (now_open g) (title p) then continue g else
        let fig := plt_figure (now_open g) (title p) in
        let '(k, done, r) := draw true p m d in
        let opened := put (now_open g) (title p) (connect fig k) in
        let drawn' := if done then drawn g ++ [(title p, p)] else drawn g in
        match r with
        | Ok _ => continue {| now_open := opened; rendered := rendered g ++ [title p]; drawn := drawn' |}
        | e => ({| now_open := opened; rendered := rendered g; drawn := drawn' |}, e)
        end
    | Raise e => (g, Raise e)
    end
  end.

(** The plots of one panel (916-946): callbacks connected, plots drawn, what propagates. *)
Fixpoint panel_plots (m : M) (d : option D) (ps : list plot) : nat * list plot * res unit :=
  match ps with
  | [] => (0, [], Ok tt)
  | p :: ps =>
    match check (condition p) m d with
    | Ok false => panel_plots m d ps
    | Ok true =>
        let '(k, done, r) := draw false p m d in
        match r with
        | Ok _ => let '(k', l, r') := panel_plots m d ps in (k + k', (if done then [p] else []) ++ l, r')
        | e => (k, (if done then [p] else []), e)
        end
    | Raise e => (0, [], Raise e)
    end
  end.
(** _inspect_panel (841-960), on the list that is still to be visited (the caller reverses it, 870). *)
Definition disconnect (f : figure) : figure :=     (* 903-904 *)
  {| cids := filter (fun c => negb (existsb (Nat.eqb c) (render_cids f))) (cids f); next_cid := next_cid f; render_cids := render_cids f |}.
Definition note_cids (before : list nat) (f : figure) : figure :=     (* 950-952 *)
  {| cids := cids f; next_cid := next_cid f; render_cids := filter (fun c => negb (existsb (Nat.eqb c) before)) (cids f) |}.
Fixpoint panels (plot_level : option R) (last : option R) (replot_all : bool) (m : M) (d : option D) (ps : list panel) (g : progress) : progress * res unit :=
  match ps with
  | [] => (g, Ok tt)
  | p :: ps =>
    let continue := panels plot_level last replot_all m d ps in
    if negb (level_ok plot_level (panel_level p)) then continue g else
    match check (panel_condition p) m d with
    | Ok false => continue g
    | Ok true =>
        if left_closed last replot_all (now_open g) (panel_title p) then continue g else
        let fig := disconnect (plt_figure (now_open g) (panel_title p)) in
        let before := cids fig in
        let '(k, l, r) := panel_plots m d (plots p) in
        let fig' := connect fig k in
        let drawn' := drawn g ++ map (pair (panel_title p)) l in
        match r with
        | Ok _ => continue {| now_open := put (now_open g) (panel_title p) (note_cids before fig'); rendered := rendered g ++ [panel_title p]; drawn := drawn' |}
        | e => ({| now_open := put (now_open g) (panel_title p) fig'; rendered := rendered g; drawn := drawn' |}, e)
        end
    | Raise e => (g, Raise e)
    end
  end.

(** A registered model class: plot_panel_list, plot_list, panel_plot_mode and plot_level. *)
Record config := { plot_panel_list : list panel; plot_list : list plot; panel_plot_mode : bool; plot_level : option R }.
(** 690-699 *)
Definition flatten (l : list panel) : list plot :=
  concat (map (fun q => map (fun p => {| title := title p; level := panel_level q; condition := condition p; plot_func := plot_func p |}) (plots q)) l).
(** inspect (642-716).  clock0: time.time() at the check; clock1: at the end. *)
Definition inspect (c : config) (m : M) (d : option D) (replot_all : bool) (min_interval : option R) (clock0 clock1 : R) (s : state) : state * list (nat * plot) * res unit :=
  let skip := match min_interval, last_inspected s with Some i, Some t => if Rlt_dec (clock0 - t) i then true else false | _, _ => false end in
  if skip then (s, [], Ok tt) else
  let g0 := {| now_open := open_figs s; rendered := []; drawn := [] |} in
  let last := last_inspected s in
  let '(g, r) :=
    if panel_plot_mode c then
      match panels (plot_level c) last replot_all m d (rev (plot_panel_list c)) g0 with
      | (g, Ok _) => individual (plot_level c) last replot_all m d (plot_list c) g
      | e => e
      end
    else individual (plot_level c) last replot_all m d (flatten (plot_panel_list c) ++ plot_list c) g0 in
  match r with
  | Ok _ => ({| open_figs := now_open g; figs := rendered g; last_inspected := Some clock1 |}, drawn g, Ok tt)
  | e => ({| open_figs := now_open g; figs := figs s; last_inspected := last |}, drawn g, e)
  end.

(** What can happen between calls: the user closes a figure, or opens one, or connects callbacks to one. *)
Inductive event :=
  | Inspect (m : M) (d : option D) (replot_all : bool) (min_interval : option R) (clock0 clock1 : R)
  | Close (t : nat)
  | Open (t : nat).
Definition step (c : config) (s : state) (e : event) : state :=
  match e with
  | Inspect m d r i t0 t1 => fst (fst (inspect c m d r i t0 t1 s))
  | Close t => {| open_figs := filter (fun x => negb (Nat.eqb (fst x) t)) (open_figs s); figs := figs s; last_inspected := last_inspected s |}
  | Open t => {| open_figs := put (open_figs s) t (plt_figure (open_figs s) t); figs := figs s; last_inspected := last_inspected s |}
  end.
Definition run (c : config) (s : state) (es : list event) : state := fold_left (step c) es s.
End Inspect.
Arguments plot M D : clear implicits. Arguments panel M D : clear implicits. Arguments config M D : clear implicits. Arguments event M D : clear implicits. Arguments progress M D : clear implicits.
