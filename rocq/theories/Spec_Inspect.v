(** Specification vocabulary for model.inspect(). *)
From Verif Require Import Base Model_Inspect.

Section Spec.
Context {M D : Type}.
(** A condition holds if there is none, or if it returns True - called with the model, or with the model and the
    dataset if it does not accept the former. *)
Definition holds (c : option (M -> option (option D) -> res bool)) (m : M) (d : option D) : Prop :=
  match c with None => True | Some c => c m None = Ok true \/ (c m None = Raise TypeError /\ c m (Some d) = Ok true) end.
Definition level_shown (plot_level : option R) (l : R) : Prop := match plot_level with None => True | Some pl => (l <= pl)%R end.
Definition is_open (s : state) (t : nat) : Prop := In t (map fst (open_figs s)).
(** A figure is to be drawn if it is registered at a shown level, its condition holds, and it has not been closed
    (or was never asked for, or everything is to be replotted). *)
Definition due (s : state) (replot_all : bool) (t : nat) : Prop := last_inspected s = None \/ replot_all = true \/ is_open s t.
Definition plot_due (pl : option R) (s : state) (replot_all : bool) (m : M) (d : option D) (p : plot M D) : Prop :=
  level_shown pl (level p) /\ holds (condition p) m d /\ due s replot_all (title p).
Definition panel_due (pl : option R) (s : state) (replot_all : bool) (m : M) (d : option D) (p : panel M D) : Prop :=
  level_shown pl (panel_level p) /\ holds (panel_condition p) m d /\ due s replot_all (panel_title p).
(** The elements of a list that satisfy a property, in order. *)
Definition selected {A} (P : A -> Prop) (l l' : list A) : Prop := exists f, (forall x, f x = true <-> P x) /\ l' = filter f l.
(** The call is refused because the previous one is too recent. *)
Definition too_soon (s : state) (min_interval : option R) (clock0 : R) : Prop :=
  exists i t, min_interval = Some i /\ last_inspected s = Some t /\ (clock0 - t < i)%R.
(** A plot function succeeds: with the model alone, or - if it does not accept that - with the dataset. *)
Definition succeeds (p : plot M D) (m : M) (d : option D) : Prop :=
  fst (plot_func p m None) = Ok tt \/ (fst (plot_func p m None) = Raise TypeError /\ exists ds, d = Some ds /\ fst (plot_func p m (Some ds)) = Ok tt).
(** Number of callbacks a plot function connects in its one or two attempts. *)
Definition connects (p : plot M D) (m : M) (d : option D) : nat :=
  snd (plot_func p m None) + match fst (plot_func p m None), d with Raise TypeError, Some ds => snd (plot_func p m (Some ds)) | _, _ => 0 end.
Definition start : state := {| open_figs := []; figs := []; last_inspected := None |}.
(** States reached from the start by any history of calls that return, of closing figures and opening others. *)
Inductive reached (base : nat) (c : config M D) : state -> Prop :=
  | reached_start : reached base c start
  | reached_close s t : reached base c s -> reached base c (step base c s (Close t))
  | reached_open s t : reached base c s -> reached base c (step base c s (Open t))
  | reached_inspect s m d r i t0 t1 s' log : reached base c s -> inspect base c m d r i t0 t1 s = (s', log, Ok tt) -> reached base c s'.
End Spec.
