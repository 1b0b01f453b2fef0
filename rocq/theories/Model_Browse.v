(** tools/plotting/plotting.py: the browsing part of plot_image (116-485) and of plot_nanomap_with_images (993-1311).
    Simplified: matplotlib is the figure's attributes, the image on display, the slider positions and the callbacks;
    layout, titles, tick labels, colorbars, toolbar calls and draw() are left out (the geometry of the displayed image
    is Model_Frame).  An event is assumed to happen inside the figure's axes (event.inaxes). *)
From Verif Require Import Base.
Local Open Scope Z_scope.

(** What matplotlib's Slider does with a value the user drags to: clipped to [0, n - 1] (valstep 1). *)
Definition clip (n v : Z) : Z := Z.max 0 (Z.min v (n - 1)).

(** Replace entry k of a list; None is IndexError. *)
Fixpoint set_nth {A} (k : nat) (v : A) (l : list A) : option (list A) :=
  match k, l with
  | _, [] => None
  | O, _ :: r => Some (v :: r)
  | S k', a :: r => option_map (cons a) (set_nth k' v r)
  end.

Section PlotImage.
Context {D P : Type}.    (* two-dimensional images; what imshow is given *)

(** im: its extra dimensions im.shape[:-2] and the images at their indices; with the plot_func of the same call. *)
Record picture := { extra_dims : list Z; pixels : list Z -> D; func : D -> P }.

(** im[tuple(idx)]: numpy's bounds checks (indices here are never negative: see [odometer]).
    n_extra > 0 or not, the index has to have n_extra entries, all in range. *)
Fixpoint in_bounds (idx dims : list Z) : bool :=
  match idx, dims with
  | [], [] => true
  | i :: idx', n :: dims' => (0 <=? i) && (i <? n) && in_bounds idx' dims'
  | _, _ => false
  end.
Definition select (c : picture) (idx : list Z) : res D := if in_bounds idx (extra_dims c) then Ok (pixels c idx) else Raise IndexError.

(** 222-227: slider_axis_map, the axes longer than 1: (axis_idx, axis_len). *)
Definition slider_axis_map (c : picture) : list (nat * Z) :=
  filter (fun a => 1 <? snd a) (combine (seq 0 (List.length (extra_dims c))) (extra_dims c)).

(** A slider: the axis its callback writes to, its length, its position (307-320, 425-432). *)
Record slider := { s_axis : nat; s_len : Z; s_pos : Z }.
Definition at_pos (s : slider) (v : Z) : slider := {| s_axis := s_axis s; s_len := s_len s; s_pos := v |}.

(** The attributes of the figure, and what is on display. *)
Record fig := {
  plot_idx : option (list Z);       (* fig.plot_idx *)
  shown : option P;                 (* the data of fig._current_im *)
  sliders : list slider;            (* fig._sliders *)
  updating : bool;                  (* fig._updating *)
  last_make : option picture;       (* fig._make_plot: what its closure has closed over *)
  keys : option picture             (* the on_action connected to the canvas: its closure *)
}.
Definition new_fig : fig := {| plot_idx := None; shown := None; sliders := []; updating := false; last_make := None; keys := None |}.

(** 249-252: for j, (axis_idx, _, _): fig._sliders[j].set_val(fig.plot_idx[axis_idx]) (set_val does not clip). *)
Fixpoint sync (m : list (nat * Z)) (idx : list Z) (ss : list slider) : list slider * res unit :=
  match m with
  | [] => (ss, Ok tt)
  | (a, _) :: m' =>
      match ss with
      | [] => ([], Raise IndexError)
      | s :: ss' => let '(r, e) := sync m' idx ss' in (at_pos s (nth a idx 0) :: r, e)
      end
  end.

(** 229-441: make_plot of the closure c. *)
Definition make_plot (c : picture) (idx : list Z) (f : fig) : fig * res unit :=
  let f := {| plot_idx := Some idx; shown := shown f; sliders := sliders f; updating := updating f; last_make := Some c; keys := keys f |} in   (* 231-232 *)
  match select c idx with                                                                                                             (* 234 *)
  | Raise e => (f, Raise e)
  | Ok d =>
      let p := func c d in                                                                                                            (* 235 *)
      match shown f with
      | Some _ =>                                                                                                                     (* 239-259 *)
          let '(ss, e) := sync (slider_axis_map c) idx (sliders f) in
          ({| plot_idx := plot_idx f; shown := Some p; sliders := ss;
              updating := match e with Ok _ => false | Raise _ => true end; last_make := last_make f; keys := keys f |}, e)
      | None =>                                                                                                                       (* 261-440 *)
          ({| plot_idx := plot_idx f; shown := Some p;
              sliders := map (fun a => {| s_axis := fst a; s_len := snd a; s_pos := nth (fst a) idx 0 |}) (slider_axis_map c);
              updating := updating f; last_make := last_make f; keys := keys f |}, Ok tt)
      end
  end.

(** 444-447, 476-483: plot_image on an existing figure. *)
Definition plot_image (c : picture) (f : fig) : fig * res unit :=
  let start := match plot_idx f with
               | Some i => if Nat.eqb (List.length i) (List.length (extra_dims c)) then i else repeat 0 (List.length (extra_dims c))
               | None => repeat 0 (List.length (extra_dims c)) end in
  match make_plot c start f with
  | (f, Raise e) => (f, Raise e)
  | (f, Ok _) =>
      (match slider_axis_map c with
       | [] => f                                                    (* n_sliders == 0: nothing is disconnected *)
       | _ => {| plot_idx := plot_idx f; shown := shown f; sliders := sliders f; updating := updating f; last_make := last_make f; keys := Some c |}
       end, Ok tt)
  end.

(** 467-481: the loop over reversed(slider_axis_map). *)
Fixpoint odometer (m : list (nat * Z)) (carry : Z) (idx : list Z) : res (list Z) :=
  match m with
  | [] => Ok idx
  | (a, n) :: m' =>
      match nth_error idx a with
      | None => Raise IndexError
      | Some i =>
          let v := i + carry in
          let wr (x : Z) := match set_nth a x idx with Some l => Ok l | None => Raise IndexError end in
          if v <? 0 then rbind (wr (n - 1)) (odometer m' (-1))
          else if n <=? v then rbind (wr 0) (odometer m' 1)
          else wr v
      end
  end.

(** 449-484: on_action of the closure that is connected; direction -1 is 'up', +1 is 'down'. *)
Definition on_key (direction : Z) (f : fig) : fig * res unit :=
  match keys f with
  | None => (f, Ok tt)
  | Some c =>
      match sliders f with
      | [] => (f, Ok tt)                                            (* 455-456 *)
      | _ =>
          match odometer (rev (slider_axis_map c)) direction (match plot_idx f with Some i => i | None => [] end) with
          | Raise e => (f, Raise e)
          | Ok i => make_plot c i f
          end
      end
  end.

(** The user drags slider j to v: Slider._update calls set_val only if the value changes; then the callback
    of 424-432 runs (guarded by fig._updating) and calls the closure plotted last. *)
Definition on_slide (j : nat) (v : Z) (f : fig) : fig * res unit :=
  match nth_error (sliders f) j with
  | None => (f, Ok tt)                                              (* there is no such slider *)
  | Some s =>
      let v := clip (s_len s) v in
      if v =? s_pos s then (f, Ok tt) else
      let f := {| plot_idx := plot_idx f; shown := shown f;
                  sliders := match set_nth j (at_pos s v) (sliders f) with Some l => l | None => sliders f end;
                  updating := updating f; last_make := last_make f; keys := keys f |} in
      if updating f then (f, Ok tt) else
      match plot_idx f, last_make f with
      | Some i, Some c => match set_nth (s_axis s) v i with Some i' => make_plot c i' f | None => (f, Raise IndexError) end
      | _, _ => (f, Ok tt)
      end
  end.

(** What can happen to the figure. *)
Inductive event := Plot (c : picture) | Up | Down | Slide (j : nat) (v : Z).
Definition step (e : event) (f : fig) : fig * res unit :=
  match e with
  | Plot c => plot_image c f
  | Up => on_key (-1) f
  | Down => on_key 1 f
  | Slide j v => on_slide j v f
  end.
(** A history; an exception ends a call, not the session: the list of outcomes, in order. *)
Fixpoint run (es : list event) (f : fig) : fig * list (res unit) :=
  match es with
  | [] => (f, [])
  | e :: r => let '(f1, o) := step e f in let '(f2, os) := run r f1 in (f2, o :: os)
  end.
End PlotImage.
Arguments picture : clear implicits.
Arguments fig : clear implicits.
Arguments event : clear implicits.

(** plot_nanomap_with_images, 1136-1311. *)
Section NanoMap.
Context {D : Type}.
(** get_image_func(i): a single image, or a stack that reshape(-1, ., .) lists (1137-1141, 1184-1191). *)
Inductive item := One (d : D) | Many (l : list D).

Variable n : nat.                       (* translations.shape[0] *)
Variable image : nat -> item.           (* get_image_func *)

Record view := {
  val : Z;                              (* slider.val *)
  marked : Z;                           (* the enlarged point of the map *)
  image_idx : option Z;                 (* axes[1].image_idx *)
  display : option D                    (* the image on the right *)
}.

(** l[i] with numpy's bounds (the index is a remainder, so never negative). *)
Definition nth_img (l : list D) (i : Z) : res D :=
  if (0 <=? i) && (i <? Z.of_nat (List.length l)) then match nth_error l (Z.to_nat i) with Some d => Ok d | None => Raise IndexError end
  else Raise IndexError.

(** 1179-1205: update(idx); axes[1].image_idx and text_box exist only if image 0 was a stack (1138-1147). *)
Definition update (idx : Z) (v : view) : view * res unit :=
  match image (Z.to_nat idx) with
  | One d => ({| val := val v; marked := idx; image_idx := image_idx v; display := Some d |}, Ok tt)
  | Many l =>
      let k := match image_idx v with Some k => k | None => 0 end in
      let v' := {| val := val v; marked := marked v; image_idx := Some k; display := display v |} in
      match image_idx v with
      | None => (v', Raise AttributeError)                         (* no axes[1].text_box *)
      | Some _ =>
          match nth_img l k with
          | Raise e => (v', Raise e)
          | Ok d => ({| val := val v; marked := idx; image_idx := Some k; display := Some d |}, Ok tt)
          end
      end
  end.

(** slider.set_val(x): the value, then on_changed -> update. *)
Definition set_val (x : Z) (v : view) : view * res unit :=
  update x {| val := x; marked := marked v; image_idx := image_idx v; display := display v |}.

(** 1136-1150, 1303: the first display and the extra update(0). *)
Definition open : view * res unit :=
  let start i d := update 0 {| val := 0; marked := 0; image_idx := i; display := d |} in
  match image 0%nat with
  | One d => start None (Some d)
  | Many l => match nth_img l 0 with
              | Raise e => ({| val := 0; marked := 0; image_idx := Some 0; display := None |}, Raise e)
              | Ok d => start (Some 0) (Some d)
              end
  end.

(** 1226-1271: on_action; dir is -1 for 'left', +1 for 'right', 0 for any other key or button; in_image:
    event.inaxes is axes[1]. *)
Definition on_action (in_image : bool) (dir : Z) (v : view) : view * res unit :=
  match in_image, image 0%nat with
  | true, Many l =>
      let k := match image_idx v with Some k => k | None => 0 end in
      let k' := if dir =? 0 then k else (k + dir) mod Z.of_nat (List.length l) in
      set_val (val v) {| val := val v; marked := marked v; image_idx := Some k'; display := display v |}
  | _, _ => if dir =? 0 then (v, Ok tt) else set_val ((val v + dir) mod Z.of_nat n) v
  end.

(** 1275-1279: on_pick (the index of a point that exists); the slider dragged to x (only changes count). *)
Definition on_pick (i : nat) (v : view) : view * res unit := set_val (Z.of_nat i) v.
Definition on_drag (x : Z) (v : view) : view * res unit :=
  let x := clip (Z.of_nat n) x in if x =? val v then (v, Ok tt) else set_val x v.

Inductive nevent := Action (in_image : bool) (dir : Z) | Pick (i : nat) | Drag (x : Z).
Definition nstep (e : nevent) (v : view) : view * res unit :=
  match e with
  | Action b d => on_action b d v
  | Pick i => on_pick i v
  | Drag x => on_drag x v
  end.
Fixpoint nrun (es : list nevent) (v : view) : view * list (res unit) :=
  match es with
  | [] => (v, [])
  | e :: r => let '(v1, o) := nstep e v in let '(v2, os) := nrun r v1 in (v2, o :: os)
  end.
End NanoMap.
Arguments item : clear implicits.
Arguments view : clear implicits.
