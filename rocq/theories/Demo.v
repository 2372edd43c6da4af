(** * The demonstrator with sliders: gui_tools/demonstrator/demo_matplotlib.py, open_demo *)
Require Import Reals List Bool Arith.
From Verif Require Import Num Vec Orientation.
Import ListNotations.
Open Scope R_scope.

(** The sliders in the order of the list [sliders], 71-73 and 120-130: 0 width, 1 height, 2 focal length, 3 heading, 4 tilt,
    5 roll, 6 yaw, 7 pitch, 8 roll (of yaw-pitch-roll), 9 elevation, 10 x, 11 y.  A slider keeps its value inside its range
    while it is dragged; set_val takes any value.  (The whole-number steps of the first two are left out.) *)
Definition sliders := nat -> R.
(** demo_matplotlib.py 52-80 *)
Definition lo (i : nat) : R := nth i [0; 0; 0; -180; 0; -180; -180; -90; -180; 0; -10; -10] 0.
(** demo_matplotlib.py 52-80 *)
Definition hi (i : nat) : R := nth i [5000; 5000; 7720; 180; 180; 180; 180; 90; 180; 20; 10; 10] 0.
(** demo_matplotlib.py 52-80 *)
Definition init (i : nat) : R := nth i [4608; 2592; 3860; 0; 30; 0; 0; -60; 0; 10; 0; -55 / 10] 0.
(** demo_matplotlib.py 22-41 *)
Definition put (i : nat) (x : R) (s : sliders) : sliders := fun j => if Nat.eqb j i then x else s j.

(** The parameters of a camera that the demonstrator sets; [a], [b], [c] are heading, tilt and roll of cam1 (13) and yaw,
    pitch and roll of cam2 (14). *)
Record dcam := DCam { d_w : R; d_h : R; d_f : R; d_cx : R; d_cy : R; d_a : R; d_b : R; d_c : R; d_e : R; d_x : R; d_y : R }.
(** cam1 and cam2 with the defaults of their classes (spatial.py 82-94, 232-243) *)
Definition cam1_0 : dcam := DCam 4608 2592 3860 2304 1296 0 85 0 30 0 0.
(** demo_matplotlib.py 13-21 *)
Definition cam2_0 : dcam := DCam 4608 2592 3860 2304 1296 85 0 0 30 0 0.
(** [second]: whether the variable cam is cam2; [ypr]: whether the sliders 6-8 (and not 3-5) are visible
    (demo_matplotlib.py 8-143) *)
Record demo := Demo { values : sliders; ypr : bool; second : bool; cam1 : dcam; cam2 : dcam }.

(** update, demo_matplotlib.py 22-41: setattr for every visible slider, then the centre.  roll_deg is a parameter of both cameras; the names
    of the other two angles of the wrong camera become plain attributes without effect. *)
Definition setattrs (s : sliders) (angles : bool) (own : bool) (c : dcam) : dcam :=
  let roll := if angles then s 8%nat else s 5%nat in
  let a := if own then (if angles then s 6%nat else s 3%nat) else d_a c in
  let b := if own then (if angles then s 7%nat else s 4%nat) else d_b c in
  DCam (s 0%nat) (s 1%nat) (s 2%nat) (s 0%nat / 2) (s 1%nat / 2) a b roll (s 9%nat) (s 10%nat) (s 11%nat).
(** demo_matplotlib.py 22-41 *)
Definition update (d : demo) : demo :=
  if second d then Demo (values d) (ypr d) true (cam1 d) (setattrs (values d) (ypr d) (ypr d) (cam2 d))
  else Demo (values d) (ypr d) false (setattrs (values d) (ypr d) (negb (ypr d)) (cam1 d)) (cam2 d).
(** Slider.set_val calls update (59) *)
Definition set_val (i : nat) (x : R) (d : demo) : demo := update (Demo (put i x (values d)) (ypr d) (second d) (cam1 d) (cam2 d)).
(** change_spatial, 82-117; [to_ypr]: the label that was clicked *)
Definition change_spatial (to_ypr : bool) (d : demo) : demo :=
  let d := Demo (values d) to_ypr (second d) (cam1 d) (cam2 d) in
  let d := if to_ypr then
             let d := set_val 6 (values d 3%nat) d in
             let d := set_val 7 (values d 4%nat - 90) d in
             set_val 8 (- values d 5%nat) d
           else
             let d := set_val 3 (values d 6%nat) d in
             let d := set_val 4 (values d 7%nat + 90) d in
             set_val 5 (- values d 8%nat) d in
  update (Demo (values d) (ypr d) to_ypr (cam1 d) (cam2 d)).
(** reset, 136-138: Slider.reset does nothing if the slider has its first value already *)
Definition reset_one (d : demo) (i : nat) : demo := if Req_EM_T (values d i) (init i) then d else set_val i (init i) d.
(** demo_matplotlib.py 136-138 *)
Definition reset (d : demo) : demo := fold_left reset_one (seq 0 12) d.
(** The window after open_demo, 141 *)
Definition open_demo : demo := change_spatial false (Demo init true false cam1_0 cam2_0).

(** What the user can do: drag a visible slider, click a label, press Reset (demo_matplotlib.py 8-143). *)
Inductive event := EDrag (i : nat) (x : R) | ERadio (to_ypr : bool) | EReset.
(** demo_matplotlib.py 82-117 *)
Definition visible (d : demo) (i : nat) : bool :=
  if (3 <=? i)%nat && (i <=? 5)%nat then negb (ypr d) else if (6 <=? i)%nat && (i <=? 8)%nat then ypr d else (i <? 12)%nat.
(** demo_matplotlib.py 8-143 *)
Definition step (d : demo) (e : event) : demo :=
  match e with
  | EDrag i x => if visible d i then set_val i (Rmax (lo i) (Rmin (hi i) x)) d else d
  | ERadio b => change_spatial b d
  | EReset => reset d
  end.
(** demo_matplotlib.py 8-143, one event after another *)
Definition run (es : list event) : demo := fold_left step es open_demo.

(** What is drawn: the orientation and size of the camera [cam] (demo_matplotlib.py 22-41) *)
Definition drawn (d : demo) : dcam := if second d then cam2 d else cam1 d.
(** demo_matplotlib.py 22-41 *)
Definition orientation (d : demo) : option omat :=
  let c := drawn d in
  if second d then init_matrix_ypr (ypar_fin (YPar (d_e c) (d_a c) (d_c c) (d_b c) (d_x c) (d_y c)))
  else init_matrix (opar_fin (OPar (d_e c) (d_b c) (d_c c) (d_a c) (d_x c) (d_y c))).
