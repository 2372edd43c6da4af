(** * The Qt demonstrator: demo_qt.py and the input widgets of QtShortCuts.py 69-205, 226-276 *)
Require Import ZArith Bool List.
Import ListNotations.
Open Scope Z_scope.

(** The number inputs, demo_qt.py 68-88 *)
Inductive slider := FX | FY | CX | CY | WI | HI | HEAD | TILT | ROLL | PX | PY | ELEV.
(** demo_qt.py 35-107 *)
Definition slider_eqb (a b : slider) : bool :=
  match a, b with
  | FX, FX | FY, FY | CX, CX | CY, CY | WI, WI | HI, HI | HEAD, HEAD | TILT, TILT | ROLL, ROLL | PX, PX | PY, PY | ELEV, ELEV => true
  | _, _ => false
  end.
(** decimal_factor, QtShortCuts.py 152-158: 100 for an input whose first value is a float (the centre is image/2, the
    angles and the position are written as floats), 1 for the focal lengths and the image size of line 139, all ints *)
Definition factor (s : slider) : Z := match s with FX | FY | WI | HI => 1 | _ => 100 end.
(** min and max (demo_qt.py 69-86) times decimal_factor.  Values are counted in units of 1/decimal_factor: a spin box
    keeps [decimals] digits. *)
Definition lo (s : slider) : Z := match s with HEAD | TILT | ROLL => -18000 | PX | PY | ELEV => -1000 | _ => 0 end.
(** demo_qt.py 35-107 *)
Definition hi (s : slider) : Z :=
  match s with FX | FY | WI | HI => 5000 | CX | CY => 500000 | HEAD | TILT | ROLL => 18000 | _ => 1000 end.
(** QtShortCuts.py 69-205 *)
Definition clamp (s : slider) (v : Z) : Z := Z.min (hi s) (Z.max (lo s) v).

(** A QInputNumber: the number in the spin box (value(), line 204-205), the position of the slider, last_emited_value,
    slider_dragged and whether it is enabled *)
Record numw := Numw { spin : Z; pos : Z; last : option Z; drag : bool; enabled : bool }.
(** The drawing: what updatePlot last wrote into the camera and the kind of scene and projection (demo_qt.py 109-134) *)
Record drawing := Drawing { d_val : slider -> Z; d_proj : nat; d_scene : nat }.
(** The window: the number inputs, the two check boxes and the two combo boxes with their last_emited_value
    (demo_qt.py 34-107) *)
Record win := Win
  { num : slider -> numw; focalloc : bool; focal_last : option bool; centered : bool; center_last : option bool;
    proj : nat; proj_last : option nat; scene : nat; scene_last : option nat; drawn : drawing }.

(** demo_qt.py 34-107 *)
Definition upd (f : slider -> numw) (s : slider) (w : numw) (s' : slider) : numw := if slider_eqb s s' then w else f s'.
(** demo_qt.py 34-107 *)
Definition set_num (st : win) (f : slider -> numw) : win :=
  Win f (focalloc st) (focal_last st) (centered st) (center_last st) (proj st) (proj_last st) (scene st) (scene_last st) (drawn st).

Section Window.
(** int(value * decimal_factor) of line 202 in floating point: 0.29 * 100 is 28.999...; left open *)
Context (back : Z -> Z).

(** setValue, 121-126 and 196-202: both parts are set, the signals they send are ignored (no_signal) *)
Definition setValue (s : slider) (v : Z) (w : numw) : numw :=
  Numw (clamp s v) (clamp s (back v)) (last w) (drag w) (enabled w).
(** QtShortCuts.py 69-205 *)
Definition setDisabled (b : bool) (w : numw) : numw := Numw (spin w) (pos w) (last w) (drag w) (negb b).
(** QtShortCuts.py 69-205 *)
Definition change (s : slider) (f : numw -> numw) (st : win) : win := set_num st (upd (num st) s (f (num st s))).

(** updatePlot, demo_qt.py 109-134.  The camera's parameters are written by set_fit_parameters (C40): the drawing gets
    the numbers of all inputs.  Half of a number of pixels is 50 hundredths of it. *)
Definition updatePlot (st : win) : win :=
  let st :=
    if focalloc st then change FY (fun w => setValue FY (spin (num st FX)) (setDisabled true w)) st
    else change FY (setDisabled false) st in
  let st := change CY (setDisabled (centered st)) (change CX (setDisabled (centered st)) st) in
  let st :=
    if centered st then
      change CY (setValue CY (spin (num st HI) * 50)) (change CX (setValue CX (spin (num st WI) * 50)) st)
    else st in
  Win (num st) (focalloc st) (focal_last st) (centered st) (center_last st) (proj st) (proj_last st) (scene st) (scene_last st)
    (Drawing (fun s => spin (num st s)) (proj st) (scene st)).

(** _emitSignal, QtShortCuts.py 116-119, of a number input: valueChanged runs updatePlot *)
Definition differs (v : Z) (l : option Z) : bool := match l with Some x => negb (Z.eqb v x) | None => true end.
(** QtShortCuts.py 116-119 *)
Definition set_last (w : numw) : numw := Numw (spin w) (pos w) (Some (spin w)) (drag w) (enabled w).
(** QtShortCuts.py 116-119, demo_qt.py 109-134 *)
Definition emit (s : slider) (st : win) : win :=
  if differs (spin (num st s)) (last (num st s)) then change s set_last (updatePlot st) else st.
(** _valueChangedEvent of a number input, 189-194 *)
Definition event (s : slider) (v : Z) (st : win) : win :=
  let st := change s (setValue s v) st in if drag (num st s) then st else emit s st.
(** _setSliderDragged, 184-187 *)
Definition dragged (s : slider) (b : bool) (st : win) : win :=
  let st := change s (fun w => Numw (spin w) (pos w) (last w) b (enabled w)) st in if b then st else emit s st.
(** the slider moves to position [k]: Qt sends valueChanged if it was elsewhere; the event carries k /
    decimal_factor (QtShortCuts.py 69-205) *)
Definition move (s : slider) (st : win) (k : Z) : win :=
  let k := clamp s k in
  if Z.eqb k (pos (num st s)) then st
  else event s k (change s (fun w => Numw (spin w) k (last w) (drag w) (enabled w)) st).

(** What a user does.  A slider is dragged from the press of the mouse to its release; disabled inputs do not
    react (QtShortCuts.py 69-276, demo_qt.py 34-134). *)
Inductive action :=
  | Type_ (s : slider) (v : Z)            (** a number in the spin box *)
  | Key (s : slider) (k : Z)              (** the slider by a key or the wheel *)
  | Drag (s : slider) (ks : list Z)
  | Focal (b : bool) | Center (b : bool)  (** the check boxes *)
  | Proj (p : nat) | Scene (n : nat).     (** the combo boxes *)
(** QtShortCuts.py 116-119 *)
Definition bdiffers (b : bool) (l : option bool) : bool := match l with Some x => negb (Bool.eqb b x) | None => true end.
(** QtShortCuts.py 116-119 *)
Definition ndiffers (b : nat) (l : option nat) : bool := match l with Some x => negb (Nat.eqb b x) | None => true end.
(** one action; a check or combo box sends its signal when its state changes (226-276) and then emits like the others *)
Definition act (st : win) (a : action) : win :=
  match a with
  | Type_ s v =>
      let w := num st s in let v := clamp s v in
      if negb (enabled w) || Z.eqb v (spin w) then st else event s v (change s (fun w => Numw v (pos w) (last w) (drag w) (enabled w)) st)
  | Key s k => if enabled (num st s) then move s st k else st
  | Drag s ks => if enabled (num st s) then dragged s false (fold_left (move s) ks (dragged s true st)) else st
  | Focal b =>
      if Bool.eqb b (focalloc st) then st
      else let st := Win (num st) b (focal_last st) (centered st) (center_last st) (proj st) (proj_last st) (scene st) (scene_last st) (drawn st) in
        if bdiffers b (focal_last st) then
          let st := updatePlot st in
          Win (num st) (focalloc st) (Some b) (centered st) (center_last st) (proj st) (proj_last st) (scene st) (scene_last st) (drawn st)
        else st
  | Center b =>
      if Bool.eqb b (centered st) then st
      else let st := Win (num st) (focalloc st) (focal_last st) b (center_last st) (proj st) (proj_last st) (scene st) (scene_last st) (drawn st) in
        if bdiffers b (center_last st) then
          let st := updatePlot st in
          Win (num st) (focalloc st) (focal_last st) (centered st) (Some b) (proj st) (proj_last st) (scene st) (scene_last st) (drawn st)
        else st
  | Proj p =>
      if Nat.eqb p (proj st) then st
      else let st := Win (num st) (focalloc st) (focal_last st) (centered st) (center_last st) p (proj_last st) (scene st) (scene_last st) (drawn st) in
        if ndiffers p (proj_last st) then
          let st := updatePlot st in
          Win (num st) (focalloc st) (focal_last st) (centered st) (center_last st) (proj st) (Some p) (scene st) (scene_last st) (drawn st)
        else st
  | Scene n =>
      if Nat.eqb n (scene st) then st
      else let st := Win (num st) (focalloc st) (focal_last st) (centered st) (center_last st) (proj st) (proj_last st) n (scene_last st) (drawn st) in
        if ndiffers n (scene_last st) then
          let st := updatePlot st in
          Win (num st) (focalloc st) (focal_last st) (centered st) (center_last st) (proj st) (proj_last st) (scene st) (Some n) (drawn st)
        else st
  end.
(** __init__, demo_qt.py 34-107, with the camera of line 139 *)
Definition first (s : slider) : Z :=
  match s with FX | FY => 3860 | CX => 230400 | CY => 129600 | WI => 4608 | HI => 2592 | ELEV => 500 | _ => 0 end.
(** demo_qt.py 34-107 *)
Definition start : win :=
  updatePlot (Win (fun s => setValue s (first s) (Numw 0 0 None false true)) true None true None 0 None 0 None
    (Drawing (fun _ => 0) 0 0)).
(** demo_qt.py 34-134, one action after another *)
Definition after (l : list action) : win := fold_left act l start.
End Window.
