(** * The picture view of the calibration window: gui_tools/calibrate/QExtendedGraphicsView.py *)
Require Import Reals List Bool ZArith.
Import ListNotations.
Open Scope R_scope.

(** a QPoint; QExtendedGraphicsView.py 57-351 *)
Definition pt := (R * R)%type.

(** QExtendedGraphicsView, 58-128.  Numbers are exact.  [size]: the size of the widget; [rect]: view_rect; [ext]: the width and
    height last put into the transforms of rotater1 and origin ((0, 0) before setExtend: both are identities);
    [scale], [shift]: the transforms of scaler and translater; [offs]: of offset; [angle]: origin.angle, in whole degrees.
    The head-up items are left out.  [last], [panning]: last_pos and scene_panning. *)
Record view := View { size : pt; rect : pt; ext : pt; scale : R; shift : pt; offs : pt; angle : Z; rotation : Z;
  fitted : bool; initialized : bool; panning : bool; last : pt }.
(** QExtendedGraphicsView.py 170-185 *)
Definition set_size s v := View s (rect v) (ext v) (scale v) (shift v) (offs v) (angle v) (rotation v) (fitted v) (initialized v) (panning v) (last v).
(** QExtendedGraphicsView.py 130-138 *)
Definition set_rect r v := View (size v) r r (scale v) (shift v) (offs v) (angle v) (rotation v) (fitted v) (initialized v) (panning v) (last v).
(** QExtendedGraphicsView.py 194-230, 266-275 *)
Definition set_scale s v := View (size v) (rect v) (ext v) s (shift v) (offs v) (angle v) (rotation v) (fitted v) (initialized v) (panning v) (last v).
(** QExtendedGraphicsView.py 194-275 *)
Definition set_shift t v := View (size v) (rect v) (ext v) (scale v) t (offs v) (angle v) (rotation v) (fitted v) (initialized v) (panning v) (last v).
(** QExtendedGraphicsView.py 261-264, 318-319 *)
Definition set_offs t v := View (size v) (rect v) (ext v) (scale v) (shift v) t (angle v) (rotation v) (fitted v) (initialized v) (panning v) (last v).
(** QExtendedGraphicsView.py 187-192 *)
Definition set_angle a r v := View (size v) (rect v) (ext v) (scale v) (shift v) (offs v) a r (fitted v) (initialized v) (panning v) (last v).
(** QExtendedGraphicsView.py 170-230 *)
Definition set_fitted b v := View (size v) (rect v) (ext v) (scale v) (shift v) (offs v) (angle v) (rotation v) b (initialized v) (panning v) (last v).
(** QExtendedGraphicsView.py 163-168 *)
Definition set_initialized v := View (size v) (rect v) (ext v) (scale v) (shift v) (offs v) (angle v) (rotation v) (fitted v) true (panning v) (last v).
(** QExtendedGraphicsView.py 301-324 *)
Definition set_mouse b p v := View (size v) (rect v) (ext v) (scale v) (shift v) (offs v) (angle v) (rotation v) (fitted v) (initialized v) b p.

(** QExtendedGraphicsView.py 58-127 *)
Definition start (s : pt) : view := View s (1, 1) (0, 0) 1 (0, 0) (0, 0) 0 0 true false false (0, 0).

(** Where Qt shows a point of the picture: the items origin, offset, rotater2 (setRotation), rotater1, translater and scaler
    are nested, 73-81; a QTransform is applied from the innermost item outwards. *)
Definition turn (a : Z) (p : pt) : pt :=
  let c := cos (IZR a * (PI / 180)) in let s := sin (IZR a * (PI / 180)) in (c * fst p - s * snd p, s * fst p + c * snd p).
(** the transformation of the view, QExtendedGraphicsView.py 58-127 *)
Definition show (v : view) (p : pt) : pt :=
  let p := (fst p - fst (ext v) / 2, snd p - snd (ext v) / 2) in
  let p := (fst p + fst (offs v), snd p + snd (offs v)) in
  let p := turn (angle v) p in
  let p := (fst p + fst (ext v) / 2, snd p + snd (ext v) / 2) in
  let p := (fst p + fst (shift v), snd p + snd (shift v)) in
  (scale v * fst p, scale v * snd p).

(** fitInView, 194-206 (panEvent and zoomEvent do nothing) *)
Definition quarter (v : view) : bool := Z.eqb (rotation v) 90 || Z.eqb (rotation v) 270.
(** QExtendedGraphicsView.py 194-230 *)
Definition best (pick : R -> R -> R) (v : view) : R :=
  if quarter v then pick (fst (size v) / snd (rect v)) (snd (size v) / fst (rect v))
  else pick (fst (size v) / fst (rect v)) (snd (size v) / snd (rect v)).
(** QExtendedGraphicsView.py 194-230 *)
Definition place (s : R) (v : view) : view :=
  let xoff := fst (size v) - fst (rect v) * s in
  let yoff := snd (size v) - snd (rect v) * s in
  set_shift (xoff * (1 / 2) / s, yoff * (1 / 2) / s) (set_scale s v).
(** QExtendedGraphicsView.py 194-206 *)
Definition fit_in_view (v : view) : view := set_fitted true (place (best Rmin v) v).
(** setExtend, 130-138 *)
Definition pt_eqb (a b : pt) : bool := if Req_EM_T (fst a) (fst b) then if Req_EM_T (snd a) (snd b) then true else false else false.
(** QExtendedGraphicsView.py 130-138 *)
Definition set_extend (w h : R) (v : view) : view :=
  let refit := fitted v && negb (pt_eqb (rect v) (w, h)) in
  let v := set_rect (w, h) v in
  if refit then fit_in_view v else v.
(** paintEvent, 163-168; resizeEvent, 170-185; rotate, 187-192 *)
Definition paint (v : view) : view := if initialized v then v else fit_in_view (set_initialized v).
(** QExtendedGraphicsView.py 170-185 *)
Definition resize (w h : R) (v : view) : view := let v := set_size (w, h) v in if fitted v then fit_in_view v else v.
(** QExtendedGraphicsView.py 187-192 *)
Definition rotate (a : Z) (v : view) : view :=
  let v := set_angle (angle v + a) ((rotation v + a) mod 360) v in if fitted v then fit_in_view v else v.

(** centerOn, 232-259 *)
Definition center_on (x y : R) (v : view) : view :=
  let (w, h) := rect v in
  let (x, y) := if Z.eqb (rotation v) 180 then (w - x, h - y) else (x, y) in
  let xoff := fst (size v) / scale v - w in
  let yoff := snd (size v) / scale v - h in
  set_shift ((w / 2 - x) + xoff / 2, (h / 2 - y) + yoff / 2) v.
(** translateOrigin, 261-264; DoTranslateOrigin, 318-319 *)
Definition translate_origin (x y : R) (v : view) : view := set_shift (x, y) v.
(** QExtendedGraphicsView.py 318-319 *)
Definition do_translate (x y : R) (v : view) : view := set_offs (fst (offs v) + x, snd (offs v) + y) v.
(** scaleOrigin, 266-275; mapToScene is the identity (the scene rectangle is that of the widget, 185) *)
Definition scale_origin (f : R) (p : pt) (v : view) : view :=
  let (x, y) := p in
  let s0 := scale v in
  let v := set_shift (fst (shift v) + - x / s0, snd (shift v) + - y / s0) v in
  let v := set_scale (f * scale v) v in
  let s0 := scale v in
  let v := set_shift (fst (shift v) + x / s0, snd (shift v) + y / s0) v in
  set_fitted false v.
(** The right button, 301-316 and 321-324; wheelEvent, 326-341 *)
Definition press (p : pt) (v : view) : view := set_mouse true p v.
(** QExtendedGraphicsView.py 307-316 *)
Definition move (p : pt) (v : view) : view :=
  if panning v then
    let d := (fst p - fst (last v), snd p - snd (last v)) in
    let v := set_shift (fst (shift v) + fst d / scale v, snd (shift v) + snd d / scale v) v in
    set_fitted false (set_mouse true p v)
  else v.
(** QExtendedGraphicsView.py 321-324 *)
Definition release (v : view) : view := set_mouse false (last v) v.
(** QExtendedGraphicsView.py 326-341 *)
Definition wheel (up : bool) (p : pt) (v : view) : view := scale_origin (if up then 11 / 10 else 9 / 10) p v.

Section Round.
(** QTransform.map of a QPoint rounds to whole numbers. *)
Variable rnd : R -> R.
(** GetExtend, 140-161: the inverse of the composed transform at two corners of the widget (the item offset is not in it) *)
Definition unshow (with_transform : bool) (v : view) (p : pt) : pt :=
  let p := (fst p / scale v, snd p / scale v) in
  let p := (fst p - fst (shift v), snd p - snd (shift v)) in
  let p := (fst p - fst (ext v) / 2, snd p - snd (ext v) / 2) in
  let p := if with_transform then turn (- angle v) p else p in
  (fst p + fst (ext v) / 2, snd p + snd (ext v) / 2).
(** QExtendedGraphicsView.py 140-161 *)
Definition get_extend (with_transform : bool) (v : view) : pt * pt :=
  let a := unshow with_transform v (0, 0) in
  let b := unshow with_transform v (size v) in
  let (ax, ay) := (rnd (fst a), rnd (snd a)) in
  let (bx, by_) := (rnd (fst b), rnd (snd b)) in
  ((Rmin ax bx, Rmin ay by_), (Rmax ax bx, Rmax ay by_)).
(** fitSmallDimensionInView, 208-230 *)
Definition fit_small (v : view) : view :=
  let (a, b) := get_extend false v in
  let (w, h) := rect v in
  let v := place (best Rmax v) v in
  if Rlt_dec (fst (size v) / w) (snd (size v) / h) then center_on ((fst a + fst b) / 2) (h / 2) v
  else center_on (w / 2) ((snd a + snd b) / 2) v.
(** mapToOrigin, 285-288 (as mapSceneToOrigin, 280-283); mapFromOrigin, 290-299, with two numbers.  QPoint makes whole numbers
    of floats.  With a point as only argument mapFromOrigin fails: y is None then, the error of y.y() is swallowed, and
    the sum with None raises. *)
Inductive origin_arg := Numbers (x y : R) | Point (p : pt).
(** QExtendedGraphicsView.py 285-288 *)
Definition map_to_origin (v : view) (p : pt) : pt :=
  (rnd (fst p / scale v - fst (shift v)), rnd (snd p / scale v - snd (shift v))).
(** QExtendedGraphicsView.py 290-299 *)
Definition map_from_origin (v : view) (a : origin_arg) : option pt :=
  match a with
  | Numbers x y => Some (rnd ((x + fst (shift v)) * scale v), rnd ((y + snd (shift v)) * scale v))
  | Point _ => None
  end.

(** QExtendedGraphicsView.py 130-341 *)
Inductive event :=
| EExtend (w h : R) | EPaint | EResize (w h : R) | ERotate (a : Z) | EFit | ESmall | ECenter (x y : R) | ETranslate (x y : R)
| EOffset (x y : R) | EScale (f : R) (p : pt) | EWheel (up : bool) (p : pt) | EPress (p : pt) | EMove (p : pt) | ERelease.
(** QExtendedGraphicsView.py 130-341 *)
Definition step (e : event) (v : view) : view :=
  match e with
  | EExtend w h => set_extend w h v
  | EPaint => paint v
  | EResize w h => resize w h v
  | ERotate a => rotate a v
  | EFit => fit_in_view v
  | ESmall => fit_small v
  | ECenter x y => center_on x y v
  | ETranslate x y => translate_origin x y v
  | EOffset x y => do_translate x y v
  | EScale f p => scale_origin f p v
  | EWheel up p => wheel up p v
  | EPress p => press p v
  | EMove p => move p v
  | ERelease => release v
  end.
(** QExtendedGraphicsView.py 130-341, one event after another *)
Definition run (es : list event) (v : view) : view := fold_left (fun v e => step e v) es v.
End Round.
