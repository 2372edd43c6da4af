(** * The table of pixel areas: Camera.generateLUT *)
Require Import Reals List Bool.
From Verif Require Import Num Vec Orientation Projection Ray CameraTransform Border.
Import ListNotations.
Open Scope R_scope.

(** get_square, camera.py 1475-1484: four arrays of N points, transposed to N arrays of four points.  The array
    of squares has always three dimensions here. *)
Definition shift (dx dy : num) (points : list (v2 num)) : list (v2 num) :=
  map (fun p => V2 (c1 p + dx)%num (c2 p + dy)%num) points.
(** camera.py 1475-1484 *)
Definition get_square (points : list (v2 num)) : list (list (v2 num)) :=
  let l := Fin (- (1 / 2)) in let u := Fin (1 / 2) in
  let squares := [shift l l points; shift u l points; shift u u points; shift l u points] in
  map (fun i => map (fun s => nth i s (V2 NaN NaN)) squares) (seq 0 (length points)).
(** .reshape(-1, n, ...) of a list of rows (camera.py 1496-1501) *)
Fixpoint reshape {A} (fuel n : nat) (l : list A) : list (list A) :=
  match fuel with O => [] | S f => firstn n l :: reshape f n (skipn n l) end.
(** ray.areaOfQuadrilateral of N x 4 x 3 points, ray.py 285-290: only x and y are used *)
Definition quad_area (q : list (v3 num)) : num :=
  let xy i := let p := nth i q nan3 in V2 (cx p) (cy p) in
  areaOfQuadrilateral (xy 0%nat) (xy 1%nat) (xy 2%nat) (xy 3%nat).
(** 1498-1503 without the reshape of a whole image.  [None]: spaceFromImage raises (never with Z = 0). *)
Definition lut_of (c : camera) (undef : num) (points : list (v2 num)) : option (list num) :=
  let squares := concat (get_square points) in
  match all_some (map (fun q => spaceFromImage c q (on_Z (Fin 0))) squares) with
  | Some space => Some (map (fun a => if nisnan a then undef else a) (map quad_area (reshape (length points) 4 space)))
  | None => None
  end.
(** camera.py 1493-1496 and 1498-1503: the slice.  The sizes are ints (with a float image_height_px np.arange
    works, too, this is not modelled). *)
Definition generateLUT (c : camera) (w h : nat) (undef : num) : option (list num) :=
  lut_of c undef (map (fun y => V2 (nn w / Fin 2 * Fin 1)%num (nn y)) (seq 0 h)).
(** camera.py 1488-1492: np.meshgrid, flattened row by row; 1501-1502: reshape to height x width *)
Definition generateLUT_whole (c : camera) (w h : nat) (undef : num) : option (list (list num)) :=
  match lut_of c undef (flat_map (fun y => map (fun x => V2 (nn x) (nn y)) (seq 0 w)) (seq 0 h)) with
  | Some a => Some (reshape h w a)
  | None => None
  end.
