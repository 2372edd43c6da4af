(** * The image border and the cone of a camera: Camera.getImageBorder and getCameraCone *)
Require Import Reals List Bool ZArith.
From Verif Require Import Num Vec Orientation Projection CameraTransform Scene.
Import ListNotations.
Open Scope R_scope.

(** np.arange(start, stop, step): ceil((stop - start) / step) values.  [None]: the step is zero
    (ZeroDivisionError); arguments that are infinite or nan are not modelled and give [None] too (camera.py 911-917). *)
Definition arange (start stop step : num) : option (list num) :=
  match toR start, toR stop, toR step with
  | Some a, Some b, Some s =>
    if Reqb s 0 then None
    else Some (map (fun i => Fin (a + INR i * s)) (seq 0 (Z.to_nat (- Rfloor (- ((b - a) / s))))))
  | _, _, _ => None
  end.
(** Camera.getImageBorder, camera.py 909-919 *)
Definition getImageBorder (w h resolution : num) : option (list (v2 num)) :=
  match arange (Fin 0) h resolution, arange (Fin 0) w resolution,
        arange h (Fin 0) (- resolution)%num, arange w (Fin 0) (- resolution)%num with
  | Some s1, Some s2, Some s3, Some s4 =>
    Some (map (fun y => V2 (Fin 0) y) s1 ++ map (fun x => V2 x h) s2
       ++ map (fun y => V2 w y) s3 ++ map (fun x => V2 x (Fin 0)) s4)
  | _, _, _, _ => None
  end.

(** ** Camera.getCameraCone, camera.py 931-968 *)
(** The loop 964-967.  [border] grows; the third element is looked up after two are appended.  The indices
    are always valid. *)
Definition cone_loop (origin : v3 num) (border : list (v3 num)) (corners : list nat) : list (v3 num) :=
  fold_left (fun b i => let b2 := (b ++ [nan_row; origin])%list in (b2 ++ [nth i b2 nan_row])%list) corners border.
(** a list comprehension whose calls may raise, camera.py 931-968 *)
Fixpoint all_some {A} (l : list (option A)) : option (list A) :=
  match l with
  | [] => Some []
  | x :: l' => match x, all_some l' with Some a, Some t => Some (a :: t) | _, _ => None end
  end.
(** an int of camera.py 909-919 *)
Definition nn (k : nat) : num := Fin (INR k).
(** 932-948 (project_to_ground): range(h) and range(w) need image sizes that are ints; np.arange(h, 0, -1)
    counts down.  The border and the indices of its corners. *)
Definition ground_border (w h : nat) : list (v2 num) * list nat :=
  let b1 := map (fun y => V2 (Fin 0) (nn y)) (seq 0 h) in
  let b2 := (b1 ++ map (fun x => V2 (nn x) (nn h)) (seq 0 w))%list in
  let b3 := (b2 ++ map (fun y => V2 (nn w) (nn (h - y))) (seq 0 h))%list in
  let b4 := (b3 ++ map (fun x => V2 (nn (w - x)) (Fin 0)) (seq 0 w))%list in
  (b4, [0%nat; length b1; length b2; length b3; length b4]).
(** camera.py 931-968, the points on the ground *)
Definition cone_on_ground (c : camera) (w h : nat) : option (list (v3 num)) :=
  let (border, corners) := ground_border w h in
  match all_some (map (fun q => spaceFromImage c q (on_Z (Fin 0))) border) with
  | Some b => Some (cone_loop (ray_origin c) b corners)
  | None => None
  end.
(** 949-961: the corners at the distance D *)
Definition corner_border (w h : num) : list (v2 num) := [V2 (Fin 0) h; V2 w h; V2 w (Fin 0); V2 (Fin 0) (Fin 0); V2 (Fin 0) h].
(** camera.py 931-968, the points at a distance *)
Definition cone_at_distance (c : camera) (w h d : num) : option (list (v3 num)) :=
  match all_some (map (fun q => spaceFromImage c q (on_D d)) (corner_border w h)) with
  | Some b => Some (cone_loop (ray_origin c) b [0; 1; 2; 3; 4; 5]%nat)
  | None => None
  end.
