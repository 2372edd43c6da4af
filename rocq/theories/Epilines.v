(** * Epipolar lines: CameraGroup.plotEpilines and plotMyEpiploarLines, camera.py 327-422 *)
Require Import Reals List Bool.
From Verif Require Import Num Vec Projection CameraTransform Stereo.
Import ListNotations.
Open Scope R_scope.

(** ** plotEpilines: the part of a line that is in the image *)
(** lo < x < hi (camera.py 338-360) *)
Definition between (lo x hi : num) : bool := (lo <? x)%num && (x <? hi)%num.
(** -(a * x + c) / b; the numbers come from cv2 and are numpy floats: a division by zero gives inf or nan
    (camera.py 338-360) *)
Definition solve (a x c b : num) : num := (- (a * x + c) / b)%num.
(** drawLine, 337-360: the points that are joined *)
Definition drawLine (a b c x_min x_max y_min y_max : num) : list (v2 num) :=
  let y_x_min := solve a x_min c b in
  let y_x_max := solve a x_max c b in
  let x_y_min := solve b y_min c a in
  let x_y_max := solve b y_max c a in
  ((if between y_min y_x_min y_max then [V2 x_min y_x_min] else [])
   ++ (if between y_min y_x_max y_max then [V2 x_max y_x_max] else [])
   ++ (if between x_min x_y_min x_max then [V2 x_y_min y_min] else [])
   ++ (if between x_min x_y_max x_max then [V2 x_y_max y_max] else []))%list.
(** drawEpilines, 362-374, the loop over the lines of 366-368: None is the AttributeError of line 368, where drawLine has
    returned None.  The drawing itself and the border of 363-364 are left out. *)
Fixpoint drawEpilines (w h : num) (pls : list (v2 num * v3 num)) : option (list (list (v2 num))) :=
  match pls with
  | [] => Some []
  | (_, V3 a b c) :: rest =>
    match drawLine a b c (Fin 0) w (Fin 0) h with
    | [] => None
    | l => option_map (cons l) (drawEpilines w h rest)
    end
  end.

(** Camera.getPos, camera.py 892-893: the values of the parameters pos_x_m, pos_y_m and elevation_m *)
Definition getPos (pos_x_m pos_y_m elevation_m : num) : v3 num := V3 pos_x_m pos_y_m elevation_m.
(** camera.py 370-372: where the red cross is drawn, imageFromSpace with its default hide_backpoints=True *)
Definition cross (a : camera) (pos_b : v3 num) : v2 num := imageFromSpace a pos_b true.

(** ** plotMyEpiploarLines *)
(** np.arange(-10000, 10000, 100) *)
Definition steps : list R := map (fun k => -10000 + 100 * INR k) (seq 0 200).
(** 394-398: the image in camera [a] of points of the ray of a pixel of camera [b] *)
Definition sample (a b : camera) (qb : v2 num) (s : R) : v2 num :=
  let r := getRay b qb true in imageFromSpace a (nv_add (fst r) (nv_scale (Fin s) (snd r))) false.
(** camera.py 392-411 *)
Definition pixel_points (a b : camera) (qb : v2 num) : list (v2 num) := map (sample a b qb) steps.
(** 403, 410: the foot of the perpendicular on the line through the first two of them and the number that is printed *)
Definition drawn_distance (a b : camera) (qa qb : v2 num) : option num :=
  match pixel_points a b qb with
  | p0 :: p1 :: _ => Some (nv_norm2 (nv2_sub (closest2 p0 (nv2_sub p1 p0) qa) qa))
  | _ => None
  end.
