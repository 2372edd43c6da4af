(** * Heights and lengths of objects in rounded arithmetic: camera.py 1143-1157, 1243-1251, 1272-1278 *)
Require Import Reals Bool.
From Verif Require Import Num Vec Orientation Projection CameraTransform Rounding RoundingGps.
Open Scope R_scope.

Section Rounded.
Context (G : gfloats).
Notation A := (g_ops G).
Notation fl := (f_round A).

(** spaceFromImage with a given X, Y or Z for one pixel, 1143-1157: f_spaceFromImage of Rounding.v with any of the three
    coordinates; that coordinate of the direction must not be zero *)
Definition f_spaceOn (mi : m3 R) (c : proj R) (o : opar R) (q : v2 R) (i : axis3) (v : R) : option (v3 R) :=
  let offset := f_origin A mi o in
  let direction := f_direction A mi c q in
  let factor := fl (fl (v - get_axis i offset) / get_axis i direction) in
  if Rltb factor 0 then None
  else Some (zip3v (fun d o => fl (fl (d * factor) + o)) direction offset).
(** getObjectHeight, 1243-1251, for one object.  A row of nan (None) makes every coordinate that is computed from it
    nan.  np.mean of two rows is their sum divided by two. *)
Definition f_getObjectHeight (mi : m3 R) (c : proj R) (o : opar R) (feet head : v2 R) (z : R) : option R :=
  match f_spaceOn mi c o feet AZ z with
  | Some p =>
    match f_spaceOn mi c o head AY (cy p), f_spaceOn mi c o head AX (cx p) with
    | Some h1, Some h2 => Some (fl (fl (fl (cz h1 + cz h2) / 2) - cz p))
    | _, _ => None
    end
  | None => None
  end.
(** np.linalg.norm of a row: the square root of the sum of the squares (camera.py 1251, 1278) *)
Definition f_norm3 (p : v3 R) : R := g_sqrt G (fl (fl (fl (cx p * cx p) + fl (cy p * cy p)) + fl (cz p * cz p))).
(** getObjectLength, 1272-1278, for one object *)
Definition f_getObjectLength (mi : m3 R) (c : proj R) (o : opar R) (front back : v2 R) (z : R) : option R :=
  match f_spaceOn mi c o front AZ z, f_spaceOn mi c o back AZ z with
  | Some p, Some q => Some (f_norm3 (zip3v (fun a b => fl (a - b)) p q))
  | _, _ => None
  end.
End Rounded.
