(** * Model of the projections in cameratransform/projection.py (344-581)

    Each function is modelled for one point (one row of the array); the batch versions
    and the in-place write of [points[...] = 0] are in NdCamera.v. *)
Require Import Reals Bool.
From Verif Require Import Num Vec.
Open Scope R_scope.

(** The parameter values of a projection (projection.py 173-190). *)
Record proj (A : Type) := Proj
  { f_x : A; f_y : A; center_x : A; center_y : A; im_width : A; im_height : A }.
Arguments Proj {A}. Arguments f_x {A}. Arguments f_y {A}. Arguments center_x {A}.
Arguments center_y {A}. Arguments im_width {A}. Arguments im_height {A}.

(** projection.py 344, 429, 508 *)
Inductive pkind := Rectilinear | Cylindrical | Equirectangular.

(** projection.py 406-407 *)
Definition nan2 : v2 num := V2 NaN NaN.

(** projection.py 401, 477, 554: [points[np.abs(points[..., 2]) < 1e-10] = 0] replaces the
    whole row by zeros. *)
Definition mask_small_z (p : v3 num) : v3 num :=
  if (nabs (cz p) <? Fin (/ 10000000000))%num then V3 (Fin 0) (Fin 0) (Fin 0) else p.

(** Last lines of every getRay (386-390): optional normalisation, then negation. *)
Definition finish_ray (ray : v3 num) (normed : bool) : v3 num :=
  nv_neg (if normed then nv_div ray (nv_norm ray) else ray).

(** RectilinearProjection.getRay, 379-390 *)
Definition rect_getRay (c : proj num) (q : v2 num) (normed : bool) : v3 num :=
  finish_ray (V3 (- (c1 q - center_x c) / f_x c)%num ((c2 q - center_y c) / f_y c)%num (Fin 1)) normed.
(** RectilinearProjection.imageFromCamera, 392-408 *)
Definition rect_image (c : proj num) (p0 : v3 num) (hide : bool) : v2 num :=
  let p := mask_small_z p0 in
  let t := V2 (- cx p * f_x c / cz p + center_x c)%num (cy p * f_y c / cz p + center_y c)%num in
  if hide && (Fin 0 <? cz p)%num then nan2 else t.

(** CylindricalProjection.getRay, 452-467 *)
Definition cyl_getRay (c : proj num) (q : v2 num) (normed : bool) : v3 num :=
  let alpha := ((c1 q - center_x c) / f_x c)%num in
  let r := Fin 1 in
  finish_ray (V3 (- nsin alpha * r)%num (r * (c2 q - center_y c) / f_y c)%num (ncos alpha * r)%num) normed.
(** CylindricalProjection.imageFromCamera, 469-487; [hide_backpoints] is ignored. *)
Definition cyl_image (c : proj num) (p0 : v3 num) (hide : bool) : v2 num :=
  let p := mask_small_z p0 in
  let t := V2 (- f_x c * natan2 (- cx p) (- cz p) + center_x c)%num
              (- f_y c * cy p / nsqrt (cx p * cx p + cz p * cz p) + center_y c)%num in
  if nisnan (c2 t) then nan2 else t.

(** EquirectangularProjection.getRay, 529-544 *)
Definition equi_getRay (c : proj num) (q : v2 num) (normed : bool) : v3 num :=
  let alpha := ((c1 q - center_x c) / f_x c)%num in
  let r := Fin 1 in
  finish_ray (V3 (- nsin alpha * r)%num (r * ntan ((c2 q - center_y c) / f_y c))%num (ncos alpha * r)%num) normed.
(** EquirectangularProjection.imageFromCamera, 546-563; [hide_backpoints] is ignored. *)
Definition equi_image (c : proj num) (p0 : v3 num) (hide : bool) : v2 num :=
  let p := mask_small_z p0 in
  V2 (- f_x c * natan2 (- cx p) (- cz p) + center_x c)%num
     (- f_y c * natan2 (cy p) (nsqrt (cx p * cx p + cz p * cz p)) + center_y c)%num.

(** Method dispatch on the class of the projection (projection.py 256-289, 379-390, 451-466, 529-544). *)
Definition p_getRay (k : pkind) : proj num -> v2 num -> bool -> v3 num :=
  match k with Rectilinear => rect_getRay | Cylindrical => cyl_getRay | Equirectangular => equi_getRay end.
(** projection.py 222-254, 392-408, 468-487, 546-563 *)
Definition p_image (k : pkind) : proj num -> v3 num -> bool -> v2 num :=
  match k with Rectilinear => rect_image | Cylindrical => cyl_image | Equirectangular => equi_image end.

(** getFieldOfView: 410-412 (rectilinear), 489-491 (cylindrical), 565-567 (equirectangular) *)
Definition fov_tan (size f : num) : num :=
  nrad2deg (Fin 2 * natan (size / (Fin 2 * f)))%num.
(** projection.py 490-491, 566-567 *)
Definition fov_arc (size f : num) : num := nrad2deg (size / f)%num.
(** projection.py 291-303, 410-412, 489-491, 565-567 *)
Definition getFieldOfView (k : pkind) (c : proj num) : v2 num :=
  match k with
  | Rectilinear => V2 (fov_tan (im_width c) (f_x c)) (fov_tan (im_height c) (f_y c))
  | Cylindrical => V2 (fov_arc (im_width c) (f_x c)) (fov_tan (im_height c) (f_y c))
  | Equirectangular => V2 (fov_arc (im_width c) (f_x c)) (fov_arc (im_height c) (f_y c))
  end.

(** focallengthFromFOV: 414-418, 493-497, 569-573.  The arguments are Python's optional
    [view_x], [view_y]; [view_x] wins if both are given. *)
Definition f_tan (size view : num) : num := (size / (Fin 2 * ntan (ndeg2rad view / Fin 2)))%num.
(** projection.py 493-497, 569-573 *)
Definition f_arc (size view : num) : num := (size / ndeg2rad view)%num.
(** projection.py 305-322, 414-418, 493-497, 569-573 *)
Definition focallengthFromFOV (k : pkind) (c : proj num) (vx : option num) (vy : num) : num :=
  match k, vx with
  | Rectilinear, Some v => f_tan (im_width c) v
  | Rectilinear, None => f_tan (im_height c) vy
  | Cylindrical, Some v => f_arc (im_width c) v
  | Cylindrical, None => f_tan (im_height c) vy
  | Equirectangular, Some v => f_arc (im_width c) v
  | Equirectangular, None => f_arc (im_height c) vy
  end.

(** imageFromFOV: 420-426, 499-505, 575-581 *)
Definition i_tan (f view : num) : num := (f * (Fin 2 * ntan (ndeg2rad view / Fin 2)))%num.
(** projection.py 499-505, 575-581 *)
Definition i_arc (f view : num) : num := (f * ndeg2rad view)%num.
(** projection.py 324-341, 420-426, 499-505, 575-581 *)
Definition imageFromFOV (k : pkind) (c : proj num) (vx : option num) (vy : num) : num :=
  match k, vx with
  | Rectilinear, Some v => i_tan (f_x c) v
  | Rectilinear, None => i_tan (f_y c) vy
  | Cylindrical, Some v => i_arc (f_x c) v
  | Cylindrical, None => i_tan (f_y c) vy
  | Equirectangular, Some v => i_arc (f_x c) v
  | Equirectangular, None => i_arc (f_y c) vy
  end.

(** Finite parameter values (no code: relates the numbers of projection.py 164-174 to real numbers). *)
Definition rep_proj (c : proj num) (r : proj R) : Prop :=
  rep (f_x c) (f_x r) /\ rep (f_y c) (f_y r) /\ rep (center_x c) (center_x r) /\
  rep (center_y c) (center_y r) /\ rep (im_width c) (im_width r) /\ rep (im_height c) (im_height r).
(** no code: the parameters of projection.py 164-174 for given real numbers *)
Definition proj_fin (r : proj R) : proj num :=
  Proj (Fin (f_x r)) (Fin (f_y r)) (Fin (center_x r)) (Fin (center_y r)) (Fin (im_width r)) (Fin (im_height r)).
