(** * Panoramas in rounded arithmetic: projection.py 450-488, 529-563, camera.py 970-1005, 1047-1056, 1137-1165 *)
Require Import Reals Bool.
From Verif Require Import Num Vec Orientation Projection Rounding RoundingGps.
Open Scope R_scope.

(** The operations of Rounding.v and RoundingGps.v and np.tan (projection.py 450-488, 529-563) *)
Record pfloats := PFloats { p_ops : gfloats; p_tan : R -> R }.

Section Rounded.
Context (T : pfloats).
Notation G := (p_ops T).
Notation A := (g_ops G).
Notation fl := (f_round A).

(** getRay without normalisation, 450-466 (cylindrical) and 529-544 (equirectangular); the products with r = 1 and the
    changes of sign are exact *)
Definition f_alpha (c : proj R) (q : v2 R) : R := fl (fl (c1 q - center_x c) / f_x c).
(** projection.py 453-466, 531-544 *)
Definition f_beta (c : proj R) (q : v2 R) : R := fl (fl (c2 q - center_y c) / f_y c).
(** projection.py 451-466 *)
Definition f_cyl_ray (c : proj R) (q : v2 R) : v3 R :=
  rv_neg (V3 (- f_sin A (f_alpha c q)) (f_beta c q) (f_cos A (f_alpha c q))).
(** projection.py 529-544 *)
Definition f_equi_ray (c : proj R) (q : v2 R) : v3 R :=
  rv_neg (V3 (- f_sin A (f_alpha c q)) (p_tan T (f_beta c q)) (f_cos A (f_alpha c q))).
(** the ray of a camera with projection [k] (projection.py 379-390, 451-466, 529-544) *)
Definition f_ray (k : pkind) : proj R -> v2 R -> v3 R :=
  match k with Rectilinear => f_rect_ray A | Cylindrical => f_cyl_ray | Equirectangular => f_equi_ray end.

(** imageFromCamera: the distance to the vertical axis of the camera, np.sqrt(x ** 2 + z ** 2) (projection.py
    475-487, 553-563) *)
Definition f_radius (p : v3 R) : R := g_sqrt G (fl (fl (cx p * cx p) + fl (cz p * cz p))).
(** the column, 477 and 559 *)
Definition f_pan_x (c : proj R) (p : v3 R) : R := fl (fl (- f_x c * g_atan2 G (- cx p) (- cz p)) + center_x c).
(** 468-487; a point set to zero has the row 0/0, and the column follows (485) *)
Definition f_cyl_image (c : proj R) (p : v3 R) : option (v2 R) :=
  if Rltb (Rabs (cz p)) (/ 10000000000) then None
  else Some (V2 (f_pan_x c p) (fl (fl (fl (- f_y c * cy p) / f_radius p) + center_y c))).
(** 546-563; a point set to zero (555) has x = y = z = 0: np.arctan2(-0., -0.) is -np.pi and np.arctan2(0., 0.) is 0 *)
Definition f_equi_image (c : proj R) (p : v3 R) : option (v2 R) :=
  if Rltb (Rabs (cz p)) (/ 10000000000) then Some (V2 (fl (fl (- f_x c * - g_atan2 G 0 (-1)) + center_x c)) (fl (fl (- f_y c * 0) + center_y c)))
  else Some (V2 (f_pan_x c p) (fl (fl (- f_y c * g_atan2 G (cy p) (f_radius p)) + center_y c))).
(** projection.py 468-487, 546-563 *)
Definition f_pan_image (k : pkind) (c : proj R) (p : v3 R) : option (v2 R) :=
  match k with
  | Rectilinear => f_rect_image A c p false
  | Cylindrical => f_cyl_image c p
  | Equirectangular => f_equi_image c p
  end.

(** imageFromSpace, camera.py 970-1005, of a camera without lens distortion, hide_backpoints=False (the panoramas
    ignore it) *)
Definition f_panFromSpace (k : pkind) (c : proj R) (o : opar R) (p : v3 R) : option (v2 R) :=
  f_pan_image k c (f_camera A (f_matrix A o) (opos o) p).
(** getRay, 1047-1056 and spaceFromImage with a given Z, 1137-1165, as in Rounding.v *)
Definition f_pan_direction (k : pkind) (mi : m3 R) (c : proj R) (q : v2 R) : v3 R :=
  f_space A mi (V3 0 0 0) (f_ray k c q) true.
(** camera.py 1137-1157 *)
Definition f_spaceFromPan (k : pkind) (mi : m3 R) (c : proj R) (o : opar R) (q : v2 R) (z : R) : option (v3 R) :=
  let offset := f_origin A mi o in
  let direction := f_pan_direction k mi c q in
  let factor := fl (fl (z - cz offset) / cz direction) in
  if Rltb factor 0 then None
  else Some (zip3v (fun d o => fl (fl (d * factor) + o)) direction offset).
End Rounded.
