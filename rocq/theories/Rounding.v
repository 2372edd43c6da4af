(** * The transformations in rounded arithmetic: spatial.py 107-203, projection.py 379-408, camera.py 1000-1165 *)
Require Import Reals Bool.
From Verif Require Import Num Vec Orientation Projection.
Open Scope R_scope.

(** Elsewhere the arithmetic of finite numbers is exact.  Here the same functions are written over the reals with an
    arbitrary rounding of every operation: [f_round] rounds the exact result of one numpy operation (+, -, *, /),
    [f_rad] is np.deg2rad, [f_sin] and [f_cos] are np.sin and np.cos, and [f_dot] is the sum of three products that
    np.dot computes (its order is left open).  Infinities and nan appear only where a function writes them: None
    stands for a row of nan.  Overflow and underflow are not modelled (binary floating point; spatial.py
    107-203, projection.py 379-408). *)
Record floats := Floats
  { f_round : R -> R; f_rad : R -> R; f_sin : R -> R; f_cos : R -> R; f_dot : v3 R -> v3 R -> R }.

Section Rounded.
Context (A : floats).
Notation fl := (f_round A).

(** np.dot(a, b) of two matrices (spatial.py 129) *)
Definition f_mul (a b : m3 R) : m3 R :=
  let bt := rm_trans b in
  map3v (fun row => V3 (f_dot A row (cx bt)) (f_dot A row (cy bt)) (f_dot A row (cz bt))) a.
(** np.dot(p, m.T) for one point (spatial.py 163-164, 199-203) *)
Definition f_mul_v (m : m3 R) (p : v3 R) : v3 R := V3 (f_dot A p (cx m)) (f_dot A p (cy m)) (f_dot A p (cz m)).

(** _initCameraMatrix, spatial.py 111-129, for a heading that is not replaced by line 109 (that of every object after
    an assignment, C04): self.R *)
Definition f_matrix (o : opar R) : m3 R :=
  let tilt := f_rad A (tilt_deg o) in
  let roll := f_rad A (roll_deg o) in
  let heading := f_rad A (heading_deg o) in
  f_mul (f_mul
    (V3 (V3 (f_cos A roll) (f_sin A roll) 0) (V3 (- f_sin A roll) (f_cos A roll) 0) (V3 0 0 1))
    (V3 (V3 1 0 0) (V3 0 (f_cos A tilt) (f_sin A tilt)) (V3 0 (- f_sin A tilt) (f_cos A tilt))))
    (V3 (V3 (f_cos A heading) (- f_sin A heading) 0) (V3 (f_sin A heading) (f_cos A heading) 0) (V3 0 0 1)).

(** cameraFromSpace, 163-164, with the matrix [m] for self.R and [t] for self.t *)
Definition f_camera (m : m3 R) (t p : v3 R) : v3 R := f_mul_v m (zip3v (fun a b => fl (a - b)) p t).
(** spaceFromCamera, 199-203; [mi] for self.R_inv *)
Definition f_space (mi : m3 R) (t p : v3 R) (direction : bool) : v3 R :=
  let q := f_mul_v mi p in if direction then q else zip3v (fun a b => fl (a + b)) q t.

(** RectilinearProjection.getRay without normalisation, projection.py 379-390; a change of sign is exact *)
Definition f_rect_ray (c : proj R) (q : v2 R) : v3 R :=
  rv_neg (V3 (fl (- fl (c1 q - center_x c) / f_x c)) (fl (fl (c2 q - center_y c) / f_y c)) 1).
(** RectilinearProjection.imageFromCamera, 392-408; a point set to zero has the pixel 0/0 *)
Definition f_rect_image (c : proj R) (p : v3 R) (hide : bool) : option (v2 R) :=
  if Rltb (Rabs (cz p)) (/ 10000000000) then None
  else if hide && Rltb 0 (cz p) then None
  else Some (V2 (fl (fl (fl (- cx p * f_x c) / cz p) + center_x c)) (fl (fl (fl (cy p * f_y c) / cz p) + center_y c))).

(** imageFromSpace, camera.py 970-1005, of a camera without lens distortion and with a rectilinear projection *)
Definition f_imageFromSpace (c : proj R) (o : opar R) (p : v3 R) (hide : bool) : option (v2 R) :=
  f_rect_image c (f_camera (f_matrix o) (opos o) p) hide.
(** getRay, 1047-1056; [mi] is what np.linalg.inv returned *)
Definition f_origin (mi : m3 R) (o : opar R) : v3 R := f_space mi (opos o) (V3 0 0 0) false.
(** camera.py 1049-1056 *)
Definition f_direction (mi : m3 R) (c : proj R) (q : v2 R) : v3 R := f_space mi (V3 0 0 0) (f_rect_ray c q) true.
(** spaceFromImage with a given Z for one pixel, 1137-1165; the direction's third coordinate must not be zero *)
Definition f_spaceFromImage (mi : m3 R) (c : proj R) (o : opar R) (q : v2 R) (z : R) : option (v3 R) :=
  let offset := f_origin mi o in
  let direction := f_direction mi c q in
  let factor := fl (fl (z - cz offset) / cz direction) in
  if Rltb factor 0 then None
  else Some (zip3v (fun d o => fl (fl (d * factor) + o)) direction offset).
End Rounded.
