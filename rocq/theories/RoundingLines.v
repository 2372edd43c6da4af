(** * Triangulation in rounded arithmetic: ray.py 143-157, camera.py 218-222 *)
Require Import Reals Bool.
From Verif Require Import Num Vec Orientation Projection Rounding.
Open Scope R_scope.

(** np.linalg.solve of [[a, b], [c, d]] x = (e, f): two numbers, or LinAlgError (None) (ray.py 137, 153) *)
Definition solver := R -> R -> R -> R -> R -> R -> option (R * R).

Section Rounded.
Context (A : floats) (solve : solver).
Notation fl := (f_round A).

(** __intersectionOfTwoLines, ray.py 144-157, and a row of the batch, 129-138; None stands for the row of nan *)
Definition f_lines (p1 v1 p2 v2 : v3 R) : option (v3 R) :=
  let w := zip3v (fun a b => fl (a - b)) p1 p2 in
  match solve (f_dot A v1 v1) (- f_dot A v2 v1) (f_dot A v1 v2) (- f_dot A v2 v2) (- f_dot A v1 w) (- f_dot A v2 w) with
  | None => None
  | Some (s, t) =>
      let q1 := zip3v (fun p v => fl (p + fl (s * v))) p1 v1 in
      let q2 := zip3v (fun p v => fl (p + fl (t * v))) p2 v2 in
      Some (zip3v (fun a b => fl (fl (a + b) / 2)) q1 q2)
  end.
(** CameraGroup.spaceFromImages of one pixel per camera, camera.py 218-222, for two cameras with a rectilinear
    projection and without a lens; [m1], [m2] are what np.linalg.inv returned for their matrices *)
Definition f_spaceFromImages (m1 m2 : m3 R) (r1 r2 : proj R) (o1 o2 : opar R) (q1 q2 : v2 R) : option (v3 R) :=
  f_lines (f_origin A m1 o1) (f_direction A m1 r1 q1) (f_origin A m2 o2) (f_direction A m2 r2 q2).

(** What LAPACK's dgesv does for two equations: Gaussian elimination with row interchanges (dgetf2 multiplies with the
    rounded reciprocal of the pivot), forward and backward substitution; a pivot of zero is a LinAlgError
    (np.linalg.solve of ray.py 137, 153). *)
Definition f_eliminate (a b c d e f : R) : option (R * R) :=
  if Req_EM_T a 0 then None else
  let l := fl (c * fl (1 / a)) in
  let d' := fl (d - fl (l * b)) in
  if Req_EM_T d' 0 then None else
  let y := fl (fl (f - fl (l * e)) / d') in
  Some (fl (fl (e - fl (b * y)) / a), y).
(** np.linalg.solve of ray.py 137, 153 *)
Definition f_gesv : solver := fun a b c d e f =>
  if Rltb (Rabs a) (Rabs c) then f_eliminate c d a b f e else f_eliminate a b c d e f.
End Rounded.
