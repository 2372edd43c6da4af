(** * Model of cameratransform/lens_distortion.py *)
Require Import Reals Bool List Arith.
From Verif Require Import Num Vec Projection CameraTransform.
Import ListNotations.
Open Scope R_scope.

(** ** invert_function, lens_distortion.py 24-36 *)
(** Line 28: [dy = concatenate(([0], diff(y)))]. *)
Fixpoint diffs (last : num) (ys : list num) : list num :=
  match ys with [] => [] | y :: ys' => (y - last)%num :: diffs y ys' end.
(** lens_distortion.py 24-36 *)
Definition dys (ys : list num) : list num :=
  match ys with [] => [] | y :: ys' => Fin 0 :: diffs y ys' end.
(** Lines 29-30: the samples (y, x) with [dy >= 0] (false for nan). *)
Definition kept (samples : list (num * num)) : list (num * num) :=
  map snd (filter (fun p => (Fin 0 <=? fst p)%num) (combine (dys (map fst samples)) samples)).
(** The check of scipy's InterpolatedUnivariateSpline (default k=3): at least four points
    and [np.all(np.diff(x) > 0.0)]; otherwise it raises ValueError (lens_distortion.py 24-36). *)
Fixpoint strictly_incr (ys : list num) : bool :=
  match ys with
  | a :: ((b :: _) as l) => (Fin 0 <? b - a)%num && strictly_incr l
  | _ => true
  end.
(** [spline] is scipy's interpolating spline through accepted knots, an oracle. *)
Definition invert_function (spline : list (num * num) -> num -> num)
  (xs : list num) (func : num -> num) : num -> num :=
  let ks := kept (combine (map func xs) xs) in
  if strictly_incr (map fst ks) && (4 <=? length ks)%nat then spline ks
  else fun x => x.                                        (* lens_distortion.py 34-35 *)

(** The sample radii, np.arange(0, 2, 0.1) (lens_distortion.py 142 and 235). *)
Definition radii : list num := map (fun i => Fin (INR i / 10)) (seq 0 20).

(** ** The lens objects *)
(** What the transforms use: offset, scale, radius map and its inverse.  ABC's scalar
    scale is stored twice (numpy broadcasting) (lens_distortion.py 141-146, 233-240). *)
Record lens := Lens
  { l_offset : v2 num; l_scale : v2 num; l_conv : num -> num; l_inv : num -> num }.

(** BrownLensDistortion._convert_radius, lens_distortion.py 149 *)
Definition brown_radius (k1 k2 k3 r : num) : num :=
  (r * (Fin 1 + k1 * npow r 2 + k2 * npow r 4 + k3 * npow r 6))%num.
(** ABCDistortion._convert_radius and d, lens_distortion.py 234 and 243 *)
Definition abc_radius (a b c r : num) : num :=
  let d := (Fin 1 - a - b - c)%num in
  (d * r + c * npow r 2 + b * npow r 3 + a * npow r 4)%num.

(** State after setProjection/_init_inverse: lens_distortion.py 61-62, 141-146 and 233-240 *)
Definition brown_lens spline (k1 k2 k3 : num) (p : proj num) : lens :=
  Lens (V2 (center_x p) (center_y p)) (V2 (f_x p) (f_y p))
    (brown_radius k1 k2 k3) (invert_function spline radii (brown_radius k1 k2 k3)).
(** lens_distortion.py 233-240 *)
Definition abc_lens spline (a b c : num) (p : proj num) : lens :=
  let s := (nmin (im_width p) (im_height p) / Fin 2)%num in
  Lens (V2 (center_x p) (center_y p)) (V2 s s)
    (abc_radius a b c) (invert_function spline radii (abc_radius a b c)).

(** imageFromDistorted / distortedFromImage, lens_distortion.py 151-173 and 245-267, one point *)
Definition lens_map (l : lens) (conv : num -> num) (q : v2 num) : v2 num :=
  let points := zip2v ndiv (zip2v nsub q (l_offset l)) (l_scale l) in
  let r := nv_norm2 points in
  let points' := map2v (fun x => (x / r * conv r)%num) points in
  zip2v nadd (zip2v nmul points' (l_scale l)) (l_offset l).
(** lens_distortion.py 163-173, 257-267 *)
Definition distortedFromImage (l : lens) (q : v2 num) : v2 num := lens_map l (l_conv l) q.
(** lens_distortion.py 151-161, 245-255 *)
Definition imageFromDistorted (l : lens) (q : v2 num) : v2 num := lens_map l (l_inv l) q.

(** A camera with a lens (camera.py 444-459). *)
Definition lens_camera (k : pkind) (p : proj num) (o : Orientation.omat) (l : lens) : camera :=
  Camera k p o (distortedFromImage l) (imageFromDistorted l).
