(** * Intersecting rays with meshes in rounded arithmetic: ray.py 27-100 *)
Require Import Reals Bool List.
From Verif Require Import Num Vec Ray Rounding.
Import ListNotations.
Open Scope R_scope.

Section Rounded.
Context (A : floats).
Notation fl := (f_round A).

(** a difference, np.cross, and a point of the ray (ray.py 63-67, 79, 96) *)
Definition f_sub (a b : v3 R) : v3 R := zip3v (fun x y => fl (x - y)) a b.
(** ray.py 65 *)
Definition f_cross (a b : v3 R) : v3 R :=
  V3 (fl (fl (cy a * cz b) - fl (cz a * cy b))) (fl (fl (cz a * cx b) - fl (cx a * cz b))) (fl (fl (cx a * cy b) - fl (cy a * cx b))).
(** ray.py 79, 96 *)
Definition f_ray_at (o d : v3 R) (r : R) : v3 R := zip3v (fun x y => fl (x + fl (r * y))) o d.
(** a quotient, which may be infinite or nan, and a sum of such numbers (ray.py 82-86) *)
Definition f_quot (a b : R) : num := if Req_EM_T b 0 then ndiv (Fin a) (Fin b) else Fin (fl (a / b)).
(** ray.py 86 *)
Definition f_sum (x y : num) : num := match x, y with Fin a, Fin b => Fin (fl (a + b)) | _, _ => nadd x y end.

(** Lines 64-76: rI for one triangle after the tests of its sign, None for nan.  my_inner and np.inner are sums of three
    products (f_dot). *)
Definition f_plane (o d : v3 R) (t : tri R) : option R :=
  let n := f_cross (f_sub (cy t) (cx t)) (f_sub (cz t) (cx t)) in
  let b := f_dot A n d in
  let a := f_dot A n (f_sub (cx t) o) in
  if Req_EM_T b 0 then if Req_EM_T a 0 then Some 0 else None
  else let r := fl (a / b) in if Rltb r 0 then None else Some r.
(** Lines 78-86: the two coordinates in the triangle *)
Definition f_inside (o d : v3 R) (t : tri R) (r : R) : bool :=
  let u := f_sub (cy t) (cx t) in
  let v := f_sub (cz t) (cx t) in
  let w := f_sub (f_ray_at o d r) (cx t) in
  let uv := f_dot A u v in let uu := f_dot A u u in let vv := f_dot A v v in
  let denom := fl (fl (uv * uv) - fl (uu * vv)) in
  let wv := f_dot A w v in let wu := f_dot A w u in
  let si := f_quot (fl (fl (uv * wv) - fl (vv * wu))) denom in
  let ti := f_quot (fl (fl (uv * wu) - fl (uu * wv))) denom in
  negb ((si <? Fin 0)%num || (Fin 1 <? si)%num || (ti <? Fin 0)%num || (Fin 1 <? f_sum si ti)%num).
(** ray.py 60-86 *)
Definition f_param (use_planes : bool) (o d : v3 R) (t : tri R) : option R :=
  match f_plane o d t with
  | Some r => if use_planes then Some r else if f_inside o d t r then Some r else None
  | None => None
  end.
(** Lines 88-95: the smallest rI of all triangles *)
Fixpoint f_min (l : list (option R)) : option R :=
  match l with
  | [] => None
  | x :: l => match x, f_min l with
              | None, m => m
              | Some r, None => Some r
              | Some r, Some s => Some (if Rltb s r then s else r)
              end
  end.
(** ray_intersect_triangle for one ray; None: np.argmin of no triangles raises ValueError; Some None: no triangle is hit,
    the row is made of inf and nan (ray.py 27-100) *)
Definition f_mesh (use_planes : bool) (o d : v3 R) (mesh : list (tri R)) : option (option (v3 R)) :=
  match mesh with
  | [] => None
  | _ => Some (option_map (f_ray_at o d) (f_min (map (f_param use_planes o d) mesh)))
  end.
End Rounded.
