(** * Model of cameratransform/ray.py *)
Require Import Reals Bool List.
From Verif Require Import Num Vec.
Import ListNotations.
Open Scope R_scope.

(** ray.py 27-48 *)
Definition tri (A : Type) := v3 (v3 A).   (* three corners *)
(** ray.py 155 *)
Definition nan3 : v3 num := V3 NaN NaN NaN.

(** ray_intersect_triangle (ray.py 27-100), the part for one ray and one triangle: the
    value of [rI] after all masking, NaN when the triangle is not hit (lines 60-86).
    [use_planes] skips the tests of lines 78-86. *)
Definition tri_param (use_planes : bool) (o d : v3 num) (t : tri num) : num :=
  let v0 := cx t in
  let u := nv_sub (cy t) v0 in
  let v := nv_sub (cz t) v0 in
  let normal := nv_cross u v in
  let b := nv_dot normal d in
  let a := nv_dot normal (nv_sub v0 o) in
  let r0 := ndiv a b in
  let r1 := if neqb b (Fin 0) && negb (neqb a (Fin 0)) then NaN else r0 in
  let r2 := if neqb b (Fin 0) && neqb a (Fin 0) then Fin 0 else r1 in
  let r3 := if (r2 <? Fin 0)%num then NaN else r2 in
  if use_planes then r3 else
  let w := nv_sub (nv_add o (nv_scale r3 d)) v0 in
  let uv := nv_dot u v in let uu := nv_dot u u in let vv := nv_dot v v in
  let denom := (uv * uv - uu * vv)%num in
  let wv := nv_dot w v in let wu := nv_dot w u in
  let si := ((uv * wv - vv * wu) / denom)%num in
  let r4 := if (si <? Fin 0)%num || (Fin 1 <? si)%num then NaN else r3 in
  let ti := ((uv * wu - uu * wv) / denom)%num in
  if (ti <? Fin 0)%num || (Fin 1 <? si + ti)%num then NaN else r4.

(** Lines 88-95: NaN becomes +inf, then the value at np.argmin over the triangles, which
    is the (first) smallest value.  Precondition of np.argmin: at least one triangle
    (an empty mesh raises ValueError). *)
Definition nan_to_inf (x : num) : num := if nisnan x then PInf else x.
(** ray.py 88-96 *)
Fixpoint min_param (best : num) (l : list num) : num :=
  match l with
  | [] => best
  | x :: l' => min_param (if (nan_to_inf x <? best)%num then nan_to_inf x else best) l'
  end.
Definition ray_intersect_triangle (use_planes : bool) (o d : v3 num) (mesh : list (tri num))
  : option (v3 num) :=
  match map (tri_param use_planes o d) mesh with
  | [] => None                                   (* ValueError of np.argmin *)
  | x :: l => Some (nv_add o (nv_scale (min_param (nan_to_inf x) l) d))   (* line 96 *)
  end.

(** distanceLinePoint, ray.py 103-104 *)
Definition distanceLinePoint (p1 v1 p2 : v3 num) : num :=
  ndiv (nv_norm (nv_cross v1 (nv_sub p1 p2))) (nv_norm v1).

(** np.linalg.solve on a 2x2 system [[a1, b1], [a2, b2]] x = [c1, c2]; [None] is
    LinAlgError.  Simplification: Cramer's rule instead of LAPACK's LU factorisation (ray.py 152-155). *)
Definition solve2 (a1 b1 a2 b2 c1 c2 : num) : option (num * num) :=
  let det := (a1 * b2 - b1 * a2)%num in
  if neqb det (Fin 0) then None
  else Some (((c1 * b2 - b1 * c2) / det)%num, ((a1 * c2 - a2 * c1) / det)%num).

(** ray.py 138, 157 *)
Definition mean2 (p q : v3 num) : v3 num := nv_div (nv_add p q) (Fin 2).

(** The 2x2 system of intersectionOfTwoLines, ray.py 129-137 and 146-153 *)
Definition lines_system (p1 v1 p2 v2 : v3 num) : option (num * num) :=
  solve2 (nv_dot v1 v1) (- nv_dot v2 v1)%num (nv_dot v1 v2) (- nv_dot v2 v2)%num
         (- nv_dot v1 (nv_sub p1 p2))%num (- nv_dot v2 (nv_sub p1 p2))%num.
(** ray.py 138, 157 *)
Definition lines_mid (p1 v1 p2 v2 : v3 num) (st : num * num) : v3 num :=
  mean2 (nv_add p1 (nv_scale (fst st) v1)) (nv_add p2 (nv_scale (snd st) v2)).
(** __intersectionOfTwoLines (one point), ray.py 144-157 *)
Definition intersectionOfTwoLines1 (p1 v1 p2 v2 : v3 num) : v3 num :=
  match lines_system p1 v1 p2 v2 with
  | None => nan3
  | Some st => lines_mid p1 v1 p2 v2 st
  end.
(** intersectionOfTwoLines for a batch of direction vectors, ray.py 127-139: one stacked
    solve, which raises if any system is singular, then the row-wise fallback. *)
Fixpoint all_some {A} (l : list (option A)) : option (list A) :=
  match l with
  | [] => Some []
  | None :: _ => None
  | Some a :: l' => option_map (cons a) (all_some l')
  end.
(** ray.py 129-140 *)
Definition intersectionOfTwoLinesN (p1 : v3 num) (vs1 : list (v3 num)) (p2 : v3 num)
  (vs2 : list (v3 num)) : list (v3 num) :=
  let rows := combine vs1 vs2 in
  match all_some (map (fun r => lines_system p1 (fst r) p2 (snd r)) rows) with
  | Some res => map (fun x => lines_mid p1 (fst (fst x)) p2 (snd (fst x)) (snd x)) (combine rows res)
  | None => map (fun r => intersectionOfTwoLines1 p1 (fst r) p2 (snd r)) rows
  end.

(** np.isclose(x, 0): |x| <= 1e-8 (default atol; the relative term vanishes for 0) (ray.py 211, 216, 219). *)
Definition close_tol : R := / 100000000.
(** ray.py 211, 216, 219 *)
Definition isclose0 (x : num) : bool := (nabs x <=? Fin close_tol)%num.

(** __distanceOfTwoLines, ray.py 200-233 *)
Definition distanceOfTwoLines1 (p1 v1 p2 v2 : v3 num) : num :=
  let p1p2 := nv_sub p2 p1 in
  let c := nv_cross v1 v2 in
  let nc := nv_norm c in
  if isclose0 nc then
    let nv1 := nv_norm v1 in
    if isclose0 nv1 then
      if isclose0 (nv_norm v2) then nv_norm p1p2
      else ndiv (nv_norm (nv_cross p1p2 v2)) (nv_norm v2)
    else ndiv (nv_norm (nv_cross p1p2 v1)) nv1
  else ndiv (nabs (nv_dot p1p2 c)) nc.
(** distanceOfTwoLines for a batch, ray.py 181-182 *)
Definition distanceOfTwoLinesN (p1 : v3 num) (vs1 : list (v3 num)) (p2 : v3 num)
  (vs2 : list (v3 num)) : list num :=
  map (fun r => distanceOfTwoLines1 p1 (fst r) p2 (snd r)) (combine vs1 vs2).

(** areaOfTriangle, ray.py 249-254 (3-D corners). *)
Definition areaOfTriangle (t : tri num) : num :=
  let a := nv_norm (nv_sub (cx t) (cy t)) in
  let b := nv_norm (nv_sub (cy t) (cz t)) in
  let c := nv_norm (nv_sub (cz t) (cx t)) in
  let s := ((a + b + c) / Fin 2)%num in
  nsqrt (s * (s - a) * (s - b) * (s - c))%num.

(** areaOfQuadrilateral, ray.py 285-290 *)
Definition areaOfQuadrilateral (A B C D : v2 num) : num :=
  (Fin (1 / 2) * nabs ((c2 A - c2 C) * (c1 D - c1 B) + (c2 B - c2 D) * (c1 A - c1 C)))%num.

(** extrudeLine, ray.py 293-302: corner lists of the triangles. *)
Definition at_z (p : v2 num) (z : num) : v3 num := V3 (c1 p) (c2 p) z.
(** ray.py 294-302 *)
Fixpoint extrude_from (last : v2 num) (pts : list (v2 num)) (z0 z1 : num) : list (tri num) :=
  match pts with
  | [] => []
  | p :: pts' =>
      V3 (at_z p z0) (at_z last z0) (at_z p z1)
      :: V3 (at_z p z0) (at_z last z0) (at_z last z1)
      :: extrude_from p pts' z0 z1
  end.
(** ray.py 293-302 *)
Definition extrudeLine (pts : list (v2 num)) (z0 z1 : num) : list (tri num) :=
  match pts with [] => [] | p :: pts' => extrude_from p pts' z0 z1 end.

(** getClosestPointFromLine, ray.py 322-332, for one line and one point.  The second
    component is the new content of the caller's array [ray] (the in-place [/=] of line
    326). *)
Definition getClosestPointFromLine (origin ray point : v3 num) : v3 num * v3 num :=
  let delta := nv_sub point origin in
  let ray' := nv_div ray (nv_norm ray) in
  let factor := nv_dot ray' delta in
  (nv_add origin (nv_scale factor ray'), ray').
