(** * Rays and triangles on arrays: ray.py 23-100 *)
Require Import Reals List Bool Arith.
From Verif Require Import Num Vec NdArray NdCamera.
Import ListNotations.
Open Scope nat_scope.

(** my_inner, 23-24: einsum('...k,...k->...') *)
Definition my_inner (a b : arr num) : option (arr num) := olet p := ew2 nmul a b in sum_last p.
(** np.inner of two arrays of vectors: all pairs (ray.py 23-24) *)
Definition inner (a b : arr num) : option (arr num) :=
  match dims a, dims b with
  | [n; t], [m; r] =>
    if n =? m then Some (Arr [r; t] (fun i => match i with [j; k] => sum_to (fun l => get a [l; k] * get b [l; j])%num n | _ => NaN end)) else None
  | _, _ => None
  end.
(** np.cross of two arrays of one shape with three columns (ray.py 49-100) *)
Definition cross (a b : arr num) : option (arr num) :=
  match dims a with
  | 3 :: s => if list_eq_dec Nat.eq_dec (dims a) (dims b)
      then Some (Arr (3 :: s) (fun i => match i with k :: j => get (of3 (nv_cross (row3 a j) (row3 b j))) [k] | [] => NaN end)) else None
  | _ => None
  end.
(** a[..., k, :] (ray.py 49-100) *)
Definition corner (k : nat) (a : arr num) : option (arr num) :=
  match dims a with
  | c :: v :: s => if k <? v then Some (Arr (c :: s) (fun i => match i with j :: r => get a (j :: k :: r) | [] => NaN end)) else None
  | _ => None
  end.
(** a[..., None, :] (ray.py 49-100) *)
Definition newpen (a : arr num) : option (arr num) :=
  match dims a with
  | c :: s => Some (Arr (c :: 1 :: s) (fun i => match i with j :: _ :: r => get a (j :: r) | _ => NaN end))
  | [] => None
  end.
(** np.argmin over the first axis (of length [n] > 0) of a two-dimensional array without nan (ray.py 88-92) *)
Fixpoint argmin (f : nat -> num) (n : nat) : nat :=
  match n with
  | O => O
  | S m => let best := argmin f m in if (f n <? f best)%num then n else best
  end.
(** a[0] (ray.py 49-100) *)
Definition first (a : arr num) : option (arr num) :=
  match dims a with
  | [] => None
  | _ => if last (dims a) 0 =? 0 then None else Some (Arr (removelast (dims a)) (fun i => get a (i ++ [0])%list))
  end.
(** ray.py 49-100 *)
Definition zero : num := Fin 0.
(** 62-86: the parameter of every ray on every triangle *)
Definition param_a (origin direction triangle : arr num) (use_planes : bool) : option (arr num) :=
  olet v0 := corner 0 triangle in
  olet v1 := corner 1 triangle in
  olet v2 := corner 2 triangle in
  olet u := ew2 nsub v1 v0 in
  olet v := ew2 nsub v2 v0 in
  olet normal := cross u v in
  olet b := inner normal direction in
  olet normal' := newpen normal in
  olet v0' := newpen v0 in
  olet origin' := newfirst origin in
  olet diff := ew2 nsub v0' origin' in
  olet a := my_inner normal' diff in
  olet rI := ew2 ndiv a b in
  olet m1 := ew2 andb (ew1 (fun b => neqb b zero) b) (ew1 (fun a => negb (neqb a zero)) a) in
  olet rI := setmask rI m1 NaN in
  olet m2 := ew2 andb (ew1 (fun b => neqb b zero) b) (ew1 (fun a => neqb a zero) a) in
  olet rI := setmask rI m2 (Fin 0) in
  olet rI := setmask rI (ew1 (fun r => (r <? zero)%num) rI) NaN in
  if use_planes then Some rI else
  olet w := ew2 nmul (newlast rI) direction in
  olet w := ew2 nadd origin w in
  olet w := ew2 nsub w v0' in
  olet uv := my_inner u v in
  olet uu := my_inner u u in
  olet vv := my_inner v v in
  olet d1 := ew2 nmul uv uv in
  olet d2 := ew2 nmul uu vv in
  olet denom := ew2 nsub d1 d2 in
  olet denom := newsecond denom in
  olet v' := newpen v in
  olet u' := newpen u in
  olet wv := my_inner w v' in
  olet wu := my_inner w u' in
  olet s1 := ew2 nmul (newlast uv) wv in
  olet s2 := ew2 nmul (newlast vv) wu in
  olet s := ew2 nsub s1 s2 in
  olet si := ew2 ndiv s denom in
  olet m3 := ew2 orb (ew1 (fun s => (s <? zero)%num) si) (ew1 (fun s => (Fin 1 <? s)%num) si) in
  olet rI := setmask rI m3 NaN in
  olet t1 := ew2 nmul (newlast uv) wu in
  olet t2 := ew2 nmul (newlast uu) wv in
  olet t := ew2 nsub t1 t2 in
  olet ti := ew2 ndiv t denom in
  olet st := ew2 nadd si ti in
  olet m4 := ew2 orb (ew1 (fun t => (t <? zero)%num) ti) (ew1 (fun s => (Fin 1 <? s)%num) st) in
  setmask rI m4 NaN.
(** 88-96: nanargmin replaces the nan in [rI] itself by inf; the value of the first smallest entry of every ray *)
Definition nearest_a (rI : arr num) : option (arr num) :=
  let a := ew1 (fun x => if nisnan x then PInf else x) rI in
  match dims a with
  | [r; S t] => Some (Arr [r] (fun i => match i with [j] => get a [j; argmin (fun k => get a [j; k]) t] | _ => NaN end))
  | _ => None
  end.
(** 49-100 *)
Definition ray_intersect_triangle_a (origin direction triangle : arr num) (use_planes : bool) : option (arr num) :=
  let single := match dims direction with [_] => true | _ => false end in
  olet direction := if single then newfirst direction else Some direction in
  olet triangle := match dims triangle with [_; _] => newfirst triangle | _ => Some triangle end in
  olet rI := param_a origin direction triangle use_planes in
  olet rI := nearest_a rI in
  olet p := ew2 nmul (newlast rI) direction in
  olet point := ew2 nadd origin p in
  if single then first point else Some point.
(** spaceFromImage with a mesh, camera.py 1121 and 1133-1136 *)
Definition spaceFromImage_mesh_a (c : ndcam) (points mesh : arr num) : option (arr num) :=
  olet points := ensure 2 points in
  olet r := getRay_a c points false in
  ray_intersect_triangle_a (fst r) (snd r) mesh false.
