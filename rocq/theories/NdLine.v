(** * Lines on arrays: ray.py 103-157, 180-197 and camera.py 218-228 *)
Require Import Reals List Bool Arith.
From Verif Require Import Num Vec Ray NdArray NdCamera NdRay.
Import ListNotations.
Open Scope nat_scope.

(** ** distanceLinePoint *)
(** All indices of an array of the shape [s] (last axis first, as everywhere) (numpy; ray.py 103-157) *)
Fixpoint all_idx (s : list nat) : list (list nat) :=
  match s with
  | [] => [[]]
  | n :: s' => flat_map (fun i => map (fun k => k :: i) (seq 0 n)) (all_idx s')
  end.
(** np.linalg.norm(a) without an axis: the root of the sum of the squares of all numbers of the array (ray.py 103-104) *)
Definition norm_all (a : arr num) : num :=
  nsqrt (fold_right nadd (Fin 0) (map (fun i => get a i * get a i)%num (all_idx (dims a)))).
(** np.cross of vectors of length three, broadcasting the axes before the last one (ray.py 104, 204-225) *)
Definition cross_b (a b : arr num) : option (arr num) :=
  match dims a, dims b with
  | 3 :: s, 3 :: t =>
    olet u := bdims s t in
    Some (Arr (3 :: u) (fun i => match i with
      | k :: j => get (of3 (nv_cross (row3 a (bidx s j)) (row3 b (bidx t j)))) [k] | [] => NaN end))
  | _, _ => None
  end.
(** 103-104: np.linalg.norm(np.cross(v1, p1-p2)) / np.linalg.norm(v1) *)
Definition distanceLinePoint_a (p1 v1 p2 : arr num) : option num :=
  olet d := ew2 nsub p1 p2 in
  olet c := cross_b v1 d in
  Some (norm_all c / norm_all v1)%num.

(** ** intersectionOfTwoLines *)
(** np.einsum('ij,ij->i', a, b) (arrays of one shape) and np.einsum('ij,j->i', a, p) (ray.py 130-135) *)
Definition einsum_rows (a b : arr num) : option (arr num) :=
  match dims a, dims b with
  | [k; n], [l; m] => if (k =? l) && (n =? m)
      then Some (Arr [n] (fun i => match i with [j] => sum_to (fun x => get a [x; j] * get b [x; j])%num k | _ => NaN end)) else None
  | _, _ => None
  end.
(** ray.py 134-135 *)
Definition einsum_vec (a p : arr num) : option (arr num) :=
  match dims a, dims p with
  | [k; n], [l] => if k =? l
      then Some (Arr [n] (fun i => match i with [j] => sum_to (fun x => get a [x; j] * get p [x])%num k | _ => NaN end)) else None
  | _, _ => None
  end.
(** a.transpose(2, 0, 1) of a three-dimensional array: out[n, r, c] = a[r, c, n] (ray.py 137) *)
Definition transpose201 (a : arr num) : option (arr num) :=
  match dims a with
  | [n; c; r] => Some (Arr [c; r; n] (fun i => match i with [y; x; j] => get a [j; y; x] | _ => NaN end))
  | _ => None
  end.
(** np.linalg.solve of n systems of two equations: the outer [None] is an error other than LinAlgError, the inner
    one LinAlgError (if any of the n matrices is singular).  Simplification: Cramer's rule, as in [solve2]
    (ray.py 137) *)
Definition solve_a (A b : arr num) : option (option (arr num)) :=
  match dims A, dims b with
  | [2; 2; n], [1; 2; m] =>
    if n =? m then
      let sys j := solve2 (get A [0; 0; j]) (get A [1; 0; j]) (get A [0; 1; j]) (get A [1; 1; j]) (get b [0; 0; j]) (get b [0; 1; j]) in
      if forallb (fun j => match sys j with Some _ => true | None => false end) (seq 0 n)
      then Some (Some (Arr [1; 2; n] (fun i => match i with
        | [_; k; j] => match sys j with Some (s, t) => if k =? 0 then s else t | None => NaN end | _ => NaN end)))
      else Some None
    else None
  | _, _ => None
  end.
(** res[:, k, 0, None] (ray.py 138) *)
Definition pick (k : nat) (a : arr num) : option (arr num) :=
  match dims a with
  | [_; _; n] => Some (Arr [1; n] (fun i => match i with [_; j] => get a [0; k; j] | _ => NaN end))
  | _ => None
  end.
(** np.mean([a, b], axis=0) of two arrays of one shape (ray.py 138) *)
Definition mean2_a (a b : arr num) : option (arr num) :=
  if list_eq_dec Nat.eq_dec (dims a) (dims b) then Some (Arr (dims a) (fun i => (get a i + get b i) / Fin 2)%num) else None.
(** v[i] (ray.py 140) *)
Definition nth_row (j : nat) (a : arr num) : option (arr num) :=
  match dims a with [k; n] => if j <? n then Some (Arr [k] (fun i => get a (i ++ [j])%list)) else None | _ => None end.
(** The value of the function: an array, or - from line 140 - a list of arrays *)
Inductive res := Array (a : arr num) | List (l : list (arr num)).
(** Of vectors (3): [intersectionOfTwoLines1] of Ray.v (143-157).  Simplification: a direction that is not (3) raises; in
    numpy it raises as well, but not with the same message (the system of the single version is then ragged). *)
Definition single (p1 v1 p2 v2 : arr num) : option (arr num) :=
  match dims p1, dims v1, dims p2, dims v2 with
  | [3], [3], [3], [3] => Some (of3 (intersectionOfTwoLines1 (row3 p1 []) (row3 v1 []) (row3 p2 []) (row3 v2 [])))
  | _, _, _, _ => None
  end.
(** the list of ray.py 140 *)
Fixpoint traverse {A B} (f : A -> option B) (l : list A) : option (list B) :=
  match l with [] => Some [] | x :: l' => olet y := f x in olet r := traverse f l' in Some (y :: r) end.
(** 127-142 *)
Definition intersectionOfTwoLines_a (p1 v1 p2 v2 : arr num) : option res :=
  if length (dims v1) =? 2 then
    olet a1 := einsum_rows v1 v1 in
    olet a2 := einsum_rows v1 v2 in
    olet b1 := einsum_rows v2 v1 in let b1 := ew1 nneg b1 in
    olet b2 := einsum_rows v2 v2 in let b2 := ew1 nneg b2 in
    olet d := ew2 nsub p1 p2 in
    olet c1 := einsum_vec v1 d in let c1 := ew1 nneg c1 in
    olet c2 := einsum_vec v2 d in let c2 := ew1 nneg c2 in
    olet u := stack [a1; b1] in
    olet w := stack [a2; b2] in
    olet m := stack [u; w] in
    olet m := transpose201 m in
    olet r := stack [c1; c2] in
    olet x := solve_a m (newlast (T r)) in
    match x with
    | Some x =>
      olet s := pick 0 x in olet y1 := ew2 nmul s v1 in olet q1 := ew2 nadd p1 y1 in
      olet t := pick 1 x in olet y2 := ew2 nmul t v2 in olet q2 := ew2 nadd p2 y2 in
      olet q := mean2_a q1 q2 in Some (Array q)
    | None =>
      olet l := traverse (fun j => olet x := nth_row j v1 in olet y := nth_row j v2 in single p1 x p2 y) (seq 0 (last (dims v1) 0)) in
      Some (List l)
    end
  else olet q := single p1 v1 p2 v2 in Some (Array q).

(** ** distanceOfTwoLines, 180-197: [distanceOfTwoLines1] of Ray.v of the rows.  The rows of v2 beyond those of v1 are not
    read.  Simplification: a direction of the single version that is not (3) raises (numpy would cross the one direction
    with all of the others and take the norm of all of them; stated for vectors only) *)
Definition dsingle (p1 v1 p2 v2 : arr num) : option num :=
  match dims p1, dims v1, dims p2, dims v2 with
  | [3], [3], [3], [3] => Some (distanceOfTwoLines1 (row3 p1 []) (row3 v1 []) (row3 p2 []) (row3 v2 []))
  | _, _, _, _ => None
  end.
(** ray.py 180-197 *)
Definition distanceOfTwoLines_a (p1 v1 p2 v2 : arr num) : option (arr num) :=
  if length (dims v1) =? 2 then
    olet l := traverse (fun j => olet x := nth_row j v1 in olet y := nth_row j v2 in dsingle p1 x p2 y) (seq 0 (last (dims v1) 0)) in
    Some (Arr [length l] (fun i => match i with [j] => nth j l NaN | _ => NaN end))
  else olet x := dsingle p1 v1 p2 v2 in Some (scalar x).

(** ** spaceFromImages and discanteBetweenRays of a group, camera.py 218-228.
    Simplification: ensure_array_format (the shapes are checked by the functions called) *)
Definition spaceFromImages_a (a b : ndcam) (q1 q2 : arr num) : option res :=
  olet r1 := getRay_a a q1 false in
  olet r2 := getRay_a b q2 false in
  intersectionOfTwoLines_a (fst r1) (snd r1) (fst r2) (snd r2).
(** camera.py 224-228 *)
Definition discanteBetweenRays_a (a b : ndcam) (q1 q2 : arr num) : option (arr num) :=
  olet r1 := getRay_a a q1 true in
  olet r2 := getRay_a b q2 true in
  distanceOfTwoLines_a (fst r1) (snd r1) (fst r2) (snd r2).
