(** * scene.py: wire frame objects of a scene *)
Require Import Reals List Arith.
From Verif Require Import Num Vec.
Import ListNotations.

(** scene.py:106 etc.: the row [np.nan, np.nan, np.nan] that ends a line *)
Definition nan_row : v3 num := const3 NaN.

(** scene.py:100-127: addCube, the list [points]; [pos] is any sequence of three numbers *)
Definition cube (pos : v3 num) (width : num) : list (v3 num) :=
  let x := cx pos in let y := cy pos in let z := cz pos in
  let r := ndiv width (Fin 2) in
  [V3 (nadd x r) (nadd y r) (nsub z r);
   V3 (nadd x r) (nsub y r) (nsub z r);
   V3 (nsub x r) (nsub y r) (nsub z r);
   V3 (nsub x r) (nadd y r) (nsub z r);
   V3 (nadd x r) (nadd y r) (nsub z r);
   nan_row;
   V3 (nadd x r) (nadd y r) (nsub z r);
   V3 (nadd x r) (nadd y r) (nadd z r);
   nan_row;
   V3 (nadd x r) (nsub y r) (nsub z r);
   V3 (nadd x r) (nsub y r) (nadd z r);
   nan_row;
   V3 (nsub x r) (nsub y r) (nsub z r);
   V3 (nsub x r) (nsub y r) (nadd z r);
   nan_row;
   V3 (nsub x r) (nadd y r) (nsub z r);
   V3 (nsub x r) (nadd y r) (nadd z r);
   nan_row;
   V3 (nadd x r) (nadd y r) (nadd z r);
   V3 (nadd x r) (nsub y r) (nadd z r);
   V3 (nsub x r) (nsub y r) (nadd z r);
   V3 (nsub x r) (nadd y r) (nadd z r);
   V3 (nadd x r) (nadd y r) (nadd z r);
   nan_row].

(** scene.py:132-141: addRect, the list [points] *)
Definition rect (pos : v3 num) (width : num) : list (v3 num) :=
  let x := cx pos in let y := cy pos in let z := cz pos in
  let r := ndiv width (Fin 2) in
  [V3 (nadd x r) y (nsub z r);
   V3 (nadd x r) y (nadd z r);
   V3 (nsub x r) y (nadd z r);
   V3 (nsub x r) y (nsub z r);
   V3 (nadd x r) y (nsub z r);
   nan_row].

(** Python's min(list): the first element, replaced by every later one that is smaller (scene.py 147-162) *)
Definition py_min (l : list num) : option num :=
  match l with [] => None | a :: l => Some (fold_left (fun m x => if nltb x m then x else m) l a) end.
(** Python's max(list) (scene.py 147-162) *)
Definition py_max (l : list num) : option num :=
  match l with [] => None | a :: l => Some (fold_left (fun m x => if nltb m x then x else m) l a) end.

(** scene.py:146-159: addGrid, the list [points]; [None] is the ValueError of min() of an empty list.
    The values are lists of floats (a one dimensional array behaves the same). *)
Definition grid (xs ys : list num) : option (list (v3 num)) :=
  match py_min xs, py_max xs, py_min ys, py_max ys with
  | Some min_x, Some max_x, Some min_y, Some max_y =>
      Some (flat_map (fun y => [V3 min_x y (Fin 0); V3 max_x y (Fin 0); nan_row]) ys
         ++ flat_map (fun x => [V3 x min_y (Fin 0); V3 x max_y (Fin 0); nan_row]) xs)
  | _, _, _, _ => None
  end.

(** ** Objects *)
(** Arrays, Python lists of arrays and scenes live on three heaps and are named by their index.
    A scene is its attribute [objects] (scene.py 27-34). *)
Record world := World { arrays : list (list (v3 num)); lists : list (list nat); scenes : list nat }.
(** scene.py 34 *)
Definition upd {A} (l : list A) (i : nat) (f : A -> A) : list A :=
  firstn i l ++ match skipn i l with a :: r => f a :: r | [] => [] end.
(** scene.py:24-25: the class body makes one list, Scene.objects *)
Definition world0 : world := World [] [[]] [].
(** scene.py:28-29: Scene() makes a list of its own *)
Definition scene_new (w : world) : world * nat :=
  (World (arrays w) (lists w ++ [[]]) (scenes w ++ [length (lists w)]), length (scenes w)).
(** np.array(points): a new array (scene.py 101-162) *)
Definition array_new (w : world) (pts : list (v3 num)) : world * nat :=
  (World (arrays w ++ [pts]) (lists w) (scenes w), length (arrays w)).
(** scene.py:34-35: add keeps the array itself, not a copy *)
Definition scene_add (w : world) (s a : nat) : world :=
  World (arrays w) (upd (lists w) (nth s (scenes w) 0%nat) (fun l => l ++ [a])) (scenes w).
(** scene.py:129-130, 143-144, 161-162: self.add(np.array(points)); return np.array(points) *)
Definition add_points (w : world) (s : nat) (pts : list (v3 num)) : world * nat :=
  let (w, a) := array_new w pts in array_new (scene_add w s a) pts.
(** scene.py:100-130 *)
Definition add_cube (w : world) (s : nat) (pos : v3 num) (width : num) := add_points w s (cube pos width).
(** scene.py:132-144 *)
Definition add_rect (w : world) (s : nat) (pos : v3 num) (width : num) := add_points w s (rect pos width).
(** scene.py:146-162 *)
Definition add_grid (w : world) (s : nat) (xs ys : list num) : option (world * nat) :=
  match grid xs ys with Some pts => Some (add_points w s pts) | None => None end.
(** array[i] = row, written by the user (an array of scene.py 34 changed by its owner) *)
Definition poke (w : world) (a i : nat) (row : v3 num) : world :=
  World (upd (arrays w) a (fun l => upd l i (fun _ => row))) (lists w) (scenes w).
(** the objects plotSceneViews and renderImage draw (scene.py:71, 92) *)
Definition objects (w : world) (s : nat) : list (list (v3 num)) :=
  map (fun a => nth a (arrays w) []) (nth (nth s (scenes w) 0%nat) (lists w) []).
