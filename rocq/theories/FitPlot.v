(** * What plotFitInformation draws: camera.py 559-580, 630-654, 701-714, 763-778, 811-830; parameter_set.py 375-382 *)
Require Import Reals List Bool.
From Verif Require Import Num Vec Projection Ray CameraTransform.
Import ListNotations.
Open Scope R_scope.

(** plotHeightPoints, 564-566: where the head of an object of the given height would be seen; one object *)
Definition predicted_head (c : camera) (feet : v2 num) (height : num) : option (v2 num) :=
  match spaceFromImage c feet (on_Z (Fin 0)) with
  | Some (V3 x y z) => Some (imageFromSpace c (V3 x y (z + height)%num) true)
  | None => None
  end.
(** plotHeightPoints of addObjectLengthInformation, 635-640: where the back of an object of the given length would be
    seen, in the direction of the observed back; one object *)
Definition predicted_back (c : camera) (front back : v2 num) (z length : num) : option (v2 num) :=
  match spaceFromImage c front (on_Z z), spaceFromImage c back (on_Z z) with
  | Some a, Some b =>
    let difference := nv_sub b a in
    let unit := map3v (fun x => (x / nv_norm difference)%num) difference in
    Some (imageFromSpace c (nv_add a (map3v (fun x => (x * length)%num) unit)) true)
  | _, _ => None
  end.
(** plotLandmarkPoints, 703 *)
Definition predicted_landmark (c : camera) (l : v3 num) : v2 num := imageFromSpace c l true.

(** The line that joins observations and predictions, 572-576, 646-650, 708-712, 771-775, 822-826:
    np.concatenate(([a], [b], [nan])), then for a table of points transpose(1, 0, 2) and reshape((-1, 2)).  An array
    of points is the list of its rows in row-major order; [data] is the concatenation as a function of the index on
    the new axis and the number of the point. *)
Definition data (a b : list (v2 num)) (kind i : nat) : v2 num :=
  match kind with O => nth i a nan2 | S O => nth i b nan2 | _ => nan2 end.
(** element [m] of the reshaped array for the shape (n, 2), where the axes are exchanged, (camera.py 560-578) *)
Definition joined_table (n : nat) (a b : list (v2 num)) (m : nat) : v2 num := data a b (Nat.modulo m 3) (Nat.div m 3).
(** and for other shapes, (2) with one point and grids with [n] points, where they are not (camera.py 560-578) *)
Definition joined_other (n : nat) (a b : list (v2 num)) (m : nat) : v2 num := data a b (Nat.div m n) (Nat.modulo m n).
(** [ndim] the number of dimensions of the array of points (that of data is one more) (camera.py 560-578, 631-652) *)
Definition joined (ndim n : nat) (a b : list (v2 num)) : list (v2 num) :=
  map (if Nat.eqb ndim 2 then joined_table n a b else joined_other n a b) (seq 0 (3 * n)).
(** What plt.plot(..., "-") draws: the segments between successive points that are not nan (camera.py
    560-578, 631-652) *)
Fixpoint segments (l : list (v2 num)) : list (v2 num * v2 num) :=
  match l with
  | p :: (q :: _) as l' => if nisnan (c1 p) || nisnan (c2 p) || nisnan (c1 q) || nisnan (c2 q) then segments l' else (p, q) :: segments l'
  | _ => []
  end.
