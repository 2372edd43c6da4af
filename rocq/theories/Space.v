(** * Moving the world: Camera.rotateSpace and CameraGroup.scaleSpace *)
Require Import Reals List Bool String Arith NArith QArith.
From Verif Require Import Num Vec Orientation CameraTransform Param PropParam.
Import ListNotations.
Open Scope nat_scope.
Open Scope string_scope.

(** Camera.rotateSpace, camera.py 1505-1519: an augmented assignment to heading_deg (a
    missing attribute or None raises), then both positions are read, then both written.
    np.dot of a 2x2 matrix and a vector is the sum of two products per row. *)
Definition rotateSpace (h : heap num) (c : oid) (d : num) : res :=
  match get_num h c "heading_deg" with
  | None => (h, false)
  | Some v =>
    bind (set_attr wrapn h c "heading_deg" (ANum (v + d)%num)) (fun h1 =>
    match get_num h1 c "pos_x_m", get_num h1 c "pos_y_m" with
    | Some x, Some y =>
      let a := ndeg2rad d in
      bind (set_attr wrapn h1 c "pos_x_m" (ANum (ncos a * x + nsin a * y)%num)) (fun h2 =>
      set_attr wrapn h2 c "pos_y_m" (ANum (- nsin a * x + ncos a * y)%num))
    | _, _ => (h1, false)
    end)
  end.

(** The body of the loop of CameraGroup.scaleSpace, camera.py 425: the array of the three
    values is built first (None * scale raises), then they are assigned from left to right. *)
Definition scale_camera (h : heap num) (c : oid) (s : num) : res :=
  match get_num h c "pos_x_m", get_num h c "pos_y_m", get_num h c "elevation_m" with
  | Some x, Some y, Some e =>
    bind (set_attr wrapn h c "pos_x_m" (ANum (x * s)%num)) (fun h1 =>
    bind (set_attr wrapn h1 c "pos_y_m" (ANum (y * s)%num)) (fun h2 =>
    set_attr wrapn h2 c "elevation_m" (ANum (e * s)%num)))
  | _, _, _ => (h, false)
  end.
(** camera.py 423-425 *)
Fixpoint scale_all (h : heap num) (cs : list oid) (s : num) : res :=
  match cs with [] => (h, true) | c :: cs' => bind (scale_camera h c s) (fun h1 => scale_all h1 cs' s) end.
(** CameraGroup.scaleSpace, camera.py 423-425; iteration over self.cameras (lines 240-241). *)
Definition scaleSpace (h : heap num) (g : oid) (s : num) : res :=
  match objs h g with
  | Some b => match okd b with KGroup cs => scale_all h cs s | _ => (h, false) end
  | None => (h, false)
  end.
