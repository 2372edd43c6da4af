(** * Model of the coordinate transforms of cameratransform/camera.py (Camera) for one point *)
Require Import Reals Bool List.
From Verif Require Import Num Vec Orientation Projection Ray.
Import ListNotations.
Open Scope R_scope.

(** A Camera's components (camera.py 444-459) as far as the transforms use them:
    class and parameter values of the projection, computed matrices of the orientation,
    the two lens functions. *)
Record camera := Camera
  { cam_kind : pkind; cam_proj : proj num; cam_o : omat;
    cam_dist : v2 num -> v2 num;      (* lens.distortedFromImage *)
    cam_undist : v2 num -> v2 num }.  (* lens.imageFromDistorted *)

(** Camera.imageFromSpace, camera.py 970-1005 *)
Definition imageFromSpace (c : camera) (p : v3 num) (hide : bool) : v2 num :=
  cam_dist c (p_image (cam_kind c) (cam_proj c) (cameraFromSpace (cam_o c) p) hide).

(** Camera.getRay, camera.py 1047-1056 *)
Definition ray_origin (c : camera) : v3 num :=
  spaceFromCamera (cam_o c) (V3 (Fin 0) (Fin 0) (Fin 0)) false.
(** camera.py 1052-1054 *)
Definition ray_direction (c : camera) (q : v2 num) (normed : bool) : v3 num :=
  spaceFromCamera (cam_o c) (p_getRay (cam_kind c) (cam_proj c) (cam_undist c q) normed) true.
(** camera.py 1047-1056 *)
Definition getRay (c : camera) (q : v2 num) (normed : bool) : v3 num * v3 num :=
  (ray_origin c, ray_direction c q normed).

(** Arguments of spaceFromImage; [None] is Python's None.  Only scalar constraints here (camera.py 1058-1059). *)
Record constr := Constr
  { k_X : option num; k_Y : option num; k_Z : option num; k_D : option num;
    k_mesh : option (list (tri num)) }.
(** X=x: camera.py 1058, 1125-1130 *)
Definition on_X x := Constr (Some x) None (Some (Fin 0)) None None.
(** Y=y: camera.py 1058, 1125-1130 *)
Definition on_Y y := Constr None (Some y) (Some (Fin 0)) None None.
(** Z=z: camera.py 1058, 1125-1130 *)
Definition on_Z z := Constr None None (Some z) None None.
(** D=d: camera.py 1058, 1137-1141 *)
Definition on_D d := Constr None None (Some (Fin 0)) (Some d) None.

(** index, camera.py 1125-1130 *)
Inductive axis3 := AX | AY | AZ.
(** [..., index], camera.py 1147 *)
Definition get_axis {A} (i : axis3) (p : v3 A) : A :=
  match i with AX => cx p | AY => cy p | AZ => cz p end.

(** Camera.spaceFromImage, camera.py 1121-1157, for one point.  [None] is an exception
    (UnboundLocalError for a missing constraint, ValueError for an empty mesh). *)
Definition spaceFromImage (c : camera) (q : v2 num) (k : constr) : option (v3 num) :=
  let index := match k_X k, k_Y k, k_Z k with
               | Some x, _, _ => Some (AX, x)
               | None, Some y, _ => Some (AY, y)
               | None, None, Some z => Some (AZ, z)
               | None, None, None => None
               end in
  match k_mesh k with
  | Some mesh => ray_intersect_triangle false (ray_origin c) (ray_direction c q false) mesh
  | None =>
    let finish (factor : num) (direction offset : v3 num) :=
      if (factor <? Fin 0)%num then nan3 else nv_add (nv_scale factor direction) offset in
    match k_D k with
    | Some d => Some (finish d (ray_direction c q true) (ray_origin c))
    | None =>
      match index with
      | None => None
      | Some (i, g) =>
        let offset := ray_origin c in
        let direction := ray_direction c q false in
        Some (finish ((g - get_axis i offset) / get_axis i direction)%num direction offset)
      end
    end
  end.

(** Camera.getObjectHeight, camera.py 1243-1251, for one pair of points *)
Definition getObjectHeight (c : camera) (feet head : v2 num) (z : num) : option num :=
  match spaceFromImage c feet (on_Z z) with
  | None => None
  | Some f =>
    match spaceFromImage c head (on_Y (cy f)), spaceFromImage c head (on_X (cx f)) with
    | Some h1, Some h2 => Some (cz (mean2 h1 h2) - cz f)%num
    | _, _ => None
    end
  end.

(** Camera.getObjectLength, camera.py 1272-1278, for one pair of points *)
Definition getObjectLength (c : camera) (front back : v2 num) (z : num) : option num :=
  match spaceFromImage c front (on_Z z), spaceFromImage c back (on_Z z) with
  | Some a, Some b => Some (nv_norm (nv_sub a b))
  | _, _ => None
  end.

(** A camera without distortion (NoDistortion, lens_distortion.py 46-52, 77-81). *)
Definition plain_camera (k : pkind) (p : proj num) (o : omat) : camera :=
  Camera k p o (fun q => q) (fun q => q).
