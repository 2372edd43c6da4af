(** * Model of the geometric methods of cameratransform/camera.py (CameraGroup), one point *)
Require Import Reals Bool List.
From Verif Require Import Num Vec Orientation Projection Ray CameraTransform.
Import ListNotations.
Open Scope R_scope.

(** A group's list of cameras (camera.py 212-213); [cameras[0]] and [cameras[1]] raise
    IndexError ([None]) when missing. *)
Definition two {A} (cams : list camera) (f : camera -> camera -> A) : option A :=
  match cams with a :: b :: _ => Some (f a b) | _ => None end.

(** CameraGroup.spaceFromImages, camera.py 218-222 *)
Definition spaceFromImages (cams : list camera) (q1 q2 : v2 num) : option (v3 num) :=
  two cams (fun a b =>
    let r1 := getRay a q1 false in
    let r2 := getRay b q2 false in
    intersectionOfTwoLines1 (fst r1) (snd r1) (fst r2) (snd r2)).

(** CameraGroup.discanteBetweenRays, camera.py 224-228 *)
Definition discanteBetweenRays (cams : list camera) (q1 q2 : v2 num) : option num :=
  two cams (fun a b =>
    let r1 := getRay a q1 true in
    let r2 := getRay b q2 true in
    distanceOfTwoLines1 (fst r1) (snd r1) (fst r2) (snd r2)).

(** CameraGroup.imagesFromSpace, camera.py 230-232 *)
Definition imagesFromSpace (cams : list camera) (p : v3 num) : list (v2 num) :=
  map (fun c => imageFromSpace c p true) cams.

(** CameraGroup.getBaseline, camera.py 215-216; the positions are the parameter values. *)
Definition getBaseline (pos1 pos2 : v3 num) : num :=
  let dx := nsub (cx pos1) (cx pos2) in
  let dy := nsub (cy pos1) (cy pos2) in
  nsqrt (nadd (nmul dx dx) (nmul dy dy)).

(** ray.getClosestPointFromLine, ray.py 322-332, on 2-D points (only the returned point). *)
Definition nv2_add := zip2v nadd.
(** ray.py 324-332 *)
Definition nv2_sub := zip2v nsub.
(** ray.py 324-332 *)
Definition nv2_dot (p q : v2 num) : num := (c1 p * c1 q + c2 p * c2 q)%num.
(** ray.py 305-332 *)
Definition closest2 (origin ray point : v2 num) : v2 num :=
  let delta := nv2_sub point origin in
  let n := nv_norm2 ray in
  let ray' := map2v (fun x => ndiv x n) ray in
  let factor := nv2_dot ray' delta in
  nv2_add origin (map2v (fun x => nmul x factor) ray').

(** One round of the loop of CameraGroup.pointCorrespondenceError, camera.py 276-286:
    camera [a] is [self[i]], [b] is [self[1 - i]]. *)
Definition epipolar_distance (a b : camera) (qa qb : v2 num) : num :=
  let r := getRay a qa false in
  let p1 := imageFromSpace b (nv_add (fst r) (nv_scale (Fin 1) (snd r))) false in
  let p2 := imageFromSpace b (nv_add (fst r) (nv_scale (Fin 2) (snd r))) false in
  let foot := closest2 p1 (nv2_sub p2 p1) qb in
  nv_norm2 (nv2_sub foot qb).
(** CameraGroup.pointCorrespondenceError, camera.py 271-289: the list of the two errors. *)
Definition pointCorrespondenceError (cams : list camera) (q1 q2 : v2 num) : option (num * num) :=
  two cams (fun a b => (epipolar_distance a b q1 q2, epipolar_distance b a q2 q1)).
