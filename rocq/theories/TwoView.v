(** * Relative pose of two cameras from cv2: camera.py 298-325 *)
Require Import Reals.
From Verif Require Import Num Vec Orientation.
Open Scope R_scope.

(** rotationToEuler, camera.py 311-315: roll, tilt, heading *)
Definition rotationToEuler (m : m3 num) : num * num * num :=
  let alpha := nrad2deg (natan2 (cz (cx m)) (- cz (cy m))%num) in
  let beta := nrad2deg (nacos (cz (cz m))) in
  let gamma := nrad2deg (natan2 (cx (cz m)) (cy (cz m))) in
  ((Fin 180 + alpha)%num, beta, (Fin 180 + gamma)%num).
(** setCameraParametersByPointCorrespondence, camera.py 298-325, as a function of the parameters of the first
    orientation.  [rot] and [t] are what cv2.recoverPose returns (cv2 is not modelled; the claims assume its documented
    contract).  The writes to the parameter sets are those of Param.v; the two cameras have different orientation
    objects. *)
Definition poses_from_correspondence (o1 : opar num) (rot : m3 num) (t : v3 num) (baseline : num) : opar num * opar num :=
  let '(roll, tilt, heading) := rotationToEuler rot in
  (OPar (elevation_m o1) (Fin 0) (Fin 0) (Fin 0) (pos_x_m o1) (pos_y_m o1),
   OPar (elevation_m o1 + cz t * baseline)%num tilt roll heading (pos_x_m o1 + cx t * baseline)%num (pos_y_m o1 + cy t * baseline)%num).
