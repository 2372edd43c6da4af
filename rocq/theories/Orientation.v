(** * Model of cameratransform/spatial.py *)
Require Import Reals Bool.
From Verif Require Import Num Vec.
Open Scope R_scope.

(** The parameter values of a SpatialOrientation (spatial.py 82-94).  Polymorphic so
    that the same record carries floats (the model) and reals (specifications). *)
Record opar (A : Type) := OPar
  { elevation_m : A; tilt_deg : A; roll_deg : A; heading_deg : A; pos_x_m : A; pos_y_m : A }.
Arguments OPar {A}. Arguments elevation_m {A}. Arguments tilt_deg {A}. Arguments roll_deg {A}.
Arguments heading_deg {A}. Arguments pos_x_m {A}. Arguments pos_y_m {A}.

(** The attributes computed by [_initCameraMatrix]: [self.t], [self.R], [self.R_inv]
    (spatial.py 116, 129, 130). *)
Record omat := OMat { om_t : v3 num; om_R : m3 num; om_Rinv : m3 num }.

(** spatial.py 108-109: the heading is replaced by heading % 360 if outside [-360, 360].
    (The assignment re-enters [_initCameraMatrix] through the callback; that recursion is
    modelled in Param.v.  Here only the value used afterwards.) *)
Definition wrap_heading (h : num) : num :=
  if (h <? Fin (-360))%num || (Fin 360 <? h)%num then nmod h 360 else h.

Notation n0 := (Fin 0) (only parsing).
Notation n1 := (Fin 1) (only parsing).

(** spatial.py 119-127 *)
Definition mat_roll (roll : num) : m3 num :=
  V3 (V3 (ncos roll) (nsin roll) n0) (V3 (- nsin roll)%num (ncos roll) n0) (V3 n0 n0 n1).
(** spatial.py 122-124 *)
Definition mat_tilt (tilt : num) : m3 num :=
  V3 (V3 n1 n0 n0) (V3 n0 (ncos tilt) (nsin tilt)) (V3 n0 (- nsin tilt)%num (ncos tilt)).
(** spatial.py 125-127 *)
Definition mat_head (heading : num) : m3 num :=
  V3 (V3 (ncos heading) (- nsin heading)%num n0) (V3 (nsin heading) (ncos heading) n0) (V3 n0 n0 n1).

(** np.linalg.inv on a 3x3 matrix (used in spatial.py 130, 279): raises LinAlgError
    ([None]) on a singular matrix, otherwise the inverse.  Simplification: computed by
    cofactors instead of LAPACK's LU factorisation (same value in exact arithmetic). *)
Definition inv3 (m : m3 num) : option (m3 num) :=
  let a := cx m in let b := cy m in let c := cz m in
  let k1 := nv_cross b c in let k2 := nv_cross c a in let k3 := nv_cross a b in
  let det := nv_dot a k1 in
  if neqb det n0 then None
  else Some (nm_trans (V3 (nv_div k1 det) (nv_div k2 det) (nv_div k3 det))).

(** Common tail of both _initCameraMatrix (spatial.py 115-130 and 264-279); the three
    angles are in radians. *)
Definition build_matrix (tilt roll heading posx posy elev : num) : option omat :=
  let t := V3 posx posy elev in
  let r := nm_mul (nm_mul (mat_roll roll) (mat_tilt tilt)) (mat_head heading) in
  match inv3 r with
  | None => None
  | Some ri => Some (OMat t r ri)
  end.

(** SpatialOrientation._initCameraMatrix, spatial.py 107-130 *)
Definition init_matrix (o : opar num) : option omat :=
  let heading := wrap_heading (heading_deg o) in
  build_matrix (ndeg2rad (tilt_deg o)) (ndeg2rad (roll_deg o)) (ndeg2rad heading)
               (pos_x_m o) (pos_y_m o) (elevation_m o).

(** SpatialOrientation.cameraFromSpace for one point, spatial.py 163-164 *)
Definition cameraFromSpace (m : omat) (p : v3 num) : v3 num :=
  nm_mul_v (om_R m) (nv_sub p (om_t m)).

(** SpatialOrientation.spaceFromCamera for one point, spatial.py 199-203 *)
Definition spaceFromCamera (m : omat) (p : v3 num) (direction : bool) : v3 num :=
  let r := nm_mul_v (om_Rinv m) p in
  if direction then r else nv_add r (om_t m).

(** SpatialOrientationYawPitchRoll: parameters (spatial.py 231-245). *)
Record ypar (A : Type) := YPar
  { y_elevation_m : A; yaw_deg : A; y_roll_deg : A; pitch_deg : A; y_pos_x_m : A; y_pos_y_m : A }.
Arguments YPar {A}. Arguments y_elevation_m {A}. Arguments yaw_deg {A}. Arguments y_roll_deg {A}.
Arguments pitch_deg {A}. Arguments y_pos_x_m {A}. Arguments y_pos_y_m {A}.

(** SpatialOrientationYawPitchRoll._initCameraMatrix, spatial.py 256-279: the pitch is
    the angle that is renormalised, the yaw is not. *)
Definition init_matrix_ypr (o : ypar num) : option omat :=
  let pitch := wrap_heading (pitch_deg o) in
  build_matrix (Fin (PI / 2) + ndeg2rad pitch)%num (- ndeg2rad (y_roll_deg o))%num
               (ndeg2rad (yaw_deg o)) (y_pos_x_m o) (y_pos_y_m o) (y_elevation_m o).

(** All parameters are finite floats with the given real values (no code: relates the numbers of spatial.py
    82-94 to real numbers). *)
Definition rep_opar (o : opar num) (r : opar R) : Prop :=
  rep (elevation_m o) (elevation_m r) /\ rep (tilt_deg o) (tilt_deg r) /\
  rep (roll_deg o) (roll_deg r) /\ rep (heading_deg o) (heading_deg r) /\
  rep (pos_x_m o) (pos_x_m r) /\ rep (pos_y_m o) (pos_y_m r).
(** no code: relates the numbers of spatial.py 231-243 to real numbers *)
Definition rep_ypar (o : ypar num) (r : ypar R) : Prop :=
  rep (y_elevation_m o) (y_elevation_m r) /\ rep (yaw_deg o) (yaw_deg r) /\
  rep (y_roll_deg o) (y_roll_deg r) /\ rep (pitch_deg o) (pitch_deg r) /\
  rep (y_pos_x_m o) (y_pos_x_m r) /\ rep (y_pos_y_m o) (y_pos_y_m r).
(** no code: the parameters of spatial.py 82-94 for given real numbers *)
Definition opar_fin (r : opar R) : opar num :=
  OPar (Fin (elevation_m r)) (Fin (tilt_deg r)) (Fin (roll_deg r)) (Fin (heading_deg r))
       (Fin (pos_x_m r)) (Fin (pos_y_m r)).
(** no code: the parameters of spatial.py 231-243 for given real numbers *)
Definition ypar_fin (r : ypar R) : ypar num :=
  YPar (Fin (y_elevation_m r)) (Fin (yaw_deg r)) (Fin (y_roll_deg r)) (Fin (pitch_deg r))
       (Fin (y_pos_x_m r)) (Fin (y_pos_y_m r)).
(** self.t, spatial.py 116 *)
Definition opos (r : opar R) : v3 R := V3 (pos_x_m r) (pos_y_m r) (elevation_m r).
(** self.t, spatial.py 265 *)
Definition ypos (r : ypar R) : v3 R := V3 (y_pos_x_m r) (y_pos_y_m r) (y_elevation_m r).
