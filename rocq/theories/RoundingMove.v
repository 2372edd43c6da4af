(** * Moving along the ground and local coordinates back to GPS positions in rounded arithmetic: gps.py 443-458, 471-477 *)
Require Import Reals Bool.
From Verif Require Import Num Vec Rounding RoundingGps.
Open Scope R_scope.

Section Rounded.
Context (G : gfloats).
Notation A := (g_ops G).
Notation fl := (f_round A).

(** moveDistance, gps.py 447-449: R; the height of a start with three columns is added *)
Definition f_radius (p : gp) : R := match g_hgt p with Some h => fl (6371000 + h) | None => 6371000 end.
(** distance / R of 450-454 *)
Definition f_arc (p : gp) (d : R) : R := fl (d / f_radius p).
(** 450-451: the number whose arcsin is taken *)
Definition f_sine (p : gp) (d b : R) : R :=
  let lat1 := f_rad A (g_lat p) in
  fl (fl (f_sin A lat1 * f_cos A (f_arc p d)) + fl (fl (f_cos A lat1 * f_sin A (f_arc p d)) * f_cos A (f_rad A b))).
(** 443-458; None: the arcsin of a number outside of -1 to 1 is nan, and with it both coordinates *)
Definition f_move (p : gp) (d b : R) : option gp :=
  if Rltb 1 (Rabs (f_sine p d b)) then None
  else
    let lat1 := f_rad A (g_lat p) in
    let lat2 := g_asin G (f_sine p d b) in
    let lon2 := fl (f_rad A (g_lon p) + g_atan2 G (fl (fl (f_sin A (f_rad A b) * f_sin A (f_arc p d)) * f_cos A lat1))
                                                  (fl (f_cos A (f_arc p d) - fl (f_sin A lat1 * f_sin A lat2)))) in
    Some (Gp (g_deg G lat2) (g_deg G lon2) (option_map (fun h => fl (1 * h)) (g_hgt p))).

(** gpsFromSpace, 472: the bearing in degrees *)
Definition f_space_bearing (x y : R) : R := g_deg G (g_atan2 G x y).
(** 473: np.linalg.norm of two numbers is the root of the sum of their squares *)
Definition f_space_distance (x y : R) : R := g_sqrt G (fl (fl (x * x) + fl (y * y))).
(** 471-477, [z] is the third column where there is one *)
Definition f_gpsFromSpace (x y : R) (z : option R) (g0 : gp) : option gp :=
  match f_move g0 (f_space_distance x y) (f_space_bearing x y) with
  | Some q => Some (match z with Some h => Gp (g_lat q) (g_lon q) (Some h) | None => q end)
  | None => None
  end.
End Rounded.
