(** * GPS distances, bearings and local coordinates in rounded arithmetic: gps.py 318-325, 379-395, 461-468 *)
Require Import Reals Bool.
From Verif Require Import Num Vec Rounding.
Open Scope R_scope.

(** The operations of Rounding.v and those that only gps.py uses: np.sqrt, np.arcsin, np.arctan2 and np.rad2deg. *)
Record gfloats := GFloats
  { g_ops : floats; g_sqrt : R -> R; g_asin : R -> R; g_atan2 : R -> R -> R; g_deg : R -> R }.
(** One row of a gps array: degrees and, with three columns, a height in metres (gps.py 318-325, 379-395) *)
Record gp := Gp { g_lat : R; g_lon : R; g_hgt : option R }.

Section Rounded.
Context (G : gfloats).
Notation A := (g_ops G).
Notation fl := (f_round A).

(** getDistance, gps.py 382-385: the quantity a; **2 of an array is one multiplication *)
Definition f_haversine (p q : gp) : R :=
  let dlon := fl (f_rad A (g_lon q) - f_rad A (g_lon p)) in
  let dlat := fl (f_rad A (g_lat q) - f_rad A (g_lat p)) in
  let s1 := f_sin A (fl (dlat / 2)) in
  let s2 := f_sin A (fl (dlon / 2)) in
  fl (fl (s1 * s1) + fl (fl (f_cos A (f_rad A (g_lat p)) * f_cos A (f_rad A (g_lat q))) * fl (s2 * s2))).
(** 387-388; the root of a negative number and the arcsin of a number above one are nan (None) *)
Definition f_ground (p q : gp) : option R :=
  let a := f_haversine p q in
  if Rltb a 0 then None
  else let s := g_sqrt G a in if Rltb 1 s then None else Some (fl (6371000 * fl (2 * g_asin G s))).
(** 390-395 *)
Definition f_distance (p q : gp) : option R :=
  match f_ground p q, g_hgt p, g_hgt q with
  | Some d, Some h1, Some h2 => let dH := Rabs (fl (h1 - h2)) in Some (g_sqrt G (fl (fl (d * d) + fl (dH * dH))))
  | r, _, _ => r
  end.
(** getBearing, 318-325 *)
Definition f_bearing (p q : gp) : R :=
  let lat1 := f_rad A (g_lat p) in
  let lat2 := f_rad A (g_lat q) in
  let dL := fl (f_rad A (g_lon q) - f_rad A (g_lon p)) in
  let X := fl (f_cos A lat2 * f_sin A dL) in
  let Y := fl (fl (f_cos A lat1 * f_sin A lat2) - fl (fl (f_sin A lat1 * f_cos A lat2) * f_cos A dL)) in
  g_deg G (g_atan2 G X Y).
(** spaceFromGPS, 466-468, the first two columns; the height is copied *)
Definition f_space_xy (g0 g : gp) : option (v2 R) :=
  match f_distance g0 g with
  | Some d => let b := f_rad A (f_bearing g0 g) in Some (V2 (fl (d * f_sin A b)) (fl (d * f_cos A b)))
  | None => None
  end.
End Rounded.
