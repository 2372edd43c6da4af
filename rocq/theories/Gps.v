(** * GPS coordinates: distances, bearings and local space coordinates (gps.py 281-477) *)
Require Import Reals List Bool.
From Verif Require Import Num Vec.
Import ListNotations.
Open Scope R_scope.

(** A row of a gps array: latitude, longitude in degrees and, in arrays with three columns,
    a height (splitGPS, gps.py 327-339). *)
Record gpt := Gpt { lat : num; lon : num; hgt : option num }.
(** splitGPS, gps.py 327-339 *)
Definition rad_lat (p : gpt) : num := ndeg2rad (lat p).
(** splitGPS, gps.py 327-339 *)
Definition rad_lon (p : gpt) : num := ndeg2rad (lon p).
(** x ** 2, gps.py 386, 393 *)
Definition square (x : num) : num := (x * x)%num.

(** getBearing, gps.py 318-325, one row *)
Definition getBearing (p q : gpt) : num :=
  let dL := (rad_lon q - rad_lon p)%num in
  let X := (ncos (rad_lat q) * nsin dL)%num in
  let Y := (ncos (rad_lat p) * nsin (rad_lat q) - nsin (rad_lat p) * ncos (rad_lat q) * ncos dL)%num in
  nrad2deg (natan2 X Y).

(** 6371e3, gps.py 389, 448 *)
Definition earth : num := Fin 6371000.
(** getDistance, gps.py 379-395, one row *)
Definition getDistance (p q : gpt) : num :=
  let dlon := (rad_lon q - rad_lon p)%num in
  let dlat := (rad_lat q - rad_lat p)%num in
  let a := (square (nsin (dlat / Fin 2)) + ncos (rad_lat p) * ncos (rad_lat q) * square (nsin (dlon / Fin 2)))%num in
  let distance := (earth * (Fin 2 * nasin (nsqrt a)))%num in
  match hgt p, hgt q with
  | Some h1, Some h2 => nsqrt (square distance + square (nabs (h1 - h2)))%num
  | _, _ => distance
  end.

(** moveDistance, gps.py 443-458, one row *)
Definition moveDistance (p : gpt) (d b : num) : gpt :=
  let beta := ndeg2rad b in
  let r := match hgt p with Some h => (earth + h)%num | None => earth end in
  let lat2 := nasin (nsin (rad_lat p) * ncos (d / r) + ncos (rad_lat p) * nsin (d / r) * ncos beta)%num in
  let lon2 := (rad_lon p + natan2 (nsin beta * nsin (d / r) * ncos (rad_lat p))
                                  (ncos (d / r) - nsin (rad_lat p) * nsin lat2))%num in
  Gpt (nrad2deg lat2) (nrad2deg lon2) (match hgt p with Some h => Some (Fin 1 * h)%num | None => None end).

(** A row of the space array: two or three columns (gps.py 461-477). *)
Record spt := Spt { sx : num; sy : num; sz : option num }.
(** gpsFromSpace, gps.py 471-477, one row *)
Definition gpsFromSpace (s : spt) (g0 : gpt) : gpt :=
  let bearing := nrad2deg (natan2 (sx s) (sy s)) in
  let distance := nsqrt (sx s * sx s + sy s * sy s)%num in
  let target := moveDistance g0 distance bearing in
  match sz s with Some z => Gpt (lat target) (lon target) (Some z) | None => target end.

(** spaceFromGPS, gps.py 461-468, one row; [len] is len(gps): the number of columns for a
    single point, the number of rows for a batch.  None: IndexError. *)
Definition space_row (len : nat) (g0 g : gpt) : option spt :=
  let height := if Nat.eqb len 2 then Some (Fin 0) else hgt g in
  let distance := getDistance g0 g in
  let bearing := ndeg2rad (getBearing g0 g) in
  match height with
  | Some z => Some (Spt (distance * nsin bearing) (distance * ncos bearing) (Some z))%num
  | None => None
  end.
(** len(gps) of one point, gps.py 462 *)
Definition columns (g : gpt) : nat := match hgt g with Some _ => 3 | None => 2 end.
(** gps.py 461-468 *)
Definition spaceFromGPS (g g0 : gpt) : option spt := space_row (columns g) g0 g.
(** an array operation that raises for one row raises: gps.py 461-468 *)
Fixpoint all_some {A} (l : list (option A)) : option (list A) :=
  match l with
  | [] => Some []
  | x :: l' => match x, all_some l' with Some a, Some t => Some (a :: t) | _, _ => None end
  end.
(** ... and a batch (N x 2 or N x 3; the shape of the empty batch does not matter here) (gps.py 461-468) *)
Definition spaceFromGPS_batch (gs : list gpt) (g0 : gpt) : option (list spt) :=
  all_some (map (space_row (length gs) g0) gs).

(** Camera.gpsFromSpace and Camera.spaceFromGPS, camera.py 1159-1187 *)
Definition cam_gpsFromSpace (la lo e : num) (s : spt) : gpt := gpsFromSpace s (Gpt la lo (Some e)).
(** camera.py 1175-1189 *)
Definition cam_spaceFromGPS (la lo : num) (g : gpt) : option spt := spaceFromGPS g (Gpt la lo None).
