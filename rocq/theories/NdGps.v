(** * The gps functions on arrays: gps.py 281-477

    The functions of Gps.v treat one row; here they are written with the numpy operations of the source (NdArray.v), in
    the order of the source, for arrays of any number of axes. *)
Require Import Reals List Bool Arith.
From Verif Require Import Num Vec Gps NdArray.
Import ListNotations.
Open Scope nat_scope.

(** splitGPS, 327-339: the columns; without a third column the height is None.  Fewer than two columns raise. *)
Definition split_a (x : arr num) (keep_deg : bool) : option (arr num * arr num * option (arr num)) :=
  olet lat := lastk 0 x in
  olet lon := lastk 1 x in
  let conv := if keep_deg then (fun x => x) else ndeg2rad in
  Some (ew1 conv lat, ew1 conv lon, lastk 2 x).
(** getBearing, 319-325 *)
Definition getBearing_a (point1 point2 : arr num) : option (arr num) :=
  olet s1 := split_a point1 false in
  olet s2 := split_a point2 false in
  let '(lat1, lon1, _) := s1 in
  let '(lat2, lon2, _) := s2 in
  olet dL := ew2 nsub lon2 lon1 in
  olet X := ew2 nmul (ew1 ncos lat2) (ew1 nsin dL) in
  olet y1 := ew2 nmul (ew1 ncos lat1) (ew1 nsin lat2) in
  olet y2 := ew2 nmul (ew1 nsin lat1) (ew1 ncos lat2) in
  olet y3 := ew2 nmul y2 (ew1 ncos dL) in
  olet Y := ew2 nsub y1 y3 in
  olet beta := ew2 natan2 X Y in
  Some (ew1 nrad2deg beta).
(** getDistance, 380-395 *)
Definition getDistance_a (point1 point2 : arr num) : option (arr num) :=
  olet s1 := split_a point1 false in
  olet s2 := split_a point2 false in
  let '(lat1, lon1, h1) := s1 in
  let '(lat2, lon2, h2) := s2 in
  olet dlon := ew2 nsub lon2 lon1 in
  olet dlat := ew2 nsub lat2 lat1 in
  olet c := ew2 nmul (ew1 ncos lat1) (ew1 ncos lat2) in
  olet c := ew2 nmul c (ew1 (fun x => square (nsin (x / Fin 2)%num)) dlon) in
  olet a := ew2 nadd (ew1 (fun x => square (nsin (x / Fin 2)%num)) dlat) c in
  let distance := ew1 (fun a => earth * (Fin 2 * nasin (nsqrt a)))%num a in
  match h1, h2 with
  | Some h1, Some h2 =>
    olet d := ew2 nsub h1 h2 in
    let dH := ew1 nabs d in
    olet q := ew2 nadd (ew1 square distance) (ew1 square dH) in
    Some (ew1 nsqrt q)
  | _, _ => Some distance
  end.
(** moveDistance, 444-458 *)
Definition moveDistance_a (start distance bearing : arr num) : option (arr num) :=
  let bearing := ew1 ndeg2rad bearing in
  olet s1 := split_a start false in
  let '(lat1, lon1, h1) := s1 in
  let three := match dims start with 3 :: _ => true | _ => false end in
  olet R := (if three then olet h := lastk 2 start in ew2 nadd (scalar earth) h else Some (scalar earth)) in
  olet q := ew2 ndiv distance R in
  olet a := ew2 nmul (ew1 nsin lat1) (ew1 ncos q) in
  olet b := ew2 nmul (ew1 ncos lat1) (ew1 nsin q) in
  olet b := ew2 nmul b (ew1 ncos bearing) in
  olet l := ew2 nadd a b in
  let lat2 := ew1 nasin l in
  olet u := ew2 nmul (ew1 nsin bearing) (ew1 nsin q) in
  olet u := ew2 nmul u (ew1 ncos lat1) in
  olet v := ew2 nmul (ew1 nsin lat1) (ew1 nsin lat2) in
  olet v := ew2 nsub (ew1 ncos q) v in
  olet w := ew2 natan2 u v in
  olet lon2 := ew2 nadd lon1 w in
  if three then
    olet h := lastk 2 start in
    olet h := ew2 nmul (ew1 (fun _ => Fin 1) lon2) h in
    olet t := stack [ew1 nrad2deg lat2; ew1 nrad2deg lon2; h] in Some (T t)
  else olet t := stack [ew1 nrad2deg lat2; ew1 nrad2deg lon2] in Some (T t).
(** spaceFromGPS, 461-468; len is the length of the first axis *)
Definition len_a {A} (a : arr A) : nat := last (dims a) 0.
(** gps.py 461-468 *)
Definition spaceFromGPS_a (gps gps0 : arr num) : option (arr num) :=
  olet height := (if len_a gps =? 2 then olet z := lastk 0 gps in Some (ew1 (fun _ => Fin 0) z) else lastk 2 gps) in
  olet distance := getDistance_a gps0 gps in
  olet bearing := getBearing_a gps0 gps in
  let bearing_rad := ew1 ndeg2rad bearing in
  olet x := ew2 nmul distance (ew1 nsin bearing_rad) in
  olet y := ew2 nmul distance (ew1 ncos bearing_rad) in
  olet t := stack [x; y; height] in Some (T t).
(** a[..., :2] (gps.py 461-477) *)
Definition first2 (a : arr num) : option (arr num) :=
  match dims a with n :: s => Some (Arr (Nat.min 2 n :: s) (get a)) | [] => None end.
(** gpsFromSpace, 471-477 *)
Definition gpsFromSpace_a (space gps0 : arr num) : option (arr num) :=
  olet x := lastk 0 space in
  olet y := lastk 1 space in
  olet b := ew2 natan2 x y in
  let bearing := ew1 nrad2deg b in
  olet xy := first2 space in
  olet distance := norm_last xy in
  olet target := moveDistance_a gps0 distance bearing in
  match dims space with
  | 3 :: _ =>
    olet a := lastk 0 target in
    olet o := lastk 1 target in
    olet z := lastk 2 space in
    olet t := stack [a; o; z] in Some (T t)
  | _ => Some target
  end.
