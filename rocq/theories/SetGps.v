(** * Camera.setGPSpos, camera.py 469-513 *)
From Verif Require Import GpsString.
Require Import Reals List Bool String NArith QArith Qreals.
From Verif Require Import Num Param PropParam.
Import ListNotations.
Open Scope nat_scope.
Open Scope string_scope.

(** The argument lat: a number, a string, or a sequence of at least two numbers.  (A shorter sequence makes
    splitGPS raise, which is swallowed, and is then stored as the latitude; that is not modelled.) (camera.py
    469, 498-513) *)
Inductive lat_arg := LNum (x : num) | LStr (s : str) | LSeq (a b : num) (rest : list num).
(** camera.py 498-513 *)
Inductive gres := GArgs (lat : num) (lon elevation : option num) | GRaises.

(** gps.gpsFromString(s, height) for a str (gps.py 258-278) as a list of numbers, [None] in place of a
    scalar or None, which cannot be unpacked; [inr] is a ValueError of float() *)
Definition string_array (s : str) (height : option num) : option (list num) + unit :=
  match gpsFromString s with
  | GPair a b => inl (Some ([Fin (Q2R a); Fin (Q2R b)] ++ match height with Some z => [z] | None => [] end)%list)
  | GSingle _ | GNone => inl None
  | GValueError => inr tt
  end.
(** gps.splitGPS(x, keep_deg=True), gps.py 327-339 *)
Definition split_deg (a b : num) (rest : list num) : num * num * option num := (a, b, hd_error rest).

(** camera.py 498-509: the local variables lat, lon, elevation.  The exception that remains is a
    TypeError (nothing to unpack) or a ValueError. *)
Definition gps_args (lat : lat_arg) (lon elevation : option num) : gres :=
  match lat with
  | LStr s =>
    match string_array s elevation with
    | inl (Some [a; b; z]) => GArgs a (Some b) (Some z)
    | inl (Some [a; b]) => GArgs a (Some b) elevation
    | _ => GRaises
    end
  | LSeq a b rest => let '(a, b, z) := split_deg a b rest in GArgs a (Some b) z
  | LNum x => GArgs x lon elevation
  end.
(** camera.py 510-513 *)
Definition setGPSpos (h : heapn) (c : oid) (lat : lat_arg) (lon elevation : option num) : res :=
  match gps_args lat lon elevation with
  | GRaises => (h, false)
  | GArgs la lo el =>
    bind (set_attr wrapn h c "gps_lat" (ANum la)) (fun h1 =>
    bind (set_attr wrapn h1 c "gps_lon" (of_opt lo)) (fun h2 =>
    match el with Some z => set_attr wrapn h2 c "elevation_m" (ANum z) | None => (h2, true) end))
  end.
