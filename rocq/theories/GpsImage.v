(** * Pixels and gps positions: camera.py 1159-1222, 717-762 *)
Require Import Reals List Bool.
From Verif Require Import Num Vec Projection CameraTransform Gps LogProb FitTerms.
Import ListNotations.
Open Scope R_scope.

(** Rows of a space array with three columns, both ways (camera.py 1173) *)
Definition of_point (p : v3 num) : spt := Spt (cx p) (cy p) (Some (cz p)).
(** camera.py 1189 *)
Definition to_point (s : spt) : option (v3 num) := option_map (fun z => V3 (sx s) (sy s) z) (sz s).
(** gpsFromImage, camera.py 1206: [la], [lo] and [el] are the parameters gps_lat, gps_lon and elevation_m *)
Definition gpsFromImage (c : camera) (la lo el : num) (q : v2 num) (k : constr) : option gpt :=
  option_map (fun p => cam_gpsFromSpace la lo el (of_point p)) (spaceFromImage c q k).
(** imageFromGPS, camera.py 1222, of one point.  [None]: an exception (points with fewer than three columns get the
    height 0 in spaceFromGPS). *)
Definition imageFromGPS (c : camera) (la lo : num) (g : gpt) : option (v2 num) :=
  match cam_spaceFromGPS la lo g with
  | Some s => option_map (fun p => imageFromSpace c p true) (to_point s)
  | None => None
  end.
(** ... and of an array of points (camera.py 1189) *)
Definition points_from_gps (la lo : num) (gs : list gpt) : option (list (v3 num)) :=
  match spaceFromGPS_batch gs (Gpt la lo None) with
  | Some ss => all_some (map to_point ss)
  | None => None
  end.
(** camera.py 1208-1222 *)
Definition imageFromGPS_batch (c : camera) (la lo : num) (gs : list gpt) : option (list (v2 num)) :=
  option_map (map (fun p => imageFromSpace c p true)) (points_from_gps la lo gs).

(** addLandmarkInformationGPS, camera.py 735-758: pixel, gps position and uncertainties of every landmark.  The term
    of addLandmarkInformation with the space positions computed whenever it is evaluated. *)
Record gps_landmark := GpsLandmark { gl_image : v2 num; gl_gps : gpt; gl_unc : v3 num }.
(** camera.py 717-762 *)
Definition gps_landmark_term (c : camera) (la lo : num) (pos : v3 num) (offset : num) (ms : list gps_landmark) : option num :=
  match points_from_gps la lo (map gl_gps ms) with
  | Some ps => Some (landmark_term c pos offset (map (fun x => Landmark (gl_image (fst x)) (snd x) (gl_unc (fst x))) (combine ms ps)))
  | None => None
  end.
