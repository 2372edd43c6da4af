(** * The arguments of addLandmarkInformationGPS: camera.py 735-758 *)
Require Import Reals List Bool Arith.
From Verif Require Import Num Vec Projection CameraTransform Gps LogProb FitTerms FitPlot FitArgs GpsImage.
Import ListNotations.
Open Scope R_scope.

(** addLandmarkInformationGPS and one evaluation of its term, camera.py 735-758: the positions are converted (749) and
    broadcast with the directions of the pixels.  Simplified as [landmark_call]: not whether it raises in the call or when
    the term is evaluated. *)
Definition gps_landmark_call (c : camera) (la lo : num) (pos : v3 num) (pixels : list (v2 num)) (gs : list gpt) (u : unc_arg) : option num :=
  match points_from_gps la lo gs with Some ps => landmark_counts c pos pixels ps u | None => None end.
(** plotLandmarkPoints, camera.py 763-775 *)
Definition gps_landmark_line (c : camera) (la lo : num) (pixels : list (v2 num)) (gs : list gpt) : option (list (v2 num)) :=
  match points_from_gps la lo gs with Some ps => landmark_line c pixels ps | None => None end.
