(** * The maps of undistortImage and getTopViewOfImage in single precision: camera.py 1306, 1395 *)
Require Import Reals List Bool.
From Verif Require Import Num Vec CameraTransform MapCache.
Import ListNotations.
Open Scope R_scope.

(** .astype(np.float32) of the map, 1306 and 1395; [rd] converts one number *)
Definition round_map (rd : num -> num) (m : pmap) : pmap := map (map (fun q => V2 (rd (c1 q)) (rd (c2 q)))) m.
(** undistortImage with a map in single precision, camera.py 1342-1357, 1363.  Simplified: the cached map is rounded
    when it is used, not before it is stored. *)
Definition undistort32 (rd : num -> num) (s : state) (im : image) (e : option nat) (scaling : option num) (skip : bool) : state * option image :=
  if (negb skip && negb (size_ok (s_cam s) im))%bool then (s, None)
  else let (s', m) := getUndistortMap s e scaling in
       (s', option_map (fun m => flip (remap (with_alpha im) (round_map rd m))) m).
(** getTopViewOfImage with a map in single precision, camera.py 1437-1452, 1456; simplified in the same way *)
Definition top_view32 (rd : num -> num) (s : state) (im : image) (e : option nat) (scaling : option num) (z : num) (skip hide : bool) : state * option image :=
  if (negb skip && negb (size_ok (s_cam s) im))%bool then (s, None)
  else let (s', m) := getMap s e scaling z hide in
       (s', option_map (fun m => remap (with_alpha im) (round_map rd m)) m).
