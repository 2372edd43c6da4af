(** * The plots of the rendered images: undistortImage and getTopViewOfImage with do_plot=True *)
Require Import Reals.
From Verif Require Import Num Vec Projection CameraTransform MapCache.

(** What is given to plt.imshow: the image and its extent (left, right, bottom, top) (camera.py 1362, 1455).  alpha is
    left out. *)
Record drawing := Drawing { d_image : image; d_left : num; d_right : num; d_bottom : num; d_top : num }.

(** undistortImage with do_plot, camera.py 1342-1363.  The extent is a copy of the cached list (1360); an extent given as a
    tuple has no copy() and raises here (ExtentKind.v). *)
Definition plotUndistorted (s : state) (im : image) (e : option nat) (scaling : option num) (skip : bool) : state * option drawing :=
  let (s', r) := undistortImage s im e scaling skip in
  (s', match r, s_undist s' with
       | Some im', Some c =>
         let x := contents s' (c_extent c) in
         Some (Drawing im' (e_x0 x) (e_x1 x) (e_y1 x - Fin 1)%num (e_y0 x - Fin 1)%num)
       | _, _ => None
       end).
(** getTopViewOfImage with do_plot, camera.py 1437-1456: imshow gets the cached extent as it is *)
Definition plotTopView (s : state) (im : image) (e : option nat) (scaling : option num) (z : num) (skip hide : bool) : state * option drawing :=
  let (s', r) := getTopViewOfImage s im e scaling z skip hide in
  (s', match r, s_map s' with
       | Some im', Some c =>
         let x := contents s' (c_extent c) in Some (Drawing im' (e_x0 x) (e_x1 x) (e_y0 x) (e_y1 x))
       | _, _ => None
       end).
