(** * What a scene draws: Scene.plotSceneViews and Scene.renderImage, scene.py 37-98 *)
Require Import Reals List ZArith.
From Verif Require Import Num Vec Projection CameraTransform Scene Border.
Import ListNotations.
Open Scope R_scope.

(** a[:, 0], a[:, 1] and so on: the two columns given to plt.plot (scene.py 37-82) *)
Definition xy (p : v3 num) : v2 num := V2 (cx p) (cy p).
(** scene.py 37-82 *)
Definition xz (p : v3 num) : v2 num := V2 (cx p) (cz p).
(** scene.py 37-82 *)
Definition yz (p : v3 num) : v2 num := V2 (cy p) (cz p).
(** object_im = self.camera.imageFromSpace(object), 82 and 93, row by row (C14) *)
Definition object_im (c : camera) (object : list (v3 num)) : list (v2 num) := map (fun p => imageFromSpace c p true) object.

(** The lines (sequences of rows) given to plt.plot on the four axes.  The horizon (67-68) is left out, see C17. *)
Record views := Views { v_xy : list (list (v2 num)); v_xz : list (list (v2 num)); v_yz : list (list (v2 num)); v_image : list (list (v2 num)) }.
(** plotSceneViews, 37-83: [camera] is self.camera (None before setCamera) with the image size.  None: an exception;
    39 is an AttributeError without a camera.  getCameraCone has its default distance 1. *)
Definition plotSceneViews (camera : option (camera * num * num)) (objects : list (list (v3 num))) : option views :=
  match camera with
  | None => None
  | Some (c, w, h) =>
    match cone_at_distance c w h (Fin 1) with
    | None => None
    | Some cone => Some (Views (map (map xy) (cone :: objects)) (map (map xz) (cone :: objects)) (map (map yz) (cone :: objects))
                           (map (object_im c) objects))
    end
  end.

(** renderImage, 85-98: the size of the picture and the lines in it.  An image size is an int or a float; np.zeros
    (90-91) accepts only ints that are not negative. *)
Inductive dim := Int (n : Z) | Float (x : num).
(** np.zeros, scene.py 85-98 *)
Definition zeros (d : dim) : option Z := match d with Int n => if (n <? 0)%Z then None else Some n | Float _ => None end.
(** scene.py 84-98 *)
Definition renderImage (camera : option (camera * dim * dim)) (objects : list (list (v3 num))) : option (Z * Z * list (list (v2 num))) :=
  match camera with
  | None => None
  | Some (c, w, h) =>
    match zeros h, zeros w with
    | Some h, Some w => Some (w, h, map (object_im c) objects)
    | _, _ => None
    end
  end.
