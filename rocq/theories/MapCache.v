(** * Rendered images and the cached maps: Camera._getMap, _getUndistortMap, getTopViewOfImage, undistortImage *)
Require Import Reals List Bool ZArith.
From Verif Require Import Num Vec Orientation Projection Ray CameraTransform Border Lut.
Import ListNotations.
Open Scope R_scope.

(** A caller's extent [x_min, x_max, y_min, y_max]: a list of four numbers.  (Tuples and arrays as
    extent of _getUndistortMap: ExtentKind.v.) *)
Record extent := Ext { e_x0 : num; e_x1 : num; e_y0 : num; e_y1 : num }.
(** camera.py 1291, 1374 *)
Definition ext_eq (a b : extent) : bool :=
  (neqb (e_x0 a) (e_x0 b) && neqb (e_x1 a) (e_x1 b) && neqb (e_y0 a) (e_y0 b) && neqb (e_y1 a) (e_y1 b))%bool.
(** the cached extent is the caller's list itself, or one made by the function (1283, 1369) *)
Inductive ext_ref := Given (n : nat) | Own (e : extent).
(** a map: for every row and column of the result a position in the image (camera.py 1280-1312, 1365-1401) *)
Definition pmap := list (list (v2 num)).
(** camera.py 1282-1312, 1367-1401 *)
Record cache := Cache { c_map : pmap; c_extent : ext_ref; c_scaling : num }.
(** The camera's values (replaced as a whole by any change of a parameter), the lists of the callers, and the two
    caches (class attributes None at first, camera.py 434-440). *)
Record state := State { s_cam : camera; s_lists : nat -> extent; s_map : option cache; s_undist : option cache }.

(** the extent as it is now, camera.py 1291, 1374 *)
Definition contents (s : state) (r : ext_ref) : extent := match r with Given n => s_lists s n | Own e => e end.

(** np.meshgrid(xs, ys), reshape(2, -1).T, a function of the points, .T.reshape(mesh.shape), [:, ::-1, :]
    (camera.py 1280-1312, 1365-1401) *)
Definition mesh_map (f : v2 num -> v2 num) (xs ys : list num) : pmap :=
  let points := concat (map (fun y => map (fun x => V2 x y) xs) ys) in
  rev (reshape (length ys) (length xs) (map f points)).
(** camera.py 1280-1312, 1365-1401 *)
Definition map_over (f : v2 num -> v2 num) (e : extent) (scaling : num) : option pmap :=
  match arange (e_x0 e) (e_x1 e) scaling, arange (e_y0 e) (e_y1 e) scaling with
  | Some xs, Some ys => Some (mesh_map f xs ys)
  | _, _ => None
  end.

(** _getUndistortMap, camera.py 1280-1312.  The first component is the camera afterwards; [None]: np.arange raises. *)
Definition getUndistortMap (s : state) (e : option nat) (scaling : option num) : state * option pmap :=
  let r := match e with
           | Some n => Given n
           | None => Own (Ext (Fin 0) (im_width (cam_proj (s_cam s))) (Fin 0) (im_height (cam_proj (s_cam s))))
           end in
  let sc := match scaling with Some x => x | None => Fin 1 end in
  let compute :=
    match map_over (cam_dist (s_cam s)) (contents s r) sc with
    | Some m => (State (s_cam s) (s_lists s) (s_map s) (Some (Cache m r sc)), Some m)
    | None => (s, None)
    end in
  match s_undist s with
  | Some c => if (ext_eq (contents s (c_extent c)) (contents s r) && neqb (c_scaling c) sc)%bool then (s, Some (c_map c)) else compute
  | None => compute
  end.

(** np.nanmin / np.nanmax of a column without nan; [None] for an empty border (ValueError), camera.py 1369-1370 *)
Definition lowest (l : list num) : option num :=
  match l with [] => None | a :: t => Some (fold_left (fun m x => if nltb x m then x else m) t a) end.
(** camera.py 1369-1370 *)
Definition highest (l : list num) : option num :=
  match l with [] => None | a :: t => Some (fold_left (fun m x => if nltb m x then x else m) t a) end.
(** 1367-1370 *)
Definition guessed_extent (w h : num) : option extent :=
  match getImageBorder w h (Fin 1) with
  | None => None
  | Some b =>
    match lowest (map c1 b), highest (map c1 b), lowest (map c2 b), highest (map c2 b) with
    | Some a, Some b, Some c, Some d => Some (Ext a b c d)
    | _, _, _, _ => None
    end
  end.
(** _getMap, camera.py 1365-1401 *)
Definition getMap (s : state) (e : option nat) (scaling : option num) (z : num) (hide : bool) : state * option pmap :=
  let w := im_width (cam_proj (s_cam s)) in let h := im_height (cam_proj (s_cam s)) in
  match match e with Some n => Some (Given n) | None => option_map Own (guessed_extent w h) end with
  | None => (s, None)
  | Some r =>
    let x := contents s r in
    let sc := match scaling with
              | Some v => v
              | None => (nsqrt ((e_x1 x - e_x0 x) * (e_y1 x - e_y0 x)) / nsqrt (w * h))%num
              end in
    let compute :=
      match map_over (fun p => imageFromSpace (s_cam s) (V3 (c1 p) (c2 p) (z * Fin 1)%num) hide) x sc with
      | Some m => (State (s_cam s) (s_lists s) (Some (Cache m r sc)) (s_undist s), Some m)
      | None => (s, None)
      end in
    match s_map s, scaling with
    (* last_scaling is a number, so it never equals scaling = None *)
    | Some c, Some v => if (ext_eq (contents s (c_extent c)) x && neqb (c_scaling c) v)%bool then (s, Some (c_map c)) else compute
    | _, _ => compute
    end
  end.

(** ** Images *)
(** Height, width, number of channels (None: a two-dimensional array) and the values at row and column
    (camera.py 1314, 1403). *)
Record image := Image { im_h : nat; im_w : nat; im_ch : option nat; im_px : nat -> nat -> list num }.
(** camera.py 1351-1354 and 1446-1449 *)
Definition with_alpha (im : image) : image :=
  match im_ch im with
  | Some 3%nat => Image (im_h im) (im_w im) (Some 4%nat) (fun i j => (im_px im i j ++ [Fin 255])%list)
  | _ => im
  end.
(** cv2.remap with INTER_NEAREST and borderValue=[0, 1, 0, 0]; the default border mode is constant.  The nearest
    pixel: exact halves may be rounded the other way; positions that are no numbers are outside.  OpenCV's limits
    on sizes and the rounding to float32 are not modelled. *)
Definition border_value (ch : option nat) : list num :=
  firstn (match ch with Some n => n | None => 1%nat end) [Fin 0; Fin 1; Fin 0; Fin 0].
(** cv2.remap, camera.py 1355-1357, 1450-1452 *)
Definition pick (im : image) (q : v2 num) : list num :=
  match toR (c1 q), toR (c2 q) with
  | Some x, Some y =>
    let u := Rfloor (x + / 2) in let v := Rfloor (y + / 2) in
    if ((0 <=? u) && (u <? Z.of_nat (im_w im)) && (0 <=? v) && (v <? Z.of_nat (im_h im)))%bool%Z
    then im_px im (Z.to_nat v) (Z.to_nat u) else border_value (im_ch im)
  | _, _ => border_value (im_ch im)
  end.
(** cv2.remap, camera.py 1355-1357, 1450-1452 *)
Definition remap (im : image) (m : pmap) : image :=
  Image (length m) (length (nth 0 m [])) (im_ch im) (fun i j => pick im (nth j (nth i m []) (V2 NaN NaN))).
(** [::-1], camera.py 1357 *)
Definition flip (im : image) : image := Image (im_h im) (im_w im) (im_ch im) (fun i j => im_px im (im_h im - 1 - i) j).
(** the checks 1345-1347 and 1440-1442: AssertionError *)
Definition size_ok (c : camera) (im : image) : bool :=
  (neqb (nn (im_w im)) (im_width (cam_proj c)) && neqb (nn (im_h im)) (im_height (cam_proj c)))%bool.
(** undistortImage without do_plot, camera.py 1342-1357, 1363 *)
Definition undistortImage (s : state) (im : image) (e : option nat) (scaling : option num) (skip : bool) : state * option image :=
  if (negb skip && negb (size_ok (s_cam s) im))%bool then (s, None)
  else let (s', m) := getUndistortMap s e scaling in
       (s', option_map (fun m => flip (remap (with_alpha im) m)) m).
(** getTopViewOfImage without do_plot, camera.py 1437-1452, 1456 *)
Definition getTopViewOfImage (s : state) (im : image) (e : option nat) (scaling : option num) (z : num) (skip hide : bool) : state * option image :=
  if (negb skip && negb (size_ok (s_cam s) im))%bool then (s, None)
  else let (s', m) := getMap s e scaling z hide in
       (s', option_map (remap (with_alpha im)) m).

(** ** What can happen between two calls *)
(** camera.py 1280-1456 *)
Inductive event :=
| Top (im : image) (e : option nat) (scaling : option num) (z : num) (skip hide : bool)
| Undistort (im : image) (e : option nat) (scaling : option num) (skip : bool)
| Change (c : camera)                      (* a parameter is set, fitted, loaded, ... *)
| Assign (n : nat) (e : extent).           (* the caller changes an element of a list *)
(** camera.py 1280-1456 *)
Definition step (s : state) (v : event) : state :=
  match v with
  | Top im e sc z skip hide => fst (getTopViewOfImage s im e sc z skip hide)
  | Undistort im e sc skip => fst (undistortImage s im e sc skip)
  | Change c => State c (s_lists s) (s_map s) (s_undist s)
  | Assign n e => State (s_cam s) (fun k => if Nat.eqb k n then e else s_lists s k) (s_map s) (s_undist s)
  end.
