(** * Extents given to undistortImage as list, tuple or array: camera.py 1280-1312, 1342-1363 *)
Require Import Reals List Bool.
From Verif Require Import Num Vec Projection CameraTransform MapCache MapPlot.
Import ListNotations.

(** What the caller passes as extent (camera.py 1314); the default is a list (1283). *)
Inductive ekind := AList | ATuple | AArray.
(** The state of MapCache.v with the type of the cached extent (camera.py 1308); it means nothing while nothing is
    cached. *)
Record kstate := KState { k_state : state; k_kind : ekind }.
(** the cached extent == the extent, 1291, when a map is cached: a comparison with an array gives an array, whose truth is
    ambiguous (ValueError: None); a list is never equal to a tuple; else the numbers are compared ([Some true]). *)
Definition comparable (a b : ekind) : option bool :=
  match a, b with
  | AArray, _ | _, AArray => None
  | AList, AList | ATuple, ATuple => Some true
  | _, _ => Some false
  end.
(** undistortImage, camera.py 1342-1363, for an extent of any type.  [None]: it raises; the first component is the camera
    afterwards.  With do_plot a tuple raises in line 1360, after the map has been cached.  Simplified: a tuple is as
    changeable as a list. *)
Definition undistort_kind (s : kstate) (im : image) (e : option (ekind * nat)) (scaling : option num) (skip : bool) : kstate * option image :=
  let st := k_state s in
  let k := match e with Some (k, _) => k | None => AList end in
  let n := option_map snd e in
  if (negb skip && negb (size_ok (s_cam st) im))%bool then (s, None)
  else
    let run from := match undistortImage from im n scaling skip with
                    | (st', Some im') => (KState st' k, Some im')
                    | (_, None) => (s, None)
                    end in
    match s_undist st with
    | None => run st
    | Some _ => match comparable (k_kind s) k with
                | None => (s, None)
                | Some true => run st
                (* not equal: as if nothing were cached *)
                | Some false => run (State (s_cam st) (s_lists st) (s_map st) None)
                end
    end.
(** with do_plot, camera.py 1358-1363 *)
Definition plot_kind (s : kstate) (im : image) (e : option (ekind * nat)) (scaling : option num) (skip : bool) : kstate * option drawing :=
  let (s', r) := undistort_kind s im e scaling skip in
  (s', match r, s_undist (k_state s'), k_kind s' with
       | Some im', Some c, (AList | AArray) =>
         let x := contents (k_state s') (c_extent c) in
         Some (Drawing im' (e_x0 x) (e_x1 x) (e_y1 x - Fin 1)%num (e_y0 x - Fin 1)%num)
       | _, _, _ => None
       end).
(** What can happen to a camera (camera.py 1280-1456): a call of undistortImage, or anything else of MapCache.v *)
Inductive kevent :=
| Call (im : image) (e : option (ekind * nat)) (scaling : option num) (skip plot : bool)
| TopView (im : image) (e : option nat) (scaling : option num) (z : num) (skip hide : bool)
| NewCamera (c : camera)
| Write_ (n : nat) (e : extent).
(** camera.py 1280-1456 *)
Definition kstep (s : kstate) (v : kevent) : kstate :=
  match v with
  | Call im e sc skip plot => if plot then fst (plot_kind s im e sc skip) else fst (undistort_kind s im e sc skip)
  | TopView im e sc z skip hide => KState (step (k_state s) (Top im e sc z skip hide)) (k_kind s)
  | NewCamera c => KState (step (k_state s) (Change c)) (k_kind s)
  | Write_ n e => KState (step (k_state s) (Assign n e)) (k_kind s)
  end.
