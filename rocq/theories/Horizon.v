(** * The horizon: Camera.distanceToHorizon and Camera.getImageHorizon *)
Require Import Reals List Bool ZArith.
From Verif Require Import Num Vec Orientation Projection Ray CameraTransform.
Import ListNotations.
Open Scope R_scope.

(** Camera.distanceToHorizon, camera.py 836-846; [er] is the attribute R_earth (line 437). *)
Definition distanceToHorizon (er e : num) : num :=
  nsqrt (Fin 2 * (er * er) * (Fin 1 - er / (er + e)))%num.

(** np.argmin: index and value of the first smallest element; None = ValueError (camera.py 883). *)
Fixpoint argmin (l : list num) : option (nat * num) :=
  match l with
  | [] => None
  | x :: l' =>
    match argmin l' with
    | Some (i, y) => if (y <? x)%num then Some (S i, y) else Some (O, x)
    | None => Some (O, x)
    end
  end.
(** np.nanargmin: nan is replaced by inf; ValueError when all elements are nan (or there are
    none), the case getImageHorizon catches (camera.py 883). *)
Definition nanargmin (l : list num) : option nat :=
  if forallb nisnan l then None
  else option_map fst (argmin (map (fun x => if nisnan x then PInf else x) l)).

(** len(np.arange(0, image_height_px)), camera.py 868; None: nan or infinity raise. *)
Definition arange_len (g : num) : option nat :=
  match toR g with Some r => Some (Z.to_nat (- Rfloor (- r))) | None => None end.
(** One round of the loop, camera.py 877-887; [d] the distance to the horizon. *)
Definition row_height (c : camera) (d x : num) (j : nat) : num :=
  match spaceFromImage c (V2 x (Fin (INR j))) (on_D d) with Some p => nabs (cz p) | None => NaN end.
(** camera.py 863-890 *)
Definition horizon_row (c : camera) (d : num) (n : nat) (x : num) : v2 num :=
  V2 x (match nanargmin (map (row_height c d x) (seq 0 n)) with Some i => Fin (INR i) | None => NaN end).
(** The argument pointsX: None, a number, or a list (camera.py 848, 864-873). *)
Inductive columns := Default | One (x : num) | Many (l : list num).
(** Camera.getImageHorizon, camera.py 848-890; an empty list gives an empty array. *)
Definition getImageHorizon (c : camera) (er e : num) (q : columns) : option (v2 num + list (v2 num)) :=
  let d := distanceToHorizon er e in
  match arange_len (im_height (cam_proj c)) with
  | None => None
  | Some n =>
    match q with
    | Default => Some (inr (map (horizon_row c d n) [Fin 0; im_width (cam_proj c) / Fin 2; im_width (cam_proj c)]%num))
    | One x => Some (inl (horizon_row c d n x))
    | Many l => Some (inr (map (horizon_row c d n) l))
    end
  end.
