(** * The terms of the log probability: camera.py 243-269, 515-557, 582-628, 656-699, 780-809 *)
Require Import Reals List Bool.
From Verif Require Import Num Vec Projection Ray CameraTransform Horizon Stereo LogProb.
Import ListNotations.
Open Scope R_scope.

(** np.log (camera.py 246, 265) *)
Definition nln (x : num) : num :=
  match look x with
  | VFin r _ => if Rltb 0 r then Fin (ln r) else if Reqb r 0 then NInf else NaN
  | VInf false => PInf
  | _ => NaN
  end.
(** scipy.stats.norm(loc, scale).logpdf(x) (scipy/stats/_distn_infrastructure.py, rv_continuous.logpdf, and
    _continuous_distns.py, _norm_logpdf): nan unless the scale is positive, -inf at infinity. *)
Definition logpdf (loc scale x : num) : num :=
  let y := ((x - loc) / scale)%num in
  if negb (Fin 0 <? scale)%num || nisnan y then NaN
  else if nisinf y then NInf
  else (- (y * y) / Fin 2 - Fin (ln (sqrt (2 * PI))) - nln scale)%num.

(** np.sum of results that may raise (np.sum, camera.py 246, 265) *)
Fixpoint osum (l : list (option num)) : option (list num) :=
  match l with
  | [] => Some []
  | None :: _ => None
  | Some x :: l' => option_map (cons x) (osum l')
  end.
(** np.sum, camera.py 246, 265 *)
Definition sum_terms (l : list (option num)) : option num := option_map nsum (osum l).

(** The argument variation, 534, 549: a Python float or int, or any other object, whose attribute value is read when
    the term is evaluated ([None]: there is none, e.g. for an array or a numpy integer, AttributeError). *)
Inductive variation := VNumber (x : num) | VObject (value : option num).
(** camera.py 535-557, 603-628 *)
Definition scale_of (v : variation) : option num := match v with VNumber x => Some x | VObject x => x end.
(** One observed object: the two pixels and the expected height or length (camera.py 515-557, 582-628) *)
Record object := Object { ob_1 : v2 num; ob_2 : v2 num; ob_size : num }.
(** camera.py 535-557, 603-628 *)
Definition size_term (measure : v2 num -> v2 num -> option num) (obs : list object) (v : variation) : option num :=
  match scale_of v with
  | None => None
  | Some s => sum_terms (map (fun o => option_map (logpdf (ob_size o) s) (measure (ob_1 o) (ob_2 o))) obs)
  end.
(** addObjectHeightInformation, 535-555: the feet are on the ground, Z = 0 *)
Definition height_term (c : camera) (obs : list object) (v : variation) : option num :=
  size_term (fun a b => getObjectHeight c a b (Fin 0)) obs v.
(** addObjectLengthInformation, 604-626 *)
Definition length_term (c : camera) (z : num) (obs : list object) (v : variation) : option num :=
  size_term (fun a b => getObjectLength c a b z) obs v.

(** addHorizonInformation, 796-806, for a list of horizon points with their uncertainties *)
Definition horizon_term (c : camera) (er e : num) (obs : list (v2 num * num)) : option num :=
  match getImageHorizon c er e (Many (map (fun o => c1 (fst o)) obs)) with
  | Some (inr rows) => Some (nsum (map (fun x => logpdf (Fin 0) (snd (fst x)) (c2 (fst (fst x)) - c2 (snd x))%num) (combine obs rows)))
  | _ => None
  end.

(** addBaselineInformation, 243-247 *)
Definition baseline_term (target uncertainty : num) (pos1 pos2 : v3 num) : num := logpdf target uncertainty (getBaseline pos1 pos2).

(** addPointCorrespondenceInformation, 250-267.  Unlike pointCorrespondenceError the points behind the camera are
    hidden (256-257). *)
Definition epipolar_deviation (a b : camera) (qa qb : v2 num) : num :=
  let r := getRay a qa false in
  let p1 := imageFromSpace b (nv_add (fst r) (nv_scale (Fin 1) (snd r))) true in
  let p2 := imageFromSpace b (nv_add (fst r) (nv_scale (Fin 2) (snd r))) true in
  let foot := closest2 p1 (nv2_sub p2 p1) qb in
  nv_norm2 (nv2_sub foot qb).
(** camera.py 249-269 *)
Definition correspondence_term (cams : list camera) (pairs : list (v2 num * v2 num)) (uncertainty : num) : option num :=
  two cams (fun a b =>
    (Fin 0 + nsum (map (fun q => logpdf (Fin 0) uncertainty (epipolar_deviation a b (fst q) (snd q))) pairs)
           + nsum (map (fun q => logpdf (Fin 0) uncertainty (epipolar_deviation b a (snd q) (fst q))) pairs))%num).

(** addLandmarkInformation, 674-696.  np.linspace(-2 offset, 2 offset, 1000), where [offset] is the largest
    uncertainty. *)
Definition offsets (offset : num) : list num :=
  map (fun i => (Fin (-2) * offset + Fin (INR i) * ((Fin 2 * offset - Fin (-2) * offset) / Fin 999))%num) (seq 0 1000).
(** One landmark with the pixel [q], the position [l] and an uncertainty per axis; [pos] the parameters of
    the position (camera.py 656-696) *)
Record landmark := Landmark { lm_image : v2 num; lm_space : v3 num; lm_unc : v3 num }.
(** camera.py 686-696 *)
Definition landmark_1 (c : camera) (pos : v3 num) (offset : num) (m : landmark) : num :=
  let r := getRay c (lm_image m) true in
  let n := getClosestPointFromLine (fst r) (snd r) (lm_space m) in
  (* the direction is normalised in place *)
  let ray := snd n in
  let distance := nv_norm (nv_sub (fst n) pos) in
  let on_ray s := nv_add (fst r) (nv_scale (distance + s)%num ray) in
  nsum (flat_map (fun s => [logpdf (cx (lm_space m)) (cx (lm_unc m)) (cx (on_ray s));
                            logpdf (cy (lm_space m)) (cy (lm_unc m)) (cy (on_ray s));
                            logpdf (cz (lm_space m)) (cz (lm_unc m)) (cz (on_ray s))]) (offsets offset)).
(** camera.py 656-699 *)
Definition landmark_term (c : camera) (pos : v3 num) (offset : num) (ms : list landmark) : num :=
  nsum (map (landmark_1 c pos offset) ms).
