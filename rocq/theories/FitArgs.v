(** * The arguments of addLandmarkInformation and addHorizonInformation: camera.py 674-696, 780-809 *)
Require Import Reals List Bool Arith.
From Verif Require Import Num Vec Projection CameraTransform Horizon Stereo LogProb FitTerms FitPlot.
Import ListNotations.
Open Scope R_scope.

(** np.max of two numbers and of an array (camera.py 675): nan if one is nan *)
Definition nmax2 (x y : num) : num :=
  if nisnan x then NaN else if nisnan y then NaN else if (x <? y)%num then y else x.
(** ValueError for an empty array (camera.py 675) *)
Definition nmax_list (l : list num) : option num :=
  match l with [] => None | x :: l' => Some (fold_left nmax2 l' x) end.
(** Broadcasting of the first axes of two arrays (camera.py 692, 696, 799-800): equal lengths, or one of them is 1, else
    ValueError *)
Definition broadcast {A B} (a : list A) (b : list B) : option (list (A * B)) :=
  if Nat.eqb (length a) (length b) then Some (combine a b)
  else match a, b with
       | [x], _ => Some (map (fun y => (x, y)) b)
       | _, [y] => Some (map (fun x => (x, y)) a)
       | _, _ => None
       end.
(** The argument uncertainties (camera.py 674): of shape (), (K) or (KxM) *)
Inductive unc_arg := UNumber (u : num) | URow (l : list num) | UTable (rows : list (list num)).
(** a table with rows of different lengths is no array (ValueError, camera.py 674) *)
Definition rectangular (rows : list (list num)) : bool :=
  match rows with [] => true | r :: rows' => forallb (fun x => Nat.eqb (length x) (length r)) rows' end.
(** np.max(uncertainties), 675 *)
Definition unc_max (u : unc_arg) : option num :=
  match u with
  | UNumber x => Some x
  | URow l => nmax_list l
  | UTable rows => if rectangular rows then nmax_list (concat rows) else None
  end.
(** One row against the three axes (camera.py 681-684, 692) *)
Definition axes (l : list num) : option (v3 num) :=
  match l with [a; b; c] => Some (V3 a b c) | [a] => Some (V3 a a a) | _ => None end.
(** camera.py 681-684: one row for all landmarks, or a row each *)
Definition unc_rows (u : unc_arg) : list (list num) :=
  match u with UNumber x => [[x]] | URow l => [l] | UTable rows => rows end.
Fixpoint all_some {A} (l : list (option A)) : option (list A) := (* the broadcasting of camera.py 692 raises *)
  match l with
  | [] => Some []
  | Some x :: l' => option_map (cons x) (all_some l')
  | None :: _ => None
  end.
(** addLandmarkInformation and one evaluation of its term, 674-696, for landmarks given by pixels and as many positions
    (a single one is a list of one, 677-680).  Simplified: the model says that it raises, not whether in the call (674,
    675) or when the term is evaluated (692-696). *)
Definition landmark_call (c : camera) (pos : v3 num) (pairs : list (v2 num * v3 num)) (u : unc_arg) : option num :=
  match unc_max u, all_some (map axes (unc_rows u)) with
  | Some offset, Some rows =>
      option_map (fun l => landmark_term c pos offset (map (fun x => Landmark (fst (fst x)) (snd (fst x)) (snd x)) l)) (broadcast pairs rows)
  | _, _ => None
  end.
(** addLandmarkInformation with numbers of pixels and positions that need not be equal: the directions (687) are
    broadcast with the positions (688, 692-694; ray.py 324-330) *)
Definition landmark_counts (c : camera) (pos : v3 num) (pixels : list (v2 num)) (positions : list (v3 num)) (u : unc_arg) : option num :=
  match broadcast pixels positions with Some pairs => landmark_call c pos pairs u | None => None end.
(** plotLandmarkPoints, camera.py 703-712: np.concatenate needs as many predicted pixels as observed ones *)
Definition landmark_line (c : camera) (pixels : list (v2 num)) (positions : list (v3 num)) : option (list (v2 num)) :=
  if Nat.eqb (length pixels) (length positions) then Some (joined 2 (length pixels) pixels (map (predicted_landmark c) positions)) else None.

(** The arguments of addHorizonInformation (780-794): one point or a list; the uncertainty has the type Points1D itself
    as default ([HMissing]), for which the density cannot be computed. *)
Inductive horizon_arg := HOne (p : v2 num) | HMany (l : list (v2 num)).
Inductive horizon_unc := HMissing | HNumber (u : num) | HList (l : list num).
(** camera.py 796-806 *)
Definition horizon_scales (u : horizon_unc) : option (list num) :=
  match u with HMissing => None | HNumber x => Some [x] | HList l => Some l end.
(** camera.py 796-806: the differences are broadcast with the uncertainties *)
Definition horizon_call (c : camera) (er e : num) (h : horizon_arg) (u : horizon_unc) : option num :=
  let diffs := match h with
    | HOne p => match getImageHorizon c er e (One (c1 p)) with Some (inl row) => Some [(c2 p - c2 row)%num] | _ => None end
    | HMany l => match getImageHorizon c er e (Many (map c1 l)) with
                 | Some (inr rows) => Some (map (fun x => (c2 (fst x) - c2 (snd x))%num) (combine l rows)) | _ => None end
    end in
  match diffs, horizon_scales u with
  | Some d, Some s => option_map (fun l => nsum (map (fun x => logpdf (Fin 0) (snd x) (fst x)) l)) (broadcast d s)
  | _, _ => None
  end.

(** The argument variation as documented (camera.py 527-529): a number, a fit parameter, or an array, which has no
    attribute value. *)
Inductive var_arg := VarNumber (x : num) | VarParameter (value : num) | VarArray (l : list num).
(** camera.py 534-540, 602-609 *)
Definition variation_of (v : var_arg) : variation :=
  match v with VarNumber x => VNumber x | VarParameter x => VObject (Some x) | VarArray _ => VObject None end.
(** addObjectHeightInformation and addObjectLengthInformation and one evaluation of the term, 534-557, 602-628: the
    measured numbers are broadcast with the expected ones.  One pair of points and one number are lists of one. *)
Definition size_call (measure : v2 num -> v2 num -> option num) (points : list (v2 num * v2 num)) (sizes : list num) (v : var_arg) : option num :=
  match scale_of (variation_of v), osum (map (fun p => measure (fst p) (snd p)) points) with
  | Some s, Some xs => option_map (fun l => nsum (map (fun x => logpdf (snd x) s (fst x)) l)) (broadcast xs sizes)
  | _, _ => None
  end.
(** 548, the feet on the ground, Z = 0; camera.py 535-555 *)
Definition height_call (c : camera) := size_call (fun a b => getObjectHeight c a b (Fin 0)).
(** camera.py 604-626 *)
Definition length_call (c : camera) (z : num) := size_call (fun a b => getObjectLength c a b z).

(** addPointCorrespondenceInformation and one evaluation of its term, 249-269, with any numbers of pixels of the two
    cameras and of uncertainties (one number is a list of one): the lines of the pixels of one camera are broadcast with
    the pixels of the other one (259-261; ray.py 324-330), the distances with the uncertainties (263). *)
Definition correspondence_call (cams : list camera) (pixels1 pixels2 : list (v2 num)) (us : list num) : option num :=
  match broadcast pixels1 pixels2 with
  | Some pairs => match broadcast pairs us with
    | Some l => two cams (fun a b =>
        (Fin 0 + nsum (map (fun x => logpdf (Fin 0) (snd x) (epipolar_deviation a b (fst (fst x)) (snd (fst x)))) l)
               + nsum (map (fun x => logpdf (Fin 0) (snd x) (epipolar_deviation b a (snd (fst x)) (fst (fst x)))) l))%num)
    | None => None
    end
  | None => None
  end.

(** The same with numbers of the first and second points that need not be equal, 535-557, 604-628: getObjectHeight and
    getObjectLength broadcast them (1245-1251, 1275-1279) *)
Definition size_counts (measure : v2 num -> v2 num -> option num) (firsts seconds : list (v2 num)) (sizes : list num) (v : var_arg) : option num :=
  match broadcast firsts seconds with Some points => size_call measure points sizes v | None => None end.
(** camera.py 535-555 *)
Definition height_counts (c : camera) := size_counts (fun a b => getObjectHeight c a b (Fin 0)).
(** camera.py 604-626 *)
Definition length_counts (c : camera) (z : num) := size_counts (fun a b => getObjectLength c a b z).
