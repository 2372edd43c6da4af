(** * The results of a chessboard calibration: gui_tools/calibrate/gui_calibrate.py, fitCalibration and newCalibration *)
Require Import Reals List String Arith.
From Verif Require Import Num Vec Param PropParam ParamSteps ParamReach.
Import ListNotations.
Open Scope string_scope.

(** The dict self.calibration, 331-340 (or read from a json file, 389-394) *)
Record calibration := Cal { cal_rms : num; cal_w : num; cal_h : num; cal_fx : num; cal_fy : num; cal_cx : num; cal_cy : num;
  cal_k1 : num; cal_k2 : num; cal_k3 : num }.
(** zip(self.calibration.keys(), self.calibration.values()), in the order of the dict (gui_calibrate.py 343-378) *)
Definition items (c : calibration) : list (name * num) :=
  [("rms", cal_rms c); ("image_width_px", cal_w c); ("image_height_px", cal_h c); ("focallength_x_px", cal_fx c); ("focallength_y_px", cal_fy c);
   ("center_x_px", cal_cx c); ("center_y_px", cal_cy c); ("k1", cal_k1 c); ("k2", cal_k2 c); ("k3", cal_k3 c)].
(** 324-340, from the results of cv2.calibrateCamera (camera matrix by rows, dist_coefs.ravel()) and the image size;
    None: unpacking raises for other numbers of coefficients. *)
Definition of_cv (rms : num) (m : m3 num) (dist : list num) (w h : num) : option calibration :=
  match dist with
  | [k1; k2; _; _; k3] => Some (Cal rms w h (cx (cx m)) (cy (cy m)) (cz (cx m)) (cz (cy m)) k1 k2 k3)
  | _ => None
  end.
(** 351: self.camera.parameters.set_fit_parameters, [ord] the order in which the set of callbacks is called *)
Definition apply_calibration (ord : list cb -> list cb) (h : heap num) (camera : oid) (c : calibration) := set_fit wrapn ord h camera (items c).

(** getPatternPoints, 115-123, and calibrate.py 128-131: np.indices((9, 6)).T.reshape(-1, 2) with a third column of zeros.
    The transposed index array has the axes (row, column, which index). *)
Definition pattern (columns rows : nat) : list (nat * nat * nat) :=
  flat_map (fun b => map (fun a => (a, b, 0)%nat) (seq 0 columns)) (seq 0 rows).
