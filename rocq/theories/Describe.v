(** * What print(camera) writes: the __str__ methods of camera.py, lens_distortion.py, projection.py and spatial.py *)
Require Import Reals List Bool NArith ZArith String.
From Verif Require Import Num GpsString Projection Param.
Import ListNotations.
Open Scope list_scope.
Open Scope N_scope.

(** "%.kf" % v and "%f" % v (six digits); "%d" % v, which raises for nan and infinity (projection.py 199-208,
    spatial.py 99-105, lens_distortion.py 54-59) *)
Definition shown_f (k : nat) (v : num) : str :=
  match v with
  | Fin r => (if Rneg r then [45] else []) ++ fixed k (half_even (Rabs r * 10 ^ k))
  | NegZ => 45 :: fixed k 0
  | PInf => text "inf" | NInf => text "-inf" | NaN => text "nan"
  end.
(** projection.py 199-208 *)
Definition shown_d (v : num) : option str :=
  match v with
  | Fin r => Some ((if Rneg r && negb (truncN r =? 0) then [45] else []) ++ dec (truncN r))
  | NegZ => Some (dec 0)
  | _ => None
  end.
(** A format string with its arguments: a text, "%.kf" or "%d" with the name of a parameter.  [rd] reads a parameter;
    None % ... raises (projection.py 199-208, spatial.py 99-105, lens_distortion.py 54-59). *)
Inductive piece := T (s : str) | F (k : nat) (n : name) | D (n : name).
(** % of projection.py 199-208, spatial.py 99-105, lens_distortion.py 54-59 *)
Definition put (rd : name -> option num) (p : piece) : option str :=
  match p with
  | T s => Some s
  | F k n => option_map (shown_f k) (rd n)
  | D n => match rd n with Some v => shown_d v | None => None end
  end.
(** string += ..., projection.py 199-208, spatial.py 99-105, lens_distortion.py 54-59 *)
Fixpoint write (rd : name -> option num) (ps : list piece) : option str :=
  match ps with
  | [] => Some []
  | p :: ps' => match put rd p, write rd ps' with Some a, Some b => Some (a ++ b) | _, _ => None end
  end.
(** projection.py 199-208 *)
Definition TAB : str := [9]. Definition NL : str := [10]. Definition TIMES : str := [215].

(** lens_distortion.py 54-59 *)
Definition lens_class (k : lkind) : str :=
  text match k with NoDist => "NoDistortion" | Brown => "BrownLensDistortion" | ABC => "ABCDistortion" end.
(** projection.py 199-208 *)
Definition proj_class (k : pkind) : str :=
  text match k with Rectilinear => "RectilinearProjection" | Cylindrical => "CylindricalProjection" | Equirectangular => "EquirectangularProjection" end.
(** LensDistortion.__str__, lens_distortion.py 54-59: getattr for every name of the lens's own parameter set *)
Definition lens_format (k : lkind) (names : list name) : list piece :=
  T (text "  lens (" ++ lens_class k ++ text "):" ++ NL)
  :: flat_map (fun n => [T (text "    " ++ text n ++ text ":" ++ TAB ++ TAB); F 3 n; T NL]) names.
(** CameraProjection.__str__, projection.py 199-208 *)
Definition proj_format (k : pkind) : list piece :=
  [T (text "  intrinsic (" ++ proj_class k ++ text "):" ++ NL ++ text "    f:" ++ TAB ++ TAB); F 1 "focallength_x_px";
   T (text " px" ++ NL ++ text "    sensor:" ++ TAB); F 2 "sensor_width_mm"; T TIMES; F 2 "sensor_height_mm";
   T (text " mm" ++ NL ++ text "    image:" ++ TAB); D "image_width_px"; T TIMES; D "image_height_px"; T (text " px" ++ NL)].
(** spatial.py 99-105 and 248-254 *)
Definition orient_format (k : okind) : list piece :=
  [T (text "  position:" ++ NL ++ text "    x:" ++ TAB); F 6 "pos_x_m"; T (text " m" ++ NL ++ text "    y:" ++ TAB); F 6 "pos_y_m";
   T (text " m" ++ NL ++ text "    h:" ++ TAB); F 6 "elevation_m"; T (text " m" ++ NL ++ text "  orientation:" ++ NL)] ++
  match k with
  | TiltHeading =>
      [T (text "    tilt:" ++ TAB ++ TAB); F 6 "tilt_deg"; T ([DEG] ++ NL ++ text "    roll:" ++ TAB ++ TAB); F 6 "roll_deg";
       T ([DEG] ++ NL ++ text "    heading:" ++ TAB); F 6 "heading_deg"; T ([DEG] ++ NL)]
  | YawPitchRoll =>
      [T (text "    yaw:" ++ TAB ++ TAB); F 6 "yaw_deg"; T ([DEG] ++ NL ++ text "    pitch:" ++ TAB ++ TAB); F 6 "pitch_deg";
       T ([DEG] ++ NL ++ text "    roll:" ++ TAB); F 6 "roll_deg"; T ([DEG] ++ NL)]
  end.
(** lens_distortion.py 54-59 *)
Definition lens_str (h : heap num) (l : oid) : option str :=
  match objs h l with
  | Some b => match okd b with KLens k => write (get_num h l) (lens_format k (map fst (table b))) | _ => None end
  | None => None
  end.
(** projection.py 199-208 *)
Definition proj_str (h : heap num) (p : oid) : option str :=
  match objs h p with
  | Some b => match okd b with KProj k => write (tget h b) (proj_format k) | _ => None end
  | None => None
  end.
(** spatial.py 99-105, 248-254 *)
Definition orient_str (h : heap num) (o : oid) : option str :=
  match objs h o with
  | Some b => match okd b with KOrient k => write (tget h b) (orient_format k) | _ => None end
  | None => None
  end.
(** Camera.__str__, camera.py 461-467 *)
Definition camera_str (h : heap num) (c : oid) : option str :=
  match objs h c with
  | Some b =>
    match okd b with
    | KCam p o l =>
      match lens_str h l, proj_str h p, orient_str h o with
      | Some sl, Some sp, Some so => Some (text "CameraTransform(" ++ NL ++ sl ++ sp ++ so ++ text ")")
      | _, _, _ => None
      end
    | _ => None
    end
  | None => None
  end.
