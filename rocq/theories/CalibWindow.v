(** * The calibration window and its threads: gui_tools/calibrate/gui_calibrate.py, calibrate.py *)
Require Import Reals List Bool String Arith NArith.
From Verif Require Import Num Vec Calibration.
Import ListNotations.

(** A file name, split as os.path.split and splitext do; the stored corners of dir/base.ext are in
    dir/output/base_corners.txt (gui_calibrate.py 78-81, calibrate.py 45-46; loadBatch, gui_calibrate.py 423-429). *)
Record file := File { f_dir : string; f_base : string; f_ext : string }.
(** gui_calibrate.py 63-93 *)
Definition path := (string * string)%type.
(** calibrate.py 43-101 *)
Definition corner_path (f : file) : path := (f_dir f, f_base f).
(** calibrate.py 43-101 *)
Definition path_eqb (a b : path) : bool := String.eqb (fst a) (fst b) && String.eqb (snd a) (snd b).
(** calibrate.py 43-101 *)
Definition corner_list := list (v2 num).

(** MyImage, 63-93.  [i_pattern]: whether the attribute pattern_points exists; [i_conn]: how often processing_finished is
    connected to processNextImage; [i_undist]: image_data_undistorted, where [Some None] is the image itself and
    [Some (Some c)] the image undistorted with the map of the calibration [c]. *)
Inductive status := Unprocessed | InProgress | Failed | Done.
(** gui_calibrate.py 144-160 *)
Definition picture := option calibration.
(** gui_calibrate.py 63-93 *)
Record img := Img { i_file : file; i_corners : option corner_list; i_pattern : bool; i_status : status; i_use : bool; i_conn : nat;
  i_undist : option picture }.
(** gui_calibrate.py 104-142 *)
Definition with_corners c m := Img (i_file m) c (i_pattern m) (i_status m) (i_use m) (i_conn m) (i_undist m).
(** gui_calibrate.py 115-123 *)
Definition with_pattern m := Img (i_file m) (i_corners m) true (i_status m) (i_use m) (i_conn m) (i_undist m).
(** gui_calibrate.py 95-102 *)
Definition with_status s m := Img (i_file m) (i_corners m) (i_pattern m) s (i_use m) (i_conn m) (i_undist m).
(** gui_calibrate.py 63-93, 300-341 *)
Definition with_use u m := Img (i_file m) (i_corners m) (i_pattern m) (i_status m) u (i_conn m) (i_undist m).
(** gui_calibrate.py 74-93 *)
Definition connected m := Img (i_file m) (i_corners m) (i_pattern m) (i_status m) (i_use m) (S (i_conn m)) (i_undist m).
(** gui_calibrate.py 154-168 *)
Definition with_undist p m := Img (i_file m) (i_corners m) (i_pattern m) (i_status m) (i_use m) (i_conn m) p.

(** The second threads (processNextImage 411-412, imageSelected 469-470), with the statement each is about to run. *)
Inductive proc_at :=
| PStart | PRun | PCorners (c : corner_list) | PPattern | PStatus | PUse | PFail | PEmit.
(** gui_calibrate.py 144-168 *)
Inductive load_at := LCheck | LSize | LTest | LWrite (m : calibration) | LReturn | LStore (p : picture).
(** gui_calibrate.py 397-413, 464-510 *)
Inductive thread := Proc (i : nat) (at_ : proc_at) | Load (i : nat) (camera : bool) (at_ : load_at).

(** The window.  [imgs]: all MyImage objects made so far, [images]: the list self.images as numbers of them;
    [calls]: how many calls of processNextImage are waiting in Qt's queue (signals of other threads are queued).
    [undist_map]: camera.map_undistort, as the calibration it was computed with (gui_calibrate.py 171-293). *)
Record win := Win { disk : path -> option corner_list; imgs : list img; images : list nat; index : nat; size : option (num * num);
  cal : option calibration; undist_map : option calibration; selected : nat; threads : list thread; calls : nat }.
(** an attribute of the window, gui_calibrate.py 174-293 *)
Definition set_imgs l w := Win (disk w) l (images w) (index w) (size w) (cal w) (undist_map w) (selected w) (threads w) (calls w).
(** the files on the disk, gui_calibrate.py 104-142 *)
Definition set_disk d w := Win d (imgs w) (images w) (index w) (size w) (cal w) (undist_map w) (selected w) (threads w) (calls w).
(** an attribute of the window, gui_calibrate.py 174-293 *)
Definition set_images l w := Win (disk w) (imgs w) l (index w) (size w) (cal w) (undist_map w) (selected w) (threads w) (calls w).
(** an attribute of the window, gui_calibrate.py 174-293 *)
Definition set_index n w := Win (disk w) (imgs w) (images w) n (size w) (cal w) (undist_map w) (selected w) (threads w) (calls w).
(** an attribute of the window, gui_calibrate.py 174-293 *)
Definition set_size s w := Win (disk w) (imgs w) (images w) (index w) s (cal w) (undist_map w) (selected w) (threads w) (calls w).
(** an attribute of the window, gui_calibrate.py 174-293 *)
Definition set_cal c w := Win (disk w) (imgs w) (images w) (index w) (size w) c (undist_map w) (selected w) (threads w) (calls w).
(** an attribute of the window, gui_calibrate.py 174-293 *)
Definition set_map m w := Win (disk w) (imgs w) (images w) (index w) (size w) (cal w) m (selected w) (threads w) (calls w).
(** an attribute of the window, gui_calibrate.py 174-293 *)
Definition set_selected r w := Win (disk w) (imgs w) (images w) (index w) (size w) (cal w) (undist_map w) r (threads w) (calls w).
(** an attribute of the window, gui_calibrate.py 174-293 *)
Definition set_threads t w := Win (disk w) (imgs w) (images w) (index w) (size w) (cal w) (undist_map w) (selected w) t (calls w).
(** an attribute of the window, gui_calibrate.py 174-293 *)
Definition set_calls n w := Win (disk w) (imgs w) (images w) (index w) (size w) (cal w) (undist_map w) (selected w) (threads w) n.

(** changing one MyImage, gui_calibrate.py 63-168 *)
Fixpoint update {A} (i : nat) (f : A -> A) (l : list A) : list A :=
  match l, i with
  | [], _ => []
  | a :: l, O => f a :: l
  | a :: l, S i => a :: update i f l
  end.
(** changing one MyImage, gui_calibrate.py 63-168 *)
Definition change i f w := set_imgs (update i f (imgs w)) w.

Section Window.
(** What cv2 finds in a picture file: None if it cannot be read or shows no chessboard (calibrate.py 63-80);
    and the size of the picture. *)
Variable detect : file -> option corner_list.
Variable sizeof : file -> num * num.

(** MyImage.__init__, 74-93, with getProcessed, 105-111 *)
Definition new_img (d : path -> option corner_list) (f : file) : img :=
  match d (corner_path f) with
  | Some c => Img f (Some c) true Done true 0 None
  | None => Img f None false Unprocessed false 0 None
  end.
(** loadBatch, 421-451; [files] is the result of glob.  With no image at all self.images[0] raises. *)
Definition load_batch (files : list file) (w : win) : win :=
  let new := map (new_img (disk w)) files in
  let w1 := set_images (images w ++ seq (List.length (imgs w)) (List.length files)) (set_imgs (imgs w ++ new) w) in
  match images w1 with
  | [] => w1
  | i :: _ => match nth_error (imgs w1) i with
              | Some m => set_size (Some (sizeof (i_file m))) w1
              | None => w1
              end
  end.
(** processNextImage, 401-412 *)
Definition process_next (w : win) : win :=
  match nth_error (images w) (index w) with
  | None => w
  | Some i => set_threads (threads w ++ [Proc i PStart]) (change i connected (set_index (S (index w)) w))
  end.
(** processImages, 396-399 *)
Definition process_images (w : win) : win := process_next (set_index 0 w).
(** imageDoubleClicked in the column "Use", 453-461 *)
Definition toggle (row : nat) (w : win) : win :=
  match nth_error (images w) row with
  | None => w
  | Some i => change i (fun m => match i_corners m with Some _ => with_use (negb (i_use m)) m | None => m end) w
  end.
(** getSelectedImage, 474-483 (an invalid row counts as the first), and imageSelected, 463-471; the progress bar and the
    redrawing are left out.  getImage, 142-150, is part of the first step of the thread. *)
Definition selected_image (w : win) : option nat :=
  match nth_error (images w) (selected w) with Some i => Some i | None => nth_error (images w) 0 end.
(** gui_calibrate.py 464-479 *)
Definition image_selected (w : win) : win :=
  match selected_image w with
  | None => w
  | Some i => set_threads (threads w ++ [Load i (match cal w with Some _ => true | None => false end) LCheck]) w
  end.
(** newCalibration, 343-380: the camera takes the numbers (C71_applied), the map is dropped, the size is taken over, all
    listed images forget their undistorted picture.  This and every other slot is taken as one step. *)
Definition new_calibration (c : calibration) (w : win) : win :=
  let w1 := set_map None (set_cal (Some c) w) in
  let w2 := set_size (Some (cal_w c, cal_h c)) w1 in
  image_selected (fold_left (fun w i => change i (with_undist None) w) (images w2) w2).
(** fitCalibration, 300-310: the lists img_points and obj_points (all obj_points are the pattern of C71); None: an image
    without pattern_points raises *)
Fixpoint fit_points (ms : list img) : option (list corner_list) :=
  match ms with
  | [] => Some []
  | m :: ms =>
    match i_corners m, i_use m with
    | Some c, true => if i_pattern m then match fit_points ms with Some l => Some (c :: l) | None => None end else None
    | _, _ => fit_points ms
    end
  end.
(** gui_calibrate.py 300-341 *)
Definition listed (w : win) : list img := flat_map (fun i => match nth_error (imgs w) i with Some m => [m] | None => [] end) (images w).
(** 321-341, [rms] [m] [dist]: the results of cv2.calibrateCamera; self.w does not exist before a picture or a calibration
    is loaded *)
Definition fit (rms : num) (m : m3 num) (dist : list num) (w : win) : win :=
  match fit_points (listed w), size w with
  | Some _, Some (a, b) => match of_cv rms m dist a b with Some c => new_calibration c w | None => w end
  | _, _ => w
  end.

(** calibrate.py processImage, 43-101, with w = h = None and the pattern of 54 points: stored corners win over the
    picture; found corners are stored. *)
Definition found (f : file) (w : win) : win * option corner_list :=
  match disk w (corner_path f) with
  | Some c => (w, if Nat.eqb (List.length c) 54 then Some c else None)
  | None => match detect f with
            | Some c => (set_disk (fun p => if path_eqb p (corner_path f) then Some c else disk w p) w, Some c)
            | None => (w, None)
            end
  end.
(** MyImage.processImage, 125-140, statement by statement; the queued signal makes one call for each connection *)
Definition proc_step (i : nat) (p : proc_at) (w : win) : win * option proc_at :=
  match p with
  | PStart => (change i (with_status InProgress) w, Some PRun)
  | PRun => match nth_error (imgs w) i with
            | Some m => let (w', r) := found (i_file m) w in (w', Some (match r with Some c => PCorners c | None => PFail end))
            | None => (w, None)
            end
  | PCorners c => (change i (with_corners (Some c)) w, Some PPattern)
  | PPattern => (change i with_pattern w, Some PStatus)
  | PStatus => (change i (with_status Done) w, Some PUse)
  | PUse => (change i (with_use true) w, Some PEmit)
  | PFail => (change i (with_status Failed) w, Some PEmit)
  | PEmit => (match nth_error (imgs w) i with Some m => set_calls (calls w + i_conn m) w | None => w end, None)
  end.
(** MyImage.loadImage, 163-166, getUndistortedImage, 152-158, and Camera.undistortImage (camera.py 1338-1343) with
    _getUndistortMap (1280-1312); an exception ends the thread. *)
Definition same_size (a b : num * num) : bool := neqb (fst a) (fst b) && neqb (snd a) (snd b).
(** gui_calibrate.py 300-378 *)
Definition cal_size (c : calibration) : num * num := (cal_w c, cal_h c).
(** gui_calibrate.py 144-168, 492-510 *)
Definition load_step (i : nat) (camera : bool) (p : load_at) (w : win) : win * option load_at :=
  match p with
  | LCheck => (w, match nth_error (imgs w) i with
                  | Some m => match i_undist m with
                              | Some _ => None
                              | None => Some (if camera then LSize else LStore None)
                              end
                  | None => None
                  end)
  | LSize => (w, match nth_error (imgs w) i, cal w with
                 | Some m, Some c => if same_size (sizeof (i_file m)) (cal_size c) then Some LTest else None
                 | _, _ => None
                 end)
  | LTest => (w, match cal w with
                 | Some c => match undist_map w with
                             | Some m => Some (if same_size (cal_size m) (cal_size c) then LReturn else LWrite c)
                             | None => Some (LWrite c)
                             end
                 | None => None
                 end)
  | LWrite m => (set_map (Some m) w, Some LReturn)
  | LReturn => (w, match undist_map w with Some m => Some (LStore (Some m)) | None => None end)
  | LStore q => (change i (with_undist (Some q)) w, None)
  end.
(** gui_calibrate.py 397-413 *)
Definition replace_thread (k : nat) (t : option thread) (ts : list thread) : list thread :=
  firstn k ts ++ (match t with Some t => [t] | None => [] end) ++ skipn (S k) ts.
(** gui_calibrate.py 125-168 *)
Definition thread_step (k : nat) (w : win) : win :=
  match nth_error (threads w) k with
  | None => w
  | Some (Proc i p) => let (w', r) := proc_step i p w in set_threads (replace_thread k (option_map (Proc i) r) (threads w)) w'
  | Some (Load i c p) => let (w', r) := load_step i c p w in set_threads (replace_thread k (option_map (Load i c) r) (threads w)) w'
  end.

(** What can happen: the user's actions, a queued call, a step of a thread (gui_calibrate.py 171-522). *)
Inductive event :=
| EBatch (files : list file) | EClear | EToggle (row : nat) | EProcess | EFit (rms : num) (m : m3 num) (dist : list num)
| ELoad (c : calibration) | ESelect (row : nat) | ECall | EThread (k : nat).
Definition step (e : event) (w : win) : win :=
  match e with
  | EBatch files => load_batch files w
  | EClear => set_images [] w                              (* clearImages, 295-298 *)
  | EToggle row => toggle row w
  | EProcess => process_images w
  | EFit rms m dist => fit rms m dist w
  | ELoad c => new_calibration c w                         (* loadCalibration, 389-395, of a file that saveCalibration wrote *)
  | ESelect row => image_selected (set_selected row w)
  | ECall => match calls w with O => w | S n => process_next (set_calls n w) end
  | EThread k => thread_step k w
  end.
(** gui_calibrate.py 171-522, one event after another *)
Definition run (es : list event) (w : win) : win := fold_left (fun w e => step e w) es w.
(** Window.__init__: nothing loaded; only files may be on the disk (gui_calibrate.py 174-293) *)
Definition start (d : path -> option corner_list) : win := Win d [] [] 0 None None None 0 [] 0.
End Window.

(** The second view of displayImage, 489-503, with the box "Display Corrected" ticked *)
Definition second_view (m : img) : picture := match i_undist m with Some p => p | None => None end.

(** fitCalibration, 313-323: the flags from the five boxes (cv2's constants) *)
Definition flags (center aspect k1 k2 k3 : bool) : N :=
  let f := 8%N in                                          (* CALIB_ZERO_TANGENT_DIST *)
  let f := if aspect then f else N.lor f 2 in              (* CALIB_FIX_ASPECT_RATIO *)
  let f := if center then f else N.lor f 4 in              (* CALIB_FIX_PRINCIPAL_POINT *)
  let f := if k1 then f else N.lor f 32 in
  let f := if k2 then f else N.lor f 64 in
  if k3 then f else N.lor f 128.
