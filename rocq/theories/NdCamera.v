(** * The transformations on arrays: spatial.py 132-203, projection.py 379-563, lens_distortion.py 46-52, 151-173,
    245-267, camera.py 970-1056, 1117-1157, 1243-1278.

    Written with the numpy operations of the source (NdArray.v), in the order of the source, for arrays of any number of
    axes.  The functions ending in [_a] compute the new array; the commands at the end work on references and say which
    arrays are created and which are written to. *)
Require Import Reals List Bool Arith.
From Verif Require Import Num Vec Orientation Projection CameraTransform Lens NdArray.
Import ListNotations.
Open Scope nat_scope.

(** ensure_array_format(points, "...xn"), utils.py 14-36: np.asarray, and the last axis has length n (Shape.v) *)
Definition ensure {A} (n : nat) (a : arr A) : option (arr A) :=
  match dims a with d :: _ => if d =? n then Some a else None | [] => None end.

(** ** spatial.py *)
(** cameraFromSpace, 163-164 *)
Definition cameraFromSpace_a (m : omat) (points : arr num) : option (arr num) :=
  olet d := ew2 nsub points (of3 (om_t m)) in dot d (T (of33 (om_R m))).
(** spaceFromCamera, 199-203 *)
Definition spaceFromCamera_a (m : omat) (points : arr num) (direction : bool) : option (arr num) :=
  olet r := dot points (T (of33 (om_Rinv m))) in
  if direction then Some r else ew2 nadd r (of3 (om_t m)).

(** ** projection.py *)
(** The end of every getRay: 386-390, 463-467, 540-544 *)
Definition finish_ray_a (ray : arr num) (normed : bool) : option (arr num) :=
  olet ray := (if normed then olet n := norm_last ray in ew2 ndiv ray (newlast n) else Some ray) in
  Some (ew1 nneg ray).
(** 379-390, 451-467, 529-544 *)
Definition p_getRay_a (k : pkind) (c : proj num) (points : arr num) (normed : bool) : option (arr num) :=
  olet points := ensure 2 points in
  olet xy := unpack 2 (T points) in
  match xy with
  | [x; y] =>
    olet ray :=
      match k with
      | Rectilinear =>
        stack [ew1 (fun x => - (x - center_x c) / f_x c)%num x; ew1 (fun y => (y - center_y c) / f_y c)%num y; ew1 (fun _ => Fin 1) y]
      | Cylindrical =>
        let r := Fin 1 in
        let alpha := ew1 (fun x => (x - center_x c) / f_x c)%num x in
        stack [ew1 (fun a => - nsin a * r)%num alpha; ew1 (fun y => r * (y - center_y c) / f_y c)%num y; ew1 (fun a => ncos a * r)%num alpha]
      | Equirectangular =>
        let r := Fin 1 in
        let alpha := ew1 (fun x => (x - center_x c) / f_x c)%num x in
        stack [ew1 (fun a => - nsin a * r)%num alpha; ew1 (fun y => r * ntan ((y - center_y c) / f_y c))%num y; ew1 (fun a => ncos a * r)%num alpha]
      end in
    finish_ray_a (T ray) normed
  | _ => None
  end.
(** The write of imageFromCamera: points[np.abs(points[..., 2]) < 1e-10] = 0; 401, 477, 554 *)
Definition mask_a (points : arr num) : option (arr num) :=
  olet z := lastk 2 points in setmask points (ew1 (fun z => (nabs z <? Fin (/ 10000000000))%num) z) (Fin 0).
(** imageFromCamera after it: 402-408, 478-487, 555-563 *)
Definition image_a (k : pkind) (c : proj num) (points : arr num) (hide : bool) : option (arr num) :=
  olet xyz := unpack 3 (T points) in
  match xyz with
  | [x; y; z] =>
    match k with
    | Rectilinear =>
      olet u := ew2 ndiv (ew1 (fun x => - x * f_x c)%num x) z in
      olet v := ew2 ndiv (ew1 (fun y => y * f_y c)%num y) z in
      olet t := stack [ew1 (fun u => u + center_x c)%num u; ew1 (fun v => v + center_y c)%num v] in
      if hide then olet z := lastk 2 points in setmask (T t) (ew1 (fun z => (Fin 0 <? z)%num) z) NaN
      else Some (T t)
    | Cylindrical =>
      olet a := ew2 natan2 (ew1 nneg x) (ew1 nneg z) in
      olet s := ew2 nadd (ew1 (fun x => x * x)%num x) (ew1 (fun z => z * z)%num z) in
      olet v := ew2 ndiv (ew1 (fun y => - f_y c * y)%num y) (ew1 nsqrt s) in
      olet t := stack [ew1 (fun a => - f_x c * a + center_x c)%num a; ew1 (fun v => v + center_y c)%num v] in
      olet v := lastk 1 (T t) in setmask (T t) (ew1 nisnan v) NaN
    | Equirectangular =>
      olet a := ew2 natan2 (ew1 nneg x) (ew1 nneg z) in
      olet s := ew2 nadd (ew1 (fun x => x * x)%num x) (ew1 (fun z => z * z)%num z) in
      olet b := ew2 natan2 y (ew1 nsqrt s) in
      olet t := stack [ew1 (fun a => - f_x c * a + center_x c)%num a; ew1 (fun b => - f_y c * b + center_y c)%num b] in
      Some (T t)
    end
  | _ => None
  end.

(** ** lens_distortion.py 151-173, 245-267; the scalar scale of ABCDistortion is stored twice *)
Definition lens_a (l : lens) (conv : num -> num) (points : arr num) : option (arr num) :=
  olet points := ew2 nsub points (of2 (l_offset l)) in
  olet points := ew2 ndiv points (of2 (l_scale l)) in
  olet r := norm_last points in
  let r := newlast r in
  olet points := ew2 ndiv points r in
  olet points := ew2 nmul points (ew1 conv r) in
  olet points := ew2 nmul points (of2 (l_scale l)) in
  ew2 nadd points (of2 (l_offset l)).

(** ** camera.py *)
(** The parts of a camera; NoDistortion has no numbers (camera.py 444-459) *)
Record ndcam := NdCam { nd_kind : pkind; nd_proj : proj num; nd_o : omat; nd_lens : option lens }.
(** the same camera for one point, camera.py 444-459 *)
Definition camera_of (c : ndcam) : camera :=
  match nd_lens c with
  | None => plain_camera (nd_kind c) (nd_proj c) (nd_o c)
  | Some l => lens_camera (nd_kind c) (nd_proj c) (nd_o c) l
  end.
(** imageFromDistorted, lens_distortion.py 46-48, 151-161 *)
Definition undist_a (c : ndcam) (points : arr num) : option (arr num) :=
  match nd_lens c with None => Some points | Some l => lens_a l (l_inv l) points end.
(** distortedFromImage, lens_distortion.py 50-52, 163-173 *)
Definition dist_a (c : ndcam) (points : arr num) : option (arr num) :=
  match nd_lens c with None => Some points | Some l => lens_a l (l_conv l) points end.
(** imageFromSpace, 1003-1005 *)
Definition imageFromSpace_a (c : ndcam) (points : arr num) (hide : bool) : option (arr num) :=
  olet points := ensure 3 points in
  olet p := cameraFromSpace_a (nd_o c) points in
  olet p := ensure 3 p in
  olet p := mask_a p in
  olet p := image_a (nd_kind c) (nd_proj c) p hide in
  dist_a c p.
(** getRay, 1047-1056 *)
Definition getRay_a (c : ndcam) (points : arr num) (normed : bool) : option (arr num * arr num) :=
  olet points := ensure 2 points in
  olet offset := spaceFromCamera_a (nd_o c) (of3 (V3 (Fin 0) (Fin 0) (Fin 0))) false in
  olet q := undist_a c points in
  olet ray := p_getRay_a (nd_kind c) (nd_proj c) q normed in
  olet direction := spaceFromCamera_a (nd_o c) ray true in
  Some (offset, direction).
(** spaceFromImage, camera.py 1121-1157, without mesh.  X, Y, Z: None, a number or an array (a list becomes an array in line 1124;
    that np.array with dtype=object raises for some mixtures of arrays is left out).  D: None, a number or an array; an
    array of no axes is an array for isinstance (1147), a number computed in 1145 is not. *)
Inductive dist := DNone | DNum (x : num) | DArr (a : arr num).
(** 1144-1145 *)
Definition plane_factor (index : nat) (given : arr num) (ray : arr num * arr num) : option (arr num) :=
  olet o := lastk index (fst ray) in
  olet d := lastk index (snd ray) in
  olet e := ew2 nsub given o in
  ew2 ndiv e d.
(** 1147-1157 *)
Definition before_mask (ray : arr num * arr num) (factor : arr num) (is_array : bool) : option (arr num) :=
  let '(offset, direction) := ray in
  if is_array then
    olet f := newsecond factor in
    olet p := ew2 nmul direction f in
    olet o := newfirst offset in
    ew2 nadd p o
  else
    olet p := ew2 nmul direction factor in
    ew2 nadd p offset.
(** camera.py 1143-1157 *)
Definition along (ray : arr num * arr num) (factor : arr num) (is_array : bool) : option (arr num) :=
  olet points := before_mask ray factor is_array in
  setmask points (ew1 (fun f => (f <? Fin 0)%num) factor) NaN.
(** camera.py 1125-1130; with no constraint [index] is not assigned and line 1147 raises *)
Definition which (X Y Z : option (arr num)) : option (nat * arr num) :=
  match X, Y, Z with
  | Some x, _, _ => Some (0, x) | None, Some y, _ => Some (1, y) | None, None, Some z => Some (2, z) | None, None, None => None
  end.
(** camera.py 1121-1157 *)
Definition spaceFromImage_a (c : ndcam) (points : arr num) (X Y Z : option (arr num)) (D : dist) : option (arr num) :=
  olet points := ensure 2 points in
  match D with
  | DNum d => olet r := getRay_a c points true in along r (scalar d) false
  | DArr d => olet r := getRay_a c points true in along r d true
  | DNone =>
    olet r := getRay_a c points false in
    olet ig := which X Y Z in
    olet f := plane_factor (fst ig) (snd ig) r in
    along r f (match dims f with [] => false | _ => true end)
  end.
(** getObjectHeight, 1243-1251; getObjectLength, 1272-1278.  Both arrays have one shape (ensure_array_format). *)
Definition same_shape (a b : arr num) : option unit := if list_eq_dec Nat.eq_dec (dims a) (dims b) then Some tt else None.
(** camera.py 1243-1251 *)
Definition getObjectHeight_a (c : ndcam) (feet heads : arr num) (Z : arr num) : option (arr num) :=
  olet u := same_shape feet heads in
  olet feet := ensure 2 feet in
  olet heads := ensure 2 heads in
  olet f := spaceFromImage_a c feet None None (Some Z) DNone in
  olet y := lastk 1 f in
  olet h1 := spaceFromImage_a c heads None (Some y) (Some (scalar (Fin 0))) DNone in
  olet x := lastk 0 f in
  olet h2 := spaceFromImage_a c heads (Some x) None (Some (scalar (Fin 0))) DNone in
  olet s := same_shape h1 h2 in
  olet sum := ew2 nadd h1 h2 in
  let h := ew1 (fun s => s / Fin 2)%num sum in
  olet a := lastk 2 h in
  olet b := lastk 2 f in
  ew2 nsub a b.
(** camera.py 1272-1278 *)
Definition getObjectLength_a (c : ndcam) (front back : arr num) (Z : arr num) : option (arr num) :=
  olet u := same_shape front back in
  olet front := ensure 2 front in
  olet back := ensure 2 back in
  olet f := spaceFromImage_a c front None None (Some Z) DNone in
  olet b := spaceFromImage_a c back None None (Some Z) DNone in
  olet d := ew2 nsub f b in
  norm_last d.

(** ** References.  The heap is the list of the arrays that exist; a command may append and overwrite arrays. *)
(** arrays as python objects; camera.py 970-1157 *)
Definition heap := list (arr num).
(** camera.py 970-1157 *)
Definition cmd (A : Type) := heap -> heap * option A.
(** camera.py 970-1157 *)
Definition ret {A} (x : option A) : cmd A := fun h => (h, x).
(** one statement after another; camera.py 970-1157 *)
Definition cbind {A B} (c : cmd A) (f : A -> cmd B) : cmd B :=
  fun h => match c h with (h', Some a) => f a h' | (h', None) => (h', None) end.
Notation "'do' x <- c ; k" := (cbind c (fun x => k)) (at level 200, x name, k at level 200).
(** camera.py 970-1157 *)
Definition read (l : nat) : cmd (arr num) := fun h => (h, nth_error h l).
(** camera.py 970-1157 *)
Definition alloc (a : arr num) : cmd nat := fun h => ((h ++ [a])%list, Some (length h)).
(** camera.py 970-1157 *)
Fixpoint update {A} (h : list A) (l : nat) (a : A) : list A :=
  match h, l with [], _ => [] | _ :: t, O => a :: t | b :: t, S l' => b :: update t l' a end.
(** projection.py 398-408 *)
Definition write (l : nat) (a : arr num) : cmd unit := fun h => (update h l a, Some tt).
(** np.array(points) makes a copy; ensure_array_format does not.  The results of numpy expressions are new
    arrays (spatial.py 163-164). *)
Definition cameraFromSpace_c (m : omat) (l : nat) : cmd nat :=
  do p <- read l; do q <- ret (cameraFromSpace_a m p); alloc q.
(** spatial.py 199-203 *)
Definition spaceFromCamera_c (m : omat) (l : nat) (direction : bool) : cmd nat :=
  do p <- read l; do q <- ret (spaceFromCamera_a m p direction); alloc q.
(** projection.py 381-390, 453-466, 531-544 *)
Definition p_getRay_c (k : pkind) (c : proj num) (l : nat) (normed : bool) : cmd nat :=
  do p <- read l; do q <- ret (p_getRay_a k c p normed); alloc q.
(** imageFromCamera writes to the array it was given (projection.py 398-408, 475-487, 553-563). *)
Definition imageFromCamera_c (k : pkind) (c : proj num) (l : nat) (hide : bool) : cmd nat :=
  do p <- read l; do p <- ret (ensure 3 p); do p <- ret (mask_a p); do u <- write l p;
  do q <- ret (image_a k c p hide); alloc q.
(** NoDistortion returns the array it was given (lens_distortion.py 46-52, 151-173, 245-267). *)
Definition lens_c (c : ndcam) (inverse : bool) (l : nat) : cmd nat :=
  match nd_lens c with
  | None => ret (Some l)
  | Some ln => do p <- read l; do q <- ret (lens_a ln (if inverse then l_inv ln else l_conv ln) p); alloc q
  end.
(** camera.py 1003-1005 *)
Definition imageFromSpace_c (c : ndcam) (l : nat) (hide : bool) : cmd nat :=
  do p <- read l; do p <- ret (ensure 3 p);
  do l1 <- cameraFromSpace_c (nd_o c) l;
  do l2 <- imageFromCamera_c (nd_kind c) (nd_proj c) l1 hide;
  lens_c c false l2.
(** camera.py 1049-1056 *)
Definition getRay_c (c : ndcam) (l : nat) (normed : bool) : cmd (nat * nat) :=
  do p <- read l; do p <- ret (ensure 2 p);
  do z <- alloc (of3 (V3 (Fin 0) (Fin 0) (Fin 0)));
  do offset <- spaceFromCamera_c (nd_o c) z false;
  do q <- lens_c c true l;
  do r <- p_getRay_c (nd_kind c) (nd_proj c) q normed;
  do direction <- spaceFromCamera_c (nd_o c) r true;
  ret (Some (offset, direction)).
(** spaceFromImage, camera.py 1117-1157.  The constraints are references as well (a Python number is an array without
    axes that nobody can write to); D is None, a number or a reference to an array.  Line 1156 writes to the new array. *)
Inductive cdist := CNone | CNum (x : num) | CArr (l : nat).
(** camera.py 1121-1130 *)
Definition read_opt (l : option nat) : cmd (option (arr num)) :=
  match l with None => ret (Some None) | Some l => do a <- read l; ret (Some (Some a)) end.
(** camera.py 1143-1157 *)
Definition along_c (offset direction : nat) (factor : arr num) (is_array : bool) : cmd nat :=
  do o <- read offset; do d <- read direction;
  do points <- ret (before_mask (o, d) factor is_array);
  do l <- alloc points;
  do p <- read l; do p <- ret (setmask p (ew1 (fun f => (f <? Fin 0)%num) factor) NaN);
  do u <- write l p;
  ret (Some l).
(** camera.py 1121-1157 *)
Definition spaceFromImage_c (c : ndcam) (l : nat) (X Y Z : option nat) (D : cdist) : cmd nat :=
  do p <- read l; do p <- ret (ensure 2 p);
  do x <- read_opt X; do y <- read_opt Y; do z <- read_opt Z;
  match D with
  | CNum v => do r <- getRay_c c l true; along_c (fst r) (snd r) (scalar v) false
  | CArr d => do r <- getRay_c c l true; do v <- read d; along_c (fst r) (snd r) v true
  | CNone =>
    do r <- getRay_c c l false;
    do ig <- ret (which x y z);
    do o <- read (fst r); do d <- read (snd r);
    do f <- ret (plane_factor (fst ig) (snd ig) (o, d));
    along_c (fst r) (snd r) f (match dims f with [] => false | _ => true end)
  end.
(** ray.getClosestPointFromLine, ray.py 322-332: the direction(s) [ray] are normalised in place ([/=]); an int array
    raises there (not modelled: the arrays are float).  Line 330 reads [origin] again. *)
Definition getClosestPointFromLine_c (origin ray point : nat) : cmd nat :=
  do o <- read origin; do r <- read ray; do p <- read point;
  do delta <- ret (ew2 nsub p o);
  do n <- ret (norm_last r);
  do r <- ret (ew2 ndiv r (newlast n));
  do u <- write ray r;
  do f <- ret (ew2 nmul r delta);
  do f <- ret (sum_last f);
  do t <- ret (match newsecond f with Some f2 => ew2 nmul f2 r | None => ew2 nmul f r end);
  do o <- read origin;
  do q <- ret (ew2 nadd o t);
  alloc q.
