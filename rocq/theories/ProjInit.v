(** * CameraProjection.__init__ (projection.py 87-197) *)
Require Import Reals Bool List.
From Verif Require Import Num Vec Projection.
Import ListNotations.
Open Scope R_scope.

(** The argument image: a tuple (width, height) or an array of a given shape (projection.py 89-119). *)
Inductive image_arg := ITuple (w h : num) | IArray (shape : list nat).
(** A focal length argument: a number, or the tuple the docstring (64-66) allows for focallength_px. *)
Inductive fval := FNum (x : num) | FPair (x y : num).
(** The keyword arguments (87-90); None is Python's None.  Numbers are Python ints and floats;
    center and sensor are tuples of two numbers. *)
Record args := Args
  { a_f : option fval; a_fx : option num; a_fy : option num; a_cx : option num; a_cy : option num;
    a_center : option (num * num); a_mm : option num; a_w : option num; a_h : option num;
    a_sw : option num; a_sh : option num; a_image : option image_arg; a_sensor : option (num * num);
    a_vx : option num; a_vy : option num }.

(** What a call does: return, raise ValueError, or raise ZeroDivisionError (Python numbers divide by
    zero with an exception) (projection.py 95-197). *)
Inductive pres (A : Type) := POk (x : A) | PValueError | PZeroDivision.
Arguments POk {A}. Arguments PValueError {A}. Arguments PZeroDivision {A}.
(** one statement after another; projection.py 95-197 *)
Definition pbind {A B} (m : pres A) (f : A -> pres B) : pres B :=
  match m with POk x => f x | PValueError => PValueError | PZeroDivision => PZeroDivision end.
Notation "'plet' x ':=' m 'in' e" := (pbind m (fun x => e)) (at level 200, x pattern).

(** Python truth of a number, and of an optional argument: None and zero are false, a tuple of two is true
    (projection.py 120-157). *)
Definition nonzero (x : num) : bool := negb (neqb x (Fin 0)).
(** projection.py 120-157 *)
Definition truthy (o : option num) : bool := match o with Some x => nonzero x | None => false end.
(** is not None, projection.py 124-161 *)
Definition given {A} (o : option A) : bool := match o with Some _ => true | None => false end.
(** projection.py 120-155 *)
Definition truthyF (o : option fval) : bool :=
  match o with Some (FNum x) => nonzero x | Some (FPair _ _) => true | None => false end.
(** projection.py 135-143 *)
Definition pydiv (x y : num) : pres num := if nonzero y then POk (x / y)%num else PZeroDivision.

(** 92-105: the image size.  A shape of fewer than two dimensions cannot be unpacked (ValueError). *)
Definition stage_image (a : args) : pres (num * num) :=
  if given (a_image a) && (truthy (a_w a) || truthy (a_h a)) then PValueError
  else if negb (given (a_image a)) && (negb (given (a_w a)) || negb (given (a_h a))) then PValueError
  else match a_image a with
       | Some (ITuple w h) => POk (w, h)
       | Some (IArray (h :: w :: _)) => POk (Fin (INR w), Fin (INR h))
       | Some (IArray _) => PValueError
       | None => match a_w a, a_h a with Some w, Some h => POk (w, h) | _, _ => PValueError end
       end.
(** 107-116: the centre *)
Definition stage_center (a : args) (w h : num) : pres (num * num) :=
  if given (a_center a) && (truthy (a_cx a) || truthy (a_cy a)) then PValueError
  else let '(x, y) := match a_center a with Some (x, y) => (Some x, Some y) | None => (a_cx a, a_cy a) end in
       POk (match x with Some x => x | None => (w / Fin 2)%num end,
            match y with Some y => y | None => (h / Fin 2)%num end).
(** 118-129: focal lengths in pixels *)
Definition stage_px (a : args) : pres (option fval * option fval) :=
  if truthyF (a_f a) || truthy (a_fx a) || truthy (a_fy a) then
    if truthyF (a_f a) && (truthy (a_fx a) || truthy (a_fy a)) then PValueError
    else if given (a_mm a) then PValueError
    else if truthyF (a_f a) then POk (a_f a, a_f a)
    else POk (option_map FNum (a_fx a), option_map FNum (a_fy a))
  else POk (option_map FNum (a_fx a), option_map FNum (a_fy a)).
(** 131-138: the sensor size *)
Definition stage_sensor (a : args) (w h : num) : pres (option num * option num) :=
  if given (a_sensor a) && (truthy (a_sw a) || truthy (a_sh a)) then PValueError
  else
    let '(sw, sh) := match a_sensor a with Some (x, y) => (Some x, Some y) | None => (a_sw a, a_sh a) end in
    plet sh := match sw, sh with
               | Some x, None => if nonzero x then plet r := pydiv x w in POk (Some (r * h)%num) else POk sh
               | _, _ => POk sh
               end in
    plet sw := match sw, sh with
               | None, Some y => if nonzero y then plet r := pydiv y h in POk (Some (r * w)%num) else POk sw
               | _, _ => POk sw
               end in
    POk (sw, sh).
(** 140-144: a focal length in mm *)
Definition stage_mm (a : args) (w h : num) (s : option num * option num) (f : option fval * option fval) :
  pres (option fval * option fval) :=
  match a_mm a with
  | Some m => if nonzero m then
                match s with
                | (Some sw, Some sh) => plet x := pydiv m sw in plet y := pydiv m sh in
                                        POk (Some (FNum (x * w)%num), Some (FNum (y * h)%num))
                | _ => PValueError
                end
              else POk f
  | None => POk f
  end.
(** 146-160: fields of view.  [self.image_width_px = ...] (147-148) runs before self.parameters exists,
    see [p_shadow] below. *)
Definition stage_view (k : pkind) (a : args) (w h : num) (f : option fval * option fval) : pres (option fval * option fval) :=
  let c := Proj NaN NaN NaN NaN w h in
  if truthy (a_vx a) || truthy (a_vy a) then
    plet f := match a_vx a with
              | Some v => if nonzero v then
                            if given (fst f) then PValueError
                            else let x := Some (FNum (focallengthFromFOV k c (Some v) NaN)) in
                                 POk (x, if truthy (a_vy a) then snd f else x)
                          else POk f
              | None => POk f
              end in
    match a_vy a with
    | Some v => if nonzero v then
                  if truthyF (snd f) then PValueError
                  else let y := Some (FNum (focallengthFromFOV k c None v)) in
                       POk (if truthy (a_vx a) then fst f else y, y)
                else POk f
    | None => POk f
    end
  else POk f.

(** The new object: the values of its parameters (165-188), and the plain attributes image_width_px and
    image_height_px that lines 147-148 leave on it: self.parameters is still None there, so
    ClassWithParameterSet.__setattr__ (parameter_set.py 174-177) makes ordinary attributes, which
    Python finds before it asks __getattr__ for the parameter. *)
Record pinit := Pinit
  { p_fx : fval; p_fy : fval; p_cx : num; p_cy : num; p_w : num; p_h : num;
    p_sw : option num; p_sh : option num; p_shadow : option (num * num) }.
(** Lines 192-197 change nothing: the inner conditions need a sensor width that line 193 found missing,
    and a height without width is completed in line 138.  (A zero sensor height with a zero focal length
    in mm would be multiplied by finite factors there; it stays zero and is left out.) *)
Definition init (k : pkind) (a : args) : pres pinit :=
  plet (w, h) := stage_image a in
  plet (cx, cy) := stage_center a w h in
  plet f := stage_px a in
  plet (sw, sh) := stage_sensor a w h in
  plet f := stage_mm a w h (sw, sh) f in
  plet f := stage_view k a w h f in
  match f with
  | (Some fx, Some fy) =>
      POk (Pinit fx fy cx cy w h sw sh (if truthy (a_vx a) || truthy (a_vy a) then Some (w, h) else None))
  | _ => PValueError
  end.

(** ** Attributes afterwards *)
(** projection.image_width_px = v, .image_height_px = v: the parameter exists now, so it is assigned
    (parameter_set.py 174-177, 115-124) *)
Definition set_width (p : pinit) (v : num) : pinit :=
  Pinit (p_fx p) (p_fy p) (p_cx p) (p_cy p) v (p_h p) (p_sw p) (p_sh p) (p_shadow p).
(** projection.py 170 *)
Definition set_height (p : pinit) (v : num) : pinit :=
  Pinit (p_fx p) (p_fy p) (p_cx p) (p_cy p) (p_w p) v (p_sw p) (p_sh p) (p_shadow p).
(** reading self.image_width_px, self.image_height_px on the projection (projection.py 146) *)
Definition get_width (p : pinit) : num := match p_shadow p with Some (w, _) => w | None => p_w p end.
(** projection.py 147 *)
Definition get_height (p : pinit) : num := match p_shadow p with Some (_, h) => h | None => p_h p end.
(** what the methods of the projection see; a tuple as focal length is no number (projection.py 344-581) *)
Definition seen (p : pinit) : option (proj num) :=
  match p_fx p, p_fy p with
  | FNum x, FNum y => Some (Proj x y (p_cx p) (p_cy p) (get_width p) (get_height p))
  | _, _ => None
  end.
(** reading sensor_width_mm, sensor_height_mm: the default if unset (172-173) *)
Definition get_sensor (p : pinit) : num * num :=
  (match p_sw p with Some x => x | None => Fin 17.3 end, match p_sh p with Some y => y | None => Fin 13 end).
