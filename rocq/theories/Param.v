(** * Model of cameratransform/parameter_set.py and of the objects built on it *)
(** Parameter objects live in a heap and are shared between a component, its camera and
    its group; callbacks are stored in the parameter objects. *)
Require Import List Bool String Arith NArith QArith.
From Verif Require Import Projection.
Import ListNotations.
Open Scope string_scope.

(** a key of the dict of parameter_set.py 100-102 *)
Definition name := string.
(** python object identity; parameter_set.py 40-179 *)
Definition oid := nat.                                    (* identity of a Python object *)
(** A Parameter object, identified by the object whose constructor made it and its name (parameter_set.py 40-59). *)
Record loc := Loc { l_owner : oid; l_name : name }.
(** identity of Parameter objects, parameter_set.py 40 *)
Definition loc_eqb (a b : loc) : bool :=
  Nat.eqb (l_owner a) (l_owner b) && String.eqb (l_name a) (l_name b).

(** STATE_*, parameter_set.py 26-29 *)
Inductive pstate := SDefault | SUser | SFit.
(** The three callbacks: SpatialOrientation._initCameraMatrix (spatial.py 95-97),
    _init_inverse of a lens (lens_distortion.py 120-122, 212-214), the closure of
    focallength_px (projection.py 181-190).  Bound methods of one object are equal. *)
Inductive cb := CbOrient (o : oid) | CbLens (o : oid) | CbFocal (o : oid).
(** equality in the set of parameter_set.py 141-149 *)
Definition cb_eqb (a b : cb) : bool :=
  match a, b with
  | CbOrient x, CbOrient y | CbLens x, CbLens y | CbFocal x, CbFocal y => Nat.eqb x y
  | _, _ => false
  end.

(** spatial.py 25, 218 *)
Inductive okind := TiltHeading | YawPitchRoll.
(** lens_distortion.py 77, 84, 176 *)
Inductive lkind := NoDist | Brown | ABC.
(** camera.py 174-213, 428-459 *)
Inductive kind :=
| KProj (k : pkind) | KOrient (k : okind) | KLens (k : lkind)
| KGps                           (* the two Parameters made by Camera.__init__ *)
| KCam (p o l : oid) | KGroup (cams : list oid).

(** Association lists with the behaviour of a dict (insertion order, later wins) (parameter_set.py 105-106). *)
Fixpoint assoc {A} (n : name) (t : list (name * A)) : option A :=
  match t with
  | [] => None
  | (m, a) :: t' => if String.eqb n m then Some a else assoc n t'
  end.
(** camera.py 204 *)
Fixpoint dict_set {A} (n : name) (a : A) (t : list (name * A)) : list (name * A) :=
  match t with
  | [] => [(n, a)]
  | (m, b) :: t' => if String.eqb n m then (m, a) :: t' else (m, b) :: dict_set n a t'
  end.
(** camera.py 200, 456-458 *)
Definition dict_update {A} (t u : list (name * A)) : list (name * A) :=
  fold_left (fun t p => dict_set (fst p) (snd p) t) u t.
(** "in" of parameter_set.py 105, 113, 143 *)
Definition mem_name (n : name) (l : list name) : bool := existsb (String.eqb n) l.

(** Parameter names, in the order of the constructors: spatial.py 82-94 and 231-243,
    projection.py 164-190, lens_distortion.py 114-119 and 206-211, camera.py 455 *)
Definition onames (k : okind) : list name :=
  match k with
  | TiltHeading => ["elevation_m"; "tilt_deg"; "roll_deg"; "heading_deg"; "pos_x_m"; "pos_y_m"]
  | YawPitchRoll => ["elevation_m"; "yaw_deg"; "roll_deg"; "pitch_deg"; "pos_x_m"; "pos_y_m"]
  end.
(** projection.py 164-190 *)
Definition pnames : list name :=
  ["focallength_x_px"; "focallength_y_px"; "center_x_px"; "center_y_px"; "image_height_px";
   "image_width_px"; "sensor_height_mm"; "sensor_width_mm"; "focallength_px"].
(** lens_distortion.py 114-119, 206-211 *)
Definition lnames (k : lkind) : list name :=
  match k with NoDist => [] | Brown => ["k1"; "k2"; "k3"] | ABC => ["a"; "b"; "c"] end.
(** camera.py 455 *)
Definition gnames : list name := ["gps_lat"; "gps_lon"].
(** spatial.py 82-94, projection.py 164-190, lens_distortion.py 114-119, camera.py 455 *)
Definition base_names (k : kind) : list name :=
  match k with
  | KProj _ => pnames | KOrient k => onames k | KLens k => lnames k | KGps => gnames
  | KCam _ _ _ | KGroup _ => []
  end.
(** The projection parameters a lens adopts in setProjection, lens_distortion.py 126-136, 218-228 *)
Definition shared_names : list name :=
  ["image_width_px"; "image_height_px"; "focallength_x_px"; "focallength_y_px"; "center_x_px"; "center_y_px"].
(** The angle that is brought into range, and the angles converted to radians
    (spatial.py 108-113 and 257-262). *)
Definition wrapped_name (k : okind) : name :=
  match k with TiltHeading => "heading_deg" | YawPitchRoll => "pitch_deg" end.
(** spatial.py 111-113, 260-262 *)
Definition angle_names (k : okind) : list name :=
  match k with TiltHeading => ["tilt_deg"; "roll_deg"; "heading_deg"] | YawPitchRoll => ["pitch_deg"; "roll_deg"; "yaw_deg"] end.
(** The projection attributes _init_inverse reads, lens_distortion.py 144-146 and 238-240 *)
Definition lens_reads (k : lkind) : list name :=
  match k with
  | NoDist => []
  | Brown => ["focallength_x_px"; "focallength_y_px"; "center_x_px"; "center_y_px"]
  | ABC => ["image_width_px"; "image_height_px"; "center_x_px"; "center_y_px"]
  end.
(** TYPE_* masks, parameter_set.py 31-36, and where the constructors use them. *)
Definition type_of (k : kind) (n : name) : N :=
  match k with
  | KProj _ => 2
  | KOrient _ => if mem_name n ["heading_deg"; "pitch_deg"; "pos_x_m"; "pos_y_m"] then 8 else 4
  | KLens _ => 16
  | _ => 32
  end.

Section Heap.
(** [V]: the numbers stored in parameters.  [wrapv v] is [Some (v % 360)] if v is below
    -360 or above 360.  [lit] embeds the numbers written in the source. *)
Context {V : Type} (wrapv : V -> option V) (lit : Q -> V).

(** Parameter, parameter_set.py 40-60.  The range is only used by fits. *)
Record param := Param
  { value : option V; mean : option V; std : option V; default : option V;
    state : pstate; ptype : N; callback : option cb }.

(** What can be assigned: None, a number, or a (mean, std) tuple (parameter_set.py 112-119). *)
Inductive arg := ANone | ANum (v : V) | APair (m s : V).
(** parameter_set.py 104-110 *)
Definition of_opt (v : option V) : arg := match v with Some v => ANum v | None => ANone end.

(** [attrs]: plain instance attributes; [table]: the dict self.parameters.parameters;
    [used]: the numbers from which the derived state in use (t, R; scale, offset, d,
    inverse) was last computed; [lproj]: self.projection of a lens (parameter_set.py 96-102, 158-168). *)
Record obj := Obj
  { okd : kind; attrs : name -> option arg; table : list (name * loc);
    used : name -> option V; lproj : option oid }.
(** [mem] is meaningful at locations occurring in tables only (parameter_set.py 40-179). *)
Record heap := Heap { mem : loc -> param; objs : oid -> option obj; next : oid }.

(** writing to a Parameter, parameter_set.py 112-120 *)
Definition set_mem (h : heap) (l : loc) (p : param) : heap :=
  Heap (fun l' => if loc_eqb l' l then p else mem h l') (objs h) (next h).
(** writing to an object, parameter_set.py 124 *)
Definition set_obj (h : heap) (o : oid) (b : obj) : heap :=
  Heap (mem h) (fun o' => if Nat.eqb o' o then Some b else objs h o') (next h).

(** ** Reading *)
(** ParameterSet.__init__ and __getattr__, parameter_set.py 100-110 *)
Definition rd (p : param) : option V := match value p with Some v => Some v | None => default p end.
(** parameter_set.py 104-110 *)
Definition rdl (h : heap) (l : loc) : option V := rd (mem h l).
(** parameter_set.py 104-110 *)
Definition tget (h : heap) (b : obj) (n : name) : option V :=
  match assoc n (table b) with Some l => rdl h l | None => None end.
(** getattr on a component, camera or group: instance attributes first, then
    ClassWithParameterSet.__getattr__ (parameter_set.py 170-174); None = AttributeError. *)
Definition get_attr (h : heap) (o : oid) (n : name) : option arg :=
  match objs h o with
  | None => None
  | Some b =>
    match attrs b n with
    | Some a => Some a
    | None => match assoc n (table b) with Some l => Some (of_opt (rdl h l)) | None => None end
    end
  end.
(** parameter_set.py 170-174 *)
Definition get_num (h : heap) (o : oid) (n : name) : option V :=
  match get_attr h o n with Some (ANum v) => Some v | _ => None end.

(** ** Callbacks *)
(** Results: the heap and whether the call returned (false: it raised) (parameter_set.py 112-124). *)
Definition res := (heap * bool)%type.
(** one statement after another; parameter_set.py 112-124 *)
Definition bind (r : res) (f : heap -> res) : res := if snd r then f (fst r) else r.
(** spatial.py 116-130, lens_distortion.py 141-146, 233-240 *)
Definition with_used (b : obj) (u : name -> option V) : obj :=
  Obj (okd b) (attrs b) (table b) u (lproj b).
(** is not None, parameter_set.py 107 *)
Definition is_some {A} (x : option A) : bool := match x with Some _ => true | None => false end.
(** None raises in spatial.py 111-113, lens_distortion.py 149, 234 *)
Definition all_set (h : heap) (b : obj) (l : list name) : bool := forallb (fun n => is_some (tget h b n)) l.

(** spatial.py 107-130 (256-279): np.deg2rad(None) raises, a None position does not. *)
Definition orient_finish (h : heap) (o : oid) : res :=
  match objs h o with
  | Some b =>
    match okd b with
    | KOrient k => if all_set h b (angle_names k) then (set_obj h o (with_used b (tget h b)), true) else (h, false)
    | _ => (h, false)
    end
  | None => (h, false)
  end.
(** _init_inverse, lens_distortion.py 141-146 and 233-240: first the coefficients (None
    raises), then the frame; np.min with a None raises, np.array does not. *)
Definition lens_finish (h : heap) (o : oid) : res :=
  match objs h o with
  | Some b =>
    match okd b with
    | KLens k =>
      if all_set h b (lnames k) then
        let u := fun n => if mem_name n (lnames k) then tget h b n else used b n in
        let h1 := set_obj h o (with_used b u) in
        match lproj b with
        | None => (h1, true)
        | Some p =>
          match k with
          | ABC => if is_some (get_num h p "image_width_px") && is_some (get_num h p "image_height_px")
                   then (set_obj h o (with_used b (fun n => if mem_name n (lens_reads k) then get_num h p n else u n)), true)
                   else (h1, false)
          | _ => (set_obj h o (with_used b (fun n => if mem_name n (lens_reads k) then get_num h p n else u n)), true)
          end
        end
      else (h, false)
    | _ => (h, false)
    end
  | None => (h, false)
  end.

(** ParameterSet.__setattr__ on a known parameter, parameter_set.py 112-121, before the callback *)
Definition assign (a : arg) (p : param) : param :=
  match a with
  | ANone => Param None None (std p) (default p) SUser (ptype p) (callback p)
  | ANum v => Param (Some v) None (std p) (default p) SUser (ptype p) (callback p)
  | APair m s => Param (Some m) (Some m) (Some s) (default p) SUser (ptype p) (callback p)
  end.
(** projection.py 182, 185, parameter_set.py 63, 67 *)
Definition with_value (v : option V) (p : param) : param :=
  Param v (mean p) (std p) (default p) (state p) (ptype p) (callback p).

(** Running a callback.  [fuel] stands for Python's recursion limit: running out of it is
    a RecursionError.  Orientation: lines 108-109 and 257-258 of spatial.py reassign the angle, which
    runs the callback once more, then the rest of the function runs.  Focal length:
    projection.py 181-187. *)
Fixpoint run_cb (fuel : nat) (h : heap) (c : cb) : res :=
  match fuel with
  | O => (h, false)
  | S fuel' =>
    let run_opt h c := match c with Some c => run_cb fuel' h c | None => (h, true) end in
    match c with
    | CbOrient o =>
      match objs h o with
      | Some b =>
        match okd b with
        | KOrient k =>
          match get_num h o (wrapped_name k), assoc (wrapped_name k) (table b) with
          | Some v, Some l =>
            bind (match wrapv v with
                  | None => (h, true)
                  | Some v' => let h1 := set_mem h l (assign (ANum v') (mem h l)) in
                               run_opt h1 (callback (mem h1 l))
                  end)
                 (fun h' => orient_finish h' o)
          | _, _ => (h, false)                            (* None < -360 raises *)
          end
        | _ => (h, false)
        end
      | None => (h, false)
      end
    | CbLens o => lens_finish h o
    | CbFocal o =>
      let f := Loc o "focallength_px" in
      let fx := Loc o "focallength_x_px" in
      let fy := Loc o "focallength_y_px" in
      let h1 := set_mem h fx (with_value (value (mem h f)) (mem h fx)) in
      bind (run_opt h1 (callback (mem h1 fx)))
        (fun h2 => let h3 := set_mem h2 fy (with_value (value (mem h2 f)) (mem h2 fy)) in
                   run_opt h3 (callback (mem h3 fy)))
    end
  end.
(** the recursion limit, for spatial.py 109 *)
Definition depth : nat := 200.
(** parameter_set.py 121-122 *)
Definition call (h : heap) (c : option cb) : res :=
  match c with Some c => run_cb depth h c | None => (h, true) end.
(** parameter_set.py 148-149 *)
Fixpoint calls (h : heap) (cs : list cb) : res :=
  match cs with [] => (h, true) | c :: cs' => bind (run_cb depth h c) (fun h' => calls h' cs') end.

(** ** Writing *)
(** setattr(obj, name, value): parameter_set.py 176-179 and 112-124.  An unknown name becomes a plain
    instance attribute. *)
Definition set_attr (h : heap) (o : oid) (n : name) (a : arg) : res :=
  match objs h o with
  | None => (h, false)
  | Some b =>
    match assoc n (table b) with
    | Some l => let h1 := set_mem h l (assign a (mem h l)) in call h1 (callback (mem h1 l))
    | None => (set_obj h o (Obj (okd b) (fun m => if String.eqb m n then Some a else attrs b m)
                              (table b) (used b) (lproj b)), true)
    end
  end.
(** obj.defaults.name = value: DefaultAccess.__init__ and __setattr__, parameter_set.py 78-93.  An unknown name
    becomes an attribute of the DefaultAccess object, which nothing reads. *)
Definition set_default (h : heap) (o : oid) (n : name) (v : option V) : res :=
  match objs h o with
  | None => (h, false)
  | Some b =>
    match assoc n (table b) with
    | Some l =>
      let p := mem h l in
      let h1 := set_mem h l (Param (value p) (mean p) (std p) v (state p) (ptype p) (callback p)) in
      match value p with None => call h1 (callback p) | Some _ => (h1, true) end
    | None => (h, true)
    end
  end.
(** Collecting callbacks in a set (parameter_set.py 141-147). *)
Definition add_cb (cs : list cb) (c : option cb) : list cb :=
  match c with
  | Some c => if existsb (cb_eqb c) cs then cs else cs ++ [c]
  | None => cs
  end.
(** set_fit_parameters, parameter_set.py 136-149; [ord] is the iteration order of the set. *)
Fixpoint write_fit (h : heap) (b : obj) (vals : list (name * V)) (cs : list cb) : heap * list cb :=
  match vals with
  | [] => (h, cs)
  | (n, v) :: vals' =>
    match assoc n (table b) with
    | Some l =>
      let p := mem h l in
      write_fit (set_mem h l (Param (Some v) (mean p) (std p) (default p) SFit (ptype p) (callback p)))
                b vals' (add_cb cs (callback p))
    | None => write_fit h b vals' cs
    end
  end.
(** parameter_set.py 136-149 *)
Definition set_fit (ord : list cb -> list cb) (h : heap) (o : oid) (vals : list (name * V)) : res :=
  match objs h o with
  | None => (h, false)
  | Some b => let (h1, cs) := write_fit h b vals [] in calls h1 (ord cs)
  end.
(** sample and set_to_mean without a trace, parameter_set.py 181-195, 197-213 and 61-72: [f] gives the new
    value of a parameter with mean and std; every callback is run. *)
Fixpoint write_stats (f : name -> V -> option V -> V) (h : heap) (t : list (name * loc)) (cs : list cb)
  : heap * list cb :=
  match t with
  | [] => (h, cs)
  | (n, l) :: t' =>
    let p := mem h l in
    let h1 := match mean p with Some m => set_mem h l (with_value (Some (f n m (std p))) p) | None => h end in
    write_stats f h1 t' (add_cb cs (callback p))
  end.
(** parameter_set.py 181-213 *)
Definition stats_op (f : name -> V -> option V -> V) (ord : list cb -> list cb) (h : heap) (o : oid) : res :=
  match objs h o with
  | None => (h, false)
  | Some b => let (h1, cs) := write_stats f h (table b) [] in calls h1 (ord cs)
  end.
(** [rnd n] stands for np.random.normal at that parameter (parameter_set.py 61-63, 181-195). *)
Definition sample (rnd : name -> V -> option V -> V) := stats_op rnd.
(** parameter_set.py 65-67, 197-213 *)
Definition set_to_mean := stats_op (fun _ m _ => m).
(** get_fit_parameters, parameter_set.py 126-134 *)
Definition get_fit (h : heap) (o : oid) (mask : option N) : list name :=
  match objs h o with
  | None => []
  | Some b => map fst (filter (fun nl =>
      let p := mem h (snd nl) in
      match mask with Some m => negb (N.eqb (N.land (ptype p) m) 0) | None => true end &&
      (match state p with SUser => false | _ => true end || negb (is_some (value p)))) (table b))
  end.

(** ** Constructors *)
(** Parameter.__init__, parameter_set.py 43-60: None without default raises ValueError. *)
Definition mk_param (v d : option V) (t : N) (c : option cb) : option param :=
  match v, d with
  | None, None => None
  | _, _ => Some (Param v None None d (match v with Some _ => SUser | None => SDefault end) t c)
  end.
(** The defaults written in the constructors (spatial.py 82-94, 231-243, projection.py 164-174,
    lens_distortion.py 114-119, 206-211, camera.py 455). *)
Definition default_of (n : name) : option V :=
  match assoc n [("elevation_m", 30#1); ("tilt_deg", 85#1); ("yaw_deg", 85#1); ("roll_deg", 0#1);
                 ("heading_deg", 0#1); ("pitch_deg", 0#1); ("pos_x_m", 0#1); ("pos_y_m", 0#1);
                 ("center_x_px", 0#1); ("center_y_px", 0#1); ("sensor_height_mm", 13#1);
                 ("sensor_width_mm", 173#10); ("k1", 0#1); ("k2", 0#1); ("k3", 0#1);
                 ("a", 0#1); ("b", 0#1); ("c", 0#1); ("gps_lat", 0#1); ("gps_lon", 0#1)]%Q with
  | Some q => Some (lit q)
  | None => None
  end.
(** Allocate object [next h] of kind k with Parameters for its names (spatial.py 95-96, 244-245,
    lens_distortion.py 120-121, 212-213, projection.py 181-190). *)
Definition fresh_cb (o : oid) (k : kind) (n : name) : option cb :=
  match k with
  | KProj _ => if String.eqb n "focallength_px" then Some (CbFocal o) else None
  | KOrient _ => Some (CbOrient o)
  | KLens _ => Some (CbLens o)
  | _ => None
  end.
(** the keyword arguments of ParameterSet, parameter_set.py 100-102 *)
Definition self_table (o : oid) (k : kind) : list (name * loc) :=
  map (fun n => (n, Loc o n)) (base_names k).
(** parameter_set.py 43-59, 100-102 *)
Definition alloc (h : heap) (k : kind) (vals : name -> option V) (at_ : name -> option arg) : heap :=
  let o := next h in
  Heap (fun l => if Nat.eqb (l_owner l) o
                 then Param (vals (l_name l)) None None (default_of (l_name l))
                        (match vals (l_name l) with Some _ => SUser | None => SDefault end)
                        (type_of k (l_name l)) (fresh_cb o k (l_name l))
                 else mem h l)
       (fun o' => if Nat.eqb o' o then Some (Obj k at_ (self_table o k) (fun _ => None) None) else objs h o')
       (S o).
(** a new object has no other attributes; parameter_set.py 165-168 *)
Definition no_attrs : name -> option arg := fun _ => None.
(** SpatialOrientation.__init__ and the yaw-pitch-roll variant, spatial.py 82-97, 231-246 *)
Definition new_orient (h : heap) (k : okind) (vals : name -> option V) : res :=
  run_cb depth (alloc h (KOrient k) vals no_attrs) (CbOrient (next h)).
(** CameraProjection.__init__, projection.py 164-190, after the values were worked out;
    [frozen]: built from view_x_deg/view_y_deg, which leaves image_width_px and
    image_height_px as instance attributes (lines 145-147).  focallength_px gets the x
    value (line 179). *)
Definition new_proj (h : heap) (k : pkind) (vals : name -> option V) (frozen : bool) : res :=
  if forallb (fun n => is_some (vals n)) ["focallength_x_px"; "focallength_y_px"; "image_height_px"; "image_width_px"]
  then (alloc h (KProj k)
          (fun n => if String.eqb n "focallength_px" then vals "focallength_x_px" else vals n)
          (fun n => if frozen && mem_name n ["image_width_px"; "image_height_px"]
                    then Some (of_opt (vals n)) else None), true)
  else (h, false).
(** The lens constructors, lens_distortion.py 43-44, 113-122, 205-214 *)
Definition new_lens (h : heap) (k : lkind) (vals : name -> option V) : res :=
  match k with
  | NoDist => (alloc h (KLens k) vals no_attrs, true)
  | _ => run_cb depth (alloc h (KLens k) vals no_attrs) (CbLens (next h))
  end.
(** setProjection, lens_distortion.py 61-62, 124-139, 216-231.  The callbacks of the
    adopted projection parameters are replaced. *)
Definition with_cb (c : option cb) (p : param) : param :=
  Param (value p) (mean p) (std p) (default p) (state p) (ptype p) c.
(** lens_distortion.py 126-136, 218-228 *)
Definition lens_table (l p : oid) (k : lkind) : list (name * loc) :=
  map (fun n => (n, Loc l n)) (lnames k) ++ map (fun n => (n, Loc p n)) shared_names.
(** lens_distortion.py 61-62, 124-139, 216-231 *)
Definition set_projection (h : heap) (l p : oid) : res :=
  match objs h l with
  | Some b =>
    match okd b with
    | KLens NoDist => (h, true)
    | KLens k =>
      let t := lens_table l p k in
      run_cb depth
        (Heap (fun x => if existsb (fun nl => loc_eqb x (snd nl)) t then with_cb (Some (CbLens l)) (mem h x) else mem h x)
              (fun o => if Nat.eqb o l then Some (Obj (okd b) (attrs b) t (used b) (Some p)) else objs h o)
              (next h))
        (CbLens l)
    | _ => (h, false)
    end
  | None => (h, false)
  end.
(** .parameters.parameters, camera.py 456-458 *)
Definition tab (h : heap) (o : oid) : list (name * loc) :=
  match objs h o with Some b => table b | None => [] end.
(** The union of the parameter dicts, camera.py 455-459 *)
Definition cam_table (h : heap) (g p o l : oid) : list (name * loc) :=
  dict_update (dict_update (dict_update (self_table g KGps) (tab h p)) (tab h o)) (tab h l).
(** Camera.__init__, camera.py 444-459, on camera object [c] (load calls it again on an
    existing object, whose plain attributes stay). *)
Definition zero_gps (n : name) : option V := if mem_name n gnames then Some (lit (0#1)) else None.
(** camera.py 444-459 *)
Definition init_camera (h : heap) (c p o l : oid) (at_ : name -> option arg) : res :=
  bind (set_projection h l p) (fun h1 =>
    let g := next h1 in
    let h2 := alloc h1 KGps zero_gps no_attrs in
    (set_obj h2 c (Obj (KCam p o l) at_ (cam_table h2 g p o l) (fun _ => None) None), true)).
(** a new python object; camera.py 444 *)
Definition reserve (h : heap) : heap := Heap (mem h) (objs h) (S (next h)).
(** camera.py 444-459 *)
Definition new_camera (h : heap) (p o l : oid) : res :=
  init_camera (reserve h) (next h) p o l no_attrs.

(** CameraGroup.__init__, camera.py 179-213, on already normalised lists ([N] is the length
    of the last argument given as a list, otherwise 1). *)
Fixpoint digits (fuel n : nat) : string :=
  match fuel with
  | O => ""
  | S f => let d := String (Ascii.ascii_of_nat (48 + n mod 10)) "" in
           if (n <? 10)%nat then d else digits f (n / 10) ++ d
  end.
(** "C%d_%s", camera.py 204 *)
Definition nat_string (n : nat) : string := digits (S n) n.
(** camera.py 198-208 *)
Definition gather (h : heap) (params : list (name * loc)) (l : list oid) : list (name * loc) :=
  match l with
  | [o] => dict_update params (tab h o)
  | _ => fold_left (fun ps io =>
           fold_left (fun ps nl => dict_set ("C" ++ nat_string (fst io) ++ "_" ++ fst nl) (snd nl) ps)
                     (tab h (snd io)) ps)
         (combine (seq 0 (List.length l)) l) params
  end.
(** zip(range(N), cycle(...), cycle(...), cycle(...)): nothing if a list is empty (camera.py 212-213). *)
Fixpoint make_cameras (h : heap) (i n : nat) (ps os ls : list oid) : heap * bool * list oid :=
  match n with
  | O => (h, true, [])
  | S n' =>
    match nth_error ps (i mod List.length ps), nth_error os (i mod List.length os), nth_error ls (i mod List.length ls) with
    | Some p, Some o, Some l =>
      let r := new_camera h p o l in
      if snd r then
        let '(h', ok, cs) := make_cameras (fst r) (S i) n' ps os ls in (h', ok, next h :: cs)
      else (fst r, false, [])
    | _, _, _ => (h, true, [])
    end
  end.
(** camera.py 182-195 *)
Definition group_size (given : list (option (list oid))) : nat :=
  fold_left (fun n g => match g with Some l => List.length l | None => n end) given 1%nat.
(** Each argument: one component ([inl]) or a list ([inr]); a missing one is represented
    by the default object it creates (camera.py 184-195). *)
Definition comp_list (a : oid + list oid) : list oid := match a with inl o => [o] | inr l => l end.
(** camera.py 184-195 *)
Definition comp_given (a : oid + list oid) : option (list oid) := match a with inl _ => None | inr l => Some l end.
(** camera.py 179-213 *)
Definition new_group (h : heap) (pa oa la : oid + list oid) : res :=
  let n := group_size [comp_given pa; comp_given oa; comp_given la] in
  let ps := comp_list pa in let os := comp_list oa in let ls := comp_list la in
  let params := gather h (gather h (gather h [] ps) os) ls in
  let g := next h in
  let '(h', ok, cs) := make_cameras (reserve h) 0 n ps os ls in
  if ok then (set_obj h' g (Obj (KGroup cs) no_attrs params (fun _ => None) None), true)
  else (h', false).

(** ** Saving and loading a camera, camera.py 1521-1606 *)
(** The JSON object: projection and lens type and the exported values (camera.py 1530-1550). *)
Record file := File { file_proj : pkind; file_lens : lkind; file_vars : list (name * arg) }.
(** camera.py 1521-1550 *)
Definition save (h : heap) (c : oid) : option file :=
  match objs h c with
  | Some b =>
    match okd b with
    | KCam p o l =>
      match objs h p, objs h l with
      | Some bp, Some bl =>
        match okd bp, okd bl with
        | KProj pk, KLens lk =>
          Some (File pk lk
            (map (fun nl => (fst nl, match get_attr h c (fst nl) with Some a => a | None => ANone end))
                 (filter (fun nl => negb (String.eqb (fst nl) "focallength_px")) (table b))))
        | _, _ => None
        end
      | _, _ => None
      end
    | _ => None
    end
  | None => None
  end.
(** camera.py 1585-1587 *)
Fixpoint set_all (h : heap) (o : oid) (vars : list (name * arg)) : res :=
  match vars with
  | [] => (h, true)
  | (n, a) :: vars' => bind (set_attr h o n a) (fun h' => set_all h' o vars')
  end.
(** The placeholder projection: image=(100, 50), focallength_px=100, centre in the middle *)
Definition placeholder (n : name) : option V :=
  match assoc n [("focallength_x_px", 100#1); ("focallength_y_px", 100#1); ("center_x_px", 50#1);
                 ("center_y_px", 25#1); ("image_width_px", 100#1); ("image_height_px", 50#1)]%Q with
  | Some q => Some (lit q)
  | None => None
  end.
(** no arguments: camera.py 1561-1587 *)
Definition none_vals : name -> option V := fun _ => None.
(** Camera.load on camera object [c] with plain attributes [at_] (camera.py 1552-1587) *)
Definition load_into (h : heap) (c : oid) (at_ : name -> option arg) (f : file) : res :=
  let p := next h in
  bind (new_proj h (file_proj f) placeholder false) (fun h1 =>
  let l := next h1 in
  bind (new_lens h1 (file_lens f) none_vals) (fun h2 =>
  let o := next h2 in
  bind (new_orient h2 TiltHeading none_vals) (fun h3 =>
  bind (init_camera h3 c p o l at_) (fun h4 =>
  set_all h4 c (file_vars f))))).
(** camera.py 1552-1587 *)
Definition load (h : heap) (c : oid) (f : file) : res :=
  load_into h c (match objs h c with Some b => attrs b | None => no_attrs end) f.
(** load_camera, camera.py 1604-1606; the camera returned is the fourth object made. *)
Definition load_camera (h : heap) (f : file) : res :=
  bind (new_proj h Rectilinear placeholder false) (fun h1 =>
  bind (new_orient h1 TiltHeading none_vals) (fun h2 =>
  bind (new_lens h2 NoDist none_vals) (fun h3 =>
  bind (new_camera h3 (next h) (next h1) (next h2)) (fun h4 =>
  load h4 (next h3) f)))).

(** ** Programs *)
(** the calls of camera.py 174-459, 1521-1606, parameter_set.py 86-213 *)
Inductive op :=
| OOrient (k : okind) (vals : name -> option V)
| OProj (k : pkind) (vals : name -> option V) (frozen : bool)
| OLens (k : lkind) (vals : name -> option V)
| OCamera (p o l : oid)
| OGroup (pa oa la : oid + list oid)
| OSet (o : oid) (n : name) (a : arg)
| ODefault (o : oid) (n : name) (v : option V)
| OFit (ord : list cb -> list cb) (o : oid) (vals : list (name * V))
| OSample (rnd : name -> V -> option V -> V) (ord : list cb -> list cb) (o : oid)
| OMean (ord : list cb -> list cb) (o : oid)
| OLoad (c : oid) (f : file).
(** the calls of camera.py 174-459, 1521-1606, parameter_set.py 86-213 *)
Definition exec (h : heap) (p : op) : res :=
  match p with
  | OOrient k vals => new_orient h k vals
  | OProj k vals fr => new_proj h k vals fr
  | OLens k vals => new_lens h k vals
  | OCamera p o l => new_camera h p o l
  | OGroup pa oa la => new_group h pa oa la
  | OSet o n a => set_attr h o n a
  | ODefault o n v => set_default h o n v
  | OFit ord o vals => set_fit ord h o vals
  | OSample rnd ord o => sample rnd ord h o
  | OMean ord o => set_to_mean ord h o
  | OLoad c f => load h c f
  end.
(** before the first call; parameter_set.py 40-179 *)
Definition empty : heap := Heap (fun _ => Param None None None None SDefault 0%N None) (fun _ => None) 0%nat.
(** A history in which no call raised (calls of parameter_set.py 86-213 one after another). *)
Fixpoint run (h : heap) (ps : list op) : option heap :=
  match ps with
  | [] => Some h
  | p :: ps' => let r := exec h p in if snd r then run (fst r) ps' else None
  end.
End Heap.
Arguments param : clear implicits.
Arguments heap : clear implicits.
Arguments obj : clear implicits.
Arguments arg : clear implicits.
Arguments op : clear implicits.
Arguments file : clear implicits.
