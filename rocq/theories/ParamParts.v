(** * Saving and loading the parts of a camera: projection.py 210-220, spatial.py 205-215, lens_distortion.py 64-74 *)
Require Import List Bool String Arith.
From Verif Require Import Param.
Import ListNotations.
Open Scope string_scope.

Section Parts.
Context {V : Type} (wrapv : V -> option V).
Notation heap := (heap V). Notation arg := (arg V). Notation res := (heap * bool)%type.

(** {key: getattr(self, key) for key in self.parameters.parameters.keys()}, for a projection without focallength_px.
    The JSON text and the file are left out: the file is the list of its entries in order (projection.py
    211-214, spatial.py 206-209, lens_distortion.py 65-68). *)
Definition export (h : heap) (o : oid) (t : list (name * loc)) : list (name * arg) :=
  map (fun nl => (fst nl, match get_attr h o (fst nl) with Some a => a | None => ANone end)) t.
Definition save_part (h : heap) (o : oid) : option (list (name * arg)) :=
  match objs h o with
  | None => None
  | Some b =>
    match okd b with
    | KProj _ => Some (export h o (filter (fun nl => negb (String.eqb (fst nl) "focallength_px")) (table b)))   (* projection.py 210-214 *)
    | KOrient _ => Some (export h o (table b))                                                                  (* spatial.py 205-209 *)
    | KLens _ => Some (export h o (table b))                                                                    (* lens_distortion.py 64-68 *)
    | _ => None
    end
  end.
(** for key in variables: setattr(self.parameters, key, variables[key]), spatial.py 211-215: an unknown name becomes an
    attribute of the ParameterSet object, which nothing reads. *)
Fixpoint set_known (h : heap) (o : oid) (vars : list (name * arg)) : res :=
  match vars with
  | [] => (h, true)
  | (n, a) :: vars' =>
    bind (match objs h o with
          | Some b => match assoc n (table b) with Some _ => set_attr wrapv h o n a | None => (h, true) end
          | None => (h, false)
          end) (fun h' => set_known h' o vars')
  end.
(** Projections and lenses set the attributes of the object itself, projection.py 216-220, lens_distortion.py 70-74. *)
Definition load_part (h : heap) (o : oid) (vars : list (name * arg)) : res :=
  match objs h o with
  | None => (h, false)
  | Some b =>
    match okd b with
    | KOrient _ => set_known h o vars
    | KProj _ | KLens _ => set_all wrapv h o vars
    | _ => (h, false)
    end
  end.
End Parts.
