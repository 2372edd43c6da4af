(** * Sampling with bayesianfridge: ClassWithParameterSet.fridge, parameter_set.py 326-365 *)
Require Import Reals List Bool String ZArith.
From Verif Require Import Num Param PropParam Metropolis Fit.
Import ListNotations.

(** statistic.py 264-297: a FitParameter; [P] is the type of scipy's distributions.  Only the uniform and the
    normal distribution are looked into. *)
Inductive dist (P : Type) := Given (d : P) | Uniform (loc scale : num) | Norm (loc scale : num).
Arguments Given {P}. Arguments Uniform {P}. Arguments Norm {P}.
(** the attribute parents (273-282): the key and value pairs, None when __init__ does not set it *)
Record fit_parameter (P : Type) := FP { fp_dist : dist P; fp_parents : option (list (name * num)); fp_value : option num }.
Arguments FP {P}. Arguments fp_dist {P}. Arguments fp_parents {P}. Arguments fp_value {P}.
(** FitParameter.__init__ (271-284); name and step are only stored and are left out *)
Definition FitParameter {P} (distribution : option P) (lower upper value mean std : option num) : outcome (fit_parameter P) :=
  match distribution, lower, upper, mean, std with
  | Some d, _, _, _, _ => Ok (FP (Given d) None value)
  | None, Some l, Some u, _, _ => Ok (FP (Uniform l (u - l)%num) (Some [("lower"%string, l); ("upper"%string, u)]) value)
  | None, _, _, Some m, Some s => Ok (FP (Norm m s) (Some [("mean"%string, m); ("std"%string, s)]) value)
  | None, _, _, _, _ => ValueError
  end.
(** param.parents.get("lower") (fit line 257, metropolis lines 294, 298): raises AttributeError without parents;
    the inner None is Python's None *)
Definition parents_get {P} (p : fit_parameter P) (key : name) : option (option num) :=
  match fp_parents p with None => None | Some d => Some (assoc key d) end.
(** the entry that fit and metropolis put into [ranges] (parameter_set.py 257, 294, 298) *)
Definition range_of {P} (p : fit_parameter P) : outcome (option num * option num) :=
  match parents_get p "lower", parents_get p "upper" with Some a, Some b => Ok (a, b) | _, _ => Raised end.
(** the loop over the parameters at the start of fit (251-257) and metropolis (287-298) *)
Fixpoint ranges_of {P} (ps : list (fit_parameter P)) : outcome (list (option num * option num)) :=
  match ps with
  | [] => Ok []
  | p :: ps' =>
    match range_of p with
    | Ok r => match ranges_of ps' with Ok rs => Ok (r :: rs) | ValueError => ValueError | Raised => Raised end
    | ValueError => ValueError
    | Raised => Raised
    end
  end.

Section Fridge.
(** getLogProbability of the object [o] in a state and with these values of the variables (the terms of an
    additional parameter read its value attribute); [names] are the columns: the names of the parameters and then
    those of the additional parameters. *)
Context (lp : heapn -> list num -> num) (ord : list cb -> list cb) (o : oid) (names : list name).
(** fit (250-284) called with FitParameter objects; [draws] stands for their random(), [minimize] gets the
    ranges as bounds *)
Definition fit_call {P} (h : heapn) (ps : list (fit_parameter P)) (draws : nat -> list num) (estimates : list num)
  (minimize : list (option num * option num) -> list num -> strat (list num)) : heapn * outcome (list num) :=
  match ranges_of ps with
  | Ok rs => fit (fun h' => lp h' estimates) ord o names h draws estimates (minimize rs)
  | ValueError => (h, ValueError)
  | Raised => (h, Raised)
  end.
(** bayesianfridge.sample on the model of line 335: the package is not part of the project and is any computation
    that gives the variables values (Model, statistic.py 300-302, draw_from_prior, 304-306, or set_value, 289-290) and reads model.logp, which is
    getLogProbability (308-310).  Result: the values the variables are left with and the samples. *)
Fixpoint sample_run {A} (h : heapn) (v : list num) (s : strat A) : list num * A :=
  match s with
  | Done a => (v, a)
  | Ask p k => sample_run h p (k (lp h p))
  end.
(** 358-361: every sample is put into the camera and its log probability is recorded; None: a callback raised *)
Fixpoint record (h : heapn) (v : list num) (rows : list (list num)) : heapn * option (list sample) :=
  match rows with
  | [] => (h, Some [])
  | r :: rows' =>
    let (h1, ok) := set_position ord o names h r in
    if ok then
      let (h2, t) := record h1 v rows' in
      (h2, match t with Some l => Some (Sample r [] (lp h1 v) :: l) | None => None end)
    else (h1, None)
  end.
(** fridge (326-367) with set_to_mean (199-207); pandas raises ValueError for an empty trace *)
Definition fridge (h : heapn) (v : list num) (sampler : strat (list (list num))) : heapn * outcome (list sample) :=
  let (v1, rows) := sample_run h v sampler in
  match record h v1 rows with
  | (h1, None) => (h1, Raised)
  | (h1, Some trace) =>
    match idxmax trace with
    | None => (h1, ValueError)
    | Some s => let (h2, ok) := set_position ord o names h1 (s_pos s) in (h2, if ok then Ok trace else Raised)
    end
  end.
End Fridge.
