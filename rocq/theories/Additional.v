(** * Additional parameters: ClassWithParameterSet.metropolis and fit with the parameters of the terms,
    parameter_set.py 218-324 *)
Require Import Reals List Bool String ZArith.
From Verif Require Import Num Param PropParam Metropolis Fit Fridge.
Import ListNotations.

(** param.set_value(value) for param, value in zip(self.additional_parameters, ...), 304-305, on the list of the
    values of the additional parameters: zip stops at the shorter list *)
Fixpoint set_values (vals new : list num) : list num :=
  match vals, new with
  | _ :: vs, w :: ws => w :: set_values vs ws
  | _, _ => vals
  end.
(** numpy's broadcasting of the array [step] (300) to the length of the position (statistic.py 108); None stands for
    numpy's ValueError.  The case of no parameter and one additional parameter, where the position is broadcast to
    the empty array, is in [propose] of an empty step. *)
Definition broadcast (len : nat) (step : list num) : option (list num) :=
  if Nat.eqb (List.length step) len then Some step
  else match step with
  | [s] => Some (repeat s len)
  | [] => if Nat.eqb len 1 then Some [] else None
  | _ => None
  end.

Section Additional.
(** The log probability of the object [o] for the values of the additional parameters; [names] are the names of
    the sampled parameters and [extra] those of the additional parameters. *)
Context (lp : heapn -> list num -> num) (ord : list cb -> list cb) (o : oid) (names extra : list name).
(** getLogProb, 302-306, in a computation: the values of the additional parameters are state *)
Fixpoint value_run {A} (h : heapn) (vals : list num) (s : strat A) : heapn * list num * option A :=
  match s with
  | Done a => (h, vals, Some a)
  | Ask p k =>
    let (h1, ok) := set_position ord o names h (firstn (List.length names) p) in
    if ok then
      let vals1 := set_values vals (skipn (List.length names) p) in
      value_run h1 vals1 (k (lp h1 vals1))
    else (h1, vals, None)
  end.
(** 308-316: start search and sampler; [factor] is the argument step and [steps] the steps of the parameters.  None
    stands for a ValueError: 313-314, or the first pass of the sampler's loop (statistic.py 108) when the steps
    cannot be broadcast; without any pass the trace is empty, which is a ValueError too (204). *)
Definition walk (tries : nat -> list num) (start steps : list num) (factor : num) (iterations burn : R) (draws : nat -> draw)
  : strat (option (list sample)) :=
  sbind (search tries max_tries start) (fun r =>
    match snd r with
    | O => Done None
    | S _ =>
      match broadcast (List.length start) (map (fun s => (factor * s)%num) steps) with
      | None => Ask (fst r) (fun _ => Done None)
      | Some st => sbind (metropolis_strat (fst r) st iterations burn draws) (fun t => Done (Some t))
      end
    end).
(** set_fit_parameters(names of the columns, row), 207: all columns but the probability *)
Definition set_row (h : heapn) (row : list num) : res := set_fit wrapn ord h o (combine (names ++ extra) row).
(** metropolis, parameter_set.py 286-324; [vals] are the values of the additional parameters before and [start] is the list of line
    299: the values of all parameters (numbers; a FitParameter without value is left out). *)
Definition metropolis_additional (h : heapn) (vals : list num) (tries : nat -> list num) (start steps : list num) (factor : num)
  (iterations burn : R) (draws : nat -> draw) : heapn * list num * outcome (list sample) :=
  match value_run h vals (walk tries start steps factor iterations burn draws) with
  | (h1, v1, None) => (h1, v1, Raised)
  | (h1, v1, Some None) => (h1, v1, ValueError)
  | (h1, v1, Some (Some trace)) =>
    match idxmax trace with
    | None => (h1, v1, ValueError)
    | Some s => let (h2, ok) := set_row h1 (s_pos s) in (h2, v1, if ok then Ok trace else Raised)
    end
  end.
(** metropolis called with FitParameter objects (287-298): [draws] gets the ranges, which are those of the
    parameters [ps] and of the additional parameters [qs] *)
Definition metropolis_call {P} (h : heapn) (vals : list num) (ps qs : list (fit_parameter P)) (tries : nat -> list num)
  (start steps : list num) (factor : num) (iterations burn : R) (draws : list (option num * option num) -> nat -> draw)
  : heapn * list num * outcome (list sample) :=
  match ranges_of (ps ++ qs)%list with
  | Ok rs => metropolis_additional h vals tries start steps factor iterations burn (draws rs)
  | ValueError => (h, vals, ValueError)
  | Raised => (h, vals, Raised)
  end.
(** fit (250-284) reads the additional parameters' values and never writes them *)
Definition fit_additional (h : heapn) (vals : list num) (draws : nat -> list num) (estimates : list num)
  (minimize : list num -> strat (list num)) : heapn * list num * outcome (list num) :=
  let (h1, r) := fit (fun g => lp g vals) ord o names h draws estimates minimize in (h1, vals, r).
End Additional.
