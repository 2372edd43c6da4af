(** * Fitting: ClassWithParameterSet.fit and metropolis, parameter_set.py 250-324 *)
Require Import Reals List Bool String ZArith.
From Verif Require Import Num Param PropParam Metropolis.
Import ListNotations.

(** A computation that asks for the log probability at positions and goes on with the answers: the
    start search, scipy's minimize (any deterministic or random method is one of these) and the sampler
    (parameter_set.py 250-324). *)
Inductive strat (A : Type) :=
| Done (a : A)
| Ask (position : list num) (k : num -> strat A).
Arguments Done {A}. Arguments Ask {A}.
(** one computation after another, parameter_set.py 263-282 *)
Fixpoint sbind {A B} (s : strat A) (f : A -> strat B) : strat B :=
  match s with Done a => f a | Ask p k => Ask p (fun v => sbind (k v) f) end.
(** cost: the negative log probability (278-280) *)
Fixpoint negated {A} (s : strat A) : strat A :=
  match s with Done a => Done a | Ask p k => Ask p (fun v => negated (k (- v)%num)) end.
(** The computation on a mathematical function (parameter_set.py 259-261, 302-306). *)
Fixpoint pure_run {A} (f : list num -> num) (s : strat A) : A :=
  match s with Done a => a | Ask p k => pure_run f (k (f p)) end.

(** 263-268: the start position; [draws] gives the random positions, [left] the tries left of 1000.  The result
    is the position and the number of tries left. *)
Definition max_tries : nat := 1000.
(** parameter_set.py 263-267, 308-312 *)
Fixpoint search (draws : nat -> list num) (left : nat) (estimates : list num) : strat (list num * nat) :=
  Ask estimates (fun p =>
    match left with
    | O => Done (estimates, O)
    | S l => if nisinf p then search draws l (draws (max_tries - left)%nat) else Done (estimates, left)
    end).
(** parameter_set.py 263-282: None stands for the ValueError of line 269 *)
Definition fit_strat (draws : nat -> list num) (estimates : list num) (minimize : list num -> strat (list num))
  : strat (option (list num)) :=
  sbind (search draws max_tries estimates) (fun r =>
    match snd r with
    | O => Done None
    | S _ => sbind (negated (minimize (fst r))) (fun x => Done (Some x))
    end).
(** statistic.py 92-153 as such a computation (without prior trace) *)
Fixpoint sampler (step : list num) (burn : Z) (draws : nat -> draw) (m : mstate) (is : list nat) : strat mstate :=
  match is with
  | [] => Done m
  | i :: is' =>
    Ask (propose (m_scale m) (m_pos m) step (d_t (draws i)) ++ d_prior (draws i))
        (fun prob => sampler step burn draws (iterate (fun _ => prob) step burn draws m i) is')
  end.
(** parameter_set.py 302-316 *)
Definition metropolis_strat (start step : list num) (iterations burn : R) (draws : nat -> draw) : strat (list sample) :=
  Ask start (fun prob =>
    sbind (sampler step (burn_in iterations burn) draws (start_state (fun _ => prob) start [])
             (seq 0 (Z.to_nat (trunc iterations)))) (fun m => Done (m_trace m))).
(** pandas idxmax over the probability column (204): the first row with the largest value *)
Definition better (s t : sample) : sample := if (s_prob s <? s_prob t)%num then t else s.
(** parameter_set.py 201 *)
Definition idxmax (trace : list sample) : option sample :=
  match trace with [] => None | s :: l => Some (fold_left better l s) end.

(** what fit and metropolis do, parameter_set.py 250-324 *)
Inductive outcome A := Ok (a : A) | ValueError | Raised.
Arguments Ok {A}. Arguments ValueError {A}. Arguments Raised {A}.
Section Fit.
(** getLogProbability of the object [o] in a state; [names] are the names of the fitted parameters, [ord] is
    the iteration order of callback sets. *)
Context (lp : heapn -> num) (ord : list cb -> list cb) (o : oid) (names : list name).
(** set_fit_parameters(names, position): zip stops at the shorter list (parameter_set.py 260, 279, 283, 303) *)
Definition set_position (h : heapn) (position : list num) : res := set_fit wrapn ord h o (combine names position).
(** getLogProb (259-261) in a computation; None: a callback raised *)
Fixpoint heap_run {A} (h : heapn) (s : strat A) : heapn * option A :=
  match s with
  | Done a => (h, Some a)
  | Ask p k => let (h1, ok) := set_position h p in if ok then heap_run h1 (k (lp h1)) else (h1, None)
  end.
(** fit, 250-284; kwargs and the optimiser's bounds are part of [minimize] *)
Definition fit (h : heapn) (draws : nat -> list num) (estimates : list num) (minimize : list num -> strat (list num))
  : heapn * outcome (list num) :=
  match heap_run h (fit_strat draws estimates minimize) with
  | (h1, None) => (h1, Raised)
  | (h1, Some None) => (h1, ValueError)
  | (h1, Some (Some x)) => let (h2, ok) := set_position h1 x in (h2, if ok then Ok x else Raised)
  end.
(** metropolis, 286-324, without additional parameters: search, sampler, set_trace, set_to_mean (the row of
    largest probability; pandas raises ValueError for an empty trace) *)
Definition metropolis_method (h : heapn) (tries : nat -> list num) (start step : list num) (iterations burn : R)
  (draws : nat -> draw) : heapn * outcome (list sample) :=
  match heap_run h (sbind (search tries max_tries start) (fun r =>
          match snd r with
          | O => Done None
          | S _ => sbind (metropolis_strat (fst r) step iterations burn draws) (fun t => Done (Some t))
          end)) with
  | (h1, None) => (h1, Raised)
  | (h1, Some None) => (h1, ValueError)
  | (h1, Some (Some trace)) =>
    match idxmax trace with
    | None => (h1, ValueError)
    | Some s => let (h2, ok) := set_position h1 (s_pos s) in (h2, if ok then Ok trace else Raised)
    end
  end.
End Fit.
