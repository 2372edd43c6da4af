(** * Sampled traces: ClassWithParameterSet.sample and set_to_mean with a trace (parameter_set.py 181-216) *)
Require Import Reals List Bool String ZArith Arith.
From Verif Require Import Num Param PropParam Metropolis Fit.
Import ListNotations.

(** A pandas frame: the index labels, the names of the columns before "probability", and the rows
    (parameter_set.py 318-322). *)
Record frame := Frame { f_index : list nat; f_names : list name; f_rows : list sample }.
(** pd.DataFrame(trace, columns=...), 319: the labels count from 0 *)
Definition frame_of (names : list name) (trace : list sample) : frame := Frame (seq 0 (List.length trace)) names trace.
(** frame.loc[label]: None stands for the KeyError of a missing label, and for a label that occurs more than once,
    where pandas gives a frame instead of a row (the parameters would become Series) (parameter_set.py 181-213). *)
Definition row_at (f : frame) (label : nat) : option sample :=
  match filter (fun p => Nat.eqb (fst p) label) (combine (f_index f) (f_rows f)) with
  | [(_, s)] => Some s
  | _ => None
  end.
(** trace["probability"].idxmax(): the label of the first largest value; nan is skipped.  None: there is none
    (ValueError for an empty trace, for nan only a label that is not found) (parameter_set.py 197-213). *)
Definition best_label (f : frame) : option nat :=
  option_map fst (fold_left (fun b p =>
    if nisnan (s_prob (snd p)) then b else
    match b with
    | None => Some p
    | Some q => if (s_prob (snd q) <? s_prob (snd p))%num then Some p else b
    end) (combine (f_index f) (f_rows f)) None).

Section Trace.
(** [ord] is the iteration order of callback sets, [o] the object *)
Context (ord : list cb -> list cb) (o : oid).
(** set_fit_parameters(parameter_set.keys(), parameter_set.values()), 186 and 207, without the probability *)
Definition set_frame_row (h : heapn) (f : frame) (s : sample) : res := set_fit wrapn ord h o (combine (f_names f) (s_pos s)).
(** sample, 182-187: [r] is np.random.randint(len(trace)), used as a label; an empty trace is a ValueError *)
Definition trace_sample (h : heapn) (f : frame) (r : nat) : heapn * outcome num :=
  match f_rows f with
  | [] => (h, ValueError)
  | _ => match row_at f r with
         | Some s => let (h1, ok) := set_frame_row h f s in (h1, if ok then Ok (s_prob s) else Raised)
         | None => (h, Raised)
         end
  end.
(** set_to_mean, 198-207; the printing is left out *)
Definition trace_mean (h : heapn) (f : frame) : heapn * outcome unit :=
  match f_rows f, best_label f with
  | [], _ => (h, ValueError)
  | _, Some l => match row_at f l with
                 | Some s => let (h1, ok) := set_frame_row h f s in (h1, if ok then Ok tt else Raised)
                 | None => (h, Raised)
                 end
  | _, None => (h, Raised)
  end.
(** The calls a user makes on a camera with a trace, one after the other (parameter_set.py 181-213) *)
Inductive trace_op := TSample (r : nat) | TMean.
(** parameter_set.py 181-213 *)
Definition trace_step (f : frame) (h : heapn) (op : trace_op) : heapn :=
  match op with TSample r => fst (trace_sample h f r) | TMean => fst (trace_mean h f) end.
(** parameter_set.py 181-213 *)
Definition trace_run (f : frame) (h : heapn) (ops : list trace_op) : heapn := fold_left (trace_step f) ops h.
End Trace.
