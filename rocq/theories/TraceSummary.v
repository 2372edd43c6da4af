(** * The summary and the plot of a trace: statistic.py 27-30, 161-253, parameter_set.py 369-385 *)
Require Import Reals List Bool String ZArith Arith NArith.
From Verif Require Import Num GpsString LogProb Metropolis Trace.
Import ListNotations.
Open Scope R_scope.

(** statistic.py 161-253 *)
Inductive result (A : Type) := Value (a : A) | Raises.
Arguments Value {A}. Arguments Raises {A}.

(** math.log10 of a positive number *)
Definition log10 (y : R) : R := ln y / ln 10.
(** 28: -int(floor(log10(abs(y)))); math.log10(0) and floor(nan) are ValueErrors, floor(inf) is an OverflowError *)
Definition digits (y : num) : result Z :=
  match look y with
  | VFin r _ => if Reqb r 0 then Raises else Value (- Rfloor (log10 (Rabs r)))%Z
  | _ => Raises
  end.
(** round(x, d) of a numpy float: np.rint(x * 10 ** d) / 10 ** d, half to even.  The sign of a zero is left out. *)
Definition rint (x : R) : Z := if Rltb x 0 then (- Z.of_N (half_even (- x)))%Z else Z.of_N (half_even x).
(** statistic.py 27-29 *)
Definition round_to (x : num) (d : Z) : num :=
  match look x with
  | VFin r _ => Fin (IZR (rint (r * powerRZ 10 d)) / powerRZ 10 d)
  | _ => x
  end.
(** 27-29: the two numbers that are printed with "±" between them; str() of a float is read back as the float *)
Definition print_mean_std (x y : num) : result (num * num) :=
  match digits y with
  | Value d => Value (round_to x d, round_to y (1 + d))
  | Raises => Raises
  end.

(** np.mean and np.std of a pandas column: Series.mean() and Series.std(ddof=0), which skip nan (statistic.py
    27-29, 246-253) *)
Definition present (data : list num) : list num := filter (fun x => negb (nisnan x)) data.
(** statistic.py 246-253 *)
Definition mean (data : list num) : num :=
  match present data with [] => NaN | l => (nsum l / Fin (INR (List.length l)))%num end.
(** statistic.py 246-253 *)
Definition std (data : list num) : num :=
  match present data with
  | [] => NaN
  | l => nsqrt (nsum (map (fun x => let d := (x - mean data)%num in (d * d)%num) l) / Fin (INR (List.length l)))%num
  end.
(** printTraceSummary, 246-253: the lines printed before an exception, and whether there is one.  [logarithmic] is
    False (None) or a list (or dict by position) of bools; a missing entry raises. *)
Definition column := (string * list num)%type.
(** statistic.py 27-29 *)
Definition line := (string * (num * num))%type.
(** statistic.py 247-253 *)
Fixpoint summary_lines (index : nat) (logarithmic : option (list bool)) (cols : list column) : list line * bool :=
  match cols with
  | [] => ([], true)
  | (name, data) :: cols =>
    match (match logarithmic with
           | None => Some data
           | Some l => match nth_error l index with
                       | Some true => Some (map nexp data)
                       | Some false => Some data
                       | None => None
                       end
           end) with
    | None => ([], false)
    | Some data =>
      match print_mean_std (mean data) (std data) with
      | Raises => ([], false)
      | Value p => let (ls, ok) := summary_lines (S index) logarithmic cols in ((name, p) :: ls, ok)
      end
    end
  end.
(** trace.columns[:-1] (statistic.py 246-253) *)
Definition printTraceSummary (logarithmic : option (list bool)) (cols : list column) : list line * bool :=
  summary_lines 0 logarithmic (removelast cols).

(** plotTrace, 161-243: for every drawn column its name, the red line at the most probable sample and the black line at
    the mean; the curves are left out (an exception of the density estimate is caught).  [n] is the argument N; without
    show_mean_median no line is drawn. *)
Definition column_at (f : frame) (i : nat) : list num := map (fun s => nth i (s_pos s) NaN) (f_rows f).
(** statistic.py 162-243, parameter_set.py 369-373 *)
Definition plotTrace (n : option nat) (f : frame) : result (list (string * num * num)) :=
  match best_label f with
  | None => Raises
  | Some k =>
    match row_at f k with
    | None => Raises
    | Some s =>
      let n := match n with Some n => n | None => List.length (f_names f) end in
      Value (map (fun p => (snd p, nth (fst p) (s_pos s) NaN, mean (column_at f (fst p))))
               (filter (fun p => negb (Z.ltb (Z.of_nat n - 1) (Z.of_nat (fst p)))) (combine (seq 0 (List.length (f_names f))) (f_names f))))
    end
  end.
