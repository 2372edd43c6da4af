(** * The Metropolis sampler: statistic.py 68-159 *)
Require Import Reals List Bool ZArith.
From Verif Require Import Num.
Import ListNotations.
Open Scope R_scope.

(** The random draws of one iteration: the row of the prior trace (empty without prior trace), the
    sample of the truncated normal distribution (one entry per coordinate), and np.random.rand()
    (statistic.py 101-116). *)
Record draw := Draw { d_prior : list num; d_t : list num; d_r : num }.
(** A row of the returned trace (127): position, prior row, log probability. *)
Record sample := Sample { s_pos : list num; s_prior : list num; s_prob : num }.
(** The local variables of the loop.  [scale] stays a positive real number (statistic.py 69-159). *)
Record mstate := MState
  { m_pos : list num; m_prob : num; m_acc : nat; m_rej : nat; m_scale : R; m_trace : list sample }.

(** 69-72: int() truncates *)
Definition trunc (x : R) : Z := if Rltb x 0 then (- Rfloor (- x))%Z else Rfloor x.
(** statistic.py 69-159 *)
Definition burn_in (iterations burn : R) : Z := if Rltb burn 1 then trunc (iterations * burn) else trunc burn.

(** 108: last_pos + adaptive_scale_factor * step * t, coordinate by coordinate *)
Fixpoint propose (scale : R) (pos step t : list num) : list num :=
  match pos, step, t with
  | p :: pos, s :: step, t :: ts => (p + Fin scale * s * t)%num :: propose scale pos step ts
  | _, _, _ => []
  end.
(** 112-117: the acceptance test *)
Definition accepts (next last r : num) : bool :=
  let ratio := if nisinf next && nisinf last then Fin 0 else (next - last)%num in
  (Fin 0 <=? ratio)%num || (r <? nexp ratio)%num.
(** 131-149: the new scale factor *)
Definition tune (acc rej : nat) (scale : R) : R :=
  let rate := INR acc / INR (acc + rej) in
  if Rltb rate 0.001 then scale * 0.1
  else if Rltb rate 0.05 then scale * 0.5
  else if Rltb rate 0.2 then scale * 0.9
  else if Rltb 0.95 rate then scale * 10
  else if Rltb 0.75 rate then scale * 2
  else if Rltb 0.5 rate then scale * 1.1
  else scale.

Section Run.
(** getLogProb, taken as a function of the position *)
Context (lp : list num -> num) (step : list num) (burn : Z) (draws : nat -> draw).
(** One pass of the loop, 99-153; progress bar left out *)
Definition iterate (m : mstate) (i : nat) : mstate :=
  let d := draws i in
  let next_pos := propose (m_scale m) (m_pos m) step (d_t d) in
  let next_prob := lp (next_pos ++ d_prior d) in
  let ok := accepts next_prob (m_prob m) (d_r d) in
  let pos := if ok then next_pos else m_pos m in
  let prob := if ok then next_prob else m_prob m in
  let acc := if ok then S (m_acc m) else m_acc m in
  let rej := if ok then m_rej m else S (m_rej m) in
  if (burn <? Z.of_nat i)%Z
  then MState pos prob acc rej (m_scale m) (m_trace m ++ [Sample pos (d_prior d) prob])
  else if (Nat.ltb 100 i && Nat.eqb (Nat.modulo i 100) 0)
  then MState pos prob 0 0 (tune acc rej (m_scale m)) (m_trace m)
  else MState pos prob acc rej (m_scale m) (m_trace m).
(** 92-94: the start; [prior] is the first row drawn from the prior trace *)
Definition start_state (start prior : list num) : mstate :=
  MState start (lp (start ++ prior)) 0 0 1 [].
(** statistic.py 69-159 *)
Definition run_loop (m : mstate) (is : list nat) : mstate := fold_left iterate is m.
End Run.
(** metropolis(getLogProb, start, step, iterations, burn): the trace (statistic.py 68-159) *)
Definition metropolis (lp : list num -> num) (start step : list num) (iterations burn : R) (prior : list num)
  (draws : nat -> draw) : list sample :=
  m_trace (run_loop lp step (burn_in iterations burn) draws (start_state lp start prior)
             (seq 0 (Z.to_nat (trunc iterations)))).
(** What the truncated normal distribution returns (108): every coordinate between
    (lower - last_pos) / step and (upper - last_pos) / step. *)
Fixpoint in_bounds (ranges : list (num * num)) (pos step t : list num) : Prop :=
  match ranges, pos, step, t with
  | (lo, hi) :: ranges, p :: pos, s :: step, t :: ts =>
      ((lo - p) / s <=? t)%num = true /\ (t <=? (hi - p) / s)%num = true /\ in_bounds ranges pos step ts
  | [], [], [], [] => True
  | _, _, _, _ => False
  end.
