(** * The random steps of statistic.py 32-65: normal and normal_bounded *)
Require Import Reals List Bool.
From Verif Require Import Num.
Import ListNotations.
Open Scope R_scope.

(** One coordinate of [position + step]: the limits and the width of the step (the attributes of the step object,
    53-56, each a number or an array broadcast over the position) and the position. *)
Record coord := Coord { c_lo : num; c_hi : num; c_sigma : num; c_at : num }.

(** 60, 62: (self.min-other)/self.sigma and (self.max-other)/self.sigma *)
Definition c_a (c : coord) : num := ((c_lo c - c_at c) / c_sigma c)%num.
(** statistic.py 58-62 *)
Definition c_b (c : coord) : num := ((c_hi c - c_at c) / c_sigma c)%num.

(** scipy.stats' rv_generic.rvs refuses (ValueError "Domain error in arguments") unless everywhere truncnorm's
    _argcheck a < b holds and scale >= 0 (statistic.py 58-62). *)
Definition c_accepts (c : coord) : bool := (c_a c <? c_b c)%num && (Fin 0 <=? c_sigma c)%num.

(** The values of the standard truncated normal distribution (truncnorm._rvs), drawn coordinate by coordinate
    (statistic.py 58-62) *)
Definition sampler := nat -> num -> num -> num.
(** rvs: vals * scale + loc (statistic.py 58-62) *)
Fixpoint rvs_from (s : sampler) (i : nat) (cs : list coord) : list num :=
  match cs with
  | [] => []
  | c :: cs => (s i (c_a c) (c_b c) * c_sigma c + c_at c)%num :: rvs_from s (S i) cs
  end.
(** truncnorm.rvs(a, b, loc, scale, size): the position times ones if every scale is zero (statistic.py 58-62) *)
Definition truncnorm_rvs (s : sampler) (cs : list coord) : option (list num) :=
  if forallb c_accepts cs then
    Some (if forallb (fun c => neqb (c_sigma c) (Fin 0)) cs then map (fun c => (c_at c * Fin 1)%num) cs
          else rvs_from s 0 cs)
  else None.

(** normal_bounded.__add__ of an array, 58-60, and __radd__, 64-65, which is the same: numpy's arithmetic *)
Definition bounded_add (s : sampler) (cs : list coord) : option (list num) := truncnorm_rvs s cs.
(** normal_bounded.__add__ of a python number, which has no attribute shape: line 60 first forms a and b, so that a
    sigma of zero raises ZeroDivisionError before the shape is looked at; then 61-62. *)
Definition bounded_add_number (s : sampler) (c : coord) : option num :=
  if neqb (c_sigma c) (Fin 0) then None
  else match truncnorm_rvs s [c] with Some [y] => Some y | _ => None end.

(** normal.__add__, 39-43, and __radd__, 45-46: np.random.normal(other, sigma, other.shape) refuses a scale whose
    sign bit is set (ValueError "scale < 0"; -0.0 too, NaN not) and gives loc + scale * z for standard normal values
    z; a number is an array of one entry. *)
Definition sign_bit (x : num) : bool :=
  match look x with VNaN => false | VInf s => s | VFin _ s => s end.
(** statistic.py 39-43 *)
Fixpoint normal_from (z : nat -> num) (i : nat) (sigma : num) (xs : list num) : list num :=
  match xs with [] => [] | x :: xs => (x + sigma * z i)%num :: normal_from z (S i) sigma xs end.
(** statistic.py 39-46 *)
Definition normal_add (z : nat -> num) (sigma : num) (xs : list num) : option (list num) :=
  if sign_bit sigma then None else Some (normal_from z 0 sigma xs).

(** A random walk: at every step the position is replaced by position + step, as
    [pos = pos + normal_bounded(sigma, min, max)] in a loop does.  [limits] are the limits and the widths
    (statistic.py 53-56). *)
Definition place (limits : list (num * num * num)) (xs : list num) : list coord :=
  map (fun p => let '(lo, hi, sigma, x) := p in Coord lo hi sigma x) (combine limits xs).
(** statistic.py 58-65, one step after another *)
Fixpoint walk (draws : nat -> sampler) (limits : list (num * num * num)) (n : nat) (xs : list num) : option (list num) :=
  match n with
  | O => Some xs
  | S n => match walk draws limits n xs with
           | Some ys => bounded_add (draws n) (place limits ys)
           | None => None
           end
  end.
