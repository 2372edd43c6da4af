(** * gpsFromString for lists, tuples and heights: gps.py 197-278 *)
Require Import Reals List Bool String NArith QArith Qreals.
From Verif Require Import GpsString Num.
Import ListNotations.
Open Scope nat_scope.

(** The argument gps_string: a str, a float or int, or a list or tuple of such arguments.  (numpy integers and booleans
    are left out.) (gps.py 197, 241-249) *)
Inductive input := IStr (s : str) | INum (x : num) | IList (l : list input).
(** The argument height (gps.py 197) *)
Inductive height := HNone | HNum (x : num) | HList (l : list num).

(** numpy arrays as nested lists; a cell is a number or None (dtype object).  A float and a result of None are the
    arrays without axes (gps.py 249-254, 268-270). *)
Inductive nd := Cell (c : option num) | Rows (l : list nd).
(** gps.py 244, 268-270 *)
Definition number (x : num) : nd := Cell (Some x).
(** gps.py 249, 254 *)
Fixpoint shape (a : nd) : list nat :=
  match a with
  | Cell _ => []
  | Rows [] => [0]
  | Rows ((r :: _) as l) => List.length l :: shape r
  end.
(** gps.py 249, 254 *)
Definition shape_eqb (s t : list nat) : bool := if list_eq_dec Nat.eq_dec s t then true else false.
(** np.array(l); entries of different shapes are a ValueError (numpy >= 2.3.1, pyproject.toml) (gps.py 249) *)
Definition np_array (l : list nd) : option nd :=
  match l with
  | [] => Some (Rows [])
  | a :: l' => if forallb (fun b => shape_eqb (shape b) (shape a)) l' then Some (Rows l) else None
  end.
(** 250-254: np.hstack((data, [height])), which joins along the first axis if data has one axis and along the second
    otherwise; the number of axes and the other axes have to agree *)
Definition add_height (data : nd) (h : height) : option nd :=
  match h with
  | HNone => Some data
  | HNum x => match data, shape data with
              | Rows l, [_] => Some (Rows (l ++ [number x]))
              | _, _ => None
              end
  | HList hs => match data, shape data with
                | Rows [Rows r], [_; _] => Some (Rows [Rows (r ++ map number hs)])
                | _, _ => None
                end
  end.
(** 255-278: a str.  A single coordinate is returned without the height. *)
Definition of_string (s : str) (h : height) : option nd :=
  match gpsFromString s with
  | GPair a b => let gps := [number (Fin (Q2R a)); number (Fin (Q2R b))] in
                 match h with
                 | HNone => np_array gps
                 | HNum x => np_array (gps ++ [number x])
                 | HList hs => np_array (gps ++ [Rows (map number hs)])
                 end
  | GSingle v => Some (number (Fin (Q2R v)))
  | GNone => Some (Cell None)
  | GValueError => None
  end.
(** a call that raises, gps.py 247-254 *)
Definition obind {A B} (x : option A) (f : A -> option B) : option B := match x with Some a => f a | None => None end.
(** 241-254 and 255-278; [None] is a ValueError *)
Fixpoint gps_from (i : input) (h : height) : option nd :=
  match i with
  | INum x => Some (number x)
  | IStr s => of_string s h
  | IList l =>
    match l with
    | [IStr s; INum x] => of_string s (HNum x)
    | _ => obind ((fix each (l : list input) : option (list nd) :=
                     match l with
                     | [] => Some []
                     | i :: l => obind (gps_from i HNone) (fun a => obind (each l) (fun r => Some (a :: r)))
                     end) l)
             (fun rs => obind (np_array rs) (fun data => add_height data h))
    end
  end.
