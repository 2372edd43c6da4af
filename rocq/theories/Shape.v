(** * Shape patterns: string_to_shape and ensure_array_format (utils.py 3-36) *)
Require Import List Bool NArith.
From Verif Require Import GpsString.
Import ListNotations.
Open Scope N_scope.

(** ** string_to_shape, utils.py 3-12 *)
(** s.split("x") (utils.py 4-12) *)
Fixpoint split_x (s : str) : list str :=
  match s with
  | [] => [[]]
  | c :: t => if c =? 120 then [] :: split_x t
              else match split_x t with p :: ps => (c :: p) :: ps | [] => [[c]] end
  end.
(** An entry of a shape: a number, or a text (utils.py 4-12). *)
Inductive item := INum (n : N) | IStr (s : str).
(** int(part) or the text itself.  Only decimal digits are read as numbers here; the blanks, signs and
    underscores that Python's int also accepts are left out (utils.py 4-12). *)
Definition classify (p : str) : item :=
  match p with [] => IStr [] | _ => if forallb is_digit p then INum (value p) else IStr p end.
(** utils.py 3-12 *)
Definition string_to_shape (s : str) : list item := map classify (split_x s).
(** utils.py 15-36 *)
Definition DOTS : str := [46; 46; 46].
(** utils.py 15-36 *)
Definition is_dots (i : item) : bool := match i with IStr s => str_eqb s DOTS | INum _ => false end.

(** ** ensure_array_format, utils.py 14-36 *)
(** An array: its shape and its contents (of any kind) (utils.py 15-36). *)
Record arr (A : Type) := Arr { shp : list N; data : A }.
Arguments Arr {A}. Arguments shp {A}. Arguments data {A}.
(** utils.py 15-36 *)
Inductive eres (A : Type) := EOk (x : A) | EValueError | EAssertion | EIndex.
Arguments EOk {A}. Arguments EValueError {A}. Arguments EAssertion {A}. Arguments EIndex {A}.
(** number_lookup: a dict (utils.py 15-36) *)
Fixpoint get (l : list (str * N)) (k : str) : option N :=
  match l with [] => None | (k', v) :: l' => if str_eqb k k' then Some v else get l' k end.
(** The loop 25-35, from the last entry to the first; [ds] is the shape reversed, so its head is
    p.shape[i].  p.shape[i] beyond the first dimension is an IndexError. *)
Fixpoint walk (lookup : list (str * N)) (ps : list item) (ds : list N) : eres unit :=
  match ps with
  | [] => EOk tt
  | p :: ps =>
      if is_dots p then EOk tt
      else match p, ds with
           | _, [] => EIndex
           | IStr s, d :: ds =>
               match get lookup s with
               | Some n => if n =? d then walk ((s, d) :: lookup) ps ds else EAssertion
               | None => walk ((s, d) :: lookup) ps ds
               end
           | INum n, d :: ds => if d =? n then walk lookup ps ds else EAssertion
           end
  end.
(** utils.py 15-36 *)
Definition ensure1 {A} (pat : list item) (p : arr A) : eres (arr A) :=
  match pat with
  | [] => EIndex (* shape[0] *)
  | i :: _ => if negb (is_dots i) && negb (Nat.eqb (List.length (shp p)) (List.length pat)) then EValueError
              else match walk [] (rev pat) (rev (shp p)) with
                   | EOk _ => EOk p
                   | EValueError => EValueError | EAssertion => EAssertion | EIndex => EIndex
                   end
  end.
(** with additional arrays: 15-20 *)
Definition shape_eqb (a b : list N) : bool := str_eqb a b.
(** utils.py 15-36 *)
Fixpoint ensure_all {A} (pat : list item) (l : list (arr A)) : eres (list (arr A)) :=
  match l with
  | [] => EOk []
  | a :: l => match ensure1 pat a with
              | EOk a' => match ensure_all pat l with EOk l' => EOk (a' :: l') | e => e end
              | EValueError => EValueError | EAssertion => EAssertion | EIndex => EIndex
              end
  end.
(** utils.py 14-36 *)
Definition ensure_many {A} (pat : list item) (p : arr A) (more : list (arr A)) : eres (list (arr A)) :=
  if forallb (fun a => shape_eqb (shp a) (shp p)) (p :: more) then ensure_all pat (p :: more) else EAssertion.
