(** * The sensor database and the exif tags: camera.py 54-94, 97-171 *)
Require Import Reals List Bool NArith String.
From Verif Require Import Num GpsString.
Import ListNotations.
Open Scope N_scope.

(** ** Python's str *)
(** camera.py 68-94 *)
Definition SEMI : N := 59.
(** camera.py 68-94 *)
Definition SPACE : N := 32.
(** camera.py 68-94 *)
Definition NL : N := 10.
(** camera.py 68-94 *)
Definition CR : N := 13.
(** s.replace(" ", ";", 1) (camera.py 68-94) *)
Fixpoint replace1 (a b : N) (s : str) : str :=
  match s with [] => [] | c :: t => if c =? a then b :: t else c :: replace1 a b t end.
(** camera.py 68-94 *)
Fixpoint startswith (p s : str) : bool :=
  match p, s with [], _ => true | a :: p', b :: s' => (a =? b) && startswith p' s' | _ :: _, [] => false end.
(** s.split(sep): at least one part (camera.py 68-94) *)
Fixpoint split (sep : N) (s : str) : list str :=
  match s with
  | [] => [[]]
  | c :: t => if c =? sep then [] :: split sep t
              else match split sep t with [] => [[c]] | w :: ws => (c :: w) :: ws end
  end.
(** Reading a text file: \r\n and \r become \n .. (open() and readlines(), camera.py 68-94). *)
Fixpoint universal (s : str) : str :=
  match s with
  | [] => []
  | c :: t => if c =? CR then match t with d :: t' => if d =? NL then NL :: universal t' else NL :: universal t | [] => [NL] end
              else c :: universal t
  end.
(** ... and readlines() splits after every \n (camera.py 68-94). *)
Fixpoint lines (s : str) : list str :=
  match s with
  | [] => []
  | c :: t => if c =? NL then [c] :: lines t
              else match lines t with [] => [[c]] | l :: ls => (c :: l) :: ls end
  end.

(** ** The database.  The working directory holds the file or not; [downloads] counts the requests. *)
(** camera.py 68-94 *)
Record world := World { file : option str; downloads : nat }.
(** What requests.get does when it is called: it returns a page (whatever its status code), or the call ends by an
    exception or with the process, [part] of the page being written then (camera.py 68-94). *)
Inductive answer := Page (s : str) | Stop (part : str).
(** camera.py 68-171 *)
Inductive outcome (A : Type) := Got (x : A) | Raised.
Arguments Got {A}. Arguments Raised {A}.

Section Float.
(** Python's float(str): None for a ValueError. *)
Variable float : str -> option num.
(** 79-94 *)
Fixpoint search (name : str) (data : list str) : outcome (option (num * num)) :=
  match data with
  | [] => Got None
  | line :: rest =>
    if startswith name line then
      let fields := split SEMI line in
      match nth_error fields 3, nth_error fields 4 with
      | Some a, Some b => match float a, float b with Some x, Some y => Got (Some (x, y)) | _, _ => Raised end
      | _, _ => Raised
      end
    else search name rest
  end.
(** 67-94.  [net] is only used if the file does not exist.  Encodings are not modelled; on writing, \n stays \n. *)
Definition getSensorFromDatabase (w : world) (net : answer) (model : str) : world * outcome (option (num * num)) :=
  let '(w, ok) :=
    match file w with
    | Some _ => (w, true)
    | None => match net with
              | Page s => (World (Some s) (S (downloads w)), true)
              | Stop part => (World (Some part) (S (downloads w)), false)
              end
    end in
  if ok then
    let data := lines (universal (match file w with Some s => s | None => [] end)) in
    (w, search (replace1 SPACE SEMI model ++ [SEMI]) data)
  else (w, Raised).

(** ** Exif.  A tag's value is a pair (numerator, denominator), something else (a number), or missing. *)
(** camera.py 142-171 *)
Inductive tag := TPair (a b : num) | TNum (x : num).
(** camera.py 142-171 *)
Record exif := Exif {
  x_focal : option tag; x_model : option str; x_width : option num; x_height : option num;
  x_xres : option tag; x_yres : option tag; x_unit : option N }.
(** int / int: ZeroDivisionError (camera.py 139-171) *)
Definition pydiv (a b : num) : outcome num := if neqb b (Fin 0) then Raised else Got (a / b)%num.
(** exif[...][0] / exif[...][1] (camera.py 139-171) *)
Definition ratio (t : option tag) : outcome num := match t with Some (TPair a b) => pydiv a b | _ => Raised end.
(** one statement after another; camera.py 139-171 *)
Definition bindo {A B} (x : outcome A) (f : A -> outcome B) : outcome B := match x with Got a => f a | Raised => Raised end.
(** a missing key raises, camera.py 139-171 *)
Definition key {A} (x : option A) : outcome A := match x with Some a => Got a | None => Raised end.
(** 158-160: size / (pixels per inch) * 25.4 *)
Definition plane (size : option num) (res : option tag) : outcome num :=
  bindo (key size) (fun n => bindo (ratio res) (fun r => bindo (pydiv n r) (fun q => Got (q * Fin (254 / 10))%num))).
(** 148-171, [info] = None if _getexif() returns None.  verbose is False (the printed text is not modelled).
    Without the database the local variable sensor_size is read before it is assigned. *)
Definition getCameraParametersFromExif (w : world) (net : answer) (info : option exif) (sensor_from_database : bool)
  : world * outcome (num * (num * num) * (num * num)) :=
  match info with
  | None => (w, Raised)
  | Some x =>
    match ratio (x_focal x) with
    | Raised => (w, Raised)
    | Got f =>
      if negb sensor_from_database then (w, Raised) (* UnboundLocalError *)
      else
        match x_model x with
        | None => (w, Raised)
        | Some model =>
          let '(w, r) := getSensorFromDatabase w net model in
          (w,
           bindo r (fun found =>
           bindo (match found with
                  | Some s => Got s
                  | None => bindo (plane (x_width x) (x_xres x)) (fun a => bindo (plane (x_height x) (x_yres x)) (fun b => Got (a, b)))
                  end) (fun sensor =>
           bindo (key (x_width x)) (fun a => bindo (key (x_height x)) (fun b => Got (f, sensor, (a, b)))))))
        end
    end
  end.
(** A history of lookups (camera.py 54-94) *)
Fixpoint lookups (w : world) (evs : list (answer * str)) : world * list (outcome (option (num * num))) :=
  match evs with
  | [] => (w, [])
  | (n, m) :: rest => let '(w1, r) := getSensorFromDatabase w n m in let '(w2, rs) := lookups w1 rest in (w2, r :: rs)
  end.
End Float.
