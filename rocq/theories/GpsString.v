(** * GPS strings: formatGPS, processDegree, gpsFromString (gps.py 26-278) *)
Require Import Reals List Bool NArith ZArith QArith String Ascii.
From Verif Require Import Num.
Import ListNotations.
Open Scope N_scope.

(** A Python str is a list of code points (python str; gps.py 84-278 uses nothing but its characters). *)
Definition str := list N.
(** a literal of gps.py 87 *)
Definition text (s : string) : str := map N_of_ascii (list_ascii_of_string s).
(** the degree sign of gps.py 87, 255-257 *)
Definition DEG : N := 176.    (* the degree sign *)
(** == of strings, gps.py 125, 129 *)
Definition str_eqb (a b : str) : bool := if list_eq_dec N.eq_dec a b then true else false.

(** ** Character classes of the regular expressions.  [\s] is complete; of [\d] (and of float())
    only the ASCII digits are modelled, not the digits of other scripts. *)
(** [\d] of gps.py 89, 255-257 *)
Definition is_digit (c : N) : bool := (48 <=? c) && (c <=? 57).
(** [\s] of gps.py 255-259, 273 *)
Definition is_space (c : N) : bool :=
  existsb (N.eqb c) [32; 133; 160; 5760; 8232; 8233; 8239; 8287; 12288]
  || ((9 <=? c) && (c <=? 13)) || ((28 <=? c) && (c <=? 31)) || ((8192 <=? c) && (c <=? 8202)).
(** the point of gps.py 255-257 *)
Definition is_dot (c : N) : bool := c =? 46.
(** [+-] of gps.py 255-257 *)
Definition is_sign (c : N) : bool := (c =? 43) || (c =? 45).

(** ** Decimal numerals *)
(** python's decimal digits of an int, for % in gps.py 125, 129, 149 *)
Fixpoint dec_fuel (f : nat) (n : N) : str :=
  match f with
  | O => []
  | S f' => if n <? 10 then [48 + n] else dec_fuel f' (n / 10) ++ [48 + n mod 10]
  end.
(** the digits of an int, for % in gps.py 125, 129, 149 *)
Definition dec (n : N) : str := dec_fuel (S (N.to_nat (N.size n))) n.
(** exactly [k] digits (for % in gps.py 125, 129, 149) *)
Fixpoint digs (k : nat) (n : N) : str :=
  match k with O => [] | S k' => digs k' (n / 10) ++ [48 + n mod 10] end.
(** for % in gps.py 125, 129, 149, and for float() in 179-188 *)
Definition pow10 (k : nat) : N := 10 ^ N.of_nat k.
(** n / 10^k with k decimals (for % in gps.py 125, 129, 149) *)
Definition fixed (k : nat) (n : N) : str :=
  match k with O => dec n | _ => dec (n / pow10 k) ++ 46 :: digs k (n mod pow10 k) end.

(** ** Python's % operator (for the placeholders formatGPS can produce) *)
(** [sdf] of gps.py 89 *)
Inductive kind := KS | KD | KF.
(** a placeholder of gps.py 89 *)
Record spec := Spec { zero : bool; width : nat; prec : option nat; knd : kind }.
(** [sdf] of gps.py 89 *)
Definition kind_of (c : N) : option kind :=
  if c =? 115 then Some KS else if c =? 100 then Some KD else if c =? 102 then Some KF else None.
(** [.\d] of gps.py 89 *)
Definition is_dotdig (c : N) : bool := is_dot c || is_digit c.
(** a greedy run of characters, gps.py 89 *)
Fixpoint span (p : N -> bool) (s : str) : str * str :=
  match s with
  | c :: t => if p c then let '(a, b) := span p t in (c :: a, b) else ([], s)
  | [] => ([], [])
  end.
(** the int that digits stand for, gps.py 89 and float() in 179-188 *)
Definition value (s : str) : N := fold_left (fun a c => 10 * a + (c - 48)) s 0.
(** ... as a width or precision, gps.py 89 *)
Definition nat_value (s : str) : nat := N.to_nat (value s).
(** flags 0, width, .precision; anything else raises (python's reading of a placeholder of gps.py 89) *)
Definition parse_spec (a : str) (k : kind) : option spec :=
  let '(z, r) := span (N.eqb 48) a in
  let '(w, r) := span is_digit r in
  let zf := negb (str_eqb z []) in
  match r with
  | [] => Some (Spec zf (nat_value w) None k)
  | c :: r' => if is_dot c then
                 let '(p, q) := span is_digit r' in
                 match q with [] => Some (Spec zf (nat_value w) (Some (nat_value p)) k) | _ => None end
               else None
  end.
(** what fills a placeholder, gps.py 138-147 *)
Inductive val := VNum (x : R) | VText (s : str).
(** padding to the width, gps.py 149 *)
Definition pad (c : N) (w : nat) (s : str) : str := repeat c (w - List.length s) ++ s.
(** sign and padding of a number, gps.py 149 *)
Definition signed (zf : bool) (w : nat) (neg : bool) (body : str) : str :=
  let sign := if neg then [45] else [] in
  if zf then sign ++ pad 48 (w - List.length sign) body else pad 32 w (sign ++ body).
(** int(x): truncation; round half to even, as the C library prints a binary fraction (gps.py 149) *)
Definition Rneg (x : R) : bool := Rltb x 0.
(** %d, gps.py 149 *)
Definition truncN (x : R) : N := Z.to_N (Rfloor (Rabs x)).
(** %f, gps.py 149 *)
Definition half_even (x : R) : N :=
  let f := Rfloor x in
  Z.to_N (if Rltb (x - IZR f) (1 / 2) then f
          else if Rltb (1 / 2) (x - IZR f) then f + 1
          else if Z.even f then f else f + 1)%Z.
(** one placeholder of format % tuple(fills), gps.py 149 *)
Definition convert (s : spec) (v : val) : option str :=
  match knd s, v with
  | KS, VText t => Some (pad 32 (width s) (match prec s with Some p => firstn p t | None => t end))
  | KD, VNum x => Some (signed (zero s) (width s) (Rneg x && negb (truncN x =? 0))
                          (pad 48 (match prec s with Some p => p | None => 0 end) (dec (truncN x))))
  | KF, VNum x => let k := match prec s with Some p => p | None => 6%nat end in
                  Some (signed (zero s) (width s) (Rneg x) (fixed k (half_even (Rabs x * 10 ^ k))))
  | _, _ => None
  end.
(** fmt % tuple(vs), from left to right; [st] holds what was read of an open placeholder.  None: it
    raises (conversion flags other than 0 do not occur in the placeholders of formatGPS and are
    left out) (gps.py 125, 129, 149). *)
Fixpoint percent (st : option str) (fmt : str) (vs : list val) : option str :=
  match fmt with
  | [] => match st, vs with None, [] => Some [] | _, _ => None end
  | c :: t =>
    match st with
    | None => if c =? 37 then percent (Some []) t vs else option_map (cons c) (percent None t vs)
    | Some a =>
      if is_dotdig c then percent (Some (a ++ [c])) t vs
      else match kind_of c with
           | Some k => match parse_spec a k, vs with
                       | Some s, v :: vs' => match convert s v, percent None t vs' with
                                             | Some u, Some w => Some (u ++ w)
                                             | _, _ => None
                                             end
                       | _, _ => None
                       end
           | None => if (c =? 37) && str_eqb a [] then option_map (cons 37) (percent None t vs) else None
           end
    end
  end.

(** ** formatGPS, gps.py 83-157 *)
(** re.findall of (%[.\d]*[sdf]): the placeholders, as the characters between the % and the kind, and
    the kind.  The characters after the % are not skipped here, they contain no % themselves (gps.py 89). *)
Fixpoint findall (fmt : str) : list (str * kind) :=
  match fmt with
  | [] => []
  | c :: t => if c =? 37 then
                let '(a, r) := span is_dotdig t in
                match r with
                | k :: _ => match kind_of k with
                            | Some k' => (a, k') :: findall t
                            | None => findall t
                            end
                | [] => findall t
                end
              else findall t
  end.
(** gps.py 89 *)
Definition kind_char (k : kind) : N := match k with KS => 115 | KD => 100 | KF => 102 end.
(** a placeholder as text, gps.py 89, 99 *)
Definition entry (e : str * kind) : str := 37 :: fst e ++ [kind_char (snd e)].
(** gps.py 91, 112, 149, 157 *)
Inductive fout := FOk (s : str) | FValueError | FPercent.
(** gps.py 100, 143 *)
Definition is_s (e : str * kind) : bool := match snd e with KS => true | _ => false end.
Open Scope R_scope.
(** gps.py 120, 122 *)
Definition mod60 (x : R) : R := x - 60 * IZR (Rfloor (x / 60)).
(** if fmt is not None and fmt % v == fmt % 60 (gps.py 125, 129) *)
Definition rounds_up (e : option (str * kind)) (v : R) : option bool :=
  match e with
  | None => Some false
  | Some e => match percent None (entry e) [VNum v], percent None (entry e) [VNum 60] with
                   | Some a, Some b => Some (str_eqb a b)
                   | _, _ => None
                   end
  end.
(** the values to fill, in the order of the placeholders (gps.py 138-147) *)
Fixpoint fills (m : list (str * kind)) (letter : str) (vs : list R) : list val :=
  match m with
  | [] => []
  | e :: m' => if is_s e then VText letter :: fills m' letter vs
               else match vs with v :: vs' => VNum v :: fills m' letter vs' | [] => [] end
  end.
(** fmt_mins, fmt_sec: gps.py 96-110 *)
Definition take {A} (n : nat) (l : list A) : option A := nth_error l n.
(** one coordinate; [letters] are the two hemisphere letters (gps.py 89-149) *)
Definition format_one (fmt : str) (letters : N * N) (x : R) : fout :=
  let m := findall fmt in
  let nums := filter (fun e => negb (is_s e)) m in
  let use_letter := existsb is_s m in
  match m with
  | [] => FValueError
  | _ => if Nat.ltb 3 (List.length nums) then FValueError else
    let neg := Rneg x in
    let degs := Rabs x in
    let mins := mod60 (degs * 60) in
    let secs := mod60 (mins * 60) in
    match rounds_up (take 2 nums) secs with
    | None => FPercent
    | Some up =>
      let mins := if up then mins + 1 else mins in
      let secs := if up then 0 else secs in
      match rounds_up (take 1 nums) mins with
      | None => FPercent
      | Some up' =>
        let degs := if up' then degs + 1 else degs in
        let mins := if up' then 0 else mins in
        let degs := if negb use_letter && neg then - degs else degs in
        match percent None fmt (fills m [if neg then snd letters else fst letters] [degs; mins; secs]) with
        | Some s => FOk s
        | None => FPercent
        end
      end
    end
  end.
(** gps.py 115 *)
Definition NS : N * N := (78, 83)%N.
(** gps.py 115 *)
Definition EW : N * N := (69, 87)%N.
(** asLatex replaces the degree sign by itself (line 151) and is left out (gps.py 87; asLatex: 151-152). *)
Definition default_format : str := (text "%2d" ++ [DEG] ++ text " %2d' %6.3f"" %s")%list.
(** gps.py 83-157 *)
Definition formatGPS (lat lon : R) (fmt : option str) : fout * fout :=
  let f := match fmt with Some f => f | None => default_format end in
  (format_one f NS lat, format_one f EW lon).

(** ** Backtracking regular expressions: all ways to match a prefix, in the order in which Python's
    re tries them.  Repetition is over single characters only, as in the patterns of gps.py. *)
(** the prefixes of the group names, gps.py 259, 273 *)
Inductive who := Single | Lat | Lon.
(** the group names of gps.py 255-259, 273 *)
Inductive fld := Deg | Min | Sec | Sign.
(** a group name, gps.py 255-259, 273 *)
Definition key := (who * fld)%type.
(** the syntax used in gps.py 255-259, 273 *)
Inductive re :=
| One (p : N -> bool)
| Lit (s : str)
| Star (p : N -> bool)
| Plus (p : N -> bool)
| Alt (a b : re)
| Opt (a : re)
| Grp (k : key) (a : re)
| Seq (a b : re).
(** a match: groupdict(), gps.py 262, 276, the text matched and the rest *)
Record hit := Hit { groups : list (key * str); eaten : str; rest : str }.
(** a literal text, re.match in gps.py 260, 274 *)
Fixpoint strip (s t : str) : option str :=
  match s, t with
  | [], _ => Some t
  | c :: s', d :: t' => if N.eqb c d then strip s' t' else None
  | _, [] => None
  end.
(** greedy: the longest first, for the star of gps.py 255-259, 273 *)
Fixpoint spans (p : N -> bool) (s : str) : list hit :=
  match s with
  | [] => [Hit [] [] []]
  | c :: t => if p c then map (fun h => Hit [] (c :: eaten h) (rest h)) (spans p t) ++ [Hit [] [] s] else [Hit [] [] s]
  end.
(** one part after another, re.match in gps.py 260, 274 *)
Definition glue (h h' : hit) : hit := Hit (groups h ++ groups h') (eaten h ++ eaten h') (rest h').
(** re.match, gps.py 260, 274 *)
Fixpoint runs (r : re) (s : str) : list hit :=
  match r with
  | One p => match s with c :: t => if p c then [Hit [] [c] t] else [] | [] => [] end
  | Lit u => match strip u s with Some t => [Hit [] u t] | None => [] end
  | Star p => spans p s
  | Plus p => match s with
              | c :: t => if p c then map (fun h => Hit [] (c :: eaten h) (rest h)) (spans p t) else []
              | [] => []
              end
  | Alt a b => runs a s ++ runs b s
  | Opt a => runs a s ++ [Hit [] [] s]
  | Grp k a => map (fun h => Hit ((k, eaten h) :: groups h) (eaten h) (rest h)) (runs a s)
  | Seq a b => flat_map (fun h => map (glue h) (runs b (rest h))) (runs a s)
  end.
(** re.match: the first one (gps.py 260, 274) *)
Definition re_match (r : re) (s : str) : option hit := match runs r s with h :: _ => Some h | [] => None end.
(** string concatenation of patterns, gps.py 259, 273 *)
Fixpoint seqs (l : list re) : re :=
  match l with [] => Lit [] | [r] => r | r :: l' => Seq r (seqs l') end.

(** ** The patterns, gps.py 255-259, 272-274 *)
Open Scope N_scope.
(** gps.py 255, 256 *)
Definition prime (c : N) : bool := existsb (N.eqb c) [39; 8242; 180].      (* apostrophe, prime, acute accent *)
(** [\s*], gps.py 255-259, 273 *)
Definition ws : re := Star is_space.
(** gps.py 255 *)
Definition end_sec : re :=                                                  (* two apostrophes, a quotation mark, a space, two acute accents, double prime *)
  Alt (Lit [39; 39]) (Alt (Lit [34]) (Alt (Lit [32]) (Alt (Lit [180; 180]) (Lit [8243])))).
(** gps.py 255 *)
Definition regex1 (w : who) : list re :=
  [Grp (w, Deg) (Plus (fun c => is_digit c || is_sign c)); Lit [DEG]; ws;
   Grp (w, Min) (Plus is_digit); One prime; ws; Grp (w, Sec) (Plus (fun c => is_digit c || is_dot c)); end_sec; ws].
(** gps.py 256 *)
Definition regex2 (w : who) : list re :=
  [Grp (w, Deg) (Plus (fun c => is_digit c || is_sign c)); Lit [DEG]; ws;
   Grp (w, Min) (Plus (fun c => is_digit c || is_dot c)); Opt (One prime); ws].
(** gps.py 257 *)
Definition regex3 (w : who) : list re :=
  [Grp (w, Deg) (Plus (fun c => is_digit c || is_dot c || is_sign c)); Lit [DEG]; ws].
(** gps.py 255-257 *)
Definition regex_list : list (who -> list re) := [regex1; regex2; regex3].
(** the letters of gps.py 259, 273, and "in" of 191 *)
Definition letters_of (l : list N) (c : N) : bool := existsb (N.eqb c) l.
(** gps.py 259 *)
Definition pair_pattern (r : who -> list re) : re :=
  seqs ((ws :: r Lat) ++ [Opt (Grp (Lat, Sign) (One (letters_of [78; 83]))); ws; Opt (Lit [44]); ws]
        ++ r Lon ++ [Opt (Grp (Lon, Sign) (One (letters_of [87; 69]))); ws])%list.
(** gps.py 273 *)
Definition single_pattern (r : who -> list re) : re :=
  seqs ((ws :: r Single) ++ [Opt (Grp (Single, Sign) (One (letters_of [78; 83; 87; 69]))); ws])%list.

(** ** processDegree, gps.py 160-194 *)
(** float(s) for the characters the groups can contain.  None: ValueError (gps.py 179, 185, 188). *)
Definition float_of (s : str) : option Q :=
  let '(neg, u) := match s with
                   | c :: t => if is_sign c then (c =? 45, t) else (false, s)
                   | [] => (false, [])
                   end in
  let '(a, r) := span is_digit u in
  let '(b, ok) := match r with
                  | [] => ([], true)
                  | c :: r' => if is_dot c then let '(b, q) := span is_digit r' in (b, str_eqb q []) else ([], false)
                  end in
  if ok && negb (str_eqb (a ++ b) []) then
    let v := (inject_Z (Z.of_N (value (a ++ b))) / inject_Z (Z.of_N (pow10 (List.length b))))%Q in
    Some (if neg then (- v)%Q else v)
  else None.
(** equality of group names, gps.py 262-265, 276 *)
Definition key_eqb (a b : key) : bool :=
  match a, b with
  | (w, f), (w', f') => match w, w' with Single, Single | Lat, Lat | Lon, Lon => true | _, _ => false end
                        && match f, f' with Deg, Deg | Min, Min | Sec, Sec | Sign, Sign => true | _, _ => false end
  end.
(** data["deg"] and so on, gps.py 164-176 *)
Definition find_group (g : list (key * str)) (k : key) : option str :=
  option_map snd (find (fun e => key_eqb (fst e) k) g).
(** gps.py 184-188 *)
Definition add_part (v : option Q) (s : option str) (d : Q) : option Q :=
  match s, v with
  | None, v => v
  | Some t, Some v => match float_of t with Some x => Some (v + x / d)%Q | None => None end
  | _, None => None
  end.
(** a group that did not take part and a name the pattern does not have both contribute 0 (gps.py 160-194) *)
Definition processDegree (g : list (key * str)) (w : who) : option Q :=
  let sign := find_group g (w, Sign) in
  let '(v, sign) := match find_group g (w, Deg) with
                    | None => (Some 0%Q, sign)
                    | Some d => (option_map Qabs.Qabs (float_of d),
                                 match d with c :: _ => if c =? 45 then Some [83] else sign | [] => sign end)
                    end in
  let v := add_part v (find_group g (w, Min)) 60%Q in
  let v := add_part v (find_group g (w, Sec)) 3600%Q in
  match sign with
  | Some [c] => if letters_of [83; 87] c then option_map (Qmult (- 1)%Q) v else v
  | _ => v
  end.

(** ** gpsFromString for a str, gps.py 255-278 *)
(** gps.py 267-278; None when nothing matches *)
Inductive gout := GPair (lat lon : Q) | GSingle (v : Q) | GNone | GValueError.
(** gps.py 261-268 *)
Definition of_pair (g : list (key * str)) : gout :=
  match processDegree g Lat, processDegree g Lon with
  | Some a, Some b => GPair a b
  | _, _ => GValueError
  end.
(** gps.py 275-278 *)
Definition of_single (g : list (key * str)) : gout :=
  match processDegree g Single with Some v => GSingle v | None => GValueError end.
(** the two loops, gps.py 258-261, 272-275 *)
Fixpoint try (l : list re) (k : list (key * str) -> gout) (s : str) (otherwise : gout) : gout :=
  match l with
  | [] => otherwise
  | r :: l' => match re_match r s with Some h => k (groups h) | None => try l' k s otherwise end
  end.
(** gps.py 255-278 *)
Definition gpsFromString (s : str) : gout :=
  try (map pair_pattern regex_list) of_pair s (try (map single_pattern regex_list) of_single s GNone).
(** ... and for a list of strings: one result per string (gps.py 249) *)
Definition gpsFromStrings (l : list str) : list gout := map gpsFromString l.
