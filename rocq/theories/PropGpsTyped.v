(** * C94: coordinates as people type them *)
Require Import Reals Lra Lia Psatz List Bool NArith ZArith QArith Qabs Qreals String.
From Verif Require Import Num Vec Orientation OrientationFacts GpsString GpsStringFacts GpsRegex PropGpsString.
Import ListNotations.
Open Scope N_scope.

(** ** Specification *)
(** the white space of Unicode, as Python's str.isspace knows it *)
Definition white_chars : list N :=
  [9; 10; 11; 12; 13; 28; 29; 30; 31; 32; 133; 160; 5760;
   8192; 8193; 8194; 8195; 8196; 8197; 8198; 8199; 8200; 8201; 8202; 8232; 8233; 8239; 8287; 12288].
Definition white (w : str) : Prop := Forall (fun c => In c white_chars) w.
Definition digit_char (c : N) : Prop := 48 <= c <= 57.
Definition sign_char (c : N) : Prop := c = 43 \/ c = 45.
Definition minute_marks : list N := [39; 8242; 180].
Definition second_marks : list str := [[39; 39]; [34]; [32]; [180; 180]; [8243]].
(** decimal numbers and their values *)
Definition digits_value (s : str) : R := fold_left (fun a c => (10 * a + (IZR (Z.of_N c) - 48))%R) s 0%R.
Inductive unsigned : str -> R -> Prop :=
| whole a : a <> [] -> Forall digit_char a -> unsigned a (digits_value a)
| pointed a b : a ++ b <> [] -> Forall digit_char a -> Forall digit_char b ->
    unsigned (a ++ 46 :: b) (digits_value (a ++ b) / 10 ^ List.length b).
Inductive number : str -> R -> Prop :=
| bare s v : unsigned s v -> number s v
| plus s v : unsigned s v -> number (43 :: s) v
| minus s v : unsigned s v -> number (45 :: s) (- v).

(** a coordinate: its degrees [d], minutes and seconds as typed, with the marks and white space between *)
Inductive typed :=
| Dms (d w1 m : str) (q : N) (w2 s e : str)
| Dm (d w1 m : str) (q : option N)
| Dd (d : str).
Definition typed_text (c : typed) : str :=
  match c with
  | Dms d w1 m q w2 s e => d ++ 176 :: w1 ++ m ++ q :: w2 ++ s ++ e
  | Dm d w1 m q => d ++ 176 :: w1 ++ m ++ match q with Some q => [q] | None => [] end
  | Dd d => d ++ [176]
  end%list.
Definition typed_ok (c : typed) : Prop :=
  match c with
  | Dms d w1 m q w2 s e =>
      d <> [] /\ Forall (fun c => digit_char c \/ sign_char c) d /\ white w1 /\ m <> [] /\ Forall digit_char m /\
      In q minute_marks /\ white w2 /\ s <> [] /\ Forall (fun c => digit_char c \/ c = 46) s /\ In e second_marks
  | Dm d w1 m q =>
      d <> [] /\ Forall (fun c => digit_char c \/ sign_char c) d /\ white w1 /\ m <> [] /\
      Forall (fun c => digit_char c \/ c = 46) m /\ match q with Some q => In q minute_marks | None => True end
  | Dd d => d <> [] /\ Forall (fun c => digit_char c \/ c = 46 \/ sign_char c) d
  end.
Definition form (c : typed) : nat := match c with Dms _ _ _ _ _ _ _ => 1 | Dm _ _ _ _ => 2 | Dd _ => 3 end%nat.
(** the last of its numbers has a decimal point *)
Definition has_point (c : typed) : Prop :=
  match c with Dms _ _ _ _ _ s _ => In 46 s | Dm _ _ m _ => In 46 m | Dd d => In 46 d end.
(** what it means, without its sign *)
Definition worth (c : typed) (v : R) : Prop :=
  match c with
  | Dms d _ m _ _ s _ => exists x y z, number d x /\ number m y /\ number s z /\ v = (Rabs x + y / 60 + z / 3600)%R
  | Dm d _ m _ => exists x y, number d x /\ number m y /\ v = (Rabs x + y / 60)%R
  | Dd d => exists x, number d x /\ v = Rabs x
  end.
Definition degrees (c : typed) : str := match c with Dms d _ _ _ _ _ _ | Dm d _ _ _ | Dd d => d end.
(** south and west, or a minus in front, are negative *)
Definition below (c : typed) (l : option N) : Prop := hd_error (degrees c) = Some 45 \/ l = Some 83 \/ l = Some 87.
Definition stands_for (c : typed) (l : option N) (q : Q) : Prop :=
  exists v, worth c v /\ (below c l -> Q2R q = - v)%R /\ (~ below c l -> Q2R q = v)%R.
Definition letter_text (l : option N) : str := match l with Some c => [c] | None => [] end.
Definition comma_text (o : option str) : str := match o with Some w => 44 :: w | None => [] end.

(** ** Characters *)
Lemma white_spaces w : white w -> spaces w.
Proof.
  intros H. unfold spaces. induction H as [|c w I _ IH]; auto. cbn [forallb]. rewrite IH, andb_true_r.
  clear -I. unfold white_chars in I. cbn [In] in I. repeat (destruct I as [<-|I]; [reflexivity|]). contradiction.
Qed.
Lemma digit_iff c : is_digit c = true <-> digit_char c.
Proof. unfold is_digit, digit_char. rewrite andb_true_iff, !N.leb_le. reflexivity. Qed.
Lemma sign_iff c : is_sign c = true <-> sign_char c.
Proof. unfold is_sign, sign_char. rewrite orb_true_iff, !N.eqb_eq. reflexivity. Qed.
Lemma dot_iff c : is_dot c = true <-> c = 46.
Proof. apply N.eqb_eq. Qed.
Lemma all_chars (P : N -> Prop) p s : (forall c, P c -> p c = true) -> Forall P s -> forallb p s = true.
Proof. intros H F. induction F; auto. cbn [forallb]. rewrite H, IHF; auto. Qed.
Lemma chars_all (P : N -> Prop) p s : (forall c, p c = true -> P c) -> forallb p s = true -> Forall P s.
Proof. intros H F. induction s; constructor; cbn [forallb] in F; apply andb_true_iff in F as (A&B); auto. Qed.
Lemma digsign_all s : Forall (fun c => digit_char c \/ sign_char c) s -> forallb (fun c => is_digit c || is_sign c) s = true.
Proof. apply all_chars. intros c [H|H]; apply orb_true_iff; [left; apply digit_iff|right; apply sign_iff]; auto. Qed.
Lemma digits_all s : Forall digit_char s -> forallb is_digit s = true.
Proof. apply all_chars. intros c H. apply digit_iff; auto. Qed.
Lemma numeral_all s : Forall (fun c => digit_char c \/ c = 46) s -> forallb (fun c => is_digit c || is_dot c) s = true.
Proof. apply all_chars. intros c [H|H]; apply orb_true_iff; [left; apply digit_iff|right; apply dot_iff]; auto. Qed.
Lemma anynum_all s : Forall (fun c => digit_char c \/ c = 46 \/ sign_char c) s ->
  forallb (fun c => is_digit c || is_dot c || is_sign c) s = true.
Proof.
  apply all_chars. intros c [H|[H|H]]; rewrite !orb_true_iff; [left; left; apply digit_iff|left; right; apply dot_iff|right; apply sign_iff]; auto.
Qed.
Lemma mark_prime q : In q minute_marks -> prime q = true.
Proof. intros [<-|[<-|[<-|[]]]]; reflexivity. Qed.
Lemma mark_not q : In q minute_marks -> is_digit q = false /\ is_digit q || is_dot q = false.
Proof. intros [<-|[<-|[<-|[]]]]; split; reflexivity. Qed.
(** the first character of a number is no white space, comma or letter *)
Lemma front p s t : s <> [] -> forallb (fun c => is_digit c || is_dot c || is_sign c) s = true ->
  p 43 = false -> p 45 = false -> p 46 = false -> (forall c, is_digit c = true -> p c = false) -> stops p (s ++ t).
Proof.
  intros NE H A B C D. destruct s as [|c s]; [contradiction|]. simpl. cbn [forallb] in H. apply andb_true_iff in H as (H&_).
  apply orb_true_iff in H as [H|H]; [apply orb_true_iff in H as [H|H]|]; auto.
  - apply dot_iff in H. subst; auto.
  - apply sign_iff in H as [-> | ->]; auto.
Qed.
Lemma digsign_any s : forallb (fun c => is_digit c || is_sign c) s = true -> forallb (fun c => is_digit c || is_dot c || is_sign c) s = true.
Proof. apply forallb_impl. intros c H. apply orb_true_iff in H as [-> | ->]; rewrite ?orb_true_r; auto. Qed.
Lemma numeral_any s : forallb (fun c => is_digit c || is_dot c) s = true -> forallb (fun c => is_digit c || is_dot c || is_sign c) s = true.
Proof. apply forallb_impl. intros c ->. auto. Qed.
Lemma digit_any s : forallb is_digit s = true -> forallb (fun c => is_digit c || is_dot c || is_sign c) s = true.
Proof. apply forallb_impl. intros c ->. auto. Qed.

(** ** Numbers *)
Lemma digits_value_RN s : Forall digit_char s -> digits_value s = RN (value s).
Proof.
  unfold digits_value, value. intros H. change 0%R with (RN 0). generalize 0 as a.
  induction H as [|c s (L&U) _ IH]; intros a; cbn [fold_left]; auto. rewrite <- IH. f_equal.
  unfold RN. rewrite N2Z.inj_add, N2Z.inj_mul, N2Z.inj_sub by lia. rewrite plus_IZR, mult_IZR, minus_IZR. reflexivity.
Qed.
Lemma unsigned_float s v : unsigned s v -> (exists q, float_of s = Some q /\ Q2R q = v) /\
  match s with c :: _ => is_sign c = false | [] => False end.
Proof.
  assert (DS : forall c, digit_char c -> is_sign c = false).
  { intros c (L&_). unfold is_sign. apply orb_false_iff. split; apply N.eqb_neq; lia. }
  destruct 1 as [a NE Da|a b NE Da Db].
  - split; [|destruct Da; [contradiction|apply DS; auto]].
    destruct (float_int a (digits_all _ Da) NE) as (q&F&V). exists q. rewrite digits_value_RN; auto.
  - assert (Dab : Forall digit_char (a ++ b)) by (apply Forall_app; auto).
    split; [|destruct Da; [reflexivity|apply DS; auto]].
    rewrite digits_value_RN by auto. destruct a as [|c a].
    + cbn [app] in *. unfold float_of. change (is_sign 46) with false. cbv iota beta.
      change (span is_digit (46 :: b)) with (@nil N, 46 :: b). cbv iota beta. change (is_dot 46) with true. cbv iota.
      rewrite (span_end _ b (digits_all _ Db)), str_eqb_refl. cbn [app]. rewrite (str_eqb_ne b []) by auto. cbn [andb negb].
      eexists; split; [reflexivity|]. rewrite Q2R_div.
      * rewrite !Q2R_inject. fold (RN (pow10 (len b))). rewrite RN_pow10. reflexivity.
      * pose proof (pow10_pos (len b)). unfold Qeq, inject_Z; simpl. lia.
    + destruct (float_digits (c :: a) b) as (q&F&V); [apply digits_all; auto|apply digits_all; auto|discriminate|]. eauto.
Qed.
Lemma number_float s v : number s v -> exists q, float_of s = Some q /\ Q2R q = v.
Proof.
  destruct 1 as [s v U|s v U|s v U]; destruct (unsigned_float s v U) as ((q&F&V)&H).
  - eauto.
  - exists q. split; auto. destruct s as [|c s]; [contradiction|]. rewrite <- F. unfold float_of.
    rewrite H. reflexivity.
  - exists (- q)%Q. rewrite Q2R_opp, V. split; auto. apply float_minus; auto.
Qed.
Lemma float_number s q : float_of s = Some q -> exists v, number s v.
Proof.
  assert (U : forall neg u q,
    (let '(a, r) := span is_digit u in
     let '(b, ok) := match r with
                     | [] => ([], true)
                     | c :: r' => if is_dot c then let '(b, q) := span is_digit r' in (b, str_eqb q []) else ([], false)
                     end in
     if ok && negb (str_eqb (a ++ b) []) then
       let v := (inject_Z (Z.of_N (value (a ++ b))) / inject_Z (Z.of_N (pow10 (List.length b))))%Q in
       Some (if neg : bool then (- v)%Q else v)
     else None) = Some q -> exists v, unsigned u v).
  { clear. intros neg u q. destruct (span is_digit u) as (a&r) eqn:E. apply span_inv in E as (->&Da&_).
    assert (DA : Forall digit_char a) by (eapply chars_all; [|exact Da]; intros; apply digit_iff; auto).
    destruct r as [|c r'].
    - cbn [andb]. rewrite app_nil_r. destruct (str_eqb a []) eqn:Ea; cbn [negb]; intros H; [discriminate|].
      eexists. apply whole; auto. intros ->. rewrite str_eqb_refl in Ea. discriminate.
    - destruct (is_dot c) eqn:Dc; [|discriminate]. apply dot_iff in Dc as ->.
      destruct (span is_digit r') as (b&z) eqn:E. apply span_inv in E as (->&Db&_).
      destruct (str_eqb z []) eqn:Ez; cbn [andb]; [|discriminate]. apply str_eqb_spec in Ez as ->. rewrite app_nil_r.
      destruct (str_eqb (a ++ b) []) eqn:Ea; cbn [negb]; intros H; [discriminate|].
      eexists. apply pointed; auto.
      + intros X. rewrite X, str_eqb_refl in Ea. discriminate.
      + eapply chars_all; [|exact Db]; intros; apply digit_iff; auto. }
  unfold float_of. destruct s as [|c t].
  { intros H. destruct (U false [] q H) as (v&V). exists v. apply bare; auto. }
  destruct (is_sign c) eqn:E.
  - intros H. destruct (U (c =? 45) t q H) as (v&V). apply sign_iff in E as [-> | ->]; eexists; [apply plus|apply minus]; eauto.
  - intros H. destruct (U false (c :: t) q H) as (v&V). eexists; apply bare; eauto.
Qed.

(** ** Matching *)
Definition chain (l : list re) (r : re) : re := fold_right Seq r l.
Definition regex_of (n : nat) : who -> list re := match n with 1 => regex1 | 2 => regex2 | _ => regex3 end%nat.
Definition fields (w : who) (c : typed) : list (key * str) :=
  match c with
  | Dms d _ m _ _ s _ => [((w, Deg), d); ((w, Min), m); ((w, Sec), s)]
  | Dm d _ m _ => [((w, Deg), d); ((w, Min), m)]
  | Dd d => [((w, Deg), d)]
  end.
Definition sign_field (w : who) (l : option N) : list (key * str) :=
  match l with Some c => [((w, Sign), [c])] | None => [] end.
Lemma second_mark e t : In e second_marks -> first end_sec (e ++ t) (Hit [] e t).
Proof.
  intros [<-|[<-|[<-|[<-|[<-|[]]]]]]; unfold end_sec.
  - apply first_alt_l, first_lit.
  - apply first_alt_r; [reflexivity|]. apply first_alt_l, (first_lit [34]).
  - do 2 (apply first_alt_r; [reflexivity|]). apply first_alt_l, (first_lit [32]).
  - do 3 (apply first_alt_r; [reflexivity|]). apply first_alt_l, (first_lit [180; 180]).
  - do 4 (apply first_alt_r; [reflexivity|]). apply (first_lit [8243]).
Qed.
Lemma second_mark_stops e t : In e second_marks -> stops (fun c => is_digit c || is_dot c) (e ++ t).
Proof. intros [<-|[<-|[<-|[<-|[<-|[]]]]]]; reflexivity. Qed.
Lemma space_not_numeral c : is_space c = true -> is_digit c || is_dot c = false.
Proof.
  intros H. rewrite (space_not_digit c H). cbn [orb]. apply N.eqb_neq. intros ->. discriminate.
Qed.
Lemma sp_stops p g t : spaces g -> (forall c, is_space c = true -> p c = false) -> stops p t -> stops p (g ++ t).
Proof. intros H K L. destruct g as [|c g]; auto. unfold spaces in H. cbn [forallb] in H. apply andb_true_iff in H as (A&_). simpl; auto. Qed.
Ltac fronts := apply front; [assumption|first [apply anynum_all; assumption|apply digsign_any, digsign_all; assumption
  |apply numeral_any, numeral_all; assumption|apply digit_any, digits_all; assumption]|reflexivity|reflexivity|reflexivity|].

Lemma coord_first w c R g t h : typed_ok c -> spaces g -> stops is_space t ->
  stops (fun c => is_digit c || is_dot c) (g ++ t) \/ form c <> 2%nat -> stops prime (g ++ t) \/ form c <> 2%nat ->
  first R t h ->
  exists h', first (chain (regex_of (form c) w) R) (typed_text c ++ g ++ t) h' /\
    groups h' = fields w c ++ groups h.
Proof.
  intros OK G T SN SP F. destruct c as [d w1 m q w2 s e|d w1 m q|d]; cbn [typed_ok form typed_text regex_of] in *.
  - destruct OK as (Nd&Ad&W1&Nm&Am&Q&W2&Ns&As&E). eexists. split.
    + cbn [chain fold_right regex1]. repeat (rewrite <- ?app_assoc; cbn [app]).
      eapply first_seq; [apply first_grp, first_plus; [apply digsign_all; auto|auto|reflexivity]|]. cbn [rest].
      eapply first_seq; [apply (first_lit [DEG])|]. cbn [rest].
      eapply first_seq; [apply first_spans; [exact (white_spaces _ W1)|fronts; exact digit_no_space]|]. cbn [rest].
      eapply first_seq; [apply first_grp, first_plus; [apply digits_all; auto|auto|apply (mark_not q Q)]|]. cbn [rest].
      eapply first_seq; [apply first_one, mark_prime; auto|]. cbn [rest].
      eapply first_seq; [apply first_spans; [exact (white_spaces _ W2)|fronts; exact digit_no_space]|]. cbn [rest].
      eapply first_seq; [apply first_grp, first_plus; [apply numeral_all; auto|auto|apply second_mark_stops; auto]|]. cbn [rest].
      eapply first_seq; [apply second_mark; auto|]. cbn [rest].
      eapply first_seq; [apply first_spans; [exact G|exact T]|]. cbn [rest]. exact F.
    + reflexivity.
  - destruct OK as (Nd&Ad&W1&Nm&Am&Q). destruct SN as [SN|X]; [|congruence]. destruct SP as [SP|X]; [|congruence].
    set (qt := match q with Some q => [q] | None => [] end).
    assert (O : first (Opt (One prime)) (qt ++ g ++ t) (Hit [] qt (g ++ t))).
    { unfold qt. destruct q as [q|].
      - apply first_opt. cbn [app]. apply first_one, mark_prime; auto.
      - apply first_opt_none. cbn [app runs]. destruct (g ++ t)%list as [|c u]; auto. simpl in SP. rewrite SP. auto. }
    eexists. split.
    + cbn [chain fold_right regex2]. fold qt. repeat (rewrite <- ?app_assoc; cbn [app]).
      eapply first_seq; [apply first_grp, first_plus; [apply digsign_all; auto|auto|reflexivity]|]. cbn [rest].
      eapply first_seq; [apply (first_lit [DEG])|]. cbn [rest].
      eapply first_seq; [apply first_spans; [exact (white_spaces _ W1)|fronts; exact digit_no_space]|]. cbn [rest].
      eapply first_seq; [apply first_grp, first_plus; [apply numeral_all; auto|auto|]|].
      { unfold qt. destruct q as [q|]; [apply (mark_not q Q)|exact SN]. }
      cbn [rest]. eapply first_seq; [exact O|]. cbn [rest].
      eapply first_seq; [apply first_spans; [exact G|exact T]|]. cbn [rest]. exact F.
    + reflexivity.
  - destruct OK as (Nd&Ad). eexists. split.
    + cbn [chain fold_right regex3]. repeat (rewrite <- ?app_assoc; cbn [app]).
      eapply first_seq; [apply first_grp, first_plus; [apply anynum_all; auto|auto|reflexivity]|]. cbn [rest].
      eapply first_seq; [apply (first_lit [DEG])|]. cbn [rest].
      eapply first_seq; [apply first_spans; [exact G|exact T]|]. cbn [rest]. exact F.
    + reflexivity.
Qed.

(** the longer patterns do not match the shorter forms *)
Lemma fails_one p b c t : (p c = true -> runs b t = []) -> runs (Seq (One p) b) (c :: t) = [].
Proof. intros H. apply fails_seq. intros h I. cbn [runs] in I. destruct (p c); [|contradiction]. destruct I as [<-|[]]. auto. Qed.
Lemma fails_starts q b s : starts_in q b -> stops q s -> runs b s = [].
Proof. auto. Qed.
Lemma cut p (P : N -> Prop) s : Forall P s -> In 46 s -> (forall c, P c -> c <> 46 -> p c = true) -> p 46 = false ->
  exists a b, s = (a ++ 46 :: b)%list /\ forallb p a = true.
Proof.
  intros F I H N. induction F as [|c s A F IH]; [contradiction|].
  destruct (N.eq_dec c 46) as [->|E].
  - exists [], s. auto.
  - destruct I as [I|I]; [congruence|]. destruct (IH I) as (a&b&->&B). exists (c :: a), b. split; auto.
    cbn [forallb]. rewrite H; auto.
Qed.
Lemma pointless (P : N -> Prop) s : Forall (fun c => P c \/ c = 46) s -> ~ In 46 s -> Forall P s.
Proof.
  intros F N. induction F as [|c s A F IH]; constructor.
  - destruct A as [A|A]; auto. exfalso. apply N. left; auto.
  - apply IH. intros I. apply N. right; auto.
Qed.
Lemma coord_fails k w w0 c R g t : (k = 1 \/ k = 2)%nat -> (k < form c)%nat -> typed_ok c -> spaces w0 -> spaces g -> stops is_space t ->
  has_point c \/ stops (fun c => is_digit c || is_dot c) t -> stops prime (g ++ t) \/ form c <> 2%nat ->
  stops (fun c => is_digit c || is_dot c) (g ++ t) \/ form c <> 2%nat ->
  runs (Seq ws (chain (regex_of k w) R)) (w0 ++ typed_text c ++ g ++ t) = [].
Proof.
  intros K L OK W0 G T HP SP SN. destruct c as [d w1 m q w2 s e|d w1 m q|d]; cbn [typed_ok form typed_text has_point] in *.
  - lia.
  - assert (k = 1)%nat as -> by lia. destruct OK as (Nd&Ad&W1&Nm&Am&Q).
    destruct SP as [SP|X]; [|congruence]. destruct SN as [SN|X]; [|congruence].
    cbn [regex_of chain fold_right regex1]. repeat (rewrite <- ?app_assoc; cbn [app]).
    eapply fails_star; [apply starts_plus|exact space_not_digsign|exact W0|fronts; exact digit_no_space|].
    eapply fails_plus; [apply starts_lit|exact digsign_not_deg|apply digsign_all; auto|reflexivity|].
    apply fails_lit.
    eapply fails_star; [apply starts_plus|exact space_not_digit|exact (white_spaces _ W1)|fronts; exact digit_no_space|].
    destruct (in_dec N.eq_dec 46 m) as [I|I].
    + destruct (cut is_digit _ m Am I) as (a&b&->&B); [intros c [H|H] N; [apply digit_iff; auto|contradiction]|reflexivity|].
      rewrite <- app_assoc. cbn [app].
      eapply fails_plus; [apply starts_one|exact digit_not_prime|exact B|reflexivity|reflexivity].
    + destruct HP as [X|HP]; [contradiction|].
      pose proof (pointless _ _ Am I) as Dm'.
      assert (ST : stops is_digit (match q with Some q => [q] | None => [] end ++ g ++ t)).
      { destruct q as [q|]; [apply (mark_not q Q)|]. cbn [app].
        destruct (g ++ t)%list as [|c u]; auto. simpl in *. apply orb_false_iff in SN. apply SN. }
      eapply fails_plus; [apply starts_one|exact digit_not_prime|apply digits_all; auto|exact ST|].
      destruct q as [q|]; cbn [app].
      * apply fails_one. intros _.
        eapply fails_star; [apply starts_plus|exact space_not_numeral|exact G|exact T|]. eapply fails_starts; [apply starts_plus|exact HP].
      * eapply fails_starts; [apply starts_one|exact SP].
  - destruct OK as (Nd&Ad).
    assert (X : forall R', runs R' (g ++ t) = [] \/ In 46 d -> runs (Seq ws (Seq (Grp (w, Deg) (Plus (fun c => is_digit c || is_sign c)))
        (Seq (Lit [DEG]) R'))) (w0 ++ d ++ DEG :: g ++ t) = []).
    { intros R' HR. eapply fails_star; [apply starts_plus|exact space_not_digsign|exact W0|fronts; exact digit_no_space|].
      destruct (in_dec N.eq_dec 46 d) as [I|I].
      - destruct (cut (fun c => is_digit c || is_sign c) _ d Ad I) as (a&b&->&B);
          [intros c [H|[H|H]] N; apply orb_true_iff; [left; apply digit_iff; auto|contradiction|right; apply sign_iff; auto]|reflexivity|].
        rewrite <- app_assoc. cbn [app].
        eapply fails_plus; [apply starts_lit|exact digsign_not_deg|exact B|reflexivity|reflexivity].
      - destruct HR as [HR|HR]; [|contradiction].
        eapply fails_plus; [apply starts_lit|exact digsign_not_deg| |reflexivity|apply fails_lit; exact HR].
        apply digsign_all. apply pointless; auto. eapply Forall_impl; [|exact Ad]. cbv beta. tauto. }
    repeat (rewrite <- ?app_assoc; cbn [app]).
    assert (SD : In 46 d \/ (stops (fun c => is_digit c || is_dot c) t /\ stops is_digit t)).
    { destruct HP as [HP|HP]; auto. right. split; auto. destruct t as [|c t]; auto. simpl in *. apply orb_false_iff in HP. apply HP. }
    destruct K as [-> | ->]; cbn [regex_of chain fold_right regex1 regex2]; apply X; destruct SD as [SD|(S1&S2)]; auto; left.
    + eapply fails_star; [apply starts_plus|exact space_not_digit|exact G|exact T|eapply fails_starts; [apply starts_plus|exact S2]].
    + eapply fails_star; [apply starts_plus|exact space_not_numeral|exact G|exact T|eapply fails_starts; [apply starts_plus|exact S1]].
Qed.

(** ** Values *)
Lemma below_iff c l : negative_text (degrees c) (option_map (fun x => [x]) l) = true <-> below c l.
Proof.
  unfold negative_text, below. rewrite head45. destruct (degrees c) as [|x d]; cbn [hd_error].
  - split; [|intros [H|[-> | ->]]; [discriminate|reflexivity|reflexivity]].
    destruct l as [y|]; cbn [option_map]; [|discriminate].
    change (match [y] with [83] | [87] => true | _ => false end) with (match y with 83 | 87 => true | _ => false end).
    rewrite (sw_letter y true false). unfold letters_of. cbn [existsb]. rewrite orb_false_r.
    destruct (N.eqb_spec y 83) as [->|]; auto. destruct (N.eqb_spec y 87) as [->|]; auto. discriminate.
  - destruct (N.eqb_spec x 45) as [->|NE]; [tauto|].
    split; [|intros [H|[-> | ->]]; [congruence|reflexivity|reflexivity]].
    destruct l as [y|]; cbn [option_map]; [|discriminate].
    change (match [y] with [83] | [87] => true | _ => false end) with (match y with 83 | 87 => true | _ => false end).
    rewrite (sw_letter y true false). unfold letters_of. cbn [existsb]. rewrite orb_false_r.
    destruct (N.eqb_spec y 83) as [->|]; auto. destruct (N.eqb_spec y 87) as [->|]; auto. discriminate.
Qed.
Lemma says g w c l : (forall f, find_group g (w, f) = find_group (fields w c ++ sign_field w l) (w, f)) ->
  (exists q, processDegree g w = Some q /\ stands_for c l q) \/ ((forall v, ~ worth c v) /\ processDegree g w = None).
Proof.
  intros H.
  assert (HD : find_group g (w, Deg) = Some (degrees c)) by (rewrite H; destruct c, w; reflexivity).
  assert (HS : find_group g (w, Sign) = option_map (fun x => [x]) l) by (rewrite H; destruct c, l, w; reflexivity).
  assert (FIN : forall qd m s v, float_of (degrees c) = Some qd -> reads (find_group g (w, Min)) m -> reads (find_group g (w, Sec)) s ->
    worth c v -> v = (Rabs (Q2R qd) + m / 60 + s / 3600)%R -> exists q, processDegree g w = Some q /\ stands_for c l q).
  { intros qd m s v Fd Rm Rs W E. destruct (C35_parse_sign g w (degrees c) qd m s HD Fd Rm Rs) as (q&P&V).
    exists q. split; auto. exists v. split; auto. rewrite HS in V. rewrite <- E in V.
    split; intros B; rewrite V.
    - apply below_iff in B. rewrite B. ring.
    - destruct (negative_text _ _) eqn:X; [|ring]. apply below_iff in X. contradiction. }
  assert (BAD : float_of (degrees c) = None -> processDegree g w = None).
  { intros F. unfold processDegree. rewrite HD, F. cbn [option_map].
    destruct (find_group g (w, Min)), (find_group g (w, Sec)); cbn [add_part];
      match goal with |- match ?x with _ => _ end = _ => destruct x as [[|a [|b u]]|] end; try reflexivity;
      destruct (letters_of [83; 87] a); reflexivity. }
  assert (BAD2 : forall qd, float_of (degrees c) = Some qd -> forall f t, f = Min \/ f = Sec ->
    find_group g (w, f) = Some t -> float_of t = None -> processDegree g w = None).
  { intros qd Fd f t Ef G F. unfold processDegree. rewrite HD, Fd. cbn [option_map].
    assert (X : add_part (add_part (Some (Qabs qd)) (find_group g (w, Min)) 60) (find_group g (w, Sec)) 3600 = None).
    { destruct Ef as [-> | ->]; rewrite G; cbn [add_part].
      - rewrite F. destruct (find_group g (w, Sec)); reflexivity.
      - destruct (find_group g (w, Min)) as [u|]; cbn [add_part]; [destruct (float_of u)|]; rewrite ?F; reflexivity. }
    rewrite X.
    match goal with |- match ?x with _ => _ end = _ => destruct x as [[|a [|b u]]|] end; try reflexivity;
      destruct (letters_of [83; 87] a); reflexivity. }
  destruct (float_of (degrees c)) as [qd|] eqn:Fd.
  2:{ right. split; auto. intros v W. destruct c; cbn [worth degrees] in *.
      - destruct W as (x&y&z&A&_). apply number_float in A as (q'&A&_). congruence.
      - destruct W as (x&y&A&_). apply number_float in A as (q'&A&_). congruence.
      - destruct W as (x&A&_). apply number_float in A as (q'&A&_). congruence. }
  destruct (float_number _ _ Fd) as (x&Nx). destruct (number_float _ _ Nx) as (q0&F0&V0).
  assert (q0 = qd) as -> by congruence.
  destruct c as [d w1 m q w2 s e|d w1 m q|d]; cbn [worth degrees] in *.
  - assert (HM : find_group g (w, Min) = Some m) by (rewrite H; destruct l, w; reflexivity).
    assert (HC : find_group g (w, Sec) = Some s) by (rewrite H; destruct l, w; reflexivity).
    destruct (float_of m) as [qm|] eqn:Fm.
    2:{ right. split; [|eapply (BAD2 qd eq_refl Min); eauto]. intros v (a&b&z&_&A&_). apply number_float in A as (q'&A&_). congruence. }
    destruct (float_of s) as [qs|] eqn:Fs.
    2:{ right. split; [|eapply (BAD2 qd eq_refl Sec); eauto]. intros v (a&b&z&_&_&A&_). apply number_float in A as (q'&A&_). congruence. }
    destruct (float_number _ _ Fm) as (y&Ny). destruct (number_float _ _ Ny) as (q1&F1&V1).
    destruct (float_number _ _ Fs) as (z&Nz). destruct (number_float _ _ Nz) as (q2&F2&V2).
    left. eapply (FIN qd y z (Rabs x + y / 60 + z / 3600)%R); auto.
    + rewrite HM. exists q1. auto.
    + rewrite HC. exists q2. auto.
    + exists x, y, z. auto.
    + rewrite V0. reflexivity.
  - assert (HM : find_group g (w, Min) = Some m) by (rewrite H; destruct l, w; reflexivity).
    assert (HC : find_group g (w, Sec) = None) by (rewrite H; destruct l, w; reflexivity).
    destruct (float_of m) as [qm|] eqn:Fm.
    2:{ right. split; [|eapply (BAD2 qd eq_refl Min); eauto]. intros v (a&b&_&A&_). apply number_float in A as (q'&A&_). congruence. }
    destruct (float_number _ _ Fm) as (y&Ny). destruct (number_float _ _ Ny) as (q1&F1&V1).
    left. eapply (FIN qd y 0%R (Rabs x + y / 60)%R); auto.
    + rewrite HM. exists q1. auto.
    + rewrite HC. reflexivity.
    + exists x, y. auto.
    + rewrite V0. field.
  - assert (HM : find_group g (w, Min) = None) by (rewrite H; destruct l, w; reflexivity).
    assert (HC : find_group g (w, Sec) = None) by (rewrite H; destruct l, w; reflexivity).
    left. eapply (FIN qd 0%R 0%R (Rabs x)); auto.
    + rewrite HM. reflexivity.
    + rewrite HC. reflexivity.
    + exists x. auto.
    + rewrite V0. field.
Qed.

(** ** One coordinate *)
Lemma star_any p s : exists h, first (Star p) s h /\ groups h = [].
Proof.
  unfold first. cbn [runs]. induction s as [|c s (h&(l&E)&G)]; cbn [spans]; [eexists; split; [eauto|reflexivity]|].
  destruct (p c); [|eexists; split; [eauto|reflexivity]]. rewrite E. cbn [map app]. eexists; split; [eauto|reflexivity].
Qed.
Definition tail_ok (ls : list N) (l : option N) (z : str) : Prop :=
  match l with Some c => In c ls | None => z = [] end.
Lemma tail_first w ls l z : tail_ok ls l z ->
  exists h, first (Seq (Opt (Grp (w, Sign) (One (letters_of ls)))) ws) (letter_text l ++ z) h /\ groups h = sign_field w l.
Proof.
  intros H. destruct l as [c|]; cbn [tail_ok letter_text sign_field app] in *.
  - destruct (star_any is_space z) as (h&F&G).
    assert (P : letters_of ls c = true). { apply existsb_exists. exists c. split; auto. apply N.eqb_refl. }
    destruct (sign_there (w, Sign) (letters_of ls) c z ws h P F) as (h'&F'&G'&_). exists h'. rewrite G', G. auto.
  - subst. destruct (sign_not (w, Sign) (letters_of ls) [] ws _ I end_ws) as (h'&F'&G'&_). exists h'. rewrite G'. auto.
Qed.
Lemma letter_stops p ls l z : tail_ok ls l z -> (forall c, In c ls -> p c = false) -> stops p (letter_text l ++ z).
Proof. intros H K. destruct l as [c|]; cbn [tail_ok letter_text app] in *; [simpl; auto|subst; exact I]. Qed.
Definition NSWE : list N := [78; 83; 87; 69].
Lemma nswe c p : p 78 = false -> p 83 = false -> p 87 = false -> p 69 = false -> In c NSWE -> p c = false.
Proof. intros A B C D [<-|[<-|[<-|[<-|[]]]]]; auto. Qed.
Lemma count_not c s : ~ In c s -> count c s = 0%nat.
Proof. induction s as [|d s IH]; intros H; auto. cbn [count]. destruct (N.eqb_spec c d) as [->|]; [exfalso; apply H; left; auto|]. apply IH. intros I. apply H. right; auto. Qed.
Lemma count_typed c : typed_ok c -> count DEG (typed_text c) = 1%nat.
Proof.
  assert (Z : forall (P : N -> Prop) s, Forall P s -> ~ P DEG -> count DEG s = 0%nat).
  { intros P s F N. apply count_not. intros I. rewrite Forall_forall in F. auto. }
  assert (D1 : forall s, Forall (fun c => digit_char c \/ sign_char c) s -> count DEG s = 0%nat).
  { intros s F. apply (Z _ s F). unfold digit_char, sign_char, DEG. intros [H|[H|H]]; lia. }
  assert (D2 : forall s, Forall (fun c => digit_char c \/ c = 46) s -> count DEG s = 0%nat).
  { intros s F. apply (Z _ s F). unfold digit_char, DEG. intros [H|H]; lia. }
  assert (D3 : forall s, Forall (fun c => digit_char c \/ c = 46 \/ sign_char c) s -> count DEG s = 0%nat).
  { intros s F. apply (Z _ s F). unfold digit_char, sign_char, DEG. intros [H|[H|[H|H]]]; lia. }
  assert (D4 : forall s, Forall digit_char s -> count DEG s = 0%nat).
  { intros s F. apply (Z _ s F). unfold digit_char, DEG. intros H; lia. }
  assert (Q1 : forall q s, In q minute_marks -> count DEG (q :: s) = count DEG s) by (intros q s [<-|[<-|[<-|[]]]]; reflexivity).
  assert (E1 : forall e, In e second_marks -> count DEG e = 0%nat) by (intros e [<-|[<-|[<-|[<-|[<-|[]]]]]]; reflexivity).
  destruct c as [d w1 m q w2 s e|d w1 m q|d]; cbn [typed_ok typed_text]; intros OK.
  - destruct OK as (Nd&Ad&W1&Nm&Am&Q&W2&Ns&As&E).
    rewrite count_app. change 176 with DEG at 1. cbn [count]. rewrite N.eqb_refl. rewrite !count_app, Q1, !count_app by auto.
    rewrite (count_spaces w1), (count_spaces w2), D1, D4, D2, E1 by (auto using white_spaces). reflexivity.
  - destruct OK as (Nd&Ad&W1&Nm&Am&Q).
    rewrite count_app. change 176 with DEG at 1. cbn [count]. rewrite N.eqb_refl. rewrite !count_app.
    rewrite (count_spaces w1), D1, D2 by (auto using white_spaces).
    destruct q as [q|]; [rewrite Q1 by auto|]; reflexivity.
  - destruct OK as (Nd&Ad). rewrite count_app, D3 by auto. reflexivity.
Qed.
Lemma single_shape n : (n = 1 \/ n = 2 \/ n = 3)%nat ->
  single_pattern (regex_of n) = Seq ws (chain (regex_of n Single) (Seq (Opt (Grp (Single, Sign) (One (letters_of NSWE)))) ws)).
Proof. intros [-> |[-> | ->]]; reflexivity. Qed.
Lemma form_cases c : form c = 1%nat \/ form c = 2%nat \/ form c = 3%nat.
Proof. destruct c; auto. Qed.
Lemma typed_front c t : typed_ok c -> stops is_space (typed_text c ++ t) /\ stops (N.eqb 44) (typed_text c ++ t) /\
  stops (letters_of [78; 83]) (typed_text c ++ t).
Proof.
  intros OK. destruct c as [d w1 m q w2 s e|d w1 m q|d]; cbn [typed_ok typed_text] in *.
  - destruct OK as (Nd&Ad&_). rewrite <- app_assoc. split; [|split]; fronts;
      [exact digit_no_space|exact digit_not_comma|exact digit_not_ns].
  - destruct OK as (Nd&Ad&_). rewrite <- app_assoc. split; [|split]; fronts;
      [exact digit_no_space|exact digit_not_comma|exact digit_not_ns].
  - destruct OK as (Nd&Ad). rewrite <- app_assoc. split; [|split]; fronts;
      [exact digit_no_space|exact digit_not_comma|exact digit_not_ns].
Qed.

(** A coordinate alone: white space anywhere between its parts, any of the marks, perhaps a letter, and after a
    letter any text without a degree sign. *)
Theorem C94_single c w0 g l z : typed_ok c -> white w0 -> white g -> tail_ok NSWE l z -> ~ In 176 z ->
  let answer := gpsFromString (w0 ++ typed_text c ++ g ++ letter_text l ++ z) in
  (exists q, answer = GSingle q /\ stands_for c l q) \/ ((forall v, ~ worth c v) /\ answer = GValueError).
Proof.
  intros OK W0 G TL Z answer. subst answer. apply white_spaces in W0, G.
  rewrite single_only.
  2:{ rewrite !count_app, count_typed, (count_spaces w0), (count_spaces g), (count_not DEG z) by auto.
      destruct l as [c0|]; cbn [letter_text tail_ok] in *; [|reflexivity]. destruct TL as [<-|[<-|[<-|[<-|[]]]]]; reflexivity. }
  destruct (tail_first Single NSWE l z TL) as (h1&F1&G1).
  assert (T1 : stops is_space (letter_text l ++ z)) by (eapply letter_stops; [exact TL|]; intros; apply nswe; auto).
  assert (T2 : stops (fun c => is_digit c || is_dot c) (letter_text l ++ z)) by (eapply letter_stops; [exact TL|]; intros x X; apply (nswe x (fun c => is_digit c || is_dot c)); auto).
  assert (T3 : stops prime (letter_text l ++ z)) by (eapply letter_stops; [exact TL|]; intros; apply nswe; auto).
  assert (T2' : stops (fun c => is_digit c || is_dot c) (g ++ letter_text l ++ z)) by (apply sp_stops; auto using space_not_numeral).
  assert (T3' : stops prime (g ++ letter_text l ++ z)) by (apply sp_stops; auto using space_not_prime).
  destruct (coord_first Single c _ g (letter_text l ++ z) h1 OK G T1 (or_introl T2') (or_introl T3') F1) as (h2&F2&G2).
  assert (MATCH : try (map single_pattern regex_list) of_single (w0 ++ typed_text c ++ g ++ letter_text l ++ z) GNone =
    of_single (fields Single c ++ sign_field Single l)).
  { destruct (typed_front c (g ++ letter_text l ++ z) OK) as (TF&_).
    assert (M : re_match (single_pattern (regex_of (form c))) (w0 ++ typed_text c ++ g ++ letter_text l ++ z) =
        Some (glue (Hit [] w0 (typed_text c ++ g ++ letter_text l ++ z)) h2)).
    { apply first_match. rewrite single_shape by apply form_cases. eapply first_seq; [apply first_spans; [exact W0|exact TF]|]. exact F2. }
    assert (NM : forall k, (k = 1 \/ k = 2)%nat -> (k < form c)%nat ->
        re_match (single_pattern (regex_of k)) (w0 ++ typed_text c ++ g ++ letter_text l ++ z) = None).
    { intros k K L. unfold re_match. rewrite single_shape by tauto. rewrite coord_fails; auto. }
    change regex_list with [regex_of 1; regex_of 2; regex_of 3]. cbn [map try].
    destruct c as [d w1 m q w2 s e|d w1 m q|d]; cbn [form] in *.
    - rewrite M. cbn [glue groups app]. rewrite G2, G1. reflexivity.
    - rewrite (NM 1%nat) by (auto; lia). rewrite M. cbn [glue groups app]. rewrite G2, G1. reflexivity.
    - rewrite (NM 1%nat), (NM 2%nat) by (auto; lia). rewrite M. cbn [glue groups app]. rewrite G2, G1. reflexivity. }
  rewrite MATCH. unfold of_single. destruct (says _ Single c l (fun f => eq_refl)) as [(q&E&S)|(NW&E)]; rewrite E; eauto.
Qed.

(** ** Two coordinates *)
Lemma pair_shape n : (n = 1 \/ n = 2 \/ n = 3)%nat ->
  pair_pattern (regex_of n) = Seq ws (chain (regex_of n Lat) (Seq (Opt (Grp (Lat, Sign) (One (letters_of [78; 83]))))
     (Seq ws (Seq (Opt (Lit [44])) (Seq ws (chain (regex_of n Lon) (Seq (Opt (Grp (Lon, Sign) (One (letters_of [87; 69])))) ws))))))).
Proof. intros [-> |[-> | ->]]; reflexivity. Qed.
(** numbers without decimals that are followed by a bare number: the longer patterns get stuck in the second coordinate *)
Lemma fails_opt a b s : runs a s = [] -> runs b s = [] -> runs (Seq (Opt a) b) s = [].
Proof. intros H K. apply fails_seq. intros h I. cbn [runs] in I. rewrite H in I. destruct I as [<-|[]]. exact K. Qed.
Lemma fails_star0 p b s : stops p s -> runs b s = [] -> runs (Seq (Star p) b) s = [].
Proof.
  intros H K. apply fails_seq. intros h I. cbn [runs] in I. destruct s as [|c s]; cbn [spans] in I.
  - destruct I as [<-|[]]. exact K.
  - simpl in H. rewrite H in I. destruct I as [<-|[]]. exact K.
Qed.
Lemma fails_plus_all k p b w t : forallb p w = true -> stops p t ->
  (forall u, forallb p u = true -> (exists v, w = v ++ u)%list -> runs b (u ++ t) = []) -> runs (Seq (Grp k (Plus p)) b) (w ++ t) = [].
Proof.
  intros H K F. apply fails_seq. intros h I. pose proof (runs_eaten _ _ _ I) as E. cbn [runs] in I. apply in_map_iff in I as (h'&<-&I). cbn [rest eaten] in *.
  destruct (plus_rest p w t h' H K I) as (u&E'&G). rewrite E'. apply F; auto. rewrite E', app_assoc in E. apply app_inv_tail in E. eauto.
Qed.
Lemma prefix p s : exists a b, s = (a ++ b)%list /\ forallb p a = true /\ stops p b.
Proof.
  induction s as [|c s (a&b&->&A&B)]; [exists [], []; repeat split|]. destruct (p c) eqn:E.
  - exists (c :: a), b. cbn [forallb app]. rewrite E, A. auto.
  - exists [], (c :: a ++ b). auto.
Qed.
Definition any_char (c : N) : bool := is_digit c || is_dot c || is_sign c.
Lemma any_not p c : p 43 = false -> p 45 = false -> p 46 = false -> (forall c, is_digit c = true -> p c = false) -> any_char c = true -> p c = false.
Proof.
  intros A B C D H. unfold any_char in H. apply orb_true_iff in H as [H|H]; [apply orb_true_iff in H as [H|H]|]; auto.
  - apply dot_iff in H. subst; auto.
  - apply sign_iff in H as [-> | ->]; auto.
Qed.
Lemma any_front p v t : forallb any_char v = true -> p 43 = false -> p 45 = false -> p 46 = false ->
  (forall c, is_digit c = true -> p c = false) -> p DEG = false -> stops p (v ++ DEG :: t).
Proof.
  intros H A B C D E. destruct v as [|c v]; [exact E|]. cbn [forallb] in H. apply andb_true_iff in H as (H&_). simpl. apply any_not; auto.
Qed.
(** the rest of the latitude's pattern eats nothing, and a longitude with minutes does not begin here *)
Lemma lon_stuck v g t R : forallb any_char v = true -> spaces g -> stops is_space t -> stops (fun c => is_digit c || is_dot c) t ->
  runs (Seq (Opt (One prime)) (Seq ws (Seq (Opt (Grp (Lat, Sign) (One (letters_of [78; 83])))) (Seq ws (Seq (Opt (Lit [44])) (Seq ws
    (chain (regex2 Lon) R))))))) (v ++ DEG :: g ++ t) = [].
Proof.
  intros V G T TN.
  assert (O : forall p k, stops p (v ++ DEG :: g ++ t) -> runs (One p) (v ++ DEG :: g ++ t) = [] /\ runs (Grp k (One p)) (v ++ DEG :: g ++ t) = []).
  { intros p k H. cbn [runs]. destruct (v ++ DEG :: g ++ t)%list as [|c s]; auto. simpl in H. rewrite H. auto. }
  assert (SP : stops is_space (v ++ DEG :: g ++ t)) by (apply any_front; auto; exact digit_no_space).
  apply fails_opt; [apply (O prime (Lat, Sign)), any_front; auto; exact digit_not_prime|].
  apply fails_star0; auto.
  apply fails_opt; [apply (O _ (Lat, Sign)), any_front; auto; exact digit_not_ns|].
  apply fails_star0; auto.
  apply fails_opt.
  { assert (C : stops (N.eqb 44) (v ++ DEG :: g ++ t)) by (apply any_front; auto; exact digit_not_comma).
    cbn [runs strip]. destruct (v ++ DEG :: g ++ t)%list as [|c s]; auto. unfold stops in C. rewrite C. reflexivity. }
  apply fails_star0; auto. cbn [chain fold_right regex2].
  destruct (prefix (fun c => is_digit c || is_sign c) v) as (a&b&->&A&B). rewrite <- app_assoc.
  eapply fails_plus; [apply starts_lit|exact digsign_not_deg|exact A|destruct b; [reflexivity|exact B]|].
  destruct b as [|c b]; cbn [app].
  - apply fails_lit. eapply fails_star; [apply starts_plus|exact space_not_numeral|exact G|exact T|]. eapply fails_starts; [apply starts_plus|exact TN].
  - eapply fails_starts; [apply starts_lit|]. rewrite forallb_app in V. apply andb_true_iff in V as (_&V). cbn [forallb] in V.
    apply andb_true_iff in V as (V&_). apply (any_not (N.eqb DEG)); auto. intros x Hx. apply N.eqb_neq. intros <-. discriminate.
Qed.
(** no second mark follows a number that is followed by a degree sign *)
Definition sec_head (c : N) : bool := existsb (N.eqb c) [39; 34; 32; 180; 8243].
Lemma starts_sec b : starts_in sec_head (Seq end_sec b).
Proof.
  intros s H. apply fails_seq. intros h I. exfalso. destruct s as [|c s]; [exact I|]. simpl in H. unfold sec_head in H. cbn [existsb] in H.
  rewrite orb_false_r in H. apply orb_false_iff in H as (A1&H). apply orb_false_iff in H as (A2&H). apply orb_false_iff in H as (A3&H).
  apply orb_false_iff in H as (A4&A5). unfold end_sec in I. cbn [runs strip] in I.
  rewrite (N.eqb_sym 39), A1, (N.eqb_sym 34), A2, (N.eqb_sym 32), A3, (N.eqb_sym 180), A4, (N.eqb_sym 8243), A5 in I. exact I.
Qed.
Lemma digit_sec_head c : is_digit c = true -> sec_head c = false.
Proof.
  apply digit_not. intros d H. unfold sec_head. cbn [existsb]. rewrite !orb_false_iff. repeat split; apply N.eqb_neq; lia.
Qed.
Lemma typed_degrees c : typed_ok c -> degrees c <> [] /\ forallb any_char (degrees c) = true /\
  (form c = 2%nat -> forallb (fun c => is_digit c || is_sign c) (degrees c) = true) /\
  exists u, typed_text c = (degrees c ++ DEG :: u)%list /\ (form c = 3%nat -> u = []).
Proof.
  intros OK. destruct c as [d w1 m q w2 s e|d w1 m q|d]; cbn [typed_ok degrees form typed_text] in *.
  - destruct OK as (Nd&Ad&_). repeat split; auto. apply digsign_any, digsign_all; auto. discriminate. eexists; split; [reflexivity|discriminate].
  - destruct OK as (Nd&Ad&_). repeat split; auto. apply digsign_any, digsign_all; auto. intros _. apply digsign_all; auto. eexists; split; [reflexivity|discriminate].
  - destruct OK as (Nd&Ad). repeat split; auto. apply anynum_all; auto. discriminate. eexists; split; [reflexivity|auto].
Qed.
Lemma bare_fails k w0 c c' R g g' t : (k = 1 \/ k = 2)%nat -> (k < form c)%nat -> form c' = form c -> typed_ok c -> typed_ok c' ->
  spaces w0 -> spaces g -> g <> [] -> spaces g' -> stops is_space t -> stops (fun c => is_digit c || is_dot c) t -> ~ has_point c ->
  runs (Seq ws (chain (regex_of k Lat) (Seq (Opt (Grp (Lat, Sign) (One (letters_of [78; 83])))) (Seq ws (Seq (Opt (Lit [44])) (Seq ws
    (chain (regex_of k Lon) R))))))) (w0 ++ typed_text c ++ g ++ typed_text c' ++ g' ++ t) = [].
Proof.
  intros K L FM OK OK' W0 G GN G' T TN NP.
  destruct (typed_degrees c' OK') as (N'&A'&D2&u&Eu&E3). set (d' := degrees c') in *.
  assert (GS : forall p X, (forall x, is_space x = true -> p x = false) -> stops p (g ++ X)).
  { intros p X H. destruct g as [|x g]; [contradiction|]. unfold spaces in G. cbn [forallb] in G. apply andb_true_iff in G as (G0&_). simpl; auto. }
  destruct c as [d w1 m q w2 s e|d w1 m q|d]; cbn [typed_ok form typed_text has_point] in *.
  - lia.
  - assert (k = 1)%nat as -> by lia. destruct OK as (Nd&Ad&W1&Nm&Am&Q).
    cbn [regex_of]. unfold chain at 1. cbn [fold_right regex1]. repeat (rewrite <- ?app_assoc; cbn [app]).
    eapply fails_star; [apply starts_plus|exact space_not_digsign|exact W0|fronts; exact digit_no_space|].
    eapply fails_plus; [apply starts_lit|exact digsign_not_deg|apply digsign_all; auto|reflexivity|].
    apply fails_lit.
    eapply fails_star; [apply starts_plus|exact space_not_digit|exact (white_spaces _ W1)|fronts; exact digit_no_space|].
    pose proof (pointless _ _ Am NP) as Dm'.
    eapply fails_plus; [apply starts_one|exact digit_not_prime|apply digits_all; auto| |].
    { destruct q as [q|]; [apply (mark_not q Q)|]. cbn [app]. apply GS. exact space_not_digit. }
    destruct q as [q|]; cbn [app]; [|eapply fails_starts; [apply starts_one|apply GS; exact space_not_prime]].
    apply fails_one. intros _. rewrite Eu, <- app_assoc. cbn [app].
    eapply fails_star; [apply starts_plus|exact space_not_numeral|exact G|apply any_front; auto; exact digit_no_space|].
    destruct (prefix (fun c => is_digit c || is_dot c) d') as (a&b&E&A&B). rewrite E, <- app_assoc.
    eapply fails_plus; [apply starts_sec| |exact A|destruct b; [reflexivity|exact B]|].
    { intros x H. apply orb_true_iff in H as [H|H]; [apply digit_sec_head; auto|apply dot_iff in H; subst; reflexivity]. }
    eapply fails_starts; [apply starts_sec|]. rewrite E, forallb_app in A'. apply andb_true_iff in A' as (_&A').
    apply any_front; auto. exact digit_sec_head.
  - destruct OK as (Nd&Ad).
    assert (AD : forallb (fun c => is_digit c || is_sign c) d = true).
    { apply digsign_all. apply pointless; auto. eapply Forall_impl; [|exact Ad]. cbv beta. tauto. }
    rewrite Eu, (E3 FM). destruct K as [-> | ->]; cbn [regex_of]; unfold chain at 1; cbn [fold_right regex1 regex2]; repeat (rewrite <- ?app_assoc; cbn [app]).
    + eapply fails_star; [apply starts_plus|exact space_not_digsign|exact W0|fronts; exact digit_no_space|].
      eapply fails_plus; [apply starts_lit|exact digsign_not_deg|exact AD|reflexivity|]. apply fails_lit.
      eapply fails_star; [apply starts_plus|exact space_not_digit|exact G|apply any_front; auto; exact digit_no_space|].
      destruct (prefix is_digit d') as (a&b&E&A&B). rewrite E, <- app_assoc.
      eapply fails_plus; [apply starts_one|exact digit_not_prime|exact A|destruct b; [reflexivity|exact B]|].
      eapply fails_starts; [apply starts_one|]. rewrite E, forallb_app in A'. apply andb_true_iff in A' as (_&A').
      apply any_front; auto. exact digit_not_prime.
    + eapply fails_star; [apply starts_plus|exact space_not_digsign|exact W0|fronts; exact digit_no_space|].
      eapply fails_plus; [apply starts_lit|exact digsign_not_deg|exact AD|reflexivity|]. apply fails_lit.
      eapply fails_star; [apply starts_plus|exact space_not_numeral|exact G|apply any_front; auto; exact digit_no_space|].
      destruct (prefix (fun c => is_digit c || is_dot c) d') as (a&b&E&A&B). rewrite E, <- app_assoc.
      rewrite E, forallb_app in A'. apply andb_true_iff in A' as (A1&A2).
      apply fails_plus_all; [exact A|destruct b; [reflexivity|exact B]|]. intros v V (v0&Ev). rewrite app_assoc. apply lon_stuck; auto.
      rewrite forallb_app, A2, andb_true_r. eapply forallb_impl; [|exact V]. intros x Hx. unfold any_char. rewrite Hx. reflexivity.
Qed.
Lemma pair_core c c' w0 g l wa cm g' l' z : typed_ok c -> typed_ok c' -> form c' = form c ->
  spaces w0 -> spaces g -> spaces wa -> spaces' cm -> spaces g' -> (l = None -> wa = []) ->
  match l with Some x => In x [78; 83] | None => True end -> tail_ok [87; 69] l' z ->
  (g ++ letter_text l ++ between wa cm <> [])%list ->
  let s := (w0 ++ typed_text c ++ g ++ letter_text l ++ between wa cm ++ typed_text c' ++ g' ++ letter_text l' ++ z)%list in
  gpsFromString s = of_pair (fields Lat c ++ sign_field Lat l ++ fields Lon c' ++ sign_field Lon l').
Proof.
  intros OK OK' FM W0 G WA CM G' LN HL TL GAP s.
  set (T := (letter_text l ++ between wa cm ++ typed_text c' ++ g' ++ letter_text l' ++ z)%list) in *.
  destruct (tail_first Lon [87; 69] l' z TL) as (h1&F1&G1).
  assert (EW : forall p, p 87 = false -> p 69 = false -> stops p (letter_text l' ++ z)).
  { intros p A B. eapply letter_stops; [exact TL|]. intros x [<-|[<-|[]]]; auto. }
  assert (T2' : stops (fun c => is_digit c || is_dot c) (g' ++ letter_text l' ++ z)) by (apply sp_stops; auto using space_not_numeral).
  assert (T3' : stops prime (g' ++ letter_text l' ++ z)) by (apply sp_stops; auto using space_not_prime).
  destruct (coord_first Lon c' _ g' (letter_text l' ++ z) h1 OK' G' (EW _ eq_refl eq_refl) (or_introl T2') (or_introl T3') F1) as (h2&F2&G2).
  destruct (typed_front c' (g' ++ letter_text l' ++ z) OK') as (S1&S2&S3).
  destruct (comma_ws _ wa cm _ h2 WA CM S1 S2 F2) as (h3&F3&G3&_).
  assert (exists h4, first (Seq (Opt (Grp (Lat, Sign) (One (letters_of [78; 83])))) (Seq ws (Seq (Opt (Lit [44])) (Seq ws
     (chain (regex_of (form c') Lon) (Seq (Opt (Grp (Lon, Sign) (One (letters_of [87; 69])))) ws)))))) T h4 /\
     groups h4 = sign_field Lat l ++ groups h3) as (h4&F4&G4).
  { unfold T. destruct l as [x|]; cbn [letter_text app sign_field].
    - destruct (sign_there (Lat, Sign) (letters_of [78; 83]) x _ _ _ ltac:(destruct HL as [<-|[<-|[]]]; reflexivity) F3) as (h4&F4&G4&_). eauto.
    - destruct (sign_not (Lat, Sign) (letters_of [78; 83]) (between wa cm ++ typed_text c' ++ g' ++ letter_text l' ++ z) _ _
        ltac:(rewrite (LN eq_refl); unfold between; destruct cm; [reflexivity|exact S3]) F3) as (h4&F4&G4&_). eauto. }
  assert (TS : stops is_space T).
  { unfold T. destruct l as [x|]; [destruct HL as [<-|[<-|[]]]; reflexivity|]. rewrite (LN eq_refl). unfold between.
    destruct cm; [reflexivity|exact S1]. }
  assert (GT : forall p, (forall x, is_space x = true -> p x = false) -> p 78 = false -> p 83 = false -> p 44 = false -> stops p (g ++ T)).
  { intros p A B C D. destruct g as [|x g]; [|unfold spaces in G; cbn [forallb] in G; apply andb_true_iff in G as (G0&_); simpl; auto].
    unfold T. destruct l as [x|]; [destruct HL as [<-|[<-|[]]]; simpl; auto|]. rewrite (LN eq_refl) in *. unfold between in *.
    destruct cm; [simpl; auto|]. contradiction. }
  assert (N1 : stops (fun c => is_digit c || is_dot c) (g ++ T)) by (apply GT; auto using space_not_numeral).
  assert (N2 : stops prime (g ++ T)) by (apply GT; auto using space_not_prime).
  rewrite FM in F4.
  destruct (coord_first Lat c _ g T h4 OK G TS (or_introl N1) (or_introl N2) F4) as (h5&F5&G5).
  destruct (typed_front c (g ++ T) OK) as (TF&_).
  assert (M : re_match (pair_pattern (regex_of (form c))) s = Some (glue (Hit [] w0 (typed_text c ++ g ++ T)) h5)).
  { apply first_match. rewrite pair_shape by apply form_cases. unfold s. eapply first_seq; [apply first_spans; [exact W0|exact TF]|]. exact F5. }
  assert (NM : forall k, (k = 1 \/ k = 2)%nat -> (k < form c)%nat -> re_match (pair_pattern (regex_of k)) s = None).
  { intros k K L. unfold re_match. rewrite pair_shape by tauto. unfold s.
    assert (P : has_point c \/ ~ has_point c) by (destruct c; cbn [has_point]; match goal with |- In 46 ?u \/ _ => destruct (in_dec N.eq_dec 46 u); auto end).
    assert (X : (has_point c \/ l <> None \/ cm <> None) \/ (~ has_point c /\ l = None /\ cm = None)).
    { destruct P as [P|P]; auto. destruct l; [left; right; left; discriminate|]. destruct cm; [left; right; right; discriminate|]. auto. }
    destruct X as [X|(NP&El&Ec)].
    - fold T. rewrite coord_fails; auto. destruct X as [X|X]; auto. right. unfold T.
      destruct l as [x|]; [destruct HL as [<-|[<-|[]]]; reflexivity|].
      rewrite (LN eq_refl). unfold between. destruct cm; [reflexivity|]. destruct X; congruence.
    - clear M. subst cm. clear N1 N2 GT. unfold T in *. clear T. rewrite (LN El) in *. subst l. unfold between in *. cbn [letter_text app] in *.
      rewrite bare_fails; auto. rewrite app_nil_r in GAP. exact GAP. }
  unfold gpsFromString. change regex_list with [regex_of 1; regex_of 2; regex_of 3]. cbn [map try].
  assert (GR : groups (glue (Hit [] w0 (typed_text c ++ g ++ T)) h5) = fields Lat c ++ sign_field Lat l ++ fields Lon c' ++ sign_field Lon l').
  { cbn [glue groups app]. rewrite G5, G4, G3, G2, G1. reflexivity. }
  destruct (form_cases c) as [E|[E|E]]; rewrite E in *.
  - rewrite M, GR. reflexivity.
  - rewrite (NM 1%nat) by (auto; lia). rewrite M, GR. reflexivity.
  - rewrite (NM 1%nat), (NM 2%nat) by (auto; lia). rewrite M, GR. reflexivity.
Qed.
(** Two coordinates of the same form, the latitude first: a letter N or S after the first and W or E after the
    second may be there or not, and a comma may part them.  What parts them is not empty. *)
Theorem C94_pair c c' w0 g1 l g2 cm g3 l' z : typed_ok c -> typed_ok c' -> form c' = form c ->
  white w0 -> white g1 -> white g2 -> match cm with Some w => white w | None => True end -> white g3 ->
  (l = None \/ l = Some 78 \/ l = Some 83) -> tail_ok [87; 69] l' z ->
  (g1 ++ letter_text l ++ g2 ++ comma_text cm <> [])%list ->
  let answer := gpsFromString (w0 ++ typed_text c ++ g1 ++ letter_text l ++ g2 ++ comma_text cm ++
                               typed_text c' ++ g3 ++ letter_text l' ++ z) in
  (exists a b, answer = GPair a b /\ stands_for c l a /\ stands_for c' l' b) \/
  (((forall v, ~ worth c v) \/ (forall v, ~ worth c' v)) /\ answer = GValueError).
Proof.
  intros OK OK' FM W0 G1 G2 CM G3 HL TL GAP answer.
  assert (CM' : spaces' cm).
  { destruct cm as [w|]; [|exact I]. apply white_spaces; auto. }
  apply white_spaces in W0, G1, G2, G3.
  assert (E : answer = of_pair (fields Lat c ++ sign_field Lat l ++ fields Lon c' ++ sign_field Lon l')).
  { unfold answer. destruct l as [x|].
    - rewrite <- (pair_core c c' w0 g1 (Some x) g2 cm g3 l' z); auto.
      + f_equal. unfold between. rewrite <- !app_assoc. reflexivity.
      + congruence.
      + destruct HL as [H|[H|H]]; [discriminate|injection H as ->; left; auto|injection H as ->; right; left; auto].
    - rewrite <- (pair_core c c' w0 (g1 ++ g2) None [] cm g3 l' z); auto.
      + f_equal. unfold between. cbn [letter_text app]. rewrite <- !app_assoc. reflexivity.
      + unfold spaces. rewrite forallb_app. unfold spaces in G1, G2. rewrite G1, G2. reflexivity.
      + reflexivity.
      + unfold between. cbn [letter_text app] in *. rewrite <- app_assoc. exact GAP. }
  rewrite E. unfold of_pair.
  destruct (says (fields Lat c ++ sign_field Lat l ++ fields Lon c' ++ sign_field Lon l') Lat c l) as [(a&Ea&Sa)|(NW&Ea)].
  { intros f. destruct c, c', l, l', f; reflexivity. }
  2:{ rewrite Ea. right. auto. }
  destruct (says (fields Lat c ++ sign_field Lat l ++ fields Lon c' ++ sign_field Lon l') Lon c' l') as [(b&Eb&Sb)|(NW&Eb)].
  { intros f. destruct c, c', l, l', f; reflexivity. }
  2:{ rewrite Ea, Eb. right. auto. }
  rewrite Ea, Eb. left. eauto.
Qed.

(** ** What is not read *)
Lemma spaces_white c : is_space c = true -> In c white_chars.
Proof.
  unfold is_space. rewrite !orb_true_iff, !andb_true_iff, !N.leb_le. intros [[[H|H]|H]|H].
  - cbn [existsb] in H. rewrite !orb_true_iff, !N.eqb_eq in H. unfold white_chars. cbn [In].
    repeat (destruct H as [->|H]; [repeat (try (left; reflexivity); right)|]). discriminate.
  - assert (c = 9 \/ c = 10 \/ c = 11 \/ c = 12 \/ c = 13) as X by lia. unfold white_chars; cbn [In].
    repeat (destruct X as [->|X]; [repeat (try (left; reflexivity); right)|]). subst. repeat (try (left; reflexivity); right).
  - assert (c = 28 \/ c = 29 \/ c = 30 \/ c = 31) as X by lia. unfold white_chars; cbn [In].
    repeat (destruct X as [->|X]; [repeat (try (left; reflexivity); right)|]). subst. repeat (try (left; reflexivity); right).
  - assert (c = 8192 \/ c = 8193 \/ c = 8194 \/ c = 8195 \/ c = 8196 \/ c = 8197 \/ c = 8198 \/ c = 8199 \/ c = 8200 \/ c = 8201 \/ c = 8202)
      as X by lia. unfold white_chars; cbn [In].
    repeat (destruct X as [->|X]; [repeat (try (left; reflexivity); right)|]). subst. repeat (try (left; reflexivity); right).
Qed.
Lemma none_try l k s o : (forall r, In r l -> runs r s = []) -> try l k s o = o.
Proof.
  induction l as [|r l IH]; intros H; auto. cbn [try]. unfold re_match. rewrite H by (left; auto). apply IH. intros; apply H; right; auto.
Qed.
(** Without a degree sign nothing is read, *)
Theorem C94_no_degree s : ~ In 176 s -> gpsFromString s = GNone.
Proof.
  intros H. unfold gpsFromString. rewrite !none_try; auto; intros r I; apply (too_few DEG); rewrite (count_not DEG s H);
    destruct I as [<-|[<-|[<-|[]]]]; vm_compute; lia.
Qed.
(** nor when anything but a number comes first. *)
Theorem C94_words_first w0 c u : white w0 -> ~ In c white_chars -> ~ digit_char c -> ~ sign_char c -> c <> 46 ->
  gpsFromString (w0 ++ c :: u) = GNone.
Proof.
  intros W0 NW ND NS NP. apply white_spaces in W0.
  assert (SP : is_space c = false) by (destruct (is_space c) eqn:E; auto; apply spaces_white in E; contradiction).
  assert (D : is_digit c = false) by (destruct (is_digit c) eqn:E; auto; apply digit_iff in E; contradiction).
  assert (Sg : is_sign c = false) by (destruct (is_sign c) eqn:E; auto; apply sign_iff in E; contradiction).
  assert (P : is_dot c = false) by (destruct (is_dot c) eqn:E; auto; apply dot_iff in E; contradiction).
  assert (A : forall n w R, runs (Seq ws (chain (regex_of n w) R)) (w0 ++ c :: u) = []).
  { intros n w R. assert (n = 1 \/ n = 2 \/ (n <> 1 /\ n <> 2))%nat as [-> |[-> |(X&Y)]] by lia.
    - cbn [regex_of regex1 chain fold_right]. eapply fails_star; [apply starts_plus|exact space_not_digsign|exact W0|exact SP|].
      eapply fails_starts; [apply starts_plus|]. simpl. rewrite D, Sg. reflexivity.
    - cbn [regex_of regex2 chain fold_right]. eapply fails_star; [apply starts_plus|exact space_not_digsign|exact W0|exact SP|].
      eapply fails_starts; [apply starts_plus|]. simpl. rewrite D, Sg. reflexivity.
    - replace (regex_of n) with regex3 by (destruct n as [|[|[|n]]]; [reflexivity|congruence|congruence|reflexivity]).
      cbn [regex3 chain fold_right]. eapply fails_star; [apply starts_plus| |exact W0|exact SP|].
      + intros x H. cbv beta. rewrite (space_not_numeral x H). cbn [orb].
        pose proof (space_not_digsign x H) as Q. apply orb_false_iff in Q. apply Q.
      + eapply fails_starts; [apply starts_plus|]. simpl. rewrite D, Sg, P. reflexivity. }
  unfold gpsFromString. change regex_list with [regex_of 1; regex_of 2; regex_of 3].
  rewrite !none_try; auto; intros r I; cbn [map In] in I.
  - destruct I as [<-|[<-|[<-|[]]]]; rewrite single_shape by tauto; apply A.
  - destruct I as [<-|[<-|[<-|[]]]]; rewrite pair_shape by tauto; apply A.
Qed.

(** The longitude first: the second coordinate is dropped without a word. *)
Definition west : typed := Dms (text "8") (text " ") (text "9") 39 (text " ") (text "26.28") [34].
Definition south : typed := Dms (text "70") (text " ") (text "37") 8242 (text " ") (text "4.98") [8243].
Ltac whites := unfold white; repeat (apply Forall_cons; [cbn; repeat (first [left; reflexivity|right])|]); apply Forall_nil.
Ltac chars := repeat constructor; unfold digit_char, sign_char; cbv; intuition discriminate.
Lemma west_ok : typed_ok west. Proof. cbn. repeat split; try discriminate; try (now chars); cbn; auto 10. Qed.
Lemma south_ok : typed_ok south. Proof. cbn. repeat split; try discriminate; try (now chars); cbn; auto 10. Qed.
Ltac numval := unfold digits_value; cbn; lra.
Lemma west_worth : worth west (8 + 9 / 60 + 26.28 / 3600).
Proof.
  exists 8%R, 9%R, 26.28%R. split; [|split; [|split]].
  - replace 8%R with (digits_value (text "8")) by numval. apply bare, whole; [discriminate|chars].
  - replace 9%R with (digits_value (text "9")) by numval. apply bare, whole; [discriminate|chars].
  - replace 26.28%R with (digits_value (text "26" ++ text "28") / 10 ^ List.length (text "28"))%R by numval.
    apply bare, (pointed (text "26") (text "28")); [discriminate|chars|chars].
  - rewrite Rabs_right by lra. reflexivity.
Qed.
Theorem C94_longitude_first_refuted : exists c c' q, typed_ok c /\ typed_ok c' /\ form c = form c' /\
  gpsFromString (typed_text c ++ text " W, " ++ typed_text c' ++ text " S") = GSingle q /\ stands_for c (Some 87) q.
Proof.
  exists west, south. eexists. split; [apply west_ok|]. split; [apply south_ok|]. split; [reflexivity|].
  split; [vm_compute; reflexivity|]. exists (8 + 9 / 60 + 26.28 / 3600)%R. split; [apply west_worth|].
  split; intros B; [unfold Q2R; cbn; lra|]. exfalso. apply B. right; right; reflexivity.
Qed.
(** A letter of the other axis is ignored: the second coordinate is 8.25 degrees, not minus 8.25. *)
Theorem C94_wrong_letter_refuted : exists c c' a b, typed_ok c /\ typed_ok c' /\ form c = form c' /\
  gpsFromString (typed_text c ++ text " S, " ++ typed_text c' ++ text " S") = GPair a b /\
  stands_for c (Some 83) a /\ ~ stands_for c' (Some 83) b /\ Q2R b = 8.25%R.
Proof.
  assert (N : forall v, number (text "8.25") v -> v = 8.25%R).
  { intros v H. apply number_float in H as (q&F&<-). vm_compute in F. injection F as <-. unfold Q2R; cbn. lra. }
  exists (Dd (text "70.5")), (Dd (text "8.25")). eexists _, _.
  split; [split; [discriminate|chars]|]. split; [split; [discriminate|chars]|]. split; [reflexivity|].
  split; [vm_compute; reflexivity|]. split; [|split].
  - exists 70.5%R. split; [|split; intros B; [unfold Q2R; cbn; lra|exfalso; apply B; right; left; reflexivity]].
    exists 70.5%R. rewrite Rabs_right by lra. split; auto.
    replace 70.5%R with (digits_value (text "70" ++ text "5") / 10 ^ List.length (text "5"))%R by numval.
    apply bare, (pointed (text "70") (text "5")); [discriminate|chars|chars].
  - intros (v&(x&Hx&->)&H&_). apply N in Hx as ->. rewrite Rabs_right in H by lra.
    specialize (H (or_intror (or_introl eq_refl))). unfold Q2R in H; cbn in H. lra.
  - unfold Q2R; cbn. lra.
Qed.
(** Two coordinates of different forms are not read as the two they are.  With degrees alone first, the minutes and the
    letter of the second are lost without a word. *)
Theorem C94_mixed_refuted : exists c c' a b, typed_ok c /\ typed_ok c' /\ form c = 3%nat /\ form c' = 2%nat /\
  gpsFromString (typed_text c ++ text " S, " ++ typed_text c' ++ text " W") = GPair a b /\
  stands_for c (Some 83) a /\ ~ stands_for c' (Some 87) b /\ Q2R b = 8%R.
Proof.
  assert (N : forall v, number (text "8") v -> v = 8%R).
  { intros v H. apply number_float in H as (q&F&<-). vm_compute in F. injection F as <-. unfold Q2R; cbn. lra. }
  exists (Dd (text "70.5")), (Dm (text "8") (text " ") (text "30.5") (Some 39)). eexists _, _.
  split; [split; [discriminate|chars]|]. split; [cbn; repeat split; try discriminate; try (now chars); cbn; auto 10|].
  split; [reflexivity|]. split; [reflexivity|]. split; [vm_compute; reflexivity|]. split; [|split].
  - exists 70.5%R. split; [|split; intros B; [unfold Q2R; cbn; lra|exfalso; apply B; right; left; reflexivity]].
    exists 70.5%R. rewrite Rabs_right by lra. split; auto.
    replace 70.5%R with (digits_value (text "70" ++ text "5") / 10 ^ List.length (text "5"))%R by numval.
    apply bare, (pointed (text "70") (text "5")); [discriminate|chars|chars].
  - intros (v&(x&y&Hx&Hy&->)&H&_). apply N in Hx as ->. rewrite Rabs_right in H by lra.
    apply number_float in Hy as (q&F&<-). vm_compute in F. injection F as <-.
    specialize (H (or_intror (or_intror eq_refl))). unfold Q2R in H; cbn in H. lra.
  - unfold Q2R; cbn. lra.
Qed.
(** With the longer form first only the first coordinate comes back. *)
Theorem C94_mixed_single_refuted : exists c' q, typed_ok south /\ typed_ok c' /\ form south = 1%nat /\ form c' = 3%nat /\
  gpsFromString (typed_text south ++ text " S, " ++ typed_text c' ++ text " W") = GSingle q /\ stands_for south (Some 83) q.
Proof.
  exists (Dd (text "8.25")). eexists. split; [apply south_ok|]. split; [split; [discriminate|chars]|]. split; [reflexivity|]. split; [reflexivity|].
  split; [vm_compute; reflexivity|]. exists (70 + 37 / 60 + 4.98 / 3600)%R. split; [|split; intros B; [unfold Q2R; cbn; lra|exfalso; apply B; right; left; reflexivity]].
  exists 70%R, 37%R, 4.98%R. split; [|split; [|split]].
  - replace 70%R with (digits_value (text "70")) by numval. apply bare, whole; [discriminate|chars].
  - replace 37%R with (digits_value (text "37")) by numval. apply bare, whole; [discriminate|chars].
  - replace 4.98%R with (digits_value (text "4" ++ text "98") / 10 ^ List.length (text "98"))%R by numval.
    apply bare, (pointed (text "4") (text "98")); [discriminate|chars|chars].
  - rewrite Rabs_right by lra. reflexivity.
Qed.

(** ** Examples *)
(** with a no-break space, a thin space, a tab and prime marks *)
Example C94_single_example : exists q,
  gpsFromString ([160] ++ typed_text south ++ [9; 8201] ++ letter_text (Some 83) ++ text " (Neumayer)") = GSingle q /\ stands_for south (Some 83) q.
Proof.
  destruct (C94_single south [160] [9; 8201] (Some 83) (text " (Neumayer)")) as [H|(_&H)]; try exact H.
  - apply south_ok.
  - whites.
  - whites.
  - cbn; auto.
  - cbn. intuition discriminate.
  - exfalso. vm_compute in H. discriminate.
Qed.
Example C94_pair_example : exists a b,
  gpsFromString (typed_text south ++ text "S" ++ [10] ++ typed_text west ++ text " W") = GPair a b /\
  stands_for south (Some 83) a /\ stands_for west (Some 87) b.
Proof.
  destruct (C94_pair south west [] [] (Some 83) [10] None (text " ") (Some 87) []) as [H|(_&H)]; try exact H; auto.
  - apply south_ok.
  - apply west_ok.
  - constructor.
  - constructor.
  - whites.
  - whites.
  - cbn; auto.
  - discriminate.
  - exfalso. vm_compute in H. discriminate.
Qed.
(** two decimal points *)
Example C94_malformed : gpsFromString (typed_text (Dd (text "70.6.1"))) = GValueError /\ typed_ok (Dd (text "70.6.1")).
Proof. split; [vm_compute; reflexivity|]. split; [discriminate|chars]. Qed.
Example C94_words : gpsFromString (text "lat 70.5" ++ [176]) = GNone.
Proof. apply (C94_words_first [] 108); [constructor|cbn; intuition discriminate|unfold digit_char; intros (_&H); now vm_compute in H|intros [H|H]; discriminate|discriminate]. Qed.

Print Assumptions C94_single.
Print Assumptions C94_pair.
Print Assumptions C94_no_degree.
Print Assumptions C94_words_first.
Print Assumptions C94_longitude_first_refuted.
Print Assumptions C94_mixed_refuted.
Print Assumptions C94_mixed_single_refuted.
Print Assumptions C94_wrong_letter_refuted.

(** The text the docstring gives first (gps.py 199) is written with the apostrophe U+2019, which is not among the minute marks:
    one number comes out, the 70 degrees and 37 minutes, without the seconds, without the S and without the longitude. *)
Definition documented : str :=
  (text "70" ++ DEG :: text " 37" ++ 8217 :: text " 4.980" ++ 34 :: text " S 8" ++ DEG :: text " 9" ++ 8217 :: text " 26.280" ++ 34 :: text " W")%list.
Theorem C94_documented_refuted : exists q, gpsFromString documented = GSingle q /\ Q2R q = (70 + 37 / 60)%R.
Proof. eexists. split; [vm_compute; reflexivity|]. unfold Q2R. simpl. field. Qed.
(** A small letter is not a hemisphere: the southern latitude comes out north. *)
Theorem C94_small_letter_refuted : exists q, gpsFromString (text "70" ++ DEG :: text " 37.083 s") = GSingle q /\ Q2R q = (70 + 37.083 / 60)%R.
Proof. eexists. split; [vm_compute; reflexivity|]. unfold Q2R. simpl. field. Qed.
Print Assumptions C94_documented_refuted.
Print Assumptions C94_small_letter_refuted.

(** ** C33: the width and the precision of a placeholder *)
(** A conversion is as long as its width says, or as long as the text without a width if that is longer, in which case it is that text;
    what a width adds are blanks before it or zeros after the sign. *)
Theorem C33_width s v u : convert s v = Some u -> exists u0, convert (Spec (zero s) 0 (prec s) (knd s)) v = Some u0 /\
  List.length u = Nat.max (width s) (List.length u0) /\ ((width s <= List.length u0)%nat -> u = u0) /\
  (exists n, u = (repeat 32 n ++ u0)%list \/ (zero s = true /\ exists g b, u0 = (g ++ b)%list /\ (g = [] \/ g = [45]) /\ u = (g ++ repeat 48 n ++ b)%list)).
Proof.
  assert (P : forall c w t, pad c w t = (repeat c (w - len t) ++ t)%list /\ len (pad c w t) = Nat.max w (len t)).
  { intros c w t. split; [reflexivity|]. unfold pad. rewrite app_length, repeat_length. lia. }
  assert (Z : forall c t, pad c 0 t = t) by reflexivity.
  assert (G : forall z w neg b, let u := signed z w neg b in let u0 := signed z 0 neg b in
    len u = Nat.max w (len u0) /\ ((w <= len u0)%nat -> u = u0) /\
    (exists n, u = (repeat 32 n ++ u0)%list \/ (z = true /\ exists g b', u0 = (g ++ b')%list /\ (g = [] \/ g = [45]) /\ u = (g ++ repeat 48 n ++ b')%list))).
  { intros z w neg b. unfold signed. destruct z; cbv zeta.
    - destruct neg; cbn [List.length app].
      + change (pad 48 (0 - 1) b) with b. destruct (P 48 (w - 1)%nat b) as (E&L). split; [rewrite L; lia|]. split.
        * intros H. f_equal. unfold pad. replace (w - 1 - len b)%nat with 0%nat by lia. reflexivity.
        * exists (w - 1 - len b)%nat. right. split; auto. exists [45], b. split; [reflexivity|]. split; [auto|reflexivity].
      + change (pad 48 (0 - 0) b) with b. rewrite Nat.sub_0_r. destruct (P 48 w b) as (E&L). split; [exact L|]. split.
        * intros H. unfold pad. replace (w - len b)%nat with 0%nat by lia. reflexivity.
        * exists (w - len b)%nat. right. split; auto. exists [], b. split; [reflexivity|]. split; [auto|reflexivity].
    - set (x := ((if neg then [45] else []) ++ b)%list). rewrite Z. destruct (P 32 w x) as (E&L). split; [exact L|]. split.
      + intros H. unfold pad. replace (w - len x)%nat with 0%nat by lia. reflexivity.
      + exists (w - len x)%nat. left. reflexivity. }
  intros H. unfold convert in *. cbn [knd prec zero width]. destruct (knd s) eqn:K, v as [x|t]; try discriminate; injection H as <-.
  - eexists. split; [reflexivity|]. rewrite Z.
    assert (K' : forall y, len (pad 32 (width s) y) = Nat.max (width s) (len y) /\ ((width s <= len y)%nat -> pad 32 (width s) y = y) /\
      pad 32 (width s) y = (repeat 32 (width s - len y) ++ y)%list).
    { intros y. split; [apply P|]. split; [|apply P]. intros Hw. unfold pad. replace (width s - len y)%nat with 0%nat by lia. reflexivity. }
    match goal with |- context [pad 32 (width s) ?y] => destruct (K' y) as (K1&K2&K3) end.
    split; [exact K1|]. split; [exact K2|]. eexists. left. exact K3.
  - eexists. split; [reflexivity|]. apply G.
  - eexists. split; [reflexivity|]. apply G.
Qed.
(** A letter or text keeps its beginning, as much of it as the precision asks for. *)
Theorem C33_text s t u : knd s = KS -> width s = O -> convert s (VText t) = Some u ->
  exists r, t = (u ++ r)%list /\ List.length u = match prec s with Some p => Nat.min p (List.length t) | None => List.length t end.
Proof.
  intros K W H. unfold convert in H. rewrite K, W in H. injection H as <-. unfold pad. cbn [Nat.sub repeat app].
  destruct (prec s) as [p|].
  - exists (skipn p t). split; [symmetry; apply firstn_skipn|apply firstn_length].
  - exists []. split; [symmetry; apply app_nil_r|reflexivity].
Qed.
Print Assumptions C33_width.
Print Assumptions C33_text.
(** %04d of -7, %4d of -7, and %.1s of a word *)
Example C33_width_example : convert (Spec true 4 None KD) (VNum (- RN 7)) = Some (text "-007") /\
  convert (Spec false 4 None KD) (VNum (- RN 7)) = Some (text "  -7") /\ convert (Spec false 0 (Some 1%nat) KS) (VText (text "North")) = Some (text "N").
Proof.
  assert (E : (0 < RN 7)%R) by (unfold RN; simpl; lra).
  assert (B : Rneg (- RN 7) = true) by (unfold Rneg, Rltb; destruct (Rlt_dec (- RN 7) 0); [reflexivity|lra]).
  unfold convert. cbn [knd zero width prec]. rewrite !truncN_opp, !truncN_RN, B. repeat split; reflexivity.
Qed.
