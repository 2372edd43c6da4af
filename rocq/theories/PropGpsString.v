(** * C33-C35: GPS strings *)
Require Import Reals Lra Lia Psatz List Bool NArith ZArith QArith Qabs Qreals String.
From Verif Require Import Num Vec Orientation OrientationFacts GpsString GpsStringFacts GpsRegex.
Import ListNotations.
Open Scope N_scope.

(** ** Specification *)
Definition numbers (fmt : str) : list (str * kind) := filter (fun e => negb (is_s e)) (findall fmt).
Definition has_letter (fmt : str) : bool := existsb is_s (findall fmt).
(** what Python prints for exact values of the degrees, minutes and seconds: the letter carries the
    sign if the format has one, otherwise the first number does *)
Definition print (fmt : str) (letters : N * N) (x : R) (vs : list R) : fout :=
  let letter := if Rneg x then snd letters else fst letters in
  let vs := if has_letter fmt then vs else match vs with v :: t => (if Rneg x then (- v)%R else v) :: t | [] => [] end in
  match percent None fmt (fills (findall fmt) [letter] vs) with Some s => FOk s | None => FPercent end.

(** ** C34 *)
Lemma parse_knd a k s : parse_spec a k = Some s -> knd s = k.
Proof.
  unfold parse_spec. destruct (span (N.eqb 48) a) as (z&r). destruct (span is_digit r) as (w&r').
  destruct r' as [|c r']; [intros E; inversion E; auto|].
  destruct (is_dot c); [|discriminate]. destruct (span is_digit r') as (p&q). destruct q; [|discriminate].
  intros E; inversion E; auto.
Qed.
Lemma alike_numbers m vs vs' : alike (filter (fun e => negb (is_s e)) m) vs vs' -> alike m vs vs'.
Proof.
  revert vs vs'; induction m as [|e m IH]; intros vs vs' H; auto. cbn [filter alike] in *.
  destruct (is_s e) eqn:E; cbn [negb] in H; auto.
  cbn [alike] in H. rewrite E in H. destruct vs, vs'; try contradiction; auto. destruct H; split; auto.
Qed.
Lemma rounds_up_spec e s v : forallb is_dotdig (fst e) = true -> parse_spec (fst e) (snd e) = Some s -> snd e <> KS ->
  (0 <= v)%R -> rounds_up (Some e) v = Some (shown s v =? shown s 60).
Proof.
  intros D P K L. unfold rounds_up. rewrite !percent_entry, P by auto.
  pose proof (parse_knd _ _ _ P) as KN. rewrite <- KN in K.
  destruct (convert_some s v K) as (u&E). destruct (convert_some s 60%R K) as (u'&E').
  pose proof (convert_value _ _ _ K E) as V. pose proof (convert_value _ _ _ K E') as V'.
  rewrite E, E'. cbn [option_map]. f_equal.
  destruct (N.eqb_spec (shown s v) (shown s 60)) as [Q|Q].
  - apply str_eqb_spec. f_equal. pose proof (convert_same s v 60 K L ltac:(lra) Q). congruence.
  - apply str_eqb_ne. rewrite !app_nil_r. congruence.
Qed.
Lemma shown_60 s : knd s <> KS -> shown s 60 = 60 * pow10 (decimals s).
Proof.
  intros K. replace 60%R with (RN (60 * pow10 (decimals s)) / 10 ^ decimals s)%R; [apply shown_exact|].
  rewrite RN_mul, RN_pow10. change (RN 60) with 60%R. pose proof (pow10R (decimals s)). field. lra.
Qed.
Lemma shown_KD s v : knd s = KD -> shown s v = truncN v.
Proof. intros K. unfold shown. rewrite K. reflexivity. Qed.
Lemma KD_near s p v : knd s = KD -> near s p v <-> (p <= v < p + 1)%R.
Proof. intros K. unfold near. rewrite K. tauto. Qed.
(** only the difference matters *)
Lemma near_shift s p v p' v' : (p - v = p' - v')%R -> near s p v -> near s p' v'.
Proof.
  intros E. unfold near. destruct (knd s); [intros; lra|intros; lra|]. rewrite <- E; auto.
Qed.
Lemma mod60_spec y : (0 <= y)%R -> (mod60 (y * 60) = 60 * (y - RN (truncN y)) /\ 0 <= mod60 (y * 60) < 60)%R.
Proof.
  intros H. unfold mod60. replace (y * 60 / 60)%R with y by field.
  pose proof (truncN_near y H) as B. unfold truncN in *. rewrite Rabs_right in * by lra. rewrite RN_floor in * by auto.
  split; [ring|lra].
Qed.
Lemma alike_sign s1 (neg : bool) d D : knd s1 = KD -> (0 <= d)%R -> truncN d = D ->
  convert s1 (VNum (if neg then (- d)%R else d)) = convert s1 (VNum (if neg then (- RN D)%R else RN D)).
Proof.
  intros K L E. destruct neg; [apply convert_same_neg; auto|].
  apply convert_same; auto; [congruence|apply RN_nonneg|]. rewrite !shown_KD, truncN_RN by auto. auto.
Qed.
Lemma number_entry fmt e : In e (numbers fmt) -> forallb is_dotdig (fst e) = true /\ snd e <> KS /\ is_s e = false.
Proof.
  unfold numbers. intros I. apply filter_In in I as (I&N). pose proof (findall_dotdig fmt) as F.
  rewrite Forall_forall in F. split; auto. destruct e as (a&k); destruct k; cbn in *; split; congruence.
Qed.
Lemma numbers_some fmt : numbers fmt <> [] -> findall fmt <> [].
Proof. unfold numbers. destruct (findall fmt); [intros H; contradiction|discriminate]. Qed.
Lemma print_alike fmt letters x d m sc d' m' sc' : no_double fmt = true ->
  alike (numbers fmt) [(if negb (has_letter fmt) && Rneg x then - d else d); m; sc]%R
                      [(if negb (has_letter fmt) && Rneg x then - d' else d'); m'; sc']%R ->
  match percent None fmt (fills (findall fmt) [if Rneg x then snd letters else fst letters]
          [(if negb (has_letter fmt) && Rneg x then - d else d); m; sc]%R) with
  | Some s => FOk s | None => FPercent end = print fmt letters x [d'; m'; sc'].
Proof.
  intros ND A. unfold print.
  rewrite (percent_alike _ (len fmt) fmt _ [(if negb (has_letter fmt) && Rneg x then - d' else d'); m'; sc']%R); auto.
  - destruct (has_letter fmt), (Rneg x); reflexivity.
  - apply alike_numbers; auto.
Qed.

(** Degrees, minutes and seconds: the printed minutes and seconds are below 60, and the printed
    values are the coordinate, truncated (%d) or rounded (%f) in the last place. *)
Theorem C34_seconds fmt letters x e1 e2 e3 s1 s2 s3 : no_double fmt = true ->
  numbers fmt = [e1; e2; e3] -> snd e1 = KD -> snd e2 = KD ->
  parse_spec (fst e1) (snd e1) = Some s1 -> parse_spec (fst e2) (snd e2) = Some s2 ->
  parse_spec (fst e3) (snd e3) = Some s3 ->
  exists D M n, M < 60 /\ n < 60 * pow10 (decimals s3) /\
    near s3 (3600 * RN D + 60 * RN M + RN n / 10 ^ decimals s3) (3600 * Rabs x) /\
    format_one fmt letters x = print fmt letters x [RN D; RN M; RN n / 10 ^ decimals s3]%R.
Proof.
  intros ND EN K1 K2 P1 P2 P3.
  destruct (number_entry fmt e1) as (D1&NK1&S1); [rewrite EN; simpl; auto|].
  destruct (number_entry fmt e2) as (D2&NK2&S2); [rewrite EN; simpl; auto|].
  destruct (number_entry fmt e3) as (D3&NK3&S3); [rewrite EN; simpl; auto|].
  pose proof (parse_knd _ _ _ P1) as KN1. pose proof (parse_knd _ _ _ P2) as KN2. pose proof (parse_knd _ _ _ P3) as KN3.
  assert (NE : findall fmt <> []) by (apply numbers_some; rewrite EN; discriminate).
  set (d := Rabs x). assert (Hd : (0 <= d)%R) by apply Rabs_pos.
  set (m := mod60 (d * 60)). destruct (mod60_spec d Hd) as (Em&Bm). fold m in Em, Bm.
  set (sc := mod60 (m * 60)). destruct (mod60_spec m (proj1 Bm)) as (Es&Bs). fold sc in Es, Bs.
  set (k := decimals s3). set (n0 := shown s3 sc).
  assert (NK : knd s3 <> KS) by congruence.
  pose proof (shown_sixty s3 sc NK Bs) as Bn. fold k n0 in Bn.
  pose proof (shown_near s3 sc (proj1 Bs)) as Nn. fold k n0 in Nn.
  pose proof (pow10R k) as Pk. pose proof (pow10_pos k) as Pk'.
  assert (F : format_one fmt letters x =
    match rounds_up (Some e3) sc with
    | None => FPercent
    | Some up =>
      match rounds_up (Some e2) (if up then (m + 1)%R else m) with
      | None => FPercent
      | Some up' =>
        match percent None fmt (fills (findall fmt) [if Rneg x then snd letters else fst letters]
           [(if negb (has_letter fmt) && Rneg x then - (if up' then d + 1 else d) else (if up' then d + 1 else d));
            (if up' then 0 else (if up then m + 1 else m)); (if up then 0 else sc)])%R with
        | Some s => FOk s | None => FPercent end
      end
    end).
  { unfold format_one. fold (numbers fmt). rewrite EN. destruct (findall fmt) eqn:FA; [contradiction|].
    cbn [List.length Nat.ltb Nat.leb take nth_error]. unfold has_letter. rewrite FA. reflexivity. }
  rewrite F. clear F.
  rewrite (rounds_up_spec e3 s3) by (auto; lra). rewrite shown_60 by auto. fold k n0.
  pose proof (truncN_near d Hd) as Td. pose proof (truncN_near m (proj1 Bm)) as Tm.
  assert (Mlt : truncN m < 60).
  { apply RN_lt. change (RN 60) with 60%R. lra. }
  assert (FIN : forall D M n d' m' sc', (0 <= d')%R -> (0 <= m')%R -> (0 <= sc')%R -> truncN d' = D -> truncN m' = M -> shown s3 sc' = n ->
     match percent None fmt (fills (findall fmt) [if Rneg x then snd letters else fst letters]
          [(if negb (has_letter fmt) && Rneg x then - d' else d'); m'; sc']%R) with
     | Some s => FOk s | None => FPercent end = print fmt letters x [RN D; RN M; RN n / 10 ^ k]%R).
  { intros D M n d' m' sc' Ld Lm Ls <- <- <-. apply print_alike; auto. rewrite EN. cbn [alike]. rewrite S1, S2, S3.
    split; [|split; [|split; [|exact I]]]; intros s Ps.
    - rewrite P1 in Ps; inversion Ps; subst s. apply alike_sign; auto; congruence.
    - rewrite P2 in Ps; inversion Ps; subst s. apply convert_same; auto using RN_nonneg; try congruence.
      rewrite !shown_KD, truncN_RN by congruence. auto.
    - rewrite P3 in Ps; inversion Ps; subst s. apply convert_same; auto.
      + apply Rmult_le_pos; [apply RN_nonneg|]. left; apply Rinv_0_lt_compat; auto.
      + unfold k. rewrite shown_exact. auto. }
  destruct (N.eqb_spec n0 (60 * pow10 k)) as [U|U].
  - (* the seconds round up *)
    rewrite (rounds_up_spec e2 s2) by (auto; lra). rewrite shown_60 by congruence.
    rewrite (shown_KD s2) by congruence. change (60 * pow10 (decimals s2)) with (60 * pow10 (decimals s2)).
    assert (decimals s2 = 0%nat) as -> by (unfold decimals; rewrite KN2, K2; reflexivity).
    assert (T1 : truncN (m + 1) = truncN m + 1).
    { apply (RN_between _ _ (m + 1)%R); [apply truncN_near; lra|]. rewrite RN_add. change (RN 1) with 1%R. lra. }
    rewrite T1. change (60 * pow10 0) with 60.
    rewrite U in Nn. rewrite RN_mul, RN_pow10 in Nn. change (RN 60) with 60%R in Nn.
    replace (60 * 10 ^ k / 10 ^ k)%R with 60%R in Nn by (field; lra).
    assert (S0 : shown s3 0 = 0).
    { replace 0%R with (RN 0 / 10 ^ decimals s3)%R; [apply shown_exact|]. change (RN 0) with 0%R. fold k. field. lra. }
    destruct (N.eqb_spec (truncN m + 1) 60) as [U'|U'].
    + exists (truncN d + 1), 0, 0. split; [lia|]. split; [lia|]. split.
      * apply (near_shift s3 60 sc); auto.
        assert (Q : RN (truncN m) = 59%R). { change 59%R with (RN 59). f_equal. lia. }
        rewrite RN_add. change (RN 1) with 1%R. change (RN 0) with 0%R. rewrite Es, Q, Em. fold d. field. lra.
      * apply (FIN (truncN d + 1) 0 0); auto; try lra.
        -- apply (RN_between _ _ (d + 1)%R); [apply truncN_near; lra|]. rewrite RN_add. change (RN 1) with 1%R. lra.
        -- change 0%R with (RN 0). apply truncN_RN.
    + exists (truncN d), (truncN m + 1), 0. split; [lia|]. split; [lia|]. split.
      * apply (near_shift s3 60 sc); auto.
        rewrite RN_add. change (RN 1) with 1%R. change (RN 0) with 0%R. rewrite Es, Em. fold d. field. lra.
      * apply (FIN (truncN d) (truncN m + 1) 0); auto; lra.
  - rewrite (rounds_up_spec e2 s2) by (auto; lra). rewrite shown_60 by congruence.
    rewrite (shown_KD s2) by congruence.
    assert (decimals s2 = 0%nat) as -> by (unfold decimals; rewrite KN2, K2; reflexivity).
    change (60 * pow10 0) with 60.
    destruct (N.eqb_spec (truncN m) 60) as [U'|U']; [lia|].
    exists (truncN d), (truncN m), n0. split; [lia|]. split; [lia|]. split.
    + apply (near_shift s3 (RN n0 / 10 ^ k) sc); auto. rewrite Es, Em. fold d. field. lra.
    + apply (FIN (truncN d) (truncN m) n0); auto; lra.
Qed.

(** Degrees and minutes. *)
Theorem C34_minutes fmt letters x e1 e2 s1 s2 : no_double fmt = true ->
  numbers fmt = [e1; e2] -> snd e1 = KD ->
  parse_spec (fst e1) (snd e1) = Some s1 -> parse_spec (fst e2) (snd e2) = Some s2 ->
  exists D n, n < 60 * pow10 (decimals s2) /\
    near s2 (60 * RN D + RN n / 10 ^ decimals s2) (60 * Rabs x) /\
    format_one fmt letters x = print fmt letters x [RN D; RN n / 10 ^ decimals s2; 0]%R.
Proof.
  intros ND EN K1 P1 P2.
  destruct (number_entry fmt e1) as (D1&NK1&S1); [rewrite EN; simpl; auto|].
  destruct (number_entry fmt e2) as (D2&NK2&S2); [rewrite EN; simpl; auto|].
  pose proof (parse_knd _ _ _ P1) as KN1. pose proof (parse_knd _ _ _ P2) as KN2.
  assert (NE : findall fmt <> []) by (apply numbers_some; rewrite EN; discriminate).
  set (d := Rabs x). assert (Hd : (0 <= d)%R) by apply Rabs_pos.
  set (m := mod60 (d * 60)). destruct (mod60_spec d Hd) as (Em&Bm). fold m in Em, Bm.
  set (sc := mod60 (m * 60)).
  set (k := decimals s2). set (n0 := shown s2 m).
  assert (NK : knd s2 <> KS) by congruence.
  pose proof (shown_sixty s2 m NK Bm) as Bn. fold k n0 in Bn.
  pose proof (shown_near s2 m (proj1 Bm)) as Nn. fold k n0 in Nn.
  pose proof (pow10R k) as Pk. pose proof (pow10_pos k) as Pk'.
  assert (F : format_one fmt letters x =
      match rounds_up (Some e2) m with
      | None => FPercent
      | Some up' =>
        match percent None fmt (fills (findall fmt) [if Rneg x then snd letters else fst letters]
           [(if negb (has_letter fmt) && Rneg x then - (if up' then d + 1 else d) else (if up' then d + 1 else d));
            (if up' then 0 else m); sc])%R with
        | Some s => FOk s | None => FPercent end
      end).
  { unfold format_one. fold (numbers fmt). rewrite EN. destruct (findall fmt) eqn:FA; [contradiction|].
    cbn [List.length Nat.ltb Nat.leb take nth_error rounds_up]. unfold has_letter. rewrite FA. reflexivity. }
  rewrite F. clear F.
  rewrite (rounds_up_spec e2 s2) by (auto; lra). rewrite shown_60 by auto. fold k n0.
  pose proof (truncN_near d Hd) as Td.
  assert (FIN : forall D n d' m', (0 <= d')%R -> (0 <= m')%R -> truncN d' = D -> shown s2 m' = n ->
     match percent None fmt (fills (findall fmt) [if Rneg x then snd letters else fst letters]
          [(if negb (has_letter fmt) && Rneg x then - d' else d'); m'; sc]%R) with
     | Some s => FOk s | None => FPercent end = print fmt letters x [RN D; RN n / 10 ^ k; 0]%R).
  { intros D n d' m' Ld Lm <- <-. apply print_alike; auto. rewrite EN. cbn [alike]. rewrite S1, S2.
    split; [|split; [|exact I]]; intros s Ps.
    - rewrite P1 in Ps; inversion Ps; subst s. apply alike_sign; auto; congruence.
    - rewrite P2 in Ps; inversion Ps; subst s. apply convert_same; auto.
      + apply Rmult_le_pos; [apply RN_nonneg|]. left; apply Rinv_0_lt_compat; auto.
      + unfold k. rewrite shown_exact. auto. }
  destruct (N.eqb_spec n0 (60 * pow10 k)) as [U|U].
  - rewrite U in Nn. rewrite RN_mul, RN_pow10 in Nn. change (RN 60) with 60%R in Nn.
    replace (60 * 10 ^ k / 10 ^ k)%R with 60%R in Nn by (field; lra).
    assert (S0 : shown s2 0 = 0).
    { replace 0%R with (RN 0 / 10 ^ decimals s2)%R; [apply shown_exact|]. change (RN 0) with 0%R. fold k. field. lra. }
    exists (truncN d + 1), 0. split; [lia|]. split.
    + apply (near_shift s2 60 m); auto. rewrite RN_add. change (RN 1) with 1%R. change (RN 0) with 0%R.
      rewrite Em. fold d. field. lra.
    + apply (FIN (truncN d + 1) 0); auto; try lra.
      apply (RN_between _ _ (d + 1)%R); [apply truncN_near; lra|]. rewrite RN_add. change (RN 1) with 1%R. lra.
  - exists (truncN d), n0. split; [lia|]. split.
    + apply (near_shift s2 (RN n0 / 10 ^ k) m); auto. rewrite Em. fold d. field. lra.
    + apply (FIN (truncN d) n0); auto; lra.
Qed.

(** ** C33: reading back *)
Definition spaces (w : str) : Prop := forallb is_space w = true.
Lemma spaces_repeat n : spaces (repeat 32 n).
Proof. unfold spaces. induction n; simpl; auto. Qed.
Lemma no_space_stop c t : is_space c = false -> stops is_space (c :: t).
Proof. auto. Qed.
Lemma digit_not p c : (forall d, d < 10 -> p (48 + d) = false) -> is_digit c = true -> p c = false.
Proof.
  intros H D. unfold is_digit in D. apply andb_true_iff in D as (A&B). apply N.leb_le in A, B.
  replace c with (48 + (c - 48)) by lia. apply H. lia.
Qed.
Ltac ten d H := destruct d as [|d]; [|do 4 (destruct d; try reflexivity; try (exfalso; revert H; vm_compute; discriminate))];
  try reflexivity.
Lemma digit_no_space c : is_digit c = true -> is_space c = false.
Proof.
  apply digit_not. intros d H.
  assert (d = 0 \/ d = 1 \/ d = 2 \/ d = 3 \/ d = 4 \/ d = 5 \/ d = 6 \/ d = 7 \/ d = 8 \/ d = 9) as C by lia.
  repeat destruct C as [->|C]; try reflexivity. subst; reflexivity.
Qed.
Lemma dec_stop n t : stops is_space (dec n ++ t).
Proof.
  pose proof (dec_nonempty n). pose proof (dec_digits n) as D. destruct (dec n) as [|c l]; [contradiction|].
  simpl in *. apply andb_true_iff in D as (D&_). apply digit_no_space; auto.
Qed.
Lemma fixed_stop k n t : stops is_space (fixed k n ++ t).
Proof.
  pose proof (fixed_head k n) as H. destruct (fixed k n) as [|c l]; [contradiction|]. simpl. apply digit_no_space; auto.
Qed.
Lemma forallb_impl (p q : N -> bool) s : (forall c, p c = true -> q c = true) -> forallb p s = true -> forallb q s = true.
Proof.
  intros H. induction s; simpl; auto. intros K. apply andb_true_iff in K as (A&B). rewrite (H _ A), IHs; auto.
Qed.
Lemma dec_deg n : forallb (fun c => is_digit c || is_sign c) (dec n) = true.
Proof. eapply forallb_impl; [|apply dec_digits]. intros c ->. reflexivity. Qed.

(** *** degrees, minutes, seconds *)
Definition dms (D : N) (w1 : str) (M : N) (w2 : str) (k : nat) (n : N) (w3 t : str) : str :=
  (dec D ++ DEG :: w1 ++ dec M ++ 39 :: w2 ++ fixed k n ++ 34 :: w3 ++ t)%list.
Lemma coord1 w R D w1 M w2 k n w3 t h : spaces w1 -> spaces w2 -> spaces w3 -> stops is_space t -> first R t h ->
  exists h', first (Seq (Grp (w, Deg) (Plus (fun c => is_digit c || is_sign c))) (Seq (Lit [DEG]) (Seq ws
     (Seq (Grp (w, Min) (Plus is_digit)) (Seq (One prime) (Seq ws
     (Seq (Grp (w, Sec) (Plus (fun c => is_digit c || is_dot c))) (Seq end_sec (Seq ws R)))))))))
     (dms D w1 M w2 k n w3 t) h' /\
    groups h' = [((w, Deg), dec D); ((w, Min), dec M); ((w, Sec), fixed k n)] ++ groups h /\ rest h' = rest h.
Proof.
  intros H1 H2 H3 HT F. unfold dms. eexists. split; [|split].
  - eapply first_seq; [apply first_grp, first_plus; [apply dec_deg|apply dec_nonempty|reflexivity]|]. cbn [rest].
    eapply first_seq; [apply (first_lit [DEG])|]. cbn [rest].
    eapply first_seq; [apply first_spans; [exact H1|apply dec_stop]|]. cbn [rest].
    eapply first_seq; [apply first_grp, first_plus; [apply dec_digits|apply dec_nonempty|reflexivity]|]. cbn [rest].
    eapply first_seq; [apply first_one; reflexivity|]. cbn [rest].
    eapply first_seq; [apply first_spans; [exact H2|apply fixed_stop]|]. cbn [rest].
    eapply first_seq; [apply first_grp, first_plus; [apply fixed_numeral|apply fixed_nonempty|reflexivity]|]. cbn [rest].
    eapply first_seq; [apply first_alt_r; [reflexivity|apply first_alt_l; apply (first_lit [34])]|]. cbn [rest].
    eapply first_seq; [apply first_spans; [exact H3|exact HT]|]. cbn [rest]. exact F.
  - reflexivity.
  - reflexivity.
Qed.
(** *** degrees, minutes *)
Definition dm (D : N) (w1 : str) (k : nat) (n : N) (q : bool) (w3 t : str) : str :=
  (dec D ++ DEG :: w1 ++ fixed k n ++ (if q then [39] else []) ++ w3 ++ t)%list.
Lemma space_not_prime c : is_space c = true -> prime c = false.
Proof.
  intros D. destruct (prime c) eqn:E; auto. exfalso. unfold prime in E. cbn [existsb] in E.
  apply orb_true_iff in E as [E|E]; [|apply orb_true_iff in E as [E|E]; [|apply orb_true_iff in E as [E|E]]];
    try discriminate; apply N.eqb_eq in E; subst; discriminate.
Qed.
Lemma coord2 w R D w1 k n q w3 t h : spaces w1 -> spaces w3 -> stops is_space t -> stops prime t -> stops numeral t ->
  w3 <> [] -> first R t h ->
  exists h', first (Seq (Grp (w, Deg) (Plus (fun c => is_digit c || is_sign c))) (Seq (Lit [DEG]) (Seq ws
     (Seq (Grp (w, Min) (Plus (fun c => is_digit c || is_dot c))) (Seq (Opt (One prime)) (Seq ws R))))))
     (dm D w1 k n q w3 t) h' /\
    groups h' = [((w, Deg), dec D); ((w, Min), fixed k n)] ++ groups h /\ rest h' = rest h.
Proof.
  intros H1 H3 HT HP HN NE F. unfold dm.
  assert (W : match (w3 ++ t)%list with c :: _ => is_space c = true | [] => False end).
  { destruct w3 as [|c w3]; [contradiction|]. unfold spaces in H3. cbn [forallb] in H3. apply andb_true_iff in H3 as (A&_). auto. }
  eexists. split; [|split].
  - eapply first_seq; [apply first_grp, first_plus; [apply dec_deg|apply dec_nonempty|reflexivity]|]. cbn [rest].
    eapply first_seq; [apply (first_lit [DEG])|]. cbn [rest].
    eapply first_seq; [apply first_spans; [exact H1|apply fixed_stop]|]. cbn [rest].
    eapply first_seq; [apply first_grp, first_plus; [apply fixed_numeral|apply fixed_nonempty|]|].
    { destruct q; [reflexivity|]. cbn [app]. destruct (w3 ++ t)%list as [|c u]; simpl; auto.
      destruct (is_digit c || is_dot c) eqn:E; auto. exfalso.
      apply orb_true_iff in E as [E|E]; [rewrite (digit_no_space c E) in W; discriminate|].
      unfold is_dot in E. apply N.eqb_eq in E; subst; discriminate. }
    cbn [rest].
    eapply first_seq with (h := if q then Hit [] [39] (w3 ++ t)%list else Hit [] [] (w3 ++ t)%list).
    { destruct q; [apply first_opt; apply (first_one prime 39); reflexivity|].
      cbn [app]. apply first_opt_none. cbn [runs]. destruct (w3 ++ t)%list as [|c u]; auto.
      rewrite (space_not_prime c W); auto. }
    assert (rest (if q then Hit [] [39] (w3 ++ t)%list else Hit [] [] (w3 ++ t)%list) = (w3 ++ t)%list) as -> by (destruct q; auto).
    eapply first_seq; [apply first_spans; [exact H3|exact HT]|]. cbn [rest]. exact F.
  - destruct q; reflexivity.
  - reflexivity.
Qed.
(** *** degrees with decimals *)
Definition dd (g : bool) (k : nat) (n : N) (w3 t : str) : str :=
  ((if g then [45] else []) ++ fixed k n ++ DEG :: w3 ++ t)%list.
Lemma coord3 w R g k n w3 t h : spaces w3 -> stops is_space t -> first R t h ->
  exists h', first (Seq (Grp (w, Deg) (Plus (fun c => is_digit c || is_dot c || is_sign c))) (Seq (Lit [DEG]) (Seq ws R)))
     (dd g k n w3 t) h' /\
    groups h' = [((w, Deg), (if g then [45] else []) ++ fixed k n)] ++ groups h /\ rest h' = rest h.
Proof.
  intros H3 HT F. unfold dd. rewrite app_assoc. eexists. split; [|split].
  - eapply first_seq; [apply first_grp, first_plus; [| |reflexivity]|].
    { rewrite forallb_app. assert (forallb (fun c => is_digit c || is_dot c || is_sign c) (fixed k n) = true) as ->.
      { eapply forallb_impl; [|apply fixed_numeral]. intros c E. unfold numeral in E. rewrite E. reflexivity. }
      destruct g; reflexivity. }
    { intros E. apply app_eq_nil in E as (_&E). apply (fixed_nonempty k n E). }
    cbn [rest]. eapply first_seq; [apply (first_lit [DEG])|]. cbn [rest].
    eapply first_seq; [apply first_spans; [exact H3|exact HT]|]. cbn [rest]. exact F.
  - reflexivity.
  - reflexivity.
Qed.
Lemma fixed_S k n : fixed (S k) n = (dec (n / pow10 (S k)) ++ 46 :: digs (S k) (n mod pow10 (S k)))%list.
Proof. reflexivity. Qed.
(** *** the patterns that must not match *)
Lemma digit_not_prime c : is_digit c = true -> prime c = false.
Proof.
  intros D. destruct (prime c) eqn:E; auto. exfalso. unfold prime in E. cbn [existsb] in E.
  apply orb_true_iff in E as [E|E]; [|apply orb_true_iff in E as [E|E]; [|apply orb_true_iff in E as [E|E]]];
    try discriminate; apply N.eqb_eq in E; subst; discriminate.
Qed.
Lemma digsign_not_deg c : is_digit c || is_sign c = true -> (DEG =? c) = false.
Proof. intros H. apply N.eqb_neq. intros <-. discriminate. Qed.
Lemma space_not_digit c : is_space c = true -> is_digit c = false.
Proof. intros H. destruct (is_digit c) eqn:E; auto. rewrite (digit_no_space c E) in H; discriminate. Qed.
Lemma space_not_digsign c : is_space c = true -> is_digit c || is_sign c = false.
Proof.
  intros H. rewrite (space_not_digit c H). unfold is_sign. cbn [orb]. apply orb_false_iff. split; apply N.eqb_neq; intros ->; discriminate.
Qed.
Lemma regex1_not_dm w R w0 D w1 k n q w3 t : spaces w0 -> spaces w1 ->
  runs (Seq ws (Seq (Grp (w, Deg) (Plus (fun c => is_digit c || is_sign c))) (Seq (Lit [DEG]) (Seq ws
     (Seq (Grp (w, Min) (Plus is_digit)) (Seq (One prime) R)))))) (w0 ++ dm D w1 (S k) n q w3 t) = [].
Proof.
  intros H0 H1. unfold dm. rewrite fixed_S, <- app_assoc.
  eapply fails_star; [apply starts_plus|exact space_not_digsign|exact H0|apply dec_stop|].
  eapply fails_plus; [apply starts_lit|exact digsign_not_deg|apply dec_deg|reflexivity|].
  apply fails_lit.
  eapply fails_star; [apply starts_plus|exact space_not_digit|exact H1|apply dec_stop|].
  eapply fails_plus; [apply starts_one|exact digit_not_prime|apply dec_digits|reflexivity|]. reflexivity.
Qed.
Lemma regex12_not_dd w R w0 g k n w3 t : spaces w0 ->
  runs (Seq ws (Seq (Grp (w, Deg) (Plus (fun c => is_digit c || is_sign c))) (Seq (Lit [DEG]) R)))
    (w0 ++ dd g (S k) n w3 t) = [].
Proof.
  intros H0. unfold dd. rewrite fixed_S, <- app_assoc.
  eapply fails_star; [apply starts_plus|exact space_not_digsign|exact H0| |].
  { destruct g; cbn [app]; [reflexivity|apply dec_stop]. }
  rewrite app_assoc. eapply fails_plus; [apply starts_lit|exact digsign_not_deg| |reflexivity|reflexivity].
  rewrite forallb_app, dec_deg. destruct g; reflexivity.
Qed.

(** ** What the groups mean *)
Lemma Q2R_abs q : Q2R (Qabs q) = Rabs (Q2R q).
Proof.
  destruct (Qlt_le_dec q 0) as [L|L].
  - rewrite (Qeq_eqR _ _ (Qabs_neg q (Qlt_le_weak _ _ L))), Q2R_opp. apply Qlt_Rlt in L.
    replace (Q2R 0) with 0%R in L by (unfold Q2R; simpl; field). rewrite Rabs_left; auto.
  - rewrite (Qeq_eqR _ _ (Qabs_pos q L)). apply Qle_Rle in L.
    replace (Q2R 0) with 0%R in L by (unfold Q2R; simpl; field). rewrite Rabs_right; auto. lra.
Qed.
(** a part that is missing counts as 0 *)
Definition reads (s : option str) (v : R) : Prop :=
  match s with None => v = 0%R | Some t => exists q, float_of t = Some q /\ Q2R q = v end.
Definition negative_text (d : str) (sign : option str) : bool :=
  match d with 45 :: _ => true | _ => match sign with Some [83] | Some [87] => true | _ => false end end.
Lemma head45 {A} (d : str) (a b : A) :
  match d with 45 :: _ => a | _ => b end = match d with c :: _ => if c =? 45 then a else b | [] => b end.
Proof.
  destruct d as [|c d]; auto. destruct (N.eqb_spec c 45) as [->|N]; auto.
  destruct c as [|p]; auto. repeat (destruct p as [p|p|]; auto). contradiction.
Qed.
Lemma sw_letter {A} c (a b : A) : match c with 83 | 87 => a | _ => b end = if letters_of [83; 87] c then a else b.
Proof.
  unfold letters_of. cbn [existsb]. destruct (N.eqb_spec c 83) as [->|N]; auto. destruct (N.eqb_spec c 87) as [->|N']; auto.
  cbn [orb]. destruct c as [|p]; auto. repeat (destruct p as [p|p|]; auto); contradiction.
Qed.
(** The value of a coordinate is its degrees without sign, plus minutes / 60, plus seconds / 3600; it is
    negative exactly for a leading minus, S or W. *)
Theorem C35_parse_sign g w d qd m s : find_group g (w, Deg) = Some d -> float_of d = Some qd ->
  reads (find_group g (w, Min)) m -> reads (find_group g (w, Sec)) s ->
  exists q, processDegree g w = Some q /\
    Q2R q = ((if negative_text d (find_group g (w, Sign)) then -1 else 1) * (Rabs (Q2R qd) + m / 60 + s / 3600))%R.
Proof.
  intros Hd Fd Rm Rs. unfold processDegree. rewrite Hd, Fd. cbn [option_map].
  assert (P : forall v o r dd dr, reads o r -> Q2R dd = dr -> dr <> 0%R ->
     exists q, add_part (Some v) o dd = Some q /\ Q2R q = (Q2R v + r / dr)%R).
  { intros v o r dd0 dr Ho Ed Nz. destruct o as [t|]; cbn [add_part reads] in *.
    - destruct Ho as (q&F&E). rewrite F. eexists; split; [reflexivity|].
      rewrite Q2R_plus, Q2R_div, E, Ed; auto. intros Z. apply Qeq_eqR in Z. rewrite Ed in Z.
      apply Nz. rewrite Z. unfold Q2R; simpl; field.
    - exists v. split; auto. rewrite Ho. field; auto. }
  assert (E60 : Q2R 60 = 60%R) by (unfold Q2R; simpl; field).
  assert (E3600 : Q2R 3600 = 3600%R) by (unfold Q2R; simpl; field).
  destruct (P (Qabs qd) _ m 60%Q 60%R Rm E60 ltac:(lra)) as (q1&A1&V1). rewrite A1.
  destruct (P q1 _ s 3600%Q 3600%R Rs E3600 ltac:(lra)) as (q2&A2&V2). rewrite A2.
  rewrite V1, Q2R_abs in V2.
  assert (M1 : forall q, Q2R ((- 1)%Q * q) = (-1 * Q2R q)%R).
  { intros q. rewrite Q2R_mult. f_equal. unfold Q2R; simpl. field. }
  unfold negative_text. rewrite head45.
  destruct d as [|c d].
  { vm_compute in Fd. discriminate. }
  destruct (c =? 45).
  { cbn [letters_of existsb]. change (83 =? 83) with true. cbn [orb option_map].
    eexists; split; [reflexivity|]. rewrite M1, V2. reflexivity. }
  destruct (find_group g (w, Sign)) as [[|l [|l' t]]|].
  - exists q2. split; auto. rewrite V2; ring.
  - change (match [l] with [83] | [87] => true | _ => false end) with (match l with 83 | 87 => true | _ => false end).
    replace (match l with 83 | 87 => true | _ => false end) with (letters_of [83; 87] l)
      by (rewrite (sw_letter l true false); destruct (letters_of [83; 87] l); auto).
    destruct (letters_of [83; 87] l).
    + cbn [option_map]. eexists; split; [reflexivity|]. rewrite M1, V2. reflexivity.
    + exists q2. split; auto. rewrite V2; ring.
  - exists q2. split; auto. rewrite V2.
    assert (match (l :: l' :: t)%list with [83] | [87] => true | _ => false end = false) as ->; [|ring].
    destruct l as [|p]; auto. repeat (destruct p as [p|p|]; auto).
  - exists q2. split; auto. rewrite V2; ring.
Qed.

(** ** Whole texts *)
Lemma sign_there k p c t R h : p c = true -> first R t h ->
  exists h', first (Seq (Opt (Grp k (One p))) R) (c :: t) h' /\ groups h' = (k, [c]) :: groups h /\ rest h' = rest h.
Proof.
  intros P F. eexists. split; [|split].
  - eapply first_seq; [apply first_opt, first_grp, first_one; exact P|]. exact F.
  - reflexivity.
  - reflexivity.
Qed.
Lemma sign_not k p t R h : stops p t -> first R t h ->
  exists h', first (Seq (Opt (Grp k (One p))) R) t h' /\ groups h' = groups h /\ rest h' = rest h.
Proof.
  intros P F. eexists. split; [|split].
  - eapply first_seq; [apply first_opt_none|]; [|exact F]. cbn [runs]. destruct t as [|c t]; auto. simpl in P. rewrite P. auto.
  - reflexivity.
  - reflexivity.
Qed.
(** between the coordinates: white space with or without a comma *)
Definition between (wa : str) (comma : option str) : str := (wa ++ match comma with Some wb => 44 :: wb | None => [] end)%list.
Definition spaces' (comma : option str) : Prop := match comma with Some wb => spaces wb | None => True end.
Lemma comma_ws R wa comma t h : spaces wa -> spaces' comma -> stops is_space t -> stops (N.eqb 44) t -> first R t h ->
  exists h', first (Seq ws (Seq (Opt (Lit [44])) (Seq ws R))) (between wa comma ++ t) h' /\ groups h' = groups h /\ rest h' = rest h.
Proof.
  intros H1 H2 HT HC F. unfold between. rewrite <- app_assoc. destruct comma as [wb|].
  - cbn [app]. eexists. split; [|split].
    + eapply first_seq; [apply first_spans; [exact H1|reflexivity]|]. cbn [rest].
      eapply first_seq; [apply first_opt, (first_lit [44])|]. cbn [rest].
      eapply first_seq; [apply first_spans; [exact H2|exact HT]|]. exact F.
    + reflexivity.
    + reflexivity.
  - cbn [app]. eexists. split; [|split].
    + eapply first_seq; [apply first_spans; [exact H1|exact HT]|]. cbn [rest].
      eapply first_seq; [apply first_opt_none|].
      { cbn [runs strip]. destruct t as [|c t]; auto. unfold stops in HC. rewrite HC; auto. }
      cbn [rest]. eapply first_seq; [apply (first_spans is_space [] t); auto|]. exact F.
    + reflexivity.
    + reflexivity.
Qed.
Lemma end_ws : first ws [] (Hit [] [] []).
Proof. exists []. reflexivity. Qed.
Definition ns (c : N) : Prop := c = 78 \/ c = 83.
Definition ew (c : N) : Prop := c = 69 \/ c = 87.
Lemma dec_head_stop p n t : (forall c, is_digit c = true -> p c = false) -> stops p (dec n ++ t).
Proof.
  intros H. pose proof (dec_nonempty n). pose proof (dec_digits n) as D. destruct (dec n) as [|c l]; [contradiction|].
  simpl in *. apply andb_true_iff in D as (D&_). auto.
Qed.
Lemma digit_not_comma c : is_digit c = true -> (44 =? c) = false.
Proof. intros H. apply N.eqb_neq. intros <-. discriminate. Qed.
Lemma count_dec c n : is_digit c = false -> count c (dec n) = 0%nat.
Proof. intros H. eapply count_none; [apply dec_digits|auto]. Qed.
Lemma count_fixed c k n : numeral c = false -> count c (fixed k n) = 0%nat.
Proof. intros H. eapply count_none; [apply fixed_numeral|auto]. Qed.
Lemma count_spaces w : spaces w -> count DEG w = 0%nat.
Proof. intros H. eapply count_none; [exact H|reflexivity]. Qed.
Ltac counts := repeat first [rewrite count_app | progress cbn [count] | rewrite count_dec by reflexivity
  | rewrite count_fixed by reflexivity | rewrite count_spaces by assumption].

Lemma text1_single w0 D w1 M w2 k n c : spaces w0 -> spaces w1 -> spaces w2 -> ns c \/ ew c ->
  gpsFromString (w0 ++ dms D w1 M w2 k n [32] [c]) =
  of_single [((Single, Deg), dec D); ((Single, Min), dec M); ((Single, Sec), fixed k n); ((Single, Sign), [c])].
Proof.
  intros H0 H1 H2 Hc. rewrite single_only.
  2:{ unfold dms. counts. unfold ns, ew in Hc. destruct Hc as [[-> | ->] | [-> | ->]]; reflexivity. }
  destruct (sign_there (Single, Sign) (letters_of [78; 83; 87; 69]) c [] ws _ ltac:(destruct Hc as [[-> | ->] | [-> | ->]]; reflexivity) end_ws)
    as (h1&F1&G1&_).
  destruct (coord1 Single _ D w1 M w2 k n [32] [c] h1 H1 H2 eq_refl ltac:(destruct Hc as [[-> | ->] | [-> | ->]]; reflexivity) F1)
    as (h2&F2&G2&_).
  cbn [map regex_list try]. erewrite first_match.
  2:{ unfold single_pattern, regex1. cbn [app seqs]. eapply first_seq; [apply first_spans; [exact H0|apply dec_stop]|]. exact F2. }
  cbn [glue groups app]. rewrite G2, G1. reflexivity.
Qed.
Lemma text1_pair w0 D w1 M w2 k n c wa cm D' w1' M' w2' k' n' c' :
  spaces w0 -> spaces w1 -> spaces w2 -> ns c -> spaces wa -> spaces' cm -> spaces w1' -> spaces w2' -> ew c' ->
  gpsFromString (w0 ++ dms D w1 M w2 k n [32] (c :: between wa cm ++ dms D' w1' M' w2' k' n' [32] [c'])) =
  of_pair [((Lat, Deg), dec D); ((Lat, Min), dec M); ((Lat, Sec), fixed k n); ((Lat, Sign), [c]);
           ((Lon, Deg), dec D'); ((Lon, Min), dec M'); ((Lon, Sec), fixed k' n'); ((Lon, Sign), [c'])].
Proof.
  intros H0 H1 H2 Hc Ha Hb H1' H2' Hc'.
  destruct (sign_there (Lon, Sign) (letters_of [87; 69]) c' [] ws _ ltac:(destruct Hc' as [-> | ->]; reflexivity) end_ws) as (h1&F1&G1&_).
  destruct (coord1 Lon _ D' w1' M' w2' k' n' [32] [c'] h1 H1' H2' eq_refl ltac:(destruct Hc' as [-> | ->]; reflexivity) F1) as (h2&F2&G2&_).
  destruct (comma_ws _ wa cm _ h2 Ha Hb (dec_stop _ _) (dec_head_stop _ _ _ digit_not_comma) F2) as (h3&F3&G3&_).
  destruct (sign_there (Lat, Sign) (letters_of [78; 83]) c _ _ _ ltac:(destruct Hc as [-> | ->]; reflexivity) F3) as (h4&F4&G4&_).
  destruct (coord1 Lat _ D w1 M w2 k n [32] (c :: _) h4 H1 H2 eq_refl ltac:(destruct Hc as [-> | ->]; reflexivity) F4) as (h5&F5&G5&_).
  unfold gpsFromString. cbn [map regex_list try]. erewrite first_match.
  2:{ unfold pair_pattern, regex1. cbn [app seqs]. eapply first_seq; [apply first_spans; [exact H0|apply dec_stop]|]. exact F5. }
  cbn [glue groups app]. rewrite G5, G4, G3, G2, G1. reflexivity.
Qed.
Lemma text2_single w0 D w1 k n q c : spaces w0 -> spaces w1 -> ns c \/ ew c ->
  gpsFromString (w0 ++ dm D w1 (S k) n q [32] [c]) =
  of_single [((Single, Deg), dec D); ((Single, Min), fixed (S k) n); ((Single, Sign), [c])].
Proof.
  intros H0 H1 Hc. rewrite single_only.
  2:{ unfold dm. counts. unfold ns, ew in Hc. destruct q, Hc as [[-> | ->] | [-> | ->]]; reflexivity. }
  destruct (sign_there (Single, Sign) (letters_of [78; 83; 87; 69]) c [] ws _ ltac:(destruct Hc as [[-> | ->] | [-> | ->]]; reflexivity) end_ws)
    as (h1&F1&G1&_).
  destruct (coord2 Single _ D w1 (S k) n q [32] [c] h1 H1 eq_refl ltac:(destruct Hc as [[-> | ->] | [-> | ->]]; reflexivity)
     ltac:(destruct Hc as [[-> | ->] | [-> | ->]]; reflexivity) ltac:(destruct Hc as [[-> | ->] | [-> | ->]]; reflexivity) ltac:(discriminate) F1) as (h2&F2&G2&_).
  cbn [map regex_list try]. unfold re_match at 1. unfold single_pattern at 1, regex1 at 1. cbn [app seqs].
  rewrite regex1_not_dm by auto. erewrite first_match.
  2:{ unfold single_pattern, regex2. cbn [app seqs]. eapply first_seq; [apply first_spans; [exact H0|apply dec_stop]|]. exact F2. }
  cbn [glue groups app]. rewrite G2, G1. reflexivity.
Qed.
Lemma text2_pair w0 D w1 k n q c wa cm D' w1' k' n' q' c' :
  spaces w0 -> spaces w1 -> ns c -> spaces wa -> spaces' cm -> spaces w1' -> ew c' ->
  gpsFromString (w0 ++ dm D w1 (S k) n q [32] (c :: between wa cm ++ dm D' w1' k' n' q' [32] [c'])) =
  of_pair [((Lat, Deg), dec D); ((Lat, Min), fixed (S k) n); ((Lat, Sign), [c]);
           ((Lon, Deg), dec D'); ((Lon, Min), fixed k' n'); ((Lon, Sign), [c'])].
Proof.
  intros H0 H1 Hc Ha Hb H1' Hc'.
  destruct (sign_there (Lon, Sign) (letters_of [87; 69]) c' [] ws _ ltac:(destruct Hc' as [-> | ->]; reflexivity) end_ws) as (h1&F1&G1&_).
  destruct (coord2 Lon _ D' w1' k' n' q' [32] [c'] h1 H1' eq_refl ltac:(destruct Hc' as [-> | ->]; reflexivity)
     ltac:(destruct Hc' as [-> | ->]; reflexivity) ltac:(destruct Hc' as [-> | ->]; reflexivity) ltac:(discriminate) F1) as (h2&F2&G2&_).
  destruct (comma_ws _ wa cm _ h2 Ha Hb (dec_stop _ _) (dec_head_stop _ _ _ digit_not_comma) F2) as (h3&F3&G3&_).
  destruct (sign_there (Lat, Sign) (letters_of [78; 83]) c _ _ _ ltac:(destruct Hc as [-> | ->]; reflexivity) F3) as (h4&F4&G4&_).
  destruct (coord2 Lat _ D w1 (S k) n q [32] (c :: _) h4 H1 eq_refl ltac:(destruct Hc as [-> | ->]; reflexivity)
     ltac:(destruct Hc as [-> | ->]; reflexivity) ltac:(destruct Hc as [-> | ->]; reflexivity) ltac:(discriminate) F4) as (h5&F5&G5&_).
  unfold gpsFromString. cbn [map regex_list try]. unfold re_match at 1. unfold pair_pattern at 1, regex1 at 1. cbn [app seqs].
  rewrite regex1_not_dm by auto. erewrite first_match.
  2:{ unfold pair_pattern, regex2. cbn [app seqs]. eapply first_seq; [apply first_spans; [exact H0|apply dec_stop]|]. exact F5. }
  cbn [glue groups app]. rewrite G5, G4, G3, G2, G1. reflexivity.
Qed.
Lemma dd_stop p g k n w t : p 45 = false -> (forall c, is_digit c = true -> p c = false) -> stops p (dd g k n w t).
Proof.
  intros H H'. unfold dd. destruct g; cbn [app]; [exact H|].
  pose proof (fixed_head k n) as F. destruct (fixed k n) as [|c l]; [contradiction|]. simpl. auto.
Qed.
Lemma text3_single w0 g k n : spaces w0 ->
  gpsFromString (w0 ++ dd g (S k) n [] []) = of_single [((Single, Deg), (if g then [45] else []) ++ fixed (S k) n)%list].
Proof.
  intros H0. rewrite single_only.
  2:{ unfold dd. counts. destruct g; reflexivity. }
  destruct (sign_not (Single, Sign) (letters_of [78; 83; 87; 69]) [] ws _ I end_ws) as (h1&F1&G1&_).
  destruct (coord3 Single _ g (S k) n [] [] h1 eq_refl I F1) as (h2&F2&G2&_).
  cbn [map regex_list try]. unfold re_match at 1. unfold single_pattern at 1, regex1 at 1. cbn [app seqs].
  rewrite regex12_not_dd by auto. unfold re_match at 1. unfold single_pattern at 1, regex2 at 1. cbn [app seqs].
  rewrite regex12_not_dd by auto. erewrite first_match.
  2:{ unfold single_pattern, regex3. cbn [app seqs]. eapply first_seq;
      [apply first_spans; [exact H0|apply dd_stop; [reflexivity|exact digit_no_space]]|]. exact F2. }
  cbn [glue groups app]. rewrite G2, G1. reflexivity.
Qed.
Lemma digit_not_ns c : is_digit c = true -> letters_of [78; 83] c = false.
Proof.
  intros D. destruct (letters_of [78; 83] c) eqn:E; auto. exfalso. unfold letters_of in E. cbn [existsb] in E.
  apply orb_true_iff in E as [E|E]; [|apply orb_true_iff in E as [E|E]];
    try discriminate; apply N.eqb_eq in E; subst; discriminate.
Qed.
Lemma text3_pair w0 g k n wa cm g' k' n' : spaces w0 -> spaces wa -> spaces' cm ->
  gpsFromString (w0 ++ dd g (S k) n wa (between [] cm ++ dd g' k' n' [] [])) =
  of_pair [((Lat, Deg), (if g then [45] else []) ++ fixed (S k) n); ((Lon, Deg), (if g' then [45] else []) ++ fixed k' n')]%list.
Proof.
  intros H0 Ha Hb.
  destruct (sign_not (Lon, Sign) (letters_of [87; 69]) [] ws _ I end_ws) as (h1&F1&G1&_).
  destruct (coord3 Lon _ g' k' n' [] [] h1 eq_refl I F1) as (h2&F2&G2&_).
  assert (ST : stops is_space (dd g' k' n' [] [])) by (apply dd_stop; [reflexivity|exact digit_no_space]).
  destruct (comma_ws _ [] cm _ h2 eq_refl Hb ST ltac:(apply dd_stop; [reflexivity|exact digit_not_comma]) F2) as (h3&F3&G3&_).
  destruct (sign_not (Lat, Sign) (letters_of [78; 83]) (between [] cm ++ dd g' k' n' [] []) _ _
    ltac:(destruct cm; [reflexivity|apply dd_stop; [reflexivity|exact digit_not_ns]]) F3) as (h4&F4&G4&_).
  destruct (coord3 Lat _ g (S k) n wa (between [] cm ++ dd g' k' n' [] []) h4 Ha ltac:(destruct cm; [reflexivity|exact ST]) F4) as (h5&F5&G5&_).
  unfold gpsFromString. cbn [map regex_list try]. unfold re_match at 1. unfold pair_pattern at 1, regex1 at 1. cbn [app seqs].
  rewrite regex12_not_dd by auto. unfold re_match at 1. unfold pair_pattern at 1, regex2 at 1. cbn [app seqs].
  rewrite regex12_not_dd by auto. erewrite first_match.
  2:{ unfold pair_pattern, regex3. cbn [app seqs]. eapply first_seq;
      [apply first_spans; [exact H0|apply dd_stop; [reflexivity|exact digit_no_space]]|]. exact F5. }
  cbn [glue groups app]. rewrite G5, G4, G3, G2, G1. reflexivity.
Qed.

(** ** C33: the documented formats *)
Definition format_minutes : str := (text "%2d" ++ [DEG] ++ text " %2.3f' %s")%list.
Definition format_example : str := (text "%2d" ++ [DEG] ++ text " %2.3f %s")%list.
Definition format_degrees : str := (text "%2.3f" ++ [DEG])%list.
Lemma conv_d w n : convert (Spec false w None KD) (VNum (RN n)) = Some (pad 32 w (dec n)).
Proof.
  unfold convert, signed. cbn [knd zero width prec]. rewrite Rneg_false, truncN_RN by apply RN_nonneg. reflexivity.
Qed.
Lemma conv_f w k n : convert (Spec false w (Some k) KF) (VNum (RN n / 10 ^ k)) = Some (pad 32 w (fixed k n)).
Proof.
  unfold convert, signed. cbn [knd zero width prec]. pose proof (pow10R k) as P. pose proof (RN_nonneg n) as Q.
  assert (0 <= RN n / 10 ^ k)%R by (apply Rmult_le_pos; [auto|left; apply Rinv_0_lt_compat; auto]).
  rewrite Rneg_false by auto. rewrite Rabs_right by lra.
  replace (RN n / 10 ^ k * 10 ^ k)%R with (RN n) by (field; lra). rewrite half_even_RN. reflexivity.
Qed.
Lemma percent_default a b c l u1 u2 u3 :
  convert (Spec false 2 None KD) (VNum a) = Some u1 -> convert (Spec false 2 None KD) (VNum b) = Some u2 ->
  convert (Spec false 6 (Some 3%nat) KF) (VNum c) = Some u3 ->
  percent None default_format [VNum a; VNum b; VNum c; VText [l]] =
  Some (u1 ++ DEG :: 32 :: u2 ++ 39 :: 32 :: u3 ++ [34; 32; l])%list.
Proof. intros H1 H2 H3. lazy -[convert]. rewrite H1, H2, H3. reflexivity. Qed.
Lemma percent_minutes (q : bool) a b l u1 u2 :
  convert (Spec false 2 None KD) (VNum a) = Some u1 -> convert (Spec false 2 (Some 3%nat) KF) (VNum b) = Some u2 ->
  percent None (if q then format_minutes else format_example) [VNum a; VNum b; VText [l]] =
  Some (u1 ++ DEG :: 32 :: u2 ++ (if q then [39] else []) ++ [32; l])%list.
Proof. intros H1 H2. destruct q; lazy -[convert]; rewrite H1, H2; reflexivity. Qed.
Lemma percent_degrees a u1 : convert (Spec false 2 (Some 3%nat) KF) (VNum a) = Some u1 ->
  percent None format_degrees [VNum a] = Some (u1 ++ [DEG])%list.
Proof. intros H1. lazy -[convert]; rewrite H1; reflexivity. Qed.
Definition letter (letters : N * N) (x : R) : N := if Rneg x then snd letters else fst letters.
Lemma print_default letters x D M n :
  print default_format letters x [RN D; RN M; RN n / 10 ^ 3]%R =
  FOk (repeat 32 (2 - len (dec D)) ++ dms D (32 :: repeat 32 (2 - len (dec M))) M
        (32 :: repeat 32 (6 - len (fixed 3 n))) 3 n [32] [letter letters x])%list.
Proof.
  unfold print. change (has_letter default_format) with true. cbv iota.
  change (fills (findall default_format) [if Rneg x then snd letters else fst letters] [RN D; RN M; RN n / 10 ^ 3]%R)
    with [VNum (RN D); VNum (RN M); VNum (RN n / 10 ^ 3); VText [letter letters x]].
  erewrite percent_default; [|apply conv_d|apply conv_d|apply (conv_f 6 3)].
  f_equal. unfold pad, dms. repeat (rewrite <- !app_assoc; cbn [app]). reflexivity.
Qed.
Lemma print_minutes (q : bool) letters x D n :
  print (if q then format_minutes else format_example) letters x [RN D; RN n / 10 ^ 3; 0]%R =
  FOk (repeat 32 (2 - len (dec D)) ++ dm D (32 :: repeat 32 (2 - len (fixed 3 n))) 3 n q [32] [letter letters x])%list.
Proof.
  unfold print. replace (has_letter (if q then format_minutes else format_example)) with true by (destruct q; reflexivity). cbv iota.
  replace (fills (findall (if q then format_minutes else format_example)) [if Rneg x then snd letters else fst letters] [RN D; RN n / 10 ^ 3; 0]%R)
    with [VNum (RN D); VNum (RN n / 10 ^ 3); VText [letter letters x]] by (destruct q; reflexivity).
  erewrite percent_minutes; [|apply conv_d|apply (conv_f 2 3)].
  f_equal. unfold pad, dm. repeat (rewrite <- !app_assoc; cbn [app]). reflexivity.
Qed.
Lemma format_degrees_prints letters x : exists w0 n, spaces w0 /\
  format_one format_degrees letters x = FOk (w0 ++ dd (Rneg x) 3 n [] [])%list /\
  (Rabs (RN n / 10 ^ 3 - Rabs x) <= 1 / 2 / 10 ^ 3)%R.
Proof.
  set (n := half_even (Rabs x * 10 ^ 3)).
  set (v := if Rneg x then (- Rabs x)%R else Rabs x).
  assert (AV : Rabs v = Rabs x).
  { unfold v. destruct (Rneg x); [rewrite Rabs_Ropp|]; apply Rabs_Rabsolu. }
  assert (NV : Rneg v = Rneg x).
  { unfold v. destruct (Rltb_dec x 0) as [(E&L)|(E&L)]; fold (Rneg x) in E; rewrite E.
    - apply Rneg_true. rewrite Rabs_left; lra.
    - apply Rneg_false. apply Rabs_pos. }
  assert (C : convert (Spec false 2 (Some 3%nat) KF) (VNum v) = Some (pad 32 2 ((if Rneg x then [45] else []) ++ fixed 3 n))).
  { unfold convert, signed. cbn [knd zero width prec]. rewrite NV, AV. reflexivity. }
  exists (repeat 32 (2 - len ((if Rneg x then [45] else []) ++ fixed 3 n)%list)), n. split; [apply spaces_repeat|]. split.
  - assert (F : format_one format_degrees letters x =
       match percent None format_degrees [VNum v] with Some s => FOk s | None => FPercent end) by reflexivity.
    rewrite F, (percent_degrees _ _ C). f_equal. unfold pad, dd. rewrite <- !app_assoc. reflexivity.
  - pose proof (shown_near (Spec false 2 (Some 3%nat) KF) (Rabs x) (Rabs_pos x)) as N.
    unfold near, shown, decimals in N. cbn [knd prec] in N. rewrite Rabs_Rabsolu in N. exact N.
Qed.
Lemma dec_not_minus n c : negative_text (dec n) (Some [c]) = letters_of [83; 87] c.
Proof.
  unfold negative_text. rewrite head45. pose proof (dec_nonempty n). pose proof (dec_digits n) as D.
  destruct (dec n) as [|x d]; [contradiction|]. cbn [forallb] in D. apply andb_true_iff in D as (D&_).
  destruct (N.eqb_spec x 45) as [->|_]; [discriminate|].
  change (match [c] with [83] | [87] => true | _ => false end) with (match c with 83 | 87 => true | _ => false end).
  rewrite (sw_letter c true false). destruct (letters_of [83; 87] c); auto.
Qed.
Lemma dec_float n : exists q, float_of (dec n) = Some q /\ Q2R q = RN n.
Proof. destruct (fixed_float 0 n) as (q&E&V). exists q. split; auto. rewrite V. simpl. field. Qed.
Lemma sign_abs x : ((if Rneg x then -1 else 1) * Rabs x = x)%R.
Proof.
  destruct (Rltb_dec x 0) as [(E&L)|(E&L)]; fold (Rneg x) in E; rewrite E; [rewrite Rabs_left by auto|rewrite Rabs_right by lra]; lra.
Qed.
Lemma letter_sign letters x : letters = NS \/ letters = EW -> letters_of [83; 87] (letter letters x) = Rneg x.
Proof. intros H. unfold letter. destruct (Rneg x), H as [-> | ->]; reflexivity. Qed.
Lemma letter_ns x : ns (letter NS x). Proof. unfold ns, letter. destruct (Rneg x); auto. Qed.
Lemma letter_ew x : ew (letter EW x). Proof. unfold ew, letter. destruct (Rneg x); auto. Qed.
Lemma apart x v e : (Rabs (v - Rabs x) <= e)%R -> (Rabs ((if Rneg x then -1 else 1) * v - x) <= e)%R.
Proof.
  intros H. rewrite <- (sign_abs x) at 2. rewrite <- Rmult_minus_distr_l, Rabs_mult.
  assert (Rabs (if Rneg x then -1 else 1) = 1%R) as ->; [|lra].
  destruct (Rneg x); [rewrite Rabs_left by lra|rewrite Rabs_R1]; lra.
Qed.
(** one coordinate of each kind: its text and what its groups are worth *)
Lemma value_dms w D M k n c x letters e : letters = NS \/ letters = EW -> c = letter letters x ->
  (Rabs (3600 * RN D + 60 * RN M + RN n / 10 ^ k - 3600 * Rabs x) <= 3600 * e)%R ->
  exists q, processDegree [((w, Deg), dec D); ((w, Min), dec M); ((w, Sec), fixed k n); ((w, Sign), [c])] w = Some q /\
    (Rabs (Q2R q - x) <= e)%R.
Proof.
  intros HL -> B. destruct (dec_float D) as (qd&Fd&Vd).
  destruct (C35_parse_sign [((w, Deg), dec D); ((w, Min), dec M); ((w, Sec), fixed k n); ((w, Sign), [letter letters x])] w
     (dec D) qd (RN M) (RN n / 10 ^ k)) as (q&E&V); auto.
  - destruct w; reflexivity.
  - replace (find_group _ _) with (Some (dec M)) by (destruct w; reflexivity). apply dec_float.
  - replace (find_group _ _) with (Some (fixed k n)) by (destruct w; reflexivity). apply fixed_float.
  - exists q. split; auto. rewrite V.
    replace (find_group _ _) with (Some [letter letters x]) by (destruct w; reflexivity).
    rewrite dec_not_minus, letter_sign by auto. apply apart. rewrite Vd, (Rabs_right (RN D)) by (apply Rle_ge, RN_nonneg).
    replace (RN D + RN M / 60 + RN n / 10 ^ k / 3600 - Rabs x)%R
      with ((3600 * RN D + 60 * RN M + RN n / 10 ^ k - 3600 * Rabs x) / 3600)%R by (pose proof (pow10R k); field; lra).
    unfold Rdiv. rewrite Rabs_mult, (Rabs_right (/ 3600)) by lra. lra.
Qed.
Lemma value_dm w D k n c x letters e : letters = NS \/ letters = EW -> c = letter letters x ->
  (Rabs (60 * RN D + RN n / 10 ^ k - 60 * Rabs x) <= 60 * e)%R ->
  exists q, processDegree [((w, Deg), dec D); ((w, Min), fixed k n); ((w, Sign), [c])] w = Some q /\
    (Rabs (Q2R q - x) <= e)%R.
Proof.
  intros HL -> B. destruct (dec_float D) as (qd&Fd&Vd).
  destruct (C35_parse_sign [((w, Deg), dec D); ((w, Min), fixed k n); ((w, Sign), [letter letters x])] w
     (dec D) qd (RN n / 10 ^ k) 0) as (q&E&V); auto.
  - destruct w; reflexivity.
  - replace (find_group _ _) with (Some (fixed k n)) by (destruct w; reflexivity). apply fixed_float.
  - replace (find_group _ _) with (@None str) by (destruct w; reflexivity). reflexivity.
  - exists q. split; auto. rewrite V.
    replace (find_group _ _) with (Some [letter letters x]) by (destruct w; reflexivity).
    rewrite dec_not_minus, letter_sign by auto. apply apart. rewrite Vd, (Rabs_right (RN D)) by (apply Rle_ge, RN_nonneg).
    replace (RN D + RN n / 10 ^ k / 60 + 0 / 3600 - Rabs x)%R
      with ((60 * RN D + RN n / 10 ^ k - 60 * Rabs x) / 60)%R by (pose proof (pow10R k); field; lra).
    unfold Rdiv. rewrite Rabs_mult, (Rabs_right (/ 60)) by lra. lra.
Qed.
Lemma value_dd w k n x e : (Rabs (RN n / 10 ^ k - Rabs x) <= e)%R ->
  exists q, processDegree [((w, Deg), (if Rneg x then [45] else []) ++ fixed k n)%list] w = Some q /\ (Rabs (Q2R q - x) <= e)%R.
Proof.
  intros B. destruct (fixed_float k n) as (qf&Ff&Vf). pose proof (fixed_head k n) as FH.
  set (d := ((if Rneg x then [45] else []) ++ fixed k n)%list).
  assert (exists qd, float_of d = Some qd /\ Rabs (Q2R qd) = (RN n / 10 ^ k)%R) as (qd&Fd&Vd).
  { assert (Rabs (RN n / 10 ^ k) = (RN n / 10 ^ k))%R as AB.
    { apply Rabs_right, Rle_ge, Rmult_le_pos; [apply RN_nonneg|left; apply Rinv_0_lt_compat, pow10R]. }
    unfold d. destruct (Rneg x); cbn [app].
    - exists (- qf)%Q. split; [|rewrite Q2R_opp, Rabs_Ropp, Vf; auto].
      apply float_minus; auto. destruct (fixed k n) as [|c l]; [contradiction|].
      unfold is_digit in FH. apply andb_true_iff in FH as (A&_). apply N.leb_le in A.
      unfold is_sign. apply orb_false_iff. split; apply N.eqb_neq; lia.
    - exists qf. rewrite Vf. auto. }
  destruct (C35_parse_sign [((w, Deg), d)] w d qd 0 0) as (q&E&V); auto.
  - destruct w; reflexivity.
  - replace (find_group _ _) with (@None str) by (destruct w; reflexivity). reflexivity.
  - replace (find_group _ _) with (@None str) by (destruct w; reflexivity). reflexivity.
  - exists q. split; auto. rewrite V.
    replace (find_group _ _) with (@None str) by (destruct w; reflexivity).
    assert (negative_text d None = Rneg x) as ->.
    { unfold negative_text, d. rewrite head45. destruct (Rneg x); cbn [app]; auto.
      destruct (fixed k n) as [|c l]; [contradiction|]. destruct (N.eqb_spec c 45) as [->|_]; [discriminate|reflexivity]. }
    apply apart. rewrite Vd. replace (RN n / 10 ^ k + 0 / 60 + 0 / 3600 - Rabs x)%R with (RN n / 10 ^ k - Rabs x)%R by (pose proof (pow10R k); field; lra). auto.
Qed.

(** the joined text: a blank, or a comma and a blank, between the coordinates *)
Definition separator (sep : str) : Prop := sep = text " " \/ sep = text ", ".
(** formatted and read back, alone and joined, up to [e] *)
Definition round_trip (fmt : option str) (e : R) : Prop := forall lat lon sep, separator sep ->
  exists s1 s2 a b, formatGPS lat lon fmt = (FOk s1, FOk s2) /\
    gpsFromString (s1 ++ sep ++ s2) = GPair a b /\ gpsFromStrings [s1; s2] = [GSingle a; GSingle b] /\
    (Rabs (Q2R a - lat) <= e)%R /\ (Rabs (Q2R b - lon) <= e)%R.
Lemma near_KF s p v : knd s = KF -> near s p v -> (Rabs (p - v) <= 1 / 2 / 10 ^ decimals s)%R.
Proof. intros K. unfold near. rewrite K. auto. Qed.

Theorem C33_default_format : round_trip None (1 / 2 / 1000 / 3600).
Proof.
  intros lat lon sep HS. unfold formatGPS.
  destruct (C34_seconds default_format NS lat (text "2", KD) (text "2", KD) (text "6.3", KF)
     (Spec false 2 None KD) (Spec false 2 None KD) (Spec false 6 (Some 3%nat) KF)) as (D&M&n&_&_&B&E); try reflexivity.
  destruct (C34_seconds default_format EW lon (text "2", KD) (text "2", KD) (text "6.3", KF)
     (Spec false 2 None KD) (Spec false 2 None KD) (Spec false 6 (Some 3%nat) KF)) as (D'&M'&n'&_&_&B'&E'); try reflexivity.
  apply near_KF in B; auto. apply near_KF in B'; auto. cbn [decimals knd prec] in *.
  rewrite E, E', !print_default.
  assert (K : forall p, (Rabs p <= 1 / 2 / 10 ^ 3 -> Rabs p <= 3600 * (1 / 2 / 1000 / 3600))%R).
  { intros p H. replace (1 / 2 / 10 ^ 3)%R with (3600 * (1 / 2 / 1000 / 3600))%R in H; auto. simpl. field. }
  destruct (value_dms Single D M 3 n _ lat NS (1 / 2 / 1000 / 3600) (or_introl eq_refl) eq_refl (K _ B)) as (a&Va&Ba).
  destruct (value_dms Single D' M' 3 n' _ lon EW (1 / 2 / 1000 / 3600) (or_intror eq_refl) eq_refl (K _ B')) as (b&Vb&Bb).
  eexists _, _, a, b. split; [reflexivity|]. split; [|split; [|auto]].
  - set (w0' := repeat 32 (2 - len (dec D'))%nat).
    assert (exists wa cm, spaces wa /\ spaces' cm /\ between wa cm = (sep ++ w0')%list) as (wa&cm&HA&HC&EB).
    { pose proof (spaces_repeat (2 - len (dec D'))) as W. fold w0' in W. destruct HS as [-> | ->].
      - exists (32 :: w0'), None. split; [exact W|]. split; [exact I|]. unfold between. rewrite app_nil_r. reflexivity.
      - exists [], (Some (32 :: w0')). split; [reflexivity|]. split; [exact W|]. reflexivity. }
    match goal with |- gpsFromString ?s = _ =>
      assert (EQ : s = (repeat 32 (2 - len (dec D)) ++ dms D (32 :: repeat 32 (2 - len (dec M))) M
        (32 :: repeat 32 (6 - len (fixed 3 n))) 3 n [32] (letter NS lat :: between wa cm ++
        dms D' (32 :: repeat 32 (2 - len (dec M'))) M' (32 :: repeat 32 (6 - len (fixed 3 n'))) 3 n' [32] [letter EW lon]))%list) end.
    { rewrite EB. unfold dms. repeat (rewrite <- !app_assoc; cbn [app]). reflexivity. }
    rewrite EQ, text1_pair; auto using spaces_repeat, letter_ns, letter_ew; try (apply spaces_repeat).
    unfold of_pair.
    replace (processDegree _ Lat) with (Some a) by (rewrite <- Va; reflexivity).
    replace (processDegree _ Lon) with (Some b) by (rewrite <- Vb; reflexivity). reflexivity.
  - unfold gpsFromStrings. cbn [map].
    rewrite !text1_single; auto using spaces_repeat, letter_ns, letter_ew; try (apply spaces_repeat).
    unfold of_single. rewrite Va, Vb. reflexivity.
Qed.
Theorem C33_minutes_format (q : bool) : round_trip (Some (if q then format_minutes else format_example)) (1 / 2 / 1000 / 60).
Proof.
  intros lat lon sep HS. unfold formatGPS.
  destruct (C34_minutes (if q then format_minutes else format_example) NS lat (text "2", KD) (text "2.3", KF)
     (Spec false 2 None KD) (Spec false 2 (Some 3%nat) KF)) as (D&n&_&B&E); try reflexivity; try (destruct q; reflexivity).
  destruct (C34_minutes (if q then format_minutes else format_example) EW lon (text "2", KD) (text "2.3", KF)
     (Spec false 2 None KD) (Spec false 2 (Some 3%nat) KF)) as (D'&n'&_&B'&E'); try reflexivity; try (destruct q; reflexivity).
  apply near_KF in B; auto. apply near_KF in B'; auto. cbn [decimals knd prec] in *.
  rewrite E, E', !print_minutes.
  assert (K : forall p, (Rabs p <= 1 / 2 / 10 ^ 3 -> Rabs p <= 60 * (1 / 2 / 1000 / 60))%R).
  { intros p H. replace (1 / 2 / 10 ^ 3)%R with (60 * (1 / 2 / 1000 / 60))%R in H; auto. simpl. field. }
  destruct (value_dm Single D 3 n _ lat NS (1 / 2 / 1000 / 60) (or_introl eq_refl) eq_refl (K _ B)) as (a&Va&Ba).
  destruct (value_dm Single D' 3 n' _ lon EW (1 / 2 / 1000 / 60) (or_intror eq_refl) eq_refl (K _ B')) as (b&Vb&Bb).
  eexists _, _, a, b. split; [reflexivity|]. split; [|split; [|auto]].
  - set (w0' := repeat 32 (2 - len (dec D'))%nat).
    assert (exists wa cm, spaces wa /\ spaces' cm /\ between wa cm = (sep ++ w0')%list) as (wa&cm&HA&HC&EB).
    { pose proof (spaces_repeat (2 - len (dec D'))) as W. fold w0' in W. destruct HS as [-> | ->].
      - exists (32 :: w0'), None. split; [exact W|]. split; [exact I|]. unfold between. rewrite app_nil_r. reflexivity.
      - exists [], (Some (32 :: w0')). split; [reflexivity|]. split; [exact W|]. reflexivity. }
    match goal with |- gpsFromString ?s = _ =>
      assert (EQ : s = (repeat 32 (2 - len (dec D)) ++ dm D (32 :: repeat 32 (2 - len (fixed 3 n))) 3 n q [32]
        (letter NS lat :: between wa cm ++
        dm D' (32 :: repeat 32 (2 - len (fixed 3 n'))) 3 n' q [32] [letter EW lon]))%list) end.
    { rewrite EB. unfold dm. repeat (rewrite <- !app_assoc; cbn [app]). reflexivity. }
    rewrite EQ, text2_pair; auto using spaces_repeat, letter_ns, letter_ew; try (apply spaces_repeat).
    unfold of_pair.
    replace (processDegree _ Lat) with (Some a) by (rewrite <- Va; reflexivity).
    replace (processDegree _ Lon) with (Some b) by (rewrite <- Vb; reflexivity). reflexivity.
  - unfold gpsFromStrings. cbn [map].
    rewrite !text2_single; auto using spaces_repeat, letter_ns, letter_ew; try (apply spaces_repeat).
    unfold of_single. rewrite Va, Vb. reflexivity.
Qed.
Theorem C33_degrees_format : round_trip (Some format_degrees) (1 / 2 / 1000).
Proof.
  intros lat lon sep HS. unfold formatGPS.
  destruct (format_degrees_prints NS lat) as (w0&n&W&E&B). destruct (format_degrees_prints EW lon) as (w0'&n'&W'&E'&B').
  rewrite E, E'.
  assert (K : forall p, (Rabs p <= 1 / 2 / 10 ^ 3 -> Rabs p <= 1 / 2 / 1000)%R).
  { intros p H. replace (1 / 2 / 10 ^ 3)%R with (1 / 2 / 1000)%R in H; auto. simpl. field. }
  destruct (value_dd Single 3 n lat _ (K _ B)) as (a&Va&Ba). destruct (value_dd Single 3 n' lon _ (K _ B')) as (b&Vb&Bb).
  eexists _, _, a, b. split; [reflexivity|]. split; [|split; [|auto]].
  - assert (exists wa cm, spaces wa /\ spaces' cm /\ (wa ++ between [] cm = sep ++ w0')%list) as (wa&cm&HA&HC&EB).
    { destruct HS as [-> | ->].
      - exists (32 :: w0'), None. split; [exact W'|]. split; [exact I|]. unfold between. rewrite app_nil_r. reflexivity.
      - exists [], (Some (32 :: w0')). split; [reflexivity|]. split; [exact W'|]. reflexivity. }
    match goal with |- gpsFromString ?s = _ =>
      assert (EQ : s = (w0 ++ dd (Rneg lat) 3 n wa (between [] cm ++ dd (Rneg lon) 3 n' [] []))%list) end.
    { unfold dd at 1 3. repeat (rewrite <- !app_assoc; cbn [app]). do 4 f_equal. rewrite !app_assoc, EB. reflexivity. }
    rewrite EQ, text3_pair; auto.
    unfold of_pair.
    replace (processDegree _ Lat) with (Some a) by (rewrite <- Va; reflexivity).
    replace (processDegree _ Lon) with (Some b) by (rewrite <- Vb; reflexivity). reflexivity.
  - unfold gpsFromStrings. cbn [map]. rewrite !text3_single; auto.
    unfold of_single. rewrite Va, Vb. reflexivity.
Qed.

(** ** C34 and C35: where they fail *)
Definition format_whole : str := (text "%d" ++ [DEG] ++ text " %d'")%list.
Definition format_round : str := (text "%.0f" ++ [DEG] ++ text " %.0f'")%list.
Lemma Rfloor_eq x z : (IZR z <= x < IZR z + 1)%R -> Rfloor x = z.
Proof.
  intros H. destruct (Rfloor_bounds x). assert (Rfloor x < z + 1 /\ z < Rfloor x + 1)%Z; [|lia].
  split; apply lt_IZR; rewrite plus_IZR; lra.
Qed.
Lemma near_int (D n : N) : (RN D <= 30 < RN D + 1)%R -> D = 30.
Proof.
  intros (A&B). assert (D <= 30 /\ 30 < D + 1); [|lia].
  unfold RN in *. split.
  - apply N2Z.inj_le. apply le_IZR. exact A.
  - apply N2Z.inj_lt. apply lt_IZR. rewrite N2Z.inj_add, plus_IZR. exact B.
Qed.
(** without a letter and with whole degrees the sign of a coordinate between -1 and 0 is lost *)
Theorem C35_whole_degrees_refuted : exists x s q, (x < 0)%R /\ (forall letters, format_one format_whole letters x = FOk s) /\
  gpsFromString s = GSingle q /\ (Q2R q = - x)%R.
Proof.
  exists (- (1 / 2))%R, ([48; DEG; 32] ++ text "30'")%list. eexists. split; [lra|]. split.
  - intros letters.
    destruct (C34_minutes format_whole letters (- (1 / 2))%R (text "", KD) (text "", KD) (Spec false 0 None KD) (Spec false 0 None KD))
      as (D&n&L&B&E); try reflexivity.
    cbn [decimals knd prec pow10] in *. apply KD_near in B; auto.
    assert (n < 60) as L' by (simpl in L; lia). clear L.
    assert (AV : (60 * Rabs (- (1 / 2)) = 30)%R) by (rewrite Rabs_left by lra; lra). rewrite AV in B.
    replace (60 * RN D + RN n / 10 ^ 0)%R with (RN (60 * D + n)) in B.
    2:{ rewrite RN_add, RN_mul. change (RN 60) with 60%R. simpl. field. }
    apply near_int in B; auto. assert (D = 0 /\ n = 30) as (-> & ->) by lia.
    rewrite E. unfold print. change (has_letter format_whole) with false. cbv iota.
    rewrite (Rneg_true (- (1 / 2))) by lra.
    change (fills _ _ _) with [VNum (- RN 0); VNum (RN 30 / 10 ^ 0)].
    assert (C0 : convert (Spec false 0 None KD) (VNum (- RN 0)) = Some [48]).
    { replace (- RN 0)%R with (RN 0) by (unfold RN; simpl; lra). rewrite conv_d. reflexivity. }
    assert (C1 : convert (Spec false 0 None KD) (VNum (RN 30 / 10 ^ 0)) = Some [51; 48]).
    { replace (RN 30 / 10 ^ 0)%R with (RN 30) by (simpl; field). rewrite conv_d. reflexivity. }
    revert C0 C1. generalize (- RN 0)%R (RN 30 / 10 ^ 0)%R. intros a b C0 C1. lazy -[convert]. rewrite C0, C1. reflexivity.
  - split; [vm_compute; reflexivity|]. unfold Q2R. simpl. lra.
Qed.
(** rounded degrees before the minutes count the minutes twice: 0.75 prints as 1 degree 45 minutes *)
Theorem C34_rounded_degrees_refuted : exists x s q, (forall letters, format_one format_round letters x = FOk s) /\
  gpsFromString s = GSingle q /\ (Rabs (Q2R q - x) = 1)%R.
Proof.
  exists (3 / 4)%R, ([49; DEG; 32] ++ text "45'")%list. eexists. split.
  - intros letters. unfold format_one.
    assert (M1 : mod60 (Rabs (3 / 4) * 60) = 45%R).
    { rewrite Rabs_right by lra. unfold mod60. replace (3 / 4 * 60 / 60)%R with (3 / 4)%R by field.
      assert (Rfloor (3 / 4) = 0%Z) as -> by (apply Rfloor_eq; simpl; lra). lra. }
    rewrite M1.
    assert (F : forall n, convert (Spec false 0 (Some 0%nat) KF) (VNum (RN n)) = Some (dec n)).
    { intros n. replace (RN n) with (RN n / 10 ^ 0)%R by (simpl; field). rewrite conv_f. unfold pad. simpl. reflexivity. }
    assert (F45 : convert (Spec false 0 (Some 0%nat) KF) (VNum 45) = Some (text "45")) by apply (F 45).
    assert (F60 : convert (Spec false 0 (Some 0%nat) KF) (VNum 60) = Some (text "60")) by apply (F 60).
    assert (F1 : convert (Spec false 0 (Some 0%nat) KF) (VNum (Rabs (3 / 4))) = Some (text "1")).
    { rewrite Rabs_right by lra. change (Some (text "1")) with (Some (dec 1)). rewrite <- (F 1). apply convert_same; try discriminate; try lra; [apply RN_nonneg|].
      unfold shown. cbn [knd decimals prec]. rewrite (Rabs_right (3 / 4)), (Rabs_right (RN 1)) by (try (apply Rle_ge, RN_nonneg); lra). 
      replace (RN 1 * 10 ^ 0)%R with (RN 1) by (simpl; field). rewrite half_even_RN.
      unfold half_even. replace (3 / 4 * 10 ^ 0)%R with (3 / 4)%R by (simpl; field).
      assert (Rfloor (3 / 4) = 0%Z) as -> by (apply Rfloor_eq; simpl; lra).
      rewrite Rltb_false by lra. rewrite Rltb_true by lra. reflexivity. }
    change (findall format_round) with [(text ".0", KF); (text ".0", KF)]. cbn [filter is_s snd negb List.length Nat.ltb Nat.leb existsb orb take nth_error].
    change (rounds_up None (mod60 (45 * 60))) with (Some false). cbv iota.
    assert (U : rounds_up (Some (text ".0", KF)) 45 = Some false).
    { unfold rounds_up. revert F45 F60. generalize 45%R 60%R. intros a b F45 F60. lazy -[convert]. rewrite F45, F60. reflexivity. }
    rewrite U. cbv iota. cbn [andb].
    rewrite (Rneg_false (3 / 4)) by lra. cbn [negb andb].
    cbn [fills is_s snd].
    revert F1 F45. generalize (Rabs (3 / 4)) 45%R. intros a b F1 F45. lazy -[convert]. rewrite F1, F45. reflexivity.
  - split; [vm_compute; reflexivity|]. unfold Q2R. simpl.
    rewrite Rabs_right; lra.
Qed.

(** ** C35: the hemisphere letter and the errors *)
Lemma percent_letter f : forall st vs s, percent st (f ++ [32; 37; 115]) vs = Some s ->
  exists t u, In (VText u) vs /\ s = (t ++ u)%list.
Proof.
  induction f as [|c f IH]; intros st vs s.
  - cbn [app]. destruct st as [a|].
    + cbn. discriminate.
    + cbn. destruct vs as [|v vs]; [discriminate|]. destruct v as [r|u]; [discriminate|]. destruct vs as [|v vs]; [|discriminate].
      cbn. intros E. injection E as <-. exists [32], u. split; [left; reflexivity|]. unfold pad. simpl. rewrite app_nil_r. reflexivity.
  - cbn [app percent]. destruct st as [a|].
    + destruct (is_dotdig c); [apply IH|]. destruct (kind_of c) as [k|].
      * destruct (parse_spec a k) as [p|]; [|discriminate]. destruct vs as [|v vs]; [discriminate|].
        destruct (convert p v) as [w|]; [|discriminate]. destruct (percent None (f ++ [32; 37; 115]) vs) as [w'|] eqn:P; [|discriminate].
        intros E. injection E as <-. destruct (IH _ _ _ P) as (t&u&I&->). exists (w ++ t)%list, u.
        rewrite app_assoc. split; [right; auto|auto].
      * assert (G : option_map (cons c) (percent None (f ++ [32; 37; 115]) vs) = Some s -> exists t u, In (VText u) vs /\ s = (t ++ u)%list).
        { destruct (percent None (f ++ [32; 37; 115]) vs) as [w'|] eqn:P; [|discriminate].
          intros E; injection E as <-; destruct (IH _ _ _ P) as (t&u&I&->); exists (c :: t), u; auto. }
        destruct (N.eqb_spec c 37) as [->|_]; [|discriminate]. destruct (str_eqb a []); [exact G|discriminate].
    + destruct (c =? 37); [apply IH|]. destruct (percent None (f ++ [32; 37; 115]) vs) as [w'|] eqn:P; [|discriminate].
      intros E. injection E as <-. destruct (IH _ _ _ P) as (t&u&I&->). exists (c :: t), u. auto.
Qed.
Lemma fills_text u m l vs : In (VText u) (fills m l vs) -> u = l.
Proof.
  revert vs. induction m as [|e m IH]; intros vs; simpl; [contradiction|].
  destruct (is_s e).
  - simpl. intros [E|I]; [congruence|eauto].
  - destruct vs as [|v vs]; simpl; [contradiction|]. intros [E|I]; [discriminate|eauto].
Qed.
(** a format that ends with the letter prints S or W exactly for negative coordinates *)
Theorem C35_letter f letters x s : format_one (f ++ text " %s") letters x = FOk s ->
  exists t, s = (t ++ [if Rltb x 0 then snd letters else fst letters])%list.
Proof.
  unfold format_one. destruct (findall (f ++ text " %s")) as [|e m] eqn:F; [discriminate|].
  destruct (Nat.ltb _ _); [discriminate|].
  destruct (rounds_up _ _) as [up|]; [|discriminate]. destruct (rounds_up _ _) as [up'|]; [|discriminate].
  destruct (percent None _ _) as [s'|] eqn:P; [|discriminate]. intros E. injection E as <-.
  destruct (percent_letter f _ _ _ P) as (t&u&I&->). exists t. apply fills_text in I. rewrite I. reflexivity.
Qed.
Lemma findall_none fmt : ~ In 37 fmt -> findall fmt = [].
Proof.
  induction fmt as [|c t IH]; intros H; auto. cbn [findall].
  destruct (N.eqb_spec c 37) as [->|_]; [exfalso; apply H; left; auto|]. apply IH. intros I. apply H. right. auto.
Qed.
Theorem C35_no_placeholder fmt lat lon : ~ In 37 fmt -> formatGPS lat lon (Some fmt) = (FValueError, FValueError).
Proof. intros H. unfold formatGPS, format_one. rewrite findall_none by auto. reflexivity. Qed.
(** a placeholder for a number: % digits and dots, then d or f *)
Definition number_placeholder (p : str) : Prop := exists a c, p = (37 :: a ++ [c])%list /\ forallb is_dotdig a = true /\ (c = 100 \/ c = 102).
Lemma numbers_cons p t : number_placeholder p -> List.length (numbers (p ++ t)) = S (List.length (numbers (tl p ++ t))).
Proof.
  intros (a&c&->&D&C). cbn [app tl]. rewrite <- app_assoc. cbn [app]. unfold numbers. cbn [findall].
  change (37 =? 37) with true. cbv iota.
  assert (span is_dotdig (a ++ c :: t) = (a, c :: t)) as ->.
  { apply span_all; auto. destruct C as [-> | ->]; reflexivity. }
  destruct C as [-> | ->]; reflexivity.
Qed.
Lemma numbers_more w t : (List.length (numbers t) <= List.length (numbers (w ++ t)))%nat.
Proof.
  induction w as [|c w IH]; cbn [app]; auto. etransitivity; [exact IH|]. unfold numbers. cbn [findall].
  destruct (c =? 37); auto. destruct (span is_dotdig (w ++ t)) as (a&r). destruct r as [|k r]; auto.
  destruct (kind_of k) as [k'|]; auto. cbn [filter]. destruct (negb (is_s (a, k'))); simpl; auto.
Qed.
Theorem C35_too_many p1 p2 p3 p4 w0 w1 w2 w3 w4 lat lon : Forall number_placeholder [p1; p2; p3; p4] ->
  formatGPS lat lon (Some (w0 ++ p1 ++ w1 ++ p2 ++ w2 ++ p3 ++ w3 ++ p4 ++ w4)%list) = (FValueError, FValueError).
Proof.
  intros F. inversion_clear F as [|? ? H1 F1]. inversion_clear F1 as [|? ? H2 F2]. inversion_clear F2 as [|? ? H3 F3].
  inversion_clear F3 as [|? ? H4 _].
  assert (K : forall p w t n, number_placeholder p -> (n <= List.length (numbers t) -> S n <= List.length (numbers (w ++ p ++ t)))%nat).
  { intros p w t n HP HN. etransitivity; [|apply numbers_more]. rewrite numbers_cons by auto. apply le_n_S.
    etransitivity; [exact HN|apply numbers_more]. }
  set (fmt := (w0 ++ _)%list).
  assert (4 <= List.length (numbers fmt))%nat as L.
  { unfold fmt. apply K; auto. apply K; auto. apply K; auto. apply K; auto. lia. }
  unfold formatGPS, format_one. unfold numbers in L.
  destruct (findall fmt) as [|e m] eqn:E; [simpl in L; lia|].
  rewrite (proj2 (Nat.ltb_lt 3 _)) by lia. reflexivity.
Qed.

(** ** Examples *)
Example C33_example : exists s1 s2, formatGPS (85 + 23 / 60 + 4 / 3600)%R (- (17 / 2))%R None = (FOk s1, FOk s2) /\
  gpsFromString (s1 ++ text ", " ++ s2) <> GNone.
Proof.
  destruct (C33_default_format (85 + 23 / 60 + 4 / 3600)%R (- (17 / 2))%R (text ", ") (or_intror eq_refl)) as (s1&s2&a&b&E&G&_).
  exists s1, s2. split; auto. rewrite G. discriminate.
Qed.
(** the texts of the docstring of gpsFromString *)
Example C33_docstring :
  (exists a b, gpsFromString (text "85" ++ [DEG] ++ text " 19" ++ [8242] ++ text " 14" ++ [8243] ++ text " N, 000" ++ [DEG] ++
                 text " 02" ++ [8242] ++ text " 43" ++ [8243] ++ text " E")%list = GPair a b /\
     (a == 85 + (19 # 60) + (14 # 3600) /\ b == (2 # 60) + (43 # 3600))%Q) /\
  (exists a b, gpsFromString (text "-70.618050" ++ [DEG] ++ text " -8.157300" ++ [DEG])%list = GPair a b /\
     (a == - (70618050 # 1000000) /\ b == - (8157300 # 1000000))%Q) /\
  (exists a, gpsFromString (text "66" ++ [DEG] ++ text "39'56.12862''S")%list = GSingle a /\
     (a == - (66 + (39 # 60) + (5612862 # 360000000)))%Q).
Proof.
  split; [|split].
  - eexists _, _. split; [vm_compute; reflexivity|]. split; reflexivity.
  - eexists _, _. split; [vm_compute; reflexivity|]. split; reflexivity.
  - eexists. split; [vm_compute; reflexivity|]. reflexivity.
Qed.
Example C34_example : exists D M n, M < 60 /\ n < 60 * pow10 3 /\
  format_one default_format NS (3599.9999 / 3600)%R = print default_format NS (3599.9999 / 3600)%R [RN D; RN M; RN n / 10 ^ 3]%R.
Proof.
  destruct (C34_seconds default_format NS (3599.9999 / 3600)%R (text "2", KD) (text "2", KD) (text "6.3", KF)
     (Spec false 2 None KD) (Spec false 2 None KD) (Spec false 6 (Some 3%nat) KF)) as (D&M&n&A&B&_&E); try reflexivity.
  exists D, M, n. auto.
Qed.
Example C35_example : number_placeholder (text "%2.3f") /\ ~ In 37 (text "no number") /\
  formatGPS 1 2 (Some (text "%d %d %d %.1f")) = (FValueError, FValueError).
Proof.
  assert (P : forall a, forallb is_dotdig a = true -> number_placeholder (37 :: a ++ [100]) /\ number_placeholder (37 :: a ++ [102])).
  { intros a H. split; [exists a, 100|exists a, 102]; auto. }
  split; [apply (P (text "2.3") eq_refl)|]. split; [cbn; intuition discriminate|].
  apply (C35_too_many (text "%d") (text "%d") (text "%d") (text "%.1f") [] [32] [32] [32] []).
  repeat constructor; first [apply (P [] eq_refl)|apply (P (text ".1") eq_refl)].
Qed.

Print Assumptions C33_default_format.
Print Assumptions C33_minutes_format.
Print Assumptions C33_degrees_format.
Print Assumptions C34_seconds.
Print Assumptions C34_minutes.
Print Assumptions C34_rounded_degrees_refuted.
Print Assumptions C35_parse_sign.
Print Assumptions C35_whole_degrees_refuted.
Print Assumptions C35_letter.
Print Assumptions C35_no_placeholder.
Print Assumptions C35_too_many.
