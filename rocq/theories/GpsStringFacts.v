(** * Facts about numerals, Python's % operator and the regular expressions of gps.py *)
Require Import Reals Lra Lia Psatz List Bool NArith ZArith QArith Qreals String Ascii.
From Verif Require Import Num Vec Orientation OrientationFacts GpsString.
Import ListNotations.
Open Scope N_scope.

Notation len := List.length.
(** ** Numerals *)
Lemma pow10_S k : pow10 (S k) = 10 * pow10 k.
Proof. unfold pow10. rewrite Nat2N.inj_succ, N.pow_succ_r'. reflexivity. Qed.
Lemma value_from b x : fold_left (fun a c => 10 * a + (c - 48)) b x = x * pow10 (len b) + value b.
Proof.
  unfold value. revert x; induction b as [|c b IH]; intros x; cbn [fold_left List.length].
  - change (pow10 0) with 1. lia.
  - rewrite IH, (IH (10 * 0 + _)), pow10_S. lia.
Qed.
Lemma value_app a b : value (a ++ b) = value a * pow10 (len b) + value b.
Proof. unfold value at 1. rewrite fold_left_app, value_from. reflexivity. Qed.
Lemma value_one d : value [48 + d] = d.
Proof. unfold value; cbn [fold_left]. lia. Qed.
Lemma pow10_pos k : 0 < pow10 k.
Proof. unfold pow10. apply N.neq_0_lt_0, N.pow_nonzero. discriminate. Qed.
Lemma dec_fuel_value f n : n < pow10 f -> value (dec_fuel f n) = n.
Proof.
  revert n; induction f as [|f IH]; intros n H; [change (pow10 0) with 1 in H; replace n with 0 by lia; reflexivity|]. cbn [dec_fuel].
  destruct (N.ltb_spec n 10) as [L|L]; [apply value_one|].
  rewrite value_app, value_one, IH; [|].
  - change (pow10 (len [48 + n mod 10])) with 10. rewrite (N.div_mod' n 10) at 3. lia.
  - rewrite pow10_S in H. apply N.div_lt_upper_bound; [discriminate|auto].
Qed.
Lemma dec_big n : n < pow10 (S (N.to_nat (N.size n))).
Proof.
  rewrite pow10_S. unfold pow10. rewrite N2Nat.id.
  apply N.lt_le_trans with (10 ^ N.size n).
  - apply N.lt_le_trans with (2 ^ N.size n); [apply N.size_gt|]. apply N.pow_le_mono_l. discriminate.
  - assert (0 < 10 ^ N.size n) by (apply N.neq_0_lt_0, N.pow_nonzero; discriminate). lia.
Qed.
Lemma value_dec n : value (dec n) = n.
Proof. apply dec_fuel_value, dec_big. Qed.
Lemma digit_char d : d < 10 -> is_digit (48 + d) = true.
Proof. intros H. unfold is_digit. apply andb_true_iff. split; apply N.leb_le; lia. Qed.
Lemma dec_fuel_digits f n : forallb is_digit (dec_fuel f n) = true.
Proof.
  revert n; induction f as [|f IH]; intros n; [reflexivity|]. cbn [dec_fuel].
  destruct (N.ltb_spec n 10) as [L|L].
  - cbn [forallb]. rewrite digit_char; auto.
  - rewrite forallb_app, IH. cbn [forallb]. rewrite digit_char; auto. apply N.mod_lt; discriminate.
Qed.
Lemma dec_digits n : forallb is_digit (dec n) = true. Proof. apply dec_fuel_digits. Qed.
Lemma dec_nonempty n : dec n <> [].
Proof.
  unfold dec. cbn [dec_fuel]. destruct (N.ltb n 10); [discriminate|].
  intros E. apply app_eq_nil in E. destruct E; discriminate.
Qed.
Lemma digs_len k n : len (digs k n) = k.
Proof. revert n; induction k; intros n; cbn [digs]; auto. rewrite app_length, IHk. simpl; lia. Qed.
Lemma digs_digits k n : forallb is_digit (digs k n) = true.
Proof.
  revert n; induction k; intros n; cbn [digs]; auto. rewrite forallb_app, IHk. cbn [forallb].
  rewrite digit_char; auto. apply N.mod_lt; discriminate.
Qed.
Lemma digs_value k n : value (digs k n) = n mod pow10 k.
Proof.
  revert n; induction k as [|k IH]; intros n.
  - unfold pow10; simpl. rewrite N.mod_1_r. reflexivity.
  - cbn [digs]. rewrite value_app, value_one, IH. change (pow10 (len [48 + n mod 10])) with 10.
    rewrite pow10_S. rewrite N.mod_mul_r; [|discriminate|pose proof (pow10_pos k); lia]. lia.
Qed.
(** the digits of a text *)
Definition digits_of (s : str) : str := filter is_digit s.
Lemma filter_all (p : N -> bool) s : forallb p s = true -> filter p s = s.
Proof. induction s; simpl; auto. intros H. apply andb_true_iff in H as (A&B). rewrite A, IHs; auto. Qed.
Lemma fixed_value k n : value (digits_of (fixed k n)) = n.
Proof.
  unfold digits_of, fixed. destruct k as [|k].
  - rewrite filter_all by apply dec_digits. apply value_dec.
  - set (K := S k). rewrite filter_app. cbn [filter]. change (is_digit 46) with false. cbv iota.
    rewrite (filter_all _ (dec _)), (filter_all _ (digs _ _)) by (apply dec_digits || apply digs_digits).
    rewrite value_app, digs_len, value_dec, digs_value.
    pose proof (pow10_pos K). rewrite N.mod_mod by lia. rewrite (N.div_mod' n (pow10 K)) at 3. lia.
Qed.

(** ** float() on numerals *)
Lemma span_all p a t : forallb p a = true -> match t with c :: _ => p c = false | [] => True end ->
  span p (a ++ t) = (a, t).
Proof.
  induction a as [|c a IH]; intros H K; simpl.
  - destruct t; simpl; auto. rewrite K; auto.
  - simpl in H. apply andb_true_iff in H as (A&B). rewrite A, IH; auto.
Qed.
Lemma span_end p a : forallb p a = true -> span p a = (a, []).
Proof. intros H. rewrite <- (app_nil_r a) at 1. apply span_all; auto. Qed.
Lemma str_eqb_spec a b : str_eqb a b = true <-> a = b.
Proof. unfold str_eqb. destruct (list_eq_dec N.eq_dec a b); split; auto; discriminate. Qed.
Lemma str_eqb_refl a : str_eqb a a = true. Proof. apply str_eqb_spec; auto. Qed.
Lemma str_eqb_ne a b : a <> b -> str_eqb a b = false.
Proof. intros H. destruct (str_eqb a b) eqn:E; auto. apply str_eqb_spec in E; contradiction. Qed.
Definition RN (n : N) : R := IZR (Z.of_N n).
Lemma Q2R_inject z : Q2R (inject_Z z) = IZR z.
Proof. unfold Q2R, inject_Z; simpl. rewrite Rinv_1. apply Rmult_1_r. Qed.
Lemma RN_pow10 k : RN (pow10 k) = (10 ^ k)%R.
Proof.
  unfold RN, pow10. rewrite N2Z.inj_pow, nat_N_Z. rewrite <- pow_IZR. reflexivity.
Qed.
Lemma RN_inj a b : RN a = RN b -> a = b.
Proof. unfold RN. intros H. apply eq_IZR in H. lia. Qed.
Lemma pow10R k : (0 < 10 ^ k)%R. Proof. apply pow_lt; lra. Qed.
(** an unsigned numeral with optional decimals *)
Lemma float_digits a b : forallb is_digit a = true -> forallb is_digit b = true -> a <> [] ->
  exists q, float_of (a ++ 46 :: b) = Some q /\ Q2R q = (RN (value (a ++ b)) / 10 ^ len b)%R.
Proof.
  intros A B NE. destruct a as [|c a]; [contradiction|].
  assert (SG : is_sign c = false).
  { cbn [forallb] in A. apply andb_true_iff in A as (A&_). unfold is_digit in A. apply andb_true_iff in A as (A1&A2).
    apply N.leb_le in A1. unfold is_sign. apply orb_false_iff. split; apply N.eqb_neq; lia. }
  unfold float_of. cbn [app]. rewrite SG. change (c :: a ++ 46 :: b) with ((c :: a) ++ 46 :: b).
  rewrite (span_all is_digit (c :: a) (46 :: b) A eq_refl). change (is_dot 46) with true. cbv iota.
  rewrite (span_end _ b B). rewrite str_eqb_refl. rewrite (str_eqb_ne ((c :: a) ++ b)) by discriminate. cbv iota beta.
  cbn [andb negb].
  eexists; split; [reflexivity|]. rewrite Q2R_div.
  - rewrite !Q2R_inject. fold (RN (pow10 (len b))). rewrite RN_pow10. reflexivity.
  - pose proof (pow10_pos (len b)). unfold Qeq, inject_Z; simpl. lia.
Qed.
Lemma float_int a : forallb is_digit a = true -> a <> [] ->
  exists q, float_of a = Some q /\ Q2R q = RN (value a).
Proof.
  intros A NE. destruct a as [|c a]; [contradiction|].
  assert (SG : is_sign c = false).
  { cbn [forallb] in A. apply andb_true_iff in A as (A&_). unfold is_digit in A. apply andb_true_iff in A as (A1&A2).
    apply N.leb_le in A1. unfold is_sign. apply orb_false_iff. split; apply N.eqb_neq; lia. }
  unfold float_of. rewrite SG. rewrite (span_end _ (c :: a) A).
  rewrite app_nil_r. rewrite (str_eqb_ne (c :: a)) by discriminate. cbn [andb negb]. cbv iota beta.
  eexists; split; [reflexivity|]. rewrite Q2R_div.
  - rewrite !Q2R_inject. change (Z.of_N (pow10 (len (@nil BinNums.N)))) with 1%Z. unfold RN. field.
  - discriminate.
Qed.
Lemma float_minus s q : float_of s = Some q -> match s with c :: _ => is_sign c = false | [] => False end ->
  float_of (45 :: s) = Some (- q)%Q.
Proof.
  intros H C. destruct s as [|c s]; [contradiction|]. unfold float_of in *. rewrite C in H.
  change (is_sign 45) with true. change (45 =? 45) with true. cbv iota beta. revert H.
  destruct (span is_digit (c :: s)) as (a&r). 
  destruct r as [|d r]; [|destruct (is_dot d); [destruct (span is_digit r)|]]; cbv iota beta;
    match goal with |- context [if ?b then _ else _] => destruct b end; intros H; inversion H; reflexivity.
Qed.
Lemma fixed_float k n : exists q, float_of (fixed k n) = Some q /\ Q2R q = (RN n / 10 ^ k)%R.
Proof.
  unfold fixed. destruct k as [|k].
  - destruct (float_int (dec n) (dec_digits n) (dec_nonempty n)) as (q&E&V). exists q. split; auto.
    rewrite V, value_dec. simpl. field.
  - set (K := S k). destruct (float_digits (dec (n / pow10 K)) (digs K (n mod pow10 K))) as (q&E&V);
      auto using dec_digits, digs_digits, dec_nonempty.
    exists q. split; auto. rewrite V, value_app, !digs_len, value_dec, digs_value.
    pose proof (pow10_pos K). rewrite N.mod_mod by lia. f_equal. f_equal.
    rewrite (N.div_mod' n (pow10 K)) at 3. lia.
Qed.
Lemma fixed_head k n : match fixed k n with c :: _ => is_digit c = true | [] => False end.
Proof.
  assert (H : forall t, match dec n ++ t with c :: _ => is_digit c = true | [] => False end).
  { intros t. pose proof (dec_nonempty n). pose proof (dec_digits n) as D. destruct (dec n) as [|c l]; [contradiction|].
    simpl in *. apply andb_true_iff in D; tauto. }
  unfold fixed. destruct k; [specialize (H []); rewrite app_nil_r in H; exact H|].
  clear H. set (u := n / _). pose proof (dec_nonempty u). pose proof (dec_digits u) as D.
  destruct (dec u) as [|c l]; [contradiction|]. simpl in *. apply andb_true_iff in D; tauto.
Qed.
Definition numeral (c : N) : bool := is_digit c || is_dot c.
Lemma fixed_numeral k n : forallb numeral (fixed k n) = true.
Proof.
  assert (D : forall s, forallb is_digit s = true -> forallb numeral s = true).
  { induction s; simpl; auto. intros H. apply andb_true_iff in H as (A&B). unfold numeral at 1. rewrite A, IHs; auto. }
  unfold fixed. destruct k; [apply D, dec_digits|].
  rewrite forallb_app. rewrite (D (dec _)) by apply dec_digits. cbn [forallb].
  rewrite (D (digs _ _)) by apply digs_digits. reflexivity.
Qed.
Lemma fixed_nonempty k n : fixed k n <> [].
Proof. pose proof (fixed_head k n). destruct (fixed k n); [contradiction|discriminate]. Qed.

(** ** Rounding *)
Lemma Rltb_dec x y : Rltb x y = true /\ (x < y)%R \/ Rltb x y = false /\ (y <= x)%R.
Proof.
  destruct (Rltb x y) eqn:E; [left; split; auto; apply Rltb_iff; auto | right; split; auto; apply Rltb_iff_false; auto].
Qed.
Lemma Rfloor_nonneg x : (0 <= x)%R -> (0 <= Rfloor x)%Z.
Proof.
  intros H. destruct (Rfloor_bounds x) as (A&B). apply le_IZR.
  assert (- 1 < Rfloor x)%Z; [|apply IZR_le; lia]. apply lt_IZR. lra.
Qed.
Lemma RN_floor x : (0 <= x)%R -> RN (Z.to_N (Rfloor x)) = IZR (Rfloor x).
Proof. intros H. unfold RN. rewrite Z2N.id; auto. apply Rfloor_nonneg; auto. Qed.
Lemma truncN_near x : (0 <= x)%R -> (RN (truncN x) <= x < RN (truncN x) + 1)%R.
Proof.
  intros H. unfold truncN. rewrite Rabs_right by lra. rewrite RN_floor by auto.
  destruct (Rfloor_bounds x). lra.
Qed.
Lemma truncN_opp x : truncN (- x) = truncN x.
Proof. unfold truncN. rewrite Rabs_Ropp. reflexivity. Qed.
Lemma RN_nonneg n : (0 <= RN n)%R. Proof. unfold RN. apply IZR_le. lia. Qed.
Lemma RN_lt a b : (RN a < RN b)%R <-> a < b.
Proof. unfold RN. split; intros H; [apply lt_IZR in H | apply IZR_lt]; lia. Qed.
Lemma RN_le a b : (RN a <= RN b)%R <-> a <= b.
Proof. unfold RN. split; intros H; [apply le_IZR in H | apply IZR_le]; lia. Qed.
Lemma RN_add a b : RN (a + b) = (RN a + RN b)%R.
Proof. unfold RN. rewrite N2Z.inj_add. apply plus_IZR. Qed.
Lemma RN_mul a b : RN (a * b) = (RN a * RN b)%R.
Proof. unfold RN. rewrite N2Z.inj_mul. apply mult_IZR. Qed.
Lemma RN_between n m x : (RN n <= x < RN n + 1)%R -> (RN m <= x < RN m + 1)%R -> n = m.
Proof.
  intros A B. assert (RN n < RN m + 1 /\ RN m < RN n + 1)%R as (C&D) by lra.
  change 1%R with (RN 1) in C, D. rewrite <- RN_add in C, D. apply RN_lt in C, D. lia.
Qed.
Lemma truncN_RN n : truncN (RN n) = n.
Proof. apply (RN_between _ _ (RN n)); [apply truncN_near, RN_nonneg|lra]. Qed.
Lemma half_even_near x : (0 <= x)%R -> (Rabs (RN (half_even x) - x) <= 1 / 2)%R.
Proof.
  intros H. unfold half_even. pose proof (Rfloor_nonneg x H) as F. destruct (Rfloor_bounds x) as (A&B).
  assert (FN : forall z, (0 <= z)%Z -> RN (Z.to_N z) = IZR z) by (intros z Hz; unfold RN; rewrite Z2N.id; auto).
  destruct (Rltb_dec (x - IZR (Rfloor x)) (1 / 2)) as [(->&L)|(->&L)].
  - rewrite FN by auto. apply Rabs_le. lra.
  - destruct (Rltb_dec (1 / 2) (x - IZR (Rfloor x))) as [(->&L')|(->&L')].
    + rewrite FN by lia. rewrite plus_IZR. apply Rabs_le. lra.
    + destruct (Z.even (Rfloor x)); rewrite FN by lia; rewrite ?plus_IZR; apply Rabs_le; lra.
Qed.
Lemma Rabs_le_inv a b : (Rabs a <= b -> - b <= a <= b)%R.
Proof. intros H. pose proof (Rle_abs a). pose proof (Rle_abs (- a)). rewrite Rabs_Ropp in *. lra. Qed.
Lemma half_even_RN n : half_even (RN n) = n.
Proof.
  pose proof (half_even_near (RN n) (RN_nonneg n)) as H. apply Rabs_le_inv in H.
  assert (RN (half_even (RN n)) < RN n + 1 /\ RN n < RN (half_even (RN n)) + 1)%R as (C&D) by lra.
  change 1%R with (RN 1) in C, D. rewrite <- RN_add in C, D. apply RN_lt in C, D. lia.
Qed.

(** ** What a number placeholder prints *)
Definition decimals (s : spec) : nat :=
  match knd s with KF => match prec s with Some p => p | None => 6%nat end | _ => O end.
Definition shown (s : spec) (v : R) : N :=
  match knd s with KF => half_even (Rabs v * 10 ^ decimals s) | _ => truncN v end.
(** truncation for %d, rounding to the nearest for %f *)
Definition near (s : spec) (p v : R) : Prop :=
  match knd s with KF => (Rabs (p - v) <= 1 / 2 / 10 ^ decimals s)%R | _ => (p <= v < p + 1)%R end.
Lemma shown_near s v : (0 <= v)%R -> near s (RN (shown s v) / 10 ^ decimals s) v.
Proof.
  intros H. unfold near, shown. destruct (knd s) eqn:K.
  - unfold decimals. rewrite K. simpl. replace (RN (truncN v) / 1)%R with (RN (truncN v)) by field. apply truncN_near; auto.
  - unfold decimals. rewrite K. simpl. replace (RN (truncN v) / 1)%R with (RN (truncN v)) by field. apply truncN_near; auto.
  - set (k := decimals s). pose proof (pow10R k) as P. rewrite (Rabs_right v) by lra.
    pose proof (half_even_near (v * 10 ^ k) (Rmult_le_pos _ _ H (Rlt_le _ _ P))) as E.
    set (n := RN (half_even (v * 10 ^ k))) in *.
    replace (n / 10 ^ k - v)%R with ((n - v * 10 ^ k) / 10 ^ k)%R by (field; lra).
    unfold Rdiv at 1. rewrite Rabs_mult, (Rabs_right (/ 10 ^ k)) by (left; apply Rinv_0_lt_compat; auto).
    apply Rmult_le_compat_r; auto. left; apply Rinv_0_lt_compat; auto.
Qed.
Lemma shown_exact s n : shown s (RN n / 10 ^ decimals s) = n.
Proof.
  pose proof (pow10R (decimals s)) as P. pose proof (RN_nonneg n).
  unfold shown. destruct (knd s) eqn:K.
  - unfold decimals. rewrite K. simpl. replace (RN n / 1)%R with (RN n) by field. apply truncN_RN.
  - unfold decimals. rewrite K. simpl. replace (RN n / 1)%R with (RN n) by field. apply truncN_RN.
  - rewrite Rabs_right.
    + replace (RN n / 10 ^ decimals s * 10 ^ decimals s)%R with (RN n) by (field; lra). apply half_even_RN.
    + apply Rle_ge. apply Rmult_le_pos; auto. left; apply Rinv_0_lt_compat; auto.
Qed.
Lemma shown_sixty s v : knd s <> KS -> (0 <= v < 60)%R -> shown s v <= 60 * pow10 (decimals s).
Proof.
  intros NS B. pose proof (shown_near s v (proj1 B)) as E. unfold near in E.
  pose proof (pow10R (decimals s)) as P. set (n := shown s v) in *.
  assert (RN n < RN (60 * pow10 (decimals s)) + 1)%R.
  { rewrite RN_mul, RN_pow10. change (RN 60) with 60%R. set (T := (10 ^ decimals s)%R) in *.
    assert (EN : RN n = (RN n / T * T)%R) by (field; lra).
    destruct (knd s) eqn:K; [contradiction| |].
    - rewrite EN. assert (T = 1%R) by (unfold T, decimals; rewrite K; reflexivity). rewrite H in *. nra.
    - apply Rabs_le_inv in E. rewrite EN.
      assert (1 / 2 / T * T = 1 / 2)%R by (field; lra). nra. }
  change 1%R with (RN 1) in H. rewrite <- RN_add in H. apply RN_lt in H. lia.
Qed.
Lemma filter_repeat p (c : N) n : p c = false -> filter p (repeat c n) = [].
Proof. intros H. induction n; simpl; auto. rewrite H; auto. Qed.
Lemma digits_app a b : digits_of (a ++ b) = (digits_of a ++ digits_of b)%list.
Proof. apply filter_app. Qed.
Lemma digits_pad32 w t : digits_of (pad 32 w t) = digits_of t.
Proof. unfold pad. rewrite digits_app. unfold digits_of at 1. rewrite filter_repeat; auto. Qed.
Lemma value_zeros n t : value (repeat 48 n ++ t) = value t.
Proof.
  induction n as [|n IH]; [reflexivity|]. rewrite <- IH. reflexivity.
Qed.
Lemma digits_pad48 w t : value (digits_of (pad 48 w t)) = value (digits_of t).
Proof.
  unfold pad. rewrite digits_app. unfold digits_of at 1. rewrite filter_all; [apply value_zeros|].
  induction (w - len t)%nat; simpl; auto.
Qed.
Lemma digits_signed z w g t : value (digits_of (signed z w g t)) = value (digits_of t).
Proof.
  unfold signed. destruct z.
  - rewrite digits_app. destruct g; cbn [digits_of filter app]; apply digits_pad48.
  - rewrite digits_pad32, digits_app. destruct g; reflexivity.
Qed.
Lemma convert_value s v u : knd s <> KS -> convert s (VNum v) = Some u -> value (digits_of u) = shown s v.
Proof.
  intros K. unfold convert, shown, decimals. destruct (knd s); [contradiction| |]; intros H; inversion H; clear H;
    rewrite digits_signed.
  - rewrite digits_pad48. unfold digits_of. rewrite filter_all by apply dec_digits. apply value_dec.
  - rewrite fixed_value. reflexivity.
Qed.
Lemma convert_some s v : knd s <> KS -> exists u, convert s (VNum v) = Some u.
Proof. unfold convert. destruct (knd s); [contradiction| |]; intros _; eexists; reflexivity. Qed.
Lemma Rneg_false v : (0 <= v)%R -> Rneg v = false.
Proof. intros H. apply Rltb_iff_false; auto. Qed.
Lemma Rneg_true v : (v < 0)%R -> Rneg v = true.
Proof. intros H. apply Rltb_iff; auto. Qed.
Lemma convert_same s v v' : knd s <> KS -> (0 <= v)%R -> (0 <= v')%R -> shown s v = shown s v' ->
  convert s (VNum v) = convert s (VNum v').
Proof.
  intros K H H' E. unfold convert, shown in *. destruct (knd s) eqn:KN; [contradiction| |];
    rewrite !Rneg_false by auto.
  - rewrite E. reflexivity.
  - unfold decimals in E. rewrite KN in E. rewrite E. reflexivity.
Qed.
Lemma convert_same_neg s d n : knd s = KD -> (0 <= d)%R -> truncN d = n ->
  convert s (VNum (- d)) = convert s (VNum (- RN n)).
Proof.
  intros K H E. unfold convert. rewrite K, !truncN_opp, truncN_RN, E.
  destruct (N.eqb_spec n 0) as [Z|Z].
  - subst n. rewrite !andb_false_r. reflexivity.
  - pose proof (truncN_near d H) as B. rewrite E in B.
    assert (1 <= RN n)%R. { change 1%R with (RN 1). apply RN_le. lia. }
    rewrite !Rneg_true by lra. reflexivity.
Qed.

(** ** Python's % operator, placeholder by placeholder *)
Lemma percent_open a t vs : percent (Some a) t vs =
  let '(b, r) := span is_dotdig t in
  match r with
  | [] => None
  | c :: r' => match kind_of c with
               | Some k => match parse_spec (a ++ b) k, vs with
                           | Some s, v :: vs' => match convert s v, percent None r' vs' with
                                                 | Some u, Some w => Some (u ++ w)
                                                 | _, _ => None
                                                 end
                           | _, _ => None
                           end
               | None => if (c =? 37) && str_eqb (a ++ b) [] then option_map (cons 37) (percent None r' vs) else None
               end
  end.
Proof.
  revert a; induction t as [|c t IH]; intros a; cbn [percent span]; [reflexivity|].
  destruct (is_dotdig c) eqn:E.
  - rewrite IH. destruct (span is_dotdig t) as (b&r). rewrite <- app_assoc. reflexivity.
  - rewrite app_nil_r. reflexivity.
Qed.
Lemma percent_entry e v : forallb is_dotdig (fst e) = true -> percent None (entry e) [VNum v] =
    match parse_spec (fst e) (snd e) with
    | Some s => option_map (fun u => u ++ [])%list (convert s (VNum v))
    | None => None
    end.
Proof.
  destruct e as (a&k). unfold entry. cbn [fst snd]. intros E. cbn [percent]. change (37 =? 37) with true. cbv iota.
  rewrite percent_open. rewrite span_all; [|exact E|destruct k; reflexivity]. cbn [app].
  assert (kind_of (kind_char k) = Some k) as -> by (destruct k; reflexivity).
  destruct (parse_spec a k) as [s|]; [|reflexivity].
  destruct (convert s (VNum v)); reflexivity.
Qed.
Lemma span_inv p s a b : span p s = (a, b) ->
  s = (a ++ b)%list /\ forallb p a = true /\ match b with c :: _ => p c = false | [] => True end.
Proof.
  revert a b; induction s as [|c s IH]; intros a b; cbn [span].
  - intros E; inversion E; auto.
  - destruct (p c) eqn:P.
    + destruct (span p s) as (a'&b') eqn:S. intros E; inversion E; subst.
      destruct (IH _ _ eq_refl) as (A&B&C). subst. split; [reflexivity|]. split; [cbn [forallb]; rewrite P, B; reflexivity | exact C].
    + intros E; inversion E; subst. auto.
Qed.
Lemma findall_skip a t : forallb is_dotdig a = true -> findall (a ++ t) = findall t.
Proof.
  induction a as [|c a IH]; auto. cbn [forallb app findall]. intros H. apply andb_true_iff in H as (A&B).
  destruct (N.eqb_spec c 37) as [E|E]; [subst c; discriminate|]. auto.
Qed.
Lemma findall_dotdig fmt : Forall (fun e => forallb is_dotdig (fst e) = true) (findall fmt).
Proof.
  induction fmt as [|c t IH]; cbn [findall]; auto. destruct (c =? 37); auto.
  destruct (span is_dotdig t) as (a&r) eqn:S. destruct r as [|k r]; auto. destruct (kind_of k); auto.
  constructor; auto. simpl. apply span_inv in S. tauto.
Qed.
(** no %% *)
Fixpoint no_double (fmt : str) : bool :=
  match fmt with
  | c :: t => negb ((c =? 37) && match t with d :: _ => d =? 37 | [] => false end) && no_double t
  | [] => true
  end.
Lemma no_double_app a b : no_double (a ++ b) = true -> no_double b = true.
Proof. induction a; auto. cbn [app no_double]. intros H. apply andb_true_iff in H; tauto. Qed.
(** the placeholder prints both numbers alike *)
Definition prints_alike (e : str * kind) (v v' : R) : Prop :=
  forall s, parse_spec (fst e) (snd e) = Some s -> convert s (VNum v) = convert s (VNum v').
Fixpoint alike (m : list (str * kind)) (vs vs' : list R) : Prop :=
  match m with
  | [] => True
  | e :: m' => if is_s e then alike m' vs vs' else
               match vs, vs' with
               | v :: t, v' :: t' => prints_alike e v v' /\ alike m' t t'
               | [], [] => True
               | _, _ => False
               end
  end.
Lemma percent_alike l n : forall fmt vs vs', (len fmt <= n)%nat -> no_double fmt = true ->
  alike (findall fmt) vs vs' ->
  percent None fmt (fills (findall fmt) l vs) = percent None fmt (fills (findall fmt) l vs').
Proof.
  induction n as [|n IH]; intros fmt vs vs' L ND A.
  { destruct fmt; [reflexivity|simpl in L; lia]. }
  destruct fmt as [|c t]; [reflexivity|]. simpl in L.
  assert (ND' : no_double t = true) by (cbn [no_double] in ND; apply andb_true_iff in ND; tauto).
  cbn [percent findall] in *.
  destruct (N.eqb_spec c 37) as [E|E]; [|f_equal; apply IH; auto; lia].
  subst c. rewrite !percent_open. destruct (span is_dotdig t) as (a&r) eqn:S.
  destruct (span_inv _ _ _ _ S) as (Et&Ea&Eb). cbn [app].
  destruct r as [|k r]; [reflexivity|].
  destruct (kind_of k) as [k'|] eqn:K.
  - assert (FT : findall t = findall r).
    { rewrite Et, findall_skip by auto. cbn [findall].
      destruct (N.eqb_spec k 37) as [->|_]; [discriminate|reflexivity]. }
    rewrite FT in *. destruct (parse_spec a k') as [s|] eqn:P; [|reflexivity].
    assert (Lr : (len r <= n)%nat) by (rewrite Et, app_length in L; simpl in L; lia).
    assert (NDr : no_double r = true) by (rewrite Et in ND'; apply no_double_app in ND'; cbn [no_double] in ND'; apply andb_true_iff in ND'; tauto).
    cbn [fills alike] in *. destruct (is_s (a, k')).
    + rewrite (IH r vs vs'); auto.
    + destruct vs as [|v vs], vs' as [|v' vs']; try contradiction; auto.
      destruct A as (A1&A2). rewrite (A1 s P), (IH r vs vs'); auto.
  - destruct (N.eqb_spec k 37) as [->|N37]; [|reflexivity].
    destruct a as [|c a]; [|reflexivity]. exfalso.
    cbn [app] in Et. subst t. cbn [no_double] in ND. rewrite N.eqb_refl in ND. discriminate.
Qed.
