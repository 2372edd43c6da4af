(** * C68: what the summary and the plot of a trace show *)
Require Import Reals Lra Lia List Bool String ZArith Arith NArith Psatz.
From Verif Require Import Num Trig OrientationFacts GpsString GpsStringFacts LogProb PropFitTerms Metropolis Fit PropFitRun Trace PropTrace TraceSummary.
Import ListNotations.
Open Scope R_scope.

(** ** Specification: mean and standard deviation *)
Definition average (l : list R) : R := rsum l / INR (List.length l).
Definition deviation (l : list R) : R := sqrt (average (map (fun x => (x - average l)²) l)).
Definition constant (l : list R) : Prop := forall a b, In a l -> In b l -> a = b.

(** ** Rounding *)
Lemma rint_near x : Rabs (IZR (rint x) - x) <= 1 / 2.
Proof.
  unfold rint, Rltb. destruct (Rlt_dec x 0) as [N|N].
  - pose proof (half_even_near (- x) ltac:(lra)) as H. unfold RN in H. rewrite opp_IZR.
    replace (- IZR (Z.of_N (half_even (- x))) - x) with (- (IZR (Z.of_N (half_even (- x))) - - x)) by ring. rewrite Rabs_Ropp. exact H.
  - apply (half_even_near x). lra.
Qed.
Lemma p10 d : 0 < powerRZ 10 d.
Proof. apply powerRZ_lt. lra. Qed.
Lemma p10_opp d : powerRZ 10 d * powerRZ 10 (- d) = 1.
Proof. rewrite <- powerRZ_add by lra. rewrite Z.add_opp_diag_r. reflexivity. Qed.
(** The power of ten of the first digit *)
Lemma magnitude s : 0 < s -> let k := Rfloor (log10 s) in powerRZ 10 k <= s < powerRZ 10 (k + 1).
Proof.
  intros S k. assert (L : 0 < ln 10) by (rewrite <- ln_1; apply ln_increasing; lra).
  assert (E : exp (log10 s * ln 10) = s). { unfold log10. replace (ln s / ln 10 * ln 10) with (ln s) by (field; lra). apply exp_ln; auto. }
  destruct (Rfloor_bounds (log10 s)) as (A&B). fold k in A, B.
  rewrite !powerRZ_Rpower by lra. unfold Rpower. split.
  - apply Rle_trans with (exp (log10 s * ln 10)); [|lra]. destruct (Req_dec (IZR k) (log10 s)) as [Q|N]; [rewrite Q; lra|].
    left. apply exp_increasing. apply Rmult_lt_compat_r; lra.
  - apply Rle_lt_trans with (exp (log10 s * ln 10)); [lra|]. apply exp_increasing. apply Rmult_lt_compat_r; [lra|]. rewrite plus_IZR. lra.
Qed.
Lemma round_rep x r d : rep x r -> rep (round_to x d) (IZR (rint (r * powerRZ 10 d)) * powerRZ 10 (- d)) /\
  Rabs (IZR (rint (r * powerRZ 10 d)) * powerRZ 10 (- d) - r) <= powerRZ 10 (- d) / 2.
Proof.
  intros H. pose proof (p10 d) as P. pose proof (p10 (- d)) as P'. pose proof (p10_opp d) as PP. split.
  - unfold round_to. rlook H. rewrite H0. apply (rep_eq _ _ _ (rep_Fin _)). unfold Rdiv. f_equal. apply (Rmult_eq_reg_l (powerRZ 10 d)); [|lra]. rewrite Rinv_r by lra. lra.
  - pose proof (rint_near (r * powerRZ 10 d)) as N. set (n := IZR (rint (r * powerRZ 10 d))) in *.
    replace (n * powerRZ 10 (- d) - r) with ((n - r * powerRZ 10 d) * powerRZ 10 (- d)).
    + rewrite Rabs_mult, (Rabs_pos_eq (powerRZ 10 (- d))) by lra. nra.
    + rewrite Rmult_minus_distr_r, Rmult_assoc, PP. ring.
Qed.

(** ** Mean and standard deviation *)
Lemma Forall2_length {A B} (P : A -> B -> Prop) l l' : Forall2 P l l' -> List.length l = List.length l'.
Proof. induction 1; simpl; auto. Qed.
Lemma present_all data rs : Forall2 rep data rs -> present data = data.
Proof.
  induction 1 as [|x r data rs H F IH]; [reflexivity|]. unfold present in *. cbn [filter].
  assert (nisnan x = false) as -> by (unfold rep, toR in H; destruct x; auto; discriminate). cbn [negb]. rewrite IH. reflexivity.
Qed.
Lemma mean_rep data rs : Forall2 rep data rs -> rs <> [] -> rep (mean data) (average rs).
Proof.
  intros F N. unfold mean. rewrite (present_all data rs F). destruct data as [|x data]; [inversion F; subst; congruence|].
  unfold average. rewrite <- (Forall2_length _ _ _ F). apply rep_div; [apply nsum_rep; exact F|apply rep_Fin|]. apply not_0_INR. discriminate.
Qed.
Lemma std_rep data rs : Forall2 rep data rs -> rs <> [] -> rep (std data) (deviation rs).
Proof.
  intros F N. unfold std. rewrite (present_all data rs F). destruct data as [|x data]; [inversion F; subst; congruence|].
  unfold deviation. assert (LN : INR (List.length rs) <> 0) by (apply not_0_INR; destruct rs; [congruence|discriminate]).
  assert (PL : 0 < INR (List.length rs)) by (pose proof (pos_INR (List.length rs)); lra).
  assert (SQ : forall l, 0 <= rsum (map (fun x => (x - average rs)²) l)).
  { induction l as [|a l IH]; cbn; [lra|]. fold (rsum (map (fun x => (x - average rs)²) l)). pose proof (Rle_0_sqr (a - average rs)). lra. }
  apply rep_sqrt.
  - unfold average at 1. rewrite map_length. rewrite <- (Forall2_length _ _ _ F) at 1. apply rep_div; [|apply rep_Fin|rewrite (Forall2_length _ _ _ F); exact LN].
    apply nsum_rep. pose proof (mean_rep (x :: data) rs F N) as M. clear - F M. set (m := mean (x :: data)) in *. set (a := average rs) in *. clearbody m a.
    induction F as [|y r l l' H F IH]; cbn [map]; constructor; auto. unfold Rsqr. apply rep_mul; apply rep_sub; auto.
  - unfold average. rewrite map_length. apply Rmult_le_pos; [apply SQ|]. left. apply Rinv_0_lt_compat; exact PL.
Qed.
Lemma average_const l a : l <> [] -> (forall x, In x l -> x = a) -> average l = a.
Proof.
  intros N H. unfold average. assert (E : rsum l = INR (List.length l) * a).
  { clear N. induction l as [|x l IH]; [cbn; ring|]. cbn [List.length]. rewrite S_INR. cbn. fold (rsum l). rewrite IH by (intros; apply H; simpl; auto). rewrite (H x) by (simpl; auto). ring. }
  rewrite E. field. apply not_0_INR. destruct l; [congruence|discriminate].
Qed.
Lemma deviation_zero l : l <> [] -> (deviation l = 0 <-> constant l).
Proof.
  intros N. assert (LN : 0 < INR (List.length l)) by (apply lt_0_INR; destruct l; [congruence|simpl; lia]).
  assert (SQ : forall m k, 0 <= rsum (map (fun x => (x - m)²) k)).
  { intros m. induction k as [|a k IH]; cbn; [lra|]. fold (rsum (map (fun x => (x - m)²) k)). pose proof (Rle_0_sqr (a - m)). lra. }
  unfold deviation. set (m := average l) in *. split.
  - intros E. assert (Z : rsum (map (fun x => (x - m)²) l) = 0).
    { assert (Q : average (map (fun x => (x - m)²) l) = 0).
      { apply sqrt_eq_0; [|exact E]. unfold average. rewrite map_length. apply Rmult_le_pos; [apply SQ|left; apply Rinv_0_lt_compat; exact LN]. }
      unfold average in Q. rewrite map_length in Q. apply (f_equal (fun z => z * INR (List.length l))) in Q.
      replace (rsum (map (fun x => (x - m)²) l) / INR (List.length l) * INR (List.length l)) with (rsum (map (fun x => (x - m)²) l)) in Q by (field; lra). lra. }
    assert (A : forall k, rsum (map (fun x => (x - m)²) k) = 0 -> forall x, In x k -> x = m).
    { induction k as [|a k IH]; intros Q x; [intros []|]. cbn in Q. fold (rsum (map (fun x => (x - m)²) k)) in Q. pose proof (SQ m k). pose proof (Rle_0_sqr (a - m)).
      intros [<-|I1]; [|apply IH; auto; lra]. assert (QQ : (a - m)² = 0) by lra. apply Rsqr_0_uniq in QQ. lra. }
    intros a b Ia Ib. rewrite (A l Z a Ia), (A l Z b Ib). reflexivity.
  - intros C. assert (AM : forall x, In x l -> x = m).
    { intros x Ix. symmetry. apply average_const; auto. }
    rewrite (average_const (map (fun x => (x - m)²) l) 0).
    + apply sqrt_0.
    + destruct l; [congruence|discriminate].
    + intros y Iy. apply in_map_iff in Iy. destruct Iy as (x&<-&Ix). rewrite (AM x Ix). unfold Rsqr. ring.
Qed.
Lemma deviation_nonneg l : 0 <= deviation l. Proof. apply sqrt_pos. Qed.

(** ** One line of the summary
    The standard deviation is printed with two digits, within a twentieth of itself; the mean with one digit less, which
    is within half a standard deviation. *)
Theorem C68_line data rs : Forall2 rep data rs -> 0 < deviation rs ->
  exists m s M S, print_mean_std (mean data) (std data) = Value (m, s) /\ rep m M /\ rep s S /\
    Rabs (M - average rs) <= deviation rs / 2 /\ Rabs (S - deviation rs) <= deviation rs / 20 /\
    exists k i j, powerRZ 10 k <= deviation rs < powerRZ 10 (k + 1) /\ M = IZR i * powerRZ 10 k /\ S = IZR j * powerRZ 10 (k - 1) /\ (10 <= j <= 100)%Z.
Proof.
  intros F P. assert (N : rs <> []). { intros ->. unfold deviation, average in P. cbn in P. replace (0 / 0) with 0 in P by (unfold Rdiv; ring). rewrite sqrt_0 in P. lra. }
  pose proof (mean_rep data rs F N) as HM. pose proof (std_rep data rs F N) as HS. set (sd := deviation rs) in *. set (av := average rs) in *.
  destruct (magnitude sd P) as (K1&K2). set (k := Rfloor (log10 sd)) in *. cbv zeta in K1, K2.
  assert (D : digits (std data) = Value (- k)%Z).
  { unfold digits. rlook HS. rewrite H. assert (Reqb sd 0 = false) as -> by (destruct (Reqb sd 0) eqn:E; auto; apply Reqb_iff in E; lra). rewrite Rabs_pos_eq by lra. reflexivity. }
  unfold print_mean_std. rewrite D.
  destruct (round_rep _ _ (- k) HM) as (R1&E1). destruct (round_rep _ _ (1 + - k) HS) as (R2&E2).
  rewrite Z.opp_involutive in R1, E1. replace (- (1 + - k))%Z with (k - 1)%Z in R2, E2 by lia.
  assert (T : powerRZ 10 k = 10 * powerRZ 10 (k - 1)).
  { replace k with (1 + (k - 1))%Z at 1 by lia. rewrite powerRZ_add by lra. replace (powerRZ 10 1) with 10 by (simpl; ring). reflexivity. }
  assert (T2 : powerRZ 10 (k + 1) = 100 * powerRZ 10 (k - 1)).
  { replace (k + 1)%Z with (2 + (k - 1))%Z by lia. rewrite powerRZ_add by lra. replace (powerRZ 10 2) with 100 by (simpl; ring). reflexivity. }
  pose proof (p10 (k - 1)) as PK.
  eexists _, _, _, _. split; [reflexivity|]. split; [exact R1|]. split; [exact R2|]. split; [lra|]. split; [lra|].
  exists k, (rint (av * powerRZ 10 (- k))), (rint (sd * powerRZ 10 (1 + - k))). split; [lra|]. split; [reflexivity|]. split; [reflexivity|].
  pose proof (rint_near (sd * powerRZ 10 (1 + - k))) as RN. set (j := rint (sd * powerRZ 10 (1 + - k))) in *.
  assert (PP : powerRZ 10 (k - 1) * powerRZ 10 (1 + - k) = 1). { rewrite <- powerRZ_add by lra. replace (k - 1 + (1 + - k))%Z with 0%Z by lia. reflexivity. }
  pose proof (p10 (1 + - k)) as PK'. set (u := powerRZ 10 (1 + - k)) in *. set (v := powerRZ 10 (k - 1)) in *.
  assert (B : 10 <= sd * u < 100).
  { split; [|]; [apply Rle_trans with (10 * v * u); [lra|nra]|apply Rlt_le_trans with (100 * v * u); [nra|lra]]. }
  assert (9 < IZR j < 101) as (J1&J2) by (unfold Rabs in RN; destruct Rcase_abs; lra).
  apply lt_IZR in J1. apply lt_IZR in J2. lia.
Qed.
(** So the mean lies strictly inside the printed interval. *)
Theorem C68_interval data rs : Forall2 rep data rs -> 0 < deviation rs ->
  exists m s M S, print_mean_std (mean data) (std data) = Value (m, s) /\ rep m M /\ rep s S /\ M - S < average rs < M + S.
Proof.
  intros F P. destruct (C68_line data rs F P) as (m&s&M&S&E&R1&R2&E1&E2&_). exists m, s, M, S. split; [exact E|]. split; [exact R1|]. split; [exact R2|].
  unfold Rabs in *. destruct (Rcase_abs (M - _)), (Rcase_abs (S - _)); lra.
Qed.
(** A column whose values are all the same (also an empty one) has no summary. *)
Theorem C68_raises data rs : Forall2 rep data rs -> (print_mean_std (mean data) (std data) = Raises <-> constant rs).
Proof.
  intros F. destruct (list_eq_dec Req_EM_T rs []) as [-> |N].
  - inversion F; subst. split; [intros _ a b []|reflexivity].
  - split.
    + intros E. destruct (Req_dec (deviation rs) 0) as [Z|Z]; [apply deviation_zero; auto|].
      pose proof (deviation_nonneg rs). destruct (C68_line data rs F ltac:(lra)) as (m&s&_&_&X&_). rewrite E in X. discriminate.
    + intros C. pose proof (std_rep data rs F N) as HS. apply (deviation_zero rs N) in C. rewrite C in HS.
      unfold print_mean_std, digits. rlook HS. rewrite H. assert (Reqb 0 0 = true) as -> by (apply Reqb_iff; reflexivity). reflexivity.
Qed.
(** The summary has a line for every column but the last (the probability), in their order, up to the first constant one. *)
Theorem C68_summary (cols : list column) : Forall (fun c => Forall finite (snd c)) cols ->
  exists ls ok before after, printTraceSummary None cols = (ls, ok) /\ removelast cols = (before ++ after)%list /\
    Forall2 (fun l c => fst l = fst c /\ print_mean_std (mean (snd c)) (std (snd c)) = Value (snd l)) ls before /\
    match after with [] => ok = true | c :: _ => ok = false /\ forall rs, Forall2 rep (snd c) rs -> constant rs end.
Proof.
  intros F. unfold printTraceSummary. generalize 0%nat as i.
  assert (F' : Forall (fun c => Forall finite (snd c)) (removelast cols)).
  { rewrite Forall_forall in *. intros c I1. apply F. clear F. induction cols as [|d l IH]; [destruct I1|]. destruct l; [destruct I1|]. destruct I1 as [<-|I1]; [left; reflexivity|right; apply IH; exact I1]. }
  induction (removelast cols) as [|(name&data) l IH]; intros i; cbn [summary_lines].
  - exists [], true, [], []. split; [reflexivity|split; [reflexivity|split; [constructor|reflexivity]]].
  - inversion_clear F' as [|? ? F1 F2]. specialize (IH F2 (S i)). destruct (print_mean_std (mean data) (std data)) as [p|] eqn:E.
    + destruct IH as (ls&ok&before&after&E1&E2&E3&E4). exists ((name, p) :: ls), ok, ((name, data) :: before), after. rewrite E1.
      split; [reflexivity|]. split; [rewrite E2; reflexivity|]. split; [|exact E4]. constructor; [|exact E3]. split; [reflexivity|exact E].
    + exists [], false, [], ((name, data) :: l). split; [reflexivity|split; [reflexivity|split; [constructor|split; [reflexivity|]]]]. intros rs R. apply (C68_raises data rs R). exact E.
Qed.

(** With a list of flags the marked columns are shown as their exponential: every line is the summary of the
    exponentials (or the values) of its own column. *)
Definition shown (flags : list bool) (i : nat) (rs : list R) : list R := if nth i flags false then map exp rs else rs.
Lemma shown_rep data rs : Forall2 rep data rs -> Forall2 rep (map nexp data) (map exp rs).
Proof. intros F. induction F; constructor; [apply rep_exp; assumption|assumption]. Qed.
Lemma shown_constant flags i rs : constant (shown flags i rs) -> constant rs.
Proof.
  unfold shown. destruct (nth i flags false); [|auto]. intros C a b Ha Hb. apply exp_inv. apply C; apply in_map; assumption.
Qed.
Theorem C68_summary_log flags (cols : list column) : Forall (fun c => Forall finite (snd c)) cols -> (List.length cols <= S (List.length flags))%nat ->
  exists ls ok before after, printTraceSummary (Some flags) cols = (ls, ok) /\ removelast cols = (before ++ after)%list /\ List.length ls = List.length before /\
    (forall i l c rs, nth_error ls i = Some l -> nth_error before i = Some c -> Forall2 rep (snd c) rs ->
      fst l = fst c /\ exists data, Forall2 rep data (shown flags i rs) /\ print_mean_std (mean data) (std data) = Value (snd l)) /\
    match after with [] => ok = true | c :: _ => ok = false /\ forall rs, Forall2 rep (snd c) rs -> constant rs end.
Proof.
  intros F LE. unfold printTraceSummary.
  assert (F' : Forall (fun c => Forall finite (snd c)) (removelast cols)).
  { rewrite Forall_forall in *. intros c I1. apply F. clear F LE. induction cols as [|d l IH]; [destruct I1|]. destruct l; [destruct I1|]. destruct I1 as [<-|I1]; [left; reflexivity|right; apply IH; exact I1]. }
  assert (LE' : (0 + List.length (removelast cols) <= List.length flags)%nat).
  { clear F F'. destruct cols as [|d l]; [cbn; lia|]. assert (X := app_removelast_last d (l := d :: l)). rewrite X in LE by discriminate. rewrite app_length in LE. cbn [List.length] in LE. lia. }
  clear F LE. assert (G : forall l i, Forall (fun c : column => Forall finite (snd c)) l -> (i + List.length l <= List.length flags)%nat ->
    exists ls ok before after, summary_lines i (Some flags) l = (ls, ok) /\ l = (before ++ after)%list /\ List.length ls = List.length before /\
    (forall j x c rs, nth_error ls j = Some x -> nth_error before j = Some c -> Forall2 rep (snd c) rs ->
      fst x = fst c /\ exists data, Forall2 rep data (shown flags (i + j) rs) /\ print_mean_std (mean data) (std data) = Value (snd x)) /\
    match after with [] => ok = true | c :: _ => ok = false /\ forall rs, Forall2 rep (snd c) rs -> constant rs end).
  { clear. induction l as [|(name&data) l IH]; intros i F LE; cbn [summary_lines].
    - exists [], true, [], []. split; [reflexivity|]. split; [reflexivity|]. split; [reflexivity|]. split; [|reflexivity]. intros [|j] x c rs Hx; discriminate.
    - inversion_clear F as [|? ? F1 F2]. cbn [List.length] in LE. destruct (IH (S i) F2 ltac:(lia)) as (ls&ok&before&after&E1&E2&EL&E3&E4).
      destruct (nth_error flags i) as [b|] eqn:EN; [|apply nth_error_None in EN; lia].
      assert (EB : nth i flags false = b) by (apply nth_error_nth; exact EN).
      assert (RR : forall rs, Forall2 rep data rs -> Forall2 rep (if b then map nexp data else data) (shown flags i rs)).
      { intros rs HR. unfold shown. rewrite EB. destruct b; [apply shown_rep|]; exact HR. }
      replace (if b then Some (map nexp data) else Some data) with (Some (if b then map nexp data else data)) by (destruct b; reflexivity).
      destruct (print_mean_std (mean (if b then map nexp data else data)) (std (if b then map nexp data else data))) as [p|] eqn:E.
      + rewrite E1. exists ((name, p) :: ls), ok, ((name, data) :: before), after. split; [reflexivity|]. split; [rewrite E2; reflexivity|].
        split; [cbn [List.length]; rewrite EL; reflexivity|]. split; [|exact E4]. intros [|j] x c rs Hx Hc HR.
        * cbn [nth_error] in Hx, Hc. injection Hx as <-. injection Hc as <-. cbn [fst snd] in *. split; [reflexivity|]. rewrite Nat.add_0_r. eauto.
        * cbn [nth_error] in Hx, Hc. rewrite <- Nat.add_succ_comm. eauto.
      + exists [], false, [], ((name, data) :: l). split; [reflexivity|]. split; [reflexivity|]. split; [reflexivity|]. split; [intros [|j] x c rs Hx; discriminate|].
        split; [reflexivity|]. cbn [snd]. intros rs R. apply (shown_constant flags i). apply (C68_raises _ _ (RR rs R)). exact E. }
  destruct (G (removelast cols) 0%nat F' LE') as (ls&ok&before&after&E1&E2&EL&E3&E4). exists ls, ok, before, after. auto.
Qed.
Print Assumptions C68_summary_log.

(** ** The plot
    Every column of the trace of metropolis() (or the first N) gets a red line at the value of one and the same sample,
    whose probability is the largest, and a black line at the mean of its values. *)
Theorem C68_plot names trace n : (forall s, In s trace -> s_prob s <> NaN) -> trace <> [] ->
  exists s lines, plotTrace n (frame_of names trace) = Value lines /\ In s trace /\ (forall t, In t trace -> (s_prob t <=? s_prob s)%num = true) /\
    List.length lines = match n with Some n => Nat.min n (List.length names) | None => List.length names end /\
    forall i name, nth_error names i = Some name -> (i < List.length lines)%nat ->
      nth_error lines i = Some (name, nth i (s_pos s) NaN, mean (map (fun t => nth i (s_pos t) NaN) trace)).
Proof.
  intros NZ NE. destruct (idxmax_spec trace NZ NE) as (s&E&Is&M). destruct (best_frame names trace s NZ E) as (k&K1&K2).
  unfold plotTrace. rewrite K1, K2. cbn [f_names frame_of]. eexists s, _. split; [reflexivity|]. split; [exact Is|]. split; [exact M|].
  set (q := match n with Some n => n | None => List.length names end).
  assert (FL : forall a l, filter (fun p : nat * string => negb (Z.ltb (Z.of_nat q - 1) (Z.of_nat (fst p)))) (combine (seq a (List.length l)) l) =
     firstn (q - a) (combine (seq a (List.length l)) l)).
  { intros a l. revert a. induction l as [|c l IH]; intros a; cbn [List.length seq combine filter fst]; [rewrite firstn_nil; reflexivity|].
    rewrite IH. destruct (Z.ltb_spec (Z.of_nat q - 1) (Z.of_nat a)); cbn [negb].
    - replace (q - a)%nat with 0%nat by lia. replace (q - S a)%nat with 0%nat by lia. reflexivity.
    - replace (q - a)%nat with (S (q - S a)) by lia. reflexivity. }
  rewrite FL, Nat.sub_0_r. rewrite map_length, firstn_length, combine_length, seq_length, Nat.min_id. split.
  - unfold q. destruct n; [reflexivity|apply Nat.min_id].
  - intros i name EN L. rewrite nth_error_map.
    assert (X : forall l a j c, nth_error l j = Some c -> nth_error (combine (seq a (List.length l)) l) j = Some ((a + j)%nat, c : string)).
    { induction l as [|d l IH]; intros a [|j] c; cbn [nth_error List.length seq combine]; try discriminate.
      - intros Y. rewrite Nat.add_0_r. congruence.
      - intros Y. rewrite (IH (S a) j c Y). f_equal. f_equal. lia. }
    assert (FN : forall (l : list (nat * string)) m j, (j < m)%nat -> nth_error (firstn m l) j = nth_error l j).
    { induction l as [|d l IH]; intros [|m] [|j] LJ; cbn; try lia; auto. apply IH. lia. }
    rewrite FN by lia. rewrite (X names 0%nat i name EN). cbn [option_map fst snd Nat.add]. reflexivity.
Qed.
(** ** Refutations and examples *)
(** The samples of a run in which every proposal was rejected cannot be summarised. *)
Theorem C68_rejected_refuted : exists cols, Forall (fun c => Forall finite (snd c) /\ snd c <> []) cols /\ (2 <= List.length cols)%nat /\
  printTraceSummary None cols = ([], false).
Proof.
  exists [("elevation_m"%string, [Fin 5; Fin 5; Fin 5]); ("probability"%string, [Fin (-1); Fin (-1); Fin (-1)])].
  split; [|split; [simpl; lia|]].
  - repeat constructor; try discriminate; eexists; apply rep_Fin.
  - unfold printTraceSummary. cbn [removelast summary_lines].
    assert (F : Forall2 rep [Fin 5; Fin 5; Fin 5] [5; 5; 5]) by (repeat constructor).
    assert (E : print_mean_std (mean [Fin 5; Fin 5; Fin 5]) (std [Fin 5; Fin 5; Fin 5]) = Raises).
    { apply (C68_raises _ _ F). intros a b. simpl. intros [<-|[<-|[<-|[]]]] [<-|[<-|[<-|[]]]]; reflexivity. }
    rewrite E. reflexivity.
Qed.
(** The values 0.4 and 2.4 with mean 1.4 and standard deviation 1 are printed as 1.0 ± 1.0. *)
Example C68_line_example :
  let data := [Fin (2/5); Fin (12/5)] in let rs := [2/5; 12/5] in
  Forall2 rep data rs /\ average rs = 7/5 /\ deviation rs = 1 /\
  exists m s, print_mean_std (mean data) (std data) = Value (m, s) /\ rep m 1 /\ rep s 1.
Proof.
  intros data rs. assert (F : Forall2 rep data rs) by (repeat constructor).
  assert (A : average rs = 7/5) by (unfold average, rs; cbn; field).
  assert (D : deviation rs = 1).
  { unfold deviation. rewrite A. unfold average, rs. cbn [map List.length]. rewrite <- sqrt_1. f_equal. unfold Rsqr. cbn. field. }
  split; [exact F|]. split; [exact A|]. split; [exact D|].
  destruct (C68_line data rs F ltac:(rewrite D; lra)) as (m&s&M&S&E&R1&R2&E1&E2&k&i&j&K&KM&KS&J). rewrite A, D in *. exists m, s. split; [exact E|].
  assert (k = 0%Z) as ->.
  { destruct (Z_lt_le_dec k 0) as [L|L].
    - exfalso. assert (powerRZ 10 (k + 1) <= 1); [|lra].
      pose proof (p10_opp (k + 1)). pose proof (p10 (k + 1)). assert (1 <= powerRZ 10 (- (k + 1))); [|nra].
      assert (Q : (0 <= - (k + 1))%Z) by lia. rewrite <- (Z2Nat.id _ Q), <- pow_powerRZ. apply pow_R1_Rle. lra.
    - destruct (Z.eq_dec k 0) as [|N]; auto. exfalso. assert (10 <= powerRZ 10 k); [|lra].
      replace k with (1 + Z.of_nat (Z.to_nat (k - 1)))%Z by lia. rewrite powerRZ_add, <- pow_powerRZ by lra. replace (powerRZ 10 1) with 10 by (simpl; ring).
      pose proof (pow_R1_Rle 10 (Z.to_nat (k - 1)) ltac:(lra)). lra. }
  change (powerRZ 10 0) with 1 in KM. replace (powerRZ 10 (0 - 1)) with (1/10) in KS by (simpl; field).
  rewrite KM, KS in *.
  assert (I1 : i = 1%Z). { assert (0 < IZR i < 2) as (I1&I2) by (unfold Rabs in E1; destruct Rcase_abs; lra). apply lt_IZR in I1. apply lt_IZR in I2. lia. }
  assert (J1 : j = 10%Z). { assert (9 < IZR j < 11) as (J1&J2) by (unfold Rabs in E2; destruct Rcase_abs; lra). apply lt_IZR in J1. apply lt_IZR in J2. lia. }
  subst i j. split; [apply (rep_eq _ _ _ R1); ring|apply (rep_eq _ _ _ R2); field].
Qed.
(** Three samples of two parameters: both red lines are at the second sample. *)
Example C68_plot_example :
  let trace := [Sample [Fin 1; Fin 7] [] (Fin (-3)); Sample [Fin 2; Fin 8] [] (Fin (-1)); Sample [Fin 3; Fin 9] [] (Fin (-2))] in
  exists m1 m2, plotTrace None (frame_of ["a"; "b"]%string trace) = Value [("a"%string, Fin 2, m1); ("b"%string, Fin 8, m2)] /\ rep m1 2 /\ rep m2 8.
Proof.
  intros trace. destruct (C68_plot ["a"; "b"]%string trace None) as (s&lines&E&Is&M&L&P).
  { intros s Hs. simpl in Hs. destruct Hs as [<-|[<-|[<-|[]]]]; discriminate. } { discriminate. }
  assert (s = Sample [Fin 2; Fin 8] [] (Fin (-1))) as ->.
  { assert (B := M _ (or_intror (or_introl eq_refl))). cbn [s_prob] in B. simpl in Is. destruct Is as [<-|[<-|[<-|[]]]]; auto; cbn [s_prob] in B;
    rewrite (rep_leb _ _ _ _ (rep_Fin (-1)) (rep_Fin _)) in B; unfold Rleb in B; destruct (Rle_dec _ _); try discriminate; lra. }
  pose proof (P 0%nat "a"%string eq_refl ltac:(rewrite L; simpl; lia)) as P0. pose proof (P 1%nat "b"%string eq_refl ltac:(rewrite L; simpl; lia)) as P1.
  destruct lines as [|l0 [|l1 [|]]]; try discriminate. cbn [nth_error] in P0, P1. cbn [nth s_pos map trace] in P0, P1.
  injection P0 as ->. injection P1 as ->. eexists _, _. split; [exact E|]. split.
  - apply (rep_eq _ (average [1; 2; 3])); [apply mean_rep; [repeat constructor|discriminate]|]. unfold average. cbn. field.
  - apply (rep_eq _ (average [7; 8; 9])); [apply mean_rep; [repeat constructor|discriminate]|]. unfold average. cbn. field.
Qed.
Print Assumptions C68_line.
Print Assumptions C68_interval.
Print Assumptions C68_raises.
Print Assumptions C68_summary.
Print Assumptions C68_plot.
Print Assumptions C68_rejected_refuted.
(** Two columns, of which the second is logarithmic, and the column of probabilities: two lines. *)
Example C68_summary_log_example :
  let cols := [("a", [Fin 1; Fin 3]); ("b", [Fin 0; Fin 1]); ("probability", [Fin 0; Fin 0])]%string in
  Forall (fun c => Forall finite (snd c)) cols /\ shown [false; true] 1 [0; 1] = [exp 0; exp 1] /\ shown [false; true] 0 [1; 3] = [1; 3] /\
  exists ls, printTraceSummary (Some [false; true]) cols = (ls, true) /\ map fst ls = ["a"; "b"]%string.
Proof.
  intros cols. assert (F : Forall (fun c => Forall finite (snd c)) cols) by (repeat constructor; eexists; apply rep_Fin).
  split; [exact F|]. split; [reflexivity|]. split; [reflexivity|].
  destruct (C68_summary_log [false; true] cols F ltac:(cbn; lia)) as (ls&ok&before&after&E&ES&EL&EN&EA). exists ls. rewrite E.
  assert (NC : forall a b : R, a <> b -> ~ constant [a; b]) by (intros a b N C; apply N; apply C; cbn; auto).
  cbn [removelast cols] in ES. destruct before as [|c0 [|c1 [|c2 before]]].
  - destruct after; [discriminate|]. injection ES as <- <-. destruct EA as (_&EA). exfalso. apply (NC 1 3); [lra|]. apply EA. repeat constructor.
  - destruct after; [discriminate|]. injection ES as <- <- <-. destruct EA as (_&EA). exfalso. apply (NC 0 1); [lra|]. apply EA. repeat constructor.
  - injection ES as <- <- ES. destruct after; [|discriminate]. subst ok. split; [reflexivity|].
    destruct ls as [|l0 [|l1 [|]]]; try discriminate. cbn [map].
    destruct (EN 0%nat l0 _ [1; 3] eq_refl eq_refl) as (-> & _); [repeat constructor|]. destruct (EN 1%nat l1 _ [0; 1] eq_refl eq_refl) as (-> & _); [repeat constructor|]. reflexivity.
  - injection ES as <- <- ES. destruct before; discriminate.
Qed.
