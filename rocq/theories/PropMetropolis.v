(** * C46: Metropolis sampling *)
Require Import Reals Lra Lia List Bool ZArith Arith Psatz.
From Verif Require Import Num Trig PropGpsString Metropolis.
Import ListNotations.
Open Scope R_scope.

(** ** Facts *)
Lemma loop_app lp step burn draws m a b :
  run_loop lp step burn draws m (a ++ b) = run_loop lp step burn draws (run_loop lp step burn draws m a) b.
Proof. apply fold_left_app. Qed.
(** an invariant of the loop *)
Lemma loop_inv (P : mstate -> Prop) lp step burn draws is : forall m, P m ->
  (forall m i, In i is -> P m -> P (iterate lp step burn draws m i)) -> P (run_loop lp step burn draws m is).
Proof.
  induction is as [|i is IH]; intros m H S; auto. simpl. apply IH; [apply S; simpl; auto|]. intros; apply S; simpl; auto.
Qed.
Lemma iterate_trace lp step burn draws m i : let m' := iterate lp step burn draws m i in
  m_trace m' = (m_trace m ++ if (burn <? Z.of_nat i)%Z then [Sample (m_pos m') (d_prior (draws i)) (m_prob m')] else [])%list.
Proof.
  unfold iterate. destruct (burn <? Z.of_nat i)%Z; [reflexivity|]. destruct (Nat.ltb 100 i && _); simpl; rewrite app_nil_r; reflexivity.
Qed.
Lemma iterate_pos lp step burn draws m i : let m' := iterate lp step burn draws m i in
  let next := propose (m_scale m) (m_pos m) step (d_t (draws i)) in
  let prob := lp (next ++ d_prior (draws i)) in
  (accepts prob (m_prob m) (d_r (draws i)) = true /\ m_pos m' = next /\ m_prob m' = prob) \/
  (accepts prob (m_prob m) (d_r (draws i)) = false /\ m_pos m' = m_pos m /\ m_prob m' = m_prob m).
Proof.
  cbv zeta. unfold iterate. destruct (accepts _ _ _); [left|right];
  destruct (burn <? Z.of_nat i)%Z; try (split; [reflexivity|split; reflexivity]); destruct (Nat.ltb 100 i && _); (split; [reflexivity|split; reflexivity]).
Qed.

(** ** The number of samples *)
Lemma length_loop lp step burn draws n : (0 <= burn)%Z -> forall m,
  List.length (m_trace (run_loop lp step burn draws m (seq 0 n))) = (List.length (m_trace m) + (n - 1 - Z.to_nat burn))%nat.
Proof.
  intros B m. induction n as [|n IH]; [simpl; lia|].
  rewrite seq_S, loop_app. simpl. rewrite iterate_trace, app_length, IH.
  destruct (Z.ltb_spec burn (Z.of_nat n)); simpl; lia.
Qed.
Theorem C46_length lp start step iterations burn prior draws n b :
  Z.to_nat (trunc iterations) = n -> burn_in iterations burn = Z.of_nat b ->
  List.length (metropolis lp start step iterations burn prior draws) = (n - 1 - b)%nat.
Proof.
  intros <- E. unfold metropolis. rewrite E, length_loop by lia. simpl. rewrite Nat2Z.id. reflexivity.
Qed.

(** ** The acceptance rule *)
Lemma nisinf_rep x r : rep x r -> nisinf x = false.
Proof. unfold rep, toR. destruct x; auto; discriminate. Qed.
(** A proposal of log probability a is taken from b with probability min(1, exp a / exp b): for a draw r in
    [0, 1) exactly if r exp b < exp a. *)
Theorem C46_acceptance next last u a b r : rep next a -> rep last b -> rep u r -> 0 <= r < 1 ->
  (accepts next last u = true <-> r * exp b < exp a).
Proof.
  intros Ha Hb Hu B. unfold accepts. rewrite (nisinf_rep _ _ Ha). cbn [andb].
  pose proof (rep_sub _ _ _ _ Ha Hb) as Hs. rewrite (rep_leb _ _ _ _ (rep_Fin 0) Hs), (rep_ltb _ _ _ _ Hu (rep_exp _ _ Hs)).
  assert (EX : exp (a - b) * exp b = exp a). { rewrite <- exp_plus. f_equal. ring. }
  pose proof (exp_pos b) as Pb. pose proof (exp_pos a) as Pa.
  unfold Rleb, Rltb. destruct (Rle_dec 0 (a - b)) as [L|L]; cbn [orb].
  - split; auto. intros _. assert (exp b <= exp a). { destruct (Rle_lt_or_eq_dec b a); [lra|left; apply exp_increasing; auto|subst; lra]. } nra.
  - destruct (Rlt_dec r (exp (a - b))) as [L'|L']; split; auto; try discriminate; intros; [nra|exfalso]; nra.
Qed.

(** ** The samples carry the probability of their position *)
Theorem C46_recorded lp start step iterations burn draws : (forall i, d_prior (draws i) = []) ->
  Forall (fun s => s_prior s = [] /\ s_prob s = lp (s_pos s)) (metropolis lp start step iterations burn [] draws).
Proof.
  intros NP. unfold metropolis.
  apply (loop_inv (fun m => m_prob m = lp (m_pos m) /\ Forall (fun s => s_prior s = [] /\ s_prob s = lp (s_pos s)) (m_trace m))).
  - simpl. rewrite app_nil_r. auto.
  - intros m i _ (Q&F).
    assert (Q' : let m' := iterate lp step (burn_in iterations burn) draws m i in m_prob m' = lp (m_pos m')).
    { destruct (iterate_pos lp step (burn_in iterations burn) draws m i) as [(_&P&R)|(_&P&R)]; cbv zeta; rewrite P, R; auto.
      rewrite NP, app_nil_r. reflexivity. }
    split; auto. rewrite iterate_trace. apply Forall_app. split; auto. destruct (_ <? _)%Z; auto.
    constructor; auto. simpl. rewrite NP. auto.
Qed.

(** With a prior trace the probability belongs to the position and the prior row it was accepted with. *)
Theorem C46_evaluated lp start step iterations burn prior draws :
  Forall (fun s => exists row, (row = prior \/ exists i, row = d_prior (draws i)) /\ s_prob s = lp (s_pos s ++ row))
    (metropolis lp start step iterations burn prior draws).
Proof.
  unfold metropolis.
  set (Q := fun (pos : list num) (pr : num) => exists row, (row = prior \/ exists i, row = d_prior (draws i)) /\ pr = lp (pos ++ row)).
  apply (loop_inv (fun m => Q (m_pos m) (m_prob m) /\ Forall (fun s => Q (s_pos s) (s_prob s)) (m_trace m))).
  - simpl. split; auto. exists prior. auto.
  - intros m i _ (H&F).
    assert (Q' : let m' := iterate lp step (burn_in iterations burn) draws m i in Q (m_pos m') (m_prob m')).
    { destruct (iterate_pos lp step (burn_in iterations burn) draws m i) as [(_&P&R)|(_&P&R)]; cbv zeta; rewrite P, R; auto.
      exists (d_prior (draws i)). eauto. }
    split; auto. rewrite iterate_trace. apply Forall_app. split; auto. destruct (_ <? _)%Z; auto.
Qed.
(** but the row written next to it is that of the last iteration: after a rejected step the sample pairs the
    old probability with a prior row it was not computed from. *)
Lemma trunc_nat n : trunc (INR n) = Z.of_nat n.
Proof.
  unfold trunc. rewrite Rltb_false by apply pos_INR. rewrite INR_IZR_INZ. apply Rfloor_eq. lra.
Qed.
Lemma burn_nat it n : (0 < n)%nat -> burn_in it (INR n) = Z.of_nat n.
Proof. intros H. unfold burn_in. apply lt_INR in H as H'. assert (1 <= INR n) by (apply (le_INR 1); lia). rewrite Rltb_false by lra. apply trunc_nat. Qed.
Lemma burn_zero it : burn_in it 0 = 0%Z.
Proof. unfold burn_in. rewrite Rltb_true by lra. replace (it * 0) with (INR 0) by (simpl; ring). apply (trunc_nat 0). Qed.
Theorem C46_recorded_refuted : exists lp start step iterations burn prior draws s,
  In s (metropolis lp start step iterations burn prior draws) /\ s_prob s <> lp (s_pos s ++ s_prior s).
Proof.
  set (lp := fun l => nth 1 l NaN).
  set (draws := fun i => match i with O => Draw [Fin 0] [Fin 0] (Fin (1/2)) | _ => Draw [Fin (-1)] [Fin 0] (Fin (1/2)) end).
  exists lp, [Fin 0], [Fin 1], (INR 2), 0, [Fin 0], draws.
  unfold metropolis. rewrite burn_zero, trunc_nat, Nat2Z.id.
  set (m1 := iterate lp [Fin 1] 0 draws (start_state lp [Fin 0] [Fin 0]) 0).
  assert (P1 : m_prob m1 = Fin 0).
  { destruct (iterate_pos lp [Fin 1] 0 draws (start_state lp [Fin 0] [Fin 0]) 0) as [(_&_&P)|(_&_&P)]; exact P. }
  assert (P2 : m_prob (iterate lp [Fin 1] 0 draws m1 1) = Fin 0).
  { destruct (iterate_pos lp [Fin 1] 0 draws m1 1) as [(A&_&_)|(_&_&P)]; [exfalso|rewrite P; exact P1].
    rewrite P1 in A. assert (exists x, propose (m_scale m1) (m_pos m1) [Fin 1] (d_t (draws 1%nat)) = [x]) as (x&E).
    { unfold m1. destruct (iterate_pos lp [Fin 1] 0 draws (start_state lp [Fin 0] [Fin 0]) 0) as [(_&P&_)|(_&P&_)]; rewrite P; simpl; eauto. }
    rewrite E in A. change (lp ([x] ++ _)) with (Fin (-1)) in A. change (d_r _) with (Fin (1/2)) in A.
    apply (C46_acceptance _ _ _ (-1) 0 (1/2)) in A; [|apply rep_Fin|apply rep_Fin|apply rep_Fin|lra].
    rewrite exp_0 in A. assert (E2 : exp (-1) * exp 1 = 1) by (rewrite <- exp_plus; replace (-1 + 1) with 0 by ring; apply exp_0).
    pose proof (exp_ineq1 1 ltac:(lra)). nra. }
  exists (Sample (m_pos (iterate lp [Fin 1] 0 draws m1 1)) [Fin (-1)] (Fin 0)). split.
  - simpl seq. unfold run_loop. simpl fold_left. fold m1. rewrite iterate_trace. apply in_or_app. right. rewrite P2. left. reflexivity.
  - assert (exists x, m_pos (iterate lp [Fin 1] 0 draws m1 1) = [x]) as (x&->).
    { assert (exists x, m_pos m1 = [x]) as (x&E).
      { unfold m1. destruct (iterate_pos lp [Fin 1] 0 draws (start_state lp [Fin 0] [Fin 0]) 0) as [(_&P&_)|(_&P&_)]; rewrite P; simpl; eauto. }
      destruct (iterate_pos lp [Fin 1] 0 draws m1 1) as [(_&P&_)|(_&P&_)]; rewrite P, E; simpl; eauto. }
    cbn. intros E. injection E. lra.
Qed.

(** ** Zero probability *)
(** A real draw never accepts a position of zero or undefined probability from one of positive probability. *)
Lemma NInf_sub last b : rep last b -> (NInf - last)%num = NInf.
Proof. intros H. rlook (rep_neg _ _ H). unfold nsub, nadd. cbn [look]. rewrite H0. reflexivity. Qed.
Lemma NaN_sub last : (NaN - last)%num = NaN.
Proof. reflexivity. Qed.
Lemma accept_finite next last u b r : rep last b -> rep u r -> 0 <= r -> next <> PInf -> accepts next last u = true -> finite next.
Proof.
  intros Hb Hu B NP. unfold accepts. destruct next as [a| | | |]; try congruence; try (intros _; eexists; reflexivity).
  - rewrite (nisinf_rep _ _ Hb), andb_false_r, (NInf_sub _ _ Hb). change (nexp NInf) with (Fin 0).
    rewrite (rep_ltb _ _ _ _ Hu (rep_Fin 0)), Rltb_false by lra. discriminate.
  - cbn [nisinf andb]. rewrite NaN_sub. change (nexp NaN) with NaN. unfold nltb, nleb. cbn [look].
    rlook Hu. rewrite H. discriminate.
Qed.
Theorem C46_support lp start step iterations burn prior draws : (forall p, lp p <> PInf) ->
  (forall i, exists r, rep (d_r (draws i)) r /\ 0 <= r) -> finite (lp (start ++ prior)) ->
  Forall (fun s => finite (s_prob s)) (metropolis lp start step iterations burn prior draws).
Proof.
  intros NP DR FS. unfold metropolis.
  apply (loop_inv (fun m => finite (m_prob m) /\ Forall (fun s => finite (s_prob s)) (m_trace m))).
  - simpl. auto.
  - intros m i _ (Q&F).
    assert (Q' : let m' := iterate lp step (burn_in iterations burn) draws m i in finite (m_prob m')).
    { destruct (iterate_pos lp step (burn_in iterations burn) draws m i) as [(A&P&R)|(A&P&R)]; cbv zeta; rewrite R; auto.
      destruct Q as (b&Hb). destruct (DR i) as (r&Hr&B). exact (accept_finite _ _ _ _ _ Hb Hr B (NP _) A). }
    split; auto. rewrite iterate_trace. apply Forall_app. split; auto. destruct (_ <? _)%Z; auto.
Qed.

(** ** The ranges *)
Definition inside (lo hi : num) (p : num) : Prop := (lo <=? p)%num = true /\ (p <=? hi)%num = true.
Fixpoint all_inside (ranges : list (num * num)) (pos : list num) : Prop :=
  match ranges, pos with
  | (lo, hi) :: ranges, p :: pos => inside lo hi p /\ all_inside ranges pos
  | [], [] => True
  | _, _ => False
  end.
(** bounds: a finite number or the infinity of its side (None and nan become infinite, statistic.py 82-84) *)
Definition good_range (r : num * num) : Prop := (finite (fst r) \/ fst r = NInf) /\ (finite (snd r) \/ snd r = PInf).
Definition positive (x : num) : Prop := exists r, rep x r /\ 0 < r.
Lemma nleb_rep x y a b : rep x a -> rep y b -> ((x <=? y)%num = true <-> a <= b).
Proof. intros H H'. rewrite (rep_leb _ _ _ _ H H'). unfold Rleb. destruct (Rle_dec a b); split; auto; discriminate. Qed.
Lemma NInf_le x a : rep x a -> (NInf <=? x)%num = true.
Proof. unfold rep, toR. destruct x; try discriminate; reflexivity. Qed.
Lemma le_PInf x a : rep x a -> (x <=? PInf)%num = true.
Proof. unfold rep, toR. destruct x; try discriminate; reflexivity. Qed.
Lemma rep_dec x : finite x \/ x = PInf \/ x = NInf \/ x = NaN.
Proof. destruct x; auto; left; eexists; reflexivity. Qed.
Lemma propose_inside ranges : forall pos step t, Forall good_range ranges -> Forall positive step -> Forall finite pos -> Forall finite t ->
  in_bounds ranges pos step t -> all_inside ranges (propose 1 pos step t) /\ Forall finite (propose 1 pos step t).
Proof.
  induction ranges as [|(lo&hi) ranges IH]; intros [|p pos] [|s step] [|t ts] G P F F' B; try contradiction; simpl; auto.
  inversion_clear G as [|? ? G1 G2]. inversion_clear P as [|? ? P1 P2]. inversion_clear F as [|? ? F1 F2].
  inversion_clear F' as [|? ? F1' F2']. destruct B as (B1&B2&B3).
  destruct (IH pos step ts G2 P2 F2 F2' B3) as (I1&I2).
  destruct P1 as (S&HS&PS). destruct F1 as (q&Hp). destruct F1' as (T&HT).
  assert (HN : rep (p + Fin 1 * s * t)%num (q + 1 * S * T)).
  { apply rep_add; auto. apply rep_mul; auto. apply rep_mul; auto. apply rep_Fin. }
  split; [|constructor; [eexists; eauto|auto]]. split; auto. destruct G1 as (GL&GH). cbn [fst snd] in *. split.
  - destruct GL as [(L&HL)| ->]; [|eapply NInf_le; eauto].
    apply (nleb_rep _ _ _ _ HL HN).
    apply (nleb_rep _ _ ((L - q) / S) T) in B1; auto; [|apply rep_div; auto; [apply rep_sub; auto|lra]].
    assert ((L - q) / S * S = L - q) by (field; lra). nra.
  - destruct GH as [(H&HH)| ->]; [|eapply le_PInf; eauto].
    apply (nleb_rep _ _ _ _ HN HH).
    apply (nleb_rep _ _ T ((H - q) / S)) in B2; auto; [|apply rep_div; auto; [apply rep_sub; auto|lra]].
    assert ((H - q) / S * S = H - q) by (field; lra). nra.
Qed.
(** The position after the first i iterations. *)
Definition position lp start step iterations burn prior draws i : list num :=
  m_pos (run_loop lp step (burn_in iterations burn) draws (start_state lp start prior) (seq 0 i)).
Lemma loop_inv_seq (P : mstate -> Prop) lp step burn draws n m : P m ->
  (forall i, (i < n)%nat -> P (run_loop lp step burn draws m (seq 0 i)) ->
     P (iterate lp step burn draws (run_loop lp step burn draws m (seq 0 i)) i)) ->
  P (run_loop lp step burn draws m (seq 0 n)).
Proof.
  intros H S. induction n as [|n IH]; auto. rewrite seq_S, loop_app. simpl. apply S; [lia|]. apply IH. intros; apply S; auto; lia.
Qed.
(** As long as the scale factor is not tuned (burn-in below 200 iterations), all samples stay in the ranges:
    the draws are those of the truncated normal distribution at the position reached. *)
Theorem C46_ranges lp start step iterations burn prior draws ranges : (burn_in iterations burn < 200)%Z ->
  Forall good_range ranges -> Forall positive step -> Forall finite start -> all_inside ranges start ->
  (forall i, Forall finite (d_t (draws i))) ->
  (forall i, (i < Z.to_nat (trunc iterations))%nat -> in_bounds ranges (position lp start step iterations burn prior draws i) step (d_t (draws i))) ->
  Forall (fun s => all_inside ranges (s_pos s)) (metropolis lp start step iterations burn prior draws).
Proof.
  intros NB G P FS IS FT B. unfold metropolis.
  apply (loop_inv_seq (fun m => (m_scale m = 1 /\ all_inside ranges (m_pos m) /\ Forall finite (m_pos m)) /\
     Forall (fun s => all_inside ranges (s_pos s)) (m_trace m))).
  - simpl. auto.
  - intros i Li. specialize (B i Li). unfold position in B.
    set (m := run_loop _ _ _ _ _ (seq 0 i)) in *. intros ((S1&I1&F1)&F).
    set (m' := iterate lp step (burn_in iterations burn) draws m i).
    assert (Q : all_inside ranges (m_pos m') /\ Forall finite (m_pos m')).
    { destruct (iterate_pos lp step (burn_in iterations burn) draws m i) as [(A&Pp&R)|(A&Pp&R)]; unfold m'; rewrite Pp; auto.
      rewrite S1. apply propose_inside; auto. }
    assert (S' : m_scale m' = 1).
    { unfold m', iterate. destruct (Z.ltb_spec (burn_in iterations burn) (Z.of_nat i)); [auto|].
      destruct (Nat.ltb_spec 100 i); [|auto]. destruct (Nat.eqb_spec (i mod 100) 0) as [M|M]; [|auto].
      exfalso. assert (i < 200)%nat by lia. assert (i mod 100 = i - 100)%nat; [|lia].
      symmetry. apply (Nat.mod_unique _ _ 1); lia. }
    split; [tauto|]. unfold m'. rewrite iterate_trace. apply Forall_app. split; auto. destruct (_ <? _)%Z; auto.
    constructor; auto. simpl. tauto.
Qed.

(** ** Refutations and examples *)
Lemma trunc_IZR n : (0 <= n)%Z -> trunc (IZR n) = n.
Proof. intros H. rewrite <- (Z2Nat.id n) at 1 by auto. rewrite <- INR_IZR_INZ, trunc_nat. apply Z2Nat.id; auto. Qed.
(** If the log probability may be +infinity, a chain started at a finite one can end at probability zero:
    from +infinity every step to -infinity is accepted. *)
Theorem C46_support_refuted : exists lp start step iterations burn prior draws s,
  (forall i, exists r, rep (d_r (draws i)) r /\ 0 <= r) /\ finite (lp (start ++ prior)) /\
  In s (metropolis lp start step iterations burn prior draws) /\ s_prob s = NInf.
Proof.
  (* the three positions are told apart by their coordinates *)
  set (lp := fun l => match l with
    | [Fin r] => if Reqb r 0 then Fin 0 else if Reqb r 1 then PInf else NInf | _ => NInf end).
  set (draws := fun i : nat => Draw [] [Fin 1] (Fin 0)).
  assert (E0 : lp [Fin 0] = Fin 0). { unfold lp. rewrite (proj2 (Reqb_iff 0 0)); auto. }
  set (s0 := start_state lp [Fin 0] []).
  set (m1 := iterate lp [Fin 1] 0 draws s0 0). set (m2 := iterate lp [Fin 1] 0 draws m1 1).
  assert (step1 : forall x y, x + 1 = y -> y <> 0 -> propose 1 [Fin x] [Fin 1] [Fin 1] = [Fin y]).
  { intros x y H N. cbn [propose]. f_equal. unfold nmul, nadd. cbn [look]. rewrite !look_mk. unfold mk.
    replace (x + 1 * 1 * 1) with y by lra. destruct (Reqb y 0) eqn:E; [apply Reqb_iff in E; congruence|]. reflexivity. }
  assert (L1 : lp [Fin 1] = PInf).
  { unfold lp. destruct (Reqb 1 0) eqn:E; [apply Reqb_iff in E; lra|]. rewrite (proj2 (Reqb_iff 1 1)); auto. }
  assert (L2 : lp [Fin 2] = NInf).
  { unfold lp. destruct (Reqb 2 0) eqn:E; [apply Reqb_iff in E; lra|]. destruct (Reqb 2 1) eqn:E'; [apply Reqb_iff in E'; lra|]. auto. }
  assert (SC : forall m i, (i < 100)%nat -> m_scale (iterate lp [Fin 1] 0 draws m i) = m_scale m).
  { intros m i H. unfold iterate. destruct (_ <? _)%Z; auto. destruct (Nat.ltb_spec 100 i); [lia|]. auto. }
  assert (H1 : m_pos m1 = [Fin 1] /\ m_prob m1 = PInf /\ m_scale m1 = 1).
  { unfold m1. rewrite SC by lia.
    destruct (iterate_pos lp [Fin 1] 0 draws s0 0) as [(A&P&Q)|(A&P&Q)]; rewrite P, Q; unfold s0; cbn [m_pos m_prob m_scale start_state draws d_t d_prior];
      unfold s0 in A; cbn [m_pos m_prob m_scale start_state draws d_t d_prior d_r] in A; rewrite (step1 0 1) in * by lra.
    - rewrite app_nil_r, L1. auto.
    - rewrite !app_nil_r, L1, E0 in A. exfalso. revert A. unfold accepts. cbn [nisinf andb]. unfold nsub, nadd, nneg. cbn [look].
      rewrite look_mk. cbn. discriminate. }
  destruct H1 as (P1&Q1&S1).
  assert (H2 : m_prob m2 = NInf).
  { unfold m2. destruct (iterate_pos lp [Fin 1] 0 draws m1 1) as [(A&P&Q)|(A&P&Q)]; rewrite Q;
      rewrite P1, Q1, S1 in *; cbn [draws d_t d_prior d_r] in *; rewrite (step1 1 2) in * by lra; rewrite app_nil_r, L2 in *; auto.
    exfalso. revert A. unfold accepts. cbn [nisinf andb]. rewrite (rep_leb _ _ _ _ (rep_Fin 0) (rep_Fin 0)). unfold Rleb.
    destruct (Rle_dec 0 0); [discriminate|lra]. }
  exists lp, [Fin 0], [Fin 1], (INR 2), 0, [], draws, (Sample (m_pos m2) [] NInf).
  split; [|split; [|split]].
  - intros i. exists 0. split; [apply rep_Fin|lra].
  - rewrite app_nil_r, E0. eexists. apply rep_Fin.
  - unfold metropolis. rewrite burn_zero, trunc_nat, Nat2Z.id. simpl seq. unfold run_loop. simpl fold_left. fold s0 m1.
    rewrite iterate_trace. apply in_or_app. right. fold m2. rewrite H2. left. reflexivity.
  - reflexivity.
Qed.

(** constant probability: every step is accepted *)
Lemma accepts_same u : accepts (Fin 0) (Fin 0) u = true.
Proof.
  unfold accepts. cbn [nisinf andb]. rewrite (rep_leb _ _ 0 (0 - 0) (rep_Fin 0)) by (apply rep_sub; apply rep_Fin).
  unfold Rleb. destruct (Rle_dec 0 (0 - 0)); [reflexivity|lra].
Qed.
Definition flat (l : list num) : num := Fin 0.
Lemma iterate_flat step burn draws m i : m_prob m = Fin 0 -> let m' := iterate flat step burn draws m i in
  m_prob m' = Fin 0 /\ m_pos m' = propose (m_scale m) (m_pos m) step (d_t (draws i)).
Proof.
  intros H. cbv zeta. destruct (iterate_pos flat step burn draws m i) as [(A&P&Q)|(A&P&Q)]; [rewrite P, Q; auto|].
  rewrite H in A. unfold flat in A. rewrite accepts_same in A. discriminate.
Qed.
(** With a burn-in of 200 iterations or more the scale factor multiplies the draws of the truncated distribution
    and the chain leaves the ranges. *)
Theorem C46_ranges_refuted : exists lp start step iterations burn prior draws ranges s,
  Forall good_range ranges /\ Forall positive step /\ Forall finite start /\ all_inside ranges start /\
  (forall i, Forall finite (d_t (draws i))) /\
  (forall i, (i < Z.to_nat (trunc iterations))%nat -> in_bounds ranges (position lp start step iterations burn prior draws i) step (d_t (draws i))) /\
  In s (metropolis lp start step iterations burn prior draws) /\ ~ all_inside ranges (s_pos s).
Proof.
  set (draws := fun i : nat => Draw [] [Fin (if Nat.eqb i 201 then 1/2 else 0)] (Fin 0)).
  set (st := fun i => run_loop flat [Fin 1] 200 draws (start_state flat [Fin (1/2)] []) (seq 0 i)).
  assert (ST : forall i, st (S i) = iterate flat [Fin 1] 200 draws (st i) i). { intros i. unfold st. rewrite seq_S, loop_app. reflexivity. }
  assert (PB : forall i, m_prob (st i) = Fin 0). { induction i; [reflexivity|]. rewrite ST. apply iterate_flat. auto. }
  assert (PO : forall i, (i <= 201)%nat -> exists x, m_pos (st i) = [x] /\ rep x (1/2)).
  { induction i; intros H; [eexists; split; [reflexivity|apply rep_Fin]|].
    rewrite ST. destruct (IHi ltac:(lia)) as (x&E&X). rewrite (proj2 (iterate_flat _ _ _ _ _ (PB i))), E. cbn [draws d_t propose].
    destruct (Nat.eqb_spec i 201); [lia|]. eexists. split; [reflexivity|].
    apply (rep_eq _ (1/2 + m_scale (st i) * 1 * 0)); [apply rep_add; auto; apply rep_mul; [apply rep_mul|]; apply rep_Fin|ring]. }
  assert (SC : forall i, (i <= 200)%nat -> m_scale (st i) = 1 /\ m_acc (st i) = i /\ m_rej (st i) = 0%nat).
  { induction i; intros H; [repeat split|]. destruct (IHi ltac:(lia)) as (A&B&C). rewrite ST. unfold iterate.
    rewrite (PB i). change (accepts _ _ _) with (accepts (Fin 0) (Fin 0) (d_r (draws i))). rewrite accepts_same.
    destruct (Z.ltb_spec 200 (Z.of_nat i)); [lia|]. destruct (Nat.ltb_spec 100 i); cbn [andb]; [|cbn [m_scale m_acc m_rej]; rewrite A, B, C; auto].
    destruct (Nat.eqb_spec (i mod 100) 0) as [M|M]; [|cbn [m_scale m_acc m_rej]; rewrite A, B, C; auto].
    assert (i mod 100 = i - 100)%nat by (symmetry; apply (Nat.mod_unique _ _ 1); lia). lia. }
  assert (S201 : m_scale (st 201%nat) = 10).
  { destruct (SC 200%nat ltac:(lia)) as (A&B&C). rewrite ST. unfold iterate. rewrite A, B, C, (PB 200%nat).
    change (accepts _ _ _) with (accepts (Fin 0) (Fin 0) (d_r (draws 200%nat))). rewrite accepts_same.
    change (200 <? Z.of_nat 200)%Z with false. change (Nat.ltb 100 200 && Nat.eqb (200 mod 100) 0) with true. cbv iota. cbn [m_scale].
    unfold tune. replace (201 + 0)%nat with 201%nat by lia.
    assert (E : INR 201 / INR 201 = 1). { rewrite INR_IZR_INZ. simpl. field. }
    rewrite E. rewrite !Rltb_false by lra. rewrite Rltb_true by lra. ring. }
  assert (BB : burn_in 202 200 = 200%Z). { unfold burn_in. rewrite Rltb_false by lra. apply trunc_IZR. lia. }
  set (m := st 202%nat).
  assert (PM : exists x, m_pos m = [x] /\ rep x (11/2)).
  { unfold m. rewrite ST, (proj2 (iterate_flat _ _ _ _ _ (PB 201%nat))), S201. destruct (PO 201%nat ltac:(lia)) as (x&->&X).
    cbn [draws d_t propose]. rewrite (Nat.eqb_refl 201). eexists. split; [reflexivity|].
    apply (rep_eq _ (1/2 + 10 * 1 * (1/2))); [apply rep_add; auto; apply rep_mul; [apply rep_mul|]; apply rep_Fin|lra]. }
  exists flat, [Fin (1/2)], [Fin 1], 202, 200, [], draws, [(Fin 0, Fin 1)], (Sample (m_pos m) [] (m_prob m)).
  assert (LE : forall x y a b, rep x a -> rep y b -> a <= b -> (x <=? y)%num = true) by (intros; eapply nleb_rep; eauto).
  split; [constructor; [split; left; eexists; apply rep_Fin|constructor]|].
  split; [constructor; [exists 1; split; [apply rep_Fin|lra]|constructor]|].
  split; [constructor; [eexists; apply rep_Fin|constructor]|].
  split; [split; [split|exact I]; eapply LE; try apply rep_Fin; lra|].
  split; [intros i; constructor; [eexists; apply rep_Fin|constructor]|].
  split; [|split].
  - intros i. rewrite (trunc_IZR 202) by lia. change (Z.to_nat 202) with 202%nat. intros L. unfold position. rewrite BB. fold (st i).
    destruct (PO i ltac:(lia)) as (x&->&X). cbn [in_bounds draws d_t].
    split; [|split; [|exact I]].
    + apply (LE _ _ ((0 - 1/2)/1) (if Nat.eqb i 201 then 1/2 else 0)); [apply rep_div; [apply rep_sub; auto; apply rep_Fin|apply rep_Fin|lra]|apply rep_Fin|].
      destruct (Nat.eqb i 201); lra.
    + apply (LE _ _ (if Nat.eqb i 201 then 1/2 else 0) ((1 - 1/2)/1)); [apply rep_Fin|apply rep_div; [apply rep_sub; auto; apply rep_Fin|apply rep_Fin|lra]|].
      destruct (Nat.eqb i 201); lra.
  - unfold metropolis. rewrite BB, (trunc_IZR 202) by lia. change (Z.to_nat 202) with 202%nat. fold (st 202%nat). fold m.
    unfold m. rewrite (ST 201%nat) at 3. rewrite iterate_trace, <- ST. change (200 <? Z.of_nat 201)%Z with true. apply in_or_app. right. left. reflexivity.
  - cbn [s_pos]. destruct PM as (x&->&X). intros ((_&H)&_). apply (nleb_rep _ _ _ _ X (rep_Fin 1)) in H. lra.
Qed.

(** Three iterations from 1/2 in the range [0, 1]: the chain visits 3/4, 1/2 and 3/4. *)
Example C46_example :
  let draws := fun i : nat => Draw [] [Fin (if Nat.even i then 1/4 else -1/4)] (Fin (1/2)) in
  (forall p, flat p <> PInf) /\ (forall i, exists r, rep (d_r (draws i)) r /\ 0 <= r) /\
  finite (flat ([Fin (1/2)] ++ [])) /\ (burn_in 3 0 < 200)%Z /\
  all_inside [(Fin 0, Fin 1)] [Fin (1/2)] /\
  (forall i, in_bounds [(Fin 0, Fin 1)] (position flat [Fin (1/2)] [Fin 1] 3 0 [] draws i) [Fin 1] (d_t (draws i))) /\
  exists p q, metropolis flat [Fin (1/2)] [Fin 1] 3 0 [] draws = [Sample [p] [] (Fin 0); Sample [q] [] (Fin 0)] /\
    rep p (1/2) /\ rep q (3/4).
Proof.
  intros draws.
  assert (LE : forall x y a b, rep x a -> rep y b -> a <= b -> (x <=? y)%num = true) by (intros; eapply nleb_rep; eauto).
  set (st := fun i => run_loop flat [Fin 1] 0 draws (start_state flat [Fin (1/2)] []) (seq 0 i)).
  assert (ST : forall i, st (S i) = iterate flat [Fin 1] 0 draws (st i) i). { intros i. unfold st. rewrite seq_S, loop_app. reflexivity. }
  assert (PB : forall i, m_prob (st i) = Fin 0). { induction i; [reflexivity|]. rewrite ST. apply iterate_flat. auto. }
  assert (SC : forall i, m_scale (st i) = 1).
  { induction i; [reflexivity|]. rewrite ST. unfold iterate. destruct (Z.ltb_spec 0 (Z.of_nat i)); [exact IHi|].
    replace i with O by lia. reflexivity. }
  assert (PO : forall i, exists x, m_pos (st i) = [x] /\ rep x (if Nat.even i then 1/2 else 3/4)).
  { induction i; [eexists; split; [reflexivity|apply rep_Fin]|].
    rewrite ST. destruct IHi as (x&E&X). rewrite (proj2 (iterate_flat _ _ _ _ _ (PB i))), E, SC. cbn [draws d_t propose].
    eexists. split; [reflexivity|].
    apply (rep_eq _ ((if Nat.even i then 1/2 else 3/4) + 1 * 1 * (if Nat.even i then 1/4 else -1/4)));
      [apply rep_add; auto; apply rep_mul; [apply rep_mul|]; apply rep_Fin|].
    rewrite Nat.even_succ, <- Nat.negb_even. destruct (Nat.even i); simpl; lra. }
  split; [unfold flat; discriminate|]. split; [intros i; exists (1/2); split; [apply rep_Fin|lra]|].
  split; [eexists; apply rep_Fin|]. split; [rewrite burn_zero; lia|].
  split; [split; [split|exact I]; eapply LE; try apply rep_Fin; lra|].
  split.
  - intros i. unfold position. rewrite burn_zero. fold (st i). destruct (PO i) as (x&->&X). cbn [in_bounds draws d_t].
    split; [|split; [|exact I]].
    + eapply LE; [apply rep_div; [apply rep_sub; [apply rep_Fin|exact X]|apply rep_Fin|lra]|apply rep_Fin|]. destruct (Nat.even i); lra.
    + eapply LE; [apply rep_Fin|apply rep_div; [apply rep_sub; [apply rep_Fin|exact X]|apply rep_Fin|lra]|]. destruct (Nat.even i); lra.
  - destruct (PO 2%nat) as (p&Ep&Hp). destruct (PO 3%nat) as (q&Eq&Hq). exists p, q. split; [|split; [exact Hp|exact Hq]].
    unfold metropolis. rewrite burn_zero, (trunc_IZR 3) by lia. change (Z.to_nat 3) with 3%nat. fold (st 3%nat).
    assert (T : forall i, m_trace (st (S i)) = (m_trace (st i) ++ if (0 <? Z.of_nat i)%Z then [Sample (m_pos (st (S i))) [] (m_prob (st (S i)))] else [])%list).
    { intros i. rewrite ST. rewrite iterate_trace. reflexivity. }
    rewrite !T, !PB, Ep, Eq. reflexivity.
Qed.

Print Assumptions C46_length.
Print Assumptions C46_recorded.
Print Assumptions C46_recorded_refuted.
Print Assumptions C46_evaluated.
Print Assumptions C46_acceptance.
Print Assumptions C46_support.
Print Assumptions C46_support_refuted.
Print Assumptions C46_ranges.
Print Assumptions C46_ranges_refuted.

(** The tuning of the step width (metropolis.py 131-149): it shrinks exactly when fewer than one in five candidates were accepted
    and grows exactly when more than one in two were, never by more than a factor of ten; more accepted candidates never
    make it smaller; and it is a factor, the same for every step width. *)
Theorem C46_tuning acc rej scale : (0 < acc + rej)%nat -> 0 < scale ->
  (tune acc rej scale < scale <-> (5 * acc < acc + rej)%nat) /\ (scale < tune acc rej scale <-> (acc + rej < 2 * acc)%nat) /\
  scale / 10 <= tune acc rej scale <= 10 * scale /\
  (forall acc' rej', (acc <= acc')%nat -> (acc' + rej' = acc + rej)%nat -> tune acc rej scale <= tune acc' rej' scale) /\
  (forall a, tune acc rej (a * scale) = a * tune acc rej scale).
Proof.
  intros Hn Hs. assert (N0 : 0 < INR (acc + rej)) by (apply lt_0_INR; lia).
  assert (Q : forall a r c, INR (a + r) = INR (acc + rej) -> (INR a / INR (a + r) < c <-> INR a < c * INR (acc + rej))).
  { intros a r c E. rewrite E. split; intros H.
    - apply (Rmult_lt_compat_r _ _ _ N0) in H. unfold Rdiv in H. rewrite Rmult_assoc, Rinv_l, Rmult_1_r in H by lra. exact H.
    - apply (Rmult_lt_reg_r _ _ _ N0). unfold Rdiv. rewrite Rmult_assoc, Rinv_l, Rmult_1_r by lra. exact H. }
  assert (Q' : forall a r c, INR (a + r) = INR (acc + rej) -> (c < INR a / INR (a + r) <-> c * INR (acc + rej) < INR a)).
  { intros a r c E. rewrite E. split; intros H.
    - apply (Rmult_lt_compat_r _ _ _ N0) in H. unfold Rdiv in H. rewrite Rmult_assoc, Rinv_l, Rmult_1_r in H by lra. exact H.
    - apply (Rmult_lt_reg_r _ _ _ N0). unfold Rdiv. rewrite Rmult_assoc, Rinv_l, Rmult_1_r by lra. exact H. }
  assert (B : forall x y, Rltb x y = true <-> x < y) by (intros x y; unfold Rltb; destruct (Rlt_dec x y); split; intros; auto; discriminate).
  assert (B' : forall x y, Rltb x y = false <-> ~ x < y) by (intros x y; unfold Rltb; destruct (Rlt_dec x y); split; intros; auto; [discriminate|contradiction]).
  assert (I1 : (5 * acc < acc + rej)%nat <-> 5 * INR acc < INR (acc + rej)).
  { replace 5 with (INR 5) by (simpl; ring). rewrite <- mult_INR. split; [apply lt_INR|apply INR_lt]. }
  assert (I2 : (acc + rej < 2 * acc)%nat <-> INR (acc + rej) < 2 * INR acc).
  { replace 2 with (INR 2) by (simpl; ring). rewrite <- mult_INR. split; [apply lt_INR|apply INR_lt]. }
  assert (T : forall a r s, INR (a + r) = INR (acc + rej) ->
    (INR a < 0.001 * INR (acc + rej) /\ tune a r s = s * 0.1) \/
    (0.001 * INR (acc + rej) <= INR a < 0.05 * INR (acc + rej) /\ tune a r s = s * 0.5) \/
    (0.05 * INR (acc + rej) <= INR a < 0.2 * INR (acc + rej) /\ tune a r s = s * 0.9) \/
    (0.2 * INR (acc + rej) <= INR a <= 0.5 * INR (acc + rej) /\ tune a r s = s) \/
    (0.5 * INR (acc + rej) < INR a <= 0.75 * INR (acc + rej) /\ tune a r s = s * 1.1) \/
    (0.75 * INR (acc + rej) < INR a <= 0.95 * INR (acc + rej) /\ tune a r s = s * 2) \/
    (0.95 * INR (acc + rej) < INR a /\ tune a r s = s * 10)).
  { intros a r s E. unfold tune. cbv zeta.
    destruct (Rltb (INR a / INR (a + r)) 0.001) eqn:E1; [apply B, (Q a r _ E) in E1|apply B' in E1; rewrite (Q a r _ E) in E1].
    { left. auto. }
    destruct (Rltb (INR a / INR (a + r)) 0.05) eqn:E2; [apply B, (Q a r _ E) in E2|apply B' in E2; rewrite (Q a r _ E) in E2].
    { right; left. split; auto. lra. }
    destruct (Rltb (INR a / INR (a + r)) 0.2) eqn:E3; [apply B, (Q a r _ E) in E3|apply B' in E3; rewrite (Q a r _ E) in E3].
    { do 2 right; left. split; auto. lra. }
    destruct (Rltb 0.95 (INR a / INR (a + r))) eqn:E4; [apply B, (Q' a r _ E) in E4|apply B' in E4; rewrite (Q' a r _ E) in E4].
    { do 6 right. split; auto. }
    destruct (Rltb 0.75 (INR a / INR (a + r))) eqn:E5; [apply B, (Q' a r _ E) in E5|apply B' in E5; rewrite (Q' a r _ E) in E5].
    { do 5 right; left. split; auto. lra. }
    destruct (Rltb 0.5 (INR a / INR (a + r))) eqn:E6; [apply B, (Q' a r _ E) in E6|apply B' in E6; rewrite (Q' a r _ E) in E6].
    { do 4 right; left. split; auto. lra. }
    do 3 right; left. split; auto. lra. }
  split; [|split; [|split; [|split]]].
  - rewrite I1. destruct (T acc rej scale eq_refl) as [(L&->)|[(L&->)|[(L&->)|[(L&->)|[(L&->)|[(L&->)|(L&->)]]]]]]; split; intros; lra.
  - rewrite I2. destruct (T acc rej scale eq_refl) as [(L&->)|[(L&->)|[(L&->)|[(L&->)|[(L&->)|[(L&->)|(L&->)]]]]]]; split; intros; lra.
  - destruct (T acc rej scale eq_refl) as [(L&->)|[(L&->)|[(L&->)|[(L&->)|[(L&->)|[(L&->)|(L&->)]]]]]]; lra.
  - intros acc' rej' L1 L2. apply le_INR in L1. assert (E : INR (acc' + rej') = INR (acc + rej)) by (rewrite L2; reflexivity).
    destruct (T acc rej scale eq_refl) as [(L&->)|[(L&->)|[(L&->)|[(L&->)|[(L&->)|[(L&->)|(L&->)]]]]]];
    destruct (T acc' rej' scale E) as [(M&->)|[(M&->)|[(M&->)|[(M&->)|[(M&->)|[(M&->)|(M&->)]]]]]]; lra.
  - intros a. destruct (T acc rej (a * scale) eq_refl) as [(L&->)|[(L&->)|[(L&->)|[(L&->)|[(L&->)|[(L&->)|(L&->)]]]]]];
    destruct (T acc rej scale eq_refl) as [(M&->)|[(M&->)|[(M&->)|[(M&->)|[(M&->)|[(M&->)|(M&->)]]]]]]; first [ring | exfalso; lra].
Qed.
Print Assumptions C46_tuning.
(** 30 of 100 accepted: nothing changes; 19 or 51 of 100 do change it *)
Example C46_tuning_example : tune 30 70 2 = 2 /\ tune 19 81 2 < 2 /\ 2 < tune 51 49 2.
Proof.
  destruct (C46_tuning 30 70 2 ltac:(lia) ltac:(lra)) as (A&B&_). split; [|split].
  - destruct (Rtotal_order (tune 30 70 2) 2) as [H|[H|H]]; auto; exfalso; [apply A in H|apply B in H]; lia.
  - apply (C46_tuning 19 81 2 ltac:(lia) ltac:(lra)). lia.
  - apply (C46_tuning 51 49 2 ltac:(lia) ltac:(lra)). lia.
Qed.
