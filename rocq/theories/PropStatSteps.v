(** * C90: random steps stay between their limits *)
Require Import Reals Lra Lia List Bool Psatz.
From Verif Require Import Num PropMetropolis StatSteps.
Import ListNotations.
Open Scope R_scope.

(** ** Specification *)
(** What the truncated normal distribution promises: its values are finite and between its limits. *)
Definition truncated (s : sampler) : Prop := forall i a b, (a <? b)%num = true ->
  finite (s i a b) /\ (a <=? s i a b)%num = true /\ (s i a b <=? b)%num = true.
(** A value between two limits, which may be infinite *)
Definition between (lo hi y : num) : Prop := (lo <=? y)%num = true /\ (y <=? hi)%num = true.
(** The steps that are answered: limits in order, a finite position, and a positive width or a zero one with the
    position strictly between the limits. *)
Definition ready (c : coord) : Prop :=
  (c_lo c <? c_hi c)%num = true /\ finite (c_at c) /\
  ((exists s, rep (c_sigma c) s /\ 0 < s) \/
   c_sigma c = Fin 0 /\ (c_lo c <? c_at c)%num = true /\ (c_at c <? c_hi c)%num = true).

(** ** Facts *)
Lemma PInf_sub x a : rep x a -> (PInf - x)%num = PInf.
Proof. intros H. rlook (rep_neg _ _ H). unfold nsub, nadd. cbn [look]. rewrite H0. reflexivity. Qed.
Lemma inf_div (n : bool) s r : rep s r -> 0 < r -> (inf n / s)%num = inf n.
Proof.
  intros H P. pose proof (rep_look_nz _ _ H ltac:(lra)) as L. rewrite (Rltb_false r 0) in L by lra.
  unfold ndiv. rewrite L. destruct n; reflexivity.
Qed.
Lemma quotient x p s r a : rep p a -> rep s r -> 0 < r ->
  match x with
  | PInf => ((x - p) / s)%num = PInf | NInf => ((x - p) / s)%num = NInf | NaN => ((x - p) / s)%num = NaN
  | Fin b => rep ((x - p) / s)%num ((b - a) / r) | NegZ => rep ((x - p) / s)%num ((0 - a) / r)
  end.
Proof.
  intros A S P. destruct x.
  - apply rep_div; auto; [|lra]. apply rep_sub; [apply rep_Fin|auto].
  - apply rep_div; auto; [|lra]. apply rep_sub; [apply rep_NegZ|auto].
  - rewrite (PInf_sub _ _ A). apply (inf_div false _ _ S P).
  - rewrite (NInf_sub _ _ A). apply (inf_div true _ _ S P).
  - reflexivity.
Qed.
Lemma ltb_PInf x : (PInf <? x)%num = false.
Proof. destruct x; reflexivity. Qed.
Lemma ltb_NInf x : (x <? NInf)%num = false.
Proof. destruct x; reflexivity. Qed.
Lemma ltb_NaN x : (x <? NaN)%num = false.
Proof. destruct x; reflexivity. Qed.
Lemma NaN_ltb x : (NaN <? x)%num = false.
Proof. destruct x; reflexivity. Qed.
Lemma ltb_rep_PInf x a : rep x a -> (x <? PInf)%num = true.
Proof. intros H. rlook H. unfold nltb. rewrite H0. reflexivity. Qed.
Lemma NInf_ltb_rep x a : rep x a -> (NInf <? x)%num = true.
Proof. intros H. rlook H. unfold nltb. rewrite H0. reflexivity. Qed.
Lemma div_lt a b x r : 0 < r -> ((a - x) / r < (b - x) / r <-> a < b).
Proof.
  intros P. unfold Rdiv. pose proof (Rinv_0_lt_compat _ P). split; intros L.
  - apply Rmult_lt_reg_r in L; auto. lra.
  - apply Rmult_lt_compat_r; auto. lra.
Qed.

(** a positive width keeps the order of the limits *)
Lemma order_kept c s x : rep (c_sigma c) s -> 0 < s -> rep (c_at c) x -> (c_a c <? c_b c)%num = (c_lo c <? c_hi c)%num.
Proof.
  intros S P X. unfold c_a, c_b. pose proof (quotient (c_lo c) _ _ _ _ X S P) as A.
  pose proof (quotient (c_hi c) _ _ _ _ X S P) as B.
  assert (T : forall u v u' v', rep u ((u' - x) / s) -> rep v ((v' - x) / s) -> (u <? v)%num = Rltb u' v').
  { intros u v u' v' U V. rewrite (rep_ltb _ _ _ _ U V). unfold Rltb.
    destruct (Rlt_dec _ _) as [L|L], (Rlt_dec u' v') as [M|M]; auto; exfalso.
    - apply (div_lt u' v' x s P) in L. lra.
    - apply L. apply (div_lt u' v' x s P). auto. }
  destruct (c_lo c) eqn:E1, (c_hi c) eqn:E2; rewrite ?A, ?B;
    rewrite ?ltb_PInf, ?ltb_NInf, ?ltb_NaN, ?NaN_ltb; auto;
    try (apply (T _ _ _ _ A B)); try (rewrite (ltb_rep_PInf _ _ A); reflexivity);
    try (rewrite (NInf_ltb_rep _ _ B); reflexivity).
Qed.
Lemma zero_width c x : c_sigma c = Fin 0 -> rep (c_at c) x ->
  (c_a c <? c_b c)%num = (c_lo c <? c_at c)%num && (c_at c <? c_hi c)%num.
Proof.
  intros S X. unfold c_a, c_b. rewrite S. rlook X.
  assert (Q : forall l, ((l - c_at c) / Fin 0)%num = match look l with
     | VNaN => NaN | VInf n => inf n
     | VFin r _ => if Reqb (r - x) 0 then NaN else inf (Rltb (r - x) 0) end).
  { intros l. assert (NX : rep (nneg (c_at c)) (- x)) by (apply rep_neg; auto). rlook NX.
    unfold nsub, nadd. rewrite H0. destruct l; cbn [look]; unfold ndiv; cbn [look].
    - unfold mk. replace (r + - x) with (r - x) by ring. destruct (Reqb (r - x) 0) eqn:E.
      + destruct (Rltb r 0 && s0); cbn [look]; rewrite ?Reqb_refl; reflexivity.
      + cbn [look]. rewrite Reqb_refl, E. rewrite (Rltb_false 0 0) by lra. rewrite xorb_false_r. reflexivity.
    - unfold mk. replace (0 + - x) with (0 - x) by ring. destruct (Reqb (0 - x) 0) eqn:E.
      + destruct s0; cbn [look andb]; rewrite ?Reqb_refl; reflexivity.
      + cbn [look]. rewrite Reqb_refl, E. rewrite (Rltb_false 0 0) by lra. rewrite xorb_false_r. reflexivity.
    - rewrite (Rltb_false 0 0) by lra. reflexivity.
    - rewrite (Rltb_false 0 0) by lra. reflexivity.
    - reflexivity. }
  rewrite !Q. unfold nltb at 2 3. rewrite H.
  destruct (look (c_lo c)) as [|n|l sl], (look (c_hi c)) as [|m|h sh]; try destruct n; try destruct m;
    unfold Reqb, Rltb;
    repeat match goal with |- context [Req_EM_T ?a ?b] => destruct (Req_EM_T a b) as [?|D]; [|apply Rdichotomy in D; destruct D] end;
    repeat match goal with |- context [Rlt_dec ?a ?b] => destruct (Rlt_dec a b) end;
    cbn; try reflexivity; exfalso; lra.
Qed.
Lemma not_finite_at c : ~ finite (c_at c) -> (c_a c <? c_b c)%num = false.
Proof.
  intros NF. unfold c_a, c_b, nsub.
  assert (V : (exists n, look (nneg (c_at c)) = VInf n) \/ look (nneg (c_at c)) = VNaN).
  { destruct (c_at c); [exfalso; apply NF; eexists; apply rep_Fin|exfalso; apply NF; eexists; apply rep_NegZ| | |]; cbn; eauto. }
  destruct V as [(n&V)|V].
  - assert (Q : forall l, (l + nneg (c_at c))%num = inf n \/ (l + nneg (c_at c))%num = NaN).
    { intros l. unfold nadd. rewrite V. destruct (look l) as [|m|r m]; auto. destruct (Bool.eqb m n) eqn:E; auto.
      apply eqb_prop in E. subst. auto. }
    destruct (Q (c_lo c)) as [->| ->]; [|rewrite ndiv_NaN_l, NaN_ltb; reflexivity].
    destruct (Q (c_hi c)) as [->| ->]; [|rewrite ndiv_NaN_l, ltb_NaN; reflexivity].
    unfold nltb. destruct (look (inf n / c_sigma c)) as [|m|r m]; auto; [destruct m; reflexivity|].
    apply Rltb_false. lra.
  - unfold nadd. rewrite V. destruct (look (c_lo c)); rewrite ndiv_NaN_l, NaN_ltb; reflexivity.
Qed.
Lemma finite_dec x : finite x \/ ~ finite x.
Proof.
  destruct x; [left; eexists; apply rep_Fin|left; eexists; apply rep_NegZ| | |]; right; intros (r&H); discriminate.
Qed.
Lemma inf_sigma c : c_sigma c = PInf -> (c_a c <? c_b c)%num = false.
Proof.
  intros S. unfold c_a, c_b. rewrite S.
  assert (Q : forall l, (exists n, (l / PInf)%num = mk 0 n) \/ (l / PInf)%num = NaN).
  { intros l. unfold ndiv. cbn [look]. destruct (look l); eauto. }
  destruct (Q (c_lo c - c_at c)%num) as [(n&->)| ->]; [|apply NaN_ltb].
  destruct (Q (c_hi c - c_at c)%num) as [(m&->)| ->]; [|apply ltb_NaN].
  rewrite (rep_ltb _ _ _ _ (rep_mk 0 n) (rep_mk 0 m)). apply Rltb_false. lra.
Qed.
Lemma accepts_ready c : c_sigma c <> NegZ -> (c_accepts c = true <-> ready c).
Proof.
  intros NZ. unfold c_accepts, ready. rewrite andb_true_iff. split.
  - intros (L&S). destruct (finite_dec (c_at c)) as [(x&X)|NF]; [|rewrite (not_finite_at _ NF) in L; discriminate].
    destruct (c_sigma c) as [s| | | |] eqn:E; try congruence; try discriminate.
    + apply (nleb_rep _ _ _ _ (rep_Fin 0) (rep_Fin s)) in S. destruct (Req_dec s 0) as [->|NS].
      * rewrite (zero_width _ _ E X) in L. apply andb_true_iff in L as (L1&L2).
        split; [|split; [eexists; eauto|right; auto]].
        rlook X. unfold nltb in *. rewrite H in *.
        destruct (look (c_lo c)) as [|n|l sl], (look (c_hi c)) as [|m|h sh]; try discriminate; auto.
        -- rewrite L1, L2. reflexivity.
        -- apply Rltb_true. apply Rltb_iff in L1, L2. lra.
      * rewrite (order_kept _ s x) in L; [|rewrite E; apply rep_Fin|lra|auto]. split; [auto|split; [eexists; eauto|left]].
        exists s. split; [apply rep_Fin|lra].
    + rewrite (inf_sigma _ E) in L. discriminate.
  - intros (L&(x&X)&[(s&S&P)|(S&L1&L2)]).
    + rewrite (order_kept _ _ _ S P X). split; auto. apply (nleb_rep _ _ _ _ (rep_Fin 0) S). lra.
    + rewrite (zero_width _ _ S X), L1, L2, S. split; auto. apply (nleb_rep _ _ _ _ (rep_Fin 0) (rep_Fin 0)). lra.
Qed.
(** a step of one coordinate *)
Lemma ltb_leb x y : (x <? y)%num = true -> (x <=? y)%num = true.
Proof. unfold nleb. intros ->. reflexivity. Qed.
Lemma ready_strict c x : ready c -> rep (c_sigma c) 0 -> rep (c_at c) x -> (c_lo c <? c_at c)%num = true /\ (c_at c <? c_hi c)%num = true.
Proof.
  intros (_&_&[(s&S&P)|(_&H)]) Z _; auto. pose proof (rep_inj _ _ _ S Z). lra.
Qed.
(** ordering only looks at the value *)
Lemma leb_value x y z a : rep y a -> rep z a -> ((x <=? y)%num = (x <=? z)%num) /\ ((y <=? x)%num = (z <=? x)%num).
Proof.
  intros Y Z. rlook Y. rlook Z. unfold nleb, nltb, neqb. rewrite H, H0. destruct (look x); auto.
Qed.
Lemma step_inside smp i c : truncated smp -> ready c -> exists y,
  rep (smp i (c_a c) (c_b c) * c_sigma c + c_at c)%num y /\ between (c_lo c) (c_hi c) (smp i (c_a c) (c_b c) * c_sigma c + c_at c)%num.
Proof.
  intros T Rd.
  assert (NZ : c_sigma c <> NegZ).
  { destruct Rd as (_&_&[(s&S&P)|(S&_)]); [|congruence]. intros E. rewrite E in S. pose proof (rep_inj _ _ _ S rep_NegZ). lra. }
  pose proof (proj2 (accepts_ready c NZ) Rd) as A. unfold c_accepts in A. apply andb_true_iff in A as (A&_).
  destruct (T i _ _ A) as ((t&H)&L&U). destruct Rd as (O&(x&X)&[(s&S&P)|(S&L1&L2)]).
  - exists (t * s + x). pose proof (rep_add _ _ _ _ (rep_mul _ _ _ _ H S) X) as Y. split; auto. split.
    + pose proof (quotient (c_lo c) _ _ _ _ X S P) as Q. unfold c_a in L at 1.
      destruct (c_lo c) as [l| | | |] eqn:E.
      * apply (nleb_rep _ _ _ _ Q H) in L. apply (nleb_rep _ _ _ _ (rep_Fin l) Y).
        apply (Rmult_le_compat_r s) in L; [|lra]. replace ((l - x) / s * s) with (l - x) in L by (field; lra). lra.
      * apply (nleb_rep _ _ _ _ Q H) in L. apply (nleb_rep _ _ _ _ rep_NegZ Y).
        apply (Rmult_le_compat_r s) in L; [|lra]. replace ((0 - x) / s * s) with (0 - x) in L by (field; lra). lra.
      * rewrite ltb_PInf in O. discriminate.
      * apply (NInf_le _ _ Y).
      * rewrite NaN_ltb in O. discriminate.
    + pose proof (quotient (c_hi c) _ _ _ _ X S P) as Q. unfold c_b in U at 2.
      destruct (c_hi c) as [l| | | |] eqn:E.
      * apply (nleb_rep _ _ _ _ H Q) in U. apply (nleb_rep _ _ _ _ Y (rep_Fin l)).
        apply (Rmult_le_compat_r s) in U; [|lra]. replace ((l - x) / s * s) with (l - x) in U by (field; lra). lra.
      * apply (nleb_rep _ _ _ _ H Q) in U. apply (nleb_rep _ _ _ _ Y rep_NegZ).
        apply (Rmult_le_compat_r s) in U; [|lra]. replace ((0 - x) / s * s) with (0 - x) in U by (field; lra). lra.
      * apply (le_PInf _ _ Y).
      * rewrite ltb_NInf in O. discriminate.
      * rewrite ltb_NaN in O. discriminate.
  - exists x. assert (Y : rep (smp i (c_a c) (c_b c) * c_sigma c + c_at c)%num x).
    { rewrite S. eapply rep_eq; [apply rep_add; [apply rep_mul; [exact H|apply rep_Fin]|exact X]|ring]. }
    split; auto. destruct (leb_value (c_lo c) _ _ _ Y X) as (E1&_). destruct (leb_value (c_hi c) _ _ _ Y X) as (_&E2).
    split; [rewrite E1|rewrite E2]; apply ltb_leb; auto.
Qed.
Lemma rvs_inside smp cs : truncated smp -> Forall ready cs -> forall i,
  Forall2 (fun c y => finite y /\ between (c_lo c) (c_hi c) y) cs (rvs_from smp i cs).
Proof.
  intros T. induction 1 as [|c cs H F IH]; intros i; cbn [rvs_from]; constructor; auto.
  destruct (step_inside smp i c T H) as (y&Y&B). split; auto. exists y. auto.
Qed.
Lemma stay_inside cs : Forall ready cs -> forallb (fun c => neqb (c_sigma c) (Fin 0)) cs = true ->
  Forall2 (fun c y => finite y /\ between (c_lo c) (c_hi c) y) cs (map (fun c => (c_at c * Fin 1)%num) cs).
Proof.
  induction 1 as [|c cs H F IH]; cbn [map forallb]; intros E; constructor.
  - apply andb_true_iff in E as (E&_). destruct H as (O&(x&X)&[(s&S&P)|(S&L1&L2)]).
    + rewrite (rep_eqb _ _ _ _ S (rep_Fin 0)) in E. apply Reqb_iff in E. lra.
    + assert (Y : rep (c_at c * Fin 1)%num x) by (eapply rep_eq; [apply rep_mul; [exact X|apply rep_Fin]|ring]).
      split; [eexists; eauto|]. destruct (leb_value (c_lo c) _ _ _ Y X) as (E1&_). destruct (leb_value (c_hi c) _ _ _ Y X) as (_&E2).
      split; [rewrite E1|rewrite E2]; apply ltb_leb; auto.
  - apply IH. apply andb_true_iff in E as (_&E). auto.
Qed.
Lemma ready_all cs : Forall (fun c => c_sigma c <> NegZ) cs -> (forallb c_accepts cs = true <-> Forall ready cs).
Proof.
  induction 1 as [|c cs H F IH]; cbn [forallb]; [split; auto|]. rewrite andb_true_iff, (accepts_ready _ H), IH.
  split; [intros (A&B); constructor; auto|intros A; inversion A; auto].
Qed.

(** ** The result lies between the limits *)
(** Whatever numbers are given (infinite, NaN, a position far outside the limits), an answered step is finite, of
    the same length, and between the limits coordinate by coordinate. *)
Theorem C90_bounded smp cs ys : truncated smp -> Forall (fun c => c_sigma c <> NegZ) cs -> bounded_add smp cs = Some ys ->
  Forall2 (fun c y => finite y /\ between (c_lo c) (c_hi c) y) cs ys.
Proof.
  intros T NZ. unfold bounded_add, truncnorm_rvs. destruct (forallb c_accepts cs) eqn:E; [|discriminate].
  apply (ready_all _ NZ) in E. intros H. injection H as <-.
  destruct (forallb _ cs) eqn:Z; [apply stay_inside|apply rvs_inside]; auto.
Qed.
(** a sampler that looks at the values of the limits *)
Definition by_value (s : sampler) : Prop := forall i a b a' b' u v, rep a u -> rep b v -> rep a' u -> rep b' v -> s i a b = s i a' b'.
(** a sampler: the middle of finite limits, else a finite limit, else 0 *)
Definition middle : sampler := fun _ a b => match toR a, toR b with
  | Some x, Some y => Fin ((x + y) / 2) | Some x, None => Fin x | None, Some y => Fin y | None, None => Fin 0 end.
Lemma middle_truncated : truncated middle.
Proof.
  intros i a b H. unfold middle. split; [|split].
  - destruct (toR a), (toR b); eexists; apply rep_Fin.
  - destruct a, b; cbn [toR]; try discriminate; try (apply (NInf_le _ _ (rep_Fin _)));
      rewrite ?(rep_ltb _ _ _ _ (rep_Fin _) (rep_Fin _)), ?(rep_ltb _ _ _ _ rep_NegZ (rep_Fin _)),
       ?(rep_ltb _ _ _ _ (rep_Fin _) rep_NegZ), ?(rep_ltb _ _ _ _ rep_NegZ rep_NegZ) in *;
      try (apply Rltb_iff in H); (apply (nleb_rep _ _ _ _ (rep_Fin _) (rep_Fin _)) || apply (nleb_rep _ _ _ _ rep_NegZ (rep_Fin _))); lra.
  - destruct a, b; cbn [toR]; try discriminate; try (apply (le_PInf _ _ (rep_Fin _)));
      rewrite ?(rep_ltb _ _ _ _ (rep_Fin _) (rep_Fin _)), ?(rep_ltb _ _ _ _ rep_NegZ (rep_Fin _)),
       ?(rep_ltb _ _ _ _ (rep_Fin _) rep_NegZ), ?(rep_ltb _ _ _ _ rep_NegZ rep_NegZ) in *;
      try (apply Rltb_iff in H); (apply (nleb_rep _ _ _ _ (rep_Fin _) (rep_Fin _)) || apply (nleb_rep _ _ _ _ (rep_Fin _) rep_NegZ)); lra.
Qed.
Lemma middle_by_value : by_value middle.
Proof. intros i a b a' b' u v A B A' B'. unfold middle. rewrite A, B, A', B'. reflexivity. Qed.
(** -0.0 as the width is a zero that turns the limits round: with limits in the wrong order it is answered *)
Theorem C90_bounded_refuted : exists smp c y, truncated smp /\ bounded_add smp [c] = Some [y] /\ ~ between (c_lo c) (c_hi c) y.
Proof.
  exists middle, (Coord (Fin 1) (Fin (-1)) NegZ (Fin 0)), (Fin 0). split; [apply middle_truncated|split].
  - unfold bounded_add, truncnorm_rvs. cbn [forallb].
    assert (A : c_accepts (Coord (Fin 1) (Fin (-1)) NegZ (Fin 0)) = true).
    { unfold c_accepts, c_a, c_b. cbn [c_lo c_hi c_sigma c_at]. apply andb_true_iff. split.
      - assert (Q : forall r, r <> 0 -> ((Fin r - Fin 0) / NegZ)%num = inf (negb (Rltb r 0))).
        { intros r Nr. pose proof (rep_sub _ _ _ _ (rep_Fin r) (rep_Fin 0)) as S.
          assert (S' : rep (Fin r - Fin 0)%num r) by (eapply rep_eq; [exact S|ring]).
          unfold ndiv. rewrite (rep_look_nz _ _ S' Nr). cbn [look]. rewrite Reqb_refl, (Reqb_false r 0) by auto.
          rewrite xorb_true_r. reflexivity. }
        rewrite (Q 1), (Q (-1)) by lra. rewrite (Rltb_false 1 0), (Rltb_true (-1) 0) by lra. reflexivity.
      - apply (nleb_rep _ _ _ _ (rep_Fin 0) rep_NegZ). lra. }
    rewrite A. cbn [andb c_sigma]. rewrite (rep_eqb _ _ _ _ rep_NegZ (rep_Fin 0)), Reqb_refl. cbn [andb map c_at].
    do 2 f_equal. unfold nmul. cbn [look]. rewrite (Rltb_false 0 0), (Rltb_false 1 0) by lra.
    unfold mk. rewrite Reqb_true by ring. reflexivity.
  - intros (L&_). cbn [c_lo] in L. apply (nleb_rep _ _ _ _ (rep_Fin 1) (rep_Fin 0)) in L. lra.
Qed.

(** ** When it is answered *)
Theorem C90_answers smp cs : Forall (fun c => c_sigma c <> NegZ) cs ->
  ((exists ys, bounded_add smp cs = Some ys) <-> Forall ready cs).
Proof.
  intros NZ. rewrite <- (ready_all _ NZ). unfold bounded_add, truncnorm_rvs. destruct (forallb c_accepts cs).
  - split; eauto.
  - split; [intros (ys&H); discriminate|discriminate].
Qed.
(** Python numbers: as an array of one entry, except that a zero width raises *)
Theorem C90_number smp c y : truncated smp -> bounded_add_number smp c = Some y <->
  bounded_add smp [c] = Some [y] /\ ~ rep (c_sigma c) 0.
Proof.
  intros T. unfold bounded_add_number, bounded_add. assert (Z : neqb (c_sigma c) (Fin 0) = true <-> rep (c_sigma c) 0).
  { destruct (c_sigma c) as [s| | | |]; try (split; [discriminate|intros H; discriminate H]).
    - rewrite (rep_eqb _ _ _ _ (rep_Fin s) (rep_Fin 0)), Reqb_iff. split; [intros ->; apply rep_Fin|intros H; apply (rep_inj _ _ _ (rep_Fin s) H)].
    - rewrite (rep_eqb _ _ _ _ rep_NegZ (rep_Fin 0)), Reqb_iff. split; [intros _; apply rep_NegZ|auto]. }
  destruct (neqb (c_sigma c) (Fin 0)) eqn:E.
  - split; [discriminate|]. intros (_&N). exfalso. apply N, Z. auto.
  - assert (N : ~ rep (c_sigma c) 0) by (intros H; apply Z in H; discriminate).
    unfold truncnorm_rvs. destruct (forallb c_accepts [c]); [|split; [discriminate|intros (H&_); discriminate]].
    cbn [forallb]. rewrite E. cbn [andb rvs_from]. split; [intros H; injection H as <-; auto|intros (H&_); injection H as <-; auto].
Qed.

(** ** Walks *)
Definition limits_ok (l : num * num * num) : Prop :=
  let '(lo, hi, sigma) := l in (lo <? hi)%num = true /\ positive sigma.
Lemma place_ready limits xs : Forall limits_ok limits -> Forall finite xs -> Forall ready (place limits xs).
Proof.
  intros L. revert xs. induction L as [|((lo&hi)&sg) ls (O&s&S&P) F IH]; intros [|x xs] X; cbn; constructor.
  - inversion X; subst. split; [auto|split; [auto|left; eauto]].
  - inversion X; subst. apply IH. auto.
Qed.
Lemma place_widths limits xs : Forall limits_ok limits -> Forall (fun c => c_sigma c <> NegZ) (place limits xs).
Proof.
  intros L. revert xs. induction L as [|((lo&hi)&sg) ls (O&s&S&P) F IH]; intros [|x xs]; cbn; constructor; try apply IH.
  cbn. intros ->. pose proof (rep_inj _ _ _ S rep_NegZ). lra.
Qed.
Lemma place_inside limits xs ys : List.length xs = List.length limits ->
  Forall2 (fun c y => finite y /\ between (c_lo c) (c_hi c) y) (place limits xs) ys ->
  Forall2 (fun l y => finite y /\ between (fst (fst l)) (snd (fst l)) y) limits ys.
Proof.
  revert xs ys. induction limits as [|((lo&hi)&sg) ls IH]; intros [|x xs] ys E F; try discriminate; cbn in F.
  - inversion F. constructor.
  - inversion F; subst. constructor; auto. apply (IH xs); auto.
Qed.
Lemma inside_finite limits ys : Forall2 (fun (l : num * num * num) y => finite y /\ between (fst (fst l)) (snd (fst l)) y) limits ys ->
  Forall finite ys /\ List.length ys = List.length limits.
Proof. induction 1 as [|l y ls ys (H&_) F (A&B)]; cbn; auto. Qed.
(** From any finite start, inside the limits or not, a walk of any number of steps never raises and is between the
    limits after every step. *)
Theorem C90_walk draws limits n xs : (forall i, truncated (draws i)) -> Forall limits_ok limits -> Forall finite xs ->
  List.length xs = List.length limits -> exists ys, walk draws limits (S n) xs = Some ys /\
  Forall2 (fun l y => finite y /\ between (fst (fst l)) (snd (fst l)) y) limits ys.
Proof.
  intros T L X E.
  assert (St : forall zs k, Forall finite zs -> List.length zs = List.length limits -> exists ys,
    bounded_add (draws k) (place limits zs) = Some ys /\ Forall2 (fun l y => finite y /\ between (fst (fst l)) (snd (fst l)) y) limits ys).
  { intros zs k Z Ez. destruct (proj2 (C90_answers (draws k) _ (place_widths _ zs L)) (place_ready _ _ L Z)) as (ys&Y).
    exists ys. split; auto. eapply place_inside; [exact Ez|]. eapply C90_bounded; [apply T|apply place_widths; auto|exact Y]. }
  induction n as [|n (ys&W&F)]; [apply St; auto|].
  cbn [walk] in *. rewrite W. destruct (inside_finite _ _ F). apply St; auto.
Qed.

(** Every path between the limits can be taken: the coordinates and the steps draw independently, and nothing but the limits keeps a
    step from going anywhere. *)
Definition same_value (x y : num) : Prop := exists r, rep x r /\ rep y r.
Definition val (x : num) : R := match toR x with Some r => r | None => 0 end.
Lemma val_rep x r : rep x r -> val x = r.
Proof. intros H. unfold val. rewrite H. reflexivity. Qed.
(** a sampler that draws the given values whenever they are allowed *)
Definition aim (ts : nat -> R) : sampler := fun i a b => if (a <=? Fin (ts i))%num && (Fin (ts i) <=? b)%num then Fin (ts i) else middle i a b.
Lemma aim_truncated ts : truncated (aim ts).
Proof.
  intros i a b L. unfold aim. destruct ((a <=? Fin (ts i))%num && (Fin (ts i) <=? b)%num) eqn:E; [|apply middle_truncated, L].
  apply andb_prop in E. split; [eexists; apply rep_Fin|exact E].
Qed.
Lemma aim_allowed lo hi x sg s r y t : rep sg s -> 0 < s -> rep x r -> rep y t -> between lo hi y ->
  (((lo - x) / sg <=? Fin ((t - r) / s)) = true)%num /\ ((Fin ((t - r) / s) <=? (hi - x) / sg) = true)%num.
Proof.
  intros S P X Y (L&H). pose proof (Rinv_0_lt_compat _ P) as Q. split.
  - pose proof (quotient lo _ _ _ _ X S P) as A. destruct lo as [b| | | |].
    + apply (nleb_rep _ _ _ _ A (rep_Fin _)). apply (nleb_rep _ _ _ _ (rep_Fin b) Y) in L. unfold Rdiv. apply Rmult_le_compat_r; lra.
    + apply (nleb_rep _ _ _ _ A (rep_Fin _)). apply (nleb_rep _ _ _ _ rep_NegZ Y) in L. unfold Rdiv. apply Rmult_le_compat_r; lra.
    + exfalso. destruct y; solve [discriminate L|discriminate Y].
    + rewrite A. apply (NInf_le _ _ (rep_Fin _)).
    + exfalso. destruct y; solve [discriminate L|discriminate Y].
  - pose proof (quotient hi _ _ _ _ X S P) as A. destruct hi as [b| | | |].
    + apply (nleb_rep _ _ _ _ (rep_Fin _) A). apply (nleb_rep _ _ _ _ Y (rep_Fin b)) in H. unfold Rdiv. apply Rmult_le_compat_r; lra.
    + apply (nleb_rep _ _ _ _ (rep_Fin _) A). apply (nleb_rep _ _ _ _ Y rep_NegZ) in H. unfold Rdiv. apply Rmult_le_compat_r; lra.
    + rewrite A. apply (le_PInf _ _ (rep_Fin _)).
    + exfalso. destruct y; solve [discriminate H|discriminate Y].
    + exfalso. destruct y; solve [discriminate H|discriminate Y].
Qed.
Lemma aim_hits limits : forall xs tg k ts, Forall limits_ok limits -> Forall finite xs -> List.length xs = List.length limits ->
  Forall2 (fun l y => finite y /\ between (fst (fst l)) (snd (fst l)) y) limits tg ->
  (forall i, (i < List.length limits)%nat -> ts (k + i)%nat = (val (nth i tg NaN) - val (nth i xs NaN)) / val (snd (nth i limits (NaN, NaN, NaN)))) ->
  Forall2 same_value (rvs_from (aim ts) k (place limits xs)) tg.
Proof.
  induction limits as [|((lo&hi)&sg) ls IH]; intros xs tg k ts L X E F HT; destruct xs as [|x xs]; try discriminate; [inversion F; constructor|].
  destruct tg as [|y tg']; [inversion F|].
  assert (FF : (finite y /\ between lo hi y) /\ Forall2 (fun l y => finite y /\ between (fst (fst l)) (snd (fst l)) y) ls tg') by (inversion F; auto). destruct FF as (((t&Y)&B)&F').
  destruct (Forall_inv L) as (O&s&S&P). assert (L' := Forall_inv_tail L). destruct (Forall_inv X) as (r&HX). assert (X' := Forall_inv_tail X). cbn [place combine map rvs_from]. constructor.
  - cbn [c_sigma c_at fst snd] in *. specialize (HT 0%nat ltac:(cbn; lia)). rewrite Nat.add_0_r in HT. cbn [nth snd] in HT. rewrite (val_rep _ _ Y), (val_rep _ _ HX), (val_rep _ _ S) in HT.
    destruct (aim_allowed lo hi x sg s r y t S P HX Y B) as (A1&A2). unfold aim, c_a, c_b. cbn [c_lo c_hi c_sigma c_at]. rewrite HT, A1, A2. cbn [andb].
    exists t. split; [|exact Y]. eapply rep_eq; [apply rep_add; [apply rep_mul; [apply rep_Fin|exact S]|exact HX]|field; lra].
  - apply (IH xs tg' (Datatypes.S k) ts); auto. intros i Hi. replace (Datatypes.S k + i)%nat with (k + Datatypes.S i)%nat by lia. rewrite HT by (cbn; lia). reflexivity.
Qed.
Theorem C90_path limits (path : nat -> list num) : Forall limits_ok limits -> Forall finite (path 0%nat) -> List.length (path 0%nat) = List.length limits ->
  (forall n, Forall2 (fun l y => finite y /\ between (fst (fst l)) (snd (fst l)) y) limits (path (S n))) ->
  exists draws, (forall n, truncated (draws n)) /\ forall n, exists ys, walk draws limits n (path 0%nat) = Some ys /\ Forall2 same_value ys (path n).
Proof.
  intros L X0 E0 HP. exists (fun n => aim (fun i => (val (nth i (path (S n)) NaN) - val (nth i (path n) NaN)) / val (snd (nth i limits (NaN, NaN, NaN))))).
  split; [intros; apply aim_truncated|]. set (draws := fun n => _).
  assert (FP : forall n, Forall finite (path n) /\ List.length (path n) = List.length limits) by (intros [|n]; [auto|apply (inside_finite _ _ (HP n))]).
  induction n as [|n (ys&W&SV)].
  - exists (path 0%nat). split; [reflexivity|]. clear - X0. induction X0 as [|x xs (r&H) F IH]; constructor; auto. exists r. auto.
  - cbn [walk]. rewrite W. assert (FY : Forall finite ys) by (clear - SV; induction SV as [|x y xs ys (r&A&B) F IH]; constructor; auto; exists r; exact A).
    assert (EY : List.length ys = List.length limits) by (transitivity (List.length (path n)); [clear - SV; induction SV; cbn; congruence|apply FP]).
    assert (NV : forall i, val (nth i ys NaN) = val (nth i (path n) NaN)).
    { clear - SV. intros i. revert i. induction SV as [|x y xs ys (r&A&B) F IH]; intros [|i]; cbn; auto. rewrite (val_rep _ _ A), (val_rep _ _ B). reflexivity. }
    assert (HH : Forall2 same_value (rvs_from (draws n) 0 (place limits ys)) (path (S n))) by (apply aim_hits; auto; intros i _; cbn [Nat.add]; rewrite NV; reflexivity).
    assert (AC : forallb c_accepts (place limits ys) = true) by (apply (ready_all _ (place_widths _ ys L)), place_ready; auto).
    unfold bounded_add, truncnorm_rvs. rewrite AC. destruct (forallb (fun c => neqb (c_sigma c) (Fin 0)) (place limits ys)) eqn:Z.
    + assert (N : limits = []).
      { destruct limits as [|((lo&hi)&sg) ls]; [reflexivity|]. destruct ys as [|y ys]; [discriminate|]. exfalso. cbn [place combine map forallb c_sigma] in Z. apply andb_prop in Z. destruct Z as (Z&_).
        destruct (Forall_inv L) as (_&s&HS&P). rewrite (rep_eqb _ _ _ _ HS (rep_Fin 0)) in Z. apply Reqb_iff in Z. lra. }
      subst limits. eexists. split; [reflexivity|]. destruct ys; [|discriminate]. cbn. specialize (HP n). inversion HP. constructor.
    + eexists. split; [reflexivity|]. exact HH.
Qed.

(** ** Units *)
(** In other units (scaled by k > 0 and shifted by d: feet instead of metres, another origin) the same draws give
    the same step. *)
Definition in_units (k d : R) (c c' : coord) : Prop := exists lo hi s x,
  rep (c_lo c) lo /\ rep (c_hi c) hi /\ rep (c_sigma c) s /\ rep (c_at c) x /\ 0 < s /\
  rep (c_lo c') (k * lo + d) /\ rep (c_hi c') (k * hi + d) /\ rep (c_sigma c') (k * s) /\ rep (c_at c') (k * x + d).
Lemma units_ab k d c c' : 0 < k -> in_units k d c c' -> exists u v, rep (c_a c) u /\ rep (c_b c) v /\ rep (c_a c') u /\ rep (c_b c') v.
Proof.
  intros K (lo&hi&s&x&A&B&C&D&P&A'&B'&C'&D'). assert (0 < k * s) by nra. exists ((lo - x) / s), ((hi - x) / s). unfold c_a, c_b.
  repeat split.
  - apply rep_div; [apply rep_sub; auto|auto|lra].
  - apply rep_div; [apply rep_sub; auto|auto|lra].
  - eapply rep_eq; [apply rep_div; [apply rep_sub; eauto|eauto|lra]|]. field. split; lra.
  - eapply rep_eq; [apply rep_div; [apply rep_sub; eauto|eauto|lra]|]. field. split; lra.
Qed.
Lemma units_rvs k d smp cs cs' : 0 < k -> truncated smp -> by_value smp -> Forall2 (in_units k d) cs cs' ->
  Forall (fun c => (c_a c <? c_b c)%num = true) cs ->
  forall i, Forall2 (fun y y' => exists r, rep y r /\ rep y' (k * r + d)) (rvs_from smp i cs) (rvs_from smp i cs').
Proof.
  intros K T V. induction 1 as [|c c' cs cs' H F IH]; intros AA i; cbn [rvs_from]; constructor.
  - destruct (units_ab _ _ _ _ K H) as (u&v&E1&E2&E3&E4). destruct H as (lo&hi&s&x&H1&H2&H3&H4&P&H5&H6&H7&H8).
    rewrite <- (V i _ _ _ _ u v E1 E2 E3 E4). pose proof (Forall_inv AA) as A. destruct (T i _ _ A) as ((t&Ht)&_).
    exists (t * s + x). split; [apply rep_add; [apply rep_mul|]; auto|].
    eapply rep_eq; [apply rep_add; [apply rep_mul|]; eauto|ring].
  - apply IH. apply (Forall_inv_tail AA).
Qed.
Lemma units_widths k d cs cs' : Forall2 (in_units k d) cs cs' -> Forall (fun c => exists s, rep (c_sigma c) s /\ 0 < s) cs.
Proof. induction 1 as [|c c' cs cs' (lo&hi&s&x&H1&H2&H3&H4&P&H5&H6&H7&H8) F IH]; constructor; eauto. Qed.
Lemma units_widths' k d cs cs' : 0 < k -> Forall2 (in_units k d) cs cs' -> Forall (fun c => exists s, rep (c_sigma c) s /\ 0 < s) cs'.
Proof.
  intros K. induction 1 as [|c c' cs cs' (lo&hi&s&x&H1&H2&H3&H4&P&H5&H6&H7&H8) F IH]; constructor; auto. exists (k * s). split; auto. nra.
Qed.
Theorem C90_units k d smp cs cs' ys : 0 < k -> truncated smp -> by_value smp -> Forall2 (in_units k d) cs cs' ->
  bounded_add smp cs = Some ys -> exists ys', bounded_add smp cs' = Some ys' /\
  Forall2 (fun y y' => exists r, rep y r /\ rep y' (k * r + d)) ys ys'.
Proof.
  intros K T V U. unfold bounded_add, truncnorm_rvs.
  assert (A : forallb c_accepts cs = forallb c_accepts cs').
  { induction U as [|c c' cs cs' H F IH]; auto. cbn [forallb]. rewrite IH. f_equal.
    destruct (units_ab _ _ _ _ K H) as (u&v&E1&E2&E3&E4). destruct H as (lo&hi&s&x&H1&H2&H3&H4&P&H5&H6&H7&H8).
    unfold c_accepts. rewrite (rep_ltb _ _ _ _ E1 E2), (rep_ltb _ _ _ _ E3 E4), (rep_leb _ _ _ _ (rep_Fin 0) H3), (rep_leb _ _ _ _ (rep_Fin 0) H7).
    f_equal. rewrite !Rleb_true; auto; nra. }
  assert (Z : forall cs, Forall (fun c => exists s, rep (c_sigma c) s /\ 0 < s) cs -> cs <> [] ->
    forallb (fun c => neqb (c_sigma c) (Fin 0)) cs = false).
  { intros l [|c l' (s&S&P) F] N; [congruence|]. cbn [forallb]. rewrite (rep_eqb _ _ _ _ S (rep_Fin 0)), Reqb_false by lra. reflexivity. }
  rewrite <- A. destruct (forallb c_accepts cs) eqn:AE; [|discriminate]. intros H. injection H as <-.
  destruct U as [|c c' cs cs' H F].
  - cbn. eexists. split; eauto.
  - assert (F' : Forall2 (in_units k d) (c :: cs) (c' :: cs')) by (constructor; auto).
    rewrite !Z; try discriminate.
    + eexists. split; [reflexivity|].
      assert (AA : Forall (fun c => (c_a c <? c_b c)%num = true) (c :: cs)).
      { apply Forall_forall. intros z Iz. rewrite forallb_forall in AE. specialize (AE z Iz). unfold c_accepts in AE.
        apply andb_true_iff in AE. tauto. }
      apply (units_rvs k d); auto.
    + eapply units_widths; eauto.
    + eapply units_widths'; eauto.
Qed.

(** ** The Metropolis proposal *)
(** With its scale factor at 1 (before any tuning) the proposal of metropolis (108) from the same draws has the
    value of a normal_bounded step. *)
Theorem C90_metropolis smp c s x : truncated smp -> rep (c_sigma c) s -> 0 < s -> rep (c_at c) x -> (c_lo c <? c_hi c)%num = true ->
  exists y y' r, bounded_add smp [c] = Some [y] /\ Metropolis.propose 1 [c_at c] [c_sigma c] [smp 0%nat (c_a c) (c_b c)] = [y'] /\ rep y r /\ rep y' r.
Proof.
  intros T S P X O. assert (Rd : ready c) by (split; [auto|split; [eexists; eauto|left; eauto]]).
  assert (NZ : c_sigma c <> NegZ) by (intros E; rewrite E in S; pose proof (rep_inj _ _ _ S rep_NegZ); lra).
  pose proof (proj2 (accepts_ready c NZ) Rd) as A. destruct (T 0%nat (c_a c) (c_b c)) as ((t&H)&_).
  { unfold c_accepts in A. apply andb_true_iff in A. tauto. }
  unfold bounded_add, truncnorm_rvs. cbn [forallb]. rewrite A, (rep_eqb _ _ _ _ S (rep_Fin 0)), Reqb_false by lra. cbn [andb rvs_from].
  do 3 eexists. split; [reflexivity|]. split; [reflexivity|]. split; [apply rep_add; [apply rep_mul|]; eauto|].
  eapply rep_eq; [apply rep_add; [|apply rep_mul; [apply rep_mul; [apply rep_Fin|]|]]; eauto|ring].
Qed.

(** ** Steps without limits *)
(** normal: the displacement does not depend on the position, is proportional to the width, and keeps the length *)
Theorem C90_normal z sigma s xs rs ys : rep sigma s -> 0 < s -> Forall2 rep xs rs -> (forall i, finite (z i)) ->
  normal_add z sigma xs = Some ys -> exists ds, Forall2 rep ys (map (fun p => fst p + s * snd p) (combine rs ds)) /\
  List.length ds = List.length xs /\ (forall i, (i < List.length xs)%nat -> rep (z i) (nth i ds 0)).
Proof.
  intros HS P X F. unfold normal_add. destruct (sign_bit sigma); [discriminate|]. intros H. injection H as <-.
  assert (G : forall k, exists ds, Forall2 rep (normal_from z k sigma xs) (map (fun p => fst p + s * snd p) (combine rs ds)) /\
    List.length ds = List.length xs /\ (forall i, (i < List.length xs)%nat -> rep (z (k + i)%nat) (nth i ds 0))).
  { induction X as [|x r xs rs Hx X IH]; intros k; cbn [normal_from].
    - exists []. repeat split; [constructor|]. cbn. intros. lia.
    - destruct (IH (S k)) as (ds&A&B&C). destruct (F k) as (d&D). exists (d :: ds). cbn. repeat split; auto.
      + constructor; auto. apply rep_add; auto. apply rep_mul; auto.
      + intros [|i] Hi; [rewrite Nat.add_0_r; auto|]. replace (k + S i)%nat with (S k + i)%nat by lia. apply C. lia. }
  apply (G 0%nat).
Qed.
(** it is refused exactly for widths below zero, -0.0 among them *)
Theorem C90_normal_answers z sigma xs : (exists ys, normal_add z sigma xs = Some ys) <-> sigma <> NegZ /\ (sigma <? Fin 0)%num = false.
Proof.
  unfold normal_add. assert (E : sign_bit sigma = true <-> sigma = NegZ \/ (sigma <? Fin 0)%num = true).
  { destruct sigma as [r| | | |]; unfold sign_bit; cbn [look].
    - split; [intros H; right; exact H|intros [H|H]; [discriminate H|exact H]].
    - split; auto.
    - split; [discriminate|intros [H|H]; discriminate H].
    - split; auto.
    - split; [discriminate|intros [H|H]; discriminate H]. }
  destruct (sign_bit sigma); split.
  - intros (ys&H). discriminate.
  - intros (A&B). destruct (proj1 E eq_refl) as [C|C]; [contradiction|rewrite B in C; discriminate].
  - intros _. split; [intros H; discriminate (proj2 E (or_introl H))|]. destruct (sigma <? Fin 0)%num eqn:C; auto. discriminate (proj2 E (or_intror eq_refl)).
  - eauto.
Qed.
(** and whatever the limits someone has in mind, some draw leaves them *)
Theorem C90_normal_unlimited sigma s x r lo hi : rep sigma s -> 0 < s -> rep x r -> lo <= hi ->
  exists z y v, normal_add z sigma [x] = Some [y] /\ finite (z 0%nat) /\ rep y v /\ ~ (lo <= v <= hi).
Proof.
  intros S P X L. exists (fun _ => Fin ((hi + 1 - r) / s)). unfold normal_add.
  assert (Sb : sign_bit sigma = false).
  { unfold sign_bit. rewrite (rep_look_nz _ _ S) by lra. apply Rltb_false. lra. }
  rewrite Sb. cbn [normal_from]. do 2 eexists. split; [reflexivity|]. split; [eexists; apply rep_Fin|].
  split; [apply rep_add; [exact X|apply rep_mul; [exact S|apply rep_Fin]]|].
  replace (r + s * ((hi + 1 - r) / s)) with (hi + 1) by (field; lra). lra.
Qed.

(** ** Examples *)
Definition ex_limits : list (num * num * num) := [(Fin 0, Fin 10, Fin 2); (NInf, Fin 5, Fin 1)].
Example ex_limits_ok : Forall limits_ok ex_limits.
Proof.
  assert (L : (Fin 0 <? Fin 10)%num = true) by (rewrite (rep_ltb _ _ _ _ (rep_Fin 0) (rep_Fin 10)); apply Rltb_true; lra).
  constructor; [|constructor; [|constructor]]; (split; [exact L || reflexivity|]); [exists 2|exists 1]; (split; [apply rep_Fin|lra]).
Qed.
(** a start outside of both limits *)
Example C90_walk_example : exists ys, walk (fun _ => middle) ex_limits 3 [Fin 25; Fin 9] = Some ys /\
  Forall2 (fun l y => finite y /\ between (fst (fst l)) (snd (fst l)) y) ex_limits ys.
Proof.
  apply C90_walk; [intros; apply middle_truncated|apply ex_limits_ok|repeat constructor; eexists; apply rep_Fin|reflexivity].
Qed.
(** a path that jumps to a corner, waits there and goes on *)
Example C90_path_example : let path n := match n with 0 => [Fin 25; Fin 9] | 1 | 2 => [Fin 10; Fin 5] | _ => [Fin 1; Fin (-100)] end%nat in
  exists draws, (forall n, truncated (draws n)) /\ forall n, exists ys, walk draws ex_limits n (path 0%nat) = Some ys /\ Forall2 same_value ys (path n).
Proof.
  intros path. apply C90_path; [apply ex_limits_ok|repeat constructor; eexists; apply rep_Fin|reflexivity|].
  assert (K : forall a b, 0 <= a <= 10 -> b <= 5 -> Forall2 (fun l y => finite y /\ between (fst (fst l)) (snd (fst l)) y) ex_limits [Fin a; Fin b]).
  { intros a b Ha Hb. constructor; [|constructor; [|constructor]]; cbn [fst snd]; (split; [eexists; apply rep_Fin|split]); try apply (nleb_rep _ _ _ _ (rep_Fin _) (rep_Fin _)); try lra; apply (NInf_le _ _ (rep_Fin _)). }
  intros [|[|n]]; apply K; lra.
Qed.
Example C90_normal_answers_example z : normal_add z (Fin (-1)) [Fin 3] = None /\ normal_add z NegZ [Fin 3] = None /\ exists ys, normal_add z NaN [Fin 3] = Some ys.
Proof.
  split; [|split; [reflexivity|apply C90_normal_answers; split; [discriminate|reflexivity]]]. unfold normal_add, sign_bit. cbn [look]. rewrite Rltb_true by lra. reflexivity.
Qed.
(** the first step taken by the middle sampler: 25 goes to the middle of 0 and 10 *)
Example C90_step_example : exists y, bounded_add middle [Coord (Fin 0) (Fin 10) (Fin 2) (Fin 25)] = Some [y] /\ rep y 5.
Proof.
  pose (c := Coord (Fin 0) (Fin 10) (Fin 2) (Fin 25)).
  destruct (C90_metropolis middle c 2 25) as (y&y'&r&Y&Y'&A&B);
    [apply middle_truncated|apply rep_Fin|lra|apply rep_Fin|exact (proj1 (Forall_inv ex_limits_ok))|].
  exists y. split; [exact Y|]. cbn [Metropolis.propose] in Y'. injection Y' as <-. eapply rep_eq; [exact A|].
  assert (Ha : rep (c_a c) ((0 - 25) / 2)) by (apply rep_div; [apply rep_sub; apply rep_Fin|apply rep_Fin|lra]).
  assert (Hb : rep (c_b c) ((10 - 25) / 2)) by (apply rep_div; [apply rep_sub; apply rep_Fin|apply rep_Fin|lra]).
  eapply rep_inj; [exact B|]. unfold middle. rewrite Ha, Hb.
  eapply rep_eq; [apply rep_add; [apply rep_Fin|apply rep_mul; [apply rep_mul; [apply rep_Fin|apply rep_Fin]|apply rep_Fin]]|field].
Qed.
(** a width of zero is refused at the limit itself *)
Example C90_zero_example smp : bounded_add smp [Coord (Fin 0) (Fin 10) (Fin 0) (Fin 10)] = None /\
  exists ys, bounded_add smp [Coord (Fin 0) (Fin 10) (Fin 0) (Fin 9)] = Some ys.
Proof.
  split.
  - destruct (bounded_add smp _) as [ys|] eqn:E; auto. exfalso.
    assert (F : Forall ready [Coord (Fin 0) (Fin 10) (Fin 0) (Fin 10)]).
    { apply (C90_answers smp); [repeat constructor; discriminate|eauto]. }
    apply Forall_inv in F. destruct F as (_&_&[(s&S&P)|(_&_&L)]); cbn [c_hi c_at c_sigma] in *.
    + pose proof (rep_inj _ _ _ S (rep_Fin 0)). lra.
    + rewrite (rep_ltb _ _ _ _ (rep_Fin 10) (rep_Fin 10)) in L. apply Rltb_iff in L. lra.
  - apply (C90_answers smp); [repeat constructor; discriminate|]. constructor; [|constructor].
    unfold ready. cbn [c_lo c_hi c_sigma c_at].
    rewrite !(rep_ltb _ _ _ _ (rep_Fin _) (rep_Fin _)). split; [apply Rltb_true; lra|]. split; [eexists; apply rep_Fin|].
    right. split; [reflexivity|]. split; apply Rltb_true; lra.
Qed.
Example C90_units_example : in_units 100 (-3) (Coord (Fin 0) (Fin 10) (Fin 2) (Fin 25)) (Coord (Fin (-3)) (Fin 997) (Fin 200) (Fin 2497)).
Proof.
  exists 0, 10, 2, 25. repeat split; cbn [c_lo c_hi c_sigma c_at]; try apply rep_Fin; try lra; (eapply rep_eq; [apply rep_Fin|lra]).
Qed.
Example C90_normal_example : exists ys, normal_add (fun _ => Fin 1) (Fin 2) [Fin 3; Fin 4] = Some ys.
Proof.
  unfold normal_add, sign_bit. cbn [look]. rewrite (Rltb_false 2 0) by lra. eauto.
Qed.

Print Assumptions C90_bounded.
Print Assumptions C90_bounded_refuted.
Print Assumptions C90_answers.
Print Assumptions C90_number.
Print Assumptions C90_walk.
Print Assumptions C90_path.
Print Assumptions C90_normal_answers.
Print Assumptions C90_units.
Print Assumptions C90_metropolis.
Print Assumptions C90_normal.
Print Assumptions C90_normal_unlimited.
