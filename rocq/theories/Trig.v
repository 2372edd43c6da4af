(** * Polar angles *)
Require Import Reals Lra Psatz Bool ZArith.
From Verif Require Import Num.
Open Scope R_scope.

Lemma cos_atan_pos x : 0 < cos (atan x).
Proof. destruct (atan_bound x); apply cos_gt_0; lra. Qed.
Lemma cos_atan x : cos (atan x) = 1 / sqrt (1 + x * x).
Proof.
  pose proof (cos_atan_pos x) as Hc.
  assert (E : cos (atan x) * cos (atan x) * (1 + x * x) = 1).
  { assert (Ht : sin (atan x) = x * cos (atan x)).
    { rewrite <- (tan_atan x) at 2. unfold tan. field. lra. }
    pose proof (sin2_cos2 (atan x)) as S. unfold Rsqr in S. rewrite Ht in S. nra. }
  assert (P : 0 < 1 + x * x) by nra.
  assert (Q : 0 < sqrt (1 + x * x)) by (apply sqrt_lt_R0; auto).
  assert (K : (cos (atan x) * sqrt (1 + x * x)) * (cos (atan x) * sqrt (1 + x * x)) = 1).
  { transitivity (cos (atan x) * cos (atan x) * (sqrt (1 + x * x) * sqrt (1 + x * x))); [ring|].
    rewrite sqrt_sqrt; lra. }
  assert (0 < cos (atan x) * sqrt (1 + x * x)) by (apply Rmult_lt_0_compat; auto).
  assert (cos (atan x) * sqrt (1 + x * x) = 1) by nra.
  apply Rmult_eq_reg_r with (sqrt (1 + x * x)); [|lra]. field_simplify; lra.
Qed.
Lemma sin_atan x : sin (atan x) = x * cos (atan x).
Proof.
  pose proof (cos_atan_pos x). rewrite <- (tan_atan x) at 2. unfold tan. field. lra.
Qed.

(** Radius. *)
Definition hyp (a b : R) : R := sqrt (a * a + b * b).
Lemma hyp_sqr a b : hyp a b * hyp a b = a * a + b * b.
Proof. apply sqrt_sqrt; nra. Qed.
Lemma hyp_nonneg a b : 0 <= hyp a b. Proof. apply sqrt_pos. Qed.
Lemma hyp_pos a b : a <> 0 \/ b <> 0 -> 0 < hyp a b.
Proof. intros H; apply sqrt_lt_R0. destruct H; nra. Qed.
Lemma hyp_comm a b : hyp a b = hyp b a.
Proof. unfold hyp; f_equal; ring. Qed.
Lemma hyp_div a b : 0 < a -> hyp a b = a * sqrt (1 + b / a * (b / a)).
Proof.
  intros H. unfold hyp.
  assert (0 <= (b / a) * (b / a)) by nra.
  transitivity (sqrt (a * a) * sqrt (1 + b / a * (b / a))).
  - rewrite <- sqrt_mult; [|nra|lra]. f_equal; field; lra.
  - rewrite sqrt_square; lra.
Qed.

(** [natan2] always yields an angle of the point; the sign of a zero only matters for the
    choice between -pi and pi. *)
Lemma atan_polar_pos a b : 0 < a ->
  a = hyp a b * cos (atan (b / a)) /\ b = hyp a b * sin (atan (b / a)).
Proof.
  intros H. pose proof (hyp_div a b H) as E.
  assert (Q : 0 < sqrt (1 + b / a * (b / a))) by (apply sqrt_lt_R0; nra).
  rewrite sin_atan, cos_atan, E. split; field; lra.
Qed.
Lemma hyp_opp a b : hyp (- a) b = hyp a b. Proof. unfold hyp; f_equal; ring. Qed.

Lemma natan2_polar y x b a : rep y b -> rep x a -> a <> 0 \/ b <> 0 ->
  exists th, rep (natan2 y x) th /\ - PI <= th <= PI /\
    a = hyp a b * cos th /\ b = hyp a b * sin th.
Proof.
  intros Hy Hx Hnz. destruct (rep_look _ _ Hy) as (s&Ly), (rep_look _ _ Hx) as (t&Lx).
  unfold natan2; rewrite Ly, Lx. pose proof PI_RGT_0 as HPI.
  destruct (Rltb 0 a) eqn:E1.
  { apply Rltb_iff in E1. exists (atan (b / a)). split; [apply rep_mk|].
    destruct (atan_bound (b / a)). split; [lra|]. apply atan_polar_pos; auto. }
  apply Rltb_iff_false in E1.
  destruct (Rltb a 0) eqn:E2.
  { apply Rltb_iff in E2.
    pose proof (atan_polar_pos (- a) b ltac:(lra)) as (K1&K2).
    rewrite hyp_opp in K1, K2.
    assert (EQ : atan (b / a) = - atan (b / - a)).
    { rewrite <- atan_opp. f_equal. field. lra. }
    destruct (Reqb b 0) eqn:E3.
    - apply Reqb_iff in E3; subst b. exists (sgn s PI); split; [apply rep_Fin|].
      replace (0 / - a) with 0 in K1 by (field; lra). rewrite atan_0, cos_0 in K1.
      unfold sgn; destruct s; rewrite ?cos_neg, ?sin_neg, cos_PI, sin_PI; lra.
    - exists (atan (b / a) + sgn s PI). split; [apply rep_Fin|].
      assert (Hb : b <> 0) by (intros ->; rewrite Reqb_refl in E3; discriminate).
      assert (Hs : s = Rltb b 0).
      { rewrite (rep_look_nz _ _ Hy Hb) in Ly. congruence. }
      assert (C : cos (atan (b / a) + sgn s PI) = - cos (atan (b / - a)) /\
                  sin (atan (b / a) + sgn s PI) = sin (atan (b / - a))).
      { rewrite EQ, cos_plus, sin_plus, cos_neg, sin_neg. unfold sgn; destruct s;
        rewrite ?cos_neg, ?sin_neg, cos_PI, sin_PI; lra. }
      destruct C as (C1&C2). rewrite C1, C2. split; [|lra].
      destruct (atan_bound (b / a)) as (B1&B2).
      subst s. destruct (Rltb b 0) eqn:E4; unfold sgn.
      + apply Rltb_iff in E4.
        assert (0 < b / a). { pose proof (Rinv_lt_0_compat a E2). unfold Rdiv; nra. }
        assert (0 < atan (b / a)) by (rewrite <- atan_0; apply atan_increasing; auto). lra.
      + apply Rltb_iff_false in E4.
        assert (b / a < 0). { pose proof (Rinv_lt_0_compat a E2). unfold Rdiv. assert (0 < b) by lra. nra. }
        assert (atan (b / a) < 0) by (rewrite <- atan_0; apply atan_increasing; auto). lra. }
  apply Rltb_iff_false in E2. assert (a = 0) by lra. subst a.
  assert (Hb : b <> 0) by (destruct Hnz; lra). rewrite Reqb_false by auto.
  exists (sgn s (PI / 2)). split; [apply rep_Fin|].
  assert (Hs : s = Rltb b 0). { rewrite (rep_look_nz _ _ Hy Hb) in Ly. congruence. }
  assert (Hh : hyp 0 b = Rabs b).
  { unfold hyp. rewrite Rmult_0_l, Rplus_0_l. change (b * b) with (Rsqr b). apply sqrt_Rsqr_abs. }
  rewrite Hh. subst s. destruct (Rltb b 0) eqn:E4; unfold sgn.
  - apply Rltb_iff in E4. rewrite Rabs_left by auto.
    rewrite cos_neg, sin_neg, cos_PI2, sin_PI2. lra.
  - apply Rltb_iff_false in E4. rewrite Rabs_right by lra.
    rewrite cos_PI2, sin_PI2. lra.
Qed.

(** Angles within an open turn are determined by sine and cosine. *)
Lemma cos_eq_1_small d : - (2 * PI) < d < 2 * PI -> cos d = 1 -> d = 0.
Proof.
  intros B H. pose proof PI_RGT_0 as HPI.
  assert (S : sin (d / 2) = 0).
  { assert (E : cos d = 1 - 2 * sin (d / 2) * sin (d / 2)).
    { rewrite <- cos_2a_sin. f_equal; field. }
    nra. }
  destruct (Rtotal_order d 0) as [L|[L|L]]; auto.
  - assert (0 < sin (- d / 2)) by (apply sin_gt_0; lra).
    replace (- d / 2) with (- (d / 2)) in H0 by field. rewrite sin_neg in H0; lra.
  - assert (0 < sin (d / 2)) by (apply sin_gt_0; lra). lra.
Qed.
Lemma angle_unique a b : - (2 * PI) < a - b < 2 * PI -> cos a = cos b -> sin a = sin b -> a = b.
Proof.
  intros B C S. assert (a - b = 0); [|lra].
  apply cos_eq_1_small; auto. rewrite cos_minus, C, S.
  pose proof (sin2_cos2 b) as Q; unfold Rsqr in Q; lra.
Qed.

(** Polar coordinates back to the angle, away from the cut. *)
Lemma natan2_of_polar y x k th : 0 < k -> - PI < th < PI ->
  rep y (k * sin th) -> rep x (k * cos th) -> rep (natan2 y x) th.
Proof.
  intros Hk B Hy Hx.
  assert (Hnz : k * cos th <> 0 \/ k * sin th <> 0).
  { destruct (Req_dec (k * cos th) 0) as [C|C]; auto. right. intros S.
    pose proof (sin2_cos2 th) as Q; unfold Rsqr in Q.
    assert (cos th = 0) by nra. assert (sin th = 0) by nra. nra. }
  destruct (natan2_polar _ _ _ _ Hy Hx Hnz) as (th'&R&B'&E1&E2).
  eapply rep_eq; [exact R|].
  assert (Hh : hyp (k * cos th) (k * sin th) = k).
  { unfold hyp. replace (_ + _) with (k * k * (sin th * sin th + cos th * cos th)) by ring.
    pose proof (sin2_cos2 th) as Q; unfold Rsqr in Q. rewrite Q, Rmult_1_r. apply sqrt_square; lra. }
  rewrite Hh in E1, E2. apply angle_unique; try lra; nra.
Qed.

(** Scaling both arguments by a positive finite float does not change natan2. *)
Lemma look_mul_pos x k a c s : look x = VFin a s -> rep k c -> 0 < c ->
  exists s', look (nmul x k) = VFin (a * c) s' /\ (a = 0 -> s' = s) /\ (a <> 0 -> s' = Rltb a 0).
Proof.
  intros L K C. unfold nmul; rewrite L.
  assert (look k = VFin c false).
  { rewrite (rep_look_nz _ _ K) by lra. rewrite Rltb_false by lra. auto. }
  rewrite H. rewrite xorb_false_r. unfold mk.
  destruct (Req_dec a 0) as [->|Ha].
  - rewrite Rmult_0_l, Reqb_refl. destruct s; simpl.
    + exists true; repeat split; auto; lra.
    + rewrite Rltb_false by lra. exists false; repeat split; auto; lra.
  - rewrite Reqb_false by nra. simpl. exists (Rltb a 0). split; [|split; auto; lra].
    f_equal. unfold Rltb. destruct (Rlt_dec (a * c) 0), (Rlt_dec a 0); auto; exfalso; nra.
Qed.
Lemma look_sign_nz x a s : look x = VFin a s -> a <> 0 -> s = Rltb a 0.
Proof. intros L H; pose proof (rep_look_nz _ _ (look_rep _ _ _ L) H); congruence. Qed.

Lemma natan2_scale y x k b a c : rep y b -> rep x a -> rep k c -> 0 < c ->
  natan2 (nmul y k) (nmul x k) = natan2 y x.
Proof.
  intros Hy Hx K C. destruct (rep_look _ _ Hy) as (s&Ly), (rep_look _ _ Hx) as (t&Lx).
  destruct (look_mul_pos _ _ _ _ _ Ly K C) as (s'&Ly'&S0&S1).
  destruct (look_mul_pos _ _ _ _ _ Lx K C) as (t'&Lx'&T0&T1).
  unfold natan2; rewrite Ly, Lx, Ly', Lx'.
  assert (E1 : Rltb 0 (a * c) = Rltb 0 a).
  { unfold Rltb; destruct (Rlt_dec 0 (a * c)), (Rlt_dec 0 a); auto; exfalso; nra. }
  assert (E2 : Rltb (a * c) 0 = Rltb a 0).
  { unfold Rltb; destruct (Rlt_dec (a * c) 0), (Rlt_dec a 0); auto; exfalso; nra. }
  assert (E3 : Reqb (b * c) 0 = Reqb b 0).
  { unfold Reqb; destruct (Req_EM_T (b * c) 0), (Req_EM_T b 0); auto; exfalso; try nra. }
  assert (Es : s' = s).
  { destruct (Req_dec b 0); [auto|]. rewrite S1, (look_sign_nz _ _ _ Ly); auto. }
  rewrite E1, E2, E3, Es.
  assert (ED : a <> 0 -> b * c / (a * c) = b / a) by (intros; field; lra).
  destruct (Rltb 0 a) eqn:F1.
  { apply Rltb_iff in F1. rewrite ED by lra. reflexivity. }
  destruct (Rltb a 0) eqn:F2.
  { apply Rltb_iff in F2. rewrite ED by lra. reflexivity. }
  apply Rltb_iff_false in F1, F2. assert (a = 0) by lra. rewrite T0; auto.
Qed.

(** Sign bit of a finite float with value [r], [s] being used for a zero. *)
Definition sg (r : R) (s : bool) : bool := if Reqb r 0 then s else Rltb r 0.
Lemma look_mk r s : look (mk r s) = VFin r (sg r s).
Proof.
  unfold mk, sg. destruct (Reqb r 0) eqn:E; [|reflexivity].
  apply Reqb_iff in E; subst. destruct s; simpl; auto. rewrite Rltb_false by lra; auto.
Qed.
Lemma look_sg x r s : look x = VFin r s -> s = sg r s.
Proof.
  intros L. unfold sg. destruct (Reqb r 0) eqn:E; auto.
  apply (look_sign_nz _ _ _ L). intros ->. rewrite Reqb_refl in E; discriminate.
Qed.
Lemma sg_opp r s : sg (- r) (negb s) = negb (sg r s).
Proof.
  unfold sg, Reqb, Rltb. destruct (Req_EM_T (- r) 0), (Req_EM_T r 0); auto; try lra.
  destruct (Rlt_dec (- r) 0), (Rlt_dec r 0); auto; lra.
Qed.
Lemma look_inf s : look (inf s) = VInf s. Proof. destruct s; reflexivity. Qed.
Lemma nneg_nmul x s : nneg (nmul x s) = nmul (nneg x) s.
Proof.
  unfold nneg, nmul.
  destruct (look x) as [|a|r a] eqn:Ex; simpl; auto;
  rewrite ?look_inf, ?look_mk; destruct (look s) as [|b|t b] eqn:Es; simpl; auto; rewrite ?look_inf.
  - destruct a, b; reflexivity.
  - destruct (Reqb t 0); simpl; rewrite ?look_inf; destruct a, b; reflexivity.
  - rewrite sg_opp, <- (look_sg _ _ _ Ex).
    assert (E : Reqb (- r) 0 = Reqb r 0).
    { unfold Reqb; destruct (Req_EM_T (- r) 0), (Req_EM_T r 0); auto; lra. }
    rewrite E. destruct (Reqb r 0); simpl; rewrite ?look_inf; destruct a, b; reflexivity.
  - rewrite look_mk, sg_opp, <- (look_sg _ _ _ Ex).
    replace (- r * t) with (- (r * t)) by ring. unfold mk.
    assert (E : Reqb (- (r * t)) 0 = Reqb (r * t) 0).
    { unfold Reqb; destruct (Req_EM_T (- (r * t)) 0), (Req_EM_T (r * t) 0); auto; lra. }
    rewrite E. unfold sg. destruct (Reqb (r * t) 0); auto. destruct a, b; reflexivity.
Qed.
