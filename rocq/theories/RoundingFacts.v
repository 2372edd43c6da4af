(** * Facts on rounded arithmetic *)
Require Import Reals Lra Lia Bool ZArith.
From Verif Require Import Num Vec Trig Orientation OrientationFacts Projection ProjectionFacts CameraTransform CameraFacts PropCamera Rounding.
Open Scope R_scope.

(** ** Specification: how accurate the operations are *)
(** One operation is off by at most the relative error [u] (2^-53 for double precision), np.deg2rad by [4 u], np.sin
    and np.cos by [8 u] (absolute), a sum of three products by [4 u] of the sum of the absolute values. *)
Definition accurate (u : R) (A : floats) : Prop :=
  0 <= u <= / 1000000 /\
  (forall x, Rabs (f_round A x - x) <= u * Rabs x) /\
  (forall d, Rabs (f_rad A d - rad d) <= 4 * u * Rabs (rad d)) /\
  (forall x, Rabs (f_sin A x - sin x) <= 8 * u) /\ (forall x, Rabs (f_cos A x - cos x) <= 8 * u) /\
  (forall a b, Rabs (f_dot A a b - rdot a b) <= 4 * u * (Rabs (cx a * cx b) + Rabs (cy a * cy b) + Rabs (cz a * cz b))).

Definition near (e a b : R) : Prop := Rabs (a - b) <= e.
Definition near3 (e : R) (p q : v3 R) : Prop := near e (cx p) (cx q) /\ near e (cy p) (cy q) /\ near e (cz p) (cz q).
Definition nearm (e : R) (p q : m3 R) : Prop := near3 e (cx p) (cx q) /\ near3 e (cy p) (cy q) /\ near3 e (cz p) (cz q).
Definition below3 (m : R) (p : v3 R) : Prop := Rabs (cx p) <= m /\ Rabs (cy p) <= m /\ Rabs (cz p) <= m.
Definition belowm (m : R) (p : m3 R) : Prop := below3 m (cx p) /\ below3 m (cy p) /\ below3 m (cz p).
Definition rm_id : m3 R := V3 (V3 1 0 0) (V3 0 1 0) (V3 0 0 1).

(** ** Absolute values *)
Lemma near_mul a b a' b' ea eb ma mb : near ea a' a -> near eb b' b -> Rabs a <= ma -> Rabs b <= mb ->
  near (ea * mb + ma * eb + ea * eb) (a' * b') (a * b).
Proof.
  unfold near. intros HA HB MA MB.
  replace (a' * b' - a * b) with ((a' - a) * b + a * (b' - b) + (a' - a) * (b' - b)) by ring.
  pose proof (Rabs_pos (a' - a)). pose proof (Rabs_pos (b' - b)). pose proof (Rabs_pos a). pose proof (Rabs_pos b).
  eapply Rle_trans; [apply Rabs_triang|]. rewrite (Rabs_mult (a' - a) (b' - b)).
  apply Rplus_le_compat; [|apply Rmult_le_compat; auto].
  eapply Rle_trans; [apply Rabs_triang|]. rewrite !Rabs_mult.
  apply Rplus_le_compat; apply Rmult_le_compat; auto.
Qed.
Lemma near_refl a : near 0 a a.
Proof. unfold near. rewrite Rminus_diag_eq, Rabs_R0; auto. lra. Qed.
Lemma near_le e e' a b : near e a b -> e <= e' -> near e' a b.
Proof. unfold near. lra. Qed.
Lemma near_add a b a' b' ea eb : near ea a' a -> near eb b' b -> near (ea + eb) (a' + b') (a + b).
Proof.
  unfold near. intros HA HB. replace (a' + b' - (a + b)) with ((a' - a) + (b' - b)) by ring.
  eapply Rle_trans; [apply Rabs_triang|]. lra.
Qed.
Lemma near_opp a a' e : near e a' a -> near e (- a') (- a).
Proof. unfold near. intros H. replace (- a' - - a) with (- (a' - a)) by ring. rewrite Rabs_Ropp. exact H. Qed.
Lemma near_trans a b c e e' : near e a b -> near e' b c -> near (e + e') a c.
Proof. unfold near. intros H1 H2. replace (a - c) with ((a - b) + (b - c)) by ring. eapply Rle_trans; [apply Rabs_triang|]. lra. Qed.
Lemma near_abs a b e m : near e a b -> Rabs b <= m -> Rabs a <= m + e.
Proof. unfold near. intros H1 H2. replace a with (b + (a - b)) by ring. eapply Rle_trans; [apply Rabs_triang|]. lra. Qed.
Lemma abs_prod a b ma mb : Rabs a <= ma -> Rabs b <= mb -> Rabs (a * b) <= ma * mb.
Proof. intros. rewrite Rabs_mult. apply Rmult_le_compat; auto; apply Rabs_pos. Qed.
Lemma row_below p : rdot p p = 1 -> below3 1 p.
Proof.
  unfold rdot, below3. intros H. splits; apply Rabs_le; nra.
Qed.
Lemma quotient_near x z x' z' e : near e x' x -> near e z' z -> 0 < Rabs z -> 2 * e <= Rabs z ->
  Rabs z / 2 <= Rabs z' /\ near (2 * e / Rabs z * (1 + Rabs (x / z))) (x' / z') (x / z).
Proof.
  unfold near. intros HX HZ Pz E. pose proof (Rabs_pos (x' - x)) as N1.
  assert (Lz : Rabs z / 2 <= Rabs z').
  { replace z with (z' - (z' - z)) in E |- * by ring. pose proof (Rabs_triang z' (- (z' - z))) as T. rewrite Rabs_Ropp in T.
    change (z' + - (z' - z)) with (z' - (z' - z)) in T. replace (z' - (z' - (z' - z))) with (z' - z) in * by ring. lra. }
  split; [exact Lz|]. assert (Nz : z <> 0) by (intros ->; rewrite Rabs_R0 in Pz; lra).
  assert (Nz' : z' <> 0) by (intros ->; rewrite Rabs_R0 in Lz; lra).
  replace (x' / z' - x / z) with (((x' - x) - x / z * (z' - z)) * / z') by (field; auto).
  rewrite Rabs_mult, Rabs_inv.
  assert (NUM : Rabs (x' - x - x / z * (z' - z)) <= e * (1 + Rabs (x / z))).
  { eapply Rle_trans; [apply Rabs_triang|]. rewrite Rabs_Ropp, (Rabs_mult (x / z)). pose proof (Rabs_pos (x / z)). nra. }
  apply Rle_trans with (e * (1 + Rabs (x / z)) * / (Rabs z / 2)).
  - apply Rmult_le_compat; [apply Rabs_pos|apply Rlt_le, Rinv_0_lt_compat; lra|exact NUM|]. apply Rinv_le_contravar; lra.
  - right. field. lra.
Qed.

Section Accurate.
Context (u : R) (A : floats) (HA : accurate u A).
Notation fl := (f_round A).
Lemma u_range : 0 <= u <= / 1000000. Proof. apply HA. Qed.
Lemma uu : 0 <= u * u <= u * / 1000000.
Proof. pose proof u_range. nra. Qed.
Lemma uuu : 0 <= u * u * u <= u * / 1000000.
Proof. pose proof u_range. pose proof uu. nra. Qed.
Lemma fl_near x : near (u * Rabs x) (fl x) x. Proof. apply HA. Qed.
Lemma fl_rel x : exists d, Rabs d <= u /\ fl x = x * (1 + d).
Proof.
  pose proof (fl_near x) as H. unfold near in H. destruct (Req_dec x 0) as [-> | N].
  - exists 0. rewrite Rabs_R0, Rmult_0_r in *. split; [apply u_range|]. rewrite Rminus_0_r in H.
    pose proof (Rabs_pos (fl 0)). assert (fl 0 = 0) by (destruct (Req_dec (fl 0) 0); auto; pose proof (Rabs_pos_lt (fl 0)); lra). lra.
  - exists ((fl x - x) / x). split; [|field; auto]. unfold Rdiv. rewrite Rabs_mult, Rabs_inv.
    assert (P : 0 < Rabs x) by (apply Rabs_pos_lt; auto). apply (Rmult_le_reg_r (Rabs x)); [auto|].
    rewrite Rmult_assoc, Rinv_l by lra. lra.
Qed.
Lemma fl_0 : fl 0 = 0.
Proof. destruct (fl_rel 0) as (d&_&E). rewrite E. ring. Qed.
Lemma prod2 d1 d2 : Rabs d1 <= u -> Rabs d2 <= u -> exists d, Rabs d <= 2 * u + u * / 1000000 /\ (1 + d1) * (1 + d2) = 1 + d.
Proof.
  intros H1 H2. exists (d1 + d2 + d1 * d2). split; [|ring]. pose proof uu. pose proof (abs_prod _ _ _ _ H1 H2).
  eapply Rle_trans; [apply Rabs_triang|]. eapply Rle_trans; [apply Rplus_le_compat_r, Rabs_triang|]. lra.
Qed.
Lemma dot_near a b a' b' ea eb ma mb : near3 ea a' a -> near3 eb b' b -> below3 ma a -> below3 mb b ->
  0 <= ea -> 0 <= eb -> 0 <= ma -> 0 <= mb ->
  near (3 * (ea * mb + ma * eb + ea * eb) + 12 * u * ((ma + ea) * (mb + eb))) (f_dot A a' b') (rdot a b).
Proof.
  intros (A1&A2&A3) (B1&B2&B3) (M1&M2&M3) (N1&N2&N3) P1 P2 P3 P4. set (K := (ma + ea) * (mb + eb)).
  destruct HA as (U&_&_&_&_&HD). rewrite Rplus_comm. eapply near_trans.
  - unfold near. eapply Rle_trans; [apply HD|].
    assert (K1 := abs_prod _ _ _ _ (near_abs _ _ _ _ A1 M1) (near_abs _ _ _ _ B1 N1)).
    assert (K2 := abs_prod _ _ _ _ (near_abs _ _ _ _ A2 M2) (near_abs _ _ _ _ B2 N2)).
    assert (K3 := abs_prod _ _ _ _ (near_abs _ _ _ _ A3 M3) (near_abs _ _ _ _ B3 N3)).
    fold K in K1, K2, K3. replace (12 * u * K) with (4 * u * (K + K + K)) by ring. apply Rmult_le_compat_l; lra.
  - unfold rdot. eapply near_le.
    + apply near_add; [apply near_add|]; apply near_mul; eassumption.
    + right. ring.
Qed.
End Accurate.

(** ** Double precision *)
(** Rounding to the nearest number with 53 binary digits (unbounded exponent; ties upwards) is such an arithmetic. *)
Definition expo (x : R) : Z := Int_part (ln (Rabs x) / ln 2).
Definition nearest (y : R) : Z := Int_part (y + 1 / 2).
Definition round53 (x : R) : R :=
  if Req_EM_T x 0 then 0 else IZR (nearest (x / powerRZ 2 (expo x - 52))) * powerRZ 2 (expo x - 52).
Definition u53 : R := / 9007199254740992.
Definition binary64 : floats :=
  Floats round53 (fun d => round53 (d * round53 (PI / 180))) (fun x => round53 (sin x)) (fun x => round53 (cos x))
    (fun a b => round53 (round53 (round53 (cx a * cx b) + round53 (cy a * cy b)) + round53 (cz a * cz b))).

Lemma int_part_bounds r : IZR (Int_part r) <= r < IZR (Int_part r) + 1.
Proof. destruct (base_Int_part r). lra. Qed.
Lemma nearest_near y : Rabs (IZR (nearest y) - y) <= 1 / 2.
Proof. unfold nearest. pose proof (int_part_bounds (y + 1 / 2)). apply Rabs_le. lra. Qed.
Lemma round53_near x : Rabs (round53 x - x) <= u53 * Rabs x.
Proof.
  unfold round53. destruct (Req_EM_T x 0) as [-> | N]; [rewrite Rminus_0_r, Rabs_R0; lra|].
  set (s := powerRZ 2 (expo x - 52)). assert (P : 0 < s) by (apply powerRZ_lt; lra).
  replace (IZR (nearest (x / s)) * s - x) with ((IZR (nearest (x / s)) - x / s) * s) by (field; lra).
  rewrite Rabs_mult, (Rabs_right s) by lra.
  apply Rle_trans with (1 / 2 * s); [apply Rmult_le_compat_r; [lra|apply nearest_near]|].
  assert (AP : 0 < Rabs x) by (apply Rabs_pos_lt; auto).
  assert (E : powerRZ 2 (expo x) <= Rabs x).
  { rewrite powerRZ_Rpower by lra. unfold Rpower. apply Rle_trans with (exp (ln (Rabs x))); [|right; apply exp_ln; auto].
    assert (LE : IZR (expo x) * ln 2 <= ln (Rabs x)).
    { assert (L2 : 0 < ln 2) by (rewrite <- ln_1; apply ln_increasing; lra). unfold expo.
      pose proof (int_part_bounds (ln (Rabs x) / ln 2)) as (B&_). apply (Rmult_le_compat_r (ln 2)) in B; [|lra].
      replace (ln (Rabs x) / ln 2 * ln 2) with (ln (Rabs x)) in B by (field; lra). exact B. }
    destruct LE as [LE|LE]; [left; apply exp_increasing; auto|right; f_equal; auto]. }
  unfold s, Zminus. rewrite powerRZ_add by lra. replace (powerRZ 2 (-(52))) with (/ 4503599627370496).
  - unfold u53. lra.
  - simpl. field.
Qed.
Lemma binary64_accurate : accurate u53 binary64.
Proof.
  set (B := Floats round53 (fun d => rad d) sin cos rdot).
  assert (HU : 0 <= u53 <= / 1000000) by (unfold u53; lra).
  assert (HB : accurate u53 B).
  { split; [exact HU|]. split; [apply round53_near|].
    assert (Z : forall x y, 0 <= y -> Rabs (x - x) <= y) by (intros; rewrite Rminus_diag_eq, Rabs_R0; auto).
    cbn [B f_rad f_sin f_cos f_dot]. splits; intros; apply Z; repeat apply Rmult_le_pos; try lra; try apply Rabs_pos.
    pose proof (Rabs_pos (cx a * cx b)). pose proof (Rabs_pos (cy a * cy b)). pose proof (Rabs_pos (cz a * cz b)). lra. }
  assert (TR : forall x, -1 <= x <= 1 -> Rabs (round53 x - x) <= 8 * u53).
  { intros x H. eapply Rle_trans; [apply round53_near|]. assert (Rabs x <= 1) by (apply Rabs_le; lra). nra. }
  split; [exact HU|]. split; [apply round53_near|]. cbn [binary64 f_rad f_sin f_cos f_dot]. splits.
  - intros d. destruct (fl_rel u53 B HB (PI / 180)) as (d1&D1&E1). cbn [B f_round] in E1. rewrite E1.
    destruct (fl_rel u53 B HB (d * (PI / 180 * (1 + d1)))) as (d2&D2&E2). cbn [B f_round] in E2. rewrite E2.
    destruct (prod2 u53 B HB d1 d2 D1 D2) as (d3&D3&E3). unfold rad.
    replace (d * (PI / 180 * (1 + d1)) * (1 + d2) - d * (PI / 180)) with (((1 + d1) * (1 + d2) - 1) * (d * (PI / 180))) by ring.
    rewrite Rabs_mult. apply Rmult_le_compat_r; [apply Rabs_pos|]. rewrite E3. replace (1 + d3 - 1) with d3 by ring. lra.
  - intros x. apply TR. apply SIN_bound.
  - intros x. apply TR. apply COS_bound.
  - intros a b. unfold rdot.
    assert (FR := fl_rel u53 B HB). cbn [B f_round] in FR. set (p := cx a * cx b). set (q := cy a * cy b). set (r := cz a * cz b).
    destruct (FR p) as (d1&D1&->). destruct (FR q) as (d2&D2&->). destruct (FR r) as (d3&D3&->).
    destruct (FR (p * (1 + d1) + q * (1 + d2))) as (d4&D4&->).
    destruct (FR ((p * (1 + d1) + q * (1 + d2)) * (1 + d4) + r * (1 + d3))) as (d5&D5&->).
    assert (P2 := prod2 u53 B HB).
    assert (P3 : forall a b c, Rabs a <= u53 -> Rabs b <= u53 -> Rabs c <= u53 -> Rabs ((1 + a) * (1 + b) * (1 + c) - 1) <= 4 * u53).
    { intros x y z X Y Z. destruct (P2 x y X Y) as (w&W&->). replace ((1 + w) * (1 + z) - 1) with (w + z + w * z) by ring.
      pose proof (abs_prod _ _ _ _ W Z). pose proof (uu u53 B HB). eapply Rle_trans; [apply Rabs_triang|].
      eapply Rle_trans; [apply Rplus_le_compat_r, Rabs_triang|]. lra. }
    replace (((p * (1 + d1) + q * (1 + d2)) * (1 + d4) + r * (1 + d3)) * (1 + d5) - (p + q + r)) with
      (p * ((1 + d1) * (1 + d4) * (1 + d5) - 1) + q * ((1 + d2) * (1 + d4) * (1 + d5) - 1) + r * ((1 + d3) * (1 + 0) * (1 + d5) - 1)) by ring.
    assert (Z0 : Rabs 0 <= u53) by (rewrite Rabs_R0; lra).
    pose proof (P3 _ _ _ D1 D4 D5). pose proof (P3 _ _ _ D2 D4 D5). pose proof (P3 _ _ _ D3 Z0 D5).
    eapply Rle_trans; [apply Rabs_triang|]. eapply Rle_trans; [apply Rplus_le_compat_r, Rabs_triang|]. rewrite !Rabs_mult.
    pose proof (Rabs_pos p). pose proof (Rabs_pos q). pose proof (Rabs_pos r). nra.
Qed.
