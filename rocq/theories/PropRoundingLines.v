(** * C91: rounding errors of triangulation *)
Require Import Reals Lra Lia Bool Psatz.
From Verif Require Import Num Vec Trig Orientation OrientationFacts Projection ProjectionFacts Ray RayFacts CameraTransform CameraFacts.
From Verif Require Import Stereo PropCamera PropStereo PropSensitivity Rounding RoundingFacts PropRounding RoundingLines.
Open Scope R_scope.

(** ** Specification *)
(** A backward stable solver: its answer solves a system whose coefficients are off by at most [32 u] of the largest
    one, and it only refuses a system if one so close is singular. *)
Definition stable (u : R) (solve : solver) : Prop := forall a b c d e f m,
  Rabs a <= m -> Rabs b <= m -> Rabs c <= m -> Rabs d <= m ->
  exists a' b' c' d', near (32 * u * m) a' a /\ near (32 * u * m) b' b /\ near (32 * u * m) c' c /\ near (32 * u * m) d' d /\
    match solve a b c d e f with
    | Some (x, y) => a' * x + b' * y = e /\ c' * x + d' * y = f
    | None => a' * d' = b' * c'
    end.

(** In the direction from the camera to a point, per metre of depth *)
Definition depth (o : opar R) (P : v3 R) : R := - cz (cam_coords o P).
Definition sight (o : opar R) (P : v3 R) : v3 R := rv_scale (/ depth o P) (rv_sub P (opos o)).
(** The point is seen at most [rho] metres sideways, up or down for every metre of depth *)
Definition within (rho : R) (o : opar R) (P : v3 R) : Prop :=
  Rabs (cx (cam_coords o P)) <= rho * depth o P /\ Rabs (cy (cam_coords o P)) <= rho * depth o P.
(** How far the two lines of sight are from being parallel: the squared sine of the angle between them, times their
    squared lengths per metre of depth *)
Definition crossing (oa ob : opar R) (P : v3 R) : R := rdot (rcross (sight oa P) (sight ob P)) (rcross (sight oa P) (sight ob P)).

(** ** Gaussian elimination is stable *)
Section Elimination.
Context (u : R) (A : floats) (HA : accurate u A).
Notation fl := (f_round A).
Lemma one_plus d k : Rabs d <= k -> 1 - k <= 1 + d <= 1 + k.
Proof. intros H. pose proof (Rle_abs d). pose proof (Rle_abs (- d)) as K. rewrite Rabs_Ropp in K. lra. Qed.
(** products and quotients of factors close to one *)
Lemma times_near x y j k : 0 <= j <= / 1000 -> 0 <= k <= / 1000 -> near j x 1 -> near k y 1 -> near (j + k + j * k) (x * y) 1.
Proof.
  intros J K X Y. eapply near_le; [replace 1 with (1 * 1) by ring; apply (near_mul 1 1 x y j k 1 1 X Y); rewrite Rabs_R1; lra|]. lra.
Qed.
Lemma inv_near x j : 0 <= j <= / 1000 -> near j x 1 -> near (j + 2 * (j * j)) (/ x) 1.
Proof.
  intros J X. unfold near in *. assert (B : 1 - j <= x <= 1 + j) by (apply near_bounds in X; lra).
  assert (P : 0 < x) by lra. assert (P' : 0 < / x) by (apply Rinv_0_lt_compat; auto).
  replace (/ x - 1) with (- (x - 1) * / x) by (field; lra). rewrite Rabs_mult, Rabs_Ropp, (Rabs_right (/ x)) by lra.
  apply Rle_trans with (j * / (1 - j)).
  - apply Rmult_le_compat; auto; [apply Rabs_pos|lra|]. apply Rinv_le_contravar; lra.
  - apply (Rmult_le_reg_r (1 - j)); [lra|]. rewrite Rmult_assoc, Rinv_l by lra. nra.
Qed.
(** in multiples of [u] *)
Lemma small p q : 0 <= p <= 10 -> 0 <= q <= 10 -> 0 <= p * u <= / 1000 /\ 0 <= p * u * (q * u) <= / 1000 * u.
Proof.
  intros P Q. pose proof (u_range u A HA) as U. pose proof (uu u A HA) as UU.
  assert (0 <= p * q <= 100) by (split; [apply Rmult_le_pos; lra|replace 100 with (10 * 10) by ring; apply Rmult_le_compat; lra]).
  assert (0 <= p * u) by (apply Rmult_le_pos; lra).
  assert (p * u <= 10 * u) by (apply Rmult_le_compat_r; lra).
  replace (p * u * (q * u)) with (p * q * (u * u)) by ring.
  assert (0 <= p * q * (u * u)) by (apply Rmult_le_pos; lra).
  assert (p * q * (u * u) <= 100 * (u * u)) by (apply Rmult_le_compat_r; lra). lra.
Qed.
Lemma times_u x y p q : 0 <= p <= 10 -> 0 <= q <= 10 -> near (p * u) x 1 -> near (q * u) y 1 -> near ((p + q + / 1000) * u) (x * y) 1.
Proof.
  intros P Q X Y. destruct (small p q P Q). destruct (small q p Q P).
  eapply near_le; [apply (times_near x y (p * u) (q * u)); auto; lra|]. lra.
Qed.
Lemma inv_u x p : 0 <= p <= 10 -> near (p * u) x 1 -> near ((p + / 500) * u) (/ x) 1.
Proof.
  intros P X. destruct (small p p P P). eapply near_le; [apply (inv_near x (p * u)); auto; lra|]. lra.
Qed.
Lemma eliminate_stable a b c d e f m : Rabs c <= Rabs a -> Rabs a <= m -> Rabs b <= m -> Rabs d <= m ->
  exists a' b' c' d', near (32 * u * m) a' a /\ near (32 * u * m) b' b /\ near (32 * u * m) c' c /\ near (32 * u * m) d' d /\
    match f_eliminate A a b c d e f with
    | Some (x, y) => a' * x + b' * y = e /\ c' * x + d' * y = f
    | None => a' * d' = b' * c'
    end.
Proof.
  intros CA Am Bm Dm. pose proof (u_range u A HA) as U. pose proof (uu u A HA) as UU.
  assert (Pm : 0 <= m) by (pose proof (Rabs_pos a); lra). assert (um : 0 <= u * m) by (apply Rmult_le_pos; lra).
  assert (Z : forall x, near (32 * u * m) x x) by (intros x; unfold near; rewrite Rminus_diag_eq, Rabs_R0 by reflexivity; lra).
  unfold f_eliminate. destruct (Req_EM_T a 0) as [->|Na].
  { rewrite Rabs_R0 in CA. assert (c = 0) by (destruct (Req_dec c 0); auto; pose proof (Rabs_pos_lt c); lra). subst c.
    exists 0, b, 0, d. repeat split; auto. ring. }
  destruct (fl_rel u A HA (1 / a)) as (e1&E1&->). destruct (fl_rel u A HA (c * (1 / a * (1 + e1)))) as (e2&E2&->).
  set (l := c * (1 / a * (1 + e1)) * (1 + e2)).
  destruct (fl_rel u A HA (l * b)) as (e3&E3&->). destruct (fl_rel u A HA (d - l * b * (1 + e3))) as (e4&E4&->).
  assert (N : forall x, Rabs x <= u -> near (1 * u) (1 + x) 1) by (intros x H; unfold near; replace (1 + x - 1) with x by ring; lra).
  pose proof (N _ E1) as N1. pose proof (N _ E2) as N2. pose proof (N _ E3) as N3. pose proof (N _ E4) as N4.
  assert (scale : forall k x y, near k x 1 -> near (k * Rabs y) (x * y) y).
  { intros k x y H. unfold near in *. replace (x * y - y) with ((x - 1) * y) by ring. rewrite Rabs_mult.
    apply Rmult_le_compat_r; [apply Rabs_pos|auto]. }
  assert (L12 : near (21 / 10 * u) ((1 + e1) * (1 + e2)) 1) by (eapply near_le; [apply (times_u _ _ 1 1); auto; lra|lra]).
  destruct (Req_EM_T _ 0) as [D0|D0].
  { (* the second pivot vanishes *)
    exists a, b, ((1 + e1) * (1 + e2) * (1 + e3) * c), d. repeat split; auto.
    - eapply near_le; [apply scale; apply (times_u _ _ (21 / 10) 1 ltac:(lra) ltac:(lra) L12 N3)|].
      apply Rle_trans with (4 * u * Rabs c); [apply Rmult_le_compat_r; [apply Rabs_pos|lra]|].
      pose proof (Rabs_pos c). assert (u * Rabs c <= u * m) by (apply Rmult_le_compat_l; lra). lra.
    - assert (Q : d - l * b * (1 + e3) = 0).
      { apply Rmult_integral in D0 as [D0|D0]; auto. apply near_bounds in N4. lra. }
      assert (Dd : d = l * b * (1 + e3)) by lra. rewrite Dd. unfold l. field. auto. }
  set (d1 := (d - l * b * (1 + e3)) * (1 + e4)) in *.
  destruct (fl_rel u A HA (l * e)) as (e5&E5&->). destruct (fl_rel u A HA (f - l * e * (1 + e5))) as (e6&E6&->).
  destruct (fl_rel u A HA ((f - l * e * (1 + e5)) * (1 + e6) / d1)) as (e7&E7&->).
  set (y := (f - l * e * (1 + e5)) * (1 + e6) / d1 * (1 + e7)).
  destruct (fl_rel u A HA (b * y)) as (e8&E8&->). destruct (fl_rel u A HA (e - b * y * (1 + e8))) as (e9&E9&->).
  destruct (fl_rel u A HA ((e - b * y * (1 + e8)) * (1 + e9) / a)) as (e10&E10&->).
  set (x := (e - b * y * (1 + e8)) * (1 + e9) / a * (1 + e10)).
  pose proof (N _ E5) as N5. pose proof (N _ E6) as N6. pose proof (N _ E7) as N7.
  pose proof (N _ E8) as N8. pose proof (N _ E9) as N9. pose proof (N _ E10) as N10.
  set (k1 := / ((1 + e9) * (1 + e10))). set (k2 := (1 + e4) * / ((1 + e6) * (1 + e7))).
  assert (P : forall x y, near (1 * u) x 1 -> near (1 * u) y 1 -> near (21 / 10 * u) (x * y) 1).
  { intros x0 y0 X Y. eapply near_le; [apply (times_u _ _ 1 1); auto; lra|lra]. }
  assert (K1 : near (22 / 10 * u) k1 1).
  { eapply near_le; [apply (inv_u _ (21 / 10)); [lra|apply P; auto]|lra]. }
  assert (K2 : near (34 / 10 * u) k2 1).
  { assert (H : near (22 / 10 * u) (/ ((1 + e6) * (1 + e7))) 1) by (eapply near_le; [apply (inv_u _ (21 / 10)); [lra|apply P; auto]|lra]).
    eapply near_le; [apply (times_u _ _ 1 (22 / 10)); auto; lra|lra]. }
  assert (NZ : forall q, near (22 / 10 * u) q 1 -> q <> 0) by (intros q H; apply near_bounds in H; lra).
  assert (Z9 : 1 + e9 <> 0) by (apply NZ; eapply near_le; [exact N9|lra]).
  assert (Z10 : 1 + e10 <> 0) by (apply NZ; eapply near_le; [exact N10|lra]).
  assert (Z6 : 1 + e6 <> 0) by (apply NZ; eapply near_le; [exact N6|lra]).
  assert (Z7 : 1 + e7 <> 0) by (apply NZ; eapply near_le; [exact N7|lra]).
  assert (Z4 : 1 + e4 <> 0) by (apply NZ; eapply near_le; [exact N4|lra]).
  (* the two equations *)
  assert (Q1 : a * k1 * x + b * (1 + e8) * y = e).
  { unfold x, k1. field. auto. }
  assert (Q2 : (d - l * b * (1 + e3)) * k2 * y = f - l * e * (1 + e5)).
  { assert (W : d - l * b * (1 + e3) <> 0) by (intros W; apply D0; unfold d1; rewrite W; ring).
    unfold k2, y, d1. set (g := d - l * b * (1 + e3)) in *. clearbody g. field. auto. }
  set (k3 := (1 + e1) * (1 + e2) * (1 + e5) * k1).
  set (k4 := (1 + e5) * (1 + e8) - (1 + e3) * k2).
  assert (K3 : near (55 / 10 * u) k3 1).
  { assert (H : near (32 / 10 * u) ((1 + e1) * (1 + e2) * (1 + e5)) 1) by (eapply near_le; [apply (times_u _ _ (21 / 10) 1); auto; lra|lra]).
    eapply near_le; [apply (times_u _ _ (32 / 10) (22 / 10)); auto; lra|lra]. }
  assert (K4 : Rabs k4 <= 67 / 10 * u).
  { assert (H1 := P _ _ N5 N8). assert (H2 : near (45 / 10 * u) ((1 + e3) * k2) 1) by (eapply near_le; [apply (times_u _ _ 1 (34 / 10)); auto; lra|lra]).
    unfold k4. replace ((1 + e5) * (1 + e8) - (1 + e3) * k2) with (((1 + e5) * (1 + e8) - 1) + - ((1 + e3) * k2 - 1)) by ring.
    eapply Rle_trans; [apply Rabs_triang|]. rewrite Rabs_Ropp. unfold near in *. lra. }
  assert (La : Rabs l <= 2).
  { unfold l. replace (c * (1 / a * (1 + e1)) * (1 + e2)) with (c / a * ((1 + e1) * (1 + e2))) by (field; auto). rewrite Rabs_mult.
    replace 2 with (1 * 2) by ring. apply Rmult_le_compat; try apply Rabs_pos.
    - unfold Rdiv. rewrite Rabs_mult, Rabs_inv. pose proof (Rabs_pos_lt _ Na). apply (Rmult_le_reg_r (Rabs a)); auto.
      rewrite Rmult_assoc, Rinv_l by lra. lra.
    - eapply Rle_trans; [apply (near_abs _ 1 _ 1 L12); rewrite Rabs_R1; lra|]. lra. }
  exists (k1 * a), ((1 + e8) * b), (k3 * c), (k2 * d + l * b * k4).
  assert (big : forall k y, 0 <= k -> k <= 10 -> Rabs y <= m -> k * u * Rabs y <= 32 * u * m).
  { intros k y0 K0 K10 Y. pose proof (Rabs_pos y0). assert (u * Rabs y0 <= u * m) by (apply Rmult_le_compat_l; lra).
    assert (0 <= u * Rabs y0) by (apply Rmult_le_pos; lra). rewrite Rmult_assoc.
    apply Rle_trans with (10 * (u * Rabs y0)); [apply Rmult_le_compat_r|]; lra. }
  repeat split.
  - eapply near_le; [apply scale; exact K1|]. apply big; lra.
  - eapply near_le; [apply scale; exact N8|]. apply big; lra.
  - eapply near_le; [apply scale; exact K3|]. apply big; lra.
  - assert (H1 : near (34 / 10 * u * Rabs d) (k2 * d) d) by (apply scale; auto).
    assert (H2 : near (2 * m * (67 / 10 * u)) (l * b * k4) 0).
    { unfold near. rewrite Rminus_0_r. apply abs_prod; auto. apply abs_prod; auto. }
    pose proof (near_add _ _ _ _ _ _ H1 H2) as H. rewrite Rplus_0_r in H. eapply near_le; [exact H|].
    pose proof (Rabs_pos d). assert (u * Rabs d <= u * m) by (apply Rmult_le_compat_l; lra). lra.
  - rewrite <- Q1. ring.
  - assert (El : l * (1 + e5) * (k1 * a) = k3 * c) by (unfold l, k3; field; auto).
    assert (F : f = l * e * (1 + e5) + (d - l * b * (1 + e3)) * k2 * y) by lra.
    rewrite F, <- El. rewrite <- Q1 at 1. unfold k4. ring.
Qed.
Lemma gesv_stable : stable u (f_gesv A).
Proof.
  intros a b c d e f m Ha Hb Hc Hd. unfold f_gesv. destruct (Rltb (Rabs a) (Rabs c)) eqn:E.
  - apply Rltb_iff in E. destruct (eliminate_stable c d a b f e m ltac:(lra) Hc Hd Hb) as (c'&d'&a'&b'&N1&N2&N3&N4&M).
    exists a', b', c', d'. repeat split; auto. destruct (f_eliminate A c d a b f e) as [(x&y)|].
    + destruct M. split; lra.
    + lra.
  - apply Rltb_iff_false in E. apply eliminate_stable; auto.
Qed.
End Elimination.

(** ** Lines *)
Lemma abs3 a b c : Rabs (a + b + c) <= Rabs a + Rabs b + Rabs c.
Proof. eapply Rle_trans; [apply Rabs_triang|]. apply Rplus_le_compat_r, Rabs_triang. Qed.
Lemma dot_below a b L M : below3 L a -> below3 M b -> Rabs (rdot a b) <= 3 * (L * M).
Proof.
  intros (A1&A2&A3) (B1&B2&B3). unfold rdot. pose proof (abs_prod _ _ _ _ A1 B1). pose proof (abs_prod _ _ _ _ A2 B2).
  pose proof (abs_prod _ _ _ _ A3 B3). eapply Rle_trans; [apply abs3|]. lra.
Qed.
Lemma lagrange a b : rdot (rcross a b) (rcross a b) = rdot a a * rdot b b - rdot a b * rdot a b.
Proof. unfold rdot, rcross. cbn [cx cy cz]. ring. Qed.
Lemma cross_below a b L : 0 <= L -> below3 L a -> below3 L b -> rdot (rcross a b) (rcross a b) <= 9 * L ^ 4.
Proof.
  intros PL HA HB. rewrite lagrange. pose proof (dot_below _ _ _ _ HA HA) as H1. pose proof (dot_below _ _ _ _ HB HB) as H2.
  assert (P1 : 0 <= rdot a a) by (unfold rdot; nra). assert (P2 : 0 <= rdot b b) by (unfold rdot; nra).
  rewrite Rabs_right in H1, H2 by lra. assert (0 <= rdot a b * rdot a b) by nra.
  assert (rdot a a * rdot b b <= 3 * (L * L) * (3 * (L * L))) by (apply Rmult_le_compat; auto).
  replace (9 * L ^ 4) with (3 * (L * L) * (3 * (L * L))) by ring. lra.
Qed.
(** Cramer's rule with errors: [r] bounds the right hand sides *)
Lemma cramer a b c x y r1 r2 K r : a * x - b * y = r1 -> b * x - c * y = r2 ->
  Rabs a <= K -> Rabs b <= K -> Rabs c <= K -> Rabs r1 <= r -> Rabs r2 <= r ->
  (a * c - b * b) * Rabs x <= 2 * K * r /\ (a * c - b * b) * Rabs y <= 2 * K * r.
Proof.
  intros E1 E2 HA HB HC H1 H2.
  assert (X : (a * c - b * b) * x = c * r1 - b * r2) by (rewrite <- E1, <- E2; ring).
  assert (Y : (a * c - b * b) * y = b * r1 - a * r2) by (rewrite <- E1, <- E2; ring).
  assert (T : forall p q, Rabs p <= K -> Rabs q <= K -> Rabs (p * r1 - q * r2) <= 2 * K * r).
  { intros p q P Q. pose proof (abs_prod _ _ _ _ P H1). pose proof (abs_prod _ _ _ _ Q H2).
    eapply Rle_trans; [apply (Rabs_triang (p * r1) (- (q * r2)))|]. rewrite Rabs_Ropp. lra. }
  assert (S : forall k z, k * Rabs z <= Rabs (k * z)).
  { intros k z. rewrite Rabs_mult. apply Rmult_le_compat_r; [apply Rabs_pos|apply Rle_abs]. }
  split; (eapply Rle_trans; [apply S|]); [rewrite X|rewrite Y]; apply T; auto.
Qed.

Section Lines.
Context (u : R) (A : floats) (solve : solver) (HA : accurate u A) (HS : stable u solve).
Notation fl := (f_round A).
(** [L] bounds the coordinates of the directions, the point [X] is within [g] of both lines at the parameters [s] and
    [t], [D] bounds these; [sg] is the squared sine of the angle between the lines, times the squared lengths. *)
Context (L g D s t : R) (p1 v1 p2 v2 X : v3 R).
Hypotheses (PL : 0 <= L) (Pg : 0 <= g) (B1 : below3 L v1) (B2 : below3 L v2) (Hs : Rabs s <= D) (Ht : Rabs t <= D)
  (X1 : near3 g (rv_add p1 (rv_scale s v1)) X) (X2 : near3 g (rv_add p2 (rv_scale t v2)) X).
Let sg := rdot (rcross v1 v2) (rcross v1 v2).
Hypotheses (Psg : 0 < sg) (Big : 4000 * u * L ^ 4 <= sg).
Lemma D_pos : 0 <= D. Proof. eapply Rle_trans; [apply Rabs_pos|exact Hs]. Qed.
(** the connection of the two origins *)
Let h := rv_sub (rv_add p1 (rv_scale s v1)) (rv_add p2 (rv_scale t v2)).
Lemma h_below : below3 (2 * g) h.
Proof.
  destruct X1 as (a1&a2&a3). destruct X2 as (b1&b2&b3). unfold h.
  assert (T : forall a b x, near g a x -> near g b x -> Rabs (a - b) <= 2 * g).
  { intros a b x Ha Hb. unfold near in *. replace (a - b) with ((a - x) + - (b - x)) by ring. eapply Rle_trans; [apply Rabs_triang|]. rewrite Rabs_Ropp. lra. }
  split; [|split]; cbn [rv_sub zip3v cx cy cz]; eapply T; eauto.
Qed.
Lemma w_below : below3 (2 * (L * D) + 2 * g) (rv_sub p1 p2).
Proof.
  pose proof h_below as (H1&H2&H3). destruct B1 as (V1&V2&V3). destruct B2 as (W1&W2&W3). unfold h in *.
  cbn [rv_sub rv_add rv_scale map3v zip3v cx cy cz] in *.
  assert (T : forall a b x y, Rabs (a + s * x - (b + t * y)) <= 2 * g -> Rabs x <= L -> Rabs y <= L -> Rabs (a - b) <= 2 * (L * D) + 2 * g).
  { intros a b x y H Hx Hy. replace (a - b) with ((a + s * x - (b + t * y)) + - (s * x) + t * y) by ring.
    eapply Rle_trans; [apply abs3|]. rewrite Rabs_Ropp. pose proof (abs_prod _ _ _ _ Hs Hx). pose proof (abs_prod _ _ _ _ Ht Hy). lra. }
  split; [|split]; cbn [rv_sub zip3v cx cy cz]; eapply T; eauto.
Qed.
Lemma dots a b : below3 L a -> below3 L b -> near (12 * u * L ^ 2) (f_dot A a b) (rdot a b) /\ Rabs (rdot a b) <= 3 * L ^ 2 /\ Rabs (f_dot A a b) <= 4 * L ^ 2.
Proof.
  intros Ha Hb. pose proof (u_range u A HA) as U. pose proof (dot_below _ _ _ _ Ha Hb) as Q.
  assert (N : near (12 * u * L ^ 2) (f_dot A a b) (rdot a b)).
  { unfold near. destruct HA as (_&_&_&_&_&HD). eapply Rle_trans; [apply HD|].
    destruct Ha as (A1&A2&A3). destruct Hb as (C1&C2&C3). pose proof (abs_prod _ _ _ _ A1 C1). pose proof (abs_prod _ _ _ _ A2 C2).
    pose proof (abs_prod _ _ _ _ A3 C3). replace (12 * u * L ^ 2) with (4 * u * (3 * (L * L))) by ring. apply Rmult_le_compat_l; lra. }
  assert (P2 : 0 <= L ^ 2) by nra. replace (L * L) with (L ^ 2) in Q by ring. split; [exact N|split; [lra|]].
  eapply Rle_trans; [apply (near_abs _ _ _ _ N Q)|]. assert (u * L ^ 2 <= / 1000000 * L ^ 2) by (apply Rmult_le_compat_r; lra). lra.
Qed.
Lemma rhs_near v : below3 L v -> near (100 * u * L * (L * D + g)) (f_dot A v (zip3v (fun a b => fl (a - b)) p1 p2)) (rdot v (rv_sub p1 p2)).
Proof.
  intros Hv. pose proof (u_range u A HA) as U. pose proof (uu u A HA) as UU. pose proof w_below as Hw. set (W := 2 * (L * D) + 2 * g) in *.
  pose proof D_pos as PD. assert (PW : 0 <= W) by (unfold W; assert (0 <= L * D) by (apply Rmult_le_pos; auto); lra).
  assert (Nw : near3 (u * W) (zip3v (fun a b => fl (a - b)) p1 p2) (rv_sub p1 p2)).
  { destruct Hw as (W1&W2&W3). nsplit; cbn [zip3v rv_sub cx cy cz] in *; (eapply near_le; [apply (fl_near u A HA)|apply Rmult_le_compat_l; lra]). }
  eapply near_le; [apply (dot_near u A HA v (rv_sub p1 p2) v _ 0 (u * W) L W)|]; auto; try lra.
  - unfold near3. repeat split; apply near_refl.
  - apply Rmult_le_pos; lra.
  - replace (3 * (0 * W + L * (u * W) + 0 * (u * W)) + 12 * u * ((L + 0) * (W + u * W))) with ((15 * u + 12 * (u * u)) * (L * W)) by ring.
    replace (100 * u * L * (L * D + g)) with (50 * u * (L * W)) by (unfold W; ring).
    apply Rmult_le_compat_r; [apply Rmult_le_pos; auto|lra].
Qed.
(** the exact parameters solve the exact system up to [h] *)
Lemma exact_system : rdot v1 v1 * s - rdot v1 v2 * t = - rdot v1 (rv_sub p1 p2) + rdot v1 h /\
  rdot v1 v2 * s - rdot v2 v2 * t = - rdot v2 (rv_sub p1 p2) + rdot v2 h.
Proof. unfold h, rdot. cbn [rv_sub rv_add rv_scale map3v zip3v cx cy cz]. split; ring. Qed.
(** the computed parameters *)
Lemma solved : exists s' t', solve (f_dot A v1 v1) (- f_dot A v2 v1) (f_dot A v1 v2) (- f_dot A v2 v2)
    (- f_dot A v1 (zip3v (fun a b => fl (a - b)) p1 p2)) (- f_dot A v2 (zip3v (fun a b => fl (a - b)) p1 p2)) = Some (s', t') /\
  near ((80 * L ^ 3 * g + 5000 * u * L ^ 4 * D) / sg) s' s /\ near ((80 * L ^ 3 * g + 5000 * u * L ^ 4 * D) / sg) t' t.
Proof.
  pose proof (u_range u A HA) as U. pose proof D_pos as PD.
  destruct (dots v1 v1 B1 B1) as (N11&M11&K11). destruct (dots v2 v1 B2 B1) as (N21&M21&K21).
  destruct (dots v1 v2 B1 B2) as (N12&M12&K12). destruct (dots v2 v2 B2 B2) as (N22&M22&K22).
  pose proof (rhs_near v1 B1) as R1. pose proof (rhs_near v2 B2) as R2.
  set (e := f_dot A v1 (zip3v (fun a b => fl (a - b)) p1 p2)) in *. set (f := f_dot A v2 (zip3v (fun a b => fl (a - b)) p1 p2)) in *.
  destruct (HS (f_dot A v1 v1) (- f_dot A v2 v1) (f_dot A v1 v2) (- f_dot A v2 v2) (- e) (- f) (4 * L ^ 2)) as (a'&b'&c'&d'&Na&Nb&Nc&Nd&M);
    [auto|rewrite Rabs_Ropp; auto|auto|rewrite Rabs_Ropp; auto|].
  assert (P2 : 0 <= L ^ 2) by nra.
  set (eps := 140 * u * L ^ 2). assert (Pe : 0 <= eps) by (unfold eps; apply Rmult_le_pos; lra).
  assert (J : forall x' x y, near (32 * u * (4 * L ^ 2)) x' x -> near (12 * u * L ^ 2) x y -> near eps x' y).
  { intros x' x y H1 H2. eapply near_le; [eapply near_trans; eauto|]. unfold eps. lra. }
  assert (Ja := J _ _ _ Na N11). assert (Jb := J _ _ _ Nb (near_opp _ _ _ N21)). assert (Jc := J _ _ _ Nc N12). assert (Jd := J _ _ _ Nd (near_opp _ _ _ N22)).
  rewrite (rdot_sym v2 v1) in Jb. destruct exact_system as (E1&E2).
  assert (Hh1 : Rabs (rdot v1 h) <= 6 * (L * g)) by (eapply Rle_trans; [apply (dot_below _ _ _ _ B1 h_below)|lra]).
  assert (Hh2 : Rabs (rdot v2 h) <= 6 * (L * g)) by (eapply Rle_trans; [apply (dot_below _ _ _ _ B2 h_below)|lra]).
  set (a := rdot v1 v1) in *. set (b := rdot v1 v2) in *. set (c := rdot v2 v2) in *.
  assert (SG : sg = a * c - b * b) by (unfold sg; apply lagrange).
  assert (L4 : L ^ 4 = L ^ 2 * L ^ 2) by ring. assert (P4 : 0 <= L ^ 4) by (rewrite L4; apply Rmult_le_pos; auto).
  assert (EL : eps * L ^ 2 = 140 * u * L ^ 4) by (unfold eps; rewrite L4; ring).
  assert (uL4 : 0 <= u * L ^ 4) by (apply Rmult_le_pos; lra).
  destruct (solve _ _ _ _ _ _) as [(s'&t')|] eqn:ES.
  - exists s', t'. split; [reflexivity|]. destruct M as (Q1&Q2).
    set (E := Rmax (Rabs (s' - s)) (Rabs (t' - t))).
    assert (Es : Rabs (s' - s) <= E) by apply Rmax_l. assert (Et : Rabs (t' - t) <= E) by apply Rmax_r.
    assert (PE : 0 <= E) by (eapply Rle_trans; [apply Rabs_pos|exact Es]).
    assert (Ss : Rabs s' <= D + E) by (replace s' with (s + (s' - s)) by ring; eapply Rle_trans; [apply Rabs_triang|]; lra).
    assert (Tt : Rabs t' <= D + E) by (replace t' with (t + (t' - t)) by ring; eapply Rle_trans; [apply Rabs_triang|]; lra).
    set (r := 100 * u * L * (L * D + g) + 6 * (L * g) + 2 * (eps * (D + E))).
    assert (res : forall v x y x' y' w' k, near eps x' x -> near eps y' y -> x * s + y * t = - rdot v (rv_sub p1 p2) + k -> Rabs k <= 6 * (L * g) ->
       x' * s' + y' * t' = - w' -> near (100 * u * L * (L * D + g)) w' (rdot v (rv_sub p1 p2)) -> Rabs (x * (s' - s) + y * (t' - t)) <= r).
    { intros v x y x' y' w' k HX HY Q K Q' W.
      replace (x * (s' - s) + y * (t' - t)) with (- (w' - rdot v (rv_sub p1 p2)) + - k + - ((x' - x) * s' + (y' - y) * t'))
        by (assert (x * s' + y * t' = - w' - ((x' - x) * s' + (y' - y) * t')) by (rewrite <- Q'; ring); lra).
      eapply Rle_trans; [apply abs3|]. rewrite !Rabs_Ropp. unfold near in *. pose proof (abs_prod _ _ _ _ HX Ss). pose proof (abs_prod _ _ _ _ HY Tt).
      pose proof (Rabs_triang ((x' - x) * s') ((y' - y) * t')). unfold r. lra. }
    assert (r1 := res v1 a (- b) a' b' e (rdot v1 h) Ja Jb ltac:(lra) Hh1 Q1 R1).
    assert (r2 := res v2 b (- c) c' d' f (rdot v2 h) Jc Jd ltac:(lra) Hh2 Q2 R2).
    destruct (cramer a b c (s' - s) (t' - t) _ _ (3 * L ^ 2) r eq_refl eq_refl M11 M12 M22) as (C1&C2).
    { replace (a * (s' - s) - b * (t' - t)) with (a * (s' - s) + - b * (t' - t)) by ring. exact r1. }
    { replace (b * (s' - s) - c * (t' - t)) with (b * (s' - s) + - c * (t' - t)) by ring. exact r2. }
    rewrite <- SG in C1, C2.
    assert (CE : sg * E <= 2 * (3 * L ^ 2) * r) by (unfold E; destruct (Rmax_case_strong (Rabs (s' - s)) (Rabs (t' - t)) (fun z => sg * z <= 2 * (3 * L ^ 2) * r)); auto; unfold Rmax in *; destruct (Rle_dec _ _); auto).
    assert (Fin : sg * E <= 80 * L ^ 3 * g + 5000 * u * L ^ 4 * D).
    { assert (EQ : 2 * (3 * L ^ 2) * r = 600 * (u * L ^ 4 * D) + 600 * (u * (L ^ 3 * g)) + 36 * (L ^ 3 * g) + 1680 * (u * L ^ 4) * (D + E)).
      { unfold r, eps. ring. }
      assert (P3g : 0 <= L ^ 3 * g) by (apply Rmult_le_pos; [apply pow_le; auto|auto]).
      assert (u * (L ^ 3 * g) <= / 1000000 * (L ^ 3 * g)) by (apply Rmult_le_compat_r; lra).
      assert (uLD : 0 <= u * L ^ 4 * D) by (apply Rmult_le_pos; auto).
      assert (H4 : 4000 * (u * L ^ 4) * E <= sg * E) by (apply Rmult_le_compat_r; lra).
      rewrite EQ in CE. lra. }
    assert (EF : E <= (80 * L ^ 3 * g + 5000 * u * L ^ 4 * D) / sg).
    { apply (Rmult_le_reg_l sg); auto. replace (sg * ((80 * L ^ 3 * g + 5000 * u * L ^ 4 * D) / sg)) with (80 * L ^ 3 * g + 5000 * u * L ^ 4 * D) by (field; lra). exact Fin. }
    unfold near. split; lra.
  - exfalso.
    assert (dd : Rabs (a' * d' - a * - c) <= 840 * u * L ^ 4 + eps * eps /\ Rabs (b' * c' - - b * b) <= 840 * u * L ^ 4 + eps * eps).
    { assert (E3 : eps * (3 * L ^ 2) + 3 * L ^ 2 * eps + eps * eps = 840 * u * L ^ 4 + eps * eps) by (unfold eps; rewrite L4; ring).
      rewrite <- E3. split; [apply (near_mul a (- c) a' d' eps eps _ _ Ja Jd)|apply (near_mul (- b) b b' c' eps eps _ _ Jb Jc)]; rewrite ?Rabs_Ropp; auto. }
    destruct dd as (d1&d2). assert (ee : eps * eps <= / 40 * (u * L ^ 4)).
    { unfold eps. replace (140 * u * L ^ 2 * (140 * u * L ^ 2)) with (19600 * u * (u * L ^ 4)) by ring. apply Rmult_le_compat_r; lra. }
    apply (near_bounds _ (a' * d') (a * - c)) in d1. apply (near_bounds _ (b' * c') (- b * b)) in d2.
    assert (sg <= 1690 * (u * L ^ 4)) by lra. assert (u * L ^ 4 <= 0) by lra. lra.
Qed.
(** [B] bounds the coordinates of [X] *)
Lemma lines_near B : below3 B X -> exists x, f_lines A solve p1 v1 p2 v2 = Some x /\
  near3 ((100 * L ^ 4 * g + 6000 * u * L ^ 5 * D) / sg + 4 * u * B) x X.
Proof.
  intros HB. pose proof (u_range u A HA) as U. pose proof D_pos as PD. destruct solved as (s'&t'&ES&Ns&Nt).
  unfold f_lines. rewrite ES. eexists. split; [reflexivity|].
  set (E := (80 * L ^ 3 * g + 5000 * u * L ^ 4 * D) / sg) in *.
  assert (P3 : 0 <= L ^ 3) by (apply pow_le; auto). assert (P4 : 0 <= L ^ 4) by (apply pow_le; auto). assert (P5 : 0 <= L ^ 5) by (apply pow_le; auto).
  assert (Pi : 0 < / sg) by (apply Rinv_0_lt_compat; auto).
  assert (PB : 0 <= B) by (destruct HB as (H&_); eapply Rle_trans; [apply Rabs_pos|exact H]).
  assert (N1 : 0 <= L ^ 3 * g) by (apply Rmult_le_pos; auto). assert (N2 : 0 <= u * L ^ 4 * D) by (apply Rmult_le_pos; [apply Rmult_le_pos; lra|auto]).
  assert (PE : 0 <= E) by (unfold E; apply Rmult_le_pos; lra).
  pose proof (cross_below _ _ _ PL B1 B2) as SB. fold sg in SB.
  assert (one : 1 <= 9 * L ^ 4 * / sg) by (apply (Rmult_le_reg_r sg); auto; rewrite Rmult_assoc, Rinv_l by lra; lra).
  set (k := L ^ 4 * / sg) in *. assert (Pk : 0 <= k) by (unfold k; apply Rmult_le_pos; lra). assert (one' : 1 <= 9 * k) by (unfold k; lra).
  assert (EL : E * L = 80 * (k * g) + 5000 * (u * (k * (L * D)))) by (unfold E, k; field; lra).
  assert (Gb : g <= 9 * (k * g)) by nra. assert (PLD : 0 <= L * D) by (apply Rmult_le_pos; auto).
  assert (LDb : L * D <= 9 * (k * (L * D))) by nra.
  assert (kg : 0 <= k * g) by (apply Rmult_le_pos; auto). assert (kd : 0 <= k * (L * D)) by (apply Rmult_le_pos; auto).
  set (G := 100 * (k * g) + 6000 * (u * (k * (L * D)))).
  replace ((100 * L ^ 4 * g + 6000 * u * L ^ 5 * D) / sg) with G by (unfold G, k; field; lra).
  assert (ukd : 0 <= u * (k * (L * D))) by (apply Rmult_le_pos; lra). assert (uB : 0 <= u * B) by (apply Rmult_le_pos; lra).
  (* one point of one line *)
  set (e1 := 90 * (k * g) + 5020 * (u * (k * (L * D))) + u * B).
  assert (pt : forall (q z z' p v x : R), Rabs z <= D -> near E z' z -> Rabs v <= L -> near g (p + z * v) x -> Rabs x <= B -> near e1 (fl (p + fl (z' * v))) x).
  { intros q z z' p v x Hz Nz Hv Nx Hx.
    assert (M : near (E * L) (z' * v) (z * v)).
    { unfold near in *. replace (z' * v - z * v) with ((z' - z) * v) by ring. apply abs_prod; auto. }
    assert (Mz := abs_prod _ _ _ _ Hz Hv). assert (Mz' := near_abs _ _ _ _ M Mz).
    pose proof (fl_near u A HA (z' * v)) as F. assert (F' : near (u * (D * L + E * L)) (fl (z' * v)) (z' * v)) by (eapply near_le; [exact F|apply Rmult_le_compat_l; lra]).
    assert (S : near (u * (D * L + E * L) + E * L + g) (p + fl (z' * v)) x).
    { eapply near_trans; [|exact Nx]. unfold near in *. replace (p + fl (z' * v) - (p + z * v)) with ((fl (z' * v) - z' * v) + (z' * v - z * v)) by ring.
      eapply Rle_trans; [apply Rabs_triang|]. lra. }
    set (m := u * (D * L + E * L) + E * L + g) in *. assert (Ms := near_abs _ _ _ _ S Hx).
    eapply near_le; [eapply near_trans; [apply (fl_near u A HA)|exact S]|].
    assert (u * Rabs (p + fl (z' * v)) <= u * (B + m)) by (apply Rmult_le_compat_l; lra).
    assert (EL0 : 0 <= E * L) by (apply Rmult_le_pos; auto).
    assert (u * (E * L) <= / 1000000 * (E * L)) by (apply Rmult_le_compat_r; lra).
    assert (uld : 0 <= u * (L * D) <= u * (9 * (k * (L * D)))) by (split; [apply Rmult_le_pos; lra|apply Rmult_le_compat_l; lra]).
    assert (m <= 9 * (u * (k * (L * D))) + E * L + / 1000000 * (E * L) + 9 * (k * g)) by (unfold m; lra).
    assert (0 <= m) by (unfold m; assert (0 <= u * (D * L + E * L)) by (apply Rmult_le_pos; lra); lra).
    assert (u * m <= / 1000000 * m) by (apply Rmult_le_compat_r; lra). unfold e1. lra. }
  destruct B1 as (V1&V2&V3). destruct B2 as (W1&W2&W3). destruct X1 as (a1&a2&a3). destruct X2 as (b1&b2&b3). destruct HB as (h1&h2&h3).
  cbn [rv_add rv_scale map3v zip3v cx cy cz] in *.
  assert (mean : forall a b x, near e1 a x -> near e1 b x -> Rabs x <= B -> near (G + 4 * u * B) (fl (fl (a + b) / 2)) x).
  { intros a b x Na Nb Hx. destruct (fl_rel u A HA (a + b)) as (f1&F1&->). destruct (fl_rel u A HA ((a + b) * (1 + f1) / 2)) as (f2&F2&->).
    destruct (prod2 u A HA f1 f2 F1 F2) as (f3&F3&EF). replace ((a + b) * (1 + f1) / 2 * (1 + f2)) with ((a + b) / 2 * (1 + f3)) by (rewrite <- EF; field).
    assert (M : near e1 ((a + b) / 2) x).
    { unfold near in *. replace ((a + b) / 2 - x) with (/ 2 * ((a - x) + (b - x))) by field. rewrite Rabs_mult, (Rabs_right (/ 2)) by lra.
      pose proof (Rabs_triang (a - x) (b - x)). lra. }
    pose proof (near_abs _ _ _ _ M Hx) as Mm. unfold near in *.
    replace ((a + b) / 2 * (1 + f3) - x) with (((a + b) / 2 - x) + f3 * ((a + b) / 2)) by ring.
    eapply Rle_trans; [apply Rabs_triang|]. pose proof (abs_prod _ _ _ _ F3 Mm).
    assert (Pe1 : 0 <= e1) by (unfold e1; lra). assert ((2 * u + u * / 1000000) * e1 <= / 1000 * e1) by (apply Rmult_le_compat_r; lra).
    assert ((2 * u + u * / 1000000) * B <= 21 / 10 * u * B) by (apply Rmult_le_compat_r; lra).
    unfold G. unfold e1 in *. lra. }
  split; [|split]; cbn [zip3v cx cy cz]; apply mean; auto; (eapply (pt 0); [| |eassumption|eassumption|assumption]); eassumption.
Qed.
End Lines.

(** ** Two cameras *)
Lemma seen_ray c r o p P rho : plain_cam c Rectilinear r o -> rep3 p P -> showable Rectilinear (cam_coords o P) -> within rho o P -> 1 <= rho ->
  0 < depth o P /\ rv_sub P (opos o) = rv_scale (depth o P) (sight o P) /\ rdot (sight o P) (sight o P) <= 3 * (rho * rho) /\
  exists Q, rep2 (imageFromSpace c p true) Q /\ rm_mul_v (rm_trans (camM o)) (rayR Rectilinear r Q) = sight o P /\ below3 rho (rayR Rectilinear r Q).
Proof.
  intros HC Hp HS (W1&W2) R1. destruct (plain_good _ _ _ _ HC) as (HG&HK&HDi&HU).
  destruct (ifs_spec c r (camM o) (opos o) p P true HG Hp) as (x&Q&Ex&Rx&Hh&_&(l&Hl&E)).
  { rewrite HK; exact HS. }
  assert (OM : orthonormal (camM o)) by (apply rotm_rows). unfold dirW in E. rewrite HK in E.
  assert (EC : cam_coords o P = rv_scale l (rayR Rectilinear r Q)).
  { unfold cam_coords. rewrite E. transitivity (rv_scale l (rm_mul_v (camM o) (rm_mul_v (rm_trans (camM o)) (rayR Rectilinear r Q)))).
    - apply v3_ext; unfold rm_mul_v, rdot; cbn [rv_scale map3v cx cy cz]; ring.
    - rewrite mul_trans; auto. }
  assert (ED : depth o P = l).
  { unfold depth. rewrite EC. unfold rayR. cbn [rv_scale map3v cx cy cz]. ring. }
  assert (ES : sight o P = rm_mul_v (rm_trans (camM o)) (rayR Rectilinear r Q)).
  { unfold sight. rewrite ED, E. apply v3_ext; cbn [rv_scale map3v cx cy cz]; field; lra. }
  assert (HB : below3 rho (rayR Rectilinear r Q)).
  { rewrite ED, EC in *. unfold below3. cbn [rv_scale map3v cx cy cz] in *. rewrite Rabs_mult, (Rabs_right l) in W1, W2 by lra.
    split; [|split].
    - apply (Rmult_le_reg_l l); lra.
    - apply (Rmult_le_reg_l l); lra.
    - unfold rayR. cbn [cz]. rewrite Rabs_left; lra. }
  rewrite ED. split; [exact Hl|]. split; [rewrite ES; exact E|]. split.
  - rewrite ES, aim_norm_M by exact OM. destruct HB as (b1&b2&b3).
    pose proof (abs_prod _ _ _ _ b1 b1) as K1. pose proof (abs_prod _ _ _ _ b2 b2) as K2. pose proof (abs_prod _ _ _ _ b3 b3) as K3.
    pose proof (Rle_abs (cx (rayR Rectilinear r Q) * cx (rayR Rectilinear r Q))). pose proof (Rle_abs (cy (rayR Rectilinear r Q) * cy (rayR Rectilinear r Q))).
    pose proof (Rle_abs (cz (rayR Rectilinear r Q) * cz (rayR Rectilinear r Q))). unfold rdot. lra.
  - exists Q. split; [rewrite Ex, HDi; exact Rx|]. auto.
Qed.
Lemma norm_below v rho : 0 <= rho -> rdot v v <= 3 * (rho * rho) -> below3 (174 / 100 * rho) v.
Proof.
  intros Hr H. unfold rdot in H. pose proof (Rle_0_sqr (cx v)) as X. pose proof (Rle_0_sqr (cy v)) as Y. pose proof (Rle_0_sqr (cz v)) as Z. unfold Rsqr in *.
  assert (T : forall x, x * x <= 3 * (rho * rho) -> Rabs x <= 174 / 100 * rho).
  { intros x Hx. apply Rsqr_incr_0_var; [|lra]. rewrite <- Rsqr_abs. unfold Rsqr. nra. }
  split; [|split]; apply T; lra.
Qed.
(** changing the two directions a little *)
Lemma cross_near a b a' b' rho e : 1 <= rho -> 0 <= e <= 152 / 1000 * rho -> below3 (174 / 100 * rho) a -> below3 (174 / 100 * rho) b -> near3 e a' a -> near3 e b' b ->
  rdot (rcross a b) (rcross a b) / 2 - 192 * (rho * rho * (e * e)) <= rdot (rcross a' b') (rcross a' b').
Proof.
  intros R1 He (A1&A2&A3) (B1&B2&B3) (a1&a2&a3) (b1&b2&b3).
  assert (P : forall x y x' y', Rabs x <= 174 / 100 * rho -> Rabs y <= 174 / 100 * rho -> near e x' x -> near e y' y -> near (4 * (rho * e)) (x' * y') (x * y)).
  { intros x y x' y' X Y nx ny. eapply near_le; [apply (near_mul x y x' y' e e _ _ nx ny X Y)|]. nra. }
  assert (Q : forall x y z w x' y' z' w', near (4 * (rho * e)) (x' * y') (x * y) -> near (4 * (rho * e)) (z' * w') (z * w) ->
     (x * y - z * w) * (x * y - z * w) / 2 - 64 * (rho * rho * (e * e)) <= (x' * y' - z' * w') * (x' * y' - z' * w')).
  { intros x y z w x' y' z' w' H1 H2.
    assert (D : Rabs ((x' * y' - z' * w') - (x * y - z * w)) <= 8 * (rho * e)).
    { unfold near in *. replace (x' * y' - z' * w' - (x * y - z * w)) with ((x' * y' - x * y) + - (z' * w' - z * w)) by ring.
      eapply Rle_trans; [apply Rabs_triang|]. rewrite Rabs_Ropp. lra. }
    set (c := x * y - z * w) in *. set (c' := x' * y' - z' * w') in *. pose proof (abs_prod _ _ _ _ D D) as S.
    pose proof (Rle_abs ((c' - c) * (c' - c))). assert (0 <= (2 * c' - c) * (2 * c' - c)) by apply Rle_0_sqr.
    replace (64 * (rho * rho * (e * e))) with (8 * (rho * e) * (8 * (rho * e))) by ring.
    assert (0 <= (c' - (c' - c) - c) * (c' - (c' - c) - c)) by apply Rle_0_sqr. nra. }
  unfold rdot, rcross. cbn [cx cy cz].
  pose proof (Q _ _ _ _ _ _ _ _ (P _ _ _ _ A2 B3 a2 b3) (P _ _ _ _ A3 B2 a3 b2)).
  pose proof (Q _ _ _ _ _ _ _ _ (P _ _ _ _ A3 B1 a3 b1) (P _ _ _ _ A1 B3 a1 b3)).
  pose proof (Q _ _ _ _ _ _ _ _ (P _ _ _ _ A1 B2 a1 b2) (P _ _ _ _ A2 B1 a2 b1)). lra.
Qed.

(** ** Theorems *)
(** Gaussian elimination with row interchanges, as LAPACK does it, is backward stable. *)
Theorem C91_solver : forall u A, accurate u A -> stable u (f_gesv A).
Proof. intros u A HA. apply gesv_stable; auto. Qed.

(** The point computed from the two exact pixels of a point, by any backward stable solver, is close to it, if the lines
    of sight are not nearly parallel. *)
Theorem C91_triangulation : forall u A solve a b ra rb oa ob ma mb p P rho D B, accurate u A -> stable u solve ->
  plain_cam a Rectilinear ra oa -> plain_cam b Rectilinear rb ob -> one_turn oa -> one_turn ob -> inverse_ok u A oa ma -> inverse_ok u A ob mb ->
  rep3 p P -> showable Rectilinear (cam_coords oa P) -> showable Rectilinear (cam_coords ob P) ->
  1 <= rho -> within rho oa P -> within rho ob P -> depth oa P <= D -> depth ob P <= D -> below3 B P ->
  0 < crossing oa ob P -> 100000000 * u * rho ^ 4 <= crossing oa ob P ->
  exists Qa Qb x y, rep2 (imageFromSpace a p true) Qa /\ rep2 (imageFromSpace b p true) Qb /\
    spaceFromImages (cons a (cons b nil)) (imageFromSpace a p true) (imageFromSpace b p true) = Some y /\ rep3 y P /\
    f_spaceFromImages A solve ma mb ra rb oa ob Qa Qb = Some x /\
    near3 (u * rho ^ 4 * (1000000000 * rho * D + 7000 * B) / crossing oa ob P) x P.
Proof.
  intros u A solve a b ra rb oa ob ma mb p P rho D B HA HS Ha Hb Oa Ob Ia Ib Hp Sa Sb R1 Wa Wb Da Db HB Pc Bc.
  pose proof (u_range u A HA) as U.
  destruct (seen_ray _ _ _ _ _ _ Ha Hp Sa Wa R1) as (da&Ea&Na&Qa&Pa&Ra&La).
  destruct (seen_ray _ _ _ _ _ _ Hb Hp Sb Wb R1) as (db&Eb&Nb&Qb&Pb&Rb&Lb).
  assert (Fa : foc_ok ra) by (destruct (plain_good _ _ _ _ Ha) as ((_&F&_)&_); exact F).
  assert (Fb : foc_ok rb) by (destruct (plain_good _ _ _ _ Hb) as ((_&F&_)&_); exact F).
  pose proof (direction_near u A HA oa ma ra Qa rho Oa Ia Fa La) as Va. pose proof (direction_near u A HA ob mb rb Qb rho Ob Ib Fb Lb) as Vb.
  rewrite Ra in Va. rewrite Rb in Vb.
  pose proof (norm_below _ rho ltac:(lra) Na) as Ba. pose proof (norm_below _ rho ltac:(lra) Nb) as Bb.
  set (e := 152000 * u * rho) in *. set (sg := crossing oa ob P) in *.
  assert (urho : u * rho <= / 1000000 * rho) by (apply Rmult_le_compat_r; lra). assert (urho0 : 0 <= u * rho) by (apply Rmult_le_pos; lra).
  assert (He : 0 <= e <= 152 / 1000 * rho) by (unfold e; lra).
  pose proof (cross_near _ _ _ _ rho e R1 He Ba Bb Va Vb) as CN. change (rdot (rcross (sight oa P) (sight ob P)) (rcross (sight oa P) (sight ob P))) with sg in CN.
  set (va := f_direction A ma ra Qa) in *. set (vb := f_direction A mb rb Qb) in *. set (sg' := rdot (rcross va vb) (rcross va vb)) in *.
  assert (r4 : 0 <= rho ^ 4) by (apply pow_le; lra). assert (ur4 : 0 <= u * rho ^ 4) by (apply Rmult_le_pos; lra).
  assert (S4 : sg / 4 <= sg').
  { assert (192 * (rho * rho * (e * e)) <= 5000000 * (u * rho ^ 4)).
    { replace (192 * (rho * rho * (e * e))) with (4435968000000 * u * (u * rho ^ 4)) by (unfold e; ring). apply Rmult_le_compat_r; lra. }
    lra. }
  assert (BL : forall v v', below3 (174 / 100 * rho) v -> near3 e v' v -> below3 (2 * rho) v').
  { intros v v' (h1&h2&h3) (n1&n2&n3). split; [|split]; (eapply Rle_trans; [eapply near_abs; eassumption|lra]). }
  pose proof (BL _ _ Ba Va) as La'. pose proof (BL _ _ Bb Vb) as Lb'.
  assert (PD : 0 < D) by lra. assert (PB : 0 <= B) by (destruct HB as (H&_); eapply Rle_trans; [apply Rabs_pos|exact H]).
  set (g := D * e + u * (B + 2 * (rho * D))). assert (rD : 0 < rho * D) by (apply Rmult_lt_0_compat; lra).
  assert (Pg : 0 <= g) by (unfold g; assert (0 <= D * e) by (apply Rmult_le_pos; lra); assert (0 <= u * (B + 2 * (rho * D))) by (apply Rmult_le_pos; lra); lra).
  assert (PT : forall o m v d, d = depth o P -> 0 < d <= D -> rv_sub P (opos o) = rv_scale d (sight o P) -> below3 (174 / 100 * rho) (sight o P) -> near3 e v (sight o P) ->
      near3 g (rv_add (f_origin A m o) (rv_scale d v)) P).
  { intros o m v d _ Hd E (h1&h2&h3) (n1&n2&n3). rewrite (origin_fl u A HA o m). destruct HB as (P1&P2&P3).
    assert (one : forall x q w w', x - q = d * w -> Rabs w <= 174 / 100 * rho -> near e w' w -> Rabs x <= B -> near g (f_round A q + d * w') x).
    { intros x q w w' Q Hw Nw Hx. pose proof (fl_near u A HA q) as F. unfold near in *.
      replace (f_round A q + d * w' - x) with ((f_round A q - q) + d * (w' - w)) by lra.
      eapply Rle_trans; [apply Rabs_triang|]. assert (Rabs d <= D) by (rewrite Rabs_right; lra).
      pose proof (abs_prod d (w' - w) D e ltac:(lra) Nw). pose proof (abs_prod d w D (174 / 100 * rho) ltac:(lra) Hw).
      assert (Rabs q <= B + 2 * (rho * D)).
      { replace q with (x + - (d * w)) by lra. eapply Rle_trans; [apply Rabs_triang|]. rewrite Rabs_Ropp. lra. }
      assert (u * Rabs q <= u * (B + 2 * (rho * D))) by (apply Rmult_le_compat_l; lra). unfold g. lra. }
    pose proof (f_equal cx E) as E1. pose proof (f_equal cy E) as E2. pose proof (f_equal cz E) as E3. cbn [rv_sub rv_scale zip3v map3v cx cy cz] in E1, E2, E3.
    split; [|split]; cbn [rv_add rv_scale zip3v map3v cx cy cz]; (eapply one; eassumption). }
  assert (Xa := PT oa ma va _ eq_refl (conj da Da) Ea Ba Va). assert (Xb := PT ob mb vb _ eq_refl (conj db Db) Eb Bb Vb).
  destruct (lines_near u A solve HA HS (2 * rho) g D (depth oa P) (depth ob P) (f_origin A ma oa) va (f_origin A mb ob) vb P) with (B := B) as (x&EX&NX);
    auto; try lra; [rewrite Rabs_right; lra|rewrite Rabs_right; lra|fold sg'; lra|fold sg'; replace ((2 * rho) ^ 4) with (16 * rho ^ 4) by ring; lra|].
  fold sg' in NX.
  destruct (C27_triangulation a b nil _ _ _ _ _ _ p P Ha Hb Hp Sa Sb) as (q1&q2&qs&y&EI&EY&RY).
  { rewrite Ea, Eb, rcross_scale. intros Z.
    assert (0 < depth oa P * depth ob P) by (apply Rmult_lt_0_compat; auto).
    assert (K : rcross (sight oa P) (sight ob P) = rv0).
    { pose proof (f_equal cx Z) as Z1. pose proof (f_equal cy Z) as Z2. pose proof (f_equal cz Z) as Z3.
      cbn [rv_scale map3v cx cy cz rv0] in Z1, Z2, Z3. apply v3_ext; cbn [cx cy cz rv0];
      (apply (Rmult_eq_reg_l (depth oa P * depth ob P)); [|lra]); lra. }
    unfold sg, crossing in Pc. rewrite K in Pc. unfold rdot, rv0 in Pc. cbn [cx cy cz] in Pc. lra. }
  cbn [imagesFromSpace List.map] in EI. injection EI as <- <- <-.
  exists Qa, Qb, x, y. split; [exact Pa|]. split; [exact Pb|]. split; [exact EY|]. split; [exact RY|]. split; [exact EX|].
  assert (C9 : sg <= 9 * rho ^ 4).
  { unfold sg, crossing. rewrite lagrange. assert (0 <= rdot (sight oa P) (sight ob P) * rdot (sight oa P) (sight ob P)) by apply Rle_0_sqr.
    assert (rdot (sight oa P) (sight oa P) * rdot (sight ob P) (sight ob P) <= 3 * (rho * rho) * (3 * (rho * rho))).
    { apply Rmult_le_compat; auto; apply rdot_self_nonneg. }
    replace (9 * rho ^ 4) with (3 * (rho * rho) * (3 * (rho * rho))) by ring. lra. }
  assert (FE : (100 * (2 * rho) ^ 4 * g + 6000 * u * (2 * rho) ^ 5 * D) / sg' + 4 * u * B <= u * rho ^ 4 * (1000000000 * rho * D + 7000 * B) / sg).
  { assert (r5 : 0 <= rho ^ 5) by (apply pow_le; lra).
    assert (T1 : 0 <= u * rho ^ 4 * (rho * D)) by (apply Rmult_le_pos; lra). assert (T2 : 0 <= u * rho ^ 4 * B) by (apply Rmult_le_pos; lra).
    replace (100 * (2 * rho) ^ 4 * g + 6000 * u * (2 * rho) ^ 5 * D) with (243395200 * (u * rho ^ 4 * (rho * D)) + 1600 * (u * rho ^ 4 * B)) by (unfold g, e; ring).
    set (t1 := u * rho ^ 4 * (rho * D)) in *. set (t2 := u * rho ^ 4 * B) in *.
    replace (u * rho ^ 4 * (1000000000 * rho * D + 7000 * B)) with (1000000000 * t1 + 7000 * t2) by (unfold t1, t2; ring).
    assert (Q1 : (243395200 * t1 + 1600 * t2) / sg' <= (973580800 * t1 + 6400 * t2) / sg).
    { apply (Rmult_le_reg_r sg'); [lra|]. replace ((243395200 * t1 + 1600 * t2) / sg' * sg') with (243395200 * t1 + 1600 * t2) by (field; lra).
      replace (243395200 * t1 + 1600 * t2) with ((973580800 * t1 + 6400 * t2) / sg * (sg / 4)) by (field; lra).
      apply Rmult_le_compat_l; [|lra]. apply Rmult_le_pos; [lra|]. left. apply Rinv_0_lt_compat; lra. }
    assert (Q2 : 4 * u * B <= 36 * t2 / sg).
    { apply (Rmult_le_reg_r sg); [lra|]. replace (36 * t2 / sg * sg) with (36 * t2) by (field; lra).
      replace (36 * t2) with (4 * u * B * (9 * rho ^ 4)) by (unfold t2; ring). apply Rmult_le_compat_l; [|lra]. apply Rmult_le_pos; lra. }
    assert (Q3 : (1000000000 * t1 + 7000 * t2) / sg = (973580800 * t1 + 6400 * t2) / sg + 36 * t2 / sg + (26419200 * t1 + 564 * t2) / sg) by (field; lra).
    assert (0 <= (26419200 * t1 + 564 * t2) / sg) by (apply Rmult_le_pos; [lra|left; apply Rinv_0_lt_compat; lra]). lra. }
  destruct NX as (n1&n2&n3). split; [|split]; (eapply near_le; [eassumption|exact FE]).
Qed.

(** The same for any two lines: a point [X] within [g] of both, at the parameters [s] and [t]. *)
Theorem C91_lines : forall u A solve L g D s t p1 v1 p2 v2 X B, accurate u A -> stable u solve -> 0 <= L -> 0 <= g ->
  below3 L v1 -> below3 L v2 -> Rabs s <= D -> Rabs t <= D ->
  near3 g (rv_add p1 (rv_scale s v1)) X -> near3 g (rv_add p2 (rv_scale t v2)) X ->
  let sg := rdot (rcross v1 v2) (rcross v1 v2) in 0 < sg -> 4000 * u * L ^ 4 <= sg -> below3 B X ->
  exists x, f_lines A solve p1 v1 p2 v2 = Some x /\ near3 ((100 * L ^ 4 * g + 6000 * u * L ^ 5 * D) / sg + 4 * u * B) x X.
Proof. intros u A solve L g D s t p1 v1 p2 v2 X B HA HS PL Pg B1 B2 Hs Ht X1 X2 sg Psg Big HB. apply (lines_near u A solve HA HS L g D s t); auto. Qed.

(** In double precision, for cameras that see at most 45 degrees to each side, points at most 100 m ahead of both and
    within 1 km of the origin, and lines of sight that cross at 6 degrees or more: 2 mm. *)
Theorem C91_double : forall A a b ra rb oa ob ma mb p P, accurate u53 A ->
  plain_cam a Rectilinear ra oa -> plain_cam b Rectilinear rb ob -> one_turn oa -> one_turn ob -> inverse_ok u53 A oa ma -> inverse_ok u53 A ob mb ->
  rep3 p P -> showable Rectilinear (cam_coords oa P) -> showable Rectilinear (cam_coords ob P) ->
  within 1 oa P -> within 1 ob P -> depth oa P <= 100 -> depth ob P <= 100 -> below3 1000 P -> / 100 <= crossing oa ob P ->
  exists Qa Qb x, rep2 (imageFromSpace a p true) Qa /\ rep2 (imageFromSpace b p true) Qb /\
    f_spaceFromImages A (f_gesv A) ma mb ra rb oa ob Qa Qb = Some x /\ near3 (2 / 1000) x P.
Proof.
  intros A a b ra rb oa ob ma mb p P HA Ha Hb Oa Ob Ia Ib Hp Sa Sb Wa Wb Da Db HB HC.
  destruct (C91_triangulation u53 A (f_gesv A) a b ra rb oa ob ma mb p P 1 100 1000 HA (C91_solver _ _ HA) Ha Hb Oa Ob Ia Ib Hp Sa Sb ltac:(lra) Wa Wb Da Db HB ltac:(lra))
    as (Qa&Qb&x&y&Pa&Pb&_&_&EX&NX).
  - unfold u53. lra.
  - exists Qa, Qb, x. split; [exact Pa|]. split; [exact Pb|]. split; [exact EX|].
    assert (K : u53 * 1 ^ 4 * (1000000000 * 1 * 100 + 7000 * 1000) / crossing oa ob P <= 2 / 1000).
    { apply (Rmult_le_reg_r (crossing oa ob P)); [lra|].
      replace (u53 * 1 ^ 4 * (1000000000 * 1 * 100 + 7000 * 1000) / crossing oa ob P * crossing oa ob P) with (u53 * 100007000000) by (field; lra).
      unfold u53. lra. }
    destruct NX as (n1&n2&n3). split; [|split]; (eapply near_le; [eassumption|exact K]).
Qed.

(** Parallel lines of sight need not be noticed: with exact arithmetic there is no point (C22), with the smallest
    rounding error in one dot product the answer is a point on neither line. *)
Theorem C91_parallel_refuted : forall u, 0 < u <= / 1000000 -> exists A p1 v1 p2 v2 x, accurate u A /\ rcross v1 v2 = rv0 /\
  f_lines exact (f_gesv exact) p1 v1 p2 v2 = None /\ f_lines A (f_gesv A) p1 v1 p2 v2 = Some x /\
  (forall s, x <> rv_add p1 (rv_scale s v1)) /\ (forall s, x <> rv_add p2 (rv_scale s v2)).
Proof.
  intros u U.
  set (A := {| f_round := fun x => x; f_rad := f_rad exact; f_sin := sin; f_cos := cos;
               f_dot := fun a b => if Req_EM_T (cx a * cx b) 4 then rdot a b * (1 + u) else rdot a b |}).
  exists A, (V3 0 1 0), (V3 1 0 0), (V3 0 0 0), (V3 2 0 0), (V3 0 (/ 2) 0).
  assert (HE : accurate u exact) by (apply exact_accurate; lra).
  assert (R1 : Rltb (Rabs 1) (Rabs 2) = true) by (rewrite !Rabs_right by lra; apply Rltb_true; lra).
  split; [|split; [|split; [|split; [|split]]]].
  - destruct HE as (h1&h2&h3&h4&h5&h6). unfold accurate. unfold A. cbn [f_round f_rad f_sin f_cos f_dot]. repeat split; auto; try lra.
    intros a b. destruct (Req_EM_T _ _) as [E|E]; [|apply h6].
    replace (rdot a b * (1 + u) - rdot a b) with (u * rdot a b) by ring. rewrite Rabs_mult, (Rabs_right u) by lra.
    assert (T : Rabs (rdot a b) <= Rabs (cx a * cx b) + Rabs (cy a * cy b) + Rabs (cz a * cz b)) by (unfold rdot; apply abs3).
    pose proof (Rabs_pos (rdot a b)). assert (u * Rabs (rdot a b) <= u * (Rabs (cx a * cx b) + Rabs (cy a * cy b) + Rabs (cz a * cz b))) by (apply Rmult_le_compat_l; lra).
    assert (0 <= u * (Rabs (cx a * cx b) + Rabs (cy a * cy b) + Rabs (cz a * cz b))) by (apply Rmult_le_pos; lra). lra.
  - unfold rcross. cbn [cx cy cz]. apply v3_ext; cbn [cx cy cz rv0]; ring.
  - unfold f_lines, f_gesv, exact. cbn [f_round f_dot zip3v]. unfold rdot. cbn [cx cy cz].
    replace (1 * 1 + 0 * 0 + 0 * 0) with 1 by ring. replace (1 * 2 + 0 * 0 + 0 * 0) with 2 by ring. rewrite R1. unfold f_eliminate. cbn [f_round].
    destruct (Req_EM_T 2 0) as [E|_]; [lra|]. destruct (Req_EM_T _ 0) as [_|E]; [reflexivity|]. exfalso. apply E. field.
  - assert (D11 : f_dot A (V3 1 0 0) (V3 1 0 0) = 1) by (unfold A; cbn [f_dot cx cy cz]; destruct (Req_EM_T _ _); unfold rdot; cbn [cx cy cz]; lra).
    assert (D12 : f_dot A (V3 1 0 0) (V3 2 0 0) = 2) by (unfold A; cbn [f_dot cx cy cz]; destruct (Req_EM_T _ _); unfold rdot; cbn [cx cy cz]; lra).
    assert (D21 : f_dot A (V3 2 0 0) (V3 1 0 0) = 2) by (unfold A; cbn [f_dot cx cy cz]; destruct (Req_EM_T _ _); unfold rdot; cbn [cx cy cz]; lra).
    assert (D22 : f_dot A (V3 2 0 0) (V3 2 0 0) = 4 * (1 + u)) by (unfold A; cbn [f_dot cx cy cz]; destruct (Req_EM_T _ _); unfold rdot; cbn [cx cy cz]; lra).
    assert (W1 : f_dot A (V3 1 0 0) (V3 (0 - 0) (1 - 0) (0 - 0)) = 0) by (unfold A; cbn [f_dot cx cy cz]; destruct (Req_EM_T _ _); unfold rdot; cbn [cx cy cz]; lra).
    assert (W2 : f_dot A (V3 2 0 0) (V3 (0 - 0) (1 - 0) (0 - 0)) = 0) by (unfold A; cbn [f_dot cx cy cz]; destruct (Req_EM_T _ _); unfold rdot; cbn [cx cy cz]; lra).
    unfold f_lines, zip3v. change (f_round A) with (fun x : R => x). cbv beta zeta iota. cbn [cx cy cz]. rewrite D11, D12, D21, D22, W1, W2.
    unfold f_gesv. rewrite R1. unfold f_eliminate. change (f_round A) with (fun x : R => x). cbv beta zeta.
    destruct (Req_EM_T 2 0) as [E|_]; [lra|]. destruct (Req_EM_T _ 0) as [E|_]; [exfalso; lra|].
    set (dd := - (2) - 1 * (1 / 2) * - (4 * (1 + u))). assert (Pd : dd <> 0) by (unfold dd; lra).
    f_equal. apply v3_ext; cbn [cx cy cz]; field; auto.
  - intros s E. apply (f_equal cy) in E. cbn in E. lra.
  - intros s E. apply (f_equal cy) in E. cbn in E. lra.
Qed.

Print Assumptions C91_solver.
Print Assumptions C91_triangulation.
Print Assumptions C91_lines.
Print Assumptions C91_double.
Print Assumptions C91_parallel_refuted.

(** ** Examples *)
(** Two cameras 10 m apart, 10 m above the ground, look at a point 20 m ahead; rounding to double precision. *)
Example C91_example : exists a b Qa Qb x, plain_cam a Rectilinear ex_r (ex_at 0) /\ plain_cam b Rectilinear ex_r (ex_at 10) /\
  rep2 (imageFromSpace a (fin3 (V3 0 20 3)) true) Qa /\ rep2 (imageFromSpace b (fin3 (V3 0 20 3)) true) Qb /\
  f_spaceFromImages binary64 (f_gesv binary64) (rm_trans (camM (ex_at 0))) (rm_trans (camM (ex_at 10))) ex_r ex_r (ex_at 0) (ex_at 10) Qa Qb = Some x /\
  near3 (2 / 1000) x (V3 0 20 3).
Proof.
  destruct (ex_cam_at Rectilinear 0) as (a&Ha). destruct (ex_cam_at Rectilinear 10) as (b&Hb). exists a, b.
  assert (OT : forall s, one_turn (ex_at s)) by (intros s; unfold one_turn, ex_at; cbn; rewrite Rabs_R0, Rabs_right by lra; lra).
  assert (Dp : forall s, depth (ex_at s) (V3 0 20 3) = 20) by (intros s; unfold depth; rewrite ex_at_coords; cbn [cx cy cz]; ring).
  assert (Wi : forall s, 0 <= s <= 10 -> within 1 (ex_at s) (V3 0 20 3)).
  { intros s Hs. unfold within. rewrite Dp, ex_at_coords. cbn [cx cy cz]. split; apply Rabs_le; lra. }
  destruct (C91_double binary64 a b ex_r ex_r (ex_at 0) (ex_at 10) (rm_trans (camM (ex_at 0))) (rm_trans (camM (ex_at 10))) (fin3 (V3 0 20 3)) (V3 0 20 3) binary64_accurate Ha Hb (OT 0) (OT 10)
    (inverse_transpose u53 binary64 (ex_at 0) binary64_accurate (OT 0)) (inverse_transpose u53 binary64 (ex_at 10) binary64_accurate (OT 10)) (rep3_fin _)) as (Qa&Qb&x&Pa&Pb&EX&NX).
  - apply ex_at_showable. cbn [cy]. lra.
  - apply ex_at_showable. cbn [cy]. lra.
  - apply Wi; lra.
  - apply Wi; lra.
  - rewrite Dp. lra.
  - rewrite Dp. lra.
  - unfold below3. cbn [cx cy cz]. repeat split; apply Rabs_le; lra.
  - unfold crossing, sight. rewrite !Dp, !opos_at. unfold rdot, rcross. cbn [rv_scale rv_sub map3v zip3v cx cy cz]. lra.
  - exists Qa, Qb, x. repeat (split; [assumption|]). assumption.
Qed.
(** Two lines that pass the point (1, 1, 0), without rounding. *)
Example C91_lines_example : stable (/ 1000000) (f_gesv exact) /\ exists x, f_lines exact (f_gesv exact) (V3 0 1 0) (V3 1 0 0) (V3 1 0 0) (V3 0 1 0) = Some x /\
  near3 (((0 + 6000 * (/ 1000000))) + 4 * (/ 1000000)) x (V3 1 1 0).
Proof.
  assert (HE : accurate (/ 1000000) exact) by (apply exact_accurate; lra). split; [apply C91_solver; auto|].
  destruct (C91_lines (/ 1000000) exact (f_gesv exact) 1 0 1 1 1 (V3 0 1 0) (V3 1 0 0) (V3 1 0 0) (V3 0 1 0) (V3 1 1 0) 1 HE (C91_solver _ _ HE)) as (x&E&Nx);
    try lra; try (unfold below3; cbn [cx cy cz]; repeat split; apply Rabs_le; lra); try (apply Rabs_le; lra);
    try (unfold rdot, rcross; cbn [cx cy cz]; lra); try (unfold near3, near; cbn [rv_add rv_scale zip3v map3v cx cy cz]; repeat split; apply Rabs_le; lra).
  - exists x. split; [exact E|]. unfold rdot, rcross in Nx. cbn [cx cy cz] in Nx. destruct Nx as (n1&n2&n3).
    split; [|split]; (eapply near_le; [eassumption|]; lra).
Qed.
