(** * C75: distances and local coordinates of GPS positions in rounded arithmetic *)
Require Import Reals Lra Lia Psatz Bool List.
From Verif Require Import Num Vec Trig Orientation OrientationFacts Gps PropGps Rounding RoundingFacts PropRounding RoundingGps.
Open Scope R_scope.

(** ** Specification: how accurate the operations are *)
Definition accurate_gps (u : R) (G : gfloats) : Prop :=
  accurate u (g_ops G) /\ f_sin (g_ops G) 0 = 0 /\
  (forall x, 0 <= x -> Rabs (g_sqrt G x - sqrt x) <= u * sqrt x) /\
  (forall x, -1 <= x <= 1 -> Rabs (g_asin G x - asin x) <= 8 * u * Rabs (asin x)) /\
  (forall y x, x <> 0 \/ y <> 0 -> exists th, - PI <= th <= PI /\ y = sqrt (x * x + y * y) * sin th /\
     x = sqrt (x * x + y * y) * cos th /\ Rabs (g_atan2 G y x - th) <= 8 * u) /\
  (forall x, Rabs (g_deg G x - x * (180 / PI)) <= 4 * u * Rabs (x * (180 / PI))).
(** A place on the earth as it is written: latitudes up to 90 degrees, longitudes within one turn *)
Definition on_earth (p : gp) : Prop := Rabs (g_lat p) <= 90 /\ Rabs (g_lon p) <= 360.
(** The computed cosine of the latitude is not negative (it is that of a latitude up to 90 degrees). *)
Definition lat_ok (G : gfloats) (p : gp) : Prop := 0 <= f_cos (g_ops G) (f_rad (g_ops G) (g_lat p)).
(** the same row in the exact model *)
Definition exact_row (p : gp) : gpt := Gpt (Fin (g_lat p)) (Fin (g_lon p)) (option_map Fin (g_hgt p)).
Definition pl (p : gp) : v3 R := unitv (rad (g_lat p)) (rad (g_lon p)).

(** ** Analysis *)
Lemma sin_lower h : 0 <= h <= 1 -> 5 / 6 * h <= sin h.
Proof.
  intros H. pose proof PI2_1. destruct (SIN h) as (L&_); [lra|lra|]. unfold sin_lb, sin_approx in L.
  cbn [sum_f_R0] in L. unfold sin_term in L. cbn [Nat.mul Nat.add pow] in L.
  replace (INR (fact 1)) with 1 in L by (simpl; lra). replace (INR (fact 3)) with 6 in L by (simpl; lra).
  replace (INR (fact 5)) with 120 in L by (simpl; lra). replace (INR (fact 7)) with 5040 in L by (rewrite INR_IZR_INZ; reflexivity).
  assert (0 <= h * h <= 1) by nra. assert (H3 : 0 <= h * (h * h) <= h) by nra.
  assert (H5 : 0 <= h * (h * h) * (h * h) <= h * (h * h)) by nra. assert (H7 : 0 <= h * (h * h) * (h * h) * (h * h) <= h * (h * h) * (h * h)) by nra.
  nra.
Qed.
Lemma sqrt_le_1' x : x <= 1 -> sqrt x <= 1.
Proof. intros H. rewrite <- sqrt_1. apply sqrt_le_1_alt. auto. Qed.
Lemma diff_of_squares x y E1 E2 : 0 <= x -> 0 <= y -> 0 <= E1 -> 0 <= E2 -> Rabs (x * x - y * y) <= E1 * (x + y) + E2 * E2 -> Rabs (x - y) <= E1 + E2.
Proof.
  intros X Y P1 P2 H. replace (x * x - y * y) with ((x - y) * (x + y)) in H by ring. rewrite Rabs_mult, (Rabs_right (x + y)) in H by lra.
  pose proof (Rabs_pos (x - y)). destruct (Rle_dec (x + y) E2) as [L|L].
  - assert (Rabs (x - y) <= x + y) by (apply Rabs_le; lra). lra.
  - apply Rnot_lt_le. intros K. assert ((E1 + E2) * (x + y) < Rabs (x - y) * (x + y)) by (apply Rmult_lt_compat_r; lra). nra.
Qed.
Lemma abs_le_inv x m : Rabs x <= m -> - m <= x <= m.
Proof. unfold Rabs. destruct (Rcase_abs x); lra. Qed.
(** arcsin of two neighbours *)
Lemma asin_near x y : 0 <= x <= 1 -> 0 <= y <= 1 ->
  Rabs (asin x - asin y) * cos (asin y) <= 12 / 5 * Rabs (x - y) /\
  Rabs (asin x - asin y) * Rabs (asin x - asin y) <= 3 * Rabs (x - y).
Proof.
  intros X Y. set (a := asin x). set (b := asin y).
  assert (Ex : x = sin a) by (unfold a; rewrite sin_asin; lra). assert (Ey : y = sin b) by (unfold b; rewrite sin_asin; lra).
  assert (BB : forall z, 0 <= z <= 1 -> 0 <= asin z <= PI / 2).
  { intros z Z. pose proof (asin_bound z). pose proof (sin_asin z ltac:(lra)) as E. split; [|lra]. apply Rnot_lt_le; intros L.
    pose proof PI_RGT_0. assert (0 < sin (- asin z)) by (apply sin_gt_0; lra). rewrite sin_neg in *. lra. }
  pose proof (BB x X) as Ba. pose proof (BB y Y) as Bb. fold a in Ba. fold b in Bb. clearbody a b.
  pose proof PI_RGT_0 as P0. pose proof PI_4 as P4.
  set (h := Rabs (a - b) / 2). set (m := (a + b) / 2).
  assert (Hh : 0 <= h <= 1). { unfold h. split; [pose proof (Rabs_pos (a - b)); lra|]. assert (Rabs (a - b) <= PI / 2) by (apply Rabs_le; lra). lra. }
  pose proof (sin_lower h Hh) as SL.
  assert (Dxy : Rabs (x - y) = 2 * sin h * cos m).
  { rewrite Ex, Ey, form4. unfold m, h. rewrite !Rabs_mult, (Rabs_right 2) by lra.
    rewrite (Rabs_right (cos ((a + b) / 2))) by (apply Rle_ge, cos_ge_0; lra).
    assert (Rabs (sin ((a - b) / 2)) = sin (Rabs (a - b) / 2)); [|nra].
    destruct (Rle_dec 0 (a - b)) as [L|L].
    - rewrite (Rabs_right (a - b)) by lra. apply Rabs_right. apply Rle_ge, sin_ge_0; lra.
    - rewrite (Rabs_left (a - b)) by lra. replace (- (a - b) / 2) with (- ((a - b) / 2)) by field.
      rewrite sin_neg. rewrite Rabs_left1; [reflexivity|]. assert (0 <= sin (- ((a - b) / 2))) by (apply sin_ge_0; lra). rewrite sin_neg in *. lra. }
  assert (C1 : cos b <= 2 * cos m).
  { assert (cos a + cos b = 2 * cos ((a - b) / 2) * cos ((a + b) / 2)) by apply form1. fold m in H.
    assert (0 <= cos a) by (apply cos_ge_0; lra). assert (0 <= cos m) by (apply cos_ge_0; unfold m; lra).
    pose proof (COS_bound ((a - b) / 2)). nra. }
  assert (C2 : sin h <= cos m).
  { rewrite <- sin_shift. assert (h <= PI / 2 - m); [unfold h, m; unfold Rabs; destruct (Rcase_abs (a - b)); lra|].
    destruct H as [H|H]; [|rewrite H; lra]. left. apply sin_increasing_1; unfold h, m in *; pose proof (Rabs_pos (a - b)); lra. }
  assert (E : Rabs (a - b) = 2 * h) by (unfold h; lra). rewrite E, Dxy.
  assert (0 <= cos b) by (apply cos_ge_0; lra). assert (0 <= cos m) by (apply cos_ge_0; unfold m; lra). split.
  - assert (h * cos b <= h * (2 * cos m)) by (apply Rmult_le_compat_l; lra).
    assert (5 / 6 * h * cos m <= sin h * cos m) by (apply Rmult_le_compat_r; lra). nra.
  - assert (5 / 6 * h * (5 / 6 * h) <= sin h * cos m) by (apply Rmult_le_compat; lra). nra.
Qed.

Section Accurate.
Context (u : R) (G : gfloats) (HG : accurate_gps u G).
Notation A := (g_ops G).
Notation fl := (f_round A).
Let HA : accurate u A. Proof. apply HG. Qed.
Lemma gu : 0 <= u <= / 1000000. Proof. exact (u_range u A HA). Qed.
Lemma gfl x y e m : near e x y -> Rabs y <= m -> near (e + u * (m + e)) (fl x) y.
Proof.
  intros N M. pose proof gu. pose proof (near_abs _ _ _ _ N M). rewrite Rplus_comm. eapply near_trans; [|exact N].
  eapply near_le; [apply (fl_near u A HA)|]. apply Rmult_le_compat_l; lra.
Qed.
Lemma near_sub a b a' b' ea eb : near ea a' a -> near eb b' b -> near (ea + eb) (a' - b') (a - b).
Proof. intros H1 H2. unfold Rminus. apply near_add; [exact H1|apply near_opp, H2]. Qed.
Lemma abs_sub a b ma mb : Rabs a <= ma -> Rabs b <= mb -> Rabs (a - b) <= ma + mb.
Proof. intros. eapply Rle_trans; [apply Rabs_triang|]. rewrite Rabs_Ropp. lra. Qed.
Lemma rad_le d m : Rabs d <= m -> Rabs (rad d) <= m * (4 / 180).
Proof.
  intros H. pose proof PI_RGT_0. pose proof PI_4. unfold rad. rewrite Rabs_mult, (Rabs_right (PI / 180)) by lra.
  apply Rmult_le_compat; [apply Rabs_pos|lra|lra|lra].
Qed.
Lemma lat_near p : on_earth p -> near (8 * u) (f_rad A (g_lat p)) (rad (g_lat p)) /\ Rabs (rad (g_lat p)) <= 2.
Proof.
  intros (L&_). pose proof gu. pose proof (rad_le _ _ L). split; [|lra]. destruct HA as (_&_&HR&_).
  eapply near_le; [apply HR|]. assert (4 * u * Rabs (rad (g_lat p)) <= 4 * u * 2) by (apply Rmult_le_compat_l; lra). lra.
Qed.
Lemma lon_near p : on_earth p -> near (32 * u) (f_rad A (g_lon p)) (rad (g_lon p)) /\ Rabs (rad (g_lon p)) <= 8.
Proof.
  intros (_&L). pose proof gu. pose proof (rad_le _ _ L). split; [|lra]. destruct HA as (_&_&HR&_).
  eapply near_le; [apply HR|]. assert (4 * u * Rabs (rad (g_lon p)) <= 4 * u * 8) by (apply Rmult_le_compat_l; lra). lra.
Qed.
Lemma sin_near x y e : near e x y -> near (8 * u + e) (f_sin A x) (sin y).
Proof. intros N. destruct HA as (_&_&_&HS&_). eapply near_trans; [apply HS|]. unfold near in *. eapply Rle_trans; [apply sin_lipschitz|exact N]. Qed.
Lemma cos_near x y e : near e x y -> near (8 * u + e) (f_cos A x) (cos y).
Proof. intros N. destruct HA as (_&_&_&_&HC&_). eapply near_trans; [apply HC|]. unfold near in *. eapply Rle_trans; [apply cos_lipschitz|exact N]. Qed.
Lemma dlat_near p q : on_earth p -> on_earth q ->
  near (21 * u) (fl (f_rad A (g_lat q) - f_rad A (g_lat p))) (rad (g_lat q) - rad (g_lat p)) /\ Rabs (rad (g_lat q) - rad (g_lat p)) <= 4.
Proof.
  intros P Q. pose proof gu as U. pose proof (uu u A HA). destruct (lat_near p P) as (N1&B1). destruct (lat_near q Q) as (N2&B2).
  pose proof (abs_sub _ _ _ _ B2 B1). split; [|lra].
  eapply near_le; [apply (gfl _ _ _ _ (near_sub _ _ _ _ _ _ N2 N1) H0)|]. lra.
Qed.
Lemma dlon_near p q : on_earth p -> on_earth q ->
  near (81 * u) (fl (f_rad A (g_lon q) - f_rad A (g_lon p))) (rad (g_lon q) - rad (g_lon p)) /\ Rabs (rad (g_lon q) - rad (g_lon p)) <= 16.
Proof.
  intros P Q. pose proof gu as U. pose proof (uu u A HA). destruct (lon_near p P) as (N1&B1). destruct (lon_near q Q) as (N2&B2).
  pose proof (abs_sub _ _ _ _ B2 B1). split; [|lra].
  eapply near_le; [apply (gfl _ _ _ _ (near_sub _ _ _ _ _ _ N2 N1) H0)|]. lra.
Qed.
Lemma half_near x y e m : near e x y -> Rabs y <= m -> near (e / 2 + u * (m / 2 + e / 2)) (fl (x / 2)) (y / 2).
Proof.
  intros N M. assert (N' : near (e / 2) (x / 2) (y / 2)).
  { unfold near in *. replace (x / 2 - y / 2) with ((x - y) * / 2) by field. rewrite Rabs_mult, (Rabs_right (/ 2)) by lra. lra. }
  apply gfl; auto. unfold Rdiv. rewrite Rabs_mult, (Rabs_right (/ 2)) by lra. lra.
Qed.
(** the four quantities of the haversine formula *)
Definition fs1 p q := f_sin A (fl (fl (f_rad A (g_lat q) - f_rad A (g_lat p)) / 2)).
Definition fs2 p q := f_sin A (fl (fl (f_rad A (g_lon q) - f_rad A (g_lon p)) / 2)).
Definition fc p := f_cos A (f_rad A (g_lat p)).
Definition s1 p q := sin ((rad (g_lat q) - rad (g_lat p)) / 2).
Definition s2 p q := sin ((rad (g_lon q) - rad (g_lon p)) / 2).
Definition co p := cos (rad (g_lat p)).
Lemma parts p q : on_earth p -> on_earth q -> near (60 * u) (fs1 p q) (s1 p q) /\ near (60 * u) (fs2 p q) (s2 p q) /\ near (60 * u) (fc p) (co p).
Proof.
  intros P Q. pose proof gu as U. pose proof (uu u A HA). destruct (dlat_near p q P Q) as (N1&B1). destruct (dlon_near p q P Q) as (N2&B2).
  destruct (lat_near p P) as (N3&_). splits.
  - eapply near_le; [apply sin_near, (half_near _ _ _ _ N1 B1)|]. lra.
  - eapply near_le; [apply sin_near, (half_near _ _ _ _ N2 B2)|]. lra.
  - eapply near_le; [apply cos_near, N3|]. lra.
Qed.
Lemma co_pos p : on_earth p -> 0 <= co p <= 1.
Proof.
  intros (L&_). unfold co. split; [|apply COS_bound]. apply abs_le_inv in L. pose proof PI_RGT_0.
  apply cos_ge_0; unfold rad; nra.
Qed.
Lemma co_diff p q : Rabs (co q - co p) <= 2 * Rabs (s1 p q).
Proof.
  unfold co, s1. rewrite form2, !Rabs_mult, (Rabs_left (-2)) by lra.
  pose proof (sin_1 ((rad (g_lat q) + rad (g_lat p)) / 2)). pose proof (Rabs_pos (sin ((rad (g_lat q) - rad (g_lat p)) / 2))).
  pose proof (Rabs_pos (sin ((rad (g_lat q) + rad (g_lat p)) / 2))). nra.
Qed.
End Accurate.

(** The root of s1^2 + c1 c2 s2^2 does not amplify errors, even at the poles and for equal places. *)
Lemma root_near e s s' t t' c c' d d' : 0 <= e <= / 10000 ->
  near e s' s -> near e t' t -> near e c' c -> near e d' d -> Rabs s <= 1 -> Rabs t <= 1 -> 0 <= c <= 1 -> 0 <= d <= 1 -> 0 <= c' -> 0 <= d' ->
  Rabs (d - c) <= 2 * Rabs s ->
  Rabs (sqrt (s' * s' + c' * d' * (t' * t')) - sqrt (s * s + c * d * (t * t))) <= 12 * e.
Proof.
  intros E Ns Nt Nc Nd Bs Bt Bc Bd Pc Pd Hd.
  assert (SQ : forall z : R, 0 <= z * z) by (intros; apply Rle_0_sqr).
  set (b := s * s + c * d * (t * t)). set (b' := s' * s' + c' * d' * (t' * t')).
  assert (Pcd : 0 <= c * d) by (apply Rmult_le_pos; lra). assert (Pcd' : 0 <= c' * d') by (apply Rmult_le_pos; lra).
  assert (Pb : 0 <= b) by (unfold b; pose proof (SQ s); pose proof (SQ t); assert (0 <= c * d * (t * t)) by (apply Rmult_le_pos; auto); lra).
  assert (Pb' : 0 <= b') by (unfold b'; pose proof (SQ s'); pose proof (SQ t'); assert (0 <= c' * d' * (t' * t')) by (apply Rmult_le_pos; auto); lra).
  pose proof (sqrt_pos b) as R0. pose proof (sqrt_pos b') as R0'. pose proof (sqrt_sqrt b Pb) as RR. pose proof (sqrt_sqrt b' Pb') as RR'.
  set (x := sqrt b') in *. set (y := sqrt b) in *.
  assert (LE : forall z w v, 0 <= w -> 0 <= v -> w * w <= v * v + z -> z <= 0 -> w <= v) by (intros; nra).
  (* components below the roots *)
  assert (Lr : forall a r k, 0 <= r -> k + Rabs a * Rabs a = r * r -> 0 <= k -> Rabs a <= r).
  { intros a r k P K Q. pose proof (Rabs_pos a). nra. }
  assert (AA : forall z, Rabs z * Rabs z = z * z) by (intros; rewrite <- Rabs_mult; apply Rabs_right; pose proof (SQ z); lra).
  assert (S1 : Rabs s <= y). { apply (Lr s y (c * d * (t * t))); auto; [rewrite AA, RR; unfold b; ring|apply Rmult_le_pos; auto]. }
  assert (S1' : Rabs s' <= x). { apply (Lr s' x (c' * d' * (t' * t'))); auto; [rewrite AA, RR'; unfold b'; ring|apply Rmult_le_pos; auto]. }
  set (k := sqrt (c * d)). set (k' := sqrt (c' * d')).
  assert (K2 : k * k = c * d) by (apply sqrt_sqrt; auto). assert (K2' : k' * k' = c' * d') by (apply sqrt_sqrt; auto).
  assert (K0 : 0 <= k) by apply sqrt_pos. assert (K0' : 0 <= k') by apply sqrt_pos.
  assert (T1 : k * Rabs t <= y).
  { rewrite <- (Rabs_right k), <- Rabs_mult by lra. apply (Lr _ y (s * s)); auto. rewrite AA, RR. unfold b. rewrite <- K2. ring. }
  assert (T1' : k' * Rabs t' <= x).
  { rewrite <- (Rabs_right k'), <- Rabs_mult by lra. apply (Lr _ x (s' * s')); auto. rewrite AA, RR'. unfold b'. rewrite <- K2'. ring. }
  unfold near in *. assert (Bc' : c' <= 11 / 10) by (apply abs_le_inv in Nc; lra). assert (Bd' : d' <= 11 / 10) by (apply abs_le_inv in Nd; lra).
  assert (k1 : k <= 1) by nra. assert (k1' : k' <= 11 / 10) by nra.
  (* the larger cosine *)
  assert (MX : c + d <= 2 * k + 2 * Rabs s).
  { apply abs_le_inv in Hd. pose proof (Rabs_pos s). destruct (Rle_dec c d) as [L|L].
    - assert (c <= k) by nra. lra.
    - assert (d <= k) by nra. lra. }
  assert (DL : Rabs (c' * d' - c * d) <= e * (c + d) + e * e).
  { replace (c' * d' - c * d) with ((c' - c) * d + c * (d' - d) + (c' - c) * (d' - d)) by ring.
    eapply Rle_trans; [apply Rabs_triang|]. apply Rplus_le_compat; [|apply abs_prod; auto].
    eapply Rle_trans; [apply Rabs_triang|]. rewrite !Rabs_mult, (Rabs_right d), (Rabs_right c) by lra. nra. }
  pose proof (Rabs_pos t) as Pt. pose proof (Rabs_pos t') as Pt'. pose proof (Rabs_pos s) as Ps. pose proof (Rabs_pos s') as Ps'.
  set (D := Rabs (c' * d' - c * d)) in *. assert (PD : 0 <= D) by apply Rabs_pos.
  assert (D3 : D <= 3 * e) by nra.
  replace (12 * e) with (10 * e + 2 * e) by ring. apply diff_of_squares; try lra. rewrite RR, RR'.
  replace (b' - b) with ((s' - s) * (s' + s) + c' * d' * ((t' - t) * (t' + t)) + (c' * d' - c * d) * (t * t)) by (unfold b, b'; ring).
  assert (P1 : Rabs ((s' - s) * (s' + s)) <= e * (x + y)).
  { apply abs_prod; auto. eapply Rle_trans; [apply Rabs_triang|]. lra. }
  assert (P2 : Rabs (c' * d' * ((t' - t) * (t' + t))) <= e * (11 / 10 * x + y + 3 * e)).
  { rewrite !Rabs_mult. rewrite (Rabs_right (c')), (Rabs_right d') by lra.
    replace (c' * d' * (Rabs (t' - t) * Rabs (t' + t))) with (Rabs (t' - t) * (c' * d' * Rabs (t' + t))) by ring.
    apply Rmult_le_compat; [apply Rabs_pos|apply Rmult_le_pos; [auto|apply Rabs_pos]|auto|].
    apply Rle_trans with (c' * d' * (Rabs t' + Rabs t)); [apply Rmult_le_compat_l; [auto|apply Rabs_triang]|].
    rewrite Rmult_plus_distr_l. apply Rle_trans with (11 / 10 * x + (y + 3 * e)); [|lra]. apply Rplus_le_compat.
    - rewrite <- K2', Rmult_assoc. apply Rmult_le_compat; auto. apply Rmult_le_pos; auto.
    - apply Rle_trans with ((c * d + D) * Rabs t).
      + apply Rmult_le_compat_r; auto. unfold D. pose proof (Rle_abs (c' * d' - c * d)). lra.
      + rewrite Rmult_plus_distr_r, <- K2, Rmult_assoc. assert (k * (k * Rabs t) <= 1 * y) by (apply Rmult_le_compat; auto; apply Rmult_le_pos; auto). nra. }
  assert (P3 : Rabs ((c' * d' - c * d) * (t * t)) <= 4 * e * y + e * e).
  { rewrite Rabs_mult. fold D. rewrite (Rabs_right (t * t)) by (apply Rle_ge, SQ). rewrite <- AA.
    apply Rle_trans with ((e * (2 * k + 2 * Rabs s) + e * e) * (Rabs t * Rabs t)).
    - apply Rmult_le_compat_r; [apply Rmult_le_pos; auto|]. eapply Rle_trans; [exact DL|]. nra.
    - assert (T2 : 0 <= Rabs t * Rabs t <= 1) by nra. rewrite Rmult_plus_distr_r. apply Rplus_le_compat; [|nra].
      replace (e * (2 * k + 2 * Rabs s) * (Rabs t * Rabs t)) with (2 * e * (k * Rabs t * Rabs t + Rabs s * (Rabs t * Rabs t))) by ring.
      replace (4 * e * y) with (2 * e * (y + y)) by ring. apply Rmult_le_compat_l; [lra|]. apply Rplus_le_compat.
      + assert (k * Rabs t * Rabs t <= k * Rabs t * 1) by (apply Rmult_le_compat_l; [apply Rmult_le_pos; auto|auto]). lra.
      + assert (Rabs s * (Rabs t * Rabs t) <= Rabs s * 1) by (apply Rmult_le_compat_l; lra). lra. }
  eapply Rle_trans; [apply Rabs_triang|]. eapply Rle_trans; [apply Rplus_le_compat_r, Rabs_triang|].
  eapply Rle_trans; [apply Rplus_le_compat; [apply Rplus_le_compat; [exact P1|exact P2]|exact P3]|].
  assert (0 <= e * x) by (apply Rmult_le_pos; lra). assert (0 <= e * y) by (apply Rmult_le_pos; lra). assert (0 <= e * e) by apply SQ. lra.
Qed.

Section Distance.
Context (u : R) (G : gfloats) (HG : accurate_gps u G).
Notation A := (g_ops G).
Notation fl := (f_round A).
Let HA : accurate u A. Proof. apply HG. Qed.
Let U : 0 <= u <= / 1000000. Proof. exact (u_range u A HA). Qed.
Let FR := fl_rel u A HA.
Lemma rel_bound d m : Rabs d <= m -> 1 - m <= 1 + d <= 1 + m.
Proof. intros H. apply abs_le_inv in H. lra. Qed.
Lemma sum_round P Q d1 d2 d3 d4 d5 : 0 <= P -> 0 <= Q -> Rabs d1 <= u -> Rabs d2 <= u -> Rabs d3 <= u -> Rabs d4 <= u -> Rabs d5 <= u ->
  (1 - 6 * u) * (P + Q) <= (P * (1 + d1) + Q * (1 + d2) * (1 + d3) * (1 + d4)) * (1 + d5) <= (1 + 6 * u) * (P + Q).
Proof.
  intros HP HQ D1 D2 D3 D4 D5. apply rel_bound in D1, D2, D3, D4, D5.
  assert (B2 : forall x y m n, 0 <= m <= / 10000 -> 0 <= n <= / 10000 -> 1 - m <= x <= 1 + m -> 1 - n <= y <= 1 + n ->
    1 - (m + n + m * n) <= x * y <= 1 + (m + n + m * n)).
  { intros x y m n Hm Hn Hx Hy. assert ((1 - m) * (1 - n) <= x * y) by (apply Rmult_le_compat; lra).
    assert (x * y <= (1 + m) * (1 + n)) by (apply Rmult_le_compat; lra). assert (0 <= m * n) by (apply Rmult_le_pos; lra). lra. }
  assert (UU : 0 <= u * u <= u * / 1000000) by nra.
  assert (L : forall x y m n k, 0 <= m <= / 10000 -> 0 <= n <= / 10000 -> 1 - m <= x <= 1 + m -> 1 - n <= y <= 1 + n -> m + n + m * n <= k ->
    1 - k <= x * y <= 1 + k) by (intros x y m n k Hm Hn Hx Hy Hk; pose proof (B2 x y m n Hm Hn Hx Hy); lra).
  assert (E1 := L _ _ u u (21 / 10 * u) ltac:(lra) ltac:(lra) D2 D3 ltac:(lra)).
  assert (E2 := L _ _ (21 / 10 * u) u (32 / 10 * u) ltac:(lra) ltac:(lra) E1 D4 ltac:(nra)).
  assert (E3 := L _ _ (32 / 10 * u) u (43 / 10 * u) ltac:(lra) ltac:(lra) E2 D5 ltac:(nra)).
  assert (E4 := L _ _ u u (21 / 10 * u) ltac:(lra) ltac:(lra) D1 D5 ltac:(lra)).
  replace ((P * (1 + d1) + Q * (1 + d2) * (1 + d3) * (1 + d4)) * (1 + d5)) with
    (P * ((1 + d1) * (1 + d5)) + Q * ((1 + d2) * (1 + d3) * (1 + d4) * (1 + d5))) by ring. 
  assert (0 <= u * P) by (apply Rmult_le_pos; lra). assert (0 <= u * Q) by (apply Rmult_le_pos; lra).
  assert (P * (1 - 21 / 10 * u) <= P * ((1 + d1) * (1 + d5)) <= P * (1 + 21 / 10 * u)) by (split; apply Rmult_le_compat_l; lra).
  assert (Q * (1 - 43 / 10 * u) <= Q * ((1 + d2) * (1 + d3) * (1 + d4) * (1 + d5)) <= Q * (1 + 43 / 10 * u)) by (split; apply Rmult_le_compat_l; lra).
  lra.
Qed.
(** the exact quantity *)
Definition hav (p q : gp) : R := s1 p q * s1 p q + co p * co q * (s2 p q * s2 p q).
Lemma hav_angle p q : exists t, is_angle t (pl p) (pl q) /\ sqrt (hav p q) = sin (t / 2) /\ 0 <= hav p q <= 1 /\ t = 2 * asin (sqrt (hav p q)).
Proof.
  assert (E : hav p q = (1 - rdot (pl p) (pl q)) / 2) by (unfold hav, s1, s2, co; rewrite haversine; reflexivity).
  assert (B : -1 <= rdot (pl p) (pl q) <= 1) by (apply cauchy; apply unit_unitv).
  destruct (angle_of _ B) as (T&C). exists (2 * asin (sqrt (hav p q))). rewrite E. split; [split; auto|].
  assert (0 <= (1 - rdot (pl p) (pl q)) / 2 <= 1) by lra. split; [|split; [exact H|reflexivity]].
  replace (2 * asin (sqrt ((1 - rdot (pl p) (pl q)) / 2)) / 2) with (asin (sqrt ((1 - rdot (pl p) (pl q)) / 2))) by field.
  rewrite sin_asin; [reflexivity|]. pose proof (sqrt_pos ((1 - rdot (pl p) (pl q)) / 2)). pose proof (sqrt_le_1' ((1 - rdot (pl p) (pl q)) / 2)). lra.
Qed.
Lemma root_computed p q : on_earth p -> on_earth q -> lat_ok G p -> lat_ok G q ->
  0 <= f_haversine G p q /\ 0 <= g_sqrt G (f_haversine G p q) /\ Rabs (g_sqrt G (f_haversine G p q) - sqrt (hav p q)) <= 730 * u.
Proof.
  intros P Q LP LQ. destruct (parts u G HG p q P Q) as (N1&N2&N3). destruct (parts u G HG q p Q P) as (_&_&N4).
  pose proof (co_pos p P) as C1. pose proof (co_pos q Q) as C2. pose proof (co_diff p q) as CD.
  destruct (hav_angle p q) as (t&_&_&HB&_).
  set (b' := fs1 G p q * fs1 G p q + fc G p * fc G q * (fs2 G p q * fs2 G p q)).
  assert (RN : Rabs (sqrt b' - sqrt (hav p q)) <= 12 * (60 * u)).
  { apply root_near; auto; try lra; try (apply sin_1). }
  assert (SQ : forall z : R, 0 <= z * z) by (intros; apply Rle_0_sqr).
  assert (Pcd : 0 <= fc G p * fc G q) by (apply Rmult_le_pos; auto).
  set (X := fs1 G p q * fs1 G p q) in *. set (Y := fc G p * fc G q * (fs2 G p q * fs2 G p q)) in *.
  assert (PX : 0 <= X) by apply SQ. assert (PY : 0 <= Y) by (apply Rmult_le_pos; auto).
  assert (AB : (1 - 6 * u) * b' <= f_haversine G p q <= (1 + 6 * u) * b').
  { unfold f_haversine. fold (fs1 G p q). fold (fs2 G p q). fold (fc G p). fold (fc G q). fold X.
    destruct (FR X) as (d1&D1&->). destruct (FR (fc G p * fc G q)) as (d2&D2&->). destruct (FR (fs2 G p q * fs2 G p q)) as (d3&D3&->).
    destruct (FR (fc G p * fc G q * (1 + d2) * (fs2 G p q * fs2 G p q * (1 + d3)))) as (d4&D4&->).
    replace (fc G p * fc G q * (1 + d2) * (fs2 G p q * fs2 G p q * (1 + d3)) * (1 + d4)) with (Y * (1 + d2) * (1 + d3) * (1 + d4)) by (unfold Y; ring).
    destruct (FR (X * (1 + d1) + Y * (1 + d2) * (1 + d3) * (1 + d4))) as (d5&D5&->). apply sum_round; auto. }
  assert (Pb : 0 <= b') by (unfold b'; lra). set (a' := f_haversine G p q) in *.
  assert (Pa : 0 <= a') by nra. split; [exact Pa|].
  assert (RA : Rabs (sqrt a' - sqrt b') <= 6 * u * sqrt b').
  { pose proof (sqrt_pos a'). pose proof (sqrt_pos b'). pose proof (sqrt_sqrt a' Pa). pose proof (sqrt_sqrt b' Pb).
    destruct (Req_dec (sqrt b') 0) as [Z|Z].
    - assert (b' = 0) by (rewrite Z in *; lra). assert (a' = 0) by (rewrite H3 in AB; lra). rewrite H4, H3, Rminus_diag_eq, Rabs_R0, sqrt_0 by reflexivity. lra.
    - assert (0 < sqrt b') by lra. apply (Rmult_le_reg_r (sqrt b')); auto.
      apply Rle_trans with (Rabs (a' - b')).
      + replace (a' - b') with ((sqrt a' - sqrt b') * (sqrt a' + sqrt b')) by lra.
        rewrite Rabs_mult. apply Rmult_le_compat_l; [apply Rabs_pos|]. rewrite Rabs_right; lra.
      + rewrite Rmult_assoc, H2. apply Rabs_le. lra. }
  destruct HG as (_&_&HS&_). specialize (HS a' Pa).
  apply abs_le_inv in RN, RA, HS. pose proof (sqrt_pos (hav p q)). pose proof (sqrt_le_1' (hav p q) ltac:(lra)). pose proof (sqrt_pos b'). pose proof (sqrt_pos a').
  assert (UU : 0 <= u * u <= u * / 1000000) by nra.
  assert (B1 : sqrt b' <= 101 / 100) by lra. assert (B2 : sqrt a' <= 102 / 100) by nra.
  assert (u * sqrt b' <= u * (101 / 100)) by (apply Rmult_le_compat_l; lra). assert (u * sqrt a' <= u * (102 / 100)) by (apply Rmult_le_compat_l; lra).
  split; [nra|]. apply Rabs_le. lra.
Qed.
Lemma computed_value s d : 0 <= s <= 1 -> d = fl (6371000 * fl (2 * g_asin G s)) -> Rabs (d - RE * (2 * asin s)) <= RE * (44 * u).
Proof.
  intros S ->. destruct HG as (_&_&_&HS&_). specialize (HS s ltac:(lra)).
  assert (BA : Rabs (asin s) <= 2) by (pose proof (asin_bound s); pose proof PI_4; apply Rabs_le; lra).
  assert (N1 : near (16 * u) (g_asin G s) (asin s)).
  { eapply near_le; [exact HS|]. assert (8 * u * Rabs (asin s) <= 8 * u * 2) by (apply Rmult_le_compat_l; lra). lra. }
  assert (UU : 0 <= u * u <= u * / 1000000) by nra.
  assert (B4 : Rabs (2 * asin s) <= 4) by (rewrite Rabs_mult, (Rabs_right 2) by lra; lra).
  assert (N2 : near (36 * u + 32 * (u * u)) (fl (2 * g_asin G s)) (2 * asin s)).
  { eapply near_le; [apply (gfl u G HG _ _ (32 * u) 4); auto|lra]. unfold near in *.
    replace (2 * g_asin G s - 2 * asin s) with (2 * (g_asin G s - asin s)) by ring. rewrite Rabs_mult, (Rabs_right 2) by lra. lra. }
  assert (N3 : near (RE * (37 * u)) (6371000 * fl (2 * g_asin G s)) (RE * (2 * asin s))).
  { unfold near in *. unfold RE. replace (6371000 * fl (2 * g_asin G s) - 6371000 * (2 * asin s)) with (6371000 * (fl (2 * g_asin G s) - 2 * asin s)) by ring.
    rewrite Rabs_mult, (Rabs_right 6371000) by lra. lra. }
  assert (B5 : Rabs (RE * (2 * asin s)) <= RE * 4) by (rewrite Rabs_mult, (Rabs_right RE) by (unfold RE; lra); apply Rmult_le_compat_l; [unfold RE; lra|auto]).
  eapply (near_le _ _ _ _ (gfl u G HG _ _ _ _ N3 B5)). unfold RE. lra.
Qed.
(** No nan away from the other side of the earth, and the error of the distance. *)
Lemma ground_near p q t : on_earth p -> on_earth q -> lat_ok G p -> lat_ok G q -> is_angle t (pl p) (pl q) ->
  (sin (t / 2) + 730 * u <= 1 -> exists d, f_ground G p q = Some d /\ Rabs (d - RE * t) * cos (t / 2) <= RE * (3600 * u)) /\
  (forall d, f_ground G p q = Some d -> Rabs (d - RE * t) * cos (t / 2) <= RE * (3600 * u) /\ Rabs (d - RE * t) <= RE * (2 * sqrt (2190 * u) + 44 * u)).
Proof.
  intros P Q LP LQ HT. destruct (hav_angle p q) as (t'&HT'&ES&HB&ET). rewrite <- (angle_inj _ _ _ _ HT HT') in *. clear t' HT'.
  destruct (root_computed p q P Q LP LQ) as (Pa&Ps&N). set (a' := f_haversine G p q) in *. set (s' := g_sqrt G a') in *.
  assert (VAL : forall d, s' <= 1 -> d = fl (6371000 * fl (2 * g_asin G s')) ->
    Rabs (d - RE * t) * cos (t / 2) <= RE * (3600 * u) /\ Rabs (d - RE * t) <= RE * (2 * sqrt (2190 * u) + 44 * u)).
  { intros d S1 Ed. pose proof (computed_value s' d (conj Ps S1) Ed) as CV. rewrite ET at 1 3.
    set (s := sqrt (hav p q)) in *. assert (S0 : 0 <= s <= 1) by (split; [apply sqrt_pos|apply sqrt_le_1'; lra]).
    destruct (asin_near s' s (conj Ps S1) S0) as (N1&N2). assert (HH : t / 2 = asin s) by lra. rewrite HH. 
    set (D := Rabs (asin s' - asin s)) in *. assert (PD : 0 <= D) by apply Rabs_pos.
    assert (TR : Rabs (d - RE * (2 * asin s)) <= RE * (44 * u) + RE * (2 * D)).
    { replace (d - RE * (2 * asin s)) with ((d - RE * (2 * asin s')) + RE * (2 * (asin s' - asin s))) by ring.
      eapply Rle_trans; [apply Rabs_triang|]. apply Rplus_le_compat; [exact CV|]. rewrite !Rabs_mult, (Rabs_right RE), (Rabs_right 2) by (unfold RE; lra).
      unfold D. lra. }
    assert (C01 : 0 <= cos (asin s) <= 1). { split; [|apply COS_bound]. pose proof (asin_bound s). apply cos_ge_0; lra. }
    split.
    - apply Rle_trans with ((RE * (44 * u) + RE * (2 * D)) * cos (asin s)); [apply Rmult_le_compat_r; lra|].
      assert (44 * u * cos (asin s) <= 44 * u * 1) by (apply Rmult_le_compat_l; lra). unfold RE. lra.
    - eapply Rle_trans; [exact TR|]. rewrite <- Rmult_plus_distr_l. apply Rmult_le_compat_l; [unfold RE; lra|].
      assert (D <= sqrt (2190 * u)); [|lra]. rewrite <- (sqrt_square D) by auto. apply sqrt_le_1_alt. lra. }
  unfold f_ground. fold a'. assert (E0 : Rltb a' 0 = false) by (apply Rltb_false; lra). rewrite E0. fold s'. split.
  - intros H. assert (S1 : s' <= 1) by (apply abs_le_inv in N; rewrite ES in N; lra).
    assert (E1 : Rltb 1 s' = false) by (apply Rltb_false; lra). rewrite E1. eexists. split; [reflexivity|]. apply VAL; auto.
  - intros d. destruct (Rltb 1 s') eqn:E1; [discriminate|]. injection 1 as <-. apply VAL; auto.
    apply Rnot_lt_le. intros L. rewrite Rltb_true in E1 by lra. discriminate.
Qed.
(** ** Heights *)
Lemma sqrt_rel a b : 0 <= b -> (1 - 6 * u) * b <= a <= (1 + 6 * u) * b -> Rabs (g_sqrt G a - sqrt b) <= 8 * u * sqrt b.
Proof.
  intros Pb AB. assert (Pa : 0 <= a) by nra. pose proof (sqrt_pos a). pose proof (sqrt_pos b). pose proof (sqrt_sqrt a Pa). pose proof (sqrt_sqrt b Pb).
  assert (RA : Rabs (sqrt a - sqrt b) <= 6 * u * sqrt b).
  { destruct (Req_dec (sqrt b) 0) as [Z|Z].
    - assert (E : b = 0) by (rewrite Z in *; lra). assert (E' : a = 0) by (rewrite E in AB; lra). rewrite E, E', Rminus_diag_eq, Rabs_R0, sqrt_0 by reflexivity. lra.
    - assert (0 < sqrt b) by lra. apply (Rmult_le_reg_r (sqrt b)); auto. apply Rle_trans with (Rabs (a - b)).
      + replace (a - b) with ((sqrt a - sqrt b) * (sqrt a + sqrt b)) by lra.
        rewrite Rabs_mult. apply Rmult_le_compat_l; [apply Rabs_pos|]. rewrite Rabs_right; lra.
      + rewrite Rmult_assoc, H2. apply Rabs_le. lra. }
  destruct HG as (_&_&HS&_). specialize (HS a Pa). apply abs_le_inv in RA, HS.
  assert (UU : 0 <= u * u <= u * / 1000000) by nra. assert (0 <= u * sqrt b) by (apply Rmult_le_pos; lra).
  assert (u * sqrt a <= u * (sqrt b + 6 * u * sqrt b)) by (apply Rmult_le_compat_l; lra).
  assert (u * u * sqrt b <= u * / 1000000 * sqrt b) by (apply Rmult_le_compat_r; lra). apply Rabs_le. lra.
Qed.
Lemma hyp_lipschitz a b a' b' : Rabs (sqrt (a' * a' + b' * b') - sqrt (a * a + b * b)) <= Rabs (a' - a) + Rabs (b' - b).
Proof.
  assert (T : forall a b a' b', sqrt (a' * a' + b' * b') <= sqrt (a * a + b * b) + (Rabs (a' - a) + Rabs (b' - b))).
  { clear. intros a b a' b'. set (d := Rabs (a' - a) + Rabs (b' - b)). pose proof (Rle_0_sqr a). pose proof (Rle_0_sqr b). unfold Rsqr in *.
    pose proof (sqrt_pos (a * a + b * b)) as P. pose proof (sqrt_sqrt (a * a + b * b) ltac:(lra)) as S. set (r := sqrt (a * a + b * b)) in *.
    pose proof (Rabs_pos (a' - a)) as P1. pose proof (Rabs_pos (b' - b)) as P2. assert (Pd : 0 <= d) by (unfold d; lra).
    rewrite <- (sqrt_square (r + d)) by lra. apply sqrt_le_1_alt.
    assert (A1 : Rabs a <= r). { pose proof (Rabs_pos a). assert (Rabs a * Rabs a = a * a) by (rewrite <- Rabs_mult; apply Rabs_right; lra). nra. }
    assert (B1 : Rabs b <= r). { pose proof (Rabs_pos b). assert (Rabs b * Rabs b = b * b) by (rewrite <- Rabs_mult; apply Rabs_right; lra). nra. }
    assert (X1 : Rabs (a * (a' - a)) <= r * Rabs (a' - a)) by (rewrite Rabs_mult; apply Rmult_le_compat_r; auto).
    assert (X2 : Rabs (b * (b' - b)) <= r * Rabs (b' - b)) by (rewrite Rabs_mult; apply Rmult_le_compat_r; auto).
    apply abs_le_inv in X1, X2. 
    assert (Q1 : (a' - a) * (a' - a) = Rabs (a' - a) * Rabs (a' - a)) by (rewrite <- Rabs_mult; symmetry; apply Rabs_right; apply Rle_ge, Rle_0_sqr).
    assert (Q2 : (b' - b) * (b' - b) = Rabs (b' - b) * Rabs (b' - b)) by (rewrite <- Rabs_mult; symmetry; apply Rabs_right; apply Rle_ge, Rle_0_sqr).
    assert (0 <= Rabs (a' - a) * Rabs (b' - b)) by (apply Rmult_le_pos; auto). unfold d.
    replace (a' * a' + b' * b') with (a * a + b * b + 2 * (a * (a' - a)) + 2 * (b * (b' - b)) + (a' - a) * (a' - a) + (b' - b) * (b' - b)) by ring.
    rewrite Q1, Q2, <- S. lra. }
  pose proof (T a b a' b'). pose proof (T a' b' a b) as T'. rewrite (Rabs_minus_sym a a'), (Rabs_minus_sym b b') in T'. apply Rabs_le. lra.
Qed.
Lemma height_near d t h1 h2 : 
  let D := sqrt (RE * t * (RE * t) + (h1 - h2) * (h1 - h2)) in
  Rabs (g_sqrt G (fl (fl (d * d) + fl (Rabs (fl (h1 - h2)) * Rabs (fl (h1 - h2))))) - D) <= 2 * Rabs (d - RE * t) + 12 * u * D.
Proof.
  intros D. set (k := Rabs (fl (h1 - h2))). assert (UU : 0 <= u * u <= u * / 1000000) by nra.
  assert (Sq : forall z : R, 0 <= z * z) by (intros; apply Rle_0_sqr).
  assert (N : Rabs (g_sqrt G (fl (fl (d * d) + fl (k * k))) - sqrt (d * d + k * k)) <= 8 * u * sqrt (d * d + k * k)).
  { apply sqrt_rel; [pose proof (Sq d); pose proof (Sq k); lra|].
    destruct (FR (d * d)) as (d1&D1&->). destruct (FR (k * k)) as (d2&D2&->). destruct (FR (d * d * (1 + d1) + k * k * (1 + d2))) as (d5&D5&->).
    replace (d * d * (1 + d1) + k * k * (1 + d2)) with (d * d * (1 + d1) + k * k * (1 + d2) * (1 + 0) * (1 + 0)) by ring.
    apply sum_round; auto; rewrite Rabs_R0; lra. }
  assert (ED : D = sqrt (RE * t * (RE * t) + Rabs (h1 - h2) * Rabs (h1 - h2))).
  { unfold D. do 2 f_equal. rewrite <- Rabs_mult. symmetry. apply Rabs_right, Rle_ge, Sq. }
  assert (L := hyp_lipschitz (RE * t) (Rabs (h1 - h2)) d k). rewrite <- ED in L.
  assert (K : Rabs (k - Rabs (h1 - h2)) <= u * Rabs (h1 - h2)).
  { eapply Rle_trans; [|apply (fl_near u A HA (h1 - h2))]. apply Rabs_triang_inv2. }
  assert (HD : Rabs (h1 - h2) <= D).
  { rewrite ED. rewrite <- (sqrt_square (Rabs (h1 - h2))) at 1 by apply Rabs_pos. apply sqrt_le_1_alt. pose proof (Sq (RE * t)). lra. }
  set (w := sqrt (d * d + k * k)) in *. pose proof (Rabs_pos (d - RE * t)) as PE. set (e := Rabs (d - RE * t)) in *.
  pose proof (Rabs_pos (h1 - h2)). assert (u * Rabs (h1 - h2) <= u * D) by (apply Rmult_le_compat_l; lra).
  assert (0 <= u * D) by (apply Rmult_le_pos; lra). assert (0 <= u * e <= / 1000000 * e) by nra.
  assert (u * u * D <= u * / 1000000 * D) by (apply Rmult_le_compat_r; lra).
  apply abs_le_inv in N, L. assert (u * w <= u * (D + e + u * D)) by (apply Rmult_le_compat_l; lra). apply Rabs_le. lra.
Qed.
(** ** Bearings *)
Definition xe (p q : gp) : R := co q * sin (rad (g_lon q) - rad (g_lon p)).
Definition yn (p q : gp) : R := co p * sin (rad (g_lat q)) - sin (rad (g_lat p)) * co q * cos (rad (g_lon q) - rad (g_lon p)).
Lemma xy_length p q t : is_angle t (pl p) (pl q) -> sqrt (yn p q * yn p q + xe p q * xe p q) = sin t.
Proof.
  intros ((T0&T1)&E). rewrite <- (sqrt_square (sin t)) by (apply sin_ge_0; auto). f_equal.
  pose proof (sc t). replace (sin t * sin t) with (1 - cos t * cos t) by lra. rewrite E. unfold pl, unitv, rdot, xe, yn, co. cbn [cx cy cz].
  rewrite cos_minus, sin_minus.
  set (a := rad (g_lat p)). set (b := rad (g_lat q)). set (l := rad (g_lon p)). set (m := rad (g_lon q)).
  pose proof (sc a) as Sa. pose proof (sc b) as Sb. pose proof (sc l) as Sl. pose proof (sc m) as Sm.
  set (C := cos m * cos l + sin m * sin l). set (S := sin m * cos l - cos m * sin l).
  assert (SC : S * S + C * C = 1).
  { unfold S, C. replace ((sin m * cos l - cos m * sin l) * (sin m * cos l - cos m * sin l) + (cos m * cos l + sin m * sin l) * (cos m * cos l + sin m * sin l))
      with ((sin m * sin m + cos m * cos m) * (sin l * sin l + cos l * cos l)) by ring. rewrite Sl, Sm. ring. }
  replace (cos a * cos l * (cos b * cos m) + cos a * sin l * (cos b * sin m) + sin a * sin b) with (cos a * cos b * C + sin a * sin b) by (unfold C; ring).
  assert (E1 : (cos a * sin b - sin a * cos b * C) * (cos a * sin b - sin a * cos b * C) + (cos a * cos b * C + sin a * sin b) * (cos a * cos b * C + sin a * sin b)
     = (sin a * sin a + cos a * cos a) * (sin b * sin b + cos b * cos b * (C * C))) by ring.
  rewrite Sa in E1. assert (E2 : cos b * S * (cos b * S) = cos b * cos b * (1 - C * C)) by (rewrite <- SC; ring). lra.
Qed.
Definition fX p q := fl (f_cos A (f_rad A (g_lat q)) * f_sin A (fl (f_rad A (g_lon q) - f_rad A (g_lon p)))).
Definition fY p q := fl (fl (f_cos A (f_rad A (g_lat p)) * f_sin A (f_rad A (g_lat q))) -
  fl (fl (f_sin A (f_rad A (g_lat p)) * f_cos A (f_rad A (g_lat q))) * f_cos A (fl (f_rad A (g_lon q) - f_rad A (g_lon p))))).
Lemma prod_near a b a' b' ea eb : near ea a' a -> near eb b' b -> Rabs a <= 1 -> Rabs b <= 1 -> near (ea + eb + ea * eb + u * (1 + (ea + eb + ea * eb))) (fl (a' * b')) (a * b).
Proof.
  intros HA' HB' M1 M2. eapply (gfl u G HG).
  - eapply near_le; [apply (near_mul a b a' b' ea eb 1 1); auto|lra].
  - pose proof (abs_prod _ _ _ _ M1 M2). lra.
Qed.
Lemma xy_near p q : on_earth p -> on_earth q -> near (165 * u) (fX p q) (xe p q) /\ near (165 * u) (fY p q) (yn p q).
Proof.
  intros P Q. assert (UU : 0 <= u * u <= u * / 1000000) by nra. assert (UUU : 0 <= u * u * u <= u * / 1000000) by nra.
  destruct (dlon_near u G HG p q P Q) as (N2&_). destruct (lat_near u G HG p P) as (N3&_). destruct (lat_near u G HG q Q) as (N4&_).
  assert (SL := sin_near u G HG _ _ _ N2). assert (CL := cos_near u G HG _ _ _ N2).
  assert (Sp := sin_near u G HG _ _ _ N3). assert (Cp := cos_near u G HG _ _ _ N3).
  assert (Sq := sin_near u G HG _ _ _ N4). assert (Cq := cos_near u G HG _ _ _ N4). split.
  - eapply near_le; [apply (prod_near _ _ _ _ _ _ Cq SL (cos_1 _) (sin_1 _))|]. lra.
  - assert (K1 : near (34 * u) (fl (f_cos A (f_rad A (g_lat p)) * f_sin A (f_rad A (g_lat q)))) (co p * sin (rad (g_lat q)))).
    { eapply near_le; [apply (prod_near _ _ _ _ _ _ Cp Sq (cos_1 _) (sin_1 _))|]. lra. }
    assert (K2 : near (34 * u) (fl (f_sin A (f_rad A (g_lat p)) * f_cos A (f_rad A (g_lat q)))) (sin (rad (g_lat p)) * co q)).
    { eapply near_le; [apply (prod_near _ _ _ _ _ _ Sp Cq (sin_1 _) (cos_1 _))|]. lra. }
    assert (B2 : Rabs (sin (rad (g_lat p)) * co q) <= 1) by (pose proof (abs_prod _ _ _ _ (sin_1 (rad (g_lat p))) (cos_1 (rad (g_lat q)))); unfold co; lra).
    assert (K3 : near (126 * u) (fl (fl (f_sin A (f_rad A (g_lat p)) * f_cos A (f_rad A (g_lat q))) * f_cos A (fl (f_rad A (g_lon q) - f_rad A (g_lon p)))))
      (sin (rad (g_lat p)) * co q * cos (rad (g_lon q) - rad (g_lon p)))).
    { eapply near_le; [apply (prod_near _ _ _ _ _ _ K2 CL B2 (cos_1 _))|]. lra. }
    assert (B1 : Rabs (co p * sin (rad (g_lat q))) <= 1) by (pose proof (abs_prod _ _ _ _ (cos_1 (rad (g_lat p))) (sin_1 (rad (g_lat q)))); unfold co; lra).
    assert (B3 : Rabs (sin (rad (g_lat p)) * co q * cos (rad (g_lon q) - rad (g_lon p))) <= 1) by (pose proof (abs_prod _ _ _ _ B2 (cos_1 (rad (g_lon q) - rad (g_lon p)))); lra).
    eapply near_le; [apply (gfl u G HG _ _ _ _ (near_sub _ _ _ _ _ _ K1 K3) (abs_sub _ _ _ _ B1 B3))|]. lra.
Qed.
(** the direction of a disturbed vector *)
Lemma direction_close r r' e b b' : 0 <= r -> 0 <= r' -> near e (r' * sin b') (r * sin b) -> near e (r' * cos b') (r * cos b) ->
  Rabs (sin b' - sin b) * r <= 3 * e /\ Rabs (cos b' - cos b) * r <= 3 * e.
Proof.
  intros P P' NX NY. unfold near in *. pose proof (Rabs_pos (r' * sin b' - r * sin b)) as Pe.
  assert (D : forall x y, sin x * sin y + cos x * cos y <= 1) by (intros x y; pose proof (COS_bound (x - y)) as B; rewrite cos_minus in B; lra).
  assert (HR : Rabs (r - r') <= 2 * e).
  { pose proof (abs_prod _ _ _ _ NX (sin_1 b)) as A1. pose proof (abs_prod _ _ _ _ NY (cos_1 b)) as A2.
    pose proof (abs_prod _ _ _ _ NX (sin_1 b')) as A3. pose proof (abs_prod _ _ _ _ NY (cos_1 b')) as A4. apply abs_le_inv in A1, A2, A3, A4.
    pose proof (sc b) as S. pose proof (sc b') as S'. pose proof (D b b') as DD.
    assert (E1 : (r' * sin b' - r * sin b) * sin b + (r' * cos b' - r * cos b) * cos b = r' * (sin b * sin b' + cos b * cos b') - r)
      by (replace r with (r * (sin b * sin b + cos b * cos b)) at 3 by (rewrite S; ring); ring).
    assert (E2 : (r' * sin b' - r * sin b) * sin b' + (r' * cos b' - r * cos b) * cos b' = r' - r * (sin b * sin b' + cos b * cos b'))
      by (replace r' with (r' * (sin b' * sin b' + cos b' * cos b')) at 3 by (rewrite S'; ring); ring).
    set (c := sin b * sin b' + cos b * cos b') in *. assert (r' * c <= r' * 1) by (apply Rmult_le_compat_l; auto). assert (r * c <= r * 1) by (apply Rmult_le_compat_l; auto).
    apply Rabs_le. lra. }
  assert (K : forall f f', Rabs f' <= 1 -> Rabs (r' * f' - r * f) <= e -> Rabs (f' - f) * r <= 3 * e).
  { intros f f' B N. rewrite <- (Rabs_right r) at 1 by lra. rewrite <- Rabs_mult.
    replace ((f' - f) * r) with ((r - r') * f' + (r' * f' - r * f)) by ring. eapply Rle_trans; [apply Rabs_triang|].
    pose proof (abs_prod _ _ _ _ HR B). lra. }
  split; apply K; auto; [apply sin_1|apply cos_1].
Qed.
Lemma sum_squares_0 x y : sqrt (x * x + y * y) <= 0 -> x = 0 /\ y = 0.
Proof.
  intros H. pose proof (sqrt_pos (x * x + y * y)). pose proof (Rle_0_sqr x). pose proof (Rle_0_sqr y). unfold Rsqr in *.
  assert (E : sqrt (x * x + y * y) = 0) by lra. apply sqrt_eq_0 in E; [|lra]. split; apply Rsqr_0_uniq; unfold Rsqr; lra.
Qed.
Lemma exact_bearing p q t : is_angle t (pl p) (pl q) -> exists B, rep (getBearing (exact_row p) (exact_row q)) B /\
  xe p q = sin t * sin (rad B) /\ yn p q = sin t * cos (rad B).
Proof.
  intros HT. pose proof (xy_length p q t HT) as EL.
  assert (HQ : place (exact_row q) (pl q)) by (exists (g_lat q), (g_lon q); splits; try apply rep_Fin; reflexivity).
  destruct (bearing_args (exact_row p) (exact_row q) (g_lat p) (g_lon p) (pl q) (rep_Fin _) (rep_Fin _) HQ) as (RX&RY).
  assert (EX : rdot (pl q) (eastv (rad (g_lon p))) = xe p q).
  { unfold pl, xe, co, rdot, eastv, unitv. cbn. rewrite sin_minus. ring. }
  assert (EY : rdot (pl q) (northv (rad (g_lat p)) (rad (g_lon p))) = yn p q).
  { unfold pl, yn, co, rdot, northv, unitv. cbn. rewrite cos_minus. ring. }
  rewrite EX in RX. rewrite EY in RY.
  destruct (Req_dec (sin t) 0) as [Z|Z].
  - destruct (sum_squares_0 (yn p q) (xe p q)) as (E1&E2); [lra|]. destruct (natan2_finite _ _ _ _ RX RY) as (th&Rth).
    exists (th * (180 / PI)). split; [apply rep_rad2deg; exact Rth|]. rewrite E1, E2, Z. split; ring.
  - assert (NZ : yn p q <> 0 \/ xe p q <> 0).
    { destruct (Req_dec (yn p q) 0) as [E1|E1]; [|auto]. destruct (Req_dec (xe p q) 0) as [E2|E2]; [|auto].
      exfalso. apply Z. rewrite <- EL, E1, E2, Rmult_0_l, Rplus_0_l. apply sqrt_0. }
    destruct (natan2_polar _ _ _ _ RX RY NZ) as (th&Rth&_&E1&E2). exists (th * (180 / PI)). split; [apply rep_rad2deg; exact Rth|].
    rewrite rad_deg. unfold hyp in *. rewrite EL in E1, E2. split; assumption.
Qed.
Lemma rad_linear x y : rad x - rad y = rad (x - y).
Proof. unfold rad. field. Qed.
(** the computed bearing, in degrees, and the sine and cosine spaceFromGPS takes of it *)
Lemma bearing_near p q t B : on_earth p -> on_earth q -> is_angle t (pl p) (pl q) -> rep (getBearing (exact_row p) (exact_row q)) B ->
  let b := f_bearing G p q in
  (Rabs (sin (rad b) - sin (rad B)) * sin t <= 700 * u /\ Rabs (cos (rad b) - cos (rad B)) * sin t <= 700 * u) /\
  (Rabs (f_sin A (f_rad A b) - sin (rad B)) * sin t <= 730 * u /\ Rabs (f_cos A (f_rad A b) - cos (rad B)) * sin t <= 730 * u).
Proof.
  intros P Q HT HB. destruct (exact_bearing p q t HT) as (B'&HB'&EX&EY). rewrite <- (rep_inj _ _ _ HB HB') in EX, EY. clear B' HB'.
  destruct (xy_near p q P Q) as (NX&NY). rewrite EX in NX. rewrite EY in NY. cbv zeta. set (b := f_bearing G p q).
  assert (ST : 0 <= sin t <= 1) by (split; [apply sin_ge_0; apply HT|apply SIN_bound]).
  assert (UU : 0 <= u * u <= u * / 1000000) by nra.
  pose proof HA as (_&_&HR&HS&HC&_).
  destruct (Rle_dec (sin t) (340 * u)) as [L|L].
  - assert (K : forall x y k, Rabs x <= 1 + 8 * u -> Rabs y <= 1 -> 690 * u <= k -> Rabs (x - y) * sin t <= k).
    { intros x y k X Y K. apply Rle_trans with ((2 + 8 * u) * (340 * u)); [|nra]. apply Rmult_le_compat; [apply Rabs_pos|lra| |lra].
      eapply Rle_trans; [apply abs_sub; eassumption|]. lra. }
    assert (S8 : forall x, Rabs (f_sin A x) <= 1 + 8 * u) by (intros x; apply (near_abs _ (sin x)); [apply HS|apply sin_1]).
    assert (C8 : forall x, Rabs (f_cos A x) <= 1 + 8 * u) by (intros x; apply (near_abs _ (cos x)); [apply HC|apply cos_1]).
    splits; apply K; auto; try apply sin_1; try apply cos_1; try lra; (eapply Rle_trans; [first [apply sin_1|apply cos_1]|lra]).
  - set (X := fX p q) in *. set (Y := fY p q) in *.
    assert (NZ : Y <> 0 \/ X <> 0).
    { destruct (Req_dec Y 0) as [E1|E1]; [|auto]. destruct (Req_dec X 0) as [E2|E2]; [|auto]. exfalso.
      rewrite E2 in NX. rewrite E1 in NY. unfold near in NX, NY. apply abs_le_inv in NX, NY.
      set (v := sin t) in *. pose proof (sc (rad B)) as SB. set (w := sin (rad B)) in *. set (z := cos (rad B)) in *.
      assert (v * v = (v * w) * (v * w) + (v * z) * (v * z)) by (replace (v * w * (v * w) + v * z * (v * z)) with (v * v * (w * w + z * z)) by ring; rewrite SB; ring).
      assert ((v * w) * (v * w) <= 165 * u * (165 * u)) by nra. assert ((v * z) * (v * z) <= 165 * u * (165 * u)) by nra. nra. }
    pose proof HG as (_&_&_&_&HT2&HD). destruct (HT2 X Y NZ) as (th&Bth&TX&TY&NT).
    assert (DC : Rabs (sin th - sin (rad B)) * sin t <= 3 * (165 * u) /\ Rabs (cos th - cos (rad B)) * sin t <= 3 * (165 * u)).
    { apply (direction_close (sin t) (sqrt (Y * Y + X * X))); [lra|apply sqrt_pos| |]; [rewrite <- TX|rewrite <- TY]; assumption. }
    assert (EB : b = g_deg G (g_atan2 G X Y)) by reflexivity. set (y := g_atan2 G X Y) in *.
    assert (By : Rabs y <= 41 / 10).
    { pose proof PI_4. apply abs_le_inv in NT. apply Rabs_le. lra. }
    assert (N1 : Rabs (rad b - y) <= 17 * u).
    { rewrite EB. specialize (HD y). pose proof PI_RGT_0. replace y with (rad (y * (180 / PI))) at 2 by (apply rad_deg). rewrite rad_linear.
      unfold rad. rewrite Rabs_mult, (Rabs_right (PI / 180)) by lra. apply (Rmult_le_compat_r (PI / 180)) in HD; [|lra].
      eapply Rle_trans; [exact HD|]. rewrite Rabs_mult, (Rabs_right (180 / PI)) by (apply Rle_ge, Rlt_le, Rdiv_lt_0_compat; lra).
      replace (4 * u * (Rabs y * (180 / PI)) * (PI / 180)) with (4 * u * Rabs y) by (field; lra).
      assert (4 * u * Rabs y <= 4 * u * (41 / 10)) by (apply Rmult_le_compat_l; lra). lra. }
    assert (N2 : near (25 * u) (rad b) th).
    { eapply near_le; [eapply near_trans; [exact N1|exact NT]|]. lra. }
    assert (Bb : Rabs (rad b) <= 42 / 10) by (apply abs_le_inv in N1; apply abs_le_inv in By; apply Rabs_le; lra).
    assert (N3 : near (25 * u + 17 * u) (f_rad A b) th).
    { rewrite Rplus_comm. eapply near_trans; [|exact N2]. unfold near. eapply Rle_trans; [apply HR|].
      assert (4 * u * Rabs (rad b) <= 4 * u * (42 / 10)) by (apply Rmult_le_compat_l; lra). lra. }
    assert (K : forall x y z e k, near e x y -> Rabs (y - z) * sin t <= 3 * (165 * u) -> 0 <= e -> e <= 60 * u -> 560 * u <= k -> Rabs (x - z) * sin t <= k).
    { intros x y0 z e k NE H P1 P2 P3. unfold near in NE.
      assert (Rabs (x - z) <= e + Rabs (y0 - z)) by (replace (x - z) with ((x - y0) + (y0 - z)) by ring; eapply Rle_trans; [apply Rabs_triang|]; lra).
      apply Rle_trans with ((e + Rabs (y0 - z)) * sin t); [apply Rmult_le_compat_r; lra|]. rewrite Rmult_plus_distr_r.
      assert (e * sin t <= e * 1) by (apply Rmult_le_compat_l; lra). lra. }
    destruct DC as (DS&DCo).
    assert (M1 : near (25 * u) (sin (rad b)) (sin th)) by (unfold near in *; eapply Rle_trans; [apply sin_lipschitz|exact N2]).
    assert (M2 : near (25 * u) (cos (rad b)) (cos th)) by (unfold near in *; eapply Rle_trans; [apply cos_lipschitz|exact N2]).
    assert (M3 := sin_near u G HG _ _ _ N3).
    assert (M4 := cos_near u G HG _ _ _ N3).
    splits; [apply (K _ _ _ _ _ M1 DS)|apply (K _ _ _ _ _ M2 DCo)|apply (K _ _ _ _ _ M3 DS)|apply (K _ _ _ _ _ M4 DCo)]; lra.
Qed.
End Distance.

(** ** C75 *)
Lemma exact_place p : place (exact_row p) (pl p).
Proof. exists (g_lat p), (g_lon p). splits; try apply rep_Fin; reflexivity. Qed.
(** The computed distance is a number and its error is a few thousand rounding errors of the radius, for all places -
    equal ones, those at the poles - that are not on opposite sides of the earth. *)
Theorem C75_distance : forall u G p q t, accurate_gps u G -> on_earth p -> on_earth q -> lat_ok G p -> lat_ok G q ->
  is_angle t (pl p) (pl q) -> g_hgt p = None \/ g_hgt q = None -> sin (t / 2) + 730 * u <= 1 ->
  exists d, f_distance G p q = Some d /\ rep (getDistance (exact_row p) (exact_row q)) (RE * t) /\ Rabs (d - RE * t) * cos (t / 2) <= RE * (3600 * u).
Proof.
  intros u G p q t HG P Q LP LQ HT HN S. destruct (ground_near u G HG p q t P Q LP LQ HT) as (K&_). destruct (K S) as (d&Ed&Nd).
  exists d. splits; auto.
  - unfold f_distance. rewrite Ed. destruct HN as [-> | ->]; [reflexivity|destruct (g_hgt p); reflexivity].
  - destruct (C30_distance (exact_row p) (exact_row q) (pl p) (pl q) (exact_place p) (exact_place q)) as (t'&HT'&HR).
    + unfold exact_row. cbn. destruct HN as [-> | ->]; auto.
    + rewrite (angle_inj _ _ _ _ HT HT'). exact HR.
Qed.
Print Assumptions C75_distance.
(** Whatever the places: if the result is a number, it is off by at most the root of the rounding error. *)
Theorem C75_worst : forall u G p q t d, accurate_gps u G -> on_earth p -> on_earth q -> lat_ok G p -> lat_ok G q ->
  is_angle t (pl p) (pl q) -> g_hgt p = None \/ g_hgt q = None -> f_distance G p q = Some d ->
  Rabs (d - RE * t) * cos (t / 2) <= RE * (3600 * u) /\ Rabs (d - RE * t) <= RE * (2 * sqrt (2190 * u) + 44 * u).
Proof.
  intros u G p q t d HG P Q LP LQ HT HN E. destruct (ground_near u G HG p q t P Q LP LQ HT) as (_&K). apply K.
  unfold f_distance in E. destruct (f_ground G p q); [|discriminate]. destruct HN as [H|H]; rewrite H in E; auto. destruct (g_hgt p); auto.
Qed.
Print Assumptions C75_worst.
(** Places with heights. *)
Theorem C75_heights : forall u G p q t h1 h2, accurate_gps u G -> on_earth p -> on_earth q -> lat_ok G p -> lat_ok G q ->
  is_angle t (pl p) (pl q) -> g_hgt p = Some h1 -> g_hgt q = Some h2 -> sin (t / 2) + 730 * u <= 1 ->
  exists d D, f_distance G p q = Some d /\ rep (getDistance (exact_row p) (exact_row q)) D /\ D * D = RE * t * (RE * t) + (h1 - h2) * (h1 - h2) /\
    Rabs (d - D) * cos (t / 2) <= RE * (7200 * u) + 12 * u * D.
Proof.
  intros u G p q t h1 h2 HG P Q LP LQ HT E1 E2 S. destruct (ground_near u G HG p q t P Q LP LQ HT) as (K&_). destruct (K S) as (d&Ed&Nd).
  pose proof (height_near u G HG d t h1 h2) as HN. cbv zeta in HN. set (D := sqrt (RE * t * (RE * t) + (h1 - h2) * (h1 - h2))) in *.
  eexists. exists D. splits.
  - unfold f_distance. rewrite Ed, E1, E2. reflexivity.
  - destruct (C30_heights (exact_row p) (exact_row q) (pl p) (pl q) (Fin h1) (Fin h2) h1 h2 (exact_place p) (exact_place q)) as (t'&HT'&HR).
    + unfold exact_row. cbn. rewrite E1. reflexivity.
    + unfold exact_row. cbn. rewrite E2. reflexivity.
    + apply rep_Fin.
    + apply rep_Fin.
    + unfold D. rewrite (angle_inj _ _ _ _ HT HT'). exact HR.
  - unfold D. apply sqrt_sqrt. pose proof (Rle_0_sqr (RE * t)). pose proof (Rle_0_sqr (h1 - h2)). unfold Rsqr in *. lra.
  - pose proof (u_range u (g_ops G) (proj1 HG)) as U.
    assert (C : 0 <= cos (t / 2) <= 1). { split; [|apply COS_bound]. destruct HT as (HT&_). pose proof PI_RGT_0. apply cos_ge_0; lra. }
    eapply Rle_trans; [apply Rmult_le_compat_r; [apply C|exact HN]|]. assert (0 <= D) by apply sqrt_pos. assert (0 <= u * D) by (apply Rmult_le_pos; lra).
    assert (12 * u * D * cos (t / 2) <= 12 * u * D * 1) by (apply Rmult_le_compat_l; lra). unfold RE in *. lra.
Qed.
Print Assumptions C75_heights.
(** The computed bearing points in the exact direction up to rounding errors divided by the sine of the distance. *)
Theorem C75_bearing : forall u G p q t, accurate_gps u G -> on_earth p -> on_earth q -> is_angle t (pl p) (pl q) ->
  exists B, rep (getBearing (exact_row p) (exact_row q)) B /\
    Rabs (sin (rad (f_bearing G p q)) - sin (rad B)) * sin t <= 700 * u /\ Rabs (cos (rad (f_bearing G p q)) - cos (rad B)) * sin t <= 700 * u.
Proof.
  intros u G p q t HG P Q HT. destruct (exact_bearing p q t HT) as (B&HB&_). exists B. split; [exact HB|].
  apply (bearing_near u G HG p q t B P Q HT HB).
Qed.
Print Assumptions C75_bearing.
Lemma cos_half t : 0 <= t <= 1 -> 7 / 8 <= cos (t / 2).
Proof.
  intros T. replace (t / 2) with (2 * (t / 4)) by field. rewrite cos_2a_sin. pose proof (sin_abs (t / 4)) as S.
  rewrite (Rabs_right (t / 4)) in S by lra. apply abs_le_inv in S. nra.
Qed.
Lemma sin_quarter t : 0 <= t <= 1 -> sin (t / 2) <= 1 / 2.
Proof. intros T. pose proof (sin_abs (t / 2)) as S. rewrite (Rabs_right (t / 2)) in S by lra. apply abs_le_inv in S. lra. Qed.
(** Local coordinates: the errors of the distance and of the bearing do not add up to more than rounding errors of the
    radius, however near the place is. *)
Theorem C75_space : forall u G g0 g t, accurate_gps u G -> on_earth g0 -> on_earth g -> lat_ok G g0 -> lat_ok G g ->
  is_angle t (pl g0) (pl g) -> t <= 1 -> g_hgt g0 = None -> g_hgt g = None ->
  exists v sx sy x y, f_space_xy G g0 g = Some v /\
    space_row 2 (exact_row g0) (exact_row g) = Some (Spt sx sy (Some (Fin 0))) /\ rep sx x /\ rep sy y /\
    Rabs (c1 v - x) <= RE * (6000 * u) /\ Rabs (c2 v - y) <= RE * (6000 * u).
Proof.
  intros u G g0 g t HG P Q LP LQ HT T1 N0 N1. pose proof (u_range u (g_ops G) (proj1 HG)) as U.
  assert (T0 : 0 <= t <= 1) by (split; [apply HT|auto]).
  destruct (C75_distance u G g0 g t HG P Q LP LQ HT (or_introl N0)) as (d&Ed&Rd&Nd); [pose proof (sin_quarter t T0); lra|].
  destruct (exact_bearing g0 g t HT) as (B&HB&_).
  destruct (bearing_near u G HG g0 g t B P Q HT HB) as (_&NS&NC).
  assert (Dd : Rabs (d - RE * t) <= RE * (4115 * u)).
  { pose proof (cos_half t T0) as C. pose proof (Rabs_pos (d - RE * t)). 
    assert (Rabs (d - RE * t) * (7 / 8) <= RE * (3600 * u)) by (eapply Rle_trans; [apply Rmult_le_compat_l; [lra|exact C]|exact Nd]). unfold RE in *. lra. }
  assert (UU : 0 <= u * u <= u * / 1000000) by nra.
  assert (K : forall f f', Rabs f <= 1 -> Rabs (f' - f) * sin t <= 730 * u -> Rabs f' <= 1 + 8 * u ->
    Rabs (f_round (g_ops G) (d * f') - RE * t * f) <= RE * (6000 * u)).
  { intros f f' Bf Nf Bf'. assert (Tf : Rabs (RE * t * (f' - f)) <= RE * (876 * u)).
    { rewrite !Rabs_mult, (Rabs_right RE), (Rabs_right t) by (unfold RE; lra). rewrite Rmult_assoc. apply Rmult_le_compat_l; [unfold RE; lra|].
      pose proof (sin_lower t T0) as SL. pose proof (Rabs_pos (f' - f)). assert (5 / 6 * t * Rabs (f' - f) <= sin t * Rabs (f' - f)) by (apply Rmult_le_compat_r; auto). lra. }
    assert (N : near (RE * (5000 * u)) (d * f') (RE * t * f)).
    { unfold near. replace (d * f' - RE * t * f) with ((d - RE * t) * f' + RE * t * (f' - f)) by ring. eapply Rle_trans; [apply Rabs_triang|].
      pose proof (abs_prod _ _ _ _ Dd Bf') as K. unfold RE in *. lra. }
    assert (BX : Rabs (RE * t * f) <= RE * 1).
    { rewrite !Rabs_mult, (Rabs_right RE), (Rabs_right t) by (unfold RE; lra). rewrite Rmult_assoc. apply Rmult_le_compat_l; [unfold RE; lra|]. pose proof (Rabs_pos f). nra. }
    eapply near_le; [apply (gfl u G HG _ _ _ _ N BX)|]. unfold RE. lra. }
  set (b := f_bearing G g0 g) in *. pose proof HG as ((_&_&_&HS&HC&_)&_).
  exists (V2 (f_round (g_ops G) (d * f_sin (g_ops G) (f_rad (g_ops G) b))) (f_round (g_ops G) (d * f_cos (g_ops G) (f_rad (g_ops G) b)))).
  exists (getDistance (exact_row g0) (exact_row g) * nsin (ndeg2rad (getBearing (exact_row g0) (exact_row g))))%num,
    (getDistance (exact_row g0) (exact_row g) * ncos (ndeg2rad (getBearing (exact_row g0) (exact_row g))))%num,
    (RE * t * sin (rad B)), (RE * t * cos (rad B)).
  splits.
  - unfold f_space_xy. rewrite Ed. reflexivity.
  - unfold space_row. cbn [Nat.eqb]. reflexivity.
  - apply rep_mul; [exact Rd|]. apply rep_sin, rep_deg2rad, HB.
  - apply rep_mul; [exact Rd|]. apply rep_cos, rep_deg2rad, HB.
  - cbn [c1]. apply K; [apply sin_1|exact NS|]. apply (near_abs _ (sin (f_rad (g_ops G) b))); [apply HS|apply sin_1].
  - cbn [c2]. apply K; [apply cos_1|exact NC|]. apply (near_abs _ (cos (f_rad (g_ops G) b))); [apply HC|apply cos_1].
Qed.
Print Assumptions C75_space.
(** In double precision: micrometres up to 6371 km, and never more than seven metres. *)
Theorem C75_double : forall G p q t, accurate_gps u53 G -> on_earth p -> on_earth q -> lat_ok G p -> lat_ok G q ->
  is_angle t (pl p) (pl q) -> g_hgt p = None -> g_hgt q = None ->
  (forall d, f_distance G p q = Some d -> Rabs (d - RE * t) <= 7) /\
  (t <= 1 -> exists d v sx sy x y, f_distance G p q = Some d /\ Rabs (d - RE * t) <= 3 / 1000000 /\
     f_space_xy G p q = Some v /\ space_row 2 (exact_row p) (exact_row q) = Some (Spt sx sy (Some (Fin 0))) /\ rep sx x /\ rep sy y /\
     Rabs (c1 v - x) <= 5 / 1000000 /\ Rabs (c2 v - y) <= 5 / 1000000).
Proof.
  intros G p q t HG P Q LP LQ HT N0 N1. split.
  - intros d E. destruct (C75_worst u53 G p q t d HG P Q LP LQ HT (or_introl N0) E) as (_&W). eapply Rle_trans; [exact W|].
    assert (S : sqrt (2190 * u53) <= / 2000000).
    { rewrite <- (sqrt_square (/ 2000000)) by lra. apply sqrt_le_1_alt. unfold u53. lra. }
    unfold RE, u53 in *. lra.
  - intros T1. destruct (C75_space u53 G p q t HG P Q LP LQ HT T1 N0 N1) as (v&sx&sy&x&y&E1&E2&R1&R2&B1&B2).
    assert (T0 : 0 <= t <= 1) by (split; [apply HT|auto]).
    destruct (C75_distance u53 G p q t HG P Q LP LQ HT (or_introl N0)) as (d&Ed&Rd&Nd); [pose proof (sin_quarter t T0); unfold u53; lra|].
    exists d, v, sx, sy, x, y. splits; auto.
    + pose proof (cos_half t T0) as C. pose proof (Rabs_pos (d - RE * t)).
      assert (Rabs (d - RE * t) * (7 / 8) <= RE * (3600 * u53)) by (eapply Rle_trans; [apply Rmult_le_compat_l; [lra|exact C]|exact Nd]). unfold RE, u53 in *. lra.
    + eapply Rle_trans; [exact B1|]. unfold RE, u53. lra.
    + eapply Rle_trans; [exact B2|]. unfold RE, u53. lra.
Qed.
Print Assumptions C75_double.
(** The distance of a place to itself is exactly zero. *)
Theorem C75_same : forall u G p, accurate_gps u G -> f_distance G p p = Some 0.
Proof.
  intros u G p HG. pose proof HG as (HA&HS&HQ&HI&_). pose proof (fl_0 u _ HA) as F0. pose proof (u_range u _ HA) as U.
  assert (Z : forall x, Rabs (x - 0) <= 0 -> x = 0).
  { intros x H. rewrite Rminus_0_r in H. pose proof (Rabs_pos x). destruct (Req_dec x 0) as [E|E]; auto. pose proof (Rabs_pos_lt x E). lra. }
  assert (Q0 : g_sqrt G 0 = 0) by (apply Z; specialize (HQ 0 (Rle_refl 0)); rewrite sqrt_0, Rmult_0_r in HQ; exact HQ).
  assert (I0 : g_asin G 0 = 0) by (apply Z; specialize (HI 0 ltac:(lra)); rewrite asin_0, Rabs_R0, Rmult_0_r in HI; exact HI).
  assert (E : f_ground G p p = Some 0).
  { unfold f_ground, f_haversine. rewrite !Rminus_diag_eq, F0 by reflexivity. unfold Rdiv. rewrite !Rmult_0_l, !F0, HS, !Rmult_0_l, !F0, !Rmult_0_r, F0, Rplus_0_r, F0.
    rewrite Rltb_false by lra. rewrite Q0, I0. rewrite Rltb_false by lra. rewrite !Rmult_0_r, F0, Rmult_0_r, F0. reflexivity. }
  unfold f_distance. rewrite E. destruct (g_hgt p); [|reflexivity].
  rewrite Rminus_diag_eq, F0, Rabs_R0, !Rmult_0_l, F0, Rplus_0_r, F0, Q0 by reflexivity. reflexivity.
Qed.
Print Assumptions C75_same.
(** With rounding and sine that treat both signs alike (as IEEE arithmetic and np.sin do), the distance there is the
    distance back, to the last digit. *)
Theorem C75_symmetric : forall G p q, (forall x, f_round (g_ops G) (- x) = - f_round (g_ops G) x) ->
  (forall x, f_sin (g_ops G) (- x) = - f_sin (g_ops G) x) -> f_distance G p q = f_distance G q p.
Proof.
  intros G p q FO SO.
  assert (D : forall a b, f_round (g_ops G) (a - b) = - f_round (g_ops G) (b - a)) by (intros a b; rewrite <- FO; f_equal; ring).
  assert (E : f_haversine G p q = f_haversine G q p).
  { unfold f_haversine. set (A := g_ops G) in *. rewrite (D (f_rad A (g_lon q))), (D (f_rad A (g_lat q))).
    assert (H : forall x, f_sin A (f_round A (- x / 2)) = - f_sin A (f_round A (x / 2))).
    { intros x. replace (- x / 2) with (- (x / 2)) by field. rewrite FO. apply SO. }
    rewrite !H. assert (S : forall x : R, - x * - x = x * x) by (intros; ring). rewrite !S.
    rewrite (Rmult_comm (f_cos A (f_rad A (g_lat p)))). reflexivity. }
  assert (EG : f_ground G p q = f_ground G q p) by (unfold f_ground; rewrite E; reflexivity).
  unfold f_distance. rewrite EG. destruct (f_ground G q p); destruct (g_hgt p), (g_hgt q); try reflexivity.
  rewrite (D r0), Rabs_Ropp. reflexivity.
Qed.
Print Assumptions C75_symmetric.

(** Opposite places: a cosine that is off by one unit in the last place already makes the result nan. *)
Definition g_exact_but_cos (u : R) : gfloats :=
  GFloats (Floats (fun x => x) rad sin (fun x => cos x * (1 + u)) rdot) sqrt asin
    (fun y x => match toR (natan2 (Fin y) (Fin x)) with Some t => t | None => 0 end) (fun x => x * (180 / PI)).
Lemma atan2_angle y x : x <> 0 \/ y <> 0 -> exists th, match toR (natan2 (Fin y) (Fin x)) with Some t => t | None => 0 end = th /\
  - PI <= th <= PI /\ y = sqrt (x * x + y * y) * sin th /\ x = sqrt (x * x + y * y) * cos th.
Proof.
  intros H. destruct (natan2_polar (Fin y) (Fin x) y x (rep_Fin _) (rep_Fin _) H) as (th&Rth&B&E1&E2).
  exists th. unfold rep in Rth. rewrite Rth. unfold hyp in *. auto.
Qed.
Lemma exact_but_cos u : 0 <= u <= / 1000000 -> accurate_gps u (g_exact_but_cos u).
Proof.
  intros U. assert (Z : forall x y, 0 <= y -> Rabs (x - x) <= y) by (intros; rewrite Rminus_diag_eq, Rabs_R0; auto).
  assert (PP : forall x, 0 <= u * Rabs x) by (intros; apply Rmult_le_pos; [lra|apply Rabs_pos]).
  split; [|split; [|split; [|split; [|split]]]]; cbn [g_exact_but_cos g_ops g_sqrt g_asin g_atan2 g_deg f_round f_rad f_sin f_cos f_dot].
  - split; [exact U|]. splits; cbn [f_round f_rad f_sin f_cos f_dot]; intros.
    + apply Z, PP.
    + apply Z. pose proof (PP (rad d)). lra.
    + apply Z. lra.
    + replace (cos x * (1 + u) - cos x) with (u * cos x) by ring. rewrite Rabs_mult, (Rabs_right u) by lra. pose proof (cos_1 x). pose proof (Rabs_pos (cos x)). nra.
    + apply Z. pose proof (PP (cx a * cx b)). pose proof (PP (cy a * cy b)). pose proof (PP (cz a * cz b)). lra.
  - apply sin_0.
  - intros x H. apply Z. apply Rmult_le_pos; [lra|apply sqrt_pos].
  - intros x H. apply Z. pose proof (PP (asin x)). lra.
  - intros y x H. destruct (atan2_angle y x H) as (th&E&B&E1&E2). exists th. splits; auto; try apply B. rewrite E. apply Z. lra.
  - intros x. apply Z. pose proof (PP (x * (180 / PI))). lra.
Qed.
Theorem C75_antipode_refuted : forall u, 0 < u <= / 1000000 -> exists G p q, accurate_gps u G /\ on_earth p /\ on_earth q /\ lat_ok G p /\ lat_ok G q /\
  is_angle PI (pl p) (pl q) /\ f_distance G p q = None /\ rep (getDistance (exact_row p) (exact_row q)) (RE * PI).
Proof.
  intros u U. exists (g_exact_but_cos u), (Gp 30 0 None), (Gp (-30) 180 None).
  assert (R30 : rad 30 = PI / 6) by (unfold rad; field). assert (R30' : rad (-30) = - (PI / 6)) by (unfold rad; field).
  assert (R0 : rad 0 = 0) by (unfold rad; ring). assert (R180 : rad 180 = PI) by (unfold rad; field). pose proof PI_RGT_0 as HP.
  assert (S3 : sqrt 3 * sqrt 3 = 3) by (apply sqrt_sqrt; lra). assert (P3 : 0 <= sqrt 3) by apply sqrt_pos.
  assert (AN : is_angle PI (pl (Gp 30 0 None)) (pl (Gp (-30) 180 None))).
  { split; [lra|]. unfold pl, rdot, unitv. cbn [g_lat g_lon cx cy cz]. rewrite R30, R30', R0, R180, cos_neg, sin_neg, cos_0, sin_0, cos_PI, sin_PI, cos_PI6, sin_PI6. lra. }
  splits.
  - apply exact_but_cos. lra.
  - split; cbn; apply Rabs_le; lra.
  - split; cbn; apply Rabs_le; lra.
  - unfold lat_ok. cbn [g_exact_but_cos g_ops f_cos f_rad g_lat]. rewrite R30, cos_PI6. apply Rmult_le_pos; lra.
  - unfold lat_ok. cbn [g_exact_but_cos g_ops f_cos f_rad g_lat]. rewrite R30', cos_neg, cos_PI6. apply Rmult_le_pos; lra.
  - exact AN.
  - unfold f_distance, f_ground, f_haversine. cbn [g_exact_but_cos g_ops g_sqrt g_asin f_round f_rad f_sin f_cos g_lat g_lon g_hgt].
    rewrite R30, R30', R0, R180, cos_neg. replace ((- (PI / 6) - PI / 6) / 2) with (- (PI / 6)) by field. replace ((PI - 0) / 2) with (PI / 2) by field.
    rewrite sin_neg, sin_PI6, cos_PI6, sin_PI2.
    set (a := - (1 / 2) * - (1 / 2) + sqrt 3 / 2 * (1 + u) * (sqrt 3 / 2 * (1 + u)) * (1 * 1)).
    assert (Ea : a = 1 + 3 / 4 * (2 * u + u * u)).
    { unfold a. replace (sqrt 3 / 2 * (1 + u) * (sqrt 3 / 2 * (1 + u)) * (1 * 1)) with (sqrt 3 * sqrt 3 * ((1 + u) * (1 + u) / 4)) by field. rewrite S3. field. }
    assert (0 <= u * u) by apply Rle_0_sqr. rewrite Rltb_false by lra. rewrite Rltb_true; [reflexivity|]. rewrite <- sqrt_1 at 1. apply sqrt_lt_1_alt. lra.
  - destruct (C30_distance (exact_row (Gp 30 0 None)) (exact_row (Gp (-30) 180 None)) _ _ (exact_place _) (exact_place _)) as (t&HT&HR); [left; reflexivity|].
    rewrite (angle_inj _ _ _ _ AN HT). exact HR.
Qed.
Print Assumptions C75_antipode_refuted.

(** ** Double precision meets the assumptions *)
Definition gdouble : gfloats :=
  GFloats binary64 (fun x => round53 (sqrt x)) (fun x => round53 (asin x))
    (fun y x => round53 (match toR (natan2 (Fin y) (Fin x)) with Some t => t | None => 0 end)) (fun x => round53 (x * round53 (180 / PI))).
Lemma gdouble_accurate : accurate_gps u53 gdouble.
Proof.
  assert (U : 0 <= u53 <= / 1000000) by (unfold u53; lra). assert (UU : 0 <= u53 * u53 <= u53 * / 1000000) by nra.
  assert (PP : forall x, 0 <= u53 * Rabs x) by (intros; apply Rmult_le_pos; [lra|apply Rabs_pos]).
  split; [exact binary64_accurate|]. splits; cbn [gdouble g_ops g_sqrt g_asin g_atan2 g_deg].
  - cbn [binary64 f_sin]. rewrite sin_0. unfold round53. destruct (Req_EM_T 0 0); [reflexivity|contradiction].
  - intros x H. eapply Rle_trans; [apply round53_near|]. rewrite Rabs_right by (apply Rle_ge, sqrt_pos). lra.
  - intros x H. eapply Rle_trans; [apply round53_near|]. pose proof (PP (asin x)). lra.
  - intros y x H. destruct (atan2_angle y x H) as (th&E&B&E1&E2). exists th. splits; auto; try apply B. rewrite E.
    eapply Rle_trans; [apply round53_near|]. pose proof PI_4. assert (Rabs th <= 4) by (apply Rabs_le; lra). pose proof (Rabs_pos th). nra.
  - intros x. destruct (fl_rel u53 binary64 binary64_accurate (180 / PI)) as (d1&D1&E1). change (f_round binary64 (180 / PI)) with (round53 (180 / PI)) in E1.
    rewrite E1. destruct (fl_rel u53 binary64 binary64_accurate (x * (180 / PI * (1 + d1)))) as (d2&D2&E2).
    change (f_round binary64 (x * (180 / PI * (1 + d1)))) with (round53 (x * (180 / PI * (1 + d1)))) in E2. rewrite E2.
    destruct (prod2 u53 binary64 binary64_accurate d1 d2 D1 D2) as (d3&D3&E3).
    replace (x * (180 / PI * (1 + d1)) * (1 + d2) - x * (180 / PI)) with (((1 + d1) * (1 + d2) - 1) * (x * (180 / PI))) by ring.
    rewrite E3. replace (1 + d3 - 1) with d3 by ring. rewrite Rabs_mult. apply Rmult_le_compat_r; [apply Rabs_pos|]. lra.
Qed.
(** wherever the cosine of the latitude is at least 40 rounding errors *)
Lemma lat_ok_cos u G p : accurate_gps u G -> Rabs (g_lat p) <= 90 -> 40 * u <= cos (rad (g_lat p)) -> lat_ok G p.
Proof.
  intros HG L C0. destruct (angle_near u (g_ops G) (proj1 HG) (g_lat p)) as (_&C); [lra|]. unfold lat_ok. unfold near in C. apply abs_le_inv in C. lra.
Qed.
Lemma lat_ok_60 u G p : accurate_gps u G -> Rabs (g_lat p) <= 60 -> lat_ok G p.
Proof.
  intros HG L. pose proof (u_range u (g_ops G) (proj1 HG)) as U. apply (lat_ok_cos u); [exact HG|lra|].
  assert (1 / 2 <= cos (rad (g_lat p))); [|lra]. rewrite <- cos_PI3. apply abs_le_inv in L. pose proof PI_RGT_0.
  assert (R : Rabs (rad (g_lat p)) <= PI / 3) by (unfold rad; apply Rabs_le; nra).
  replace (cos (rad (g_lat p))) with (cos (Rabs (rad (g_lat p)))) by (unfold Rabs; destruct (Rcase_abs (rad (g_lat p))); [apply cos_neg|reflexivity]).
  pose proof (Rabs_pos (rad (g_lat p))). destruct (Req_dec (Rabs (rad (g_lat p))) (PI / 3)) as [E|E]; [rewrite E; lra|].
  left. apply cos_decreasing_1; lra.
Qed.
Definition ex_p : gp := Gp 52 13 None.
Definition ex_q : gp := Gp 48 13 None.
Lemma ex_angle : is_angle (rad 4) (pl ex_p) (pl ex_q) /\ rad 4 <= 1.
Proof.
  pose proof PI_RGT_0. pose proof PI_4. split; [split|unfold rad; lra].
  - unfold rad. lra.
  - unfold pl, ex_p, ex_q, rdot, unitv. cbn [g_lat g_lon cx cy cz]. replace (rad 4) with (rad 52 - rad 48) by (unfold rad; field). rewrite cos_minus.
    pose proof (sc (rad 13)). replace (cos (rad 52) * cos (rad 13) * (cos (rad 48) * cos (rad 13)) + cos (rad 52) * sin (rad 13) * (cos (rad 48) * sin (rad 13)))
      with (cos (rad 52) * cos (rad 48) * (sin (rad 13) * sin (rad 13) + cos (rad 13) * cos (rad 13))) by ring. rewrite H1. ring.
Qed.
Lemma ex_points : on_earth ex_p /\ on_earth ex_q /\ lat_ok gdouble ex_p /\ lat_ok gdouble ex_q.
Proof.
  assert (O : on_earth ex_p /\ on_earth ex_q) by (split; split; cbn; apply Rabs_le; lra).
  split; [apply O|]. split; [apply O|]. split; apply (lat_ok_60 u53 gdouble _ gdouble_accurate); cbn; apply Rabs_le; lra.
Qed.
Example C75_double_example : exists d v sx sy x y, f_distance gdouble ex_p ex_q = Some d /\ Rabs (d - RE * rad 4) <= 3 / 1000000 /\
  f_space_xy gdouble ex_p ex_q = Some v /\ space_row 2 (exact_row ex_p) (exact_row ex_q) = Some (Spt sx sy (Some (Fin 0))) /\ rep sx x /\ rep sy y /\
  Rabs (c1 v - x) <= 5 / 1000000 /\ Rabs (c2 v - y) <= 5 / 1000000.
Proof.
  destruct ex_points as (P&Q&LP&LQ). destruct ex_angle as (HT&T1).
  apply (C75_double gdouble ex_p ex_q (rad 4) gdouble_accurate P Q LP LQ HT eq_refl eq_refl). exact T1.
Qed.
(** heights of 100 m and 40 m *)
Example C75_heights_example : exists d D, f_distance gdouble (Gp 52 13 (Some 100)) (Gp 48 13 (Some 40)) = Some d /\
  D * D = RE * rad 4 * (RE * rad 4) + (100 - 40) * (100 - 40) /\ Rabs (d - D) * cos (rad 4 / 2) <= RE * (7200 * u53) + 12 * u53 * D.
Proof.
  destruct ex_points as (P&Q&LP&LQ). destruct ex_angle as (HT&T1).
  destruct (C75_heights u53 gdouble (Gp 52 13 (Some 100)) (Gp 48 13 (Some 40)) (rad 4) 100 40 gdouble_accurate) as (d&D&E&_&E2&B); auto.
  - pose proof (sin_quarter (rad 4) (conj (proj1 (proj1 HT)) T1)). unfold u53. lra.
  - exists d, D. auto.
Qed.
Example C75_bearing_example : exists B, rep (getBearing (exact_row ex_p) (exact_row ex_q)) B /\
  Rabs (sin (rad (f_bearing gdouble ex_p ex_q)) - sin (rad B)) * sin (rad 4) <= 700 * u53.
Proof.
  destruct ex_points as (P&Q&LP&LQ). destruct ex_angle as (HT&T1).
  destruct (C75_bearing u53 gdouble ex_p ex_q (rad 4) gdouble_accurate P Q HT) as (B&RB&E&_). exists B. auto.
Qed.
Example C75_same_example : f_distance gdouble (Gp 90 17 (Some 3)) (Gp 90 17 (Some 3)) = Some 0.
Proof. apply (C75_same u53), gdouble_accurate. Qed.
(** rounding the size of a number *)
Definition odd (f : R -> R) (x : R) : R := if Rltb x 0 then - f (- x) else if Rltb 0 x then f x else 0.
Lemma odd_opp f x : odd f (- x) = - odd f x.
Proof.
  unfold odd. destruct (Rtotal_order x 0) as [H|[-> |H]].
  - rewrite (Rltb_true x), (Rltb_false (- x)), (Rltb_true 0 (- x)) by lra. ring.
  - rewrite Ropp_0, !(Rltb_false 0 0) by lra. ring.
  - rewrite (Rltb_true (- x)), (Rltb_false x), (Rltb_true 0 x) by lra. rewrite Ropp_involutive. reflexivity.
Qed.
Definition g_odd : gfloats :=
  GFloats (Floats (odd round53) (f_rad binary64) (fun x => odd round53 (sin x)) (f_cos binary64) (f_dot binary64))
    (g_sqrt gdouble) (g_asin gdouble) (g_atan2 gdouble) (g_deg gdouble).
Example C75_symmetric_example : f_distance g_odd (Gp 52 13 (Some 3)) (Gp (-20) (-100) (Some 50)) = f_distance g_odd (Gp (-20) (-100) (Some 50)) (Gp 52 13 (Some 3)).
Proof. apply C75_symmetric; intros x; cbn [g_odd g_ops f_round f_sin]; [apply odd_opp|rewrite sin_neg; apply odd_opp]. Qed.
