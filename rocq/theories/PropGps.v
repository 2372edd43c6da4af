(** * C30-C32: GPS distances, moving on the sphere, local coordinates *)
Require Import Reals Lra Lia Psatz List Bool.
From Verif Require Import Num Vec Orientation OrientationFacts Trig Gps.
Import ListNotations.
Open Scope R_scope.

(** ** Specification: places are unit vectors, distances are angles *)
Definition unitv (phi lam : R) : v3 R := V3 (cos phi * cos lam) (cos phi * sin lam) (sin phi).
(** [P] is the place on the unit sphere with the latitude and longitude of [p] *)
Definition place (p : gpt) (P : v3 R) : Prop :=
  exists a o, rep (lat p) a /\ rep (lon p) o /\ P = unitv (rad a) (rad o).
Definition is_angle (t : R) (P Q : v3 R) : Prop := 0 <= t <= PI /\ cos t = rdot P Q.
Definition RE : R := 6371000.

Lemma sc (x : R) : sin x * sin x + cos x * cos x = 1.
Proof. pose proof (sin2_cos2 x) as Q; unfold Rsqr in Q; exact Q. Qed.
Lemma unit_unitv phi lam : rdot (unitv phi lam) (unitv phi lam) = 1.
Proof. unfold unitv, rdot; simpl. pose proof (sc phi). pose proof (sc lam). nra. Qed.
Lemma unit_place p P : place p P -> rdot P P = 1.
Proof. intros (a&o&_&_&->). apply unit_unitv. Qed.
Lemma rdot_sym P Q : rdot P Q = rdot Q P. Proof. unfold rdot; ring. Qed.
Lemma cauchy P Q : rdot P P = 1 -> rdot Q Q = 1 -> -1 <= rdot P Q <= 1.
Proof.
  destruct P as [a b c], Q as [x y z]; unfold rdot; simpl; intros H K.
  pose proof (Rle_0_sqr (a - x)); pose proof (Rle_0_sqr (b - y)); pose proof (Rle_0_sqr (c - z)).
  pose proof (Rle_0_sqr (a + x)); pose proof (Rle_0_sqr (b + y)); pose proof (Rle_0_sqr (c + z)).
  unfold Rsqr in *. nra.
Qed.
Lemma dot_one P Q : rdot P P = 1 -> rdot Q Q = 1 -> rdot P Q = 1 -> P = Q.
Proof.
  destruct P as [a b c], Q as [x y z]; unfold rdot; simpl; intros H K L.
  assert ((a - x) * (a - x) + (b - y) * (b - y) + (c - z) * (c - z) = 0) by nra.
  pose proof (Rle_0_sqr (a - x)); pose proof (Rle_0_sqr (b - y)); pose proof (Rle_0_sqr (c - z)). unfold Rsqr in *.
  assert (a - x = 0) by (apply Rsqr_0_uniq; unfold Rsqr; lra).
  assert (b - y = 0) by (apply Rsqr_0_uniq; unfold Rsqr; lra).
  assert (c - z = 0) by (apply Rsqr_0_uniq; unfold Rsqr; lra).
  replace x with a by lra. replace y with b by lra. replace z with c by lra. reflexivity.
Qed.
Lemma haversine f1 l1 f2 l2 :
  sin ((f2 - f1) / 2) * sin ((f2 - f1) / 2) + cos f1 * cos f2 * (sin ((l2 - l1) / 2) * sin ((l2 - l1) / 2)) =
  (1 - rdot (unitv f1 l1) (unitv f2 l2)) / 2.
Proof.
  assert (H : forall x, sin (x / 2) * sin (x / 2) = (1 - cos x) / 2).
  { intros x. pose proof (cos_2a_sin (x / 2)) as Q. replace (2 * (x / 2)) with x in Q by field. lra. }
  rewrite !H, !cos_minus. unfold unitv, rdot; simpl. field.
Qed.
Lemma angle_of c : -1 <= c <= 1 ->
  0 <= 2 * asin (sqrt ((1 - c) / 2)) <= PI /\ cos (2 * asin (sqrt ((1 - c) / 2))) = c.
Proof.
  intros B. set (a := (1 - c) / 2). assert (Ha : 0 <= a <= 1) by (unfold a; lra).
  assert (S0 : 0 <= sqrt a) by apply sqrt_pos.
  assert (SS : sqrt a * sqrt a = a) by (apply sqrt_sqrt; lra).
  assert (S1 : sqrt a <= 1) by nra.
  pose proof (asin_bound (sqrt a)) as [B1 B2]. pose proof (sin_asin (sqrt a) ltac:(lra)) as E.
  assert (P0 : 0 <= asin (sqrt a)).
  { apply Rnot_lt_le; intros L. pose proof PI_RGT_0.
    assert (0 < sin (- asin (sqrt a))) by (apply sin_gt_0; lra). rewrite sin_neg in *. lra. }
  split; [lra|]. rewrite cos_2a_sin, E. unfold a in *; nra.
Qed.
Lemma angle_inj t s P Q : is_angle t P Q -> is_angle s P Q -> t = s.
Proof. intros [B E] [B' E']. apply cos_inj; auto. congruence. Qed.
Lemma angle_sym t P Q : is_angle t P Q -> is_angle t Q P.
Proof. intros [B E]; split; auto. rewrite E; apply rdot_sym. Qed.
Lemma angle_ex P Q : rdot P P = 1 -> rdot Q Q = 1 -> exists t, is_angle t P Q.
Proof. intros H K. eexists. apply angle_of. apply cauchy; auto. Qed.

(** The Gram determinant of three vectors is not negative. *)
Definition det3 (P Q S : v3 R) : R :=
  cx P * (cy Q * cz S - cz Q * cy S) - cy P * (cx Q * cz S - cz Q * cx S) + cz P * (cx Q * cy S - cy Q * cx S).
Lemma gram P Q S : det3 P Q S * det3 P Q S =
  rdot P P * rdot Q Q * rdot S S + 2 * rdot P Q * rdot Q S * rdot P S
  - rdot P P * (rdot Q S * rdot Q S) - rdot Q Q * (rdot P S * rdot P S) - rdot S S * (rdot P Q * rdot P Q).
Proof. unfold det3, rdot; destruct P, Q, S; simpl; ring. Qed.
Lemma angle_triangle t1 t2 t3 P Q S :
  rdot P P = 1 -> rdot Q Q = 1 -> rdot S S = 1 ->
  is_angle t1 P Q -> is_angle t2 Q S -> is_angle t3 P S -> t3 <= t1 + t2.
Proof.
  intros HP HQ HS [B1 E1] [B2 E2] [B3 E3].
  destruct (Rle_or_lt PI (t1 + t2)) as [L|L]; [lra|].
  apply Rnot_lt_le; intros G.
  assert (C : cos t3 < cos (t1 + t2)) by (apply cos_decreasing_1; lra).
  pose proof (gram P Q S) as D. rewrite HP, HQ, HS, <- E1, <- E2, <- E3 in D.
  assert (D0 : 0 <= det3 P Q S * det3 P Q S) by apply Rle_0_sqr.
  rewrite cos_plus in C.
  assert (0 <= sin t1) by (apply sin_ge_0; lra). assert (0 <= sin t2) by (apply sin_ge_0; lra).
  pose proof (sc t1) as Q1. pose proof (sc t2) as Q2.
  assert (EQ : det3 P Q S * det3 P Q S =
     (sin t1 * sin t2) * (sin t1 * sin t2) - (cos t3 - cos t1 * cos t2) * (cos t3 - cos t1 * cos t2)).
  { rewrite D. replace (sin t1 * sin t2 * (sin t1 * sin t2)) with ((sin t1 * sin t1) * (sin t2 * sin t2)) by ring.
    replace (sin t1 * sin t1) with (1 - cos t1 * cos t1) by lra.
    replace (sin t2 * sin t2) with (1 - cos t2 * cos t2) by lra. ring. }
  assert (0 <= sin t1 * sin t2) by (apply Rmult_le_pos; auto).
  nra.
Qed.

(** ** C30 *)
Lemma ground_rep p q P Q : place p P -> place q Q ->
  exists t, is_angle t P Q /\
    rep (earth * (Fin 2 * nasin (nsqrt
       (square (nsin ((rad_lat q - rad_lat p) / Fin 2)) +
        ncos (rad_lat p) * ncos (rad_lat q) * square (nsin ((rad_lon q - rad_lon p) / Fin 2))))))%num (RE * t).
Proof.
  intros (a&o&Ra&Ro&->) (a'&o'&Ra'&Ro'&->).
  set (P := unitv (rad a) (rad o)). set (Q := unitv (rad a') (rad o')).
  assert (B : -1 <= rdot P Q <= 1) by (apply cauchy; apply unit_unitv).
  destruct (angle_of _ B) as (T&C).
  exists (2 * asin (sqrt ((1 - rdot P Q) / 2))). split; [split; auto|].
  apply rep_mul; [apply rep_Fin|]. apply rep_mul; [apply rep_Fin|].
  assert (H : rep (square (nsin ((rad_lat q - rad_lat p) / Fin 2)) +
        ncos (rad_lat p) * ncos (rad_lat q) * square (nsin ((rad_lon q - rad_lon p) / Fin 2)))%num
        ((1 - rdot P Q) / 2)).
  { unfold P, Q. rewrite <- haversine.
    unfold square, rad_lat, rad_lon. 
    apply rep_deg2rad in Ra. apply rep_deg2rad in Ro. apply rep_deg2rad in Ra'. apply rep_deg2rad in Ro'.
    fold (rad a) in Ra. fold (rad o) in Ro. fold (rad a') in Ra'. fold (rad o') in Ro'.
    repeat first [assumption | apply rep_sub | apply rep_add | apply rep_mul | apply rep_sin | apply rep_cos
                 | apply rep_div | apply rep_Fin | discrR]. }
  apply rep_asin; [apply rep_sqrt; [exact H|lra]|].
  pose proof (sqrt_pos ((1 - rdot P Q) / 2)).
  assert (sqrt ((1 - rdot P Q) / 2) * sqrt ((1 - rdot P Q) / 2) = (1 - rdot P Q) / 2) by (apply sqrt_sqrt; lra).
  nra.
Qed.

(** The distance on the ground is the radius of the earth times the angle between the places. *)
Theorem C30_distance p q P Q : place p P -> place q Q -> hgt p = None \/ hgt q = None ->
  exists t, is_angle t P Q /\ rep (getDistance p q) (RE * t).
Proof.
  intros HP HQ H. destruct (ground_rep p q P Q HP HQ) as (t&A&R).
  exists t; split; auto. unfold getDistance. destruct H as [-> | ->]; [exact R|].
  destruct (hgt p); exact R.
Qed.
Theorem C30_heights p q P Q h k H K : place p P -> place q Q -> hgt p = Some h -> hgt q = Some k ->
  rep h H -> rep k K ->
  exists t, is_angle t P Q /\ rep (getDistance p q) (sqrt (RE * t * (RE * t) + (H - K) * (H - K))).
Proof.
  intros HP HQ E1 E2 Rh Rk. destruct (ground_rep p q P Q HP HQ) as (t&A&R).
  exists t; split; auto. unfold getDistance. rewrite E1, E2.
  assert (0 <= RE * t * (RE * t)) by (apply Rle_0_sqr).
  assert (0 <= (H - K) * (H - K)) by (apply Rle_0_sqr).
  apply rep_sqrt; [|lra].
  unfold square. apply rep_add; [apply rep_mul; exact R|].
  eapply rep_eq; [apply rep_mul; apply rep_abs; apply rep_sub; eassumption|].
  change (Rsqr (Rabs (H - K)) = Rsqr (H - K)). symmetry; apply Rsqr_abs.
Qed.

(** A metric: the values the user reads satisfy the laws of a distance. *)
Lemma RE_pos : 0 < RE. Proof. unfold RE; lra. Qed.
Theorem C30_metric p q s P Q S dpq dqp dps dqs :
  hgt p = None -> hgt q = None -> hgt s = None -> place p P -> place q Q -> place s S ->
  rep (getDistance p q) dpq -> rep (getDistance q p) dqp -> rep (getDistance p s) dps -> rep (getDistance q s) dqs ->
  0 <= dpq <= PI * RE /\ dpq = dqp /\ (dpq = 0 <-> P = Q) /\ dps <= dpq + dqs.
Proof.
  intros Np Nq Ns HP HQ HS R1 R2 R3 R4. pose proof RE_pos as HR.
  destruct (C30_distance p q P Q) as (t1&A1&D1); auto.
  destruct (C30_distance q p Q P) as (t2&A2&D2); auto.
  destruct (C30_distance p s P S) as (t3&A3&D3); auto.
  destruct (C30_distance q s Q S) as (t4&A4&D4); auto.
  pose proof (rep_inj _ _ _ R1 D1) as ->. pose proof (rep_inj _ _ _ R2 D2) as ->.
  pose proof (rep_inj _ _ _ R3 D3) as ->. pose proof (rep_inj _ _ _ R4 D4) as ->.
  pose proof (unit_place _ _ HP) as UP. pose proof (unit_place _ _ HQ) as UQ. pose proof (unit_place _ _ HS) as US.
  split; [|split; [|split]].
  - destruct A1 as [[B B'] _]. split; [apply Rmult_le_pos; lra|].
    rewrite (Rmult_comm PI). apply Rmult_le_compat_l; lra.
  - f_equal. eapply angle_inj; [exact A1|apply angle_sym; exact A2].
  - split; intros E.
    + assert (t1 = 0) by nra. subst t1. destruct A1 as [_ C]. rewrite cos_0 in C. apply dot_one; auto.
    + subst Q. assert (t1 = 0); [|subst; ring]. eapply angle_inj; [exact A1|].
      split; [pose proof PI_RGT_0; lra|]. rewrite cos_0; auto.
  - pose proof (angle_triangle _ _ _ _ _ _ UP UQ US A1 A4 A3). nra.
Qed.

(** ** C31 *)
(** north and east at a place, and the point reached by turning away by [t] in direction [b] *)
Definition northv (phi lam : R) : v3 R := V3 (- sin phi * cos lam) (- sin phi * sin lam) (cos phi).
Definition eastv (lam : R) : v3 R := V3 (- sin lam) (cos lam) 0.
Definition onward (phi lam t b : R) : v3 R :=
  V3 (cos t * cx (unitv phi lam) + sin t * (cos b * cx (northv phi lam) + sin b * cx (eastv lam)))
     (cos t * cy (unitv phi lam) + sin t * (cos b * cy (northv phi lam) + sin b * cy (eastv lam)))
     (cos t * cz (unitv phi lam) + sin t * (cos b * cz (northv phi lam) + sin b * cz (eastv lam))).
Definition radius (p : gpt) (r : R) : Prop :=
  match hgt p with None => r = RE | Some h => exists H, rep h H /\ r = RE + H end.
Lemma radius_rep p r : radius p r -> rep (match hgt p with Some h => (earth + h)%num | None => earth end) r.
Proof.
  unfold radius. destruct (hgt p) as [h|].
  - intros (H&Rh&->). apply rep_add; auto. apply rep_Fin.
  - intros ->. apply rep_Fin.
Qed.
Lemma rad_deg x : rad (x * (180 / PI)) = x.
Proof. unfold rad. pose proof PI_RGT_0. field. lra. Qed.
Lemma natan2_finite y x b a : rep y b -> rep x a -> exists th, rep (natan2 y x) th.
Proof.
  intros Hy Hx. destruct (Req_dec a 0) as [Ea|Ea].
  - destruct (Req_dec b 0) as [Eb|Eb].
    + subst. rlook Hy; rlook Hx. unfold natan2; rewrite H, H0.
      rewrite (Rltb_false 0 0) by lra.
      rewrite Reqb_refl. destruct s0; eexists; first [apply rep_Fin | apply rep_mk].
    + destruct (natan2_polar y x b a) as (th&R&_); auto. exists th; exact R.
  - destruct (natan2_polar y x b a) as (th&R&_); auto. exists th; exact R.
Qed.
Lemma polar_unique h a b c d e : h * a = e * b -> h * c = e * d -> a * a + c * c = 1 -> b * b + d * d = 1 ->
  0 <= h -> 0 <= e -> h = e.
Proof.
  intros H1 H2 N1 N2 Ph Pe.
  assert (h * h = e * e).
  { transitivity ((h * a) * (h * a) + (h * c) * (h * c)).
    - transitivity (h * h * (a * a + c * c)); [rewrite N1|]; ring.
    - rewrite H1, H2. transitivity (e * e * (b * b + d * d)); [|rewrite N2]; ring. }
  nra.
Qed.
Lemma lat2_bound phi t b : -1 <= sin phi * cos t + cos phi * sin t * cos b <= 1.
Proof.
  pose proof (cauchy (V3 (sin phi) (cos phi * cos b) (cos phi * sin b)) (V3 (cos t) (sin t) 0)) as C.
  unfold rdot in C; simpl in C. pose proof (sc phi). pose proof (sc t). pose proof (sc b).
  assert (-1 <= sin phi * cos t + cos phi * cos b * sin t + cos phi * sin b * 0 <= 1) by (apply C; nra).
  nra.
Qed.
Lemma cos_asin_pos x : -1 <= x <= 1 -> 0 <= cos (asin x) /\ cos (asin x) * cos (asin x) = 1 - x * x.
Proof.
  intros B. pose proof (asin_bound x) as [B1 B2]. split; [apply cos_ge_0; lra|].
  pose proof (sc (asin x)) as Q. rewrite (sin_asin x B) in Q. lra.
Qed.

(** Where moveDistance arrives, away from the poles: the unit vector turned by d / R. *)
Lemma move_place p a o d b D B r : rep (lat p) a -> rep (lon p) o -> 0 < cos (rad a) ->
  rep d D -> rep b B -> radius p r -> r <> 0 ->
  place (moveDistance p d b) (onward (rad a) (rad o) (D / r) (rad B)) /\
  exists a' , rep (lat (moveDistance p d b)) a' /\ 0 <= cos (rad a').
Proof.
  intros Ra Ro Hc Rd Rb Hr Hnz. apply radius_rep in Hr.
  unfold moveDistance, rad_lat, rad_lon, place; cbn [lat lon].
  apply rep_deg2rad in Ra. apply rep_deg2rad in Ro. apply rep_deg2rad in Rb.
  fold (rad a) in Ra. fold (rad o) in Ro. fold (rad B) in Rb.
  revert Hr. generalize (match hgt p with Some h => (earth + h)%num | None => earth end). intros rr Hr.
  assert (Rt : rep (d / rr)%num (D / r)) by (apply rep_div; auto).
  set (t := D / r) in *. set (f := rad a) in *. set (l := rad o) in *. set (be := rad B) in *.
  pose proof (lat2_bound f t be) as BL.
  assert (R2 : rep (nasin (nsin (ndeg2rad (lat p)) * ncos (d / rr) + ncos (ndeg2rad (lat p)) * nsin (d / rr) * ncos (ndeg2rad b)))%num
                   (asin (sin f * cos t + cos f * sin t * cos be))).
  { apply rep_asin; auto. rep_all; assumption. }
  set (L2 := nasin _) in *. set (s2 := sin f * cos t + cos f * sin t * cos be) in *.
  set (l2 := asin s2) in *.
  assert (S2 : sin l2 = s2) by (apply sin_asin; auto).
  destruct (cos_asin_pos s2 BL) as (C0&C2). fold l2 in C0, C2.
  set (x' := cos t * cos f - sin t * cos be * sin f). set (y' := sin t * sin be).
  assert (N : x' * x' + y' * y' = 1 - s2 * s2).
  { unfold x', y', s2. pose proof (sc t). pose proof (sc f). pose proof (sc be).
    replace (sin f * sin f) with (1 - cos f * cos f) by lra.
    assert (E1 : sin be * sin be = 1 - cos be * cos be) by lra.
    assert (E2 : sin f * sin f = 1 - cos f * cos f) by lra.
    assert (E3 : sin t * sin t = 1 - cos t * cos t) by lra.
    transitivity (cos t * cos t * (cos f * cos f) - 2 * cos t * cos f * sin t * cos be * sin f
       + (sin t * sin t) * (cos be * cos be) * (sin f * sin f) + (sin t * sin t) * (sin be * sin be)); [ring|].
    transitivity (1 - (sin f * sin f) * (cos t * cos t) - 2 * sin f * cos t * cos f * sin t * cos be
       - (cos f * cos f) * (sin t * sin t) * (cos be * cos be)); [|ring].
    rewrite E1, E2, E3. ring. }
  assert (RY : rep (nsin (ndeg2rad b) * nsin (d / rr) * ncos (ndeg2rad (lat p)))%num (cos f * y')).
  { eapply rep_eq; [rep_all; eassumption|]. unfold y'; ring. }
  assert (RX : rep (ncos (d / rr) - nsin (ndeg2rad (lat p)) * nsin L2)%num (cos f * x')).
  { eapply rep_eq; [rep_all; eassumption|]. rewrite S2. unfold x', s2. pose proof (sc f).
    assert (E2 : sin f * sin f = 1 - cos f * cos f) by lra.
    transitivity (cos t - (sin f * sin f) * cos t - sin f * cos f * sin t * cos be); [ring|rewrite E2; ring]. }
  assert (exists th, rep (natan2 (nsin (ndeg2rad b) * nsin (d / rr) * ncos (ndeg2rad (lat p)))%num
             (ncos (d / rr) - nsin (ndeg2rad (lat p)) * nsin L2)%num) th /\
             cos l2 * cos th = x' /\ cos l2 * sin th = y') as (th&RT&EX&EY).
  { destruct (Req_dec (cos l2) 0) as [Z|Z].
    - destruct (natan2_finite _ _ _ _ RY RX) as (th&R). exists th; split; auto.
      rewrite Z in *. assert (x' = 0) by nra. assert (y' = 0) by nra. lra.
    - destruct (natan2_polar _ _ _ _ RY RX) as (th&R&_&P1&P2).
      { destruct (Req_dec x' 0) as [X|X].
        - right. intros Y. assert (y' = 0) by nra. apply Z. rewrite X, H in N. nra.
        - left. intros Y. apply X. nra. }
      exists th; split; auto.
      assert (Hh : hyp (cos f * x') (cos f * y') = cos f * cos l2).
      { unfold hyp. replace (cos f * x' * (cos f * x') + cos f * y' * (cos f * y'))
          with ((cos f * cos l2) * (cos f * cos l2)).
        - apply sqrt_square. apply Rmult_le_pos; lra.
        - transitivity (cos f * cos f * (x' * x' + y' * y')); [rewrite N, <- C2|]; ring. }
      rewrite Hh in P1, P2.
      split; apply (Rmult_eq_reg_l (cos f)); lra. }
  split.
  - exists (l2 * (180 / PI)), ((l + th) * (180 / PI)). splits.
    + apply rep_rad2deg; exact R2.
    + apply rep_rad2deg, rep_add; auto.
    + rewrite !rad_deg. unfold onward, unitv, northv, eastv; simpl. rewrite cos_plus, sin_plus, S2.
      assert (G1 : cos l2 * (cos l * cos th - sin l * sin th) = cos l * (cos l2 * cos th) - sin l * (cos l2 * sin th)) by ring.
      assert (G2 : cos l2 * (sin l * cos th + cos l * sin th) = sin l * (cos l2 * cos th) + cos l * (cos l2 * sin th)) by ring.
      rewrite G1, G2, EX, EY. unfold x', y', s2. f_equal; ring.
  - exists (l2 * (180 / PI)). split; [apply rep_rad2deg; exact R2|]. rewrite rad_deg; auto.
Qed.
Lemma onward_dot phi lam t b : rdot (unitv phi lam) (onward phi lam t b) = cos t.
Proof.
  unfold rdot, onward, unitv, northv, eastv; simpl.
  pose proof (sc phi). pose proof (sc lam).
  assert (E1 : sin phi * sin phi = 1 - cos phi * cos phi) by lra.
  assert (E2 : sin lam * sin lam = 1 - cos lam * cos lam) by lra.
  transitivity (cos t * (cos phi * cos phi) * (cos lam * cos lam + sin lam * sin lam) + cos t * (sin phi * sin phi)
     + sin t * cos b * cos phi * sin phi * (1 - (cos lam * cos lam + sin lam * sin lam))); [ring|].
  rewrite E1, E2. ring.
Qed.
Lemma cos_lat_pos a : -90 < a < 90 -> 0 < cos (rad a).
Proof. intros B. unfold rad. pose proof PI_RGT_0. apply cos_gt_0; nra. Qed.

(** The place reached, as a statement about vectors. *)
Theorem C31_destination p a o d b D B r : rep (lat p) a -> rep (lon p) o -> -90 < a < 90 ->
  rep d D -> rep b B -> radius p r -> r <> 0 ->
  place (moveDistance p d b) (onward (rad a) (rad o) (D / r) (rad B)) /\
  exists a', rep (lat (moveDistance p d b)) a' /\ -90 <= a' <= 90.
Proof.
  intros Ra Ro Hc Rd Rb Hr Hnz.
  destruct (move_place p a o d b D B r Ra Ro (cos_lat_pos _ Hc) Rd Rb Hr Hnz) as (H&_). split; auto.
  pose proof (radius_rep _ _ Hr) as Rr. unfold moveDistance; cbn [lat].
  eexists. split.
  - apply rep_rad2deg. apply rep_asin; [|].
    + unfold rad_lat. apply rep_deg2rad in Ra, Rb. rep_all; try exact Ra; try exact Rb; try exact Rd; try exact Rr; auto.
    + fold (rad a). fold (rad B). apply lat2_bound.
  - match goal with |- _ <= asin ?x * _ <= _ => pose proof (asin_bound x) as [B1 B2] end.
    pose proof PI_RGT_0 as HP. set (z := asin _) in *.
    assert (Hi : 0 < 180 / PI) by (apply Rdiv_lt_0_compat; lra).
    assert (E : PI / 2 * (180 / PI) = 90) by (field; lra).
    split; [replace (-90) with (- (PI / 2) * (180 / PI)) by lra | rewrite <- E]; apply Rmult_le_compat_r; lra.
Qed.
Lemma move_dot p a o d b D B r : rep (lat p) a -> rep (lon p) o -> -90 <= a <= 90 ->
  rep d D -> rep b B -> radius p r -> r <> 0 ->
  exists Q, place (moveDistance p d b) Q /\ rdot (unitv (rad a) (rad o)) Q = cos (D / r).
Proof.
  intros Ra Ro Ba Rd Rb Hr Hnz.
  destruct (Req_dec (cos (rad a)) 0) as [Z|Z].
  - pose proof (radius_rep _ _ Hr) as Rr. clear Hr.
    unfold moveDistance, rad_lat, rad_lon, place; cbn [lat lon].
    apply rep_deg2rad in Ra. apply rep_deg2rad in Ro. apply rep_deg2rad in Rb.
    fold (rad a) in Ra. fold (rad o) in Ro. fold (rad B) in Rb.
    revert Rr. generalize (match hgt p with Some h => (earth + h)%num | None => earth end). intros rr Hr.
    assert (Rt : rep (d / rr)%num (D / r)) by (apply rep_div; auto).
    pose proof (lat2_bound (rad a) (D / r) (rad B)) as BL.
    assert (R2 : rep (nasin (nsin (ndeg2rad (lat p)) * ncos (d / rr) + ncos (ndeg2rad (lat p)) * nsin (d / rr) * ncos (ndeg2rad b)))%num
                     (asin (sin (rad a) * cos (D / r) + cos (rad a) * sin (D / r) * cos (rad B)))).
    { apply rep_asin; auto. rep_all; assumption. }
    set (L2 := nasin _) in *. set (l2 := asin _) in *.
    assert (S2 : sin l2 = sin (rad a) * cos (D / r)).
    { unfold l2. rewrite sin_asin by auto. rewrite Z; ring. }
    assert (exists th, rep (natan2 (nsin (ndeg2rad b) * nsin (d / rr) * ncos (ndeg2rad (lat p)))%num
             (ncos (d / rr) - nsin (ndeg2rad (lat p)) * nsin L2)%num) th) as (th&RT).
    { eapply natan2_finite; rep_all; eassumption. }
    eexists. split.
    + exists (l2 * (180 / PI)), ((rad o + th) * (180 / PI)). splits;
        [apply rep_rad2deg; exact R2 | apply rep_rad2deg, rep_add; auto | reflexivity].
    + rewrite !rad_deg. unfold unitv, rdot; simpl. rewrite Z, S2.
      pose proof (sc (rad a)) as Q. rewrite Z in Q.
      transitivity (sin (rad a) * sin (rad a) * cos (D / r)); [ring|].
      replace (sin (rad a) * sin (rad a)) with 1 by lra. ring.
  - assert (0 < cos (rad a)).
    { assert (0 <= cos (rad a)); [|lra]. unfold rad. pose proof PI_RGT_0. apply cos_ge_0; nra. }
    destruct (move_place p a o d b D B r Ra Ro H Rd Rb Hr Hnz) as (HQ&_).
    eexists; split; [exact HQ|]. apply onward_dot.
Qed.

Lemma move_angle p a o d b D B r : rep (lat p) a -> rep (lon p) o -> -90 <= a <= 90 ->
  rep d D -> rep b B -> radius p r -> 0 < r -> 0 <= D <= PI * r ->
  exists Q, place (moveDistance p d b) Q /\ is_angle (D / r) (unitv (rad a) (rad o)) Q.
Proof.
  intros Ra Ro Ba Rd Rb Hr Hp HD.
  destruct (move_dot p a o d b D B r) as (Q&HQ&E); auto; [lra|].
  exists Q; split; auto. split; [|auto]. split.
  - apply Rmult_le_pos; [lra|]. left; apply Rinv_0_lt_compat; auto.
  - apply (Rmult_le_reg_r r); auto. unfold Rdiv. rewrite Rmult_assoc, Rinv_l by lra. lra.
Qed.

(** The distance measured back is the distance moved, poles included. *)
Theorem C31_distance p a o d b D B : hgt p = None -> rep (lat p) a -> rep (lon p) o -> -90 <= a <= 90 ->
  rep d D -> rep b B -> 0 <= D <= PI * RE ->
  rep (getDistance p (moveDistance p d b)) D.
Proof.
  intros Np Ra Ro Ba Rd Rb HD. pose proof RE_pos as HR.
  destruct (move_angle p a o d b D B RE) as (Q&HQ&A); auto; [unfold radius; rewrite Np; auto|].
  destruct (C30_distance p (moveDistance p d b) (unitv (rad a) (rad o)) Q) as (t&A'&R); auto.
  { exists a, o; auto. }
  eapply rep_eq; [exact R|]. rewrite (angle_inj _ _ _ _ A' A). field. lra.
Qed.
(** With a height the move takes place on the larger sphere, the measurement does not. *)
Theorem C31_height p a o d b D B h H : hgt p = Some h -> rep h H -> - RE < H ->
  rep (lat p) a -> rep (lon p) o -> -90 <= a <= 90 -> rep d D -> rep b B -> 0 <= D <= PI * (RE + H) ->
  rep (getDistance p (moveDistance p d b)) (D * (RE / (RE + H))) /\
  exists h', hgt (moveDistance p d b) = Some h' /\ rep h' H.
Proof.
  intros Np Rh Hh Ra Ro Ba Rd Rb HD. pose proof RE_pos as HR.
  destruct (move_angle p a o d b D B (RE + H)) as (Q&HQ&A); auto;
    [unfold radius; rewrite Np; eauto | lra |].
  assert (E' : hgt (moveDistance p d b) = Some (Fin 1 * h)%num) by (unfold moveDistance; rewrite Np; reflexivity).
  assert (Rh' : rep (Fin 1 * h)%num H).
  { eapply rep_eq; [apply rep_mul; [apply rep_Fin|exact Rh]|ring]. }
  split; [|eauto].
  destruct (C30_heights p (moveDistance p d b) (unitv (rad a) (rad o)) Q h (Fin 1 * h)%num H H) as (t&A'&R); eauto.
  { exists a, o; auto. }
  eapply rep_eq; [exact R|]. rewrite (angle_inj _ _ _ _ A' A).
  replace (_ + (H - H) * (H - H)) with (RE * (D / (RE + H)) * (RE * (D / (RE + H)))) by ring.
  rewrite sqrt_square; [field; lra|].
  apply Rmult_le_pos; [lra|]. apply Rmult_le_pos; [lra|]. left; apply Rinv_0_lt_compat; lra.
Qed.

(** What a bearing means: the components of the target towards north and east. *)
Lemma bearing_args p q a o Q : rep (lat p) a -> rep (lon p) o -> place q Q ->
  rep (ncos (rad_lat q) * nsin (rad_lon q - rad_lon p))%num (rdot Q (eastv (rad o))) /\
  rep (ncos (rad_lat p) * nsin (rad_lat q) - nsin (rad_lat p) * ncos (rad_lat q) * ncos (rad_lon q - rad_lon p))%num
      (rdot Q (northv (rad a) (rad o))).
Proof.
  intros Ra Ro (a'&o'&Ra'&Ro'&->). unfold rad_lat, rad_lon.
  apply rep_deg2rad in Ra. apply rep_deg2rad in Ro. apply rep_deg2rad in Ra'. apply rep_deg2rad in Ro'.
  fold (rad a) in Ra. fold (rad o) in Ro. fold (rad a') in Ra'. fold (rad o') in Ro'.
  unfold rdot, eastv, northv, unitv; simpl. split.
  - eapply rep_eq; [repeat first [eassumption|apply rep_sub|apply rep_mul|apply rep_sin|apply rep_cos]|].
    rewrite sin_minus; ring.
  - eapply rep_eq; [repeat first [eassumption|apply rep_sub|apply rep_mul|apply rep_sin|apply rep_cos]|].
    rewrite cos_minus; ring.
Qed.
Theorem C31_bearing_meaning p q a o Q : rep (lat p) a -> rep (lon p) o -> place q Q ->
  rdot Q (northv (rad a) (rad o)) <> 0 \/ rdot Q (eastv (rad o)) <> 0 ->
  exists B k, rep (getBearing p q) B /\ -180 <= B <= 180 /\ 0 < k /\
    rdot Q (northv (rad a) (rad o)) = k * cos (rad B) /\ rdot Q (eastv (rad o)) = k * sin (rad B).
Proof.
  intros Ra Ro HQ Hnz. destruct (bearing_args p q a o Q Ra Ro HQ) as (RX&RY).
  destruct (natan2_polar _ _ _ _ RX RY Hnz) as (th&R&[B1 B2]&E1&E2).
  pose proof PI_RGT_0 as HP.
  exists (th * (180 / PI)), (hyp (rdot Q (northv (rad a) (rad o))) (rdot Q (eastv (rad o)))).
  assert (Hi : 0 < 180 / PI) by (apply Rdiv_lt_0_compat; lra).
  assert (E : PI * (180 / PI) = 180) by (field; lra).
  rewrite rad_deg. split; [apply rep_rad2deg; exact R|]. split; [|split; [|split; auto]].
  - assert (- PI * (180 / PI) <= th * (180 / PI)) by (apply Rmult_le_compat_r; lra).
    assert (th * (180 / PI) <= PI * (180 / PI)) by (apply Rmult_le_compat_r; lra). lra.
  - unfold hyp in *. apply sqrt_lt_R0. pose proof (Rle_0_sqr (rdot Q (northv (rad a) (rad o)))).
    pose proof (Rle_0_sqr (rdot Q (eastv (rad o)))). unfold Rsqr in *.
    destruct Hnz as [Z|Z]; apply Rsqr_pos_lt in Z; unfold Rsqr in Z; lra.
Qed.
Lemma onward_north phi lam t b : rdot (onward phi lam t b) (northv phi lam) = sin t * cos b.
Proof.
  unfold rdot, onward, unitv, northv, eastv; simpl. pose proof (sc phi). pose proof (sc lam).
  assert (E1 : sin phi * sin phi = 1 - cos phi * cos phi) by lra.
  assert (E2 : sin lam * sin lam = 1 - cos lam * cos lam) by lra.
  transitivity (- (cos t * cos phi * sin phi) * (cos lam * cos lam + sin lam * sin lam) + cos t * sin phi * cos phi
     + sin t * cos b * ((sin phi * sin phi) * (cos lam * cos lam + sin lam * sin lam) + cos phi * cos phi)); [ring|].
  rewrite E1, E2. ring.
Qed.
Lemma onward_east phi lam t b : rdot (onward phi lam t b) (eastv lam) = sin t * sin b.
Proof.
  unfold rdot, onward, unitv, northv, eastv; simpl. pose proof (sc lam).
  assert (E2 : sin lam * sin lam = 1 - cos lam * cos lam) by lra.
  transitivity (sin t * sin b * (cos lam * cos lam + sin lam * sin lam)); [ring|].
  rewrite E2. ring.
Qed.
Lemma same_angle x y : cos x = cos y -> sin x = sin y -> exists k : Z, x = y + 2 * IZR k * PI.
Proof.
  intros C S. pose proof PI_RGT_0 as HP.
  exists (Rfloor ((x - y) / (2 * PI))). destruct (Rfloor_bounds ((x - y) / (2 * PI))) as (B1&B2).
  set (k := Rfloor _) in *.
  apply angle_unique.
  - assert (E : x - y = (x - y) / (2 * PI) * (2 * PI)) by (field; lra). nra.
  - rewrite cos_period_Z; auto.
  - rewrite sin_period_Z; auto.
Qed.
Lemma same_deg x y : cos (rad x) = cos (rad y) -> sin (rad x) = sin (rad y) -> exists k : Z, x = y + 360 * IZR k.
Proof.
  intros C S. destruct (same_angle _ _ C S) as (k&E). exists k. unfold rad in E. pose proof PI_RGT_0 as HP.
  apply (Rmult_eq_reg_r (PI / 180)); [|lra]. lra.
Qed.
Lemma polar_same k K x y : 0 < k -> 0 < K -> k * cos x = K * cos y -> k * sin x = K * sin y ->
  cos x = cos y /\ sin x = sin y.
Proof.
  intros Hk HK C S.
  assert (k = K).
  { apply (polar_unique k (cos x) (cos y) (sin x) (sin y) K); auto; try lra.
    - rewrite Rplus_comm; apply sc.
    - rewrite Rplus_comm; apply sc. }
  subst K. split; apply (Rmult_eq_reg_l k); lra.
Qed.

(** The bearing measured back is the direction moved. *)
Theorem C31_bearing p a o d b D B r : rep (lat p) a -> rep (lon p) o -> -90 < a < 90 ->
  rep d D -> rep b B -> radius p r -> 0 < D < PI * r ->
  exists B' (k : Z), rep (getBearing p (moveDistance p d b)) B' /\ -180 <= B' <= 180 /\ B' = B + 360 * IZR k.
Proof.
  intros Ra Ro Ba Rd Rb Hr HD. pose proof PI_RGT_0 as HP.
  assert (Hp : 0 < r) by nra.
  destruct (move_place p a o d b D B r Ra Ro (cos_lat_pos _ Ba) Rd Rb Hr ltac:(lra)) as (HQ&_).
  assert (HS : 0 < sin (D / r)).
  { apply sin_gt_0; [apply Rdiv_lt_0_compat; lra|].
    apply (Rmult_lt_reg_r r); auto. unfold Rdiv. rewrite Rmult_assoc, Rinv_l by lra. lra. }
  destruct (C31_bearing_meaning p (moveDistance p d b) a o _ Ra Ro HQ) as (B'&k&R&BB&Hk&E1&E2).
  { rewrite onward_north, onward_east. destruct (Req_dec (cos (rad B)) 0) as [Z|Z].
    - right. pose proof (sc (rad B)) as Q. rewrite Z in Q. intros N. assert (sin (rad B) = 0) by nra. nra.
    - left. intros N. apply Z. nra. }
  rewrite onward_north in E1. rewrite onward_east in E2.
  destruct (polar_same k (sin (D / r)) (rad B') (rad B)) as (C&S); auto.
  destruct (same_deg _ _ C S) as (n&E). exists B', n; auto.
Qed.

(** ** C32 *)
(** The direction and distance gpsFromSpace uses *)
Lemma space_polar s x y : rep (sx s) x -> rep (sy s) y ->
  exists B, rep (nrad2deg (natan2 (sx s) (sy s))) B /\ x = hyp y x * sin (rad B) /\ y = hyp y x * cos (rad B) /\
    rep (nsqrt (sx s * sx s + sy s * sy s)%num) (hyp y x).
Proof.
  intros Rx Ry.
  assert (RD : rep (nsqrt (sx s * sx s + sy s * sy s)%num) (hyp y x)).
  { unfold hyp. rewrite (Rplus_comm (y * y)). apply rep_sqrt; [rep_all; assumption|].
    pose proof (Rle_0_sqr x); pose proof (Rle_0_sqr y); unfold Rsqr in *; lra. }
  destruct (Req_dec y 0) as [Y|Y]; [destruct (Req_dec x 0) as [X|X]|].
  - destruct (natan2_finite _ _ _ _ Rx Ry) as (th&R). exists (th * (180 / PI)).
    assert (Z : hyp y x = 0) by (subst; unfold hyp; rewrite Rmult_0_l, Rplus_0_l; apply sqrt_0).
    split; [apply rep_rad2deg; auto|]. split; [|split]; auto; rewrite Z; lra.
  - destruct (natan2_polar _ _ _ _ Rx Ry) as (th&R&_&E1&E2); auto.
    exists (th * (180 / PI)). rewrite rad_deg. split; [apply rep_rad2deg; auto|]. auto.
  - destruct (natan2_polar _ _ _ _ Rx Ry) as (th&R&_&E1&E2); auto.
    exists (th * (180 / PI)). rewrite rad_deg. split; [apply rep_rad2deg; auto|]. auto.
Qed.
Lemma hyp_nonneg a b : 0 <= hyp a b. Proof. apply sqrt_pos. Qed.
(** The way out and back, for any two origins at the same place that may differ in height. *)
Lemma there_and_back la lo h0 a o r s x y :
  rep la a -> rep lo o -> -90 < a < 90 -> radius (Gpt la lo h0) r -> 0 < r ->
  rep (sx s) x -> rep (sy s) y -> hyp y x < PI * r ->
  let g := gpsFromSpace s (Gpt la lo h0) in
  exists Q k l, place g Q /\ is_angle (hyp y x / r) (unitv (rad a) (rad o)) Q /\
    (forall h1, rep (nsin (ndeg2rad (getBearing (Gpt la lo h1) g))) k /\
                rep (ncos (ndeg2rad (getBearing (Gpt la lo h1) g))) l) /\
    hyp y x * k = x /\ hyp y x * l = y.
Proof.
  intros Ra Ro Ba Hr Hp Rx Ry HD. pose proof PI_RGT_0 as HP. pose proof (hyp_nonneg y x) as H0.
  cbv zeta. set (g := gpsFromSpace s (Gpt la lo h0)).
  destruct (space_polar s x y Rx Ry) as (B&RB&EX&EY&RD).
  set (d := nsqrt (sx s * sx s + sy s * sy s)%num) in *. set (b := nrad2deg (natan2 (sx s) (sy s))) in *.
  assert (PL : forall Q, place (moveDistance (Gpt la lo h0) d b) Q <-> place g Q).
  { intros Q. unfold g, gpsFromSpace. fold b. fold d. destruct (sz s); reflexivity. }
  assert (BE : forall h1, getBearing (Gpt la lo h1) g = getBearing (Gpt la lo h0) (moveDistance (Gpt la lo h0) d b)).
  { intros h1. unfold g, gpsFromSpace. fold b. fold d. destruct (sz s); reflexivity. }
  destruct (move_angle (Gpt la lo h0) a o d b (hyp y x) B r) as (Q&HQ&A); auto; try lra.
  exists Q.
  destruct (Req_dec (hyp y x) 0) as [Z|Z].
  - destruct (bearing_args (Gpt la lo h0) (moveDistance (Gpt la lo h0) d b) a o Q Ra Ro HQ) as (R1&R2).
    destruct (natan2_finite _ _ _ _ R1 R2) as (th&R).
    apply rep_rad2deg, rep_deg2rad in R.
    eexists _, _. split; [apply PL; exact HQ|]. split; [exact A|]. split.
    + intros h1. rewrite BE. split; [apply rep_sin; exact R|apply rep_cos; exact R].
    + rewrite Z in *. lra.
  - destruct (C31_bearing (Gpt la lo h0) a o d b (hyp y x) B r) as (B'&n&R&_&E); auto; [lra|].
    exists (sin (rad B')), (cos (rad B')). split; [apply PL; exact HQ|]. split; [exact A|]. split.
    + intros h1. rewrite BE. apply rep_deg2rad in R. split; [apply rep_sin; exact R|apply rep_cos; exact R].
    + rewrite (sin_deg_period _ _ _ E), (cos_deg_period _ _ _ E). lra.
Qed.
(** [t] reads x, y, z *)
Definition at_space (t : spt) (x y z : R) : Prop :=
  rep (sx t) x /\ rep (sy t) y /\ exists w, sz t = Some w /\ rep w z.

(** Out and back around an origin without height, for three and for two coordinates. *)
Theorem C32_round_trip la lo a o s x y : rep la a -> rep lo o -> -90 < a < 90 ->
  rep (sx s) x -> rep (sy s) y -> sqrt (y * y + x * x) < PI * RE ->
  let g0 := Gpt la lo None in
  exists t, spaceFromGPS (gpsFromSpace s g0) g0 = Some t /\ rep (sx t) x /\ rep (sy t) y /\
    sz t = match sz s with Some z => Some z | None => Some (Fin 0) end.
Proof.
  intros Ra Ro Ba Rx Ry HD. cbv zeta. pose proof RE_pos as HR.
  destruct (there_and_back la lo None a o RE s x y) as (Q&k&l&HQ&A&HB&EX&EY); auto; [reflexivity|].
  destruct (HB None) as (RS&RC).
  set (g0 := Gpt la lo None) in *. set (g := gpsFromSpace s g0) in *.
  destruct (C30_distance g0 g (unitv (rad a) (rad o)) Q) as (t&A'&RD); auto.
  { exists a, o; auto. }
  rewrite (angle_inj _ _ _ _ A' A) in RD.
  assert (RD' : rep (getDistance g0 g) (hyp y x)) by (eapply rep_eq; [exact RD|field; lra]).
  assert (C : match hgt g with Some z => sz s = Some z | None => sz s = None end).
  { unfold g, gpsFromSpace, g0. destruct (sz s); reflexivity. }
  unfold spaceFromGPS, space_row, columns.
  destruct (hgt g) as [z|]; rewrite C; simpl; (eexists; split; [reflexivity|]; cbn [sx sy sz]; split; [|split; auto]);
    (eapply rep_eq; [apply rep_mul; eassumption|assumption]).
Qed.

(** Camera.gpsFromSpace starts from the camera's elevation, Camera.spaceFromGPS does not: the way
    back is too short by R / (R + elevation). *)
Theorem C32_camera la lo el a o e s x y w z : rep la a -> rep lo o -> rep el e -> -90 < a < 90 -> - RE < e ->
  rep (sx s) x -> rep (sy s) y -> sz s = Some w -> rep w z -> sqrt (y * y + x * x) < PI * (RE + e) ->
  exists t, cam_spaceFromGPS la lo (cam_gpsFromSpace la lo el s) = Some t /\ at_space t (x * (RE / (RE + e))) (y * (RE / (RE + e))) z.
Proof.
  intros Ra Ro Re Ba He Rx Ry Hw Rz HD. pose proof RE_pos as HR.
  destruct (there_and_back la lo (Some el) a o (RE + e) s x y) as (Q&k&l&HQ&A&HB&EX&EY); auto;
    [exists e; auto | lra |].
  destruct (HB None) as (RS&RC).
  unfold cam_gpsFromSpace, cam_spaceFromGPS. set (g := gpsFromSpace s (Gpt la lo (Some el))) in *.
  destruct (C30_distance (Gpt la lo None) g (unitv (rad a) (rad o)) Q) as (t&A'&RD); auto.
  { exists a, o; auto. }
  rewrite (angle_inj _ _ _ _ A' A) in RD.
  assert (C : hgt g = Some w).
  { unfold g, gpsFromSpace. rewrite Hw; reflexivity. }
  unfold spaceFromGPS, space_row, columns. rewrite C. simpl.
  eexists; split; [reflexivity|]. split; [|split; [|exists w; auto]]; cbn [sx sy].
  - eapply rep_eq; [apply rep_mul; eassumption|]. rewrite <- EX at 2. field. lra.
  - eapply rep_eq; [apply rep_mul; eassumption|]. rewrite <- EY at 2. field. lra.
Qed.

(** A 3D origin handed to gps.spaceFromGPS: the difference in height lengthens the horizontal part. *)
Theorem C32_origin_height la lo h a o H s x y w z : rep la a -> rep lo o -> rep h H -> -90 < a < 90 -> - RE < H ->
  rep (sx s) x -> rep (sy s) y -> sz s = Some w -> rep w z -> 0 < sqrt (y * y + x * x) < PI * (RE + H) ->
  let g0 := Gpt la lo (Some h) in
  let D := sqrt (y * y + x * x) in
  let D' := sqrt (RE * (D / (RE + H)) * (RE * (D / (RE + H))) + (H - z) * (H - z)) in
  exists t, spaceFromGPS (gpsFromSpace s g0) g0 = Some t /\ at_space t (x * (D' / D)) (y * (D' / D)) z.
Proof.
  intros Ra Ro Rh Ba He Rx Ry Hw Rz HD. pose proof RE_pos as HR. cbv zeta.
  destruct (there_and_back la lo (Some h) a o (RE + H) s x y) as (Q&k&l&HQ&A&HB&EX&EY); auto;
    [exists H; auto | lra | apply HD |].
  destruct (HB (Some h)) as (RS&RC). change (sqrt (y * y + x * x)) with (hyp y x) in *.
  set (g := gpsFromSpace s (Gpt la lo (Some h))) in *.
  assert (C : hgt g = Some w).
  { unfold g, gpsFromSpace. rewrite Hw; reflexivity. }
  destruct (C30_heights (Gpt la lo (Some h)) g (unitv (rad a) (rad o)) Q h w H z) as (t&A'&RD); auto.
  { exists a, o; auto. }
  rewrite (angle_inj _ _ _ _ A' A) in RD.
  unfold spaceFromGPS, space_row, columns. rewrite C. simpl.
  eexists; split; [reflexivity|]. split; [|split; [|exists w; auto]]; cbn [sx sy].
  - eapply rep_eq; [apply rep_mul; eassumption|]. set (D' := sqrt _). set (D := hyp y x) in *. clearbody D D'. rewrite <- EX. field. lra.
  - eapply rep_eq; [apply rep_mul; eassumption|]. set (D' := sqrt _). set (D := hyp y x) in *. clearbody D D'. rewrite <- EY. field. lra.
Qed.

(** *** Batches *)
Definition space3 (s : spt) : Prop := exists x y w z, rep (sx s) x /\ rep (sy s) y /\ sz s = Some w /\ rep w z /\
  sqrt (y * y + x * x) < PI * RE.
Definition same_flat (s t : spt) : Prop := exists x y, rep (sx s) x /\ rep (sy s) y /\ rep (sx t) x /\ rep (sy t) y.
Lemma batch_rows n g0 ss :
  (forall s, In s ss -> exists t, space_row n g0 (gpsFromSpace s g0) = Some t /\ same_flat s t /\
     sz t = if Nat.eqb n 2 then Some (Fin 0) else sz s) ->
  exists ts, all_some (map (space_row n g0) (map (fun s => gpsFromSpace s g0) ss)) = Some ts /\
    Forall2 (fun s t => same_flat s t /\ sz t = if Nat.eqb n 2 then Some (Fin 0) else sz s) ss ts.
Proof.
  induction ss as [|s ss IH]; intros H; simpl.
  - exists []; auto.
  - destruct (H s (or_introl eq_refl)) as (t&E&F). rewrite E.
    destruct IH as (ts&E'&F'); [intros s' I; apply H; right; auto|]. rewrite E'. exists (t :: ts); auto.
Qed.
Lemma row_flat la lo a o s n : rep la a -> rep lo o -> -90 < a < 90 -> space3 s ->
  exists t, space_row n (Gpt la lo None) (gpsFromSpace s (Gpt la lo None)) = Some t /\ same_flat s t /\
    sz t = if Nat.eqb n 2 then Some (Fin 0) else sz s.
Proof.
  intros Ra Ro Ba (x&y&w&z&Rx&Ry&Hw&Rz&HD).
  destruct (C32_round_trip la lo a o s x y Ra Ro Ba Rx Ry HD) as (t&E&T1&T2&T3).
  unfold spaceFromGPS, columns in E. set (g := gpsFromSpace s (Gpt la lo None)) in *.
  assert (C : hgt g = Some w) by (unfold g, gpsFromSpace; rewrite Hw; reflexivity).
  rewrite C in E. unfold space_row in *. rewrite C in *. simpl in E. injection E as E. subst t. simpl in *.
  destruct (Nat.eqb n 2); (eexists; split; [reflexivity|]; split; [exists x, y; auto|]); auto.
Qed.
Theorem C32_batch la lo a o ss : rep la a -> rep lo o -> -90 < a < 90 -> Forall space3 ss ->
  let g0 := Gpt la lo None in
  exists ts, spaceFromGPS_batch (map (fun s => gpsFromSpace s g0) ss) g0 = Some ts /\
    Forall2 (fun s t => same_flat s t /\ (length ss <> 2%nat -> sz t = sz s) /\
                        (length ss = 2%nat -> sz t = Some (Fin 0))) ss ts.
Proof.
  intros Ra Ro Ba Hs. cbv zeta. unfold spaceFromGPS_batch. rewrite map_length.
  destruct (batch_rows (length ss) (Gpt la lo None) ss) as (ts&E&F).
  - intros s I. rewrite Forall_forall in Hs. eapply row_flat; eauto.
  - exists ts; split; auto. generalize dependent (length ss). intros n E F. clear - F.
    induction F as [|s t ss ts (S1&S2) F IH]; constructor; auto. split; auto.
    split; intros N.
    + apply Nat.eqb_neq in N. rewrite N in S2; auto.
    + apply Nat.eqb_eq in N. rewrite N in S2; auto.
Qed.
(** N points without heights raise unless N is two. *)
Theorem C32_flat_batch_raises gs g0 : gs <> [] -> length gs <> 2%nat -> Forall (fun g => hgt g = None) gs ->
  spaceFromGPS_batch gs g0 = None.
Proof.
  intros N L F. unfold spaceFromGPS_batch. destruct gs as [|g gs]; [contradiction|].
  inversion F as [|? ? Hg _]; subst. apply Nat.eqb_neq in L.
  cbn [map all_some]. unfold space_row at 1. rewrite L, Hg. reflexivity.
Qed.

(** ** Examples and refutations *)
(** Erlangen: 49.6 N, 11 E *)
Definition ex_g0 : gpt := Gpt (Fin (496 / 10)) (Fin 11) None.
Lemma ex_far : 500 < PI * RE. 
Proof. pose proof PI2_3_2. unfold RE, PI2 in *. lra. Qed.
Lemma sqrt_345 : sqrt (400 * 400 + 300 * 300) = 500.
Proof. replace (400 * 400 + 300 * 300) with (500 * 500) by lra. apply sqrt_square; lra. Qed.
Example C30_example : exists P Q,
  place ex_g0 P /\ place (Gpt (Fin 90) (Fin 0) None) Q /\
  rep (getDistance ex_g0 (Gpt (Fin 90) (Fin 0) None)) (RE * (rad (404 / 10))).
Proof.
  exists (unitv (rad (496 / 10)) (rad 11)), (unitv (rad 90) (rad 0)).
  assert (H1 : place ex_g0 (unitv (rad (496 / 10)) (rad 11))) by (exists (496 / 10), 11; splits; auto; apply rep_Fin).
  assert (H2 : place (Gpt (Fin 90) (Fin 0) None) (unitv (rad 90) (rad 0))) by (exists 90, 0; splits; auto; apply rep_Fin).
  splits; auto.
  destruct (C30_distance _ _ _ _ H1 H2 (or_introl eq_refl)) as (t&A&R). eapply rep_eq; [exact R|].
  f_equal. eapply angle_inj; [exact A|]. pose proof PI_RGT_0. split; [unfold rad; lra|].
  assert (E90 : rad 90 = PI / 2) by (unfold rad; field).
  unfold unitv, rdot; simpl. rewrite E90, cos_PI2, sin_PI2.
  replace (rad (404 / 10)) with (PI / 2 - rad (496 / 10)) by (unfold rad; field).
  rewrite cos_shift. ring.
Qed.
Example C30_metric_example : exists d1 d2,
  rep (getDistance ex_g0 (Gpt (Fin 90) (Fin 0) None)) d1 /\ rep (getDistance (Gpt (Fin 90) (Fin 0) None) ex_g0) d2 /\
  d1 = d2 /\ 0 < d1.
Proof.
  destruct C30_example as (P&Q&H1&H2&R). exists (RE * rad (404 / 10)).
  destruct (C30_distance _ _ _ _ H2 H1 (or_introl eq_refl)) as (t&A&R2). exists (RE * t).
  pose proof RE_pos. pose proof PI_RGT_0.
  assert (0 < rad (404 / 10)) by (unfold rad; lra).
  destruct (C30_metric ex_g0 (Gpt (Fin 90) (Fin 0) None) ex_g0 P Q P (RE * rad (404 / 10)) (RE * t) 0 (RE * t)) as (_&E&_); auto.
  { destruct (C30_distance _ _ _ _ H1 H1 (or_introl eq_refl)) as (t0&A0&R0). eapply rep_eq; [exact R0|].
    assert (t0 = 0); [|subst; ring]. eapply angle_inj; [exact A0|]. split; [lra|].
    rewrite cos_0. symmetry. eapply unit_place; eauto. }
  splits; auto. apply Rmult_lt_0_compat; auto.
Qed.
Example C31_example : exists B' (k : Z),
  rep (getDistance ex_g0 (moveDistance ex_g0 (Fin 500) (Fin 200))) 500 /\
  rep (getBearing ex_g0 (moveDistance ex_g0 (Fin 500) (Fin 200))) B' /\ -180 <= B' <= 180 /\ B' = 200 + 360 * IZR k.
Proof.
  pose proof ex_far.
  destruct (C31_bearing ex_g0 (496 / 10) 11 (Fin 500) (Fin 200) 500 200 RE) as (B'&k&R&B&E);
    try apply rep_Fin; try lra; [reflexivity|].
  exists B', k. split; [|auto].
  apply (C31_distance ex_g0 (496 / 10) 11 _ _ 500 200); try apply rep_Fin; try lra; reflexivity.
Qed.
Example C31_destination_example : place (moveDistance ex_g0 (Fin 500) (Fin 200)) (onward (rad (496 / 10)) (rad 11) (500 / RE) (rad 200)) /\
  spaceFromGPS_batch [ex_g0] ex_g0 = None.
Proof.
  split.
  - apply (C31_destination ex_g0 (496 / 10) 11 (Fin 500) (Fin 200) 500 200 RE); try apply rep_Fin; try lra; try reflexivity. unfold RE; lra.
  - apply C32_flat_batch_raises; [discriminate|discriminate|repeat constructor].
Qed.
Definition ex_s : spt := Spt (Fin 300) (Fin 400) (Some (Fin 20)).
Example C32_example : exists t, spaceFromGPS (gpsFromSpace ex_s ex_g0) ex_g0 = Some t /\ at_space t 300 400 20.
Proof.
  destruct (C32_round_trip (Fin (496 / 10)) (Fin 11) (496 / 10) 11 ex_s 300 400) as (t&E&X&Y&Z);
    try apply rep_Fin; try lra; [rewrite sqrt_345; apply ex_far|].
  exists t; split; auto. split; auto. split; auto. exists (Fin 20); split; auto. apply rep_Fin.
Qed.
Example C30_heights_example : rep (getDistance (Gpt (Fin 50) (Fin 11) (Some (Fin 300))) (Gpt (Fin 50) (Fin 371) (Some (Fin 320)))) 20.
Proof.
  destruct (C30_heights (Gpt (Fin 50) (Fin 11) (Some (Fin 300))) (Gpt (Fin 50) (Fin 371) (Some (Fin 320)))
     (unitv (rad 50) (rad 11)) (unitv (rad 50) (rad 371)) (Fin 300) (Fin 320) 300 320) as (t&A&R); auto; try apply rep_Fin.
  { exists 50, 11; splits; auto; apply rep_Fin. }
  { exists 50, 371; splits; auto; apply rep_Fin. }
  eapply rep_eq; [exact R|].
  assert (EQ : unitv (rad 50) (rad 371) = unitv (rad 50) (rad 11)).
  { unfold unitv. rewrite (cos_deg_period 11 371 1), (sin_deg_period 11 371 1) by lra. reflexivity. }
  rewrite EQ in A. assert (t = 0).
  { eapply angle_inj; [exact A|]. split; [pose proof PI_RGT_0; lra|]. rewrite cos_0. symmetry; apply unit_unitv. }
  subst t. replace (RE * 0 * (RE * 0) + (300 - 320) * (300 - 320)) with (20 * 20) by ring. apply sqrt_square; lra.
Qed.
Example C31_height_example : let p := Gpt (Fin (496 / 10)) (Fin 11) (Some (Fin 3000)) in
  rep (getDistance p (moveDistance p (Fin 500) (Fin 200))) (500 * (RE / (RE + 3000))).
Proof.
  pose proof ex_far. pose proof RE_pos. pose proof PI_RGT_0.
  apply (C31_height _ (496 / 10) 11 _ _ 500 200 (Fin 3000) 3000); try apply rep_Fin; try lra; try reflexivity; nra.
Qed.
(** With a 3D origin a point high above the origin comes back too far away. *)
Example C32_origin_height_example : exists s t x x',
  let g0 := Gpt (Fin 45) (Fin 11) (Some (Fin 10)) in
  spaceFromGPS (gpsFromSpace s g0) g0 = Some t /\ rep (sx s) x /\ rep (sx t) x' /\ x = 300 /\ 2 * x < x'.
Proof.
  pose proof ex_far as HF. pose proof RE_pos as HR. pose proof PI_RGT_0 as HP.
  set (s := Spt (Fin 300) (Fin 400) (Some (Fin 2010))).
  destruct (C32_origin_height (Fin 45) (Fin 11) (Fin 10) 45 11 10 s 300 400 (Fin 2010) 2010) as (t&E&X&_);
    try apply rep_Fin; try lra; auto; [rewrite sqrt_345; split; [lra|nra]|].
  exists s, t, 300. eexists. split; [exact E|]. split; [apply rep_Fin|]. split; [exact X|]. split; auto.
  rewrite sqrt_345. set (q := RE * _).
  assert (2000 <= sqrt (q * q + (10 - 2010) * (10 - 2010))); [|lra].
  rewrite <- (sqrt_square 2000) at 1 by lra. apply sqrt_le_1_alt. pose proof (Rle_0_sqr q). unfold Rsqr in *. lra.
Qed.
Theorem C32_camera_refuted : exists la lo el s t,
  cam_spaceFromGPS la lo (cam_gpsFromSpace la lo el s) = Some t /\
  exists x x', rep (sx s) x /\ rep (sx t) x' /\ x' < x.
Proof.
  pose proof ex_far as HF. pose proof RE_pos as HR.
  destruct (C32_camera (Fin (496 / 10)) (Fin 11) (Fin 3000) (496 / 10) 11 3000 ex_s 300 400 (Fin 20) 20) as (t&E&X&_&_);
    try apply rep_Fin; try lra; auto; [rewrite sqrt_345; pose proof PI_RGT_0; nra|].
  exists (Fin (496 / 10)), (Fin 11), (Fin 3000), ex_s, t. split; auto.
  exists 300, (300 * (RE / (RE + 3000))). split; [apply rep_Fin|]. split; auto.
  assert (RE / (RE + 3000) < 1); [|lra].
  apply (Rmult_lt_reg_r (RE + 3000)); [lra|]. unfold Rdiv. rewrite Rmult_assoc, Rinv_l by lra. lra.
Qed.
Theorem C32_two_points_refuted : exists g0 s s' t t' w,
  hgt g0 = None /\ spaceFromGPS_batch (map (fun s => gpsFromSpace s g0) [s; s']) g0 = Some [t; t'] /\
  sz s = Some w /\ sz t <> Some w.
Proof.
  destruct (C32_batch (Fin (496 / 10)) (Fin 11) (496 / 10) 11 [ex_s; ex_s]) as (ts&E&F); try apply rep_Fin; try lra.
  { assert (space3 ex_s); [|auto]. exists 300, 400, (Fin 20), 20. splits; try apply rep_Fin; auto.
    rewrite sqrt_345; apply ex_far. }
  inversion F as [|s t ss' ts' (_&_&T) F']; subst. inversion F' as [|s' t' ? ? (_&_&T') F'']; subst.
  inversion F''; subst.
  exists ex_g0, ex_s, ex_s, t, t', (Fin 20). splits; auto.
  rewrite T by reflexivity. intros K. injection K. lra.
Qed.
Print Assumptions C30_distance.
Print Assumptions C30_heights.
Print Assumptions C30_metric.
Print Assumptions C31_destination.
Print Assumptions C31_distance.
Print Assumptions C31_height.
Print Assumptions C31_bearing_meaning.
Print Assumptions C31_bearing.
Print Assumptions C32_round_trip.
Print Assumptions C32_camera.
Print Assumptions C32_origin_height.
Print Assumptions C32_batch.
Print Assumptions C32_flat_batch_raises.
Print Assumptions C32_camera_refuted.
Print Assumptions C32_two_points_refuted.
