(** * C84: distances between GPS points measured in the flat space coordinates *)
Require Import Reals Lra Lia Psatz List Bool.
From Verif Require Import Num Vec Orientation OrientationFacts Trig Gps PropGps.
Import ListNotations.
Open Scope R_scope.

(** ** Specification *)
(** [x], [y] are the coordinates that spaceFromGPS gives to the point [g] around [g0] *)
Definition flat (g0 g : gpt) (x y : R) : Prop :=
  exists s, spaceFromGPS g g0 = Some s /\ rep (sx s) x /\ rep (sy s) y.
Definition planar (x1 y1 x2 y2 : R) : R := sqrt ((x1 - x2) * (x1 - x2) + (y1 - y2) * (y1 - y2)).

(** ** Polar coordinates around the origin *)
Lemma frame_dot phi lam P Q :
  rdot P Q = rdot P (unitv phi lam) * rdot Q (unitv phi lam) + rdot P (northv phi lam) * rdot Q (northv phi lam)
             + rdot P (eastv lam) * rdot Q (eastv lam).
Proof.
  destruct P as [p1 p2 p3], Q as [q1 q2 q3]. unfold rdot, unitv, northv, eastv; cbn [cx cy cz].
  assert (H1 : cos phi * cos phi = 1 - sin phi * sin phi) by (pose proof (sc phi); lra).
  assert (H2 : cos lam * cos lam = 1 - sin lam * sin lam) by (pose proof (sc lam); lra).
  ring [H1 H2].
Qed.
Lemma polar_point la lo a o g P : rep la a -> rep lo o -> place g P ->
  exists t b s, is_angle t (unitv (rad a) (rad o)) P /\ spaceFromGPS g (Gpt la lo None) = Some s /\
    rep (sx s) (RE * (t * sin b)) /\ rep (sy s) (RE * (t * cos b)) /\
    rdot P (northv (rad a) (rad o)) = sin t * cos b /\ rdot P (eastv (rad o)) = sin t * sin b.
Proof.
  intros Ra Ro HP. set (g0 := Gpt la lo None).
  assert (H0 : place g0 (unitv (rad a) (rad o))) by (exists a, o; auto).
  destruct (C30_distance g0 g _ P H0 HP) as (t&A&RD); [left; reflexivity|].
  pose proof A as (T&C). set (U := unitv (rad a) (rad o)) in *.
  set (N := rdot P (northv (rad a) (rad o))). set (E := rdot P (eastv (rad o))).
  assert (S0 : 0 <= sin t) by (apply sin_ge_0; lra).
  assert (S2 : N * N + E * E = sin t * sin t).
  { pose proof (frame_dot (rad a) (rad o) P P) as F. fold U N E in F. rewrite (unit_place g P HP) in F.
    assert (Cm : rdot P U = cos t) by (rewrite C; unfold rdot; ring). rewrite Cm in F. pose proof (sc t). lra. }
  assert (BE : exists b, rep (ndeg2rad (getBearing g0 g)) b /\ N = sin t * cos b /\ E = sin t * sin b).
  { destruct (Req_dec N 0) as [Z1|Z1]; [destruct (Req_dec E 0) as [Z2|Z2]|].
    - destruct (bearing_args g0 g a o P Ra Ro HP) as (R1&R2).
      destruct (natan2_finite _ _ _ _ R1 R2) as (th&Rt).
      exists ((th * (180 / PI)) * (PI / 180)). split; [apply rep_deg2rad, rep_rad2deg; exact Rt|].
      assert (Z : sin t = 0) by (rewrite Z1, Z2 in S2; nra). rewrite Z, Z1, Z2. lra.
    - destruct (C31_bearing_meaning g0 g a o P Ra Ro HP) as (B&k&RB&_&K&E1&E2); [right; exact Z2|].
      exists (rad B). fold N in E1. fold E in E2. split; [apply rep_deg2rad; exact RB|].
      assert (k = sin t) as <-; [|auto].
      rewrite E1, E2 in S2. pose proof (sc (rad B)). assert ((k - sin t) * (k + sin t) = 0) by nra. nra.
    - destruct (C31_bearing_meaning g0 g a o P Ra Ro HP) as (B&k&RB&_&K&E1&E2); [left; exact Z1|].
      exists (rad B). fold N in E1. fold E in E2. split; [apply rep_deg2rad; exact RB|].
      assert (k = sin t) as <-; [|auto].
      rewrite E1, E2 in S2. pose proof (sc (rad B)). assert ((k - sin t) * (k + sin t) = 0) by nra. nra. }
  destruct BE as (b&RB&E1&E2).
  unfold spaceFromGPS, space_row, columns.
  assert (exists z, (if Nat.eqb match hgt g with Some _ => 3 | None => 2 end 2 then Some (Fin 0) else hgt g) = Some z)
    as (z&->) by (destruct (hgt g); eexists; reflexivity).
  exists t, b. eexists. split; [exact A|]. split; [reflexivity|]. cbn [sx sy]. fold g0.
  split; [|split; [|auto]].
  - eapply rep_eq; [apply rep_mul; [exact RD|apply rep_sin; exact RB]|ring].
  - eapply rep_eq; [apply rep_mul; [exact RD|apply rep_cos; exact RB]|ring].
Qed.

(** ** Analysis: sin z / z falls on the way to PI *)
Lemma tcos_le_sin x : 0 <= x <= PI -> x * cos x <= sin x.
Proof.
  intros Hx. destruct (Req_dec x 0) as [->|Z]; [rewrite sin_0; lra|].
  destruct (MVT_cor2 (fun t => sin t - t * cos t) (fun t => t * sin t) 0 x) as (c&E&Hc); [lra| |].
  - intros c _. eapply (derivable_pt_lim_ext (fun t => sin t - t * cos t)%R); [reflexivity|].
    replace (c * sin c) with (cos c - (1 * cos c + c * (- sin c))) by ring.
    apply (derivable_pt_lim_minus sin (fun t => t * cos t) c); [apply derivable_pt_lim_sin|].
    apply (derivable_pt_lim_mult (fun t => t) cos c); [apply derivable_pt_lim_id|apply derivable_pt_lim_cos].
  - assert (0 <= sin c) by (apply sin_ge_0; lra). rewrite sin_0 in E.
    assert (0 <= c * sin c * (x - 0)) by (apply Rmult_le_pos; [apply Rmult_le_pos; lra|lra]). lra.
Qed.
Lemma sin_slope x y : 0 <= x <= y -> y <= PI -> x * sin y <= y * sin x.
Proof.
  intros Hx Hy. destruct (Req_dec x 0) as [->|Z]; [rewrite sin_0; lra|].
  destruct (Req_dec x y) as [<-|Ne]; [lra|].
  destruct (MVT_cor2 (fun t => x * sin t - t * sin x) (fun t => x * cos t - sin x) x y) as (c&E&Hc); [lra| |].
  - intros c _. apply (derivable_pt_lim_minus (fun t => x * sin t) (fun t => t * sin x) c).
    + apply (derivable_pt_lim_scal sin x c). apply derivable_pt_lim_sin.
    + replace (sin x) with (1 * sin x + c * 0) at 1 by ring.
      apply (derivable_pt_lim_mult (fun t => t) (fct_cte (sin x)) c);
        [apply derivable_pt_lim_id|apply derivable_pt_lim_const].
  - assert (cos c <= cos x) by (apply cos_decr_1; lra).
    pose proof (tcos_le_sin x ltac:(lra)).
    assert (x * cos c <= x * cos x) by (apply Rmult_le_compat_l; lra).
    assert (0 <= (sin x - x * cos c) * (y - x)) by (apply Rmult_le_pos; lra). lra.
Qed.
Lemma bulge y z : 0 < y -> 2 * y < PI -> 0 <= z <= PI ->
  2 * y * (sin z * sin z) - sin (2 * y) * (z * z) <= 2 * y * (sin y * sin y) - sin (2 * y) * (y * y).
Proof.
  intros Hy Hy' Hz.
  set (h := fun t => 2 * y * (sin t * sin t) - sin (2 * y) * (t * t)).
  set (h' := fun t => 2 * y * sin (2 * t) - 2 * t * sin (2 * y)).
  assert (Dh : forall c, derivable_pt_lim h c (h' c)).
  { intros c. unfold h, h'.
    replace (2 * y * sin (2 * c) - 2 * c * sin (2 * y))
      with (2 * y * (cos c * sin c + sin c * cos c) - sin (2 * y) * (1 * c + c * 1)) by (rewrite (sin_2a c); ring).
    apply (derivable_pt_lim_minus (fun t => 2 * y * (sin t * sin t)) (fun t => sin (2 * y) * (t * t)) c).
    - apply (derivable_pt_lim_scal (fun t => sin t * sin t) (2 * y) c).
      apply (derivable_pt_lim_mult sin sin c); apply derivable_pt_lim_sin.
    - apply (derivable_pt_lim_scal (fun t => t * t) (sin (2 * y)) c).
      apply (derivable_pt_lim_mult (fun t => t) (fun t => t) c); apply derivable_pt_lim_id. }
  change (h z <= h y). destruct (Rtotal_order z y) as [L|[->|L]]; [|lra|].
  - destruct (MVT_cor2 h h' z y L) as (c&E&Hc); [auto|].
    assert (0 <= h' c).
    { unfold h'. pose proof (sin_slope (2 * c) (2 * y) ltac:(lra) ltac:(lra)). lra. }
    assert (0 <= h' c * (y - z)) by (apply Rmult_le_pos; lra). lra.
  - destruct (MVT_cor2 h h' y z L) as (c&E&Hc); [auto|].
    assert (h' c <= 0).
    { unfold h'. destruct (Rle_dec (2 * c) PI) as [B|B].
      - pose proof (sin_slope (2 * y) (2 * c) ltac:(lra) ltac:(lra)). lra.
      - assert (sin (2 * c) <= 0) by (apply sin_le_0; lra).
        assert (0 <= sin (2 * y)) by (apply sin_ge_0; lra).
        assert (0 <= 2 * c * sin (2 * y)) by (apply Rmult_le_pos; lra). nra. }
    assert (0 <= - h' c * (z - y)) by (apply Rmult_le_pos; lra). lra.
Qed.

(** The spherical and the planar law of cosines with half angles *)
Lemma half_cos x : cos x = 1 - 2 * (sin (x / 2) * sin (x / 2)).
Proof. replace x with (2 * (x / 2)) at 1 by field. rewrite cos_2a_sin. ring. Qed.
Lemma half_sphere a b g d : cos d = cos a * cos b + sin a * sin b * cos g ->
  let s := sin (g / 2) * sin (g / 2) in
  sin (d / 2) * sin (d / 2) =
    (1 - s) * (sin ((a - b) / 2) * sin ((a - b) / 2)) + s * (sin ((a + b) / 2) * sin ((a + b) / 2)).
Proof.
  intros H s. rewrite (half_cos d), (half_cos g) in H. fold s in H.
  pose proof (half_cos (a - b)) as H1. pose proof (half_cos (a + b)) as H2. rewrite cos_minus in H1. rewrite cos_plus in H2.
  set (U := sin ((a - b) / 2) * sin ((a - b) / 2)) in *. set (V := sin ((a + b) / 2) * sin ((a + b) / 2)) in *.
  assert (E : sin a * sin b = V - U) by lra. assert (F : cos a * cos b = 1 - U - V) by lra.
  rewrite E, F in H. nra.
Qed.
Lemma half_plane a b g D : D * D = a * a + b * b - 2 * (a * b) * cos g ->
  let s := sin (g / 2) * sin (g / 2) in
  D / 2 * (D / 2) = (1 - s) * ((a - b) / 2 * ((a - b) / 2)) + s * ((a + b) / 2 * ((a + b) / 2)).
Proof. intros H s. rewrite (half_cos g) in H. fold s in H. nra. Qed.

Lemma sin_le_arg x : 0 <= x -> sin x <= x.
Proof. intros [H|<-]; [apply Rlt_le, sin_lt_x; auto|rewrite sin_0; lra]. Qed.

(** Longer in the plane than on the sphere *)
Lemma sphere_le_plane a b g d D : 0 <= a <= PI -> 0 <= b <= PI -> 0 <= d <= PI -> 0 <= D ->
  cos d = cos a * cos b + sin a * sin b * cos g -> D * D = a * a + b * b - 2 * (a * b) * cos g -> d <= D.
Proof.
  intros Ha Hb Hd HD Hs Hp. destruct (Rle_dec PI D) as [L|L]; [lra|].
  pose proof (half_sphere _ _ _ _ Hs) as HS. pose proof (half_plane _ _ _ _ Hp) as HQ. cbv zeta in *.
  set (s := sin (g / 2) * sin (g / 2)) in *.
  assert (Bs : 0 <= s <= 1).
  { unfold s. pose proof (sc (g / 2)). pose proof (Rle_0_sqr (sin (g / 2))). pose proof (Rle_0_sqr (cos (g / 2))).
    unfold Rsqr in *. lra. }
  assert (A : exists u, 0 <= u <= PI /\ (a - b) / 2 * ((a - b) / 2) = u * u /\
                sin ((a - b) / 2) * sin ((a - b) / 2) = sin u * sin u).
  { destruct (Rle_dec b a).
    - exists ((a - b) / 2). split; [lra|auto].
    - exists ((b - a) / 2). replace ((a - b) / 2) with (- ((b - a) / 2)) by field. rewrite sin_neg.
      split; [lra|split; ring]. }
  destruct A as (u&Bu&E1&E2). rewrite E1 in HQ. rewrite E2 in HS.
  set (v := (a + b) / 2) in *. assert (Bv : 0 <= v <= PI) by (unfold v; lra).
  destruct (Req_dec D 0) as [Z|Z].
  - (* the same point of the plane *)
    rewrite Z in HQ.
    assert (K1 : 0 <= (1 - s) * (u * u)) by (apply Rmult_le_pos; [lra|apply Rle_0_sqr]).
    assert (K2 : 0 <= s * (v * v)) by (apply Rmult_le_pos; [lra|apply Rle_0_sqr]).
    assert (sq : forall x, 0 <= x -> sin x * sin x <= x * x).
    { intros x Hx. pose proof (sin_le_arg x Hx). destruct (Rle_dec x PI) as [B|B].
      - assert (0 <= sin x) by (apply sin_ge_0; lra). nra.
      - pose proof (SIN_bound x). pose proof PI2_1. nra. }
    pose proof (sq u ltac:(lra)). pose proof (sq v ltac:(lra)).
    assert (sin (d / 2) * sin (d / 2) <= 0) by (rewrite HS; nra).
    assert (sin (d / 2) = 0) by nra.
    destruct (Req_dec d 0) as [->|Nd]; [lra|]. assert (0 < sin (d / 2)) by (apply sin_gt_0; lra). lra.
  - set (y := D / 2) in *. assert (By : 0 < y) by (unfold y; lra). assert (By' : 2 * y < PI) by (unfold y; lra).
    pose proof (bulge y u By By' Bu) as H1. pose proof (bulge y v By By' Bv) as H2.
    set (S := sin (2 * y)) in *.
    assert (K : 2 * y * (sin (d / 2) * sin (d / 2)) <= 2 * y * (sin y * sin y)).
    { rewrite HS.
      assert (M1 : (1 - s) * (2 * y * (sin u * sin u) - S * (u * u)) <= (1 - s) * (2 * y * (sin y * sin y) - S * (y * y)))
        by (apply Rmult_le_compat_l; lra).
      assert (M2 : s * (2 * y * (sin v * sin v) - S * (v * v)) <= s * (2 * y * (sin y * sin y) - S * (y * y)))
        by (apply Rmult_le_compat_l; lra).
      assert (EQ : S * (y * y) = S * ((1 - s) * (u * u)) + S * (s * (v * v))) by (rewrite HQ; ring).
      lra. }
    assert (K' : sin (d / 2) * sin (d / 2) <= sin y * sin y) by (apply (Rmult_le_reg_l (2 * y)); lra).
    assert (0 <= sin (d / 2)) by (apply sin_ge_0; lra). assert (0 <= sin y) by (apply sin_ge_0; lra).
    assert (sin (d / 2) <= sin y) by nra.
    assert (d / 2 <= y) by (apply sin_incr_0; lra). unfold y in *; lra.
Qed.
(** ... by no more than the factor r / sin r within the radius r *)
Lemma plane_le_sphere a b g d D r : 0 <= a <= r -> 0 <= b <= r -> 0 < r < PI -> 0 <= d <= PI -> 0 <= D ->
  cos d = cos a * cos b + sin a * sin b * cos g -> D * D = a * a + b * b - 2 * (a * b) * cos g ->
  sin r * D <= r * d.
Proof.
  intros Ha Hb Hr Hd HD Hs Hp.
  pose proof (half_sphere _ _ _ _ Hs) as HS. pose proof (half_plane _ _ _ _ Hp) as HQ. cbv zeta in *.
  set (s := sin (g / 2) * sin (g / 2)) in *.
  assert (Bs : 0 <= s <= 1).
  { unfold s. pose proof (sc (g / 2)). pose proof (Rle_0_sqr (sin (g / 2))). pose proof (Rle_0_sqr (cos (g / 2))).
    unfold Rsqr in *. lra. }
  assert (S0 : 0 < sin r) by (apply sin_gt_0; lra).
  assert (sq : forall x, 0 <= x <= r -> sin r * sin r * (x * x) <= r * r * (sin x * sin x)).
  { intros x Bx. pose proof (sin_slope x r Bx ltac:(lra)).
    assert (0 <= x * sin r) by (apply Rmult_le_pos; lra). nra. }
  assert (A : exists u, 0 <= u <= r /\ (a - b) / 2 * ((a - b) / 2) = u * u /\
                sin ((a - b) / 2) * sin ((a - b) / 2) = sin u * sin u).
  { destruct (Rle_dec b a).
    - exists ((a - b) / 2). split; [lra|auto].
    - exists ((b - a) / 2). replace ((a - b) / 2) with (- ((b - a) / 2)) by field. rewrite sin_neg.
      split; [lra|split; ring]. }
  destruct A as (u&Bu&E1&E2). rewrite E1 in HQ. rewrite E2 in HS.
  pose proof (sq u Bu) as H1. pose proof (sq ((a + b) / 2) ltac:(lra)) as H2.
  assert (K : sin r * sin r * (D / 2 * (D / 2)) <= r * r * (sin (d / 2) * sin (d / 2))).
  { rewrite HQ, HS.
    assert (M1 := Rmult_le_compat_l (1 - s) _ _ ltac:(lra) H1). assert (M2 := Rmult_le_compat_l s _ _ ltac:(lra) H2). lra. }
  assert (P0 : 0 <= sin (d / 2)) by (apply sin_ge_0; lra).
  assert (K' : sin r * (D / 2) <= r * sin (d / 2)).
  { assert (0 <= r * sin (d / 2)) by (apply Rmult_le_pos; lra). assert (0 <= sin r * (D / 2)) by (apply Rmult_le_pos; lra). nra. }
  pose proof (sin_le_arg (d / 2) ltac:(lra)).
  assert (r * sin (d / 2) <= r * (d / 2)) by (apply Rmult_le_compat_l; lra). lra.
Qed.

(** ** C84 *)
(** Directions and distances from the origin are kept: [x] to the east and [y] to the north are the
    polar coordinates of the place reached from the origin. *)
Theorem C84_origin la lo a o g P : rep la a -> rep lo o -> place g P ->
  exists t b, is_angle t (unitv (rad a) (rad o)) P /\ P = onward (rad a) (rad o) t b /\
    flat (Gpt la lo None) g (RE * (t * sin b)) (RE * (t * cos b)).
Proof.
  intros Ra Ro HP. destruct (polar_point la lo a o g P Ra Ro HP) as (t&b&s&A&Es&Rx&Ry&EN&EE).
  exists t, b. split; [exact A|]. split; [|exists s; auto].
  assert (EU : rdot P (unitv (rad a) (rad o)) = cos t) by (destruct A as (_&->); unfold rdot; ring).
  destruct P as [p1 p2 p3]. unfold onward. rewrite <- EU.
  assert (F : forall Q, rdot (V3 p1 p2 p3) Q = rdot (V3 p1 p2 p3) (unitv (rad a) (rad o)) * rdot Q (unitv (rad a) (rad o))
    + sin t * (cos b * rdot Q (northv (rad a) (rad o)) + sin b * rdot Q (eastv (rad o)))).
  { intros Q. rewrite (frame_dot (rad a) (rad o) (V3 p1 p2 p3) Q), EN, EE. ring. }
  pose proof (F (V3 1 0 0)) as F1. pose proof (F (V3 0 1 0)) as F2. pose proof (F (V3 0 0 1)) as F3.
  rewrite EU in *. unfold rdot in F1, F2, F3; cbn [cx cy cz] in *. f_equal; lra.
Qed.

Lemma flat_polar la lo a o g P x y : rep la a -> rep lo o -> place g P -> flat (Gpt la lo None) g x y ->
  exists t b, is_angle t (unitv (rad a) (rad o)) P /\ x = RE * (t * sin b) /\ y = RE * (t * cos b) /\
    rdot P (northv (rad a) (rad o)) = sin t * cos b /\ rdot P (eastv (rad o)) = sin t * sin b.
Proof.
  intros Ra Ro HP (s'&Es'&Rx'&Ry').
  destruct (polar_point la lo a o g P Ra Ro HP) as (t&b&s&A&Es&Rx&Ry&EN&EE).
  rewrite Es in Es'. injection Es' as <-. exists t, b. split; [exact A|].
  split; [eapply rep_inj; eassumption|]. split; [eapply rep_inj; eassumption|auto].
Qed.
Lemma laws la lo a o g1 g2 P Q x1 y1 x2 y2 d : rep la a -> rep lo o -> place g1 P -> place g2 Q ->
  flat (Gpt la lo None) g1 x1 y1 -> flat (Gpt la lo None) g2 x2 y2 -> is_angle d P Q ->
  exists t1 t2 g D, 0 <= t1 <= PI /\ 0 <= t2 <= PI /\ 0 <= D /\ cos d = cos t1 * cos t2 + sin t1 * sin t2 * cos g /\
    D * D = t1 * t1 + t2 * t2 - 2 * (t1 * t2) * cos g /\ planar x1 y1 x2 y2 = RE * D /\
    sqrt (x1 * x1 + y1 * y1) = RE * t1 /\ sqrt (x2 * x2 + y2 * y2) = RE * t2.
Proof.
  intros Ra Ro HP HQ F1 F2 (_&Hd). pose proof RE_pos as HR.
  destruct (flat_polar la lo a o g1 P x1 y1 Ra Ro HP F1) as (t1&b1&(T1&C1)&Ex1&Ey1&N1&E1).
  destruct (flat_polar la lo a o g2 Q x2 y2 Ra Ro HQ F2) as (t2&b2&(T2&C2)&Ex2&Ey2&N2&E2).
  set (M := t1 * t1 + t2 * t2 - 2 * (t1 * t2) * cos (b1 - b2)).
  assert (EM : M = (t1 * sin b1 - t2 * sin b2) * (t1 * sin b1 - t2 * sin b2)
                 + (t1 * cos b1 - t2 * cos b2) * (t1 * cos b1 - t2 * cos b2)).
  { unfold M. rewrite cos_minus. pose proof (sc b1) as K1. pose proof (sc b2) as K2.
    assert (H1 : cos b1 * cos b1 = 1 - sin b1 * sin b1) by lra.
    assert (H2 : cos b2 * cos b2 = 1 - sin b2 * sin b2) by lra. ring [H1 H2]. }
  assert (M0 : 0 <= M).
  { rewrite EM. pose proof (Rle_0_sqr (t1 * sin b1 - t2 * sin b2)). pose proof (Rle_0_sqr (t1 * cos b1 - t2 * cos b2)).
    unfold Rsqr in *. lra. }
  assert (SQ : forall z w, 0 <= w -> z = RE * w * (RE * w) -> sqrt z = RE * w).
  { intros z w Hw ->. apply sqrt_square. apply Rmult_le_pos; lra. }
  exists t1, t2, (b1 - b2), (sqrt M). pose proof (sqrt_pos M). pose proof (sqrt_sqrt M M0) as SS.
  split; [exact T1|]. split; [exact T2|]. split; [lra|]. split; [|split; [exact SS|split; [|split]]].
  - rewrite Hd, (frame_dot (rad a) (rad o) P Q), N1, N2, E1, E2, cos_minus.
    replace (rdot P (unitv (rad a) (rad o))) with (cos t1) by (rewrite C1; unfold rdot; ring).
    replace (rdot Q (unitv (rad a) (rad o))) with (cos t2) by (rewrite C2; unfold rdot; ring). ring.
  - unfold planar. apply SQ; [lra|]. replace (RE * sqrt M * (RE * sqrt M)) with (RE * RE * (sqrt M * sqrt M)) by ring.
    rewrite SS, EM, Ex1, Ey1, Ex2, Ey2. ring.
  - apply SQ; [lra|]. rewrite Ex1, Ey1.
    assert (H1 : cos b1 * cos b1 = 1 - sin b1 * sin b1) by (pose proof (sc b1); lra). ring [H1].
  - apply SQ; [lra|]. rewrite Ex2, Ey2.
    assert (H1 : cos b2 * cos b2 = 1 - sin b2 * sin b2) by (pose proof (sc b2); lra). ring [H1].
Qed.

(** The distance read from the space coordinates is never too short ... *)
Theorem C84_never_short la lo a o g1 g2 P Q x1 y1 x2 y2 d : rep la a -> rep lo o -> place g1 P -> place g2 Q ->
  flat (Gpt la lo None) g1 x1 y1 -> flat (Gpt la lo None) g2 x2 y2 -> is_angle d P Q ->
  RE * d <= planar x1 y1 x2 y2.
Proof.
  intros Ra Ro HP HQ F1 F2 A. pose proof RE_pos as HR.
  destruct (laws la lo a o g1 g2 P Q x1 y1 x2 y2 d Ra Ro HP HQ F1 F2 A) as (t1&t2&g&D&T1&T2&D0&L1&L2&->&_).
  apply Rmult_le_compat_l; [lra|]. destruct A as (Bd&_). apply (sphere_le_plane t1 t2 g d D); assumption.
Qed.
(** ... and within [r] earth radii of the origin too long at most by the factor r / sin r, ... *)
Theorem C84_stretch la lo a o g1 g2 P Q x1 y1 x2 y2 d r : rep la a -> rep lo o -> place g1 P -> place g2 Q ->
  flat (Gpt la lo None) g1 x1 y1 -> flat (Gpt la lo None) g2 x2 y2 -> is_angle d P Q ->
  0 < r < PI -> sqrt (x1 * x1 + y1 * y1) <= RE * r -> sqrt (x2 * x2 + y2 * y2) <= RE * r ->
  planar x1 y1 x2 y2 <= r / sin r * (RE * d).
Proof.
  intros Ra Ro HP HQ F1 F2 A Hr B1 B2. pose proof RE_pos as HR.
  destruct (laws la lo a o g1 g2 P Q x1 y1 x2 y2 d Ra Ro HP HQ F1 F2 A) as (t1&t2&g&D&T1&T2&D0&L1&L2&->&E1&E2).
  rewrite E1 in B1. rewrite E2 in B2. apply Rmult_le_reg_l in B1; [|lra]. apply Rmult_le_reg_l in B2; [|lra].
  destruct A as (Bd&_).
  pose proof (plane_le_sphere t1 t2 g d D r ltac:(lra) ltac:(lra) Hr Bd D0 L1 L2) as K.
  assert (S0 : 0 < sin r) by (apply sin_gt_0; lra).
  apply (Rmult_le_reg_l (sin r)); [lra|].
  replace (sin r * (r / sin r * (RE * d))) with (RE * (r * d)) by (field; lra).
  replace (sin r * (RE * D)) with (RE * (sin r * D)) by ring. apply Rmult_le_compat_l; lra.
Qed.
Lemma sin_cubic r : 0 <= r <= 1 -> r * (1 - r * r / 6) <= sin r.
Proof.
  intros H. pose proof PI2_1. destruct (SIN r) as (L&_); [lra|lra|]. unfold sin_lb, sin_approx in L.
  cbn [sum_f_R0] in L. unfold sin_term in L. cbn [Nat.mul Nat.add pow] in L.
  replace (INR (fact 1)) with 1 in L by (simpl; lra). replace (INR (fact 3)) with 6 in L by (simpl; lra).
  replace (INR (fact 5)) with 120 in L by (simpl; lra). replace (INR (fact 7)) with 5040 in L by (rewrite INR_IZR_INZ; reflexivity).
  assert (H2 : 0 <= r * r <= 1) by nra. assert (H3 : 0 <= r * (r * r)) by nra.
  assert (H5 : 0 <= r * (r * r) * (r * r)) by nra.
  assert (H7 : r * (r * r) * (r * r) * (r * r) <= r * (r * r) * (r * r)) by nra.
  lra.
Qed.
(** ... that is by at most a part of r^2 / 5: fifty millionths within a hundred kilometres. *)
Theorem C84_local la lo a o g1 g2 P Q x1 y1 x2 y2 d m : rep la a -> rep lo o -> place g1 P -> place g2 Q ->
  flat (Gpt la lo None) g1 x1 y1 -> flat (Gpt la lo None) g2 x2 y2 -> is_angle d P Q ->
  m <= RE -> sqrt (x1 * x1 + y1 * y1) <= m -> sqrt (x2 * x2 + y2 * y2) <= m ->
  planar x1 y1 x2 y2 <= (1 + m / RE * (m / RE) / 5) * (RE * d).
Proof.
  intros Ra Ro HP HQ F1 F2 A Hm B1 B2. pose proof RE_pos as HR.
  assert (M0 : 0 <= m) by (pose proof (sqrt_pos (x1 * x1 + y1 * y1)); lra).
  assert (D0 : 0 <= d) by (destruct A as (Bd&_); lra).
  set (r := m / RE). assert (Em : m = RE * r) by (unfold r; field; lra).
  assert (R0 : 0 <= r) by (apply Rmult_le_pos; [lra|apply Rlt_le, Rinv_0_lt_compat; lra]).
  assert (R1 : r <= 1) by (apply (Rmult_le_reg_l RE); lra).
  destruct (Req_dec r 0) as [Z|Z].
  - destruct (laws la lo a o g1 g2 P Q x1 y1 x2 y2 d Ra Ro HP HQ F1 F2 A) as (t1&t2&g&D&T1&T2&D1&L1&L2&->&E1&E2).
    rewrite E1, Em, Z in B1. rewrite E2, Em, Z in B2.
    assert (t1 = 0) by nra. assert (t2 = 0) by nra. subst t1 t2.
    assert (D = 0) by nra. subst D. rewrite Z.
    assert (0 <= RE * d) by (apply Rmult_le_pos; lra). lra.
  - pose proof PI2_1. assert (R2 : 0 < r) by (destruct R0; [auto|congruence]). clearbody r.
    pose proof (C84_stretch la lo a o g1 g2 P Q x1 y1 x2 y2 d r Ra Ro HP HQ F1 F2 A ltac:(lra) ltac:(lra) ltac:(lra)) as K.
    eapply Rle_trans; [exact K|]. apply Rmult_le_compat_r; [apply Rmult_le_pos; lra|].
    pose proof (sin_cubic r ltac:(lra)) as S.
    assert (Q2 : 0 <= r * r <= 1) by nra. assert (0 < r * (1 - r * r / 6)) by (apply Rmult_lt_0_compat; lra).
    apply (Rmult_le_reg_r (sin r)); [lra|]. replace (r / sin r * sin r) with r by (field; lra).
    apply Rle_trans with ((1 + r * r / 5) * (r * (1 - r * r / 6))); [|apply Rmult_le_compat_l; lra].
    replace ((1 + r * r / 5) * (r * (1 - r * r / 6))) with (r + r * (r * r * (1 - r * r) / 30)) by field.
    assert (0 <= r * (r * r * (1 - r * r) / 30)); [|lra].
    apply Rmult_le_pos; [lra|]. apply Rmult_le_pos; [|lra]. apply Rmult_le_pos; lra.
Qed.

(** *** Cases *)
(** Points of the equator, seen from the point with the coordinates 0, 0 *)
Definition zero0 : gpt := Gpt (Fin 0) (Fin 0) None.
Definition equator (l : R) : gpt := Gpt (Fin 0) (Fin l) None.
Lemma place_fin x y h : place (Gpt (Fin x) (Fin y) h) (unitv (rad x) (rad y)).
Proof. exists x, y. split; [apply rep_Fin|split; [apply rep_Fin|auto]]. Qed.
Lemma rad0 : rad 0 = 0. Proof. unfold rad; ring. Qed.
Lemma flat_equator l : 0 < Rabs l < 180 -> flat zero0 (equator l) (RE * rad l) 0.
Proof.
  intros Hl. pose proof PI_RGT_0 as HP.
  assert (Bl : 0 < Rabs (rad l) < PI).
  { unfold rad. rewrite Rabs_mult, (Rabs_right (PI / 180)) by lra. split; [apply Rmult_lt_0_compat; lra|].
    apply Rlt_le_trans with (180 * (PI / 180)); [apply Rmult_lt_compat_r; lra|lra]. }
  destruct (polar_point (Fin 0) (Fin 0) 0 0 (equator l) _ (rep_Fin 0) (rep_Fin 0) (place_fin 0 l None))
    as (t&b&s&(T&C)&Es&Rx&Ry&N&E).
  rewrite rad0 in *. unfold rdot, unitv, northv, eastv in *; cbn [cx cy cz] in *. rewrite cos_0, sin_0 in *.
  assert (Ct : cos t = cos (rad l)) by (rewrite C; ring).
  assert (Et : t = Rabs (rad l)).
  { assert (Ca : cos (Rabs (rad l)) = cos (rad l)) by (unfold Rabs; destruct (Rcase_abs (rad l)); [apply cos_neg|auto]).
    rewrite <- Ca in Ct. apply cos_inj; [lra|lra|exact Ct]. }
  assert (St : 0 < sin t) by (rewrite Et; apply sin_gt_0; lra).
  assert (Cb : cos b = 0) by nra.
  assert (Sl : sin t * sin b = sin (rad l)) by lra.
  exists s. split; [exact Es|]. split; [eapply rep_eq; [exact Rx|]|eapply rep_eq; [exact Ry|rewrite Cb; ring]].
  f_equal. destruct (Rcase_abs (rad l)) as [L|L].
  - rewrite Rabs_left in Et by exact L. rewrite Et, sin_neg in Sl. assert (0 < sin t) by auto. rewrite Et, sin_neg in St.
    rewrite Et. assert (sin b = -1) by nra. nra.
  - rewrite Rabs_right in Et by exact L. rewrite Et in *. assert (sin b = 1) by nra. nra.
Qed.
(** Beyond that no factor is enough: two points left and right of the antipode are close to each
    other and far apart in the space coordinates. *)
Theorem C84_factor_refuted : forall K, exists g1 g2 P Q x1 y1 x2 y2 d, place g1 P /\ place g2 Q /\
  flat zero0 g1 x1 y1 /\ flat zero0 g2 x2 y2 /\ is_angle d P Q /\ 0 < d /\ K * (RE * d) < planar x1 y1 x2 y2.
Proof.
  intros K. pose proof PI_RGT_0 as HP. pose proof RE_pos as HR.
  set (e := 90 / (1 + Rabs K)). pose proof (Rabs_pos K) as K0.
  assert (He : 0 < e <= 90).
  { split; [apply Rdiv_lt_0_compat; lra|]. apply (Rmult_le_reg_r (1 + Rabs K)); [lra|].
    unfold e. replace (90 / (1 + Rabs K) * (1 + Rabs K)) with 90 by (field; lra). nra. }
  assert (Ke : Rabs K * e < 90).
  { unfold e. apply (Rmult_lt_reg_r (1 + Rabs K)); [lra|].
    replace (Rabs K * (90 / (1 + Rabs K)) * (1 + Rabs K)) with (90 * Rabs K) by (field; lra). lra. }
  exists (equator (180 - e)), (equator (- (180 - e))), (unitv (rad 0) (rad (180 - e))), (unitv (rad 0) (rad (- (180 - e)))),
    (RE * rad (180 - e)), 0, (RE * rad (- (180 - e))), 0, (rad (2 * e)).
  split; [apply place_fin|]. split; [apply place_fin|].
  split; [apply flat_equator; rewrite Rabs_right; lra|].
  split; [apply flat_equator; rewrite Rabs_Ropp, Rabs_right; lra|].
  assert (U : 0 < PI / 180) by lra.
  assert (E180 : rad (180 - e) = PI - rad e) by (unfold rad; field).
  assert (En : rad (- (180 - e)) = - (PI - rad e)) by (unfold rad; field).
  assert (E2 : rad (2 * e) = 2 * rad e) by (unfold rad; ring).
  assert (Re : 0 < rad e <= PI / 2).
  { split; [unfold rad; apply Rmult_lt_0_compat; lra|]. apply Rle_trans with (90 * (PI / 180)); [|lra].
    unfold rad. apply Rmult_le_compat_r; lra. }
  rewrite E180, En, E2, rad0. split; [split; [lra|]|split; [lra|]].
  - unfold rdot, unitv; cbn [cx cy cz]. rewrite cos_0, sin_0, cos_neg, sin_neg, sin_PI_x, Rtrigo_facts.cos_pi_minus.
    rewrite cos_2a. ring.
  - unfold planar. replace (_ + _) with (RE * (2 * (PI - rad e)) * (RE * (2 * (PI - rad e)))) by ring.
    rewrite sqrt_square by (apply Rmult_le_pos; lra).
    replace (K * (RE * (2 * rad e))) with (RE * (2 * (K * rad e))) by ring.
    apply Rmult_lt_compat_l; [lra|]. apply Rmult_lt_compat_l; [lra|].
    apply Rle_lt_trans with (Rabs K * rad e); [apply Rmult_le_compat_r; [lra|apply Rle_abs]|].
    assert (Rabs K * rad e < 90 * (PI / 180)); [|lra].
    unfold rad. rewrite <- Rmult_assoc. apply Rmult_lt_compat_r; lra.
Qed.
(** The pole and a point of the equator, both a quarter of the way round from the origin *)
Lemma flat_pole : flat zero0 (Gpt (Fin 90) (Fin 0) None) 0 (RE * (PI / 2)).
Proof.
  pose proof PI_RGT_0 as HP.
  destruct (polar_point (Fin 0) (Fin 0) 0 0 (Gpt (Fin 90) (Fin 0) None) _ (rep_Fin 0) (rep_Fin 0) (place_fin 90 0 None))
    as (t&b&s&(T&C)&Es&Rx&Ry&N&E).
  assert (E90 : rad 90 = PI / 2) by (unfold rad; field). rewrite rad0, E90 in *.
  unfold rdot, unitv, northv, eastv in *; cbn [cx cy cz] in *. rewrite cos_0, sin_0, cos_PI2, sin_PI2 in *.
  assert (Et : t = PI / 2) by (apply cos_inj; [lra|lra|rewrite cos_PI2, C; ring]). subst t. rewrite sin_PI2 in *.
  exists s. split; [exact Es|]. split; (eapply rep_eq; [eassumption|]).
  - assert (sin b = 0) as -> by lra. ring.
  - assert (cos b = 1) as -> by lra. ring.
Qed.
Example C84_quarter : exists P Q x1 y1 x2 y2, place (Gpt (Fin 90) (Fin 0) None) P /\ place (equator 90) Q /\
  flat zero0 (Gpt (Fin 90) (Fin 0) None) x1 y1 /\ flat zero0 (equator 90) x2 y2 /\ is_angle (PI / 2) P Q /\
  planar x1 y1 x2 y2 = sqrt 2 * (RE * (PI / 2)).
Proof.
  pose proof PI_RGT_0 as HP. pose proof RE_pos as HR. exists (unitv (rad 90) (rad 0)), (unitv (rad 0) (rad 90)), 0, (RE * (PI / 2)), (RE * rad 90), 0.
  split; [apply place_fin|]. split; [apply place_fin|]. split; [exact flat_pole|].
  split; [apply flat_equator; rewrite Rabs_right; lra|]. assert (E90 : rad 90 = PI / 2) by (unfold rad; field).
  rewrite E90, rad0. split.
  - split; [lra|]. unfold rdot, unitv; cbn [cx cy cz]. rewrite cos_PI2, sin_0, sin_PI2. ring.
  - unfold planar. replace (_ + _) with (2 * (RE * (PI / 2) * (RE * (PI / 2)))) by ring.
    rewrite sqrt_mult by (try lra; apply Rle_0_sqr). rewrite sqrt_square by (apply Rmult_le_pos; lra). ring.
Qed.
Example C84_near : exists x1 y1 x2 y2 P Q d, place (equator (1 / 2)) P /\ place (equator (- (1 / 2))) Q /\
  flat zero0 (equator (1 / 2)) x1 y1 /\ flat zero0 (equator (- (1 / 2))) x2 y2 /\ is_angle d P Q /\ 0 < d /\
  sqrt (x1 * x1 + y1 * y1) <= 100000 /\ sqrt (x2 * x2 + y2 * y2) <= 100000 /\ 100000 <= RE /\
  planar x1 y1 x2 y2 <= (1 + 50 / 1000000) * (RE * d).
Proof.
  pose proof PI_RGT_0 as HP. pose proof RE_pos as HR. pose proof PI_4 as P4.
  assert (F1 : flat zero0 (equator (1 / 2)) (RE * rad (1 / 2)) 0) by (apply flat_equator; rewrite Rabs_right; lra).
  assert (F2 : flat zero0 (equator (- (1 / 2))) (RE * rad (- (1 / 2))) 0) by (apply flat_equator; rewrite Rabs_Ropp, Rabs_right; lra).
  destruct (angle_ex (unitv (rad 0) (rad (1 / 2))) (unitv (rad 0) (rad (- (1 / 2))))) as (d&A); try apply unit_unitv.
  exists (RE * rad (1 / 2)), 0, (RE * rad (- (1 / 2))), 0, (unitv (rad 0) (rad (1 / 2))), (unitv (rad 0) (rad (- (1 / 2)))), d.
  split; [apply place_fin|]. split; [apply place_fin|]. split; [exact F1|]. split; [exact F2|]. split; [exact A|].
  assert (Er : rad (- (1 / 2)) = - rad (1 / 2)) by (unfold rad; ring).
  assert (Br : 0 < rad (1 / 2) <= 4 / 360) by (unfold rad; lra).
  assert (Q1 : sqrt (RE * rad (1 / 2) * (RE * rad (1 / 2)) + 0 * 0) <= 100000).
  { replace (_ + _) with (RE * rad (1 / 2) * (RE * rad (1 / 2))) by ring.
    rewrite sqrt_square by (apply Rmult_le_pos; lra). unfold RE in *. lra. }
  assert (Q2 : sqrt (RE * rad (- (1 / 2)) * (RE * rad (- (1 / 2))) + 0 * 0) <= 100000).
  { rewrite Er. replace (_ + _) with (RE * rad (1 / 2) * (RE * rad (1 / 2)) + 0 * 0) by ring. exact Q1. }
  split.
  { destruct A as (Bd&Cd). destruct Bd as [[L|L] _]; [exact L|]. exfalso. rewrite <- L, cos_0, Er in Cd.
    unfold rdot, unitv in Cd; cbn [cx cy cz] in Cd. rewrite rad0, cos_0, sin_0, cos_neg, sin_neg in Cd.
    pose proof PI2_1. assert (0 < sin (rad (1 / 2))) by (apply sin_gt_0; lra). pose proof (sc (rad (1 / 2))). nra. }
  split; [exact Q1|]. split; [exact Q2|]. split; [unfold RE; lra|].
  eapply Rle_trans; [apply (C84_local (Fin 0) (Fin 0) 0 0 (equator (1 / 2)) (equator (- (1 / 2)))
    _ _ _ _ _ _ d 100000 (rep_Fin 0) (rep_Fin 0) (place_fin _ _ _) (place_fin _ _ _) F1 F2 A); auto; unfold RE; lra|].
  destruct A as (Bd&_). apply Rmult_le_compat_r; [apply Rmult_le_pos; lra|]. unfold RE. lra.
Qed.
Print Assumptions C84_origin.
Print Assumptions C84_never_short.
Print Assumptions C84_stretch.
Print Assumptions C84_local.
Print Assumptions C84_factor_refuted.
