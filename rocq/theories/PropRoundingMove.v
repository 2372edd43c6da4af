(** * C97: moving along the ground and GPS positions of local coordinates in rounded arithmetic *)
Require Import Reals Lra Lia Psatz Bool List ZArith.
From Verif Require Import Num Vec Trig Orientation OrientationFacts Gps PropGps Rounding RoundingFacts PropRounding RoundingGps PropRoundingGps PropRoundingPan RoundingMove.
Open Scope R_scope.

(** ** Specification *)
(** How far a place may be off, on a sphere of radius one: [c1] and [c2] are the distances of the start and of the
    destination from the axis of the earth, that is the cosines of their latitudes. *)
Definition move_error (u c1 c2 : R) : R := u * (1300 / c1 + 420 / c2).
(** the start and the destination are not too near to a pole *)
Definition clear_of_poles (u c1 c2 : R) : Prop := 0 < c1 /\ 0 < c2 /\ 300 * u < c2 * c2 /\ 500 * u < c1 * c2.

(** ** Analysis *)
Lemma pi_10_3 : PI <= 10 / 3.
Proof. destruct (PI_ineq 3) as (_&K). unfold tg_alt, PI_tg in K. simpl in K. lra. Qed.
Lemma abs_asin x : Rabs (asin x) <= 5 / 3.
Proof. pose proof (asin_bound x). pose proof pi_10_3. apply Rabs_le. lra. Qed.
Lemma rad_times x k : rad (x * k) = rad x * k.
Proof. unfold rad. field. Qed.
(** the cosines of two latitudes whose sines are close *)
Lemma cos_from_sin a b e : 0 <= cos a -> 0 < cos b -> near e (sin a) (sin b) -> e <= 1 / 1000 -> Rabs (cos a - cos b) * cos b <= 2001 / 1000 * e.
Proof.
  intros Pa Pb N E. unfold near in N. pose proof (Rabs_pos (sin a - sin b)) as Pe.
  pose proof (sc a) as Sa. pose proof (sc b) as Sb.
  assert (D : (cos a - cos b) * (cos a + cos b) = - ((sin a - sin b) * (sin a + sin b))) by nra.
  assert (AD : Rabs (cos a - cos b) * (cos a + cos b) = Rabs (sin a - sin b) * Rabs (sin a + sin b)).
  { rewrite <- (Rabs_right (cos a + cos b)) at 1 by lra. rewrite <- !Rabs_mult, D, Rabs_Ropp. reflexivity. }
  assert (B : Rabs (sin a + sin b) <= 2).
  { eapply Rle_trans; [apply Rabs_triang|]. pose proof (sin_1 a). pose proof (sin_1 b). lra. }
  assert (Rabs (sin a - sin b) * Rabs (sin a + sin b) <= e * 2) by (apply Rmult_le_compat; auto using Rabs_pos).
  pose proof (Rabs_pos (cos a - cos b)). assert (0 <= Rabs (cos a - cos b) * cos a) by (apply Rmult_le_pos; auto). lra.
Qed.

Section Accurate.
Context (u : R) (G : gfloats) (HG : accurate_gps u G).
Notation A := (g_ops G).
Notation fl := (f_round A).
Let HA : accurate u A. Proof. apply HG. Qed.
Let U : 0 <= u <= / 1000000 := u_range u A HA.
Let UU : 0 <= u * u <= u * / 1000000 := uu u A HA.

(** the arc of the walk; the distance itself may already be rounded *)
Lemma arc_near p d d' r : radius (exact_row p) r -> 0 < r -> Rabs (d / r) <= 4 -> Rabs (d' - d) <= 5 / 2 * u * Rabs d ->
  near (20 * u) (f_arc G p d') (d / r).
Proof.
  intros HR Pr B D.
  assert (RR : exists e, Rabs e <= u /\ f_radius G p = r * (1 + e)).
  { unfold f_radius, radius, exact_row in *. cbn [hgt] in HR. destruct (g_hgt p) as [h|]; cbn [option_map] in HR.
    - destruct HR as (H&RH&->). rewrite <- (rep_inj _ _ _ (rep_Fin h) RH). apply (fl_rel u A HA).
    - exists 0. rewrite Rabs_R0. split; [lra|]. rewrite HR. unfold RE. ring. }
  destruct RR as (e1&E1&ER).
  assert (RD : exists e, Rabs e <= 5 / 2 * u /\ d' = d * (1 + e)).
  { destruct (Req_dec d 0) as [Z|Z].
    - exists 0. rewrite Rabs_R0. split; [lra|]. subst d. rewrite Rabs_R0, Rmult_0_r, Rminus_0_r in D. pose proof (Rabs_pos d').
      destruct (Req_dec d' 0) as [K|K]; [lra|]. pose proof (Rabs_pos_lt _ K). lra.
    - exists ((d' - d) / d). split; [|field; auto]. pose proof (Rabs_pos_lt _ Z). unfold Rdiv. rewrite Rabs_mult, Rabs_inv.
      apply (Rmult_le_reg_r (Rabs d)); auto. rewrite Rmult_assoc, Rinv_l by lra. lra. }
  destruct RD as (e0&E0&ED). destruct (fl_rel u A HA (d' / f_radius G p)) as (e2&E2&EF).
  unfold f_arc. rewrite EF, ER, ED. apply abs_le_inv in E0, E1, E2.
  unfold near. replace (d * (1 + e0) / (r * (1 + e1)) * (1 + e2) - d / r) with (d / r * (((1 + e0) * (1 + e2) - (1 + e1)) / (1 + e1))) by (field; lra).
  assert (0 < / (1 + e1) <= 11 / 10).
  { split; [apply Rinv_0_lt_compat; lra|]. apply (Rmult_le_reg_r (1 + e1)); [lra|]. rewrite Rinv_l by lra. lra. }
  assert (N : Rabs (((1 + e0) * (1 + e2) - (1 + e1)) / (1 + e1)) <= (46 / 10 * u) * (102 / 100)).
  { unfold Rdiv. apply abs_prod.
    - apply Rabs_le. nra.
    - rewrite Rabs_right by lra. apply (Rmult_le_reg_r (1 + e1)); [lra|]. rewrite Rinv_l by lra. lra. }
  pose proof (abs_prod _ _ _ _ B N). lra.
Qed.
Let start p : on_earth p -> near (16 * u) (f_sin A (f_rad A (g_lat p))) (sin (rad (g_lat p))) /\ near (16 * u) (f_cos A (f_rad A (g_lat p))) (cos (rad (g_lat p))).
Proof.
  intros P. destruct (lat_near u G HG p P) as (N&_).
  split; (eapply near_le; [first [apply (sin_near u G HG _ _ _ N) | apply (cos_near u G HG _ _ _ N)]|lra]).
Qed.
(** degrees of an angle and back *)
Lemma deg_near x m : Rabs x <= m -> near (4 * u * m) (rad (g_deg G x)) x.
Proof.
  intros M. destruct HG as (_&_&_&_&_&HD). specialize (HD x). pose proof PI_RGT_0.
  unfold near. replace (rad (g_deg G x) - x) with (rad (g_deg G x - x * (180 / PI))) by (rewrite <- rad_linear, rad_deg; reflexivity).
  unfold rad. rewrite Rabs_mult, (Rabs_right (PI / 180)) by lra.
  apply Rle_trans with (4 * u * Rabs (x * (180 / PI)) * (PI / 180)); [apply Rmult_le_compat_r; lra|].
  rewrite Rabs_mult, (Rabs_right (180 / PI)) by (apply Rle_ge, Rlt_le, Rdiv_lt_0_compat; lra).
  replace (4 * u * (Rabs x * (180 / PI)) * (PI / 180)) with (4 * u * Rabs x) by (field; lra). apply Rmult_le_compat_l; lra.
Qed.

Section Walk.
Context (p : gp) (P : on_earth p) (d b t be : R) (NT : near (20 * u) (f_arc G p d) t).
Context (NS : near (48 * u) (f_sin A (f_rad A b)) (sin be)) (NC : near (48 * u) (f_cos A (f_rad A b)) (cos be)).
Notation phi := (rad (g_lat p)).
Notation lam := (rad (g_lon p)).
Let s2 := sin phi * cos t + cos phi * sin t * cos be.
Lemma s_arc : near (28 * u) (f_sin A (f_arc G p d)) (sin t).
Proof. eapply near_le; [apply (sin_near u G HG _ _ _ NT)|lra]. Qed.
Lemma c_arc : near (28 * u) (f_cos A (f_arc G p d)) (cos t).
Proof. eapply near_le; [apply (cos_near u G HG _ _ _ NT)|lra]. Qed.
Lemma abs1 x y : Rabs x <= 1 -> Rabs y <= 1 -> Rabs (x * y) <= 1.
Proof. intros X Y. pose proof (abs_prod _ _ _ _ X Y). lra. Qed.
Lemma sine_near : near (145 * u) (f_sine G p d b) s2.
Proof.
  destruct (start p P) as (S1&C1). pose proof s_arc as ST. pose proof c_arc as CT. unfold f_sine, s2.
  assert (K1 : near (452 / 10 * u) (fl (f_sin A (f_rad A (g_lat p)) * f_cos A (f_arc G p d))) (sin phi * cos t)).
  { eapply near_le; [apply (prod_near u G HG _ _ _ _ _ _ S1 CT (sin_1 _) (cos_1 _))|]. nra. }
  assert (K2 : near (452 / 10 * u) (fl (f_cos A (f_rad A (g_lat p)) * f_sin A (f_arc G p d))) (cos phi * sin t)).
  { eapply near_le; [apply (prod_near u G HG _ _ _ _ _ _ C1 ST (cos_1 _) (sin_1 _))|]. nra. }
  assert (K3 : near (944 / 10 * u) (fl (fl (f_cos A (f_rad A (g_lat p)) * f_sin A (f_arc G p d)) * f_cos A (f_rad A b))) (cos phi * sin t * cos be)).
  { eapply near_le; [apply (prod_near u G HG _ _ _ _ _ _ K2 NC (abs1 _ _ (cos_1 _) (sin_1 _)) (cos_1 _))|]. nra. }
  assert (B : Rabs (sin phi * cos t + cos phi * sin t * cos be) <= 1) by (apply Rabs_le; pose proof (lat2_bound phi t be); lra).
  eapply near_le; [apply (gfl u G HG _ _ _ _ (near_add _ _ _ _ _ _ K1 K3) B)|]. nra.
Qed.
Context (a2 o2 : R) (E2 : unitv a2 o2 = onward phi lam t be) (POS : 0 <= cos a2) (CL : clear_of_poles u (cos phi) (cos a2)).
Let sin_a2 : sin a2 = s2.
Proof. assert (E := f_equal cz E2). cbn in E. unfold s2. rewrite E. ring. Qed.
Let east_of : cos a2 * cos (o2 - lam) = cos t * cos phi - sin t * cos be * sin phi /\ cos a2 * sin (o2 - lam) = sin t * sin be.
Proof.
  assert (EX := f_equal cx E2). assert (EY := f_equal cy E2). cbn in EX, EY. rewrite cos_minus, sin_minus. pose proof (sc lam) as L.
  split.
  - transitivity (cos a2 * cos o2 * cos lam + cos a2 * sin o2 * sin lam); [ring|]. rewrite EX, EY.
    transitivity ((cos t * cos phi - sin t * cos be * sin phi) * (sin lam * sin lam + cos lam * cos lam)); [ring|rewrite L; ring].
  - transitivity (cos a2 * sin o2 * cos lam - cos a2 * cos o2 * sin lam); [ring|]. rewrite EX, EY.
    transitivity (sin t * sin be * (sin lam * sin lam + cos lam * cos lam)); [ring|rewrite L; ring].
Qed.
Let in_domain : -1 <= f_sine G p d b <= 1.
Proof.
  destruct CL as (P1&P2&L1&L2). pose proof sine_near as N. rewrite <- sin_a2 in N. unfold near in N. apply abs_le_inv in N.
  pose proof (sc a2) as S. pose proof (SIN_bound a2). nra.
Qed.
Let lat2 := g_asin G (f_sine G p d b).
Let lat2_near : near (135 / 10 * u) lat2 (asin (f_sine G p d b)).
Proof.
  destruct HG as (_&_&_&HI&_). eapply near_le; [apply HI, in_domain|]. pose proof (abs_asin (f_sine G p d b)). nra.
Qed.
Let Y' := fl (fl (f_sin A (f_rad A b) * f_sin A (f_arc G p d)) * f_cos A (f_rad A (g_lat p))).
Let X' := fl (f_cos A (f_arc G p d) - fl (f_sin A (f_rad A (g_lat p)) * f_sin A lat2)).
Let r := cos phi * cos a2.
Lemma args_near : near (215 * u) Y' (r * sin (o2 - lam)) /\ near (215 * u) X' (r * cos (o2 - lam)).
Proof.
  destruct (start p P) as (S1&C1). pose proof s_arc as ST. pose proof c_arc as CT. destruct east_of as (EX&EY). unfold r. rewrite !Rmult_assoc, EX, EY. split.
  - assert (K1 : near (772 / 10 * u) (fl (f_sin A (f_rad A b) * f_sin A (f_arc G p d))) (sin be * sin t)).
    { eapply near_le; [apply (prod_near u G HG _ _ _ _ _ _ NS ST (sin_1 _) (sin_1 _))|]. nra. }
    replace (cos phi * (sin t * sin be)) with (sin be * sin t * cos phi) by ring. unfold Y'.
    eapply near_le; [apply (prod_near u G HG _ _ _ _ _ _ K1 C1 (abs1 _ _ (sin_1 _) (sin_1 _)) (cos_1 _))|]. nra.
  - assert (S2 : near (167 * u) (f_sin A lat2) (sin a2)).
    { eapply near_le; [eapply near_trans; [apply (sin_near u G HG _ _ _ lat2_near)|]|].
      - rewrite sin_asin by apply in_domain. rewrite sin_a2. apply sine_near.
      - lra. }
    assert (K1 : near (1842 / 10 * u) (fl (f_sin A (f_rad A (g_lat p)) * f_sin A lat2)) (sin phi * sin a2)).
    { eapply near_le; [apply (prod_near u G HG _ _ _ _ _ _ S1 S2 (sin_1 _) (sin_1 _))|]. nra. }
    replace (cos phi * (cos t * cos phi - sin t * cos be * sin phi)) with (cos t - sin phi * sin a2).
    2:{ rewrite sin_a2. unfold s2. pose proof (sc phi) as S. transitivity (cos t * (1 - sin phi * sin phi) - sin phi * cos phi * sin t * cos be); [ring|].
        replace (1 - sin phi * sin phi) with (cos phi * cos phi) by lra. ring. }
    unfold X'. eapply near_le; [apply (gfl u G HG _ _ _ _ (near_sub _ _ _ _ _ _ CT K1) (abs_sub _ _ _ _ (cos_1 _) (abs1 _ _ (sin_1 _) (sin_1 _))))|]. nra.
Qed.
(** the longitude in radians that is returned *)
Lemma lon_found : exists th, - PI <= th <= PI /\ near (100 * u) (rad (g_deg G (fl (f_rad A (g_lon p) + g_atan2 G Y' X')))) (lam + th) /\
  Rabs (sin th - sin (o2 - lam)) * r <= 645 * u /\ Rabs (cos th - cos (o2 - lam)) * r <= 645 * u.
Proof.
  destruct args_near as (NY&NX). destruct CL as (P1&P2&L1&L2). fold r in L2.
  assert (NZ : X' <> 0 \/ Y' <> 0).
  { destruct (Req_dec X' 0) as [X0|X0]; [|auto]. destruct (Req_dec Y' 0) as [Y0|Y0]; [|auto]. exfalso. rewrite X0 in NX. rewrite Y0 in NY.
    unfold near in NX, NY. apply abs_le_inv in NX, NY. pose proof (sc (o2 - lam)) as S. set (k := sin (o2 - lam)) in *. set (l := cos (o2 - lam)) in *.
    assert (r * k * (r * k) <= 215 * u * (215 * u)) by nra. assert (r * l * (r * l) <= 215 * u * (215 * u)) by nra.
    assert (r * r = r * k * (r * k) + r * l * (r * l)) by (transitivity (r * r * (k * k + l * l)); [rewrite S|]; ring). nra. }
  destruct HG as (_&_&_&_&HT&_). destruct (HT Y' X' NZ) as (th&Bth&EY&EX&NT'). exists th. split; [exact Bth|]. split.
  - destruct (lon_near u G HG p P) as (NL&BL). pose proof pi_10_3 as PI3.
    assert (Bth' : Rabs (lam + th) <= 34 / 3) by (eapply Rle_trans; [apply Rabs_triang|]; assert (Rabs th <= 10 / 3) by (apply Rabs_le; lra); lra).
    assert (K : near (515 / 10 * u) (fl (f_rad A (g_lon p) + g_atan2 G Y' X')) (lam + th)).
    { eapply near_le; [apply (gfl u G HG _ _ _ _ (near_add _ _ _ _ _ _ NL NT') Bth')|]. nra. }
    pose proof (near_abs _ _ _ _ K Bth') as BK.
    eapply near_le; [eapply near_trans; [apply (deg_near _ _ BK)|exact K]|]. nra.
  - destruct (direction_close r (sqrt (X' * X' + Y' * Y')) (215 * u) (o2 - lam) th) as (D1&D2).
    + unfold r. apply Rmult_le_pos; lra.
    + apply sqrt_pos.
    + rewrite <- EY. exact NY.
    + rewrite <- EX. exact NX.
    + split; lra.
Qed.
Lemma walk_near : exists q, f_move G p d b = Some q /\ near3 (move_error u (cos phi) (cos a2)) (pl q) (unitv a2 o2) /\
  near (166 * u) (sin (rad (g_lat q))) (sin a2) /\ g_hgt q = option_map (fun h => fl (1 * h)) (g_hgt p) /\
  Rabs (rad (g_lon q)) <= Rabs lam + PI + 100 * u /\
  exists as2, - (PI / 2) <= as2 <= PI / 2 /\ near (205 / 10 * u) (rad (g_lat q)) as2 /\ near (145 * u) (sin as2) (sin a2).
Proof.
  pose proof in_domain as D. destruct lon_found as (th&Bth&NL&D1&D2). pose proof lat2_near as N2. fold lat2 in N2.
  destruct CL as (P1&P2&L1&L2). fold r in L2.
  exists (Gp (g_deg G lat2) (g_deg G (fl (f_rad A (g_lon p) + g_atan2 G Y' X'))) (option_map (fun h => fl (1 * h)) (g_hgt p))).
  split; [|split; [|split; [|split; [|split]]]].
  - unfold f_move. rewrite Rltb_false by (apply Rabs_le; lra). reflexivity.
  - set (lo := rad (g_deg G (fl (f_rad A (g_lon p) + g_atan2 G Y' X')))) in *.
    assert (BA : Rabs (asin (f_sine G p d b)) <= 5 / 3) by apply abs_asin.
    pose proof (near_abs _ _ _ _ N2 BA) as BL.
    assert (NA : near (205 / 10 * u) (rad (g_deg G lat2)) (asin (f_sine G p d b))).
    { eapply near_le; [eapply near_trans; [apply (deg_near _ _ BL)|exact N2]|]. nra. }
    set (la := rad (g_deg G lat2)) in *. set (as2 := asin (f_sine G p d b)) in *.
    assert (SA : near (145 * u) (sin as2) (sin a2)) by (unfold as2; rewrite sin_asin, sin_a2 by exact D; apply sine_near).
    assert (CA : 0 <= cos as2) by (apply cos_asin_pos; exact D).
    pose proof (cos_from_sin as2 a2 (145 * u) CA P2 SA ltac:(lra)) as CC.
    assert (CD : Rabs (cos as2 - cos a2) <= u * (2902 / 10 / cos a2)).
    { apply (Rmult_le_reg_r (cos a2)); [auto|]. replace (u * (2902 / 10 / cos a2) * cos a2) with (2902 / 10 * u) by (field; lra). lra. }
    assert (CN : near (205 / 10 * u + u * (2902 / 10 / cos a2)) (cos la) (cos a2)).
    { eapply near_trans; [|exact CD]. unfold near in *. eapply Rle_trans; [apply cos_lipschitz|exact NA]. }
    assert (SN : near (1655 / 10 * u) (sin la) (sin a2)).
    { eapply near_le; [eapply near_trans; [|exact SA]|]. unfold near in *. eapply Rle_trans; [apply sin_lipschitz|exact NA]. lra. }
    assert (I1 : 1 <= / cos phi). { pose proof (COS_bound phi). apply (Rmult_le_reg_r (cos phi)); [lra|]. rewrite Rinv_l by lra. lra. }
    assert (I2 : 1 <= / cos a2). { pose proof (COS_bound a2). apply (Rmult_le_reg_r (cos a2)); [lra|]. rewrite Rinv_l by lra. lra. }
    set (i1 := / cos phi) in *. set (i2 := / cos a2) in *.
    assert (M0 : move_error u (cos phi) (cos a2) = u * (1300 * i1) + u * (420 * i2)) by (unfold move_error, Rdiv; fold i1; fold i2; ring).
    assert (J1 : u * 1 <= u * i1) by (apply Rmult_le_compat_l; lra). assert (J2 : u * 1 <= u * i2) by (apply Rmult_le_compat_l; lra).
    assert (DD : forall x y, Rabs (x - y) * r <= 645 * u -> Rabs (x - y) * cos a2 <= u * (645 * i1)).
    { intros x y Hx. apply (Rmult_le_reg_r (cos phi)); [auto|]. replace (u * (645 * i1) * cos phi) with (645 * u) by (unfold i1; field; lra). unfold r in Hx. lra. }
    apply DD in D1. apply DD in D2.
    assert (TURN : forall x y, Rabs x <= 1 -> near (100 * u) x y -> forall z, Rabs (y - z) * cos a2 <= u * (1290 * i1) ->
              near (move_error u (cos phi) (cos a2)) (cos la * x) (cos a2 * z)).
    { intros x y Bx Nx z Hz. unfold near in *. replace (cos la * x - cos a2 * z) with ((cos la - cos a2) * x + (cos a2 * (x - y) + cos a2 * (y - z))) by ring.
      eapply Rle_trans; [apply Rabs_triang|]. assert (B1 := abs_prod _ _ _ _ CN Bx). assert (B2 := Rabs_triang (cos a2 * (x - y)) (cos a2 * (y - z))).
      assert (B3 := abs_prod _ _ _ _ (cos_1 a2) Nx). assert (B4 : Rabs (cos a2 * (y - z)) <= u * (1290 * i1)) by (rewrite Rabs_mult, (Rabs_right (cos a2)) by lra; lra).
      rewrite M0. unfold Rdiv in B1. fold i2 in B1. lra. }
    assert (LIN : forall k l x y, Rabs k <= 1 -> Rabs l <= 1 -> Rabs x * cos a2 <= u * (645 * i1) -> Rabs y * cos a2 <= u * (645 * i1) ->
              Rabs (k * x + l * y) * cos a2 <= u * (1290 * i1)).
    { intros k l x y Bk Bl Hx Hy. assert (T1 := Rabs_triang (k * x) (l * y)). rewrite !Rabs_mult in T1.
      assert (Rabs k * (Rabs x * cos a2) <= 1 * (Rabs x * cos a2)) by (apply Rmult_le_compat_r; [apply Rmult_le_pos; [apply Rabs_pos|lra]|auto]).
      assert (Rabs l * (Rabs y * cos a2) <= 1 * (Rabs y * cos a2)) by (apply Rmult_le_compat_r; [apply Rmult_le_pos; [apply Rabs_pos|lra]|auto]).
      assert (Rabs (k * x + l * y) * cos a2 <= (Rabs k * Rabs x + Rabs l * Rabs y) * cos a2) by (apply Rmult_le_compat_r; lra). lra. }
    unfold near3, pl, unitv. cbn [g_lat g_lon cx cy cz]. fold la. fold lo. replace o2 with (lam + (o2 - lam)) by ring. split; [|split].
    + apply (TURN _ (cos (lam + th))); [apply cos_1|unfold near in *; eapply Rle_trans; [apply cos_lipschitz|exact NL]|].
      rewrite !cos_plus. replace (cos lam * cos th - sin lam * sin th - (cos lam * cos (o2 - lam) - sin lam * sin (o2 - lam)))
        with (cos lam * (cos th - cos (o2 - lam)) + - sin lam * (sin th - sin (o2 - lam))) by ring.
      apply LIN; auto; [apply cos_1|rewrite Rabs_Ropp; apply sin_1].
    + apply (TURN _ (sin (lam + th))); [apply sin_1|unfold near in *; eapply Rle_trans; [apply sin_lipschitz|exact NL]|].
      rewrite !sin_plus. replace (sin lam * cos th + cos lam * sin th - (sin lam * cos (o2 - lam) + cos lam * sin (o2 - lam)))
        with (sin lam * (cos th - cos (o2 - lam)) + cos lam * (sin th - sin (o2 - lam))) by ring.
      apply LIN; auto; [apply sin_1|apply cos_1].
    + eapply near_le; [exact SN|]. rewrite M0. lra.
  - cbn [g_lat]. assert (BA : Rabs (asin (f_sine G p d b)) <= 5 / 3) by apply abs_asin. pose proof (near_abs _ _ _ _ N2 BA) as BL.
    assert (NA : near (205 / 10 * u) (rad (g_deg G lat2)) (asin (f_sine G p d b))).
    { eapply near_le; [eapply near_trans; [apply (deg_near _ _ BL)|exact N2]|]. nra. }
    eapply near_le; [eapply near_trans; [|rewrite sin_a2; apply sine_near]|].
    + rewrite <- (sin_asin (f_sine G p d b)) by exact D. unfold near in *. eapply Rle_trans; [apply sin_lipschitz|exact NA].
    + lra.
  - reflexivity.
  - cbn [g_lon]. assert (Rabs (lam + th) <= Rabs lam + PI) by (eapply Rle_trans; [apply Rabs_triang|]; assert (Rabs th <= PI) by (apply Rabs_le; lra); lra).
    apply (near_abs _ _ _ _ NL). auto.
  - cbn [g_lat]. assert (BA : Rabs (asin (f_sine G p d b)) <= 5 / 3) by apply abs_asin. pose proof (near_abs _ _ _ _ N2 BA) as BL.
    exists (asin (f_sine G p d b)). split; [pose proof (asin_bound (f_sine G p d b)); lra|]. split.
    + eapply near_le; [eapply near_trans; [apply (deg_near _ _ BL)|exact N2]|]. nra.
    + rewrite sin_asin by exact D. rewrite sin_a2. apply sine_near.
Qed.
End Walk.
End Accurate.

(** the exact destination *)
Lemma exact_walk p d b r a2 o2 : radius (exact_row p) r -> 0 < r -> Rabs (g_lat p) <= 90 -> 0 < cos (rad (g_lat p)) ->
  rep (lat (moveDistance (exact_row p) d b)) a2 -> rep (lon (moveDistance (exact_row p) d b)) o2 ->
  forall D B, rep d D -> rep b B ->
  unitv (rad a2) (rad o2) = onward (rad (g_lat p)) (rad (g_lon p)) (D / r) (rad B) /\ 0 <= cos (rad a2) /\ -90 <= a2 <= 90.
Proof.
  intros HR Pr L C R1 R2 D B RD RB.
  assert (L' : -90 < g_lat p < 90).
  { apply abs_le_inv in L. split.
    - destruct (Req_dec (g_lat p) (-90)) as [E|E]; [|lra]. exfalso. rewrite E in C. replace (rad (-90)) with (- (PI / 2)) in C by (unfold rad; field). rewrite cos_neg, cos_PI2 in C. lra.
    - destruct (Req_dec (g_lat p) 90) as [E|E]; [|lra]. exfalso. rewrite E in C. replace (rad 90) with (PI / 2) in C by (unfold rad; field). rewrite cos_PI2 in C. lra. }
  destruct (C31_destination (exact_row p) (g_lat p) (g_lon p) d b D B r (rep_Fin _) (rep_Fin _) L' RD RB HR) as ((a&o&Ra&Ro&E)&a'&Ra'&Ba); [lra|].
  rewrite <- (rep_inj _ _ _ R1 Ra'), <- (rep_inj _ _ _ R1 Ra) in *. rewrite <- (rep_inj _ _ _ R2 Ro) in E. split; [symmetry; exact E|]. split; [|exact Ba].
  pose proof PI_RGT_0. unfold rad. apply cos_ge_0; nra.
Qed.
(** two places that are close in every coordinate *)
Lemma chord_angle a o a' o' e : 0 <= e -> near3 e (unitv a' o') (unitv a o) -> exists t, is_angle t (unitv a' o') (unitv a o) /\ t <= 7 / 2 * e.
Proof.
  intros Pe (N1&N2&N3). destruct (angle_ex (unitv a' o') (unitv a o)) as (t&HT).
  { unfold rdot, unitv. cbn. pose proof (sc a'). pose proof (sc o'). nra. }
  { unfold rdot, unitv. cbn. pose proof (sc a). pose proof (sc o). nra. }
  exists t. split; [exact HT|]. destruct HT as (Bt&CT). set (P := unitv a' o') in *. set (Q := unitv a o) in *.
  assert (PP : rdot P P = 1) by (unfold P, rdot, unitv; cbn; pose proof (sc a'); pose proof (sc o'); nra).
  assert (QQ : rdot Q Q = 1) by (unfold Q, rdot, unitv; cbn; pose proof (sc a); pose proof (sc o); nra).
  assert (SQ : forall x, Rabs x <= e -> x * x <= e * e) by (intros x Hx; apply abs_le_inv in Hx; nra).
  unfold near in *. apply SQ in N1, N2, N3.
  assert (CH : 2 - 2 * cos t <= 3 * (e * e)) by (rewrite CT; unfold rdot in *; nra).
  replace t with (2 * (t / 2)) in CH by field. rewrite cos_2a_sin in CH.
  pose proof (half_sine (t / 2) ltac:(lra)) as L. assert (t / 2 / 2 * (t / 2 / 2) <= sin (t / 2) * sin (t / 2)) by (apply Rmult_le_compat; lra).
  apply Rnot_lt_le. intros K. assert (7 / 2 * e * (7 / 2 * e) <= t * t) by nra. nra.
Qed.

(** ** Theorems *)
(** The computed destination of a walk of up to four earth radii over the ground, compared with the exact one. *)
Theorem C97_move : forall u G p d b r a2 o2, accurate_gps u G -> on_earth p -> radius (exact_row p) r -> 0 < r ->
  Rabs (d / r) <= 4 -> Rabs b <= 360 ->
  rep (lat (moveDistance (exact_row p) (Fin d) (Fin b))) a2 -> rep (lon (moveDistance (exact_row p) (Fin d) (Fin b))) o2 ->
  clear_of_poles u (cos (rad (g_lat p))) (cos (rad a2)) ->
  exists q, f_move G p d b = Some q /\ near3 (move_error u (cos (rad (g_lat p))) (cos (rad a2))) (pl q) (unitv (rad a2) (rad o2)) /\
    near (166 * u) (sin (rad (g_lat q))) (sin (rad a2)) /\
    match g_hgt p, g_hgt q with Some h, Some h' => near (u * Rabs h) h' h | None, None => True | _, _ => False end.
Proof.
  intros u G p d b r a2 o2 HG P HR Pr T B R1 R2 CL. pose proof (proj1 HG) as HA.
  destruct (exact_walk p _ _ r a2 o2 HR Pr (proj1 P) (proj1 CL) R1 R2 d b (rep_Fin _) (rep_Fin _)) as (E&C0&_).
  assert (NT : near (20 * u) (f_arc G p d) (d / r)).
  { apply (arc_near u G HG p d d r HR Pr T). rewrite Rminus_diag_eq, Rabs_R0 by reflexivity. pose proof (u_range u _ HA). pose proof (Rabs_pos d). nra. }
  destruct (angle_near u (g_ops G) HA b B) as (NS&NC). pose proof (u_range u _ HA) as U.
  destruct (walk_near u G HG p P d b (d / r) (rad b) NT) with (a2 := rad a2) (o2 := rad o2) as (q&Eq&N&NL&Hh&_); auto.
  - eapply near_le; [exact NS|lra].
  - eapply near_le; [exact NC|lra].
  - exists q. split; [exact Eq|]. split; [exact N|]. split; [exact NL|]. rewrite Hh. destruct (g_hgt p) as [h|]; cbn [option_map]; [|exact Logic.I].
    rewrite Rmult_1_l. apply (fl_near u _ HA).
Qed.
Print Assumptions C97_move.
(** The same as an angle seen from the middle of the earth; times its radius it is the distance on the ground. *)
Theorem C97_ground : forall u G p d b r a2 o2, accurate_gps u G -> on_earth p -> radius (exact_row p) r -> 0 < r ->
  Rabs (d / r) <= 4 -> Rabs b <= 360 ->
  rep (lat (moveDistance (exact_row p) (Fin d) (Fin b))) a2 -> rep (lon (moveDistance (exact_row p) (Fin d) (Fin b))) o2 ->
  clear_of_poles u (cos (rad (g_lat p))) (cos (rad a2)) ->
  exists q t, f_move G p d b = Some q /\ is_angle t (pl q) (unitv (rad a2) (rad o2)) /\ t <= u * (4600 / cos (rad (g_lat p)) + 1500 / cos (rad a2)).
Proof.
  intros u G p d b r a2 o2 HG P HR Pr T B R1 R2 CL. pose proof (u_range u _ (proj1 HG)) as U.
  destruct (C97_move u G p d b r a2 o2 HG P HR Pr T B R1 R2 CL) as (q&Eq&N&_).
  destruct CL as (P1&P2&_). assert (I1 := Rinv_0_lt_compat _ P1). assert (I2 := Rinv_0_lt_compat _ P2).
  unfold move_error, Rdiv in *. set (i1 := / cos (rad (g_lat p))) in *. set (i2 := / cos (rad a2)) in *.
  assert (J1 : 0 <= u * i1) by (apply Rmult_le_pos; lra). assert (J2 : 0 <= u * i2) by (apply Rmult_le_pos; lra).
  destruct (chord_angle (rad a2) (rad o2) (rad (g_lat q)) (rad (g_lon q)) (u * (1300 * i1 + 420 * i2))) as (t&HT&Bt); [lra|exact N|].
  exists q, t. split; [exact Eq|]. split; [exact HT|]. lra.
Qed.
Print Assumptions C97_ground.
(** the bearing and the distance gpsFromSpace computes *)
Lemma space_bearing_near u G x y B : accurate_gps u G -> x <> 0 \/ y <> 0 -> x = hyp y x * sin (rad B) -> y = hyp y x * cos (rad B) ->
  near (48 * u) (f_sin (g_ops G) (f_rad (g_ops G) (f_space_bearing G x y))) (sin (rad B)) /\
  near (48 * u) (f_cos (g_ops G) (f_rad (g_ops G) (f_space_bearing G x y))) (cos (rad B)).
Proof.
  intros HG NZ EX EY. pose proof (proj1 HG) as HA. pose proof (u_range u _ HA) as U. assert (UU : 0 <= u * u <= u * / 1000000) by nra. pose proof pi_10_3 as P3.
  assert (HP : 0 < hyp y x).
  { pose proof (hyp_nonneg y x). destruct (Req_dec (hyp y x) 0) as [Z|Z]; [|lra]. exfalso. rewrite Z, Rmult_0_l in EX, EY. tauto. }
  pose proof HG as (_&_&_&_&HT&_). destruct (HT x y) as (th&Bth&E1&E2&N); [tauto|]. change (sqrt (y * y + x * x)) with (hyp y x) in E1, E2.
  assert (S : sin th = sin (rad B)) by (apply (Rmult_eq_reg_l (hyp y x)); lra). assert (C : cos th = cos (rad B)) by (apply (Rmult_eq_reg_l (hyp y x)); lra).
  assert (Bt : Rabs th <= 10 / 3) by (apply Rabs_le; lra). pose proof (near_abs _ _ _ _ N Bt) as BA.
  assert (N1 : near (214 / 10 * u) (rad (f_space_bearing G x y)) th).
  { eapply near_le; [eapply near_trans; [apply (deg_near u G HG _ _ BA)|exact N]|]. nra. }
  pose proof (near_abs _ _ _ _ N1 Bt) as BB.
  assert (N2 : near (35 * u) (f_rad (g_ops G) (f_space_bearing G x y)) th).
  { eapply near_le; [eapply near_trans; [|exact N1]|]. destruct HA as (_&_&HR&_). eapply near_le; [apply HR|]. apply (Rmult_le_compat_l (4 * u)) in BB; [exact BB|lra]. nra. }
  rewrite <- S, <- C. split; (eapply near_le; [first [apply (sin_near u G HG _ _ _ N2)|apply (cos_near u G HG _ _ _ N2)]|lra]).
Qed.
Lemma sqrt_near a b k : 0 <= a -> 0 <= b -> 0 <= k <= 1 -> Rabs (a - b) <= k * b -> Rabs (sqrt a - sqrt b) <= k * sqrt b.
Proof.
  intros PA PB Hk D. destruct (Req_dec b 0) as [Z|Z].
  - subst b. rewrite Rmult_0_r, Rminus_0_r in D. assert (a = 0) by (apply abs_le_inv in D; lra). subst a. rewrite sqrt_0, Rminus_0_r, Rabs_R0. lra.
  - pose proof (sqrt_lt_R0 b ltac:(lra)) as SB. pose proof (sqrt_pos a) as SA. pose proof (sqrt_sqrt a PA). pose proof (sqrt_sqrt b PB).
    apply (Rmult_le_reg_r (sqrt b)); [auto|]. replace (k * sqrt b * sqrt b) with (k * (sqrt b * sqrt b)) by ring. rewrite H0.
    eapply Rle_trans; [|exact D]. replace (a - b) with ((sqrt a - sqrt b) * (sqrt a + sqrt b)) by nra. rewrite Rabs_mult.
    apply Rmult_le_compat_l; [apply Rabs_pos|]. rewrite Rabs_right by lra. lra.
Qed.
Lemma space_distance_near u G x y : accurate_gps u G -> Rabs (f_space_distance G x y - hyp y x) <= 5 / 2 * u * Rabs (hyp y x).
Proof.
  intros HG. pose proof (proj1 HG) as HA. pose proof (u_range u _ HA) as U. assert (UU : 0 <= u * u <= u * / 1000000) by nra.
  rewrite (Rabs_right (hyp y x)) by (apply Rle_ge, hyp_nonneg). unfold f_space_distance.
  destruct (fl_rel u _ HA (x * x)) as (e1&E1&->). destruct (fl_rel u _ HA (y * y)) as (e2&E2&->).
  destruct (fl_rel u _ HA (x * x * (1 + e1) + y * y * (1 + e2))) as (e3&E3&->). apply abs_le_inv in E1, E2, E3.
  pose proof (Rle_0_sqr x) as PX. pose proof (Rle_0_sqr y) as PY. unfold Rsqr in *. set (X := x * x) in *. set (Y := y * y) in *.
  set (a := (X * (1 + e1) + Y * (1 + e2)) * (1 + e3)).
  assert (PA : 0 <= a) by (unfold a; apply Rmult_le_pos; [|lra]; apply Rplus_le_le_0_compat; apply Rmult_le_pos; lra).
  assert (M : forall e, - u <= e <= u -> 1 - 2001 / 1000 * u <= (1 + e) * (1 + e3) <= 1 + 2001 / 1000 * u) by (intros e He; nra).
  assert (ND : Rabs (a - (Y + X)) <= 2001 / 1000 * u * (Y + X)).
  { pose proof (M e1 E1) as M1. pose proof (M e2 E2) as M2. replace a with (X * ((1 + e1) * (1 + e3)) + Y * ((1 + e2) * (1 + e3))) by (unfold a; ring).
    set (k1 := (1 + e1) * (1 + e3)) in *. set (k2 := (1 + e2) * (1 + e3)) in *. apply Rabs_le.
    assert (X * (1 - 2001 / 1000 * u) <= X * k1 <= X * (1 + 2001 / 1000 * u)) by (split; apply Rmult_le_compat_l; lra).
    assert (Y * (1 - 2001 / 1000 * u) <= Y * k2 <= Y * (1 + 2001 / 1000 * u)) by (split; apply Rmult_le_compat_l; lra). lra. }
  assert (HY : hyp y x = sqrt (Y + X)) by reflexivity.
  assert (SN : Rabs (sqrt a - hyp y x) <= 10011 / 10000 * u * hyp y x).
  { rewrite HY. pose proof (sqrt_pos (Y + X)) as SP. destruct (Req_dec (Y + X) 0) as [Z|Z].
    - rewrite Z in *. rewrite Rmult_0_r, Rminus_0_r in ND. assert (a = 0) by (apply abs_le_inv in ND; lra). rewrite H, sqrt_0, Rminus_0_r, Rabs_R0. lra.
    - assert (SB : 0 < sqrt (Y + X)) by (apply sqrt_lt_R0; lra). pose proof (sqrt_sqrt a PA) as SA2. pose proof (sqrt_sqrt (Y + X) ltac:(lra)) as SB2. pose proof (sqrt_pos a) as SA.
      set (sa := sqrt a) in *. set (sb := sqrt (Y + X)) in *.
      assert (CO : Rabs (sa - sb) <= 2001 / 1000 * u * sb) by (unfold sa, sb; apply sqrt_near; lra).
      apply abs_le_inv in CO. assert (LO : sb * (2 - 3 * u) <= sa + sb) by lra.
      assert (AB : Rabs (sa - sb) * (sa + sb) <= 2001 / 1000 * u * (sb * sb)).
      { rewrite SB2. eapply Rle_trans; [|exact ND]. right. rewrite <- SA2, <- SB2 at 1. replace (sa * sa - sb * sb) with ((sa - sb) * (sa + sb)) by ring.
        rewrite Rabs_mult, (Rabs_right (sa + sb)) by lra. reflexivity. }
      pose proof (Rabs_pos (sa - sb)) as PD. assert (Rabs (sa - sb) * (sb * (2 - 3 * u)) <= 2001 / 1000 * u * (sb * sb)) by (eapply Rle_trans; [apply Rmult_le_compat_l; [auto|exact LO]|exact AB]).
      assert (K : Rabs (sa - sb) * (2 - 3 * u) <= 2001 / 1000 * u * sb) by (apply (Rmult_le_reg_r sb); [auto|]; lra).
      assert (0 <= u * sb) by (apply Rmult_le_pos; lra). assert (Rabs (sa - sb) * (3 * u) <= Rabs (sa - sb) * (3 / 1000000)) by (apply Rmult_le_compat_l; lra). lra. }
  pose proof HG as (_&_&HQ&_). specialize (HQ a PA). pose proof (hyp_nonneg y x) as PH. assert (0 <= u * hyp y x) by (apply Rmult_le_pos; lra).
  assert (SA3 : sqrt a <= hyp y x * (1 + 2 * u)) by (apply abs_le_inv in SN; lra).
  apply (Rmult_le_compat_l u) in SA3; [|lra]. assert (u * (hyp y x * (1 + 2 * u)) <= u * hyp y x * (11 / 10)) by (replace (u * (hyp y x * (1 + 2 * u))) with (u * hyp y x * (1 + 2 * u)) by ring; apply Rmult_le_compat_l; lra).
  replace (g_sqrt G a - hyp y x) with ((g_sqrt G a - sqrt a) + (sqrt a - hyp y x)) by ring. eapply Rle_trans; [apply Rabs_triang|]. lra.
Qed.
(** The position of local coordinates. *)
Theorem C97_space : forall u G g0 x y z r a2 o2, accurate_gps u G -> on_earth g0 -> radius (exact_row g0) r -> 0 < r ->
  x <> 0 \/ y <> 0 -> sqrt (y * y + x * x) <= 4 * r ->
  let g := gpsFromSpace (Spt (Fin x) (Fin y) (option_map Fin z)) (exact_row g0) in
  rep (lat g) a2 -> rep (lon g) o2 -> clear_of_poles u (cos (rad (g_lat g0))) (cos (rad a2)) ->
  exists q t, f_gpsFromSpace G x y z g0 = Some q /\ is_angle t (pl q) (unitv (rad a2) (rad o2)) /\
    t <= u * (4600 / cos (rad (g_lat g0)) + 1500 / cos (rad a2)) /\ (forall h, z = Some h -> g_hgt q = Some h).
Proof.
  intros u G g0 x y z r a2 o2 HG P HR Pr NZ T g R1 R2 CL. pose proof (u_range u _ (proj1 HG)) as U.
  set (s := Spt (Fin x) (Fin y) (option_map Fin z)) in *.
  destruct (space_polar s x y (rep_Fin _) (rep_Fin _)) as (B&RB&EX&EY&RD).
  assert (L1 : lat g = lat (moveDistance (exact_row g0) (nsqrt (sx s * sx s + sy s * sy s)%num) (nrad2deg (natan2 (sx s) (sy s))))) by (unfold g, gpsFromSpace; destruct (sz s); reflexivity).
  assert (L2 : lon g = lon (moveDistance (exact_row g0) (nsqrt (sx s * sx s + sy s * sy s)%num) (nrad2deg (natan2 (sx s) (sy s))))) by (unfold g, gpsFromSpace; destruct (sz s); reflexivity).
  rewrite L1 in R1. rewrite L2 in R2.
  destruct (exact_walk g0 _ _ r a2 o2 HR Pr (proj1 P) (proj1 CL) R1 R2 _ _ RD RB) as (E&C0&_).
  assert (TT : Rabs (hyp y x / r) <= 4).
  { pose proof (hyp_nonneg y x). assert (Ir := Rinv_0_lt_compat _ Pr). rewrite Rabs_right by (apply Rle_ge, Rmult_le_pos; lra).
    apply (Rmult_le_reg_r r); [auto|]. unfold Rdiv. rewrite Rmult_assoc, Rinv_l by lra. unfold hyp. lra. }
  pose proof (arc_near u G HG g0 _ _ r HR Pr TT (space_distance_near u G x y HG)) as NT.
  destruct (space_bearing_near u G x y B HG NZ EX EY) as (NS&NC).
  destruct (walk_near u G HG g0 P _ _ _ _ NT NS NC (rad a2) (rad o2) E C0 CL) as (q&Eq&N&_&Hh&_).
  destruct CL as (P1&P2&_). assert (I1 := Rinv_0_lt_compat _ P1). assert (I2 := Rinv_0_lt_compat _ P2).
  unfold move_error, Rdiv in *. set (i1 := / cos (rad (g_lat g0))) in *. set (i2 := / cos (rad a2)) in *.
  assert (J1 : 0 <= u * i1) by (apply Rmult_le_pos; lra). assert (J2 : 0 <= u * i2) by (apply Rmult_le_pos; lra).
  destruct (chord_angle (rad a2) (rad o2) (rad (g_lat q)) (rad (g_lon q)) (u * (1300 * i1 + 420 * i2))) as (t&HT&Bt); [lra|exact N|].
  exists (match z with Some h => Gp (g_lat q) (g_lon q) (Some h) | None => q end), t. unfold f_gpsFromSpace. rewrite Eq.
  split; [reflexivity|]. split; [destruct z; exact HT|]. split; [lra|]. intros h ->. reflexivity.
Qed.
Print Assumptions C97_space.
(** ** Double precision *)
Lemma cos_60 a : Rabs a <= 60 -> 1 / 2 <= cos (rad a).
Proof.
  intros L. rewrite <- cos_PI3. apply abs_le_inv in L. pose proof PI_RGT_0.
  assert (Rr : Rabs (rad a) <= PI / 3) by (unfold rad; apply Rabs_le; nra).
  replace (cos (rad a)) with (cos (Rabs (rad a))) by (unfold Rabs; destruct (Rcase_abs (rad a)); [apply cos_neg|reflexivity]).
  pose proof (Rabs_pos (rad a)). destruct (Req_dec (Rabs (rad a)) (PI / 3)) as [E|E]; [rewrite E; lra|].
  left. apply cos_decreasing_1; lra.
Qed.
Lemma clear_60 a b : Rabs a <= 60 -> Rabs b <= 60 -> clear_of_poles u53 (cos (rad a)) (cos (rad b)).
Proof. intros La Lb. apply cos_60 in La, Lb. unfold clear_of_poles, u53. splits; nra. Qed.
Lemma inv_60 a : Rabs a <= 60 -> 0 < / cos (rad a) <= 2.
Proof.
  intros L. apply cos_60 in L. split; [apply Rinv_0_lt_compat; lra|]. apply (Rmult_le_reg_r (cos (rad a))); [lra|]. rewrite Rinv_l by lra. lra.
Qed.
(** In double precision, between 60 degrees South and North, the place found is less than a hundredth of a millimetre
    from the exact one. *)
Theorem C97_double : forall G p d b r a2 o2, accurate_gps u53 G -> on_earth p -> radius (exact_row p) r -> 0 < r ->
  Rabs (d / r) <= 4 -> Rabs b <= 360 ->
  rep (lat (moveDistance (exact_row p) (Fin d) (Fin b))) a2 -> rep (lon (moveDistance (exact_row p) (Fin d) (Fin b))) o2 ->
  Rabs (g_lat p) <= 60 -> Rabs a2 <= 60 ->
  exists q t, f_move G p d b = Some q /\ is_angle t (pl q) (unitv (rad a2) (rad o2)) /\ RE * t <= 1 / 100000.
Proof.
  intros G p d b r a2 o2 HG P HR Pr T B R1 R2 La Lb.
  destruct (C97_ground u53 G p d b r a2 o2 HG P HR Pr T B R1 R2 (clear_60 _ _ La Lb)) as (q&t&Eq&HT&Bt).
  exists q, t. split; [exact Eq|]. split; [exact HT|]. apply inv_60 in La, Lb. unfold Rdiv in Bt. unfold RE.
  apply Rle_trans with (6371000 * (u53 * (4600 * 2 + 1500 * 2))); [|unfold u53; lra]. apply Rmult_le_compat_l; [lra|]. eapply Rle_trans; [exact Bt|].
  apply Rmult_le_compat_l; [unfold u53; lra|lra].
Qed.
Print Assumptions C97_double.
Lemma unit_1 a o : rdot (unitv a o) (unitv a o) = 1.
Proof. unfold rdot, unitv. cbn. pose proof (sc a). pose proof (sc o). nra. Qed.
Lemma cos_le_gap x : x <= PI / 2 -> - (PI / 2) <= x -> cos x <= PI / 2 - x.
Proof.
  intros H1 H2. rewrite <- sin_shift. pose proof (sin_abs (PI / 2 - x)) as K. rewrite (Rabs_right (PI / 2 - x)) in K by lra.
  eapply Rle_trans; [apply Rle_abs|exact K].
Qed.
(** Moving and measuring the way back, both in double precision: the distance is found again. *)
Theorem C97_there_and_back : forall G p d b a2, accurate_gps u53 G -> g_hgt p = None -> Rabs (g_lat p) <= 60 -> Rabs (g_lon p) <= 179 ->
  0 <= d <= 6000000 -> Rabs b <= 360 -> rep (lat (moveDistance (exact_row p) (Fin d) (Fin b))) a2 -> Rabs a2 <= 60 ->
  exists q d', f_move G p d b = Some q /\ f_distance G p q = Some d' /\ Rabs (d' - d) <= 2 / 100000.
Proof.
  intros G p d b a2 HG Np La Lo Hd Hb R1 L2. pose proof (proj1 HG) as HA. pose proof PI_RGT_0 as HP. pose proof PI2_1 as HP1.
  assert (P : on_earth p) by (split; lra). assert (HR : radius (exact_row p) RE) by (unfold radius, exact_row; cbn [hgt]; rewrite Np; reflexivity).
  pose proof RE_pos as PR. assert (La' := La). apply abs_le_inv in La'.
  destruct (move_angle (exact_row p) (g_lat p) (g_lon p) (Fin d) (Fin b) d b RE (rep_Fin _) (rep_Fin _) ltac:(lra) (rep_Fin _) (rep_Fin _) HR PR) as (Q&(a&o2&Ra&R2&EQ)&HT0).
  { unfold RE. nra. }
  rewrite <- (rep_inj _ _ _ R1 Ra) in EQ. clear a Ra.
  assert (T : Rabs (d / RE) <= 942 / 1000).
  { unfold RE. apply Rabs_le. lra. }
  pose proof (clear_60 _ _ La L2) as CL.
  destruct (exact_walk p _ _ RE a2 o2 HR PR (proj1 P) (proj1 CL) R1 R2 d b (rep_Fin _) (rep_Fin _)) as (E&C0&_).
  assert (NT : near (20 * u53) (f_arc G p d) (d / RE)).
  { apply (arc_near u53 G HG p d d RE HR PR); [lra|]. rewrite Rminus_diag_eq, Rabs_R0 by reflexivity. pose proof (Rabs_pos d). unfold u53. lra. }
  destruct (angle_near u53 (g_ops G) HA b Hb) as (NS&NC).
  destruct (walk_near u53 G HG p P d b (d / RE) (rad b) NT) with (a2 := rad a2) (o2 := rad o2) as (q&Eq&N&NL&Hh&BL&as2&Bas&Nla&Nsa); auto.
  { eapply near_le; [exact NS|unfold u53; lra]. }
  { eapply near_le; [exact NC|unfold u53; lra]. }
  assert (C2 := cos_60 _ L2). assert (Ca : 49 / 100 <= cos as2).
  { assert (0 <= cos as2) by (apply cos_ge_0; lra). pose proof (cos_from_sin as2 (rad a2) _ H ltac:(lra) Nsa ltac:(unfold u53; lra)) as CC.
    pose proof (Rabs_pos (cos as2 - cos (rad a2))) as PC. assert (Rabs (cos as2 - cos (rad a2)) * (1 / 2) <= Rabs (cos as2 - cos (rad a2)) * cos (rad a2)) by (apply Rmult_le_compat_l; lra).
    assert (Rabs (cos as2 - cos (rad a2)) <= 1 / 1000) by (unfold u53 in *; lra). apply abs_le_inv in H1. lra. }
  assert (G1 : as2 <= PI / 2 - 49 / 100) by (pose proof (cos_le_gap as2 ltac:(lra) ltac:(lra)); lra).
  assert (G2 : - (PI / 2 - 49 / 100) <= as2) by (pose proof (cos_le_gap (- as2) ltac:(lra) ltac:(lra)) as K; rewrite cos_neg in K; lra).
  assert (LQ : Rabs (rad (g_lat q)) <= PI / 2 - 48 / 100) by (unfold near in Nla; apply abs_le_inv in Nla; unfold u53 in *; apply Rabs_le; lra).
  assert (INV : forall x m, Rabs (rad x) <= m -> Rabs x <= m * (180 / PI)).
  { intros x m Hx. replace x with (rad x * (180 / PI)) by (unfold rad; field; lra). rewrite Rabs_mult, (Rabs_right (180 / PI)) by (apply Rle_ge, Rlt_le, Rdiv_lt_0_compat; lra).
    apply Rmult_le_compat_r; [apply Rlt_le, Rdiv_lt_0_compat; lra|auto]. }
  assert (I180 : 0 < 180 / PI) by (apply Rdiv_lt_0_compat; lra).
  assert (OQ : on_earth q).
  { split.
    - apply INV in LQ. eapply Rle_trans; [exact LQ|]. replace 90 with (PI / 2 * (180 / PI)) by (field; lra). apply Rmult_le_compat_r; lra.
    - apply INV in BL. eapply Rle_trans; [exact BL|]. replace 360 with (2 * PI * (180 / PI)) by (field; lra). apply Rmult_le_compat_r; [lra|].
      unfold rad at 1. rewrite Rabs_mult, (Rabs_right (PI / 180)) by lra. assert (Rabs (g_lon p) * (PI / 180) <= 179 * (PI / 180)) by (apply Rmult_le_compat_r; lra).
      unfold u53 in *. lra. }
  assert (OKP : lat_ok G p) by (apply (lat_ok_60 u53); auto).
  assert (OKQ : lat_ok G q).
  { apply (lat_ok_cos u53); [exact HG|apply OQ|]. assert (N0 : near (205 / 10 * u53) (cos (rad (g_lat q))) (cos as2)) by (unfold near in *; eapply Rle_trans; [apply cos_lipschitz|exact Nla]).
    unfold near in N0. apply abs_le_inv in N0. unfold u53 in *. lra. }
  destruct (inv_60 _ La) as (I1&I1'). destruct (inv_60 _ L2) as (I2&I2').
  assert (M0 : move_error u53 (cos (rad (g_lat p))) (cos (rad a2)) <= u53 * 3440) by (unfold move_error, Rdiv; apply Rmult_le_compat_l; [unfold u53; lra|lra]).
  destruct (chord_angle (rad a2) (rad o2) (rad (g_lat q)) (rad (g_lon q)) (u53 * 3440)) as (t1&HT1&Bt1).
  { unfold u53. lra. }
  { destruct N as (N1&N2&N3). split; [|split]; (eapply near_le; [|exact M0]); assumption. }
  fold (pl q) in HT1. destruct (angle_ex (pl p) (pl q)) as (t2&HT2); [apply unit_1|apply unit_1|].
  rewrite EQ in HT0. change (unitv (rad (g_lat p)) (rad (g_lon p))) with (pl p) in HT0.
  assert (T2a : t2 <= d / RE + t1) by (apply (angle_triangle (d / RE) t1 t2 (pl p) (unitv (rad a2) (rad o2)) (pl q)); auto using unit_1, angle_sym; apply unit_1).
  assert (T2b : d / RE <= t2 + t1) by (apply (angle_triangle t2 t1 (d / RE) (pl p) (pl q) (unitv (rad a2) (rad o2))); auto; apply unit_1).
  apply abs_le_inv in T.
  assert (T21 : 0 <= t2 <= 1) by (split; [apply HT2|unfold u53 in *; lra]). pose proof (sin_quarter t2 T21) as SQ.
  destruct (C75_double G p q t2 HG P OQ OKP OKQ HT2 Np) as (_&K).
  { rewrite Hh, Np. reflexivity. }
  destruct (K (proj2 T21)) as (d'&v&sx'&sy'&x&y&Ed&Bd&_). exists q, d'. split; [exact Eq|]. split; [exact Ed|].
  assert (Rabs (RE * t2 - d) <= RE * (7 / 2 * (u53 * 3440))).
  { replace (RE * t2 - d) with (RE * (t2 - d / RE)) by (field; lra). rewrite Rabs_mult, (Rabs_right RE) by lra. apply Rmult_le_compat_l; [lra|]. apply Rabs_le. lra. }
  replace (d' - d) with ((d' - RE * t2) + (RE * t2 - d)) by ring. eapply Rle_trans; [apply Rabs_triang|]. unfold RE, u53 in *. lra.
Qed.
Print Assumptions C97_there_and_back.
(** A walk to the pole: a cosine that is off by one unit in the last place already makes the result nan. *)
Theorem C97_pole_refuted : forall u, 0 < u <= / 1000000 -> exists G p d b, accurate_gps u G /\ on_earth p /\ Rabs (d / RE) <= 1 /\
  rep (lat (moveDistance (exact_row p) (Fin d) (Fin b))) 90 /\ f_move G p d b = None.
Proof.
  intros u U. pose proof PI_RGT_0 as HP. pose proof PI_4 as P4. pose proof RE_pos as PR.
  exists (g_exact_but_cos u), (Gp 60 0 None), (RE * (PI / 6)), 0.
  assert (R60 : rad 60 = PI / 3) by (unfold rad; field). assert (R0 : rad 0 = 0) by (unfold rad; ring).
  assert (S3 : sqrt 3 * sqrt 3 = 3) by (apply sqrt_sqrt; lra). assert (P3 : 0 <= sqrt 3) by apply sqrt_pos.
  splits.
  - apply exact_but_cos. lra.
  - split; cbn; apply Rabs_le; lra.
  - replace (RE * (PI / 6) / RE) with (PI / 6) by (field; lra). apply Rabs_le. lra.
  - unfold moveDistance, exact_row, rad_lat, earth. cbn [lat hgt g_lat g_hgt option_map].
    apply (rep_eq _ (asin 1 * (180 / PI))).
    + apply rep_rad2deg. assert (E1 : sin (rad 60) * cos (RE * (PI / 6) / 6371000) + cos (rad 60) * sin (RE * (PI / 6) / 6371000) * cos (rad 0) = 1).
      { replace (RE * (PI / 6) / 6371000) with (PI / 6) by (unfold RE; field). rewrite R60, R0, sin_PI3, cos_PI3, sin_PI6, cos_PI6, cos_0. lra. }
      rewrite <- E1. apply rep_asin; [|rewrite E1; lra].
      assert (K1 : rep (ndeg2rad (Fin 60)) (rad 60)) by apply rep_deg2rad, rep_Fin. assert (K0 : rep (ndeg2rad (Fin 0)) (rad 0)) by apply rep_deg2rad, rep_Fin.
      rep_all; try exact K1; try exact K0; try apply rep_Fin; lra.
    + rewrite asin_1. field. lra.
  - unfold f_move, f_sine, f_arc, f_radius. cbn [g_exact_but_cos g_ops f_round f_rad f_sin f_cos g_lat g_lon g_hgt].
    replace (RE * (PI / 6) / 6371000) with (PI / 6) by (unfold RE; field). rewrite R60, R0, sin_PI3, cos_PI3, sin_PI6, cos_PI6, cos_0.
    rewrite Rltb_true; [reflexivity|]. rewrite Rabs_right; nra.
Qed.
Print Assumptions C97_pole_refuted.

(** ** Examples *)
(** from 52 degrees North, 13 degrees East: one degree to the North *)
Lemma ex_walk : exists o2, rep (lat (moveDistance (exact_row ex_p) (Fin (RE * rad 1)) (Fin 0))) 53 /\ rep (lon (moveDistance (exact_row ex_p) (Fin (RE * rad 1)) (Fin 0))) o2.
Proof.
  pose proof RE_pos as PR. pose proof PI_RGT_0 as HP.
  destruct (C31_destination (exact_row ex_p) 52 13 (Fin (RE * rad 1)) (Fin 0) (RE * rad 1) 0 RE (rep_Fin _) (rep_Fin _) ltac:(lra) (rep_Fin _) (rep_Fin _) eq_refl) as ((a&o&Ra&Ro&E)&a'&Ra'&Ba); [lra|].
  exists o. split; [|exact Ro]. replace 53 with a; [exact Ra|]. rewrite (rep_inj _ _ _ Ra Ra') in *.
  assert (EZ := f_equal cz E). unfold onward, unitv, northv, eastv in EZ. cbn [cx cy cz] in EZ. replace (RE * rad 1 / RE) with (rad 1) in EZ by (field; lra).
  replace (rad 0) with 0 in EZ by (unfold rad; ring). rewrite cos_0, sin_0 in EZ.
  assert (S : sin (rad a') = sin (rad 53)).
  { replace (rad 53) with (rad 52 + rad 1) by (unfold rad; field). rewrite sin_plus. rewrite <- EZ. ring. }
  assert (INJ : rad a' = rad 53).
  { assert (- (PI / 2) <= rad a' <= PI / 2) by (unfold rad; split; nra). assert (- (PI / 2) <= rad 53 <= PI / 2) by (unfold rad; split; nra).
    apply Rle_antisym; apply sin_incr_0; lra. }
  unfold rad in INJ. apply (Rmult_eq_reg_r (PI / 180)); lra.
Qed.
Example C97_example : exists q t o2, f_move gdouble ex_p (RE * rad 1) 0 = Some q /\ is_angle t (pl q) (unitv (rad 53) (rad o2)) /\ RE * t <= 1 / 100000.
Proof.
  destruct ex_walk as (o2&R1&R2). pose proof RE_pos as PR. pose proof PI_RGT_0. pose proof PI_4.
  destruct (C97_double gdouble ex_p (RE * rad 1) 0 RE 53 o2 gdouble_accurate) as (q&t&K); auto.
  - apply ex_points.
  - reflexivity.
  - replace (RE * rad 1 / RE) with (rad 1) by (field; lra). unfold rad. apply Rabs_le. lra.
  - rewrite Rabs_R0. lra.
  - cbn. apply Rabs_le. lra.
  - apply Rabs_le. lra.
  - exists q, t, o2. exact K.
Qed.
Example C97_back_example : exists q d', f_move gdouble ex_p (RE * rad 1) 0 = Some q /\ f_distance gdouble ex_p q = Some d' /\ Rabs (d' - RE * rad 1) <= 2 / 100000.
Proof.
  destruct ex_walk as (o2&R1&R2). pose proof PI_RGT_0. pose proof PI_4.
  apply (C97_there_and_back gdouble ex_p (RE * rad 1) 0 53 gdouble_accurate); auto; try (cbn; apply Rabs_le; lra); try (rewrite Rabs_R0; lra).
  unfold RE, rad. lra.
Qed.
(** 3 km to the East and 4 km to the North of that place, at a height of 20 m *)
Example C97_space_example : exists q t a2 o2, f_gpsFromSpace gdouble 3000 4000 (Some 20) ex_p = Some q /\ is_angle t (pl q) (unitv (rad a2) (rad o2)) /\ g_hgt q = Some 20.
Proof.
  assert (P : on_earth ex_p) by apply ex_points. pose proof RE_pos as PR. pose proof PI_RGT_0 as HP. pose proof PI_4.
  set (s := Spt (Fin 3000) (Fin 4000) (Some (Fin 20))).
  destruct (space_polar s 3000 4000 (rep_Fin _) (rep_Fin _)) as (B&RB&EX&EY&RD).
  assert (H5 : hyp 4000 3000 = 5000) by (unfold hyp; replace (4000 * 4000 + 3000 * 3000) with (5000 * 5000) by ring; apply sqrt_square; lra).
  rewrite H5 in *.
  destruct (C31_destination (exact_row ex_p) 52 13 _ _ 5000 B RE (rep_Fin _) (rep_Fin _) ltac:(lra) RD RB eq_refl) as ((a&o&Ra&Ro&E)&a'&Ra'&Ba); [lra|].
  rewrite <- (rep_inj _ _ _ Ra Ra') in Ba.
  assert (C52 := cos_60 52 ltac:(apply Rabs_le; lra)).
  (* the latitude is still below 60 degrees: the angle to the start is small *)
  assert (DOT := onward_dot (rad 52) (rad 13) (5000 / RE) (rad B)). rewrite E in DOT.
  assert (LA : Rabs a <= 60).
  { assert (EZ := f_equal cz E). unfold onward, unitv, northv, eastv in EZ. cbn [cx cy cz] in EZ.
    assert (ST : Rabs (sin (5000 / RE)) <= 1 / 1000) by (eapply Rle_trans; [apply sin_abs|]; unfold RE; apply Rabs_le; lra).
    pose proof (abs_le_inv _ _ ST) as ST'. pose proof (COS_bound (5000 / RE)). pose proof (COS_bound (rad B)). pose proof (SIN_bound (rad 52)).
    assert (S52 : 0 <= sin (rad 52) <= 84 / 100).
    { split; [apply sin_ge_0; unfold rad; lra|]. assert (K : sin (rad 52) <= sin (rad 53)) by (apply sin_incr_1; unfold rad; nra).
      assert (Q : 0 < cos (rad 53)) by (apply cos_gt_0; unfold rad; nra). pose proof (sc (rad 52)). pose proof C52.
      (* sin 52 < sqrt 3 / 2 - a little: sin 60 - sin 52 = 2 cos 56 sin 4 *)
      assert (F := form4 (rad 60) (rad 52)). replace ((rad 60 - rad 52) / 2) with (rad 4) in F by (unfold rad; field). replace ((rad 60 + rad 52) / 2) with (rad 56) in F by (unfold rad; field).
      assert (C56 := cos_60 56 ltac:(apply Rabs_le; lra)). assert (P3 : 3 <= PI) by (pose proof PI2_3_2; lra).
      assert (S4 : 5 / 6 * rad 4 <= sin (rad 4)) by (apply sin_lower; unfold rad; lra). assert (R4 : 1 / 15 <= rad 4) by (unfold rad; lra).
      replace (rad 60) with (PI / 3) in F by (unfold rad; field). rewrite sin_PI3 in F.
      assert (S3 : sqrt 3 <= 174 / 100) by (apply Rsqr_incr_0_var; [rewrite Rsqr_sqrt; unfold Rsqr; lra|lra]). nra. }
    assert (SA : Rabs (sin (rad a)) < sqrt 3 / 2).
    { rewrite <- EZ. assert (S3 : 173 / 100 <= sqrt 3) by (apply Rsqr_incr_0_var; [rewrite Rsqr_sqrt; unfold Rsqr; lra|apply sqrt_pos]).
      assert (Rabs (sin (5000 / RE) * (cos (rad B) * cos (rad 52) + sin (rad B) * 0)) <= 1 / 1000 * 1).
      { apply abs_prod; [exact ST|]. rewrite Rmult_0_r, Rplus_0_r. pose proof (abs_prod _ _ _ _ (cos_1 (rad B)) (cos_1 (rad 52))). lra. }
      assert (Rabs (cos (5000 / RE) * sin (rad 52)) <= 1 * (84 / 100)) by (apply abs_prod; [apply cos_1|apply Rabs_le; lra]).
      eapply Rle_lt_trans; [apply Rabs_triang|]. lra. }
    rewrite <- sin_PI3 in SA. assert (BR : - (PI / 2) <= rad a <= PI / 2) by (unfold rad; split; nra).
    apply Rabs_def2 in SA. destruct SA as (SA1&SA2). rewrite <- sin_neg in SA2. apply sin_increasing_0 in SA1; [|lra..]. apply sin_increasing_0 in SA2; [|lra..].
    unfold rad in *. apply Rabs_le. split; nra. }
  assert (L1 : lat (gpsFromSpace s (exact_row ex_p)) = lat (moveDistance (exact_row ex_p) (nsqrt (sx s * sx s + sy s * sy s)%num) (nrad2deg (natan2 (sx s) (sy s))))) by reflexivity.
  assert (L2 : lon (gpsFromSpace s (exact_row ex_p)) = lon (moveDistance (exact_row ex_p) (nsqrt (sx s * sx s + sy s * sy s)%num) (nrad2deg (natan2 (sx s) (sy s))))) by reflexivity.
  destruct (C97_space u53 gdouble ex_p 3000 4000 (Some 20) RE a o gdouble_accurate P eq_refl PR) as (q&t&Eq&HT&_&Hh).
  - left. lra.
  - fold (hyp 4000 3000). rewrite H5. unfold RE. lra.
  - cbn [option_map]. fold s. rewrite L1. exact Ra.
  - cbn [option_map]. fold s. rewrite L2. exact Ro.
  - apply clear_60; [cbn; apply Rabs_le; lra|exact LA].
  - exists q, t, a, o. split; [exact Eq|]. split; [exact HT|]. apply Hh. reflexivity.
Qed.
Example C97_pole_example : exists G p d b, accurate_gps (/ 2000000) G /\ on_earth p /\ f_move G p d b = None.
Proof. destruct (C97_pole_refuted (/ 2000000) ltac:(lra)) as (G&p&d&b&H1&H2&_&_&H3). exists G, p, d, b. auto. Qed.
