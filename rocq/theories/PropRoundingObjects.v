(** * C93: rounding errors of the heights and lengths of objects *)
Require Import Reals Lra Bool Psatz List ZArith.
From Verif Require Import Num Vec Trig Orientation OrientationFacts Projection ProjectionFacts CameraTransform CameraFacts PropCamera
  Rounding RoundingFacts PropRounding RoundingGps PropRoundingGps PropRoundingLens RoundingObjects DoubleFacts.
Open Scope R_scope.

(** ** Specification *)
(** Everything is at most [S] away from the camera and the camera at most [S] from the axes; the objects are not in the
    planes through the camera that are parallel to the axes' planes: [S] is at most [s] times the distance [m] to them. *)
Definition reach (o : opar R) (S s m : R) : Prop := 0 < m /\ S <= s * m /\ below3 S (opos o).
Definition in_reach (o : opar R) (S : R) (P : v3 R) : Prop := rdist P (opos o) <= S.
(** the pixel in which a camera without rounding shows a point *)
Definition shown_at (c : camera) (o : opar R) (P : v3 R) (Q : v2 R) : Prop :=
  showable Rectilinear (cam_coords o P) /\ rep2 (imageFromSpace c (fin3 P) true) Q.

(** ** Points on a plane *)
Lemma below_norm v S : rnorm v <= S -> below3 S v.
Proof.
  intros H. pose proof (rnorm_nonneg v) as P. assert (E := rnorm_sqr v). unfold rdot in E.
  assert (K : forall a, a * a <= rnorm v * rnorm v -> Rabs a <= S).
  { intros a L. eapply Rle_trans; [|exact H]. rewrite <- (Rabs_right (rnorm v)) by lra. apply Rsqr_le_abs_0. exact L. }
  assert (Q : forall a, 0 <= a * a) by (intros; apply Rle_0_sqr).
  pose proof (Q (cx v)). pose proof (Q (cy v)). pose proof (Q (cz v)). unfold below3. splits; apply K; lra.
Qed.
Lemma axis_below S v i : below3 S v -> Rabs (get_axis i v) <= S.
Proof. intros (?&?&?). destruct i; auto. Qed.
Lemma axis_near e p q i : near3 e p q -> near e (get_axis i p) (get_axis i q).
Proof. intros (?&?&?). destruct i; auto. Qed.

Lemma shown_line c r o P Q : plain_cam c Rectilinear r o -> shown_at c o P Q ->
  exists l, 0 < l /\ rv_sub P (opos o) = rv_scale l (rm_mul_v (rm_trans (camM o)) (rayR Rectilinear r Q)) /\
    cam_coords o P = rv_scale l (rayR Rectilinear r Q).
Proof.
  intros HC (HS&HQ). destruct (plain_good _ _ _ _ HC) as (HG&HK&HDi&_). pose proof HG as (_&_&HR).
  destruct (ifs_spec c r (camM o) (opos o) (fin3 P) P true HG (rep3_fin P)) as (x&Q'&Ex&Rx&_&_&(l&Hl&E)).
  { rewrite HK. exact HS. }
  rewrite Ex, HDi in HQ. assert (Q' = Q).
  { destruct Rx as (X1&X2), HQ as (Y1&Y2). pose proof (rep_inj _ _ _ X1 Y1). pose proof (rep_inj _ _ _ X2 Y2). destruct Q, Q'; cbn in *; congruence. }
  subst Q'. exists l. split; [exact Hl|]. unfold dirW in E. rewrite HK in E. split; [exact E|].
  unfold cam_coords. rewrite E, rm_mul_v_scale. f_equal. pose proof (dirW_back c r (camM o) (opos o) Q _ HR) as B. unfold dirW in B. rewrite HK in B. exact B.
Qed.
Lemma reach_coords o P S : in_reach o S P -> below3 S (rv_sub P (opos o)) /\ below3 S (cam_coords o P).
Proof.
  unfold in_reach, rdist. intros H. split; apply below_norm; auto.
  unfold cam_coords, rnorm in *. rewrite orthonormal_dot; auto. apply rotm_cols.
Qed.
Lemma div_le a b m : 0 < b -> a <= m * b -> a / b <= m.
Proof. intros B H. apply (Rmult_le_reg_r b); auto. unfold Rdiv. rewrite Rmult_assoc, Rinv_l by lra. lra. Qed.

Section Rounded.
Context (u : R) (G : gfloats) (HG : accurate_gps u G).
Notation A := (g_ops G).
Notation fl := (f_round A).
Let HA : accurate u A. Proof. apply HG. Qed.
Let U : 0 <= u <= / 1000000. Proof. exact (u_range u A HA). Qed.

(** The point on the plane where coordinate [i] is [v], when [v] differs by up to [e] from the point's coordinate *)
Lemma on_plane c r o mi P Q i v e S s k : plain_cam c Rectilinear r o -> one_turn o -> inverse_ok u A o mi -> shown_at c o P Q ->
  in_reach o S P -> below3 S (opos o) -> 0 < k <= Rabs (get_axis i P - get_axis i (opos o)) -> S <= s * k -> 3000000 * u * s <= 1 ->
  near e v (get_axis i P) -> e <= k / 2 ->
  exists p, f_spaceOn G mi r o Q i v = Some p /\ (forall j, near (1560000 * u * (S * s * s) + e * s) (get_axis j p) (get_axis j P)) /\
    near (10 * u * S + e) (get_axis i p) (get_axis i P).
Proof.
  intros HC HO HI HV HP HT (Hk&HH0) Hs Hu Nv He.
  destruct (plain_good _ _ _ _ HC) as ((_&HF&_)&_&_&_).
  destruct (shown_line c r o P Q HC HV) as (l&Hl&EP&EC). destruct (reach_coords o P S HP) as (BP&BC).
  set (D := rm_mul_v (rm_trans (camM o)) (rayR Rectilinear r Q)) in *.
  assert (ED : forall j, get_axis j P - get_axis j (opos o) = l * get_axis j D).
  { intros j. apply (f_equal (get_axis j)) in EP. destruct j; cbn [get_axis rv_sub rv_scale zip3v map3v cx cy cz] in EP; exact EP. }
  assert (BJ : forall j, Rabs (get_axis j P - get_axis j (opos o)) <= S).
  { intros j. pose proof (axis_below _ _ j BP) as B. destruct j; exact B. }
  assert (TJ : forall j, Rabs (get_axis j (opos o)) <= S) by (intros; apply axis_below; auto).
  set (t := opos o) in *. set (H0 := get_axis i P - get_axis i t) in *.
  assert (B0 : Rabs H0 <= S) by exact (BJ i).
  assert (PS : 0 < S) by lra. assert (Ps : 1 <= s) by nra.
  assert (uS : 3000000 * (u * S) <= k).
  { assert (u * S <= u * (s * k)) by (apply Rmult_le_compat_l; lra). assert (3000000 * u * s * k <= 1 * k) by (apply Rmult_le_compat_r; lra). lra. }
  assert (PuS : 0 <= u * S) by (apply Rmult_le_pos; lra).
  set (rho := S / l). assert (PR : 0 < rho) by (apply Rdiv_lt_0_compat; lra).
  assert (BR : below3 rho (rayR Rectilinear r Q)).
  { assert (E : rayR Rectilinear r Q = rv_scale (/ l) (cam_coords o P)) by (rewrite EC; apply v3_ext; cbn [rv_scale map3v cx cy cz]; field; lra).
    rewrite E. destruct BC as (B1&B2&B3). unfold below3, rv_scale, map3v. cbn [cx cy cz]. rewrite !Rabs_mult, (Rabs_right (/ l)) by (apply Rle_ge, Rlt_le, Rinv_0_lt_compat; lra).
    unfold rho, Rdiv. pose proof (Rinv_0_lt_compat l Hl). splits; rewrite Rmult_comm; apply Rmult_le_compat_r; lra. }
  assert (ND := direction_near u A HA o mi r Q rho HO HI HF BR). fold D in ND. set (D' := f_direction A mi r Q) in *.
  assert (EI := ED i). fold H0 in EI. assert (NI := axis_near _ _ _ i ND). set (di := get_axis i D) in *.
  assert (AD : Rabs di = Rabs H0 / l).
  { rewrite EI, Rabs_mult, (Rabs_right l) by lra. field. lra. }
  assert (Nd : di <> 0) by (intros Z; rewrite Z in EI; rewrite EI, Rmult_0_r, Rabs_R0 in HH0; lra).
  assert (RD : 304000 * u * rho < Rabs di).
  { rewrite AD. unfold rho, Rdiv. rewrite <- Rmult_assoc. apply Rmult_lt_compat_r; [apply Rinv_0_lt_compat; auto|]. lra. }
  assert (Pd : 0 < Rabs di) by (apply Rabs_pos_lt; auto).
  set (H := v - get_axis i t). assert (NH : near e H H0) by (unfold near, H, H0 in *; replace (v - get_axis i t - (get_axis i P - get_axis i t)) with (v - get_axis i P) by ring; exact Nv).
  assert (Pe : 0 <= e) by (eapply Rle_trans; [apply Rabs_pos|exact Nv]).
  destruct (same_sign _ _ _ NH ltac:(lra)) as (SP&SN).
  assert (HB : Rabs H <= 3 / 2 * S) by (pose proof (near_abs _ _ _ _ NH B0); lra).
  assert (HL : k / 2 <= Rabs H).
  { unfold near in NH. pose proof (Rabs_triang_inv H0 H). rewrite Rabs_minus_sym in NH. lra. }
  assert (QH : 0 < H / di).
  { assert (H0 = l * di) as E by exact EI. destruct (Rtotal_order di 0) as [L|[L|L]]; [|contradiction|].
    - assert (H0 < 0) by nra. specialize (SN H1). replace (H / di) with ((- H) / (- di)) by (field; auto). apply Rdiv_lt_0_compat; lra.
    - assert (0 < H0) by nra. specialize (SP H1). apply Rdiv_lt_0_compat; auto. }
  assert (HH : 3 * u * (Rabs H + Rabs (get_axis i t)) < Rabs H).
  { pose proof (TJ i). assert (u * (Rabs H + Rabs (get_axis i t)) <= u * (5 / 2 * S)) by (apply Rmult_le_compat_l; lra). lra. }
  destruct (factor_sign u A HA v (get_axis i t) di (get_axis i D') rho NI HH ltac:(lra)) as (Nd'&SG&_). specialize (SG QH).
  unfold f_spaceOn. fold D'. rewrite origin_fl with (u := u) by exact HA. fold t.
  assert (EF : forall j, get_axis j (map3v fl t) = fl (get_axis j t)) by (intros []; reflexivity).
  rewrite EF, Rltb_false by lra. eexists. split; [reflexivity|].
  assert (EZ : forall j f, get_axis j (zip3v (fun d o => fl (fl (d * f) + o)) D' (map3v fl t)) = fl (fl (get_axis j D' * f) + fl (get_axis j t))) by (intros []; reflexivity).
  split.
  - intros j. rewrite EZ. assert (NJ := axis_near _ _ _ j ND). set (dj := get_axis j D) in *.
    assert (PN := plane_near u A HA v (get_axis i t) (get_axis j t) dj di (get_axis j D') (get_axis i D') rho NJ NI ltac:(lra) Pd ltac:(lra)).
    fold H in PN. set (g := dj / di) in *.
    assert (GB : Rabs g <= s).
    { assert (Eg : g = (get_axis j P - get_axis j t) / H0) by (unfold g; rewrite EI, (ED j); fold dj; field; lra).
      rewrite Eg. unfold Rdiv. rewrite Rabs_mult, Rabs_inv. apply div_le; [lra|]. pose proof (BJ j). nra. }
    assert (RB : rho / Rabs di <= s).
    { rewrite AD. unfold rho. replace (S / l / (Rabs H0 / l)) with (S / Rabs H0) by (field; lra). apply div_le; [lra|nra]. }
    assert (RP : 0 <= rho / Rabs di) by (apply Rlt_le, Rdiv_lt_0_compat; lra).
    assert (EX : near (e * s) (H / di * dj + get_axis j t) (get_axis j P)).
    { unfold near. replace (H / di * dj + get_axis j t - get_axis j P) with ((H - H0) * g).
      - rewrite Rabs_mult. apply Rmult_le_compat; auto using Rabs_pos.
      - pose proof (ED j) as EJ. fold dj in EJ. replace (get_axis j t) with (get_axis j P - l * dj) by lra. unfold g. rewrite EI. field. auto. }
    eapply near_le; [eapply near_trans; [exact PN|exact EX]|]. apply Rplus_le_compat_r.
    replace (1560000 * u * (S * s * s)) with (u * (1560000 * (S * s * s))) by ring. apply Rmult_le_compat_l; [lra|].
    assert (XB : Rabs (H / di * dj + get_axis j t) <= 3 / 2 * S * s + S).
    { replace (H / di * dj) with (H * g) by (unfold g; field; auto). eapply Rle_trans; [apply Rabs_triang|]. pose proof (abs_prod _ _ _ _ HB GB). pose proof (TJ j). lra. }
    unfold plane_error. pose proof (TJ i) as Ti. pose proof (TJ j) as Tj. pose proof (Rabs_pos g) as Pg. pose proof (Rabs_pos (get_axis i t)). pose proof (Rabs_pos H).
    set (B := Rabs H + Rabs (get_axis i t)) in *. assert (BB : 0 <= B <= 5 / 2 * S) by (unfold B; lra).
    assert (B * (rho / Rabs di) <= 5 / 2 * S * s) by (apply Rmult_le_compat; lra).
    assert (PB : 0 <= B * (rho / Rabs di)) by (apply Rmult_le_pos; lra).
    assert (B * (rho / Rabs di) * (1 + Rabs g) <= 5 / 2 * S * s * (2 * s)) by (apply Rmult_le_compat; lra).
    assert (B * Rabs g <= 5 / 2 * S * s) by (apply Rmult_le_compat; lra).
    assert (S * 1 <= S * s) by (apply Rmult_le_compat_l; lra). assert (S * s * 1 <= S * s * s) by (apply Rmult_le_compat_l; lra). lra.
  - rewrite EZ. eapply near_le; [eapply near_trans; [apply (given_near u A HA); exact Nd'|exact Nv]|]. apply Rplus_le_compat_r. fold H.
    replace (10 * u * S) with (u * (10 * S)) by ring. apply Rmult_le_compat_l; [lra|].
    assert (Rabs v <= 5 / 2 * S).
    { replace v with (H + get_axis i t) by (unfold H; ring). eapply Rle_trans; [apply Rabs_triang|]. pose proof (TJ i). lra. }
    pose proof (TJ i). lra.
Qed.

(** ** Norms *)
Lemma norm_shift a b T : Rabs (cx a - cx b) + Rabs (cy a - cy b) + Rabs (cz a - cz b) <= T -> rnorm a <= rnorm b + T.
Proof.
  intros H. pose proof (Rabs_pos (cx a - cx b)) as P1. pose proof (Rabs_pos (cy a - cy b)) as P2. pose proof (Rabs_pos (cz a - cz b)) as P3.
  pose proof (rnorm_nonneg a) as Pa. pose proof (rnorm_nonneg b) as Pb. apply Rsqr_incr_0; [|auto|lra]. unfold Rsqr. rewrite rnorm_sqr.
  destruct (below_norm b _ (Rle_refl _)) as (B1&B2&B3). assert (E := rnorm_sqr b).
  set (d1 := cx a - cx b) in *. set (d2 := cy a - cy b) in *. set (d3 := cz a - cz b) in *. set (n := rnorm b) in *.
  assert (EA : rdot a a = n * n + 2 * (cx b * d1 + cy b * d2 + cz b * d3) + (d1 * d1 + d2 * d2 + d3 * d3)).
  { rewrite E. unfold rdot, d1, d2, d3. ring. }
  rewrite EA. assert (K : forall x d, Rabs x <= n -> x * d <= n * Rabs d).
  { intros x d L. eapply Rle_trans; [apply Rle_abs|]. rewrite Rabs_mult. apply Rmult_le_compat_r; auto using Rabs_pos. }
  pose proof (K _ d1 B1). pose proof (K _ d2 B2). pose proof (K _ d3 B3).
  assert (n * (Rabs d1 + Rabs d2 + Rabs d3) <= n * T) by (apply Rmult_le_compat_l; auto).
  assert (Q : forall d, d * d = Rabs d * Rabs d) by (intros d; rewrite <- Rabs_mult; symmetry; apply Rabs_right, Rle_ge, Rle_0_sqr).
  rewrite (Q d1), (Q d2), (Q d3).
  assert ((Rabs d1 + Rabs d2 + Rabs d3) * (Rabs d1 + Rabs d2 + Rabs d3) <= T * T) by (apply Rmult_le_compat; lra).
  assert (0 <= Rabs d1 * Rabs d2) by (apply Rmult_le_pos; auto). assert (0 <= Rabs d1 * Rabs d3) by (apply Rmult_le_pos; auto).
  assert (0 <= Rabs d2 * Rabs d3) by (apply Rmult_le_pos; auto). lra.
Qed.
Lemma sum_rel m x' x y' y : 0 <= x -> 0 <= y -> relerr (m * u) x' x -> relerr (m * u) y' y -> relerr (m * u) (x' + y') (x + y).
Proof.
  unfold relerr. intros Px Py H1 H2. rewrite (Rabs_right x) in H1 by lra. rewrite (Rabs_right y) in H2 by lra. rewrite (Rabs_right (x + y)) by lra.
  replace (x' + y' - (x + y)) with ((x' - x) + (y' - y)) by ring. eapply Rle_trans; [apply Rabs_triang|]. lra.
Qed.
Lemma fl_rel_err m x' x : 0 <= m <= 100000 -> relerr (m * u) x' x -> relerr ((m + 2) * u) (fl x') x.
Proof.
  intros Hm H. assert (H0 : relerr (1 * u) (fl x') x') by (unfold relerr; rewrite Rmult_1_l; apply HA).
  eapply (rel_le u U); [apply (rel_trans u U 1 m _ x'); auto; lra|lra].
Qed.
Lemma norm_rounded p : relerr (9 * u) (f_norm3 G p) (rnorm p).
Proof.
  assert (Q : forall d, 0 <= d * d) by (intros; apply Rle_0_sqr).
  pose proof (Q (cx p)) as Q1. pose proof (Q (cy p)) as Q2. pose proof (Q (cz p)) as Q3.
  assert (F : forall x, relerr (2 * u) (fl x) x).
  { intros x. replace (2 * u) with ((0 + 2) * u) by ring. apply fl_rel_err; [lra|apply rel_refl]. }
  assert (K1 : relerr (4 * u) (fl (fl (cx p * cx p) + fl (cy p * cy p))) (cx p * cx p + cy p * cy p)).
  { replace (4 * u) with ((2 + 2) * u) by ring. apply fl_rel_err; [lra|]. apply sum_rel; auto. }
  assert (K2 : relerr (6 * u) (fl (fl (fl (cx p * cx p) + fl (cy p * cy p)) + fl (cz p * cz p))) (rdot p p)).
  { replace (6 * u) with ((4 + 2) * u) by ring. apply fl_rel_err; [lra|]. apply sum_rel; auto; [lra|]. apply (rel_le u U 2); [apply F|lra]. }
  assert (P0 : 0 <= rdot p p) by apply rdot_self_nonneg.
  assert (P1 := rel_nonneg u 6 _ _ P0 ltac:(lra) K2).
  unfold f_norm3. set (x := fl (fl (fl (cx p * cx p) + fl (cy p * cy p)) + fl (cz p * cz p))) in *.
  assert (K3 := rel_sqrt u U 6 _ _ P0 P1 ltac:(lra) K2). unfold rnorm.
  eapply (rel_le u U); [apply (rel_trans u U 1 6 _ (sqrt x)); [lra|lra|lra| |exact K3]|lra].
  destruct HG as (_&_&HS&_). unfold relerr. rewrite Rmult_1_l, (Rabs_right (sqrt x)) by (apply Rle_ge, sqrt_pos). apply HS, P1.
Qed.
Lemma rounded_sum a b a' b' e f m n : near e a' a -> near f b' b -> Rabs a <= m -> Rabs b <= n -> near (e + f + u * (m + n + e + f)) (fl (a' + b')) (a + b).
Proof.
  intros N1 N2 M1 M2. pose proof (near_add _ _ _ _ _ _ N1 N2) as N3. rewrite Rplus_comm. eapply near_trans; [|exact N3].
  eapply near_le; [apply (fl_near u A HA)|]. apply Rmult_le_compat_l; [lra|].
  assert (Rabs (a + b) <= m + n) by (eapply Rle_trans; [apply Rabs_triang|]; lra). pose proof (near_abs _ _ _ _ N3 H). lra.
Qed.
End Rounded.

(** ** Heights *)
(** An object of height [h] (below zero for one that hangs) is measured up to the stated error, which grows with the
    third power of the ratio of the distance to the object's offsets from the camera. *)
Theorem C93_height : forall u G c r o mi x y z h Qf Qh S s m, accurate_gps u G -> plain_cam c Rectilinear r o -> one_turn o ->
  inverse_ok u (g_ops G) o mi -> reach o S s m -> in_reach o S (V3 x y z) -> in_reach o S (V3 x y (z + h)) ->
  shown_at c o (V3 x y z) Qf -> shown_at c o (V3 x y (z + h)) Qh ->
  m <= Rabs (x - pos_x_m o) -> m <= Rabs (y - pos_y_m o) -> m <= Rabs (z - elevation_m o) -> 3200000 * u * (s * s * s) <= 1 ->
  exists h', f_getObjectHeight G mi r o Qf Qh z = Some h' /\ near (3200000 * u * (S * (s * s * s))) h' h.
Proof.
  intros u G c r o mi x y z h Qf Qh S s m HG HC HO HI (Pm&Hs&HT) RF RH VF VH Mx My Mz Hu.
  assert (HA : accurate u (g_ops G)) by apply HG. pose proof (u_range u _ HA) as U.
  destruct (reach_coords o _ S RF) as ((BX&BY&BZ)&_). destruct (reach_coords o _ S RH) as ((_&_&BH)&_). destruct HT as (T1&T2&T3).
  cbn [rv_sub zip3v cx cy cz opos] in BX, BY, BZ, BH, T1, T2, T3.
  assert (PS : 0 < S) by lra. assert (Ps : 1 <= s) by nra.
  assert (s2 : s <= s * s) by nra. assert (s3 : s * s <= s * s * s) by nra.
  assert (Hus : 3000000 * u * s <= 1) by (assert (u * s <= u * (s * s * s)) by (apply Rmult_le_compat_l; lra); lra).
  set (E := 1560000 * u * (S * s * s)).
  assert (HE : E <= m / 2).
  { unfold E. assert (u * (s * s) * S <= u * (s * s) * (s * m)) by (apply Rmult_le_compat_l; [apply Rmult_le_pos; nra|auto]).
    assert (3200000 * u * (s * s * s) * m <= 1 * m) by (apply Rmult_le_compat_r; lra). lra. }
  destruct (on_plane u G HG c r o mi (V3 x y z) Qf AZ z 0 S s m HC HO HI VF RF (conj T1 (conj T2 T3)) (conj Pm Mz) Hs Hus (near_refl z) ltac:(lra)) as (p&Ep&Np&Nz).
  assert (Nx : near E (cx p) x) by (eapply near_le; [exact (Np AX)|fold E; lra]).
  assert (Ny : near E (cy p) y) by (eapply near_le; [exact (Np AY)|fold E; lra]). cbn [get_axis cz] in Nz.
  destruct (on_plane u G HG c r o mi (V3 x y (z + h)) Qh AY (cy p) E S s m HC HO HI VH RH (conj T1 (conj T2 T3)) (conj Pm My) Hs Hus Ny HE) as (h1&E1&N1&_).
  destruct (on_plane u G HG c r o mi (V3 x y (z + h)) Qh AX (cx p) E S s m HC HO HI VH RH (conj T1 (conj T2 T3)) (conj Pm Mx) Hs Hus Nx HE) as (h2&E2&N2&_).
  specialize (N1 AZ). specialize (N2 AZ). cbn [get_axis cz] in N1, N2. fold E in N1, N2.
  unfold f_getObjectHeight. rewrite Ep, E1, E2. eexists. split; [reflexivity|].
  set (W := S * (s * s * s)) in *. assert (SW : S * s * s <= W) by (unfold W; nra). assert (SS : S <= W) by (unfold W; nra).
  assert (uW : 3200000 * (u * W) <= S) by (unfold W; assert (3200000 * u * (s * s * s) * S <= 1 * S) by (apply Rmult_le_compat_r; lra); lra).
  assert (PW : 0 <= u * W) by (apply Rmult_le_pos; lra).
  assert (EW : E + E * s <= 3120000 * (u * W)).
  { assert (E * s = 1560000 * (u * W)) by (unfold E, W; ring). assert (E <= 1560000 * (u * W)) by (unfold E; rewrite Rmult_assoc; apply Rmult_le_compat_l; [lra|]; apply Rmult_le_compat_l; lra). lra. }
  set (F := 3120000 * (u * W)) in *.
  assert (M1 : near F (cz h1) (z + h)) by (eapply near_le; [exact N1|exact EW]).
  assert (M2 : near F (cz h2) (z + h)) by (eapply near_le; [exact N2|exact EW]).
  assert (HB : Rabs (z + h) <= 2 * S).
  { replace (z + h) with ((z + h - elevation_m o) + elevation_m o) by ring. eapply Rle_trans; [apply Rabs_triang|]. lra. }
  assert (ZB : Rabs z <= 2 * S).
  { replace z with ((z - elevation_m o) + elevation_m o) by ring. eapply Rle_trans; [apply Rabs_triang|]. lra. }
  assert (M3 := rounded_sum u G HG _ _ _ _ _ _ _ _ M1 M2 HB HB). set (a := f_round (g_ops G) (cz h1 + cz h2)) in *.
  assert (uS : u * S <= u * W) by (apply Rmult_le_compat_l; lra). assert (PuS : 0 <= u * S) by (apply Rmult_le_pos; lra).
  assert (FS : F <= S) by (unfold F; lra). assert (uF : u * F <= u * S) by (apply Rmult_le_compat_l; lra).
  assert (M4 : near (F + 3 * (u * S)) (a / 2) (z + h)).
  { unfold near in *. replace (a / 2 - (z + h)) with ((a - (z + h + (z + h))) / 2) by field. unfold Rdiv. rewrite Rabs_mult, (Rabs_right (/ 2)) by lra. lra. }
  assert (M5 : near (F + 9 * (u * S)) (f_round (g_ops G) (a / 2)) (z + h)).
  { pose proof (near_abs _ _ _ _ M4 HB) as B. assert (u * Rabs (a / 2) <= u * (4 * S)) by (apply Rmult_le_compat_l; lra).
    eapply near_le; [eapply near_trans; [apply (fl_near u _ HA)|exact M4]|]. lra. }
  assert (M6 := rounded_sum u G HG _ _ _ _ _ _ _ _ M5 (near_opp _ _ _ Nz) HB ltac:(rewrite Rabs_Ropp; exact ZB)).
  replace (z + h + - z) with h in M6 by ring. eapply near_le; [exact M6|].
  assert (u * (u * S) <= / 1000000 * (u * S)) by (apply Rmult_le_compat_r; lra). unfold F in *. lra.
Qed.
Print Assumptions C93_height.

(** ** Lengths *)
Theorem C93_length : forall u G c r o mi P1 P2 z Q1 Q2 S s m, accurate_gps u G -> plain_cam c Rectilinear r o -> one_turn o ->
  inverse_ok u (g_ops G) o mi -> reach o S s m -> in_reach o S P1 -> in_reach o S P2 -> cz P1 = z -> cz P2 = z ->
  shown_at c o P1 Q1 -> shown_at c o P2 Q2 -> m <= Rabs (z - elevation_m o) -> 3000000 * u * s <= 1 ->
  exists L, f_getObjectLength G mi r o Q1 Q2 z = Some L /\ near (6300000 * u * (S * s * s)) L (rdist P1 P2).
Proof.
  intros u G c r o mi P1 P2 z Q1 Q2 S s m HG HC HO HI (Pm&Hs&HT) R1 R2 Z1 Z2 V1 V2 Mz Hu.
  assert (HA : accurate u (g_ops G)) by apply HG. pose proof (u_range u _ HA) as U.
  destruct (reach_coords o _ S R1) as ((BX1&BY1&BZ1)&_). destruct (reach_coords o _ S R2) as ((BX2&BY2&BZ2)&_).
  cbn [rv_sub zip3v cx cy cz opos] in BX1, BY1, BZ1, BX2, BY2, BZ2. assert (HT' := HT). destruct HT' as (T1&T2&T3). cbn [opos cx cy cz] in T1, T2, T3.
  rewrite Z1 in BZ1. rewrite Z2 in BZ2.
  assert (PS : 0 < S) by lra. assert (Ps : 1 <= s) by nra.
  set (E := 1560000 * u * (S * s * s)).
  assert (M1' : m <= Rabs (get_axis AZ P1 - get_axis AZ (opos o))) by (cbn [get_axis opos cz]; rewrite Z1; exact Mz).
  assert (M2' : m <= Rabs (get_axis AZ P2 - get_axis AZ (opos o))) by (cbn [get_axis opos cz]; rewrite Z2; exact Mz).
  destruct (on_plane u G HG c r o mi P1 Q1 AZ z 0 S s m HC HO HI V1 R1 HT (conj Pm M1') Hs Hu) as (p&Ep&Np&Nz); [cbn [get_axis]; rewrite Z1; apply near_refl|lra|].
  destruct (on_plane u G HG c r o mi P2 Q2 AZ z 0 S s m HC HO HI V2 R2 HT (conj Pm M2') Hs Hu) as (q&Eq&Nq&Nw); [cbn [get_axis]; rewrite Z2; apply near_refl|lra|].
  assert (SW : S <= S * s * s) by nra. set (W := S * s * s) in *. assert (PuS : 0 <= u * S) by (apply Rmult_le_pos; lra).
  assert (uW : u * S <= u * W) by (apply Rmult_le_compat_l; lra).
  assert (uWW : u * (u * W) <= / 1000000 * (u * W)) by (apply Rmult_le_compat_r; lra).
  assert (NX1 : near E (cx p) (cx P1)) by (eapply near_le; [exact (Np AX)|fold E; lra]). assert (NY1 : near E (cy p) (cy P1)) by (eapply near_le; [exact (Np AY)|fold E; lra]).
  assert (NX2 : near E (cx q) (cx P2)) by (eapply near_le; [exact (Nq AX)|fold E; lra]). assert (NY2 : near E (cy q) (cy P2)) by (eapply near_le; [exact (Nq AY)|fold E; lra]).
  cbn [get_axis] in Nz, Nw. rewrite Z1 in Nz. rewrite Z2 in Nw.
  unfold f_getObjectLength. rewrite Ep, Eq. eexists. split; [reflexivity|].
  set (d := zip3v (fun a b => f_round (g_ops G) (a - b)) p q).
  assert (DB : forall a b t, Rabs (a - t) <= S -> Rabs (b - t) <= S -> Rabs t <= S -> Rabs a <= 2 * S /\ Rabs (- b) <= 2 * S).
  { intros a b t L1 L2 L3. rewrite Rabs_Ropp. split; [replace a with (a - t + t) by ring|replace b with (b - t + t) by ring]; (eapply Rle_trans; [apply Rabs_triang|]; lra). }
  assert (KX : near (2 * E + u * (4 * S + 2 * E)) (cx d) (cx P1 - cx P2)).
  { destruct (DB _ _ _ BX1 BX2 T1) as (L1&L2). eapply near_le; [exact (rounded_sum u G HG _ _ _ _ _ _ _ _ NX1 (near_opp _ _ _ NX2) L1 L2)|]. apply Req_le. ring. }
  assert (KY : near (2 * E + u * (4 * S + 2 * E)) (cy d) (cy P1 - cy P2)).
  { destruct (DB _ _ _ BY1 BY2 T2) as (L1&L2). eapply near_le; [exact (rounded_sum u G HG _ _ _ _ _ _ _ _ NY1 (near_opp _ _ _ NY2) L1 L2)|]. apply Req_le. ring. }
  assert (KZ : near (30 * (u * W)) (cz d) (cz P1 - cz P2)).
  { rewrite Z1, Z2. destruct (DB _ _ _ BZ1 BZ2 T3) as (L1&L2). eapply near_le; [exact (rounded_sum u G HG _ _ _ _ _ _ _ _ Nz (near_opp _ _ _ Nw) L1 L2)|].
    assert (u * (u * S) <= / 1000000 * (u * S)) by (apply Rmult_le_compat_r; lra). lra. }
  assert (EE : E = 1560000 * (u * W)) by (unfold E; ring). rewrite EE in KX, KY.
  set (T := 6240100 * (u * W)).
  assert (TX : Rabs (cx d - (cx P1 - cx P2)) + Rabs (cy d - (cy P1 - cy P2)) + Rabs (cz d - (cz P1 - cz P2)) <= T) by (unfold T, near in *; lra).
  assert (A1 : rnorm d <= rdist P1 P2 + T) by (apply norm_shift; exact TX).
  assert (A2 : rdist P1 P2 <= rnorm d + T).
  { apply norm_shift. cbn [rv_sub zip3v cx cy cz]. rewrite !(Rabs_minus_sym (_ - _)). exact TX. }
  assert (RL : rdist P1 P2 <= S + 3 * S).
  { unfold rdist at 1. replace S with (S + 0) at 1 by ring. eapply Rle_trans; [apply (norm_shift _ (rv_sub P1 (opos o)) (3 * S))|].
    - cbn [rv_sub zip3v cx cy cz opos]. 
      replace (cx P1 - cx P2 - (cx P1 - pos_x_m o)) with (- (cx P2 - pos_x_m o)) by ring. replace (cy P1 - cy P2 - (cy P1 - pos_y_m o)) with (- (cy P2 - pos_y_m o)) by ring.
      replace (cz P1 - cz P2 - (cz P1 - elevation_m o)) with (- (cz P2 - elevation_m o)) by ring. rewrite !Rabs_Ropp, Z2. lra.
    - unfold in_reach, rdist in R1. lra. }
  pose proof (norm_rounded u G HG d) as NR. unfold relerr in NR. pose proof (rnorm_nonneg d) as PN. rewrite (Rabs_right (rnorm d)) in NR by lra.
  assert (u * rnorm d <= u * (4 * S + T)) by (apply Rmult_le_compat_l; lra).
  unfold near. replace (f_norm3 G d - rdist P1 P2) with ((f_norm3 G d - rnorm d) + (rnorm d - rdist P1 P2)) by ring. eapply Rle_trans; [apply Rabs_triang|].
  assert (Rabs (rnorm d - rdist P1 P2) <= T) by (apply Rabs_le; lra). unfold T in *. lra.
Qed.
Print Assumptions C93_length.

(** In double precision: objects up to a kilometre away whose offsets from the camera are at least a tenth of the distance
    are measured to a millimetre, and so are lengths on the ground up to twenty times the camera's height away. *)
Theorem C93_double : forall G c r o mi S, accurate_gps u53 G -> plain_cam c Rectilinear r o -> one_turn o ->
  inverse_ok u53 (g_ops G) o mi -> 0 < S <= 1000 -> below3 S (opos o) ->
  (forall x y z h Qf Qh, in_reach o S (V3 x y z) -> in_reach o S (V3 x y (z + h)) ->
     shown_at c o (V3 x y z) Qf -> shown_at c o (V3 x y (z + h)) Qh ->
     S <= 10 * Rabs (x - pos_x_m o) -> S <= 10 * Rabs (y - pos_y_m o) -> S <= 10 * Rabs (z - elevation_m o) ->
     exists h', f_getObjectHeight G mi r o Qf Qh z = Some h' /\ near (/ 1000) h' h) /\
  (forall P1 P2 z Q1 Q2, in_reach o S P1 -> in_reach o S P2 -> cz P1 = z -> cz P2 = z ->
     shown_at c o P1 Q1 -> shown_at c o P2 Q2 -> S <= 20 * Rabs (z - elevation_m o) ->
     exists L, f_getObjectLength G mi r o Q1 Q2 z = Some L /\ near (/ 1000) L (rdist P1 P2)).
Proof.
  intros G c r o mi S HG HC HO HI HS HT. split.
  - intros x y z h Qf Qh RF RH VF VH MX MY MZ.
    destruct (C93_height u53 G c r o mi x y z h Qf Qh S 10 (S / 10) HG HC HO HI) as (h'&E&N); auto; try lra.
    + unfold reach. splits; auto; lra.
    + unfold u53; lra.
    + exists h'. split; [exact E|]. eapply near_le; [exact N|]. unfold u53. lra.
  - intros P1 P2 z Q1 Q2 R1 R2 Z1 Z2 V1 V2 MZ.
    destruct (C93_length u53 G c r o mi P1 P2 z Q1 Q2 S 20 (S / 20) HG HC HO HI) as (L&E&N); auto; try lra.
    + unfold reach. splits; auto; lra.
    + unfold u53; lra.
    + exists L. split; [exact E|]. eapply near_le; [exact N|]. unfold u53. lra.
Qed.
Print Assumptions C93_double.

(** ** Straight ahead *)
(** The height's error is not bounded by the distance alone: the camera is at (1024, 0, 10) and looks along y; the foot of
    an object of 2 m height is 64 m away and 2^-44 m to the right.  Its x is rounded to the camera's, the estimate of the
    head from x is then the camera's own height, and the mean of 10 and 2 is given. *)
Definition ah_r : proj R := Proj 1024 1024 512 512 1024 1024.
Definition ah_o : opar R := OPar 10 90 0 0 1024 0.
Lemma ah_matrix : camM ah_o = V3 (V3 1 0 0) (V3 0 0 1) (V3 0 (-1) 0).
Proof. exact ex2_matrix. Qed.
Lemma ah_cam : exists c, plain_cam c Rectilinear ah_r ah_o.
Proof.
  assert (H : rep_opar (opar_fin ah_o) ah_o) by (repeat split). destruct (init_rigid _ _ H) as (m&E&_).
  exists (plain_camera Rectilinear (proj_fin ah_r) m), (proj_fin ah_r), m. splits; eauto; [repeat split|split; simpl; lra].
Qed.
Lemma ah_one_turn : one_turn ah_o.
Proof. exact ex2_one_turn. Qed.
(** what a camera that looks along y shows *)
Lemma level_shown c r o P Q : plain_cam c Rectilinear r o -> camM o = V3 (V3 1 0 0) (V3 0 0 1) (V3 0 (-1) 0) -> tinyR <= cy P - pos_y_m o ->
  c1 Q = center_x r + f_x r * ((cx P - pos_x_m o) / (cy P - pos_y_m o)) -> c2 Q = center_y r - f_y r * ((cz P - elevation_m o) / (cy P - pos_y_m o)) -> shown_at c o P Q.
Proof.
  intros HC HM HT E1 E2. destruct (plain_good _ _ _ _ HC) as (HG&HK&HDi&_). pose proof HG as (_&(F1&F2)&_). pose proof tinyR_pos as TP. set (d := cy P - pos_y_m o) in *.
  assert (EC : cam_coords o P = V3 (cx P - pos_x_m o) (cz P - elevation_m o) (- d)).
  { unfold cam_coords. rewrite HM. apply v3_ext; cbn [rm_mul_v rdot rv_sub zip3v opos cx cy cz]; unfold rdot, d; cbn [rv_sub zip3v opos cx cy cz]; ring. }
  split.
  - rewrite EC. unfold showable. cbn [cz]. rewrite Rabs_Ropp, Rabs_right by lra. lra.
  - destruct (ifs_of_ray c r (camM o) (opos o) (fin3 P) d Q true HG) as (x&Ex&Rx).
    + replace (rv_add (opos o) (rv_scale d (dirW c r (camM o) Q))) with P; [apply rep3_fin|].
      unfold dirW. rewrite HK, HM. cbn [rayR]. unfold alphaR, betaR. rewrite E1, E2.
      apply v3_ext; cbn [rm_mul_v rm_trans rv_add rv_scale zip3v map3v opos cx cy cz]; unfold rdot; cbn [cx cy cz]; unfold d; field; repeat split; auto; fold d; lra.
    + lra.
    + rewrite HK. cbn [rayR cz]. replace (d * -1) with (- d) by ring. rewrite Rabs_Ropp, Rabs_right by lra. lra.
    + rewrite HK. exact I.
    + rewrite Ex, HDi. exact Rx.
Qed.
Lemma dya x z n y : (Z.abs z < 2 ^ 53)%Z -> x = IZR z / IZR (2 ^ Z.of_nat n) -> x = y -> round53 x = y.
Proof. intros B E <-. apply (round53_dyadic x z n B E). Qed.
Ltac dya x z n y := rewrite (dya x z n y) by first [reflexivity|let b := eval vm_compute in (2 ^ Z.of_nat n)%Z in change (2 ^ Z.of_nat n)%Z with b; lra|lra].
Lemma rz x : x = 0 -> round53 x = 0.
Proof. intros ->. apply (round53_dyadic 0 0 0); [reflexivity|]. cbn. lra. Qed.
Lemma ah_direction a b : round53 a = a -> round53 b = b -> f_mul_v binary64 (rm_trans (camM ah_o)) (V3 a b (-1)) = V3 a 1 b.
Proof.
  intros Ha Hb. rewrite ah_matrix. unfold f_mul_v, rm_trans, binary64. cbn [f_dot cx cy cz].
  rewrite !Rmult_1_r. rewrite !(rz (_ * 0)) by ring. rewrite Ha, Hb, !Rplus_0_r, !Rplus_0_l, Ha, Hb, Ha, Hb.
  dya (-1 * -1) 1%Z 0%nat 1. rewrite (rz 0), Rplus_0_l by reflexivity. dya 1 1%Z 0%nat 1. reflexivity.
Qed.
Lemma ah_origin : f_origin binary64 (rm_trans (camM ah_o)) ah_o = V3 1024 0 10.
Proof.
  rewrite origin_fl with (u := u53) by apply binary64_accurate. unfold map3v, binary64. cbn [opos ah_o pos_x_m pos_y_m elevation_m f_round cx cy cz].
  dya 1024 1024%Z 0%nat 1024. dya 10 10%Z 0%nat 10. rewrite rz by reflexivity. reflexivity.
Qed.
Theorem C93_ahead_refuted : exists c r o mi P h Qf Qh v, accurate_gps u53 gdouble /\ plain_cam c Rectilinear r o /\ one_turn o /\ inverse_ok u53 binary64 o mi /\
  shown_at c o P Qf /\ shown_at c o (rv_add P (V3 0 0 h)) Qh /\ cx P <> pos_x_m o /\ in_reach o 2000 P /\ in_reach o 2000 (rv_add P (V3 0 0 h)) /\ below3 2000 (opos o) /\
  32 <= Rabs (cy P - pos_y_m o) /\ 10 <= Rabs (cz P - elevation_m o) /\
  getObjectHeight c (imageFromSpace c (fin3 P) true) (imageFromSpace c (fin3 (rv_add P (V3 0 0 h))) true) (Fin (cz P)) = Some v /\ rep v h /\ h = 2 /\ f_getObjectHeight gdouble mi r o Qf Qh (cz P) = Some 6.
Proof.
  destruct ah_cam as (c&HC).
  set (P := V3 (1024 + / 17592186044416) 64 0). set (Qf := V2 (512 + / 1099511627776) 672). set (Qh := V2 (512 + / 1099511627776) 640).
  assert (VF : shown_at c ah_o P Qf) by (apply (level_shown c ah_r); [exact HC|exact ah_matrix|..]; cbn; unfold tinyR; lra).
  assert (EH : rv_add P (V3 0 0 2) = V3 (1024 + / 17592186044416) 64 (0 + 2)) by (apply v3_ext; cbn; lra).
  assert (VH : shown_at c ah_o (V3 (1024 + / 17592186044416) 64 (0 + 2)) Qh) by (apply (level_shown c ah_r); [exact HC|exact ah_matrix|..]; cbn; unfold tinyR; lra).
  assert (IR : forall z, 0 <= z <= 2 -> in_reach ah_o 2000 (V3 (1024 + / 17592186044416) 64 z)).
  { intros z Hz. unfold in_reach, rdist. eapply Rle_trans; [apply (norm_shift _ (V3 0 0 0) 2000)|].
    - cbn [rv_sub zip3v cx cy cz opos ah_o pos_x_m pos_y_m elevation_m]. rewrite (Rabs_right (1024 + / 17592186044416 - 1024 - 0)), (Rabs_right (64 - 0 - 0)), (Rabs_left (z - 10 - 0)) by lra. lra.
    - unfold rnorm, rdot. cbn [cx cy cz]. replace (0 * 0 + 0 * 0 + 0 * 0) with 0 by ring. rewrite sqrt_0. lra. }
  destruct VF as (SF&RF). destruct VH as (SH&RH).
  destruct (C15_object_height c Rectilinear ah_r ah_o (1024 + / 17592186044416) 64 0 2 (fin3 P) (fin3 (V3 (1024 + / 17592186044416) 64 (0 + 2))) (Fin 0) true HC (rep3_fin _) (rep3_fin _) (rep_Fin _) SF SH) as (v&Ev&Rv); [cbn; lra..|].
  exists c, ah_r, ah_o, (rm_trans (camM ah_o)), P, 2, Qf, Qh, v. rewrite EH.
  split; [exact gdouble_accurate|]. split; [exact HC|]. split; [exact ah_one_turn|]. split; [apply inverse_transpose; [exact binary64_accurate|exact ah_one_turn]|].
  split; [split; assumption|]. split; [split; assumption|]. split; [cbn; lra|]. split; [apply IR; lra|]. split; [apply IR; lra|].
  split; [unfold below3; cbn; rewrite (Rabs_right 1024), Rabs_R0, (Rabs_right 10) by lra; lra|].
  split; [cbn; rewrite Rabs_right by lra; lra|]. split; [cbn; rewrite Rabs_left by lra; lra|]. split; [exact Ev|]. split; [exact Rv|]. split; [reflexivity|].
  assert (DF : f_direction binary64 (rm_trans (camM ah_o)) ah_r Qf = V3 (/ 1125899906842624) 1 (- (5 / 32))).
  { unfold f_direction, f_space, f_rect_ray, rv_neg, map3v, Qf, ah_r. cbn [f_x f_y center_x center_y c1 c2 cx cy cz binary64 f_round].
    dya (512 + / 1099511627776 - 512) 1%Z 40%nat (/ 1099511627776). dya (- / 1099511627776 / 1024) (-1)%Z 50%nat (- / 1125899906842624).
    dya (672 - 512) 160%Z 0%nat 160. dya (160 / 1024) 5%Z 5%nat (5 / 32). rewrite Ropp_involutive. apply ah_direction.
    - dya (/ 1125899906842624) 1%Z 50%nat (/ 1125899906842624). reflexivity.
    - dya (- (5 / 32)) (-5)%Z 5%nat (- (5 / 32)). reflexivity. }
  assert (DH : f_direction binary64 (rm_trans (camM ah_o)) ah_r Qh = V3 (/ 1125899906842624) 1 (- (1 / 8))).
  { unfold f_direction, f_space, f_rect_ray, rv_neg, map3v, Qh, ah_r. cbn [f_x f_y center_x center_y c1 c2 cx cy cz binary64 f_round].
    dya (512 + / 1099511627776 - 512) 1%Z 40%nat (/ 1099511627776). dya (- / 1099511627776 / 1024) (-1)%Z 50%nat (- / 1125899906842624).
    dya (640 - 512) 128%Z 0%nat 128. dya (128 / 1024) 1%Z 3%nat (1 / 8). rewrite Ropp_involutive. apply ah_direction.
    - dya (/ 1125899906842624) 1%Z 50%nat (/ 1125899906842624). reflexivity.
    - dya (- (1 / 8)) (-1)%Z 3%nat (- (1 / 8)). reflexivity. }
  unfold f_getObjectHeight, f_spaceOn. change (g_ops gdouble) with binary64. rewrite DF, DH, ah_origin. cbn [P get_axis zip3v cx cy cz binary64 f_round].
  assert (R64 : round53 64 = 64) by (dya 64 64%Z 0%nat 64; reflexivity).
  dya (0 - 10) (-10)%Z 0%nat (-10). replace (-10 / - (5 / 32)) with 64 by field. rewrite R64. rewrite (Rltb_false 64) by lra. cbn [zip3v cx cy cz].
  dya (/ 1125899906842624 * 64) 1%Z 44%nat (/ 17592186044416). dya (1 * 64) 64%Z 0%nat 64. dya (- (5 / 32) * 64) (-10)%Z 0%nat (-10).
  rewrite (rz (-10 + 10)) by lra. rewrite Rplus_0_r, R64.
  assert (RX : round53 (/ 17592186044416 + 1024) = 1024).
  { rewrite (round53_to _ 42 4503599627370496); change (2 ^ Z.of_nat 42)%Z with 4398046511104%Z; [field| |lra]. rewrite Rabs_right by lra. lra. }
  rewrite RX, !Rminus_0_r, R64. dya (64 / 1) 64%Z 0%nat 64. rewrite (Rltb_false 64) by lra. rewrite (rz (1024 - 1024)) by lra. rewrite (rz (0 / _)) by (unfold Rdiv; apply Rmult_0_l).
  rewrite (Rltb_false 0) by lra. cbn [zip3v cx cy cz]. dya (- (1 / 8) * 64) (-8)%Z 0%nat (-8). dya (-8 + 10) 2%Z 0%nat 2. rewrite (rz (- (1 / 8) * 0)) by ring.
  dya (0 + 10) 10%Z 0%nat 10. dya (2 + 10) 12%Z 0%nat 12. dya (12 / 2) 6%Z 0%nat 6. rewrite ?Rminus_0_r. dya 6 6%Z 0%nat 6. reflexivity.
Qed.
Print Assumptions C93_ahead_refuted.

(** ** Examples *)
(** An object of 2 m that stands at (30, 50, 0) *)
Lemma ex2_shown c P Q : plain_cam c Rectilinear ex_r ex_or2 -> tinyR <= cy P -> c1 Q = 2000 + 3500 * (cx P / cy P) -> c2 Q = 1500 - 3500 * ((cz P - 10) / cy P) -> shown_at c ex_or2 P Q.
Proof.
  intros HC HT E1 E2. apply (level_shown c ex_r); cbn [pos_x_m pos_y_m elevation_m ex_or2 ex_r f_x f_y center_x center_y]; rewrite ?Rminus_0_r; auto. exact ex2_matrix.
Qed.
Lemma ex2_reach P : Rabs (cx P) <= 30 -> Rabs (cy P) <= 50 -> Rabs (cz P - 10) <= 10 -> in_reach ex_or2 90 P.
Proof.
  intros H1 H2 H3. unfold in_reach, rdist. eapply Rle_trans; [apply (norm_shift _ (V3 0 0 0) 90)|].
  - cbn [rv_sub zip3v cx cy cz opos ex_or2 pos_x_m pos_y_m elevation_m]. rewrite !Rminus_0_r. lra.
  - unfold rnorm, rdot. cbn [cx cy cz]. replace (0 * 0 + 0 * 0 + 0 * 0) with 0 by ring. rewrite sqrt_0. lra.
Qed.
Lemma ex2_inverse : inverse_ok u53 (g_ops gdouble) ex_or2 (rm_trans (camM ex_or2)).
Proof. apply (inverse_transpose u53 binary64); [exact binary64_accurate|exact ex2_one_turn]. Qed.
Lemma ex2_below : below3 90 (opos ex_or2).
Proof. unfold below3; cbn; rewrite Rabs_R0, (Rabs_right 10) by lra; lra. Qed.
Example C93_height_example : exists c h', plain_cam c Rectilinear ex_r ex_or2 /\
  shown_at c ex_or2 (V3 30 50 0) (V2 4100 2200) /\ shown_at c ex_or2 (V3 30 50 (0 + 2)) (V2 4100 2060) /\
  f_getObjectHeight gdouble (rm_trans (camM ex_or2)) ex_r ex_or2 (V2 4100 2200) (V2 4100 2060) 0 = Some h' /\ near (/ 1000) h' 2.
Proof.
  destruct (ex_cam2 Rectilinear) as (c&HC). exists c.
  assert (VF : shown_at c ex_or2 (V3 30 50 0) (V2 4100 2200)) by (apply ex2_shown; auto; cbn; unfold tinyR; lra).
  assert (VH : shown_at c ex_or2 (V3 30 50 (0 + 2)) (V2 4100 2060)) by (apply ex2_shown; auto; cbn; unfold tinyR; lra).
  destruct (C93_double gdouble c ex_r ex_or2 _ 90 gdouble_accurate HC ex2_one_turn ex2_inverse ltac:(lra) ex2_below) as (K&_).
  destruct (K 30 50 0 2 (V2 4100 2200) (V2 4100 2060)) as (h'&E&B); auto.
  1,2: apply ex2_reach; cbn; apply Rabs_le; lra.
  1,2: cbn; rewrite Rabs_right by lra; lra.
  - cbn; rewrite Rabs_left by lra; lra.
  - exists h'. splits; auto.
Qed.
Example C93_length_example : exists c L, plain_cam c Rectilinear ex_r ex_or2 /\
  shown_at c ex_or2 (V3 4 50 0) (V2 2280 2200) /\ shown_at c ex_or2 (V3 0 35 0) (V2 2000 2500) /\ f_getObjectLength gdouble (rm_trans (camM ex_or2)) ex_r ex_or2 (V2 2280 2200) (V2 2000 2500) 0 = Some L /\
  near (/ 1000) L (sqrt 241).
Proof.
  destruct (ex_cam2 Rectilinear) as (c&HC). exists c.
  assert (V1 : shown_at c ex_or2 (V3 4 50 0) (V2 2280 2200)) by (apply ex2_shown; auto; cbn; unfold tinyR; lra).
  assert (V2' : shown_at c ex_or2 (V3 0 35 0) (V2 2000 2500)) by (apply ex2_shown; auto; cbn; unfold tinyR; lra).
  destruct (C93_double gdouble c ex_r ex_or2 _ 90 gdouble_accurate HC ex2_one_turn ex2_inverse ltac:(lra) ex2_below) as (_&K).
  destruct (K (V3 4 50 0) (V3 0 35 0) 0 (V2 2280 2200) (V2 2000 2500)) as (L&E&B); auto.
  1,2: apply ex2_reach; cbn; apply Rabs_le; lra.
  - cbn; rewrite Rabs_left by lra; lra.
  - exists L. splits; auto. replace (sqrt 241) with (rdist (V3 4 50 0) (V3 0 35 0)); [exact B|].
    unfold rdist, rnorm, rdot. cbn. f_equal. ring.
Qed.
