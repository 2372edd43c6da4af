(** * C82: every position and attitude of a camera has angles, and which angles mean the same *)
Require Import Reals Lra Psatz List Bool ZArith.
From Verif Require Import Num Vec Trig Orientation OrientationFacts PropOrientation PropGps.
Open Scope R_scope.

(** ** Specification *)
(** A motion of space: it keeps the distances of points and does not turn left hands into right hands. *)
Definition motion (f : v3 R -> v3 R) : Prop :=
  (forall A B, rdist (f A) (f B) = rdist A B) /\ 0 < triple (rv_sub (f (V3 1 0 0)) (f rv0)) (rv_sub (f (V3 0 1 0)) (f rv0)) (rv_sub (f (V3 0 0 1)) (f rv0)).
(** Two angles in degrees that differ by full turns *)
Definition turns (a b : R) : Prop := exists k : Z, a = b + 360 * IZR k.
(** Two orientations give every point the same camera coordinates. *)
Definition same_view (m m' : omat) : Prop := forall p P, rep3 p P -> exists Q, rep3 (cameraFromSpace m p) Q /\ rep3 (cameraFromSpace m' p) Q.

(** ** Rotations *)
Lemma dot_comm a b : rdot a b = rdot b a.
Proof. unfold rdot. ring. Qed.
Lemma dot_self0 a : rdot a a = 0 -> a = rv0.
Proof.
  intros H. assert (SQ : forall x y z : R, x * x + y * y + z * z = 0 -> x = 0). { intros x y z E. assert (x * x = 0) by nra. nra. }
  unfold rdot in H. apply v3_ext; cbn [rv0 cx cy cz]; [apply (SQ _ (cy a) (cz a))|apply (SQ _ (cx a) (cz a))|apply (SQ _ (cx a) (cy a))]; lra.
Qed.
Lemma cross_unit a b c : rdot a a = 1 -> rdot b b = 1 -> rdot c c = 1 -> rdot b c = 0 -> rdot a (rcross b c) = 1 -> a = rcross b c.
Proof.
  intros HA HB HC BC D. assert (L : rdot (rcross b c) (rcross b c) = rdot b b * rdot c c - rdot b c * rdot b c) by (unfold rdot, rcross; cbn [cx cy cz]; ring). rewrite HB, HC, BC in L.
  assert (Z0 : rdot (rv_sub a (rcross b c)) (rv_sub a (rcross b c)) = 0).
  { transitivity (rdot a a - 2 * rdot a (rcross b c) + rdot (rcross b c) (rcross b c)); [unfold rdot; cbn; ring|lra]. }
  apply dot_self0 in Z0. pose proof (f_equal cx Z0) as X. pose proof (f_equal cy Z0) as Y. pose proof (f_equal cz Z0) as W. cbn in X, Y, W. apply v3_ext; cbn; lra.
Qed.
Lemma rotation_rows M : orthonormal M -> rdet M = 1 -> cx M = rcross (cy M) (cz M) /\ cy M = rcross (cz M) (cx M) /\ cz M = rcross (cx M) (cy M).
Proof.
  intros (H1&H2&H3&H4&H5&H6) D. unfold rdet in D.
  assert (C1 : rdot (cy M) (rcross (cz M) (cx M)) = 1) by (rewrite <- D; unfold rdot, rcross; cbn [cx cy cz]; ring).
  assert (C2 : rdot (cz M) (rcross (cx M) (cy M)) = 1) by (rewrite <- D; unfold rdot, rcross; cbn [cx cy cz]; ring).
  split; [apply cross_unit; auto|]. split; apply cross_unit; auto. rewrite dot_comm; exact H5.
Qed.
(** the coordinates of [v] in the basis of the rows *)
Lemma expand M v : orthonormal M -> rdet M = 1 -> v = rv_add (rv_scale (rdot v (cx M)) (cx M)) (rv_add (rv_scale (rdot v (cy M)) (cy M)) (rv_scale (rdot v (cz M)) (cz M))).
Proof.
  intros HO HD. destruct (rotation_rows M HO HD) as (E1&E2&E3). unfold rdet in HD. set (a := cx M) in *. set (b := cy M) in *. set (c := cz M) in *. clearbody a b c.
  assert (G : rv_scale (rdot a (rcross b c)) v = rv_add (rv_scale (rdot v (rcross b c)) a) (rv_add (rv_scale (rdot v (rcross c a)) b) (rv_scale (rdot v (rcross a b)) c))) by (apply v3_ext; unfold rdot, rcross; cbn; ring).
  rewrite HD, <- E1, <- E2, <- E3 in G. rewrite <- G. apply v3_ext; cbn; ring.
Qed.
Lemma polar x y : x * x + y * y = 1 -> exists th, - PI < th <= PI /\ cos th = x /\ sin th = y.
Proof.
  intros E. assert (BX : -1 <= x <= 1) by nra. pose proof PI_RGT_0 as HP. pose proof (acos_bound x) as BA.
  assert (S : sin (acos x) = Rabs y) by (rewrite sin_acos by auto; rewrite <- sqrt_Rsqr_abs; f_equal; unfold Rsqr; lra). pose proof (cos_acos x BX) as C.
  destruct (Rle_lt_dec 0 y) as [Y|Y].
  - exists (acos x). rewrite S, Rabs_right by lra. split; [lra|auto].
  - exists (- acos x). rewrite cos_neg, sin_neg, S, Rabs_left by lra. split; [|split; [auto|ring]]. split; [|lra].
    assert (acos x <> PI); [|lra]. intros X. rewrite X, cos_PI in C. nra.
Qed.
Lemma rad_deg x : rad (x * (180 / PI)) = x.
Proof. unfold rad. field. apply PI_neq0. Qed.
Lemma deg_bound x a : x <= a * PI -> x * (180 / PI) <= a * 180.
Proof. intros H. pose proof PI_RGT_0 as HP. apply Rmult_le_reg_r with PI; [exact HP|]. replace (x * (180 / PI) * PI) with (x * 180) by (field; lra). lra. Qed.
Lemma deg_bound' x a : a * PI < x -> a * 180 < x * (180 / PI).
Proof. intros H. pose proof PI_RGT_0 as HP. apply Rmult_lt_reg_r with PI; [exact HP|]. replace (x * (180 / PI) * PI) with (x * 180) by (field; lra). lra. Qed.
Lemma sq_le1 x y z : x * x + y * y + z * z = 1 -> -1 <= z <= 1.
Proof. intros. nra. Qed.
Lemma two_zero x y : x * x + y * y = 0 -> x = 0 /\ y = 0.
Proof. intros. split; nra. Qed.
(** Every rotation is a [rotm]. *)
Lemma euler M : orthonormal M -> rdet M = 1 -> exists t r h, 0 <= t <= PI /\ - PI < r <= PI /\ - PI < h <= PI /\ M = rotm t r h.
Proof.
  intros HO HD. destruct (rotation_rows M HO HD) as (E1&E2&E3). pose proof (expand M (V3 0 0 1) HO HD) as EX. apply (f_equal cz) in EX. destruct HO as (_&_&H3&_).
  destruct M as [[a1 a2 a3] [b1 b2 b3] [d1 d2 d3]]. cbv [rdot rcross rv_add rv_scale zip3v map3v cx cy cz] in *.
  injection E1 as A1 A2 A3. injection E2 as B1 B2 B3. injection E3 as D1 D2 D3. pose proof PI_RGT_0 as HP.
  assert (BD : -1 <= d3 <= 1) by (apply (sq_le1 d1 d2); lra). set (t := acos d3). pose proof (acos_bound d3) as BT. fold t in BT. assert (CT : cos t = d3) by (apply cos_acos, BD).
  assert (ST : 0 <= sin t) by (apply sin_ge_0; lra). pose proof (OrientationFacts.sc t) as SS. rewrite CT in SS. set (s := sin t) in *.
  destruct (Req_dec s 0) as [S0|S0].
  - rewrite S0 in SS. destruct (two_zero d1 d2) as (X1&X2); [lra|]. destruct (two_zero a3 b3) as (X3&X4); [lra|].
    subst d1 d2 a3 b3. assert (N1 : a1 * a1 + b1 * b1 = 1).
    { assert (d3 * d3 = 1) by nra. assert (d3 = a1 * b2 - a2 * b1) by lra. assert (a1 = b2 * d3) by lra. assert (b1 = - (d3 * a2)) by lra. nra. }
    destruct (polar a1 (- b1)) as (r&BR&CR&SR); [nra|]. exists t, r, 0. split; [lra|]. split; [lra|]. split; [lra|].
    unfold rotm. rewrite CR, SR, CT, sin_0, cos_0. fold s. rewrite S0. f_equal; f_equal; nra.
  - assert (PS : 0 < s) by lra.
    destruct (polar (- d2 / s) (- d1 / s)) as (h&BH&CH&SH).
    { replace (- d2 / s * (- d2 / s) + - d1 / s * (- d1 / s)) with ((d1 * d1 + d2 * d2) / (s * s)) by (field; lra). replace (d1 * d1 + d2 * d2) with (s * s) by lra. field. lra. }
    destruct (polar (b3 / s) (a3 / s)) as (r&BR&CR&SR).
    { replace (b3 / s * (b3 / s) + a3 / s * (a3 / s)) with ((a3 * a3 + b3 * b3) / (s * s)) by (field; lra). replace (a3 * a3 + b3 * b3) with (s * s) by lra. field. lra. }
    assert (Q1 : d1 = - (s * sin h)) by (rewrite SH; field; lra). assert (Q2 : d2 = - (s * cos h)) by (rewrite CH; field; lra).
    assert (Q3 : a3 = sin r * s) by (rewrite SR; field; lra). assert (Q4 : b3 = cos r * s) by (rewrite CR; field; lra).
    assert (NS : s * s <> 0) by (apply Rmult_integral_contrapositive; auto). exists t, r, h. split; [lra|]. split; [lra|]. split; [lra|]. unfold rotm. rewrite CT. fold s.
    assert (K1 : s * s * a1 = - (d1 * a3 * d3) - b3 * d2) by (rewrite SS; replace ((1 - d3 * d3) * a1) with (a1 - d3 * (d3 * a1)) by ring; rewrite A1 at 1; rewrite B2 at 1; ring).
    assert (K2 : s * s * a2 = b3 * d1 - d2 * a3 * d3) by (rewrite SS; replace ((1 - d3 * d3) * a2) with (a2 - d3 * (d3 * a2)) by ring; rewrite A2 at 1; rewrite B1 at 1; ring).
    assert (K3 : s * s * b1 = d2 * a3 - d3 * b3 * d1) by (rewrite SS; replace ((1 - d3 * d3) * b1) with (b1 - d3 * (d3 * b1)) by ring; rewrite B1 at 1; rewrite A2 at 1; ring).
    assert (K4 : s * s * b2 = - (d1 * a3) - d3 * b3 * d2) by (rewrite SS; replace ((1 - d3 * d3) * b2) with (b2 - d3 * (d3 * b2)) by ring; rewrite B2 at 1; rewrite A1 at 1; ring).
    rewrite Q1, Q2, Q3, Q4 in K1, K2, K3, K4.
    assert (R1 : a1 = cos r * cos h + sin r * d3 * sin h) by (apply Rmult_eq_reg_l with (s * s); [rewrite K1; ring|exact NS]).
    assert (R2 : a2 = - (cos r * sin h) + sin r * d3 * cos h) by (apply Rmult_eq_reg_l with (s * s); [rewrite K2; ring|exact NS]).
    assert (R3 : b1 = - (sin r * cos h) + cos r * d3 * sin h) by (apply Rmult_eq_reg_l with (s * s); [rewrite K3; ring|exact NS]).
    assert (R4 : b2 = sin r * sin h + cos r * d3 * cos h) by (apply Rmult_eq_reg_l with (s * s); [rewrite K4; ring|exact NS]).
    clear - Q1 Q2 Q3 Q4 R1 R2 R3 R4. congruence.
Qed.
Lemma trans_orthonormal N : orthonormal N -> rdet N = 1 -> orthonormal (rm_trans N).
Proof.
  intros HO HD. pose proof (expand N (V3 1 0 0) HO HD) as E1. pose proof (expand N (V3 0 1 0) HO HD) as E2. pose proof (expand N (V3 0 0 1) HO HD) as E3. clear HO HD.
  destruct N as [[a1 a2 a3] [b1 b2 b3] [d1 d2 d3]]. cbv [rdot rv_add rv_scale zip3v map3v cx cy cz] in *. injection E1 as ? ? ?. injection E2 as ? ? ?. injection E3 as ? ? ?.
  unfold orthonormal, rdot. cbn [rm_trans cx cy cz]. repeat split; lra.
Qed.
Lemma rdist_sqr A B C D : rdist A B = rdist C D -> rdot (rv_sub A B) (rv_sub A B) = rdot (rv_sub C D) (rv_sub C D).
Proof.
  unfold rdist, rnorm. intros H. assert (G : forall v, 0 <= rdot v v) by (intros; unfold rdot; nra). rewrite <- (sqrt_sqrt _ (G (rv_sub A B))), <- (sqrt_sqrt _ (G (rv_sub C D))), H. reflexivity.
Qed.
(** A motion is a rotation and a shift. *)
Lemma motion_matrix f : motion f -> exists M O, orthonormal M /\ rdet M = 1 /\ forall P, f P = rm_mul_v M (rv_sub P O).
Proof.
  intros (HD&HT). set (g v := rv_sub (f v) (f rv0)).
  assert (N1 : forall v, rdot (g v) (g v) = rdot v v) by (intros v; unfold g; rewrite (rdist_sqr _ _ _ _ (HD v rv0)); unfold rdot; cbn; ring).
  assert (N2 : forall v w, rdot (rv_sub (g v) (g w)) (rv_sub (g v) (g w)) = rdot (rv_sub v w) (rv_sub v w)).
  { intros v w. rewrite <- (rdist_sqr _ _ _ _ (HD v w)). unfold g, rdot. cbn. ring. }
  assert (ND : forall v w, rdot (g v) (g w) = rdot v w).
  { intros v w. assert (I : forall a b, 2 * rdot a b = rdot a a + rdot b b - rdot (rv_sub a b) (rv_sub a b)) by (intros; unfold rdot; cbn; ring).
    pose proof (I (g v) (g w)) as X. pose proof (I v w) as Y. rewrite N1, N1, N2 in X. lra. }
  set (N := V3 (g (V3 1 0 0)) (g (V3 0 1 0)) (g (V3 0 0 1))).
  assert (ON : orthonormal N) by (unfold orthonormal, N; cbn [cx cy cz]; rewrite !ND; unfold rdot; cbn [cx cy cz]; repeat split; ring).
  assert (DN : rdet N = 1).
  { assert (GR : rdet N * rdet N = 1).
    { destruct ON as (H1&H2&H3&H4&H5&H6). unfold rdet. revert H1 H2 H3 H4 H5 H6. generalize (cx N) (cy N) (cz N).
      intros u v w H1 H2 H3 H4 H5 H6.
      transitivity (rdot u u * (rdot v v * rdot w w - rdot v w * rdot v w) - rdot u v * (rdot u v * rdot w w - rdot v w * rdot u w) + rdot u w * (rdot u v * rdot v w - rdot v v * rdot u w)); [unfold rdot, rcross; cbn [cx cy cz]; ring|].
      rewrite H1, H2, H3, H4, H5, H6. ring. }
    change (0 < rdet N) in HT. nra. }
  assert (OT : orthonormal (rm_trans N)) by (apply trans_orthonormal; auto).
  exists (rm_trans N), (rv_neg (rm_mul_v N (f rv0))). split; [exact OT|]. split; [rewrite <- DN; unfold rdet, rdot, rcross; cbn [rm_trans cx cy cz]; ring|].
  intros P. assert (EP : g P = rm_mul_v (rm_trans N) P).
  { rewrite (expand N (g P) ON DN). unfold N at 1 2 3 4 5 6. cbn [cx cy cz]. rewrite !ND. unfold rm_mul_v, rm_trans, N. apply v3_ext; unfold rdot; cbn [rv_add rv_scale zip3v map3v cx cy cz]; ring. }
  transitivity (rv_add (rm_mul_v (rm_trans N) P) (f rv0)); [rewrite <- EP; unfold g; apply v3_ext; cbn; ring|].
  rewrite <- (trans_mul N (f rv0) OT) at 1. set (X := rm_mul_v N (f rv0)). unfold rm_mul_v, rdot. apply v3_ext; cbn; ring.
Qed.
(** Every motion is what some camera does: three angles and a position reach every attitude at every place. *)
Theorem C82_every_motion f : motion f -> exists o m, 0 <= tilt_deg o <= 180 /\ -180 < roll_deg o <= 180 /\ -180 < heading_deg o <= 180 /\
  init_matrix (opar_fin o) = Some m /\ f (opos o) = rv0 /\ forall p P, rep3 p P -> rep3 (cameraFromSpace m p) (f P).
Proof.
  intros HF. destruct (motion_matrix f HF) as (M&O&HO&HD&EF). destruct (euler M HO HD) as (t&r&h&BT&BR&BH&EM).
  set (o := OPar (cz O) (t * (180 / PI)) (r * (180 / PI)) (h * (180 / PI)) (cx O) (cy O)). assert (EO : opos o = O) by (destruct O; reflexivity).
  destruct (init_rigid (opar_fin o) o) as (m&Em&Rm); [repeat split|]. unfold o in Rm at 1 2 3. cbn [tilt_deg roll_deg heading_deg] in Rm. rewrite !rad_deg, <- EM, EO in Rm.
  assert (U : forall x, - PI < x <= PI -> -180 < x * (180 / PI) <= 180).
  { intros x (X1&X2). pose proof (deg_bound x 1 ltac:(lra)). pose proof (deg_bound' x (-1) ltac:(lra)). lra. }
  exists o, m. split; [|split; [exact (U r BR)|split; [exact (U h BH)|split; [exact Em|split]]]].
  - cbn [o tilt_deg]. pose proof (deg_bound t 1 ltac:(lra)). pose proof PI_RGT_0 as HP. split; [|lra]. apply Rmult_le_pos; [lra|]. apply Rlt_le, Rdiv_lt_0_compat; lra.
  - rewrite EF, EO. unfold rm_mul_v, rdot. apply v3_ext; cbn; ring.
  - intros p P Hp. rewrite EF. apply (rigid_camera m M O p P Rm Hp).
Qed.
Print Assumptions C82_every_motion.
(** The same for yaw, pitch and roll. *)
Theorem C82_every_motion_ypr f : motion f -> exists y m, -90 <= pitch_deg y <= 90 /\ -180 <= y_roll_deg y < 180 /\ -180 < yaw_deg y <= 180 /\
  init_matrix_ypr (ypar_fin y) = Some m /\ f (ypos y) = rv0 /\ forall p P, rep3 p P -> rep3 (cameraFromSpace m p) (f P).
Proof.
  intros HF. destruct (C82_every_motion f HF) as (o&m&BT&BR&BH&Em&F0&HM).
  set (y := YPar (elevation_m o) (heading_deg o) (- roll_deg o) (tilt_deg o - 90) (pos_x_m o) (pos_y_m o)).
  destruct (init_ypr_rigid (ypar_fin y) y) as (m'&Em'&Rm'); [repeat split|]. exists y, m'. cbn [y pitch_deg y_roll_deg yaw_deg]. split; [lra|]. split; [lra|]. split; [lra|]. split; [exact Em'|]. split; [exact F0|].
  intros p P Hp. destruct (init_rigid (opar_fin o) o) as (m2&E2&R2); [repeat split|]. assert (m2 = m) by congruence. subst m2.
  pose proof (rigid_camera _ _ _ _ _ R2 Hp) as K. pose proof (rep3_inj _ _ _ K (HM p P Hp)) as EQ. rewrite <- EQ.
  pose proof (rigid_camera _ _ _ _ _ Rm' Hp) as K'. cbn [y pitch_deg y_roll_deg yaw_deg] in K'. replace (90 + (tilt_deg o - 90)) with (tilt_deg o) in K' by ring. rewrite Ropp_involutive in K'. exact K'.
Qed.
Print Assumptions C82_every_motion_ypr.

(** ** Angles that mean the same *)
Lemma turns_trig a b : turns a b <-> cos (rad a) = cos (rad b) /\ sin (rad a) = sin (rad b).
Proof.
  split; [|intros (C&S); apply same_deg; auto]. intros (k&->). replace (rad (b + 360 * IZR k)) with (rad b + 2 * IZR k * PI) by (unfold rad; field). split; [apply cos_period_Z|apply sin_period_Z].
Qed.
Lemma rad_half a : cos (rad (a + 180)) = - cos (rad a) /\ sin (rad (a + 180)) = - sin (rad a).
Proof. replace (rad (a + 180)) with (rad a + PI) by (unfold rad; field). rewrite neg_cos, neg_sin. split; reflexivity. Qed.
Lemma rad_opp a : rad (- a) = - rad a. Proof. unfold rad; ring. Qed.
Lemma rad_add a b : rad (a + b) = rad a + rad b. Proof. unfold rad; ring. Qed.
Lemma rad_sub a b : rad (a - b) = rad a - rad b. Proof. unfold rad; ring. Qed.
Lemma rad_180 : cos (rad 180) = -1 /\ sin (rad 180) = 0.
Proof. replace (rad 180) with PI by (unfold rad; field). split; [apply cos_PI|apply sin_PI]. Qed.
Lemma rad_0 : cos (rad 0) = 1 /\ sin (rad 0) = 0.
Proof. replace (rad 0) with 0 by (unfold rad; ring). split; [apply cos_0|apply sin_0]. Qed.
Definition same_attitude (o o' : opar R) : Prop :=
  (turns (tilt_deg o) (tilt_deg o') /\ turns (roll_deg o) (roll_deg o') /\ turns (heading_deg o) (heading_deg o')) \/
  (turns (tilt_deg o) (- tilt_deg o') /\ turns (roll_deg o) (roll_deg o' + 180) /\ turns (heading_deg o) (heading_deg o' + 180)) \/
  (turns (tilt_deg o) 0 /\ turns (tilt_deg o') 0 /\ turns (roll_deg o - heading_deg o) (roll_deg o' - heading_deg o')) \/
  (turns (tilt_deg o) 180 /\ turns (tilt_deg o') 180 /\ turns (roll_deg o + heading_deg o) (roll_deg o' + heading_deg o')).
Definition attitude (o : opar R) : m3 R := rotm (rad (tilt_deg o)) (rad (roll_deg o)) (rad (heading_deg o)).
Lemma attitude_same o o' : attitude o = attitude o' <-> same_attitude o o'.
Proof.
  unfold attitude, same_attitude. rewrite !turns_trig. destruct (rad_half (roll_deg o')) as (->&->). destruct (rad_half (heading_deg o')) as (->&->). destruct rad_180 as (->&->). destruct rad_0 as (->&->).
  rewrite rad_opp, cos_neg, sin_neg, !rad_add, !rad_sub, !cos_plus, !sin_plus, !cos_minus, !sin_minus.
  set (t := rad (tilt_deg o)). set (r := rad (roll_deg o)). set (h := rad (heading_deg o)). set (t' := rad (tilt_deg o')). set (r' := rad (roll_deg o')). set (h' := rad (heading_deg o')).
  pose proof (OrientationFacts.sc t) as ST. pose proof (OrientationFacts.sc t') as ST'. split.
  - unfold rotm. intros E. injection E as A1 A2 A3 B1 B2 B3 D1 D2 D3. rewrite D3 in *.
    destruct (Req_dec (sin t) 0) as [Z0|NZ].
    + assert (Z1 : sin t' = 0) by nra. assert (CC : cos t' = 1 \/ cos t' = -1) by (destruct (Req_dec (cos t') 1); [left; auto|right; nra]).
      destruct CC as [CC|CC]; rewrite CC in *.
      * right; right; left. rewrite Z0, Z1. split; [split; reflexivity|]. split; [split; reflexivity|]. split; lra.
      * right; right; right. rewrite Z0, Z1. split; [split; reflexivity|]. split; [split; reflexivity|]. split; lra.
    + assert (SS : sin t = sin t' \/ sin t = - sin t') by (assert ((sin t - sin t') * (sin t + sin t') = 0) as X by nra; apply Rmult_integral in X; destruct X; [left|right]; lra).
      assert (CA : forall x y, sin t * x = sin t * y -> x = y) by (intros x y X; apply Rmult_eq_reg_l with (sin t); auto).
      destruct SS as [SS|SS].
      * left. rewrite <- SS in *. split; [auto|]. split; split; apply CA; lra.
      * right; left. assert (SS' : sin t' = - sin t) by lra. rewrite SS' in *. split; [split; lra|]. split; split; apply CA; lra.
  - intros [((E1&E2)&(E3&E4)&(E5&E6))|[((E1&E2)&(E3&E4)&(E5&E6))|[((E1&E2)&(E3&E4)&(E5&E6))|((E1&E2)&(E3&E4)&(E5&E6))]]]; unfold rotm.
    + rewrite E1, E2, E3, E4, E5, E6. reflexivity.
    + rewrite E1, E2, E3, E4, E5, E6. apply v3_ext; cbn [cx cy cz]; apply v3_ext; cbn [cx cy cz]; ring.
    + rewrite E1, E2, E3, E4. apply v3_ext; cbn [cx cy cz]; apply v3_ext; cbn [cx cy cz]; lra.
    + rewrite E1, E2, E3, E4. apply v3_ext; cbn [cx cy cz]; apply v3_ext; cbn [cx cy cz]; lra.
Qed.
(** Two sets of parameters describe the same camera exactly if the positions are equal and the angles are the same up to full
    turns, or the tilt is negated with roll and heading turned by 180 degrees, or both look straight down (up) and the
    difference (the sum) of roll and heading is the same. *)
Theorem C82_same_camera o o' m m' : init_matrix (opar_fin o) = Some m -> init_matrix (opar_fin o') = Some m' ->
  (same_view m m' <-> opos o = opos o' /\ same_attitude o o').
Proof.
  intros E E'. destruct (init_rigid (opar_fin o) o) as (m1&E1&R1); [repeat split|]. assert (m1 = m) by congruence. subst m1. destruct (init_rigid (opar_fin o') o') as (m2&E2&R2); [repeat split|]. assert (m2 = m') by congruence. subst m2.
  fold (attitude o) in R1. fold (attitude o') in R2. rewrite <- attitude_same. split.
  - intros SV. assert (EV : forall P, rm_mul_v (attitude o) (rv_sub P (opos o)) = rm_mul_v (attitude o') (rv_sub P (opos o'))).
    { intros P. destruct (SV (fin3 P) P (rep3_fin P)) as (Q&K1&K2). rewrite (rep3_inj _ _ _ (rigid_camera _ _ _ _ _ R1 (rep3_fin P)) K1), (rep3_inj _ _ _ (rigid_camera _ _ _ _ _ R2 (rep3_fin P)) K2). reflexivity. }
    assert (EO : opos o = opos o').
    { pose proof (EV (opos o)) as X. apply (f_equal (rm_mul_v (rm_trans (attitude o')))) in X. rewrite trans_mul in X by apply rotm_cols.
      replace (rv_sub (opos o) (opos o)) with rv0 in X by (apply v3_ext; cbn; ring). assert (Z0 : rv_sub (opos o) (opos o') = rv0) by (rewrite <- X; unfold rm_mul_v, rdot; apply v3_ext; cbn; ring).
      pose proof (f_equal cx Z0) as X1. pose proof (f_equal cy Z0) as X2. pose proof (f_equal cz Z0) as X3. cbn in X1, X2, X3. apply v3_ext; cbn; lra. }
    split; [exact EO|]. rewrite <- EO in EV.
    assert (EV' : forall V, rm_mul_v (attitude o) V = rm_mul_v (attitude o') V) by (intros V; specialize (EV (rv_add V (opos o))); replace (rv_sub (rv_add V (opos o)) (opos o)) with V in EV by (apply v3_ext; cbn; ring); exact EV).
    pose proof (EV' (V3 1 0 0)) as X. pose proof (EV' (V3 0 1 0)) as Y. pose proof (EV' (V3 0 0 1)) as Z0. clear - X Y Z0. revert X Y Z0. generalize (attitude o) (attitude o').
    intros [[a1 a2 a3] [b1 b2 b3] [d1 d2 d3]] [[p1 p2 p3] [q1 q2 q3] [s1 s2 s3]]. cbv [rm_mul_v rdot cx cy cz]. intros X Y Z0. injection X as ? ? ?. injection Y as ? ? ?. injection Z0 as ? ? ?. f_equal; f_equal; lra.
  - intros (EO&EA) p P Hp. exists (rm_mul_v (attitude o) (rv_sub P (opos o))). split; [apply (rigid_camera _ _ _ _ _ R1 Hp)|]. rewrite EO, EA. apply (rigid_camera _ _ _ _ _ R2 Hp).
Qed.
Print Assumptions C82_same_camera.
(** Within the documented range of the tilt, away from straight down and up, the angles are unique. *)
Theorem C82_unique o o' m m' : init_matrix (opar_fin o) = Some m -> init_matrix (opar_fin o') = Some m' -> 0 < tilt_deg o < 180 -> 0 <= tilt_deg o' <= 180 -> same_view m m' ->
  opos o = opos o' /\ tilt_deg o = tilt_deg o' /\ turns (roll_deg o) (roll_deg o') /\ turns (heading_deg o) (heading_deg o').
Proof.
  intros E E' BT BT' SV. apply (C82_same_camera o o' m m' E E') in SV. destruct SV as (EO&SA). split; [exact EO|].
  assert (K0 : forall k : Z, -1 < IZR k < 1 -> k = 0%Z) by (intros k (X1&X2); apply lt_IZR in X1, X2; lia).
  destruct SA as [((k&T)&R1&H1)|[((k&T)&_&_)|[((k&T)&_)|((k&T)&_)]]].
  - assert (k = 0%Z) by (apply K0; lra). subst k. split; [lra|auto].
  - exfalso. assert (0 < IZR k < 1) as (X1&X2) by lra. apply lt_IZR in X1, X2. lia.
  - exfalso. assert (0 < IZR k < 1) as (X1&X2) by lra. apply lt_IZR in X1, X2. lia.
  - exfalso. assert (-1 < IZR k < 0) as (X1&X2) by lra. apply lt_IZR in X1, X2. lia.
Qed.
Print Assumptions C82_unique.

(** ** Examples *)
(** a quarter turn about the vertical and a shift *)
Example C82_every_motion_example : motion (fun P => V3 (1 - cy P) (cx P) (cz P - 2)) /\ ~ motion (fun P => V3 (- cx P) (cy P) (cz P)).
Proof.
  split.
  - split; [intros A B; unfold rdist, rnorm, rdot; f_equal; cbn; ring|]. unfold triple, rdot, rcross. cbn. lra.
  - intros (_&X). unfold triple, rdot, rcross in X. cbn in X. lra.
Qed.
(** a camera tilted to 60 degrees, one to -60 degrees with roll and heading turned, and two that look straight down *)
Example C82_same_camera_example : exists m m' d d', init_matrix (opar_fin (OPar 10 60 5 30 1 2)) = Some m /\ init_matrix (opar_fin (OPar 10 (-60) 185 (-150) 1 2)) = Some m' /\ same_view m m' /\
  init_matrix (opar_fin (OPar 10 0 30 50 1 2)) = Some d /\ init_matrix (opar_fin (OPar 10 0 0 20 1 2)) = Some d' /\ same_view d d' /\ ~ same_view m d.
Proof.
  assert (G : forall o, exists m, init_matrix (opar_fin o) = Some m) by (intros o; destruct (init_rigid (opar_fin o) o) as (m&E&_); [repeat split|eauto]).
  destruct (G (OPar 10 60 5 30 1 2)) as (m&E). destruct (G (OPar 10 (-60) 185 (-150) 1 2)) as (m'&E'). destruct (G (OPar 10 0 30 50 1 2)) as (d&D). destruct (G (OPar 10 0 0 20 1 2)) as (d'&D').
  exists m, m', d, d'. split; [exact E|]. split; [exact E'|]. split; [|split; [exact D|split; [exact D'|split]]].
  - apply (C82_same_camera _ _ _ _ E E'). split; [reflexivity|]. right; left. cbn [tilt_deg roll_deg heading_deg]. split; [exists 0%Z; lra|]. split; [exists (-1)%Z; lra|exists 0%Z; lra].
  - apply (C82_same_camera _ _ _ _ D D'). split; [reflexivity|]. right; right; left. cbn [tilt_deg roll_deg heading_deg]. split; [exists 0%Z; lra|]. split; [exists 0%Z; lra|exists 0%Z; lra].
  - intros X. apply (C82_unique _ _ _ _ E D) in X; cbn in *; lra.
Qed.
