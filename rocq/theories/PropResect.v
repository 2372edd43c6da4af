(** * C83: which landmarks determine the position and the attitude of a camera *)
Require Import Reals Lra Psatz List Bool ZArith.
From Verif Require Import Num Vec Trig Orientation OrientationFacts PropOrientation PropAngles.
From Verif Require Import Projection ProjectionFacts Ray RayFacts CameraTransform CameraFacts PropCamera Stereo PropStereo.
From Verif Require Import FitTerms PropFitTerms PropDetermine PropPerspective.
Open Scope R_scope.

(** ** Specification *)
(** Both cameras show the point [P] at one pixel; it is in the pictures of both ([showable]: not in the plane of the lens, for a
    rectilinear camera in front of it). *)
Definition agree_on (k : pkind) (c c' : camera) (o o' : opar R) (P : v3 R) : Prop :=
  showable k (cam_coords o P) /\ showable k (cam_coords o' P) /\ exists p Q, rep3 p P /\ rep2 (imageFromSpace c p true) Q /\ rep2 (imageFromSpace c' p true) Q.
(** The same position and the same attitude; by C82 these are exactly the parameters of one camera. *)
Definition same_pose (o o' : opar R) : Prop := opos o' = opos o /\ same_attitude o o'.
(** Twice the area of a triangle on the ground, with a sign; zero if the points are on one line *)
Definition area2 (A B C : v3 R) : R := (cx B - cx A) * (cy C - cy A) - (cy B - cy A) * (cx C - cx A).

(** ** Rotations that agree *)
Lemma rot_cross M u v : orthonormal M -> rdet M = 1 -> rm_mul_v M (rcross u v) = rcross (rm_mul_v M u) (rm_mul_v M v).
Proof.
  intros HO HD. destruct (rotation_rows M HO HD) as (E1&E2&E3). unfold rm_mul_v. rewrite E1 at 1. rewrite E2 at 2. rewrite E3 at 3. apply v3_ext; unfold rdot, rcross; cbn [cx cy cz]; ring.
Qed.
Lemma agree_rot M M' u v : orthonormal M -> rdet M = 1 -> orthonormal M' -> rdet M' = 1 -> rm_mul_v M u = rm_mul_v M' u -> rm_mul_v M v = rm_mul_v M' v -> rcross u v <> rv0 -> M = M'.
Proof.
  intros HO HD HO' HD' EU EV NZ. set (w := rcross u v). assert (EW : rm_mul_v M w = rm_mul_v M' w) by (unfold w; rewrite !rot_cross, EU, EV by auto; reflexivity).
  assert (NW : rdot w w <> 0) by (intros X; apply NZ, dot_self0, X).
  assert (EX : forall x, rm_mul_v M x = rm_mul_v M' x).
  { intros x. assert (CR : rv_scale (rdot w w) x = rv_add (rv_scale (rdot x (rcross v w)) u) (rv_add (rv_scale (rdot x (rcross w u)) v) (rv_scale (rdot x w) w))) by (unfold w, rdot, rcross; apply v3_ext; cbn; ring).
    assert (L : forall N, rm_mul_v N (rv_scale (rdot w w) x) = rv_add (rv_scale (rdot x (rcross v w)) (rm_mul_v N u)) (rv_add (rv_scale (rdot x (rcross w u)) (rm_mul_v N v)) (rv_scale (rdot x w) (rm_mul_v N w)))).
    { intros N. rewrite CR. clearbody w. generalize (rdot x (rcross v w)) (rdot x (rcross w u)) (rdot x w). intros. unfold rm_mul_v, rdot. apply v3_ext; cbn; ring. }
    pose proof (L M) as L1. rewrite EU, EV, EW, <- L in L1. revert L1. generalize NW. generalize (rdot w w). intros g G L1.
    assert (S : forall N, rm_mul_v N (rv_scale g x) = rv_scale g (rm_mul_v N x)) by (intros; unfold rm_mul_v, rdot; apply v3_ext; cbn; ring). rewrite !S in L1.
    pose proof (f_equal cx L1) as X1. pose proof (f_equal cy L1) as X2. pose proof (f_equal cz L1) as X3. cbn in X1, X2, X3. apply v3_ext; apply Rmult_eq_reg_l with g; auto. }
  pose proof (EX (V3 1 0 0)) as X. pose proof (EX (V3 0 1 0)) as Y. pose proof (EX (V3 0 0 1)) as Z0. clear - X Y Z0. destruct M as [[a1 a2 a3] [b1 b2 b3] [d1 d2 d3]], M' as [[p1 p2 p3] [q1 q2 q3] [s1 s2 s3]].
  cbv [rm_mul_v rdot cx cy cz] in *. injection X as ? ? ?. injection Y as ? ? ?. injection Z0 as ? ? ?. f_equal; f_equal; lra.
Qed.
(** ** One pixel is one direction *)
Lemma seen_ray k c r o p P Q : plain_cam c k r o -> rep3 p P -> showable k (cam_coords o P) -> rep2 (imageFromSpace c p true) Q -> exists l, 0 < l /\ cam_coords o P = rv_scale l (rayR k r Q).
Proof.
  intros HC Hp HS HI. destruct (plain_good _ _ _ _ HC) as (HG&HK&HDi&_). destruct (ifs_spec c r (camM o) (opos o) p P true HG Hp) as (x&Q'&Ex&Rx&_&_&(l&Hl&E)); [rewrite HK; exact HS|].
  assert (Q' = Q) by (apply (rep2_inj x); [exact Rx|]; rewrite <- (HDi x), <- Ex; exact HI). subst Q'. exists l. split; [exact Hl|]. unfold cam_coords. rewrite E, rm_mul_v_scale. unfold dirW. rewrite HK, mul_trans by apply rotm_rows. reflexivity.
Qed.
Lemma agree_ray k c c' r o o' P : plain_cam c k r o -> plain_cam c' k r o' -> agree_on k c c' o o' P -> exists l, 0 < l /\ cam_coords o' P = rv_scale l (cam_coords o P).
Proof.
  intros HC HC' (S&S'&p&Q&Hp&HI&HI'). destruct (seen_ray k c r o p P Q HC Hp S HI) as (l&L&E). destruct (seen_ray k c' r o' p P Q HC' Hp S' HI') as (l'&L'&E').
  exists (l' / l). split; [apply Rdiv_lt_0_compat; auto|]. rewrite E, E'. apply v3_ext; cbn; field; lra.
Qed.
Lemma pose_of o o' : camM o = camM o' -> opos o' = opos o -> same_pose o o'.
Proof. intros EM EO. split; [exact EO|]. apply attitude_same. exact EM. Qed.
Lemma camM_rot o : orthonormal (camM o) /\ rdet (camM o) = 1.
Proof. split; [apply rotm_rows|apply rotm_det]. Qed.
Lemma rot_dot o x : rdot (rm_mul_v (camM o) x) (rm_mul_v (camM o) x) = rdot x x.
Proof. rewrite orthonormal_dot; [reflexivity|apply rotm_cols]. Qed.
(** With a known position two landmarks in different directions determine the attitude, for every projection. *)
Theorem C83_two_landmarks k c c' r o o' P1 P2 : plain_cam c k r o -> plain_cam c' k r o' -> opos o' = opos o -> rcross (rv_sub P1 (opos o)) (rv_sub P2 (opos o)) <> rv0 ->
  agree_on k c c' o o' P1 -> agree_on k c c' o o' P2 -> same_pose o o'.
Proof.
  intros HC HC' EO NZ A1 A2. apply pose_of; [|exact EO]. destruct (agree_ray _ _ _ _ _ _ _ HC HC' A1) as (l1&L1&E1). destruct (agree_ray _ _ _ _ _ _ _ HC HC' A2) as (l2&L2&E2).
  destruct (camM_rot o) as (HO&HD). destruct (camM_rot o') as (HO'&HD').
  assert (ONE : forall P l, 0 < l -> rv_sub P (opos o) <> rv0 -> cam_coords o' P = rv_scale l (cam_coords o P) -> cam_coords o' P = cam_coords o P).
  { intros P l L NP E. assert (l = 1); [|subst l; rewrite E; apply v3_ext; cbn; ring]. unfold cam_coords in E. rewrite EO in E. set (x := rv_sub P (opos o)) in *.
    assert (X : rdot x x = l * l * rdot x x). { rewrite <- (rot_dot o' x) at 1. rewrite E. rewrite <- (rot_dot o x). unfold rdot. cbn. ring. }
    assert (NX : rdot x x <> 0) by (intros Y; apply NP, dot_self0, Y). assert (l * l = 1) by (apply Rmult_eq_reg_r with (rdot x x); [lra|exact NX]). nra. }
  assert (Z1 : forall v, rcross rv0 v = rv0 /\ rcross v rv0 = rv0) by (intros v; split; apply v3_ext; cbn; ring).
  apply (agree_rot _ _ (rv_sub P1 (opos o)) (rv_sub P2 (opos o))); auto.
  - symmetry. rewrite <- EO at 1. apply (ONE P1 l1 L1); [|exact E1]. intros X. apply NZ. rewrite X. apply Z1.
  - symmetry. rewrite <- EO at 1. apply (ONE P2 l2 L2); [|exact E2]. intros X. apply NZ. rewrite X. apply Z1.
Qed.
Print Assumptions C83_two_landmarks.
(** Four landmarks of one plane, no three of them on a line, determine position and attitude of a camera that is not in that
    plane. The plane is given by three of the points; the fourth has the coordinates [a], [b], [d] in it. *)
Theorem C83_four_landmarks k c c' r o o' P1 P2 P3 P4 a b d : plain_cam c k r o -> plain_cam c' k r o' ->
  a + b + d = 1 -> a <> 0 -> b <> 0 -> d <> 0 -> P4 = rv_add (rv_scale a P1) (rv_add (rv_scale b P2) (rv_scale d P3)) ->
  triple (rv_sub P1 (opos o)) (rv_sub P2 (opos o)) (rv_sub P3 (opos o)) <> 0 ->
  agree_on k c c' o o' P1 -> agree_on k c c' o o' P2 -> agree_on k c c' o o' P3 -> agree_on k c c' o o' P4 -> same_pose o o'.
Proof.
  intros HC HC' SUM NA NB ND E4 NT A1 A2 A3 A4.
  destruct (agree_ray _ _ _ _ _ _ _ HC HC' A1) as (l1&L1&R1). destruct (agree_ray _ _ _ _ _ _ _ HC HC' A2) as (l2&L2&R2). destruct (agree_ray _ _ _ _ _ _ _ HC HC' A3) as (l3&L3&R3). destruct (agree_ray _ _ _ _ _ _ _ HC HC' A4) as (l4&L4&R4).
  destruct (camM_rot o) as (HO&HD). destruct (camM_rot o') as (HO'&HD').
  assert (AF : forall x, cam_coords x P4 = rv_add (rv_scale a (cam_coords x P1)) (rv_add (rv_scale b (cam_coords x P2)) (rv_scale d (cam_coords x P3)))).
  { intros x. rewrite E4. unfold cam_coords. set (O := opos x). replace (rv_sub (rv_add (rv_scale a P1) (rv_add (rv_scale b P2) (rv_scale d P3))) O) with (rv_add (rv_scale a (rv_sub P1 O)) (rv_add (rv_scale b (rv_sub P2 O)) (rv_scale d (rv_sub P3 O)))).
    2:{ replace d with (1 - a - b) by lra. apply v3_ext; cbn; ring. } unfold rm_mul_v, rdot. apply v3_ext; cbn; ring. }
  set (C1 := cam_coords o P1) in *. set (C2 := cam_coords o P2) in *. set (C3 := cam_coords o P3) in *.
  assert (NT' : triple C1 C2 C3 <> 0). { unfold C1, C2, C3, cam_coords. rewrite triple_mul, HD, Rmult_1_l. exact NT. }
  rewrite (AF o), (AF o'), R1, R2, R3 in R4. fold C1 C2 C3 in R4.
  assert (IND : forall x y z, rv_add (rv_scale x C1) (rv_add (rv_scale y C2) (rv_scale z C3)) = rv0 -> x = 0 /\ y = 0 /\ z = 0).
  { intros x y z H. assert (T : forall u v w g, rdot (rv_add (rv_scale x u) (rv_add (rv_scale y v) (rv_scale z w))) g = x * rdot u g + y * rdot v g + z * rdot w g) by (intros; unfold rdot; cbn; ring).
    pose proof (T C1 C2 C3 (rcross C2 C3)) as T1. pose proof (T C1 C2 C3 (rcross C3 C1)) as T2. pose proof (T C1 C2 C3 (rcross C1 C2)) as T3. rewrite H in T1, T2, T3.
    assert (X1 : x * triple C1 C2 C3 = 0) by (unfold triple, rdot, rcross, rv0 in *; cbn [cx cy cz] in *; lra). assert (X2 : y * triple C1 C2 C3 = 0) by (unfold triple, rdot, rcross, rv0 in *; cbn [cx cy cz] in *; lra).
    assert (X3 : z * triple C1 C2 C3 = 0) by (unfold triple, rdot, rcross, rv0 in *; cbn [cx cy cz] in *; lra). apply Rmult_integral in X1, X2, X3. splits; tauto. }
  destruct (IND (a * (l1 - l4)) (b * (l2 - l4)) (d * (l3 - l4))) as (Y1&Y2&Y3).
  { pose proof (f_equal cx R4) as X1. pose proof (f_equal cy R4) as X2. pose proof (f_equal cz R4) as X3. cbn in X1, X2, X3. apply v3_ext; cbn; lra. }
  assert (Q1 : l1 = l4) by (apply Rmult_integral in Y1; destruct Y1; lra). assert (Q2 : l2 = l4) by (apply Rmult_integral in Y2; destruct Y2; lra). assert (Q3 : l3 = l4) by (apply Rmult_integral in Y3; destruct Y3; lra).
  subst l1 l2 l3. clear Y1 Y2 Y3 R4 A4 E4 AF IND.
  set (u := rv_sub P1 P2). set (v := rv_sub P1 P3).
  assert (DU : forall x P, rm_mul_v (camM x) (rv_sub P1 P) = rv_sub (cam_coords x P1) (cam_coords x P)) by (intros; unfold cam_coords, rm_mul_v, rdot; apply v3_ext; cbn; ring).
  assert (EU : rm_mul_v (camM o') u = rv_scale l4 (rm_mul_v (camM o) u)) by (unfold u; rewrite !DU, R1, R2; fold C1 C2; apply v3_ext; cbn; ring).
  assert (EV : rm_mul_v (camM o') v = rv_scale l4 (rm_mul_v (camM o) v)) by (unfold v; rewrite !DU, R1, R3; fold C1 C3; apply v3_ext; cbn; ring).
  assert (NC : rcross u v <> rv0).
  { intros X. apply NT. assert (TT : triple (rv_sub P1 (opos o)) (rv_sub P2 (opos o)) (rv_sub P3 (opos o)) = rdot (rv_sub P1 (opos o)) (rcross u v)) by (unfold triple, u, v, rdot, rcross; cbn; ring).
    rewrite TT, X. unfold rdot. cbn. ring. }
  assert (NU : rdot (rcross u v) (rcross u v) <> 0) by (intros X; apply NC, dot_self0, X).
  assert (l4 = 1).
  { pose proof (rot_cross (camM o') u v HO' HD') as X. rewrite EU, EV in X. pose proof (rot_cross (camM o) u v HO HD) as Y.
    assert (Z0 : rm_mul_v (camM o') (rcross u v) = rv_scale (l4 * l4) (rm_mul_v (camM o) (rcross u v))) by (rewrite X, Y; apply v3_ext; cbn; ring).
    assert (W : rdot (rcross u v) (rcross u v) = (l4 * l4) * (l4 * l4) * rdot (rcross u v) (rcross u v)).
    { rewrite <- (rot_dot o' (rcross u v)) at 1. rewrite Z0. rewrite <- (rot_dot o (rcross u v)). unfold rdot. cbn [rv_scale map3v cx cy cz]. ring. }
    assert (P4' : (l4 * l4) * (l4 * l4) = 1) by (apply Rmult_eq_reg_r with (rdot (rcross u v) (rcross u v)); [lra|exact NU]). assert (l4 * l4 = 1) by nra. nra. }
  subst l4. assert (EM : camM o = camM o').
  { apply (agree_rot _ _ u v); auto; [rewrite EU|rewrite EV]; apply v3_ext; cbn; ring. }
  apply pose_of; [exact EM|]. unfold cam_coords in R1. unfold C1, cam_coords in R1. rewrite <- EM in R1. apply (f_equal (rm_mul_v (rm_trans (camM o)))) in R1.
  rewrite trans_mul in R1 by apply rotm_cols. assert (S1 : rv_scale 1 (rm_mul_v (camM o) (rv_sub P1 (opos o))) = rm_mul_v (camM o) (rv_sub P1 (opos o))) by (apply v3_ext; cbn; ring). rewrite S1, trans_mul in R1 by apply rotm_cols.
  pose proof (f_equal cx R1) as X1. pose proof (f_equal cy R1) as X2. pose proof (f_equal cz R1) as X3. cbn in X1, X2, X3. apply v3_ext; cbn; lra.
Qed.
Print Assumptions C83_four_landmarks.
(** Four landmarks on level ground, no three of them on a line *)
Theorem C83_ground_landmarks k c c' r o o' Z P1 P2 P3 P4 : plain_cam c k r o -> plain_cam c' k r o' -> cz P1 = Z -> cz P2 = Z -> cz P3 = Z -> cz P4 = Z -> elevation_m o <> Z ->
  area2 P1 P2 P3 <> 0 -> area2 P1 P2 P4 <> 0 -> area2 P1 P3 P4 <> 0 -> area2 P2 P3 P4 <> 0 ->
  agree_on k c c' o o' P1 -> agree_on k c c' o o' P2 -> agree_on k c c' o o' P3 -> agree_on k c c' o o' P4 -> same_pose o o'.
Proof.
  intros HC HC' Z1 Z2 Z3 Z4 NE N123 N124 N134 N234 A1 A2 A3 A4. set (D := area2 P1 P2 P3) in *.
  apply (C83_four_landmarks k c c' r o o' P1 P2 P3 P4 (area2 P2 P3 P4 / D) (- area2 P1 P3 P4 / D) (area2 P1 P2 P4 / D)); auto.
  - unfold D in *. unfold area2 in *. field. exact N123.
  - unfold Rdiv. apply Rmult_integral_contrapositive. split; [exact N234|apply Rinv_neq_0_compat, N123].
  - unfold Rdiv. apply Rmult_integral_contrapositive. split; [lra|apply Rinv_neq_0_compat, N123].
  - unfold Rdiv. apply Rmult_integral_contrapositive. split; [exact N124|apply Rinv_neq_0_compat, N123].
  - unfold D in *. apply v3_ext; cbn [rv_add rv_scale zip3v map3v cx cy cz]; rewrite ?Z1, ?Z2, ?Z3, ?Z4; unfold area2 in *; field; exact N123.
  - assert (T : triple (rv_sub P1 (opos o)) (rv_sub P2 (opos o)) (rv_sub P3 (opos o)) = (Z - elevation_m o) * D).
    { unfold D, area2, triple, rdot, rcross, opos. cbn [rv_sub zip3v cx cy cz]. rewrite Z1, Z2, Z3. ring. }
    rewrite T. apply Rmult_integral_contrapositive. split; [lra|exact N123].
Qed.
Print Assumptions C83_ground_landmarks.

(** ** Three landmarks are not enough *)
(** the camera at the origin that looks straight down, and its picture *)
Definition ex_nadir : opar R := OPar 0 0 0 0 0 0.
Lemma nadir_coords P : cam_coords ex_nadir P = P.
Proof.
  unfold cam_coords, camM. cbn [tilt_deg roll_deg heading_deg ex_nadir]. replace (rad 0) with 0 by (unfold rad; ring). unfold rotm. rewrite sin_0, cos_0. unfold rm_mul_v, rdot. apply v3_ext; cbn; ring.
Qed.
(** a turn about the line through (-3,-4,-10) and (3,-4,-10) that takes (0,0,-13) to (0,0,-7), on the same ray *)
Definition tip (P : v3 R) : v3 R := V3 (cx P) (-4 + 7 / 25 * (cy P + 4) - 24 / 25 * (cz P + 10)) (-10 + 24 / 25 * (cy P + 4) + 7 / 25 * (cz P + 10)).
Lemma tip_motion : motion tip.
Proof.
  split; [intros A B; unfold rdist, rnorm, rdot, tip; f_equal; cbn; field|]. unfold triple, rdot, rcross, tip. cbn. lra.
Qed.
Lemma pose_coords o m P : init_matrix (opar_fin o) = Some m -> rep3 (cameraFromSpace m (fin3 P)) (cam_coords o P).
Proof.
  intros E. destruct (init_rigid (opar_fin o) o) as (m'&E'&R'); [repeat split|]. assert (m' = m) by congruence. subst m'. apply (rigid_camera _ _ _ _ _ R' (rep3_fin P)).
Qed.
Lemma agree_scaled c c' r o o' P l : plain_cam c Rectilinear r o -> plain_cam c' Rectilinear r o' -> 0 < l -> cam_coords o' P = rv_scale l (cam_coords o P) -> tinyR <= depth o P -> tinyR <= depth o' P -> agree_on Rectilinear c c' o o' P.
Proof.
  intros HC HC' L E D D'. pose proof tinyR_pos as TP. assert (S : forall x, tinyR <= depth x P -> showable Rectilinear (cam_coords x P)) by (intros x; unfold depth, showable; intros X; rewrite Rabs_left; lra).
  split; [auto|]. split; [auto|]. exists (fin3 P), (pin r (cam_coords o P)). split; [apply rep3_fin|]. split; [apply (image_pin c r o _ P HC (rep3_fin P) D)|].
  eapply rep2_eq; [apply (image_pin c' r o' _ P HC' (rep3_fin P) D')|]. rewrite E. unfold depth in *. set (K := cam_coords o P) in *. unfold pin. cbn [rv_scale map3v cx cy cz]. f_equal; f_equal; field; lra.
Qed.
(** Three landmarks that are not on one line can be at the same pixels of two cameras at different places. *)
Theorem C83_three_refuted : exists c c' r o o' P1 P2 P3, plain_cam c Rectilinear r o /\ plain_cam c' Rectilinear r o' /\ rcross (rv_sub P2 P1) (rv_sub P3 P1) <> rv0 /\
  agree_on Rectilinear c c' o o' P1 /\ agree_on Rectilinear c c' o o' P2 /\ agree_on Rectilinear c c' o o' P3 /\ ~ same_pose o o'.
Proof.
  destruct (C82_every_motion tip tip_motion) as (o'&m&_&_&_&Em&F0&HM). destruct (ex_any ex_nadir Rectilinear) as (c&HC). destruct (ex_any o' Rectilinear) as (c'&HC').
  assert (CO : forall P, cam_coords o' P = tip P) by (intros P; apply (rep3_inj _ _ _ (pose_coords o' m P Em) (HM _ P (rep3_fin P)))).
  exists c, c', ex_r, ex_nadir, o', (V3 (-3) (-4) (-10)), (V3 3 (-4) (-10)), (V3 0 0 (-13)). split; [exact HC|]. split; [exact HC'|].
  split; [intros X; apply (f_equal cy) in X; cbn in X; lra|].
  assert (G : forall P l, 0 < l -> tip P = rv_scale l P -> tinyR <= - cz P -> tinyR <= - cz (tip P) -> agree_on Rectilinear c c' ex_nadir o' P).
  { intros P l L E D D'. apply (agree_scaled c c' ex_r ex_nadir o' P l HC HC' L); [rewrite CO, nadir_coords; exact E| |]; unfold depth; rewrite ?nadir_coords, ?CO; auto. }
  split; [apply (G _ 1); [lra|unfold tip; apply v3_ext; cbn; lra|cbn; unfold tinyR; lra|unfold tip; cbn; unfold tinyR; lra]|].
  split; [apply (G _ 1); [lra|unfold tip; apply v3_ext; cbn; lra|cbn; unfold tinyR; lra|unfold tip; cbn; unfold tinyR; lra]|].
  split; [apply (G _ (7 / 13)); [lra|unfold tip; apply v3_ext; cbn; lra|cbn; unfold tinyR; lra|unfold tip; cbn; unfold tinyR; lra]|].
  intros (EO&_). rewrite EO in F0. apply (f_equal cy) in F0. cbn in F0. lra.
Qed.
Print Assumptions C83_three_refuted.

(** ** The focal length *)
(** From straight above, the focal length and the elevation cannot be told apart by any number of landmarks on the ground. *)
Theorem C83_focal_refuted : exists c c' r r' o o', plain_cam c Rectilinear r o /\ plain_cam c' Rectilinear r' o' /\ f_x r' <> f_x r /\ elevation_m o' <> elevation_m o /\
  forall p P, rep3 p P -> cz P = 0 -> exists Q, rep2 (imageFromSpace c p true) Q /\ rep2 (imageFromSpace c' p true) Q.
Proof.
  set (r' := Proj 7000 7000 2000 1500 4000 3000).
  assert (DN : forall e P, cam_coords (OPar e 0 0 0 0 0) P = V3 (cx P) (cy P) (cz P - e)).
  { intros e P. unfold cam_coords, camM. cbn [tilt_deg roll_deg heading_deg]. replace (rad 0) with 0 by (unfold rad; ring). unfold rotm. rewrite sin_0, cos_0. unfold rm_mul_v, rdot. apply v3_ext; cbn; ring. }
  destruct (ex_any (OPar 10 0 0 0 0 0) Rectilinear) as (c&HC).
  assert (HC' : exists c', plain_cam c' Rectilinear r' (OPar 20 0 0 0 0 0)).
  { assert (H : rep_opar (opar_fin (OPar 20 0 0 0 0 0)) (OPar 20 0 0 0 0 0)) by (repeat split). destruct (init_rigid _ _ H) as (m&E&_).
    exists (plain_camera Rectilinear (proj_fin r') m), (proj_fin r'), m. splits; auto; [repeat split|split; simpl; lra|eauto]. }
  destruct HC' as (c'&HC'). exists c, c', ex_r, r', (OPar 10 0 0 0 0 0), (OPar 20 0 0 0 0 0). split; [exact HC|]. split; [exact HC'|]. split; [cbn; lra|]. split; [cbn; lra|].
  intros p P Hp Z0. eexists. split; [apply (image_pin c _ _ p P HC Hp); unfold depth; rewrite DN; cbn; rewrite Z0; unfold tinyR; lra|].
  eapply rep2_eq; [apply (image_pin c' _ _ p P HC' Hp); unfold depth; rewrite DN; cbn; rewrite Z0; unfold tinyR; lra|]. rewrite !DN. unfold pin. cbn [r' ex_r f_x f_y center_x center_y cx cy cz]. rewrite Z0. f_equal; field.
Qed.
Print Assumptions C83_focal_refuted.

(** ** Examples *)
(** Two descriptions of one camera: they agree on the corners of a square on the ground. *)
Definition ex_again : opar R := OPar 10 (-90) 180 (-180) 0 0.
Example C83_example : exists c c' P1 P2 P3 P4, plain_cam c Rectilinear ex_r ex_or2 /\ plain_cam c' Rectilinear ex_r ex_again /\ P1 = V3 0 50 0 /\ P2 = V3 10 50 0 /\ P3 = V3 0 60 0 /\ P4 = V3 10 60 0 /\
  area2 P1 P2 P3 <> 0 /\ area2 P1 P2 P4 <> 0 /\ area2 P1 P3 P4 <> 0 /\ area2 P2 P3 P4 <> 0 /\ elevation_m ex_or2 <> 0 /\ rcross (rv_sub P1 (opos ex_or2)) (rv_sub P2 (opos ex_or2)) <> rv0 /\
  agree_on Rectilinear c c' ex_or2 ex_again P1 /\ agree_on Rectilinear c c' ex_or2 ex_again P2 /\ agree_on Rectilinear c c' ex_or2 ex_again P3 /\ agree_on Rectilinear c c' ex_or2 ex_again P4.
Proof.
  destruct (ex_any ex_or2 Rectilinear) as (c&HC). destruct (ex_any ex_again Rectilinear) as (c'&HC'). exists c, c', (V3 0 50 0), (V3 10 50 0), (V3 0 60 0), (V3 10 60 0).
  assert (EM : camM ex_again = camM ex_or2).
  { apply (attitude_same ex_again ex_or2). right; left. cbn. splits; [exists 0%Z; lra|exists 0%Z; lra|exists (-1)%Z; lra]. }
  assert (EC : forall P, cam_coords ex_again P = cam_coords ex_or2 P) by (intros P; unfold cam_coords; rewrite EM; reflexivity).
  assert (G : forall P, tinyR <= cy P -> agree_on Rectilinear c c' ex_or2 ex_again P).
  { intros P H. apply (agree_scaled c c' ex_r ex_or2 ex_again P 1 HC HC'); [lra|rewrite EC; apply v3_ext; cbn [rv_scale map3v cx cy cz]; ring| |]; unfold depth; rewrite ?EC, ex2_coords; cbn [cz]; lra. }
  unfold area2. cbn [cx cy cz elevation_m ex_or2]. splits; auto; try lra; try (apply G; cbn; unfold tinyR; lra). intros X. apply (f_equal cy) in X. cbn in X. lra.
Qed.
