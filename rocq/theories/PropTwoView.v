(** * C60: relative pose of two cameras from point correspondences *)
Require Import Reals Lra Lia Psatz List Bool.
From Verif Require Import Num Vec Trig Orientation OrientationFacts Projection ProjectionFacts Ray RayFacts CameraTransform CameraFacts
  PropProjection PropCamera PropRay PropStereo TwoView.
Import ListNotations.
Open Scope R_scope.

(** ** Specification *)
(** The camera coordinates of OpenCV: x to the right, y down, z forward *)
Definition flip (P : v3 R) : v3 R := V3 (cx P) (- cy P) (- cz P).
Definition cv_coords (o : opar R) (P : v3 R) : v3 R := flip (cam_coords o P).
(** What cv2.recoverPose promises: [M] and [t] carry the coordinates of the first camera to those of the second, lengths
    measured in units of [b] *)
Definition relative (o1 o2 : opar R) (M : m3 R) (t : v3 R) (b : R) : Prop :=
  forall P, cv_coords o2 P = rv_add (rm_mul_v M (cv_coords o1 P)) (rv_scale b t).
Definition rotation (M : m3 R) : Prop := orthonormal M /\ orthonormal (rm_trans M) /\ rdet M = 1.
Definition fin_m (M : m3 R) : m3 num := map3v fin3 M.

(** ** Rotations *)
Lemma cross_rows a b c : rdot b b = 1 -> rdot c c = 1 -> rdot b c = 0 -> rdot a a = 1 -> rdot a (rcross b c) = 1 -> a = rcross b c.
Proof.
  intros B C BC A D. assert (E : rdot (rv_sub a (rcross b c)) (rv_sub a (rcross b c)) = 0).
  { transitivity (rdot a a - 2 * rdot a (rcross b c) + (rdot b b * rdot c c - rdot b c * rdot b c)).
    - destruct a, b, c. unfold rdot, rcross. cbn. ring.
    - rewrite A, B, C, BC, D. ring. }
  apply rdot_self_0 in E. pose proof (f_equal cx E) as E1. pose proof (f_equal cy E) as E2. pose proof (f_equal cz E) as E3. cbn in E1, E2, E3. apply v3_ext; cbn; lra.
Qed.
Lemma rotation_rows M : rotation M -> cx M = rcross (cy M) (cz M) /\ cy M = rcross (cz M) (cx M) /\ cz M = rcross (cx M) (cy M).
Proof.
  intros ((A&B&C&AB&AC&BC)&_&D). unfold rdet in D. splits.
  - apply cross_rows; auto.
  - apply cross_rows; auto; [rewrite rdot_comm; auto|]. rewrite <- D. unfold rdot, rcross. cbn. ring.
  - apply cross_rows; auto. rewrite <- D. unfold rdot, rcross. cbn. ring.
Qed.
(** A rotation whose axis is turned is given by its last row and its last column. *)
Lemma rotation_corner M : rotation M ->
  cx (cx M) * (1 - cz (cz M) * cz (cz M)) = - (cx (cz M) * cz (cz M) * cz (cx M)) - cz (cy M) * cy (cz M) /\
  cy (cx M) * (1 - cz (cz M) * cz (cz M)) = - (cy (cz M) * cz (cz M) * cz (cx M)) + cz (cy M) * cx (cz M) /\
  cx (cy M) * (1 - cz (cz M) * cz (cz M)) = - (cx (cz M) * cz (cz M) * cz (cy M)) + cz (cx M) * cy (cz M) /\
  cy (cy M) * (1 - cz (cz M) * cz (cz M)) = - (cy (cz M) * cz (cz M) * cz (cy M)) - cz (cx M) * cx (cz M).
Proof.
  intros H. destruct (rotation_rows M H) as (E1&E2&_). destruct M as [[a1 a2 a3] [b1 b2 b3] [d1 d2 d3]]. unfold rcross in *. cbn [cx cy cz] in *.
  injection E1 as A1 A2 A3. injection E2 as B1 B2 B3.
  pose proof (f_equal (Rmult d3) A1). pose proof (f_equal (Rmult d3) A2). pose proof (f_equal (Rmult d3) B1). pose proof (f_equal (Rmult d3) B2). splits; lra.
Qed.
Lemma rotation_same M N : rotation M -> rotation N -> cz M = cz N -> cz (cx M) = cz (cx N) -> cz (cy M) = cz (cy N) ->
  cz (cz M) * cz (cz M) < 1 -> M = N.
Proof.
  intros HM HN E1 E2 E3 L. destruct (rotation_corner M HM) as (A1&A2&A3&A4), (rotation_corner N HN) as (B1&B2&B3&B4).
  rewrite <- E1, <- E2, <- E3 in *.
  assert (K : 1 - cz (cz M) * cz (cz M) <> 0) by lra.
  assert (cx (cx M) = cx (cx N)) by (apply (Rmult_eq_reg_r _ _ _ (eq_trans A1 (eq_sym B1)) K)).
  assert (cy (cx M) = cy (cx N)) by (apply (Rmult_eq_reg_r _ _ _ (eq_trans A2 (eq_sym B2)) K)).
  assert (cx (cy M) = cx (cy N)) by (apply (Rmult_eq_reg_r _ _ _ (eq_trans A3 (eq_sym B3)) K)).
  assert (cy (cy M) = cy (cy N)) by (apply (Rmult_eq_reg_r _ _ _ (eq_trans A4 (eq_sym B4)) K)).
  apply v3_ext; auto; apply v3_ext; auto.
Qed.
Lemma camM_rotation o : rotation (camM o).
Proof. unfold camM. split; [apply rotm_rows|split; [apply rotm_cols|apply rotm_det]]. Qed.
Definition flipped (M : m3 R) : m3 R := V3 (flip (cx M)) (rv_neg (flip (cy M))) (rv_neg (flip (cz M))).
Lemma flipped_rotation M : rotation M -> rotation (flipped M).
Proof.
  destruct M as [[a1 a2 a3] [b1 b2 b3] [d1 d2 d3]]. unfold rotation, orthonormal, rdet, flipped, rm_trans, rdot, rcross. cbn.
  intros ((R1&R2&R3&R4&R5&R6)&(C1&C2&C3&C4&C5&C6)&D). splits; lra.
Qed.
Lemma flip_mul M P : flip (rm_mul_v (flipped M) P) = rm_mul_v M (flip P).
Proof. destruct M as [[a1 a2 a3] [b1 b2 b3] [d1 d2 d3]], P as [x y z]. unfold flip, flipped, rm_mul_v, rdot. cbn. f_equal; ring. Qed.

(** ** What is set *)
Lemma rad_half a : rad (180 + a * (180 / PI)) = a + PI.
Proof. unfold rad. field. pose proof PI_RGT_0. lra. Qed.
Lemma euler_rep m M : repm m M -> rotation M -> cz (cz M) * cz (cz M) < 1 ->
  let '(roll, tilt, heading) := rotationToEuler m in
  exists r t h, rep roll r /\ rep tilt t /\ rep heading h /\ 0 <= h <= 360 /\
    let N := rotm (rad t) (rad r) (rad h) in
    cz N = cz M /\ cz (cx N) = - cz (cx M) /\ cz (cy N) = cz (cy M).
Proof.
  intros ((_&_&R02)&(_&_&R12)&(R20&R21&R22)) HM L. unfold rotationToEuler.
  assert (SC : cz (cx M) * cz (cx M) + cz (cy M) * cz (cy M) = 1 - cz (cz M) * cz (cz M)).
  { destruct HM as (_&(_&_&C&_)&_). unfold rdot, rm_trans in C. cbn in C. lra. }
  assert (SR : cx (cz M) * cx (cz M) + cy (cz M) * cy (cz M) = 1 - cz (cz M) * cz (cz M)).
  { destruct HM as ((_&_&C&_)&_). unfold rdot in C. lra. }
  assert (B : -1 <= cz (cz M) <= 1) by nra.
  destruct (natan2_polar _ _ _ _ R02 (rep_neg _ _ R12)) as (al&RA&BA&CA&SA). { destruct (Req_dec (cz (cx M)) 0); auto. left. nra. }
  destruct (natan2_polar _ _ _ _ R20 R21) as (ga&RG&BG&CG&SG). { destruct (Req_dec (cx (cz M)) 0); auto. left. nra. }
  assert (HA : hyp (- cz (cy M)) (cz (cx M)) = sin (acos (cz (cz M)))).
  { rewrite sin_acos by auto. unfold hyp, Rsqr. f_equal. lra. }
  assert (HG : hyp (cy (cz M)) (cx (cz M)) = sin (acos (cz (cz M)))).
  { rewrite sin_acos by auto. unfold hyp, Rsqr. f_equal. lra. }
  rewrite HA in *. rewrite HG in *.
  exists (180 + al * (180 / PI)), (acos (cz (cz M)) * (180 / PI)), (180 + ga * (180 / PI)). pose proof PI_RGT_0 as HP. splits.
  - apply rep_add; [apply rep_Fin|apply rep_rad2deg; auto].
  - apply rep_rad2deg, rep_acos; auto.
  - apply rep_add; [apply rep_Fin|apply rep_rad2deg; auto].
  - assert (ga * (180 / PI) >= - 180). { replace (-180) with (- PI * (180 / PI)) by (field; lra). apply Rle_ge, Rmult_le_compat_r; [|lra]. left. apply Rdiv_lt_0_compat; lra. } lra.
  - assert (ga * (180 / PI) <= 180). { replace 180 with (PI * (180 / PI)) at 2 by (field; lra). apply Rmult_le_compat_r; [|lra]. left. apply Rdiv_lt_0_compat; lra. } lra.
  - rewrite !rad_half. replace (rad (acos (cz (cz M)) * (180 / PI))) with (acos (cz (cz M))) by (unfold rad; field; lra).
    unfold rotm. cbn [cx cy cz]. rewrite ?neg_sin, ?neg_cos, ?cos_acos by auto. apply v3_ext; cbn [cx cy cz]; lra.
  - rewrite !rad_half. replace (rad (acos (cz (cz M)) * (180 / PI))) with (acos (cz (cz M))) by (unfold rad; field; lra).
    unfold rotm. cbn [cx cy cz]. rewrite ?neg_sin, ?neg_cos, ?cos_acos by auto. lra.
  - rewrite !rad_half. replace (rad (acos (cz (cz M)) * (180 / PI))) with (acos (cz (cz M))) by (unfold rad; field; lra).
    unfold rotm. cbn [cx cy cz]. rewrite ?neg_sin, ?neg_cos, ?cos_acos by auto. lra.
Qed.
Lemma baseline_length : forall o1 o2 b t, opos o2 = rv_add (opos o1) (rv_scale b t) -> rnorm t = 1 -> rdist (opos o2) (opos o1) = Rabs b.
Proof.
  intros o1 o2 b t E N1. unfold rdist. rewrite E. replace (rv_sub _ _) with (rv_scale b t) by (apply v3_ext; cbn; ring). rewrite rnorm_scale, N1. ring.
Qed.
Definition first_pose (o : opar R) : opar R := OPar (elevation_m o) 0 0 0 (pos_x_m o) (pos_y_m o).
(** The first camera keeps its position and looks straight down; the second one is at the distance [b] of the first; its
    view axis (minus the last row) is that of the rotation with the wrong sign of x. *)
Theorem C60_poses : forall on o1 m M tn t bn b, rep_opar on o1 -> repm m M -> rotation M -> cz (cz M) * cz (cz M) < 1 ->
  rep3 tn t -> rep bn b -> exists o2,
  rep_opar (fst (poses_from_correspondence on m tn bn)) (first_pose o1) /\ rep_opar (snd (poses_from_correspondence on m tn bn)) o2 /\
  opos o2 = rv_add (opos o1) (rv_scale b t) /\ (rnorm t = 1 -> rdist (opos o2) (opos o1) = Rabs b) /\ cz (camM o2) = cz M /\
  cz (cx (camM o2)) = - cz (cx M) /\ cz (cy (camM o2)) = cz (cy M).
Proof.
  intros on o1 m M tn t bn b (R1&R2&R3&R4&R5&R6) Hm HM L (T1&T2&T3) Hb. pose proof (euler_rep m M Hm HM L) as E.
  unfold poses_from_correspondence. destruct (rotationToEuler m) as ((roll&tilt)&heading). destruct E as (r&th&h&Rr&Rt&Rh&_&E1&E2&E3).
  exists (OPar (elevation_m o1 + cz t * b) th r h (pos_x_m o1 + cx t * b) (pos_y_m o1 + cy t * b)). cbn [fst snd]. splits; auto.
  - repeat split; cbn; auto; apply rep_Fin.
  - repeat split; cbn; auto; apply rep_add; auto; apply rep_mul; auto.
  - apply v3_ext; cbn; ring.
  - apply baseline_length. apply v3_ext; cbn; ring.
Qed.
Print Assumptions C60_poses.

(** ** Whether it is the relative pose *)
Lemma first_coords o P : cam_coords (first_pose o) P = rv_sub P (opos o).
Proof.
  unfold cam_coords, camM, first_pose. cbn [tilt_deg roll_deg heading_deg]. replace (rad 0) with 0 by (unfold rad; ring).
  apply v3_ext; cbv [rotm rm_mul_v rv_sub zip3v rdot opos pos_x_m pos_y_m elevation_m cx cy cz]; rewrite ?sin_0, ?cos_0; ring.
Qed.
Lemma matrix_columns M N : (forall P, rm_mul_v M P = rm_mul_v N P) -> M = N.
Proof.
  intros H. pose proof (H (V3 1 0 0)) as H1. pose proof (H (V3 0 1 0)) as H2. pose proof (H (V3 0 0 1)) as H3.
  destruct M as [[a1 a2 a3] [b1 b2 b3] [d1 d2 d3]], N as [[e1 e2 e3] [f1 f2 f3] [g1 g2 g3]].
  unfold rm_mul_v, rdot in *. cbn [cx cy cz] in *. injection H1 as ? ? ?. injection H2 as ? ? ?. injection H3 as ? ? ?.
  apply v3_ext; cbn [cx cy cz]; apply v3_ext; cbn [cx cy cz]; lra.
Qed.
Lemma flip_flip P : flip (flip P) = P.
Proof. destruct P as [x y z]. unfold flip. cbn. f_equal; ring. Qed.
Lemma flip_inj P Q : flip P = flip Q -> P = Q.
Proof. intros E. rewrite <- (flip_flip P), E, flip_flip. reflexivity. Qed.
Lemma flip_scale k P : flip (rv_scale k P) = rv_scale k (flip P).
Proof. destruct P as [x y z]. apply v3_ext; cbn; ring. Qed.
Lemma relative_iff o1 o2 M t b : relative (first_pose o1) o2 M t b <->
  camM o2 = flipped M /\ rm_mul_v (camM o2) (rv_sub (opos o1) (opos o2)) = rv_scale b (flip t).
Proof.
  unfold relative, cv_coords. split.
  - intros H. assert (E : rm_mul_v (camM o2) (rv_sub (opos o1) (opos o2)) = rv_scale b (flip t)).
    { apply flip_inj. specialize (H (opos o1)). rewrite first_coords in H. unfold cam_coords in H. rewrite H.
      destruct M as [[a1 a2 a3] [b1 b2 b3] [d1 d2 d3]]. apply v3_ext; cbn; unfold rdot; cbn; ring. }
    split; auto. apply matrix_columns. intros P. apply flip_inj. rewrite flip_mul.
    specialize (H (rv_add P (opos o1))). rewrite first_coords in H. unfold cam_coords in H.
    replace (rv_sub (rv_add P (opos o1)) (opos o1)) with P in H by (apply v3_ext; cbn; ring).
    replace (rv_sub (rv_add P (opos o1)) (opos o2)) with (rv_add P (rv_sub (opos o1) (opos o2))) in H by (apply v3_ext; cbn; ring).
    assert (D : rm_mul_v (camM o2) (rv_add P (rv_sub (opos o1) (opos o2))) = rv_add (rm_mul_v (camM o2) P) (rm_mul_v (camM o2) (rv_sub (opos o1) (opos o2)))).
    { destruct (camM o2) as [[a1 a2 a3] [b1 b2 b3] [d1 d2 d3]]. apply v3_ext; cbn; unfold rdot; cbn; ring. }
    rewrite D, E in H. pose proof (f_equal cx H) as H1. pose proof (f_equal cy H) as H2. pose proof (f_equal cz H) as H3.
    apply v3_ext; [clear - H1|clear - H2|clear - H3]; cbn in *; lra.
  - intros (E1&E2) P. unfold cam_coords at 1. rewrite first_coords. rewrite <- flip_mul.
    replace (rv_sub P (opos o2)) with (rv_add (rv_sub P (opos o1)) (rv_sub (opos o1) (opos o2))) by (apply v3_ext; cbn; ring).
    assert (D : forall a c, rm_mul_v (camM o2) (rv_add a c) = rv_add (rm_mul_v (camM o2) a) (rm_mul_v (camM o2) c)).
    { intros a c. destruct (camM o2) as [[a1 a2 a3] [b1 b2 b3] [d1 d2 d3]]. apply v3_ext; cbn; unfold rdot; cbn; ring. }
    rewrite D, E2, E1. set (X := rm_mul_v _ _). destruct X as [x y z], t as [u v w]. apply v3_ext; cbn; ring.
Qed.
(** The two cameras have the relative pose found by cv2 exactly if its rotation leaves the x axis in a plane and carries
    the mirrored translation to its negative. *)
Theorem C60_relative : forall on o1 m M tn t bn b, rep_opar on o1 -> repm m M -> rotation M -> cz (cz M) * cz (cz M) < 1 ->
  rep3 tn t -> rep bn b -> exists o2, rep_opar (snd (poses_from_correspondence on m tn bn)) o2 /\
  (relative (first_pose o1) o2 M t b <-> cx (cz M) = 0 /\ (b = 0 \/ rm_mul_v M (flip t) = rv_neg t)).
Proof.
  intros on o1 m M tn t bn b Ho Hm HM L Ht Hb. destruct (C60_poses on o1 m M tn t bn b Ho Hm HM L Ht Hb) as (o2&_&R2&EP&_&E1&E2&E3).
  exists o2. split; auto. rewrite relative_iff.
  assert (EQ : camM o2 = flipped M <-> cx (cz M) = 0).
  { split.
    - intros E. rewrite E in E1. apply (f_equal cx) in E1. destruct M as [[a1 a2 a3] [b1 b2 b3] [d1 d2 d3]]. cbn in *. lra.
    - intros Z. apply rotation_same; auto using camM_rotation, flipped_rotation.
      all: rewrite ?E1, ?E2, ?E3; auto; destruct M as [[a1 a2 a3] [b1 b2 b3] [d1 d2 d3]]; cbn in *; try apply v3_ext; cbn; lra. }
  rewrite EQ. assert (EV : rv_sub (opos o1) (opos o2) = rv_scale (- b) t) by (rewrite EP; apply v3_ext; cbn; ring).
  split; intros (Z&H); split; auto.
  - apply EQ in Z. rewrite Z, EV in H. destruct (Req_dec b 0) as [Hb0|Hb0]; [auto|right].
    assert (F : rv_scale (- b) (rm_mul_v M (flip t)) = rv_scale b t).
    { rewrite <- flip_mul, <- (flip_flip t) at 1. rewrite rm_mul_v_scale in H. apply flip_inj.
      transitivity (rv_scale (- b) (rm_mul_v (flipped M) t)); [rewrite flip_flip; set (X := rm_mul_v _ _); destruct X as [x y z]; apply v3_ext; cbn; ring|].
      rewrite H. destruct t as [x y z]. apply v3_ext; cbn; ring. }
    set (X := rm_mul_v M (flip t)) in *. destruct X as [x y z], t as [u v w]. injection F as F1 F2 F3.
    apply v3_ext; cbn; apply (Rmult_eq_reg_l b); auto; lra.
  - apply EQ in Z. rewrite Z, EV, rm_mul_v_scale. apply flip_inj.
    rewrite flip_scale, flip_mul.
    rewrite flip_scale, flip_flip. destruct H as [-> | ->]; apply v3_ext; cbn; ring.
Qed.
Print Assumptions C60_relative.
(** A rotation that turns a vector around is a half turn, so its matrix is symmetric. *)
Lemma half_turn S t : rotation S -> rm_mul_v S t = rv_neg t -> t <> rv0 ->
  cy (cx S) = cx (cy S) /\ cz (cx S) = cx (cz S) /\ cz (cy S) = cy (cz S).
Proof.
  intros HS HT NZ. destruct (rotation_rows S HS) as (E1&E2&E3). destruct HS as (HR&HC&_).
  set (w := V3 (cy (cz S) - cz (cy S)) (cz (cx S) - cx (cz S)) (cx (cy S) - cy (cx S))).
  assert (SW : rm_mul_v S w = w).
  { unfold w. clear - E1 E2 E3. destruct S as [[a1 a2 a3] [b1 b2 b3] [d1 d2 d3]]. unfold rcross, rm_mul_v, rdot in *. cbn [cx cy cz] in *.
    injection E1 as A1 A2 A3. injection E2 as B1 B2 B3. injection E3 as D1 D2 D3. apply v3_ext; cbn [cx cy cz]; lra. }
  assert (WT : rdot w t = 0).
  { pose proof (orthonormal_dot S w t HC) as D. rewrite SW, HT in D. unfold rdot in *. cbn in D. cbn. lra. }
  assert (ST : rm_mul_v (rm_trans S) t = rv_neg t).
  { assert (X : rm_mul_v (rm_trans S) (rm_mul_v S t) = t).
    { apply trans_mul; auto. }
    rewrite HT in X. clear - X. destruct (rm_trans S) as [[a1 a2 a3] [b1 b2 b3] [d1 d2 d3]], t as [x y z]. unfold rm_mul_v, rdot in *. cbn in *.
    injection X as X1 X2 X3. apply v3_ext; cbn; lra. }
  assert (CR : rcross w t = rv0).
  { clear - HT ST. unfold w. destruct S as [[a1 a2 a3] [b1 b2 b3] [d1 d2 d3]], t as [x y z]. unfold rm_mul_v, rm_trans, rdot in *. cbn in *.
    injection HT as X1 X2 X3. injection ST as Y1 Y2 Y3. unfold rcross. apply v3_ext; cbn; lra. }
  assert (TT : 0 < rdot t t). { pose proof (rnorm_pos t NZ). rewrite <- rnorm_sqr. nra. }
  assert (W0 : rdot w w * rdot t t = 0).
  { transitivity (rdot (rcross w t) (rcross w t) + rdot w t * rdot w t); [destruct w as [w1 w2 w3], t as [x y z]; unfold rdot, rcross; cbn; ring|].
    rewrite CR, WT. unfold rdot, rv0. cbn. ring. }
  assert (W : w = rv0). { apply rdot_self_0. apply Rmult_integral in W0. destruct W0; lra. }
  unfold w in W. pose proof (f_equal cx W) as W1. pose proof (f_equal cy W) as W2. pose proof (f_equal cz W) as W3. cbn in W1, W2, W3. splits; lra.
Qed.
(** So the relative pose is wrong unless the x axis of the second camera is opposite to that of the first. *)
Theorem C60_relative_only_if : forall on o1 m M tn t bn b o2, rep_opar on o1 -> repm m M -> rotation M -> cz (cz M) * cz (cz M) < 1 ->
  rep3 tn t -> rep bn b -> b <> 0 -> t <> rv0 -> rep_opar (snd (poses_from_correspondence on m tn bn)) o2 ->
  relative (first_pose o1) o2 M t b -> cx (cx M) = -1.
Proof.
  intros on o1 m M tn t bn b o2 Ho Hm HM L Ht Hb NB NT R2 HREL.
  destruct (C60_relative on o1 m M tn t bn b Ho Hm HM L Ht Hb) as (o2'&R2'&E).
  assert (o2' = o2) as ->.
  { destruct R2 as (A1&A2&A3&A4&A5&A6), R2' as (B1&B2&B3&B4&B5&B6). destruct o2, o2'. cbn in *. f_equal; eapply rep_inj; eauto. }
  apply E in HREL. destruct HREL as (Z&[K|K]); [contradiction|].
  set (S := V3 (flip (cx M)) (flip (cy M)) (flip (cz M))).
  assert (HS : rotation S).
  { clear - HM. unfold S. destruct M as [[a1 a2 a3] [b1 b2 b3] [d1 d2 d3]]. unfold rotation, orthonormal, rdet, flip, rm_trans, rdot, rcross in *. cbn in *.
    destruct HM as ((R1&R2&R3&R4&R5&R6)&(C1&C2&C3&C4&C5&C6)&D). splits; lra. }
  assert (HT : rm_mul_v S t = rv_neg t).
  { rewrite <- K. unfold S. destruct M as [[a1 a2 a3] [b1 b2 b3] [d1 d2 d3]], t as [x y z]. unfold rm_mul_v, rdot, flip. apply v3_ext; cbn; ring. }
  destruct (half_turn S t HS HT NT) as (S1&S2&S3). pose proof (rotation_rows S HS) as (E1&E2&E3). destruct HS as ((R1&R7&R3&R4&R5&R6)&_).
  unfold S in *. destruct M as [[a1 a2 a3] [b1 b2 b3] [d1 d2 d3]]. unfold flip, rdot, rcross in *. cbn [cx cy cz] in *. injection E1 as A1 A2 A3.
  subst d1. assert (a3 = 0) by lra. subst a3.
  assert (P : a2 * d2 = 0) by lra. apply Rmult_integral in P. destruct P as [P|P].
  - subst a2. assert (b1 = 0) by lra. subst b1. assert (Q : (a1 - 1) * (a1 + 1) = 0) by lra. apply Rmult_integral in Q. destruct Q as [Q|Q]; [|lra].
    exfalso. assert (a1 = 1) by lra. subst a1. assert (b3 = d2) by lra. subst b3. pose proof (Rle_0_sqr (b2 - d3)) as X. unfold Rsqr in X.
    assert (d2 * d2 <= 0) by lra. assert (d2 = 0) by nra. subst d2. lra.
  - subst d2. exfalso. nra.
Qed.
Print Assumptions C60_relative_only_if.

(** The view axis of the second camera is the true one mirrored. *)
Theorem C60_mirrored : forall on o1 o2 m M tn t bn b, rep_opar on o1 -> repm m M -> rotation M -> cz (cz M) * cz (cz M) < 1 ->
  rep3 tn t -> rep bn b -> relative (first_pose o1) o2 M t b ->
  exists o2', rep_opar (snd (poses_from_correspondence on m tn bn)) o2' /\
    let axis o := rv_neg (cz (camM o)) in axis o2' = V3 (- cx (axis o2)) (cy (axis o2)) (cz (axis o2)).
Proof.
  intros on o1 o2 m M tn t bn b Ho Hm HM L Ht Hb HR. destruct (C60_poses on o1 m M tn t bn b Ho Hm HM L Ht Hb) as (o2'&_&R2&_&_&E1&_).
  exists o2'. split; auto. cbv zeta. apply relative_iff in HR. destruct HR as (E&_). rewrite E, E1.
  destruct M as [[a1 a2 a3] [b1 b2 b3] [d1 d2 d3]]. apply v3_ext; cbn; ring.
Qed.
Print Assumptions C60_mirrored.

(** Two cameras side by side, with the same orientation: the exact answer of cv2 leads to two cameras for which no point of
    space is seen at the two pixels where the true cameras see a point. *)
Definition ex_left : opar R := OPar 10 0 0 0 0 0.
Definition ex_right : opar R := OPar 10 0 0 0 1 0.
Definition ex_found : opar R := OPar 10 0 360 180 (-1) 0.
Definition ident : m3 R := V3 (V3 1 0 0) (V3 0 1 0) (V3 0 0 1).
Lemma ex_left_right_coords x P : cam_coords (OPar 10 0 0 0 x 0) P = V3 (cx P - x) (cy P) (cz P - 10).
Proof.
  unfold cam_coords, camM; cbn [tilt_deg roll_deg heading_deg]. replace (rad 0) with 0 by (unfold rad; ring).
  apply v3_ext; cbv [rotm rm_mul_v rv_sub zip3v rdot opos pos_x_m pos_y_m elevation_m cx cy cz]; rewrite ?sin_0, ?cos_0; ring.
Qed.
Lemma ex_found_coords P : cam_coords ex_found P = V3 (- cx P - 1) (- cy P) (cz P - 10).
Proof.
  unfold cam_coords, camM; cbn [tilt_deg roll_deg heading_deg ex_found]. replace (rad 0) with 0 by (unfold rad; ring).
  replace (rad 180) with PI by (unfold rad; field). replace (rad 360) with (2 * PI) by (unfold rad; field).
  apply v3_ext; cbv [rotm rm_mul_v rv_sub zip3v rdot opos pos_x_m pos_y_m elevation_m ex_found cx cy cz]; rewrite ?sin_0, ?cos_0, ?sin_2PI, ?cos_2PI, ?sin_PI, ?cos_PI; ring.
Qed.
Lemma ex_relative : relative (first_pose ex_left) ex_right ident (V3 (-1) 0 0) 1.
Proof.
  intros P. unfold cv_coords. rewrite first_coords. unfold ex_right. rewrite ex_left_right_coords. destruct P as [x y z].
  apply v3_ext; cbn; unfold rdot; cbn; ring.
Qed.
Lemma atan2_negzero : natan2 (Fin 0) (- Fin 0)%num = Fin PI.
Proof.
  assert (L : Rltb 0 0 = false) by (apply Rltb_false; lra). assert (E : (- Fin 0)%num = NegZ).
  { unfold nneg. cbn [look]. rewrite L. unfold mk. replace (- 0) with 0 by ring. rewrite Reqb_refl. reflexivity. }
  rewrite E. unfold natan2. cbn [look]. rewrite L, Reqb_refl. reflexivity.
Qed.
Lemma atan2_zero : natan2 (Fin 0) (Fin 0) = Fin 0.
Proof.
  assert (L : Rltb 0 0 = false) by (apply Rltb_false; lra). unfold natan2. cbn [look]. rewrite L, Reqb_refl. unfold mk. rewrite Reqb_refl. reflexivity.
Qed.
Lemma ex_poses : rep_opar (fst (poses_from_correspondence (opar_fin ex_left) (fin_m ident) (fin3 (V3 (-1) 0 0)) (Fin 1))) ex_left /\
  rep_opar (snd (poses_from_correspondence (opar_fin ex_left) (fin_m ident) (fin3 (V3 (-1) 0 0)) (Fin 1))) ex_found.
Proof.
  pose proof PI_RGT_0. unfold poses_from_correspondence, rotationToEuler, ex_left, ex_found. cbn [fst snd opar_fin fin_m ident fin3 map3v cx cy cz].
  unfold rep_opar. cbn [elevation_m tilt_deg roll_deg heading_deg pos_x_m pos_y_m]. splits; try apply rep_Fin.
  - eapply rep_eq; [apply rep_add; [apply rep_Fin|apply rep_mul; apply rep_Fin]|]. cbn. lra.
  - eapply rep_eq; [apply rep_rad2deg, rep_acos; [apply rep_Fin|lra]|]. rewrite acos_1. ring.
  - eapply rep_eq; [apply rep_add; [apply rep_Fin|apply rep_rad2deg]|].
    + instantiate (1 := PI). rewrite atan2_negzero. apply rep_Fin.
    + field. lra.
  - eapply rep_eq; [apply rep_add; [apply rep_Fin|apply rep_rad2deg]|].
    + instantiate (1 := 0). rewrite atan2_zero. apply rep_Fin.
    + ring.
  - eapply rep_eq; [apply rep_add; [apply rep_Fin|apply rep_mul; apply rep_Fin]|]. cbn. lra.
  - eapply rep_eq; [apply rep_add; [apply rep_Fin|apply rep_mul; apply rep_Fin]|]. cbn. lra.
Qed.

Lemma ex_cam_o o : exists c, plain_cam c Rectilinear ex_r o.
Proof.
  assert (H : rep_opar (opar_fin o) o) by (repeat split). destruct (init_rigid _ _ H) as (m&E&_).
  exists (plain_camera Rectilinear (proj_fin ex_r) m), (proj_fin ex_r), m. splits; eauto; [repeat split|split; cbn; lra].
Qed.
Lemma pixel_direction c o p P Q : plain_cam c Rectilinear ex_r o -> rep3 p P -> showable Rectilinear (cam_coords o P) ->
  rep2 (imageFromSpace c p true) Q -> posmul (cam_coords o P) (rayR Rectilinear ex_r Q).
Proof.
  intros HC Hp HS HQ. destruct (plain_good _ _ _ _ HC) as (HG&HK&HDi&HU).
  destruct (ifs_spec c ex_r (camM o) (opos o) p P true HG Hp) as (x&Q1&Ex&Rx&_&_&(l&Hl&E)). { rewrite HK; exact HS. }
  rewrite Ex, HDi in HQ. rewrite (rep2_inj _ _ _ HQ Rx). exists l. split; auto. unfold cam_coords. rewrite E, rm_mul_v_scale. f_equal.
  destruct HG as (_&_&HR). rewrite (dirW_back c ex_r (camM o) (opos o) Q1 _ HR). rewrite HK. reflexivity.
Qed.
Theorem C60_pixels_refuted : exists o1 o2 m M tn t c1 c2 c1' c2' o2' p P Q1 Q2,
  repm m M /\ rotation M /\ rep3 tn t /\ rnorm t = 1 /\ relative (first_pose o1) o2 M t 1 /\ first_pose o1 = o1 /\
  plain_cam c1 Rectilinear ex_r o1 /\ plain_cam c2 Rectilinear ex_r o2 /\ rep3 p P /\
  rep2 (imageFromSpace c1 p true) Q1 /\ rep2 (imageFromSpace c2 p true) Q2 /\
  rep_opar (fst (poses_from_correspondence (opar_fin o1) m tn (Fin 1))) o1 /\
  rep_opar (snd (poses_from_correspondence (opar_fin o1) m tn (Fin 1))) o2' /\
  plain_cam c1' Rectilinear ex_r o1 /\ plain_cam c2' Rectilinear ex_r o2' /\
  forall p' P', rep3 p' P' -> showable Rectilinear (cam_coords o1 P') -> showable Rectilinear (cam_coords o2' P') ->
    rep2 (imageFromSpace c1' p' true) Q1 -> rep2 (imageFromSpace c2' p' true) Q2 -> False.
Proof.
  destruct (ex_cam_o ex_left) as (a&HA), (ex_cam_o ex_right) as (b&HB), (ex_cam_o ex_found) as (b'&HB'). destruct ex_poses as (F1&F2).
  exists ex_left, ex_right, (fin_m ident), ident, (fin3 (V3 (-1) 0 0)), (V3 (-1) 0 0), a, b, a, b', ex_found, (fin3 (V3 0 1 0)), (V3 0 1 0), (V2 2000 1150), (V2 1650 1150).
  splits; auto using rep3_fin, ex_relative.
  - repeat split.
  - unfold rotation, orthonormal, rdet, rm_trans, rdot, rcross, ident. cbn. splits; ring.
  - unfold rnorm, rdot. cbn. replace (-1 * -1 + 0 * 0 + 0 * 0) with 1 by ring. apply sqrt_1.
  - apply (image_dir a Rectilinear ex_r ex_left _ (V3 0 1 0)); auto using rep3_fin; unfold ex_left; rewrite ?ex_left_right_coords; cbn [cx cy cz].
    + split; cbn [cz]; [rewrite Rabs_left; unfold tinyR; lra|lra].
    + exact I.
    + exists 10; split; [lra|]. apply v3_ext; cbn; unfold alphaR, betaR; cbn; field.
  - apply (image_dir b Rectilinear ex_r ex_right _ (V3 0 1 0)); auto using rep3_fin; unfold ex_right; rewrite ?ex_left_right_coords; cbn [cx cy cz].
    + split; cbn [cz]; [rewrite Rabs_left; unfold tinyR; lra|lra].
    + exact I.
    + exists 10; split; [lra|]. apply v3_ext; cbn; unfold alphaR, betaR; cbn; field.
  - intros p' P' Hp S1 S2 I1 I2. destruct (pixel_direction _ _ _ _ _ HA Hp S1 I1) as (k&Hk&E1). destruct (pixel_direction _ _ _ _ _ HB' Hp S2 I2) as (l&Hl&E2).
    unfold ex_left in E1. rewrite ex_left_right_coords in E1. rewrite ex_found_coords in E2.
    apply (f_equal cy) in E1. apply (f_equal cy) in E2. cbn in E1, E2. unfold betaR in E1, E2. cbn in E1, E2. lra.
Qed.
Print Assumptions C60_pixels_refuted.

(** The hypotheses of the theorems: a second camera that looks at the horizon. *)
Example C60_example : exists M t o2', rotation M /\ cz (cz M) * cz (cz M) < 1 /\ rnorm t = 1 /\
  rep_opar (snd (poses_from_correspondence (opar_fin ex_left) (fin_m M) (fin3 t) (Fin 1))) o2' /\ ~ relative (first_pose ex_left) o2' M t 1.
Proof.
  set (M := V3 (V3 1 0 0) (V3 0 0 1) (V3 0 (-1) 0)). set (t := V3 0 1 0).
  assert (HM : rotation M) by (unfold rotation, orthonormal, rdet, rm_trans, rdot, rcross, M; cbn; splits; ring).
  assert (L : cz (cz M) * cz (cz M) < 1) by (cbn; lra). assert (Ho : rep_opar (opar_fin ex_left) ex_left) by (repeat split).
  destruct (C60_relative (opar_fin ex_left) ex_left (fin_m M) M (fin3 t) t (Fin 1) 1) as (o2&R2&_); auto using rep3_fin, rep_Fin; [repeat split|].
  exists M, t, o2. splits; auto.
  - unfold t, rnorm, rdot. cbn. replace (0 * 0 + 1 * 1 + 0 * 0) with 1 by ring. apply sqrt_1.
  - intros H. assert (cx (cx M) = -1); [|cbn in *; lra].
    apply (C60_relative_only_if (opar_fin ex_left) ex_left (fin_m M) M (fin3 t) t (Fin 1) 1 o2); auto using rep3_fin, rep_Fin, R1_neq_R0; [repeat split|].
    intros E. apply (f_equal cy) in E. cbn in E. lra.
Qed.
