(** * C01-C05: the orientation of the camera *)
Require Import Reals Lra Psatz Bool ZArith.
From Verif Require Import Num Vec Orientation OrientationFacts.
Open Scope R_scope.

(** A concrete camera used in the examples: 10 m high, tilt 80, roll 7, heading 30. *)
Definition ex_o : opar R := OPar 10 80 7 30 3 4.
Lemma ex_o_rep : rep_opar (opar_fin ex_o) ex_o.
Proof. repeat split. Qed.

(** Specification of a rigid motion of R^3 given as a relation between floats: distances,
    angles (dot products of differences) and signed volumes (handedness) are preserved. *)
Definition is_rigid_motion (f : v3 num -> v3 num) : Prop :=
  forall a b c d A B C D, rep3 a A -> rep3 b B -> rep3 c C -> rep3 d D ->
  exists A' B' C' D',
    rep3 (f a) A' /\ rep3 (f b) B' /\ rep3 (f c) C' /\ rep3 (f d) D' /\
    rdist A' B' = rdist A B /\
    rdot (rv_sub B' A') (rv_sub C' A') = rdot (rv_sub B A) (rv_sub C A) /\
    triple (rv_sub B' A') (rv_sub C' A') (rv_sub D' A')
      = triple (rv_sub B A) (rv_sub C A) (rv_sub D A).

Lemma rigid_pos_origin m M T p : rigid m M T -> rep3 p T -> rep3 (cameraFromSpace m p) rv0.
Proof.
  intros H Hp. eapply rep3_eq; [eapply rigid_camera; eauto|].
  apply v3_ext; cbv [rm_mul_v rv_sub zip3v rdot rv0 cx cy cz]; ring.
Qed.

(** C01 for SpatialOrientation: construction never raises LinAlgError, and
    cameraFromSpace is a rigid motion mapping the camera position to the origin. *)
Theorem C01_orientation_rigid : forall o r, rep_opar o r ->
  exists m, init_matrix o = Some m /\ is_rigid_motion (cameraFromSpace m) /\
    forall p, rep3 p (opos r) -> rep3 (cameraFromSpace m p) rv0.
Proof.
  intros o r H; destruct (init_rigid _ _ H) as (m&E&Hr).
  exists m; split; [auto|]; split.
  - exact (rigid_motion _ _ _ Hr).
  - intros; eapply rigid_pos_origin; eauto.
Qed.
Print Assumptions C01_orientation_rigid.

Theorem C01_ypr_rigid : forall o r, rep_ypar o r ->
  exists m, init_matrix_ypr o = Some m /\ is_rigid_motion (cameraFromSpace m) /\
    forall p, rep3 p (ypos r) -> rep3 (cameraFromSpace m p) rv0.
Proof.
  intros o r H; destruct (init_ypr_rigid _ _ H) as (m&E&Hr).
  exists m; split; [auto|]; split.
  - exact (rigid_motion _ _ _ Hr).
  - intros; eapply rigid_pos_origin; eauto.
Qed.
Print Assumptions C01_ypr_rigid.
Example C01_ypr_rigid_example : exists m, init_matrix_ypr (ypar_fin (YPar 10 30 5 (-10) 1 2)) = Some m /\
  is_rigid_motion (cameraFromSpace m) /\ rep3 (cameraFromSpace m (fin3 (V3 1 2 10))) rv0.
Proof.
  destruct (C01_ypr_rigid (ypar_fin (YPar 10 30 5 (-10) 1 2)) (YPar 10 30 5 (-10) 1 2)) as (m&E&K&L); [repeat split|].
  exists m. split; [exact E|]. split; [exact K|]. apply L. repeat split.
Qed.

Example C01_example : exists m, init_matrix (opar_fin ex_o) = Some m /\
  is_rigid_motion (cameraFromSpace m).
Proof. destruct (C01_orientation_rigid _ _ ex_o_rep) as (m&?&?&_); eauto. Qed.

(** Non-finite angles are outside C01: e.g. an infinite tilt gives NaN coordinates for
    every point (and no exception). *)
Theorem C01_infinite_tilt_nan : forall o r, rep_opar o r ->
  exists m, init_matrix {| elevation_m := elevation_m o; tilt_deg := PInf; roll_deg := roll_deg o;
     heading_deg := heading_deg o; pos_x_m := pos_x_m o; pos_y_m := pos_y_m o |} = Some m /\
   forall p, cz (cameraFromSpace m p) = NaN.
Proof.
  intros o r (_&_&Hr&Hh&_).
  destruct (wrap_heading_spec _ _ Hh) as (b&Hb&_).
  pose proof (rep_deg2rad _ _ Hr) as Hr'. pose proof (rep_deg2rad _ _ Hb) as Hb'.
  unfold init_matrix, build_matrix; cbn [elevation_m tilt_deg roll_deg heading_deg pos_x_m pos_y_m].
  assert (T : ndeg2rad PInf = PInf).
  { unfold ndeg2rad, nmul; simpl. rewrite Reqb_false, Rltb_false; auto.
    - pose proof PI_RGT_0; lra. - pose proof PI_RGT_0; lra. }
  rewrite T. set (rr := nm_mul _ _).
  assert (Z : cx (cz rr) = NaN /\ cy (cz rr) = NaN /\ cz (cz rr) = NaN).
  { unfold rr; cbv [nm_mul map3v nm_trans nv_dot mat_roll mat_tilt mat_head cx cy cz].
    change (nsin PInf) with NaN; change (ncos PInf) with NaN.
    repeat split; rewrite ?nneg_NaN, ?nmul_NaN_l, ?nmul_NaN_r;
     rewrite ?nadd_NaN_l, ?nadd_NaN_r, ?nmul_NaN_l, ?nmul_NaN_r, ?nadd_NaN_l, ?nadd_NaN_r;
     reflexivity. }
  destruct Z as (Z1&Z2&Z3).
  assert (D : nv_dot (cx rr) (nv_cross (cy rr) (cz rr)) = NaN).
  { cbv [nv_dot nv_cross cx cy cz]. fold (cx rr) (cy rr) (cz rr).
    change (match rr with {| cz := c |} => c end) with (cz rr).
    destruct (cz rr) as [u v w]; cbn [cx cy cz] in *; subst u v w.
    rewrite ?nmul_NaN_r, ?nmul_NaN_l, ?nsub_NaN_l, ?nmul_NaN_r, ?nadd_NaN_r; reflexivity. }
  unfold inv3; rewrite D. change (neqb NaN (Fin 0)) with false; cbv iota.
  eexists; split; [reflexivity|].
  intros p. unfold cameraFromSpace; cbn [om_R om_t nm_mul_v cz].
  unfold nv_dot; rewrite Z1, Z2, Z3, !nmul_NaN_r; reflexivity.
Qed.
Print Assumptions C01_infinite_tilt_nan.
Example C01_infinite_tilt_nan_example : exists m, init_matrix (OPar (Fin 10) PInf (Fin 7) (Fin 30) (Fin 3) (Fin 4)) = Some m /\
  cz (cameraFromSpace m (fin3 (V3 1 20 0))) = NaN.
Proof. destruct (C01_infinite_tilt_nan _ _ ex_o_rep) as (m&E&K). exists m. split; [exact E|apply K]. Qed.

(** C02 *)
Theorem C02_space_camera_round_trip : forall o r m, rep_opar o r -> init_matrix o = Some m ->
  forall p P, rep3 p P ->
    rep3 (spaceFromCamera m (cameraFromSpace m p) false) P /\
    rep3 (cameraFromSpace m (spaceFromCamera m p false)) P /\
    (* directions: difference of the images of the end points, and no translation *)
    (forall q Q D E F, rep3 q Q ->
       rep3 (spaceFromCamera m q false) E -> rep3 (spaceFromCamera m p false) F ->
       rep3 (spaceFromCamera m (nv_sub p q) true) D -> D = rv_sub F E) /\
    exists D, rep3 (spaceFromCamera m p true) D /\ rnorm D = rnorm P.
Proof.
  intros o r m H E p P Hp. destruct (init_rigid _ _ H) as (m'&E'&Hr).
  assert (m' = m) by congruence; subst m'; clear E E'.
  pose proof Hr as Hr'. destruct Hr as (HT&HM&HI&HO&HO'&HD).
  splits.
  - eapply rep3_eq; [eapply rigid_space; [eassumption|eapply rigid_camera; eassumption]|].
    rewrite trans_mul; auto. apply v3_ext; simpl; ring.
  - eapply rep3_eq; [eapply rigid_camera; [eassumption|eapply rigid_space; eassumption]|].
    rewrite <- (mul_trans _ P HO) at 2. f_equal. apply v3_ext; simpl; ring.
  - intros q Q D E F Hq HE HF HDir.
    rewrite (rep3_inj _ _ _ HDir (rigid_space_dir _ _ _ _ _ Hr' (rep3_sub _ _ _ _ Hp Hq))).
    rewrite (rep3_inj _ _ _ HE (rigid_space _ _ _ _ _ Hr' Hq)).
    rewrite (rep3_inj _ _ _ HF (rigid_space _ _ _ _ _ Hr' Hp)).
    rewrite rm_mul_v_sub. apply v3_ext; simpl; ring.
  - eexists; split; [eapply rigid_space_dir; eassumption|].
    unfold rnorm; rewrite orthonormal_dot; auto.
Qed.
Print Assumptions C02_space_camera_round_trip.

Theorem C02_ypr_round_trip : forall o r m, rep_ypar o r -> init_matrix_ypr o = Some m ->
  forall p P, rep3 p P ->
    rep3 (spaceFromCamera m (cameraFromSpace m p) false) P /\
    rep3 (cameraFromSpace m (spaceFromCamera m p false)) P.
Proof.
  intros o r m H E p P Hp. destruct (init_ypr_rigid _ _ H) as (m'&E'&Hr).
  assert (m' = m) by congruence; subst m'; clear E E'.
  pose proof Hr as Hr'. destruct Hr as (HT&HM&HI&HO&HO'&HD). split.
  - eapply rep3_eq; [eapply rigid_space; [eassumption|eapply rigid_camera; eassumption]|].
    rewrite trans_mul; auto. apply v3_ext; simpl; ring.
  - eapply rep3_eq; [eapply rigid_camera; [eassumption|eapply rigid_space; eassumption]|].
    rewrite <- (mul_trans _ P HO) at 2. f_equal. apply v3_ext; simpl; ring.
Qed.
Print Assumptions C02_ypr_round_trip.
Example C02_ypr_round_trip_example : exists m, init_matrix_ypr (ypar_fin (YPar 10 30 5 (-10) 1 2)) = Some m /\
  rep3 (spaceFromCamera m (cameraFromSpace m (fin3 (V3 1 20 0))) false) (V3 1 20 0).
Proof.
  assert (H : rep_ypar (ypar_fin (YPar 10 30 5 (-10) 1 2)) (YPar 10 30 5 (-10) 1 2)) by (repeat split).
  destruct (init_ypr_rigid _ _ H) as (m&E&_). exists m; split; auto.
  destruct (C02_ypr_round_trip _ _ _ H E _ _ (rep3_fin (V3 1 20 0))) as (K&_). exact K.
Qed.

Example C02_example : exists m, init_matrix (opar_fin ex_o) = Some m /\
  rep3 (spaceFromCamera m (cameraFromSpace m (fin3 (V3 1 20 0))) false) (V3 1 20 0).
Proof.
  destruct (init_rigid _ _ ex_o_rep) as (m&E&_). exists m; split; auto.
  destruct (C02_space_camera_round_trip _ _ _ ex_o_rep E _ _ (rep3_fin (V3 1 20 0))) as (K&_). exact K.
Qed.

(** C03: the documented meaning of the angles; [rad] converts degrees to radians. *)
Theorem C03_optical_axis : forall o r m, rep_opar o r -> init_matrix o = Some m ->
  forall p, rep3 p (V3 0 0 (-1)) ->
  rep3 (spaceFromCamera m p true)
    (V3 (sin (rad (tilt_deg r)) * sin (rad (heading_deg r)))
        (sin (rad (tilt_deg r)) * cos (rad (heading_deg r)))
        (- cos (rad (tilt_deg r)))).
Proof.
  intros o r m H E p Hp. destruct (init_rigid _ _ H) as (m'&E'&Hr).
  assert (m' = m) by congruence; subst m'.
  eapply rep3_eq; [eapply rigid_space_dir; eassumption|].
  apply v3_ext; cbv [rm_mul_v rm_trans rotm rdot cx cy cz]; ring.
Qed.
Print Assumptions C03_optical_axis.
(** tilt 60, heading 90: east, 30 degrees below the horizon *)
Example C03_optical_axis_example : exists m, init_matrix (opar_fin (OPar 10 60 7 90 3 4)) = Some m /\
  rep3 (spaceFromCamera m (V3 (Fin 0) (Fin 0) (Fin (-1))) true) (V3 (sqrt 3 / 2) 0 (- (1 / 2))).
Proof.
  assert (H : rep_opar (opar_fin (OPar 10 60 7 90 3 4)) (OPar 10 60 7 90 3 4)) by (repeat split).
  destruct (init_rigid _ _ H) as (m&E&_). exists m; split; auto.
  eapply rep3_eq; [apply (C03_optical_axis _ _ _ H E); repeat split|]. cbn [tilt_deg heading_deg].
  replace (rad 60) with (PI / 3) by (unfold rad; field). replace (rad 90) with (PI / 2) by (unfold rad; field).
  rewrite sin_PI3, cos_PI3, sin_PI2, cos_PI2. f_equal; ring.
Qed.

(** The right and up directions of the image at roll 0. *)
Theorem C03_image_axes : forall o r m, rep_opar o r -> init_matrix o = Some m ->
  roll_deg r = 0 ->
  forall p q, rep3 p (V3 1 0 0) -> rep3 q (V3 0 1 0) ->
  rep3 (spaceFromCamera m p true) (V3 (cos (rad (heading_deg r))) (- sin (rad (heading_deg r))) 0) /\
  rep3 (spaceFromCamera m q true)
    (V3 (cos (rad (tilt_deg r)) * sin (rad (heading_deg r)))
        (cos (rad (tilt_deg r)) * cos (rad (heading_deg r))) (sin (rad (tilt_deg r)))).
Proof.
  intros o r m H E Hroll p q Hp Hq. destruct (init_rigid _ _ H) as (m'&E'&Hr).
  assert (m' = m) by congruence; subst m'. rewrite Hroll in Hr.
  assert (Z : rad 0 = 0) by (unfold rad; ring). rewrite Z in Hr.
  split; (eapply rep3_eq; [eapply rigid_space_dir; eassumption|]);
  apply v3_ext; cbv [rm_mul_v rm_trans rotm rdot cx cy cz]; rewrite sin_0, cos_0; ring.
Qed.
Print Assumptions C03_image_axes.
Example C03_image_axes_example : exists m, init_matrix (opar_fin (OPar 10 60 0 90 3 4)) = Some m /\
  rep3 (spaceFromCamera m (fin3 (V3 1 0 0)) true) (V3 0 (-1) 0) /\ rep3 (spaceFromCamera m (fin3 (V3 0 1 0)) true) (V3 (1 / 2) 0 (sqrt 3 / 2)).
Proof.
  assert (H : rep_opar (opar_fin (OPar 10 60 0 90 3 4)) (OPar 10 60 0 90 3 4)) by (repeat split).
  destruct (init_rigid _ _ H) as (m&E&_). exists m; split; auto.
  destruct (C03_image_axes _ _ _ H E eq_refl _ _ (rep3_fin (V3 1 0 0)) (rep3_fin (V3 0 1 0))) as (K1&K2). cbn [tilt_deg heading_deg] in K1, K2.
  replace (rad 60) with (PI / 3) in K2 by (unfold rad; field). replace (rad 90) with (PI / 2) in K1, K2 by (unfold rad; field).
  rewrite ?sin_PI3, ?cos_PI3, ?sin_PI2, ?cos_PI2 in K1, K2.
  split; (eapply rep3_eq; [eassumption|]); rewrite ?sin_PI3, ?cos_PI3, ?sin_PI2, ?cos_PI2; f_equal; ring.
Qed.

(** Rolling turns the camera coordinates by the roll angle around the optical axis. *)
Theorem C03_roll_turns_image : forall o r m o0 r0 m0,
  rep_opar o r -> rep_opar o0 r0 -> init_matrix o = Some m -> init_matrix o0 = Some m0 ->
  r0 = {| elevation_m := elevation_m r; tilt_deg := tilt_deg r; roll_deg := 0;
          heading_deg := heading_deg r; pos_x_m := pos_x_m r; pos_y_m := pos_y_m r |} ->
  forall p P, rep3 p P -> exists x y z, rep3 (cameraFromSpace m0 p) (V3 x y z) /\
    rep3 (cameraFromSpace m p)
      (V3 (cos (rad (roll_deg r)) * x + sin (rad (roll_deg r)) * y)
          (- sin (rad (roll_deg r)) * x + cos (rad (roll_deg r)) * y) z).
Proof.
  intros o r m o0 r0 m0 H H0 E E0 Er p P Hp.
  destruct (init_rigid _ _ H) as (m'&E'&Hr). destruct (init_rigid _ _ H0) as (m0'&E0'&Hr0).
  assert (m' = m) by congruence; assert (m0' = m0) by congruence; subst m' m0' r0.
  do 3 eexists; split.
  - eapply rep3_eq; [eapply rigid_camera; eassumption|]. apply v3_ext; cbn [cx cy cz]; reflexivity.
  - eapply rep3_eq; [eapply rigid_camera; eassumption|].
    cbn [roll_deg tilt_deg heading_deg].
    assert (Z : rad 0 = 0) by (unfold rad; ring). rewrite Z.
    apply v3_ext; cbv [rm_mul_v rm_trans rotm rdot opos pos_x_m pos_y_m elevation_m cx cy cz];
      rewrite ?sin_0, ?cos_0; ring.
Qed.
Print Assumptions C03_roll_turns_image.
(** rolled by 90 degrees: what was above is to the right *)
Example C03_roll_turns_image_example : exists m m0, init_matrix (opar_fin (OPar 10 60 90 30 3 4)) = Some m /\
  init_matrix (opar_fin (OPar 10 60 0 30 3 4)) = Some m0 /\
  forall p P, rep3 p P -> exists x y z, rep3 (cameraFromSpace m0 p) (V3 x y z) /\ rep3 (cameraFromSpace m p) (V3 y (- x) z).
Proof.
  assert (H : rep_opar (opar_fin (OPar 10 60 90 30 3 4)) (OPar 10 60 90 30 3 4)) by (repeat split).
  assert (H0 : rep_opar (opar_fin (OPar 10 60 0 30 3 4)) (OPar 10 60 0 30 3 4)) by (repeat split).
  destruct (init_rigid _ _ H) as (m&E&_). destruct (init_rigid _ _ H0) as (m0&E0&_). exists m, m0; split; auto. split; auto. intros p P Hp.
  destruct (C03_roll_turns_image _ _ _ _ _ _ H H0 E E0 eq_refl p P Hp) as (x&y&z&K0&K). exists x, y, z. split; [exact K0|].
  eapply rep3_eq; [exact K|]. cbn [roll_deg]. replace (rad 90) with (PI / 2) by (unfold rad; field). rewrite sin_PI2, cos_PI2. f_equal; ring.
Qed.

(** The four documented special cases. *)
Lemma rad_90 : rad 90 = PI / 2. Proof. unfold rad; field. Qed.
Lemma rad_180 : rad 180 = PI. Proof. unfold rad; field. Qed.
Lemma rad_0 : rad 0 = 0. Proof. unfold rad; ring. Qed.
Theorem C03_documented_directions : forall o r m, rep_opar o r -> init_matrix o = Some m ->
  let axis := spaceFromCamera m (V3 (Fin 0) (Fin 0) (Fin (-1))) true in
  (tilt_deg r = 90 -> heading_deg r = 0 -> rep3 axis (V3 0 1 0)) /\
  (tilt_deg r = 90 -> heading_deg r = 90 -> rep3 axis (V3 1 0 0)) /\
  (tilt_deg r = 0 -> rep3 axis (V3 0 0 (-1))) /\
  (tilt_deg r = 180 -> rep3 axis (V3 0 0 1)).
Proof.
  intros o r m H E axis.
  pose proof (C03_optical_axis o r m H E (V3 (Fin 0) (Fin 0) (Fin (-1)))
    ltac:(repeat split)) as HA. fold axis in HA.
  repeat split; intros; (eapply rep_eq; [apply HA|]); cbn [cx cy cz];
    repeat match goal with H : _ = _ :> R |- _ => rewrite H end;
    rewrite ?rad_90, ?rad_180, ?rad_0, ?sin_PI2, ?cos_PI2, ?sin_0, ?cos_0, ?sin_PI, ?cos_PI; ring.
Qed.
Print Assumptions C03_documented_directions.

Example C03_example : exists m, init_matrix (opar_fin (OPar 10 90 0 90 3 4)) = Some m /\
  rep3 (spaceFromCamera m (V3 (Fin 0) (Fin 0) (Fin (-1))) true) (V3 1 0 0).
Proof.
  assert (H : rep_opar (opar_fin (OPar 10 90 0 90 3 4)) (OPar 10 90 0 90 3 4)) by (repeat split).
  destruct (init_rigid _ _ H) as (m&E&_). exists m; split; auto.
  apply (C03_documented_directions _ _ _ H E); reflexivity.
Qed.

(** C04, numeric part: the normalised heading. (That every assignment performs the
    normalisation, and that it terminates, is in PropParam.v.) *)
Theorem C04_wrap_heading : forall h a, rep h a ->
  exists b, rep (wrap_heading h) b /\ -360 <= b <= 360 /\
   (exists k : Z, b = a + 360 * IZR k) /\
   (-360 <= a <= 360 -> b = a) /\ ((a < -360 \/ 360 < a) -> 0 <= b < 360) /\
   (* a second normalisation changes nothing *)
   wrap_heading (wrap_heading h) = wrap_heading h.
Proof.
  intros h a H. destruct (wrap_heading_spec _ _ H) as (b&Hb&K&D).
  exists b; split; auto. repeat split; auto; try (destruct D; lra).
  unfold wrap_heading at 1.
  rewrite (rep_ltb _ _ _ _ Hb (rep_Fin _)), (rep_ltb _ _ _ _ (rep_Fin _) Hb).
  rewrite !Rltb_false; auto; destruct D; lra.
Qed.
Print Assumptions C04_wrap_heading.

(** Cameras that differ by full turns of the heading transform identically. *)
Theorem C04_congruent_headings : forall o1 r1 o2 r2 m1 m2 (k : Z),
  rep_opar o1 r1 -> rep_opar o2 r2 -> init_matrix o1 = Some m1 -> init_matrix o2 = Some m2 ->
  r2 = {| elevation_m := elevation_m r1; tilt_deg := tilt_deg r1; roll_deg := roll_deg r1;
          heading_deg := heading_deg r1 + 360 * IZR k; pos_x_m := pos_x_m r1; pos_y_m := pos_y_m r1 |} ->
  forall p P, rep3 p P ->
   (exists Q, rep3 (cameraFromSpace m1 p) Q /\ rep3 (cameraFromSpace m2 p) Q) /\
   (exists Q, rep3 (spaceFromCamera m1 p false) Q /\ rep3 (spaceFromCamera m2 p false) Q) /\
   (exists Q, rep3 (spaceFromCamera m1 p true) Q /\ rep3 (spaceFromCamera m2 p true) Q).
Proof.
  intros o1 r1 o2 r2 m1 m2 k H1 H2 E1 E2 Er p P Hp.
  destruct (init_rigid _ _ H1) as (m1'&E1'&R1). destruct (init_rigid _ _ H2) as (m2'&E2'&R2).
  assert (m1' = m1) by congruence; assert (m2' = m2) by congruence; subst m1' m2' r2.
  cbn [tilt_deg roll_deg heading_deg] in R2.
  rewrite (rotm_h_period _ _ _ _ k eq_refl) in R2.
  repeat split; eexists; split;
   try (eapply rigid_camera; eassumption);
   try (eapply rigid_space; eassumption); try (eapply rigid_space_dir; eassumption).
Qed.
Print Assumptions C04_congruent_headings.
Example C04_congruent_headings_example : exists m1 m2, init_matrix (opar_fin (OPar 10 80 7 (-90) 3 4)) = Some m1 /\
  init_matrix (opar_fin (OPar 10 80 7 270 3 4)) = Some m2 /\
  exists Q, rep3 (cameraFromSpace m1 (fin3 (V3 1 20 0))) Q /\ rep3 (cameraFromSpace m2 (fin3 (V3 1 20 0))) Q.
Proof.
  assert (H1 : rep_opar (opar_fin (OPar 10 80 7 (-90) 3 4)) (OPar 10 80 7 (-90) 3 4)) by (repeat split).
  assert (H2 : rep_opar (opar_fin (OPar 10 80 7 270 3 4)) (OPar 10 80 7 270 3 4)) by (repeat split).
  destruct (init_rigid _ _ H1) as (m1&E1&_). destruct (init_rigid _ _ H2) as (m2&E2&_). exists m1, m2; split; auto. split; auto.
  apply (C04_congruent_headings _ _ _ _ _ _ 1%Z H1 H2 E1 E2) with (P := V3 1 20 0); [cbn [elevation_m tilt_deg roll_deg heading_deg pos_x_m pos_y_m]; f_equal; lra|apply rep3_fin].
Qed.

Example C04_example : rep (wrap_heading (Fin 725)) 5 /\ rep (wrap_heading (Fin (-400))) 320.
Proof.
  split.
  - destruct (C04_wrap_heading (Fin 725) 725 (rep_Fin _)) as (b&Hb&_&(k&Ek)&_&B&_).
    eapply rep_eq; [exact Hb|]. specialize (B ltac:(lra)).
    assert (L : (-3 < k < -1)%Z). { split; apply lt_IZR; lra. }
    assert (k = -2)%Z by lia. subst k. lra.
  - destruct (C04_wrap_heading (Fin (-400)) (-400) (rep_Fin _)) as (b&Hb&_&(k&Ek)&_&B&_).
    eapply rep_eq; [exact Hb|]. specialize (B ltac:(lra)).
    assert (L : (1 < k < 3)%Z). { split; apply lt_IZR; lra. }
    assert (k = 2)%Z by lia. subst k. lra.
Qed.

(** C05 *)
Theorem C05_ypr_same_family : forall y ry o ro my mo,
  rep_ypar y ry -> rep_opar o ro -> init_matrix_ypr y = Some my -> init_matrix o = Some mo ->
  ro = {| elevation_m := y_elevation_m ry; tilt_deg := 90 + pitch_deg ry; roll_deg := - y_roll_deg ry;
          heading_deg := yaw_deg ry; pos_x_m := y_pos_x_m ry; pos_y_m := y_pos_y_m ry |} ->
  forall p P, rep3 p P ->
   (exists Q, rep3 (cameraFromSpace my p) Q /\ rep3 (cameraFromSpace mo p) Q) /\
   (exists Q, rep3 (spaceFromCamera my p false) Q /\ rep3 (spaceFromCamera mo p false) Q) /\
   (exists Q, rep3 (spaceFromCamera my p true) Q /\ rep3 (spaceFromCamera mo p true) Q).
Proof.
  intros y ry o ro my mo Hy Ho Ey Eo Er p P Hp.
  destruct (init_ypr_rigid _ _ Hy) as (my'&Ey'&Ry). destruct (init_rigid _ _ Ho) as (mo'&Eo'&Ro).
  assert (my' = my) by congruence; assert (mo' = mo) by congruence; subst my' mo' ro.
  cbn [tilt_deg roll_deg heading_deg] in Ro.
  repeat split; eexists; split;
   try (eapply rigid_camera; eassumption);
   try (eapply rigid_space; eassumption); try (eapply rigid_space_dir; eassumption).
Qed.
Print Assumptions C05_ypr_same_family.
Example C05_ypr_same_family_example : exists my mo, init_matrix_ypr (ypar_fin (YPar 10 30 5 (-10) 1 2)) = Some my /\
  init_matrix (opar_fin (OPar 10 80 (-5) 30 1 2)) = Some mo /\
  exists Q, rep3 (cameraFromSpace my (fin3 (V3 1 20 0))) Q /\ rep3 (cameraFromSpace mo (fin3 (V3 1 20 0))) Q.
Proof.
  assert (H1 : rep_ypar (ypar_fin (YPar 10 30 5 (-10) 1 2)) (YPar 10 30 5 (-10) 1 2)) by (repeat split).
  assert (H2 : rep_opar (opar_fin (OPar 10 80 (-5) 30 1 2)) (OPar 10 80 (-5) 30 1 2)) by (repeat split).
  destruct (init_ypr_rigid _ _ H1) as (m1&E1&_). destruct (init_rigid _ _ H2) as (m2&E2&_). exists m1, m2; split; auto. split; auto.
  apply (C05_ypr_same_family _ _ _ _ _ _ H1 H2 E1 E2) with (P := V3 1 20 0); [cbn; f_equal; lra|apply rep3_fin].
Qed.

Example C05_example : rep_ypar (ypar_fin (YPar 10 30 5 (-10) 1 2)) (YPar 10 30 5 (-10) 1 2).
Proof. repeat split. Qed.

(** The docstring of SpatialOrientationYawPitchRoll says yaw = -heading; that is false:
    for yaw 90, pitch 0, roll 0 the two cameras look in opposite directions. *)
Theorem C05_docstring_yaw_sign_refuted :
  exists ry my mo p P Q,
    init_matrix_ypr (ypar_fin ry) = Some my /\
    init_matrix (opar_fin {| elevation_m := y_elevation_m ry; tilt_deg := 90 + pitch_deg ry;
       roll_deg := - y_roll_deg ry; heading_deg := - yaw_deg ry;
       pos_x_m := y_pos_x_m ry; pos_y_m := y_pos_y_m ry |}) = Some mo /\
    rep3 (spaceFromCamera my p true) P /\ rep3 (spaceFromCamera mo p true) Q /\ P <> Q.
Proof.
  set (ry := YPar 10 90 0 0 0 0).
  set (ro := {| elevation_m := y_elevation_m ry; tilt_deg := 90 + pitch_deg ry;
       roll_deg := - y_roll_deg ry; heading_deg := - yaw_deg ry;
       pos_x_m := y_pos_x_m ry; pos_y_m := y_pos_y_m ry |}).
  assert (Hy : rep_ypar (ypar_fin ry) ry) by (repeat split).
  assert (Ho : rep_opar (opar_fin ro) ro) by (repeat split).
  destruct (init_ypr_rigid _ _ Hy) as (my&Ey&Ry). destruct (init_rigid _ _ Ho) as (mo&Eo&Ro).
  assert (HP : rep3 (fin3 (V3 0 0 (-1))) (V3 0 0 (-1))) by apply rep3_fin.
  exists ry, my, mo, (fin3 (V3 0 0 (-1))).
  do 2 eexists. split; [exact Ey|]. split; [exact Eo|].
  split; [eapply rigid_space_dir; eassumption|].
  split; [eapply rigid_space_dir; eassumption|].
  intros C. apply (f_equal cx) in C. revert C.
  cbv [rm_mul_v rm_trans rotm rdot cx cy cz ry ro tilt_deg roll_deg heading_deg
       y_elevation_m yaw_deg y_roll_deg pitch_deg y_pos_x_m y_pos_y_m].
  replace (rad (90 + 0)) with (PI / 2) by (unfold rad; field).
  replace (rad (Ropp 0)) with 0 by (unfold rad; ring).
  replace (rad 90) with (PI / 2) by (unfold rad; field).
  replace (rad (Ropp 90)) with (- (PI / 2)) by (unfold rad; field).
  rewrite sin_neg, cos_neg, sin_PI2, cos_PI2, sin_0, cos_0. lra.
Qed.
Print Assumptions C05_docstring_yaw_sign_refuted.
