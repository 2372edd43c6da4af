(** * C11-C13, C15, C16: projecting between image and space *)
Require Import Reals Lra Psatz Bool List.
From Verif Require Import Num Vec Trig Orientation OrientationFacts Projection ProjectionFacts
  Ray CameraTransform CameraFacts.
Import ListNotations.
Open Scope R_scope.

(** An undistorted camera with finite parameters, built by the constructors. *)
Definition plain_cam (c : camera) (k : pkind) (r : proj R) (o : opar R) : Prop :=
  exists p m, c = plain_camera k p m /\ rep_proj p r /\ foc_ok r /\
    exists on, rep_opar on o /\ init_matrix on = Some m.
Definition camM (o : opar R) : m3 R :=
  rotm (rad (tilt_deg o)) (rad (roll_deg o)) (rad (heading_deg o)).

Lemma plain_good c k r o : plain_cam c k r o -> good_cam c r (camM o) (opos o) /\ cam_kind c = k
  /\ (forall x, cam_dist c x = x) /\ (forall x, cam_undist c x = x).
Proof.
  intros (p&m&->&Hp&Hf&on&Ho&E). destruct (init_rigid _ _ Ho) as (m'&E'&HR).
  assert (m' = m) by congruence; subst m'. splits; auto. split; auto.
Qed.

(** A camera 10 m above the ground, tilted 80 degrees, heading 30, rolled by 7. *)
Definition ex_r : proj R := Proj 3500 3500 2000 1500 4000 3000.
Definition ex_or : opar R := OPar 10 80 7 30 3 4.
Lemma ex_cam : forall k, exists c, plain_cam c k ex_r ex_or.
Proof.
  intros k. assert (H : rep_opar (opar_fin ex_or) ex_or) by (repeat split).
  destruct (init_rigid _ _ H) as (m&E&_).
  exists (plain_camera k (proj_fin ex_r) m), (proj_fin ex_r), m. splits; auto.
  - repeat split.
  - split; simpl; lra.
  - eauto.
Qed.

(** Position of the camera relative to a point, in camera coordinates: the third
    coordinate is minus the depth. *)
Definition cam_coords (o : opar R) (P : v3 R) : v3 R := rm_mul_v (camM o) (rv_sub P (opos o)).

(** ** C11 *)
(** The ray of pixel [q] as returned by getRay (not normed): origin and direction. *)
Theorem C11_ray_starts_at_camera : forall c k r o q Q, plain_cam c k r o -> rep2 q Q ->
  (k = Equirectangular -> cos ((c2 Q - center_y r) / f_y r) <> 0) ->
  exists D, rep3 (fst (getRay c q false)) (opos o) /\ rep3 (snd (getRay c q false)) D /\
    D <> rv0 /\ cam_coords o (rv_add (opos o) D) = rayR k r Q.
Proof.
  intros c k r o q Q HC Hq Hh. destruct (plain_good _ _ _ _ HC) as (HG&HK&_&HU).
  exists (dirW c r (camM o) Q). cbn [getRay fst snd]. splits.
  - eapply origin_rep; eauto.
  - apply (direction_rep c r (camM o) (opos o) q Q false HG).
    + rewrite HU; auto.
    + rewrite HK; destruct k; simpl; auto.
  - eapply dirW_nonzero; apply HG.
  - unfold cam_coords. rewrite <- HK. rewrite <- (dirW_back c r (camM o) (opos o) Q (cam_o c)) by apply HG.
    f_equal. apply v3_ext; simpl; ring.
Qed.
Print Assumptions C11_ray_starts_at_camera.

(** spaceFromImage with one coordinate given.  [D] is the direction returned by getRay.
    The result is nan exactly when the plane is reached behind the camera; otherwise it
    is the point of the ray with exactly the given coordinate, and (for the in-range
    pixels of panoramas) its image is the pixel again. *)
Theorem C11_axis_constraint : forall c k r o q Q i g G D,
  plain_cam c k r o -> rep2 q Q -> in_range k r Q -> rep g G ->
  rep3 (snd (getRay c q false)) D -> get_axis i D <> 0 ->
  let f := (G - get_axis i (opos o)) / get_axis i D in
  exists p, spaceFromImage c q (on_axis i g) = Some p /\
    (f < 0 -> p = nan3) /\
    (0 <= f -> exists P, rep3 p P /\ get_axis i P = G /\ P = rv_add (opos o) (rv_scale f D) /\
       forall hide, tinyR <= Rabs (cz (cam_coords o P)) -> rep2 (imageFromSpace c p hide) Q).
Proof.
  intros c k r o q Q i g G D HC Hq HI Hg HD Hnz f.
  destruct (plain_good _ _ _ _ HC) as (HG&HK&HDi&HU).
  assert (Hq' : rep2 (cam_undist c q) Q) by (rewrite HU; auto).
  assert (Hh : has_ray (cam_kind c) r Q) by (rewrite HK; apply in_range_has_ray; auto).
  cbn [getRay snd] in HD.
  pose proof (direction_rep c r (camM o) (opos o) q Q false HG Hq' Hh) as HD'. cbv iota in HD'.
  pose proof (rep3_inj _ _ _ HD HD') as ED. subst D.
  destruct (sfi_axis c r (camM o) (opos o) q Q i g G HG Hq' Hh Hg Hnz) as (HN&HP).
  fold f in HN, HP.
  destruct (Rlt_le_dec f 0) as [B|B].
  - rewrite (HN B). exists nan3; splits; auto. intros; lra.
  - destruct (HP B) as (p&Ep&Rp). rewrite Ep. exists p; splits; auto; [intros; lra|].
    intros _. eexists; splits; [exact Rp| |reflexivity|].
    + destruct i; simpl in *; unfold f; field; auto.
    + intros hide HB.
      assert (EC : cam_coords o (rv_add (opos o) (rv_scale f (dirW c r (camM o) Q))) =
        rv_scale f (rayR (cam_kind c) r Q)).
      { unfold cam_coords. rewrite <- (dirW_back c r (camM o) (opos o) Q (cam_o c)) by apply HG.
        rewrite <- rm_mul_v_scale. f_equal. apply v3_ext; simpl; ring. }
      rewrite EC in HB. cbn [rv_scale map3v cz] in HB.
      assert (f <> 0). { intros E. rewrite E, Rmult_0_l, Rabs_R0 in HB. pose proof tinyR_pos; lra. }
      destruct (ifs_of_ray c r (camM o) (opos o) p f Q hide HG Rp ltac:(lra) HB) as (x&Ex&Rx).
      { rewrite HK; auto. }
      rewrite Ex, HDi; auto.
Qed.
Print Assumptions C11_axis_constraint.

(** A ray parallel to the plane: the constrained coordinate is nan, never a wrong point. *)
Theorem C11_parallel_ray : forall c k r o q Q i g G D,
  plain_cam c k r o -> rep2 q Q -> in_range k r Q -> rep g G ->
  rep3 (snd (getRay c q false)) D -> get_axis i D = 0 ->
  exists p, spaceFromImage c q (on_axis i g) = Some p /\ get_axis i p = NaN.
Proof.
  intros c k r o q Q i g G D HC Hq HI Hg HD Hz.
  destruct (plain_good _ _ _ _ HC) as (HG&HK&HDi&HU).
  assert (Hq' : rep2 (cam_undist c q) Q) by (rewrite HU; auto).
  assert (Hh : has_ray (cam_kind c) r Q) by (rewrite HK; apply in_range_has_ray; auto).
  pose proof (direction_rep c r (camM o) (opos o) q Q false HG Hq' Hh) as HD'. cbv iota in HD'.
  pose proof (rep3_inj _ _ _ HD HD') as ED. subst D.
  eapply sfi_axis_parallel; eauto.
Qed.
Print Assumptions C11_parallel_ray.

(** Distance constraint. *)
Theorem C11_distance_constraint : forall c k r o q Q d D,
  plain_cam c k r o -> rep2 q Q -> in_range k r Q -> rep d D ->
  exists p, spaceFromImage c q (on_D d) = Some p /\
    (D < 0 -> p = nan3) /\
    (0 <= D -> exists P, rep3 p P /\ rdist P (opos o) = D /\
       forall hide, tinyR <= Rabs (cz (cam_coords o P)) -> rep2 (imageFromSpace c p hide) Q).
Proof.
  intros c k r o q Q d D HC Hq HI Hd.
  destruct (plain_good _ _ _ _ HC) as (HG&HK&HDi&HU).
  assert (Hq' : rep2 (cam_undist c q) Q) by (rewrite HU; auto).
  assert (Hh : has_ray (cam_kind c) r Q) by (rewrite HK; apply in_range_has_ray; auto).
  destruct (sfi_D c r (camM o) (opos o) q Q d D HG Hq' Hh Hd) as (HN&HP).
  set (W := dirW c r (camM o) Q) in *.
  assert (WN : 0 < rnorm W) by (apply rnorm_pos; eapply dirW_nonzero; apply HG).
  destruct (Rlt_le_dec D 0) as [B|B].
  - rewrite (HN B). exists nan3; splits; auto. intros; lra.
  - destruct (HP B) as (p&Ep&Rp). rewrite Ep. exists p; splits; auto; [intros; lra|].
    intros _. eexists; splits; [exact Rp| |].
    + unfold rdist. replace (rv_sub _ _) with (rv_scale (D / rnorm W) W) by (apply v3_ext; simpl; ring).
      rewrite rnorm_scale, Rabs_right; [field; lra|].
      apply Rle_ge, Rmult_le_pos; auto. apply Rlt_le, Rinv_0_lt_compat; auto.
    + intros hide HB.
      assert (EC : cam_coords o (rv_add (opos o) (rv_scale (D / rnorm W) W)) =
        rv_scale (D / rnorm W) (rayR (cam_kind c) r Q)).
      { unfold cam_coords. rewrite <- (dirW_back c r (camM o) (opos o) Q (cam_o c)) by apply HG.
        rewrite <- rm_mul_v_scale. f_equal. apply v3_ext; simpl; ring. }
      rewrite EC in HB. cbn [rv_scale map3v cz] in HB.
      assert (D <> 0).
      { intros E. subst D. unfold Rdiv in HB. rewrite !Rmult_0_l, Rabs_R0 in HB. pose proof tinyR_pos; lra. }
      assert (0 < D / rnorm W) by (apply Rmult_lt_0_compat; [lra|apply Rinv_0_lt_compat; auto]).
      destruct (ifs_of_ray c r (camM o) (opos o) p _ Q hide HG Rp H0 HB) as (x&Ex&Rx).
      { rewrite HK; auto. }
      rewrite Ex, HDi; auto.
Qed.
Print Assumptions C11_distance_constraint.

(** ** C12: a visible point is recovered from its pixel and one known coordinate. *)
Theorem C12_recover_point : forall c k r o p P i g hide,
  plain_cam c k r o -> rep3 p P -> showable k (cam_coords o P) ->
  rep g (get_axis i P) -> get_axis i P <> get_axis i (opos o) ->
  exists p', spaceFromImage c (imageFromSpace c p hide) (on_axis i g) = Some p' /\ rep3 p' P.
Proof.
  intros c k r o p P i g hide HC Hp HS Hg Hne.
  destruct (plain_good _ _ _ _ HC) as (HG&HK&HDi&HU).
  destruct (ifs_spec c r (camM o) (opos o) p P hide HG Hp) as (x&Q&Ex&Rx&Hh&_&(l&Hl&E)).
  { rewrite HK; exact HS. }
  assert (Hq' : rep2 (cam_undist c (imageFromSpace c p hide)) Q) by (rewrite HU, Ex, HDi; auto).
  set (W := dirW c r (camM o) Q) in *.
  assert (EA : get_axis i P - get_axis i (opos o) = l * get_axis i W).
  { apply (f_equal (get_axis i)) in E. destruct i; simpl in *; auto. }
  assert (NZ : get_axis i W <> 0) by (intros Z; rewrite Z in EA; lra).
  destruct (sfi_axis c r (camM o) (opos o) _ Q i g _ HG Hq' Hh Hg NZ) as (_&HP).
  fold W in HP. rewrite EA in HP. replace (l * get_axis i W / get_axis i W) with l in HP by (field; auto).
  destruct (HP ltac:(lra)) as (p'&Ep&Rp). exists p'; split; auto.
  eapply rep3_eq; [exact Rp|]. rewrite <- E. apply v3_ext; simpl; ring.
Qed.
Print Assumptions C12_recover_point.

Theorem C12_recover_point_distance : forall c k r o p P d hide,
  plain_cam c k r o -> rep3 p P -> showable k (cam_coords o P) -> rep d (rdist P (opos o)) ->
  exists p', spaceFromImage c (imageFromSpace c p hide) (on_D d) = Some p' /\ rep3 p' P.
Proof.
  intros c k r o p P d hide HC Hp HS Hd.
  destruct (plain_good _ _ _ _ HC) as (HG&HK&HDi&HU).
  destruct (ifs_spec c r (camM o) (opos o) p P hide HG Hp) as (x&Q&Ex&Rx&Hh&_&(l&Hl&E)).
  { rewrite HK; exact HS. }
  assert (Hq' : rep2 (cam_undist c (imageFromSpace c p hide)) Q) by (rewrite HU, Ex, HDi; auto).
  set (W := dirW c r (camM o) Q) in *.
  assert (WN : 0 < rnorm W) by (apply rnorm_pos; eapply dirW_nonzero; apply HG).
  assert (ED : rdist P (opos o) = l * rnorm W).
  { unfold rdist. rewrite E, rnorm_scale, Rabs_right; lra. }
  destruct (sfi_D c r (camM o) (opos o) _ Q d _ HG Hq' Hh Hd) as (_&HP).
  fold W in HP. rewrite ED in HP. replace (l * rnorm W / rnorm W) with l in HP by (field; lra).
  destruct (HP ltac:(nra)) as (p'&Ep&Rp). exists p'; split; auto.
  eapply rep3_eq; [exact Rp|]. rewrite <- E. apply v3_ext; simpl; ring.
Qed.
Print Assumptions C12_recover_point_distance.

(** A concrete visible point: camera at (0,0,10) looking north and horizontally, point
    (1, 50, 0). *)
Definition ex_or2 : opar R := OPar 10 90 0 0 0 0.
Lemma ex_cam2 : forall k, exists c, plain_cam c k ex_r ex_or2.
Proof.
  intros k. assert (H : rep_opar (opar_fin ex_or2) ex_or2) by (repeat split).
  destruct (init_rigid _ _ H) as (m&E&_).
  exists (plain_camera k (proj_fin ex_r) m), (proj_fin ex_r), m. splits; auto.
  - repeat split.
  - split; simpl; lra.
  - eauto.
Qed.
Lemma ex2_coords P : cam_coords ex_or2 P = V3 (cx P) (cz P - 10) (- cy P).
Proof.
  unfold cam_coords, camM; cbn [tilt_deg roll_deg heading_deg ex_or2].
  replace (rad 90) with (PI / 2) by (unfold rad; field). replace (rad 0) with 0 by (unfold rad; ring).
  apply v3_ext; cbv [rotm rm_mul_v rv_sub zip3v rdot opos pos_x_m pos_y_m elevation_m ex_or2 cx cy cz];
  rewrite ?sin_PI2, ?cos_PI2, ?sin_0, ?cos_0; ring.
Qed.
Lemma ex2_showable k x y z : 1 <= y -> showable k (cam_coords ex_or2 (V3 x y z)).
Proof.
  intros H. rewrite ex2_coords. split; simpl.
  - rewrite Rabs_left by lra. unfold tinyR; lra.
  - destruct k; auto; lra.
Qed.
(** The pixels of the points (1, 50, 0) and (1, 50, 10): the rays (1/50, 1, -1/5) and (1/50, 1, 0) *)
Lemma ex2_dir c v e : plain_cam c Rectilinear ex_r ex_or2 -> v = 1500 - 3500 * e ->
  rep3 (fst (getRay c (fin2 (V2 2070 v)) false)) (V3 0 0 10) /\ rep3 (snd (getRay c (fin2 (V2 2070 v)) false)) (V3 (/ 50) 1 e).
Proof.
  intros HC ->. destruct (C11_ray_starts_at_camera c Rectilinear ex_r ex_or2 (fin2 (V2 2070 (1500 - 3500 * e))) (V2 2070 (1500 - 3500 * e)) HC (rep2_fin _)) as (D&RO&RD&_&ED); [discriminate|].
  split; [exact RO|]. eapply rep3_eq; [exact RD|]. rewrite ex2_coords in ED. unfold rayR, alphaR, betaR, ex_r in ED.
  cbn [rv_add zip3v opos ex_or2 pos_x_m pos_y_m elevation_m cx cy cz c1 c2 f_x f_y center_x center_y] in ED. injection ED as E1 E2 E3.
  apply v3_ext; cbn [cx cy cz]; lra.
Qed.
Example C11_ray_starts_at_camera_example : exists c, plain_cam c Rectilinear ex_r ex_or2 /\
  rep3 (fst (getRay c (fin2 (V2 2070 2200)) false)) (V3 0 0 10) /\ rep3 (snd (getRay c (fin2 (V2 2070 2200)) false)) (V3 (/ 50) 1 (- / 5)).
Proof. destruct (ex_cam2 Rectilinear) as (c&HC). exists c. split; [exact HC|]. apply ex2_dir; [exact HC|lra]. Qed.
(** the ground in front of the camera, and the plane Z = 20 behind it *)
Example C11_axis_constraint_example : exists c p, plain_cam c Rectilinear ex_r ex_or2 /\
  spaceFromImage c (fin2 (V2 2070 2200)) (on_Z (Fin 0)) = Some p /\ rep3 p (V3 1 50 0) /\
  rep2 (imageFromSpace c p true) (V2 2070 2200) /\ spaceFromImage c (fin2 (V2 2070 2200)) (on_Z (Fin 20)) = Some nan3.
Proof.
  destruct (ex_cam2 Rectilinear) as (c&HC). destruct (ex2_dir c 2200 (- / 5) HC ltac:(lra)) as (_&HD).
  destruct (C11_axis_constraint c Rectilinear ex_r ex_or2 _ (V2 2070 2200) AZ (Fin 0) 0 _ HC (rep2_fin _) I (rep_Fin _) HD) as (p&E&_&K); [cbn; lra|].
  destruct (C11_axis_constraint c Rectilinear ex_r ex_or2 _ (V2 2070 2200) AZ (Fin 20) 20 _ HC (rep2_fin _) I (rep_Fin _) HD) as (p'&E'&K'&_); [cbn; lra|].
  cbn [get_axis opos ex_or2 elevation_m cz] in K, K'. exists c, p. split; [exact HC|]. split; [exact E|].
  destruct K as (P&RP&_&EP&KI); [replace ((0 - 10) / - / 5) with 50 by field; lra|].
  assert (EP' : P = V3 1 50 0) by (rewrite EP; apply v3_ext; cbn; field). subst P. rewrite EP' in *.
  split; [exact RP|]. split.
  - apply KI. rewrite ex2_coords. cbn. unfold tinyR. rewrite Rabs_left; lra.
  - rewrite <- K'; [exact E'|]. replace ((20 - 10) / - / 5) with (-50) by field. lra.
Qed.
(** a horizontal line of sight *)
Example C11_parallel_ray_example : exists c p, plain_cam c Rectilinear ex_r ex_or2 /\
  spaceFromImage c (fin2 (V2 2070 1500)) (on_Z (Fin 0)) = Some p /\ cz p = NaN.
Proof.
  destruct (ex_cam2 Rectilinear) as (c&HC). destruct (ex2_dir c 1500 0 HC ltac:(lra)) as (_&HD).
  destruct (C11_parallel_ray c Rectilinear ex_r ex_or2 _ (V2 2070 1500) AZ (Fin 0) 0 _ HC (rep2_fin _) I (rep_Fin _) HD eq_refl) as (p&E&K).
  exists c, p. auto.
Qed.
Example C11_distance_constraint_example : exists c p P, plain_cam c Equirectangular ex_r ex_or2 /\
  spaceFromImage c (fin2 (V2 2070 2200)) (on_D (Fin 7)) = Some p /\ rep3 p P /\ rdist P (V3 0 0 10) = 7 /\
  spaceFromImage c (fin2 (V2 2070 2200)) (on_D (Fin (-7))) = Some nan3.
Proof.
  destruct (ex_cam2 Equirectangular) as (c&HC).
  assert (HR : in_range Equirectangular ex_r (V2 2070 2200)).
  { pose proof PI2_3_2. unfold in_range, alphaR, betaR. cbn. lra. }
  destruct (C11_distance_constraint c Equirectangular ex_r ex_or2 _ (V2 2070 2200) (Fin 7) 7 HC (rep2_fin _) HR (rep_Fin _)) as (p&E&_&K).
  destruct (C11_distance_constraint c Equirectangular ex_r ex_or2 _ (V2 2070 2200) (Fin (-7)) (-7) HC (rep2_fin _) HR (rep_Fin _)) as (p'&E'&K'&_).
  destruct K as (P&RP&DP&_); [lra|]. exists c, p, P. split; [exact HC|]. split; [exact E|]. split; [exact RP|]. split; [exact DP|].
  rewrite <- K'; [exact E'|lra].
Qed.
Example C12_example : exists c p', plain_cam c Rectilinear ex_r ex_or2 /\
  spaceFromImage c (imageFromSpace c (fin3 (V3 1 50 0)) true) (on_Z (Fin 0)) = Some p' /\
  rep3 p' (V3 1 50 0).
Proof.
  destruct (ex_cam2 Rectilinear) as (c&HC).
  destruct (C12_recover_point c _ _ _ (fin3 (V3 1 50 0)) (V3 1 50 0) AZ (Fin 0) true HC (rep3_fin _)) as (p'&E&R).
  - apply ex2_showable; lra.
  - reflexivity.
  - simpl; lra.
  - exists c, p'; auto.
Qed.
Example C12_recover_point_distance_example : exists c p', plain_cam c Cylindrical ex_r ex_or2 /\
  spaceFromImage c (imageFromSpace c (fin3 (V3 0 24 0)) true) (on_D (Fin 26)) = Some p' /\ rep3 p' (V3 0 24 0).
Proof.
  destruct (ex_cam2 Cylindrical) as (c&HC).
  destruct (C12_recover_point_distance c Cylindrical ex_r ex_or2 _ (V3 0 24 0) (Fin 26) true HC (rep3_fin _)) as (p'&E&K).
  - apply ex2_showable. lra.
  - replace (rdist (V3 0 24 0) (opos ex_or2)) with 26; [reflexivity|]. unfold rdist, rnorm, rdot. cbn.
    replace (_ + _) with (26 * 26) by ring. symmetry. apply sqrt_square. lra.
  - exists c, p'. auto.
Qed.

(** ** C13: which constraint is used; the others have no effect. *)
Theorem C13_mesh_first : forall c q k k', k_mesh k <> None -> k_mesh k = k_mesh k' ->
  spaceFromImage c q k = spaceFromImage c q k'.
Proof.
  intros c q k k' N E. unfold spaceFromImage. rewrite <- E. destruct (k_mesh k); [reflexivity|contradiction].
Qed.
Print Assumptions C13_mesh_first.
Example C13_mesh_first_example : forall c q m x, spaceFromImage c q (Constr (Some x) None None None (Some m)) = spaceFromImage c q (Constr None None None None (Some m)).
Proof. intros. apply C13_mesh_first; [discriminate|reflexivity]. Qed.
Theorem C13_precedence : forall c q (x y z d : num) (ox oy oz : option num),
  spaceFromImage c q (Constr ox oy oz (Some d) None) = spaceFromImage c q (on_D d) /\
  spaceFromImage c q (Constr (Some x) oy oz None None) = spaceFromImage c q (on_X x) /\
  spaceFromImage c q (Constr None (Some y) oz None None) = spaceFromImage c q (on_Y y) /\
  spaceFromImage c q (Constr None None (Some z) None None) = spaceFromImage c q (on_Z z) /\
  (* nothing given: an exception, not a point *)
  spaceFromImage c q (Constr None None None None None) = None.
Proof. intros; repeat split; destruct ox, oy, oz; reflexivity. Qed.
Print Assumptions C13_precedence.
(** The precedence is observable: with X and Z both given, X wins. *)
Theorem C13_X_beats_Z : forall c k r o q Q D x X z,
  plain_cam c k r o -> rep2 q Q -> in_range k r Q -> rep x X ->
  rep3 (snd (getRay c q false)) D -> cx D <> 0 -> 0 <= (X - pos_x_m o) / cx D ->
  exists p P, spaceFromImage c q (Constr (Some x) None (Some z) None None) = Some p /\ rep3 p P /\ cx P = X.
Proof.
  intros c k r o q Q D x X z HC Hq HI Hx HD Hnz Hf.
  destruct (C11_axis_constraint c k r o q Q AX x X D HC Hq HI Hx HD Hnz) as (p&E&_&H).
  destruct (H Hf) as (P&HP&EP&_). exists p, P. splits; auto.
Qed.
Print Assumptions C13_X_beats_Z.
(** X = 2 is given together with Z = 5, which is ignored. *)
Example C13_X_beats_Z_example : exists c p P, plain_cam c Rectilinear ex_r ex_or2 /\
  spaceFromImage c (fin2 (V2 2070 2200)) (Constr (Some (Fin 2)) None (Some (Fin 5)) None None) = Some p /\ rep3 p P /\ cx P = 2.
Proof.
  destruct (ex_cam2 Rectilinear) as (c&HC). destruct (ex2_dir c 2200 (- / 5) HC ltac:(lra)) as (_&HD).
  destruct (C13_X_beats_Z c Rectilinear ex_r ex_or2 _ (V2 2070 2200) _ (Fin 2) 2 (Fin 5) HC (rep2_fin _) I (rep_Fin _) HD) as (p&P&E&RP&K); [cbn; lra| |].
  - cbn. replace ((2 - 0) / / 50) with 100 by field. lra.
  - exists c, p, P. auto.
Qed.

(** ** C15 object height *)
Theorem C15_object_height : forall c k r o x y z h feet head zn hide,
  plain_cam c k r o ->
  rep3 feet (V3 x y z) -> rep3 head (V3 x y (z + h)) -> rep zn z ->
  showable k (cam_coords o (V3 x y z)) -> showable k (cam_coords o (V3 x y (z + h))) ->
  x <> pos_x_m o -> y <> pos_y_m o -> z <> elevation_m o ->
  exists v, getObjectHeight c (imageFromSpace c feet hide) (imageFromSpace c head hide) zn = Some v /\
    rep v h.
Proof.
  intros c k r o x y z h feet head zn hide HC Hf Hh Hz S1 S2 Nx Ny Nz.
  destruct (C12_recover_point c k r o feet _ AZ zn hide HC Hf S1 Hz Nz) as (f&Ef&Rf).
  destruct (C12_recover_point c k r o head _ AY (cy f) hide HC Hh S2) as (h1&E1&R1).
  { apply Rf. } { exact Ny. }
  destruct (C12_recover_point c k r o head _ AX (cx f) hide HC Hh S2) as (h2&E2&R2).
  { apply Rf. } { exact Nx. }
  unfold getObjectHeight. cbn [on_axis] in *. rewrite Ef, E1, E2.
  eexists; split; [reflexivity|]. destruct Rf as (_&_&Rf), R1 as (_&_&R1), R2 as (_&_&R2).
  unfold mean2; cbn [nv_div nv_add zip3v map3v cx cy cz] in *.
  eapply rep_eq; [rep_all; lra|]. field.
Qed.
Print Assumptions C15_object_height.

(** The excluded case is a real failure: an object exactly in the vertical plane
    x = camera x (straight ahead at heading 0) has height nan. *)
Theorem C15_straight_ahead_nan : forall c k r o y z h feet head zn hide,
  plain_cam c k r o ->
  rep3 feet (V3 (pos_x_m o) y z) -> rep3 head (V3 (pos_x_m o) y (z + h)) -> rep zn z ->
  showable k (cam_coords o (V3 (pos_x_m o) y z)) ->
  showable k (cam_coords o (V3 (pos_x_m o) y (z + h))) ->
  y <> pos_y_m o -> z <> elevation_m o ->
  getObjectHeight c (imageFromSpace c feet hide) (imageFromSpace c head hide) zn = Some NaN.
Proof.
  intros c k r o y z h feet head zn hide HC Hf Hh Hz S1 S2 Ny Nz.
  destruct (C12_recover_point c k r o feet _ AZ zn hide HC Hf S1 Hz Nz) as (f&Ef&Rf).
  destruct (C12_recover_point c k r o head _ AY (cy f) hide HC Hh S2) as (h1&E1&R1).
  { apply Rf. } { exact Ny. }
  unfold getObjectHeight. cbn [on_axis] in *. rewrite Ef, E1.
  destruct (plain_good _ _ _ _ HC) as (HG&HK&HDi&HU).
  destruct (ifs_spec c r (camM o) (opos o) head _ hide HG Hh) as (q&Q&Eq&Rq&Hr&_&(l&Hl&E)).
  { rewrite HK; exact S2. }
  assert (Hq' : rep2 (cam_undist c (imageFromSpace c head hide)) Q) by (rewrite HU, Eq, HDi; auto).
  assert (W0 : cx (dirW c r (camM o) Q) = 0).
  { apply (f_equal cx) in E. cbn [rv_sub rv_scale zip3v map3v opos cx] in E.
    apply (Rmult_eq_reg_l l); lra. }
  change (on_X (cx f)) with (on_axis AX (cx f)). rewrite sfi_axis_unfold. cbv zeta.
  pose proof (origin_rep _ _ _ _ HG) as HO.
  pose proof (direction_rep _ _ _ _ _ _ false HG Hq' Hr) as HD. cbv iota in HD.
  cbn [get_axis].
  assert (FN : ndiv (cx f - cx (ray_origin c))%num (cx (ray_direction c (imageFromSpace c head hide) false)) = NaN).
  { apply ndiv_0_0.
    - destruct Rf as (Rf&_), HO as (HO&_). eapply rep_eq; [apply rep_sub; eassumption|]. simpl. ring.
    - destruct HD as (HD&_). rewrite W0 in HD. exact HD. }
  rewrite FN. change (NaN <? Fin 0)%num with false. cbv iota.
  unfold mean2; cbn [nv_div nv_add nv_scale zip3v map3v cx cy cz].
  rewrite nmul_NaN_r, nadd_NaN_l, nadd_NaN_r, ndiv_NaN_l, nsub_NaN_l. reflexivity.
Qed.
Print Assumptions C15_straight_ahead_nan.

Theorem C15_object_height_refuted : exists c k r o feet head z h,
  plain_cam c k r o /\ showable k (cam_coords o feet) /\ showable k (cam_coords o head) /\
  head = rv_add feet (V3 0 0 h) /\ cz feet = z /\ z <> elevation_m o /\ 0 < h /\
  getObjectHeight c (imageFromSpace c (fin3 feet) true) (imageFromSpace c (fin3 head) true) (Fin z) = Some NaN.
Proof.
  destruct (ex_cam2 Rectilinear) as (c&HC).
  exists c, Rectilinear, ex_r, ex_or2, (V3 0 50 0), (V3 0 50 (0 + 2)), 0, 2.
  splits; auto; try (apply ex2_showable; lra); try (simpl; lra).
  - apply v3_ext; simpl; ring.
  - apply (C15_straight_ahead_nan c Rectilinear ex_r ex_or2 50 0 2 _ _ (Fin 0) true HC
      (rep3_fin _) (rep3_fin _) (rep_Fin _)); simpl; try lra; apply ex2_showable; lra.
Qed.
Print Assumptions C15_object_height_refuted.

Example C15_example : exists c v, plain_cam c Cylindrical ex_r ex_or2 /\
  getObjectHeight c (imageFromSpace c (fin3 (V3 4 50 0)) true) (imageFromSpace c (fin3 (V3 4 50 (0 + 2))) true) (Fin 0)
   = Some v /\ rep v 2.
Proof.
  destruct (ex_cam2 Cylindrical) as (c&HC).
  destruct (C15_object_height c _ _ _ 4 50 0 2 _ _ (Fin 0) true HC (rep3_fin _) (rep3_fin _) (rep_Fin _)) as (v&E&R);
    try apply ex2_showable; simpl; try lra.
  exists c, v; splits; auto.
Qed.

(** ** C16 object length *)
Theorem C16_object_length : forall c k r o P1 P2 p1 p2 z zn hide,
  plain_cam c k r o -> rep3 p1 P1 -> rep3 p2 P2 -> rep zn z -> cz P1 = z -> cz P2 = z ->
  showable k (cam_coords o P1) -> showable k (cam_coords o P2) -> z <> elevation_m o ->
  exists v w, getObjectLength c (imageFromSpace c p1 hide) (imageFromSpace c p2 hide) zn = Some v /\
    rep v (rdist P1 P2) /\
    getObjectLength c (imageFromSpace c p2 hide) (imageFromSpace c p1 hide) zn = Some w /\
    rep w (rdist P1 P2) /\ 0 <= rdist P1 P2.
Proof.
  intros c k r o P1 P2 p1 p2 z zn hide HC H1 H2 Hz Z1 Z2 S1 S2 Nz.
  destruct (C12_recover_point c k r o p1 P1 AZ zn hide HC H1 S1) as (a&Ea&Ra); [simpl; rewrite Z1; auto..|].
  destruct (C12_recover_point c k r o p2 P2 AZ zn hide HC H2 S2) as (b&Eb&Rb); [simpl; rewrite Z2; auto..|].
  unfold getObjectLength. cbn [on_axis] in *. rewrite Ea, Eb.
  do 2 eexists; splits; [reflexivity| |reflexivity| |].
  - unfold rdist. apply rep_norm, rep3_sub; auto.
  - assert (E : rdist P1 P2 = rdist P2 P1).
    { unfold rdist, rnorm; f_equal; unfold rdot; simpl; ring. }
    rewrite E. unfold rdist. apply rep_norm, rep3_sub; auto.
  - apply rnorm_nonneg.
Qed.
Print Assumptions C16_object_length.

Example C16_example : exists c v w, plain_cam c Rectilinear ex_r ex_or2 /\
  getObjectLength c (imageFromSpace c (fin3 (V3 4 50 0)) true) (imageFromSpace c (fin3 (V3 1 46 0)) true) (Fin 0) = Some v
  /\ rep v 5 /\ getObjectLength c (imageFromSpace c (fin3 (V3 1 46 0)) true) (imageFromSpace c (fin3 (V3 4 50 0)) true) (Fin 0) = Some w.
Proof.
  destruct (ex_cam2 Rectilinear) as (c&HC).
  destruct (C16_object_length c _ _ _ (V3 4 50 0) (V3 1 46 0) _ _ 0 (Fin 0) true HC (rep3_fin _) (rep3_fin _) (rep_Fin _))
   as (v&w&E&R&E'&_); try apply ex2_showable; simpl; try lra.
  exists c, v, w; splits; auto. eapply rep_eq; [exact R|].
  unfold rdist, rnorm, rdot; simpl. replace (_ + _) with (5 * 5) by ring. apply sqrt_square; lra.
Qed.
