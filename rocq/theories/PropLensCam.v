(** * C87: a camera with a lens measures like one without *)
Require Import Reals Lra Psatz Bool List Arith ZArith Lia.
From Verif Require Import Num Vec Trig Orientation OrientationFacts Projection ProjectionFacts
  Ray CameraTransform CameraFacts PropCamera RayFacts PropRay Lens PropLens Stereo PropStereo Horizon PropHorizon.
Import ListNotations.
Open Scope R_scope.

(** ** Specification *)
(** [X] is the pixel at which a camera without lens would show [P]: its ray, in the
    coordinates of the camera, points to [P]. *)
Definition shown_at (k : pkind) (r : proj R) (o : opar R) (P : v3 R) (X : v2 R) : Prop :=
  in_range k r X /\ tinyR <= Rabs (cz (cam_coords o P)) /\
  exists t, 0 < t /\ cam_coords o P = rv_scale t (rayR k r X).
(** The camera sees [P]: without lens it is in front of the camera; with a lens it is shown at a
    pixel other than the centre, where the inverse of the lens is exact. *)
Definition observes (c : camera) (o : opar R) (P : v3 R) : Prop :=
  (exists k r, plain_cam c k r o /\ showable k (cam_coords o P)) \/
  (exists k r l L X, lens_cam c k r o l /\ rep_lens l L /\ shown_at k r o P X /\ lens_inverts l L X).
(** The lens moves the pixel [Y] of the image file to [X], and back. *)
Definition corrects (l : lens) (L : rlens) (Y X : v2 R) : Prop :=
  0 < radius L Y /\ exists rho, 0 < rho /\ X = radial L (rho / radius L Y) Y /\
  (forall x, rep x (radius L Y) -> rep (l_inv l x) rho) /\
  (forall x, rep x rho -> rep (l_conv l x) (radius L Y)).

Lemma dirW_of c r o P X t : good_cam c r (camM o) (opos o) ->
  cam_coords o P = rv_scale t (rayR (cam_kind c) r X) -> rv_sub P (opos o) = rv_scale t (dirW c r (camM o) X).
Proof.
  intros (_&_&HR) E. unfold dirW. rewrite <- rm_mul_v_scale, <- E. symmetry. apply trans_mul. apply HR.
Qed.
Lemma coords_of c r o X t : good_cam c r (camM o) (opos o) ->
  cam_coords o (rv_add (opos o) (rv_scale t (dirW c r (camM o) X))) = rv_scale t (rayR (cam_kind c) r X).
Proof.
  intros HG. unfold cam_coords. rewrite <- (dirW_back c r (camM o) (opos o) X (cam_o c)) by apply HG.
  rewrite <- rm_mul_v_scale. f_equal. apply v3_ext; simpl; ring.
Qed.
Lemma observes_ray c o p P hide : observes c o P -> rep3 p P ->
  exists r Q t, good_cam c r (camM o) (opos o) /\ rep2 (cam_undist c (imageFromSpace c p hide)) Q /\
    has_ray (cam_kind c) r Q /\ 0 < t /\ rv_sub P (opos o) = rv_scale t (dirW c r (camM o) Q).
Proof.
  intros [(k&r&HC&HS)|(k&r&l&L&X&HC&HL&(HI&HT&t&Ht&E)&R0&rho&Rr&A&B)] Hp.
  - destruct (plain_good _ _ _ _ HC) as (HG&HK&HDi&HU).
    destruct (ifs_spec c r (camM o) (opos o) p P hide HG Hp) as (x&Q&Ex&Rx&Hh&_&(l&Hl&E)).
    { rewrite HK; exact HS. }
    exists r, Q, l. splits; auto; rewrite HU, Ex, HDi; apply Rx.
  - destruct (lens_good _ _ _ _ _ HC) as (HG&HK&HDi&HU). rewrite <- HK in *.
    pose proof (dirW_of _ _ _ _ _ _ HG E) as EW.
    destruct (ifs_of_ray c r (camM o) (opos o) p t X hide HG) as (x&Ex&Rx); auto.
    { eapply rep3_eq; [exact Hp|]. rewrite <- EW. apply v3_ext; simpl; ring. }
    { rewrite E in HT. exact HT. }
    exists r, X, t. split; [exact HG|]. split; [|split; [apply in_range_has_ray; exact HI|split; [exact Ht|exact EW]]].
    rewrite HU, Ex, HDi. exact (C18_undistort_distort l L x X rho HL Rx R0 Rr A B).
Qed.

(** ** The pixel *)
(** The picture of a point is the pixel of the camera without lens, moved along its radius. *)
Theorem C87_pixel : forall c k r o l L p P X rho hide, lens_cam c k r o l -> rep_lens l L -> rep3 p P ->
  shown_at k r o P X -> 0 < radius L X -> (forall x, rep x (radius L X) -> rep (l_conv l x) rho) ->
  rep2 (imageFromSpace c p hide) (radial L (rho / radius L X) X).
Proof.
  intros c k r o l L p P X rho hide HC HL Hp (HI&HT&t&Ht&E) R0 A.
  destruct (lens_good _ _ _ _ _ HC) as (HG&HK&HDi&HU). rewrite <- HK in *.
  pose proof (dirW_of _ _ _ _ _ _ HG E) as EW.
  destruct (ifs_of_ray c r (camM o) (opos o) p t X hide HG) as (x&Ex&Rx); auto.
  { eapply rep3_eq; [exact Hp|]. rewrite <- EW. apply v3_ext; simpl; ring. }
  { rewrite E in HT. exact HT. }
  rewrite Ex, HDi. exact (proj1 (C18_radial l L x X rho HL Rx R0) A).
Qed.
Print Assumptions C87_pixel.
(** The ray of the pixel starts at the camera and passes through the point. *)
Theorem C87_ray : forall c o p P hide normed, observes c o P -> rep3 p P ->
  exists D t, rep3 (fst (getRay c (imageFromSpace c p hide) normed)) (opos o) /\
    rep3 (snd (getRay c (imageFromSpace c p hide) normed)) D /\ 0 < t /\
    (normed = true -> rnorm D = 1) /\ rv_sub P (opos o) = rv_scale t D.
Proof.
  intros c o p P hide normed HO Hp. destruct (observes_ray c o p P hide HO Hp) as (r&Q&l&HG&Hq&Hh&Hl&E).
  pose proof (direction_rep c r (camM o) (opos o) _ Q normed HG Hq Hh) as HD.
  set (W := dirW c r (camM o) Q) in *.
  assert (WN : 0 < rnorm W) by (apply rnorm_pos; eapply dirW_nonzero; apply HG).
  exists (if normed then rv_scale (/ rnorm W) W else W), (if normed then l * rnorm W else l).
  cbn [getRay fst snd]. split; [eapply origin_rep; eauto|]. split; [exact HD|]. split; [destruct normed; auto; nra|]. split.
  - intros ->. rewrite rnorm_scale, Rabs_right; [field; lra|]. apply Rle_ge, Rlt_le, Rinv_0_lt_compat; auto.
  - rewrite E. destruct normed; auto. apply v3_ext; simpl; field; lra.
Qed.
Print Assumptions C87_ray.

(** Where the inverse of the lens is not exact: the error of the radius is the whole error.  In units
    of the lens the pixel found back is as far from the right one as the radius is wrong. *)
Theorem C87_inexact : forall c k r o l L p P X rho s hide, lens_cam c k r o l -> rep_lens l L -> rep3 p P ->
  shown_at k r o P X -> 0 < radius L X -> 0 < rho -> (forall x, rep x (radius L X) -> rep (l_conv l x) rho) ->
  (forall x, rep x rho -> rep (l_inv l x) s) ->
  exists X', rep2 (cam_undist c (imageFromSpace c p hide)) X' /\
    sqrt (Rsqr ((c1 X' - c1 X) / s_x L) + Rsqr ((c2 X' - c2 X) / s_y L)) = Rabs (s - radius L X) /\
    (c1 X' - o_x L) * (c2 X - o_y L) = (c2 X' - o_y L) * (c1 X - o_x L).
Proof.
  intros c k r o l L p P X rho s hide HC HL Hp HX R0 Rr A B.
  pose proof (C87_pixel c k r o l L p P X rho hide HC HL Hp HX R0 A) as HY.
  destruct (lens_good _ _ _ _ _ HC) as (HG&HK&HDi&HU).
  assert (HN : s_x L <> 0 /\ s_y L <> 0) by apply HL. destruct HN as (NX&NY).
  assert (ER : radius L (radial L (rho / radius L X) X) = rho).
  { rewrite radius_radial by auto. rewrite Rabs_right; [field; lra|].
    apply Rle_ge, Rmult_le_pos; [lra|]. apply Rlt_le, Rinv_0_lt_compat; auto. }
  exists (radial L (s / radius L X) X). split; [|split].
  - rewrite HU. eapply rep2_eq; [apply (proj2 (C18_radial l L _ _ s HL HY ltac:(lra)))|].
    + rewrite ER. exact B.
    + rewrite ER, radial_radial. f_equal. field. lra.
  - cbn [radial c1 c2].
    transitivity (sqrt (Rsqr ((s - radius L X) / radius L X) * (Rsqr ((c1 X - o_x L) / s_x L) + Rsqr ((c2 X - o_y L) / s_y L)))).
    { f_equal. unfold Rsqr. field. splits; auto; lra. }
    rewrite sqrt_mult; [|apply Rle_0_sqr|apply Rplus_le_le_0_compat; apply Rle_0_sqr].
    fold (radius L X). rewrite sqrt_Rsqr_abs. unfold Rdiv. rewrite Rabs_mult, (Rabs_right (/ radius L X)).
    + field. lra.
    + apply Rle_ge, Rlt_le, Rinv_0_lt_compat, R0.
  - cbn [radial c1 c2]. ring.
Qed.
Print Assumptions C87_inexact.

(** ** From pixels to space *)
(** The point is found again from its pixel and one of its coordinates, or its distance. *)
Theorem C87_recover : forall c o p P i g hide, observes c o P -> rep3 p P ->
  rep g (get_axis i P) -> get_axis i P <> get_axis i (opos o) ->
  exists p', spaceFromImage c (imageFromSpace c p hide) (on_axis i g) = Some p' /\ rep3 p' P.
Proof.
  intros c o p P i g hide HO Hp Hg Hne. destruct (observes_ray c o p P hide HO Hp) as (r&Q&l&HG&Hq&Hh&Hl&E).
  set (W := dirW c r (camM o) Q) in *.
  assert (EA : get_axis i P - get_axis i (opos o) = l * get_axis i W).
  { apply (f_equal (get_axis i)) in E. destruct i; simpl in *; auto. }
  assert (NZ : get_axis i W <> 0) by (intros Z; rewrite Z in EA; lra).
  destruct (sfi_axis c r (camM o) (opos o) _ Q i g _ HG Hq Hh Hg NZ) as (_&HP).
  fold W in HP. rewrite EA in HP. replace (l * get_axis i W / get_axis i W) with l in HP by (field; auto).
  destruct (HP ltac:(lra)) as (p'&Ep&Rp). exists p'; split; auto.
  eapply rep3_eq; [exact Rp|]. rewrite <- E. apply v3_ext; simpl; ring.
Qed.
Print Assumptions C87_recover.
Theorem C87_recover_distance : forall c o p P d hide, observes c o P -> rep3 p P -> rep d (rdist P (opos o)) ->
  exists p', spaceFromImage c (imageFromSpace c p hide) (on_D d) = Some p' /\ rep3 p' P.
Proof.
  intros c o p P d hide HO Hp Hd. destruct (observes_ray c o p P hide HO Hp) as (r&Q&l&HG&Hq&Hh&Hl&E).
  set (W := dirW c r (camM o) Q) in *.
  assert (WN : 0 < rnorm W) by (apply rnorm_pos; eapply dirW_nonzero; apply HG).
  assert (ED : rdist P (opos o) = l * rnorm W) by (unfold rdist; rewrite E, rnorm_scale, Rabs_right; lra).
  destruct (sfi_D c r (camM o) (opos o) _ Q d _ HG Hq Hh Hd) as (_&HP).
  fold W in HP. rewrite ED in HP. replace (l * rnorm W / rnorm W) with l in HP by (field; lra).
  destruct (HP ltac:(nra)) as (p'&Ep&Rp). exists p'; split; auto.
  eapply rep3_eq; [exact Rp|]. rewrite <- E. apply v3_ext; simpl; ring.
Qed.
Print Assumptions C87_recover_distance.
Lemma corrects_undist c k r o l L q Y X : lens_cam c k r o l -> rep_lens l L -> rep2 q Y -> corrects l L Y X ->
  rep2 (cam_undist c q) X.
Proof.
  intros HC HL Hq (R0&rho&Rr&->&A&B). destruct (lens_good _ _ _ _ _ HC) as (_&_&_&HU). rewrite HU.
  exact (proj2 (C18_radial l L q Y rho HL Hq R0) A).
Qed.
Lemma corrects_back l L x Y X : rep_lens l L -> rep2 x X -> corrects l L Y X -> rep2 (distortedFromImage l x) Y.
Proof.
  intros HL Hx (R0&rho&Rr&->&A&B).
  assert (HN : s_x L <> 0 /\ s_y L <> 0) by apply HL. destruct HN as (NX&NY).
  assert (ER : radius L (radial L (rho / radius L Y) Y) = rho).
  { rewrite radius_radial by auto. rewrite Rabs_right; [field; lra|].
    apply Rle_ge, Rmult_le_pos; [lra|]. apply Rlt_le, Rinv_0_lt_compat; auto. }
  eapply rep2_eq; [apply (proj1 (C18_radial l L x _ (radius L Y) HL Hx ltac:(lra)))|].
  - rewrite ER. exact B.
  - rewrite ER, radial_radial. replace (_ * _) with 1 by (field; lra). apply radial_1.
Qed.
(** A pixel of the picture and one coordinate: nan exactly behind the camera, otherwise the point
    on the ray of the corrected pixel, and the picture of that point is the pixel again. *)
Theorem C87_constraint : forall c k r o l L q Y X i g G, lens_cam c k r o l -> rep_lens l L -> rep2 q Y ->
  corrects l L Y X -> in_range k r X -> rep g G ->
  exists W, cam_coords o (rv_add (opos o) W) = rayR k r X /\
  (get_axis i W = 0 -> exists p, spaceFromImage c q (on_axis i g) = Some p /\ get_axis i p = NaN) /\
  (get_axis i W <> 0 -> let f := (G - get_axis i (opos o)) / get_axis i W in
    exists p, spaceFromImage c q (on_axis i g) = Some p /\ (f < 0 -> p = nan3) /\
    (0 <= f -> exists P, rep3 p P /\ get_axis i P = G /\ P = rv_add (opos o) (rv_scale f W) /\
       forall hide, tinyR <= Rabs (cz (cam_coords o P)) -> rep2 (imageFromSpace c p hide) Y)).
Proof.
  intros c k r o l L q Y X i g G HC HL Hq HX HI Hg. pose proof (corrects_undist _ _ _ _ _ _ _ _ _ HC HL Hq HX) as HQ.
  destruct (lens_good _ _ _ _ _ HC) as (HG&HK&HDi&HU). rewrite <- HK in *.
  assert (Hh : has_ray (cam_kind c) r X) by (apply in_range_has_ray; auto).
  set (W := dirW c r (camM o) X). exists W. split; [|split].
  - transitivity (cam_coords o (rv_add (opos o) (rv_scale 1 W))).
    + f_equal. apply v3_ext; simpl; ring.
    + unfold W. rewrite (coords_of c r o X 1 HG). apply v3_ext; simpl; ring.
  - intros Z. exact (sfi_axis_parallel c r (camM o) (opos o) q X i g G HG HQ Hh Hg Z).
  - intros NZ f. destruct (sfi_axis c r (camM o) (opos o) q X i g G HG HQ Hh Hg NZ) as (HN&HP).
    fold W f in HN, HP. destruct (Rlt_le_dec f 0) as [B|B].
    + rewrite (HN B). exists nan3. split; [reflexivity|]. split; [reflexivity|intros; lra].
    + destruct (HP B) as (p&Ep&Rp). rewrite Ep. exists p. split; [reflexivity|]. split; [intros; lra|]. intros _.
      exists (rv_add (opos o) (rv_scale f W)). split; [exact Rp|]. split; [|split; [reflexivity|]].
      * destruct i; simpl in *; unfold f; field; auto.
      * intros hide HB. unfold W in HB. rewrite (coords_of c r o X f HG) in HB. cbn [rv_scale map3v cz] in HB.
        assert (f <> 0) by (intros Z; rewrite Z, Rmult_0_l, Rabs_R0 in HB; pose proof tinyR_pos; lra).
        destruct (ifs_of_ray c r (camM o) (opos o) p f X hide HG Rp ltac:(lra) HB HI) as (x&Ex&Rx).
        rewrite Ex, HDi. exact (corrects_back l L x Y X HL Rx HX).
Qed.
Print Assumptions C87_constraint.
Theorem C87_distance : forall c k r o l L q Y X d D, lens_cam c k r o l -> rep_lens l L -> rep2 q Y ->
  corrects l L Y X -> in_range k r X -> rep d D ->
  exists p, spaceFromImage c q (on_D d) = Some p /\ (D < 0 -> p = nan3) /\
    (0 <= D -> exists P t, rep3 p P /\ rdist P (opos o) = D /\ 0 <= t /\ cam_coords o P = rv_scale t (rayR k r X) /\
       forall hide, tinyR <= Rabs (cz (cam_coords o P)) -> rep2 (imageFromSpace c p hide) Y).
Proof.
  intros c k r o l L q Y X d D HC HL Hq HX HI Hd. pose proof (corrects_undist _ _ _ _ _ _ _ _ _ HC HL Hq HX) as HQ.
  destruct (lens_good _ _ _ _ _ HC) as (HG&HK&HDi&HU). rewrite <- HK in *.
  assert (Hh : has_ray (cam_kind c) r X) by (apply in_range_has_ray; auto).
  destruct (sfi_D c r (camM o) (opos o) q X d D HG HQ Hh Hd) as (HN&HP).
  set (W := dirW c r (camM o) X) in *.
  assert (WN : 0 < rnorm W) by (apply rnorm_pos; eapply dirW_nonzero; apply HG).
  destruct (Rlt_le_dec D 0) as [B|B].
  - rewrite (HN B). exists nan3. split; [reflexivity|]. split; [reflexivity|intros; lra].
  - destruct (HP B) as (p&Ep&Rp). rewrite Ep. exists p. split; [reflexivity|]. split; [intros; lra|]. intros _.
    assert (F0 : 0 <= D / rnorm W) by (apply Rmult_le_pos; auto; apply Rlt_le, Rinv_0_lt_compat; auto).
    exists (rv_add (opos o) (rv_scale (D / rnorm W) W)), (D / rnorm W). split; [exact Rp|]. split; [|split; [exact F0|]].
    + unfold rdist. replace (rv_sub _ _) with (rv_scale (D / rnorm W) W) by (apply v3_ext; simpl; ring).
      rewrite rnorm_scale, Rabs_right by lra. field; lra.
    + pose proof (coords_of c r o X (D / rnorm W) HG) as EC. fold W in EC. rewrite EC. split; [reflexivity|].
      intros hide HB. cbn [rv_scale map3v cz] in HB.
      assert (D / rnorm W <> 0) by (intros Z; rewrite Z, Rmult_0_l, Rabs_R0 in HB; pose proof tinyR_pos; lra).
      destruct (ifs_of_ray c r (camM o) (opos o) p (D / rnorm W) X hide HG Rp ltac:(lra) HB HI) as (x&Ex&Rx).
      rewrite Ex, HDi. exact (corrects_back l L x Y X HL Rx HX).
Qed.
Print Assumptions C87_distance.

(** ** Objects *)
Theorem C87_height : forall c o x y z h feet head zn hide,
  rep3 feet (V3 x y z) -> rep3 head (V3 x y (z + h)) -> rep zn z ->
  observes c o (V3 x y z) -> observes c o (V3 x y (z + h)) ->
  x <> pos_x_m o -> y <> pos_y_m o -> z <> elevation_m o ->
  exists v, getObjectHeight c (imageFromSpace c feet hide) (imageFromSpace c head hide) zn = Some v /\ rep v h.
Proof.
  intros c o x y z h feet head zn hide Hf Hh Hz S1 S2 Nx Ny Nz.
  destruct (C87_recover c o feet _ AZ zn hide S1 Hf Hz Nz) as (f&Ef&Rf).
  destruct (C87_recover c o head _ AY (cy f) hide S2 Hh) as (h1&E1&R1); [apply Rf|exact Ny|].
  destruct (C87_recover c o head _ AX (cx f) hide S2 Hh) as (h2&E2&R2); [apply Rf|exact Nx|].
  unfold getObjectHeight. cbn [on_axis] in *. rewrite Ef, E1, E2.
  eexists; split; [reflexivity|]. destruct Rf as (_&_&Rf), R1 as (_&_&R1), R2 as (_&_&R2).
  unfold mean2; cbn [nv_div nv_add zip3v map3v cx cy cz] in *.
  eapply rep_eq; [rep_all; lra|]. field.
Qed.
Print Assumptions C87_height.
Theorem C87_length : forall c o P1 P2 p1 p2 z zn hide, rep3 p1 P1 -> rep3 p2 P2 -> rep zn z -> cz P1 = z -> cz P2 = z ->
  observes c o P1 -> observes c o P2 -> z <> elevation_m o ->
  exists v, getObjectLength c (imageFromSpace c p1 hide) (imageFromSpace c p2 hide) zn = Some v /\ rep v (rdist P1 P2).
Proof.
  intros c o P1 P2 p1 p2 z zn hide H1 H2 Hz Z1 Z2 S1 S2 Nz.
  destruct (C87_recover c o p1 P1 AZ zn hide S1 H1) as (a&Ea&Ra); [simpl; rewrite Z1; auto..|].
  destruct (C87_recover c o p2 P2 AZ zn hide S2 H2) as (b&Eb&Rb); [simpl; rewrite Z2; auto..|].
  unfold getObjectLength. cbn [on_axis] in *. rewrite Ea, Eb.
  eexists; split; [reflexivity|]. unfold rdist. apply rep_norm, rep3_sub; auto.
Qed.
Print Assumptions C87_length.

(** ** Two cameras, each with or without a lens *)
Theorem C87_triangulation : forall a b rest oa ob p P, observes a oa P -> observes b ob P -> rep3 p P ->
  rcross (rv_sub P (opos oa)) (rv_sub P (opos ob)) <> rv0 ->
  exists q1 q2 qs x, imagesFromSpace (a :: b :: rest) p = q1 :: q2 :: qs /\
    spaceFromImages (a :: b :: rest) q1 q2 = Some x /\ rep3 x P.
Proof.
  intros a b rest oa ob p P Sa Sb Hp HN.
  do 4 eexists. split; [reflexivity|]. split; [reflexivity|]. cbv zeta.
  destruct (C87_ray a oa p P true false Sa Hp) as (D1&l1&O1&R1&L1&_&E1).
  destruct (C87_ray b ob p P true false Sb Hp) as (D2&l2&O2&R2&L2&_&E2).
  apply (C22_intersection _ _ _ _ (opos oa) D1 (opos ob) D2 P l1 l2); auto; try (apply line_back; auto).
  intros Z. apply HN. rewrite E1, E2, rcross_scale, Z. apply rv_scale_0.
Qed.
Print Assumptions C87_triangulation.
Theorem C87_ray_distance : forall a b rest oa ob p P, observes a oa P -> observes b ob P -> rep3 p P ->
  close_tol * (rdist P (opos oa) * rdist P (opos ob)) < rnorm (rcross (rv_sub P (opos oa)) (rv_sub P (opos ob))) ->
  exists q1 q2 qs d, imagesFromSpace (a :: b :: rest) p = q1 :: q2 :: qs /\
    discanteBetweenRays (a :: b :: rest) q1 q2 = Some d /\ rep d 0.
Proof.
  intros a b rest oa ob p P Sa Sb Hp HN.
  do 4 eexists. split; [reflexivity|]. split; [reflexivity|]. cbv zeta.
  destruct (C87_ray a oa p P true true Sa Hp) as (D1&l1&O1&R1&L1&N1&E1).
  destruct (C87_ray b ob p P true true Sb Hp) as (D2&l2&O2&R2&L2&N2&E2).
  specialize (N1 eq_refl). specialize (N2 eq_refl).
  unfold rdist in HN. rewrite E1, E2, rcross_scale, !rnorm_scale, N1, N2 in HN.
  rewrite (Rabs_right l1), (Rabs_right l2), (Rabs_right (l1 * l2)) in HN; try nra.
  assert (LL : 0 < l1 * l2) by nra.
  destruct (C23_distance_of_lines _ _ _ _ _ _ _ _ O1 R1 O2 R2) as (d&Rd&MIN&s&t&ATT).
  { left. apply Rmult_lt_reg_l with (l1 * l2); auto. lra. }
  eapply rep_eq; [exact Rd|].
  pose proof (MIN l1 l2) as M. rewrite (line_back _ _ _ _ E1), (line_back _ _ _ _ E2) in M.
  unfold rdist in M at 1. replace (rv_sub P P) with rv0 in M by (apply v3_ext; simpl; ring).
  rewrite rnorm_rv0 in M. rewrite <- ATT in *.
  pose proof (rnorm_nonneg (rv_sub (line_at (opos oa) D1 s) (line_at (opos ob) D2 t))). unfold rdist in *. lra.
Qed.
Print Assumptions C87_ray_distance.

(** ** The horizon *)
(** The row of the horizon is the first for which the point on the ray of the corrected pixel, at
    the distance of the horizon, has the smallest height; [U j] is the corrected pixel of row [j]. *)
Theorem C87_horizon : forall c k r o l L er e R E H n X x rho, lens_cam c k r o l -> rep_lens l L ->
  rep er R -> rep e E -> 0 < R -> 0 <= E -> rep (im_height (cam_proj c)) H -> INR n - 1 < H <= INR n -> (0 < n)%nat -> rep x X ->
  let U j := radial L (rho j / radius L (V2 X (INR j))) (V2 X (INR j)) in
  (forall j, (j < n)%nat -> 0 < radius L (V2 X (INR j)) /\
     (forall y, rep y (radius L (V2 X (INR j))) -> rep (l_inv l y) (rho j)) /\ has_ray k r (U j)) ->
  exists D i, rep (distanceToHorizon er e) D /\ (i < n)%nat /\ getImageHorizon c er e (One x) = Some (inl (V2 x (Fin (INR i)))) /\
    let z j := Rabs (height_at o (rm_mul_v (rm_trans (camM o)) (rayR k r (U j))) D) in
    forall j, (j < n)%nat -> z i <= z j /\ (z j = z i -> (i <= j)%nat).
Proof.
  intros c k r o l L er e R E H n X x rho HP HL Hr He HR HE HH HN Hn Hx U HRay.
  set (D := sqrt (2 * (R * R) * (E / (R + E)))). assert (HD : rep (distanceToHorizon er e) D) by (apply dist_value; auto).
  assert (D0 : 0 <= D) by apply sqrt_pos.
  assert (AL : arange_len (im_height (cam_proj c)) = Some n).
  { unfold arange_len. unfold rep in HH. rewrite HH. f_equal. pose proof (Rfloor_bounds (- H)) as B.
    set (z := Rfloor (- H)) in *. rewrite INR_IZR_INZ in HN.
    assert (IZR (- z - 1) < IZR (Z.of_nat n)) by (rewrite minus_IZR, opp_IZR; lra).
    assert (IZR (Z.of_nat n) < IZR (- z + 1)) by (rewrite plus_IZR, opp_IZR; lra).
    apply lt_IZR in H0. apply lt_IZR in H1. assert (- z = Z.of_nat n)%Z by lia. rewrite H2. apply Nat2Z.id. }
  pose proof (C17_row c (distanceToHorizon er e) n x) as ROW. unfold getImageHorizon. rewrite AL.
  assert (FH : forall j, (j < n)%nat -> rep (row_height c (distanceToHorizon er e) x j) (Rabs (height_at o (rm_mul_v (rm_trans (camM o)) (rayR k r (U j))) D))).
  { intros j Hj. destruct (HRay j Hj) as (R0&A&Hh). destruct (lens_good _ _ _ _ _ HP) as (HG&HK&_&HU).
    assert (HQ : rep2 (cam_undist c (V2 x (Fin (INR j)))) (U j)).
    { rewrite HU. apply (C18_radial l L _ (V2 X (INR j)) (rho j) HL); auto. split; [exact Hx|apply rep_Fin]. }
    rewrite <- HK in *. destruct (sfi_D c r (camM o) (opos o) _ _ _ D HG HQ Hh HD) as (_&S). destruct (S D0) as (p&Ep&Rp).
    unfold row_height. rewrite Ep. apply rep_abs. destruct Rp as (_&_&Rz). eapply rep_eq; [exact Rz|].
    unfold height_at, dirW, opos. simpl. ring. }
  assert (EX : exists i, horizon_row c (distanceToHorizon er e) n x = V2 x (Fin (INR i)) /\ (i < n)%nat /\
      forall j b, (j < n)%nat -> rep (row_height c (distanceToHorizon er e) x j) b ->
        exists a, rep (row_height c (distanceToHorizon er e) x i) a /\ a <= b /\ (b = a -> (i <= j)%nat)).
  { assert (E2 : horizon_row c (distanceToHorizon er e) n x = V2 x (c2 (horizon_row c (distanceToHorizon er e) n x))) by reflexivity.
    destruct (c2 (horizon_row c (distanceToHorizon er e) n x)) eqn:EY;
      try (destruct ROW as (i&Y&Hi&M); exists i; rewrite E2, Y; auto; fail).
    exfalso. specialize (ROW 0%nat Hn). specialize (FH 0%nat Hn). rewrite ROW in FH. discriminate. }
  destruct EX as (i&EY&Hi&M). exists D, i. split; [exact HD|]. split; [exact Hi|]. rewrite EY. split; [reflexivity|].
  cbv zeta. intros j Hj. destruct (M j _ Hj (FH j Hj)) as (a&Ra&L1&L2).
  pose proof (rep_inj _ _ _ Ra (FH i Hi)) as ->. split; assumption.
Qed.
Print Assumptions C87_horizon.

(** A point straight ahead is never found again through a lens: its pixel is the centre. *)
Theorem C87_centre_refuted : exists c o l p, lens_cam c Rectilinear ex_r o l /\
  showable Rectilinear (cam_coords o p) /\ rdist p (opos o) = 20 /\
  imageFromSpace c (fin3 p) true = nan2 /\
  spaceFromImage c (imageFromSpace c (fin3 p) true) (on_D (Fin 20)) = Some nan3.
Proof.
  assert (H : rep_opar (opar_fin (ex_at 0)) (ex_at 0)) by (repeat split). destruct (init_rigid _ _ H) as (m&E&_).
  set (c := lens_camera Rectilinear (proj_fin ex_r) m ex_lens).
  assert (HC : lens_cam c Rectilinear ex_r (ex_at 0) ex_lens).
  { exists (proj_fin ex_r), m. split; [reflexivity|]. split; [repeat split|]. split; [split; simpl; lra|eauto]. }
  exists c, (ex_at 0), ex_lens, (V3 0 20 10). split; [exact HC|]. split; [apply ex_at_showable; simpl; lra|].
  split; [unfold rdist, rnorm; rewrite opos_at; transitivity (sqrt (20 * 20)); [f_equal; unfold rdot; simpl; ring|apply sqrt_square; lra]|].
  destruct (lens_good _ _ _ _ _ HC) as (HG&HK&HDi&HU).
  assert (EC : cam_coords (ex_at 0) (V3 0 20 10) = rv_scale 20 (rayR Rectilinear ex_r (V2 2000 1500))).
  { rewrite ex_at_coords. unfold rayR, alphaR, betaR. apply v3_ext; cbn; field. }
  rewrite <- HK in EC. pose proof (dirW_of _ _ _ _ _ _ HG EC) as EW.
  destruct (ifs_of_ray c ex_r (camM (ex_at 0)) (opos (ex_at 0)) (fin3 (V3 0 20 10)) 20 (V2 2000 1500) true HG) as (x&Ex&Rx).
  - eapply rep3_eq; [apply rep3_fin|]. rewrite <- EW. apply v3_ext; simpl; ring.
  - lra.
  - rewrite HK. cbn. rewrite Rabs_left; unfold tinyR; lra.
  - rewrite HK. exact Logic.I.
  - assert (EN : imageFromSpace c (fin3 (V3 0 20 10)) true = nan2).
    { rewrite Ex, HDi. apply (C18_centre_nan ex_lens (brown_frame ex_r) x ex_lens_rep). exact Rx. }
    split; [exact EN|]. rewrite EN. unfold spaceFromImage, on_D; cbn [k_X k_Y k_Z k_D k_mesh].
    rewrite (rep_ltb _ _ _ _ (rep_Fin 20) (rep_Fin 0)), Rltb_false by lra. reflexivity.
Qed.
Print Assumptions C87_centre_refuted.


(** ** Example: a Brown lens with k1 = 1; points at half the focal length from the centre *)
Lemma ex_lens_at s : exists c, lens_cam c Rectilinear ex_r (ex_at s) ex_lens.
Proof.
  assert (H : rep_opar (opar_fin (ex_at s)) (ex_at s)) by (repeat split). destruct (init_rigid _ _ H) as (m&E&_).
  exists (lens_camera Rectilinear (proj_fin ex_r) m ex_lens), (proj_fin ex_r), m.
  split; [reflexivity|]. split; [repeat split|]. split; [split; simpl; lra|eauto].
Qed.
Definition ex_pixel (s : R) (P : v3 R) : v2 R := V2 (2000 + 3500 * ((cx P - s) / cy P)) (1500 - 3500 * ((cz P - 10) / cy P)).
Lemma ex_shown s P : 1 <= cy P -> shown_at Rectilinear ex_r (ex_at s) P (ex_pixel s P).
Proof.
  intros H. split; [exact Logic.I|]. rewrite ex_at_coords. split.
  - cbn [cz]. rewrite Rabs_Ropp, Rabs_right; unfold tinyR; lra.
  - exists (cy P). split; [lra|]. unfold ex_pixel, rayR, alphaR, betaR. apply v3_ext; cbn; field; lra.
Qed.
Lemma ex_observes c s P : lens_cam c Rectilinear ex_r (ex_at s) ex_lens -> 1 <= cy P ->
  4 * ((cx P - s) * (cx P - s) + (cz P - 10) * (cz P - 10)) = cy P * cy P ->
  observes c (ex_at s) P /\ lens_inverts ex_lens (brown_frame ex_r) (ex_pixel s P).
Proof.
  intros HC H1 HR.
  assert (LI : lens_inverts ex_lens (brown_frame ex_r) (ex_pixel s P)).
  { apply ex_lens_inverts. unfold radius, brown_frame, ex_pixel; cbn. transitivity (sqrt (/ 2 * / 2)); [|apply sqrt_square; lra].
    f_equal. unfold Rsqr. set (u := cx P - s) in *. set (v := cz P - 10) in *. set (w := cy P) in *.
    transitivity ((4 * (u * u + v * v)) / (4 * (w * w))); [field; lra|rewrite HR; field; lra]. }
  split; [|exact LI]. right. exists Rectilinear, ex_r, ex_lens, (brown_frame ex_r), (ex_pixel s P).
  split; [exact HC|]. split; [exact ex_lens_rep|]. split; [apply ex_shown; exact H1|exact LI].
Qed.
Example C87_pixel_example : exists c, lens_cam c Rectilinear ex_r (ex_at 0) ex_lens /\
  rep2 (imageFromSpace c (fin3 (V3 10 20 10)) true) (V2 (2000 + 5 / 8 * 3500) 1500).
Proof.
  destruct (ex_lens_at 0) as (c&HC). exists c. split; [exact HC|].
  assert (ER : radius (brown_frame ex_r) (ex_pixel 0 (V3 10 20 10)) = / 2).
  { unfold radius, brown_frame, ex_pixel; cbn. transitivity (sqrt (/ 2 * / 2)); [|apply sqrt_square; lra]. f_equal. unfold Rsqr. field. }
  eapply rep2_eq; [eapply (C87_pixel c _ _ _ _ _ _ (V3 10 20 10) (ex_pixel 0 (V3 10 20 10)) (5 / 8) true HC ex_lens_rep (rep3_fin _))|].
  - apply ex_shown; cbn; lra.
  - lra.
  - rewrite ER. intros x Hx. eapply rep_eq; [apply (rep_brown (Fin 1) (Fin 0) (Fin 0) 1 0 0 x (/ 2) (rep_Fin _) (rep_Fin _) (rep_Fin _) Hx)|]. unfold brownR. lra.
  - rewrite ER. unfold radial, brown_frame, ex_pixel; apply v2_ext; cbn; field.
Qed.
(** The object of height 8 at (3, 10, 6), a length of 6, the point found again, and from two cameras. *)
Example C87_example : exists a b v w x x', lens_cam a Rectilinear ex_r (ex_at 0) ex_lens /\ lens_cam b Rectilinear ex_r (ex_at 6) ex_lens /\
  let P := fin3 (V3 3 10 6) in
  getObjectHeight a (imageFromSpace a P true) (imageFromSpace a (fin3 (V3 3 10 (6 + 8))) true) (Fin 6) = Some v /\ rep v 8 /\
  getObjectLength a (imageFromSpace a P true) (imageFromSpace a (fin3 (V3 (-3) 10 6)) true) (Fin 6) = Some w /\ rep w 6 /\
  spaceFromImages [a; b] (imageFromSpace a P true) (imageFromSpace b P true) = Some x /\ rep3 x (V3 3 10 6) /\
  spaceFromImage a (imageFromSpace a P true) (on_axis AY (Fin 10)) = Some x' /\ rep3 x' (V3 3 10 6).
Proof.
  destruct (ex_lens_at 0) as (a&Ha). destruct (ex_lens_at 6) as (b&Hb).
  destruct (ex_observes a 0 (V3 3 10 6) Ha) as (A1&_); try (cbn; lra).
  destruct (ex_observes a 0 (V3 3 10 (6 + 8)) Ha) as (A2&_); try (cbn; lra).
  destruct (ex_observes a 0 (V3 (-3) 10 6) Ha) as (A3&_); try (cbn; lra).
  destruct (ex_observes b 6 (V3 3 10 6) Hb) as (B1&_); try (cbn; lra).
  destruct (C87_height a (ex_at 0) 3 10 6 8 _ _ (Fin 6) true (rep3_fin _) (rep3_fin _) (rep_Fin _) A1 A2) as (v&Ev&Rv); try (cbn; lra).
  destruct (C87_length a (ex_at 0) _ _ _ _ 6 (Fin 6) true (rep3_fin (V3 3 10 6)) (rep3_fin (V3 (-3) 10 6)) (rep_Fin _) eq_refl eq_refl A1 A3) as (w&Ew&Rw); try (cbn; lra).
  destruct (C87_triangulation a b [] (ex_at 0) (ex_at 6) (fin3 (V3 3 10 6)) _ A1 B1 (rep3_fin _)) as (q1&q2&qs&x&Eq&Ex&Rx).
  { rewrite !opos_at. vring. intros H; injection H; lra. }
  injection Eq as <- <- <-.
  destruct (C87_recover a (ex_at 0) _ _ AY (Fin 10) true A1 (rep3_fin (V3 3 10 6))) as (x'&Ex'&Rx'); [apply rep_Fin|cbn; lra|].
  exists a, b, v, w, x, x'. split; [exact Ha|]. split; [exact Hb|]. cbv zeta.
  split; [exact Ev|]. split; [exact Rv|]. split; [exact Ew|]. split.
  { eapply rep_eq; [exact Rw|]. unfold rdist, rnorm. transitivity (sqrt (6 * 6)); [f_equal; unfold rdot; simpl; ring|apply sqrt_square; lra]. }
  split; [exact Ex|]. split; [exact Rx|]. split; [exact Ex'|exact Rx'].
Qed.
Example C87_ray_distance_example : exists a b d, lens_cam a Rectilinear ex_r (ex_at 0) ex_lens /\ lens_cam b Rectilinear ex_r (ex_at 6) ex_lens /\
  discanteBetweenRays [a; b] (imageFromSpace a (fin3 (V3 3 10 6)) true) (imageFromSpace b (fin3 (V3 3 10 6)) true) = Some d /\ rep d 0.
Proof.
  destruct (ex_lens_at 0) as (a&Ha). destruct (ex_lens_at 6) as (b&Hb).
  destruct (ex_observes a 0 (V3 3 10 6) Ha) as (A1&_); try (cbn; lra).
  destruct (ex_observes b 6 (V3 3 10 6) Hb) as (B1&_); try (cbn; lra).
  destruct (C87_ray_distance a b [] (ex_at 0) (ex_at 6) (fin3 (V3 3 10 6)) _ A1 B1 (rep3_fin _)) as (q1&q2&qs&d&Eq&Ed&Rd).
  { rewrite !opos_at. unfold rdist, rnorm. rewrite <- sqrt_mult by (unfold rdot; simpl; lra).
    assert (E1 : sqrt (rdot (rv_sub (V3 3 10 6) (V3 0 0 10)) (rv_sub (V3 3 10 6) (V3 0 0 10)) *
                       rdot (rv_sub (V3 3 10 6) (V3 6 0 10)) (rv_sub (V3 3 10 6) (V3 6 0 10))) = 125).
    { transitivity (sqrt (125 * 125)); [f_equal; unfold rdot; simpl; ring|apply sqrt_square; lra]. }
    rewrite E1. apply Rlt_le_trans with 1; [unfold close_tol; lra|].
    rewrite <- sqrt_1. apply sqrt_le_1_alt. unfold rdot; simpl; lra. }
  injection Eq as <- <- <-. exists a, b, d. auto.
Qed.
Lemma ex_corrects : corrects ex_lens (brown_frame ex_r) (V2 (2000 + 5 / 8 * 3500) 1500) (V2 3750 1500).
Proof.
  assert (ER : radius (brown_frame ex_r) (V2 (2000 + 5 / 8 * 3500) 1500) = 5 / 8).
  { unfold radius, brown_frame; cbn. transitivity (sqrt (5 / 8 * (5 / 8))); [|apply sqrt_square; lra]. f_equal. unfold Rsqr. field. }
  unfold corrects. rewrite ER. split; [lra|]. exists (/ 2). split; [lra|]. split; [|split; [exact ex_lens_inv|]].
  - unfold radial, brown_frame; apply v2_ext; cbn; field.
  - intros x Hx. eapply rep_eq; [apply (rep_brown (Fin 1) (Fin 0) (Fin 0) 1 0 0 x (/ 2) (rep_Fin _) (rep_Fin _) (rep_Fin _) Hx)|]. unfold brownR. lra.
Qed.
Example C87_constraint_example : exists c p p', lens_cam c Rectilinear ex_r (ex_at 0) ex_lens /\
  let q := fin2 (V2 (2000 + 5 / 8 * 3500) 1500) in
  spaceFromImage c q (on_axis AY (Fin 20)) = Some p /\ rep3 p (V3 10 20 10) /\
  rep2 (imageFromSpace c p true) (V2 (2000 + 5 / 8 * 3500) 1500) /\
  spaceFromImage c q (on_D (Fin 7)) = Some p' /\ exists P, rep3 p' P /\ rdist P (V3 0 0 10) = 7.
Proof.
  destruct (ex_lens_at 0) as (c&HC).
  destruct (C87_constraint c _ _ _ _ _ (fin2 (V2 (2000 + 5 / 8 * 3500) 1500)) _ _ AY (Fin 20) 20 HC ex_lens_rep (rep2_fin _) ex_corrects Logic.I (rep_Fin _)) as (W&EW&_&S).
  destruct (C87_distance c _ _ _ _ _ (fin2 (V2 (2000 + 5 / 8 * 3500) 1500)) _ _ (Fin 7) 7 HC ex_lens_rep (rep2_fin _) ex_corrects Logic.I (rep_Fin _)) as (p'&Ep'&_&S').
  destruct (S' ltac:(lra)) as (P'&t&RP'&D'&_). rewrite ex_at_coords in EW.
  unfold rayR, alphaR, betaR in EW. injection EW as E1 E2 E3. destruct W as [wx wy wz]. cbn in E1, E2, E3.
  assert (W1 : wx = / 2) by lra. assert (W2 : wy = 1) by lra. assert (W3 : wz = 0) by lra. subst wx wy wz.
  destruct (S ltac:(cbn; lra)) as (p&Ep&_&Q). destruct (Q ltac:(cbn; lra)) as (P&RP&_&EP&IM).
  assert (EP2 : P = V3 10 20 10) by (rewrite EP; apply v3_ext; cbn; field). clear EP. subst P.
  exists c, p, p'. split; [exact HC|]. cbv zeta. split; [exact Ep|]. split; [exact RP|]. split.
  - apply IM. rewrite ex_at_coords. cbn. rewrite Rabs_left; unfold tinyR; lra.
  - split; [exact Ep'|]. exists P'. rewrite opos_at in D'. auto.
Qed.
Example C87_horizon_example : exists c i, lens_cam c Rectilinear ex_r (ex_at 0) (brown_lens (fun _ x => x) (Fin 0) (Fin 0) (Fin 0) (proj_fin ex_r)) /\
  (i < 3000)%nat /\ getImageHorizon c (Fin 6371000) (Fin 10) (One (Fin 5)) = Some (inl (V2 (Fin 5) (Fin (INR i)))).
Proof.
  set (l := brown_lens (fun _ x => x) (Fin 0) (Fin 0) (Fin 0) (proj_fin ex_r)).
  assert (H : rep_opar (opar_fin (ex_at 0)) (ex_at 0)) by (repeat split). destruct (init_rigid _ _ H) as (m&E&_).
  set (c := lens_camera Rectilinear (proj_fin ex_r) m l).
  assert (HC : lens_cam c Rectilinear ex_r (ex_at 0) l).
  { exists (proj_fin ex_r), m. split; [reflexivity|]. split; [repeat split|]. split; [split; simpl; lra|eauto]. }
  assert (HL : rep_lens l (brown_frame ex_r)) by (apply rep_brown_lens; [repeat split|split; simpl; lra]).
  destruct (C87_horizon c Rectilinear ex_r (ex_at 0) l (brown_frame ex_r) (Fin 6371000) (Fin 10) 6371000 10 3000 3000 5 (Fin 5)
    (fun j => radius (brown_frame ex_r) (V2 5 (INR j))) HC HL) as (D&i&_&Hi&EH&_); try apply rep_Fin; try lra; try lia.
  - rewrite INR_IZR_INZ. split; apply Rle_refl || (apply Rlt_le_trans with (IZR 3000); [simpl; lra|apply Rle_refl]).
  - intros j _. split; [|split; [|exact Logic.I]].
    2: { intros y Hy. unfold l, brown_lens, invert_function; cbn [l_inv]. cbv zeta. match goal with |- context [if ?b then _ else _] => destruct b end; exact Hy. }
    unfold radius. apply sqrt_lt_R0. cbn. unfold Rsqr.
    pose proof (Rle_0_sqr ((INR j - 1500) / 3500)) as G. unfold Rsqr in G. set (g := (INR j - 1500) / 3500) in *. nra.
  - exists c, i. auto.
Qed.
Example C87_inexact_example : exists c X', lens_cam c Rectilinear ex_r (ex_at 0) (Lens (V2 (Fin 2000) (Fin 1500)) (V2 (Fin 3500) (Fin 3500)) (fun x => x) (fun _ => Fin (6 / 10))) /\
  rep2 (cam_undist c (imageFromSpace c (fin3 (V3 10 20 10)) true)) X' /\
  sqrt (Rsqr ((c1 X' - 3750) / 3500) + Rsqr ((c2 X' - 1500) / 3500)) = / 10.
Proof.
  set (l := Lens _ _ _ _).
  assert (H : rep_opar (opar_fin (ex_at 0)) (ex_at 0)) by (repeat split). destruct (init_rigid _ _ H) as (m&E&_).
  set (c := lens_camera Rectilinear (proj_fin ex_r) m l).
  assert (HC : lens_cam c Rectilinear ex_r (ex_at 0) l).
  { exists (proj_fin ex_r), m. split; [reflexivity|]. split; [repeat split|]. split; [split; simpl; lra|eauto]. }
  assert (HL : rep_lens l (brown_frame ex_r)) by (repeat split; cbn; lra).
  assert (ER : radius (brown_frame ex_r) (ex_pixel 0 (V3 10 20 10)) = / 2).
  { unfold radius, brown_frame, ex_pixel; cbn. transitivity (sqrt (/ 2 * / 2)); [|apply sqrt_square; lra]. f_equal. unfold Rsqr. field. }
  destruct (C87_inexact c _ _ _ _ _ _ (V3 10 20 10) (ex_pixel 0 (V3 10 20 10)) (/ 2) (6 / 10) true HC HL (rep3_fin _)) as (X'&RX&EX&_).
  - apply ex_shown; cbn; lra.
  - lra.
  - lra.
  - rewrite ER. intros x Hx; exact Hx.
  - intros x _. apply rep_Fin.
  - exists c, X'. split; [exact HC|]. split; [exact RX|]. rewrite ER in EX.
    replace (Rabs (6 / 10 - / 2)) with (/ 10) in EX by (rewrite Rabs_right; lra). rewrite <- EX.
    unfold ex_pixel, brown_frame; cbn. do 2 f_equal; f_equal; field.
Qed.
