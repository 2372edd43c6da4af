(** * C59: pixels and gps positions *)
Require Import Reals Lra Lia Psatz List Bool.
From Verif Require Import Num Vec Trig Orientation OrientationFacts Projection ProjectionFacts Ray RayFacts CameraTransform CameraFacts Gps PropGps LogProb
  Horizon Stereo FitTerms GpsImage PropProjection PropCamera PropRay PropStereo PropFitTerms.
Import ListNotations.
Open Scope R_scope.

(** ** Specification *)
(** [Q] is the place reached from latitude [phi] and longitude [lam] on a sphere of radius [r] by walking straight
    ahead, in the direction [x] east and [y] north, as far as the length of that vector *)
Definition walked (phi lam r x y : R) (Q : v3 R) : Prop :=
  exists d b, 0 <= d /\ x = d * sin b /\ y = d * cos b /\ Q = onward phi lam (d / r) b.
(** The coordinates after the two conversions, around a camera at the elevation [e] *)
Definition shrunk (e : R) (P : v3 R) : v3 R := V3 (cx P * (RE / (RE + e))) (cy P * (RE / (RE + e))) (cz P).

(** ** From the image to gps *)
Lemma gps_of_point la lo el a l e p P : rep la a -> rep lo l -> rep el e -> -90 < a < 90 -> - RE < e -> rep3 p P ->
  let g := cam_gpsFromSpace la lo el (of_point p) in
  (exists h, hgt g = Some h /\ rep h (cz P)) /\ exists Q, place g Q /\ walked (rad a) (rad l) (RE + e) (cx P) (cy P) Q.
Proof.
  intros Ra Rl Re Ba He (R1&R2&R3). cbv zeta. split; [exists (cz p); auto|].
  destruct (space_polar (of_point p) (cx P) (cy P) R1 R2) as (B&RB&EX&EY&RD).
  exists (onward (rad a) (rad l) (hyp (cy P) (cx P) / (RE + e)) (rad B)). split.
  - destruct (C31_destination (Gpt la lo (Some el)) a l _ _ _ _ (RE + e) Ra Rl Ba RD RB) as ((a'&o'&X1&X2&X3)&_); [exists e; auto|lra|].
    exists a', o'. unfold cam_gpsFromSpace, gpsFromSpace, of_point; cbn [sx sy sz lat lon]. auto.
  - exists (hyp (cy P) (cx P)), (rad B). split; [apply hyp_nonneg|]. auto.
Qed.
(** The pixel of a visible point with one known coordinate: the gps position is [cx P] east and [cy P] north of the
    position of the camera, measured on the sphere through the camera, at the height of the point. *)
Theorem C59_gps_from_image : forall c k r o la lo el a l p P i g hide,
  plain_cam c k r o -> rep la a -> rep lo l -> rep el (elevation_m o) -> -90 < a < 90 -> - RE < elevation_m o ->
  rep3 p P -> showable k (cam_coords o P) -> rep g (get_axis i P) -> get_axis i P <> get_axis i (opos o) ->
  exists gp, gpsFromImage c la lo el (imageFromSpace c p hide) (on_axis i g) = Some gp /\
    (exists h, hgt gp = Some h /\ rep h (cz P)) /\ exists Q, place gp Q /\ walked (rad a) (rad l) (RE + elevation_m o) (cx P) (cy P) Q.
Proof.
  intros c k r o la lo el a l p P i g hide HC Ra Rl Re Ba He Hp HS Hg NE.
  destruct (C12_recover_point c k r o p P i g hide HC Hp HS Hg NE) as (p'&E&R').
  unfold gpsFromImage. rewrite E. cbn [option_map]. eexists. split; [reflexivity|].
  apply (gps_of_point la lo el a l (elevation_m o) p' P); auto.
Qed.
Print Assumptions C59_gps_from_image.

(** ** From gps to the image *)
Lemma back la lo el a l e p P : rep la a -> rep lo l -> rep el e -> -90 < a < 90 -> - RE < e -> rep3 p P ->
  sqrt (cy P * cy P + cx P * cx P) < PI * (RE + e) ->
  exists s q, cam_spaceFromGPS la lo (cam_gpsFromSpace la lo el (of_point p)) = Some s /\ to_point s = Some q /\ rep3 q (shrunk e P).
Proof.
  intros Ra Rl Re Ba He (R1&R2&R3) D.
  destruct (C32_camera la lo el a l e (of_point p) (cx P) (cy P) (cz p) (cz P)) as (t&E&X&Y&(w&W&RW)); auto.
  exists t, (V3 (sx t) (sy t) w). split; auto. split; [unfold to_point; rewrite W; reflexivity|]. split; auto.
Qed.
Lemma same_image c k r o p p' P hide hide' Q : plain_cam c k r o -> rep3 p P -> rep3 p' P -> showable k (cam_coords o P) ->
  rep2 (imageFromSpace c p hide) Q -> in_range k r Q -> rep2 (imageFromSpace c p' hide') Q.
Proof.
  intros HC Hp Hp' HS HQ IR. apply (image_dir c k r o p' P Q); auto.
  destruct (plain_good _ _ _ _ HC) as (HG&HK&HDi&HU).
  destruct (ifs_spec c r (camM o) (opos o) p P hide HG Hp) as (x&Q1&Ex&Rx&_&_&(l&Hl&E)). { rewrite HK; exact HS. }
  rewrite Ex, HDi in HQ. assert (Q1 = Q) as -> by (destruct HQ as (A1&A2), Rx as (B1&B2); apply v2_ext; eapply rep_inj; eauto).
  exists l. split; auto. unfold cam_coords. rewrite E. rewrite rm_mul_v_scale. f_equal.
  destruct HG as (_&_&HR). rewrite (dirW_back c r (camM o) (opos o) Q _ HR). rewrite HK. reflexivity.
Qed.
(** Pixel to gps and back: the image of the point moved towards the vertical through the origin. *)
Theorem C59_there_and_back : forall c k r o la lo el a l p P i g hide,
  plain_cam c k r o -> rep la a -> rep lo l -> rep el (elevation_m o) -> -90 < a < 90 -> - RE < elevation_m o ->
  rep3 p P -> showable k (cam_coords o P) -> rep g (get_axis i P) -> get_axis i P <> get_axis i (opos o) ->
  sqrt (cy P * cy P + cx P * cx P) < PI * (RE + elevation_m o) ->
  exists gp q p', gpsFromImage c la lo el (imageFromSpace c p hide) (on_axis i g) = Some gp /\
    imageFromGPS c la lo gp = Some q /\ rep3 p' (shrunk (elevation_m o) P) /\ q = imageFromSpace c p' true /\
    (elevation_m o = 0 -> forall Q, rep2 (imageFromSpace c p hide) Q -> in_range k r Q -> rep2 q Q).
Proof.
  intros c k r o la lo el a l p P i g hide HC Ra Rl Re Ba He Hp HS Hg NE HD.
  destruct (C12_recover_point c k r o p P i g hide HC Hp HS Hg NE) as (p1&E&R1).
  destruct (back la lo el a l (elevation_m o) p1 P) as (s&p'&ES&EP&RP); auto.
  exists (cam_gpsFromSpace la lo el (of_point p1)), (imageFromSpace c p' true), p'.
  unfold gpsFromImage, imageFromGPS. rewrite E, ES, EP. splits; auto. intros E0 Q HQ IR.
  assert (EQ : shrunk (elevation_m o) P = P).
  { pose proof RE_pos. unfold shrunk. rewrite E0. destruct P as [x y z]. apply v3_ext; cbn [cx cy cz]; field; lra. }
  rewrite EQ in RP. apply (same_image c k r o p p' P hide true Q); auto.
Qed.
Print Assumptions C59_there_and_back.
(** How far the point is moved. *)
Theorem C59_displacement : forall e P, - RE < e -> rdist P (shrunk e P) = sqrt (cy P * cy P + cx P * cx P) * (Rabs e / (RE + e)).
Proof.
  intros e P He. unfold rdist, rnorm. replace (rdot _ _) with ((cy P * cy P + cx P * cx P) * ((e / (RE + e)) * (e / (RE + e)))).
  - rewrite sqrt_mult; [|apply Rplus_le_le_0_compat; apply Rle_0_sqr|apply Rle_0_sqr]. f_equal.
    change (e / (RE + e) * (e / (RE + e))) with (Rsqr (e / (RE + e))). rewrite sqrt_Rsqr_abs. unfold Rdiv. rewrite Rabs_mult. f_equal.
    apply Rabs_right. left. apply Rinv_0_lt_compat. lra.
  - unfold rdot, rv_sub, zip3v, shrunk. cbn [cx cy cz]. field. lra.
Qed.
(** Ten kilometres above the origin, looking at a place on the ground 20 kilometres away: more than two pixels. *)
Definition ex_plane : opar R := OPar 10000 90 0 0 0 0.
Lemma ex_plane_coords P : cam_coords ex_plane P = V3 (cx P) (cz P - 10000) (- cy P).
Proof.
  unfold cam_coords, camM; cbn [tilt_deg roll_deg heading_deg ex_plane].
  replace (rad 90) with (PI / 2) by (unfold rad; field). replace (rad 0) with 0 by (unfold rad; ring).
  apply v3_ext; cbv [rotm rm_mul_v rv_sub zip3v rdot opos pos_x_m pos_y_m elevation_m ex_plane cx cy cz];
  rewrite ?sin_PI2, ?cos_PI2, ?sin_0, ?cos_0; ring.
Qed.
Theorem C59_there_and_back_refuted : exists c la lo el p gp q Q Q', plain_cam c Rectilinear ex_r ex_plane /\ rep el (elevation_m ex_plane) /\
  gpsFromImage c la lo el (imageFromSpace c p true) (on_axis AZ (Fin 0)) = Some gp /\ imageFromGPS c la lo gp = Some q /\
  rep2 (imageFromSpace c p true) Q /\ rep2 q Q' /\ c2 Q + 2 < c2 Q'.
Proof.
  destruct (ex_camera ex_plane) as (c&HC). set (P := V3 0 20000 0). pose proof RE_pos as HR.
  destruct (C59_there_and_back c Rectilinear ex_r ex_plane (Fin (496/10)) (Fin 11) (Fin 10000) (496/10) 11 (fin3 P) P AZ (Fin 0) true)
    as (gp&q&p'&E1&E2&RP&EQ&_); auto using rep3_fin, rep_Fin; cbn [elevation_m ex_plane]; try lra.
  - rewrite ex_plane_coords. split; unfold P; cbn [cx cy cz]; [rewrite Rabs_left; unfold tinyR; lra|lra].
  - unfold P; cbn. lra.
  - unfold P; cbn [cx cy]. replace (20000 * 20000 + 0 * 0) with (20000 * 20000) by ring. rewrite sqrt_square by lra.
    pose proof PI2_3_2. unfold RE, PI2 in *. lra.
  - exists c, (Fin (496/10)), (Fin 11), (Fin 10000), (fin3 P), gp, q, (V2 2000 3250), (V2 2000 (1500 + 1750 * ((RE + 10000) / RE))).
    splits; auto using rep_Fin.
    + apply (image_dir c Rectilinear ex_r ex_plane _ P); auto using rep3_fin; rewrite ?ex_plane_coords; unfold P; cbn [cx cy cz].
      * split; cbn [cz]; [rewrite Rabs_left; unfold tinyR; lra|lra].
      * exact I.
      * exists 20000; split; [lra|]. apply v3_ext; cbn; unfold alphaR, betaR; cbn; field.
    + rewrite EQ. cbn [elevation_m ex_plane] in RP.
      assert (K : 1/2 < RE / (RE + 10000)) by (apply (Rmult_lt_reg_r (RE + 10000)); [lra|]; unfold Rdiv; rewrite (Rmult_assoc RE), Rinv_l; unfold RE; lra).
      apply (image_dir c Rectilinear ex_r ex_plane _ (shrunk 10000 P)); auto; rewrite ?ex_plane_coords; unfold P, shrunk; cbn [cx cy cz].
      * split; cbn [cz]; [rewrite Rabs_left; unfold tinyR; lra|lra].
      * exact I.
      * exists (20000 * (RE / (RE + 10000))); split; [lra|]. apply v3_ext; cbn; unfold alphaR, betaR; cbn; field; lra.
    + cbn [c2]. unfold RE. lra.
Qed.
Print Assumptions C59_there_and_back_refuted.

(** ** Arrays of points *)
Definition with_height (g : gpt) (z : num) : gpt := Gpt (lat g) (lon g) (Some z).
Lemma rows_of (f : gpt -> option spt) (h : gpt -> v3 num) gs :
  Forall (fun g => exists s, f g = Some s /\ to_point s = Some (h g)) gs ->
  exists ss, all_some (map f gs) = Some ss /\ all_some (map to_point ss) = Some (map h gs).
Proof.
  induction 1 as [|g gs (s&E&P) _ (ss&E1&E2)]; [exists []; auto|].
  exists (s :: ss). cbn [map all_some]. rewrite E, E1, P, E2. auto.
Qed.
Definition at_gps (la lo : num) (g : gpt) (z : num) : v3 num :=
  let d := getDistance (Gpt la lo None) g in let b := ndeg2rad (getBearing (Gpt la lo None) g) in V3 (d * nsin b)%num (d * ncos b)%num z.
Definition height_of (g : gpt) : num := match hgt g with Some h => h | None => Fin 0 end.
Lemma points_batch la lo gs : Forall (fun g => hgt g <> None) gs ->
  points_from_gps la lo gs = Some (map (fun g => at_gps la lo g (if Nat.eqb (length gs) 2 then Fin 0 else height_of g)) gs).
Proof.
  intros H. unfold points_from_gps, spaceFromGPS_batch.
  destruct (rows_of (space_row (length gs) (Gpt la lo None)) (fun g => at_gps la lo g (if Nat.eqb (length gs) 2 then Fin 0 else height_of g)) gs) as (ss&E1&E2).
  - eapply Forall_impl; [|exact H]. intros g NH. unfold space_row, height_of. destruct (hgt g) as [h|] eqn:Eh; [|congruence].
    destruct (Nat.eqb (length gs) 2); eexists; split; reflexivity.
  - rewrite E1. exact E2.
Qed.
Lemma single la lo g c : hgt g <> None -> imageFromGPS c la lo g = Some (imageFromSpace c (at_gps la lo g (height_of g)) true).
Proof.
  intros H. unfold imageFromGPS, cam_spaceFromGPS, spaceFromGPS, space_row, Gps.columns, height_of. destruct (hgt g) as [h|] eqn:E; [|congruence]. reflexivity.
Qed.
(** Any number of points other than two: each is shown where it is shown alone.  Two points: both are shown as if they were
    at the height 0. *)
Theorem C59_batch : forall c la lo gs, Forall (fun g => hgt g <> None) gs -> length gs <> 2%nat ->
  exists qs, imageFromGPS_batch c la lo gs = Some qs /\ Forall2 (fun g q => imageFromGPS c la lo g = Some q) gs qs.
Proof.
  intros c la lo gs H N2. unfold imageFromGPS_batch. rewrite points_batch by auto. cbn [option_map]. eexists. split; [reflexivity|].
  apply Nat.eqb_neq in N2. rewrite N2, map_map. clear N2. induction H as [|g gs Hg _ IH]; constructor; auto. apply single; auto.
Qed.
Theorem C59_two_points : forall c la lo g g', hgt g <> None -> hgt g' <> None ->
  exists q q', imageFromGPS_batch c la lo [g; g'] = Some [q; q'] /\
    imageFromGPS c la lo (with_height g (Fin 0)) = Some q /\ imageFromGPS c la lo (with_height g' (Fin 0)) = Some q'.
Proof.
  intros c la lo g g' H H'. unfold imageFromGPS_batch. rewrite points_batch by auto. cbn [option_map map length Nat.eqb]. do 2 eexists. split; [reflexivity|].
  split; rewrite single by discriminate; reflexivity.
Qed.
Print Assumptions C59_batch.

(** ** Landmarks given by their gps positions *)
Definition gl_equal_unc (m : gps_landmark) (s : R) : Prop := rep3 (gl_unc m) (V3 s s s) /\ 0 < s.
Definition gl_place (m : gps_landmark) : Prop := (exists P, place (gl_gps m) P) /\ exists h z, hgt (gl_gps m) = Some h /\ rep h z.
Definition seen_gps (c : camera) (k : pkind) (o : opar R) (la lo : num) (m : gps_landmark) : Prop :=
  imageFromGPS c la lo (gl_gps m) = Some (gl_image m) /\
  exists s p L, cam_spaceFromGPS la lo (gl_gps m) = Some s /\ to_point s = Some p /\ rep3 p L /\ showable k (cam_coords o L).
Definition gl_direction (k : pkind) (r : proj R) (m : gps_landmark) : Prop :=
  exists Q, rep2 (gl_image m) Q /\ (k = Equirectangular -> cos ((c2 Q - center_y r) / f_y r) <> 0).

Lemma at_gps_finite la lo a l g z Z : rep la a -> rep lo l -> (exists P, place g P) -> rep z Z -> exists L, rep3 (at_gps la lo g z) L.
Proof.
  intros Ra Rl (P&HP) Rz. destruct (C30_distance (Gpt la lo None) g (unitv (rad a) (rad l)) P) as (t&_&RD); auto; [exists a, l; auto|].
  destruct (bearing_args (Gpt la lo None) g a l P Ra Rl HP) as (R1&R2). destruct (natan2_finite _ _ _ _ R1 R2) as (th&RT).
  assert (RB : rep (ndeg2rad (getBearing (Gpt la lo None) g)) (th * (180 / PI) * (PI / 180))) by (apply rep_deg2rad, rep_rad2deg; exact RT).
  eexists (V3 _ _ _). unfold at_gps. cbv zeta. split; [|split]; cbn [cx cy cz]; [apply rep_mul; [exact RD|apply rep_sin; exact RB]|apply rep_mul; [exact RD|apply rep_cos; exact RB]|exact Rz].
Qed.
Lemma combine_gps f ms : map (fun x : gps_landmark * v3 num => Landmark (gl_image (fst x)) (snd x) (gl_unc (fst x))) (combine ms (map f (map gl_gps ms)))
  = map (fun m => Landmark (gl_image m) (f (gl_gps m)) (gl_unc m)) ms.
Proof. induction ms as [|m ms IH]; [reflexivity|]. cbn [map combine]. rewrite IH. reflexivity. Qed.
Lemma gl_heights ms : Forall gl_place ms -> Forall (fun g => hgt g <> None) (map gl_gps ms).
Proof. induction 1 as [|m ms (_&h&z&E&_) _ IH]; constructor; auto. congruence. Qed.
Lemma gps_term c la lo pos offset ms : Forall gl_place ms -> gps_landmark_term c la lo pos offset ms =
  Some (nsum (map (fun m => landmark_1 c pos offset
    (Landmark (gl_image m) (at_gps la lo (gl_gps m) (if Nat.eqb (length ms) 2 then Fin 0 else height_of (gl_gps m))) (gl_unc m))) ms)).
Proof.
  intros H. unfold gps_landmark_term. rewrite points_batch by (apply gl_heights; auto). rewrite map_length, combine_gps. unfold landmark_term. rewrite map_map. reflexivity.
Qed.
(** The camera whose images the pixels are: no camera, no position and no origin has a larger term, unless there are exactly
    two landmarks. *)
Theorem C59_landmarks : forall c k r o la lo pos offset off ms ss,
  plain_cam c k r o -> rep3 pos (opos o) -> rep offset off -> length ms <> 2%nat ->
  Forall2 gl_equal_unc ms ss -> Forall gl_place ms -> Forall (seen_gps c k o la lo) ms ->
  exists t v, gps_landmark_term c la lo pos offset ms = Some t /\ rep t v /\
    forall c' k' r' o' la' lo' a' l' pos', plain_cam c' k' r' o' -> rep la' a' -> rep lo' l' -> rep3 pos' (opos o') ->
    Forall (gl_direction k' r') ms -> exists t', gps_landmark_term c' la' lo' pos' offset ms = Some t' /\ at_most t' v.
Proof.
  intros c k r o la lo pos offset off ms ss HC HP Hoff N2 HU HPl HS. apply Nat.eqb_neq in N2.
  rewrite gps_term, N2 by auto. eexists. exists (rsum (map (fun s => best s off) ss)). split; [reflexivity|]. split.
  - apply nsum_rep. revert HPl HS. clear N2. induction HU as [|m s ms ss (U&P) _ IH]; intros HPl HS; [constructor|].
    inversion HS as [|? ? S1 S2]; inversion HPl as [|? ? T1 T2]; subst. cbn [map]. constructor; [|apply IH; auto].
    destruct S1 as (EI&s0&p&L&ES&EP&HL&SH). destruct T1 as (_&h&z&Eh&_).
    assert (NH : hgt (gl_gps m) <> None) by congruence. rewrite single in EI by auto. injection EI as EI.
    assert (Ep : p = at_gps la lo (gl_gps m) (height_of (gl_gps m))).
    { unfold cam_spaceFromGPS, spaceFromGPS, space_row, Gps.columns in ES. unfold height_of. rewrite Eh in *. cbn [Nat.eqb] in ES.
      injection ES as ES. subst s0. cbn in EP. injection EP as EP. subst p. reflexivity. }
    rewrite <- Ep in *. set (M := Landmark (gl_image m) p (gl_unc m)).
    destruct (seen_direction c k r o p L true true HC HL SH) as (Q&D&l&RQ&RO&RD&Hl&ND&E). rewrite EI in *.
    assert (NZ : D <> rv0). { intros Z. specialize (ND eq_refl). rewrite Z, rnorm_rv0 in ND. lra. }
    destruct (C58_landmark_best c pos offset M (opos o) D L s off) as (v&RV&_&_&B); auto.
    rewrite B in RV; auto. exists l. split; [lra|]. unfold line_at. rewrite <- E. apply v3_ext; cbn; ring.
  - intros c' k' r' o' la' lo' a' l' pos' HC' Ra Rl HP' HD. rewrite gps_term, N2 by auto. eexists. split; [reflexivity|].
    apply sum_at_most. revert HPl HD. clear N2 HS. induction HU as [|m s ms ss (U&P) _ IH]; intros HPl HD; [constructor|].
    inversion HD as [|? ? D1 D2]; inversion HPl as [|? ? T1 T2]; subst. cbn [map]. constructor; [|apply IH; auto].
    destruct T1 as (T1&h&z&Eh&Rz). destruct (at_gps_finite la' lo' a' l' (gl_gps m) (height_of (gl_gps m)) z) as (L&HL); auto.
    { unfold height_of. rewrite Eh. exact Rz. }
    set (M := Landmark _ _ _). destruct (landmark_direction _ _ _ _ M HC' D1) as (V&RO&RV&NZ).
    destruct (C58_landmark_best c' pos' offset M (opos o') V L s off) as (v&Rv&Lv&_); auto. right; right. eauto.
Qed.
Print Assumptions C59_landmarks.

(** Two landmarks: the heights are lost, and a camera that shows neither where it was seen has a larger term. *)
Definition ex_zero : opar R := OPar 0 90 0 0 0 0.
Lemma ex_zero_coords P : cam_coords ex_zero P = V3 (cx P) (cz P) (- cy P).
Proof.
  unfold cam_coords, camM; cbn [tilt_deg roll_deg heading_deg ex_zero].
  replace (rad 90) with (PI / 2) by (unfold rad; field). replace (rad 0) with 0 by (unfold rad; ring).
  apply v3_ext; cbv [rotm rm_mul_v rv_sub zip3v rdot opos pos_x_m pos_y_m elevation_m ex_zero cx cy cz];
  rewrite ?sin_PI2, ?cos_PI2, ?sin_0, ?cos_0; ring.
Qed.
Lemma some_camera r o : f_x r <> 0 /\ f_y r <> 0 -> exists c, plain_cam c Rectilinear r o.
Proof.
  intros HF. assert (H : rep_opar (opar_fin o) o) by (repeat split). destruct (init_rigid _ _ H) as (m&E&_).
  exists (plain_camera Rectilinear (proj_fin r) m), (proj_fin r), m. splits; eauto. repeat split.
Qed.
Definition ex_low : proj R := Proj 3500 3500 2000 625 4000 3000.
Definition ex_mark (y z : R) : gps_landmark :=
  GpsLandmark (V2 (Fin 2000) (Fin 625)) (cam_gpsFromSpace (Fin (496/10)) (Fin 11) (Fin 0) (of_point (fin3 (V3 0 y z)))) (fin3 (V3 1 1 1)).
Lemma ex_mark_place y z : gl_place (ex_mark y z).
Proof.
  pose proof RE_pos. destruct (gps_of_point (Fin (496/10)) (Fin 11) (Fin 0) (496/10) 11 0 (fin3 (V3 0 y z)) (V3 0 y z)) as ((h&E&Rh)&Q&HQ&_);
    auto using rep_Fin, rep3_fin; try lra. split; [exists Q; auto|exists h, z; auto].
Qed.
Lemma ex_far_40 y : 0 < y < 100 -> sqrt (y * y + 0 * 0) < PI * (RE + 0).
Proof. intros B. replace (y * y + 0 * 0) with (y * y) by ring. rewrite sqrt_square by lra. pose proof PI2_3_2. unfold RE, PI2 in *. lra. Qed.
Lemma ex_mark_back y z : 0 < y < 100 -> exists s p, cam_spaceFromGPS (Fin (496/10)) (Fin 11) (gl_gps (ex_mark y z)) = Some s /\ to_point s = Some p /\
  rep3 p (V3 0 y z).
Proof.
  intros B. pose proof RE_pos. destruct (back (Fin (496/10)) (Fin 11) (Fin 0) (496/10) 11 0 (fin3 (V3 0 y z)) (V3 0 y z)) as (s&q&E1&E2&R3);
    auto using rep_Fin, rep3_fin; try lra; [apply ex_far_40; auto|].
  exists s, q. splits; auto. eapply rep3_eq; [exact R3|]. unfold shrunk. apply v3_ext; cbn; field; lra.
Qed.
Lemma ex_mark_at y z w W : 0 < y < 100 -> rep w W -> rep3 (at_gps (Fin (496/10)) (Fin 11) (gl_gps (ex_mark y z)) w) (V3 0 y W).
Proof.
  intros B HW. destruct (ex_mark_back y z B) as (s&p&E1&E2&(R1&R2&_)). unfold cam_spaceFromGPS, spaceFromGPS, space_row, Gps.columns in E1.
  destruct (ex_mark_place y z) as (_&h&h'&Eh&_). rewrite Eh in E1. cbn [Nat.eqb] in E1. injection E1 as E1. subst s. cbn in E2. injection E2 as E2. subst p.
  split; [exact R1|]. split; [exact R2|exact HW].
Qed.
Lemma rep_same x r : rep x r -> r <> 0 -> x = Fin r.
Proof. unfold rep. destruct x; cbn; intros H N; try discriminate; injection H as H; [subst; auto|]. exfalso; apply N; auto. Qed.
Lemma ex_mark_image a r y z v : plain_cam a Rectilinear r ex_zero -> r = ex_r \/ r = ex_low -> 1 < y < 100 -> z = y / 4 ->
  v = center_y r - 875 -> v <> 0 -> imageFromGPS a (Fin (496/10)) (Fin 11) (gl_gps (ex_mark y z)) = Some (V2 (Fin 2000) (Fin v)).
Proof.
  intros HA Er B EZ Ev NV. destruct (ex_mark_back y z) as (s&p&E1&E2&R3); [lra|]. unfold imageFromGPS. rewrite E1, E2. cbn [option_map].
  assert (K : rep2 (imageFromSpace a p true) (V2 2000 v)).
  { apply (image_dir a Rectilinear r ex_zero _ (V3 0 y z)); auto; rewrite ?ex_zero_coords; cbn [cx cy cz].
    - split; cbn [cz]; [rewrite Rabs_left; unfold tinyR; lra|lra].
    - exact I.
    - exists y; split; [lra|]. apply v3_ext; cbn; unfold alphaR, betaR; destruct Er as [-> | ->]; subst; cbn; field. }
  destruct (imageFromSpace a p true) as [u w]. destruct K as (K1&K2). cbn [c1 c2] in *.
  rewrite (rep_same _ _ K1), (rep_same _ _ K2) by lra. reflexivity.
Qed.
Lemma ex_zero_ray a r q Q : plain_cam a Rectilinear r ex_zero -> rep2 q Q ->
  exists n, 0 < n /\ rep3 (snd (getRay a q true)) (rv_scale n (V3 (cx (rayR Rectilinear r Q)) (- cz (rayR Rectilinear r Q)) (cy (rayR Rectilinear r Q)))).
Proof.
  intros HC Hq. destruct (plain_good _ _ _ _ HC) as (HG&HK&_&HU).
  assert (NZ : dirW a r (camM ex_zero) Q <> rv0) by (eapply dirW_nonzero; apply HG). pose proof (rnorm_pos _ NZ) as NP.
  exists (/ rnorm (dirW a r (camM ex_zero) Q)). split; [apply Rinv_0_lt_compat; auto|].
  eapply rep3_eq; [apply (direction_rep a r (camM ex_zero) (opos ex_zero) q Q true HG); [rewrite HU; auto|rewrite HK; exact I]|].
  f_equal. unfold dirW. rewrite HK. unfold camM; cbn [tilt_deg roll_deg heading_deg ex_zero].
  replace (rad 90) with (PI / 2) by (unfold rad; field). replace (rad 0) with 0 by (unfold rad; ring).
  destruct (rayR Rectilinear r Q) as [x y z].
  apply v3_ext; cbv [rotm rm_mul_v rm_trans rdot cx cy cz]; rewrite ?sin_PI2, ?cos_PI2, ?sin_0, ?cos_0; ring.
Qed.
Lemma ex_term a r y L : plain_cam a Rectilinear r ex_zero -> r = ex_r \/ r = ex_low -> 1 < y < 100 -> L = at_gps (Fin (496/10)) (Fin 11) (gl_gps (ex_mark y (y/4))) (Fin 0) ->
  exists v, rep (landmark_1 a (fin3 (opos ex_zero)) (Fin 3) (Landmark (V2 (Fin 2000) (Fin 625)) L (fin3 (V3 1 1 1)))) v /\
    v <= best 1 3 /\ (v = best 1 3 <-> r = ex_low).
Proof.
  intros HA Er B EL. set (q := V2 (Fin 2000) (Fin 625)). assert (RQ : rep2 q (V2 2000 625)) by (split; apply rep_Fin).
  destruct (ex_zero_ray a r q _ HA RQ) as (n&Hn&RV). set (V := rv_scale _ _) in RV.
  assert (RL : rep3 L (V3 0 y 0)) by (subst L; apply ex_mark_at; [lra|apply rep_Fin]).
  destruct (C58_landmark_best a (fin3 (opos ex_zero)) (Fin 3) (Landmark q L (fin3 (V3 1 1 1))) (opos ex_zero) V (V3 0 y 0) 1 3) as (v&R1&R2&R3);
    cbn [lm_image lm_space lm_unc]; auto using rep3_fin, rep_Fin; try lra.
  - cbn [getRay fst]. destruct (plain_good _ _ _ _ HA) as (HG&_). eapply origin_rep; eauto.
  - intros E. apply (f_equal cy) in E. unfold V in E. cbn in E. lra.
  - exists v. splits; auto. rewrite R3. split.
    + intros (l&Hl&E). destruct Er as [-> | ->]; auto. exfalso. pose proof (f_equal cz E) as E3. pose proof (f_equal cy E) as E2.
      unfold line_at, V in E2, E3. cbn in E2, E3. unfold betaR in E3. cbn in E3. nra.
    + intros ->. exists (y / n). split; [left; apply Rdiv_lt_0_compat; lra|]. unfold line_at, V.
      apply v3_ext; cbn; unfold alphaR, betaR; cbn; field; lra.
Qed.
Theorem C59_two_landmarks_refuted : exists a b la lo pos ms ta tb va vb,
  plain_cam a Rectilinear ex_r ex_zero /\ plain_cam b Rectilinear ex_low ex_zero /\ rep3 pos (opos ex_zero) /\
  length ms = 2%nat /\ Forall2 gl_equal_unc ms [1; 1] /\ Forall gl_place ms /\ Forall (seen_gps a Rectilinear ex_zero la lo) ms /\
  Forall (fun m => imageFromGPS b la lo (gl_gps m) <> Some (gl_image m)) ms /\
  gps_landmark_term a la lo pos (Fin 3) ms = Some ta /\ rep ta va /\ gps_landmark_term b la lo pos (Fin 3) ms = Some tb /\ rep tb vb /\ va < vb.
Proof.
  destruct (some_camera ex_r ex_zero) as (a&HA); [cbn; lra|]. destruct (some_camera ex_low ex_zero) as (b&HB); [cbn; lra|].
  set (ms := [ex_mark 20 (20/4); ex_mark 40 (40/4)]).
  destruct (ex_term a ex_r 20 _ HA (or_introl eq_refl) ltac:(lra) eq_refl) as (a1&A1&LA1&NA1).
  destruct (ex_term a ex_r 40 _ HA (or_introl eq_refl) ltac:(lra) eq_refl) as (a2&A2&LA2&NA2).
  destruct (ex_term b ex_low 20 _ HB (or_intror eq_refl) ltac:(lra) eq_refl) as (b1&B1&LB1&_&NB1).
  destruct (ex_term b ex_low 40 _ HB (or_intror eq_refl) ltac:(lra) eq_refl) as (b2&B2&LB2&_&NB2).
  assert (NE : ex_r <> ex_low) by (intros E; apply (f_equal center_y) in E; cbn in E; lra).
  assert (PL : Forall gl_place ms) by (repeat constructor; apply ex_mark_place).
  exists a, b, (Fin (496/10)), (Fin 11), (fin3 (opos ex_zero)), ms. do 2 eexists. exists (rsum [a1; a2]), (rsum [b1; b2]).
  splits; auto using rep3_fin.
  - repeat constructor; try lra; apply rep_Fin.
  - assert (S : forall y, 1 < y < 100 -> seen_gps a Rectilinear ex_zero (Fin (496/10)) (Fin 11) (ex_mark y (y/4))).
    { intros y B. split; [apply (ex_mark_image a ex_r); auto; cbn; lra|]. destruct (ex_mark_back y (y/4)) as (s&p&E1&E2&R3); [lra|].
      exists s, p, (V3 0 y (y/4)). splits; auto. rewrite ex_zero_coords. split; cbn [cz cy]; [rewrite Rabs_left; unfold tinyR; lra|lra]. }
    repeat constructor; apply S; lra.
  - assert (S : forall y, 1 < y < 100 -> imageFromGPS b (Fin (496/10)) (Fin 11) (gl_gps (ex_mark y (y/4))) <> Some (gl_image (ex_mark y (y/4)))).
    { intros y B. rewrite (ex_mark_image b ex_low y (y/4) (-250)); auto; cbn; try lra. intros E. injection E as E. lra. }
    repeat constructor; apply S; lra.
  - apply gps_term; auto.
  - apply nsum_rep. repeat constructor; [exact A1|exact A2].
  - apply gps_term; auto.
  - apply nsum_rep. repeat constructor; [exact B1|exact B2].
  - rewrite NB1, NB2 by auto. cbn. assert (a1 <> best 1 3) by (rewrite NA1; auto). lra.
Qed.
Print Assumptions C59_two_landmarks_refuted.
Theorem C59_two_points_refuted : exists c la lo g g' q q' Q, plain_cam c Rectilinear ex_r ex_zero /\ hgt g <> None /\ hgt g' <> None /\
  imageFromGPS_batch c la lo [g; g'] = Some [q; q'] /\ rep2 q Q /\ imageFromGPS c la lo g = Some (V2 (Fin 2000) (Fin 625)) /\ c2 Q = 1500.
Proof.
  destruct (some_camera ex_r ex_zero) as (a&HA); [cbn; lra|]. set (g := gl_gps (ex_mark 20 (20/4))).
  assert (NH : hgt g <> None) by (destruct (ex_mark_place 20 (20/4)) as (_&h&z&E&_); unfold g; congruence).
  destruct (C59_two_points a (Fin (496/10)) (Fin 11) g g NH NH) as (q&q'&E&E1&E2).
  exists a, (Fin (496/10)), (Fin 11), g, g, q, q', (V2 2000 1500). splits; auto.
  - rewrite single in E1 by discriminate. injection E1 as <-.
    apply (image_dir a Rectilinear ex_r ex_zero _ (V3 0 20 0)); auto; rewrite ?ex_zero_coords; cbn [cx cy cz].
    + apply (ex_mark_at 20 (20/4)); [lra|apply rep_Fin].
    + split; cbn [cz]; [rewrite Rabs_left; unfold tinyR; lra|lra].
    + exact I.
    + exists 20; split; [lra|]. apply v3_ext; cbn; unfold alphaR, betaR; cbn; field.
  - apply (ex_mark_image a ex_r); auto; cbn; lra.
Qed.

(** The hypotheses of the theorems at a concrete camera: pixel (2000, 625) of the camera at the ground is a place 20 m to the
    north at the height 5 m, and one landmark there has its largest term at this camera. *)
Example C59_example : exists a gp Q t v, plain_cam a Rectilinear ex_r ex_zero /\
  gpsFromImage a (Fin (496/10)) (Fin 11) (Fin 0) (imageFromSpace a (fin3 (V3 0 20 5)) true) (on_axis AZ (Fin 5)) = Some gp /\
  place gp Q /\ walked (rad (496/10)) (rad 11) RE 0 20 Q /\
  gps_landmark_term a (Fin (496/10)) (Fin 11) (fin3 (opos ex_zero)) (Fin 3) [ex_mark 20 (20/4)] = Some t /\ rep t v.
Proof.
  destruct (some_camera ex_r ex_zero) as (a&HA); [cbn; lra|]. pose proof RE_pos.
  destruct (C59_gps_from_image a Rectilinear ex_r ex_zero (Fin (496/10)) (Fin 11) (Fin 0) (496/10) 11 (fin3 (V3 0 20 5)) (V3 0 20 5) AZ (Fin 5) true)
    as (gp&E&_&Q&HQ&HW); auto using rep_Fin, rep3_fin; try (cbn [elevation_m ex_zero]; lra);
    try (cbn [get_axis opos elevation_m ex_zero cz pos_x_m pos_y_m]; lra).
  { rewrite ex_zero_coords. split; cbn [cz cy]; [rewrite Rabs_left; unfold tinyR; lra|lra]. }
  destruct (C59_landmarks a Rectilinear ex_r ex_zero (Fin (496/10)) (Fin 11) (fin3 (opos ex_zero)) (Fin 3) 3 [ex_mark 20 (20/4)] [1]) as (t&v&ET&RT&_);
    auto using rep3_fin, rep_Fin.
  - constructor; auto. split; [apply rep3_fin|lra].
  - constructor; auto. apply ex_mark_place.
  - constructor; auto. split; [apply (ex_mark_image a ex_r); auto; cbn; lra|]. destruct (ex_mark_back 20 (20/4)) as (s&p&E1&E2&R3); [lra|].
    exists s, p, (V3 0 20 (20/4)). splits; auto. rewrite ex_zero_coords. split; cbn [cz cy]; [rewrite Rabs_left; unfold tinyR; lra|lra].
  - exists a, gp, Q, t, v. splits; auto. cbn [elevation_m ex_zero cx cy] in HW. rewrite Rplus_0_r in HW. exact HW.
Qed.
