(** * C96: a level camera as compass, level and range finder; the full turn of a panorama *)
Require Import Reals Lra Lia Psatz List Bool ZArith.
From Verif Require Import Num Vec Trig Orientation OrientationFacts PropOrientation PropAngles.
From Verif Require Import Projection ProjectionFacts Ray RayFacts CameraTransform CameraFacts PropCamera Stereo PropStereo.
From Verif Require Import Gps PropGps PropGpsFlat GpsImage PropGpsImage.
From Verif Require Import FitTerms PropFitTerms PropDetermine PropPerspective PropSensitivity PropResect PropTurn.
Open Scope R_scope.

(** ** Specification *)
(** The camera looks level and is not rolled. *)
Definition upright (o : opar R) : Prop := tilt_deg o = 90 /\ roll_deg o = 0.
(** The point is [d] metres from the plumb line of the camera, in the compass direction [b] (radians, 0 is north, pi/2 east). *)
Definition stands (o : opar R) (P : v3 R) (d b : R) : Prop := 0 < d /\ cx P = pos_x_m o + d * sin b /\ cy P = pos_y_m o + d * cos b.

(** ** The compass *)
Lemma unturn x y m t n : x * cos t - y * sin t = m * sin n -> x * sin t + y * cos t = m * cos n -> x = m * sin (t + n) /\ y = m * cos (t + n).
Proof.
  intros H1 H2. rewrite sin_plus, cos_plus. pose proof (sin2_cos2 t) as H. unfold Rsqr in H. split.
  - transitivity (x * (sin t * sin t + cos t * cos t)); [rewrite H; ring|]. transitivity ((m * sin n) * cos t + (m * cos n) * sin t); [rewrite <- H1, <- H2; ring|ring].
  - transitivity (y * (sin t * sin t + cos t * cos t)); [rewrite H; ring|]. transitivity ((m * cos n) * cos t - (m * sin n) * sin t); [rewrite <- H1, <- H2; ring|ring].
Qed.
(** What is seen at a pixel stands in the direction of the heading plus the angle of the column, and lies below the camera by the
    slope of the pixel times its distance. *)
Theorem C96_direction k r o c P Q : upright o -> plain_cam c k r o -> sees k r o c P Q ->
  exists d, stands o P d (rad (heading_deg o) + azimuth k r Q) /\ cz P = elevation_m o - d * slope k r Q.
Proof.
  intros (ET&ER) HC S. destruct (sees_polar _ _ _ _ _ _ HC S) as (l&L&E). rewrite level_coords in E by assumption. unfold rightwards, forwards in E.
  pose proof (f_equal cx E) as X1. pose proof (f_equal cy E) as X2. pose proof (f_equal cz E) as X3. cbn in X1, X2, X3.
  destruct (unturn (cx P - pos_x_m o) (cy P - pos_y_m o) l (rad (heading_deg o)) (azimuth k r Q)) as (A&B); [lra|lra|].
  exists l. split; [split; [exact L|split; lra]|lra].
Qed.
Print Assumptions C96_direction.
Lemma stands_unique o P d b d' b' : stands o P d b -> stands o P d' b' -> d = d' /\ exists j : Z, b = b' + 2 * IZR j * PI.
Proof.
  intros (D&X&Y) (D'&X'&Y'). destruct (polar_eq d d' b b' 0 0 D D') as (E&S&C&_); [apply v3_ext; cbn; lra|].
  split; [exact E|]. apply PropGps.same_angle; auto.
Qed.
(** The column is the compass direction, the row the slope: for everything that stands in the direction [b] at the distance [d]. *)
Theorem C96_compass k r o c P Q d b : upright o -> plain_cam c k r o -> sees k r o c P Q -> stands o P d b ->
  (exists j : Z, azimuth k r Q = b - rad (heading_deg o) + 2 * IZR j * PI) /\ slope k r Q = (elevation_m o - cz P) / d.
Proof.
  intros U HC S ST. destruct (C96_direction k r o c P Q U HC S) as (d'&ST'&H). destruct (stands_unique o P d' _ d b ST' ST) as (->&j&J).
  pose proof (proj1 ST) as D. split; [exists j; lra|]. rewrite H. field. lra.
Qed.
Print Assumptions C96_compass.
(** A panorama shows whatever stands around the camera, except in the plane of the lens (abeam of it) and straight behind it. *)
Definition pano_row (k : pkind) (r : proj R) (s : R) : R := center_y r + f_y r * match k with Equirectangular => atan s | _ => s end.
Theorem C96_shown k r o c P d a : k <> Rectilinear -> upright o -> plain_cam c k r o -> stands o P d (rad (heading_deg o) + a) -> - PI < a < PI -> tinyR <= Rabs (d * cos a) ->
  sees k r o c P (V2 (center_x r + f_x r * a) (pano_row k r ((elevation_m o - cz P) / d))).
Proof.
  intros NK (ET&ER) HC (D&X&Y) A T. destruct (plain_foc2 _ _ _ _ HC) as (F1&F2). set (s := (elevation_m o - cz P) / d).
  assert (ES : elevation_m o - cz P = d * s) by (unfold s; field; lra).
  assert (K : cam_coords o P = rv_scale d (polar_dir a s)).
  { rewrite level_coords by assumption. unfold rightwards, forwards. rewrite X, Y, sin_plus, cos_plus. set (h := rad (heading_deg o)). pose proof (sin2_cos2 h) as H. unfold Rsqr in H.
    unfold polar_dir. apply v3_ext; cbn [cx cy cz rv_scale map3v].
    - transitivity (d * sin a * (sin h * sin h + cos h * cos h)); [ring|rewrite H; ring].
    - lra.
    - transitivity (- (d * cos a * (sin h * sin h + cos h * cos h))); [ring|rewrite H; ring]. }
  set (Q := V2 (center_x r + f_x r * a) (pano_row k r s)).
  assert (EA : alphaR r Q = a) by (unfold alphaR, Q; cbn [c1]; field; auto).
  assert (EB : betaR r Q = match k with Equirectangular => atan s | _ => s end) by (unfold betaR, Q, pano_row; cbn [c2]; field; auto).
  apply sees_at; [exact HC| | |].
  - rewrite K. split; [cbn [cz rv_scale map3v polar_dir]; replace (d * - cos a) with (- (d * cos a)) by ring; rewrite Rabs_Ropp; exact T|destruct k; auto; congruence].
  - destruct (atan_bound s). destruct k; [congruence| |]; cbn [in_range]; rewrite EA; [exact A|]. rewrite EB. split; [exact A|lra].
  - exists d. split; [exact D|]. rewrite K. f_equal. destruct k; [congruence| |]; cbn [rayR]; rewrite EA, EB; [reflexivity|]. rewrite tan_atan. reflexivity.
Qed.
Print Assumptions C96_shown.

(** ** The level and plumb lines *)
Lemma slope_zero k r Q : foc_ok r -> in_range k r Q -> (slope k r Q = 0 <-> c2 Q = center_y r).
Proof.
  intros (F1&F2) HI. assert (EY : c2 Q = center_y r + f_y r * down r Q) by (unfold down; field; auto).
  assert (D : slope k r Q = 0 <-> down r Q = 0).
  { destruct k; cbn [slope].
    - pose proof (cos_atan_pos (across r Q)). split; intros H0; [apply Rmult_integral in H0; destruct H0; lra|rewrite H0; ring].
    - reflexivity.
    - destruct HI as (_&HI). unfold betaR in HI. fold (down r Q) in HI. pose proof PI_RGT_0. split; intros H0; [|rewrite H0; apply tan_0].
      apply tan_is_inj; [lra|lra|rewrite H0, tan_0; reflexivity]. }
  rewrite D, EY. split; intros H0; [rewrite H0; ring|]. assert (H1 : f_y r * down r Q = 0) by lra. apply Rmult_integral in H1. destruct H1; [congruence|assumption].
Qed.
(** What is as high as the camera, and only that, is in the middle row. *)
Theorem C96_level k r o c P Q : upright o -> plain_cam c k r o -> sees k r o c P Q -> (cz P = elevation_m o <-> c2 Q = center_y r).
Proof.
  intros U HC S. destruct (C96_direction k r o c P Q U HC S) as (d&(D&_)&H). rewrite <- (slope_zero k r Q); [|exact (plain_foc2 _ _ _ _ HC)|apply S].
  rewrite H. split; intros E; [|rewrite E; ring]. assert (E' : d * slope k r Q = 0) by lra. apply Rmult_integral in E'. destruct E'; lra.
Qed.
Print Assumptions C96_level.
Lemma slope_order k r Q Q' : 0 < f_y r -> in_range k r Q -> in_range k r Q' -> across r Q' = across r Q -> (slope k r Q' < slope k r Q <-> c2 Q' < c2 Q).
Proof.
  intros F HI HI' EA. assert (EY : forall X, c2 X = center_y r + f_y r * down r X) by (intros; unfold down; field; lra).
  assert (O : forall x y, x < y <-> center_y r + f_y r * x < center_y r + f_y r * y) by (intros; split; nra).
  rewrite !EY, <- O. destruct k; cbn [slope].
  - rewrite EA. pose proof (cos_atan_pos (across r Q)). split; nra.
  - reflexivity.
  - destruct HI as (_&HI), HI' as (_&HI'). unfold betaR in HI, HI'. fold (down r Q) in HI. fold (down r Q') in HI'. split; intros L.
    + destruct (Rtotal_order (down r Q') (down r Q)) as [G|[G|G]]; [exact G|rewrite G in L; lra|]. pose proof (tan_increasing (down r Q) (down r Q')); lra.
    + apply tan_increasing; lra.
Qed.
(** A plumb line is one column of every projection, from top to bottom. *)
Theorem C96_plumb k r o c P P' Q Q' : upright o -> plain_cam c k r o -> sees k r o c P Q -> sees k r o c P' Q' -> cx P' = cx P -> cy P' = cy P ->
  c1 Q' = c1 Q /\ (0 < f_y r -> (cz P < cz P' <-> c2 Q' < c2 Q)).
Proof.
  intros U HC S S' EX EY. destruct (plain_foc2 _ _ _ _ HC) as (F1&F2). destruct (C96_direction k r o c P Q U HC S) as (d&ST&H). destruct (C96_direction k r o c P' Q' U HC S') as (d'&ST'&H').
  assert (ST2 : stands o P d' (rad (heading_deg o) + azimuth k r Q')) by (destruct ST' as (D&X&Y); split; [exact D|split; congruence]).
  destruct (stands_unique o P d _ d' _ ST ST2) as (<-&_). destruct ST as (D&X&Y), ST2 as (_&X'&Y').
  destruct (polar_eq d d (rad (heading_deg o) + azimuth k r Q) (rad (heading_deg o) + azimuth k r Q') 0 0 D D) as (_&W1&W2&_); [apply v3_ext; cbn; lra|].
  destruct (azimuth_range k r Q) as (A1&A2); [apply S|]. destruct (azimuth_range k r Q') as (B1&B2); [apply S'|].
  assert (EA : azimuth k r Q = azimuth k r Q'). { assert (rad (heading_deg o) + azimuth k r Q = rad (heading_deg o) + azimuth k r Q'); [|lra]. apply angle_unique; auto. lra. }
  assert (AC : across r Q' = across r Q). { destruct k; cbn [azimuth] in EA; [|congruence|congruence]. apply (f_equal tan) in EA. rewrite !tan_atan in EA. congruence. }
  split.
  - assert (EE : forall Z0, c1 Z0 = center_x r + f_x r * across r Z0) by (intros; unfold across; field; auto). rewrite (EE Q'), (EE Q), AC. reflexivity.
  - intros F. rewrite <- (slope_order k r Q Q' F) by (apply S || apply S' || exact AC). rewrite H, H'. split; nra.
Qed.
Print Assumptions C96_plumb.
(** ... to scale for the cylindrical and the rectilinear projection: equal heights are equally many pixels. *)
Theorem C96_heights_to_scale k r o c P P' Q Q' : k <> Equirectangular -> upright o -> plain_cam c k r o -> sees k r o c P Q -> sees k r o c P' Q' -> cx P' = cx P -> cy P' = cy P ->
  exists d, 0 < d /\ c2 Q - c2 Q' = f_y r * (cz P' - cz P) / d /\
    match k with Rectilinear => d = depth o P | _ => exists b, stands o P d b end.
Proof.
  intros NK U HC S S' EX EY. destruct (plain_foc2 _ _ _ _ HC) as (F1&F2). pose proof S as ((HS1&HS2)&_). pose proof U as (ET&ER).
  destruct (C96_plumb k r o c P P' Q Q' U HC S S' EX EY) as (E1&_). assert (EA : across r Q' = across r Q) by (unfold across; rewrite E1; reflexivity).
  destruct (C96_direction k r o c P Q U HC S) as (d&ST&H). destruct (C96_direction k r o c P' Q' U HC S') as (d'&ST'&H').
  assert (ST2 : stands o P d' (rad (heading_deg o) + azimuth k r Q')) by (destruct ST' as (D&X&Y); split; [exact D|split; congruence]).
  destruct (stands_unique o P d _ d' _ ST ST2) as (<-&_). pose proof (proj1 ST) as D.
  assert (EE : forall Z0, c2 Z0 = center_y r + f_y r * down r Z0) by (intros; unfold down; field; auto). rewrite (EE Q), (EE Q').
  destruct k; [| |congruence]; cbn [slope] in H, H'.
  - rewrite EA in H'. pose proof (cos_atan_pos (across r Q)) as CP. exists (d * cos (atan (across r Q))). split; [apply Rmult_lt_0_compat; lra|]. split; [rewrite H, H'; field; lra|].
    destruct ST as (_&X&Y). unfold depth. rewrite level_coords by assumption. cbn [cz]. unfold forwards. rewrite X, Y, sin_plus, cos_plus. cbn [azimuth]. set (h := rad (heading_deg o)). pose proof (sin2_cos2 h) as SC. unfold Rsqr in SC.
    transitivity (d * cos (atan (across r Q)) * (sin h * sin h + cos h * cos h)); [rewrite SC; ring|ring].
  - exists d. split; [exact D|]. split; [rewrite H, H'; field; lra|]. eexists; exact ST.
Qed.
Print Assumptions C96_heights_to_scale.
(** Level circles around the camera are rows of a panorama. *)
Theorem C96_circle k r o c P P' Q Q' d b b' : k <> Rectilinear -> upright o -> plain_cam c k r o -> sees k r o c P Q -> sees k r o c P' Q' ->
  stands o P d b -> stands o P' d b' -> cz P' = cz P -> c2 Q' = c2 Q.
Proof.
  intros NK U HC S S' ST ST' EZ. destruct (plain_foc2 _ _ _ _ HC) as (F1&F2). destruct (C96_compass k r o c P Q d b U HC S ST) as (_&E). destruct (C96_compass k r o c P' Q' d b' U HC S' ST') as (_&E').
  rewrite EZ, <- E in E'. assert (EE : forall Z0, c2 Z0 = center_y r + f_y r * down r Z0) by (intros; unfold down; field; auto). rewrite (EE Q), (EE Q'). do 2 f_equal.
  destruct k; [congruence|exact E'|]. cbn [slope] in E'. destruct S as (_&(_&I1)&_), S' as (_&(_&I2)&_). unfold betaR in I1, I2; fold (down r Q) in I1; fold (down r Q') in I2; apply tan_is_inj; [lra|lra|exact E'].
Qed.
Print Assumptions C96_circle.

(** ** The range finder *)
(** A point of known height below (or above) the camera: its distance. *)
Theorem C96_range k r o c P Q : upright o -> plain_cam c k r o -> sees k r o c P Q -> cz P <> elevation_m o ->
  slope k r Q <> 0 /\ stands o P ((elevation_m o - cz P) / slope k r Q) (rad (heading_deg o) + azimuth k r Q).
Proof.
  intros U HC S N. destruct (C96_direction k r o c P Q U HC S) as (d&ST&H). assert (NZ : slope k r Q <> 0) by (intros Z0; rewrite Z0 in H; lra).
  split; [exact NZ|]. replace ((elevation_m o - cz P) / slope k r Q) with d; [exact ST|]. rewrite H. field. exact NZ.
Qed.
Print Assumptions C96_range.
(** The height of a thing relates to the height of the camera as its picture relates to the part of it below the horizon. *)
Theorem C96_horizon_ratio k r o c P P' Q Q' : upright o -> plain_cam c k r o -> sees k r o c P Q -> sees k r o c P' Q' -> cx P' = cx P -> cy P' = cy P ->
  (cz P' - cz P) * slope k r Q = (elevation_m o - cz P) * (slope k r Q - slope k r Q').
Proof.
  intros U HC S S' EX EY. destruct (C96_direction k r o c P Q U HC S) as (d&ST&H). destruct (C96_direction k r o c P' Q' U HC S') as (d'&ST'&H').
  assert (ST2 : stands o P d' (rad (heading_deg o) + azimuth k r Q')) by (destruct ST' as (D&X&Y); split; [exact D|split; congruence]).
  destruct (stands_unique o P d _ d' _ ST ST2) as (<-&_). rewrite H, H'. ring.
Qed.
Print Assumptions C96_horizon_ratio.

(** ** Landmarks given by gps positions *)
(** The camera is at the gps position (pos_x_m = pos_y_m = 0): the column of a landmark is the bearing that getBearing gives, and
    the row its height over the distance that getDistance gives. *)
Definition gps_height (g : gpt) (Z0 : R) : Prop := match hgt g with Some h => rep h Z0 | None => Z0 = 0 end.
Lemma at_gps_point la lo a l g X : rep la a -> rep lo l -> place g X -> exists B D,
  rep (getBearing (Gpt la lo None) g) B /\ rep (getDistance (Gpt la lo None) g) D /\ 0 <= D /\
  forall Z0, gps_height g Z0 -> exists s p, cam_spaceFromGPS la lo g = Some s /\ to_point s = Some p /\ rep3 p (V3 (D * sin (rad B)) (D * cos (rad B)) Z0).
Proof.
  intros Ra Rl HX. destruct (C30_distance (Gpt la lo None) g (unitv (rad a) (rad l)) X) as (t&(T&_)&RD); auto; [exists a, l; auto|].
  destruct (bearing_args (Gpt la lo None) g a l X Ra Rl HX) as (R1&R2). destruct (natan2_finite _ _ _ _ R1 R2) as (th&RT).
  assert (RB : rep (getBearing (Gpt la lo None) g) (th * (180 / PI))) by (apply rep_rad2deg; exact RT).
  exists (th * (180 / PI)), (RE * t). splits; [exact RB|exact RD|pose proof RE_pos; apply Rmult_le_pos; lra|].
  set (B := th * (180 / PI)) in *. pose proof (rep_deg2rad _ _ RB) as RB'. fold (rad B) in RB'. intros Z0 HZ. unfold cam_spaceFromGPS, spaceFromGPS, space_row, Gps.columns. unfold gps_height in HZ.
  destruct (hgt g) as [h|] eqn:EH; cbn [Nat.eqb]; do 2 eexists; (split; [reflexivity|split; [reflexivity|]]); (split; [|split]); cbn [cx cy cz sx sy]; try (apply rep_mul; [exact RD|first [apply rep_sin; exact RB'|apply rep_cos; exact RB']]).
  - exact HZ.
  - rewrite HZ. apply rep_Fin.
Qed.
Theorem C96_gps k r o c la lo a l g X Z0 Q : upright o -> plain_cam c k r o -> pos_x_m o = 0 -> pos_y_m o = 0 ->
  rep la a -> rep lo l -> place g X -> gps_height g Z0 ->
  exists B D q, rep (getBearing (Gpt la lo None) g) B /\ rep (getDistance (Gpt la lo None) g) D /\ imageFromGPS c la lo g = Some q /\
    (showable k (cam_coords o (V3 (D * sin (rad B)) (D * cos (rad B)) Z0)) -> rep2 q Q -> in_range k r Q ->
     (exists j : Z, azimuth k r Q = rad (B - heading_deg o) + 2 * IZR j * PI) /\ 0 < D /\ slope k r Q = (elevation_m o - Z0) / D).
Proof.
  intros U HC PX PY Ra Rl HX HZ. destruct (at_gps_point la lo a l g X Ra Rl HX) as (B&D&RB&RD&D0&K). destruct (K Z0 HZ) as (s&p&ES&EP&RP). clear K.
  exists B, D, (imageFromSpace c p true). splits; [exact RB|exact RD|unfold imageFromGPS; rewrite ES, EP; reflexivity|]. intros HS RQ HI. set (P := V3 (D * sin (rad B)) (D * cos (rad B)) Z0) in *.
  assert (SE : sees k r o c P Q) by (split; [exact HS|split; [exact HI|exists p; split; [exact RP|exact RQ]]]).
  assert (DP : 0 < D).
  { destruct D0 as [D0|D0]; [exact D0|]. exfalso. destruct HS as (HS&_). destruct U as (ET&ER). rewrite level_coords in HS by assumption. unfold forwards, P in HS. rewrite <- D0, PX, PY in HS. cbn [cx cy cz] in HS.
    replace (- _) with 0 in HS by ring. rewrite Rabs_R0 in HS. pose proof tinyR_pos. lra. }
  destruct (C96_compass k r o c P Q D (rad B) U HC SE) as ((j&J)&SL); [unfold stands, P; cbn [cx cy cz]; rewrite PX, PY; splits; [exact DP|ring|ring]|].
  splits; [|exact DP|exact SL]. exists j. rewrite J. unfold rad. ring.
Qed.
Print Assumptions C96_gps.

(** ** The full turn *)
(** Where a panorama shows a point, with the limits of the angles *)
Lemma pano_image k p r pt P hide : k <> Rectilinear -> rep_proj p r -> foc_ok r -> rep3 pt P -> tinyR <= Rabs (cz P) ->
  exists Q, rep2 (p_image k p pt hide) Q /\ - PI <= alphaR r Q <= PI /\ (k = Equirectangular -> - (PI / 2) < betaR r Q < PI / 2).
Proof.
  intros NK Hc (F1&F2) Hp B. pose proof (big_nz _ B) as NZ. destruct k; [congruence| |]; cbn [p_image].
  - destruct (p_image_spec Cylindrical p r pt P hide Hc (conj F1 F2) Hp (conj B Logic.I)) as (Q&RQ&_). exists Q. split; [exact RQ|]. split; [|discriminate]. cbn [p_image] in RQ.
    unfold cyl_image in RQ. rewrite (mask_big _ _ Hp B) in RQ. destruct Hc as (H1&H2&H3&H4&_), Hp as (X&Y&Z0).
    destruct (natan2_polar _ _ _ _ (rep_neg _ _ X) (rep_neg _ _ Z0)) as (th&Hth&TB&_&_); [left; lra|].
    destruct (nisnan _) in RQ; [destruct RQ as (RQ&_); cbn in RQ; discriminate|]. destruct RQ as (RQ&_). cbn [c1] in RQ.
    assert (E : c1 Q = - f_x r * th + center_x r) by (apply (rep_inj _ _ _ RQ); apply rep_add; [apply rep_mul; [apply rep_neg; exact H1|exact Hth]|exact H3]).
    unfold alphaR. rewrite E. replace ((- f_x r * th + center_x r - center_x r) / f_x r) with (- th) by (field; auto). lra.
  - destruct (p_image_spec Equirectangular p r pt P hide Hc (conj F1 F2) Hp (conj B Logic.I)) as (Q&RQ&_). exists Q. split; [exact RQ|]. cbn [p_image] in RQ.
    unfold equi_image in RQ. rewrite (mask_big _ _ Hp B) in RQ. destruct Hc as (H1&H2&H3&H4&_), Hp as (X&Y&Z0).
    destruct (natan2_polar _ _ _ _ (rep_neg _ _ X) (rep_neg _ _ Z0)) as (th&Hth&TB&_&_); [left; lra|].
    set (rho := hyp (- cz P) (- cx P)) in *. assert (Hrho : 0 < rho) by (apply hyp_pos; left; lra).
    assert (Hs : rep (nsqrt (cx pt * cx pt + cz pt * cz pt)%num) rho) by (eapply rep_eq; [apply rep_sqrt; [apply rep_add; apply rep_mul; eassumption|nra]|unfold rho, hyp; f_equal; ring]).
    pose proof (rep_atan2_pos _ _ _ _ Y Hs Hrho) as Hphi. assert (EP : Ratan2 (cy P) rho = atan (cy P / rho)) by (unfold Ratan2; rewrite Rltb_true; auto). rewrite EP in Hphi.
    destruct RQ as (RQ&RQ2). cbn [c1 c2] in RQ, RQ2.
    assert (E : c1 Q = - f_x r * th + center_x r) by (apply (rep_inj _ _ _ RQ); apply rep_add; [apply rep_mul; [apply rep_neg; exact H1|exact Hth]|exact H3]).
    assert (E2 : c2 Q = - f_y r * atan (cy P / rho) + center_y r) by (apply (rep_inj _ _ _ RQ2); apply rep_add; [apply rep_mul; [apply rep_neg; exact H2|exact Hphi]|exact H4]).
    unfold alphaR, betaR. rewrite E, E2. replace ((- f_x r * th + center_x r - center_x r) / f_x r) with (- th) by (field; auto).
    replace ((- f_y r * atan (cy P / rho) + center_y r - center_y r) / f_y r) with (- atan (cy P / rho)) by (field; auto). destruct (atan_bound (cy P / rho)). split; [lra|]. intros _. lra.
Qed.
Lemma arc_turn w f v W F : rep w W -> rep f F -> F <> 0 -> rep (fov_arc w f) v -> W = F * rad v.
Proof.
  intros Rw Rf NF RV. pose proof PI_RGT_0. assert (E : v = W / F * (180 / PI)) by (apply (rep_inj _ _ _ RV); apply rep_rad2deg, rep_div; auto). rewrite E. unfold rad. field. lra.
Qed.
(** With a field of view of 360 degrees and its centre in the middle a panorama shows everything, whatever its attitude, between its
    left and right edges; an equirectangular one with 180 degrees from top to bottom also between its upper and lower edges. *)
Theorem C96_full_turn k r o c VY p P : k <> Rectilinear -> plain_cam c k r o -> 0 < f_x r -> center_x r = im_width r / 2 -> rep2 (getFieldOfView k (cam_proj c)) (V2 360 VY) ->
  rep3 p P -> tinyR <= Rabs (depth o P) ->
  exists Q, rep2 (imageFromSpace c p true) Q /\ 0 <= c1 Q <= im_width r /\
    (k = Equirectangular -> VY = 180 -> 0 < f_y r -> center_y r = im_height r / 2 -> 0 < c2 Q < im_height r).
Proof.
  intros NK HC FX CX FV Hp HD. pose proof PI_RGT_0 as HPI. destruct (plain_good _ _ _ _ HC) as ((Hpr&HF&HR)&HK&HDi&_). pose proof HF as (F1&F2).
  destruct (pano_image k (cam_proj c) r (cameraFromSpace (cam_o c) p) (cam_coords o P) true NK Hpr HF) as (Q&RQ&A&B).
  { exact (rigid_camera _ _ _ _ _ HR Hp). } { unfold depth in HD. rewrite Rabs_Ropp in HD. exact HD. }
  exists Q. split; [unfold imageFromSpace; rewrite HDi, HK; exact RQ|]. destruct Hpr as (R1&R2&R3&R4&R5&R6).
  assert (EW : im_width r = f_x r * (2 * PI)).
  { replace (2 * PI) with (rad 360) by (unfold rad; field). destruct FV as (FV&_). destruct k; [congruence| |]; exact (arc_turn _ _ _ _ _ R5 R1 F1 FV). }
  assert (E1 : c1 Q = center_x r + f_x r * alphaR r Q) by (unfold alphaR; field; auto). split; [rewrite E1, CX, EW; nra|].
  intros -> -> FY CY. specialize (B eq_refl). assert (EH : im_height r = f_y r * PI). { replace PI with (rad 180) by (unfold rad; field). exact (arc_turn _ _ _ _ _ R6 R2 F2 (proj2 FV)). }
  assert (E2 : c2 Q = center_y r + f_y r * betaR r Q) by (unfold betaR; field; auto). rewrite E2, CY, EH. nra.
Qed.
Print Assumptions C96_full_turn.
(** ... and with less than that there are things beyond its edges. *)
Theorem C96_less_than_a_turn k r o c VX VY : k <> Rectilinear -> upright o -> plain_cam c k r o -> 0 < f_x r -> center_x r = im_width r / 2 -> rep2 (getFieldOfView k (cam_proj c)) (V2 VX VY) -> VX < 360 ->
  exists P Q, sees k r o c P Q /\ im_width r < c1 Q.
Proof.
  intros NK U HC FX CX FV LT. pose proof PI_RGT_0 as HPI. destruct (plain_good _ _ _ _ HC) as ((Hpr&HF&HR)&HK&_&_). pose proof HF as (F1&F2). destruct Hpr as (R1&R2&R3&R4&R5&R6).
  assert (EW : im_width r = f_x r * rad VX) by (destruct FV as (FV&_); destruct k; [congruence| |]; exact (arc_turn _ _ _ _ _ R5 R1 F1 FV)).
  set (m := Rmax (rad VX / 2) (PI / 2)). assert (M1 : rad VX / 2 <= m) by apply Rmax_l. assert (M2 : PI / 2 <= m) by apply Rmax_r.
  assert (M3 : m < PI). { apply Rmax_lub_lt; [|lra]. unfold rad. assert (VX * PI < 360 * PI) by (apply Rmult_lt_compat_r; lra). lra. }
  clearbody m. set (a := (m + PI) / 2). assert (A : m < a < PI) by (unfold a; lra). clearbody a.
  assert (CN : cos a < 0) by (apply cos_lt_0; lra). set (d := / - cos a). assert (D : 0 < d) by (apply Rinv_0_lt_compat; lra).
  set (b := rad (heading_deg o) + a). set (P := V3 (pos_x_m o + d * sin b) (pos_y_m o + d * cos b) 0).
  eexists P, _. split; [apply (C96_shown k r o c P d a NK U HC); [split; [exact D|split; reflexivity]|lra|]|].
  - replace (d * cos a) with (-1) by (unfold d; field; lra). unfold tinyR. rewrite Rabs_left; lra.
  - cbn [c1]. rewrite CX, EW. nra.
Qed.
Print Assumptions C96_less_than_a_turn.

(** ** What does not hold *)
Lemma at_upright s : upright (ex_at s). Proof. split; reflexivity. Qed.
Lemma at_stands P : 0 < cy P -> exists d a, stands (ex_at 0) P d (rad (heading_deg (ex_at 0)) + a) /\ - (PI / 2) < a < PI / 2 /\ d * cos a = cy P /\ a = atan (cx P / cy P) /\ d = hyp (cy P) (cx P).
Proof.
  intros H. destruct (atan_polar_pos (cy P) (cx P) H) as (E1&E2). exists (hyp (cy P) (cx P)), (atan (cx P / cy P)). destruct (atan_bound (cx P / cy P)). splits; [|lra|lra|auto|auto|auto].
  split; [apply hyp_pos; left; lra|]. cbn [heading_deg ex_at pos_x_m pos_y_m]. rewrite rad00, !Rplus_0_l. split; assumption.
Qed.
Lemma at_sees k c P : k <> Rectilinear -> plain_cam c k ex_r (ex_at 0) -> 1 <= cy P ->
  sees k ex_r (ex_at 0) c P (V2 (2000 + 3500 * atan (cx P / cy P)) (pano_row k ex_r ((10 - cz P) / hyp (cy P) (cx P)))).
Proof.
  intros NK HC H. pose proof PI_RGT_0. destruct (at_stands P ltac:(lra)) as (d&a&ST&AB&DC&EA&ED). rewrite <- EA, <- ED.
  apply (C96_shown k ex_r (ex_at 0) c P d a NK (at_upright 0) HC ST); [lra|]. rewrite DC. unfold tinyR. rewrite Rabs_right; lra.
Qed.
(** A straight edge (here level, ten metres above the camera) is bent in a cylindrical panorama. *)
Theorem C96_straight_refuted : exists c A B QA QB QM, plain_cam c Cylindrical ex_r (ex_at 0) /\ sees Cylindrical ex_r (ex_at 0) c A QA /\ sees Cylindrical ex_r (ex_at 0) c B QB /\
  sees Cylindrical ex_r (ex_at 0) c (between3 A B (1 / 2)) QM /\ forall s, QM <> between2 QA QB s.
Proof.
  destruct (ex_any (ex_at 0) Cylindrical) as (c&HC). set (A := V3 (-50) 50 20). set (B := V3 50 50 20).
  exists c, A, B. do 3 eexists. splits; [exact HC|apply at_sees; [discriminate|exact HC|cbn; lra]..|]. intros s E. apply (f_equal c2) in E. unfold pano_row in E. cbn [between2 between3 c2 A B cx cy cz] in E.
  replace (hyp 50 (-50)) with (hyp 50 50) in E by (unfold hyp; f_equal; ring).
  replace (hyp (50 + 1 / 2 * (50 - 50)) (-50 + 1 / 2 * (50 - -50))) with 50 in E by (unfold hyp; replace ((50 + 1 / 2 * (50 - 50)) * (50 + 1 / 2 * (50 - 50)) + (-50 + 1 / 2 * (50 - -50)) * (-50 + 1 / 2 * (50 - -50))) with (50 * 50) by field; rewrite sqrt_square; lra).
  assert (HY : 50 < hyp 50 50) by (unfold hyp; rewrite <- (sqrt_square 50) at 1 by lra; apply sqrt_lt_1; lra).
  cbn [f_y center_y ex_r] in E. assert (EH : (10 - 20) / hyp 50 50 = - (10 * / hyp 50 50)) by (field; lra). assert (HI : / hyp 50 50 < / 50) by (apply Rinv_lt_contravar; nra).
  assert (E5 : (10 - (20 + 1 / 2 * (20 - 20))) / 50 = - (10 * / 50)) by field. rewrite EH, E5 in E. nra.
Qed.
Print Assumptions C96_straight_refuted.
(** Equal heights are not equally many pixels of an equirectangular panorama. *)
Theorem C96_equirectangular_scale_refuted : exists c P1 P2 P3 Q1 Q2 Q3, plain_cam c Equirectangular ex_r (ex_at 0) /\
  sees Equirectangular ex_r (ex_at 0) c P1 Q1 /\ sees Equirectangular ex_r (ex_at 0) c P2 Q2 /\ sees Equirectangular ex_r (ex_at 0) c P3 Q3 /\
  cx P2 = cx P1 /\ cy P2 = cy P1 /\ cx P3 = cx P1 /\ cy P3 = cy P1 /\ cz P3 - cz P2 = cz P2 - cz P1 /\ c2 Q3 - c2 Q2 <> c2 Q2 - c2 Q1.
Proof.
  destruct (ex_any (ex_at 0) Equirectangular) as (c&HC). exists c, (V3 0 50 10), (V3 0 50 60), (V3 0 50 110). do 3 eexists. splits; [exact HC|apply at_sees; [discriminate|exact HC|cbn; lra]..|reflexivity|reflexivity|reflexivity|reflexivity|cbn; ring|].
  cbn [c2 cx cy cz]. unfold pano_row. cbn [f_y center_y ex_r]. assert (H5 : hyp 50 0 = 50) by (unfold hyp; rewrite Rmult_0_l, Rplus_0_r, sqrt_square; lra). rewrite H5.
  replace ((10 - 10) / 50) with 0 by field. replace ((10 - 60) / 50) with (- (1)) by field. replace ((10 - 110) / 50) with (- (2)) by field. rewrite atan_0, !atan_opp, atan_1. destruct (atan_bound 2). lra.
Qed.
Print Assumptions C96_equirectangular_scale_refuted.
(** Plumb lines lean in the picture of a camera that does not look level. *)
Theorem C96_plumb_refuted : exists c P P' Q Q', let o := with_tilt (ex_at 0) 45 in plain_cam c Rectilinear ex_r o /\ sees Rectilinear ex_r o c P Q /\ sees Rectilinear ex_r o c P' Q' /\
  cx P' = cx P /\ cy P' = cy P /\ c1 Q' <> c1 Q.
Proof.
  set (o := with_tilt (ex_at 0) 45). destruct (ex_any o Rectilinear) as (c&HC). pose proof (sqrt_lt_R0 2 ltac:(lra)) as S2. pose proof (sqrt_sqrt 2 ltac:(lra)) as SS. assert (B2 : 1 < sqrt 2 < 2) by nra.
  assert (K : forall z, cam_coords o (V3 10 50 z) = V3 10 (/ sqrt 2 * (z - 10 + 50)) (/ sqrt 2 * (z - 10 - 50))).
  { intros z. unfold o. rewrite tilt_coords by reflexivity. cbv zeta. rewrite at_coords. replace (rad (45 - tilt_deg (ex_at 0))) with (- (PI / 4)) by (unfold rad; cbn; field). rewrite sin_neg, cos_neg, sin_PI4, cos_PI4. apply v3_ext; cbn; field; lra. }
  assert (HI : 1 / 2 < / sqrt 2) by (replace (1 / 2) with (/ 2) by field; apply Rinv_lt_contravar; nra).
  assert (SE : forall z, z <= 20 -> sees Rectilinear ex_r o c (V3 10 50 z) (pin ex_r (cam_coords o (V3 10 50 z)))).
  { intros z LZ. assert (DE : tinyR <= depth o (V3 10 50 z)) by (unfold depth; rewrite K; cbn [cz]; unfold tinyR; nra). pose proof tinyR_pos.
    split; [unfold depth in DE; split; [rewrite Rabs_left; lra|lra]|]. split; [exact Logic.I|]. exists (fin3 (V3 10 50 z)). split; [apply rep3_fin|apply image_pin; [exact HC|apply rep3_fin|exact DE]]. }
  exists c, (V3 10 50 0), (V3 10 50 20). do 2 eexists. cbv zeta. fold o. splits; [exact HC|apply SE; lra|apply SE; lra|reflexivity|reflexivity|].
  rewrite !K. unfold pin. cbn [c1 cx cy cz f_x center_x ex_r]. intros E.
  assert (E1 : forall w, w <> 0 -> 10 / (/ sqrt 2 * w) = 10 * sqrt 2 * / w) by (intros; field; lra).
  assert (X : 10 * sqrt 2 * / (-40) = 10 * sqrt 2 * / (-60)); [|lra].
  rewrite <- !E1 by lra. replace (20 - 10 - 50) with (-40) in E by ring. replace (0 - 10 - 50) with (-60) in E by ring. unfold Rdiv in *. lra.
Qed.
Print Assumptions C96_plumb_refuted.

(** A landmark one degree of longitude to the east, on the equator, seen from (0, 0) *)
Definition isle (h : R) : gpt := Gpt (Fin 0) (Fin 1) (Some (Fin h)).
Definition far_off : R := RE * rad 1.
Lemma isle_place h : place (isle h) (unitv (rad 0) (rad 1)).
Proof. apply place_fin. Qed.
Lemma far_pos : 0 < far_off.
Proof. unfold far_off, rad. pose proof RE_pos. pose proof PI_RGT_0. apply Rmult_lt_0_compat; lra. Qed.
Lemma isle_space h : exists s p, cam_spaceFromGPS (Fin 0) (Fin 0) (isle h) = Some s /\ to_point s = Some p /\ rep3 p (V3 far_off 0 h) /\
  rep (getBearing (Gpt (Fin 0) (Fin 0) None) (isle h)) 90 /\ rep (getDistance (Gpt (Fin 0) (Fin 0) None) (isle h)) far_off.
Proof.
  pose proof PI_RGT_0 as HP. assert (R1 : 0 < rad 1 < PI / 2) by (unfold rad; lra). assert (SP : 0 < sin (rad 1)) by (apply sin_gt_0; lra).
  destruct (at_gps_point (Fin 0) (Fin 0) 0 0 (isle h) _ (rep_Fin 0) (rep_Fin 0) (isle_place h)) as (B&D&RB&RD&D0&K). destruct (K h (rep_Fin h)) as (s&p&ES&EP&RP).
  destruct (C31_bearing_meaning (Gpt (Fin 0) (Fin 0) None) (isle h) 0 0 _ (rep_Fin 0) (rep_Fin 0) (isle_place h)) as (B'&m&RB'&BB&M&N&E).
  { right. unfold rdot, unitv, eastv. cbn [cx cy cz]. rewrite rad00, sin_0, cos_0. lra. }
  pose proof (rep_inj _ _ _ RB RB') as <-. unfold rdot, unitv, northv, eastv in N, E. cbn [cx cy cz] in N, E. rewrite rad00, sin_0, cos_0 in N, E.
  assert (C0 : cos (rad B) = 0) by (apply (Rmult_eq_reg_l m); lra). assert (S1 : sin (rad B) = 1). { pose proof (sin2_cos2 (rad B)) as H. unfold Rsqr in H. rewrite C0 in H. assert (0 < m * sin (rad B)) by lra. assert (0 < sin (rad B)) by (apply (Rmult_lt_reg_l m); lra). nra. }
  assert (B90 : B = 90). { assert (rad B = rad 90) as W; [|unfold rad in W; apply (Rmult_eq_reg_r (PI / 180)); lra]. rewrite rad90. apply angle_unique; [unfold rad; split; nra|rewrite cos_PI2; exact C0|rewrite sin_PI2; exact S1]. }
  destruct (C30_distance (Gpt (Fin 0) (Fin 0) None) (isle h) (unitv (rad 0) (rad 0)) (unitv (rad 0) (rad 1))) as (t&(T&CT)&RD'); [apply place_fin|exact (isle_place h)|left; reflexivity|].
  assert (ET : t = rad 1). { unfold rdot, unitv in CT. cbn [cx cy cz] in CT. rewrite rad00, sin_0, cos_0 in CT. apply (cos_inj t (rad 1)); lra. }
  rewrite ET in RD'. fold far_off in RD'. pose proof (rep_inj _ _ _ RD RD') as ED. exists s, p. splits; auto; [|rewrite <- B90; exact RB].
  eapply rep3_eq; [exact RP|]. rewrite C0, S1, ED. apply v3_ext; cbn; ring.
Qed.

(** A camera that is not at its gps position (pos_y_m is not 0): gps_lat and gps_lon are the origin of the space coordinates and
    not the place of the camera, and the column is not the bearing from there. *)
Theorem C96_gps_refuted : exists c o q Q B, upright o /\ plain_cam c Cylindrical ex_r o /\ rep (getBearing (Gpt (Fin 0) (Fin 0) None) (isle 0)) B /\
  imageFromGPS c (Fin 0) (Fin 0) (isle 0) = Some q /\ rep2 q Q /\ in_range Cylindrical ex_r Q /\
  forall j : Z, azimuth Cylindrical ex_r Q <> rad (B - heading_deg o) + 2 * IZR j * PI.
Proof.
  pose proof PI_RGT_0 as HP. pose proof far_pos as FP. set (o := OPar 0 90 0 90 0 far_off). destruct (ex_any o Cylindrical) as (c&HC). destruct (isle_space 0) as (s&p&ES&EP&RP&RB&_).
  pose proof (sqrt_lt_R0 2 ltac:(lra)) as S2. pose proof (sqrt_sqrt 2 ltac:(lra)) as SS.
  assert (ST : stands o (V3 far_off 0 0) (far_off * sqrt 2) (rad (heading_deg o) + PI / 4)).
  { split; [apply Rmult_lt_0_compat; lra|]. cbn [heading_deg o pos_x_m pos_y_m cx cy]. rewrite rad90, sin_plus, cos_plus, sin_PI2, cos_PI2, sin_PI4, cos_PI4. split; field; lra. }
  assert (UP : upright o) by (split; reflexivity).
  assert (SE := C96_shown Cylindrical ex_r o c (V3 far_off 0 0) (far_off * sqrt 2) (PI / 4) ltac:(discriminate) UP HC ST ltac:(lra)).
  destruct SE as (HS&HI&p'&Rp'&RI). { rewrite cos_PI4. replace (far_off * sqrt 2 * (1 / sqrt 2)) with far_off by (field; lra). rewrite Rabs_right by lra. unfold tinyR, far_off, rad. pose proof PI2_3_2. unfold RE. lra. }
  set (Q := V2 _ _) in *. assert (RQ : rep2 (imageFromSpace c p true) Q).
  { destruct (sees_ray Cylindrical ex_r o c (V3 far_off 0 0) Q HC) as (l&L&E); [split; [exact HS|split; [exact HI|exists p'; split; assumption]]|]. apply (image_dir c Cylindrical ex_r o p (V3 far_off 0 0) Q true HC RP HS HI). exists l. split; [exact L|exact E]. }
  exists c, o, (imageFromSpace c p true), Q, 90. splits; [exact UP|exact HC|exact RB|unfold imageFromGPS; rewrite ES, EP; reflexivity|exact RQ|exact HI|].
  intros j E. cbn [azimuth] in E. replace (across ex_r Q) with (PI / 4) in E by (unfold across, Q; cbn [c1 f_x center_x ex_r]; field). cbn [heading_deg o] in E. replace (90 - 90) with 0 in E by ring. rewrite rad00, Rplus_0_l in E.
  assert (EJ : IZR (8 * j) = 1) by (rewrite mult_IZR; apply (Rmult_eq_reg_r PI); lra). apply eq_IZR in EJ. lia.
Qed.
Print Assumptions C96_gps_refuted.

(** ** Cases *)
(** The level cylindrical panorama from ten metres: a tower fifty metres ahead and fifty to the right, its foot below and its top
    above the middle row. *)
Example C96_example : exists c, plain_cam c Cylindrical ex_r (ex_at 0) /\ upright (ex_at 0) /\ stands (ex_at 0) (V3 50 50 0) (50 * sqrt 2) (rad 0 + PI / 4) /\
  sees Cylindrical ex_r (ex_at 0) c (V3 50 50 0) (V2 (2000 + 3500 * (PI / 4)) (1500 + 3500 * (10 / (50 * sqrt 2)))) /\
  sees Cylindrical ex_r (ex_at 0) c (V3 50 50 30) (V2 (2000 + 3500 * (PI / 4)) (1500 - 3500 * (20 / (50 * sqrt 2)))) /\
  sees Cylindrical ex_r (ex_at 0) c (V3 50 50 10) (V2 (2000 + 3500 * (PI / 4)) 1500).
Proof.
  destruct (ex_any (ex_at 0) Cylindrical) as (c&HC). pose proof (sqrt_lt_R0 2 ltac:(lra)) as S2. pose proof (sqrt_sqrt 2 ltac:(lra)) as SS.
  assert (HY : hyp 50 50 = 50 * sqrt 2) by (unfold hyp; replace (50 * 50 + 50 * 50) with ((50 * sqrt 2) * (50 * sqrt 2)) by nra; apply sqrt_square; nra).
  assert (A : atan (50 / 50) = PI / 4) by (replace (50 / 50) with 1 by field; apply atan_1).
  assert (SE : forall z v, v = 1500 + 3500 * ((10 - z) / (50 * sqrt 2)) -> sees Cylindrical ex_r (ex_at 0) c (V3 50 50 z) (V2 (2000 + 3500 * (PI / 4)) v)).
  { intros z v ->. pose proof (at_sees Cylindrical c (V3 50 50 z) ltac:(discriminate) HC ltac:(cbn; lra)) as S. unfold pano_row in S. cbn [cx cy cz f_y center_y ex_r] in S. rewrite A, HY in S. exact S. }
  exists c. splits; [exact HC|apply at_upright| |apply SE; field; lra|apply SE; field; lra|apply SE; field; lra].
  split; [nra|]. cbn [cx cy pos_x_m pos_y_m ex_at]. rewrite rad00, !Rplus_0_l, sin_PI4, cos_PI4. split; field; lra.
Qed.
(** The isle from (0, 0), heading north-east: 45 degrees to the right of the middle *)
Example C96_gps_example : exists c q Q, let o := OPar 0 90 0 45 0 0 in upright o /\ plain_cam c Cylindrical ex_r o /\
  showable Cylindrical (cam_coords o (V3 (far_off * sin (rad 90)) (far_off * cos (rad 90)) (far_off / 10))) /\
  imageFromGPS c (Fin 0) (Fin 0) (isle (far_off / 10)) = Some q /\ rep2 q Q /\ in_range Cylindrical ex_r Q /\ Q = V2 (2000 + 3500 * (PI / 4)) 1150.
Proof.
  pose proof PI_RGT_0 as HP. pose proof far_pos as FP. set (o := OPar 0 90 0 45 0 0). destruct (ex_any o Cylindrical) as (c&HC). destruct (isle_space (far_off / 10)) as (s&p&ES&EP&RP&RB&_).
  pose proof (sqrt_lt_R0 2 ltac:(lra)) as S2. pose proof (sqrt_sqrt 2 ltac:(lra)) as SS. assert (R45 : rad 45 + PI / 4 = PI / 2) by (unfold rad; field).
  assert (UP : upright o) by (split; reflexivity).
  assert (ST : stands o (V3 far_off 0 (far_off / 10)) far_off (rad (heading_deg o) + PI / 4)) by (split; [exact FP|]; cbn [heading_deg o pos_x_m pos_y_m cx cy]; rewrite R45, sin_PI2, cos_PI2; split; ring).
  destruct (C96_shown Cylindrical ex_r o c (V3 far_off 0 (far_off / 10)) far_off (PI / 4) ltac:(discriminate) UP HC ST ltac:(lra)) as (HS&HI&p'&Rp'&RI).
  { rewrite cos_PI4. assert (sqrt 2 < 2) by nra. assert (HI2 : / 2 < / sqrt 2) by (apply Rinv_lt_contravar; nra). assert (F2 : 100000 < far_off) by (unfold far_off, rad, RE; pose proof PI2_3_2; lra).
    rewrite Rabs_right by (apply Rle_ge, Rmult_le_pos; [lra|]; unfold Rdiv; rewrite Rmult_1_l; lra). unfold tinyR, Rdiv. rewrite Rmult_1_l. nra. }
  set (Q := V2 _ _) in *. assert (EQ : Q = V2 (2000 + 3500 * (PI / 4)) 1150) by (unfold Q, pano_row; cbn [c1 c2 f_x f_y center_x center_y ex_r elevation_m o cz]; f_equal; field; lra).
  exists c, (imageFromSpace c p true), Q. cbv zeta. fold o. splits; [exact UP|exact HC| |unfold imageFromGPS; rewrite ES, EP; reflexivity| |exact HI|exact EQ].
  - rewrite rad90, sin_PI2, cos_PI2, Rmult_1_r, Rmult_0_r. exact HS.
  - destruct (sees_ray Cylindrical ex_r o c (V3 far_off 0 (far_off / 10)) Q HC) as (l&L&E); [split; [exact HS|split; [exact HI|exists p'; split; assumption]]|]. apply (image_dir c Cylindrical ex_r o p _ Q true HC RP HS HI). exists l. split; [exact L|exact E].
Qed.
(** A full panorama: 3600 x 1800 pixels, ten pixels per degree *)
Definition r_full : proj R := Proj (1800 / PI) (1800 / PI) 1800 900 3600 1800.
Example C96_full_example : exists c, plain_cam c Equirectangular r_full (ex_at 0) /\ 0 < f_x r_full /\ center_x r_full = im_width r_full / 2 /\ center_y r_full = im_height r_full / 2 /\
  rep2 (getFieldOfView Equirectangular (cam_proj c)) (V2 360 180) /\ tinyR <= Rabs (depth (ex_at 0) (V3 0 (-50) 10)).
Proof.
  pose proof PI_RGT_0 as HP. assert (H : rep_opar (opar_fin (ex_at 0)) (ex_at 0)) by (repeat split). destruct (init_rigid _ _ H) as (m&E&_). assert (F : 0 < 1800 / PI) by (apply Rdiv_lt_0_compat; lra).
  exists (plain_camera Equirectangular (proj_fin r_full) m). splits.
  - exists (proj_fin r_full), m. splits; auto; [repeat split|split; cbn; lra|eauto].
  - exact F.
  - cbn. lra.
  - cbn. lra.
  - split; cbn [c1 c2 getFieldOfView cam_proj plain_camera]; unfold fov_arc; (eapply rep_eq; [apply rep_rad2deg, rep_div; [apply rep_Fin|apply rep_Fin|cbn; lra]|cbn; field; lra]).
  - unfold depth. rewrite at_coords. cbn [cz cy]. unfold tinyR. rewrite Rabs_left; lra.
Qed.
