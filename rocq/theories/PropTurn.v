(** * C85: what turning and zooming a camera does to its picture *)
Require Import Reals Lra Psatz List Bool ZArith.
From Verif Require Import Num Vec Trig Orientation OrientationFacts PropOrientation PropAngles.
From Verif Require Import Projection ProjectionFacts Ray RayFacts CameraTransform CameraFacts PropCamera Stereo PropStereo.
From Verif Require Import FitTerms PropFitTerms PropDetermine PropPerspective PropSensitivity PropResect.
Open Scope R_scope.

(** ** Specification *)
(** The camera shows the point [P] at the pixel [Q]: the point is not in the plane of the lens (for a rectilinear camera in
    front of it), the pixel not on the seam of a panorama. *)
Definition sees (k : pkind) (r : proj R) (o : opar R) (c : camera) (P : v3 R) (Q : v2 R) : Prop :=
  showable k (cam_coords o P) /\ in_range k r Q /\ exists p, rep3 p P /\ rep2 (imageFromSpace c p true) Q.
Definition with_roll (o : opar R) (x : R) : opar R := OPar (elevation_m o) (tilt_deg o) x (heading_deg o) (pos_x_m o) (pos_y_m o).
(** Pixels right of and below the principal point, in focal lengths: for square pixels [across] and [down] are distances in
    the picture divided by f *)
Definition across (r : proj R) (Q : v2 R) : R := (c1 Q - center_x r) / f_x r.
Definition down (r : proj R) (Q : v2 R) : R := (c2 Q - center_y r) / f_y r.

Lemma sees_ray k r o c P Q : plain_cam c k r o -> sees k r o c P Q -> exists l, 0 < l /\ cam_coords o P = rv_scale l (rayR k r Q).
Proof. intros HC (S&_&p&Hp&HI). exact (seen_ray k c r o p P Q HC Hp S HI). Qed.
Lemma plain_foc2 c k r o : plain_cam c k r o -> foc_ok r.
Proof. intros HC. destruct (plain_good _ _ _ _ HC) as ((_&HF&_)&_). exact HF. Qed.

(** ** C85 *)
(** Cameras at one place, of any two projections: the pixel of the one determines the pixel of the other; what is hidden
    behind a thing stays hidden behind it. *)
Theorem C85_no_parallax k k' r r' o o' c c' P P' Q Q1 Q2 : plain_cam c k r o -> plain_cam c' k' r' o' -> opos o' = opos o ->
  sees k r o c P Q -> sees k r o c P' Q -> sees k' r' o' c' P Q1 -> sees k' r' o' c' P' Q2 -> Q1 = Q2.
Proof.
  intros HC HC' EO S S' T T'.
  destruct (sees_ray _ _ _ _ _ _ HC S) as (l&L&E). destruct (sees_ray _ _ _ _ _ _ HC S') as (l'&L'&E').
  destruct (sees_ray _ _ _ _ _ _ HC' T) as (m&M&F). destruct (sees_ray _ _ _ _ _ _ HC' T') as (m'&M'&F').
  assert (K : rv_sub P' (opos o) = rv_scale (l' / l) (rv_sub P (opos o))).
  { assert (B : forall X, rm_mul_v (rm_trans (camM o)) (cam_coords o X) = rv_sub X (opos o)) by (intros X; unfold cam_coords; apply trans_mul, rotm_cols).
    rewrite <- (B P'), <- (B P), E, E', !rm_mul_v_scale. apply v3_ext; cbn; field; lra. }
  apply (rayR_inj k' r'); [exact (plain_foc2 _ _ _ _ HC')|apply T|apply T'|].
  assert (N : rv_scale m' (rayR k' r' Q2) = rv_scale (l' / l) (rv_scale m (rayR k' r' Q1))).
  { rewrite <- F, <- F'. unfold cam_coords. rewrite EO, K. apply rm_mul_v_scale. }
  exists (m' / (l' / l * m)). assert (0 < l' / l) by (apply Rdiv_lt_0_compat; auto). assert (0 < l' / l * m) by (apply Rmult_lt_0_compat; auto). split; [apply Rdiv_lt_0_compat; auto|].
  pose proof (f_equal cx N) as X1. pose proof (f_equal cy N) as X2. pose proof (f_equal cz N) as X3. cbn [rv_scale map3v cx cy cz] in X1, X2, X3.
  apply v3_ext; cbn [rv_scale map3v cx cy cz]; apply (Rmult_eq_reg_l (l' / l * m)); try lra; [rewrite Rmult_assoc, <- X1|rewrite Rmult_assoc, <- X2|rewrite Rmult_assoc, <- X3]; field; splits; lra.
Qed.
Print Assumptions C85_no_parallax.
(** Cameras at two places: two points behind each other for the one camera are beside each other for the other, except on the
    line through both cameras. *)
Theorem C85_parallax k k' r r' o o' c c' P P' Q Q1 Q2 : plain_cam c k r o -> plain_cam c' k' r' o' ->
  rcross (rv_sub P (opos o)) (rv_sub (opos o') (opos o)) <> rv0 -> P <> P' ->
  sees k r o c P Q -> sees k r o c P' Q -> sees k' r' o' c' P Q1 -> sees k' r' o' c' P' Q2 -> Q1 <> Q2.
Proof.
  intros HC HC' NC NP S S' T T' <-.
  destruct (sees_ray _ _ _ _ _ _ HC S) as (l&L&E). destruct (sees_ray _ _ _ _ _ _ HC S') as (l'&L'&E').
  destruct (sees_ray _ _ _ _ _ _ HC' T) as (m&M&F). destruct (sees_ray _ _ _ _ _ _ HC' T') as (m'&M'&F').
  assert (B : forall y X, rm_mul_v (rm_trans (camM y)) (cam_coords y X) = rv_sub X (opos y)) by (intros y X; unfold cam_coords; apply trans_mul, rotm_cols).
  assert (K : rv_sub P' (opos o) = rv_scale (l' / l) (rv_sub P (opos o))) by (rewrite <- (B o P'), <- (B o P), E, E', !rm_mul_v_scale; apply v3_ext; cbn; field; lra).
  assert (K' : rv_sub P' (opos o') = rv_scale (m' / m) (rv_sub P (opos o'))) by (rewrite <- (B o' P'), <- (B o' P), F, F', !rm_mul_v_scale; apply v3_ext; cbn; field; lra).
  set (x := l' / l) in *. set (y := m' / m) in *. clearbody x y.
  set (u := rv_sub P (opos o)) in *. set (w := rv_sub (opos o') (opos o)) in *.
  assert (D : forall X Y, rv_sub X (opos o') = Y -> rv_sub (rv_sub X (opos o)) w = Y) by (intros X Y <-; unfold w; apply v3_ext; cbn; ring).
  pose proof (D _ _ K') as K2. rewrite K in K2. pose proof (D P _ eq_refl) as K3. fold u in K3. rewrite <- K3 in K2.
  assert (Eu : u = rv_sub P (opos o)) by reflexivity. clear D K'. clearbody u w.
  pose proof (f_equal cx K2) as X1. pose proof (f_equal cy K2) as X2. pose proof (f_equal cz K2) as X3. cbn in X1, X2, X3. clear K2 K3.
  assert (XY : x = y).
  { destruct (Req_dec x y) as [|N]; [assumption|]. exfalso. apply NC.
    assert (G : forall a b, (x - y) * a = 0 -> b = a -> b = 0) by (intros a b H ->; apply Rmult_integral in H; destruct H; lra).
    assert (U1 : (x - y) * cx u = (1 - y) * cx w) by lra. assert (U2 : (x - y) * cy u = (1 - y) * cy w) by lra. assert (U3 : (x - y) * cz u = (1 - y) * cz w) by lra.
    unfold rcross. apply v3_ext; cbn [cx cy cz rv0]; (eapply G; [|reflexivity]); rewrite Rmult_minus_distr_l, <- !Rmult_assoc, ?U1, ?U2, ?U3; ring. }
  subst y. assert (ONE : x = 1).
  { destruct (Req_dec x 1) as [|N]; [assumption|]. exfalso. apply NC.
    assert (W1 : cx w = 0) by (apply (Rmult_eq_reg_l (1 - x)); lra). assert (W2 : cy w = 0) by (apply (Rmult_eq_reg_l (1 - x)); lra). assert (W3 : cz w = 0) by (apply (Rmult_eq_reg_l (1 - x)); lra).
    unfold rcross. apply v3_ext; cbn [cx cy cz rv0]; rewrite ?W1, ?W2, ?W3; ring. }
  subst x. apply NP. rewrite Eu in K. pose proof (f_equal cx K) as Y1. pose proof (f_equal cy K) as Y2. pose proof (f_equal cz K) as Y3. cbn in Y1, Y2, Y3. apply v3_ext; lra.
Qed.
Print Assumptions C85_parallax.

(** The angle of a pixel beside the optical axis and its slope below the level plane of a camera that looks level *)
Definition azimuth (k : pkind) (r : proj R) (Q : v2 R) : R := match k with Rectilinear => atan (across r Q) | _ => across r Q end.
Definition slope (k : pkind) (r : proj R) (Q : v2 R) : R :=
  match k with Rectilinear => down r Q * cos (atan (across r Q)) | Cylindrical => down r Q | Equirectangular => tan (down r Q) end.
Definition polar_dir (a s : R) : v3 R := V3 (sin a) (- s) (- cos a).
Lemma cos_atan_pos x : 0 < cos (atan x).
Proof. destruct (atan_bound x). apply cos_gt_0; lra. Qed.
Lemma ray_polar k r Q : exists g, 0 < g /\ rayR k r Q = rv_scale g (polar_dir (azimuth k r Q) (slope k r Q)).
Proof.
  destruct k; cbn [rayR azimuth slope]; fold (across r Q) (down r Q); unfold alphaR, betaR; fold (across r Q) (down r Q); try (exists 1; split; [lra|]; unfold polar_dir; apply v3_ext; cbn; ring).
  pose proof (cos_atan_pos (across r Q)) as C0. exists (/ cos (atan (across r Q))). split; [apply Rinv_0_lt_compat; exact C0|].
  pose proof (tan_atan (across r Q)) as T. unfold tan in T. unfold polar_dir. apply v3_ext; cbn [cx cy cz rv_scale map3v].
  - rewrite <- T at 1. unfold Rdiv. ring.
  - field. lra.
  - field. lra.
Qed.
Lemma polar_eq l l' a a' s s' : 0 < l -> 0 < l' -> rv_scale l (polar_dir a s) = rv_scale l' (polar_dir a' s') -> l = l' /\ sin a = sin a' /\ cos a = cos a' /\ s = s'.
Proof.
  intros L L' E. pose proof (f_equal cx E) as X. pose proof (f_equal cy E) as Y. pose proof (f_equal cz E) as Z0. cbn in X, Y, Z0.
  pose proof (sin2_cos2 a) as H. pose proof (sin2_cos2 a') as H'. unfold Rsqr in H, H'.
  assert (EL : l = l').
  { assert (l * l = l' * l'); [|nra]. replace (l * l) with ((l * sin a) * (l * sin a) + (l * - cos a) * (l * - cos a)) by (transitivity (l * l * (sin a * sin a + cos a * cos a)); [ring|rewrite H; ring]).
    rewrite X, Z0. transitivity (l' * l' * (sin a' * sin a' + cos a' * cos a')); [ring|rewrite H'; ring]. }
  subst l'. splits; [reflexivity| | |]; apply (Rmult_eq_reg_l l); lra.
Qed.
Lemma sees_polar k r o c P Q : plain_cam c k r o -> sees k r o c P Q -> exists l, 0 < l /\ cam_coords o P = rv_scale l (polar_dir (azimuth k r Q) (slope k r Q)).
Proof.
  intros HC S. destruct (sees_ray _ _ _ _ _ _ HC S) as (l&L&E). destruct (ray_polar k r Q) as (g&G&F). exists (l * g). split; [apply Rmult_lt_0_compat; auto|]. rewrite E, F. apply v3_ext; cbn; ring.
Qed.
Lemma azimuth_range k r Q : in_range k r Q -> - PI < azimuth k r Q < PI.
Proof. pose proof PI_RGT_0. destruct k; cbn; intros H0; [destruct (atan_bound (across r Q)); lra|exact H0|apply H0]. Qed.
Lemma same_pose_coords o o' P : opos o' = opos o -> camM o' = camM o -> cam_coords o' P = cam_coords o P.
Proof. intros E M. unfold cam_coords. rewrite E, M. reflexivity. Qed.
(** Zooming, another sensor and another projection at the same pose: the angles beside and below the axis stay. *)
Theorem C85_reproject k k' r r' o c c' P Q Q' : plain_cam c k r o -> plain_cam c' k' r' o -> sees k r o c P Q -> sees k' r' o c' P Q' ->
  azimuth k' r' Q' = azimuth k r Q /\ slope k' r' Q' = slope k r Q.
Proof.
  intros HC HC' S S'. destruct (sees_polar _ _ _ _ _ _ HC S) as (l&L&E). destruct (sees_polar _ _ _ _ _ _ HC' S') as (l'&L'&E').
  rewrite E in E'. destruct (polar_eq _ _ _ _ _ _ L L' E') as (_&X&Y&Z0). split; [|congruence].
  symmetry. apply angle_unique; auto. destruct (azimuth_range k r Q) as (A1&A2); [apply S|]. destruct (azimuth_range k' r' Q') as (B1&B2); [apply S'|]. lra.
Qed.
Print Assumptions C85_reproject.
(** Zooming: the picture grows about the principal point. *)
Theorem C85_zoom k r r' o c c' P Q Q' z : plain_cam c k r o -> plain_cam c' k r' o -> f_x r' = z * f_x r -> f_y r' = z * f_y r -> sees k r o c P Q -> sees k r' o c' P Q' ->
  c1 Q' - center_x r' = z * (c1 Q - center_x r) /\ c2 Q' - center_y r' = z * (c2 Q - center_y r).
Proof.
  intros HC HC' EX EY S S'. destruct (plain_foc2 _ _ _ _ HC) as (F1&F2). destruct (plain_foc2 _ _ _ _ HC') as (G1&G2).
  destruct (sees_ray _ _ _ _ _ _ HC S) as (l&L&E). destruct (sees_ray _ _ _ _ _ _ HC' S') as (l'&L'&E').
  set (T := V2 (center_x r' + z * (c1 Q - center_x r)) (center_y r' + z * (c2 Q - center_y r))).
  assert (ZN : z <> 0) by (intros ->; apply G1; rewrite EX; ring).
  assert (AT : alphaR r' T = alphaR r Q) by (unfold alphaR, T; cbn [c1 c2]; rewrite EX; field; auto).
  assert (BT : betaR r' T = betaR r Q) by (unfold betaR, T; cbn [c1 c2]; rewrite EY; field; auto).
  assert (RT : rayR k r' T = rayR k r Q) by (destruct k; cbn [rayR]; rewrite AT, BT; reflexivity).
  assert (IT : in_range k r' T). { destruct S as (_&I0&_). destruct k; cbn [in_range] in *; rewrite ?AT, ?BT; exact I0. }
  assert (Q' = T); [|subst Q'; unfold T; cbn [c1 c2]; split; ring].
  apply (rayR_inj k r'); [split; auto|apply S'|exact IT|]. rewrite RT. exists (l / l'). split; [apply Rdiv_lt_0_compat; auto|].
  rewrite E in E'. pose proof (f_equal cx E') as X1. pose proof (f_equal cy E') as X2. pose proof (f_equal cz E') as X3. cbn [rv_scale map3v cx cy cz] in X1, X2, X3.
  apply v3_ext; cbn [rv_scale map3v cx cy cz]; apply (Rmult_eq_reg_l l'); try lra; [rewrite <- X1|rewrite <- X2|rewrite <- X3]; field; lra.
Qed.
Print Assumptions C85_zoom.

(** A camera that looks level *)
Lemma rad90 : rad 90 = PI / 2. Proof. unfold rad; field. Qed.
Lemma rad00 : rad 0 = 0. Proof. unfold rad; ring. Qed.
Lemma level_coords o P : tilt_deg o = 90 -> roll_deg o = 0 -> cam_coords o P = V3 (rightwards o P) (cz P - elevation_m o) (- forwards o P).
Proof.
  intros ET ER. unfold cam_coords, camM. rewrite ET, ER, rad90, rad00. unfold rotm. rewrite sin_PI2, cos_PI2, sin_0, cos_0. unfold rm_mul_v, rdot, rightwards, forwards, opos. apply v3_ext; cbn; ring.
Qed.
(** Turning a level camera shifts the angles beside the axis and keeps the slopes ... *)
Theorem C85_pan k r o c c' h' P Q Q' : tilt_deg o = 90 -> roll_deg o = 0 -> plain_cam c k r o -> plain_cam c' k r (with_heading o h') ->
  sees k r o c P Q -> sees k r (with_heading o h') c' P Q' ->
  (exists j : Z, azimuth k r Q' = azimuth k r Q - rad (h' - heading_deg o) + 2 * IZR j * PI) /\ slope k r Q' = slope k r Q.
Proof.
  intros ET ER HC HC' S S'. destruct (sees_polar _ _ _ _ _ _ HC S) as (l&L&E). destruct (sees_polar _ _ _ _ _ _ HC' S') as (l'&L'&E').
  rewrite level_coords in E, E' by (cbn; assumption). unfold rightwards, forwards in E, E'. cbn [heading_deg pos_x_m pos_y_m elevation_m with_heading] in E, E'.
  set (h := rad (heading_deg o)) in *. set (g := rad h') in *. set (a := azimuth k r Q) in *. set (b := azimuth k r Q') in *.
  set (x := cx P - pos_x_m o) in *. set (y := cy P - pos_y_m o) in *. clearbody a b x y.
  assert (EG : rad (h' - heading_deg o) = g - h) by (unfold g, h, rad; ring). rewrite EG. clear EG. clearbody g h.
  pose proof (f_equal cx E) as X1. pose proof (f_equal cy E) as X2. pose proof (f_equal cz E) as X3. cbn in X1, X2, X3.
  pose proof (f_equal cx E') as Y1. pose proof (f_equal cy E') as Y2. pose proof (f_equal cz E') as Y3. cbn in Y1, Y2, Y3. clear E E'.
  assert (K : forall m t n, x * cos t - y * sin t = m * sin n -> x * sin t + y * cos t = m * cos n -> m * sin (n + t) = x /\ m * cos (n + t) = y).
  { intros m t n H1 H2. rewrite sin_plus, cos_plus. pose proof (sin2_cos2 t) as H. unfold Rsqr in H. split.
    - transitivity ((m * sin n) * cos t + (m * cos n) * sin t); [ring|]. rewrite <- H1, <- H2. transitivity (x * (sin t * sin t + cos t * cos t)); [ring|rewrite H; ring].
    - transitivity ((m * cos n) * cos t - (m * sin n) * sin t); [ring|]. rewrite <- H1, <- H2. transitivity (y * (sin t * sin t + cos t * cos t)); [ring|rewrite H; ring]. }
  destruct (K l h a) as (U1&U2); [lra|lra|]. destruct (K l' g b) as (V1&V2'); [lra|lra|].
  destruct (polar_eq l l' (a + h) (b + g) (slope k r Q) (slope k r Q') L L') as (_&W1&W2&W3); [apply v3_ext; cbn; lra|].
  split; [|symmetry; exact W3]. destruct (PropGps.same_angle (b + g) (a + h) (eq_sym W2) (eq_sym W1)) as (j&J). exists j. lra.
Qed.
Print Assumptions C85_pan.
(** ... so that a panorama scrolls: its columns move all by the same number of pixels, round and round, its rows stay. *)
Theorem C85_scroll k r o c c' h' P Q Q' : k <> Rectilinear -> tilt_deg o = 90 -> roll_deg o = 0 -> plain_cam c k r o -> plain_cam c' k r (with_heading o h') ->
  sees k r o c P Q -> sees k r (with_heading o h') c' P Q' ->
  exists j : Z, c1 Q' = c1 Q - f_x r * rad (h' - heading_deg o) + IZR j * (2 * PI * f_x r) /\ c2 Q' = c2 Q.
Proof.
  intros NK ET ER HC HC' S S'. destruct (C85_pan k r o c c' h' P Q Q' ET ER HC HC' S S') as ((j&A)&B). destruct (plain_foc2 _ _ _ _ HC) as (F1&F2). exists j.
  assert (EX : forall X, c1 X = center_x r + f_x r * across r X) by (intros; unfold across; field; auto).
  assert (EY : forall X, c2 X = center_y r + f_y r * down r X) by (intros; unfold down; field; auto).
  assert (D : across r Q' = across r Q - rad (h' - heading_deg o) + 2 * IZR j * PI /\ down r Q' = down r Q).
  { destruct k; [congruence| |]; cbn [azimuth slope] in A, B; (split; [exact A|]); [exact B|].
    destruct S as (_&(_&I1)&_), S' as (_&(_&I2)&_). unfold betaR in I1, I2. fold (down r Q) in I1. fold (down r Q') in I2.
    apply tan_is_inj; [lra|lra|exact B]. }
  destruct D as (D1&D2). rewrite (EX Q'), (EX Q), (EY Q'), (EY Q), D1, D2. split; [ring|reflexivity].
Qed.
Print Assumptions C85_scroll.

(** Rolling a rectilinear camera turns the picture clockwise about the principal point, at every attitude; for panoramas this
    holds for the directions, not for the picture. *)
Lemma roll_coords o d P : let C := cam_coords o P in let x := rad (d - roll_deg o) in
  cam_coords (with_roll o d) P = V3 (cos x * cx C + sin x * cy C) (cos x * cy C - sin x * cx C) (cz C).
Proof.
  intros C x. assert (E : rad d = rad (roll_deg o) + x) by (unfold x, rad; ring). clearbody x. unfold C, cam_coords, camM. cbn [tilt_deg roll_deg heading_deg with_roll]. change (opos (with_roll o d)) with (opos o). rewrite E. unfold rotm. rewrite sin_plus, cos_plus.
  generalize (rv_sub P (opos o)). intros V. unfold rm_mul_v, rdot. apply v3_ext; cbn [cx cy cz]; ring.
Qed.
Theorem C85_roll r o c c' d P Q : plain_cam c Rectilinear r o -> plain_cam c' Rectilinear r (with_roll o d) -> sees Rectilinear r o c P Q ->
  let x := rad (d - roll_deg o) in exists Q', sees Rectilinear r (with_roll o d) c' P Q' /\
    across r Q' = cos x * across r Q - sin x * down r Q /\ down r Q' = sin x * across r Q + cos x * down r Q.
Proof.
  intros HC HC' S x. pose proof S as (HS&_&p&Hp&_). destruct (sees_ray _ _ _ _ _ _ HC S) as (l&L&E). destruct (plain_foc2 _ _ _ _ HC) as (F1&F2).
  pose proof (roll_coords o d P) as RC. cbv zeta in RC. fold x in RC. clearbody x.
  set (Q' := V2 (center_x r + f_x r * (cos x * across r Q - sin x * down r Q)) (center_y r + f_y r * (sin x * across r Q + cos x * down r Q))).
  assert (A : across r Q' = cos x * across r Q - sin x * down r Q) by (unfold across at 1, Q'; cbn [c1 c2]; field; auto).
  assert (B : down r Q' = sin x * across r Q + cos x * down r Q) by (unfold down at 1, Q'; cbn [c1 c2]; field; auto).
  exists Q'. split; [|split; [exact A|exact B]].
  assert (HS' : showable Rectilinear (cam_coords (with_roll o d) P)) by (rewrite RC; exact HS).
  split; [exact HS'|]. split; [exact Logic.I|]. exists p. split; [exact Hp|].
  apply (image_dir c' Rectilinear r (with_roll o d) p P Q' true HC' Hp HS'); [exact Logic.I|]. exists l. split; [exact L|].
  rewrite RC, E. cbn [rayR]. unfold alphaR, betaR. fold (across r Q) (down r Q) (across r Q') (down r Q'). rewrite A, B. apply v3_ext; cbn; ring.
Qed.
Print Assumptions C85_roll.
(** Tilting a rectilinear camera without roll *)
Lemma tilt_coords o t P : roll_deg o = 0 -> let C := cam_coords o P in let x := rad (t - tilt_deg o) in
  cam_coords (with_tilt o t) P = V3 (cx C) (cos x * cy C + sin x * cz C) (cos x * cz C - sin x * cy C).
Proof.
  intros ER C x. assert (E : rad t = rad (tilt_deg o) + x) by (unfold x, rad; ring). clearbody x. unfold C, cam_coords, camM. cbn [tilt_deg roll_deg heading_deg with_tilt]. change (opos (with_tilt o t)) with (opos o). rewrite E, ER, rad00. unfold rotm. rewrite sin_plus, cos_plus, sin_0, cos_0.
  generalize (rv_sub P (opos o)). intros V. unfold rm_mul_v, rdot. apply v3_ext; cbn [cx cy cz]; ring.
Qed.
Theorem C85_tilt r o c c' t P Q Q' : roll_deg o = 0 -> plain_cam c Rectilinear r o -> plain_cam c' Rectilinear r (with_tilt o t) ->
  sees Rectilinear r o c P Q -> sees Rectilinear r (with_tilt o t) c' P Q' ->
  let x := rad (t - tilt_deg o) in let a := atan (down r Q) in
  (exists j : Z, atan (down r Q') = a + x + 2 * IZR j * PI) /\ across r Q' * cos (a + x) = across r Q * cos a.
Proof.
  intros ER HC HC' S S' x a. destruct (sees_ray _ _ _ _ _ _ HC S) as (l&L&E). destruct (sees_ray _ _ _ _ _ _ HC' S') as (l'&L'&E').
  pose proof (tilt_coords o t P ER) as TC. cbv zeta in TC. fold x in TC. clearbody x. rewrite E, E' in TC. clear E E'. cbn [rayR] in TC. unfold alphaR, betaR in TC. fold (across r Q) (down r Q) (across r Q') (down r Q') in TC.
  set (b := atan (down r Q')). assert (TA : down r Q = sin a / cos a) by (unfold a; symmetry; apply (tan_atan (down r Q))). assert (TB : down r Q' = sin b / cos b) by (unfold b; symmetry; apply (tan_atan (down r Q'))).
  pose proof (cos_atan_pos (down r Q)) as CA. fold a in CA. pose proof (cos_atan_pos (down r Q')) as CB. fold b in CB. rewrite TA, TB in TC. clearbody a b.
  pose proof (f_equal cx TC) as X1. pose proof (f_equal cy TC) as X2. pose proof (f_equal cz TC) as X3. cbn [rv_scale map3v cx cy cz] in X1, X2, X3. clear TC.
  assert (S1 : l' / cos b * sin b = l / cos a * sin (a + x)). { rewrite sin_plus. transitivity (- (l' * - (sin b / cos b))); [field; lra|]. rewrite X2. field. lra. }
  assert (S2 : l' / cos b * cos b = l / cos a * cos (a + x)). { rewrite cos_plus. transitivity (- (l' * -1)); [field; lra|]. rewrite X3. field. lra. }
  destruct (polar_eq (l' / cos b) (l / cos a) b (a + x) 0 0) as (EL&W1&W2&_); [apply Rdiv_lt_0_compat; auto|apply Rdiv_lt_0_compat; auto|apply v3_ext; cbn; lra|].
  split.
  - destruct (PropGps.same_angle b (a + x) W2 W1) as (j&J). exists j. lra.
  - rewrite <- W2. assert (EQ : l' = l / cos a * cos b) by (rewrite <- EL; field; lra). rewrite EQ in X1. apply (Rmult_eq_reg_l (l / cos a)); [|apply Rgt_not_eq, Rdiv_lt_0_compat; auto].
    transitivity (l * across r Q); [rewrite <- X1; ring|field; lra].
Qed.
Print Assumptions C85_tilt.

(** *** Cases *)
Lemma sees_at k r o c P Q : plain_cam c k r o -> showable k (cam_coords o P) -> in_range k r Q -> posmul (cam_coords o P) (rayR k r Q) -> sees k r o c P Q.
Proof. intros HC HS HI HM. split; [exact HS|]. split; [exact HI|]. exists (fin3 P). split; [apply rep3_fin|]. apply (image_dir c k r o (fin3 P) P Q true HC (rep3_fin P) HS HI HM). Qed.
(** Panning a panorama that does not look level does not scroll it: the rows change. *)
Definition o_down (h : R) : opar R := OPar 10 60 0 h 0 0.
Lemma cs60 : cos (rad 60) = 1 / 2 /\ sin (rad 60) = sqrt 3 / 2.
Proof. replace (rad 60) with (PI / 3) by (unfold rad; field). split; [apply cos_PI3|apply sin_PI3]. Qed.
Theorem C85_scroll_refuted : exists c c' P Q Q', plain_cam c Cylindrical ex_r (o_down 0) /\ plain_cam c' Cylindrical ex_r (with_heading (o_down 0) 90) /\
  sees Cylindrical ex_r (o_down 0) c P Q /\ sees Cylindrical ex_r (with_heading (o_down 0) 90) c' P Q' /\ c2 Q' <> c2 Q.
Proof.
  destruct (ex_any (o_down 0) Cylindrical) as (c&HC). destruct (ex_any (with_heading (o_down 0) 90) Cylindrical) as (c'&HC'). destruct cs60 as (C6&S6).
  pose proof (sqrt_sqrt 3 ltac:(lra)) as S3. pose proof (sqrt_pos 3) as P3. pose proof PI_RGT_0 as HP. pose proof tinyR_pos as TP.
  (* the point straight ahead of the first camera *)
  set (P := V3 0 (sqrt 3) 9). assert (B3 : 1 <= sqrt 3 <= 2) by nra.
  assert (K : cam_coords (o_down 0) P = V3 0 0 (-2)).
  { unfold cam_coords, camM, P. cbn [tilt_deg roll_deg heading_deg o_down]. rewrite rad00. unfold rotm. rewrite C6, S6, sin_0, cos_0. unfold rm_mul_v, rdot, opos. apply v3_ext; cbn; nra. }
  assert (K' : cam_coords (with_heading (o_down 0) 90) P = V3 (- sqrt 3) (- (sqrt 3 / 2)) (-1 / 2)).
  { unfold cam_coords, camM, P. cbn [tilt_deg roll_deg heading_deg o_down with_heading]. rewrite rad00, rad90. unfold rotm. rewrite C6, S6, sin_0, cos_0, sin_PI2, cos_PI2. unfold rm_mul_v, rdot, opos. apply v3_ext; cbn; nra. }
  assert (T1 : tinyR <= 1 / 2) by (unfold tinyR; lra).
  assert (HS : showable Cylindrical (cam_coords (o_down 0) P)) by (rewrite K; split; [cbn [cz]; rewrite Rabs_left; lra|exact Logic.I]).
  assert (HS' : showable Cylindrical (cam_coords (with_heading (o_down 0) 90) P)) by (rewrite K'; split; [cbn [cz]; rewrite Rabs_left; lra|exact Logic.I]).
  destruct (plain_good _ _ _ _ HC') as (HG&HK&HDi&_).
  destruct (ifs_spec c' ex_r (camM (with_heading (o_down 0) 90)) (opos (with_heading (o_down 0) 90)) (fin3 P) P true HG (rep3_fin P)) as (q&Q'&Eq&Rq&_&_&_); [rewrite HK; exact HS'|].
  rewrite HDi in Eq. assert (HI' : rep2 (imageFromSpace c' (fin3 P) true) Q') by (rewrite Eq; exact Rq).
  destruct (seen_ray _ _ _ _ _ _ _ HC' (rep3_fin P) HS' HI') as (l&L&E). rewrite K' in E. cbn [rayR] in E.
  set (a := alphaR ex_r Q') in *. set (b := betaR ex_r Q') in *.
  pose proof (f_equal cx E) as X1. pose proof (f_equal cy E) as X2. pose proof (f_equal cz E) as X3. cbn in X1, X2, X3.
  (* the pixel computed is the one in range: its angle is atan2 of the two coordinates *)
  set (Q2 := V2 (2000 - 3500 * atan (2 * sqrt 3)) (c2 Q')).
  assert (A2 : alphaR ex_r Q2 = - atan (2 * sqrt 3)) by (unfold alphaR, Q2; cbn [c1 center_x f_x ex_r]; field).
  assert (BE : betaR ex_r Q2 = b) by reflexivity.
  destruct (atan_bound (2 * sqrt 3)) as (AB1&AB2). pose proof (cos_atan_pos (2 * sqrt 3)) as CP. pose proof (tan_atan (2 * sqrt 3)) as TT. unfold tan in TT.
  assert (IR : in_range Cylindrical ex_r Q2) by (cbn [in_range]; rewrite A2; lra).
  assert (LL : l * l = 13 / 4). { pose proof (sin2_cos2 a) as H. unfold Rsqr in H. replace (l * l) with ((l * sin a) * (l * sin a) + (l * - cos a) * (l * - cos a)) by (transitivity (l * l * (sin a * sin a + cos a * cos a)); [ring|rewrite H; ring]). rewrite <- X1, <- X3. nra. }
  assert (SQ : l * cos (atan (2 * sqrt 3)) = 1 / 2).
  { set (g := cos (atan (2 * sqrt 3))) in *. set (s := sin (atan (2 * sqrt 3))) in *. pose proof (sin2_cos2 (atan (2 * sqrt 3))) as H. unfold Rsqr in H. fold g s in H. assert (ES : s = 2 * sqrt 3 * g) by (rewrite <- TT; field; lra).
    assert (GG : g * g = 1 / 13) by (rewrite ES in H; nra). assert ((l * g) * (l * g) = 1 / 4) by (transitivity ((l * l) * (g * g)); [ring|rewrite LL, GG; field]). assert (0 < l * g) by (apply Rmult_lt_0_compat; lra). nra. }
  assert (PM : posmul (cam_coords (with_heading (o_down 0) 90) P) (rayR Cylindrical ex_r Q2)).
  { exists l. split; [exact L|]. rewrite K'. cbn [rayR]. rewrite A2, BE, sin_neg, cos_neg. apply v3_ext; cbn [cx cy cz rv_scale map3v]; [|exact X2|lra].
    assert (ES : sin (atan (2 * sqrt 3)) = 2 * sqrt 3 * cos (atan (2 * sqrt 3))) by (rewrite <- TT at 2; field; lra). rewrite ES. nra. }
  exists c, c', P, (V2 2000 1500), Q2. splits; [exact HC|exact HC'| | |].
  - apply sees_at; [exact HC|exact HS| |].
    + unfold in_range, alphaR. cbn. lra.
    + rewrite K. exists 2. split; [lra|]. cbn [rayR]. replace (alphaR ex_r (V2 2000 1500)) with 0 by (unfold alphaR; cbn; field). replace (betaR ex_r (V2 2000 1500)) with 0 by (unfold betaR; cbn; field). rewrite sin_0, cos_0. apply v3_ext; cbn; ring.
  - apply sees_at; auto.
  - intros EQ. cbn [c2 Q2] in EQ. unfold b, betaR in X2. rewrite EQ in X2. cbn in X2. nra.
Qed.
Print Assumptions C85_scroll_refuted.
(** Level cameras with these coordinates: the point 50 m ahead and 50 m to the right and one behind it *)
Definition x_near : v3 R := V3 50 50 10.
Definition x_far : v3 R := V3 100 100 10.
Lemma at_coords s P : cam_coords (ex_at s) P = V3 (cx P - s) (cz P - 10) (- cy P).
Proof. rewrite level_coords by reflexivity. unfold rightwards, forwards. cbn [heading_deg pos_x_m pos_y_m elevation_m ex_at]. rewrite rad00, sin_0, cos_0. apply v3_ext; cbn; ring. Qed.
Lemma any_r o k f : f <> 0 -> exists c, plain_cam c k (Proj f f 2000 1500 4000 3000) o.
Proof.
  intros NF. assert (H : rep_opar (opar_fin o) o) by (repeat split). destruct (init_rigid _ _ H) as (m&E&_). set (r := Proj f f 2000 1500 4000 3000).
  exists (plain_camera k (proj_fin r) m), (proj_fin r), m. splits; auto; [repeat split|split; simpl; lra|eauto].
Qed.
Lemma near_showable k s P : 1 <= cy P -> showable k (cam_coords (ex_at s) P).
Proof. intros H. rewrite at_coords. split; cbn [cz]; [unfold tinyR; rewrite Rabs_left; lra|destruct k; auto; lra]. Qed.
Lemma sees_rect c f s P : f <> 0 -> plain_cam c Rectilinear (Proj f f 2000 1500 4000 3000) (ex_at s) -> 1 <= cy P ->
  sees Rectilinear (Proj f f 2000 1500 4000 3000) (ex_at s) c P (V2 (2000 + f * ((cx P - s) / cy P)) (1500 - f * ((cz P - 10) / cy P))).
Proof.
  intros NF HC H. apply sees_at; [exact HC|apply near_showable; exact H|exact Logic.I|]. rewrite at_coords. exists (cy P). split; [lra|]. unfold rayR, alphaR, betaR. cbn [c1 c2 center_x center_y f_x f_y]. apply v3_ext; cbn; field; lra.
Qed.
Lemma sees_cyl c P : plain_cam c Cylindrical ex_r (ex_at 0) -> P = x_near \/ P = x_far -> sees Cylindrical ex_r (ex_at 0) c P (V2 (2000 + 3500 * (PI / 4)) 1500).
Proof.
  intros HC H. pose proof PI_RGT_0. pose proof (sqrt_lt_R0 2 ltac:(lra)) as S2. apply sees_at; [exact HC|apply near_showable; destruct H as [-> | ->]; cbn; lra| |].
  - unfold in_range, alphaR. cbn. lra.
  - rewrite at_coords. exists (cy P * sqrt 2). split; [destruct H as [-> | ->]; cbn; nra|]. cbn [rayR]. replace (alphaR ex_r _) with (PI / 4) by (unfold alphaR; cbn; field). replace (betaR ex_r _) with 0 by (unfold betaR; cbn; field).
    rewrite sin_PI4, cos_PI4. destruct H as [-> | ->]; apply v3_ext; cbn; field; lra.
Qed.
Lemma ex_r_form : ex_r = Proj 3500 3500 2000 1500 4000 3000. Proof. reflexivity. Qed.
Lemma v2_eq (a b c d : R) : a = c -> b = d -> V2 a b = V2 c d. Proof. intros -> ->; reflexivity. Qed.
Example C85_example : exists c0 c1 c2 c3, plain_cam c0 Rectilinear ex_r (ex_at 0) /\ plain_cam c1 Rectilinear ex_r (ex_at 10) /\ plain_cam c2 Cylindrical ex_r (ex_at 0) /\
  plain_cam c3 Rectilinear (Proj 7000 7000 2000 1500 4000 3000) (ex_at 0) /\
  (* both points are at one pixel of the first camera, and of the panorama from the same place *)
  sees Rectilinear ex_r (ex_at 0) c0 x_near (V2 5500 1500) /\ sees Rectilinear ex_r (ex_at 0) c0 x_far (V2 5500 1500) /\
  sees Cylindrical ex_r (ex_at 0) c2 x_near (V2 (2000 + 3500 * (PI / 4)) 1500) /\ sees Cylindrical ex_r (ex_at 0) c2 x_far (V2 (2000 + 3500 * (PI / 4)) 1500) /\
  (* but not for the camera ten metres to the right *)
  sees Rectilinear ex_r (ex_at 10) c1 x_near (V2 4800 1500) /\ sees Rectilinear ex_r (ex_at 10) c1 x_far (V2 5150 1500) /\
  rcross (rv_sub x_near (opos (ex_at 0))) (rv_sub (opos (ex_at 10)) (opos (ex_at 0))) <> rv0 /\
  (* with the doubled focal length the pixel is twice as far from the centre *)
  sees Rectilinear (Proj 7000 7000 2000 1500 4000 3000) (ex_at 0) c3 x_near (V2 9000 1500).
Proof.
  destruct (ex_cam_at Rectilinear 0) as (c0&H0). destruct (ex_cam_at Rectilinear 10) as (c1'&H1). destruct (ex_cam_at Cylindrical 0) as (c2'&H2). destruct (any_r (ex_at 0) Rectilinear 7000 ltac:(lra)) as (c3&H3).
  exists c0, c1', c2', c3. splits; try assumption.
  - rewrite ex_r_form in *. replace (V2 5500 1500) with (V2 (2000 + 3500 * ((cx x_near - 0) / cy x_near)) (1500 - 3500 * ((cz x_near - 10) / cy x_near))) by (apply v2_eq; cbn; field). apply sees_rect; auto; cbn; lra.
  - rewrite ex_r_form in *. replace (V2 5500 1500) with (V2 (2000 + 3500 * ((cx x_far - 0) / cy x_far)) (1500 - 3500 * ((cz x_far - 10) / cy x_far))) by (apply v2_eq; cbn; field). apply sees_rect; auto; cbn; lra.
  - apply sees_cyl; auto.
  - apply sees_cyl; auto.
  - rewrite ex_r_form in *. replace (V2 4800 1500) with (V2 (2000 + 3500 * ((cx x_near - 10) / cy x_near)) (1500 - 3500 * ((cz x_near - 10) / cy x_near))) by (apply v2_eq; cbn; field). apply sees_rect; auto; cbn; lra.
  - rewrite ex_r_form in *. replace (V2 5150 1500) with (V2 (2000 + 3500 * ((cx x_far - 10) / cy x_far)) (1500 - 3500 * ((cz x_far - 10) / cy x_far))) by (apply v2_eq; cbn; field). apply sees_rect; auto; cbn; lra.
  - intros X. apply (f_equal cz) in X. cbn in X. lra.
  - replace (V2 9000 1500) with (V2 (2000 + 7000 * ((cx x_near - 0) / cy x_near)) (1500 - 7000 * ((cz x_near - 10) / cy x_near))) by (apply v2_eq; cbn; field). apply sees_rect; auto; cbn; lra.
Qed.
Example C85_turned : exists c c' d e f, plain_cam c Cylindrical ex_r (ex_at 0) /\ plain_cam c' Cylindrical ex_r (with_heading (ex_at 0) 45) /\
  sees Cylindrical ex_r (ex_at 0) c x_near (V2 (2000 + 3500 * (PI / 4)) 1500) /\ sees Cylindrical ex_r (with_heading (ex_at 0) 45) c' x_near (V2 2000 1500) /\
  plain_cam d Rectilinear ex_r (ex_at 0) /\ plain_cam e Rectilinear ex_r (with_roll (ex_at 0) 90) /\
  sees Rectilinear ex_r (ex_at 0) d x_near (V2 5500 1500) /\ sees Rectilinear ex_r (with_roll (ex_at 0) 90) e x_near (V2 2000 5000) /\
  plain_cam f Rectilinear ex_r (with_tilt (ex_at 0) 45) /\ sees Rectilinear ex_r (ex_at 0) d (V3 0 50 10) (V2 2000 1500) /\ sees Rectilinear ex_r (with_tilt (ex_at 0) 45) f (V3 0 50 10) (V2 2000 (-2000)).
Proof.
  destruct (ex_any (ex_at 0) Cylindrical) as (c&HC). destruct (ex_any (with_heading (ex_at 0) 45) Cylindrical) as (c'&HC'). destruct (ex_any (ex_at 0) Rectilinear) as (d&HD). destruct (ex_any (with_roll (ex_at 0) 90) Rectilinear) as (e&HE). destruct (ex_any (with_tilt (ex_at 0) 45) Rectilinear) as (f&HF).
  pose proof PI_RGT_0 as HP. pose proof (sqrt_lt_R0 2 ltac:(lra)) as S2. pose proof (sqrt_sqrt 2 ltac:(lra)) as SS. assert (B2 : 1 < sqrt 2 < 2) by nra.
  assert (R45 : rad 45 = PI / 4) by (unfold rad; field). assert (TT : tinyR <= 1) by (unfold tinyR; lra).
  assert (SD : sees Rectilinear ex_r (ex_at 0) d x_near (V2 5500 1500)).
  { rewrite ex_r_form in *. replace (V2 5500 1500) with (V2 (2000 + 3500 * ((cx x_near - 0) / cy x_near)) (1500 - 3500 * ((cz x_near - 10) / cy x_near))) by (apply v2_eq; cbn; field). apply sees_rect; auto; cbn; lra. }
  exists c, c', d, e, f. splits; try assumption.
  - apply sees_cyl; auto.
  - assert (K : cam_coords (with_heading (ex_at 0) 45) x_near = rv_scale (50 * sqrt 2) (V3 0 0 (-1))).
    { rewrite level_coords by reflexivity. unfold rightwards, forwards. cbn [heading_deg pos_x_m pos_y_m elevation_m ex_at with_heading]. rewrite R45, sin_PI4, cos_PI4. apply v3_ext; cbn; field_simplify_eq; nra. }
    apply sees_at; [exact HC'| | |].
    + rewrite K. split; [cbn; rewrite Rabs_left; nra|exact Logic.I].
    + unfold in_range, alphaR. cbn. lra.
    + rewrite K. exists (50 * sqrt 2). split; [lra|]. f_equal. cbn [rayR]. replace (alphaR ex_r _) with 0 by (unfold alphaR; cbn; field). replace (betaR ex_r _) with 0 by (unfold betaR; cbn; field). rewrite sin_0, cos_0. apply v3_ext; cbn; ring.
  - destruct (C85_roll ex_r (ex_at 0) d e 90 x_near _ HD HE SD) as (Q'&S'&A&B). replace (rad (90 - roll_deg (ex_at 0))) with (PI / 2) in * by (unfold rad; cbn; field).
    rewrite sin_PI2, cos_PI2 in A, B. replace (V2 2000 5000) with Q'; [exact S'|]. destruct Q' as [u v]. unfold across, down in A, B. cbn in A, B. apply v2_eq; lra.
  - rewrite ex_r_form in *. replace (V2 2000 1500) with (V2 (2000 + 3500 * ((cx (V3 0 50 10) - 0) / cy (V3 0 50 10))) (1500 - 3500 * ((cz (V3 0 50 10) - 10) / cy (V3 0 50 10)))) by (apply v2_eq; cbn; field). apply sees_rect; auto; cbn; lra.
  - assert (K : cam_coords (with_tilt (ex_at 0) 45) (V3 0 50 10) = rv_scale (50 / sqrt 2) (V3 0 1 (-1))).
    { rewrite tilt_coords by reflexivity. cbv zeta. rewrite at_coords. replace (rad (45 - tilt_deg (ex_at 0))) with (- (PI / 4)) by (unfold rad; cbn; field). rewrite sin_neg, cos_neg, sin_PI4, cos_PI4. apply v3_ext; cbn; field; lra. }
    assert (G : 25 < 50 / sqrt 2) by (apply (Rmult_lt_reg_r (sqrt 2)); [lra|]; replace (50 / sqrt 2 * sqrt 2) with 50 by (field; lra); lra).
    apply sees_at; [exact HF| |exact Logic.I|].
    + rewrite K. split; [cbn; rewrite Rabs_left; lra|cbn; lra].
    + rewrite K. exists (50 / sqrt 2). split; [lra|]. f_equal. cbn [rayR]. replace (alphaR ex_r _) with 0 by (unfold alphaR; cbn; field). replace (betaR ex_r _) with (-1) by (unfold betaR; cbn; field). apply v3_ext; cbn; ring.
Qed.
