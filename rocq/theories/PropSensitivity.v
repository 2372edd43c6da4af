(** * C81: how errors of pixels and of the camera's parameters move the points that are measured *)
Require Import Reals Lra Psatz List Bool.
From Verif Require Import Num Vec Trig Orientation OrientationFacts Projection ProjectionFacts Ray RayFacts CameraTransform CameraFacts PropCamera Stereo PropStereo.
From Verif Require Import FitTerms PropFitTerms PropDetermine PropPerspective PropRounding.
Import ListNotations.
Open Scope R_scope.

(** ** Specification *)
(** The pixel [q] shows the point [P] of the plane Z = [z]. *)
Definition shows (c : camera) (q : v2 num) (z : num) (P : v3 R) : Prop := exists p, spaceFromImage c q (on_Z z) = Some p /\ rep3 p P.
(** The distance of a point from the foot of the camera, in the level plane *)
Definition level (o : opar R) (P : v3 R) : R := sqrt ((cx P - pos_x_m o) * (cx P - pos_x_m o) + (cy P - pos_y_m o) * (cy P - pos_y_m o)).
(** The distance from the camera in the vertical plane of the heading *)
Definition slant (o : opar R) (P : v3 R) : R := sqrt (forwards o P * forwards o P + (cz P - elevation_m o) * (cz P - elevation_m o)).
(** the same camera with another tilt, heading, elevation or position *)
Definition with_tilt (o : opar R) (t : R) : opar R := OPar (elevation_m o) t (roll_deg o) (heading_deg o) (pos_x_m o) (pos_y_m o).
Definition with_heading (o : opar R) (h : R) : opar R := OPar (elevation_m o) (tilt_deg o) (roll_deg o) h (pos_x_m o) (pos_y_m o).
Definition with_elevation (o : opar R) (e : R) : opar R := OPar e (tilt_deg o) (roll_deg o) (heading_deg o) (pos_x_m o) (pos_y_m o).
Definition with_position (o : opar R) (x y : R) : opar R := OPar (elevation_m o) (tilt_deg o) (roll_deg o) (heading_deg o) x y.

(** ** The point of a pixel *)
Definition aim (k : pkind) (o : opar R) (r : proj R) (Q : v2 R) : v3 R := rm_mul_v (rm_trans (camM o)) (rayR k r Q).
Lemma shows_form c k r o q Q z Z P : plain_cam c k r o -> rep2 q Q -> has_ray k r Q -> rep z Z -> shows c q z P ->
  let W := aim k o r Q in let s := (Z - elevation_m o) / cz W in cz W <> 0 /\ 0 <= s /\ P = rv_add (opos o) (rv_scale s W).
Proof.
  intros HC Hq HH Hz (p&E&RP) W s. destruct (on_plane c k r o q Q z Z HC Hq HH Hz) as (p'&E'&K). fold W in K. rewrite E in E'. injection E' as <-.
  destruct K as [(_&N)|((N&S)&RP')].
  - destruct RP as (_&_&RZ). rewrite N in RZ. discriminate RZ.
  - fold (aim k o r Q) W in N, S, RP'. split; [exact N|]. split; [exact S|]. exact (rep3_inj _ _ _ RP RP').
Qed.
Lemma shows_exists c k r o q Q z Z : plain_cam c k r o -> rep2 q Q -> has_ray k r Q -> rep z Z ->
  let W := aim k o r Q in cz W <> 0 -> 0 <= (Z - elevation_m o) / cz W -> shows c q z (rv_add (opos o) (rv_scale ((Z - elevation_m o) / cz W) W)).
Proof.
  intros HC Hq HH Hz W N S. destruct (on_plane c k r o q Q z Z HC Hq HH Hz) as (p&E&K). fold (aim k o r Q) W in K. exists p. split; [exact E|].
  destruct K as [([K|K]&_)|(_&K)]; [contradiction|lra|exact K].
Qed.
Lemma shows_depth r o Q s : depth o (rv_add (opos o) (rv_scale s (aim Rectilinear o r Q))) = s.
Proof.
  unfold depth, cam_coords. replace (rv_sub (rv_add (opos o) (rv_scale s (aim Rectilinear o r Q))) (opos o)) with (rv_scale s (aim Rectilinear o r Q)) by (apply v3_ext; cbn; ring).
  assert (E : rm_mul_v (camM o) (rv_scale s (aim Rectilinear o r Q)) = rv_scale s (rm_mul_v (camM o) (aim Rectilinear o r Q))) by (unfold rm_mul_v, rdot; apply v3_ext; cbn; ring).
  rewrite E. unfold aim. rewrite mul_trans by apply rotm_rows. cbn. ring.
Qed.
Lemma aim_norm_M M v : orthonormal M -> rdot (rm_mul_v (rm_trans M) v) (rm_mul_v (rm_trans M) v) = rdot v v.
Proof.
  destruct M as [[a1 a2 a3] [b1 b2 b3] [d1 d2 d3]], v as [x y z]. intros (H1&H2&H3&H4&H5&H6). cbv [rm_mul_v rm_trans rdot cx cy cz] in *.
  transitivity (x * x * (a1 * a1 + a2 * a2 + a3 * a3) + y * y * (b1 * b1 + b2 * b2 + b3 * b3) + z * z * (d1 * d1 + d2 * d2 + d3 * d3)
    + 2 * x * y * (a1 * b1 + a2 * b2 + a3 * b3) + 2 * x * z * (a1 * d1 + a2 * d2 + a3 * d3) + 2 * y * z * (b1 * d1 + b2 * d2 + b3 * d3)); [ring|].
  rewrite H1, H2, H3. repeat match goal with H : _ = 0 |- _ => rewrite H end. ring.
Qed.
Lemma aim_sub k o r Q Q' : rv_sub (aim k o r Q) (aim k o r Q') = rm_mul_v (rm_trans (camM o)) (rv_sub (rayR k r Q) (rayR k r Q')).
Proof. unfold aim, rm_mul_v, rdot. apply v3_ext; cbn; ring. Qed.

(** ** Errors of the pixel *)
Lemma cross_bound W V : rnorm (rv_sub (rv_scale (cz V) W) (rv_scale (cz W) V)) <= rnorm W * rnorm (rv_sub W V).
Proof.
  unfold rnorm. rewrite <- sqrt_mult by (unfold rdot; nra). apply sqrt_le_1_alt. destruct W as [a b d], V as [x y z]. unfold rdot. cbn [rv_sub rv_scale zip3v map3v cx cy cz].
  assert (L : (a * a + b * b + d * d) * ((a - x) * (a - x) + (b - y) * (b - y) + (d - z) * (d - z)) - ((z * a - d * x) * (z * a - d * x) + (z * b - d * y) * (z * b - d * y) + (z * d - d * z) * (z * d - d * z)) =
    (a * y - b * x) * (a * y - b * x) + (a * (a - x) + b * (b - y) + d * (d - z)) * (a * (a - x) + b * (b - y) + d * (d - z))) by ring.
  pose proof (Rle_0_sqr (a * y - b * x)) as S1. pose proof (Rle_0_sqr (a * (a - x) + b * (b - y) + d * (d - z))) as S2. unfold Rsqr in S1, S2. lra.
Qed.
(** Two pixels of one picture: the points of the plane they show are not further apart than the angle between the pixels (the
    distance of the pixels over the focal length), times the distance of the one point, times the depth of the other, over the
    height of the camera above the plane. *)
Theorem C81_pixel c r o q q' Q Q' z Z P P' : plain_cam c Rectilinear r o -> rep2 q Q -> rep2 q' Q' -> rep z Z -> shows c q z P -> shows c q' z P' ->
  let u := (c1 Q - c1 Q') / f_x r in let v := (c2 Q - c2 Q') / f_y r in
  Rabs (elevation_m o - Z) * rdist P P' <= rdist P (opos o) * depth o P' * sqrt (u * u + v * v).
Proof.
  intros HC Hq Hq' Hz SP SP' u v.
  destruct (shows_form _ _ _ _ _ _ _ _ _ HC Hq Logic.I Hz SP) as (N&S&->). destruct (shows_form _ _ _ _ _ _ _ _ _ HC Hq' Logic.I Hz SP') as (N'&S'&->).
  rewrite shows_depth. set (W := aim Rectilinear o r Q) in *. set (V := aim Rectilinear o r Q') in *.
  assert (EU : sqrt (u * u + v * v) = rnorm (rv_sub W V)).
  { unfold W, V, rnorm. rewrite aim_sub. set (D := rv_sub _ _).
    replace (rdot (rm_mul_v (rm_trans (camM o)) D) (rm_mul_v (rm_trans (camM o)) D)) with (rdot D D).
    2:{ symmetry. apply (aim_norm_M (camM o)). apply rotm_rows. }
    f_equal. unfold D, u, v, rdot, rayR, alphaR, betaR. cbn [rv_sub zip3v cx cy cz]. unfold Rdiv. ring. }
  rewrite EU. set (g := Z - elevation_m o) in *. replace (elevation_m o - Z) with (- g) by (unfold g; ring). rewrite Rabs_Ropp.
  set (s := g / cz W) in *. set (s' := g / cz V) in *.
  assert (D1 : rdist (rv_add (opos o) (rv_scale s W)) (opos o) = s * rnorm W).
  { unfold rdist. replace (rv_sub (rv_add (opos o) (rv_scale s W)) (opos o)) with (rv_scale s W) by (apply v3_ext; cbn; ring). rewrite rnorm_scale, Rabs_right; lra. }
  rewrite D1. clear D1.
  assert (D2 : Rabs g * rdist (rv_add (opos o) (rv_scale s W)) (rv_add (opos o) (rv_scale s' V)) = s * s' * rnorm (rv_sub (rv_scale (cz V) W) (rv_scale (cz W) V))).
  { unfold rdist. rewrite <- rnorm_scale. rewrite <- (Rabs_right (s * s')) by (apply Rle_ge, Rmult_le_pos; assumption). rewrite <- rnorm_scale. f_equal.
    unfold s, s'. apply v3_ext; cbn [rv_sub rv_add rv_scale zip3v map3v cx cy cz]; field; auto. }
  rewrite D2. replace (s * rnorm W * s' * rnorm (rv_sub W V)) with (s * s' * (rnorm W * rnorm (rv_sub W V))) by ring.
  apply Rmult_le_compat_l; [apply Rmult_le_pos; assumption|apply cross_bound].
Qed.
Print Assumptions C81_pixel.
Lemma plain_foc c k r o : plain_cam c k r o -> f_x r <> 0 /\ f_y r <> 0.
Proof. intros (p&m&_&_&F&_). exact F. Qed.
(** A camera without roll: the point in the coordinates of the heading *)
Lemma shows_level c r o q Q z Z P : plain_cam c Rectilinear r o -> roll_deg o = 0 -> rep2 q Q -> rep z Z -> shows c q z P ->
  let a := (c1 Q - center_x r) / f_x r in let b := (c2 Q - center_y r) / f_y r in let t := rad (tilt_deg o) in let d := cos t + b * sin t in let s := (elevation_m o - Z) / d in
  d <> 0 /\ 0 <= s /\ depth o P = s /\ forwards o P = s * (sin t - b * cos t) /\ rightwards o P = s * a /\ cz P = Z.
Proof.
  intros HC ER Hq Hz SP a b t d s. destruct (plain_foc _ _ _ _ HC) as (FX&FY). destruct (shows_form _ _ _ _ _ _ _ _ _ HC Hq Logic.I Hz SP) as (N&S&->).
  rewrite shows_depth. change (aim Rectilinear o r Q) with (sight o r Q) in *. rewrite sight_level in * by auto. cbv zeta in N, S |- *. fold a b t d in N, S |- *. cbn [cz] in N, S |- *.
  set (h := rad (heading_deg o)). pose proof (sc1 h) as SH. assert (D0 : d <> 0) by lra.
  assert (EK : (Z - elevation_m o) / - d = s) by (unfold s; field; auto). rewrite EK in *. unfold forwards, rightwards. fold h. cbn [rv_add rv_scale zip3v map3v opos cx cy cz].
  splits; auto.
  - transitivity (s * ((sin h * sin h + cos h * cos h) * (sin t - b * cos t))); [ring|rewrite SH; ring].
  - transitivity (s * ((sin h * sin h + cos h * cos h) * a)); [ring|rewrite SH; ring].
  - unfold s. field. exact D0.
Qed.
(** Without roll, exactly: rows are distances ahead, growing with the product of the depths, and columns of one row are distances
    to the side, growing with the depth. *)
Theorem C81_row c r o q q' Q Q' z Z P P' : plain_cam c Rectilinear r o -> roll_deg o = 0 -> rep2 q Q -> rep2 q' Q' -> rep z Z -> elevation_m o <> Z -> shows c q z P -> shows c q' z P' ->
  forwards o P - forwards o P' = depth o P * depth o P' * ((c2 Q' - c2 Q) / f_y r) / (elevation_m o - Z) /\
  (c2 Q = c2 Q' -> depth o P' = depth o P /\ rightwards o P' - rightwards o P = depth o P * ((c1 Q' - c1 Q) / f_x r)).
Proof.
  intros HC ER Hq Hq' Hz NE SP SP'. destruct (plain_foc _ _ _ _ HC) as (FX&FY).
  pose proof (shows_level _ _ _ _ _ _ _ _ HC ER Hq Hz SP) as K. pose proof (shows_level _ _ _ _ _ _ _ _ HC ER Hq' Hz SP') as K'. cbv zeta in K, K'.
  set (t := rad (tilt_deg o)) in *. set (k := elevation_m o - Z) in *. assert (PK : k <> 0) by (unfold k; lra).
  set (a := (c1 Q - center_x r) / f_x r) in *. set (a' := (c1 Q' - center_x r) / f_x r) in *. set (b := (c2 Q - center_y r) / f_y r) in *. set (b' := (c2 Q' - center_y r) / f_y r) in *.
  assert (EB : (c2 Q' - c2 Q) / f_y r = b' - b) by (unfold b, b'; field; auto). assert (EA : (c1 Q' - c1 Q) / f_x r = a' - a) by (unfold a, a'; field; auto).
  rewrite EA, EB. destruct K as (N&_&->&->&->&_). destruct K' as (N'&_&->&->&->&_). pose proof (sc1 t) as ST. split.
  - transitivity (k * ((sin t * sin t + cos t * cos t) * (b' - b)) / ((cos t + b * sin t) * (cos t + b' * sin t))); [field; auto|rewrite ST; field; auto].
  - intros X. assert (Eb : b' = b) by (unfold b, b'; rewrite X; reflexivity). rewrite Eb. split; [reflexivity|ring].
Qed.
Print Assumptions C81_row.

(** ** Errors of the parameters *)
(** An error of the tilt (no roll): the point moves along the heading by the sine of the error times the product of the distances
    before and after, over the height; its distance to the side grows in proportion. *)
Theorem C81_tilt c c' r o t' q Q z Z P P' : plain_cam c Rectilinear r o -> plain_cam c' Rectilinear r (with_tilt o t') -> roll_deg o = 0 -> rep2 q Q -> rep z Z -> Z < elevation_m o ->
  shows c q z P -> shows c' q z P' ->
  forwards o P' - forwards o P = slant o P * slant o P' * sin (rad (t' - tilt_deg o)) / (elevation_m o - Z) /\ rightwards o P' * slant o P = rightwards o P * slant o P'.
Proof.
  intros HC HC' ER Hq Hz HE SP SP'.
  pose proof (shows_level _ _ _ _ _ _ _ _ HC ER Hq Hz SP) as K. pose proof (shows_level _ _ (with_tilt o t') _ _ _ _ _ HC' ER Hq Hz SP') as K'. cbv zeta in K, K'.
  change (forwards (with_tilt o t') P') with (forwards o P') in K'. change (rightwards (with_tilt o t') P') with (rightwards o P') in K'. cbn [tilt_deg elevation_m with_tilt] in K'.
  set (t := rad (tilt_deg o)) in *. set (u := rad t') in *. set (k := elevation_m o - Z) in *. assert (PK : 0 < k) by (unfold k; lra).
  set (a := (c1 Q - center_x r) / f_x r) in *. set (b := (c2 Q - center_y r) / f_y r) in *. replace (rad (t' - tilt_deg o)) with (u - t) by (unfold u, t, rad; ring).
  destruct K as (N&S&_&F&H&EZ). destruct K' as (N'&S'&_&F'&H'&EZ').
  assert (G : forall x d s, d <> 0 -> s = k / d -> 0 <= s -> d = cos x + b * sin x -> sqrt (s * (sin x - b * cos x) * (s * (sin x - b * cos x)) + (Z - elevation_m o) * (Z - elevation_m o)) = s * sqrt (1 + b * b)).
  { intros x d s Nd Es Ps Ed. rewrite <- (sqrt_square s Ps) at 3. rewrite <- sqrt_mult by nra. f_equal. replace ((Z - elevation_m o) * (Z - elevation_m o)) with ((s * d) * (s * d)) by (rewrite Es; unfold k; field; exact Nd).
    rewrite Ed. pose proof (sc1 x) as SX. transitivity (s * s * ((1 + b * b) * (sin x * sin x + cos x * cos x))); [ring|rewrite SX; ring]. }
  unfold slant. rewrite EZ, EZ', F, F', H, H'. rewrite (G t _ _ N eq_refl S eq_refl), (G u _ _ N' eq_refl S' eq_refl). set (n := sqrt (1 + b * b)). assert (NN : n * n = 1 + b * b) by (apply sqrt_sqrt; nra).
  split; [|ring]. rewrite sin_minus. transitivity (k * (n * n) * (sin u * cos t - cos u * sin t) / ((cos t + b * sin t) * (cos u + b * sin u))); [rewrite NN|field; splits; auto; lra]. field. auto.
Qed.
Print Assumptions C81_tilt.
(** A change of the heading turns what is measured about the foot of the camera, clockwise as seen from above, for every projection. *)
Definition turn_right (o : opar R) (x : R) (P : v3 R) : v3 R :=
  V3 (pos_x_m o + cos (rad x) * (cx P - pos_x_m o) + sin (rad x) * (cy P - pos_y_m o)) (pos_y_m o - sin (rad x) * (cx P - pos_x_m o) + cos (rad x) * (cy P - pos_y_m o)) (cz P).
Lemma aim_heading k o r Q h' : let W := aim k o r Q in let x := rad (h' - heading_deg o) in
  aim k (with_heading o h') r Q = V3 (cos x * cx W + sin x * cy W) (- sin x * cx W + cos x * cy W) (cz W).
Proof.
  intros W x. unfold W, aim, camM. cbn [tilt_deg roll_deg heading_deg with_heading]. destruct (rot_head (rad (tilt_deg o)) (rad (roll_deg o)) (rayR k r Q)) as (A&B&C&E). rewrite !E. cbn [cx cy cz].
  assert (EX : x = rad h' - rad (heading_deg o)) by (unfold x, rad; ring). rewrite EX, cos_minus, sin_minus. pose proof (sc1 (rad (heading_deg o))) as SH. set (h := rad (heading_deg o)) in *. set (g := rad h').
  apply v3_ext; cbn [cx cy cz]; [| |reflexivity].
  - transitivity ((sin h * sin h + cos h * cos h) * (cos g * A + sin g * B)); [rewrite SH; ring|ring].
  - transitivity ((sin h * sin h + cos h * cos h) * (- sin g * A + cos g * B)); [rewrite SH; ring|ring].
Qed.
Theorem C81_heading c c' k r o h' q Q z Z P : plain_cam c k r o -> plain_cam c' k r (with_heading o h') -> rep2 q Q -> has_ray k r Q -> rep z Z -> shows c q z P ->
  let P' := turn_right o (h' - heading_deg o) P in shows c' q z P' /\ rdist P P' = 2 * Rabs (sin (rad (h' - heading_deg o) / 2)) * level o P.
Proof.
  intros HC HC' Hq HH Hz SP P'. destruct (shows_form _ _ _ _ _ _ _ _ _ HC Hq HH Hz SP) as (N&S&EP). set (W := aim k o r Q) in *. set (x := rad (h' - heading_deg o)). split.
  - pose proof (aim_heading k o r Q h') as EW. cbv zeta in EW. fold W x in EW.
    pose proof (shows_exists _ _ _ _ _ _ _ _ HC' Hq HH Hz) as G. cbv zeta in G. rewrite EW in G. cbn [cz with_heading elevation_m] in G. specialize (G N S). replace P' with (rv_add (opos (with_heading o h')) (rv_scale ((Z - elevation_m o) / cz W) (V3 (cos x * cx W + sin x * cy W) (- sin x * cx W + cos x * cy W) (cz W)))); [exact G|].
    unfold P', turn_right. fold x. rewrite EP. set (s := (Z - elevation_m o) / cz W). apply v3_ext; cbn [rv_add rv_scale zip3v map3v opos with_heading pos_x_m pos_y_m elevation_m cx cy cz]; ring.
  - unfold rdist, rnorm, level. set (X := cx P - pos_x_m o). set (Y := cy P - pos_y_m o). pose proof (Rabs_pos (sin (x / 2))) as PA.
    rewrite <- (sqrt_square (2 * Rabs (sin (x / 2)))) by lra. rewrite <- sqrt_mult by nra. f_equal.
    assert (AB : Rabs (sin (x / 2)) * Rabs (sin (x / 2)) = sin (x / 2) * sin (x / 2)) by (rewrite <- Rabs_mult; apply Rabs_right; nra).
    assert (C2 : cos x = 1 - 2 * (sin (x / 2) * sin (x / 2))) by (replace x with (2 * (x / 2)) at 1 by field; rewrite cos_2a_sin; ring).
    pose proof (sc1 x) as SX. unfold P', turn_right, rdot. fold x X Y. cbn [rv_sub zip3v cx cy cz].
    transitivity ((1 - 2 * cos x + (sin x * sin x + cos x * cos x)) * (X * X + Y * Y)); [unfold X, Y; ring|]. rewrite SX.
    transitivity (4 * (Rabs (sin (x / 2)) * Rabs (sin (x / 2))) * (X * X + Y * Y)); [rewrite AB, C2; ring|ring].
Qed.
Print Assumptions C81_heading.
(** An error of the elevation scales what is measured about the foot of the camera, for every projection. *)
Theorem C81_elevation c c' k r o e' q Q z Z P : plain_cam c k r o -> plain_cam c' k r (with_elevation o e') -> rep2 q Q -> has_ray k r Q -> rep z Z -> 0 < (e' - Z) / (elevation_m o - Z) -> shows c q z P ->
  let f := (e' - Z) / (elevation_m o - Z) in shows c' q z (V3 (pos_x_m o + f * (cx P - pos_x_m o)) (pos_y_m o + f * (cy P - pos_y_m o)) (cz P)).
Proof.
  intros HC HC' Hq HH Hz PF SP f. fold f in PF. assert (NE : elevation_m o - Z <> 0) by (intros X; unfold f in PF; rewrite X in PF; unfold Rdiv in PF; rewrite Rinv_0, Rmult_0_r in PF; lra).
  destruct (shows_form _ _ _ _ _ _ _ _ _ HC Hq HH Hz SP) as (N&S&EP).
  pose proof (shows_exists _ _ _ _ _ _ _ _ HC' Hq HH Hz) as G. cbv zeta in G. change (aim k (with_elevation o e') r Q) with (aim k o r Q) in G. set (W := aim k o r Q) in *. cbn [elevation_m with_elevation] in G.
  assert (ES : (Z - e') / cz W = f * ((Z - elevation_m o) / cz W)) by (unfold f; field; auto). rewrite ES in G. specialize (G N). pose proof (Rmult_le_pos _ _ (Rlt_le _ _ PF) S) as PS. specialize (G PS).
  match goal with |- shows _ _ _ ?V => replace V with (rv_add (opos (with_elevation o e')) (rv_scale (f * ((Z - elevation_m o) / cz W)) W)); [exact G|] end.
  rewrite EP. apply v3_ext; cbn [rv_add rv_scale zip3v map3v opos with_elevation pos_x_m pos_y_m elevation_m cx cy cz]; [ring|ring|unfold f; field; auto].
Qed.
Print Assumptions C81_elevation.
(** An error of the position shifts everything that is measured by the same amount. *)
Theorem C81_position c c' k r o x y q Q z Z P : plain_cam c k r o -> plain_cam c' k r (with_position o x y) -> rep2 q Q -> has_ray k r Q -> rep z Z -> shows c q z P ->
  shows c' q z (V3 (cx P + (x - pos_x_m o)) (cy P + (y - pos_y_m o)) (cz P)).
Proof.
  intros HC HC' Hq HH Hz SP. destruct (shows_form _ _ _ _ _ _ _ _ _ HC Hq HH Hz SP) as (N&S&EP).
  pose proof (shows_exists _ _ _ _ _ _ _ _ HC' Hq HH Hz) as G. cbv zeta in G. change (aim k (with_position o x y) r Q) with (aim k o r Q) in G. set (W := aim k o r Q) in *. cbn [elevation_m with_position] in G. specialize (G N S).
  match goal with |- shows _ _ _ ?V => replace V with (rv_add (opos (with_position o x y)) (rv_scale ((Z - elevation_m o) / cz W) W)); [exact G|] end.
  rewrite EP. apply v3_ext; cbn [rv_add rv_scale zip3v map3v opos with_position pos_x_m pos_y_m elevation_m cx cy cz]; ring.
Qed.
Print Assumptions C81_position.

(** ** Two pictures *)
(** Two equal cameras side by side, [B] apart along the rows: a point is in the same row of both pictures, and the columns
    differ by [f_x * B / depth]. So an error of that difference changes the depth by the product of the depths over [f_x * B]. *)
Definition beside (o o' : opar R) (B : R) : Prop := same_angles o o' /\ opos o' = rv_add (opos o) (rv_scale B (cx (camM o))).
Definition ahead (o o' : opar R) (B : R) : Prop := same_angles o o' /\ opos o' = rv_add (opos o) (rv_scale (- B) (cz (camM o))).
Lemma moved_coords o o' V P : same_angles o o' -> opos o' = rv_add (opos o) V -> cam_coords o' P = rv_sub (cam_coords o P) (rm_mul_v (camM o) V).
Proof.
  intros (ET&ER&EH) EO. unfold cam_coords. assert (EM : camM o' = camM o) by (unfold camM; rewrite ET, ER, EH; reflexivity). rewrite EM, EO. unfold rm_mul_v, rdot. apply v3_ext; cbn; ring.
Qed.
Lemma row_scaled o B : rm_mul_v (camM o) (rv_scale B (cx (camM o))) = V3 B 0 0 /\ rm_mul_v (camM o) (rv_scale B (cz (camM o))) = V3 0 0 B.
Proof.
  assert (G : forall M, orthonormal M -> rm_mul_v M (rv_scale B (cx M)) = V3 B 0 0 /\ rm_mul_v M (rv_scale B (cz M)) = V3 0 0 B); [|apply G, rotm_rows].
  intros M (H1&H2&H3&H4&H5&H6). assert (L : forall u v, rdot u (rv_scale B v) = B * rdot u v) by (intros; unfold rdot; cbn; ring). assert (S : forall u v, rdot u v = rdot v u) by (intros; unfold rdot; ring).
  unfold rm_mul_v. rewrite !L. rewrite ?(S (cy M) (cx M)), ?(S (cz M) (cx M)), ?(S (cz M) (cy M)), ?H1, ?H2, ?H3, ?H4, ?H5, ?H6. split; apply v3_ext; cbn [cx cy cz]; ring.
Qed.
Theorem C81_disparity c c' r o o' B p P A A' : plain_cam c Rectilinear r o -> plain_cam c' Rectilinear r o' -> beside o o' B -> rep3 p P -> tinyR <= depth o P ->
  rep2 (imageFromSpace c p true) A -> rep2 (imageFromSpace c' p true) A' ->
  depth o' P = depth o P /\ c2 A' = c2 A /\ c1 A - c1 A' = f_x r * B / depth o P.
Proof.
  intros HC HC' (SA&EO) Hp DP IA IA'. pose proof tinyR_pos as TP. pose proof (moved_coords o o' _ P SA EO) as E. rewrite (proj1 (row_scaled o B)) in E.
  assert (DD : depth o' P = depth o P) by (unfold depth; rewrite E; cbn; ring).
  pose proof (rep2_inj _ _ _ IA (image_pin c r o p P HC Hp DP)) as ->. pose proof (rep2_inj _ _ _ IA' (image_pin c' r o' p P HC' Hp ltac:(lra))) as ->.
  split; [exact DD|]. rewrite E. unfold depth in *. set (K := cam_coords o P) in *. clearbody K. unfold pin. cbn [rv_sub zip3v cx cy cz c1 c2]. rewrite Rminus_0_r. split; [rewrite Rminus_0_r; reflexivity|field; lra].
Qed.
Print Assumptions C81_disparity.
Theorem C81_range c c' r o o' B p1 p2 P1 P2 A1 A1' A2 A2' : plain_cam c Rectilinear r o -> plain_cam c' Rectilinear r o' -> beside o o' B -> B <> 0 -> rep3 p1 P1 -> rep3 p2 P2 -> tinyR <= depth o P1 -> tinyR <= depth o P2 ->
  rep2 (imageFromSpace c p1 true) A1 -> rep2 (imageFromSpace c' p1 true) A1' -> rep2 (imageFromSpace c p2 true) A2 -> rep2 (imageFromSpace c' p2 true) A2' ->
  depth o P1 - depth o P2 = depth o P1 * depth o P2 * ((c1 A2 - c1 A2') - (c1 A1 - c1 A1')) / (f_x r * B).
Proof.
  intros HC HC' HB NB H1 H2 D1 D2 I1 I1' I2 I2'. pose proof tinyR_pos as TP. destruct (plain_foc _ _ _ _ HC) as (FX&_).
  destruct (C81_disparity _ _ _ _ _ _ _ _ _ _ HC HC' HB H1 D1 I1 I1') as (_&_&->). destruct (C81_disparity _ _ _ _ _ _ _ _ _ _ HC HC' HB H2 D2 I2 I2') as (_&_&->). field. splits; auto; lra.
Qed.
Print Assumptions C81_range.
(** A camera that moves ahead by [B] along its axis: the picture grows about its middle by [depth / (depth - B)]. *)
Theorem C81_approach c c' r o o' B p P A A' : plain_cam c Rectilinear r o -> plain_cam c' Rectilinear r o' -> ahead o o' B -> rep3 p P -> tinyR <= depth o P -> tinyR <= depth o P - B ->
  rep2 (imageFromSpace c p true) A -> rep2 (imageFromSpace c' p true) A' ->
  depth o' P = depth o P - B /\ c1 A' - center_x r = depth o P / (depth o P - B) * (c1 A - center_x r) /\ c2 A' - center_y r = depth o P / (depth o P - B) * (c2 A - center_y r).
Proof.
  intros HC HC' (SA&EO) Hp DP DB IA IA'. pose proof tinyR_pos as TP. pose proof (moved_coords o o' _ P SA EO) as E. rewrite (proj2 (row_scaled o (- B))) in E.
  assert (DD : depth o' P = depth o P - B) by (unfold depth; rewrite E; cbn; ring).
  pose proof (rep2_inj _ _ _ IA (image_pin c r o p P HC Hp DP)) as ->. pose proof (rep2_inj _ _ _ IA' (image_pin c' r o' p P HC' Hp ltac:(lra))) as ->.
  split; [exact DD|]. rewrite E. unfold depth in *. set (K := cam_coords o P) in *. clearbody K. unfold pin. cbn [rv_sub zip3v cx cy cz c1 c2] in *. split; field; splits; lra.
Qed.
Print Assumptions C81_approach.

(** ** The error of one pixel has no bound *)
Lemma ex_aim h Q : aim Rectilinear (with_heading ex_or2 h) ex_r Q = let a := (c1 Q - 2000) / 3500 in V3 (cos (rad h) * a + sin (rad h)) (- sin (rad h) * a + cos (rad h)) (- ((c2 Q - 1500) / 3500)).
Proof. unfold aim. rewrite level_ray by reflexivity. reflexivity. Qed.
Lemma ex_or2_self : with_heading ex_or2 0 = ex_or2. Proof. reflexivity. Qed.
Lemma ex_shows c x y : plain_cam c Rectilinear ex_r ex_or2 -> 1500 < y -> shows c (fin2 (V2 x y)) (Fin 0) (V3 (10 * (x - 2000) / (y - 1500)) (35000 / (y - 1500)) 0).
Proof.
  intros HC HY. pose proof (shows_exists c Rectilinear ex_r ex_or2 _ _ _ 0 HC (rep2_fin (V2 x y)) Logic.I (rep_Fin 0)) as G. cbv zeta in G. rewrite <- ex_or2_self, ex_aim in G. rewrite ex_or2_self in G.
  replace (rad 0) with 0 in G by (unfold rad; ring). rewrite sin_0, cos_0 in G. cbn [c1 c2 cz elevation_m ex_or2] in G.
  assert (PY : 0 < (y - 1500) / 3500) by lra. assert (ES : (0 - 10) / - ((y - 1500) / 3500) = 35000 / (y - 1500)) by (field; lra). rewrite ES in G.
  assert (PS : 0 < 35000 / (y - 1500)) by (apply Rdiv_lt_0_compat; lra). specialize (G ltac:(lra) ltac:(lra)).
  match goal with |- shows _ _ _ ?V => match type of G with shows _ _ _ ?V' => replace V with V'; [exact G|] end end.
  apply v3_ext; cbn [rv_add rv_scale zip3v map3v opos pos_x_m pos_y_m elevation_m ex_or2 cx cy cz]; field; lra.
Qed.
(** Towards the horizon the points that two neighbouring rows show are as far apart as one likes. *)
Theorem C81_bounded_refuted : exists c r o, plain_cam c Rectilinear r o /\ forall M, exists Q Q' P P', shows c (fin2 Q) (Fin 0) P /\ shows c (fin2 Q') (Fin 0) P' /\ c1 Q = c1 Q' /\ c2 Q' = c2 Q + 1 /\ M < rdist P P'.
Proof.
  destruct (ex_any ex_or2 Rectilinear) as (c&HC). exists c, ex_r, ex_or2. split; [exact HC|]. intros M. set (m := Rabs M + 1). assert (PM : 1 <= m) by (unfold m; pose proof (Rabs_pos M); lra).
  assert (MM : M < m) by (unfold m; pose proof (Rle_abs M); lra). set (x := / m). assert (X0 : 0 < x) by (apply Rinv_0_lt_compat; lra). assert (X1 : x * m = 1) by (unfold x; field; lra). assert (X2 : x <= 1) by nra.
  exists (V2 2000 (1500 + x)), (V2 2000 (1500 + x + 1)). eexists _, _. split; [apply (ex_shows c); [exact HC|lra]|]. split; [apply (ex_shows c); [exact HC|lra]|]. split; [reflexivity|]. split; [cbn; ring|].
  set (A := V3 _ _ _). set (B := V3 _ _ _).
  assert (L : cy A - cy B <= rdist A B).
  { unfold rdist, rnorm. eapply Rle_trans; [apply Rle_abs|]. rewrite <- sqrt_Rsqr_abs. apply sqrt_le_1_alt. unfold Rsqr, rdot. cbn [rv_sub zip3v cx cy cz]. pose proof (Rle_0_sqr (cx A - cx B)) as U1. pose proof (Rle_0_sqr (cz A - cz B)) as U2. unfold Rsqr in U1, U2. lra. }
  eapply Rlt_le_trans; [|exact L]. cbn [A B cx cy cz]. replace (35000 / (1500 + x - 1500) - 35000 / (1500 + x + 1 - 1500)) with (35000 / (x + 1) * m) by (unfold A, B; assert (E : m = / x) by (unfold x; rewrite Rinv_inv; reflexivity); rewrite E; field; splits; lra).
  assert (1 <= 35000 / (x + 1)) by (apply Rmult_le_reg_r with (x + 1); [lra|]; unfold Rdiv; rewrite Rmult_assoc, Rinv_l; lra). nra.
Qed.
Print Assumptions C81_bounded_refuted.

(** ** Examples *)
(** rows 2200 and 1850 of the level camera 10 m high: 50 m and 100 m ahead *)
Example C81_pixel_example : exists c, plain_cam c Rectilinear ex_r ex_or2 /\ roll_deg ex_or2 = 0 /\ elevation_m ex_or2 <> 0 /\ shows c (fin2 (V2 2140 1850)) (Fin 0) (V3 4 100 0) /\ shows c (fin2 (V2 2070 2200)) (Fin 0) (V3 1 50 0) /\
  depth ex_or2 (V3 4 100 0) = 100 /\ depth ex_or2 (V3 1 50 0) = 50 /\ forwards ex_or2 (V3 4 100 0) - forwards ex_or2 (V3 1 50 0) = 100 * 50 * ((2200 - 1850) / 3500) / 10.
Proof.
  destruct (ex_any ex_or2 Rectilinear) as (c&HC). exists c. split; [exact HC|]. split; [reflexivity|]. split; [cbn; lra|].
  pose proof (ex_shows c 2140 1850 HC ltac:(lra)) as A. pose proof (ex_shows c 2070 2200 HC ltac:(lra)) as B.
  replace (V3 (10 * (2140 - 2000) / (1850 - 1500)) (35000 / (1850 - 1500)) 0) with (V3 4 100 0) in A by (f_equal; field). replace (V3 (10 * (2070 - 2000) / (2200 - 1500)) (35000 / (2200 - 1500)) 0) with (V3 1 50 0) in B by (f_equal; field).
  splits; auto; try (unfold depth; rewrite ex2_coords; cbn; ring). unfold forwards. cbn [heading_deg ex_or2 pos_x_m pos_y_m cx cy]. rewrite ex_rad, sin_0, cos_0. field.
Qed.
(** the same pixel with the camera tilted to 45 degrees: 90/11 m ahead instead of 100 m *)
Example C81_tilt_example : exists c c' P', plain_cam c Rectilinear ex_r ex_or2 /\ plain_cam c' Rectilinear ex_r (with_tilt ex_or2 45) /\ shows c (fin2 (V2 2140 1850)) (Fin 0) (V3 4 100 0) /\ shows c' (fin2 (V2 2140 1850)) (Fin 0) P' /\
  forwards ex_or2 P' = 90 / 11.
Proof.
  destruct (ex_any ex_or2 Rectilinear) as (c&HC). destruct (ex_any (with_tilt ex_or2 45) Rectilinear) as (c'&HC').
  pose proof (ex_shows c 2140 1850 HC ltac:(lra)) as A. replace (V3 (10 * (2140 - 2000) / (1850 - 1500)) (35000 / (1850 - 1500)) 0) with (V3 4 100 0) in A by (f_equal; field).
  assert (P0 : 0 < sqrt 2) by (apply sqrt_lt_R0; lra). assert (T : rad 45 = PI / 4) by (unfold rad; field).
  pose proof (shows_exists c' Rectilinear ex_r (with_tilt ex_or2 45) _ _ _ 0 HC' (rep2_fin (V2 2140 1850)) Logic.I (rep_Fin 0)) as G. cbv zeta in G.
  change (aim Rectilinear (with_tilt ex_or2 45) ex_r (V2 2140 1850)) with (sight (with_tilt ex_or2 45) ex_r (V2 2140 1850)) in G. rewrite sight_level in G by (cbn; lra). cbv zeta in G.
  cbn [tilt_deg heading_deg with_tilt ex_or2 c1 c2 ex_r f_x f_y center_x center_y cz elevation_m] in G. rewrite T, sin_PI4, cos_PI4 in G.
  set (D := - (1 / sqrt 2 + (1850 - 1500) / 3500 * (1 / sqrt 2))) in G. assert (ED : D = - (11 / 10 / sqrt 2)) by (unfold D; field; lra). assert (I2 : 0 < 11 / 10 / sqrt 2) by (apply Rdiv_lt_0_compat; lra).
  assert (DN : D <> 0) by lra. specialize (G DN). assert (ES : (0 - 10) / D = 100 / 11 * sqrt 2) by (rewrite ED; field; lra). specialize (G ltac:(rewrite ES; nra)). rewrite ES in G.
  exists c, c'. eexists. split; [exact HC|]. split; [exact HC'|]. split; [exact A|]. split; [exact G|].
  unfold forwards. cbn [heading_deg ex_or2 pos_x_m pos_y_m rv_add rv_scale zip3v map3v opos with_tilt cx cy]. rewrite ex_rad, sin_0, cos_0. field. lra.
Qed.
(** the same pixel with the heading wrong by 90 degrees, with twice the elevation and with another position *)
Example C81_parameters_example : exists c c1 c2 c3, plain_cam c Rectilinear ex_r ex_or2 /\ plain_cam c1 Rectilinear ex_r (with_heading ex_or2 90) /\ plain_cam c2 Rectilinear ex_r (with_elevation ex_or2 20) /\ plain_cam c3 Rectilinear ex_r (with_position ex_or2 3 4) /\
  0 < (20 - 0) / (elevation_m ex_or2 - 0) /\ shows c (fin2 (V2 2140 1850)) (Fin 0) (V3 4 100 0) /\ shows c1 (fin2 (V2 2140 1850)) (Fin 0) (V3 100 (- 4) 0) /\ shows c2 (fin2 (V2 2140 1850)) (Fin 0) (V3 8 200 0) /\
  shows c3 (fin2 (V2 2140 1850)) (Fin 0) (V3 7 104 0).
Proof.
  destruct (ex_any ex_or2 Rectilinear) as (c&HC). destruct (ex_any (with_heading ex_or2 90) Rectilinear) as (d1&H1). destruct (ex_any (with_elevation ex_or2 20) Rectilinear) as (d2&H2). destruct (ex_any (with_position ex_or2 3 4) Rectilinear) as (d3&H3).
  pose proof (ex_shows c 2140 1850 HC ltac:(lra)) as A. replace (V3 (10 * (2140 - 2000) / (1850 - 1500)) (35000 / (1850 - 1500)) 0) with (V3 4 100 0) in A by (f_equal; field).
  assert (PF : 0 < (20 - 0) / (elevation_m ex_or2 - 0)) by (cbn; lra). exists c, d1, d2, d3. splits; auto.
  - destruct (C81_heading _ _ _ _ _ _ _ _ _ _ _ HC H1 (rep2_fin (V2 2140 1850)) Logic.I (rep_Fin 0) A) as (K&_). cbn [heading_deg ex_or2] in K. unfold turn_right in K. cbn [pos_x_m pos_y_m ex_or2 cx cy cz] in K.
    replace (rad (90 - 0)) with (PI / 2) in K by (unfold rad; field). rewrite sin_PI2, cos_PI2 in K.
    match type of K with shows _ _ _ ?V => replace (V3 100 (-4) 0) with V; [exact K|f_equal; ring] end.
  - pose proof (C81_elevation _ _ _ _ _ _ _ _ _ _ _ HC H2 (rep2_fin (V2 2140 1850)) Logic.I (rep_Fin 0) PF A) as K. cbv zeta in K. cbn [pos_x_m pos_y_m elevation_m ex_or2 cx cy cz] in K.
    match type of K with shows _ _ _ ?V => replace (V3 8 200 0) with V; [exact K|f_equal; field] end.
  - pose proof (C81_position _ _ _ _ _ _ _ _ _ _ _ _ HC H3 (rep2_fin (V2 2140 1850)) Logic.I (rep_Fin 0) A) as K. cbn [pos_x_m pos_y_m ex_or2 cx cy cz] in K.
    match type of K with shows _ _ _ ?V => replace (V3 7 104 0) with V; [exact K|f_equal; ring] end.
Qed.
(** two cameras 1 m apart, and one that has moved 50 m ahead *)
Definition ex_fwd (s : R) : opar R := OPar 10 90 0 0 0 s.
Example C81_pictures_example : beside (ex_at 0) (ex_at 1) 1 /\ ahead (ex_at 0) (ex_fwd 50) 50 /\ tinyR <= depth (ex_at 0) (V3 5 100 8) - 50 /\
  exists c c' d A A' A'', plain_cam c Rectilinear ex_r (ex_at 0) /\ plain_cam c' Rectilinear ex_r (ex_at 1) /\ plain_cam d Rectilinear ex_r (ex_fwd 50) /\ rep2 (imageFromSpace c (fin3 (V3 5 100 8)) true) A /\ rep2 (imageFromSpace c' (fin3 (V3 5 100 8)) true) A' /\
  rep2 (imageFromSpace d (fin3 (V3 5 100 8)) true) A'' /\ A = V2 2175 1570 /\ A' = V2 2140 1570 /\ A'' = V2 2350 1640.
Proof.
  assert (EM : forall h, camM (ex_at h) = V3 (V3 1 0 0) (V3 0 0 1) (V3 0 (-1) 0)) by (intros h; exact ex2_matrix).
  assert (B1 : beside (ex_at 0) (ex_at 1) 1) by (split; [unfold same_angles; splits; reflexivity|rewrite EM; apply v3_ext; cbn; ring]).
  assert (B2 : ahead (ex_at 0) (ex_fwd 50) 50) by (split; [unfold same_angles; splits; reflexivity|rewrite EM; apply v3_ext; cbn; ring]).
  assert (D0 : depth (ex_at 0) (V3 5 100 8) = 100) by (unfold depth; rewrite ex_at_coords; cbn; ring).
  split; [exact B1|]. split; [exact B2|]. split; [rewrite D0; unfold tinyR; lra|].
  destruct (ex_any (ex_at 0) Rectilinear) as (c&HC). destruct (ex_any (ex_at 1) Rectilinear) as (c'&HC'). destruct (ex_any (ex_fwd 50) Rectilinear) as (d&HD).
  assert (EF : cam_coords (ex_fwd 50) (V3 5 100 8) = V3 5 (- 2) (- 50)).
  { rewrite (moved_coords (ex_at 0) (ex_fwd 50) _ _ (proj1 B2) (proj2 B2)), ex_at_coords, (proj2 (row_scaled _ _)). apply v3_ext; cbn; ring. }
  exists c, c', d. eexists _, _, _. split; [exact HC|]. split; [exact HC'|]. split; [exact HD|].
  split; [apply image_pin; [exact HC|apply rep3_fin|rewrite D0; unfold tinyR; lra]|]. split; [apply image_pin; [exact HC'|apply rep3_fin|unfold depth; rewrite ex_at_coords; cbn; unfold tinyR; lra]|].
  split; [apply image_pin; [exact HD|apply rep3_fin|unfold depth; rewrite EF; cbn; unfold tinyR; lra]|].
  rewrite EF, !ex_at_coords. unfold pin. cbn. splits; f_equal; field.
Qed.
