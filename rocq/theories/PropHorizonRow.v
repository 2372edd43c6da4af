(** * C17: the row of the horizon, and the horizon of the sphere *)
Require Import Reals Lra Psatz List Bool ZArith Lia.
From Verif Require Import Num Vec Orientation OrientationFacts PropOrientation Projection ProjectionFacts Ray CameraTransform CameraFacts PropCamera Stereo PropStereo.
From Verif Require Import LogProb FitTerms PropFitTerms PropPerspective PropSensitivity PropResect PropTurn PropCompass PropFieldOfView Lut PropLut PropLutArea Horizon PropHorizon.
Import ListNotations.
Open Scope R_scope.

(** ** Specification *)
(** The sine of the angle by which the line of sight of the pixel position of a rectilinear camera goes below level: 1 straight down, -1 straight up *)
Definition dip (o : opar R) (r : proj R) (Q : v2 R) : R := descent o r Q / sqrt (1 + across r Q * across r Q + down r Q * down r Q).
(** Going down the column [X] one looks further down at the row [y]: neither the nadir nor the zenith have been passed. *)
Definition sinking (o : opar R) (r : proj R) (X y : R) : Prop :=
  let t := rad (tilt_deg o) in let p := rad (roll_deg o) in let u := across r (V2 X y) in
  (cos t - sin t * sin p * u) * down r (V2 X y) < sin t * cos p * (1 + u * u).
(** The sphere of radius [G] touches the ground from below at the foot of the camera; [P] is a point where a line of sight touches it. *)
Definition skyline (o : opar R) (G : R) (P : v3 R) : Prop :=
  touches G (elevation_m o) (V3 (cx P - pos_x_m o) (cy P - pos_y_m o) (cz P + G)).
(** The tangent of the dip of the horizon of the sphere, and the one of the dip that getImageHorizon looks for *)
Definition true_slope (G E : R) : R := sqrt (E * (2 * G + E)) / G.
Definition code_slope (G E : R) : R := sqrt (E * (G + E) / ((G - E) * (2 * G + E))).

(** ** Dips down a column *)
Lemma dip_grows a b k v w : 0 < k -> v < w -> b * v < a * k -> b * w < a * k ->
  (a * v + b) / sqrt (k + v * v) < (a * w + b) / sqrt (k + w * w).
Proof.
  intros K L V W. set (s := sqrt (k + v * v)). set (t := sqrt (k + w * w)).
  assert (S0 : 0 < s) by (apply sqrt_lt_R0; nra). assert (T0 : 0 < t) by (apply sqrt_lt_R0; nra).
  assert (SS : s * s = k + v * v) by (apply sqrt_sqrt; nra). assert (TT : t * t = k + w * w) by (apply sqrt_sqrt; nra). clearbody s t.
  set (C := a * a * k + b * b). assert (C0 : 0 < C).
  { unfold C. destruct (Req_dec a 0) as [->|NA]; [|assert (0 < a * a) by nra; nra]. destruct (Req_dec b 0) as [->|NB]; nra. }
  set (f := (a * v + b) / s). set (g := (a * w + b) / t). set (f' := (a * k - b * v) / s). set (g' := (a * k - b * w) / t).
  assert (F' : 0 < f') by (apply Rdiv_lt_0_compat; lra). assert (G' : 0 < g') by (apply Rdiv_lt_0_compat; lra).
  assert (F1 : k * (f * f) + f' * f' = C).
  { unfold f, f'. replace (k * _ + _) with ((k * ((a * v + b) * (a * v + b)) + (a * k - b * v) * (a * k - b * v)) / (s * s)) by (field; lra). rewrite SS. unfold C. field. nra. }
  assert (G1 : k * (g * g) + g' * g' = C).
  { unfold g, g'. replace (k * _ + _) with ((k * ((a * w + b) * (a * w + b)) + (a * k - b * w) * (a * k - b * w)) / (t * t)) by (field; lra). rewrite TT. unfold C. field. nra. }
  assert (X : 0 < g * f' - f * g').
  { unfold f, g, f', g'. replace (_ - _) with ((w - v) * C / (s * t)) by (unfold C; field; lra). apply Rdiv_lt_0_compat; apply Rmult_lt_0_compat; lra. }
  clearbody f g f' g' C. apply Rnot_le_lt. intros H. destruct (Rle_lt_dec 0 g) as [P|P].
  - assert (k * (g * g) <= k * (f * f)) by (apply Rmult_le_compat_l; nra). assert (f' <= g') by nra. nra.
  - destruct (Rle_lt_dec f 0) as [M|M]; [|nra]. assert (k * (f * f) <= k * (g * g)) by (apply Rmult_le_compat_l; nra). assert (g' <= f') by nra. nra.
Qed.
Lemma dip_form o r X y : let t := rad (tilt_deg o) in let p := rad (roll_deg o) in let u := across r (V2 X y) in let v := down r (V2 X y) in
  dip o r (V2 X y) = (sin t * cos p * v + (cos t - sin t * sin p * u)) / sqrt (1 + u * u + v * v).
Proof. intros. unfold dip, descent. fold t p u v. f_equal. ring. Qed.
Lemma dip_rows o r X y y' : 0 < f_y r -> y < y' -> sinking o r X y -> sinking o r X y' -> dip o r (V2 X y) < dip o r (V2 X y').
Proof.
  intros F L S1 S2. rewrite !dip_form. unfold sinking in *. change (across r (V2 X y')) with (across r (V2 X y)) in *. set (u := across r (V2 X y)) in *.
  assert (V : down r (V2 X y) < down r (V2 X y')) by (unfold down; cbn [c2]; apply Rmult_lt_compat_r; [apply Rinv_0_lt_compat; exact F|lra]).
  apply dip_grows; auto. nra.
Qed.
Lemma sinking_between o r X a b y : 0 < f_y r -> sinking o r X a -> sinking o r X b -> a <= y <= b -> sinking o r X y.
Proof.
  intros F S1 S2 (A&B). unfold sinking in *. change (across r (V2 X a)) with (across r (V2 X y)) in *. change (across r (V2 X b)) with (across r (V2 X y)) in *.
  assert (M : forall s t, s <= t -> down r (V2 X s) <= down r (V2 X t)) by (intros s t H; unfold down; cbn [c2]; apply Rmult_le_compat_r; [apply Rlt_le, Rinv_0_lt_compat; exact F|lra]).
  pose proof (M _ _ A). pose proof (M _ _ B). set (k := cos _ - _) in *. destruct (Rle_lt_dec 0 k); nra.
Qed.
(** The height of the point that getImageHorizon examines *)
Lemma height_dip o r Q D : height_at o (rm_mul_v (rm_trans (camM o)) (rayR Rectilinear r Q)) D = elevation_m o - D * dip o r Q.
Proof.
  unfold height_at, dip. set (W := rm_mul_v (rm_trans (camM o)) (rayR Rectilinear r Q)).
  assert (EM : rm_mul_v (camM o) W = rayR Rectilinear r Q) by (apply mul_trans, rotm_rows).
  assert (EZ : cz W = - descent o r Q).
  { rewrite (up_col o W), EM. unfold rayR, alphaR, betaR, descent, rdot. fold (across r Q) (down r Q). cbn [cx cy cz]. ring. }
  assert (EN : rnorm W = sqrt (1 + across r Q * across r Q + down r Q * down r Q)).
  { unfold rnorm. rewrite <- (rot_dot o W), EM. unfold rayR, alphaR, betaR, rdot. fold (across r Q) (down r Q). cbn [cx cy cz]. f_equal. ring. }
  rewrite EZ, EN. assert (0 < sqrt (1 + across r Q * across r Q + down r Q * down r Q)) by (apply sqrt_lt_R0; nra). field. lra.
Qed.

(** ** C17 *)
(** The dip that getImageHorizon looks for *)
Definition code_dip (G E : R) : R := sqrt (E * (G + E) / 2) / G.
Lemma code_dip_D G E D : 0 < G -> 0 < E -> D = sqrt (2 * (G * G) * (E / (G + E))) -> 0 < D /\ D * code_dip G E = E.
Proof.
  intros HG HE ->. assert (X : 0 < 2 * (G * G) * (E / (G + E))) by (apply Rmult_lt_0_compat; [nra|apply Rdiv_lt_0_compat; lra]). split; [apply sqrt_lt_R0; exact X|].
  unfold code_dip. replace (_ * (_ / G)) with (sqrt (2 * (G * G) * (E / (G + E))) * sqrt (E * (G + E) / 2) / G) by (field; lra). rewrite <- sqrt_mult by nra.
  replace (_ * (E * (G + E) / 2)) with ((G * E) * (G * E)) by (field; lra). rewrite sqrt_square by nra. field. lra.
Qed.
(** A rectilinear camera in any attitude: in a column that does not go past the nadir or the zenith the row is less than one row from the position
    with that dip; the first or the last row is returned when this position is above or below the picture. *)
Theorem C17_nearest c r o er e G H n X x : plain_cam c Rectilinear r o -> 0 < f_y r -> rep er G -> 0 < G -> rep e (elevation_m o) -> 0 < elevation_m o ->
  rep (im_height (cam_proj c)) H -> INR n - 1 < H <= INR n -> (0 < n)%nat -> rep x X -> sinking o r X 0 -> sinking o r X (INR n - 1) ->
  exists i, (i < n)%nat /\ getImageHorizon c er e (One x) = Some (inl (V2 x (Fin (INR i)))) /\
    (forall y, 0 <= y <= INR n - 1 -> dip o r (V2 X y) = code_dip G (elevation_m o) -> Rabs (INR i - y) < 1) /\
    (code_dip G (elevation_m o) <= dip o r (V2 X 0) -> i = 0%nat) /\
    (dip o r (V2 X (INR n - 1)) <= code_dip G (elevation_m o) -> i = (n - 1)%nat).
Proof.
  intros HC HF Her HG He HE HH HN Hn Hx S0 S1. set (E := elevation_m o) in *.
  destruct (C17_geometry c Rectilinear r o er e G E H n X x HC Her He HG (Rlt_le _ _ HE) HH HN Hn Hx (fun _ _ => Logic.I)) as (D&i&HD&Hi&EI&M). cbv zeta in M.
  assert (ED : D = sqrt (2 * (G * G) * (E / (G + E)))) by (apply (rep_inj _ _ _ HD), dist_value; auto; lra). destruct (code_dip_D G E D HG HE ED) as (D0&DS). set (s := code_dip G E) in *. clearbody s. clear ED HD.
  assert (IN : forall j, (j < n)%nat -> 0 <= INR j <= INR n - 1). { intros j Hj. split; [apply pos_INR|]. apply le_INR in Hj. rewrite S_INR in Hj. lra. }
  assert (SK : forall y, 0 <= y <= INR n - 1 -> sinking o r X y) by (intros y Y; apply (sinking_between o r X 0 (INR n - 1)); auto).
  assert (ZJ : forall j, (j < n)%nat -> Rabs (s - dip o r (V2 X (INR i))) <= Rabs (s - dip o r (V2 X (INR j)))).
  { intros j Hj. destruct (M j Hj) as (L&_). rewrite !height_dip in L. fold E in L. rewrite <- DS in L.
    replace (D * s - D * dip o r (V2 X (INR i))) with (D * (s - dip o r (V2 X (INR i)))) in L by ring. replace (D * s - D * dip o r (V2 X (INR j))) with (D * (s - dip o r (V2 X (INR j)))) in L by ring.
    rewrite !Rabs_mult, (Rabs_right D) in L by lra. apply (Rmult_le_reg_l D); auto. }
  assert (LT : forall y y', 0 <= y -> y' <= INR n - 1 -> y < y' -> dip o r (V2 X y) < dip o r (V2 X y')) by (intros y y' A B L; apply dip_rows; auto; apply SK; lra).
  assert (LE : forall y y', 0 <= y -> y' <= INR n - 1 -> y <= y' -> dip o r (V2 X y) <= dip o r (V2 X y')) by (intros y y' A B [L|L]; [apply Rlt_le, LT; auto|subst; lra]).
  destruct (IN i Hi) as (I0&I1). exists i. split; [exact Hi|]. split; [exact EI|].
  (* no row above the chosen one is at or below the position, and the other way round *)
  assert (UP : forall j, (j < i)%nat -> ~ s <= dip o r (V2 X (INR j))).
  { intros j Hj L. assert (Hj' : (j < n)%nat) by lia. apply lt_INR in Hj. destruct (IN j Hj'). specialize (LT (INR j) (INR i) ltac:(lra) I1 Hj). specialize (ZJ j Hj'). rewrite !Rabs_left1 in ZJ by lra. lra. }
  assert (DN : forall j, (i < j)%nat -> (j < n)%nat -> ~ dip o r (V2 X (INR j)) <= s).
  { intros j Hj Hj' L. apply lt_INR in Hj. destruct (IN j Hj'). specialize (LT (INR i) (INR j) I0 ltac:(lra) Hj). specialize (ZJ j Hj'). rewrite !Rabs_right in ZJ by lra. lra. }
  splits.
  - intros y (Y0&Y1) EY. apply Rabs_def1.
    + apply Rnot_le_lt. intros L. destruct i as [|k]; [cbn in L; lra|]. rewrite S_INR in L. apply (UP k); [lia|]. rewrite <- EY. apply LE; [lra| |lra]. rewrite S_INR in I1. lra.
    + apply Rnot_le_lt. intros L. assert (Hk : (S i < n)%nat) by (apply INR_lt; rewrite S_INR; lra). apply (DN (S i)); [lia|exact Hk|]. rewrite <- EY. rewrite S_INR. apply LE; lra.
  - intros L. destruct i as [|k]; [reflexivity|]. exfalso. apply (UP 0%nat); [lia|]. exact L.
  - intros L. destruct (Nat.eq_dec i (n - 1)) as [|NE]; [assumption|]. exfalso. apply (DN (n - 1)%nat); [lia|lia|]. rewrite minus_INR by lia. exact L.
Qed.
Print Assumptions C17_nearest.

(** A level camera: the row in closed form. *)
Lemma upright_trig o : upright o -> sin (rad (tilt_deg o)) = 1 /\ cos (rad (tilt_deg o)) = 0 /\ sin (rad (roll_deg o)) = 0 /\ cos (rad (roll_deg o)) = 1.
Proof. intros (ET&ER). rewrite ET, ER, rad90, rad00, sin_PI2, cos_PI2, sin_0, cos_0. auto. Qed.
Lemma upright_sinking o r X y : upright o -> sinking o r X y.
Proof. intros U. destruct (upright_trig o U) as (T1&T2&T3&T4). unfold sinking. rewrite T1, T2, T3, T4. pose proof (Rle_0_sqr (across r (V2 X y))) as Q. unfold Rsqr in Q. lra. Qed.
Lemma upright_dip o r Q : upright o -> dip o r Q = down r Q / sqrt (1 + across r Q * across r Q + down r Q * down r Q).
Proof. intros U. destruct (upright_trig o U) as (T1&T2&T3&T4). unfold dip, descent. rewrite T1, T2, T3, T4. f_equal. ring. Qed.
Theorem C17_level c r o er e G H n X x : plain_cam c Rectilinear r o -> upright o -> 0 < f_y r -> rep er G -> rep e (elevation_m o) -> 0 < elevation_m o < G ->
  rep (im_height (cam_proj c)) H -> INR n - 1 < H <= INR n -> (0 < n)%nat -> rep x X ->
  let y := center_y r + f_y r * (sqrt (1 + (X - center_x r) / f_x r * ((X - center_x r) / f_x r)) * code_slope G (elevation_m o)) in
  0 <= y <= INR n - 1 -> exists i, (i < n)%nat /\ getImageHorizon c er e (One x) = Some (inl (V2 x (Fin (INR i)))) /\ Rabs (INR i - y) < 1.
Proof.
  intros HC U HF Her He (HE&HEG) HH HN Hn Hx y Y.
  destruct (C17_nearest c r o er e G H n X x HC HF Her ltac:(lra) He HE HH HN Hn Hx (upright_sinking _ _ _ _ U) (upright_sinking _ _ _ _ U)) as (i&Hi&EI&A&_).
  exists i. split; [exact Hi|]. split; [exact EI|]. apply A; [exact Y|]. rewrite upright_dip by exact U. set (E := elevation_m o) in *.
  change (across r (V2 X y)) with ((X - center_x r) / f_x r). set (u := (X - center_x r) / f_x r) in *. assert (ED : down r (V2 X y) = sqrt (1 + u * u) * code_slope G E) by (unfold down, y; cbn [c2]; field; lra). rewrite ED.
  set (q := E * (G + E) / ((G - E) * (2 * G + E))). assert (Q0 : 0 < q) by (unfold q; apply Rdiv_lt_0_compat; nra). unfold code_slope. fold q.
  assert (K0 : 0 < 1 + u * u) by nra. rewrite <- sqrt_mult by lra. rewrite sqrt_sqrt by nra. rewrite <- sqrt_div by nra.
  unfold code_dip. rewrite <- (sqrt_square G) at 2 by lra. rewrite <- sqrt_div by nra. f_equal. unfold q. field. splits; try lra; nra.
Qed.
Print Assumptions C17_level.

(** ** The horizon of the sphere *)
Lemma skyline_facts o G P : 0 < G -> 0 < elevation_m o -> skyline o G P -> let E := elevation_m o in let V := rv_sub P (opos o) in
  rdot V V = E * (2 * G + E) /\ cz P = E - E * (2 * G + E) / (G + E).
Proof.
  intros HG HE (T1&T2) E V. fold E in HE, T2. unfold rdot, above, rv_sub in T1, T2. cbn [cx cy cz zip3v] in T1, T2. unfold V, rdot, rv_sub, opos. cbn [cx cy cz zip3v]. fold E.
  set (a := cx P - pos_x_m o) in *. set (b := cy P - pos_y_m o) in *. set (z := cz P) in *. clearbody a b z. assert (Z1 : (z + G) * (G + E) = G * G) by nra. split; [nra|].
  assert (Z2 : z + G = G * G / (G + E)) by (rewrite <- Z1; field; lra). replace z with (z + G - G) by ring. rewrite Z2. field. lra.
Qed.
(** A camera in any attitude sees the points where its lines of sight touch the sphere where the dip has this value, *)
Theorem C17_skyline c r o G P Q : plain_cam c Rectilinear r o -> 0 < G -> 0 < elevation_m o -> skyline o G P -> sees Rectilinear r o c P Q ->
  dip o r Q = sqrt (elevation_m o * (2 * G + elevation_m o)) / (G + elevation_m o).
Proof.
  intros HC HG HE HP HS. destruct (sees_ray _ _ _ _ _ _ HC HS) as (l&L&E). destruct (skyline_facts o G P HG HE HP) as (N&Z0). cbv zeta in N, Z0. pose proof (descent_down o r Q l P E) as Z1.
  set (h := elevation_m o) in *. rewrite <- (rot_dot o) in N. unfold cam_coords in E. rewrite E in N. unfold rayR, alphaR, betaR, rdot in N. fold (across r Q) (down r Q) in N. cbn [cx cy cz rv_scale map3v] in N.
  unfold dip. set (k := 1 + across r Q * across r Q + down r Q * down r Q). assert (K : l * l * k = h * (2 * G + h)) by (unfold k; lra). assert (K0 : 0 < k) by (unfold k; nra).
  assert (ES : sqrt (h * (2 * G + h)) = l * sqrt k) by (rewrite <- K, sqrt_mult, sqrt_square by nra; reflexivity). assert (S0 : 0 < sqrt k) by (apply sqrt_lt_R0; exact K0).
  assert (LD : l * descent o r Q = h * (2 * G + h) / (G + h)) by lra. rewrite ES. rewrite <- K in LD.
  assert (D : descent o r Q = l * k / (G + h)) by (apply (Rmult_eq_reg_l l); [|lra]; rewrite LD; field; lra).
  rewrite D. rewrite <- (sqrt_sqrt k) at 1 by lra. field. lra.
Qed.
Print Assumptions C17_skyline.
(** ... which is more than getImageHorizon looks for, and less than twice as much; *)
Theorem C17_half G E : 0 < E -> 2 * E < G -> sqrt (E * (2 * G + E)) / (G + E) / 2 < code_dip G E < sqrt (E * (2 * G + E)) / (G + E).
Proof.
  intros HE HG. unfold code_dip. set (t := sqrt (E * (2 * G + E))). set (s := sqrt (E * (G + E) / 2)).
  assert (T0 : 0 < t) by (apply sqrt_lt_R0; nra). assert (S0 : 0 < s) by (apply sqrt_lt_R0; nra). assert (TT : t * t = E * (2 * G + E)) by (apply sqrt_sqrt; nra). assert (SS : s * s = E * (G + E) / 2) by (apply sqrt_sqrt; nra). clearbody s t.
  assert (C : forall a b, 0 < a -> 0 < b -> a * a < b * b -> a < b) by (intros; nra).
  assert (W : 0 < E * E * E) by (apply Rmult_lt_0_compat; nra). assert (W2 : 0 < E * E * (G * G)) by (apply Rmult_lt_0_compat; nra).
  split.
  - apply (Rmult_lt_reg_r (2 * G * (G + E))); [nra|]. replace (t / (G + E) / 2 * _) with (t * G) by (field; lra). replace (s / G * _) with (2 * s * (G + E)) by (field; lra).
    apply C; [nra|apply Rmult_lt_0_compat; lra|]. replace (t * G * (t * G)) with (t * t * (G * G)) by ring. replace (_ * (2 * s * (G + E))) with (4 * (s * s) * ((G + E) * (G + E))) by ring. rewrite TT, SS.
    replace (4 * _ * _) with (E * (2 * ((G + E) * ((G + E) * (G + E))))) by field. rewrite Rmult_assoc. apply Rmult_lt_compat_l; [exact HE|]. nra.
  - apply (Rmult_lt_reg_r (G * (G + E))); [nra|]. replace (t / (G + E) * _) with (t * G) by (field; lra). replace (s / G * _) with (s * (G + E)) by (field; lra).
    apply C; [apply Rmult_lt_0_compat; lra|nra|]. replace (t * G * (t * G)) with (t * t * (G * G)) by ring. replace (_ * (s * (G + E))) with (s * s * ((G + E) * (G + E))) by ring. rewrite TT, SS.
    replace (E * (G + E) / 2 * _) with (E * ((G + E) * ((G + E) * (G + E)) / 2)) by field. rewrite Rmult_assoc. apply Rmult_lt_compat_l; [exact HE|].
    assert ((G + E) * (G + E) < 9 / 4 * (G * G)) by nra. assert ((G + E) * ((G + E) * (G + E)) < (G + E) * (9 / 4 * (G * G))) by (apply Rmult_lt_compat_l; lra). nra.
Qed.
Print Assumptions C17_half.
(** For a level camera this is the row *)
Theorem C17_skyline_row c r o G P Q : plain_cam c Rectilinear r o -> upright o -> 0 < G -> 0 < elevation_m o -> skyline o G P -> sees Rectilinear r o c P Q ->
  c2 Q = center_y r + f_y r * (sqrt (1 + across r Q * across r Q) * true_slope G (elevation_m o)).
Proof.
  intros HC U HG HE HP HS. pose proof (C17_skyline c r o G P Q HC HG HE HP HS) as D. rewrite upright_dip in D by exact U. set (h := elevation_m o) in *. unfold true_slope.
  destruct (plain_foc2 _ _ _ _ HC) as (_&NF). assert (EQ : c2 Q = center_y r + f_y r * down r Q) by (unfold down; field; exact NF). rewrite EQ. do 2 f_equal. clear EQ.
  set (u := across r Q) in *. set (v := down r Q) in *. set (s := sqrt (h * (2 * G + h))) in *. assert (S0 : 0 < s) by (apply sqrt_lt_R0; nra). assert (SS : s * s = h * (2 * G + h)) by (apply sqrt_sqrt; nra).
  set (w := sqrt (1 + u * u + v * v)) in *. assert (W0 : 0 < w) by (apply sqrt_lt_R0; nra). assert (WW : w * w = 1 + u * u + v * v) by (apply sqrt_sqrt; nra).
  set (k := sqrt (1 + u * u)). assert (K0 : 0 < k) by (apply sqrt_lt_R0; nra). assert (KK : k * k = 1 + u * u) by (apply sqrt_sqrt; nra). clearbody u v s w k h.
  assert (V : v * (G + h) = s * w) by (apply (Rmult_eq_reg_r (/ w * / (G + h))); [|apply Rmult_integral_contrapositive_currified; apply Rinv_neq_0_compat; lra]; unfold Rdiv in D; field_simplify; [|lra|lra]; unfold Rdiv; lra).
  assert (V0 : 0 < v) by (assert (0 < v * (G + h)) by (rewrite V; nra); nra).
  assert (V2 : v * v * ((G + h) * (G + h)) = s * s * (k * k + v * v)) by (replace (v * v * _) with ((v * (G + h)) * (v * (G + h))) by ring; rewrite V, KK; replace (1 + u * u + v * v) with (w * w) by lra; ring).
  rewrite SS in V2. assert (V3 : (v * G) * (v * G) = (s * k) * (s * k)) by (replace (s * k * (s * k)) with (s * s * (k * k)) by ring; rewrite SS; nra).
  assert (V4 : v * G = s * k) by (apply Rsqr_inj; unfold Rsqr; nra). apply (Rmult_eq_reg_r G); [|lra]. rewrite V4. field. lra.
Qed.
Print Assumptions C17_skyline_row.
Lemma slopes G E : 0 < E -> 20 * E <= G -> 0 < code_slope G E /\ 19 / 10 * code_slope G E < true_slope G E.
Proof.
  intros HE HG. unfold code_slope, true_slope. set (q := E * (G + E) / ((G - E) * (2 * G + E))). assert (Q0 : 0 < q) by (unfold q; apply Rdiv_lt_0_compat; nra).
  split; [apply sqrt_lt_R0; exact Q0|]. rewrite <- (sqrt_square (19 / 10)) by lra. rewrite <- sqrt_mult by lra. rewrite <- (sqrt_square G) at 2 by lra. rewrite <- sqrt_div by nra. apply sqrt_lt_1; [nra|apply Rlt_le, Rdiv_lt_0_compat; nra|].
  apply (Rmult_lt_reg_r ((G - E) * (2 * G + E) * (G * G) * / E)); [apply Rmult_lt_0_compat; [apply Rmult_lt_0_compat; nra|apply Rinv_0_lt_compat; lra]|].
  unfold q. replace (19 / 10 * (19 / 10) * _ * _) with (361 / 100 * ((G + E) * (G * G))) by (field; splits; try lra; nra). replace (E * (2 * G + E) / (G * G) * _) with ((2 * G + E) * (2 * G + E) * (G - E)) by (field; lra).
  assert (A : G * (G * E) <= G * (G * G) / 20) by nra. assert (B : E * (E * G) <= E * (G * G) / 20) by nra. assert (C : E * (E * E) <= E * (E * G) / 20) by nra. assert (D : 0 < G * (G * G)) by (apply Rmult_lt_0_compat; nra). lra.
Qed.
(** The row of a level camera is only about half as far below the middle as the horizon of the sphere. *)
Theorem C17_too_high c r o er e G H n x P Q : plain_cam c Rectilinear r o -> upright o -> 0 < f_y r -> rep er G -> rep e (elevation_m o) -> 0 < elevation_m o -> 20 * elevation_m o <= G ->
  rep (im_height (cam_proj c)) H -> INR n - 1 < H <= INR n -> (0 < n)%nat -> rep x (c1 Q) -> 0 <= center_y r -> skyline o G P -> sees Rectilinear r o c P Q -> c2 Q <= INR n - 1 ->
  exists i, (i < n)%nat /\ getImageHorizon c er e (One x) = Some (inl (V2 x (Fin (INR i)))) /\ 19 / 10 * (INR i - 1 - center_y r) < c2 Q - center_y r.
Proof.
  intros HC U HF Her He HE HEG HH HN Hn Hx CY HP HS QB. pose proof (C17_skyline_row c r o G P Q HC U ltac:(lra) HE HP HS) as EQ. destruct (slopes G _ HE HEG) as (S0&S1). unfold across in EQ.
  set (k := sqrt (1 + (c1 Q - center_x r) / f_x r * ((c1 Q - center_x r) / f_x r))) in *. assert (K0 : 0 < k) by (apply sqrt_lt_R0; pose proof (Rle_0_sqr ((c1 Q - center_x r) / f_x r)) as S2; unfold Rsqr in S2; lra). assert (FK : 0 < f_y r * k) by nra.
  assert (L : 19 / 10 * (f_y r * (k * code_slope G (elevation_m o))) < f_y r * (k * true_slope G (elevation_m o))) by nra. assert (L0 : 0 < f_y r * (k * code_slope G (elevation_m o))) by nra.
  destruct (C17_level c r o er e G H n (c1 Q) x HC U HF Her He ltac:(lra) HH HN Hn Hx) as (i&Hi&EI&A); [fold k; lra|]. fold k in A. apply Rabs_def2 in A.
  exists i. split; [exact Hi|]. split; [exact EI|]. lra.
Qed.
Print Assumptions C17_too_high.

(** ** Examples and limits *)
Definition ex_earth : R := 6371000.
Lemma ex_slopes : 88 / 100000 < code_slope ex_earth 10 < 89 / 100000 /\ 177 / 100000 < true_slope ex_earth 10 < 178 / 100000.
Proof.
  unfold code_slope, true_slope, ex_earth.
  assert (B : forall x a b, 0 <= a -> 0 <= b -> a * a < x < b * b -> a < sqrt x < b).
  { intros x a b A0 B0 (A&B). split; [rewrite <- (sqrt_square a) by exact A0|rewrite <- (sqrt_square b) by exact B0]; apply sqrt_lt_1; nra. }
  split; [apply B; lra|]. assert (S1 : 177 / 100000 * 6371000 < sqrt (10 * (2 * 6371000 + 10)) < 178 / 100000 * 6371000) by (apply B; lra).
  split; apply (Rmult_lt_reg_r 6371000); try lra; unfold Rdiv at 2; try (unfold Rdiv at 1); rewrite ?Rmult_assoc, ?Rinv_l by lra; lra.
Qed.
Lemma ex_sky : let P := V3 0 (ex_earth * sqrt (10 * (2 * ex_earth + 10)) / (ex_earth + 10)) (ex_earth * ex_earth / (ex_earth + 10) - ex_earth) in
  skyline ex_or2 ex_earth P /\ forall c, plain_cam c Rectilinear ex_r ex_or2 -> sees Rectilinear ex_r ex_or2 c P (V2 2000 (1500 + 3500 * true_slope ex_earth 10)).
Proof.
  cbv zeta. set (s := sqrt (10 * (2 * ex_earth + 10))). assert (SS : s * s = 10 * (2 * ex_earth + 10)) by (apply sqrt_sqrt; unfold ex_earth; lra). assert (S0 : 1 < s) by (rewrite <- sqrt_1; apply sqrt_lt_1; unfold ex_earth; lra).
  assert (G0 : 0 < ex_earth) by (unfold ex_earth; lra). split.
  - unfold skyline, touches, rdot, above, rv_sub. cbn [cx cy cz zip3v ex_or2 pos_x_m pos_y_m elevation_m]. set (g := ex_earth) in *. clearbody g.
    assert (A : (g * s / (g + 10) - 0) * (g * s / (g + 10) - 0) = g * g * (10 * (2 * g + 10)) / ((g + 10) * (g + 10))) by (rewrite <- SS; field; lra).
    split; [rewrite A; field; lra|]. replace ((g * s / (g + 10) - 0) * (0 - (g * s / (g + 10) - 0))) with (- ((g * s / (g + 10) - 0) * (g * s / (g + 10) - 0))) by ring. rewrite A. field. lra.
  - intros c HC. set (P := V3 _ _ _). set (d := ex_earth * s / (ex_earth + 10)).
    assert (E : cam_coords ex_or2 P = V3 0 (ex_earth * ex_earth / (ex_earth + 10) - ex_earth - 10) (- d)).
    { rewrite tilted_coords by reflexivity. unfold rightwards, forwards. cbn [tilt_deg heading_deg pos_x_m pos_y_m elevation_m ex_or2 cx cy cz P]. rewrite rad90, rad00, sin_PI2, cos_PI2, sin_0, cos_0. unfold d. apply v3_ext; cbn; ring. }
    assert (D0 : 1 / 2 < d). { unfold d. apply (Rmult_lt_reg_r (ex_earth + 10)); [lra|]. unfold Rdiv at 2. rewrite Rmult_assoc, Rinv_l by lra. unfold ex_earth in *. nra. }
    assert (HSh : showable Rectilinear (cam_coords ex_or2 P)) by (rewrite E; split; cbn [cz]; [rewrite Rabs_left by lra; unfold tinyR; lra|lra]).
    split; [exact HSh|]. split; [exact Logic.I|]. exists (fin3 P). split; [apply rep3_fin|].
    apply (image_dir c _ _ _ _ P _ true HC (rep3_fin _) HSh Logic.I). exists d. split; [lra|]. rewrite E. unfold rayR, alphaR, betaR, true_slope. fold s. cbn [center_x center_y f_x f_y ex_r c1 c2].
    apply v3_ext; cbn [cx cy cz rv_scale map3v]; [field| |ring]. unfold d. set (g := ex_earth) in *. clearbody g. replace (g * s / (g + 10) * _) with (- (s * s) / (g + 10)) by (field; lra). rewrite SS. field. lra.
Qed.
(** A level camera 10 m above the earth with a focal length of 3500 pixels: the row that getImageHorizon returns is more than two rows above the
    horizon of the sphere. *)
Theorem C17_skyline_refuted : exists c r o P Q i, plain_cam c Rectilinear r o /\ upright o /\ elevation_m o = 10 /\ skyline o 6371000 P /\ sees Rectilinear r o c P Q /\
  0 <= c2 Q <= im_height r - 1 /\ getImageHorizon c (Fin 6371000) (Fin 10) (One (Fin (c1 Q))) = Some (inl (V2 (Fin (c1 Q)) (Fin (INR i)))) /\ INR i + 2 < c2 Q.
Proof.
  destruct (ex_cam2 Rectilinear) as (c&HC). destruct ex_sky as (HP&HS). specialize (HS c HC). set (P := V3 _ _ _) in *. set (Q := V2 _ _) in *. destruct ex_slopes as (S1&S2).
  assert (EN : INR 3000 = 3000) by (rewrite INR_IZR_INZ; apply IZR_eq; reflexivity).
  destruct (C17_level c ex_r ex_or2 (Fin 6371000) (Fin 10) ex_earth 3000 3000 2000 (Fin 2000) HC) as (i&Hi&EI&A); try apply rep_Fin; try (cbn; unfold ex_earth; lra); try lia.
  - split; reflexivity.
  - destruct (plain_good _ _ _ _ HC) as ((Hpr&_)&_). destruct Hpr as (_&_&_&_&_&H6). exact H6.
  - rewrite EN. cbn [center_y f_y f_x center_x ex_r elevation_m ex_or2]. replace (1 + _) with 1 by field. rewrite sqrt_1. lra.
  - cbn [center_y f_y f_x center_x ex_r elevation_m ex_or2] in A. replace (1 + (2000 - 2000) / 3500 * ((2000 - 2000) / 3500)) with 1 in A by field. rewrite sqrt_1 in A. apply Rabs_def2 in A.
    exists c, ex_r, ex_or2, P, Q, i. splits; auto; try (split; reflexivity); cbn [c1 c2 Q im_height ex_r]; lra.
Qed.
Print Assumptions C17_skyline_refuted.
(** That camera meets the hypotheses of the theorems above; so does one that is tilted and rolled. *)
Example C17_too_high_example : exists c P Q, plain_cam c Rectilinear ex_r ex_or2 /\ upright ex_or2 /\ 0 < elevation_m ex_or2 /\ 20 * elevation_m ex_or2 <= 6371000 /\ 0 <= center_y ex_r /\
  skyline ex_or2 6371000 P /\ sees Rectilinear ex_r ex_or2 c P Q /\ c2 Q <= 3000 - 1.
Proof.
  destruct (ex_cam2 Rectilinear) as (c&HC). destruct ex_sky as (HP&HS). destruct ex_slopes as (S1&S2). do 3 eexists. split; [exact HC|]. splits; [split; reflexivity|cbn; lra|cbn; lra|cbn; lra|exact HP|exact (HS c HC)|cbn [c2]; lra].
Qed.
Example C17_nearest_example : sinking (OPar 10 60 30 0 0 0) ex_r 2000 0 /\ sinking (OPar 10 60 30 0 0 0) ex_r 2000 2999.
Proof.
  unfold sinking, across, down. cbn [tilt_deg roll_deg center_x center_y f_x f_y ex_r c1 c2]. replace (rad 60) with (PI / 3) by (unfold rad; field). replace (rad 30) with (PI / 6) by (unfold rad; field).
  rewrite sin_PI3, cos_PI3, sin_PI6, cos_PI6. pose proof (sqrt_sqrt 3 ltac:(lra)). split; nra.
Qed.

(** ** Fitting *)
(** The level camera whose computed horizon is where the horizon of the sphere is seen from the height [E] stands almost four times as high. *)
Theorem C17_elevation G E E' : 0 < E -> 100 * E <= G -> 0 < E' < G -> code_slope G E' = true_slope G E -> 15 / 4 * E < E' < 4 * E.
Proof.
  intros HE HG (HE'&HL) H. unfold code_slope, true_slope in H. apply (f_equal (fun x => x * x)) in H. rewrite sqrt_sqrt in H by (apply Rlt_le, Rdiv_lt_0_compat; nra).
  replace (_ / G * (_ / G)) with (sqrt (E * (2 * G + E)) * sqrt (E * (2 * G + E)) / (G * G)) in H by (field; lra). rewrite sqrt_sqrt in H by nra.
  assert (X : E' * (G + E') * (G * G) = E * (2 * G + E) * ((G - E') * (2 * G + E'))).
  { apply (Rmult_eq_compat_r ((G - E') * (2 * G + E') * (G * G))) in H. replace (E' * (G + E') / ((G - E') * (2 * G + E')) * _) with (E' * (G + E') * (G * G)) in H by (field; splits; try lra; nra). rewrite H. field. lra. }
  clear H. assert (EE : exists e, E = G * e) by (exists (E / G); field; lra). assert (FF : exists f, E' = G * f) by (exists (E' / G); field; lra). destruct EE as (e&->), FF as (f&->). assert (G0 : 0 < G) by nra.
  assert (e0 : 0 < e) by nra. assert (f0 : 0 < f < 1) by (split; nra). assert (e1 : e <= / 100) by nra.
  assert (Y : f * (1 + f) = e * (2 + e) * ((1 - f) * (2 + f))). { apply (Rmult_eq_reg_l (G * G * (G * G))); [lra|]. apply Rgt_not_eq, Rmult_lt_0_compat; nra. }
  clear X HE HG HE' HL. split.
  - apply Rnot_le_lt. intros L. assert (F : f <= 15 / 4 * e) by nra. assert (f1 : f <= 4 / 100) by lra.
    assert (A : (1 - f) * (2 + f) >= 2 - 104 / 100 * f) by nra. assert (B : e * (2 + e) * ((1 - f) * (2 + f)) >= e * (2 + e) * (2 - 104 / 100 * f)) by (apply Rmult_ge_compat_l; nra).
    assert (C : f * (1 + f) <= 15 / 4 * e * (1 + f)) by nra. assert (D : e * (2 + e) * (2 - 104 / 100 * f) <= 15 / 4 * e * (1 + f)) by lra.
    assert (D' : (2 + e) * (2 - 104 / 100 * f) <= 15 / 4 * (1 + f)) by (apply (Rmult_le_reg_l e); lra). nra.
  - apply Rnot_le_lt. intros L. assert (F : 4 * e <= f) by nra. assert (A : (1 - f) * (2 + f) <= 2 - f) by nra. assert (A0 : 0 < (1 - f) * (2 + f)) by nra.
    assert (B : e * (2 + e) <= f / 4 * (2 + f / 4)) by nra. assert (C : e * (2 + e) * ((1 - f) * (2 + f)) <= f / 4 * (2 + f / 4) * (2 - f)) by (apply Rmult_le_compat; nra). nra.
Qed.
Print Assumptions C17_elevation.
Example C17_elevation_example : exists E', 0 < E' < 6371000 /\ code_slope 6371000 E' = true_slope 6371000 10.
Proof.
  set (q := 10 * (2 * 6371000 + 10) / (6371000 * 6371000)). set (g := 6371000). assert (Q : 0 < q < 1) by (unfold q; lra).
  (* E' solves (1 + q) E'^2 + g (1 + q) E' - 2 g^2 q = 0 *)
  set (E' := g * (sqrt (1 + 8 * q / (1 + q)) - 1) / 2). assert (q8 : 0 < q / (1 + q) < / 2) by (split; [apply Rdiv_lt_0_compat; lra|apply (Rmult_lt_reg_r (1 + q)); [lra|]; unfold Rdiv; rewrite Rmult_assoc, Rinv_l by lra; unfold q; lra]).
  assert (S1 : 1 < sqrt (1 + 8 * q / (1 + q))) by (rewrite <- sqrt_1 at 1; apply sqrt_lt_1; unfold Rdiv in *; lra). assert (S2 : sqrt (1 + 8 * q / (1 + q)) < 3) by (rewrite <- (sqrt_square 3) by lra; apply sqrt_lt_1; unfold Rdiv in *; lra).
  assert (SS : sqrt (1 + 8 * q / (1 + q)) * sqrt (1 + 8 * q / (1 + q)) = 1 + 8 * q / (1 + q)) by (apply sqrt_sqrt; unfold Rdiv in *; lra).
  exists E'. assert (B : 0 < E' < g) by (unfold E', g; lra). split; [exact B|]. unfold code_slope, true_slope. rewrite <- (sqrt_square g) at 5 by (unfold g; lra). rewrite <- sqrt_div by (unfold g; lra). f_equal.
  assert (Z0 : (1 + q) * (E' * E') + g * (1 + q) * E' = 2 * (g * g) * q).
  { unfold E'. set (s := sqrt _) in *. replace ((1 + q) * _ + _) with (g * g * (1 + q) * (s * s - 1) / 4) by field. rewrite SS. field. lra. }
  apply (Rmult_eq_reg_r ((g - E') * (2 * g + E'))); [|unfold g in *; nra]. replace (E' * (g + E') / _ * _) with (E' * (g + E')) by (field; unfold g in *; lra). change (10 * (2 * g + 10) / (g * g)) with q. clearbody q g. clear - Z0. lra.
Qed.
(** The camera that took the picture does not explain the horizon of the sphere best: for the camera of [C17_skyline_refuted], 10 m above the earth, the
    horizon term prefers the height of 40 m. *)
Theorem C58_skyline_refuted : exists c c' r o o' P Q t t' v v', plain_cam c Rectilinear r o /\ plain_cam c' Rectilinear r o' /\ elevation_m o = 10 /\ o' = OPar 40 (tilt_deg o) (roll_deg o) (heading_deg o) (pos_x_m o) (pos_y_m o) /\
  skyline o 6371000 P /\ sees Rectilinear r o c P Q /\ horizon_term c (Fin 6371000) (Fin 10) [(fin2 Q, Fin 1)] = Some t /\ horizon_term c' (Fin 6371000) (Fin 40) [(fin2 Q, Fin 1)] = Some t' /\ rep t v /\ rep t' v' /\ v < v'.
Proof.
  set (o' := OPar 40 90 0 0 0 0). assert (HF : foc_ok ex_r) by (split; cbn; lra). destruct (ex_cam2 Rectilinear) as (c&HC). destruct (any_pose Rectilinear ex_r o' HF) as (c'&HC').
  destruct ex_sky as (HP&HS). specialize (HS c HC). set (P := V3 _ _ _) in *. set (Q := V2 _ _) in *. destruct ex_slopes as (S1&S2).
  assert (S3 : 177 / 100000 < code_slope ex_earth 40 < 178 / 100000).
  { unfold code_slope, ex_earth. split; [rewrite <- (sqrt_square (177 / 100000)) by lra|rewrite <- (sqrt_square (178 / 100000)) by lra]; apply sqrt_lt_1; lra. }
  assert (EN : INR 3000 = 3000) by (rewrite INR_IZR_INZ; apply IZR_eq; reflexivity).
  assert (ROW : forall c o e, plain_cam c Rectilinear ex_r o -> upright o -> elevation_m o = e -> 0 < e < ex_earth -> 0 <= 1500 + 3500 * code_slope ex_earth e <= 2999 ->
    exists i, getImageHorizon c (Fin 6371000) (Fin e) (One (Fin 2000)) = Some (inl (V2 (Fin 2000) (Fin (INR i)))) /\ Rabs (INR i - (1500 + 3500 * code_slope ex_earth e)) < 1 /\
      horizon_term c (Fin 6371000) (Fin e) [(fin2 Q, Fin 1)] = Some (nsum [logpdf (Fin 0) (Fin 1) (Fin (c2 Q) - Fin (INR i))%num])).
  { clear. intros c o e HC U EE HE HY. assert (EN : INR 3000 = 3000) by (rewrite INR_IZR_INZ; apply IZR_eq; reflexivity). destruct (plain_good _ _ _ _ HC) as ((Hpr&_)&_). destruct Hpr as (_&_&_&_&_&H6).
    assert (ES : sqrt (1 + (2000 - center_x ex_r) / f_x ex_r * ((2000 - center_x ex_r) / f_x ex_r)) = 1) by (cbn [center_x f_x ex_r]; replace (1 + _) with 1 by field; apply sqrt_1).
    destruct (C17_level c ex_r o (Fin 6371000) (Fin e) ex_earth 3000 3000 2000 (Fin 2000) HC U) as (i&Hi&EI&A); try apply rep_Fin; try (cbn; lra); try lia; rewrite ?EE; try apply rep_Fin; auto; try exact H6; try (rewrite EN; lra).
    - rewrite ES, EN. cbn [center_y f_y ex_r]. lra.
    - rewrite ES, EE in A. cbn [center_y f_y ex_r] in A. rewrite Rmult_1_l in A. exists i. split; [exact EI|]. split; [exact A|].
      unfold horizon_term. unfold getImageHorizon in *. destruct (arange_len (im_height (cam_proj c))) as [m|]; [|discriminate]. cbn [map combine fst snd fin2 c1 Q]. injection EI as EI. unfold Q. cbn [fin2 c1 c2 fst snd map]. unfold fin2 in *. cbn in *. unfold horizon_row in *. cbn [c1 c2] in *. rewrite EI. reflexivity. }
  destruct (ROW c ex_or2 10 HC) as (i&_&A&EI); [split; reflexivity|reflexivity|unfold ex_earth; lra|lra|]. destruct (ROW c' o' 40 HC') as (j&_&B&EJ); [split; reflexivity|reflexivity|unfold ex_earth; lra|lra|].
  assert (V : forall i, rep (nsum [logpdf (Fin 0) (Fin 1) (Fin (c2 Q) - Fin (INR i))%num]) (ln (density 0 1 (c2 Q - INR i)))).
  { intros k. destruct (C58_normal (Fin 0) (Fin 1) (Fin (c2 Q) - Fin (INR k))%num 0 1 (rep_Fin _) (rep_Fin _) ltac:(lra)) as (N1&_). specialize (N1 _ (rep_sub _ _ _ _ (rep_Fin _) (rep_Fin _))).
    eapply rep_eq; [refine (nsum_rep _ _ (Forall2_cons _ _ N1 (Forall2_nil _)))|]. unfold rsum. cbn. ring. }
  apply Rabs_def2 in A. apply Rabs_def2 in B.
  exists c, c', ex_r, ex_or2, o', P, Q. eexists _, _, (ln (density 0 1 (c2 Q - INR i))), (ln (density 0 1 (c2 Q - INR j))). splits; [exact HC|exact HC'|reflexivity|reflexivity|exact HP|exact HS|exact EI|exact EJ|apply V|apply V|].
  - rewrite !ln_density by lra. cbn [c2 Q]. assert (2 < c2 Q - INR i) by (cbn [c2 Q]; lra). assert (- (11 / 10) < c2 Q - INR j < 11 / 10) by (cbn [c2 Q]; lra). cbn [c2 Q] in *. nra.
Qed.
Print Assumptions C58_skyline_refuted.
