(** * C99: what the field of view says is in the picture *)
Require Import Reals Lra Lia Psatz List Bool ZArith.
From Verif Require Import Num Vec Trig Orientation OrientationFacts PropOrientation PropAngles.
From Verif Require Import Projection ProjectionFacts PropProjection Ray RayFacts CameraTransform CameraFacts PropCamera Stereo PropStereo.
From Verif Require Import FitTerms PropFitTerms PropDetermine PropPerspective PropSensitivity PropResect PropTurn PropCompass.
Open Scope R_scope.

(** ** Specification *)
(** The pixel is within the frame of the picture. *)
Definition framed (r : proj R) (Q : v2 R) : Prop := 0 <= c1 Q <= im_width r /\ 0 <= c2 Q <= im_height r.
(** The principal point is in the middle of the picture. *)
Definition centred (r : proj R) : Prop :=
  0 < f_x r /\ 0 < f_y r /\ 0 < im_width r /\ 0 < im_height r /\ center_x r = im_width r / 2 /\ center_y r = im_height r / 2.
(** Seen from the camera the point is [a] radians to the right of the plane through the optical axis and the upward direction of the
    picture. *)
Definition aside (o : opar R) (P : v3 R) (a : R) : Prop :=
  - PI < a <= PI /\ exists d, 0 < d /\ cx (cam_coords o P) = d * sin a /\ cz (cam_coords o P) = - (d * cos a).
(** It is [e] radians above the plane through the optical axis and the rightward direction of the picture, measured in the upright plane
    of the axis (rectilinear) or of the point (panoramas). *)
Definition over (k : pkind) (o : opar R) (P : v3 R) (e : R) : Prop :=
  let C := cam_coords o P in - (PI / 2) < e < PI / 2 /\ cy C = tan e * match k with Rectilinear => - cz C | _ => sqrt (cx C * cx C + cz C * cz C) end.

(** ** Angles *)
Lemma atan_le x y : x <= y <-> atan x <= atan y.
Proof.
  split; intros [H|H].
  - left. apply atan_increasing; auto.
  - rewrite H. lra.
  - apply Rnot_lt_le. intros C. apply atan_increasing in C. lra.
  - right. apply (f_equal tan) in H. rewrite !tan_atan in H. exact H.
Qed.
Lemma atan_abs x y : Rabs x <= y <-> Rabs (atan x) <= atan y.
Proof.
  split; intros H.
  - apply Rabs_le. rewrite <- atan_opp. split; apply (proj1 (atan_le _ _)); unfold Rabs in H; destruct (Rcase_abs x); lra.
  - apply Rabs_le. assert (A : - atan y <= atan x <= atan y) by (unfold Rabs in H; destruct (Rcase_abs (atan x)); lra).
    destruct A as (A&B). rewrite <- atan_opp in A. apply (proj2 (atan_le _ _)) in A. apply (proj2 (atan_le _ _)) in B. lra.
Qed.
Lemma abs_le_iff x y : Rabs x <= y <-> - y <= x <= y.
Proof. split; intros H; [unfold Rabs in H; destruct (Rcase_abs x); lra|apply Rabs_le; exact H]. Qed.
(** A size of the picture and the field of view along it *)
Lemma tan_half w f v W F : rep w W -> rep f F -> 0 < F -> 0 < W -> rep (fov_tan w f) v -> rad v / 2 = atan (W / (2 * F)) /\ 0 < rad v / 2 < PI / 2 /\ W / (2 * F) = tan (rad v / 2).
Proof.
  intros Rw Rf NF NW RV. pose proof PI_RGT_0. assert (E : v = 2 * atan (W / (2 * F)) * (180 / PI)) by (apply (rep_inj _ _ _ RV); apply rep_fov_tan; auto; lra).
  assert (HA : rad v / 2 = atan (W / (2 * F))) by (rewrite E; unfold rad; field; lra).
  split; [exact HA|]. rewrite HA. split; [|symmetry; apply tan_atan]. destruct (atan_bound (W / (2 * F))). split; [|lra].
  rewrite <- atan_0. apply atan_increasing. apply Rdiv_lt_0_compat; lra.
Qed.
Lemma in_half W F u q : 0 < F -> q = W / 2 + F * u -> (0 <= q <= W <-> Rabs u <= W / (2 * F)).
Proof.
  intros NF ->. assert (E : W = 2 * F * (W / (2 * F))) by (field; lra). set (t := W / (2 * F)) in *. clearbody t. subst W. rewrite abs_le_iff. split; intros (A&B).
  - split; apply (Rmult_le_reg_l F); lra.
  - split; nra.
Qed.
Lemma abs_ratio z u t : 0 < z -> (Rabs u <= z * t <-> Rabs (u / z) <= t).
Proof.
  intros Z0. assert (EU : u = z * (u / z)) by (field; lra). set (w := u / z) in *. clearbody w. subst u. rewrite Rabs_mult, (Rabs_right z) by lra. split; intros X; [apply (Rmult_le_reg_l z); lra|apply Rmult_le_compat_l; lra].
Qed.
Lemma fov_proj k c r o VX VY : plain_cam c k r o -> rep2 (getFieldOfView k (cam_proj c)) (V2 VX VY) -> centred r ->
  match k with Rectilinear => rad VX / 2 = atan (im_width r / (2 * f_x r)) /\ 0 < rad VX / 2 < PI / 2 | _ => rad VX / 2 = im_width r / (2 * f_x r) end /\
  match k with Equirectangular => rad VY / 2 = im_height r / (2 * f_y r) | _ => rad VY / 2 = atan (im_height r / (2 * f_y r)) /\ 0 < rad VY / 2 < PI / 2 end.
Proof.
  intros HC (RX&RY) (F1&F2&W&H&_&_). destruct (plain_good _ _ _ _ HC) as (((R1&R2&R3&R4&R5&R6)&_&_)&_).
  assert (T1 : forall v, rep (fov_tan (im_width (cam_proj c)) (f_x (cam_proj c))) v -> rad v / 2 = atan (im_width r / (2 * f_x r)) /\ 0 < rad v / 2 < PI / 2).
  { intros v RV. destruct (tan_half _ _ _ _ _ R5 R1 F1 W RV) as (A&B&_). auto. }
  assert (T2 : forall v, rep (fov_tan (im_height (cam_proj c)) (f_y (cam_proj c))) v -> rad v / 2 = atan (im_height r / (2 * f_y r)) /\ 0 < rad v / 2 < PI / 2).
  { intros v RV. destruct (tan_half _ _ _ _ _ R6 R2 F2 H RV) as (A&B&_). auto. }
  assert (A1 : forall v, rep (fov_arc (im_width (cam_proj c)) (f_x (cam_proj c))) v -> rad v / 2 = im_width r / (2 * f_x r)).
  { intros v RV. rewrite (arc_turn _ _ _ _ _ R5 R1 ltac:(lra) RV). field. lra. }
  assert (A2 : forall v, rep (fov_arc (im_height (cam_proj c)) (f_y (cam_proj c))) v -> rad v / 2 = im_height r / (2 * f_y r)).
  { intros v RV. rewrite (arc_turn _ _ _ _ _ R6 R2 ltac:(lra) RV). field. lra. }
  destruct k; cbn [getFieldOfView c1 c2] in RX, RY; split; auto.
Qed.
Lemma aside_unique o P a a' : aside o P a -> aside o P a' -> a = a'.
Proof.
  intros (B&d&D&X&Z0) (B'&d'&D'&X'&Z'). destruct (polar_eq d d' a a' 0 0 D D') as (_&S1&S2&_); [apply v3_ext; cbn; lra|]. apply angle_unique; auto. lra.
Qed.
Lemma over_unique k o P e e' : (cx (cam_coords o P) <> 0 \/ cz (cam_coords o P) <> 0) -> (k = Rectilinear -> cz (cam_coords o P) < 0) -> over k o P e -> over k o P e' -> e = e'.
Proof.
  intros NZ HK (B&E) (B'&E'). rewrite E in E'. set (C := cam_coords o P) in *.
  assert (M : 0 < match k with Rectilinear => - cz C | _ => sqrt (cx C * cx C + cz C * cz C) end).
  { assert (0 < sqrt (cx C * cx C + cz C * cz C)) by (apply sqrt_lt_R0; destruct NZ as [N0|N0]; apply Rsqr_pos_lt in N0; unfold Rsqr in N0; nra). destruct k; auto. specialize (HK eq_refl). lra. }
  apply Rmult_eq_reg_r in E'; [|lra]. apply (f_equal atan) in E'. rewrite !atan_tan in E' by lra. exact E'.
Qed.
Lemma sees_aside k r o c P Q : plain_cam c k r o -> sees k r o c P Q -> aside o P (azimuth k r Q).
Proof.
  intros HC HS. destruct (sees_polar _ _ _ _ _ _ HC HS) as (l&L&E). split; [destruct (azimuth_range k r Q); [apply HS|lra]|]. exists l. rewrite E. cbn. splits; [exact L|ring|ring].
Qed.
Definition elev (k : pkind) (r : proj R) (Q : v2 R) : R := match k with Equirectangular => - down r Q | _ => atan (- down r Q) end.
Lemma sees_over k r o c P Q : plain_cam c k r o -> sees k r o c P Q -> over k o P (elev k r Q).
Proof.
  intros HC HS. unfold over. destruct k.
  - destruct (sees_ray _ _ _ _ _ _ HC HS) as (l&L&E). cbn [elev]. split; [destruct (atan_bound (- down r Q)); lra|]. rewrite tan_atan, E. unfold rayR, betaR, down. cbn. ring.
  - destruct (sees_polar _ _ _ _ _ _ HC HS) as (l&L&E). cbn [elev]. split; [destruct (atan_bound (- down r Q)); lra|]. rewrite tan_atan, E. cbn [cx cy cz rv_scale map3v polar_dir azimuth slope].
    replace (_ + _) with (l * l * (Rsqr (sin (across r Q)) + Rsqr (cos (across r Q)))) by (unfold Rsqr; ring). rewrite sin2_cos2, Rmult_1_r, sqrt_square by lra. ring.
  - destruct (sees_polar _ _ _ _ _ _ HC HS) as (l&L&E). cbn [elev]. destruct HS as (_&(_&B)&_). unfold betaR in B. fold (down r Q) in B. split; [lra|]. rewrite E. cbn [cx cy cz rv_scale map3v polar_dir azimuth slope].
    replace (_ + _) with (l * l * (Rsqr (sin (across r Q)) + Rsqr (cos (across r Q)))) by (unfold Rsqr; ring). rewrite sin2_cos2, Rmult_1_r, sqrt_square by lra. rewrite tan_neg. ring.
Qed.

(** ** C99 *)
(** A point that the camera shows is within the left and right edges of the picture exactly when it is at most half of the field of view
    to the side ... *)
Theorem C99_columns k r o c VX VY P Q a : plain_cam c k r o -> centred r -> rep2 (getFieldOfView k (cam_proj c)) (V2 VX VY) ->
  sees k r o c P Q -> aside o P a -> (0 <= c1 Q <= im_width r <-> Rabs a <= rad VX / 2).
Proof.
  intros HC HR FV HS HA. destruct (fov_proj k c r o VX VY HC FV HR) as (FX&_). destruct HR as (F1&F2&W&H&CX&CY).
  rewrite (aside_unique _ _ _ _ HA (sees_aside _ _ _ _ _ _ HC HS)).
  rewrite (in_half (im_width r) (f_x r) (across r Q) (c1 Q) F1) by (unfold across; rewrite CX; field; lra).
  destruct k; cbn [azimuth]; [destruct FX as (FX&_)| |]; rewrite FX; [apply atan_abs|reflexivity|reflexivity].
Qed.
Print Assumptions C99_columns.
(** ... and within the upper and lower edges exactly when it is at most half of the field of view above or below. *)
Theorem C99_rows k r o c VX VY P Q e : plain_cam c k r o -> centred r -> rep2 (getFieldOfView k (cam_proj c)) (V2 VX VY) ->
  sees k r o c P Q -> over k o P e -> (0 <= c2 Q <= im_height r <-> Rabs e <= rad VY / 2).
Proof.
  intros HC HR FV HS HA. destruct (fov_proj k c r o VX VY HC FV HR) as (_&FY). destruct HR as (F1&F2&W&H&CX&CY).
  assert (NZ : cz (cam_coords o P) <> 0). { destruct HS as ((T&_)&_). pose proof tinyR_pos. intros Z0. rewrite Z0, Rabs_R0 in T. lra. }
  rewrite (over_unique k o P e (elev k r Q)); [|right; exact NZ|intros ->; apply HS|exact HA|apply (sees_over _ _ _ c); auto].
  rewrite (in_half (im_height r) (f_y r) (down r Q) (c2 Q) F2) by (unfold down; rewrite CY; field; lra).
  destruct k; cbn [elev]; [destruct FY as (FY&_)|destruct FY as (FY&_)|]; rewrite FY, ?atan_opp, Rabs_Ropp; [apply atan_abs|apply atan_abs|reflexivity].
Qed.
Print Assumptions C99_rows.
Theorem C99_frame k r o c VX VY P Q a e : plain_cam c k r o -> centred r -> rep2 (getFieldOfView k (cam_proj c)) (V2 VX VY) ->
  sees k r o c P Q -> aside o P a -> over k o P e -> (framed r Q <-> Rabs a <= rad VX / 2 /\ Rabs e <= rad VY / 2).
Proof.
  intros HC HR FV HS HA HE. unfold framed. rewrite (C99_columns k r o c VX VY P Q a HC HR FV HS HA), (C99_rows k r o c VX VY P Q e HC HR FV HS HE). reflexivity.
Qed.
Print Assumptions C99_frame.

(** For a rectilinear camera this decides for every point of space (outside the plane of the lens) whether it is in the picture: the
    pictured region is the pyramid with the apex in the camera whose sides are half of the fields of view from the optical axis. *)
Theorem C99_pyramid r o c VX VY p P : plain_cam c Rectilinear r o -> centred r -> rep2 (getFieldOfView Rectilinear (cam_proj c)) (V2 VX VY) ->
  rep3 p P -> tinyR <= Rabs (depth o P) ->
  ((exists Q, rep2 (imageFromSpace c p true) Q /\ framed r Q) <->
   0 < depth o P /\ Rabs (cx (cam_coords o P)) <= depth o P * tan (rad VX / 2) /\ Rabs (cy (cam_coords o P)) <= depth o P * tan (rad VY / 2)).
Proof.
  intros HC HR FV Hp HT. pose proof tinyR_pos as TP. destruct (fov_proj _ c r o VX VY HC FV HR) as ((FX&_)&(FY&_)). cbv beta iota in FX, FY. rewrite FX, FY, !tan_atan.
  destruct (plain_good _ _ _ _ HC) as ((Hpr&HF&HRo)&HK&HDi&_). unfold depth in *. rewrite Rabs_Ropp in HT. set (C := cam_coords o P) in *.
  pose proof (rigid_camera _ _ _ _ _ HRo Hp : rep3 (cameraFromSpace (cam_o c) p) C) as HCc.
  destruct (Rlt_le_dec (cz C) 0) as [N0|N0].
  - set (Q := V2 (center_x r + f_x r * (cx C / - cz C)) (center_y r - f_y r * (cy C / - cz C))). destruct HF as (NF1&NF2).
    assert (RQ : rep2 (imageFromSpace c p true) Q).
    { apply (image_dir c Rectilinear r o p P Q true HC Hp); [split; [exact HT|exact N0]|exact Logic.I|]. exists (- cz C). split; [lra|]. fold C. unfold Q. clearbody C. clear - N0 NF1 NF2. unfold rayR, alphaR, betaR. apply v3_ext; cbn; field; repeat split; auto; lra. }
    destruct HR as (F1&F2&W&H&CX&CY). set (z := - cz C) in *. assert (Z0 : 0 < z) by (unfold z; lra).
    assert (AB : forall u t, Rabs u <= z * t <-> Rabs (u / z) <= t) by (intros; apply abs_ratio; exact Z0).
    assert (FR : framed r Q <-> Rabs (cx C / z) <= im_width r / (2 * f_x r) /\ Rabs (cy C / z) <= im_height r / (2 * f_y r)).
    { unfold framed. rewrite (in_half (im_width r) (f_x r) (cx C / z) (c1 Q) F1) by (unfold Q; cbn; rewrite CX; reflexivity).
      rewrite (in_half (im_height r) (f_y r) (- (cy C / z)) (c2 Q) F2) by (unfold Q; cbn; rewrite CY; fold z; ring). rewrite Rabs_Ropp. reflexivity. }
    rewrite !AB, <- FR. split.
    + intros (Q'&RQ'&F). rewrite <- (rep2_inj _ _ _ RQ RQ') in F. auto.
    + intros (_&F). exists Q. auto.
  - split; [|lra]. intros (Q&RQ&_). exfalso. destruct (C06_rect_nan_iff (cam_proj c) r (cameraFromSpace (cam_o c) p) C true Hpr HF HCc) as ((_&NN)&_).
    assert (Z1 : 0 < cz C) by (destruct N0 as [N0|N0]; [exact N0|rewrite <- N0, Rabs_R0 in HT; lra]).
    specialize (NN (or_introl (conj eq_refl Z1))). unfold imageFromSpace in RQ. rewrite HDi, HK in RQ. cbn [p_image] in RQ. destruct RQ as (RQ&_), NN as (NN&_). rewrite NN in RQ. discriminate.
Qed.
Print Assumptions C99_pyramid.

(** The same for panoramas, in any attitude: which points of space (other than those straight behind) are in the picture. *)
Theorem C99_panorama k r o c VX VY p P a e : k <> Rectilinear -> plain_cam c k r o -> centred r -> rep2 (getFieldOfView k (cam_proj c)) (V2 VX VY) ->
  rep3 p P -> tinyR <= Rabs (depth o P) -> aside o P a -> a < PI -> over k o P e ->
  ((exists Q, rep2 (imageFromSpace c p true) Q /\ framed r Q) <-> Rabs a <= rad VX / 2 /\ Rabs e <= rad VY / 2).
Proof.
  intros NK HC HR FV Hp HT HA A1 HE. unfold depth in HT. rewrite Rabs_Ropp in HT. destruct (plain_foc2 _ _ _ _ HC) as (NF1&NF2).
  pose proof HA as ((A0&_)&d&D&X&Z0). pose proof HE as (E0&Y). set (b := match k with Equirectangular => - e | _ => - tan e end).
  set (Q := V2 (center_x r + f_x r * a) (center_y r + f_y r * b)).
  assert (EA : alphaR r Q = a) by (unfold alphaR, Q; cbn [c1]; field; auto). assert (EB : betaR r Q = b) by (unfold betaR, Q; cbn [c2]; field; auto).
  assert (IR : in_range k r Q) by (destruct k; [congruence| |]; cbn [in_range]; rewrite EA, ?EB; [lra|unfold b; lra]).
  assert (HSh : showable k (cam_coords o P)) by (split; [exact HT|destruct k; auto; congruence]).
  assert (PM : posmul (cam_coords o P) (rayR k r Q)).
  { exists d. split; [exact D|]. assert (HD : sqrt (cx (cam_coords o P) * cx (cam_coords o P) + cz (cam_coords o P) * cz (cam_coords o P)) = d).
    { rewrite X, Z0. replace (_ + _) with (d * d * (Rsqr (sin a) + Rsqr (cos a))) by (unfold Rsqr; ring). rewrite sin2_cos2, Rmult_1_r. apply sqrt_square. lra. }
    destruct k; [congruence| |]; rewrite HD in Y; cbn [rayR]; rewrite EA, EB; unfold b; apply v3_ext; cbn [cx cy cz rv_scale map3v]; rewrite ?X, ?Y, ?Z0, ?tan_neg; ring. }
  assert (RQ : rep2 (imageFromSpace c p true) Q) by (apply (image_dir c k r o p P Q true); auto).
  assert (HS : sees k r o c P Q) by (split; [exact HSh|]; split; [exact IR|]; exists p; auto).
  rewrite <- (C99_frame k r o c VX VY P Q a e HC HR FV HS HA HE). split.
  - intros (Q'&RQ'&F). rewrite <- (rep2_inj _ _ _ RQ RQ') in F. exact F.
  - intros F. exists Q. auto.
Qed.
Print Assumptions C99_panorama.
(** Zooming in at the same place only takes things out of the picture, zooming out only brings things in. *)
Theorem C99_zoom r r' o c c' p P : plain_cam c Rectilinear r o -> plain_cam c' Rectilinear r' o -> centred r -> centred r' ->
  im_width r' = im_width r -> im_height r' = im_height r -> f_x r <= f_x r' -> f_y r <= f_y r' -> rep3 p P -> tinyR <= Rabs (depth o P) ->
  (exists Q, rep2 (imageFromSpace c' p true) Q /\ framed r' Q) -> exists Q, rep2 (imageFromSpace c p true) Q /\ framed r Q.
Proof.
  intros HC HC' HR HR' EW EH FX FY Hp HT.
  assert (FA : forall c k r o, plain_cam c k r o -> exists VX VY, rep2 (getFieldOfView k (cam_proj c)) (V2 VX VY)).
  { clear. intros c k r o HC. destruct (plain_good _ _ _ _ HC) as (((R1&R2&R3&R4&R5&R6)&(F1&F2)&_)&_).
    destruct k; do 2 eexists; (split; cbn [getFieldOfView c1 c2]); try (eapply rep_fov_tan; eassumption); eapply rep_fov_arc; eassumption. }
  destruct (FA _ _ _ _ HC) as (VX&VY&FV). destruct (FA _ _ _ _ HC') as (VX'&VY'&FV').
  rewrite (C99_pyramid r o c VX VY p P HC HR FV Hp HT), (C99_pyramid r' o c' VX' VY' p P HC' HR' FV' Hp HT).
  destruct (fov_proj _ c r o VX VY HC FV HR) as ((EX&_)&(EY&_)). destruct (fov_proj _ c' r' o VX' VY' HC' FV' HR') as ((EX'&_)&(EY'&_)). cbv beta iota in EX, EY, EX', EY'.
  rewrite EX, EY, EX', EY', !tan_atan, EW, EH. destruct HR as (F1&F2&W&H&_). destruct HR' as (G1&G2&_).
  assert (LE : forall w f g, 0 < w -> 0 < f -> f <= g -> w / (2 * g) <= w / (2 * f)) by (intros w f g Hw Hf Hg; unfold Rdiv; apply Rmult_le_compat_l; [lra|]; apply Rinv_le_contravar; lra).
  intros (D&A&B). splits; [exact D| |]; (eapply Rle_trans; [eassumption|]; apply Rmult_le_compat_l; [lra|]; apply LE; auto).
Qed.
Print Assumptions C99_zoom.

(** ** Cameras without roll *)
(** Seen from the camera the point is in the direction [q] off straight down, towards the heading (pi/2 is level, pi straight up), [g] metres
    away in the upright plane of the heading. *)
Definition plumb (o : opar R) (P : v3 R) (g q : R) : Prop := 0 < g /\ forwards o P = g * sin q /\ cz P = elevation_m o - g * cos q.
Lemma tilted_coords o P : roll_deg o = 0 -> let t := rad (tilt_deg o) in let z := cz P - elevation_m o in
  cam_coords o P = V3 (rightwards o P) (sin t * z + cos t * forwards o P) (cos t * z - sin t * forwards o P).
Proof.
  intros ER t z. unfold cam_coords, camM. rewrite ER, rad00. fold t. unfold rotm. rewrite sin_0, cos_0. unfold z, rm_mul_v, rdot, rightwards, forwards, opos. apply v3_ext; cbn; ring.
Qed.
Lemma plumb_coords o P g q : roll_deg o = 0 -> plumb o P g q -> let x := q - rad (tilt_deg o) in cam_coords o P = V3 (rightwards o P) (g * sin x) (- (g * cos x)).
Proof.
  intros ER (G&F&Z0) x. rewrite tilted_coords by exact ER. rewrite F, Z0. unfold x. rewrite sin_minus, cos_minus. apply v3_ext; cbn; ring.
Qed.
Lemma wedge g x v : 0 < g -> 0 < v < PI / 2 -> - (3 * (PI / 2)) <= x <= 3 * (PI / 2) -> (0 < g * cos x /\ Rabs (g * sin x) <= g * cos x * tan v <-> Rabs x <= v).
Proof.
  intros G V X. pose proof PI_RGT_0. split.
  - intros (C&A). assert (C0 : 0 < cos x) by nra.
    assert (B : - (PI / 2) < x < PI / 2).
    { split; apply Rnot_le_lt; intros L.
      - assert (cos (- x) <= 0) by (apply cos_le_0; lra). rewrite cos_neg in *. lra.
      - assert (cos x <= 0) by (apply cos_le_0; lra). lra. }
    rewrite <- (atan_tan x B), <- (atan_tan v) by lra. apply (proj1 (atan_abs _ _)). apply (abs_ratio (g * cos x) (g * sin x)) in A; [|exact C].
    replace (g * sin x / (g * cos x)) with (tan x) in A by (unfold tan; field; lra). exact A.
  - intros A. assert (B : - (PI / 2) < x < PI / 2) by (apply abs_le_iff in A; lra). assert (C0 : 0 < cos x) by (apply cos_gt_0; lra).
    assert (C : 0 < g * cos x) by (apply Rmult_lt_0_compat; auto). split; [exact C|]. apply (abs_ratio (g * cos x)); [exact C|].
    replace (g * sin x / (g * cos x)) with (tan x) by (unfold tan; field; lra). apply (proj2 (atan_abs _ _)). rewrite !atan_tan by lra. exact A.
Qed.
(** A rectilinear camera without roll pictures exactly what is at most half of the vertical field of view off its tilt and at most half of the
    horizontal one beside its upright plane. *)
Theorem C99_tilted r o c VX VY p P g q : plain_cam c Rectilinear r o -> centred r -> rep2 (getFieldOfView Rectilinear (cam_proj c)) (V2 VX VY) ->
  roll_deg o = 0 -> rep3 p P -> tinyR <= Rabs (depth o P) -> plumb o P g q -> - (3 * (PI / 2)) <= q - rad (tilt_deg o) <= 3 * (PI / 2) ->
  ((exists Q, rep2 (imageFromSpace c p true) Q /\ framed r Q) <->
   Rabs (q - rad (tilt_deg o)) <= rad VY / 2 /\ Rabs (rightwards o P) <= g * cos (q - rad (tilt_deg o)) * tan (rad VX / 2)).
Proof.
  intros HC HR FV ER Hp HT HP B. rewrite (C99_pyramid r o c VX VY p P HC HR FV Hp HT). destruct (fov_proj _ c r o VX VY HC FV HR) as ((_&_)&(_&BY)). cbv beta iota in BY.
  pose proof (plumb_coords o P g q ER HP) as E. cbv zeta in E. unfold depth. rewrite E. cbn [cx cy cz]. rewrite Ropp_involutive. rewrite <- (wedge g _ (rad VY / 2) (proj1 HP) BY B). tauto.
Qed.
Print Assumptions C99_tilted.

(** The ground straight ahead: a point at height 0 whose direction is [q] off straight down *)
Lemma ground_plumb o P q : 0 < elevation_m o -> cz P = 0 -> - (PI / 2) < q < PI / 2 -> forwards o P = elevation_m o * tan q -> plumb o P (elevation_m o / cos q) q.
Proof.
  intros H Z0 B F. assert (C : 0 < cos q) by (apply cos_gt_0; lra). split; [apply Rdiv_lt_0_compat; auto|]. split; [rewrite F; unfold tan; field; lra|rewrite Z0; field; lra].
Qed.
Lemma tilt_range o : 0 <= tilt_deg o <= 180 -> 0 <= rad (tilt_deg o) <= PI.
Proof. intros H. pose proof PI_RGT_0. unfold rad. split; nra. Qed.
Theorem C99_ground r o c VX VY p P q : plain_cam c Rectilinear r o -> centred r -> rep2 (getFieldOfView Rectilinear (cam_proj c)) (V2 VX VY) ->
  roll_deg o = 0 -> 0 <= tilt_deg o <= 180 -> 0 < elevation_m o -> rep3 p P -> tinyR <= Rabs (depth o P) ->
  cz P = 0 -> - (PI / 2) < q < PI / 2 -> forwards o P = elevation_m o * tan q ->
  ((exists Q, rep2 (imageFromSpace c p true) Q /\ framed r Q) <->
   Rabs (q - rad (tilt_deg o)) <= rad VY / 2 /\ Rabs (rightwards o P) <= elevation_m o * (cos (q - rad (tilt_deg o)) / cos q) * tan (rad VX / 2)).
Proof.
  intros HC HR FV ER TR H Hp HT Z0 B F. pose proof PI_RGT_0. destruct (tilt_range o TR).
  rewrite (C99_tilted r o c VX VY p P _ q HC HR FV ER Hp HT (ground_plumb o P q H Z0 B F)) by lra.
  replace (elevation_m o / cos q * cos (q - rad (tilt_deg o))) with (elevation_m o * (cos (q - rad (tilt_deg o)) / cos q)); [reflexivity|]. field. apply Rgt_not_eq, cos_gt_0; lra.
Qed.
Print Assumptions C99_ground.

Lemma tan_le x y : - (PI / 2) < x < PI / 2 -> - (PI / 2) < y < PI / 2 -> (x <= y <-> tan x <= tan y).
Proof. intros X Y. rewrite (atan_le (tan x) (tan y)), !atan_tan by lra. reflexivity. Qed.
(** On the line straight ahead of a camera at the height H with the tilt t and the field of view 2 v, the picture shows the ground exactly
    from H tan(t - v) to H tan(t + v) when the horizon is above the picture, everything from H tan(t - v) on when the horizon is in the picture, and no ground
    when the horizon is below it. *)
Theorem C99_ground_ahead r o c VX VY p P : plain_cam c Rectilinear r o -> centred r -> rep2 (getFieldOfView Rectilinear (cam_proj c)) (V2 VX VY) ->
  roll_deg o = 0 -> 0 <= tilt_deg o <= 180 -> 0 < elevation_m o -> rep3 p P -> tinyR <= Rabs (depth o P) -> cz P = 0 -> rightwards o P = 0 ->
  let D := forwards o P in let near := rad (tilt_deg o) - rad VY / 2 in let far := rad (tilt_deg o) + rad VY / 2 in
  let pictured := exists Q, rep2 (imageFromSpace c p true) Q /\ framed r Q in
  (far < PI / 2 -> (pictured <-> elevation_m o * tan near <= D <= elevation_m o * tan far)) /\
  (near < PI / 2 <= far -> (pictured <-> elevation_m o * tan near <= D)) /\
  (PI / 2 <= near -> ~ pictured).
Proof.
  intros HC HR FV ER TR H Hp HT Z0 R0 D near far pictured. pose proof PI_RGT_0. destruct (tilt_range o TR) as (T1&T2). destruct (fov_proj _ c r o VX VY HC FV HR) as ((_&BX)&(_&BY)). cbv beta iota in BX, BY.
  assert (EH : forall y, tan (atan y) = y) by apply tan_atan.
  set (q := atan (D / elevation_m o)). assert (B : - (PI / 2) < q < PI / 2) by (unfold q; destruct (atan_bound (D / elevation_m o)); lra).
  assert (F : forwards o P = elevation_m o * tan q) by (unfold q; rewrite tan_atan; fold D; field; lra). clearbody q.
  assert (E : pictured <-> near <= q <= far).
  { unfold pictured. rewrite (C99_ground r o c VX VY p P q HC HR FV ER TR H Hp HT Z0 B F). rewrite R0, Rabs_R0, abs_le_iff. unfold near, far. split; [intros (A&_); lra|]. intros A. split; [lra|].
    assert (0 < cos (q - rad (tilt_deg o))) by (apply cos_gt_0; lra). assert (0 < cos q) by (apply cos_gt_0; lra). assert (0 < tan (rad VX / 2)) by (apply tan_gt_0; lra).
    apply Rmult_le_pos; [|lra]. apply Rmult_le_pos; [lra|]. apply Rlt_le, Rdiv_lt_0_compat; auto. }
  assert (M : forall x, - (PI / 2) < x < PI / 2 -> (x <= q <-> elevation_m o * tan x <= D) /\ (q <= x <-> D <= elevation_m o * tan x)).
  { intros x X. unfold D. rewrite F, (tan_le x q X B), (tan_le q x B X). split; (split; intros L; [apply Rmult_le_compat_l; lra|apply (Rmult_le_reg_l (elevation_m o)); lra]). }
  assert (NL : - (PI / 2) < near) by (unfold near; lra). assert (NF : near < far) by (unfold near, far; lra). splits.
  - intros L. rewrite E. destruct (M near) as (M1&_); [lra|]. destruct (M far) as (_&M2); [lra|]. rewrite M1, M2. reflexivity.
  - intros (L1&L2). rewrite E. destruct (M near) as (M1&_); [lra|]. rewrite <- M1. split; [tauto|]. intros A. lra.
  - intros L. rewrite E. lra.
Qed.
Print Assumptions C99_ground_ahead.
(** A camera that looks straight down pictures a rectangle of the ground, 2 H tan(VX/2) by 2 H tan(VY/2), its upper side towards the heading. *)
Theorem C99_footprint r o c VX VY p P : plain_cam c Rectilinear r o -> centred r -> rep2 (getFieldOfView Rectilinear (cam_proj c)) (V2 VX VY) ->
  roll_deg o = 0 -> tilt_deg o = 0 -> tinyR <= elevation_m o -> rep3 p P -> cz P = 0 ->
  ((exists Q, rep2 (imageFromSpace c p true) Q /\ framed r Q) <->
   Rabs (rightwards o P) <= elevation_m o * tan (rad VX / 2) /\ Rabs (forwards o P) <= elevation_m o * tan (rad VY / 2)).
Proof.
  intros HC HR FV ER ET H Hp Z0. pose proof tinyR_pos. pose proof (tilted_coords o P ER) as E. cbv zeta in E. rewrite ET, rad00, sin_0, cos_0, Z0 in E.
  assert (DP : depth o P = elevation_m o) by (unfold depth; rewrite E; cbn [cz]; ring).
  rewrite (C99_pyramid r o c VX VY p P HC HR FV Hp) by (rewrite DP, Rabs_right; lra). rewrite DP, E. cbn [cx cy]. replace (0 * (0 - elevation_m o) + 1 * forwards o P) with (forwards o P) by ring. split; [tauto|]. intros A. split; [lra|exact A].
Qed.
Print Assumptions C99_footprint.
(** The horizon (points at the height of the camera, ahead of it) is in the picture of a camera without roll exactly when the tilt is within half of the
    field of view of 90 degrees. *)
Theorem C99_horizon r o c VX VY p P : plain_cam c Rectilinear r o -> centred r -> rep2 (getFieldOfView Rectilinear (cam_proj c)) (V2 VX VY) ->
  roll_deg o = 0 -> 0 <= tilt_deg o <= 180 -> rep3 p P -> tinyR <= Rabs (depth o P) -> cz P = elevation_m o -> 0 < forwards o P -> rightwards o P = 0 ->
  ((exists Q, rep2 (imageFromSpace c p true) Q /\ framed r Q) <-> Rabs (90 - tilt_deg o) <= VY / 2).
Proof.
  intros HC HR FV ER TR Hp HT Z0 FW R0. pose proof PI_RGT_0. destruct (tilt_range o TR) as (T1&T2). destruct (fov_proj _ c r o VX VY HC FV HR) as ((_&BX)&(_&BY)). cbv beta iota in BX, BY.
  assert (PB : plumb o P (forwards o P) (PI / 2)) by (split; [exact FW|]; rewrite sin_PI2, cos_PI2, Z0; lra).
  rewrite (C99_tilted r o c VX VY p P _ _ HC HR FV ER Hp HT PB) by lra. rewrite R0, Rabs_R0, !abs_le_iff. rewrite <- rad90. set (K := PI / 180). assert (K0 : 0 < K) by (unfold K; lra).
  assert (R1 : forall x, rad x = x * K) by (intros; reflexivity). split.
  - intros (A&_). rewrite !R1 in A. split; apply (Rmult_le_reg_r K); lra.
  - intros A. assert (L : - (rad VY / 2) <= rad 90 - rad (tilt_deg o) <= rad VY / 2) by (rewrite !R1; split; nra). split; [exact L|].
    assert (0 < cos (rad 90 - rad (tilt_deg o))) by (apply cos_gt_0; lra). assert (0 < tan (rad VX / 2)) by (apply tan_gt_0; lra).
    apply Rmult_le_pos; [|lra]. apply Rmult_le_pos; lra.
Qed.
Print Assumptions C99_horizon.
(** A camera of any projection that looks level and shows the point at all has it between the left and right edges exactly when its compass
    direction is at most half of the field of view off the heading. *)
Theorem C99_level k r o c VX VY P Q d b : upright o -> plain_cam c k r o -> centred r -> rep2 (getFieldOfView k (cam_proj c)) (V2 VX VY) -> sees k r o c P Q -> stands o P d b ->
  (0 <= c1 Q <= im_width r <-> exists j : Z, Rabs (b - rad (heading_deg o) + 2 * IZR j * PI) <= rad VX / 2).
Proof.
  intros U HC HR FV HS ST. pose proof PI_RGT_0 as HPI. rewrite (C99_columns k r o c VX VY P Q _ HC HR FV HS (sees_aside _ _ _ _ _ _ HC HS)).
  destruct (C96_compass k r o c P Q d b U HC HS ST) as ((j&J)&_). destruct (azimuth_range k r Q) as (A1&A2); [apply HS|]. split.
  - intros A. exists j. rewrite <- J. exact A.
  - intros (i&A). destruct (Rle_lt_dec PI (rad VX / 2)) as [V|V]; [apply abs_le_iff; lra|].
    assert (i = j); [|subst i; rewrite J; exact A]. apply abs_le_iff in A. rewrite J in A1, A2. set (y := b - rad (heading_deg o)) in *. clearbody y.
    assert (X : -1 < IZR (i - j) < 1) by (rewrite minus_IZR; split; apply (Rmult_lt_reg_r (2 * PI)); lra).
    destruct X as (X1&X2). apply lt_IZR in X1. apply lt_IZR in X2. lia.
Qed.
Print Assumptions C99_level.

(** ** Examples and limits *)
Lemma ex_centred : centred ex_r.
Proof. unfold centred. cbn. splits; lra. Qed.
Lemma fov_any k c r o : plain_cam c k r o -> exists VX VY, rep2 (getFieldOfView k (cam_proj c)) (V2 VX VY).
Proof.
  intros HC. destruct (plain_good _ _ _ _ HC) as (((R1&R2&R3&R4&R5&R6)&(F1&F2)&_)&_).
  destruct k; do 2 eexists; (split; cbn [getFieldOfView c1 c2]); try (eapply rep_fov_tan; eassumption); eapply rep_fov_arc; eassumption.
Qed.
Lemma any_pose k r o : foc_ok r -> exists c, plain_cam c k r o.
Proof.
  intros HF. assert (H : rep_opar (opar_fin o) o) by (repeat split). destruct (init_rigid _ _ H) as (m&E&_).
  exists (plain_camera k (proj_fin r) m), (proj_fin r), m. splits; auto; [repeat split|eauto].
Qed.
(** With the principal point out of the middle a point well within half of the field of view can be outside the picture. *)
Theorem C99_off_centre_refuted : exists r c VX VY P Q a, plain_cam c Rectilinear r (ex_at 0) /\ 0 < f_x r /\ 0 < im_width r /\ 0 <= center_x r <= im_width r /\
  rep2 (getFieldOfView Rectilinear (cam_proj c)) (V2 VX VY) /\ sees Rectilinear r (ex_at 0) c P Q /\ aside (ex_at 0) P a /\ Rabs a <= rad VX / 2 /\ im_width r < c1 Q.
Proof.
  set (r := Proj 3500 3500 4000 1500 4000 3000). assert (HF : foc_ok r) by (split; cbn; lra). destruct (any_pose Rectilinear r (ex_at 0) HF) as (c&HC).
  destruct (fov_any _ _ _ _ HC) as (VX&VY&FV). set (Q := V2 4350 1500). set (P := V3 1 10 10).
  assert (HS : sees Rectilinear r (ex_at 0) c P Q).
  { apply sees_at; [exact HC|apply near_showable; cbn; lra|exact Logic.I|]. rewrite at_coords. exists 10. split; [lra|]. unfold rayR, alphaR, betaR, P, Q, r. apply v3_ext; cbn; field. }
  exists r, c, VX, VY, P, Q, (azimuth Rectilinear r Q). pose proof (sees_aside _ _ _ _ _ _ HC HS) as HA.
  destruct (plain_good _ _ _ _ HC) as (((R1&R2&R3&R4&R5&R6)&_&_)&_). destruct FV as (FX&FY). cbn [getFieldOfView c1] in FX.
  destruct (tan_half _ _ _ _ _ R5 R1 ltac:(cbn; lra) ltac:(cbn; lra) FX) as (E&_). splits; auto; try (cbn; lra); [split; assumption|].
  rewrite E. cbn [azimuth]. apply (proj1 (atan_abs _ _)). unfold across, Q, r. cbn. rewrite Rabs_right; lra.
Qed.
Print Assumptions C99_off_centre_refuted.
(** Of a tilted camera the field of view does not bound the compass directions: looking straight down it pictures the ground behind it. *)
Theorem C99_bearing_refuted : exists c o VX VY P Q, plain_cam c Rectilinear ex_r o /\ roll_deg o = 0 /\ rep2 (getFieldOfView Rectilinear (cam_proj c)) (V2 VX VY) /\
  sees Rectilinear ex_r o c P Q /\ framed ex_r Q /\ stands o P 1 PI /\ forall j : Z, rad VX / 2 < Rabs (PI - rad (heading_deg o) + 2 * IZR j * PI).
Proof.
  set (o := OPar 10 0 0 0 0 0). assert (HF : foc_ok ex_r) by (split; cbn; lra). destruct (any_pose Rectilinear ex_r o HF) as (c&HC). destruct (fov_any _ _ _ _ HC) as (VX&VY&FV).
  set (P := V3 0 (-1) 0). set (Q := V2 2000 1850). exists c, o, VX, VY, P, Q. pose proof PI_RGT_0.
  assert (E : cam_coords o P = V3 0 (-1) (-10)).
  { rewrite tilted_coords by reflexivity. unfold o, P, rightwards, forwards. cbn [tilt_deg heading_deg pos_x_m pos_y_m elevation_m cx cy cz]. rewrite rad00, sin_0, cos_0. apply v3_ext; cbn; ring. }
  splits; auto.
  - apply sees_at; [exact HC|rewrite E; split; cbn; [rewrite Rabs_left; unfold tinyR; lra|lra]|exact Logic.I|]. rewrite E. exists 10. split; [lra|]. unfold rayR, alphaR, betaR, Q. apply v3_ext; cbn; field.
  - unfold framed, Q. cbn. lra.
  - unfold stands, P, o. cbn. rewrite sin_PI, cos_PI. lra.
  - intros j. destruct (fov_proj _ c ex_r o VX VY HC FV ex_centred) as ((_&BX)&_). cbv beta iota in BX. unfold o. cbn [heading_deg]. rewrite rad00.
    replace (PI - 0 + 2 * IZR j * PI) with (IZR (1 + 2 * j) * PI) by (rewrite plus_IZR, mult_IZR; ring). rewrite Rabs_mult, (Rabs_right PI) by lra.
    assert (1 <= Rabs (IZR (1 + 2 * j))). { rewrite <- abs_IZR. apply IZR_le. lia. } nra.
Qed.
Print Assumptions C99_bearing_refuted.
(** A level camera 10 m above the ground shows the point 50 m ahead and 10 m to the right within its picture. *)
Example C99_frame_example : exists c VX VY Q a e, plain_cam c Rectilinear ex_r (ex_at 0) /\ centred ex_r /\ rep2 (getFieldOfView Rectilinear (cam_proj c)) (V2 VX VY) /\
  sees Rectilinear ex_r (ex_at 0) c (V3 10 50 0) Q /\ aside (ex_at 0) (V3 10 50 0) a /\ over Rectilinear (ex_at 0) (V3 10 50 0) e /\
  Rabs a <= rad VX / 2 /\ Rabs e <= rad VY / 2 /\ exists d b, upright (ex_at 0) /\ stands (ex_at 0) (V3 10 50 0) d b.
Proof.
  destruct (any_r (ex_at 0) Rectilinear 3500 ltac:(lra)) as (c&HC). change (Proj 3500 3500 2000 1500 4000 3000) with ex_r in HC. destruct (fov_any _ _ _ _ HC) as (VX&VY&FV).
  set (Q := V2 2700 2200). assert (HS : sees Rectilinear ex_r (ex_at 0) c (V3 10 50 0) Q).
  { apply sees_at; [exact HC|apply near_showable; cbn; lra|exact Logic.I|]. rewrite at_coords. exists 50. split; [lra|]. unfold rayR, alphaR, betaR, Q. apply v3_ext; cbn; field. }
  exists c, VX, VY, Q, (azimuth Rectilinear ex_r Q), (elev Rectilinear ex_r Q). pose proof (sees_aside _ _ _ _ _ _ HC HS) as HA. pose proof (sees_over _ _ _ _ _ _ HC HS) as HE.
  assert (FR : framed ex_r Q) by (unfold framed, Q; cbn; lra). destruct (C99_frame _ _ _ _ _ _ _ _ _ _ HC ex_centred FV HS HA HE) as (G&_). destruct (G FR) as (G1&G2). splits; auto using ex_centred.
  destruct (C96_direction Rectilinear ex_r (ex_at 0) c _ _ ltac:(split; reflexivity) HC HS) as (d&ST&_). eexists d, _. split; [split; reflexivity|exact ST].
Qed.
(** A camera 10 m above the ground tilted by 60 degrees pictures the ground 10 m ahead, but neither the ground below it nor the horizon. *)
Example C99_ground_example : exists c VX VY, plain_cam c Rectilinear ex_r (o_down 0) /\ rep2 (getFieldOfView Rectilinear (cam_proj c)) (V2 VX VY) /\
  (exists Q, rep2 (imageFromSpace c (fin3 (V3 0 10 0)) true) Q /\ framed ex_r Q) /\ ~ (exists Q, rep2 (imageFromSpace c (fin3 (V3 0 0 0)) true) Q /\ framed ex_r Q) /\
  ~ (exists Q, rep2 (imageFromSpace c (fin3 (V3 0 10 10)) true) Q /\ framed ex_r Q).
Proof.
  assert (HF : foc_ok ex_r) by (split; cbn; lra). destruct (any_pose Rectilinear ex_r (o_down 0) HF) as (c&HC). destruct (fov_any _ _ _ _ HC) as (VX&VY&FV). exists c, VX, VY.
  destruct (plain_good _ _ _ _ HC) as (((R1&R2&R3&R4&R5&R6)&_&_)&_). pose proof FV as (FX&FY). cbn [getFieldOfView c1 c2] in FX, FY.
  destruct (tan_half _ _ _ _ _ R5 R1 ltac:(cbn; lra) ltac:(cbn; lra) FX) as (_&_&TX). destruct (tan_half _ _ _ _ _ R6 R2 ltac:(cbn; lra) ltac:(cbn; lra) FY) as (_&_&TY). cbn [im_width im_height f_x f_y ex_r] in TX, TY.
  destruct cs60 as (C60&S60). assert (S3 : 17 / 10 < sqrt 3 < 9 / 5). { split; [apply Rsqr_incrst_0|apply Rsqr_incrst_0]; try apply sqrt_pos; try lra; rewrite Rsqr_sqrt by lra; unfold Rsqr; lra. }
  assert (E : forall y z, cam_coords (o_down 0) (V3 0 y z) = V3 0 (sqrt 3 / 2 * (z - 10) + 1 / 2 * y) (1 / 2 * (z - 10) - sqrt 3 / 2 * y)).
  { intros y z. rewrite tilted_coords by reflexivity. unfold rightwards, forwards. cbn [tilt_deg heading_deg pos_x_m pos_y_m elevation_m cx cy cz o_down]. rewrite C60, S60, rad00, sin_0, cos_0. apply v3_ext; cbn; ring. }
  assert (DP : forall y z, depth (o_down 0) (V3 0 y z) = sqrt 3 / 2 * y - 1 / 2 * (z - 10)) by (intros; unfold depth; rewrite E; cbn [cz]; ring).
  assert (PY : forall y z, 1 <= sqrt 3 / 2 * y - 1 / 2 * (z - 10) -> ((exists Q, rep2 (imageFromSpace c (fin3 (V3 0 y z)) true) Q /\ framed ex_r Q) <->
    Rabs (sqrt 3 / 2 * (z - 10) + 1 / 2 * y) <= (sqrt 3 / 2 * y - 1 / 2 * (z - 10)) * (3000 / (2 * 3500)))).
  { intros y z L. rewrite (C99_pyramid ex_r (o_down 0) c VX VY _ (V3 0 y z) HC ex_centred FV (rep3_fin _)) by (rewrite DP, Rabs_right; unfold tinyR; lra).
    rewrite DP, E, <- TX, <- TY. cbn [cx cy]. rewrite Rabs_R0. split; [tauto|]. intros A. splits; [lra|lra|exact A]. }
  splits; auto.
  - apply PY; [lra|]. apply Rabs_le. lra.
  - rewrite PY by lra. intros A. apply abs_le_iff in A. lra.
  - rewrite PY by lra. intros A. apply abs_le_iff in A. lra.
Qed.
(** The hypotheses of the theorems on the ground and on the horizon for that camera, and on the footprint for one that looks down *)
Example C99_tilted_example : roll_deg (o_down 0) = 0 /\ 0 <= tilt_deg (o_down 0) <= 180 /\ 0 < elevation_m (o_down 0) /\
  tinyR <= Rabs (depth (o_down 0) (V3 0 10 0)) /\ rightwards (o_down 0) (V3 0 10 0) = 0 /\ forwards (o_down 0) (V3 0 10 0) = elevation_m (o_down 0) * tan (PI / 4) /\
  tinyR <= Rabs (depth (o_down 0) (V3 0 10 10)) /\ forwards (o_down 0) (V3 0 10 10) = 10 /\
  let o := OPar 10 0 0 0 0 0 in tilt_deg o = 0 /\ tinyR <= elevation_m o.
Proof.
  destruct cs60 as (C60&S60). assert (S3 : 1 < sqrt 3) by (rewrite <- sqrt_1 at 1; apply sqrt_lt_1; lra).
  assert (E : forall y z, depth (o_down 0) (V3 0 y z) = sqrt 3 / 2 * y - 1 / 2 * (z - 10)).
  { intros y z. unfold depth. rewrite tilted_coords by reflexivity. unfold rightwards, forwards. cbn [tilt_deg heading_deg pos_x_m pos_y_m elevation_m cx cy cz o_down]. rewrite C60, S60, rad00, sin_0, cos_0. ring. }
  rewrite !E. unfold tinyR, rightwards, forwards. cbn [tilt_deg roll_deg heading_deg pos_x_m pos_y_m elevation_m cx cy cz o_down]. rewrite rad00, sin_0, cos_0, tan_PI4. splits; try lra; rewrite Rabs_right; lra.
Qed.
Example C99_panorama_example : forall k, k <> Rectilinear -> exists c VX VY, plain_cam c k ex_r (ex_at 0) /\ rep2 (getFieldOfView k (cam_proj c)) (V2 VX VY) /\
  tinyR <= Rabs (depth (ex_at 0) (V3 50 50 10)) /\ aside (ex_at 0) (V3 50 50 10) (PI / 4) /\ over k (ex_at 0) (V3 50 50 10) 0 /\ PI / 4 < PI.
Proof.
  intros k NK. destruct (ex_cam_at k 0) as (c&HC). destruct (fov_any _ _ _ _ HC) as (VX&VY&FV). exists c, VX, VY. pose proof PI_RGT_0. pose proof (sqrt_lt_R0 2 ltac:(lra)) as S2.
  assert (Q2 : sqrt 2 * sqrt 2 = 2) by (apply sqrt_sqrt; lra). unfold depth, aside, over. rewrite !at_coords. cbn [cx cy cz]. splits; auto; try lra.
  - unfold tinyR. rewrite Ropp_involutive, Rabs_right; lra.
  - exists (50 * sqrt 2). rewrite sin_PI4, cos_PI4. splits; [lra|field; lra|field; lra].
  - rewrite tan_0. ring.
Qed.
Example C99_zoom_example : exists c c', plain_cam c Rectilinear ex_r (ex_at 0) /\ plain_cam c' Rectilinear (Proj 7000 7000 2000 1500 4000 3000) (ex_at 0) /\
  centred ex_r /\ centred (Proj 7000 7000 2000 1500 4000 3000) /\ f_x ex_r <= 7000 /\ exists Q, rep2 (imageFromSpace c' (fin3 (V3 10 50 0)) true) Q /\ framed (Proj 7000 7000 2000 1500 4000 3000) Q.
Proof.
  destruct (any_r (ex_at 0) Rectilinear 3500 ltac:(lra)) as (c&HC). destruct (any_r (ex_at 0) Rectilinear 7000 ltac:(lra)) as (c'&HC'). exists c, c'. splits; auto using ex_centred; [unfold centred; cbn; splits; lra|cbn; lra|].
  exists (V2 3400 2900). split; [|unfold framed; cbn; lra]. apply (image_dir c' _ _ _ _ (V3 10 50 0) _ true HC' (rep3_fin _)); [apply near_showable; cbn; lra|exact Logic.I|].
  rewrite at_coords. exists 50. split; [lra|]. unfold rayR, alphaR, betaR. apply v3_ext; cbn; field.
Qed.
