(** * C98: what the pixels of a camera with a lens tell *)
Require Import Reals Lra Lia Psatz List Bool ZArith.
From Verif Require Import Num Vec Trig Orientation OrientationFacts PropOrientation PropAngles.
From Verif Require Import Projection ProjectionFacts Ray RayFacts CameraTransform CameraFacts PropCamera Stereo PropStereo.
From Verif Require Import FitTerms PropFitTerms PropDetermine PropPerspective PropSensitivity PropResect PropTurn PropCompass.
From Verif Require Import PropRay Lens PropLens PropLensCam PropLensPicture.
Open Scope R_scope.

(** ** Specification *)
(** The camera with the lens [l] shows the point [P] at the pixel [Y] of the picture; without lens it would be at [X], a pixel other
    than the centre of the lens at which the inverse of the lens is exact. *)
Definition photo (k : pkind) (r : proj R) (o : opar R) (l : lens) (L : rlens) (c : camera) (P : v3 R) (Y X : v2 R) : Prop :=
  shown_at k r o P X /\ lens_inverts l L X /\ exists p, rep3 p P /\ rep2 (imageFromSpace c p true) Y.
(** Two cameras show the point at one pixel of their pictures. *)
Definition lens_agree (k : pkind) (r : proj R) (l : lens) (L : rlens) (c c' : camera) (o o' : opar R) (P : v3 R) : Prop :=
  exists Y X X', photo k r o l L c P Y X /\ photo k r o' l L c' P Y X'.
(** The same camera with its lens taken off *)
Definition bare (c : camera) : camera := plain_camera (cam_kind c) (cam_proj c) (cam_o c).

Lemma bare_plain c k r o l : lens_cam c k r o l -> plain_cam (bare c) k r o.
Proof. intros (p&m&->&Hp&Hf&on&Ho&E). exists p, m. split; [reflexivity|]. split; [exact Hp|]. split; [exact Hf|]. eauto. Qed.
Lemma shown_showable k r o P X : shown_at k r o P X -> showable k (cam_coords o P).
Proof.
  intros (_&HT&t&Ht&E). split; [exact HT|]. destruct k; auto. rewrite E. cbn. lra.
Qed.
Lemma shown_sees c k r o P X : plain_cam c k r o -> shown_at k r o P X -> sees k r o c P X.
Proof.
  intros HC HS. apply sees_at; [exact HC|eapply shown_showable; eauto|apply HS|]. destruct HS as (_&_&t&Ht&E). exists t. split; [exact Ht|exact E].
Qed.
Lemma inverts_corrects l L X : rep_lens l L -> lens_inverts l L X -> exists rho, 0 < rho /\ (forall x, rep x (radius L X) -> rep (l_conv l x) rho) /\ corrects l L (radial L (rho / radius L X) X) X.
Proof.
  intros HL (R0&rho&Rr&A&B). exists rho. split; [exact Rr|]. split; [exact A|].
  assert (HN : s_x L <> 0 /\ s_y L <> 0) by apply HL. destruct HN as (NX&NY).
  assert (ER : radius L (radial L (rho / radius L X) X) = rho).
  { rewrite radius_radial by auto. rewrite Rabs_right; [field; lra|]. apply Rle_ge, Rmult_le_pos; [lra|]. apply Rlt_le, Rinv_0_lt_compat; auto. }
  unfold corrects. rewrite ER. split; [exact Rr|]. exists (radius L X). split; [exact R0|]. split; [|split; [exact B|exact A]].
  rewrite radial_radial. replace (_ * _) with 1 by (field; lra). symmetry. apply radial_1.
Qed.
Lemma photo_corrects k r o l L c P Y X : lens_cam c k r o l -> rep_lens l L -> photo k r o l L c P Y X -> corrects l L Y X.
Proof.
  intros HC HL (HS&HI&p&Hp&HY). destruct (inverts_corrects l L X HL HI) as (rho&Rr&A&B).
  assert (E : Y = radial L (rho / radius L X) X).
  { eapply rep2_inj; [exact HY|]. eapply C87_pixel; eauto. apply HI. }
  rewrite E. exact B.
Qed.
Print Assumptions photo_corrects.

(** ** C98 *)
(** Correcting the pixel of the picture gives the pixel at which the camera without the lens shows the point. *)
Theorem C98_corrected k r o l L c P Y X : lens_cam c k r o l -> rep_lens l L -> photo k r o l L c P Y X ->
  (forall y, rep2 y Y -> rep2 (cam_undist c y) X) /\ sees k r o (bare c) P X.
Proof.
  intros HC HL HP. split.
  - intros y Hy. eapply corrects_undist; eauto. eapply photo_corrects; eauto.
  - apply shown_sees; [eapply bare_plain; eauto|apply HP].
Qed.
Print Assumptions C98_corrected.
(** Two pixels of the pictures of a lens are the same exactly when the corrected pixels are. *)
Theorem C98_one_to_one k k' r r' o o' l L c c' P P' Y Y' X X' : lens_cam c k r o l -> lens_cam c' k' r' o' l -> rep_lens l L ->
  photo k r o l L c P Y X -> photo k' r' o' l L c' P' Y' X' -> (Y = Y' <-> X = X').
Proof.
  intros HC HC' HL HP HP'. split.
  - intros <-. destruct (C98_corrected _ _ _ _ _ _ _ _ _ HC HL HP) as (U&_). destruct (C98_corrected _ _ _ _ _ _ _ _ _ HC' HL HP') as (U'&_).
    pose proof (U _ (rep2_fin Y)) as A. pose proof (U' _ (rep2_fin Y)) as B.
    destruct (lens_good _ _ _ _ _ HC) as (_&_&_&HU). destruct (lens_good _ _ _ _ _ HC') as (_&_&_&HU'). rewrite HU in A. rewrite HU' in B. eapply rep2_inj; eauto.
  - intros <-. pose proof (photo_corrects _ _ _ _ _ _ _ _ _ HC HL HP) as A. pose proof (photo_corrects _ _ _ _ _ _ _ _ _ HC' HL HP') as B.
    eapply rep2_inj; [exact (corrects_back l L _ Y X HL (rep2_fin X) A)|exact (corrects_back l L _ Y' X HL (rep2_fin X) B)].
Qed.
Print Assumptions C98_one_to_one.
Lemma bare_agree k r l L c c' o o' P : lens_cam c k r o l -> lens_cam c' k r o' l -> rep_lens l L -> lens_agree k r l L c c' o o' P -> agree_on k (bare c) (bare c') o o' P.
Proof.
  intros HC HC' HL (Y&X&X'&HP&HP'). assert (E : X = X') by (apply (proj1 (C98_one_to_one _ _ _ _ _ _ _ _ _ _ _ _ _ _ _ _ HC HC' HL HP HP')); reflexivity). subst X'.
  split; [eapply shown_showable; apply HP|]. split; [eapply shown_showable; apply HP'|].
  destruct (C98_corrected _ _ _ _ _ _ _ _ _ HC HL HP) as (_&S). destruct (C98_corrected _ _ _ _ _ _ _ _ _ HC' HL HP') as (_&S').
  destruct S as (HS&HI&_). destruct S' as (HS'&_&_). exists (fin3 P), X. split; [apply rep3_fin|].
  destruct HP as ((_&_&t&Ht&E)&_). destruct HP' as ((_&_&t'&Ht'&E')&_). split.
  - apply (image_dir (bare c) k r o (fin3 P) P X true (bare_plain _ _ _ _ _ HC) (rep3_fin P) HS HI). exists t. auto.
  - apply (image_dir (bare c') k r o' (fin3 P) P X true (bare_plain _ _ _ _ _ HC') (rep3_fin P) HS' HI). exists t'. auto.
Qed.
(** Landmarks: cameras with the same lens which show them at the same pixels have one pose, as without lens (C83). *)
Theorem C98_two_landmarks k r l L c c' o o' P1 P2 : lens_cam c k r o l -> lens_cam c' k r o' l -> rep_lens l L -> opos o' = opos o ->
  rcross (rv_sub P1 (opos o)) (rv_sub P2 (opos o)) <> rv0 -> lens_agree k r l L c c' o o' P1 -> lens_agree k r l L c c' o o' P2 -> same_pose o o'.
Proof.
  intros HC HC' HL EO NZ A1 A2. pose proof (bare_plain _ _ _ _ _ HC). pose proof (bare_plain _ _ _ _ _ HC').
  eapply (C83_two_landmarks k (bare c) (bare c') r o o' P1 P2); auto; apply (bare_agree k r l L); auto.
Qed.
Print Assumptions C98_two_landmarks.
Theorem C98_ground_landmarks k r l L c c' o o' Z P1 P2 P3 P4 : lens_cam c k r o l -> lens_cam c' k r o' l -> rep_lens l L ->
  cz P1 = Z -> cz P2 = Z -> cz P3 = Z -> cz P4 = Z -> elevation_m o <> Z ->
  area2 P1 P2 P3 <> 0 -> area2 P1 P2 P4 <> 0 -> area2 P1 P3 P4 <> 0 -> area2 P2 P3 P4 <> 0 ->
  lens_agree k r l L c c' o o' P1 -> lens_agree k r l L c c' o o' P2 -> lens_agree k r l L c c' o o' P3 -> lens_agree k r l L c c' o o' P4 -> same_pose o o'.
Proof.
  intros HC HC' HL. intros. pose proof (bare_plain _ _ _ _ _ HC). pose proof (bare_plain _ _ _ _ _ HC').
  eapply (C83_ground_landmarks k (bare c) (bare c') r o o' Z P1 P2 P3 P4); auto; apply (bare_agree k r l L); auto.
Qed.
Print Assumptions C98_ground_landmarks.
Theorem C98_four_landmarks k r l L c c' o o' P1 P2 P3 P4 a b d : lens_cam c k r o l -> lens_cam c' k r o' l -> rep_lens l L ->
  a + b + d = 1 -> a <> 0 -> b <> 0 -> d <> 0 -> P4 = rv_add (rv_scale a P1) (rv_add (rv_scale b P2) (rv_scale d P3)) ->
  triple (rv_sub P1 (opos o)) (rv_sub P2 (opos o)) (rv_sub P3 (opos o)) <> 0 ->
  lens_agree k r l L c c' o o' P1 -> lens_agree k r l L c c' o o' P2 -> lens_agree k r l L c c' o o' P3 -> lens_agree k r l L c c' o o' P4 -> same_pose o o'.
Proof.
  intros HC HC' HL. intros. pose proof (bare_plain _ _ _ _ _ HC). pose proof (bare_plain _ _ _ _ _ HC').
  eapply (C83_four_landmarks k (bare c) (bare c') r o o' P1 P2 P3 P4 a b d); auto; apply (bare_agree k r l L); auto.
Qed.
Print Assumptions C98_four_landmarks.
(** Cameras at one place, of any projections and lenses: what is hidden behind a thing for the one is hidden for the other. *)
Theorem C98_no_parallax k k' r r' o o' l l' L L' c c' P P' Y Y1 Y2 X1 X2 Z1 Z2 : lens_cam c k r o l -> rep_lens l L -> lens_cam c' k' r' o' l' -> rep_lens l' L' -> opos o' = opos o ->
  photo k r o l L c P Y X1 -> photo k r o l L c P' Y X2 -> photo k' r' o' l' L' c' P Y1 Z1 -> photo k' r' o' l' L' c' P' Y2 Z2 -> Y1 = Y2.
Proof.
  intros HC HL HC' HL' EO A1 A2 B1 B2. assert (E : X1 = X2) by (apply (C98_one_to_one _ _ _ _ _ _ _ _ _ _ _ _ _ _ _ _ HC HC HL A1 A2); reflexivity). subst X2.
  apply (C98_one_to_one _ _ _ _ _ _ _ _ _ _ _ _ _ _ _ _ HC' HC' HL' B1 B2).
  apply (C85_no_parallax k k' r r' o o' (bare c) (bare c') P P' X1 Z1 Z2); auto; try (eapply bare_plain; eauto).
  - apply (C98_corrected _ _ _ _ _ _ _ _ _ HC HL A1).
  - apply (C98_corrected _ _ _ _ _ _ _ _ _ HC HL A2).
  - apply (C98_corrected _ _ _ _ _ _ _ _ _ HC' HL' B1).
  - apply (C98_corrected _ _ _ _ _ _ _ _ _ HC' HL' B2).
Qed.
Print Assumptions C98_no_parallax.
(** At two places two points behind each other for the one camera are beside each other for the other. *)
Theorem C98_parallax k k' r r' o o' l l' L L' c c' P P' Y Y1 Y2 X1 X2 Z1 Z2 : lens_cam c k r o l -> rep_lens l L -> lens_cam c' k' r' o' l' -> rep_lens l' L' ->
  rcross (rv_sub P (opos o)) (rv_sub (opos o') (opos o)) <> rv0 -> P <> P' ->
  photo k r o l L c P Y X1 -> photo k r o l L c P' Y X2 -> photo k' r' o' l' L' c' P Y1 Z1 -> photo k' r' o' l' L' c' P' Y2 Z2 -> Y1 <> Y2.
Proof.
  intros HC HL HC' HL' NC NP A1 A2 B1 B2 EY. assert (E : X1 = X2) by (apply (C98_one_to_one _ _ _ _ _ _ _ _ _ _ _ _ _ _ _ _ HC HC HL A1 A2); reflexivity). subst X2.
  apply (C98_one_to_one _ _ _ _ _ _ _ _ _ _ _ _ _ _ _ _ HC' HC' HL' B1 B2) in EY. revert EY.
  apply (C85_parallax k k' r r' o o' (bare c) (bare c') P P' X1 Z1 Z2); auto; try (eapply bare_plain; eauto).
  - apply (C98_corrected _ _ _ _ _ _ _ _ _ HC HL A1).
  - apply (C98_corrected _ _ _ _ _ _ _ _ _ HC HL A2).
  - apply (C98_corrected _ _ _ _ _ _ _ _ _ HC' HL' B1).
  - apply (C98_corrected _ _ _ _ _ _ _ _ _ HC' HL' B2).
Qed.
Print Assumptions C98_parallax.
(** A level camera: the column of the corrected pixel is the compass direction, its row the slope. *)
Theorem C98_compass k r o l L c P Y d b : upright o -> lens_cam c k r o l -> rep_lens l L -> (exists X, photo k r o l L c P Y X) -> stands o P d b ->
  exists X, (forall y, rep2 y Y -> rep2 (cam_undist c y) X) /\
    (exists j : Z, azimuth k r X = b - rad (heading_deg o) + 2 * IZR j * PI) /\ slope k r X = (elevation_m o - cz P) / d.
Proof.
  intros HU HC HL (X&HP) HS. exists X. destruct (C98_corrected _ _ _ _ _ _ _ _ _ HC HL HP) as (A&S). split; [exact A|].
  eapply (C96_compass k r o (bare c)); eauto. eapply bare_plain; eauto.
Qed.
Print Assumptions C98_compass.
(** Straight lines of the world: the corrected pixels are on one line, in order, however the lens bends the picture (C89). *)
Theorem C98_straight r o l L c P0 P1 t Y0 Y1 Y X0 X1 X : lens_cam c Rectilinear r o l -> rep_lens l L -> 0 <= t <= 1 ->
  photo Rectilinear r o l L c P0 Y0 X0 -> photo Rectilinear r o l L c P1 Y1 X1 -> photo Rectilinear r o l L c (between3 P0 P1 t) Y X ->
  exists u, 0 <= u <= 1 /\ X = between2 X0 X1 u.
Proof.
  intros HC HL HT A0 A1 A. pose proof (bare_plain _ _ _ _ _ HC) as HB.
  assert (D : forall Q Z W, photo Rectilinear r o l L c Q Z W -> tinyR <= depth o Q /\ rep2 (imageFromSpace (bare c) (fin3 Q) true) W).
  { intros Q Z W HP. pose proof (shown_showable _ _ _ _ _ (proj1 HP)) as (S1&S2). change (cz (cam_coords o Q) < 0) in S2. split; [unfold depth; rewrite Rabs_left in S1 by lra; exact S1|].
    destruct HP as ((HI&_&s&Hs&E)&_). apply (image_dir (bare c) Rectilinear r o (fin3 Q) Q W true HB (rep3_fin Q)); [split; auto|exact HI|exists s; auto]. }
  destruct (D _ _ _ A0) as (D0&I0). destruct (D _ _ _ A1) as (D1&I1). destruct (D _ _ _ A) as (_&I2).
  destruct (C79_segment (bare c) r o _ _ P0 P1 X0 X1 HB (rep3_fin P0) (rep3_fin P1) D0 D1 I0 I1) as (f&(F0&F1&MO&_)&HF).
  exists (f t). split.
  - destruct (Req_dec t 0) as [-> |N0]; [lra|]. destruct (Req_dec t 1) as [-> |N1]; [lra|]. pose proof (MO 0 t ltac:(lra) ltac:(lra) ltac:(lra)). pose proof (MO t 1 ltac:(lra) ltac:(lra) ltac:(lra)). lra.
  - eapply rep2_inj; [exact I2|apply HF; [exact HT|apply rep3_fin]].
Qed.
Print Assumptions C98_straight.

(** ** Lens or zoom *)
(** A camera with a Brown lens and a zoomed camera without show a point at one pixel exactly when the magnification of the lens at
    the radius of the point is the zoom. *)
Theorem C98_lens_or_zoom spline k1 k2 k3 K1 K2 K3 pr k r r' z o c c' p P X : rep k1 K1 -> rep k2 K2 -> rep k3 K3 -> rep_proj pr r ->
  lens_cam c k r o (brown_lens spline k1 k2 k3 pr) -> plain_cam c' k r' o -> f_x r' = z * f_x r -> f_y r' = z * f_y r -> center_x r' = center_x r -> center_y r' = center_y r ->
  rep3 p P -> shown_at k r o P X -> let s := radius (brown_frame r) X in 0 < s ->
  exists Y Y', rep2 (imageFromSpace c p true) Y /\ rep2 (imageFromSpace c' p true) Y' /\ (Y = Y' <-> z = 1 + K1 * s ^ 2 + K2 * s ^ 4 + K3 * s ^ 6).
Proof.
  intros H1 H2 H3 Hpr HC HC' EX EY CX CY Hp HS s R0.
  assert (HF : foc_ok r) by (destruct (lens_good _ _ _ _ _ HC) as ((_&HF&_)&_); exact HF).
  assert (HF' : foc_ok r') by (eapply plain_foc2; eauto).
  assert (NZ : z <> 0) by (intros ->; apply (proj1 HF'); rewrite EX; ring).
  destruct HF as (NX&NY). set (L := brown_frame r) in *.
  exists (radial L (brownR K1 K2 K3 s / s) X), (radial L z X). split; [|split].
  - eapply C87_pixel; eauto; [apply rep_brown_lens; auto; split; auto|]. intros x Hx. apply rep_brown; auto.
  - assert (EA : alphaR r' (radial L z X) = alphaR r X) by (unfold alphaR, radial, L, brown_frame; cbn [c1 c2 o_x o_y]; rewrite EX, CX; field; auto).
    assert (EB : betaR r' (radial L z X) = betaR r X) by (unfold betaR, radial, L, brown_frame; cbn [c1 c2 o_x o_y]; rewrite EY, CY; field; auto).
    apply (image_dir c' k r' o p P _ true HC' Hp (shown_showable _ _ _ _ _ HS)).
    + destruct HS as (HI&_). destruct k; cbn in *; rewrite ?EA, ?EB; exact HI.
    + destruct HS as (_&_&t&Ht&E). exists t. split; [exact Ht|]. rewrite E. f_equal. destruct k; cbn; rewrite ?EA, ?EB; reflexivity.
  - rewrite (brown_lam K1 K2 K3 s R0). set (g := 1 + _ + _ + _). clearbody g. split; [|intros ->; reflexivity].
    intros E. destruct (Req_dec (c1 X) (center_x r)) as [E1|N1].
    + destruct (Req_dec (c2 X) (center_y r)) as [E2|N2].
      * exfalso. revert R0. unfold s, radius, L, brown_frame; cbn. rewrite E1, E2. replace (Rsqr _ + Rsqr _) with 0 by (unfold Rsqr; field; auto). rewrite sqrt_0. lra.
      * apply (f_equal c2) in E. unfold radial, L, brown_frame in E; cbn in E. apply Rmult_eq_reg_r with (c2 X - center_y r); lra.
    + apply (f_equal c1) in E. unfold radial, L, brown_frame in E; cbn in E. apply Rmult_eq_reg_r with (c1 X - center_x r); lra.
Qed.
Print Assumptions C98_lens_or_zoom.
(** Landmarks at two distances from the centre tell a lens that only magnifies outwards (or only inwards) from every zoom. *)
Theorem C98_lens_not_zoom spline k1 k2 k3 K1 K2 K3 pr k r r' z o c c' p q P Q X W Y Z : rep k1 K1 -> rep k2 K2 -> rep k3 K3 -> rep_proj pr r ->
  (0 <= K1 /\ 0 <= K2 /\ 0 <= K3 \/ K1 <= 0 /\ K2 <= 0 /\ K3 <= 0) -> K1 <> 0 \/ K2 <> 0 \/ K3 <> 0 ->
  lens_cam c k r o (brown_lens spline k1 k2 k3 pr) -> plain_cam c' k r' o -> f_x r' = z * f_x r -> f_y r' = z * f_y r -> center_x r' = center_x r -> center_y r' = center_y r ->
  rep3 p P -> rep3 q Q -> shown_at k r o P X -> shown_at k r o Q W -> 0 < radius (brown_frame r) X -> radius (brown_frame r) X < radius (brown_frame r) W ->
  rep2 (imageFromSpace c p true) Y -> rep2 (imageFromSpace c' p true) Y -> rep2 (imageFromSpace c q true) Z -> rep2 (imageFromSpace c' q true) Z -> False.
Proof.
  intros H1 H2 H3 Hpr SG NE HC HC' EX EY CX CY Hp Hq HX HW R0 R1 I1 I2 I3 I4.
  destruct (C98_lens_or_zoom spline k1 k2 k3 K1 K2 K3 pr k r r' z o c c' p P X H1 H2 H3 Hpr HC HC' EX EY CX CY Hp HX R0) as (A&A'&B1&B2&B3).
  destruct (C98_lens_or_zoom spline k1 k2 k3 K1 K2 K3 pr k r r' z o c c' q Q W H1 H2 H3 Hpr HC HC' EX EY CX CY Hq HW ltac:(lra)) as (C&C'&D1&D2&D3).
  assert (EA : A = A') by (transitivity Y; [eapply rep2_inj; eauto|eapply rep2_inj; eauto]). assert (EC : C = C') by (transitivity Z; [eapply rep2_inj; eauto|eapply rep2_inj; eauto]).
  apply B3 in EA. apply D3 in EC. set (s := radius (brown_frame r) X) in *. set (t := radius (brown_frame r) W) in *.
  assert (P2 : s ^ 2 < t ^ 2) by nra. assert (Q2 : 0 < s ^ 2) by nra. assert (P4 : s ^ 4 < t ^ 4) by nra. assert (P6 : s ^ 6 < t ^ 6).
  { replace (s ^ 6) with (s ^ 2 * s ^ 4) by ring. replace (t ^ 6) with (t ^ 2 * t ^ 4) by ring. assert (0 < s ^ 4) by nra. nra. }
  set (x := s ^ 2) in *. set (x' := t ^ 2) in *. set (y := s ^ 4) in *. set (y' := t ^ 4) in *. set (w := s ^ 6) in *. set (w' := t ^ 6) in *. clearbody x x' y y' w w'.
  assert (E : K1 * (x' - x) + K2 * (y' - y) + K3 * (w' - w) = 0) by lra.
  destruct SG as [(S1&S2&S3)|(S1&S2&S3)].
  - pose proof (Rmult_le_pos _ _ S1 (Rlt_le _ _ (Rlt_Rminus _ _ P2))). pose proof (Rmult_le_pos _ _ S2 (Rlt_le _ _ (Rlt_Rminus _ _ P4))). pose proof (Rmult_le_pos _ _ S3 (Rlt_le _ _ (Rlt_Rminus _ _ P6))).
    assert (Z0 : K1 * (x' - x) = 0 /\ K2 * (y' - y) = 0 /\ K3 * (w' - w) = 0) by lra. destruct Z0 as (Z1&Z2&Z3).
    apply Rmult_integral in Z1, Z2, Z3. destruct NE as [N1|[N1|N1]]; apply N1; lra.
  - assert (T1 : 0 <= - K1) by lra. assert (T2 : 0 <= - K2) by lra. assert (T3 : 0 <= - K3) by lra.
    pose proof (Rmult_le_pos _ _ T1 (Rlt_le _ _ (Rlt_Rminus _ _ P2))). pose proof (Rmult_le_pos _ _ T2 (Rlt_le _ _ (Rlt_Rminus _ _ P4))). pose proof (Rmult_le_pos _ _ T3 (Rlt_le _ _ (Rlt_Rminus _ _ P6))).
    assert (Z0 : K1 * (x' - x) = 0 /\ K2 * (y' - y) = 0 /\ K3 * (w' - w) = 0) by lra. destruct Z0 as (Z1&Z2&Z3).
    apply Rmult_integral in Z1, Z2, Z3. destruct NE as [N1|[N1|N1]]; apply N1; lra.
Qed.
Print Assumptions C98_lens_not_zoom.
(** the pixels of the example lens: points at half a focal length from the centre, in the picture at 5/8 *)
Definition ex_seen_at (P : v3 R) : v2 R := V2 (2000 + 4375 * (cx P / cy P)) (1500 - 4375 * ((cz P - 10) / cy P)).
Lemma ex_seen c o P : lens_cam c Rectilinear ex_r o ex_lens -> cam_coords o P = cam_coords (ex_at 0) P -> 1 <= cy P -> 4 * (cx P * cx P + (cz P - 10) * (cz P - 10)) = cy P * cy P ->
  shown_at Rectilinear ex_r o P (ex_pixel 0 P) /\ lens_inverts ex_lens (brown_frame ex_r) (ex_pixel 0 P) /\ rep2 (imageFromSpace c (fin3 P) true) (ex_seen_at P).
Proof.
  intros HC EC H1 HR. assert (ER : radius (brown_frame ex_r) (ex_pixel 0 P) = / 2).
  { unfold radius, brown_frame, ex_pixel; cbn. transitivity (sqrt (/ 2 * / 2)); [|apply sqrt_square; lra].
    f_equal. unfold Rsqr. rewrite Rminus_0_r. set (u := cx P) in *. set (v := cz P - 10) in *. set (w := cy P) in *.
    transitivity ((4 * (u * u + v * v)) / (4 * (w * w))); [field; lra|rewrite HR; field; lra]. }
  assert (SH : shown_at Rectilinear ex_r o P (ex_pixel 0 P)) by (unfold shown_at; rewrite EC; exact (ex_shown 0 P H1)).
  split; [exact SH|]. split; [apply ex_lens_inverts; exact ER|].
  eapply rep2_eq; [eapply (C87_pixel c _ _ _ _ _ _ P (ex_pixel 0 P) (5 / 8) true HC ex_lens_rep (rep3_fin _) SH)|].
  - lra.
  - rewrite ER. intros x Hx. eapply rep_eq; [apply (rep_brown (Fin 1) (Fin 0) (Fin 0) 1 0 0 x (/ 2) (rep_Fin _) (rep_Fin _) (rep_Fin _) Hx)|]. unfold brownR. lra.
  - rewrite ER. unfold radial, brown_frame, ex_pixel, ex_seen_at; apply v2_ext; cbn; field; lra.
Qed.
Lemma ex_photo c o P : lens_cam c Rectilinear ex_r o ex_lens -> cam_coords o P = cam_coords (ex_at 0) P -> 1 <= cy P -> 4 * (cx P * cx P + (cz P - 10) * (cz P - 10)) = cy P * cy P ->
  photo Rectilinear ex_r o ex_lens (brown_frame ex_r) c P (ex_seen_at P) (ex_pixel 0 P).
Proof.
  intros HC EC H1 HR. destruct (ex_seen c o P HC EC H1 HR) as (A&B&C). split; [exact A|]. split; [exact B|]. exists (fin3 P). split; [apply rep3_fin|exact C].
Qed.
(** Four landmarks in general position, all at one distance from the centre: a camera without lens, at the same place and with a
    focal length larger by a quarter shows them at the same pixels. *)
Definition m1 : v3 R := V3 0 20 0.
Definition m2 : v3 R := V3 (15 / 2) 25 0.
Definition m3 : v3 R := V3 (- (15 / 2)) 25 0.
Definition m4 : v3 R := V3 24 52 0.
Theorem C98_one_radius_refuted : exists c c' r', lens_cam c Rectilinear ex_r (ex_at 0) ex_lens /\ plain_cam c' Rectilinear r' (ex_at 0) /\ f_x r' <> f_x ex_r /\
  area2 m1 m2 m3 <> 0 /\ area2 m1 m2 m4 <> 0 /\ area2 m1 m3 m4 <> 0 /\ area2 m2 m3 m4 <> 0 /\
  forall P, P = m1 \/ P = m2 \/ P = m3 \/ P = m4 -> exists Y X, photo Rectilinear ex_r (ex_at 0) ex_lens (brown_frame ex_r) c P Y X /\ sees Rectilinear r' (ex_at 0) c' P Y.
Proof.
  destruct (ex_lens_at 0) as (c&HC). destruct (any_r (ex_at 0) Rectilinear 4375 ltac:(lra)) as (c'&HC'). exists c, c', (Proj 4375 4375 2000 1500 4000 3000).
  split; [exact HC|]. split; [exact HC'|]. split; [cbn; lra|]. unfold area2. cbn [cx cy cz m1 m2 m3 m4]. do 4 (split; [lra|]).
  intros P HP. exists (ex_seen_at P), (ex_pixel 0 P).
  assert (G : 1 <= cy P /\ 4 * (cx P * cx P + (cz P - 10) * (cz P - 10)) = cy P * cy P) by (destruct HP as [-> |[-> |[-> | ->]]]; cbn; lra). destruct G as (G1&G2).
  split; [apply ex_photo; auto|]. pose proof (sees_rect c' 4375 0 P ltac:(lra) HC' G1) as S. rewrite Rminus_0_r in S. exact S.
Qed.
Print Assumptions C98_one_radius_refuted.
(** Forgetting the lens: what stands 20 metres away is measured at 16 metres. *)
Theorem C98_forgotten_refuted : exists c p, lens_cam c Rectilinear ex_r (ex_at 0) ex_lens /\
  spaceFromImage (bare c) (imageFromSpace c (fin3 m1) true) (on_Z (Fin 0)) = Some p /\ rep3 p (V3 0 16 0).
Proof.
  destruct (ex_lens_at 0) as (c&HC). destruct (ex_seen c (ex_at 0) m1 HC eq_refl ltac:(cbn; lra) ltac:(cbn; lra)) as (_&_&HY). unfold ex_seen_at in HY.
  assert (T : rad 90 = PI / 2) by (unfold rad; field). assert (T0 : rad 0 = 0) by (unfold rad; ring).
  assert (SI : forall x y, sight (ex_at 0) ex_r (V2 x y) = V3 ((x - 2000) / 3500) 1 (- ((y - 1500) / 3500))).
  { intros x y. rewrite sight_level by (cbn; lra). cbv zeta. cbn [heading_deg tilt_deg ex_at c1 c2 ex_r f_x f_y center_x center_y]. rewrite T, T0, sin_0, cos_0, sin_PI2, cos_PI2. apply v3_ext; cbn [cx cy cz]; field. }
  destruct (ground (bare c) ex_r (ex_at 0) _ _ (Fin 0) 0 (bare_plain _ _ _ _ _ HC) HY (rep_Fin 0)) as (p&Ep&Rp); [cbn; lra|rewrite SI; cbn; lra|].
  exists c, p. split; [exact HC|]. split; [exact Ep|]. eapply rep3_eq; [exact Rp|]. rewrite SI. apply v3_ext; cbn; field.
Qed.
Print Assumptions C98_forgotten_refuted.

(** ** Examples *)
Lemma ex_lens_any o : exists c, lens_cam c Rectilinear ex_r o ex_lens.
Proof.
  assert (H : rep_opar (opar_fin o) o) by (repeat split). destruct (init_rigid _ _ H) as (m&E&_).
  exists (lens_camera Rectilinear (proj_fin ex_r) m ex_lens), (proj_fin ex_r), m. split; [reflexivity|]. split; [repeat split|]. split; [split; simpl; lra|eauto].
Qed.
(** Two descriptions of one camera with a lens: they agree on four landmarks on the ground. *)
Example C98_landmarks_example : exists c c', lens_cam c Rectilinear ex_r (ex_at 0) ex_lens /\ lens_cam c' Rectilinear ex_r ex_again ex_lens /\ rep_lens ex_lens (brown_frame ex_r) /\
  opos ex_again = opos (ex_at 0) /\ rcross (rv_sub m1 (opos (ex_at 0))) (rv_sub m2 (opos (ex_at 0))) <> rv0 /\ elevation_m (ex_at 0) <> 0 /\
  m4 = rv_add (rv_scale (- (27 / 5)) m1) (rv_add (rv_scale (24 / 5) m2) (rv_scale (8 / 5) m3)) /\ triple (rv_sub m1 (opos (ex_at 0))) (rv_sub m2 (opos (ex_at 0))) (rv_sub m3 (opos (ex_at 0))) <> 0 /\
  area2 m1 m2 m3 <> 0 /\ area2 m1 m2 m4 <> 0 /\ area2 m1 m3 m4 <> 0 /\ area2 m2 m3 m4 <> 0 /\
  forall P, P = m1 \/ P = m2 \/ P = m3 \/ P = m4 -> lens_agree Rectilinear ex_r ex_lens (brown_frame ex_r) c c' (ex_at 0) ex_again P.
Proof.
  destruct (ex_lens_any (ex_at 0)) as (c&HC). destruct (ex_lens_any ex_again) as (c'&HC'). exists c, c'.
  assert (EM : camM ex_again = camM (ex_at 0)).
  { apply (attitude_same ex_again (ex_at 0)). right; left. cbn. splits; [exists 0%Z; lra|exists 0%Z; lra|exists (-1)%Z; lra]. }
  assert (EC : forall P, cam_coords ex_again P = cam_coords (ex_at 0) P) by (intros P; unfold cam_coords; rewrite EM; reflexivity).
  split; [exact HC|]. split; [exact HC'|]. split; [exact ex_lens_rep|]. split; [reflexivity|].
  split; [intros X; apply (f_equal cz) in X; cbn in X; lra|]. split; [cbn; lra|]. split; [unfold m1, m2, m3, m4; apply v3_ext; cbn; field|]. split; [unfold triple, rdot, rcross, m1, m2, m3; cbn; lra|].
  unfold area2. cbn [cx cy cz m1 m2 m3 m4]. do 4 (split; [lra|]).
  intros P HP. assert (G : 1 <= cy P /\ 4 * (cx P * cx P + (cz P - 10) * (cz P - 10)) = cy P * cy P) by (destruct HP as [-> |[-> |[-> | ->]]]; cbn; lra). destruct G as (G1&G2).
  eexists _, _, _. split; [apply ex_photo; auto|apply ex_photo; auto].
Qed.
(** The example lens inverts exactly at every sample radius (C20); here 3/10 besides 1/2. *)
Lemma ex_lens_inv3 x : rep x (327 / 1000) -> rep (l_inv ex_lens x) (3 / 10).
Proof.
  intros Hx. unfold ex_lens, brown_lens; cbn [l_inv].
  assert (IN : In (Fin (INR 3 / 10)) radii) by (unfold radii; apply in_map_iff; exists 3%nat; split; auto; apply in_seq; lia).
  rewrite (C20_exact_at_samples lookup_spline radii (brown_radius (Fin 1) (Fin 0) (Fin 0)) (map (fun i => brownR 1 0 0 (INR i / 10)) (seq 0 20))
      lookup_interpolates) with (x := Fin (INR 3 / 10)) (Y := 327 / 1000); auto.
  - eapply rep_eq; [apply rep_Fin|]. simpl. lra.
  - unfold radii. induction (seq 0 20); constructor; auto. apply rep_brown; auto; apply rep_Fin.
  - apply incrR_map. intros a b Hab. apply brownR_incr; try lra.
    assert (0 <= INR a) by apply pos_INR. assert (INR a < INR b) by (apply lt_INR; lia). lra.
  - unfold radii. rewrite map_length, seq_length. repeat constructor.
  - eapply rep_eq; [apply rep_brown; apply rep_Fin|]. unfold brownR. simpl. lra.
Qed.
Lemma ex_lens_conv s x : rep x s -> rep (l_conv ex_lens x) (s + s * s * s).
Proof. intros Hx. eapply rep_eq; [apply (rep_brown (Fin 1) (Fin 0) (Fin 0) 1 0 0 x s (rep_Fin _) (rep_Fin _) (rep_Fin _) Hx)|]. unfold brownR. ring. Qed.
Lemma ex_lens_inverts2 X : radius (brown_frame ex_r) X = / 2 \/ radius (brown_frame ex_r) X = 3 / 10 -> lens_inverts ex_lens (brown_frame ex_r) X.
Proof.
  intros [E|E]; [apply ex_lens_inverts; exact E|]. unfold lens_inverts; rewrite E; (split; [lra|]).
  exists (327 / 1000). split; [lra|]. split; [|exact ex_lens_inv3]. intros x Hx. eapply rep_eq; [apply ex_lens_conv; exact Hx|lra].
Qed.
Lemma ex2_photo c s P q : lens_cam c Rectilinear ex_r (ex_at s) ex_lens -> 1 <= cy P -> q = / 2 \/ q = 3 / 10 -> (cx P - s) * (cx P - s) + (cz P - 10) * (cz P - 10) = q * q * (cy P * cy P) ->
  radius (brown_frame ex_r) (ex_pixel s P) = q /\
  photo Rectilinear ex_r (ex_at s) ex_lens (brown_frame ex_r) c P (V2 (2000 + 3500 * (1 + q * q) * ((cx P - s) / cy P)) (1500 - 3500 * (1 + q * q) * ((cz P - 10) / cy P))) (ex_pixel s P).
Proof.
  intros HC H1 Hq HR. assert (ER : radius (brown_frame ex_r) (ex_pixel s P) = q).
  { unfold radius, brown_frame, ex_pixel; cbn. transitivity (sqrt (q * q)); [|apply sqrt_square; destruct Hq; lra].
    f_equal. unfold Rsqr. set (u := cx P - s) in *. set (v := cz P - 10) in *. set (w := cy P) in *.
    transitivity ((u * u + v * v) / (w * w)); [field; lra|rewrite HR; field; lra]. }
  split; [exact ER|]. pose proof (ex_shown s P H1) as SH. split; [exact SH|]. split; [apply ex_lens_inverts2; rewrite ER; exact Hq|]. exists (fin3 P). split; [apply rep3_fin|].
  eapply rep2_eq; [eapply (C87_pixel c _ _ _ _ _ _ P (ex_pixel s P) (q + q * q * q) true HC ex_lens_rep (rep3_fin _) SH)|].
  - rewrite ER. destruct Hq; lra.
  - rewrite ER. apply ex_lens_conv.
  - rewrite ER. unfold radial, brown_frame, ex_pixel; apply v2_ext; cbn; field; split; try lra; destruct Hq; lra.
Qed.
(** The two ends and the middle of a beam: the pixels of the picture are not on one line, the corrected ones are.  The middle and the
    ends are at two radii. *)
Example C98_straight_example : exists c A B M XA XB XM, lens_cam c Rectilinear ex_r (ex_at 0) ex_lens /\ upright (ex_at 0) /\
  let ph := photo Rectilinear ex_r (ex_at 0) ex_lens (brown_frame ex_r) c in
  ph (V3 8 20 4) A XA /\ ph (V3 (-8) 20 4) B XB /\ ph (between3 (V3 8 20 4) (V3 (-8) 20 4) (/ 2)) M XM /\ ~ collinear A M B /\ XM = between2 XA XB (/ 2) /\
  0 < radius (brown_frame ex_r) XM /\ radius (brown_frame ex_r) XM < radius (brown_frame ex_r) XA /\ stands (ex_at 0) (between3 (V3 8 20 4) (V3 (-8) 20 4) (/ 2)) 20 0.
Proof.
  destruct (ex_lens_any (ex_at 0)) as (c&HC). set (Md := between3 (V3 8 20 4) (V3 (-8) 20 4) (/ 2)).
  destruct (ex2_photo c 0 (V3 8 20 4) (/ 2) HC) as (R1&P1); [cbn; lra|auto|cbn; lra|]. destruct (ex2_photo c 0 (V3 (-8) 20 4) (/ 2) HC) as (R2&P2); [cbn; lra|auto|cbn; lra|].
  destruct (ex2_photo c 0 Md (3 / 10) HC) as (R3&P3); [cbn; lra|auto|cbn; lra|].
  exists c. do 6 eexists. split; [exact HC|]. split; [apply at_upright|]. cbv zeta. split; [exact P1|]. split; [exact P2|]. split; [exact P3|]. split.
  - unfold collinear, Md. cbn. lra.
  - split; [unfold ex_pixel, between2, Md; apply v2_ext; cbn; field|]. rewrite R3, R1. split; [lra|]. split; [lra|]. unfold stands, Md. cbn. rewrite sin_0, cos_0. lra.
Qed.
(** A point and the one behind it, seen through the lens from one place and from another *)
Example C98_parallax_example : exists c c' c'', let P := V3 10 20 10 in let P' := V3 (5 / 2) 5 10 in let X := V2 3750 1500 in let Y := V2 (8375 / 2) 1500 in
  lens_cam c Rectilinear ex_r (ex_at 0) ex_lens /\ lens_cam c' Rectilinear ex_r ex_again ex_lens /\ lens_cam c'' Rectilinear ex_r (ex_at 4) ex_lens /\
  opos ex_again = opos (ex_at 0) /\ rcross (rv_sub P (opos (ex_at 0))) (rv_sub (opos (ex_at 4)) (opos (ex_at 0))) <> rv0 /\ P <> P' /\
  photo Rectilinear ex_r (ex_at 0) ex_lens (brown_frame ex_r) c P Y X /\ photo Rectilinear ex_r (ex_at 0) ex_lens (brown_frame ex_r) c P' Y X /\
  photo Rectilinear ex_r ex_again ex_lens (brown_frame ex_r) c' P Y X /\ photo Rectilinear ex_r ex_again ex_lens (brown_frame ex_r) c' P' Y X /\
  photo Rectilinear ex_r (ex_at 4) ex_lens (brown_frame ex_r) c'' P (V2 (2000 + 3500 * (327 / 1000)) 1500) (V2 3050 1500) /\
  photo Rectilinear ex_r (ex_at 4) ex_lens (brown_frame ex_r) c'' P' (V2 (2000 - 3500 * (327 / 1000)) 1500) (V2 950 1500).
Proof.
  destruct (ex_lens_any (ex_at 0)) as (c&HC). destruct (ex_lens_any ex_again) as (c'&HC'). destruct (ex_lens_any (ex_at 4)) as (c''&HC''). exists c, c', c''. cbv zeta.
  assert (EM : camM ex_again = camM (ex_at 0)).
  { apply (attitude_same ex_again (ex_at 0)). right; left. cbn. splits; [exists 0%Z; lra|exists 0%Z; lra|exists (-1)%Z; lra]. }
  assert (EC : forall P, cam_coords ex_again P = cam_coords (ex_at 0) P) by (intros P; unfold cam_coords; rewrite EM; reflexivity).
  assert (PH : forall k r o l L c P Y X Y' X', photo k r o l L c P Y X -> Y = Y' -> X = X' -> photo k r o l L c P Y' X') by (intros; subst; auto).
  split; [exact HC|]. split; [exact HC'|]. split; [exact HC''|]. split; [reflexivity|]. split; [intros X; apply (f_equal cz) in X; cbn in X; lra|].
  split; [intros X; apply (f_equal cx) in X; cbn in X; lra|].
  split; [eapply PH; [apply (ex2_photo c 0 _ (/ 2) HC); [cbn; lra|auto|cbn; lra]| |]; apply v2_ext; cbn; field|].
  split; [eapply PH; [apply (ex2_photo c 0 _ (/ 2) HC); [cbn; lra|auto|cbn; lra]| |]; apply v2_ext; cbn; field|].
  split; [eapply PH; [apply (ex_photo c' ex_again _ HC' (EC _)); [cbn; lra|cbn; lra]| |]; apply v2_ext; cbn; field|].
  split; [eapply PH; [apply (ex_photo c' ex_again _ HC' (EC _)); [cbn; lra|cbn; lra]| |]; apply v2_ext; cbn; field|].
  split; [eapply PH; [apply (ex2_photo c'' 4 _ (3 / 10) HC''); [cbn; lra|auto|cbn; lra]| |]; apply v2_ext; cbn; field|].
  eapply PH; [apply (ex2_photo c'' 4 _ (3 / 10) HC''); [cbn; lra|auto|cbn; lra]| |]; apply v2_ext; cbn; field.
Qed.
