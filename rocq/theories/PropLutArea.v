(** * C50: the values of the table of pixel areas *)
Require Import Reals Lra Psatz List Bool Arith Lia.
From Verif Require Import Num Vec Orientation OrientationFacts PropOrientation Projection ProjectionFacts Ray CameraTransform CameraFacts PropCamera PropRay Border PropBorder.
From Verif Require Import FitTerms PropFitTerms PropPerspective PropSensitivity PropResect PropTurn Lut PropLut.
Import ListNotations.
Open Scope R_scope.

(** ** Specification *)
(** How far down the line of sight of the pixel position goes for every metre of depth of a rectilinear camera: 1 straight down, 0 level *)
Definition descent (o : opar R) (r : proj R) (Q : v2 R) : R :=
  cos (rad (tilt_deg o)) + sin (rad (tilt_deg o)) * (cos (rad (roll_deg o)) * down r Q - sin (rad (roll_deg o)) * across r Q).
(** A rectangle of the picture, its corners in order *)
Definition block (x1 x2 y1 y2 : R) : list (v2 R) := [V2 x1 y1; V2 x2 y1; V2 x2 y2; V2 x1 y2].
(** The area on the ground of a rectangle of the picture: the area at the depth H (H/f metres for a pixel), divided by the descents *)
Definition block_area (o : opar R) (r : proj R) (x1 x2 y1 y2 : R) : R :=
  let d x y := descent o r (V2 x y) in let H := elevation_m o in
  H * H * ((x2 - x1) / f_x r) * ((y2 - y1) / f_y r) * (/ (d x1 y1 * d x2 y1 * d x2 y2) + / (d x1 y1 * d x2 y2 * d x1 y2)) / 2.
Definition pixel_area (o : opar R) (r : proj R) (x y : R) : R := block_area o r (x - / 2) (x + / 2) (y - / 2) (y + / 2).

(** ** Triangles on the ground *)
Lemma rdet_move M a b c : rdet (V3 (rm_mul_v M a) (rm_mul_v M b) (rm_mul_v M c)) = rdet M * rdet (V3 a b c).
Proof.
  destruct M as [[a1 a2 a3] [b1 b2 b3] [d1 d2 d3]], a as [x y z], b as [x' y' z'], c as [x'' y'' z'']. cbv [rdet rdot rcross rm_mul_v cx cy cz]. ring.
Qed.
Lemma up_col o V : cz V = rdot (V3 (sin (rad (roll_deg o)) * sin (rad (tilt_deg o))) (cos (rad (roll_deg o)) * sin (rad (tilt_deg o))) (cos (rad (tilt_deg o)))) (rm_mul_v (camM o) V).
Proof.
  pose proof (trans_mul (camM o) V (rotm_cols _ _ _)) as E. apply (f_equal cz) in E. rewrite <- E at 1. generalize (rm_mul_v (camM o) V). intros [x y z]. unfold camM, rotm, rm_trans, rm_mul_v, rdot. cbn [cx cy cz]. ring.
Qed.
Lemma descent_down o r Q f P : cam_coords o P = rv_scale f (rayR Rectilinear r Q) -> cz P = elevation_m o - f * descent o r Q.
Proof.
  intros E. unfold cam_coords in E. pose proof (up_col o (rv_sub P (opos o))) as U. rewrite E in U. unfold rayR, alphaR, betaR in U. fold (across r Q) (down r Q) in U. unfold descent, rdot in *. cbn [cx cy cz rv_scale map3v rv_sub zip3v opos] in U. lra.
Qed.
Lemma meets_descent o r Q f P : elevation_m o <> 0 -> meets o Rectilinear r Q f P -> descent o r Q <> 0 /\ f = elevation_m o / descent o r Q.
Proof.
  intros HE (HZ&E). apply descent_down in E. rewrite HZ in E. assert (N : descent o r Q <> 0) by (intros Z0; rewrite Z0 in E; lra). split; [exact N|]. apply (Rmult_eq_reg_r (descent o r Q)); [|exact N]. unfold Rdiv. rewrite Rmult_assoc, Rinv_l by exact N. lra.
Qed.
Lemma descent_meets o r Q : descent o r Q <> 0 -> exists P, meets o Rectilinear r Q (elevation_m o / descent o r Q) P.
Proof.
  intros N. set (f := elevation_m o / descent o r Q). exists (rv_add (opos o) (rm_mul_v (rm_trans (camM o)) (rv_scale f (rayR Rectilinear r Q)))).
  assert (E : cam_coords o (rv_add (opos o) (rm_mul_v (rm_trans (camM o)) (rv_scale f (rayR Rectilinear r Q)))) = rv_scale f (rayR Rectilinear r Q)).
  { unfold cam_coords. rewrite <- (mul_trans (camM o) (rv_scale f (rayR Rectilinear r Q))) at 2 by apply rotm_rows. f_equal. generalize (rm_mul_v (rm_trans (camM o)) (rv_scale f (rayR Rectilinear r Q))). intros [x y z]. apply v3_ext; cbn; ring. }
  split; [|exact E]. rewrite (descent_down o r Q f _ E). unfold f. field. exact N.
Qed.
(** The volume of the pyramid over a triangle of the ground, computed twice *)
Lemma tri_ground o r Q1 Q2 Q3 f1 f2 f3 P1 P2 P3 : meets o Rectilinear r Q1 f1 P1 -> meets o Rectilinear r Q2 f2 P2 -> meets o Rectilinear r Q3 f3 P3 ->
  - elevation_m o * (2 * tri2 (ground P1) (ground P2) (ground P3)) = f1 * f2 * f3 * rdet (V3 (rayR Rectilinear r Q1) (rayR Rectilinear r Q2) (rayR Rectilinear r Q3)).
Proof.
  intros (Z1&E1) (Z2&E2) (Z3&E3). pose proof (rdet_move (camM o) (rv_sub P1 (opos o)) (rv_sub P2 (opos o)) (rv_sub P3 (opos o))) as D. unfold cam_coords in E1, E2, E3. rewrite E1, E2, E3 in D.
  rewrite (proj2 (camM_rot o)), Rmult_1_l in D. transitivity (rdet (V3 (rv_sub P1 (opos o)) (rv_sub P2 (opos o)) (rv_sub P3 (opos o)))).
  - destruct P1 as [x1 y1 z1], P2 as [x2 y2 z2], P3 as [x3 y3 z3]. cbn [cz] in Z1, Z2, Z3. subst. unfold rdet, rdot, rcross, tri2, cross2, ground, opos. cbn. field.
  - rewrite <- D. generalize (rayR Rectilinear r Q1), (rayR Rectilinear r Q2), (rayR Rectilinear r Q3). intros [a b c] [a' b' c'] [a'' b'' c'']. unfold rdet, rdot, rcross. cbn. ring.
Qed.
Lemma shoelace_block o r x1 x2 y1 y2 P1 P2 P3 P4 : elevation_m o <> 0 -> f_x r <> 0 -> f_y r <> 0 ->
  Forall2 (fun Q P => exists f, meets o Rectilinear r Q f P) (block x1 x2 y1 y2) [P1; P2; P3; P4] ->
  shoelace (ground P1) (ground P2) (ground P3) (ground P4) = - block_area o r x1 x2 y1 y2.
Proof.
  intros HE NX NY F. unfold block in F.
  inversion F as [|? ? ? ? (f1&M1) F1]; subst. inversion F1 as [|? ? ? ? (f2&M2) F2]; subst. inversion F2 as [|? ? ? ? (f3&M3) F3]; subst. inversion F3 as [|? ? ? ? (f4&M4) _]; subst. clear F F1 F2 F3.
  destruct (meets_descent _ _ _ _ _ HE M1) as (N1&E1). destruct (meets_descent _ _ _ _ _ HE M2) as (N2&E2). destruct (meets_descent _ _ _ _ _ HE M3) as (N3&E3). destruct (meets_descent _ _ _ _ _ HE M4) as (N4&E4).
  pose proof (tri_ground _ _ _ _ _ _ _ _ _ _ _ M1 M2 M3) as T1. pose proof (tri_ground _ _ _ _ _ _ _ _ _ _ _ M1 M3 M4) as T2.
  assert (ES : shoelace (ground P1) (ground P2) (ground P3) (ground P4) = tri2 (ground P1) (ground P2) (ground P3) + tri2 (ground P1) (ground P3) (ground P4)) by (unfold shoelace, tri2, cross2; field).
  rewrite E1, E2, E3 in T1. rewrite E1, E3, E4 in T2. unfold block_area. cbv zeta. rewrite ES.
  set (d1 := descent o r (V2 x1 y1)) in *. set (d2 := descent o r (V2 x2 y1)) in *. set (d3 := descent o r (V2 x2 y2)) in *. set (d4 := descent o r (V2 x1 y2)) in *.
  set (A := tri2 (ground P1) (ground P2) (ground P3)) in *. set (B := tri2 (ground P1) (ground P3) (ground P4)) in *. clearbody A B d1 d2 d3 d4. clear M1 M2 M3 M4 ES E1 E2 E3 E4.
  unfold rayR, alphaR, betaR, rdet, rdot, rcross in T1, T2. cbn [cx cy cz c1 c2] in T1, T2. set (H := elevation_m o) in *. clearbody H.
  assert (EA : A = - (H * H * ((x2 - x1) / f_x r) * ((y2 - y1) / f_y r) * / (d1 * d2 * d3) / 2)).
  { apply (Rmult_eq_reg_l (- H * 2)); [|lra]. transitivity (- H * (2 * A)); [ring|]. rewrite T1. field. auto. }
  assert (EB : B = - (H * H * ((x2 - x1) / f_x r) * ((y2 - y1) / f_y r) * / (d1 * d3 * d4) / 2)).
  { apply (Rmult_eq_reg_l (- H * 2)); [|lra]. transitivity (- H * (2 * B)); [ring|]. rewrite T2. field. auto. }
  rewrite EA, EB. field. auto 10.
Qed.
Lemma block_area_nonneg o r x1 x2 y1 y2 : 0 < f_x r -> 0 < f_y r -> x1 <= x2 -> y1 <= y2 -> (forall Q, In Q (block x1 x2 y1 y2) -> 0 < descent o r Q) -> 0 <= block_area o r x1 x2 y1 y2.
Proof.
  intros F1 F2 X Y D. unfold block_area. cbv zeta. assert (D1 := D (V2 x1 y1) ltac:(cbn; auto)). assert (D2 := D (V2 x2 y1) ltac:(cbn; auto)). assert (D3 := D (V2 x2 y2) ltac:(cbn; auto)). assert (D4 := D (V2 x1 y2) ltac:(cbn; auto 10)).
  assert (I1 : 0 < / (descent o r (V2 x1 y1) * descent o r (V2 x2 y1) * descent o r (V2 x2 y2))) by (apply Rinv_0_lt_compat; repeat apply Rmult_lt_0_compat; auto).
  assert (I2 : 0 < / (descent o r (V2 x1 y1) * descent o r (V2 x2 y2) * descent o r (V2 x1 y2))) by (apply Rinv_0_lt_compat; repeat apply Rmult_lt_0_compat; auto).
  assert (A1 : 0 <= (x2 - x1) / f_x r) by (apply Rmult_le_pos; [lra|apply Rlt_le, Rinv_0_lt_compat; auto]). assert (A2 : 0 <= (y2 - y1) / f_y r) by (apply Rmult_le_pos; [lra|apply Rlt_le, Rinv_0_lt_compat; auto]).
  apply Rmult_le_pos; [|lra]. apply Rmult_le_pos; [|lra]. apply Rmult_le_pos; [|exact A2]. apply Rmult_le_pos; [|exact A1]. pose proof (Rle_0_sqr (elevation_m o)) as S0. exact S0.
Qed.
(** The rectangle on the ground *)
Lemma block_ground o r x1 x2 y1 y2 P1 P2 P3 P4 : elevation_m o <> 0 -> 0 < f_x r -> 0 < f_y r -> x1 <= x2 -> y1 <= y2 -> (forall Q, In Q (block x1 x2 y1 y2) -> 0 < descent o r Q) ->
  Forall2 (fun Q P => exists f, meets o Rectilinear r Q f P) (block x1 x2 y1 y2) [P1; P2; P3; P4] ->
  Rabs (shoelace (ground P1) (ground P2) (ground P3) (ground P4)) = block_area o r x1 x2 y1 y2.
Proof.
  intros HE F1 F2 X Y D F. rewrite (shoelace_block o r x1 x2 y1 y2) by (auto; lra). rewrite Rabs_Ropp. apply Rabs_right, Rle_ge, block_area_nonneg; auto.
Qed.
Lemma corners_block x y : corners x y = block (x - / 2) (x + / 2) (y - / 2) (y + / 2).
Proof. reflexivity. Qed.
Lemma entry_value o r x y undef v : 0 < elevation_m o -> 0 < f_x r -> 0 < f_y r -> entry o Rectilinear r x y undef v ->
  ((forall Q, In Q (corners x y) -> 0 < descent o r Q) -> rep v (pixel_area o r x y)) /\
  ((exists Q, In Q (corners x y) /\ descent o r Q < 0) -> v = undef).
Proof.
  intros HE F1 F2 (E1&E2&_). split.
  - intros D. assert (G : forall Q, In Q (corners x y) -> exists P, exists f, 0 <= f /\ meets o Rectilinear r Q f P).
    { intros Q HI. specialize (D Q HI). destruct (descent_meets o r Q) as (P&M); [lra|]. exists P. eexists. split; [|exact M]. apply Rlt_le, Rdiv_lt_0_compat; auto. }
    rewrite corners_block in *. unfold block in G. destruct (G (V2 (x - / 2) (y - / 2))) as (P1&f1&L1&M1); [cbn; auto|]. destruct (G (V2 (x + / 2) (y - / 2))) as (P2&f2&L2&M2); [cbn; auto|].
    destruct (G (V2 (x + / 2) (y + / 2))) as (P3&f3&L3&M3); [cbn; auto|]. destruct (G (V2 (x - / 2) (y + / 2))) as (P4&f4&L4&M4); [cbn; auto 10|].
    eapply rep_eq; [apply (E1 P1 P2 P3 P4); constructor; [exists f1; auto|]; constructor; [exists f2; auto|]; constructor; [exists f3; auto|]; constructor; [exists f4; auto|]; constructor|].
    unfold pixel_area. apply block_ground; auto; try lra. repeat (constructor; [eexists; eassumption|]). constructor.
  - intros (Q&HI&D). destruct (descent_meets o r Q) as (P&M); [lra|]. apply (E2 Q _ P HI M). unfold Rdiv. assert (/ descent o r Q < 0) by (apply Rinv_lt_0_compat; auto). nra.
Qed.

(** ** C50 *)
(** Every entry of the table is the value of the formula if the corners of the pixel look down, and the given value if one of them looks up. *)
Theorem C50_value c r o w h undef lut : plain_cam c Rectilinear r o -> 0 < elevation_m o -> 0 < f_x r -> 0 < f_y r -> generateLUT_whole c w h undef = Some lut ->
  forall x y row v, nth_error lut y = Some row -> nth_error row x = Some v ->
  ((forall Q, In Q (corners (INR x) (INR y)) -> 0 < descent o r Q) -> rep v (pixel_area o r (INR x) (INR y))) /\
  ((exists Q, In Q (corners (INR x) (INR y)) /\ descent o r Q < 0) -> v = undef).
Proof.
  intros HC HE F1 F2 HL x y row v Hy Hx. destruct (C50_whole_image c Rectilinear r o w h undef HC) as (lut'&E&_&K); [lra|intros; exact I|]. rewrite E in HL. injection HL as ->.
  destruct (K y row Hy) as (_&K2). apply entry_value; auto.
Qed.
Print Assumptions C50_value.
Theorem C50_value_slice c r o w h undef lut : plain_cam c Rectilinear r o -> 0 < elevation_m o -> 0 < f_x r -> 0 < f_y r -> generateLUT c w h undef = Some lut ->
  forall y v, nth_error lut y = Some v ->
  ((forall Q, In Q (corners (INR w / 2) (INR y)) -> 0 < descent o r Q) -> rep v (pixel_area o r (INR w / 2) (INR y))) /\
  ((exists Q, In Q (corners (INR w / 2) (INR y)) /\ descent o r Q < 0) -> v = undef).
Proof.
  intros HC HE F1 F2 HL y v Hy. destruct (C50_slice c Rectilinear r o w h undef HC) as (lut'&E&_&K); [lra|intros; exact I|]. rewrite E in HL. injection HL as ->. apply entry_value; auto.
Qed.
Print Assumptions C50_value_slice.

(** Without roll the descent is a function of the row ... *)
Definition row_descent (o : opar R) (r : proj R) (y : R) : R := cos (rad (tilt_deg o)) + sin (rad (tilt_deg o)) * ((y - center_y r) / f_y r).
Lemma no_roll_descent o r x y : roll_deg o = 0 -> descent o r (V2 x y) = row_descent o r y.
Proof. intros ER. unfold descent, row_descent, down. rewrite ER, rad00, sin_0, cos_0. cbn [c2]. ring. Qed.
(** ... and so is the area. *)
Definition row_area (o : opar R) (r : proj R) (n y1 y2 : R) : R :=
  elevation_m o * elevation_m o * (n / f_x r) * ((y2 - y1) / f_y r) * (row_descent o r y1 + row_descent o r y2) / (2 * (row_descent o r y1 * row_descent o r y1) * (row_descent o r y2 * row_descent o r y2)).
Lemma no_roll_area o r x1 x2 y1 y2 : roll_deg o = 0 -> f_x r <> 0 -> f_y r <> 0 -> row_descent o r y1 <> 0 -> row_descent o r y2 <> 0 -> block_area o r x1 x2 y1 y2 = row_area o r (x2 - x1) y1 y2.
Proof. intros ER F1 F2 N1 N2. unfold block_area, row_area. cbv zeta. rewrite !no_roll_descent by exact ER. field. auto. Qed.
Lemma no_roll_corners o r x y : roll_deg o = 0 -> (forall Q, In Q (corners x y) -> descent o r Q = row_descent o r (y - / 2) \/ descent o r Q = row_descent o r (y + / 2)).
Proof. intros ER Q HI. destruct HI as [<-|[<-|[<-|[<-|[]]]]]; rewrite no_roll_descent by exact ER; auto. Qed.
(** The table of a camera without roll needs only one column: each entry of the whole table is that of the slice. *)
Theorem C50_one_column c r o w h undef slice lut : plain_cam c Rectilinear r o -> roll_deg o = 0 -> 0 < elevation_m o -> 0 < f_x r -> 0 < f_y r ->
  generateLUT c w h undef = Some slice -> generateLUT_whole c w h undef = Some lut ->
  forall x y row s v, nth_error slice y = Some s -> nth_error lut y = Some row -> nth_error row x = Some v -> row_descent o r (INR y - / 2) <> 0 -> row_descent o r (INR y + / 2) <> 0 ->
  (exists a, 0 < a /\ rep s a /\ rep v a /\ a = row_area o r 1 (INR y - / 2) (INR y + / 2)) \/ (s = undef /\ v = undef).
Proof.
  intros HC ER HE F1 F2 HS HL x y row s v Hs Hy Hx N1 N2.
  destruct (C50_value c r o w h undef lut HC HE F1 F2 HL x y row v Hy Hx) as (V1&V2'). destruct (C50_value_slice c r o w h undef slice HC HE F1 F2 HS y s Hs) as (S1&S2).
  set (d1 := row_descent o r (INR y - / 2)) in *. set (d2 := row_descent o r (INR y + / 2)) in *.
  destruct (Rlt_le_dec d1 0) as [L1|L1]; [|destruct (Rlt_le_dec d2 0) as [L2|L2]].
  - right. split; [apply S2|apply V2']; eexists; (split; [left; reflexivity|]); rewrite no_roll_descent by exact ER; exact L1.
  - right. split; [apply S2|apply V2']; eexists; (split; [right; right; left; reflexivity|]); rewrite no_roll_descent by exact ER; exact L2.
  - left. assert (P1 : 0 < d1) by lra. assert (P2 : 0 < d2) by lra. exists (row_area o r 1 (INR y - / 2) (INR y + / 2)).
    assert (D : forall x0 Q, In Q (corners x0 (INR y)) -> 0 < descent o r Q) by (intros x0 Q HI; destruct (no_roll_corners o r x0 (INR y) ER Q HI) as [E|E]; rewrite E; assumption).
    assert (EA : forall x0, pixel_area o r x0 (INR y) = row_area o r 1 (INR y - / 2) (INR y + / 2)).
    { intros x0. unfold pixel_area. rewrite no_roll_area by (auto; lra). f_equal. lra. }
    splits; [|rewrite <- (EA (INR w / 2)); apply S1, D|rewrite <- (EA (INR x)); apply V1, D|reflexivity].
    unfold row_area. fold d1 d2. assert (0 < 1 / f_x r) by (apply Rdiv_lt_0_compat; lra). assert (0 < (INR y + / 2 - (INR y - / 2)) / f_y r) by (apply Rdiv_lt_0_compat; lra).
    apply Rdiv_lt_0_compat; repeat apply Rmult_lt_0_compat; lra.
Qed.
Print Assumptions C50_one_column.
(** Looking straight down every pixel covers H/f_x by H/f_y metres. *)
Theorem C50_nadir c r o w h undef lut : plain_cam c Rectilinear r o -> roll_deg o = 0 -> tilt_deg o = 0 -> 0 < elevation_m o -> 0 < f_x r -> 0 < f_y r -> generateLUT_whole c w h undef = Some lut ->
  forall x y row v, nth_error lut y = Some row -> nth_error row x = Some v -> rep v (elevation_m o / f_x r * (elevation_m o / f_y r)).
Proof.
  intros HC ER ET HE F1 F2 HL x y row v Hy Hx. destruct (C50_value c r o w h undef lut HC HE F1 F2 HL x y row v Hy Hx) as (V1&_).
  assert (D : forall z, row_descent o r z = 1) by (intros z; unfold row_descent; rewrite ET, rad00, sin_0, cos_0; ring).
  eapply rep_eq; [apply V1|].
  - intros Q HI. destruct (no_roll_corners o r _ _ ER Q HI) as [E|E]; rewrite E, D; lra.
  - unfold pixel_area. rewrite no_roll_area by (rewrite ?D; auto; lra). unfold row_area. rewrite !D. field. lra.
Qed.
Print Assumptions C50_nadir.
(** Rows add up: *)
Lemma row_descent_lin o r y1 y2 y : row_descent o r y * (y2 - y1) = row_descent o r y1 * (y2 - y) + row_descent o r y2 * (y - y1).
Proof. unfold row_descent, Rdiv. ring. Qed.
Lemma row_descent_between o r y1 y2 y : 0 < row_descent o r y1 -> 0 < row_descent o r y2 -> y1 <= y <= y2 -> 0 < row_descent o r y.
Proof.
  intros D1 D2 (A&B). destruct (Req_dec y1 y2) as [<-|N]; [replace y with y1 by lra; exact D1|]. pose proof (row_descent_lin o r y1 y2 y) as E.
  assert (0 < row_descent o r y1 * (y2 - y) + row_descent o r y2 * (y - y1)).
  { destruct (Req_dec y y1) as [->|N1]; [assert (0 < row_descent o r y1 * (y2 - y1)) by (apply Rmult_lt_0_compat; lra); lra|].
    assert (0 < row_descent o r y2 * (y - y1)) by (apply Rmult_lt_0_compat; lra). assert (0 <= row_descent o r y1 * (y2 - y)) by (apply Rmult_le_pos; lra). lra. }
  rewrite <- E in H. apply (Rmult_lt_reg_r (y2 - y1)); lra.
Qed.
Lemma row_area_add o r n y1 y2 y3 : f_x r <> 0 -> f_y r <> 0 -> row_descent o r y1 <> 0 -> row_descent o r y2 <> 0 -> row_descent o r y3 <> 0 -> row_area o r n y1 y2 + row_area o r n y2 y3 = row_area o r n y1 y3.
Proof.
  intros F1 F2 N1 N2 N3. unfold row_area. set (b := fun y => (y - center_y r) / f_y r). assert (E : forall u v, (v - u) / f_y r = b v - b u) by (intros; unfold b; field; auto). rewrite !E.
  unfold row_descent in *. fold (b y1) (b y2) (b y3) in *. generalize dependent (b y1). generalize dependent (b y2). generalize dependent (b y3). clear E b. intros b3 N3 b2 N2 b1 N1. field. auto.
Qed.
(** What is counted with the table: the entries of some rows, times the number of columns, are the area that the outline of this rectangle has on
    the ground, however many pixels it has. *)
Theorem C50_counted c r o w h undef lut : plain_cam c Rectilinear r o -> roll_deg o = 0 -> 0 < elevation_m o -> 0 < f_x r -> 0 < f_y r -> generateLUT c w h undef = Some lut ->
  forall y n x1 x2 P1 P2 P3 P4, (y + n <= h)%nat -> x1 <= x2 ->
  Forall2 (fun Q P => exists f, 0 < f /\ meets o Rectilinear r Q f P) (block x1 x2 (INR y - / 2) (INR (y + n) - / 2)) [P1; P2; P3; P4] ->
  exists areas, Forall2 rep (firstn n (skipn y lut)) areas /\ length areas = n /\ (x2 - x1) * rsum areas = Rabs (shoelace (ground P1) (ground P2) (ground P3) (ground P4)).
Proof.
  intros HC ER HE F1 F2 HL y n x1 x2 P1 P2 P3 P4 HN X F.
  assert (POS : forall Q f P, 0 < f -> meets o Rectilinear r Q f P -> 0 < descent o r Q).
  { intros Q f P Hf M. destruct (meets_descent o r Q f P) as (N0&E); [lra|exact M|]. apply Rnot_le_lt. intros L. assert (D0 : descent o r Q < 0) by lra. assert (/ descent o r Q < 0) by (apply Rinv_lt_0_compat; auto). unfold Rdiv in E. nra. }
  assert (FM : Forall2 (fun Q P => exists f, meets o Rectilinear r Q f P) (block x1 x2 (INR y - / 2) (INR (y + n) - / 2)) [P1; P2; P3; P4]) by (revert F; generalize (block x1 x2 (INR y - / 2) (INR (y + n) - / 2)), [P1; P2; P3; P4]; intros l l' F; induction F as [|Q P l l' (f&_&M) _ IH]; constructor; eauto).
  assert (DA : 0 < row_descent o r (INR y - / 2) /\ 0 < row_descent o r (INR (y + n) - / 2)).
  { unfold block in F. inversion F as [|? ? ? ? (f1&Hf1&M1) G1]; subst. inversion G1 as [|? ? ? ? (f2&Hf2&M2) G2]; subst. inversion G2 as [|? ? ? ? (f3&Hf3&M3) G3]; subst.
    rewrite <- (no_roll_descent o r x1 (INR y - / 2) ER), <- (no_roll_descent o r x2 (INR (y + n) - / 2) ER). split; [exact (POS _ _ _ Hf1 M1)|exact (POS _ _ _ Hf3 M3)]. }
  destruct DA as (DA&DB). assert (LN : INR y <= INR (y + n)) by (apply le_INR; lia).
  assert (BP : forall Q, In Q (block x1 x2 (INR y - / 2) (INR (y + n) - / 2)) -> 0 < descent o r Q).
  { intros Q HI. destruct HI as [<-|[<-|[<-|[<-|[]]]]]; rewrite no_roll_descent by exact ER; assumption. }
  rewrite (block_ground o r x1 x2 (INR y - / 2) (INR (y + n) - / 2)) by (auto; lra). rewrite no_roll_area by (auto; lra).
  assert (BET : forall z, INR y - / 2 <= z <= INR (y + n) - / 2 -> 0 < row_descent o r z) by (intros z Z0; eapply row_descent_between; [exact DA|exact DB|exact Z0]).
  destruct (C50_slice c Rectilinear r o w h undef HC) as (lut'&E&LL&_); [lra|intros; exact I|]. rewrite E in HL. injection HL as ->.
  exists (map (fun i => row_area o r 1 (INR i - / 2) (INR i + / 2)) (seq y n)). split; [|split; [rewrite map_length, seq_length; reflexivity|]].
  - clear F FM DA DB BP P1 P2 P3 P4 X x1 x2 LN. revert y HN BET. induction n as [|n IH]; intros y HN BET; [constructor|]. cbn [seq map].
    destruct (nth_error lut y) as [v|] eqn:EV; [|apply nth_error_None in EV; lia].
    assert (ES : skipn y lut = v :: skipn (S y) lut). { clear - EV. revert lut EV. induction y as [|y IH]; intros [|a l] EV; try discriminate; cbn in *; [congruence|]. apply IH. exact EV. }
    rewrite ES. cbn [firstn]. assert (ISN : INR (S y) = INR y + 1) by apply S_INR. assert (ISM : INR (y + S n) = INR y + 1 + INR n) by (rewrite plus_INR, S_INR; ring). pose proof (pos_INR n).
    constructor.
    + destruct (C50_value_slice c r o w h undef lut HC HE F1 F2 E y v EV) as (V1&_). assert (B1 : 0 < row_descent o r (INR y - / 2)) by (apply BET; lra). assert (B2 : 0 < row_descent o r (INR y + / 2)) by (apply BET; lra).
      eapply rep_eq; [apply V1|].
      * intros Q HI. destruct (no_roll_corners o r _ _ ER Q HI) as [EQ|EQ]; rewrite EQ; assumption.
      * unfold pixel_area. rewrite no_roll_area by (auto; lra). f_equal. lra.
    + apply IH; [lia|]. intros z Z0. apply BET. rewrite ISM. rewrite plus_INR, ISN in Z0. lra.
  - assert (SUM : rsum (map (fun i => row_area o r 1 (INR i - / 2) (INR i + / 2)) (seq y n)) = row_area o r 1 (INR y - / 2) (INR (y + n) - / 2)).
    { clear - F1 F2 BET. revert y BET. induction n as [|n IH]; intros y BET.
      - cbn [seq map rsum fold_right]. rewrite Nat.add_0_r. unfold row_area. replace (INR y - / 2 - (INR y - / 2)) with 0 by ring. unfold Rdiv. ring.
      - assert (ISN : INR (S y) = INR y + 1) by apply S_INR. assert (ISM : INR (y + S n) = INR y + 1 + INR n) by (rewrite plus_INR, S_INR; ring). assert (ISP : INR (S y + n) = INR y + 1 + INR n) by (rewrite plus_INR, ISN; ring). pose proof (pos_INR n).
        cbn [seq map rsum fold_right]. fold (rsum (map (fun i => row_area o r 1 (INR i - / 2) (INR i + / 2)) (seq (S y) n))).
        rewrite IH by (intros z Z0; apply BET; rewrite ISM; rewrite ISP, ISN in Z0; lra). replace (INR (S y) - / 2) with (INR y + / 2) by lra. replace (y + S n)%nat with (S y + n)%nat by lia.
        apply row_area_add; try lra; apply Rgt_not_eq, BET; rewrite ISM; rewrite ?ISP; lra. }
    rewrite SUM. unfold row_area, Rdiv. ring.
Qed.
Print Assumptions C50_counted.
Lemma rows_fall o r y1 y2 : 0 < elevation_m o -> 0 < f_x r -> 0 < f_y r -> 0 < sin (rad (tilt_deg o)) -> y1 < y2 -> 0 < row_descent o r (y1 - / 2) ->
  row_area o r 1 (y2 - / 2) (y2 + / 2) < row_area o r 1 (y1 - / 2) (y1 + / 2).
Proof.
  intros HE F1 F2 S0 L D. set (s := sin (rad (tilt_deg o)) / f_y r). assert (HS : 0 < s) by (apply Rdiv_lt_0_compat; auto).
  assert (SH : forall u v, row_descent o r v = row_descent o r u + s * (v - u)) by (intros; unfold row_descent, s; field; lra).
  assert (FORM : forall y, 0 < row_descent o r (y - / 2) -> row_area o r 1 (y - / 2) (y + / 2) = elevation_m o * elevation_m o / (f_x r * f_y r) * (/ (row_descent o r (y - / 2) * (row_descent o r (y + / 2) * row_descent o r (y + / 2))) + / (row_descent o r (y + / 2) * (row_descent o r (y - / 2) * row_descent o r (y - / 2)))) / 2).
  { intros y Dy. assert (0 < row_descent o r (y + / 2)) by (rewrite (SH (y - / 2)); nra). unfold row_area. field. lra. }
  assert (P2 : 0 < row_descent o r (y1 + / 2)) by (rewrite (SH (y1 - / 2)); nra).
  assert (A1 : row_descent o r (y1 - / 2) < row_descent o r (y2 - / 2)) by (rewrite (SH (y1 - / 2) (y2 - / 2)); nra).
  assert (A2 : row_descent o r (y1 + / 2) < row_descent o r (y2 + / 2)) by (rewrite (SH (y1 + / 2) (y2 + / 2)); nra).
  rewrite !FORM by lra. set (a := row_descent o r (y1 - / 2)) in *. set (b := row_descent o r (y1 + / 2)) in *. set (a' := row_descent o r (y2 - / 2)) in *. set (b' := row_descent o r (y2 + / 2)) in *. clearbody a b a' b'.
  assert (K : 0 < elevation_m o * elevation_m o / (f_x r * f_y r)) by (apply Rdiv_lt_0_compat; apply Rmult_lt_0_compat; auto).
  assert (M3 : forall p q p' q', 0 < p -> 0 < q -> p < p' -> q < q' -> / (p' * (q' * q')) < / (p * (q * q))).
  { intros p q p' q' Hp Hq Hp' Hq'. assert (QQ : q * q < q' * q') by (apply Rmult_le_0_lt_compat; lra). assert (0 < q * q) by (apply Rmult_lt_0_compat; auto).
    apply Rinv_lt_contravar; [repeat apply Rmult_lt_0_compat; lra|]. apply Rmult_le_0_lt_compat; lra. }
  assert (M1 := M3 a b a' b' D P2 A1 A2). assert (M2 := M3 b a b' a' P2 D A2 A1). unfold Rdiv. apply Rmult_lt_compat_r; [lra|]. apply Rmult_lt_compat_l; [exact K|]. lra.
Qed.
(** Lower rows of a camera without roll, unless it looks straight down, have smaller areas. *)
Theorem C50_rows_fall c r o w h undef lut : plain_cam c Rectilinear r o -> roll_deg o = 0 -> 0 < tilt_deg o < 180 -> 0 < elevation_m o -> 0 < f_x r -> 0 < f_y r -> generateLUT c w h undef = Some lut ->
  forall y1 y2 v1 v2, (y1 < y2)%nat -> nth_error lut y1 = Some v1 -> nth_error lut y2 = Some v2 -> 0 < row_descent o r (INR y1 - / 2) ->
  exists a1 a2, rep v1 a1 /\ rep v2 a2 /\ 0 < a2 < a1.
Proof.
  intros HC ER TR HE F1 F2 HL y1 y2 v1 v2 L H1 H2 D. assert (S0 : 0 < sin (rad (tilt_deg o))) by (pose proof PI_RGT_0; unfold rad; apply sin_gt_0; nra).
  assert (MON : forall u v, u <= v -> row_descent o r u <= row_descent o r v).
  { intros u v UV. unfold row_descent. apply Rplus_le_compat_l, Rmult_le_compat_l; [lra|]. unfold Rdiv. apply Rmult_le_compat_r; [apply Rlt_le, Rinv_0_lt_compat; auto|lra]. }
  assert (VAL : forall y v, nth_error lut y = Some v -> INR y1 <= INR y -> rep v (row_area o r 1 (INR y - / 2) (INR y + / 2)) /\ 0 < row_area o r 1 (INR y - / 2) (INR y + / 2)).
  { intros y v Hv LY. assert (B1 : 0 < row_descent o r (INR y - / 2)) by (eapply Rlt_le_trans; [exact D|apply MON; lra]). assert (B2 : 0 < row_descent o r (INR y + / 2)) by (eapply Rlt_le_trans; [exact B1|apply MON; lra]).
    destruct (C50_value_slice c r o w h undef lut HC HE F1 F2 HL y v Hv) as (V1&_). split.
    - eapply rep_eq; [apply V1|].
      + intros Q HI. destruct (no_roll_corners o r _ _ ER Q HI) as [EQ|EQ]; rewrite EQ; assumption.
      + unfold pixel_area. rewrite no_roll_area by (auto; lra). f_equal. lra.
    - unfold row_area. assert (0 < 1 / f_x r) by (apply Rdiv_lt_0_compat; lra). assert (0 < (INR y + / 2 - (INR y - / 2)) / f_y r) by (apply Rdiv_lt_0_compat; lra). apply Rdiv_lt_0_compat; repeat apply Rmult_lt_0_compat; lra. }
  assert (LI : INR y1 < INR y2) by (apply lt_INR; exact L). destruct (VAL y1 v1 H1) as (R1&P1); [lra|]. destruct (VAL y2 v2 H2) as (R2&P2); [lra|].
  eexists _, _. split; [exact R1|]. split; [exact R2|]. split; [exact P2|]. apply rows_fall; auto.
Qed.
Print Assumptions C50_rows_fall.

(** ** Limits and examples *)
Lemma lut_pose r o : foc_ok r -> exists c, plain_cam c Rectilinear r o.
Proof.
  intros HF. assert (H : rep_opar (opar_fin o) o) by (repeat split). destruct (init_rigid _ _ H) as (m&E&_).
  exists (plain_camera Rectilinear (proj_fin r) m), (proj_fin r), m. splits; auto; [repeat split|eauto].
Qed.
Lemma slice_row c o w h undef y : plain_cam c Rectilinear ex_r o -> 0 < elevation_m o -> (y < h)%nat -> exists slice v, generateLUT c w h undef = Some slice /\ nth_error slice y = Some v.
Proof.
  intros HC HE L. destruct (C50_slice c Rectilinear ex_r o w h undef HC) as (lut&E&LL&_); [lra|intros; exact I|]. destruct (nth_error lut y) as [v|] eqn:EV; [eauto|]. apply nth_error_None in EV. lia.
Qed.
Lemma whole_cell c o w h undef x y : plain_cam c Rectilinear ex_r o -> 0 < elevation_m o -> (x < w)%nat -> (y < h)%nat -> exists lut row v, generateLUT_whole c w h undef = Some lut /\ nth_error lut y = Some row /\ nth_error row x = Some v.
Proof.
  intros HC HE LX LY. destruct (C50_whole_image c Rectilinear ex_r o w h undef HC) as (lut&E&LL&K); [lra|intros; exact I|]. destruct (nth_error lut y) as [row|] eqn:EV; [|apply nth_error_None in EV; lia].
  destruct (K y row EV) as (LR&_). destruct (nth_error row x) as [v|] eqn:EX; [|apply nth_error_None in EX; lia]. exists lut, row, v. auto.
Qed.
(** With roll one column does not stand for the others: a camera rolled by 90 degrees has the given value in its slice where other columns see the ground. *)
Theorem C50_roll_refuted : exists c o slice lut row s v a, plain_cam c Rectilinear ex_r o /\ 0 < elevation_m o /\ generateLUT c 4000 3000 (Fin 0) = Some slice /\ generateLUT_whole c 4000 3000 (Fin 0) = Some lut /\
  nth_error slice 1000 = Some s /\ nth_error lut 1000 = Some row /\ nth_error row 1000 = Some v /\ s = Fin 0 /\ rep v a /\ 0 < a.
Proof.
  set (o := OPar 10 90 90 0 0 0). assert (HF : foc_ok ex_r) by (split; cbn; lra). destruct (lut_pose ex_r o HF) as (c&HC). assert (HE : 0 < elevation_m o) by (cbn; lra).
  destruct (slice_row c o 4000 3000 (Fin 0) 1000 HC HE ltac:(apply Nat.ltb_lt; reflexivity)) as (slice&s&ES&Hs).
  destruct (whole_cell c o 4000 3000 (Fin 0) 1000 1000 HC HE ltac:(apply Nat.ltb_lt; reflexivity) ltac:(apply Nat.ltb_lt; reflexivity)) as (lut&row&v&EL&Hr&Hv).
  assert (D : forall x y, descent o ex_r (V2 x y) = (2000 - x) / 3500).
  { intros x y. unfold descent, o, across. cbn [tilt_deg roll_deg]. rewrite rad90, sin_PI2, cos_PI2. cbn. field. }
  assert (E1 : INR 4000 / 2 = 2000) by (rewrite INR_IZR_INZ; simpl; lra). assert (E2 : INR 1000 = 1000) by (rewrite INR_IZR_INZ; simpl; lra).
  destruct (C50_value_slice c ex_r o 4000 3000 (Fin 0) slice HC HE ltac:(cbn; lra) ltac:(cbn; lra) ES 1000%nat s Hs) as (_&S2).
  destruct (C50_value c ex_r o 4000 3000 (Fin 0) lut HC HE ltac:(cbn; lra) ltac:(cbn; lra) EL 1000%nat 1000%nat row v Hr Hv) as (V1&_). rewrite E1, E2 in *.
  exists c, o, slice, lut, row, s, v, (pixel_area o ex_r 1000 1000). splits; auto.
  - apply S2. eexists. split; [right; left; reflexivity|]. rewrite D. lra.
  - apply V1. intros Q HI. destruct HI as [<-|[<-|[<-|[<-|[]]]]]; rewrite D; lra.
  - unfold pixel_area, block_area. cbv zeta. rewrite !D. cbn. lra.
Qed.
Print Assumptions C50_roll_refuted.
(** A camera 10 m above the ground that looks level: the entry of the row 2500, and the strip of the rows 2000 to 2999. *)
Lemma ex2_row y : row_descent ex_or2 ex_r y = (y - 1500) / 3500.
Proof. unfold row_descent. cbn [tilt_deg ex_or2]. rewrite rad90, sin_PI2, cos_PI2. cbn. field. Qed.
Example C50_value_example : exists c slice lut row s v, plain_cam c Rectilinear ex_r ex_or2 /\ roll_deg ex_or2 = 0 /\ 0 < tilt_deg ex_or2 < 180 /\ 0 < elevation_m ex_or2 /\
  generateLUT c 4000 3000 (Fin 0) = Some slice /\ generateLUT_whole c 4000 3000 (Fin 0) = Some lut /\ nth_error slice 2500 = Some s /\ nth_error lut 2500 = Some row /\ nth_error row 7 = Some v /\
  (exists a, 0 < a /\ rep s a /\ rep v a) /\ 0 < row_descent ex_or2 ex_r (INR 2500 - / 2).
Proof.
  assert (HF : foc_ok ex_r) by (split; cbn; lra). destruct (lut_pose ex_r ex_or2 HF) as (c&HC). assert (HE : 0 < elevation_m ex_or2) by (cbn; lra).
  destruct (slice_row c ex_or2 4000 3000 (Fin 0) 2500 HC HE ltac:(apply Nat.ltb_lt; reflexivity)) as (slice&s&ES&Hs).
  destruct (whole_cell c ex_or2 4000 3000 (Fin 0) 7 2500 HC HE ltac:(apply Nat.ltb_lt; reflexivity) ltac:(apply Nat.ltb_lt; reflexivity)) as (lut&row&v&EL&Hr&Hv).
  assert (E2 : INR 2500 = 2500) by (rewrite INR_IZR_INZ; simpl; lra).
  assert (D1 : 0 < row_descent ex_or2 ex_r (INR 2500 - / 2)) by (rewrite ex2_row, E2; lra). assert (D2 : 0 < row_descent ex_or2 ex_r (INR 2500 + / 2)) by (rewrite ex2_row, E2; lra).
  exists c, slice, lut, row, s, v. splits; auto; try (cbn; lra).
  destruct (C50_one_column c ex_r ex_or2 4000 3000 (Fin 0) slice lut HC eq_refl HE ltac:(cbn; lra) ltac:(cbn; lra) ES EL 7%nat 2500%nat row s v Hs Hr Hv ltac:(lra) ltac:(lra)) as [(a&A&B&C&_)|(A&_)]; [exists a; auto|].
  exfalso. destruct (C50_value_slice c ex_r ex_or2 4000 3000 (Fin 0) slice HC HE ltac:(cbn; lra) ltac:(cbn; lra) ES 2500%nat s Hs) as (V1&_).
  assert (RV : rep s (pixel_area ex_or2 ex_r (INR 4000 / 2) (INR 2500))). { apply V1. intros Q HI. destruct (no_roll_corners ex_or2 ex_r _ _ eq_refl Q HI) as [EQ|EQ]; rewrite EQ; assumption. }
  unfold pixel_area in RV. rewrite no_roll_area in RV by (cbn; lra || reflexivity || (apply Rgt_not_eq; assumption)). rewrite A in RV. apply (rep_inj _ _ _ (rep_Fin 0)) in RV. revert RV. unfold row_area. rewrite !ex2_row, E2. cbn [elevation_m ex_or2 f_x f_y ex_r]. lra.
Qed.
Example C50_counted_example : exists c lut P1 P2 P3 P4 areas, plain_cam c Rectilinear ex_r ex_or2 /\ generateLUT c 4000 3000 (Fin 0) = Some lut /\
  Forall2 (fun Q P => exists f, 0 < f /\ meets ex_or2 Rectilinear ex_r Q f P) (block 100 300 (INR 2000 - / 2) (INR (2000 + 1000) - / 2)) [P1; P2; P3; P4] /\
  Forall2 rep (firstn 1000 (skipn 2000 lut)) areas /\ (300 - 100) * rsum areas = Rabs (shoelace (ground P1) (ground P2) (ground P3) (ground P4)).
Proof.
  assert (HF : foc_ok ex_r) by (split; cbn; lra). destruct (lut_pose ex_r ex_or2 HF) as (c&HC). assert (HE : 0 < elevation_m ex_or2) by (cbn; lra).
  destruct (slice_row c ex_or2 4000 3000 (Fin 0) 2500 HC HE ltac:(apply Nat.ltb_lt; reflexivity)) as (lut&s&ES&Hs).
  assert (E2 : INR 2000 = 2000) by (rewrite INR_IZR_INZ; simpl; lra). assert (E3 : INR (2000 + 1000) = 3000) by (rewrite plus_INR, !INR_IZR_INZ; simpl; lra).
  assert (M : forall x y, 1500 < y -> exists P f, 0 < f /\ meets ex_or2 Rectilinear ex_r (V2 x y) f P).
  { intros x y Y. eexists _, (35000 / (y - 1500)). split; [apply Rdiv_lt_0_compat; lra|apply ex_meets; lra]. }
  destruct (M 100 (INR 2000 - / 2)) as (P1&f1&Hf1&M1); [lra|]. destruct (M 300 (INR 2000 - / 2)) as (P2&f2&Hf2&M2); [lra|]. destruct (M 300 (INR (2000 + 1000) - / 2)) as (P3&f3&Hf3&M3); [lra|]. destruct (M 100 (INR (2000 + 1000) - / 2)) as (P4&f4&Hf4&M4); [lra|].
  assert (F : Forall2 (fun Q P => exists f, 0 < f /\ meets ex_or2 Rectilinear ex_r Q f P) (block 100 300 (INR 2000 - / 2) (INR (2000 + 1000) - / 2)) [P1; P2; P3; P4]).
  { constructor; [exists f1; auto|]. constructor; [exists f2; auto|]. constructor; [exists f3; auto|]. constructor; [exists f4; auto|]. constructor. }
  destruct (C50_counted c ex_r ex_or2 4000 3000 (Fin 0) lut HC eq_refl HE ltac:(cbn; lra) ltac:(cbn; lra) ES 2000%nat 1000%nat 100 300 P1 P2 P3 P4) as (areas&A&_&B); [apply Nat.leb_le; reflexivity|lra|exact F|].
  exists c, lut, P1, P2, P3, P4, areas. auto.
Qed.
Example C50_nadir_example : exists c lut row v, plain_cam c Rectilinear ex_r (OPar 7 0 0 30 3 4) /\ generateLUT_whole c 4000 3000 (Fin 0) = Some lut /\ nth_error lut 10 = Some row /\ nth_error row 20 = Some v /\ rep v (7 / 3500 * (7 / 3500)).
Proof.
  set (o := OPar 7 0 0 30 3 4). assert (HF : foc_ok ex_r) by (split; cbn; lra). destruct (lut_pose ex_r o HF) as (c&HC). assert (HE : 0 < elevation_m o) by (cbn; lra).
  destruct (whole_cell c o 4000 3000 (Fin 0) 20 10 HC HE ltac:(apply Nat.ltb_lt; reflexivity) ltac:(apply Nat.ltb_lt; reflexivity)) as (lut&row&v&EL&Hr&Hv). exists c, lut, row, v. splits; auto.
  exact (C50_nadir c ex_r o 4000 3000 (Fin 0) lut HC eq_refl eq_refl HE ltac:(cbn; lra) ltac:(cbn; lra) EL 20%nat 10%nat row v Hr Hv).
Qed.
