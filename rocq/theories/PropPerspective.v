(** * C79: perspective — straight lines, order, apparent size and vanishing points *)
Require Import Reals Lra Psatz List Bool.
From Verif Require Import Num Vec Trig Orientation OrientationFacts Projection ProjectionFacts Ray RayFacts CameraTransform CameraFacts PropCamera Stereo PropStereo.
From Verif Require Import FitTerms PropFitTerms.
Import ListNotations.
Open Scope R_scope.

(** ** Specification *)
(** The point that divides a segment in the proportion [t : 1 - t] *)
Definition between3 (A B : v3 R) (t : R) : v3 R := V3 (cx A + t * (cx B - cx A)) (cy A + t * (cy B - cy A)) (cz A + t * (cz B - cz A)).
Definition between2 (A B : v2 R) (t : R) : v2 R := V2 (c1 A + t * (c1 B - c1 A)) (c2 A + t * (c2 B - c2 A)).
(** [f] maps the unit interval onto itself and keeps the order. *)
Definition reparam (f : R -> R) : Prop := f 0 = 0 /\ f 1 = 1 /\ (forall s t, 0 <= s -> s < t -> t <= 1 -> f s < f t) /\ forall u, 0 <= u <= 1 -> exists t, 0 <= t <= 1 /\ f t = u.
(** How far a point is from the plane of the camera, along the axis of the lens *)
Definition depth (o : opar R) (P : v3 R) : R := - cz (cam_coords o P).
(** Components along the level direction of the heading (0 is north, 90 east) and to the right of it *)
Definition forwards (o : opar R) (P : v3 R) : R := let h := rad (heading_deg o) in sin h * (cx P - pos_x_m o) + cos h * (cy P - pos_y_m o).
Definition rightwards (o : opar R) (P : v3 R) : R := let h := rad (heading_deg o) in cos h * (cx P - pos_x_m o) - sin h * (cy P - pos_y_m o).
Definition same_angles (o o' : opar R) : Prop := tilt_deg o' = tilt_deg o /\ roll_deg o' = roll_deg o /\ heading_deg o' = heading_deg o.

(** ** Segments *)
Definition share (a b t : R) : R := t * b / (a + t * (b - a)).
Lemma mix_pos a b t : 0 < a -> 0 < b -> 0 <= t <= 1 -> 0 < a + t * (b - a).
Proof. intros A B T. destruct (Req_dec t 1) as [->|]; [lra|]. assert (0 < (1 - t) * a) by (apply Rmult_lt_0_compat; lra). assert (0 <= t * b) by (apply Rmult_le_pos; lra). lra. Qed.
Lemma share_reparam a b : 0 < a -> 0 < b -> reparam (share a b).
Proof.
  intros A B. unfold reparam, share. split; [field; lra|]. split; [field; lra|]. split.
  - intros s t S L T. pose proof (mix_pos a b s A B ltac:(lra)) as M1. pose proof (mix_pos a b t A B ltac:(lra)) as M2.
    apply Rminus_gt_0_lt. replace (t * b / (a + t * (b - a)) - s * b / (a + s * (b - a))) with ((t - s) * (a * b) / ((a + t * (b - a)) * (a + s * (b - a)))) by (field; lra).
    apply Rdiv_lt_0_compat; [apply Rmult_lt_0_compat; [lra|nra]|nra].
  - intros u U. pose proof (mix_pos b a u B A U) as M. exists (u * a / (b + u * (a - b))). assert (X : 0 <= u * a / (b + u * (a - b)) <= 1).
    { split; [apply Rle_mult_inv_pos; [nra|exact M]|]. apply Rmult_le_reg_r with (b + u * (a - b)); [exact M|]. unfold Rdiv. rewrite Rmult_assoc, Rinv_l by lra. nra. }
    split; [exact X|]. pose proof (mix_pos a b _ A B X) as M'. apply Rmult_eq_reg_r with (a + u * a / (b + u * (a - b)) * (b - a)); [|lra].
    unfold Rdiv at 1. rewrite (Rmult_assoc _ (/ _) _), Rinv_l, Rmult_1_r by lra. field. lra.
Qed.
Lemma coords_between o A B t : cam_coords o (between3 A B t) = between3 (cam_coords o A) (cam_coords o B) t.
Proof. unfold cam_coords, between3, rm_mul_v, rdot. apply v3_ext; cbn [rv_sub zip3v cx cy cz]; ring. Qed.
Lemma image_pin c r o p P : plain_cam c Rectilinear r o -> rep3 p P -> tinyR <= depth o P -> rep2 (imageFromSpace c p true) (pin r (cam_coords o P)).
Proof.
  intros HC Hp HB. unfold depth in HB. rewrite (hide_front c r o p P HC Hp ltac:(lra)). apply (ifs_pin c r o p P HC Hp). pose proof tinyR_pos. rewrite Rabs_left; lra.
Qed.
Lemma rep2_inj q A B : rep2 q A -> rep2 q B -> A = B.
Proof. intros (A1&A2) (B1&B2). destruct A, B. f_equal; eapply rep_inj; eauto. Qed.
Lemma rep2_eq q A B : rep2 q A -> A = B -> rep2 q B.
Proof. intros H <-. exact H. Qed.
(** A segment in front of the camera is shown as the segment between the images of its ends, in the same order and without gaps. *)
Theorem C79_segment c r o p0 p1 P0 P1 Q0 Q1 : plain_cam c Rectilinear r o -> rep3 p0 P0 -> rep3 p1 P1 -> tinyR <= depth o P0 -> tinyR <= depth o P1 ->
  rep2 (imageFromSpace c p0 true) Q0 -> rep2 (imageFromSpace c p1 true) Q1 ->
  exists f, reparam f /\ forall p t, 0 <= t <= 1 -> rep3 p (between3 P0 P1 t) -> rep2 (imageFromSpace c p true) (between2 Q0 Q1 (f t)).
Proof.
  intros HC H0 H1 D0 D1 I0 I1. pose proof tinyR_pos as TP.
  pose proof (rep2_inj _ _ _ I0 (image_pin c r o p0 P0 HC H0 D0)) as ->. pose proof (rep2_inj _ _ _ I1 (image_pin c r o p1 P1 HC H1 D1)) as ->.
  exists (share (depth o P0) (depth o P1)). split; [apply share_reparam; lra|]. intros p t T Hp.
  pose proof (mix_pos _ _ t (Rlt_le_trans _ _ _ TP D0) (Rlt_le_trans _ _ _ TP D1) T) as M.
  assert (DT : depth o (between3 P0 P1 t) = depth o P0 + t * (depth o P1 - depth o P0)) by (unfold depth; rewrite coords_between; cbn [between3 cz]; ring).
  assert (DB : tinyR <= depth o (between3 P0 P1 t)) by (rewrite DT; pose proof (Rmult_le_pos (1 - t) (depth o P0 - tinyR) ltac:(lra) ltac:(lra)); pose proof (Rmult_le_pos t (depth o P1 - tinyR) ltac:(lra) ltac:(lra)); lra).
  eapply rep2_eq; [apply (image_pin c r o p _ HC Hp DB)|]. rewrite coords_between. unfold depth in *. set (A := cam_coords o P0) in *. set (B := cam_coords o P1) in *.
  unfold share, between2, pin, between3. cbn [c1 c2 cx cy cz].
  assert (cz A + t * (cz B - cz A) <> 0) by lra. f_equal; field; splits; lra.
Qed.
Print Assumptions C79_segment.

(** ** The ground *)
Lemma ray_between r A B t : f_x r <> 0 -> f_y r <> 0 -> rayR Rectilinear r (between2 A B t) = between3 (rayR Rectilinear r A) (rayR Rectilinear r B) t.
Proof. intros FX FY. unfold rayR, between2, between3, alphaR, betaR. cbn [c1 c2 cx cy cz]. apply v3_ext; cbn [cx cy cz]; field; auto. Qed.
Definition sight (o : opar R) (r : proj R) (Q : v2 R) : v3 R := rm_mul_v (rm_trans (camM o)) (rayR Rectilinear r Q).
Lemma sight_between o r A B t : f_x r <> 0 -> f_y r <> 0 -> sight o r (between2 A B t) = between3 (sight o r A) (sight o r B) t.
Proof. intros FX FY. unfold sight. rewrite ray_between by auto. unfold between3, rm_mul_v, rdot. apply v3_ext; cbn [cx cy cz]; ring. Qed.
(** A pixel that looks down sees the point of the plane *)
Lemma ground c r o q Q z Z : plain_cam c Rectilinear r o -> rep2 q Q -> rep z Z -> Z < elevation_m o -> cz (sight o r Q) < 0 ->
  exists p, spaceFromImage c q (on_Z z) = Some p /\ rep3 p (rv_add (opos o) (rv_scale ((elevation_m o - Z) / - cz (sight o r Q)) (sight o r Q))).
Proof.
  intros HC Hq Hz HE HW. destruct (plain_good _ _ _ _ HC) as (HG&HK&_&HU).
  assert (Hq' : rep2 (cam_undist c q) Q) by (rewrite HU; auto). assert (EW : dirW c r (camM o) Q = sight o r Q) by (unfold dirW; rewrite HK; reflexivity).
  destruct (sfi_axis c r (camM o) (opos o) q Q AZ z Z HG Hq' ltac:(rewrite HK; exact Logic.I) Hz) as (_&HP); [rewrite EW; exact (Rlt_not_eq _ _ HW)|]. rewrite EW in HP. cbn [get_axis opos cz] in HP.
  assert (F : (Z - elevation_m o) / cz (sight o r Q) = (elevation_m o - Z) / - cz (sight o r Q)) by (field; lra). rewrite F in HP.
  destruct HP as (p&Ep&Rp); [apply Rlt_le, Rdiv_lt_0_compat; lra|]. exists p. split; [exact Ep|exact Rp].
Qed.
(** A straight line in the picture is a straight line on the ground, in the same order and without gaps. *)
Theorem C79_ground_segment c r o q0 q1 Q0 Q1 p0 p1 P0 P1 z Z : plain_cam c Rectilinear r o -> rep2 q0 Q0 -> rep2 q1 Q1 -> rep z Z -> Z < elevation_m o ->
  cz (sight o r Q0) < 0 -> cz (sight o r Q1) < 0 -> spaceFromImage c q0 (on_Z z) = Some p0 -> spaceFromImage c q1 (on_Z z) = Some p1 -> rep3 p0 P0 -> rep3 p1 P1 ->
  exists f, reparam f /\ forall q t, 0 <= t <= 1 -> rep2 q (between2 Q0 Q1 t) -> exists p, spaceFromImage c q (on_Z z) = Some p /\ rep3 p (between3 P0 P1 (f t)).
Proof.
  intros HC H0 H1 Hz HE D0 D1 E0 E1 R0 R1. assert (FO : f_x r <> 0 /\ f_y r <> 0) by (destruct (plain_good _ _ _ _ HC) as ((_&F&_)&_); exact F). destruct FO as (FX&FY).
  destruct (ground c r o q0 Q0 z Z HC H0 Hz HE D0) as (p0'&E0'&R0'). assert (p0' = p0) by congruence. subst p0'. pose proof (rep3_inj _ _ _ R0 R0') as ->.
  destruct (ground c r o q1 Q1 z Z HC H1 Hz HE D1) as (p1'&E1'&R1'). assert (p1' = p1) by congruence. subst p1'. pose proof (rep3_inj _ _ _ R1 R1') as ->.
  exists (share (- cz (sight o r Q0)) (- cz (sight o r Q1))). split; [apply share_reparam; lra|]. intros q t T Hq.
  pose proof (mix_pos (- cz (sight o r Q0)) (- cz (sight o r Q1)) t ltac:(lra) ltac:(lra) T) as M.
  assert (DT : cz (sight o r (between2 Q0 Q1 t)) = cz (sight o r Q0) + t * (cz (sight o r Q1) - cz (sight o r Q0))) by (rewrite sight_between by auto; reflexivity).
  destruct (ground c r o q _ z Z HC Hq Hz HE ltac:(rewrite DT; lra)) as (p&Ep&Rp). exists p. split; [exact Ep|]. eapply rep3_eq; [exact Rp|].
  rewrite sight_between by auto. set (A := sight o r Q0) in *. set (B := sight o r Q1) in *. unfold share. cbn [between3 cz] in *.
  assert (cz A + t * (cz B - cz A) <> 0) by lra. apply v3_ext; cbn [between3 rv_add rv_scale zip3v map3v cx cy cz]; field; splits; lra.
Qed.
Print Assumptions C79_ground_segment.

Lemma sight_level o r Q : roll_deg o = 0 -> f_x r <> 0 -> f_y r <> 0 ->
  let a := (c1 Q - center_x r) / f_x r in let b := (c2 Q - center_y r) / f_y r in let t := rad (tilt_deg o) in let h := rad (heading_deg o) in
  sight o r Q = V3 (cos h * a + sin h * (sin t - b * cos t)) (- sin h * a + cos h * (sin t - b * cos t)) (- (cos t + b * sin t)).
Proof.
  intros ER FX FY a b t h. unfold sight, camM. rewrite ER. fold t h. replace (rad 0) with 0 by (unfold rad; ring).
  apply v3_ext; cbv [rotm rm_mul_v rm_trans rdot rayR alphaR betaR cx cy cz]; rewrite ?sin_0, ?cos_0; unfold a, b; cbn [c1 c2]; ring.
Qed.
Lemma sc1 x : sin x * sin x + cos x * cos x = 1.
Proof. pose proof (sin2_cos2 x) as S. unfold Rsqr in S. lra. Qed.
(** With a camera without roll, what is lower in the picture is nearer on the ground, whichever column it is in, and in one row
    what is further right in the picture is further right on the ground. *)
Theorem C79_ground_order c r o q q' Q Q' p p' P P' z Z : plain_cam c Rectilinear r o -> roll_deg o = 0 -> 0 < f_x r -> 0 < f_y r -> rep2 q Q -> rep2 q' Q' -> rep z Z -> Z < elevation_m o ->
  cz (sight o r Q) < 0 -> cz (sight o r Q') < 0 -> spaceFromImage c q (on_Z z) = Some p -> spaceFromImage c q' (on_Z z) = Some p' -> rep3 p P -> rep3 p' P' ->
  (c2 Q < c2 Q' <-> forwards o P' < forwards o P) /\ (c2 Q = c2 Q' <-> forwards o P' = forwards o P) /\
  (c2 Q = c2 Q' -> (c1 Q < c1 Q' <-> rightwards o P < rightwards o P')).
Proof.
  intros HC ER FX FY H H' Hz HE D D' E E' RP RP'.
  destruct (ground c r o q Q z Z HC H Hz HE D) as (p0&E0&R0). assert (p0 = p) by congruence. subst p0. pose proof (rep3_inj _ _ _ RP R0) as ->.
  destruct (ground c r o q' Q' z Z HC H' Hz HE D') as (p1&E1&R1). assert (p1 = p') by congruence. subst p1. pose proof (rep3_inj _ _ _ RP' R1) as ->.
  clear E E' R0 R1 RP RP' E0 E1. rewrite !sight_level in * by (auto; lra). cbv zeta in *. cbn [cz] in *.
  set (h := rad (heading_deg o)) in *. set (t := rad (tilt_deg o)) in *. set (k := elevation_m o - Z) in *. assert (PK : 0 < k) by (unfold k; lra).
  set (a := (c1 Q - center_x r) / f_x r). set (a' := (c1 Q' - center_x r) / f_x r). set (b := (c2 Q - center_y r) / f_y r) in *. set (b' := (c2 Q' - center_y r) / f_y r) in *.
  set (d := cos t + b * sin t) in *. set (d' := cos t + b' * sin t) in *. assert (PD : 0 < d) by lra. assert (PD' : 0 < d') by lra.
  assert (EB : b' - b = (c2 Q' - c2 Q) / f_y r) by (unfold b, b'; field; lra). assert (EA : a' - a = (c1 Q' - c1 Q) / f_x r) by (unfold a, a'; field; lra).
  pose proof (sc1 h) as SH. pose proof (sc1 t) as ST.
  unfold forwards, rightwards. fold h. cbn [rv_add rv_scale zip3v map3v opos cx cy].
  match goal with |- (_ <-> ?u' < ?u) /\ _ => assert (FU : u - u' = k * (b' - b) / (d * d')) end.
  { rewrite !Ropp_involutive. transitivity (k * ((sin h * sin h + cos h * cos h) * (sin t - b * cos t)) / d - k * ((sin h * sin h + cos h * cos h) * (sin t - b' * cos t)) / d'); [field; split; lra|].
    rewrite SH, !Rmult_1_l. transitivity (k * ((sin t - b * cos t) * d' - (sin t - b' * cos t) * d) / (d * d')); [field; split; lra|]. f_equal. f_equal. unfold d, d'.
    transitivity ((sin t * sin t + cos t * cos t) * (b' - b)); [ring|rewrite ST; ring]. }
  assert (DD : 0 < d * d') by nra. assert (SG : forall x, 0 < k * x / (d * d') <-> 0 < x).
  { intros x. split; intros X; [|apply Rdiv_lt_0_compat; [nra|exact DD]]. apply Rnot_le_lt. intros Y. assert (k * x / (d * d') <= 0); [|lra].
    unfold Rdiv. apply Rmult_le_reg_r with (d * d'); [exact DD|]. rewrite Rmult_assoc, Rinv_l by lra. nra. }
  assert (IF : 0 < / f_y r) by (apply Rinv_0_lt_compat; lra). assert (IX : 0 < / f_x r) by (apply Rinv_0_lt_compat; lra).
  assert (SB : 0 < b' - b <-> c2 Q < c2 Q') by (rewrite EB; unfold Rdiv; split; intros; nra).
  split; [|split].
  - rewrite <- SB, <- SG, <- FU. split; intros; lra.
  - split; intros X.
    + assert (B0 : b' - b = 0) by (rewrite EB, X; unfold Rdiv; ring). rewrite B0 in FU. unfold Rdiv in FU. rewrite Rmult_0_r, Rmult_0_l in FU. lra.
    + match type of FU with ?l = _ => assert (Z0 : l = 0) by lra end. rewrite Z0 in FU. assert (B0 : b' - b = 0).
      { assert (K : k * (b' - b) = 0) by (apply Rmult_eq_reg_r with (/ (d * d')); [unfold Rdiv in FU; lra|apply Rinv_neq_0_compat; lra]). apply Rmult_integral in K. destruct K; lra. }
      rewrite EB in B0. unfold Rdiv in B0. apply Rmult_integral in B0. destruct B0; lra.
  - intros X. assert (Eb : b' = b) by (unfold b, b'; rewrite X; reflexivity). assert (Ed : d' = d) by (unfold d, d'; rewrite Eb; reflexivity). rewrite Eb, Ed.
    match goal with |- _ <-> ?u < ?u' => assert (RU : u' - u = k * (a' - a) / d) end.
    { rewrite !Ropp_involutive. fold a a'. transitivity (k * ((sin h * sin h + cos h * cos h) * (a' - a)) / d); [field; lra|rewrite SH; unfold Rdiv; ring]. }
    assert (SA : 0 < a' - a <-> c1 Q < c1 Q') by (rewrite EA; unfold Rdiv; split; intros; nra).
    assert (SG' : forall x, 0 < k * x / d <-> 0 < x).
    { intros x. split; intros Y; [|apply Rdiv_lt_0_compat; [nra|exact PD]]. apply Rnot_le_lt. intros Y'. assert (k * x / d <= 0); [|lra].
      unfold Rdiv. apply Rmult_le_reg_r with d; [exact PD|]. rewrite Rmult_assoc, Rinv_l by lra. nra. }
    rewrite <- SA, <- SG', <- RU. split; intros; lra.
Qed.
Print Assumptions C79_ground_order.

(** ** Apparent size *)
(** A displacement [V] parallel to the picture (it does not change the depth) is shown as [f * V / depth]: it shrinks with the
    depth of the point and with nothing else. *)
Theorem C79_size c r o p q P V A B : plain_cam c Rectilinear r o -> rep3 p P -> rep3 q (rv_add P V) -> tinyR <= depth o P -> depth o (rv_add P V) = depth o P ->
  rep2 (imageFromSpace c p true) A -> rep2 (imageFromSpace c q true) B ->
  let right := cx (camM o) in let up := cy (camM o) in
  c1 B - c1 A = f_x r * rdot right V / depth o P /\ c2 B - c2 A = - (f_y r * rdot up V / depth o P).
Proof.
  intros HC Hp Hq DP DV IA IB right up. pose proof tinyR_pos as TP.
  pose proof (rep2_inj _ _ _ IA (image_pin c r o p P HC Hp DP)) as ->. pose proof (rep2_inj _ _ _ IB (image_pin c r o q _ HC Hq ltac:(lra))) as ->.
  unfold depth in *. assert (E : cam_coords o (rv_add P V) = rv_add (cam_coords o P) (rm_mul_v (camM o) V)) by (unfold cam_coords, rm_mul_v, rdot; apply v3_ext; cbn; ring).
  rewrite E in *. set (K := cam_coords o P) in *. clearbody K. change (rdot right V) with (cx (rm_mul_v (camM o) V)). change (rdot up V) with (cy (rm_mul_v (camM o) V)).
  set (U := rm_mul_v (camM o) V) in *. clearbody U. unfold pin. cbn [rv_add zip3v cx cy cz c1 c2] in *. assert (Z0 : cz U = 0) by lra. rewrite Z0, Rplus_0_r. split; field; lra.
Qed.
Print Assumptions C79_size.

(** ** Vanishing points *)
Lemma vanish1 a w z v f e : v < 0 -> 0 < e -> exists S, 0 < S /\ forall s, S <= s -> z + s * v <= - tinyR /\ Rabs ((a + s * w) * f / (z + s * v) - w * f / v) < e.
Proof.
  intros V E. pose proof tinyR_pos as TP. set (K := Rabs (f * (a * v - z * w)) + 1). assert (PK : 0 < K) by (unfold K; pose proof (Rabs_pos (f * (a * v - z * w))); lra).
  set (X := Rabs z + tinyR + K / (e * - v)). assert (PX : 0 < K / (e * - v)) by (apply Rdiv_lt_0_compat; nra). exists (X / - v). split.
  { unfold X. pose proof (Rabs_pos z). apply Rdiv_lt_0_compat; lra. }
  intros s Hs. assert (B : X <= s * - v). { apply Rmult_le_compat_r with (r := - v) in Hs; [|lra]. unfold Rdiv in Hs. rewrite Rmult_assoc, Rinv_l in Hs by lra. lra. }
  pose proof (Rle_abs z) as ZA. unfold X in B. assert (N : z + s * v < 0) by lra. split; [lra|].
  replace ((a + s * w) * f / (z + s * v) - w * f / v) with (f * (a * v - z * w) / (v * (z + s * v))) by (field; lra).
  assert (PD : 0 < v * (z + s * v)) by nra. unfold Rdiv. rewrite Rabs_mult, (Rabs_right (/ _)) by (apply Rle_ge, Rlt_le, Rinv_0_lt_compat, PD).
  apply Rmult_lt_reg_r with (v * (z + s * v)); [exact PD|]. rewrite Rmult_assoc, Rinv_l, Rmult_1_r by lra.
  assert (L : K / (e * - v) < - (z + s * v)) by lra. apply Rmult_lt_compat_l with (r := e * - v) in L; [|nra].
  replace (e * - v * (K / (e * - v))) with K in L by (field; split; lra). unfold K in L. lra.
Qed.
(** Lines of one direction that lead away from the camera end in one pixel: it depends on the angles of the camera, not on
    its position or on which of the parallel lines it is. *)
Theorem C79_vanishing r o W : depth o (rv_add (opos o) W) > 0 ->
  exists V, forall c o' P, plain_cam c Rectilinear r o' -> same_angles o o' -> forall e, 0 < e -> exists S, 0 < S /\ forall s p, S <= s -> rep3 p (line_at P W s) ->
    exists Q, rep2 (imageFromSpace c p true) Q /\ Rabs (c1 Q - c1 V) < e /\ Rabs (c2 Q - c2 V) < e.
Proof.
  intros DW. set (w := rm_mul_v (camM o) W). assert (CW : cz w < 0).
  { unfold depth in DW. replace (cam_coords o (rv_add (opos o) W)) with w in DW; [lra|]. unfold cam_coords, w. f_equal. apply v3_ext; cbn; ring. }
  exists (pin r w). intros c o' P HC (ET&ER&EH) e He. assert (EM : camM o' = camM o) by (unfold camM; rewrite ET, ER, EH; reflexivity).
  set (k := cam_coords o' P). destruct (vanish1 (- cx k) (- cx w) (cz k) (cz w) (f_x r) e CW He) as (S1&P1&H1). destruct (vanish1 (cy k) (cy w) (cz k) (cz w) (f_y r) e CW He) as (S2&P2&H2).
  exists (Rmax S1 S2). split; [eapply Rlt_le_trans; [exact P1|apply Rmax_l]|]. intros s p Hs Hp. assert (G1 : S1 <= s) by (eapply Rle_trans; [apply Rmax_l|exact Hs]). assert (G2 : S2 <= s) by (eapply Rle_trans; [apply Rmax_r|exact Hs]).
  destruct (H1 s G1) as (D&B1). destruct (H2 s G2) as (_&B2). assert (EL : cam_coords o' (line_at P W s) = line_at k w s) by (rewrite cam_coords_line, EM; reflexivity).
  exists (pin r (line_at k w s)). split; [rewrite <- EL; apply (image_pin c r o' p _ HC Hp); unfold depth; rewrite EL; unfold line_at; cbn [rv_add rv_scale zip3v map3v cz]; lra|].
  unfold pin, line_at. cbn [rv_add rv_scale zip3v map3v cx cy cz c1 c2]. split.
  - replace (- (cx k + s * cx w) * f_x r / (cz k + s * cz w) + center_x r - (- cx w * f_x r / cz w + center_x r)) with ((- cx k + s * - cx w) * f_x r / (cz k + s * cz w) - - cx w * f_x r / cz w) by (unfold Rdiv; ring). exact B1.
  - replace ((cy k + s * cy w) * f_y r / (cz k + s * cz w) + center_y r - (cy w * f_y r / cz w + center_y r)) with ((cy k + s * cy w) * f_y r / (cz k + s * cz w) - cy w * f_y r / cz w) by ring. exact B2.
Qed.
Print Assumptions C79_vanishing.
(** The level lines that lead away from a camera without roll all end in the row [center_y - f_y * cos tilt / sin tilt]. *)
Theorem C79_level_lines c r o W : plain_cam c Rectilinear r o -> roll_deg o = 0 -> cz W = 0 -> depth o (rv_add (opos o) W) > 0 ->
  forall P e, 0 < e -> exists S, 0 < S /\ forall s p, S <= s -> rep3 p (line_at P W s) ->
    exists Q, rep2 (imageFromSpace c p true) Q /\ Rabs (c2 Q - (center_y r - f_y r * (cos (rad (tilt_deg o)) / sin (rad (tilt_deg o))))) < e.
Proof.
  intros HC ER EW DW P e He. set (w := rm_mul_v (camM o) W). assert (CW : cz w < 0).
  { unfold depth in DW. replace (cam_coords o (rv_add (opos o) W)) with w in DW; [lra|]. unfold cam_coords, w. f_equal. apply v3_ext; cbn; ring. }
  set (k := cam_coords o P). destruct (vanish1 (cy k) (cy w) (cz k) (cz w) (f_y r) e CW He) as (S2&P2&H2). exists S2. split; [exact P2|]. intros s p Hs Hp.
  destruct (H2 s Hs) as (D&B2). assert (EL : cam_coords o (line_at P W s) = line_at k w s) by (rewrite cam_coords_line; reflexivity).
  exists (pin r (line_at k w s)). split; [rewrite <- EL; apply (image_pin c r o p _ HC Hp); unfold depth; rewrite EL; unfold line_at; cbn [rv_add rv_scale zip3v map3v cz]; lra|].
  set (t := rad (tilt_deg o)). set (g := sin (rad (heading_deg o)) * cx W + cos (rad (heading_deg o)) * cy W).
  assert (WY : cy w = cos t * g). { unfold w, camM, g. rewrite ER. fold t. replace (rad 0) with 0 by (unfold rad; ring). cbv [rotm rm_mul_v rdot]. cbn [cx cy cz]. rewrite sin_0, cos_0, EW. ring. }
  assert (WZ : cz w = - sin t * g). { unfold w, camM, g. rewrite ER. fold t. replace (rad 0) with 0 by (unfold rad; ring). cbv [rotm rm_mul_v rdot]. cbn [cx cy cz]. rewrite EW. ring. }
  assert (NS : sin t <> 0) by (intros X; rewrite X in WZ; lra). assert (NG : g <> 0) by (intros X; rewrite X in WZ; lra).
  assert (ER' : cy w * f_y r / cz w = - (f_y r * (cos t / sin t))) by (rewrite WY, WZ; field; split; auto).
  unfold pin, line_at. cbn [rv_add rv_scale zip3v map3v cx cy cz c1 c2].
  replace ((cy k + s * cy w) * f_y r / (cz k + s * cz w) + center_y r - (center_y r - f_y r * (cos t / sin t))) with ((cy k + s * cy w) * f_y r / (cz k + s * cz w) - cy w * f_y r / cz w) by (rewrite ER'; ring). exact B2.
Qed.
Print Assumptions C79_level_lines.

(** ** Panoramas *)
(** The other projections bend straight lines: the middle of three points of a line is not shown on the line through the other two. *)
Theorem C79_curved_refuted k : k <> Rectilinear -> exists c p0 p1 p2 P0 P2 Q0 Q1 Q2, plain_cam c k ex_r (ex_at 0) /\ rep3 p0 P0 /\ rep3 p2 P2 /\ rep3 p1 (between3 P0 P2 (1 / 2)) /\
  tinyR <= depth (ex_at 0) P0 /\ tinyR <= depth (ex_at 0) P2 /\ rep2 (imageFromSpace c p0 true) Q0 /\ rep2 (imageFromSpace c p1 true) Q1 /\ rep2 (imageFromSpace c p2 true) Q2 /\
  Q0 <> Q2 /\ forall u, Q1 <> between2 Q0 Q2 u.
Proof.
  intros NK. destruct (ex_cam_at k 0) as (c&HC).
  set (m := match k with Equirectangular => atan | _ => fun x => x end).
  assert (INC : forall x y, x < y -> m x < m y) by (unfold m; destruct k; intros; auto; apply atan_increasing; auto).
  set (P := fun x => V3 x 10 15). set (Q := fun a g => V2 (2000 + 3500 * a) (1500 - 3500 * m g)). pose proof PI_RGT_0 as PP.
  assert (IM : forall x a d, 0 < d -> - (PI / 2) < a < PI / 2 -> x = d * sin a -> 10 = d * cos a -> rep2 (imageFromSpace c (fin3 (P x)) true) (Q a (5 / d))).
  { intros x a d PD HA HX HY. apply (image_dir c k ex_r (ex_at 0) _ (P x)); auto using rep3_fin.
    - apply ex_at_showable; cbn; lra.
    - unfold in_range, alphaR, betaR, Q, m. cbn [c1 c2 ex_r f_x f_y center_x center_y]. replace ((2000 + 3500 * a - 2000) / 3500) with a by field.
      destruct k; [exact Logic.I|lra|]. split; [lra|]. replace ((1500 - 3500 * atan (5 / d) - 1500) / 3500) with (- atan (5 / d)) by field. pose proof (atan_bound (5 / d)). lra.
    - rewrite ex_at_coords. exists d. split; [exact PD|]. unfold rayR, alphaR, betaR, Q. cbn [c1 c2 ex_r f_x f_y center_x center_y]. replace ((2000 + 3500 * a - 2000) / 3500) with a by field.
      replace ((1500 - 3500 * m (5 / d) - 1500) / 3500) with (- m (5 / d)) by field. unfold m. destruct k; [congruence| |].
      + apply v3_ext; cbn; [lra|field; lra|lra].
      + rewrite tan_neg, tan_atan. apply v3_ext; cbn; [lra|field; lra|lra]. }
  assert (S2 : sqrt 2 * sqrt 2 = 2) by (apply sqrt_sqrt; lra). assert (B2 : 1 < sqrt 2) by (rewrite <- sqrt_1; apply sqrt_lt_1; lra).
  exists c, (fin3 (P (-10))), (fin3 (P 0)), (fin3 (P 10)), (P (-10)), (P 10), (Q (- (PI / 4)) (5 / (10 * sqrt 2))), (Q 0 (5 / 10)), (Q (PI / 4) (5 / (10 * sqrt 2))).
  split; [exact HC|]. do 2 (split; [apply rep3_fin|]). split; [eapply rep3_eq; [apply rep3_fin|]; apply v3_ext; cbn; field|].
  do 2 (split; [unfold depth; rewrite ex_at_coords; cbn; unfold tinyR; lra|]).
  split; [apply IM; try lra; [rewrite sin_neg, sin_PI4|rewrite cos_neg, cos_PI4]; field; lra|]. split; [apply IM; rewrite ?sin_0, ?cos_0; lra|]. split; [apply IM; try lra; [rewrite sin_PI4|rewrite cos_PI4]; field; lra|].
  assert (L : m (5 / (10 * sqrt 2)) < m (5 / 10)).
  { apply INC. apply Rmult_lt_reg_r with (10 * sqrt 2); [lra|]. unfold Rdiv. rewrite Rmult_assoc, Rinv_l by lra. lra. }
  split; [unfold Q; intros X; injection X; lra|]. unfold Q, between2. cbn [c1 c2]. intros u X. injection X as X1 X2. lra.
Qed.
Print Assumptions C79_curved_refuted.

(** ** Examples *)
Example C79_segment_example : exists c Q0 Q1, plain_cam c Rectilinear ex_r (ex_at 0) /\ tinyR <= depth (ex_at 0) (V3 0 20 0) /\ tinyR <= depth (ex_at 0) (V3 5 100 8) /\
  rep2 (imageFromSpace c (fin3 (V3 0 20 0)) true) Q0 /\ rep2 (imageFromSpace c (fin3 (V3 5 100 8)) true) Q1 /\ Q0 = V2 2000 3250 /\ Q1 = V2 2175 1570.
Proof.
  destruct (ex_cam_at Rectilinear 0) as (c&HC). exists c, (V2 2000 3250), (V2 2175 1570). split; [exact HC|].
  assert (D0 : tinyR <= depth (ex_at 0) (V3 0 20 0)) by (unfold depth; rewrite ex_at_coords; cbn; unfold tinyR; lra). assert (D1 : tinyR <= depth (ex_at 0) (V3 5 100 8)) by (unfold depth; rewrite ex_at_coords; cbn; unfold tinyR; lra).
  splits; auto; (eapply rep2_eq; [apply image_pin; [exact HC|apply rep3_fin|assumption]|]); rewrite ex_at_coords; unfold pin; cbn; f_equal; field.
Qed.
(** the points 50 m and 100 m ahead of the level camera: pixels of rows 2200 and 1850 *)
Example C79_ground_example : exists c p p', plain_cam c Rectilinear ex_r (ex_at 0) /\ 0 < elevation_m (ex_at 0) /\ cz (sight (ex_at 0) ex_r (V2 2140 1850)) < 0 /\ cz (sight (ex_at 0) ex_r (V2 2070 2200)) < 0 /\
  spaceFromImage c (fin2 (V2 2140 1850)) (on_Z (Fin 0)) = Some p /\ spaceFromImage c (fin2 (V2 2070 2200)) (on_Z (Fin 0)) = Some p' /\ rep3 p (V3 4 100 0) /\ rep3 p' (V3 1 50 0) /\
  forwards (ex_at 0) (V3 1 50 0) < forwards (ex_at 0) (V3 4 100 0).
Proof.
  destruct (ex_cam_at Rectilinear 0) as (c&HC). assert (T : rad 90 = PI / 2) by (unfold rad; field). assert (T0 : rad 0 = 0) by (unfold rad; ring).
  assert (SI : forall x y, sight (ex_at 0) ex_r (V2 x y) = V3 ((x - 2000) / 3500) 1 (- ((y - 1500) / 3500))).
  { intros x y. rewrite sight_level by (cbn; lra). cbv zeta. cbn [heading_deg tilt_deg ex_at c1 c2 ex_r f_x f_y center_x center_y]. rewrite T, T0, sin_0, cos_0, sin_PI2, cos_PI2. apply v3_ext; cbn [cx cy cz]; field. }
  destruct (ground c ex_r (ex_at 0) _ (V2 2140 1850) (Fin 0) 0 HC (rep2_fin _) (rep_Fin 0)) as (p&Ep&Rp); [cbn; lra|rewrite SI; cbn; lra|].
  destruct (ground c ex_r (ex_at 0) _ (V2 2070 2200) (Fin 0) 0 HC (rep2_fin _) (rep_Fin 0)) as (p'&Ep'&Rp'); [cbn; lra|rewrite SI; cbn; lra|].
  exists c, p, p'. rewrite !SI in *. splits; auto; try (cbn; lra).
  - eapply rep3_eq; [exact Rp|]. apply v3_ext; cbn; field.
  - eapply rep3_eq; [exact Rp'|]. apply v3_ext; cbn; field.
  - unfold forwards. cbn [heading_deg ex_at pos_x_m pos_y_m cx cy]. rewrite T0, sin_0, cos_0. lra.
Qed.
(** a pole of 2 m, 50 m away: 140 pixels *)
Example C79_size_example : exists c A B, plain_cam c Rectilinear ex_r (ex_at 0) /\ depth (ex_at 0) (rv_add (V3 1 50 0) (V3 0 0 2)) = depth (ex_at 0) (V3 1 50 0) /\ tinyR <= depth (ex_at 0) (V3 1 50 0) /\
  rep2 (imageFromSpace c (fin3 (V3 1 50 0)) true) A /\ rep2 (imageFromSpace c (fin3 (rv_add (V3 1 50 0) (V3 0 0 2))) true) B /\ c2 B - c2 A = - 140.
Proof.
  destruct (ex_cam_at Rectilinear 0) as (c&HC). assert (D0 : tinyR <= depth (ex_at 0) (V3 1 50 0)) by (unfold depth; rewrite ex_at_coords; cbn; unfold tinyR; lra).
  assert (D1 : depth (ex_at 0) (rv_add (V3 1 50 0) (V3 0 0 2)) = depth (ex_at 0) (V3 1 50 0)) by (unfold depth; rewrite !ex_at_coords; cbn; ring).
  eexists c, _, _. split; [exact HC|]. split; [exact D1|]. split; [exact D0|]. split; [apply image_pin; [exact HC|apply rep3_fin|exact D0]|].
  split; [apply image_pin; [exact HC|apply rep3_fin|rewrite D1; exact D0]|]. rewrite !ex_at_coords. unfold pin. cbn. field.
Qed.
(** lines that lead north: they end in the middle of the picture of the level camera that looks north *)
Example C79_vanishing_example : depth (ex_at 0) (rv_add (opos (ex_at 0)) (V3 0 1 0)) > 0 /\ cz (V3 0 1 0) = 0 /\ roll_deg (ex_at 0) = 0 /\
  center_y ex_r - f_y ex_r * (cos (rad (tilt_deg (ex_at 0))) / sin (rad (tilt_deg (ex_at 0)))) = 1500 /\ same_angles (ex_at 0) (ex_at 3) /\ exists c, plain_cam c Rectilinear ex_r (ex_at 3).
Proof.
  split; [unfold depth; rewrite ex_at_coords; cbn; lra|]. split; [reflexivity|]. split; [reflexivity|]. split.
  - cbn [tilt_deg ex_at]. replace (rad 90) with (PI / 2) by (unfold rad; field). rewrite sin_PI2, cos_PI2. cbn. field.
  - split; [unfold same_angles; splits; reflexivity|apply ex_cam_at].
Qed.
