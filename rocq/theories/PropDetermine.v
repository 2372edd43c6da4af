(** * C78: which parameters the observations of a fit determine *)
Require Import Reals Lra Psatz List Bool ZArith Lia.
From Verif Require Import Num Vec Trig Orientation OrientationFacts Projection ProjectionFacts Ray RayFacts CameraTransform CameraFacts PropCamera Horizon PropHorizon.
From Verif Require Import Stereo PropStereo LogProb PropLogProb FitTerms PropFitTerms.
Import ListNotations.
Open Scope R_scope.

(** ** Specification *)
(** Two results say the same: both are nan or both are the same real number; the second is [s] times the first. *)
Definition scaled (s : R) (x y : num) : Prop := (x = NaN /\ y = NaN) \/ exists a, rep x a /\ rep y (s * a).
Definition same : num -> num -> Prop := scaled 1.
(** Both cameras have the same tilt and roll; nothing is said about heading, position and elevation. *)
Definition same_tilt (o o' : opar R) : Prop := tilt_deg o' = tilt_deg o /\ roll_deg o' = roll_deg o.

(** ** The lines of sight of the two cameras *)
Definition turn (c s : R) (W : v3 R) : v3 R := V3 (c * cx W - s * cy W) (s * cx W + c * cy W) (cz W).
Lemma rot_head t r v : exists A B C, forall h', rm_mul_v (rm_trans (rotm t r h')) v = V3 (cos h' * A + sin h' * B) (- sin h' * A + cos h' * B) C.
Proof.
  destruct v as [x y z]. exists (cos r * x - sin r * y), (sin r * cos t * x + cos r * cos t * y - sin t * z), (sin r * sin t * x + cos r * sin t * y + cos t * z).
  intros h'. apply v3_ext; cbv [rotm rm_trans rm_mul_v rdot cx cy cz]; ring.
Qed.
Lemma turned o o' : same_tilt o o' -> exists c s, c * c + s * s = 1 /\ forall v, rm_mul_v (rm_trans (camM o')) v = turn c s (rm_mul_v (rm_trans (camM o)) v).
Proof.
  intros (ET&ER). unfold camM. rewrite ET, ER. set (t := rad (tilt_deg o)). set (r := rad (roll_deg o)). set (h := rad (heading_deg o)). set (h' := rad (heading_deg o')).
  exists (cos (h - h')), (sin (h - h')). split; [pose proof (sin2_cos2 (h - h')) as S; unfold Rsqr in S; lra|].
  intros v. destruct (rot_head t r v) as (A&B&C&E). rewrite (E h), (E h'). cbn [turn cx cy cz]. rewrite cos_minus, sin_minus. pose proof (sin2_cos2 h) as S. unfold Rsqr in S.
  unfold turn. cbn [cx cy cz]. f_equal.
  - transitivity ((sin h * sin h + cos h * cos h) * (cos h' * A + sin h' * B)); [rewrite S; ring|ring].
  - transitivity ((sin h * sin h + cos h * cos h) * (- sin h' * A + cos h' * B)); [rewrite S; ring|ring].
Qed.
Lemma turn_dot c s U V : c * c + s * s = 1 -> rdot (turn c s U) (turn c s V) = rdot U V.
Proof.
  intros E. destruct U as [a b z], V as [a' b' z']. unfold rdot, turn. cbn [cx cy cz].
  transitivity ((c * c + s * s) * (a * a' + b * b') + z * z'); [ring|rewrite E; ring].
Qed.
Lemma turn_sub c s U V : turn c s (rv_sub U V) = rv_sub (turn c s U) (turn c s V).
Proof. destruct U, V. apply v3_ext; cbn; ring. Qed.
Lemma turn_scale c s f V : turn c s (rv_scale f V) = rv_scale f (turn c s V).
Proof. destruct V. apply v3_ext; cbn; ring. Qed.
Lemma turn_norm c s U : c * c + s * s = 1 -> rnorm (turn c s U) = rnorm U.
Proof. intros E. unfold rnorm. rewrite turn_dot; auto. Qed.

(** ** Lengths *)
(** The point of the plane Z = [Z] that a pixel shows, [W] the line of sight: [reach] none, or the multiple of [W] *)
Lemma on_plane c k r o q Q z Z : plain_cam c k r o -> rep2 q Q -> has_ray k r Q -> rep z Z ->
  let W := rm_mul_v (rm_trans (camM o)) (rayR k r Q) in
  exists p, spaceFromImage c q (on_Z z) = Some p /\
    ((cz W = 0 \/ (Z - elevation_m o) / cz W < 0) /\ cz p = NaN \/
     (cz W <> 0 /\ 0 <= (Z - elevation_m o) / cz W) /\ rep3 p (rv_add (opos o) (rv_scale ((Z - elevation_m o) / cz W) W))).
Proof.
  intros HC Hq HH Hz W. destruct (plain_good _ _ _ _ HC) as (HG&HK&_&HU).
  assert (Hq' : rep2 (cam_undist c q) Q) by (rewrite HU; auto). rewrite <- HK in HH. assert (EW : dirW c r (camM o) Q = W) by (unfold dirW; rewrite HK; reflexivity).
  destruct (Req_dec (cz W) 0) as [E|N].
  - destruct (sfi_axis_parallel c r (camM o) (opos o) q Q AZ z Z HG Hq' HH Hz) as (p&Ep&NP); [rewrite EW; exact E|]. exists p. split; [exact Ep|]. left. auto.
  - destruct (sfi_axis c r (camM o) (opos o) q Q AZ z Z HG Hq' HH Hz) as (HN&HP); [rewrite EW; exact N|]. rewrite EW in HN, HP. cbn [get_axis opos cz] in HN, HP.
    destruct (Rlt_le_dec ((Z - elevation_m o) / cz W) 0) as [B|B].
    + exists nan3. change (on_Z z) with (on_axis AZ z). rewrite (HN B). split; [reflexivity|]. left. auto.
    + destruct (HP B) as (p&Ep&Rp). exists p. split; [exact Ep|]. right. auto.
Qed.
Lemma ratio_sign a b w : 0 < b / a -> w <> 0 -> (a / w < 0 <-> b / w < 0).
Proof.
  intros P N. assert (A : a <> 0) by (intros ->; unfold Rdiv in P; rewrite Rinv_0, Rmult_0_r in P; lra).
  replace (b / w) with (b / a * (a / w)) by (field; auto). split; intros H; nra.
Qed.
Lemma norm_nan a b : cz a = NaN \/ cz b = NaN -> nv_norm (nv_sub a b) = NaN.
Proof.
  intros H. assert (E : cz (nv_sub a b) = NaN).
  { destruct a as [a1 a2 a3], b as [b1 b2 b3]. cbn [cz nv_sub zip3v] in *. destruct H as [-> | ->]; [reflexivity|]. destruct a3; reflexivity. }
  unfold nv_norm. rewrite E, nmul_NaN_l, nadd_NaN_r. reflexivity.
Qed.
(** Two cameras with the same tilt and roll measure lengths on a plane in the proportion of their heights above it, or
    both measure nothing, whatever their headings and positions are. *)
Theorem C78_length c c' k r o o' q1 q2 Q1 Q2 z Z : plain_cam c k r o -> plain_cam c' k r o' -> same_tilt o o' ->
  rep2 q1 Q1 -> rep2 q2 Q2 -> has_ray k r Q1 -> has_ray k r Q2 -> rep z Z -> 0 < (elevation_m o' - Z) / (elevation_m o - Z) ->
  exists v v', getObjectLength c q1 q2 z = Some v /\ getObjectLength c' q1 q2 z = Some v' /\
    scaled ((elevation_m o' - Z) / (elevation_m o - Z)) v v'.
Proof.
  intros HC HC' HS H1 H2 R1 R2 Hz HE. destruct (turned o o' HS) as (tc&ts&E1&TW).
  destruct (on_plane c k r o q1 Q1 z Z HC H1 R1 Hz) as (a&Ea&Ka). destruct (on_plane c k r o q2 Q2 z Z HC H2 R2 Hz) as (b&Eb&Kb).
  destruct (on_plane c' k r o' q1 Q1 z Z HC' H1 R1 Hz) as (a'&Ea'&Ka'). destruct (on_plane c' k r o' q2 Q2 z Z HC' H2 R2 Hz) as (b'&Eb'&Kb').
  unfold getObjectLength. rewrite Ea, Eb, Ea', Eb'. eexists _, _. split; [reflexivity|]. split; [reflexivity|].
  rewrite !TW in *. set (W1 := rm_mul_v (rm_trans (camM o)) (rayR k r Q1)) in *. set (W2 := rm_mul_v (rm_trans (camM o)) (rayR k r Q2)) in *.
  change (cz (turn tc ts W1)) with (cz W1) in *. change (cz (turn tc ts W2)) with (cz W2) in *. clear TW Ea Eb Ea' Eb'.
  assert (HE' : 0 < (Z - elevation_m o') / (Z - elevation_m o)).
  { assert (elevation_m o - Z <> 0) by (intros X; rewrite X in HE; unfold Rdiv in HE; rewrite Rinv_0, Rmult_0_r in HE; lra).
    replace ((Z - elevation_m o') / (Z - elevation_m o)) with ((elevation_m o' - Z) / (elevation_m o - Z)) by (field; lra). exact HE. }
  pose proof (ratio_sign _ _ (cz W1) HE') as S1. pose proof (ratio_sign _ _ (cz W2) HE') as S2.
  destruct Ka as [(C1&N1)|((C1&P1)&N1)].
  { left. split; apply norm_nan; left; [exact N1|]. destruct Ka' as [(_&N)|((C&P)&_)]; [exact N|]. exfalso. destruct C1 as [C1|C1]; [contradiction|]. apply S1 in C1; [lra|exact C]. }
  destruct Kb as [(C2&N2)|((C2&P2)&N2)].
  { left. split; apply norm_nan; right; [exact N2|]. destruct Kb' as [(_&N)|((C&P)&_)]; [exact N|]. exfalso. destruct C2 as [C2|C2]; [contradiction|]. apply S2 in C2; [lra|exact C]. }
  destruct Ka' as [([C|C]&_)|(_&N1')]; [contradiction|apply S1 in C; [lra|auto]|]. destruct Kb' as [([C|C]&_)|(_&N2')]; [contradiction|apply S2 in C; [lra|auto]|].
  right. eexists. split; [apply rep_norm, rep3_sub; [exact N1|exact N2]|]. eapply rep_eq; [apply rep_norm, rep3_sub; [exact N1'|exact N2']|].
  assert (NZ : Z - elevation_m o <> 0) by (intros X; rewrite X in HE'; unfold Rdiv in HE'; rewrite Rinv_0, Rmult_0_r in HE'; lra).
  set (f1 := (Z - elevation_m o) / cz W1) in *. set (f2 := (Z - elevation_m o) / cz W2) in *. set (g := (elevation_m o' - Z) / (elevation_m o - Z)) in *.
  replace ((Z - elevation_m o') / cz W1) with (g * f1) by (unfold g, f1; field; split; [exact C1|lra]).
  replace ((Z - elevation_m o') / cz W2) with (g * f2) by (unfold g, f2; field; split; [exact C2|lra]).
  replace (rv_sub (rv_add (opos o') (rv_scale (g * f1) (turn tc ts W1))) (rv_add (opos o') (rv_scale (g * f2) (turn tc ts W2))))
    with (rv_scale g (turn tc ts (rv_sub (rv_scale f1 W1) (rv_scale f2 W2)))) by (apply v3_ext; cbn; ring).
  rewrite rnorm_scale, turn_norm, Rabs_right by (auto; lra). f_equal. f_equal. apply v3_ext; cbn; ring.
Qed.
Print Assumptions C78_length.
Lemma same_sum l l' : Forall2 same l l' -> same (nsum l) (nsum l').
Proof.
  unfold nsum. assert (G : forall a b, same a b -> Forall2 same l l' -> same (fold_left nadd l a) (fold_left nadd l' b)).
  { intros a b HA H. revert a b HA. induction H as [|x y l l' Hxy H IH]; intros a b HA; cbn [fold_left]; [exact HA|]. apply IH.
    destruct HA as [(->&->)|(u&A1&A2)]; [left; split; reflexivity|]. destruct Hxy as [(->&->)|(w&B1&B2)]; [left; split; apply nadd_NaN_r|].
    right. exists (u + w). split; [apply rep_add; auto|]. eapply rep_eq; [apply rep_add; [exact A2|exact B2]|]. ring. }
  intros H. apply G; [|exact H]. right. exists 0. split; [apply rep_Fin|]. eapply rep_eq; [apply rep_Fin|]. ring.
Qed.
Lemma same_logpdf loc scale x y m s : rep loc m -> rep scale s -> 0 < s -> same x y -> same (logpdf loc scale x) (logpdf loc scale y).
Proof.
  intros HL HS HP H. destruct (C58_normal loc scale x m s HL HS HP) as (R1&_&N1). destruct (C58_normal loc scale y m s HL HS HP) as (R2&_&N2).
  destruct H as [(->&->)|(a&A1&A2)]; [left; auto|]. right. exists (ln (density m s a)). split; [auto|]. eapply rep_eq; [apply R2; exact A2|]. rewrite !Rmult_1_l. reflexivity.
Qed.
Lemma osum_same l l' : Forall2 (fun x y => exists v v', x = Some v /\ y = Some v' /\ same v v') l l' -> exists s s', sum_terms l = Some s /\ sum_terms l' = Some s' /\ same s s'.
Proof.
  intros H. assert (E : exists a b, osum l = Some a /\ osum l' = Some b /\ Forall2 same a b).
  { induction H as [|x y l l' (v&v'&->&->&S) H (a&b&E1&E2&F)]; [exists [], []; auto|]. exists (v :: a), (v' :: b). cbn [osum]. rewrite E1, E2. cbn. auto. }
  destruct E as (a&b&E1&E2&F). unfold sum_terms. rewrite E1, E2. cbn. eexists _, _. split; [reflexivity|]. split; [reflexivity|]. apply same_sum, F.
Qed.
(** The two pixels of an object have a line of sight, its size is a number. *)
Definition observed (k : pkind) (r : proj R) (ob : object) : Prop :=
  (exists Q, rep2 (ob_1 ob) Q /\ has_ray k r Q) /\ (exists Q, rep2 (ob_2 ob) Q /\ has_ray k r Q) /\ exists L, rep (ob_size ob) L.
(** Neither the heading nor the position changes the term of observed lengths. *)
Theorem C78_length_term c c' k r o o' z Z obs sigma s : plain_cam c k r o -> plain_cam c' k r o' -> same_tilt o o' -> elevation_m o' = elevation_m o ->
  rep z Z -> Z <> elevation_m o -> (forall ob, In ob obs -> observed k r ob) -> rep sigma s -> 0 < s ->
  exists v v', length_term c z obs (VNumber sigma) = Some v /\ length_term c' z obs (VNumber sigma) = Some v' /\ same v v'.
Proof.
  intros HC HC' HS HE Hz NE HO Hs Ps. unfold length_term, size_term. cbn [scale_of]. apply osum_same. induction obs as [|ob obs IH]; [constructor|].
  cbn [map]. constructor; [|apply IH; intros; apply HO; right; auto]. destruct (HO ob (or_introl eq_refl)) as ((Q1&H1&R1)&(Q2&H2&R2)&L&HL).
  assert (X1 : (elevation_m o' - Z) / (elevation_m o - Z) = 1) by (rewrite HE; field; lra).
  destruct (C78_length c c' k r o o' _ _ Q1 Q2 z Z HC HC' HS H1 H2 R1 R2 Hz) as (v&v'&E1&E2&S); [lra|]. rewrite E1, E2. cbn [option_map]. rewrite X1 in S.
  eexists _, _. split; [reflexivity|]. split; [reflexivity|]. eapply same_logpdf; eauto.
Qed.
Print Assumptions C78_length_term.
(** One observed length determines the elevation: two cameras on the same side of the plane, with the same tilt and roll,
    that both measure the same positive length are equally high. *)
Theorem C78_elevation c c' k r o o' q1 q2 Q1 Q2 z Z v v' L : plain_cam c k r o -> plain_cam c' k r o' -> same_tilt o o' ->
  rep2 q1 Q1 -> rep2 q2 Q2 -> has_ray k r Q1 -> has_ray k r Q2 -> rep z Z -> 0 < (elevation_m o' - Z) / (elevation_m o - Z) ->
  getObjectLength c q1 q2 z = Some v -> getObjectLength c' q1 q2 z = Some v' -> rep v L -> rep v' L -> 0 < L -> elevation_m o' = elevation_m o.
Proof.
  intros HC HC' HS H1 H2 R1 R2 Hz HE E1 E2 RV RV' PL. destruct (C78_length c c' k r o o' q1 q2 Q1 Q2 z Z HC HC' HS H1 H2 R1 R2 Hz HE) as (w&w'&F1&F2&S).
  assert (w = v) by congruence. assert (w' = v') by congruence. subst w w'. destruct S as [(->&_)|(a&A1&A2)]; [discriminate|].
  pose proof (rep_inj _ _ _ RV A1) as <-. pose proof (rep_inj _ _ _ RV' A2) as E.
  assert (N : elevation_m o - Z <> 0) by (intros X; rewrite X in HE; unfold Rdiv in HE; rewrite Rinv_0, Rmult_0_r in HE; lra).
  assert (G : (elevation_m o' - Z) / (elevation_m o - Z) = 1) by nra. apply (f_equal (fun x => x * (elevation_m o - Z))) in G. unfold Rdiv in G.
  rewrite Rmult_assoc, Rinv_l in G by exact N. lra.
Qed.
Print Assumptions C78_elevation.

(** ** Heights *)
Lemma on_upright i c k r o q Q g G : plain_cam c k r o -> rep2 q Q -> has_ray k r Q -> rep g G ->
  let W := rm_mul_v (rm_trans (camM o)) (rayR k r Q) in get_axis i W <> 0 ->
  let f := (G - get_axis i (opos o)) / get_axis i W in
  exists p, spaceFromImage c q (on_axis i g) = Some p /\ (f < 0 -> cz p = NaN) /\ (0 <= f -> rep (cz p) (elevation_m o + f * cz W)).
Proof.
  intros HC Hq HH Hg W NW f. destruct (plain_good _ _ _ _ HC) as (HG&HK&_&HU).
  assert (Hq' : rep2 (cam_undist c q) Q) by (rewrite HU; auto). rewrite <- HK in HH. assert (EW : dirW c r (camM o) Q = W) by (unfold dirW; rewrite HK; reflexivity).
  destruct (sfi_axis c r (camM o) (opos o) q Q i g G HG Hq' HH Hg) as (HN&HP); [rewrite EW; exact NW|]. rewrite EW in HN, HP. fold f in HN, HP.
  destruct (Rlt_le_dec f 0) as [B|B].
  - exists nan3. split; [apply HN, B|]. split; [reflexivity|lra].
  - destruct (HP B) as (p&Ep&Rp). exists p. split; [exact Ep|]. split; [lra|]. intros _. destruct Rp as (_&_&Rz). exact Rz.
Qed.
(** What getObjectHeight returns: with [F] the multiple of the line of sight to the feet, the head is at the multiples
    [F * Wy / Vy] and [F * Wx / Vx] of its own line of sight, if it is seen forwards. *)
Definition height_seen (E Z : R) (W V : v3 R) : option R :=
  let F := (Z - E) / cz W in let a := F * cy W / cy V in let b := F * cx W / cx V in
  if Rle_dec 0 F then if Rle_dec 0 a then if Rle_dec 0 b then Some (E - Z + (a + b) / 2 * cz V) else None else None else None.
Lemma height_value c k r o q1 q2 Q1 Q2 z Z : plain_cam c k r o -> rep2 q1 Q1 -> rep2 q2 Q2 -> has_ray k r Q1 -> has_ray k r Q2 -> rep z Z ->
  let W := rm_mul_v (rm_trans (camM o)) (rayR k r Q1) in let V := rm_mul_v (rm_trans (camM o)) (rayR k r Q2) in
  cz W <> 0 -> cx V <> 0 -> cy V <> 0 ->
  exists v, getObjectHeight c q1 q2 z = Some v /\ match height_seen (elevation_m o) Z W V with Some h => rep v h | None => v = NaN end.
Proof.
  intros HC H1 H2 R1 R2 Hz W V NW NX NY. destruct (on_plane c k r o q1 Q1 z Z HC H1 R1 Hz) as (f&Ef&Kf). fold W in Kf.
  unfold getObjectHeight. rewrite Ef. unfold height_seen. destruct Kf as [([C|C]&N)|((_&P)&RF)]; [contradiction| |].
  - destruct (Rle_dec 0 ((Z - elevation_m o) / cz W)) as [X|_]; [lra|].
    set (h1 := spaceFromImage c q2 (on_Y (cy f))). set (h2 := spaceFromImage c q2 (on_X (cx f))).
    assert (S1 : exists p, h1 = Some p) by (unfold h1, spaceFromImage; cbn; eauto). assert (S2 : exists p, h2 = Some p) by (unfold h2, spaceFromImage; cbn; eauto).
    destruct S1 as (p1&->), S2 as (p2&->). eexists. split; [reflexivity|]. rewrite N. apply nsub_NaN_r.
  - destruct (Rle_dec 0 ((Z - elevation_m o) / cz W)) as [_|X]; [|lra]. set (F := (Z - elevation_m o) / cz W) in *. destruct RF as (RX&RY&RZ). cbn [rv_add rv_scale zip3v map3v opos cx cy cz] in RX, RY, RZ.
    destruct (on_upright AY c k r o q2 Q2 (cy f) _ HC H2 R2 RY) as (p1&E1&N1&P1); [exact NY|]. destruct (on_upright AX c k r o q2 Q2 (cx f) _ HC H2 R2 RX) as (p2&E2&N2&P2); [exact NX|].
    fold V in N1, P1, N2, P2. cbn [get_axis opos cx cy] in N1, P1, N2, P2.
    replace ((pos_y_m o + F * cy W - pos_y_m o) / cy V) with (F * cy W / cy V) in N1, P1 by (field; auto).
    replace ((pos_x_m o + F * cx W - pos_x_m o) / cx V) with (F * cx W / cx V) in N2, P2 by (field; auto).
    change (on_Y (cy f)) with (on_axis AY (cy f)). change (on_X (cx f)) with (on_axis AX (cx f)). rewrite E1, E2. eexists. split; [reflexivity|].
    destruct (Rle_dec 0 (F * cy W / cy V)) as [B1|B1].
    + specialize (P1 B1). destruct (Rle_dec 0 (F * cx W / cx V)) as [B2|B2].
      * specialize (P2 B2). eapply rep_eq; [apply rep_sub; [unfold mean2; apply rep_div; [apply rep_add; [exact P1|exact P2]|apply rep_Fin|lra]|exact RZ]|].
        unfold F. field. auto.
      * assert (N : cz p2 = NaN) by (apply N2; lra). destruct p1 as [x1 y1 z1], p2 as [x2 y2 z2]. cbn [mean2 nv_div nv_add zip3v map3v cz] in *. rewrite N, nadd_NaN_r. reflexivity.
    + assert (N : cz p1 = NaN) by (apply N1; lra). destruct p1 as [x1 y1 z1], p2 as [x2 y2 z2]. cbn [mean2 nv_div nv_add zip3v map3v cz] in *. rewrite N. reflexivity.
Qed.
(** Cameras that differ only in elevation and position measure heights in the proportion of their heights above the
    ground. *)
Theorem C78_height c c' k r o o' q1 q2 Q1 Q2 z Z : plain_cam c k r o -> plain_cam c' k r o' -> same_tilt o o' -> heading_deg o' = heading_deg o ->
  rep2 q1 Q1 -> rep2 q2 Q2 -> has_ray k r Q1 -> has_ray k r Q2 -> rep z Z -> 0 < (elevation_m o' - Z) / (elevation_m o - Z) ->
  let W := rm_mul_v (rm_trans (camM o)) (rayR k r Q1) in let V := rm_mul_v (rm_trans (camM o)) (rayR k r Q2) in
  cz W <> 0 -> cx V <> 0 -> cy V <> 0 ->
  exists v v', getObjectHeight c q1 q2 z = Some v /\ getObjectHeight c' q1 q2 z = Some v' /\
    scaled ((elevation_m o' - Z) / (elevation_m o - Z)) v v'.
Proof.
  intros HC HC' (ET&ER) EH H1 H2 R1 R2 Hz HE W V NW NX NY. assert (EM : camM o' = camM o) by (unfold camM; rewrite ET, ER, EH; reflexivity).
  destruct (height_value c k r o q1 q2 Q1 Q2 z Z HC H1 H2 R1 R2 Hz) as (v&Ev&Kv); auto. destruct (height_value c' k r o' q1 q2 Q1 Q2 z Z HC' H1 H2 R1 R2 Hz) as (v'&Ev'&Kv'); try (rewrite EM; auto; fail).
  rewrite EM in Kv'. fold W V in Kv, Kv'. exists v, v'. split; [exact Ev|]. split; [exact Ev'|].
  assert (N : Z - elevation_m o <> 0) by (intros X; replace (elevation_m o - Z) with 0 in HE by lra; unfold Rdiv in HE; rewrite Rinv_0, Rmult_0_r in HE; lra).
  set (g := (elevation_m o' - Z) / (elevation_m o - Z)) in *. assert (EE : elevation_m o' - Z = g * (elevation_m o - Z)) by (unfold g; field; lra).
  unfold height_seen in Kv, Kv'. set (F := (Z - elevation_m o) / cz W) in *.
  replace ((Z - elevation_m o') / cz W) with (g * F) in Kv' by (unfold F; replace (Z - elevation_m o') with (g * (Z - elevation_m o)) by lra; field; auto).
  replace (g * F * cy W / cy V) with (g * (F * cy W / cy V)) in Kv' by (field; auto). replace (g * F * cx W / cx V) with (g * (F * cx W / cx V)) in Kv' by (field; auto).
  set (a := F * cy W / cy V) in *. set (b := F * cx W / cx V) in *.
  destruct (Rle_dec 0 F), (Rle_dec 0 (g * F)); try nra; [|left; auto]. destruct (Rle_dec 0 a), (Rle_dec 0 (g * a)); try nra; [|left; auto].
  destruct (Rle_dec 0 b), (Rle_dec 0 (g * b)); try nra; [|left; auto]. right. eexists. split; [exact Kv|]. eapply rep_eq; [exact Kv'|]. rewrite EE. unfold Rdiv. ring.
Qed.
Print Assumptions C78_height.
(** so that one measured height determines the elevation *)
Theorem C78_elevation_height c c' k r o o' q1 q2 Q1 Q2 z Z v v' h : plain_cam c k r o -> plain_cam c' k r o' -> same_tilt o o' -> heading_deg o' = heading_deg o ->
  rep2 q1 Q1 -> rep2 q2 Q2 -> has_ray k r Q1 -> has_ray k r Q2 -> rep z Z -> 0 < (elevation_m o' - Z) / (elevation_m o - Z) ->
  let W := rm_mul_v (rm_trans (camM o)) (rayR k r Q1) in let V := rm_mul_v (rm_trans (camM o)) (rayR k r Q2) in
  cz W <> 0 -> cx V <> 0 -> cy V <> 0 ->
  getObjectHeight c q1 q2 z = Some v -> getObjectHeight c' q1 q2 z = Some v' -> rep v h -> rep v' h -> h <> 0 -> elevation_m o' = elevation_m o.
Proof.
  intros HC HC' HS EH H1 H2 R1 R2 Hz HE W V NW NX NY E1 E2 RV RV' PL. destruct (C78_height c c' k r o o' q1 q2 Q1 Q2 z Z HC HC' HS EH H1 H2 R1 R2 Hz HE) as (w&w'&F1&F2&S); auto.
  assert (w = v) by congruence. assert (w' = v') by congruence. subst w w'. destruct S as [(->&_)|(a&A1&A2)]; [discriminate|].
  pose proof (rep_inj _ _ _ RV A1) as <-. pose proof (rep_inj _ _ _ RV' A2) as E.
  assert (N : elevation_m o - Z <> 0) by (intros X; rewrite X in HE; unfold Rdiv in HE; rewrite Rinv_0, Rmult_0_r in HE; lra).
  set (g := (elevation_m o' - Z) / (elevation_m o - Z)) in *. assert (G : g = 1) by (apply Rmult_eq_reg_r with h; [lra|exact PL]).
  assert (EE : elevation_m o' - Z = g * (elevation_m o - Z)) by (unfold g; field; exact N). rewrite G in EE. lra.
Qed.
Print Assumptions C78_elevation_height.
(** The heading matters for heights: getObjectHeight takes the mean of the head above the east-west line and above the
    north-south line through the feet.  For pixels that are not exactly above each other, as observed pixels never are, a
    camera that differs only in its heading measures another height. *)
Definition ex_45 : opar R := OPar 10 90 0 45 0 0.
Lemma ex_cam45 k : exists c, plain_cam c k ex_r ex_45.
Proof.
  assert (H : rep_opar (opar_fin ex_45) ex_45) by (repeat split). destruct (init_rigid _ _ H) as (m&E&_).
  exists (plain_camera k (proj_fin ex_r) m), (proj_fin ex_r), m. splits; auto; [repeat split|split; simpl; lra|eauto].
Qed.
Lemma level_ray o Q : tilt_deg o = 90 -> roll_deg o = 0 ->
  rm_mul_v (rm_trans (camM o)) (rayR Rectilinear ex_r Q) =
  let a := (c1 Q - 2000) / 3500 in let h := rad (heading_deg o) in V3 (cos h * a + sin h) (- sin h * a + cos h) (- ((c2 Q - 1500) / 3500)).
Proof.
  intros ET ER. unfold camM. rewrite ET, ER. replace (rad 90) with (PI / 2) by (unfold rad; field). replace (rad 0) with 0 by (unfold rad; ring).
  apply v3_ext; cbv [rotm rm_mul_v rm_trans rdot rayR alphaR betaR ex_r f_x f_y center_x center_y cx cy cz];
  rewrite ?sin_PI2, ?cos_PI2, ?sin_0, ?cos_0; ring.
Qed.
Theorem C78_heading_refuted : exists c c' k r o o' q1 q2 v v' h', plain_cam c k r o /\ plain_cam c' k r o' /\ same_tilt o o' /\ elevation_m o' = elevation_m o /\ opos o' = opos o /\
  rep2 q1 (V2 2070 2200) /\ rep2 q2 (V2 2140 1850) /\ getObjectHeight c q1 q2 (Fin 0) = Some v /\ getObjectHeight c' q1 q2 (Fin 0) = Some v' /\
  rep v (25 / 4) /\ rep v' h' /\ h' < 5.
Proof.
  destruct (ex_cam2 Rectilinear) as (c&HC). destruct (ex_cam45 Rectilinear) as (c'&HC').
  assert (ER : rad (heading_deg ex_45) = PI / 4) by (unfold rad, ex_45; cbn; field). assert (E0 : rad (heading_deg ex_or2) = 0) by (unfold rad, ex_or2; cbn; field).
  assert (S2 : sqrt 2 * sqrt 2 = 2) by (apply sqrt_sqrt; lra). assert (P2 : 0 < / sqrt 2) by (apply Rinv_0_lt_compat, sqrt_lt_R0; lra).
  destruct (height_value c Rectilinear ex_r ex_or2 (fin2 (V2 2070 2200)) (fin2 (V2 2140 1850)) _ _ (Fin 0) 0 HC (rep2_fin _) (rep2_fin _) Logic.I Logic.I (rep_Fin 0)) as (v&Ev&Kv);
    try (rewrite level_ray by reflexivity; cbv zeta; rewrite E0, sin_0, cos_0; cbn [c1 c2 cx cy cz]; lra).
  destruct (height_value c' Rectilinear ex_r ex_45 (fin2 (V2 2070 2200)) (fin2 (V2 2140 1850)) _ _ (Fin 0) 0 HC' (rep2_fin _) (rep2_fin _) Logic.I Logic.I (rep_Fin 0)) as (v'&Ev'&Kv');
    try (rewrite level_ray by reflexivity; cbv zeta; rewrite ER, sin_PI4, cos_PI4; cbn [c1 c2 cx cy cz]; unfold Rdiv; lra).
  rewrite !level_ray in Kv, Kv' by reflexivity. cbv zeta in Kv, Kv'. rewrite E0, sin_0, cos_0 in Kv. rewrite ER, sin_PI4, cos_PI4 in Kv'.
  unfold height_seen in Kv, Kv'. cbn [c1 c2 cx cy cz ex_or2 ex_45 elevation_m] in Kv, Kv'.
  set (a := 1 / sqrt 2) in *. assert (Pa : 0 < a) by (unfold a, Rdiv; lra).
  replace ((0 - 10) / - ((2200 - 1500) / 3500)) with 50 in Kv, Kv' by field.
  replace (50 * (- 0 * ((2070 - 2000) / 3500) + 1) / (- 0 * ((2140 - 2000) / 3500) + 1)) with 50 in Kv by field.
  replace (50 * (1 * ((2070 - 2000) / 3500) + 0) / (1 * ((2140 - 2000) / 3500) + 0)) with 25 in Kv by field.
  replace (50 * (- a * ((2070 - 2000) / 3500) + a) / (- a * ((2140 - 2000) / 3500) + a)) with (1225 / 24) in Kv' by (field; lra).
  replace (50 * (a * ((2070 - 2000) / 3500) + a) / (a * ((2140 - 2000) / 3500) + a)) with (1275 / 26) in Kv' by (field; lra).
  repeat (match type of Kv with context [Rle_dec 0 ?x] => destruct (Rle_dec 0 x) as [_|X]; [|exfalso; lra] end).
  repeat (match type of Kv' with context [Rle_dec 0 ?x] => destruct (Rle_dec 0 x) as [_|X]; [|exfalso; lra] end).
  exists c, c', Rectilinear, ex_r, ex_or2, ex_45, (fin2 (V2 2070 2200)), (fin2 (V2 2140 1850)), v, v'. eexists.
  do 2 (split; [assumption|]). split; [split; reflexivity|]. do 2 (split; [reflexivity|]). do 2 (split; [apply rep2_fin|]). do 2 (split; [assumption|]).
  split; [eapply rep_eq; [exact Kv|field]|]. split; [exact Kv'|]. lra.
Qed.
Print Assumptions C78_heading_refuted.

(** ** The horizon *)
(** The horizon found in a column does not depend on heading and position. *)
Theorem C78_horizon c c' k r o o' er e R E n X x : plain_cam c k r o -> plain_cam c' k r o' -> same_tilt o o' -> elevation_m o' = elevation_m o ->
  rep er R -> rep e E -> 0 < R -> 0 <= E -> INR n - 1 < im_height r <= INR n -> (0 < n)%nat -> rep x X ->
  (forall j, (j < n)%nat -> has_ray k r (V2 X (INR j))) ->
  exists p, getImageHorizon c er e (One x) = Some (inl p) /\ getImageHorizon c' er e (One x) = Some (inl p).
Proof.
  intros HC HC' HS HE Hr He PR PE HN Hn Hx HRay. destruct (turned o o' HS) as (tc&ts&E1&TW).
  assert (IH : rep (im_height (cam_proj c)) (im_height r)) by (destruct (plain_good _ _ _ _ HC) as ((HP&_)&_); apply HP).
  assert (IH' : rep (im_height (cam_proj c')) (im_height r)) by (destruct (plain_good _ _ _ _ HC') as ((HP&_)&_); apply HP).
  destruct (C17_geometry c k r o er e R E (im_height r) n X x HC Hr He PR PE IH HN Hn Hx HRay) as (D&i&HD&Hi&G&M).
  destruct (C17_geometry c' k r o' er e R E (im_height r) n X x HC' Hr He PR PE IH' HN Hn Hx HRay) as (D'&i'&HD'&Hi'&G'&M').
  pose proof (rep_inj _ _ _ HD HD') as <-. cbv zeta in M, M'.
  assert (EQ : forall j, height_at o' (rm_mul_v (rm_trans (camM o')) (rayR k r (V2 X (INR j)))) D = height_at o (rm_mul_v (rm_trans (camM o)) (rayR k r (V2 X (INR j)))) D).
  { intros j. unfold height_at. rewrite TW, turn_norm, HE by exact E1. reflexivity. }
  assert (i = i').
  { destruct (M i' Hi') as (A1&A2). destruct (M' i Hi) as (B1&B2). rewrite !EQ in B1, B2. assert (Q : forall x y, x <= y -> y <= x -> x = y) by (intros; lra).
    pose proof (A2 (Q _ _ B1 A1)). pose proof (B2 (Q _ _ A1 B1)). lia. }
  subst i'. exists (V2 x (Fin (INR i))). auto.
Qed.
Print Assumptions C78_horizon.

(** *** The tilt *)
Lemma atan_lipschitz x y : x <= y -> atan y - atan x <= y - x.
Proof.
  intros H. destruct (Req_dec x y) as [->|N]; [lra|].
  destruct (MVT_cor2 atan (fun t => / (1 + t ^ 2)) x y) as (t&Et&_); [lra|intros t _; apply derivable_pt_lim_atan|].
  rewrite Et. assert (0 <= t ^ 2) by apply pow2_ge_0. assert (/ (1 + t ^ 2) <= 1). { rewrite <- Rinv_1. apply Rinv_le_contravar; lra. } nra.
Qed.
(** In the middle column of a camera without roll, a line of sight at the angle [t + atan b] from straight down *)
Lemma middle_ray o r y : roll_deg o = 0 -> f_y r <> 0 -> f_x r <> 0 ->
  let b := (center_y r - y) / f_y r in let W := rm_mul_v (rm_trans (camM o)) (rayR Rectilinear r (V2 (center_x r) y)) in
  cz W / rnorm W = - cos (rad (tilt_deg o) + atan b).
Proof.
  intros ER FY FX b W. assert (S : 0 < sqrt (1 + b * b)) by (apply sqrt_lt_R0; nra).
  assert (NW : rnorm W = sqrt (1 + b * b)).
  { unfold rnorm. f_equal. unfold W. transitivity (rdot (rayR Rectilinear r (V2 (center_x r) y)) (rayR Rectilinear r (V2 (center_x r) y))); [apply orthonormal_dot; rewrite trans_trans; apply rotm_rows|].
    cbv [rdot rayR alphaR betaR c1 c2 cx cy cz]. unfold b. field. auto. }
  assert (CW : cz W = sin (rad (tilt_deg o)) * b - cos (rad (tilt_deg o))).
  { unfold W, camM. rewrite ER. replace (rad 0) with 0 by (unfold rad; ring). cbv [rotm rm_trans rm_mul_v rdot rayR alphaR betaR c1 c2 cx cy cz]. rewrite sin_0, cos_0. unfold b. field. auto. }
  clearbody b. rewrite NW, CW, cos_plus. rewrite sin_atan, !cos_atan. unfold Rsqr. set (q := sqrt (1 + b * b)) in *. field. lra.
Qed.

(** Where the horizon is found in the middle column says how far the camera is tilted, to the angle of one pixel. *)
Theorem C78_tilt c r o er e R n x i : plain_cam c Rectilinear r o -> roll_deg o = 0 -> rep er R -> rep e (elevation_m o) -> 0 < elevation_m o < R ->
  0 < f_y r -> INR n - 1 < im_height r <= INR n -> rep x (center_x r) ->
  (* all lines of sight of the column are between straight down and straight up *)
  (forall j, (j < n)%nat -> 0 <= rad (tilt_deg o) + atan ((center_y r - INR j) / f_y r) <= PI) ->
  getImageHorizon c er e (One x) = Some (inl (V2 x (Fin (INR i)))) -> (0 < i)%nat -> (S i < n)%nat ->
  exists D, rep (distanceToHorizon er e) D /\
    Rabs (rad (tilt_deg o) - (acos (elevation_m o / D) - atan ((center_y r - INR i) / f_y r))) <= / f_y r.
Proof.
  intros HC ER Hr He HE PF HN Hx HB HG Hi Hn. set (E := elevation_m o) in *. assert (FX : f_x r <> 0) by (destruct (plain_good _ _ _ _ HC) as ((_&(A&_)&_)&_); exact A).
  assert (IH : rep (im_height (cam_proj c)) (im_height r)) by (destruct (plain_good _ _ _ _ HC) as ((HP&_)&_); apply HP).
  destruct (C17_geometry c Rectilinear r o er e R E (im_height r) n (center_x r) x HC Hr He) as (D&i0&HD&Hi0&G&M); auto; try lra; try lia; [intros; exact Logic.I|].
  exists D. split; [exact HD|]. assert (i0 = i) by (rewrite HG in G; injection G as G; apply INR_eq; congruence). subst i0. cbv zeta in M.
  pose proof (rep_inj _ _ _ HD (dist_value er e E R Hr He ltac:(lra) ltac:(lra))) as ED.
  assert (D2 : D * D = 2 * (R * R) * (E / (R + E))). { rewrite ED. apply sqrt_sqrt. apply Rmult_le_pos; [nra|]. apply Rle_mult_inv_pos; lra. }
  assert (D0 : 0 <= D) by (rewrite ED; apply sqrt_pos).
  assert (DE : E < D).
  { assert (E * E < D * D); [|nra]. rewrite D2. replace (2 * (R * R) * (E / (R + E))) with (E * (2 * (R * R) / (R + E))) by (field; lra). apply Rmult_lt_compat_l; [lra|].
    apply Rmult_lt_reg_r with (R + E); [lra|]. unfold Rdiv. rewrite Rmult_assoc, Rinv_l by lra. nra. }
  set (t := rad (tilt_deg o)) in *. set (B := fun j => atan ((center_y r - INR j) / f_y r)).
  assert (EH : forall j, height_at o (rm_mul_v (rm_trans (camM o)) (rayR Rectilinear r (V2 (center_x r) (INR j)))) D = E - D * cos (t + B j)).
  { intros j. pose proof (middle_ray o r (INR j) ER ltac:(lra) FX) as K. cbv zeta in K. unfold height_at. set (W := rm_mul_v (rm_trans (camM o)) (rayR Rectilinear r (V2 (center_x r) (INR j)))) in *.
    replace (D / rnorm W * cz W) with (D * (cz W / rnorm W)) by (unfold Rdiv; ring). rewrite K. unfold B, t. fold E. ring. }
  assert (BD : forall j k, (j < k)%nat -> B k < B j). { intros j k L. unfold B. apply atan_increasing. apply lt_INR in L. unfold Rdiv. apply Rmult_lt_compat_r; [apply Rinv_0_lt_compat; lra|lra]. }
  assert (CD : forall j k, (j < k)%nat -> (k < n)%nat -> cos (t + B j) < cos (t + B k)).
  { intros j k L L'. pose proof (HB j ltac:(lia)) as X1. pose proof (HB k L') as X2. apply cos_decreasing_1; unfold B in *; try lra. pose proof (BD j k L) as X3. unfold B in X3. lra. }
  set (K := acos (E / D)). assert (ED1 : 0 < E / D < 1). { split; [apply Rdiv_lt_0_compat; lra|]. apply Rmult_lt_reg_r with D; [lra|]. unfold Rdiv. rewrite Rmult_assoc, Rinv_l by lra. lra. }
  assert (CK : cos K = E / D) by (apply cos_acos; lra). pose proof (acos_bound (E / D)) as KB. fold K in KB.
  assert (DK : D * cos K = E) by (rewrite CK; field; lra).
  destruct i as [|m]; [lia|]. clear Hi.
  assert (H1 : cos (t + B m) <= cos K).
  { apply Rnot_lt_le. intros L. destruct (M m ltac:(lia)) as (A&_). rewrite !EH in A. pose proof (CD m (S m) ltac:(lia) ltac:(lia)) as C. rewrite !Rabs_left in A by nra. nra. }
  assert (H2 : cos K <= cos (t + B (S (S m)))).
  { apply Rnot_lt_le. intros L. destruct (M (S (S m)) ltac:(lia)) as (A&_). rewrite !EH in A. pose proof (CD (S m) (S (S m)) ltac:(lia) ltac:(lia)) as C. rewrite !Rabs_right in A by nra. nra. }
  pose proof (HB m ltac:(lia)) as Y1. pose proof (HB (S (S m)) ltac:(lia)) as Y2.
  assert (K1 : K <= t + B m). { apply Rnot_lt_le. intros L. apply (Rlt_not_le _ _ (cos_decreasing_1 (t + B m) K ltac:(unfold B; lra) ltac:(unfold B; lra) ltac:(lra) ltac:(lra) L)). exact H1. }
  assert (K2 : t + B (S (S m)) <= K). { apply Rnot_lt_le. intros L. apply (Rlt_not_le _ _ (cos_decreasing_1 K (t + B (S (S m))) ltac:(lra) ltac:(lra) ltac:(unfold B; lra) ltac:(unfold B; lra) L)). exact H2. }
  assert (L1 : forall j, B j - B (S j) <= / f_y r).
  { intros j. unfold B. eapply Rle_trans; [apply atan_lipschitz|]; rewrite ?S_INR.
    - unfold Rdiv. apply Rmult_le_compat_r; [apply Rlt_le, Rinv_0_lt_compat; lra|lra].
    - right. field. lra. }
  pose proof (L1 m). pose proof (L1 (S m)). fold (B (S m)). apply Rabs_le. lra.
Qed.
Print Assumptions C78_tilt.
(** Two cameras at the same elevation with the horizon in the same row have the same tilt, to two pixels. *)
Theorem C78_same_horizon c c' r o o' er e R n x i : plain_cam c Rectilinear r o -> plain_cam c' Rectilinear r o' -> roll_deg o = 0 -> roll_deg o' = 0 ->
  elevation_m o' = elevation_m o -> rep er R -> rep e (elevation_m o) -> 0 < elevation_m o < R -> 0 < f_y r -> INR n - 1 < im_height r <= INR n -> rep x (center_x r) ->
  (forall j, (j < n)%nat -> 0 <= rad (tilt_deg o) + atan ((center_y r - INR j) / f_y r) <= PI /\ 0 <= rad (tilt_deg o') + atan ((center_y r - INR j) / f_y r) <= PI) ->
  getImageHorizon c er e (One x) = Some (inl (V2 x (Fin (INR i)))) -> getImageHorizon c' er e (One x) = Some (inl (V2 x (Fin (INR i)))) -> (0 < i)%nat -> (S i < n)%nat ->
  Rabs (rad (tilt_deg o) - rad (tilt_deg o')) <= 2 / f_y r.
Proof.
  intros HC HC' ER ER' EE Hr He HE PF HN Hx HB HG HG' Hi Hn.
  destruct (C78_tilt c r o er e R n x i HC ER Hr He HE PF HN Hx (fun j L => proj1 (HB j L)) HG Hi Hn) as (D&HD&A).
  rewrite <- EE in He, HE. destruct (C78_tilt c' r o' er e R n x i HC' ER' Hr He HE PF HN Hx (fun j L => proj2 (HB j L)) HG' Hi Hn) as (D'&HD'&A').
  pose proof (rep_inj _ _ _ HD HD') as <-. rewrite EE in A'. set (K := acos (elevation_m o / D) - atan ((center_y r - INR i) / f_y r)) in *.
  replace (2 / f_y r) with (/ f_y r + / f_y r) by (field; lra). replace (rad (tilt_deg o) - rad (tilt_deg o')) with ((rad (tilt_deg o) - K) - (rad (tilt_deg o') - K)) by ring.
  eapply Rle_trans; [apply Rabs_triang|]. rewrite Rabs_Ropp. lra.
Qed.
Print Assumptions C78_same_horizon.

(** ** Corresponding points *)
(** The image of a point of a line as a point of the line through two images *)
Lemma pin_line r a w s : let p u := pin r (line_at a w u) in cz (line_at a w 1) <> 0 -> cz (line_at a w 2) <> 0 -> cz (line_at a w s) <> 0 ->
  p s = line2 (p 1) (V2 (c1 (p 2) - c1 (p 1)) (c2 (p 2) - c2 (p 1))) ((s - 1) * cz (line_at a w 2) / cz (line_at a w s)).
Proof.
  intros p Z1 Z2 Z. unfold p, line2, pin, line_at in *. cbn [rv_add zip3v rv_scale map3v cx cy cz c1 c2] in *.
  f_equal; field; splits; intros Y; first [apply Z; rewrite <- Y; ring|apply Z1; rewrite <- Y; ring|apply Z2; rewrite <- Y; ring].
Qed.
(** The images of the line that starts at [s * a] are images of the line that starts at [a]. *)
Lemma pin_scaled r a w s u : s <> 0 -> cz (line_at (rv_scale s a) w u) <> 0 -> pin r (line_at (rv_scale s a) w u) = pin r (line_at a w (u / s)).
Proof.
  intros NS Z. unfold pin, line_at in *. cbn [rv_add zip3v rv_scale map3v cx cy cz] in *.
  assert (Z' : cz a + u / s * cz w <> 0) by (intros Y; apply Z; transitivity (s * (cz a + u / s * cz w)); [field; auto|rewrite Y; ring]).
  f_equal; field; splits; auto; intros Y; apply Z'; apply Rmult_eq_reg_l with s; auto; rewrite Rmult_0_r, <- Y; field; auto.
Qed.
Lemma line_of_line A V u1 u2 t : line2 (line2 A V u1) (V2 (c1 (line2 A V u2) - c1 (line2 A V u1)) (c2 (line2 A V u2) - c2 (line2 A V u1))) t = line2 A V (u1 + t * (u2 - u1)).
Proof. unfold line2. cbn [c1 c2]. f_equal; ring. Qed.
(** The deviation of a pixel from the line through the images of two points of the other ray *)
Lemma deviation_value a b ka ra rb oa ob qa qb QB W : plain_cam a ka ra oa -> plain_cam b Rectilinear rb ob -> rep2 qb QB ->
  rep3 (snd (getRay a qa false)) W -> ahead ob (opos oa) W -> rcross (rv_sub (opos oa) (opos ob)) W <> rv0 ->
  let p u := pin rb (line_at (cam_coords ob (opos oa)) (rm_mul_v (camM ob) W) u) in let L u := line2 (p 1) (V2 (c1 (p 2) - c1 (p 1)) (c2 (p 2) - c2 (p 1))) u in
  V2 (c1 (p 2) - c1 (p 1)) (c2 (p 2) - c2 (p 1)) <> V2 0 0 /\
  exists d, rep (epipolar_deviation a b qa qb) d /\ (forall u, d <= rdist2 (L u) QB) /\ exists u, rdist2 (L u) QB = d.
Proof.
  intros Ha Hb Hq HW AH NC p L. rewrite (deviation_front a b ka ra rb oa ob qa qb W Ha Hb HW AH).
  assert (HO : rep3 (fst (getRay a qa false)) (opos oa)) by (destruct (plain_good _ _ _ _ Ha) as (HG&_); cbn [getRay fst]; eapply origin_rep; eauto).
  destruct (ahead_sampled _ _ _ AH) as (B1&B2). pose proof (big_nz _ B1) as Z1. pose proof (big_nz _ B2) as Z2.
  assert (FO : f_x rb <> 0 /\ f_y rb <> 0) by (destruct (plain_good _ _ _ _ Hb) as ((_&F&_)&_); exact F). destruct FO as (FX&FY).
  pose proof (pins_differ rb oa ob W FX FY Z1 Z2 NC) as NV. cbv zeta in NV. rewrite !cam_coords_line in NV. split; [exact NV|].
  set (x1 := nv_add (fst (getRay a qa false)) (nv_scale (Fin 1) (snd (getRay a qa false)))). set (x2 := nv_add (fst (getRay a qa false)) (nv_scale (Fin 2) (snd (getRay a qa false)))).
  assert (R1 : rep3 x1 (line_at (opos oa) W 1)) by (apply rep3_add; auto; apply rep3_scale; auto; apply rep_Fin).
  assert (R2 : rep3 x2 (line_at (opos oa) W 2)) by (apply rep3_add; auto; apply rep3_scale; auto; apply rep_Fin).
  pose proof (ifs_pin _ _ _ _ _ Hb R1 B1) as I1. pose proof (ifs_pin _ _ _ _ _ Hb R2 B2) as I2. rewrite cam_coords_line in I1, I2. fold (p 1) in I1. fold (p 2) in I2.
  assert (RV : rep2 (nv2_sub (imageFromSpace b x2 false) (imageFromSpace b x1 false)) (V2 (c1 (p 2) - c1 (p 1)) (c2 (p 2) - c2 (p 1)))).
  { destruct I1, I2. split; cbn [nv2_sub zip2v c1 c2]; apply rep_sub; auto. }
  destruct (closest2_spec _ _ _ _ _ _ I1 RV Hq NV) as (u&RU&MIN). exists (rdist2 (L u) QB). split; [|split; [exact MIN|eauto]].
  change (epipolar_distance a b qa qb) with (nv_norm2 (nv2_sub (closest2 (imageFromSpace b x1 false) (nv2_sub (imageFromSpace b x2 false) (imageFromSpace b x1 false)) qb) qb)).
  destruct RU as (U1&U2), Hq as (Q1&Q2). unfold nv_norm2, rdist2, L. cbn [nv2_sub zip2v c1 c2]. apply rep_sqrt; [rep_all|]. apply Rplus_le_le_0_compat; apply Rle_0_sqr.
Qed.
(** [o'] is [o] moved to [s] times its position *)
Definition moved_out (s : R) (o o' : opar R) : Prop := opos o' = rv_scale s (opos o) /\ same_tilt o o' /\ heading_deg o' = heading_deg o.
(** Corresponding points leave the scale open: in a world that is [s] times as large, with the cameras [s] times as far
    from the origin, all deviations are the same. *)
Theorem C78_scale a b a' b' ka ra rb oa ob oa' ob' s qa qb QA QB W : plain_cam a ka ra oa -> plain_cam b Rectilinear rb ob ->
  plain_cam a' ka ra oa' -> plain_cam b' Rectilinear rb ob' -> 0 < s -> moved_out s oa oa' -> moved_out s ob ob' ->
  rep2 qa QA -> has_ray ka ra QA -> rep2 qb QB -> rep3 (snd (getRay a qa false)) W ->
  ahead ob (opos oa) W -> ahead ob' (opos oa') W -> rcross (rv_sub (opos oa) (opos ob)) W <> rv0 ->
  exists d, rep (epipolar_deviation a b qa qb) d /\ rep (epipolar_deviation a' b' qa qb) d.
Proof.
  intros Ha Hb Ha' Hb' PS (EA&(TA&LA)&DA) (EB&(TB&LB)&DB) Hqa HR Hqb HW AH AH' NC.
  assert (MA : camM oa' = camM oa) by (unfold camM; rewrite TA, LA, DA; reflexivity). assert (MB : camM ob' = camM ob) by (unfold camM; rewrite TB, LB, DB; reflexivity).
  assert (HW' : rep3 (snd (getRay a' qa false)) W).
  { destruct (plain_good _ _ _ _ Ha) as (HG&HK&_&HU). destruct (plain_good _ _ _ _ Ha') as (HG'&HK'&_&HU'). cbn [getRay snd] in *.
    pose proof (direction_rep a ra (camM oa) (opos oa) qa QA false HG ltac:(rewrite HU; auto) ltac:(rewrite HK; auto)) as X. cbv iota in X. rewrite (rep3_inj _ _ _ HW X).
    pose proof (direction_rep a' ra (camM oa') (opos oa') qa QA false HG' ltac:(rewrite HU'; auto) ltac:(rewrite HK'; auto)) as X'. cbv iota in X'.
    eapply rep3_eq; [exact X'|]. unfold dirW. rewrite MA, HK, HK'. reflexivity. }
  assert (NC' : rcross (rv_sub (opos oa') (opos ob')) W <> rv0).
  { intros Y. apply NC. rewrite EA, EB in Y. replace (rcross (rv_sub (rv_scale s (opos oa)) (rv_scale s (opos ob))) W) with (rv_scale s (rcross (rv_sub (opos oa) (opos ob)) W)) in Y by (apply v3_ext; cbn; ring).
    apply (f_equal (rv_scale (/ s))) in Y. transitivity (rv_scale (/ s) (rv_scale s (rcross (rv_sub (opos oa) (opos ob)) W))); [|rewrite Y]; apply v3_ext; cbn; try field; lra. }
  destruct (deviation_value a b ka ra rb oa ob qa qb QB W Ha Hb Hqb HW AH NC) as (NV&d&Rd&Md&ud&Ed).
  destruct (deviation_value a' b' ka ra rb oa' ob' qa qb QB W Ha' Hb' Hqb HW' AH' NC') as (NV'&d'&Rd'&Md'&ud'&Ed').
  assert (CO : cam_coords ob' (opos oa') = rv_scale s (cam_coords ob (opos oa))).
  { unfold cam_coords. rewrite MB, EA, EB, <- rm_mul_v_scale. f_equal. apply v3_ext; cbn; ring. }
  rewrite CO, MB in NV', Md', Ed'. set (a0 := cam_coords ob (opos oa)) in *. set (w := rm_mul_v (camM ob) W) in *.
  destruct (ahead_sampled _ _ _ AH) as (B1&B2). pose proof (big_nz _ B1) as Z1. pose proof (big_nz _ B2) as Z2. rewrite cam_coords_line in Z1, Z2. fold a0 w in Z1, Z2.
  destruct (ahead_sampled _ _ _ AH') as (B1'&B2'). pose proof (big_nz _ B1') as Z1'. pose proof (big_nz _ B2') as Z2'. rewrite cam_coords_line, CO, MB in Z1', Z2'. fold w in Z1', Z2'.
  assert (SC : forall u, cz (line_at (rv_scale s a0) w u) = s * cz (line_at a0 w (u / s))) by (intros u; cbn; field; lra).
  rewrite (pin_scaled rb a0 w s 1), (pin_scaled rb a0 w s 2) in NV', Md', Ed' by (auto; lra).
  assert (Y1 : cz (line_at a0 w (1 / s)) <> 0) by (intros Y; apply Z1'; rewrite SC, Y; ring). assert (Y2 : cz (line_at a0 w (2 / s)) <> 0) by (intros Y; apply Z2'; rewrite SC, Y; ring).
  rewrite (pin_line rb a0 w (1 / s)), (pin_line rb a0 w (2 / s)) in NV', Md', Ed' by auto.
  set (u1 := (1 / s - 1) * cz (line_at a0 w 2) / cz (line_at a0 w (1 / s))) in *. set (u2 := (2 / s - 1) * cz (line_at a0 w 2) / cz (line_at a0 w (2 / s))) in *.
  set (A := pin rb (line_at a0 w 1)) in *. set (V := V2 (c1 (pin rb (line_at a0 w 2)) - c1 A) (c2 (pin rb (line_at a0 w 2)) - c2 A)) in *.
  assert (NU : u2 - u1 <> 0).
  { intros Y. apply NV'. unfold line2. cbn [c1 c2]. replace u2 with u1 by lra. f_equal; ring. }
  rewrite line_of_line in Ed'. assert (d = d').
  { apply Rle_antisym.
    - rewrite <- Ed'. apply Md.
    - rewrite <- Ed. specialize (Md' ((ud - u1) / (u2 - u1))). rewrite line_of_line in Md'. replace (u1 + (ud - u1) / (u2 - u1) * (u2 - u1)) with ud in Md' by (field; exact NU). exact Md'. }
  exists d. split; [exact Rd|]. rewrite H. exact Rd'.
Qed.
Print Assumptions C78_scale.
(** So the term of corresponding points has the same value for all [s]: the fit needs a length from elsewhere. *)
Definition sighted (a b a' b' : camera) (ka kb : pkind) (ra rb : proj R) (oa ob oa' ob' : opar R) (q : v2 num * v2 num) : Prop := exists QA QB Wa Wb,
  rep2 (fst q) QA /\ has_ray ka ra QA /\ rep2 (snd q) QB /\ has_ray kb rb QB /\
  rep3 (snd (getRay a (fst q) false)) Wa /\ ahead ob (opos oa) Wa /\ ahead ob' (opos oa') Wa /\ rcross (rv_sub (opos oa) (opos ob)) Wa <> rv0 /\
  rep3 (snd (getRay b (snd q) false)) Wb /\ ahead oa (opos ob) Wb /\ ahead oa' (opos ob') Wb /\ rcross (rv_sub (opos ob) (opos oa)) Wb <> rv0.
Theorem C78_scale_term a b a' b' ra rb oa ob oa' ob' s pairs sigma sd : plain_cam a Rectilinear ra oa -> plain_cam b Rectilinear rb ob ->
  plain_cam a' Rectilinear ra oa' -> plain_cam b' Rectilinear rb ob' -> 0 < s -> moved_out s oa oa' -> moved_out s ob ob' ->
  (forall q, In q pairs -> sighted a b a' b' Rectilinear Rectilinear ra rb oa ob oa' ob' q) -> rep sigma sd -> 0 < sd ->
  exists v v', correspondence_term [a; b] pairs sigma = Some v /\ correspondence_term [a'; b'] pairs sigma = Some v' /\ same v v'.
Proof.
  intros Ha Hb Ha' Hb' PS MA MB HQ Hs Ps. unfold correspondence_term, two. eexists _, _. split; [reflexivity|]. split; [reflexivity|].
  assert (S1 : same (nsum (map (fun q => logpdf (Fin 0) sigma (epipolar_deviation a b (fst q) (snd q))) pairs)) (nsum (map (fun q => logpdf (Fin 0) sigma (epipolar_deviation a' b' (fst q) (snd q))) pairs))).
  { apply same_sum. induction pairs as [|q l IH]; [constructor|]. cbn [map]. constructor; [|apply IH; intros; apply HQ; right; auto].
    destruct (HQ q (or_introl eq_refl)) as (QA&QB&Wa&Wb&H1&H2&H3&H4&H5&H6&H7&H8&_). apply (same_logpdf _ _ _ _ 0 sd); auto; [apply rep_Fin|].
    destruct (C78_scale a b a' b' Rectilinear ra rb oa ob oa' ob' s _ _ QA QB Wa Ha Hb Ha' Hb' PS MA MB H1 H2 H3 H5 H6 H7 H8) as (d&D1&D2). right. exists d. split; [exact D1|]. eapply rep_eq; [exact D2|ring]. }
  assert (S2 : same (nsum (map (fun q => logpdf (Fin 0) sigma (epipolar_deviation b a (snd q) (fst q))) pairs)) (nsum (map (fun q => logpdf (Fin 0) sigma (epipolar_deviation b' a' (snd q) (fst q))) pairs))).
  { apply same_sum. clear S1. induction pairs as [|q l IH]; [constructor|]. cbn [map]. constructor; [|apply IH; intros; apply HQ; right; auto].
    destruct (HQ q (or_introl eq_refl)) as (QA&QB&Wa&Wb&H1&H2&H3&H4&_&_&_&_&H5&H6&H7&H8). apply (same_logpdf _ _ _ _ 0 sd); auto; [apply rep_Fin|].
    destruct (C78_scale b a b' a' Rectilinear rb ra ob oa ob' oa' s _ _ QB QA Wb Hb Ha Hb' Ha' PS MB MA H3 H4 H1 H5 H6 H7 H8) as (d&D1&D2). right. exists d. split; [exact D1|]. eapply rep_eq; [exact D2|ring]. }
  match goal with |- same (_ + ?x + ?y)%num (_ + ?x' + ?y')%num => change (same (nsum [x; y]) (nsum [x'; y'])) end. apply same_sum. repeat (constructor; auto).
Qed.
Print Assumptions C78_scale_term.

(** ** Examples *)
(** A camera 20 m high that looks north-east from another place, one twice as high as [ex_or2], and one 1 m or 2 m to the east *)
Definition ex_far : opar R := OPar 20 90 0 45 3 4.
Definition ex_up (s : R) : opar R := OPar 20 90 0 0 s 0.
Lemma ex_any o k : exists c, plain_cam c k ex_r o.
Proof.
  assert (H : rep_opar (opar_fin o) o) by (repeat split). destruct (init_rigid _ _ H) as (m&E&_).
  exists (plain_camera k (proj_fin ex_r) m), (proj_fin ex_r), m. splits; auto; [repeat split|split; simpl; lra|eauto].
Qed.
Lemma ex_rad : rad 0 = 0. Proof. unfold rad; field. Qed.
Lemma ex_length c : plain_cam c Rectilinear ex_r ex_or2 ->
  exists v, getObjectLength c (fin2 (V2 2070 2200)) (fin2 (V2 2140 1850)) (Fin 0) = Some v /\ rep v (sqrt 2509).
Proof.
  intros HC. destruct (on_plane c _ _ _ _ _ _ 0 HC (rep2_fin (V2 2070 2200)) Logic.I (rep_Fin 0)) as (p&Ep&Kp). destruct (on_plane c _ _ _ _ _ _ 0 HC (rep2_fin (V2 2140 1850)) Logic.I (rep_Fin 0)) as (q&Eq&Kq).
  unfold getObjectLength. rewrite Ep, Eq. eexists. split; [reflexivity|]. rewrite !level_ray in Kp, Kq by reflexivity. cbv zeta in Kp, Kq.
  replace (rad (heading_deg ex_or2)) with 0 in Kp, Kq by (unfold rad; cbn; field). rewrite sin_0, cos_0 in Kp, Kq. cbn [c1 c2 cx cy cz ex_or2 elevation_m] in Kp, Kq.
  replace ((0 - 10) / - ((2200 - 1500) / 3500)) with 50 in Kp by field. replace ((0 - 10) / - ((1850 - 1500) / 3500)) with 100 in Kq by field.
  destruct Kp as [([K|K]&_)|(_&Rp)]; [lra|lra|]. destruct Kq as [([K|K]&_)|(_&Rq)]; [lra|lra|].
  eapply rep_eq; [apply rep_norm, rep3_sub; [exact Rp|exact Rq]|]. unfold rnorm. f_equal. cbv [rdot rv_sub rv_add rv_scale zip3v map3v opos pos_x_m pos_y_m elevation_m ex_or2 cx cy cz]. field.
Qed.
Example C78_length_example : exists c c' v v', plain_cam c Rectilinear ex_r ex_or2 /\ plain_cam c' Rectilinear ex_r ex_far /\ same_tilt ex_or2 ex_far /\
  getObjectLength c (fin2 (V2 2070 2200)) (fin2 (V2 2140 1850)) (Fin 0) = Some v /\ getObjectLength c' (fin2 (V2 2070 2200)) (fin2 (V2 2140 1850)) (Fin 0) = Some v' /\
  rep v (sqrt 2509) /\ rep v' (2 * sqrt 2509).
Proof.
  destruct (ex_any ex_or2 Rectilinear) as (c&HC). destruct (ex_any ex_far Rectilinear) as (c'&HC'). assert (HS : same_tilt ex_or2 ex_far) by (split; reflexivity).
  destruct (C78_length c c' Rectilinear ex_r ex_or2 ex_far _ _ _ _ (Fin 0) 0 HC HC' HS (rep2_fin (V2 2070 2200)) (rep2_fin (V2 2140 1850)) Logic.I Logic.I (rep_Fin 0)) as (v&v'&E1&E2&S); [cbn; lra|].
  replace ((elevation_m ex_far - 0) / (elevation_m ex_or2 - 0)) with 2 in S by (cbn; field). exists c, c', v, v'. destruct (ex_length c HC) as (w&E3&Rw). assert (w = v) by congruence. subst w.
  destruct S as [(->&_)|(L&A1&A2)]; [discriminate|]. pose proof (rep_inj _ _ _ Rw A1) as <-. splits; auto.
Qed.
(** two cameras 10 m high, the other turned by 45 degrees: one measured length, as [C78_elevation] and the term ask for *)
Example C78_elevation_example : exists c c' v v', plain_cam c Rectilinear ex_r ex_or2 /\ plain_cam c' Rectilinear ex_r ex_45 /\ same_tilt ex_or2 ex_45 /\
  getObjectLength c (fin2 (V2 2070 2200)) (fin2 (V2 2140 1850)) (Fin 0) = Some v /\ getObjectLength c' (fin2 (V2 2070 2200)) (fin2 (V2 2140 1850)) (Fin 0) = Some v' /\
  rep v (sqrt 2509) /\ rep v' (sqrt 2509) /\ 0 < sqrt 2509 /\ 0 < (elevation_m ex_45 - 0) / (elevation_m ex_or2 - 0).
Proof.
  destruct (ex_any ex_or2 Rectilinear) as (c&HC). destruct (ex_any ex_45 Rectilinear) as (c'&HC'). assert (HS : same_tilt ex_or2 ex_45) by (split; reflexivity).
  destruct (C78_length c c' Rectilinear ex_r ex_or2 ex_45 _ _ _ _ (Fin 0) 0 HC HC' HS (rep2_fin (V2 2070 2200)) (rep2_fin (V2 2140 1850)) Logic.I Logic.I (rep_Fin 0)) as (v&v'&E1&E2&S); [cbn; lra|].
  replace ((elevation_m ex_45 - 0) / (elevation_m ex_or2 - 0)) with 1 in * by (cbn; field). exists c, c', v, v'. destruct (ex_length c HC) as (w&E3&Rw). assert (w = v) by congruence. subst w.
  destruct S as [(->&_)|(L&A1&A2)]; [discriminate|]. pose proof (rep_inj _ _ _ Rw A1) as <-. rewrite Rmult_1_l in A2. splits; auto; [apply sqrt_lt_R0; lra|lra].
Qed.
Example C78_length_term_example : exists c c' v v', plain_cam c Rectilinear ex_r ex_or2 /\ plain_cam c' Rectilinear ex_r ex_45 /\
  let obs := [Object (fin2 (V2 2070 2200)) (fin2 (V2 2140 1850)) (Fin 50)] in (forall ob, In ob obs -> observed Rectilinear ex_r ob) /\
  length_term c (Fin 0) obs (VNumber (Fin 1)) = Some v /\ length_term c' (Fin 0) obs (VNumber (Fin 1)) = Some v' /\ same v v'.
Proof.
  destruct (ex_any ex_or2 Rectilinear) as (c&HC). destruct (ex_any ex_45 Rectilinear) as (c'&HC'). assert (HS : same_tilt ex_or2 ex_45) by (split; reflexivity).
  set (obs := [Object (fin2 (V2 2070 2200)) (fin2 (V2 2140 1850)) (Fin 50)]).
  assert (HO : forall ob, In ob obs -> observed Rectilinear ex_r ob).
  { intros ob [<-|[]]. cbn. split; [|split]; [exists (V2 2070 2200)|exists (V2 2140 1850)|exists 50; apply rep_Fin]; (split; [apply rep2_fin|exact Logic.I]). }
  destruct (C78_length_term c c' Rectilinear ex_r ex_or2 ex_45 (Fin 0) 0 obs (Fin 1) 1 HC HC' HS eq_refl (rep_Fin 0) ltac:(cbn; lra) HO (rep_Fin 1) Rlt_0_1) as (v&v'&E1&E2&S).
  exists c, c', v, v'. cbv zeta. auto 10.
Qed.
(** the same pixels as head and feet: 25/4 m with 10 m, 25/2 m with 20 m *)
Lemma ex_height c z v : plain_cam c Rectilinear ex_r (OPar z 90 0 0 0 0) -> 0 < z -> getObjectHeight c (fin2 (V2 2070 2200)) (fin2 (V2 2140 1850)) (Fin 0) = Some v -> rep v (z * (5 / 8)).
Proof.
  intros HC PZ E. destruct (height_value c Rectilinear ex_r _ (fin2 (V2 2070 2200)) (fin2 (V2 2140 1850)) _ _ (Fin 0) 0 HC (rep2_fin _) (rep2_fin _) Logic.I Logic.I (rep_Fin 0)) as (w&Ew&Kw);
    try (rewrite level_ray by reflexivity; cbn; rewrite ?ex_rad, ?sin_0, ?cos_0; lra).
  assert (w = v) by congruence. subst w. rewrite !level_ray in Kw by reflexivity. cbv zeta in Kw. cbn [heading_deg elevation_m] in Kw. rewrite ex_rad, sin_0, cos_0 in Kw. unfold height_seen in Kw. cbn [c1 c2 cx cy cz] in Kw.
  set (F := (0 - z) / - ((2200 - 1500) / 3500)) in Kw. assert (EF : F = 5 * z) by (unfold F; field). rewrite EF in Kw.
  replace (5 * z * (- 0 * ((2070 - 2000) / 3500) + 1) / (- 0 * ((2140 - 2000) / 3500) + 1)) with (5 * z) in Kw by field.
  replace (5 * z * (1 * ((2070 - 2000) / 3500) + 0) / (1 * ((2140 - 2000) / 3500) + 0)) with (5 / 2 * z) in Kw by field.
  repeat (match type of Kw with context [Rle_dec 0 ?x] => destruct (Rle_dec 0 x) as [_|X]; [|exfalso; lra] end). eapply rep_eq; [exact Kw|field].
Qed.
Example C78_height_example : exists c c' v v', plain_cam c Rectilinear ex_r ex_or2 /\ plain_cam c' Rectilinear ex_r (ex_up 0) /\ same_tilt ex_or2 (ex_up 0) /\
  getObjectHeight c (fin2 (V2 2070 2200)) (fin2 (V2 2140 1850)) (Fin 0) = Some v /\ getObjectHeight c' (fin2 (V2 2070 2200)) (fin2 (V2 2140 1850)) (Fin 0) = Some v' /\
  rep v (25 / 4) /\ rep v' (25 / 2).
Proof.
  destruct (ex_any ex_or2 Rectilinear) as (c&HC). destruct (ex_any (ex_up 0) Rectilinear) as (c'&HC'). assert (HS : same_tilt ex_or2 (ex_up 0)) by (split; reflexivity).
  destruct (C78_height c c' Rectilinear ex_r ex_or2 (ex_up 0) _ _ _ _ (Fin 0) 0 HC HC' HS eq_refl (rep2_fin (V2 2070 2200)) (rep2_fin (V2 2140 1850)) Logic.I Logic.I (rep_Fin 0)) as (v&v'&E1&E2&S);
    try (rewrite level_ray by reflexivity; cbn; rewrite ?ex_rad, ?sin_0, ?cos_0); [cbn; lra|lra|lra|lra|].
  pose proof (ex_height c 10 v HC ltac:(lra) E1) as R1. pose proof (ex_height c' 20 v' HC' ltac:(lra) E2) as R2.
  exists c, c', v, v'. splits; auto; [eapply rep_eq; [exact R1|field]|eapply rep_eq; [exact R2|field]].
Qed.
(** a length and a height that two cameras 10 m high agree on *)
Example C78_elevation_height_example : exists c c' v v', plain_cam c Rectilinear ex_r ex_or2 /\ plain_cam c' Rectilinear ex_r (ex_at 3) /\
  getObjectHeight c (fin2 (V2 2070 2200)) (fin2 (V2 2140 1850)) (Fin 0) = Some v /\ getObjectHeight c' (fin2 (V2 2070 2200)) (fin2 (V2 2140 1850)) (Fin 0) = Some v' /\
  rep v (25 / 4) /\ rep v' (25 / 4) /\ same_tilt ex_or2 (ex_at 3) /\ heading_deg (ex_at 3) = heading_deg ex_or2.
Proof.
  destruct (ex_any ex_or2 Rectilinear) as (c&HC). destruct (ex_any (ex_at 3) Rectilinear) as (c'&HC'). assert (HS : same_tilt ex_or2 (ex_at 3)) by (split; reflexivity).
  destruct (C78_height c c' Rectilinear ex_r ex_or2 (ex_at 3) _ _ _ _ (Fin 0) 0 HC HC' HS eq_refl (rep2_fin (V2 2070 2200)) (rep2_fin (V2 2140 1850)) Logic.I Logic.I (rep_Fin 0)) as (v&v'&E1&E2&S);
    try (rewrite level_ray by reflexivity; cbn; rewrite ?ex_rad, ?sin_0, ?cos_0); [cbn; lra|lra|lra|lra|].
  pose proof (ex_height c 10 v HC ltac:(lra) E1) as R1. exists c, c', v, v'. destruct S as [(->&_)|(h&A1&A2)]; [discriminate|]. pose proof (rep_inj _ _ _ R1 A1) as <-.
  splits; auto; [eapply rep_eq; [exact R1|field]|eapply rep_eq; [exact A2|cbn; field]].
Qed.
(** The level camera 10 m above the sea finds the horizon inside its picture, whatever its heading. *)
Lemma ex_rows : INR 3000 - 1 < im_height ex_r <= INR 3000.
Proof. rewrite INR_IZR_INZ. change (im_height ex_r) with 3000. change (IZR (Z.of_nat 3000)) with 3000. lra. Qed.
Example C78_horizon_example : exists c c' i, plain_cam c Rectilinear ex_r ex_or2 /\ plain_cam c' Rectilinear ex_r ex_45 /\ same_tilt ex_or2 ex_45 /\
  getImageHorizon c (Fin 6371000) (Fin 10) (One (Fin 2000)) = Some (inl (V2 (Fin 2000) (Fin (INR i)))) /\
  getImageHorizon c' (Fin 6371000) (Fin 10) (One (Fin 2000)) = Some (inl (V2 (Fin 2000) (Fin (INR i)))) /\ (0 < i)%nat /\ (S i < 3000)%nat.
Proof.
  destruct (ex_any ex_or2 Rectilinear) as (c&HC). destruct (ex_any ex_45 Rectilinear) as (c'&HC'). assert (HS : same_tilt ex_or2 ex_45) by (split; reflexivity).
  assert (IH : rep (im_height (cam_proj c)) 3000) by (destruct (plain_good _ _ _ _ HC) as ((HP&_)&_); apply HP).
  destruct (C17_geometry c Rectilinear ex_r ex_or2 (Fin 6371000) (Fin 10) 6371000 10 3000 3000 2000 (Fin 2000) HC) as (D&i&HD&Hi&G&M); try apply rep_Fin; try lra; try lia; auto; [exact ex_rows|intros; exact Logic.I|].
  destruct (C78_horizon c c' Rectilinear ex_r ex_or2 ex_45 (Fin 6371000) (Fin 10) 6371000 10 3000 2000 (Fin 2000) HC HC' HS eq_refl) as (p&G1&G2); try apply rep_Fin; try lra; try lia; [exact ex_rows|intros; exact Logic.I|].
  assert (p = V2 (Fin 2000) (Fin (INR i))) by congruence. subst p. exists c, c', i. splits; auto.
  all: destruct C17_example as ((D'&HD'&BD)&_); pose proof (rep_inj _ _ _ HD HD') as <-; cbv zeta in M; destruct (M 1500%nat ltac:(lia)) as (M1&_); rewrite !level_ray in M1 by reflexivity; cbv zeta in M1;
    replace (INR 1500) with 1500 in M1 by (rewrite INR_IZR_INZ; reflexivity); replace (rad (heading_deg ex_or2)) with 0 in M1 by (unfold rad; cbn; field); rewrite sin_0, cos_0 in M1; unfold height_at in M1; cbn [c1 c2 cx cy cz ex_or2 elevation_m] in M1.
  all: set (b := (INR i - 1500) / 3500) in M1; set (N1 := rnorm _) in M1 at 1; assert (EN : N1 = sqrt (1 + b * b)) by (unfold N1, rnorm, rdot; cbn [cx cy cz]; f_equal; field).
  all: replace (10 + D / rnorm (V3 (1 * ((2000 - 2000) / 3500) + 0) (- 0 * ((2000 - 2000) / 3500) + 1) (- ((1500 - 1500) / 3500))) * - ((1500 - 1500) / 3500)) with 10 in M1
    by (replace ((1500 - 1500) / 3500) with 0 by field; ring); rewrite (Rabs_right 10) in M1 by lra.
  - apply Nat.neq_0_lt_0. intros ->. assert (Eb : b = - (3 / 7)) by (unfold b; cbn; field). rewrite Eb in M1, EN.
    assert (P1 : 0 < N1) by (rewrite EN; apply sqrt_lt_R0; lra). assert (0 < D / N1 * - - (3 / 7)) by (apply Rmult_lt_0_compat; [apply Rdiv_lt_0_compat; lra|lra]).
    rewrite Rabs_right in M1; lra.
  - apply Nat.lt_nge. intros L. assert (i = 2999%nat) by lia. subst i. assert (Eb : b = 1499 / 3500) by (unfold b; rewrite INR_IZR_INZ; cbn; field).
    assert (P1 : 0 < N1 < 2).
    { rewrite EN, Eb. split; [apply sqrt_lt_R0; lra|]. apply Rsqr_incrst_0; [rewrite Rsqr_sqrt by lra; unfold Rsqr; lra|apply sqrt_pos|lra]. }
    assert (5000 < D / N1) by (apply Rmult_lt_reg_r with N1; [lra|]; unfold Rdiv; rewrite Rmult_assoc, Rinv_l by lra; lra).
    rewrite Eb in M1; rewrite Rabs_left in M1; lra.
Qed.
(** the other hypotheses of [C78_tilt] and [C78_same_horizon] for these cameras *)
Example C78_tilt_example : roll_deg ex_or2 = 0 /\ roll_deg ex_45 = 0 /\ 0 < elevation_m ex_or2 < 6371000 /\ 0 < f_y ex_r /\ INR 3000 - 1 < im_height ex_r <= INR 3000 /\
  (forall j, 0 <= rad (tilt_deg ex_or2) + atan ((center_y ex_r - INR j) / f_y ex_r) <= PI /\ 0 <= rad (tilt_deg ex_45) + atan ((center_y ex_r - INR j) / f_y ex_r) <= PI) /\
  exists c, plain_cam c Rectilinear ex_r ex_or2.
Proof.
  split; [reflexivity|]. split; [reflexivity|]. split; [cbn; lra|]. split; [cbn; lra|]. split; [exact ex_rows|]. split; [|apply ex_any].
  assert (T : rad 90 = PI / 2) by (unfold rad; field). intros j. cbn [tilt_deg ex_or2 ex_45]. rewrite T. pose proof (atan_bound ((center_y ex_r - INR j) / f_y ex_r)). lra.
Qed.
(** Two cameras 1 m apart and 10 m high, and two cameras 2 m apart and 20 m high: the pixel (2350, 1850) of the first and the
    pixel (1500, 1600) of the second deviate by the same number of pixels. *)
Example C78_scale_example : exists a b a' b' W, plain_cam a Rectilinear ex_r (ex_at 0) /\ plain_cam b Rectilinear ex_r (ex_at 1) /\
  plain_cam a' Rectilinear ex_r (ex_up 0) /\ plain_cam b' Rectilinear ex_r (ex_up 2) /\ moved_out 2 (ex_at 0) (ex_up 0) /\ moved_out 2 (ex_at 1) (ex_up 2) /\
  rep3 (snd (getRay a (fin2 (V2 2350 1850)) false)) W /\ ahead (ex_at 1) (opos (ex_at 0)) W /\ ahead (ex_up 2) (opos (ex_up 0)) W /\ rcross (rv_sub (opos (ex_at 0)) (opos (ex_at 1))) W <> rv0 /\
  exists d, rep (epipolar_deviation a b (fin2 (V2 2350 1850)) (fin2 (V2 1500 1600))) d /\ rep (epipolar_deviation a' b' (fin2 (V2 2350 1850)) (fin2 (V2 1500 1600))) d.
Proof.
  destruct (ex_any (ex_at 0) Rectilinear) as (a&Ha). destruct (ex_any (ex_at 1) Rectilinear) as (b&Hb). destruct (ex_any (ex_up 0) Rectilinear) as (a'&Ha'). destruct (ex_any (ex_up 2) Rectilinear) as (b'&Hb').
  assert (MA : moved_out 2 (ex_at 0) (ex_up 0)) by (split; [apply v3_ext; cbn; ring|split; [split; reflexivity|reflexivity]]).
  assert (MB : moved_out 2 (ex_at 1) (ex_up 2)) by (split; [apply v3_ext; cbn; ring|split; [split; reflexivity|reflexivity]]).
  assert (HW : rep3 (snd (getRay a (fin2 (V2 2350 1850)) false)) (V3 (1 / 10) 1 (- (1 / 10)))).
  { eapply rep3_eq; [apply (ex_at_ray a Rectilinear 0 _ (V2 2350 1850) _ Ha (rep2_fin _) Logic.I eq_refl)|]. apply v3_ext; cbn; unfold alphaR, betaR; cbn; field. }
  assert (CU : forall P, cam_coords (ex_up 2) P = V3 (cx P - 2) (cz P - 20) (- cy P)).
  { intros P. replace (cam_coords (ex_up 2) P) with (cam_coords (ex_at 2) (V3 (cx P) (cy P) (cz P - 10))).
    - rewrite ex_at_coords. apply v3_ext; cbn; ring.
    - unfold cam_coords. f_equal. apply v3_ext; cbn; ring. }
  assert (A1 : ahead (ex_at 1) (opos (ex_at 0)) (V3 (1 / 10) 1 (- (1 / 10)))) by (unfold ahead; rewrite !ex_at_coords; cbn; unfold tinyR; lra).
  assert (A2 : ahead (ex_up 2) (opos (ex_up 0)) (V3 (1 / 10) 1 (- (1 / 10)))) by (unfold ahead; rewrite !CU; cbn; unfold tinyR; lra).
  assert (NC : rcross (rv_sub (opos (ex_at 0)) (opos (ex_at 1))) (V3 (1 / 10) 1 (- (1 / 10))) <> rv0) by (vring; intros Y; injection Y; lra).
  exists a, b, a', b', (V3 (1 / 10) 1 (- (1 / 10))). splits; auto.
  apply (C78_scale a b a' b' Rectilinear ex_r ex_r (ex_at 0) (ex_at 1) (ex_up 0) (ex_up 2) 2 _ _ (V2 2350 1850) (V2 1500 1600) (V3 (1 / 10) 1 (- (1 / 10)))); auto using rep2_fin; [lra|exact Logic.I].
Qed.
Lemma ex_up_coords s P : cam_coords (ex_up s) P = V3 (cx P - s) (cz P - 20) (- cy P).
Proof.
  replace (cam_coords (ex_up s) P) with (cam_coords (ex_at s) (V3 (cx P) (cy P) (cz P - 10))).
  - rewrite ex_at_coords. apply v3_ext; cbn; ring.
  - unfold cam_coords. f_equal. apply v3_ext; cbn; ring.
Qed.
Example C78_scale_term_example : exists a b a' b' v v', plain_cam a Rectilinear ex_r (ex_at 0) /\ plain_cam b Rectilinear ex_r (ex_at 1) /\
  plain_cam a' Rectilinear ex_r (ex_up 0) /\ plain_cam b' Rectilinear ex_r (ex_up 2) /\
  let pairs := [(fin2 (V2 2350 1850), fin2 (V2 1500 1600))] in
  (forall q, In q pairs -> sighted a b a' b' Rectilinear Rectilinear ex_r ex_r (ex_at 0) (ex_at 1) (ex_up 0) (ex_up 2) q) /\
  correspondence_term [a; b] pairs (Fin 1) = Some v /\ correspondence_term [a'; b'] pairs (Fin 1) = Some v' /\ same v v'.
Proof.
  destruct (ex_any (ex_at 0) Rectilinear) as (a&Ha). destruct (ex_any (ex_at 1) Rectilinear) as (b&Hb). destruct (ex_any (ex_up 0) Rectilinear) as (a'&Ha'). destruct (ex_any (ex_up 2) Rectilinear) as (b'&Hb').
  assert (MA : moved_out 2 (ex_at 0) (ex_up 0)) by (split; [apply v3_ext; cbn; ring|split; [split; reflexivity|reflexivity]]).
  assert (MB : moved_out 2 (ex_at 1) (ex_up 2)) by (split; [apply v3_ext; cbn; ring|split; [split; reflexivity|reflexivity]]).
  set (pairs := [(fin2 (V2 2350 1850), fin2 (V2 1500 1600))]).
  assert (HQ : forall q, In q pairs -> sighted a b a' b' Rectilinear Rectilinear ex_r ex_r (ex_at 0) (ex_at 1) (ex_up 0) (ex_up 2) q).
  { intros q [<-|[]]. exists (V2 2350 1850), (V2 1500 1600), (V3 (1 / 10) 1 (- (1 / 10))), (V3 (- (1 / 7)) 1 (- (1 / 35))). cbn [fst snd].
    split; [apply rep2_fin|]. split; [exact Logic.I|]. split; [apply rep2_fin|]. split; [exact Logic.I|].
    split; [eapply rep3_eq; [apply (ex_at_ray a Rectilinear 0 _ (V2 2350 1850) _ Ha (rep2_fin _) Logic.I eq_refl)|]; apply v3_ext; cbn; unfold alphaR, betaR; cbn; field|].
    split; [unfold ahead; rewrite !ex_at_coords; cbn; unfold tinyR; lra|]. split; [unfold ahead; rewrite !ex_up_coords; cbn; unfold tinyR; lra|].
    split; [vring; intros Y; injection Y; lra|].
    split; [eapply rep3_eq; [apply (ex_at_ray b Rectilinear 1 _ (V2 1500 1600) _ Hb (rep2_fin _) Logic.I eq_refl)|]; apply v3_ext; cbn; unfold alphaR, betaR; cbn; field|].
    split; [unfold ahead; rewrite !ex_at_coords; cbn; unfold tinyR; lra|]. split; [unfold ahead; rewrite !ex_up_coords; cbn; unfold tinyR; lra|].
    vring; intros Y; injection Y; lra. }
  destruct (C78_scale_term a b a' b' ex_r ex_r (ex_at 0) (ex_at 1) (ex_up 0) (ex_up 2) 2 pairs (Fin 1) 1 Ha Hb Ha' Hb' ltac:(lra) MA MB HQ (rep_Fin 1) Rlt_0_1) as (v&v'&E1&E2&S).
  exists a, b, a', b', v, v'. cbv zeta. splits; auto.
Qed.
