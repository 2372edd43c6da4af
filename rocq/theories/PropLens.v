(** * C18-C20: lens distortion *)
Require Import Reals Lra Psatz Bool List Arith.
From Verif Require Import Num Vec Trig Orientation OrientationFacts Projection ProjectionFacts
  Ray CameraTransform CameraFacts PropCamera Lens.
Import ListNotations.
Open Scope R_scope.

(** ** Specification: radial maps in scaled coordinates *)
Record rlens := RLens { o_x : R; o_y : R; s_x : R; s_y : R }.
Definition rep_lens (l : lens) (L : rlens) : Prop :=
  rep2 (l_offset l) (V2 (o_x L) (o_y L)) /\ rep2 (l_scale l) (V2 (s_x L) (s_y L)) /\
  s_x L <> 0 /\ s_y L <> 0.
(** Radius of a pixel in units of the lens, and the pixel moved radially to radius
    [lam] times the old one. *)
Definition radius (L : rlens) (Q : v2 R) : R :=
  sqrt (Rsqr ((c1 Q - o_x L) / s_x L) + Rsqr ((c2 Q - o_y L) / s_y L)).
Definition radial (L : rlens) (lam : R) (Q : v2 R) : v2 R :=
  V2 (o_x L + lam * (c1 Q - o_x L)) (o_y L + lam * (c2 Q - o_y L)).

Lemma radius_nonneg L Q : 0 <= radius L Q. Proof. apply sqrt_pos. Qed.
Lemma radius_radial L lam Q : s_x L <> 0 -> s_y L <> 0 ->
  radius L (radial L lam Q) = Rabs lam * radius L Q.
Proof.
  intros Hx Hy. unfold radius, radial; cbn [c1 c2].
  rewrite <- (sqrt_Rsqr_abs lam), <- sqrt_mult.
  - f_equal. unfold Rsqr. field; auto.
  - apply Rle_0_sqr.
  - apply Rplus_le_le_0_compat; apply Rle_0_sqr.
Qed.
Lemma radial_radial L a b Q : radial L a (radial L b Q) = radial L (a * b) Q.
Proof. unfold radial; apply v2_ext; simpl; ring. Qed.
Lemma radial_1 L Q : radial L 1 Q = Q.
Proof. unfold radial; apply v2_ext; simpl; ring. Qed.

Lemma rep_points l L q Q : rep_lens l L -> rep2 q Q ->
  rep2 (zip2v ndiv (zip2v nsub q (l_offset l)) (l_scale l))
       (V2 ((c1 Q - o_x L) / s_x L) ((c2 Q - o_y L) / s_y L)).
Proof.
  intros ((O1&O2)&(S1&S2)&NX&NY) (Q1&Q2). split; simpl in *; apply rep_div; auto; apply rep_sub; auto.
Qed.
Lemma rep_radius l L q Q : rep_lens l L -> rep2 q Q ->
  rep (nv_norm2 (zip2v ndiv (zip2v nsub q (l_offset l)) (l_scale l))) (radius L Q).
Proof.
  intros HL Hq. destruct (rep_points _ _ _ _ HL Hq) as (A&B). unfold nv_norm2, radius, Rsqr.
  apply rep_sqrt; [rep_all|]. simpl. apply Rplus_le_le_0_compat; apply Rle_0_sqr.
Qed.

(** The effect of either direction on a pixel that is not the centre. *)
Lemma lens_map_spec l L conv q Q rho : rep_lens l L -> rep2 q Q -> 0 < radius L Q ->
  (forall x, rep x (radius L Q) -> rep (conv x) rho) ->
  rep2 (lens_map l conv q) (radial L (rho / radius L Q) Q).
Proof.
  intros HL Hq Hr HC. unfold lens_map. cbv zeta.
  pose proof (rep_points _ _ _ _ HL Hq) as (A&B). pose proof (rep_radius _ _ _ _ HL Hq) as HR.
  pose proof (HC _ HR) as HK. set (nr := nv_norm2 _) in *.
  destruct HL as ((O1&O2)&(S1&S2)&NX&NY). cbn [c1 c2] in *.
  split; cbn [zip2v map2v c1 c2] in *.
  - eapply rep_eq; [rep_all; lra|]. simpl. field. split; auto; lra.
  - eapply rep_eq; [rep_all; lra|]. simpl. field. split; auto; lra.
Qed.

(** ** C18 *)
(** Both directions only move a pixel along its radius. *)
Theorem C18_radial : forall l L q Q rho, rep_lens l L -> rep2 q Q -> 0 < radius L Q ->
  ((forall x, rep x (radius L Q) -> rep (l_conv l x) rho) ->
   rep2 (distortedFromImage l q) (radial L (rho / radius L Q) Q)) /\
  ((forall x, rep x (radius L Q) -> rep (l_inv l x) rho) ->
   rep2 (imageFromDistorted l q) (radial L (rho / radius L Q) Q)).
Proof.
  intros l L q Q rho HL Hq Hr. split; intros HC.
  - exact (lens_map_spec l L (l_conv l) q Q rho HL Hq Hr HC).
  - exact (lens_map_spec l L (l_inv l) q Q rho HL Hq Hr HC).
Qed.
Print Assumptions C18_radial.

(** Undistorting a distorted pixel gives the pixel back whenever the numerical inverse
    inverts the radius map at its radius. *)
Theorem C18_undistort_distort : forall l L q Q rho,
  rep_lens l L -> rep2 q Q -> 0 < radius L Q -> 0 < rho ->
  (forall x, rep x (radius L Q) -> rep (l_conv l x) rho) ->
  (forall x, rep x rho -> rep (l_inv l x) (radius L Q)) ->
  rep2 (imageFromDistorted l (distortedFromImage l q)) Q.
Proof.
  intros l L q Q rho HL Hq Hr Hp HC HI.
  pose proof (lens_map_spec l L _ q Q rho HL Hq Hr HC) as H1. fold (distortedFromImage l q) in H1.
  assert (HN : s_x L <> 0 /\ s_y L <> 0) by apply HL. destruct HN as (NX&NY).
  assert (ER : radius L (radial L (rho / radius L Q) Q) = rho).
  { rewrite radius_radial by auto. rewrite Rabs_right; [field; lra|].
    apply Rle_ge, Rmult_le_pos; [lra|]. apply Rlt_le, Rinv_0_lt_compat; auto. }
  eapply rep2_eq.
  - apply (lens_map_spec l L (l_inv l) _ _ (radius L Q) HL H1); rewrite ER; assumption.
  - rewrite ER, radial_radial. replace (_ * _) with 1 by (field; lra). apply radial_1.
Qed.
Print Assumptions C18_undistort_distort.
Theorem C18_distort_undistort : forall l L q Q rho,
  rep_lens l L -> rep2 q Q -> 0 < radius L Q -> 0 < rho ->
  (forall x, rep x (radius L Q) -> rep (l_inv l x) rho) ->
  (forall x, rep x rho -> rep (l_conv l x) (radius L Q)) ->
  rep2 (distortedFromImage l (imageFromDistorted l q)) Q.
Proof.
  intros l L q Q rho HL Hq Hr Hp HC HI.
  apply (C18_undistort_distort (Lens (l_offset l) (l_scale l) (l_inv l) (l_conv l)) L q Q rho); auto.
Qed.
Print Assumptions C18_distort_undistort.

(** The centre becomes nan in both directions, for every radius map. *)
Theorem C18_centre_nan : forall l L q, rep_lens l L -> rep2 q (V2 (o_x L) (o_y L)) ->
  distortedFromImage l q = nan2 /\ imageFromDistorted l q = nan2.
Proof.
  intros l L q HL Hq.
  assert (G : forall conv, lens_map l conv q = nan2).
  { intros conv. unfold lens_map. cbv zeta.
    pose proof (rep_points _ _ _ _ HL Hq) as (A&B). pose proof (rep_radius _ _ _ _ HL Hq) as HR.
    set (nr := nv_norm2 _) in *. cbn [c1 c2] in *.
    assert (E0 : radius L (V2 (o_x L) (o_y L)) = 0).
    { unfold radius; cbn [c1 c2]. replace (_ + _) with 0; [apply sqrt_0|]. destruct HL as (_&_&?&?).
      unfold Rsqr; field; auto. }
    rewrite E0 in HR. destruct HL as (_&_&NX&NY).
    assert (A' : rep (c1 (zip2v ndiv (zip2v nsub q (l_offset l)) (l_scale l))) 0)
      by (eapply rep_eq; [exact A|field; auto]).
    assert (B' : rep (c2 (zip2v ndiv (zip2v nsub q (l_offset l)) (l_scale l))) 0)
      by (eapply rep_eq; [exact B|field; auto]).
    clearbody nr. clear A B. revert A' B'. generalize (zip2v ndiv (zip2v nsub q (l_offset l)) (l_scale l)).
    intros w A B. apply v2_ext; cbn [zip2v map2v c1 c2 nan2].
    - rewrite (ndiv_0_0 _ _ A HR), nmul_NaN_l. reflexivity.
    - rewrite (ndiv_0_0 _ _ B HR), nmul_NaN_l. reflexivity. }
  split; apply G.
Qed.
Print Assumptions C18_centre_nan.
Theorem C18_centre_fixed_refuted : exists spline k1 k2 k3 p,
  let l := brown_lens spline k1 k2 k3 p in
  distortedFromImage l (V2 (center_x p) (center_y p)) = nan2.
Proof.
  exists (fun _ x => x), (Fin 0), (Fin 0), (Fin 0), (proj_fin ex_r). cbv zeta.
  eapply (C18_centre_nan _ (RLens 2000 1500 3500 3500)).
  - repeat split; simpl; lra.
  - split; reflexivity.
Qed.
Print Assumptions C18_centre_fixed_refuted.

(** NoDistortion returns the point untouched. *)
Theorem C18_no_distortion : forall k p o q,
  cam_dist (plain_camera k p o) q = q /\ cam_undist (plain_camera k p o) q = q.
Proof. split; reflexivity. Qed.
Print Assumptions C18_no_distortion.

(** A camera with a lens: a visible point is recovered from its (distorted) pixel and one
    known coordinate. *)
Definition lens_cam (c : camera) (k : pkind) (r : proj R) (o : opar R) (l : lens) : Prop :=
  exists p m, c = lens_camera k p m l /\ rep_proj p r /\ foc_ok r /\
    exists on, rep_opar on o /\ init_matrix on = Some m.
Lemma lens_good c k r o l : lens_cam c k r o l -> good_cam c r (camM o) (opos o) /\ cam_kind c = k
  /\ (forall x, cam_dist c x = distortedFromImage l x) /\ (forall x, cam_undist c x = imageFromDistorted l x).
Proof.
  intros (p&m&->&Hp&Hf&on&Ho&E). destruct (init_rigid _ _ Ho) as (m'&E'&HR).
  assert (m' = m) by congruence; subst m'. splits; auto. split; auto.
Qed.
(** The lens inverts at the pixel [X]. *)
Definition lens_inverts (l : lens) (L : rlens) (X : v2 R) : Prop :=
  0 < radius L X /\ exists rho, 0 < rho /\
  (forall x, rep x (radius L X) -> rep (l_conv l x) rho) /\
  (forall x, rep x rho -> rep (l_inv l x) (radius L X)).
Theorem C18_recover_point_with_lens : forall c k r o l L p P i g hide,
  lens_cam c k r o l -> rep_lens l L -> rep3 p P -> showable k (cam_coords o P) ->
  rep g (get_axis i P) -> get_axis i P <> get_axis i (opos o) ->
  (forall X, rep2 (p_image k (cam_proj c) (cameraFromSpace (cam_o c) p) hide) X -> lens_inverts l L X) ->
  exists p', spaceFromImage c (imageFromSpace c p hide) (on_axis i g) = Some p' /\ rep3 p' P.
Proof.
  intros c k r o l L p P i g hide HC HL Hp HS Hg Hne HI.
  destruct (lens_good _ _ _ _ _ HC) as (HG&HK&HDi&HU).
  destruct (ifs_spec c r (camM o) (opos o) p P hide HG Hp) as (x&Q&Ex&Rx&Hh&EX&(t&Ht&E)).
  { rewrite HK; exact HS. }
  assert (Hq' : rep2 (cam_undist c (imageFromSpace c p hide)) Q).
  { rewrite HU, Ex, HDi. rewrite HK in EX. rewrite EX in Rx.
    destruct (HI Q Rx) as (R0&rho&Rr&A&B). rewrite <- EX in Rx.
    eapply C18_undistort_distort; eauto. }
  set (W := dirW c r (camM o) Q) in *.
  assert (EA : get_axis i P - get_axis i (opos o) = t * get_axis i W).
  { apply (f_equal (get_axis i)) in E. destruct i; simpl in *; auto. }
  assert (NZ : get_axis i W <> 0) by (intros Z; rewrite Z in EA; lra).
  destruct (sfi_axis c r (camM o) (opos o) _ Q i g _ HG Hq' Hh Hg NZ) as (_&HP).
  fold W in HP. rewrite EA in HP. replace (t * get_axis i W / get_axis i W) with t in HP by (field; auto).
  destruct (HP ltac:(lra)) as (p'&Ep&Rp). exists p'; split; auto.
  eapply rep3_eq; [exact Rp|]. rewrite <- E. apply v3_ext; simpl; ring.
Qed.
Print Assumptions C18_recover_point_with_lens.

(** ** C19 *)
Definition brownR (k1 k2 k3 r : R) : R := r * (1 + k1 * r ^ 2 + k2 * r ^ 4 + k3 * r ^ 6).
Definition abcR (a b c r : R) : R := (1 - a - b - c) * r + c * r ^ 2 + b * r ^ 3 + a * r ^ 4.
Lemma rep_brown k1 k2 k3 K1 K2 K3 x r : rep k1 K1 -> rep k2 K2 -> rep k3 K3 -> rep x r ->
  rep (brown_radius k1 k2 k3 x) (brownR K1 K2 K3 r).
Proof.
  intros ? ? ? Hx. pose proof (fun n => rep_pow x r n Hx) as HP.
  pose proof (HP 2%nat). pose proof (HP 4%nat). pose proof (HP 6%nat). clear HP.
  unfold brown_radius, brownR. rep_all.
Qed.
Lemma rep_abc a b c A B C x r : rep a A -> rep b B -> rep c C -> rep x r ->
  rep (abc_radius a b c x) (abcR A B C r).
Proof.
  intros ? ? ? Hx. pose proof (fun n => rep_pow x r n Hx) as HP.
  pose proof (HP 2%nat). pose proof (HP 3%nat). pose proof (HP 4%nat). clear HP.
  unfold abc_radius, abcR. cbv zeta. rep_all.
Qed.

Definition brown_frame (r : proj R) : rlens := RLens (center_x r) (center_y r) (f_x r) (f_y r).
Definition abc_frame (r : proj R) : rlens :=
  let s := Rmin (im_width r) (im_height r) / 2 in RLens (center_x r) (center_y r) s s.
Lemma rep_brown_lens spline k1 k2 k3 p r : rep_proj p r -> foc_ok r ->
  rep_lens (brown_lens spline k1 k2 k3 p) (brown_frame r).
Proof. intros (?&?&?&?&?&?) (?&?). repeat split; auto. Qed.
Lemma rep_abc_lens spline a b c p r : rep_proj p r -> 0 < im_width r -> 0 < im_height r ->
  rep_lens (abc_lens spline a b c p) (abc_frame r).
Proof.
  intros (?&?&?&?&?&?) ? ?. assert (0 < Rmin (im_width r) (im_height r)) by (apply Rmin_pos; auto).
  repeat split; simpl; auto; try lra; unfold abc_lens; simpl; apply rep_div; try apply rep_min; auto; try apply rep_Fin; lra.
Qed.

(** Zero coefficients: identity away from the centre. *)
Theorem C19_zero_coefficients : forall spline z1 z2 z3 p r q Q,
  rep z1 0 -> rep z2 0 -> rep z3 0 -> rep_proj p r -> rep2 q Q ->
  Q <> V2 (center_x r) (center_y r) ->
  (foc_ok r -> rep2 (distortedFromImage (brown_lens spline z1 z2 z3 p) q) Q) /\
  (0 < im_width r -> 0 < im_height r -> rep2 (distortedFromImage (abc_lens spline z1 z2 z3 p) q) Q).
Proof.
  intros spline z1 z2 z3 p r q Q Z1 Z2 Z3 Hp Hq HN.
  assert (RP : forall sx sy, sx <> 0 -> sy <> 0 -> 0 < radius (RLens (center_x r) (center_y r) sx sy) Q).
  { intros sx sy Hx Hy. apply sqrt_lt_R0. simpl.
    destruct (Req_dec (c1 Q) (center_x r)) as [E1|E1]; [destruct (Req_dec (c2 Q) (center_y r)) as [E2|E2]|].
    - exfalso; apply HN; apply v2_ext; auto.
    - apply Rplus_le_lt_0_compat; [apply Rle_0_sqr|]. apply Rlt_0_sqr. unfold Rdiv.
      apply Rmult_integral_contrapositive; split; [lra|apply Rinv_neq_0_compat; auto].
    - apply Rplus_lt_le_0_compat; [|apply Rle_0_sqr]. apply Rlt_0_sqr. unfold Rdiv.
      apply Rmult_integral_contrapositive; split; [lra|apply Rinv_neq_0_compat; auto]. }
  split.
  - intros HF. pose proof (RP _ _ (proj1 HF) (proj2 HF)) as HR.
    eapply rep2_eq.
    + eapply C18_radial; [apply rep_brown_lens; eauto|exact Hq|exact HR|].
      intros x Hx. eapply rep_eq; [apply (rep_brown _ _ _ 0 0 0 _ _ Z1 Z2 Z3 Hx)|]. reflexivity.
    + fold (brown_frame r). unfold brownR. set (s := radius _ _) in *. replace (_ / _) with 1 by (field; lra). apply radial_1.
  - intros HW HH. assert (0 < Rmin (im_width r) (im_height r)) by (apply Rmin_pos; auto).
    assert (HR : 0 < radius (abc_frame r) Q) by (apply RP; lra).
    eapply rep2_eq.
    + eapply C18_radial; [apply rep_abc_lens; eauto|exact Hq|exact HR|].
      intros x Hx. eapply rep_eq; [apply (rep_abc _ _ _ 0 0 0 _ _ Z1 Z2 Z3 Hx)|]. reflexivity.
    + unfold abcR. set (s := radius _ _) in *. replace (_ / _) with 1 by (field; lra). apply radial_1.
Qed.
Print Assumptions C19_zero_coefficients.

(** The ABC lens fixes the circle around the centre through the nearer image edges. *)
Theorem C19_abc_fixed_circle : forall spline a b c A B C p r q Q,
  rep a A -> rep b B -> rep c C -> rep_proj p r -> 0 < im_width r -> 0 < im_height r -> rep2 q Q ->
  sqrt (Rsqr (c1 Q - center_x r) + Rsqr (c2 Q - center_y r)) = Rmin (im_width r) (im_height r) / 2 ->
  rep2 (distortedFromImage (abc_lens spline a b c p) q) Q.
Proof.
  intros spline a b c A B C p r q Q Ha Hb Hc Hp HW HH Hq HE.
  assert (M : 0 < Rmin (im_width r) (im_height r)) by (apply Rmin_pos; auto).
  assert (R1 : radius (abc_frame r) Q = 1).
  { unfold radius, abc_frame; cbn [o_x o_y s_x s_y]. set (s := Rmin _ _ / 2) in *. assert (0 < s) by (unfold s; lra).
    replace (_ + _) with ((Rsqr (c1 Q - center_x r) + Rsqr (c2 Q - center_y r)) * Rsqr (/ s)) by (unfold Rsqr; field; lra).
    rewrite sqrt_mult; [|apply Rplus_le_le_0_compat; apply Rle_0_sqr|apply Rle_0_sqr].
    rewrite HE, sqrt_Rsqr; [field; lra|]. apply Rlt_le, Rinv_0_lt_compat; auto. }
  eapply rep2_eq.
  - eapply C18_radial; [apply rep_abc_lens; eauto|exact Hq|lra|].
    intros x Hx. apply (rep_abc _ _ _ A B C _ _ Ha Hb Hc Hx).
  - rewrite R1. unfold abcR. replace (_ / _) with 1 by field. apply radial_1.
Qed.
Print Assumptions C19_abc_fixed_circle.

(** Non-negative Brown coefficients: the radius map is strictly increasing, and pixels
    never move inwards. *)
Lemma brownR_incr k1 k2 k3 r s : 0 <= k1 -> 0 <= k2 -> 0 <= k3 -> 0 <= r < s ->
  brownR k1 k2 k3 r < brownR k1 k2 k3 s.
Proof.
  intros H1 H2 H3 (Hr&Hs). unfold brownR.
  assert (P : forall n, r ^ n <= s ^ n) by (intros; apply pow_incr; lra).
  assert (Q : forall n, 0 <= r ^ n) by (intros; apply pow_le; lra).
  pose proof (P 2%nat). pose proof (P 4%nat). pose proof (P 6%nat).
  pose proof (Q 2%nat). pose proof (Q 4%nat). pose proof (Q 6%nat).
  set (A := 1 + _ + _ + _). set (B := 1 + _ + _ + _).
  assert (1 <= A).
  { unfold A. assert (0 <= k1 * r ^ 2) by (apply Rmult_le_pos; auto).
    assert (0 <= k2 * r ^ 4) by (apply Rmult_le_pos; auto). assert (0 <= k3 * r ^ 6) by (apply Rmult_le_pos; auto). lra. }
  assert (A <= B).
  { unfold A, B. assert (k1 * r ^ 2 <= k1 * s ^ 2) by (apply Rmult_le_compat_l; auto).
    assert (k2 * r ^ 4 <= k2 * s ^ 4) by (apply Rmult_le_compat_l; auto).
    assert (k3 * r ^ 6 <= k3 * s ^ 6) by (apply Rmult_le_compat_l; auto). lra. }
  clearbody A B. apply Rle_lt_trans with (r * B).
  - apply Rmult_le_compat_l; lra.
  - apply Rmult_lt_compat_r; lra.
Qed.
Theorem C19_brown_monotone : forall k1 k2 k3 K1 K2 K3 x y r s,
  rep k1 K1 -> rep k2 K2 -> rep k3 K3 -> 0 <= K1 -> 0 <= K2 -> 0 <= K3 ->
  rep x r -> rep y s -> 0 <= r < s ->
  (brown_radius k1 k2 k3 x <? brown_radius k1 k2 k3 y)%num = true.
Proof.
  intros k1 k2 k3 K1 K2 K3 x y r s H1 H2 H3 N1 N2 N3 Hx Hy HR.
  rewrite (rep_ltb _ _ _ _ (rep_brown _ _ _ _ _ _ _ _ H1 H2 H3 Hx) (rep_brown _ _ _ _ _ _ _ _ H1 H2 H3 Hy)).
  apply Rltb_true, brownR_incr; auto.
Qed.
Print Assumptions C19_brown_monotone.
Theorem C19_brown_outwards : forall spline k1 k2 k3 K1 K2 K3 p r q Q,
  rep k1 K1 -> rep k2 K2 -> rep k3 K3 -> 0 <= K1 -> 0 <= K2 -> 0 <= K3 ->
  rep_proj p r -> foc_ok r -> rep2 q Q -> 0 < radius (brown_frame r) Q ->
  exists lam, 1 <= lam /\
    rep2 (distortedFromImage (brown_lens spline k1 k2 k3 p) q)
      (V2 (center_x r + lam * (c1 Q - center_x r)) (center_y r + lam * (c2 Q - center_y r))).
Proof.
  intros spline k1 k2 k3 K1 K2 K3 p r q Q H1 H2 H3 N1 N2 N3 Hp Hf Hq HR.
  set (s := radius (brown_frame r) Q) in *.
  exists (brownR K1 K2 K3 s / s). split.
  - unfold brownR. assert (P : forall n, 0 <= s ^ n) by (intros; apply pow_le; lra).
    replace (_ / s) with (1 + K1 * s ^ 2 + K2 * s ^ 4 + K3 * s ^ 6) by (field; lra).
    assert (0 <= K1 * s ^ 2) by (apply Rmult_le_pos; auto). assert (0 <= K2 * s ^ 4) by (apply Rmult_le_pos; auto).
    assert (0 <= K3 * s ^ 6) by (apply Rmult_le_pos; auto). lra.
  - apply (C18_radial (brown_lens spline k1 k2 k3 p) (brown_frame r) q Q (brownR K1 K2 K3 s)); auto.
    + apply rep_brown_lens; auto.
    + intros x Hx. apply rep_brown; auto.
Qed.
Print Assumptions C19_brown_outwards.

(** ** C20 *)
(** Real sequences *)
Fixpoint incrR (l : list R) : Prop :=
  match l with a :: ((b :: _) as l') => a < b /\ incrR l' | _ => True end.
(** An interpolating spline returns the abscissa at every one of its increasing knots. *)
Definition interpolates (spline : list (num * num) -> num -> num) : Prop :=
  forall ks YS, Forall2 (fun p Y => rep (fst p) Y) ks YS -> incrR YS ->
  forall y x r y', In (y, x) ks -> rep y r -> rep y' r -> spline ks y' = x.
Lemma kept_incr : forall samples YS, Forall2 (fun p Y => rep (fst p) Y) samples YS -> incrR YS ->
  kept samples = samples /\ strictly_incr (map fst samples) = true.
Proof.
  intros samples YS H HI. destruct H as [|[y x] Y l L Hy Hl]; [split; reflexivity|].
  unfold kept. cbn [map fst dys combine filter snd].
  rewrite (rep_leb _ _ _ _ (rep_Fin 0) (rep_Fin 0)), Rleb_true by lra. cbn [map snd].
  cbn [fst] in Hy. revert y x Y Hy HI. induction Hl as [|[y' x'] Y' l L Hy' Hl IH]; intros y x Y Hy HI.
  - split; reflexivity.
  - cbn [fst] in Hy'. destruct HI as (A&B).
    cbn [map fst diffs combine filter].
    rewrite (rep_leb _ _ _ _ (rep_Fin 0) (rep_sub _ _ _ _ Hy' Hy)), Rleb_true by lra. cbn [map snd].
    destruct (IH y' x' Y' Hy' B) as (E1&E2). split.
    + f_equal. exact E1.
    + change (map fst ((y', x') :: l)) with (y' :: map fst l) in *. cbn [strictly_incr].
      rewrite (rep_ltb _ _ _ _ (rep_Fin 0) (rep_sub _ _ _ _ Hy' Hy)), Rltb_true by lra. simpl in *. exact E2.
Qed.

Theorem C20_exact_at_samples : forall spline xs func YS,
  interpolates spline -> Forall2 (fun x Y => rep (func x) Y) xs YS -> incrR YS -> (4 <= length xs)%nat ->
  forall x Y y', In x xs -> rep (func x) Y -> rep y' Y ->
    invert_function spline xs func y' = x.
Proof.
  intros spline xs func YS HS HF HI HL x Y y' Hx HY Hy'.
  set (samples := combine (map func xs) xs).
  assert (ES : samples = map (fun x => (func x, x)) xs).
  { unfold samples. clear. induction xs; simpl; congruence. }
  assert (HF' : Forall2 (fun p Y => rep (fst p) Y) samples YS).
  { rewrite ES. clear - HF. induction HF; constructor; auto. }
  destruct (kept_incr _ _ HF' HI) as (E1&E2).
  unfold invert_function. fold samples. cbv zeta. rewrite E1, E2.
  assert (LE : (4 <=? length samples)%nat = true) by (apply Nat.leb_le; rewrite ES, map_length; auto).
  rewrite LE. cbn [andb]. apply (HS samples YS HF' HI (func x) x Y y'); auto.
  rewrite ES. apply in_map_iff. exists x; auto.
Qed.
Print Assumptions C20_exact_at_samples.

(** If two kept samples are out of order the inversion silently is the identity. *)
Definition keptT (y : num) (s : list (num * num)) : list (num * num) :=
  map snd (filter (fun p : num * (num * num) => (Fin 0 <=? fst p)%num) (combine (diffs y (map fst s)) s)).
Lemma kept_cons y x s : kept ((y, x) :: s) = (y, x) :: keptT y s.
Proof.
  unfold kept, keptT. cbn [map fst dys combine filter snd].
  rewrite (rep_leb _ _ _ _ (rep_Fin 0) (rep_Fin 0)), Rleb_true by lra. reflexivity.
Qed.
Lemma keptT_cons y p s : keptT y (p :: s) =
  if (Fin 0 <=? fst p - y)%num then p :: keptT (fst p) s else keptT (fst p) s.
Proof. unfold keptT. cbn [map fst diffs combine filter]. destruct (_ <=? _)%num; reflexivity. Qed.
Lemma keptT_app s1 : forall y p s2, keptT y (s1 ++ p :: s2) = keptT y (s1 ++ [p]) ++ keptT (fst p) s2.
Proof.
  induction s1 as [|q s1 IH]; intros y p s2; cbn [app]; rewrite !keptT_cons.
  - destruct (_ <=? _)%num; reflexivity.
  - rewrite IH. destruct (_ <=? _)%num; reflexivity.
Qed.
Lemma keptT_sub s : forall y p, In p (keptT y s) -> In p s.
Proof.
  induction s as [|q s IH]; intros y p; [intros []|]. rewrite keptT_cons.
  destruct (_ <=? _)%num; intros H; [destruct H as [->|H]|]; simpl; eauto.
Qed.
Lemma kept_sub s p : In p (kept s) -> In p s.
Proof.
  destruct s as [|[y x] s]; [intros []|]. rewrite kept_cons. intros [<-|H]; [left; auto|right].
  eapply keptT_sub; eauto.
Qed.
Lemma kept_app s1 p s2 : kept (s1 ++ p :: s2) = kept (s1 ++ [p]) ++ keptT (fst p) s2.
Proof.
  destruct s1 as [|[y x] s1]; cbn [app].
  - destruct p as [y x]. rewrite !kept_cons. reflexivity.
  - rewrite !kept_cons, keptT_app. reflexivity.
Qed.
Lemma incrR_app A : forall u B v C, incrR (A ++ u :: B ++ v :: C) -> u < v.
Proof.
  induction A as [|a A IH]; intros u B v C H.
  - revert u H. induction B as [|b B IB]; intros u H; simpl in H.
    + apply H.
    + destruct H as (H1&H2). apply IB in H2. lra.
  - apply (IH u B v C). simpl in H. destruct (A ++ u :: B ++ v :: C) eqn:E; [destruct A; discriminate|apply H].
Qed.
Lemma strictly_incrR (l : list num) YS : Forall2 rep l YS -> strictly_incr l = true -> incrR YS.
Proof.
  intros H. induction H as [|y Y l L Hy Hl IH]; intros E; [exact I|].
  destruct Hl as [|y' Y' l L Hy' Hl]; [exact I|].
  cbn [strictly_incr] in E. apply andb_true_iff in E. destruct E as (E1&E2).
  rewrite (rep_ltb _ _ _ _ (rep_Fin 0) (rep_sub _ _ _ _ Hy' Hy)) in E1. apply Rltb_iff in E1.
  split; [lra|]. apply IH; auto.
Qed.

(** Samples at which the map decreases are dropped: what is inverted is the list of the samples that are not below the sample
    just before them, and the identity if these do not increase or are fewer than four. *)
Fixpoint climbing (F : num -> R) (last : num) (xs : list num) : list num :=
  match xs with [] => [] | x :: t => if Rle_dec (F last) (F x) then x :: climbing F x t else climbing F x t end.
Lemma incr_strictly (l : list num) YS : Forall2 rep l YS -> incrR YS -> strictly_incr l = true.
Proof.
  intros H. induction H as [|y Y l L Hy Hl IH]; intros E; [reflexivity|]. destruct Hl as [|y' Y' l L Hy' Hl]; [reflexivity|].
  destruct E as (E1&E2). cbn [strictly_incr]. rewrite (rep_ltb _ _ _ _ (rep_Fin 0) (rep_sub _ _ _ _ Hy' Hy)), Rltb_true by lra.
  apply IH; auto.
Qed.
Lemma climbing_in F xs : forall last x, In x (climbing F last xs) -> In x xs.
Proof.
  induction xs as [|y t IH]; intros last x; [intros []|]. cbn [climbing]. destruct (Rle_dec _ _); intros H; [destruct H as [->|H]; [left; auto|]|]; right; eauto.
Qed.
Theorem C20_decreasing_samples_dropped : forall spline func F x0 xs,
  (forall x, In x (x0 :: xs) -> rep (func x) (F x)) ->
  let s := x0 :: climbing F x0 xs in
  (incrR (map F s) /\ (4 <= length s)%nat ->
     forall y, invert_function spline (x0 :: xs) func y = spline (map (fun x => (func x, x)) s) y) /\
  (~ (incrR (map F s) /\ (4 <= length s)%nat) -> forall y, invert_function spline (x0 :: xs) func y = y).
Proof.
  intros spline func F x0 xs HF s. set (g := fun x => (func x, x)).
  assert (ES : forall l, combine (map func l) l = map g l) by (induction l; simpl; [reflexivity|rewrite IHl; reflexivity]).
  assert (HK : kept (map g (x0 :: xs)) = map g s).
  { cbn [map s]. unfold g at 1. rewrite kept_cons. unfold g at 2. f_equal. change (func x0) with (fst (g x0)).
    assert (H0 : rep (func x0) (F x0)) by (apply HF; left; auto). assert (H1 : forall x, In x xs -> rep (func x) (F x)) by (intros; apply HF; right; auto).
    clear s ES HF. revert x0 H0. induction xs as [|y t IH]; intros x0 H0; [reflexivity|]. cbn [map climbing]. rewrite keptT_cons. change (fst (g y)) with (func y). change (fst (g x0)) with (func x0).
    assert (Hy : rep (func y) (F y)) by (apply H1; left; auto). rewrite (rep_leb _ _ _ _ (rep_Fin 0) (rep_sub _ _ _ _ Hy H0)).
    assert (IH' := IH ltac:(intros; apply H1; right; auto) y Hy). change (fst (g y)) with (func y) in IH'. destruct (Rle_dec (F x0) (F y)) as [L|L].
    - rewrite Rleb_true by lra. cbn [map]. rewrite IH'. reflexivity.
    - destruct (Rleb 0 (F y - F x0)) eqn:E; [apply Rleb_iff in E; lra|]. exact IH'. }
  assert (HR : Forall2 rep (map fst (map g s)) (map F s)).
  { assert (HS : forall x, In x s -> rep (func x) (F x)) by (intros x [<-|H]; apply HF; [left; auto|right; eapply climbing_in; eauto]).
    clear - HS. induction s as [|x t IH]; cbn [map]; constructor; [apply HS; left; auto|apply IH; intros; apply HS; right; auto]. }
  unfold invert_function. cbv zeta. rewrite ES, HK, map_length. split.
  - intros (H1&H2) y. rewrite (incr_strictly _ _ HR H1). apply Nat.leb_le in H2. rewrite H2. reflexivity.
  - intros N y. destruct (strictly_incr (map fst (map g s))) eqn:E1; [|reflexivity]. destruct (4 <=? length s)%nat eqn:E2; [|reflexivity].
    exfalso. apply N. split; [exact (strictly_incrR _ _ HR E1)|apply Nat.leb_le; exact E2].
Qed.
Print Assumptions C20_decreasing_samples_dropped.
(** So every sample that is kept is inverted exactly, also beside samples that are dropped. *)
Theorem C20_exact_at_kept : forall spline func F x0 xs, interpolates spline ->
  (forall x, In x (x0 :: xs) -> rep (func x) (F x)) ->
  let s := x0 :: climbing F x0 xs in incrR (map F s) -> (4 <= length s)%nat ->
  forall x y, In x s -> rep y (F x) -> invert_function spline (x0 :: xs) func y = x.
Proof.
  intros spline func F x0 xs HI HF s H1 H2 x y Hx Hy.
  destruct (C20_decreasing_samples_dropped spline func F x0 xs HF) as (A&_). fold s in A. rewrite (A (conj H1 H2) y).
  assert (HS : forall x, In x s -> rep (func x) (F x)) by (intros z [<-|H]; apply HF; [left; auto|right; eapply climbing_in; eauto]).
  apply (HI (map (fun x => (func x, x)) s) (map F s)) with (y := func x) (r := F x); auto.
  - clear - HS. induction s as [|z t IH]; cbn [map]; constructor; [apply HS; left; auto|apply IH; intros; apply HS; right; auto].
  - apply in_map_iff. exists x; auto.
Qed.
Print Assumptions C20_exact_at_kept.
Theorem C20_fallback_identity : forall spline func F xs s1 x1 x2 s2 x3 x4 s3,
  (forall x, In x xs -> rep (func x) (F x)) ->
  xs = s1 ++ x1 :: x2 :: s2 ++ x3 :: x4 :: s3 ->
  F x1 <= F x2 -> F x3 <= F x4 -> F x4 <= F x2 ->
  forall y, invert_function spline xs func y = y.
Proof.
  intros spline func F xs s1 x1 x2 s2 x3 x4 s3 HF EX H12 H34 H42 y.
  unfold invert_function. cbv zeta.
  assert (ES : combine (map func xs) xs = map (fun x => (func x, x)) xs).
  { clear. induction xs; simpl; congruence. }
  rewrite ES. set (g := fun x => (func x, x)) in *.
  assert (HK : exists A B C, kept (map g xs) = A ++ g x2 :: B ++ g x4 :: C).
  { assert (HF' : forall x x', In x xs -> In x' xs -> F x <= F x' -> (Fin 0 <=? func x' - func x)%num = true).
    { intros x x' I1 I2 L. rewrite (rep_leb _ _ _ _ (rep_Fin 0) (rep_sub _ _ _ _ (HF _ I2) (HF _ I1))).
      apply Rleb_true; lra. }
    assert (I1 : In x1 xs) by (rewrite EX; apply in_app_iff; simpl; auto).
    assert (I2 : In x2 xs) by (rewrite EX; apply in_app_iff; simpl; auto).
    assert (I3 : In x3 xs) by (rewrite EX; apply in_app_iff; right; right; right; apply in_app_iff; simpl; auto).
    assert (I4 : In x4 xs) by (rewrite EX; apply in_app_iff; right; right; right; apply in_app_iff; simpl; auto).
    rewrite EX. rewrite map_app. cbn [map]. rewrite map_app. cbn [map].
    rewrite kept_app, keptT_cons. cbn [fst g]. rewrite (HF' x1 x2) by auto.
    rewrite keptT_app, keptT_cons. cbn [fst g]. rewrite (HF' x3 x4) by auto.
    do 3 eexists. reflexivity. }
  destruct HK as (A&B&C&HK).
  destruct (strictly_incr (map fst (kept (map g xs)))) eqn:E; [exfalso|reflexivity].
  assert (HI : incrR (map (fun p => F (snd p)) (kept (map g xs)))).
  { eapply strictly_incrR; [|exact E].
    assert (SUB : forall p, In p (kept (map g xs)) -> rep (fst p) (F (snd p))).
    { intros p Hp. apply kept_sub, in_map_iff in Hp. destruct Hp as (x&<-&Hx). apply HF, Hx. }
    clear - SUB. induction (kept (map g xs)) as [|p l IH]; constructor.
    - apply SUB; left; auto.
    - apply IH. intros; apply SUB; right; auto. }
  rewrite HK in HI. rewrite map_app in HI. cbn [map] in HI. rewrite map_app in HI. cbn [map] in HI.
  apply incrR_app in HI. cbn [snd g] in HI. lra.
Qed.
Print Assumptions C20_fallback_identity.

(** Consequence: with a barrel coefficient the round trip fails at half the focal length
    from the centre, although the forward map is increasing there. *)
Lemma radii_in x : In x radii -> exists i, (i < 20)%nat /\ x = Fin (INR i / 10).
Proof. unfold radii. rewrite in_map_iff. intros (i&<-&H). apply in_seq in H. exists i; split; auto; lia. Qed.
Definition valR (x : num) : R := match x with Fin r => r | _ => 0 end.
Lemma rep_brown_radii k1 k2 k3 K1 K2 K3 : rep k1 K1 -> rep k2 K2 -> rep k3 K3 ->
  forall x, In x radii -> rep (brown_radius k1 k2 k3 x) (brownR K1 K2 K3 (valR x)).
Proof.
  intros H1 H2 H3 x Hx. destruct (radii_in _ Hx) as (i&_&->). apply rep_brown; auto. apply rep_Fin.
Qed.
Lemma radii_split : radii =
  map (fun i => Fin (INR i / 10)) (seq 0 6) ++ Fin (INR 6 / 10) :: Fin (INR 7 / 10) ::
  map (fun i => Fin (INR i / 10)) (seq 8 5) ++ Fin (INR 13 / 10) :: Fin (INR 14 / 10) ::
  map (fun i => Fin (INR i / 10)) (seq 15 5).
Proof. reflexivity. Qed.
Lemma INR_num n : INR n = IZR (Z.of_nat n). Proof. apply INR_IZR_INZ. Qed.
Theorem C20_round_trip_refuted : exists k1 k2 k3 p r q Q,
  rep_proj p r /\ foc_ok r /\ rep2 q Q /\ radius (brown_frame r) Q = / 2 /\
  (forall s t, 0 <= s -> s < t -> t <= / 2 -> brownR (-1) (3 / 10) 0 s < brownR (-1) (3 / 10) 0 t) /\
  k1 = Fin (-1) /\ k2 = Fin (3 / 10) /\ k3 = Fin 0 /\
  forall spline, let l := brown_lens spline k1 k2 k3 p in
    ~ rep2 (imageFromDistorted l (distortedFromImage l q)) Q.
Proof.
  exists (Fin (-1)), (Fin (3 / 10)), (Fin 0), (proj_fin ex_r), ex_r,
    (V2 (Fin (center_x ex_r + f_x ex_r / 2)) (Fin (center_y ex_r))),
    (V2 (center_x ex_r + f_x ex_r / 2) (center_y ex_r)).
  assert (F0 : 0 < f_x ex_r /\ 0 < f_y ex_r) by (simpl; lra).
  assert (HP : rep_proj (proj_fin ex_r) ex_r) by (repeat split).
  assert (HFo : foc_ok ex_r) by (split; lra).
  set (Q := V2 (center_x ex_r + f_x ex_r / 2) (center_y ex_r)).
  set (q := V2 (Fin (center_x ex_r + f_x ex_r / 2)) (Fin (center_y ex_r))).
  assert (Hq : rep2 q Q) by (split; apply rep_Fin).
  assert (HR : radius (brown_frame ex_r) Q = / 2).
  { unfold radius, brown_frame, Q; cbn [o_x o_y s_x s_y c1 c2].
    replace (_ + _) with (Rsqr (/ 2)) by (unfold Rsqr; field; lra). apply sqrt_Rsqr; lra. }
  splits; auto.
  { intros s t H0 Hst Ht. unfold brownR.
    assert (0 < (t - s) * (1 - (t * t + t * s + s * s) + 3/10 * (t^4 + t^3*s+t^2*s^2+t*s^3+s^4))); [|nra].
    apply Rmult_lt_0_compat; [lra|].
    assert (0 <= t^4 + t^3*s+t^2*s^2+t*s^3+s^4).
    { assert (P : forall a b, 0 <= t ^ a * s ^ b) by (intros; apply Rmult_le_pos; apply pow_le; lra).
      pose proof (P 4%nat 0%nat). pose proof (P 3%nat 1%nat). pose proof (P 2%nat 2%nat).
      pose proof (P 1%nat 3%nat). pose proof (P 0%nat 4%nat). simpl in *. lra. }
    assert (t * t <= / 4) by nra. assert (t * s < / 4) by nra. assert (s * s < / 4) by nra. lra. }
  intros spline l HX.
  assert (HL : rep_lens l (brown_frame ex_r)) by (apply rep_brown_lens; auto).
  pose proof (proj1 (C18_radial l _ q Q (brownR (-1) (3/10) 0 (/2)) HL Hq ltac:(rewrite HR; lra))) as HD.
  rewrite HR in HD. specialize (HD (fun x Hx => rep_brown _ _ _ _ _ _ _ _ (rep_Fin _) (rep_Fin _) (rep_Fin _) Hx)).
  set (rho := brownR (-1) (3/10) 0 (/2)) in *.
  assert (Erho : rho = 123 / 320) by (unfold rho, brownR; field).
  set (Q' := radial _ _ _) in HD.
  assert (HR' : radius (brown_frame ex_r) Q' = rho).
  { unfold Q'. rewrite radius_radial by (cbn [brown_frame s_x s_y]; lra). rewrite HR, Rabs_right by lra. lra. }
  assert (HU : rep2 (imageFromDistorted l (distortedFromImage l q)) (radial (brown_frame ex_r) (rho / rho) Q')).
  { pose proof (proj2 (C18_radial l _ _ Q' rho HL HD ltac:(lra))) as HU. rewrite HR' in HU. apply HU.
    intros x Hx. assert (EI : l_inv l x = x); [|rewrite EI; auto].
    unfold l, brown_lens; cbn [l_inv].
    eapply (C20_fallback_identity _ _ (fun x => brownR (-1) (3/10) 0 (valR x))); [|exact radii_split|..].
    - apply rep_brown_radii; apply rep_Fin.
    - cbn [valR]. rewrite !INR_num. simpl Z.of_nat. unfold brownR. lra.
    - cbn [valR]. rewrite !INR_num. simpl Z.of_nat. unfold brownR. lra.
    - cbn [valR]. rewrite !INR_num. simpl Z.of_nat. unfold brownR. lra. }
  destruct HU as (HU&_), HX as (HX&_). pose proof (rep_inj _ _ _ HU HX) as E.
  replace (rho / rho) with 1 in E by (field; lra). rewrite radial_1 in E.
  unfold Q', Q, radial, brown_frame in E; cbn [c1 c2 o_x o_y] in E. 
  replace (rho / / 2) with (123 / 160) in E by lra. lra.
Qed.
Print Assumptions C20_round_trip_refuted.

(** For non-negative Brown coefficients nothing is dropped, and pixels at the sample radii
    0.1, ..., 1.9 survive the round trip exactly. *)
Lemma incrR_map (f : nat -> R) n : forall a, (forall i j, (a <= i < j)%nat -> f i < f j) -> incrR (map f (seq a n)).
Proof.
  induction n as [|n IH]; intros a H; [exact I|]. cbn [seq map].
  destruct n as [|n]; [exact I|]. split; [apply H; lia|]. apply (IH (S a)). intros; apply H; lia.
Qed.
Theorem C20_brown_round_trip_at_samples : forall spline k1 k2 k3 K1 K2 K3 p r q Q i,
  interpolates spline -> rep k1 K1 -> rep k2 K2 -> rep k3 K3 -> 0 <= K1 -> 0 <= K2 -> 0 <= K3 ->
  rep_proj p r -> foc_ok r -> rep2 q Q -> radius (brown_frame r) Q = INR i / 10 -> (1 <= i < 20)%nat ->
  let l := brown_lens spline k1 k2 k3 p in
  rep2 (imageFromDistorted l (distortedFromImage l q)) Q.
Proof.
  intros spline k1 k2 k3 K1 K2 K3 p r q Q i HS H1 H2 H3 N1 N2 N3 Hp Hf Hq HR Hi l.
  assert (I0 : 0 < INR i / 10) by (assert (1 <= INR i) by (apply (le_INR 1); lia); lra).
  assert (IN : In (Fin (INR i / 10)) radii).
  { unfold radii. apply in_map_iff. exists i. split; auto. apply in_seq; lia. }
  apply (C18_undistort_distort l (brown_frame r) q Q (brownR K1 K2 K3 (INR i / 10))); auto.
  - apply rep_brown_lens; auto.
  - rewrite HR; auto.
  - replace 0 with (brownR K1 K2 K3 0) by (unfold brownR; ring). apply brownR_incr; auto; lra.
  - rewrite HR. intros x Hx. apply rep_brown; auto.
  - rewrite HR. intros x Hx. unfold l, brown_lens; cbn [l_inv].
    rewrite (C20_exact_at_samples spline radii (brown_radius k1 k2 k3) (map (fun i => brownR K1 K2 K3 (INR i / 10)) (seq 0 20))
      HS) with (x := Fin (INR i / 10)) (Y := brownR K1 K2 K3 (INR i / 10)); auto.
    + apply rep_Fin.
    + unfold radii. clear -H1 H2 H3. induction (seq 0 20); constructor; auto. apply rep_brown; auto; apply rep_Fin.
    + apply incrR_map. intros a b Hab. apply brownR_incr; auto.
      assert (0 <= INR a) by apply pos_INR. assert (INR a < INR b) by (apply lt_INR; lia). lra.
    + unfold radii. rewrite map_length, seq_length. repeat constructor.
    + apply rep_brown; auto; apply rep_Fin.
Qed.
Print Assumptions C20_brown_round_trip_at_samples.

(** With zero coefficients undistorting is the identity too, provided the spline reproduces
    straight lines. *)
Definition linear_precision (spline : list (num * num) -> num -> num) : Prop :=
  forall ks, (forall y x, In (y, x) ks -> exists r, rep y r /\ rep x r) -> forall y r, rep y r -> rep (spline ks y) r.
Lemma invert_identity spline func : linear_precision spline ->
  (forall x, In x radii -> rep (func x) (valR x)) -> forall y r, rep y r -> rep (invert_function spline radii func y) r.
Proof.
  intros HL HF y r Hy. unfold invert_function. cbv zeta. destruct (_ && _); auto.
  apply HL; auto. intros y0 x0 H. apply kept_sub in H.
  assert (ES : combine (map func radii) radii = map (fun x => (func x, x)) radii).
  { generalize radii. intros l; induction l; simpl; congruence. }
  rewrite ES in H. apply in_map_iff in H. destruct H as (x&E&Hx). inversion E; subst.
  exists (valR x0). split; auto. destruct (radii_in _ Hx) as (i&_&->). apply rep_Fin.
Qed.
Theorem C19_zero_coefficients_undistort : forall spline z1 z2 z3 p r q Q,
  linear_precision spline ->
  rep z1 0 -> rep z2 0 -> rep z3 0 -> rep_proj p r -> rep2 q Q ->
  (foc_ok r -> 0 < radius (brown_frame r) Q -> rep2 (imageFromDistorted (brown_lens spline z1 z2 z3 p) q) Q) /\
  (0 < im_width r -> 0 < im_height r -> 0 < radius (abc_frame r) Q ->
     rep2 (imageFromDistorted (abc_lens spline z1 z2 z3 p) q) Q).
Proof.
  intros spline z1 z2 z3 p r q Q HL Z1 Z2 Z3 Hp Hq. split.
  - intros HF HR. eapply rep2_eq.
    + eapply C18_radial; [apply rep_brown_lens; eauto|exact Hq|exact HR|].
      intros x Hx. unfold brown_lens; cbn [l_inv]. apply invert_identity; [exact HL| |exact Hx].
      intros y Hy. eapply rep_eq; [apply (rep_brown_radii _ _ _ 0 0 0 Z1 Z2 Z3 y Hy)|]. unfold brownR; ring.
    + set (s := radius _ _) in *. replace (s / s) with 1 by (field; lra). apply radial_1.
  - intros HW HH HR. eapply rep2_eq.
    + eapply C18_radial; [apply rep_abc_lens; eauto|exact Hq|exact HR|].
      intros x Hx. unfold abc_lens; cbn [l_inv]. apply invert_identity; [exact HL| |exact Hx].
      intros y Hy. destruct (radii_in _ Hy) as (i&_&->).
      eapply rep_eq; [apply (rep_abc _ _ _ 0 0 0 _ _ Z1 Z2 Z3 (rep_Fin _))|]. unfold abcR; cbn [valR]; ring.
    + set (s := radius _ _) in *. replace (s / s) with 1 by (field; lra). apply radial_1.
Qed.
Print Assumptions C19_zero_coefficients_undistort.

(** ** Examples *)
(** A spline oracle meeting both assumptions, and a lens whose pixel at half the focal
    length survives the round trip. *)
Definition lookup_spline (ks : list (num * num)) (y : num) : num :=
  match find (fun p => neqb (fst p) y) ks with Some p => snd p | None => y end.
Lemma lookup_interpolates : interpolates lookup_spline.
Proof.
  intros ks YS HF HI y x r y' Hin Hy Hy'. unfold lookup_spline.
  assert (G : forall ks YS, Forall2 (fun p Y => rep (fst p) Y) ks YS -> incrR YS ->
    In (y, x) ks -> find (fun p => neqb (fst p) y') ks = Some (y, x)).
  { clear - Hy Hy'. intros ks YS HF. induction HF as [|[y1 x1] Y1 ks YS H1 HF IH]; intros HI Hin; [destruct Hin|].
    cbn [find fst] in *. destruct Hin as [E|Hin].
    - inversion E; subst. rewrite (rep_eqb _ _ _ _ Hy Hy'), Reqb_refl. reflexivity.
    - assert (L : Y1 < r).
      { clear - HF HI Hin Hy. revert Y1 HI. induction HF as [|[y2 x2] Y2 ks YS H2 HF IH]; intros Y1 HI; [destruct Hin|].
        destruct HI as (A&B). destruct Hin as [E|Hin].
        - inversion E; subst. rewrite <- (rep_inj _ _ _ H2 Hy). auto.
        - apply Rlt_trans with Y2; auto. }
      rewrite (rep_eqb _ _ _ _ H1 Hy'). destruct (Reqb Y1 r) eqn:E.
      + apply Reqb_iff in E. lra.
      + apply IH; auto. destruct YS; [exact I|apply HI]. }
  rewrite (G ks YS HF HI Hin). reflexivity.
Qed.
Lemma lookup_linear : linear_precision lookup_spline.
Proof.
  intros ks HK y r Hy. unfold lookup_spline. destruct (find _ ks) as [[y1 x1]|] eqn:E; auto.
  apply find_some in E. destruct E as (Hin&E). destruct (HK _ _ Hin) as (r1&A&B). cbn [fst snd] in *.
  rewrite (rep_eqb _ _ _ _ A Hy) in E. apply Reqb_iff in E. subst; auto.
Qed.
Example C18_example : let l := brown_lens lookup_spline (Fin 1) (Fin 0) (Fin 0) (proj_fin ex_r) in
  let q := V2 (Fin (center_x ex_r + f_x ex_r / 2)) (Fin (center_y ex_r)) in
  rep2 (distortedFromImage l q) (V2 (center_x ex_r + 5 / 8 * f_x ex_r) (center_y ex_r)) /\
  rep2 (imageFromDistorted l (distortedFromImage l q)) (V2 (center_x ex_r + f_x ex_r / 2) (center_y ex_r)).
Proof.
  assert (F0 : 0 < f_x ex_r /\ 0 < f_y ex_r) by (simpl; lra).
  assert (HP : rep_proj (proj_fin ex_r) ex_r) by (repeat split).
  set (Q := V2 (center_x ex_r + f_x ex_r / 2) (center_y ex_r)).
  set (q := V2 (Fin (center_x ex_r + f_x ex_r / 2)) (Fin (center_y ex_r))).
  assert (Hq : rep2 q Q) by (split; apply rep_Fin).
  assert (HR : radius (brown_frame ex_r) Q = / 2).
  { unfold radius, brown_frame, Q; cbn [o_x o_y s_x s_y c1 c2].
    replace (_ + _) with (Rsqr (/ 2)) by (unfold Rsqr; field; lra). apply sqrt_Rsqr; lra. }
  intros l. split.
  - eapply rep2_eq.
    + eapply C18_radial; [apply rep_brown_lens; [exact HP|split; lra]|exact Hq|lra|].
      intros x Hx. apply (rep_brown _ _ _ 1 0 0 _ _ (rep_Fin _) (rep_Fin _) (rep_Fin _) Hx).
    + rewrite HR. unfold radial, brown_frame, Q, brownR; apply v2_ext; cbn [o_x o_y c1 c2]; lra.
  - apply (C20_brown_round_trip_at_samples lookup_spline (Fin 1) (Fin 0) (Fin 0) 1 0 0 (proj_fin ex_r) ex_r q Q 5);
      try apply rep_Fin; try lra; auto.
    + apply lookup_interpolates.
    + split; lra.
    + rewrite HR. simpl. lra.
    + lia.
Qed.
Example C19_example :
  rep2 (distortedFromImage (abc_lens lookup_spline (Fin 1) (Fin 2) (Fin 3) (proj_fin ex_r))
         (V2 (Fin (center_x ex_r)) (Fin (center_y ex_r + Rmin (im_width ex_r) (im_height ex_r) / 2))))
       (V2 (center_x ex_r) (center_y ex_r + Rmin (im_width ex_r) (im_height ex_r) / 2)).
Proof.
  assert (0 < im_width ex_r /\ 0 < im_height ex_r) by (simpl; lra).
  assert (0 < Rmin (im_width ex_r) (im_height ex_r)) by (apply Rmin_pos; lra).
  apply (C19_abc_fixed_circle _ _ _ _ 1 2 3 _ ex_r); try apply rep_Fin; try lra.
  - repeat split.
  - split; apply rep_Fin.
  - cbn [c1 c2]. set (m := Rmin _ _) in *.
    replace (_ + _) with (Rsqr (m / 2)) by (unfold Rsqr; field). apply sqrt_Rsqr; lra.
Qed.
Example C20_example : exists spline, interpolates spline /\ linear_precision spline.
Proof. exists lookup_spline. split; [apply lookup_interpolates|apply lookup_linear]. Qed.
(** A Brown lens with k1 = 1 inverts at half the focal length. *)
Definition ex_lens : lens := brown_lens lookup_spline (Fin 1) (Fin 0) (Fin 0) (proj_fin ex_r).
Lemma ex_lens_rep : rep_lens ex_lens (brown_frame ex_r).
Proof. apply rep_brown_lens; [repeat split|split; simpl; lra]. Qed.
Lemma ex_lens_inv x : rep x (5 / 8) -> rep (l_inv ex_lens x) (/ 2).
Proof.
  intros Hx. unfold ex_lens, brown_lens; cbn [l_inv].
  assert (IN : In (Fin (INR 5 / 10)) radii) by (unfold radii; apply in_map_iff; exists 5%nat; split; auto; apply in_seq; lia).
  rewrite (C20_exact_at_samples lookup_spline radii (brown_radius (Fin 1) (Fin 0) (Fin 0)) (map (fun i => brownR 1 0 0 (INR i / 10)) (seq 0 20))
      lookup_interpolates) with (x := Fin (INR 5 / 10)) (Y := 5 / 8); auto.
  - eapply rep_eq; [apply rep_Fin|]. simpl. lra.
  - unfold radii. induction (seq 0 20); constructor; auto. apply rep_brown; auto; apply rep_Fin.
  - apply incrR_map. intros a b Hab. apply brownR_incr; try lra.
    assert (0 <= INR a) by apply pos_INR. assert (INR a < INR b) by (apply lt_INR; lia). lra.
  - unfold radii. rewrite map_length, seq_length. repeat constructor.
  - eapply rep_eq; [apply rep_brown; apply rep_Fin|]. unfold brownR. simpl. lra.
Qed.
Lemma ex_lens_inverts Q : radius (brown_frame ex_r) Q = / 2 -> lens_inverts ex_lens (brown_frame ex_r) Q.
Proof.
  intros HR. unfold lens_inverts. rewrite HR. split; [lra|]. exists (5 / 8). split; [lra|]. split.
  - intros x Hx. eapply rep_eq; [apply (rep_brown (Fin 1) (Fin 0) (Fin 0) 1 0 0 x (/ 2) (rep_Fin _) (rep_Fin _) (rep_Fin _) Hx)|]. unfold brownR. lra.
  - exact ex_lens_inv.
Qed.
Example C18_distort_undistort_example :
  rep2 (distortedFromImage ex_lens (imageFromDistorted ex_lens (fin2 (V2 (2000 + 5 / 8 * 3500) 1500)))) (V2 (2000 + 5 / 8 * 3500) 1500).
Proof.
  set (Q := V2 (2000 + 5 / 8 * 3500) 1500).
  assert (HR : radius (brown_frame ex_r) Q = 5 / 8).
  { unfold radius, brown_frame, Q; cbn. replace (_ + _) with (Rsqr (5 / 8)) by (unfold Rsqr; field). apply sqrt_Rsqr; lra. }
  apply (C18_distort_undistort ex_lens (brown_frame ex_r) (fin2 Q) Q (/ 2) ex_lens_rep (rep2_fin _)); try lra.
  - rewrite HR. exact ex_lens_inv.
  - rewrite HR. intros x Hx. eapply rep_eq; [apply (rep_brown (Fin 1) (Fin 0) (Fin 0) 1 0 0 x (/ 2) (rep_Fin _) (rep_Fin _) (rep_Fin _) Hx)|]. unfold brownR. lra.
Qed.
Example C18_centre_nan_example : distortedFromImage ex_lens (fin2 (V2 2000 1500)) = nan2.
Proof. apply (C18_centre_nan ex_lens (brown_frame ex_r) _ ex_lens_rep (rep2_fin (V2 2000 1500))). Qed.
(** The point (10, 20) at the height of the camera, seen at half the focal length, with its X coordinate given *)
Example C18_recover_point_with_lens_example : exists c p', lens_cam c Rectilinear ex_r ex_or2 ex_lens /\
  spaceFromImage c (imageFromSpace c (fin3 (V3 10 20 10)) true) (on_X (Fin 10)) = Some p' /\ rep3 p' (V3 10 20 10).
Proof.
  assert (H : rep_opar (opar_fin ex_or2) ex_or2) by (repeat split). destruct (init_rigid _ _ H) as (m&E&_).
  set (c := lens_camera Rectilinear (proj_fin ex_r) m ex_lens).
  assert (HC : lens_cam c Rectilinear ex_r ex_or2 ex_lens).
  { exists (proj_fin ex_r), m. split; [reflexivity|]. split; [repeat split|]. split; [split; simpl; lra|eauto]. }
  destruct (C18_recover_point_with_lens c Rectilinear ex_r ex_or2 ex_lens (brown_frame ex_r) (fin3 (V3 10 20 10)) (V3 10 20 10) AX (Fin 10) true HC ex_lens_rep (rep3_fin _)) as (p'&EP&RP).
  - apply ex2_showable. lra.
  - apply rep_Fin.
  - cbn. lra.
  - intros X HX. apply ex_lens_inverts.
    destruct (lens_good _ _ _ _ _ HC) as ((Hpr&HF&HRi)&_).
    assert (HQ : rep2 (p_image Rectilinear (cam_proj c) (cameraFromSpace (cam_o c) (fin3 (V3 10 20 10))) true) (V2 3750 1500)).
    { eapply (p_image_of_ray Rectilinear); [exact Hpr|exact HF|exact (rigid_camera _ _ _ _ _ HRi (rep3_fin (V3 10 20 10)))| | |].
      - exact (ex2_showable Rectilinear 10 20 10 ltac:(lra)).
      - exact I.
      - change (posmul (cam_coords ex_or2 (V3 10 20 10)) (rayR Rectilinear ex_r (V2 3750 1500))). rewrite ex2_coords. exists 20. split; [lra|].
        unfold rayR, alphaR, betaR. apply v3_ext; cbn; field. }
    assert (EX : X = V2 3750 1500) by (destruct HX as (X1&X2), HQ as (Q1&Q2); destruct X; cbn in *; f_equal; eapply rep_inj; eauto).
    rewrite EX. unfold radius, brown_frame; cbn. replace (_ + _) with (Rsqr (/ 2)) by (unfold Rsqr; field). apply sqrt_Rsqr; lra.
  - exists c, p'. auto.
Qed.

Example C19_zero_coefficients_example :
  rep2 (distortedFromImage (brown_lens lookup_spline (Fin 0) (Fin 0) (Fin 0) (proj_fin ex_r)) (fin2 (V2 100 200))) (V2 100 200) /\
  rep2 (imageFromDistorted (abc_lens lookup_spline (Fin 0) (Fin 0) (Fin 0) (proj_fin ex_r)) (fin2 (V2 100 200))) (V2 100 200).
Proof.
  assert (HP : rep_proj (proj_fin ex_r) ex_r) by (repeat split).
  destruct (C19_zero_coefficients lookup_spline (Fin 0) (Fin 0) (Fin 0) _ ex_r _ (V2 100 200) (rep_Fin _) (rep_Fin _) (rep_Fin _) HP (rep2_fin _)) as (K&_).
  { cbn. intros H; injection H; intros; lra. }
  destruct (C19_zero_coefficients_undistort lookup_spline (Fin 0) (Fin 0) (Fin 0) _ ex_r _ (V2 100 200) lookup_linear (rep_Fin _) (rep_Fin _) (rep_Fin _) HP (rep2_fin _)) as (_&L).
  split; [apply K; split; simpl; lra|]. apply L; [simpl; lra|simpl; lra|].
  unfold radius, abc_frame. cbn. rewrite Rmin_right by lra. apply sqrt_lt_R0. unfold Rsqr. lra.
Qed.
Example C19_brown_monotone_example : (brown_radius (Fin 1) (Fin 2) (Fin 0) (Fin (1 / 2)) <? brown_radius (Fin 1) (Fin 2) (Fin 0) (Fin 1))%num = true.
Proof. apply (C19_brown_monotone _ _ _ 1 2 0 _ _ (1 / 2) 1); try apply rep_Fin; lra. Qed.
Example C19_brown_outwards_example : exists lam, 1 <= lam /\
  rep2 (distortedFromImage ex_lens (fin2 (V2 100 200))) (V2 (2000 + lam * (100 - 2000)) (1500 + lam * (200 - 1500))).
Proof.
  apply (C19_brown_outwards lookup_spline (Fin 1) (Fin 0) (Fin 0) 1 0 0 (proj_fin ex_r) ex_r (fin2 (V2 100 200)) (V2 100 200)); try apply rep_Fin; try lra.
  - repeat split.
  - split; simpl; lra.
  - apply rep2_fin.
  - unfold radius, brown_frame. cbn. apply sqrt_lt_R0. unfold Rsqr. lra.
Qed.
(** The radius function x (1 - x) on the samples 0, 0.2, ..., 1: nothing is inverted. *)
Example C20_fallback_identity_example : forall spline y,
  invert_function spline [Fin 0; Fin (2 / 10); Fin (8 / 10); Fin (1 / 10); Fin (15 / 100)] (fun x => x * (Fin 1 - x))%num y = y.
Proof.
  intros spline y.
  apply (C20_fallback_identity spline (fun x => x * (Fin 1 - x))%num (fun x => valR x * (1 - valR x)) _ [] (Fin 0) (Fin (2 / 10)) [Fin (8 / 10)] (Fin (1 / 10)) (Fin (15 / 100)) []); cbn [valR]; try lra.
  - intros x IN. repeat (destruct IN as [<- | IN]; [cbn [valR]; rep_all|]). destruct IN.
  - reflexivity.
Qed.
(** x, 1, 2, 3 and one dip between them *)
Example C20_kept_example : exists spline, interpolates spline /\ let F := fun x => match x with Fin r => if Rle_dec r (3 / 2) then r else if Rle_dec r 2 then r - 1 else r | _ => 0 end in
  let f := fun x => Fin (F x) in climbing F (Fin 0) [Fin 1; Fin (3 / 2); Fin 2; Fin 3] = [Fin 1; Fin (3 / 2); Fin 3] /\
  invert_function spline [Fin 0; Fin 1; Fin (3 / 2); Fin 2; Fin 3] f (Fin 3) = Fin 3 /\ rep (f (Fin 2)) 1.
Proof.
  destruct C20_example as (spline&HI&_). exists spline. split; [exact HI|]. intros F f.
  assert (F0 : F (Fin 0) = 0) by (unfold F; destruct (Rle_dec 0 (3 / 2)); lra).
  assert (F1 : F (Fin 1) = 1) by (unfold F; destruct (Rle_dec 1 (3 / 2)); lra).
  assert (F15 : F (Fin (3 / 2)) = 3 / 2) by (unfold F; destruct (Rle_dec (3 / 2) (3 / 2)); lra).
  assert (F2 : F (Fin 2) = 1) by (unfold F; destruct (Rle_dec 2 (3 / 2)); [lra|destruct (Rle_dec 2 2); lra]).
  assert (F3 : F (Fin 3) = 3) by (unfold F; destruct (Rle_dec 3 (3 / 2)); [lra|destruct (Rle_dec 3 2); lra]).
  assert (C : climbing F (Fin 0) [Fin 1; Fin (3 / 2); Fin 2; Fin 3] = [Fin 1; Fin (3 / 2); Fin 3]).
  { clearbody F. clear f. cbn [climbing]. rewrite F0, F1, F15, F2, F3. repeat (destruct (Rle_dec _ _); try lra). reflexivity. }
  split; [exact C|]. split; [|unfold f; rewrite F2; apply rep_Fin].
  apply (C20_exact_at_kept spline f F (Fin 0) [Fin 1; Fin (3 / 2); Fin 2; Fin 3] HI).
  - intros x _. apply rep_Fin.
  - rewrite C. cbn [map incrR]. rewrite F0, F1, F15, F3. splits; try lra; exact Logic.I.
  - rewrite C. cbn. lia.
  - rewrite C. cbn. auto.
  - rewrite F3. apply rep_Fin.
Qed.
