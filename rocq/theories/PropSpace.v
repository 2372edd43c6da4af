(** * Property C29: rotating and scaling the world *)
Require Import Reals Lra Psatz List Bool String Arith NArith QArith Qreals Lia.
From Verif Require Import Num Vec Orientation OrientationFacts Projection ProjectionFacts Ray CameraTransform CameraFacts Lens.
From Verif Require Import Param ParamFacts ParamOps ParamSteps ParamReach ParamCam ParamLaws PropParam.
From Verif Require Import ParamMap ParamCheck ParamExamples ParamTotal PropTotal ParamSave PropSave ParamGroup PropGroup Space.
Import ListNotations.
Open Scope nat_scope.
Open Scope string_scope.
Implicit Types h : heapn.

(** ** Assignments to the orientation of a camera *)
Lemma cam_sim h h' c p o l : sim h h' -> cam_at h c p o l -> cam_at h' c p o l.
Proof. intros S (b&E&K). destruct (sim_fwd _ _ _ _ S E) as (b'&E'&(K'&_)). exists b'. split; congruence. Qed.
Lemma orient_sim h h' o k : sim h h' -> orient_at h o k -> orient_at h' o k.
Proof. intros S (b&E&K). destruct (sim_fwd _ _ _ _ S E) as (b'&E'&(K'&_)). exists b'. split; congruence. Qed.
Lemma in_range_pos h o k n v : orient_at h o k -> n <> wrapped_name k -> PropParam.in_range h (Loc o n) v = v.
Proof.
  intros (b&E&K) N. unfold PropParam.in_range, wrapped_loc. cbn [l_owner l_name]. rewrite E, K.
  destruct (String.eqb_spec n (wrapped_name k)); congruence.
Qed.
Lemma in_range_wrap h o k v : orient_at h o k -> PropParam.in_range h (Loc o (wrapped_name k)) v = wrap_heading v.
Proof.
  intros (b&E&K). unfold PropParam.in_range, wrapped_loc. cbn [l_owner l_name]. rewrite E, K. rewrite String.eqb_refl. reflexivity.
Qed.
Lemma set_moved h c p o l k n v h1 : reach h -> cam_at h c p o l -> orient_at h o k -> In n (onames k) ->
  set_attr wrapn h c n (ANum v) = (h1, true) ->
  reach h1 /\ sim h h1 /\ rdl h1 (Loc o n) = Some (PropParam.in_range h (Loc o n) v) /\
  forall x, x <> Loc o n -> rdl h1 x = rdl h x.
Proof.
  intros HR HC HO Hn HS. destruct (reach_inv h HR) as (HI&CI).
  destruct (camera_reads wrapn h c p o l n CI HI HC) as (_&RO&_). destruct (RO k HO Hn) as (R&_).
  assert (W := reads_writes _ _ _ _ R).
  destruct (set_attr_mem wrapn wrapn_ok h c n (ANum v) _ h1 HI W HS) as (S&M&MO).
  split; [exact (Rstep wrapn litn h (OSet c n (ANum v)) h1 HR I HS)|]. split; [exact S|]. split.
  - rewrite <- (C36_read_your_write h c n (Loc o n) v h1 c n HR W R HS). symmetry. apply reads_num. eapply reads_sim; eauto.
  - intros x N. unfold rdl. rewrite MO by exact N.
    assert (F : follows (Loc o n) x = false).
    { unfold follows. cbn [l_owner l_name]. destruct (String.eqb_spec n "focallength_px") as [->|]; [|rewrite andb_false_r; reflexivity].
      exfalso. destruct k; cbn in Hn; repeat destruct Hn as [Hn|Hn]; try discriminate; contradiction. }
    rewrite F. reflexivity.
Qed.
Lemma cam_num h c p o l k n : reach h -> cam_at h c p o l -> orient_at h o k -> In n (onames k) -> get_num h c n = rdl h (Loc o n).
Proof.
  intros HR HC HO Hn. destruct (reach_inv h HR) as (HI&CI).
  destruct (camera_reads wrapn h c p o l n CI HI HC) as (_&RO&_). destruct (RO k HO Hn) as (R&_). apply reads_num. exact R.
Qed.
Definition Lh (o : oid) := Loc o "heading_deg". Definition Lx (o : oid) := Loc o "pos_x_m".
Definition Ly (o : oid) := Loc o "pos_y_m". Definition Le (o : oid) := Loc o "elevation_m".
Lemma rotate_spec h c p o l d h' : reach h -> cam_at h c p o l -> orient_at h o TiltHeading -> rotateSpace h c d = (h', true) ->
  exists v x y, rdl h (Lh o) = Some v /\ rdl h (Lx o) = Some x /\ rdl h (Ly o) = Some y /\
  reach h' /\ sim h h' /\ rdl h' (Lh o) = Some (wrap_heading (v + d)%num) /\
  rdl h' (Lx o) = Some (ncos (ndeg2rad d) * x + nsin (ndeg2rad d) * y)%num /\
  rdl h' (Ly o) = Some (- nsin (ndeg2rad d) * x + ncos (ndeg2rad d) * y)%num /\
  forall z, z <> Lh o -> z <> Lx o -> z <> Ly o -> rdl h' z = rdl h z.
Proof.
  intros HR HC HO HS. unfold rotateSpace in HS.
  assert (G0 : get_num h c "heading_deg" = rdl h (Lh o)) by (apply (cam_num h c p o l TiltHeading); auto; cbn; tauto).
  destruct (get_num h c "heading_deg") as [v|]; [|discriminate].
  apply bind_ok in HS. destruct HS as (h1&E1&HS).
  destruct (set_moved h c p o l TiltHeading "heading_deg" _ h1 HR HC HO ltac:(cbn; tauto) E1) as (R1&S1&V1&O1).
  assert (C1 := cam_sim _ _ _ _ _ _ S1 HC). assert (P1 := orient_sim _ _ _ _ S1 HO).
  assert (G1 : get_num h1 c "pos_x_m" = rdl h1 (Lx o)) by (apply (cam_num h1 c p o l TiltHeading); auto; cbn; tauto).
  assert (G2 : get_num h1 c "pos_y_m" = rdl h1 (Ly o)) by (apply (cam_num h1 c p o l TiltHeading); auto; cbn; tauto).
  destruct (get_num h1 c "pos_x_m") as [x|]; [|discriminate]. destruct (get_num h1 c "pos_y_m") as [y|]; [|discriminate].
  cbv zeta in HS. apply bind_ok in HS. destruct HS as (h2&E2&HS).
  destruct (set_moved h1 c p o l TiltHeading "pos_x_m" _ h2 R1 C1 P1 ltac:(cbn; tauto) E2) as (R2&S2&V2&O2).
  assert (C2 := cam_sim _ _ _ _ _ _ S2 C1). assert (P2 := orient_sim _ _ _ _ S2 P1).
  destruct (set_moved h2 c p o l TiltHeading "pos_y_m" _ h' R2 C2 P2 ltac:(cbn; tauto) HS) as (R3&S3&V3&O3).
  rewrite (in_range_pos h1 o TiltHeading) in V2 by (auto; discriminate).
  rewrite (in_range_pos h2 o TiltHeading) in V3 by (auto; discriminate).
  rewrite (in_range_wrap h o TiltHeading) in V1 by auto.
  exists v, x, y. split; [auto|]. split; [rewrite G1; symmetry; apply O1; discriminate|]. split; [rewrite G2; symmetry; apply O1; discriminate|].
  split; [exact R3|]. split; [eapply sim_trans; [exact S1|eapply sim_trans; eauto]|].
  split; [rewrite O3, O2 by discriminate; exact V1|]. split; [rewrite O3 by discriminate; exact V2|].
  split; [exact V3|]. intros z N1 N2 N3. rewrite O3, O2, O1 by assumption. reflexivity.
Qed.

(** ** The camera afterwards *)
Definition with_o (c : camera) (m : omat) : camera := Camera (cam_kind c) (cam_proj c) m (cam_dist c) (cam_undist c).
Lemma camera_of_o spline pk k lk pv ov ov' lv lf cam m' : camera_of spline pk k lk pv ov lv lf = Some cam ->
  matrix_of k ov' = Some m' -> camera_of spline pk k lk pv ov' lv lf = Some (with_o cam m') /\ matrix_of k ov = Some (cam_o cam).
Proof.
  unfold camera_of. intros H E. rewrite E. destruct (proj_of pv); [|discriminate]. destruct (matrix_of k ov) as [m|]; [|discriminate].
  destruct (lens_of spline lk lv lf) as [[ln|]|]; inversion H; subst; split; reflexivity.
Qed.
Lemma camera_moved spline h h' c p o l k cam m' : reach h -> reach h' -> sim h h' -> cam_at h c p o l -> orient_at h o k -> unfrozen h p ->
  (forall n, In n shared_names -> rdl h' (Loc p n) = rdl h (Loc p n)) ->
  (forall lk n, In n (lnames lk) -> rdl h' (Loc l n) = rdl h (Loc l n)) -> camera_in_use spline h c = Some cam ->
  matrix_of k (get_num h' c) = Some m' ->
  camera_in_use spline h' c = Some (with_o cam m') /\ matrix_of k (get_num h c) = Some (cam_o cam).
Proof.
  intros HR HR' HS HC HO HU HX HY HK HM. pose proof HC as (b&E&K).
  assert (U : forall q, projection_of h c q -> unfrozen h q).
  { intros q (o'&l'&b'&E'&K'). assert (q = p) by congruence. subst q. exact HU. }
  assert (U' : forall q, projection_of h' c q -> unfrozen h' q).
  { intros q (o'&l'&b'&E'&K') bq n Eq Hn. destruct (sim_back _ _ _ _ HS E') as (b2&E2&(K2&_)).
    assert (q = p) by congruence. subst q. destruct (sim_back _ _ _ _ HS Eq) as (b3&E3&(_&A3&_)). rewrite A3. apply (HU b3 n E3 Hn). }
  rewrite (C37_current_values spline h c HR U) in HK. rewrite (C37_current_values spline h' c HR' U').
  assert (HC' := cam_sim _ _ _ _ _ _ HS HC). assert (HO' := orient_sim _ _ _ _ HS HO).
  destruct (reach_inv h HR) as (HI&CI). destruct (reach_inv h' HR') as (HI'&CI').
  unfold camera_of_reads in *. rewrite E, K in HK. destruct HC' as (b'&E'&K'). rewrite E', K'.
  destruct HO as (bo&Eo&Ko). destruct HO' as (bo'&Eo'&Ko'). rewrite Eo, Ko in HK. rewrite Eo', Ko'.
  destruct (objs h p) as [bp|] eqn:Ep; [|discriminate]. destruct (objs h l) as [bl|] eqn:El; [|discriminate].
  destruct (sim_fwd _ _ _ _ HS Ep) as (bp'&Ep'&(Kp'&_)). destruct (sim_fwd _ _ _ _ HS El) as (bl'&El'&(Kl'&_)).
  rewrite Ep', El'. rewrite Kp', Kl'. destruct (okd bp) as [pk| | | | |] eqn:Kp; try discriminate.
  destruct (okd bl) as [| |lk| | |] eqn:Kl; try discriminate.
  assert (CA : cam_at h c p o l) by (exists b; auto). assert (CA' : cam_at h' c p o l) by (exists b'; auto).
  assert (GP : forall n, In n shared_names -> get_num h' c n = get_num h c n).
  { intros n Hn. assert (Hp : In n pnames) by (cbn in Hn; cbn; tauto).
    destruct (camera_reads wrapn h c p o l n CI HI CA) as (A&_). destruct (camera_reads wrapn h' c p o l n CI' HI' CA') as (A'&_).
    destruct (A Hp) as (A1&_). destruct (A' Hp) as (A2&_). rewrite (reads_num _ _ _ _ A1), (reads_num _ _ _ _ A2). apply HX. exact Hn. }
  assert (GL : forall n, In n (lnames lk) -> get_num h' c n = get_num h c n).
  { intros n Hn. destruct (camera_reads wrapn h c p o l n CI HI CA) as (_&_&A&_). destruct (camera_reads wrapn h' c p o l n CI' HI' CA') as (_&_&A'&_).
    destruct (A lk) as (A1&_); [exists bl; auto|exact Hn|]. destruct (A' lk) as (A2&_); [exists bl'; split; congruence|exact Hn|].
    rewrite (reads_num _ _ _ _ A1), (reads_num _ _ _ _ A2). exact (HY lk n Hn). }
  destruct (camera_of_o spline _ _ _ _ _ (get_num h' c) _ _ cam m' HK HM) as (X&Y). split; [|exact Y]. rewrite <- X.
  apply camera_of_ext; auto. intros n Hn. apply GP. apply (reads_shared lk). exact Hn.
Qed.

(** ** C29: rotateSpace *)
(** The specification: a point turned clockwise, seen from above (x to the right, y up). *)
Definition clockwise (d : R) (P : v3 R) : v3 R :=
  V3 (cos (rad d) * cx P + sin (rad d) * cy P)%R (cos (rad d) * cy P - sin (rad d) * cx P)%R (cz P).
(** The six numbers read from the camera. *)
Definition reads_opar h (c : oid) (r : opar R) : Prop :=
  exists e t a v x y, get_num h c "elevation_m" = Some e /\ get_num h c "tilt_deg" = Some t /\ get_num h c "roll_deg" = Some a /\
    get_num h c "heading_deg" = Some v /\ get_num h c "pos_x_m" = Some x /\ get_num h c "pos_y_m" = Some y /\
    rep_opar (OPar e t a v x y) r.
Definition camera_sees (c : camera) (p : v3 num) (C : v3 R) : Prop := rep3 (cameraFromSpace (cam_o c) p) C.
Open Scope R_scope.
Lemma rad_add a b : rad (a + b) = rad a + rad b.
Proof. unfold rad. ring. Qed.
Lemma rotm_turned t r a d P T :
  rm_mul_v (rotm t r (a + rad d)) (rv_sub (clockwise d P) (clockwise d T)) = rm_mul_v (rotm t r a) (rv_sub P T).
Proof.
  unfold rotm. rewrite sin_plus, cos_plus. pose proof (sc (rad d)) as H.
  apply v3_ext; cbv [rm_mul_v rdot rv_sub zip3v clockwise cx cy cz]; ring [H].
Qed.
Lemma rotm_rigid m t r a T : rep3 (om_t m) T -> repm (om_R m) (rotm t r a) -> repm (om_Rinv m) (rm_trans (rotm t r a)) -> rigid m (rotm t r a) T.
Proof. intros A B C. split; [exact A|]. split; [exact B|]. split; [exact C|]. split; [apply rotm_rows|]. split; [apply rotm_cols|apply rotm_det]. Qed.
Lemma reads_matrix h c r : reads_opar h c r -> exists m, matrix_of TiltHeading (get_num h c) = Some m /\
  rigid m (rotm (rad (tilt_deg r)) (rad (roll_deg r)) (rad (heading_deg r))) (opos r).
Proof.
  intros (e&t&a&v&x&y&E1&E2&E3&E4&E5&E6&HR). destruct (init_matrix_spec _ _ HR) as (m&Em&A&B&C).
  exists m. split; [|apply rotm_rigid; auto]. unfold matrix_of. rewrite E1, E2, E3, E4, E5, E6. exact Em.
Qed.
Theorem C29_rotate spline h c p o l d D h' cam r : reach h -> cam_at h c p o l -> orient_at h o TiltHeading -> unfrozen h p ->
  reads_opar h c r -> rep d D -> camera_in_use spline h c = Some cam -> rotateSpace h c d = (h', true) ->
  reach h' /\ exists m', camera_in_use spline h' c = Some (with_o cam m') /\
    forall q P q', rep3 q P -> rep3 q' (clockwise D P) ->
      exists C, camera_sees cam q C /\ camera_sees (with_o cam m') q' C.
Proof.
  intros HR HC HO HU HRd Hd HK HS.
  destruct (rotate_spec h c p o l d h' HR HC HO HS) as (v&x&y&V0&X0&Y0&R'&S'&V1&X1&Y1&OT). split; [exact R'|].
  assert (HC' := cam_sim _ _ _ _ _ _ S' HC). assert (HO' := orient_sim _ _ _ _ S' HO).
  pose proof (reads_matrix h c r HRd) as (m0&EM0&RG0).
  destruct HRd as (e&t&a&v'&x'&y'&E1&E2&E3&E4&E5&E6&(Re&Rt&Ra&Rv&Rx&Ry)). cbn [elevation_m tilt_deg roll_deg heading_deg pos_x_m pos_y_m] in *.
  assert (CN : forall n, In n (onames TiltHeading) -> get_num h c n = rdl h (Loc o n)) by (intros n Hn; exact (cam_num h c p o l _ n HR HC HO Hn)).
  assert (CN' : forall n, In n (onames TiltHeading) -> get_num h' c n = rdl h' (Loc o n)) by (intros n Hn; exact (cam_num h' c p o l _ n R' HC' HO' Hn)).
  rewrite CN in E1, E2, E3, E4, E5, E6 by (cbn; tauto).
  assert (v' = v) by (unfold Lh in V0; congruence). assert (x' = x) by (unfold Lx in X0; congruence). assert (y' = y) by (unfold Ly in Y0; congruence). subst v' x' y'.
  assert (Hs : rep (nsin (ndeg2rad d)) (sin (rad D))) by (apply rep_sin, rep_deg2rad; exact Hd).
  assert (Hc : rep (ncos (ndeg2rad d)) (cos (rad D))) by (apply rep_cos, rep_deg2rad; exact Hd).
  destruct (wrap_heading_spec (v + d)%num (heading_deg r + D)) as (b&Hb&(k&Ek)&_); [apply rep_add; assumption|].
  set (T := opos r). set (r' := OPar (elevation_m r) (tilt_deg r) (roll_deg r) b (cx (clockwise D T)) (cy (clockwise D T))).
  assert (HRd' : reads_opar h' c r').
  { exists e, t, a, (wrap_heading (v + d)%num), (ncos (ndeg2rad d) * x + nsin (ndeg2rad d) * y)%num, (- nsin (ndeg2rad d) * x + ncos (ndeg2rad d) * y)%num.
    rewrite !CN' by (cbn; tauto). rewrite !(OT (Loc o _)) by discriminate.
    split; [exact E1|]. split; [exact E2|]. split; [exact E3|]. split; [exact V1|]. split; [exact X1|]. split; [exact Y1|].
    unfold rep_opar, r', T, clockwise, opos; cbn [elevation_m tilt_deg roll_deg heading_deg pos_x_m pos_y_m cx cy cz].
    split; [exact Re|]. split; [exact Rt|]. split; [exact Ra|]. split; [exact Hb|].
    split; [apply rep_add; apply rep_mul; assumption|].
    eapply rep_eq; [apply rep_add; apply rep_mul; [apply rep_neg; exact Hs|exact Rx|exact Hc|exact Ry]|ring]. }
  destruct (reads_matrix h' c r' HRd') as (m'&EM&RG).
  exists m'. assert (HX : forall n, In n shared_names -> rdl h' (Loc p n) = rdl h (Loc p n)).
  { intros n Hn. apply OT; intros X; inversion X; subst n; cbn in Hn; repeat destruct Hn as [Hn|Hn]; try discriminate; contradiction. }
  assert (HY : forall lk n, In n (lnames lk) -> rdl h' (Loc l n) = rdl h (Loc l n)).
  { intros lk n Hn. apply OT; intros X; inversion X; subst n; destruct lk; cbn in Hn; repeat destruct Hn as [Hn|Hn]; try discriminate; contradiction. }
  destruct (camera_moved spline h h' c p o l TiltHeading cam m' HR R' S' HC HO HU HX HY HK EM) as (A&B).
  split; [exact A|]. intros q P q' Hq Hq'.
  rewrite EM0 in B. inversion B; subst m0.
  exists (rm_mul_v (rotm (rad (tilt_deg r)) (rad (roll_deg r)) (rad (heading_deg r))) (rv_sub P T)). unfold camera_sees. cbn [with_o cam_o].
  split; [apply rigid_camera; assumption|].
  eapply rep3_eq; [apply (rigid_camera m' _ _ q' _ RG Hq')|]. unfold r'; cbn [elevation_m tilt_deg roll_deg heading_deg pos_x_m pos_y_m].
  rewrite <- (rotm_turned _ _ _ D P T). f_equal.
  rewrite Ek. unfold rotm.
  assert (EA : rad (heading_deg r + D + 360 * IZR k) = rad (heading_deg r) + rad D + 2 * IZR k * PI) by (unfold rad; field).
  rewrite EA. rewrite !sin_period_Z, !cos_period_Z. reflexivity.
Qed.
Print Assumptions C29_rotate.
(** The picture, for a camera without lens distortion: every point is shown where its
    unturned original was (points the projection can show, away from the seam at the back
    of a panorama, where the pixel is not unique). *)
Lemma no_lens spline h c p o l cam : cam_at h c p o l -> lens_at h l NoDist -> camera_in_use spline h c = Some cam ->
  forall q, cam_dist cam q = q.
Proof.
  intros (b&E&K) (bl&El&Kl) H q. unfold camera_in_use in H. rewrite E, K, El, Kl in H.
  destruct (objs h p) as [bp|]; [|discriminate]. destruct (objs h o) as [bo|]; [|discriminate].
  destruct (okd bp); try discriminate. destruct (okd bo); try discriminate. unfold camera_of, lens_of in H.
  destruct (proj_of _); [|discriminate]. destruct (matrix_of _ _); [|discriminate]. inversion H; subst. reflexivity.
Qed.
Lemma same_picture cam m' q q' C pr Q hide : (forall x, cam_dist cam x = x) -> rep_proj (cam_proj cam) pr -> foc_ok pr ->
  camera_sees cam q C -> (forall k, 0 < k -> camera_sees (with_o cam m') q' (rv_scale k C) -> showable (cam_kind cam) (rv_scale k C) -> showable (cam_kind cam) C ->
  ProjectionFacts.in_range (cam_kind cam) pr Q -> rep2 (imageFromSpace cam q hide) Q -> rep2 (imageFromSpace (with_o cam m') q' hide) Q).
Proof.
  intros HD HP HF HC k Hk HC' HS' HS HI HQ. unfold imageFromSpace in *. cbn [with_o cam_dist cam_kind cam_proj cam_o]. rewrite HD in *.
  destruct (p_image_spec (cam_kind cam) _ _ _ _ hide HP HF HC HS) as (Q2&HQ2&_&(j&Hj&EC)).
  assert (Q2 = Q).
  { destruct HQ2 as (A&B), HQ as (A'&B'). pose proof (rep_inj _ _ _ A A') as X. pose proof (rep_inj _ _ _ B B') as Y.
    destruct Q, Q2; cbn in X, Y; congruence. }
  subst Q2. eapply p_image_of_ray; [exact HP|exact HF|exact HC'|exact HS'|exact HI|].
  exists (k * j). split; [nra|]. rewrite EC. apply v3_ext; cbn; ring.
Qed.
Theorem C29_rotate_image spline h c p o l d D h' cam r pr : reach h -> cam_at h c p o l -> orient_at h o TiltHeading -> unfrozen h p ->
  lens_at h l NoDist -> reads_opar h c r -> rep d D -> camera_in_use spline h c = Some cam ->
  rep_proj (cam_proj cam) pr -> foc_ok pr -> rotateSpace h c d = (h', true) ->
  exists cam', camera_in_use spline h' c = Some cam' /\
    forall q P q' Q hide, rep3 q P -> rep3 q' (clockwise D P) ->
      (forall C, camera_sees cam q C -> showable (cam_kind cam) C) -> ProjectionFacts.in_range (cam_kind cam) pr Q ->
      rep2 (imageFromSpace cam q hide) Q -> rep2 (imageFromSpace cam' q' hide) Q.
Proof.
  intros HR HC HO HU HL HRd Hd HK HP HF HS.
  destruct (C29_rotate spline h c p o l d D h' cam r HR HC HO HU HRd Hd HK HS) as (R'&m'&K'&V).
  exists (with_o cam m'). split; [exact K'|]. intros q P q' Q hide Hq Hq' HSh HI HQ. destruct (V q P q' Hq Hq') as (C&C1&C2).
  assert (ONE : rv_scale 1 C = C) by (apply v3_ext; cbn; ring).
  apply (same_picture cam m' q q' C pr Q hide (no_lens spline h c p o l cam HC HL HK) HP HF C1 1 ltac:(lra)); rewrite ?ONE; auto.
Qed.
Print Assumptions C29_rotate_image.
(** When every parameter has a value the call returns; the camera is modified through its
    orientation object, so all cameras that share it move. *)
Theorem C29_rotate_returns h c p o l d : reach h -> full h -> cam_at h c p o l -> orient_at h o TiltHeading ->
  exists h', rotateSpace h c d = (h', true).
Proof.
  intros HR HF HC HO. unfold rotateSpace.
  assert (VAL : forall h2 n, reach h2 -> full h2 -> cam_at h2 c p o l -> orient_at h2 o TiltHeading -> In n (onames TiltHeading) ->
            exists v, get_num h2 c n = Some v).
  { intros h2 n R2 (F2&_) C2 O2 Hn. rewrite (cam_num h2 c p o l _ n R2 C2 O2 Hn).
    assert (X : rdl h2 (Loc o n) <> None). { apply F2. destruct O2 as (bo&Eo&Ko). exists bo. cbn [l_owner l_name]. rewrite Ko. auto. }
    destruct (rdl h2 (Loc o n)) as [w|]; [exists w; reflexivity|congruence]. }
  assert (SET : forall h2 n v, reach h2 -> full h2 -> cam_at h2 c p o l -> orient_at h2 o TiltHeading -> In n (onames TiltHeading) ->
            exists h3, set_attr wrapn h2 c n (ANum v) = (h3, true) /\ reach h3 /\ full h3 /\ cam_at h3 c p o l /\ orient_at h3 o TiltHeading).
  { intros h2 n v R2 F2 C2 O2 Hn. destruct (C56_no_raise h2 (OSet c n (ANum v)) R2 F2 I) as (h3&E3&F3); [cbn; split; [destruct C2 as (b&E&_); congruence|discriminate]|].
    exists h3. destruct (set_moved h2 c p o l TiltHeading n v h3 R2 C2 O2 Hn E3) as (R3&S3&_).
    split; [exact E3|]. split; [exact R3|]. split; [exact F3|]. split; [eapply cam_sim; eauto|eapply orient_sim; eauto]. }
  destruct (VAL h "heading_deg" HR HF HC HO ltac:(cbn; tauto)) as (v&->).
  destruct (SET h "heading_deg" (v + d)%num HR HF HC HO ltac:(cbn; tauto)) as (h1&->&R1&F1&C1&O1). unfold bind at 1. cbn [fst snd].
  destruct (VAL h1 "pos_x_m" R1 F1 C1 O1 ltac:(cbn; tauto)) as (x&->). destruct (VAL h1 "pos_y_m" R1 F1 C1 O1 ltac:(cbn; tauto)) as (y&->).
  cbv zeta. destruct (SET h1 "pos_x_m" (ncos (ndeg2rad d) * x + nsin (ndeg2rad d) * y)%num R1 F1 C1 O1 ltac:(cbn; tauto)) as (h2&->&R2&F2&C2&O2).
  unfold bind. cbn [fst snd].
  destruct (SET h2 "pos_y_m" (- nsin (ndeg2rad d) * x + ncos (ndeg2rad d) * y)%num R2 F2 C2 O2 ltac:(cbn; tauto)) as (h3&->&_). eauto.
Qed.
Print Assumptions C29_rotate_returns.
(** With a yaw, pitch, roll orientation there is no heading_deg: the call raises. *)
Theorem C29_rotate_ypr_raises h c p o l d : reach h -> cam_at h c p o l -> orient_at h o YawPitchRoll ->
  (forall b, objs h c = Some b -> attrs b "heading_deg" = None) -> rotateSpace h c d = (h, false).
Proof.
  intros HR (b&E&K) (bo&Eo&Ko) HA. destruct (reach_inv h HR) as (HI&CI).
  destruct (CI c b p o l E K) as (g&pk&k&lk&_&(bo'&Eo'&Ko')&_&_&_&T&_). assert (k = YawPitchRoll) by congruence. subst k.
  unfold rotateSpace, get_num, get_attr. rewrite E, (HA b E), T, cam_table_assoc. destruct lk; reflexivity.
Qed.
Print Assumptions C29_rotate_ypr_raises.

(** ** C29: scaleSpace *)
Open Scope nat_scope.
Lemma scale_camera_spec h c p o l k s h' : reach h -> cam_at h c p o l -> orient_at h o k -> scale_camera h c s = (h', true) ->
  exists x y e, rdl h (Lx o) = Some x /\ rdl h (Ly o) = Some y /\ rdl h (Le o) = Some e /\ reach h' /\ sim h h' /\
  rdl h' (Lx o) = Some (x * s)%num /\ rdl h' (Ly o) = Some (y * s)%num /\ rdl h' (Le o) = Some (e * s)%num /\
  forall z, z <> Lx o -> z <> Ly o -> z <> Le o -> rdl h' z = rdl h z.
Proof.
  intros HR HC HO HS. unfold scale_camera in HS.
  assert (IX : In "pos_x_m" (onames k)) by (destruct k; cbn; tauto). assert (IY : In "pos_y_m" (onames k)) by (destruct k; cbn; tauto).
  assert (IE : In "elevation_m" (onames k)) by (destruct k; cbn; tauto).
  assert (G1 : get_num h c "pos_x_m" = rdl h (Lx o)) by exact (cam_num h c p o l k _ HR HC HO IX).
  assert (G2 : get_num h c "pos_y_m" = rdl h (Ly o)) by exact (cam_num h c p o l k _ HR HC HO IY).
  assert (G3 : get_num h c "elevation_m" = rdl h (Le o)) by exact (cam_num h c p o l k _ HR HC HO IE).
  destruct (get_num h c "pos_x_m") as [x|]; [|discriminate]. destruct (get_num h c "pos_y_m") as [y|]; [|discriminate].
  destruct (get_num h c "elevation_m") as [e|]; [|discriminate].
  apply bind_ok in HS. destruct HS as (h1&E1&HS). apply bind_ok in HS. destruct HS as (h2&E2&E3).
  destruct (set_moved h c p o l k _ _ h1 HR HC HO IX E1) as (R1&S1&V1&O1).
  assert (C1 := cam_sim _ _ _ _ _ _ S1 HC). assert (P1 := orient_sim _ _ _ _ S1 HO).
  destruct (set_moved h1 c p o l k _ _ h2 R1 C1 P1 IY E2) as (R2&S2&V2&O2).
  assert (C2 := cam_sim _ _ _ _ _ _ S2 C1). assert (P2 := orient_sim _ _ _ _ S2 P1).
  destruct (set_moved h2 c p o l k _ _ h' R2 C2 P2 IE E3) as (R3&S3&V3&O3).
  rewrite (in_range_pos h o k) in V1 by (auto; destruct k; discriminate).
  rewrite (in_range_pos h1 o k) in V2 by (auto; destruct k; discriminate).
  rewrite (in_range_pos h2 o k) in V3 by (auto; destruct k; discriminate).
  exists x, y, e. split; [auto|]. split; [auto|]. split; [auto|].
  split; [exact R3|]. split; [eapply sim_trans; [exact S1|eapply sim_trans; eauto]|].
  split; [rewrite O3, O2 by discriminate; exact V1|]. split; [rewrite O3 by discriminate; exact V2|].
  split; [exact V3|]. intros z N1 N2 N3. rewrite O3, O2, O1 by assumption. reflexivity.
Qed.
(** How many of the cameras use the orientation object [o]. *)
Fixpoint uses h (cs : list oid) (o : oid) : nat :=
  match cs with
  | [] => 0
  | c :: cs' => (match objs h c with Some b => match okd b with KCam _ o' _ => if Nat.eqb o' o then 1 else 0 | _ => 0 end | None => 0 end) + uses h cs' o
  end.
Lemma uses_sim h h' cs o : sim h h' -> uses h' cs o = uses h cs o.
Proof.
  intros (_&S). induction cs as [|c cs IH]; [reflexivity|]. cbn [uses]. rewrite IH. f_equal. specialize (S c).
  destruct (objs h c) as [b|], (objs h' c) as [b'|]; try contradiction; auto. destruct S as (K&_). rewrite K. reflexivity.
Qed.
Definition are_cameras h (cs : list oid) : Prop := forall c, In c cs -> exists p o l k, cam_at h c p o l /\ orient_at h o k.
Fixpoint scaled (n : nat) (s x : num) : num := match n with 0 => x | S n' => (scaled n' s x * s)%num end.
Lemma scaled_more n s x : scaled n s (x * s)%num = scaled (S n) s x.
Proof. induction n as [|n IH]; [reflexivity|]. cbn [scaled] in *. rewrite IH. reflexivity. Qed.
Lemma scaled_rep n s S x X : rep s S -> rep x X -> rep (scaled n s x) (X * S ^ n)%R.
Proof.
  intros Hs Hx. induction n as [|n IH]; cbn [scaled pow]; [eapply rep_eq; [exact Hx|ring]|].
  eapply rep_eq; [apply rep_mul; [exact IH|exact Hs]|ring].
Qed.
Lemma scale_all_spec s cs : forall h h', reach h -> are_cameras h cs -> scale_all h cs s = (h', true) ->
  reach h' /\ sim h h' /\
  (forall o n, In n ["pos_x_m"; "pos_y_m"; "elevation_m"] -> rdl h' (Loc o n) = option_map (scaled (uses h cs o) s) (rdl h (Loc o n))) /\
  (forall z, ~ In (l_name z) ["pos_x_m"; "pos_y_m"; "elevation_m"] -> rdl h' z = rdl h z).
Proof.
  induction cs as [|c cs IH]; intros h h' HR HC HS.
  - inversion HS; subst h'. split; [exact HR|]. split; [apply sim_refl|]. split; [|reflexivity].
    intros o n _. cbn. destruct (rdl h (Loc o n)); reflexivity.
  - cbn [scale_all] in HS. apply bind_ok in HS. destruct HS as (h1&E1&HS).
    destruct (HC c (or_introl eq_refl)) as (p&o&l&k&CA&OA).
    destruct (scale_camera_spec h c p o l k s h1 HR CA OA E1) as (x&y&e&X&Y&Z&R1&S1&X1&Y1&Z1&OT).
    destruct (IH h1 h' R1) as (R2&S2&V2&O2); [|exact HS|].
    { intros d Hd. destruct (HC d (or_intror Hd)) as (p'&o'&l'&k'&CA'&OA'). exists p', o', l', k'.
      split; [eapply cam_sim; eauto|eapply orient_sim; eauto]. }
    split; [exact R2|]. split; [eapply sim_trans; eauto|]. split.
    + intros o' n Hn. rewrite (V2 o' n Hn). rewrite (uses_sim _ _ cs o' S1). cbn [uses]. destruct CA as (b&Eb&Kb). rewrite Eb, Kb.
      destruct (Nat.eqb_spec o o') as [<-|N].
      * assert (VV : rdl h1 (Loc o n) = option_map (fun v => (v * s)%num) (rdl h (Loc o n))).
        { destruct Hn as [<-|[<-|[<-|[]]]]; unfold Lx, Ly, Le in *; [rewrite X, X1|rewrite Y, Y1|rewrite Z, Z1]; reflexivity. }
        rewrite VV. destruct (rdl h (Loc o n)); [|reflexivity]. cbn [option_map]. rewrite scaled_more. reflexivity.
      * cbn [Nat.add]. rewrite OT; [reflexivity| | |]; intros Q; inversion Q; congruence.
    + intros z Nz. rewrite (O2 z Nz). apply OT; intros ->; apply Nz; cbn; tauto.
Qed.
(** The pose of a camera as read from it: rotation matrix and position. *)
Definition reads_ypar h (c : oid) (r : ypar R) : Prop :=
  exists e t a v x y, get_num h c "elevation_m" = Some e /\ get_num h c "yaw_deg" = Some t /\ get_num h c "roll_deg" = Some a /\
    get_num h c "pitch_deg" = Some v /\ get_num h c "pos_x_m" = Some x /\ get_num h c "pos_y_m" = Some y /\
    rep_ypar (YPar e t a v x y) r.
Inductive posed h (c : oid) : okind -> m3 R -> v3 R -> Prop :=
| PoseTilt r : reads_opar h c r -> posed h c TiltHeading (rotm (rad (tilt_deg r)) (rad (roll_deg r)) (rad (heading_deg r))) (opos r)
| PoseYpr r : reads_ypar h c r -> posed h c YawPitchRoll (rotm (rad (90 + pitch_deg r)) (rad (- y_roll_deg r)) (rad (yaw_deg r))) (ypos r).
Lemma posed_matrix h c k M T : posed h c k M T -> exists m, matrix_of k (get_num h c) = Some m /\ rigid m M T.
Proof.
  intros [r H|r H]; [exact (reads_matrix h c r H)|].
  destruct H as (e&t&a&v&x&y&E1&E2&E3&E4&E5&E6&HR). destruct (init_matrix_ypr_spec _ _ HR) as (m&Em&A&B&C).
  exists m. split; [|apply rotm_rigid; auto]. unfold matrix_of. rewrite E1, E2, E3, E4, E5, E6. exact Em.
Qed.
Definition group_of h (g : oid) (cs : list oid) : Prop := exists b, objs h g = Some b /\ okd b = KGroup cs.
(** Every point is seen, after scaling by [s], at scaled camera coordinates, where the
    number of cameras of the group that share the orientation is the exponent. *)
Theorem C29_scale spline h g cs s S h' c p o l k M T cam : reach h -> group_of h g cs -> are_cameras h cs -> rep s S ->
  scaleSpace h g s = (h', true) -> cam_at h c p o l -> orient_at h o k -> unfrozen h p -> posed h c k M T ->
  camera_in_use spline h c = Some cam ->
  let f := (S ^ uses h cs o)%R in
  reach h' /\ posed h' c k M (rv_scale f T) /\ exists m', camera_in_use spline h' c = Some (with_o cam m') /\
    forall q P q', rep3 q P -> rep3 q' (rv_scale f P) ->
      exists C, camera_sees cam q C /\ camera_sees (with_o cam m') q' (rv_scale f C).
Proof.
  intros HR (b&Eg&Kg) HCs Hs HS HC HO HU HP HK f. unfold scaleSpace in HS. rewrite Eg, Kg in HS.
  destruct (scale_all_spec s cs h h' HR HCs HS) as (R'&S'&V&OT). split; [exact R'|].
  assert (HC' := cam_sim _ _ _ _ _ _ S' HC). assert (HO' := orient_sim _ _ _ _ S' HO).
  assert (CN : forall n, In n (onames k) -> get_num h c n = rdl h (Loc o n)) by (intros n Hn; exact (cam_num h c p o l _ n HR HC HO Hn)).
  assert (CN' : forall n, In n (onames k) -> get_num h' c n = rdl h' (Loc o n)) by (intros n Hn; exact (cam_num h' c p o l _ n R' HC' HO' Hn)).
  assert (GS : forall n v, In n (onames k) -> In n ["pos_x_m"; "pos_y_m"; "elevation_m"] -> get_num h c n = Some v -> get_num h' c n = Some (scaled (uses h cs o) s v)).
  { intros n v H1 H2 H3. rewrite (CN n H1) in H3. rewrite (CN' n H1), (V o n H2), H3. reflexivity. }
  assert (GO : forall n v, In n (onames k) -> ~ In n ["pos_x_m"; "pos_y_m"; "elevation_m"] -> get_num h c n = Some v -> get_num h' c n = Some v).
  { intros n v H1 H2 H3. rewrite (CN n H1) in H3. rewrite (CN' n H1), (OT (Loc o n) H2), H3. reflexivity. }
  assert (SR : forall x X, rep x X -> rep (scaled (uses h cs o) s x) (f * X)%R).
  { intros x X Hx. eapply rep_eq; [apply scaled_rep; eauto|unfold f; ring]. }
  assert (HP' : posed h' c k M (rv_scale f T)).
  { destruct HP as [r (e&t&a&v&x&y&E1&E2&E3&E4&E5&E6&Re&Rt&Ra&Rv&Rx&Ry)|r (e&t&a&v&x&y&E1&E2&E3&E4&E5&E6&Re&Rt&Ra&Rv&Rx&Ry)].
    - apply (PoseTilt h' c (OPar (f * elevation_m r) (tilt_deg r) (roll_deg r) (heading_deg r) (f * pos_x_m r) (f * pos_y_m r))%R).
      eexists _, _, _, _, _, _. split; [apply GS; [cbn; tauto|cbn; tauto|exact E1]|].
      split; [apply GO; [cbn; tauto|cbn; intros Q; repeat destruct Q as [Q|Q]; try discriminate; contradiction|exact E2]|].
      split; [apply GO; [cbn; tauto|cbn; intros Q; repeat destruct Q as [Q|Q]; try discriminate; contradiction|exact E3]|].
      split; [apply GO; [cbn; tauto|cbn; intros Q; repeat destruct Q as [Q|Q]; try discriminate; contradiction|exact E4]|].
      split; [apply GS; [cbn; tauto|cbn; tauto|exact E5]|]. split; [apply GS; [cbn; tauto|cbn; tauto|exact E6]|].
      unfold rep_opar; cbn [elevation_m tilt_deg roll_deg heading_deg pos_x_m pos_y_m]. auto 10.
    - apply (PoseYpr h' c (YPar (f * y_elevation_m r) (yaw_deg r) (y_roll_deg r) (pitch_deg r) (f * y_pos_x_m r) (f * y_pos_y_m r))%R).
      eexists _, _, _, _, _, _. split; [apply GS; [cbn; tauto|cbn; tauto|exact E1]|].
      split; [apply GO; [cbn; tauto|cbn; intros Q; repeat destruct Q as [Q|Q]; try discriminate; contradiction|exact E2]|].
      split; [apply GO; [cbn; tauto|cbn; intros Q; repeat destruct Q as [Q|Q]; try discriminate; contradiction|exact E3]|].
      split; [apply GO; [cbn; tauto|cbn; intros Q; repeat destruct Q as [Q|Q]; try discriminate; contradiction|exact E4]|].
      split; [apply GS; [cbn; tauto|cbn; tauto|exact E5]|]. split; [apply GS; [cbn; tauto|cbn; tauto|exact E6]|].
      unfold rep_ypar; cbn [y_elevation_m yaw_deg y_roll_deg pitch_deg y_pos_x_m y_pos_y_m]. auto 10. }
  split; [exact HP'|].
  destruct (posed_matrix h c k M T HP) as (m0&EM0&RG0). destruct (posed_matrix h' c k M _ HP') as (m'&EM&RG).
  exists m'. assert (HX : forall n, In n shared_names -> rdl h' (Loc p n) = rdl h (Loc p n)).
  { intros n Hn. apply OT. cbn [l_name]. cbn in Hn. cbn. intuition (subst; discriminate). }
  assert (HY : forall lk n, In n (lnames lk) -> rdl h' (Loc l n) = rdl h (Loc l n)).
  { intros lk n Hn. apply OT. cbn [l_name]. destruct lk; cbn in Hn; cbn; intuition (subst; discriminate). }
  destruct (camera_moved spline h h' c p o l k cam m' HR R' S' HC HO HU HX HY HK EM) as (A&B).
  split; [exact A|]. intros q P q' Hq Hq'. rewrite EM0 in B. inversion B; subst m0.
  exists (rm_mul_v M (rv_sub P T)). unfold camera_sees. cbn [with_o cam_o]. split; [apply rigid_camera; assumption|].
  eapply rep3_eq; [apply (rigid_camera m' _ _ q' _ RG Hq')|].
  apply v3_ext; simpl; unfold rdot; simpl; ring.
Qed.
Print Assumptions C29_scale.

(** The claim, for cameras with their own orientation: s*P is shown where P was. *)
Theorem C29_scale_image spline h g cs s S h' c p o l k M T cam pr : reach h -> group_of h g cs -> are_cameras h cs -> rep s S -> (0 < S)%R ->
  scaleSpace h g s = (h', true) -> cam_at h c p o l -> orient_at h o k -> unfrozen h p -> lens_at h l NoDist -> posed h c k M T ->
  camera_in_use spline h c = Some cam -> rep_proj (cam_proj cam) pr -> foc_ok pr -> uses h cs o = 1 ->
  exists cam', camera_in_use spline h' c = Some cam' /\
    forall q P q' Q hide, rep3 q P -> rep3 q' (rv_scale S P) ->
      (forall C, camera_sees cam q C -> showable (cam_kind cam) C /\ showable (cam_kind cam) (rv_scale S C)) ->
      ProjectionFacts.in_range (cam_kind cam) pr Q ->
      rep2 (imageFromSpace cam q hide) Q -> rep2 (imageFromSpace cam' q' hide) Q.
Proof.
  intros HR HG HCs Hs HS0 HS HC HO HU HL HP HK HPr HF H1.
  destruct (C29_scale spline h g cs s S h' c p o l k M T cam HR HG HCs Hs HS HC HO HU HP HK) as (_&_&m'&K'&V).
  rewrite H1 in V. rewrite pow_1 in V. exists (with_o cam m'). split; [exact K'|].
  intros q P q' Q hide Hq Hq' HSh HI HQ. destruct (V q P q' Hq Hq') as (C&C1&C2). destruct (HSh C C1) as (W1&W2).
  exact (same_picture cam m' q q' C pr Q hide (no_lens spline h c p o l cam HC HL HK) HPr HF C1 S HS0 C2 W2 W1 HI HQ).
Qed.
Print Assumptions C29_scale_image.
Lemma scale_returns h cs s : reach h -> full h -> are_cameras h cs -> exists h', scale_all h cs s = (h', true).
Proof.
  revert h. induction cs as [|c cs IH]; intros h HR HF HC; [exists h; reflexivity|]. cbn [scale_all].
  destruct (HC c (or_introl eq_refl)) as (p&o&l&k&CA&OA).
  assert (SET : forall h2 n v, reach h2 -> full h2 -> cam_at h2 c p o l -> orient_at h2 o k -> In n (onames k) ->
            exists h3, set_attr wrapn h2 c n (ANum v) = (h3, true) /\ reach h3 /\ full h3 /\ cam_at h3 c p o l /\ orient_at h3 o k).
  { intros h2 n v R2 F2 C2 O2 Hn. destruct (C56_no_raise h2 (OSet c n (ANum v)) R2 F2 I) as (h3&E3&F3); [cbn; split; [destruct C2 as (b&E&_); congruence|discriminate]|].
    exists h3. destruct (set_moved h2 c p o l k n v h3 R2 C2 O2 Hn E3) as (R3&S3&_).
    split; [exact E3|]. split; [exact R3|]. split; [exact F3|]. split; [eapply cam_sim; eauto|eapply orient_sim; eauto]. }
  assert (VAL : forall n, In n (onames k) -> exists v, get_num h c n = Some v).
  { intros n Hn. destruct HF as (F2&_). rewrite (cam_num h c p o l _ n HR CA OA Hn).
    assert (X : rdl h (Loc o n) <> None). { apply F2. destruct OA as (bo&Eo&Ko). exists bo. cbn [l_owner l_name]. rewrite Ko. auto. }
    destruct (rdl h (Loc o n)) as [w|]; [exists w; reflexivity|congruence]. }
  assert (IX : In "pos_x_m" (onames k)) by (destruct k; cbn; tauto). assert (IY : In "pos_y_m" (onames k)) by (destruct k; cbn; tauto).
  assert (IE : In "elevation_m" (onames k)) by (destruct k; cbn; tauto).
  assert (ONE : exists h1, scale_camera h c s = (h1, true) /\ full h1).
  { unfold scale_camera. destruct (VAL _ IX) as (x&->), (VAL _ IY) as (y&->), (VAL _ IE) as (e&->).
    destruct (SET h "pos_x_m" (x * s)%num HR HF CA OA IX) as (h1&->&R1&F1&C1&O1). unfold bind at 1. cbn [fst snd].
    destruct (SET h1 "pos_y_m" (y * s)%num R1 F1 C1 O1 IY) as (h2&->&R2&F2&C2&O2). unfold bind. cbn [fst snd].
    destruct (SET h2 "elevation_m" (e * s)%num R2 F2 C2 O2 IE) as (h3&->&R3&F3&_). exists h3. split; [reflexivity|exact F3]. }
  destruct ONE as (h1&E1&F1). destruct (scale_camera_spec h c p o l k s h1 HR CA OA E1) as (_&_&_&_&_&_&R1&S1&_).
  rewrite E1. unfold bind. cbn [fst snd]. apply IH; auto.
  intros d Hd. destruct (HC d (or_intror Hd)) as (p'&o'&l'&k'&CA'&OA'). exists p', o', l', k'.
  split; [eapply cam_sim; eauto|eapply orient_sim; eauto].
Qed.
Theorem C29_scale_returns h g cs s : reach h -> full h -> group_of h g cs -> are_cameras h cs -> exists h', scaleSpace h g s = (h', true).
Proof. intros HR HF (b&E&K) HC. unfold scaleSpace. rewrite E, K. apply scale_returns; auto. Qed.
Print Assumptions C29_scale_returns.

(** ** Examples *)
Lemma plain_in_use spline h c p o l pk k pj m : reach h -> cam_at h c p o l -> proj_at h p pk -> orient_at h o k -> lens_at h l NoDist -> unfrozen h p ->
  proj_of (get_num h c) = Some pj -> matrix_of k (get_num h c) = Some m -> camera_in_use spline h c = Some (plain_camera pk pj m).
Proof.
  intros HR (b&E&K) (bp&Ep&Kp) (bo&Eo&Ko) (bl&El&Kl) HU HP HM. rewrite (C37_current_values spline h c HR).
  - unfold camera_of_reads. rewrite E, K, Ep, Kp, Eo, Ko, El, Kl. unfold camera_of. rewrite HP, HM. reflexivity.
  - intros q (o'&l'&b'&E'&K'). assert (q = p) by congruence. subst q. exact HU.
Qed.
(** One camera at (3, 4), 10 m high, tilt 45, heading 350. *)
Definition spaceq : heap Q := hist (camq NoDist) [OSet 3 "heading_deg" (ANum (350#1)%Q); OSet 3 "pos_x_m" (ANum (3#1)%Q); OSet 1 "pos_y_m" (ANum (4#1)%Q)].
Lemma spaceq_reach : reach (floats spaceq).
Proof. apply (cam_reach NoDist); [stand|vm]. Qed.
Lemma lens_q (h : heap Q) l k : kind_at h l = Some (KLens k) -> lens_at (floats h) l k.
Proof. unfold kind_at, lens_at. cbn [hmap objs]. destruct (objs h l) as [b|]; [|discriminate]. cbn [option_map]. intros H. exists (omap litn b). split; [reflexivity|]. cbn. congruence. Qed.
Lemma proj_q (h : heap Q) l k : kind_at h l = Some (KProj k) -> proj_at (floats h) l k.
Proof. unfold kind_at, proj_at. cbn [hmap objs]. destruct (objs h l) as [b|]; [|discriminate]. cbn [option_map]. intros H. exists (omap litn b). split; [reflexivity|]. cbn. congruence. Qed.
Lemma group_at_q (h : heap Q) g cs : kind_at h g = Some (KGroup cs) -> group_of (floats h) g cs.
Proof. unfold kind_at, group_of. cbn [hmap objs]. destruct (objs h g) as [b|]; [|discriminate]. cbn [option_map]. intros H. exists (omap litn b). split; [reflexivity|]. cbn. congruence. Qed.
Lemma unfrozen_q (h : heap Q) p : match objs h p with Some b => forallb (fun n => negb (is_some (attrs b n))) pnames | None => true end = true -> unfrozen (floats h) p.
Proof.
  intros H b n E Hn. cbn [hmap objs] in E. destruct (objs h p) as [b0|]; [|discriminate]. cbn [option_map] in E. inversion E; subst b.
  rewrite forallb_forall in H. specialize (H n Hn). cbn [omap attrs]. destruct (attrs b0 n); [discriminate|reflexivity].
Qed.
Lemma get_q (h : heap Q) o n q : get_num h o n = Some q -> get_num (floats h) o n = Some (litn q).
Proof. intros E. rewrite num_q, E. reflexivity. Qed.
Lemma rep_lit q r : Q2R q = r -> rep (litn q) r.
Proof. intros <-. apply rep_Fin. Qed.
Ltac q2r := apply rep_lit; unfold Q2R; simpl; field.
Lemma space_pose : reads_opar (floats spaceq) 3 (OPar 10 45 0 350 3 4)%R.
Proof.
  exists (litn (10#1)), (litn (45#1)), (litn 0), (litn (350#1)), (litn (3#1)), (litn (4#1)).
  do 6 (split; [apply get_q; vm|]).
  unfold rep_opar; cbn [elevation_m tilt_deg roll_deg heading_deg pos_x_m pos_y_m]. repeat split; q2r.
Qed.
Example C29_rotate_example : let h := floats spaceq in exists cam r h', reach h /\ cam_at h 3 0 1 2 /\ orient_at h 1 TiltHeading /\ unfrozen h 0 /\
  lens_at h 2 NoDist /\ full h /\ reads_opar h 3 r /\ camera_in_use (fun _ x => x) h 3 = Some cam /\ rotateSpace h 3 (Fin 90) = (h', true) /\
  (exists x y, get_num h' 3 "pos_x_m" = Some x /\ get_num h' 3 "pos_y_m" = Some y /\ rep x 4 /\ rep y (-3)) /\
  exists pr, rep_proj (cam_proj cam) pr /\ foc_ok pr.
Proof.
  intros h. destruct (reads_matrix h 3 _ space_pose) as (m&EM&_).
  set (pj := Proj (litn (100#1)) (litn (100#1)) (litn (50#1)) (litn (40#1)) (litn (100#1)) (litn (80#1))).
  assert (R : reach h) by exact spaceq_reach. assert (C : cam_at h 3 0 1 2) by (apply cam_q; vm).
  assert (O : orient_at h 1 TiltHeading) by (apply orient_q; vm). assert (L : lens_at h 2 NoDist) by (apply lens_q; vm).
  assert (P : proj_at h 0 Rectilinear) by (apply proj_q; vm).
  assert (U : unfrozen h 0) by (apply unfrozen_q; vm).
  assert (F : full h) by (apply fullb_ok; [exact spaceq_reach|vm]).
  destruct (C29_rotate_returns h 3 0 1 2 (Fin 90) R F C O) as (h'&E').
  exists (plain_camera Rectilinear pj m), (OPar 10 45 0 350 3 4)%R, h'. do 6 (split; [assumption|]). split; [exact space_pose|].
  split. { apply (plain_in_use _ h 3 0 1 2 Rectilinear TiltHeading); try assumption. unfold proj_of, h. rewrite (get_q _ _ "focallength_x_px" (100#1)), (get_q _ _ "focallength_y_px" (100#1)), (get_q _ _ "center_x_px" (50#1)),
      (get_q _ _ "center_y_px" (40#1)), (get_q _ _ "image_width_px" (100#1)), (get_q _ _ "image_height_px" (80#1)) by vm. reflexivity. }
  split; [exact E'|]. split.
  - destruct (rotate_spec h 3 0 1 2 (Fin 90) h' R C O E') as (v&x&y&V0&X0&Y0&R'&S'&V1&X1&Y1&OT).
    assert (C' := cam_sim _ _ _ _ _ _ S' C). assert (O' := orient_sim _ _ _ _ S' O).
    rewrite !(cam_num h' 3 0 1 2 TiltHeading _ R' C' O') by (cbn; tauto). eexists _, _. split; [exact X1|]. split; [exact Y1|].
    destruct space_pose as (e&t&a&v'&x'&y'&E1&E2&E3&E4&E5&E6&(Re&Rt&Ra&Rv&Rx&Ry)). cbn [elevation_m tilt_deg roll_deg heading_deg pos_x_m pos_y_m] in *.
    fold h in E5, E6. rewrite (cam_num h 3 0 1 2 TiltHeading "pos_x_m" R C O) in E5 by (cbn; tauto). rewrite (cam_num h 3 0 1 2 TiltHeading "pos_y_m" R C O) in E6 by (cbn; tauto).
    assert (x' = x) by (unfold Lx in X0; congruence). assert (y' = y) by (unfold Ly in Y0; congruence). subst x' y'.
    assert (RD : rad 90 = (PI / 2)%R) by (unfold rad; field).
    assert (Hs : rep (nsin (ndeg2rad (Fin 90))) 1) by (eapply rep_eq; [apply rep_sin, rep_deg2rad, rep_Fin|fold (rad 90); rewrite RD; apply sin_PI2]).
    assert (Hc : rep (ncos (ndeg2rad (Fin 90))) 0) by (eapply rep_eq; [apply rep_cos, rep_deg2rad, rep_Fin|fold (rad 90); rewrite RD; apply cos_PI2]).
    split; (eapply rep_eq; [apply rep_add; apply rep_mul; first [eassumption|apply rep_neg; eassumption]|ring]).
  - exists (Proj 100 100 50 40 100 80)%R. split; [unfold rep_proj; cbn; repeat split; q2r|]. unfold foc_ok; cbn. lra.
Qed.
(** Two cameras of one group that share their orientation: scaling by 2 lifts them from
    10 m to 40 m. *)
Definition shared_ops : list (op Q) :=
  [OProj Rectilinear pvals false; OProj Rectilinear pvals false; OOrient TiltHeading ovals; OLens NoDist none; OGroup (inr [0; 1]) (inl 2) (inl 3)].
Definition sharedq : heap Q := hist empty shared_ops.
Lemma shared_reach : reach (floats sharedq).
Proof. apply hist_reach; [unfold shared_ops; stand|vm]. Qed.
Theorem C29_scale_refuted : exists h g cs h' c e e', reach h /\ full h /\ group_of h g cs /\ are_cameras h cs /\ In c cs /\
  scaleSpace h g (Fin 2) = (h', true) /\ get_num h c "elevation_m" = Some e /\ rep e 10 /\
  get_num h' c "elevation_m" = Some e' /\ rep e' 40.
Proof.
  assert (F : full (floats sharedq)) by (apply fullb_ok; [exact shared_reach|vm]).
  assert (G : group_of (floats sharedq) 4 [5; 7]).
  { apply group_at_q; vm. }
  assert (CA : are_cameras (floats sharedq) [5; 7]).
  { intros c [<-|[<-|[]]]; [exists 0, 2, 3, TiltHeading|exists 1, 2, 3, TiltHeading]; (split; [apply cam_q; vm|apply orient_q; vm]). }
  destruct (C29_scale_returns _ 4 [5; 7] (Fin 2) shared_reach F G CA) as (h'&E').
  assert (C5 : cam_at (floats sharedq) 5 0 2 3) by (apply cam_q; vm). assert (O2 : orient_at (floats sharedq) 2 TiltHeading) by (apply orient_q; vm).
  assert (E0 : get_num (floats sharedq) 5 "elevation_m" = Some (litn (10#1))) by (apply get_q; vm).
  pose proof G as (b&Eb&Kb). pose proof E' as ES. unfold scaleSpace in ES. rewrite Eb, Kb in ES.
  destruct (scale_all_spec (Fin 2) [5; 7] _ h' shared_reach CA ES) as (R'&S'&V&_).
  exists (floats sharedq), 4, [5; 7], h', 5, (litn (10#1)), (scaled 2 (Fin 2) (litn (10#1))).
  split; [exact shared_reach|]. split; [exact F|]. split; [exact G|]. split; [exact CA|]. split; [left; reflexivity|]. split; [exact E'|].
  split; [exact E0|]. split; [q2r|]. split.
  - rewrite (cam_num h' 5 0 2 3 TiltHeading _ R' (cam_sim _ _ _ _ _ _ S' C5) (orient_sim _ _ _ _ S' O2)) by (cbn; tauto).
    rewrite (V 2 "elevation_m") by (cbn; tauto).
    rewrite <- (cam_num _ 5 0 2 3 TiltHeading _ shared_reach C5 O2) by (cbn; tauto). rewrite E0.
    replace (uses (floats sharedq) [5; 7] 2) with 2 by vm. reflexivity.
  - eapply rep_eq; [apply scaled_rep; [apply rep_Fin|apply rep_lit; reflexivity]|]. unfold Q2R; simpl; field.
Qed.
Print Assumptions C29_scale_refuted.
(** A stereo pair with two orientations meets the hypotheses of [C29_scale_image]. *)
Example C29_scale_example : let h := floats stereo_group in reach h /\ full h /\ group_of h 4 [5; 7] /\ are_cameras h [5; 7] /\
  cam_at h 7 0 2 3 /\ orient_at h 2 TiltHeading /\ unfrozen h 0 /\ uses h [5; 7] 2 = 1 /\ uses h [5; 7] 1 = 1 /\
  exists h', scaleSpace h 4 (Fin 3) = (h', true).
Proof.
  intros h. assert (R : reach h) by (refine (Rstep wrapn litn (floats stereoq) (OGroup (inl 0) (inr [1; 2]) (inl 3)) _ stereo_reach stereo_good _); apply group_q; vm).
  assert (F : full h) by (apply fullb_ok; [exact R|vm]).
  assert (G : group_of h 4 [5; 7]). { apply group_at_q; vm. }
  assert (CA : are_cameras h [5; 7]).
  { intros c [<-|[<-|[]]]; [exists 0, 1, 3, TiltHeading|exists 0, 2, 3, TiltHeading]; (split; [apply cam_q; vm|apply orient_q; vm]). }
  split; [exact R|]. split; [exact F|]. split; [exact G|]. split; [exact CA|]. split; [apply cam_q; vm|]. split; [apply orient_q; vm|].
  split; [apply unfrozen_q; vm|]. split; [vm|]. split; [vm|].
  exact (C29_scale_returns h 4 [5; 7] (Fin 3) R F G CA).
Qed.
(** A camera with yaw, pitch and roll cannot be turned. *)
Theorem C29_rotate_ypr_refuted : exists h c p o l, reach h /\ full h /\ cam_at h c p o l /\ orient_at h o YawPitchRoll /\
  forall d, rotateSpace h c d = (h, false).
Proof.
  set (q := hist empty [OProj Rectilinear pvals false; OOrient YawPitchRoll (dict [("elevation_m", 10#1)]%Q); OLens NoDist none; OCamera 0 1 2]).
  assert (R : reach (floats q)) by (apply hist_reach; [stand|vm]).
  assert (C : cam_at (floats q) 3 0 1 2) by (apply cam_q; vm). assert (O : orient_at (floats q) 1 YawPitchRoll) by (apply orient_q; vm).
  exists (floats q), 3, 0, 1, 2. split; [exact R|]. split; [apply fullb_ok; [exact R|vm]|]. split; [exact C|]. split; [exact O|].
  intros d. apply (C29_rotate_ypr_raises _ 3 0 1 2 d R C O). intros b E. vm_compute in E. inversion E; subst b. reflexivity.
Qed.
Print Assumptions C29_rotate_ypr_refuted.
