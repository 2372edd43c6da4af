(** * C71: a calibration is applied as OpenCV means it *)
Require Import Reals Lra Psatz List Bool String Arith NArith ZArith QArith Qreals Lia.
From Verif Require Import Num Vec Trig Orientation OrientationFacts Projection ProjectionFacts Ray CameraTransform CameraFacts Lens PropProjection PropCamera PropLens
  PropStereo Border Lut MapCache PropMapCache.
From Verif Require Import Param ParamFacts ParamOps ParamSteps ParamReach ParamCam ParamLaws ParamMap PropParam PropFit ParamCheck ParamExamples ParamTotal PropTotal Calibration.
Import ListNotations.
Open Scope R_scope.

(** ** Specification: the camera model of OpenCV *)
(** camera matrix (fx, fy, cx, cy) and distortion coefficients (k1, k2, p1, p2, k3), see the documentation of
    cv2.calibrateCamera, projectPoints and undistort *)
Record cvmodel := CV { v_fx : R; v_fy : R; v_cx : R; v_cy : R; v_k1 : R; v_k2 : R; v_p1 : R; v_p2 : R; v_k3 : R }.
Definition cv_distort (m : cvmodel) (x : v2 R) : v2 R :=
  let a := c1 x in let b := c2 x in let rr := a * a + b * b in
  let g := 1 + v_k1 m * rr + v_k2 m * (rr * rr) + v_k3 m * (rr * rr * rr) in
  V2 (a * g + 2 * v_p1 m * a * b + v_p2 m * (rr + 2 * (a * a))) (b * g + v_p1 m * (rr + 2 * (b * b)) + 2 * v_p2 m * a * b).
Definition cv_pixel (m : cvmodel) (x : v2 R) : v2 R := V2 (v_fx m * c1 x + v_cx m) (v_fy m * c2 x + v_cy m).
(** the pixel of a point given in OpenCV's camera axes: x to the right, y down, z forward *)
Definition cv_project (m : cvmodel) (X : v3 R) : v2 R := cv_pixel m (cv_distort m (V2 (cx X / cz X) (cy X / cz X))).
(** cv2.undistort with the same matrix: where a pixel of the result is taken from *)
Definition cv_source (m : cvmodel) (q : v2 R) : v2 R := cv_pixel m (cv_distort m (V2 ((c1 q - v_cx m) / v_fx m) ((c2 q - v_cy m) / v_fy m))).
(** the axes of cameratransform (x right, y up, z backward) *)
Definition cv_axes (C : v3 R) : v3 R := V3 (cx C) (- cy C) (- cz C).
(** the parameters of the camera are those of the model *)
Definition cv_of (r : proj R) (k1 k2 k3 : R) : cvmodel := CV (f_x r) (f_y r) (center_x r) (center_y r) k1 k2 0 0 k3.

(** ** Facts *)
Lemma cv_source_radial r K1 K2 K3 Q : foc_ok r -> 0 < radius (brown_frame r) Q ->
  cv_source (cv_of r K1 K2 K3) Q = radial (brown_frame r) (brownR K1 K2 K3 (radius (brown_frame r) Q) / radius (brown_frame r) Q) Q.
Proof.
  intros (F1&F2) HP. assert (E : radius (brown_frame r) Q * radius (brown_frame r) Q =
    (c1 Q - center_x r) / f_x r * ((c1 Q - center_x r) / f_x r) + (c2 Q - center_y r) / f_y r * ((c2 Q - center_y r) / f_y r)).
  { unfold radius. rewrite sqrt_def; [reflexivity|]. apply Rplus_le_le_0_compat; apply Rle_0_sqr. }
  set (s := radius (brown_frame r) Q) in *.
  replace (brownR K1 K2 K3 s / s) with (1 + K1 * (s * s) + K2 * (s * s * (s * s)) + K3 * (s * s * (s * s) * (s * s))) by (unfold brownR; field; lra).
  unfold cv_source, cv_pixel, cv_distort, cv_of, radial, brown_frame. cbn [v_fx v_fy v_cx v_cy v_k1 v_k2 v_p1 v_p2 v_k3 c1 c2 o_x o_y].
  rewrite <- E. apply v2_ext; cbn [c1 c2]; field; auto.
Qed.
Lemma radius_pos r Q : foc_ok r -> Q <> V2 (center_x r) (center_y r) -> 0 < radius (brown_frame r) Q.
Proof.
  intros (F1&F2) N. unfold radius, brown_frame. cbn [o_x o_y s_x s_y]. apply sqrt_lt_R0.
  destruct (Req_dec (c1 Q) (center_x r)) as [E1|E1].
  - destruct (Req_dec (c2 Q) (center_y r)) as [E2|E2]; [exfalso; apply N; apply v2_ext; assumption|].
    apply Rplus_le_lt_0_compat; [apply Rle_0_sqr|]. apply Rlt_0_sqr. unfold Rdiv. apply Rmult_integral_contrapositive; split; [lra|apply Rinv_neq_0_compat; auto].
  - apply Rplus_lt_le_0_compat; [|apply Rle_0_sqr]. apply Rlt_0_sqr. unfold Rdiv. apply Rmult_integral_contrapositive; split; [lra|apply Rinv_neq_0_compat; auto].
Qed.
Lemma brown_source spline k1 k2 k3 K1 K2 K3 p r q Q : rep k1 K1 -> rep k2 K2 -> rep k3 K3 -> rep_proj p r -> foc_ok r -> rep2 q Q ->
  Q <> V2 (center_x r) (center_y r) -> rep2 (distortedFromImage (brown_lens spline k1 k2 k3 p) q) (cv_source (cv_of r K1 K2 K3) Q).
Proof.
  intros H1 H2 H3 Hp HF Hq N. pose proof (radius_pos r Q HF N) as HP. rewrite (cv_source_radial r K1 K2 K3 Q HF HP).
  eapply C18_radial; [apply rep_brown_lens; eauto|exact Hq|exact HP|]. intros x Hx. apply rep_brown; assumption.
Qed.

(** ** The properties *)
(** A point in front of a rectilinear camera with a Brown lens (but not on the optical axis) has the pixel that OpenCV's
    projectPoints gives with the same focal lengths, centre and coefficients. *)
Theorem C71_project spline c r o k1 k2 k3 K1 K2 K3 lp p P : lens_cam c Rectilinear r o (brown_lens spline k1 k2 k3 lp) -> rep_proj lp r ->
  rep k1 K1 -> rep k2 K2 -> rep k3 K3 -> rep3 p P -> showable Rectilinear (cam_coords o P) ->
  cx (cam_coords o P) <> 0 \/ cy (cam_coords o P) <> 0 ->
  rep2 (imageFromSpace c p true) (cv_project (cv_of r K1 K2 K3) (cv_axes (cam_coords o P))).
Proof.
  intros HC Hl H1 H2 H3 Hp (B&V) N. destruct (lens_good _ _ _ _ _ HC) as ((Hpr&HF&HR)&HK&HDi&_).
  set (C := cam_coords o P) in *. pose proof (big_nz _ B) as NZ.
  assert (HX : rep2 (p_image Rectilinear (cam_proj c) (cameraFromSpace (cam_o c) p) true) (pin r C)).
  { cbn [p_image]. apply rect_image_value; auto. exact (rigid_camera _ _ _ _ _ HR Hp). }
  unfold imageFromSpace. rewrite HDi, HK.
  assert (NQ : pin r C <> V2 (center_x r) (center_y r)).
  { destruct HF as (F1&F2). intros E. pose proof (f_equal c1 E) as E1. pose proof (f_equal c2 E) as E2. unfold pin in E1, E2. cbn [c1 c2] in E1, E2. clear E. destruct N as [N|N].
    - assert (E3 : - cx C * f_x r / cz C = 0) by lra. unfold Rdiv in E3. apply Rmult_integral in E3. destruct E3 as [E3|E3]; [|apply Rinv_neq_0_compat in NZ; contradiction].
      apply Rmult_integral in E3. destruct E3; [apply N; lra|contradiction].
    - assert (E3 : cy C * f_y r / cz C = 0) by lra. unfold Rdiv in E3. apply Rmult_integral in E3. destruct E3 as [E3|E3]; [|apply Rinv_neq_0_compat in NZ; contradiction].
      apply Rmult_integral in E3. destruct E3; contradiction. }
  eapply rep2_eq; [apply (brown_source spline k1 k2 k3 K1 K2 K3 lp r _ _ H1 H2 H3 Hl HF HX NQ)|].
  unfold cv_source, cv_project, cv_axes, pin. cbn [c1 c2 cx cy cz cv_of v_cx v_cy v_fx v_fy]. destruct HF as (F1&F2).
  f_equal. f_equal. apply v2_ext; cbn [c1 c2]; field; auto.
Qed.
Print Assumptions C71_project.

(** undistortImage of the whole image takes every pixel of the result (but not one exactly at the centre) from where
    cv2.undistort takes it. *)
Theorem C71_undistort spline s r o k1 k2 k3 K1 K2 K3 lp im : s_undist s = None ->
  lens_cam (s_cam s) Rectilinear r o (brown_lens spline k1 k2 k3 lp) -> rep_proj lp r -> rep k1 K1 -> rep k2 K2 -> rep k3 K3 ->
  im_width r = INR (im_w im) -> im_height r = INR (im_h im) -> (0 < im_w im)%nat -> (0 < im_h im)%nat ->
  exists im', snd (undistortImage s im None None false) = Some im' /\ im_h im' = im_h im /\ im_w im' = im_w im /\
    forall i j, (i < im_h im)%nat -> (j < im_w im)%nat -> V2 (INR j) (INR i) <> V2 (center_x r) (center_y r) ->
      exists q, rep2 q (cv_source (cv_of r K1 K2 K3) (V2 (INR j) (INR i))) /\ shows im q (im_px im' i j).
Proof.
  intros HU HC Hl H1 H2 H3 EW EH PW PH. destruct (lens_good _ _ _ _ _ HC) as ((Hpr&HF&HR)&HK&HDi&_).
  assert (HW : rep (im_width (cam_proj (s_cam s))) (INR (im_w im))) by (rewrite <- EW; apply Hpr).
  assert (HH : rep (im_height (cam_proj (s_cam s))) (INR (im_h im))) by (rewrite <- EH; apply Hpr).
  set (e := Ext (Fin 0) (im_width (cam_proj (s_cam s))) (Fin 0) (im_height (cam_proj (s_cam s)))).
  set (s' := State (s_cam s) (fun _ => e) (s_map s) (s_undist s)).
  destruct (C43_undistorted s' im 0%nat (Fin 1) 0 (INR (im_w im)) 0 (INR (im_h im)) 1) as (im'&E&_&BW&BH&EP); auto; try (apply rep_Fin); try lra;
    try (apply (lt_INR 0); assumption).
  assert (IE : forall a b : nat, (INR a - 1) * 1 < INR b - 0 <= INR a * 1 -> a = b).
  { intros a b (L1&L2). assert (A1 : INR b <= INR a) by lra. apply INR_le in A1.
    assert (A2 : INR a < INR (b + 1)) by (rewrite plus_INR; cbn [INR]; lra). apply INR_lt in A2. lia. }
  apply IE in BW. apply IE in BH.
  exists im'. destruct (C43_size s im _ _ HW HH) as (K&_). destruct (K None None) as (K1'&_). rewrite K1' by auto.
  split; [|split; [exact BH|split; [exact BW|]]].
  - rewrite <- E. unfold undistortImage, getUndistortMap. cbn [negb andb s' s_cam s_undist]. rewrite HU. cbn [contents s_lists]. fold e.
    change (s_lists s' 0) with e. destruct (map_over (cam_dist (s_cam s)) e (Fin 1)); reflexivity.
  - intros i j I J N. eexists. split; [|apply EP; lia].
    cbn [s' s_cam]. rewrite HDi. replace (0 + INR j * 1) with (INR j) by ring. replace (0 + INR i * 1) with (INR i) by ring.
    apply brown_source; auto. apply (rep2_fin (V2 (INR j) (INR i))).
Qed.
Print Assumptions C71_undistort.

(** ** The parameters *)
Open Scope string_scope.
(** the value a later entry of the list gives to a name *)
Fixpoint named (n : name) (vals : list (name * num)) : option num :=
  match vals with
  | [] => None
  | (m, v) :: l => match named n l with Some w => Some w | None => if String.eqb m n then Some v else None end
  end.
Lemma last_named (t : list (name * loc)) x n vals : (forall m y, assoc m t = Some y -> l_name y = m) -> assoc n t = Some (Loc x n) ->
  last_for t (Loc x n) vals = named n vals.
Proof.
  intros HN HA. induction vals as [|[m v] l IH]; [reflexivity|]. cbn [last_for named]. rewrite IH. destruct (named n l); [reflexivity|].
  destruct (String.eqb_spec m n) as [->|N].
  - rewrite HA. replace (loc_eqb (Loc x n) (Loc x n)) with true; [reflexivity|]. unfold loc_eqb. cbn [l_owner l_name]. rewrite Nat.eqb_refl, String.eqb_refl. reflexivity.
  - destruct (assoc m t) as [y|] eqn:E; [|reflexivity]. specialize (HN m y E). unfold loc_eqb. rewrite HN. cbn [l_owner l_name].
    destruct (String.eqb_spec m n) as [->|_]; [contradiction|]. rewrite andb_false_r. reflexivity.
Qed.
Lemma wrapped_no (h : heapn) x n : n <> wrapped_name TiltHeading -> n <> wrapped_name YawPitchRoll ->
  wrapped_loc h (Loc x n) = false.
Proof.
  intros N1 N2. unfold wrapped_loc. cbn [l_owner l_name]. destruct (objs h x) as [b|]; [|reflexivity]. destruct (okd b) as [|j| | | |]; try reflexivity.
  destruct j; [destruct (String.eqb_spec n (wrapped_name TiltHeading)); congruence|destruct (String.eqb_spec n (wrapped_name YawPitchRoll)); congruence].
Qed.

(** the camera with the numbers of a calibration *)
Definition cal_proj (cal : calibration) : proj num := Proj (cal_fx cal) (cal_fy cal) (cal_cx cal) (cal_cy cal) (cal_w cal) (cal_h cal).
Definition calibrated spline (cal : calibration) (mat : omat) : camera :=
  lens_camera Rectilinear (cal_proj cal) mat (brown_lens spline (cal_k1 cal) (cal_k2 cal) (cal_k3 cal) (cal_proj cal)).
(** Applying a calibration to a camera (rectilinear, with a Brown lens, as the window makes it) never raises, and the
    camera then computes with exactly the numbers of the calibration; position and orientation stay. *)
Theorem C71_applied spline ord h c p o l cal cam : reach h -> full h -> is_order ord ->
  cam_at h c p o l -> proj_at h p Rectilinear -> lens_at h l Brown -> unfrozen h p -> camera_in_use spline h c = Some cam ->
  exists h', apply_calibration ord h c cal = (h', true) /\ reach h' /\
    camera_in_use spline h' c = Some (calibrated spline cal (cam_o cam)).
Proof.
  intros HR HFU HO CA PA LA UF EC. destruct (reach_inv h HR) as (HI&CI). pose proof CA as (b&E&K).
  destruct (C56_no_raise h (OFit ord c (items cal)) HR HFU HO) as (h'&ES&_); [cbn; congruence|]. cbn [exec] in ES.
  exists h'. split; [exact ES|].
  assert (HR' : reach h') by (eapply Rstep with (p := OFit ord c (items cal)); [exact HR|exact HO|exact ES]). split; [exact HR'|].
  destruct (set_fit_spec wrapn wrapn_ok ord clean h c (items cal) h' b HO HI (fun x H => H) E ES) as (h1&cs&_&SM&_).
  destruct (CI c b p o l E K) as (g&pk&k&lk&PA'&OA&LA'&_&_&HT&_).
  assert (lk = Brown). { destruct LA as (b1&X1&Y1), LA' as (b2&X2&Y2). congruence. } subst lk.
  assert (pk = Rectilinear). { destruct PA as (b1&X1&Y1), PA' as (b2&X2&Y2). congruence. } subst pk.
  assert (CA' : cam_at h' c p o l). { destruct (sim_fwd _ _ _ _ SM E) as (b'&E'&S'). exists b'. split; [exact E'|]. destruct S' as (S1&_). congruence. }
  assert (UU : forall q, projection_of h c q -> unfrozen h q).
  { intros q (oo&ll&(b2&E2&K2)). assert (q = p) by congruence. subst q. exact UF. }
  assert (UU' : forall q, projection_of h' c q -> unfrozen h' q).
  { intros q (oo&ll&(b2&E2&K2)). destruct CA' as (b3&E3&K3). assert (q = p) by congruence. subst q.
    intros b4 n E4 Hn. destruct PA as (bp&Ep&_). destruct (sim_fwd _ _ _ _ SM Ep) as (b5&E5&(_&A5&_)).
    assert (b5 = b4) by congruence. subst b5. rewrite A5. apply UF; assumption. }
  rewrite (C37_current_values spline h' c HR' UU'). rewrite (C37_current_values spline h c HR UU) in EC.
  (* what is read afterwards *)
  assert (HNM : forall m y, assoc m (table b) = Some y -> l_name y = m).
  { intros m y. rewrite HT, cam_table_assoc. destruct (mem_name m (all_names k Brown)); [|discriminate]. intros X; injection X as <-. reflexivity. }
  assert (GN : forall n x, reads h c n (Loc x n) -> In n (pnames ++ onames k ++ lnames Brown) ->
    get_num h' c n = match named n (items cal) with Some v => Some v | None => get_num h c n end).
  { intros n x RD HIn. assert (AS : assoc n (table b) = Some (Loc x n)) by (destruct RD as (b'&E'&_&T'); congruence).
    destruct (is_f n) eqn:IF.
    - assert (n = "focallength_x_px" \/ n = "focallength_y_px").
      { unfold is_f in IF. apply orb_true_iff in IF. destruct IF as [F|F]; apply String.eqb_eq in F; auto. }
      assert (HN2 : In n pnames) by (destruct H as [-> | ->]; cbn; tauto).
      destruct (camera_reads wrapn h c p o l n CI HI CA) as (A&_). destruct (A HN2) as (RD'&_).
      assert (x = p) by (destruct RD' as (b'&E'&_&T'); congruence). subst x.
      rewrite (C40_set_fit_focal ord h c (items cal) h' b c p n Rectilinear HR HO E PA ES) by (auto; destruct H as [-> | ->]; cbn; tauto).
      destruct (camera_reads wrapn h c p o l "focallength_px" CI HI CA) as (A2&_). destruct A2 as (RD2&_); [cbn; tauto|].
      rewrite (last_named _ p "focallength_px") by (auto; destruct RD2 as (b'&E'&_&T'); congruence).
      rewrite (last_named _ p n) by auto. reflexivity.
    - rewrite (C40_set_fit ord h c (items cal) h' b c n (Loc x n) HR HO E ES RD) by (cbn [l_name]; rewrite IF; apply andb_false_r).
      rewrite (last_named _ x n) by auto. destruct (named n (items cal)) as [v|] eqn:EN; [|reflexivity].
      unfold in_range. rewrite (wrapped_no h x n); [reflexivity| |]; intros ->; cbn in EN; discriminate. }
  revert EC. unfold camera_of_reads. destruct CA' as (b'&E'&K'). rewrite E, E', K, K'.
  destruct PA as (bp&Ep&Kp), OA as (bo&Eo&Ko), LA as (bl&El&Kl). rewrite Ep, Eo, El, Kp, Ko, Kl.
  destruct (sim_fwd _ _ _ _ SM Ep) as (bp'&Ep'&(Kp'&_)), (sim_fwd _ _ _ _ SM Eo) as (bo'&Eo'&(Ko'&_)), (sim_fwd _ _ _ _ SM El) as (bl'&El'&(Kl'&_)).
  rewrite Ep', Eo', El', Kp', Ko', Kl', Kp, Ko, Kl.
  assert (GP : forall n, In n pnames -> get_num h' c n = match named n (items cal) with Some v => Some v | None => get_num h c n end).
  { intros n Hn. destruct (camera_reads wrapn h c p o l n CI HI (ex_intro _ b (conj E K))) as (A&_). destruct (A Hn) as (RD&_). apply (GN n p RD). rewrite in_app_iff; auto. }
  assert (GO : forall n, In n (onames k) -> get_num h' c n = get_num h c n).
  { intros n Hn. destruct (camera_reads wrapn h c p o l n CI HI (ex_intro _ b (conj E K))) as (_&A&_). destruct (A k) as (RD&_); [exists bo; auto|exact Hn|].
    rewrite (GN n o RD) by (rewrite !in_app_iff; auto). replace (named n (items cal)) with (@None num); [reflexivity|].
    destruct k; cbn in Hn; repeat (destruct Hn as [<-|Hn]; [reflexivity|]); destruct Hn. }
  assert (GL : forall n, In n (lnames Brown) -> get_num h' c n = match named n (items cal) with Some v => Some v | None => get_num h c n end).
  { intros n Hn. destruct (camera_reads wrapn h c p o l n CI HI (ex_intro _ b (conj E K))) as (_&_&A&_). destruct (A Brown) as (RD&_); [exists bl; auto|exact Hn|].
    apply (GN n l RD). rewrite !in_app_iff; auto. }
  unfold camera_of. intros EC.
  assert (EM : matrix_of k (get_num h' c) = matrix_of k (get_num h c)) by (unfold matrix_of; destruct k; rewrite !GO by (cbn; tauto); reflexivity).
  rewrite EM. unfold proj_of, lens_of in *. rewrite !GP by (cbn; tauto). rewrite !GL by (cbn; tauto).
  cbn [named items String.eqb Ascii.eqb Bool.eqb mem_name existsb lens_reads orb] in *.
  cbn [named items String.eqb Ascii.eqb Bool.eqb or_nan] in *.
  destruct (get_num h c "focallength_x_px"), (get_num h c "focallength_y_px"), (get_num h c "center_x_px"), (get_num h c "center_y_px"),
    (get_num h c "image_width_px"), (get_num h c "image_height_px"); try discriminate.
  destruct (matrix_of k (get_num h c)) as [m|]; [|discriminate].
  destruct (get_num h c "k1"), (get_num h c "k2"), (get_num h c "k3"); try discriminate. injection EC as <-. reflexivity.
Qed.
Print Assumptions C71_applied.

(** The results of cv2.calibrateCamera, fitted without tangential distortion, lead through fitCalibration to a camera that
    projects as OpenCV does with these results. *)
Definition rep_results (m : m3 num) (dist : list num) (M : cvmodel) : Prop :=
  rep (cx (cx m)) (v_fx M) /\ rep (cy (cy m)) (v_fy M) /\ rep (cz (cx m)) (v_cx M) /\ rep (cz (cy m)) (v_cy M) /\
  Forall2 rep dist [v_k1 M; v_k2 M; v_p1 M; v_p2 M; v_k3 M].
Theorem C71_results spline rms m dist M w h W H on o mat p P : rep_results m dist M -> v_fx M <> 0 -> v_fy M <> 0 -> v_p1 M = 0 -> v_p2 M = 0 ->
  rep w W -> rep h H -> rep_opar on o -> init_matrix on = Some mat -> rep3 p P -> showable Rectilinear (cam_coords o P) ->
  cx (cam_coords o P) <> 0 \/ cy (cam_coords o P) <> 0 ->
  exists cal, of_cv rms m dist w h = Some cal /\ rep2 (imageFromSpace (calibrated spline cal mat) p true) (cv_project M (cv_axes (cam_coords o P))).
Proof.
  intros (A1&A2&A3&A4&AD) F1 F2 P1 P2 RW RH HO HM Hp HS N.
  inversion AD as [|d1 r1 l1 s1 B1 AD1]; subst. inversion AD1 as [|d2 r2 l2 s2 B2 AD2]; subst. inversion AD2 as [|d3 r3 l3 s3 B3 AD3]; subst.
  inversion AD3 as [|d4 r4 l4 s4 B4 AD4]; subst. inversion AD4 as [|d5 r5 l5 s5 B5 AD5]; subst. inversion AD5; subst.
  eexists. split; [reflexivity|]. set (r := Proj (v_fx M) (v_fy M) (v_cx M) (v_cy M) W H).
  assert (HP : rep_proj (Proj (cx (cx m)) (cy (cy m)) (cz (cx m)) (cz (cy m)) w h) r) by (repeat split; assumption).
  replace (cv_project M) with (cv_project (cv_of r (v_k1 M) (v_k2 M) (v_k3 M))).
  - apply (C71_project spline _ r o d1 d2 d5 (v_k1 M) (v_k2 M) (v_k3 M) (Proj (cx (cx m)) (cy (cy m)) (cz (cx m)) (cz (cy m)) w h)); auto.
    exists (Proj (cx (cx m)) (cy (cy m)) (cz (cx m)) (cz (cy m)) w h), mat. split; [reflexivity|]. split; [exact HP|]. split; [split; assumption|eauto].
  - unfold cv_of. cbn [f_x f_y center_x center_y r]. rewrite <- P1 at 1. rewrite <- P2. destruct M. reflexivity.
Qed.
Print Assumptions C71_results.

(** The points of the pattern stand in the order in which findChessboardCorners gives the corners: row by row, nine in
    each. *)
Theorem C71_pattern columns rows : List.length (pattern columns rows) = (rows * columns)%nat /\
  forall i, (i < rows * columns)%nat -> nth_error (pattern columns rows) i = Some (i mod columns, i / columns, 0)%nat.
Proof.
  unfold pattern. assert (G : forall n s, let l := flat_map (fun b => map (fun a => (a, b, 0)%nat) (seq 0 columns)) (seq s n) in
    List.length l = (n * columns)%nat /\ forall i, (i < n * columns)%nat -> nth_error l i = Some (i mod columns, s + i / columns, 0)%nat).
  { induction n as [|n IH]; intros s; cbn [seq flat_map]; [split; [reflexivity|intros i Hi; lia]|].
    destruct (IH (S s)) as (L&E). split.
    - rewrite app_length, map_length, seq_length, L. reflexivity.
    - intros i Hi. destruct (Nat.lt_ge_cases i columns) as [A|A].
      + rewrite nth_error_app1 by (rewrite map_length, seq_length; exact A). rewrite (map_nth_error _ i _ (d := i)).
        * rewrite Nat.mod_small, Nat.div_small, Nat.add_0_r by exact A. reflexivity.
        * rewrite (nth_error_nth' _ 0%nat) by (rewrite seq_length; exact A). rewrite seq_nth by exact A. reflexivity.
      + rewrite nth_error_app2 by (rewrite map_length, seq_length; exact A). rewrite map_length, seq_length. rewrite E by (cbn in Hi; lia).
        assert (NZ : columns <> 0%nat) by (intros ->; lia).
        replace i with ((i - columns) + 1 * columns)%nat at 3 4 by lia. rewrite Nat.mod_add, Nat.div_add by exact NZ. do 3 f_equal. lia. }
  destruct (G rows 0%nat) as (L&E). split; [exact L|exact E].
Qed.
Print Assumptions C71_pattern.

(** ** What does not hold *)
(** A point on the optical axis: OpenCV shows it at the centre, this camera nowhere (0 / 0). *)
Theorem C71_axis_refuted : exists spline c r o k1 k2 k3 lp p P, lens_cam c Rectilinear r o (brown_lens spline k1 k2 k3 lp) /\ rep_proj lp r /\
  rep k1 0 /\ rep k2 0 /\ rep k3 0 /\ rep3 p P /\ showable Rectilinear (cam_coords o P) /\
  imageFromSpace c p true = nan2 /\ cv_project (cv_of r 0 0 0) (cv_axes (cam_coords o P)) = V2 (center_x r) (center_y r).
Proof.
  assert (H : rep_opar (opar_fin ex_or2) ex_or2) by (repeat split). destruct (init_rigid _ _ H) as (m&E&_).
  set (L := brown_lens (fun _ x => x) (Fin 0) (Fin 0) (Fin 0) (proj_fin ex_r)).
  exists (fun _ x => x), (lens_camera Rectilinear (proj_fin ex_r) m L), ex_r, ex_or2, (Fin 0), (Fin 0), (Fin 0), (proj_fin ex_r), (fin3 (V3 0 20 10)), (V3 0 20 10).
  assert (HC : lens_cam (lens_camera Rectilinear (proj_fin ex_r) m L) Rectilinear ex_r ex_or2 L).
  { exists (proj_fin ex_r), m. split; [reflexivity|]. split; [repeat split|]. split; [split; simpl; lra|eauto]. }
  assert (SH : showable Rectilinear (cam_coords ex_or2 (V3 0 20 10))) by (apply ex2_showable; lra).
  split; [exact HC|]. split; [repeat split|]. do 3 (split; [apply rep_Fin|]). split; [apply rep3_fin|]. split; [exact SH|]. split.
  - destruct (lens_good _ _ _ _ _ HC) as ((Hpr&HF&HR)&HK&HDi&_). unfold imageFromSpace. rewrite HDi, HK.
    apply (C18_centre_nan L (RLens 2000 1500 3500 3500)); [repeat split; simpl; lra|]. cbn [o_x o_y].
    assert (B : tinyR <= Rabs (cz (cam_coords ex_or2 (V3 0 20 10)))) by apply SH. assert (V : cz (cam_coords ex_or2 (V3 0 20 10)) < 0) by apply SH.
    assert (RC : rep3 (cameraFromSpace (cam_o (lens_camera Rectilinear (proj_fin ex_r) m L)) (fin3 (V3 0 20 10))) (cam_coords ex_or2 (V3 0 20 10)))
      by exact (rigid_camera _ _ _ _ _ HR (rep3_fin (V3 0 20 10))).
    eapply rep2_eq; [cbn [p_image]; apply rect_image_value; [exact Hpr|exact RC|exact B|exact (fun _ => V)]|].
    rewrite ex2_coords. unfold pin, ex_r. cbn [cx cy cz f_x f_y center_x center_y]. apply v2_ext; cbn [c1 c2]; field.
  - rewrite ex2_coords. unfold cv_project, cv_pixel, cv_distort, cv_axes, cv_of, ex_r. cbn [cx cy cz f_x f_y center_x center_y v_fx v_fy v_cx v_cy v_k1 v_k2 v_p1 v_p2 v_k3 c1 c2].
    apply v2_ext; cbn [c1 c2]; field.
Qed.
Print Assumptions C71_axis_refuted.
(** fitCalibration drops the tangential coefficients.  It asks for results without them (CALIB_ZERO_TANGENT_DIST, 314); with
    others the camera would project differently from the results. *)
Theorem C71_tangential_refuted : exists rms m dist M w h on o mat p P, rep_results m dist M /\ v_fx M <> 0 /\ v_fy M <> 0 /\
  rep_opar on o /\ init_matrix on = Some mat /\ rep3 p P /\ showable Rectilinear (cam_coords o P) /\ cx (cam_coords o P) <> 0 /\
  forall spline cal, of_cv rms m dist w h = Some cal -> ~ rep2 (imageFromSpace (calibrated spline cal mat) p true) (cv_project M (cv_axes (cam_coords o P))).
Proof.
  assert (H : rep_opar (opar_fin ex_or2) ex_or2) by (repeat split). destruct (init_rigid _ _ H) as (mat&E&_).
  set (m := V3 (V3 (Fin 3500) (Fin 0) (Fin 2000)) (V3 (Fin 0) (Fin 3500) (Fin 1500)) (V3 (Fin 0) (Fin 0) (Fin 1))).
  set (M := fun p2 => CV 3500 3500 2000 1500 0 0 0 p2 0).
  set (dist := fun p2 => [Fin 0; Fin 0; Fin 0; Fin p2; Fin 0]).
  assert (RR : forall p2, rep_results m (dist p2) (M p2)) by (intros p2; unfold rep_results, m, dist, M; cbn [cx cy cz v_fx v_fy v_cx v_cy v_k1 v_k2 v_p1 v_p2 v_k3]; repeat split; repeat constructor).
  assert (SH : showable Rectilinear (cam_coords ex_or2 (V3 20 20 10))) by (apply ex2_showable; lra).
  exists (Fin 0), m, (dist 1), (M 1), (Fin 4000), (Fin 3000), (opar_fin ex_or2), ex_or2, mat, (fin3 (V3 20 20 10)), (V3 20 20 10).
  split; [apply RR|]. split; [cbn; lra|]. split; [cbn; lra|]. split; [exact H|]. split; [exact E|]. split; [apply rep3_fin|]. split; [exact SH|].
  split; [rewrite ex2_coords; cbn [cx]; lra|]. intros spline cal EC X.
  destruct (C71_results spline (Fin 0) m (dist 0) (M 0) (Fin 4000) (Fin 3000) 4000 3000 (opar_fin ex_or2) ex_or2 mat (fin3 (V3 20 20 10)) (V3 20 20 10)) as (cal0&EC0&X0);
    auto; try (apply rep_Fin); try apply rep3_fin; try (cbn; lra); try (left; rewrite ex2_coords; cbn [cx]; lra).
  assert (cal0 = cal) by (unfold dist, of_cv in *; congruence). subst cal0.
  pose proof (f_equal c1 (rep2_inj _ _ _ X X0)) as Y. rewrite ex2_coords in Y.
  unfold cv_project, cv_pixel, cv_distort, cv_axes, M in Y. cbn [cx cy cz v_fx v_fy v_cx v_cy v_k1 v_k2 v_p1 v_p2 v_k3 c1 c2] in Y.
  field_simplify in Y; lra.
Qed.
Print Assumptions C71_tangential_refuted.

(** ** Examples *)
(** The camera of the window: a Brown lens with the coefficient 1 and a point 45 degrees to the right. *)
Example C71_example : exists c, lens_cam c Rectilinear ex_r ex_or2 (brown_lens (fun _ x => x) (Fin 1) (Fin 0) (Fin 0) (proj_fin ex_r)) /\
  showable Rectilinear (cam_coords ex_or2 (V3 20 20 10)) /\ cx (cam_coords ex_or2 (V3 20 20 10)) <> 0 /\
  rep2 (imageFromSpace c (fin3 (V3 20 20 10)) true) (V2 9000 1500).
Proof.
  assert (H : rep_opar (opar_fin ex_or2) ex_or2) by (repeat split). destruct (init_rigid _ _ H) as (m&E&_).
  set (L := brown_lens (fun _ x => x) (Fin 1) (Fin 0) (Fin 0) (proj_fin ex_r)).
  assert (HC : lens_cam (lens_camera Rectilinear (proj_fin ex_r) m L) Rectilinear ex_r ex_or2 L).
  { exists (proj_fin ex_r), m. split; [reflexivity|]. split; [repeat split|]. split; [split; simpl; lra|eauto]. }
  exists (lens_camera Rectilinear (proj_fin ex_r) m L). split; [exact HC|].
  assert (SH : showable Rectilinear (cam_coords ex_or2 (V3 20 20 10))) by (apply ex2_showable; lra). split; [exact SH|].
  assert (N : cx (cam_coords ex_or2 (V3 20 20 10)) <> 0) by (rewrite ex2_coords; cbn [cx]; lra). split; [exact N|].
  eapply rep2_eq; [apply (C71_project _ _ ex_r ex_or2 (Fin 1) (Fin 0) (Fin 0) 1 0 0 (proj_fin ex_r) _ (V3 20 20 10) HC); auto; try apply rep_Fin; try apply rep3_fin; repeat split|].
  rewrite ex2_coords. unfold cv_project, cv_pixel, cv_distort, cv_axes, cv_of, ex_r.
  cbn [cx cy cz f_x f_y center_x center_y v_fx v_fy v_cx v_cy v_k1 v_k2 v_p1 v_p2 v_k3 c1 c2]. apply v2_ext; cbn [c1 c2]; field.
Qed.
(** A small picture, three wide and two high, of such a camera. *)
Example C71_undistort_example : exists s im r, s_undist s = None /\
  lens_cam (s_cam s) Rectilinear r ex_or2 (brown_lens (fun _ x => x) (Fin 1) (Fin 0) (Fin 0) (proj_fin r)) /\
  im_width r = INR (im_w im) /\ im_height r = INR (im_h im) /\ (0 < im_w im)%nat /\ (0 < im_h im)%nat /\
  cv_source (cv_of r 1 0 0) (V2 (INR 2) (INR 1)) = V2 3 1 /\ V2 (INR 2) (INR 1) <> V2 (center_x r) (center_y r).
Proof.
  assert (H : rep_opar (opar_fin ex_or2) ex_or2) by (repeat split). destruct (init_rigid _ _ H) as (m&E&_).
  set (r := Proj 1 1 1 1 3 2). set (L := brown_lens (fun _ x => x) (Fin 1) (Fin 0) (Fin 0) (proj_fin r)).
  exists (State (lens_camera Rectilinear (proj_fin r) m L) (fun _ => Ext (Fin 0) (Fin 0) (Fin 0) (Fin 0)) None None), (Image 2 3 None (fun i j => [Fin (INR (i + j))])), r.
  cbn [s_undist s_cam im_w im_h im_width im_height r INR center_x center_y]. split; [reflexivity|]. split.
  { exists (proj_fin r), m. split; [reflexivity|]. split; [repeat split|]. split; [split; simpl; lra|eauto]. }
  split; [lra|]. split; [lra|]. split; [lia|]. split; [lia|]. split.
  - unfold cv_source, cv_pixel, cv_distort, cv_of. cbn [r f_x f_y center_x center_y v_fx v_fy v_cx v_cy v_k1 v_k2 v_p1 v_p2 v_k3 c1 c2]. apply v2_ext; cbn [c1 c2]; lra.
  - intros X. apply (f_equal c1) in X. cbn in X. lra.
Qed.
(** The camera of the examples of C36 has a Brown lens; nothing of it is frozen. *)
Open Scope nat_scope.
Example C71_applied_example : let h := floats (camq Brown) in
  reach h /\ full h /\ cam_at h 3 0 1 2 /\ proj_at h 0 Rectilinear /\ lens_at h 2 Brown /\ unfrozen h 0 /\
  (forall spline, exists cam, camera_in_use spline h 3 = Some cam) /\ get_num h 3 "focallength_x_px" = Some (litn (100#1)).
Proof.
  intros h. assert (HR : reach h) by (apply (cam_reach Brown []); [stand|vm]). split; [exact HR|]. split; [apply fullb_ok; [exact HR|vm]|].
  split; [vm_compute; eauto|]. split; [vm_compute; eauto|]. split; [vm_compute; eauto|].
  assert (U : unfrozen h 0).
  { intros b n Eb Hn. vm_compute in Eb. injection Eb as <-. cbn in Hn. repeat (destruct Hn as [<-|Hn]; [vm|]). destruct Hn. }
  split; [exact U|]. split.
  - intros spline. unfold h. rewrite (in_use_q spline _ 3 0 1 2 Rectilinear TiltHeading Brown) by vm.
    edestruct (brown_camera spline Rectilinear) as (m&l&EC&_);
      [| | | |rewrite EC]; [vals|vals|vals|vals|]. eexists; reflexivity.
  - unfold h. rewrite num_q. vm.
Qed.
