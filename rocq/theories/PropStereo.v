(** * C27, C54: two views of one point *)
Require Import Reals Lra Psatz Bool List.
From Verif Require Import Num Vec Trig Orientation OrientationFacts Projection ProjectionFacts
  Ray CameraTransform CameraFacts PropCamera RayFacts PropRay Stereo.
Import ListNotations.
Open Scope R_scope.

(** ** C27 *)
Lemma seen_direction c k r o p P hide normed : plain_cam c k r o -> rep3 p P ->
  showable k (cam_coords o P) ->
  exists Q D l, rep2 (imageFromSpace c p hide) Q /\
    rep3 (fst (getRay c (imageFromSpace c p hide) normed)) (opos o) /\
    rep3 (snd (getRay c (imageFromSpace c p hide) normed)) D /\ 0 < l /\
    (normed = true -> rnorm D = 1) /\ rv_sub P (opos o) = rv_scale l D.
Proof.
  intros HC Hp HS. destruct (plain_good _ _ _ _ HC) as (HG&HK&HDi&HU).
  destruct (ifs_spec c r (camM o) (opos o) p P hide HG Hp) as (x&Q&Ex&Rx&Hh&_&(l&Hl&E)).
  { rewrite HK; exact HS. }
  assert (Hq' : rep2 (cam_undist c (imageFromSpace c p hide)) Q) by (rewrite HU, Ex, HDi; auto).
  pose proof (direction_rep c r (camM o) (opos o) _ Q normed HG Hq' Hh) as HD.
  set (W := dirW c r (camM o) Q) in *.
  assert (WN : 0 < rnorm W) by (apply rnorm_pos; eapply dirW_nonzero; apply HG).
  exists Q, (if normed then rv_scale (/ rnorm W) W else W), (if normed then l * rnorm W else l).
  cbn [getRay fst snd]. splits; auto.
  - rewrite Ex, HDi; auto.
  - eapply origin_rep; eauto.
  - destruct normed; auto. nra.
  - intros ->. rewrite rnorm_scale, Rabs_right; [field; lra|]. apply Rle_ge, Rlt_le, Rinv_0_lt_compat; auto.
  - rewrite E. destruct normed; auto. apply v3_ext; simpl; field; lra.
Qed.

Lemma rcross_scale k l a b : rcross (rv_scale k a) (rv_scale l b) = rv_scale (k * l) (rcross a b).
Proof. apply v3_ext; simpl; ring. Qed.
Lemma rv_scale_0 k : rv_scale k rv0 = rv0.
Proof. apply v3_ext; simpl; ring. Qed.
Lemma line_back l D P T : rv_sub P T = rv_scale l D -> line_at T D l = P.
Proof.
  intros E. unfold line_at. rewrite <- E. apply v3_ext; simpl; ring.
Qed.

(** The images of a point seen by the first two cameras triangulate to the point. *)
Theorem C27_triangulation : forall a b rest ka kb ra rb oa ob p P,
  plain_cam a ka ra oa -> plain_cam b kb rb ob -> rep3 p P ->
  showable ka (cam_coords oa P) -> showable kb (cam_coords ob P) ->
  (* the point and the two camera positions are not on one line *)
  rcross (rv_sub P (opos oa)) (rv_sub P (opos ob)) <> rv0 ->
  exists q1 q2 qs x, imagesFromSpace (a :: b :: rest) p = q1 :: q2 :: qs /\
    spaceFromImages (a :: b :: rest) q1 q2 = Some x /\ rep3 x P.
Proof.
  intros a b rest ka kb ra rb oa ob p P Ha Hb Hp Sa Sb HN.
  do 4 eexists. split; [reflexivity|]. split; [reflexivity|]. cbv zeta.
  destruct (seen_direction a ka ra oa p P true false Ha Hp Sa) as (Q1&D1&l1&_&O1&R1&L1&_&E1).
  destruct (seen_direction b kb rb ob p P true false Hb Hp Sb) as (Q2&D2&l2&_&O2&R2&L2&_&E2).
  apply (C22_intersection _ _ _ _ (opos oa) D1 (opos ob) D2 P l1 l2); auto; try (apply line_back; auto).
  intros Z. apply HN. rewrite E1, E2, rcross_scale, Z. apply rv_scale_0.
Qed.
Print Assumptions C27_triangulation.

(** Collinear point: the triangulation gives nan. *)
Theorem C27_collinear_nan : forall a b rest ka kb ra rb oa ob p P,
  plain_cam a ka ra oa -> plain_cam b kb rb ob -> rep3 p P ->
  showable ka (cam_coords oa P) -> showable kb (cam_coords ob P) ->
  rcross (rv_sub P (opos oa)) (rv_sub P (opos ob)) = rv0 ->
  exists q1 q2 qs, imagesFromSpace (a :: b :: rest) p = q1 :: q2 :: qs /\
    spaceFromImages (a :: b :: rest) q1 q2 = Some nan3.
Proof.
  intros a b rest ka kb ra rb oa ob p P Ha Hb Hp Sa Sb HN.
  do 3 eexists. split; [reflexivity|]. unfold spaceFromImages, two. cbv zeta. f_equal.
  destruct (seen_direction a ka ra oa p P true false Ha Hp Sa) as (Q1&D1&l1&_&O1&R1&L1&_&E1).
  destruct (seen_direction b kb rb ob p P true false Hb Hp Sb) as (Q2&D2&l2&_&O2&R2&L2&_&E2).
  apply (C22_parallel_nan _ _ _ _ (opos oa) D1 (opos ob) D2); auto.
  rewrite E1, E2, rcross_scale in HN.
  assert (NZ : l1 * l2 <> 0) by nra.
  apply v3_ext; [apply (f_equal cx) in HN|apply (f_equal cy) in HN|apply (f_equal cz) in HN];
    cbn [rv_scale map3v rv0 cx cy cz] in *; apply Rmult_integral in HN; tauto.
Qed.
Print Assumptions C27_collinear_nan.

(** The distance of the two normed rays is 0 as soon as the sine of the angle between
    them is above the tolerance 1e-8 of np.isclose. *)
Theorem C27_ray_distance_zero : forall a b rest ka kb ra rb oa ob p P,
  plain_cam a ka ra oa -> plain_cam b kb rb ob -> rep3 p P ->
  showable ka (cam_coords oa P) -> showable kb (cam_coords ob P) ->
  close_tol * (rdist P (opos oa) * rdist P (opos ob)) <
    rnorm (rcross (rv_sub P (opos oa)) (rv_sub P (opos ob))) ->
  exists q1 q2 qs d, imagesFromSpace (a :: b :: rest) p = q1 :: q2 :: qs /\
    discanteBetweenRays (a :: b :: rest) q1 q2 = Some d /\ rep d 0.
Proof.
  intros a b rest ka kb ra rb oa ob p P Ha Hb Hp Sa Sb HN.
  do 4 eexists. split; [reflexivity|]. split; [reflexivity|]. cbv zeta.
  destruct (seen_direction a ka ra oa p P true true Ha Hp Sa) as (Q1&D1&l1&_&O1&R1&L1&N1&E1).
  destruct (seen_direction b kb rb ob p P true true Hb Hp Sb) as (Q2&D2&l2&_&O2&R2&L2&N2&E2).
  specialize (N1 eq_refl). specialize (N2 eq_refl).
  unfold rdist in HN. rewrite E1, E2, rcross_scale, !rnorm_scale, N1, N2 in HN.
  rewrite (Rabs_right l1), (Rabs_right l2), (Rabs_right (l1 * l2)) in HN; try nra.
  assert (LL : 0 < l1 * l2) by nra.
  destruct (C23_distance_of_lines _ _ _ _ _ _ _ _ O1 R1 O2 R2) as (d&Rd&MIN&s&t&ATT).
  { left. apply Rmult_lt_reg_l with (l1 * l2); auto. lra. }
  eapply rep_eq; [exact Rd|].
  pose proof (MIN l1 l2) as M. rewrite (line_back _ _ _ _ E1), (line_back _ _ _ _ E2) in M.
  unfold rdist in M at 1. replace (rv_sub P P) with rv0 in M by (apply v3_ext; simpl; ring).
  rewrite rnorm_rv0 in M. rewrite <- ATT in *.
  pose proof (rnorm_nonneg (rv_sub (line_at (opos oa) D1 s) (line_at (opos ob) D2 t))). unfold rdist in *. lra.
Qed.
Print Assumptions C27_ray_distance_zero.

(** Two cameras [s] metres apart, looking north. *)
Definition ex_at (s : R) : opar R := OPar 10 90 0 0 s 0.
Lemma ex_cam_at k s : exists c, plain_cam c k ex_r (ex_at s).
Proof.
  assert (H : rep_opar (opar_fin (ex_at s)) (ex_at s)) by (repeat split).
  destruct (init_rigid _ _ H) as (m&E&_).
  exists (plain_camera k (proj_fin ex_r) m), (proj_fin ex_r), m. splits; auto.
  - repeat split.
  - split; simpl; lra.
  - eauto.
Qed.
Lemma opos_at s : opos (ex_at s) = V3 s 0 10. Proof. reflexivity. Qed.
Lemma ex_at_coords s P : cam_coords (ex_at s) P = V3 (cx P - s) (cz P - 10) (- cy P).
Proof.
  unfold cam_coords, camM; cbn [tilt_deg roll_deg heading_deg ex_at].
  replace (rad 90) with (PI / 2) by (unfold rad; field). replace (rad 0) with 0 by (unfold rad; ring).
  apply v3_ext; cbv [rotm rm_mul_v rv_sub zip3v rdot opos pos_x_m pos_y_m elevation_m ex_at cx cy cz];
  rewrite ?sin_PI2, ?cos_PI2, ?sin_0, ?cos_0; ring.
Qed.
Lemma ex_at_showable k s P : 1 <= cy P -> showable k (cam_coords (ex_at s) P).
Proof.
  intros H. rewrite ex_at_coords. split; cbn [cz].
  - rewrite Rabs_Ropp, Rabs_right; [unfold tinyR; lra|lra].
  - destruct k; auto; lra.
Qed.
Example C27_example : exists a b, plain_cam a Rectilinear ex_r (ex_at 0) /\ plain_cam b Cylindrical ex_r (ex_at 1) /\
  exists q1 q2 qs x d, imagesFromSpace [a; b] (fin3 (V3 0 20 3)) = q1 :: q2 :: qs /\
    spaceFromImages [a; b] q1 q2 = Some x /\ rep3 x (V3 0 20 3) /\
    discanteBetweenRays [a; b] q1 q2 = Some d /\ rep d 0.
Proof.
  destruct (ex_cam_at Rectilinear 0) as (a&Ha), (ex_cam_at Cylindrical 1) as (b&Hb).
  exists a, b. splits; auto.
  assert (S : forall k s, showable k (cam_coords (ex_at s) (V3 0 20 3))) by (intros; apply ex_at_showable; simpl; lra).
  destruct (C27_triangulation a b [] _ _ _ _ _ _ _ _ Ha Hb (rep3_fin (V3 0 20 3)) (S _ _) (S _ _)) as (q1&q2&qs&x&E&X&Rx).
  { vring. intros H; injection H; lra. }
  destruct (C27_ray_distance_zero a b [] _ _ _ _ _ _ _ _ Ha Hb (rep3_fin (V3 0 20 3)) (S _ _) (S _ _)) as (q1'&q2'&qs'&d&E'&X'&Rd).
  { unfold rdist, rnorm. rewrite <- sqrt_mult; try apply rdot_self_nonneg.
    assert (P : 0 < close_tol) by (unfold close_tol; lra).
    rewrite <- (sqrt_square close_tol) by lra. rewrite <- sqrt_mult; [|nra|apply Rmult_le_pos; apply rdot_self_nonneg].
    apply sqrt_lt_1_alt. rewrite !opos_at; unfold close_tol. vring. lra. }
  rewrite E in E'. injection E' as <- <- <-. exists q1, q2, qs, x, d. splits; auto.
Qed.
(** The second camera stands 5 m behind the first one, the point straight ahead of both. *)
Definition ex_behind : opar R := OPar 10 90 0 0 0 (-5).
Example C27_collinear_nan_example : exists a b, plain_cam a Rectilinear ex_r (ex_at 0) /\ plain_cam b Rectilinear ex_r ex_behind /\
  exists q1 q2 qs, imagesFromSpace [a; b] (fin3 (V3 0 20 10)) = q1 :: q2 :: qs /\ spaceFromImages [a; b] q1 q2 = Some nan3.
Proof.
  destruct (ex_cam_at Rectilinear 0) as (a&Ha).
  assert (H : rep_opar (opar_fin ex_behind) ex_behind) by (repeat split).
  destruct (init_rigid _ _ H) as (m&E&_).
  assert (Hb : plain_cam (plain_camera Rectilinear (proj_fin ex_r) m) Rectilinear ex_r ex_behind).
  { exists (proj_fin ex_r), m. splits; auto; [repeat split|split; simpl; lra|eauto]. }
  exists a, (plain_camera Rectilinear (proj_fin ex_r) m). splits; auto.
  apply (C27_collinear_nan a _ [] _ _ _ _ _ _ _ (V3 0 20 10) Ha Hb (rep3_fin _)).
  - apply ex_at_showable. simpl; lra.
  - assert (C : cam_coords ex_behind (V3 0 20 10) = V3 0 0 (-25)).
    { unfold cam_coords, camM; cbn [tilt_deg roll_deg heading_deg ex_behind].
      replace (rad 90) with (PI / 2) by (unfold rad; field). replace (rad 0) with 0 by (unfold rad; ring).
      apply v3_ext; cbv [rotm rm_mul_v rv_sub zip3v rdot opos pos_x_m pos_y_m elevation_m ex_behind cx cy cz];
      rewrite ?sin_PI2, ?cos_PI2, ?sin_0, ?cos_0; ring. }
    rewrite C. split; cbn [cz]; [rewrite Rabs_left; unfold tinyR; lra|lra].
  - rewrite opos_at. unfold opos, ex_behind. apply v3_ext; vring; cbn [pos_x_m pos_y_m elevation_m]; ring.
Qed.

(** Below the tolerance the second camera's distance to the first ray is returned, although
    the rays meet: a point 1e9 m ahead of two cameras 1 m apart. *)
Theorem C27_ray_distance_refuted : exists a b P, plain_cam a Rectilinear ex_r (ex_at 0) /\
  plain_cam b Rectilinear ex_r (ex_at 1) /\
  showable Rectilinear (cam_coords (ex_at 0) P) /\ showable Rectilinear (cam_coords (ex_at 1) P) /\
  rcross (rv_sub P (opos (ex_at 0))) (rv_sub P (opos (ex_at 1))) <> rv0 /\
  exists q1 q2 d, imagesFromSpace [a; b] (fin3 P) = [q1; q2] /\
    discanteBetweenRays [a; b] q1 q2 = Some d /\ rep d 1.
Proof.
  destruct (ex_cam_at Rectilinear 0) as (a&Ha), (ex_cam_at Rectilinear 1) as (b&Hb).
  set (P := V3 0 1000000000 10). exists a, b, P.
  assert (S : forall s, showable Rectilinear (cam_coords (ex_at s) P)) by (intros; apply ex_at_showable; simpl; lra).
  splits; auto.
  { unfold P. vring. intros H; injection H; lra. }
  do 3 eexists. split; [reflexivity|]. split; [reflexivity|]. cbv zeta.
  destruct (seen_direction a _ _ _ (fin3 P) P true true Ha (rep3_fin P) (S 0)) as (Q1&D1&l1&_&O1&R1&L1&N1&E1).
  destruct (seen_direction b _ _ _ (fin3 P) P true true Hb (rep3_fin P) (S 1)) as (Q2&D2&l2&_&O2&R2&L2&N2&E2).
  specialize (N1 eq_refl). specialize (N2 eq_refl).
  assert (l1 = 1000000000).
  { apply (f_equal rnorm) in E1. rewrite rnorm_scale, N1, Rabs_right in E1 by lra.
    rewrite Rmult_1_r in E1. rewrite <- E1. unfold rnorm.
    rewrite <- (sqrt_square 1000000000) by lra. f_equal. rewrite ?opos_at; unfold P; vring; lra. }
  subst l1.
  assert (G2 : 1000000000 <= l2).
  { apply (f_equal rnorm) in E2. rewrite rnorm_scale, N2, Rabs_right in E2 by lra.
    rewrite Rmult_1_r in E2. rewrite <- E2. unfold rnorm.
    rewrite <- (sqrt_square 1000000000) by lra. apply sqrt_le_1_alt. rewrite ?opos_at; unfold P; vring; lra. }
  assert (D1E : D1 = V3 0 1 0).
  { rewrite opos_at in E1; unfold P in E1.
    pose proof (f_equal cx E1) as A1. pose proof (f_equal cy E1) as A2. pose proof (f_equal cz E1) as A3.
    cbn in A1, A2, A3. apply v3_ext; cbn [cx cy cz]; lra. }
  unfold distanceOfTwoLines1. cbv zeta.
  pose proof (rep3_sub _ _ _ _ O2 O1) as HP. pose proof (rep_norm _ _ (rep3_cross _ _ _ _ R1 R2)) as HN.
  assert (CL : rnorm (rcross D1 D2) <= close_tol).
  { subst D1. assert (X : rv_scale l2 (rcross (V3 0 1 0) D2) = V3 0 0 1).
    { transitivity (rcross (V3 0 1 0) (rv_scale l2 D2)); [apply v3_ext; simpl; ring|].
      rewrite <- E2. rewrite opos_at; unfold P; apply v3_ext; vring; ring. }
    apply (f_equal rnorm) in X. rewrite rnorm_scale, Rabs_right in X by lra.
    replace (rnorm (V3 0 0 1)) with 1 in X.
    2: { unfold rnorm. replace (rdot _ _) with 1 by (vring; ring). symmetry; apply sqrt_1. }
    pose proof (rnorm_nonneg (rcross (V3 0 1 0) D2)). unfold close_tol. nra. }
  rewrite (proj2 (isclose0_spec _ _ HN)); [|rewrite Rabs_right; [auto|apply Rle_ge, rnorm_nonneg]].
  pose proof (rep_norm _ _ R1) as H1.
  rewrite (isclose0_spec_f _ _ H1) by (rewrite N1, Rabs_R1; unfold close_tol; lra).
  eapply rep_eq; [apply rep_div; [apply rep_norm, rep3_cross; eassumption|eassumption|rewrite N1; lra]|].
  rewrite N1, D1E. rewrite !opos_at; unfold rnorm.
  replace (rdot _ _) with 1 by (vring; ring). rewrite sqrt_1. field.
Qed.
Print Assumptions C27_ray_distance_refuted.

(** ** C54 *)
Definition rdot2 (p q : v2 R) : R := c1 p * c1 q + c2 p * c2 q.
Definition rdist2 (p q : v2 R) : R := sqrt ((c1 p - c1 q) * (c1 p - c1 q) + (c2 p - c2 q) * (c2 p - c2 q)).
Definition line2 (A V : v2 R) (u : R) : v2 R := V2 (c1 A + u * c1 V) (c2 A + u * c2 V).

Lemma rdot2_pos V : V <> V2 0 0 -> 0 < rdot2 V V.
Proof.
  destruct V as [x y]. intros N. unfold rdot2; cbn [c1 c2].
  destruct (Req_dec x 0) as [->|]; [destruct (Req_dec y 0) as [->|]; [tauto|]|]; nra.
Qed.
(** The 2-D closest point is the foot of the perpendicular. *)
Lemma closest2_spec o v p O V P : rep2 o O -> rep2 v V -> rep2 p P -> V <> V2 0 0 ->
  exists u, rep2 (closest2 o v p) (line2 O V u) /\
    forall u', rdist2 (line2 O V u) P <= rdist2 (line2 O V u') P.
Proof.
  intros (O1&O2) (V1&W2) (P1&P2) NZ. pose proof (rdot2_pos _ NZ) as VV.
  set (n := sqrt (rdot2 V V)).
  assert (N : 0 < n) by (apply sqrt_lt_R0; auto).
  assert (NN : n * n = rdot2 V V) by (apply sqrt_sqrt; lra).
  set (k := (c1 V * (c1 P - c1 O) + c2 V * (c2 P - c2 O)) / rdot2 V V).
  exists k. split.
  - assert (HN : rep (nv_norm2 v) n).
    { unfold nv_norm2, n, rdot2. apply rep_sqrt; [rep_all|]. unfold rdot2 in VV. lra. }
    assert (KN : k * n * n = c1 V * (c1 P - c1 O) + c2 V * (c2 P - c2 O)).
    { rewrite Rmult_assoc, NN. unfold k. field. lra. }
    split; unfold closest2, nv2_add, nv2_sub, nv2_dot, zip2v, map2v; cbn [c1 c2 line2].
    + eapply rep_eq; [rep_all; lra|]. unfold line2; cbn [c1 c2].
      replace (_ * _ + _) with (k * n * n / n) by (rewrite KN; field; lra). field. lra.
    + eapply rep_eq; [rep_all; lra|]. unfold line2; cbn [c1 c2].
      replace (_ * _ + _) with (k * n * n / n) by (rewrite KN; field; lra). field. lra.
  - intros u'. apply sqrt_le_1_alt. unfold line2; cbn [c1 c2].
    assert (E : (c1 O + u' * c1 V - c1 P) * (c1 O + u' * c1 V - c1 P) + (c2 O + u' * c2 V - c2 P) * (c2 O + u' * c2 V - c2 P)
      = (c1 O + k * c1 V - c1 P) * (c1 O + k * c1 V - c1 P) + (c2 O + k * c2 V - c2 P) * (c2 O + k * c2 V - c2 P)
        + (u' - k) * (u' - k) * rdot2 V V + 2 * (u' - k) * (k * rdot2 V V - (c1 V * (c1 P - c1 O) + c2 V * (c2 P - c2 O)))).
    { unfold rdot2. ring. }
    replace (k * rdot2 V V) with (c1 V * (c1 P - c1 O) + c2 V * (c2 P - c2 O)) in E by (unfold k; field; lra).
    assert (0 <= (u' - k) * (u' - k) * rdot2 V V) by (apply Rmult_le_pos; [apply Rle_0_sqr|lra]). lra.
Qed.

(** Pinhole image of a camera-space point. *)
Definition pin (r : proj R) (C : v3 R) : v2 R :=
  V2 (- cx C * f_x r / cz C + center_x r) (cy C * f_y r / cz C + center_y r).
Lemma ifs_pin c r o p P : plain_cam c Rectilinear r o -> rep3 p P ->
  tinyR <= Rabs (cz (cam_coords o P)) -> rep2 (imageFromSpace c p false) (pin r (cam_coords o P)).
Proof.
  intros HC Hp HB. destruct (plain_good _ _ _ _ HC) as ((Hpr&_&HR)&HK&HDi&_).
  unfold imageFromSpace. rewrite HDi, HK. cbn [p_image].
  apply rect_image_value; auto; [|discriminate]. exact (rigid_camera _ _ _ _ _ HR Hp).
Qed.

Lemma cam_coords_line o T W s :
  cam_coords o (line_at T W s) = line_at (cam_coords o T) (rm_mul_v (camM o) W) s.
Proof. unfold cam_coords, line_at. apply v3_ext; cbv [rm_mul_v]; vring; ring. Qed.

(** Two points of a line that does not go through the camera have different images. *)
Lemma pins_differ rb oa ob W : f_x rb <> 0 -> f_y rb <> 0 -> let X s := line_at (opos oa) W s in
  cz (cam_coords ob (X 1)) <> 0 -> cz (cam_coords ob (X 2)) <> 0 -> rcross (rv_sub (opos oa) (opos ob)) W <> rv0 ->
  let A := pin rb (cam_coords ob (X 1)) in let B := pin rb (cam_coords ob (X 2)) in V2 (c1 B - c1 A) (c2 B - c2 A) <> V2 0 0.
Proof.
  intros FX FY X Z1 Z2 NC A B. set (V := V2 (c1 B - c1 A) (c2 B - c2 A)).
  intros E. apply NC.
    assert (E1 : c1 B = c1 A) by (apply (f_equal c1) in E; cbn [V c1] in E; lra).
    assert (E2 : c2 B = c2 A) by (apply (f_equal c2) in E; cbn [V c2] in E; lra).
    set (C1 := cam_coords ob (X 1)) in *. set (C2 := cam_coords ob (X 2)) in *.
    assert (K1 : cx C2 / cz C2 = cx C1 / cz C1).
    { cbn [A B pin c1] in E1. apply Rmult_eq_reg_l with (- f_x rb); [|lra].
      apply Rplus_eq_reg_r with (center_x rb). transitivity (- cx C2 * f_x rb / cz C2 + center_x rb); [field; auto|].
      rewrite E1. field; auto. }
    assert (K2 : cy C2 / cz C2 = cy C1 / cz C1).
    { cbn [A B pin c2] in E2. apply Rmult_eq_reg_l with (f_y rb); [|lra].
      apply Rplus_eq_reg_r with (center_y rb). transitivity (cy C2 * f_y rb / cz C2 + center_y rb); [field; auto|].
      rewrite E2. field; auto. }
    set (k := cz C2 / cz C1).
    assert (EK : C2 = rv_scale k C1).
    { apply v3_ext; cbn [rv_scale map3v cx cy cz]; unfold k.
      - transitivity (cz C2 * (cx C2 / cz C2)); [field; auto|]. rewrite K1. field; auto.
      - transitivity (cz C2 * (cy C2 / cz C2)); [field; auto|]. rewrite K2. field; auto.
      - field; auto. }
    assert (OR : orthonormal (rm_trans (camM ob))) by apply rotm_cols.
    assert (G : rv_sub (X 2) (opos ob) = rv_scale k (rv_sub (X 1) (opos ob))).
    { rewrite <- (trans_mul (camM ob) (rv_sub (X 2) (opos ob)) OR).
      rewrite <- (trans_mul (camM ob) (rv_sub (X 1) (opos ob)) OR), <- rm_mul_v_scale. f_equal. exact EK. }
    clearbody k. clear - G. unfold X, line_at in G.
    set (t := rv_sub (opos oa) (opos ob)).
    assert (GX : (1 - k) * cx t = (k - 2) * cx W) by (apply (f_equal cx) in G; unfold t; cbn in *; lra).
    assert (GY : (1 - k) * cy t = (k - 2) * cy W) by (apply (f_equal cy) in G; unfold t; cbn in *; lra).
    assert (GZ : (1 - k) * cz t = (k - 2) * cz W) by (apply (f_equal cz) in G; unfold t; cbn in *; lra).
    clearbody t. clear G.
    assert (Q : forall p q r s : R, (1 - k) * p = (k - 2) * q -> (1 - k) * r = (k - 2) * s -> p * s - r * q = 0).
    { intros p q r s H1 H2. destruct (Req_dec k 1) as [->|N].
      - assert (q = 0) by lra. assert (s = 0) by lra. subst. ring.
      - apply Rmult_eq_reg_l with (1 - k); [|lra].
        transitivity ((1 - k) * p * s - (1 - k) * r * q); [ring|]. rewrite H1, H2. ring. }
    apply v3_ext; cbn [rcross rv0 cx cy cz];
      [rewrite <- (Q (cy t) (cy W) (cz t) (cz W))|rewrite <- (Q (cz t) (cz W) (cx t) (cx W))
      |rewrite <- (Q (cx t) (cx W) (cy t) (cy W))]; auto; ring.
Qed.

(** pointCorrespondenceError, one direction: the first camera's ray has origin [opos oa]
    and direction [W]; the result is the distance of the pixel in the second (rectilinear)
    image from a straight line which contains the image of every point of the ray. *)
Theorem C54_epipolar_distance : forall a b ka ra rb oa ob qa QA qb QB W,
  plain_cam a ka ra oa -> plain_cam b Rectilinear rb ob -> rep2 qa QA -> in_range ka ra QA -> rep2 qb QB ->
  rep3 (snd (getRay a qa false)) W ->
  let X s := line_at (opos oa) W s in
  (* the two sampled points of the ray have a projection *)
  tinyR <= Rabs (cz (cam_coords ob (X 1))) -> tinyR <= Rabs (cz (cam_coords ob (X 2))) ->
  (* the second camera is not on the ray's line *)
  rcross (rv_sub (opos oa) (opos ob)) W <> rv0 ->
  exists A V d, V <> V2 0 0 /\
    (forall x s, rep3 x (X s) -> tinyR <= Rabs (cz (cam_coords ob (X s))) ->
       exists u, rep2 (imageFromSpace b x false) (line2 A V u)) /\
    rep (epipolar_distance a b qa qb) d /\
    (forall u, d <= rdist2 (line2 A V u) QB) /\ exists u, rdist2 (line2 A V u) QB = d.
Proof.
  intros a b ka ra rb oa ob qa QA qb QB W Ha Hb Hqa HI Hqb HW X B1 B2 NC.
  assert (HO : rep3 (fst (getRay a qa false)) (opos oa)).
  { destruct (plain_good _ _ _ _ Ha) as (HG&_). cbn [getRay fst]. eapply origin_rep; eauto. }
  set (x1 := nv_add (fst (getRay a qa false)) (nv_scale (Fin 1) (snd (getRay a qa false)))).
  set (x2 := nv_add (fst (getRay a qa false)) (nv_scale (Fin 2) (snd (getRay a qa false)))).
  assert (R1 : rep3 x1 (X 1)) by (apply rep3_add; auto; apply rep3_scale; auto; apply rep_Fin).
  assert (R2 : rep3 x2 (X 2)) by (apply rep3_add; auto; apply rep3_scale; auto; apply rep_Fin).
  pose proof (ifs_pin _ _ _ _ _ Hb R1 B1) as I1. pose proof (ifs_pin _ _ _ _ _ Hb R2 B2) as I2.
  pose proof (big_nz _ B1) as Z1. pose proof (big_nz _ B2) as Z2.
  set (A := pin rb (cam_coords ob (X 1))) in *. set (B := pin rb (cam_coords ob (X 2))) in *.
  set (V := V2 (c1 B - c1 A) (c2 B - c2 A)).
  assert (FO : f_x rb <> 0 /\ f_y rb <> 0).
  { destruct (plain_good _ _ _ _ Hb) as ((_&F&_)&_). exact F. }
  destruct FO as (FX&FY).
  set (a0 := cam_coords ob (opos oa)). set (w := rm_mul_v (camM ob) W).
  assert (CX : forall s, cam_coords ob (X s) = line_at a0 w s) by (intros; apply cam_coords_line).
  assert (NV : V <> V2 0 0) by (apply (pins_differ rb oa ob W); auto).
  assert (RV : rep2 (nv2_sub (imageFromSpace b x2 false) (imageFromSpace b x1 false)) V).
  { destruct I1, I2. split; cbn [nv2_sub zip2v c1 c2 V]; apply rep_sub; auto. }
  destruct (closest2_spec _ _ _ _ _ _ I1 RV Hqb NV) as (u&RU&MIN).
  exists A, V, (rdist2 (line2 A V u) QB). splits; auto.
  - intros x s Hx HB. pose proof (ifs_pin _ _ _ _ _ Hb Hx HB) as I. pose proof (big_nz _ HB) as Z.
    rewrite CX in Z1, Z2, Z. exists ((s - 1) * cz (cam_coords ob (X 2)) / cz (cam_coords ob (X s))).
    eapply rep2_eq; [exact I|]. unfold V, A, B. rewrite !CX.
    cbn [line_at rv_add zip3v rv_scale map3v cx cy cz] in Z, Z1, Z2.
    unfold line2, pin, line_at. cbn [rv_add zip3v rv_scale map3v cx cy cz c1 c2].
    f_equal; field; splits; intros Y; first [apply Z; rewrite <- Y; ring|apply Z1; rewrite <- Y; ring|apply Z2; rewrite <- Y; ring].
  - change (epipolar_distance a b qa qb) with (nv_norm2 (nv2_sub (closest2 (imageFromSpace b x1 false)
      (nv2_sub (imageFromSpace b x2 false) (imageFromSpace b x1 false)) qb) qb)).
    destruct RU as (U1&U2), Hqb as (Q1&Q2). unfold nv_norm2, rdist2. cbn [nv2_sub zip2v c1 c2].
    apply rep_sqrt; [rep_all|]. apply Rplus_le_le_0_compat; apply Rle_0_sqr.
  - exists u; reflexivity.
Qed.
Print Assumptions C54_epipolar_distance.

Lemma rdist2_0 p : rdist2 p p = 0.
Proof. unfold rdist2. replace (_ + _) with 0 by ring. apply sqrt_0. Qed.

(** The two samples of the other camera's ray are in front of or behind, not beside, a
    camera at [ob]. *)
Definition sampled (ob : opar R) (T W : v3 R) : Prop :=
  tinyR <= Rabs (cz (cam_coords ob (line_at T W 1))) /\ tinyR <= Rabs (cz (cam_coords ob (line_at T W 2))).

(** One direction of the error is zero for corresponding points. *)
Lemma epipolar_zero a b ka ra rb oa ob p P W :
  plain_cam a ka ra oa -> plain_cam b Rectilinear rb ob -> rep3 p P ->
  showable ka (cam_coords oa P) -> showable Rectilinear (cam_coords ob P) ->
  (forall Q, rep2 (imageFromSpace a p true) Q -> in_range ka ra Q) ->
  rep3 (snd (getRay a (imageFromSpace a p true) false)) W -> sampled ob (opos oa) W ->
  rcross (rv_sub P (opos oa)) (rv_sub P (opos ob)) <> rv0 ->
  rep (epipolar_distance a b (imageFromSpace a p true) (imageFromSpace b p true)) 0.
Proof.
  intros Ha Hb Hp Sa Sb HI HW (B1&B2) NC.
  destruct (seen_direction a ka ra oa p P true false Ha Hp Sa) as (Q1&D1&l1&I1&O1&R1&L1&_&E1).
  destruct (seen_direction b _ rb ob p P true false Hb Hp Sb) as (Q2&D2&l2&I2&_).
  pose proof (rep3_inj _ _ _ HW R1) as <-.
  destruct (C54_epipolar_distance a b ka ra rb oa ob _ Q1 _ Q2 W Ha Hb I1 (HI _ I1) I2 HW B1 B2) as (A&V&d&_&ON&Rd&MIN&u&ATT).
  { intros Z. apply NC. rewrite E1. replace (rv_sub P (opos ob)) with (rv_add (rv_sub (opos oa) (opos ob)) (rv_scale l1 W)).
    - transitivity (rv_scale (- l1) (rcross (rv_sub (opos oa) (opos ob)) W)); [apply v3_ext; vring; ring|].
      rewrite Z. apply rv_scale_0.
    - rewrite <- E1. apply v3_ext; vring; ring. }
  eapply rep_eq; [exact Rd|].
  assert (EP : line_at (opos oa) W l1 = P) by (apply line_back; auto).
  destruct (ON p l1) as (u'&RU).
  { rewrite EP; auto. }
  { rewrite EP. apply Sb. }
  assert (EI : rep2 (imageFromSpace b p false) Q2).
  { destruct Sb as (SB&SF). pose proof (ifs_pin _ _ _ _ _ Hb Hp SB) as PF.
    assert (PT : rep2 (imageFromSpace b p true) (pin rb (cam_coords ob P))).
    { destruct (plain_good _ _ _ _ Hb) as ((Hpr&_&HR)&HK&HDi&_).
      unfold imageFromSpace. rewrite HDi, HK. cbn [p_image].
      apply rect_image_value; auto. exact (rigid_camera _ _ _ _ _ HR Hp). }
    pose proof (rep2_inj _ _ _ I2 PT) as ->. auto. }
  pose proof (rep2_inj _ _ _ RU EI) as E. pose proof (MIN u') as M. rewrite E, rdist2_0 in M.
  assert (0 <= d) by (rewrite <- ATT; apply sqrt_pos). lra.
Qed.

(** Both errors are 0 for the two images of one space point, in general position. *)
Theorem C54_error_zero : forall a b rest ra rb oa ob p P Wa Wb,
  plain_cam a Rectilinear ra oa -> plain_cam b Rectilinear rb ob -> rep3 p P ->
  showable Rectilinear (cam_coords oa P) -> showable Rectilinear (cam_coords ob P) ->
  rep3 (snd (getRay a (imageFromSpace a p true) false)) Wa -> sampled ob (opos oa) Wa ->
  rep3 (snd (getRay b (imageFromSpace b p true) false)) Wb -> sampled oa (opos ob) Wb ->
  rcross (rv_sub P (opos oa)) (rv_sub P (opos ob)) <> rv0 ->
  exists q1 q2 qs e1 e2, imagesFromSpace (a :: b :: rest) p = q1 :: q2 :: qs /\
    pointCorrespondenceError (a :: b :: rest) q1 q2 = Some (e1, e2) /\ rep e1 0 /\ rep e2 0.
Proof.
  intros a b rest ra rb oa ob p P Wa Wb Ha Hb Hp Sa Sb HWa SPa HWb SPb NC.
  do 5 eexists. split; [reflexivity|]. split; [reflexivity|]. split.
  - apply (epipolar_zero a b Rectilinear ra rb oa ob p P Wa); auto. intros; exact I.
  - apply (epipolar_zero b a Rectilinear rb ra ob oa p P Wb); auto; [intros; exact I|].
    intros Z. apply NC. transitivity (rv_scale (-1) (rcross (rv_sub P (opos ob)) (rv_sub P (opos oa)))); [apply v3_ext; vring; ring|].
    rewrite Z. apply rv_scale_0.
Qed.
Print Assumptions C54_error_zero.

(** Rays of the example cameras. *)
Lemma ex_at_ray c k s q Q D : plain_cam c k ex_r (ex_at s) -> rep2 q Q -> in_range k ex_r Q ->
  rayR k ex_r Q = D -> rep3 (snd (getRay c q false)) (V3 (cx D) (- cz D) (cy D)).
Proof.
  intros HC Hq HI HD.
  destruct (C11_ray_starts_at_camera _ _ _ _ q Q HC Hq) as (W&_&RW&_&E).
  { intros ->. apply in_range_has_ray in HI. exact HI. }
  rewrite HD, ex_at_coords, opos_at in E. eapply rep3_eq; [exact RW|].
  subst D. clear HI. destruct W as [wx wy wz], (rayR k ex_r Q) as [dx dy dz].
  injection E as E1 E2 E3. apply v3_ext; cbn in *; lra.
Qed.
Lemma image_dir c k r o p P Q hide : plain_cam c k r o -> rep3 p P ->
  showable k (cam_coords o P) -> in_range k r Q -> posmul (cam_coords o P) (rayR k r Q) ->
  rep2 (imageFromSpace c p hide) Q.
Proof.
  intros HC Hp HS HI HM. destruct (plain_good _ _ _ _ HC) as ((Hpr&HF&HR)&HK&HDi&_).
  unfold imageFromSpace. rewrite HDi, HK.
  eapply p_image_of_ray; eauto. exact (rigid_camera _ _ _ _ _ HR Hp).
Qed.

Example C54_example : exists a b q1 q2 qs e1 e2,
  imagesFromSpace [a; b] (fin3 (V3 0 20 30)) = q1 :: q2 :: qs /\
  pointCorrespondenceError [a; b] q1 q2 = Some (e1, e2) /\ rep e1 0 /\ rep e2 0.
Proof.
  destruct (ex_cam_at Rectilinear 0) as (a&Ha), (ex_cam_at Rectilinear 1) as (b&Hb).
  exists a, b. set (P := V3 0 20 30).
  assert (S : forall s, showable Rectilinear (cam_coords (ex_at s) P)) by (intros; apply ex_at_showable; simpl; lra).
  assert (I : forall c s, plain_cam c Rectilinear ex_r (ex_at s) ->
    rep3 (snd (getRay c (imageFromSpace c (fin3 P) true) false)) (V3 (- s / 20) 1 1)).
  { intros c s HC. set (Q := V2 (2000 + 3500 * (- s / 20)) (1500 - 3500)).
    assert (RQ : rep2 (imageFromSpace c (fin3 P) true) Q).
    { apply (image_dir c Rectilinear ex_r (ex_at s) _ P); auto using rep3_fin.
      - exact Logic.I.
      - rewrite ex_at_coords. exists 20; split; [lra|]. unfold P, Q. apply v3_ext; cbn; unfold alphaR, betaR; cbn; field. }
    eapply rep3_eq; [apply (ex_at_ray c Rectilinear s _ Q _ HC RQ Logic.I eq_refl)|].
    unfold Q. apply v3_ext; cbn; unfold alphaR, betaR; cbn; field. }
  apply (C54_error_zero a b [] ex_r ex_r (ex_at 0) (ex_at 1) (fin3 P) P (V3 (- 0 / 20) 1 1) (V3 (Ropp 1 / 20) 1 1));
    auto using rep3_fin.
  - unfold sampled. rewrite !ex_at_coords. split; cbn; rewrite Rabs_Ropp, Rabs_right; unfold tinyR; lra.
  - unfold sampled. rewrite !ex_at_coords. split; cbn; rewrite Rabs_Ropp, Rabs_right; unfold tinyR; lra.
  - rewrite !opos_at. unfold P. vring. intros H; injection H; lra.
Qed.

(** The cosine is strictly concave: no three points of its graph on (0, pi/2) are on one line. *)
Lemma cos_not_collinear x y z u : 0 <= x -> x < y -> y < z -> z <= PI / 2 ->
  x - z = u * (y - z) -> cos x - cos z = u * (cos y - cos z) -> False.
Proof.
  intros H0 H1 H2 H3 E F.
  assert (DC : forall c, derivable_pt_lim cos c (- sin c)) by apply derivable_pt_lim_cos.
  destruct (MVT_cor2 cos (fun c => - sin c) x y H1 (fun c _ => DC c)) as (a&A1&A2).
  destruct (MVT_cor2 cos (fun c => - sin c) y z H2 (fun c _ => DC c)) as (b&B1&B2).
  assert (sin a < sin b) by (apply sin_increasing_1; lra).
  assert (U : u = (x - z) / (y - z)) by (rewrite E; field; lra).
  assert (G : (cos x - cos z) * (y - z) = (x - z) * (cos y - cos z)).
  { rewrite F, U. field; lra. }
  replace (cos x - cos z) with (- (cos y - cos x) - (cos z - cos y)) in G by ring.
  replace (cos y - cos z) with (- (cos z - cos y)) in G by ring.
  rewrite A1, B1 in G. assert (0 < (y - x) * (z - y)) by nra. nra.
Qed.

(** With panorama cameras the ray's image is not a straight line: corresponding points of
    one space point have a non-zero error. *)
Theorem C54_panorama_refuted : exists a b q1 q2 qs e1 e2 d,
  plain_cam a Cylindrical ex_r (ex_at 0) /\ plain_cam b Cylindrical ex_r (ex_at 1) /\
  imagesFromSpace [a; b] (fin3 (V3 0 3 13)) = q1 :: q2 :: qs /\
  pointCorrespondenceError [a; b] q1 q2 = Some (e1, e2) /\ rep e1 d /\ d <> 0.
Proof.
  destruct (ex_cam_at Cylindrical 0) as (a&Ha), (ex_cam_at Cylindrical 1) as (b&Hb).
  set (P := V3 0 3 13). set (qa := imageFromSpace a (fin3 P) true). set (qb := imageFromSpace b (fin3 P) true).
  set (th := fun s => atan (/ s)).
  set (Qs := fun s => V2 (2000 - 3500 * th s) (1500 - 3500 * cos (th s))).
  assert (IB : forall x s hide, 0 < s -> 1 <= s -> rep3 x (V3 0 s (10 + s)) -> rep2 (imageFromSpace b x hide) (Qs s)).
  { intros x s hide H1 H2 Hx. apply (image_dir b Cylindrical ex_r (ex_at 1) _ (V3 0 s (10 + s))); auto.
    - apply ex_at_showable; auto.
    - unfold in_range, alphaR, Qs, th; cbn. pose proof (atan_bound (/ s)). lra.
    - rewrite ex_at_coords.
      assert (SQ : sqrt (1 + / s * / s) = sqrt (1 + s * s) / s).
      { apply Rmult_eq_reg_r with s; [|lra]. replace (sqrt (1 + s * s) / s * s) with (sqrt (1 + s * s)) by (field; lra).
        rewrite <- (sqrt_square s) at 3 by lra. rewrite <- sqrt_mult_alt; [|assert (0 <= / s * / s) by (apply Rle_0_sqr); lra].
        f_equal. field; lra. }
      assert (SP : 0 < sqrt (1 + s * s)) by (apply sqrt_lt_R0; nra).
      exists (sqrt (1 + s * s)). split; auto.
      unfold Qs, th, rayR, alphaR, betaR; cbn [c1 c2 ex_r f_x f_y center_x center_y].
      replace ((2000 - 3500 * atan (/ s) - 2000) / 3500) with (- atan (/ s)) by field.
      rewrite sin_neg, cos_neg, sin_atan, !cos_atan, SQ.
      apply v3_ext; cbn [rv_scale map3v cx cy cz]; field; split; lra. }
  assert (RA : rep2 qa (V2 2000 (1500 - 3500))).
  { apply (image_dir a Cylindrical ex_r (ex_at 0) _ P); auto using rep3_fin.
    - apply ex_at_showable; cbn; lra.
    - unfold in_range, alphaR; cbn. replace ((2000 - 2000) / 3500) with 0 by field. pose proof PI_RGT_0; lra.
    - rewrite ex_at_coords. exists 3; split; [lra|]. unfold rayR, alphaR, betaR; cbn [c1 c2 ex_r f_x f_y center_x center_y].
      replace ((2000 - 2000) / 3500) with 0 by field. rewrite sin_0, cos_0. unfold P; apply v3_ext; cbn; field. }
  assert (RW : rep3 (snd (getRay a qa false)) (V3 0 1 1)).
  { eapply rep3_eq; [eapply (ex_at_ray a Cylindrical 0 _ _ _ Ha RA); [|reflexivity]|].
    - unfold in_range, alphaR; cbn. replace ((2000 - 2000) / 3500) with 0 by field. pose proof PI_RGT_0; lra.
    - unfold rayR, alphaR, betaR; cbn [c1 c2 ex_r f_x f_y center_x center_y].
      replace ((2000 - 2000) / 3500) with 0 by field. rewrite sin_0, cos_0. apply v3_ext; cbn; field. }
  assert (RO : rep3 (fst (getRay a qa false)) (V3 0 0 10)).
  { destruct (plain_good _ _ _ _ Ha) as (HG&_). cbn [getRay fst]. exact (origin_rep _ _ _ _ HG). }
  set (x1 := nv_add (fst (getRay a qa false)) (nv_scale (Fin 1) (snd (getRay a qa false)))).
  set (x2 := nv_add (fst (getRay a qa false)) (nv_scale (Fin 2) (snd (getRay a qa false)))).
  assert (R1 : rep3 x1 (V3 0 1 (10 + 1))).
  { eapply rep3_eq; [apply rep3_add; [exact RO|apply rep3_scale; [apply rep_Fin|exact RW]]|]. apply v3_ext; cbn; ring. }
  assert (R2 : rep3 x2 (V3 0 2 (10 + 2))).
  { eapply rep3_eq; [apply rep3_add; [exact RO|apply rep3_scale; [apply rep_Fin|exact RW]]|]. apply v3_ext; cbn; ring. }
  assert (R3 : rep3 (fin3 P) (V3 0 3 (10 + 3))).
  { eapply rep3_eq; [apply rep3_fin|]. unfold P; apply v3_ext; cbn; ring. }
  pose proof (IB x1 1 false ltac:(lra) ltac:(lra) R1) as I1. pose proof (IB x2 2 false ltac:(lra) ltac:(lra) R2) as I2.
  pose proof (IB (fin3 P) 3 true ltac:(lra) ltac:(lra) R3) as I3.
  set (V := V2 (c1 (Qs 2) - c1 (Qs 1)) (c2 (Qs 2) - c2 (Qs 1))).
  assert (RV : rep2 (nv2_sub (imageFromSpace b x2 false) (imageFromSpace b x1 false)) V).
  { destruct I1, I2. split; cbn [nv2_sub zip2v c1 c2 V]; apply rep_sub; auto. }
  assert (T21 : th 2 < th 1) by (apply atan_increasing; lra).
  assert (T32 : th 3 < th 2) by (apply atan_increasing; lra).
  assert (T0 : 0 < th 3) by (unfold th; rewrite <- atan_0; apply atan_increasing; lra).
  assert (TP : th 1 <= PI / 2) by (unfold th; pose proof (atan_bound (/ 1)); lra).
  assert (NV : V <> V2 0 0).
  { intros E. apply (f_equal c1) in E. cbn [V Qs c1] in E. lra. }
  destruct (closest2_spec _ _ _ _ _ _ I1 RV I3 NV) as (u&RU&_).
  exists a, b, qa, qb, []. do 2 eexists. exists (rdist2 (line2 (Qs 1) V u) (Qs 3)).
  splits; auto; [reflexivity| |].
  - change (epipolar_distance a b qa qb) with (nv_norm2 (nv2_sub (closest2 (imageFromSpace b x1 false)
      (nv2_sub (imageFromSpace b x2 false) (imageFromSpace b x1 false)) qb) qb)).
    destruct RU as (U1&U2), I3 as (Q1&Q2). unfold nv_norm2, rdist2. cbn [nv2_sub zip2v c1 c2].
    apply rep_sqrt; [rep_all|]. apply Rplus_le_le_0_compat; apply Rle_0_sqr.
  - intros Z. unfold rdist2 in Z. apply sqrt_eq_0 in Z; [|apply Rplus_le_le_0_compat; apply Rle_0_sqr].
    apply Rplus_sqr_eq_0 in Z. destruct Z as (Z1&Z2).
    unfold line2 in Z1, Z2. cbn [V Qs c1 c2] in Z1, Z2.
    apply (cos_not_collinear (th 3) (th 2) (th 1) u); lra.
Qed.
Print Assumptions C54_panorama_refuted.
