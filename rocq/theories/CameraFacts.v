(** * Proofs about the camera transforms *)
Require Import Reals Lra Psatz Bool List.
From Verif Require Import Num Vec Trig Orientation OrientationFacts Projection ProjectionFacts Ray CameraTransform.
Import ListNotations.
Open Scope R_scope.

(** A camera with finite parameters: [r] projection parameters, [M] orthonormal matrix,
    [T] position. *)
Definition good_cam (c : camera) (r : proj R) (M : m3 R) (T : v3 R) : Prop :=
  rep_proj (cam_proj c) r /\ foc_ok r /\ rigid (cam_o c) M T.

(** Direction of a pixel (already undistorted) in space. *)
Definition dirW (c : camera) (r : proj R) (M : m3 R) (Q : v2 R) : v3 R :=
  rm_mul_v (rm_trans M) (rayR (cam_kind c) r Q).

Lemma origin_rep c r M T : good_cam c r M T -> rep3 (ray_origin c) T.
Proof.
  intros (_&_&HR). unfold ray_origin.
  eapply rep3_eq; [eapply rigid_space; [exact HR|apply (rep3_fin rv0)]|].
  apply v3_ext; cbv [rm_mul_v rm_trans rv_add zip3v rdot rv0 cx cy cz]; ring.
Qed.

Lemma direction_rep c r M T q Q normed : good_cam c r M T ->
  rep2 (cam_undist c q) Q -> has_ray (cam_kind c) r Q ->
  rep3 (ray_direction c q normed)
    (if normed then rv_scale (/ rnorm (dirW c r M Q)) (dirW c r M Q) else dirW c r M Q).
Proof.
  intros (Hp&Hf&HR) Hq Hh. unfold ray_direction.
  eapply rep3_eq; [eapply rigid_space_dir; [exact HR|]|].
  - apply (p_getRay_spec (cam_kind c) _ r _ Q normed Hp Hf Hq Hh).
  - destruct normed; auto. rewrite rm_mul_v_scale. unfold dirW. f_equal. f_equal.
    unfold rnorm. rewrite orthonormal_dot; auto. apply HR.
Qed.

Lemma dirW_back c r M T Q o : rigid o M T -> rm_mul_v M (dirW c r M Q) = rayR (cam_kind c) r Q.
Proof. intros H. unfold dirW. apply mul_trans. apply H. Qed.
Lemma dirW_nonzero c r M T Q o : rigid o M T -> dirW c r M Q <> rv0.
Proof.
  intros H E. apply (rayR_nonzero (cam_kind c) r Q). rewrite <- (dirW_back c r M T Q o H), E.
  apply v3_ext; cbv [rm_mul_v rdot rv0 cx cy cz]; ring.
Qed.

Lemma line_point T k d : rv_add (rv_scale k d) T = rv_add T (rv_scale k d).
Proof. apply v3_ext; simpl; ring. Qed.

(** spaceFromImage with an axis constraint, direction component non-zero. *)
Definition on_axis (i : axis3) (g : num) : constr :=
  match i with AX => on_X g | AY => on_Y g | AZ => on_Z g end.

Lemma sfi_axis_unfold c q i g :
  spaceFromImage c q (on_axis i g) =
  let factor := ((g - get_axis i (ray_origin c)) / get_axis i (ray_direction c q false))%num in
  Some (if (factor <? Fin 0)%num then nan3
        else nv_add (nv_scale factor (ray_direction c q false)) (ray_origin c)).
Proof. destruct i; reflexivity. Qed.

Lemma get_axis_rep i x a : rep3 x a -> rep (get_axis i x) (get_axis i a).
Proof. intros (?&?&?); destruct i; auto. Qed.

Lemma sfi_axis c r M T q Q i g G : good_cam c r M T ->
  rep2 (cam_undist c q) Q -> has_ray (cam_kind c) r Q -> rep g G ->
  get_axis i (dirW c r M Q) <> 0 ->
  let f := (G - get_axis i T) / get_axis i (dirW c r M Q) in
  (f < 0 -> spaceFromImage c q (on_axis i g) = Some nan3) /\
  (0 <= f -> exists p, spaceFromImage c q (on_axis i g) = Some p /\
       rep3 p (rv_add T (rv_scale f (dirW c r M Q)))).
Proof.
  intros HC Hq Hh Hg Hnz f.
  pose proof (origin_rep _ _ _ _ HC) as HO.
  pose proof (direction_rep _ _ _ _ _ _ false HC Hq Hh) as HD. cbv iota in HD.
  rewrite sfi_axis_unfold. cbv zeta.
  assert (HF : rep ((g - get_axis i (ray_origin c)) / get_axis i (ray_direction c q false))%num f).
  { apply rep_div; auto; [apply rep_sub; auto|]; apply get_axis_rep; auto. }
  rewrite (rep_ltb _ _ _ _ HF (rep_Fin 0)).
  split; intros B.
  - rewrite Rltb_true; auto.
  - rewrite Rltb_false by auto. eexists; split; [reflexivity|].
    eapply rep3_eq; [apply rep3_add; [apply rep3_scale; eassumption|eassumption]|].
    apply line_point.
Qed.

(** Direction component zero: the constrained coordinate is never a finite number. *)
Lemma nmul_zero_nonfin x y : rep x 0 -> nisnan y = true \/ nisinf y = true -> nmul x y = NaN.
Proof.
  intros Hx H. rlook Hx. unfold nmul; rewrite H0.
  destruct y; simpl; destruct H; try discriminate; auto; rewrite Reqb_refl; auto.
Qed.
Lemma ndiv_zero_nonfin x y a : rep x a -> rep y 0 -> nisnan (ndiv x y) = true \/ nisinf (ndiv x y) = true.
Proof.
  intros Hx Hy. destruct (Req_dec a 0) as [->|N].
  - rewrite (ndiv_0_0 _ _ Hx Hy); auto.
  - destruct (ndiv_x_0 _ _ _ Hx Hy N) as [E|E]; rewrite E; auto.
Qed.
Lemma sfi_axis_parallel c r M T q Q i g G : good_cam c r M T ->
  rep2 (cam_undist c q) Q -> has_ray (cam_kind c) r Q -> rep g G ->
  get_axis i (dirW c r M Q) = 0 ->
  exists p, spaceFromImage c q (on_axis i g) = Some p /\ get_axis i p = NaN.
Proof.
  intros HC Hq Hh Hg Hz.
  pose proof (origin_rep _ _ _ _ HC) as HO.
  pose proof (direction_rep _ _ _ _ _ _ false HC Hq Hh) as HD. cbv iota in HD.
  rewrite sfi_axis_unfold. cbv zeta. eexists; split; [reflexivity|].
  pose proof (get_axis_rep i _ _ HD) as Hd. rewrite Hz in Hd.
  pose proof (ndiv_zero_nonfin _ _ _ (rep_sub _ _ _ _ Hg (get_axis_rep i _ _ HO)) Hd) as NF.
  set (fac := ndiv _ _) in *.
  destruct (nltb fac (Fin 0)); [destruct i; reflexivity|].
  assert (E : nmul (get_axis i (ray_direction c q false)) fac = NaN) by (apply nmul_zero_nonfin; auto).
  destruct i; cbn [get_axis nv_add zip3v nv_scale map3v cx cy cz] in *; rewrite E; apply nadd_NaN_l.
Qed.

Lemma sfi_D c r M T q Q d D : good_cam c r M T ->
  rep2 (cam_undist c q) Q -> has_ray (cam_kind c) r Q -> rep d D ->
  (D < 0 -> spaceFromImage c q (on_D d) = Some nan3) /\
  (0 <= D -> exists p, spaceFromImage c q (on_D d) = Some p /\
     rep3 p (rv_add T (rv_scale (D / rnorm (dirW c r M Q)) (dirW c r M Q)))).
Proof.
  intros HC Hq Hh Hd.
  pose proof (origin_rep _ _ _ _ HC) as HO.
  pose proof (direction_rep _ _ _ _ _ _ true HC Hq Hh) as HD. cbv iota in HD.
  unfold spaceFromImage, on_D; cbn [k_X k_Y k_Z k_D k_mesh].
  rewrite (rep_ltb _ _ _ _ Hd (rep_Fin 0)).
  split; intros B.
  - rewrite Rltb_true; auto.
  - rewrite Rltb_false by auto. eexists; split; [reflexivity|].
    eapply rep3_eq; [apply rep3_add; [apply rep3_scale; eassumption|eassumption]|].
    apply v3_ext; simpl; unfold Rdiv; ring.
Qed.

(** Image of a space point. *)
Lemma ifs_spec c r M T p P hide : good_cam c r M T -> rep3 p P ->
  showable (cam_kind c) (rm_mul_v M (rv_sub P T)) ->
  exists x Q, imageFromSpace c p hide = cam_dist c x /\ rep2 x Q /\ has_ray (cam_kind c) r Q /\
    x = p_image (cam_kind c) (cam_proj c) (cameraFromSpace (cam_o c) p) hide /\
    exists k, 0 < k /\ rv_sub P T = rv_scale k (dirW c r M Q).
Proof.
  intros (Hp&Hf&HR) HP HS.
  destruct (p_image_spec (cam_kind c) _ _ _ _ hide Hp Hf (rigid_camera _ _ _ _ _ HR HP) HS)
    as (Q&HQ&Hh&(k&Hk&E)).
  exists (p_image (cam_kind c) (cam_proj c) (cameraFromSpace (cam_o c) p) hide), Q.
  splits; auto. exists k; split; auto.
  unfold dirW. rewrite <- rm_mul_v_scale, <- E. symmetry. apply trans_mul. apply HR.
Qed.

(** Projecting a point on the ray of a pixel. *)
Lemma ifs_of_ray c r M T p k Q hide : good_cam c r M T ->
  rep3 p (rv_add T (rv_scale k (dirW c r M Q))) -> 0 < k ->
  tinyR <= Rabs (k * cz (rayR (cam_kind c) r Q)) -> in_range (cam_kind c) r Q ->
  exists x, imageFromSpace c p hide = cam_dist c x /\ rep2 x Q.
Proof.
  intros (Hp&Hf&HR) HP Hk HB HI.
  eexists; split; [reflexivity|].
  assert (E : rm_mul_v M (rv_sub (rv_add T (rv_scale k (dirW c r M Q))) T)
     = rv_scale k (rayR (cam_kind c) r Q)).
  { rewrite <- (dirW_back c r M T Q _ HR), <- rm_mul_v_scale. f_equal.
    apply v3_ext; simpl; ring. }
  pose proof (rigid_camera _ _ _ _ _ HR HP) as HC. rewrite E in HC.
  eapply p_image_of_ray; eauto; [|exists k; auto].
  split; auto. destruct (cam_kind c); auto. simpl. lra.
Qed.
