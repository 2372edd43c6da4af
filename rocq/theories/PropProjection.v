(** * C06-C10: the three projections *)
Require Import Reals Lra Psatz Bool.
From Verif Require Import Num Vec Trig Projection ProjectionFacts.
Open Scope R_scope.

(** Example projection: 4000x3000 image, focal length 3500 px, centre (2000,1500). *)
Definition ex_p : proj R := Proj 3500 3500 2000 1500 4000 3000.
Lemma ex_p_rep : rep_proj (proj_fin ex_p) ex_p. Proof. repeat split. Qed.
Lemma ex_p_foc : foc_ok ex_p. Proof. split; simpl; lra. Qed.

Definition is_nan2 (q : v2 num) : Prop := c1 q = NaN /\ c2 q = NaN.

(** ** C06 rectilinear *)
(** Projecting any point in the direction of a pixel's ray (which is computed by the
    code, normed or not) gives back the pixel. *)
Theorem C06_rect_image_of_ray : forall c r q Q normed hide ray RAY p P k,
  rep_proj c r -> foc_ok r -> rep2 q Q ->
  ray = rect_getRay c q normed -> rep3 ray RAY ->
  0 < k -> P = rv_scale k RAY -> rep3 p P -> tinyR <= Rabs (cz P) ->
  rep2 (rect_image c p hide) Q.
Proof.
  intros c r q Q normed hide ray RAY p P k Hc Hf Hq -> HR Hk -> Hp HB.
  pose proof (p_getRay_spec Rectilinear c r q Q normed Hc Hf Hq I) as HS.
  cbn [p_getRay] in HS. rewrite (rep3_inj _ _ _ HR HS) in *. clear HS.
  assert (PM : posmul (rv_scale k (if normed then rv_scale (/ rnorm (rayR Rectilinear r Q)) (rayR Rectilinear r Q)
      else rayR Rectilinear r Q)) (rayR Rectilinear r Q)).
  { eapply posmul_trans; [apply posmul_scale; auto|apply rayR_normed_posmul]. }
  eapply (p_image_of_ray Rectilinear); eauto; [|exact I].
  split; auto. destruct PM as (l&Hl&E). rewrite E. simpl. lra.
Qed.
Print Assumptions C06_rect_image_of_ray.
Example C06_rect_image_of_ray_example : rep3 (rect_getRay (proj_fin ex_p) (fin2 (V2 2350 800)) false) (V3 (/ 10) (/ 5) (-1)) /\
  rep2 (rect_image (proj_fin ex_p) (fin3 (V3 1 2 (-10))) true) (V2 2350 800).
Proof.
  assert (K : rep3 (rect_getRay (proj_fin ex_p) (fin2 (V2 2350 800)) false) (V3 (/ 10) (/ 5) (-1))).
  { eapply rep3_eq; [apply (p_getRay_spec Rectilinear _ ex_p _ (V2 2350 800) false ex_p_rep ex_p_foc (rep2_fin _) I)|].
    unfold rayR, alphaR, betaR, ex_p. apply v3_ext; cbn; field. }
  split; [exact K|]. apply (C06_rect_image_of_ray (proj_fin ex_p) ex_p (fin2 (V2 2350 800)) (V2 2350 800) false true _ (V3 (/ 10) (/ 5) (-1)) _ (V3 1 2 (-10)) 10 ex_p_rep ex_p_foc (rep2_fin _) eq_refl K).
  - lra.
  - apply v3_ext; cbn; field.
  - apply rep3_fin.
  - cbn. unfold tinyR. rewrite Rabs_left; lra.
Qed.

(** The ray of the image of a visible point points at the point. *)
Theorem C06_rect_ray_of_image : forall c r p P hide normed,
  rep_proj c r -> foc_ok r -> rep3 p P -> cz P <= - tinyR ->
  exists RAY, rep3 (rect_getRay c (rect_image c p hide) normed) RAY /\ posmul P RAY.
Proof.
  intros c r p P hide normed Hc Hf Hp Hz. pose proof tinyR_pos.
  assert (S : showable Rectilinear P). { split; [rewrite Rabs_left|]; lra. }
  destruct (p_image_spec Rectilinear _ _ _ _ hide Hc Hf Hp S) as (Q&HQ&HR&PM).
  eexists; split; [eapply (p_getRay_spec Rectilinear); eauto|].
  eapply posmul_trans; [exact PM|]. apply posmul_sym, rayR_normed_posmul.
Qed.
Print Assumptions C06_rect_ray_of_image.
Example C06_rect_ray_of_image_example : exists RAY,
  rep3 (rect_getRay (proj_fin ex_p) (rect_image (proj_fin ex_p) (fin3 (V3 1 2 (-10))) true) true) RAY /\ posmul (V3 1 2 (-10)) RAY.
Proof. apply (C06_rect_ray_of_image _ _ _ (V3 1 2 (-10)) true true ex_p_rep ex_p_foc (rep3_fin _)). cbn. unfold tinyR. lra. Qed.

(** Exactly the points behind the camera (and those with |z| < 1e-10) are nan; all
    others have a finite image.  With hide_backpoints=False only |z| < 1e-10 is nan. *)
Theorem C06_rect_nan_iff : forall c r p P (hide : bool),
  rep_proj c r -> foc_ok r -> rep3 p P ->
  (is_nan2 (rect_image c p hide) <-> (hide = true /\ 0 < cz P) \/ Rabs (cz P) < tinyR) /\
  (~ is_nan2 (rect_image c p hide) -> exists Q, rep2 (rect_image c p hide) Q).
Proof.
  intros c r p P hide Hc Hf Hp. pose proof tinyR_pos as TP.
  destruct (Rlt_le_dec (Rabs (cz P)) tinyR) as [S|B].
  - assert (N : is_nan2 (rect_image c p hide)).
    { unfold rect_image. rewrite (mask_small _ _ Hp S). cbn [cx cy cz].
      rewrite (rep_ltb _ _ _ _ (rep_Fin 0) (rep_Fin 0)), Rltb_false, andb_false_r by lra.
      destruct Hc as (H1&H2&H3&H4&_). split; cbn [c1 c2].
      - rewrite ndiv_0_0; auto; [|reflexivity]. reps; ring.
      - rewrite ndiv_0_0; auto; [|reflexivity]. reps; ring. }
    split; [split; auto|]. intros X; contradiction.
  - destruct (Rlt_le_dec 0 (cz P)) as [Z|Z].
    + destruct hide.
      * assert (N : is_nan2 (rect_image c p true)).
        { unfold rect_image. rewrite (mask_big _ _ Hp B). destruct Hp as (_&_&HZ).
          rewrite (rep_ltb _ _ _ _ (rep_Fin 0) HZ), Rltb_true by auto. split; reflexivity. }
        split; [split; auto|]. intros X; contradiction.
      * assert (V : rep2 (rect_image c p false)
          (V2 (- cx P * f_x r / cz P + center_x r) (cy P * f_y r / cz P + center_y r)))
         by (apply rect_image_value; auto; discriminate).
        split; [split|eauto].
        -- intros (N&_). destruct V as (V&_). rewrite N in V. inversion V.
        -- intros [(?&_)|?]; [discriminate|lra].
    + assert (cz P < 0). { pose proof (big_nz _ B); lra. }
      assert (V : rep2 (rect_image c p hide)
          (V2 (- cx P * f_x r / cz P + center_x r) (cy P * f_y r / cz P + center_y r)))
         by (apply rect_image_value; auto).
      split; [split|eauto].
      * intros (N&_). destruct V as (V&_). rewrite N in V. inversion V.
      * intros [(_&?)|?]; lra.
Qed.
Print Assumptions C06_rect_nan_iff.

Example C06_example :
  rep2 (rect_image (proj_fin ex_p) (fin3 (V3 1 2 (-10))) true) (V2 2350 800) /\
  is_nan2 (rect_image (proj_fin ex_p) (fin3 (V3 1 2 10)) true) /\
  rep2 (rect_image (proj_fin ex_p) (fin3 (V3 1 2 10)) false) (V2 1650 2200).
Proof.
  assert (T : tinyR <= 10) by (unfold tinyR; lra).
  splits.
  - eapply rep2_eq; [apply (rect_image_value _ ex_p _ (V3 1 2 (-10))); [apply ex_p_rep|apply rep3_fin|simpl; rewrite Rabs_left; lra|simpl; lra]|].
    apply v2_ext; simpl; field.
  - apply (C06_rect_nan_iff _ ex_p _ (V3 1 2 10) true ex_p_rep ex_p_foc (rep3_fin _)).
    left; simpl; split; auto; lra.
  - eapply rep2_eq; [apply (rect_image_value _ ex_p _ (V3 1 2 10)); [apply ex_p_rep|apply rep3_fin|simpl; rewrite Rabs_right; lra|discriminate]|].
    apply v2_ext; simpl; field.
Qed.

(** ** C07 cylindrical *)
Theorem C07_cyl_image_of_ray : forall c r q Q normed hide ray RAY p P k,
  rep_proj c r -> foc_ok r -> rep2 q Q -> - PI < (c1 Q - center_x r) / f_x r < PI ->
  ray = cyl_getRay c q normed -> rep3 ray RAY ->
  0 < k -> P = rv_scale k RAY -> rep3 p P -> tinyR <= Rabs (cz P) ->
  rep2 (cyl_image c p hide) Q.
Proof.
  intros c r q Q normed hide ray RAY p P k Hc Hf Hq HIR -> HR Hk -> Hp HB.
  pose proof (p_getRay_spec Cylindrical c r q Q normed Hc Hf Hq I) as HS.
  cbn [p_getRay] in HS. rewrite (rep3_inj _ _ _ HR HS) in *. clear HS.
  eapply (p_image_of_ray Cylindrical); eauto; [split; auto|].
  eapply posmul_trans; [apply posmul_scale; auto|apply rayR_normed_posmul].
Qed.
Print Assumptions C07_cyl_image_of_ray.

Theorem C07_cyl_ray_of_image : forall c r p P hide normed,
  rep_proj c r -> foc_ok r -> rep3 p P -> tinyR <= Rabs (cz P) ->
  exists RAY, rep3 (cyl_getRay c (cyl_image c p hide) normed) RAY /\ posmul P RAY.
Proof.
  intros c r p P hide normed Hc Hf Hp Hz.
  assert (S : showable Cylindrical P) by (split; auto).
  destruct (p_image_spec Cylindrical _ _ _ _ hide Hc Hf Hp S) as (Q&HQ&HR&PM).
  eexists; split; [eapply (p_getRay_spec Cylindrical); eauto|].
  eapply posmul_trans; [exact PM|]. apply posmul_sym, rayR_normed_posmul.
Qed.
Print Assumptions C07_cyl_ray_of_image.
(** a point behind the camera *)
Example C07_cyl_ray_of_image_example : exists RAY,
  rep3 (cyl_getRay (proj_fin ex_p) (cyl_image (proj_fin ex_p) (fin3 (V3 1 2 10)) true) true) RAY /\ posmul (V3 1 2 10) RAY.
Proof. apply (C07_cyl_ray_of_image _ _ _ (V3 1 2 10) true true ex_p_rep ex_p_foc (rep3_fin _)). cbn. unfold tinyR. rewrite Rabs_right; lra. Qed.

(** The failure set of C07: every point at 90 degrees to the side is nan ... *)
Theorem C07_cyl_side_points_nan : forall c r p P hide,
  rep_proj c r -> rep3 p P -> Rabs (cz P) < tinyR -> is_nan2 (cyl_image c p hide).
Proof.
  intros c r p P hide (H1&H2&H3&H4&_) Hp S. unfold cyl_image. rewrite (mask_small _ _ Hp S).
  cbn [cx cy cz c2].
  assert (E : (- f_y c * Fin 0 / nsqrt (Fin 0 * Fin 0 + Fin 0 * Fin 0) + center_y c)%num = NaN).
  { rewrite ndiv_0_0; auto; [reps; ring|].
    eapply rep_eq; [apply rep_sqrt; [rep_all|lra]|]. replace (0 * 0 + 0 * 0) with 0 by ring. apply sqrt_0. }
  rewrite E. split; reflexivity.
Qed.
Print Assumptions C07_cyl_side_points_nan.
Example C07_cyl_side_points_nan_example : is_nan2 (cyl_image (proj_fin ex_p) (fin3 (V3 1 2 0)) true).
Proof. apply (C07_cyl_side_points_nan _ _ _ (V3 1 2 0) true ex_p_rep (rep3_fin _)). cbn. rewrite Rabs_R0. apply tinyR_pos. Qed.

(** ... so the round trip fails for the pixel column 90 degrees to the side, although it
    is well inside the panorama. *)
Theorem C07_cyl_round_trip_refuted : exists c r q Q,
  rep_proj c r /\ foc_ok r /\ rep2 q Q /\ - PI < (c1 Q - center_x r) / f_x r < PI /\
  is_nan2 (cyl_image c (cyl_getRay c q false) true).
Proof.
  set (Q := V2 (3500 * (PI / 2) + 2000) 1500).
  exists (proj_fin ex_p), ex_p, (fin2 Q), Q. pose proof PI_RGT_0.
  assert (A : (c1 Q - center_x ex_p) / f_x ex_p = PI / 2) by (simpl; field).
  splits; try apply ex_p_rep; try apply ex_p_foc; try apply rep2_fin; try lra.
  eapply C07_cyl_side_points_nan; [apply ex_p_rep| |].
  - apply (p_getRay_spec Cylindrical _ ex_p (fin2 Q) Q false ex_p_rep ex_p_foc (rep2_fin _) I).
  - cbn [rayR cz]. unfold alphaR; rewrite A, cos_PI2, Ropp_0, Rabs_R0. apply tinyR_pos.
Qed.
Print Assumptions C07_cyl_round_trip_refuted.

Example C07_example : rep2 (cyl_image (proj_fin ex_p) (cyl_getRay (proj_fin ex_p) (fin2 (V2 3000 100)) true) true) (V2 3000 100).
Proof.
  set (Q := V2 3000 100). pose proof PI_RGT_0. assert (HP : 3 < PI) by (pose proof PI2_3_2; lra).
  pose proof (p_getRay_spec Cylindrical _ _ _ _ true ex_p_rep ex_p_foc (rep2_fin Q) I) as HS.
  eapply C07_cyl_image_of_ray with (q := fin2 Q) (k := 1) (normed := true);
    [apply ex_p_rep|apply ex_p_foc|apply rep2_fin|simpl; lra|reflexivity|apply HS|lra| |apply HS|].
  - apply v3_ext; simpl; ring.
  - cbn [rv_scale map3v cz rayR]. unfold alphaR; cbn.
    set (a := (3000 - 2000) / 3500). assert (Ha : 0 <= a <= 1/3) by (unfold a; lra).
    set (n := rnorm _).
    assert (Hn : n * n <= 100).
    { unfold n; rewrite rnorm_sqr. unfold rdot; cbn. unfold betaR; cbn.
      pose proof (sin2_cos2 a) as S; unfold Rsqr in S. lra. }
    assert (0 < n) by (apply rnorm_pos; intros E; inversion E as [[E1 E2 E3]]; unfold betaR in E2; cbn in E2; lra).
    assert (n <= 10) by nra.
    assert (C : 1/2 <= cos a).
    { rewrite <- cos_PI3 at 1. apply Rlt_le, cos_decreasing_1; lra. }
    rewrite Rabs_mult, (Rabs_right (/ n)), Rabs_left by (try apply Rle_ge, Rlt_le, Rinv_0_lt_compat; lra).
    assert (/ 10 <= / n) by (apply Rinv_le_contravar; lra).
    unfold tinyR. nra.
Qed.

(** ** C08 equirectangular *)
Theorem C08_equi_image_of_ray : forall c r q Q normed hide ray RAY p P k,
  rep_proj c r -> foc_ok r -> rep2 q Q ->
  - PI < (c1 Q - center_x r) / f_x r < PI -> - (PI / 2) < (c2 Q - center_y r) / f_y r < PI / 2 ->
  ray = equi_getRay c q normed -> rep3 ray RAY ->
  0 < k -> P = rv_scale k RAY -> rep3 p P -> tinyR <= Rabs (cz P) ->
  rep2 (equi_image c p hide) Q.
Proof.
  intros c r q Q normed hide ray RAY p P k Hc Hf Hq HI1 HI2 -> HR Hk -> Hp HB.
  assert (HI : in_range Equirectangular r Q) by (split; auto).
  pose proof (p_getRay_spec Equirectangular c r q Q normed Hc Hf Hq (in_range_has_ray _ _ _ HI)) as HS.
  cbn [p_getRay] in HS. rewrite (rep3_inj _ _ _ HR HS) in *. clear HS.
  eapply (p_image_of_ray Equirectangular); eauto; [split; auto|].
  eapply posmul_trans; [apply posmul_scale; auto|apply rayR_normed_posmul].
Qed.
Print Assumptions C08_equi_image_of_ray.
(** 45 degrees downwards *)
Example C08_equi_image_of_ray_example : rep2 (equi_image (proj_fin ex_p) (fin3 (V3 0 (-5) (-5))) true) (V2 2000 (1500 + 3500 * (PI / 4))).
Proof.
  pose proof PI_RGT_0. set (Q := V2 2000 (1500 + 3500 * (PI / 4))).
  assert (EB : betaR ex_p Q = PI / 4) by (unfold betaR; cbn; field). assert (EA : alphaR ex_p Q = 0) by (unfold alphaR; cbn; field).
  assert (K : rep3 (equi_getRay (proj_fin ex_p) (fin2 Q) false) (V3 0 (-1) (-1))).
  { eapply rep3_eq; [apply (p_getRay_spec Equirectangular _ ex_p _ Q false ex_p_rep ex_p_foc (rep2_fin _))|].
    - cbn [has_ray]. rewrite EB, cos_PI4. apply Rgt_not_eq, Rdiv_lt_0_compat; [lra|apply sqrt_lt_R0; lra].
    - unfold rayR. rewrite EA, EB, sin_0, cos_0, tan_PI4. apply v3_ext; cbn; ring. }
  apply (C08_equi_image_of_ray (proj_fin ex_p) ex_p (fin2 Q) Q false true _ _ _ (V3 0 (-5) (-5)) 5 ex_p_rep ex_p_foc (rep2_fin _)) with (4 := K).
  - unfold Q; cbn. replace ((2000 - 2000) / 3500) with 0 by field. lra.
  - unfold Q; cbn. replace ((1500 + 3500 * (PI / 4) - 1500) / 3500) with (PI / 4) by field. lra.
  - reflexivity.
  - lra.
  - apply v3_ext; cbn; ring.
  - apply rep3_fin.
  - cbn. unfold tinyR. rewrite Rabs_left; lra.
Qed.

Theorem C08_equi_ray_of_image : forall c r p P hide normed,
  rep_proj c r -> foc_ok r -> rep3 p P -> tinyR <= Rabs (cz P) ->
  exists RAY, rep3 (equi_getRay c (equi_image c p hide) normed) RAY /\ posmul P RAY.
Proof.
  intros c r p P hide normed Hc Hf Hp Hz.
  assert (S : showable Equirectangular P) by (split; auto).
  destruct (p_image_spec Equirectangular _ _ _ _ hide Hc Hf Hp S) as (Q&HQ&HR&PM).
  eexists; split; [eapply (p_getRay_spec Equirectangular); eauto|].
  eapply posmul_trans; [exact PM|]. apply posmul_sym, rayR_normed_posmul.
Qed.
Print Assumptions C08_equi_ray_of_image.
Example C08_equi_ray_of_image_example : exists RAY,
  rep3 (equi_getRay (proj_fin ex_p) (equi_image (proj_fin ex_p) (fin3 (V3 1 2 10)) true) true) RAY /\ posmul (V3 1 2 10) RAY.
Proof. apply (C08_equi_ray_of_image _ _ _ (V3 1 2 10) true true ex_p_rep ex_p_foc (rep3_fin _)). cbn. unfold tinyR. rewrite Rabs_right; lra. Qed.

(** All points at 90 degrees to the side are sent to the same wrong pixel, the far edge
    of the panorama in the middle row. *)
Theorem C08_equi_side_points_wrong : forall c r p P hide,
  rep_proj c r -> rep3 p P -> Rabs (cz P) < tinyR ->
  rep2 (equi_image c p hide) (V2 (center_x r + PI * f_x r) (center_y r)).
Proof.
  intros c r p P hide (H1&H2&H3&H4&_) Hp S. unfold equi_image. rewrite (mask_small _ _ Hp S).
  cbn [cx cy cz].
  assert (Z : nneg (Fin 0) = NegZ).
  { unfold nneg; simpl. rewrite Rltb_false by lra. unfold mk. rewrite Reqb_true by ring. reflexivity. }
  rewrite Z.
  assert (A : natan2 NegZ NegZ = Fin (- PI)).
  { unfold natan2; simpl. rewrite !Rltb_false by lra. rewrite Reqb_refl. reflexivity. }
  rewrite A.
  assert (B : natan2 (Fin 0) (nsqrt (Fin 0 * Fin 0 + Fin 0 * Fin 0)) = Fin 0).
  { assert (M : nmul (Fin 0) (Fin 0) = Fin 0).
    { unfold nmul; simpl. unfold mk. rewrite Reqb_true by ring. rewrite Rltb_false by lra. reflexivity. }
    rewrite M.
    assert (D : nadd (Fin 0) (Fin 0) = Fin 0).
    { unfold nadd; simpl. unfold mk. rewrite Reqb_true by ring. rewrite Rltb_false by lra. reflexivity. }
    rewrite D. unfold nsqrt; simpl. rewrite !Rltb_false by lra. rewrite sqrt_0. unfold mk; rewrite Reqb_refl.
    unfold natan2; simpl. rewrite !Rltb_false by lra. rewrite Reqb_refl. unfold mk; rewrite Reqb_refl. reflexivity. }
  rewrite B. split; cbn [c1 c2]; reps; ring.
Qed.
Print Assumptions C08_equi_side_points_wrong.
Example C08_equi_side_points_wrong_example : rep2 (equi_image (proj_fin ex_p) (fin3 (V3 1 2 0)) true) (V2 (2000 + PI * 3500) 1500).
Proof. apply (C08_equi_side_points_wrong _ _ _ (V3 1 2 0) true ex_p_rep (rep3_fin _)). cbn. rewrite Rabs_R0. apply tinyR_pos. Qed.

Theorem C08_equi_round_trip_refuted : exists c r q Q Q',
  rep_proj c r /\ foc_ok r /\ rep2 q Q /\
  - PI < (c1 Q - center_x r) / f_x r < PI /\ - (PI / 2) < (c2 Q - center_y r) / f_y r < PI / 2 /\
  rep2 (equi_image c (equi_getRay c q false) true) Q' /\ c1 Q' <> c1 Q /\ c2 Q' <> c2 Q.
Proof.
  set (Q := V2 (3500 * (PI / 2) + 2000) 1000). pose proof PI_RGT_0.
  assert (HP : 3 < PI) by (pose proof PI2_3_2; lra).
  assert (A : (c1 Q - center_x ex_p) / f_x ex_p = PI / 2) by (simpl; field).
  assert (HI : in_range Equirectangular ex_p Q). { split; unfold alphaR, betaR; [lra|simpl; lra]. }
  exists (proj_fin ex_p), ex_p, (fin2 Q), Q, (V2 (2000 + PI * 3500) 1500).
  splits; try apply ex_p_rep; try apply ex_p_foc; try apply rep2_fin; try lra; try (apply HI).
  - eapply (C08_equi_side_points_wrong _ ex_p); [apply ex_p_rep| |].
    + apply (p_getRay_spec Equirectangular _ ex_p (fin2 Q) Q false ex_p_rep ex_p_foc (rep2_fin _)).
      apply in_range_has_ray; auto.
    + cbn [rayR cz]. unfold alphaR; rewrite A, cos_PI2, Ropp_0, Rabs_R0. apply tinyR_pos.
  - simpl; lra.
  - simpl; lra.
Qed.
Print Assumptions C08_equi_round_trip_refuted.

Example C08_example : exists Q, rep2 (equi_image (proj_fin ex_p) (fin3 (V3 1 2 3)) true) Q.
Proof.
  destruct (p_image_spec Equirectangular _ _ _ (V3 1 2 3) true ex_p_rep ex_p_foc (rep3_fin _)) as (Q&H&_); eauto.
  split; [simpl; rewrite Rabs_right; unfold tinyR; lra|exact I].
Qed.

(** ** C09 *)
(** Scaling a point by a positive finite float changes no projection result (equality of
    the floats, hence including nan), as long as |z| stays >= 1e-10. *)
Definition same_val (x y : num) : Prop := x = y \/ exists r, rep x r /\ rep y r.
Theorem C09_scale_invariant : forall k c r p P s S hide,
  rep_proj c r -> foc_ok r -> rep3 p P -> rep s S -> 0 < S ->
  tinyR <= Rabs (cz P) -> tinyR <= Rabs (S * cz P) ->
  same_val (c1 (p_image k c (nv_scale s p) hide)) (c1 (p_image k c p hide)) /\
  same_val (c2 (p_image k c (nv_scale s p) hide)) (c2 (p_image k c p hide)).
Proof.
  intros k c r p P s S hide Hc Hf Hp Hs HS HB HB'.
  pose proof (rep3_scale _ _ _ _ Hs Hp) as Hp'.
  pose proof (big_nz _ HB) as NZ.
  destruct k; cbn [p_image].
  - destruct (andb hide (Rltb 0 (cz P))) eqn:E.
    + apply andb_true_iff in E; destruct E as (->&E). apply Rltb_iff in E.
      destruct (C06_rect_nan_iff c r p P true Hc Hf Hp) as ((_&N)&_).
      destruct (N ltac:(left; auto)) as (N1&N2).
      destruct (C06_rect_nan_iff c r _ _ true Hc Hf Hp') as ((_&M)&_).
      destruct (M ltac:(left; split; auto; simpl; nra)) as (M1&M2).
      rewrite N1, N2, M1, M2. split; left; auto.
    + assert (V : hide = true -> cz P < 0).
      { intros ->. simpl in E. apply Rltb_iff_false in E. lra. }
      destruct (rect_image_value c r p P hide Hc Hp HB V) as (X1&X2).
      destruct (rect_image_value c r _ _ hide Hc Hp' HB') as (Y1&Y2).
      { intros W; specialize (V W). simpl. nra. }
      split; right; eexists; split; [eapply rep_eq; [exact Y1|]|exact X1|eapply rep_eq; [exact Y2|]|exact X2];
       simpl; field; lra.
  - unfold cyl_image. rewrite (mask_big _ _ Hp HB), (mask_big _ _ Hp' HB').
    destruct Hc as (H1&H2&H3&H4&_). destruct Hp as (X&Y&Z).
    cbn [nv_scale map3v cx cy cz].
    assert (AT : natan2 (- (cx p * s)) (- (cz p * s)) = natan2 (- cx p) (- cz p)).
    { rewrite !nneg_nmul. apply natan2_scale with (- cx P) (- cz P) S; auto; apply rep_neg; auto. }
    rewrite AT.
    destruct (natan2_polar _ _ _ _ (rep_neg _ _ X) (rep_neg _ _ Z)) as (th&Hth&_); [left; lra|].
    assert (Hrho : 0 < hyp (cx P) (cz P)) by (apply hyp_pos; auto).
    assert (Y1 : rep (- f_y c * cy p / nsqrt (cx p * cx p + cz p * cz p) + center_y c)%num
                 (- f_y r * cy P / hyp (cx P) (cz P) + center_y r)).
    { apply rep_add; auto. apply rep_div; [rep_all| |lra].
      eapply rep_eq; [apply rep_sqrt; [rep_all|nra]|reflexivity]. }
    assert (Y2 : rep (- f_y c * (cy p * s) / nsqrt (cx p * s * (cx p * s) + cz p * s * (cz p * s)) + center_y c)%num
                 (- f_y r * cy P / hyp (cx P) (cz P) + center_y r)).
    { eapply rep_eq; [apply rep_add; [|eassumption]|].
      - apply rep_div with (b := S * hyp (cx P) (cz P)); [rep_all| |nra].
        eapply rep_eq; [apply rep_sqrt; [rep_all|nra]|].
        unfold hyp. rewrite <- (sqrt_square S) at 5 by lra.
        rewrite <- sqrt_mult; [f_equal; ring|nra|nra].
      - field. split; lra. }
    cbn [c2]. rewrite (rep_notnan _ _ Y1), (rep_notnan _ _ Y2). cbn [c1 c2].
    split; [left; reflexivity|right; eauto].
  - unfold equi_image. rewrite (mask_big _ _ Hp HB), (mask_big _ _ Hp' HB').
    destruct Hc as (H1&H2&H3&H4&_). destruct Hp as (X&Y&Z).
    cbn [nv_scale map3v cx cy cz].
    assert (AT : natan2 (- (cx p * s)) (- (cz p * s)) = natan2 (- cx p) (- cz p)).
    { rewrite !nneg_nmul. apply natan2_scale with (- cx P) (- cz P) S; auto; apply rep_neg; auto. }
    rewrite AT. cbn [c1 c2]. split; [left; reflexivity|right].
    assert (Hrho : 0 < hyp (cx P) (cz P)) by (apply hyp_pos; auto).
    assert (S1 : rep (nsqrt (cx p * cx p + cz p * cz p)%num) (hyp (cx P) (cz P))).
    { eapply rep_eq; [apply rep_sqrt; [rep_all|nra]|reflexivity]. }
    assert (S2 : rep (nsqrt (cx p * s * (cx p * s) + cz p * s * (cz p * s))%num) (S * hyp (cx P) (cz P))).
    { eapply rep_eq; [apply rep_sqrt; [rep_all|nra]|].
      unfold hyp. rewrite <- (sqrt_square S) at 5 by lra.
      rewrite <- sqrt_mult; [f_equal; ring|nra|nra]. }
    assert (A1 : rep (natan2 (cy p) (nsqrt (cx p * cx p + cz p * cz p))) (atan (cy P / hyp (cx P) (cz P)))).
    { eapply rep_eq; [apply rep_atan2_pos; eauto|]. unfold Ratan2; rewrite Rltb_true; auto. }
    assert (A2 : rep (natan2 (cy p * s) (nsqrt (cx p * s * (cx p * s) + cz p * s * (cz p * s))))
                  (atan (cy P / hyp (cx P) (cz P)))).
    { eapply rep_eq; [apply rep_atan2_pos; [apply rep_mul; eauto|exact S2|nra]|].
      unfold Ratan2; rewrite Rltb_true by nra. f_equal. field. split; lra. }
    eexists; split; rep_all.
Qed.
Print Assumptions C09_scale_invariant.
Example C09_scale_invariant_example : forall k,
  same_val (c1 (p_image k (proj_fin ex_p) (nv_scale (Fin 3) (fin3 (V3 1 2 (-10)))) true)) (c1 (p_image k (proj_fin ex_p) (fin3 (V3 1 2 (-10))) true)).
Proof.
  intros k. destruct (C09_scale_invariant k _ _ _ (V3 1 2 (-10)) (Fin 3) 3 true ex_p_rep ex_p_foc (rep3_fin _) (rep_Fin _)) as (K&_); [lra|cbn; unfold tinyR; rewrite Rabs_left; lra..|exact K].
Qed.

(** Normed rays are unit vectors in the direction of the unnormed ray. *)
Theorem C09_normed_ray_unit : forall k c r q Q,
  rep_proj c r -> foc_ok r -> rep2 q Q ->
  (k = Equirectangular -> cos ((c2 Q - center_y r) / f_y r) <> 0) ->
  exists U N, rep3 (p_getRay k c q false) U /\ rep3 (p_getRay k c q true) N /\
    rnorm N = 1 /\ posmul N U.
Proof.
  intros k c r q Q Hc Hf Hq HR.
  assert (H : has_ray k r Q) by (destruct k; simpl; auto).
  do 2 eexists. split; [apply (p_getRay_spec k _ _ _ _ false Hc Hf Hq H)|].
  split; [apply (p_getRay_spec k _ _ _ _ true Hc Hf Hq H)|]. cbv iota.
  pose proof (rnorm_pos _ (rayR_nonzero k r Q)) as NP. split.
  - rewrite rnorm_scale, Rabs_right; [field; lra|]. apply Rle_ge, Rlt_le, Rinv_0_lt_compat; auto.
  - apply posmul_scale, Rinv_0_lt_compat; auto.
Qed.
Print Assumptions C09_normed_ray_unit.
Example C09_normed_ray_unit_example : forall k, exists N, rep3 (p_getRay k (proj_fin ex_p) (fin2 (V2 3000 100)) true) N /\ rnorm N = 1.
Proof.
  intros k. destruct (C09_normed_ray_unit k _ _ _ (V2 3000 100) ex_p_rep ex_p_foc (rep2_fin _)) as (U&N&_&H&E&_); [|eauto].
  intros _. cbn. apply Rgt_not_eq, cos_gt_0; pose proof PI2_3_2; lra.
Qed.

(** The principal point looks along the optical axis. *)
Theorem C09_centre_ray : forall k c r q normed,
  rep_proj c r -> foc_ok r -> rep2 q (V2 (center_x r) (center_y r)) ->
  rep3 (p_getRay k c q normed) (V3 0 0 (-1)).
Proof.
  intros k c r q normed Hc Hf Hq. destruct Hf as (F1&F2) eqn:EF.
  assert (A : alphaR r (V2 (center_x r) (center_y r)) = 0) by (unfold alphaR; simpl; field; auto).
  assert (B : betaR r (V2 (center_x r) (center_y r)) = 0) by (unfold betaR; simpl; field; auto).
  assert (R0 : rayR k r (V2 (center_x r) (center_y r)) = V3 0 0 (-1)).
  { destruct k; simpl; rewrite A, B, ?sin_0, ?cos_0, ?tan_0; f_equal; ring. }
  eapply rep3_eq.
  - apply (p_getRay_spec k c r q _ normed Hc Hf Hq). destruct k; simpl; auto. rewrite B, cos_0; lra.
  - rewrite R0. destruct normed; auto.
    assert (N : rnorm (V3 0 0 (-1)) = 1).
    { unfold rnorm, rdot; simpl. replace (_ + _) with 1 by ring. apply sqrt_1. }
    rewrite N. apply v3_ext; simpl; field.
Qed.
Print Assumptions C09_centre_ray.

Example C09_example : rep3 (p_getRay Cylindrical (proj_fin ex_p) (fin2 (V2 2000 1500)) true) (V3 0 0 (-1)).
Proof. apply (C09_centre_ray Cylindrical _ ex_p); [apply ex_p_rep|apply ex_p_foc|apply rep2_fin]. Qed.

(** ** C10 field of view *)
Lemma Rdiv1 x : x / 1 = x. Proof. field. Qed.
Lemma rep_fov_tan size f s g : rep size s -> rep f g -> g <> 0 ->
  rep (fov_tan size f) (2 * atan (s / (2 * g)) * (180 / PI)).
Proof. intros; unfold fov_tan; rep_all; lra. Qed.
Lemma rep_fov_arc size f s g : rep size s -> rep f g -> g <> 0 ->
  rep (fov_arc size f) (s / g * (180 / PI)).
Proof. intros; unfold fov_arc; rep_all; lra. Qed.
Lemma half_cos v : 0 < v < 180 -> 0 < cos (v * (PI / 180) / 2) /\ 0 < sin (v * (PI / 180) / 2) /\
  0 < v * (PI / 180) / 2 < PI / 2.
Proof.
  intros B. pose proof PI_RGT_0.
  assert (0 < v * (PI / 180) / 2 < PI / 2).
  { split; [apply Rmult_lt_0_compat; [apply Rmult_lt_0_compat|]; lra|].
    replace (PI / 2) with (180 * (PI / 180) / 2) by field.
    apply Rmult_lt_compat_r; [lra|]. apply Rmult_lt_compat_r; lra. }
  splits; try lra; [apply cos_gt_0|apply sin_gt_0]; lra.
Qed.
Lemma rep_f_tan size view s v : rep size s -> rep view v -> 0 < v < 180 ->
  rep (f_tan size view) (s / (2 * tan (v * (PI / 180) / 2))).
Proof.
  intros Hs Hv B. destruct (half_cos v B) as (C&S&_). unfold f_tan.
  apply rep_div; auto; [apply rep_mul; [apply rep_Fin|apply rep_tan; [rep_all; lra|lra]]|].
  unfold tan. intros E. assert (sin (v * (PI / 180) / 2) / cos (v * (PI / 180) / 2) = 0) by lra.
  assert (0 < sin (v * (PI / 180) / 2) / cos (v * (PI / 180) / 2)).
  { apply Rmult_lt_0_compat; auto. apply Rinv_0_lt_compat; auto. } lra.
Qed.

(** focal length -> field of view -> focal length, for every projection and both axes. *)
Theorem C10_focal_of_fov : forall k c r, rep_proj c r ->
  0 < f_x r -> 0 < f_y r -> 0 < im_width r -> 0 < im_height r ->
  rep (focallengthFromFOV k c (Some (c1 (getFieldOfView k c))) NaN) (f_x r) /\
  rep (focallengthFromFOV k c None (c2 (getFieldOfView k c))) (f_y r).
Proof.
  intros k c r (H1&H2&H3&H4&H5&H6) F1 F2 W H. pose proof PI_RGT_0 as HPI.
  assert (TAN : forall size f s g, rep size s -> rep f g -> 0 < s -> 0 < g ->
    rep (f_tan size (fov_tan size f)) g).
  { intros size f s g Hs Hg Ps Pg.
    pose proof (rep_fov_tan _ _ _ _ Hs Hg ltac:(lra)) as Hv.
    destruct (atan_bound (s / (2 * g))) as (B1&B2).
    assert (0 < s / (2 * g)). { apply Rmult_lt_0_compat; auto. apply Rinv_0_lt_compat; lra. }
    assert (0 < atan (s / (2 * g))) by (rewrite <- atan_0; apply atan_increasing; auto).
    eapply rep_eq; [apply rep_f_tan; [exact Hs|exact Hv|]|].
    - split; [apply Rmult_lt_0_compat; [lra|apply Rmult_lt_0_compat; [lra|apply Rinv_0_lt_compat; lra]]|].
      replace 180 with (PI * (180 / PI)) at 2 by (field; lra).
      apply Rmult_lt_compat_r; [apply Rmult_lt_0_compat; [lra|apply Rinv_0_lt_compat; lra]|lra].
    - replace (2 * atan (s / (2 * g)) * (180 / PI) * (PI / 180) / 2) with (atan (s / (2 * g))) by (field; lra).
      rewrite tan_atan. field. lra. }
  assert (ARC : forall size f s g, rep size s -> rep f g -> 0 < s -> 0 < g ->
    rep (f_arc size (fov_arc size f)) g).
  { intros size f s g Hs Hg Ps Pg. unfold f_arc.
    pose proof (rep_fov_arc _ _ _ _ Hs Hg ltac:(lra)) as Hv.
    assert (E : s / g * (180 / PI) * (PI / 180) = s / g) by (field; lra).
    eapply rep_eq; [apply rep_div; [exact Hs|apply rep_deg2rad; exact Hv|]|];
    rewrite E; [|field; lra].
    apply Rgt_not_eq, Rmult_lt_0_compat; auto. apply Rinv_0_lt_compat; lra. }
  destruct k; cbn [focallengthFromFOV getFieldOfView c1 c2]; split; eauto.
Qed.
Print Assumptions C10_focal_of_fov.
Example C10_focal_of_fov_example : forall k, rep (focallengthFromFOV k (proj_fin ex_p) (Some (c1 (getFieldOfView k (proj_fin ex_p)))) NaN) 3500.
Proof. intros k. destruct (C10_focal_of_fov k _ _ ex_p_rep) as (K&_); [cbn; lra..|exact K]. Qed.

(** field of view -> focal length -> field of view. *)
Theorem C10_fov_of_focal : forall k c r vx vy VX VY, rep_proj c r ->
  0 < im_width r -> 0 < im_height r ->
  rep vx VX -> rep vy VY -> 0 < VX < 180 -> 0 < VY < 180 ->
  let c' := {| f_x := focallengthFromFOV k c (Some vx) NaN; f_y := focallengthFromFOV k c None vy;
      center_x := center_x c; center_y := center_y c; im_width := im_width c; im_height := im_height c |} in
  rep2 (getFieldOfView k c') (V2 VX VY).
Proof.
  intros k c r vx vy VX VY (H1&H2&H3&H4&H5&H6) W H Hx Hy Bx By c'. pose proof PI_RGT_0 as HPI.
  assert (TAN : forall size s v V, rep size s -> rep v V -> 0 < s -> 0 < V < 180 ->
    rep (fov_tan size (f_tan size v)) V).
  { intros size s v V Hs Hv Ps B. destruct (half_cos V B) as (C&S&B').
    assert (T : 0 < tan (V * (PI / 180) / 2)) by (apply tan_gt_0; lra).
    pose proof (rep_f_tan _ _ _ _ Hs Hv B) as Hf.
    eapply rep_eq; [apply rep_fov_tan; [exact Hs|exact Hf|]|].
    - apply Rgt_not_eq, Rmult_lt_0_compat; auto. apply Rinv_0_lt_compat; lra.
    - replace (s / (2 * (s / (2 * tan (V * (PI / 180) / 2))))) with (tan (V * (PI / 180) / 2)) by (field; lra).
      rewrite atan_tan by lra. field; lra. }
  assert (ARC : forall size s v V, rep size s -> rep v V -> 0 < s -> 0 < V ->
    rep (fov_arc size (f_arc size v)) V).
  { intros size s v V Hs Hv Ps B.
    assert (0 < V * (PI / 180)) by (apply Rmult_lt_0_compat; lra).
    assert (Hf : rep (f_arc size v) (s / (V * (PI / 180)))).
    { unfold f_arc; rep_all; lra. }
    eapply rep_eq; [apply rep_fov_arc; [exact Hs|exact Hf|]|].
    - apply Rgt_not_eq, Rmult_lt_0_compat; auto. apply Rinv_0_lt_compat; lra.
    - field; lra. }
  destruct k; cbn [focallengthFromFOV getFieldOfView]; split; cbn [c1 c2 c' im_width im_height f_x f_y focallengthFromFOV];
   first [eapply TAN; eassumption | eapply ARC; eauto; lra].
Qed.
Print Assumptions C10_fov_of_focal.
Example C10_fov_of_focal_example : forall k, rep2 (getFieldOfView k
  (Proj (focallengthFromFOV k (proj_fin ex_p) (Some (Fin 60)) NaN) (focallengthFromFOV k (proj_fin ex_p) None (Fin 45)) (Fin 2000) (Fin 1500) (Fin 4000) (Fin 3000))) (V2 60 45).
Proof. intros k. apply (C10_fov_of_focal k _ _ (Fin 60) (Fin 45) 60 45 ex_p_rep); cbn; try lra; reflexivity. Qed.

(** imageFromFOV of the field of view is the image size. *)
Theorem C10_image_of_fov : forall k c r, rep_proj c r ->
  0 < f_x r -> 0 < f_y r -> 0 < im_width r -> 0 < im_height r ->
  rep (imageFromFOV k c (Some (c1 (getFieldOfView k c))) NaN) (im_width r) /\
  rep (imageFromFOV k c None (c2 (getFieldOfView k c))) (im_height r).
Proof.
  intros k c r (H1&H2&H3&H4&H5&H6) F1 F2 W H. pose proof PI_RGT_0 as HPI.
  assert (TAN : forall size f s g, rep size s -> rep f g -> 0 < s -> 0 < g ->
    rep (i_tan f (fov_tan size f)) s).
  { intros size f s g Hs Hg Ps Pg.
    pose proof (rep_fov_tan _ _ _ _ Hs Hg ltac:(lra)) as Hv.
    assert (E : 2 * atan (s / (2 * g)) * (180 / PI) * (PI / 180) / 2 = atan (s / (2 * g))) by (field; lra).
    unfold i_tan. eapply rep_eq; [apply rep_mul; [eassumption|apply rep_mul; [apply rep_Fin|]]|].
    - apply rep_tan; [rep_all; lra|]. rewrite E. pose proof (cos_atan_pos (s / (2 * g))); lra.
    - rewrite E, tan_atan. field; lra. }
  assert (ARC : forall size f s g, rep size s -> rep f g -> 0 < s -> 0 < g ->
    rep (i_arc f (fov_arc size f)) s).
  { intros size f s g Hs Hg Ps Pg. unfold i_arc.
    pose proof (rep_fov_arc _ _ _ _ Hs Hg ltac:(lra)) as Hv.
    eapply rep_eq; [apply rep_mul; [eassumption|apply rep_deg2rad; exact Hv]|]. field; lra. }
  destruct k; cbn [imageFromFOV getFieldOfView c1 c2]; split; eauto.
Qed.
Print Assumptions C10_image_of_fov.
Example C10_image_of_fov_example : forall k, rep (imageFromFOV k (proj_fin ex_p) (Some (c1 (getFieldOfView k (proj_fin ex_p)))) NaN) 4000.
Proof. intros k. destruct (C10_image_of_fov k _ _ ex_p_rep) as (K&_); [cbn; lra..|exact K]. Qed.

(** For a centred camera the horizontal field of view is the angle between the normed
    rays of the two ends of the middle row, the vertical one between the ends of the
    middle column: their dot product is the cosine of the field of view. *)
Theorem C10_fov_is_ray_angle : forall k c r, rep_proj c r ->
  0 < f_x r -> 0 < f_y r -> 0 < im_width r -> 0 < im_height r ->
  center_x r = im_width r / 2 -> center_y r = im_height r / 2 ->
  (k = Equirectangular -> im_height r / f_y r < PI) ->
  exists FX FY, rep2 (getFieldOfView k c) (V2 FX FY) /\
  (forall q1 q2 A B, rep2 q1 (V2 0 (im_height r / 2)) -> rep2 q2 (V2 (im_width r) (im_height r / 2)) ->
    rep3 (p_getRay k c q1 true) A -> rep3 (p_getRay k c q2 true) B ->
    rdot A B = cos (FX * (PI / 180))) /\
  (forall q1 q2 A B, rep2 q1 (V2 (im_width r / 2) 0) -> rep2 q2 (V2 (im_width r / 2) (im_height r)) ->
    rep3 (p_getRay k c q1 true) A -> rep3 (p_getRay k c q2 true) B ->
    rdot A B = cos (FY * (PI / 180))).
Proof.
  intros k c r Hc F1 F2 W H CX CY HE. pose proof PI_RGT_0 as HPI.
  assert (Hf : foc_ok r) by (split; lra).
  pose proof Hc as (H1&H2&H3&H4&H5&H6).
  assert (C2 : forall t, cos (2 * atan t) = (1 - t * t) / (1 + t * t)).
  { intros t. rewrite cos_2a, sin_atan, cos_atan.
    assert (0 < 1 + t * t) by nra.
    assert (Q : sqrt (1 + t * t) * sqrt (1 + t * t) = 1 + t * t) by (apply sqrt_sqrt; lra).
    assert (0 < sqrt (1 + t * t)) by (apply sqrt_lt_R0; auto).
    transitivity ((1 - t * t) / (sqrt (1 + t * t) * sqrt (1 + t * t))); [field; lra|]. rewrite Q; auto. }
  assert (D2 : forall U V a b, rdot U U = a -> rdot V V = a -> 0 < a -> rdot U V = b ->
     rdot (rv_scale (/ rnorm U) U) (rv_scale (/ rnorm V) V) = b / a).
  { intros U V a b HU HV Ha HUV.
    assert (NU : rnorm U * rnorm U = a) by (rewrite rnorm_sqr; auto).
    assert (NV : rnorm V * rnorm V = a) by (rewrite rnorm_sqr; auto).
    assert (0 < rnorm U) by (pose proof (rnorm_nonneg U); nra).
    assert (EQ : rnorm V = rnorm U). { unfold rnorm; congruence. }
    transitivity (rdot U V / (rnorm U * rnorm U)).
    { rewrite EQ. unfold rdot; simpl. field. lra. }
    rewrite NU, HUV; auto. }
  assert (TAN : forall size s f g, rep size s -> rep f g -> 0 < g ->
     rep (fov_tan size f) (2 * atan (s / (2 * g)) * (180 / PI))).
  { intros; apply rep_fov_tan; auto; lra. }
  assert (ARC : forall size s f g, rep size s -> rep f g -> 0 < g -> rep (fov_arc size f) (s / g * (180 / PI))).
  { intros; apply rep_fov_arc; auto; lra. }
  assert (CT : forall t, cos (2 * atan t * (180 / PI) * (PI / 180)) = (1 - t * t) / (1 + t * t)).
  { intros t. rewrite <- C2. f_equal. field; lra. }
  assert (CA : forall t, cos (t * (180 / PI) * (PI / 180)) = cos t).
  { intros t. f_equal. field; lra. }
  assert (A1 : alphaR r (V2 0 (im_height r / 2)) = - (im_width r / (2 * f_x r)))
    by (unfold alphaR; cbn [c1 c2]; rewrite CX; field; lra).
  assert (A2 : alphaR r (V2 (im_width r) (im_height r / 2)) = im_width r / (2 * f_x r))
    by (unfold alphaR; cbn [c1 c2]; rewrite CX; field; lra).
  assert (B1 : betaR r (V2 0 (im_height r / 2)) = 0) by (unfold betaR; cbn [c1 c2]; rewrite CY; field; lra).
  assert (B2 : betaR r (V2 (im_width r) (im_height r / 2)) = 0) by (unfold betaR; cbn [c1 c2]; rewrite CY; field; lra).
  assert (A3 : alphaR r (V2 (im_width r / 2) 0) = 0) by (unfold alphaR; cbn [c1 c2]; rewrite CX; field; lra).
  assert (A4 : alphaR r (V2 (im_width r / 2) (im_height r)) = 0) by (unfold alphaR; cbn [c1 c2]; rewrite CX; field; lra).
  assert (B3 : betaR r (V2 (im_width r / 2) 0) = - (im_height r / (2 * f_y r)))
    by (unfold betaR; cbn [c1 c2]; rewrite CY; field; lra).
  assert (B4 : betaR r (V2 (im_width r / 2) (im_height r)) = im_height r / (2 * f_y r))
    by (unfold betaR; cbn [c1 c2]; rewrite CY; field; lra).
  set (tx := im_width r / (2 * f_x r)) in *. set (ty := im_height r / (2 * f_y r)) in *.
  assert (WX : im_width r / f_x r = 2 * tx) by (unfold tx; field; lra).
  assert (WY : im_height r / f_y r = 2 * ty) by (unfold ty; field; lra).
  assert (TY : 0 < ty). { unfold ty. apply Rmult_lt_0_compat; auto. apply Rinv_0_lt_compat; lra. }
  assert (SQ : forall a, sin a * sin a + cos a * cos a = 1).
  { intros a; pose proof (sin2_cos2 a) as S; unfold Rsqr in S; auto. }
  assert (RAY : forall q Q A, rep2 q Q -> has_ray k r Q -> rep3 (p_getRay k c q true) A ->
      A = rv_scale (/ rnorm (rayR k r Q)) (rayR k r Q)).
  { intros q Q A Hq HR HA. eapply rep3_inj; [exact HA|].
    apply (p_getRay_spec k c r q Q true Hc Hf Hq HR). }
  destruct k.
  - do 2 eexists. split; [split; cbn [c1 c2 getFieldOfView]; apply TAN; eassumption|]. split.
    + intros q1 q2 A B Q1 Q2 HA HB. rewrite (RAY _ _ _ Q1 I HA), (RAY _ _ _ Q2 I HB).
      rewrite CT. fold tx. apply D2; [| |nra|]; unfold rdot; cbn [rayR cx cy cz]; rewrite ?A1, ?A2, ?B1, ?B2; ring.
    + intros q1 q2 A B Q1 Q2 HA HB. rewrite (RAY _ _ _ Q1 I HA), (RAY _ _ _ Q2 I HB).
      rewrite CT. fold ty. apply D2; [| |nra|]; unfold rdot; cbn [rayR cx cy cz]; rewrite ?A3, ?A4, ?B3, ?B4; ring.
  - do 2 eexists. split; [split; cbn [c1 c2 getFieldOfView]; [apply ARC|apply TAN]; eassumption|]. split.
    + intros q1 q2 A B Q1 Q2 HA HB. rewrite (RAY _ _ _ Q1 I HA), (RAY _ _ _ Q2 I HB).
      rewrite CA, WX, cos_2a. rewrite <- (Rdiv1 (_ - _)).
      apply D2; [| |lra|]; unfold rdot; cbn [rayR cx cy cz]; rewrite ?A1, ?A2, ?B1, ?B2, ?sin_neg, ?cos_neg;
        pose proof (SQ tx); lra.
    + intros q1 q2 A B Q1 Q2 HA HB. rewrite (RAY _ _ _ Q1 I HA), (RAY _ _ _ Q2 I HB).
      rewrite CT. fold ty. apply D2; [| |nra|]; unfold rdot; cbn [rayR cx cy cz];
       rewrite ?A3, ?A4, ?B3, ?B4, ?sin_0, ?cos_0; ring.
  - specialize (HE eq_refl). rewrite WY in HE.
    assert (CP : 0 < cos ty) by (apply cos_gt_0; lra).
    do 2 eexists. split; [split; cbn [c1 c2 getFieldOfView]; apply ARC; eassumption|]. split.
    + intros q1 q2 A B Q1 Q2 HA HB.
      rewrite (RAY _ _ A Q1 ltac:(cbn [has_ray]; rewrite B1, cos_0; lra) HA).
      rewrite (RAY _ _ B Q2 ltac:(cbn [has_ray]; rewrite B2, cos_0; lra) HB).
      rewrite CA, WX, cos_2a. rewrite <- (Rdiv1 (_ - _)).
      apply D2; [| |lra|]; unfold rdot; cbn [rayR cx cy cz]; rewrite ?A1, ?A2, ?B1, ?B2, ?sin_neg, ?cos_neg, ?tan_0;
        pose proof (SQ tx); lra.
    + intros q1 q2 A B Q1 Q2 HA HB.
      rewrite (RAY _ _ A Q1 ltac:(cbn [has_ray]; rewrite B3, cos_neg; lra) HA).
      rewrite (RAY _ _ B Q2 ltac:(cbn [has_ray]; rewrite B4; lra) HB).
      rewrite CA, WY.
      assert (CC : cos (2 * ty) = (1 - tan ty * tan ty) / (1 + tan ty * tan ty)).
      { rewrite cos_2a. unfold tan. pose proof (SQ ty).
        transitivity ((cos ty * cos ty - sin ty * sin ty) / (sin ty * sin ty + cos ty * cos ty)); [rewrite H0; field|].
        field. split; lra. }
      rewrite CC. apply D2; [| |nra|]; unfold rdot; cbn [rayR cx cy cz];
       rewrite ?A3, ?A4, ?B3, ?B4, ?sin_0, ?cos_0, ?tan_neg; ring.
Qed.
Print Assumptions C10_fov_is_ray_angle.

Example C10_example : forall k, exists FX FY, rep2 (getFieldOfView k (proj_fin ex_p)) (V2 FX FY).
Proof.
  intros k. destruct (C10_fov_is_ray_angle k _ _ ex_p_rep) as (a&b&H&_); simpl; try lra; eauto.
  intros _. pose proof PI2_3_2; lra.
Qed.
