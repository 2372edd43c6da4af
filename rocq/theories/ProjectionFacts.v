(** * Proofs about the projection model *)
Require Import Reals Lra Psatz Bool.
From Verif Require Import Num Vec Trig Projection.
Open Scope R_scope.

(** [P] is a positive multiple of [Q]: both point in the same direction. *)
Definition posmul (P Q : v3 R) : Prop := exists k, 0 < k /\ P = rv_scale k Q.

Lemma posmul_refl P : posmul P P.
Proof. exists 1; split; [lra|]. apply v3_ext; simpl; ring. Qed.
Lemma posmul_sym P Q : posmul P Q -> posmul Q P.
Proof.
  intros (k&Hk&->). exists (/ k). split; [apply Rinv_0_lt_compat; auto|].
  apply v3_ext; simpl; field; lra.
Qed.
Lemma posmul_trans P Q S : posmul P Q -> posmul Q S -> posmul P S.
Proof.
  intros (k&Hk&->) (l&Hl&->). exists (k * l). split; [nra|].
  apply v3_ext; simpl; ring.
Qed.
Lemma posmul_scale k P : 0 < k -> posmul (rv_scale k P) P.
Proof. intros; exists k; auto. Qed.

Definition alphaR (r : proj R) (Q : v2 R) : R := (c1 Q - center_x r) / f_x r.
Definition betaR (r : proj R) (Q : v2 R) : R := (c2 Q - center_y r) / f_y r.

(** The viewing direction of a pixel, over the reals. *)
Definition rayR (k : pkind) (r : proj R) (Q : v2 R) : v3 R :=
  match k with
  | Rectilinear => V3 (alphaR r Q) (- betaR r Q) (-1)
  | Cylindrical => V3 (sin (alphaR r Q)) (- betaR r Q) (- cos (alphaR r Q))
  | Equirectangular => V3 (sin (alphaR r Q)) (- tan (betaR r Q)) (- cos (alphaR r Q))
  end.

(** Pixels that have a ray / that are in the nominal range of the projection. *)
Definition has_ray (k : pkind) (r : proj R) (Q : v2 R) : Prop :=
  match k with Equirectangular => cos (betaR r Q) <> 0 | _ => True end.
Definition in_range (k : pkind) (r : proj R) (Q : v2 R) : Prop :=
  match k with
  | Rectilinear => True
  | Cylindrical => - PI < alphaR r Q < PI
  | Equirectangular => - PI < alphaR r Q < PI /\ - (PI / 2) < betaR r Q < PI / 2
  end.
Definition foc_ok (r : proj R) : Prop := f_x r <> 0 /\ f_y r <> 0.
(** the distance 1e-10 from the plane of the camera below which points are not projected *)
Definition tinyR : R := / 10000000000.
(** Camera-space points that the projection can show. *)
Definition showable (k : pkind) (P : v3 R) : Prop :=
  tinyR <= Rabs (cz P) /\ match k with Rectilinear => cz P < 0 | _ => True end.

Lemma tinyR_pos : 0 < tinyR. Proof. unfold tinyR; lra. Qed.
Lemma in_range_has_ray k r Q : in_range k r Q -> has_ray k r Q.
Proof.
  destruct k; simpl; auto. intros (_&B). apply Rgt_not_eq, cos_gt_0; lra.
Qed.
Lemma rayR_nonzero k r Q : rayR k r Q <> rv0.
Proof.
  destruct k; simpl; intros E; inversion E; try lra;
   pose proof (sin2_cos2 (alphaR r Q)) as S; unfold Rsqr in S; nra.
Qed.

Lemma finish_ray_spec ray A normed : rep3 ray A -> A <> rv0 ->
  rep3 (finish_ray ray normed) (rv_neg (if normed then rv_scale (/ rnorm A) A else A)).
Proof.
  intros H Hnz. unfold finish_ray. apply rep3_neg. destruct normed; auto.
  apply rep3_div; auto. apply rep_norm; auto. apply Rgt_not_eq, rnorm_pos; auto.
Qed.

Lemma rnorm_neg A : rnorm (rv_neg A) = rnorm A.
Proof. unfold rnorm; f_equal; unfold rdot; simpl; ring. Qed.

Lemma p_getRay_spec k c r q Q normed :
  rep_proj c r -> foc_ok r -> rep2 q Q -> has_ray k r Q ->
  rep3 (p_getRay k c q normed)
    (if normed then rv_scale (/ rnorm (rayR k r Q)) (rayR k r Q) else rayR k r Q).
Proof.
  intros (H1&H2&H3&H4&H5&H6) (F1&F2) (Q1&Q2) HR.
  assert (G : forall ray, rep3 ray (rv_neg (rayR k r Q)) ->
    rep3 (finish_ray ray normed)
      (if normed then rv_scale (/ rnorm (rayR k r Q)) (rayR k r Q) else rayR k r Q)).
  { intros ray H. eapply rep3_eq.
    - apply finish_ray_spec; [exact H|]. intros E.
      apply (rayR_nonzero k r Q). apply (f_equal rv_neg) in E.
      assert (rv_neg rv0 = rv0) by (apply v3_ext; simpl; ring).
      rewrite H0 in E. rewrite <- E. apply v3_ext; simpl; ring.
    - rewrite rnorm_neg. destruct normed; apply v3_ext; simpl; ring. }
  destruct k; cbn [p_getRay]; apply G; repeat split; cbn [cx cy cz rayR rv_neg map3v];
    unfold alphaR, betaR; reps; auto;
    try (field; auto); try lra; unfold alphaR, betaR.
Qed.

Lemma mask_big p P : rep3 p P -> tinyR <= Rabs (cz P) -> mask_small_z p = p.
Proof.
  intros (_&_&H) B. unfold mask_small_z.
  rewrite (rep_ltb _ _ _ _ (rep_abs _ _ H) (rep_Fin _)), Rltb_false; auto.
Qed.
Lemma mask_small p P : rep3 p P -> Rabs (cz P) < tinyR ->
  mask_small_z p = V3 (Fin 0) (Fin 0) (Fin 0).
Proof.
  intros (_&_&H) B. unfold mask_small_z.
  rewrite (rep_ltb _ _ _ _ (rep_abs _ _ H) (rep_Fin _)), Rltb_true; auto.
Qed.
Lemma big_nz z : tinyR <= Rabs z -> z <> 0.
Proof. intros H ->. rewrite Rabs_R0 in H. pose proof tinyR_pos; lra. Qed.

Lemma rect_image_value c r p P hide : rep_proj c r -> rep3 p P -> tinyR <= Rabs (cz P) ->
  (hide = true -> cz P < 0) ->
  rep2 (rect_image c p hide)
    (V2 (- cx P * f_x r / cz P + center_x r) (cy P * f_y r / cz P + center_y r)).
Proof.
  intros (H1&H2&H3&H4&_) Hp B V. pose proof (big_nz _ B) as NZ.
  unfold rect_image. rewrite (mask_big _ _ Hp B). destruct Hp as (X&Y&Z).
  rewrite (rep_ltb _ _ _ _ (rep_Fin _) Z).
  assert (E : hide && Rltb 0 (cz P) = false).
  { destruct hide; auto. specialize (V eq_refl). rewrite Rltb_false; simpl; auto; lra. }
  rewrite E. split; cbn [c1 c2]; rep_all; auto.
Qed.

(** Image of a showable point: the pixel is finite, the point is a positive multiple of
    the pixel's ray. *)
Lemma p_image_spec k c r p P hide :
  rep_proj c r -> foc_ok r -> rep3 p P -> showable k P ->
  exists Q, rep2 (p_image k c p hide) Q /\ has_ray k r Q /\ posmul P (rayR k r Q).
Proof.
  intros Hc (F1&F2) Hp (B&V). pose proof (big_nz _ B) as NZ.
  destruct k; cbn [p_image].
  - eexists; split; [apply rect_image_value; eauto|]. split; [exact I|].
    exists (- cz P). split; [lra|]. apply v3_ext; simpl; unfold alphaR, betaR; simpl; field; auto.
  - unfold cyl_image. rewrite (mask_big _ _ Hp B).
    destruct Hc as (H1&H2&H3&H4&_), Hp as (X&Y&Z).
    destruct (natan2_polar _ _ _ _ (rep_neg _ _ X) (rep_neg _ _ Z)) as (th&Hth&_&E1&E2); [left; lra|].
    set (rho := hyp (- cz P) (- cx P)) in *.
    assert (Hrho : 0 < rho) by (apply hyp_pos; left; lra).
    assert (Hs : rep (nsqrt (cx p * cx p + cz p * cz p)%num) rho).
    { eapply rep_eq; [apply rep_sqrt; [rep_all|nra]|]. unfold rho, hyp. f_equal; ring. }
    assert (Hy : rep (- f_y c * cy p / nsqrt (cx p * cx p + cz p * cz p) + center_y c)%num
        (- f_y r * cy P / rho + center_y r)).
    { apply rep_add; auto. apply rep_div; auto; [rep_all|lra]. }
    cbn [c2]. rewrite (rep_notnan _ _ Hy).
    eexists (V2 _ _); split; [split; cbn [c1 c2]; [rep_all|exact Hy]|].
    split; [exact I|]. exists rho; split; [auto|].
    apply v3_ext; simpl; unfold alphaR, betaR; cbn [c1 c2].
    + replace ((- f_x r * th + center_x r - center_x r) / f_x r) with (- th) by (field; auto).
      rewrite sin_neg. lra.
    + field; split; auto; lra.
    + replace ((- f_x r * th + center_x r - center_x r) / f_x r) with (- th) by (field; auto).
      rewrite cos_neg. lra.
  - unfold equi_image. rewrite (mask_big _ _ Hp B).
    destruct Hc as (H1&H2&H3&H4&_), Hp as (X&Y&Z).
    destruct (natan2_polar _ _ _ _ (rep_neg _ _ X) (rep_neg _ _ Z)) as (th&Hth&_&E1&E2); [left; lra|].
    set (rho := hyp (- cz P) (- cx P)) in *.
    assert (Hrho : 0 < rho) by (apply hyp_pos; left; lra).
    assert (Hs : rep (nsqrt (cx p * cx p + cz p * cz p)%num) rho).
    { eapply rep_eq; [apply rep_sqrt; [rep_all|nra]|]. unfold rho, hyp. f_equal; ring. }
    pose proof (rep_atan2_pos _ _ _ _ Y Hs Hrho) as Hphi.
    assert (EP : Ratan2 (cy P) rho = atan (cy P / rho)) by (unfold Ratan2; rewrite Rltb_true; auto).
    rewrite EP in Hphi.
    eexists (V2 _ _); split; [split; cbn [c1 c2]; rep_all|].
    cbn [has_ray rayR]. unfold alphaR, betaR; cbn [c1 c2].
    replace ((- f_x r * th + center_x r - center_x r) / f_x r) with (- th) by (field; auto).
    replace ((- f_y r * atan (cy P / rho) + center_y r - center_y r) / f_y r)
      with (- atan (cy P / rho)) by (field; auto).
    rewrite cos_neg. split; [pose proof (cos_atan_pos (cy P / rho)); lra|].
    exists rho; split; auto. rewrite tan_neg, tan_atan, sin_neg, cos_neg.
    apply v3_ext; simpl; [lra|field; lra|lra].
Qed.

(** Image of a point in the direction of a pixel's ray: that pixel. *)
Lemma p_image_of_ray k c r p P hide Q :
  rep_proj c r -> foc_ok r -> rep3 p P -> showable k P -> in_range k r Q ->
  posmul P (rayR k r Q) -> rep2 (p_image k c p hide) Q.
Proof.
  intros Hc (F1&F2) Hp (B&V) HR (l&Hl&EP). pose proof (big_nz _ B) as NZ.
  assert (FA : c1 Q = f_x r * alphaR r Q + center_x r) by (unfold alphaR; field; auto).
  assert (FB : c2 Q = f_y r * betaR r Q + center_y r) by (unfold betaR; field; auto).
  destruct k; cbn [p_image].
  - eapply rep2_eq; [apply rect_image_value; eauto|]. subst P; simpl in *.
    apply v2_ext; cbn [c1 c2]; [rewrite FA|rewrite FB]; field; lra.
  - unfold cyl_image. rewrite (mask_big _ _ Hp B).
    destruct Hc as (H1&H2&H3&H4&_), Hp as (X&Y&Z). simpl in HR.
    subst P; simpl in *. set (a := alphaR r Q) in *.
    assert (Hth : rep (natan2 (- cx p) (- cz p)) (- a)).
    { apply natan2_of_polar with l; auto; [lra|eapply rep_eq; [apply rep_neg; eassumption|]..];
      rewrite ?sin_neg, ?cos_neg; ring. }
    assert (Hs : rep (nsqrt (cx p * cx p + cz p * cz p)%num) l).
    { eapply rep_eq; [apply rep_sqrt; [rep_all|nra]|].
      replace (_ + _) with (l * l * (sin a * sin a + cos a * cos a)) by ring.
      pose proof (sin2_cos2 a) as S; unfold Rsqr in S; rewrite S, Rmult_1_r. apply sqrt_square; lra. }
    assert (Hy : rep (- f_y c * cy p / nsqrt (cx p * cx p + cz p * cz p) + center_y c)%num (c2 Q)).
    { eapply rep_eq; [apply rep_add; [apply rep_div; [rep_all|exact Hs|lra]|eassumption]|].
      rewrite FB. field; lra. }
    cbn [c2]. rewrite (rep_notnan _ _ Hy). split; cbn [c1 c2]; auto.
    reps. rewrite FA. fold a. ring.
  - unfold equi_image. rewrite (mask_big _ _ Hp B).
    destruct Hc as (H1&H2&H3&H4&_), Hp as (X&Y&Z). simpl in HR. destruct HR as (HA&HB).
    subst P; simpl in *. set (a := alphaR r Q) in *. set (b := betaR r Q) in *.
    assert (Hth : rep (natan2 (- cx p) (- cz p)) (- a)).
    { apply natan2_of_polar with l; auto; [lra|eapply rep_eq; [apply rep_neg; eassumption|]..];
      rewrite ?sin_neg, ?cos_neg; ring. }
    assert (Hs : rep (nsqrt (cx p * cx p + cz p * cz p)%num) l).
    { eapply rep_eq; [apply rep_sqrt; [rep_all|nra]|].
      replace (_ + _) with (l * l * (sin a * sin a + cos a * cos a)) by ring.
      pose proof (sin2_cos2 a) as S; unfold Rsqr in S; rewrite S, Rmult_1_r. apply sqrt_square; lra. }
    pose proof (rep_atan2_pos _ _ _ _ Y Hs Hl) as Hphi.
    assert (EP : Ratan2 (l * - tan b) l = - b).
    { unfold Ratan2; rewrite Rltb_true by auto.
      replace (l * - tan b / l) with (- tan b) by (field; lra).
      rewrite atan_opp, atan_tan; auto; lra. }
    rewrite EP in Hphi.
    split; cbn [c1 c2]; reps; [rewrite FA|rewrite FB]; fold a b; ring.
Qed.

Lemma rayR_normed_posmul k r Q (normed : bool) :
  posmul (if normed then rv_scale (/ rnorm (rayR k r Q)) (rayR k r Q) else rayR k r Q) (rayR k r Q).
Proof.
  destruct normed; [|apply posmul_refl].
  apply posmul_scale, Rinv_0_lt_compat, rnorm_pos, rayR_nonzero.
Qed.

(** Different in-range pixels have different directions. *)
Lemma rayR_inj k r Q Q' : foc_ok r -> in_range k r Q -> in_range k r Q' ->
  posmul (rayR k r Q) (rayR k r Q') -> Q = Q'.
Proof.
  intros (F1&F2) H H' (l&Hl&E).
  assert (FA : forall Q, c1 Q = f_x r * alphaR r Q + center_x r) by (intros; unfold alphaR; field; auto).
  assert (FB : forall Q, c2 Q = f_y r * betaR r Q + center_y r) by (intros; unfold betaR; field; auto).
  assert (K : alphaR r Q = alphaR r Q' /\ betaR r Q = betaR r Q').
  { assert (TR : - PI < alphaR r Q < PI -> - PI < alphaR r Q' < PI ->
       sin (alphaR r Q) = l * sin (alphaR r Q') -> cos (alphaR r Q) = l * cos (alphaR r Q') ->
       l = 1 /\ alphaR r Q = alphaR r Q').
    { intros A A' S C. pose proof (sin2_cos2 (alphaR r Q)) as T; pose proof (sin2_cos2 (alphaR r Q')) as T'.
      unfold Rsqr in *. rewrite S, C in T.
      assert (l * l = 1) by nra. assert (l = 1) by nra. subst l. split; auto.
      apply angle_unique; lra. }
    destruct k; simpl in *; inversion E as [[E1 E2 E3]].
    - assert (l = 1) by lra. subst l. lra.
    - destruct (TR H H') as (->&?); lra.
    - destruct (TR (proj1 H) (proj1 H')) as (->&?); try lra. split; auto.
      assert (TT : tan (betaR r Q) = tan (betaR r Q')) by lra.
      rewrite <- (atan_tan (betaR r Q)), <- (atan_tan (betaR r Q')) by lra. congruence. }
  destruct K as (K1&K2). apply v2_ext; rewrite ?FA, ?FB; congruence.
Qed.
