(** * C65: rounding errors of the transformations are bounded *)
Require Import Reals Lra Lia Bool.
From Verif Require Import Num Vec Trig Orientation OrientationFacts Projection ProjectionFacts Ray RayFacts CameraTransform CameraFacts.
From Verif Require Import PropCamera PropStereo Rounding RoundingFacts.
Open Scope R_scope.

(** The angles of an orientation as they are stored: within one turn *)
Definition one_turn (o : opar R) : Prop := Rabs (tilt_deg o) <= 360 /\ Rabs (roll_deg o) <= 360 /\ Rabs (heading_deg o) <= 360.

Lemma sin_abs x : Rabs (sin x) <= Rabs x.
Proof.
  assert (P : forall x, 0 < x -> Rabs (sin x) <= x).
  { intros y H. pose proof (sin_lt_x y H). pose proof (SIN_bound y). apply Rabs_le. split; [|lra].
    destruct (Rle_dec 1 y); [lra|]. pose proof PI2_1. assert (0 <= sin y) by (apply sin_ge_0; lra). lra. }
  destruct (Rtotal_order x 0) as [H | [-> | H]].
  - rewrite <- (Rabs_Ropp (sin x)), <- sin_neg, <- (Rabs_Ropp x), (Rabs_right (- x)) by lra. apply P. lra.
  - rewrite sin_0. lra.
  - rewrite (Rabs_right x) by lra. apply P; auto.
Qed.
Lemma sin_lipschitz a b : Rabs (sin a - sin b) <= Rabs (a - b).
Proof.
  rewrite form4, !Rabs_mult, (Rabs_right 2) by lra. pose proof (sin_abs ((a - b) / 2)) as S. 
  unfold Rdiv in S at 2. rewrite Rabs_mult, (Rabs_right (/ 2)) in S by lra.
  assert (Rabs (cos ((a + b) / 2)) <= 1) by (apply Rabs_le, COS_bound). 
  pose proof (Rabs_pos (cos ((a + b) / 2))). pose proof (Rabs_pos (sin ((a - b) / 2))). nra.
Qed.
Lemma cos_lipschitz a b : Rabs (cos a - cos b) <= Rabs (a - b).
Proof.
  rewrite form2, !Rabs_mult, (Rabs_left (-2)) by lra. pose proof (sin_abs ((a - b) / 2)) as S. 
  unfold Rdiv in S at 2. rewrite Rabs_mult, (Rabs_right (/ 2)) in S by lra.
  assert (Rabs (sin ((a + b) / 2)) <= 1) by (apply Rabs_le, SIN_bound). 
  pose proof (Rabs_pos (sin ((a + b) / 2))). pose proof (Rabs_pos (sin ((a - b) / 2))). nra.
Qed.

Ltac nsplit := unfold nearm, belowm, near3, below3; splits.
Section Rounded.
Context (u : R) (A : floats) (HA : accurate u A).
(** ** The rotation matrix *)
Lemma angle_near d : Rabs d <= 360 -> near (40 * u) (f_sin A (f_rad A d)) (sin (rad d)) /\ near (40 * u) (f_cos A (f_rad A d)) (cos (rad d)).
Proof.
  intros H. pose proof (u_range u A HA) as U. destruct HA as (_&_&HR&HS&HC&_).
  assert (E : near (32 * u) (f_rad A d) (rad d)).
  { unfold near. eapply Rle_trans; [apply HR|]. assert (Rabs (rad d) <= 8); [|nra].
    unfold rad. pose proof PI_RGT_0. pose proof PI_4. rewrite Rabs_mult, (Rabs_right (PI / 180)) by lra.
    apply Rle_trans with (360 * (PI / 180)); [apply Rmult_le_compat_r|]; lra. }
  unfold near in *. split; (eapply near_le; [eapply near_trans; [unfold near; first [apply HS|apply HC]|]|]).
  - unfold near. eapply Rle_trans; [apply sin_lipschitz|]. exact E.
  - lra.
  - unfold near. eapply Rle_trans; [apply cos_lipschitz|]. exact E.
  - lra.
Qed.
Lemma mul_near a b a' b' ea eb : nearm ea a' a -> nearm eb b' b -> belowm 1 a -> belowm 1 b -> 0 <= ea -> 0 <= eb ->
  nearm (3 * (ea * 1 + 1 * eb + ea * eb) + 12 * u * ((1 + ea) * (1 + eb))) (f_mul A a' b') (rm_mul a b).
Proof.
  intros (A1&A2&A3) ((B11&B12&B13)&(B21&B22&B23)&(B31&B32&B33)) (M1&M2&M3) ((N11&N12&N13)&(N21&N22&N23)&(N31&N32&N33)) P1 P2.
  nsplit; cbn; (apply (dot_near u A HA); [assumption|nsplit; assumption|assumption|nsplit; assumption|lra..]).
Qed.
Definition rollR (x : R) : m3 R := V3 (V3 (cos x) (sin x) 0) (V3 (- sin x) (cos x) 0) (V3 0 0 1).
Definition tiltR (x : R) : m3 R := V3 (V3 1 0 0) (V3 0 (cos x) (sin x)) (V3 0 (- sin x) (cos x)).
Definition headR (x : R) : m3 R := V3 (V3 (cos x) (- sin x) 0) (V3 (sin x) (cos x) 0) (V3 0 0 1).
Lemma rotm_product t r h : rotm t r h = rm_mul (rm_mul (rollR r) (tiltR t)) (headR h).
Proof. unfold rotm; apply v3_ext; apply v3_ext; cbv [rm_mul map3v rm_trans rdot cx cy cz rollR tiltR headR]; ring. Qed.
Lemma sin_1 x : Rabs (sin x) <= 1. Proof. apply Rabs_le, SIN_bound. Qed.
Lemma cos_1 x : Rabs (cos x) <= 1. Proof. apply Rabs_le, COS_bound. Qed.
(** The computed matrix is within [1000 u] of the exact one. *)
Lemma matrix_near o : one_turn o -> nearm (1000 * u) (f_matrix A o) (camM o).
Proof.
  intros (H1&H2&H3). pose proof (u_range u A HA) as U. pose proof (uu u A HA) as UU. pose proof (uuu u A HA) as UUU.
  destruct (angle_near _ H1) as (S1&C1). destruct (angle_near _ H2) as (S2&C2). destruct (angle_near _ H3) as (S3&C3).
  assert (Z : forall x, near (40 * u) x x) by (intros; eapply near_le; [apply near_refl|lra]).
  assert (A0 : Rabs 0 <= 1) by (rewrite Rabs_R0; lra). assert (A1 : Rabs 1 <= 1) by (rewrite Rabs_R1; lra).
  pose proof sin_1 as SB. pose proof cos_1 as CB.
  unfold camM. rewrite rotm_product. unfold f_matrix.
  set (t := rad (tilt_deg o)) in *. set (r := rad (roll_deg o)) in *. set (h := rad (heading_deg o)) in *.
  assert (N1 : nearm (260 * u) (f_mul A
    (V3 (V3 (f_cos A (f_rad A (roll_deg o))) (f_sin A (f_rad A (roll_deg o))) 0) (V3 (- f_sin A (f_rad A (roll_deg o))) (f_cos A (f_rad A (roll_deg o))) 0) (V3 0 0 1))
    (V3 (V3 1 0 0) (V3 0 (f_cos A (f_rad A (tilt_deg o))) (f_sin A (f_rad A (tilt_deg o)))) (V3 0 (- f_sin A (f_rad A (tilt_deg o))) (f_cos A (f_rad A (tilt_deg o))))))
    (rm_mul (rollR r) (tiltR t))).
  { assert (E : 3 * (40 * u * 1 + 1 * (40 * u) + 40 * u * (40 * u)) + 12 * u * ((1 + 40 * u) * (1 + 40 * u)) <= 260 * u) by nra.
    assert (K := mul_near (rollR r) (tiltR t)
      (V3 (V3 (f_cos A (f_rad A (roll_deg o))) (f_sin A (f_rad A (roll_deg o))) 0) (V3 (- f_sin A (f_rad A (roll_deg o))) (f_cos A (f_rad A (roll_deg o))) 0) (V3 0 0 1))
      (V3 (V3 1 0 0) (V3 0 (f_cos A (f_rad A (tilt_deg o))) (f_sin A (f_rad A (tilt_deg o)))) (V3 0 (- f_sin A (f_rad A (tilt_deg o))) (f_cos A (f_rad A (tilt_deg o))))) (40 * u) (40 * u)).
    assert (NM : forall X Y, nearm (3 * (40 * u * 1 + 1 * (40 * u) + 40 * u * (40 * u)) + 12 * u * ((1 + 40 * u) * (1 + 40 * u))) X Y -> nearm (260 * u) X Y).
    { intros X Y ((?&?&?)&(?&?&?)&(?&?&?)). nsplit; (eapply near_le; [eassumption|exact E]). }
    apply NM, K; try lra; nsplit; cbn; auto; try (apply near_opp; auto); try (rewrite Rabs_Ropp; auto). }
  assert (E : 3 * (260 * u * 1 + 1 * (40 * u) + 260 * u * (40 * u)) + 12 * u * ((1 + 260 * u) * (1 + 40 * u)) <= 1000 * u) by nra.
  assert (NM : forall X Y, nearm (3 * (260 * u * 1 + 1 * (40 * u) + 260 * u * (40 * u)) + 12 * u * ((1 + 260 * u) * (1 + 40 * u))) X Y -> nearm (1000 * u) X Y).
  { intros X Y ((?&?&?)&(?&?&?)&(?&?&?)). nsplit; (eapply near_le; [eassumption|exact E]). }
  apply NM, mul_near; try lra; [exact N1|..].
  - nsplit; cbn; auto; try (apply near_opp; auto).
  - assert (Y : forall a b, Rabs a <= 1 -> Rabs b <= 1 -> Rabs (a * b) <= 1) by (intros a b Ha Hb; pose proof (abs_prod _ _ _ _ Ha Hb); lra).
    nsplit; cbv [rm_mul map3v rm_trans rdot cx cy cz rollR tiltR headR];
      rewrite ?Rmult_0_l, ?Rmult_0_r, ?Rmult_1_l, ?Rmult_1_r, ?Rplus_0_l, ?Rplus_0_r; auto; try (rewrite Rabs_Ropp; auto); apply Y; rewrite ?Rabs_Ropp; auto.
  - nsplit; cbn; auto; try (rewrite Rabs_Ropp; auto).
Qed.
(** ** Camera coordinates *)
Lemma camM_below o : belowm 1 (camM o) /\ belowm 1 (rm_trans (camM o)).
Proof.
  pose proof (rotm_rows (rad (tilt_deg o)) (rad (roll_deg o)) (rad (heading_deg o))) as (R1&R2&R3&_). fold (camM o) in R1, R2, R3.
  pose proof (rotm_cols (rad (tilt_deg o)) (rad (roll_deg o)) (rad (heading_deg o))) as (C1&C2&C3&_). fold (camM o) in C1, C2, C3.
  split; (split; [|split]); apply row_below; assumption.
Qed.
Lemma rdot_sym p q : rdot p q = rdot q p. Proof. unfold rdot. ring. Qed.
Lemma mul_v_near m m' p p' em ep s : nearm em m' m -> near3 ep p' p -> belowm 1 m -> below3 s p -> 0 <= em -> 0 <= ep -> 0 <= s ->
  near3 (3 * (ep * 1 + s * em + ep * em) + 12 * u * ((s + ep) * (1 + em))) (f_mul_v A m' p') (rm_mul_v m p).
Proof.
  intros (M1&M2&M3) HP (B1&B2&B3) HB P1 P2 P3. unfold f_mul_v, rm_mul_v.
  split; [|split]; cbn [cx cy cz]; rewrite (rdot_sym _ p); apply (dot_near u A HA); auto; lra.
Qed.
(** [S] bounds the coordinates of the point relative to the camera. *)
Lemma camera_near o P S : one_turn o -> below3 S (rv_sub P (opos o)) -> 0 <= S ->
  near3 (3200 * u * S) (f_camera A (f_matrix A o) (opos o) P) (cam_coords o P).
Proof.
  intros HO HB HS. pose proof (u_range u A HA) as U. pose proof (uu u A HA) as UU. pose proof (uuu u A HA) as UUU.
  assert (HM := matrix_near o HO). destruct (camM_below o) as (BM&_).
  assert (HP : near3 (u * S) (zip3v (fun a b => f_round A (a - b)) P (opos o)) (rv_sub P (opos o))).
  { destruct HB as (B1&B2&B3). nsplit; cbn [zip3v rv_sub cx cy cz] in *; (eapply near_le; [apply (fl_near u A HA)|apply Rmult_le_compat_l; lra]). }
  assert (K := mul_v_near _ _ _ _ _ _ S HM HP BM HB ltac:(lra) ltac:(apply Rmult_le_pos; lra) HS).
  assert (E : 3 * (u * S * 1 + S * (1000 * u) + u * S * (1000 * u)) + 12 * u * ((S + u * S) * (1 + 1000 * u)) <= 3200 * u * S).
  { replace (3 * (u * S * 1 + S * (1000 * u) + u * S * (1000 * u)) + 12 * u * ((S + u * S) * (1 + 1000 * u)))
      with ((3015 * u + 15012 * (u * u) + 12000 * (u * u * u)) * S) by ring. apply Rmult_le_compat_r; lra. }
  destruct K as (K1&K2&K3). nsplit; eapply near_le; eauto.
Qed.

(** ** Pixels *)
(** one coordinate: [a / z'] near [X] *)
Lemma pixel_near f c a z' X d : z' <> 0 -> near d (a / z') X -> 0 <= d ->
  near (u * (4 * Rabs (f * X) + Rabs (f * X + c)) + (1 + 4 * u) * (Rabs f * d))
    (f_round A (f_round A (f_round A (a * f) / z') + c)) (f * X + c).
Proof.
  intros Nz HX Hd. pose proof (u_range u A HA) as U. pose proof (uu u A HA) as UU.
  destruct (fl_rel u A HA (a * f)) as (d1&D1&->). destruct (fl_rel u A HA (a * f * (1 + d1) / z')) as (d2&D2&->).
  destruct (prod2 u A HA d1 d2 D1 D2) as (d3&D3&E3).
  replace (a * f * (1 + d1) / z' * (1 + d2)) with (f * (a / z') * (1 + d3)) by (rewrite <- E3; field; auto).
  set (w := f * (a / z') * (1 + d3)).
  assert (W : near ((2 * u + u * / 1000000) * Rabs (f * X) + (1 + (2 * u + u * / 1000000)) * (Rabs f * d)) w (f * X)).
  { unfold near, w. replace (f * (a / z') * (1 + d3) - f * X) with (d3 * (f * X) + (1 + d3) * (f * (a / z' - X))) by ring.
    eapply Rle_trans; [apply Rabs_triang|]. rewrite (Rabs_mult d3). apply Rplus_le_compat; [apply Rmult_le_compat_r; [apply Rabs_pos|exact D3]|].
    apply abs_prod.
    - eapply Rle_trans; [apply Rabs_triang|]. rewrite Rabs_R1. lra.
    - rewrite Rabs_mult. apply Rmult_le_compat_l; [apply Rabs_pos|exact HX]. }
  set (e := (2 * u + u * / 1000000) * Rabs (f * X) + (1 + (2 * u + u * / 1000000)) * (Rabs f * d)) in *.
  assert (S : near e (w + c) (f * X + c)).
  { unfold near in *. replace (w + c - (f * X + c)) with (w - f * X) by ring. exact W. }
  pose proof (fl_near u A HA (w + c)) as F. eapply near_le; [eapply near_trans; [exact F|exact S]|].
  pose proof (near_abs _ _ _ _ S (Rle_refl _)) as B.
  assert (FX : 0 <= Rabs (f * X)) by apply Rabs_pos. assert (FD : 0 <= Rabs f * d) by (apply Rmult_le_pos; [apply Rabs_pos|auto]).
  assert (u * Rabs (w + c) <= u * (Rabs (f * X + c) + e)) by (apply Rmult_le_compat_l; lra).
  unfold e in *. nra.
Qed.
Definition pixel_error (f q c S z : R) : R := 7000 * (S / Rabs z) * (Rabs f + Rabs (q - c)) + 4 * Rabs (q - c) + Rabs q.
Lemma coordinate_near f c x z x' z' S : near (3200 * u * S) x' x -> near (3200 * u * S) z' z -> 0 <= S -> 0 < Rabs z -> 6400 * u * S <= Rabs z ->
  near (u * pixel_error f (x * f / z + c) c S z) (f_round A (f_round A (f_round A (x' * f) / z') + c)) (x * f / z + c).
Proof.
  intros HX HZ HS Pz E. pose proof (u_range u A HA) as U. pose proof (uu u A HA) as UU.
  destruct (quotient_near x z x' z' _ HX HZ Pz ltac:(lra)) as (Lz&Q).
  assert (Nz' : z' <> 0) by (intros ->; rewrite Rabs_R0 in Lz; lra). assert (Nz : z <> 0) by (intros ->; rewrite Rabs_R0 in Pz; lra).
  set (d := 2 * (3200 * u * S) / Rabs z * (1 + Rabs (x / z))) in *.
  assert (SZ : 0 <= S / Rabs z) by (apply Rmult_le_pos; [auto|apply Rlt_le, Rinv_0_lt_compat; auto]).
  assert (Pd : d = 6400 * u * (S / Rabs z) * (1 + Rabs (x / z))) by (unfold d; field; lra).
  pose proof (Rabs_pos (x / z)) as PX. assert (Hd : 0 <= d) by (rewrite Pd; apply Rmult_le_pos; [apply Rmult_le_pos; [lra|exact SZ]|lra]).
  replace (x * f / z + c) with (f * (x / z) + c) by (field; auto).
  eapply near_le; [apply (pixel_near f c x' z' (x / z) d Nz' Q Hd)|]. unfold pixel_error.
  replace (f * (x / z) + c - c) with (f * (x / z)) by ring.
  assert (FD : Rabs f * d = 6400 * u * (S / Rabs z) * (Rabs f + Rabs (f * (x / z)))) by (rewrite Pd, Rabs_mult; ring).
  rewrite FD. set (a := Rabs (f * (x / z))). set (b := Rabs (f * (x / z) + c)). pose proof (Rabs_pos f).
  assert (0 <= a) by apply Rabs_pos. set (k := S / Rabs z * (Rabs f + a)).
  assert (0 <= k) by (apply Rmult_le_pos; lra).
  replace (6400 * u * (S / Rabs z) * (Rabs f + a)) with (6400 * u * k) by (unfold k; ring).
  replace (7000 * (S / Rabs z) * (Rabs f + a)) with (7000 * k) by (unfold k; ring).
  assert ((1 + 4 * u) * (6400 * u * k) <= 7000 * (u * k)); [|lra].
  replace ((1 + 4 * u) * (6400 * u * k)) with (u * k * (6400 + 25600 * u)) by ring.
  assert (0 <= u * k) by (apply Rmult_le_pos; lra). nra.
Qed.
(** ** Rays *)
(** What is assumed of np.linalg.inv: it returns an inverse up to rounding. *)
Definition inverse_ok (o : opar R) (mi : m3 R) : Prop := belowm 2 mi /\ nearm (10000 * u) (rm_mul mi (f_matrix A o)) rm_id.
Lemma rdot_near a b b' m e : below3 m a -> near3 e b' b -> 0 <= m -> 0 <= e -> near (3 * m * e) (rdot a b') (rdot a b).
Proof.
  intros (M1&M2&M3) (N1&N2&N3) Pm Pe. unfold near, rdot in *.
  replace (cx a * cx b' + cy a * cy b' + cz a * cz b' - (cx a * cx b + cy a * cy b + cz a * cz b))
    with (cx a * (cx b' - cx b) + cy a * (cy b' - cy b) + cz a * (cz b' - cz b)) by ring.
  pose proof (abs_prod _ _ _ _ M1 N1). pose proof (abs_prod _ _ _ _ M2 N2). pose proof (abs_prod _ _ _ _ M3 N3).
  eapply Rle_trans; [apply Rabs_triang|]. eapply Rle_trans; [apply Rplus_le_compat_r, Rabs_triang|]. lra.
Qed.
Lemma near3_trans p q r e e' : near3 e p q -> near3 e' q r -> near3 (e + e') p r.
Proof. intros (H1&H2&H3) (K1&K2&K3). nsplit; eapply near_trans; eassumption. Qed.
Lemma near3_sym p q e : near3 e p q -> near3 e q p.
Proof. intros (H1&H2&H3). nsplit; unfold near in *; rewrite Rabs_minus_sym; assumption. Qed.
(** one row [v] of the inverse and the row [i] of the identity *)
Lemma inverse_row o v i : one_turn o -> below3 2 v ->
  near3 (10000 * u) (V3 (rdot v (cx (rm_trans (f_matrix A o)))) (rdot v (cy (rm_trans (f_matrix A o)))) (rdot v (cz (rm_trans (f_matrix A o))))) i ->
  near3 (50000 * u) v (rm_mul_v (camM o) i).
Proof.
  intros HO HV HI. pose proof (u_range u A HA) as U. assert (HM := matrix_near o HO). destruct (camM_below o) as ((B1&B2&B3)&_).
  destruct HM as ((M11&M12&M13)&(M21&M22&M23)&(M31&M32&M33)). set (M := camM o) in *.
  assert (EV : v = rm_mul_v M (rm_mul_v (rm_trans M) v)) by (symmetry; apply mul_trans; unfold M, camM; apply rotm_rows).
  set (w := rm_mul_v (rm_trans M) v) in *.
  assert (NW : near3 (6000 * u) w (V3 (rdot v (cx (rm_trans (f_matrix A o)))) (rdot v (cy (rm_trans (f_matrix A o)))) (rdot v (cz (rm_trans (f_matrix A o)))))).
  { apply near3_sym. unfold w, rm_mul_v. nsplit; cbn [cx cy cz]; rewrite (rdot_sym _ v);
      (eapply near_le; [apply (rdot_near _ _ _ 2 (1000 * u)); [assumption|nsplit; assumption|lra|lra]|lra]). }
  assert (NI := near3_trans _ _ _ _ _ NW HI).
  rewrite EV. unfold rm_mul_v at 1 2. nsplit; cbn [cx cy cz];
    (eapply near_le; [apply (rdot_near _ _ _ 1 (6000 * u + 10000 * u)); [assumption|exact NI|lra|lra]|lra]).
Qed.
Lemma inverse_near o mi : one_turn o -> inverse_ok o mi -> nearm (50000 * u) mi (rm_trans (camM o)).
Proof.
  intros HO ((B1&B2&B3)&(N1&N2&N3)).
  pose proof (inverse_row o _ _ HO B1 N1) as (K11&K12&K13). pose proof (inverse_row o _ _ HO B2 N2) as (K21&K22&K23). pose proof (inverse_row o _ _ HO B3 N3) as (K31&K32&K33).
  cbn [rm_mul_v rm_id cx cy cz] in *. unfold rdot in *. cbn [cx cy cz] in *.
  nsplit; cbn [rm_trans cx cy cz]; match goal with |- near _ ?a ?b => match goal with H : near _ a ?x |- _ => replace b with x by ring; exact H end end.
Qed.
Lemma ray_near r Q rho : foc_ok r -> below3 rho (rayR Rectilinear r Q) -> near3 (3 * u * rho) (f_rect_ray A r Q) (rayR Rectilinear r Q).
Proof.
  intros (F1&F2) (B1&B2&B3). pose proof (u_range u A HA) as U. cbn [rayR cx cy cz] in *. rewrite Rabs_Ropp in B2.
  unfold f_rect_ray. nsplit; cbn [rv_neg map3v cx cy cz].
  - destruct (fl_rel u A HA (c1 Q - center_x r)) as (d1&D1&->). destruct (fl_rel u A HA (- ((c1 Q - center_x r) * (1 + d1)) / f_x r)) as (d2&D2&->).
    destruct (prod2 u A HA d1 d2 D1 D2) as (d3&D3&E3). unfold near, alphaR.
    replace (- (- ((c1 Q - center_x r) * (1 + d1)) / f_x r * (1 + d2)) - (c1 Q - center_x r) / f_x r)
      with (((1 + d1) * (1 + d2) - 1) * alphaR r Q) by (unfold alphaR; field; auto).
    rewrite E3. replace (1 + d3 - 1) with d3 by ring. eapply Rle_trans; [apply (abs_prod _ _ _ _ D3 B1)|].
    apply Rmult_le_compat_r; [eapply Rle_trans; [apply Rabs_pos|exact B1]|lra].
  - destruct (fl_rel u A HA (c2 Q - center_y r)) as (d1&D1&->). destruct (fl_rel u A HA (((c2 Q - center_y r) * (1 + d1)) / f_y r)) as (d2&D2&->).
    destruct (prod2 u A HA d1 d2 D1 D2) as (d3&D3&E3). unfold near.
    replace (- ((c2 Q - center_y r) * (1 + d1) / f_y r * (1 + d2)) - - betaR r Q)
      with (- (((1 + d1) * (1 + d2) - 1) * betaR r Q)) by (unfold betaR; field; auto).
    rewrite Rabs_Ropp, E3. replace (1 + d3 - 1) with d3 by ring. eapply Rle_trans; [apply (abs_prod _ _ _ _ D3 B2)|].
    apply Rmult_le_compat_r; [eapply Rle_trans; [apply Rabs_pos|exact B2]|lra].
  - eapply near_le; [apply near_refl|]. assert (0 <= rho) by (eapply Rle_trans; [apply Rabs_pos|exact B3]). apply Rmult_le_pos; lra.
Qed.
(** [rho] bounds the coordinates of the ray in the camera's coordinates. *)
Lemma direction_near o mi r Q rho : one_turn o -> inverse_ok o mi -> foc_ok r -> below3 rho (rayR Rectilinear r Q) ->
  near3 (152000 * u * rho) (f_direction A mi r Q) (rm_mul_v (rm_trans (camM o)) (rayR Rectilinear r Q)).
Proof.
  intros HO HI HF HB. pose proof (u_range u A HA) as U. pose proof (uu u A HA) as UU. pose proof (uuu u A HA) as UUU.
  assert (P : 0 <= rho) by (destruct HB as (B1&_); eapply Rle_trans; [apply Rabs_pos|exact B1]).
  destruct (camM_below o) as (_&BM).
  assert (K := mul_v_near _ _ _ _ _ _ rho (inverse_near o mi HO HI) (ray_near r Q rho HF HB) BM HB ltac:(lra) ltac:(apply Rmult_le_pos; lra) P).
  assert (E : 3 * (3 * u * rho * 1 + rho * (50000 * u) + 3 * u * rho * (50000 * u)) + 12 * u * ((rho + 3 * u * rho) * (1 + 50000 * u)) <= 152000 * u * rho).
  { replace (3 * (3 * u * rho * 1 + rho * (50000 * u) + 3 * u * rho * (50000 * u)) + 12 * u * ((rho + 3 * u * rho) * (1 + 50000 * u)))
      with ((150021 * u + 1050036 * (u * u) + 1800000 * (u * u * u)) * rho) by ring. apply Rmult_le_compat_r; lra. }
  destruct K as (K1&K2&K3). nsplit; (eapply near_le; [eassumption|exact E]).
Qed.
Lemma dot_zero b : f_dot A (V3 0 0 0) b = 0.
Proof.
  destruct HA as (_&_&_&_&_&HD). specialize (HD (V3 0 0 0) b). cbn in HD. unfold rdot in HD. cbn in HD.
  rewrite !Rmult_0_l, Rabs_R0, !Rplus_0_r, Rmult_0_r, Rminus_0_r in HD.
  destruct (Req_dec (f_dot A (V3 0 0 0) b) 0) as [E | N]; [exact E|]. pose proof (Rabs_pos_lt _ N). lra.
Qed.
Lemma origin_fl o mi : f_origin A mi o = map3v (f_round A) (opos o).
Proof. unfold f_origin, f_space, f_mul_v. rewrite !dot_zero. apply v3_ext; cbn [zip3v map3v cx cy cz]; rewrite Rplus_0_l; reflexivity. Qed.

(** one coordinate of a point on the plane: [g] is the direction's coordinate per height *)
Definition plane_error (H tz t x g rho dz : R) : R :=
  310000 * (Rabs H + Rabs tz) * (rho / Rabs dz) * (1 + Rabs g) + 6 * (Rabs H + Rabs tz) * Rabs g + 2 * Rabs t + Rabs x.
Lemma plane_near z tz t dx dz dx' dz' rho : near (152000 * u * rho) dx' dx -> near (152000 * u * rho) dz' dz ->
  0 <= rho -> 0 < Rabs dz -> 304000 * u * rho <= Rabs dz ->
  near (u * plane_error (z - tz) tz t ((z - tz) / dz * dx + t) (dx / dz) rho dz)
    (f_round A (f_round A (dx' * f_round A (f_round A (z - f_round A tz) / dz')) + f_round A t)) ((z - tz) / dz * dx + t).
Proof.
  intros HX HZ HR Pz E. pose proof (u_range u A HA) as U. pose proof (uu u A HA) as UU.
  destruct (quotient_near dx dz dx' dz' _ HX HZ Pz ltac:(lra)) as (Lz&Q).
  assert (Nz' : dz' <> 0) by (intros ->; rewrite Rabs_R0 in Lz; lra). assert (Nz : dz <> 0) by (intros ->; rewrite Rabs_R0 in Pz; lra).
  set (d := 2 * (152000 * u * rho) / Rabs dz * (1 + Rabs (dx / dz))) in *.
  assert (SZ : 0 <= rho / Rabs dz) by (apply Rmult_le_pos; [auto|apply Rlt_le, Rinv_0_lt_compat; auto]).
  assert (Pd : d = 304000 * u * (rho / Rabs dz) * (1 + Rabs (dx / dz))) by (unfold d; field; lra).
  set (g := dx / dz) in *. pose proof (Rabs_pos g) as PX.
  assert (Hd : 0 <= d) by (rewrite Pd; apply Rmult_le_pos; [apply Rmult_le_pos; [lra|exact SZ]|lra]).
  set (H := z - tz). set (B := Rabs H + Rabs tz). assert (PB : 0 <= B) by (unfold B; pose proof (Rabs_pos H); pose proof (Rabs_pos tz); lra).
  (* the height *)
  destruct (fl_rel u A HA tz) as (e0&E0&->). destruct (fl_rel u A HA (z - tz * (1 + e0))) as (e1&E1&->).
  set (H' := (z - tz * (1 + e0)) * (1 + e1)).
  assert (NH : near (2 * u * B) H' H).
  { unfold near, H'. replace ((z - tz * (1 + e0)) * (1 + e1) - H) with (e1 * H + - (e0 * tz * (1 + e1))) by (unfold H; ring).
    eapply Rle_trans; [apply Rabs_triang|]. rewrite Rabs_Ropp, !Rabs_mult.
    assert (Rabs (1 + e1) <= 2) by (eapply Rle_trans; [apply Rabs_triang|]; rewrite Rabs_R1; lra).
    assert (Rabs e1 * Rabs H <= u * Rabs H) by (apply Rmult_le_compat_r; [apply Rabs_pos|auto]).
    assert (Rabs e0 * Rabs tz <= u * Rabs tz) by (apply Rmult_le_compat_r; [apply Rabs_pos|auto]).
    assert (0 <= Rabs e0 * Rabs tz) by (apply Rmult_le_pos; apply Rabs_pos).
    pose proof (Rabs_pos (1 + e1)). pose proof (Rabs_pos H). assert (0 <= u * Rabs H) by (apply Rmult_le_pos; lra).
    assert (Rabs e0 * Rabs tz * Rabs (1 + e1) <= u * Rabs tz * 2) by (apply Rmult_le_compat; auto). unfold B. lra. }
  (* factor and product *)
  destruct (fl_rel u A HA (H' / dz')) as (e2&E2&->). destruct (fl_rel u A HA (dx' * (H' / dz' * (1 + e2)))) as (e3&E3&->).
  destruct (prod2 u A HA e2 e3 E2 E3) as (e4&E4&EE).
  replace (dx' * (H' / dz' * (1 + e2)) * (1 + e3)) with (H' * (dx' / dz') * (1 + e4)) by (rewrite <- EE; field; auto).
  destruct (fl_rel u A HA t) as (e5&E5&->).
  assert (BH : Rabs H <= B) by (unfold B; pose proof (Rabs_pos tz); lra).
  assert (N1 := near_mul H g H' (dx' / dz') (2 * u * B) d B (Rabs g) NH Q BH (Rle_refl _)).
  set (n := 2 * u * B * Rabs g + B * d + 2 * u * B * d) in *.
  assert (Pn : 0 <= n). { unfold n. assert (0 <= u * B * Rabs g) by (apply Rmult_le_pos; [apply Rmult_le_pos; lra|auto]).
    assert (0 <= B * d) by (apply Rmult_le_pos; auto). assert (0 <= u * B * d) by (apply Rmult_le_pos; [apply Rmult_le_pos; lra|auto]). lra. }
  assert (Hg : Rabs (H * g) <= B * Rabs g) by (apply abs_prod; [auto|apply Rle_refl]).
  assert (N2 : near ((1 + 3 * u) * n + 3 * u * (B * Rabs g)) (H' * (dx' / dz') * (1 + e4)) (H * g)).
  { unfold near in *. replace (H' * (dx' / dz') * (1 + e4) - H * g) with ((1 + e4) * (H' * (dx' / dz') - H * g) + e4 * (H * g)) by ring.
    eapply Rle_trans; [apply Rabs_triang|]. apply Rplus_le_compat; apply abs_prod; auto; [|lra].
    eapply Rle_trans; [apply Rabs_triang|]. rewrite Rabs_R1. lra. }
  assert (N3 : near (u * Rabs t) (t * (1 + e5)) t).
  { unfold near. replace (t * (1 + e5) - t) with (e5 * t) by ring. rewrite Rabs_mult. apply Rmult_le_compat_r; [apply Rabs_pos|auto]. }
  assert (N4 := near_add _ _ _ _ _ _ N2 N3). replace (H / dz * dx + t) with (H * g + t) by (unfold g; field; auto).
  pose proof (near_abs _ _ _ _ N4 (Rle_refl _)) as B4. set (m := (1 + 3 * u) * n + 3 * u * (B * Rabs g) + u * Rabs t) in *.
  eapply near_le; [eapply near_trans; [apply (fl_near u A HA)|exact N4]|].
  assert (u * Rabs (H' * (dx' / dz') * (1 + e4) + t * (1 + e5)) <= u * (Rabs (H * g + t) + m)) by (apply Rmult_le_compat_l; lra).
  apply Rle_trans with (u * Rabs (H * g + t) + (1 + u) * m); [lra|].
  unfold plane_error. fold B. replace (z - tz) with H by reflexivity.
  set (k := B * (rho / Rabs dz) * (1 + Rabs g)). assert (Pk : 0 <= k) by (unfold k; apply Rmult_le_pos; [apply Rmult_le_pos; auto|lra]).
  assert (BD : B * d = 304000 * (u * k)) by (rewrite Pd; unfold k; ring).
  assert (EN : n = 2 * (u * (B * Rabs g)) + 304000 * (u * k) + 608000 * (u * (u * k))).
  { unfold n. replace (2 * u * B * d) with (2 * u * (B * d)) by ring. rewrite BD. ring. }
  set (h := B * Rabs g) in *. assert (Ph : 0 <= h) by (unfold h; apply Rmult_le_pos; auto).
  replace (310000 * B * (rho / Rabs dz) * (1 + Rabs g)) with (310000 * k) by (unfold k; ring).
  replace (6 * B * Rabs g) with (6 * h) by (unfold h; ring).
  assert (uk : 0 <= u * k) by (apply Rmult_le_pos; lra). assert (uuk : 0 <= u * (u * k) <= / 1000000 * (u * k)) by nra.
  assert (uh : 0 <= u * h) by (apply Rmult_le_pos; lra). pose proof (Rabs_pos t). assert (ut : 0 <= u * Rabs t) by (apply Rmult_le_pos; lra).
  assert (Bn : n <= 2 * (u * h) + 304001 * (u * k)) by lra.
  assert (B3 : (1 + 3 * u) * n <= n + 3 / 1000000 * n) by nra.
  assert (B0 : 0 <= (1 + 3 * u) * n) by (apply Rmult_le_pos; lra).
  assert (Bm : 0 <= m <= 51/10 * (u * h) + 304100 * (u * k) + u * Rabs t) by (unfold m; split; lra).
  assert ((1 + u) * m <= m + / 1000000 * m) by nra. lra.
Qed.
(** the given coordinate itself *)
Lemma given_near z tz dz' : dz' <> 0 ->
  near (u * (4 * Rabs (z - tz) + Rabs tz + Rabs z))
    (f_round A (f_round A (dz' * f_round A (f_round A (z - f_round A tz) / dz')) + f_round A tz)) z.
Proof.
  intros N. pose proof (u_range u A HA) as U. pose proof (uu u A HA) as UU.
  destruct (fl_rel u A HA tz) as (e0&E0&->). set (o := tz * (1 + e0)).
  destruct (fl_rel u A HA (z - o)) as (e1&E1&->). destruct (fl_rel u A HA ((z - o) * (1 + e1) / dz')) as (e2&E2&->).
  destruct (fl_rel u A HA (dz' * ((z - o) * (1 + e1) / dz' * (1 + e2)))) as (e3&E3&->).
  destruct (prod2 u A HA e1 e2 E1 E2) as (e4&E4&EE).
  replace (dz' * ((z - o) * (1 + e1) / dz' * (1 + e2)) * (1 + e3)) with ((z - o) * ((1 + e4) * (1 + e3))) by (rewrite <- EE; field; auto).
  set (f := e4 + e3 + e4 * e3). replace ((1 + e4) * (1 + e3)) with (1 + f) by (unfold f; ring).
  assert (F : Rabs f <= 31 / 10 * u).
  { unfold f. pose proof (abs_prod _ _ _ _ E4 E3). eapply Rle_trans; [apply Rabs_triang|]. eapply Rle_trans; [apply Rplus_le_compat_r, Rabs_triang|]. lra. }
  assert (O : Rabs (z - o) <= Rabs (z - tz) + u * Rabs tz).
  { replace (z - o) with ((z - tz) + - (e0 * tz)) by (unfold o; ring). eapply Rle_trans; [apply Rabs_triang|].
    rewrite Rabs_Ropp, Rabs_mult. apply Rplus_le_compat_l. apply Rmult_le_compat_r; [apply Rabs_pos|auto]. }
  assert (N1 : near (31 / 10 * u * (Rabs (z - tz) + u * Rabs tz)) ((z - o) * (1 + f) + o) z).
  { unfold near. replace ((z - o) * (1 + f) + o - z) with (f * (z - o)) by ring. apply abs_prod; auto. }
  pose proof (near_abs _ _ _ _ N1 (Rle_refl _)) as B1. set (m := 31 / 10 * u * (Rabs (z - tz) + u * Rabs tz)) in *.
  eapply near_le; [eapply near_trans; [apply (fl_near u A HA)|exact N1]|].
  assert (u * Rabs ((z - o) * (1 + f) + o) <= u * (Rabs z + m)) by (apply Rmult_le_compat_l; lra).
  pose proof (Rabs_pos (z - tz)) as Pz. pose proof (Rabs_pos tz) as Pt. set (a := Rabs (z - tz)) in *. set (b := Rabs tz) in *.
  assert (ua : 0 <= u * a) by (apply Rmult_le_pos; lra). assert (ub : 0 <= u * b) by (apply Rmult_le_pos; lra).
  assert (uub : 0 <= u * (u * b) <= / 1000000 * (u * b)) by nra.
  assert (EM : m = 31 / 10 * (u * a) + 31 / 10 * (u * (u * b))) by (unfold m; ring).
  assert (um : u * m <= / 1000000 * m) by nra. lra.
Qed.
Lemma height_near z tz : near (2 * u * (Rabs (z - tz) + Rabs tz)) (f_round A (z - f_round A tz)) (z - tz).
Proof.
  pose proof (u_range u A HA) as U. set (H := z - tz).
  destruct (fl_rel u A HA tz) as (e0&E0&->). destruct (fl_rel u A HA (z - tz * (1 + e0))) as (e1&E1&->).
  unfold near. replace ((z - tz * (1 + e0)) * (1 + e1) - H) with (e1 * H + - (e0 * tz * (1 + e1))) by (unfold H; ring).
  eapply Rle_trans; [apply Rabs_triang|]. rewrite Rabs_Ropp, !Rabs_mult.
  assert (Rabs (1 + e1) <= 2) by (eapply Rle_trans; [apply Rabs_triang|]; rewrite Rabs_R1; lra).
  assert (Rabs e1 * Rabs H <= u * Rabs H) by (apply Rmult_le_compat_r; [apply Rabs_pos|auto]).
  assert (Rabs e0 * Rabs tz <= u * Rabs tz) by (apply Rmult_le_compat_r; [apply Rabs_pos|auto]).
  assert (0 <= Rabs e0 * Rabs tz) by (apply Rmult_le_pos; apply Rabs_pos).
  pose proof (Rabs_pos (1 + e1)). pose proof (Rabs_pos H). assert (0 <= u * Rabs H) by (apply Rmult_le_pos; lra).
  assert (Rabs e0 * Rabs tz * Rabs (1 + e1) <= u * Rabs tz * 2) by (apply Rmult_le_compat; auto). lra.
Qed.
Lemma same_sign e a' a : near e a' a -> e < Rabs a -> (0 < a -> 0 < a') /\ (a < 0 -> a' < 0).
Proof.
  unfold near. intros N L. pose proof (Rle_abs (a' - a)). pose proof (Rle_abs (- (a' - a))) as K. rewrite Rabs_Ropp in K.
  split; intros S; [rewrite (Rabs_right a) in L by lra|rewrite (Rabs_left a) in L by lra]; lra.
Qed.
Lemma quotient_sign a b : (0 < a / b -> (0 < a /\ 0 < b) \/ (a < 0 /\ b < 0)) /\ (a / b < 0 -> (0 < a /\ b < 0) \/ (a < 0 /\ 0 < b)).
Proof.
  destruct (Rtotal_order b 0) as [B | [-> | B]].
  - assert (/ b < 0) by (apply Rinv_lt_0_compat; auto). unfold Rdiv. split; intros; nra.
  - unfold Rdiv. rewrite Rinv_0, Rmult_0_r. split; intros; lra.
  - assert (0 < / b) by (apply Rinv_0_lt_compat; auto). unfold Rdiv. split; intros; nra.
Qed.
Lemma factor_sign z tz dz dz' rho : near (152000 * u * rho) dz' dz -> 3 * u * (Rabs (z - tz) + Rabs tz) < Rabs (z - tz) -> 152000 * u * rho < Rabs dz ->
  dz' <> 0 /\ (0 < (z - tz) / dz -> 0 <= f_round A (f_round A (z - f_round A tz) / dz')) /\ ((z - tz) / dz < 0 -> f_round A (f_round A (z - f_round A tz) / dz') < 0).
Proof.
  intros N3 HH HD. pose proof (u_range u A HA) as U. assert (NH := height_near z tz). set (H := z - tz) in *. set (H' := f_round A (z - f_round A tz)) in *.
  assert (0 <= u * (Rabs H + Rabs tz)) by (apply Rmult_le_pos; [lra|pose proof (Rabs_pos H); pose proof (Rabs_pos tz); lra]).
  destruct (same_sign _ _ _ NH ltac:(lra)) as (H1&H2). destruct (same_sign _ _ _ N3 HD) as (D1&D2).
  assert (Nz' : dz' <> 0).
  { intros Z. subst dz'. unfold near in N3. replace (0 - dz) with (- dz) in N3 by ring. rewrite Rabs_Ropp in N3. lra. }
  split; [exact Nz'|]. destruct (fl_rel u A HA (H' / dz')) as (e&E&EQ). rewrite EQ.
  assert (0 < 1 + e) by (pose proof (Rle_abs (- e)) as K; rewrite Rabs_Ropp in K; lra).
  destruct (quotient_sign H dz) as (Q1&Q2). split; intros S.
  - apply Rmult_le_pos; [|lra]. destruct (Q1 S) as [(X&Y) | (X&Y)].
    + apply H1 in X. apply D1 in Y. apply Rmult_le_pos; [lra|apply Rlt_le, Rinv_0_lt_compat; auto].
    + apply H2 in X. apply D2 in Y. assert (/ dz' < 0) by (apply Rinv_lt_0_compat; auto). unfold Rdiv. nra.
  - assert (H' / dz' < 0); [|nra]. destruct (Q2 S) as [(X&Y) | (X&Y)].
    + apply H1 in X. apply D2 in Y. assert (/ dz' < 0) by (apply Rinv_lt_0_compat; auto). unfold Rdiv. nra.
    + apply H2 in X. apply D1 in Y. assert (0 < / dz') by (apply Rinv_0_lt_compat; auto). unfold Rdiv. nra.
Qed.
End Rounded.

Lemma near_bounds e a b : near e a b -> b - e <= a <= b + e.
Proof. unfold near. intros H. pose proof (Rle_abs (a - b)). pose proof (Rle_abs (- (a - b))) as K. rewrite Rabs_Ropp in K. lra. Qed.

(** ** The theorems *)
Theorem C65_matrix : forall u A o, accurate u A -> one_turn o -> nearm (1000 * u) (f_matrix A o) (camM o).
Proof. intros; apply matrix_near; auto. Qed.
Print Assumptions C65_matrix.

(** A point in front of the camera is shown, and the computed pixel is near that of the model without rounding. *)
Theorem C65_image : forall u A c r o p P S hide, accurate u A -> plain_cam c Rectilinear r o -> one_turn o -> rep3 p P ->
  0 <= S -> below3 S (rv_sub P (opos o)) ->
  let z := cz (cam_coords o P) in z <= - (2 * tinyR) -> 6400 * u * S <= - z ->
  exists q Q, f_imageFromSpace A r o P hide = Some q /\ rep2 (imageFromSpace c p hide) Q /\
    near (u * pixel_error (f_x r) (c1 Q) (center_x r) S z) (c1 q) (c1 Q) /\
    near (u * pixel_error (f_y r) (c2 Q) (center_y r) S z) (c2 q) (c2 Q).
Proof.
  intros u A c r o p P S hide HA HC HO HP HS HB z Hz Hu. pose proof tinyR_pos as T.
  destruct (camera_near u A HA o P S HO HB HS) as (N1&N2&N3). set (X := f_camera A (f_matrix A o) (opos o) P) in *.
  assert (Az : Rabs z = - z) by (apply Rabs_left; lra).
  pose proof (near_bounds _ _ _ N3) as N3'. fold z in N3'.
  unfold f_imageFromSpace, f_rect_image. fold X.
  assert (ZX : cz X <= z / 2) by lra.
  rewrite (Rltb_false (Rabs (cz X))) by (rewrite Rabs_left by lra; fold tinyR; lra).
  rewrite (Rltb_false 0) by lra. rewrite andb_false_r. eexists.
  exists (V2 (- cx (cam_coords o P) * f_x r / z + center_x r) (cy (cam_coords o P) * f_y r / z + center_y r)).
  split; [reflexivity|]. pose proof HC as HC'. destruct HC' as (_&_&_&_&(F1&F2)&_). splits; cbn [c1 c2].
  - apply (image_dir c Rectilinear r o p P _ hide HC HP).
    + split; [fold z; lra|]. fold z. lra.
    + exact I.
    + exists (- z). split; [lra|]. cbn [rayR alphaR betaR c1 c2]. unfold alphaR, betaR. cbn [c1 c2]. apply v3_ext; cbn [rv_scale map3v cx cy cz]; try (field; split; lra). fold z. ring.
  - apply coordinate_near; auto; [apply near_opp; exact N1|lra..].
  - apply coordinate_near; auto; lra.
Qed.
Print Assumptions C65_image.
(** A point behind the camera is hidden as in the model without rounding. *)
Theorem C65_hidden : forall u A c r o p P S, accurate u A -> plain_cam c Rectilinear r o -> one_turn o -> rep3 p P ->
  0 <= S -> below3 S (rv_sub P (opos o)) ->
  let z := cz (cam_coords o P) in 2 * tinyR <= z -> 6400 * u * S <= z ->
  f_imageFromSpace A r o P true = None /\ imageFromSpace c p true = nan2.
Proof.
  intros u A c r o p P S HA HC HO HP HS HB z Hz Hu. pose proof tinyR_pos as T. split.
  - destruct (camera_near u A HA o P S HO HB HS) as (_&_&N3). set (X := f_camera A (f_matrix A o) (opos o) P) in *.
    pose proof (near_bounds _ _ _ N3) as N3'. fold z in N3'. unfold f_imageFromSpace, f_rect_image. fold X.
    assert (ZX : z / 2 <= cz X) by lra. rewrite (Rltb_true 0) by lra. destruct (Rltb _ _); reflexivity.
  - destruct (plain_good _ _ _ _ HC) as ((Hpr&HF&HR)&HK&HDi&_). unfold imageFromSpace. rewrite HDi, HK.
    pose proof (rigid_camera _ _ _ _ _ HR HP) as (_&_&RZ). fold (cam_coords o P) in RZ. fold z in RZ.
    set (x := cameraFromSpace (cam_o c) p) in *. cbn [p_image]. unfold rect_image, mask_small_z.
    rewrite (rep_ltb _ _ _ _ (rep_abs _ _ RZ) (rep_Fin (/ 10000000000))), Rltb_false by (rewrite Rabs_right by lra; fold tinyR; lra).
    rewrite (rep_ltb _ _ _ _ (rep_Fin 0) RZ), Rltb_true by lra. reflexivity.
Qed.
Print Assumptions C65_hidden.

(** In double precision the pixel is right to a hundred-thousandth of a pixel, unless the point is seen extremely
    obliquely, near the plane of the camera. *)
Theorem C65_double : forall A c r o p P S hide, accurate u53 A -> plain_cam c Rectilinear r o -> one_turn o -> rep3 p P ->
  0 <= S -> below3 S (rv_sub P (opos o)) -> cz (cam_coords o P) <= - (2 * tinyR) -> S <= 100 * - cz (cam_coords o P) ->
  Rabs (f_x r) <= 10000 -> Rabs (f_y r) <= 10000 ->
  exists q Q, f_imageFromSpace A r o P hide = Some q /\ rep2 (imageFromSpace c p hide) Q /\
    (Rabs (c1 Q - center_x r) <= 100000 -> Rabs (c1 Q) <= 100000 -> near (/ 100000) (c1 q) (c1 Q)) /\
    (Rabs (c2 Q - center_y r) <= 100000 -> Rabs (c2 Q) <= 100000 -> near (/ 100000) (c2 q) (c2 Q)).
Proof.
  intros A c r o p P S hide HA HC HO HP HS HB Hz Hs F1 F2. pose proof tinyR_pos as T.
  destruct (C65_image u53 A c r o p P S hide HA HC HO HP HS HB Hz) as (q&Q&E&RQ&N1&N2); [unfold u53; lra|].
  set (z := cz (cam_coords o P)) in *. exists q, Q. split; [exact E|]. split; [exact RQ|].
  assert (K : forall f a c, Rabs f <= 10000 -> Rabs (a - c) <= 100000 -> Rabs a <= 100000 -> u53 * pixel_error f a c S z <= / 100000).
  { intros f a b Hf Hc Ha. unfold pixel_error. rewrite (Rabs_left z) by lra.
    assert (SZ : S / - z <= 100) by (apply (Rmult_le_reg_r (- z)); [lra|]; unfold Rdiv; rewrite Rmult_assoc, Rinv_l by lra; lra).
    assert (SP : 0 <= S / - z) by (apply Rmult_le_pos; [auto|apply Rlt_le, Rinv_0_lt_compat; lra]).
    pose proof (Rabs_pos f). pose proof (Rabs_pos (a - b)).
    assert (S / - z * (Rabs f + Rabs (a - b)) <= 100 * 110000) by (apply Rmult_le_compat; lra). unfold u53. lra. }
  split; intros; (eapply near_le; [eassumption|apply K; auto]).
Qed.
Print Assumptions C65_double.

(** A pixel is recovered from its ray. *)
Theorem C65_round_trip : forall u A r Q, accurate u A -> foc_ok r ->
  exists q, f_rect_image A r (f_rect_ray A r Q) true = Some q /\
    near (u * (5 * Rabs (c1 Q - center_x r) + Rabs (c1 Q))) (c1 q) (c1 Q) /\ near (u * (5 * Rabs (c2 Q - center_y r) + Rabs (c2 Q))) (c2 q) (c2 Q).
Proof.
  intros u A r Q HA (F1&F2). pose proof (u_range u A HA) as U. pose proof (uu u A HA) as UU.
  assert (M1 : cz (f_rect_ray A r Q) = - (1)) by reflexivity.
  unfold f_rect_image. rewrite M1. rewrite (Rltb_false (Rabs _)) by (rewrite Rabs_Ropp, Rabs_R1; lra). rewrite (Rltb_false 0) by lra. rewrite andb_false_r.
  eexists. split; [reflexivity|]. cbn [c1 c2 f_rect_ray rv_neg map3v cx cy].
  assert (P3 : forall a b c, Rabs a <= u -> Rabs b <= u -> Rabs c <= u -> Rabs ((1 + a) * (1 + b) * (1 + c) - 1) <= 31 / 10 * u).
  { intros x y z X Y Z. destruct (prod2 u A HA x y X Y) as (w&W&->). replace ((1 + w) * (1 + z) - 1) with (w + z + w * z) by ring.
    pose proof (abs_prod _ _ _ _ W Z). eapply Rle_trans; [apply Rabs_triang|]. eapply Rle_trans; [apply Rplus_le_compat_r, Rabs_triang|]. lra. }
  assert (K : forall v b c f d1 d2 d3 d4, f <> 0 -> Rabs d1 <= u -> Rabs d2 <= u -> Rabs d3 <= u -> Rabs d4 <= u ->
    v = (b - c) * ((1 + d1) * (1 + d2) * (1 + d3)) * (1 + d4) + c -> near (u * (5 * Rabs (b - c) + Rabs b)) (f_round A v) b).
  { intros v b c f d1 d2 d3 d4 Nf D1 D2 D3 D4 ->. set (g := (1 + d1) * (1 + d2) * (1 + d3) - 1). assert (G := P3 d1 d2 d3 D1 D2 D3). fold g in G.
    replace ((b - c) * ((1 + d1) * (1 + d2) * (1 + d3)) * (1 + d4) + c) with (b + (b - c) * (g + d4 + g * d4)) by (unfold g; ring).
    assert (GE : Rabs (g + d4 + g * d4) <= 42 / 10 * u).
    { pose proof (abs_prod _ _ _ _ G D4). eapply Rle_trans; [apply Rabs_triang|]. eapply Rle_trans; [apply Rplus_le_compat_r, Rabs_triang|]. lra. }
    assert (N : near (42 / 10 * u * Rabs (b - c)) (b + (b - c) * (g + d4 + g * d4)) b).
    { unfold near. replace (b + (b - c) * (g + d4 + g * d4) - b) with ((g + d4 + g * d4) * (b - c)) by ring. rewrite Rabs_mult. apply Rmult_le_compat_r; [apply Rabs_pos|auto]. }
    pose proof (near_abs _ _ _ _ N (Rle_refl _)) as B. eapply near_le; [eapply near_trans; [apply (fl_near u A HA)|exact N]|].
    pose proof (Rabs_pos (b - c)) as PB. set (h := Rabs (b - c)) in *. assert (0 <= u * h) by (apply Rmult_le_pos; lra).
    assert (u * Rabs (b + (b - c) * (g + d4 + g * d4)) <= u * (Rabs b + 42 / 10 * u * h)) by (apply Rmult_le_compat_l; lra).
    assert (u * (u * h) <= / 1000000 * (u * h)) by nra. lra. }
  split.
  - destruct (fl_rel u A HA (c1 Q - center_x r)) as (d1&D1&->). destruct (fl_rel u A HA (- ((c1 Q - center_x r) * (1 + d1)) / f_x r)) as (d2&D2&->).
    destruct (fl_rel u A HA (- - (- ((c1 Q - center_x r) * (1 + d1)) / f_x r * (1 + d2)) * f_x r)) as (d3&D3&->).
    destruct (fl_rel u A HA (- - (- ((c1 Q - center_x r) * (1 + d1)) / f_x r * (1 + d2)) * f_x r * (1 + d3) / - (1))) as (d4&D4&->).
    apply (K _ _ (center_x r) (f_x r) d1 d2 d3 d4); auto. field. auto.
  - destruct (fl_rel u A HA (c2 Q - center_y r)) as (d1&D1&->). destruct (fl_rel u A HA ((c2 Q - center_y r) * (1 + d1) / f_y r)) as (d2&D2&->).
    destruct (fl_rel u A HA (- ((c2 Q - center_y r) * (1 + d1) / f_y r * (1 + d2)) * f_y r)) as (d3&D3&->).
    destruct (fl_rel u A HA (- ((c2 Q - center_y r) * (1 + d1) / f_y r * (1 + d2)) * f_y r * (1 + d3) / - (1))) as (d4&D4&->).
    apply (K _ _ (center_y r) (f_y r) d1 d2 d3 d4); auto. field. auto.
Qed.
Print Assumptions C65_round_trip.

(** The point of a pixel on the plane of height [z]: the given coordinate is kept up to rounding, the other two are near
    those of the model without rounding; the error grows towards the horizon, where the direction's third coordinate
    vanishes. *)
Theorem C65_ground : forall u A c r o mi q Q zn z rho, accurate u A -> plain_cam c Rectilinear r o -> one_turn o -> inverse_ok u A o mi ->
  rep2 q Q -> rep zn z -> below3 rho (rayR Rectilinear r Q) ->
  let D := rm_mul_v (rm_trans (camM o)) (rayR Rectilinear r Q) in
  let H := z - elevation_m o in
  0 < H / cz D -> 304000 * u * rho < Rabs (cz D) -> 3 * u * (Rabs H + Rabs (elevation_m o)) < Rabs H ->
  exists p p' P, f_spaceFromImage A mi r o Q z = Some p /\ spaceFromImage c q (on_Z zn) = Some p' /\ rep3 p' P /\
    near (u * plane_error H (elevation_m o) (pos_x_m o) (cx P) (cx D / cz D) rho (cz D)) (cx p) (cx P) /\
    near (u * plane_error H (elevation_m o) (pos_y_m o) (cy P) (cy D / cz D) rho (cz D)) (cy p) (cy P) /\
    near (u * (4 * Rabs H + Rabs (elevation_m o) + Rabs z)) (cz p) z.
Proof.
  intros u A c r o mi q Q zn z rho HA HC HO HI Hq Hz HB D H HP HD HH. pose proof (u_range u A HA) as U.
  destruct (plain_good _ _ _ _ HC) as (HG&HK&_&HU). pose proof HG as (_&HF&_).
  assert (P : 0 <= rho) by (destruct HB as (B1&_); eapply Rle_trans; [apply Rabs_pos|exact B1]).
  assert (Pz : 0 < Rabs (cz D)) by (assert (0 <= u * rho) by (apply Rmult_le_pos; lra); lra).
  assert (Nz : cz D <> 0) by (intros E; rewrite E, Rabs_R0 in Pz; lra).
  destruct (direction_near u A HA o mi r Q rho HO HI HF HB) as (N1&N2&N3). fold D in N1, N2, N3. set (D' := f_direction A mi r Q) in *.
  destruct (factor_sign u A HA z (elevation_m o) (cz D) (cz D') rho N3 HH ltac:(lra)) as (Nz'&SG&_). fold H in SG. specialize (SG HP).
  assert (HDir : rep3 (snd (getRay c q false)) D).
  { pose proof (direction_rep c r (camM o) (opos o) q Q false HG) as K. unfold D. rewrite <- HK. apply K; [rewrite HU; auto|rewrite HK; exact I]. }
  destruct (C11_axis_constraint c Rectilinear r o q Q AZ zn z D HC Hq I Hz HDir Nz) as (p'&E'&_&K).
  cbn [get_axis opos cz] in K. fold H in K. destruct K as (PP&RP&_&EP&_); [lra|].
  unfold f_spaceFromImage. fold D'. rewrite origin_fl with (u := u) by exact HA. cbn [map3v opos cx cy cz].
  rewrite Rltb_false by lra. eexists. exists p', PP. split; [reflexivity|]. split; [exact E'|]. split; [exact RP|].
  cbn [zip3v cx cy cz]. splits.
  - assert (EX : cx PP = H / cz D * cx D + pos_x_m o) by (rewrite EP; cbn; ring). rewrite EX. apply plane_near; auto; lra.
  - assert (EY : cy PP = H / cz D * cy D + pos_y_m o) by (rewrite EP; cbn; ring). rewrite EY. apply plane_near; auto; lra.
  - apply given_near; auto.
Qed.
Print Assumptions C65_ground.
(** Pixels above the horizon have no point, as in the model without rounding. *)
Theorem C65_sky : forall u A c r o mi q Q zn z rho, accurate u A -> plain_cam c Rectilinear r o -> one_turn o -> inverse_ok u A o mi ->
  rep2 q Q -> rep zn z -> below3 rho (rayR Rectilinear r Q) ->
  let D := rm_mul_v (rm_trans (camM o)) (rayR Rectilinear r Q) in
  let H := z - elevation_m o in
  H / cz D < 0 -> 304000 * u * rho < Rabs (cz D) -> 3 * u * (Rabs H + Rabs (elevation_m o)) < Rabs H ->
  f_spaceFromImage A mi r o Q z = None /\ spaceFromImage c q (on_Z zn) = Some nan3.
Proof.
  intros u A c r o mi q Q zn z rho HA HC HO HI Hq Hz HB D H HP HD HH. pose proof (u_range u A HA) as U.
  destruct (plain_good _ _ _ _ HC) as (HG&HK&_&HU). pose proof HG as (_&HF&_).
  assert (P : 0 <= rho) by (destruct HB as (B1&_); eapply Rle_trans; [apply Rabs_pos|exact B1]).
  assert (Pz : 0 < Rabs (cz D)) by (assert (0 <= u * rho) by (apply Rmult_le_pos; lra); lra).
  assert (Nz : cz D <> 0) by (intros E; rewrite E, Rabs_R0 in Pz; lra).
  destruct (direction_near u A HA o mi r Q rho HO HI HF HB) as (N1&N2&N3). fold D in N1, N2, N3. set (D' := f_direction A mi r Q) in *.
  destruct (factor_sign u A HA z (elevation_m o) (cz D) (cz D') rho N3 HH ltac:(lra)) as (Nz'&_&SG). fold H in SG. specialize (SG HP). split.
  - unfold f_spaceFromImage. fold D'. rewrite origin_fl with (u := u) by exact HA. cbn [map3v opos cx cy cz]. rewrite Rltb_true by lra. reflexivity.
  - assert (HDir : rep3 (snd (getRay c q false)) D).
    { pose proof (direction_rep c r (camM o) (opos o) q Q false HG) as K. unfold D. rewrite <- HK. apply K; [rewrite HU; auto|rewrite HK; exact I]. }
    destruct (C11_axis_constraint c Rectilinear r o q Q AZ zn z D HC Hq I Hz HDir Nz) as (p'&E'&K&_).
    cbn [get_axis opos cz] in K. fold H in K. rewrite <- (K HP). exact E'.
Qed.
Print Assumptions C65_sky.

(** ** Without rounding *)
(** With exact arithmetic the functions above are those of the other files: the bounds vanish with [u]. *)
Definition exact : floats := Floats (fun x => x) rad sin cos rdot.
Lemma exact_accurate u : 0 <= u <= / 1000000 -> accurate u exact.
Proof.
  intros U. unfold accurate, exact. cbn [f_round f_rad f_sin f_cos f_dot].
  assert (K : forall x y, 0 <= y -> Rabs (x - x) <= y) by (intros; replace (x - x) with 0 by ring; rewrite Rabs_R0; auto).
  splits; intros; try lra; apply K; repeat apply Rmult_le_pos; try apply Rabs_pos; try lra.
  pose proof (Rabs_pos (cx a * cx b)). pose proof (Rabs_pos (cy a * cy b)). pose proof (Rabs_pos (cz a * cz b)). lra.
Qed.
Theorem C65_exact : forall c r o p P hide, plain_cam c Rectilinear r o -> one_turn o -> rep3 p P ->
  cz (cam_coords o P) <= - (2 * tinyR) -> exists q, f_imageFromSpace exact r o P hide = Some q /\ rep2 (imageFromSpace c p hide) q.
Proof.
  intros c r o p P hide HC HO HP HZ. set (S := Rabs (cx (rv_sub P (opos o))) + Rabs (cy (rv_sub P (opos o))) + Rabs (cz (rv_sub P (opos o)))).
  pose proof (Rabs_pos (cx (rv_sub P (opos o)))). pose proof (Rabs_pos (cy (rv_sub P (opos o)))). pose proof (Rabs_pos (cz (rv_sub P (opos o)))).
  destruct (C65_image 0 exact c r o p P S hide (exact_accurate 0 ltac:(lra)) HC HO HP) as (q&Q&E&RQ&N1&N2).
  - unfold S; lra.
  - unfold S, below3; lra.
  - exact HZ.
  - assert (0 < tinyR) by (unfold tinyR; lra). lra.
  - exists q. split; [exact E|]. unfold near in N1, N2. rewrite Rmult_0_l in N1, N2.
    assert (Z : forall x, Rabs x <= 0 -> x = 0) by (intros x; unfold Rabs; destruct (Rcase_abs x); lra).
    apply Z in N1. apply Z in N2. replace q with Q; [exact RQ|]. destruct q, Q; cbn in *. f_equal; lra.
Qed.
Print Assumptions C65_exact.

(** ** The horizon *)
(** No rounding of relative size [u] > 0 decides every pixel rightly: below the horizon by about [u] the ray may turn up. *)
Theorem C65_horizon_refuted : forall u, 0 < u <= / 1000000 -> exists A r o mi Q, accurate u A /\ one_turn o /\ inverse_ok u A o mi /\ foc_ok r /\
  0 < (0 - elevation_m o) / cz (rm_mul_v (rm_trans (camM o)) (rayR Rectilinear r Q)) /\ f_spaceFromImage A mi r o Q 0 = None.
Proof.
  intros u U. assert (HA := exact_accurate u ltac:(lra)).
  assert (HM : camM ex_or2 = V3 (V3 1 0 0) (V3 0 0 1) (V3 0 (-1) 0)).
  { unfold camM. cbn [tilt_deg roll_deg heading_deg ex_or2]. unfold rotm, rad. replace (90 * (PI / 180)) with (PI / 2) by field. replace (0 * (PI / 180)) with 0 by ring.
    rewrite sin_PI2, cos_PI2, sin_0, cos_0. repeat f_equal; ring. }
  assert (HF : f_matrix exact ex_or2 = camM ex_or2).
  { unfold f_matrix, f_mul, exact, camM. cbn [f_rad f_sin f_cos f_dot]. rewrite rotm_product. reflexivity. }
  exists exact, ex_r, ex_or2, (V3 (V3 1 0 0) (V3 0 0 (-1)) (V3 0 1 (- (2 * u)))), (V2 2000 (1500 + 3500 * u)).
  split; [exact HA|]. split; [unfold one_turn, ex_or2; cbn; rewrite Rabs_R0, Rabs_right by lra; lra|]. split; [|split].
  - unfold inverse_ok. rewrite HF, HM. unfold nearm, belowm, near3, below3, near, rm_mul, rm_id, rm_trans, rdot. cbn.
    splits; apply Rabs_le; lra.
  - unfold foc_ok, ex_r; cbn; lra.
  - rewrite HM. unfold rayR, alphaR, betaR, rm_mul_v, rm_trans, rdot, ex_r, ex_or2. cbn. split.
    + replace ((0 - 10) / _) with (10 / u) by (field; lra). apply Rdiv_lt_0_compat; lra.
    + unfold f_spaceFromImage, f_direction, f_origin, f_space, f_mul_v, f_rect_ray, exact, rdot. cbn.
      rewrite Rltb_true; [reflexivity|].
      replace (_ / _) with (- (10 / u)) by (field; lra). assert (0 < 10 / u) by (apply Rdiv_lt_0_compat; lra). lra.
Qed.
Print Assumptions C65_horizon_refuted.

(** ** Examples *)
(** The transposed matrix is an inverse up to rounding. *)
Lemma inverse_transpose u A o : accurate u A -> one_turn o -> inverse_ok u A o (rm_trans (camM o)).
Proof.
  intros HA HO. pose proof (u_range u A HA) as U. destruct (camM_below o) as (_&B1&B2&B3). split.
  - destruct B1 as (?&?&?), B2 as (?&?&?), B3 as (?&?&?). nsplit; lra.
  - assert (HM := matrix_near u A HA o HO).
    assert (E : rm_mul (rm_trans (camM o)) (camM o) = rm_id).
    { pose proof (rotm_cols (rad (tilt_deg o)) (rad (roll_deg o)) (rad (heading_deg o))) as (H1&H2&H3&H4&H5&H6). fold (camM o) in *.
      destruct (camM o) as [[a1 a2 a3] [b1 b2 b3] [d1 d2 d3]]. cbv [rm_mul rm_id map3v rm_trans rdot cx cy cz] in *. repeat f_equal; lra. }
    rewrite <- E. destruct HM as ((M11&M12&M13)&(M21&M22&M23)&(M31&M32&M33)).
    unfold rm_mul. nsplit; cbn [map3v cx cy cz];
    (eapply near_le; [apply (rdot_near _ _ _ 1 (1000 * u)); [assumption|nsplit; assumption|lra|lra]|lra]).
Qed.

Lemma ex2_one_turn : one_turn ex_or2.
Proof. unfold one_turn, ex_or2; cbn. rewrite Rabs_R0, Rabs_right by lra. lra. Qed.
Lemma ex2_matrix : camM ex_or2 = V3 (V3 1 0 0) (V3 0 0 1) (V3 0 (-1) 0).
Proof.
  unfold camM. cbn [tilt_deg roll_deg heading_deg ex_or2]. unfold rotm, rad. replace (90 * (PI / 180)) with (PI / 2) by field. replace (0 * (PI / 180)) with 0 by ring.
  rewrite sin_PI2, cos_PI2, sin_0, cos_0. repeat f_equal; ring.
Qed.
(** In double precision, a camera 10 m above the ground, looking horizontally: the ground point (1, 50) is shown at
    (2070, 2200) up to a hundred-thousandth of a pixel, *)
Example C65_image_example : exists c q, plain_cam c Rectilinear ex_r ex_or2 /\ f_imageFromSpace binary64 ex_r ex_or2 (V3 1 50 0) true = Some q /\
  near (/ 100000) (c1 q) 2070 /\ near (/ 100000) (c2 q) 2200.
Proof.
  destruct (ex_cam2 Rectilinear) as (c&HC). exists c.
  destruct (C65_double binary64 c ex_r ex_or2 (fin3 (V3 1 50 0)) (V3 1 50 0) 50 true binary64_accurate HC ex2_one_turn (rep3_fin _)) as (q&Q&E&RQ&N1&N2).
  - lra.
  - unfold below3, ex_or2; cbn. splits; apply Rabs_le; lra.
  - rewrite ex2_coords. cbn. unfold tinyR. lra.
  - rewrite ex2_coords. cbn. lra.
  - cbn. rewrite Rabs_right; lra.
  - cbn. rewrite Rabs_right; lra.
  - exists q. split; [exact HC|]. split; [exact E|].
    assert (K : rep2 (imageFromSpace c (fin3 (V3 1 50 0)) true) (V2 2070 2200)).
    { apply (image_dir c Rectilinear ex_r ex_or2 _ (V3 1 50 0) _ true HC (rep3_fin _)); [apply ex2_showable; lra|exact I|].
      rewrite ex2_coords. exists 50. split; [lra|]. unfold rayR, alphaR, betaR, ex_r. apply v3_ext; cbn; field. }
    assert (EQ : Q = V2 2070 2200). { destruct RQ as (A1&A2), K as (K1&K2). destruct Q; cbn in *. f_equal; eapply rep_inj; eauto. }
    rewrite EQ in N1, N2. cbn in N1, N2. split; [apply N1|apply N2]; apply Rabs_le; lra.
Qed.
(** and this pixel's ground point is (1, 50) up to a hundred-thousandth of a metre. *)
Lemma ex2_ray : rm_mul_v (rm_trans (camM ex_or2)) (rayR Rectilinear ex_r (V2 2070 2200)) = V3 (/ 50) 1 (- / 5).
Proof. rewrite ex2_matrix. unfold rayR, alphaR, betaR, rm_mul_v, rm_trans, rdot, ex_r. cbn. f_equal; field. Qed.
Example C65_ground_example : exists p, f_spaceFromImage binary64 (rm_trans (camM ex_or2)) ex_r ex_or2 (V2 2070 2200) 0 = Some p /\
  near (/ 100000) (cx p) 1 /\ near (/ 100000) (cy p) 50 /\ near (/ 100000) (cz p) 0.
Proof.
  destruct (ex_cam2 Rectilinear) as (c&HC).
  destruct (C65_ground u53 binary64 c ex_r ex_or2 (rm_trans (camM ex_or2)) (V2 (Fin 2070) (Fin 2200)) (V2 2070 2200) (Fin 0) 0 1 binary64_accurate HC
    ex2_one_turn (inverse_transpose _ _ _ binary64_accurate ex2_one_turn)) as (p&p'&P&E&E'&RP&N1&N2&N3).
  - split; reflexivity.
  - reflexivity.
  - unfold below3, rayR, alphaR, betaR, ex_r; cbn. splits; apply Rabs_le; lra.
  - rewrite ex2_ray. cbn. replace ((0 - 10) / - / 5) with 50 by field. lra.
  - rewrite ex2_ray. cbn. unfold u53. rewrite Rabs_left by lra. lra.
  - cbn. unfold u53. rewrite Rabs_left, Rabs_right by lra. lra.
  - exists p. split; [exact E|]. rewrite ex2_ray in N1, N2. cbn [cx cy cz ex_or2 elevation_m pos_x_m pos_y_m] in N1, N2, N3.
    assert (EP : P = V3 1 50 0).
    { destruct (C11_ray_starts_at_camera c Rectilinear ex_r ex_or2 (V2 (Fin 2070) (Fin 2200)) (V2 2070 2200) HC) as (D&_&RD&_&ED); [split; reflexivity|discriminate|].
      rewrite ex2_coords in ED. unfold rayR, alphaR, betaR, ex_r in ED.
      cbn [rv_add zip3v opos ex_or2 pos_x_m pos_y_m elevation_m cx cy cz c1 c2 f_x f_y center_x center_y] in ED. injection ED as E1 E2 E3.
      destruct (C11_axis_constraint c Rectilinear ex_r ex_or2 (V2 (Fin 2070) (Fin 2200)) (V2 2070 2200) AZ (Fin 0) 0 D HC) as (q'&EQ&_&K); try (split; reflexivity); try exact I; try reflexivity; auto.
      { cbn [get_axis]. lra. }
      cbn [get_axis opos ex_or2 elevation_m cz] in K. assert (EZ : cz D = - / 5) by lra. rewrite EZ in K. destruct K as (P0&RP0&_&EP0&_); [replace ((0 - 10) / - / 5) with 50 by field; lra|].
      change (spaceFromImage c (V2 (Fin 2070) (Fin 2200)) (on_Z (Fin 0)) = Some q') in EQ. rewrite E' in EQ. injection EQ as <-.
      assert (P = P0) as -> by (destruct RP as (?&?&?), RP0 as (?&?&?); destruct P, P0; cbn in *; f_equal; eapply rep_inj; eauto).
      rewrite EP0. assert (EX : cx D = / 50) by lra. assert (EY : cy D = 1) by lra. apply v3_ext; cbn; rewrite ?EX, ?EY, ?EZ; field. }
    rewrite EP in N1, N2. cbn [cx cy cz] in N1, N2. unfold plane_error, u53 in N1, N2, N3.
    replace (/ 50 / - / 5) with (- / 10) in N1 by field. replace (1 / - / 5) with (-5) in N2 by field.
    rewrite (Rabs_left (0 - 10)), (Rabs_right 10), Rabs_R0 in N1, N2, N3 by lra.
    rewrite (Rabs_left (- / 5)) in N1, N2 by lra. rewrite (Rabs_left (- / 10)), Rabs_R1 in N1 by lra. rewrite (Rabs_left (-5)), (Rabs_right 50) in N2 by lra.
    replace (1 / - - / 5) with 5 in N1, N2 by field.
    splits; [eapply near_le; [exact N1|]|eapply near_le; [exact N2|]|eapply near_le; [exact N3|]]; lra.
Qed.
(** A pixel of the sky *)
Example C65_sky_example : f_spaceFromImage binary64 (rm_trans (camM ex_or2)) ex_r ex_or2 (V2 2070 800) 0 = None.
Proof.
  destruct (ex_cam2 Rectilinear) as (c&HC).
  assert (ER : rm_mul_v (rm_trans (camM ex_or2)) (rayR Rectilinear ex_r (V2 2070 800)) = V3 (/ 50) 1 (/ 5)).
  { rewrite ex2_matrix. unfold rayR, alphaR, betaR, rm_mul_v, rm_trans, rdot, ex_r. cbn. f_equal; field. }
  apply (C65_sky u53 binary64 c ex_r ex_or2 (rm_trans (camM ex_or2)) (V2 (Fin 2070) (Fin 800)) (V2 2070 800) (Fin 0) 0 1 binary64_accurate HC
    ex2_one_turn (inverse_transpose _ _ _ binary64_accurate ex2_one_turn)).
  - split; reflexivity.
  - reflexivity.
  - unfold below3, rayR, alphaR, betaR, ex_r; cbn. splits; apply Rabs_le; lra.
  - rewrite ER. cbn. replace ((0 - 10) / / 5) with (-50) by field. lra.
  - rewrite ER. cbn. unfold u53. rewrite Rabs_right by lra. lra.
  - cbn. unfold u53. rewrite Rabs_left, Rabs_right by lra. lra.
Qed.
(** A point 50 m behind the camera *)
Example C65_hidden_example : f_imageFromSpace binary64 ex_r ex_or2 (V3 1 (-50) 0) true = None.
Proof.
  destruct (ex_cam2 Rectilinear) as (c&HC).
  apply (C65_hidden u53 binary64 c ex_r ex_or2 (fin3 (V3 1 (-50) 0)) (V3 1 (-50) 0) 50 binary64_accurate HC ex2_one_turn (rep3_fin _)).
  - lra.
  - unfold below3, ex_or2; cbn. splits; apply Rabs_le; lra.
  - rewrite ex2_coords. cbn. unfold tinyR. lra.
  - rewrite ex2_coords. cbn. unfold u53. lra.
Qed.
