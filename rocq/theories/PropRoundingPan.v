(** * C80: panoramas in rounded arithmetic *)
Require Import Reals Lra Lia Psatz Bool List ZArith.
From Verif Require Import Num Vec Trig Orientation OrientationFacts Projection ProjectionFacts Ray RayFacts CameraTransform CameraFacts PropProjection PropCamera
  PropStereo Rounding RoundingFacts PropRounding RoundingGps PropRoundingGps RoundingPan.
Open Scope R_scope.

(** ** Specification: how accurate the operations are *)
Definition accurate_pan (u : R) (T : pfloats) : Prop :=
  accurate_gps u (p_ops T) /\ forall x, cos x <> 0 -> Rabs (p_tan T x - tan x) <= 8 * u * Rabs (tan x).
(** How far the computed camera coordinates or rays are off is written [u * m].  The column of a pixel at [q], [rho] is
    the distance from the vertical axis of the camera; the row of a cylindrical picture; the row of an equirectangular
    picture, [d] is the distance from the camera. *)
Definition column_error (f q m rho : R) : R := (10 * (m / rho) + 20) * Rabs f + Rabs q.
Definition row_error (f q c m rho : R) : R := (7 * (m / rho) + 20) * (Rabs f + Rabs (q - c)) + 4 * Rabs (q - c) + Rabs q.
Definition elevation_error (f q m d : R) : R := (30 * (m / d) + 93) * Rabs f + Rabs q.

(** the distance of a point from the vertical axis of the camera and from the camera *)
Definition axis_dist (C : v3 R) : R := sqrt (cx C * cx C + cz C * cz C).
Definition eye_dist (C : v3 R) : R := sqrt (cx C * cx C + cy C * cy C + cz C * cz C).

(** ** Angles *)
Lemma half_sine h : 0 <= h <= PI / 2 -> h / 2 <= sin h.
Proof.
  intros H. pose proof PI_4. pose proof PI2_1. destruct (Rle_dec h 1) as [L|L].
  - pose proof (sin_lower h ltac:(lra)). lra.
  - pose proof (sin_lower 1 ltac:(lra)). assert (sin 1 <= sin h) by (left; apply sin_increasing_1; lra).
    assert (PI <= 10 / 3); [|lra]. destruct (PI_ineq 3) as (_&K). unfold tg_alt, PI_tg in K. simpl in K. lra.
Qed.
Lemma turn d : - (2 * PI) <= d <= 2 * PI -> exists n : Z, (-1 <= n <= 1)%Z /\ - PI <= d - 2 * PI * IZR n <= PI /\ (Rabs d <= PI -> n = 0%Z).
Proof.
  intros H. pose proof PI_RGT_0. destruct (Rlt_dec PI d) as [L|L]; [|destruct (Rlt_dec d (- PI)) as [M|M]].
  - exists 1%Z. split; [lia|]. split; [lra|]. rewrite Rabs_right by lra. lra.
  - exists (-1)%Z. split; [lia|]. split; [lra|]. rewrite Rabs_left by lra. lra.
  - exists 0%Z. split; [lia|]. split; [lra|]. reflexivity.
Qed.
Lemma cos_turn x (n : Z) : (-1 <= n <= 1)%Z -> cos (x - 2 * PI * IZR n) = cos x.
Proof.
  intros H. assert (n = -1 \/ n = 0 \/ n = 1)%Z as [-> |[-> | ->]] by lia.
  - replace (x - 2 * PI * -1) with (x + 2 * PI) by ring. rewrite cos_plus, sin_2PI, cos_2PI. ring.
  - f_equal. ring.
  - replace (x - 2 * PI * 1) with (x - 2 * PI) by ring. rewrite cos_minus, sin_2PI, cos_2PI. ring.
Qed.
(** Two vectors within [e] of each other point in nearly the same direction, up to a full turn. *)
Lemma angle_close r r' e th th' : 0 < r -> 0 <= r' -> - PI <= th <= PI -> - PI <= th' <= PI ->
  near e (r' * sin th') (r * sin th) -> near e (r' * cos th') (r * cos th) ->
  exists n : Z, (-1 <= n <= 1)%Z /\ near (9 * (e / r)) th' (th + 2 * PI * IZR n) /\ (Rabs (th' - th) <= PI -> n = 0%Z).
Proof.
  intros P P' B B' N1 N2. destruct (turn (th' - th)) as (n&Hn&Bn&Z); [lra|]. exists n. split; [exact Hn|]. split; [|exact Z].
  destruct (direction_close r r' e th th' ltac:(lra) P' N1 N2) as (D1&D2).
  assert (Pe : 0 <= e) by (unfold near in N1; pose proof (Rabs_pos (r' * sin th' - r * sin th)); lra).
  set (d := th' - th - 2 * PI * IZR n) in *. assert (Ed : cos d = cos (th' - th)) by (apply cos_turn, Hn).
  unfold near. replace (th' - (th + 2 * PI * IZR n)) with d by (unfold d; ring).
  set (h := Rabs d / 2). pose proof (Rabs_pos d) as Pd. assert (Hh : 0 <= h <= PI / 2).
  { unfold h. assert (Rabs d <= PI) by (apply Rabs_le; lra). lra. }
  pose proof (half_sine h Hh) as L.
  assert (C : cos d = 1 - 2 * (sin h * sin h)).
  { replace (2 * (sin h * sin h)) with (2 * sin h * sin h) by ring. rewrite <- cos_2a_sin. unfold h. replace (2 * (Rabs d / 2)) with (Rabs d) by field. unfold Rabs. destruct (Rcase_abs d); [rewrite cos_neg|]; reflexivity. }
  assert (CH : (sin th' - sin th) * (sin th' - sin th) + (cos th' - cos th) * (cos th' - cos th) = 4 * (sin h * sin h)).
  { rewrite Ed, cos_minus in C. pose proof (sin2_cos2 th) as S1. pose proof (sin2_cos2 th') as S2. unfold Rsqr in *. nra. }
  assert (Q : forall x, Rabs x * r <= 3 * e -> x * x * (r * r) <= 9 * (e * e)).
  { intros x Hx. replace (x * x * (r * r)) with ((Rabs x * r) * (Rabs x * r)); [|replace (x * x) with (Rabs x * Rabs x) by (rewrite <- Rabs_mult; apply Rabs_right; nra); ring].
    assert (0 <= Rabs x * r) by (apply Rmult_le_pos; [apply Rabs_pos|lra]). nra. }
  apply Q in D1. apply Q in D2.
  assert (K : (h * r) * (h * r) <= 18 * (e * e)).
  { assert (h / 2 * (h / 2) <= sin h * sin h) by (apply Rmult_le_compat; lra). assert (h / 2 * (h / 2) * (r * r) <= sin h * sin h * (r * r)) by (apply Rmult_le_compat_r; nra). nra. }
  assert (K2 : h * r <= 9 / 2 * e).
  { apply Rnot_lt_le. intros G. assert (0 <= h * r) by (apply Rmult_le_pos; lra). assert (9 / 2 * e * (9 / 2 * e) <= h * r * (h * r)) by (apply Rmult_le_compat; lra). nra. }
  apply (Rmult_le_reg_r r); [lra|]. replace (9 * (e / r) * r) with (9 * e) by (field; lra). unfold h in K2. lra.
Qed.

Section Accurate.
Context (u : R) (T : pfloats) (HT : accurate_pan u T).
Notation G := (p_ops T).
Notation A := (g_ops G).
Notation fl := (f_round A).
Let HG : accurate_gps u G. Proof. apply HT. Qed.
Let HA : accurate u A. Proof. apply HG. Qed.

(** one coordinate that is a multiple of an angle *)
Lemma angle_pixel f c a a0 w : Rabs a <= 41 / 10 -> 0 <= w -> near (9 * w + 8 * u) a a0 ->
  near (u * (13 * Rabs f + Rabs (f * a0 + c)) + 10 * w * Rabs f) (fl (fl (f * a) + c)) (f * a0 + c).
Proof.
  intros Ba Pw Na. pose proof (u_range u A HA) as U. pose proof (uu u A HA) as UU. pose proof (Rabs_pos f) as Pf.
  assert (N1 : near (u * (41 / 10 * Rabs f)) (fl (f * a)) (f * a)).
  { eapply near_le; [apply (fl_near u A HA)|]. apply Rmult_le_compat_l; [lra|]. rewrite Rabs_mult. rewrite Rmult_comm. apply Rmult_le_compat_r; auto. }
  assert (N2 : near (Rabs f * (9 * w + 8 * u)) (f * a) (f * a0)).
  { unfold near in *. replace (f * a - f * a0) with (f * (a - a0)) by ring. rewrite Rabs_mult. apply Rmult_le_compat_l; auto. }
  assert (N3 := near_add _ _ _ _ _ _ (near_trans _ _ _ _ _ N1 N2) (near_refl c)).
  pose proof (near_abs _ _ _ _ N3 (Rle_refl _)) as B.
  eapply near_le; [eapply near_trans; [apply (fl_near u A HA)|exact N3]|].
  set (X := Rabs (f * a0 + c)) in *. set (F := Rabs f) in *. apply (Rmult_le_compat_l u) in B; [|lra].
  assert (0 <= F * w) by (apply Rmult_le_pos; lra). assert (0 <= u * F) by (apply Rmult_le_pos; lra).
  assert (u * (F * w) <= / 1000000 * (F * w)) by (apply Rmult_le_compat_r; lra). assert (u * (u * F) <= / 1000000 * (u * F)) by (apply Rmult_le_compat_r; lra).
  nra.
Qed.
(** the computed angle of a vector *)
Lemma atan2_close y x y' x' r e th : 0 < r -> - PI <= th <= PI -> y = r * sin th -> x = r * cos th -> near e y' y -> near e x' x -> 2 * e < r ->
  exists th', - PI <= th' <= PI /\ y' = sqrt (x' * x' + y' * y') * sin th' /\ x' = sqrt (x' * x' + y' * y') * cos th' /\
  exists n : Z, (-1 <= n <= 1)%Z /\ near (9 * (e / r)) th' (th + 2 * PI * IZR n) /\ (Rabs (th' - th) <= PI -> n = 0%Z) /\
    Rabs (g_atan2 G y' x') <= 41 / 10 /\ near (9 * (e / r) + 8 * u) (g_atan2 G y' x') (th + 2 * PI * IZR n).
Proof.
  intros P B Ey Ex Ny Nx E. pose proof (u_range u A HA) as U.
  assert (NZ : x' <> 0 \/ y' <> 0).
  { destruct (Req_dec x' 0) as [X|X]; [|auto]. destruct (Req_dec y' 0) as [Y|Y]; [|auto]. exfalso. subst x' y'. unfold near in *.
    rewrite Rminus_0_l, Rabs_Ropp in Nx, Ny. subst x y. pose proof (sin2_cos2 th) as S. unfold Rsqr in S.
    rewrite Rabs_mult, (Rabs_right r) in Nx, Ny by lra. pose proof (Rabs_pos (sin th)). pose proof (Rabs_pos (cos th)).
    assert (S' : Rabs (sin th) * Rabs (sin th) + Rabs (cos th) * Rabs (cos th) = 1) by (rewrite <- !Rabs_mult, !Rabs_right by nra; exact S).
    assert (Rabs (sin th) < 1 / 2) by nra. assert (Rabs (cos th) < 1 / 2) by nra. nra. }
  destruct HG as (_&_&_&_&HT2&_). destruct (HT2 y' x' NZ) as (th'&B'&E1&E2&NT). exists th'. split; [exact B'|]. split; [exact E1|]. split; [exact E2|].
  destruct (angle_close r (sqrt (x' * x' + y' * y')) e th th' P (sqrt_pos _) B B') as (n&Hn&N&Z).
  - rewrite <- E1, <- Ey. exact Ny.
  - rewrite <- E2, <- Ex. exact Nx.
  - exists n. split; [exact Hn|]. split; [exact N|]. split; [exact Z|]. split.
    + pose proof PI_4. apply abs_le_inv in NT. apply Rabs_le. lra.
    + rewrite Rplus_comm. eapply near_trans; [exact NT|exact N].
Qed.
Lemma column_near r C C' m th : 0 <= m -> 0 < axis_dist C -> 8 * (u * m) <= axis_dist C -> near (u * m) (cx C') (cx C) -> near (u * m) (cz C') (cz C) ->
  - PI <= th <= PI -> - cx C = axis_dist C * sin th -> - cz C = axis_dist C * cos th ->
  exists n : Z, (-1 <= n <= 1)%Z /\ (Rabs th < PI - 9 * (u * m / axis_dist C) -> n = 0%Z) /\
  near (u * column_error (f_x r) (- f_x r * th + center_x r) m (axis_dist C)) (f_pan_x T r C') (- f_x r * th + center_x r + IZR n * (2 * PI * f_x r)).
Proof.
  intros Pm Pr E Nx Nz B E1 E2. pose proof (u_range u A HA) as U. set (rho := axis_dist C) in *. assert (Pum : 0 <= u * m) by (apply Rmult_le_pos; lra).
  destruct (atan2_close _ _ (- cx C') (- cz C') rho (u * m) th Pr B E1 E2 (near_opp _ _ _ Nx) (near_opp _ _ _ Nz)) as (th'&B'&_&_&n&Hn&N&_&BA&NA).
  { destruct Pum; lra. }
  set (w := u * m / rho) in *. assert (Pw : 0 <= w) by (apply Rmult_le_pos; [auto|apply Rlt_le, Rinv_0_lt_compat, Pr]).
  exists (- n)%Z. split; [lia|]. split.
  - intros L. unfold near in N. apply abs_le_inv in N. assert (L' : - (PI - 9 * w) < th < PI - 9 * w) by (unfold Rabs in L; destruct (Rcase_abs th); lra).
    assert (n = -1 \/ n = 0 \/ n = 1)%Z as [-> |[-> | ->]] by lia; [exfalso|reflexivity|exfalso]; lra.
  - assert (K := angle_pixel (- f_x r) (center_x r) _ _ w BA Pw NA). rewrite opp_IZR.
    replace (- f_x r * th + center_x r + - IZR n * (2 * PI * f_x r)) with (- f_x r * (th + 2 * PI * IZR n) + center_x r) by ring.
    eapply near_le; [exact K|]. rewrite Rabs_Ropp. unfold column_error. set (F := Rabs (f_x r)). pose proof (Rabs_pos (f_x r)) as PF. fold F in PF.
    assert (BX : Rabs (- f_x r * (th + 2 * PI * IZR n) + center_x r) <= Rabs (- f_x r * th + center_x r) + 7 * F).
    { replace (- f_x r * (th + 2 * PI * IZR n) + center_x r) with ((- f_x r * th + center_x r) + - (2 * PI * IZR n) * f_x r) by ring.
      eapply Rle_trans; [apply Rabs_triang|]. apply Rplus_le_compat_l. rewrite Rabs_mult. apply Rmult_le_compat_r; auto.
      assert (PI <= 10 / 3) by (destruct (PI_ineq 3) as (_&K'); unfold tg_alt, PI_tg in K'; simpl in K'; lra).
      pose proof PI_RGT_0. assert (n = -1 \/ n = 0 \/ n = 1)%Z as [-> |[-> | ->]] by lia; apply Rabs_le; lra. }
    set (X := Rabs (- f_x r * (th + 2 * PI * IZR n) + center_x r)) in *. set (Y := Rabs (- f_x r * th + center_x r)) in *.
    apply (Rmult_le_compat_l u) in BX; [|lra]. replace w with (u * (m / rho)) by (unfold w, Rdiv; ring). lra.
Qed.
Lemma axis_le C : Rabs (cz C) <= axis_dist C.
Proof.
  unfold axis_dist. rewrite <- (sqrt_square (Rabs (cz C))) by apply Rabs_pos. apply sqrt_le_1_alt.
  rewrite <- Rabs_mult, Rabs_right by nra. nra.
Qed.
Lemma radius_near C C' m : 0 <= m -> near (u * m) (cx C') (cx C) -> near (u * m) (cz C') (cz C) -> near (u * (3 * m + 8 * axis_dist C)) (f_radius T C') (axis_dist C).
Proof.
  intros Pm Nx Nz. pose proof (u_range u A HA) as U. unfold f_radius.
  set (x := cx C') in *. set (z := cz C') in *. assert (Sq : forall x, 0 <= x * x) by (intros; nra).
  assert (NS : Rabs (g_sqrt G (fl (fl (x * x) + fl (z * z))) - sqrt (x * x + z * z)) <= 8 * u * sqrt (x * x + z * z)).
  { apply (sqrt_rel u G HG); [pose proof (Sq x); pose proof (Sq z); lra|].
    destruct (fl_rel u A HA (x * x)) as (d1&D1&->). destruct (fl_rel u A HA (z * z)) as (d2&D2&->). destruct (fl_rel u A HA (x * x * (1 + d1) + z * z * (1 + d2))) as (d5&D5&->).
    replace (x * x * (1 + d1) + z * z * (1 + d2)) with (x * x * (1 + d1) + z * z * (1 + d2) * (1 + 0) * (1 + 0)) by ring.
    apply (sum_round u G HG); auto; rewrite Rabs_R0; lra. }
  assert (L := hyp_lipschitz (cx C) (cz C) x z). fold (axis_dist C) in L. unfold near in *. set (w := sqrt (x * x + z * z)) in *. pose proof (sqrt_pos (x * x + z * z)) as Pw. fold w in Pw.
  set (rho := axis_dist C) in *. assert (Pr : 0 <= rho) by apply sqrt_pos. assert (Pum : 0 <= u * m) by (apply Rmult_le_pos; lra).
  assert (Bw : w <= rho + 2 * (u * m)) by (assert (K : Rabs (w - rho) <= 2 * (u * m)) by lra; apply abs_le_inv in K; lra).
  replace (g_sqrt G (fl (fl (x * x) + fl (z * z))) - rho) with ((g_sqrt G (fl (fl (x * x) + fl (z * z))) - w) + (w - rho)) by ring.
  eapply Rle_trans; [apply Rabs_triang|]. assert (8 * u * w <= 8 * u * (rho + 2 * (u * m))) by (apply Rmult_le_compat_l; lra).
  assert (u * (u * m) <= / 1000000 * (u * m)) by (apply Rmult_le_compat_r; lra). lra.
Qed.
Lemma cyl_row_near r C C' m : 0 <= m -> 0 < axis_dist C -> 8 * (u * m) <= axis_dist C -> near3 (u * m) C' C ->
  near (u * row_error (f_y r) (- f_y r * cy C / axis_dist C + center_y r) (center_y r) m (axis_dist C))
    (fl (fl (fl (- f_y r * cy C') / f_radius T C') + center_y r)) (- f_y r * cy C / axis_dist C + center_y r).
Proof.
  intros Pm Pr E (Nx&Ny&Nz). pose proof (u_range u A HA) as U. assert (NR := radius_near C C' m Pm Nx Nz). set (rho := axis_dist C) in *.
  set (S := (3 * m + 8 * rho) / 3200). assert (PS : 0 <= S) by (unfold S; lra). assert (Pum : 0 <= u * m) by (apply Rmult_le_pos; lra). assert (Pur : 0 <= u * rho <= / 1000000 * rho) by nra.
  assert (E1 : 3200 * u * S = u * (3 * m + 8 * rho)) by (unfold S; field).
  replace (- f_y r * cy C') with (cy C' * - f_y r) by ring. replace (- f_y r * cy C / rho) with (cy C * - f_y r / rho) by (field; lra).
  eapply near_le; [apply (coordinate_near u A HA (- f_y r) (center_y r) (cy C) rho _ _ S)|].
  - eapply near_le; [exact Ny|]. lra.
  - rewrite E1. exact NR.
  - exact PS.
  - rewrite Rabs_right; lra.
  - rewrite Rabs_right by lra. lra.
  - apply Rmult_le_compat_l; [lra|]. unfold pixel_error, row_error. rewrite Rabs_Ropp, (Rabs_right rho) by lra.
    set (F := Rabs (f_y r)). set (Y := Rabs (cy C * - f_y r / rho + center_y r - center_y r)). set (Z := Rabs (cy C * - f_y r / rho + center_y r)).
    assert (0 <= F) by apply Rabs_pos. assert (0 <= Y) by apply Rabs_pos. assert (0 <= m / rho) by (apply Rmult_le_pos; [auto|apply Rlt_le, Rinv_0_lt_compat; lra]).
    replace (S / rho) with ((3 * (m / rho) + 8) / 3200) by (unfold S; field; lra). assert (0 <= m / rho * (F + Y)) by (apply Rmult_le_pos; lra). nra.
Qed.
Lemma equi_row_near r C C' m th : 0 <= m -> 0 < axis_dist C -> 8 * (u * m) <= axis_dist C -> near3 (u * m) C' C ->
  - PI <= th <= PI -> cy C = eye_dist C * sin th -> axis_dist C = eye_dist C * cos th ->
  near (u * elevation_error (f_y r) (- f_y r * th + center_y r) m (eye_dist C))
    (fl (fl (- f_y r * g_atan2 G (cy C') (f_radius T C')) + center_y r)) (- f_y r * th + center_y r).
Proof.
  intros Pm Pr E (Nx&Ny&Nz) B E1 E2. pose proof (u_range u A HA) as U. assert (NR := radius_near C C' m Pm Nx Nz). set (rho := axis_dist C) in *.
  set (d := eye_dist C) in *. assert (Pum : 0 <= u * m) by (apply Rmult_le_pos; lra). assert (Pur : 0 <= u * rho <= / 1000000 * rho) by nra.
  assert (Pd : 0 <= d) by apply sqrt_pos. assert (Ld : rho <= d) by (pose proof (COS_bound th); nra).
  set (e := u * (3 * m + 8 * rho)) in *. assert (Pe : 0 <= e) by (unfold e; apply Rmult_le_pos; lra). assert (Le : 2 * e < rho) by (unfold e; lra).
  destruct (atan2_close (cy C) rho (cy C') (f_radius T C') d e th ltac:(lra) B E1 E2) as (th'&B'&F1&F2&n&Hn&N&Z&BA&NA).
  - eapply near_le; [exact Ny|unfold e; lra].
  - exact NR.
  - lra.
  - assert (Q : forall t, - PI <= t <= PI -> 0 < cos t -> - (PI / 2) < t < PI / 2).
    { intros t Bt Ct. pose proof PI_RGT_0. split; apply Rnot_le_lt; intros L.
      - assert (cos (- t) <= 0) by (apply cos_le_0; lra). rewrite cos_neg in *. lra.
      - assert (cos t <= 0) by (apply cos_le_0; lra). lra. }
    assert (C1 : 0 < cos th) by (apply Rnot_le_lt; intros L; nra).
    assert (R1 : 0 < f_radius T C') by (unfold near in NR; apply abs_le_inv in NR; lra).
    assert (C2 : 0 < cos th') by (pose proof (sqrt_pos (f_radius T C' * f_radius T C' + cy C' * cy C')); apply Rnot_le_lt; intros L; nra).
    apply Q in C1; auto. apply Q in C2; auto. rewrite Z, Rmult_0_r, Rplus_0_r in NA by (apply Rabs_le; lra).
    assert (Pw : 0 <= e / d) by (apply Rmult_le_pos; [auto|apply Rlt_le, Rinv_0_lt_compat; lra]).
    eapply near_le; [apply (angle_pixel (- f_y r) (center_y r) _ _ (e / d) BA Pw NA)|]. rewrite Rabs_Ropp. unfold elevation_error.
    set (F := Rabs (f_y r)). set (X := Rabs (- f_y r * th + center_y r)). assert (0 <= F) by apply Rabs_pos.
    assert (W : e / d <= u * (3 * (m / d) + 8)).
    { replace (u * (3 * (m / d) + 8)) with (u * (3 * m + 8 * d) / d) by (field; lra). apply Rmult_le_compat_r; [apply Rlt_le, Rinv_0_lt_compat; lra|]. apply Rmult_le_compat_l; lra. }
    apply (Rmult_le_compat_r F) in W; auto. lra.
Qed.
End Accurate.

(** ** The pictures of the model without rounding *)
Definition panorama (k : pkind) : Prop := k <> Rectilinear.
Definition in_panorama (k : pkind) (r : proj R) (C : v3 R) (th : R) (Q : v2 R) : Prop :=
  c1 Q = - f_x r * th + center_x r /\
  match k with
  | Cylindrical => c2 Q = - f_y r * cy C / axis_dist C + center_y r
  | _ => exists ph, - PI <= ph <= PI /\ cy C = eye_dist C * sin ph /\ axis_dist C = eye_dist C * cos ph /\ c2 Q = - f_y r * ph + center_y r
  end.
Lemma pan_exact c k r o p P hide : plain_cam c k r o -> panorama k -> rep3 p P ->
  let C := cam_coords o P in tinyR <= Rabs (cz C) ->
  0 < axis_dist C /\ exists th Q, - PI <= th <= PI /\ - cx C = axis_dist C * sin th /\ - cz C = axis_dist C * cos th /\
    rep2 (imageFromSpace c p hide) Q /\ in_panorama k r C th Q.
Proof.
  intros HC Hk Hp C B. destruct (plain_good _ _ _ _ HC) as ((Hpr&_&HR)&HK&HDi&_).
  assert (Ha : hyp (- cz C) (- cx C) = axis_dist C) by (unfold hyp, axis_dist; f_equal; ring).
  assert (Hrho : 0 < axis_dist C) by (rewrite <- Ha; apply hyp_pos; left; pose proof (big_nz _ B); lra). split; [exact Hrho|].
  assert (HQ : rep3 (cameraFromSpace (cam_o c) p) C) by (exact (rigid_camera _ _ _ _ _ HR Hp)).
  assert (HI : imageFromSpace c p hide = p_image k (cam_proj c) (cameraFromSpace (cam_o c) p) hide) by (unfold imageFromSpace; rewrite HDi, HK; reflexivity).
  rewrite HI. clear HI. revert HQ. generalize (cameraFromSpace (cam_o c) p). intros x HQ. pose proof HQ as (X&Y&Z). destruct Hpr as (H1&H2&H3&H4&_).
  destruct (natan2_polar _ _ _ _ (rep_neg _ _ X) (rep_neg _ _ Z)) as (th&Hth&Bth&E1&E2); [left; pose proof (big_nz _ B); lra|].
  rewrite Ha in E1, E2. exists th.
  assert (Hs : rep (nsqrt (cx x * cx x + cz x * cz x)%num) (axis_dist C)) by (apply rep_sqrt; [rep_all|nra]).
  destruct k; [exfalso; apply Hk; reflexivity| |]; cbn [p_image].
  - unfold cyl_image. rewrite (mask_big _ _ HQ B).
    assert (Hy : rep (- f_y (cam_proj c) * cy x / nsqrt (cx x * cx x + cz x * cz x) + center_y (cam_proj c))%num (- f_y r * cy C / axis_dist C + center_y r)).
    { apply rep_add; auto. apply rep_div; auto; [rep_all|lra]. }
    cbn [c2]. rewrite (rep_notnan _ _ Hy). exists (V2 (- f_x r * th + center_x r) (- f_y r * cy C / axis_dist C + center_y r)).
    split; [exact Bth|]. split; [exact E2|]. split; [exact E1|]. split; [split; cbn [c1 c2]; [rep_all|exact Hy]|]. split; reflexivity.
  - unfold equi_image. rewrite (mask_big _ _ HQ B).
    destruct (natan2_polar _ _ _ _ Y Hs) as (ph&Hph&Bph&E3&E4); [left; lra|].
    assert (Hd : hyp (axis_dist C) (cy C) = eye_dist C).
    { unfold hyp, eye_dist, axis_dist. rewrite sqrt_sqrt by nra. f_equal; ring. }
    rewrite Hd in E3, E4. exists (V2 (- f_x r * th + center_x r) (- f_y r * ph + center_y r)).
    split; [exact Bth|]. split; [exact E2|]. split; [exact E1|]. split; [split; cbn [c1 c2]; rep_all|].
    split; [reflexivity|]. exists ph. splits; auto; apply Bph.
Qed.
Definition in_row_error (k : pkind) (r : proj R) (Q : v2 R) (C : v3 R) (m : R) : R :=
  match k with
  | Cylindrical => row_error (f_y r) (c2 Q) (center_y r) m (axis_dist C)
  | _ => elevation_error (f_y r) (c2 Q) m (eye_dist C)
  end.
(** The computed pixel of a point at the camera coordinates [C'] which are near [C]. *)
Lemma pan_image_near u T k r C C' m th Q : accurate_pan u T -> panorama k -> 0 <= m -> near3 (u * m) C' C ->
  2 * tinyR <= Rabs (cz C) -> 2 * (u * m) <= Rabs (cz C) -> 8 * (u * m) <= axis_dist C ->
  - PI <= th <= PI -> - cx C = axis_dist C * sin th -> - cz C = axis_dist C * cos th -> in_panorama k r C th Q ->
  exists q (n : Z), f_pan_image T k r C' = Some q /\ (-1 <= n <= 1)%Z /\ (Rabs th < PI - 9 * (u * m / axis_dist C) -> n = 0%Z) /\
    near (u * column_error (f_x r) (c1 Q) m (axis_dist C)) (c1 q) (c1 Q + IZR n * (2 * PI * f_x r)) /\
    near (u * in_row_error k r Q C m) (c2 q) (c2 Q).
Proof.
  intros HT Hk Pm HN HZ HZ' HR B E1 E2 (EQ1&EQ2). pose proof tinyR_pos as TP. pose proof HN as (Nx&Ny&Nz).
  assert (Pr : 0 < axis_dist C) by (pose proof (axis_le C); lra).
  destruct (column_near u T HT r C C' m th Pm Pr HR Nx Nz B E1 E2) as (n&Hn&Z&NC). rewrite <- EQ1 in NC.
  assert (MZ : tinyR <= Rabs (cz C')).
  { unfold near in Nz. pose proof (Rabs_triang_inv (cz C) (cz C')) as K. rewrite Rabs_minus_sym in Nz. lra. }
  destruct k; [exfalso; apply Hk; reflexivity| |]; cbn [f_pan_image in_row_error].
  - unfold f_cyl_image. rewrite Rltb_false by (fold tinyR; lra). eexists. exists n. split; [reflexivity|]. split; [exact Hn|]. split; [exact Z|]. split; [exact NC|].
    cbn [c2]. rewrite EQ2. apply cyl_row_near; auto.
  - unfold f_equi_image. rewrite Rltb_false by (fold tinyR; lra). eexists. exists n. split; [reflexivity|]. split; [exact Hn|]. split; [exact Z|]. split; [exact NC|].
    cbn [c2]. destruct EQ2 as (ph&Bp&P1&P2&->). apply equi_row_near; auto.
Qed.

(** ** The theorems *)
(** The pixel of a point of the scene, [S] is the largest difference of a coordinate to the camera's position.  Rows are
    near those of the model without rounding, columns up to a full turn of [2 PI f_x] pixels; there is no such turn
    unless the point is seen at the seam, straight behind the camera. *)
Theorem C80_image : forall u T c k r o p P S hide, accurate_pan u T -> plain_cam c k r o -> panorama k -> one_turn o -> rep3 p P ->
  0 <= S -> below3 S (rv_sub P (opos o)) ->
  let C := cam_coords o P in
  2 * tinyR <= Rabs (cz C) -> 6400 * u * S <= Rabs (cz C) -> 25600 * u * S <= axis_dist C ->
  exists q Q (n : Z), f_panFromSpace T k r o P = Some q /\ rep2 (imageFromSpace c p hide) Q /\ (-1 <= n <= 1)%Z /\
    near (u * column_error (f_x r) (c1 Q) (3200 * S) (axis_dist C)) (c1 q) (c1 Q + IZR n * (2 * PI * f_x r)) /\
    near (u * in_row_error k r Q C (3200 * S)) (c2 q) (c2 Q) /\
    (Rabs (c1 Q - center_x r) < (PI - 28800 * u * (S / axis_dist C)) * Rabs (f_x r) -> n = 0%Z).
Proof.
  intros u T c k r o p P S hide HT HC Hk HO HP HS HB C HZ HZ' HR. pose proof tinyR_pos as TP.
  assert (HA : accurate u (g_ops (p_ops T))) by apply HT.
  destruct (pan_exact c k r o p P hide HC Hk HP) as (Pr&th&Q&B&E1&E2&RQ&HQ); [fold C; lra|]. fold C in Pr, E1, E2, HQ.
  assert (HN : near3 (u * (3200 * S)) (f_camera (g_ops (p_ops T)) (f_matrix (g_ops (p_ops T)) o) (opos o) P) C).
  { replace (u * (3200 * S)) with (3200 * u * S) by ring. apply camera_near; auto. }
  destruct (pan_image_near u T k r C _ (3200 * S) th Q HT Hk ltac:(lra) HN HZ ltac:(lra) ltac:(lra) B E1 E2 HQ) as (q&n&Eq&Hn&Z&N1&N2).
  exists q, Q, n. splits; auto; try apply Hn. intros L. apply Z. rewrite (proj1 HQ) in L. replace (- f_x r * th + center_x r - center_x r) with (- (th * f_x r)) in L by ring.
  rewrite Rabs_Ropp, Rabs_mult in L. pose proof (Rabs_pos (f_x r)). pose proof (Rabs_pos th).
  replace (9 * (u * (3200 * S) / axis_dist C)) with (28800 * u * (S / axis_dist C)) by (unfold Rdiv; ring). apply (Rmult_lt_reg_r (Rabs (f_x r))); [|exact L].
  destruct H as [H|H]; [exact H|]. rewrite <- H, !Rmult_0_r in L. lra.
Qed.
Print Assumptions C80_image.

(** In double precision the row and the column are right to a ten-thousandth of a pixel, unless the point is seen almost
    straight up or down or at the seam behind the camera. *)
Theorem C80_double : forall T c k r o p P S hide, accurate_pan u53 T -> plain_cam c k r o -> panorama k -> one_turn o -> rep3 p P ->
  0 <= S -> below3 S (rv_sub P (opos o)) ->
  let C := cam_coords o P in
  2 * tinyR <= Rabs (cz C) -> S <= 1000000000000 * Rabs (cz C) -> S <= 100 * axis_dist C -> Rabs (f_x r) <= 10000 -> Rabs (f_y r) <= 10000 ->
  exists q Q, f_panFromSpace T k r o P = Some q /\ rep2 (imageFromSpace c p hide) Q /\
    (Rabs (c1 Q) <= 100000 -> Rabs (c1 Q - center_x r) < 3 * Rabs (f_x r) -> near (/ 10000) (c1 q) (c1 Q)) /\
    (Rabs (c2 Q) <= 100000 -> Rabs (c2 Q - center_y r) <= 100000 -> near (/ 10000) (c2 q) (c2 Q)).
Proof.
  intros T c k r o p P S hide HT HC Hk HO HP HS HB C HZ HZ' HR F1 F2. pose proof tinyR_pos as TP.
  assert (Pr : 0 < axis_dist C) by (pose proof (axis_le C); lra).
  destruct (C80_image u53 T c k r o p P S hide HT HC Hk HO HP HS HB HZ) as (q&Q&n&E&RQ&Hn&N1&N2&Z); [unfold u53; fold C; lra|unfold u53; fold C; lra|]. fold C in N1, N2, Z.
  set (rho := axis_dist C) in *. exists q, Q. split; [exact E|]. split; [exact RQ|].
  assert (SZ : 0 <= S / rho <= 100).
  { split; [apply Rmult_le_pos; [auto|apply Rlt_le, Rinv_0_lt_compat; lra]|]. apply (Rmult_le_reg_r rho); [lra|]. unfold Rdiv; rewrite Rmult_assoc, Rinv_l by lra; lra. }
  assert (PL : 3 <= PI - 28800 * u53 * (S / rho)).
  { destruct (PI_ineq 3) as (K&_). unfold tg_alt, PI_tg in K. simpl in K. unfold u53. lra. }
  pose proof (Rabs_pos (f_x r)) as P1. pose proof (Rabs_pos (f_y r)) as P2. split.
  - intros B1 B2. rewrite Z in N1 by (eapply Rlt_le_trans; [exact B2|apply Rmult_le_compat_r; auto]). rewrite Rmult_0_l, Rplus_0_r in N1. eapply near_le; [exact N1|].
    unfold column_error. replace (3200 * S / rho) with (3200 * (S / rho)) by (unfold Rdiv; ring).
    assert ((10 * (3200 * (S / rho)) + 20) * Rabs (f_x r) <= 32000020 * 10000) by (apply Rmult_le_compat; lra). unfold u53. lra.
  - intros B1 B2. eapply near_le; [exact N2|]. destruct k; [exfalso; apply Hk; reflexivity| |]; cbn [in_row_error].
    + unfold row_error. fold rho. replace (3200 * S / rho) with (3200 * (S / rho)) by (unfold Rdiv; ring).
      pose proof (Rabs_pos (c2 Q - center_y r)).
      assert ((7 * (3200 * (S / rho)) + 20) * (Rabs (f_y r) + Rabs (c2 Q - center_y r)) <= 2240020 * 110000) by (apply Rmult_le_compat; lra). unfold u53. lra.
    + assert (LE : rho <= eye_dist C) by (unfold rho, axis_dist, eye_dist; apply sqrt_le_1_alt; nra).
      unfold elevation_error. assert (LD : S / eye_dist C <= S / rho).
      { apply Rmult_le_compat_l; auto. apply Rinv_le_contravar; [exact Pr|]. apply LE. }
      assert (0 <= S / eye_dist C) by (apply Rmult_le_pos; [auto|]; apply Rlt_le, Rinv_0_lt_compat; pose proof LE; lra).
      replace (3200 * S / eye_dist C) with (3200 * (S / eye_dist C)) by (unfold Rdiv; ring).
      assert ((30 * (3200 * (S / eye_dist C)) + 93) * Rabs (f_y r) <= 9600093 * 10000) by (apply Rmult_le_compat; lra). unfold u53. lra.
Qed.
Print Assumptions C80_double.

(** ** Rays *)
(** [ray_size] bounds the coordinates of the ray and how sensitive they are; the tangent of an equirectangular picture
    needs pixels that are not too close to the poles. *)
Definition ray_size (k : pkind) (r : proj R) (Q : v2 R) : R :=
  match k with
  | Rectilinear => 1 + Rabs (alphaR r Q) + Rabs (betaR r Q)
  | Cylindrical => 3 + Rabs (alphaR r Q) + Rabs (betaR r Q)
  | Equirectangular => 3 + Rabs (alphaR r Q) + 6 * (1 + Rabs (betaR r Q)) / (cos (betaR r Q) * cos (betaR r Q))
  end.
Definition off_poles (u : R) (k : pkind) (r : proj R) (Q : v2 R) : Prop :=
  match k with Equirectangular => 6 * u * Rabs (betaR r Q) < Rabs (cos (betaR r Q)) | _ => True end.
Lemma off_poles_ray u k r Q : 0 <= u -> off_poles u k r Q -> has_ray k r Q.
Proof.
  destruct k; cbn; auto. intros U H E. rewrite E, Rabs_R0 in H. assert (0 <= u * Rabs (betaR r Q)) by (apply Rmult_le_pos; [auto|apply Rabs_pos]). lra.
Qed.
Lemma tan_abs b : cos b <> 0 -> Rabs (tan b) <= / Rabs (cos b).
Proof.
  intros N. unfold tan, Rdiv. rewrite Rabs_mult, Rabs_inv by auto. pose proof (sin_1 b). assert (0 < / Rabs (cos b)) by (apply Rinv_0_lt_compat, Rabs_pos_lt, N). nra.
Qed.
Lemma tan_near b b' w : cos b <> 0 -> near w b' b -> 2 * w <= Rabs (cos b) -> cos b' <> 0 /\ Rabs (cos b) / 2 <= Rabs (cos b') /\ near (2 * w / (cos b * cos b)) (tan b') (tan b).
Proof.
  intros N Hw H. unfold near in *. pose proof (Rabs_pos (b' - b)) as Pw. pose proof (Rabs_pos_lt _ N) as Pc.
  pose proof (cos_lipschitz b' b) as L. pose proof (Rabs_triang_inv (cos b) (cos b')) as K. rewrite Rabs_minus_sym in K.
  assert (B : Rabs (cos b) / 2 <= Rabs (cos b')) by lra. assert (N' : cos b' <> 0) by (intros E; rewrite E, Rabs_R0 in B; lra).
  split; [exact N'|]. split; [exact B|].
  replace (tan b' - tan b) with (sin (b' - b) / (cos b' * cos b)) by (rewrite sin_minus; unfold tan; field; auto).
  assert (S := sin_abs (b' - b)).
  assert (CC : cos b * cos b = Rabs (cos b) * Rabs (cos b)) by (rewrite <- Rabs_mult; symmetry; apply Rabs_right; nra).
  unfold Rdiv. rewrite Rabs_mult, Rabs_inv, Rabs_mult, CC by (apply Rmult_integral_contrapositive_currified; auto).
  replace (2 * w * / (Rabs (cos b) * Rabs (cos b))) with (w * / (Rabs (cos b) / 2 * Rabs (cos b))) by (field; lra).
  apply Rmult_le_compat; [apply Rabs_pos| |lra|].
  - apply Rlt_le, Rinv_0_lt_compat. apply Rmult_lt_0_compat; [|exact Pc]. lra.
  - apply Rinv_le_contravar; [apply Rmult_lt_0_compat; lra|]. apply Rmult_le_compat_r; lra.
Qed.
Lemma tan_bound b : cos b <> 0 -> Rabs (tan b) <= / (cos b * cos b).
Proof.
  intros N. eapply Rle_trans; [apply tan_abs, N|]. apply Rinv_le_contravar; [nra|]. pose proof (cos_1 b). pose proof (Rabs_pos (cos b)).
  replace (cos b * cos b) with (Rabs (cos b) * Rabs (cos b)) by (rewrite <- Rabs_mult; apply Rabs_right; nra). nra.
Qed.
Lemma ray_below k r Q : has_ray k r Q -> below3 (ray_size k r Q) (rayR k r Q).
Proof.
  intros H. pose proof (Rabs_pos (alphaR r Q)) as PA. pose proof (Rabs_pos (betaR r Q)) as PB. pose proof (sin_1 (alphaR r Q)). pose proof (cos_1 (alphaR r Q)).
  destruct k; cbn [ray_size rayR]; unfold below3; cbn [cx cy cz]; rewrite ?Rabs_Ropp.
  - rewrite (Rabs_left (-1)) by lra. lra.
  - lra.
  - cbn in H. pose proof (tan_bound _ H) as TB. set (b := betaR r Q) in *. assert (0 < / (cos b * cos b)) by (apply Rinv_0_lt_compat; nra).
    unfold Rdiv. assert (0 <= Rabs b * / (cos b * cos b)) by (apply Rmult_le_pos; lra). lra.
Qed.

Section Accurate.
Context (u : R) (T : pfloats) (HT : accurate_pan u T).
Notation G := (p_ops T).
Notation A := (g_ops G).
Notation fl := (f_round A).
Let HG : accurate_gps u G. Proof. apply HT. Qed.
Let HA : accurate u A. Proof. apply HG. Qed.
Lemma two_near a c f : f <> 0 -> near (3 * u * Rabs ((a - c) / f)) (fl (fl (a - c) / f)) ((a - c) / f).
Proof.
  intros N. pose proof (u_range u A HA) as U. destruct (fl_rel u A HA (a - c)) as (d1&D1&->). destruct (fl_rel u A HA ((a - c) * (1 + d1) / f)) as (d2&D2&->).
  destruct (prod2 u A HA d1 d2 D1 D2) as (d3&D3&E3). unfold near. replace ((a - c) * (1 + d1) / f * (1 + d2) - (a - c) / f) with (((1 + d1) * (1 + d2) - 1) * ((a - c) / f)) by (field; auto).
  rewrite E3, Rabs_mult. apply Rmult_le_compat_r; [apply Rabs_pos|]. replace (1 + d3 - 1) with d3 by ring. lra.
Qed.
Lemma ray_close k r Q : foc_ok r -> off_poles u k r Q -> near3 (3 * u * ray_size k r Q) (f_ray T k r Q) (rayR k r Q).
Proof.
  intros HF HO. pose proof (u_range u A HA) as U. pose proof HF as (F1&F2). pose proof (Rabs_pos (alphaR r Q)) as PA. pose proof (Rabs_pos (betaR r Q)) as PB.
  assert (NA := two_near (c1 Q) (center_x r) (f_x r) F1). fold (alphaR r Q) in NA. change (fl (fl (c1 Q - center_x r) / f_x r)) with (f_alpha T r Q) in NA.
  assert (NB := two_near (c2 Q) (center_y r) (f_y r) F2). fold (betaR r Q) in NB. change (fl (fl (c2 Q - center_y r) / f_y r)) with (f_beta T r Q) in NB.
  assert (PUA : 0 <= u * Rabs (alphaR r Q)) by (apply Rmult_le_pos; lra). assert (PUB : 0 <= u * Rabs (betaR r Q)) by (apply Rmult_le_pos; lra).
  assert (SC : near (8 * u + 3 * u * Rabs (alphaR r Q)) (f_sin A (f_alpha T r Q)) (sin (alphaR r Q)) /\ near (8 * u + 3 * u * Rabs (alphaR r Q)) (f_cos A (f_alpha T r Q)) (cos (alphaR r Q))).
  { destruct HA as (_&_&_&HS&HC&_). unfold near in NA. split; (eapply near_trans; [first [apply HS|apply HC]|]); unfold near; (eapply Rle_trans; [first [apply sin_lipschitz|apply cos_lipschitz]|exact NA]). }
  destruct SC as (NS&NC). destruct k.
  - exact (ray_near u A HA r Q _ HF (ray_below Rectilinear r Q I)).
  - cbn [f_ray ray_size rayR]. unfold f_cyl_ray. nsplit; cbn [rv_neg map3v cx cy cz].
    + rewrite Ropp_involutive. eapply near_le; [exact NS|]. lra.
    + apply near_opp. eapply near_le; [exact NB|]. lra.
    + apply near_opp. eapply near_le; [exact NC|]. lra.
  - cbn [f_ray ray_size rayR]. unfold f_equi_ray. assert (Nc := off_poles_ray u Equirectangular r Q (proj1 U) HO). cbn in HO, Nc. set (b := betaR r Q) in *.
    destruct (tan_near b (f_beta T r Q) _ Nc NB ltac:(lra)) as (Nc'&LC&NT). set (b' := f_beta T r Q) in *.
    assert (Pi : 0 < / (cos b * cos b)) by (apply Rinv_0_lt_compat; nra).
    assert (PT : Rabs (tan b') <= 2 * / (cos b * cos b)).
    { eapply Rle_trans; [apply tan_abs, Nc'|]. pose proof (Rabs_pos_lt _ Nc) as Pc. pose proof (cos_1 b).
      replace (2 * / (cos b * cos b)) with (/ (cos b * cos b / 2)) by (field; auto). apply Rinv_le_contravar; [nra|]. eapply Rle_trans; [|exact LC].
      replace (cos b * cos b) with (Rabs (cos b) * Rabs (cos b)) by (rewrite <- Rabs_mult; apply Rabs_right; nra). nra. }
    assert (NP : near (8 * u * Rabs (tan b')) (p_tan T b') (tan b')) by (apply (proj2 HT), Nc').
    assert (PBI : 0 <= Rabs b * / (cos b * cos b)) by (apply Rmult_le_pos; lra). set (v := / (cos b * cos b)) in *.
    replace (6 * (1 + Rabs b) / (cos b * cos b)) with (6 * v + 6 * (Rabs b * v)) by (unfold v, Rdiv; ring).
    assert (0 <= u * v) by (apply Rmult_le_pos; lra). assert (0 <= u * (Rabs b * v)) by (apply Rmult_le_pos; lra).
    nsplit; cbn [rv_neg map3v cx cy cz].
    + rewrite Ropp_involutive. eapply near_le; [exact NS|]. lra.
    + apply near_opp. eapply near_le; [eapply near_trans; [exact NP|exact NT]|]. unfold Rdiv. fold v.
      assert (8 * u * Rabs (tan b') <= 8 * u * (2 * v)) by (apply Rmult_le_compat_l; lra). lra.
    + apply near_opp. eapply near_le; [exact NC|]. lra.
Qed.
Lemma pan_direction_near k o mi r Q : one_turn o -> inverse_ok u A o mi -> foc_ok r -> off_poles u k r Q ->
  near3 (152000 * u * ray_size k r Q) (f_pan_direction T k mi r Q) (rm_mul_v (rm_trans (camM o)) (rayR k r Q)).
Proof.
  intros HO HI HF HP. pose proof (u_range u A HA) as U. pose proof (uu u A HA) as UU. pose proof (uuu u A HA) as UUU.
  pose proof (ray_below k r Q (off_poles_ray u k r Q (proj1 U) HP)) as HB. set (rho := ray_size k r Q) in *.
  assert (P : 0 <= rho) by (destruct HB as (B1&_); eapply Rle_trans; [apply Rabs_pos|exact B1]).
  destruct (camM_below o) as (_&BM).
  assert (RC := ray_close k r Q HF HP). fold rho in RC.
  assert (K := mul_v_near u A HA _ _ _ _ _ _ rho (inverse_near u A HA o mi HO HI) RC BM HB ltac:(lra) ltac:(apply Rmult_le_pos; lra) P).
  assert (E : 3 * (3 * u * rho * 1 + rho * (50000 * u) + 3 * u * rho * (50000 * u)) + 12 * u * ((rho + 3 * u * rho) * (1 + 50000 * u)) <= 152000 * u * rho).
  { replace (3 * (3 * u * rho * 1 + rho * (50000 * u) + 3 * u * rho * (50000 * u)) + 12 * u * ((rho + 3 * u * rho) * (1 + 50000 * u)))
      with ((150021 * u + 1050036 * (u * u) + 1800000 * (u * u * u)) * rho) by ring. apply Rmult_le_compat_r; lra. }
  destruct K as (K1&K2&K3). nsplit; (eapply near_le; [eassumption|exact E]).
Qed.
End Accurate.

(** The point of a pixel on the plane of height [z], for every projection. *)
Theorem C80_ground : forall u T c k r o mi q Q zn z, accurate_pan u T -> plain_cam c k r o -> one_turn o -> inverse_ok u (g_ops (p_ops T)) o mi ->
  rep2 q Q -> rep zn z -> in_range k r Q -> off_poles u k r Q ->
  let D := rm_mul_v (rm_trans (camM o)) (rayR k r Q) in
  let H := z - elevation_m o in
  let rho := ray_size k r Q in
  0 < H / cz D -> 304000 * u * rho < Rabs (cz D) -> 3 * u * (Rabs H + Rabs (elevation_m o)) < Rabs H ->
  exists p p' P, f_spaceFromPan T k mi r o Q z = Some p /\ spaceFromImage c q (on_Z zn) = Some p' /\ rep3 p' P /\
    near (u * plane_error H (elevation_m o) (pos_x_m o) (cx P) (cx D / cz D) rho (cz D)) (cx p) (cx P) /\
    near (u * plane_error H (elevation_m o) (pos_y_m o) (cy P) (cy D / cz D) rho (cz D)) (cy p) (cy P) /\
    near (u * (4 * Rabs H + Rabs (elevation_m o) + Rabs z)) (cz p) z.
Proof.
  intros u T c k r o mi q Q zn z HT HC HO HI Hq Hz HR HQ D H rho HP HD HH.
  assert (HA : accurate u (g_ops (p_ops T))) by apply HT. pose proof (u_range u _ HA) as U.
  destruct (plain_good _ _ _ _ HC) as (HG&HK&_&HU). pose proof HG as (_&HF&_).
  assert (P : 0 <= rho).
  { destruct (ray_below k r Q (off_poles_ray u k r Q (proj1 U) HQ)) as (B1&_). eapply Rle_trans; [apply Rabs_pos|exact B1]. }
  assert (Pz : 0 < Rabs (cz D)) by (assert (0 <= u * rho) by (apply Rmult_le_pos; lra); lra).
  assert (Nz : cz D <> 0) by (intros E; rewrite E, Rabs_R0 in Pz; lra).
  destruct (pan_direction_near u T HT k o mi r Q HO HI HF HQ) as (N1&N2&N3). fold D rho in N1, N2, N3. set (D' := f_pan_direction T k mi r Q) in *.
  destruct (factor_sign u _ HA z (elevation_m o) (cz D) (cz D') rho N3 HH ltac:(lra)) as (Nz'&SG&_). fold H in SG. specialize (SG HP).
  assert (HDir : rep3 (snd (getRay c q false)) D).
  { pose proof (direction_rep c r (camM o) (opos o) q Q false HG) as K. unfold D. rewrite <- HK. apply K; [rewrite HU; auto|rewrite HK; apply in_range_has_ray; exact HR]. }
  destruct (C11_axis_constraint c k r o q Q AZ zn z D HC Hq HR Hz HDir Nz) as (p'&E'&_&K).
  cbn [get_axis opos cz] in K. fold H in K. destruct K as (PP&RP&_&EP&_); [lra|].
  unfold f_spaceFromPan. fold D'. rewrite (origin_fl u _ HA). cbn [map3v opos cx cy cz].
  rewrite Rltb_false by lra. eexists. exists p', PP. split; [reflexivity|]. split; [exact E'|]. split; [exact RP|].
  cbn [zip3v cx cy cz]. splits.
  - assert (EX : cx PP = H / cz D * cx D + pos_x_m o) by (rewrite EP; cbn; ring). rewrite EX. apply plane_near; auto; lra.
  - assert (EY : cy PP = H / cz D * cy D + pos_y_m o) by (rewrite EP; cbn; ring). rewrite EY. apply plane_near; auto; lra.
  - apply given_near; auto.
Qed.
Print Assumptions C80_ground.
(** Pixels above the horizon have no point. *)
Theorem C80_sky : forall u T c k r o mi q Q zn z, accurate_pan u T -> plain_cam c k r o -> one_turn o -> inverse_ok u (g_ops (p_ops T)) o mi ->
  rep2 q Q -> rep zn z -> in_range k r Q -> off_poles u k r Q ->
  let D := rm_mul_v (rm_trans (camM o)) (rayR k r Q) in
  let H := z - elevation_m o in
  H / cz D < 0 -> 304000 * u * ray_size k r Q < Rabs (cz D) -> 3 * u * (Rabs H + Rabs (elevation_m o)) < Rabs H ->
  f_spaceFromPan T k mi r o Q z = None /\ spaceFromImage c q (on_Z zn) = Some nan3.
Proof.
  intros u T c k r o mi q Q zn z HT HC HO HI Hq Hz HR HQ D H HP HD HH.
  assert (HA : accurate u (g_ops (p_ops T))) by apply HT. pose proof (u_range u _ HA) as U.
  destruct (plain_good _ _ _ _ HC) as (HG&HK&_&HU). pose proof HG as (_&HF&_). set (rho := ray_size k r Q) in *.
  assert (P : 0 <= rho).
  { destruct (ray_below k r Q (off_poles_ray u k r Q (proj1 U) HQ)) as (B1&_). eapply Rle_trans; [apply Rabs_pos|exact B1]. }
  assert (Pz : 0 < Rabs (cz D)) by (assert (0 <= u * rho) by (apply Rmult_le_pos; lra); lra).
  assert (Nz : cz D <> 0) by (intros E; rewrite E, Rabs_R0 in Pz; lra).
  destruct (pan_direction_near u T HT k o mi r Q HO HI HF HQ) as (N1&N2&N3). fold D rho in N1, N2, N3. set (D' := f_pan_direction T k mi r Q) in *.
  destruct (factor_sign u _ HA z (elevation_m o) (cz D) (cz D') rho N3 HH ltac:(lra)) as (Nz'&_&SG). fold H in SG. specialize (SG HP). split.
  - unfold f_spaceFromPan. fold D'. rewrite (origin_fl u _ HA). cbn [map3v opos cx cy cz]. rewrite Rltb_true by lra. reflexivity.
  - assert (HDir : rep3 (snd (getRay c q false)) D).
    { pose proof (direction_rep c r (camM o) (opos o) q Q false HG) as K. unfold D. rewrite <- HK. apply K; [rewrite HU; auto|rewrite HK; apply in_range_has_ray; exact HR]. }
    destruct (C11_axis_constraint c k r o q Q AZ zn z D HC Hq HR Hz HDir Nz) as (p'&E'&K&_).
    cbn [get_axis opos cz] in K. fold H in K. rewrite <- (K HP). exact E'.
Qed.
Print Assumptions C80_sky.

Lemma equi_eye r Q : 0 < cos (betaR r Q) -> eye_dist (rayR Equirectangular r Q) = / cos (betaR r Q).
Proof.
  intros Pc. unfold eye_dist, rayR. cbn [cx cy cz]. set (a := alphaR r Q). set (b := betaR r Q) in *. apply sqrt_lem_1.
  - nra.
  - apply Rlt_le, Rinv_0_lt_compat, Pc.
  - pose proof (sin2_cos2 a) as S1. pose proof (sin2_cos2 b) as S2. unfold Rsqr in *.
    replace (sin a * sin a + - tan b * - tan b + - cos a * - cos a) with (1 + tan b * tan b) by lra. unfold tan.
    replace (1 + sin b / cos b * (sin b / cos b)) with ((sin b * sin b + cos b * cos b) / (cos b * cos b)) by (field; lra). rewrite S2. field. lra.
Qed.
(** A pixel is recovered from its ray, up to a full turn at the seam. *)
Theorem C80_round_trip : forall u T k r Q, accurate_pan u T -> panorama k -> foc_ok r -> in_range k r Q -> off_poles u k r Q ->
  let m := 3 * ray_size k r Q in
  2 * tinyR <= Rabs (cos (alphaR r Q)) -> 2 * (u * m) <= Rabs (cos (alphaR r Q)) -> 8 * (u * m) <= 1 ->
  exists q (n : Z), f_pan_image T k r (f_ray T k r Q) = Some q /\ (-1 <= n <= 1)%Z /\ (Rabs (alphaR r Q) < PI - 9 * (u * m) -> n = 0%Z) /\
    near (u * column_error (f_x r) (c1 Q) m 1) (c1 q) (c1 Q + IZR n * (2 * PI * f_x r)) /\
    near (u * match k with Cylindrical => row_error (f_y r) (c2 Q) (center_y r) m 1 | _ => elevation_error (f_y r) (c2 Q) m (/ cos (betaR r Q)) end) (c2 q) (c2 Q).
Proof.
  intros u T k r Q HT Hk HF HR HQ m H1 H2 H3. assert (HA : accurate u (g_ops (p_ops T))) by apply HT. pose proof (u_range u _ HA) as U.
  assert (HN := ray_close u T HT k r Q HF HQ). replace (3 * u * ray_size k r Q) with (u * m) in HN by (unfold m; ring).
  assert (Pm : 0 <= m). { destruct (ray_below k r Q (off_poles_ray u k r Q (proj1 U) HQ)) as (B1&_). pose proof (Rabs_pos (cx (rayR k r Q))). unfold m. lra. }
  set (C := rayR k r Q) in *.
  assert (Ex : cx C = sin (alphaR r Q) /\ cz C = - cos (alphaR r Q)) by (unfold C; destruct k; [exfalso; apply Hk; reflexivity| |]; split; reflexivity). destruct Ex as (Ex&Ez).
  assert (EA : axis_dist C = 1).
  { unfold axis_dist. rewrite Ex, Ez. replace (_ + _) with 1; [apply sqrt_1|]. pose proof (sin2_cos2 (alphaR r Q)) as S. unfold Rsqr in S. lra. }
  assert (BA : - PI <= - alphaR r Q <= PI) by (destruct k; cbn in HR; [exfalso; apply Hk; reflexivity|lra|lra]).
  assert (HP : in_panorama k r C (- alphaR r Q) Q).
  { destruct HF as (F1&F2). split; [unfold alphaR; field; auto|]. destruct k; [exfalso; apply Hk; reflexivity| |].
    - rewrite EA. unfold C, rayR, betaR. cbn [cy]. field. auto.
    - destruct HR as (_&HB). assert (Pc : 0 < cos (betaR r Q)) by (apply cos_gt_0; lra). assert (ED := equi_eye r Q Pc). fold C in ED.
      rewrite ED, EA. exists (- betaR r Q). split; [pose proof PI_RGT_0; lra|]. rewrite sin_neg, cos_neg. split; [unfold C, rayR, tan; cbn [cy]; field; lra|].
      split; [field; lra|]. unfold betaR. field. auto. }
  destruct (pan_image_near u T k r C _ m (- alphaR r Q) Q HT Hk Pm HN) as (q&n&E&Hn&Z&N1&N2); auto.
  - rewrite Ez, Rabs_Ropp. exact H1.
  - rewrite Ez, Rabs_Ropp. exact H2.
  - rewrite EA. exact H3.
  - rewrite EA, Ex, sin_neg. ring.
  - rewrite EA, Ez, cos_neg. ring.
  - exists q, n. rewrite EA in *. split; [exact E|]. split; [exact Hn|]. split; [|split].
    + intros L. apply Z. rewrite Rabs_Ropp. replace (u * m / 1) with (u * m) by field. exact L.
    + exact N1.
    + destruct k; [exfalso; apply Hk; reflexivity| |]; cbn [in_row_error] in N2; [rewrite EA in N2; exact N2|].
      destruct HP as (_&ph&_&E1&E2&_). destruct HR as (_&HB). assert (Pc : 0 < cos (betaR r Q)) by (apply cos_gt_0; lra).
      unfold C in N2. rewrite (equi_eye r Q Pc) in N2. exact N2.
Qed.
Print Assumptions C80_round_trip.

(** A point in the plane of the camera has no pixel in a cylindrical picture; in an equirectangular one it is drawn at
    the seam, in the middle row. *)
Theorem C80_plane : forall u T c k r o p P S hide, accurate_pan u T -> plain_cam c k r o -> panorama k -> one_turn o -> rep3 p P ->
  0 <= S -> below3 S (rv_sub P (opos o)) -> Rabs (cz (cam_coords o P)) + 3200 * u * S < tinyR ->
  match k with
  | Cylindrical => f_panFromSpace T k r o P = None /\ is_nan2 (imageFromSpace c p hide)
  | _ => exists q (n : Z), f_panFromSpace T k r o P = Some q /\ rep2 (imageFromSpace c p hide) (V2 (f_x r * PI + center_x r) (center_y r)) /\
      (-1 <= n <= 1)%Z /\ near (u * (13 * Rabs (f_x r) + Rabs (f_x r * (PI + 2 * PI * IZR n) + center_x r))) (c1 q) (f_x r * (PI + 2 * PI * IZR n) + center_x r) /\
      near (u * Rabs (center_y r)) (c2 q) (center_y r)
  end.
Proof.
  intros u T c k r o p P S hide HT HC Hk HO HP HS HB HZ. assert (HA : accurate u (g_ops (p_ops T))) by apply HT. pose proof (u_range u _ HA) as U.
  destruct (camera_near u _ HA o P S HO HB HS) as (_&_&Nz). set (C' := f_camera _ _ _ _) in *.
  assert (MZ : Rabs (cz C') < tinyR). { pose proof (near_abs _ _ _ _ Nz (Rle_refl _)). lra. }
  destruct (plain_good _ _ _ _ HC) as ((Hpr&_&HR)&HK&HDi&_). assert (MZ' : Rabs (cz (cam_coords o P)) < tinyR) by (assert (0 <= u * S) by (apply Rmult_le_pos; lra); lra).
  assert (HQ : rep3 (cameraFromSpace (cam_o c) p) (cam_coords o P)) by (exact (rigid_camera _ _ _ _ _ HR HP)).
  assert (HI : imageFromSpace c p hide = p_image k (cam_proj c) (cameraFromSpace (cam_o c) p) hide) by (unfold imageFromSpace; rewrite HDi, HK; reflexivity).
  rewrite HI. clear HI. unfold f_panFromSpace. fold C'. destruct k; [exfalso; apply Hk; reflexivity| |]; cbn [f_pan_image p_image].
  - unfold f_cyl_image. rewrite Rltb_true by exact MZ. split; [reflexivity|]. apply (C07_cyl_side_points_nan _ _ _ _ hide Hpr HQ MZ').
  - unfold f_equi_image. rewrite Rltb_true by exact MZ.
    pose proof HT as ((_&_&_&_&HT2&_)&_). destruct (HT2 0 (-1) ltac:(left; lra)) as (th&Bth&E1&E2&NT).
    replace (sqrt (-1 * -1 + 0 * 0)) with 1 in E1, E2 by (rewrite <- sqrt_1 at 1; f_equal; ring). pose proof PI_RGT_0 as PP. pose proof PI_4 as P4.
    destruct (angle_close 1 1 0 PI th) as (n&Hn&N&_); try lra.
    + rewrite <- E1, sin_PI, Rmult_0_r. apply near_refl.
    + rewrite <- E2, cos_PI. replace (1 * -1) with (-1) by ring. apply near_refl.
    + eexists. exists n. split; [reflexivity|]. split; [|split; [exact Hn|split; cbn [c1 c2]]].
      * replace (f_x r * PI + center_x r) with (center_x r + PI * f_x r) by ring. apply (C08_equi_side_points_wrong _ _ _ _ hide Hpr HQ MZ').
      * rewrite Rmult_opp_opp. eapply near_le; [apply (angle_pixel u T HT (f_x r) (center_x r) _ (PI + 2 * PI * IZR n) 0)|].
        -- apply abs_le_inv in NT. apply Rabs_le. lra.
        -- lra.
        -- rewrite Rmult_0_r, Rplus_0_l. replace (0 / 1) with 0 in N by field. rewrite Rmult_0_r in N. replace (8 * u) with (8 * u + 0) by ring. eapply near_trans; [exact NT|exact N].
        -- lra.
      * rewrite Rmult_0_r, (fl_0 u _ HA), Rplus_0_l. apply (fl_near u _ HA).
Qed.
Print Assumptions C80_plane.

(** ** The seam *)
(** Behind the camera no rounding of relative size [u] > 0 keeps the column: a heading of 180 degrees has a sine that is
    not exactly zero, and a point on one side of the seam is drawn on the other side of the picture. *)
Definition seam_ops (u : R) : pfloats :=
  PFloats (GFloats (Floats (fun x => x) rad (fun x => if Req_EM_T x PI then 2 * u else sin x) cos rdot) sqrt asin
    (fun y x => match toR (natan2 (Fin y) (Fin x)) with Some t => t | None => 0 end) (fun x => x * (180 / PI))) tan.
Lemma seam_accurate u : 0 <= u <= / 1000000 -> accurate_pan u (seam_ops u).
Proof.
  intros U. assert (K : forall x y, 0 <= y -> Rabs (x - x) <= y) by (intros; replace (x - x) with 0 by ring; rewrite Rabs_R0; auto).
  assert (K2 : forall c x, 0 <= c -> 0 <= c * u * Rabs x) by (intros; apply Rmult_le_pos; [apply Rmult_le_pos; lra|apply Rabs_pos]).
  destruct (exact_accurate u U) as (_&HX&HR&HS&HC&HD). split; [|intros x _; apply K, K2; lra]. split; [|splits].
  - unfold seam_ops. cbn [p_ops g_ops]. unfold accurate. cbn [f_round f_rad f_sin f_cos f_dot]. split; [exact U|]. split; [exact HX|]. split; [exact HR|]. split; [|split; [exact HC|exact HD]].
    intros x. destruct (Req_EM_T x PI) as [-> |N]; [rewrite sin_PI, Rminus_0_r, Rabs_right; lra|apply HS].
  - cbn. destruct (Req_EM_T 0 PI) as [E|_]; [pose proof PI_RGT_0; lra|apply sin_0].
  - intros x H. cbn. apply K. apply Rmult_le_pos; [lra|apply sqrt_pos].
  - intros x H. cbn. apply K, K2. lra.
  - intros y x H. cbn [seam_ops p_ops g_atan2]. destruct (atan2_angle y x H) as (th&E&B&E1&E2). exists th. splits; auto; try apply B. rewrite E. apply K. lra.
  - intros x. cbn. apply K, K2. lra.
Qed.
Definition ex_back : opar R := OPar 10 90 0 180 0 0.
Lemma back_cam k : exists c, plain_cam c k ex_r ex_back.
Proof.
  assert (H : rep_opar (opar_fin ex_back) ex_back) by (repeat split). destruct (init_rigid _ _ H) as (m&E&_).
  exists (plain_camera k (proj_fin ex_r) m), (proj_fin ex_r), m. splits; auto; [repeat split|split; simpl; lra|eauto].
Qed.
Lemma back_coords P : cam_coords ex_back P = V3 (- cx P) (cz P - 10) (cy P).
Proof.
  unfold cam_coords, camM; cbn [tilt_deg roll_deg heading_deg ex_back].
  replace (rad 90) with (PI / 2) by (unfold rad; field). replace (rad 0) with 0 by (unfold rad; ring). replace (rad 180) with PI by (unfold rad; field).
  unfold rotm, rm_mul_v, rdot, rv_sub. rewrite sin_PI2, cos_PI2, sin_0, cos_0, sin_PI, cos_PI. cbn. f_equal; ring.
Qed.
Lemma back_turn : one_turn ex_back.
Proof. unfold one_turn, ex_back; cbn. rewrite Rabs_R0, !Rabs_right by lra. lra. Qed.
Theorem C80_seam_refuted : forall u, 0 < u <= / 1000000 -> exists T c r o p P q Q, accurate_pan u T /\ plain_cam c Cylindrical r o /\ one_turn o /\
  rep3 p P /\ f_panFromSpace T Cylindrical r o P = Some q /\ rep2 (imageFromSpace c p true) Q /\ 0 < f_x r /\ PI * f_x r < Rabs (c1 q - c1 Q).
Proof.
  intros u U. destruct (back_cam Cylindrical) as (c&HC). set (P := V3 (- u) 1 10). assert (HT := seam_accurate u ltac:(lra)).
  destruct (pan_exact c Cylindrical ex_r ex_back (fin3 P) P true HC ltac:(discriminate) (rep3_fin _)) as (Pr&th&Q&B&E1&E2&RQ&HQ1&_).
  { rewrite back_coords. cbn. rewrite Rabs_R1. unfold tinyR. lra. }
  rewrite back_coords in E1, E2, Pr. cbn [P cx cy cz] in E1, E2, Pr. set (rho := axis_dist _) in *.
  assert (EC : f_camera (g_ops (p_ops (seam_ops u))) (f_matrix (g_ops (p_ops (seam_ops u))) ex_back) (opos ex_back) P = V3 (- u) 0 (1 + 2 * (u * u))).
  { unfold f_camera, f_matrix, f_mul_v, f_mul. cbn [seam_ops p_ops g_ops f_round f_rad f_sin f_cos f_dot ex_back tilt_deg roll_deg heading_deg].
    replace (rad 90) with (PI / 2) by (unfold rad; field). replace (rad 0) with 0 by (unfold rad; ring). replace (rad 180) with PI by (unfold rad; field).
    pose proof PI_RGT_0. destruct (Req_EM_T PI PI) as [_|N]; [|contradiction]. destruct (Req_EM_T 0 PI) as [N|_]; [lra|]. destruct (Req_EM_T (PI / 2) PI) as [N|_]; [lra|].
    rewrite sin_PI2, cos_PI2, sin_0, cos_0, cos_PI. unfold rdot, rm_trans, P, opos. cbn. f_equal; ring. }
  exists (seam_ops u), c, ex_r, ex_back, (fin3 P), P. eexists. exists Q.
  split; [exact HT|]. split; [exact HC|]. split; [exact back_turn|]. split; [apply rep3_fin|]. split; [|split; [exact RQ|split; [cbn; lra|]]].
  - unfold f_panFromSpace. rewrite EC. cbn [f_pan_image]. unfold f_cyl_image. cbn [cz]. rewrite Rltb_false by (rewrite Rabs_right; nra). reflexivity.
  - cbn [c1]. unfold f_pan_x. cbn [seam_ops p_ops g_ops f_round g_atan2 cx cz]. rewrite Ropp_involutive.
    assert (Pz : 0 < 1 + 2 * (u * u)) by nra. set (z := 1 + 2 * (u * u)) in *. clearbody z.
    destruct (atan2_angle u (- z) ltac:(left; lra)) as (th'&E'&B'&E1'&E2'). rewrite E', HQ1.
    assert (Pr' : 0 < sqrt (- z * - z + u * u)) by (apply sqrt_lt_R0; nra). set (rho' := sqrt _) in *.
    assert (S1 : sin th < 0) by nra. assert (S2 : cos th < 0) by nra. assert (S3 : 0 < sin th') by nra. assert (S4 : cos th' < 0) by nra.
    assert (HF : forall t, - PI <= t <= PI -> cos t < 0 -> PI / 2 < t \/ t < - (PI / 2)).
    { intros t Bt Ct. destruct (Rlt_dec (PI / 2) t); [auto|]. destruct (Rlt_dec t (- (PI / 2))); [auto|]. assert (0 <= cos t) by (apply cos_ge_0; lra). lra. }
    assert (T1 : th < - (PI / 2)). { destruct (HF th B S2) as [L|L]; [|exact L]. assert (0 <= sin th) by (apply sin_ge_0; pose proof PI_RGT_0; lra). lra. }
    assert (T2 : PI / 2 < th'). { destruct (HF th' B' S4) as [L|L]; [exact L|]. assert (0 <= sin (- th')) by (apply sin_ge_0; pose proof PI_RGT_0; lra). rewrite sin_neg in *. lra. }
    cbn [f_x center_x ex_r]. rewrite Rabs_left; lra.
Qed.
Print Assumptions C80_seam_refuted.

(** ** Double precision meets the assumptions *)
Definition pdouble : pfloats := PFloats gdouble (fun x => round53 (tan x)).
Lemma pdouble_accurate : accurate_pan u53 pdouble.
Proof.
  split; [exact gdouble_accurate|]. intros x _. cbn [pdouble p_tan]. eapply Rle_trans; [apply round53_near|].
  assert (0 <= u53 * Rabs (tan x)) by (apply Rmult_le_pos; [unfold u53; lra|apply Rabs_pos]). lra.
Qed.
(** ** Examples *)
(** A camera 10 m above the ground, looking horizontally: the ground point (50, 50) is seen 45 degrees to the right, *)
Lemma ex2_axis x y z : axis_dist (cam_coords ex_or2 (V3 x y z)) = sqrt (x * x + y * y).
Proof. rewrite ex2_coords. unfold axis_dist. cbn. f_equal. ring. Qed.
Lemma ex_size : axis_dist (cam_coords ex_or2 (V3 50 50 0)) = 50 * sqrt 2 /\ 50 <= axis_dist (cam_coords ex_or2 (V3 50 50 0)).
Proof.
  rewrite ex2_axis. split.
  - replace (50 * 50 + 50 * 50) with (50 * 50 * 2) by ring. rewrite sqrt_mult, sqrt_square; lra.
  - rewrite <- (sqrt_square 50) at 1 by lra. apply sqrt_le_1_alt. lra.
Qed.
Example C80_double_example : forall k, panorama k -> exists c q Q, plain_cam c k ex_r ex_or2 /\ f_panFromSpace pdouble k ex_r ex_or2 (V3 50 50 0) = Some q /\
  rep2 (imageFromSpace c (fin3 (V3 50 50 0)) true) Q /\ c1 Q = 3500 * (PI / 4) + 2000 /\ near (/ 10000) (c1 q) (c1 Q) /\ near (/ 10000) (c2 q) (c2 Q).
Proof.
  intros k Hk. destruct (ex_cam2 k) as (c&HC). exists c. destruct ex_size as (ES&LS).
  assert (ZC : cz (cam_coords ex_or2 (V3 50 50 0)) = -50) by (rewrite ex2_coords; cbn; lra).
  destruct (C80_double pdouble c k ex_r ex_or2 (fin3 (V3 50 50 0)) (V3 50 50 0) 50 true pdouble_accurate HC Hk ex2_one_turn (rep3_fin _)) as (q&Q&E&RQ&N1&N2).
  - lra.
  - unfold below3, ex_or2; cbn. splits; apply Rabs_le; lra.
  - rewrite ZC, Rabs_left by lra. unfold tinyR. lra.
  - rewrite ZC, Rabs_left by lra. lra.
  - lra.
  - cbn. rewrite Rabs_right; lra.
  - cbn. rewrite Rabs_right; lra.
  - exists q, Q. split; [exact HC|]. split; [exact E|]. split; [exact RQ|].
    set (b := / 5 / sqrt 2). pose proof (sqrt_lt_R0 2 ltac:(lra)) as P2. pose proof (sqrt_sqrt 2 ltac:(lra)) as S2.
    assert (Hb : 0 < b <= 1).
    { split; [apply Rdiv_lt_0_compat; lra|]. unfold b. assert (1 <= sqrt 2) by (rewrite <- sqrt_1 at 1; apply sqrt_le_1_alt; lra).
      apply (Rmult_le_reg_r (sqrt 2)); [lra|]. unfold Rdiv. rewrite Rmult_assoc, Rinv_l by lra. lra. }
    pose proof PI_RGT_0 as PP. pose proof PI_4 as P4. pose proof (atan_bound b) as AB.
    assert (K : exists y, - 4 <= y <= 4 /\ Q = V2 (3500 * (PI / 4) + 2000) (3500 * y + 1500)).
    { assert (Pt : posmul (cam_coords ex_or2 (V3 50 50 0)) (V3 (sin (PI / 4)) (- b) (- cos (PI / 4)))).
      { rewrite ex2_coords, sin_PI4, cos_PI4. exists (50 * sqrt 2). split; [lra|]. unfold b. apply v3_ext; cbn; field; lra. }
      assert (AL : forall y, alphaR ex_r (V2 (3500 * (PI / 4) + 2000) y) = PI / 4) by (intros; unfold alphaR, ex_r; cbn; field).
      assert (BE : forall x y, betaR ex_r (V2 x (3500 * y + 1500)) = y) by (intros; unfold betaR, ex_r; cbn; field).
      destruct k; [exfalso; apply Hk; reflexivity| |].
      - exists b. split; [lra|]. apply (rep2_inj _ _ _ RQ). apply (image_dir c Cylindrical ex_r ex_or2 _ (V3 50 50 0) _ true HC (rep3_fin _)).
        + split; [rewrite ZC, Rabs_left by lra; unfold tinyR; lra|exact I].
        + cbn [in_range]. rewrite AL. lra.
        + unfold rayR. rewrite AL, BE. exact Pt.
      - exists (atan b). split; [lra|]. apply (rep2_inj _ _ _ RQ). apply (image_dir c Equirectangular ex_r ex_or2 _ (V3 50 50 0) _ true HC (rep3_fin _)).
        + split; [rewrite ZC, Rabs_left by lra; unfold tinyR; lra|exact I].
        + cbn [in_range]. rewrite AL, BE. lra.
        + unfold rayR. rewrite AL, BE, tan_atan. exact Pt. }
    destruct K as (y&By&->). cbn [c1 c2] in *. split; [reflexivity|]. cbn [ex_r center_x center_y f_x f_y] in *. split.
    + apply N1; [apply Rabs_le; lra|]. rewrite !Rabs_right; lra.
    + apply N2; apply Rabs_le; lra.
Qed.
Example C80_image_example : forall k, panorama k -> exists c q Q (n : Z), plain_cam c k ex_r ex_or2 /\ f_panFromSpace pdouble k ex_r ex_or2 (V3 50 50 0) = Some q /\
  rep2 (imageFromSpace c (fin3 (V3 50 50 0)) false) Q /\ near (u53 * column_error 3500 (c1 Q) (3200 * 50) (50 * sqrt 2)) (c1 q) (c1 Q + IZR n * (2 * PI * 3500)).
Proof.
  intros k Hk. destruct (ex_cam2 k) as (c&HC). exists c. destruct ex_size as (ES&LS).
  assert (ZC : cz (cam_coords ex_or2 (V3 50 50 0)) = -50) by (rewrite ex2_coords; cbn; lra).
  destruct (C80_image u53 pdouble c k ex_r ex_or2 (fin3 (V3 50 50 0)) (V3 50 50 0) 50 false pdouble_accurate HC Hk ex2_one_turn (rep3_fin _)) as (q&Q&n&E&RQ&_&N1&_).
  - lra.
  - unfold below3, ex_or2; cbn. splits; apply Rabs_le; lra.
  - rewrite ZC, Rabs_left by lra. unfold tinyR. lra.
  - rewrite ZC, Rabs_left by lra. unfold u53. lra.
  - unfold u53. lra.
  - exists q, Q, n. rewrite ES in N1. split; [exact HC|]. split; [exact E|]. split; [exact RQ|exact N1].
Qed.
(** The pixel (2000, 2200) of a cylindrical picture: 0.2 below the horizon, 50 m away *)
Lemma ex_pan_alpha y : alphaR ex_r (V2 2000 y) = 0. Proof. unfold alphaR, ex_r. cbn. field. Qed.
Lemma ex_pan_beta : betaR ex_r (V2 2000 2200) = / 5. Proof. unfold betaR, ex_r. cbn. field. Qed.
Lemma ex_pan_beta' : betaR ex_r (V2 2000 800) = - / 5. Proof. unfold betaR, ex_r. cbn. field. Qed.
Lemma ex_pan_size : ray_size Cylindrical ex_r (V2 2000 2200) = 32 / 10.
Proof. unfold ray_size. rewrite ex_pan_alpha, ex_pan_beta, Rabs_R0, Rabs_right by lra. field. Qed.
Lemma ex_pan_dir : rm_mul_v (rm_trans (camM ex_or2)) (rayR Cylindrical ex_r (V2 2000 2200)) = V3 0 1 (- / 5).
Proof. rewrite ex2_matrix. unfold rayR. rewrite ex_pan_alpha, ex_pan_beta, sin_0, cos_0. unfold rm_mul_v, rm_trans, rdot. cbn. f_equal; ring. Qed.
Example C80_ground_example : exists c p p' P, plain_cam c Cylindrical ex_r ex_or2 /\
  f_spaceFromPan pdouble Cylindrical (rm_trans (camM ex_or2)) ex_r ex_or2 (V2 2000 2200) 0 = Some p /\
  spaceFromImage c (V2 (Fin 2000) (Fin 2200)) (on_Z (Fin 0)) = Some p' /\ rep3 p' P /\
  near (u53 * plane_error (0 - 10) 10 0 (cy P) (1 / - / 5) (32 / 10) (- / 5)) (cy p) (cy P).
Proof.
  destruct (ex_cam2 Cylindrical) as (c&HC). exists c. pose proof PI_RGT_0.
  destruct (C80_ground u53 pdouble c Cylindrical ex_r ex_or2 (rm_trans (camM ex_or2)) (V2 (Fin 2000) (Fin 2200)) (V2 2000 2200) (Fin 0) 0 pdouble_accurate HC
    ex2_one_turn (inverse_transpose _ _ _ binary64_accurate ex2_one_turn)) as (p&p'&P&E&E'&RP&_&N2&_).
  - split; reflexivity.
  - reflexivity.
  - cbn [in_range]. rewrite ex_pan_alpha. lra.
  - exact I.
  - rewrite ex_pan_dir. cbn. replace ((0 - 10) / - / 5) with 50 by field. lra.
  - rewrite ex_pan_dir, ex_pan_size. cbn. unfold u53. rewrite Rabs_left by lra. lra.
  - cbn. unfold u53. rewrite Rabs_left, Rabs_right by lra. lra.
  - exists p, p', P. rewrite ex_pan_dir, ex_pan_size in N2. splits; auto.
Qed.
(** 0.2 above the horizon of an equirectangular picture *)
Lemma ex_cos5 : / 2 <= cos (/ 5) /\ / 6 <= sin (/ 5).
Proof.
  split; [|pose proof (sin_lower (/ 5)); lra]. pose proof PI2_1. replace (/ 2) with (1 / 2) by field. rewrite <- cos_PI3.
  left. apply cos_decreasing_1; lra.
Qed.
Example C80_sky_example : exists c, plain_cam c Equirectangular ex_r ex_or2 /\
  f_spaceFromPan pdouble Equirectangular (rm_trans (camM ex_or2)) ex_r ex_or2 (V2 2000 800) 0 = None /\
  spaceFromImage c (V2 (Fin 2000) (Fin 800)) (on_Z (Fin 0)) = Some nan3.
Proof.
  destruct (ex_cam2 Equirectangular) as (c&HC). exists c. split; [exact HC|]. pose proof PI_RGT_0 as PP. pose proof PI2_1. destruct ex_cos5 as (C5&S5). pose proof (COS_bound (/ 5)) as CB.
  assert (TB : / 6 <= tan (/ 5)).
  { unfold tan. apply (Rmult_le_reg_r (cos (/ 5))); [lra|]. unfold Rdiv. rewrite Rmult_assoc, Rinv_l by lra. lra. }
  assert (D : rm_mul_v (rm_trans (camM ex_or2)) (rayR Equirectangular ex_r (V2 2000 800)) = V3 0 1 (tan (/ 5))).
  { rewrite ex2_matrix. unfold rayR. rewrite ex_pan_alpha, ex_pan_beta', sin_0, cos_0. unfold rm_mul_v, rm_trans, rdot. cbn. rewrite tan_neg. f_equal; ring. }
  apply (C80_sky u53 pdouble c Equirectangular ex_r ex_or2 (rm_trans (camM ex_or2)) (V2 (Fin 2000) (Fin 800)) (V2 2000 800) (Fin 0) 0 pdouble_accurate HC
    ex2_one_turn (inverse_transpose _ _ _ binary64_accurate ex2_one_turn)).
  - split; reflexivity.
  - reflexivity.
  - cbn [in_range]. rewrite ex_pan_alpha, ex_pan_beta'. lra.
  - cbn [off_poles]. rewrite ex_pan_beta', cos_neg, Rabs_Ropp, !Rabs_right by lra. unfold u53. lra.
  - rewrite D. cbn [cz elevation_m ex_or2]. assert (0 < 10 / tan (/ 5)) by (apply Rdiv_lt_0_compat; lra).
    replace ((0 - 10) / tan (/ 5)) with (- (10 / tan (/ 5))) by (field; lra). lra.
  - rewrite D. cbn [cz]. rewrite (Rabs_right (tan (/ 5))) by lra. unfold ray_size. rewrite ex_pan_alpha, ex_pan_beta', cos_neg, Rabs_R0, Rabs_Ropp, Rabs_right by lra.
    assert (K : 6 * (1 + / 5) / (cos (/ 5) * cos (/ 5)) <= 6 * (1 + / 5) * 4).
    { unfold Rdiv. apply Rmult_le_compat_l; [lra|]. replace 4 with (/ (/ 2 * / 2)) by field. apply Rinv_le_contravar; nra. }
    unfold u53. lra.
  - cbn. unfold u53. rewrite Rabs_left, Rabs_right by lra. lra.
Qed.
Example C80_round_trip_example : exists q (n : Z), f_pan_image pdouble Cylindrical ex_r (f_ray pdouble Cylindrical ex_r (V2 2000 2200)) = Some q /\ n = 0%Z /\
  near (/ 100000) (c1 q) 2000 /\ near (/ 100000) (c2 q) 2200.
Proof.
  assert (P3 : 3 <= PI) by (destruct (PI_ineq 3) as (K&_); unfold tg_alt, PI_tg in K; simpl in K; lra).
  destruct (C80_round_trip u53 pdouble Cylindrical ex_r (V2 2000 2200) pdouble_accurate) as (q&n&E&_&Z&N1&N2).
  - discriminate.
  - split; cbn; lra.
  - cbn [in_range]. rewrite ex_pan_alpha. lra.
  - exact I.
  - rewrite ex_pan_alpha, cos_0, Rabs_R1. unfold tinyR. lra.
  - rewrite ex_pan_alpha, ex_pan_size, cos_0, Rabs_R1. unfold u53. lra.
  - rewrite ex_pan_size. unfold u53. lra.
  - rewrite ex_pan_alpha, ex_pan_size, Rabs_R0 in Z. exists q, n. split; [exact E|]. assert (Zn : n = 0%Z) by (apply Z; unfold u53; lra). subst n. split; [reflexivity|].
    cbn [c1 c2 ex_r f_x f_y center_y] in N1, N2. rewrite ex_pan_size in N1, N2. unfold column_error, row_error in *. rewrite Rmult_0_l, Rplus_0_r in N1.
    split; (eapply near_le; [eassumption|]); rewrite !Rabs_right by lra; unfold u53; lra.
Qed.
(** a point exactly to the right of the camera *)
Example C80_plane_example : exists c d, plain_cam c Cylindrical ex_r ex_or2 /\ f_panFromSpace pdouble Cylindrical ex_r ex_or2 (V3 50 0 10) = None /\
  is_nan2 (imageFromSpace c (fin3 (V3 50 0 10)) true) /\ plain_cam d Equirectangular ex_r ex_or2 /\
  exists q (n : Z), f_panFromSpace pdouble Equirectangular ex_r ex_or2 (V3 50 0 10) = Some q /\ rep2 (imageFromSpace d (fin3 (V3 50 0 10)) true) (V2 (3500 * PI + 2000) 1500).
Proof.
  destruct (ex_cam2 Cylindrical) as (c&HC). destruct (ex_cam2 Equirectangular) as (d&HD). exists c, d.
  assert (HB : below3 50 (rv_sub (V3 50 0 10) (opos ex_or2))) by (unfold below3, ex_or2; cbn; splits; apply Rabs_le; lra).
  assert (HZ : Rabs (cz (cam_coords ex_or2 (V3 50 0 10))) + 3200 * u53 * 50 < tinyR).
  { rewrite ex2_coords. cbn. rewrite Ropp_0, Rabs_R0. unfold u53, tinyR. lra. }
  pose proof (C80_plane u53 pdouble c Cylindrical ex_r ex_or2 (fin3 (V3 50 0 10)) (V3 50 0 10) 50 true pdouble_accurate HC ltac:(discriminate) ex2_one_turn (rep3_fin _) ltac:(lra) HB HZ) as K1.
  pose proof (C80_plane u53 pdouble d Equirectangular ex_r ex_or2 (fin3 (V3 50 0 10)) (V3 50 0 10) 50 true pdouble_accurate HD ltac:(discriminate) ex2_one_turn (rep3_fin _) ltac:(lra) HB HZ) as K2.
  cbv beta iota in K1, K2. destruct K1 as (K1&K1'). destruct K2 as (q&n&E&RQ&_). splits; auto. exists q, n. split; [exact E|exact RQ].
Qed.
