(** * Proofs about the orientation model *)
Require Import Reals Lra Psatz Bool ZArith.
From Verif Require Import Num Vec Orientation.
Open Scope R_scope.

Definition rad (d : R) : R := d * (PI / 180).

(** The rotation matrix over the reals; angles in radians. *)
Definition rotm (t r h : R) : m3 R :=
  V3 (V3 (cos r * cos h + sin r * cos t * sin h)
         (- (cos r * sin h) + sin r * cos t * cos h) (sin r * sin t))
     (V3 (- (sin r * cos h) + cos r * cos t * sin h)
         (sin r * sin h + cos r * cos t * cos h) (cos r * sin t))
     (V3 (- (sin t * sin h)) (- (sin t * cos h)) (cos t)).

Lemma sc x : sin x * sin x = 1 - cos x * cos x.
Proof. pose proof (sin2_cos2 x) as H; unfold Rsqr in H; lra. Qed.

Lemma rotm_rows t r h : orthonormal (rotm t r h).
Proof.
  unfold orthonormal, rdot; cbn [rotm cx cy cz].
  pose proof (sc t) as Ht; pose proof (sc r) as Hr; pose proof (sc h) as Hh.
  repeat split; ring [Ht Hr Hh].
Qed.
Lemma rotm_cols t r h : orthonormal (rm_trans (rotm t r h)).
Proof.
  unfold orthonormal, rdot; cbn [rm_trans rotm cx cy cz].
  pose proof (sc t) as Ht; pose proof (sc r) as Hr; pose proof (sc h) as Hh.
  repeat split; ring [Ht Hr Hh].
Qed.
Lemma rotm_det t r h : rdet (rotm t r h) = 1.
Proof.
  unfold rdet, rdot, rcross; cbn [rotm cx cy cz].
  pose proof (sc t) as Ht; pose proof (sc r) as Hr; pose proof (sc h) as Hh.
  ring [Ht Hr Hh].
Qed.
Lemma rotm_cofactors t r h :
  let M := rotm t r h in
  rcross (cy M) (cz M) = cx M /\ rcross (cz M) (cx M) = cy M /\ rcross (cx M) (cy M) = cz M.
Proof.
  cbn zeta.
  pose proof (sc t) as Ht; pose proof (sc r) as Hr; pose proof (sc h) as Hh.
  repeat split; apply v3_ext; unfold rcross; cbn [rotm cx cy cz]; ring [Ht Hr Hh].
Qed.

Lemma inv3_rot m M :
  repm m M -> (rcross (cy M) (cz M) = cx M) -> (rcross (cz M) (cx M) = cy M) ->
  (rcross (cx M) (cy M) = cz M) -> rdet M = 1 ->
  exists mi, inv3 m = Some mi /\ repm mi (rm_trans M).
Proof.
  intros (Ha&Hb&Hc) K1 K2 K3 D. unfold inv3.
  set (det := nv_dot _ _).
  assert (Hdet : rep det 1).
  { eapply rep_eq; [apply rep_dot; [eassumption|apply rep3_cross; eassumption]|].
    exact D. }
  rewrite (rep_eqb _ _ 1 0 Hdet (rep_Fin 0)).
  rewrite Reqb_false by lra.
  eexists; split; [reflexivity|].
  apply repm_trans with (M := V3 (cx M) (cy M) (cz M)).
  assert (S1 : forall v, rv_scale (/ 1) v = v).
  { intros; apply v3_ext; simpl; field. }
  repeat apply conj; cbn [cx cy cz];
   (eapply rep3_eq; [apply rep3_div; [apply rep3_cross; eassumption|eassumption|lra]|
     rewrite S1; assumption]).
Qed.

Lemma build_matrix_spec tilt roll heading px py pz t r h x y z :
  rep tilt t -> rep roll r -> rep heading h -> rep px x -> rep py y -> rep pz z ->
  exists m, build_matrix tilt roll heading px py pz = Some m /\
    rep3 (om_t m) (V3 x y z) /\ repm (om_R m) (rotm t r h) /\
    repm (om_Rinv m) (rm_trans (rotm t r h)).
Proof.
  intros Ht Hr Hh Hx Hy Hz. unfold build_matrix.
  set (rr := nm_mul _ _).
  assert (HR : repm rr (rotm t r h)).
  { unfold rr.
    assert (H1 : repm (mat_roll roll) (V3 (V3 (cos r) (sin r) 0) (V3 (- sin r) (cos r) 0) (V3 0 0 1))).
    { repeat split; cbn; rep_all. }
    assert (H2 : repm (mat_tilt tilt) (V3 (V3 1 0 0) (V3 0 (cos t) (sin t)) (V3 0 (- sin t) (cos t)))).
    { repeat split; cbn; rep_all. }
    assert (H3 : repm (mat_head heading) (V3 (V3 (cos h) (- sin h) 0) (V3 (sin h) (cos h) 0) (V3 0 0 1))).
    { repeat split; cbn; rep_all. }
    pose proof (repm_mul _ _ _ _ (repm_mul _ _ _ _ H1 H2) H3) as H.
    replace (rotm t r h) with
      (rm_mul (rm_mul (V3 (V3 (cos r) (sin r) 0) (V3 (- sin r) (cos r) 0) (V3 0 0 1))
         (V3 (V3 1 0 0) (V3 0 (cos t) (sin t)) (V3 0 (- sin t) (cos t))))
         (V3 (V3 (cos h) (- sin h) 0) (V3 (sin h) (cos h) 0) (V3 0 0 1))); auto.
    unfold rotm; apply v3_ext; apply v3_ext; cbv [rm_mul map3v rm_trans rdot cx cy cz]; ring. }
  destruct (rotm_cofactors t r h) as (K1&K2&K3).
  destruct (inv3_rot _ _ HR K1 K2 K3 (rotm_det t r h)) as (mi&E&Hmi).
  rewrite E. eexists; split; [reflexivity|]. split; [|split]; auto. repeat split; auto.
Qed.

(** ** Renormalisation of the heading *)
Lemma Rfloor_bounds x : IZR (Rfloor x) <= x < IZR (Rfloor x) + 1.
Proof.
  unfold Rfloor. destruct (base_Int_part x). lra.
Qed.

Lemma wrap_heading_spec h a : rep h a ->
  exists b, rep (wrap_heading h) b /\ (exists k : Z, b = a + 360 * IZR k) /\
    ((-360 <= a <= 360 /\ b = a) \/ ((a < -360 \/ 360 < a) /\ 0 <= b < 360)).
Proof.
  intros H. unfold wrap_heading.
  rewrite (rep_ltb _ _ _ _ H (rep_Fin _)), (rep_ltb _ _ _ _ (rep_Fin _) H).
  destruct (Rltb a (-360) || Rltb 360 a) eqn:E.
  - exists (a - 360 * IZR (Rfloor (a / 360))). split; [apply rep_mod; auto|]. split.
    + exists (- Rfloor (a / 360))%Z. rewrite opp_IZR; ring.
    + right. split.
      * apply orb_true_iff in E; destruct E as [E|E]; apply Rltb_iff in E; auto.
      * pose proof (Rfloor_bounds (a / 360)) as B.
        assert (a = 360 * (a / 360)) by field. lra.
  - apply orb_false_iff in E; destruct E as [E1 E2]; apply Rltb_iff_false in E1, E2.
    exists a; split; auto. split; [exists 0%Z; ring|left; lra].
Qed.

Lemma cos_period_Z x (k : Z) : cos (x + 2 * IZR k * PI) = cos x.
Proof.
  destruct k as [|p|p].
  - f_equal; ring.
  - rewrite <- (positive_nat_Z p), <- INR_IZR_INZ. apply cos_period.
  - rewrite <- (cos_period (x + 2 * IZR (Zneg p) * PI) (Pos.to_nat p)). f_equal.
    rewrite INR_IZR_INZ, positive_nat_Z. change (Zneg p) with (- Zpos p)%Z.
    rewrite opp_IZR; ring.
Qed.
Lemma sin_period_Z x (k : Z) : sin (x + 2 * IZR k * PI) = sin x.
Proof.
  destruct k as [|p|p].
  - f_equal; ring.
  - rewrite <- (positive_nat_Z p), <- INR_IZR_INZ. apply sin_period.
  - rewrite <- (sin_period (x + 2 * IZR (Zneg p) * PI) (Pos.to_nat p)). f_equal.
    rewrite INR_IZR_INZ, positive_nat_Z. change (Zneg p) with (- Zpos p)%Z.
    rewrite opp_IZR; ring.
Qed.
Lemma cos_deg_period a b (k : Z) : b = a + 360 * IZR k -> cos (rad b) = cos (rad a).
Proof.
  intros ->. unfold rad. rewrite <- (cos_period_Z (a * (PI / 180)) k). f_equal; field.
Qed.
Lemma sin_deg_period a b (k : Z) : b = a + 360 * IZR k -> sin (rad b) = sin (rad a).
Proof.
  intros ->. unfold rad. rewrite <- (sin_period_Z (a * (PI / 180)) k). f_equal; field.
Qed.
Lemma rotm_h_period t r a b (k : Z) : b = a + 360 * IZR k -> rotm t r (rad b) = rotm t r (rad a).
Proof.
  intros E; unfold rotm. rewrite (cos_deg_period _ _ _ E), (sin_deg_period _ _ _ E); auto.
Qed.

(** ** Main facts *)
Lemma init_matrix_spec o r : rep_opar o r ->
  exists m, init_matrix o = Some m /\ rep3 (om_t m) (opos r) /\
    repm (om_R m) (rotm (rad (tilt_deg r)) (rad (roll_deg r)) (rad (heading_deg r))) /\
    repm (om_Rinv m) (rm_trans (rotm (rad (tilt_deg r)) (rad (roll_deg r)) (rad (heading_deg r)))).
Proof.
  intros (He&Ht&Hr&Hh&Hx&Hy). unfold init_matrix.
  destruct (wrap_heading_spec _ _ Hh) as (b&Hb&(k&Ek)&_).
  destruct (build_matrix_spec _ _ _ _ _ _ _ _ _ _ _ _
     (rep_deg2rad _ _ Ht) (rep_deg2rad _ _ Hr) (rep_deg2rad _ _ Hb) Hx Hy He)
     as (m&E&H1&H2&H3).
  exists m; repeat split; try apply H1; auto;
    fold (rad (tilt_deg r)) (rad (roll_deg r)) (rad b) in *;
    rewrite (rotm_h_period _ _ _ _ _ Ek) in *; (apply H2 || apply H3).
Qed.

Lemma init_matrix_ypr_spec o r : rep_ypar o r ->
  exists m, init_matrix_ypr o = Some m /\ rep3 (om_t m) (ypos r) /\
    repm (om_R m) (rotm (rad (90 + pitch_deg r)) (rad (- y_roll_deg r)) (rad (yaw_deg r))) /\
    repm (om_Rinv m)
      (rm_trans (rotm (rad (90 + pitch_deg r)) (rad (- y_roll_deg r)) (rad (yaw_deg r)))).
Proof.
  intros (He&Hyaw&Hr&Hp&Hx&Hy). unfold init_matrix_ypr.
  destruct (wrap_heading_spec _ _ Hp) as (b&Hb&(k&Ek)&_).
  destruct (build_matrix_spec _ _ _ _ _ _ _ _ _ _ _ _
     (rep_add _ _ _ _ (rep_Fin (PI / 2)) (rep_deg2rad _ _ Hb))
     (rep_neg _ _ (rep_deg2rad _ _ Hr)) (rep_deg2rad _ _ Hyaw) Hx Hy He)
     as (m&E&H1&H2&H3).
  assert (Q : rotm (PI / 2 + b * (PI / 180)) (- (y_roll_deg r * (PI / 180))) (yaw_deg r * (PI / 180))
     = rotm (rad (90 + pitch_deg r)) (rad (- y_roll_deg r)) (rad (yaw_deg r))).
  { replace (PI / 2 + b * (PI / 180)) with (rad (90 + b)) by (unfold rad; field).
    replace (- (y_roll_deg r * (PI / 180))) with (rad (- y_roll_deg r)) by (unfold rad; field).
    unfold rotm.
    assert (Ek' : 90 + b = (90 + pitch_deg r) + 360 * IZR k) by lra.
    rewrite (cos_deg_period _ _ _ Ek'), (sin_deg_period _ _ _ Ek'). reflexivity. }
  rewrite Q in *. exists m; repeat split; try apply H1; auto; apply H2 || apply H3.
Qed.

(** What both constructors give: a rigid camera with matrix [M] at position [T]. *)
Definition rigid (m : omat) (M : m3 R) (T : v3 R) : Prop :=
  rep3 (om_t m) T /\ repm (om_R m) M /\ repm (om_Rinv m) (rm_trans M) /\
  orthonormal M /\ orthonormal (rm_trans M) /\ rdet M = 1.

Lemma rigid_camera m M T p P : rigid m M T -> rep3 p P ->
  rep3 (cameraFromSpace m p) (rm_mul_v M (rv_sub P T)).
Proof.
  intros (Ht&HM&_) Hp. unfold cameraFromSpace. apply rep3_mul_v; auto. apply rep3_sub; auto.
Qed.
Lemma rigid_space m M T p P : rigid m M T -> rep3 p P ->
  rep3 (spaceFromCamera m p false) (rv_add (rm_mul_v (rm_trans M) P) T).
Proof.
  intros (Ht&_&HM&_) Hp. unfold spaceFromCamera. apply rep3_add; auto. apply rep3_mul_v; auto.
Qed.
Lemma rigid_space_dir m M T p P : rigid m M T -> rep3 p P ->
  rep3 (spaceFromCamera m p true) (rm_mul_v (rm_trans M) P).
Proof.
  intros (Ht&_&HM&_) Hp. unfold spaceFromCamera. apply rep3_mul_v; auto.
Qed.
Lemma trans_mul M P : orthonormal (rm_trans M) -> rm_mul_v (rm_trans M) (rm_mul_v M P) = P.
Proof.
  destruct M as [[a1 a2 a3] [b1 b2 b3] [d1 d2 d3]], P as [x y z].
  cbv [orthonormal rm_mul_v rm_trans rdot cx cy cz]; intros (H1&H2&H3&H4&H5&H6).
  f_equal.
  - transitivity (x * (a1*a1+b1*b1+d1*d1) + y * (a1*a2+b1*b2+d1*d2) + z * (a1*a3+b1*b3+d1*d3)); [ring|].
    rewrite H1,H4,H5; ring.
  - transitivity (x * (a1*a2+b1*b2+d1*d2) + y * (a2*a2+b2*b2+d2*d2) + z * (a2*a3+b2*b3+d2*d3)); [ring|].
    rewrite H2,H4,H6; ring.
  - transitivity (x * (a1*a3+b1*b3+d1*d3) + y * (a2*a3+b2*b3+d2*d3) + z * (a3*a3+b3*b3+d3*d3)); [ring|].
    rewrite H3,H5,H6; ring.
Qed.
Lemma trans_trans (M : m3 R) : rm_trans (rm_trans M) = M.
Proof. destruct M as [[? ? ?] [? ? ?] [? ? ?]]; reflexivity. Qed.
Lemma mul_trans M P : orthonormal M -> rm_mul_v M (rm_mul_v (rm_trans M) P) = P.
Proof.
  intros H. rewrite <- (trans_trans M) at 1. apply trans_mul. rewrite trans_trans; auto.
Qed.

Lemma init_rigid o r : rep_opar o r ->
  exists m, init_matrix o = Some m /\
   rigid m (rotm (rad (tilt_deg r)) (rad (roll_deg r)) (rad (heading_deg r))) (opos r).
Proof.
  intros H; destruct (init_matrix_spec _ _ H) as (m&E&H1&H2&H3).
  exists m; split; auto. split; [|split; [|split]]; auto. split; [|split].
  - apply rotm_rows. - apply rotm_cols. - apply rotm_det.
Qed.
Lemma init_ypr_rigid o r : rep_ypar o r ->
  exists m, init_matrix_ypr o = Some m /\
   rigid m (rotm (rad (90 + pitch_deg r)) (rad (- y_roll_deg r)) (rad (yaw_deg r))) (ypos r).
Proof.
  intros H; destruct (init_matrix_ypr_spec _ _ H) as (m&E&H1&H2&H3).
  exists m; split; auto. split; [|split; [|split]]; auto. split; [|split].
  - apply rotm_rows. - apply rotm_cols. - apply rotm_det.
Qed.

(** Triple product (signed volume). *)
Definition triple (a b c : v3 R) : R := rdot a (rcross b c).
Lemma triple_mul M a b c :
  triple (rm_mul_v M a) (rm_mul_v M b) (rm_mul_v M c) = rdet M * triple a b c.
Proof.
  destruct M as [[a1 a2 a3] [b1 b2 b3] [d1 d2 d3]], a as [x1 y1 z1], b as [x2 y2 z2], c as [x3 y3 z3].
  cbv [triple rdet rdot rcross rm_mul_v cx cy cz]; ring.
Qed.
Lemma rv_sub_shift P Q T : rv_sub (rv_sub P T) (rv_sub Q T) = rv_sub P Q.
Proof. apply v3_ext; simpl; ring. Qed.

(** Rigidity of a map on points: dot products, volumes (hence lengths, angles,
    handedness) of differences are preserved. *)
Lemma rigid_motion m M T : rigid m M T ->
  forall a b c d A B C D, rep3 a A -> rep3 b B -> rep3 c C -> rep3 d D ->
  exists A' B' C' D',
    rep3 (cameraFromSpace m a) A' /\ rep3 (cameraFromSpace m b) B' /\
    rep3 (cameraFromSpace m c) C' /\ rep3 (cameraFromSpace m d) D' /\
    rdist A' B' = rdist A B /\
    rdot (rv_sub B' A') (rv_sub C' A') = rdot (rv_sub B A) (rv_sub C A) /\
    triple (rv_sub B' A') (rv_sub C' A') (rv_sub D' A')
      = triple (rv_sub B A) (rv_sub C A) (rv_sub D A).
Proof.
  intros H a b c d A B C D Ha Hb Hc Hd.
  do 4 eexists. do 4 (split; [eapply rigid_camera; [exact H|eassumption]|]).
  destruct H as (_&_&_&_&Ho&Hdet).
  rewrite <- !rm_mul_v_sub, !rv_sub_shift.
  split; [|split].
  - unfold rdist, rnorm. rewrite <- !rm_mul_v_sub, !rv_sub_shift, orthonormal_dot; auto.
  - apply orthonormal_dot; auto.
  - rewrite triple_mul, Hdet; ring.
Qed.
