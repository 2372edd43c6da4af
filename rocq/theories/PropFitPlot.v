(** * C64: what is drawn for a fit agrees with what is fitted *)
Require Import Reals Lra Lia List Bool Arith.
From Verif Require Import Num Vec Trig Orientation OrientationFacts Projection ProjectionFacts Ray RayFacts CameraTransform CameraFacts.
From Verif Require Import PropRay PropCamera PropStereo LogProb FitTerms PropFitTerms FitPlot.
Import ListNotations.
Open Scope R_scope.

(** ** Specification *)
(** The pixel [Q] of the camera shows the point [P]: the point can be shown and lies on the ray of the pixel. *)
Definition shows (k : pkind) (r : proj R) (o : opar R) (P : v3 R) (Q : v2 R) : Prop :=
  showable k (cam_coords o P) /\ in_range k r Q /\ posmul (cam_coords o P) (rayR k r Q).

(** ** Facts *)
Lemma shown_dir c k r o p P Q hide : plain_cam c k r o -> rep3 p P -> showable k (cam_coords o P) ->
  rep2 (imageFromSpace c p hide) Q -> posmul (cam_coords o P) (rayR k r Q).
Proof.
  intros HC Hp HS HQ. destruct (plain_good _ _ _ _ HC) as (HG&HK&HDi&_).
  destruct (ifs_spec c r (camM o) (opos o) p P hide HG Hp) as (x&Q'&Ex&Rx&_&_&(l&Hl&E)); [rewrite HK; exact HS|].
  rewrite Ex, HDi in HQ. rewrite <- (rep2_inj _ _ _ HQ Rx) in E. exists l. split; [exact Hl|].
  unfold cam_coords. rewrite E. rewrite rm_mul_v_scale. f_equal. rewrite <- HK. apply (dirW_back c r (camM o) (opos o) Q (cam_o c)). apply HG.
Qed.
Lemma same_ray o P P' D : posmul (cam_coords o P) D -> posmul (cam_coords o P') D ->
  exists m, 0 < m /\ rv_sub P' (opos o) = rv_scale m (rv_sub P (opos o)).
Proof.
  intros (a&Ha&EA) (b&Hb&EB). exists (b / a). split; [apply Rmult_lt_0_compat; [lra|apply Rinv_0_lt_compat; lra]|].
  assert (E : cam_coords o P' = rv_scale (b / a) (cam_coords o P)) by (rewrite EA, EB; apply v3_ext; simpl; field; lra).
  unfold cam_coords in E. rewrite <- rm_mul_v_scale in E. apply (f_equal (rm_mul_v (rm_trans (camM o)))) in E.
  rewrite !trans_mul in E by (unfold camM; apply rotm_cols). exact E.
Qed.
Lemma drawn_point c k r o p P hide zn : plain_cam c k r o -> rep3 p P -> showable k (cam_coords o P) -> rep zn (cz P) -> cz P <> elevation_m o ->
  exists p', spaceFromImage c (imageFromSpace c p hide) (on_Z zn) = Some p' /\ rep3 p' P.
Proof. intros HC Hp HS Hz Nz. apply (C12_recover_point c k r o p P AZ zn hide HC Hp HS Hz Nz). Qed.

(** ** Heights *)
(** The predicted head belongs to an object of the given height: measured with the camera it has exactly that height. *)
Theorem C64_head : forall c k r o x y h feet height, plain_cam c k r o -> rep3 feet (V3 x y 0) -> rep height h ->
  showable k (cam_coords o (V3 x y 0)) -> showable k (cam_coords o (V3 x y h)) ->
  x <> pos_x_m o -> y <> pos_y_m o -> 0 <> elevation_m o ->
  exists p v, predicted_head c (imageFromSpace c feet true) height = Some p /\
    getObjectHeight c (imageFromSpace c feet true) p (Fin 0) = Some v /\ rep v h.
Proof.
  intros c k r o x y h feet height HC Hf Hh S1 S2 Nx Ny Nz.
  destruct (drawn_point c k r o feet _ true (Fin 0) HC Hf S1 (rep_Fin 0) Nz) as (f&Ef&(R1&R2&R3)).
  unfold predicted_head. rewrite Ef. destruct f as [fx fy fz]. cbn [cx cy cz] in R1, R2, R3.
  assert (RH : rep3 (V3 fx fy (fz + height)%num) (V3 x y (0 + h))) by (split; [exact R1|split; [exact R2|apply rep_add; auto]]).
  assert (S2' : showable k (cam_coords o (V3 x y (0 + h)))) by (rewrite Rplus_0_l; exact S2).
  destruct (C15_object_height c k r o x y 0 h feet _ (Fin 0) true HC Hf RH (rep_Fin 0) S1 S2' Nx Ny Nz) as (v&Ev&Rv).
  eexists. exists v. split; [reflexivity|]. split; [exact Ev|exact Rv].
Qed.
(** The predicted head is drawn on the observed head exactly if the object has the given height. *)
Theorem C64_head_hits : forall c k r o x y h h' Q feet height, plain_cam c k r o -> rep3 feet (V3 x y 0) -> rep height h ->
  showable k (cam_coords o (V3 x y 0)) -> showable k (cam_coords o (V3 x y h)) -> shows k r o (V3 x y h') Q ->
  (x <> pos_x_m o \/ y <> pos_y_m o) -> 0 <> elevation_m o ->
  exists p, predicted_head c (imageFromSpace c feet true) height = Some p /\ (rep2 p Q <-> h = h').
Proof.
  intros c k r o x y h h' Q feet height HC Hf Hh S1 S2 (S3&HI&HM) Nxy Nz.
  destruct (drawn_point c k r o feet _ true (Fin 0) HC Hf S1 (rep_Fin 0) Nz) as (f&Ef&(R1&R2&R3)).
  unfold predicted_head. rewrite Ef. destruct f as [fx fy fz]. cbn [cx cy cz] in R1, R2, R3.
  assert (RH : rep3 (V3 fx fy (fz + height)%num) (V3 x y h)).
  { split; [exact R1|split; [exact R2|]]. apply (rep_eq _ (0 + h)); [apply rep_add; auto|apply Rplus_0_l]. }
  eexists. split; [reflexivity|]. split.
  - intros HQ. destruct (same_ray o _ _ _ (shown_dir c k r o _ _ Q true HC RH S2 HQ) HM) as (m&_&E).
    apply (f_equal cx) in E as EX. apply (f_equal cy) in E as EY. apply (f_equal cz) in E as EZ. cbn in EX, EY, EZ.
    assert (m = 1); [|subst m; lra]. destruct Nxy as [N|N].
    + apply (Rmult_eq_reg_r (x - pos_x_m o)); lra.
    + apply (Rmult_eq_reg_r (y - pos_y_m o)); lra.
  - intros <-. apply (image_dir c k r o _ _ Q true HC RH S2 HI HM).
Qed.

(** ** Lengths *)
(** [along P1 P2 l]: the point at distance [l] from [P1] towards [P2] *)
Definition along (P1 P2 : v3 R) (l : R) : v3 R := line_at P1 (rv_sub P2 P1) (l / rdist P1 P2).
Lemma rdist_pos P1 P2 : P1 <> P2 -> 0 < rdist P1 P2.
Proof.
  intros N. unfold rdist. apply rnorm_pos. intros Z. apply N. apply v3_ext.
  - apply (f_equal cx) in Z. cbn in Z. lra.
  - apply (f_equal cy) in Z. cbn in Z. lra.
  - apply (f_equal cz) in Z. cbn in Z. lra.
Qed.
Lemma rdist_sym P1 P2 : rdist P1 P2 = rdist P2 P1.
Proof. unfold rdist, rnorm. f_equal. unfold rdot. simpl. ring. Qed.
Lemma rdist_along P1 P2 l : P1 <> P2 -> 0 <= l -> rdist P1 (along P1 P2 l) = l.
Proof.
  intros N L. pose proof (rdist_pos P1 P2 N) as D. unfold along, line_at.
  transitivity (rnorm (rv_scale (- (l / rdist P1 P2)) (rv_sub P2 P1))); [unfold rdist at 1; f_equal; apply v3_ext; simpl; ring|].
  rewrite rnorm_scale, Rabs_Ropp, Rabs_pos_eq by (apply Rmult_le_pos; [lra|apply Rlt_le, Rinv_0_lt_compat; lra]).
  fold (rdist P2 P1). rewrite (rdist_sym P2 P1). field. lra.
Qed.
Lemma back_rep c k r o P1 P2 l p1 p2 z zn length : plain_cam c k r o -> rep3 p1 P1 -> rep3 p2 P2 -> rep zn z -> rep length l ->
  cz P1 = z -> cz P2 = z -> P1 <> P2 -> showable k (cam_coords o P1) -> showable k (cam_coords o P2) -> z <> elevation_m o ->
  exists b, predicted_back c (imageFromSpace c p1 true) (imageFromSpace c p2 true) zn length = Some (imageFromSpace c b true) /\ rep3 b (along P1 P2 l).
Proof.
  intros HC H1 H2 Hz Hl Z1 Z2 N S1 S2 Nz. pose proof (rdist_pos P1 P2 N) as D.
  destruct (drawn_point c k r o p1 P1 true zn HC H1 S1) as (a&Ea&Ra); [rewrite Z1; auto..|].
  destruct (drawn_point c k r o p2 P2 true zn HC H2 S2) as (b&Eb&Rb); [rewrite Z2; auto..|].
  unfold predicted_back. rewrite Ea, Eb. eexists. split; [reflexivity|].
  assert (RD := rep3_sub _ _ _ _ Rb Ra). assert (RN := rep_norm _ _ RD).
  change (rnorm (rv_sub P2 P1)) with (rdist P2 P1) in RN. rewrite rdist_sym in RN.
  apply (rep3_eq _ (rv_add P1 (V3 (cx (rv_sub P2 P1) / rdist P1 P2 * l) (cy (rv_sub P2 P1) / rdist P1 P2 * l) (cz (rv_sub P2 P1) / rdist P1 P2 * l)))); [apply rep3_add; [exact Ra|]|].
  - destruct RD as (D1&D2&D3). split; [|split]; cbn [map3v cx cy cz]; (apply rep_mul; [apply rep_div; [eassumption|exact RN|lra]|exact Hl]).
  - unfold along, line_at. apply v3_ext; simpl; field; lra.
Qed.
(** The predicted back belongs to an object of the given length: measured with the camera it has exactly that length. *)
Theorem C64_back : forall c k r o P1 P2 l p1 p2 z zn length, plain_cam c k r o -> rep3 p1 P1 -> rep3 p2 P2 -> rep zn z -> rep length l -> 0 <= l ->
  cz P1 = z -> cz P2 = z -> P1 <> P2 -> showable k (cam_coords o P1) -> showable k (cam_coords o P2) -> showable k (cam_coords o (along P1 P2 l)) ->
  z <> elevation_m o ->
  exists p v, predicted_back c (imageFromSpace c p1 true) (imageFromSpace c p2 true) zn length = Some p /\
    getObjectLength c (imageFromSpace c p1 true) p zn = Some v /\ rep v l.
Proof.
  intros c k r o P1 P2 l p1 p2 z zn length HC H1 H2 Hz Hl L Z1 Z2 N S1 S2 S3 Nz.
  destruct (back_rep c k r o P1 P2 l p1 p2 z zn length) as (b&Eb&Rb); auto.
  assert (Z3 : cz (along P1 P2 l) = z) by (unfold along, line_at; cbn; rewrite Z1, Z2; ring).
  destruct (C16_object_length c k r o P1 (along P1 P2 l) p1 b z zn true HC H1 Rb Hz Z1 Z3 S1 S3 Nz) as (v&w&Ev&Rv&_).
  eexists. exists v. split; [exact Eb|]. split; [exact Ev|]. rewrite rdist_along in Rv; auto.
Qed.
(** The predicted back is drawn on the observed back exactly if the object has the given length. *)
Theorem C64_back_hits : forall c k r o P1 P2 l p1 p2 z zn length Q, plain_cam c k r o -> rep3 p1 P1 -> rep3 p2 P2 -> rep zn z -> rep length l ->
  cz P1 = z -> cz P2 = z -> P1 <> P2 -> showable k (cam_coords o P1) -> shows k r o P2 Q -> showable k (cam_coords o (along P1 P2 l)) ->
  z <> elevation_m o ->
  exists p, predicted_back c (imageFromSpace c p1 true) (imageFromSpace c p2 true) zn length = Some p /\ (rep2 p Q <-> l = rdist P1 P2).
Proof.
  intros c k r o P1 P2 l p1 p2 z zn length Q HC H1 H2 Hz Hl Z1 Z2 N S1 (S2&HI&HM) S3 Nz.
  destruct (back_rep c k r o P1 P2 l p1 p2 z zn length) as (b&Eb&Rb); auto.
  eexists. split; [exact Eb|]. pose proof (rdist_pos P1 P2 N) as D. split.
  - intros HQ. destruct (same_ray o _ _ _ (shown_dir c k r o _ _ Q true HC Rb S3 HQ) HM) as (m&_&E).
    assert (m = 1).
    { apply (f_equal cz) in E. cbn in E. rewrite Z1, Z2 in E. apply (Rmult_eq_reg_r (z - elevation_m o)); [|lra].
      replace (z - z) with 0 in E by ring. rewrite Rmult_0_r, Rplus_0_r in E. lra. }
    subst m. assert (EP : P2 = along P1 P2 l).
    { apply v3_ext; [apply (f_equal cx) in E|apply (f_equal cy) in E|apply (f_equal cz) in E]; cbn [cx cy cz rv_sub rv_scale map3v zip3v] in E; lra. }
    apply (f_equal (fun P => rdot (rv_sub P P1) (rv_sub P2 P1))) in EP. unfold along, line_at in EP.
    assert (EQ : rdot (rv_sub P2 P1) (rv_sub P2 P1) = l / rdist P1 P2 * rdot (rv_sub P2 P1) (rv_sub P2 P1)).
    { rewrite EP at 1. unfold rdot. simpl. ring. }
    assert (NN : rdot (rv_sub P2 P1) (rv_sub P2 P1) <> 0).
    { intros Z. rewrite rdist_sym in D. unfold rdist, rnorm in D. rewrite Z, sqrt_0 in D. lra. }
    assert (l / rdist P1 P2 = 1) by (apply (Rmult_eq_reg_r (rdot (rv_sub P2 P1) (rv_sub P2 P1))); [lra|exact NN]).
    apply (Rmult_eq_reg_r (/ rdist P1 P2)); [|apply Rinv_neq_0_compat; lra]. rewrite Rinv_r by lra. assumption.
  - intros ->. apply (image_dir c k r o _ P2 Q true HC); auto. eapply rep3_eq; [exact Rb|].
    unfold along, line_at. apply v3_ext; simpl; field; lra.
Qed.
Definition nanp : v3 num := V3 NaN NaN NaN.
Lemma nan_pixel c r o hide : plain_cam c Rectilinear r o -> imageFromSpace c nanp hide = nan2.
Proof.
  intros HC. destruct (plain_good _ _ _ _ HC) as (_&HK&HDi&_). unfold imageFromSpace. rewrite HDi, HK.
  assert (E : cameraFromSpace (cam_o c) nanp = nanp).
  { unfold cameraFromSpace, nanp, nm_mul_v, nv_dot, nv_sub, zip3v. cbn [cx cy cz]. rewrite ?nsub_NaN_l, ?nmul_NaN_r, ?nadd_NaN_l. reflexivity. }
  rewrite E. destruct hide; reflexivity.
Qed.
Lemma nan_back a length : (exists P, rep3 a P) ->
  nv_add a (map3v (fun x => (x * length)%num) (map3v (fun x => (x / nv_norm (nv_sub a a))%num) (nv_sub a a))) = nanp.
Proof.
  intros (P&RP). assert (RS := rep3_sub _ _ _ _ RP RP). assert (RN := rep_norm _ _ RS).
  assert (RN0 : rep (nv_norm (nv_sub a a)) 0).
  { eapply rep_eq; [exact RN|]. replace (rv_sub P P) with rv0 by (apply v3_ext; simpl; ring). apply rnorm_rv0. }
  destruct RS as (S1&S2&S3).
  assert (Z : forall x v, rep x v -> v = 0 -> (x / nv_norm (nv_sub a a))%num = NaN) by (intros x v H ->; apply ndiv_0_0; auto).
  unfold nv_add, zip3v, map3v. rewrite (Z _ _ S1), (Z _ _ S2), (Z _ _ S3) by (cbn; ring).
  cbn [cx cy cz]. rewrite !nmul_NaN_l, !nadd_NaN_r. reflexivity.
Qed.
(** An object with front and back on the same spot has no direction: the prediction is not a pixel. *)
Theorem C64_back_refuted : exists c k r o P p length l, plain_cam c k r o /\ rep3 p P /\ cz P = 0 /\ showable k (cam_coords o P) /\ rep length l /\ 0 < l /\
  exists q, predicted_back c (imageFromSpace c p true) (imageFromSpace c p true) (Fin 0) length = Some q /\ ~ (exists Q, rep2 q Q).
Proof.
  destruct (ex_cam2 Rectilinear) as (c&HC). exists c, Rectilinear, ex_r, ex_or2, (V3 1 50 0), (fin3 (V3 1 50 0)), (Fin 2), 2.
  split; [exact HC|]. split; [apply rep3_fin|]. split; [reflexivity|]. split; [apply ex2_showable; lra|]. split; [reflexivity|]. split; [lra|].
  destruct (drawn_point c _ _ _ (fin3 (V3 1 50 0)) _ true (Fin 0) HC (rep3_fin _) (ex2_showable _ 1 50 0 ltac:(lra)) (rep_Fin 0) ltac:(cbn; lra)) as (a&Ea&Ra).
  unfold predicted_back. rewrite Ea. eexists. split; [reflexivity|]. rewrite nan_back by (exists (V3 1 50 0); exact Ra).
  intros (Q&R1&_). rewrite (nan_pixel _ _ _ _ HC) in R1. discriminate R1.
Qed.

(** ** Landmarks *)
(** The landmark is drawn on the observed pixel exactly if its part of the fit has the largest possible value. *)
Theorem C64_landmark : forall c k r o m L Q s pos offset off, plain_cam c k r o -> rep3 pos (opos o) -> rep offset off ->
  rep3 (lm_space m) L -> showable k (cam_coords o L) -> rep2 (lm_image m) Q -> in_range k r Q -> equal_unc m s ->
  exists v, rep (landmark_1 c pos offset m) v /\ v <= best s off /\ (rep2 (predicted_landmark c (lm_space m)) Q <-> v = best s off).
Proof.
  intros c k r o m L Q s pos offset off HC HP Hoff HL SH HQ HI (HS&Ps).
  pose proof (plain_good _ _ _ _ HC) as (HG&HK&_&HU).
  assert (NZ : dirW c r (camM o) Q <> rv0) by (eapply dirW_nonzero; apply HG). pose proof (rnorm_pos _ NZ) as NP.
  set (V := rv_scale (/ rnorm (dirW c r (camM o) Q)) (dirW c r (camM o) Q)).
  assert (IP : 0 < / rnorm (dirW c r (camM o) Q)) by (apply Rinv_0_lt_compat; auto).
  assert (VN : rnorm V = 1) by (unfold V; rewrite rnorm_scale, Rabs_right by lra; field; lra).
  assert (RO : rep3 (fst (getRay c (lm_image m) true)) (opos o)) by (cbn [getRay fst]; eapply origin_rep; eauto).
  assert (RV : rep3 (snd (getRay c (lm_image m) true)) V).
  { apply (direction_rep c r (camM o) (opos o) _ Q true HG); [rewrite HU; auto|rewrite HK; apply in_range_has_ray; auto]. }
  assert (VNZ : V <> rv0) by (intros E; rewrite E, rnorm_rv0 in VN; lra).
  destruct (C58_landmark_best c pos offset m (opos o) V L s off) as (v&Rv&Lv&B); auto.
  exists v. split; [exact Rv|]. split; [exact Lv|]. rewrite B. clear B.
  assert (MB : rm_mul_v (camM o) V = rv_scale (/ rnorm (dirW c r (camM o) Q)) (rayR k r Q)).
  { unfold V. rewrite rm_mul_v_scale. f_equal. rewrite <- HK. apply (dirW_back c r (camM o) (opos o) Q (cam_o c)). apply HG. }
  unfold predicted_landmark. split.
  - intros H. pose proof (shown_dir c k r o _ _ Q true HC HL SH H) as (l&Hl&E).
    exists (l * rnorm (dirW c r (camM o) Q)). split; [apply Rmult_le_pos; lra|].
    assert (E' : cam_coords o L = rm_mul_v (camM o) (rv_scale (l * rnorm (dirW c r (camM o) Q)) V)).
    { rewrite rm_mul_v_scale, MB, E. apply v3_ext; simpl; field; lra. }
    unfold cam_coords in E'. apply (f_equal (rm_mul_v (rm_trans (camM o)))) in E'. rewrite !trans_mul in E' by (unfold camM; apply rotm_cols).
    unfold line_at. rewrite <- E'. apply v3_ext; cbn; ring.
  - intros (l&Hl&E). assert (EC : cam_coords o L = rv_scale (l * / rnorm (dirW c r (camM o) Q)) (rayR k r Q)).
    { unfold cam_coords. replace (rv_sub L (opos o)) with (rv_scale l V) by (rewrite E; unfold line_at; apply v3_ext; simpl; ring).
      rewrite rm_mul_v_scale, MB. apply v3_ext; simpl; ring. }
    apply (image_dir c k r o _ L Q true HC HL SH HI). exists (l * / rnorm (dirW c r (camM o) Q)). split; [|exact EC].
    destruct (Req_dec l 0) as [Z | Z]; [|apply Rmult_lt_0_compat; lra].
    exfalso. destruct SH as (T&_). rewrite EC, Z, Rmult_0_l in T. cbn in T. rewrite Rmult_0_l, Rabs_R0 in T. pose proof tinyR_pos. lra.
Qed.

(** ** Lines *)
Definition drawable (p : v2 num * v2 num) : bool :=
  negb (nisnan (c1 (fst p)) || nisnan (c2 (fst p)) || nisnan (c1 (snd p)) || nisnan (c2 (snd p))).
Lemma map_threes {A} (f : nat -> A) n : map f (seq 0 (3 * n)) = flat_map (fun i => [f (3 * i)%nat; f (3 * i + 1)%nat; f (3 * i + 2)%nat]) (seq 0 n).
Proof.
  induction n as [|n IH]; [reflexivity|]. replace (3 * S n)%nat with (3 * n + 3)%nat by lia.
  rewrite seq_app, map_app, IH, (seq_S n 0), flat_map_app. f_equal. cbn [Nat.add seq map flat_map app].
  repeat f_equal; lia.
Qed.
Lemma segments_nan l : segments (nan2 :: l) = segments l.
Proof. destruct l; reflexivity. Qed.
Lemma segments_threes a b : segments (flat_map (fun p => [fst p; snd p; nan2]) (combine a b)) = filter drawable (combine a b).
Proof.
  induction (combine a b) as [|(p,q) l IH]; [reflexivity|]. cbn [flat_map fst snd app filter].
  assert (E : segments (q :: nan2 :: flat_map (fun p => [fst p; snd p; nan2]) l) = filter drawable l).
  { cbn [segments]. change (nisnan (c1 nan2)) with true. rewrite !orb_true_r. cbn [orb]. rewrite <- IH. apply segments_nan. }
  cbn [segments]. cbn [segments] in E. rewrite E. change (drawable (p, q)) with (negb (nisnan (c1 p) || nisnan (c2 p) || nisnan (c1 q) || nisnan (c2 q))).
  destruct (nisnan (c1 p) || nisnan (c2 p) || nisnan (c1 q) || nisnan (c2 q)); reflexivity.
Qed.
Lemma flat_map_combine {A B} (f : nat -> list B) (g : A * A -> list B) d1 d2 (a b : list A) :
  List.length b = List.length a -> (forall i, (i < List.length a)%nat -> f i = g (nth i a d1, nth i b d2)) ->
  flat_map f (seq 0 (List.length a)) = flat_map g (combine a b).
Proof.
  revert b f. induction a as [|x a IH]; intros [|y b] f L H; try discriminate; [reflexivity|].
  cbn [List.length seq flat_map combine]. f_equal; [apply (H 0%nat); cbn; lia|].
  rewrite <- seq_shift, flat_map_concat_map, map_map, <- flat_map_concat_map.
  apply IH; [cbn in L; lia|]. intros i Hi. apply (H (S i)). cbn; lia.
Qed.
(** For a table of points and for one point the lines join every observation with its prediction and nothing else (a
    pair with nan is not drawn). *)
Theorem C64_lines : forall ndim a b, List.length b = List.length a -> ndim = 2%nat \/ (ndim = 1%nat /\ List.length a = 1%nat) ->
  segments (joined ndim (List.length a) a b) = filter drawable (combine a b).
Proof.
  intros ndim a b L [->|(->&L1)].
  - unfold joined. cbn [Nat.eqb]. rewrite map_threes, <- segments_threes. f_equal.
    apply (flat_map_combine _ _ nan2 nan2); [exact L|]. intros i _. cbn [fst snd]. unfold joined_table.
    replace (3 * i)%nat with (i * 3)%nat by lia.
    rewrite Nat.mod_mul, Nat.div_mul by lia. rewrite (Nat.add_comm (i * 3) 1), (Nat.add_comm (i * 3) 2).
    rewrite !Nat.mod_add, !Nat.div_add by lia. reflexivity.
  - destruct a as [|x [|? ?]]; try discriminate. destruct b as [|y [|? ?]]; try discriminate.
    rewrite <- segments_threes. reflexivity.
Qed.
(** For a grid of points the lines join observations with each other. *)
Theorem C64_lines_refuted : exists a b p q, List.length b = List.length a /\ In p a /\ In q a /\ p <> q /\
  (forall x y, In x a -> In y b -> x <> y) /\
  In (p, q) (segments (joined 3 (List.length a) a b)) /\ ~ In (nth 0 a nan2, nth 0 b nan2) (segments (joined 3 (List.length a) a b)).
Proof.
  exists [V2 (Fin 1) (Fin 1); V2 (Fin 2) (Fin 2)], [V2 (Fin 3) (Fin 3); V2 (Fin 4) (Fin 4)], (V2 (Fin 1) (Fin 1)), (V2 (Fin 2) (Fin 2)).
  assert (NE : forall x y : R, x <> y -> V2 (Fin x) (Fin x) <> V2 (Fin y) (Fin y)) by (intros x y N E; injection E; auto).
  splits; try reflexivity; cbn [In]; auto; [apply NE; lra| | |].
  - intros x y [<- | [<- | []]] [<- | [<- | []]]; apply NE; lra.
  - cbn. auto.
  - cbn. intros [E|[E|[E|[]]]]; injection E; intros; lra.
Qed.

(** Camera at height 10 looking horizontally, an object of height 2 at (1, 50): seen at the pixels of its head and feet. *)
Definition ex_Q (x y z : R) : v2 R := V2 (2000 + 3500 * (x / y)) (1500 + 3500 * ((10 - z) / y)).
Lemma ex2_shows x y z : 1 <= y -> shows Rectilinear ex_r ex_or2 (V3 x y z) (ex_Q x y z).
Proof.
  intros H. split; [apply ex2_showable; auto|]. split; [exact I|]. rewrite ex2_coords. exists y. split; [lra|].
  unfold rayR, ex_Q, alphaR, betaR, ex_r. apply v3_ext; cbn; field; lra.
Qed.
Example C64_head_example : exists c p q v, plain_cam c Rectilinear ex_r ex_or2 /\
  predicted_head c (imageFromSpace c (fin3 (V3 1 50 0)) true) (Fin 2) = Some p /\ rep2 p (ex_Q 1 50 2) /\
  getObjectHeight c (imageFromSpace c (fin3 (V3 1 50 0)) true) p (Fin 0) = Some v /\ rep v 2 /\
  predicted_head c (imageFromSpace c (fin3 (V3 1 50 0)) true) (Fin 3) = Some q /\ ~ rep2 q (ex_Q 1 50 2).
Proof.
  destruct (ex_cam2 Rectilinear) as (c&HC).
  destruct (C64_head c _ _ _ 1 50 2 (fin3 (V3 1 50 0)) (Fin 2) HC) as (p&v&Ep&Ev&Rv); try (apply ex2_showable; lra); try apply rep3_fin; try reflexivity; cbn; try lra.
  destruct (C64_head_hits c _ _ _ 1 50 2 2 (ex_Q 1 50 2) (fin3 (V3 1 50 0)) (Fin 2) HC) as (p'&Ep'&H1); try (apply ex2_showable; lra); try (apply ex2_shows; lra); try apply rep3_fin; try reflexivity; cbn; try lra.
  destruct (C64_head_hits c _ _ _ 1 50 3 2 (ex_Q 1 50 2) (fin3 (V3 1 50 0)) (Fin 3) HC) as (q&Eq&H2); try (apply ex2_showable; lra); try (apply ex2_shows; lra); try apply rep3_fin; try reflexivity; cbn; try lra.
  exists c, p, q, v. rewrite Ep in Ep'. injection Ep' as <-. split; [exact HC|]. split; [exact Ep|]. split; [apply H1; reflexivity|].
  split; [exact Ev|]. split; [exact Rv|]. split; [exact Eq|]. intros H. apply H2 in H. lra.
Qed.
Lemma ex_dist : rdist (V3 1 50 0) (V3 4 54 0) = 5.
Proof. unfold rdist, rnorm, rdot. cbn [rv_sub zip3v cx cy cz]. replace (_ + _) with (5 * 5) by ring. apply sqrt_square. lra. Qed.
Example C64_back_example : exists c p q v, plain_cam c Rectilinear ex_r ex_or2 /\
  predicted_back c (imageFromSpace c (fin3 (V3 1 50 0)) true) (imageFromSpace c (fin3 (V3 4 54 0)) true) (Fin 0) (Fin 5) = Some p /\ rep2 p (ex_Q 4 54 0) /\
  predicted_back c (imageFromSpace c (fin3 (V3 1 50 0)) true) (imageFromSpace c (fin3 (V3 4 54 0)) true) (Fin 0) (Fin 10) = Some q /\ ~ rep2 q (ex_Q 4 54 0) /\
  getObjectLength c (imageFromSpace c (fin3 (V3 1 50 0)) true) q (Fin 0) = Some v /\ rep v 10.
Proof.
  destruct (ex_cam2 Rectilinear) as (c&HC).
  assert (N : V3 1 50 0 <> V3 4 54 0) by (intros E; injection E; intros; lra).
  assert (S5 : forall l, 0 <= l -> showable Rectilinear (cam_coords ex_or2 (along (V3 1 50 0) (V3 4 54 0) l))).
  { intros l L. unfold along, line_at. rewrite ex_dist. cbn [rv_add rv_scale rv_sub zip3v map3v cx cy cz]. apply ex2_showable. cbn. lra. }
  destruct (C64_back_hits c _ _ _ (V3 1 50 0) (V3 4 54 0) 5 (fin3 (V3 1 50 0)) (fin3 (V3 4 54 0)) 0 (Fin 0) (Fin 5) (ex_Q 4 54 0) HC) as (p&Ep&H1);
    try (apply ex2_showable; lra); try (apply ex2_shows; lra); try apply rep3_fin; try reflexivity; try (apply S5; lra); auto; try (cbn; lra).
  destruct (C64_back_hits c _ _ _ (V3 1 50 0) (V3 4 54 0) 10 (fin3 (V3 1 50 0)) (fin3 (V3 4 54 0)) 0 (Fin 0) (Fin 10) (ex_Q 4 54 0) HC) as (q&Eq&H2);
    try (apply ex2_showable; lra); try (apply ex2_shows; lra); try apply rep3_fin; try reflexivity; try (apply S5; lra); auto; try (cbn; lra).
  destruct (C64_back c _ _ _ (V3 1 50 0) (V3 4 54 0) 10 (fin3 (V3 1 50 0)) (fin3 (V3 4 54 0)) 0 (Fin 0) (Fin 10) HC) as (q'&v&Eq'&Ev&Rv);
    try (apply ex2_showable; lra); try apply rep3_fin; try reflexivity; try (apply S5; lra); try lra; auto; try (cbn; lra).
  exists c, p, q, v. rewrite ex_dist in H1, H2. rewrite Eq in Eq'. injection Eq' as <-.
  split; [exact HC|]. split; [exact Ep|]. split; [apply H1; reflexivity|]. split; [exact Eq|]. split; [intros H; apply H2 in H; lra|]. auto.
Qed.
Example C64_landmark_example : exists c m v s off, plain_cam c Rectilinear ex_r ex_or2 /\ lm_space m = fin3 (V3 1 50 0) /\
  rep (landmark_1 c (fin3 (V3 0 0 10)) (Fin 1) m) v /\ v = best s off /\ rep2 (predicted_landmark c (lm_space m)) (ex_Q 1 50 0).
Proof.
  destruct (ex_cam2 Rectilinear) as (c&HC).
  set (m := Landmark (fin2 (ex_Q 1 50 0)) (fin3 (V3 1 50 0)) (fin3 (V3 1 1 1))).
  destruct (ex2_shows 1 50 0 ltac:(lra)) as (SH&HI&HM).
  destruct (C64_landmark c _ _ _ m (V3 1 50 0) (ex_Q 1 50 0) 1 (fin3 (V3 0 0 10)) (Fin 1) 1 HC) as (v&Rv&_&H); auto;
    try apply rep3_fin; try (split; reflexivity); try reflexivity.
  - split; [apply rep3_fin|lra].
  - exists c, m, v, 1, 1. assert (D : rep2 (predicted_landmark c (lm_space m)) (ex_Q 1 50 0)) by (apply (image_dir c _ _ _ _ (V3 1 50 0) _ true HC); auto; apply rep3_fin).
    split; [exact HC|]. split; [reflexivity|]. split; [exact Rv|]. split; [apply H, D|exact D].
Qed.
Example C64_lines_example : segments (joined 2 2 [V2 (Fin 1) (Fin 1); V2 (Fin 2) (Fin 2)] [V2 (Fin 3) (Fin 3); V2 (Fin 4) (Fin 4)]) =
  [(V2 (Fin 1) (Fin 1), V2 (Fin 3) (Fin 3)); (V2 (Fin 2) (Fin 2), V2 (Fin 4) (Fin 4))].
Proof. apply (C64_lines 2 [V2 (Fin 1) (Fin 1); V2 (Fin 2) (Fin 2)]); auto. Qed.

Print Assumptions C64_head.
Print Assumptions C64_head_hits.
Print Assumptions C64_back.
Print Assumptions C64_back_hits.
Print Assumptions C64_back_refuted.
Print Assumptions C64_landmark.
Print Assumptions C64_lines.
Print Assumptions C64_lines_refuted.
