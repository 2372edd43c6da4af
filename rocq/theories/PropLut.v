(** * Property C50: the table of pixel areas *)
Require Import Reals Lra Psatz List Bool Arith Lia.
From Verif Require Import Num Vec Orientation OrientationFacts Projection ProjectionFacts Ray CameraTransform CameraFacts PropCamera PropRay Border PropBorder Lut.
Import ListNotations.
Open Scope R_scope.

(** ** Specification *)
(** The line of sight of the pixel position [Q] meets the ground z = 0 at the point [P]; with 0 < f it does so in
    front of the camera, with f < 0 only its extension behind the camera does. *)
Definition meets (o : opar R) k r (Q : v2 R) (f : R) (P : v3 R) : Prop := cz P = 0 /\ cam_coords o P = rv_scale f (rayR k r Q).
(** corners of the pixel whose centre is (x, y), in order around it *)
Definition corners (x y : R) : list (v2 R) := [V2 (x - / 2) (y - / 2); V2 (x + / 2) (y - / 2); V2 (x + / 2) (y + / 2); V2 (x - / 2) (y + / 2)].
Definition ground (P : v3 R) : v2 R := V2 (cx P) (cy P).
(** [v] is the entry for the pixel (x, y): the area on the ground, or the given value if a corner does not see
    the ground.  If the line of sight of a corner is level, it is the given value or infinite, but no number. *)
Definition entry (o : opar R) k r (x y : R) (undef v : num) : Prop :=
  (forall P1 P2 P3 P4, Forall2 (fun Q P => exists f, 0 <= f /\ meets o k r Q f P) (corners x y) [P1; P2; P3; P4] ->
     rep v (Rabs (shoelace (ground P1) (ground P2) (ground P3) (ground P4)))) /\
  (forall Q f P, In Q (corners x y) -> meets o k r Q f P -> f < 0 -> v = undef) /\
  (forall Q, In Q (corners x y) -> (forall f P, ~ meets o k r Q f P) -> v = undef \/ v = PInf).
(** the line of sight of [Q] is level *)
Definition level (o : opar R) k r (Q : v2 R) : Prop := exists P, cz P = elevation_m o /\ cam_coords o P = rayR k r Q.
(** the entry of a camera on the ground *)
Definition ground_entry (o : opar R) k r (x y : R) (undef v : num) : Prop :=
  ((forall Q, In Q (corners x y) -> ~ level o k r Q) -> rep v 0) /\ (forall Q, In Q (corners x y) -> level o k r Q -> v = undef).

(** ** Facts *)
Lemma meets_space c k r o q Q f P : plain_cam c k r o -> rep2 q Q -> has_ray k r Q -> elevation_m o <> 0 -> meets o k r Q f P ->
  exists p, spaceFromImage c q (on_Z (Fin 0)) = Some p /\ (f < 0 -> p = nan3) /\ (0 <= f -> rep3 p P).
Proof.
  intros HC Hq Hh HE (HZ&HM). destruct (plain_good _ _ _ _ HC) as (HG&HK&HDi&HU).
  assert (Hq' : rep2 (cam_undist c q) Q) by (rewrite HU; auto). rewrite <- HK in Hh, HM.
  assert (EP : P = rv_add (opos o) (rv_scale f (dirW c r (camM o) Q))).
  { unfold cam_coords in HM. rewrite <- (dirW_back c r (camM o) (opos o) Q (cam_o c)) in HM by apply HG.
    rewrite <- rm_mul_v_scale in HM. apply (f_equal (rm_mul_v (rm_trans (camM o)))) in HM.
    rewrite !trans_mul in HM by apply HG. revert HM. generalize (dirW c r (camM o) Q). intros d HM. destruct P as [px py pz], d as [dx dy dz].
    cbv [rv_sub rv_add rv_scale zip3v map3v opos cx cy cz] in HM |- *. injection HM as M1 M2 M3. f_equal; lra. }
  assert (EZ : f * cz (dirW c r (camM o) Q) = - elevation_m o).
  { rewrite EP in HZ. cbv [rv_add rv_scale zip3v map3v opos cz] in HZ. unfold cz. lra. }
  assert (NZ : cz (dirW c r (camM o) Q) <> 0) by (intros E; rewrite E in EZ; lra).
  destruct (sfi_axis c r (camM o) (opos o) q Q AZ (Fin 0) 0 HG Hq' Hh (rep_Fin 0) NZ) as (HN&HP).
  assert (EF : (0 - get_axis AZ (opos o)) / get_axis AZ (dirW c r (camM o) Q) = f).
  { cbn [get_axis opos cz]. apply (Rmult_eq_reg_r (cz (dirW c r (camM o) Q))); auto. rewrite EZ. unfold Rdiv. rewrite Rmult_assoc, Rinv_l by auto. lra. }
  rewrite EF in HN, HP. change (on_axis AZ (Fin 0)) with (on_Z (Fin 0)) in *.
  destruct (Rlt_le_dec f 0) as [B|B].
  - rewrite (HN B). exists nan3. splits; auto. intros; lra.
  - destruct (HP B) as (p&E&Rp). exists p. splits; auto; [intros; lra|]. intros _. rewrite EP. exact Rp.
Qed.

Lemma nan_area A B C D : (c1 A = NaN /\ c2 A = NaN) \/ (c1 B = NaN /\ c2 B = NaN) \/ (c1 C = NaN /\ c2 C = NaN) \/ (c1 D = NaN /\ c2 D = NaN) ->
  areaOfQuadrilateral A B C D = NaN.
Proof.
  unfold areaOfQuadrilateral. intros [(E1&E2)|[(E1&E2)|[(E1&E2)|(E1&E2)]]]; rewrite E1, E2;
    unfold nsub; rewrite ?nneg_NaN, ?nadd_NaN_l, ?nadd_NaN_r, ?nmul_NaN_l, ?nmul_NaN_r, ?nadd_NaN_l, ?nadd_NaN_r; cbn [nabs]; rewrite ?nmul_NaN_r; reflexivity.
Qed.
(** a level line of sight *)
Definition nf (x : num) : Prop := nisnan x = true \/ nisinf x = true.
Lemma nf_add_l x y : nf x -> nf (x + y)%num.
Proof. unfold nf. destruct x, y; cbn; auto; intros [H|H]; try discriminate; auto. Qed.
Lemma nf_add_r x y : nf y -> nf (x + y)%num.
Proof. unfold nf. destruct x, y; cbn; auto; intros [H|H]; try discriminate; auto. Qed.
Lemma nf_inf b : nf (inf b). Proof. right. destruct b; reflexivity. Qed.
Lemma nf_mul_r x y : nf y -> nf (x * y)%num.
Proof.
  intros H. unfold nmul. destruct y as [b| | | |]; try (destruct H; discriminate); cbn [look]; destruct (look x); try (left; reflexivity);
    try apply nf_inf; destruct (Reqb _ _); try (left; reflexivity); apply nf_inf.
Qed.
Lemma nf_neg x : nf x -> nf (nneg x).
Proof. unfold nf. destruct x; cbn; auto; intros [H|H]; try discriminate; auto. Qed.
Lemma nf_sub_l x y : nf x -> nf (x - y)%num. Proof. apply nf_add_l. Qed.
Lemma nf_sub_r x y : nf y -> nf (x - y)%num. Proof. intros H. apply nf_add_r, nf_neg, H. Qed.
Lemma half_inf : (Fin (1 / 2) * PInf)%num = PInf.
Proof. unfold nmul. cbn [look]. rewrite Reqb_false by lra. rewrite Rltb_false by lra. reflexivity. Qed.
Lemma nf_area A B C D : nf (c1 A) \/ nf (c1 B) \/ nf (c1 C) \/ nf (c1 D) ->
  areaOfQuadrilateral A B C D = NaN \/ areaOfQuadrilateral A B C D = PInf.
Proof.
  intros H. unfold areaOfQuadrilateral.
  assert (X : nf ((c2 A - c2 C) * (c1 D - c1 B) + (c2 B - c2 D) * (c1 A - c1 C))%num).
  { destruct H as [H|[H|[H|H]]].
    - apply nf_add_r, nf_mul_r, nf_sub_l, H.
    - apply nf_add_l, nf_mul_r, nf_sub_r, H.
    - apply nf_add_r, nf_mul_r, nf_sub_r, H.
    - apply nf_add_l, nf_mul_r, nf_sub_l, H. }
  destruct (_ + _)%num; destruct X as [X|X]; try discriminate; cbn [nabs]; auto; right; apply half_inf.
Qed.
Lemma level_space c k r o q Q : plain_cam c k r o -> rep2 q Q -> has_ray k r Q -> elevation_m o <> 0 -> (forall f P, ~ meets o k r Q f P) ->
  exists p, spaceFromImage c q (on_Z (Fin 0)) = Some p /\ nf (cx p).
Proof.
  intros HC Hq Hh HE NM. destruct (plain_good _ _ _ _ HC) as (HG&HK&HDi&HU).
  assert (Hq' : rep2 (cam_undist c q) Q) by (rewrite HU; auto).
  assert (Hh' : has_ray (cam_kind c) r Q) by (rewrite HK; auto).
  assert (LV : cz (dirW c r (camM o) Q) = 0).
  { destruct (Req_dec (cz (dirW c r (camM o) Q)) 0) as [E|N]; auto. exfalso.
    set (f := (0 - elevation_m o) / cz (dirW c r (camM o) Q)).
    apply (NM f (rv_add (opos o) (rv_scale f (dirW c r (camM o) Q)))). split.
    - cbv [rv_add rv_scale zip3v map3v opos cz]. unfold f. destruct (dirW c r (camM o) Q) as [dx dy dz]. cbn [cz] in *. field. auto.
    - unfold cam_coords. rewrite <- HK, <- (dirW_back c r (camM o) (opos o) Q (cam_o c)) by apply HG.
      rewrite <- rm_mul_v_scale. f_equal. destruct (dirW c r (camM o) Q) as [dx dy dz]. cbv [rv_sub rv_add rv_scale zip3v map3v opos cx cy cz]. f_equal; ring. }
  pose proof (origin_rep _ _ _ _ HG) as HO.
  pose proof (direction_rep _ _ _ _ _ _ false HG Hq' Hh') as HD. cbv iota in HD.
  change (on_Z (Fin 0)) with (on_axis AZ (Fin 0)). rewrite sfi_axis_unfold. cbv zeta. eexists; split; [reflexivity|].
  pose proof (get_axis_rep AZ _ _ HD) as Hd. cbn [get_axis] in Hd. rewrite LV in Hd.
  pose proof (ndiv_zero_nonfin _ _ _ (rep_sub _ _ _ _ (rep_Fin 0) (get_axis_rep AZ _ _ HO)) Hd) as NF.
  cbn [get_axis] in *. set (fac := ndiv _ _) in *.
  destruct (nltb fac (Fin 0)); [left; reflexivity|].
  cbn [nv_add zip3v nv_scale map3v cx]. apply nf_add_l, nf_mul_r. exact NF.
Qed.
Lemma reshape_map A B (f : A -> list B) n l : (forall a, In a l -> length (f a) = n) ->
  reshape (length l) n (flat_map f l) = map f l.
Proof.
  intros H. induction l as [|a l IH]; [reflexivity|]. cbn [flat_map length reshape map].
  assert (La : length (f a) = n) by (apply H; left; auto). subst n.
  rewrite firstn_app, Nat.sub_diag, firstn_O, app_nil_r, firstn_all. rewrite skipn_app, Nat.sub_diag, skipn_all, skipn_O. cbn [app].
  f_equal. apply IH. intros b I. apply H. right; auto.
Qed.
Definition sq (p : v2 num) : list (v2 num) :=
  let l := Fin (- (1 / 2)) in let u := Fin (1 / 2) in
  map (fun d => V2 (c1 p + c1 d)%num (c2 p + c2 d)%num) [V2 l l; V2 u l; V2 u u; V2 l u].
Lemma get_square_map points : get_square points = map sq points.
Proof.
  unfold get_square, shift. cbv zeta.
  assert (E : points = map (fun i => nth i points (V2 NaN NaN)) (seq 0 (length points))).
  { clear. induction points as [|p l IH]; [reflexivity|]. cbn [length seq map]. rewrite <- seq_shift, map_map. f_equal. exact IH. }
  transitivity (map sq (map (fun i => nth i points (V2 NaN NaN)) (seq 0 (length points)))); [|rewrite <- E; reflexivity]. rewrite map_map. apply map_ext_in. intros i I. apply in_seq in I. unfold sq. cbn [map].
  assert (N : forall f : v2 num -> v2 num, nth i (map f points) (V2 NaN NaN) = f (nth i points (V2 NaN NaN))).
  { intros f. rewrite (nth_indep _ (V2 NaN NaN) (f (V2 NaN NaN))) by (rewrite map_length; lia). apply map_nth. }
  rewrite !N. reflexivity.
Qed.
Definition seen (c : camera) (q : v2 num) : v3 num := match spaceFromImage c q (on_Z (Fin 0)) with Some p => p | None => nan3 end.
Lemma seen_ok c q : spaceFromImage c q (on_Z (Fin 0)) = Some (seen c q).
Proof. unfold seen, spaceFromImage, on_Z. cbn [k_mesh k_D k_X k_Y k_Z]. reflexivity. Qed.
Definition area_at (c : camera) (undef : num) (p : v2 num) : num :=
  let a := quad_area (map (seen c) (sq p)) in if nisnan a then undef else a.
Lemma lut_map c undef points : lut_of c undef points = Some (map (area_at c undef) points).
Proof.
  unfold lut_of. rewrite (all_some_map _ _ _ (seen c)) by (intros; apply seen_ok). f_equal.
  rewrite get_square_map. rewrite <- flat_map_concat_map.
  replace (map (seen c) (flat_map sq points)) with (flat_map (fun p => map (seen c) (sq p)) points).
  2: { rewrite (flat_map_concat_map sq), concat_map, map_map, flat_map_concat_map. reflexivity. }
  rewrite reshape_map by (intros; reflexivity). rewrite !map_map. reflexivity.
Qed.
Lemma rep_number a x : rep a x -> nisnan a = false.
Proof. destruct a; intros H; try reflexivity. discriminate H. Qed.
Lemma area_entry c k r o undef p x y : plain_cam c k r o -> rep2 p (V2 x y) -> elevation_m o <> 0 ->
  (forall Q, In Q (corners x y) -> has_ray k r Q) -> entry o k r x y undef (area_at c undef p).
Proof.
  intros HC (HX&HY) HE HR. cbn [c1 c2] in HX, HY.
  assert (SQ : Forall2 rep2 (sq p) (corners x y)).
  { unfold sq, corners. cbn [map].
    repeat (constructor; [split; cbn [c1 c2]; (eapply rep_eq; [apply rep_add; [eassumption|apply rep_Fin]|lra])|]). constructor. }
  unfold sq in SQ. cbn [map c1 c2] in SQ.
  unfold area_at, sq. cbn [map c1 c2]. unfold corners in *.
  inversion SQ as [|a1 A1 l1 L1 S1 SQ1]; subst. inversion SQ1 as [|a2 A2 l2 L2 S2 SQ2]; subst.
  inversion SQ2 as [|a3 A3 l3 L3 S3 SQ3]; subst. inversion SQ3 as [|a4 A4 l4 L4 S4 SQ4]; subst. clear SQ SQ1 SQ2 SQ3 SQ4.
  unfold entry, corners. split; [|split].
  - intros P1 P2 P3 P4 F.
    inversion F as [|? ? ? ? (f1&Hf1&M1) F1]; subst. inversion F1 as [|? ? ? ? (f2&Hf2&M2) F2]; subst.
    inversion F2 as [|? ? ? ? (f3&Hf3&M3) F3]; subst. inversion F3 as [|? ? ? ? (f4&Hf4&M4) F4]; subst. clear F F1 F2 F3 F4.
    assert (G : forall q Q f P, rep2 q Q -> has_ray k r Q -> 0 <= f -> meets o k r Q f P -> rep2 (V2 (cx (seen c q)) (cy (seen c q))) (ground P)).
    { intros q Q f P Hq Hh Hf HM. destruct (meets_space c k r o q Q f P HC Hq Hh HE HM) as (s&Es&_&K). unfold seen. rewrite Es.
      destruct (K Hf) as (KX&KY&_). split; assumption. }
    unfold quad_area. cbn [nth].
    assert (RA := quad_rep _ _ _ _ _ _ _ _ (G _ _ _ _ S1 (HR _ (or_introl eq_refl)) Hf1 M1) (G _ _ _ _ S2 (HR _ (or_intror (or_introl eq_refl))) Hf2 M2)
      (G _ _ _ _ S3 (HR _ (or_intror (or_intror (or_introl eq_refl)))) Hf3 M3) (G _ _ _ _ S4 (HR _ (or_intror (or_intror (or_intror (or_introl eq_refl))))) Hf4 M4)).
    rewrite (rep_number _ _ RA). exact RA.
  - intros Q f P I HM Hf.
    assert (G : forall q, rep2 q Q -> has_ray k r Q -> seen c q = nan3).
    { intros q Hq Hh. destruct (meets_space c k r o q Q f P HC Hq Hh HE HM) as (s&Es&K&_). unfold seen. rewrite Es. auto. }
    assert (NA : forall a, a = NaN -> (if nisnan a then undef else a) = undef) by (intros a ->; reflexivity).
    apply NA. unfold quad_area. cbn [nth]. apply nan_area.
    destruct I as [<-|[<-|[<-|[<-|[]]]]].
    + left. rewrite (G _ S1); [split; reflexivity|apply HR; cbn; auto].
    + right; left. rewrite (G _ S2); [split; reflexivity|apply HR; cbn; auto].
    + right; right; left. rewrite (G _ S3); [split; reflexivity|apply HR; cbn; auto].
    + right; right; right. rewrite (G _ S4); [split; reflexivity|apply HR; cbn; auto].
  - intros Q I NM.
    assert (G : forall q, rep2 q Q -> has_ray k r Q -> nf (cx (seen c q))).
    { intros q Hq Hh. destruct (level_space c k r o q Q HC Hq Hh HE NM) as (s&Es&K). unfold seen. rewrite Es. auto. }
    assert (NA : forall a, a = NaN \/ a = PInf -> (if nisnan a then undef else a) = undef \/ (if nisnan a then undef else a) = PInf)
      by (intros a [-> | ->]; auto).
    apply NA. unfold quad_area. cbn [nth]. apply nf_area. cbn [c1].
    destruct I as [<-|[<-|[<-|[<-|[]]]]].
    + left. apply (G _ S1), HR; cbn; auto.
    + right; left. apply (G _ S2), HR; cbn; auto.
    + right; right; left. apply (G _ S3), HR; cbn; auto.
    + right; right; right. apply (G _ S4), HR; cbn; auto.
Qed.

Lemma slice_all (E : R -> R -> num -> Prop) c k r w h undef :
  (forall p x y, rep2 p (V2 x y) -> (forall Q, In Q (corners x y) -> has_ray k r Q) -> E x y (area_at c undef p)) ->
  (forall y Q, (y < h)%nat -> In Q (corners (INR w / 2) (INR y)) -> has_ray k r Q) ->
  exists lut, generateLUT c w h undef = Some lut /\ length lut = h /\
    forall y v, nth_error lut y = Some v -> E (INR w / 2) (INR y) v.
Proof.
  intros HA HR. unfold generateLUT. rewrite lut_map. eexists. split; [reflexivity|].
  split; [rewrite !map_length, seq_length; reflexivity|].
  intros y v Ev. rewrite !nth_error_map in Ev.
  destruct (nth_error (seq 0 h) y) as [i|] eqn:EI; [|discriminate]. injection Ev as <-.
  assert (HY : (y < h)%nat) by (rewrite <- (seq_length h 0); apply nth_error_Some; congruence).
  apply (nth_error_nth _ _ 0%nat) in EI. rewrite seq_nth in EI by auto. cbn in EI. subst i.
  apply HA; [|intros Q I; eapply HR; eauto].
  split; cbn [c1 c2]; [|apply rep_Fin]. eapply rep_eq; [apply rep_mul; [apply rep_div; [apply rep_Fin|apply rep_Fin|lra]|apply rep_Fin]|lra].
Qed.
Lemma whole_all (E : R -> R -> num -> Prop) c k r w h undef :
  (forall p x y, rep2 p (V2 x y) -> (forall Q, In Q (corners x y) -> has_ray k r Q) -> E x y (area_at c undef p)) ->
  (forall x y Q, (x < w)%nat -> (y < h)%nat -> In Q (corners (INR x) (INR y)) -> has_ray k r Q) ->
  exists lut, generateLUT_whole c w h undef = Some lut /\ length lut = h /\
    forall y row, nth_error lut y = Some row -> length row = w /\
      forall x v, nth_error row x = Some v -> E (INR x) (INR y) v.
Proof.
  intros HA HR. unfold generateLUT_whole. rewrite lut_map.
  set (row := fun y => map (area_at c undef) (map (fun x => V2 (nn x) (nn y)) (seq 0 w))).
  assert (ER : map (area_at c undef) (flat_map (fun y => map (fun x => V2 (nn x) (nn y)) (seq 0 w)) (seq 0 h)) = flat_map row (seq 0 h)).
  { rewrite !flat_map_concat_map, concat_map, map_map. reflexivity. }
  rewrite ER. eexists. split; [reflexivity|].
  assert (LR : forall y, length (row y) = w) by (intros; unfold row; rewrite !map_length, seq_length; reflexivity).
  replace (reshape h w (flat_map row (seq 0 h))) with (map row (seq 0 h)).
  2: { symmetry. rewrite <- (seq_length h 0) at 1. apply reshape_map. auto. }
  split; [rewrite map_length, seq_length; reflexivity|].
  intros y rw Ey. rewrite nth_error_map in Ey. destruct (nth_error (seq 0 h) y) as [i|] eqn:EI; [|discriminate]. injection Ey as <-.
  assert (HY : (y < h)%nat) by (rewrite <- (seq_length h 0); apply nth_error_Some; congruence).
  apply (nth_error_nth _ _ 0%nat) in EI. rewrite seq_nth in EI by auto. cbn in EI. subst i.
  split; [apply LR|]. intros x v Ex. unfold row in Ex. rewrite !nth_error_map in Ex.
  destruct (nth_error (seq 0 w) x) as [i|] eqn:EI; [|discriminate]. injection Ex as <-.
  assert (HX : (x < w)%nat) by (rewrite <- (seq_length w 0); apply nth_error_Some; congruence).
  apply (nth_error_nth _ _ 0%nat) in EI. rewrite seq_nth in EI by auto. cbn in EI. subst i.
  apply HA; [|intros Q I; eapply HR; eauto]. split; apply rep_Fin.
Qed.
(** a camera on the ground *)
Lemma ground_space c k r o q Q : plain_cam c k r o -> rep2 q Q -> has_ray k r Q -> elevation_m o = 0 ->
  (level o k r Q -> cx (seen c q) = NaN /\ cy (seen c q) = NaN) /\ (~ level o k r Q -> rep3 (seen c q) (opos o)).
Proof.
  intros HC Hq Hh HE. destruct (plain_good _ _ _ _ HC) as (HG&HK&HDi&HU).
  assert (Hq' : rep2 (cam_undist c q) Q) by (rewrite HU; auto).
  assert (Hh' : has_ray (cam_kind c) r Q) by (rewrite HK; auto).
  assert (LV : level o k r Q <-> cz (dirW c r (camM o) Q) = 0).
  { unfold level, cam_coords. rewrite <- HK, <- (dirW_back c r (camM o) (opos o) Q (cam_o c)) by apply HG.
    generalize (dirW c r (camM o) Q). intros d. split.
    - intros (P&HZ&HM). apply (f_equal (rm_mul_v (rm_trans (camM o)))) in HM. rewrite !trans_mul in HM by apply HG. subst d.
      destruct P as [px py pz]. cbv [rv_sub zip3v opos cz] in *. lra.
    - intros HZ. exists (rv_add (opos o) d). split.
      + destruct d as [dx dy dz]. cbv [rv_add zip3v opos cz] in *. lra.
      + f_equal. destruct d as [dx dy dz]. cbv [rv_sub rv_add zip3v opos cx cy cz]. f_equal; ring. }
  rewrite LV. split.
  - intros HZ. pose proof (origin_rep _ _ _ _ HG) as HO.
    pose proof (direction_rep _ _ _ _ _ _ false HG Hq' Hh') as HD. cbv iota in HD.
    unfold seen. change (on_Z (Fin 0)) with (on_axis AZ (Fin 0)). rewrite sfi_axis_unfold. cbv zeta.
    pose proof (get_axis_rep AZ _ _ HD) as Hd. pose proof (get_axis_rep AZ _ _ HO) as Ho. cbn [get_axis] in *.
    cbn [opos cz] in Ho. rewrite HE in Ho. rewrite HZ in Hd.
    assert (FN : ((Fin 0 - cz (ray_origin c)) / cz (ray_direction c q false))%num = NaN).
    { apply ndiv_0_0; auto. eapply rep_eq; [apply rep_sub; [apply rep_Fin|exact Ho]|lra]. }
    rewrite FN. change (nltb NaN (Fin 0)) with false. cbv iota. cbn [nv_add zip3v nv_scale map3v cx cy].
    rewrite ?nmul_NaN_l, ?nmul_NaN_r, !nadd_NaN_l. auto.
  - intros NZ. destruct (sfi_axis c r (camM o) (opos o) q Q AZ (Fin 0) 0 HG Hq' Hh' (rep_Fin 0) NZ) as (_&HP). cbn [get_axis] in HP.
    assert (EF : (0 - cz (opos o)) / cz (dirW c r (camM o) Q) = 0) by (cbn [opos cz]; rewrite HE; unfold Rdiv; ring).
    rewrite EF in HP. destruct (HP (Rle_refl _)) as (p&Ep&Rp). unfold seen. change (on_Z (Fin 0)) with (on_axis AZ (Fin 0)). rewrite Ep.
    eapply rep3_eq; [exact Rp|]. apply v3_ext; cbn; ring.
Qed.
Lemma area_ground c k r o undef p x y : plain_cam c k r o -> rep2 p (V2 x y) -> elevation_m o = 0 ->
  (forall Q, In Q (corners x y) -> has_ray k r Q) -> ground_entry o k r x y undef (area_at c undef p).
Proof.
  intros HC (HX&HY) HE HR. cbn [c1 c2] in HX, HY.
  assert (SQ : Forall2 rep2 (sq p) (corners x y)).
  { unfold sq, corners. cbn [map].
    repeat (constructor; [split; cbn [c1 c2]; (eapply rep_eq; [apply rep_add; [eassumption|apply rep_Fin]|lra])|]). constructor. }
  unfold sq in SQ. cbn [map c1 c2] in SQ.
  unfold area_at, sq. cbn [map c1 c2]. unfold corners in *.
  inversion SQ as [|a1 A1 l1 L1 S1 SQ1]; subst. inversion SQ1 as [|a2 A2 l2 L2 S2 SQ2]; subst.
  inversion SQ2 as [|a3 A3 l3 L3 S3 SQ3]; subst. inversion SQ3 as [|a4 A4 l4 L4 S4 SQ4]; subst. clear SQ SQ1 SQ2 SQ3 SQ4.
  pose proof (ground_space c k r o _ _ HC S1 (HR _ (or_introl eq_refl)) HE) as (G1&K1).
  pose proof (ground_space c k r o _ _ HC S2 (HR _ (or_intror (or_introl eq_refl))) HE) as (G2&K2).
  pose proof (ground_space c k r o _ _ HC S3 (HR _ (or_intror (or_intror (or_introl eq_refl)))) HE) as (G3&K3).
  pose proof (ground_space c k r o _ _ HC S4 (HR _ (or_intror (or_intror (or_intror (or_introl eq_refl))))) HE) as (G4&K4).
  unfold ground_entry, corners, quad_area. cbn [nth]. split.
  - intros NL.
    assert (G : forall q, rep3 (seen c q) (opos o) -> rep2 (V2 (cx (seen c q)) (cy (seen c q))) (ground (opos o))).
    { intros q (X&Y&_). split; assumption. }
    assert (RA := quad_rep _ _ _ _ _ _ _ _ (G _ (K1 (NL _ (or_introl eq_refl)))) (G _ (K2 (NL _ (or_intror (or_introl eq_refl)))))
      (G _ (K3 (NL _ (or_intror (or_intror (or_introl eq_refl)))))) (G _ (K4 (NL _ (or_intror (or_intror (or_intror (or_introl eq_refl)))))))).
    rewrite (rep_number _ _ RA). eapply rep_eq; [exact RA|]. unfold shoelace, cross2, ground. cbn [c1 c2].
    match goal with |- Rabs ?e = 0 => replace e with 0 by field end. apply Rabs_R0.
  - intros Q I HL.
    assert (NA : forall a, a = NaN -> (if nisnan a then undef else a) = undef) by (intros a ->; reflexivity).
    apply NA. apply nan_area. cbn [c1 c2]. destruct I as [<-|[<-|[<-|[<-|[]]]]]; auto.
Qed.

(** ** C50 *)
Theorem C50_slice : forall c k r o w h undef, plain_cam c k r o -> elevation_m o <> 0 ->
  (forall y Q, (y < h)%nat -> In Q (corners (INR w / 2) (INR y)) -> has_ray k r Q) ->
  exists lut, generateLUT c w h undef = Some lut /\ length lut = h /\
    forall y v, nth_error lut y = Some v -> entry o k r (INR w / 2) (INR y) undef v.
Proof.
  intros c k r o w h undef HC HE HR. apply (slice_all (fun x y => entry o k r x y undef) c k r w h undef); auto.
  intros. apply area_entry; auto.
Qed.
Print Assumptions C50_slice.
Theorem C50_whole_image : forall c k r o w h undef, plain_cam c k r o -> elevation_m o <> 0 ->
  (forall x y Q, (x < w)%nat -> (y < h)%nat -> In Q (corners (INR x) (INR y)) -> has_ray k r Q) ->
  exists lut, generateLUT_whole c w h undef = Some lut /\ length lut = h /\
    forall y row, nth_error lut y = Some row -> length row = w /\
      forall x v, nth_error row x = Some v -> entry o k r (INR x) (INR y) undef v.
Proof.
  intros c k r o w h undef HC HE HR. apply (whole_all (fun x y => entry o k r x y undef) c k r w h undef); auto.
  intros. apply area_entry; auto.
Qed.
Print Assumptions C50_whole_image.
(** A camera on the ground sees no area: all pixels get zero, and those with a level line of sight the given value. *)
Theorem C50_on_ground : forall c k r o w h undef, plain_cam c k r o -> elevation_m o = 0 ->
  ((forall y Q, (y < h)%nat -> In Q (corners (INR w / 2) (INR y)) -> has_ray k r Q) ->
   exists lut, generateLUT c w h undef = Some lut /\ length lut = h /\
     forall y v, nth_error lut y = Some v -> ground_entry o k r (INR w / 2) (INR y) undef v) /\
  ((forall x y Q, (x < w)%nat -> (y < h)%nat -> In Q (corners (INR x) (INR y)) -> has_ray k r Q) ->
   exists lut, generateLUT_whole c w h undef = Some lut /\ length lut = h /\
     forall y row, nth_error lut y = Some row -> length row = w /\
       forall x v, nth_error row x = Some v -> ground_entry o k r (INR x) (INR y) undef v).
Proof.
  intros c k r o w h undef HC HE.
  assert (A : forall p x y, rep2 p (V2 x y) -> (forall Q, In Q (corners x y) -> has_ray k r Q) -> ground_entry o k r x y undef (area_at c undef p)).
  { intros. apply area_ground; auto. }
  split; intros HR; [apply (slice_all (fun x y => ground_entry o k r x y undef) c k r w h undef)|apply (whole_all (fun x y => ground_entry o k r x y undef) c k r w h undef)]; auto.
Qed.
Print Assumptions C50_on_ground.
(** Beside the theorems: a camera 10 m above the ground that looks at the horizon.  Every pixel below the middle
    of the image sees the ground in front of it, every pixel above does not; so both parts of [entry] apply. *)
Lemma ex_meets x y : y <> 1500 ->
  meets ex_or2 Rectilinear ex_r (V2 x y) (35000 / (y - 1500)) (V3 ((x - 2000) * 10 / (y - 1500)) (35000 / (y - 1500)) 0).
Proof.
  intros H. split; [reflexivity|]. rewrite ex2_coords. unfold rayR, alphaR, betaR, ex_r. cbn [cx cy cz c1 c2 f_x f_y center_x center_y].
  cbv [rv_scale map3v cx cy cz]. f_equal; field; lra.
Qed.
Example C50_example : exists c lut, plain_cam c Rectilinear ex_r ex_or2 /\ generateLUT c 4000 3000 (Fin 0) = Some lut /\
  (forall v, nth_error lut 2500 = Some v -> exists a, 0 < a /\ rep v a) /\ (forall v, nth_error lut 300 = Some v -> v = Fin 0).
Proof.
  destruct (ex_cam2 Rectilinear) as (c&HC).
  destruct (C50_slice c Rectilinear ex_r ex_or2 4000 3000 (Fin 0) HC) as (lut&E&_&K); [cbn; lra|intros; exact I|].
  exists c, lut. splits; auto.
  - intros v Hv. destruct (K _ _ Hv) as (K1&_).
    assert (E1 : INR 4000 / 2 = 2000) by (rewrite INR_IZR_INZ; simpl; lra). assert (E2 : INR 2500 = 2500) by (rewrite INR_IZR_INZ; simpl; lra).
    rewrite E1, E2 in K1. eexists. split; [|apply K1].
    2: { unfold corners.
         repeat (constructor; [eexists; split; [|apply ex_meets; lra]; apply Rlt_le, Rdiv_lt_0_compat; lra|]). constructor. }
    unfold shoelace, cross2, ground. cbn [c1 c2 cx cy]. apply Rabs_pos_lt.
    match goal with |- ?t <> 0 => replace t with (- 35000 * 10 * (/ (999 + / 2) + / (1000 + / 2)) / 2 * (/ (999 + / 2) - / (1000 + / 2))) by (field; lra) end.
    assert (0 < / (1000 + / 2)) by (apply Rinv_0_lt_compat; lra).
    assert (/ (1000 + / 2) < / (999 + / 2)) by (apply Rinv_lt_contravar; lra). apply Rlt_not_eq. nra.
  - intros v Hv. destruct (K _ _ Hv) as (_&K2).
    assert (E1 : INR 4000 / 2 = 2000) by (rewrite INR_IZR_INZ; simpl; lra). assert (E2 : INR 300 = 300) by (rewrite INR_IZR_INZ; simpl; lra).
    rewrite E1, E2 in K2. eapply K2; [left; reflexivity|apply ex_meets; lra|].
    assert (/ (300 - / 2 - 1500) < 0) by (apply Rinv_lt_0_compat; lra). unfold Rdiv. lra.
Qed.
(** The same camera with 3001 rows: the horizon is the border between two rows, and the row 1500 has two corners on it. *)
Definition ex_odd : proj R := Proj 3500 3500 2000 (1500 + / 2) 4000 3001.
Example C50_level_example : exists c lut, plain_cam c Rectilinear ex_odd ex_or2 /\ generateLUT c 4000 3001 (Fin 0) = Some lut /\
  (forall v, nth_error lut 1500 = Some v -> v = Fin 0 \/ v = PInf).
Proof.
  assert (exists c, plain_cam c Rectilinear ex_odd ex_or2) as (c&HC).
  { assert (H : rep_opar (opar_fin ex_or2) ex_or2) by (repeat split).
    destruct (init_rigid _ _ H) as (m&E&_).
    exists (plain_camera Rectilinear (proj_fin ex_odd) m), (proj_fin ex_odd), m. splits; auto; [repeat split|split; simpl; lra|eauto]. }
  destruct (C50_slice c Rectilinear ex_odd ex_or2 4000 3001 (Fin 0) HC) as (lut&E&_&K); [cbn; lra|intros; exact I|].
  exists c, lut. splits; auto. intros v Hv. destruct (K _ _ Hv) as (_&_&K3). assert (INR 1500 = 1500) as E2 by (rewrite INR_IZR_INZ; simpl; lra). rewrite E2 in K3. generalize (INR 4000 / 2), K3. clear K3. intros x0 K3.
  apply (K3 (V2 (x0 + / 2) (1500 + / 2))); [right; right; left; reflexivity|].
  intros f P (Z&M). rewrite ex2_coords in M. unfold rayR, alphaR, betaR, ex_odd in M. cbn [cx cy cz c1 c2 f_x f_y center_x center_y] in M.
  cbv [rv_scale map3v cx cy cz] in M. destruct P as [px py pz]. cbn [cz] in Z. injection M as _ M _.
  replace ((1500 + / 2 - (1500 + / 2)) / 3500) with 0 in M by field. lra.
Qed.
(** A camera that lies on the ground and looks at the horizon: the area of a pixel in the lower half is zero. *)
Definition ex_low : opar R := OPar 0 90 0 0 0 0.
Example C50_ground_example : exists c lut, plain_cam c Rectilinear ex_r ex_low /\ generateLUT c 4000 3000 (Fin 7) = Some lut /\
  (forall v, nth_error lut 2500 = Some v -> rep v 0).
Proof.
  assert (H : rep_opar (opar_fin ex_low) ex_low) by (repeat split).
  destruct (init_rigid _ _ H) as (m&EM&_).
  assert (HC : plain_cam (plain_camera Rectilinear (proj_fin ex_r) m) Rectilinear ex_r ex_low).
  { exists (proj_fin ex_r), m. splits; auto; [repeat split|split; simpl; lra|eauto]. }
  assert (CC : forall P, cam_coords ex_low P = V3 (cx P) (cz P) (- cy P)).
  { intros P. unfold cam_coords, camM; cbn [tilt_deg roll_deg heading_deg ex_low].
    replace (rad 90) with (PI / 2) by (unfold rad; field). replace (rad 0) with 0 by (unfold rad; ring).
    apply v3_ext; cbv [rotm rm_mul_v rv_sub zip3v rdot opos pos_x_m pos_y_m elevation_m ex_low cx cy cz];
    rewrite ?sin_PI2, ?cos_PI2, ?sin_0, ?cos_0; ring. }
  destruct (proj1 (C50_on_ground _ Rectilinear ex_r ex_low 4000 3000 (Fin 7) HC eq_refl)) as (lut&E&_&K); [intros; exact I|]. eexists _, lut. split; [exact HC|]. split; [exact E|].
  intros v Hv. destruct (K _ _ Hv) as (K1&_).
  assert (E2 : INR 2500 = 2500) by (rewrite INR_IZR_INZ; simpl; lra). rewrite E2 in K1. revert K1. generalize (INR 4000 / 2). intros x K1.
  apply K1. intros Q HI (P&HZ&HP). rewrite CC in HP. apply (f_equal cy) in HP. cbn [elevation_m ex_low] in HZ.
  unfold rayR, alphaR, betaR, ex_r in HP. cbn [cy c2 f_y center_y] in HP. rewrite HZ in HP.
  destruct HI as [<-|[<-|[<-|[<-|[]]]]]; cbn [c2] in HP; lra.
Qed.
