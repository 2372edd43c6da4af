(** * Property C41: saving and loading a camera *)
Require Import Reals Lra List Bool String Arith NArith QArith Qreals Lia.
From Verif Require Import Num Projection CameraTransform Param ParamFacts ParamOps ParamSteps ParamReach ParamCam ParamLaws ParamMap PropParam PropFit.
From Verif Require Import ParamCheck ParamExamples ParamTotal PropTotal ParamSave.
Import ListNotations.
Open Scope nat_scope.
Open Scope string_scope.

(** Every parameter of the camera reads a number. *)
Definition complete (h : heapn) (c : oid) : Prop := forall n l, writes h c n l -> exists v, get_num h c n = Some v.
(** [c2] in [h2] is a camera of the same make as [c] in [h], with the same numbers. *)
Definition same_kinds (h : heapn) (c : oid) (h2 : heapn) (c2 : oid) : Prop :=
  exists p o l p2 o2 l2 pk k lk, cam_at h c p o l /\ cam_at h2 c2 p2 o2 l2 /\
    proj_at h p pk /\ proj_at h2 p2 pk /\ orient_at h o k /\ orient_at h2 o2 k /\ lens_at h l lk /\ lens_at h2 l2 lk.
Definition same_numbers (h : heapn) (c : oid) (h2 : heapn) (c2 : oid) : Prop :=
  forall n l, writes h c n l -> n <> "focallength_px" -> get_num h2 c2 n = get_num h c n.

Lemma complete_rdl (h : heapn) c p o l : reach h -> cam_at h c p o l -> complete h c -> forall n x, writes h c n x -> rdl h x <> None.
Proof.
  intros HR (b&E&K) HC n x HW. destruct (reach_inv h HR) as (HI&CI). destruct (CI c b p o l E K) as (g&pk&k&lk&_&_&_&_&_&T&A).
  destruct (HC n x HW) as (v&Hv). assert (RD : reads h c n x).
  { destruct HW as (b'&E'&T'). rewrite E in E'; inversion E'; subst b'. exists b. split; [exact E|split; [|exact T']].
    apply A. rewrite T, cam_table_assoc in T'. destruct (mem_name_spec n (all_names k lk)); [assumption|discriminate]. }
  rewrite (reads_num _ _ _ _ RD) in Hv. congruence.
Qed.
(** Loading into any camera object of any later state. *)
Theorem C41_load h c p o l f h2 c2 h3 : reach h -> cam_at h c p o l -> orient_at h o TiltHeading -> complete h c ->
  save h c = Some f -> reach h2 -> op_ok h2 (OLoad c2 f) -> load wrapn litn h2 c2 f = (h3, true) ->
  reach h3 /\ same_kinds h c h3 c2 /\ same_numbers h c h3 c2 /\
  (forall p2, projection_of h3 c2 p2 -> unfrozen h3 p2).
Proof.
  intros HR HC HO HN HS HR2 HOK HL. destruct (reach_inv h HR) as (HI&CI). destruct (reach_inv h2 HR2) as (HI2&CI2).
  pose proof HOK as (b2&p2&o2&l2&E2&K2&NS2).
  assert (NB2 : not_base h2 c2). { intros b' E'. rewrite E2 in E'; inversion E'; subst. rewrite K2. intros X; exact X. }
  destruct (load_saved wrapn litn wrapn_ok h c p o l f h2 c2 b2 h3 HI CI HC HO) as (p3&o3&l3&C3&P3&O3&L3&G3&U3); auto.
  { intros n x. eapply complete_rdl; eauto. }
  pose proof HC as (b&E&K). destruct (CI c b p o l E K) as (g&pk&k&lk&PA&OA&LA&_).
  assert (EK : k = TiltHeading) by (destruct HO as (?&?&?), OA as (?&?&?); congruence). subst k.
  split; [eapply Rstep; [exact HR2|exact HOK|exact HL]|].
  split; [exists p, o, l, p3, o3, l3, pk, TiltHeading, lk; auto 12|].
  split.
  - intros n x HW NF. destruct (G3 n NF) as [X|X]; [exact X|]. exfalso. apply (X x HW).
  - intros p4 (o4&l4&b4&E4&K4) b5 n E5 _. destruct C3 as (b3&E3&K3). assert (p4 = p3) by congruence. subst p4. eapply U3; eauto.
Qed.
Print Assumptions C41_load.
(** The loaded camera transforms like the saved one. *)
Lemma same_reads spline h c h2 c2 : reach h -> same_kinds h c h2 c2 -> same_numbers h c h2 c2 ->
  camera_of_reads spline h2 c2 = camera_of_reads spline h c.
Proof.
  intros HR (p&o&l&p2&o2&l2&pk&k&lk&C&C2&(bp&Ep&Kp)&(bp2&Ep2&Kp2)&(bo&Eo&Ko)&(bo2&Eo2&Ko2)&(bl&El&Kl)&(bl2&El2&Kl2)) HN.
  pose proof C as (b&E&K). pose proof C2 as (b2&E2&K2). unfold camera_of_reads.
  rewrite E, K, Ep, Eo, El, Kp, Ko, Kl, E2, K2, Ep2, Eo2, El2, Kp2, Ko2, Kl2.
  destruct (reach_inv h HR) as (HI&CI). destruct (CI c b p o l E K) as (g&pk'&k'&lk'&_&(bo'&Eo'&Ko')&(bl'&El'&Kl')&_&_&T&_).
  assert (k' = k) by congruence. assert (lk' = lk) by congruence. subst k' lk'.
  assert (G : forall n, In n (all_names k lk) -> n <> "focallength_px" -> get_num h2 c2 n = get_num h c n).
  { intros n Hn NF. eapply HN; [|exact NF]. exists b. split; [exact E|]. rewrite T, cam_table_assoc.
    destruct (mem_name_spec n (all_names k lk)); [reflexivity|contradiction]. }
  assert (G1 : forall n, In n shared_names -> get_num h2 c2 n = get_num h c n).
  { intros n Hn. apply G; [unfold all_names; rewrite !in_app_iff; right; left; apply shared_pnames; exact Hn|].
    intros ->. cbn in Hn. repeat destruct Hn as [Hn|Hn]; try discriminate. exact Hn. }
  apply camera_of_ext.
  - exact G1.
  - intros n Hn. apply G; [unfold all_names; rewrite !in_app_iff; tauto|].
    intros ->. destruct k; cbn in Hn; repeat destruct Hn as [Hn|Hn]; try discriminate; exact Hn.
  - intros n Hn. apply G; [unfold all_names; rewrite !in_app_iff; tauto|].
    intros ->. destruct lk; cbn in Hn; repeat destruct Hn as [Hn|Hn]; try discriminate; exact Hn.
  - intros n Hn. apply G1. apply (reads_shared lk). exact Hn.
Qed.
Theorem C41_same_camera spline h c p o l f h2 c2 h3 : reach h -> cam_at h c p o l -> orient_at h o TiltHeading -> complete h c ->
  unfrozen h p -> save h c = Some f -> reach h2 -> op_ok h2 (OLoad c2 f) -> load wrapn litn h2 c2 f = (h3, true) ->
  camera_in_use spline h3 c2 = camera_in_use spline h c.
Proof.
  intros HR HC HO HN HU HS HR2 HOK HL.
  destruct (C41_load h c p o l f h2 c2 h3 HR HC HO HN HS HR2 HOK HL) as (R3&SK&SN&U3).
  rewrite (C37_current_values spline h3 c2 R3 U3). rewrite (C37_current_values spline h c HR).
  - apply same_reads; auto.
  - intros p' (o'&l'&b'&E'&K'). destruct HC as (b&E&K). assert (p' = p) by congruence. subst p'. exact HU.
Qed.
Print Assumptions C41_same_camera.
(** Loading a saved camera does not raise. *)
Theorem C41_load_returns h c p o l f h2 c2 : reach h -> cam_at h c p o l -> complete h c -> save h c = Some f ->
  reach h2 -> full h2 -> op_ok h2 (OLoad c2 f) -> exists h3, load wrapn litn h2 c2 f = (h3, true).
Proof.
  intros HR HC HN HS HR2 HF HOK. destruct (C56_no_raise h2 (OLoad c2 f) HR2 HF HOK) as (h3&E&_); [|exists h3; exact E].
  cbn [none_free]. intros n a Hn ->. destruct HC as (b&E&K). unfold save in HS. rewrite E, K in HS.
  destruct (objs h p) as [bp|]; [|discriminate]. destruct (objs h l) as [bl|]; [|discriminate].
  destruct (okd bp) as [pk| | | | |]; try discriminate. destruct (okd bl) as [| |lk| | |]; try discriminate.
  inversion HS; subst f. cbn [file_vars] in Hn. apply in_map_iff in Hn. destruct Hn as ((m&x)&X&Y). cbn [fst] in X.
  apply filter_In in Y. destruct Y as (Y&_).
  destruct (assoc m (table b)) as [y|] eqn:T.
  - destruct (HN m y) as (v&Hv); [exists b; auto|]. unfold get_num in Hv. destruct (get_attr h c m) as [[]|]; congruence.
  - apply (assoc_none_fst m (table b) T). apply in_map_iff. exists (m, x). auto.
Qed.
Print Assumptions C41_load_returns.
(** load_camera: the camera returned is the fourth object it makes. *)
Theorem C41_load_camera spline h c p o l f h2 h3 : reach h -> cam_at h c p o l -> orient_at h o TiltHeading -> complete h c ->
  unfrozen h p -> save h c = Some f -> reach h2 -> load_camera wrapn litn h2 f = (h3, true) ->
  let c2 := 3 + next h2 in
  reach h3 /\ same_kinds h c h3 c2 /\ same_numbers h c h3 c2 /\ camera_in_use spline h3 c2 = camera_in_use spline h c.
Proof.
  intros HR HC HO HN HU HS HR2 HL c2. unfold load_camera in HL.
  apply bind_ok in HL. destruct HL as (h4&E4&HL). apply bind_ok in HL. destruct HL as (h5&E5&HL).
  apply bind_ok in HL. destruct HL as (h6&E6&HL). apply bind_ok in HL. destruct HL as (h7&E7&HL).
  destruct (reach_inv h2 HR2) as (I2&V2).
  pose proof (new_proj_grown wrapn litn clean _ _ _ _ _ I2 E4) as G4.
  assert (R4 : reach h4) by (apply (Rstep wrapn litn h2 (OProj Rectilinear (placeholder litn) false) h4 HR2 I E4)).
  destruct (reach_inv h4 R4) as (I4&V4).
  pose proof (new_orient_grown wrapn litn wrapn_ok clean _ _ _ _ I4 E5) as G5.
  assert (R5 : reach h5) by (apply (Rstep wrapn litn h4 (OOrient TiltHeading none_vals) h5 R4 I E5)).
  destruct (reach_inv h5 R5) as (I5&V5).
  pose proof (new_lens_grown wrapn litn wrapn_ok clean _ _ _ _ I5 E6) as G6.
  assert (R6 : reach h6) by (apply (Rstep wrapn litn h5 (OLens NoDist none_vals) h6 R5 I E6)).
  destruct (reach_inv h6 R6) as (I6&V6).
  destruct G4 as (N4&(bp&Ep&Kp&_)&F4&_). destruct G5 as (N5&(bo&Eo&Ko&_)&F5&_). destruct G6 as (N6&(bl&El&Kl&_)&F6&_).
  assert (CO : op_ok h6 (OCamera (next h2) (next h4) (next h5))).
  { destruct (F5 _ _ Ep) as (bp5&Ep5&(Kp5&_)). destruct (F6 _ _ Ep5) as (bp6&Ep6&(Kp6&_)). destruct (F6 _ _ Eo) as (bo6&Eo6&(Ko6&_)).
    split; [exists Rectilinear, bp6; split; congruence|split; [exists TiltHeading, bo6; split; congruence|]].
    exists bl, NoDist. split; [exact El|split; [exact Kl|]]. intros X. congruence. }
  assert (R7 : reach h7) by (apply (Rstep wrapn litn h6 (OCamera (next h2) (next h4) (next h5)) h7 R6 CO E7)).
  destruct (new_camera_cam wrapn litn wrapn_ok clean h6 _ _ _ h7 I6 V6 CO E7) as (_&_&(bc&Ec&Kc&Ac&_)&_).
  assert (EC : next h6 = c2) by (unfold c2; lia). rewrite EC in *.
  assert (OK : op_ok h7 (OLoad c2 f)).
  { exists bc, (next h2), (next h4), (next h5). split; [exact Ec|split; [exact Kc|]]. rewrite Ac. intros n _. reflexivity. }
  destruct (C41_load h c p o l f h7 c2 h3 HR HC HO HN HS R7 OK HL) as (R3&SK&SN&_).
  split; [exact R3|split; [exact SK|split; [exact SN|]]].
  exact (C41_same_camera spline h c p o l f h7 c2 h3 HR HC HO HN HU HS R7 OK HL).
Qed.
Print Assumptions C41_load_camera.

(** ** Example and counterexamples *)
Definition savedq : heap Q :=
  hist (camq Brown) [OSet 3 "heading_deg" (ANum (725#1)%Q); OSet 3 "k1" (ANum (1#10)%Q); OSet 3 "focallength_px" (ANum (300#1)%Q);
                     OFit (fun x => x) 3 [("pos_x_m", (7#1)%Q)]].
Definition file_q : file Q := match save savedq 3 with Some f => f | None => File Rectilinear NoDist [] end.
Lemma savedq_reach : reach (floats savedq).
Proof. apply cam_reach; [stand|vm]. Qed.

Lemma save_q h c : save (floats h) c = option_map (fmap litn) (save h c).
Proof. apply save_map. Qed.
Lemma load_camera_q h f : snd (load_camera wrapq idq h f) = true ->
  load_camera wrapn litn (floats h) (fmap litn f) = (floats (fst (load_camera wrapq idq h f)), true).
Proof. intros H. rewrite (load_camera_map litn wrapq wrapn idq litn wrap_map (fun q => eq_refl)). unfold rmap. rewrite H. reflexivity. Qed.
Lemma cam_q h c p o l : kind_at h c = Some (KCam p o l) -> cam_at (floats h) c p o l.
Proof. unfold kind_at, cam_at. cbn [hmap objs]. destruct (objs h c) as [b|]; [|discriminate]. cbn. intros X. injection X as X. eexists; split; [reflexivity|exact X]. Qed.
Lemma orient_q h o k : kind_at h o = Some (KOrient k) -> orient_at (floats h) o k.
Proof. unfold kind_at, orient_at. cbn [hmap objs]. destruct (objs h o) as [b|]; [|discriminate]. cbn. intros X. injection X as X. eexists; split; [reflexivity|exact X]. Qed.
Lemma complete_q h c : (match objs h c with Some b => forallb (fun nl => is_some (get_num h c (fst nl))) (table b) | None => false end) = true ->
  complete (floats h) c.
Proof.
  intros H n l (b&E&T). cbn [hmap objs] in E. destruct (objs h c) as [b0|]; [|discriminate]. inversion E; subst b. cbn [omap table] in T.
  rewrite forallb_forall in H. specialize (H (n, l) (assoc_in n (table b0) l T)). cbn [fst] in H. rewrite num_q.
  destruct (get_num h c n) as [v|]; [eexists; reflexivity|discriminate].
Qed.
Definition loadedq : heap Q := fst (load_camera wrapq idq savedq file_q).
(** A camera with a Brown lens, turned, fitted and given a focal length, is saved and
    loaded next to itself: object 8 is the loaded camera. *)
Example C41_example : let h := floats savedq in
  reach h /\ cam_at h 3 0 1 2 /\ orient_at h 1 TiltHeading /\ complete h 3 /\ unfrozen h 0 /\ full h /\
  save h 3 = Some (fmap litn file_q) /\ load_camera wrapn litn h (fmap litn file_q) = (floats loadedq, true) /\
  get_num (floats loadedq) 8 "heading_deg" = Some (litn (5#1)) /\ get_num (floats loadedq) 8 "focallength_y_px" = Some (litn (300#1)) /\
  get_num (floats loadedq) 8 "pos_x_m" = Some (litn (7#1)) /\ get_num (floats loadedq) 8 "k1" = Some (litn (1#10)).
Proof.
  intros h. split; [exact savedq_reach|]. split; [apply cam_q; vm|]. split; [apply orient_q; vm|]. split; [apply complete_q; vm|].
  split; [intros b n E _; vm_compute in E; inversion E; subst b; reflexivity|].
  split; [apply fullb_ok; [exact savedq_reach|vm]|].
  split; [unfold h; rewrite save_q; unfold file_q; destruct (save savedq 3) eqn:E; [reflexivity|vm_compute in E; discriminate E]|].
  split; [apply load_camera_q; vm|].
  split; [rewrite num_q; vm|split; [rewrite num_q; vm|split; rewrite num_q; vm]].
Qed.
(** focallength_px itself is not saved: it reads 100 afterwards, and set_to_mean then
    overwrites both focal lengths of the loaded camera but not those of the saved one. *)
Theorem C41_focal_refuted : exists h c p o l f h3 c2, reach h /\ cam_at h c p o l /\ orient_at h o TiltHeading /\ complete h c /\
  save h c = Some f /\ load_camera wrapn litn h f = (h3, true) /\ same_numbers h c h3 c2 /\
  get_num h3 c2 "focallength_px" <> get_num h c "focallength_px" /\
  exists h4 h5, set_to_mean wrapn (fun x => x) h3 c = (h4, true) /\ get_num h4 c "focallength_x_px" = get_num h c "focallength_x_px" /\
    set_to_mean wrapn (fun x => x) h3 c2 = (h5, true) /\ get_num h5 c2 "focallength_x_px" <> get_num h c "focallength_x_px".
Proof.
  destruct C41_example as (R&C&O&CO&U&F&S&L&_).
  exists (floats savedq), 3, 0, 1, 2, (fmap litn file_q), (floats loadedq), 8.
  split; [exact R|split; [exact C|split; [exact O|split; [exact CO|split; [exact S|split; [exact L|split]]]]]].
  - apply (C41_load_camera (fun _ x => x) (floats savedq) 3 0 1 2 _ (floats savedq) (floats loadedq) R C O CO U S R L).
  - split.
    + rewrite !num_q. replace (get_num savedq 3 "focallength_px") with (Some (300#1)%Q) by vm.
      replace (get_num loadedq 8 "focallength_px") with (Some (100#1)%Q) by vm. cbn [option_map]. apply lit_ne. qne.
    + eexists _, _. split; [apply (stats_q loadedq (fun _ m _ => m) (fun _ m _ => m) (fun x => x) 3); [intros ? ? ?; reflexivity|vm]|].
      split; [rewrite !num_q; vm|].
      split; [apply (stats_q loadedq (fun _ m _ => m) (fun _ m _ => m) (fun x => x) 8); [intros ? ? ?; reflexivity|vm]|].
      rewrite !num_q. replace (get_num savedq 3 "focallength_x_px") with (Some (300#1)%Q) by vm.
      replace (get_num (fst _) 8 "focallength_x_px") with (Some (100#1)%Q) by vm. cbn [option_map]. apply lit_ne. qne.
Qed.
Print Assumptions C41_focal_refuted.
(** A yaw-pitch-roll camera comes back as a tilt-heading camera with the default tilt. *)
Definition yprq : heap Q :=
  hist empty [OProj Rectilinear pvals false; OOrient YawPitchRoll (dict [("yaw_deg", 20#1); ("pitch_deg", 30#1)]%Q); OLens NoDist none; OCamera 0 1 2].
Definition ypr_file : file Q := match save yprq 3 with Some f => f | None => File Rectilinear NoDist [] end.
Definition ypr_loaded : heap Q := fst (load_camera wrapq idq yprq ypr_file).
Theorem C41_ypr_refuted : exists h c p o l f h3, let c2 := 3 + next h in
  reach h /\ cam_at h c p o l /\ complete h c /\ unfrozen h p /\ save h c = Some f /\ load_camera wrapn litn h f = (h3, true) /\
  ~ same_kinds h c h3 c2 /\ get_num h3 c2 "yaw_deg" = get_num h c "yaw_deg" /\ (forall x, ~ writes h3 c2 "yaw_deg" x) /\
  get_num h3 c2 "tilt_deg" = Some (litn (85#1)).
Proof.
  exists (floats yprq), 3, 0, 1, 2, (fmap litn ypr_file), (floats ypr_loaded). intros c2.
  assert (EC : c2 = 8) by vm. rewrite EC. clear c2 EC.
  split; [apply hist_reach; [stand|vm]|]. split; [apply cam_q; vm|]. split; [apply complete_q; vm|].
  split; [intros b n E _; vm_compute in E; inversion E; subst b; reflexivity|].
  split; [rewrite save_q; unfold ypr_file; destruct (save yprq 3) eqn:E; [reflexivity|vm_compute in E; discriminate E]|].
  split; [apply load_camera_q; vm|].
  split; [|split; [rewrite !num_q; vm|split; [|rewrite num_q; vm]]].
  - intros (p&o&l&p2&o2&l2&pk&k&lk&(b&E&K)&(b2&E2&K2)&_&_&(bo&Eo&Ko)&(bo2&Eo2&Ko2)&_).
    vm_compute in E. inversion E; subst b. cbn in K. inversion K; subst p o l.
    vm_compute in E2. inversion E2; subst b2. cbn in K2. inversion K2; subst p2 o2 l2.
    vm_compute in Eo. inversion Eo; subst bo. vm_compute in Eo2. inversion Eo2; subst bo2. cbn in Ko, Ko2. congruence.
  - intros x (b&E&T). vm_compute in E. inversion E; subst b. vm_compute in T. discriminate.
Qed.
Print Assumptions C41_ypr_refuted.
