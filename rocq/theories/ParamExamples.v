(** * C36-C40: examples and counterexamples *)
Require Import Reals Lra Psatz List Bool String Arith NArith QArith Qreals Lia.
From Verif Require Import Num Vec Orientation OrientationFacts Projection CameraTransform Lens PropLens.
From Verif Require Import Param ParamFacts ParamOps ParamSteps ParamReach ParamCam ParamLaws ParamMap PropParam PropFit ParamCheck.
Import ListNotations.
Open Scope nat_scope.
Open Scope string_scope.

(** ** Histories *)
Definition dict (t : list (name * Q)) : name -> option Q := fun n => assoc n t.
Definition none : name -> option Q := fun _ => None.
Definition pvals : name -> option Q :=
  dict [("focallength_x_px", 100#1); ("focallength_y_px", 100#1); ("center_x_px", 50#1); ("center_y_px", 40#1);
        ("image_width_px", 100#1); ("image_height_px", 80#1)]%Q.
Definition ovals : name -> option Q := dict [("tilt_deg", 45#1); ("elevation_m", 10#1)]%Q.
(** Object 0: projection, 1: orientation, 2: lens, 3: camera, 4: its gps parameters. *)
Definition cam_ops (k : lkind) : list (op Q) :=
  [OProj Rectilinear pvals false; OOrient TiltHeading ovals; OLens k none; OCamera 0 1 2].
Definition camq (k : lkind) : heap Q := hist empty (cam_ops k).
Lemma hist_app ps qs : forall h, hist h (ps ++ qs) = hist (hist h ps) qs.
Proof. induction ps as [|p ps IH]; intros h; [reflexivity|]. cbn. apply IH. Qed.
Lemma cam_reach k ps : stands ps -> checked (camq k) ps = true -> reach (floats (hist (camq k) ps)).
Proof.
  intros HS HC. apply hist_reach_from; auto. apply hist_reach.
  - unfold cam_ops. stand.
  - destruct k; vm_compute; reflexivity.
Qed.
Section Steps.
Variable h : heap Q.
Lemma set_q o n a : snd (set_attr wrapq h o n a) = true ->
  set_attr wrapn (floats h) o n (amap litn a) = (floats (fst (set_attr wrapq h o n a)), true).
Proof. intros H. rewrite (set_attr_map litn wrapq wrapn wrap_map). unfold rmap. rewrite H. reflexivity. Qed.
Lemma default_q o n v : snd (set_default wrapq h o n v) = true ->
  set_default wrapn (floats h) o n (option_map litn v) = (floats (fst (set_default wrapq h o n v)), true).
Proof. intros H. rewrite (set_default_map litn wrapq wrapn wrap_map). unfold rmap. rewrite H. reflexivity. Qed.
Lemma fit_q ord o v : snd (set_fit wrapq ord h o v) = true ->
  set_fit wrapn ord (floats h) o (lmap litn v) = (floats (fst (set_fit wrapq ord h o v)), true).
Proof. intros H. rewrite (set_fit_map litn wrapq wrapn wrap_map). unfold rmap. rewrite H. reflexivity. Qed.
Lemma stats_q ra rb ord o : rnd_map litn ra rb -> snd (stats_op wrapq ra ord h o) = true ->
  stats_op wrapn rb ord (floats h) o = (floats (fst (stats_op wrapq ra ord h o)), true).
Proof. intros M H. rewrite (stats_map litn wrapq wrapn wrap_map ra rb ord h o M). unfold rmap. rewrite H. reflexivity. Qed.
Lemma num_q o n : get_num (floats h) o n = option_map litn (get_num h o n).
Proof. apply get_num_map. Qed.
Lemma reads_q o n l : (match objs h o with Some b => match attrs b n, assoc n (table b) with None, Some l' => loc_eqb l' l | _, _ => false end | None => false end) = true ->
  reads (floats h) o n l.
Proof.
  intros H. unfold reads. cbn [hmap objs]. destruct (objs h o) as [b|]; [|discriminate]. exists (omap litn b). split; [reflexivity|].
  cbn [omap attrs table]. destruct (attrs b n); [discriminate|]. destruct (assoc n (table b)) as [l'|]; [|discriminate].
  split; [reflexivity|]. f_equal. destruct (loc_eqb_spec l' l); [assumption|discriminate].
Qed.
End Steps.
Lemma reads_writes (h : heapn) o n l : reads h o n l -> writes h o n l.
Proof. intros (b&E&_&T). exists b. auto. Qed.
Lemma lit_ne p q : ~ (p == q)%Q -> Some (litn p) <> Some (litn q).
Proof. intros H X. apply H, litn_inj. inversion X as [Y]. unfold litn. rewrite Y. reflexivity. Qed.
Ltac vm := vm_compute; reflexivity.
Ltac qne := let X := fresh in intros X; vm_compute in X; discriminate X.

(** ** C36 *)
(** Turning the camera to 725 degrees: camera and orientation read 5, the tilt is untouched,
    and an assignment to focallength_px is seen in both focal lengths. *)
Example C36_example : let h := floats (camq Brown) in
  reach h /\ writes h 3 "heading_deg" (Loc 1 "heading_deg") /\ reads h 1 "heading_deg" (Loc 1 "heading_deg") /\
  exists h', set_attr wrapn h 3 "heading_deg" (ANum (litn (725#1))) = (h', true) /\
    get_num h' 1 "heading_deg" = Some (litn (5#1)) /\ get_num h' 3 "tilt_deg" = Some (litn (45#1)) /\
    wrapped_loc h (Loc 1 "heading_deg") = true /\
  exists h'', set_attr wrapn h' 0 "focallength_px" (ANum (litn (300#1))) = (h'', true) /\
    get_num h'' 3 "focallength_y_px" = Some (litn (300#1)).
Proof.
  intros h. split; [apply (cam_reach Brown []); [stand|vm]|]. split; [apply reads_writes, reads_q; vm|]. split; [apply reads_q; vm|].
  eexists. split; [apply (set_q (camq Brown) 3 "heading_deg" (ANum (725#1))); vm|].
  split; [rewrite num_q; vm|]. split; [rewrite num_q; vm|]. split; [vm|].
  eexists. split; [apply (set_q _ 0 "focallength_px" (ANum (300#1))); vm|]. rewrite num_q; vm.
Qed.
(** A pair, None, a name that is no parameter; the others stay. *)
Example C36_more_example : let h := floats (camq Brown) in reach h /\
  (exists h', set_attr wrapn h 3 "heading_deg" (APair (litn (725#1)) (litn (2#1))) = (h', true) /\ get_num h' 1 "heading_deg" = Some (litn (5#1))) /\
  (exists h', set_attr wrapn h 3 "tilt_deg" ANone = (h', true) /\ get_num h' 1 "tilt_deg" = Some (litn (85#1))) /\
  (forall l, ~ writes h 3 "comment" l) /\ (exists h', set_attr wrapn h 3 "comment" (ANum (litn (1#1))) = (h', true) /\ get_attr h' 3 "comment" = Some (ANum (litn (1#1)))) /\
  (forall l', writes h 3 "roll_deg" l' -> l' <> Loc 1 "tilt_deg" /\ follows (Loc 1 "tilt_deg") l' = false) /\
  (forall l', writes h 3 "center_x_px" l' -> l' <> Loc 0 "focallength_px" /\ follows (Loc 0 "focallength_px") l' = false) /\
  cam_at h 3 0 1 2 /\ lens_at h 2 Brown.
Proof.
  intros h. split; [apply (cam_reach Brown []); [stand|vm]|].
  split; [eexists; split; [apply (set_q (camq Brown) 3 "heading_deg" (APair (725#1) (2#1))); vm|rewrite num_q; vm]|].
  split; [eexists; split; [apply (set_q (camq Brown) 3 "tilt_deg" ANone); vm|rewrite num_q; vm]|].
  split; [intros l (b&E&T); vm_compute in E; inversion E; subst b; vm_compute in T; discriminate|].
  split; [eexists; split; [apply (set_q (camq Brown) 3 "comment" (ANum (1#1))); vm|vm]|].
  split; [intros l (b&E&T); vm_compute in E; inversion E; subst b; vm_compute in T; inversion T; split; [discriminate|reflexivity]|].
  split; [intros l (b&E&T); vm_compute in E; inversion E; subst b; vm_compute in T; inversion T; split; [discriminate|reflexivity]|].
  split; vm_compute; eauto 10.
Qed.
(** A projection built from a field of view: its own image size is frozen. *)
Definition frozen_ops : list (op Q) :=
  [OProj Rectilinear pvals true; OOrient TiltHeading ovals; OLens ABC none; OCamera 0 1 2].
Definition frozenq : heap Q := hist empty frozen_ops.
Lemma frozen_reach : reach (floats frozenq).
Proof. apply hist_reach; [unfold frozen_ops; stand|vm]. Qed.
Theorem C36_frozen_refuted : exists h o n l v h', reach h /\ writes h o n l /\
  set_attr wrapn h o n (ANum v) = (h', true) /\ wrapped_loc h l = false /\ get_num h' o n <> Some v.
Proof.
  exists (floats frozenq), 0, "image_width_px", (Loc 0 "image_width_px"), (litn (200#1)).
  eexists. split; [exact frozen_reach|].
  split; [exists (omap litn (match objs frozenq 0 with Some b => b | None => Obj KGps no_attrs [] (fun _ => None) None end)); split; vm|].
  split; [apply (set_q frozenq 0 "image_width_px" (ANum (200#1))); vm|].
  split; [vm|]. rewrite num_q. replace (get_num _ 0 "image_width_px") with (Some (100#1)%Q) by vm. cbn [option_map].
  apply lit_ne. qne.
Qed.
Print Assumptions C36_frozen_refuted.

(** ** C37 *)
Definition uq (h : heap Q) (o : oid) (n : name) : option Q := match objs h o with Some b => used b n | None => None end.
Lemma in_use_q spline h c p o l pk k lk : kind_at h c = Some (KCam p o l) -> kind_at h p = Some (KProj pk) ->
  kind_at h o = Some (KOrient k) -> kind_at h l = Some (KLens lk) ->
  camera_in_use spline (floats h) c =
  camera_of spline pk k lk (fun n => option_map litn (get_num h p n)) (fun n => option_map litn (uq h o n))
    (fun n => option_map litn (uq h l n))
    (fun n => option_map litn (uq h l n)).
Proof.
  unfold kind_at, camera_in_use, uq. cbn [hmap objs]. intros Kc Kp Ko Kl.
  destruct (objs h c) as [bc|]; [|discriminate]. cbn in Kc |- *. inversion Kc as [Kc']. rewrite Kc'.
  destruct (objs h p) as [bp|]; [|discriminate]. cbn in Kp |- *. inversion Kp as [Kp']. rewrite Kp'.
  destruct (objs h o) as [bo|]; [|discriminate]. cbn in Ko |- *. inversion Ko as [Ko']. rewrite Ko'.
  destruct (objs h l) as [bl|]; [|discriminate]. cbn in Kl |- *. inversion Kl as [Kl']. rewrite Kl'.
  apply camera_of_ext; intros n _; try reflexivity. apply num_q.
Qed.
Lemma of_reads_q spline h c p o l pk k lk : kind_at h c = Some (KCam p o l) -> kind_at h p = Some (KProj pk) ->
  kind_at h o = Some (KOrient k) -> kind_at h l = Some (KLens lk) ->
  camera_of_reads spline (floats h) c =
  camera_of spline pk k lk (fun n => option_map litn (get_num h c n)) (fun n => option_map litn (get_num h c n))
    (fun n => option_map litn (get_num h c n))
    (fun n => option_map litn (get_num h c n)).
Proof.
  unfold kind_at, camera_of_reads. cbn [hmap objs]. intros Kc Kp Ko Kl.
  destruct (objs h c) as [bc|]; [|discriminate]. cbn in Kc |- *. inversion Kc as [Kc']. rewrite Kc'.
  destruct (objs h p) as [bp|]; [|discriminate]. cbn in Kp |- *. inversion Kp as [Kp']. rewrite Kp'.
  destruct (objs h o) as [bo|]; [|discriminate]. cbn in Ko |- *. inversion Ko as [Ko']. rewrite Ko'.
  destruct (objs h l) as [bl|]; [|discriminate]. cbn in Kl |- *. inversion Kl as [Kl']. rewrite Kl'.
  apply camera_of_ext; intros n _; rewrite ?num_q; reflexivity.
Qed.
(** All parameters set, with these values. *)
Definition vals_are (f : name -> option num) (t : list (name * Q)) : Prop :=
  Forall (fun nq => f (fst nq) = Some (litn (snd nq))) t.
Definition pv6 (fx fy cx cy w ht : Q) : list (name * Q) :=
  [("focallength_x_px", fx); ("focallength_y_px", fy); ("center_x_px", cx); ("center_y_px", cy); ("image_width_px", w); ("image_height_px", ht)].
Definition ov6 (e t r hd x y : Q) : list (name * Q) :=
  [("elevation_m", e); ("tilt_deg", t); ("roll_deg", r); ("heading_deg", hd); ("pos_x_m", x); ("pos_y_m", y)].
Definition kv3 (a b c : Q) : list (name * Q) := [("k1", a); ("k2", b); ("k3", c)].
Definition fv4 (fx fy cx cy : Q) : list (name * Q) :=
  [("focallength_x_px", fx); ("focallength_y_px", fy); ("center_x_px", cx); ("center_y_px", cy)].
Ltac vget H := unfold vals_are in H; repeat match type of H with
  | Forall _ (_ :: _) => let E := fresh "E" in let T := fresh "T" in
                         pose proof (Forall_inv H) as E; pose proof (Forall_inv_tail H) as T; cbn [fst snd] in E; clear H; rename T into H
  end; clear H.
(** A rectilinear tilt/heading camera with a Brown lens made of rationals. *)
Lemma brown_camera spline pk pv ov lv lf fx fy cx cy w ht e t r hd x y a b c gx gy dx dy :
  vals_are pv (pv6 fx fy cx cy w ht) -> vals_are ov (ov6 e t r hd x y) -> vals_are lv (kv3 a b c) -> vals_are lf (fv4 gx gy dx dy) ->
  exists m l, camera_of spline pk TiltHeading Brown pv ov lv lf =
     Some (lens_camera pk (Proj (litn fx) (litn fy) (litn cx) (litn cy) (litn w) (litn ht)) m l) /\
    l_offset l = V2 (litn dx) (litn dy) /\ l_scale l = V2 (litn gx) (litn gy) /\
    l_conv l = brown_radius (litn a) (litn b) (litn c).
Proof.
  intros HP HO HL HF. unfold pv6, ov6, kv3, fv4 in *. vget HP. vget HO. vget HL. vget HF.
  unfold camera_of, proj_of, matrix_of, lens_of.
  rewrite E, E0, E1, E2, E3, E4, E5, E6, E7, E8, E9, E10, E11, E12, E13, E14, E15, E16, E17.
  assert (RO : rep_opar (OPar (litn e) (litn t) (litn r) (litn hd) (litn x) (litn y))
                        (OPar (Q2R e) (Q2R t) (Q2R r) (Q2R hd) (Q2R x) (Q2R y))) by (repeat split).
  destruct (init_matrix_spec _ _ RO) as (m&EM&_). rewrite EM.
  eexists m, _. split; [reflexivity|]. cbn. auto.
Qed.
Lemma lit_some (x : option Q) q : x = Some q -> option_map litn x = Some (litn q).
Proof. intros ->. reflexivity. Qed.
Ltac val1 := cbn [fst snd]; try match goal with |- (if ?b then _ else _) = _ => replace b with true by (vm_compute; reflexivity); cbv iota end;
  apply lit_some;
  match goal with |- ?t = Some ?q => let v := eval vm_compute in t in match v with Some ?w => unify q w end end;
  vm_compute; reflexivity.
Ltac vals := unfold vals_are, pv6, ov6, kv3, fv4; repeat (apply Forall_cons; [val1|]); apply Forall_nil.
Lemma Q2R_Z z : Q2R (z # 1) = IZR z. Proof. unfold Q2R. cbn. lra. Qed.
Lemma no_k_radius x r : rep x r -> rep (brown_radius (litn (0#1)) (litn (0#1)) (litn (0#1)) x) r.
Proof.
  intros H. assert (Z : rep (litn (0#1)) 0%R) by (unfold litn; rewrite Q2R_Z; reflexivity).
  eapply rep_eq; [exact (rep_brown _ _ _ _ _ _ x r Z Z Z H)|]. unfold brownR. ring.
Qed.
(** Lenses without distortion but different centres differ at the first centre. *)
Lemma centre_differs pk pk' p p' m m' l l' dx dy dx' dy' gx gy gx' gy' :
  l_offset l = V2 (litn dx) (litn dy) -> l_scale l = V2 (litn gx) (litn gy) ->
  l_offset l' = V2 (litn dx') (litn dy') -> l_scale l' = V2 (litn gx') (litn gy') ->
  l_conv l' = brown_radius (litn (0#1)) (litn (0#1)) (litn (0#1)) ->
  Q2R gx <> 0%R -> Q2R gy <> 0%R -> Q2R gx' <> 0%R -> Q2R gy' <> 0%R -> Q2R dx <> Q2R dx' ->
  Some (lens_camera pk p m l) <> Some (lens_camera pk' p' m' l').
Proof.
  intros O1 S1 O2 S2 C2 N1 N2 N3 N4 ND X.
  assert (Y : distortedFromImage l (V2 (litn dx) (litn dy)) = distortedFromImage l' (V2 (litn dx) (litn dy))).
  { inversion X as [Z]. congruence. }
  assert (L1 : rep_lens l (RLens (Q2R dx) (Q2R dy) (Q2R gx) (Q2R gy))) by (unfold rep_lens; rewrite O1, S1; repeat split; auto).
  assert (L2 : rep_lens l' (RLens (Q2R dx') (Q2R dy') (Q2R gx') (Q2R gy'))) by (unfold rep_lens; rewrite O2, S2; repeat split; auto).
  assert (HQ : rep2 (V2 (litn dx) (litn dy)) (V2 (Q2R dx) (Q2R dy))) by (split; reflexivity).
  destruct (C18_centre_nan l _ _ L1 HQ) as (NN&_). rewrite NN in Y.
  set (L := RLens (Q2R dx') (Q2R dy') (Q2R gx') (Q2R gy')) in *. set (Qp := V2 (Q2R dx) (Q2R dy)) in *.
  assert (HR : (0 < radius L Qp)%R).
  { apply sqrt_lt_R0. cbn. apply Rplus_lt_le_0_compat; [|apply Rle_0_sqr]. apply Rlt_0_sqr. unfold Rdiv.
    apply Rmult_integral_contrapositive; split; [lra|apply Rinv_neq_0_compat; auto]. }
  destruct (C18_radial l' L _ _ (radius L Qp) L2 HQ HR) as (D&_).
  specialize (D (fun x Hx => eq_ind_r (fun cv => rep (cv x) (radius L Qp)) (no_k_radius x _ Hx) C2)).
  rewrite <- Y in D. destruct D as (D&_). discriminate D.
Qed.
Lemma no_raise ps : forall h qs, Forall2 (op_map litn) ps qs ->
  (fix ran h ps := match ps with [] => true | p :: ps' => snd (exec wrapq idq h p) && ran (fst (exec wrapq idq h p)) ps' end) h ps = true ->
  run wrapn litn (floats h) qs = Some (floats (hist h ps)).
Proof.
  induction ps as [|p ps IH]; intros h qs HM HC; inversion HM as [|p' q ps' qs' M1 M2]; subst; [reflexivity|].
  apply andb_prop in HC. destruct HC as (C1&C2). cbn [run hist].
  rewrite (exec_map litn wrapq wrapn idq litn wrap_map (fun q => eq_refl) p q h M1). unfold rmap. cbn [fst snd]. rewrite C1. cbn [fst snd].
  apply IH; auto.
Qed.
Ltac maps := repeat first [apply Forall2_nil | apply Forall2_cons; [econstructor|]].
(** Without the restriction on sharing, two lenses with one projection: after moving the
    centre of the first camera its own lens is out of date. *)
Definition two_lenses : list (op Q) :=
  [OProj Rectilinear pvals false; OOrient TiltHeading ovals; OLens Brown none; OLens Brown none;
   OCamera 0 1 2; OCamera 0 1 3; OSet 4 "center_x_px" (ANum (60#1)%Q)].
Theorem C37_two_lenses_refuted : exists qs h c, run wrapn litn empty qs = Some h /\
  (forall p, projection_of h c p -> unfrozen h p) /\
  forall spline, camera_in_use spline h c <> camera_of_reads spline h c.
Proof.
  eexists. exists (floats (hist empty two_lenses)), 4. split; [|split].
  - rewrite <- floats_empty. apply no_raise; [unfold two_lenses; maps|vm].
  - intros p (o&l&b&E&K). assert (p = 0). { vm_compute in E. inversion E; subst b. cbn in K. inversion K. reflexivity. } subst p.
    intros b' n E' Hn. vm_compute in E'. inversion E'; subst b'. reflexivity.
  - intros spline. rewrite (in_use_q spline _ 4 0 1 2 Rectilinear TiltHeading Brown) by vm.
    rewrite (of_reads_q spline _ 4 0 1 2 Rectilinear TiltHeading Brown) by vm.
    edestruct (brown_camera spline Rectilinear) as (m&l&EC&O1&S1&C1);
      [| | | |rewrite EC]; [vals|vals|vals|vals|].
    edestruct (brown_camera spline Rectilinear) as (m'&l'&EC'&O2&S2&C2);
      [| | | |rewrite EC']; [vals|vals|vals|vals|].
    eapply centre_differs; eauto; rewrite !Q2R_Z; lra.
Qed.
Print Assumptions C37_two_lenses_refuted.
(** One lens with two projections: the first camera works with the second centre. *)
Definition pvals2 : name -> option Q := fun n => if String.eqb n "center_x_px" then Some (60#1)%Q else pvals n.
Definition two_projections : list (op Q) :=
  [OProj Rectilinear pvals false; OProj Rectilinear pvals2 false; OOrient TiltHeading ovals; OLens Brown none;
   OCamera 0 2 3; OCamera 1 2 3].
Theorem C37_two_projections_refuted : exists qs h c, run wrapn litn empty qs = Some h /\
  (forall p, projection_of h c p -> unfrozen h p) /\
  forall spline, camera_in_use spline h c <> camera_of_reads spline h c.
Proof.
  eexists. exists (floats (hist empty two_projections)), 4. split; [|split].
  - rewrite <- floats_empty. apply no_raise; [unfold two_projections; maps|vm].
  - intros p (o&l&b&E&K). assert (p = 0). { vm_compute in E. inversion E; subst b. cbn in K. inversion K. reflexivity. } subst p.
    intros b' n E' Hn. vm_compute in E'. inversion E'; subst b'. reflexivity.
  - intros spline. rewrite (in_use_q spline _ 4 0 2 3 Rectilinear TiltHeading Brown) by vm.
    rewrite (of_reads_q spline _ 4 0 2 3 Rectilinear TiltHeading Brown) by vm.
    edestruct (brown_camera spline Rectilinear) as (m&l&EC&O1&S1&C1);
      [| | | |rewrite EC]; [vals|vals|vals|vals|].
    edestruct (brown_camera spline Rectilinear) as (m'&l'&EC'&O2&S2&C2);
      [| | | |rewrite EC']; [vals|vals|vals|vals|].
    eapply centre_differs; eauto; rewrite !Q2R_Z; lra.
Qed.
Print Assumptions C37_two_projections_refuted.
(** A projection built from a field of view: the image width in use is not the one read
    from the camera. *)
Definition frozen_brown : list (op Q) :=
  [OProj Rectilinear pvals true; OOrient TiltHeading ovals; OLens Brown none; OCamera 0 1 2; OSet 3 "image_width_px" (ANum (200#1)%Q)].
Theorem C37_frozen_refuted : exists h c, reach h /\ forall spline, camera_in_use spline h c <> camera_of_reads spline h c.
Proof.
  exists (floats (hist empty frozen_brown)), 3. split; [apply hist_reach; [unfold frozen_brown; stand|vm]|].
  intros spline. rewrite (in_use_q spline _ 3 0 1 2 Rectilinear TiltHeading Brown) by vm.
  rewrite (of_reads_q spline _ 3 0 1 2 Rectilinear TiltHeading Brown) by vm.
  edestruct (brown_camera spline Rectilinear) as (m&l&EC&_);
    [| | | |rewrite EC]; [vals|vals|vals|vals|].
  edestruct (brown_camera spline Rectilinear) as (m'&l'&EC'&_);
    [| | | |rewrite EC']; [vals|vals|vals|vals|].
  intros X. apply (f_equal (option_map (fun c => im_width (cam_proj c)))) in X. cbn in X.
  inversion X as [Y]. rewrite !Q2R_Z in Y. lra.
Qed.
Print Assumptions C37_frozen_refuted.
(** A camera whose parameters were changed through all its parts, fitted and sampled; the
    camera in use is the one read, and it is a camera. *)
Definition busy_ops : list (op Q) :=
  [OSet 3 "heading_deg" (ANum (725#1)%Q); OSet 0 "center_x_px" (APair (60#1)%Q (2#1)%Q); OSet 2 "k1" (ANum (1#10)%Q);
   ODefault 3 "tilt_deg" (Some (70#1)%Q); OSet 1 "tilt_deg" ANone; OFit (@rev cb) 3 [("focallength_px", 300#1); ("roll_deg", 2#1)]%Q;
   OSample (fun _ m _ => m + 1)%Q (fun l => l) 3].
Lemma add_pos a b : (0 < b)%R -> Fin (a + b) = (Fin a + Fin b)%num.
Proof.
  intros H. unfold nadd, look. unfold Rltb at 2. destruct (Rlt_dec b 0); [lra|]. rewrite andb_false_r. unfold mk, Reqb.
  destruct (Req_EM_T (a + b) 0) as [E|E]; [rewrite E|]; reflexivity.
Qed.
Lemma rnd_plus : rnd_map litn (fun _ m _ => m + 1)%Q (fun _ m _ => (m + Fin 1)%num).
Proof. intros n m s. unfold litn. change 1%Q with (1#1)%Q. rewrite Q2R_plus, Q2R_Z. symmetry. apply add_pos. lra. Qed.
Lemma busy_reach : reach (floats (hist (camq Brown) busy_ops)).
Proof.
  apply cam_reach; [|vm]. eexists. split.
  - unfold busy_ops. repeat first [apply Forall2_nil | apply Forall2_cons; [first [econstructor; exact rnd_plus|econstructor]|]].
  - repeat first [apply Forall_nil | apply Forall_cons; [first [exact I|exact id_order|exact rev_order]|]].
Qed.
Example C37_example : let h := floats (hist (camq Brown) busy_ops) in
  reach h /\ (forall p, projection_of h 3 p -> unfrozen h p) /\
  get_num h 3 "center_x_px" = Some (litn (61#1)) /\ get_num h 0 "focallength_y_px" = Some (litn (300#1)) /\
  get_num h 3 "tilt_deg" = Some (litn (70#1)) /\ get_num h 1 "heading_deg" = Some (litn (5#1)) /\
  forall spline, exists cam, camera_in_use spline h 3 = Some cam /\ camera_of_reads spline h 3 = Some cam.
Proof.
  intros h. split; [exact busy_reach|].
  assert (U : forall p, projection_of h 3 p -> unfrozen h p).
  { intros p (o&l&b&E&K). assert (p = 0). { unfold h in E. vm_compute in E. inversion E; subst b. cbn in K. inversion K. reflexivity. } subst p.
    intros b' n E' Hn. unfold h in E'. vm_compute in E'. inversion E'; subst b'. reflexivity. }
  split; [exact U|]. split; [unfold h; rewrite num_q; vm|]. split; [unfold h; rewrite num_q; vm|].
  split; [unfold h; rewrite num_q; vm|]. split; [unfold h; rewrite num_q; vm|].
  intros spline. rewrite <- (C37_current_values spline h 3 busy_reach U).
  unfold h. rewrite (in_use_q spline _ 3 0 1 2 Rectilinear TiltHeading Brown) by vm.
  edestruct (brown_camera spline Rectilinear) as (m&l&EC&_);
    [| | | |rewrite EC]; [vals|vals|vals|vals|]. eexists; split; reflexivity.
Qed.

(** ** C38 *)
(** The default of the tilt is read only while there is no value. *)
Example C38_example : let h := floats (hist (camq NoDist) [OSet 3 "tilt_deg" ANone]) in
  reach h /\ reads h 3 "tilt_deg" (Loc 1 "tilt_deg") /\ is_f "tilt_deg" = false /\
  exists h1, set_default wrapn h 1 "tilt_deg" (Some (litn (70#1))) = (h1, true) /\ get_num h1 3 "tilt_deg" = Some (litn (70#1)) /\
  exists h2, set_attr wrapn h1 3 "tilt_deg" (ANum (litn (60#1))) = (h2, true) /\
  exists h3, set_default wrapn h2 3 "tilt_deg" (Some (litn (50#1))) = (h3, true) /\ get_num h3 1 "tilt_deg" = Some (litn (60#1)).
Proof.
  intros h. split; [apply cam_reach; [stand|vm]|]. split; [apply reads_q; vm|]. split; [reflexivity|].
  eexists. split; [apply (default_q _ 1 "tilt_deg" (Some (70#1)%Q)); vm|]. split; [rewrite num_q; vm|].
  eexists. split; [apply (set_q _ 3 "tilt_deg" (ANum (60#1)%Q)); vm|].
  eexists. split; [apply (default_q _ 3 "tilt_deg" (Some (50#1)%Q)); vm|]. rewrite num_q; vm.
Qed.
(** False: changing the default of focallength_px while it has no value wipes the
    values the user gave the two focal lengths. *)
Theorem C38_focal_refuted : exists h o n l v h1 h2, reach h /\ reads h o n l /\
  set_attr wrapn h o n (ANum v) = (h1, true) /\ get_num h1 o n = Some v /\ defaults_run h1 h2 /\ get_num h2 o n = None.
Proof.
  exists (floats (hist (camq NoDist) [OSet 3 "focallength_px" ANone])), 3, "focallength_x_px", (Loc 0 "focallength_x_px"), (litn (300#1)).
  eexists. eexists. split; [apply cam_reach; [stand|vm]|]. split; [apply reads_q; vm|].
  split; [apply (set_q _ 3 "focallength_x_px" (ANum (300#1)%Q)); vm|]. split; [rewrite num_q; vm|].
  split; [eapply DCons; [apply (default_q _ 3 "focallength_px" (Some (400#1)%Q)); vm|apply DNil]|]. rewrite num_q; vm.
Qed.
Print Assumptions C38_focal_refuted.
(** False: a default heading out of range becomes a user value, so that the next default is ignored. *)
Theorem C38_heading_refuted : exists h o n l v h1 v2 h2, reach h /\ reads h o n l /\ value (mem h l) = None /\
  set_default wrapn h o n (Some v) = (h1, true) /\ set_default wrapn h1 o n (Some v2) = (h2, true) /\
  wrapn v2 = None /\ get_num h2 o n <> Some v2 /\ state (mem h2 l) = SUser.
Proof.
  exists (floats (camq NoDist)), 3, "heading_deg", (Loc 1 "heading_deg"), (litn (725#1)). eexists. exists (litn (10#1)). eexists.
  split; [apply (cam_reach NoDist []); [stand|vm]|]. split; [apply reads_q; vm|]. split; [vm|].
  split; [apply (default_q _ 3 "heading_deg" (Some (725#1)%Q)); vm|].
  split; [apply (default_q _ 3 "heading_deg" (Some (10#1)%Q)); vm|].
  split; [rewrite wrap_map; vm|]. split; [|vm]. rewrite num_q.
  replace (get_num _ 3 "heading_deg") with (Some (5#1)%Q) by vm. apply lit_ne. qne.
Qed.
Print Assumptions C38_heading_refuted.

(** ** C39 *)
(** The tilt drawn is the tilt read; setting back to the mean restores it. *)
Definition uncertain_ops : list (op Q) := [OSet 3 "tilt_deg" (APair (45#1)%Q (2#1)%Q); OSet 3 "heading_deg" (APair (350#1)%Q (20#1)%Q)].
Example C39_example : let h := floats (hist (camq Brown) uncertain_ops) in
  reach h /\ param_of h 3 "tilt_deg" (Loc 1 "tilt_deg") /\ ordinary h (Loc 1 "tilt_deg") /\
  mean (mem h (Loc 1 "tilt_deg")) = Some (litn (45#1)) /\
  exists h', sample wrapn (fun _ m _ => (m + Fin 1)%num) (@rev cb) h 3 = (h', true) /\ get_num h' 3 "tilt_deg" = Some (litn (46#1)) /\
  get_num h' 3 "heading_deg" = Some (litn (351#1)) /\
  exists h'', set_to_mean wrapn (fun l => l) h' 3 = (h'', true) /\ get_num h'' 1 "tilt_deg" = Some (litn (45#1)).
Proof.
  intros h. split; [apply cam_reach; [unfold uncertain_ops; stand|vm]|].
  split. { assert (RD : reads h 3 "tilt_deg" (Loc 1 "tilt_deg")) by (apply reads_q; vm). destruct RD as (b&E&_&T). exists b. split; [exact E|]. apply assoc_in. exact T. }
  split; [split; vm|]. split; [vm|].
  eexists. split; [apply (stats_q _ (fun _ m _ => m + 1)%Q _ (@rev cb) 3 rnd_plus); vm|].
  split; [rewrite num_q; vm|]. split; [rewrite num_q; vm|].
  eexists. split; [apply (stats_q _ (fun _ m _ => m)%Q _ (fun l => l) 3 (fun n m s => eq_refl)); vm|]. rewrite num_q; vm.
Qed.
(** False for the focal lengths: they are overwritten by the focallength_px of the constructor. *)
Theorem C39_focal_refuted : exists h o n l m h', reach h /\ reads h o n l /\ mean (mem h l) = Some m /\ get_num h o n = Some m /\
  set_to_mean wrapn (fun l => l) h o = (h', true) /\ get_num h' o n <> Some m.
Proof.
  exists (floats (hist (camq Brown) [OSet 3 "focallength_x_px" (APair (300#1) (10#1))%Q])), 3, "focallength_x_px",
    (Loc 0 "focallength_x_px"), (litn (300#1)). eexists.
  split; [apply cam_reach; [stand|vm]|]. split; [apply reads_q; vm|]. split; [vm|]. split; [rewrite num_q; vm|].
  split; [apply (stats_q _ (fun _ m _ => m)%Q _ (fun l => l) 3 (fun n m s => eq_refl)); vm|]. rewrite num_q.
  replace (get_num _ 3 "focallength_x_px") with (Some (100#1)%Q) by vm. apply lit_ne. qne.
Qed.
Print Assumptions C39_focal_refuted.
(** False for a heading drawn out of range: it loses its mean, which can not be restored. *)
Theorem C39_heading_refuted : exists h o l m rnd h1 h2, reach h /\ reads h o "heading_deg" l /\ mean (mem h l) = Some m /\
  sample wrapn rnd (fun l => l) h o = (h1, true) /\ mean (mem h1 l) = None /\ 
  set_to_mean wrapn (fun l => l) h1 o = (h2, true) /\ get_num h2 o "heading_deg" <> Some m.
Proof.
  exists (floats (hist (camq Brown) uncertain_ops)), 3, (Loc 1 "heading_deg"), (litn (350#1)), (fun _ m _ => (m + Fin 375)%num).
  eexists. eexists.
  split; [apply cam_reach; [unfold uncertain_ops; stand|vm]|]. split; [apply reads_q; vm|]. split; [vm|].
  split; [apply (stats_q _ (fun _ m _ => m + (375#1))%Q _ (fun l => l) 3)|].
  - intros n m s. unfold litn. rewrite Q2R_plus, Q2R_Z. symmetry. apply add_pos. lra.
  - vm.
  - split; [vm|]. split; [apply (stats_q _ (fun _ m _ => m)%Q _ (fun l => l) 3 (fun n m s => eq_refl)); vm|]. rewrite num_q.
    replace (get_num _ 3 "heading_deg") with (Some (5#1)%Q) by vm. apply lit_ne. qne.
Qed.
Print Assumptions C39_heading_refuted.

(** ** C40 *)
Example C40_example : let h := floats (camq Brown) in
  reach h /\ get_fit h 1 None = ["roll_deg"; "heading_deg"; "pos_x_m"; "pos_y_m"] /\
  get_fit h 3 (Some 2%N) = ["sensor_height_mm"; "sensor_width_mm"] /\
  exists b, objs h 3 = Some b /\ In ("roll_deg", Loc 1 "roll_deg") (table b) /\ ordinary h (Loc 1 "roll_deg") /\
    last_for (table b) (Loc 1 "roll_deg") [("roll_deg", litn (2#1)); ("nonsense", litn (1#1))] = Some (litn (2#1)) /\
  exists h', set_fit wrapn (@rev cb) h 3 [("roll_deg", litn (2#1)); ("nonsense", litn (1#1))] = (h', true) /\
    get_num h' 1 "roll_deg" = Some (litn (2#1)) /\ In "roll_deg" (get_fit h' 3 None).
Proof.
  intros h. split; [apply (cam_reach Brown []); [stand|vm]|]. split; [vm|]. split; [vm|].
  assert (RD : reads h 3 "roll_deg" (Loc 1 "roll_deg")) by (apply reads_q; vm). destruct RD as (b&E&_&T). exists b. split; [exact E|].
  split; [apply assoc_in; exact T|]. split; [split; vm|].
  split; [vm_compute in E; inversion E; subst b; vm|].
  eexists. split; [apply (fit_q _ (@rev cb) 3 [("roll_deg", 2#1); ("nonsense", 1#1)]%Q); vm|].
  split; [rewrite num_q; vm|]. rewrite get_fit_map. vm_compute. tauto.
Qed.
(** The tilt was given by the user and is not offered; a fitted focallength_px goes to both
    focal lengths; a fresh orientation offers what it was not given. *)
Example C40_more_example : let h := floats (camq Brown) in
  (exists h', set_attr wrapn h 3 "roll_deg" (ANum (litn (3#1))) = (h', true) /\ ~ In "roll_deg" (get_fit h' 3 None)) /\
  (exists h', set_fit wrapn (fun l => l) h 3 [("focallength_px", litn (300#1)); ("focallength_x_px", litn (200#1))] = (h', true) /\
     get_num h' 0 "focallength_x_px" = Some (litn (300#1)) /\ get_num h' 3 "focallength_y_px" = Some (litn (300#1))) /\
  (exists h', new_orient wrapn litn h TiltHeading (fun n => option_map litn (ovals n)) = (h', true) /\
     get_fit h' (next h) None = ["roll_deg"; "heading_deg"; "pos_x_m"; "pos_y_m"]).
Proof.
  intros h. split; [|split].
  - eexists. split; [apply (set_q (camq Brown) 3 "roll_deg" (ANum (3#1))); vm|]. rewrite get_fit_map. vm_compute. intuition discriminate.
  - eexists. split; [apply (fit_q (camq Brown) (fun l => l) 3 [("focallength_px", 300#1); ("focallength_x_px", 200#1)]%Q); vm|].
    split; rewrite num_q; vm.
  - eexists. split.
    + change (fun n => option_map litn (ovals n)) with (vmap litn ovals). unfold h.
      rewrite (new_orient_map litn wrapq wrapn (fun q => q) litn wrap_map (fun q => eq_refl)). unfold rmap.
      replace (snd (new_orient wrapq (fun q => q) (camq Brown) TiltHeading ovals)) with true by vm. reflexivity.
    + rewrite get_fit_map. vm.
Qed.
(** False for a heading fitted out of range: it counts as set by the user afterwards and is
    not fitted again. *)
Theorem C40_heading_refuted : exists h o h' v, reach h /\ In "heading_deg" (get_fit h o None) /\
  set_fit wrapn (fun l => l) h o [("heading_deg", v)] = (h', true) /\ ~ In "heading_deg" (get_fit h' o None).
Proof.
  exists (floats (camq Brown)), 3. eexists. exists (litn (725#1)). split; [apply (cam_reach Brown []); [stand|vm]|].
  split; [rewrite get_fit_map; vm_compute; tauto|].
  split; [apply (fit_q _ (fun l => l) 3 [("heading_deg", 725#1)]%Q); vm|]. rewrite get_fit_map. vm_compute.
  intros H. repeat destruct H as [H|H]; try discriminate; contradiction.
Qed.
Print Assumptions C40_heading_refuted.
(** Without the restriction on sharing the order of the callbacks matters: a group of two
    cameras with one projection and two lenses. *)
Definition shared_group : list (op Q) :=
  [OProj Rectilinear pvals false; OOrient TiltHeading ovals; OLens Brown none; OLens Brown none;
   OGroup (inl 0) (inl 1) (inr [2; 3])].
Lemma radius_axis L a d : s_x L = a -> o_x L = 50%R -> o_y L = 40%R -> (0 < a)%R -> (0 <= d)%R ->
  radius L (V2 (50 + d)%R 40%R) = (d / a)%R.
Proof.
  intros E1 E2 E3 Ha Hd. unfold radius. cbn. rewrite E1, E2, E3.
  replace (Rsqr ((50 + d - 50) / a) + Rsqr ((40 - 40) / s_y L))%R with (Rsqr (d / a)).
  - apply sqrt_Rsqr. apply Rle_mult_inv_pos; auto.
  - replace (40 - 40)%R with 0%R by ring. unfold Rdiv. rewrite Rmult_0_l, Rsqr_0. replace (50 + d - 50)%R with d by ring. ring.
Qed.
Theorem C40_order_refuted : exists qs h vals h1 h2 o c, run wrapn litn empty qs = Some h /\
  set_fit wrapn (fun l => l) h o vals = (h1, true) /\ set_fit wrapn (@rev cb) h o vals = (h2, true) /\
  forall spline, camera_in_use spline h1 c <> camera_in_use spline h2 c.
Proof.
  eexists. exists (floats (hist empty shared_group)), (lmap litn [("focallength_px", 200#1); ("C0_k1", 1#1)]%Q).
  eexists. eexists. exists 4, 5. split; [|split; [|split]].
  - rewrite <- floats_empty. apply no_raise; [unfold shared_group; maps|vm].
  - apply fit_q. vm.
  - apply fit_q. vm.
  - intros spline. rewrite (in_use_q spline _ 5 0 1 2 Rectilinear TiltHeading Brown) by vm.
    rewrite (in_use_q spline _ 5 0 1 2 Rectilinear TiltHeading Brown) by vm.
    edestruct (brown_camera spline Rectilinear) as (m&l&EC&O1&S1&C1);
      [| | | |rewrite EC]; [vals|vals|vals|vals|].
    edestruct (brown_camera spline Rectilinear) as (m'&l'&EC'&O2&S2&C2);
      [| | | |rewrite EC']; [vals|vals|vals|vals|].
    intros X.
    assert (Y : distortedFromImage l (V2 (Fin 150) (Fin 40)) = distortedFromImage l' (V2 (Fin 150) (Fin 40))) by (inversion X; congruence).
    unfold litn in O1, S1, C1, O2, S2, C2. repeat rewrite Q2R_Z in O1; repeat rewrite Q2R_Z in S1; repeat rewrite Q2R_Z in C1; repeat rewrite Q2R_Z in O2; repeat rewrite Q2R_Z in S2; repeat rewrite Q2R_Z in C2.
    assert (HQ : rep2 (V2 (Fin 150) (Fin 40)) (V2 (50 + 100)%R 40%R)) by (split; unfold rep; cbn; f_equal; lra).
    assert (L1 : rep_lens l (RLens 50 40 200 200)) by (unfold rep_lens; rewrite O1, S1; repeat split; try reflexivity; cbn [s_x s_y]; lra).
    assert (L2 : rep_lens l' (RLens 50 40 100 100)) by (unfold rep_lens; rewrite O2, S2; repeat split; try reflexivity; cbn [s_x s_y]; lra).
    assert (R1 := radius_axis (RLens 50 40 200 200) 200%R 100%R eq_refl eq_refl eq_refl ltac:(lra) ltac:(lra)).
    assert (R2 := radius_axis (RLens 50 40 100 100) 100%R 100%R eq_refl eq_refl eq_refl ltac:(lra) ltac:(lra)).
    destruct (C18_radial l _ _ _ (5/8)%R L1 HQ ltac:(rewrite R1; lra)) as (D1&_).
    destruct (C18_radial l' _ _ _ 2%R L2 HQ ltac:(rewrite R2; lra)) as (D2&_).
    assert (G1 : rep2 (distortedFromImage l (V2 (Fin 150) (Fin 40))) (radial (RLens 50 40 200 200) (5/8 / (100 / 200))%R (V2 (50 + 100)%R 40%R))).
    { rewrite <- R1. apply D1. intros x Hx. rewrite C1. rewrite R1 in Hx.
      eapply rep_eq; [exact (rep_brown _ _ _ _ _ _ _ _ (rep_Fin 1) (rep_Fin 0) (rep_Fin 0) Hx)|]. unfold brownR. field. }
    assert (G2 : rep2 (distortedFromImage l' (V2 (Fin 150) (Fin 40))) (radial (RLens 50 40 100 100) (2 / (100 / 100))%R (V2 (50 + 100)%R 40%R))).
    { rewrite <- R2. apply D2. intros x Hx. rewrite C2. rewrite R2 in Hx.
      eapply rep_eq; [exact (rep_brown _ _ _ _ _ _ _ _ (rep_Fin 1) (rep_Fin 0) (rep_Fin 0) Hx)|]. unfold brownR. field. }
    rewrite Y in G1. destruct G1 as (G1&_), G2 as (G2&_). cbn [c1 radial o_x] in G1, G2.
    pose proof (rep_inj _ _ _ G1 G2). lra.
Qed.
Print Assumptions C40_order_refuted.
