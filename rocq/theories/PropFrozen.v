(** * C57: the image size that a projection sees, over whole histories *)
Require Import Reals Lra List Bool String Arith NArith QArith Qreals Lia.
From Verif Require Import Num Projection CameraTransform Param ParamFacts ParamOps ParamSteps ParamReach ParamCam ParamLaws ParamMap PropParam PropFit.
From Verif Require Import ParamCheck ParamExamples ParamTotal PropTotal ParamSave PropSave ParamGroup PropGroup.
Import ListNotations.
Open Scope nat_scope.
Open Scope string_scope.

(** A projection's plain attributes with the names of its parameters are never written after its construction. *)
Definition own (h h' : heapn) (x : oid) : Prop :=
  forall b k, objs h x = Some b -> okd b = KProj k ->
    exists b', objs h' x = Some b' /\ okd b' = KProj k /\ forall n, In n pnames -> attrs b' n = attrs b n.
Lemma own_refl h x : own h h x. Proof. intros b k E K. exists b. auto. Qed.
Lemma own_trans h1 h2 h3 x : own h1 h2 x -> own h2 h3 x -> own h1 h3 x.
Proof.
  intros A B b k E K. destruct (A b k E K) as (b2&E2&K2&A2). destruct (B b2 k E2 K2) as (b3&E3&K3&A3).
  exists b3. split; [exact E3|split; [exact K3|]]. intros n Hn. rewrite A3, A2; auto.
Qed.
Lemma own_osim (h h' : heapn) x : (forall b, objs h x = Some b -> exists b', objs h' x = Some b' /\ okd b' = okd b /\ attrs b' = attrs b) -> own h h' x.
Proof. intros F b k E K. destruct (F b E) as (b'&E'&K'&A). exists b'. split; [exact E'|split; [congruence|]]. intros n _. rewrite A. reflexivity. Qed.
Lemma own_sim (h h' : heapn) x : sim h h' -> own h h' x.
Proof. intros S. apply own_osim. intros b E. destruct (sim_fwd _ _ _ _ S E) as (b'&E'&(K&A&_)). eauto. Qed.
Lemma own_grown (h h' : heapn) k x : grown h h' k -> own h h' x.
Proof. intros (_&_&F&_). apply own_osim. intros b E. destruct (F x b E) as (b'&E'&(K&A&_)). eauto. Qed.
Lemma own_made (h h' : heapn) c p o l x : camera_made h h' c p o l -> x <> c -> own h h' x.
Proof. intros (_&F&_) N. apply own_osim. intros b E. destruct (F x b E N) as (b'&E'&K&A&_). eauto. Qed.
Lemma own_set h o n a h' x : Inv wrapn clean h -> set_attr wrapn h o n a = (h', true) -> own h h' x.
Proof.
  intros HI HS. destruct (set_attr_cases wrapn wrapn_ok h o n a h' clean HI HS) as [S|(b&E&T&->)]; [apply own_sim, S|].
  intros b0 k E0 K0. cbn [objs set_obj]. destruct (Nat.eqb_spec x o) as [->|N]; [|exists b0; auto].
  rewrite E in E0; inversion E0; subst b0. eexists. split; [reflexivity|]. split; [exact K0|]. intros m Hm. cbn [attrs add_attr].
  destruct (String.eqb_spec m n) as [->|]; [|reflexivity]. exfalso. apply (attr_fresh_names wrapn clean h o b n HI E T). rewrite K0. exact Hm.
Qed.
Lemma own_set_all c vars x : forall h h', Inv wrapn clean h -> set_all wrapn h c vars = (h', true) -> own h h' x.
Proof.
  induction vars as [|[n a] vars IH]; intros h h' HI HR; [inversion HR; subst; apply own_refl|].
  cbn [set_all] in HR. apply bind_ok in HR. destruct HR as (h1&E1&HR).
  eapply own_trans; [eapply own_set; eauto|]. eapply IH; [|exact HR]. eapply Inv_set_attr; eauto using wrapn_ok.
Qed.
Lemma exec_own h p h' x : reach h -> op_ok h p -> exec wrapn litn h p = (h', true) -> own h h' x.
Proof.
  intros HRc HO HR. destruct (reach_inv h HRc) as (HI&HC). assert (NC : forall x, ~ clean x) by (intros y []).
  destruct (objs h x) as [b0|] eqn:E0; [|intros b k E; congruence]. assert (LX : x < next h) by (eapply Inv_objs_lt; eauto).
  destruct p as [k vals|k vals fr|k vals|p o l|pa oa la|o n a|o n v|ord o vals|rnd ord o|ord o|c f]; cbn [Param.exec op_ok] in *.
  - eapply own_grown, new_orient_grown; eauto using wrapn_ok.
  - eapply own_grown, new_proj_grown; eauto.
  - eapply own_grown, new_lens_grown; eauto using wrapn_ok.
  - destruct HO as (_&_&SH). destruct (Inv_new_camera wrapn litn wrapn_ok clean h p o l h' HI SH HR) as (_&CM).
    intros b k E K. apply (own_made (reserve h) h' (next h) p o l x CM) with (b := b); auto. lia.
  - destruct HO as (_&HG). unfold new_group in HR. set (n := group_size _) in *. unfold group_ok in HG. fold n in HG.
    destruct (make_cameras wrapn litn (reserve h) 0 n (comp_list pa) (comp_list oa) (comp_list la)) as [[h1 []] cs] eqn:EM; [|discriminate].
    inversion HR; subst h'. clear HR.
    destruct (make_cameras_Inv wrapn litn wrapn_ok n clean (reserve h) 0 _ _ _ _ h1 cs (Inv_reserve wrapn clean h HI) HG (incl_refl _) EM) as (_&(_&F&_)).
    apply own_osim. intros b E. destruct (F x b E) as (b'&E'&K&A). exists b'. split; [|auto].
    cbn [objs set_obj]. destruct (Nat.eqb_spec x (next h)); [lia|exact E'].
  - eapply own_set; eauto.
  - apply own_sim. eapply set_default_sim; eauto using wrapn_ok.
  - destruct (objs h o) as [b|] eqn:E; [|unfold set_fit in HR; rewrite E in HR; discriminate].
    destruct (set_fit_spec wrapn wrapn_ok ord clean h o vals h' b HO HI NC E HR) as (?&?&A&S&_). apply own_sim; exact S.
  - destruct (objs h o) as [b|] eqn:E; [|unfold sample, stats_op in HR; rewrite E in HR; discriminate].
    destruct (stats_spec wrapn wrapn_ok rnd ord clean h o h' b HO HI NC E HR) as (?&?&A&S&_). apply own_sim; exact S.
  - destruct (objs h o) as [b|] eqn:E; [|unfold set_to_mean, stats_op in HR; rewrite E in HR; discriminate].
    destruct (stats_spec wrapn wrapn_ok (fun _ m _ => m) ord clean h o h' b HO HI NC E HR) as (?&?&A&S&_). apply own_sim; exact S.
  - destruct HO as (b&p&o&l&E&K&NS). unfold load in HR. rewrite E in HR.
    assert (NB : not_base h c). { intros b' E'. rewrite E in E'; inversion E'; subst. rewrite K. intros X; exact X. }
    assert (LT : c < next h) by (eapply Inv_objs_lt; eauto).
    destruct (Nat.eq_dec x c) as [->|XC]; [intros b1 k E1 K1; congruence|].
    destruct (load_steps wrapn litn wrapn_ok clean h c (attrs b) f h' HI NB LT HR) as
      (h1&h2&h3&h4&E1&E2&E3&E4&E5&I3&SH&NB3&LT3&I4&CM&N1&N2&N3&G1&G2&G3).
    eapply own_trans; [eapply own_grown; exact G1|]. eapply own_trans; [eapply own_grown; exact G2|].
    eapply own_trans; [eapply own_grown; exact G3|]. eapply own_trans; [eapply own_made; [exact CM|exact XC]|].
    eapply own_set_all; eauto.
Qed.
Lemma later_own P h h' x : reach h -> later P h h' -> own h h' x.
Proof.
  intros HR HL. induction HL as [h|h h1 p h2 HL IH HO HPp HE]; [apply own_refl|].
  eapply own_trans; [exact (IH HR)|]. eapply exec_own; eauto. eapply later_reach; eauto.
Qed.

(** Built from a view angle, the projection sees the image size of its construction, whatever is done afterwards: no
    assignment, default, fit, sample or file changes it. *)
Theorem C57_frozen_for_ever P h k vals h1 h2 w t : reach h -> exec wrapn litn h (OProj k vals true) = (h1, true) ->
  vals "image_width_px" = Some w -> vals "image_height_px" = Some t -> later P h1 h2 ->
  get_num h2 (next h) "image_width_px" = Some w /\ get_num h2 (next h) "image_height_px" = Some t.
Proof.
  intros HR HE EW ET HL. assert (HR1 : reach h1) by (eapply Rstep; eauto; exact I).
  cbn [Param.exec] in HE. unfold new_proj in HE. destruct (forallb _ _); [|discriminate]. inversion HE; subst h1. clear HE.
  destruct (later_own P _ h2 (next h) HR1 HL _ k (alloc_obj _ _ _ _ _)) as (b'&E'&_&A); [reflexivity|].
  assert (G : forall n, In n ["image_width_px"; "image_height_px"] -> attrs b' n = Some (of_opt (vals n))).
  { intros n Hn. rewrite A; [|destruct Hn as [<-|[<-|[]]]; cbn; tauto]. cbn [attrs]. destruct Hn as [<-|[<-|[]]]; reflexivity. }
  unfold get_num, get_attr. rewrite E', (G "image_width_px"), (G "image_height_px"), EW, ET by (cbn; tauto). auto.
Qed.
Print Assumptions C57_frozen_for_ever.
(** Built without one, it never hides a parameter, so that C37_current_values, C38, C77 and the others that ask for
    [unfrozen] apply in every later state. *)
Theorem C57_never_frozen P h k vals h1 h2 : reach h -> exec wrapn litn h (OProj k vals false) = (h1, true) -> later P h1 h2 -> unfrozen h2 (next h).
Proof.
  intros HR HE HL. assert (HR1 : reach h1) by (eapply Rstep; eauto; exact I).
  cbn [Param.exec] in HE. unfold new_proj in HE. destruct (forallb _ _); [|discriminate]. inversion HE; subst h1. clear HE.
  destruct (later_own P _ h2 (next h) HR1 HL _ k (alloc_obj _ _ _ _ _)) as (b'&E'&_&A); [reflexivity|].
  intros b n E Hn. rewrite E' in E; inversion E; subst b. rewrite A by exact Hn. reflexivity.
Qed.
Print Assumptions C57_never_frozen.

(** ** Examples *)
Lemma later_step (P : op num -> Prop) (h h1 h2 : heapn) p : op_ok h p -> P p -> exec wrapn litn h p = (h1, true) -> later P h1 h2 -> later P h h2.
Proof.
  intros HO HP HE HL. induction HL as [h1|h1 ha q hb HL IH Ho Hp He].
  - eapply Lstep; [apply Lrefl|exact HO|exact HP|exact HE].
  - eapply Lstep; [apply IH; exact HE|exact Ho|exact Hp|exact He].
Qed.
Lemma hist_later ps : forall h, stands ps -> reach (floats h) -> checked h ps = true -> later anything (floats h) (floats (hist h ps)).
Proof.
  induction ps as [|p ps IH]; intros h (qs&HM&HO) HR HC; [apply Lrefl|].
  inversion HM as [|p' q ps' qs' M1 M2]; subst. inversion HO as [|q' qs'' O1 O2]; subst.
  cbn [checked] in HC. apply andb_prop in HC. destruct HC as (HC&C3). apply andb_prop in HC. destruct HC as (C1&C2).
  assert (OK : op_ok (floats h) q).
  { destruct (reach_inv _ HR) as (HI&_). apply op_okb_ok; auto.
    - intros x b E. exact (Inv_objs_lt wrapn clean _ HI x b E).
    - rewrite (okb_map h p q M1). exact C1. }
  assert (EX : exec wrapn litn (floats h) q = (floats (fst (exec wrapq idq h p)), true)).
  { rewrite (exec_map litn wrapq wrapn idq litn wrap_map (fun q => eq_refl) p q h M1). unfold rmap. rewrite C2. reflexivity. }
  cbn [hist]. eapply later_step; [exact OK|exact I|exact EX|]. apply IH; [exists qs'; auto| |exact C3]. eapply Rstep; [exact HR|exact OK|exact EX].
Qed.
(** A projection built from a view angle, 100 x 80 pixels, then a camera through which both sizes are changed: the camera
    reads the new sizes, the projection the old ones. *)
Definition busy_view : list (op Q) :=
  [OOrient TiltHeading ovals; OLens Brown none; OCamera 0 1 2; OSet 3 "image_width_px" (ANum (200#1)%Q);
   OSet 0 "image_height_px" (ANum (300#1)%Q); ODefault 3 "image_height_px" (Some (70#1)%Q); OFit (@rev cb) 3 [("image_width_px", 500#1)]%Q].
Definition view_alone (b : bool) : heap Q := hist empty [OProj Rectilinear pvals b].
Lemma view_alone_reach b : reach (floats (view_alone b)).
Proof. apply hist_reach; [unfold view_alone; stand|destruct b; vm]. Qed.
Lemma view_exec b : exec wrapn litn (@empty num) (OProj Rectilinear (fun n => option_map litn (pvals n)) b) = (floats (view_alone b), true).
Proof.
  rewrite <- floats_empty. rewrite (exec_map litn wrapq wrapn idq litn wrap_map (fun q => eq_refl) (OProj Rectilinear pvals b) _ empty) by (destruct b; constructor).
  destruct b; reflexivity.
Qed.
Example C57_frozen_example : let h := floats (hist (view_alone true) busy_view) in
  reach (@empty num) /\ later anything (floats (view_alone true)) h /\ next (@empty num) = 0 /\
  get_num h 0 "image_width_px" = Some (litn (100#1)) /\ get_num h 0 "image_height_px" = Some (litn (80#1)) /\
  get_num h 3 "image_width_px" = Some (litn (500#1)) /\ get_num h 3 "image_height_px" = Some (litn (300#1)).
Proof.
  intros h. split; [apply Rempty|]. assert (HL : later anything (floats (view_alone true)) h) by (apply hist_later; [unfold busy_view; stand|apply view_alone_reach|vm]).
  split; [exact HL|split; [reflexivity|]].
  destruct (C57_frozen_for_ever anything empty Rectilinear _ _ h (litn (100#1)) (litn (80#1)) (Rempty _ _) (view_exec true) eq_refl eq_refl HL) as (A&B).
  split; [exact A|split; [exact B|]]. unfold h. split; rewrite num_q; vm.
Qed.
Example C57_never_frozen_example : let h := floats (hist (view_alone false) busy_view) in
  unfrozen h 0 /\ get_num h 0 "image_width_px" = Some (litn (500#1)).
Proof.
  intros h. split; [|unfold h; rewrite num_q; vm].
  apply (C57_never_frozen anything empty Rectilinear _ _ h (Rempty _ _) (view_exec false)).
  apply hist_later; [unfold busy_view; stand|apply view_alone_reach|vm].
Qed.
