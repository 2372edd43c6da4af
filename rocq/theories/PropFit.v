(** * Properties C39 and C40: uncertain parameters and fits *)
Require Import Reals Lra List Bool String Arith NArith QArith Qreals Lia.
From Verif Require Import Num Vec Orientation Projection Ray CameraTransform Lens OrientationFacts.
From Verif Require Import Param ParamFacts ParamOps ParamSteps ParamReach ParamCam ParamLaws PropParam.
Import ListNotations.
Open Scope nat_scope.
Open Scope string_scope.

Implicit Types h : heapn.
(** The parameters with special rules: the wrapped angle of an orientation, and the two
    focal lengths of a projection. *)
Definition ordinary h (l : loc) : Prop := wrapped_loc h l = false /\ (proj_loc h l && is_f (l_name l)) = false.
(** [l] is a parameter of [o] (under some name). *)
Definition param_of h (o : oid) (n : name) (l : loc) : Prop := exists b, objs h o = Some b /\ In (n, l) (table b).
Definition distinct_names h (o : oid) : Prop :=
  forall b, objs h o = Some b -> NoDup (map snd (table b)).

Lemma last_name_in l (t : list (name * loc)) n : last_name l t = Some n -> In (n, l) t.
Proof.
  induction t as [|[m x] t IH]; [discriminate|]. cbn [last_name]. destruct (last_name l t) as [k|].
  - intros X; inversion X; subst. right; auto.
  - destruct (loc_eqb_spec x l) as [->|N]; [|discriminate]. intros X; inversion X; subst. left; auto.
Qed.
Lemma drawn_mean f t h x m s : mean (mem h x) = Some m -> std (mem h x) = s -> (exists n, In (n, x) t) ->
  exists n, In (n, x) t /\ drawn f t h x = with_value (Some (f n m s)) (mem h x).
Proof.
  intros HM HS HE. unfold drawn. destruct (last_name x t) as [n|] eqn:E.
  - exists n. split; [apply last_name_in; exact E|]. unfold stat_param. rewrite HM, HS. reflexivity.
  - exfalso. apply last_name_hit in HE. congruence.
Qed.
(** ** C39 *)
(** Whatever the random draws and the order of the callbacks: a sampled parameter reads
    its draw, keeps mean and standard deviation, ... *)
Theorem C39_sample rnd ord h o h' n l m s : reach h -> is_order ord -> sample wrapn rnd ord h o = (h', true) ->
  param_of h o n l -> ordinary h l -> mean (mem h l) = Some m -> std (mem h l) = s ->
  exists n', param_of h o n' l /\ rdl h' l = Some (rnd n' m s) /\ mean (mem h' l) = Some m /\ std (mem h' l) = s.
Proof.
  intros HR HO HS (b&E&HP) (HW&HF) HM HSd. destruct (reach_inv h HR) as (HI&_).
  destruct (stats_mem wrapn wrapn_ok rnd ord h o h' b HO HI E HS) as (_&M).
  destruct (drawn_mean rnd (table b) h l m s HM HSd) as (n'&Hn&D); [exists n; exact HP|].
  exists n'. split; [exists b; auto|]. unfold rdl. rewrite M. unfold settled. rewrite HW, HF. cbn [andb]. rewrite D.
  cbn. rewrite HM, HSd. auto.
Qed.
Print Assumptions C39_sample.
(** ... a sampled angle reads its draw brought into range, ... *)
Theorem C39_sample_angle rnd ord h o h' n l m s : reach h -> is_order ord -> sample wrapn rnd ord h o = (h', true) ->
  param_of h o n l -> wrapped_loc h l = true -> mean (mem h l) = Some m -> std (mem h l) = s ->
  exists n', param_of h o n' l /\ rdl h' l = Some (wrap_heading (rnd n' m s)) /\
    (wrapn (rnd n' m s) = None -> mean (mem h' l) = Some m /\ std (mem h' l) = s).
Proof.
  intros HR HO HS (b&E&HP) HW HM HSd. destruct (reach_inv h HR) as (HI&_).
  destruct (stats_mem wrapn wrapn_ok rnd ord h o h' b HO HI E HS) as (_&M).
  destruct (drawn_mean rnd (table b) h l m s HM HSd) as (n'&Hn&D); [exists n; exact HP|].
  exists n'. split; [exists b; auto|]. unfold rdl. rewrite M. unfold settled. rewrite HW, D. rewrite rd_norm.
  split; [reflexivity|]. intros W. unfold norm; cbn [rd value with_value]. rewrite W. cbn. rewrite HM, HSd. auto.
Qed.
Print Assumptions C39_sample_angle.
(** ... and a parameter without mean is left alone. *)
Theorem C39_sample_only rnd ord h o h' l : reach h -> is_order ord -> sample wrapn rnd ord h o = (h', true) ->
  mean (mem h l) = None -> (proj_loc h l && is_f (l_name l)) = false -> mem h' l = mem h l.
Proof.
  intros HR HO HS HM HF. destruct (reach_inv h HR) as (HI&_). pose proof HS as HS'. unfold sample, stats_op in HS'.
  destruct (objs h o) as [b|] eqn:E; [|discriminate].
  destruct (stats_mem wrapn wrapn_ok rnd ord h o h' b HO HI E HS) as (_&M).
  assert (D : drawn rnd (table b) h l = mem h l).
  { unfold drawn, stat_param. destruct (last_name l (table b)); auto. rewrite HM. reflexivity. }
  rewrite M. unfold settled. rewrite HF, D. cbn [andb]. destruct (wrapped_loc h l) eqn:HW; auto.
  apply clean_norm; auto.
Qed.
Print Assumptions C39_sample_only.
(** The focal lengths always follow focallength_px if the object has it as a parameter. *)
Theorem C39_focal_follows rnd ord h o h' n l p fn : reach h -> is_order ord -> sample wrapn rnd ord h o = (h', true) ->
  param_of h o n l -> l = Loc p "focallength_px" -> In fn ["focallength_x_px"; "focallength_y_px"] ->
  value (mem h' (Loc p fn)) = value (mem h' l).
Proof.
  intros HR HO HS (b&E&HP) -> Hf. destruct (reach_inv h HR) as (HI&_).
  destruct (stats_mem wrapn wrapn_ok rnd ord h o h' b HO HI E HS) as (_&M).
  assert (HV : valid h (Loc p "focallength_px")) by (eapply table_valid_in; eauto).
  destruct HV as (bp&Ep&Hn). cbn [l_owner l_name] in Ep, Hn.
  assert (PK : exists k, okd bp = KProj k).
  { destruct (okd bp) as [k|k|k| | |]; eauto; exfalso; try (destruct k); cbn in Hn; repeat destruct Hn as [Hn|Hn]; try discriminate; contradiction. }
  destruct PK as (k&K).
  assert (HL : last_name (Loc p "focallength_px") (table b) <> None) by (apply last_name_hit; exists n; exact HP).
  rewrite (M (Loc p fn)), (M (Loc p "focallength_px")).
  unfold settled, wrapped_loc, proj_loc. cbn [l_owner l_name]. rewrite Ep, K.
  assert (F1 : is_f fn = true) by (destruct Hf as [<-|[<-|[]]]; reflexivity). rewrite F1.
  change (is_f "focallength_px") with false. cbn [andb].
  destruct (last_name (Loc p "focallength_px") (table b)); [reflexivity|congruence].
Qed.
Print Assumptions C39_focal_follows.
(** set_to_mean after any number of samples reads exactly the means. *)
Inductive samples (o : oid) : heapn -> heapn -> Prop :=
| SNil h : samples o h h
| SCons h rnd ord h1 h2 : is_order ord -> sample wrapn rnd ord h o = (h1, true) -> samples o h1 h2 -> samples o h h2.
Lemma sample_step rnd ord h o h1 : reach h -> is_order ord -> sample wrapn rnd ord h o = (h1, true) -> reach h1 /\ sim h h1.
Proof.
  intros HR HO HS. split; [eapply (Rstep wrapn litn h (OSample rnd ord o)); [exact HR|exact HO|exact HS]|].
  destruct (reach_inv h HR) as (HI&_). pose proof HS as HS'. unfold sample, stats_op in HS'.
  destruct (objs h o) as [b|] eqn:E; [|discriminate]. destruct (stats_mem wrapn wrapn_ok rnd ord h o h1 b HO HI E HS) as (S&_). exact S.
Qed.
Lemma param_of_sim h h' o n l : sim h h' -> param_of h o n l -> param_of h' o n l.
Proof. intros S (b&E&H). destruct (sim_fwd _ _ _ _ S E) as (b'&E'&(_&_&T&_)). exists b'. rewrite T. auto. Qed.
Lemma wrapped_sim h h' l : sim h h' -> wrapped_loc h' l = wrapped_loc h l /\ proj_loc h' l = proj_loc h l.
Proof.
  intros (_&S). specialize (S (l_owner l)). unfold wrapped_loc, proj_loc.
  destruct (objs h (l_owner l)) as [b|], (objs h' (l_owner l)) as [b'|]; try contradiction; auto.
  destruct S as (K&_). rewrite K. auto.
Qed.
Theorem C39_set_to_mean ord h o h1 h2 n l m : reach h -> is_order ord -> samples o h h1 -> set_to_mean wrapn ord h1 o = (h2, true) ->
  param_of h o n l -> ordinary h l -> mean (mem h l) = Some m -> rdl h2 l = Some m.
Proof.
  intros HR HO HSs HS HP HOr HM.
  assert (X : reach h1 /\ param_of h1 o n l /\ ordinary h1 l /\ mean (mem h1 l) = Some m).
  { clear HS. induction HSs as [g|g rnd ord' g1 g2 HO' HS' HSs IH]; [auto|].
    destruct (sample_step rnd ord' g o g1 HR HO' HS') as (R1&S1).
    destruct (C39_sample rnd ord' g o g1 n l m _ HR HO' HS' HP HOr HM eq_refl) as (n'&_&_&M1&_).
    apply IH; auto.
    - eapply param_of_sim; eauto.
    - destruct (wrapped_sim g g1 l S1) as (W&P). unfold ordinary. rewrite W, P. exact HOr. }
  destruct X as (R1&P1&O1&M1). unfold set_to_mean in HS.
  destruct (C39_sample (fun _ m _ => m) ord h1 o h2 n l m _ R1 HO HS P1 O1 M1 eq_refl) as (n'&_&Rd&_). exact Rd.
Qed.
Print Assumptions C39_set_to_mean.

(** ** C40 *)
(** What get_fit_parameters may return, stated on the history: a parameter the user has
    assigned (not None) is not offered under any of its names ... *)
Theorem C40_user_set_not_offered h o n l v h' o' n' mask : reach h -> writes h o n l ->
  set_attr wrapn h o n (ANum v) = (h', true) -> (forall x, param_of h' o' n' x -> x = l) -> ~ In n' (get_fit h' o' mask).
Proof.
  intros HR HW HS HN. destruct (reach_inv h HR) as (HI&_).
  destruct (set_attr_mem wrapn wrapn_ok h o n (ANum v) l h' HI HW HS) as (S&M&_).
  assert (ST : state (mem h' l) = SUser /\ value (mem h' l) <> None).
  { rewrite M. destruct (wrapped_loc h l); [|split; [reflexivity|discriminate]].
    unfold norm; cbn [rd value assign]. destruct (wrapn v); split; try reflexivity; discriminate. }
  unfold get_fit. destruct (objs h' o') as [b|] eqn:E; [|intros []]. intros HIn. apply in_map_iff in HIn.
  destruct HIn as ((m&x)&Em&HIn). cbn [fst] in Em. subst m. apply filter_In in HIn. destruct HIn as (HIn&HB).
  assert (x = l) by (apply HN; exists b; auto). subst x. cbn [snd] in HB. apply andb_prop in HB. destruct HB as (_&HB).
  destruct ST as (ST1&ST2). rewrite ST1 in HB. cbn [orb] in HB. destruct (value (mem h' l)); [discriminate|congruence].
Qed.
Print Assumptions C40_user_set_not_offered.
(** ... parameters of a new object that were not given are offered, those given are not, in
    the order of the constructor, ... *)
Lemma get_fit_fresh h k (vals : name -> option num) at_ :
  get_fit (alloc litn h k vals at_) (next h) None = filter (fun n => negb (is_some (vals n))) (base_names k).
Proof.
  unfold get_fit. rewrite alloc_obj. cbn [table]. unfold self_table.
  induction (base_names k) as [|n t IH]; [reflexivity|]. cbn [map filter fst snd].
  unfold alloc at 1 2. cbn [mem l_owner l_name]. rewrite Nat.eqb_refl. cbn [state value ptype andb].
  destruct (vals n) as [v|]; cbn [is_some negb orb]; [exact IH|]. cbn [map fst]. f_equal. exact IH.
Qed.
Theorem C40_new_orientation h k vals h' : reach h -> new_orient wrapn litn h k vals = (h', true) ->
  (forall v, vals (wrapped_name k) = Some v -> wrapn v = None) ->
  get_fit h' (next h) None = filter (fun n => negb (is_some (vals n))) (onames k).
Proof.
  intros HR HS HV. destruct (reach_inv h HR) as (HI&_). change (onames k) with (base_names (KOrient k)). rewrite <- (get_fit_fresh h (KOrient k) vals no_attrs).
  assert (R1 := HS). unfold new_orient in HS.
  set (h0 := alloc litn h (KOrient k) vals no_attrs) in *.
  assert (E0 : exists b, objs h0 (next h) = Some b /\ okd b = KOrient k) by (eexists; split; [apply alloc_obj|reflexivity]).
  assert (OA : orient_at h0 (next h) k) by exact E0.
  assert (I0 : Inv wrapn (fun x => x = next h) h0).
  { eapply Inv_weaken; [|apply (Inv_alloc wrapn litn clean h (KOrient k) vals no_attrs HI); try exact I].
    - intros x [[]|X]; exact X.
    - intros n Hn _. reflexivity. }
  assert (OK : forall c, In c [CbOrient (next h)] -> cb_ok h0 c) by (intros c [<-|[]]; exists k; exact OA).
  assert (HC : calls wrapn h0 [CbOrient (next h)] = (h', true)).
  { rewrite calls_cons, HS. reflexivity. }
  destruct (calls_spec wrapn wrapn_ok _ _ _ _ I0 OK HC) as (_&M&S).
  assert (MM : forall x, mem h' x = mem h0 x).
  { intros x. rewrite M. unfold posts. destruct (objs h0 (l_owner x)) as [b|] eqn:E; auto. destruct (okd b) as [|k'| | | |] eqn:K; auto.
    - cbn [hit existsb cb_eqb orb]. rewrite andb_false_r. reflexivity.
    - destruct (String.eqb_spec (l_name x) (wrapped_name k')) as [En|]; auto. cbn [andb hit existsb cb_eqb orb].
      destruct (Nat.eqb_spec (l_owner x) (next h)) as [Ex|]; [|reflexivity]. cbn [orb].
      assert (k' = k). { destruct OA as (bo&Eo&Ko). rewrite Ex, Eo in E. inversion E; subst b. congruence. } subst k'.
      unfold h0. cbn [alloc mem]. rewrite Ex, Nat.eqb_refl, En. unfold norm, rd; cbn [value default].
      destruct (vals (wrapped_name k)) as [v|] eqn:Ev.
      + rewrite (HV v eq_refl). reflexivity.
      + assert (D : wrapn (litn (0 # 1)) = None) by (apply wrapn_fin; unfold Q2R; cbn; lra).
        destruct k; cbn [wrapped_name default_of assoc String.eqb]; cbn; rewrite ?D; reflexivity. }
  unfold get_fit. destruct S as (_&S). specialize (S (next h)).
  destruct (objs h0 (next h)) as [b0|], (objs h' (next h)) as [b'|]; try contradiction; auto.
  destruct S as (_&_&T&_). rewrite T. f_equal. apply filter_ext. intros [m x]. cbn [snd]. rewrite MM. reflexivity.
Qed.
Print Assumptions C40_new_orientation.
(** ... and a fitted parameter stays on offer (unless it is an angle out of range). *)
Theorem C40_fitted_offered ord h o vals h' b n l : reach h -> is_order ord -> objs h o = Some b ->
  set_fit wrapn ord h o vals = (h', true) -> In (n, l) (table b) -> ordinary h l ->
  last_for (table b) l vals <> None -> In n (get_fit h' o None) /\ state (mem h' l) = SFit.
Proof.
  intros HR HO E HS Hin (HW&HF) HL. destruct (reach_inv h HR) as (HI&_).
  destruct (set_fit_mem wrapn wrapn_ok ord h o vals h' b HO HI E HS) as (S&M).
  assert (ST : state (mem h' l) = SFit).
  { rewrite M. unfold settled, fitted. rewrite HW, HF. cbn [andb]. destruct (last_for (table b) l vals); [reflexivity|congruence]. }
  split; [|exact ST]. unfold get_fit. destruct (sim_fwd _ _ _ _ S E) as (b'&E'&(_&_&T&_)). rewrite E'. apply in_map_iff.
  exists (n, l). split; [reflexivity|]. apply filter_In. rewrite T. split; [exact Hin|]. cbn [snd]. rewrite ST. reflexivity.
Qed.
Print Assumptions C40_fitted_offered.
(** set_fit_parameters writes the given known names, the last one if several names denote
    one parameter, and nothing else. *)
Theorem C40_set_fit ord h o vals h' b o' n' l : reach h -> is_order ord -> objs h o = Some b ->
  set_fit wrapn ord h o vals = (h', true) -> reads h o' n' l -> (proj_loc h l && is_f (l_name l)) = false ->
  get_num h' o' n' = match last_for (table b) l vals with Some v => Some (in_range h l v) | None => get_num h o' n' end.
Proof.
  intros HR HO E HS HRd HF. destruct (reach_inv h HR) as (HI&_).
  destruct (set_fit_mem wrapn wrapn_ok ord h o vals h' b HO HI E HS) as (S&M).
  rewrite (reads_num h' o' n' l) by (eapply reads_sim; eauto). rewrite (reads_num h o' n' l HRd). unfold rdl. rewrite M.
  unfold settled, fitted, in_range. rewrite HF. cbn [andb]. destruct (last_for (table b) l vals) as [v|] eqn:EL.
  - destruct (wrapped_loc h l) eqn:HW; [rewrite rd_norm|]; reflexivity.
  - destruct (wrapped_loc h l) eqn:HW; [rewrite (clean_norm wrapn h l HI HW)|]; reflexivity.
Qed.
Print Assumptions C40_set_fit.
(** The focal lengths: focallength_px, if given, wins. *)
Theorem C40_set_fit_focal ord h o vals h' b o' p fn k : reach h -> is_order ord -> objs h o = Some b -> proj_at h p k ->
  set_fit wrapn ord h o vals = (h', true) -> In fn ["focallength_x_px"; "focallength_y_px"] -> reads h o' fn (Loc p fn) ->
  get_num h' o' fn = match last_for (table b) (Loc p "focallength_px") vals with
                     | Some v => Some v
                     | None => match last_for (table b) (Loc p fn) vals with Some v => Some v | None => get_num h o' fn end
                     end.
Proof.
  intros HR HO E (bp&Ep&Kp) HS Hf HRd. destruct (reach_inv h HR) as (HI&_).
  destruct (set_fit_mem wrapn wrapn_ok ord h o vals h' b HO HI E HS) as (S&M).
  rewrite (reads_num h' o' fn (Loc p fn)) by (eapply reads_sim; eauto). rewrite (reads_num h o' fn _ HRd). unfold rdl. rewrite M.
  unfold settled, fitted, wrapped_loc, proj_loc. cbn [l_owner l_name]. rewrite Ep, Kp.
  assert (F1 : is_f fn = true) by (destruct Hf as [<-|[<-|[]]]; reflexivity). rewrite F1. cbn [andb].
  destruct (last_for (table b) (Loc p "focallength_px") vals) as [v|]; [reflexivity|].
  destruct (last_for (table b) (Loc p fn) vals); reflexivity.
Qed.
Print Assumptions C40_set_fit_focal.
(** The iteration order of the callback set does not matter: if one order succeeds so does
    any other, every attribute of every object then reads the same, and every camera
    transforms the same. *)
Lemma same_derived spline h1 h2 c : Inv wrapn clean h1 -> CamInv h1 -> Inv wrapn clean h2 -> sim h1 h2 -> (forall x, rdl h2 x = rdl h1 x) ->
  camera_in_use spline h1 c = camera_in_use spline h2 c.
Proof.
  intros I1 C1 I2 S RD.
  assert (C2 : CamInv h2) by (eapply CamInv_sim; eauto).
  unfold camera_in_use. pose proof S as (_&SO). pose proof (SO c) as Sc.
  destruct (objs h1 c) as [b|] eqn:E, (objs h2 c) as [b'|] eqn:E'; try contradiction; [|reflexivity].
  destruct Sc as (Kc&_). rewrite Kc. destruct (okd b) as [| | | |p o l|] eqn:K; try reflexivity.
  pose proof (SO p) as Sp. pose proof (SO o) as So. pose proof (SO l) as Sl.
  destruct (objs h1 p) as [bp|] eqn:Ep, (objs h2 p) as [bp'|] eqn:Ep'; try contradiction; [|reflexivity].
  destruct (objs h1 o) as [bo|] eqn:Eo, (objs h2 o) as [bo'|] eqn:Eo'; try contradiction; [|reflexivity].
  destruct (objs h1 l) as [bl|] eqn:El, (objs h2 l) as [bl'|] eqn:El'; try contradiction; [|reflexivity].
  destruct Sp as (Kp&_), So as (Ko&_), Sl as (Kl&_&_&Ll). rewrite Kp, Ko, Kl.
  destruct (okd bp) as [pk| | | | |] eqn:Qp; try reflexivity. destruct (okd bo) as [|k| | | |] eqn:Qo; try reflexivity.
  destruct (okd bl) as [| |lk| | |] eqn:Ql; try reflexivity.
  apply camera_of_ext.
  - intros n _. unfold get_num. rewrite (get_attr_same h1 h2 p n S RD). reflexivity.
  - intros n Hn. destruct (I1 o bo Eo) as (_&_&F1). destruct (I2 o bo' Eo') as (_&_&F2). specialize (F1 (fun X => X)). specialize (F2 (fun X => X)).
    unfold fresh in F1, F2. rewrite Ko in F2. rewrite Qo in F1. destruct F1 as (F1&_), F2 as (F2&_). rewrite F1, F2, RD by exact Hn. reflexivity.
  - intros n Hn. destruct (I1 l bl El) as (_&_&F1). destruct (I2 l bl' El') as (_&_&F2). specialize (F1 (fun X => X)). specialize (F2 (fun X => X)).
    unfold fresh in F1, F2. rewrite Kl in F2. rewrite Ql in F1. destruct F1 as (F1&_), F2 as (F2&_). rewrite F1, F2, RD by exact Hn. reflexivity.
  - intros n X. destruct (C1 c b p o l E K) as (g&pk'&k'&lk'&_&_&(bx&Ex&Kx)&HL&_). assert (bx = bl) by congruence; subst bx.
    assert (lk' = lk) by congruence; subst lk'. destruct HL as (bx&kx&Ex2&Kx2&Nx&Lx); [intros ->; exact X|].
    assert (bx = bl) by congruence; subst bx.
    destruct (I1 l bl El) as (_&_&F1). destruct (I2 l bl' El') as (_&_&F2). specialize (F1 (fun X => X)). specialize (F2 (fun X => X)).
    unfold fresh in F1, F2. rewrite Kl in F2. rewrite Ql in F1. destruct F1 as (_&F1), F2 as (_&F2).
    rewrite (F1 p Lx n X), (F2 p ltac:(congruence) n X). unfold get_num. rewrite (get_attr_same h1 h2 p n S RD). reflexivity.
Qed.
Theorem C40_callback_order spline ord1 ord2 h o vals h1 : reach h -> is_order ord1 -> is_order ord2 ->
  set_fit wrapn ord1 h o vals = (h1, true) ->
  exists h2, set_fit wrapn ord2 h o vals = (h2, true) /\
    (forall o' n', get_attr h2 o' n' = get_attr h1 o' n') /\
    (forall l, mem h2 l = mem h1 l) /\
    (forall c, camera_in_use spline h2 c = camera_in_use spline h1 c).
Proof.
  intros HR O1 O2 HS. destruct (reach_inv h HR) as (HI&HC).
  destruct (set_fit_order wrapn wrapn_ok ord1 ord2 h o vals h1 O1 O2 HI HS) as (h2&S2&I1&I2&SM1&SM2&M).
  assert (S12 : sim h1 h2) by (eapply sim_trans; [apply sim_sym; exact SM1|exact SM2]).
  exists h2. split; [exact S2|split; [|split; [exact M|]]].
  - intros o' n'. apply get_attr_same; [exact S12|]. intros x. unfold rdl. rewrite M. reflexivity.
  - intros c. symmetry. apply same_derived; auto; [eapply CamInv_sim; eauto|]. intros x. unfold rdl. rewrite M. reflexivity.
Qed.
Print Assumptions C40_callback_order.
Theorem C39_callback_order spline rnd ord1 ord2 h o h1 : reach h -> is_order ord1 -> is_order ord2 ->
  sample wrapn rnd ord1 h o = (h1, true) ->
  exists h2, sample wrapn rnd ord2 h o = (h2, true) /\
    (forall o' n', get_attr h2 o' n' = get_attr h1 o' n') /\
    (forall l, mem h2 l = mem h1 l) /\
    (forall c, camera_in_use spline h2 c = camera_in_use spline h1 c).
Proof.
  intros HR O1 O2 HS. destruct (reach_inv h HR) as (HI&HC).
  destruct (stats_order wrapn wrapn_ok rnd ord1 ord2 h o h1 O1 O2 HI HS) as (h2&S2&I1&I2&SM1&SM2&M).
  assert (S12 : sim h1 h2) by (eapply sim_trans; [apply sim_sym; exact SM1|exact SM2]).
  exists h2. split; [exact S2|split; [|split; [exact M|]]].
  - intros o' n'. apply get_attr_same; [exact S12|]. intros x. unfold rdl. rewrite M. reflexivity.
  - intros c. symmetry. apply same_derived; auto; [eapply CamInv_sim; eauto|]. intros x. unfold rdl. rewrite M. reflexivity.
Qed.
Print Assumptions C39_callback_order.
(** Every affected callback is collected once. *)
Theorem C40_callbacks_once h o vals b : objs h o = Some b ->
  NoDup (snd (write_fit h b vals [])) /\
  (forall c, In c (snd (write_fit h b vals [])) <->
     exists n v l, In (n, v) vals /\ assoc n (table b) = Some l /\ cbk h l = Some c).
Proof.
  intros E. assert (G : forall vals g cs, (forall l, cbk g l = cbk h l) -> NoDup cs ->
    NoDup (snd (write_fit g b vals cs)) /\
    (forall c, In c (snd (write_fit g b vals cs)) <->
       In c cs \/ exists n (v : num) l, In (n, v) vals /\ assoc n (table b) = Some l /\ cbk h l = Some c)).
  { clear E vals. induction vals as [|[n v] vals IH]; intros g cs HC HN.
    - cbn. split; [exact HN|]. intros c. split; [auto|]. intros [X|(n&v&l&[]&_)]; exact X.
    - cbn [write_fit]. destruct (assoc n (table b)) as [l|] eqn:Ha.
      + destruct (IH (set_mem g l (Param (Some v) (mean (mem g l)) (std (mem g l)) (default (mem g l)) SFit (ptype (mem g l)) (callback (mem g l))))
                     (add_cb cs (callback (mem g l)))) as (A&B).
        * intros x. rewrite set_mem_cbk by reflexivity. apply HC.
        * unfold add_cb. destruct (callback (mem g l)) as [c|]; [|exact HN]. fold (hit cs c). destruct (hit_spec cs c) as [X|X]; [exact HN|].
          clear - HN X. induction cs as [|d cs IHc]; cbn.
          -- constructor; [intros []|constructor].
          -- inversion HN; subst. constructor.
             ++ rewrite in_app_iff. intros [Y|[Y|[]]]; [contradiction|subst; apply X; left; auto].
             ++ apply IHc; [exact H2|]. intros Y; apply X; right; exact Y.
        * split; [exact A|]. intros c. rewrite B, add_cb_in. change (callback (mem g l)) with (cbk g l). rewrite HC. split.
          -- intros [[X|X]|(m&u&x&X&Y&Z)]; auto.
             ++ right. exists n, v, l. split; [left; auto|auto].
             ++ right. exists m, u, x. split; [right; auto|auto].
          -- intros [X|(m&u&x&[X|X]&Y&Z)]; auto.
             ++ inversion X; subst. left. right. congruence.
             ++ right. exists m, u, x. auto.
      + destruct (IH g cs HC HN) as (A&B). split; [exact A|]. intros c. rewrite B. split.
        * intros [X|(m&u&x&X&Y&Z)]; auto. right. exists m, u, x. split; [right; auto|auto].
        * intros [X|(m&u&x&[X|X]&Y&Z)]; auto.
          -- inversion X; subst. congruence.
          -- right. exists m, u, x. auto. }
  destruct (G vals h [] (fun l => eq_refl) (NoDup_nil _)) as (A&B). split; [exact A|]. intros c. rewrite B. split.
  - intros [[]|X]; exact X.
  - auto.
Qed.
Print Assumptions C40_callbacks_once.
