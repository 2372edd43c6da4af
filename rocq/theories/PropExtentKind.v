(** * C42, C95: extents that are lists, tuples or arrays *)
Require Import Reals Lra List Bool ZArith Arith Lia.
From Verif Require Import Num Vec Orientation Projection ProjectionFacts CameraTransform CameraFacts PropCamera Border PropBorder Lut PropLut MapCache PropMapCache MapPlot PropMapPlot ExtentKind.
Import ListNotations.
Open Scope R_scope.

(** ** Specification *)
Definition listed (e : option (ekind * nat)) : Prop := match e with Some (k, _) => k = AList | None => True end.
(** the events with lists only, and what they are without types *)
Definition lists_only (v : kevent) : Prop := match v with Call _ e _ _ _ => listed e | _ => True end.
Definition plain_event (v : kevent) : event :=
  match v with
  | Call im e sc skip _ => Undistort im (option_map snd e) sc skip
  | TopView im e sc z skip hide => Top im e sc z skip hide
  | NewCamera c => Change c
  | Write_ n e => Assign n e
  end.
(** every call of undistortImage raises *)
Definition stuck (s : kstate) : Prop :=
  forall im e sc skip, snd (undistort_kind s im e sc skip) = None /\ snd (plot_kind s im e sc skip) = None.

Lemma undistort_some s im n sc skip st' im' : undistortImage s im n sc skip = (st', Some im') -> exists c, s_undist st' = Some c.
Proof.
  unfold undistortImage. destruct (negb skip && _)%bool; [discriminate|]. unfold getUndistortMap.
  destruct (s_undist s) as [c|] eqn:E; [destruct (_ && _)%bool|]; try dmap; cbn [option_map]; intros H; try discriminate; injection H as <- <-; cbn [s_undist]; eauto.
Qed.
Lemma undistort_none s im n sc skip st' : undistortImage s im n sc skip = (st', None) -> st' = s.
Proof.
  unfold undistortImage. destruct (negb skip && _)%bool; [intros H; injection H; auto|]. unfold getUndistortMap.
  destruct (s_undist s) as [c|] eqn:E; [destruct (_ && _)%bool|]; try dmap; cbn [option_map]; intros H; try discriminate; injection H; auto.
Qed.
Lemma size_refused s im n sc skip : (negb skip && negb (size_ok (s_cam s) im))%bool = true -> undistortImage s im n sc skip = (s, None).
Proof. unfold undistortImage. intros ->. auto. Qed.

(** With lists as extents the types do not matter: the calls are those of C42, C43 and C95. *)
Lemma list_call s im e sc skip : (s_undist (k_state s) = None \/ k_kind s = AList) -> listed e ->
  let r := undistort_kind s im e sc skip in let r' := undistortImage (k_state s) im (option_map snd e) sc skip in
  k_state (fst r) = fst r' /\ snd r = snd r' /\ (s_undist (k_state (fst r)) = None \/ k_kind (fst r) = AList).
Proof.
  intros HI HL. cbv zeta. unfold undistort_kind.
  assert (K : match e with Some (k, _) => k | None => AList end = AList) by (destruct e as [[k n]|]; cbn in HL; auto). rewrite K. clear K.
  destruct (negb skip && _)%bool eqn:SZ; [rewrite size_refused by auto; auto|].
  assert (RUN : forall p, p = match undistortImage (k_state s) im (option_map snd e) sc skip with (st', Some im') => (KState st' AList, Some im') | (_, None) => (s, None) end ->
    k_state (fst p) = fst (undistortImage (k_state s) im (option_map snd e) sc skip) /\ snd p = snd (undistortImage (k_state s) im (option_map snd e) sc skip) /\
    (s_undist (k_state (fst p)) = None \/ k_kind (fst p) = AList)).
  { intros p ->. destruct (undistortImage _ _ _ _ _) as [st' [im'|]] eqn:E; cbn [fst snd k_state k_kind]; auto. rewrite (undistort_none _ _ _ _ _ _ E). auto. }
  destruct (s_undist (k_state s)) as [c|] eqn:EU; [|apply RUN; auto]. destruct HI as [HI|HI]; [discriminate|]. rewrite HI. cbn [comparable]. apply RUN; auto.
Qed.
Theorem C42_lists : forall st evs, s_undist st = None -> Forall lists_only evs ->
  let s := fold_left kstep evs (KState st AList) in let s' := fold_left step (map plain_event evs) st in
  k_state s = s' /\
  (forall im e sc skip, listed e -> snd (undistort_kind s im e sc skip) = snd (undistortImage s' im (option_map snd e) sc skip) /\
     snd (plot_kind s im e sc skip) = snd (plotUndistorted s' im (option_map snd e) sc skip)).
Proof.
  intros st evs HU HF. cbv zeta.
  assert (G : forall evs k, (s_undist (k_state k) = None \/ k_kind k = AList) -> Forall lists_only evs ->
    k_state (fold_left kstep evs k) = fold_left step (map plain_event evs) (k_state k) /\
    (s_undist (k_state (fold_left kstep evs k)) = None \/ k_kind (fold_left kstep evs k) = AList)).
  { clear. induction evs as [|v evs IH]; intros k HI HF; cbn [fold_left map]; auto. inversion HF as [|? ? F1 F2]; subst.
    assert (S1 : k_state (kstep k v) = step (k_state k) (plain_event v) /\ (s_undist (k_state (kstep k v)) = None \/ k_kind (kstep k v) = AList)).
    { destruct v as [im e sc skip plot|im e sc z skip hide|c|n e]; cbn [kstep plain_event].
      - assert (P : fst (plot_kind k im e sc skip) = fst (undistort_kind k im e sc skip)) by (unfold plot_kind; destruct (undistort_kind k im e sc skip); auto).
        rewrite P. destruct (list_call k im e sc skip HI F1) as (A&_&B). destruct plot; split; auto.
      - split; auto. destruct HI as [HI|HI]; [left|right; auto]. cbn [k_state]. cbn [step]. unfold getTopViewOfImage. destruct (negb skip && _)%bool; auto.
        unfold getMap. destruct (match e with Some n => _ | None => _ end); auto.
        destruct (s_map (k_state k)); [destruct sc; [destruct (_ && _)%bool|]|]; try dmap; auto.
      - split; auto.
      - split; auto. }
    destruct S1 as (E&HI'). rewrite <- E. apply IH; auto. }
  destruct (G evs (KState st AList)) as (E&HI); auto. cbn [k_state] in E. split; auto.
  intros im e sc skip HL. rewrite <- E. destruct (list_call _ im e sc skip HI HL) as (A&B&C). split; auto.
  unfold plot_kind, plotUndistorted. destruct (undistort_kind _ _ _ _ _) as (s1&r1) eqn:E1. destruct (undistortImage _ _ _ _ _) as (s2&r2) eqn:E2.
  cbn [fst snd] in A, B, C |- *. subst s2 r2. destruct r1 as [im'|]; auto. destruct (s_undist (k_state s1)) as [c|] eqn:EU; auto.
  destruct C as [C|C]; [discriminate|]. rewrite C. auto.
Qed.
Print Assumptions C42_lists.

(** After one call with an array undistortImage never works again: every later call raises, whatever happens to the
    camera in between and whatever extent is given. *)
Lemma array_stuck s c : s_undist (k_state s) = Some c -> k_kind s = AArray -> stuck s.
Proof.
  intros EU EK im e sc skip. assert (U : snd (undistort_kind s im e sc skip) = None).
  { unfold undistort_kind. destruct (negb skip && _)%bool; auto. rewrite EU, EK. auto. }
  split; auto. unfold plot_kind. destruct (undistort_kind s im e sc skip) as (s'&r). cbn [snd] in U. subst r. auto.
Qed.
Theorem C42_array_stuck : forall s im n sc skip im' evs, snd (undistort_kind s im (Some (AArray, n)) sc skip) = Some im' ->
  stuck (fold_left kstep evs (fst (undistort_kind s im (Some (AArray, n)) sc skip))).
Proof.
  intros s im n sc skip im' evs H.
  assert (I0 : exists c, s_undist (k_state (fst (undistort_kind s im (Some (AArray, n)) sc skip))) = Some c /\
    k_kind (fst (undistort_kind s im (Some (AArray, n)) sc skip)) = AArray).
  { revert H. unfold undistort_kind. destruct (negb skip && _)%bool; [discriminate|]. cbn [option_map snd].
    assert (RUN : forall from p, p = match undistortImage from im (Some n) sc skip with (st', Some im') => (KState st' AArray, Some im') | (_, None) => (s, None) end ->
      snd p = Some im' -> exists c, s_undist (k_state (fst p)) = Some c /\ k_kind (fst p) = AArray).
    { intros from p ->. destruct (undistortImage from im (Some n) sc skip) as [st' [i|]] eqn:E; cbn [fst snd k_state k_kind]; [|discriminate].
      intros _. destruct (undistort_some _ _ _ _ _ _ _ E) as (c&Hc). eauto. }
    destruct (s_undist (k_state s)); [|apply (RUN _ _ eq_refl)]. destruct (comparable _ _) as [[|]|]; [apply (RUN _ _ eq_refl)|apply (RUN _ _ eq_refl)|discriminate]. }
  clear H. revert I0. generalize (fst (undistort_kind s im (Some (AArray, n)) sc skip)). clear. induction evs as [|v evs IH]; intros k (c&EU&EK); cbn [fold_left].
  - eapply array_stuck; eauto.
  - apply IH. destruct v as [im e sc skip plot|im e sc z skip hide|c'|n e]; cbn [kstep].
    + assert (U : fst (undistort_kind k im e sc skip) = k).
      { unfold undistort_kind. destruct (negb skip && _)%bool; auto. rewrite EU, EK. auto. }
      assert (P : fst (plot_kind k im e sc skip) = fst (undistort_kind k im e sc skip)) by (unfold plot_kind; destruct (undistort_kind k im e sc skip); auto).
      destruct plot; rewrite ?P, U; eauto.
    + exists c. split; auto. cbn [k_state]. cbn [step]. unfold getTopViewOfImage. destruct (negb skip && _)%bool; auto.
      unfold getMap. destruct (match e with Some n => _ | None => _ end); auto.
      destruct (s_map (k_state k)); [destruct sc; [destruct (_ && _)%bool|]|]; try dmap; auto.
    + exists c. auto.
    + exists c. auto.
Qed.
Print Assumptions C42_array_stuck.

(** A tuple gives the same picture as a list would without a cache, and is never mistaken for a list; plotting with one
    always raises. *)
Theorem C42_tuple : forall st k im n sc skip, (s_undist st = None \/ k = AList) ->
  snd (undistort_kind (KState st k) im (Some (ATuple, n)) sc skip) = snd (undistortImage (forget st) im (Some n) sc skip).
Proof.
  intros st k im n sc skip H. unfold undistort_kind. cbn [k_state k_kind option_map snd].
  assert (F : forall from, s_undist from = None -> s_cam from = s_cam st -> s_lists from = s_lists st ->
    snd (undistortImage from im (Some n) sc skip) = snd (undistortImage (forget st) im (Some n) sc skip)).
  { intros from E1 E2 E3. unfold undistortImage, getUndistortMap, forget. cbn [s_undist s_cam s_lists contents]. rewrite E1, E2, E3.
    destruct (negb skip && _)%bool; auto. dmap; auto. }
  destruct (negb skip && _)%bool eqn:SZ.
  { cbn [snd]. rewrite (size_refused (forget st)); auto. }
  assert (RUN : forall from, snd (match undistortImage from im (Some n) sc skip with (st', Some im') => (KState st' ATuple, Some im') | (_, None) => (KState st k, None) end)
    = snd (undistortImage from im (Some n) sc skip)) by (intros from; destruct (undistortImage from im (Some n) sc skip) as [? [?|]]; reflexivity).
  destruct (s_undist st) as [c|] eqn:EU.
  - destruct H as [H|H]; [discriminate|]. subst k. cbn [comparable]. rewrite RUN. apply F; auto.
  - rewrite RUN. apply F; auto.
Qed.
Print Assumptions C42_tuple.
Theorem C95_tuple : forall s im n sc skip, snd (plot_kind s im (Some (ATuple, n)) sc skip) = None.
Proof.
  intros s im n sc skip. unfold plot_kind. destruct (undistort_kind s im (Some (ATuple, n)) sc skip) as (s'&r) eqn:E. cbn [snd]. destruct r as [im'|]; auto.
  assert (K : k_kind s' = ATuple).
  { revert E. unfold undistort_kind. destruct (negb skip && _)%bool; [discriminate|]. cbn [option_map snd].
    destruct (s_undist (k_state s)); [destruct (comparable _ _) as [[|]|]|]; try discriminate;
      destruct (undistortImage _ _ _ _ _) as [st' [i|]]; try discriminate; intros E; injection E as <- _; auto. }
  rewrite K. destruct (s_undist (k_state s')); auto.
Qed.
Print Assumptions C95_tuple.

(** The first call with an array works. *)
Lemma first_call c k : exists im', snd (undistort_kind (KState (State c (fun _ => Ext (Fin 0) (Fin 2) (Fin 0) (Fin 2)) None None) AList) gray (Some (k, 0%nat)) (Some (Fin 1)) true) = Some im'.
Proof.
  unfold undistort_kind. cbn [negb andb k_state s_undist option_map snd].
  assert (LT : 0 < 2) by lra. assert (P1 : 0 < 1) by lra.
  destruct (C43_undistorted (State c (fun _ => Ext (Fin 0) (Fin 2) (Fin 0) (Fin 2)) None None) gray 0 (Fin 1) 0 2 0 2 1 eq_refl (rep_Fin 0) (rep_Fin 2) (rep_Fin 0) (rep_Fin 2) (rep_Fin 1) LT LT P1)
    as (im'&E&_).
  destruct (undistortImage _ _ _ _ _) as [st' [i|]]; cbn [snd] in E; [|discriminate]. exists i. auto.
Qed.
Theorem C42_array_refuted : exists s im n sc, s_undist (k_state s) = None /\ snd (undistort_kind s im (Some (AArray, n)) (Some sc) true) <> None /\
  let s' := fst (undistort_kind s im (Some (AArray, n)) (Some sc) true) in
  snd (undistort_kind s' im (Some (AArray, n)) (Some sc) true) = None /\ snd (undistort_kind s' im None None false) = None /\
  snd (undistortImage (forget (k_state s')) im None None false) <> None.
Proof.
  destruct (ex_cam2 Rectilinear) as (c&HC). destruct (plain_good _ _ _ _ HC) as (((_&_&_&_&HW&HH)&_)&_&HD&_).
  destruct (first_call c AArray) as (im'&E).
  exists (KState (State c (fun _ => Ext (Fin 0) (Fin 2) (Fin 0) (Fin 2)) None None) AList), gray, 0%nat, (Fin 1). split; auto. split; [rewrite E; discriminate|].
  pose proof (C42_array_stuck _ _ _ _ _ _ [] E) as ST. cbn [fold_left] in ST. cbv zeta.
  split; [apply ST|]. split; [apply ST|].
  set (s' := fst _) in *.
  assert (SC : s_cam (k_state s') = c).
  { unfold s', undistort_kind. cbn [negb andb k_state s_undist option_map snd]. unfold undistortImage, getUndistortMap. cbn [negb andb s_undist s_cam contents s_lists]. dmap; auto. }
  assert (W : rep (im_width (cam_proj (s_cam (forget (k_state s'))))) (INR (im_w gray))) by (cbn [forget s_cam]; rewrite SC; cbn [gray im_w]; rewrite INR_IZR_INZ; exact HW).
  assert (H : rep (im_height (cam_proj (s_cam (forget (k_state s'))))) (INR (im_h gray))) by (cbn [forget s_cam]; rewrite SC; cbn [gray im_h]; rewrite INR_IZR_INZ; exact HH).
  destruct (C43_identity (forget (k_state s')) gray) as (i&Ei&_); auto.
  - cbn [forget s_cam]. rewrite SC. auto.
  - cbn [gray im_w]. apply Nat.ltb_lt. vm_compute. auto.
  - cbn [gray im_h]. apply Nat.ltb_lt. vm_compute. auto.
  - rewrite Ei. discriminate.
Qed.
Print Assumptions C42_array_refuted.
(** Lists, then a change of the camera, then a list again; a tuple. *)
Example C42_kinds_example : exists st evs im', s_undist st = None /\ Forall lists_only evs /\ length evs = 3%nat /\
  snd (undistort_kind (KState st AList) gray (Some (ATuple, 0%nat)) (Some (Fin 1)) true) = Some im' /\
  snd (plot_kind (KState st AList) gray (Some (ATuple, 0%nat)) (Some (Fin 1)) true) = None.
Proof.
  destruct (ex_cam2 Rectilinear) as (c&HC). destruct (first_call c ATuple) as (im'&E).
  exists (State c (fun _ => Ext (Fin 0) (Fin 2) (Fin 0) (Fin 2)) None None),
    [Call gray (Some (AList, 0%nat)) (Some (Fin 1)) true false; NewCamera c; Call gray None None false true], im'.
  split; auto. split; [repeat constructor|]. split; auto. split; auto. apply C95_tuple.
Qed.
