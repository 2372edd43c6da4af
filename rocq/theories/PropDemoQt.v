(** * C76: the Qt demonstrator draws what its inputs show *)
Require Import Reals Lra Lia ZArith Bool List.
Import ListNotations.
From Verif Require Import DemoQt.
Open Scope Z_scope.

(** ** Specification *)
(** The number an input shows, the number the drawn camera has, and the inputs that updatePlot sets itself *)
Definition shows (st : win) (s : slider) : R := (IZR (spin (num st s)) / IZR (factor s))%R.
Definition camera_has (st : win) (s : slider) : R := (IZR (d_val (drawn st) s) / IZR (factor s))%R.
Definition tied (s : slider) : Prop := s = FY \/ s = CX \/ s = CY.

Lemma slider_eqb_eq a b : slider_eqb a b = true <-> a = b.
Proof. split; [destruct a, b; intros H; try reflexivity; discriminate|intros ->; destruct b; reflexivity]. Qed.
Lemma slider_dec (a b : slider) : {a = b} + {a <> b}.
Proof. destruct a, b; ((left; reflexivity) || (right; discriminate)). Qed.
Lemma upd_same f s w : upd f s w s = w.
Proof. unfold upd. destruct s; reflexivity. Qed.
Lemma upd_other f s w s' : s <> s' -> upd f s w s' = f s'.
Proof. unfold upd. destruct (slider_eqb s s') eqn:E; [apply slider_eqb_eq in E; congruence|reflexivity]. Qed.
Lemma clamp_in s v : lo s <= v <= hi s -> clamp s v = v.
Proof. unfold clamp. lia. Qed.
Lemma clamp_range s v : lo s <= clamp s v <= hi s.
Proof. unfold clamp. assert (lo s <= hi s) by (destruct s; cbn; lia). lia. Qed.

Ltac splits3 := split; [|split].
Ltac splitsR := split; [|split; [|split; [|split]]].
Section Back.
Context (back : Z -> Z).
Notation updatePlot := (updatePlot back). Notation act := (act back). Notation emit := (emit back). Notation after := (after back).
Notation event := (event back). Notation move := (move back). Notation dragged := (dragged back). Notation start := (start back).

Record ready (st : win) : Prop :=
  { r_rng : forall s, lo s <= spin (num st s) <= hi s; r_idle : forall s, drag (num st s) = false }.
Definition locked (st : win) (s : slider) : bool := match s with FY => focalloc st | CX | CY => centered st | _ => false end.
Definition kept (l : option Z) (v : Z) : Prop := l = None \/ l = Some v.

(** What updatePlot does, whatever was before *)
Lemma update_facts st : ready st -> let st' := updatePlot st in
  ready st' /\ (forall s, ~ tied s -> num st' s = num st s) /\ (forall s, last (num st' s) = last (num st s)) /\
  (forall s, d_val (drawn st') s = spin (num st' s)) /\ (forall s, tied s -> enabled (num st' s) = negb (locked st s)) /\
  (focalloc st = true -> spin (num st' FY) = spin (num st FX)) /\
  (centered st = true -> spin (num st' CX) = spin (num st WI) * 50 /\ spin (num st' CY) = spin (num st HI) * 50) /\
  (forall s, locked st s = false -> spin (num st' s) = spin (num st s)) /\
  (focalloc st', focal_last st', centered st', center_last st') = (focalloc st, focal_last st, centered st, center_last st) /\
  (proj st', proj_last st', scene st', scene_last st') = (proj st, proj_last st, scene st, scene_last st) /\
  d_proj (drawn st') = proj st /\ d_scene (drawn st') = scene st.
Proof.
  intros [R I]. pose proof (R FX) as RX. pose proof (R WI) as RW. pose proof (R HI) as RH. cbn [lo hi] in RX, RW, RH.
  assert (C1 : clamp FY (spin (num st FX)) = spin (num st FX)) by (apply clamp_in; cbn; lia).
  assert (C2 : clamp CX (spin (num st WI) * 50) = spin (num st WI) * 50) by (apply clamp_in; cbn; lia).
  assert (C3 : clamp CY (spin (num st HI) * 50) = spin (num st HI) * 50) by (apply clamp_in; cbn; lia).
  destruct (focalloc st) eqn:EF, (centered st) eqn:EC; cbv zeta; unfold DemoQt.updatePlot; rewrite EF; cbn [set_num change focalloc centered num upd slider_eqb]; rewrite ?EF, ?EC;
  cbn [num change set_num setValue setDisabled upd slider_eqb spin pos last drag enabled drawn d_val d_proj d_scene focalloc focal_last centered center_last proj proj_last scene scene_last negb];
  (split; [split; intros []; cbn [spin drag num upd slider_eqb setValue setDisabled]; rewrite ?C1, ?C2, ?C3; try apply R; try apply I; cbn [lo hi]; try lia|]);
  (split; [intros s T; destruct s; try reflexivity; exfalso; apply T; unfold tied; auto|]);
  (split; [intros []; reflexivity|]); (split; [reflexivity|]);
  (split; [intros s [-> | [-> | ->]]; cbn [locked]; rewrite ?EF, ?EC; reflexivity|]);
  (split; [intros E; try discriminate; cbn; rewrite ?C1; reflexivity|]);
  (split; [intros E; try discriminate; cbn; rewrite ?C2, ?C3; auto|]);
  (split; [intros []; cbn [locked]; rewrite ?EF, ?EC; try discriminate; reflexivity|]);
  (repeat split; cbn; rewrite ?EF, ?EC; reflexivity).
Qed.

(** ** The invariant *)
Record inv (st : win) : Prop :=
  { i_ready : ready st;
    i_free : forall s, ~ tied s -> enabled (num st s) = true /\ d_val (drawn st) s = spin (num st s) /\ kept (last (num st s)) (spin (num st s));
    i_tied : forall s, tied s -> enabled (num st s) = negb (locked st s) /\
      (d_val (drawn st) s = spin (num st s) \/ last (num st s) = Some (spin (num st s)) /\ locked st s = false);
    i_focal : focalloc st = true -> spin (num st FY) = spin (num st FX);
    i_center : centered st = true -> spin (num st CX) = spin (num st WI) * 50 /\ spin (num st CY) = spin (num st HI) * 50;
    i_boxes : (focal_last st = None \/ focal_last st = Some (focalloc st)) /\ (center_last st = None \/ center_last st = Some (centered st)) /\
      (proj_last st = None \/ proj_last st = Some (proj st)) /\ (scene_last st = None \/ scene_last st = Some (scene st));
    i_drawn : d_proj (drawn st) = proj st /\ d_scene (drawn st) = scene st }.
(** the two states differ in the input [s] only *)
Record but (s : slider) (st st' : win) : Prop :=
  { b_num : forall s', s' <> s -> num st' s' = num st s';
    b_rest : (focalloc st', focal_last st', centered st', center_last st', proj st', proj_last st', scene st', scene_last st', drawn st') =
      (focalloc st, focal_last st, centered st, center_last st, proj st, proj_last st, scene st, scene_last st, drawn st);
    b_w : last (num st' s) = last (num st s) /\ enabled (num st' s) = enabled (num st s) /\ lo s <= spin (num st' s) <= hi s }.
Lemma pairs8 {A B C D E F G H I} (a a' : A) (b b' : B) (c c' : C) (d d' : D) (e e' : E) (f f' : F) (g g' : G) (h h' : H) (i i' : I) :
  (a, b, c, d, e, f, g, h, i) = (a', b', c', d', e', f', g', h', i') -> a = a' /\ b = b' /\ c = c' /\ d = d' /\ e = e' /\ f = f' /\ g = g' /\ h = h' /\ i = i'.
Proof. intros Q. injection Q. intros. repeat split; assumption. Qed.
Lemma but_trans s a b c : but s a b -> but s b c -> but s a c.
Proof.
  intros [N1 R1 W1] [N2 R2 W2]. split.
  - intros s' H. rewrite N2, N1; auto.
  - rewrite R2. exact R1.
  - destruct W1 as (L1&E1&_), W2 as (L2&E2&G). rewrite L2, E2. auto.
Qed.
Lemma change_but s f st : last (f (num st s)) = last (num st s) -> enabled (f (num st s)) = enabled (num st s) -> lo s <= spin (f (num st s)) <= hi s ->
  but s st (change s f st).
Proof.
  intros H1 H2 H3. split; cbn [change set_num num focalloc focal_last centered center_last proj proj_last scene scene_last drawn].
  - intros s' N. apply upd_other. auto.
  - reflexivity.
  - rewrite upd_same. auto.
Qed.
Lemma change_num s f st : num (change s f st) s = f (num st s).
Proof. cbn. apply upd_same. Qed.
(** an input with [s] settled: whatever its number now is, _emitSignal restores the invariant *)
Lemma settle s st st' : inv st -> but s st st' -> enabled (num st s) = true -> drag (num st' s) = false -> inv (emit s st').
Proof.
  intros [RD FR TI FO CE BO DR] [N RS (WL&WE&WR)] EN DG. apply pairs8 in RS. destruct RS as (E1&E2&E3&E4&E5&E6&E7&E8&E9).
  assert (RD' : ready st').
  { destruct RD as [R Id]. split; intros s'; destruct (slider_dec s' s) as [-> | X]; auto; rewrite (N s' X); auto. }
  assert (LK : forall x, locked st' x = locked st x) by (intros []; cbn; congruence).
  assert (LS : locked st s = false).
  { destruct (locked st s) eqn:L; [|reflexivity]. assert (T : tied s) by (destruct s; cbn in L; try discriminate; unfold tied; auto).
    destruct (TI s T) as (Q&_). rewrite L, EN in Q. discriminate. }
  unfold DemoQt.emit. destruct (differs (spin (num st' s)) (last (num st' s))) eqn:DF.
  - pose proof (update_facts st' RD') as U. cbv zeta in U. set (st2 := updatePlot st') in *.
    destruct U as ([R2 I2]&NF&LA&DV&EN2&FO2&CE2&SP2&EB&EP&DP&DS).
    apply (f_equal (fun q => (fst (fst (fst q)), snd (fst (fst q)), snd (fst q), snd q))) in EB. cbn [fst snd] in EB.
    assert (B : focalloc st2 = focalloc st' /\ focal_last st2 = focal_last st' /\ centered st2 = centered st' /\ center_last st2 = center_last st') by (injection EB; auto).
    assert (Pp : proj st2 = proj st' /\ proj_last st2 = proj_last st' /\ scene st2 = scene st' /\ scene_last st2 = scene_last st') by (injection EP; auto).
    destruct B as (B1&B2&B3&B4), Pp as (P1&P2&P3&P4).
    set (st3 := change s set_last st2). 
    assert (S3 : forall x, spin (num st3 x) = spin (num st2 x)).
    { intros x. destruct (slider_dec s x) as [<- | X]; unfold st3; [rewrite change_num; reflexivity|cbn; rewrite upd_other; auto]. }
    assert (G3 : forall x, drag (num st3 x) = drag (num st2 x) /\ enabled (num st3 x) = enabled (num st2 x)).
    { intros x. destruct (slider_dec s x) as [<- | X]; unfold st3; [rewrite change_num; auto|cbn; rewrite upd_other; auto]. }
    assert (L3 : last (num st3 s) = Some (spin (num st2 s)) /\ forall x, x <> s -> last (num st3 x) = last (num st2 x)).
    { split; [unfold st3; rewrite change_num; reflexivity|]. intros x X. unfold st3. cbn. rewrite upd_other; auto. }
    assert (F3 : focalloc st3 = focalloc st' /\ centered st3 = centered st') by (split; assumption).
    assert (Q3 : focal_last st3 = focal_last st2 /\ center_last st3 = center_last st2 /\ proj_last st3 = proj_last st2 /\ scene_last st3 = scene_last st2 /\
      proj st3 = proj st2 /\ scene st3 = scene st2 /\ drawn st3 = drawn st2) by (repeat split; reflexivity).
    destruct Q3 as (Q31&Q32&Q33&Q34&Q35&Q36&Q37). clearbody st3.
    assert (LK3 : forall x, locked st3 x = locked st' x) by (intros []; cbn [locked]; try reflexivity; apply F3).
    split.
    + split; intros x; [rewrite S3; apply R2|rewrite (proj1 (G3 x)); apply I2].
    + intros x T. rewrite (proj2 (G3 x)), S3. rewrite ?Q37. rewrite DV. rewrite (NF x T). splits3.
      * destruct (slider_dec x s) as [-> | X]; [congruence|rewrite N by auto; apply FR; auto].
      * reflexivity.
      * destruct (slider_dec x s) as [-> | X]; unfold kept.
        -- right. rewrite (proj1 L3), (NF s T). reflexivity.
        -- rewrite (proj2 L3 x X), LA, N by auto. apply FR; auto.
    + intros x T. rewrite (proj2 (G3 x)), S3, LK3. split; [apply EN2; auto|]. left. rewrite Q37. apply DV.
    + intros H. rewrite !S3. rewrite (FO2 ltac:(rewrite <- (proj1 F3); exact H)). rewrite (NF FX); [reflexivity|unfold tied; intros [?|[?|?]]; discriminate].
    + intros H. rewrite !S3. rewrite (NF WI), (NF HI) by (unfold tied; intros [?|[?|?]]; discriminate). apply CE2. rewrite <- (proj2 F3). exact H.
    + rewrite Q31, Q32, Q33, Q34, Q35, Q36, (proj1 F3), (proj2 F3), B2, B4, P1, P2, P3, P4. rewrite E1, E2, E3, E4, E5, E6, E7, E8. exact BO.
    + rewrite Q37, Q35, Q36, P1, P3. auto.
  - assert (LV : last (num st' s) = Some (spin (num st' s))).
    { unfold differs in DF. destruct (last (num st' s)); [|discriminate]. apply negb_false_iff, Z.eqb_eq in DF. congruence. }
    assert (SM : ~ tied s -> spin (num st' s) = spin (num st s)).
    { intros T. destruct (FR s T) as (_&_&[K|K]); rewrite WL in LV; congruence. }
    assert (SPN : forall x, ~ tied x -> spin (num st' x) = spin (num st x)).
    { intros x T. destruct (slider_dec x s) as [-> | X]; [auto|rewrite N; auto]. }
    split; auto.
    + intros x T. rewrite E9, SPN by auto. destruct (slider_dec x s) as [-> | X].
      * rewrite WE, WL. apply FR; auto.
      * rewrite N by auto. apply FR; auto.
    + intros x T. rewrite E9, LK. destruct (slider_dec x s) as [-> | X].
      * rewrite WE. split; [apply TI; auto|]. right. auto.
      * rewrite N by auto. apply TI; auto.
    + intros H. rewrite E1 in H. rewrite (SPN FX) by (unfold tied; intros [?|[?|?]]; discriminate). destruct (slider_dec FY s) as [<- | X]; [cbn in LS; congruence|].
      rewrite N by auto. auto.
    + intros H. rewrite E3 in H. rewrite (SPN WI), (SPN HI) by (unfold tied; intros [?|[?|?]]; discriminate).
      destruct (slider_dec CX s) as [<- | X]; [cbn in LS; congruence|]. destruct (slider_dec CY s) as [<- | X']; [cbn in LS; congruence|].
      rewrite !N by auto. auto.
    + rewrite E1, E2, E3, E4, E5, E6, E7, E8. exact BO.
    + rewrite E9, E5, E7. exact DR.
Qed.
Lemma event_inv s v st st' : inv st -> but s st st' -> enabled (num st s) = true -> drag (num st' s) = false -> inv (event s v st').
Proof.
  intros HI HB EN DG. unfold DemoQt.event.
  assert (HB2 : but s st (change s (setValue back s v) st')).
  { eapply but_trans; [exact HB|]. apply change_but; try reflexivity. cbn. apply clamp_range. }
  assert (DG2 : drag (num (change s (setValue back s v) st') s) = false) by (rewrite change_num; exact DG).
  rewrite DG2. eapply settle; eauto.
Qed.
Lemma move_drag s k st st' : inv st -> but s st st' -> drag (num st' s) = true -> but s st (move s st' k) /\ drag (num (move s st' k) s) = true.
Proof.
  intros HI HB DG. unfold DemoQt.move. cbv zeta. destruct (Z.eqb (clamp s k) (pos (num st' s))); [auto|].
  unfold DemoQt.event. set (st1 := change s (fun w => Numw (spin w) (clamp s k) (last w) (drag w) (enabled w)) st').
  assert (B1 : but s st st1).
  { eapply but_trans; [exact HB|]. apply change_but; try reflexivity. cbn. apply HB. }
  assert (B2 : but s st (change s (setValue back s (clamp s k)) st1)).
  { eapply but_trans; [exact B1|]. apply change_but; try reflexivity. cbn. apply clamp_range. }
  assert (D2 : drag (num (change s (setValue back s (clamp s k)) st1) s) = true) by (rewrite change_num; unfold st1; cbn; rewrite upd_same; exact DG).
  rewrite D2. auto.
Qed.
Lemma moves_drag s ks st : inv st -> forall st', but s st st' -> drag (num st' s) = true ->
  but s st (fold_left (move s) ks st') /\ drag (num (fold_left (move s) ks st') s) = true.
Proof.
  intros HI. induction ks as [|k ks IH]; intros st' HB DG; [auto|]. cbn [fold_left]. destruct (move_drag s k st st' HI HB DG) as (B&D). apply IH; auto.
Qed.
Lemma but_refl s st : inv st -> but s st st.
Proof. intros HI. split; auto. splits3; auto. apply (i_ready st HI). Qed.
(** a check or combo box: everything is drawn afresh *)
Lemma redraw st fo ce pr sc fl cl pl sl : inv st ->
  let st1 := updatePlot (Win (num st) fo (focal_last st) ce (center_last st) pr (proj_last st) sc (scene_last st) (drawn st)) in
  (fl = None \/ fl = Some fo) -> (cl = None \/ cl = Some ce) -> (pl = None \/ pl = Some pr) -> (sl = None \/ sl = Some sc) ->
  inv (Win (num st1) (focalloc st1) fl (centered st1) cl (proj st1) pl (scene st1) sl (drawn st1)).
Proof.
  intros [RD FR TI FO CE BO DR] st1 H1 H2 H3 H4. set (st0 := Win (num st) fo (focal_last st) ce (center_last st) pr (proj_last st) sc (scene_last st) (drawn st)) in *.
  assert (RD0 : ready st0) by (destruct RD; split; assumption).
  pose proof (update_facts st0 RD0) as U. cbv zeta in U. fold st1 in U.
  destruct U as (R1&NF&LA&DV&EN2&FO2&CE2&SP2&EB&EP&DP&DS). clearbody st1.
  assert (B : focalloc st1 = fo /\ centered st1 = ce) by (injection EB; auto). assert (Pp : proj st1 = pr /\ scene st1 = sc) by (injection EP; auto).
  destruct B as (B1&B2), Pp as (P1&P2).
  split; cbn [num focalloc focal_last centered center_last proj proj_last scene scene_last drawn]; auto.
  - destruct R1; split; assumption.
  - intros s T. rewrite (NF s T), DV, (NF s T). destruct (FR s T) as (F1&_&F3). auto.
  - intros s T. split; [|left; apply DV]. rewrite (EN2 s T). destruct s; cbn [locked focalloc centered st0]; rewrite ?B1, ?B2; reflexivity.
  - intros H. rewrite FO2 by (cbn; congruence). rewrite (NF FX); [reflexivity|unfold tied; intros [?|[?|?]]; discriminate].
  - intros H. rewrite (NF WI), (NF HI) by (unfold tied; intros [?|[?|?]]; discriminate). apply CE2. cbn. congruence.
  - rewrite B1, B2, P1, P2. auto.
  - rewrite DP, DS, P1, P2. auto.
Qed.
Lemma bdiffers_new b l x : (l = None \/ l = Some x) -> Bool.eqb b x = false -> bdiffers b l = true.
Proof. intros [-> | ->] H; cbn; [reflexivity|rewrite H; reflexivity]. Qed.
Lemma ndiffers_new b l x : (l = None \/ l = Some x) -> Nat.eqb b x = false -> ndiffers b l = true.
Proof. intros [-> | ->] H; cbn; [reflexivity|rewrite H; reflexivity]. Qed.
Lemma update_lasts st : focal_last (updatePlot st) = focal_last st /\ center_last (updatePlot st) = center_last st /\
  proj_last (updatePlot st) = proj_last st /\ scene_last (updatePlot st) = scene_last st.
Proof. unfold DemoQt.updatePlot. destruct (focalloc st); cbn; destruct (centered st); repeat split; reflexivity. Qed.
Ltac lasts := match goal with |- context [updatePlot ?q] => destruct (update_lasts q) as (QF&QC&QP&QS); rewrite ?QF, ?QC, ?QP, ?QS; cbn; auto end.
Lemma act_inv st a : inv st -> inv (act st a).
Proof.
  intros HI. pose proof (i_ready st HI) as [RR RI]. destruct (i_boxes st HI) as (BF&BC&BP&BS). destruct a as [s v|s k|s ks|b|b|p|n]; cbn [DemoQt.act].
  - destruct (negb (enabled (num st s)) || Z.eqb (clamp s v) (spin (num st s))) eqn:E; [exact HI|].
    apply orb_false_iff in E. destruct E as (E&_). apply negb_false_iff in E. apply (event_inv s _ st); auto.
    + apply change_but; try reflexivity. cbn. apply clamp_range.
    + rewrite change_num. apply RI.
  - destruct (enabled (num st s)) eqn:E; [|exact HI]. unfold DemoQt.move. destruct (Z.eqb (clamp s k) (pos (num st s))); [exact HI|]. apply (event_inv s _ st); auto.
    + apply change_but; try reflexivity. cbn. apply RR.
    + rewrite change_num. apply RI.
  - destruct (enabled (num st s)) eqn:E; [|exact HI]. unfold DemoQt.dragged at 2. cbv zeta.
    set (st1 := change s (fun w => Numw (spin w) (pos w) (last w) true (enabled w)) st).
    assert (B1 : but s st st1) by (apply change_but; try reflexivity; cbn; apply RR).
    assert (D1 : drag (num st1 s) = true) by (unfold st1; rewrite change_num; reflexivity).
    destruct (moves_drag s ks st HI st1 B1 D1) as (B2&D2). unfold DemoQt.dragged.
    apply (settle s st); auto.
    + eapply but_trans; [exact B2|]. apply change_but; try reflexivity. cbn. apply B2.
    + rewrite change_num. reflexivity.
  - destruct (Bool.eqb b (focalloc st)) eqn:E; [exact HI|]. cbn [focal_last]. rewrite (bdiffers_new _ _ _ BF E).
    apply (redraw st b (centered st) (proj st) (scene st) (Some b) (center_last _) (proj_last _) (scene_last _) HI); first [lasts|auto].
  - destruct (Bool.eqb b (centered st)) eqn:E; [exact HI|]. cbn [center_last]. rewrite (bdiffers_new _ _ _ BC E).
    apply (redraw st (focalloc st) b (proj st) (scene st) (focal_last _) (Some b) (proj_last _) (scene_last _) HI); first [lasts|auto].
  - destruct (Nat.eqb p (proj st)) eqn:E; [exact HI|]. cbn [proj_last]. rewrite (ndiffers_new _ _ _ BP E).
    apply (redraw st (focalloc st) (centered st) p (scene st) (focal_last _) (center_last _) (Some p) (scene_last _) HI); first [lasts|auto].
  - destruct (Nat.eqb n (scene st)) eqn:E; [exact HI|]. cbn [scene_last]. rewrite (ndiffers_new _ _ _ BS E).
    apply (redraw st (focalloc st) (centered st) (proj st) n (focal_last _) (center_last _) (proj_last _) (Some n) HI); first [lasts|auto].
Qed.
Lemma start_inv : inv start.
Proof.
  unfold DemoQt.start. set (st0 := Win (fun s => setValue back s (first s) (Numw 0 0 None false true)) true None true None 0%nat None 0%nat None (Drawing (fun _ => 0) 0 0)).
  assert (RD : ready st0) by (split; intros []; cbn; lia).
  pose proof (update_facts st0 RD) as U. cbv zeta in U. set (st1 := updatePlot st0) in *.
  destruct U as (R1&NF&LA&DV&EN2&FO2&CE2&SP2&EB&EP&DP&DS). clearbody st1.
  assert (B : focalloc st1 = true /\ focal_last st1 = None /\ centered st1 = true /\ center_last st1 = None) by (injection EB; auto).
  assert (Pp : proj st1 = 0%nat /\ proj_last st1 = None /\ scene st1 = 0%nat /\ scene_last st1 = None) by (injection EP; auto).
  destruct B as (B1&B2&B3&B4), Pp as (P1&P2&P3&P4). split; auto.
  - intros s T. rewrite DV, (NF s T). repeat split. left. reflexivity.
  - intros s T. rewrite (EN2 s T). split; [|left; apply DV]. destruct s; cbn [locked]; rewrite ?B1, ?B3; reflexivity.
  - intros _. rewrite FO2 by reflexivity. rewrite (NF FX); [reflexivity|unfold tied; intros [?|[?|?]]; discriminate].
  - intros _. rewrite (NF WI), (NF HI) by (unfold tied; intros [?|[?|?]]; discriminate). apply CE2. reflexivity.
  - rewrite DP, DS, P1, P3. auto.
Qed.
Lemma after_inv l : inv (after l).
Proof.
  unfold DemoQt.after. generalize start_inv. generalize start. induction l as [|a l IH]; intros st H; [exact H|]. cbn [fold_left]. apply IH, act_inv, H.
Qed.
(** ** Boxes that are never checked again *)
Definition inv2 (st : win) : Prop := forall s, tied s ->
  d_val (drawn st) s = spin (num st s) /\ kept (last (num st s)) (spin (num st s)) /\ (locked st s = true -> last (num st s) = None).
Lemma settle2 s st st' : inv st -> inv2 st -> but s st st' -> enabled (num st s) = true -> drag (num st' s) = false -> inv2 (emit s st').
Proof.
  intros HI H2 HB EN DG x T. assert (K := settle s st st' HI HB EN DG). destruct HI as [RD FR TI FO CE BO DR].
  destruct HB as [N RS (WL&WE&WR)]. apply pairs8 in RS. destruct RS as (E1&E2&E3&E4&E5&E6&E7&E8&E9).
  assert (RD' : ready st').
  { destruct RD as [R Id]. split; intros s'; destruct (slider_dec s' s) as [-> | X]; auto; rewrite (N s' X); auto. }
  assert (LK : forall y, locked st' y = locked st y) by (intros []; cbn; congruence).
  assert (LS : locked st s = false).
  { destruct (locked st s) eqn:L; [|reflexivity]. assert (TT : tied s) by (destruct s; cbn in L; try discriminate; unfold tied; auto).
    destruct (TI s TT) as (Q&_). rewrite L, EN in Q. discriminate. }
  unfold DemoQt.emit. destruct (differs (spin (num st' s)) (last (num st' s))) eqn:DF.
  - pose proof (update_facts st' RD') as U. cbv zeta in U. set (st2 := updatePlot st') in *.
    destruct U as ([R2 I2]&NF&LA&DV&EN2&FO2&CE2&SP2&EB&EP&DP&DS).
    assert (B : focalloc st2 = focalloc st' /\ centered st2 = centered st') by (injection EB; auto).
    assert (L2 : forall y, locked (change s set_last st2) y = locked st y).
    { intros y. rewrite <- LK. destruct y; cbn [locked]; try reflexivity; apply B. }
    rewrite L2. cbn [change set_num drawn]. destruct (slider_dec x s) as [-> | X].
    + rewrite change_num. cbn [set_last spin last]. rewrite DV. repeat split; [right; reflexivity|congruence].
    + cbn [num change set_num]. rewrite upd_other by auto. rewrite DV, LA, N by auto. destruct (H2 x T) as (_&K2&K3). repeat split; auto.
      destruct (locked st x) eqn:L; [left; auto|]. rewrite SP2 by (rewrite LK; exact L). rewrite N by auto. exact K2.
  - assert (LV : last (num st' s) = Some (spin (num st' s))).
    { unfold differs in DF. destruct (last (num st' s)); [|discriminate]. apply negb_false_iff, Z.eqb_eq in DF. congruence. }
    rewrite E9, LK. destruct (slider_dec x s) as [-> | X]; [|rewrite N by auto; apply H2; auto].
    destruct (H2 s T) as (K1&K2&K3). assert (SE : spin (num st' s) = spin (num st s)) by (rewrite WL in LV; destruct K2; congruence).
    rewrite SE, WL. auto.
Qed.
Lemma redraw2 st fo ce pr sc fl cl pl sl : inv st -> inv2 st -> (fo = true -> focalloc st = true) -> (ce = true -> centered st = true) ->
  let st1 := updatePlot (Win (num st) fo (focal_last st) ce (center_last st) pr (proj_last st) sc (scene_last st) (drawn st)) in
  inv2 (Win (num st1) (focalloc st1) fl (centered st1) cl (proj st1) pl (scene st1) sl (drawn st1)).
Proof.
  intros HI H2 HF HC st1 x T. pose proof (i_ready st HI) as RD.
  set (st0 := Win (num st) fo (focal_last st) ce (center_last st) pr (proj_last st) sc (scene_last st) (drawn st)) in *.
  assert (RD0 : ready st0) by (destruct RD; split; assumption).
  pose proof (update_facts st0 RD0) as U. cbv zeta in U. fold st1 in U.
  destruct U as (R1&NF&LA&DV&EN2&FO2&CE2&SP2&EB&EP&DP&DS). clearbody st1.
  assert (B : focalloc st1 = fo /\ centered st1 = ce) by (injection EB; auto). destruct B as (B1&B2).
  cbn [num drawn]. rewrite DV, LA. change (num st0) with (num st) in *. destruct (H2 x T) as (_&K2&K3).
  assert (LO : locked st0 x = true -> locked st x = true) by (destruct T as [-> | [-> | ->]]; cbn; auto).
  split; [reflexivity|split].
  - destruct (locked st0 x) eqn:L; [left; auto|]. rewrite SP2 by auto. exact K2.
  - intros L. apply K3, LO. destruct T as [-> | [-> | ->]]; cbn in *; congruence.
Qed.
Definition never_checked (a : action) : Prop := a <> Focal true /\ a <> Center true.
Lemma act_inv2 st a : inv st -> inv2 st -> never_checked a -> inv2 (act st a).
Proof.
  intros HI H2 (NC1&NC2). pose proof (i_ready st HI) as [RR RI]. destruct (i_boxes st HI) as (BF&BC&BP&BS). destruct a as [s v|s k|s ks|b|b|p|n]; cbn [DemoQt.act].
  - destruct (negb (enabled (num st s)) || Z.eqb (clamp s v) (spin (num st s))) eqn:E; [exact H2|].
    apply orb_false_iff in E. destruct E as (E&_). apply negb_false_iff in E. unfold DemoQt.event.
    set (st1 := change s _ st). assert (B1 : but s st st1) by (apply change_but; try reflexivity; cbn; apply clamp_range).
    set (st2 := change s (setValue back s (clamp s v)) st1).
    assert (B2 : but s st st2) by (eapply but_trans; [exact B1|]; apply change_but; try reflexivity; cbn; apply clamp_range).
    assert (D : drag (num st2 s) = false) by (unfold st2; rewrite change_num; cbn; rewrite upd_same; apply RI). rewrite D. apply (settle2 s st); auto.
  - destruct (enabled (num st s)) eqn:E; [|exact H2]. unfold DemoQt.move. destruct (Z.eqb (clamp s k) (pos (num st s))); [exact H2|]. unfold DemoQt.event.
    set (st1 := change s _ st). assert (B1 : but s st st1) by (apply change_but; try reflexivity; cbn; apply RR).
    set (st2 := change s (setValue back s (clamp s k)) st1).
    assert (B2 : but s st st2) by (eapply but_trans; [exact B1|]; apply change_but; try reflexivity; cbn; apply clamp_range).
    assert (D : drag (num st2 s) = false) by (unfold st2; rewrite change_num; cbn; rewrite upd_same; apply RI). rewrite D. apply (settle2 s st); auto.
  - destruct (enabled (num st s)) eqn:E; [|exact H2]. unfold DemoQt.dragged at 2. cbv zeta.
    set (st1 := change s (fun w => Numw (spin w) (pos w) (last w) true (enabled w)) st).
    assert (B1 : but s st st1) by (apply change_but; try reflexivity; cbn; apply RR).
    assert (D1 : drag (num st1 s) = true) by (unfold st1; rewrite change_num; reflexivity).
    destruct (moves_drag s ks st HI st1 B1 D1) as (B2&D2). unfold DemoQt.dragged.
    apply (settle2 s st); auto.
    + eapply but_trans; [exact B2|]. apply change_but; try reflexivity. cbn. apply B2.
    + rewrite change_num. reflexivity.
  - destruct (Bool.eqb b (focalloc st)) eqn:E; [exact H2|]. cbn [focal_last]. rewrite (bdiffers_new _ _ _ BF E).
    apply (redraw2 st b (centered st) (proj st) (scene st) (Some b) (center_last _) (proj_last _) (scene_last _) HI H2); auto. destruct b; congruence.
  - destruct (Bool.eqb b (centered st)) eqn:E; [exact H2|]. cbn [center_last]. rewrite (bdiffers_new _ _ _ BC E).
    apply (redraw2 st (focalloc st) b (proj st) (scene st) (focal_last _) (Some b) (proj_last _) (scene_last _) HI H2); auto. destruct b; congruence.
  - destruct (Nat.eqb p (proj st)) eqn:E; [exact H2|]. cbn [proj_last]. rewrite (ndiffers_new _ _ _ BP E).
    apply (redraw2 st (focalloc st) (centered st) p (scene st) (focal_last _) (center_last _) (Some p) (scene_last _) HI H2); auto.
  - destruct (Nat.eqb n (scene st)) eqn:E; [exact H2|]. cbn [scene_last]. rewrite (ndiffers_new _ _ _ BS E).
    apply (redraw2 st (focalloc st) (centered st) (proj st) n (focal_last _) (center_last _) (proj_last _) (Some n) HI H2); auto.
Qed.
Lemma after_inv2 l : Forall never_checked l -> inv2 (after l).
Proof.
  unfold DemoQt.after. assert (H0 : inv2 start). { intros s [-> | [-> | ->]]; cbn; repeat split; left; reflexivity. }
  generalize start_inv H0. generalize start. induction l as [|a l IH]; intros st H I2 F; [exact I2|]. inversion F; subst. cbn [fold_left].
  apply IH; auto; [apply act_inv, H|apply act_inv2; auto].
Qed.
End Back.

(** ** Inputs that are not touched *)
Section Quiet.
Context (back : Z -> Z).
Lemma update_quiet st x : ~ tied x -> num (updatePlot back st) x = num st x.
Proof.
  intros T. unfold updatePlot. destruct (focalloc st); cbn [change set_num centered]; destruct (centered st); cbn [change set_num num]; destruct x; try reflexivity; exfalso; apply T; unfold tied; auto.
Qed.
Lemma change_quiet s f st x : s <> x -> num (change s f st) x = num st x.
Proof. intros H. cbn. apply upd_other, H. Qed.
Lemma emit_quiet s st x : ~ tied x -> s <> x -> num (emit back s st) x = num st x.
Proof. intros T H. unfold emit. destruct (differs _ _); [|reflexivity]. rewrite change_quiet, update_quiet by assumption. reflexivity. Qed.
Lemma event_quiet s v st x : ~ tied x -> s <> x -> num (event back s v st) x = num st x.
Proof. intros T H. unfold event. cbv zeta. destruct (drag _); rewrite ?emit_quiet, ?change_quiet by assumption; reflexivity. Qed.
Lemma move_quiet s k st x : ~ tied x -> s <> x -> num (move back s st k) x = num st x.
Proof. intros T H. unfold move. cbv zeta. destruct (Z.eqb _ _); [reflexivity|]. rewrite event_quiet, change_quiet by assumption. reflexivity. Qed.
Lemma moves_quiet s ks x : ~ tied x -> s <> x -> forall st, num (fold_left (move back s) ks st) x = num st x.
Proof. intros T H. induction ks as [|k ks IH]; intros st; [reflexivity|]. cbn [fold_left]. rewrite IH. apply move_quiet; assumption. Qed.
Definition touches (a : action) (x : slider) : Prop := match a with Type_ s _ | Key s _ | Drag s _ => s = x | _ => False end.
Lemma act_quiet st a x : ~ tied x -> ~ touches a x -> num (act back st a) x = num st x.
Proof.
  intros T H. destruct a as [s v|s k|s ks|b|b|p|n]; cbn [act touches] in *.
  - destruct (_ || _); [reflexivity|]. rewrite event_quiet, change_quiet by assumption. reflexivity.
  - destruct (enabled _); [apply move_quiet; assumption|reflexivity].
  - destruct (enabled _); [|reflexivity]. unfold dragged at 1. cbv zeta. rewrite emit_quiet, change_quiet, moves_quiet by assumption. apply change_quiet, H.
  - destruct (Bool.eqb _ _); [reflexivity|]. destruct (bdiffers _ _); [|reflexivity]. cbn [num]. rewrite update_quiet by exact T. reflexivity.
  - destruct (Bool.eqb _ _); [reflexivity|]. destruct (bdiffers _ _); [|reflexivity]. cbn [num]. rewrite update_quiet by exact T. reflexivity.
  - destruct (Nat.eqb _ _); [reflexivity|]. destruct (ndiffers _ _); [|reflexivity]. cbn [num]. rewrite update_quiet by exact T. reflexivity.
  - destruct (Nat.eqb _ _); [reflexivity|]. destruct (ndiffers _ _); [|reflexivity]. cbn [num]. rewrite update_quiet by exact T. reflexivity.
Qed.
End Quiet.

(** ** C76 *)
(** In any history the drawn camera has the numbers of the inputs; a locked focal length is the other one, a centred
    image has its centre in the middle. *)
Theorem C76_shown : forall back l, let st := after back l in
  (forall s, ~ tied s -> camera_has st s = shows st s) /\
  (focalloc st = true -> camera_has st FY = shows st FX /\ shows st FY = shows st FX) /\
  (centered st = true -> camera_has st CX = (shows st WI / 2)%R /\ camera_has st CY = (shows st HI / 2)%R /\
     shows st CX = (shows st WI / 2)%R /\ shows st CY = (shows st HI / 2)%R) /\
  d_proj (drawn st) = proj st /\ d_scene (drawn st) = scene st.
Proof.
  intros back l st. destruct (after_inv back l) as [RD FR TI FO CE BO DR]. fold st in RD, FR, TI, FO, CE, BO, DR.
  assert (LT : forall s, tied s -> locked st s = true -> d_val (drawn st) s = spin (num st s)).
  { intros s T L. destruct (TI s T) as (_&[H|(_&H)]); [exact H|congruence]. }
  unfold camera_has, shows. splitsR.
  - intros s T. destruct (FR s T) as (_&->&_). reflexivity.
  - intros H. rewrite (LT FY) by (unfold tied; auto). rewrite (FO H). auto.
  - intros H. rewrite (LT CX), (LT CY) by (unfold tied; auto). destruct (CE H) as (->&->). rewrite !mult_IZR. cbn [factor]. repeat split; field.
  - apply DR.
  - apply DR.
Qed.
Print Assumptions C76_shown.
(** As long as no box is checked again, this holds for all inputs. *)
Theorem C76_once : forall back l, Forall never_checked l -> forall s, camera_has (after back l) s = shows (after back l) s.
Proof.
  intros back l F s. unfold camera_has, shows. assert (D : tied s \/ ~ tied s) by (destruct s; unfold tied; try (left; auto; fail); right; intros [?|[?|?]]; discriminate).
  destruct D as [T|T]; [destruct (after_inv2 back l F s T) as (->&_); reflexivity|]. destruct (after_inv back l) as [_ FR _ _ _ _ _].
  destruct (FR s T) as (_&->&_). reflexivity.
Qed.
Print Assumptions C76_once.
(** The window opens with the camera of startDemonstratorGUI, five metres above the ground; an input the user never
    touches keeps its number, in the camera too, unless it is one that the window sets itself. *)
Definition opening : list (slider * R) :=
  [(FX, 3860); (WI, 4608); (HI, 2592); (HEAD, 0); (TILT, 0); (ROLL, 0); (PX, 0); (PY, 0); (ELEV, 5)]%R.
Theorem C76_untouched : forall back l s x, In (s, x) opening -> Forall (fun a => ~ touches a s) l ->
  shows (after back l) s = x /\ camera_has (after back l) s = x.
Proof.
  intros back l s x HO HF. assert (T : ~ tied s).
  { cbn in HO. unfold tied. repeat (destruct HO as [HO|HO]; [injection HO as <- _; intros [?|[?|?]]; discriminate|]). contradiction. }
  assert (E : shows (after back l) s = x).
  { unfold shows, after. replace (num (fold_left (act back) l (start back)) s) with (num (start back) s).
    - unfold start. rewrite update_quiet by exact T. cbn [num setValue spin]. cbn in HO.
      repeat (destruct HO as [HO|HO]; [injection HO as <- <-; cbn; lra|]). contradiction.
    - symmetry. generalize (start back). revert HF. induction l as [|a l IH]; intros HF st; [reflexivity|]. inversion HF as [|a' l' Ha Hl]; subst. cbn [fold_left].
      rewrite (IH Hl). apply act_quiet; assumption. }
  split; [exact E|]. destruct (C76_shown back l) as (SH&_). rewrite (SH s T). exact E.
Qed.
Print Assumptions C76_untouched.
Example C76_untouched_example : forall back, let l := [Focal false; Type_ FY 100; Type_ HI 1000; Proj 1] in
  In (WI, 4608%R) opening /\ Forall (fun a => ~ touches a WI) l /\ camera_has (after back l) HI = 1000%R /\ camera_has (after back l) CX = 2304%R.
Proof.
  intros back l. split; [cbn; tauto|]. split; [repeat constructor; cbn; auto; discriminate|]. unfold camera_has, l. split.
  - replace (d_val _ HI) with 1000 by (vm_compute; reflexivity). cbn. lra.
  - replace (d_val _ CX) with 230400 by (vm_compute; reflexivity). cbn. lra.
Qed.
(** An input that shows another number than the camera has: it shows the number it sent last, before it was locked. *)
Theorem C76_stale_only : forall back l s, camera_has (after back l) s <> shows (after back l) s ->
  tied s /\ locked (after back l) s = false /\ last (num (after back l) s) = Some (spin (num (after back l) s)).
Proof.
  intros back l s H. set (st := after back l) in *. destruct (after_inv back l) as [_ FR TI _ _ _ _]. fold st in FR, TI.
  assert (D : tied s \/ ~ tied s) by (destruct s; unfold tied; try (left; auto; fail); right; intros [?|[?|?]]; discriminate).
  destruct D as [T|T]; unfold camera_has, shows in H.
  - destruct (TI s T) as (_&[K|(K&L)]); [rewrite K in H; congruence|auto].
  - destruct (FR s T) as (_&K&_). rewrite K in H. congruence.
Qed.
Print Assumptions C76_stale_only.
(** Such a picture is repaired by any change of a box or of another input. *)
Definition changes (st : win) (a : action) : Prop :=
  match a with
  | Focal b => b <> focalloc st | Center b => b <> centered st | Proj p => p <> proj st | Scene n => n <> scene st
  | Type_ s v => ~ tied s /\ clamp s v <> spin (num st s)
  | _ => False
  end.
Theorem C76_repaired : forall back l a s, changes (after back l) a -> camera_has (act back (after back l) a) s = shows (act back (after back l) a) s.
Proof.
  intros back l a s H. set (st := after back l) in *. pose proof (after_inv back l) as HI. fold st in HI. clearbody st.
  destruct (i_boxes st HI) as (BF&BC&BP&BS). pose proof (i_ready st HI) as RD.
  assert (U : forall q, ready q -> d_val (drawn (updatePlot back q)) s = spin (num (updatePlot back q) s)).
  { intros q RQ. pose proof (update_facts back q RQ) as K. cbv zeta in K. apply K. }
  assert (E : d_val (drawn (act back st a)) s = spin (num (act back st a) s)); [|unfold camera_has, shows; rewrite E; reflexivity].
  destruct a as [s' v|s' k|s' ks|b|b|p|n]; cbn [changes] in H; try contradiction; cbn [DemoQt.act].
  - destruct H as (T&H). destruct (i_free st HI s' T) as (EN&_&KE). rewrite EN. assert (Q : Z.eqb (clamp s' v) (spin (num st s')) = false) by (apply Z.eqb_neq; auto). rewrite Q.
    cbn [negb orb]. unfold event. set (st1 := change s' _ st). set (st2 := change s' (setValue back s' (clamp s' v)) st1).
    assert (D : drag (num st2 s') = false) by (unfold st2; rewrite change_num; cbn; rewrite upd_same; apply RD). rewrite D. unfold emit.
    assert (N2 : num st2 s' = setValue back s' (clamp s' v) (num st1 s')) by (unfold st2; apply change_num).
    assert (N1 : last (num st1 s') = last (num st s')) by (unfold st1; rewrite change_num; reflexivity).
    assert (DF : differs (spin (num st2 s')) (last (num st2 s')) = true).
    { rewrite N2. cbn [setValue spin last]. rewrite N1. assert (CC : clamp s' (clamp s' v) = clamp s' v) by (apply clamp_in, clamp_range). rewrite CC.
      destruct KE as [-> | ->]; cbn [differs]; [reflexivity|rewrite Q; reflexivity]. }
    rewrite DF. assert (R2 : ready st2).
    { destruct RD as [R Id]. split; intros x; destruct (slider_dec s' x) as [<- | X].
      - rewrite N2. cbn. apply clamp_range.
      - unfold st2, st1. cbn. rewrite !upd_other by auto. apply R.
      - exact D.
      - unfold st2, st1. cbn. rewrite !upd_other by auto. apply Id. }
    change (drawn (change s' set_last (updatePlot back st2))) with (drawn (updatePlot back st2)). rewrite (U st2 R2).
    destruct (slider_dec s' s) as [<- | X]; [rewrite change_num; reflexivity|cbn [change set_num num]; rewrite upd_other by auto; reflexivity].
  - assert (Q : Bool.eqb b (focalloc st) = false) by (destruct b, (focalloc st); cbn; congruence). rewrite Q. cbn [focal_last]. rewrite (bdiffers_new _ _ _ BF Q). apply U. destruct RD; split; assumption.
  - assert (Q : Bool.eqb b (centered st) = false) by (destruct b, (centered st); cbn; congruence). rewrite Q. cbn [center_last]. rewrite (bdiffers_new _ _ _ BC Q). apply U. destruct RD; split; assumption.
  - apply Nat.eqb_neq in H. rewrite H. cbn [proj_last]. rewrite (ndiffers_new _ _ _ BP H). apply U. destruct RD; split; assumption.
  - apply Nat.eqb_neq in H. rewrite H. cbn [scene_last]. rewrite (ndiffers_new _ _ _ BS H). apply U. destruct RD; split; assumption.
Qed.
Print Assumptions C76_repaired.
(** But a number typed into an input that was locked meanwhile may not be drawn: the input had sent it before. *)
Theorem C76_stale_refuted : exists l, forall back, shows (after back l) FY = 100%R /\ camera_has (after back l) FY = 3860%R /\ focalloc (after back l) = false.
Proof.
  exists [Focal false; Type_ FY 100; Focal true; Focal false; Type_ FY 100]. intros back. unfold shows, camera_has. splits3.
  - replace (spin (num (after back [Focal false; Type_ FY 100; Focal true; Focal false; Type_ FY 100]) FY)) with 100 by (vm_compute; reflexivity). cbn. lra.
  - replace (d_val (drawn (after back [Focal false; Type_ FY 100; Focal true; Focal false; Type_ FY 100])) FY) with 3860 by (vm_compute; reflexivity). cbn. lra.
  - reflexivity.
Qed.
Print Assumptions C76_stale_refuted.
(** the width and a turned camera: 4000 pixels, the slider of the tilt dragged to 45.5 degrees *)
Example C76_shown_example : let st := after (fun k => k) [Type_ WI 4000; Drag TILT [1000; 4550]] in
  camera_has st CX = 2000%R /\ camera_has st TILT = (455 / 10)%R /\ camera_has st FY = 3860%R.
Proof.
  intros st. unfold camera_has. splits3.
  - replace (d_val (drawn st) CX) with 200000 by (vm_compute; reflexivity). cbn. lra.
  - replace (d_val (drawn st) TILT) with 4550 by (vm_compute; reflexivity). cbn. lra.
  - replace (d_val (drawn st) FY) with 3860 by (vm_compute; reflexivity). cbn. lra.
Qed.
Example C76_once_example : Forall never_checked [Focal false; Type_ FY 100; Center false; Key CX 7] /\
  (forall back, shows (after back [Focal false; Type_ FY 100; Center false]) FY = 100%R).
Proof.
  split; [repeat constructor; discriminate|]. intros back. unfold shows.
  replace (spin (num (after back [Focal false; Type_ FY 100; Center false]) FY)) with 100 by (vm_compute; reflexivity). cbn. lra.
Qed.
Example C76_repaired_example : forall back, let l := [Focal false; Type_ FY 100; Focal true; Focal false; Type_ FY 100] in
  changes (after back l) (Type_ HEAD 10) /\ camera_has (act back (after back l) (Type_ HEAD 10)) FY = 100%R.
Proof.
  intros back l. assert (C : changes (after back l) (Type_ HEAD 10)) by (split; [unfold tied; intros [?|[?|?]]; discriminate|vm_compute; discriminate]).
  split; [exact C|]. unfold l in *. rewrite (C76_repaired back _ _ FY C). unfold shows.
  match goal with |- (IZR ?z / _)%R = _ => replace z with 100 by (vm_compute; reflexivity) end. cbn. lra.
Qed.
