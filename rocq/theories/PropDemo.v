(** * C74: the demonstrator draws the camera its sliders say, also after switching the angles *)
Require Import Reals List Bool Arith Lra Lia.
From Verif Require Import Num Vec Orientation OrientationFacts PropOrientation Demo.
Import ListNotations.
Open Scope R_scope.

(** ** The camera that is drawn *)
(** The camera with the values of the visible sliders, centred *)
Definition told (s : sliders) (angles : bool) : dcam :=
  DCam (s 0%nat) (s 1%nat) (s 2%nat) (s 0%nat / 2) (s 1%nat / 2) (s (if angles then 6 else 3)%nat) (s (if angles then 7 else 4)%nat) (s (if angles then 8 else 5)%nat)
    (s 9%nat) (s 10%nat) (s 11%nat).
Definition synced (d : demo) : Prop := second d = ypr d /\ drawn d = told (values d) (ypr d).
Lemma update_synced d : second d = ypr d -> synced (update d).
Proof. intros E. unfold update, synced, drawn, told, setattrs. rewrite E. destruct (ypr d); cbn; auto. Qed.
Lemma update_fields d : values (update d) = values d /\ ypr (update d) = ypr d /\ second (update d) = second d.
Proof. unfold update. destruct (second d); cbn; auto. Qed.
Lemma set_val_fields i x d : values (set_val i x d) = put i x (values d) /\ ypr (set_val i x d) = ypr d /\ second (set_val i x d) = second d.
Proof. unfold set_val. apply (update_fields (Demo (put i x (values d)) (ypr d) (second d) (cam1 d) (cam2 d))). Qed.
Lemma set_val_synced i x d : second d = ypr d -> synced (set_val i x d).
Proof. intros E. apply update_synced. exact E. Qed.
Definition converted (to_ypr : bool) (s : sliders) : sliders :=
  if to_ypr then put 8 (- s 5%nat) (put 7 (s 4%nat - 90) (put 6 (s 3%nat) s)) else put 5 (- s 8%nat) (put 4 (s 7%nat + 90) (put 3 (s 6%nat) s)).
Lemma change_fields b d : values (change_spatial b d) = converted b (values d) /\ ypr (change_spatial b d) = b /\ synced (change_spatial b d).
Proof.
  unfold change_spatial. destruct b.
  - set (d0 := Demo (values d) true (second d) (cam1 d) (cam2 d)). destruct (set_val_fields 6 (values d0 3%nat) d0) as (A1&A2&A3). set (d1 := set_val 6 _ d0) in *.
    destruct (set_val_fields 7 (values d1 4%nat - 90) d1) as (B1&B2&B3). set (d2 := set_val 7 _ d1) in *.
    destruct (set_val_fields 8 (- values d2 5%nat) d2) as (C1&C2&C3). set (d3 := set_val 8 _ d2) in *.
    set (d4 := Demo (values d3) (ypr d3) true (cam1 d3) (cam2 d3)). destruct (update_fields d4) as (D1&D2&D3).
    rewrite D1, D2. cbn [values ypr second d4]. rewrite C1, C2, B1, B2, A1, A2. split; [reflexivity|]. split; [reflexivity|].
    apply update_synced. cbn. rewrite C2, B2, A2. reflexivity.
  - set (d0 := Demo (values d) false (second d) (cam1 d) (cam2 d)). destruct (set_val_fields 3 (values d0 6%nat) d0) as (A1&A2&A3). set (d1 := set_val 3 _ d0) in *.
    destruct (set_val_fields 4 (values d1 7%nat + 90) d1) as (B1&B2&B3). set (d2 := set_val 4 _ d1) in *.
    destruct (set_val_fields 5 (- values d2 8%nat) d2) as (C1&C2&C3). set (d3 := set_val 5 _ d2) in *.
    set (d4 := Demo (values d3) (ypr d3) false (cam1 d3) (cam2 d3)). destruct (update_fields d4) as (D1&D2&D3).
    rewrite D1, D2. cbn [values ypr second d4]. rewrite C1, C2, B1, B2, A1, A2. split; [reflexivity|]. split; [reflexivity|].
    apply update_synced. cbn. rewrite C2, B2, A2. reflexivity.
Qed.
Lemma reset_one_synced d i : synced d -> synced (reset_one d i).
Proof. intros S. unfold reset_one. destruct Req_EM_T; [exact S|]. apply set_val_synced. apply S. Qed.
Lemma reset_one_fields d i : ypr (reset_one d i) = ypr d /\ forall j, values (reset_one d i) j = if Nat.eqb j i then init i else values d j.
Proof.
  unfold reset_one. destruct Req_EM_T as [E|E].
  - split; [reflexivity|]. intros j. destruct (Nat.eqb_spec j i); congruence.
  - destruct (set_val_fields i (init i) d) as (A&B&_). split; [exact B|]. intros j. rewrite A. reflexivity.
Qed.
Lemma reset_fields_list l : forall d, let d' := fold_left reset_one l d in ypr d' = ypr d /\ (synced d -> synced d') /\
  forall j, values d' j = if existsb (Nat.eqb j) l then init j else values d j.
Proof.
  induction l as [|i l IH]; intros d; cbn; [auto|]. destruct (IH (reset_one d i)) as (A&B&C). destruct (reset_one_fields d i) as (A'&C'). cbn in *.
  rewrite A, A'. split; [reflexivity|]. split; [intros S; apply B, reset_one_synced, S|]. intros j. rewrite C, C'.
  destruct (Nat.eqb_spec j i) as [->|]; cbn; destruct (existsb _ l); reflexivity.
Qed.
Lemma reset_fields d : ypr (reset d) = ypr d /\ (synced d -> synced (reset d)) /\ forall j, (j < 12)%nat -> values (reset d) j = init j.
Proof.
  destruct (reset_fields_list (seq 0 12) d) as (A&B&C). split; [exact A|]. split; [exact B|]. intros j L. unfold reset. rewrite C.
  assert (E : existsb (Nat.eqb j) (seq 0 12) = true) by (apply existsb_exists; exists j; split; [apply in_seq; lia|apply Nat.eqb_refl]). rewrite E. reflexivity.
Qed.
Lemma step_synced d e : synced d -> synced (step d e).
Proof.
  intros S. destruct e as [i x|b|]; cbn [step].
  - destruct (visible d i); [apply set_val_synced; apply S|exact S].
  - apply (change_fields b d).
  - apply reset_fields. exact S.
Qed.
Lemma run_ind (P : demo -> Prop) es : P open_demo -> (forall d e, P d -> P (step d e)) -> P (run es).
Proof. intros H0 HS. unfold run. revert H0. generalize open_demo. induction es as [|e es IH]; intros d H; [exact H|]. cbn. apply IH, HS, H. Qed.
Lemma run_synced es : synced (run es).
Proof. apply run_ind; [apply (change_fields false)|intros; apply step_synced; assumption]. Qed.
(** Whatever was clicked and dragged, the camera that is drawn has the values of the visible sliders. *)
Theorem C74_shown es : drawn (run es) = told (values (run es)) (ypr (run es)).
Proof. apply run_synced. Qed.
Print Assumptions C74_shown.

(** ** Ranges *)
Definition in_range (d : demo) : Prop := forall i, (i < 12)%nat -> lo i <= values d i <= hi i.
Ltac twelve i := do 12 (destruct i as [|i]; [cbn; lra|]); lia.
Lemma init_range i : (i < 12)%nat -> lo i <= init i <= hi i.
Proof. intros L. unfold lo, hi, init. twelve i. Qed.
Lemma range_ok i : (i < 12)%nat -> lo i <= hi i.
Proof. intros L. pose proof (init_range i L). lra. Qed.
Lemma converted_range b s : (forall i, (i < 12)%nat -> lo i <= s i <= hi i) -> forall i, (i < 12)%nat -> lo i <= converted b s i <= hi i.
Proof.
  intros R0 i L. unfold converted. destruct b.
  - unfold put. destruct (Nat.eqb_spec i 8) as [->|]; [specialize (R0 5%nat ltac:(lia)); cbn in *; lra|].
    destruct (Nat.eqb_spec i 7) as [->|]; [specialize (R0 4%nat ltac:(lia)); cbn in *; lra|].
    destruct (Nat.eqb_spec i 6) as [->|]; [specialize (R0 3%nat ltac:(lia)); cbn in *; lra|]. apply R0, L.
  - unfold put. destruct (Nat.eqb_spec i 5) as [->|]; [specialize (R0 8%nat ltac:(lia)); cbn in *; lra|].
    destruct (Nat.eqb_spec i 4) as [->|]; [specialize (R0 7%nat ltac:(lia)); cbn in *; lra|].
    destruct (Nat.eqb_spec i 3) as [->|]; [specialize (R0 6%nat ltac:(lia)); cbn in *; lra|]. apply R0, L.
Qed.
(** The converted angles never leave the range of their sliders. *)
Theorem C74_range es i : (i < 12)%nat -> lo i <= values (run es) i <= hi i.
Proof.
  revert i. apply (run_ind in_range).
  - intros i L. destruct (change_fields false (Demo init true false cam1_0 cam2_0)) as (E&_). unfold open_demo. rewrite E. apply converted_range; [exact init_range|exact L].
  - intros d e I i L. destruct e as [k x|b|]; cbn [step].
    + destruct (visible d k); [|apply I, L]. destruct (set_val_fields k (Rmax (lo k) (Rmin (hi k) x)) d) as (E&_). rewrite E. unfold put.
      destruct (Nat.eqb_spec i k) as [->|]; [|apply I, L]. pose proof (range_ok k L). unfold Rmax, Rmin. repeat destruct Rle_dec; lra.
    + destruct (change_fields b d) as (E&_). rewrite E. apply converted_range; [exact I|exact L].
    + destruct (reset_fields d) as (_&_&E). rewrite E by exact L. apply init_range, L.
Qed.
(** Every visible slider can be brought to every value of its range: pictures up to 5000 pixels wide and high, focal lengths up
    to twice the first one, all headings, yaws and rolls, tilts from straight down to straight up, elevations up to 20 m, positions up
    to 10 m to each side. *)
Definition slider_range (i : nat) : R * R :=
  if (i <? 2)%nat then (0, 5000) else if (i =? 2)%nat then (0, 2 * 3860) else if (i =? 4)%nat then (0, 180) else if (i =? 7)%nat then (-90, 90)
  else if (i <? 9)%nat then (-180, 180) else if (i =? 9)%nat then (0, 20) else (-10, 10).
Theorem C74_reach es i x : let d := run es in let (a, b) := slider_range i in visible d i = true -> a <= x <= b -> ((i < 2)%nat -> exists z, x = IZR z) ->
  values (run (es ++ [EDrag i x])) i = x /\ drawn (run (es ++ [EDrag i x])) = told (put i x (values d)) (ypr d).
Proof.
  intros d. destruct (slider_range i) as (a, b) eqn:ER. intros V X _. rewrite C74_shown. unfold run. rewrite !fold_left_app. fold (run es). fold d. cbn [fold_left step]. rewrite V.
  assert (C : Rmax (lo i) (Rmin (hi i) x) = x).
  { assert (L : (i < 12)%nat). { unfold visible in V. destruct ((3 <=? i)%nat && (i <=? 5)%nat) eqn:E1; [apply andb_prop in E1; destruct E1 as (_&E1); apply Nat.leb_le in E1; lia|].
      destruct ((6 <=? i)%nat && (i <=? 8)%nat) eqn:E2; [apply andb_prop in E2; destruct E2 as (_&E2); apply Nat.leb_le in E2; lia|]. apply Nat.ltb_lt, V. }
    assert (K : lo i <= x <= hi i) by (do 12 (destruct i as [|i]; [cbn in ER; injection ER as <- <-; cbn; lra|]); lia). rewrite (Rmin_right (hi i)) by lra. apply Rmax_right. lra. }
  rewrite C. destruct (set_val_fields i x d) as (E&F&_). rewrite E, F. split; [unfold put; rewrite Nat.eqb_refl|]; reflexivity.
Qed.
Print Assumptions C74_reach.
Print Assumptions C74_range.

(** ** Switching *)
Lemma fin_opar r : rep_opar (opar_fin r) r.
Proof. unfold rep_opar, opar_fin. cbn. repeat split. Qed.
Lemma fin_ypar r : rep_ypar (ypar_fin r) r.
Proof. unfold rep_ypar, ypar_fin. cbn. repeat split. Qed.
Lemma same_views y o : o = OPar (y_elevation_m y) (90 + pitch_deg y) (- y_roll_deg y) (yaw_deg y) (y_pos_x_m y) (y_pos_y_m y) ->
  exists my mo, init_matrix_ypr (ypar_fin y) = Some my /\ init_matrix (opar_fin o) = Some mo /\
  forall P, exists Q, rep3 (cameraFromSpace my (fin3 P)) Q /\ rep3 (cameraFromSpace mo (fin3 P)) Q.
Proof.
  intros E. destruct (C01_ypr_rigid (ypar_fin y) y (fin_ypar y)) as (my&Ey&_). destruct (C01_orientation_rigid (opar_fin o) o (fin_opar o)) as (mo&Eo&_).
  exists my, mo. split; [exact Ey|]. split; [exact Eo|]. intros P.
  destruct (C05_ypr_same_family _ _ _ _ _ _ (fin_ypar y) (fin_opar o) Ey Eo E (fin3 P) P) as (X&_); [apply rep3_fin|exact X].
Qed.
Definition same_camera (d d' : demo) : Prop :=
  d_w (drawn d') = d_w (drawn d) /\ d_h (drawn d') = d_h (drawn d) /\ d_f (drawn d') = d_f (drawn d) /\ d_cx (drawn d') = d_cx (drawn d) /\ d_cy (drawn d') = d_cy (drawn d) /\
  exists m m', orientation d = Some m /\ orientation d' = Some m' /\ forall P, exists Q, rep3 (cameraFromSpace m (fin3 P)) Q /\ rep3 (cameraFromSpace m' (fin3 P)) Q.
(** Clicking the other label changes nothing about the camera that is drawn: every point has the same place. *)
Theorem C74_switch es : same_camera (run es) (step (run es) (ERadio (negb (ypr (run es))))).
Proof.
  destruct (run_synced es) as (S1&S2). set (d := run es) in *. cbn [step]. destruct (change_fields (negb (ypr d)) d) as (E1&E2&(E3&E4)). set (d' := change_spatial _ d) in *.
  assert (Hd : second d' = negb (ypr d)) by congruence. unfold same_camera, orientation. rewrite Hd, S1, E4, S2, E1, E2.
  destruct (ypr d); cbn [negb told converted put d_w d_h d_f d_cx d_cy d_a d_b d_c d_e d_x d_y Nat.eqb].
  - repeat (split; [reflexivity|]). set (s := values d).
    destruct (same_views (YPar (s 9%nat) (s 6%nat) (s 8%nat) (s 7%nat) (s 10%nat) (s 11%nat)) (OPar (s 9%nat) (s 7%nat + 90) (- s 8%nat) (s 6%nat) (s 10%nat) (s 11%nat))) as (my&mo&A&B&C).
    { cbn. f_equal. lra. }
    exists my, mo. auto.
  - repeat (split; [reflexivity|]). set (s := values d).
    destruct (same_views (YPar (s 9%nat) (s 3%nat) (- s 5%nat) (s 4%nat - 90) (s 10%nat) (s 11%nat)) (OPar (s 9%nat) (s 4%nat) (s 5%nat) (s 3%nat) (s 10%nat) (s 11%nat))) as (my&mo&A&B&C).
    { cbn. f_equal; lra. }
    exists mo, my. split; [exact B|]. split; [exact A|]. intros P. destruct (C P) as (Q&Q1&Q2). exists Q. auto.
Qed.
Print Assumptions C74_switch.
(** And back: all visible sliders are where they were. *)
Theorem C74_back es i : let d := run es in let d' := step (step d (ERadio (negb (ypr d)))) (ERadio (ypr d)) in
  visible d i = true -> visible d' i = true /\ values d' i = values d i.
Proof.
  intros d d' V. unfold d'. cbn [step]. destruct (change_fields (negb (ypr d)) d) as (A1&A2&_). set (d1 := change_spatial (negb (ypr d)) d) in *.
  destruct (change_fields (ypr d) d1) as (B1&B2&_). unfold visible in *. rewrite B1, B2, A1. split; [exact V|]. clearbody d1. clear A1 A2 B1 B2 d'.
  destruct (ypr d); unfold converted, put; cbn [negb].
  - destruct (Nat.leb_spec 3 i), (Nat.leb_spec i 5), (Nat.leb_spec 6 i), (Nat.leb_spec i 8); cbn [andb negb] in V; try discriminate;
      do 12 (destruct i as [|i]; [cbn; try lra; try lia; try reflexivity|]); reflexivity.
  - destruct (Nat.leb_spec 3 i), (Nat.leb_spec i 5), (Nat.leb_spec 6 i), (Nat.leb_spec i 8); cbn [andb negb] in V; try discriminate;
      do 12 (destruct i as [|i]; [cbn; try lra; try lia; try reflexivity|]); reflexivity.
Qed.
Print Assumptions C74_back.
(** Reset brings back the first camera, in whichever angles. *)
Theorem C74_reset es : same_camera open_demo (step (run es) EReset).
Proof.
  destruct (change_fields false (Demo init true false cam1_0 cam2_0)) as (A1&A2&(A3&A4)). fold open_demo in *. cbn [step].
  destruct (reset_fields (run es)) as (B1&B2&B3). destruct (B2 (run_synced es)) as (B4&B5). unfold same_camera, orientation. rewrite A4, B5, A3, B4, A2, A1.
  unfold told. destruct (ypr (reset (run es))); rewrite !B3 by lia; cbn [d_w d_h d_f d_cx d_cy d_a d_b d_c d_e d_x d_y converted put Nat.eqb].
  - repeat (split; [cbn; lra|]).
    destruct (same_views (YPar (init 9) (init 6) (init 8) (init 7) (init 10) (init 11)) (OPar (init 9) (init 7 + 90) (- init 8) (init 6) (init 10) (init 11))) as (my&mo&A&B&C).
    { cbn [y_elevation_m pitch_deg y_roll_deg yaw_deg y_pos_x_m y_pos_y_m]. f_equal. lra. }
    exists mo, my. split; [exact B|]. split; [exact A|]. intros P. destruct (C P) as (Q&Q1&Q2). exists Q. auto.
  - repeat (split; [cbn; lra|]).
    destruct (same_views (YPar (init 9) (init 6) (init 8) (init 7) (init 10) (init 11)) (OPar (init 9) (init 7 + 90) (- init 8) (init 6) (init 10) (init 11))) as (my&mo&A&B&C).
    { cbn [y_elevation_m pitch_deg y_roll_deg yaw_deg y_pos_x_m y_pos_y_m]. f_equal. lra. }
    exists mo, mo. split; [exact B|]. split.
    + rewrite <- B. do 2 f_equal. f_equal; cbn; lra.
    + intros P. destruct (C P) as (Q&Q1&Q2). exists Q. auto.
Qed.
Print Assumptions C74_reset.

(** ** What does not hold *)
(** Clicking the label that is selected already throws the angles away: they are computed from the hidden sliders. *)
Theorem C74_reclick_refuted : exists es, drawn (step (run es) (ERadio (ypr (run es)))) <> drawn (run es).
Proof.
  exists [EDrag 3 90]. assert (S := run_synced [EDrag 3 90]). destruct S as (_&S). rewrite S.
  assert (Y : ypr (run [EDrag 3 90]) = false) by reflexivity. rewrite Y. cbn [step]. destruct (change_fields false (run [EDrag 3 90])) as (E1&E2&(_&E4)). rewrite E4, E1, E2.
  intros X. apply (f_equal d_a) in X. cbn [told d_a converted put Nat.eqb] in X.
  assert (V : values (run [EDrag 3 90]) = put 3 90 (values open_demo)).
  { unfold run. cbn [fold_left step]. replace (visible open_demo 3) with true by reflexivity. destruct (set_val_fields 3 (Rmax (lo 3) (Rmin (hi 3) 90)) open_demo) as (V&_). rewrite V.
    f_equal. cbn. unfold Rmax, Rmin. repeat destruct Rle_dec; lra. }
  rewrite V in X. cbn [put Nat.eqb] in X. destruct (change_fields false (Demo init true false cam1_0 cam2_0)) as (O&_). unfold open_demo in X. rewrite O in X. cbn in X. lra.
Qed.
Print Assumptions C74_reclick_refuted.

(** ** Examples *)
Example C74_example : ypr (run [EDrag 4 45; ERadio true; EDrag 7 (-20)]) = true /\ visible (run [EDrag 4 45; ERadio true; EDrag 7 (-20)]) 7 = true /\
  visible (run [EDrag 4 45; ERadio true]) 4 = false /\ values (run [EDrag 4 45; ERadio true]) 7%nat = -45.
Proof.
  split; [reflexivity|]. split; [reflexivity|]. split; [reflexivity|].
  unfold run. cbn [fold_left step]. destruct (change_fields true (step open_demo (EDrag 4 45))) as (E&_). cbn [step] in E. rewrite E. cbn [converted put Nat.eqb].
  replace (visible open_demo 4) with true by reflexivity. destruct (set_val_fields 4 (Rmax (lo 4) (Rmin (hi 4) 45)) open_demo) as (V&_). rewrite V. cbn [put Nat.eqb lo hi nth].
  unfold Rmax, Rmin. repeat destruct Rle_dec; lra.
Qed.

Example C74_reach_example : values (run [EDrag 9 (37 / 2)]) 9%nat = 37 / 2 /\ d_e (drawn (run [EDrag 9 (37 / 2)])) = 37 / 2.
Proof.
  destruct (C74_reach [] 9 (37 / 2)) as (A&B); [reflexivity|lra|intros; lia|]. split; [exact A|]. cbn [app] in B. rewrite B. reflexivity.
Qed.
