(** * C73: the picture view keeps under the cursor what is there, and fits and centres pictures *)
Require Import Reals List Bool ZArith Lra Lia.
From Verif Require Import OrientationFacts GraphicsView.
Import ListNotations.
Open Scope R_scope.

(** ** Turning by quarters *)
Lemma turn_0 a p : (a mod 360 = 0)%Z -> turn a p = p.
Proof.
  intros E. assert (X : IZR a = 0 + 360 * IZR (a / 360)).
  { rewrite (Z.div_mod a 360) at 1 by lia. rewrite E, plus_IZR, mult_IZR. lra. }
  unfold turn. change (IZR a * (PI / 180)) with (rad (IZR a)). rewrite (cos_deg_period _ _ _ X), (sin_deg_period _ _ _ X).
  unfold rad. rewrite Rmult_0_l, cos_0, sin_0. destruct p; cbn. f_equal; lra.
Qed.
Lemma turn_90 a p : (a mod 360 = 90)%Z -> turn a p = (- snd p, fst p).
Proof.
  intros E. assert (X : IZR a = 90 + 360 * IZR (a / 360)).
  { rewrite (Z.div_mod a 360) at 1 by lia. rewrite E, plus_IZR, mult_IZR. lra. }
  unfold turn. change (IZR a * (PI / 180)) with (rad (IZR a)). rewrite (cos_deg_period _ _ _ X), (sin_deg_period _ _ _ X).
  unfold rad. replace (90 * (PI / 180)) with (PI / 2) by lra. rewrite cos_PI2, sin_PI2. destruct p; cbn. f_equal; lra.
Qed.
Lemma turn_180 a p : (a mod 360 = 180)%Z -> turn a p = (- fst p, - snd p).
Proof.
  intros E. assert (X : IZR a = 180 + 360 * IZR (a / 360)).
  { rewrite (Z.div_mod a 360) at 1 by lia. rewrite E, plus_IZR, mult_IZR. lra. }
  unfold turn. change (IZR a * (PI / 180)) with (rad (IZR a)). rewrite (cos_deg_period _ _ _ X), (sin_deg_period _ _ _ X).
  unfold rad. replace (180 * (PI / 180)) with PI by lra. rewrite cos_PI, sin_PI. destruct p; cbn. f_equal; lra.
Qed.
Lemma turn_270 a p : (a mod 360 = 270)%Z -> turn a p = (snd p, - fst p).
Proof.
  intros E. assert (X : IZR a = 270 + 360 * IZR (a / 360)).
  { rewrite (Z.div_mod a 360) at 1 by lia. rewrite E, plus_IZR, mult_IZR. lra. }
  unfold turn. change (IZR a * (PI / 180)) with (rad (IZR a)). rewrite (cos_deg_period _ _ _ X), (sin_deg_period _ _ _ X).
  unfold rad. replace (270 * (PI / 180)) with (3 * (PI / 2)) by lra. rewrite cos_3PI2, sin_3PI2. destruct p; cbn. f_equal; lra.
Qed.
Lemma turn_back a p : turn (- a) (turn a p) = p.
Proof.
  unfold turn. cbn [fst snd]. rewrite opp_IZR. replace (- IZR a * (PI / 180)) with (- (IZR a * (PI / 180))) by lra. rewrite cos_neg, sin_neg.
  pose proof (sin2_cos2 (IZR a * (PI / 180))) as E. unfold Rsqr in E. destruct p as [x y]. cbn [fst snd]. set (c := cos _) in *. set (s := sin _) in *.
  f_equal; [transitivity ((s * s + c * c) * x)|transitivity ((s * s + c * c) * y)]; try (ring || (rewrite E; ring)).
Qed.
Lemma turn_forth a p : turn a (turn (- a) p) = p.
Proof. rewrite <- (Z.opp_involutive a) at 1. apply turn_back. Qed.

Section Events.
Variable rnd : R -> R.
(** The sizes of widgets and pictures and the factors of a zoom are positive. *)
Definition valid (e : event) : Prop :=
  match e with EExtend w h | EResize w h => 0 < w /\ 0 < h | EScale f _ => 0 < f | _ => True end.
Record good (v : view) : Prop := Good { g_size : 0 < fst (size v) /\ 0 < snd (size v); g_rect : 0 < fst (rect v) /\ 0 < snd (rect v);
  g_scale : 0 < scale v; g_turn : rotation v = (angle v mod 360)%Z }.
Lemma best_pos pick v : good v -> (forall a b, 0 < a -> 0 < b -> 0 < pick a b) -> 0 < best pick v.
Proof.
  intros [(A&B) (C&D) _ _] P. unfold best. destruct (quarter v); apply P; apply Rdiv_lt_0_compat; assumption.
Qed.
Lemma min_pos a b : 0 < a -> 0 < b -> 0 < Rmin a b.
Proof. intros; unfold Rmin; destruct Rle_dec; assumption. Qed.
Lemma max_pos a b : 0 < a -> 0 < b -> 0 < Rmax a b.
Proof. intros; unfold Rmax; destruct Rle_dec; assumption. Qed.
Lemma place_good s v : good v -> 0 < s -> good (place s v).
Proof. intros [A B C D] P. split; assumption. Qed.
Lemma fit_good v : good v -> good (fit_in_view v).
Proof.
  intros G. assert (P := best_pos Rmin v G min_pos). destruct G as [A B C D]. split; cbn; assumption.
Qed.
Lemma center_good x y v : good v -> good (center_on x y v).
Proof.
  intros [A B C D]. unfold center_on. destruct (rect v) eqn:E. destruct (Z.eqb (rotation v) 180); (split; cbn; [assumption|rewrite E; assumption|assumption|assumption]).
Qed.
Lemma scale_good f p v : 0 < f -> good v -> good (scale_origin f p v).
Proof. intros P [A B C D]. destruct p. split; cbn; try assumption. apply Rmult_lt_0_compat; assumption. Qed.
Lemma step_good e v : valid e -> good v -> good (step rnd e v).
Proof.
  intros V G. destruct e as [w h| |w h|a| | |x y|x y|x y|f p|up p|p|p|]; cbn [step valid] in *.
  - unfold set_extend. assert (X : good (set_rect (w, h) v)) by (destruct G as [A B C D]; split; cbn; assumption).
    destruct (fitted v && negb (pt_eqb (rect v) (w, h)))%bool; [apply fit_good|]; exact X.
  - unfold paint. destruct (initialized v); [exact G|]. apply fit_good. destruct G as [A B C D]. split; assumption.
  - unfold resize. assert (X : good (set_size (w, h) v)) by (destruct G as [A B C D]; split; cbn; assumption).
    destruct (fitted (set_size (w, h) v)); [apply fit_good|]; exact X.
  - unfold rotate. set (v' := set_angle _ _ _). assert (X : good v').
    { destruct G as [A B C D]. split; cbn; try assumption. rewrite D. rewrite Zplus_mod_idemp_l. reflexivity. }
    destruct (fitted v'); [apply fit_good|]; exact X.
  - apply fit_good, G.
  - unfold fit_small. destruct (get_extend rnd false v) as [a b]. destruct (rect v) as [w h]. pose proof (place_good _ v G (best_pos Rmax v G max_pos)) as X.
    destruct Rlt_dec; apply center_good; exact X.
  - apply center_good, G.
  - destruct G as [A B C D]. split; assumption.
  - destruct G as [A B C D]. split; assumption.
  - apply scale_good; assumption.
  - apply scale_good; [destruct up; lra|exact G].
  - destruct G as [A B C D]. split; assumption.
  - unfold move. destruct (panning v); [|exact G]. destruct G as [A B C D]. split; assumption.
  - destruct G as [A B C D]. split; assumption.
Qed.
Lemma run_good es : forall v, Forall valid es -> good v -> good (run rnd es v).
Proof. induction es as [|e es IH]; intros v F G; [exact G|]. inversion F; subst. apply IH; [assumption|]. apply step_good; assumption. Qed.
Lemma start_good s : 0 < fst s /\ 0 < snd s -> good (start s).
Proof. intros P. split; cbn; try lra; try assumption. reflexivity. Qed.

(** ** Zooming and dragging *)
Definition add (a b : pt) : pt := (fst a + fst b, snd a + snd b).
Definition stretch (f : R) (p q : pt) : pt := (fst p + f * (fst q - fst p), snd p + f * (snd q - snd p)).
Lemma zoom_show f p v q : good v -> 0 < f -> show (scale_origin f p v) q = stretch f p (show v q).
Proof.
  intros [_ _ S _] F. destruct p as [x y]. unfold show, stretch. cbn -[turn]. set (t := turn _ _). f_equal; field; lra.
Qed.
(** A zoom stretches the picture about the cursor: what is under the cursor stays there. *)
Theorem C73_zoom s es f p q : 0 < fst s /\ 0 < snd s -> Forall valid es -> 0 < f -> let v := run rnd es (start s) in
  show (step rnd (EScale f p) v) q = stretch f p (show v q) /\ (show v q = p -> show (step rnd (EScale f p) v) q = p).
Proof.
  intros P V F v. assert (G : good v) by (apply run_good; [exact V|apply start_good; exact P]). cbn [step].
  rewrite zoom_show by assumption. split; [reflexivity|]. intros ->. unfold stretch. destruct p; cbn. f_equal; lra.
Qed.
(** Between pressing and releasing the right button the point that was under the cursor stays under it, also while the
    wheel is turned. *)
Inductive gesture : pt -> list event -> pt -> Prop :=
| g_end p : gesture p [] p
| g_move p q es r : gesture q es r -> gesture p (EMove q :: es) r
| g_wheel p up es r : gesture p es r -> gesture p (EWheel up p :: es) r.
Lemma gesture_kept p es r : gesture p es r -> forall v q, good v -> panning v = true -> last v = p -> show v q = p ->
  show (run rnd es v) q = r.
Proof.
  induction 1 as [p|p p' es r H IH|p up es r H IH]; intros v q G PN L E; [exact E| |].
  - apply IH; [apply step_good; [exact Logic.I|exact G]|cbn; unfold move; rewrite PN; reflexivity|cbn; unfold move; rewrite PN; reflexivity|].
    cbn [step]. unfold move. rewrite PN. destruct G as [_ _ S _]. rewrite L. rewrite <- E. destruct p' as [x' y'].
    unfold show. cbn -[turn]. set (t := turn _ _). f_equal; field; lra.
  - apply IH; [apply step_good; [exact Logic.I|exact G]|cbn; destruct p; exact PN|cbn; destruct p; exact L|].
    cbn [step]. unfold wheel. rewrite zoom_show by (try exact G; destruct up; lra). rewrite E. unfold stretch. destruct p. cbn. f_equal; lra.
Qed.
Theorem C73_drag s before p es r q : 0 < fst s /\ 0 < snd s -> Forall valid before -> gesture p es r ->
  show (run rnd before (start s)) q = p -> show (run rnd (before ++ EPress p :: es) (start s)) q = r.
Proof.
  intros P V Ge E. unfold run. rewrite fold_left_app. cbn [fold_left]. fold (run rnd before (start s)). set (v := run rnd before (start s)) in *.
  assert (G : good v) by (apply run_good; [exact V|apply start_good; exact P]).
  change (show (run rnd es (press p v)) q = r). apply (gesture_kept p); try reflexivity; [exact Ge| |exact E]. destruct G as [A B C D]. split; assumption.
Qed.

(** ** What the events say about picture, widget and rotation *)
Definition turned (es : list event) : Z := fold_right (fun e z => match e with ERotate a => (a + z)%Z | _ => z end) 0%Z es.
Definition picture (es : list event) : option pt := fold_left (fun p e => match e with EExtend w h => Some (w, h) | _ => p end) es None.
Definition widget (s : pt) (es : list event) : pt := fold_left (fun p e => match e with EResize w h => (w, h) | _ => p end) es s.
Definition no_offset (e : event) : Prop := match e with EOffset _ _ => False | _ => True end.
Lemma place_fields s v : size (place s v) = size v /\ rect (place s v) = rect v /\ ext (place s v) = ext v /\ offs (place s v) = offs v /\
  angle (place s v) = angle v /\ rotation (place s v) = rotation v.
Proof. repeat split. Qed.
Lemma center_fields x y v : let v' := center_on x y v in size v' = size v /\ rect v' = rect v /\ ext v' = ext v /\ offs v' = offs v /\
  angle v' = angle v /\ rotation v' = rotation v /\ scale v' = scale v.
Proof. unfold center_on. destruct (rect v) eqn:E. destruct (Z.eqb _ _); repeat split; cbn; auto. Qed.
Lemma step_fields e v : size (step rnd e v) = widget (size v) [e] /\ angle (step rnd e v) = (angle v + turned [e])%Z /\
  (no_offset e -> offs (step rnd e v) = offs v) /\
  (rect (step rnd e v), ext (step rnd e v)) = match e with EExtend w h => ((w, h), (w, h)) | _ => (rect v, ext v) end.
Proof.
  destruct e as [w h| |w h|a| | |x y|x y|x y|f p|up p|p|p|]; cbn [step turned widget fold_left fold_right no_offset]; rewrite ?Z.add_0_r.
  - unfold set_extend. destruct (fitted v && negb (pt_eqb (rect v) (w, h)))%bool; cbn; auto.
  - unfold paint. destruct (initialized v); cbn; auto.
  - unfold resize. destruct (fitted _); cbn; auto.
  - unfold rotate. destruct (fitted _); cbn; auto.
  - cbn; auto.
  - unfold fit_small. destruct (get_extend rnd false v) as [a b]. destruct (rect v) as [w h] eqn:E.
    set (v1 := place _ v). assert (F := place_fields (best Rmax v) v). fold v1 in F. destruct F as (F1&F2&F3&F4&F5&F6).
    destruct Rlt_dec.
    + destruct (center_fields ((fst a + fst b) / 2) (h / 2) v1) as (C1&C2&C3&C4&C5&C6&C7). rewrite C1, C2, C3, C4, C5, F1, F2, F3, F4, F5, E. auto.
    + destruct (center_fields (w / 2) ((snd a + snd b) / 2) v1) as (C1&C2&C3&C4&C5&C6&C7). rewrite C1, C2, C3, C4, C5, F1, F2, F3, F4, F5, E. auto.
  - destruct (center_fields x y v) as (C1&C2&C3&C4&C5&C6&C7). rewrite C1, C2, C3, C4, C5. auto.
  - cbn; auto.
  - cbn. repeat split; tauto.
  - destruct p. cbn; auto.
  - destruct p. cbn; auto.
  - cbn; auto.
  - unfold move. destruct (panning v); cbn; auto.
  - cbn; auto.
Qed.
Lemma run_fields es : forall v, size (run rnd es v) = widget (size v) es /\ angle (run rnd es v) = (angle v + turned es)%Z /\
  (Forall no_offset es -> offs (run rnd es v) = offs v).
Proof.
  induction es as [|e es IH]; intros v; [cbn; rewrite Z.add_0_r; auto|]. destruct (step_fields e v) as (A&B&C&_).
  destruct (IH (step rnd e v)) as (A'&B'&C'). change (run rnd (e :: es) v) with (run rnd es (step rnd e v)).
  rewrite A', B', A, B. split; [reflexivity|]. split.
  - cbn [turned fold_right]. fold (turned es). destruct e; lia.
  - intros F. inversion F; subst. rewrite C', C by assumption. reflexivity.
Qed.
Lemma run_picture es s p : picture es = Some p -> rect (run rnd es (start s)) = p /\ ext (run rnd es (start s)) = p.
Proof.
  unfold picture, run. intros E.
  enough (X : forall q v, (forall p, q = Some p -> rect v = p /\ ext v = p) -> forall p,
    fold_left (fun p e => match e with EExtend w h => Some (w, h) | _ => p end) es q = Some p ->
    rect (fold_left (fun v e => step rnd e v) es v) = p /\ ext (fold_left (fun v e => step rnd e v) es v) = p).
  { apply (X None (start s)); [discriminate|exact E]. }
  clear. induction es as [|e es IH]; intros q v H p E; [apply H, E|]. cbn [fold_left] in *. apply (IH _ (step rnd e v)) in E; [exact E|].
  destruct (step_fields e v) as (_&_&_&D). intros p' Ep. pose proof (f_equal fst D) as D1. pose proof (f_equal snd D) as D2. cbn [fst snd] in D1, D2. rewrite D1, D2. clear D D1 D2. destruct e; cbn [fst snd]; try (apply H; exact Ep).
  injection Ep as <-. auto.
Qed.

(** ** Fitting *)
Definition keeps_fit (e : event) : Prop :=
  match e with EExtend _ _ | EPaint | EResize _ _ | ERotate _ | EFit | EPress _ | ERelease => True | _ => False end.
Definition is_fit (v : view) : Prop := scale v = best Rmin v /\ fitted v = true /\
  shift v = ((fst (size v) - fst (rect v) * scale v) * (1 / 2) / scale v, (snd (size v) - snd (rect v) * scale v) * (1 / 2) / scale v).
Lemma fit_is_fit v : is_fit (fit_in_view v).
Proof. split; [|split]; reflexivity. Qed.
Lemma pt_eqb_eq a b : pt_eqb a b = true -> a = b.
Proof. unfold pt_eqb. destruct a, b. cbn. repeat destruct Req_EM_T; try discriminate. subst. reflexivity. Qed.
Lemma fit_step e v : keeps_fit e -> is_fit v -> is_fit (step rnd e v).
Proof.
  intros K F. destruct e; try destruct K; cbn [step].
  - unfold set_extend. destruct F as (F1&F2&F3). rewrite F2. cbn [andb]. destruct (pt_eqb (rect v) (w, h)) eqn:E; cbn [negb]; [|apply fit_is_fit].
    apply pt_eqb_eq in E. unfold is_fit, best, quarter in *. cbn [scale size rect fitted shift rotation set_rect]. rewrite <- E. repeat split; assumption.
  - unfold paint. destruct (initialized v); [exact F|apply fit_is_fit].
  - unfold resize. destruct F as (F1&F2&F3). cbn [fitted set_size]. rewrite F2. apply fit_is_fit.
  - unfold rotate. destruct F as (F1&F2&F3). cbn [fitted set_angle]. rewrite F2. apply fit_is_fit.
  - apply fit_is_fit.
  - exact F.
  - exact F.
Qed.
Lemma fit_run es : forall v, Forall keeps_fit es -> is_fit v -> is_fit (run rnd es v).
Proof. induction es as [|e es IH]; intros v K F; [exact F|]. inversion K; subst. apply IH; [assumption|]. apply fit_step; assumption. Qed.
Definition inside (p : pt) (q : pt) : Prop := 0 <= fst q <= fst p /\ 0 <= snd q <= snd p.
Lemma quarters z : (z mod 90 = 0)%Z -> (z mod 360 = 0 \/ z mod 360 = 90 \/ z mod 360 = 180 \/ z mod 360 = 270)%Z.
Proof.
  intros E. pose proof (Z.mod_pos_bound z 360 eq_refl) as B. assert (X : ((z mod 360) mod 90 = 0)%Z).
  { rewrite <- E. rewrite (Z.div_mod z 360) at 2 by lia. rewrite <- (Z.add_mod_idemp_l (360 * _)) by lia. replace ((360 * (z / 360)) mod 90)%Z with 0%Z; [reflexivity|].
    symmetry. replace (360 * (z / 360))%Z with (4 * (z / 360) * 90)%Z by lia. apply Z_mod_mult. }
  set (r := (z mod 360)%Z) in *. pose proof (Z.div_mod r 90) as D. rewrite X in D. pose proof (Z.div_pos r 90). assert (r / 90 < 4)%Z by (apply Z.div_lt_upper_bound; lia). lia.
Qed.
Lemma show_unscaled v q : show v q = (scale v * (fst (show (set_scale 1 v) q)), scale v * (snd (show (set_scale 1 v) q))).
Proof. unfold show. cbn -[turn]. f_equal; ring. Qed.
(** A fitted picture is shown as a whole, in the middle, and as large as possible; until the next zoom or drag this stays
    so for new pictures, resized windows and rotations by quarters. *)
Theorem C73_fit s before after p W H : 0 < fst s /\ 0 < snd s -> Forall valid (before ++ EFit :: after) -> Forall no_offset before ->
  Forall keeps_fit after -> picture (before ++ EFit :: after) = Some p -> widget s (before ++ EFit :: after) = (W, H) ->
  (turned (before ++ EFit :: after) mod 90 = 0)%Z -> let v := run rnd (before ++ EFit :: after) (start s) in
  (forall q, inside p q -> inside (W, H) (show v q)) /\ show v (fst p / 2, snd p / 2) = (W / 2, H / 2) /\
  exists q r, inside p q /\ inside p r /\ (fst (show v r) - fst (show v q) = W \/ snd (show v r) - snd (show v q) = H).
Proof.
  intros P V N K EP EW ET v. assert (G : good v) by (apply run_good; [exact V|apply start_good; exact P]).
  destruct (run_fields (before ++ EFit :: after) (start s)) as (F1&F2&F3). destruct (run_picture _ s p EP) as (R1&R2). fold v in F1, F2, F3, R1, R2.
  assert (NO : Forall no_offset (before ++ EFit :: after)).
  { apply Forall_app. split; [exact N|]. constructor; [exact Logic.I|]. eapply Forall_impl; [|exact K]. intros e; destruct e; cbn; tauto. }
  specialize (F3 NO). cbn in F3.
  assert (FT : is_fit v).
  { unfold v, run. rewrite fold_left_app. cbn [fold_left]. apply (fit_run after); [exact K|]. apply fit_is_fit. }
  destruct FT as (S&_&T). destruct G as [(G1&G2) (G3&G4) G5 G6]. rewrite F2 in G6. cbn [start angle Z.add] in G6, F2. cbn [start size] in F1. rewrite EW in F1.
  unfold best in S. assert (Q : quarter v = (Z.eqb (rotation v) 90 || Z.eqb (rotation v) 270)%bool) by reflexivity.
  destruct p as [w h]. rewrite F1, R1 in *. cbn [fst snd] in *.
  assert (U : shift v = ((W / scale v - w) / 2, (H / scale v - h) / 2)) by (rewrite T; f_equal; field; lra). clear T.
  assert (SX : exists X Y, W = scale v * X /\ H = scale v * Y) by (exists (W / scale v), (H / scale v); split; field; lra).
  destruct SX as (X&Y&EX&EY). assert (U' : shift v = ((X - w) / 2, (Y - h) / 2)) by (rewrite U, EX, EY; f_equal; field; lra). clear U.
  assert (M : forall c d, 0 < c -> 0 < d -> scale v = Rmin (W / c) (H / d) -> (c <= X /\ d <= Y) /\ (c = X \/ d = Y)).
  { intros c d C D EM. assert (A1 : W / c = scale v * (X / c)) by (rewrite EX at 1; field; lra). assert (A2 : H / d = scale v * (Y / d)) by (rewrite EY at 1; field; lra).
    assert (L1 : scale v <= W / c) by (rewrite EM; apply Rmin_l). assert (L2 : scale v <= H / d) by (rewrite EM; apply Rmin_r). rewrite A1 in L1. rewrite A2 in L2.
    assert (B1 : X = c * (X / c)) by (field; lra). assert (B2 : Y = d * (Y / d)) by (field; lra). split.
    - split; [rewrite B1|rewrite B2].
      + assert (1 <= X / c) by (apply Rmult_le_reg_l with (scale v); [exact G5|lra]). nra.
      + assert (1 <= Y / d) by (apply Rmult_le_reg_l with (scale v); [exact G5|lra]). nra.
    - unfold Rmin in EM. destruct Rle_dec as [LE|LE].
      + left. rewrite A1 in EM. assert (1 = X / c) by (apply Rmult_eq_reg_l with (scale v); lra). rewrite B1. rewrite <- H0. ring.
      + right. rewrite A2 in EM. assert (1 = Y / d) by (apply Rmult_eq_reg_l with (scale v); lra). rewrite B2. rewrite <- H0. ring. }
  assert (SC : forall t B, 0 <= t <= B -> 0 <= scale v * t <= scale v * B) by (intros; split; [apply Rmult_le_pos; lra|apply Rmult_le_compat_l; lra]).
  destruct (quarters _ ET) as [E|[E|[E|E]]].
  - rewrite G6, E in Q. cbn in Q. rewrite Q in S. destruct (M w h G3 G4 S) as ((M1&M2)&M3).
    assert (SH : forall q, show v q = (scale v * (fst q + (X - w) / 2), scale v * (snd q + (Y - h) / 2))).
    { intros q. unfold show. rewrite R2, F3, U', F2. rewrite turn_0 by exact E. cbn [fst snd]. f_equal; field. }
    split; [intros q (I1&I2); rewrite SH, EX, EY; unfold inside; cbn [fst snd] in *; split; apply SC; lra|].
    split; [rewrite SH; cbn [fst snd]; rewrite EX, EY; f_equal; field|].
    exists (0, 0), (w, h). unfold inside. cbn [fst snd]. split; [lra|]. split; [lra|]. rewrite !SH. cbn [fst snd]. destruct M3 as [M3|M3]; [left|right]; [rewrite EX, <- M3|rewrite EY, <- M3]; ring.
  - rewrite G6, E in Q. cbn in Q. rewrite Q in S. destruct (M h w G4 G3 S) as ((M1&M2)&M3).
    assert (SH : forall q, show v q = (scale v * (X / 2 + h / 2 - snd q), scale v * (Y / 2 - w / 2 + fst q))).
    { intros q. unfold show. rewrite R2, F3, U', F2. rewrite turn_90 by exact E. cbn [fst snd]. f_equal; field. }
    split; [intros q (I1&I2); rewrite SH, EX, EY; unfold inside; cbn [fst snd] in *; split; apply SC; lra|].
    split; [rewrite SH; cbn [fst snd]; rewrite EX, EY; f_equal; field|].
    exists (0, h), (w, 0). unfold inside. cbn [fst snd]. split; [lra|]. split; [lra|]. rewrite !SH. cbn [fst snd]. destruct M3 as [M3|M3]; [left|right]; [rewrite EX, <- M3|rewrite EY, <- M3]; ring.
  - rewrite G6, E in Q. cbn in Q. rewrite Q in S. destruct (M w h G3 G4 S) as ((M1&M2)&M3).
    assert (SH : forall q, show v q = (scale v * (X / 2 + w / 2 - fst q), scale v * (Y / 2 + h / 2 - snd q))).
    { intros q. unfold show. rewrite R2, F3, U', F2. rewrite turn_180 by exact E. cbn [fst snd]. f_equal; field. }
    split; [intros q (I1&I2); rewrite SH, EX, EY; unfold inside; cbn [fst snd] in *; split; apply SC; lra|].
    split; [rewrite SH; cbn [fst snd]; rewrite EX, EY; f_equal; field|].
    exists (w, h), (0, 0). unfold inside. cbn [fst snd]. split; [lra|]. split; [lra|]. rewrite !SH. cbn [fst snd]. destruct M3 as [M3|M3]; [left|right]; [rewrite EX, <- M3|rewrite EY, <- M3]; ring.
  - rewrite G6, E in Q. cbn in Q. rewrite Q in S. destruct (M h w G4 G3 S) as ((M1&M2)&M3).
    assert (SH : forall q, show v q = (scale v * (X / 2 - h / 2 + snd q), scale v * (Y / 2 + w / 2 - fst q))).
    { intros q. unfold show. rewrite R2, F3, U', F2. rewrite turn_270 by exact E. cbn [fst snd]. f_equal; field. }
    split; [intros q (I1&I2); rewrite SH, EX, EY; unfold inside; cbn [fst snd] in *; split; apply SC; lra|].
    split; [rewrite SH; cbn [fst snd]; rewrite EX, EY; f_equal; field|].
    exists (w, 0), (0, h). unfold inside. cbn [fst snd]. split; [lra|]. split; [lra|]. rewrite !SH. cbn [fst snd]. destruct M3 as [M3|M3]; [left|right]; [rewrite EX, <- M3|rewrite EY, <- M3]; ring.
Qed.

(** ** Centring *)
(** centerOn brings the point to the middle of the window, if the picture is upright or upside down. *)
Lemma center_show x y v : good v -> offs v = (0, 0) -> ext v = rect v -> (angle v mod 360 = 0 \/ angle v mod 360 = 180)%Z ->
  show (center_on x y v) (x, y) = (fst (size v) / 2, snd (size v) / 2).
Proof.
  intros [_ _ S T] O E A. destruct (center_fields x y v) as (C1&C2&C3&C4&C5&C6&C7). unfold show. rewrite C3, C4, C5, C7, O, E.
  unfold center_on. destruct (rect v) as [w h] eqn:ER. rewrite T. destruct A as [A|A]; rewrite A; cbn [Z.eqb Pos.eqb].
  - rewrite turn_0 by exact A. cbn [shift set_shift fst snd]. f_equal; field; lra.
  - rewrite turn_180 by exact A. cbn [shift set_shift fst snd]. f_equal; field; lra.
Qed.
Theorem C73_center s es p x y W H : 0 < fst s /\ 0 < snd s -> Forall valid es -> Forall no_offset es -> picture es = Some p -> widget s es = (W, H) ->
  (turned es mod 360 = 0 \/ turned es mod 360 = 180)%Z ->
  show (run rnd (es ++ [ECenter x y]) (start s)) (x, y) = (W / 2, H / 2).
Proof.
  intros P V N EP EW ET. unfold run. rewrite fold_left_app. cbn [fold_left step]. fold (run rnd es (start s)). set (v := run rnd es (start s)).
  assert (G : good v) by (apply run_good; [exact V|apply start_good; exact P]).
  destruct (run_fields es (start s)) as (F1&F2&F3). specialize (F3 N). destruct (run_picture _ s p EP) as (R1&R2). fold v in F1, F2, F3, R1, R2.
  cbn [start size angle offs Z.add] in F1, F2, F3. rewrite center_show; try assumption; [rewrite F1, EW; reflexivity|congruence|rewrite F2; exact ET].
Qed.

(** translateOrigin brings the point (-x, -y) of an upright picture to the upper left corner, whatever the zoom. *)
Theorem C73_translate s es x y : Forall no_offset es -> (turned es mod 360 = 0)%Z ->
  show (run rnd (es ++ [ETranslate x y]) (start s)) (- x, - y) = (0, 0).
Proof.
  intros N ET. unfold run. rewrite fold_left_app. cbn [fold_left step]. fold (run rnd es (start s)). set (v := run rnd es (start s)).
  destruct (run_fields es (start s)) as (_&F2&F3). specialize (F3 N). fold v in F2, F3. cbn [start angle offs Z.add] in F2, F3.
  unfold show, translate_origin. cbn [ext offs angle shift scale set_shift]. rewrite turn_0 by (rewrite F2; exact ET). rewrite F3. cbn [fst snd]. f_equal; field.
Qed.

(** ** The visible part *)
(** GetExtend tells which part of the picture is seen, up to the rounding to whole pixels; with rotation only if it is
    asked for with_transform. *)
(** Drawing the widget fits the picture only the first time. *)
Lemma painted_step e v : initialized v = true -> initialized (step rnd e v) = true.
Proof.
  intros I. destruct e; cbn [step]; try exact I.
  - unfold set_extend. destruct (andb _ _); exact I.
  - unfold paint. rewrite I. exact I.
  - unfold resize. destruct (fitted _); exact I.
  - unfold rotate. destruct (fitted _); exact I.
  - unfold fit_small. destruct (get_extend _ _ _), (rect v). destruct (Rlt_dec _ _); unfold center_on; destruct (rect _); destruct (if Z.eqb _ _ then _ else _); exact I.
  - unfold center_on. destruct (rect _). destruct (if Z.eqb _ _ then _ else _); exact I.
  - destruct p; exact I.
  - destruct p; exact I.
  - unfold move. destruct (panning v); exact I.
Qed.
Lemma painted_run es : forall v, initialized v = true -> initialized (run rnd es v) = true.
Proof. induction es as [|e es IH]; intros v I; [exact I|]. apply IH. apply painted_step. exact I. Qed.
Lemma paint_sets v : initialized (paint v) = true.
Proof. unfold paint. destruct (initialized v) eqn:E; [exact E|reflexivity]. Qed.
Theorem C73_repaint s before between after :
  run rnd (before ++ EPaint :: between ++ EPaint :: after) (start s) = run rnd (before ++ EPaint :: between ++ after) (start s).
Proof.
  unfold run. rewrite !fold_left_app. cbn [fold_left]. rewrite !fold_left_app. cbn [fold_left]. f_equal. cbn [step]. unfold paint at 1.
  pose proof (painted_run between (paint (fold_left (fun v e => step rnd e v) before (start s))) (paint_sets _)) as X. unfold run in X. cbn [step] in X |- *. rewrite X. reflexivity.
Qed.
(** Once the button is released the mouse moves nothing, and shifting the picture shows every point where another one was. *)
Definition hovers (e : event) : Prop := match e with EMove _ | ERelease => True | _ => False end.
Theorem C73_release s before after q : Forall hovers after -> show (run rnd (before ++ ERelease :: after) (start s)) q = show (run rnd before (start s)) q.
Proof.
  intros K. unfold run. rewrite fold_left_app. cbn [fold_left step]. fold (run rnd before (start s)). generalize (run rnd before (start s)). intros v.
  assert (X : forall v, panning v = false -> Forall hovers after -> show (fold_left (fun v e => step rnd e v) after v) q = show v q).
  { clear. induction after as [|e es IH]; intros v P K; [reflexivity|]. inversion K as [|? ? He Hes]; subst. cbn [fold_left]. destruct e; cbn in He; try contradiction; cbn [step].
    - unfold move. rewrite P. apply IH; assumption.
    - rewrite IH; [reflexivity|reflexivity|assumption]. }
  rewrite X; [reflexivity|reflexivity|exact K].
Qed.
Theorem C73_offset s es x y q : show (run rnd (es ++ [EOffset x y]) (start s)) q = show (run rnd es (start s)) (fst q + x, snd q + y).
Proof.
  unfold run. rewrite fold_left_app. cbn [fold_left step]. fold (run rnd es (start s)). generalize (run rnd es (start s)). intros v. unfold show, do_translate. cbn -[turn].
  replace (fst q - fst (ext v) / 2 + (fst (offs v) + x)) with (fst q + x - fst (ext v) / 2 + fst (offs v)) by ring.
  replace (snd q - snd (ext v) / 2 + (snd (offs v) + y)) with (snd q + y - snd (ext v) / 2 + snd (offs v)) by ring. reflexivity.
Qed.
(** What the user zoomed or dragged stays where it is when the widget is drawn again or gets another size. *)
Definition passive (e : event) : Prop := match e with EPaint | EResize _ _ | EPress _ | ERelease => True | _ => False end.
Definition moves (e : event) (v : view) : Prop := match e with EWheel _ _ | EScale _ _ => True | EMove _ => panning v = true | _ => False end.
Theorem C73_kept s before between e after q : let v := run rnd (before ++ EPaint :: between) (start s) in moves e v -> Forall passive after ->
  show (run rnd (before ++ EPaint :: between ++ e :: after) (start s)) q = show (step rnd e v) q.
Proof.
  intros v M K. replace (before ++ EPaint :: between ++ e :: after) with ((before ++ EPaint :: between) ++ e :: after) by (rewrite <- app_assoc; reflexivity).
  unfold run. rewrite fold_left_app. cbn [fold_left]. change (fold_left (fun v e => step rnd e v) (before ++ EPaint :: between) (start s)) with v.
  assert (I : initialized v = true).
  { unfold v, run. rewrite fold_left_app. cbn [fold_left]. apply (painted_run between). apply paint_sets. }
  assert (F : fitted (step rnd e v) = false /\ initialized (step rnd e v) = true).
  { split; [|apply painted_step; exact I]. destruct e; try (exfalso; exact M); cbn [step]; [destruct p; reflexivity|destruct p; reflexivity|]. unfold move. rewrite M. reflexivity. }
  clear I M. revert F. generalize (step rnd e v) as u. clear v. induction K as [|x after X K IH]; intros u (F&I); [reflexivity|]. cbn [fold_left].
  assert (Y : fitted (step rnd x u) = false /\ initialized (step rnd x u) = true /\ show (step rnd x u) q = show u q).
  { destruct x; try destruct X; cbn [step].
    - unfold paint. rewrite I. auto.
    - unfold resize. cbn [fitted set_size]. rewrite F. auto.
    - auto.
    - auto. }
  destruct Y as (Y1&Y2&Y3). rewrite (IH _ (conj Y1 Y2)). exact Y3.
Qed.
Definition half : Prop := forall x, Rabs (rnd x - x) <= 1 / 2.
Lemma half_bounds : half -> forall x, x - 1 / 2 <= rnd x <= x + 1 / 2.
Proof. intros Hf x. specialize (Hf x). unfold Rabs in Hf. destruct Rcase_abs; lra. Qed.
Theorem C73_extend s es (t : bool) W H : half -> 0 < fst s /\ 0 < snd s -> Forall valid es -> Forall no_offset es -> widget s es = (W, H) ->
  (if t then turned es mod 90 = 0 else turned es mod 360 = 0)%Z -> let v := run rnd es (start s) in let (a, b) := get_extend rnd t v in
  forall q, (inside (W, H) (show v q) -> fst a - 1 / 2 <= fst q <= fst b + 1 / 2 /\ snd a - 1 / 2 <= snd q <= snd b + 1 / 2) /\
    (fst a + 1 / 2 <= fst q <= fst b - 1 / 2 /\ snd a + 1 / 2 <= snd q <= snd b - 1 / 2 -> inside (W, H) (show v q)).
Proof.
  intros Hf P V N EW ET v. assert (B := half_bounds Hf). assert (G : good v) by (apply run_good; [exact V|apply start_good; exact P]).
  destruct (run_fields es (start s)) as (F1&F2&F3). specialize (F3 N). fold v in F1, F2, F3. cbn [start size angle offs Z.add] in F1, F2, F3. rewrite EW in F1.
  destruct G as [(G1&G2) _ S _]. rewrite F1 in G1, G2. cbn [fst snd] in G1, G2.
  assert (SX : exists X Y, W = scale v * X /\ H = scale v * Y) by (exists (W / scale v), (H / scale v); split; field; lra).
  destruct SX as (X&Y&EX&EY).
  assert (Wx : W / scale v = X) by (rewrite EX; field; lra). assert (Hy : H / scale v = Y) by (rewrite EY; field; lra).
  assert (Z0 : 0 / scale v = 0) by (field; lra).
  assert (XP : 0 < X /\ 0 < Y).
  { split; apply Rmult_lt_reg_l with (scale v); rewrite ?Rmult_0_r, <- ?EX, <- ?EY; assumption. }
  assert (IN : forall a b, inside (W, H) (scale v * a, scale v * b) <-> (0 <= a <= X /\ 0 <= b <= Y)).
  { intros a b. unfold inside. cbn [fst snd]. rewrite EX, EY. split.
    - intros ((A1&A2)&(A3&A4)). repeat split; apply Rmult_le_reg_l with (scale v); rewrite ?Rmult_0_r; assumption.
    - intros ((A1&A2)&(A3&A4)). repeat split; try (apply Rmult_le_pos; lra); apply Rmult_le_compat_l; lra. }
  unfold get_extend, unshow. rewrite F1. cbn [fst snd]. rewrite Z0, Wx, Hy.
  assert (TB : forall u, let r := turn (- angle v) u in turn (angle v) r = u) by (intros u; apply turn_forth).
  set (cx := fst (ext v) / 2). set (cy := snd (ext v) / 2). set (dx := fst (shift v)). set (dy := snd (shift v)).
  assert (SHOW : forall q, show v q = (scale v * (fst (turn (angle v) (fst q - cx, snd q - cy)) + cx + dx), scale v * (snd (turn (angle v) (fst q - cx, snd q - cy)) + cy + dy))).
  { intros q. unfold show. rewrite F3. cbn [fst snd]. rewrite !Rplus_0_r. reflexivity. }
  destruct t.
  - destruct (quarters _ ET) as [E|[E|[E|E]]]; rewrite <- F2 in E.
    + assert (T1 : forall u, turn (- angle v) u = u) by (intros u; pose proof (TB u) as K; cbv zeta in K; rewrite turn_0 in K by exact E; exact K).
      rewrite !T1. cbn [fst snd]. intros q. rewrite SHOW, turn_0 by exact E. cbn [fst snd]. rewrite IN.
      pose proof (B (0 - dx - cx + cx)). pose proof (B (0 - dy - cy + cy)). pose proof (B (X - dx - cx + cx)). pose proof (B (Y - dy - cy + cy)).
      unfold Rmin, Rmax. repeat destruct Rle_dec; split; intros; lra.
    + assert (T1 : forall u, turn (- angle v) u = (snd u, - fst u)).
      { intros u. pose proof (TB u) as K. cbv zeta in K. rewrite turn_90 in K by exact E. rewrite <- K at 2 3. destruct (turn _ u). cbn. f_equal. lra. }
      rewrite !T1. cbn [fst snd]. intros q. rewrite SHOW, turn_90 by exact E. cbn [fst snd]. rewrite IN.
      pose proof (B (0 - dy - cy + cx)). pose proof (B (- (0 - dx - cx) + cy)). pose proof (B (Y - dy - cy + cx)). pose proof (B (- (X - dx - cx) + cy)).
      unfold Rmin, Rmax. repeat destruct Rle_dec; split; intros; lra.
    + assert (T1 : forall u, turn (- angle v) u = (- fst u, - snd u)).
      { intros u. pose proof (TB u) as K. cbv zeta in K. rewrite turn_180 in K by exact E. rewrite <- K at 2 3. destruct (turn _ u). cbn. f_equal; lra. }
      rewrite !T1. cbn [fst snd]. intros q. rewrite SHOW, turn_180 by exact E. cbn [fst snd]. rewrite IN.
      pose proof (B (- (0 - dx - cx) + cx)). pose proof (B (- (0 - dy - cy) + cy)). pose proof (B (- (X - dx - cx) + cx)). pose proof (B (- (Y - dy - cy) + cy)).
      unfold Rmin, Rmax. repeat destruct Rle_dec; split; intros; lra.
    + assert (T1 : forall u, turn (- angle v) u = (- snd u, fst u)).
      { intros u. pose proof (TB u) as K. cbv zeta in K. rewrite turn_270 in K by exact E. rewrite <- K at 2 3. destruct (turn _ u). cbn. f_equal; lra. }
      rewrite !T1. cbn [fst snd]. intros q. rewrite SHOW, turn_270 by exact E. cbn [fst snd]. rewrite IN.
      pose proof (B (- (0 - dy - cy) + cx)). pose proof (B (0 - dx - cx + cy)). pose proof (B (- (Y - dy - cy) + cx)). pose proof (B (X - dx - cx + cy)).
      unfold Rmin, Rmax. repeat destruct Rle_dec; split; intros; lra.
  - rewrite <- F2 in ET. intros q. rewrite SHOW, turn_0 by exact ET. cbn [fst snd]. rewrite IN.
    pose proof (B (0 - dx - cx + cx)). pose proof (B (0 - dy - cy + cy)). pose proof (B (X - dx - cx + cx)). pose proof (B (Y - dy - cy + cy)).
    unfold Rmin, Rmax. repeat destruct Rle_dec; split; intros; lra.
Qed.

(** ** Filling the window *)
(** fitSmallDimensionInView fills the window in one direction exactly and keeps the middle in the other, up to half a
    pixel of the picture. *)
Lemma min_max a b : Rmin a b + Rmax a b = a + b.
Proof. unfold Rmin, Rmax. destruct Rle_dec; lra. Qed.
Theorem C73_small s es p W H q0 : half -> 0 < fst s /\ 0 < snd s -> Forall valid es -> Forall no_offset es -> picture es = Some p -> widget s es = (W, H) ->
  (turned es mod 360 = 0)%Z -> show (run rnd es (start s)) q0 = (W / 2, H / 2) -> let v := run rnd (es ++ [ESmall]) (start s) in
  (W / fst p < H / snd p -> exists c, Rabs (c - fst q0) <= 1 / 2 /\ forall q, show v q = (W / 2 + H / snd p * (fst q - c), H / snd p * snd q)) /\
  (H / snd p <= W / fst p -> exists c, Rabs (c - snd q0) <= 1 / 2 /\ forall q, show v q = (W / fst p * fst q, H / 2 + W / fst p * (snd q - c))).
Proof.
  intros Hf P V N EP EW ET EQ v. assert (B := half_bounds Hf). set (v0 := run rnd es (start s)) in *.
  assert (EV : v = fit_small rnd v0) by (unfold v, run; rewrite fold_left_app; reflexivity). clearbody v. subst v.
  assert (G : good v0) by (apply run_good; [exact V|apply start_good; exact P]).
  destruct (run_fields es (start s)) as (F1&F2&F3). specialize (F3 N). destruct (run_picture _ s p EP) as (R1&R2). fold v0 in F1, F2, F3, R1, R2.
  cbn [start size angle offs Z.add] in F1, F2, F3. rewrite EW in F1. rewrite <- F2 in ET.
  destruct G as [(G1&G2) (G3&G4) S T]. rewrite F1 in G1, G2. rewrite R1 in G3, G4. cbn [fst snd] in G1, G2. destruct p as [w h]. cbn [fst snd] in *.
  assert (SX : exists X Y, W = scale v0 * X /\ H = scale v0 * Y) by (exists (W / scale v0), (H / scale v0); split; field; lra).
  destruct SX as (X&Y&EX&EY).
  assert (Wx : W / scale v0 = X) by (rewrite EX; field; lra). assert (Hy : H / scale v0 = Y) by (rewrite EY; field; lra).
  assert (Z0 : 0 / scale v0 = 0) by (field; lra).
  assert (Q0 : fst q0 + fst (shift v0) = X / 2 /\ snd q0 + snd (shift v0) = Y / 2).
  { unfold show in EQ. rewrite F3, turn_0 in EQ by exact ET. cbn [fst snd] in EQ. injection EQ as Q1 Q2. rewrite EX in Q1. rewrite EY in Q2.
    split; (apply Rmult_eq_reg_l with (scale v0); [|lra]).
    - transitivity (scale v0 * X / 2); [rewrite <- Q1|]; field.
    - transitivity (scale v0 * Y / 2); [rewrite <- Q2|]; field. }
  assert (QT : quarter v0 = false) by (unfold quarter; rewrite T, ET; reflexivity).
  unfold fit_small, get_extend, unshow. rewrite F1, R1, R2. cbn [fst snd]. rewrite Z0, Wx, Hy. cbn [size place set_shift set_scale]. rewrite F1. cbn [fst snd].
  unfold best. rewrite QT, F1, R1. cbn [fst snd].
  assert (SHOW : forall k x y q, 0 < k -> show (center_on x y (place k v0)) q = (W / 2 + k * (fst q - x), H / 2 + k * (snd q - y))).
  { intros k x y q K. destruct (center_fields x y (place k v0)) as (C1&C2&C3&C4&C5&C6&C7). unfold show. rewrite C3, C4, C5, C7. cbn [place set_shift set_scale ext offs angle scale].
    rewrite R2, F3, turn_0 by exact ET. unfold center_on. cbn [place set_shift set_scale rect rotation size scale]. rewrite R1, T, ET, F1. cbn [Z.eqb shift set_shift fst snd].
    f_equal; field; lra. }
  assert (WP : 0 < W / w) by (apply Rdiv_lt_0_compat; assumption). assert (HP : 0 < H / h) by (apply Rdiv_lt_0_compat; assumption).
  split; intros L.
  - destruct Rlt_dec as [L'|L']; [|lra]. rewrite (Rmax_right (W / w) (H / h)) by lra. rewrite min_max.
    exists ((rnd (0 - fst (shift v0) - w / 2 + w / 2) + rnd (X - fst (shift v0) - w / 2 + w / 2)) / 2). split.
    + pose proof (B (0 - fst (shift v0) - w / 2 + w / 2)). pose proof (B (X - fst (shift v0) - w / 2 + w / 2)). apply Rabs_le. lra.
    + intros q. rewrite SHOW by exact HP. f_equal. field. lra.
  - destruct Rlt_dec as [L'|L']; [lra|]. rewrite (Rmax_left (W / w) (H / h)) by lra. rewrite min_max.
    exists ((rnd (0 - snd (shift v0) - h / 2 + h / 2) + rnd (Y - snd (shift v0) - h / 2 + h / 2)) / 2). split.
    + pose proof (B (0 - snd (shift v0) - h / 2 + h / 2)). pose proof (B (Y - snd (shift v0) - h / 2 + h / 2)). apply Rabs_le. lra.
    + intros q. rewrite SHOW by exact WP. f_equal. field. lra.
Qed.

(** ** Positions in the picture *)
(** mapToOrigin and mapFromOrigin are where a point of an unrotated picture is shown, and back, up to rounding. *)
Definition round_pt (p : pt) : pt := (rnd (fst p), rnd (snd p)).
Theorem C73_map s es q : 0 < fst s /\ 0 < snd s -> Forall valid es -> Forall no_offset es -> (turned es mod 360 = 0)%Z -> let v := run rnd es (start s) in
  map_to_origin rnd v (show v q) = round_pt q /\ map_from_origin rnd v (Numbers (fst q) (snd q)) = Some (round_pt (show v q)).
Proof.
  intros P V N ET v. assert (G : good v) by (apply run_good; [exact V|apply start_good; exact P]).
  destruct (run_fields es (start s)) as (F1&F2&F3). specialize (F3 N). fold v in F1, F2, F3. cbn [start size angle offs Z.add] in F1, F2, F3. rewrite <- F2 in ET.
  destruct G as [_ _ S _]. assert (SH : show v q = (scale v * (fst q + fst (shift v)), scale v * (snd q + snd (shift v)))).
  { unfold show. rewrite F3, turn_0 by exact ET. cbn [fst snd]. f_equal; field. }
  rewrite SH. unfold map_to_origin, map_from_origin, round_pt. cbn [fst snd]. split; [f_equal; (f_equal; field; lra)|f_equal; f_equal; (f_equal; ring)].
Qed.
End Events.
Print Assumptions C73_zoom.
Print Assumptions C73_drag.
Print Assumptions C73_fit.
Print Assumptions C73_center.
Print Assumptions C73_translate.
Print Assumptions C73_extend.
Print Assumptions C73_release.
Print Assumptions C73_offset.
Print Assumptions C73_small.
Print Assumptions C73_map.
Print Assumptions C73_repaint.
Print Assumptions C73_kept.

(** ** What does not hold *)
Lemma turn_45 p : exists r, 0 < r /\ r * r = 1 / 2 /\ turn 45 p = (r * fst p - r * snd p, r * fst p + r * snd p).
Proof.
  exists (1 / sqrt 2). assert (S : 0 < sqrt 2) by (apply sqrt_lt_R0; lra). assert (Q : sqrt 2 * sqrt 2 = 2) by (apply sqrt_sqrt; lra). split; [apply Rdiv_lt_0_compat; lra|].
  split; [replace (1 / sqrt 2 * (1 / sqrt 2)) with (1 / (sqrt 2 * sqrt 2)) by (field; lra); rewrite Q; reflexivity|].
  unfold turn. replace (45 * (PI / 180)) with (PI / 4) by lra. rewrite cos_PI4, sin_PI4. reflexivity.
Qed.
Definition square : list event := [EExtend 100 100; EPaint; EFit].
Lemma square_run rnd : let v := run rnd square (start (100, 100)) in size v = (100, 100) /\ rect v = (100, 100) /\ ext v = (100, 100) /\ scale v = 1 /\
  shift v = (0, 0) /\ offs v = (0, 0) /\ angle v = 0%Z /\ rotation v = 0%Z /\ fitted v = true.
Proof.
  set (v := run _ _ _). assert (E : is_fit v) by apply fit_is_fit. assert (V : Forall valid square) by (repeat constructor; cbn; lra).
  destruct (run_fields rnd square (start (100, 100))) as (F1&F2&F3). destruct (run_picture rnd square (100, 100) (100, 100) eq_refl) as (R1&R2). fold v in F1, F2, F3, R1, R2.
  assert (G : good v) by (apply run_good; [exact V|apply start_good; cbn; lra]). clearbody v.
  destruct G as [_ _ _ T]. rewrite F2 in T. cbn in T, F1, F2. specialize (F3 ltac:(repeat constructor)). destruct E as (E1&E2&E3). unfold best, quarter in E1. rewrite T in E1. cbn [Z.eqb orb] in E1. rewrite F1, R1 in E1. cbn [fst snd] in E1.
  assert (S : scale v = 1) by (rewrite E1; unfold Rmin; destruct Rle_dec; field). rewrite S, F1, R1 in E3. cbn [fst snd] in E3.
  repeat split; try assumption. rewrite E3. f_equal; field.
Qed.
(** Turned by 45 degrees a fitted picture reaches out of the window; and GetExtend says wrongly what is visible. *)
Theorem C73_tilted_refuted rnd : half rnd -> exists s es p q, Forall valid es /\ Forall no_offset es /\ picture es = Some p /\
  let v := run rnd (es ++ [EFit]) (start s) in inside p q /\ ~ inside (widget s es) (show v q) /\
  exists q', inside (widget s es) (show v q') /\ snd q' < snd (fst (get_extend rnd true v)) - 1 / 2.
Proof.
  intros Hf. assert (B := half_bounds rnd Hf).
  exists (100, 100), (square ++ [ERotate 45]), (100, 100), (0, 0). split; [repeat constructor; cbn; lra|]. split; [repeat constructor|]. split; [reflexivity|].
  rewrite <- app_assoc. unfold run. rewrite fold_left_app. fold (run rnd square (start (100, 100))). destruct (square_run rnd) as (A1&A2&A3&A4&A5&A6&A7&A8&A9).
  set (v0 := run rnd square (start (100, 100))) in *. clearbody v0. cbn [app fold_left step]. set (v := fit_in_view _).
  assert (Q : size v = (100, 100) /\ rect v = (100, 100) /\ ext v = (100, 100) /\ offs v = (0, 0) /\ angle v = 45%Z /\ rotation v = 45%Z /\ is_fit v).
  { unfold v, rotate. cbn [fitted set_angle]. rewrite A9. cbn. rewrite A1, A2, A3, A6, A7, A8. repeat split. }
  clearbody v. destruct Q as (Q1&Q2&Q3&Q4&Q5&Q6&(Q7&_&Q9)). unfold best, quarter in Q7. rewrite Q6 in Q7. cbn [Z.eqb Pos.eqb orb] in Q7. rewrite Q1, Q2 in Q7. cbn [fst snd] in Q7.
  assert (S : scale v = 1) by (rewrite Q7; unfold Rmin; destruct Rle_dec; field). rewrite S, Q1, Q2 in Q9. cbn [fst snd] in Q9.
  assert (Q9' : shift v = (0, 0)) by (rewrite Q9; f_equal; field). clear Q9 Q7. cbv zeta.
  assert (SH : forall q, show v q = (fst (turn 45 (fst q - 50, snd q - 50)) + 50, snd (turn 45 (fst q - 50, snd q - 50)) + 50)).
  { intros q. unfold show. rewrite Q3, Q4, Q5, Q9', S. cbn [fst snd]. replace (100 / 2) with 50 by field. rewrite !Rplus_0_r. f_equal; ring. }
  split; [unfold inside; cbn; lra|]. split.
  - rewrite SH. cbn [fst snd]. destruct (turn_45 (0 - 50, 0 - 50)) as (r&R0&R1&E). rewrite E. unfold inside. cbn [fst snd widget fold_left square app]. intros (_&(I&_)). nra.
  - exists (50, 20). split.
    + rewrite SH. cbn [fst snd]. destruct (turn_45 (50 - 50, 20 - 50)) as (r&R0&R1&E). rewrite E. unfold inside. cbn [fst snd widget fold_left square app].
      assert (r < 1) by nra. lra.
    + unfold get_extend, unshow. rewrite Q1, Q3, Q5, Q9', S. cbn [fst snd].
      assert (TA : exists r, turn (- (45)) (0 / 1 - 0 - 100 / 2, 0 / 1 - 0 - 100 / 2) = (- (r * 100), 0) /\ turn (- (45)) (100 / 1 - 0 - 100 / 2, 100 / 1 - 0 - 100 / 2) = (r * 100, 0)).
      { destruct (turn_45 (-50, 50)) as (r&R0&R1&E). exists r. unfold turn in *. rewrite opp_IZR. replace (- (45) * (PI / 180)) with (- (45 * (PI / 180))) by lra.
        rewrite cos_neg, sin_neg. cbn [fst snd] in *. injection E as E1 E2. set (c := cos _) in *. set (d := sin _) in *. split; f_equal; lra. }
      destruct TA as (r&T1&T2). rewrite T1, T2. cbn [fst snd]. pose proof (B (0 + 100 / 2)). unfold Rmin. destruct Rle_dec; lra.
Qed.
Print Assumptions C73_tilted_refuted.
(** centerOn misses the point in a picture turned by 90 degrees (a TODO in the source) ... *)
Theorem C73_quarter_refuted rnd : exists s es p x y W H, Forall valid es /\ Forall no_offset es /\ picture es = Some p /\ widget s es = (W, H) /\ inside p (x, y) /\
  (turned es mod 90 = 0)%Z /\ show (run rnd (es ++ [ECenter x y]) (start s)) (x, y) <> (W / 2, H / 2).
Proof.
  exists (100, 100), (square ++ [ERotate 90]), (100, 100), 0, 0, 100, 100. split; [repeat constructor; cbn; lra|]. split; [repeat constructor|]. split; [reflexivity|]. split; [reflexivity|].
  split; [unfold inside; cbn; lra|]. split; [reflexivity|].
  rewrite <- app_assoc. unfold run. rewrite fold_left_app. fold (run rnd square (start (100, 100))). destruct (square_run rnd) as (A1&A2&A3&A4&A5&A6&A7&A8&A9).
  set (v0 := run rnd square (start (100, 100))) in *. clearbody v0. cbn [app fold_left step].
  unfold rotate. cbn [fitted set_angle]. rewrite A9. set (v := fit_in_view _).
  assert (Q : size v = (100, 100) /\ rect v = (100, 100) /\ ext v = (100, 100) /\ offs v = (0, 0) /\ angle v = 90%Z /\ rotation v = 90%Z /\ is_fit v).
  { unfold v. cbn. rewrite A1, A2, A3, A6, A7, A8. repeat split. }
  clearbody v. destruct Q as (Q1&Q2&Q3&Q4&Q5&Q6&(Q7&_&Q9)). unfold best, quarter in Q7. rewrite Q6 in Q7. cbn [Z.eqb Pos.eqb orb] in Q7. rewrite Q1, Q2 in Q7. cbn [fst snd] in Q7.
  assert (S : scale v = 1) by (rewrite Q7; unfold Rmin; destruct Rle_dec; field).
  destruct (center_fields 0 0 v) as (C1&C2&C3&C4&C5&C6&C7). unfold show. rewrite C3, C4, C5, C7, Q3, Q4, Q5, S. rewrite turn_90 by reflexivity.
  unfold center_on. rewrite Q1, Q2, Q6, S. cbn [Z.eqb Pos.eqb shift set_shift fst snd]. intros E. injection E as E1 E2. lra.
Qed.
Print Assumptions C73_quarter_refuted.
(** ... and does not clear [fitted]: the next resize, even to the same size, undoes the centring. *)
Theorem C73_lost_refuted rnd : exists s es p x y W H, Forall valid es /\ Forall no_offset es /\ picture es = Some p /\ widget s es = (W, H) /\ inside p (x, y) /\
  (turned es = 0)%Z /\ show (run rnd (es ++ [ECenter x y; EResize W H]) (start s)) (x, y) <> (W / 2, H / 2).
Proof.
  exists (100, 100), square, (100, 100), 0, 0, 100, 100. split; [repeat constructor; cbn; lra|]. split; [repeat constructor|]. split; [reflexivity|]. split; [reflexivity|].
  split; [unfold inside; cbn; lra|]. split; [reflexivity|].
  unfold run. rewrite fold_left_app. fold (run rnd square (start (100, 100))). destruct (square_run rnd) as (A1&A2&A3&A4&A5&A6&A7&A8&A9).
  set (v0 := run rnd square (start (100, 100))) in *. clearbody v0. cbn [app fold_left step]. destruct (center_fields 0 0 v0) as (C1&C2&C3&C4&C5&C6&C7).
  assert (FT : fitted (center_on 0 0 v0) = true) by (unfold center_on; rewrite A2, A8; exact A9).
  set (u := center_on 0 0 v0) in *. unfold resize. cbn [fitted set_size]. rewrite FT. unfold fit_in_view, place, best, quarter.
  cbn [rotation rect size set_size]. rewrite C6, C2, A8, A2. cbn [Z.eqb orb fst snd]. replace (Rmin (100 / 100) (100 / 100)) with 1 by (unfold Rmin; destruct Rle_dec; field).
  unfold show. cbn [ext offs angle scale shift set_fitted set_shift set_scale set_size]. rewrite C3, C4, C5, A3, A6, A7, turn_0 by reflexivity. cbn [fst snd]. intros E. injection E as E1 E2. lra.
Qed.
Print Assumptions C73_lost_refuted.
(** fitSmallDimensionInView "covers the whole view with image data" only if the middle of the window was far enough inside
    the picture: here the window stays empty. *)
Theorem C73_small_refuted rnd : half rnd -> exists s es p W H, Forall valid es /\ Forall no_offset es /\ picture es = Some p /\ widget s es = (W, H) /\
  (turned es = 0)%Z /\ W / fst p < H / snd p /\ let v := run rnd (es ++ [ESmall]) (start s) in forall q, inside p q -> ~ inside (W, H) (show v q).
Proof.
  intros Hf. exists (100, 100), ([EExtend 200 100; EFit; EPress (0, 0); EMove (200, 0)]), (200, 100), 100, 100.
  assert (V : Forall valid [EExtend 200 100; EFit; EPress (0, 0); EMove (200, 0)]) by (repeat constructor; cbn; lra).
  assert (N : Forall no_offset [EExtend 200 100; EFit; EPress (0, 0); EMove (200, 0)]) by (repeat constructor).
  split; [exact V|]. split; [exact N|]. split; [reflexivity|]. split; [reflexivity|]. split; [reflexivity|]. split; [cbn; lra|].
  assert (Q0 : show (run rnd [EExtend 200 100; EFit; EPress (0, 0); EMove (200, 0)] (start (100, 100))) (-300, 50) = (100 / 2, 100 / 2)).
  {
    cbn [run fold_left step]. unfold set_extend. cbn [fitted start rect andb]. replace (pt_eqb (1, 1) (200, 100)) with false by (unfold pt_eqb; cbn; destruct Req_EM_T; [lra|reflexivity]).
    cbn [negb]. unfold fit_in_view, place, best, quarter. cbn [rotation size rect set_fitted set_shift set_scale set_rect start Z.eqb orb fst snd].
    replace (Rmin (100 / 200) (100 / 100)) with (1 / 2) by (unfold Rmin; destruct Rle_dec; lra).
    unfold press, move, show. cbn -[turn]. rewrite turn_0 by reflexivity. cbn [fst snd]. f_equal; field. }
  destruct (C73_small rnd (100, 100) _ (200, 100) 100 100 (-300, 50) Hf ltac:(cbn; lra) V N eq_refl eq_refl eq_refl Q0) as (X&_). cbn [fst snd] in X.
  destruct X as (c&C&X); [lra|]. intros v q (I1&I2) (J1&J2). unfold v in *. rewrite X in J1. cbn [fst snd] in *. unfold Rabs in C. destruct Rcase_abs; lra.
Qed.
Print Assumptions C73_small_refuted.
(** mapToOrigin forgets the rotation. *)
Theorem C73_map_refuted rnd : half rnd -> exists s es q, Forall valid es /\ Forall no_offset es /\ let v := run rnd es (start s) in
  map_to_origin rnd v (show v q) <> round_pt rnd q.
Proof.
  intros Hf. assert (B := half_bounds rnd Hf). exists (100, 100), [EExtend 100 100; EFit; ERotate 180], (0, 0). split; [repeat constructor; cbn; lra|]. split; [repeat constructor|].
  cbv zeta. set (v := run _ _ _). assert (E : is_fit v) by apply fit_is_fit.
  destruct (run_fields rnd [EExtend 100 100; EFit; ERotate 180] (start (100, 100))) as (F1&F2&F3).
  destruct (run_picture rnd [EExtend 100 100; EFit; ERotate 180] (100, 100) (100, 100) eq_refl) as (R1&R2). fold v in F1, F2, F3, R1, R2.
  assert (G : good v) by (apply run_good; [repeat constructor; cbn; lra|apply start_good; cbn; lra]). clearbody v.
  destruct G as [_ _ _ T]. rewrite F2 in T. cbn in T, F1, F2. specialize (F3 ltac:(repeat constructor)). cbn [start offs] in F3.
  destruct E as (E1&E2&E3). unfold best, quarter in E1. rewrite T in E1. cbn [Z.eqb Pos.eqb orb] in E1. rewrite F1, R1 in E1. cbn [fst snd] in E1.
  assert (S : scale v = 1) by (rewrite E1; unfold Rmin; destruct Rle_dec; field). rewrite S, F1, R1 in E3. cbn [fst snd] in E3.
  assert (E4 : shift v = (0, 0)) by (rewrite E3; f_equal; field).
  unfold map_to_origin, round_pt, show. rewrite R2, F2, F3, S, E4, turn_180 by reflexivity. cbn [fst snd]. intros X. injection X as X _.
  pose proof (B 0). match type of X with rnd ?t = _ => pose proof (B t) end. lra.
Qed.
Print Assumptions C73_map_refuted.

(** ** Examples *)
Definition nearest (x : R) : R := IZR (Int_part (x + 1 / 2)).
Example C73_half_example : half nearest.
Proof. intros x. unfold nearest. pose proof (base_Int_part (x + 1 / 2)). apply Rabs_le. lra. Qed.
(** A dragged, zoomed and again dragged picture. *)
Example C73_zoom_example : let es := [EExtend 400 300; EPaint; EPress (10, 10); EMove (25, 5); EWheel true (25, 5); ERelease] in
  (0 < fst (200, 100) /\ 0 < snd (200, 100)) /\ Forall valid es /\ 0 < 11 / 10 /\ gesture (10, 10) [EMove (25, 5); EWheel true (25, 5); EMove (30, 0)] (30, 0).
Proof.
  cbv zeta. split; [cbn; lra|]. split; [repeat constructor; cbn; lra|]. split; [lra|]. repeat constructor.
Qed.
Example C73_fit_example : let before := [EExtend 400 300; EPaint; EWheel true (1, 2)] in let after := [ERotate 90; EResize 50 60; EExtend 20 30] in
  Forall valid (before ++ EFit :: after) /\ Forall no_offset before /\ Forall keeps_fit after /\ picture (before ++ EFit :: after) = Some (20, 30) /\
  widget (200, 100) (before ++ EFit :: after) = (50, 60) /\ (turned (before ++ EFit :: after) mod 90 = 0)%Z.
Proof.
  cbv zeta. split; [repeat constructor; cbn; lra|]. split; [repeat constructor|]. split; [repeat constructor|]. repeat split; reflexivity.
Qed.
Example C73_center_example : let es := [EExtend 400 300; EPaint; ERotate 180; EWheel false (3, 4)] in
  Forall valid es /\ Forall no_offset es /\ picture es = Some (400, 300) /\ (turned es mod 360 = 180)%Z /\
  show (run nearest (es ++ [ECenter 7 9]) (start (200, 100))) (7, 9) = (200 / 2, 100 / 2).
Proof.
  cbv zeta. split; [repeat constructor; cbn; lra|]. split; [repeat constructor|]. split; [reflexivity|]. split; [reflexivity|].
  apply (C73_center nearest _ _ (400, 300)); [cbn; lra|repeat constructor; cbn; lra|repeat constructor|reflexivity|reflexivity|right; reflexivity].
Qed.
Example C73_extend_example : let es := [EExtend 400 300; EPaint; ERotate (-90); EWheel true (3, 4)] in
  Forall valid es /\ Forall no_offset es /\ widget (200, 100) es = (200, 100) /\ (turned es mod 90 = 0)%Z.
Proof. cbv zeta. split; [repeat constructor; cbn; lra|]. split; [repeat constructor|]. split; reflexivity. Qed.
Example C73_small_example : let es := [EExtend 400 300; EFit] in
  Forall valid es /\ Forall no_offset es /\ picture es = Some (400, 300) /\ widget (200, 100) es = (200, 100) /\ (turned es mod 360 = 0)%Z /\
  show (run nearest es (start (200, 100))) (200, 150) = (200 / 2, 100 / 2) /\ 100 / 300 <= 200 / 400.
Proof.
  cbv zeta. assert (V : Forall valid [EExtend 400 300; EFit]) by (repeat constructor; cbn; lra). split; [exact V|]. split; [repeat constructor|].
  split; [reflexivity|]. split; [reflexivity|]. split; [reflexivity|]. split; [|lra].
  destruct (C73_fit nearest (200, 100) [EExtend 400 300] [] (400, 300) 200 100) as (_&X&_); try reflexivity; try (repeat constructor); [cbn; lra|cbn; lra|cbn; lra|cbn; lra|].
  cbn [fst snd] in X. replace (400 / 2) with 200 in X by lra. replace (300 / 2) with 150 in X by lra. exact X.
Qed.
Example C73_translate_example : let es := [EExtend 400 300; EFit; ERotate 180; ERotate 180; EWheel true (3, 4)] in Forall no_offset es /\ (turned es mod 360 = 0)%Z.
Proof. cbv zeta. split; [repeat constructor|reflexivity]. Qed.
Example C73_map_example : let es := [EExtend 400 300; EFit; ERotate 360; EWheel true (3, 4)] in Forall valid es /\ Forall no_offset es /\ (turned es mod 360 = 0)%Z.
Proof. cbv zeta. split; [repeat constructor; cbn; lra|]. split; [repeat constructor|]. reflexivity. Qed.
Example C73_kept_example rnd : let before := [EExtend 400 300] in let between := [EPress (10, 10)] in let e := EMove (25, 5) in
  let after := [ERelease; EResize 50 60; EPaint] in let v := run rnd (before ++ EPaint :: between) (start (200, 100)) in
  moves e v /\ Forall passive after /\ fst (shift (step rnd e v)) = fst (shift v) + 15 / scale v.
Proof.
  cbv zeta. assert (P : panning (run rnd ([EExtend 400 300] ++ EPaint :: [EPress (10, 10)]) (start (200, 100))) = true) by reflexivity.
  assert (L : last (run rnd ([EExtend 400 300] ++ EPaint :: [EPress (10, 10)]) (start (200, 100))) = (10, 10)) by reflexivity.
  revert P L. generalize (run rnd ([EExtend 400 300] ++ EPaint :: [EPress (10, 10)]) (start (200, 100))) as v. intros v P L.
  split; [exact P|]. split; [repeat constructor|]. cbn [step]. unfold move. rewrite P, L. cbn. f_equal. f_equal. ring.
Qed.
Example C73_release_example rnd q : let es := [EExtend 400 300; EFit; EPress (10, 10); EMove (25, 5)] in
  show (run rnd (es ++ [ERelease; EMove (90, 90); ERelease]) (start (200, 100))) q = show (run rnd es (start (200, 100))) q.
Proof. intros es. apply C73_release. repeat constructor. Qed.
Example C73_offset_example rnd : let es := [EExtend 400 300; EFit; EOffset 3 4] in
  show (run rnd (es ++ [EOffset 5 6]) (start (200, 100))) (1, 1) = show (run rnd es (start (200, 100))) (6, 7).
Proof. intros es. unfold es. rewrite C73_offset. f_equal. cbn. f_equal; ring. Qed.
