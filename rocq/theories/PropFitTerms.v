(** * C58: the terms of the log probability reward exact observations *)
Require Import Reals Lra Lia Psatz List Bool.
From Verif Require Import Num Vec Orientation OrientationFacts Projection ProjectionFacts Ray RayFacts CameraTransform CameraFacts Horizon Stereo LogProb PropLogProb FitTerms
  PropProjection PropCamera PropRay PropStereo.
Import ListNotations.
Open Scope R_scope.

(** ** Specification *)
(** the normal density, and the largest log probability of [n] observations *)
Definition density (m s x : R) : R := exp (- (((x - m) / s) * ((x - m) / s)) / 2) / (s * sqrt (2 * PI)).
Definition peak (s : R) : R := - ln (s * sqrt (2 * PI)).
(** [v] is no larger than [b]; nan counts as impossible (C48) *)
Definition at_most (v : num) (b : R) : Prop := v = NaN \/ v = NInf \/ exists r, rep v r /\ r <= b.

Lemma sqrt2pi : 0 < sqrt (2 * PI).
Proof. apply sqrt_lt_R0. pose proof PI_RGT_0. lra. Qed.
Lemma ln_density m s x : 0 < s -> ln (density m s x) = - (((x - m) / s) * ((x - m) / s)) / 2 + peak s.
Proof.
  intros H. pose proof sqrt2pi as S. unfold density, peak, Rdiv. assert (0 < s * sqrt (2 * PI)) by nra.
  rewrite ln_mult by (try apply exp_pos; apply Rinv_0_lt_compat; auto). rewrite ln_exp, ln_Rinv by auto. reflexivity.
Qed.
Lemma density_peak m s x : 0 < s -> ln (density m s x) <= peak s /\ (ln (density m s x) = peak s <-> x = m).
Proof.
  intros H. rewrite ln_density by auto. set (y := (x - m) / s). assert (Y : x = m + s * y) by (unfold y; field; lra).
  split; [nra|]. split; intros E.
  - assert (y * y = 0) by lra. assert (y = 0) by nra. nra.
  - assert (y = 0) by nra. nra.
Qed.
(** The value of norm.logpdf is the logarithm of the normal density; nan and infinite deviations are impossible. *)
Theorem C58_normal : forall loc scale x m s, rep loc m -> rep scale s -> 0 < s ->
  (forall X, rep x X -> rep (logpdf loc scale x) (ln (density m s X))) /\
  (x = PInf \/ x = NInf -> logpdf loc scale x = NInf) /\ (x = NaN -> logpdf loc scale x = NaN).
Proof.
  intros loc scale x m s Hm Hs P. unfold logpdf. rewrite (rep_ltb _ _ _ _ (rep_Fin 0) Hs), Rltb_true by auto. cbn [negb orb].
  pose proof Hm as Hm'. pose proof Hs as Hs'. split; [|split].
  - intros X HX. assert (Y : rep ((x - loc) / scale)%num ((X - m) / s)) by (apply rep_div; [apply rep_sub; auto|auto|lra]).
    set (y := ((x - loc) / scale)%num) in *.
    assert (L : rep (nln scale) (ln s)). { rlook Hs'. unfold nln. match goal with H : look scale = _ |- _ => rewrite H end. rewrite Rltb_true by auto. reflexivity. }
    assert (E : nisnan y = false /\ nisinf y = false) by (unfold rep, toR in Y; destruct y; try discriminate; auto). destruct E as [-> ->].
    rewrite ln_density by auto. eapply rep_eq.
    + apply rep_sub; [apply rep_sub; [apply rep_div; [apply rep_neg, rep_mul; eassumption|apply rep_Fin|lra]|apply rep_Fin]|exact L].
    + unfold peak. rewrite ln_mult by (auto; apply sqrt2pi). ring.
  - intros H. rlook Hm'. rlook Hs'. assert (Y : exists b, ((x - loc) / scale)%num = inf b).
    { destruct H as [-> | ->]; unfold nsub, nneg, nadd, ndiv; cbn [look]. all: repeat match goal with H : look _ = _ |- _ => rewrite H end.
      all: unfold mk; destruct (Reqb _ _) eqn:?; [destruct (negb _)|]; cbn [look inf]; repeat match goal with H : look _ = _ |- _ => rewrite H end; eexists; reflexivity. }
    destruct Y as (b&->). destruct b; reflexivity.
  - intros ->. unfold nsub, nadd, ndiv. cbn [look]. reflexivity.
Qed.
Print Assumptions C58_normal.

(** ** Sums *)
Definition rsum (l : list R) : R := fold_right Rplus 0 l.
Lemma at_most_fin v b r : at_most v b -> rep v r -> r <= b.
Proof. intros [-> |[-> |(q&H&L)]] R; try discriminate R. rewrite (rep_inj _ _ _ R H). auto. Qed.
Lemma nsum_rep l xs : Forall2 rep l xs -> rep (nsum l) (rsum xs).
Proof.
  intros F. unfold nsum. assert (X : forall a r, rep a r -> rep (fold_left nadd l a) (r + rsum xs)).
  { induction F as [|x y l l' H _ IH]; intros a r HA; cbn [fold_left rsum fold_right]; [apply (rep_eq _ r); auto; ring|].
    eapply rep_eq; [apply IH, rep_add; eassumption|]. unfold rsum. ring. }
  eapply rep_eq; [apply X, rep_Fin|]. ring.
Qed.
Lemma sum_at_most l bs : Forall2 at_most l bs -> at_most (nsum l) (rsum bs) /\ (rep (nsum l) (rsum bs) -> Forall2 rep l bs).
Proof.
  intros F. assert (NP : ~ In PInf (Fin 0 :: l)).
  { intros [X|X]; [discriminate|]. induction F as [|x y l l' H _ IH]; simpl in X; [auto|]. destruct X as [-> |X]; auto.
    destruct H as [H|[H|(r&H&_)]]; discriminate. }
  unfold nsum. destruct (fold_cases l (Fin 0)) as [(E&H)|[(E&I1&I2&I3)|[(E&I1&I2&I3)|(r&xs&R1&R2&R3)]]].
  - rewrite E. split; [left; auto|discriminate].
  - contradiction.
  - rewrite E. split; [right; left; auto|discriminate].
  - rewrite (rep_inj _ _ _ R1 (rep_Fin 0)) in R3. clear NP R1.
    assert (X : rsum xs <= rsum bs /\ (rsum xs = rsum bs -> xs = bs)).
    { clear R3. revert xs R2. induction F as [|x b l bs H _ IH]; intros xs R2; inversion R2 as [|? y ? ys HY HYS]; subst; [simpl; split; auto; lra|].
      destruct (IH _ HYS) as (A&B). pose proof (at_most_fin _ _ _ H HY) as C. cbn [rsum fold_right]. fold (rsum ys) (rsum bs). split; [lra|].
      intros Q. assert (y = b) by lra. subst. f_equal. apply B. lra. }
    destruct X as (A&B). split.
    + right; right. exists (0 + fold_right Rplus 0 xs). split; auto. fold (rsum xs). lra.
    + intros Q. assert (xs = bs) as <-; [|auto]. apply B. rewrite (rep_inj _ _ _ Q R3). unfold rsum. ring.
Qed.
Lemma rsum_const b n : rsum (repeat b n) = INR n * b.
Proof. induction n as [|n IH]; [simpl; ring|]. rewrite S_INR. cbn [repeat rsum fold_right]. fold (rsum (repeat b n)). rewrite IH. ring. Qed.
(** One normal term. *)
Lemma logpdf_at_most loc scale x m s : rep loc m -> rep scale s -> 0 < s ->
  at_most (logpdf loc scale x) (peak s) /\ (rep (logpdf loc scale x) (peak s) <-> rep x m).
Proof.
  intros Hm Hs P. destruct (C58_normal loc scale x m s Hm Hs P) as (A&B&C). destruct (num_cases x) as [(X&HX)|H].
  - specialize (A X HX). destruct (density_peak m s X P) as (L&E). split; [right; right; eauto|]. split; intros R.
    + rewrite <- (proj1 E); auto. symmetry. exact (rep_inj _ _ _ R A).
    + apply (rep_eq _ (ln (density m s X))); auto. apply E. exact (rep_inj _ _ _ HX R).
  - assert (D : at_most (logpdf loc scale x) (peak s) /\ (logpdf loc scale x = NaN \/ logpdf loc scale x = NInf)).
    { destruct H as [H|[H|H]]; [rewrite B by auto; unfold at_most; tauto|rewrite B by auto; unfold at_most; tauto|rewrite C by auto; unfold at_most; tauto]. }
    destruct D as (D&E). split; auto. split; intros R; exfalso; [destruct E as [E|E]; rewrite E in R; discriminate|].
    destruct H as [-> |[-> | ->]]; discriminate R.
Qed.

(** ** Objects of known size *)
Lemma osum_map {A} (f : A -> option num) l v : osum (map f l) = Some v <-> Forall2 (fun a x => f a = Some x) l v.
Proof.
  revert v. induction l as [|a l IH]; intros v; cbn [map osum].
  - split; [intros [= <-]; constructor|intros X; inversion X; auto].
  - destruct (f a) eqn:E.
    + destruct (osum (map f l)) eqn:O; cbn [option_map]; split.
      * intros [= <-]. constructor; auto. apply IH. auto.
      * intros X. inversion X as [|? y ? ys HY HYS]; subst. apply IH in HYS. congruence.
      * discriminate.
      * intros X. inversion X as [|? y ? ys HY HYS]; subst. apply IH in HYS. discriminate.
    + split; [discriminate|]. intros X. inversion X; subst. congruence.
Qed.
Lemma size_spec measure obs sigma s : rep sigma s -> 0 < s -> (forall o, In o obs -> finite (ob_size o)) ->
  (forall o, In o obs -> measure (ob_1 o) (ob_2 o) <> None) ->
  exists v, size_term measure obs (VNumber sigma) = Some v /\ at_most v (INR (length obs) * peak s) /\
    (rep v (INR (length obs) * peak s) <-> forall o, In o obs -> exists x h, measure (ob_1 o) (ob_2 o) = Some x /\ rep x h /\ rep (ob_size o) h).
Proof.
  intros Hs P FS FM. unfold size_term, sum_terms. cbn [scale_of].
  set (f := fun o => option_map (logpdf (ob_size o) sigma) (measure (ob_1 o) (ob_2 o))).
  assert (X : exists l, osum (map f obs) = Some l /\ Forall2 at_most l (repeat (peak s) (length obs)) /\
    (Forall2 rep l (repeat (peak s) (length obs)) <-> forall o, In o obs -> exists x h, measure (ob_1 o) (ob_2 o) = Some x /\ rep x h /\ rep (ob_size o) h)).
  { induction obs as [|o obs IH]; cbn [map osum length repeat].
    - exists []. split; auto. split; [constructor|]. split; [intros _ ? []|constructor].
    - destruct IH as (l&E&A&B); [intros; apply FS; right; auto|intros; apply FM; right; auto|].
      destruct (measure (ob_1 o) (ob_2 o)) as [x|] eqn:M; [|exfalso; apply (FM o); auto; left; auto].
      unfold f at 1. rewrite M. cbn [option_map]. rewrite E. cbn [option_map]. eexists. split; [reflexivity|].
      destruct (FS o (or_introl eq_refl)) as (m&Hm). destruct (logpdf_at_most (ob_size o) sigma x m s Hm Hs P) as (C&D).
      split; [constructor; auto|]. split.
      + intros F. inversion F as [|? ? ? ? H1 H2]; subst. intros o' [<- |I]; [|apply B; auto]. exists x, m. split; auto. split; [apply D; auto|auto].
      + intros F. constructor; [|apply B; intros o' I; apply F; right; auto]. destruct (F o (or_introl eq_refl)) as (x'&h&E'&H1&H2).
        rewrite M in E'. injection E' as <-. apply D. rewrite (rep_inj _ _ _ Hm H2). auto. }
  destruct X as (l&E&A&B). rewrite E. cbn [option_map]. eexists. split; [reflexivity|].
  destruct (sum_at_most _ _ A) as (C&D). rewrite rsum_const in C, D. split; auto. rewrite <- B. split; auto.
  intros F. apply nsum_rep in F. rewrite rsum_const in F. auto.
Qed.
Lemma height_total c a b z : getObjectHeight c a b z <> None.
Proof. unfold getObjectHeight, spaceFromImage, on_Z, on_Y, on_X. cbn [k_mesh k_D k_X k_Y k_Z]. discriminate. Qed.
Lemma length_total c a b z : getObjectLength c a b z <> None.
Proof. unfold getObjectLength, spaceFromImage, on_Z. cbn [k_mesh k_D k_X k_Y k_Z]. discriminate. Qed.
(** The height term of any camera is bounded by the same number, reached exactly if every object has its given height. *)
Theorem C58_height : forall c obs sigma s, rep sigma s -> 0 < s -> (forall o, In o obs -> finite (ob_size o)) ->
  exists v, height_term c obs (VNumber sigma) = Some v /\ at_most v (INR (length obs) * peak s) /\
    (rep v (INR (length obs) * peak s) <->
     forall o, In o obs -> exists x h, getObjectHeight c (ob_1 o) (ob_2 o) (Fin 0) = Some x /\ rep x h /\ rep (ob_size o) h).
Proof. intros c obs sigma s Hs P F. apply size_spec; auto. intros; apply height_total. Qed.
Print Assumptions C58_height.
Theorem C58_length : forall c z obs sigma s, rep sigma s -> 0 < s -> (forall o, In o obs -> finite (ob_size o)) ->
  exists v, length_term c z obs (VNumber sigma) = Some v /\ at_most v (INR (length obs) * peak s) /\
    (rep v (INR (length obs) * peak s) <->
     forall o, In o obs -> exists x h, getObjectLength c (ob_1 o) (ob_2 o) z = Some x /\ rep x h /\ rep (ob_size o) h).
Proof. intros c z obs sigma s Hs P F. apply size_spec; auto. intros; apply length_total. Qed.
(** A fit parameter as the variation counts as the number it holds; an object that holds none raises, whatever is observed. *)
Theorem C58_parameter : forall c obs z sigma s, rep sigma s -> 0 < s -> (forall o, In o obs -> finite (ob_size o)) ->
  exists v w, height_term c obs (VObject (Some sigma)) = Some v /\ height_term c obs (VNumber sigma) = Some v /\ at_most v (INR (length obs) * peak s) /\
    length_term c z obs (VObject (Some sigma)) = Some w /\ length_term c z obs (VNumber sigma) = Some w /\ at_most w (INR (length obs) * peak s) /\
    height_term c obs (VObject None) = None /\ length_term c z obs (VObject None) = None.
Proof.
  intros c obs z sigma s Hs P F. destruct (C58_height c obs sigma s Hs P F) as (v&A&B&_). destruct (C58_length c z obs sigma s Hs P F) as (w&C&D&_).
  exists v, w. split; [exact A|]. split; [exact A|]. split; [exact B|]. split; [exact C|]. auto.
Qed.
Print Assumptions C58_parameter.
Print Assumptions C58_length.
(** The observations are the images, in the camera [c], of upright objects of the given heights on the ground. *)
Definition upright (c : camera) (k : pkind) (o : opar R) (ob : object) : Prop := exists x y h feet head,
  rep3 feet (V3 x y 0) /\ rep3 head (V3 x y (0 + h)) /\ rep (ob_size ob) h /\
  showable k (cam_coords o (V3 x y 0)) /\ showable k (cam_coords o (V3 x y (0 + h))) /\ x <> pos_x_m o /\ y <> pos_y_m o /\
  ob_1 ob = imageFromSpace c feet true /\ ob_2 ob = imageFromSpace c head true.
(** No camera whatever explains the objects better than the camera that took the image. *)
Theorem C58_height_true_camera : forall c k r o obs sigma s, plain_cam c k r o -> elevation_m o <> 0 -> rep sigma s -> 0 < s ->
  (forall ob, In ob obs -> upright c k o ob) ->
  exists v r, height_term c obs (VNumber sigma) = Some v /\ rep v r /\
    forall c', exists v', height_term c' obs (VNumber sigma) = Some v' /\ at_most v' r.
Proof.
  intros c k r o obs sigma s HC HE Hs P U.
  assert (FS : forall ob, In ob obs -> finite (ob_size ob)).
  { intros ob I. destruct (U ob I) as (x&y&h&feet&head&_&_&H&_). exists h. auto. }
  destruct (C58_height c obs sigma s Hs P FS) as (v&E&_&B). exists v, (INR (length obs) * peak s). split; auto. split.
  - apply B. intros ob I. destruct (U ob I) as (x&y&h&feet&head&Hf&Hh&H&S1&S2&Nx&Ny&E1&E2).
    destruct (C15_object_height c k r o x y 0 h feet head (Fin 0) true HC Hf Hh (rep_Fin 0) S1 S2 Nx Ny) as (w&EW&RW); [lra|].
    exists w, h. rewrite E1, E2. auto.
  - intros c'. destruct (C58_height c' obs sigma s Hs P FS) as (v'&E'&A'&_). eauto.
Qed.
Print Assumptions C58_height_true_camera.
Definition lying (c : camera) (k : pkind) (o : opar R) (z : R) (ob : object) : Prop := exists P1 P2 p1 p2,
  rep3 p1 P1 /\ rep3 p2 P2 /\ cz P1 = z /\ cz P2 = z /\ rep (ob_size ob) (rdist P1 P2) /\
  showable k (cam_coords o P1) /\ showable k (cam_coords o P2) /\
  ob_1 ob = imageFromSpace c p1 true /\ ob_2 ob = imageFromSpace c p2 true.
Theorem C58_length_true_camera : forall c k r o zn z obs sigma s, plain_cam c k r o -> rep zn z -> z <> elevation_m o -> rep sigma s -> 0 < s ->
  (forall ob, In ob obs -> lying c k o z ob) ->
  exists v r, length_term c zn obs (VNumber sigma) = Some v /\ rep v r /\
    forall c', exists v', length_term c' zn obs (VNumber sigma) = Some v' /\ at_most v' r.
Proof.
  intros c k r o zn z obs sigma s HC HZ HE Hs P U.
  assert (FS : forall ob, In ob obs -> finite (ob_size ob)).
  { intros ob I. destruct (U ob I) as (P1&P2&p1&p2&_&_&_&_&H&_). eexists. eauto. }
  destruct (C58_length c zn obs sigma s Hs P FS) as (v&E&_&B). exists v, (INR (length obs) * peak s). split; auto. split.
  - apply B. intros ob I. destruct (U ob I) as (P1&P2&p1&p2&H1&H2&Z1&Z2&H&S1&S2&E1&E2).
    destruct (C16_object_length c k r o P1 P2 p1 p2 z zn true HC H1 H2 HZ Z1 Z2 S1 S2 HE) as (w&w'&EW&RW&_).
    exists w, (rdist P1 P2). rewrite E1, E2. auto.
  - intros c'. destruct (C58_length c' zn obs sigma s Hs P FS) as (v'&E'&A'&_). eauto.
Qed.
Print Assumptions C58_length_true_camera.

(** ** The horizon *)
(** The horizon term of any camera is bounded by the same number, reached exactly if every observed point lies on the
    camera's horizon. *)
Theorem C58_horizon : forall c er e n obs, arange_len (im_height (cam_proj c)) = Some n ->
  (forall o, In o obs -> exists s, rep (snd o) s /\ 0 < s) -> (forall o, In o obs -> finite (c2 (fst o))) ->
  exists v b, horizon_term c er e obs = Some v /\ at_most v b /\
    (forall c' n', arange_len (im_height (cam_proj c')) = Some n' -> exists v', horizon_term c' er e obs = Some v' /\ at_most v' b) /\
    (rep v b <-> forall o, In o obs -> exists y p, getImageHorizon c er e (One (c1 (fst o))) = Some (inl p) /\ rep (c2 p) y /\ rep (c2 (fst o)) y).
Proof.
  intros c er e n obs Hn HS HF.
  set (term := fun c n (o : v2 num * num) => logpdf (Fin 0) (snd o) (c2 (fst o) - c2 (horizon_row c (distanceToHorizon er e) n (c1 (fst o))))%num).
  assert (TE : forall c n, arange_len (im_height (cam_proj c)) = Some n -> horizon_term c er e obs = Some (nsum (map (term c n) obs))).
  { clear. intros c n Hn. unfold horizon_term, getImageHorizon. rewrite Hn. f_equal. f_equal. rewrite map_map.
    induction obs as [|o obs IH]; auto. cbn [map combine fst snd]. rewrite IH. reflexivity. }
  assert (BS : exists bs, forall c n, Forall2 at_most (map (term c n) obs) bs /\
    (Forall2 rep (map (term c n) obs) bs <-> forall o, In o obs -> exists y, rep (c2 (horizon_row c (distanceToHorizon er e) n (c1 (fst o)))) y /\ rep (c2 (fst o)) y)).
  { clear TE. induction obs as [|o obs IH].
    - exists []. intros; split; [constructor|]. split; [intros _ ? []|constructor].
    - destruct IH as (bs&IH); [intros; apply HS; right; auto|intros; apply HF; right; auto|].
      destruct (HS o (or_introl eq_refl)) as (s&Hs&P). destruct (HF o (or_introl eq_refl)) as (y&Hy). exists (peak s :: bs). intros c' n'.
      destruct (IH c' n') as (A&B). set (yy := c2 (horizon_row c' (distanceToHorizon er e) n' (c1 (fst o)))).
      destruct (logpdf_at_most (Fin 0) (snd o) (c2 (fst o) - yy)%num 0 s (rep_Fin 0) Hs P) as (C&D).
      split; [constructor; auto|].
      assert (Z : rep (c2 (fst o) - yy)%num 0 <-> rep yy y).
      { destruct (num_cases yy) as [(q&Q)|N].
        - pose proof (rep_sub _ _ _ _ Hy Q) as R. split; intros X; [apply (rep_eq _ _ _ Q)|apply (rep_eq _ _ _ R)];
            [pose proof (rep_inj _ _ _ X R)|pose proof (rep_inj _ _ _ X Q)]; lra.
        - split; intros X; exfalso.
          + pose proof Hy as Hy'. rlook Hy'. unfold nsub, nadd in X. destruct N as [-> |[-> | ->]]; unfold nneg in X; cbn [look] in X;
              match goal with H : look (c2 (fst o)) = _ |- _ => rewrite H in X end; discriminate X.
          + destruct N as [N|[N|N]]; rewrite N in X; discriminate X. }
      split.
      + intros F. inversion F as [|? ? ? ? F1 F2]; subst. intros o' [<- |I]; [|apply B; auto]. exists y. split; auto. apply Z, D. exact F1.
      + intros F. constructor; [|apply B; intros o' I; apply F; right; auto]. apply D, Z. destruct (F o (or_introl eq_refl)) as (y'&Y1&Y2).
        rewrite (rep_inj _ _ _ Hy Y2). exact Y1. }
  destruct BS as (bs&BS). exists (nsum (map (term c n) obs)), (rsum bs). split; [apply TE; auto|].
  destruct (BS c n) as (A&B). destruct (sum_at_most _ _ A) as (C&D). split; auto. split.
  - intros c' n' Hn'. destruct (BS c' n') as (A'&_). destruct (sum_at_most _ _ A') as (C'&_). eauto.
  - split.
    + intros R o I. apply D in R. destruct (proj1 B R o I) as (y&Y1&Y2). exists y. eexists. unfold getImageHorizon. rewrite Hn. split; [reflexivity|]. auto.
    + intros H. apply nsum_rep, B. intros o I. destruct (H o I) as (y&p&E&Y1&Y2). unfold getImageHorizon in E. rewrite Hn in E. injection E as <-. eauto.
Qed.
Print Assumptions C58_horizon.

(** ** The baseline *)
(** The term is largest exactly if the horizontal distance of the two cameras is the given one. *)
Theorem C58_baseline : forall target unc pos1 pos2 t s P Q, rep target t -> rep unc s -> 0 < s -> rep3 pos1 P -> rep3 pos2 Q ->
  at_most (baseline_term target unc pos1 pos2) (peak s) /\
  (rep (baseline_term target unc pos1 pos2) (peak s) <-> sqrt ((cx P - cx Q) * (cx P - cx Q) + (cy P - cy Q) * (cy P - cy Q)) = t).
Proof.
  intros target unc pos1 pos2 t s P Q Ht Hs HP (A1&A2&A3) (B1&B2&B3). unfold baseline_term.
  assert (R : rep (getBaseline pos1 pos2) (sqrt ((cx P - cx Q) * (cx P - cx Q) + (cy P - cy Q) * (cy P - cy Q)))).
  { unfold getBaseline. apply rep_sqrt; [apply rep_add; apply rep_mul; apply rep_sub; auto|]. apply Rplus_le_le_0_compat; apply Rle_0_sqr. }
  destruct (logpdf_at_most target unc (getBaseline pos1 pos2) t s Ht Hs HP) as (A&B). split; auto. rewrite B. split; intros H.
  - exact (rep_inj _ _ _ R H).
  - rewrite <- H. auto.
Qed.
Print Assumptions C58_baseline.
(** Two cameras above each other have no baseline, although their distance is the given one. *)
Theorem C58_baseline_refuted : exists target unc pos1 pos2 P Q, rep3 pos1 P /\ rep3 pos2 Q /\ rep target (rdist P Q) /\ rep unc 1 /\
  ~ rep (baseline_term target unc pos1 pos2) (peak 1).
Proof.
  set (P := V3 0 0 0). set (Q := V3 0 0 2). assert (D : rdist P Q = 2).
  { unfold rdist, rnorm, rdot, rv_sub, zip3v, P, Q. cbn [cx cy cz]. replace ((0 - 0) * (0 - 0) + (0 - 0) * (0 - 0) + (0 - 2) * (0 - 2)) with (2 * 2) by ring. apply sqrt_square. lra. }
  exists (Fin 2), (Fin 1), (fin3 P), (fin3 Q), P, Q. split; [apply rep3_fin|]. split; [apply rep3_fin|]. rewrite D. split; [apply rep_Fin|]. split; [apply rep_Fin|].
  intros R. apply (C58_baseline (Fin 2) (Fin 1) (fin3 P) (fin3 Q) 2 1 P Q (rep_Fin 2) (rep_Fin 1) Rlt_0_1 (rep3_fin _) (rep3_fin _)) in R.
  unfold P, Q in R. cbn [cx cy] in R. replace ((0 - 0) * (0 - 0) + (0 - 0) * (0 - 0)) with 0 in R by ring. rewrite sqrt_0 in R. lra.
Qed.
Print Assumptions C58_baseline_refuted.

(** ** Corresponding points *)
(** Both samples of a ray are in front of a camera at [ob] *)
Definition ahead (ob : opar R) (T W : v3 R) : Prop :=
  cz (cam_coords ob (line_at T W 1)) <= - tinyR /\ cz (cam_coords ob (line_at T W 2)) <= - tinyR.
Lemma hide_front c r o p P : plain_cam c Rectilinear r o -> rep3 p P -> cz (cam_coords o P) <= - tinyR ->
  imageFromSpace c p true = imageFromSpace c p false.
Proof.
  intros HC Hp HB. destruct (plain_good _ _ _ _ HC) as ((Hpr&_&HR)&HK&HDi&_). unfold imageFromSpace. rewrite !HDi, HK. cbn [p_image].
  pose proof (rigid_camera _ _ _ _ _ HR Hp) as RC. set (q := cameraFromSpace (cam_o c) p) in *. pose proof tinyR_pos as TP.
  unfold rect_image. rewrite (mask_big _ _ RC) by (fold (cam_coords o P); rewrite Rabs_left; lra).
  destruct RC as (_&_&RZ). rewrite (rep_ltb _ _ _ _ (rep_Fin 0) RZ), Rltb_false by (fold (cam_coords o P); lra). reflexivity.
Qed.
Lemma deviation_front a b ka ra rb oa ob qa qb W : plain_cam a ka ra oa -> plain_cam b Rectilinear rb ob ->
  rep3 (snd (getRay a qa false)) W -> ahead ob (opos oa) W -> epipolar_deviation a b qa qb = epipolar_distance a b qa qb.
Proof.
  intros Ha Hb HW (B1&B2). assert (HO : rep3 (fst (getRay a qa false)) (opos oa)).
  { destruct (plain_good _ _ _ _ Ha) as (HG&_). cbn [getRay fst]. eapply origin_rep; eauto. }
  unfold epipolar_deviation, epipolar_distance.
  rewrite (hide_front b rb ob _ (line_at (opos oa) W 1) Hb), (hide_front b rb ob _ (line_at (opos oa) W 2) Hb); auto.
  all: unfold line_at; apply rep3_add; auto; apply rep3_scale; auto; apply rep_Fin.
Qed.
(** The two pixels are the images of one point, in general position and with both samples in front of the cameras. *)
Definition same_point (a b : camera) (oa ob : opar R) (q : v2 num * v2 num) : Prop := exists p P Wa Wb,
  rep3 p P /\ showable Rectilinear (cam_coords oa P) /\ showable Rectilinear (cam_coords ob P) /\
  rcross (rv_sub P (opos oa)) (rv_sub P (opos ob)) <> rv0 /\ q = (imageFromSpace a p true, imageFromSpace b p true) /\
  rep3 (snd (getRay a (fst q) false)) Wa /\ ahead ob (opos oa) Wa /\ rep3 (snd (getRay b (snd q) false)) Wb /\ ahead oa (opos ob) Wb.
Lemma ahead_sampled ob T W : ahead ob T W -> sampled ob T W.
Proof. pose proof tinyR_pos. intros (A&B). split; rewrite Rabs_left; lra. Qed.
Lemma zero_terms (f : v2 num * v2 num -> num) pairs unc s : rep unc s -> 0 < s ->
  at_most (nsum (map (fun q => logpdf (Fin 0) unc (f q)) pairs)) (INR (length pairs) * peak s) /\
  ((forall q, In q pairs -> rep (f q) 0) -> rep (nsum (map (fun q => logpdf (Fin 0) unc (f q)) pairs)) (INR (length pairs) * peak s)).
Proof.
  intros Hs P. rewrite <- rsum_const. split.
  - apply sum_at_most. induction pairs as [|q l IH]; [constructor|]. constructor; auto. apply (logpdf_at_most (Fin 0) unc (f q) 0 s); auto. apply rep_Fin.
  - intros H. apply nsum_rep. induction pairs as [|q l IH]; [constructor|]. constructor; [|apply IH; intros; apply H; right; auto].
    apply (logpdf_at_most (Fin 0) unc (f q) 0 s); auto; [apply rep_Fin|]. apply H. left; auto.
Qed.
Lemma at_most_add v w a b : at_most v a -> at_most w b -> at_most (Fin 0 + v + w)%num (a + b).
Proof.
  intros A B. change (at_most (nsum [v; w]) (a + b)). replace (a + b) with (rsum [a; b]) by (simpl; ring). apply sum_at_most. do 2 (constructor; auto).
Qed.
Lemma rcross_swap u v : rcross u v = rv_scale (-1) (rcross v u).
Proof. destruct u, v. apply v3_ext; cbn; ring. Qed.
Lemma same_point_zero a b ra rb oa ob q : plain_cam a Rectilinear ra oa -> plain_cam b Rectilinear rb ob ->
  same_point a b oa ob q -> rep (epipolar_deviation a b (fst q) (snd q)) 0 /\ rep (epipolar_deviation b a (snd q) (fst q)) 0.
Proof.
  intros Ha Hb (p&X&Wa&Wb&Hp&Sa&Sb&NC&->&HWa&Aa&HWb&Ab). cbn [fst snd] in *. split.
  - rewrite (deviation_front a b Rectilinear ra rb oa ob _ _ Wa); auto.
    apply (epipolar_zero a b Rectilinear ra rb oa ob p X Wa); auto; [intros; exact I|apply ahead_sampled; auto].
  - rewrite (deviation_front b a Rectilinear rb ra ob oa _ _ Wb); auto.
    apply (epipolar_zero b a Rectilinear rb ra ob oa p X Wb); auto; [intros; exact I|apply ahead_sampled; auto|].
    intros E. apply NC. rewrite rcross_swap, E. apply v3_ext; cbn; ring.
Qed.
(** The true cameras reach the largest value any pair of cameras has. *)
Theorem C58_correspondence_true_cameras : forall a b rest ra rb oa ob pairs unc s,
  plain_cam a Rectilinear ra oa -> plain_cam b Rectilinear rb ob -> rep unc s -> 0 < s ->
  (forall q, In q pairs -> same_point a b oa ob q) ->
  exists v r, correspondence_term (a :: b :: rest) pairs unc = Some v /\ rep v r /\
    forall a' b' rest', exists v', correspondence_term (a' :: b' :: rest') pairs unc = Some v' /\ at_most v' r.
Proof.
  intros a b rest ra rb oa ob pairs unc s Ha Hb Hs P H. eexists. exists (INR (length pairs) * peak s + INR (length pairs) * peak s). split; [reflexivity|]. split.
  - replace (INR (length pairs) * peak s + INR (length pairs) * peak s) with (0 + INR (length pairs) * peak s + INR (length pairs) * peak s) by ring.
    apply rep_add; [apply rep_add; [apply rep_Fin|]|].
    + apply (zero_terms (fun q => epipolar_deviation a b (fst q) (snd q)) pairs unc s Hs P). intros q Iq. apply (same_point_zero a b ra rb oa ob); auto.
    + apply (zero_terms (fun q => epipolar_deviation b a (snd q) (fst q)) pairs unc s Hs P). intros q Iq. apply (same_point_zero a b ra rb oa ob); auto.
  - intros. eexists. split; [reflexivity|]. apply at_most_add.
    + apply (zero_terms (fun q => epipolar_deviation a' b' (fst q) (snd q))); auto.
    + apply (zero_terms (fun q => epipolar_deviation b' a' (snd q) (fst q))); auto.
Qed.
Print Assumptions C58_correspondence_true_cameras.

(** A camera that stands in front of the other one does not see the samples of its rays, which makes the true pair of
    cameras impossible. *)
Definition ex_ahead : opar R := OPar 10 90 0 0 1 5.
Lemma ex_ahead_coords P : cam_coords ex_ahead P = V3 (cx P - 1) (cz P - 10) (5 - cy P).
Proof.
  unfold cam_coords, camM; cbn [tilt_deg roll_deg heading_deg ex_ahead].
  replace (rad 90) with (PI / 2) by (unfold rad; field). replace (rad 0) with 0 by (unfold rad; ring).
  apply v3_ext; cbv [rotm rm_mul_v rv_sub zip3v rdot opos pos_x_m pos_y_m elevation_m ex_ahead cx cy cz];
  rewrite ?sin_PI2, ?cos_PI2, ?sin_0, ?cos_0; ring.
Qed.
Lemma ex_cam_ahead : exists c, plain_cam c Rectilinear ex_r ex_ahead.
Proof.
  assert (H : rep_opar (opar_fin ex_ahead) ex_ahead) by (repeat split). destruct (init_rigid _ _ H) as (m&E&_).
  exists (plain_camera Rectilinear (proj_fin ex_r) m), (proj_fin ex_r), m. splits; auto; [repeat split|split; simpl; lra|eauto].
Qed.
Lemma hidden_behind c r o p P : plain_cam c Rectilinear r o -> rep3 p P -> 0 < cz (cam_coords o P) -> imageFromSpace c p true = nan2.
Proof.
  intros HC Hp HB. destruct (plain_good _ _ _ _ HC) as ((Hpr&Hf&HR)&HK&HDi&_). unfold imageFromSpace. rewrite HDi, HK. cbn [p_image].
  destruct (proj1 (C06_rect_nan_iff (cam_proj c) r _ _ true Hpr Hf (rigid_camera _ _ _ _ _ HR Hp))) as (_&N).
  destruct N as (N1&N2); [left; auto|]. destruct (rect_image _ _ _) as (x&y). cbn in *. subst; auto.
Qed.
Theorem C58_correspondence_refuted : exists a b P, plain_cam a Rectilinear ex_r (ex_at 0) /\ plain_cam b Rectilinear ex_r ex_ahead /\
  showable Rectilinear (cam_coords (ex_at 0) P) /\ showable Rectilinear (cam_coords ex_ahead P) /\
  rcross (rv_sub P (opos (ex_at 0))) (rv_sub P (opos ex_ahead)) <> rv0 /\
  forall unc s, rep unc s -> 0 < s ->
    correspondence_term [a; b] [(imageFromSpace a (fin3 P) true, imageFromSpace b (fin3 P) true)] unc = Some NaN.
Proof.
  destruct (ex_cam_at Rectilinear 0) as (a&Ha), (ex_cam_ahead) as (b&Hb). set (P := V3 0 20 10). exists a, b, P.
  assert (S : showable Rectilinear (cam_coords (ex_at 0) P)) by (apply ex_at_showable; simpl; lra).
  splits; auto.
  { rewrite ex_ahead_coords. split; unfold P; cbn [cx cy cz]; [rewrite Rabs_left; unfold tinyR; lra|lra]. }
  { unfold P. vring. intros H; injection H; lra. }
  intros unc s Hs P0. unfold correspondence_term, two. do 2 f_equal.
  assert (RQ : rep2 (imageFromSpace a (fin3 P) true) (V2 2000 1500)).
  { apply (image_dir a Rectilinear ex_r (ex_at 0) _ P); auto using rep3_fin; [exact I|].
    rewrite ex_at_coords. exists 20; split; [lra|]. unfold P. apply v3_ext; cbn; unfold alphaR, betaR; cbn; field. }
  assert (RW : rep3 (snd (getRay a (imageFromSpace a (fin3 P) true) false)) (V3 0 1 0)).
  { eapply rep3_eq; [apply (ex_at_ray a Rectilinear 0 _ _ _ Ha RQ I eq_refl)|]. apply v3_ext; cbn; unfold alphaR, betaR; cbn; field. }
  assert (HO : rep3 (fst (getRay a (imageFromSpace a (fin3 P) true) false)) (V3 0 0 10)).
  { destruct (plain_good _ _ _ _ Ha) as (HG&_). cbn [getRay fst]. eapply rep3_eq; [eapply origin_rep; eauto|reflexivity]. }
  assert (H1 : imageFromSpace b (nv_add (fst (getRay a (imageFromSpace a (fin3 P) true) false))
     (nv_scale (Fin 1) (snd (getRay a (imageFromSpace a (fin3 P) true) false)))) true = nan2).
  { apply (hidden_behind b ex_r ex_ahead _ (V3 0 1 10)); auto.
    - eapply rep3_eq; [apply rep3_add; [exact HO|apply rep3_scale; [apply rep_Fin|exact RW]]|]. apply v3_ext; cbn; ring.
    - rewrite ex_ahead_coords; cbn [cx cy cz]; lra. }
  assert (E : epipolar_deviation a b (imageFromSpace a (fin3 P) true) (imageFromSpace b (fin3 P) true) = NaN).
  { unfold epipolar_deviation. rewrite H1. generalize (imageFromSpace b (fin3 P) true). intros (x&y).
    unfold closest2, nv2_add, nv2_sub, zip2v, map2v, nv_norm2; cbn [c1 c2 nan2]. rewrite !nadd_NaN_l. reflexivity. }
  cbn [map fst snd]. rewrite E.
  assert (N : logpdf (Fin 0) unc NaN = NaN) by (apply (C58_normal (Fin 0) unc NaN 0 s); auto; apply rep_Fin).
  rewrite N. unfold nsum at 1. cbn [fold_left]. rewrite !add_nan_r, add_nan_l. reflexivity.
Qed.
Print Assumptions C58_correspondence_refuted.

(** ** Landmarks *)
Definition sq (x : R) : R := x * x.
(** squared deviation in units of the uncertainties *)
Definition deviation2 (sg v : v3 R) : R := sq (cx v / cx sg) + sq (cy v / cy sg) + sq (cz v / cz sg).
Definition positive3 (sg : v3 R) : Prop := 0 < cx sg /\ 0 < cy sg /\ 0 < cz sg.
(** the sum of the squares of 1000 equally spaced numbers from -2 to 2 *)
Definition spread : R := 4004000 / 2997.
Definition peaks (sg : v3 R) : R := peak (cx sg) + peak (cy sg) + peak (cz sg).

Lemma rsum_app a b : rsum (a ++ b) = rsum a + rsum b.
Proof. induction a as [|x a IH]; unfold rsum in *; simpl; [ring|]. rewrite IH. ring. Qed.
Lemma sum_quad a b c n : rsum (map (fun i => a + b * INR i + c * sq (INR i)) (seq 0 n)) =
  INR n * a + b * (INR n * (INR n - 1) / 2) + c * (INR n * (INR n - 1) * (2 * INR n - 1) / 6).
Proof.
  induction n as [|n IH]; [simpl; field|]. rewrite seq_S, map_app, rsum_app, IH, S_INR. simpl (map _ [_]). cbn [rsum fold_right]. unfold sq.
  change (0 + n)%nat with n. field.
Qed.
Definition step (off : R) (i : nat) : R := -2 * off + INR i * ((2 * off - -2 * off) / 999).
Lemma inr_1000 : INR 1000 = 1000.
Proof. rewrite INR_IZR_INZ. f_equal. Qed.
Lemma sum_steps off A B C : rsum (map (fun i => A + B * step off i + C * sq (step off i)) (seq 0 1000)) = 1000 * A + C * (sq off * spread).
Proof.
  rewrite (map_ext _ (fun i => (A - 2 * B * off + 4 * C * sq off) + (4 * B * off / 999 - 16 * C * sq off / 999) * INR i + (16 * C * sq off / (999 * 999)) * sq (INR i)))
    by (intros i; unfold step, sq; field).
  rewrite sum_quad, inr_1000. unfold spread, sq. field.
Qed.
Lemma flat3 {X} (f g h : X -> R) l : rsum (flat_map (fun s => [f s; g s; h s]) l) = rsum (map (fun s => f s + g s + h s) l).
Proof. induction l as [|x l IH]; [reflexivity|]. unfold rsum in *. simpl. rewrite IH. ring. Qed.
Lemma offsets_rep offset off : rep offset off -> Forall2 rep (offsets offset) (map (step off) (seq 0 1000)).
Proof.
  intros H. unfold offsets. generalize (seq 0 1000). intros l. induction l as [|i l IH]; cbn [map]; constructor; auto.
  unfold step. apply rep_add; [apply rep_mul; [apply rep_Fin|auto]|]. apply rep_mul; [apply rep_Fin|]. apply rep_div; [|apply rep_Fin|lra].
  apply rep_sub; apply rep_mul; auto; apply rep_Fin.
Qed.

(** The value of the term: [X] is the point on the ray that is as far from the camera as the foot [F] of the
    perpendicular from the landmark. *)
Theorem C58_landmark : forall c pos offset m O V L sg off,
  rep3 (fst (getRay c (lm_image m) true)) O -> rep3 (snd (getRay c (lm_image m) true)) V -> V <> rv0 -> rep3 pos O ->
  rep3 (lm_space m) L -> rep3 (lm_unc m) sg -> positive3 sg -> rep offset off ->
  exists U t, let F := line_at O U t in let X := line_at O U (rdist F O) in
    V = rv_scale (rnorm V) U /\ rnorm U = 1 /\ rdot (rv_sub L F) U = 0 /\
    rep (landmark_1 c pos offset m)
      (- (1000 * deviation2 sg (rv_sub X L) + sq off * spread * deviation2 sg U) / 2 + 1000 * peaks sg).
Proof.
  intros c pos offset m O V L sg off HO HV NZ HP HL HS (P1&P2&P3) Hoff. pose proof (rnorm_pos _ NZ) as NP.
  set (U := rv_scale (/ rnorm V) V). assert (U1 : rnorm U = 1).
  { unfold U. rewrite rnorm_scale, Rabs_right; [field; lra|]. apply Rle_ge, Rlt_le, Rinv_0_lt_compat; auto. }
  assert (UU : rdot U U = 1) by (rewrite <- rnorm_sqr, U1; ring).
  set (t := rdot U (rv_sub L O)). exists U, t. cbv zeta.
  assert (EV : V = rv_scale (rnorm V) U) by (unfold U; apply v3_ext; cbn; field; lra).
  assert (RU : rep3 (nv_div (snd (getRay c (lm_image m) true)) (nv_norm (snd (getRay c (lm_image m) true)))) U).
  { eapply rep3_eq; [eapply rep3_div; [exact HV|apply rep_norm; exact HV|lra]|]. unfold U. apply v3_ext; cbn; field; lra. }
  split; [exact EV|]. split; [exact U1|]. split.
  { unfold t. transitivity (rdot U (rv_sub L O) * (1 - rdot U U)); [|rewrite UU; ring]. destruct U, L, O. cbn. unfold rdot; cbn. ring. }
  unfold landmark_1. cbv zeta. unfold getClosestPointFromLine. cbv zeta. cbn [fst snd].
  set (ray := nv_div _ _) in *. set (org := fst (getRay c (lm_image m) true)) in *.
  assert (RF : rep3 (nv_add org (nv_scale (nv_dot ray (nv_sub (lm_space m) org)) ray)) (line_at O U t)).
  { unfold line_at. apply rep3_add; auto. apply rep3_scale; auto. apply rep_dot; auto. apply rep3_sub; auto. }
  set (foot := nv_add org _) in *. set (d := rdist (line_at O U t) O).
  assert (RD : rep (nv_norm (nv_sub foot pos)) d) by (apply rep_norm, rep3_sub; auto).
  set (dist := nv_norm (nv_sub foot pos)) in *. set (X := line_at O U d).
  set (at_s := fun s => line_at O U (d + s)).
  assert (RS : forall s x, rep s x -> rep3 (nv_add org (nv_scale (dist + s)%num ray)) (at_s x)).
  { intros. unfold at_s, line_at. apply rep3_add; auto. apply rep3_scale; [apply rep_add; auto|auto]. }
  pose proof (offsets_rep _ _ Hoff) as RO. destruct HL as (L1&L2&L3), HS as (S1&S2&S3).
  assert (RT : rep (nsum (flat_map (fun s => [logpdf (cx (lm_space m)) (cx (lm_unc m)) (cx (nv_add org (nv_scale (dist + s)%num ray)));
                            logpdf (cy (lm_space m)) (cy (lm_unc m)) (cy (nv_add org (nv_scale (dist + s)%num ray)));
                            logpdf (cz (lm_space m)) (cz (lm_unc m)) (cz (nv_add org (nv_scale (dist + s)%num ray)))]) (offsets offset)))
    (rsum (flat_map (fun s => [ln (density (cx L) (cx sg) (cx (at_s s))); ln (density (cy L) (cy sg) (cy (at_s s))); ln (density (cz L) (cz sg) (cz (at_s s)))]) (map (step off) (seq 0 1000))))).
  { apply nsum_rep. induction RO as [|s x l l' H _ IH]; [constructor|]. cbn [flat_map app]. destruct (RS _ _ H) as (A&B&C).
    constructor; [apply C58_normal; auto|]. constructor; [apply C58_normal; auto|]. constructor; [apply C58_normal; auto|]. exact IH. }
  eapply rep_eq; [exact RT|]. clear RT RO. rewrite flat3, map_map.
  rewrite (map_ext _ (fun i => (peaks sg - deviation2 sg (rv_sub X L) / 2)
    + (- (cx (rv_sub X L) * cx U / sq (cx sg) + cy (rv_sub X L) * cy U / sq (cy sg) + cz (rv_sub X L) * cz U / sq (cz sg))) * step off i
    + (- deviation2 sg U / 2) * sq (step off i))).
  - rewrite sum_steps. field.
  - intros i. rewrite !ln_density by auto. unfold peaks, deviation2, sq, at_s, X, line_at. clear - P1 P2 P3. destruct O, U, L, sg. cbn in *. field. lra.
Qed.
Print Assumptions C58_landmark.

(** With the same uncertainty in all directions the term is largest exactly when the landmark is on the ray. *)
Lemma sub_zero a b : rv_sub a b = rv0 -> a = b.
Proof.
  intros E. pose proof (f_equal cx E) as E1. pose proof (f_equal cy E) as E2. pose proof (f_equal cz E) as E3. cbn in *. apply v3_ext; lra.
Qed.
Lemma line_rescale O U V n d : V = rv_scale n U -> 0 < n -> line_at O U d = line_at O V (d / n).
Proof. intros -> H. unfold line_at. apply v3_ext; cbn; field; lra. Qed.
Definition best (s off : R) : R := 3000 * peak s - sq off * spread / (2 * sq s).
Theorem C58_landmark_best : forall c pos offset m O V L s off,
  rep3 (fst (getRay c (lm_image m) true)) O -> rep3 (snd (getRay c (lm_image m) true)) V -> V <> rv0 -> rep3 pos O ->
  rep3 (lm_space m) L -> rep3 (lm_unc m) (V3 s s s) -> 0 < s -> rep offset off ->
  exists v, rep (landmark_1 c pos offset m) v /\ v <= best s off /\
    (v = best s off <-> exists l, 0 <= l /\ L = line_at O V l).
Proof.
  intros c pos offset m O V L s off HO HV NZ HP HL HS P Hoff. pose proof (rnorm_pos _ NZ) as NP.
  destruct (C58_landmark c pos offset m O V L (V3 s s s) off) as (U&t&EV&U1&PU&RV); auto; [split; auto|].
  eexists. split; [exact RV|].
  assert (UU : rdot U U = 1) by (rewrite <- rnorm_sqr, U1; ring).
  assert (DU : forall v, deviation2 (V3 s s s) v = rdot v v / sq s) by (intros; unfold deviation2, rdot, sq; cbn [cx cy cz]; field; lra).
  rewrite !DU, UU. set (X := line_at O U (rdist (line_at O U t) O)) in *. pose proof (rdot_self_nonneg (rv_sub X L)) as NN.
  assert (SS : 0 < sq s) by (unfold sq; nra).
  assert (E : - (1000 * (rdot (rv_sub X L) (rv_sub X L) / sq s) + sq off * spread * (1 / sq s)) / 2 + 1000 * peaks (V3 s s s)
    = best s off - 500 * (rdot (rv_sub X L) (rv_sub X L) / sq s)) by (unfold best, peaks; cbn [cx cy cz]; field; lra).
  rewrite E. split; [|split].
  - assert (0 <= rdot (rv_sub X L) (rv_sub X L) / sq s) by (apply Rmult_le_pos; auto; left; apply Rinv_0_lt_compat; auto). lra.
  - intros B. assert (Z : rdot (rv_sub X L) (rv_sub X L) / sq s = 0) by lra.
    assert (Z' : rdot (rv_sub X L) (rv_sub X L) = 0) by (apply (Rmult_eq_reg_r (/ sq s)); [rewrite Rmult_0_l; exact Z|apply Rinv_neq_0_compat; lra]).
    apply rdot_self_0 in Z'. exists (rdist (line_at O U t) O / rnorm V). split.
    { apply Rmult_le_pos; [apply rnorm_nonneg|left; apply Rinv_0_lt_compat; auto]. }
    transitivity X.
    + symmetry. apply sub_zero. exact Z'.
    + apply line_rescale; auto.
  - intros (l&L0&EL).
    assert (EL' : L = line_at O U (l * rnorm V)) .
    { rewrite EL, (line_rescale O U V (rnorm V)) by auto. f_equal. field. lra. }
    assert (T : t = l * rnorm V).
    { rewrite EL' in PU. replace (rdot _ _) with ((l * rnorm V - t) * rdot U U) in PU by (unfold line_at, rdot; cbn; ring). rewrite UU in PU. lra. }
    assert (D : rdist (line_at O U t) O = t).
    { unfold rdist. replace (rv_sub (line_at O U t) O) with (rv_scale t U) by (unfold line_at; apply v3_ext; cbn; ring).
      rewrite rnorm_scale, U1, Rabs_right; [ring|]. subst t. apply Rle_ge. apply Rmult_le_pos; lra. }
    unfold X. rewrite D, EL', T. replace (rdot _ _) with 0 by (unfold line_at, rdot; cbn; ring). unfold Rdiv. ring.
Qed.
Print Assumptions C58_landmark_best.

(** Landmarks seen where the camera shows them: no camera has a larger term. *)
Definition equal_unc (m : landmark) (s : R) : Prop := rep3 (lm_unc m) (V3 s s s) /\ 0 < s.
Definition seen_landmark (c : camera) (k : pkind) (o : opar R) (m : landmark) : Prop :=
  exists L hide, rep3 (lm_space m) L /\ showable k (cam_coords o L) /\ lm_image m = imageFromSpace c (lm_space m) hide.
Definition has_direction (k : pkind) (r : proj R) (m : landmark) : Prop :=
  exists Q, rep2 (lm_image m) Q /\ (k = Equirectangular -> cos ((c2 Q - center_y r) / f_y r) <> 0).

Lemma landmark_direction c k r o m : plain_cam c k r o -> has_direction k r m ->
  exists V, rep3 (fst (getRay c (lm_image m) true)) (opos o) /\ rep3 (snd (getRay c (lm_image m) true)) V /\ V <> rv0.
Proof.
  intros HC (Q&HQ&HE). destruct (plain_good _ _ _ _ HC) as (HG&HK&_&HU). 
  exists (rv_scale (/ rnorm (dirW c r (camM o) Q)) (dirW c r (camM o) Q)).
  assert (NZ : dirW c r (camM o) Q <> rv0) by (eapply dirW_nonzero; apply HG). pose proof (rnorm_pos _ NZ) as NP. splits.
  - cbn [getRay fst]. eapply origin_rep; eauto.
  - apply (direction_rep c r (camM o) (opos o) _ Q true HG); [rewrite HU; auto|rewrite HK; destruct k; simpl; auto].
  - intros E. apply (f_equal rnorm) in E. rewrite rnorm_scale, rnorm_rv0, Rabs_right in E by (left; apply Rinv_0_lt_compat; auto).
    rewrite Rinv_l in E by lra. lra.
Qed.
Theorem C58_landmark_true_camera : forall c k r o pos offset off ms ss,
  plain_cam c k r o -> rep3 pos (opos o) -> rep offset off -> Forall2 equal_unc ms ss -> Forall (seen_landmark c k o) ms ->
  exists v, rep (landmark_term c pos offset ms) v /\
    forall c' k' r' o' pos', plain_cam c' k' r' o' -> rep3 pos' (opos o') -> Forall (has_direction k' r') ms ->
    at_most (landmark_term c' pos' offset ms) v.
Proof.
  intros c k r o pos offset off ms ss HC HP Hoff HU HS. exists (rsum (map (fun s => best s off) ss)). split.
  - apply nsum_rep. revert HS. induction HU as [|m s ms ss (U&P) _ IH]; intros HS; [constructor|]. inversion HS as [|? ? S1 S2]; subst.
    cbn [map]. constructor; [|apply IH; auto]. destruct S1 as (L&hide&HL&SH&EI).
    destruct (seen_direction c k r o (lm_space m) L hide true HC HL SH) as (Q&D&l&RQ&RO&RD&Hl&ND&E). rewrite <- EI in *.
    assert (NZ : D <> rv0). { intros Z. specialize (ND eq_refl). rewrite Z, rnorm_rv0 in ND. lra. }
    destruct (C58_landmark_best c pos offset m (opos o) D L s off) as (v&RV&_&_&B); auto.
    rewrite B in RV; auto. exists l. split; [lra|]. unfold line_at. rewrite <- E. apply v3_ext; cbn; ring.
  - intros c' k' r' o' pos' HC' HP' HD. apply sum_at_most. revert HD HS. induction HU as [|m s ms ss (U&P) _ IH]; intros HD HS; [constructor|].
    inversion HD as [|? ? D1 D2]; inversion HS as [|? ? S1 S2]; subst. cbn [map]. constructor; [|apply IH; auto].
    destruct (landmark_direction _ _ _ _ _ HC' D1) as (V&RO&RV&NZ). destruct S1 as (L&hide&HL&_).
    destruct (C58_landmark_best c' pos' offset m (opos o') V L s off) as (v&Rv&Lv&_); auto. right; right. eauto.
Qed.
Print Assumptions C58_landmark_true_camera.

(** With different uncertainties per axis the samples along the ray favour rays along the axis of the largest one: a
    camera that shows the landmark at another pixel can have a larger term than the true camera. *)
Definition ex_level : opar R := OPar 0 90 0 0 0 (-10).
Definition ex_down : opar R := OPar 10 0 0 0 (1/10) 0.
Lemma ex_camera o : exists c, plain_cam c Rectilinear ex_r o.
Proof.
  assert (H : rep_opar (opar_fin o) o) by (repeat split). destruct (init_rigid _ _ H) as (m&E&_).
  exists (plain_camera Rectilinear (proj_fin ex_r) m), (proj_fin ex_r), m. splits; auto; [repeat split|split; simpl; lra|eauto].
Qed.
Lemma ex_level_coords P : cam_coords ex_level P = V3 (cx P) (cz P) (- 10 - cy P).
Proof.
  unfold cam_coords, camM; cbn [tilt_deg roll_deg heading_deg ex_level].
  replace (rad 90) with (PI / 2) by (unfold rad; field). replace (rad 0) with 0 by (unfold rad; ring).
  apply v3_ext; cbv [rotm rm_mul_v rv_sub zip3v rdot opos pos_x_m pos_y_m elevation_m ex_level cx cy cz];
  rewrite ?sin_PI2, ?cos_PI2, ?sin_0, ?cos_0; ring.
Qed.
Lemma ex_down_coords P : cam_coords ex_down P = V3 (cx P - 1/10) (cy P) (cz P - 10).
Proof.
  unfold cam_coords, camM; cbn [tilt_deg roll_deg heading_deg ex_down].
  replace (rad 0) with 0 by (unfold rad; ring).
  apply v3_ext; cbv [rotm rm_mul_v rv_sub zip3v rdot opos pos_x_m pos_y_m elevation_m ex_down cx cy cz];
  rewrite ?sin_0, ?cos_0; ring.
Qed.
Lemma center_ray c o q W : plain_cam c Rectilinear ex_r o -> rep2 q (V2 2000 1500) -> rm_mul_v (rm_trans (camM o)) (V3 0 0 (-1)) = W ->
  rnorm W = 1 -> rep3 (snd (getRay c q true)) W.
Proof.
  intros HC Hq EW N1. destruct (plain_good _ _ _ _ HC) as (HG&HK&_&HU).
  assert (ED : dirW c ex_r (camM o) (V2 2000 1500) = W).
  { unfold dirW. rewrite HK, <- EW. f_equal. apply v3_ext; cbn; unfold alphaR, betaR; cbn; field. }
  eapply rep3_eq; [apply (direction_rep c ex_r (camM o) (opos o) q (V2 2000 1500) true HG)|].
  - rewrite HU; auto.
  - rewrite HK. exact I.
  - rewrite ED, N1. apply v3_ext; cbn; field.
Qed.
Lemma sub_origin X : rv_sub X rv0 = X.
Proof. destruct X. apply v3_ext; cbn; ring. Qed.
(** the value of a landmark at the origin, ten metres down the ray *)
Lemma ten_metres c o q W sg : plain_cam c Rectilinear ex_r o -> rep2 q (V2 2000 1500) -> rm_mul_v (rm_trans (camM o)) (V3 0 0 (-1)) = W ->
  rnorm W = 1 -> rdot (opos o) W = -10 -> positive3 sg ->
  rep (landmark_term c (fin3 (opos o)) (Fin 3) [Landmark q (fin3 rv0) (fin3 sg)])
    (- (1000 * deviation2 sg (line_at (opos o) W 10) + 9 * spread * deviation2 sg W) / 2 + 1000 * peaks sg).
Proof.
  intros HC Hq EW N1 DT PS. destruct (plain_good _ _ _ _ HC) as (HG&_).
  assert (NZ : W <> rv0) by (intros Z; rewrite Z, rnorm_rv0 in N1; lra).
  destruct (C58_landmark c (fin3 (opos o)) (Fin 3) (Landmark q (fin3 rv0) (fin3 sg)) (opos o) W rv0 sg 3) as (U&t&EV&U1&PU&RV);
    cbn [lm_image lm_space lm_unc]; auto using rep3_fin, rep_Fin.
  - cbn [getRay fst]. eapply origin_rep; eauto.
  - apply (center_ray c o q W); auto.
  - rewrite N1 in EV. assert (U = W) by (rewrite EV; apply v3_ext; cbn; ring). subst U.
    assert (WW : rdot W W = 1) by (rewrite <- rnorm_sqr, N1; ring).
    assert (T : t = 10).
    { replace (rdot _ _) with (- rdot (opos o) W - t * rdot W W) in PU by (unfold line_at, rdot; cbn; ring). rewrite WW, DT in PU. lra. }
    assert (D : rdist (line_at (opos o) W t) (opos o) = 10).
    { unfold rdist. replace (rv_sub (line_at (opos o) W t) (opos o)) with (rv_scale t W) by (unfold line_at; apply v3_ext; cbn; ring).
      rewrite rnorm_scale, N1, T, Rabs_right; lra. }
    cbv zeta in RV. rewrite D in RV. unfold landmark_term. cbn [map]. unfold nsum. cbn [fold_left]. eapply rep_eq; [apply rep_add; [apply rep_Fin|exact RV]|].
    rewrite sub_origin. unfold sq. field.
Qed.
Lemma unit_axis (W : v3 R) : rdot W W = 1 -> rnorm W = 1.
Proof. intros H. unfold rnorm. rewrite H. apply sqrt_1. Qed.
Theorem C58_landmark_refuted : exists a b Qb va vb, plain_cam a Rectilinear ex_r ex_level /\ plain_cam b Rectilinear ex_r ex_down /\
  let q := imageFromSpace a (fin3 rv0) true in let m := Landmark q (fin3 rv0) (fin3 (V3 1 1 3)) in
  rep2 q (V2 2000 1500) /\ rep2 (imageFromSpace b (fin3 rv0) true) Qb /\ Qb <> V2 2000 1500 /\
  rep (landmark_term a (fin3 (opos ex_level)) (Fin 3) [m]) va /\ rep (landmark_term b (fin3 (opos ex_down)) (Fin 3) [m]) vb /\ va < vb.
Proof.
  destruct (ex_camera ex_level) as (a&Ha), (ex_camera ex_down) as (b&Hb). exists a, b, (V2 1965 1500). do 2 eexists. cbv zeta.
  assert (Hq : rep2 (imageFromSpace a (fin3 rv0) true) (V2 2000 1500)).
  { apply (image_dir a Rectilinear ex_r ex_level _ rv0); auto using rep3_fin; rewrite ?ex_level_coords; cbn [cx cy cz rv0].
    - split; cbn [cz]; [rewrite Rabs_left; unfold tinyR; lra|lra].
    - exact I.
    - exists 10; split; [lra|]. apply v3_ext; cbn; unfold alphaR, betaR; cbn; field. }
  split; [exact Ha|]. split; [exact Hb|]. split; [exact Hq|]. split.
  { apply (image_dir b Rectilinear ex_r ex_down _ rv0); auto using rep3_fin; rewrite ?ex_down_coords; cbn [cx cy cz rv0].
    - split; cbn [cz]; [rewrite Rabs_left; unfold tinyR; lra|lra].
    - exact I.
    - exists 10; split; [lra|]. apply v3_ext; cbn; unfold alphaR, betaR; cbn; field. }
  split. { intros E. injection E. lra. }
  assert (P3 : positive3 (V3 1 1 3)) by (repeat split; cbn; lra).
  split; [|split].
  - apply (ten_metres a ex_level _ (V3 0 1 0)); auto.
    + unfold camM; cbn [tilt_deg roll_deg heading_deg ex_level]. replace (rad 90) with (PI / 2) by (unfold rad; field). replace (rad 0) with 0 by (unfold rad; ring).
      apply v3_ext; cbv [rotm rm_trans rm_mul_v rdot cx cy cz]; rewrite ?sin_PI2, ?cos_PI2, ?sin_0, ?cos_0; ring.
    + apply unit_axis. unfold rdot; cbn; ring.
    + unfold rdot; cbn; ring.
  - apply (ten_metres b ex_down _ (V3 0 0 (-1))); auto.
    + unfold camM; cbn [tilt_deg roll_deg heading_deg ex_down]. replace (rad 0) with 0 by (unfold rad; ring).
      apply v3_ext; cbv [rotm rm_trans rm_mul_v rdot cx cy cz]; rewrite ?sin_0, ?cos_0; ring.
    + apply unit_axis. unfold rdot; cbn; ring.
    + unfold rdot; cbn; ring.
  - unfold deviation2, spread, sq, line_at; cbn. lra.
Qed.
Print Assumptions C58_landmark_refuted.

(** An object of two metres, twenty metres ahead; a pair of corresponding pixels; a landmark. *)
Example C58_example : exists a b, plain_cam a Rectilinear ex_r (ex_at 0) /\ plain_cam b Rectilinear ex_r (ex_at 1) /\
  upright a Rectilinear (ex_at 0) (Object (imageFromSpace a (fin3 (V3 5 20 0)) true) (imageFromSpace a (fin3 (V3 5 20 2)) true) (Fin 2)) /\
  lying a Rectilinear (ex_at 0) 0 (Object (imageFromSpace a (fin3 (V3 5 20 0)) true) (imageFromSpace a (fin3 (V3 8 24 0)) true) (Fin 5)) /\
  same_point a b (ex_at 0) (ex_at 1) (imageFromSpace a (fin3 (V3 0 20 30)) true, imageFromSpace b (fin3 (V3 0 20 30)) true) /\
  let m := Landmark (imageFromSpace a (fin3 (V3 5 20 0)) true) (fin3 (V3 5 20 0)) (fin3 (V3 3 3 3)) in
  equal_unc m 3 /\ seen_landmark a Rectilinear (ex_at 0) m /\ has_direction Rectilinear ex_r m.
Proof.
  destruct (ex_cam_at Rectilinear 0) as (a&Ha), (ex_cam_at Rectilinear 1) as (b&Hb). exists a, b.
  assert (S : forall s P, 1 <= cy P -> showable Rectilinear (cam_coords (ex_at s) P)) by (intros; apply ex_at_showable; auto).
  splits; auto.
  - exists 5, 20, 2, (fin3 (V3 5 20 0)), (fin3 (V3 5 20 2)). splits; auto using rep3_fin.
    + eapply rep3_eq; [apply rep3_fin|]. apply v3_ext; cbn; ring.
    + apply rep_Fin.
    + apply S; cbn; lra.
    + apply S; cbn; lra.
  - exists (V3 5 20 0), (V3 8 24 0), (fin3 (V3 5 20 0)), (fin3 (V3 8 24 0)). splits; auto using rep3_fin; try (apply S; cbn; lra).
    eapply rep_eq; [apply rep_Fin|]. unfold rdist, rnorm, rdot. cbn. symmetry.
    replace ((5 - 8) * (5 - 8) + (20 - 24) * (20 - 24) + (0 - 0) * (0 - 0)) with (5 * 5) by ring. apply sqrt_square. lra.
  - set (P := V3 0 20 30).
    assert (W : forall c s, plain_cam c Rectilinear ex_r (ex_at s) -> rep3 (snd (getRay c (imageFromSpace c (fin3 P) true) false)) (V3 (- s / 20) 1 1)).
    { intros c s HC. set (Q := V2 (2000 + 3500 * (- s / 20)) (1500 - 3500)).
      assert (RQ : rep2 (imageFromSpace c (fin3 P) true) Q).
      { apply (image_dir c Rectilinear ex_r (ex_at s) _ P); auto using rep3_fin; [apply S; cbn; lra|exact I|].
        rewrite ex_at_coords. exists 20; split; [lra|]. unfold P, Q. apply v3_ext; cbn; unfold alphaR, betaR; cbn; field. }
      eapply rep3_eq; [apply (ex_at_ray c Rectilinear s _ Q _ HC RQ I eq_refl)|].
      unfold Q. apply v3_ext; cbn; unfold alphaR, betaR; cbn; field. }
    exists (fin3 P), P, (V3 (- 0 / 20) 1 1), (V3 (Ropp 1 / 20) 1 1). splits; auto using rep3_fin; try (apply S; cbn; lra).
    + rewrite !opos_at. unfold P. vring. intros H; injection H; lra.
    + apply (W a 0 Ha).
    + unfold ahead. rewrite !ex_at_coords. split; cbn; unfold tinyR; lra.
    + apply (W b 1 Hb).
    + unfold ahead. rewrite !ex_at_coords. split; cbn; unfold tinyR; lra.
  - split; [split; [apply rep3_fin|lra]|]. split.
    2: { destruct (seen_direction a _ _ _ (fin3 (V3 5 20 0)) _ true true Ha (rep3_fin _)) as (Q&D&l&RQ&_); [apply S; cbn; lra|].
      exists Q. split; auto. discriminate. }
    exists (V3 5 20 0), true. split; [apply rep3_fin|]. split; [apply S; cbn; lra|reflexivity].
Qed.
