(** * C58: the forms of the uncertainties of landmarks and of the horizon *)
Require Import Reals Lra Lia List Bool Arith.
From Verif Require Import Num Vec Orientation OrientationFacts Projection ProjectionFacts Ray RayFacts CameraTransform CameraFacts Horizon Stereo LogProb PropLogProb FitTerms
  PropProjection PropCamera PropRay PropStereo PropFitTerms FitArgs.
Import ListNotations.
Open Scope R_scope.

(** ** Specification *)
(** [m] is the largest of the numbers *)
Definition largest (m : R) (l : list R) : Prop := In m l /\ forall x, In x l -> x <= m.
Definition given (pairs : list (v2 num * v3 num)) (us : list (v3 num)) : list landmark :=
  map (fun x => Landmark (fst (fst x)) (snd (fst x)) (snd x)) (combine pairs us).
Definition row3 (v : v3 R) : list R := [cx v; cy v; cz v].

Lemma nmax2_rep x y a b : rep x a -> rep y b -> rep (nmax2 x y) (Rmax a b).
Proof.
  intros Hx Hy. unfold nmax2. rewrite (rep_notnan _ _ Hx), (rep_notnan _ _ Hy), (rep_ltb _ _ _ _ Hx Hy). unfold Rltb.
  destruct (Rlt_dec a b); [rewrite Rmax_right by lra|rewrite Rmax_left by lra]; auto.
Qed.
Lemma fold_max l rl : Forall2 rep l rl -> forall x a, rep x a -> exists m, rep (fold_left nmax2 l x) m /\ largest m (a :: rl).
Proof.
  induction 1 as [|y b l rl Hy _ IH]; intros x a Hx; cbn [fold_left].
  - exists a. split; auto. split; [left; auto|]. intros z [->|[]]. lra.
  - destruct (IH (nmax2 x y) (Rmax a b)) as (m&Hm&I1&B); [apply nmax2_rep; auto|]. exists m. split; auto. split.
    + destruct I1 as [<-|I1]; [|right; right; auto]. unfold Rmax. destruct (Rle_dec a b); [right; left|left]; auto.
    + assert (M : Rmax a b <= m) by (apply B; left; auto). pose proof (Rmax_l a b). pose proof (Rmax_r a b).
      intros z [<-|[<-|J]]; [lra|lra|apply B; right; auto].
Qed.
Lemma nmax_list_rep l rl : Forall2 rep l rl -> l <> [] -> exists n m, nmax_list l = Some n /\ rep n m /\ largest m rl.
Proof.
  intros H NE. destruct H as [|x a l rl Hx H]; [contradiction|]. destruct (fold_max l rl H x a Hx) as (m&Hm&Lm).
  exists (fold_left nmax2 l x), m. auto.
Qed.
Lemma combine_repeat {A B} (l : list A) (y : B) : combine l (repeat y (length l)) = map (fun x => (x, y)) l.
Proof. induction l as [|x l IH]; cbn; [auto|rewrite IH; auto]. Qed.
Lemma broadcast_one {A B} (l : list A) (y : B) : broadcast l [y] = Some (combine l (repeat y (length l))).
Proof.
  rewrite combine_repeat. unfold broadcast. destruct l as [|x [|x' l]]; auto.
Qed.
Lemma broadcast_same {A B} (l : list A) (k : list B) : length l = length k -> broadcast l k = Some (combine l k).
Proof. intros E. unfold broadcast. rewrite E, Nat.eqb_refl. auto. Qed.
Lemma broadcast_none {A B} (l : list A) (k : list B) : length l <> length k -> length l <> 1%nat -> length k <> 1%nat -> broadcast l k = None.
Proof.
  intros E L K. unfold broadcast. apply Nat.eqb_neq in E. rewrite E. destruct l as [|x [|]]; cbn in *; try lia; destruct k as [|y [|]]; cbn in *; try lia; auto.
Qed.
Lemma all_some_map {A B} (f : A -> option B) l k : Forall2 (fun x y => f x = Some y) l k -> all_some (map f l) = Some k.
Proof. induction 1 as [|x y l k E _ IH]; cbn; auto. rewrite E, IH. auto. Qed.
Lemma all_some_none {A} (l : list (option A)) : In None l -> all_some l = None.
Proof. induction l as [|[x|] l IH]; cbn; intros H; auto; [contradiction|]. destruct H as [H|H]; [discriminate|]. rewrite IH; auto. Qed.

(** The documented forms: one number for all axes of all landmarks, one row for all landmarks, a row for each.  In all
    of them the samples reach twice as far as the largest number. *)
Theorem C58_uncertainties : forall c pos pairs,
  (forall u, landmark_call c pos pairs (UNumber u) = Some (landmark_term c pos u (given pairs (repeat (V3 u u u) (length pairs))))) /\
  (forall v, exists n m, rep n m /\ largest m (row3 v) /\
    landmark_call c pos pairs (URow (map Fin (row3 v))) = Some (landmark_term c pos n (given pairs (repeat (fin3 v) (length pairs))))) /\
  (forall vs, length vs = length pairs -> vs <> [] -> exists n m, rep n m /\ largest m (concat (map row3 vs)) /\
    landmark_call c pos pairs (UTable (map (fun v => map Fin (row3 v)) vs)) = Some (landmark_term c pos n (given pairs (map fin3 vs)))).
Proof.
  intros c pos pairs. splits.
  - intros u. unfold landmark_call. cbn [unc_max unc_rows map axes all_some option_map]. rewrite broadcast_one. auto.
  - intros v. destruct (nmax_list_rep (map Fin (row3 v)) (row3 v)) as (n&m&E&Hn&Hm); [repeat constructor|discriminate|].
    exists n, m. splits; auto. unfold landmark_call. cbn [unc_max unc_rows]. rewrite E. cbn [row3 map axes all_some option_map].
    rewrite broadcast_one. auto.
  - intros vs EL NE.
    assert (F : concat (map (fun v => map Fin (row3 v)) vs) = map Fin (concat (map row3 vs))) by (rewrite concat_map, map_map; auto).
    destruct (nmax_list_rep (map Fin (concat (map row3 vs))) (concat (map row3 vs))) as (n&m&E&Hn&Hm).
    { generalize (concat (map row3 vs)). intros l. induction l; constructor; auto. apply rep_Fin. }
    { destruct vs; [contradiction|discriminate]. }
    exists n, m. splits; auto. unfold landmark_call. cbn [unc_max unc_rows].
    assert (RC : rectangular (map (fun v => map Fin (row3 v)) vs) = true).
    { destruct vs as [|v vs]; auto. cbn [map rectangular]. apply forallb_forall. intros x J. apply in_map_iff in J as (w&<-&_). auto. }
    rewrite RC, F, E, (all_some_map axes _ (map fin3 vs)).
    + rewrite broadcast_same by (rewrite map_length; auto). auto.
    + clear. induction vs; constructor; auto.
Qed.
Print Assumptions C58_uncertainties.

(** Any other number of values for the axes raises, so an array of one number for each landmark does (unless there are
    three of them, which are then taken for the axes); so does a table with another number of rows or with rows of
    different lengths. *)
Theorem C58_uncertainties_raise : forall c pos pairs,
  (forall l, length l <> 1%nat -> length l <> 3%nat -> landmark_call c pos pairs (URow l) = None) /\
  (forall rows, length rows <> 1%nat -> length pairs <> 1%nat -> length rows <> length pairs -> landmark_call c pos pairs (UTable rows) = None) /\
  (forall rows r r', In r rows -> In r' rows -> length r <> length r' -> landmark_call c pos pairs (UTable rows) = None) /\
  (forall a b d, length pairs = 3%nat -> exists n, landmark_call c pos pairs (URow [Fin a; Fin b; Fin d])
    = Some (landmark_term c pos n (given pairs (repeat (V3 (Fin a) (Fin b) (Fin d)) 3)))).
Proof.
  intros c pos pairs. splits.
  - intros l L1 L3. unfold landmark_call. cbn [unc_rows map].
    replace (axes l) with (@None (v3 num)) by (destruct l as [|? [|? [|? [|]]]]; cbn in *; auto; lia). cbn [all_some].
    destruct (unc_max (URow l)); auto.
  - intros rows L1 P1 NE. unfold landmark_call. destruct (unc_max (UTable rows)); auto. cbn [unc_rows].
    destruct (all_some (map axes rows)) as [k|] eqn:E; auto.
    assert (L : length k = length rows).
    { revert k E. clear. induction rows as [|r rows IH]; cbn; intros k E; [injection E as <-; auto|]. destruct (axes r); [|discriminate].
      destruct (all_some (map axes rows)); [|discriminate]. cbn in E. injection E as <-. cbn. rewrite <- (IH l); auto. }
    rewrite broadcast_none by lia. auto.
  - intros rows r r' I1 I2 NE. unfold landmark_call. cbn [unc_max]. destruct (rectangular rows) eqn:RC; auto. exfalso.
    destruct rows as [|r0 rows]; [contradiction|]. cbn [rectangular] in RC. rewrite forallb_forall in RC.
    assert (L : forall x, In x (r0 :: rows) -> length x = length r0) by (intros x [<-|J]; auto; apply Nat.eqb_eq, RC; auto).
    apply NE. rewrite (L r), (L r'); auto.
  - intros a b d L. destruct (C58_uncertainties c pos pairs) as (_&H&_). destruct (H (V3 a b d)) as (n&m&_&_&E). exists n.
    rewrite <- L. exact E.
Qed.
Print Assumptions C58_uncertainties_raise.

(** For equal uncertainties of the three axes the reach of the samples adds the same to the term of every camera, so a
    further, less certain landmark does not change which camera the others prefer. *)
Theorem C58_reach : forall c pos m O V L s offset off offset' off',
  rep3 (fst (getRay c (lm_image m) true)) O -> rep3 (snd (getRay c (lm_image m) true)) V -> V <> rv0 -> rep3 pos O ->
  rep3 (lm_space m) L -> rep3 (lm_unc m) (V3 s s s) -> 0 < s -> rep offset off -> rep offset' off' ->
  exists v v', rep (landmark_1 c pos offset m) v /\ rep (landmark_1 c pos offset' m) v' /\
    v' - v = - (off' * off' - off * off) * spread / (2 * (s * s)).
Proof.
  intros c pos m O V L s offset off offset' off' HO HV NZ HP HL HS P Hoff Hoff'.
  assert (PS : positive3 (V3 s s s)) by (repeat split; auto).
  destruct (C58_landmark c pos offset m O V L (V3 s s s) off) as (U&t&EV&U1&PU&RV); auto.
  destruct (C58_landmark c pos offset' m O V L (V3 s s s) off') as (U'&t'&EV'&U1'&PU'&RV'); auto.
  pose proof (rnorm_pos _ NZ) as NP.
  assert (EU : U' = U).
  { assert (Q : rv_scale (/ rnorm V) (rv_scale (rnorm V) U') = rv_scale (/ rnorm V) (rv_scale (rnorm V) U)) by (rewrite <- EV, <- EV'; auto).
    assert (S1 : forall w, rv_scale (/ rnorm V) (rv_scale (rnorm V) w) = w) by (intros w; destruct w; apply v3_ext; cbn; field; lra).
    rewrite !S1 in Q. auto. }
  subst U'. assert (UU : rdot U U = 1) by (rewrite <- rnorm_sqr, U1; ring).
  assert (ET : t' = t).
  { assert (D : forall x, rdot (rv_sub L (line_at O U x)) U = rdot (rv_sub L O) U - x * rdot U U) by (intros x; unfold line_at, rdot; cbn; ring).
    rewrite D, UU in PU, PU'. lra. }
  subst t'. do 2 eexists. split; [exact RV|]. split; [exact RV'|].
  assert (DU : forall v, deviation2 (V3 s s s) v = rdot v v / sq s) by (intros; unfold deviation2, rdot, sq; cbn [cx cy cz]; field; lra).
  rewrite !DU, UU. unfold sq. field. lra.
Qed.
Print Assumptions C58_reach.

(** ** A less certain copy of a landmark makes a wrong camera win *)
Definition ex_aside : opar R := OPar 10 0 0 0 10 0.
Lemma reach_value c o q W sg off : plain_cam c Rectilinear ex_r o -> rep2 q (V2 2000 1500) -> rm_mul_v (rm_trans (camM o)) (V3 0 0 (-1)) = W ->
  rnorm W = 1 -> rdot (opos o) W = -10 -> positive3 sg ->
  forall offset, rep offset off -> rep (landmark_1 c (fin3 (opos o)) offset (Landmark q (fin3 rv0) (fin3 sg)))
    (- (1000 * deviation2 sg (line_at (opos o) W 10) + off * off * spread * deviation2 sg W) / 2 + 1000 * peaks sg).
Proof.
  intros HC Hq EW N1 DT PS offset Hoff. destruct (plain_good _ _ _ _ HC) as (HG&_).
  assert (NZ : W <> rv0) by (intros Z; rewrite Z, rnorm_rv0 in N1; lra).
  destruct (C58_landmark c (fin3 (opos o)) offset (Landmark q (fin3 rv0) (fin3 sg)) (opos o) W rv0 sg off) as (U&t&EV&U1&PU&RV);
    cbn [lm_image lm_space lm_unc]; auto using rep3_fin, rep_Fin.
  - cbn [getRay fst]. eapply origin_rep; eauto.
  - apply (center_ray c o q W); auto.
  - rewrite N1 in EV. assert (U = W) by (rewrite EV; apply v3_ext; cbn; ring). subst U.
    assert (WW : rdot W W = 1) by (rewrite <- rnorm_sqr, N1; ring).
    assert (T : t = 10).
    { replace (rdot _ _) with (- rdot (opos o) W - t * rdot W W) in PU by (unfold line_at, rdot; cbn; ring). rewrite WW, DT in PU. lra. }
    assert (D : rdist (line_at (opos o) W t) (opos o) = 10).
    { unfold rdist. replace (rv_sub (line_at (opos o) W t) (opos o)) with (rv_scale t W) by (unfold line_at; apply v3_ext; cbn; ring).
      rewrite rnorm_scale, N1, T, Rabs_right; lra. }
    cbv zeta in RV. rewrite D in RV. rewrite sub_origin in RV. exact RV.
Qed.
Theorem C58_reach_refuted : exists a b va vb wa wb, plain_cam a Rectilinear ex_r ex_level /\ plain_cam b Rectilinear ex_r ex_aside /\
  let q := imageFromSpace a (fin3 rv0) true in
  let sure := [Fin 1; Fin 1; Fin 3] in let unsure := [Fin 30; Fin 30; Fin 30] in
  let term c o l u n := exists x, landmark_call c (fin3 (opos o)) l (UTable u) = Some x /\ rep x n in
  rep2 q (V2 2000 1500) /\
  term a ex_level [(q, fin3 rv0)] [sure] va /\ term b ex_aside [(q, fin3 rv0)] [sure] vb /\ vb < va /\
  term a ex_level [(q, fin3 rv0); (q, fin3 rv0)] [sure; unsure] wa /\ term b ex_aside [(q, fin3 rv0); (q, fin3 rv0)] [sure; unsure] wb /\ wa < wb.
Proof.
  destruct (ex_camera ex_level) as (a&Ha), (ex_camera ex_aside) as (b&Hb). exists a, b. do 4 eexists. split; [exact Ha|]. split; [exact Hb|]. cbv zeta.
  assert (Hq : rep2 (imageFromSpace a (fin3 rv0) true) (V2 2000 1500)).
  { apply (image_dir a Rectilinear ex_r ex_level _ rv0); auto using rep3_fin; rewrite ?ex_level_coords; cbn [cx cy cz rv0].
    - split; cbn [cz]; [rewrite Rabs_left; unfold tinyR; lra|lra].
    - exact I.
    - exists 10; split; [lra|]. apply v3_ext; cbn; unfold alphaR, betaR; cbn; field. }
  set (q := imageFromSpace a (fin3 rv0) true) in *. clearbody q.
  assert (Wa : rm_mul_v (rm_trans (camM ex_level)) (V3 0 0 (-1)) = V3 0 1 0).
  { unfold camM; cbn [tilt_deg roll_deg heading_deg ex_level]. replace (rad 90) with (PI / 2) by (unfold rad; field). replace (rad 0) with 0 by (unfold rad; ring).
    apply v3_ext; cbv [rotm rm_trans rm_mul_v rdot cx cy cz]; rewrite ?sin_PI2, ?cos_PI2, ?sin_0, ?cos_0; ring. }
  assert (Wb : rm_mul_v (rm_trans (camM ex_aside)) (V3 0 0 (-1)) = V3 0 0 (-1)).
  { unfold camM; cbn [tilt_deg roll_deg heading_deg ex_aside]. replace (rad 0) with 0 by (unfold rad; ring).
    apply v3_ext; cbv [rotm rm_trans rm_mul_v rdot cx cy cz]; rewrite ?sin_0, ?cos_0; ring. }
  assert (Na : rnorm (V3 0 1 0) = 1) by (apply unit_axis; unfold rdot; cbn; ring).
  assert (Nb : rnorm (V3 0 0 (-1)) = 1) by (apply unit_axis; unfold rdot; cbn; ring).
  assert (Da : rdot (opos ex_level) (V3 0 1 0) = -10) by (unfold rdot; cbn; ring).
  assert (Db : rdot (opos ex_aside) (V3 0 0 (-1)) = -10) by (unfold rdot; cbn; ring).
  assert (P1 : positive3 (V3 1 1 3)) by (repeat split; cbn; lra). assert (P2 : positive3 (V3 30 30 30)) by (repeat split; cbn; lra).
  pose proof (reach_value a ex_level q _ (V3 1 1 3) 3 Ha Hq Wa Na Da P1) as A1. pose proof (reach_value a ex_level q _ (V3 1 1 3) 30 Ha Hq Wa Na Da P1) as A2.
  pose proof (reach_value a ex_level q _ (V3 30 30 30) 30 Ha Hq Wa Na Da P2) as A3.
  pose proof (reach_value b ex_aside q _ (V3 1 1 3) 3 Hb Hq Wb Nb Db P1) as B1. pose proof (reach_value b ex_aside q _ (V3 1 1 3) 30 Hb Hq Wb Nb Db P1) as B2.
  pose proof (reach_value b ex_aside q _ (V3 30 30 30) 30 Hb Hq Wb Nb Db P2) as B3.
  assert (one : forall c o v, (forall offset, rep offset 3 -> rep (landmark_1 c (fin3 (opos o)) offset (Landmark q (fin3 rv0) (fin3 (V3 1 1 3)))) v) ->
    exists x, landmark_call c (fin3 (opos o)) [(q, fin3 rv0)] (UTable [[Fin 1; Fin 1; Fin 3]]) = Some x /\ rep x (0 + v)).
  { intros c o v H. destruct (C58_uncertainties c (fin3 (opos o)) [(q, fin3 rv0)]) as (_&_&T).
    destruct (T [V3 1 1 3] eq_refl) as (n&m&Hn&(I1&B)&E); [discriminate|]. cbn in I1.
    assert (m = 3). { assert (3 <= m) by (apply B; cbn; tauto). destruct I1 as [<-|[<-|[<-|[]]]]; lra. } subst m.
    eexists. split; [exact E|]. unfold landmark_term, given, nsum. cbn [combine map fst snd fold_left]. apply rep_add; [apply rep_Fin|auto]. }
  assert (both : forall c o v w, (forall offset, rep offset 30 -> rep (landmark_1 c (fin3 (opos o)) offset (Landmark q (fin3 rv0) (fin3 (V3 1 1 3)))) v) ->
    (forall offset, rep offset 30 -> rep (landmark_1 c (fin3 (opos o)) offset (Landmark q (fin3 rv0) (fin3 (V3 30 30 30)))) w) ->
    exists x, landmark_call c (fin3 (opos o)) [(q, fin3 rv0); (q, fin3 rv0)] (UTable [[Fin 1; Fin 1; Fin 3]; [Fin 30; Fin 30; Fin 30]]) = Some x /\ rep x (0 + v + w)).
  { intros c o v w H K. destruct (C58_uncertainties c (fin3 (opos o)) [(q, fin3 rv0); (q, fin3 rv0)]) as (_&_&T).
    destruct (T [V3 1 1 3; V3 30 30 30] eq_refl) as (n&m&Hn&(I1&B)&E); [discriminate|]. cbn in I1.
    assert (m = 30). { assert (30 <= m) by (apply B; cbn; tauto). repeat (destruct I1 as [<-|I1]; [lra|]). contradiction. } subst m.
    eexists. split; [exact E|]. unfold landmark_term, given, nsum. cbn [combine map fst snd fold_left]. apply rep_add; [apply rep_add; [apply rep_Fin|auto]|auto]. }
  split; [exact Hq|]. split; [apply one; exact A1|]. split; [apply one; exact B1|]. split; [|split; [apply both; [exact A2|exact A3]|split; [apply both; [exact B2|exact B3]|]]].
  - unfold deviation2, spread, sq, line_at; cbn. lra.
  - unfold deviation2, spread, sq, line_at; cbn. lra.
Qed.
Print Assumptions C58_reach_refuted.

(** ** The horizon *)
(** The documented forms of the horizon points and of the uncertainty are the term of C58_horizon. *)
Theorem C58_horizon_forms : forall c er e,
  (forall p u, horizon_call c er e (HOne p) (HNumber u) = horizon_term c er e [(p, u)]) /\
  (forall p us, horizon_call c er e (HOne p) (HList us) = horizon_term c er e (map (fun u => (p, u)) us)) /\
  (forall ps u, horizon_call c er e (HMany ps) (HNumber u) = horizon_term c er e (map (fun p => (p, u)) ps)) /\
  (forall ps us, length ps = length us -> horizon_call c er e (HMany ps) (HList us) = horizon_term c er e (combine ps us)) /\
  (forall ps us, length ps <> length us -> length ps <> 1%nat -> length us <> 1%nat -> horizon_call c er e (HMany ps) (HList us) = None) /\
  (forall h, horizon_call c er e h HMissing = None).
Proof.
  intros c er e. unfold horizon_call, horizon_term, getImageHorizon. destruct (arange_len _) as [n|].
  2:{ splits; intros; auto; destruct h; auto. }
  set (row := horizon_row c (distanceToHorizon er e) n). clearbody row.
  assert (M : forall l : list (v2 num), map (fun x : v2 num * v2 num => (c2 (fst x) - c2 (snd x))%num) (combine l (map row (map c1 l))) = map (fun p => (c2 p - c2 (row (c1 p)))%num) l).
  { intros l. induction l as [|x l IH]; cbn; [auto|rewrite IH; auto]. }
  assert (T : forall l : list (v2 num * num), map (fun x : v2 num * num * v2 num => logpdf (Fin 0) (snd (fst x)) (c2 (fst (fst x)) - c2 (snd x))%num)
      (combine l (map row (map (fun o => c1 (fst o)) l))) = map (fun o => logpdf (Fin 0) (snd o) (c2 (fst o) - c2 (row (c1 (fst o))))%num) l).
  { intros l. induction l as [|x l IH]; cbn; [auto|rewrite IH; auto]. }
  cbn [horizon_scales]. splits.
  - intros p u. rewrite T. auto.
  - intros p us. rewrite T, map_map. cbn [fst snd]. unfold broadcast. cbn [length].
    destruct us as [|u [|u' us]]; cbn [length Nat.eqb option_map]; auto. rewrite map_map. auto.
  - intros ps u. rewrite T, M, broadcast_one, combine_repeat, !map_map. cbn [option_map]. rewrite !map_map. auto.
  - intros ps us L. rewrite T, M, broadcast_same by (rewrite map_length; auto). cbn [option_map]. do 2 f_equal.
    revert us L. induction ps as [|p ps IH]; intros [|u us] L; try discriminate; auto. cbn. f_equal. apply IH. cbn in L. lia.
  - intros ps us L L1 L2. rewrite M, broadcast_none; auto; rewrite map_length; auto.
  - intros [p|l]; auto.
Qed.
Print Assumptions C58_horizon_forms.

(** Three landmarks with the uncertainties of the documentation. *)
Example C58_args_example : exists c pos pairs, length pairs = 3%nat /\ largest 5 (row3 (V3 3 3 5)) /\
  (exists n, rep n 5 /\ landmark_call c pos pairs (URow [Fin 3; Fin 3; Fin 5]) = Some (landmark_term c pos n (given pairs (repeat (V3 (Fin 3) (Fin 3) (Fin 5)) 3)))) /\
  landmark_call c pos pairs (URow [Fin 3; Fin 5]) = None /\
  exists m V, In m (given pairs (repeat (V3 (Fin 3) (Fin 3) (Fin 3)) 3)) /\ rep3 (fst (getRay c (lm_image m) true)) rv0 /\
    rep3 (snd (getRay c (lm_image m) true)) V /\ V <> rv0 /\ rep3 pos rv0 /\ rep3 (lm_unc m) (V3 3 3 3).
Proof.
  destruct (ex_camera (OPar 0 90 0 0 0 0)) as (c&Hc). set (q := fin2 (V2 2000 1500)). exists c, (fin3 rv0), [(q, fin3 rv0); (q, fin3 rv0); (q, fin3 rv0)].
  split; auto. assert (L5 : largest 5 (row3 (V3 3 3 5))). { split; [cbn; tauto|]. intros x H. cbn in H. repeat (destruct H as [<-|H]; [lra|]). contradiction. }
  split; auto. split; [|split].
  - destruct (C58_uncertainties c (fin3 rv0) [(q, fin3 rv0); (q, fin3 rv0); (q, fin3 rv0)]) as (_&H&_). destruct (H (V3 3 3 5)) as (n&m&Hn&(I1&B)&E).
    exists n. split; [|exact E]. assert (m = 5) by (apply Rle_antisym; [apply L5; auto|apply B, L5]). subst m. auto.
  - apply C58_uncertainties_raise; cbn; lia.
  - exists (Landmark q (fin3 rv0) (V3 (Fin 3) (Fin 3) (Fin 3))).
    destruct (landmark_direction c Rectilinear ex_r (OPar 0 90 0 0 0 0) (Landmark q (fin3 rv0) (V3 (Fin 3) (Fin 3) (Fin 3))) Hc) as (V&RO&RV&NZ).
    { exists (V2 2000 1500). split; [split; apply rep_Fin|discriminate]. }
    exists V. splits; auto using rep3_fin. left. auto. apply (rep3_fin (V3 3 3 3)).
Qed.

(** ** Heights and lengths *)
Definition objects (points : list (v2 num * v2 num)) (sizes : list num) : list object :=
  map (fun x => Object (fst (fst x)) (snd (fst x)) (snd x)) (combine points sizes).
Lemma osum_map {A} (f : A -> num) l : osum (map (fun x => Some (f x)) l) = Some (map f l).
Proof. induction l as [|x l IH]; cbn; auto. rewrite IH. auto. Qed.
Lemma size_forms measure : (forall a b, measure a b <> None) -> forall points sizes v,
  (length points = length sizes -> size_call measure points sizes v = size_term measure (objects points sizes) (variation_of v)) /\
  (forall h, size_call measure points [h] v = size_term measure (objects points (repeat h (length points))) (variation_of v)) /\
  (length points <> length sizes -> length points <> 1%nat -> length sizes <> 1%nat -> size_call measure points sizes v = None).
Proof.
  intros TOT points sizes v. set (g := fun a b => match measure a b with Some x => x | None => NaN end).
  assert (G : forall a b, measure a b = Some (g a b)) by (intros a b; unfold g; specialize (TOT a b); destruct (measure a b); congruence).
  assert (MS : osum (map (fun p => measure (fst p) (snd p)) points) = Some (map (fun p => g (fst p) (snd p)) points)).
  { rewrite <- osum_map. f_equal. apply map_ext. intros p. apply G. }
  assert (SAME : forall l, length points = length l -> forall s,
    Some (nsum (map (fun x => logpdf (snd x) s (fst x)) (combine (map (fun p => g (fst p) (snd p)) points) l)))
    = sum_terms (map (fun o => option_map (logpdf (ob_size o) s) (measure (ob_1 o) (ob_2 o))) (objects points l))).
  { intros l L s. unfold sum_terms.
    replace (map (fun o => option_map (logpdf (ob_size o) s) (measure (ob_1 o) (ob_2 o))) (objects points l))
      with (map (fun o => Some (logpdf (ob_size o) s (g (ob_1 o) (ob_2 o)))) (objects points l)) by (apply map_ext; intros o; rewrite G; auto).
    rewrite osum_map. cbn [option_map]. do 2 f_equal. unfold objects. revert l L. clear. induction points as [|p ps IH]; intros [|x l] L; try discriminate; auto.
    cbn [map combine fst snd ob_1 ob_2 ob_size]. f_equal. apply IH. cbn in L. lia. }
  unfold size_call, size_term. rewrite MS. destruct (scale_of (variation_of v)) as [s|]; [|auto]. splits.
  - intros L. rewrite broadcast_same by (rewrite map_length; auto). cbn [option_map]. apply SAME; auto.
  - intros h. rewrite broadcast_one, map_length. cbn [option_map]. apply SAME. rewrite repeat_length. auto.
  - intros L L1 L2. rewrite broadcast_none by (rewrite ?map_length; auto). auto.
Qed.
(** One expected size or one for each object, as written out; other numbers of sizes raise; so does an array of
    variations, which is documented. *)
Theorem C58_size_forms : forall c z points sizes v,
  (length points = length sizes -> height_call c points sizes v = height_term c (objects points sizes) (variation_of v) /\
     length_call c z points sizes v = length_term c z (objects points sizes) (variation_of v)) /\
  (forall h, height_call c points [h] v = height_term c (objects points (repeat h (length points))) (variation_of v) /\
     length_call c z points [h] v = length_term c z (objects points (repeat h (length points))) (variation_of v)) /\
  (length points <> length sizes -> length points <> 1%nat -> length sizes <> 1%nat -> height_call c points sizes v = None /\ length_call c z points sizes v = None) /\
  (forall l, height_call c points sizes (VarArray l) = None /\ length_call c z points sizes (VarArray l) = None).
Proof.
  intros c z points sizes v.
  destruct (size_forms (fun a b => getObjectHeight c a b (Fin 0)) (fun a b => height_total c a b (Fin 0)) points sizes v) as (A1&A2&A3).
  destruct (size_forms (fun a b => getObjectLength c a b z) (fun a b => length_total c a b z) points sizes v) as (B1&B2&B3).
  splits.
  - intros L. split; [exact (A1 L)|exact (B1 L)].
  - intros h. split; [exact (A2 h)|exact (B2 h)].
  - intros L L1 L2. split; [exact (A3 L L1 L2)|exact (B3 L L1 L2)].
  - intros l. split; reflexivity.
Qed.
Print Assumptions C58_size_forms.
(** Two people whose heights vary by 0.1 m: the number is fine, the array of the two equal numbers is not. *)
Theorem C58_variations_refuted : exists c points sizes v r, length points = 2%nat /\ length sizes = 2%nat /\
  Forall (upright c Rectilinear (ex_at 0)) (objects points sizes) /\
  height_call c points sizes (VarNumber (Fin (/ 10))) = Some v /\ rep v r /\
  height_call c points sizes (VarArray [Fin (/ 10); Fin (/ 10)]) = None.
Proof.
  destruct C58_example as (a&b&Ha&_&HU&_).
  set (p := (imageFromSpace a (fin3 (V3 5 20 0)) true, imageFromSpace a (fin3 (V3 5 20 2)) true)).
  assert (U2 : Forall (upright a Rectilinear (ex_at 0)) (objects [p; p] [Fin 2; Fin 2])) by (repeat constructor; exact HU).
  destruct (C58_size_forms a (Fin 0) [p; p] [Fin 2; Fin 2] (VarNumber (Fin (/ 10)))) as (S1&_). destruct (S1 eq_refl) as (E&_).
  assert (P : 0 < / 10) by lra. assert (NE : elevation_m (ex_at 0) <> 0) by (cbn; lra).
  destruct (C58_height_true_camera a Rectilinear ex_r (ex_at 0) (objects [p; p] [Fin 2; Fin 2]) (Fin (/ 10)) (/ 10) Ha NE (rep_Fin _) P) as (v&r&Ev&Rv&_).
  { intros o IN. rewrite Forall_forall in U2. apply U2. auto. }
  exists a, [p; p], [Fin 2; Fin 2], v, r. splits; auto.
Qed.
Print Assumptions C58_variations_refuted.
