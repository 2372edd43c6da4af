(** * C58: different numbers of pixels and positions of landmarks *)
Require Import Reals Lra Lia List Bool Arith.
From Verif Require Import Num Vec Orientation OrientationFacts Projection ProjectionFacts Ray RayFacts CameraTransform CameraFacts Stereo LogProb PropLogProb FitTerms
  PropProjection PropCamera PropRay PropStereo PropFitTerms FitPlot PropFitPlot FitArgs PropFitArgs.
Import ListNotations.
Open Scope R_scope.

(** As many pixels as positions are paired in their order, and the plot joins the pairs.  One pixel is taken for the
    pixel of all positions, one position for the position of all pixels: the term counts every such pair, the plot raises.
    Other numbers raise in both. *)
Theorem C58_counts : forall c pos pixels positions u,
  (length pixels = length positions -> landmark_counts c pos pixels positions u = landmark_call c pos (combine pixels positions) u /\
     exists l, landmark_line c pixels positions = Some l /\
       segments l = filter drawable (combine pixels (map (fun x => imageFromSpace c x true) positions))) /\
  (forall q, landmark_counts c pos [q] positions u = landmark_call c pos (map (fun x => (q, x)) positions) u) /\
  (forall x, landmark_counts c pos pixels [x] u = landmark_call c pos (map (fun q => (q, x)) pixels) u) /\
  (length pixels <> length positions -> landmark_line c pixels positions = None /\
     (length pixels <> 1%nat -> length positions <> 1%nat -> landmark_counts c pos pixels positions u = None)).
Proof.
  intros c pos pixels positions u. unfold landmark_counts, landmark_line. splits.
  - intros L. rewrite broadcast_same by auto. split; auto. apply Nat.eqb_eq in L as E. rewrite E. eexists. split; [reflexivity|].
    apply C64_lines; auto. rewrite map_length. auto.
  - intros q. unfold broadcast. destruct positions as [|x [|y l]]; auto.
  - intros x. rewrite broadcast_one, combine_repeat. auto.
  - intros L. apply Nat.eqb_neq in L as E. rewrite E. split; auto. intros L1 L2. rewrite broadcast_none; auto.
Qed.
Print Assumptions C58_counts.

(** ** A forgotten pixel *)
(** ten metres up, looking straight down *)
Definition ex_above (x : R) : opar R := OPar 10 0 0 0 x 0.
Lemma above_ray x : rm_mul_v (rm_trans (camM (ex_above x))) (V3 0 0 (-1)) = V3 0 0 (-1).
Proof.
  unfold camM; cbn [tilt_deg roll_deg heading_deg ex_above]. replace (rad 0) with 0 by (unfold rad; ring).
  apply v3_ext; cbv [rotm rm_trans rm_mul_v rdot cx cy cz]; rewrite ?sin_0, ?cos_0; ring.
Qed.
Lemma above_coords x y : cam_coords (ex_above x) (V3 y 0 0) = V3 (y - x) 0 (-10).
Proof.
  unfold cam_coords, camM; cbn [tilt_deg roll_deg heading_deg ex_above]. replace (rad 0) with 0 by (unfold rad; ring).
  apply v3_ext; cbv [rotm opos rv_sub zip3v rm_mul_v rdot cx cy cz ex_above elevation_m pos_x_m pos_y_m]; rewrite ?sin_0, ?cos_0; ring.
Qed.
(** the value of a landmark on the ground for the pixel in the middle of the picture *)
Lemma above_value c x y q : plain_cam c Rectilinear ex_r (ex_above x) -> rep2 q (V2 2000 1500) ->
  rep (landmark_1 c (fin3 (opos (ex_above x))) (Fin 1) (Landmark q (fin3 (V3 y 0 0)) (V3 (Fin 1) (Fin 1) (Fin 1))))
    (- (1000 * ((x - y) * (x - y)) + spread) / 2 + 1000 * peaks (V3 1 1 1)).
Proof.
  intros HC Hq. destruct (plain_good _ _ _ _ HC) as (HG&_). assert (N1 : rnorm (V3 0 0 (-1)) = 1) by (apply unit_axis; unfold rdot; cbn; ring).
  assert (NZ : V3 0 0 (-1) <> rv0) by (intros Z; injection Z; lra).
  destruct (C58_landmark c (fin3 (opos (ex_above x))) (Fin 1) (Landmark q (fin3 (V3 y 0 0)) (fin3 (V3 1 1 1))) (opos (ex_above x)) (V3 0 0 (-1)) (V3 y 0 0) (V3 1 1 1) 1)
    as (U&t&EV&U1&PU&RV); cbn [lm_image lm_space lm_unc]; auto using rep3_fin, rep_Fin.
  - cbn [getRay fst]. eapply origin_rep; eauto.
  - apply (center_ray c (ex_above x)); auto using above_ray.
  - repeat split; cbn; lra.
  - rewrite N1 in EV. assert (U = V3 0 0 (-1)) by (rewrite EV; apply v3_ext; cbn; ring). subst U.
    assert (T : t = 10) by (unfold line_at, rdot, ex_above, opos in PU; cbn in PU; lra).
    assert (D : rdist (line_at (opos (ex_above x)) (V3 0 0 (-1)) t) (opos (ex_above x)) = 10).
    { unfold rdist. replace (rv_sub _ _) with (rv_scale t (V3 0 0 (-1))) by (unfold line_at; apply v3_ext; cbn; ring).
      rewrite rnorm_scale, N1, T, Rabs_right; lra. }
    cbv zeta in RV. rewrite D in RV. eapply rep_eq; [exact RV|]. unfold deviation2, sq, line_at. cbn. field.
Qed.
Lemma above_pixel c x y : plain_cam c Rectilinear ex_r (ex_above x) -> rep2 (imageFromSpace c (fin3 (V3 y 0 0)) true) (V2 (2000 + 350 * (y - x)) 1500).
Proof.
  intros HC. apply (image_dir c Rectilinear ex_r (ex_above x) _ (V3 y 0 0)); auto using rep3_fin; rewrite ?above_coords; cbn [cx cy cz].
  - split; cbn [cz]; [rewrite Rabs_left; unfold tinyR; lra|lra].
  - exact I.
  - exists 10; split; [lra|]. apply v3_ext; cbn; unfold alphaR, betaR; cbn; field.
Qed.
(** Two landmarks four metres apart, seen at two pixels of the picture: with both pixels no camera beats the one that took
    it; if the second one is forgotten nothing raises, and the camera two metres aside beats it. *)
Theorem C58_counts_refuted : exists a b v va vb xa xb, plain_cam a Rectilinear ex_r (ex_above 0) /\ plain_cam b Rectilinear ex_r (ex_above 2) /\
  let q y := imageFromSpace a (fin3 (V3 y 0 0)) true in
  let ground y := fin3 (V3 y 0 0) in
  rep2 (q 0) (V2 2000 1500) /\ rep2 (q 4) (V2 3400 1500) /\
  (exists x, landmark_counts a (fin3 (opos (ex_above 0))) [q 0; q 4] [ground 0; ground 4] (UNumber (Fin 1)) = Some x /\ rep x v /\
   forall c' k' r' o' pos', plain_cam c' k' r' o' -> k' <> Equirectangular -> rep3 pos' (opos o') ->
   exists x', landmark_counts c' pos' [q 0; q 4] [ground 0; ground 4] (UNumber (Fin 1)) = Some x' /\ at_most x' v) /\
  landmark_counts a (fin3 (opos (ex_above 0))) [q 0] [ground 0; ground 4] (UNumber (Fin 1)) = Some xa /\ rep xa va /\
  landmark_counts b (fin3 (opos (ex_above 2))) [q 0] [ground 0; ground 4] (UNumber (Fin 1)) = Some xb /\ rep xb vb /\ va < vb /\
  landmark_line a [q 0] [ground 0; ground 4] = None.
Proof.
  destruct (ex_camera (ex_above 0)) as (a&Ha), (ex_camera (ex_above 2)) as (b&Hb).
  pose proof (above_pixel a 0 0 Ha) as Q0. pose proof (above_pixel a 0 4 Ha) as Q4.
  assert (Q0' : rep2 (imageFromSpace a (fin3 (V3 0 0 0)) true) (V2 2000 1500)) by (destruct Q0 as (X&Y); split; [eapply rep_eq; [exact X|cbn; ring]|exact Y]).
  assert (Q4' : rep2 (imageFromSpace a (fin3 (V3 4 0 0)) true) (V2 3400 1500)) by (destruct Q4 as (X&Y); split; [eapply rep_eq; [exact X|cbn; ring]|exact Y]).
  clear Q0 Q4. set (ms := [Landmark (imageFromSpace a (fin3 (V3 0 0 0)) true) (fin3 (V3 0 0 0)) (V3 (Fin 1) (Fin 1) (Fin 1));
    Landmark (imageFromSpace a (fin3 (V3 4 0 0)) true) (fin3 (V3 4 0 0)) (V3 (Fin 1) (Fin 1) (Fin 1))]).
  assert (SH : forall y, showable Rectilinear (cam_coords (ex_above 0) (V3 y 0 0))).
  { intros y. rewrite above_coords. split; cbn [cz]; [rewrite Rabs_left; unfold tinyR; lra|lra]. }
  destruct (C58_landmark_true_camera a Rectilinear ex_r (ex_above 0) (fin3 (opos (ex_above 0))) (Fin 1) 1 ms [1; 1] Ha (rep3_fin _) (rep_Fin _)) as (v&Rv&Best).
  { repeat constructor; try apply (rep3_fin (V3 1 1 1)); lra. }
  { repeat constructor; [exists (V3 0 0 0), true|exists (V3 4 0 0), true]; splits; auto; apply rep3_fin. }
  exists a, b, v. do 4 eexists. split; [exact Ha|]. split; [exact Hb|]. cbv zeta. split; [exact Q0'|]. split; [exact Q4'|]. splits.
  - exists (landmark_term a (fin3 (opos (ex_above 0))) (Fin 1) ms). split; [reflexivity|]. split; [exact Rv|].
    intros c' k' r' o' pos' HC NE HP. exists (landmark_term c' pos' (Fin 1) ms). split; [reflexivity|].
    apply (Best c' k' r' o' pos'); auto. repeat constructor; eexists; (split; [first [exact Q0'|exact Q4']|intros; contradiction]).
  - reflexivity.
  - apply nsum_rep. repeat constructor; apply above_value; auto.
  - reflexivity.
  - apply nsum_rep. repeat constructor; apply above_value; auto.
  - unfold rsum. cbn. lra.
  - reflexivity.
Qed.
Print Assumptions C58_counts_refuted.
(** Three pixels for two positions raise. *)
Example C58_counts_example : exists c pos p q r x y, landmark_counts c pos [p; q; r] [x; y] (UNumber (Fin 1)) = None /\
  landmark_line c [p; q; r] [x; y] = None /\
  exists n, landmark_counts c pos [p; q; r] [x] (UNumber (Fin 1)) = Some n /\ landmark_line c [p; q; r] [x] = None.
Proof.
  destruct (ex_camera (ex_above 0)) as (c&_). exists c, (fin3 rv0), (fin2 (V2 1 1)), (fin2 (V2 2 2)), (fin2 (V2 3 3)), (fin3 rv0), (fin3 rv0).
  splits; try reflexivity. eexists. split; reflexivity.
Qed.

(** ** Corresponding pixels of two cameras *)
Lemma weighted (f : v2 num * v2 num -> num) pairs us ss : Forall2 rep us ss -> Forall (fun s => 0 < s) ss -> length pairs = length us ->
  let t := nsum (map (fun x => logpdf (Fin 0) (snd x) (f (fst x))) (combine pairs us)) in
  at_most t (rsum (map peak ss)) /\ ((forall q, In q pairs -> rep (f q) 0) -> rep t (rsum (map peak ss))).
Proof.
  cbv zeta. intros H P L. split.
  - apply sum_at_most. revert pairs L P. induction H as [|u s us ss Hu _ IH]; intros [|q l] L P; try discriminate; [constructor|].
    inversion P; subst. cbn. constructor; [|apply IH; auto; try (cbn in L; lia)]. apply (logpdf_at_most (Fin 0) u (f q) 0 s); auto. apply rep_Fin.
  - intros Z. apply nsum_rep. revert pairs L P Z. induction H as [|u s us ss Hu _ IH]; intros [|q l] L P Z; try discriminate; [constructor|].
    inversion P; subst. cbn. constructor; [|apply IH; auto; try (cbn in L; lia); intros; apply Z; right; auto].
    apply (logpdf_at_most (Fin 0) u (f q) 0 s); auto; [apply rep_Fin|apply Z; left; auto].
Qed.
(** One uncertainty: the term of the pairs.  One pixel of a camera is taken for the partner of all pixels of the other;
    other numbers of pixels, or of uncertainties, raise. *)
Theorem C58_correspondence_counts : forall cams l1 l2 us,
  (length l1 = length l2 -> forall u, correspondence_call cams l1 l2 [u] = correspondence_term cams (combine l1 l2) u) /\
  (forall q u, correspondence_call cams [q] l2 [u] = correspondence_term cams (map (fun p => (q, p)) l2) u) /\
  (forall q u, correspondence_call cams l1 [q] [u] = correspondence_term cams (map (fun p => (p, q)) l1) u) /\
  (length l1 <> length l2 -> length l1 <> 1%nat -> length l2 <> 1%nat -> correspondence_call cams l1 l2 us = None) /\
  (length l1 = length l2 -> length us <> length l1 -> length us <> 1%nat -> length l1 <> 1%nat -> correspondence_call cams l1 l2 us = None).
Proof.
  intros cams l1 l2 us.
  assert (X : forall pairs u, match broadcast pairs [u] with
    | Some l => two cams (fun a b =>
        (Fin 0 + nsum (map (fun x => logpdf (Fin 0) (snd x) (epipolar_deviation a b (fst (fst x)) (snd (fst x)))) l)
               + nsum (map (fun x => logpdf (Fin 0) (snd x) (epipolar_deviation b a (snd (fst x)) (fst (fst x)))) l))%num)
    | None => None end = correspondence_term cams pairs u).
  { intros pairs u. rewrite broadcast_one, combine_repeat. unfold correspondence_term, two. destruct cams as [|a [|b rest]]; auto. rewrite !map_map. reflexivity. }
  unfold correspondence_call. splits.
  - intros L u. rewrite broadcast_same by auto. apply X.
  - intros q u. replace (broadcast [q] l2) with (Some (map (fun p => (q, p)) l2)) by (unfold broadcast; destruct l2 as [|x [|y l]]; auto). apply X.
  - intros q u. rewrite broadcast_one, combine_repeat. apply X.
  - intros L L1 L2. rewrite broadcast_none; auto.
  - intros L LU LU1 L1. rewrite broadcast_same by auto. rewrite broadcast_none; auto; rewrite combine_length, <- L, Nat.min_id; auto.
Qed.
Print Assumptions C58_correspondence_counts.
(** An uncertainty for each pair: no cameras get more than those that took the pictures. *)
Theorem C58_correspondence_weighted : forall a b rest ra rb oa ob l1 l2 us ss,
  plain_cam a Rectilinear ra oa -> plain_cam b Rectilinear rb ob -> Forall2 rep us ss -> Forall (fun s => 0 < s) ss ->
  length l1 = length l2 -> length us = length l1 -> (forall q, In q (combine l1 l2) -> same_point a b oa ob q) ->
  exists v r, correspondence_call (a :: b :: rest) l1 l2 us = Some v /\ rep v r /\
    forall a' b' rest', exists v', correspondence_call (a' :: b' :: rest') l1 l2 us = Some v' /\ at_most v' r.
Proof.
  intros a b rest ra rb oa ob l1 l2 us ss Ha Hb HU P L LU H.
  assert (LP : length (combine l1 l2) = length us) by (rewrite combine_length, <- L, Nat.min_id; auto).
  unfold correspondence_call. rewrite broadcast_same by auto. rewrite broadcast_same by auto. cbn [two].
  eexists. exists (0 + rsum (map peak ss) + rsum (map peak ss)). split; [reflexivity|]. split.
  - apply rep_add; [apply rep_add; [apply rep_Fin|]|].
    + apply (weighted (fun q => epipolar_deviation a b (fst q) (snd q)) (combine l1 l2) us ss); auto. intros q Iq. apply (same_point_zero a b ra rb oa ob); auto.
    + apply (weighted (fun q => epipolar_deviation b a (snd q) (fst q)) (combine l1 l2) us ss); auto. intros q Iq. apply (same_point_zero a b ra rb oa ob); auto.
  - intros. eexists. split; [reflexivity|]. rewrite Rplus_0_l. apply at_most_add.
    + apply (weighted (fun q => epipolar_deviation a' b' (fst q) (snd q)) (combine l1 l2) us ss); auto.
    + apply (weighted (fun q => epipolar_deviation b' a' (snd q) (fst q)) (combine l1 l2) us ss); auto.
Qed.
Print Assumptions C58_correspondence_weighted.
(** Two pairs with the uncertainties 1 and 2. *)
Example C58_correspondence_example : exists a b p q, plain_cam a Rectilinear ex_r (ex_at 0) /\ plain_cam b Rectilinear ex_r (ex_at 1) /\
  (forall x, In x (combine [p; p] [q; q]) -> same_point a b (ex_at 0) (ex_at 1) x) /\
  (exists v r, correspondence_call [a; b] [p; p] [q; q] [Fin 1; Fin 2] = Some v /\ rep v r) /\
  correspondence_call [a; b] [p; p; p] [q; q] [Fin 1] = None /\ correspondence_call [a; b] [p; p] [q; q] [Fin 1; Fin 2; Fin 3] = None.
Proof.
  destruct C58_example as (a&b&Ha&Hb&_&_&HS&_). set (p := imageFromSpace a _ true) in HS. set (q := imageFromSpace b _ true) in HS.
  assert (H : forall x, In x (combine [p; p] [q; q]) -> same_point a b (ex_at 0) (ex_at 1) x) by (intros x [<-|[<-|[]]]; exact HS).
  exists a, b, p, q. split; [exact Ha|]. split; [exact Hb|]. split; [exact H|]. split.
  - destruct (C58_correspondence_weighted a b [] ex_r ex_r (ex_at 0) (ex_at 1) [p; p] [q; q] [Fin 1; Fin 2] [1; 2] Ha Hb) as (v&r&E&Rv&_); auto.
    + repeat constructor; apply rep_Fin.
    + repeat constructor; lra.
    + exists v, r. auto.
  - destruct (C58_correspondence_counts [a; b] [p; p; p] [q; q] [Fin 1]) as (_&_&_&R4&_).
    destruct (C58_correspondence_counts [a; b] [p; p] [q; q] [Fin 1; Fin 2; Fin 3]) as (_&_&_&_&R5).
    split; [apply R4|apply R5]; cbn [length]; lia.
Qed.

(** ** Heights and lengths *)
(** Feet and heads, and fronts and backs, are paired in their order; one counts for all of the others; other numbers
    raise. *)
Theorem C58_size_counts : forall c z l1 l2 sizes v,
  (length l1 = length l2 -> height_counts c l1 l2 sizes v = height_call c (combine l1 l2) sizes v /\
     length_counts c z l1 l2 sizes v = length_call c z (combine l1 l2) sizes v) /\
  (forall q, height_counts c [q] l2 sizes v = height_call c (map (fun p => (q, p)) l2) sizes v /\
     length_counts c z [q] l2 sizes v = length_call c z (map (fun p => (q, p)) l2) sizes v) /\
  (forall q, height_counts c l1 [q] sizes v = height_call c (map (fun p => (p, q)) l1) sizes v /\
     length_counts c z l1 [q] sizes v = length_call c z (map (fun p => (p, q)) l1) sizes v) /\
  (length l1 <> length l2 -> length l1 <> 1%nat -> length l2 <> 1%nat ->
     height_counts c l1 l2 sizes v = None /\ length_counts c z l1 l2 sizes v = None).
Proof.
  intros c z l1 l2 sizes v. unfold height_counts, length_counts, size_counts, height_call, length_call. splits.
  - intros L. rewrite broadcast_same by auto. auto.
  - intros q. replace (broadcast [q] l2) with (Some (map (fun p => (q, p)) l2)) by (unfold broadcast; destruct l2 as [|x [|y l]]; auto). auto.
  - intros q. rewrite broadcast_one, combine_repeat. auto.
  - intros L L1 L2. rewrite broadcast_none by auto. auto.
Qed.
Print Assumptions C58_size_counts.
(** Two feet and one head are not refused, three feet and two heads are. *)
Example C58_size_counts_example : exists c p q v, height_counts c [p; q] [p] [Fin 2] (VarNumber (Fin 1)) = Some v /\
  height_counts c [p; q; p] [p; q] [Fin 2] (VarNumber (Fin 1)) = None.
Proof.
  destruct (ex_camera (ex_above 0)) as (c&_). set (p := fin2 (V2 1 1)). set (q := fin2 (V2 2 2)).
  destruct (C58_size_counts c (Fin 0) [p; q] [] [Fin 2] (VarNumber (Fin 1))) as (_&_&A&_). destruct (A p) as (A1&_).
  destruct (C58_size_forms c (Fin 0) [(p, p); (q, p)] [] (VarNumber (Fin 1))) as (_&B&_). destruct (B (Fin 2)) as (B1&_).
  destruct (C58_size_counts c (Fin 0) [p; q; p] [p; q] [Fin 2] (VarNumber (Fin 1))) as (_&_&_&N). destruct N as (N1&_); cbn [length]; try lia.
  cbn [map] in A1. destruct (C58_height c (objects [(p, p); (q, p)] (repeat (Fin 2) 2)) (Fin 1) 1 (rep_Fin _)) as (v&E&_); [lra| |].
  { intros o [<-|[<-|[]]]; eexists; apply rep_Fin. }
  exists c, p, q, v. split; [|exact N1]. rewrite A1, B1. exact E.
Qed.
