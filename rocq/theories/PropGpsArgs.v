(** * C59: the arguments of landmarks given by gps positions *)
Require Import Reals Lra Lia List Bool Arith.
From Verif Require Import Num Vec Orientation OrientationFacts Projection ProjectionFacts Ray RayFacts CameraTransform CameraFacts Gps PropGps LogProb
  Stereo FitTerms FitPlot FitArgs GpsImage GpsArgs PropProjection PropCamera PropRay PropStereo PropFitTerms PropFitPlot PropFitArgs PropFitCounts PropGpsImage.
Import ListNotations.
Open Scope R_scope.

(** ** Specification: the landmarks written out *)
Definition gps_given (pixels : list (v2 num)) (gs : list gpt) (us : list (v3 num)) : list gps_landmark :=
  map (fun x => GpsLandmark (fst (fst x)) (snd (fst x)) (snd x)) (combine (combine pixels gs) us).

Lemma points_length la lo gs ps : points_from_gps la lo gs = Some ps -> length ps = length gs.
Proof.
  assert (L : forall A (l : list (option A)) k, Gps.all_some l = Some k -> length k = length l).
  { intros A l. induction l as [|[x|] l IH]; cbn; intros k E; try discriminate; [injection E as <-; auto|].
    destruct (Gps.all_some l); [|discriminate]. injection E as <-. cbn. rewrite <- (IH l0); auto. }
  unfold points_from_gps, spaceFromGPS_batch. intros E. destruct (Gps.all_some _) as [ss|] eqn:E1; [|discriminate].
  apply L in E1. apply L in E. rewrite E, map_length, E1, map_length. auto.
Qed.
Lemma given_gps la lo gs ps pixels us : points_from_gps la lo gs = Some ps -> length pixels = length gs -> length us = length gs ->
  forall c pos offset, gps_landmark_term c la lo pos offset (gps_given pixels gs us) = Some (landmark_term c pos offset (given (combine pixels ps) us)).
Proof.
  intros E L1 L2 c pos offset. pose proof (points_length _ _ _ _ E) as L3. unfold gps_landmark_term.
  replace (map gl_gps (gps_given pixels gs us)) with gs.
  - rewrite E. do 2 f_equal. unfold gps_given, given. clear E. revert pixels us ps L1 L2 L3.
    induction gs as [|g gs IH]; intros [|q pixels] [|u us] [|p ps] L1 L2 L3; try discriminate; auto.
    cbn. f_equal. apply IH; cbn in *; lia.
  - unfold gps_given. clear E L3. revert pixels us L1 L2. induction gs as [|g gs IH]; intros [|q pixels] [|u us] L1 L2; try discriminate; auto.
    cbn. f_equal. apply IH; cbn in *; lia.
Qed.
(** A number, one row, or a row for each landmark: the term of the landmarks written out. *)
Theorem C59_landmark_forms : forall c la lo pos pixels gs, Forall (fun g => hgt g <> None) gs -> length pixels = length gs ->
  (forall u, gps_landmark_call c la lo pos pixels gs (UNumber u) = gps_landmark_term c la lo pos u (gps_given pixels gs (repeat (V3 u u u) (length gs)))) /\
  (forall v, exists n m, rep n m /\ largest m (row3 v) /\
    gps_landmark_call c la lo pos pixels gs (URow (map Fin (row3 v))) = gps_landmark_term c la lo pos n (gps_given pixels gs (repeat (fin3 v) (length gs)))) /\
  (forall vs, length vs = length gs -> vs <> [] -> exists n m, rep n m /\ largest m (concat (map row3 vs)) /\
    gps_landmark_call c la lo pos pixels gs (UTable (map (fun v => map Fin (row3 v)) vs)) = gps_landmark_term c la lo pos n (gps_given pixels gs (map fin3 vs))).
Proof.
  intros c la lo pos pixels gs H L. pose proof (points_batch la lo gs H) as E. set (ps := map _ gs) in E. pose proof (points_length _ _ _ _ E) as LP.
  assert (LC : length (combine pixels ps) = length gs) by (rewrite combine_length; lia).
  assert (X : forall u, gps_landmark_call c la lo pos pixels gs u = landmark_call c pos (combine pixels ps) u).
  { intros u. unfold gps_landmark_call. rewrite E. apply C58_counts. lia. }
  destruct (C58_uncertainties c pos (combine pixels ps)) as (F1&F2&F3). rewrite LC in *. splits.
  - intros u. rewrite X, F1. symmetry. apply given_gps; auto. apply repeat_length.
  - intros v. destruct (F2 v) as (n&m&Hn&Hm&E2). exists n, m. splits; auto. rewrite X, E2. symmetry. apply given_gps; auto. apply repeat_length.
  - intros vs LV NE. destruct (F3 vs LV NE) as (n&m&Hn&Hm&E3). exists n, m. splits; auto. rewrite X, E3. symmetry. apply given_gps; auto. rewrite map_length. auto.
Qed.
Print Assumptions C59_landmark_forms.

(** Different numbers of pixels and positions: the plot raises, the term does unless one of the numbers is one.  One
    pixel counts for all positions, and one position for all pixels. *)
Theorem C59_landmark_counts : forall c la lo pos pixels gs u, Forall (fun g => hgt g <> None) gs ->
  (length pixels <> length gs -> gps_landmark_line c la lo pixels gs = None /\
    (length pixels <> 1%nat -> length gs <> 1%nat -> gps_landmark_call c la lo pos pixels gs u = None)) /\
  (forall q, gps_landmark_call c la lo pos [q] gs u = gps_landmark_call c la lo pos (repeat q (length gs)) gs u) /\
  (forall g, gs = [g] -> exists P, gps_landmark_call c la lo pos pixels gs u = landmark_call c pos (map (fun q => (q, P)) pixels) u /\
    imageFromGPS c la lo g = Some (imageFromSpace c P true)) /\
  (length pixels = length gs -> length gs <> 2%nat -> exists qs l, Forall2 (fun g q => imageFromGPS c la lo g = Some q) gs qs /\
    gps_landmark_line c la lo pixels gs = Some l /\ FitPlot.segments l = filter drawable (combine pixels qs)).
Proof.
  intros c la lo pos pixels gs u H. pose proof (points_batch la lo gs H) as E. set (ps := map _ gs) in E. pose proof (points_length _ _ _ _ E) as LP.
  unfold gps_landmark_line, gps_landmark_call. rewrite E. splits.
  - intros L. destruct (C58_counts c pos pixels ps u) as (_&_&_&C4). rewrite LP in C4. exact (C4 L).
  - intros q. destruct (C58_counts c pos [q] ps u) as (_&C2&_). destruct (C58_counts c pos (repeat q (length gs)) ps u) as (C1&_).
    rewrite C2. destruct C1 as (->&_); [rewrite repeat_length; auto|]. f_equal. rewrite <- LP. clear. induction ps as [|p ps IH]; cbn; congruence.
  - intros g ->. exists (at_gps la lo g (height_of g)). split; [apply (C58_counts c pos pixels [])|].
    apply single. inversion H; auto.
  - intros L N2. destruct (C58_counts c pos pixels ps u) as (C1&_). destruct C1 as (_&l&E1&E2); [lia|].
    exists (map (fun x => imageFromSpace c x true) ps), l. splits; auto.
    unfold ps. apply Nat.eqb_neq in N2. rewrite N2, map_map. clear - H. induction H as [|g gs Hg _ IH]; constructor; auto. apply single; auto.
Qed.
Print Assumptions C59_landmark_counts.
(** Three landmarks with heights, and the uncertainties of the documentation. *)
Example C59_landmark_args_example : exists c pos gs pixels n t, length gs = 3%nat /\ Forall (fun g => hgt g <> None) gs /\ length pixels = length gs /\ rep n 5 /\
  gps_landmark_call c (Fin (496/10)) (Fin 11) pos pixels gs (URow [Fin 3; Fin 3; Fin 5]) = Some t /\
  gps_landmark_term c (Fin (496/10)) (Fin 11) pos n (gps_given pixels gs (repeat (fin3 (V3 3 3 5)) 3)) = Some t /\
  gps_landmark_call c (Fin (496/10)) (Fin 11) pos pixels (firstn 2 gs) (UNumber (Fin 1)) = None /\
  gps_landmark_line c (Fin (496/10)) (Fin 11) pixels (firstn 2 gs) = None.
Proof.
  destruct (some_camera ex_r ex_zero) as (c&_); [cbn; lra|]. set (m := ex_mark 20 5).
  assert (NH : hgt (gl_gps m) <> None) by (destruct (ex_mark_place 20 5) as (_&h&z&E&_); unfold m; congruence). clearbody m.
  set (gs := [gl_gps m; gl_gps m; gl_gps m]). assert (H : Forall (fun g => hgt g <> None) gs) by (repeat constructor; auto).
  set (pixels := [gl_image m; gl_image m; gl_image m]). destruct (C59_landmark_forms c (Fin (496/10)) (Fin 11) (fin3 rv0) pixels gs H eq_refl) as (_&F&_).
  destruct (F (V3 3 3 5)) as (n&x&Hn&(I1&B)&E). assert (x = 5). { assert (5 <= x) by (apply B; cbn [row3 In cx cy cz]; tauto). clear E F. cbn [row3 In cx cy cz] in I1. lra. } subst x.
  pose proof (given_gps (Fin (496/10)) (Fin 11) gs _ pixels (repeat (fin3 (V3 3 3 5)) 3) (points_batch _ _ gs H) eq_refl eq_refl c (fin3 rv0) n) as G.
  assert (H2 : Forall (fun g => hgt g <> None) (firstn 2 gs)) by (repeat constructor; auto).
  destruct (C59_landmark_counts c (Fin (496/10)) (Fin 11) (fin3 rv0) pixels (firstn 2 gs) (UNumber (Fin 1)) H2) as (K&_).
  assert (LN : length pixels <> length (firstn 2 gs)) by (unfold pixels, gs; cbn [length firstn]; lia). destruct (K LN) as (K1&K2).
  exists c, (fin3 rv0), gs, pixels, n. eexists. split; [reflexivity|]. split; [exact H|]. split; [reflexivity|]. split; [exact Hn|].
  split; [exact (eq_trans E G)|]. split; [exact G|]. split; [|exact K1]. apply K2; unfold pixels, gs; cbn [length firstn]; lia.
Qed.
