(** * C43: maps in single precision *)
Require Import Reals Lra Psatz List Bool ZArith Arith Lia.
From Verif Require Import Num Vec Orientation OrientationFacts Projection ProjectionFacts Ray CameraTransform CameraFacts PropProjection PropCamera Lens PropLens Border PropBorder Lut PropLut MapCache PropMapCache MapRound.
Import ListNotations.
Open Scope R_scope.

(** ** Specification *)
(** What is used of the conversion to single precision: 24 binary digits, very small numbers are lost, very large ones
    may become infinite, and what is no finite number does not become one. *)
Definition single_precision (rd : num -> num) : Prop :=
  (forall x r, rep x r -> (exists r', rep (rd x) r' /\ Rabs (r' - r) <= Rabs r / 16777216 + / 1000000000) \/
                          (1000000000000 <= Rabs r /\ forall r', ~ rep (rd x) r')) /\
  (forall x r', rep (rd x) r' -> exists r, rep x r).
(** The pixel of a picture that is not within [tol] of the middle between two pixels; blank outside and where there is no
    position. *)
Definition shows_within (tol : R) (im : image) (q : v2 num) (px : list num) : Prop :=
  (forall Q (u v : Z), rep2 q Q -> Rabs (c1 Q - IZR u) < / 2 - tol -> Rabs (c2 Q - IZR v) < / 2 - tol -> px = at_px im v u) /\
  (~ (exists Q, rep2 q Q) -> px = blank im).
(** the largest side of an image that OpenCV's remap takes *)
Definition side : Z := 32767.

Lemma round_mesh rd f xs ys : round_map rd (mesh_map f xs ys) = mesh_map (fun q => V2 (rd (c1 (f q))) (rd (c2 (f q)))) xs ys.
Proof. unfold round_map. rewrite !mesh_rows, map_rev, map_map. f_equal. apply map_ext. intros y. apply map_map. Qed.

(** on which side of the borders of its pixel a rounded position is *)
Lemma rounded_side x x' (u : Z) n : (Z.of_nat n <= side)%Z -> Rabs (x - IZR u) < / 2 - / 256 -> Rabs (x' - x) <= Rabs x / 16777216 + / 1000000000 ->
  ((0 <= u < Z.of_nat n)%Z -> Rfloor (x' + / 2) = u) /\ ((u < 0)%Z -> (Rfloor (x' + / 2) < 0)%Z) /\ ((Z.of_nat n <= u)%Z -> (Z.of_nat n <= Rfloor (x' + / 2))%Z).
Proof.
  intros Hn B E. assert (HN : IZR (Z.of_nat n) <= 32767) by (apply IZR_le; unfold side in Hn; lia). apply Rabs_def2 in B as (B1&B2).
  assert (E1 : x' - x <= Rabs x / 16777216 + / 1000000000 /\ - (Rabs x / 16777216 + / 1000000000) <= x' - x) by (unfold Rabs in E at 1; destruct (Rcase_abs (x' - x)); lra).
  destruct E1 as (E1&E2). splits.
  - intros (U0&U1). apply IZR_le in U0. assert (U2 : IZR u <= 32767) by (apply IZR_lt in U1; lra).
    assert (A : Rabs x <= 32768) by (apply Rabs_le; lra). apply floor_is. lra.
  - intros U. assert (U1 : IZR u <= -1) by (apply IZR_le; lia). rewrite (Rabs_left x) in E1, E2 by lra.
    destruct (base_Int_part (x' + / 2)) as (F&_). apply lt_IZR. unfold Rfloor. lra.
  - intros U. apply IZR_le in U. assert (N0 : 0 <= IZR (Z.of_nat n)) by (apply IZR_le; lia).
    destruct (Rle_or_lt 0 x) as [X|X].
    + rewrite (Rabs_right x) in E1, E2 by lra.
      assert (L : IZR (Z.of_nat n) <= x' + / 2) by lra.
      destruct (base_Int_part (x' + / 2)) as (_&F). assert (IZR (Z.of_nat n) < IZR (Rfloor (x' + / 2) + 1)) by (rewrite plus_IZR; unfold Rfloor; lra).
      apply lt_IZR in H. lia.
    + rewrite (Rabs_left x) in E1, E2 by lra.
      assert (L : IZR (Z.of_nat n) <= x' + / 2) by lra.
      destruct (base_Int_part (x' + / 2)) as (_&F). assert (IZR (Z.of_nat n) < IZR (Rfloor (x' + / 2) + 1)) by (rewrite plus_IZR; unfold Rfloor; lra).
      apply lt_IZR in H. lia.
Qed.
Lemma large_outside x (u : Z) n : (Z.of_nat n <= side)%Z -> Rabs (x - IZR u) < / 2 - / 256 -> 1000000000000 <= Rabs x -> (u < 0 \/ Z.of_nat n <= u)%Z.
Proof.
  intros Hn B L. destruct (Z_lt_le_dec u 0) as [U|U]; auto. destruct (Z_lt_le_dec u (Z.of_nat n)) as [V|V]; auto. exfalso.
  assert (HN : IZR (Z.of_nat n) <= 32767) by (apply IZR_le; unfold side in Hn; lia). apply IZR_le in U. apply IZR_lt in V. apply Rabs_def2 in B as (B1&B2).
  assert (A : Rabs x <= 32768) by (apply Rabs_le; lra). lra.
Qed.
Definition inside (u : Z) (n : nat) : bool := ((0 <=? u) && (u <? Z.of_nat n))%bool%Z.
Lemma at_px_inside im v u : at_px im v u = if (inside u (im_w im) && inside v (im_h im))%bool then opaque im (im_px im (Z.to_nat v) (Z.to_nat u)) else blank im.
Proof. unfold at_px, inside. rewrite <- !andb_assoc. auto. Qed.
Lemma pick_inside im q x y : rep (c1 q) x -> rep (c2 q) y -> pick (with_alpha im) q = at_px im (Rfloor (y + / 2)) (Rfloor (x + / 2)).
Proof.
  intros HX HY. unfold pick. unfold rep in HX, HY. rewrite HX, HY, alpha_border, alpha_px. destruct (alpha_size im) as (->&->&_). auto.
Qed.
(** the pixel that is taken at a rounded coordinate is the same, or both are outside *)
Lemma axis rd x r u n : single_precision rd -> (Z.of_nat n <= side)%Z -> rep x r -> Rabs (r - IZR u) < / 2 - / 256 ->
  (exists r', rep (rd x) r' /\ (Rfloor (r' + / 2) = u \/ (inside (Rfloor (r' + / 2)) n = false /\ inside u n = false))) \/
  ((forall r', ~ rep (rd x) r') /\ inside u n = false).
Proof.
  intros (S1&_) Hn Hx B.
  assert (OUT : forall z, (z < 0 \/ Z.of_nat n <= z)%Z -> inside z n = false).
  { intros z H. unfold inside. apply andb_false_iff. rewrite Z.leb_gt, Z.ltb_ge. auto. }
  destruct (S1 x r Hx) as [(r'&Hr&E)|(L&NF)].
  - left. exists r'. split; auto. destruct (rounded_side r r' u n Hn B E) as (A1&A2&A3).
    destruct (Z_lt_le_dec u 0) as [U|U]; [right; split; apply OUT; auto|]. destruct (Z_lt_le_dec u (Z.of_nat n)) as [V|V]; [left; auto|right; split; apply OUT; auto].
  - right. split; auto. apply OUT. eapply large_outside; eauto.
Qed.
Lemma pick_rounded rd im q : single_precision rd -> (Z.of_nat (im_w im) <= side)%Z -> (Z.of_nat (im_h im) <= side)%Z ->
  shows_within (/ 256) im q (pick (with_alpha im) (V2 (rd (c1 q)) (rd (c2 q)))).
Proof.
  intros SP HW HH. split.
  - intros Q u v (HX&HY) BU BV. rewrite at_px_inside.
    destruct (axis rd (c1 q) (c1 Q) u (im_w im) SP HW HX BU) as [(x'&RX&CX)|(NX&IX)].
    + destruct (axis rd (c2 q) (c2 Q) v (im_h im) SP HH HY BV) as [(y'&RY&CY)|(NY&IY)].
      * rewrite (pick_inside im (V2 (rd (c1 q)) (rd (c2 q))) x' y') by auto. rewrite at_px_inside.
        destruct CX as [->|(->&->)]; [|auto]. destruct CY as [->|(->&->)]; [auto|]. rewrite !andb_false_r. auto.
      * rewrite IY, andb_false_r. apply pick_nan. intros (Q'&_&K). apply (NY _ K).
    + rewrite IX. cbn [andb]. apply pick_nan. intros (Q'&K&_). apply (NX _ K).
  - intros N. apply pick_nan. intros (Q'&K1&K2). destruct SP as (_&S2). destruct (S2 _ _ K1) as (x&Hx), (S2 _ _ K2) as (y&Hy).
    apply N. exists (V2 x y). split; auto.
Qed.

(** With the maps that the code uses, in single precision, the pictures show what C43_undistorted and C43_top_view say
    of exact maps, except possibly where the position is closer than 1/256 pixel to the middle between two pixels. *)
Theorem C43_undistorted_single : forall rd s im n sc X0 X1 Y0 Y1 k, single_precision rd -> (Z.of_nat (im_w im) <= side)%Z -> (Z.of_nat (im_h im) <= side)%Z ->
  s_undist s = None -> let x := s_lists s n in
  rep (e_x0 x) X0 -> rep (e_x1 x) X1 -> rep (e_y0 x) Y0 -> rep (e_y1 x) Y1 -> rep sc k -> X0 < X1 -> Y0 < Y1 -> 0 < k ->
  exists im', snd (undistort32 rd s im (Some n) (Some sc) true) = Some im' /\ im_ch im' = channels im /\
    (INR (im_w im') - 1) * k < X1 - X0 <= INR (im_w im') * k /\ (INR (im_h im') - 1) * k < Y1 - Y0 <= INR (im_h im') * k /\
    forall i j, (i < im_h im')%nat -> (j < im_w im')%nat ->
      shows_within (/ 256) im (cam_dist (s_cam s) (V2 (Fin (X0 + INR j * k)) (Fin (Y0 + INR i * k)))) (im_px im' i j).
Proof.
  intros rd s im n sc X0 X1 Y0 Y1 k SP SW SH HU x HA HB HC HE HK LX LY PK.
  destruct (arange_pos _ _ _ _ _ _ HA HB HK PK LX) as (nx&EX&NX&BX). destruct (arange_pos _ _ _ _ _ _ HC HE HK PK LY) as (ny&EY&NY&BY).
  set (xs := map (fun i => Fin (X0 + INR i * k)) (seq 0 nx)) in *. set (ys := map (fun i => Fin (Y0 + INR i * k)) (seq 0 ny)) in *.
  assert (LXS : length xs = nx) by (unfold xs; rewrite map_length, seq_length; reflexivity).
  assert (LYS : length ys = ny) by (unfold ys; rewrite map_length, seq_length; reflexivity).
  assert (NE : ys <> []) by (intros E; rewrite E in LYS; cbn in LYS; lia).
  set (g := fun q => V2 (rd (c1 (cam_dist (s_cam s) q))) (rd (c2 (cam_dist (s_cam s) q)))).
  destruct (remap_mesh (with_alpha im) g xs ys NE) as (RH&RW&RC&RP).
  exists (flip (remap (with_alpha im) (mesh_map g xs ys))).
  split.
  { unfold undistort32. cbn [negb andb]. unfold getUndistortMap. rewrite HU. cbn [contents]. fold x. unfold map_over. rewrite EX, EY.
    cbn [option_map snd]. rewrite round_mesh. reflexivity. }
  unfold flip. cbn [im_ch im_h im_w im_px]. rewrite RH, RW, RC, LXS, LYS. destruct (alpha_size im) as (_&_&AC). splits; auto; try lra.
  intros i j I J. rewrite RP by (rewrite ?LXS, ?LYS; lia). rewrite LYS. replace (ny - 1 - (ny - 1 - i))%nat with i by lia.
  unfold xs, ys. rewrite !nth_arange by lia. apply pick_rounded; auto.
Qed.
Print Assumptions C43_undistorted_single.
Theorem C43_top_view_single : forall rd s im n sc z hide X0 X1 Y0 Y1 k Z, single_precision rd -> (Z.of_nat (im_w im) <= side)%Z -> (Z.of_nat (im_h im) <= side)%Z ->
  s_map s = None -> let x := s_lists s n in
  rep (e_x0 x) X0 -> rep (e_x1 x) X1 -> rep (e_y0 x) Y0 -> rep (e_y1 x) Y1 -> rep sc k -> rep z Z -> X0 < X1 -> Y0 < Y1 -> 0 < k ->
  exists im', snd (top_view32 rd s im (Some n) (Some sc) z true hide) = Some im' /\ im_ch im' = channels im /\
    (INR (im_w im') - 1) * k < X1 - X0 <= INR (im_w im') * k /\ (INR (im_h im') - 1) * k < Y1 - Y0 <= INR (im_h im') * k /\
    forall i j, (i < im_h im')%nat -> (j < im_w im')%nat ->
      exists p, rep3 p (V3 (X0 + INR j * k) (Y0 + INR (im_h im' - 1 - i) * k) Z) /\ shows_within (/ 256) im (imageFromSpace (s_cam s) p hide) (im_px im' i j).
Proof.
  intros rd s im n sc z hide X0 X1 Y0 Y1 k Z SP SW SH HM x HA HB HC HE HK HZ LX LY PK.
  destruct (arange_pos _ _ _ _ _ _ HA HB HK PK LX) as (nx&EX&NX&BX). destruct (arange_pos _ _ _ _ _ _ HC HE HK PK LY) as (ny&EY&NY&BY).
  set (xs := map (fun i => Fin (X0 + INR i * k)) (seq 0 nx)) in *. set (ys := map (fun i => Fin (Y0 + INR i * k)) (seq 0 ny)) in *.
  assert (LXS : length xs = nx) by (unfold xs; rewrite map_length, seq_length; reflexivity).
  assert (LYS : length ys = ny) by (unfold ys; rewrite map_length, seq_length; reflexivity).
  assert (NE : ys <> []) by (intros E; rewrite E in LYS; cbn in LYS; lia).
  set (g := fun q => V2 (rd (c1 (top_f (s_cam s) z hide q))) (rd (c2 (top_f (s_cam s) z hide q)))).
  destruct (remap_mesh (with_alpha im) g xs ys NE) as (RH&RW&RC&RP).
  exists (remap (with_alpha im) (mesh_map g xs ys)).
  split.
  { unfold top_view32. cbn [negb andb]. unfold getMap. rewrite HM. cbn [contents]. fold x. unfold map_over. rewrite EX, EY.
    cbn [option_map snd]. rewrite round_mesh. reflexivity. }
  rewrite RH, RW, RC, LXS, LYS. destruct (alpha_size im) as (_&_&AC). splits; auto; try lra.
  intros i j I J. rewrite RP by (rewrite ?LXS, ?LYS; lia). rewrite LYS. unfold xs, ys. rewrite !nth_arange by lia.
  exists (V3 (Fin (X0 + INR j * k)) (Fin (Y0 + INR (ny - 1 - i) * k)) (z * Fin 1)%num). split.
  - unfold rep3. splits; cbn [cx cy cz]; try apply rep_Fin. eapply rep_eq; [apply rep_mul; [exact HZ|apply rep_Fin]|]. lra.
  - unfold g, top_f. cbn [c1 c2]. apply pick_rounded; auto.
Qed.
Print Assumptions C43_top_view_single.

(** Exactly between two pixels nothing can be said: two conversions that both keep 24 digits take different pixels. *)
Theorem C43_single_refuted : exists rd rd' im q, single_precision rd /\ single_precision rd' /\ (Z.of_nat (im_w im) <= side)%Z /\ (Z.of_nat (im_h im) <= side)%Z /\
  (exists Q, rep2 q Q) /\ pick (with_alpha im) (V2 (rd (c1 q)) (rd (c2 q))) <> pick (with_alpha im) (V2 (rd' (c1 q)) (rd' (c2 q))).
Proof.
  set (up := fun x => match toR x with Some r => Fin (r * (1 + / 33554432)) | None => x end).
  set (dn := fun x => match toR x with Some r => Fin (r * (1 - / 33554432)) | None => x end).
  assert (G : forall e f, Rabs e <= / 33554432 -> f = (fun x => match toR x with Some r => Fin (r * (1 + e)) | None => x end) -> single_precision f).
  { intros e f He ->. split.
    - intros x r Hx. left. exists (r * (1 + e)). unfold rep in Hx. rewrite Hx. split; [apply rep_Fin|].
      replace (r * (1 + e) - r) with (r * e) by ring. rewrite Rabs_mult. pose proof (Rabs_pos r). pose proof (Rabs_pos e). nra.
    - intros x r' H. destruct (toR x) as [r|] eqn:E; [exists r; auto|]. unfold rep in H. congruence. }
  assert (P33 : 0 < / 33554432) by (apply Rinv_0_lt_compat; lra).
  exists up, dn, (Image 1 2 None (fun i j => [Fin (INR j)])), (V2 (Fin (/ 2)) (Fin 0)). splits; try (unfold side; cbn; lia).
  - apply (G (/ 33554432)); auto. rewrite Rabs_right; lra.
  - apply (G (- / 33554432)); auto. rewrite Rabs_left; lra.
  - exists (V2 (/ 2) 0). split; apply rep_Fin.
  - unfold up, dn. cbn [c1 c2 toR]. unfold pick. cbn [c1 c2 toR with_alpha im_ch im_w im_h].
    rewrite (floor_is (/ 2 * (1 + / 33554432) + / 2) 1) by lra. rewrite (floor_is (/ 2 * (1 - / 33554432) + / 2) 0) by lra.
    rewrite !(floor_is (0 * _ + / 2) 0) by lra. cbn. intros E. injection E. lra.
Qed.
Print Assumptions C43_single_refuted.

(** A conversion that errs in the 25th binary digit, a camera with nothing cached, and the middle of pixel 1234. *)
Example C43_single_example : exists rd s n, single_precision rd /\ rd (Fin 1) <> Fin 1 /\ s_map s = None /\ s_undist s = None /\
  rep (e_x0 (s_lists s n)) 0 /\ rep (e_x1 (s_lists s n)) 20 /\ (Z.of_nat (im_w gray) <= side)%Z /\ (Z.of_nat (im_h gray) <= side)%Z /\ shows_within (/ 256) gray (V2 (Fin 1234) (Fin 7)) (at_px gray 7 1234).
Proof.
  destruct (ex_cam2 Rectilinear) as (c&HC). exists (fun x => match toR x with Some r => Fin (r * (1 + / 33554432)) | None => x end),
    (State c (fun _ => Ext (Fin 0) (Fin 20) (Fin 0) (Fin 20)) None None), 0%nat.
  assert (P33 : 0 < / 33554432) by (apply Rinv_0_lt_compat; lra). splits; auto; try apply rep_Fin.
  - split.
    + intros x r Hx. left. exists (r * (1 + / 33554432)). unfold rep in Hx. rewrite Hx. split; [apply rep_Fin|].
      replace (r * (1 + / 33554432) - r) with (r * / 33554432) by ring. rewrite Rabs_mult, (Rabs_right (/ 33554432)) by lra. pose proof (Rabs_pos r). lra.
    + intros x r' H. destruct (toR x) as [r|] eqn:E; [exists r; auto|]. unfold rep in H. congruence.
  - cbn [toR]. intros E. injection E. lra.
  - apply Z.leb_le. vm_compute. reflexivity.
  - apply Z.leb_le. vm_compute. reflexivity.
  - split.
    + intros Q u v (HX&HY) BU BV. cbn [c1 c2] in HX, HY. apply (rep_inj _ _ _ (rep_Fin 1234)) in HX. apply (rep_inj _ _ _ (rep_Fin 7)) in HY. rewrite <- HX in BU. rewrite <- HY in BV.
      apply Rabs_def2 in BU as (A1&A2). apply Rabs_def2 in BV as (B1&B2).
      assert (U : u = 1234%Z). { assert (u < 1235 /\ 1233 < u)%Z by (split; apply lt_IZR; lra). lia. }
      assert (V : v = 7%Z). { assert (v < 8 /\ 6 < v)%Z by (split; apply lt_IZR; lra). lia. } subst. auto.
    + intros N. exfalso. apply N. exists (V2 1234 7). split; apply rep_Fin.
Qed.
