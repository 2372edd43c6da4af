(** * Property C17: the horizon *)
Require Import Reals Lra Psatz List Bool ZArith Lia.
From Verif Require Import Num Vec Orientation OrientationFacts Projection ProjectionFacts Ray CameraTransform CameraFacts PropCamera Horizon.
Import ListNotations.
Open Scope R_scope.

(** ** The distance *)
(** The earth as a sphere around the origin, the camera above its north pole: [T] is a
    point where a line of sight touches the sphere. *)
Definition foot (er : R) : v3 R := V3 0 0 er.
Definition above (er e : R) : v3 R := V3 0 0 (er + e).
Definition touches (er e : R) (T : v3 R) : Prop := rdot T T = er * er /\ rdot T (rv_sub (above er e) T) = 0.
Lemma dist_value er e E R : rep er R -> rep e E -> 0 < R -> 0 <= E ->
  rep (distanceToHorizon er e) (sqrt (2 * (R * R) * (E / (R + E)))).
Proof.
  intros Hr He HR HE. unfold distanceToHorizon.
  assert (X : rep (Fin 2 * (er * er) * (Fin 1 - er / (er + e)))%num (2 * (R * R) * (E / (R + E)))).
  { eapply rep_eq; [apply rep_mul; [apply rep_mul; [apply rep_Fin|apply rep_mul; eassumption]|apply rep_sub; [apply rep_Fin|apply rep_div; [eassumption|apply rep_add; eassumption|lra]]]|].
    field. lra. }
  apply rep_sqrt; [exact X|]. apply Rmult_le_pos; [nra|]. apply Rle_mult_inv_pos; lra.
Qed.
Theorem C17_chord : forall er e R E, rep er R -> rep e E -> 0 < R -> 0 <= E ->
  exists d, rep (distanceToHorizon er e) d /\ 0 <= d /\ (exists T, touches R E T) /\
    forall T, touches R E T -> rdist T (foot R) = d /\ d <= rdist T (above R E) /\ (0 < E -> d < rdist T (above R E)).
Proof.
  intros er e R E Hr He HR HE. exists (sqrt (2 * (R * R) * (E / (R + E)))).
  split; [apply dist_value; auto|]. split; [apply sqrt_pos|]. split.
  - set (z := R * R / (R + E)). exists (V3 (sqrt (R * R - z * z)) 0 z).
    assert (Z1 : 0 <= z) by (unfold z; apply Rle_mult_inv_pos; nra).
    assert (Z2 : z <= R). { unfold z. apply Rmult_le_reg_r with (R + E); [lra|]. unfold Rdiv. rewrite Rmult_assoc, Rinv_l by lra. nra. }
    assert (S : sqrt (R * R - z * z) * sqrt (R * R - z * z) = R * R - z * z) by (apply sqrt_sqrt; nra).
    assert (Z3 : z * (R + E) = R * R) by (unfold z; field; lra).
    unfold touches, rdot, above; simpl. split; nra.
  - intros [x y z] (H1&H2). unfold touches, rdot, above, foot, rdist, rnorm, rdot, rv_sub in *. simpl in *.
    assert (Z3 : z * (R + E) = R * R) by nra.
    assert (Z4 : z = R * R / (R + E)) by (field_simplify_eq; lra).
    assert (F1 : (x - 0) * (x - 0) + (y - 0) * (y - 0) + (z - R) * (z - R) = 2 * (R * R) * (E / (R + E))).
    { transitivity (2 * (R * R) - 2 * R * z); [lra|]. rewrite Z4. field. lra. }
    assert (F2 : (x - 0) * (x - 0) + (y - 0) * (y - 0) + (z - (R + E)) * (z - (R + E)) = 2 * R * E + E * E) by nra.
    rewrite F1, F2.
    assert (G : 2 * R * E + E * E - 2 * (R * R) * (E / (R + E)) = E * E * (3 * R + E) / (R + E)) by (field; lra).
    assert (G0 : 0 <= E * E * (3 * R + E)) by (apply Rmult_le_pos; nra). assert (G1 : 0 <= E * E * (3 * R + E) / (R + E)) by (apply Rle_mult_inv_pos; lra).
    split; [reflexivity|]. split.
    + apply sqrt_le_1_alt. lra.
    + intros HE'. apply sqrt_lt_1_alt. split.
      * apply Rmult_le_pos; [nra|]. apply Rle_mult_inv_pos; lra.
      * assert (0 < E * E * (3 * R + E)) by (apply Rmult_lt_0_compat; nra). assert (0 < E * E * (3 * R + E) / (R + E)) by (apply Rdiv_lt_0_compat; lra). lra.
Qed.
Print Assumptions C17_chord.
Theorem C17_zero : forall er e R, rep er R -> rep e 0 -> 0 < R -> rep (distanceToHorizon er e) 0.
Proof.
  intros er e R Hr He HR. eapply rep_eq; [apply (dist_value er e 0 R); auto; lra|].
  replace (2 * (R * R) * (0 / (R + 0))) with 0 by (field; lra). apply sqrt_0.
Qed.
Print Assumptions C17_zero.
Theorem C17_increasing : forall er e e' R E E', rep er R -> rep e E -> rep e' E' -> 0 < R -> 0 <= E -> E < E' ->
  exists d d', rep (distanceToHorizon er e) d /\ rep (distanceToHorizon er e') d' /\ d < d'.
Proof.
  intros er e e' R E E' Hr He He' HR HE HL. eexists _, _. split; [apply (dist_value er e E R); auto|].
  split; [apply (dist_value er e' E' R); auto; lra|]. apply sqrt_lt_1_alt. split.
  - apply Rmult_le_pos; [nra|]. apply Rle_mult_inv_pos; lra.
  - apply Rmult_lt_compat_l; [nra|]. replace (E / (R + E)) with (1 - R / (R + E)) by (field; lra).
    replace (E' / (R + E')) with (1 - R / (R + E')) by (field; lra).
    assert (/ (R + E') < / (R + E)) by (apply Rinv_lt_contravar; nra). unfold Rdiv. nra.
Qed.
Print Assumptions C17_increasing.
(** Below the sea level there is no horizon: the distance is nan, and so is every row. *)
Theorem C17_below : forall er e R E, rep er R -> rep e E -> 0 < R -> - R < E < 0 -> distanceToHorizon er e = NaN.
Proof.
  intros er e R E Hr He HR HE. unfold distanceToHorizon.
  assert (X : rep (Fin 2 * (er * er) * (Fin 1 - er / (er + e)))%num (2 * (R * R) * (E / (R + E)))).
  { eapply rep_eq; [apply rep_mul; [apply rep_mul; [apply rep_Fin|apply rep_mul; eassumption]|apply rep_sub; [apply rep_Fin|apply rep_div; [eassumption|apply rep_add; eassumption|lra]]]|].
    field. lra. }
  assert (N : 2 * (R * R) * (E / (R + E)) < 0).
  { replace (2 * (R * R) * (E / (R + E))) with (- (2 * (R * R) * (- E) / (R + E))) by (field; lra).
    assert (0 < 2 * (R * R) * - E) by (apply Rmult_lt_0_compat; nra). assert (0 < 2 * (R * R) * - E / (R + E)) by (apply Rdiv_lt_0_compat; lra). lra. }
  rlook X. unfold nsqrt. rewrite H. rewrite Rltb_true by exact N. reflexivity.
Qed.
Print Assumptions C17_below.

(** ** The rows *)
Lemma argmin_none l : argmin l = None <-> l = [].
Proof. destruct l as [|x l]; cbn; [tauto|]. split; [|discriminate]. destruct (argmin l) as [[i y]|]; [destruct (y <? x)%num|]; discriminate. Qed.
(** Elements that are finite and not negative, or infinity. *)
Definition amount (x : num) : Prop := x = PInf \/ exists r, rep x r.
Definition klt (a b : option R) : bool :=
  match a, b with None, _ => false | Some _, None => true | Some x, Some y => Rltb x y end.
Lemma amount_lt x y : amount x -> amount y -> (x <? y)%num = klt (toR x) (toR y).
Proof.
  intros [->|(a&A)] [->|(b&B)]; cbn [toR klt].
  - reflexivity.
  - rlook B. unfold nltb. rewrite H. unfold rep in B. reflexivity.
  - rlook A. unfold nltb. rewrite H. unfold rep in A. rewrite A. reflexivity.
  - rewrite (rep_ltb _ _ _ _ A B). unfold rep in A, B. rewrite A, B. reflexivity.
Qed.
Lemma klt_trans a b c : klt b a = false -> klt c b = false -> klt c a = false.
Proof.
  destruct a as [a|], b as [b|], c as [c|]; cbn; auto; try discriminate. unfold Rltb.
  destruct (Rlt_dec b a), (Rlt_dec c b), (Rlt_dec c a); auto; lra.
Qed.
Lemma klt_trans2 a b c : klt a b = true -> klt c b = false -> klt a c = true.
Proof.
  destruct a as [a|], b as [b|], c as [c|]; cbn; auto; try discriminate. unfold Rltb.
  destruct (Rlt_dec a b), (Rlt_dec c b), (Rlt_dec a c); auto; lra.
Qed.
Lemma klt_irr a : klt a a = false.
Proof. destruct a as [a|]; cbn; auto. unfold Rltb. destruct (Rlt_dec a a); auto; lra. Qed.
Lemma klt_asym a b : klt a b = true -> klt b a = false.
Proof. destruct a as [a|], b as [b|]; cbn; auto. unfold Rltb. destruct (Rlt_dec a b), (Rlt_dec b a); auto; try discriminate; lra. Qed.
Lemma argmin_spec l : (forall x, In x l -> amount x) -> forall i y, argmin l = Some (i, y) ->
  nth_error l i = Some y /\
  forall j z, nth_error l j = Some z -> klt (toR z) (toR y) = false /\ ((j < i)%nat -> klt (toR y) (toR z) = true).
Proof.
  induction l as [|x l IH]; intros HA i y H; [discriminate|]. cbn [argmin] in H.
  destruct (argmin l) as [[k w]|] eqn:E.
  - destruct (IH (fun a Ha => HA a (or_intror Ha)) k w eq_refl) as (N&M).
    assert (AW : amount w) by (apply HA; right; eapply nth_error_In; eauto). assert (AX : amount x) by (apply HA; left; reflexivity).
    rewrite (amount_lt _ _ AW AX) in H. destruct (klt (toR w) (toR x)) eqn:L; inversion H; subst; clear H.
    + split; [exact N|]. intros [|j] z Hz; cbn in Hz.
      * inversion Hz; subst z. split; [apply klt_asym; exact L|intros _; exact L].
      * destruct (M j z Hz) as (M1&M2). split; [exact M1|]. intros Hj. apply M2. lia.
    + split; [reflexivity|]. intros [|j] z Hz; cbn in Hz.
      * inversion Hz; subst z. split; [apply klt_irr|lia].
      * destruct (M j z Hz) as (M1&M2). split; [eapply klt_trans; eauto|lia].
  - apply argmin_none in E. subst l. inversion H; subst. split; [reflexivity|]. intros [|j] z Hz; cbn in Hz.
    + inversion Hz; subst z. split; [apply klt_irr|lia].
    + destruct j; discriminate.
Qed.
(** np.nanargmin on numbers that are not negative: the first of the smallest finite ones. *)
Lemma abs_amount x : nabs x = NaN \/ amount (nabs x).
Proof. unfold nabs. destruct (look x) as [|s|r s]; [left; reflexivity|right; left; destruct s; reflexivity|right; right; exists (Rabs r); apply rep_Fin]. Qed.
Lemma nanargmin_spec l : (forall x, In x l -> x = NaN \/ amount x) ->
  match nanargmin l with
  | None => forall x, In x l -> x = NaN
  | Some i => (i < length l)%nat /\ forall j s, nth_error l j = Some s -> forall b, rep s b ->
      exists v a, nth_error l i = Some v /\ rep v a /\ a <= b /\ (b = a -> (i <= j)%nat)
  end.
Proof.
  intros HA. unfold nanargmin. destruct (forallb nisnan l) eqn:E.
  - intros x Hx. rewrite forallb_forall in E. specialize (E x Hx). destruct x; try discriminate. reflexivity.
  - set (g := fun x => if nisnan x then PInf else x). destruct (argmin (map g l)) as [[i y]|] eqn:A.
    + cbn [option_map fst]. assert (HM : forall x, In x (map g l) -> amount x).
      { intros x Hx. apply in_map_iff in Hx. destruct Hx as (w&<-&Hw). unfold g. destruct (HA w Hw) as [->|[->|(r&R)]]; [left; reflexivity|left; reflexivity|].
        destruct (nisnan w) eqn:NW; [left; reflexivity|right; eauto]. }
      destruct (argmin_spec _ HM i y A) as (N&M). rewrite nth_error_map in N.
      destruct (nth_error l i) as [v|] eqn:Ev; [|discriminate]. cbn in N. inversion N; subst y. clear N.
      split; [apply nth_error_Some; congruence|]. intros j s Hs b Hb.
      destruct (M j s) as (M1&M2). { rewrite nth_error_map, Hs. cbn. unfold g. destruct s; try discriminate Hb; reflexivity. }
      unfold rep in Hb. rewrite Hb in M1, M2. destruct (toR (g v)) as [a|] eqn:Ta; [|discriminate M1].
      exists v, a. split; [reflexivity|]. split; [unfold g in Ta; destruct v; try discriminate Ta; exact Ta|].
      cbn [klt] in M1, M2. unfold Rltb in *. destruct (Rlt_dec b a); [discriminate|]. split; [lra|].
      intros ->. destruct (le_lt_dec i j) as [|L]; [assumption|]. specialize (M2 L). destruct (Rlt_dec a a); [lra|discriminate].
    + apply argmin_none in A. destruct l; [discriminate E|discriminate A].
Qed.
(** For one column: nan exactly when no row has a height, otherwise the first of the rows
    whose point at the distance of the horizon is closest to height 0. *)
Theorem C17_row : forall c d n x,
  match c2 (horizon_row c d n x) with
  | NaN => forall j, (j < n)%nat -> row_height c d x j = NaN
  | y => exists i, y = Fin (INR i) /\ (i < n)%nat /\
      forall j b, (j < n)%nat -> rep (row_height c d x j) b ->
        exists a, rep (row_height c d x i) a /\ a <= b /\ (b = a -> (i <= j)%nat)
  end.
Proof.
  intros c d n x. unfold horizon_row; cbn [c2]. set (l := map (row_height c d x) (seq 0 n)).
  assert (HA : forall v, In v l -> v = NaN \/ amount v).
  { intros v Hv. apply in_map_iff in Hv. destruct Hv as (j&<-&_). unfold row_height. destruct (spaceFromImage _ _ _); [apply abs_amount|left; reflexivity]. }
  assert (NT : forall j, (j < n)%nat -> nth_error l j = Some (row_height c d x j)).
  { intros j Hj. unfold l. rewrite nth_error_map. rewrite (nth_error_nth' _ 0%nat) by (rewrite seq_length; exact Hj). rewrite seq_nth by exact Hj. reflexivity. }
  assert (LL : length l = n) by (unfold l; rewrite map_length, seq_length; reflexivity).
  pose proof (nanargmin_spec l HA) as S. destruct (nanargmin l) as [i|].
  - destruct S as (Hi&S). rewrite LL in Hi. exists i. split; [reflexivity|]. split; [exact Hi|]. intros j b Hj Hb.
    destruct (S j _ (NT j Hj) b Hb) as (v&a&Ev&Ra&L1&L2). rewrite (NT i Hi) in Ev. inversion Ev; subst v. exists a. auto.
  - intros j Hj. apply S. eapply nth_error_In. apply NT; exact Hj.
Qed.
Print Assumptions C17_row.
(** The result for a list of columns is the column-wise result, in order, and a single
    column gives the row it would get in a list; the default columns are the left border,
    the middle and the right border. *)
Theorem C17_columns : forall c er e n, arange_len (im_height (cam_proj c)) = Some n ->
  (forall l, exists r, getImageHorizon c er e (Many l) = Some (inr r) /\ length r = length l /\
     forall i x, nth_error l i = Some x -> exists p, nth_error r i = Some p /\ c1 p = x /\ getImageHorizon c er e (One x) = Some (inl p)) /\
  getImageHorizon c er e Default = getImageHorizon c er e (Many [Fin 0; im_width (cam_proj c) / Fin 2; im_width (cam_proj c)]%num).
Proof.
  intros c er e n Hn. unfold getImageHorizon. rewrite Hn. split; [|reflexivity]. intros l. eexists. split; [reflexivity|].
  split; [apply map_length|]. intros i x Hx. eexists. rewrite nth_error_map, Hx. split; [reflexivity|]. split; reflexivity.
Qed.
Print Assumptions C17_columns.
(** In terms of the geometry: all rows that have a ray are considered, with the height of
    the point on that ray at the distance to the horizon. *)
Definition height_at (o : opar R) (W : v3 R) (D : R) : R := elevation_m o + D / rnorm W * cz W.
Lemma row_height_plain c k r o d D x X j : plain_cam c k r o -> rep d D -> 0 <= D -> rep x X ->
  has_ray k r (V2 X (INR j)) ->
  rep (row_height c d x j) (Rabs (height_at o (rm_mul_v (rm_trans (camM o)) (rayR k r (V2 X (INR j)))) D)).
Proof.
  intros HP Hd HD Hx HR. destruct (plain_good c k r o HP) as (HG&HK&_&HU).
  assert (HQ : rep2 (cam_undist c (V2 x (Fin (INR j)))) (V2 X (INR j))) by (rewrite HU; split; [exact Hx|apply rep_Fin]).
  rewrite <- HK in HR. destruct (sfi_D c r (camM o) (opos o) _ _ d D HG HQ HR Hd) as (_&S). destruct (S HD) as (p&Ep&Rp).
  unfold row_height. rewrite Ep. apply rep_abs. destruct Rp as (_&_&Rz). rewrite <- HK. eapply rep_eq; [exact Rz|].
  unfold height_at, dirW, opos. simpl. ring.
Qed.
Theorem C17_geometry : forall c k r o er e R E H n X x, plain_cam c k r o -> rep er R -> rep e E -> 0 < R -> 0 <= E ->
  rep (im_height (cam_proj c)) H -> INR n - 1 < H <= INR n -> (0 < n)%nat -> rep x X ->
  (forall j, (j < n)%nat -> has_ray k r (V2 X (INR j))) ->
  exists D i, rep (distanceToHorizon er e) D /\ (i < n)%nat /\ getImageHorizon c er e (One x) = Some (inl (V2 x (Fin (INR i)))) /\
    let z j := Rabs (height_at o (rm_mul_v (rm_trans (camM o)) (rayR k r (V2 X (INR j)))) D) in
    forall j, (j < n)%nat -> z i <= z j /\ (z j = z i -> (i <= j)%nat).
Proof.
  intros c k r o er e R E H n X x HP Hr He HR HE HH HN Hn Hx HRay.
  set (D := sqrt (2 * (R * R) * (E / (R + E)))). assert (HD : rep (distanceToHorizon er e) D) by (apply dist_value; auto).
  assert (D0 : 0 <= D) by apply sqrt_pos.
  assert (AL : arange_len (im_height (cam_proj c)) = Some n).
  { unfold arange_len. unfold rep in HH. rewrite HH. f_equal. pose proof (Rfloor_bounds (- H)) as B.
    set (z := Rfloor (- H)) in *. rewrite INR_IZR_INZ in HN.
    assert (IZR (- z - 1) < IZR (Z.of_nat n)) by (rewrite minus_IZR, opp_IZR; lra).
    assert (IZR (Z.of_nat n) < IZR (- z + 1)) by (rewrite plus_IZR, opp_IZR; lra).
    apply lt_IZR in H0. apply lt_IZR in H1. assert (- z = Z.of_nat n)%Z by lia. rewrite H2. apply Nat2Z.id. }
  pose proof (C17_row c (distanceToHorizon er e) n x) as ROW. unfold getImageHorizon. rewrite AL.
  assert (FH : forall j, (j < n)%nat -> rep (row_height c (distanceToHorizon er e) x j) (Rabs (height_at o (rm_mul_v (rm_trans (camM o)) (rayR k r (V2 X (INR j)))) D))).
  { intros j Hj. apply row_height_plain; auto. }
  assert (EX : exists i, horizon_row c (distanceToHorizon er e) n x = V2 x (Fin (INR i)) /\ (i < n)%nat /\
      forall j b, (j < n)%nat -> rep (row_height c (distanceToHorizon er e) x j) b ->
        exists a, rep (row_height c (distanceToHorizon er e) x i) a /\ a <= b /\ (b = a -> (i <= j)%nat)).
  { assert (E2 : horizon_row c (distanceToHorizon er e) n x = V2 x (c2 (horizon_row c (distanceToHorizon er e) n x))) by reflexivity.
    destruct (c2 (horizon_row c (distanceToHorizon er e) n x)) eqn:EY;
      try (destruct ROW as (i&Y&Hi&M); exists i; rewrite E2, Y; auto; fail).
    exfalso. specialize (ROW 0%nat Hn). specialize (FH 0%nat Hn). rewrite ROW in FH. discriminate. }
  destruct EX as (i&EY&Hi&M). exists D, i. split; [exact HD|]. split; [exact Hi|]. rewrite EY. split; [reflexivity|].
  cbv zeta. intros j Hj. destruct (M j _ Hj (FH j Hj)) as (a&Ra&L1&L2).
  pose proof (rep_inj _ _ _ Ra (FH i Hi)) as ->. split; assumption.
Qed.
Print Assumptions C17_geometry.
(** ** Example: a camera of [ex_r] and [ex_or], the sphere of the earth. *)
Example C17_example : (exists d, rep (distanceToHorizon (Fin 6371000) (Fin 10)) d /\ 11288 < d < 11289) /\
  (forall j, has_ray Rectilinear ex_r (V2 5 (INR j))).
Proof.
  split; [|intros j; exact I]. eexists. split; [apply (dist_value _ _ 10 6371000); try apply rep_Fin; lra|].
  replace (2 * (6371000 * 6371000) * (10 / (6371000 + 10))) with (81179282000000 / 637101) by field.
  assert (B : 127419800 < 81179282000000 / 637101 < 127419801) by lra.
  split; (apply Rsqr_incrst_0; [rewrite Rsqr_sqrt by lra; unfold Rsqr; lra|try lra; apply sqrt_pos|try lra; apply sqrt_pos]).
Qed.
Example C17_chord_example : rep (distanceToHorizon (Fin 1) (Fin 1)) 1 /\ touches 1 1 (V3 (sqrt 3 / 2) 0 (1 / 2)).
Proof.
  assert (TT : touches 1 1 (V3 (sqrt 3 / 2) 0 (1 / 2))).
  { assert (S : sqrt 3 * sqrt 3 = 3) by (apply sqrt_sqrt; lra). unfold touches, rdot, above; simpl; split; nra. }
  split; [|exact TT].
  destruct (C17_chord (Fin 1) (Fin 1) 1 1) as (d&Rd&_&_&K); try apply rep_Fin; try lra.
  destruct (K _ TT) as (<-&_). eapply rep_eq; [exact Rd|].
  assert (S : sqrt 3 * sqrt 3 = 3) by (apply sqrt_sqrt; lra).
  unfold rdist, rnorm, rdot, rv_sub, foot; simpl. match goal with |- sqrt ?x = _ => replace x with 1 by nra end. apply sqrt_1.
Qed.
Example C17_zero_example : rep (distanceToHorizon (Fin 6371000) (Fin 0)) 0.
Proof. apply (C17_zero _ _ 6371000); try apply rep_Fin; lra. Qed.
Example C17_increasing_example : exists d d', rep (distanceToHorizon (Fin 6371000) (Fin 10)) d /\ rep (distanceToHorizon (Fin 6371000) (Fin 20)) d' /\ d < d'.
Proof. apply (C17_increasing _ _ _ 6371000 10 20); try apply rep_Fin; lra. Qed.
Example C17_below_example : distanceToHorizon (Fin 6371000) (Fin (-10)) = NaN.
Proof. apply (C17_below _ _ 6371000 (-10)); try apply rep_Fin; lra. Qed.
Example C17_geometry_example : exists c i, plain_cam c Rectilinear ex_r ex_or2 /\ (i < 3000)%nat /\
  getImageHorizon c (Fin 6371000) (Fin 10) (One (Fin 5)) = Some (inl (V2 (Fin 5) (Fin (INR i)))).
Proof.
  destruct (ex_cam2 Rectilinear) as (c&HC).
  destruct (C17_geometry c Rectilinear ex_r ex_or2 (Fin 6371000) (Fin 10) 6371000 10 3000 3000 5 (Fin 5) HC) as (D&i&_&Hi&E&_);
    try apply rep_Fin; try lra; try lia.
  - destruct (plain_good _ _ _ _ HC) as ((Hpr&_)&_). destruct Hpr as (_&_&_&_&_&H6). exact H6.
  - rewrite INR_IZR_INZ. split; apply Rle_refl || (apply Rlt_le_trans with (IZR 3000); [simpl; lra|apply Rle_refl]).
  - intros; exact I.
  - exists c, i. auto.
Qed.
