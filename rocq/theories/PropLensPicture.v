(** * C89: what a lens does to the picture *)
Require Import Reals Lra Psatz Bool List Arith ZArith Lia.
From Verif Require Import Num Vec Trig Orientation OrientationFacts Projection ProjectionFacts
  Ray CameraTransform CameraFacts PropCamera Lens PropLens Stereo PropStereo PropLensCam.
Open Scope R_scope.

(** ** Specification *)
(** The lens takes a radius [r], in its units, to [rho r]. *)
Definition follows (l : lens) (rho : R -> R) : Prop := forall x r, 0 < r -> rep x r -> rep (l_conv l x) (rho r).
(** A pixel at offset [v] from the centre of the lens *)
Definition at_offset (L : rlens) (x y : R) : v2 R := V2 (o_x L + x) (o_y L + y).
(** Three pixels on one straight line *)
Definition collinear (A B C : v2 R) : Prop := (c1 B - c1 A) * (c2 C - c2 A) = (c2 B - c2 A) * (c1 C - c1 A).
(** [rho] grows faster, or slower, than the radius: the edges of the picture are magnified more, or less, than its middle. *)
Definition pincushion (rho : R -> R) (h : R) : Prop := forall r s, 0 < r -> r < s -> s <= h -> rho r / r < rho s / s.
Definition barrel (rho : R -> R) (h : R) : Prop := forall r s, 0 < r -> r < s -> s <= h -> rho s / s < rho r / r.

Definition moved (L : rlens) (rho : R -> R) (Q : v2 R) : v2 R := radial L (rho (radius L Q) / radius L Q) Q.
Lemma dist_moved l L rho q Q : rep_lens l L -> follows l rho -> rep2 q Q -> 0 < radius L Q -> rep2 (distortedFromImage l q) (moved L rho Q).
Proof. intros HL HF Hq HR. apply (C18_radial l L q Q _ HL Hq HR). intros x Hx. apply HF; auto. Qed.
Lemma rep2_unique q Q Q' : rep2 q Q -> rep2 q Q' -> Q = Q'.
Proof. intros (A1&A2) (B1&B2). destruct Q, Q'; cbn in *; f_equal; eapply rep_inj; eauto. Qed.
Lemma brown_follows spline k1 k2 k3 K1 K2 K3 p : rep k1 K1 -> rep k2 K2 -> rep k3 K3 -> follows (brown_lens spline k1 k2 k3 p) (brownR K1 K2 K3).
Proof. intros H1 H2 H3 x r _ Hx. apply rep_brown; auto. Qed.
Lemma abc_follows spline a b c A B C p : rep a A -> rep b B -> rep c C -> follows (abc_lens spline a b c p) (abcR A B C).
Proof. intros H1 H2 H3 x r _ Hx. apply rep_abc; auto. Qed.
Lemma brown_lam K1 K2 K3 r : 0 < r -> brownR K1 K2 K3 r / r = 1 + K1 * r ^ 2 + K2 * r ^ 4 + K3 * r ^ 6.
Proof. intros H. unfold brownR. field. lra. Qed.
Lemma radius_zero L Q : s_x L <> 0 -> s_y L <> 0 -> radius L Q = 0 -> Q = V2 (o_x L) (o_y L).
Proof.
  intros NX NY E. unfold radius in E. pose proof (Rle_0_sqr ((c1 Q - o_x L) / s_x L)) as A. pose proof (Rle_0_sqr ((c2 Q - o_y L) / s_y L)) as B.
  apply sqrt_eq_0 in E; [|lra]. assert (A0 : (c1 Q - o_x L) / s_x L = 0) by (apply Rsqr_0_uniq; lra).
  assert (B0 : (c2 Q - o_y L) / s_y L = 0) by (apply Rsqr_0_uniq; lra). apply v2_ext; cbn.
  - replace (c1 Q) with ((c1 Q - o_x L) / s_x L * s_x L + o_x L) by (field; auto). rewrite A0. ring.
  - replace (c2 Q) with ((c2 Q - o_y L) / s_y L * s_y L + o_y L) by (field; auto). rewrite B0. ring.
Qed.
Lemma radius_offset L x y : radius L (at_offset L x y) = sqrt (Rsqr (x / s_x L) + Rsqr (y / s_y L)).
Proof. unfold radius, at_offset; cbn. f_equal. f_equal; f_equal; f_equal; ring. Qed.
Lemma offset_pos L x y : s_x L <> 0 -> s_y L <> 0 -> x <> 0 \/ y <> 0 -> 0 < radius L (at_offset L x y).
Proof.
  intros NX NY H. destruct (radius_nonneg L (at_offset L x y)) as [P|P]; [exact P|]. exfalso. symmetry in P.
  apply (radius_zero _ _ NX NY) in P. unfold at_offset in P. injection P as E1 E2. destruct H as [H|H]; apply H; lra.
Qed.
Lemma moved_offset L rho x y : moved L rho (at_offset L x y) =
  at_offset L (rho (radius L (at_offset L x y)) / radius L (at_offset L x y) * x) (rho (radius L (at_offset L x y)) / radius L (at_offset L x y) * y).
Proof. unfold moved, radial. set (lam := _ / _). unfold at_offset; apply v2_ext; cbn; ring. Qed.

(** ** Different pixels stay different *)
Theorem C89_distinct : forall l L rho q q' Q Q' h, rep_lens l L -> follows l rho -> rep2 q Q -> rep2 q' Q' ->
  0 < radius L Q <= h -> 0 < radius L Q' <= h -> (forall r, 0 < r <= h -> 0 < rho r) ->
  (forall r s, 0 < r <= h -> 0 < s <= h -> rho r = rho s -> r = s) ->
  exists Y Y', rep2 (distortedFromImage l q) Y /\ rep2 (distortedFromImage l q') Y' /\ (Y = Y' <-> Q = Q').
Proof.
  intros l L rho q q' Q Q' h HL HF Hq Hq' HR HR' P J. exists (moved L rho Q), (moved L rho Q').
  split; [apply (dist_moved l L rho q); auto; lra|]. split; [apply (dist_moved l L rho q'); auto; lra|]. split; [|intros ->; reflexivity].
  intros E. assert (HN : s_x L <> 0 /\ s_y L <> 0) by apply HL. destruct HN as (NX&NY).
  assert (F : forall Z, 0 < radius L Z <= h -> radius L (moved L rho Z) = rho (radius L Z)).
  { intros Z HZ. pose proof (P _ HZ). unfold moved. rewrite radius_radial, Rabs_right; auto; [field; lra|].
    apply Rle_ge, Rlt_le, Rdiv_lt_0_compat; lra. }
  assert (ER : radius L Q = radius L Q'). { apply J; auto. rewrite <- (F _ HR), <- (F _ HR'), E. reflexivity. }
  pose proof (P _ HR) as PR. unfold moved in E. rewrite <- ER in E. set (lam := rho (radius L Q) / radius L Q) in E.
  assert (LN : 0 < lam) by (apply Rdiv_lt_0_compat; lra). unfold radial in E. injection E as E1 E2. apply v2_ext.
  - apply (Rmult_eq_reg_l lam); lra.
  - apply (Rmult_eq_reg_l lam); lra.
Qed.
Print Assumptions C89_distinct.
(** Brown's model without negative coefficients never shows two pixels at one place; with one negative [k1] it does not
    within the radius [1 / sqrt (-3 k1)], *)
Theorem C89_brown_distinct : forall spline k1 k2 k3 K1 K2 K3 p r q q' Q Q', rep k1 K1 -> rep k2 K2 -> rep k3 K3 -> rep_proj p r -> foc_ok r ->
  rep2 q Q -> rep2 q' Q' -> 0 < radius (brown_frame r) Q -> 0 < radius (brown_frame r) Q' ->
  (0 <= K1 /\ 0 <= K2 /\ 0 <= K3) \/
  (K2 = 0 /\ K3 = 0 /\ -3 * K1 * radius (brown_frame r) Q ^ 2 <= 1 /\ -3 * K1 * radius (brown_frame r) Q' ^ 2 <= 1) ->
  exists Y Y', rep2 (distortedFromImage (brown_lens spline k1 k2 k3 p) q) Y /\ rep2 (distortedFromImage (brown_lens spline k1 k2 k3 p) q') Y' /\
    (Y = Y' <-> Q = Q').
Proof.
  intros spline k1 k2 k3 K1 K2 K3 p r q q' Q Q' H1 H2 H3 Hp Hf Hq Hq' HR HR' H. set (L := brown_frame r) in *.
  pose proof (rep_brown_lens spline k1 k2 k3 p r Hp Hf) as HL. pose proof (brown_follows spline k1 k2 k3 K1 K2 K3 p H1 H2 H3) as HF.
  set (h := Rmax (radius L Q) (radius L Q')).
  assert (B : 0 < radius L Q <= h) by (split; [auto|apply Rmax_l]). assert (B' : 0 < radius L Q' <= h) by (split; [auto|apply Rmax_r]).
  apply (C89_distinct (brown_lens spline k1 k2 k3 p) L (brownR K1 K2 K3) q q' Q Q' h HL HF Hq Hq' B B').
  - intros t (T0&T1). replace (brownR K1 K2 K3 t) with (t * (brownR K1 K2 K3 t / t)) by (field; lra). apply Rmult_lt_0_compat; auto. rewrite brown_lam by auto.
    destruct H as [(N1&N2&N3)|(->&->&A&A')].
    + pose proof (Rmult_le_pos _ _ N1 (pow_le t 2 (Rlt_le _ _ T0))). pose proof (Rmult_le_pos _ _ N2 (pow_le t 4 (Rlt_le _ _ T0))).
      pose proof (Rmult_le_pos _ _ N3 (pow_le t 6 (Rlt_le _ _ T0))). lra.
    + assert (AH : -3 * K1 * h ^ 2 <= 1) by (unfold h, Rmax; destruct (Rle_dec _ _); auto).
      assert (t * t <= h * h) by (apply Rmult_le_compat; lra). destruct (Rle_dec 0 K1); cbn [pow] in *; nra.
  - intros t s (T0&T1) (S0&S1) E. destruct H as [(N1&N2&N3)|(->&->&A&A')].
    + destruct (Rtotal_order t s) as [O|[O|O]]; [|exact O|].
      * pose proof (brownR_incr K1 K2 K3 t s N1 N2 N3 ltac:(lra)). lra.
      * pose proof (brownR_incr K1 K2 K3 s t N1 N2 N3 ltac:(lra)). lra.
    + assert (AH : -3 * K1 * h ^ 2 <= 1) by (unfold h, Rmax; destruct (Rle_dec _ _); auto).
      assert (E' : (t - s) * (1 + K1 * (t * t + t * s + s * s)) = 0) by (transitivity (brownR K1 0 0 t - brownR K1 0 0 s); [unfold brownR; ring|rewrite E; ring]).
      apply Rmult_integral in E'. destruct E' as [E'|E']; [lra|]. destruct (Req_dec t s) as [ST|ST]; [exact ST|]. exfalso.
      assert (t * t + t * s + s * s < 3 * (h * h)) by (destruct (Rtotal_order t s) as [O|[O|O]]; [|contradiction|]; nra).
      set (x := t * t + t * s + s * s) in *. assert (XP : 0 < x) by (unfold x; nra). cbn [pow] in AH. destruct (Rle_dec 0 K1) as [KP|KP].
      * pose proof (Rmult_le_pos _ _ KP (Rlt_le _ _ XP)). lra.
      * pose proof (Rmult_lt_compat_l (- K1) x _ ltac:(lra) H). lra.
Qed.
Print Assumptions C89_brown_distinct.
(** but beyond it the picture folds: a pixel further out is shown at the place of one further in, on the same side of the centre. *)
Theorem C89_fold : forall spline k1 k2 k3 K1 p r q Q, rep k1 K1 -> rep k2 0 -> rep k3 0 -> rep_proj p r -> foc_ok r -> rep2 q Q ->
  let s := radius (brown_frame r) Q in 0 < s -> 1 < -3 * K1 * s ^ 2 -> - K1 * s ^ 2 < 1 ->
  exists lam Y, 0 < lam < 1 /\ rep2 (distortedFromImage (brown_lens spline k1 k2 k3 p) q) Y /\
    rep2 (distortedFromImage (brown_lens spline k1 k2 k3 p) (fin2 (radial (brown_frame r) lam Q))) Y /\ Y <> V2 (center_x r) (center_y r).
Proof.
  intros spline k1 k2 k3 K1 p r q Q H1 H2 H3 Hp Hf Hq s HS A B. set (L := brown_frame r) in *.
  pose proof (rep_brown_lens spline k1 k2 k3 p r Hp Hf) as HL. pose proof (brown_follows spline k1 k2 k3 K1 0 0 p H1 H2 H3) as HF.
  assert (NX : s_x L <> 0) by apply Hf. assert (NY : s_y L <> 0) by apply Hf.
  set (w := - K1 * s ^ 2) in *. assert (W : / 3 < w < 1) by (unfold w in *; lra).
  set (D := 4 / w - 3). assert (D1 : 1 < D < 9).
  { unfold D. assert (1 < / w) by (rewrite <- Rinv_1; apply Rinv_lt_contravar; lra).
    assert (/ w < 3) by (replace 3 with (/ / 3) by field; apply Rinv_lt_contravar; lra). lra. }
  set (d := sqrt D). assert (Dd : d * d = D) by (apply sqrt_sqrt; lra). assert (Dp : 0 <= d) by apply sqrt_pos.
  assert (D2 : 1 < d < 3) by nra. set (lam := (-1 + d) / 2). assert (LB : 0 < lam < 1) by (unfold lam; lra).
  assert (LE : 1 + lam + lam * lam = / w).
  { unfold lam. replace (1 + (-1 + d) / 2 + (-1 + d) / 2 * ((-1 + d) / 2)) with ((3 + d * d) / 4) by field. rewrite Dd. unfold D. field. lra. }
  assert (RL : radius L (radial L lam Q) = lam * s) by (rewrite radius_radial, Rabs_right; auto; lra).
  exists lam, (moved L (brownR K1 0 0) Q). split; [exact LB|].
  split; [apply (dist_moved _ L _ q); auto|].
  assert (LAM : brownR K1 0 0 s / s = lam * (brownR K1 0 0 (lam * s) / (lam * s))).
  { rewrite !brown_lam by nra. replace (1 + K1 * s ^ 2 + 0 * s ^ 4 + 0 * s ^ 6) with (1 - w) by (unfold w; ring).
    replace (lam * _) with (lam - lam * lam * lam * w) by (unfold w; ring).
    assert (EW : w * (1 + lam + lam * lam) = 1) by (rewrite LE; field; lra). nra. }
  split.
  - eapply rep2_eq; [apply (dist_moved _ L (brownR K1 0 0) _ (radial L lam Q) HL HF (rep2_fin _)); rewrite RL; nra|].
    unfold moved. rewrite RL, radial_radial. fold s. rewrite LAM. f_equal. ring.
  - intros E. assert (RY : radius L (moved L (brownR K1 0 0) Q) = Rabs (1 - w) * s).
    { unfold moved. rewrite radius_radial by auto. fold s. rewrite brown_lam by auto. f_equal. f_equal. unfold w. ring. }
    assert (R0 : radius L (V2 (center_x r) (center_y r)) = 0).
    { unfold radius, L, brown_frame; cbn. replace (_ + _) with 0; [apply sqrt_0|]. unfold Rsqr. field. split; apply Hf. }
    rewrite E, R0, Rabs_right in RY by lra. nra.
Qed.
Print Assumptions C89_fold.

(** ** Straight lines through the centre *)
Theorem C89_centre_line : forall l L rho h x y, rep_lens l L -> follows l rho -> x <> 0 \/ y <> 0 ->
  (forall r, 0 < r <= h -> 0 < rho r) -> (forall r s, 0 < r -> r < s -> s <= h -> rho r < rho s) ->
  let inside t := t <> 0 /\ radius L (at_offset L (t * x) (t * y)) <= h in
  exists g, (forall t, inside t -> rep2 (distortedFromImage l (fin2 (at_offset L (t * x) (t * y)))) (at_offset L (g t * x) (g t * y))) /\
    (forall t, inside t -> 0 < t -> 0 < g t) /\ (forall t, inside t -> t < 0 -> g t < 0) /\
    forall t t', inside t -> inside t' -> t < t' -> g t < g t'.
Proof.
  intros l L rho h x y HL HF HD P M inside. assert (HN : s_x L <> 0 /\ s_y L <> 0) by apply HL. destruct HN as (NX&NY).
  set (n := radius L (at_offset L x y)). assert (N0 : 0 < n) by (apply offset_pos; auto).
  assert (RT : forall t, radius L (at_offset L (t * x) (t * y)) = Rabs t * n).
  { intros t. unfold n. rewrite <- radius_radial by auto. f_equal. unfold radial, at_offset; apply v2_ext; cbn; ring. }
  exists (fun t => t * (rho (Rabs t * n) / (Rabs t * n))).
  assert (PT : forall t, t <> 0 -> 0 < Rabs t * n) by (intros; apply Rmult_lt_0_compat; auto; apply Rabs_pos_lt; auto).
  assert (LP : forall t, inside t -> 0 < rho (Rabs t * n) / (Rabs t * n)).
  { intros t (T0&T1). rewrite RT in T1. pose proof (PT t T0). apply Rdiv_lt_0_compat; auto. }
  assert (GP : forall t, 0 < t -> t * (rho (Rabs t * n) / (Rabs t * n)) = rho (t * n) / n) by (intros; rewrite Rabs_right by lra; field; lra).
  assert (GN : forall t, t < 0 -> t * (rho (Rabs t * n) / (Rabs t * n)) = - (rho (- t * n) / n)) by (intros; rewrite Rabs_left by lra; field; lra).
  splits.
  - intros t HT. eapply rep2_eq.
    + apply (dist_moved l L rho _ (at_offset L (t * x) (t * y)) HL HF (rep2_fin _)). rewrite RT. apply PT, HT.
    + rewrite moved_offset, RT. unfold at_offset; apply v2_ext; cbn; ring.
  - intros t HT T. apply Rmult_lt_0_compat; auto.
  - intros t HT T. pose proof (LP t HT). nra.
  - intros t t' HT HT' T. pose proof (LP t HT) as L1. pose proof (LP t' HT') as L2. destruct HT as (T0&T1), HT' as (T0'&T1'). rewrite RT in T1, T1'.
    destruct (Rlt_dec 0 t) as [A|A]; [|destruct (Rlt_dec 0 t') as [A'|A']].
    + rewrite !GP by lra. apply Rmult_lt_compat_r; [apply Rinv_0_lt_compat; auto|]. rewrite Rabs_right in T1, T1' by lra. apply M; nra.
    + assert (t < 0) by lra. nra.
    + assert (t' < 0) by lra. rewrite !GN by lra. rewrite Rabs_left in T1, T1' by lra. apply Ropp_lt_contravar.
      apply Rmult_lt_compat_r; [apply Rinv_0_lt_compat; auto|]. apply M; nra.
Qed.
Print Assumptions C89_centre_line.

(** ** Symmetry *)
(** A linear map of the offsets that keeps the radius (mirroring in an axis; for square pixels also turning) commutes with the lens. *)
Theorem C89_symmetric : forall l L rho a b c d x y, rep_lens l L -> follows l rho -> x <> 0 \/ y <> 0 ->
  (forall x y, Rsqr ((a * x + b * y) / s_x L) + Rsqr ((c * x + d * y) / s_y L) = Rsqr (x / s_x L) + Rsqr (y / s_y L)) ->
  exists x' y', rep2 (distortedFromImage l (fin2 (at_offset L x y))) (at_offset L x' y') /\
    rep2 (distortedFromImage l (fin2 (at_offset L (a * x + b * y) (c * x + d * y)))) (at_offset L (a * x' + b * y') (c * x' + d * y')).
Proof.
  intros l L rho a b c d x y HL HF HD HA. assert (HN : s_x L <> 0 /\ s_y L <> 0) by apply HL. destruct HN as (NX&NY).
  pose proof (offset_pos L x y NX NY HD) as P. set (s := radius L (at_offset L x y)) in *.
  assert (ES : radius L (at_offset L (a * x + b * y) (c * x + d * y)) = s) by (unfold s; rewrite !radius_offset, HA; reflexivity).
  exists (rho s / s * x), (rho s / s * y). split.
  - eapply rep2_eq; [apply (dist_moved l L rho _ (at_offset L x y) HL HF (rep2_fin _) P)|]. rewrite moved_offset. reflexivity.
  - eapply rep2_eq; [apply (dist_moved l L rho _ (at_offset L (a * x + b * y) (c * x + d * y)) HL HF (rep2_fin _)); rewrite ES; exact P|].
    rewrite moved_offset, ES. unfold at_offset; apply v2_ext; cbn; ring.
Qed.
Print Assumptions C89_symmetric.

(** ** Other straight lines are bent *)
(** Of two pixels in one row beside the middle, the one further out is moved further from the middle row by a pincushion,
    and less far by a barrel. *)
Theorem C89_row : forall l L rho h x x' y, rep_lens l L -> follows l rho -> y <> 0 -> Rabs x < Rabs x' ->
  radius L (at_offset L x' y) <= h -> (forall r, 0 < r <= h -> 0 < rho r) ->
  exists X X' Y Y', rep2 (distortedFromImage l (fin2 (at_offset L x y))) (at_offset L X Y) /\
    rep2 (distortedFromImage l (fin2 (at_offset L x' y))) (at_offset L X' Y') /\ 0 < Y / y /\ 0 < Y' / y /\
    (pincushion rho h -> Y / y < Y' / y) /\ (barrel rho h -> Y' / y < Y / y).
Proof.
  intros l L rho h x x' y HL HF Hy HX Hh P. assert (HN : s_x L <> 0 /\ s_y L <> 0) by apply HL. destruct HN as (NX&NY).
  pose proof (offset_pos L x y NX NY ltac:(auto)) as P1. pose proof (offset_pos L x' y NX NY ltac:(auto)) as P2.
  assert (LT : radius L (at_offset L x y) < radius L (at_offset L x' y)).
  { rewrite !radius_offset. apply sqrt_lt_1_alt. split; [apply Rplus_le_le_0_compat; apply Rle_0_sqr|]. apply Rplus_lt_compat_r.
    apply Rsqr_lt_abs_1. unfold Rdiv. rewrite !Rabs_mult. apply Rmult_lt_compat_r; [|exact HX]. apply Rabs_pos_lt, Rinv_neq_0_compat; auto. }
  set (s := radius L (at_offset L x y)) in *. set (s' := radius L (at_offset L x' y)) in *.
  exists (rho s / s * x), (rho s' / s' * x'), (rho s / s * y), (rho s' / s' * y).
  split; [eapply rep2_eq; [apply (dist_moved l L rho _ (at_offset L x y) HL HF (rep2_fin _) P1)|apply moved_offset]|].
  split; [eapply rep2_eq; [apply (dist_moved l L rho _ (at_offset L x' y) HL HF (rep2_fin _) P2)|apply moved_offset]|].
  assert (Q1 : 0 < rho s / s) by (apply Rdiv_lt_0_compat; auto; apply P; lra). assert (Q2 : 0 < rho s' / s') by (apply Rdiv_lt_0_compat; auto).
  replace (rho s / s * y / y) with (rho s / s) by (field; lra). replace (rho s' / s' * y / y) with (rho s' / s') by (field; lra).
  splits; auto; intros K; apply K; auto.
Qed.
Print Assumptions C89_row.
(** The point [F] of a line nearest to the centre and two points to either side of it stay on one line exactly when the lens magnifies them equally. *)
Theorem C89_bent : forall l L rho fx fy dx dy, rep_lens l L -> follows l rho -> fx <> 0 \/ fy <> 0 -> dx <> 0 \/ dy <> 0 ->
  fx / s_x L * (dx / s_x L) + fy / s_y L * (dy / s_y L) = 0 -> rho (radius L (at_offset L (fx + dx) (fy + dy))) <> 0 ->
  exists A B C, rep2 (distortedFromImage l (fin2 (at_offset L (fx - dx) (fy - dy)))) A /\
    rep2 (distortedFromImage l (fin2 (at_offset L fx fy))) B /\ rep2 (distortedFromImage l (fin2 (at_offset L (fx + dx) (fy + dy)))) C /\
    let r := radius L (at_offset L fx fy) in let s := radius L (at_offset L (fx + dx) (fy + dy)) in
    r < s /\ (collinear A B C <-> rho r / r = rho s / s).
Proof.
  intros l L rho fx fy dx dy HL HF HP HD HO HZ. assert (HN : s_x L <> 0 /\ s_y L <> 0) by apply HL. destruct HN as (NX&NY).
  assert (EX : fx = fx / s_x L * s_x L) by (field; auto). assert (EY : fy = fy / s_y L * s_y L) by (field; auto).
  assert (GX : dx = dx / s_x L * s_x L) by (field; auto). assert (GY : dy = dy / s_y L * s_y L) by (field; auto).
  set (a := fx / s_x L) in *. set (b := fy / s_y L) in *. set (c := dx / s_x L) in *. set (d := dy / s_y L) in *.
  assert (S1 : radius L (at_offset L (fx + dx) (fy + dy)) = sqrt (a * a + b * b + (c * c + d * d))).
  { rewrite radius_offset. f_equal. replace ((fx + dx) / s_x L) with (a + c) by (unfold a, c; field; auto).
    replace ((fy + dy) / s_y L) with (b + d) by (unfold b, d; field; auto). unfold Rsqr. lra. }
  assert (S2 : radius L (at_offset L (fx - dx) (fy - dy)) = sqrt (a * a + b * b + (c * c + d * d))).
  { rewrite radius_offset. f_equal. replace ((fx - dx) / s_x L) with (a - c) by (unfold a, c; field; auto).
    replace ((fy - dy) / s_y L) with (b - d) by (unfold b, d; field; auto). unfold Rsqr. lra. }
  assert (S0 : radius L (at_offset L fx fy) = sqrt (a * a + b * b)) by (rewrite radius_offset; reflexivity).
  assert (N0 : 0 < a * a + b * b).
  { destruct HP as [H|H]; [assert (a <> 0) by (intros Z; apply H; rewrite EX, Z; ring)|assert (b <> 0) by (intros Z; apply H; rewrite EY, Z; ring)]; nra. }
  assert (N1 : 0 < c * c + d * d).
  { destruct HD as [H|H]; [assert (c <> 0) by (intros Z; apply H; rewrite GX, Z; ring)|assert (d <> 0) by (intros Z; apply H; rewrite GY, Z; ring)]; nra. }
  assert (LT : sqrt (a * a + b * b) < sqrt (a * a + b * b + (c * c + d * d))) by (apply sqrt_lt_1_alt; lra).
  assert (R0 : 0 < sqrt (a * a + b * b)) by (apply sqrt_lt_R0; lra).
  assert (CR : fx * dy - fy * dx <> 0).
  { intros Z. assert (K : (a * d - b * c) * (s_x L * s_y L) = 0) by (rewrite <- Z, EX, EY, GX, GY at 1; unfold a, b, c, d; field; auto).
    apply Rmult_integral in K. destruct K as [K|K]; [|apply Rmult_integral in K; tauto].
    assert (Rsqr (a * d - b * c) + Rsqr (a * c + b * d) = (a * a + b * b) * (c * c + d * d)) by (unfold Rsqr; ring).
    rewrite K, HO in H. unfold Rsqr in H. pose proof (Rmult_lt_0_compat _ _ N0 N1). lra. }
  rewrite S1 in HZ. set (r := sqrt (a * a + b * b)) in *. set (s := sqrt (a * a + b * b + (c * c + d * d))) in *.
  eexists _, _, _.
  split; [apply (dist_moved l L rho _ (at_offset L (fx - dx) (fy - dy)) HL HF (rep2_fin _)); rewrite S2; lra|].
  split; [apply (dist_moved l L rho _ (at_offset L fx fy) HL HF (rep2_fin _)); rewrite S0; lra|].
  split; [apply (dist_moved l L rho _ (at_offset L (fx + dx) (fy + dy)) HL HF (rep2_fin _)); rewrite S1; lra|].
  cbv zeta. rewrite !moved_offset, S0, S1, S2. split; [exact LT|]. set (u := rho r / r). set (v := rho s / s).
  assert (V0 : v <> 0) by (unfold v, Rdiv; apply Rmult_integral_contrapositive; split; [exact HZ|apply Rinv_neq_0_compat; lra]).
  unfold collinear, at_offset; cbn [c1 c2]. split.
  - intros E. assert (K : v * ((u - v) * (fx * dy - fy * dx)) = 0) by lra. apply Rmult_integral in K. destruct K as [K|K]; [tauto|].
    apply Rmult_integral in K. destruct K as [K|K]; [lra|tauto].
  - intros ->. ring.
Qed.
Print Assumptions C89_bent.
(** So Brown's model with no negative coefficient and a positive one bends every line that misses the centre outwards, like a pincushion,
    and with no positive and a negative one inwards, like a barrel. *)
Theorem C89_brown_shape : forall K1 K2 K3 h,
  (0 <= K1 -> 0 <= K2 -> 0 <= K3 -> 0 < K1 \/ 0 < K2 \/ 0 < K3 -> pincushion (brownR K1 K2 K3) h) /\
  (K1 <= 0 -> K2 <= 0 -> K3 <= 0 -> K1 < 0 \/ K2 < 0 \/ K3 < 0 -> barrel (brownR K1 K2 K3) h).
Proof.
  assert (T : forall K1 K2 K3 r s, 0 < r -> r < s -> 0 <= K1 -> 0 <= K2 -> 0 <= K3 -> 0 < K1 \/ 0 < K2 \/ 0 < K3 ->
    K1 * r ^ 2 + K2 * r ^ 4 + K3 * r ^ 6 < K1 * s ^ 2 + K2 * s ^ 4 + K3 * s ^ 6).
  { intros K1 K2 K3 r s R0 RS N1 N2 N3 P.
    assert (PW : forall n, r ^ S n < s ^ S n).
    { induction n as [|n IH]; [lra|]. cbn [pow] in *. pose proof (pow_lt r (S n) R0). cbn [pow] in *. nra. }
    pose proof (PW 1%nat). pose proof (PW 3%nat). pose proof (PW 5%nat).
    assert (W1 : K1 * r ^ 2 <= K1 * s ^ 2) by (apply Rmult_le_compat_l; lra). assert (W2 : K2 * r ^ 4 <= K2 * s ^ 4) by (apply Rmult_le_compat_l; lra).
    assert (W3 : K3 * r ^ 6 <= K3 * s ^ 6) by (apply Rmult_le_compat_l; lra).
    destruct P as [P|[P|P]].
    - assert (K1 * r ^ 2 < K1 * s ^ 2) by (apply Rmult_lt_compat_l; lra). lra.
    - assert (K2 * r ^ 4 < K2 * s ^ 4) by (apply Rmult_lt_compat_l; lra). lra.
    - assert (K3 * r ^ 6 < K3 * s ^ 6) by (apply Rmult_lt_compat_l; lra). lra. }
  intros K1 K2 K3 h. split; intros N1 N2 N3 P r s R0 RS _; rewrite !brown_lam by lra.
  - pose proof (T K1 K2 K3 r s R0 RS N1 N2 N3 P). lra.
  - pose proof (T (- K1) (- K2) (- K3) r s R0 RS ltac:(lra) ltac:(lra) ltac:(lra) ltac:(lra)). lra.
Qed.
Print Assumptions C89_brown_shape.

(** ** How much is magnified *)
(** Along the radius the picture is stretched by the derivative of the radius map; where that is negative the picture is reversed. *)
Theorem C89_stretch : forall spline k1 k2 k3 K1 K2 K3 p r x y t, rep k1 K1 -> rep k2 K2 -> rep k3 K3 -> rep_proj p r -> foc_ok r -> 0 < t ->
  let L := brown_frame r in radius L (at_offset L x y) = 1 ->
  exists g, (forall s, 0 < s -> rep2 (distortedFromImage (brown_lens spline k1 k2 k3 p) (fin2 (at_offset L (s * x) (s * y)))) (at_offset L (g s * x) (g s * y))) /\
    derivable_pt_lim g t (1 + 3 * K1 * t ^ 2 + 5 * K2 * t ^ 4 + 7 * K3 * t ^ 6).
Proof.
  intros spline k1 k2 k3 K1 K2 K3 p r x y t H1 H2 H3 Hp Hf Ht L HR. exists (brownR K1 K2 K3). split.
  - intros s Hs. assert (RS : radius L (at_offset L (s * x) (s * y)) = s).
    { transitivity (Rabs s * radius L (at_offset L x y)); [|rewrite HR, Rabs_right; lra]. rewrite <- radius_radial by apply Hf. f_equal.
      unfold radial, at_offset; apply v2_ext; cbn; ring. }
    eapply rep2_eq.
    + apply (dist_moved _ L (brownR K1 K2 K3) _ (at_offset L (s * x) (s * y)) (rep_brown_lens _ _ _ _ _ _ Hp Hf) (brown_follows _ _ _ _ _ _ _ _ H1 H2 H3) (rep2_fin _)).
      rewrite RS. exact Hs.
    + rewrite moved_offset, RS. unfold at_offset; apply v2_ext; cbn; field; lra.
  - assert (D : derivable_pt_lim (fun r => 1 + K1 * r ^ 2 + K2 * r ^ 4 + K3 * r ^ 6) t (0 + K1 * (INR 2 * t ^ 1) + K2 * (INR 4 * t ^ 3) + K3 * (INR 6 * t ^ 5))).
    { apply (derivable_pt_lim_plus (fun r => 1 + K1 * r ^ 2 + K2 * r ^ 4) (fun r => K3 * r ^ 6)).
      - apply (derivable_pt_lim_plus (fun r => 1 + K1 * r ^ 2) (fun r => K2 * r ^ 4)).
        + apply (derivable_pt_lim_plus (fun r => 1) (fun r => K1 * r ^ 2)); [apply derivable_pt_lim_const|].
          apply (derivable_pt_lim_scal (fun r => r ^ 2)). apply (derivable_pt_lim_pow t 2).
        + apply (derivable_pt_lim_scal (fun r => r ^ 4)). apply (derivable_pt_lim_pow t 4).
      - apply (derivable_pt_lim_scal (fun r => r ^ 6)). apply (derivable_pt_lim_pow t 6). }
    pose proof (derivable_pt_lim_mult id _ t _ _ (derivable_pt_lim_id t) D) as M. unfold id in M.
    replace (1 + 3 * K1 * t ^ 2 + 5 * K2 * t ^ 4 + 7 * K3 * t ^ 6) with
      (1 * (1 + K1 * t ^ 2 + K2 * t ^ 4 + K3 * t ^ 6) + t * (0 + K1 * (INR 2 * t ^ 1) + K2 * (INR 4 * t ^ 3) + K3 * (INR 6 * t ^ 5))); [exact M|].
    simpl. ring.
Qed.
Print Assumptions C89_stretch.

(** ** Another focal length, another size of the picture *)
(** With Brown's model a point is moved by the same part of the focal length whatever the focal lengths and the principal point are: one set of
    coefficients fits all zoom positions. *)
Theorem C89_zoom : forall spline k1 k2 k3 K1 K2 K3 pr pr' c c' k r r' o p P X X' hide, rep k1 K1 -> rep k2 K2 -> rep k3 K3 ->
  rep_proj pr r -> rep_proj pr' r' -> lens_cam c k r o (brown_lens spline k1 k2 k3 pr) -> lens_cam c' k r' o (brown_lens spline k1 k2 k3 pr') ->
  rep3 p P -> shown_at k r o P X -> shown_at k r' o P X' -> 0 < radius (brown_frame r) X ->
  exists Y Y', rep2 (imageFromSpace c p hide) Y /\ rep2 (imageFromSpace c' p hide) Y' /\
    (c1 Y - center_x r) / f_x r = (c1 Y' - center_x r') / f_x r' /\ (c2 Y - center_y r) / f_y r = (c2 Y' - center_y r') / f_y r'.
Proof.
  intros spline k1 k2 k3 K1 K2 K3 pr pr' c c' k r r' o p P X X' hide H1 H2 H3 Hpr Hpr' HC HC' Hp HX HX' HR.
  assert (F : foc_ok r) by (destruct HC as (?&?&?&?&?&?); assumption). assert (F' : foc_ok r') by (destruct HC' as (?&?&?&?&?&?); assumption).
  destruct F as (F1&F2), F' as (G1&G2).
  set (T := V2 (center_x r' + f_x r' * alphaR r X) (center_y r' + f_y r' * betaR r X)).
  assert (AT : alphaR r' T = alphaR r X) by (unfold alphaR at 1, T; cbn [c1]; field; auto).
  assert (BT : betaR r' T = betaR r X) by (unfold betaR at 1, T; cbn [c2]; field; auto).
  assert (EX : X' = T).
  { destruct HX as (I1&_&t&Ht&E), HX' as (I2&_&t'&Ht'&E'). apply (rayR_inj k r'); [split; auto|exact I2| |].
    - destruct k; cbn [in_range] in *; rewrite ?AT, ?BT; exact I1.
    - replace (rayR k r' T) with (rayR k r X) by (destruct k; cbn [rayR]; rewrite AT, BT; reflexivity).
      exists (t / t'). split; [apply Rdiv_lt_0_compat; auto|].
      transitivity (rv_scale (/ t') (rv_scale t (rayR k r X))); [|apply v3_ext; cbn; field; lra]. rewrite <- E, E'. apply v3_ext; cbn; field; lra. }
  assert (ER : radius (brown_frame r') X' = radius (brown_frame r) X).
  { unfold radius. fold (alphaR r' X') (betaR r' X'). cbn [brown_frame o_x o_y s_x s_y]. fold (alphaR r' X') (betaR r' X') (alphaR r X) (betaR r X).
    rewrite EX, AT, BT. reflexivity. }
  set (s := radius (brown_frame r) X) in *.
  exists (radial (brown_frame r) (brownR K1 K2 K3 s / s) X), (radial (brown_frame r') (brownR K1 K2 K3 s / s) X').
  split; [|split].
  - apply (C87_pixel c k r o _ (brown_frame r) p P X _ hide HC (rep_brown_lens _ _ _ _ _ _ Hpr (conj F1 F2)) Hp HX HR). intros x Hx. apply rep_brown; auto.
  - rewrite <- ER. apply (C87_pixel c' k r' o _ (brown_frame r') p P X' _ hide HC' (rep_brown_lens _ _ _ _ _ _ Hpr' (conj G1 G2)) Hp HX'); [rewrite ER; exact HR|].
    intros x Hx. apply rep_brown; auto.
  - rewrite EX. unfold T, alphaR, betaR. cbn [radial c1 c2 brown_frame o_x o_y s_x s_y]. set (lam := _ / s). clearbody lam. split; field; auto.
Qed.
Print Assumptions C89_zoom.
(** A picture resized with its projection is distorted like the original. *)
Definition resized (z : R) (r : proj R) : proj R :=
  Proj (z * f_x r) (z * f_y r) (z * center_x r) (z * center_y r) (z * im_width r) (z * im_height r).
Theorem C89_resize : forall spline k1 k2 k3 K1 K2 K3 pr pr' r z Q, rep k1 K1 -> rep k2 K2 -> rep k3 K3 -> rep_proj pr r -> rep_proj pr' (resized z r) -> 0 < z ->
  let zQ := V2 (z * c1 Q) (z * c2 Q) in Q <> V2 (center_x r) (center_y r) ->
  (foc_ok r -> exists Y, rep2 (distortedFromImage (brown_lens spline k1 k2 k3 pr) (fin2 Q)) Y /\
    rep2 (distortedFromImage (brown_lens spline k1 k2 k3 pr') (fin2 zQ)) (V2 (z * c1 Y) (z * c2 Y))) /\
  (0 < im_width r -> 0 < im_height r -> exists Y, rep2 (distortedFromImage (abc_lens spline k1 k2 k3 pr) (fin2 Q)) Y /\
    rep2 (distortedFromImage (abc_lens spline k1 k2 k3 pr') (fin2 zQ)) (V2 (z * c1 Y) (z * c2 Y))).
Proof.
  intros spline k1 k2 k3 K1 K2 K3 pr pr' r z Q H1 H2 H3 Hp Hp' Hz zQ HQ.
  assert (G : forall l l' L L' rho, rep_lens l L -> rep_lens l' L' -> follows l rho -> follows l' rho ->
    L' = RLens (z * o_x L) (z * o_y L) (z * s_x L) (z * s_y L) -> Q <> V2 (o_x L) (o_y L) ->
    exists Y, rep2 (distortedFromImage l (fin2 Q)) Y /\ rep2 (distortedFromImage l' (fin2 zQ)) (V2 (z * c1 Y) (z * c2 Y))).
  { intros l l' L L' rho HL HL' HF HF' -> HN. assert (HS : s_x L <> 0 /\ s_y L <> 0) by apply HL. destruct HS as (NX&NY).
    assert (P : 0 < radius L Q). { destruct (radius_nonneg L Q) as [P|P]; [exact P|]. exfalso. apply HN, radius_zero; auto. }
    assert (ER : radius (RLens (z * o_x L) (z * o_y L) (z * s_x L) (z * s_y L)) zQ = radius L Q).
    { unfold radius, zQ; cbn. f_equal. f_equal; f_equal; field; split; auto; lra. }
    exists (moved L rho Q). split; [apply (dist_moved l L rho _ Q HL HF (rep2_fin _) P)|].
    eapply rep2_eq; [apply (dist_moved l' _ rho _ zQ HL' HF' (rep2_fin _)); rewrite ER; exact P|].
    unfold moved. rewrite ER. unfold radial, zQ; apply v2_ext; cbn; ring. }
  split.
  - intros Hf. assert (Hf' : foc_ok (resized z r)) by (destruct Hf as (F1&F2); split; cbn; apply Rmult_integral_contrapositive; split; auto; lra).
    apply (G _ _ (brown_frame r) (brown_frame (resized z r)) (brownR K1 K2 K3)); auto using rep_brown_lens, brown_follows.
  - intros HW HH. apply (G _ _ (abc_frame r) (abc_frame (resized z r)) (abcR K1 K2 K3)); auto using abc_follows.
    + apply rep_abc_lens; auto.
    + apply rep_abc_lens; auto; cbn; apply Rmult_lt_0_compat; auto.
    + unfold abc_frame, resized; cbn. f_equal; rewrite <- RmaxRmult || idtac.
      * unfold Rmin. destruct (Rle_dec (z * im_width r) (z * im_height r)) as [A|A], (Rle_dec (im_width r) (im_height r)) as [B|B]; try lra; exfalso; nra.
      * unfold Rmin. destruct (Rle_dec (z * im_width r) (z * im_height r)) as [A|A], (Rle_dec (im_width r) (im_height r)) as [B|B]; try lra; exfalso; nra.
Qed.
Print Assumptions C89_resize.

(** With the ABC model, whose unit is the size of the picture, the coefficients belong to one focal length. *)
Definition ex_tele : proj R := Proj 7000 7000 2000 1500 4000 3000.
Theorem C89_abc_zoom_refuted : exists spline a b c Q Q' Y Y', alphaR ex_r Q = alphaR ex_tele Q' /\ betaR ex_r Q = betaR ex_tele Q' /\
  rep2 (distortedFromImage (abc_lens spline a b c (proj_fin ex_r)) (fin2 Q)) Y /\
  rep2 (distortedFromImage (abc_lens spline a b c (proj_fin ex_tele)) (fin2 Q')) Y' /\ alphaR ex_r Y <> alphaR ex_tele Y'.
Proof.
  set (Q := V2 2750 1500). set (Q' := V2 3500 1500).
  assert (M : Rmin 4000 3000 = 3000) by (unfold Rmin; destruct (Rle_dec 4000 3000); lra).
  assert (E1 : radius (abc_frame ex_r) Q = / 2).
  { unfold radius, abc_frame, Q; cbn. rewrite M. replace (_ + _) with (Rsqr (/ 2)) by (unfold Rsqr; field). apply sqrt_Rsqr; lra. }
  assert (E2 : radius (abc_frame ex_tele) Q' = 1).
  { unfold radius, abc_frame, Q'; cbn. rewrite M. replace (_ + _) with (Rsqr 1) by (unfold Rsqr; field). apply sqrt_Rsqr; lra. }
  exists lookup_spline, (Fin 0), (Fin 0), (Fin 1), Q, Q', (moved (abc_frame ex_r) (abcR 0 0 1) Q), (moved (abc_frame ex_tele) (abcR 0 0 1) Q').
  split; [unfold alphaR; cbn; field|]. split; [unfold betaR; cbn; field|].
  split; [apply (dist_moved _ (abc_frame ex_r) _ _ Q); auto using rep_abc_lens, abc_follows, rep_Fin, rep2_fin; [apply rep_abc_lens; [repeat split| |]; cbn; lra|lra]|].
  split; [apply (dist_moved _ (abc_frame ex_tele) _ _ Q'); auto using rep_abc_lens, abc_follows, rep_Fin, rep2_fin; [apply rep_abc_lens; [repeat split| |]; cbn; lra|lra]|].
  unfold moved. rewrite E1, E2. unfold abcR, alphaR, radial; cbn. lra.
Qed.
Print Assumptions C89_abc_zoom_refuted.

(** ** Concrete cases *)
Lemma ex_radius x : 0 <= x -> radius (brown_frame ex_r) (V2 (2000 + 3500 * x) 1500) = x.
Proof.
  intros H. unfold radius, brown_frame; cbn. replace (_ + _) with (Rsqr x) by (unfold Rsqr; field). apply sqrt_Rsqr; lra.
Qed.
Lemma ex_rep : rep_proj (proj_fin ex_r) ex_r. Proof. repeat split. Qed.
Lemma ex_foc : foc_ok ex_r. Proof. split; cbn; lra. Qed.
Lemma ex_follows : follows ex_lens (brownR 1 0 0). Proof. apply brown_follows; apply rep_Fin. Qed.
Example C89_brown_distinct_example : exists Y Y', rep2 (distortedFromImage (brown_lens lookup_spline (Fin (- / 3)) (Fin 0) (Fin 0) (proj_fin ex_r)) (fin2 (V2 (2000 + 3500 * 1) 1500))) Y /\
  rep2 (distortedFromImage (brown_lens lookup_spline (Fin (- / 3)) (Fin 0) (Fin 0) (proj_fin ex_r)) (fin2 (V2 (2000 + 3500 * (9 / 10)) 1500))) Y' /\ Y <> Y'.
Proof.
  destruct (C89_brown_distinct lookup_spline (Fin (- / 3)) (Fin 0) (Fin 0) (- / 3) 0 0 (proj_fin ex_r) ex_r _ _ _ _ (rep_Fin _) (rep_Fin _) (rep_Fin _) ex_rep ex_foc
    (rep2_fin (V2 (2000 + 3500 * 1) 1500)) (rep2_fin (V2 (2000 + 3500 * (9 / 10)) 1500))) as (Y&Y'&R1&R2&E).
  - rewrite ex_radius; lra.
  - rewrite ex_radius; lra.
  - right. rewrite !ex_radius by lra. splits; lra.
  - exists Y, Y'. split; [exact R1|]. split; [exact R2|]. intros Z. apply E in Z. injection Z as Z. lra.
Qed.
(** With [k1 = -1/3] the pixels at 1.2 focal lengths from the centre lie on others. *)
Example C89_fold_example : exists lam Y, 0 < lam < 1 /\
  rep2 (distortedFromImage (brown_lens lookup_spline (Fin (- / 3)) (Fin 0) (Fin 0) (proj_fin ex_r)) (fin2 (V2 (2000 + 3500 * (6 / 5)) 1500))) Y /\
  rep2 (distortedFromImage (brown_lens lookup_spline (Fin (- / 3)) (Fin 0) (Fin 0) (proj_fin ex_r)) (fin2 (radial (brown_frame ex_r) lam (V2 (2000 + 3500 * (6 / 5)) 1500)))) Y.
Proof.
  destruct (C89_fold lookup_spline (Fin (- / 3)) (Fin 0) (Fin 0) (- / 3) (proj_fin ex_r) ex_r _ (V2 (2000 + 3500 * (6 / 5)) 1500) (rep_Fin _) (rep_Fin _) (rep_Fin _) ex_rep ex_foc (rep2_fin _))
    as (lam&Y&LB&R1&R2&_); [rewrite ex_radius; lra|rewrite ex_radius; lra|rewrite ex_radius; lra|]. exists lam, Y. auto.
Qed.
Example C89_centre_line_example : exists g,
  (forall t, t = -2 \/ t = 1 \/ t = 2 -> rep2 (distortedFromImage ex_lens (fin2 (at_offset (brown_frame ex_r) (t * 300) (t * 400)))) (at_offset (brown_frame ex_r) (g t * 300) (g t * 400))) /\
  g (-2) < 0 /\ 0 < g 1 /\ g 1 < g 2.
Proof.
  destruct (C89_centre_line ex_lens (brown_frame ex_r) (brownR 1 0 0) 1 300 400 ex_lens_rep ex_follows ltac:(left; lra)) as (g&A&B&C&D).
  - intros r (H&_). pose proof (brownR_incr 1 0 0 0 r ltac:(lra) ltac:(lra) ltac:(lra) ltac:(lra)) as K. unfold brownR at 1 in K. lra.
  - intros r s H1 H2 _. apply brownR_incr; lra.
  - assert (IN : forall t, t = -2 \/ t = 1 \/ t = 2 -> t <> 0 /\ radius (brown_frame ex_r) (at_offset (brown_frame ex_r) (t * 300) (t * 400)) <= 1).
    { intros t HT. split; [lra|]. rewrite radius_offset. apply Rle_trans with (sqrt 1); [apply sqrt_le_1_alt|rewrite sqrt_1; lra]. cbn. unfold Rsqr. destruct HT as [->|[->| ->]]; lra. }
    exists g. split; [intros t HT; apply A, IN, HT|]. split; [apply C; [apply IN; lra|lra]|]. split; [apply B; [apply IN; lra|lra]|]. apply D; try (apply IN; lra). lra.
Qed.
(** Mirroring and a quarter turn of an offset *)
Example C89_symmetric_example : exists x y, rep2 (distortedFromImage ex_lens (fin2 (at_offset (brown_frame ex_r) 300 400))) (at_offset (brown_frame ex_r) x y) /\
  rep2 (distortedFromImage ex_lens (fin2 (at_offset (brown_frame ex_r) (-400) 300))) (at_offset (brown_frame ex_r) (- y) x).
Proof.
  destruct (C89_symmetric ex_lens (brown_frame ex_r) (brownR 1 0 0) 0 (-1) 1 0 300 400 ex_lens_rep ex_follows ltac:(left; lra)) as (x&y&R1&R2).
  - intros x y. cbn. unfold Rsqr. field.
  - exists x, y. split; [exact R1|]. replace (-400) with (0 * 300 + -1 * 400) by ring. replace 300 with (1 * 300 + 0 * 400) at 2 by ring.
    eapply rep2_eq; [exact R2|]. unfold at_offset; apply v2_ext; cbn; ring.
Qed.
(** The top row of the picture is bent by the lens. *)
Example C89_bent_example : exists A B C, rep2 (distortedFromImage ex_lens (fin2 (at_offset (brown_frame ex_r) (0 - 2000) (-1500 - 0)))) A /\
  rep2 (distortedFromImage ex_lens (fin2 (at_offset (brown_frame ex_r) 0 (-1500)))) B /\
  rep2 (distortedFromImage ex_lens (fin2 (at_offset (brown_frame ex_r) (0 + 2000) (-1500 + 0)))) C /\ ~ collinear A B C.
Proof.
  assert (RP : 0 < radius (brown_frame ex_r) (at_offset (brown_frame ex_r) (0 + 2000) (-1500 + 0))) by (apply offset_pos; [cbn; lra|cbn; lra|left; lra]).
  destruct (C89_bent ex_lens (brown_frame ex_r) (brownR 1 0 0) 0 (-1500) 2000 0 ex_lens_rep ex_follows ltac:(right; lra) ltac:(left; lra)) as (A&B&C&RA&RB&RC&LT&E).
  - cbn. field.
  - pose proof (brownR_incr 1 0 0 0 _ ltac:(lra) ltac:(lra) ltac:(lra) (conj (Rle_refl 0) RP)) as K. unfold brownR at 1 in K. lra.
  - exists A, B, C. split; [exact RA|]. split; [exact RB|]. split; [exact RC|]. intros Z. apply E in Z.
    pose proof (proj1 (C89_brown_shape 1 0 0 (radius (brown_frame ex_r) (at_offset (brown_frame ex_r) (0 + 2000) (-1500 + 0)))) ltac:(lra) ltac:(lra) ltac:(lra) ltac:(lra)) as PC.
    assert (R0 : 0 < radius (brown_frame ex_r) (at_offset (brown_frame ex_r) 0 (-1500))) by (apply offset_pos; [cbn; lra|cbn; lra|right; lra]).
    specialize (PC _ _ R0 LT (Rle_refl _)). lra.
Qed.
Example C89_row_example : exists X X' Y Y', rep2 (distortedFromImage ex_lens (fin2 (at_offset (brown_frame ex_r) 100 (-1500)))) (at_offset (brown_frame ex_r) X Y) /\
  rep2 (distortedFromImage ex_lens (fin2 (at_offset (brown_frame ex_r) (-2000) (-1500)))) (at_offset (brown_frame ex_r) X' Y') /\ Y' < Y.
Proof.
  destruct (C89_row ex_lens (brown_frame ex_r) (brownR 1 0 0) (radius (brown_frame ex_r) (at_offset (brown_frame ex_r) (-2000) (-1500))) 100 (-2000) (-1500) ex_lens_rep ex_follows)
    as (X&X'&Y&Y'&RA&RB&_&_&PC&_); try lra.
  - rewrite (Rabs_right 100), Rabs_left; lra.
  - intros r (R0&_). pose proof (brownR_incr 1 0 0 0 r ltac:(lra) ltac:(lra) ltac:(lra) ltac:(lra)) as K. unfold brownR at 1 in K. lra.
  - exists X, X', Y, Y'. split; [exact RA|]. split; [exact RB|].
    pose proof (PC (proj1 (C89_brown_shape 1 0 0 _) ltac:(lra) ltac:(lra) ltac:(lra) ltac:(lra))). lra.
Qed.
Example C89_stretch_example : exists g, derivable_pt_lim g (/ 2) (7 / 4) /\
  forall s, 0 < s -> rep2 (distortedFromImage ex_lens (fin2 (at_offset (brown_frame ex_r) (s * 3500) (s * 0)))) (at_offset (brown_frame ex_r) (g s * 3500) (g s * 0)).
Proof.
  destruct (C89_stretch lookup_spline (Fin 1) (Fin 0) (Fin 0) 1 0 0 (proj_fin ex_r) ex_r 3500 0 (/ 2) (rep_Fin _) (rep_Fin _) (rep_Fin _) ex_rep ex_foc ltac:(lra)) as (g&A&B).
  - rewrite radius_offset; cbn. replace (_ + _) with (Rsqr 1) by (unfold Rsqr; field). apply sqrt_Rsqr; lra.
  - exists g. split; [|exact A]. replace (7 / 4) with (1 + 3 * 1 * (/ 2) ^ 2 + 5 * 0 * (/ 2) ^ 4 + 7 * 0 * (/ 2) ^ 6) by field. exact B.
Qed.
Example C89_zoom_example : exists c c' Y Y', lens_cam c Rectilinear ex_r (ex_at 0) ex_lens /\
  lens_cam c' Rectilinear ex_tele (ex_at 0) (brown_lens lookup_spline (Fin 1) (Fin 0) (Fin 0) (proj_fin ex_tele)) /\
  rep2 (imageFromSpace c (fin3 (V3 10 20 10)) true) Y /\ rep2 (imageFromSpace c' (fin3 (V3 10 20 10)) true) Y' /\
  c1 Y' - 2000 = 2 * (c1 Y - 2000).
Proof.
  destruct (ex_lens_at 0) as (c&HC).
  assert (HO : rep_opar (opar_fin (ex_at 0)) (ex_at 0)) by (repeat split). destruct (init_rigid _ _ HO) as (m&E&_).
  set (c' := lens_camera Rectilinear (proj_fin ex_tele) m (brown_lens lookup_spline (Fin 1) (Fin 0) (Fin 0) (proj_fin ex_tele))).
  assert (HC' : lens_cam c' Rectilinear ex_tele (ex_at 0) (brown_lens lookup_spline (Fin 1) (Fin 0) (Fin 0) (proj_fin ex_tele))).
  { exists (proj_fin ex_tele), m. split; [reflexivity|]. split; [repeat split|]. split; [split; simpl; lra|eauto]. }
  destruct (C89_zoom lookup_spline (Fin 1) (Fin 0) (Fin 0) 1 0 0 (proj_fin ex_r) (proj_fin ex_tele) c c' Rectilinear ex_r ex_tele (ex_at 0) (fin3 (V3 10 20 10)) (V3 10 20 10)
    (ex_pixel 0 (V3 10 20 10)) (V2 5500 1500) true (rep_Fin _) (rep_Fin _) (rep_Fin _)) as (Y&Y'&R1&R2&E1&E2); auto.
  - apply ex_rep.
  - repeat split.
  - apply rep3_fin.
  - apply ex_shown. cbn; lra.
  - split; [exact Logic.I|]. rewrite ex_at_coords. split; [cbn; rewrite Rabs_Ropp, Rabs_right; unfold tinyR; lra|].
    exists 20. split; [lra|]. unfold rayR, alphaR, betaR. apply v3_ext; cbn; field.
  - replace (ex_pixel 0 (V3 10 20 10)) with (V2 (2000 + 3500 * / 2) 1500) by (unfold ex_pixel; cbn; f_equal; field). rewrite ex_radius; lra.
  - exists c, c', Y, Y'. split; [exact HC|]. split; [exact HC'|]. split; [exact R1|]. split; [exact R2|]. cbn in E1. lra.
Qed.
Example C89_resize_example : exists Y, rep2 (distortedFromImage ex_lens (fin2 (V2 3000 1000))) Y /\
  rep2 (distortedFromImage (brown_lens lookup_spline (Fin 1) (Fin 0) (Fin 0) (proj_fin (resized (/ 2) ex_r))) (fin2 (V2 (/ 2 * 3000) (/ 2 * 1000)))) (V2 (/ 2 * c1 Y) (/ 2 * c2 Y)).
Proof.
  apply (proj1 (C89_resize lookup_spline (Fin 1) (Fin 0) (Fin 0) 1 0 0 (proj_fin ex_r) (proj_fin (resized (/ 2) ex_r)) ex_r (/ 2) (V2 3000 1000) (rep_Fin _) (rep_Fin _) (rep_Fin _) ex_rep
    ltac:(repeat split) ltac:(lra) ltac:(intros Z; injection Z as Z1 Z2; cbn in *; lra))).
  apply ex_foc.
Qed.
