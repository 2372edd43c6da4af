(** * C88: lens distortion in rounded arithmetic *)
Require Import Reals Lra Lia Psatz Bool List ZArith.
From Verif Require Import Num Vec Trig Orientation OrientationFacts Projection ProjectionFacts Ray CameraTransform CameraFacts PropCamera
  Lens PropLens PropStereo PropLensCam Rounding RoundingFacts PropRounding RoundingGps PropRoundingGps RoundingLens.
Open Scope R_scope.

(** ** Specification: how accurate the operations are *)
(** [r ** n] is off by at most [4 u], relative *)
Definition accurate_lens (u : R) (T : lfloats) : Prop :=
  accurate_gps u (l_ops T) /\ forall x n, Rabs (l_pow T x n - x ^ n) <= 4 * u * Rabs (x ^ n).

(** ** Relative errors *)
Definition relerr (e x' x : R) : Prop := Rabs (x' - x) <= e * Rabs x.
Section Rel.
Context (u : R) (HU : 0 <= u <= / 1000000).
Notation rel m := (relerr (m * u)).
Lemma rel_refl x : rel 0 x x.
Proof. unfold relerr. rewrite Rminus_diag_eq, Rabs_R0 by reflexivity. lra. Qed.
Lemma rel_le m n x' x : rel m x' x -> m <= n -> rel n x' x.
Proof. unfold relerr. intros H L. pose proof (Rabs_pos x). eapply Rle_trans; [exact H|]. apply Rmult_le_compat_r; nra. Qed.
Lemma rel_trans m n a b c : 0 <= m -> 0 <= n -> m * n <= 1000000 -> rel m a b -> rel n b c -> rel (m + n + 1) a c.
Proof.
  unfold relerr. intros Hm Hn HN H1 H2. pose proof (Rabs_pos c) as P.
  assert (B : Rabs b <= (1 + n * u) * Rabs c).
  { replace b with ((b - c) + c) by ring. eapply Rle_trans; [apply Rabs_triang|]. lra. }
  replace (a - c) with ((a - b) + (b - c)) by ring. eapply Rle_trans; [apply Rabs_triang|].
  assert (m * u * Rabs b <= m * u * ((1 + n * u) * Rabs c)) by (apply Rmult_le_compat_l; [nra|exact B]).
  assert (m * u * (n * u) <= u).
  { replace (m * u * (n * u)) with (m * n * u * u) by ring. assert (m * n * u <= 1) by nra. nra. }
  assert (m * u * (n * u) * Rabs c <= u * Rabs c) by (apply Rmult_le_compat_r; lra). lra.
Qed.
Lemma rel_mul m n x' x y' y : 0 <= m -> 0 <= n -> m * n <= 1000000 -> rel m x' x -> rel n y' y -> rel (m + n + 1) (x' * y') (x * y).
Proof.
  intros Hm Hn HN H1 H2. apply rel_trans with (x * y'); auto.
  - unfold relerr in *. replace (x' * y' - x * y') with ((x' - x) * y') by ring. rewrite !Rabs_mult.
    pose proof (Rabs_pos y'). nra.
  - unfold relerr in *. replace (x * y' - x * y) with (x * (y' - y)) by ring. rewrite !Rabs_mult. pose proof (Rabs_pos x). nra.
Qed.
Lemma rel_mul_l m x y' y : rel m y' y -> rel m (x * y') (x * y).
Proof. unfold relerr. intros H. replace (x * y' - x * y) with (x * (y' - y)) by ring. rewrite !Rabs_mult. pose proof (Rabs_pos x). nra. Qed.
Lemma rel_mul_r m x' x y : rel m x' x -> rel m (x' * y) (x * y).
Proof. intros H. rewrite (Rmult_comm x'), (Rmult_comm x). apply rel_mul_l, H. Qed.
Lemma rel_inv n y' y : 0 <= n <= 900 -> y <> 0 -> rel n y' y -> y' <> 0 /\ rel (n + 1) (/ y') (/ y).
Proof.
  intros Hn Ny H. unfold relerr in *. assert (P : 0 < Rabs y) by (apply Rabs_pos_lt; auto).
  assert (NU : n * u <= 900 * / 1000000) by nra.
  assert (L : (1 - n * u) * Rabs y <= Rabs y').
  { replace y with (y' - (y' - y)) in P, H |- * by ring. pose proof (Rabs_triang y' (- (y' - y))) as T. rewrite Rabs_Ropp in T.
    change (y' + - (y' - y)) with (y' - (y' - y)) in T. replace (y' - (y' - (y' - y))) with (y' - y) in * by ring. lra. }
  assert (P' : 0 < Rabs y') by nra. assert (N' : y' <> 0) by (intros E; rewrite E, Rabs_R0 in P'; lra).
  split; [exact N'|]. replace (/ y' - / y) with (- (y' - y) * / y' * / y) by (field; auto).
  rewrite !Rabs_mult, Rabs_Ropp, !Rabs_inv. apply Rmult_le_compat_r; [apply Rlt_le, Rinv_0_lt_compat; auto|].
  apply (Rmult_le_reg_r (Rabs y')); [auto|]. rewrite Rmult_assoc, Rinv_l by lra. rewrite Rmult_1_r.
  eapply Rle_trans; [exact H|]. apply Rle_trans with ((n + 1) * u * ((1 - n * u) * Rabs y)); [|apply Rmult_le_compat_l; [nra|exact L]].
  assert (n * u <= (n + 1) * u * (1 - n * u)) by (assert ((n + 1) * (n * u) <= 1) by nra; nra). nra.
Qed.
Lemma rel_div m n x' x y' y : 0 <= m <= 900 -> 0 <= n <= 900 -> y <> 0 -> rel m x' x -> rel n y' y -> rel (m + n + 2) (x' / y') (x / y).
Proof.
  intros Hm Hn Ny H1 H2. destruct (rel_inv n y' y Hn Ny H2) as (N'&H3). unfold Rdiv.
  eapply rel_le; [apply (rel_mul m (n + 1) x' x (/ y') (/ y)); auto; try lra; nra|lra].
Qed.
Lemma rel_sqrt m x' x : 0 <= x -> 0 <= x' -> 0 <= m -> rel m x' x -> rel m (sqrt x') (sqrt x).
Proof.
  intros Hx Hx' Hm H. unfold relerr in *. pose proof (sqrt_pos x) as S. pose proof (sqrt_pos x') as S'.
  rewrite (Rabs_right (sqrt x)) by lra. rewrite (Rabs_right x) in H by lra.
  destruct (Req_dec x 0) as [E|N].
  - subst x. rewrite Rmult_0_r in H. rewrite Rminus_0_r in H. pose proof (Rabs_pos x'). assert (x' = 0) by (rewrite Rabs_right in H; lra).
    subst x'. rewrite sqrt_0, Rminus_0_r, Rabs_R0. lra.
  - assert (SP : 0 < sqrt x) by (apply sqrt_lt_R0; lra).
    apply (Rmult_le_reg_r (sqrt x' + sqrt x)); [lra|].
    replace (Rabs (sqrt x' - sqrt x) * (sqrt x' + sqrt x)) with (Rabs (x' - x)).
    + eapply Rle_trans; [exact H|]. rewrite <- (sqrt_sqrt x) at 1 by lra. assert (0 <= m * u * sqrt x * sqrt x') by (repeat apply Rmult_le_pos; lra). nra.
    + rewrite <- (Rabs_right (sqrt x' + sqrt x)) by lra. rewrite <- Rabs_mult. f_equal.
      pose proof (sqrt_sqrt x Hx). pose proof (sqrt_sqrt x' Hx'). nra.
Qed.
Lemma rel_pow m x' x n : 0 <= m -> (m + 1) * INR n * m <= 1000000 -> rel m x' x -> rel ((m + 1) * INR n) (x' ^ n) (x ^ n).
Proof.
  intros Hm. induction n as [|n IH]; intros HN H.
  - cbn [pow INR]. rewrite Rmult_0_r. apply rel_refl.
  - rewrite S_INR in HN |- *. cbn [pow]. pose proof (pos_INR n).
    eapply rel_le; [apply (rel_mul m ((m + 1) * INR n)); auto; try nra|lra]. apply IH; auto. nra.
Qed.
Lemma rel_near m x' x : rel m x' x -> near (m * u * Rabs x) x' x. Proof. exact (fun H => H). Qed.
Lemma rel_nonneg m x' x : 0 <= x -> m * u <= 1 -> rel m x' x -> 0 <= x'.
Proof. unfold relerr. intros Hx HM H. rewrite (Rabs_right x) in H by lra. unfold Rabs in H. destruct (Rcase_abs (x' - x)); nra. Qed.
(** The same, measured by a larger quantity [s] *)
Definition within (m s x' x : R) : Prop := Rabs (x' - x) <= m * u * s /\ Rabs x <= s.
Lemma within_rel m x' x : rel m x' x -> within m (Rabs x) x' x.
Proof. intros H. split; [exact H|lra]. Qed.
Lemma within_le m n s t x' x : within m s x' x -> 0 <= m <= n -> s <= t -> within n t x' x.
Proof.
  intros (H&B) Hm Hs. pose proof (Rabs_pos x). split; [|lra]. eapply Rle_trans; [exact H|].
  apply Rmult_le_compat; nra.
Qed.
Lemma within_up m n s x' x : within m s x' x -> 0 <= m <= n -> within n s x' x.
Proof. intros H L. apply within_le with m s; auto. lra. Qed.
Lemma within_add m s t x' x y' y : within m s x' x -> within m t y' y -> within m (s + t) (x' + y') (x + y).
Proof.
  intros (H1&B1) (H2&B2). split; [|eapply Rle_trans; [apply Rabs_triang|lra]].
  replace (x' + y' - (x + y)) with ((x' - x) + (y' - y)) by ring. eapply Rle_trans; [apply Rabs_triang|]. lra.
Qed.
Lemma within_mul m n s t x' x y' y : 0 <= m -> 0 <= n -> m * n <= 1000000 -> within m s x' x -> within n t y' y ->
  within (m + n + 1) (s * t) (x' * y') (x * y).
Proof.
  intros Hm Hn HN (H1&B1) (H2&B2). pose proof (Rabs_pos x). pose proof (Rabs_pos y). pose proof (Rabs_pos (x' - x)). pose proof (Rabs_pos (y' - y)).
  split; [|rewrite Rabs_mult; apply Rmult_le_compat; auto].
  replace (x' * y' - x * y) with ((x' - x) * y + x * (y' - y) + (x' - x) * (y' - y)) by ring.
  eapply Rle_trans; [apply Rabs_triang|]. rewrite (Rabs_mult (x' - x) (y' - y)).
  apply Rle_trans with (m * u * s * t + s * (n * u * t) + m * u * s * (n * u * t)).
  - apply Rplus_le_compat; [|apply Rmult_le_compat; auto].
    eapply Rle_trans; [apply Rabs_triang|]. rewrite !Rabs_mult. apply Rplus_le_compat; apply Rmult_le_compat; auto.
  - assert (m * u * (n * u) <= u).
    { replace (m * u * (n * u)) with (m * n * u * u) by ring. assert (m * n * u <= 1) by nra. nra. }
    assert (0 <= s * t) by nra. assert (m * u * (n * u) * (s * t) <= u * (s * t)) by (apply Rmult_le_compat_r; lra). nra.
Qed.
Lemma within_nonneg m s x' x : within m s x' x -> 0 <= s. Proof. intros (_&B). pose proof (Rabs_pos x). lra. Qed.
End Rel.

Section Lens.
Context (u : R) (T : lfloats) (HT : accurate_lens u T).
Notation G := (l_ops T).
Notation A := (g_ops G).
Notation fl := (f_round A).
Notation rel m := (relerr (m * u)).
Notation within m := (within u m).
Let HA : accurate u A. Proof. apply HT. Qed.
Let HU : 0 <= u <= / 1000000. Proof. apply HA. Qed.
Lemma rel_fl m x' x : 0 <= m <= 100000 -> rel m x' x -> rel (m + 2) (fl x') x.
Proof.
  intros Hm H. assert (H0 : rel 1 (fl x') x') by (unfold relerr; rewrite Rmult_1_l; apply HA).
  eapply rel_le; [exact HU|apply (rel_trans u HU 1 m _ x'); auto; lra|lra].
Qed.
Lemma within_fl m s x' x : 0 <= m <= 100000 -> within m s x' x -> within (m + 2) s (fl x') x.
Proof.
  intros Hm (H&B). split; [|exact B]. pose proof (fl_near u A HA x') as F. unfold near in F. pose proof (Rabs_pos x) as Px.
  assert (X' : Rabs x' <= s + m * u * s).
  { replace x' with ((x' - x) + x) by ring. eapply Rle_trans; [apply Rabs_triang|]. lra. }
  replace (fl x' - x) with ((fl x' - x') + (x' - x)) by ring. eapply Rle_trans; [apply Rabs_triang|].
  assert (u * Rabs x' <= u * (s + m * u * s)) by (apply Rmult_le_compat_l; lra).
  assert (m * u <= 1) by nra. assert (m * u * s <= s) by nra. nra.
Qed.
Lemma rel_power m x' x n : 0 <= m -> (m + 1) * INR n * (m + 5) <= 1000000 -> rel m x' x -> rel ((m + 1) * INR n + 5) (l_pow T x' n) (x ^ n).
Proof.
  intros Hm HN H. pose proof (pos_INR n). assert (0 <= (m + 1) * INR n) by nra.
  assert (HP4 : rel 4 (l_pow T x' n) (x' ^ n)) by apply HT.
  eapply rel_le; [exact HU|apply (rel_trans u HU 4 ((m + 1) * INR n) _ (x' ^ n)); auto; try nra|lra].
  apply rel_pow; auto. nra.
Qed.
(** ** The radius *)
Lemma scaled_near q o s : s <> 0 -> rel 3 (fl (fl (q - o) / s)) ((q - o) / s).
Proof.
  intros Ns. assert (H0 : rel 1 (fl (q - o)) (q - o)) by (unfold relerr; rewrite Rmult_1_l; apply HA).
  eapply rel_le; [exact HU|apply rel_fl; [|apply (rel_mul_r u 1); exact H0]; lra|lra].
Qed.
Lemma norm_near p P : rel 3 (c1 p) (c1 P) -> rel 3 (c2 p) (c2 P) ->
  rel 13 (f_norm2 T p) (sqrt (Rsqr (c1 P) + Rsqr (c2 P))).
Proof.
  intros H1 H2. unfold f_norm2.
  assert (S : forall x' x, rel 3 x' x -> rel 9 (fl (x' * x')) (Rsqr x)).
  { intros x' x H. eapply rel_le; [exact HU|apply (rel_fl 7); [lra|]|lra]. unfold Rsqr.
    eapply rel_le; [exact HU|apply (rel_mul u HU 3 3); auto; lra|lra]. }
  pose proof (S _ _ H1) as S1. pose proof (S _ _ H2) as S2. pose proof (Rle_0_sqr (c1 P)). pose proof (Rle_0_sqr (c2 P)).
  assert (S3 : rel 11 (fl (fl (c1 p * c1 p) + fl (c2 p * c2 p))) (Rsqr (c1 P) + Rsqr (c2 P))).
  { eapply rel_le; [exact HU|apply (rel_fl 9); [lra|]|lra]. unfold relerr in *. rewrite (Rabs_right (Rsqr (c1 P))) in S1 by lra. rewrite (Rabs_right (Rsqr (c2 P))) in S2 by lra. rewrite (Rabs_right (_ + _)) by lra.
    match goal with |- Rabs (?a + ?b - (?c + ?d)) <= _ => replace (a + b - (c + d)) with ((a - c) + (b - d)) by ring end.
    eapply Rle_trans; [apply Rabs_triang|]. lra. }
  set (w := fl (fl (c1 p * c1 p) + fl (c2 p * c2 p))) in *. assert (W0 : 0 <= w) by (refine (rel_nonneg u 11 w _ _ _ S3); lra).
  pose proof (rel_sqrt u HU 11 w (Rsqr (c1 P) + Rsqr (c2 P)) ltac:(lra) W0 ltac:(lra) S3) as S4.
  destruct HT as ((_&_&HS&_)&_). specialize (HS w W0).
  assert (S5 : rel 1 (g_sqrt G w) (sqrt w)) by (unfold relerr; rewrite Rmult_1_l, (Rabs_right (sqrt w)) by (apply Rle_ge, sqrt_pos); exact HS).
  eapply rel_le; [exact HU|apply (rel_trans u HU 1 11 _ (sqrt w)); auto; lra|lra].
Qed.
(** ** The pixel, for any radius map *)
Lemma coordinate_near_lens p P r' r v' v s o S : rel 3 p P -> rel 13 r' r -> 0 < r -> within 120 (r * S) v' v ->
  near (u * (150 * (Rabs (P * s) * S) + Rabs (P / r * v * s + o))) (fl (fl (fl (fl (p / r') * v') * s) + o)) (P / r * v * s + o).
Proof.
  intros H1 H2 Hr HV.
  assert (D1 : rel 20 (fl (p / r')) (P / r)).
  { eapply rel_le; [exact HU|apply (rel_fl 18); [lra|]|lra]. eapply rel_le; [exact HU|apply (rel_div u HU 3 13); auto; lra|lra]. }
  assert (D2 : within 143 (Rabs (P / r) * (r * S)) (fl (fl (p / r') * v')) (P / r * v)).
  { apply (within_up u HU (141 + 2)); [apply within_fl; [lra|]|lra].
    apply (within_up u HU (20 + 120 + 1)); [apply (within_mul u HU); try lra; [apply within_rel; exact D1|exact HV]|lra]. }
  assert (D3 : within 146 (Rabs (P / r) * (r * S) * Rabs s) (fl (fl (fl (p / r') * v') * s)) (P / r * v * s)).
  { apply (within_up u HU (144 + 2)); [apply within_fl; [lra|]|lra].
    apply (within_up u HU (143 + 0 + 1)); [apply (within_mul u HU); try lra; [exact D2|apply within_rel, rel_refl]|lra]. }
  replace (Rabs (P / r) * (r * S) * Rabs s) with (Rabs (P * s) * S) in D3.
  2: { unfold Rdiv. rewrite !Rabs_mult, (Rabs_inv r), (Rabs_right r) by lra. field. lra. }
  destruct D3 as (D3&B3). set (x := P / r * v * s) in *. set (x' := fl (fl (fl (p / r') * v') * s)) in *. set (K := Rabs (P * s) * S) in *.
  pose proof (fl_near u A HA (x' + o)) as F. unfold near in *. pose proof (Rabs_pos x) as Px.
  assert (X : Rabs (x' + o) <= Rabs (x + o) + 146 * u * K).
  { replace (x' + o) with ((x + o) + (x' - x)) by ring. eapply Rle_trans; [apply Rabs_triang|]. lra. }
  replace (fl (x' + o) - (x + o)) with ((fl (x' + o) - (x' + o)) + (x' - x)) by ring. eapply Rle_trans; [apply Rabs_triang|].
  assert (u * Rabs (x' + o) <= u * (Rabs (x + o) + 146 * u * K)) by (apply Rmult_le_compat_l; lra).
  assert (146 * u * K <= 4 * K) by nra. nra.
Qed.
(** ** The radius maps *)
Lemma term_near k r' r n m : rel 13 r' r -> 14 * INR n + 7 <= m -> m <= 100 -> within m (Rabs k * Rabs (r ^ n)) (fl (k * l_pow T r' n)) (k * r ^ n).
Proof.
  intros H Hm Hm2. pose proof (pos_INR n). rewrite <- Rabs_mult. apply within_rel.
  eapply rel_le; [exact HU|apply (rel_fl (14 * INR n + 5)); [lra|]|lra]. apply rel_mul_l.
  eapply rel_le; [exact HU|apply (rel_power 13); auto; try lra; nra|lra].
Qed.
Definition brown_size (k1 k2 k3 r : R) : R := 1 + Rabs k1 * r ^ 2 + Rabs k2 * r ^ 4 + Rabs k3 * r ^ 6.
Lemma brown_near k1 k2 k3 r' r : rel 13 r' r -> 0 < r -> within 120 (r * brown_size k1 k2 k3 r) (f_brown T k1 k2 k3 r') (brownR k1 k2 k3 r).
Proof.
  intros H Hr. unfold f_brown.
  assert (PW : forall n, Rabs (r ^ n) = r ^ n) by (intros n; apply Rabs_right, Rle_ge, pow_le; lra).
  assert (T1 : within 91 (Rabs k1 * r ^ 2) (fl (k1 * l_pow T r' 2)) (k1 * r ^ 2)) by (rewrite <- (PW 2%nat) at 1; apply term_near; auto; cbn [INR]; lra).
  assert (T2 : within 93 (Rabs k2 * r ^ 4) (fl (k2 * l_pow T r' 4)) (k2 * r ^ 4)) by (rewrite <- (PW 4%nat) at 1; apply term_near; auto; cbn [INR]; lra).
  assert (T3 : within 95 (Rabs k3 * r ^ 6) (fl (k3 * l_pow T r' 6)) (k3 * r ^ 6)) by (rewrite <- (PW 6%nat) at 1; apply term_near; auto; cbn [INR]; lra).
  assert (T0 : within 91 1 1 1) by (split; [rewrite Rminus_diag_eq, Rabs_R0 by reflexivity|rewrite Rabs_R1]; lra).
  pose proof (within_fl 91 _ _ _ ltac:(lra) (within_add u _ _ _ _ _ _ _ T0 T1)) as A1. replace (91 + 2) with 93 in A1 by lra.
  pose proof (within_fl 93 _ _ _ ltac:(lra) (within_add u _ _ _ _ _ _ _ A1 T2)) as A2. replace (93 + 2) with 95 in A2 by lra.
  pose proof (within_fl 95 _ _ _ ltac:(lra) (within_add u _ _ _ _ _ _ _ A2 T3)) as A3.
  replace (brownR k1 k2 k3 r) with (r * (1 + k1 * r ^ 2 + k2 * r ^ 4 + k3 * r ^ 6)) by (unfold brownR; ring).
  apply (within_up u HU (111 + 2)); [apply within_fl; [lra|]|lra].
  assert (R0 : within 13 r r' r) by (pose proof (within_rel u _ _ _ H) as W; rewrite (Rabs_right r) in W by lra; exact W).
  apply (within_up u HU (13 + 97 + 1)); [apply (within_mul u HU); try lra; [exact R0|]|lra].
  apply (within_up u HU (95 + 2)); [exact A3|lra].
Qed.
Definition abc_size (a b c r : R) : R := 1 + Rabs a + Rabs b + Rabs c + Rabs c * r + Rabs b * r ^ 2 + Rabs a * r ^ 3.
Lemma abc_near a b c r' r : rel 13 r' r -> 0 < r -> within 120 (r * abc_size a b c r) (f_abc T a b c r')
  ((1 - a - b - c) * r + c * r ^ 2 + b * r ^ 3 + a * r ^ 4).
Proof.
  intros H Hr. unfold f_abc, f_abc_d.
  assert (PW : forall n, Rabs (r ^ n) = r ^ n) by (intros n; apply Rabs_right, Rle_ge, pow_le; lra).
  assert (C : forall m x, 0 <= m -> within m (Rabs x) x x) by (intros m x Hm; split; [rewrite Rminus_diag_eq, Rabs_R0 by reflexivity; repeat apply Rmult_le_pos; try apply Rabs_pos; lra|lra]).
  assert (N : forall m x, 0 <= m -> within m (Rabs x) (- x) (- x)) by (intros m x Hm; rewrite <- (Rabs_Ropp x); apply C; exact Hm).
  assert (T0 : within 0 1 1 1) by (split; [rewrite Rminus_diag_eq, Rabs_R0 by reflexivity|rewrite Rabs_R1]; lra).
  pose proof (within_fl 0 _ _ _ ltac:(lra) (within_add u _ _ _ _ _ _ _ T0 (N 0 a ltac:(lra)))) as A1.
  pose proof (within_fl (0 + 2) _ _ _ ltac:(lra) (within_add u _ _ _ _ _ _ _ A1 (N (0 + 2) b ltac:(lra)))) as A2.
  pose proof (within_fl (0 + 2 + 2) _ _ _ ltac:(lra) (within_add u _ _ _ _ _ _ _ A2 (N (0 + 2 + 2) c ltac:(lra)))) as A3.
  assert (R0 : within 13 r r' r) by (pose proof (within_rel u _ _ _ H) as W; rewrite (Rabs_right r) in W by lra; exact W).
  pose proof (within_fl (0 + 2 + 2 + 2 + 13 + 1) _ _ _ ltac:(lra) (within_mul u HU (0 + 2 + 2 + 2) 13 _ _ _ _ _ _ ltac:(lra) ltac:(lra) ltac:(lra) A3 R0)) as A4.
  set (m := 0 + 2 + 2 + 2 + 13 + 1 + 2) in *.
  assert (T2 : within 91 (Rabs c * r ^ 2) (fl (c * l_pow T r' 2)) (c * r ^ 2)) by (rewrite <- (PW 2%nat) at 1; apply term_near; auto; cbn [INR]; lra).
  assert (T3 : within 93 (Rabs b * r ^ 3) (fl (b * l_pow T r' 3)) (b * r ^ 3)) by (rewrite <- (PW 3%nat) at 1; apply term_near; auto; cbn [INR]; lra).
  assert (T4 : within 95 (Rabs a * r ^ 4) (fl (a * l_pow T r' 4)) (a * r ^ 4)) by (rewrite <- (PW 4%nat) at 1; apply term_near; auto; cbn [INR]; lra).
  assert (A4' : within 91 ((1 + Rabs a + Rabs b + Rabs c) * r) (fl (fl (fl (fl (1 - a) - b) - c) * r')) ((1 - a - b - c) * r)).
  { eapply within_le; [exact HU|exact A4|unfold m; lra|lra]. }
  pose proof (within_fl 91 _ _ _ ltac:(lra) (within_add u _ _ _ _ _ _ _ A4' T2)) as A5. replace (91 + 2) with 93 in A5 by lra.
  pose proof (within_fl 93 _ _ _ ltac:(lra) (within_add u _ _ _ _ _ _ _ A5 T3)) as A6. replace (93 + 2) with 95 in A6 by lra.
  pose proof (within_fl 95 _ _ _ ltac:(lra) (within_add u _ _ _ _ _ _ _ A6 T4)) as A7.
  eapply within_le; [exact HU|exact A7|lra|]. unfold abc_size. right. ring.
Qed.
(** ** The map *)
Lemma map_near L Q conv' conv S : s_x L <> 0 -> s_y L <> 0 -> 0 < radius L Q ->
  (forall r', rel 13 r' (radius L Q) -> within 120 (radius L Q * S) (conv' r') conv) ->
  let Y := radial L (conv / radius L Q) Q in let Y' := f_lens_map T (V2 (o_x L) (o_y L)) (V2 (s_x L) (s_y L)) conv' Q in
  near (u * (150 * (Rabs (c1 Q - o_x L) * S) + Rabs (c1 Y))) (c1 Y') (c1 Y) /\
  near (u * (150 * (Rabs (c2 Q - o_y L) * S) + Rabs (c2 Y))) (c2 Y') (c2 Y).
Proof.
  intros NX NY Hr HV Y Y'.
  pose proof (scaled_near (c1 Q) (o_x L) (s_x L) NX) as P1. pose proof (scaled_near (c2 Q) (o_y L) (s_y L) NY) as P2.
  pose proof (norm_near (V2 _ _) (V2 _ _) P1 P2) as HN. cbn [c1 c2] in HN. fold (radius L Q) in HN.
  specialize (HV _ HN).
  pose proof (coordinate_near_lens _ _ _ _ _ _ (s_x L) (o_x L) S P1 HN Hr HV) as E1.
  pose proof (coordinate_near_lens _ _ _ _ _ _ (s_y L) (o_y L) S P2 HN Hr HV) as E2.
  replace ((c1 Q - o_x L) / s_x L / radius L Q * conv * s_x L + o_x L) with (c1 Y) in E1 by (unfold Y, radial; cbn [c1]; field; split; lra || auto).
  replace ((c2 Q - o_y L) / s_y L / radius L Q * conv * s_y L + o_y L) with (c2 Y) in E2 by (unfold Y, radial; cbn [c2]; field; split; lra || auto).
  replace ((c1 Q - o_x L) / s_x L * s_x L) with (c1 Q - o_x L) in E1 by (field; auto).
  replace ((c2 Q - o_y L) / s_y L * s_y L) with (c2 Q - o_y L) in E2 by (field; auto).
  split; [exact E1|exact E2].
Qed.
End Lens.

(** ** C88 *)
(** [Y] is what distortedFromImage of the exact model computes; the same operations with rounding give [Y'].  The
    error is [u] times 150 times the distance from the centre times the sum of the absolute values of the terms of the
    polynomial, and the pixel itself. *)
Definition lens_error (u : R) (L : rlens) (S : R) (Q Y Y' : v2 R) : Prop :=
  Rabs (c1 Y' - c1 Y) <= u * (150 * (Rabs (c1 Q - o_x L) * S) + Rabs (c1 Y)) /\
  Rabs (c2 Y' - c2 Y) <= u * (150 * (Rabs (c2 Q - o_y L) * S) + Rabs (c2 Y)).
Theorem C88_brown : forall u T spline k1 k2 k3 K1 K2 K3 p r q Q, accurate_lens u T ->
  rep k1 K1 -> rep k2 K2 -> rep k3 K3 -> rep_proj p r -> foc_ok r -> rep2 q Q -> 0 < radius (brown_frame r) Q ->
  exists Y, rep2 (distortedFromImage (brown_lens spline k1 k2 k3 p) q) Y /\
    lens_error u (brown_frame r) (brown_size K1 K2 K3 (radius (brown_frame r) Q)) Q Y
      (f_lens_map T (V2 (center_x r) (center_y r)) (V2 (f_x r) (f_y r)) (f_brown T K1 K2 K3) Q).
Proof.
  intros u T spline k1 k2 k3 K1 K2 K3 p r q Q HT H1 H2 H3 Hp Hf Hq Hr.
  pose proof (rep_brown_lens spline k1 k2 k3 p r Hp Hf) as HL.
  eexists. split.
  - apply (C18_radial _ _ q Q (brownR K1 K2 K3 (radius (brown_frame r) Q)) HL Hq Hr). intros x Hx. apply rep_brown; auto.
  - apply (map_near u T HT (brown_frame r) Q (f_brown T K1 K2 K3)); auto; try apply Hf.
    intros r' H. apply brown_near; auto.
Qed.
Print Assumptions C88_brown.

Theorem C88_abc : forall u T spline a b c Ka Kb Kc p r q Q, accurate_lens u T ->
  rep a Ka -> rep b Kb -> rep c Kc -> rep_proj p r -> 0 < im_width r -> 0 < im_height r -> rep2 q Q -> 0 < radius (abc_frame r) Q ->
  let s := Rmin (im_width r) (im_height r) / 2 in
  exists Y, rep2 (distortedFromImage (abc_lens spline a b c p) q) Y /\
    lens_error u (abc_frame r) (abc_size Ka Kb Kc (radius (abc_frame r) Q)) Q Y
      (f_lens_map T (V2 (center_x r) (center_y r)) (V2 s s) (f_abc T Ka Kb Kc) Q).
Proof.
  intros u T spline a b c Ka Kb Kc p r q Q HT H1 H2 H3 Hp HW HH Hq Hr s.
  pose proof (rep_abc_lens spline a b c p r Hp HW HH) as HL.
  assert (0 < Rmin (im_width r) (im_height r)) by (apply Rmin_pos; auto).
  eexists. split.
  - apply (C18_radial _ _ q Q (abcR Ka Kb Kc (radius (abc_frame r) Q)) HL Hq Hr). intros x Hx. apply rep_abc; auto.
  - apply (map_near u T HT (abc_frame r) Q (f_abc T Ka Kb Kc)); auto; try (cbn [abc_frame s_x s_y]; lra).
    intros r' H0. apply abc_near; auto.
Qed.
Print Assumptions C88_abc.
(** Undistorting: if the spline of the inverse is evaluated with a relative error of 100 u, so is the pixel; [inv'] is
    the spline as it is computed, for radii computed with rounding. *)
Theorem C88_undistort : forall u T l L q Q rho inv', accurate_lens u T -> rep_lens l L -> rep2 q Q -> 0 < radius L Q -> 0 <= rho ->
  (forall x, rep x (radius L Q) -> rep (l_inv l x) rho) ->
  (forall r', Rabs (r' - radius L Q) <= 13 * u * radius L Q -> Rabs (inv' r' - rho) <= 120 * u * rho) ->
  exists Y, rep2 (imageFromDistorted l q) Y /\
    lens_error u L (rho / radius L Q) Q Y (f_lens_map T (V2 (o_x L) (o_y L)) (V2 (s_x L) (s_y L)) inv' Q).
Proof.
  intros u T l L q Q rho inv' HT HL Hq Hr Hrho A B. eexists. split.
  - apply (C18_radial l L q Q rho HL Hq Hr). exact A.
  - apply (map_near u T HT L Q inv' rho (rho / radius L Q)); try apply HL; auto.
    intros r' H. unfold relerr in H. rewrite (Rabs_right (radius L Q)) in H by lra. split.
    + replace (radius L Q * (rho / radius L Q)) with rho by (field; lra). apply B, H.
    + replace (radius L Q * (rho / radius L Q)) with rho by (field; lra). rewrite Rabs_right; lra.
Qed.
Print Assumptions C88_undistort.
(** In double precision, for coefficients up to 1 and pixels within one focal length of the centre and 10000 pixels:
    less than 2e-9 pixels. *)
Theorem C88_double : forall T spline k1 k2 k3 K1 K2 K3 p r q Q, accurate_lens u53 T ->
  rep k1 K1 -> rep k2 K2 -> rep k3 K3 -> rep_proj p r -> foc_ok r -> rep2 q Q -> 0 < radius (brown_frame r) Q <= 1 ->
  Rabs K1 <= 1 -> Rabs K2 <= 1 -> Rabs K3 <= 1 ->
  Rabs (c1 Q - center_x r) <= 10000 -> Rabs (c2 Q - center_y r) <= 10000 -> Rabs (center_x r) <= 10000 -> Rabs (center_y r) <= 10000 ->
  exists Y, rep2 (distortedFromImage (brown_lens spline k1 k2 k3 p) q) Y /\
    let Y' := f_lens_map T (V2 (center_x r) (center_y r)) (V2 (f_x r) (f_y r)) (f_brown T K1 K2 K3) Q in
    Rabs (c1 Y' - c1 Y) <= 2 / 1000000000 /\ Rabs (c2 Y' - c2 Y) <= 2 / 1000000000.
Proof.
  intros T spline k1 k2 k3 K1 K2 K3 p r q Q HT H1 H2 H3 Hp Hf Hq (Hr&Hr1) B1 B2 B3 Q1 Q2 C1 C2.
  destruct (C88_brown u53 T spline k1 k2 k3 K1 K2 K3 p r q Q HT H1 H2 H3 Hp Hf Hq Hr) as (Y&RY&E1&E2).
  exists Y. split; [exact RY|]. cbv zeta. cbn [brown_frame o_x o_y] in E1, E2.
  set (rr := radius (brown_frame r) Q) in *.
  assert (PW : forall n, 0 <= rr ^ n <= 1).
  { intros n. split; [apply pow_le; lra|]. rewrite <- (pow1 n). apply pow_incr. lra. }
  assert (AP : forall k n, Rabs k <= 1 -> 0 <= Rabs k * rr ^ n <= 1).
  { intros k n Hk. pose proof (Rabs_pos k). specialize (PW n). split; [nra|]. replace 1 with (1 * 1) by ring. apply Rmult_le_compat; lra. }
  assert (S4 : 0 <= brown_size K1 K2 K3 rr <= 4).
  { unfold brown_size. pose proof (AP K1 2%nat B1). pose proof (AP K2 4%nat B2). pose proof (AP K3 6%nat B3). lra. }
  assert (EY : Y = radial (brown_frame r) (brownR K1 K2 K3 rr / rr) Q).
  { pose proof (rep_brown_lens spline k1 k2 k3 p r Hp Hf) as HL.
    assert (RY2 : rep2 (distortedFromImage (brown_lens spline k1 k2 k3 p) q) (radial (brown_frame r) (brownR K1 K2 K3 rr / rr) Q)).
    { apply (C18_radial _ _ q Q (brownR K1 K2 K3 rr) HL Hq Hr). intros x Hx. apply rep_brown; auto. }
    destruct RY as (Y1&Y2), RY2 as (Z1&Z2). apply v2_ext; eapply rep_inj; eauto. }
  assert (LAM : Rabs (brownR K1 K2 K3 rr / rr) <= 4).
  { replace (brownR K1 K2 K3 rr / rr) with (1 + K1 * rr ^ 2 + K2 * rr ^ 4 + K3 * rr ^ 6) by (unfold brownR; field; lra).
    pose proof (AP K1 2%nat B1). pose proof (AP K2 4%nat B2). pose proof (AP K3 6%nat B3).
    assert (M : forall k n, Rabs (k * rr ^ n) = Rabs k * rr ^ n) by (intros k n; rewrite Rabs_mult, (Rabs_right (rr ^ n)); auto; apply Rle_ge, PW).
    eapply Rle_trans; [apply Rabs_triang|]. eapply Rle_trans; [apply Rplus_le_compat_r, Rabs_triang|].
    eapply Rle_trans; [apply Rplus_le_compat_r, Rplus_le_compat_r, Rabs_triang|]. rewrite !M, Rabs_R1. lra. }
  assert (G : forall o d y y', Rabs o <= 10000 -> Rabs d <= 10000 -> y = o + brownR K1 K2 K3 rr / rr * d ->
    Rabs (y' - y) <= u53 * (150 * (Rabs d * brown_size K1 K2 K3 rr) + Rabs y) -> Rabs (y' - y) <= 2 / 1000000000).
  { intros o d y y' Ho Hd Ey E. eapply Rle_trans; [exact E|].
    assert (Y5 : Rabs y <= 50000).
    { rewrite Ey. eapply Rle_trans; [apply Rabs_triang|]. rewrite Rabs_mult.
      assert (Rabs (brownR K1 K2 K3 rr / rr) * Rabs d <= 4 * 10000) by (apply Rmult_le_compat; auto; apply Rabs_pos). lra. }
    assert (Rabs d * brown_size K1 K2 K3 rr <= 10000 * 4) by (apply Rmult_le_compat; auto; try apply Rabs_pos; lra).
    unfold u53. lra. }
  subst Y. split; [apply (G (center_x r) (c1 Q - center_x r))|apply (G (center_y r) (c2 Q - center_y r))]; auto.
Qed.
Print Assumptions C88_double.
(** ** How errors of the pixel are passed on *)
Definition n2 (x y : R) : R := sqrt (x * x + y * y).
Lemma n2_pos x y : 0 <= n2 x y. Proof. apply sqrt_pos. Qed.
Lemma n2_sq x y : n2 x y * n2 x y = x * x + y * y.
Proof. apply sqrt_sqrt. nra. Qed.
Lemma n2_triangle a b c d : n2 (a + c) (b + d) <= n2 a b + n2 c d.
Proof.
  pose proof (n2_pos a b) as P. pose proof (n2_pos c d) as Q. pose proof (n2_sq a b) as S. pose proof (n2_sq c d) as W.
  pose proof (n2_pos (a + c) (b + d)) as PP. pose proof (n2_sq (a + c) (b + d)) as SS.
  set (m := n2 a b) in *. set (n := n2 c d) in *. set (t := n2 (a + c) (b + d)) in *.
  assert (C : a * c + b * d <= m * n).
  { destruct (Rle_dec (a * c + b * d) 0) as [L|L]; [nra|]. apply Rsqr_incr_0_var; [|nra]. unfold Rsqr.
    replace (m * n * (m * n)) with ((a * a + b * b) * (c * c + d * d)) by (rewrite <- S, <- W; ring). pose proof (Rle_0_sqr (a * d - b * c)). unfold Rsqr in *. nra. }
  apply Rsqr_incr_0_var; [|lra]. unfold Rsqr. nra.
Qed.
Lemma n2_scale k a b : n2 (k * a) (k * b) = Rabs k * n2 a b.
Proof.
  unfold n2. replace (k * a * (k * a) + k * b * (k * b)) with (Rsqr k * (a * a + b * b)) by (unfold Rsqr; ring).
  rewrite sqrt_mult; [rewrite sqrt_Rsqr_abs; reflexivity|apply Rle_0_sqr|nra].
Qed.
Lemma n2_diff a b c d : Rabs (n2 a b - n2 c d) <= n2 (a - c) (b - d).
Proof.
  pose proof (n2_triangle (a - c) (b - d) c d) as H1. pose proof (n2_triangle (-1 * (a - c)) (-1 * (b - d)) a b) as H2.
  rewrite n2_scale, Rabs_left in H2 by lra. replace (a - c + c) with a in H1 by ring. replace (b - d + d) with b in H1 by ring.
  replace (-1 * (a - c) + a) with c in H2 by ring. replace (-1 * (b - d) + b) with d in H2 by ring. apply Rabs_le. lra.
Qed.
Lemma pow_lip a b h n : 0 <= a <= h -> 0 <= b <= h -> Rabs (a ^ S n - b ^ S n) <= INR (S n) * h ^ n * Rabs (a - b).
Proof.
  intros Ha Hb. induction n as [|n IH].
  - cbn [pow INR]. rewrite !Rmult_1_r. lra.
  - rewrite S_INR. cbn [pow]. cbn [pow] in IH.
    replace (a * (a * a ^ n) - b * (b * b ^ n)) with (a * (a * a ^ n - b * b ^ n) + (a - b) * (b * b ^ n)) by ring.
    eapply Rle_trans; [apply Rabs_triang|]. rewrite !Rabs_mult, (Rabs_right a), (Rabs_right b) by lra.
    assert (B0 : 0 <= b ^ n <= h ^ n) by (split; [apply pow_le; lra|apply pow_incr; lra]). rewrite (Rabs_right (b ^ n)) by lra.
    assert (H0 : 0 <= h ^ n) by lra. pose proof (Rabs_pos (a - b)) as D. pose proof (pos_INR (S n)) as N0.
    assert (T1 : a * Rabs (a * a ^ n - b * b ^ n) <= h * (INR (S n) * h ^ n * Rabs (a - b))) by (apply Rmult_le_compat; try lra; apply Rabs_pos).
    assert (T2 : b * b ^ n <= h * h ^ n) by (apply Rmult_le_compat; lra).
    assert (T3 : Rabs (a - b) * (b * b ^ n) <= Rabs (a - b) * (h * h ^ n)) by (apply Rmult_le_compat_l; lra). nra.
Qed.
Lemma term_lip a b c d h n : n2 a b <= h -> n2 c d <= h ->
  n2 (a * n2 a b ^ n - c * n2 c d ^ n) (b * n2 a b ^ n - d * n2 c d ^ n) <= INR (S n) * h ^ n * n2 (a - c) (b - d).
Proof.
  intros H1 H2. pose proof (n2_pos a b) as P1. pose proof (n2_pos c d) as P2. pose proof (n2_pos (a - c) (b - d)) as D0.
  pose proof (n2_diff a b c d) as DF.
  replace (a * n2 a b ^ n - c * n2 c d ^ n) with (n2 a b ^ n * (a - c) + (n2 a b ^ n - n2 c d ^ n) * c) by ring.
  replace (b * n2 a b ^ n - d * n2 c d ^ n) with (n2 a b ^ n * (b - d) + (n2 a b ^ n - n2 c d ^ n) * d) by ring.
  eapply Rle_trans; [apply n2_triangle|]. rewrite !n2_scale.
  assert (B0 : 0 <= n2 a b ^ n <= h ^ n) by (split; [apply pow_le; lra|apply pow_incr; lra]). rewrite (Rabs_right (n2 a b ^ n)) by lra.
  destruct n as [|n].
  - cbn [pow INR]. replace (1 - 1) with 0 by ring. rewrite Rabs_R0. lra.
  - pose proof (pow_lip (n2 a b) (n2 c d) h n ltac:(lra) ltac:(lra)) as PL.
    assert (H0 : 0 <= h ^ n) by (apply pow_le; lra). pose proof (pos_INR (S n)) as N0. rewrite (S_INR (S n)).
    assert (T1 : Rabs (n2 a b ^ S n - n2 c d ^ S n) * n2 c d <= INR (S n) * h ^ n * n2 (a - c) (b - d) * h).
    { apply Rmult_le_compat; try lra; [apply Rabs_pos|]. eapply Rle_trans; [exact PL|]. apply Rmult_le_compat_l; [nra|exact DF]. }
    assert (T2 : n2 a b ^ S n * n2 (a - c) (b - d) <= h ^ S n * n2 (a - c) (b - d)) by (apply Rmult_le_compat_r; lra).
    cbn [pow] in *. nra.
Qed.
(** The distance of two pixels in units of the lens *)
Definition lens_dist (L : rlens) (Q Q' : v2 R) : R := n2 ((c1 Q - c1 Q') / s_x L) ((c2 Q - c2 Q') / s_y L).
Lemma radius_n2 L Q : radius L Q = n2 ((c1 Q - o_x L) / s_x L) ((c2 Q - o_y L) / s_y L). Proof. reflexivity. Qed.
(** Two pixels of the camera without lens that are within [h] of the centre are shown at most this much further apart. *)
Theorem C88_continuous : forall spline k1 k2 k3 K1 K2 K3 p r q Q q' Q' h, rep k1 K1 -> rep k2 K2 -> rep k3 K3 -> rep_proj p r -> foc_ok r ->
  rep2 q Q -> rep2 q' Q' -> 0 < radius (brown_frame r) Q <= h -> 0 < radius (brown_frame r) Q' <= h ->
  exists Y Y', rep2 (distortedFromImage (brown_lens spline k1 k2 k3 p) q) Y /\ rep2 (distortedFromImage (brown_lens spline k1 k2 k3 p) q') Y' /\
    lens_dist (brown_frame r) Y Y' <=
      (1 + 3 * Rabs K1 * h ^ 2 + 5 * Rabs K2 * h ^ 4 + 7 * Rabs K3 * h ^ 6) * lens_dist (brown_frame r) Q Q'.
Proof.
  intros spline k1 k2 k3 K1 K2 K3 p r q Q q' Q' h H1 H2 H3 Hp Hf Hq Hq' HQ HQ'.
  pose proof (rep_brown_lens spline k1 k2 k3 p r Hp Hf) as HL. set (L := brown_frame r) in *.
  assert (NX : s_x L <> 0) by apply Hf. assert (NY : s_y L <> 0) by apply Hf.
  exists (radial L (brownR K1 K2 K3 (radius L Q) / radius L Q) Q), (radial L (brownR K1 K2 K3 (radius L Q') / radius L Q') Q').
  split; [apply (C18_radial _ _ q Q (brownR K1 K2 K3 (radius L Q)) HL Hq ltac:(lra)); intros x Hx; apply rep_brown; auto|].
  split; [apply (C18_radial _ _ q' Q' (brownR K1 K2 K3 (radius L Q')) HL Hq' ltac:(lra)); intros x Hx; apply rep_brown; auto|].
  set (s := radius L Q) in *. set (t := radius L Q') in *.
  set (a := (c1 Q - o_x L) / s_x L). set (b := (c2 Q - o_y L) / s_y L). set (c := (c1 Q' - o_x L) / s_x L). set (d := (c2 Q' - o_y L) / s_y L).
  assert (Es : s = n2 a b) by reflexivity. assert (Et : t = n2 c d) by reflexivity.
  assert (ED : lens_dist L Q Q' = n2 (a - c) (b - d)) by (unfold lens_dist, a, b, c, d; f_equal; field; auto).
  assert (EY : lens_dist L (radial L (brownR K1 K2 K3 s / s) Q) (radial L (brownR K1 K2 K3 t / t) Q') =
    n2 ((a - c) + K1 * (a * s ^ 2 - c * t ^ 2) + K2 * (a * s ^ 4 - c * t ^ 4) + K3 * (a * s ^ 6 - c * t ^ 6))
       ((b - d) + K1 * (b * s ^ 2 - d * t ^ 2) + K2 * (b * s ^ 4 - d * t ^ 4) + K3 * (b * s ^ 6 - d * t ^ 6))).
  { unfold lens_dist, radial, brownR, a, b, c, d; cbn [c1 c2]. f_equal; field; repeat split; auto; lra. }
  rewrite EY, ED. clear EY ED.
  pose proof (term_lip a b c d h 2 ltac:(lra) ltac:(lra)) as L2. pose proof (term_lip a b c d h 4 ltac:(lra) ltac:(lra)) as L4.
  pose proof (term_lip a b c d h 6 ltac:(lra) ltac:(lra)) as L6. rewrite <- Es, <- Et in L2, L4, L6.
  replace (INR 3) with 3 in L2 by (simpl; lra). replace (INR 5) with 5 in L4 by (simpl; lra). replace (INR 7) with 7 in L6 by (simpl; lra).
  eapply Rle_trans; [apply n2_triangle|]. eapply Rle_trans; [apply Rplus_le_compat_r, n2_triangle|].
  eapply Rle_trans; [apply Rplus_le_compat_r, Rplus_le_compat_r, n2_triangle|]. rewrite !n2_scale.
  pose proof (Rmult_le_compat_l _ _ _ (Rabs_pos K1) L2). pose proof (Rmult_le_compat_l _ _ _ (Rabs_pos K2) L4).
  pose proof (Rmult_le_compat_l _ _ _ (Rabs_pos K3) L6). lra.
Qed.
Print Assumptions C88_continuous.

(** ** From a point to its pixel *)
(** A computed picture of a point: the pixel of the camera without lens, within its error (C65_image), goes through the
    computed distortion. *)
Definition brown_slope (k1 k2 k3 h : R) : R := 1 + 3 * Rabs k1 * h ^ 2 + 5 * Rabs k2 * h ^ 4 + 7 * Rabs k3 * h ^ 6.
Lemma n2_le x y a b : Rabs x <= a -> Rabs y <= b -> n2 x y <= a + b.
Proof.
  intros HA HB. pose proof (Rabs_pos x). pose proof (Rabs_pos y). apply Rsqr_incr_0_var; [|lra]. unfold Rsqr. rewrite n2_sq.
  rewrite <- (Rabs_right (x * x)), <- (Rabs_right (y * y)) by nra. rewrite !Rabs_mult. nra.
Qed.
Lemma n2_fst x y : Rabs x <= n2 x y.
Proof. rewrite <- sqrt_Rsqr_abs. apply sqrt_le_1_alt. unfold Rsqr. nra. Qed.
Lemma n2_snd x y : Rabs y <= n2 x y.
Proof. rewrite <- sqrt_Rsqr_abs. apply sqrt_le_1_alt. unfold Rsqr. nra. Qed.
Lemma size_mono k1 k2 k3 a b : 0 <= a <= b -> brown_size k1 k2 k3 a <= brown_size k1 k2 k3 b.
Proof.
  intros H. unfold brown_size. pose proof (pow_incr a b 2 H). pose proof (pow_incr a b 4 H). pose proof (pow_incr a b 6 H).
  pose proof (Rmult_le_compat_l _ _ _ (Rabs_pos k1) H0). pose proof (Rmult_le_compat_l _ _ _ (Rabs_pos k2) H1).
  pose proof (Rmult_le_compat_l _ _ _ (Rabs_pos k3) H2). lra.
Qed.
Lemma brown_ratio k1 k2 k3 r : 0 < r -> Rabs (brownR k1 k2 k3 r / r) <= brown_size k1 k2 k3 r.
Proof.
  intros H. unfold brownR, brown_size. replace (r * _ / r) with (1 + k1 * r ^ 2 + k2 * r ^ 4 + k3 * r ^ 6) by (field; lra).
  eapply Rle_trans; [apply Rabs_triang|]. eapply Rle_trans; [apply Rplus_le_compat_r, Rabs_triang|].
  eapply Rle_trans; [apply Rplus_le_compat_r, Rplus_le_compat_r, Rabs_triang|]. rewrite Rabs_R1, !Rabs_mult.
  rewrite (Rabs_right (r ^ 2)), (Rabs_right (r ^ 4)), (Rabs_right (r ^ 6)); try (apply Rle_ge, pow_le; lra). lra.
Qed.
Theorem C88_image : forall u T spline k1 k2 k3 K1 K2 K3 pr c r o p P X S hide h, accurate_lens u T ->
  lens_cam c Rectilinear r o (brown_lens spline k1 k2 k3 pr) -> rep_proj pr r -> rep k1 K1 -> rep k2 K2 -> rep k3 K3 -> one_turn o ->
  rep3 p P -> shown_at Rectilinear r o P X -> 0 < radius (brown_frame r) X <= h -> 0 <= S -> below3 S (rv_sub P (opos o)) ->
  let z := cz (cam_coords o P) in z <= - (2 * tinyR) -> 6400 * u * S <= - z ->
  let e1 := u * pixel_error (f_x r) (c1 X) (center_x r) S z in
  let e2 := u * pixel_error (f_y r) (c2 X) (center_y r) S z in
  exists q, f_imageFromSpace (g_ops (l_ops T)) r o P hide = Some q /\ near e1 (c1 q) (c1 X) /\ near e2 (c2 q) (c2 X) /\
    (0 < radius (brown_frame r) q <= h -> exists Y, rep2 (imageFromSpace c p hide) Y /\
      let Y' := f_lens_map T (V2 (center_x r) (center_y r)) (V2 (f_x r) (f_y r)) (f_brown T K1 K2 K3) q in
      let e := brown_slope K1 K2 K3 h * (e1 / Rabs (f_x r) + e2 / Rabs (f_y r)) in
      Rabs (c1 Y' - c1 Y) <= u * (151 * (Rabs (c1 q - center_x r) * brown_size K1 K2 K3 h) + Rabs (center_x r)) + Rabs (f_x r) * e /\
      Rabs (c2 Y' - c2 Y) <= u * (151 * (Rabs (c2 q - center_y r) * brown_size K1 K2 K3 h) + Rabs (center_y r)) + Rabs (f_y r) * e).
Proof.
  intros u T spline k1 k2 k3 K1 K2 K3 pr c r o p P X S hide h HT HC Hpr H1 H2 H3 HO Hp HX HR HS HB z Hz Hu e1 e2.
  assert (U : 0 <= u) by (destruct HT as ((((?&?)&_)&_)&_); lra).
  destruct HC as (p0&m&Ec&Hp0&Hf&on&Hon&Em).
  set (c0 := plain_camera Rectilinear p0 m).
  assert (HC0 : plain_cam c0 Rectilinear r o) by (exists p0, m; split; [reflexivity|]; split; [exact Hp0|]; split; [exact Hf|]; eauto).
  destruct (C65_image u (g_ops (l_ops T)) c0 r o p P S hide (proj1 (proj1 HT)) HC0 HO Hp HS HB Hz Hu) as (q&Q&Eq&RQ&N1&N2).
  pose proof tinyR_pos as TP.
  assert (RX : rep2 (imageFromSpace c0 p hide) X).
  { apply (image_dir c0 Rectilinear r o p P X hide HC0 Hp); [|apply HX|destruct HX as (_&_&t&Ht&E); exists t; auto].
    split; [rewrite Rabs_left; fold z; lra|change (z < 0); lra]. }
  assert (EQ : Q = X) by (destruct RQ as (A1&A2), RX as (B1&B2); destruct Q, X; cbn in *; f_equal; eapply rep_inj; eauto). subst Q.
  exists q. split; [exact Eq|]. split; [exact N1|]. split; [exact N2|]. intros Hq. set (L := brown_frame r) in *.
  destruct (C88_continuous spline k1 k2 k3 K1 K2 K3 pr r (fin2 q) q (imageFromSpace c0 p hide) X h H1 H2 H3 Hpr Hf (rep2_fin _) RX Hq HR)
    as (Y0&Y&R0&RY&LD).
  destruct (C88_brown u T spline k1 k2 k3 K1 K2 K3 pr r (fin2 q) q HT H1 H2 H3 Hpr Hf (rep2_fin _) ltac:(apply Hq)) as (Y1&RY1&E1&E2).
  assert (EY : Y1 = radial L (brownR K1 K2 K3 (radius L q) / radius L q) q).
  { pose proof (C18_radial _ L (fin2 q) q (brownR K1 K2 K3 (radius L q)) (rep_brown_lens spline k1 k2 k3 pr r Hpr Hf) (rep2_fin _) ltac:(apply Hq)) as (W&_).
    specialize (W ltac:(intros x Hx; apply rep_brown; auto)).
    destruct W as (A1&A2), RY1 as (B1&B2). destruct Y1, (radial L _ _); cbn in *; f_equal; eapply rep_inj; eauto. }
  assert (EY0 : Y0 = Y1) by (destruct R0 as (A1&A2), RY1 as (B1&B2); destruct Y0, Y1; cbn in *; f_equal; eapply rep_inj; eauto). subst Y0.
  exists Y. split; [rewrite Ec; exact RY|]. fold (brown_slope K1 K2 K3 h) in LD.
  assert (NX : f_x r <> 0) by apply Hf. assert (NY : f_y r <> 0) by apply Hf.
  set (Y' := f_lens_map T (V2 (center_x r) (center_y r)) (V2 (f_x r) (f_y r)) (f_brown T K1 K2 K3) q) in *.
  assert (SL : 0 <= brown_slope K1 K2 K3 h).
  { unfold brown_slope. assert (0 <= h) by lra. pose proof (pow_le h 2 H). pose proof (pow_le h 4 H). pose proof (pow_le h 6 H).
    pose proof (Rmult_le_pos _ _ (Rabs_pos K1) H0). pose proof (Rmult_le_pos _ _ (Rabs_pos K2) H4). pose proof (Rmult_le_pos _ _ (Rabs_pos K3) H5). lra. }
  assert (DQ : lens_dist L q X <= e1 / Rabs (f_x r) + e2 / Rabs (f_y r)).
  { unfold lens_dist. apply n2_le; cbn [L brown_frame s_x s_y]; unfold Rdiv; rewrite Rabs_mult, Rabs_inv.
    - apply Rmult_le_compat_r; [left; apply Rinv_0_lt_compat, Rabs_pos_lt; auto|exact N1].
    - apply Rmult_le_compat_r; [left; apply Rinv_0_lt_compat, Rabs_pos_lt; auto|exact N2]. }
  assert (DY : lens_dist L Y1 Y <= brown_slope K1 K2 K3 h * (e1 / Rabs (f_x r) + e2 / Rabs (f_y r))).
  { eapply Rle_trans; [exact LD|]. apply Rmult_le_compat_l; auto. }
  set (e := brown_slope K1 K2 K3 h * (e1 / Rabs (f_x r) + e2 / Rabs (f_y r))) in *.
  assert (SZ : brown_size K1 K2 K3 (radius L q) <= brown_size K1 K2 K3 h) by (apply size_mono; lra).
  pose proof (brown_ratio K1 K2 K3 (radius L q) ltac:(apply Hq)) as BR.
  assert (ONE : forall f x y y1 y' o', f <> 0 -> Rabs ((y1 - y) / f) <= e -> y1 = o' + brownR K1 K2 K3 (radius L q) / radius L q * (x - o') ->
     Rabs (y' - y1) <= u * (150 * (Rabs (x - o') * brown_size K1 K2 K3 (radius L q)) + Rabs y1) ->
     Rabs (y' - y) <= u * (151 * (Rabs (x - o') * brown_size K1 K2 K3 h) + Rabs o') + Rabs f * e).
  { intros f x y y1 y' o' Hf0 D E B. pose proof (Rabs_pos (x - o')) as AP.
    assert (B1 : Rabs (y1 - y) <= Rabs f * e).
    { replace (y1 - y) with (f * ((y1 - y) / f)) by (field; auto). rewrite Rabs_mult. apply Rmult_le_compat_l; [apply Rabs_pos|exact D]. }
    pose proof (Rmult_le_compat_l _ _ _ AP SZ) as B2.
    assert (B3 : Rabs y1 <= Rabs o' + Rabs (x - o') * brown_size K1 K2 K3 h).
    { rewrite E. eapply Rle_trans; [apply Rabs_triang|]. rewrite Rabs_mult. apply Rplus_le_compat_l.
      rewrite Rmult_comm. apply Rmult_le_compat_l; lra. }
    replace (y' - y) with ((y' - y1) + (y1 - y)) by ring. eapply Rle_trans; [apply Rabs_triang|]. apply Rplus_le_compat; [|exact B1].
    eapply Rle_trans; [exact B|]. apply Rmult_le_compat_l; lra. }
  split.
  - apply (ONE (f_x r) (c1 q) (c1 Y) (c1 Y1)); auto; [eapply Rle_trans; [apply (n2_fst _ ((c2 Y1 - c2 Y) / f_y r))|exact DY]|].
    rewrite EY. unfold radial, L; cbn. ring.
  - apply (ONE (f_y r) (c2 q) (c2 Y) (c2 Y1)); auto; [eapply Rle_trans; [apply (n2_snd ((c1 Y1 - c1 Y) / f_x r))|exact DY]|].
    rewrite EY. unfold radial, L; cbn. ring.
Qed.
Print Assumptions C88_image.

(** ** The limits *)
(** With rounding, a lens with all coefficients zero is not the identity. *)
Definition l_away (u : R) : lfloats :=
  LFloats (GFloats (Floats (fun x => x * (1 + u)) rad sin cos rdot) sqrt asin
    (fun y x => match toR (natan2 (Fin y) (Fin x)) with Some t => t | None => 0 end) (fun x => x * (180 / PI))) pow.
Lemma away_accurate u : 0 <= u <= / 1000000 -> accurate_lens u (l_away u).
Proof.
  intros U. assert (Z : forall x y, 0 <= y -> Rabs (x - x) <= y) by (intros; rewrite Rminus_diag_eq, Rabs_R0; auto).
  assert (PP : forall x, 0 <= u * Rabs x) by (intros; apply Rmult_le_pos; [lra|apply Rabs_pos]).
  split; [|intros x n; cbn [l_away l_pow]; apply Z; pose proof (PP (x ^ n)); lra].
  split; [|split; [|split; [|split; [|split]]]]; cbn [l_away l_ops g_ops g_sqrt g_asin g_atan2 g_deg f_round f_rad f_sin f_cos f_dot].
  - split; [exact U|]. splits; cbn [f_round f_rad f_sin f_cos f_dot]; intros.
    + replace (x * (1 + u) - x) with (u * x) by ring. rewrite Rabs_mult, (Rabs_right u); lra.
    + apply Z. pose proof (PP (rad d)). lra.
    + apply Z. lra.
    + apply Z. lra.
    + apply Z. pose proof (PP (cx a * cx b)). pose proof (PP (cy a * cy b)). pose proof (PP (cz a * cz b)). lra.
  - apply sin_0.
  - intros x H. apply Z. apply Rmult_le_pos; [lra|apply sqrt_pos].
  - intros x H. apply Z. pose proof (PP (asin x)). lra.
  - intros y x H. destruct (atan2_angle y x H) as (th&E&B&E1&E2). exists th. splits; auto; try apply B. rewrite E. apply Z. lra.
  - intros x. apply Z. pose proof (PP (x * (180 / PI))). lra.
Qed.
Theorem C88_identity_refuted : forall u, 0 < u <= / 1000000 -> exists T L Q, accurate_lens u T /\ s_x L <> 0 /\ s_y L <> 0 /\ 0 < radius L Q /\
  c1 (f_lens_map T (V2 (o_x L) (o_y L)) (V2 (s_x L) (s_y L)) (f_brown T 0 0 0) Q) <> c1 Q.
Proof.
  intros u U. exists (l_away u), (RLens 0 0 1 1), (V2 1 0). split; [apply away_accurate; lra|]. cbn [s_x s_y o_x o_y].
  split; [lra|]. split; [lra|]. split.
  - unfold radius; cbn. replace (_ + _) with (Rsqr 1) by (unfold Rsqr; field). rewrite sqrt_Rsqr; lra.
  - unfold f_lens_map, f_brown, f_norm2, l_away. cbn [zip2v map2v c1 c2 l_ops l_pow g_ops g_sqrt f_round].
    set (w := 1 + u). assert (W : 1 < w) by (unfold w; lra).
    replace ((((1 - 0) * w / 1 * w * ((1 - 0) * w / 1 * w) * w + (0 - 0) * w / 1 * w * ((0 - 0) * w / 1 * w) * w) * w)) with (Rsqr (w * w * w)) by (unfold Rsqr; field).
    rewrite sqrt_Rsqr by (assert (0 < w * w) by nra; nra). set (r := w * w * w).
    assert (R0 : 0 < r) by (unfold r; assert (0 < w * w) by nra; nra).
    match goal with |- ?x <> _ => replace x with (w ^ 10) by (field; lra) end.
    assert (1 < w ^ 10) by (apply Rlt_pow_R1; [lra|lia]). lra.
Qed.
Print Assumptions C88_identity_refuted.

(** ** Double precision meets the assumptions *)
Definition ldouble : lfloats := LFloats gdouble (fun x n => round53 (x ^ n)).
Lemma ldouble_accurate : accurate_lens u53 ldouble.
Proof.
  split; [exact gdouble_accurate|]. intros x n. cbn [ldouble l_pow]. eapply Rle_trans; [apply round53_near|].
  pose proof (Rabs_pos (x ^ n)). assert (0 <= u53) by (unfold u53; lra). nra.
Qed.
Example C88_example : exists Y, rep2 (distortedFromImage ex_lens (fin2 (V2 3750 1500))) Y /\
  let Y' := f_lens_map ldouble (V2 2000 1500) (V2 3500 3500) (f_brown ldouble 1 0 0) (V2 3750 1500) in
  Rabs (c1 Y' - c1 Y) <= 2 / 1000000000 /\ Rabs (c2 Y' - c2 Y) <= 2 / 1000000000.
Proof.
  assert (ER : radius (brown_frame ex_r) (V2 3750 1500) = / 2).
  { unfold radius, brown_frame; cbn. replace (_ + _) with (Rsqr (/ 2)) by (unfold Rsqr; field). apply sqrt_Rsqr; lra. }
  apply (C88_double ldouble lookup_spline (Fin 1) (Fin 0) (Fin 0) 1 0 0 (proj_fin ex_r) ex_r); try apply rep_Fin; try (rewrite Rabs_R1); try (rewrite Rabs_R0); try lra.
  - exact ldouble_accurate.
  - repeat split.
  - split; simpl; lra.
  - apply rep2_fin.
  - cbn. rewrite Rabs_right; lra.
  - cbn. rewrite Rminus_diag_eq, Rabs_R0 by reflexivity. lra.
  - cbn. rewrite Rabs_right; lra.
  - cbn. rewrite Rabs_right; lra.
Qed.
Example C88_abc_example : exists Y, rep2 (distortedFromImage (abc_lens lookup_spline (Fin 1) (Fin 2) (Fin 3) (proj_fin ex_r)) (fin2 (V2 3750 1500))) Y /\
  let s := Rmin (im_width ex_r) (im_height ex_r) / 2 in
  lens_error u53 (abc_frame ex_r) (abc_size 1 2 3 (radius (abc_frame ex_r) (V2 3750 1500))) (V2 3750 1500) Y
      (f_lens_map ldouble (V2 2000 1500) (V2 s s) (f_abc ldouble 1 2 3) (V2 3750 1500)).
Proof.
  assert (0 < im_width ex_r /\ 0 < im_height ex_r) as (W&H) by (simpl; lra).
  assert (M : 0 < Rmin (im_width ex_r) (im_height ex_r)) by (apply Rmin_pos; lra).
  apply (C88_abc u53 ldouble lookup_spline (Fin 1) (Fin 2) (Fin 3) 1 2 3 (proj_fin ex_r) ex_r); try apply rep_Fin; auto.
  - exact ldouble_accurate.
  - repeat split.
  - apply rep2_fin.
  - unfold radius. apply sqrt_lt_R0. cbn. set (m := Rmin _ _) in *. unfold Rsqr. apply Rplus_lt_le_0_compat; [|apply Rle_0_sqr].
    apply Rmult_lt_0_compat; apply Rmult_lt_0_compat; try lra; apply Rinv_0_lt_compat; lra.
Qed.
Example C88_continuous_example : exists Y Y', rep2 (distortedFromImage ex_lens (fin2 (V2 3750 1500))) Y /\
  rep2 (distortedFromImage ex_lens (fin2 (V2 3750 1507))) Y' /\ lens_dist (brown_frame ex_r) Y Y' <= (1 + 3 * 1 * 1 ^ 2 + 5 * 0 * 1 ^ 4 + 7 * 0 * 1 ^ 6) * (7 / 3500).
Proof.
  assert (ER : radius (brown_frame ex_r) (V2 3750 1500) = / 2).
  { unfold radius, brown_frame; cbn. replace (_ + _) with (Rsqr (/ 2)) by (unfold Rsqr; field). apply sqrt_Rsqr; lra. }
  assert (ER2 : 0 < radius (brown_frame ex_r) (V2 3750 1507) <= 1).
  { unfold radius, brown_frame; cbn. split; [apply sqrt_lt_R0; unfold Rsqr; lra|]. rewrite <- sqrt_1. apply sqrt_le_1_alt. unfold Rsqr; lra. }
  destruct (C88_continuous lookup_spline (Fin 1) (Fin 0) (Fin 0) 1 0 0 (proj_fin ex_r) ex_r (fin2 (V2 3750 1500)) (V2 3750 1500) (fin2 (V2 3750 1507)) (V2 3750 1507) 1)
    as (Y&Y'&RY&RY'&E); try apply rep_Fin; try apply rep2_fin; try lra; [repeat split|split; simpl; lra|].
  exists Y, Y'. split; [exact RY|]. split; [exact RY'|]. rewrite Rabs_R1, Rabs_R0 in E. eapply Rle_trans; [exact E|]. apply Rmult_le_compat_l; [lra|].
  right. unfold lens_dist, n2; cbn. replace (_ + _) with (Rsqr (7 / 3500)) by (unfold Rsqr; field). apply sqrt_Rsqr; lra.
Qed.
Example C88_undistort_example : exists Y, rep2 (imageFromDistorted ex_lens (fin2 (V2 (2000 + 5 / 8 * 3500) 1500))) Y /\
  lens_error u53 (brown_frame ex_r) (/ 2 / (5 / 8)) (V2 (2000 + 5 / 8 * 3500) 1500) Y
    (f_lens_map ldouble (V2 2000 1500) (V2 3500 3500) (fun _ => / 2) (V2 (2000 + 5 / 8 * 3500) 1500)).
Proof.
  assert (ER : radius (brown_frame ex_r) (V2 (2000 + 5 / 8 * 3500) 1500) = 5 / 8).
  { unfold radius, brown_frame; cbn. replace (_ + _) with (Rsqr (5 / 8)) by (unfold Rsqr; field). apply sqrt_Rsqr; lra. }
  set (Q := V2 (2000 + 5 / 8 * 3500) 1500) in *.
  rewrite <- ER. apply (C88_undistort u53 ldouble ex_lens (brown_frame ex_r) _ Q (/ 2) (fun _ => / 2) ldouble_accurate ex_lens_rep (rep2_fin _)); rewrite ?ER; try lra.
  - exact ex_lens_inv.
  - intros r' _. rewrite Rminus_diag_eq, Rabs_R0 by reflexivity. unfold u53. lra.
Qed.
(** A point 20 m ahead and 10 m to the right of a camera with a strong lens is shown to a millionth of a pixel. *)
Example C88_image_example : exists c q Y, lens_cam c Rectilinear ex_r (ex_at 0) ex_lens /\
  f_imageFromSpace (g_ops (l_ops ldouble)) ex_r (ex_at 0) (V3 10 20 10) true = Some q /\
  rep2 (imageFromSpace c (fin3 (V3 10 20 10)) true) Y /\
  let Y' := f_lens_map ldouble (V2 2000 1500) (V2 3500 3500) (f_brown ldouble 1 0 0) q in
  Rabs (c1 Y' - c1 Y) <= / 1000000 /\ Rabs (c2 Y' - c2 Y) <= / 1000000.
Proof.
  destruct (ex_lens_at 0) as (c&HC). exists c.
  assert (EX : ex_pixel 0 (V3 10 20 10) = V2 3750 1500) by (unfold ex_pixel; cbn; f_equal; field).
  assert (SH : shown_at Rectilinear ex_r (ex_at 0) (V3 10 20 10) (V2 3750 1500)) by (rewrite <- EX; apply ex_shown; cbn; lra).
  assert (ER : radius (brown_frame ex_r) (V2 3750 1500) = / 2).
  { unfold radius, brown_frame; cbn. replace (_ + _) with (Rsqr (/ 2)) by (unfold Rsqr; field). apply sqrt_Rsqr; lra. }
  assert (EZ : cz (cam_coords (ex_at 0) (V3 10 20 10)) = -20) by (rewrite ex_at_coords; cbn; ring).
  assert (A0 : Rabs (1500 - 1500) = 0) by (rewrite Rminus_diag_eq, Rabs_R0 by reflexivity; reflexivity).
  assert (A1 : Rabs (3750 - 2000) = 1750) by (rewrite Rabs_right; lra).
  assert (A2 : Rabs 3500 = 3500) by (apply Rabs_right; lra). assert (A3 : Rabs 3750 = 3750) by (apply Rabs_right; lra).
  assert (A4 : Rabs 1500 = 1500) by (apply Rabs_right; lra). assert (A5 : Rabs (-20) = 20) by (rewrite Rabs_left; lra).
  assert (A6 : Rabs 2000 = 2000) by (apply Rabs_right; lra).
  pose proof (C88_image u53 ldouble lookup_spline (Fin 1) (Fin 0) (Fin 0) 1 0 0 (proj_fin ex_r) c ex_r (ex_at 0) (fin3 (V3 10 20 10)) (V3 10 20 10)
    (V2 3750 1500) 20 true 1 ldouble_accurate HC) as K. cbv zeta in K. rewrite EZ, ER in K.
  destruct K as (q&Eq&N1&N2&K); try apply rep_Fin; try lra; auto.
  - repeat split.
  - unfold one_turn, ex_at; cbn. rewrite Rabs_R0. rewrite (Rabs_right 90) by lra. lra.
  - apply rep3_fin.
  - unfold below3, ex_at; cbn. splits; apply Rabs_le; lra.
  - unfold tinyR. lra.
  - unfold u53. lra.
  - unfold pixel_error in N1, N2, K. cbn [c1 c2 f_x f_y center_x center_y ex_r] in N1, N2, K. rewrite A1, A2, A3, A5 in N1. rewrite A0, A2, A4, A5 in N2.
    unfold u53 in N1, N2. apply near_bounds in N1. apply near_bounds in N2.
    assert (Q1 : 1749 <= c1 q - 2000 <= 1751) by lra. assert (Q2 : -1 <= c2 q - 1500 <= 1) by lra.
    destruct K as (Y&RY&K1&K2).
    { unfold radius, brown_frame; cbn [o_x o_y s_x s_y f_x f_y center_x center_y ex_r]. split; [apply sqrt_lt_R0; unfold Rsqr; nra|].
      rewrite <- sqrt_1. apply sqrt_le_1_alt. unfold Rsqr; nra. }
    exists q, Y. split; [exact HC|]. split; [exact Eq|]. split; [exact RY|].
    unfold brown_slope, brown_size in K1, K2. rewrite A0, A1, A2, A3, A4, A5, A6, Rabs_R1, Rabs_R0 in K1. rewrite A0, A1, A2, A3, A4, A5, Rabs_R1, Rabs_R0 in K2.
    assert (B1 : Rabs (c1 q - 2000) <= 1751) by (apply Rabs_le; lra). assert (B2 : Rabs (c2 q - 1500) <= 1) by (apply Rabs_le; lra).
    unfold u53 in K1, K2. split; [eapply Rle_trans; [exact K1|]|eapply Rle_trans; [exact K2|]]; lra.
Qed.
