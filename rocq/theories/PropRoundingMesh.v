(** * C92: rounding errors of intersections with meshes *)
Require Import Reals Lra Lia Bool Psatz List ZArith.
From Verif Require Import Num Vec Trig Ray RayFacts Rounding RoundingFacts RoundingMesh DoubleFacts.
Import ListNotations.
Open Scope R_scope.

(** ** Specification *)
(** Sizes: [L] of the edges at the first corner, [m] of the direction, [H] of the origin, [S] of the way to the first
    corner and of the way along the ray up to [r]; each is a bound of the coordinates. *)
Definition measures (O D : v3 R) (T : tri R) (L S m H r : R) : Prop :=
  (0 < L /\ 0 < S /\ 0 < m /\ 0 <= H) /\ (below3 L (edge_u T) /\ below3 L (edge_v T)) /\ below3 m D /\ below3 H O /\
  below3 S (rv_sub (cx T) O) /\ Rabs r * m <= S.
(** How flat the ray meets the plane of the triangle, and how close the triangle is to a line *)
Definition flatness (D : v3 R) (T : tri R) (L m : R) : R := L * L * m / Rabs (rdot (normal T) D).
Definition thinness (T : tri R) (L : R) : R := L * L * (L * L) / rdot (normal T) (normal T).
Definition steep (u : R) (D : v3 R) (T : tri R) (L m : R) : Prop := rdot (normal T) D <> 0 /\ 120 * u * flatness D T L m <= 1.
(** The errors of the parameter, of the point, and of the position in the triangle *)
Definition param_error (u : R) (D : v3 R) (T : tri R) (L S m : R) : R := 260 * (u * flatness D T L m * S) / m.
Definition point_error (u : R) (D : v3 R) (T : tri R) (L S m H : R) : R := 300 * (u * flatness D T L m * S) + 2 * (u * H).
Definition margin (u : R) (D : v3 R) (T : tri R) (L S m H : R) : R :=
  thinness T L * (300 * (320 * (u * flatness D T L m * S) + 3 * (u * H)) / L + 1300 * u).

Lemma near_bounds e a b : near e a b -> b - e <= a <= b + e.
Proof. unfold near. intros X. pose proof (Rle_abs (a - b)). pose proof (Rle_abs (- (a - b))) as K. rewrite Rabs_Ropp in K. lra. Qed.
Section Errors.
Context (u : R) (A : floats) (HA : accurate u A).
Notation fl := (f_round A).
Lemma fl_of ex x' x M : near ex x' x -> Rabs x <= M -> near (ex + u * (M + ex)) (fl x') x.
Proof.
  intros N B. pose proof (u_range u A HA) as U. assert (C := near_abs _ _ _ _ N B). replace (ex + u * (M + ex)) with (u * (M + ex) + ex) by ring.
  eapply near_trans; [|exact N]. eapply near_le; [apply fl_near; exact HA|]. apply Rmult_le_compat_l; lra.
Qed.
Lemma sub_near k a b : below3 k (rv_sub a b) -> near3 (u * k) (f_sub A a b) (rv_sub a b).
Proof.
  pose proof (u_range u A HA) as U. intros (B1&B2&B3). unfold near3, f_sub, rv_sub, zip3v in *. cbn [cx cy cz] in *.
  repeat split; (eapply near_le; [apply fl_near; exact HA|]; apply Rmult_le_compat_l; lra).
Qed.
(** u * x with its second powers *)
Lemma ux x : 0 <= x -> 0 <= u * x /\ 0 <= u * u * x <= u * x * / 1000000 /\ u * x <= x * / 1000000.
Proof.
  intros P. pose proof (u_range u A HA) as U. pose proof (uu u A HA) as UU. assert (0 <= u * x) by (apply Rmult_le_pos; lra). split; [auto|].
  assert (0 <= u * u * x) by (apply Rmult_le_pos; lra). split; [split; [auto|]|].
  - replace (u * x * / 1000000) with (u * / 1000000 * x) by ring. apply Rmult_le_compat_r; lra.
  - rewrite (Rmult_comm x). apply Rmult_le_compat_r; lra.
Qed.
Lemma prod_near L a b a' b' : 0 <= L -> near (u * L) a' a -> near (u * L) b' b -> Rabs a <= L -> Rabs b <= L -> near (31 / 10 * (u * (L * L))) (fl (a' * b')) (a * b).
Proof.
  intros P NA NB BA BB. assert (Q : 0 <= L * L) by (apply Rmult_le_pos; lra). destruct (ux _ Q) as (Q1&Q2&Q3). assert (Q4 := ux _ Q1). destruct Q4 as (Q4&Q5&Q6).
  eapply near_le; [apply (fl_of _ _ _ (L * L) (near_mul _ _ _ _ _ _ _ _ NA NB BA BB)); apply abs_prod; auto|]. lra.
Qed.
Lemma diff_near L a b a' b' : 0 <= L -> near (31 / 10 * (u * (L * L))) a' a -> near (31 / 10 * (u * (L * L))) b' b -> Rabs a <= L * L -> Rabs b <= L * L ->
  near (9 * (u * (L * L))) (fl (a' - b')) (a - b).
Proof.
  intros P NA NB BA BB. assert (Q : 0 <= L * L) by (apply Rmult_le_pos; lra). destruct (ux _ Q) as (Q1&Q2&Q3). destruct (ux _ Q1) as (Q4&Q5&Q6).
  eapply near_le; [apply (fl_of _ _ _ (L * L + L * L) (near_add _ _ _ _ _ _ NA (near_opp _ _ _ NB)))|lra].
  eapply Rle_trans; [apply Rabs_triang|]. rewrite Rabs_Ropp. lra.
Qed.
Lemma cross_near L a b a' b' : 0 <= L -> near3 (u * L) a' a -> near3 (u * L) b' b -> below3 L a -> below3 L b -> near3 (9 * (u * (L * L))) (f_cross A a' b') (rcross a b).
Proof.
  intros P (A1&A2&A3) (B1&B2&B3) (M1&M2&M3) (N1&N2&N3). unfold near3, f_cross, rcross. cbn [cx cy cz].
  repeat split; apply diff_near; auto; try (apply prod_near; auto); apply abs_prod; auto.
Qed.
Lemma cross_below L a b : 0 <= L -> below3 L a -> below3 L b -> below3 (2 * (L * L)) (rcross a b).
Proof.
  intros P (M1&M2&M3) (N1&N2&N3). unfold below3, rcross. cbn [cx cy cz].
  assert (X : forall x y z t, Rabs x <= L -> Rabs y <= L -> Rabs z <= L -> Rabs t <= L -> Rabs (x * y - z * t) <= 2 * (L * L)).
  { intros x y z t X Y Z T. pose proof (abs_prod _ _ _ _ X Y). pose proof (abs_prod _ _ _ _ Z T). eapply Rle_trans; [apply Rabs_triang|]. rewrite Rabs_Ropp. lra. }
  repeat split; apply X; auto.
Qed.
Lemma dot_below p q a b : below3 p a -> below3 q b -> Rabs (rdot a b) <= 3 * (p * q).
Proof.
  intros (A1&A2&A3) (B1&B2&B3). unfold rdot. pose proof (abs_prod _ _ _ _ A1 B1). pose proof (abs_prod _ _ _ _ A2 B2). pose proof (abs_prod _ _ _ _ A3 B3).
  eapply Rle_trans; [apply Rabs_triang|]. eapply Rle_trans; [apply Rplus_le_compat_r, Rabs_triang|]. lra.
Qed.

(** ** One triangle *)
Context (O D : v3 R) (T : tri R) (L S m H : R).
(** [L]: the largest coordinate of the edges at the first corner; [m]: of the direction; [H]: of the origin; [S]: of the
    way to the first corner and of the way along the ray *)
Context (PL : 0 < L) (PS : 0 < S) (Pm : 0 < m) (PH : 0 <= H).
Context (HU : below3 L (edge_u T)) (HV : below3 L (edge_v T)) (HD : below3 m D) (HO : below3 H O) (HS : below3 S (rv_sub (cx T) O)).
Notation n := (normal T).
Notation b := (rdot (normal T) D).
Notation fu := (f_sub A (cy T) (cx T)).
Notation fv := (f_sub A (cz T) (cx T)).
Notation fn := (f_cross A (f_sub A (cy T) (cx T)) (f_sub A (cz T) (cx T))).
Lemma fu_near : near3 (u * L) fu (edge_u T). Proof. apply sub_near. exact HU. Qed.
Lemma fv_near : near3 (u * L) fv (edge_v T). Proof. apply sub_near. exact HV. Qed.
Lemma fn_near : near3 (9 * (u * (L * L))) fn n.
Proof. apply cross_near; [lra|apply fu_near|apply fv_near|exact HU|exact HV]. Qed.
Lemma n_below : below3 (2 * (L * L)) n.
Proof. apply cross_below; auto. lra. Qed.
Lemma fb_near : near (60 * (u * (L * L * m))) (f_dot A fn D) b.
Proof.
  assert (Q : 0 <= L * L) by (apply Rmult_le_pos; lra). assert (Q0 : 0 <= L * L * m) by (apply Rmult_le_pos; lra). destruct (ux _ Q) as (Q1&Q2&Q3). destruct (ux _ Q0) as (R1&R2&R3).
  eapply near_le; [apply (dot_near u A HA n D fn D (9 * (u * (L * L))) 0 (2 * (L * L)) m); try lra; [apply fn_near|repeat split; apply near_refl|apply n_below|exact HD]|]. lra.
Qed.
Lemma fa_near : near (60 * (u * (L * L * S))) (f_dot A fn (f_sub A (cx T) O)) (rdot n (rv_sub (cx T) O)).
Proof.
  assert (Q : 0 <= L * L) by (apply Rmult_le_pos; lra). assert (Q0 : 0 <= L * L * S) by (apply Rmult_le_pos; lra). destruct (ux _ Q) as (Q1&Q2&Q3). destruct (ux _ Q0) as (R1&R2&R3).
  assert (PS0 : 0 <= S) by lra. destruct (ux _ PS0) as (S1&S2&S3). destruct (ux _ R1) as (R4&R5&R6).
  eapply near_le; [apply (dot_near u A HA n (rv_sub (cx T) O) fn (f_sub A (cx T) O) (9 * (u * (L * L))) (u * S) (2 * (L * L)) S); try lra; [apply fn_near|apply sub_near; exact HS|apply n_below|exact HS]|]. lra.
Qed.

(** how flat the ray meets the plane; at least 1/6 *)
Notation kappa := (L * L * m / Rabs b).
Context (r : R) (Hr : rdot n (rv_sub (cx T) O) = r * b) (HrS : Rabs r * m <= S) (HB : 120 * u * (L * L * m) <= Rabs b) (Pb : b <> 0).
Lemma b_below : Rabs b <= 6 * (L * L * m).
Proof. eapply Rle_trans; [apply (dot_below _ _ _ _ n_below HD)|]. lra. Qed.
Lemma kappa_low : / 6 <= kappa.
Proof.
  pose proof b_below as B. assert (P : 0 < Rabs b) by (apply Rabs_pos_lt; exact Pb). apply (Rmult_le_reg_r (Rabs b)); [exact P|]. unfold Rdiv. rewrite Rmult_assoc, Rinv_l by lra. lra.
Qed.
Lemma kappa_u : u * kappa <= / 120.
Proof.
  assert (P : 0 < Rabs b) by (apply Rabs_pos_lt; exact Pb). apply (Rmult_le_reg_r (Rabs b)); [exact P|]. replace (u * kappa * Rabs b) with (u * (L * L * m)) by (field; lra). lra.
Qed.
Lemma fb_nz : f_dot A fn D <> 0 /\ Rabs b / 2 <= Rabs (f_dot A fn D).
Proof.
  pose proof fb_near as N. assert (P : 0 < Rabs b) by (apply Rabs_pos_lt; exact Pb). assert (Q0 : 0 <= L * L * m) by (apply Rmult_le_pos; [apply Rmult_le_pos|]; lra).
  assert (X : Rabs b / 2 <= Rabs (f_dot A fn D)).
  { unfold near in N. pose proof (Rabs_triang (f_dot A fn D) (b - f_dot A fn D)) as TR. replace (f_dot A fn D + (b - f_dot A fn D)) with b in TR by ring.
    rewrite (Rabs_minus_sym b) in TR. lra. }
  split; [intros E; rewrite E, Rabs_R0 in X; lra|exact X].
Qed.
Lemma quot_near : near (240 * (u * kappa * S) / m) (f_dot A fn (f_sub A (cx T) O) / f_dot A fn D) r.
Proof.
  destruct fb_nz as (NZ&LB). pose proof fb_near as NB. pose proof fa_near as NA. rewrite Hr in NA. assert (P : 0 < Rabs b) by (apply Rabs_pos_lt; exact Pb).
  set (a' := f_dot A fn (f_sub A (cx T) O)) in *. set (b' := f_dot A fn D) in *. unfold near in *.
  assert (X : Rabs (a' - r * b') <= 120 * (u * (L * L * S))).
  { replace (a' - r * b') with ((a' - r * b) + - (r * (b' - b))) by ring. eapply Rle_trans; [apply Rabs_triang|]. rewrite Rabs_Ropp, Rabs_mult.
    assert (Rabs r * Rabs (b' - b) <= Rabs r * (60 * (u * (L * L * m)))) by (apply Rmult_le_compat_l; [apply Rabs_pos|exact NB]).
    assert (Y : Rabs r * m * (60 * u * (L * L)) <= S * (60 * u * (L * L))).
    { apply Rmult_le_compat_r; [|exact HrS]. pose proof (u_range u A HA). apply Rmult_le_pos; [lra|apply Rmult_le_pos; lra]. }
    lra. }
  replace (a' / b' - r) with ((a' - r * b') * / b') by (field; auto). rewrite Rabs_mult, Rabs_inv.
  apply Rle_trans with (120 * (u * (L * L * S)) * / (Rabs b / 2)).
  - apply Rmult_le_compat; [apply Rabs_pos|left; apply Rinv_0_lt_compat; lra|exact X|]. apply Rinv_le_contravar; lra.
  - right. field. lra.
Qed.
(** the rounded parameter *)
Notation fr := (fl (f_dot A fn (f_sub A (cx T) O) / f_dot A fn D)).
Lemma uk : 0 <= u * kappa /\ u <= 6 * (u * kappa).
Proof.
  pose proof (u_range u A HA) as U. pose proof kappa_low as K. assert (0 <= u * kappa) by (apply Rmult_le_pos; lra). split; [auto|].
  assert (u * / 6 <= u * kappa) by (apply Rmult_le_compat_l; lra). lra.
Qed.
Lemma fr_near : near (260 * (u * kappa * S) / m) fr r.
Proof.
  pose proof (u_range u A HA) as U. pose proof kappa_u as KU. destruct uk as (K0&K6).
  assert (X : Rabs r <= S / m) by (apply (Rmult_le_reg_r m); [exact Pm|]; unfold Rdiv; rewrite Rmult_assoc, Rinv_l by lra; lra).
  eapply near_le; [apply (fl_of _ _ _ (S / m) quot_near X)|]. set (k := u * kappa) in *.
  replace (240 * (k * S) / m + u * (S / m + 240 * (k * S) / m)) with ((240 * k + u + u * (240 * k)) * (S / m)) by (field; lra).
  replace (260 * (k * S) / m) with (260 * k * (S / m)) by (field; lra).
  apply Rmult_le_compat_r; [left; apply Rdiv_lt_0_compat; lra|]. assert (u * (240 * k) <= u * 2) by (apply Rmult_le_compat_l; lra). lra.
Qed.
(** the point of the ray *)
Notation P := (ray_at O D r).
Lemma point_near : near3 (300 * (u * kappa * S) + 2 * (u * H)) (f_ray_at A O D fr) P.
Proof.
  pose proof (u_range u A HA) as U. pose proof kappa_u as KU. destruct uk as (K0&K6). set (k := u * kappa) in *.
  assert (KS : 0 <= k * S) by (apply Rmult_le_pos; lra). destruct (ux _ KS) as (W1&W2&W3). destruct (ux _ PH) as (H1&H2&H3). assert (PS0 : 0 <= S) by lra. destruct (ux _ PS0) as (S1&S2&S3).
  assert (US : u * S <= 6 * (k * S)) by (rewrite <- Rmult_assoc; apply Rmult_le_compat_r; lra).
  assert (KS2 : k * S <= S * / 120) by (rewrite (Rmult_comm S); apply Rmult_le_compat_r; lra).
  assert (X : forall x y, Rabs x <= H -> Rabs y <= m -> near (300 * (k * S) + 2 * (u * H)) (fl (x + fl (fr * y))) (x + r * y)).
  { intros x y Bx By. assert (N1 : near (260 * (k * S)) (fr * y) (r * y)).
    { eapply near_le; [apply (near_mul _ _ _ _ _ _ (S / m) m fr_near (near_refl y)); [|exact By]|].
      - apply (Rmult_le_reg_r m); [exact Pm|]; unfold Rdiv; rewrite Rmult_assoc, Rinv_l by lra; lra.
      - fold k. right. field. lra. }
    assert (B1 : Rabs (r * y) <= S) by (rewrite Rabs_mult; apply Rle_trans with (Rabs r * m); [apply Rmult_le_compat_l; [apply Rabs_pos|exact By]|exact HrS]).
    assert (N2 := fl_of _ _ _ S N1 B1). assert (N3 := near_add _ _ _ _ _ _ (near_refl x) N2).
    eapply near_le; [apply (fl_of _ _ _ (H + S) N3); eapply Rle_trans; [apply Rabs_triang|]; lra|].
    destruct (ux _ W1) as (V1&V2&V3). destruct (ux _ S1) as (V4&V5&V6). lra. }
  destruct HO as (O1&O2&O3). destruct HD as (D1&D2&D3). unfold near3, f_ray_at, ray_at, rv_add, rv_scale, zip3v, map3v. cbn [cx cy cz]. repeat split; apply X; auto.
Qed.

(** the way from the first corner; [Ew] is the unit in which its errors are counted *)
Notation w := (rv_sub (ray_at O D r) (cx T)).
Notation fw := (f_sub A (f_ray_at A O D fr) (cx T)).
Notation Ew := (320 * (u * kappa * S) + 3 * (u * H)).
Lemma Ew_pos : 0 <= Ew /\ 53 * (u * S) <= Ew.
Proof.
  pose proof (u_range u A HA) as U. destruct uk as (K0&K6). assert (KS : 0 <= u * kappa * S) by (apply Rmult_le_pos; lra). destruct (ux _ PH) as (H1&_).
  assert (u * S <= 6 * (u * kappa) * S) by (apply Rmult_le_compat_r; lra). lra.
Qed.
Lemma w_below : below3 (2 * S) w.
Proof.
  destruct HD as (D1&D2&D3). destruct HS as (S1&S2&S3).
  assert (X : forall x y z, Rabs (z - x) <= S -> Rabs y <= m -> Rabs (x + r * y - z) <= 2 * S).
  { intros x y z B1 B2. replace (x + r * y - z) with (- (z - x) + r * y) by ring. eapply Rle_trans; [apply Rabs_triang|]. rewrite Rabs_Ropp, Rabs_mult.
    assert (Rabs r * Rabs y <= Rabs r * m) by (apply Rmult_le_compat_l; [apply Rabs_pos|exact B2]). lra. }
  unfold below3, ray_at, rv_add, rv_sub, rv_scale, zip3v, map3v in *. cbn [cx cy cz] in *. repeat split; apply X; auto.
Qed.
Lemma w_near : near3 Ew fw w.
Proof.
  pose proof (u_range u A HA) as U. destruct uk as (K0&K6). set (k := u * kappa) in *. assert (KS : 0 <= k * S) by (apply Rmult_le_pos; lra).
  destruct (ux _ KS) as (W1&W2&W3). destruct (ux _ PH) as (H1&H2&H3). destruct (ux _ H1) as (H4&H5&H6).
  assert (US : u * S <= 6 * (k * S)) by (rewrite <- Rmult_assoc; apply Rmult_le_compat_r; lra).
  destruct point_near as (P1&P2&P3). destruct w_below as (B1&B2&B3). fold k in P1, P2, P3.
  assert (X : forall p' p z, near (300 * (k * S) + 2 * (u * H)) p' p -> Rabs (p - z) <= 2 * S -> near (320 * (k * S) + 3 * (u * H)) (fl (p' - z)) (p - z)).
  { intros p' p z N B. assert (N' := near_add _ _ _ _ _ _ N (near_refl (- z))). eapply near_le; [apply (fl_of _ _ _ (2 * S) N' B)|]. lra. }
  unfold near3, f_sub, rv_sub, zip3v in *. cbn [cx cy cz] in *. repeat split; apply X; auto.
Qed.
Notation UV := (rdot (edge_u T) (edge_v T)).
Notation UU := (rdot (edge_u T) (edge_u T)).
Notation VV := (rdot (edge_v T) (edge_v T)).
Lemma edges_near a c a' c' : near3 (u * L) a' a -> near3 (u * L) c' c -> below3 L a -> below3 L c -> near (19 * (u * (L * L))) (f_dot A a' c') (rdot a c) /\ Rabs (rdot a c) <= 3 * (L * L).
Proof.
  intros NA NC BA BC. split; [|apply (dot_below _ _ _ _ BA BC)]. assert (Q : 0 <= L * L) by (apply Rmult_le_pos; lra). destruct (ux _ Q) as (Q1&Q2&Q3). destruct (ux _ Q1) as (Q4&Q5&Q6).
  assert (0 <= u * L) by (apply Rmult_le_pos; [apply (u_range u A HA)|lra]).
  eapply near_le; [apply (dot_near u A HA a c a' c' (u * L) (u * L) L L); auto; lra|]. lra.
Qed.
Lemma way_near a a' : near3 (u * L) a' a -> below3 L a -> near (4 * (Ew * L)) (f_dot A fw a') (rdot w a) /\ Rabs (rdot w a) <= 6 * (S * L).
Proof.
  intros NA BA. split; [|eapply Rle_trans; [apply (dot_below _ _ _ _ w_below BA)|]; lra].
  destruct Ew_pos as (E0&E1). pose proof w_near as NW. set (E := Ew) in *. clearbody E.
  assert (EL : 0 <= E * L) by (apply Rmult_le_pos; lra). assert (SL : 0 <= S * L) by (apply Rmult_le_pos; lra).
  destruct (ux _ EL) as (X1&X2&X3). destruct (ux _ SL) as (Y1&Y2&Y3). assert (u * S * L * 53 <= E * L) by (replace (u * S * L * 53) with (53 * (u * S) * L) by ring; apply Rmult_le_compat_r; lra).
  assert (0 <= u * L) by (apply Rmult_le_pos; [apply (u_range u A HA)|lra]).
  eapply near_le; [apply (dot_near u A HA w a fw a' E (u * L) (2 * S) L NW NA w_below BA); lra|]. lra.
Qed.
Notation L3 := (L * L * L).
Notation L4 := (L * L * (L * L)).
(** a numerator: a product of two edges by one with the way, twice *)
Lemma num_near p q x y p' q' x' y' : near (19 * (u * (L * L))) p' p -> near (19 * (u * (L * L))) q' q -> Rabs p <= 3 * (L * L) -> Rabs q <= 3 * (L * L) ->
  near (4 * (Ew * L)) x' x -> near (4 * (Ew * L)) y' y -> Rabs x <= 6 * (S * L) -> Rabs y <= 6 * (S * L) ->
  near (31 * (Ew * L3)) (fl (fl (p' * x') - fl (q' * y'))) (p * x - q * y).
Proof.
  intros NP NQ BP BQ NX NY BX BY. destruct Ew_pos as (E0&E1). set (E := Ew) in *. clearbody E.
  assert (P3 : 0 <= L3) by (repeat apply Rmult_le_pos; lra). assert (EL : 0 <= E * L3) by (apply Rmult_le_pos; lra). assert (SL : 0 <= S * L3) by (apply Rmult_le_pos; lra).
  destruct (ux _ EL) as (X1&X2&X3). destruct (ux _ SL) as (Y1&Y2&Y3). destruct (ux _ X1) as (X4&X5&X6). assert (K : u * S * L3 * 53 <= E * L3) by (replace (u * S * L3 * 53) with (53 * (u * S) * L3) by ring; apply Rmult_le_compat_r; lra).
  assert (ONE : forall a c a' c', near (19 * (u * (L * L))) a' a -> Rabs a <= 3 * (L * L) -> near (4 * (E * L)) c' c -> Rabs c <= 6 * (S * L) ->
    near (15 * (E * L3)) (fl (a' * c')) (a * c) /\ Rabs (a * c) <= 18 * (S * L3)).
  { intros a c a' c' N1 B1 N2 B2. assert (B : Rabs (a * c) <= 18 * (S * L3)) by (eapply Rle_trans; [apply (abs_prod _ _ _ _ B1 B2)|]; lra). split; [|exact B].
    eapply near_le; [apply (fl_of _ _ _ _ (near_mul _ _ _ _ _ _ _ _ N1 N2 B1 B2) B)|]. lra. }
  destruct (ONE _ _ _ _ NP BP NX BX) as (N1&B1). destruct (ONE _ _ _ _ NQ BQ NY BY) as (N2&B2).
  eapply near_le; [apply (fl_of _ _ _ (36 * (S * L3)) (near_add _ _ _ _ _ _ N1 (near_opp _ _ _ N2)))|]; [|lra].
  eapply Rle_trans; [apply Rabs_triang|]. rewrite Rabs_Ropp. lra.
Qed.
Notation delta := (rdot (normal T) (normal T)).
Notation fuv := (f_dot A fu fv).
Notation fuu := (f_dot A fu fu).
Notation fvv := (f_dot A fv fv).
Notation fd := (fl (fl (fuv * fuv) - fl (fuu * fvv))).
Lemma delta_eq : UV * UV - UU * VV = - delta.
Proof. vring. ring. Qed.
Lemma fd_near : near (270 * (u * L4)) fd (- delta).
Proof.
  rewrite <- delta_eq. assert (P4 : 0 <= L4) by (repeat apply Rmult_le_pos; lra). destruct (ux _ P4) as (X1&X2&X3). destruct (ux _ X1) as (X4&X5&X6).
  assert (ONE : forall a c a' c', near (19 * (u * (L * L))) a' a -> Rabs a <= 3 * (L * L) -> near (19 * (u * (L * L))) c' c -> Rabs c <= 3 * (L * L) ->
    near (125 * (u * L4)) (fl (a' * c')) (a * c) /\ Rabs (a * c) <= 9 * L4).
  { intros a c a' c' N1 B1 N2 B2. assert (B : Rabs (a * c) <= 9 * L4) by (eapply Rle_trans; [apply (abs_prod _ _ _ _ B1 B2)|]; lra). split; [|exact B].
    eapply near_le; [apply (fl_of _ _ _ _ (near_mul _ _ _ _ _ _ _ _ N1 N2 B1 B2) B)|]. lra. }
  destruct (edges_near _ _ _ _ fu_near fv_near HU HV) as (A1&A2). destruct (edges_near _ _ _ _ fu_near fu_near HU HU) as (A3&A4). destruct (edges_near _ _ _ _ fv_near fv_near HV HV) as (A5&A6).
  destruct (ONE _ _ _ _ A1 A2 A1 A2) as (N1&B1). destruct (ONE _ _ _ _ A3 A4 A5 A6) as (N2&B2).
  eapply near_le; [apply (fl_of _ _ _ (18 * L4) (near_add _ _ _ _ _ _ N1 (near_opp _ _ _ N2)))|]; [|lra].
  eapply Rle_trans; [apply Rabs_triang|]. rewrite Rabs_Ropp. lra.
Qed.
Notation fsn := (fl (fl (fuv * f_dot A fw fv) - fl (fvv * f_dot A fw fu))).
Notation ftn := (fl (fl (fuv * f_dot A fw fu) - fl (fuu * f_dot A fw fv))).
Context (s t : R) (Hst : w = rv_add (rv_scale s (edge_u T)) (rv_scale t (edge_v T))).
Lemma numerators_near : near (31 * (Ew * L3)) fsn (s * - delta) /\ near (31 * (Ew * L3)) ftn (t * - delta).
Proof.
  destruct (edges_near _ _ _ _ fu_near fv_near HU HV) as (A1&A2). destruct (edges_near _ _ _ _ fu_near fu_near HU HU) as (A3&A4). destruct (edges_near _ _ _ _ fv_near fv_near HV HV) as (A5&A6).
  destruct (way_near _ _ fu_near HU) as (B1&B2). destruct (way_near _ _ fv_near HV) as (B3&B4).
  assert (E1 : s * - delta = UV * rdot w (edge_v T) - VV * rdot w (edge_u T)) by (rewrite Hst, <- delta_eq; clear; unfold rdot, rv_add, rv_scale, zip3v, map3v; cbn [cx cy cz]; ring).
  assert (E2 : t * - delta = UV * rdot w (edge_u T) - UU * rdot w (edge_v T)) by (rewrite Hst, <- delta_eq; clear; unfold rdot, rv_add, rv_scale, zip3v, map3v; cbn [cx cy cz]; ring).
  rewrite E1, E2. split; apply num_near; auto.
Qed.
(** how far the triangle is from being a line; at least 1/12 *)
Notation lambda := (L4 / delta).
Context (Hl : 5600 * (u * lambda) <= 1).
Lemma delta_pos : 0 < delta /\ delta <= 12 * L4.
Proof.
  split; [|eapply Rle_trans; [apply Rle_abs|eapply Rle_trans; [apply (dot_below _ _ _ _ n_below n_below)|lra]]].
  assert (X : 0 <= delta) by (unfold rdot; pose proof (Rle_0_sqr (cx n)); pose proof (Rle_0_sqr (cy n)); pose proof (Rle_0_sqr (cz n)); unfold Rsqr in *; lra).
  destruct X as [X|X]; [exact X|]. exfalso. apply Pb. unfold rdot in X |- *. pose proof (Rle_0_sqr (cx n)); pose proof (Rle_0_sqr (cy n)); pose proof (Rle_0_sqr (cz n)); unfold Rsqr in *.
  assert (cx n = 0) by (apply Rsqr_0_uniq; unfold Rsqr; lra). assert (cy n = 0) by (apply Rsqr_0_uniq; unfold Rsqr; lra). assert (cz n = 0) by (apply Rsqr_0_uniq; unfold Rsqr; lra).
  replace (cx n) with 0 by auto. replace (cy n) with 0 by auto. replace (cz n) with 0 by auto. ring.
Qed.
Lemma lambda_low : / 12 <= lambda /\ u <= 12 * (u * lambda).
Proof.
  destruct delta_pos as (X&Y). assert (Z : / 12 <= lambda) by (apply (Rmult_le_reg_r delta); [exact X|]; unfold Rdiv; rewrite Rmult_assoc, Rinv_l by lra; lra). split; [exact Z|].
  assert (u * / 12 <= u * lambda) by (apply Rmult_le_compat_l; [apply (u_range u A HA)|exact Z]). lra.
Qed.
Lemma fd_nz : fd <> 0 /\ delta / 2 <= Rabs fd.
Proof.
  destruct delta_pos as (X&Y). pose proof fd_near as N. assert (Z : 5600 * (u * L4) <= delta).
  { replace (5600 * (u * L4)) with (5600 * (u * lambda) * delta) by (field; lra). apply Rle_trans with (1 * delta); [apply Rmult_le_compat_r; lra|lra]. }
  assert (B : delta / 2 <= Rabs fd).
  { unfold near in N. pose proof (Rabs_triang fd (- delta - fd)) as TR. replace (fd + (- delta - fd)) with (- delta) in TR by ring. rewrite (Rabs_minus_sym (- delta)), Rabs_Ropp, (Rabs_right delta) in TR by lra.
    assert (0 <= u * L4) by (apply Rmult_le_pos; [apply (u_range u A HA)|repeat apply Rmult_le_pos; lra]). lra. }
  split; [intros E; rewrite E, Rabs_R0 in B; lra|exact B].
Qed.
Notation alpha := (63 * (lambda * Ew / L)).
Notation rho := (560 * (u * lambda)).
Lemma coordinate_near x x' : near (31 * (Ew * L3)) x' (x * - delta) -> near (alpha + Rabs x * rho) (fl (x' / fd)) x.
Proof.
  intros N. destruct fd_nz as (NZ&LB). destruct delta_pos as (DP&_). destruct lambda_low as (LL&LU). destruct Ew_pos as (E0&_). pose proof fd_near as ND. pose proof (u_range u A HA) as U.
  set (E := Ew) in *. clearbody E. set (d := fd) in *. clearbody d. assert (L0 : 0 <= lambda) by lra. set (l := lambda) in *.
  assert (Q0 : near (62 * (l * E / L) + Rabs x * (540 * (u * l))) (x' / d) x).
  { unfold near in *. assert (X : Rabs (x' - x * d) <= 31 * (E * L3) + Rabs x * (270 * (u * L4))).
    { replace (x' - x * d) with ((x' - x * - delta) + - (x * (d - - delta))) by ring. eapply Rle_trans; [apply Rabs_triang|]. rewrite Rabs_Ropp, (Rabs_mult x).
      apply Rplus_le_compat; [exact N|]. apply Rmult_le_compat_l; [apply Rabs_pos|exact ND]. }
    replace (x' / d - x) with ((x' - x * d) * / d) by (field; auto). rewrite Rabs_mult, Rabs_inv.
    apply Rle_trans with ((31 * (E * L3) + Rabs x * (270 * (u * L4))) * / (delta / 2)).
    - apply Rmult_le_compat; [apply Rabs_pos|left; apply Rinv_0_lt_compat; lra|exact X|]. apply Rinv_le_contravar; lra.
    - right. unfold l. field. lra. }
  eapply near_le; [apply (fl_of _ _ _ (Rabs x) Q0); lra|].
  assert (LE : 0 <= l * E / L) by (apply Rmult_le_pos; [apply Rmult_le_pos; lra|left; apply Rinv_0_lt_compat; lra]). destruct (ux _ LE) as (X1&X2&X3).
  assert (XL : 0 <= Rabs x * (u * l)) by (apply Rmult_le_pos; [apply Rabs_pos|apply Rmult_le_pos; lra]). destruct (ux _ XL) as (Y1&Y2&Y3).
  assert (u * Rabs x <= 12 * (Rabs x * (u * l))) by (pose proof (Rabs_pos x); assert (Rabs x * u <= Rabs x * (12 * (u * l))) by (apply Rmult_le_compat_l; lra); lra).
  lra.
Qed.
Notation mu := (lambda * (300 * Ew / L + 1300 * u)).
Notation fs := (fl (fsn / fd)).
Notation ft := (fl (ftn / fd)).
Lemma inside_test : f_inside A O D T fr = negb (Rltb fs 0 || Rltb 1 fs || Rltb ft 0 || Rltb 1 (fl (fs + ft))).
Proof.
  destruct fd_nz as (NZ&_). unfold f_inside, f_quot. cbv zeta. destruct (Req_EM_T fd 0) as [E|_]; [contradiction|]. cbn [f_sum].
  rewrite !(rep_ltb _ _ _ _ (rep_Fin _) (rep_Fin _)). reflexivity.
Qed.
Lemma margins : alpha * 4 + rho * 2 + 4 * u <= mu /\ 0 <= alpha /\ 0 <= rho <= / 10.
Proof.
  destruct lambda_low as (LL&LU). destruct Ew_pos as (E0&_). pose proof (u_range u A HA) as U.
  set (E := Ew) in *. clearbody E. set (l := lambda) in *.
  assert (LE : 0 <= l * E / L) by (apply Rmult_le_pos; [apply Rmult_le_pos; lra|left; apply Rinv_0_lt_compat; lra]). assert (0 <= u * l) by (apply Rmult_le_pos; lra).
  replace (l * (300 * E / L + 1300 * u)) with (300 * (l * E / L) + 1300 * (u * l)) by (field; lra). lra.
Qed.
Lemma fs_ft : near (alpha + Rabs s * rho) fs s /\ near (alpha + Rabs t * rho) ft t.
Proof. destruct numerators_near as (N1&N2). split; apply coordinate_near; auto. Qed.
Lemma inside_true : mu <= s -> mu <= t -> s + t <= 1 - mu -> f_inside A O D T fr = true.
Proof.
  intros Hs Ht Hsum. destruct margins as (M1&M2&M3). destruct fs_ft as (NS&NT). pose proof (u_range u A HA) as U. rewrite inside_test.
  set (a := alpha) in *. set (c := rho) in *. set (g := mu) in *. clearbody a c g.
  assert (S0 : 0 <= s) by lra. assert (T0 : 0 <= t) by lra. rewrite Rabs_right in NS, NT by lra. apply near_bounds in NS. apply near_bounds in NT.
  assert (0 <= s * c <= s * / 10) by (split; [apply Rmult_le_pos|apply Rmult_le_compat_l]; lra). assert (0 <= t * c <= t * / 10) by (split; [apply Rmult_le_pos|apply Rmult_le_compat_l]; lra).
  assert (STC : (s + t) * c <= 1 * c) by (apply Rmult_le_compat_r; lra).
  assert (NSUM := fl_near u A HA (fs + ft)). set (x := fs) in *. set (y := ft) in *. clearbody x y. apply near_bounds in NSUM. rewrite Rabs_right in NSUM by lra.
  assert (u * (x + y) <= u * 2) by (apply Rmult_le_compat_l; lra).
  rewrite !Rltb_false by lra. reflexivity.
Qed.
Lemma inside_false : s < - mu \/ t < - mu \/ s > 1 + mu \/ s + t > 1 + mu -> f_inside A O D T fr = false.
Proof.
  intros Hm. destruct margins as (M1&M2&M3). destruct fs_ft as (NS&NT). pose proof (u_range u A HA) as U. rewrite inside_test.
  set (a := alpha) in *. set (c := rho) in *. set (g := mu) in *. clearbody a c g. apply near_bounds in NS. apply near_bounds in NT.
  assert (NSUM := fl_near u A HA (fs + ft)). set (x := fs) in *. set (y := ft) in *. clearbody x y. apply near_bounds in NSUM.
  assert (NEG : forall z z', z - (a + Rabs z * c) <= z' <= z + (a + Rabs z * c) -> z < - g -> z' < 0).
  { intros z z' B LT. rewrite Rabs_left in B by lra. assert (- z * c <= - z * / 10) by (apply Rmult_le_compat_l; lra). lra. }
  destruct (Rlt_le_dec s (- g)) as [X|X].
  { rewrite (Rltb_true x 0) by (apply (NEG s x); lra). reflexivity. }
  destruct (Rlt_le_dec t (- g)) as [Y|Y].
  { rewrite (Rltb_true y 0) by (apply (NEG t y); lra). rewrite orb_true_r. reflexivity. }
  destruct (Rlt_le_dec (1 + g) s) as [Z|Z].
  { rewrite Rabs_right in NS by lra. assert (s * c = (s - 1 - g) * c + c + g * c) by ring. assert ((s - 1 - g) * c <= (s - 1 - g) * / 10) by (apply Rmult_le_compat_l; lra). assert (g * c <= g * / 10) by (apply Rmult_le_compat_l; lra).
    rewrite (Rltb_true 1 x) by lra. rewrite orb_true_r. reflexivity. }
  assert (V : 1 + g < s + t) by (destruct Hm as [?|[?|[?|?]]]; lra).
  assert (AS : Rabs s <= s + 2 * g) by (apply Rabs_le; lra). assert (AT : Rabs t <= t + 2 * g) by (apply Rabs_le; lra).
  assert (C1 : Rabs s * c + Rabs t * c <= (s + t - 1 - g) * / 10 + c + g * / 2).
  { assert (Rabs s * c <= (s + 2 * g) * c) by (apply Rmult_le_compat_r; lra). assert (Rabs t * c <= (t + 2 * g) * c) by (apply Rmult_le_compat_r; lra).
    assert ((s + t - 1 - g) * c <= (s + t - 1 - g) * / 10) by (apply Rmult_le_compat_l; lra). assert (g * c <= g * / 10) by (apply Rmult_le_compat_l; lra). lra. }
  assert (G : 1 + 2 * u < x + y) by lra. rewrite Rabs_right in NSUM by lra.
  assert (u * (x + y) <= u * (x + y - 1 - 2 * u) + u * 2) by (assert (0 <= u * u <= u * / 1000000) by (apply (uu u A HA)); lra).
  assert (u * (x + y - 1 - 2 * u) <= / 1000000 * (x + y - 1 - 2 * u)) by (apply Rmult_le_compat_r; lra).
  rewrite (Rltb_true 1 (fl (x + y))) by lra. rewrite orb_true_r. reflexivity.
Qed.
End Errors.

(** ** The theorems *)
Lemma meeting O D T r s t : ray_at O D r = tri_point T s t ->
  rdot (normal T) (rv_sub (cx T) O) = r * rdot (normal T) D /\ rv_sub (ray_at O D r) (cx T) = rv_add (rv_scale s (edge_u T)) (rv_scale t (edge_v T)).
Proof.
  intros E. assert (X : rv_sub (ray_at O D r) (cx T) = rv_add (rv_scale s (edge_u T)) (rv_scale t (edge_v T))).
  { rewrite E. unfold tri_point. generalize (rv_add (rv_scale s (edge_u T)) (rv_scale t (edge_v T))) as q. intros [a b c]. destruct (cx T) as [c1 c2 c3]. unfold rv_sub, rv_add, zip3v. cbn [cx cy cz]. f_equal; ring. }
  split; [|exact X]. assert (Y : rdot (normal T) (rv_sub (ray_at O D r) (cx T)) = 0).
  { rewrite X. unfold normal. generalize (edge_u T) as a. generalize (edge_v T) as b. intros b a. unfold rdot, rcross, rv_add, rv_scale, zip3v, map3v. cbn [cx cy cz]. ring. }
  clear E X. revert Y. generalize (normal T) as n. intros n. unfold rdot, ray_at, rv_sub, rv_add, rv_scale, zip3v, map3v. cbn [cx cy cz]. intros Y. lra.
Qed.
Lemma steep_b u D T L m : steep u D T L m -> 120 * u * (L * L * m) <= Rabs (rdot (normal T) D) /\ rdot (normal T) D <> 0.
Proof.
  intros (N&B). split; [|exact N]. unfold flatness in B. assert (P : 0 < Rabs (rdot (normal T) D)) by (apply Rabs_pos_lt; exact N).
  replace (120 * u * (L * L * m)) with (120 * u * (L * L * m / Rabs (rdot (normal T) D)) * Rabs (rdot (normal T) D)) by (field; lra).
  apply Rle_trans with (1 * Rabs (rdot (normal T) D)); [apply Rmult_le_compat_r; lra|lra].
Qed.
(** Where the ray meets the plane of a triangle *)
Theorem C92_plane u A O D T L S m H r s t : accurate u A -> measures O D T L S m H r -> steep u D T L m -> ray_at O D r = tri_point T s t ->
  (param_error u D T L S m <= r -> exists r', f_param A true O D T = Some r' /\ near (param_error u D T L S m) r' r /\
     near3 (point_error u D T L S m H) (f_ray_at A O D r') (ray_at O D r)) /\
  (r < - param_error u D T L S m -> f_param A true O D T = None).
Proof.
  intros HA ((PL&PS&Pm&PH)&(HU&HV)&HD&HO&HS&Hr) ST E. destruct (steep_b _ _ _ _ _ ST) as (HB&NB). destruct (meeting _ _ _ _ _ _ E) as (Er&_).
  destruct (fb_nz u A HA D T L m PL Pm HU HV HD HB NB) as (NZ&_).
  pose proof (fr_near u A HA O D T L S m PL PS Pm HU HV HD HS r Er Hr HB NB) as N1. pose proof (point_near u A HA O D T L S m H PL PS Pm PH HU HV HD HO HS r Er Hr HB NB) as N2.
  change (260 * (u * (L * L * m / Rabs (rdot (normal T) D)) * S) / m) with (param_error u D T L S m) in N1.
  change (300 * (u * (L * L * m / Rabs (rdot (normal T) D)) * S) + 2 * (u * H)) with (point_error u D T L S m H) in N2.
  unfold f_param, f_plane. cbv zeta. destruct (Req_EM_T _ 0) as [X|_]; [contradiction|]. assert (B := near_bounds _ _ _ N1). split; intros HH.
  - rewrite Rltb_false by lra. eexists. split; [reflexivity|]. split; [exact N1|exact N2].
  - rewrite Rltb_true by lra. reflexivity.
Qed.
(** A triangle that is hit clearly: in front of the origin and not too close to the border *)
Definition clearly_hit (u : R) (D : v3 R) (T : tri R) (L S m H r s t : R) : Prop :=
  let g := margin u D T L S m H in param_error u D T L S m <= r /\ g <= s /\ g <= t /\ s + t <= 1 - g.
Definition clearly_missed (u : R) (D : v3 R) (T : tri R) (L S m H r s t : R) : Prop :=
  let g := margin u D T L S m H in r < - param_error u D T L S m \/ s < - g \/ t < - g \/ s > 1 + g \/ s + t > 1 + g.
Theorem C92_hit u A O D T L S m H r s t : accurate u A -> measures O D T L S m H r -> steep u D T L m -> 5600 * (u * thinness T L) <= 1 ->
  ray_at O D r = tri_point T s t -> clearly_hit u D T L S m H r s t ->
  exists r', f_param A false O D T = Some r' /\ near (param_error u D T L S m) r' r /\ near3 (point_error u D T L S m H) (f_ray_at A O D r') (ray_at O D r).
Proof.
  intros HA HM ST TH E (C1&C2&C3&C4). destruct (C92_plane u A O D T L S m H r s t HA HM ST E) as (C&_). destruct (C C1) as (r'&F&N1&N2). exists r'. split; [|auto]. clear C N1 N2.
  destruct HM as ((PL&PS&Pm&PH)&(HU&HV)&HD&HO&HS&Hr). destruct (steep_b _ _ _ _ _ ST) as (HB&NB). destruct (meeting _ _ _ _ _ _ E) as (Er&Ew).
  unfold f_param in F |- *. destruct (f_plane A O D T) as [x|] eqn:P; [|discriminate]. injection F as ->.
  assert (X : r' = f_round A (f_dot A (f_cross A (f_sub A (cy T) (cx T)) (f_sub A (cz T) (cx T))) (f_sub A (cx T) O) / f_dot A (f_cross A (f_sub A (cy T) (cx T)) (f_sub A (cz T) (cx T))) D)).
  { destruct (fb_nz u A HA D T L m PL Pm HU HV HD HB NB) as (NZ&_). unfold f_plane in P. cbv zeta in P. destruct (Req_EM_T _ 0) as [Y|_]; [contradiction|]. destruct (Rltb _ 0); congruence. }
  rewrite X. rewrite (inside_true u A HA O D T L S m H PL PS Pm PH HU HV HD HO HS r Er Hr HB NB s t Ew TH C2 C3 C4). reflexivity.
Qed.
Theorem C92_miss u A O D T L S m H r s t : accurate u A -> measures O D T L S m H r -> steep u D T L m -> 5600 * (u * thinness T L) <= 1 ->
  ray_at O D r = tri_point T s t -> clearly_missed u D T L S m H r s t -> f_param A false O D T = None.
Proof.
  intros HA HM ST TH E HC. destruct (C92_plane u A O D T L S m H r s t HA HM ST E) as (_&C).
  destruct HM as ((PL&PS&Pm&PH)&(HU&HV)&HD&HO&HS&Hr). destruct (steep_b _ _ _ _ _ ST) as (HB&NB). destruct (meeting _ _ _ _ _ _ E) as (Er&Ew).
  unfold f_param in C |- *. destruct (f_plane A O D T) as [x|] eqn:P; [|reflexivity]. destruct HC as [HC|HC]; [specialize (C HC); discriminate|].
  assert (X : x = f_round A (f_dot A (f_cross A (f_sub A (cy T) (cx T)) (f_sub A (cz T) (cx T))) (f_sub A (cx T) O) / f_dot A (f_cross A (f_sub A (cy T) (cx T)) (f_sub A (cz T) (cx T))) D)).
  { destruct (fb_nz u A HA D T L m PL Pm HU HV HD HB NB) as (NZ&_). unfold f_plane in P. cbv zeta in P. destruct (Req_EM_T _ 0) as [Y|_]; [contradiction|]. destruct (Rltb _ 0); congruence. }
  rewrite X. rewrite (inside_false u A HA O D T L S m H PL PS Pm PH HU HV HD HO HS r Er Hr HB NB s t Ew TH HC). reflexivity.
Qed.

(** ** Meshes *)
(** Every triangle is hit or missed clearly, and the parameters are off by at most [dl]. *)
Definition clear (u : R) (O D : v3 R) (T : tri R) (S m H dl : R) : Prop := exists L r s t,
  measures O D T L S m H r /\ steep u D T L m /\ 5600 * (u * thinness T L) <= 1 /\ ray_at O D r = tri_point T s t /\ param_error u D T L S m <= dl /\
  (clearly_hit u D T L S m H r s t \/ clearly_missed u D T L S m H r s t).
Lemma coordinates_unique T s t s' t' : normal T <> rv0 -> tri_point T s t = tri_point T s' t' -> s = s' /\ t = t'.
Proof.
  intros N E. assert (X : rv_add (rv_scale (s - s') (edge_u T)) (rv_scale (t - t') (edge_v T)) = rv0).
  { unfold tri_point in E. revert E. generalize (edge_u T) as a. generalize (edge_v T) as b. destruct (cx T) as [c1 c2 c3]. intros b a E. unfold rv_add, rv_scale, zip3v, map3v in *. cbn [cx cy cz] in *.
    injection E as E1 E2 E3. unfold rv0. f_equal; lra. }
  assert (Y : forall k, rv_scale k (normal T) = rv0 -> k = 0).
  { intros k K. destruct (Req_dec k 0) as [Z|Z]; [exact Z|]. exfalso. apply N. destruct (normal T) as [a b c]. unfold rv_scale, map3v, rv0 in *. cbn [cx cy cz] in K. injection K as K1 K2 K3.
    f_equal; [destruct (Rmult_integral _ _ K1)|destruct (Rmult_integral _ _ K2)|destruct (Rmult_integral _ _ K3)]; solve [assumption|contradiction]. }
  revert X. unfold normal in Y. revert Y. generalize (edge_u T) as a. generalize (edge_v T) as b. intros b a Y X.
  assert (X1 : rcross (rv_add (rv_scale (s - s') a) (rv_scale (t - t') b)) b = rv0) by (rewrite X; unfold rcross, rv0; cbn [cx cy cz]; f_equal; ring).
  assert (X2 : rcross a (rv_add (rv_scale (s - s') a) (rv_scale (t - t') b)) = rv0) by (rewrite X; unfold rcross, rv0; cbn [cx cy cz]; f_equal; ring).
  assert (Z1 : s - s' = 0) by (apply Y; rewrite <- X1; unfold rv_scale, rv_add, rcross, zip3v, map3v; cbn [cx cy cz]; f_equal; ring).
  assert (Z2 : t - t' = 0) by (apply Y; rewrite <- X2; unfold rv_scale, rv_add, rcross, zip3v, map3v; cbn [cx cy cz]; f_equal; ring). lra.
Qed.
Lemma error_pos u A D T L S m H r O : accurate u A -> measures O D T L S m H r -> steep u D T L m -> 0 <= param_error u D T L S m /\ 0 <= margin u D T L S m H.
Proof.
  intros HA ((PL&PS&Pm&PH)&_) (N&_). pose proof (u_range u A HA) as U. assert (P : 0 < Rabs (rdot (normal T) D)) by (apply Rabs_pos_lt; exact N).
  assert (F : 0 <= flatness D T L m) by (unfold flatness, Rdiv; apply Rmult_le_pos; [repeat apply Rmult_le_pos; lra|left; apply Rinv_0_lt_compat; exact P]).
  assert (UF : 0 <= u * flatness D T L m * S) by (apply Rmult_le_pos; [apply Rmult_le_pos; [apply U|exact F]|lra]). assert (UH : 0 <= u * H) by (apply Rmult_le_pos; lra).
  split; [unfold param_error, Rdiv; apply Rmult_le_pos; [lra|left; apply Rinv_0_lt_compat; lra]|]. unfold margin. apply Rmult_le_pos.
  - unfold thinness, Rdiv. apply Rmult_le_pos; [repeat apply Rmult_le_pos; lra|]. assert (X : 0 <= rdot (normal T) (normal T)) by (unfold rdot; pose proof (Rle_0_sqr (cx (normal T))); pose proof (Rle_0_sqr (cy (normal T))); pose proof (Rle_0_sqr (cz (normal T))); unfold Rsqr in *; lra).
    destruct X as [X|X]; [left; apply Rinv_0_lt_compat; exact X|rewrite <- X, Rinv_0; lra].
  - assert (0 <= 300 * (320 * (u * flatness D T L m * S) + 3 * (u * H)) / L) by (unfold Rdiv; apply Rmult_le_pos; [lra|left; apply Rinv_0_lt_compat; lra]). lra.
Qed.
(** what one triangle of the mesh contributes *)
Lemma clear_param u A O D T S m H dl : accurate u A -> clear u O D T S m H dl ->
  (exists r r', hit O D T r /\ (forall x, hit O D T x -> x = r) /\ Rabs r * m <= S /\ f_param A false O D T = Some r' /\ near dl r' r) \/
  ((forall x, ~ hit O D T x) /\ f_param A false O D T = None).
Proof.
  intros HA (L&r&s&t&HM&ST&TH&E&ED&HC). destruct (error_pos u A D T L S m H r O HA HM ST) as (EP&MP).
  assert (NN : normal T <> rv0) by (intros X; destruct ST as (N&_); apply N; rewrite X; unfold rdot, rv0; cbn [cx cy cz]; ring).
  assert (UN : forall x, in_tri T (ray_at O D x) -> x = r /\ 0 <= s /\ 0 <= t /\ s + t <= 1).
  { intros x (s'&t'&S1&T1&ST1&X). destruct (meeting _ _ _ _ _ _ X) as (X1&_). destruct (meeting _ _ _ _ _ _ E) as (E1&_). destruct ST as (N&_).
    assert (x = r) by (apply (Rmult_eq_reg_r (rdot (normal T) D)); [congruence|exact N]). subst x. split; [reflexivity|]. rewrite E in X.
    destruct (coordinates_unique T s t s' t' NN X) as (->&->). auto. }
  destruct HC as [HC|HC].
  - left. destruct (C92_hit u A O D T L S m H r s t HA HM ST TH E HC) as (r'&F&N&_). destruct HC as (C1&C2&C3&C4). exists r, r'. split; [split; [lra|exists s, t; repeat split; auto; lra]|].
    split; [intros x (_&X); apply UN in X; apply X|]. split; [apply HM|]. split; [exact F|]. eapply near_le; [exact N|exact ED].
  - right. split; [|apply (C92_miss u A O D T L S m H r s t HA HM ST TH E HC)]. intros x (X0&X). apply UN in X. destruct X as (->&S0&T0&ST0). unfold clearly_missed in HC. cbv zeta in HC. lra.
Qed.
Lemma min_near (f : tri R -> option R) (hits : tri R -> R -> Prop) S m dl M :
  (forall T, In T M -> (exists r r', hits T r /\ (forall x, hits T x -> x = r) /\ Rabs r * m <= S /\ f T = Some r' /\ near dl r' r) \/ ((forall x, ~ hits T x) /\ f T = None)) ->
  (exists r r', f_min (map f M) = Some r' /\ near dl r' r /\ Rabs r * m <= S /\ (exists T, In T M /\ hits T r) /\ forall T x, In T M -> hits T x -> r <= x) \/
  (f_min (map f M) = None /\ forall T x, In T M -> ~ hits T x).
Proof.
  induction M as [|T M IH]; intros HC; [right; split; [reflexivity|intros T x []]|]. destruct (HC T (or_introl eq_refl)) as [(r&r'&Hh&Hu&Hs&F&N)|(Hn&F)];
    (destruct IH as [(q&q'&F'&N'&Hs'&(T'&I&Hq)&Hm)|(F'&Hn')]; [intros T0 I; apply HC; right; exact I| |]); cbn [map f_min]; rewrite F, F'.
  - left. apply near_bounds in N as B. apply near_bounds in N' as B'. destruct (Rle_lt_dec r q) as [LE|LT].
    + exists r, (if Rltb q' r' then q' else r'). split; [reflexivity|]. split; [|split; [exact Hs|split; [exists T; split; [left; reflexivity|exact Hh]|]]].
      * unfold near. apply Rabs_le. case_eq (Rltb q' r'); intros Y; [apply Rltb_iff in Y|apply Rltb_iff_false in Y]; lra.
      * intros T0 x [<-|I0] X; [apply Hu in X; lra|]. apply (Hm T0 x I0) in X. lra.
    + exists q, (if Rltb q' r' then q' else r'). split; [reflexivity|]. split; [|split; [exact Hs'|split; [exists T'; split; [right; exact I|exact Hq]|]]].
      * unfold near. apply Rabs_le. case_eq (Rltb q' r'); intros Y; [apply Rltb_iff in Y|apply Rltb_iff_false in Y]; lra.
      * intros T0 x [<-|I0] X; [apply Hu in X; lra|]. apply (Hm T0 x I0 X).
  - left. exists r, r'. split; [reflexivity|]. split; [exact N|]. split; [exact Hs|]. split; [exists T; split; [left; reflexivity|exact Hh]|].
    intros T0 x [<-|I0] X; [apply Hu in X; lra|]. destruct (Hn' T0 x I0 X).
  - left. exists q, q'. split; [reflexivity|]. split; [exact N'|]. split; [exact Hs'|]. split; [exists T'; split; [right; exact I|exact Hq]|].
    intros T0 x [<-|I0] X; [destruct (Hn x X)|apply (Hm T0 x I0 X)].
  - right. split; [reflexivity|]. intros T0 x [<-|I0] X; [destruct (Hn x X)|apply (Hn' T0 x I0 X)].
Qed.
Lemma ray_near u A O D S m H dl r r' : accurate u A -> 0 <= S -> 0 <= H -> 0 <= dl -> 0 <= m -> below3 m D -> below3 H O -> Rabs r * m <= S -> near dl r' r ->
  near3 (2 * (dl * m) + 3 * (u * (S + H))) (f_ray_at A O D r') (ray_at O D r).
Proof.
  intros HA PS PH Pd Pm HD HO Hr N. pose proof (u_range u A HA) as U.
  assert (DM : 0 <= dl * m) by (apply Rmult_le_pos; lra). destruct (ux u A HA _ DM) as (X1&X2&X3). destruct (ux u A HA _ PS) as (Y1&Y2&Y3). destruct (ux u A HA _ PH) as (Z1&Z2&Z3). 
  assert (X : forall x y, Rabs x <= H -> Rabs y <= m -> near (2 * (dl * m) + 3 * (u * (S + H))) (f_round A (x + f_round A (r' * y))) (x + r * y)).
  { intros x y Bx By. assert (N1 : near (dl * m) (r' * y) (r * y)).
    { unfold near in *. replace (r' * y - r * y) with ((r' - r) * y) by ring. rewrite Rabs_mult. apply Rmult_le_compat; auto; apply Rabs_pos. }
    assert (B1 : Rabs (r * y) <= S) by (rewrite Rabs_mult; apply Rle_trans with (Rabs r * m); [apply Rmult_le_compat_l; [apply Rabs_pos|exact By]|exact Hr]).
    assert (N2 := fl_of u A HA _ _ _ S N1 B1). assert (N3 := near_add _ _ _ _ _ _ (near_refl x) N2).
    eapply near_le; [apply (fl_of u A HA _ _ _ (H + S) N3); eapply Rle_trans; [apply Rabs_triang|]; lra|]. lra. }
  destruct HO as (O1&O2&O3). destruct HD as (D1&D2&D3). unfold near3, f_ray_at, ray_at, rv_add, rv_scale, zip3v, map3v. cbn [cx cy cz]. repeat split; apply X; auto.
Qed.
(** With use_planes the triangles stand for their planes. *)
Definition meets_plane (O D : v3 R) (T : tri R) (r : R) : Prop := 0 <= r /\ exists s t, ray_at O D r = tri_point T s t.
Definition clear_plane (u : R) (O D : v3 R) (T : tri R) (S m H dl : R) : Prop := exists L r s t,
  measures O D T L S m H r /\ steep u D T L m /\ ray_at O D r = tri_point T s t /\ param_error u D T L S m <= dl /\ (param_error u D T L S m <= r \/ r < - param_error u D T L S m).
Lemma plane_param u A O D T S m H dl : accurate u A -> clear_plane u O D T S m H dl ->
  (exists r r', meets_plane O D T r /\ (forall x, meets_plane O D T x -> x = r) /\ Rabs r * m <= S /\ f_param A true O D T = Some r' /\ near dl r' r) \/
  ((forall x, ~ meets_plane O D T x) /\ f_param A true O D T = None).
Proof.
  intros HA (L&r&s&t&HM&ST&E&ED&HC). destruct (error_pos u A D T L S m H r O HA HM ST) as (EP&_). destruct (C92_plane u A O D T L S m H r s t HA HM ST E) as (C1&C2).
  assert (UN : forall x, meets_plane O D T x -> x = r).
  { intros x (_&s'&t'&X). destruct (meeting _ _ _ _ _ _ X) as (X1&_). destruct (meeting _ _ _ _ _ _ E) as (E1&_). destruct ST as (N&_). apply (Rmult_eq_reg_r (rdot (normal T) D)); [congruence|exact N]. }
  destruct HC as [HC|HC].
  - left. destruct (C1 HC) as (r'&F&N&_). exists r, r'. split; [split; [lra|eauto]|]. split; [exact UN|]. split; [apply HM|]. split; [exact F|]. eapply near_le; [exact N|exact ED].
  - right. split; [|apply C2; exact HC]. intros x X. assert (X0 := X). apply UN in X0. destruct X as (X&_). lra.
Qed.
(** The computed point is near the first point of the mesh on the ray; if there is none, none is found. *)
Theorem C92_mesh u A O D M S m H dl : accurate u A -> M <> [] -> (forall T, In T M -> clear u O D T S m H dl) ->
  (exists r p, f_mesh A false O D M = Some (Some p) /\ (exists T, In T M /\ hit O D T r) /\ (forall T x, In T M -> hit O D T x -> r <= x) /\
     near3 (2 * (dl * m) + 3 * (u * (S + H))) p (ray_at O D r)) \/
  (f_mesh A false O D M = Some None /\ forall T x, In T M -> ~ hit O D T x).
Proof.
  intros HA NE HC. assert (F : f_mesh A false O D M = Some (option_map (f_ray_at A O D) (f_min (map (f_param A false O D) M)))) by (destruct M; [contradiction|reflexivity]). rewrite F.
  destruct (min_near (f_param A false O D) (hit O D) S m dl M (fun T I => clear_param u A O D T S m H dl HA (HC T I))) as [(r&r'&F'&N&Hs&(T&I&HT)&HM)|(F'&Hn)]; rewrite F'; cbn [option_map]; [left|right; auto].
  exists r, (f_ray_at A O D r'). split; [reflexivity|]. split; [eauto|]. split; [exact HM|].
  destruct (HC T I) as (L&x&s&t&HME&ST&_&_&ED&_). pose proof (error_pos u A D T L S m H x O HA HME ST) as (EP&_). destruct HME as ((PL&PS&Pm&PH)&_&HD&HO&_). apply (ray_near u A O D S m H dl r r'); auto; lra.
Qed.
Theorem C92_planes u A O D M S m H dl : accurate u A -> M <> [] -> (forall T, In T M -> clear_plane u O D T S m H dl) ->
  (exists r p, f_mesh A true O D M = Some (Some p) /\ (exists T, In T M /\ meets_plane O D T r) /\ (forall T x, In T M -> meets_plane O D T x -> r <= x) /\
     near3 (2 * (dl * m) + 3 * (u * (S + H))) p (ray_at O D r)) \/
  (f_mesh A true O D M = Some None /\ forall T x, In T M -> ~ meets_plane O D T x).
Proof.
  intros HA NE HC. assert (F : f_mesh A true O D M = Some (option_map (f_ray_at A O D) (f_min (map (f_param A true O D) M)))) by (destruct M; [contradiction|reflexivity]). rewrite F.
  destruct (min_near (f_param A true O D) (meets_plane O D) S m dl M (fun T I => plane_param u A O D T S m H dl HA (HC T I))) as [(r&r'&F'&N&Hs&(T&I&HT)&HM)|(F'&Hn)]; rewrite F'; cbn [option_map]; [left|right; auto].
  exists r, (f_ray_at A O D r'). split; [reflexivity|]. split; [eauto|]. split; [exact HM|].
  destruct (HC T I) as (L&x&s&t&HME&ST&_&ED&_). pose proof (error_pos u A D T L S m H x O HA HME ST) as (EP&_). destruct HME as ((PL&PS&Pm&PH)&_&HD&HO&_). apply (ray_near u A O D S m H dl r r'); auto; lra.
Qed.
(** A level ray and a level triangle: it is met at the origin of the ray if it lies in its plane, and not at all otherwise. *)
Theorem C92_level u A O D T L : accurate u A -> 0 < L -> below3 L (edge_u T) -> below3 L (edge_v T) -> 9 * (u * (L * L)) < Rabs (cz (normal T)) ->
  cz (cy T) = cz (cx T) -> cz (cz T) = cz (cx T) -> cz D = 0 ->
  (cz O = cz (cx T) -> f_mesh A true O D [T] = Some (Some (map3v (f_round A) O))) /\
  (cz O <> cz (cx T) -> f_mesh A true O D [T] = Some None /\ f_mesh A false O D [T] = Some None).
Proof.
  intros HA PL HU HV HN E1 E2 ED. set (n := f_cross A (f_sub A (cy T) (cx T)) (f_sub A (cz T) (cx T))).
  assert (N : near3 (9 * (u * (L * L))) n (normal T)) by exact (cross_near u A HA L _ _ _ _ (Rlt_le _ _ PL) (sub_near u A HA L _ _ HU) (sub_near u A HA L _ _ HV) HU HV). destruct N as (_&_&N).
  assert (F0 := fl_0 u A HA). assert (NZ : cz n <> 0).
  { intros X. unfold near in N. rewrite X, Rminus_0_l, Rabs_Ropp in N. lra. }
  assert (NX : cx n = 0 /\ cy n = 0).
  { unfold n, f_cross, f_sub, zip3v. cbn [cx cy cz]. rewrite E1, E2, (Rminus_diag_eq (cz (cx T))), F0 by reflexivity. rewrite !Rmult_0_r, !Rmult_0_l, F0, Rminus_0_r, F0. auto. }
  destruct NX as (NX&NY). pose proof (u_range u A HA) as U. assert (HD := HA). destruct HD as (_&_&_&_&_&HD).
  assert (DZ : forall q, cz q = 0 -> f_dot A n q = 0).
  { intros q Q. specialize (HD n q). unfold rdot in HD. rewrite NX, NY, Q in HD. rewrite !Rmult_0_l, Rmult_0_r, !Rabs_R0, !Rplus_0_l, Rmult_0_r, Rminus_0_r in HD.
    destruct (Req_dec (f_dot A n q) 0) as [X|X]; [exact X|]. apply Rabs_pos_lt in X. lra. }
  assert (DN : forall q, cz q <> 0 -> f_dot A n q <> 0).
  { intros q Q X. specialize (HD n q). unfold rdot in HD. rewrite X, NX, NY in HD. rewrite !Rmult_0_l, !Rabs_R0, !Rplus_0_l, Rminus_0_l, Rabs_Ropp in HD.
    assert (Y : 0 < Rabs (cz n * cz q)) by (apply Rabs_pos_lt; apply Rmult_integral_contrapositive; auto).
    assert (Z : 4 * u * Rabs (cz n * cz q) <= 1 / 2 * Rabs (cz n * cz q)) by (apply Rmult_le_compat_r; lra). lra. }
  split; intros EO.
  - assert (P : f_plane A O D T = Some 0).
    { unfold f_plane. fold n. cbv zeta. rewrite (DZ D ED). destruct (Req_EM_T 0 0) as [_|X]; [|contradiction]. rewrite DZ; [destruct (Req_EM_T 0 0) as [_|X]; [reflexivity|contradiction]|].
      unfold f_sub, zip3v. cbn [cz]. rewrite EO, Rminus_diag_eq by reflexivity. exact F0. }
    unfold f_mesh. cbn [map f_min option_map]. unfold f_param. rewrite P. cbn [option_map]. do 2 f_equal. unfold f_ray_at, zip3v, map3v. rewrite !Rmult_0_l, F0, !Rplus_0_r. reflexivity.
  - assert (P : f_plane A O D T = None).
    { unfold f_plane. fold n. cbv zeta. rewrite (DZ D ED). destruct (Req_EM_T 0 0) as [_|X]; [|contradiction].
      destruct (Req_EM_T _ 0) as [X|_]; [|reflexivity]. exfalso. revert X. apply DN. unfold f_sub, zip3v. cbn [cz]. intros X. destruct (fl_rel u A HA (cz (cx T) - cz O)) as (d&Bd&X'). rewrite X' in X.
      apply Rmult_integral in X. destruct X as [X|X]; [lra|]. assert (Bd' := Rle_abs (- d)). rewrite Rabs_Ropp in Bd'. lra. }
    unfold f_mesh. cbn [map f_min option_map]. unfold f_param. rewrite P. split; reflexivity.
Qed.
Print Assumptions C92_plane.
Print Assumptions C92_planes.
Print Assumptions C92_level.
Print Assumptions C92_hit.
Print Assumptions C92_miss.
Print Assumptions C92_mesh.

(** ** Double precision *)
(** A ray that meets a triangle at a moderate angle, from at most 1000 times its size away: the point is exact to a
    billionth of the size, and the triangle is seen exactly except for two millionths at its border. *)
Theorem C92_double A O D T L S m H r s t : accurate u53 A -> measures O D T L S m H r -> rdot (normal T) D <> 0 -> flatness D T L m <= 10 -> thinness T L <= 10 ->
  S <= 1000 * L -> H <= 1000 * L -> ray_at O D r = tri_point T s t ->
  (L / 1000000000 <= r * m -> 2 / 1000000 <= s -> 2 / 1000000 <= t -> s + t <= 1 - 2 / 1000000 ->
     exists r', f_param A false O D T = Some r' /\ near3 (L / 1000000000) (f_ray_at A O D r') (ray_at O D r)) /\
  (r * m < - (L / 1000000000) \/ s < - (2 / 1000000) \/ t < - (2 / 1000000) \/ s > 1 + 2 / 1000000 \/ s + t > 1 + 2 / 1000000 -> f_param A false O D T = None).
Proof.
  intros HA HM N F TH HS HH E. assert (PM := HM). destruct PM as ((PL&PS&Pm&PH)&_).
  assert (P : 0 < Rabs (rdot (normal T) D)) by (apply Rabs_pos_lt; exact N).
  assert (PF : 0 <= flatness D T L m) by (unfold flatness, Rdiv; apply Rmult_le_pos; [repeat apply Rmult_le_pos; lra|left; apply Rinv_0_lt_compat; exact P]).
  assert (PT : 0 <= thinness T L).
  { unfold thinness, Rdiv. apply Rmult_le_pos; [repeat apply Rmult_le_pos; lra|]. assert (X : 0 <= rdot (normal T) (normal T)) by (unfold rdot; pose proof (Rle_0_sqr (cx (normal T))); pose proof (Rle_0_sqr (cy (normal T))); pose proof (Rle_0_sqr (cz (normal T))); unfold Rsqr in *; lra).
    destruct X as [X|X]; [left; apply Rinv_0_lt_compat; exact X|rewrite <- X, Rinv_0; lra]. }
  assert (ST : steep u53 D T L m) by (split; [exact N|unfold u53; lra]). assert (T5 : 5600 * (u53 * thinness T L) <= 1) by (unfold u53; lra).
  assert (FS : 0 <= flatness D T L m * S <= 10 * (1000 * L)) by (split; [apply Rmult_le_pos; lra|apply Rmult_le_compat; lra]).
  assert (PE : param_error u53 D T L S m * m <= L / 1000000000).
  { unfold param_error. replace (260 * (u53 * flatness D T L m * S) / m * m) with (260 * (u53 * (flatness D T L m * S))) by (field; lra). unfold u53. lra. }
  assert (QE : point_error u53 D T L S m H <= L / 1000000000) by (unfold point_error; rewrite Rmult_assoc; unfold u53; lra).
  assert (ME : margin u53 D T L S m H <= 2 / 1000000).
  { unfold margin. rewrite Rmult_assoc. assert (K : 300 * (320 * (u53 * (flatness D T L m * S)) + 3 * (u53 * H)) / L + 1300 * u53 <= 2 / 10000000).
    { apply (Rmult_le_reg_r L); [exact PL|]. rewrite Rmult_plus_distr_r. unfold Rdiv. rewrite Rmult_assoc, Rinv_l by lra. unfold u53. lra. }
    assert (K0 : 0 <= 300 * (320 * (u53 * (flatness D T L m * S)) + 3 * (u53 * H)) / L + 1300 * u53).
    { apply (Rmult_le_reg_r L); [exact PL|]. rewrite Rmult_plus_distr_r. unfold Rdiv. rewrite Rmult_assoc, Rinv_l by lra. unfold u53. lra. }
    apply Rle_trans with (10 * (2 / 10000000)); [apply Rmult_le_compat; lra|lra]. }
  split.
  - intros C1 C2 C3 C4. destruct (C92_hit u53 A O D T L S m H r s t HA HM ST T5 E) as (r'&X&_&(N1&N2&N3)); [|exists r'; split; [exact X|repeat split; eapply near_le; eauto]].
    unfold clearly_hit. cbv zeta. repeat split; try lra. apply (Rmult_le_reg_r m); lra.
  - intros C. apply (C92_miss u53 A O D T L S m H r s t HA HM ST T5 E). unfold clearly_missed. cbv zeta. destruct C as [C|C]; [left|right; lra]. apply (Rmult_lt_reg_r m); [lra|]. lra.
Qed.
Print Assumptions C92_double.

(** *** A ridge that lets a ray through *)
Lemma dy x z n y : (Z.abs z < 2 ^ 53)%Z -> x = IZR z / IZR (2 ^ Z.of_nat n) -> x = y -> round53 x = y.
Proof. intros B E <-. apply (round53_dyadic x z n B E). Qed.
Lemma r0 x : x = 0 -> round53 x = 0.
Proof. intros ->. apply (round53_dyadic 0 0 0); [reflexivity|]. cbn. lra. Qed.
Ltac dy x z n y := rewrite (dy x z n y) by first [reflexivity|let b := eval vm_compute in (2 ^ Z.of_nat n)%Z in change (2 ^ Z.of_nat n)%Z with b; lra|lra].
(** the parameter is a little too small, so the point is 2^-53 above the ridge *)
Lemma r49 : round53 (2 / 98) = 5882252574524729 / 288230376151711744.
Proof. apply (round53_to _ 58 5882252574524729); [rewrite Rabs_right by lra|]; change (2 ^ Z.of_nat 58)%Z with 288230376151711744%Z; lra. Qed.
Lemma m49 : round53 (5882252574524729 / 288230376151711744 * -49) = -9007199254740991 / 9007199254740992.
Proof. apply (round53_to _ 53 (-9007199254740991)); [rewrite Rabs_left by lra|]; change (2 ^ Z.of_nat 53)%Z with 9007199254740992%Z; lra. Qed.
Definition left_side : tri R := V3 (V3 0 (-1) 0) (V3 0 1 0) (V3 1 0 (-1)).
Definition right_side : tri R := V3 (V3 0 1 0) (V3 0 (-1) 0) (V3 (-1) 0 (-1)).
Ltac missed :=
  unfold f_param, f_plane, f_cross, f_sub, left_side, right_side, zip3v, binary64; cbn [cx cy cz f_round f_dot]; cbv zeta;
  ints; zs; destruct (Req_EM_T 98 0); [lra|]; rewrite r49; rewrite Rltb_false by lra;
  unfold f_inside, f_ray_at, f_sub, left_side, right_side, zip3v, binary64; cbn [cx cy cz f_round f_dot]; cbv zeta; rewrite m49; rewrite !(r0 (_ * 0)) by ring;
  ints; zs;
  dy (1 + -9007199254740991 / 9007199254740992) 1%Z 53%nat (/ 9007199254740992); dy (/ 9007199254740992 - 0) 1%Z 53%nat (/ 9007199254740992);
  dy (/ 9007199254740992 * -1) (-1)%Z 53%nat (- / 9007199254740992); rewrite !(r0 (_ * 0)) by ring; ints; zs;
  dy (1 + - / 9007199254740992) 9007199254740991%Z 53%nat (9007199254740991 / 9007199254740992);
  dy (2 * (9007199254740991 / 9007199254740992)) 9007199254740991%Z 52%nat (9007199254740991 / 4503599627370496);
  dy (4 * (9007199254740991 / 9007199254740992)) 9007199254740991%Z 51%nat (9007199254740991 / 2251799813685248);
  dy (4 - 9007199254740991 / 2251799813685248) 1%Z 51%nat (/ 2251799813685248);
  generalize (round53 (9007199254740991 / 4503599627370496 - 6)); intros x; unfold f_quot; destruct (Req_EM_T (-8) 0); [lra|]; cbn [f_round];
  dy (/ 2251799813685248 / -8) (-1)%Z 54%nat (- / 18014398509481984);
  assert (NG : (Fin (- / 18014398509481984) <? Fin 0)%num = true) by (apply Rltb_true; lra); rewrite NG, orb_true_r; reflexivity.
Lemma left_missed : f_param binary64 false (V3 0 0 1) (V3 0 0 (-49)) left_side = None.
Proof. missed. Qed.
Lemma right_missed : f_param binary64 false (V3 0 0 1) (V3 0 0 (-49)) right_side = None.
Proof. missed. Qed.
(** Without a distance from the border the claim is false: two triangles that share an edge cover everything around the
    ray, and the ray passes between them. *)
Theorem C92_ridge_refuted : exists D M, (forall x y, Rabs x + Rabs y <= 1 -> exists T r, In T M /\ hit (V3 x y 1) D T r) /\
  f_mesh binary64 false (V3 0 0 1) D M = Some None.
Proof.
  exists (V3 0 0 (-49)), [left_side; right_side]. split.
  - intros x y B. pose proof (Rle_abs y). pose proof (Rle_abs (- y)) as Y. rewrite Rabs_Ropp in Y. destruct (Rle_lt_dec 0 x) as [P|P].
    + rewrite (Rabs_right x) in B by lra. exists left_side, ((1 + x) / 49). split; [left; reflexivity|]. split; [lra|]. exists ((y + 1 - x) / 2), x. repeat split; try lra.
      unfold left_side. vring. f_equal; field.
    + rewrite (Rabs_left x) in B by lra. exists right_side, ((1 - x) / 49). split; [right; left; reflexivity|]. split; [lra|]. exists ((1 - y + x) / 2), (- x). repeat split; try lra.
      unfold right_side. vring. f_equal; field.
  - unfold f_mesh. cbn [map]. rewrite left_missed, right_missed. reflexivity.
Qed.
Print Assumptions C92_ridge_refuted.

(** ** Examples *)
Definition floor_tri (z : R) : tri R := V3 (V3 0 0 z) (V3 1 0 z) (V3 0 1 z).
Lemma floor_normal z : normal (floor_tri z) = V3 0 0 1.
Proof. unfold floor_tri. vring. f_equal; ring. Qed.
Lemma floor_measures x y z : Rabs x <= 3 -> Rabs y <= 3 -> 0 <= z <= 8 -> measures (V3 x y 10) (V3 0 0 (-1)) (floor_tri z) 1 10 1 10 (10 - z).
Proof.
  intros X Y Z. pose proof (Rle_abs x). pose proof (Rle_abs (- x)) as X1. rewrite Rabs_Ropp in X1. pose proof (Rle_abs y). pose proof (Rle_abs (- y)) as Y1. rewrite Rabs_Ropp in Y1.
  unfold measures, below3, floor_tri. vring. repeat split; try lra; try (apply Rabs_le; lra). rewrite Rabs_right; lra.
Qed.
Lemma floor_flat z : flatness (V3 0 0 (-1)) (floor_tri z) 1 1 = 1.
Proof. unfold flatness. rewrite floor_normal. unfold rdot. cbn [cx cy cz]. replace (0 * 0 + 0 * 0 + 1 * -1) with (-1) by ring. rewrite Rabs_left by lra. field. Qed.
Lemma floor_thin z : thinness (floor_tri z) 1 = 1.
Proof. unfold thinness. rewrite floor_normal. unfold rdot. cbn [cx cy cz]. field. Qed.
Lemma floor_steep z : steep u53 (V3 0 0 (-1)) (floor_tri z) 1 1.
Proof. split; [rewrite floor_normal; unfold rdot; cbn [cx cy cz]; lra|rewrite floor_flat; unfold u53; lra]. Qed.
Lemma floor_point x y z : ray_at (V3 x y 10) (V3 0 0 (-1)) (10 - z) = tri_point (floor_tri z) x y.
Proof. unfold floor_tri. vring. f_equal; ring. Qed.
Example C92_hit_example : exists r', f_param binary64 false (V3 (1/4) (1/3) 10) (V3 0 0 (-1)) (floor_tri 2) = Some r' /\
  near3 (/ 1000000000) (f_ray_at binary64 (V3 (1/4) (1/3) 10) (V3 0 0 (-1)) r') (V3 (1/4) (1/3) 2).
Proof.
  destruct (C92_hit u53 binary64 (V3 (1/4) (1/3) 10) (V3 0 0 (-1)) (floor_tri 2) 1 10 1 10 (10 - 2) (1/4) (1/3) binary64_accurate) as (r'&X&_&N).
  - apply floor_measures; try lra; rewrite Rabs_right; lra.
  - apply floor_steep.
  - rewrite floor_thin. unfold u53. lra.
  - apply floor_point.
  - unfold clearly_hit, param_error, margin. cbv zeta. rewrite floor_flat, floor_thin. unfold u53. lra.
  - exists r'. split; [exact X|]. rewrite floor_point in N. destruct N as (N1&N2&N3). unfold point_error in *. rewrite floor_flat in *.
    assert (Q : tri_point (floor_tri 2) (1/4) (1/3) = V3 (1/4) (1/3) 2) by (unfold floor_tri; vring; f_equal; lra). rewrite Q in *. repeat split; (eapply near_le; [eassumption|unfold u53; lra]).
Qed.
Example C92_miss_example : f_param binary64 false (V3 2 (1/3) 10) (V3 0 0 (-1)) (floor_tri 2) = None.
Proof.
  apply (C92_miss u53 binary64 (V3 2 (1/3) 10) (V3 0 0 (-1)) (floor_tri 2) 1 10 1 10 (10 - 2) 2 (1/3) binary64_accurate).
  - apply floor_measures; try lra; rewrite Rabs_right; lra.
  - apply floor_steep.
  - rewrite floor_thin. unfold u53. lra.
  - apply floor_point.
  - unfold clearly_missed, margin. cbv zeta. rewrite floor_flat, floor_thin. unfold u53. lra.
Qed.
Example C92_plane_example : exists r', f_param binary64 true (V3 2 (1/3) 10) (V3 0 0 (-1)) (floor_tri 2) = Some r' /\ near (/ 1000000000) r' 8.
Proof.
  destruct (C92_plane u53 binary64 (V3 2 (1/3) 10) (V3 0 0 (-1)) (floor_tri 2) 1 10 1 10 (10 - 2) 2 (1/3) binary64_accurate) as (X&_).
  - apply floor_measures; try lra; rewrite Rabs_right; lra.
  - apply floor_steep.
  - apply floor_point.
  - unfold param_error in X. rewrite floor_flat in X. destruct X as (r'&E&N&_); [unfold u53; lra|]. exists r'. split; [exact E|]. replace 8 with (10 - 2) by ring. eapply near_le; [exact N|unfold u53; lra].
Qed.
(** three floors above each other, the highest one ends before the ray: the middle one is seen *)
Example C92_mesh_example : let O := V3 (1/4) (1/3) 10 in let D := V3 0 0 (-1) in let M := [floor_tri 0; V3 (V3 3 3 5) (V3 4 3 5) (V3 3 4 5); floor_tri 2] in
  exists p, f_mesh binary64 false O D M = Some (Some p) /\ near3 (/ 1000000000) p (V3 (1/4) (1/3) 2).
Proof.
  intros O D M. assert (CF : forall z, 0 <= z <= 8 -> clear u53 O D (floor_tri z) 10 1 10 (/ 100000000000)).
  { intros z Z. exists 1, (10 - z), (1/4), (1/3). split; [apply floor_measures; auto; rewrite Rabs_right; lra|]. split; [apply floor_steep|]. split; [rewrite floor_thin; unfold u53; lra|].
    split; [apply floor_point|]. unfold clearly_hit, param_error, margin. cbv zeta. rewrite floor_flat, floor_thin. unfold u53. split; [lra|]. left. lra. }
  assert (CU : clear u53 O D (V3 (V3 3 3 5) (V3 4 3 5) (V3 3 4 5)) 10 1 10 (/ 100000000000)).
  { set (T := V3 (V3 3 3 5) (V3 4 3 5) (V3 3 4 5)). assert (NT : normal T = V3 0 0 1) by (unfold T; vring; f_equal; ring).
    assert (FT : flatness D T 1 1 = 1) by (unfold flatness; rewrite NT; unfold rdot, D; cbn [cx cy cz]; replace (0 * 0 + 0 * 0 + 1 * -1) with (-1) by ring; rewrite Rabs_left by lra; field).
    assert (TT : thinness T 1 = 1) by (unfold thinness; rewrite NT; unfold rdot; cbn [cx cy cz]; field).
    exists 1, 5, (1/4 - 3), (1/3 - 3). split.
    { unfold measures, below3, T, O, D. vring. repeat split; try lra; try (apply Rabs_le; lra). rewrite Rabs_right; lra. }
    split; [split; [rewrite NT; unfold rdot, D; cbn [cx cy cz]; lra|rewrite FT; unfold u53; lra]|]. split; [rewrite TT; unfold u53; lra|]. split; [unfold T, O, D; vring; f_equal; lra|].
    unfold clearly_missed, param_error, margin. cbv zeta. rewrite FT, TT. unfold u53. split; [lra|]. right. lra. }
  assert (H2 : hit O D (floor_tri 2) (10 - 2)) by (split; [lra|]; exists (1/4), (1/3); repeat split; try lra; apply floor_point).
  destruct (C92_mesh u53 binary64 O D M 10 1 10 (/ 100000000000) binary64_accurate) as [(r&p&E&(T&IT&HT)&HM&N)|(_&X)].
  - discriminate.
  - intros T [<-|[<-|[<-|[]]]]; [apply CF; lra|exact CU|apply CF; lra].
  - exists p. split; [exact E|]. assert (R2 : r <= 10 - 2) by (apply (HM (floor_tri 2)); [right; right; left; reflexivity|exact H2]).
    assert (R8 : r = 10 - 2).
    { destruct HT as (_&(s&t&S0&T0&ST&X)). revert X. unfold M in IT. destruct IT as [<-|[<-|[<-|[]]]]; unfold floor_tri, O, D; vring; intros X; injection X as X1 X2 X3; lra. }
    rewrite R8 in N. unfold O, D in N. rewrite floor_point in N. assert (Q : tri_point (floor_tri 2) (1/4) (1/3) = V3 (1/4) (1/3) 2) by (unfold floor_tri; vring; f_equal; lra). rewrite Q in N.
    destruct N as (N1&N2&N3). repeat split; (eapply near_le; [eassumption|unfold u53; lra]).
  - destruct (X (floor_tri 2) (10 - 2)); [right; right; left; reflexivity|exact H2].
Qed.
Example C92_double_example : f_param binary64 false (V3 (1/4) (4/5) 10) (V3 0 0 (-1)) (floor_tri 2) = None /\
  exists r', f_param binary64 false (V3 (1/4) (2/3) 10) (V3 0 0 (-1)) (floor_tri 2) = Some r'.
Proof.
  split.
  - apply (C92_double binary64 (V3 (1/4) (4/5) 10) (V3 0 0 (-1)) (floor_tri 2) 1 10 1 10 (10 - 2) (1/4) (4/5) binary64_accurate); try lra.
    + apply floor_measures; try lra; rewrite Rabs_right; lra.
    + apply floor_steep.
    + rewrite floor_flat. lra.
    + rewrite floor_thin. lra.
    + apply floor_point.
  - destruct (C92_double binary64 (V3 (1/4) (2/3) 10) (V3 0 0 (-1)) (floor_tri 2) 1 10 1 10 (10 - 2) (1/4) (2/3) binary64_accurate) as (X&_); try lra.
    + apply floor_measures; try lra; rewrite Rabs_right; lra.
    + apply floor_steep.
    + rewrite floor_flat. lra.
    + rewrite floor_thin. lra.
    + apply floor_point.
    + destruct X as (r'&X&_); try lra. exists r'. exact X.
Qed.
Example C92_planes_example : exists p, f_mesh binary64 true (V3 2 (1/3) 10) (V3 0 0 (-1)) [floor_tri 0; floor_tri 2] = Some (Some p) /\ near3 (/ 1000000000) p (V3 2 (1/3) 2).
Proof.
  assert (CF : forall z, 0 <= z <= 8 -> clear_plane u53 (V3 2 (1/3) 10) (V3 0 0 (-1)) (floor_tri z) 10 1 10 (/ 100000000000)).
  { intros z Z. exists 1, (10 - z), 2, (1/3). split; [apply floor_measures; auto; rewrite Rabs_right; lra|]. split; [apply floor_steep|].
    split; [apply floor_point|]. unfold param_error. rewrite floor_flat. unfold u53. split; [lra|]. left. lra. }
  assert (H2 : meets_plane (V3 2 (1/3) 10) (V3 0 0 (-1)) (floor_tri 2) (10 - 2)) by (split; [lra|]; exists 2, (1/3); apply floor_point).
  destruct (C92_planes u53 binary64 (V3 2 (1/3) 10) (V3 0 0 (-1)) [floor_tri 0; floor_tri 2] 10 1 10 (/ 100000000000) binary64_accurate) as [(r&p&E&(T&IT&HT)&HM&N)|(_&X)].
  - discriminate.
  - intros T [<-|[<-|[]]]; apply CF; lra.
  - exists p. split; [exact E|]. assert (R2 : r <= 10 - 2) by (apply (HM (floor_tri 2)); [right; left; reflexivity|exact H2]).
    assert (R8 : r = 10 - 2).
    { destruct HT as (_&(s&t&X)). revert X. destruct IT as [<-|[<-|[]]]; unfold floor_tri; vring; intros X; injection X as X1 X2 X3; lra. }
    rewrite R8 in N. rewrite floor_point in N. assert (Q : tri_point (floor_tri 2) 2 (1/3) = V3 2 (1/3) 2) by (unfold floor_tri; vring; f_equal; lra). rewrite Q in N.
    destruct N as (N1&N2&N3). repeat split; (eapply near_le; [eassumption|unfold u53; lra]).
  - destruct (X (floor_tri 2) (10 - 2)); [right; left; reflexivity|exact H2].
Qed.
Example C92_level_example : f_mesh binary64 true (V3 5 7 2) (V3 3 1 0) [floor_tri 2] = Some (Some (V3 5 7 2)) /\ f_mesh binary64 true (V3 5 7 2) (V3 3 1 0) [floor_tri 3] = Some None.
Proof.
  assert (K : forall z, 0 < 1 /\ below3 1 (edge_u (floor_tri z)) /\ below3 1 (edge_v (floor_tri z)) /\ 9 * (u53 * (1 * 1)) < Rabs (cz (normal (floor_tri z)))).
  { intros z. rewrite floor_normal. unfold below3, floor_tri, u53. vring. repeat split; try lra; try (apply Rabs_le; lra). rewrite Rabs_right; lra. }
  split.
  - destruct (K 2) as (K1&K2&K3&K4). destruct (C92_level u53 binary64 (V3 5 7 2) (V3 3 1 0) (floor_tri 2) 1 binary64_accurate K1 K2 K3 K4 eq_refl eq_refl eq_refl) as (X&_). rewrite (X eq_refl).
    unfold map3v, binary64. cbn [f_round cx cy cz]. rewrite (dy 5 5 0 5), (dy 7 7 0 7), (dy 2 2 0 2); try reflexivity; cbn; lra.
  - destruct (K 3) as (K1&K2&K3&K4). apply (C92_level u53 binary64 (V3 5 7 2) (V3 3 1 0) (floor_tri 3) 1 binary64_accurate K1 K2 K3 K4 eq_refl eq_refl eq_refl). cbn. lra.
Qed.
