(** * C14, C24, C27: lines in batches, and the distance of a point from a line *)
Require Import Reals Lra Lia List Bool Arith.
From Verif Require Import Num Vec Orientation OrientationFacts Projection ProjectionFacts Ray RayFacts CameraTransform CameraFacts PropCamera Stereo NdArray NdCamera NdRay NdLine PropBatch PropRay PropStereo.
Import ListNotations.
Open Scope R_scope.

(** ** C24: the distance of a point from a line *)
(** [d] is the distance of [Q] from the line through [P] along [V] *)
Definition line_dist (P V Q : v3 R) (d : R) : Prop :=
  (exists s, d = rdist (line_at P V s) Q) /\ forall s, d <= rdist (line_at P V s) Q.
Lemma line_dist_uniq P V Q d e : line_dist P V Q d -> line_dist P V Q e -> d = e.
Proof. intros ((s&->)&A) ((t&->)&B). apply Rle_antisym; [apply A|apply B]. Qed.
Lemma cross_dist P V Q : V <> rv0 -> exists d, line_dist P V Q d /\ 0 <= d /\
  d * d * rdot V V = rdot (rcross V (rv_sub P Q)) (rcross V (rv_sub P Q)).
Proof.
  intros NZ. assert (VV : 0 < rdot V V) by (rewrite <- rnorm_sqr; pose proof (rnorm_pos _ NZ); nra).
  set (s := rdot V (rv_sub Q P) / rdot V V).
  exists (rdist (line_at P V s) Q).
  assert (K : s * rdot V V = rdot V (rv_sub Q P)) by (unfold s; field; lra). clearbody s.
  assert (EQ : forall s', rdot (rv_sub (line_at P V s') Q) (rv_sub (line_at P V s') Q) =
    rdot (rv_sub (line_at P V s) Q) (rv_sub (line_at P V s) Q) + (s' - s) * (s' - s) * rdot V V).
  { intros s'. transitivity (rdot (rv_sub (line_at P V s) Q) (rv_sub (line_at P V s) Q) + (s' - s) * (s' - s) * rdot V V
      + 2 * (s' - s) * (s * rdot V V - rdot V (rv_sub Q P))); [unfold line_at; vring; ring|]. rewrite K. ring. }
  split; [split; [exists s; reflexivity|]|split].
  - intros s'. apply rdist_le. rewrite (EQ s'). assert (0 <= (s' - s) * (s' - s)) by exact (Rle_0_sqr (s' - s)).
    assert (0 <= (s' - s) * (s' - s) * rdot V V) by (apply Rmult_le_pos; lra). lra.
  - unfold rdist, rnorm. apply sqrt_pos.
  - unfold rdist. rewrite rnorm_sqr.
    transitivity (rdot (rcross V (rv_sub P Q)) (rcross V (rv_sub P Q)) + (s * rdot V V - rdot V (rv_sub Q P)) * (s * rdot V V - rdot V (rv_sub Q P)));
      [unfold line_at; vring; ring|]. rewrite K. ring.
Qed.
Lemma sqr_eq a b : 0 <= a -> 0 <= b -> a * a = b * b -> a = b.
Proof. intros. nra. Qed.

(** distanceLinePoint gives the distance, which is the length of the perpendicular getClosestPointFromLine drops. *)
Theorem C24_distance : forall p1 v1 p2 P1 V P2,
  rep3 p1 P1 -> rep3 v1 V -> rep3 p2 P2 -> V <> rv0 ->
  exists d F, rep (distanceLinePoint p1 v1 p2) d /\ line_dist P1 V P2 d /\
    rep3 (fst (getClosestPointFromLine p1 v1 p2)) F /\ d = rdist F P2.
Proof.
  intros p1 v1 p2 P1 V P2 H1 Hv H2 NZ. pose proof (rnorm_pos _ NZ) as NP.
  destruct (cross_dist P1 V P2 NZ) as (d&LD&D0&E).
  destruct (C24_foot_of_perpendicular p1 v1 p2 P1 V P2 H1 Hv H2 NZ) as (s&RF&_&MIN&_).
  exists d, (line_at P1 V s). splits; auto.
  - unfold distanceLinePoint. eapply rep_eq; [apply rep_div; [apply rep_norm, rep3_cross; [exact Hv|apply rep3_sub; eauto]|apply rep_norm, Hv|lra]|].
    apply sqr_eq; auto.
    + apply Rmult_le_pos; [unfold rnorm; apply sqrt_pos|]. left. apply Rinv_0_lt_compat, NP.
    + apply Rmult_eq_reg_r with (rnorm V * rnorm V); [|nra]. rewrite rnorm_sqr at 2. rewrite E, <- rnorm_sqr. field; lra.
  - apply (line_dist_uniq P1 V P2); auto. split; [exists s; reflexivity|exact MIN].
Qed.
Print Assumptions C24_distance.
(** A zero direction gives nan. *)
Theorem C24_distance_zero_nan : forall p1 p2 P1 P2, rep3 p1 P1 -> rep3 p2 P2 -> distanceLinePoint p1 (fin3 rv0) p2 = NaN.
Proof.
  intros p1 p2 P1 P2 H1 H2. unfold distanceLinePoint. apply ndiv_0_0.
  - eapply rep_eq; [apply rep_norm, rep3_cross; [apply rep3_fin|apply rep3_sub; eauto]|].
    transitivity (rnorm rv0); [f_equal; apply v3_ext; vring; ring|apply rnorm_rv0].
  - eapply rep_eq; [apply rep_norm, rep3_fin|apply rnorm_rv0].
Qed.
Print Assumptions C24_distance_zero_nan.
(** The line through (0, 0, 0) along (2, 0, 0) is 4 away from (3, 4, 0). *)
Example C24_distance_example : rep (distanceLinePoint (fin3 (V3 0 0 0)) (fin3 (V3 2 0 0)) (fin3 (V3 3 4 0))) 4.
Proof.
  destruct (C24_distance (fin3 (V3 0 0 0)) (fin3 (V3 2 0 0)) (fin3 (V3 3 4 0)) _ _ _ (rep3_fin _) (rep3_fin _) (rep3_fin _)) as (d&F&Rd&((s&E)&M)&_).
  { vring. intros H; injection H; lra. }
  eapply rep_eq; [exact Rd|]. apply Rle_antisym.
  - eapply Rle_trans; [apply (M (3 / 2))|]. unfold rdist, rnorm, line_at. vring. match goal with |- sqrt ?x <= _ => replace x with (4 * 4) by field end. rewrite sqrt_square; lra.
  - rewrite E. unfold rdist, rnorm, line_at. apply Rle_trans with (sqrt (4 * 4)); [rewrite sqrt_square; lra|]. apply sqrt_le_1_alt. vring.
    pose proof (Rle_0_sqr (s * 2 - 3)) as Q; unfold Rsqr in Q. lra.
Qed.

(** *** On arrays *)
Definition total (l : list R) : R := fold_right Rplus 0 l.
Lemma rep_total {A} (h : A -> num) (H : A -> R) l : (forall x, In x l -> rep (h x) (H x)) ->
  rep (fold_right nadd (Fin 0) (map h l)) (total (map H l)).
Proof.
  induction l as [|a l IH]; intros K; [apply rep_Fin|]. cbn [map fold_right total]. apply rep_add; [apply K; left; auto|apply IH; intros x I; apply K; right; auto].
Qed.
Lemma total_scale k (f : nat -> R) l : total (map (fun j => k * f j) l) = k * total (map f l).
Proof. induction l as [|a l IH]; cbn [map total fold_right]; [ring|]. fold (total (map (fun j => k * f j) l)) (total (map f l)). rewrite IH. ring. Qed.
Lemma total_ext (f g : nat -> R) l : (forall j, In j l -> f j = g j) -> total (map f l) = total (map g l).
Proof. intros H. f_equal. apply map_ext_in, H. Qed.
Lemma total_le (f g : nat -> R) l : (forall j, In j l -> f j <= g j) -> total (map f l) <= total (map g l).
Proof.
  induction l as [|a l IH]; intros H; cbn [map total fold_right]; [lra|]. fold (total (map f l)) (total (map g l)).
  apply Rplus_le_compat; [apply H; left; auto|apply IH; intros j I; apply H; right; auto].
Qed.
Lemma total_0 (f : nat -> R) l : (forall j, In j l -> 0 <= f j) -> 0 <= total (map f l).
Proof.
  intros H. apply Rle_trans with (total (map (fun _ => 0 * 0) l)); [right; rewrite (total_scale 0 (fun _ => 0)); ring|].
  apply total_le. intros j I. rewrite Rmult_0_l. auto.
Qed.
Lemma total_pos (f : nat -> R) l k : (forall j, In j l -> 0 <= f j) -> In k l -> 0 < f k -> 0 < total (map f l).
Proof.
  induction l as [|a l IH]; intros H I P; [destruct I|]. cbn [map total fold_right]. fold (total (map f l)).
  assert (0 <= total (map f l)) by (apply total_0; intros; apply H; right; auto). assert (0 <= f a) by (apply H; left; auto).
  destruct I as [-> |I]; [lra|]. assert (0 < total (map f l)) by (apply IH; auto; intros; apply H; right; auto). lra.
Qed.
(** the squares of the rows *)
Lemma all_idx_rows n : all_idx [3; n]%nat = flat_map (fun k => [[0; k]; [1; k]; [2; k]]%nat) (seq 0 n).
Proof.
  cbn [all_idx flat_map]. rewrite app_nil_r. generalize (seq 0 n). induction l as [|a l IH]; auto.
  cbn [map flat_map]. rewrite IH. reflexivity.
Qed.
Lemma norm_all_rows a n (F : nat -> v3 R) : dims a = [3; n]%nat -> (forall j, (j < n)%nat -> rep3 (row3 a [j]) (F j)) ->
  rep (norm_all a) (sqrt (total (map (fun j => rdot (F j) (F j)) (seq 0 n)))).
Proof.
  intros D G. unfold norm_all. rewrite D, all_idx_rows.
  assert (P : forall j, 0 <= rdot (F j) (F j)) by (intros j; rewrite <- rnorm_sqr; apply Rle_0_sqr).
  apply rep_sqrt; [|apply total_0; auto].
  assert (K : forall l, (forall j, In j l -> (j < n)%nat) ->
    rep (fold_right nadd (Fin 0) (map (fun i => get a i * get a i)%num (flat_map (fun k => [[0; k]; [1; k]; [2; k]]%nat) l))) (total (map (fun j => rdot (F j) (F j)) l))).
  { induction l as [|j l IH]; intros H; [apply rep_Fin|]. cbn [flat_map app map fold_right total]. fold (total (map (fun j => rdot (F j) (F j)) l)).
    destruct (G j) as (X&Y&Z); [apply H; left; auto|]. cbn [row3 cx cy cz] in X, Y, Z.
    eapply rep_eq; [apply rep_add; [apply rep_mul; eauto|apply rep_add; [apply rep_mul; eauto|apply rep_add; [apply rep_mul; eauto|apply IH; intros; apply H; right; auto]]]|].
    unfold rdot. ring. }
  apply K. intros j I. apply in_seq in I. lia.
Qed.
Lemma norm_all_vec a F : dims a = [3]%nat -> rep3 (row3 a []) F -> rep (norm_all a) (rnorm F).
Proof.
  intros D (X&Y&Z). cbn [row3 cx cy cz] in X, Y, Z. unfold norm_all. rewrite D. cbn [all_idx flat_map map seq app fold_right].
  eapply rep_eq; [apply rep_sqrt|reflexivity].
  - eapply rep_eq; [apply rep_add; [apply rep_mul; eauto|apply rep_add; [apply rep_mul; eauto|apply rep_add; [apply rep_mul; eauto|apply rep_Fin]]]|]. unfold rdot. ring.
  - rewrite <- rnorm_sqr. apply Rle_0_sqr.
Qed.
Theorem C24_distance_array : forall p1 v1 p2 P1 V P2,
  dims p1 = [3]%nat -> dims v1 = [3]%nat -> dims p2 = [3]%nat -> rep3 (row3 p1 []) P1 -> rep3 (row3 v1 []) V -> rep3 (row3 p2 []) P2 -> V <> rv0 ->
  exists x d, distanceLinePoint_a p1 v1 p2 = Some x /\ rep x d /\ line_dist P1 V P2 d.
Proof.
  intros [d1 g1] [dv gv] [d2 g2] P1 V P2 D1 Dv D2 H1 Hv H2 NZ. cbn [dims] in *. subst.
  destruct (cross_dist P1 V P2 NZ) as (d&LD&D0&E). pose proof (rnorm_pos _ NZ) as NP.
  unfold distanceLinePoint_a, ew2. cbn [dims bdims Nat.eqb obind cross_b]. eexists _, d. split; [reflexivity|]. split; auto.
  eapply rep_eq; [apply rep_div; [apply norm_all_vec; [reflexivity|]|apply norm_all_vec; [reflexivity|exact Hv]|lra]|].
  { unfold row3 at 1. cbn [get bidx]. 
    apply rep3_cross; [exact Hv|]. exact (rep3_sub _ _ _ _ H1 H2). }
  apply sqr_eq; auto.
  + apply Rmult_le_pos; [unfold rnorm; apply sqrt_pos|]. left. apply Rinv_0_lt_compat, NP.
  + apply Rmult_eq_reg_r with (rnorm V * rnorm V); [|nra]. rewrite rnorm_sqr at 2. rewrite E, <- rnorm_sqr. field; lra.
Qed.
Print Assumptions C24_distance_array.

(** Several directions give one number, somewhere between the smallest and the largest of the distances. *)
Theorem C24_distance_batch : forall p1 v1 p2 n P1 V P2,
  dims p1 = [3]%nat -> dims v1 = [3; n]%nat -> dims p2 = [3]%nat -> rep3 (row3 p1 []) P1 -> rep3 (row3 p2 []) P2 ->
  (forall j, (j < n)%nat -> rep3 (row3 v1 [j]) (V j)) -> (exists j, (j < n)%nat /\ V j <> rv0) ->
  exists x d, distanceLinePoint_a p1 v1 p2 = Some x /\ rep x d /\
    (forall lo hi, (forall j e, (j < n)%nat -> V j <> rv0 -> line_dist P1 (V j) P2 e -> lo <= e <= hi) -> lo <= d <= hi) /\
    d * d * total (map (fun j => rdot (V j) (V j)) (seq 0 n)) =
      total (map (fun j => rdot (rcross (V j) (rv_sub P1 P2)) (rcross (V j) (rv_sub P1 P2))) (seq 0 n)).
Proof.
  intros [d1 g1] [dv gv] [d2 g2] n P1 V P2 D1 Dv D2 H1 H2 Hv (j0&L0&NZ). cbn [dims] in *. subst.
  unfold distanceLinePoint_a, ew2. cbn [dims bdims Nat.eqb obind cross_b].
  match goal with |- context [norm_all (Arr ?s ?g)] => set (c := Arr s g) end.
  assert (RC : rep (norm_all c) (sqrt (total (map (fun j => rdot (rcross (V j) (rv_sub P1 P2)) (rcross (V j) (rv_sub P1 P2))) (seq 0 n))))).
  { apply (norm_all_rows c n (fun j => rcross (V j) (rv_sub P1 P2))); [reflexivity|]. intros j L. unfold c, row3 at 1. cbn [get bidx].
    destruct (Nat.eqb_spec n 1); [replace j with 0%nat by lia|];
    match goal with |- rep3 (V3 (get (of3 ?c) _) _ _) ?X => change (rep3 c X) end;
    (apply rep3_cross; [apply (Hv _); lia|]; exact (rep3_sub _ _ _ _ H1 H2)). }
  pose proof (norm_all_rows (Arr [3; n]%nat gv) n V eq_refl Hv) as RV.
  assert (P0 : forall A : v3 R, 0 <= rdot A A) by (intros A; rewrite <- rnorm_sqr; apply Rle_0_sqr).
  set (W := total (map (fun j => rdot (V j) (V j)) (seq 0 n))) in *.
  set (C := total (map (fun j => rdot (rcross (V j) (rv_sub P1 P2)) (rcross (V j) (rv_sub P1 P2))) (seq 0 n))) in *.
  assert (WP : 0 < W).
  { apply total_pos with j0; [intros; apply P0|apply in_seq; lia|]. rewrite <- rnorm_sqr. pose proof (rnorm_pos _ NZ). nra. }
  assert (C0 : 0 <= C) by (apply total_0; intros; apply P0).
  assert (SW : 0 < sqrt W) by (apply sqrt_lt_R0, WP).
  exists (norm_all c / norm_all (Arr [3; n]%nat gv))%num, (sqrt C / sqrt W). split; [reflexivity|].
  split; [apply rep_div; auto; lra|].
  assert (E : sqrt C / sqrt W * (sqrt C / sqrt W) * W = C).
  { transitivity ((sqrt C * sqrt C) / (sqrt W * sqrt W) * W); [field; lra|]. rewrite !sqrt_sqrt by lra. field; lra. }
  split; auto. intros lo hi B.
  assert (D0 : 0 <= sqrt C / sqrt W) by (apply Rmult_le_pos; [apply sqrt_pos|left; apply Rinv_0_lt_compat, SW]).
  set (d := sqrt C / sqrt W) in *. clearbody d.
  assert (EACH : forall j, In j (seq 0 n) -> (Rmax lo 0 * Rmax lo 0) * rdot (V j) (V j) <= rdot (rcross (V j) (rv_sub P1 P2)) (rcross (V j) (rv_sub P1 P2)) <= (hi * hi) * rdot (V j) (V j)).
  { intros j I. apply in_seq in I. destruct (Req_dec (rdot (V j) (V j)) 0) as [Z|Z].
    - assert (ZV : V j = rv0).
      { apply v3_ext; unfold rdot in Z; cbn [rv0 cx cy cz];
        pose proof (Rle_0_sqr (cx (V j))); pose proof (Rle_0_sqr (cy (V j))); pose proof (Rle_0_sqr (cz (V j))); unfold Rsqr in *; apply Rsqr_0_uniq; unfold Rsqr; lra. }
      rewrite ZV. split; right; vring; ring.
    - assert (NV : V j <> rv0) by (intros Q; apply Z; rewrite Q; vring; ring).
      destruct (cross_dist P1 (V j) P2 NV) as (e&LE&E0&EE). destruct (B j e ltac:(lia) NV LE) as (B1&B2). rewrite <- EE.
      pose proof (P0 (V j)). split; apply Rmult_le_compat_r; auto; [|nra].
      unfold Rmax. destruct (Rle_dec lo 0); nra. }
  assert (H0 : 0 <= hi).
  { destruct (cross_dist P1 (V j0) P2 NZ) as (e&LE&E0&_). destruct (B j0 e L0 NZ LE). lra. }
  assert (LO : Rmax lo 0 * Rmax lo 0 * W <= C) by (unfold W, C; rewrite <- total_scale; apply total_le; intros j I; apply EACH, I).
  assert (HI : C <= hi * hi * W) by (unfold W, C; rewrite <- total_scale; apply total_le; intros j I; apply EACH, I).
  rewrite <- E in LO, HI. apply Rmult_le_reg_r in LO, HI; auto. split; [|nra].
  apply Rle_trans with (Rmax lo 0); [apply Rmax_l|]. pose proof (Rmax_r lo 0). nra.
Qed.
Print Assumptions C24_distance_batch.
(** So a batch is not processed row by row: the x axis and the y axis are 0 and 1 away from (1, 0, 0). *)
Theorem C24_distance_batch_refuted : exists p1 v1 p2 V x d,
  dims v1 = [3; 2]%nat /\ (forall j, (j < 2)%nat -> rep3 (row3 v1 [j]) (V j) /\ V j <> rv0) /\
  distanceLinePoint_a (of3 (fin3 p1)) v1 (of3 (fin3 p2)) = Some x /\ rep x d /\
  line_dist p1 (V 0%nat) p2 0 /\ line_dist p1 (V 1%nat) p2 1 /\ 0 < d < 1.
Proof.
  set (g := fun i => match i with [0; 0] | [1; 1] => Fin 1 | _ => Fin 0 end%nat).
  set (V := fun j : nat => match j with O => V3 1 0 0 | _ => V3 0 1 0 end).
  assert (RV : forall j, (j < 2)%nat -> rep3 (row3 (Arr [3; 2]%nat g) [j]) (V j) /\ V j <> rv0).
  { intros [|[|]] L; try lia; (split; [split; [|split]; apply rep_Fin|]); cbn [V]; vring; intros H; injection H; lra. }
  destruct (C24_distance_batch (of3 (fin3 (V3 0 0 0))) (Arr [3; 2]%nat g) (of3 (fin3 (V3 1 0 0))) 2 (V3 0 0 0) V (V3 1 0 0) eq_refl eq_refl eq_refl
    (rep3_fin _) (rep3_fin _)) as (x&d&E&Rd&B&Q).
  { intros j L. apply RV, L. }
  { exists 0%nat. split; [lia|]. apply RV. lia. }
  exists (V3 0 0 0), (Arr [3; 2]%nat g), (V3 1 0 0), V, x, d.
  assert (A0 : line_dist (V3 0 0 0) (V 0%nat) (V3 1 0 0) 0).
  { split; [exists 1|intros s; unfold rdist, rnorm; apply sqrt_pos]. unfold rdist, rnorm, line_at. cbn [V]. vring. symmetry. transitivity (sqrt 0); [f_equal; ring|apply sqrt_0]. }
  assert (A1 : line_dist (V3 0 0 0) (V 1%nat) (V3 1 0 0) 1).
  { split; [exists 0|intros s]; unfold rdist, rnorm, line_at; cbn [V]; vring.
    - symmetry. transitivity (sqrt 1); [f_equal; ring|apply sqrt_1].
    - apply Rle_trans with (sqrt 1); [right; symmetry; apply sqrt_1|]. apply sqrt_le_1_alt. pose proof (Rle_0_sqr s) as S; unfold Rsqr in S. lra. }
  splits; auto; cbn [seq map total fold_right V] in Q.
  - destruct (B 0 1) as (B0&_).
    + intros [|[|]] e L NZ LD; try lia; [rewrite (line_dist_uniq _ _ _ _ _ LD A0)|rewrite (line_dist_uniq _ _ _ _ _ LD A1)]; lra.
    + assert (d * d * 2 = 1) by (revert Q; vring; lra). nra.
  - assert (d * d * 2 = 1) by (revert Q; vring; lra). nra.
Qed.
Print Assumptions C24_distance_batch_refuted.
(** Several points give one number as well: the root of the sum of the squares of the distances. *)
Theorem C24_distance_points : forall p1 v1 p2 n P1 V P2 e,
  dims p1 = [3]%nat -> dims v1 = [3]%nat -> dims p2 = [3; n]%nat -> rep3 (row3 p1 []) P1 -> rep3 (row3 v1 []) V ->
  (forall j, (j < n)%nat -> rep3 (row3 p2 [j]) (P2 j)) -> V <> rv0 -> (forall j, (j < n)%nat -> line_dist P1 V (P2 j) (e j)) ->
  exists x d, distanceLinePoint_a p1 v1 p2 = Some x /\ rep x d /\ 0 <= d /\ d * d = total (map (fun j => e j * e j) (seq 0 n)).
Proof.
  intros [d1 g1] [dv gv] [d2 g2] n P1 V P2 e D1 Dv D2 H1 Hv H2 NZ HE. cbn [dims] in *. subst. pose proof (rnorm_pos _ NZ) as NP.
  unfold distanceLinePoint_a, ew2. cbn [dims bdims Nat.eqb obind cross_b].
  match goal with |- context [norm_all (Arr ?s ?g)] => set (c := Arr s g) end.
  set (X := fun j => rcross V (rv_sub P1 (P2 j))).
  assert (RC : rep (norm_all c) (sqrt (total (map (fun j => rdot (X j) (X j)) (seq 0 n))))).
  { apply (norm_all_rows c n X); [reflexivity|]. intros j L. unfold c, row3 at 1. cbn [get bidx].
    destruct (Nat.eqb_spec n 1); [replace j with 0%nat by lia|];
    match goal with |- rep3 (V3 (get (of3 ?c) _) _ _) ?X => change (rep3 c X) end; unfold X;
    (apply rep3_cross; [exact Hv|]); unfold row3; cbn [get bidx]; rewrite ?(proj2 (Nat.eqb_eq n 1)) by assumption; rewrite ?(proj2 (Nat.eqb_neq n 1)) by assumption;
    refine (rep3_sub _ _ _ _ H1 (H2 _ _)); lia. }
  assert (P0 : forall A : v3 R, 0 <= rdot A A) by (intros A; rewrite <- rnorm_sqr; apply Rle_0_sqr).
  assert (RV : rep (norm_all (Arr [3]%nat gv)) (rnorm V)) by (apply norm_all_vec; [reflexivity|exact Hv]).
  assert (E : total (map (fun j => rdot (X j) (X j)) (seq 0 n)) = (rnorm V * rnorm V) * total (map (fun j => e j * e j) (seq 0 n))).
  { rewrite <- total_scale. apply total_ext. intros j J. apply in_seq in J. destruct (cross_dist P1 V (P2 j) NZ) as (d&LD&_&Q).
    rewrite (line_dist_uniq _ _ _ _ _ (HE j ltac:(lia)) LD). unfold X. rewrite rnorm_sqr, <- Q. ring. }
  eexists _, _. split; [reflexivity|]. split; [apply rep_div; [exact RC|exact RV|lra]|].
  split; [apply Rmult_le_pos; [apply sqrt_pos|left; apply Rinv_0_lt_compat, NP]|].
  apply Rmult_eq_reg_l with (rnorm V * rnorm V); [|nra]. rewrite <- E.
  rewrite <- (sqrt_sqrt (total (map (fun j => rdot (X j) (X j)) (seq 0 n)))) at 3 by (apply total_0; intros; apply P0). field. lra.
Qed.
Print Assumptions C24_distance_points.
(** The points (0, 3, 0) and (1, 0, 4) are 3 and 4 away from the x axis: the function gives 5. *)
Example C24_distance_points_example : exists x, distanceLinePoint_a (of3 (fin3 (V3 0 0 0))) (of3 (fin3 (V3 2 0 0)))
  (Arr [3; 2]%nat (fun i => match i with [1; 0] => Fin 3 | [0; 1] => Fin 1 | [2; 1] => Fin 4 | _ => Fin 0 end%nat)) = Some x /\ rep x 5.
Proof.
  set (g := fun i => match i with [1; 0] => Fin 3 | [0; 1] => Fin 1 | [2; 1] => Fin 4 | _ => Fin 0 end%nat).
  set (P2 := fun j : nat => match j with O => V3 0 3 0 | _ => V3 1 0 4 end).
  assert (LD : forall y z d b, 0 <= d -> y * y + z * z = d * d -> line_dist (V3 0 0 0) (V3 2 0 0) (V3 b y z) d).
  { intros y z d b D0 E. split; [exists (b / 2)|intros s]; unfold rdist, rnorm, line_at; vring.
    - match goal with |- _ = sqrt ?x => replace x with (d * d) by (rewrite <- E; field) end. symmetry; apply sqrt_square, D0.
    - apply Rle_trans with (sqrt (d * d)); [rewrite sqrt_square; lra|]. apply sqrt_le_1_alt. pose proof (Rle_0_sqr (s * 2 - b)) as Q; unfold Rsqr in Q. lra. }
  destruct (C24_distance_points (of3 (fin3 (V3 0 0 0))) (of3 (fin3 (V3 2 0 0))) (Arr [3; 2]%nat g) 2 (V3 0 0 0) (V3 2 0 0) P2 (fun j => match j with O => 3 | _ => 4 end)
    eq_refl eq_refl eq_refl (rep3_fin _) (rep3_fin _)) as (x&d&E&Rd&D0&Q).
  { intros [|[|]] L; try lia; repeat split; apply rep_Fin. }
  { intros H. injection H. lra. }
  { intros [|[|]] L; try lia; unfold P2; apply LD; lra. }
  exists x. split; [exact E|]. eapply rep_eq; [exact Rd|]. cbn in Q. nra.
Qed.

(** ** C14: two lines *)
Open Scope nat_scope.
(** What a batch of [n] answers must be: an array (n, 3), or a list of n arrays (3) *)
Definition answers (n : nat) (r : res) (f : nat -> v3 num) : Prop :=
  match r with
  | Array a => dims a = [3; n] /\ forall j, j < n -> row3 a [j] = f j
  | List l => length l = n /\ forall j, j < n -> exists a, nth_error l j = Some a /\ dims a = [3] /\ row3 a [] = f j
  end.
Lemma traverse_all {A B} (f : A -> option B) (g : A -> B) l : (forall x, In x l -> f x = Some (g x)) -> traverse f l = Some (map g l).
Proof.
  induction l as [|a l IH]; intros H; auto. cbn [traverse]. rewrite H by (left; auto). cbn [obind]. rewrite IH by (intros; apply H; right; auto). reflexivity.
Qed.
Lemma nth_row_some j v n : dims v = [3; n] -> j < n -> exists r, nth_row j v = Some r /\ dims r = [3] /\ row3 r [] = row3 v [j].
Proof.
  intros D L. unfold nth_row. rewrite D. destruct (Nat.ltb_spec j n); [|lia]. eexists. split; [reflexivity|]. split; reflexivity.
Qed.
Lemma rows_single p1 v1 p2 v2 n : dims p1 = [3] -> dims v1 = [3; n] -> dims p2 = [3] -> dims v2 = [3; n] ->
  traverse (fun j => olet x := nth_row j v1 in olet y := nth_row j v2 in single p1 x p2 y) (seq 0 n) =
  Some (map (fun j => of3 (intersectionOfTwoLines1 (row3 p1 []) (row3 v1 [j]) (row3 p2 []) (row3 v2 [j]))) (seq 0 n)).
Proof.
  intros D1 E1 D2 E2. apply traverse_all. intros j I. apply in_seq in I.
  destruct (nth_row_some j v1 n E1) as (x&->&DX&RX); [lia|]. destruct (nth_row_some j v2 n E2) as (y&->&DY&RY); [lia|].
  cbn [obind]. unfold single. rewrite D1, DX, D2, DY, RX, RY. reflexivity.
Qed.

(** The batch answers every pair of lines as the single call does.  The answer is an array, unless one of the pairs is
    parallel: then it is a list. *)
Theorem C14_intersectionOfTwoLines : forall p1 v1 p2 v2 n,
  dims p1 = [3] -> dims v1 = [3; n] -> dims p2 = [3] -> dims v2 = [3; n] ->
  exists r, intersectionOfTwoLines_a p1 v1 p2 v2 = Some r /\
    answers n r (fun j => intersectionOfTwoLines1 (row3 p1 []) (row3 v1 [j]) (row3 p2 []) (row3 v2 [j])) /\
    ((exists a, r = Array a) <-> forall j, j < n -> lines_system (row3 p1 []) (row3 v1 [j]) (row3 p2 []) (row3 v2 [j]) <> None).
Proof.
  intros p1 v1 p2 v2 n D1 E1 D2 E2. pose proof (rows_single p1 v1 p2 v2 n D1 E1 D2 E2) as RS.
  destruct p1 as [dp1 p1], v1 as [dv1 v1], p2 as [dp2 p2], v2 as [dv2 v2]. cbn [dims] in *. subst.
  unfold intersectionOfTwoLines_a, einsum_rows, einsum_vec, ew2, ew1, transpose201.
  cbn [dims length Nat.eqb get bdims obind last]. rewrite !Nat.eqb_refl. cbn [andb obind dims get].
  unfold stack. cbn [forallb dims length]. destruct (list_eq_dec Nat.eq_dec [n] [n]) as [_|X]; [|congruence]. cbn [andb obind forallb dims app].
  destruct (list_eq_dec Nat.eq_dec [n; 2] [n; 2]) as [_|X]; [|congruence]. cbn [andb obind app dims].
  unfold T, newlast, solve_a. cbn [dims rev app get]. rewrite Nat.eqb_refl.
  match goal with |- context [forallb ?f _] => set (ok := f) end.
  assert (OK : forall j, ok j = match lines_system (row3 (Arr [3] p1) []) (row3 (Arr [3; n] v1) [j]) (row3 (Arr [3] p2) []) (row3 (Arr [3; n] v2) [j]) with Some _ => true | None => false end)
    by (intros j; reflexivity).
  destruct (forallb ok (seq 0 n)) eqn:F.
  - cbn [obind pick dims bdims]. rewrite !Nat.eqb_refl. cbn [obind dims bdims Nat.eqb]. unfold mean2_a. cbn [dims].
    destruct (list_eq_dec Nat.eq_dec [3; n] [3; n]) as [_|X]; [|congruence]. cbn [obind].
    eexists. split; [reflexivity|]. rewrite forallb_forall in F. split.
    + cbn [answers dims]. split; auto. intros j L.
      assert (S := F j ltac:(apply in_seq; lia)). rewrite OK in S.
      unfold intersectionOfTwoLines1. destruct (lines_system _ _ _ _) as [[s t]|] eqn:Q; [|discriminate].
      assert (BJ : (if n =? 1 then 0 else j) = j) by (destruct (Nat.eqb_spec n 1); lia).
      unfold row3 at 1. cbn [get bidx Nat.eqb]. rewrite !BJ.
      unfold lines_mid, mean2, nv_div, nv_add, nv_scale, zip3v, map3v. cbn [cx cy cz row3 get fst snd].
      repeat match goal with |- context [match ?e with Some _ => _ | None => NaN end] =>
        change e with (lines_system (row3 (Arr [3] p1) []) (row3 (Arr [3; n] v1) [j]) (row3 (Arr [3] p2) []) (row3 (Arr [3; n] v2) [j])); rewrite Q end.
      rewrite !(nmul_comm s), !(nmul_comm t). reflexivity.
    + split; [|intros _; eexists; reflexivity]. intros _ j L. specialize (F j ltac:(apply in_seq; lia)). rewrite OK in F. destruct (lines_system _ _ _ _); congruence.
  - cbn [obind]. rewrite RS. cbn [obind]. eexists. split; [reflexivity|]. split.
    + cbn [answers]. rewrite map_length, seq_length. split; auto. intros j L. eexists. split; [apply map_nth_error, (nth_error_nth' (seq 0 n) 0); rewrite seq_length; exact L|].
      rewrite seq_nth by auto. split; [reflexivity|]. apply row3_of3.
    + split; [intros (a&Q); discriminate|]. intros H. exfalso.
      assert (forallb ok (seq 0 n) = true); [|congruence]. apply forallb_forall. intros j I. apply in_seq in I. rewrite OK. specialize (H j ltac:(lia)).
      destruct (lines_system _ _ _ _); congruence.
Qed.
Print Assumptions C14_intersectionOfTwoLines.
(** In terms of the lines: the answer is an array if and only if no pair of lines is parallel. *)
Theorem C14_intersection_array : forall p1 v1 p2 v2 n P1 V P2 W,
  dims p1 = [3] -> dims v1 = [3; n] -> dims p2 = [3] -> dims v2 = [3; n] ->
  rep3 (row3 p1 []) P1 -> rep3 (row3 p2 []) P2 -> (forall j, j < n -> rep3 (row3 v1 [j]) (V j) /\ rep3 (row3 v2 [j]) (W j)) ->
  exists r, intersectionOfTwoLines_a p1 v1 p2 v2 = Some r /\ ((exists a, r = Array a) <-> forall j, j < n -> rcross (V j) (W j) <> rv0).
Proof.
  intros p1 v1 p2 v2 n P1 V P2 W D1 E1 D2 E2 H1 H2 HV.
  destruct (C14_intersectionOfTwoLines p1 v1 p2 v2 n D1 E1 D2 E2) as (r&E&_&I). exists r. split; auto. rewrite I.
  split; intros K j L; specialize (K j L); destruct (HV j L) as (A&B).
  - intros Z. apply K, (lines_system_spec _ _ _ _ _ _ _ _ H1 A H2 B), Z.
  - intros Q. destruct (C22_midpoint_of_shortest_segment _ _ _ _ _ _ _ _ H1 A H2 B K) as (S&T&RX&_).
    unfold intersectionOfTwoLines1 in RX. rewrite Q in RX. destruct RX as (X&_). discriminate X.
Qed.
Print Assumptions C14_intersection_array.

(** distanceOfTwoLines *)
Theorem C14_distanceOfTwoLines : forall p1 v1 p2 v2 n,
  dims p1 = [3] -> dims v1 = [3; n] -> dims p2 = [3] -> dims v2 = [3; n] ->
  exists r, distanceOfTwoLines_a p1 v1 p2 v2 = Some r /\ dims r = [n] /\
    forall j, j < n -> get r [j] = distanceOfTwoLines1 (row3 p1 []) (row3 v1 [j]) (row3 p2 []) (row3 v2 [j]).
Proof.
  intros p1 v1 p2 v2 n D1 E1 D2 E2. unfold distanceOfTwoLines_a. rewrite E1. cbn [length Nat.eqb last].
  rewrite (traverse_all _ (fun j => distanceOfTwoLines1 (row3 p1 []) (row3 v1 [j]) (row3 p2 []) (row3 v2 [j]))).
  - cbn [obind]. eexists. split; [reflexivity|]. cbn [dims get]. rewrite map_length, seq_length. split; auto. intros j L.
    set (f := fun j => distanceOfTwoLines1 _ _ _ _). rewrite (nth_indep _ NaN (f 0)) by (rewrite map_length, seq_length; auto).
    rewrite map_nth, seq_nth by auto. reflexivity.
  - intros j I. apply in_seq in I.
    destruct (nth_row_some j v1 n E1) as (x&->&DX&RX); [lia|]. destruct (nth_row_some j v2 n E2) as (y&->&DY&RY); [lia|].
    cbn [obind]. unfold dsingle. rewrite D1, DX, D2, DY, RX, RY. reflexivity.
Qed.
Print Assumptions C14_distanceOfTwoLines.
(** One direction for the one line and several for the other raise: the batch needs as many of both. *)
Theorem C14_lines_mixed_raise : forall p1 v1 p2 v2 n, dims p1 = [3] -> dims p2 = [3] ->
  (dims v1 = [3; n] /\ dims v2 = [3]) \/ (dims v1 = [3] /\ dims v2 = [3; n]) -> intersectionOfTwoLines_a p1 v1 p2 v2 = None.
Proof.
  intros p1 v1 p2 v2 n D1 D2 [(A&B)|(A&B)]; unfold intersectionOfTwoLines_a, single; rewrite A; cbn [length Nat.eqb].
  - unfold einsum_rows. rewrite A, B, !Nat.eqb_refl. reflexivity.
  - rewrite D1, D2, B. reflexivity.
Qed.
Print Assumptions C14_lines_mixed_raise.

(** spaceFromImages and discanteBetweenRays: pixel by pixel *)
Theorem C14_spaceFromImages : forall a b q1 q2 n, dims q1 = [2; n] -> dims q2 = [2; n] ->
  exists r, spaceFromImages_a a b q1 q2 = Some r /\
    exists f, answers n r f /\ forall j, j < n -> spaceFromImages [camera_of a; camera_of b] (row2 q1 [j]) (row2 q2 [j]) = Some (f j).
Proof.
  intros a b q1 q2 n D1 D2. destruct (C14_getRay a q1 [n] false D1) as (o1&d1&E1&O1&_&N1&G1). destruct (C14_getRay b q2 [n] false D2) as (o2&d2&E2&O2&_&N2&G2).
  unfold spaceFromImages_a. rewrite E1, E2. cbn [obind fst snd].
  destruct (C14_intersectionOfTwoLines o1 d1 o2 d2 n O1 N1 O2 N2) as (r&E&AN&_). exists r. split; auto. eexists. split; [exact AN|].
  intros j L. unfold spaceFromImages, two. rewrite G1, G2 by (constructor; auto; constructor). reflexivity.
Qed.
Print Assumptions C14_spaceFromImages.
Theorem C14_discanteBetweenRays : forall a b q1 q2 n, dims q1 = [2; n] -> dims q2 = [2; n] ->
  exists r, discanteBetweenRays_a a b q1 q2 = Some r /\ dims r = [n] /\
    forall j, j < n -> discanteBetweenRays [camera_of a; camera_of b] (row2 q1 [j]) (row2 q2 [j]) = Some (get r [j]).
Proof.
  intros a b q1 q2 n D1 D2. destruct (C14_getRay a q1 [n] true D1) as (o1&d1&E1&O1&_&N1&G1). destruct (C14_getRay b q2 [n] true D2) as (o2&d2&E2&O2&_&N2&G2).
  unfold discanteBetweenRays_a. rewrite E1, E2. cbn [obind fst snd].
  destruct (C14_distanceOfTwoLines o1 d1 o2 d2 n O1 N1 O2 N2) as (r&E&DR&G). exists r. split; auto. split; auto.
  intros j L. unfold discanteBetweenRays, two. rewrite G1, G2 by (constructor; auto; constructor). cbn [fst snd]. rewrite G by auto. reflexivity.
Qed.
Print Assumptions C14_discanteBetweenRays.

(** ** C27: the pictures of many points, triangulated in one call *)
Theorem C27_batch : forall a b ka kb ra rb oa ob p n P,
  plain_cam (camera_of a) ka ra oa -> plain_cam (camera_of b) kb rb ob -> dims p = [3; n] ->
  (forall j, j < n -> rep3 (row3 p [j]) (P j) /\ showable ka (cam_coords oa (P j)) /\ showable kb (cam_coords ob (P j)) /\
    rcross (rv_sub (P j) (opos oa)) (rv_sub (P j) (opos ob)) <> rv0) ->
  exists q1 q2 r, imageFromSpace_a a p true = Some q1 /\ imageFromSpace_a b p true = Some q2 /\
    spaceFromImages_a a b q1 q2 = Some (Array r) /\ dims r = [3; n] /\ forall j, j < n -> rep3 (row3 r [j]) (P j).
Proof.
  intros a b ka kb ra rb oa ob p n P Ha Hb D H.
  destruct (C14_imageFromSpace a p [n] true D) as (q1&E1&D1&G1). destruct (C14_imageFromSpace b p [n] true D) as (q2&E2&D2&G2).
  destruct (C14_getRay a q1 [n] false D1) as (o1&d1&X1&O1&_&N1&R1). destruct (C14_getRay b q2 [n] false D2) as (o2&d2&X2&O2&_&N2&R2).
  destruct (C14_intersectionOfTwoLines o1 d1 o2 d2 n O1 N1 O2 N2) as (r&E&AN&AR).
  assert (IB : forall j, j < n -> inb [j] [n]) by (intros; constructor; auto; constructor).
  assert (ALL : forall j, j < n -> rep3 (intersectionOfTwoLines1 (row3 o1 []) (row3 d1 [j]) (row3 o2 []) (row3 d2 [j])) (P j)).
  { intros j L. destruct (H j L) as (Rp&S1&S2&NC).
    destruct (C27_triangulation _ _ [] ka kb ra rb oa ob (row3 p [j]) (P j) Ha Hb Rp S1 S2 NC) as (y1&y2&qs&x&Y&Z&RX).
    unfold imagesFromSpace in Y. cbn [map] in Y. injection Y as Y1 Y2 _. subst y1 y2. revert Z.
    rewrite <- G1, <- G2 by auto. unfold spaceFromImages, two. rewrite R1, R2 by auto. cbn [fst snd]. intros Z. injection Z as <-. exact RX. }
  assert (NS : exists c, r = Array c).
  { apply AR. intros j L Q. specialize (ALL j L). unfold intersectionOfTwoLines1 in ALL. rewrite Q in ALL. destruct ALL as (X&_). discriminate X. }
  destruct NS as (c&->). exists q1, q2, c. destruct AN as (DC&GC). split; auto. split; auto.
  split; [unfold spaceFromImages_a; rewrite X1, X2; cbn [obind fst snd]; exact E|]. split; auto.
  intros j L. rewrite GC by auto. apply ALL, L.
Qed.
Print Assumptions C27_batch.
(** Two points in one call. *)
Example C27_batch_example : exists a b p q1 q2 r, dims p = [3; 2] /\
  imageFromSpace_a a p true = Some q1 /\ imageFromSpace_a b p true = Some q2 /\ spaceFromImages_a a b q1 q2 = Some (Array r) /\
  rep3 (row3 r [0]) (V3 0 20 3)%R /\ rep3 (row3 r [1]) (V3 1 30 2)%R.
Proof.
  destruct (ex_cam_at Rectilinear 0) as (c&HC). pose proof HC as (pr&m&E0&_).
  destruct (ex_cam_at Cylindrical 1) as (e&HE). pose proof HE as (pr'&m'&E1&_).
  set (a := NdCam Rectilinear pr m None). set (b := NdCam Cylindrical pr' m' None).
  assert (EA : camera_of a = c) by (rewrite E0; reflexivity). assert (EB : camera_of b = e) by (rewrite E1; reflexivity).
  set (P := fun j : nat => match j with O => V3 0 20 3 | _ => V3 1 30 2 end%R).
  set (p := Arr [3; 2] (fun i => match i with [k; j] => pick_axis k (fin3 (P j)) | _ => NaN end)).
  destruct (C27_batch a b Rectilinear Cylindrical ex_r ex_r (ex_at 0) (ex_at 1) p 2 P) as (q1&q2&r&X1&X2&X3&_&G);
    [rewrite EA; exact HC|rewrite EB; exact HE|reflexivity| |].
  - intros j L. split; [split; [|split]; apply rep_Fin|]. split; [apply ex_at_showable|split; [apply ex_at_showable|]];
      destruct j as [|[|]]; try lia; cbn [P cy]; try lra; rewrite !opos_at; vring; intros H; injection H; lra.
  - exists a, b, p, q1, q2, r. split; [reflexivity|]. split; auto. split; auto. split; auto. split; [apply (G 0)|apply (G 1)]; lia.
Qed.
(** The x axis with the line through (0, 5, 0) along the z axis, and with a parallel of the x axis: a list. *)
Example C14_lines_example : exists v1 v2 l, dims v1 = [3; 2] /\ dims v2 = [3; 2] /\
  intersectionOfTwoLines_a (of3 (fin3 (V3 0 0 0)%R)) v1 (of3 (fin3 (V3 0 5 0)%R)) v2 = Some (List l) /\ length l = 2.
Proof.
  set (V := fun j : nat => (V3 1 0 0)%R). set (W := fun j : nat => match j with O => V3 0 0 1 | _ => V3 2 0 0 end%R).
  set (v1 := Arr [3; 2] (fun i => match i with [k; j] => pick_axis k (fin3 (V j)) | _ => NaN end)).
  set (v2 := Arr [3; 2] (fun i => match i with [k; j] => pick_axis k (fin3 (W j)) | _ => NaN end)).
  destruct (C14_intersection_array (of3 (fin3 (V3 0 0 0)%R)) v1 (of3 (fin3 (V3 0 5 0)%R)) v2 2 _ V _ W eq_refl eq_refl eq_refl eq_refl (rep3_fin _) (rep3_fin _)) as (r&E&I).
  { intros j L. split; (split; [|split]; apply rep_Fin). }
  destruct (C14_intersectionOfTwoLines (of3 (fin3 (V3 0 0 0)%R)) v1 (of3 (fin3 (V3 0 5 0)%R)) v2 2 eq_refl eq_refl eq_refl eq_refl) as (r'&E'&AN&_).
  rewrite E in E'. injection E' as <-. destruct r as [x|l].
  - exfalso. destruct (proj1 I (ex_intro _ x eq_refl) 1); [lia|]. unfold V, W. apply v3_ext; vring; ring.
  - exists v1, v2, l. split; auto. split; auto. split; auto. apply AN.
Qed.
