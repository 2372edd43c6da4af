(** * Facts about the ray functions *)
Require Import Reals Lra Psatz Bool List.
From Verif Require Import Num Vec Ray.
Import ListNotations.
Open Scope R_scope.

Definition rept (t : tri num) (T : tri R) : Prop :=
  rep3 (cx t) (cx T) /\ rep3 (cy t) (cy T) /\ rep3 (cz t) (cz T).
Definition edge_u (T : tri R) := rv_sub (cy T) (cx T).
Definition edge_v (T : tri R) := rv_sub (cz T) (cx T).
Definition normal (T : tri R) := rcross (edge_u T) (edge_v T).
Definition tri_point (T : tri R) (s t : R) : v3 R :=
  rv_add (cx T) (rv_add (rv_scale s (edge_u T)) (rv_scale t (edge_v T))).
(** The point is in the triangle, boundary included. *)
Definition in_tri (T : tri R) (P : v3 R) : Prop :=
  exists s t, 0 <= s /\ 0 <= t /\ s + t <= 1 /\ P = tri_point T s t.
Definition ray_at (O D : v3 R) (r : R) : v3 R := rv_add O (rv_scale r D).
Definition hit (O D : v3 R) (T : tri R) (r : R) : Prop := 0 <= r /\ in_tri T (ray_at O D r).

Ltac vring := cbv [rdot rcross rv_add rv_sub rv_scale rv_neg map3v zip3v rnorm tri_point edge_u edge_v
   normal ray_at rv0] in *; cbn [cx cy cz] in *.

Lemma in_plane_decomp u v w :
  rdot (rcross u v) w = 0 ->
  rv_scale (rdot u u * rdot v v - rdot u v * rdot u v) w =
  rv_add (rv_scale (rdot v v * rdot w u - rdot u v * rdot w v) u)
         (rv_scale (rdot u u * rdot w v - rdot u v * rdot w u) v).
Proof.
  intros H.
  assert (E : rv_scale (rdot u u * rdot v v - rdot u v * rdot u v) w =
   rv_add (rv_add (rv_scale (rdot v v * rdot w u - rdot u v * rdot w v) u)
         (rv_scale (rdot u u * rdot w v - rdot u v * rdot w u) v)) (rv_scale (rdot (rcross u v) w) (rcross u v))).
  { clear H. apply v3_ext; vring; ring. }
  rewrite E, H. apply v3_ext; simpl; ring.
Qed.
Lemma lagrange u v : rdot (rcross u v) (rcross u v) = rdot u u * rdot v v - rdot u v * rdot u v.
Proof. vring; ring. Qed.

Lemma in_tri_bary T P : normal T <> rv0 -> rdot (normal T) (rv_sub P (cx T)) = 0 ->
  let u := edge_u T in let v := edge_v T in let w := rv_sub P (cx T) in
  let den := rdot u v * rdot u v - rdot u u * rdot v v in
  let s := (rdot u v * rdot w v - rdot v v * rdot w u) / den in
  let t := (rdot u v * rdot w u - rdot u u * rdot w v) / den in
  den <> 0 /\ (in_tri T P <-> 0 <= s /\ 0 <= t /\ s + t <= 1).
Proof.
  intros HN HP u v w den s t.
  assert (HD : den <> 0).
  { unfold den. intros E. apply HN. apply rdot_self_0. unfold normal. rewrite lagrange.
    fold u v. lra. }
  split; auto. split.
  - intros (s'&t'&H1&H2&H3&E).
    assert (Ew : w = rv_add (rv_scale s' u) (rv_scale t' v)).
    { unfold w. rewrite E. unfold tri_point, u, v. apply v3_ext; simpl; ring. }
    assert (s = s').
    { unfold s. rewrite Ew. apply Rmult_eq_reg_r with den; auto. unfold Rdiv. rewrite Rmult_assoc, Rinv_l by auto.
      unfold den. clear. vring; ring. }
    assert (t = t').
    { unfold t. rewrite Ew. apply Rmult_eq_reg_r with den; auto. unfold Rdiv. rewrite Rmult_assoc, Rinv_l by auto.
      unfold den. clear. vring; ring. }
    subst s' t'; auto.
  - intros (H1&H2&H3). exists s, t. splits; auto.
    pose proof (in_plane_decomp u v w HP) as E.
    assert (Ew : w = rv_add (rv_scale s u) (rv_scale t v)).
    { apply v3_ext; apply Rmult_eq_reg_l with den; auto.
      - apply (f_equal cx) in E. unfold s, t, den in *. cbn [rv_scale rv_add map3v zip3v cx] in *.
        field_simplify; auto. field_simplify in E. lra.
      - apply (f_equal cy) in E. unfold s, t, den in *. cbn [rv_scale rv_add map3v zip3v cy] in *.
        field_simplify; auto. field_simplify in E. lra.
      - apply (f_equal cz) in E. unfold s, t, den in *. cbn [rv_scale rv_add map3v zip3v cz] in *.
        field_simplify; auto. field_simplify in E. lra. }
    unfold tri_point. fold u v. rewrite <- Ew. unfold w. apply v3_ext; simpl; ring.
Qed.

(** ** One triangle *)
Definition plane_a (O : v3 R) (T : tri R) := rdot (normal T) (rv_sub (cx T) O).
Definition plane_b (D : v3 R) (T : tri R) := rdot (normal T) D.

Lemma normal_rep t T : rept t T ->
  rep3 (nv_cross (nv_sub (cy t) (cx t)) (nv_sub (cz t) (cx t))) (normal T).
Proof. intros (?&?&?). apply rep3_cross; apply rep3_sub; auto. Qed.

Lemma nan_scale d : nv_scale NaN d = nan3.
Proof. unfold nv_scale, nan3, map3v. rewrite !nmul_NaN_r. reflexivity. Qed.

(** the value of rI before the barycentric tests *)
Definition plane_param (o d : v3 num) (t : tri num) : num := tri_param true o d t.
Lemma plane_param_spec o d t O D T : rep3 o O -> rep3 d D -> rept t T ->
  (plane_b D T <> 0 -> plane_a O T / plane_b D T < 0 -> plane_param o d t = NaN) /\
  (plane_b D T <> 0 -> 0 <= plane_a O T / plane_b D T -> rep (plane_param o d t) (plane_a O T / plane_b D T)) /\
  (plane_b D T = 0 -> plane_a O T <> 0 -> plane_param o d t = NaN) /\
  (plane_b D T = 0 -> plane_a O T = 0 -> rep (plane_param o d t) 0).
Proof.
  intros Ho Hd Ht. pose proof (normal_rep _ _ Ht) as Hn.
  unfold plane_param, tri_param. cbv zeta.
  set (nn := nv_cross _ _) in *.
  pose proof (rep_dot _ _ _ _ Hn Hd) as Hb.
  destruct Ht as (H0&_). pose proof (rep_dot _ _ _ _ Hn (rep3_sub _ _ _ _ H0 Ho)) as Ha.
  fold (plane_b D T) in Hb. fold (plane_a O T) in Ha.
  set (a := plane_a O T) in *. set (b := plane_b D T) in *.
  rewrite (rep_eqb _ _ _ _ Hb (rep_Fin 0)), (rep_eqb _ _ _ _ Ha (rep_Fin 0)).
  splits; intros Hb0 Ha0.
  - rewrite (Reqb_false b 0) by auto. cbn [andb].
    rewrite (rep_ltb _ _ _ _ (rep_div _ _ _ _ Ha Hb Hb0) (rep_Fin 0)), Rltb_true by auto. reflexivity.
  - rewrite (Reqb_false b 0) by auto. cbn [andb].
    rewrite (rep_ltb _ _ _ _ (rep_div _ _ _ _ Ha Hb Hb0) (rep_Fin 0)), Rltb_false by auto.
    apply rep_div; auto.
  - rewrite Hb0, Reqb_refl, (Reqb_false a 0) by auto. reflexivity.
  - rewrite Hb0, Ha0, Reqb_refl. cbn [andb negb].
    rewrite (rep_ltb _ _ _ _ (rep_Fin 0) (rep_Fin 0)), Rltb_false by lra. apply rep_Fin.
Qed.

Lemma tri_param_false o d t :
  tri_param false o d t =
  let v0 := cx t in let u := nv_sub (cy t) v0 in let v := nv_sub (cz t) v0 in
  let r3 := plane_param o d t in
  let w := nv_sub (nv_add o (nv_scale r3 d)) v0 in
  let uv := nv_dot u v in let uu := nv_dot u u in let vv := nv_dot v v in
  let denom := (uv * uv - uu * vv)%num in
  let wv := nv_dot w v in let wu := nv_dot w u in
  let si := ((uv * wv - vv * wu) / denom)%num in
  let r4 := if (si <? Fin 0)%num || (Fin 1 <? si)%num then NaN else r3 in
  let ti := ((uv * wu - uu * wv) / denom)%num in
  if (ti <? Fin 0)%num || (Fin 1 <? si + ti)%num then NaN else r4.
Proof. reflexivity. Qed.

Lemma tri_param_nan o d t : plane_param o d t = NaN -> tri_param false o d t = NaN.
Proof.
  intros E. rewrite tri_param_false. cbv zeta. rewrite E.
  repeat match goal with |- context [if ?b then _ else _] => destruct b end; reflexivity.
Qed.

(** Generic use of the barycentric tests for a finite parameter in the plane. *)
Lemma tri_param_bary o d t O D T r : rep3 o O -> rep3 d D -> rept t T -> normal T <> rv0 ->
  rep (plane_param o d t) r -> rdot (normal T) (rv_sub (ray_at O D r) (cx T)) = 0 ->
  (in_tri T (ray_at O D r) -> rep (tri_param false o d t) r) /\
  (~ in_tri T (ray_at O D r) -> tri_param false o d t = NaN).
Proof.
  intros Ho Hd Ht HN Hr HP. rewrite tri_param_false. cbv zeta.
  destruct (in_tri_bary T (ray_at O D r) HN HP) as (Hden&Hiff).
  set (u := edge_u T) in *. set (v := edge_v T) in *.
  set (W := rv_sub (ray_at O D r) (cx T)) in *.
  destruct Ht as (H0&H1&H2).
  pose proof (rep3_sub _ _ _ _ H1 H0) as Hu. fold (edge_u T) in Hu. fold u in Hu.
  pose proof (rep3_sub _ _ _ _ H2 H0) as Hv. fold (edge_v T) in Hv. fold v in Hv.
  pose proof (rep3_sub _ _ _ _ (rep3_add _ _ _ _ Ho (rep3_scale _ _ _ _ Hr Hd)) H0) as Hw.
  change (rv_sub (rv_add O (rv_scale r D)) (cx T)) with W in Hw.
  set (nu := nv_sub (cy t) (cx t)) in *. set (nv := nv_sub (cz t) (cx t)) in *.
  set (nw := nv_sub (nv_add _ _) _) in *.
  pose proof (rep_dot _ _ _ _ Hu Hv) as Huv. pose proof (rep_dot _ _ _ _ Hu Hu) as Huu.
  pose proof (rep_dot _ _ _ _ Hv Hv) as Hvv. pose proof (rep_dot _ _ _ _ Hw Hv) as Hwv.
  pose proof (rep_dot _ _ _ _ Hw Hu) as Hwu.
  set (s := (rdot u v * rdot W v - rdot v v * rdot W u) / _) in *.
  set (tt := (rdot u v * rdot W u - rdot u u * rdot W v) / _) in *.
  set (nden := (nv_dot nu nv * nv_dot nu nv - nv_dot nu nu * nv_dot nv nv)%num).
  set (si := ((nv_dot nu nv * nv_dot nw nv - nv_dot nv nv * nv_dot nw nu) / nden)%num).
  set (ti := ((nv_dot nu nv * nv_dot nw nu - nv_dot nu nu * nv_dot nw nv) / nden)%num).
  assert (Hs : rep si s) by (unfold si, s, nden; rep_all; auto).
  assert (Hti : rep ti tt) by (unfold ti, tt, nden; rep_all; auto).
  rewrite (rep_ltb _ _ _ _ Hs (rep_Fin 0)), (rep_ltb _ _ _ _ (rep_Fin 1) Hs),
    (rep_ltb _ _ _ _ Hti (rep_Fin 0)), (rep_ltb _ _ _ _ (rep_Fin 1) (rep_add _ _ _ _ Hs Hti)).
  split.
  - intros HI. apply Hiff in HI. destruct HI as (A&B&C).
    rewrite !Rltb_false by lra. exact Hr.
  - intros HI. destruct (Rltb tt 0 || Rltb 1 (s + tt)) eqn:E; auto.
    destruct (Rltb s 0 || Rltb 1 s) eqn:E'; auto.
    exfalso. apply HI, Hiff. apply orb_false_iff in E, E'. destruct E as (E1&E2), E' as (E3&_).
    apply Rltb_iff_false in E1, E2, E3. lra.
Qed.

(** A triangle that is neither degenerate nor seen edge-on: exactly its hits. *)
Definition regular (O D : v3 R) (T : tri R) : Prop :=
  normal T <> rv0 /\ ~ (plane_b D T = 0 /\ plane_a O T = 0).

Lemma tri_param_spec o d t O D T : rep3 o O -> rep3 d D -> rept t T -> regular O D T ->
  (exists r, hit O D T r /\ rep (tri_param false o d t) r /\ forall r', hit O D T r' -> r' = r) \/
  (tri_param false o d t = NaN /\ forall r, ~ hit O D T r).
Proof.
  intros Ho Hd Ht (HN&HR).
  destruct (plane_param_spec o d t O D T Ho Hd Ht) as (P1&P2&P3&_).
  assert (PL : forall r, in_tri T (ray_at O D r) -> r * plane_b D T = plane_a O T).
  { intros r (s&tt&_&_&_&E).
    assert (E1 : rdot (normal T) (rv_sub (ray_at O D r) (cx T)) = 0).
    { rewrite E. clear. vring. ring. }
    unfold plane_a, plane_b. clear - E1. set (n := normal T) in *. clearbody n. vring. lra. }
  destruct (Req_dec (plane_b D T) 0) as [Hb|Hb].
  - right. assert (Ha : plane_a O T <> 0) by tauto. split.
    + apply tri_param_nan; auto.
    + intros r (_&H). apply PL in H. rewrite Hb in H. lra.
  - set (r := plane_a O T / plane_b D T) in *.
    assert (UN : forall r', in_tri T (ray_at O D r') -> r' = r).
    { intros r' H. apply PL in H. unfold r. rewrite <- H. field; auto. }
    destruct (Rlt_le_dec r 0) as [Hr|Hr].
    + right. split; [apply tri_param_nan; auto|]. intros r' (H1&H2). apply UN in H2. lra.
    + assert (HP : rdot (normal T) (rv_sub (ray_at O D r) (cx T)) = 0).
      { transitivity (r * plane_b D T - plane_a O T).
        - unfold plane_a, plane_b. clear. set (n := normal T). clearbody n. vring. ring.
        - unfold r. field; auto. }
      destruct (tri_param_bary o d t O D T r Ho Hd Ht HN (P2 Hb Hr) HP) as (B1&B2).
      destruct (Classical_Prop.classic (in_tri T (ray_at O D r))) as [HI|HI].
      * left. exists r. split; [split; auto|]. split; [auto|]. intros r' (_&H); auto.
      * right. split; auto. intros r' (_&H). pose proof (UN _ H). subst r'. auto.
Qed.

(** A degenerate triangle always gives parameter 0. *)
Lemma tri_param_degenerate o d t O D T : rep3 o O -> rep3 d D -> rept t T -> normal T = rv0 ->
  rep (tri_param false o d t) 0.
Proof.
  intros Ho Hd Ht HN.
  destruct (plane_param_spec o d t O D T Ho Hd Ht) as (_&_&_&P4).
  assert (Hb : plane_b D T = 0) by (unfold plane_b; rewrite HN; vring; ring).
  assert (Ha : plane_a O T = 0) by (unfold plane_a; rewrite HN; vring; ring).
  specialize (P4 Hb Ha).
  rewrite tri_param_false. cbv zeta.
  destruct Ht as (H0&H1&H2).
  pose proof (rep3_sub _ _ _ _ H1 H0) as Hu. fold (edge_u T) in Hu.
  pose proof (rep3_sub _ _ _ _ H2 H0) as Hv. fold (edge_v T) in Hv.
  pose proof (rep3_sub _ _ _ _ (rep3_add _ _ _ _ Ho (rep3_scale _ _ _ _ P4 Hd)) H0) as Hw.
  set (W := rv_sub _ _) in Hw. set (u := edge_u T) in *. set (v := edge_v T) in *.
  set (nu := nv_sub (cy t) (cx t)) in *. set (nv := nv_sub (cz t) (cx t)) in *.
  set (nw := nv_sub (nv_add _ _) _) in *.
  pose proof (rep_dot _ _ _ _ Hu Hv) as Huv. pose proof (rep_dot _ _ _ _ Hu Hu) as Huu.
  pose proof (rep_dot _ _ _ _ Hv Hv) as Hvv. pose proof (rep_dot _ _ _ _ Hw Hv) as Hwv.
  pose proof (rep_dot _ _ _ _ Hw Hu) as Hwu.
  assert (HC : rcross u v = rv0) by exact HN.
  set (nden := (nv_dot nu nv * nv_dot nu nv - nv_dot nu nu * nv_dot nv nv)%num).
  assert (Hden : rep nden 0).
  { unfold nden. eapply rep_eq; [rep_all|].
    pose proof (lagrange u v) as L. rewrite HC in L. clear - L. vring. lra. }
  assert (N1 : rdot u v * rdot W v - rdot v v * rdot W u = 0).
  { assert (E : rdot u v * rdot W v - rdot v v * rdot W u = rdot (rcross (rcross u v) v) W)
      by (clear; vring; ring).
    rewrite E, HC. clear; vring; ring. }
  assert (N2 : rdot u v * rdot W u - rdot u u * rdot W v = 0).
  { assert (E : rdot u v * rdot W u - rdot u u * rdot W v = - rdot (rcross (rcross u v) u) W)
      by (clear; vring; ring).
    rewrite E, HC. clear; vring; ring. }
  rewrite (ndiv_0_0 (nv_dot nu nv * nv_dot nw nv - nv_dot nv nv * nv_dot nw nu)%num nden)
    by (exact Hden || (eapply rep_eq; [rep_all|lra])).
  rewrite (ndiv_0_0 (nv_dot nu nv * nv_dot nw nu - nv_dot nu nu * nv_dot nw nv)%num nden)
    by (exact Hden || (eapply rep_eq; [rep_all|lra])).
  exact P4.
Qed.

(** ** Minimum over the triangles *)
Lemma min_param_spec l : forall best,
  (best = PInf \/ exists r, rep best r) -> (forall x, In x l -> x = NaN \/ exists r, rep x r) ->
  (min_param best l = PInf /\ best = PInf /\ forall x, In x l -> x = NaN) \/
  (exists m, rep (min_param best l) m /\ (rep best m \/ exists x, In x l /\ rep x m) /\
     (forall r, rep best r -> m <= r) /\ (forall x r, In x l -> rep x r -> m <= r)).
Proof.
  induction l as [|x l IH]; intros best Hb Hl; simpl.
  - destruct Hb as [->|(r&Hr)]; [left; splits; auto; intros ? []|].
    right. exists r. splits; auto.
    + intros r' H'. rewrite (rep_inj _ _ _ Hr H'). lra.
    + intros ? ? [].
  - set (best' := if (nan_to_inf x <? best)%num then nan_to_inf x else best).
    destruct (Hl x (or_introl eq_refl)) as [->|(r&Hr)].
    + assert (best' = best) as ->.
      { unfold best', nan_to_inf; simpl. destruct Hb as [->|(r&Hr)]; [reflexivity|].
        unfold nltb. rlook Hr. rewrite H. reflexivity. }
      destruct (IH best Hb (fun y H => Hl y (or_intror H))) as [(A&B&C)|(m&A&B&C&D)].
      * left. splits; auto. intros y [<-|H]; auto.
      * right. exists m. splits; auto.
        -- destruct B as [B|(y&B&B')]; auto. right; exists y; auto.
        -- intros y r [<-|H] Hy; [inversion Hy|eauto].
    + assert (NI : nan_to_inf x = x) by (unfold nan_to_inf; rewrite (rep_notnan _ _ Hr); auto).
      assert (HB' : exists r', rep best' r' /\ r' <= r /\ (forall q, rep best q -> r' <= q) /\
        (rep best r' \/ r' = r)).
      { unfold best'. rewrite NI. destruct Hb as [->|(q&Hq)].
        - unfold nltb. rlook Hr. rewrite H. simpl. exists r. splits; auto; try lra.
          intros q Hq; inversion Hq.
        - rewrite (rep_ltb _ _ _ _ Hr Hq). unfold Rltb. destruct (Rlt_dec r q).
          + exists r; splits; auto; try lra. intros q' Hq'. rewrite <- (rep_inj _ _ _ Hq Hq'); lra.
          + exists q; splits; auto; try lra. intros q' Hq'. rewrite <- (rep_inj _ _ _ Hq Hq'); lra. }
      destruct HB' as (r'&HB1&HB2&HB3&HB4).
      destruct (IH best' (or_intror (ex_intro _ _ HB1)) (fun y H => Hl y (or_intror H))) as [(A&B&C)|(m&A&B&C&D)].
      * rewrite B in HB1. inversion HB1.
      * right. exists m. pose proof (C _ HB1). splits; auto.
        -- destruct B as [B|(y&B&B')]; [|right; exists y; auto].
           pose proof (rep_inj _ _ _ HB1 B) as E. subst m.
           destruct HB4 as [HB4|HB4]; auto. right. exists x. subst r'. auto.
        -- intros q Hq. specialize (HB3 _ Hq). lra.
        -- intros y q [<-|H'] Hy; [rewrite <- (rep_inj _ _ _ Hr Hy); lra|eauto].
Qed.

Lemma min_params_spec x l : (forall y, In y (x :: l) -> y = NaN \/ exists r, rep y r) ->
  (min_param (nan_to_inf x) l = PInf /\ forall y, In y (x :: l) -> y = NaN) \/
  (exists m, rep (min_param (nan_to_inf x) l) m /\ (exists y, In y (x :: l) /\ rep y m) /\
     (forall y r, In y (x :: l) -> rep y r -> m <= r)).
Proof.
  intros H.
  assert (Hb : nan_to_inf x = PInf \/ exists r, rep (nan_to_inf x) r).
  { destruct (H x (or_introl eq_refl)) as [->|(r&Hr)]; [left; reflexivity|].
    right; exists r. unfold nan_to_inf. rewrite (rep_notnan _ _ Hr); auto. }
  assert (BX : forall r, rep (nan_to_inf x) r <-> rep x r).
  { intros r. unfold nan_to_inf. destruct x; simpl; split; auto; intros E; inversion E. }
  destruct (min_param_spec l _ Hb (fun y E => H y (or_intror E))) as [(A&B&C)|(m&A&B&C&D)].
  - left; split; auto. intros y [<-|E]; auto.
    destruct (H x (or_introl eq_refl)) as [->|(r&Hr)]; auto.
    apply BX in Hr. rewrite B in Hr. inversion Hr.
  - right. exists m. splits; auto.
    + destruct B as [B|(y&B&B')]; [exists x; rewrite <- BX; split; auto; left; auto|exists y; split; auto; right; auto].
    + intros y r [<-|E] Hy; [apply C, BX; auto|eauto].
Qed.

(** ** Points on lines *)
Definition line_at (P V : v3 R) (s : R) : v3 R := rv_add P (rv_scale s V).

Lemma cauchy a b : Rabs (rdot a b) <= rnorm a * rnorm b.
Proof.
  apply Rsqr_incr_0_var; [|apply Rmult_le_pos; apply rnorm_nonneg].
  unfold Rsqr. replace (rnorm a * rnorm b * (rnorm a * rnorm b)) with
    ((rnorm a * rnorm a) * (rnorm b * rnorm b)) by ring.
  rewrite !rnorm_sqr. rewrite <- Rabs_mult, Rabs_right by nra.
  pose proof (rdot_self_nonneg (rcross a b)). rewrite lagrange in H. lra.
Qed.
Lemma rnorm_le a b : rdot a a <= rdot b b -> rnorm a <= rnorm b.
Proof. intros. apply sqrt_le_1; auto using rdot_self_nonneg. Qed.
Lemma rdist_le a b c d : rdot (rv_sub a b) (rv_sub a b) <= rdot (rv_sub c d) (rv_sub c d) ->
  rdist a b <= rdist c d.
Proof. apply rnorm_le. Qed.
