(** * C21-C26: rays, lines, meshes, areas *)
Require Import Reals Lra Psatz Bool List.
From Verif Require Import Num Vec Ray RayFacts CameraTransform.
Import ListNotations.
Open Scope R_scope.

(** ** C21 *)
(** No component of [p] is a number, as it is when nothing is hit: +-inf where the
    direction is non-zero, nan where it is zero. *)
Definition lost (D : v3 R) (p : v3 num) : Prop :=
  forall i, (get_axis i D = 0 -> get_axis i p = NaN) /\
            (0 < get_axis i D -> get_axis i p = PInf) /\
            (get_axis i D < 0 -> get_axis i p = NInf).

Lemma lost_spec o d O D : rep3 o O -> rep3 d D -> lost D (nv_add o (nv_scale PInf d)).
Proof.
  assert (A : forall x a y b, rep x a -> rep y b ->
    (b = 0 -> (x + y * PInf)%num = NaN) /\ (0 < b -> (x + y * PInf)%num = PInf) /\
    (b < 0 -> (x + y * PInf)%num = NInf)).
  { intros x a y b Hx Hy. rlook Hx. splits; intros Hb.
    - subst. rlook Hy. unfold nmul. rewrite H0, Reqb_refl. simpl. apply nadd_NaN_r.
    - pose proof (rep_look_nz _ _ Hy ltac:(lra)) as E. unfold nmul. rewrite E. simpl.
      rewrite Reqb_false, Rltb_false by lra. unfold nadd. rewrite H. reflexivity.
    - pose proof (rep_look_nz _ _ Hy ltac:(lra)) as E. unfold nmul. rewrite E. simpl.
      rewrite Reqb_false, Rltb_true by lra. unfold nadd. rewrite H. reflexivity. }
  intros (?&?&?) (?&?&?) i. destruct i; cbn [get_axis]; eapply A; eauto.
Qed.

Lemma map_params (o d : v3 num) b mesh : forall M, Forall2 rept mesh M ->
  forall y, In y (map (tri_param b o d) mesh) -> exists t T, In t mesh /\ In T M /\ rept t T /\ y = tri_param b o d t.
Proof.
  intros M H; induction H; simpl; intros y' [].
  - subst. exists x, y; splits; auto.
  - destruct (IHForall2 _ H1) as (t&T&?&?&?&?). exists t, T; splits; auto.
Qed.
Lemma map_params_inv (o d : v3 num) b mesh : forall M, Forall2 rept mesh M ->
  forall T, In T M -> exists t, In t mesh /\ rept t T /\ In (tri_param b o d t) (map (tri_param b o d) mesh).
Proof.
  intros M H; induction H; simpl; intros T [].
  - subst. exists x; splits; auto.
  - destruct (IHForall2 _ H1) as (t&?&?&?). exists t; splits; auto.
Qed.

(** For every mesh of non-degenerate triangles none of which is seen exactly edge-on: the
    result is the nearest point of the ray on the mesh if there is one. *)
Theorem C21_nearest_hit : forall o d mesh O D M,
  rep3 o O -> rep3 d D -> Forall2 rept mesh M -> M <> [] -> (forall T, In T M -> regular O D T) ->
  exists p, ray_intersect_triangle false o d mesh = Some p /\
   ((exists r T, In T M /\ hit O D T r /\ rep3 p (ray_at O D r) /\
       forall T' r', In T' M -> hit O D T' r' -> r <= r')
    \/ ((forall T r, In T M -> ~ hit O D T r) /\ lost D p)).
Proof.
  intros o d mesh O D M Ho Hd HM HNE HR.
  unfold ray_intersect_triangle.
  destruct (map (tri_param false o d) mesh) as [|x l] eqn:E.
  { destruct HM; [contradiction|discriminate]. }
  eexists; split; [reflexivity|].
  assert (HP : forall y, In y (x :: l) -> exists t T, In t mesh /\ In T M /\ rept t T /\ y = tri_param false o d t)
    by (rewrite <- E; apply map_params; auto).
  destruct (min_params_spec x l) as [(A&B)|(m&A&(y&Hy&Ry)&C)].
  - intros y Hy. destruct (HP y Hy) as (t&T&_&HT&Rt&->).
    destruct (tri_param_spec o d t O D T Ho Hd Rt (HR T HT)) as [(r&_&Hr&_)|(N&_)]; eauto.
  - right. rewrite A. split; [|apply (lost_spec o d O D); auto].
    intros T r HT Hh. destruct (map_params_inv o d false mesh M HM T HT) as (t&_&Rt&Ht).
    rewrite E in Ht. apply B in Ht.
    destruct (tri_param_spec o d t O D T Ho Hd Rt (HR T HT)) as [(r'&_&Hr&_)|(_&N)].
    + rewrite Ht in Hr. inversion Hr.
    + eapply N; eauto.
  - left. destruct (HP y Hy) as (t&T&_&HT&Rt&Ey).
    destruct (tri_param_spec o d t O D T Ho Hd Rt (HR T HT)) as [(r&Hh&Hr&_)|(N&_)].
    2:{ rewrite Ey, N in Ry. inversion Ry. }
    assert (r = m) by (rewrite Ey in Ry; eapply rep_inj; eauto). subst r.
    exists m, T. splits; auto.
    + apply rep3_add; auto. apply rep3_scale; auto.
    + intros T' r' HT' Hh'. destruct (map_params_inv o d false mesh M HM T' HT') as (t'&_&Rt'&Ht').
      rewrite E in Ht'.
      destruct (tri_param_spec o d t' O D T' Ho Hd Rt' (HR T' HT')) as [(r''&_&Hr''&U)|(_&N)].
      * rewrite (U _ Hh'). eapply C; eauto.
      * exfalso; eapply N; eauto.
Qed.
Print Assumptions C21_nearest_hit.

(** An empty mesh raises. *)
Theorem C21_empty_mesh_raises : forall b o d, ray_intersect_triangle b o d [] = None.
Proof. reflexivity. Qed.
Print Assumptions C21_empty_mesh_raises.

(** use_planes=True: the same with planes instead of triangles. *)
Definition plane_hit (O D : v3 R) (T : tri R) (r : R) : Prop :=
  0 <= r /\ rdot (normal T) (rv_sub (ray_at O D r) (cx T)) = 0.
Lemma plane_eq O D T r :
  rdot (normal T) (rv_sub (ray_at O D r) (cx T)) = r * plane_b D T - plane_a O T.
Proof. unfold plane_a, plane_b. set (n := normal T). clearbody n. vring. ring. Qed.
Theorem C21_nearest_plane : forall o d mesh O D M,
  rep3 o O -> rep3 d D -> Forall2 rept mesh M -> M <> [] ->
  exists p, ray_intersect_triangle true o d mesh = Some p /\
   ((exists r T, In T M /\ plane_hit O D T r /\ rep3 p (ray_at O D r) /\
       forall T' r', In T' M -> plane_hit O D T' r' -> r <= r')
    \/ ((forall T r, In T M -> ~ plane_hit O D T r) /\ lost D p)).
Proof.
  intros o d mesh O D M Ho Hd HM HNE.
  assert (PS : forall t T, rept t T ->
    (exists r, rep (tri_param true o d t) r /\ plane_hit O D T r /\ forall r', plane_hit O D T r' -> r <= r')
    \/ (tri_param true o d t = NaN /\ forall r, ~ plane_hit O D T r)).
  { intros t T Ht. destruct (plane_param_spec o d t O D T Ho Hd Ht) as (P1&P2&P3&P4).
    unfold plane_hit. destruct (Req_dec (plane_b D T) 0) as [Hb|Hb].
    - destruct (Req_dec (plane_a O T) 0) as [Ha|Ha].
      + left. exists 0. splits; auto; try lra.
        * rewrite plane_eq. lra.
        * intros r' (?&_); auto.
      + right. split; auto. intros r (_&H). rewrite plane_eq, Hb in H. lra.
    - destruct (Rlt_le_dec (plane_a O T / plane_b D T) 0) as [H|H].
      + right. split; [auto|]. intros r (H1&H2). rewrite plane_eq in H2.
        assert (r = plane_a O T / plane_b D T) by (apply Rmult_eq_reg_r with (plane_b D T); auto; field_simplify; lra).
        lra.
      + left. exists (plane_a O T / plane_b D T). splits; auto.
        * rewrite plane_eq. field; auto.
        * intros r' (_&H2). rewrite plane_eq in H2.
          assert (r' = plane_a O T / plane_b D T) by (apply Rmult_eq_reg_r with (plane_b D T); auto; field_simplify; lra).
          lra. }
  unfold ray_intersect_triangle.
  destruct (map (tri_param true o d) mesh) as [|x l] eqn:E.
  { destruct HM; [contradiction|discriminate]. }
  eexists; split; [reflexivity|].
  assert (HP : forall y, In y (x :: l) -> exists t T, In t mesh /\ In T M /\ rept t T /\ y = tri_param true o d t)
    by (rewrite <- E; apply map_params; auto).
  destruct (min_params_spec x l) as [(A&B)|(m&A&(y&Hy&Ry)&C)].
  - intros y Hy. destruct (HP y Hy) as (t&T&_&HT&Rt&->).
    destruct (PS t T Rt) as [(r&Hr&_)|(N&_)]; eauto.
  - right. rewrite A. split; [|apply (lost_spec o d O D); auto].
    intros T r HT Hh. destruct (map_params_inv o d true mesh M HM T HT) as (t&_&Rt&Ht).
    rewrite E in Ht. apply B in Ht.
    destruct (PS t T Rt) as [(r'&Hr&_)|(_&N)].
    + rewrite Ht in Hr. inversion Hr.
    + eapply N; eauto.
  - left. destruct (HP y Hy) as (t&T&_&HT&Rt&Ey).
    destruct (PS t T Rt) as [(r&Hr&Hh&_)|(N&_)].
    2:{ rewrite Ey, N in Ry. inversion Ry. }
    assert (r = m) by (rewrite Ey in Ry; eapply rep_inj; eauto). subst r.
    exists m, T. splits; auto.
    + apply rep3_add; auto. apply rep3_scale; auto.
    + intros T' r' HT' Hh'. destruct (map_params_inv o d true mesh M HM T' HT') as (t'&_&Rt'&Ht').
      rewrite E in Ht'.
      destruct (PS t' T' Rt') as [(r''&Hr''&_&U)|(_&N)].
      * specialize (U _ Hh'). assert (m <= r'') by (eapply C; eauto). lra.
      * exfalso; eapply N; eauto.
Qed.
Print Assumptions C21_nearest_plane.

(** Every triangle parameter is nan or a non-negative number. *)
Lemma tri_param_nonneg o d t O D T : rep3 o O -> rep3 d D -> rept t T ->
  tri_param false o d t = NaN \/ exists r, rep (tri_param false o d t) r /\ 0 <= r.
Proof.
  intros Ho Hd Ht. destruct (plane_param_spec o d t O D T Ho Hd Ht) as (P1&P2&P3&P4).
  assert (plane_param o d t = NaN \/ exists r, rep (plane_param o d t) r /\ 0 <= r) as [H|H].
  { destruct (Req_dec (plane_b D T) 0) as [Hb|Hb].
    - destruct (Req_dec (plane_a O T) 0) as [Ha|Ha]; [right; exists 0; split; auto; lra|auto].
    - destruct (Rlt_le_dec (plane_a O T / plane_b D T) 0); eauto. }
  - left. apply tri_param_nan; auto.
  - rewrite tri_param_false. cbv zeta.
    repeat match goal with |- context [if ?b then _ else _] => destruct b end; auto.
Qed.

(** A single triangle of zero area anywhere in the mesh is "hit" at the ray's origin,
    in front of everything else. *)
Theorem C21_degenerate_triangle_hit : forall o d mesh O D M T,
  rep3 o O -> rep3 d D -> Forall2 rept mesh M -> In T M -> normal T = rv0 ->
  exists p, ray_intersect_triangle false o d mesh = Some p /\ rep3 p O.
Proof.
  intros o d mesh O D M T Ho Hd HM HT HN.
  unfold ray_intersect_triangle.
  destruct (map (tri_param false o d) mesh) as [|x l] eqn:E.
  { destruct HM; [destruct HT|discriminate]. }
  eexists; split; [reflexivity|].
  assert (HP : forall y, In y (x :: l) -> exists t T, In t mesh /\ In T M /\ rept t T /\ y = tri_param false o d t)
    by (rewrite <- E; apply map_params; auto).
  destruct (map_params_inv o d false mesh M HM T HT) as (t&_&Rt&Ht). rewrite E in Ht.
  pose proof (tri_param_degenerate o d t O D T Ho Hd Rt HN) as R0.
  destruct (min_params_spec x l) as [(A&B)|(m&A&(y&Hy&Ry)&C)].
  - intros y Hy. destruct (HP y Hy) as (t'&T'&_&HT'&Rt'&->).
    destruct (tri_param_nonneg o d t' O D T' Ho Hd Rt') as [N|(r&Hr&_)]; eauto.
  - apply B in Ht. rewrite Ht in R0. inversion R0.
  - destruct (HP y Hy) as (t'&T'&_&HT'&Rt'&Ey).
    destruct (tri_param_nonneg o d t' O D T' Ho Hd Rt') as [N|(r&Hr&Hr0)].
    { rewrite Ey, N in Ry. inversion Ry. }
    rewrite Ey in Ry. rewrite (rep_inj _ _ _ Hr Ry) in *.
    pose proof (C _ _ Ht R0). assert (m = 0) by lra. subst m.
    eapply rep3_eq; [apply rep3_add; eauto; apply rep3_scale; eauto|]. apply v3_ext; simpl; ring.
Qed.
Print Assumptions C21_degenerate_triangle_hit.

(** A triangle in whose plane the ray runs is missed unless the ray starts inside it. *)
Theorem C21_edge_on_missed : forall o d t O D T,
  rep3 o O -> rep3 d D -> rept t T -> normal T <> rv0 -> plane_b D T = 0 -> plane_a O T = 0 ->
  ~ in_tri T O ->
  exists p, ray_intersect_triangle false o d [t] = Some p /\ lost D p.
Proof.
  intros o d t O D T Ho Hd Ht HN Hb Ha HI.
  destruct (plane_param_spec o d t O D T Ho Hd Ht) as (_&_&_&P4).
  assert (E0 : ray_at O D 0 = O) by (apply v3_ext; vring; ring).
  destruct (tri_param_bary o d t O D T 0 Ho Hd Ht HN (P4 Hb Ha)) as (_&B).
  { rewrite plane_eq, Hb, Ha. ring. }
  rewrite E0 in B. unfold ray_intersect_triangle. cbn [map]. rewrite (B HI).
  eexists; split; [reflexivity|]. apply (lost_spec o d O D); auto.
Qed.
Print Assumptions C21_edge_on_missed.

(** "nan when there is no intersection" is false of the code... *)
Definition ex_tri : tri R := V3 (V3 0 0 0) (V3 1 0 0) (V3 0 1 0).
Definition fint (T : tri R) : tri num := map3v fin3 T.
Lemma rept_fint T : rept (fint T) T.
Proof. unfold rept; splits; apply rep3_fin. Qed.
Ltac vdec := vring; repeat split; try lra; try (intros H; injection H; intros; lra).
Theorem C21_no_hit_nan_refuted : exists o d t, 
  (forall r, ~ hit o d t r) /\ regular o d t /\
  exists p, ray_intersect_triangle false (fin3 o) (fin3 d) [fint t] = Some p /\ cz p = PInf.
Proof.
  exists (V3 5 5 1), (V3 0 0 1), ex_tri.
  assert (RG : regular (V3 5 5 1) (V3 0 0 1) ex_tri).
  { split.
    - unfold ex_tri. vring. intros H; injection H; intros; lra.
    - unfold plane_b, plane_a, ex_tri. vring. lra. }
  assert (NH : forall r, ~ hit (V3 5 5 1) (V3 0 0 1) ex_tri r).
  { intros r (_&s&t&H1&H2&H3&E). apply (f_equal cx) in E. unfold ex_tri in E. vring. lra. }
  splits; auto.
  destruct (C21_nearest_hit (fin3 (V3 5 5 1)) (fin3 (V3 0 0 1)) [fint ex_tri] _ _ [ex_tri] (rep3_fin _) (rep3_fin _))
    as (p&E&[(r&T&[<-|[]]&Hh&_)|(_&L)]).
  - repeat constructor; apply rept_fint.
  - discriminate.
  - intros T [<-|[]]; auto.
  - exfalso; eapply NH; eauto.
  - exists p; split; auto. apply (L AZ). simpl; lra.
Qed.
Print Assumptions C21_no_hit_nan_refuted.
(** ... so is "a triangle of zero area is never hit" ... *)
Theorem C21_degenerate_never_hit_refuted : exists o d t,
  normal t = rv0 /\ (forall r, ~ hit o d t r) /\
  exists p, ray_intersect_triangle false (fin3 o) (fin3 d) [fint t] = Some p /\ rep3 p o.
Proof.
  exists (V3 5 5 1), (V3 0 0 1), (V3 (V3 0 0 0) (V3 1 0 0) (V3 2 0 0)).
  splits.
  - apply v3_ext; vring; ring.
  - intros r (_&s&t&H1&H2&H3&E). apply (f_equal cy) in E. vring. lra.
  - destruct (C21_degenerate_triangle_hit (fin3 (V3 5 5 1)) (fin3 (V3 0 0 1)) [fint (V3 (V3 0 0 0) (V3 1 0 0) (V3 2 0 0))]
      _ _ [V3 (V3 0 0 0) (V3 1 0 0) (V3 2 0 0)] (V3 (V3 0 0 0) (V3 1 0 0) (V3 2 0 0)) (rep3_fin _) (rep3_fin _)) as (p&E&R).
    + repeat constructor; apply rept_fint.
    + left; auto.
    + apply v3_ext; vring; ring.
    + eauto.
Qed.
Print Assumptions C21_degenerate_never_hit_refuted.
(** ... and completeness for rays in the plane of a triangle. *)
Theorem C21_edge_on_refuted : exists o d t r, hit o d t r /\ normal t <> rv0 /\
  exists p, ray_intersect_triangle false (fin3 o) (fin3 d) [fint t] = Some p /\ cx p = PInf.
Proof.
  exists (V3 (-1) (1/4) 0), (V3 1 0 0), ex_tri, (5/4).
  assert (NZ : normal ex_tri <> rv0).
  { unfold ex_tri; vring. intros H; injection H; intros; lra. }
  splits; auto.
  - split; [lra|]. exists (1/4), (1/4). unfold ex_tri; splits; try lra.
    apply v3_ext; vring; lra.
  - destruct (C21_edge_on_missed (fin3 (V3 (-1) (1/4) 0)) (fin3 (V3 1 0 0)) (fint ex_tri) _ _ _
      (rep3_fin _) (rep3_fin _) (rept_fint _) NZ) as (p&E&L).
    + unfold plane_b, ex_tri; vring; ring.
    + unfold plane_a, ex_tri; vring; ring.
    + intros (s&t&H1&H2&H3&E). apply (f_equal cx) in E. unfold ex_tri in E. vring. lra.
    + exists p; split; auto. apply (L AX). simpl; lra.
Qed.
Print Assumptions C21_edge_on_refuted.

(** Two parallel triangles above each other: the nearer one is returned. *)
Definition ex_tri2 : tri R := V3 (V3 0 0 1) (V3 1 0 1) (V3 0 1 1).
Example C21_example : exists p,
  ray_intersect_triangle false (fin3 (V3 (1/4) (1/4) 3)) (fin3 (V3 0 0 (-1))) [fint ex_tri; fint ex_tri2] = Some p
  /\ rep3 p (V3 (1/4) (1/4) 1).
Proof.
  assert (RG : forall T, In T [ex_tri; ex_tri2] -> regular (V3 (1/4) (1/4) 3) (V3 0 0 (-1)) T).
  { intros T [<-|[<-|[]]]; split; unfold ex_tri, ex_tri2, plane_a, plane_b; vring;
     try lra; intros H; injection H; intros; lra. }
  destruct (C21_nearest_hit (fin3 (V3 (1/4) (1/4) 3)) (fin3 (V3 0 0 (-1))) [fint ex_tri; fint ex_tri2] _ _
    [ex_tri; ex_tri2] (rep3_fin _) (rep3_fin _)) as (p&E&[(r&T&HT&Hh&R&MIN)|(N&_)]); auto.
  - repeat constructor; apply rept_fint.
  - discriminate.
  - assert (H2 : hit (V3 (1/4) (1/4) 3) (V3 0 0 (-1)) ex_tri2 2).
    { split; [lra|]. exists (1/4), (1/4). splits; try lra. unfold ex_tri2; apply v3_ext; vring; lra. }
    pose proof (MIN ex_tri2 2 (or_intror (or_introl eq_refl)) H2).
    assert (r = 2).
    { destruct Hh as (_&s&t&_&_&_&Eq). apply (f_equal cz) in Eq.
      destruct HT as [<-|[<-|[]]]; unfold ex_tri, ex_tri2 in Eq; vring; lra. }
    subst r. exists p. split; auto. eapply rep3_eq; [exact R|]. apply v3_ext; vring; lra.
  - exfalso. apply (N ex_tri2 2); [right; left; auto|]. split; [lra|].
    exists (1/4), (1/4). splits; try lra. unfold ex_tri2; apply v3_ext; vring; lra.
Qed.
(** The planes of the triangles are met far outside them. *)
Example C21_nearest_plane_example : exists p,
  ray_intersect_triangle true (fin3 (V3 5 5 3)) (fin3 (V3 0 0 (-1))) [fint ex_tri; fint ex_tri2] = Some p /\ rep3 p (V3 5 5 1).
Proof.
  assert (H2 : plane_hit (V3 5 5 3) (V3 0 0 (-1)) ex_tri2 2) by (split; [lra|unfold ex_tri2; vring; lra]).
  destruct (C21_nearest_plane (fin3 (V3 5 5 3)) (fin3 (V3 0 0 (-1))) [fint ex_tri; fint ex_tri2] _ _
    [ex_tri; ex_tri2] (rep3_fin _) (rep3_fin _)) as (p&E&[(r&T&HT&Hh&R&MIN)|(N&_)]); auto.
  - repeat constructor; apply rept_fint.
  - discriminate.
  - pose proof (MIN ex_tri2 2 (or_intror (or_introl eq_refl)) H2) as L.
    assert (r = 2) by (destruct Hh as (_&Eq); destruct HT as [<-|[<-|[]]]; unfold ex_tri, ex_tri2 in Eq; vring; lra).
    subst r. exists p. split; auto. eapply rep3_eq; [exact R|]. apply v3_ext; unfold line_at; vring; lra.
  - exfalso. apply (N ex_tri2 2); [right; left; auto|exact H2].
Qed.

(** ** C22 *)
Lemma lines_system_spec p1 v1 p2 v2 P1 V1 P2 W2 :
  rep3 p1 P1 -> rep3 v1 V1 -> rep3 p2 P2 -> rep3 v2 W2 ->
  (rcross V1 W2 = rv0 -> lines_system p1 v1 p2 v2 = None) /\
  (rcross V1 W2 <> rv0 -> exists s t S T, lines_system p1 v1 p2 v2 = Some (s, t) /\ rep s S /\ rep t T /\
    let w := rv_sub (line_at P1 V1 S) (line_at P2 W2 T) in rdot w V1 = 0 /\ rdot w W2 = 0).
Proof.
  intros H1 H2 H3 H4. unfold lines_system, solve2.
  pose proof (rep_dot _ _ _ _ H2 H2) as A. pose proof (rep_dot _ _ _ _ H4 H2) as B.
  pose proof (rep_dot _ _ _ _ H2 H4) as C. pose proof (rep_dot _ _ _ _ H4 H4) as D.
  pose proof (rep_dot _ _ _ _ H2 (rep3_sub _ _ _ _ H1 H3)) as E.
  pose proof (rep_dot _ _ _ _ H4 (rep3_sub _ _ _ _ H1 H3)) as F.
  set (det := (_ - _)%num).
  assert (HD : rep det (- rdot (rcross V1 W2) (rcross V1 W2))).
  { unfold det. eapply rep_eq; [rep_all|]. rewrite lagrange. rewrite (rdot_comm W2 V1). ring. }
  cbv zeta. rewrite (rep_eqb _ _ _ _ HD (rep_Fin 0)). split; intros HC.
  - rewrite HC. rewrite Reqb_true; auto. vring. ring.
  - assert (NZ : - rdot (rcross V1 W2) (rcross V1 W2) <> 0).
    { intros Z. apply HC, rdot_self_0. lra. }
    rewrite Reqb_false by auto.
    do 4 eexists. split; [reflexivity|]. split; [rep_all; auto|]. split; [rep_all; auto|].
    cbv zeta. 
    rewrite lagrange in NZ. rewrite lagrange.
    split.
    + unfold line_at. clear - NZ. vring. field. intros Z; apply NZ; lra.
    + unfold line_at. clear - NZ. vring. field. intros Z; apply NZ; lra.
Qed.

Theorem C22_midpoint_of_shortest_segment : forall p1 v1 p2 v2 P1 V1 P2 W2,
  rep3 p1 P1 -> rep3 v1 V1 -> rep3 p2 P2 -> rep3 v2 W2 -> rcross V1 W2 <> rv0 ->
  exists S T, let A := line_at P1 V1 S in let B := line_at P2 W2 T in
    rep3 (intersectionOfTwoLines1 p1 v1 p2 v2) (rv_scale (1/2) (rv_add A B)) /\
    forall S' T', rdist A B <= rdist (line_at P1 V1 S') (line_at P2 W2 T') /\
      (rdist A B = rdist (line_at P1 V1 S') (line_at P2 W2 T') -> S' = S /\ T' = T).
Proof.
  intros p1 v1 p2 v2 P1 V1 P2 W2 H1 H2 H3 H4 HC.
  destruct (lines_system_spec _ _ _ _ _ _ _ _ H1 H2 H3 H4) as (_&L).
  destruct (L HC) as (s&t&S&T&E&Rs&Rt&O1&O2). exists S, T. cbv zeta in *.
  set (A := line_at P1 V1 S) in *. set (B := line_at P2 W2 T) in *.
  unfold intersectionOfTwoLines1. rewrite E. split.
  - unfold lines_mid, mean2; cbn [fst snd]. eapply rep3_eq.
    + apply rep3_div; [apply rep3_add; apply rep3_add; eauto; apply rep3_scale; eauto|apply rep_Fin|lra].
    + unfold A, B. apply v3_ext; unfold line_at; vring; field.
  - intros S' T'.
    set (k := rv_sub (rv_scale (S' - S) V1) (rv_scale (T' - T) W2)).
    assert (EQ : rdot (rv_sub (line_at P1 V1 S') (line_at P2 W2 T')) (rv_sub (line_at P1 V1 S') (line_at P2 W2 T'))
      = rdot (rv_sub A B) (rv_sub A B) + rdot k k).
    { transitivity (rdot (rv_sub A B) (rv_sub A B) + rdot k k + 2 * ((S' - S) * rdot (rv_sub A B) V1 - (T' - T) * rdot (rv_sub A B) W2)).
      - unfold A, B, k, line_at. clear. vring. ring.
      - rewrite O1, O2. ring. }
    pose proof (rdot_self_nonneg k) as KN. split.
    + apply rdist_le. lra.
    + intros ED. assert (KZ : k = rv0).
      { apply rdot_self_0. unfold rdist in ED.
        pose proof (rnorm_sqr (rv_sub A B)) as Q1.
        pose proof (rnorm_sqr (rv_sub (line_at P1 V1 S') (line_at P2 W2 T'))) as Q2.
        rewrite <- ED in Q2. lra. }
      clear - KZ HC.
      assert (Q : forall q, rv_scale q (rcross V1 W2) = rv0 -> q = 0).
      { intros q Hq. destruct (Req_dec q 0); auto. exfalso. apply HC.
        apply v3_ext; [apply (f_equal cx) in Hq|apply (f_equal cy) in Hq|apply (f_equal cz) in Hq];
        cbn [rv_scale map3v rv0 cx cy cz] in *; apply Rmult_integral in Hq; tauto. }
      assert (E1 : rv_scale (S' - S) (rcross V1 W2) = rcross k W2).
      { unfold k. apply v3_ext; vring; ring. }
      assert (E2 : rv_scale (T' - T) (rcross V1 W2) = rcross k V1).
      { unfold k. apply v3_ext; vring; ring. }
      assert (R0 : forall X, rcross rv0 X = rv0) by (intros; apply v3_ext; vring; ring).
      rewrite KZ, R0 in E1, E2. apply Q in E1, E2. lra.
Qed.
Print Assumptions C22_midpoint_of_shortest_segment.

(** If the lines meet, the result is the common point. *)
Theorem C22_intersection : forall p1 v1 p2 v2 P1 V1 P2 W2 X s t,
  rep3 p1 P1 -> rep3 v1 V1 -> rep3 p2 P2 -> rep3 v2 W2 -> rcross V1 W2 <> rv0 ->
  line_at P1 V1 s = X -> line_at P2 W2 t = X ->
  rep3 (intersectionOfTwoLines1 p1 v1 p2 v2) X.
Proof.
  intros p1 v1 p2 v2 P1 V1 P2 W2 X s t H1 H2 H3 H4 HC E1 E2.
  destruct (C22_midpoint_of_shortest_segment _ _ _ _ _ _ _ _ H1 H2 H3 H4 HC) as (S&T&HR&HM).
  cbv zeta in *. destruct (HM s t) as (LE&U). rewrite E1, E2 in *.
  assert (Z : rdist X X = 0).
  { unfold rdist, rnorm. replace (rdot _ _) with 0 by (vring; ring). apply sqrt_0. }
  rewrite Z in *.
  assert (rdist (line_at P1 V1 S) (line_at P2 W2 T) = 0) by (pose proof (rnorm_nonneg (rv_sub (line_at P1 V1 S) (line_at P2 W2 T))); unfold rdist in *; lra).
  destruct (U H) as (->&->). rewrite E1, E2 in HR. eapply rep3_eq; [exact HR|].
  apply v3_ext; vring; lra.
Qed.
Print Assumptions C22_intersection.

Theorem C22_parallel_nan : forall p1 v1 p2 v2 P1 V1 P2 W2,
  rep3 p1 P1 -> rep3 v1 V1 -> rep3 p2 P2 -> rep3 v2 W2 -> rcross V1 W2 = rv0 ->
  intersectionOfTwoLines1 p1 v1 p2 v2 = nan3.
Proof.
  intros p1 v1 p2 v2 P1 V1 P2 W2 H1 H2 H3 H4 HC.
  destruct (lines_system_spec _ _ _ _ _ _ _ _ H1 H2 H3 H4) as (L&_).
  unfold intersectionOfTwoLines1. rewrite (L HC). reflexivity.
Qed.
Print Assumptions C22_parallel_nan.

(** A batch gives the rows' results, also when some rows are parallel. *)
Theorem C22_batch_rows : forall p1 vs1 p2 vs2,
  intersectionOfTwoLinesN p1 vs1 p2 vs2 =
  map (fun r => intersectionOfTwoLines1 p1 (fst r) p2 (snd r)) (combine vs1 vs2).
Proof.
  intros. unfold intersectionOfTwoLinesN. set (rows := combine vs1 vs2). clearbody rows.
  destruct (all_some _) as [res|] eqn:E; auto.
  revert res E. induction rows as [|r rows IH]; simpl; intros res E.
  - inversion E; reflexivity.
  - unfold intersectionOfTwoLines1 at 1.
    destruct (lines_system p1 (fst r) p2 (snd r)) as [st|]; [|discriminate].
    destruct (all_some _) as [res'|]; [|discriminate]. simpl in E. inversion E; subst.
    simpl. f_equal. apply IH; auto.
Qed.
Print Assumptions C22_batch_rows.
Example C22_example :
  rep3 (intersectionOfTwoLines1 (fin3 (V3 0 0 0)) (fin3 (V3 1 0 0)) (fin3 (V3 3 5 0)) (fin3 (V3 0 1 0))) (V3 3 0 0).
Proof.
  apply (C22_intersection _ _ _ _ (V3 0 0 0) (V3 1 0 0) (V3 3 5 0) (V3 0 1 0) _ 3 (-5)); try apply rep3_fin.
  - vring. intros H; injection H; lra.
  - apply v3_ext; unfold line_at; vring; lra.
  - apply v3_ext; unfold line_at; vring; lra.
Qed.
(** Two skew lines at distance 2. *)
Example C22_midpoint_example :
  rep3 (intersectionOfTwoLines1 (fin3 (V3 0 0 0)) (fin3 (V3 1 0 0)) (fin3 (V3 3 5 2)) (fin3 (V3 0 1 0))) (V3 3 0 1).
Proof.
  destruct (C22_midpoint_of_shortest_segment (fin3 (V3 0 0 0)) (fin3 (V3 1 0 0)) (fin3 (V3 3 5 2)) (fin3 (V3 0 1 0)) _ _ _ _
    (rep3_fin _) (rep3_fin _) (rep3_fin _) (rep3_fin _)) as (S&T&RX&M).
  { vring. intros H; injection H; lra. }
  assert (L : rdist (line_at (V3 0 0 0) (V3 1 0 0) 3) (line_at (V3 3 5 2) (V3 0 1 0) (-5)) = 2).
  { unfold rdist, rnorm, line_at. vring. apply sqrt_lem_1; lra. }
  assert (G : 2 <= rdist (line_at (V3 0 0 0) (V3 1 0 0) S) (line_at (V3 3 5 2) (V3 0 1 0) T)).
  { unfold rdist, rnorm, line_at. apply Rle_trans with (sqrt (2 * 2)); [rewrite sqrt_square; lra|]. apply sqrt_le_1_alt. vring. pose proof (Rle_0_sqr (S - 3)); pose proof (Rle_0_sqr (T + 5)); unfold Rsqr in *. lra. }
  destruct (M 3 (-5)) as (M1&M2). rewrite L in M1, M2.
  assert (E : S = 3 /\ T = -5).
  { destruct M2 as (<-&<-); [apply Rle_antisym; assumption|]. split; reflexivity. }
  destruct E as (-> & ->). eapply rep3_eq; [exact RX|]. apply v3_ext; unfold line_at; vring; lra.
Qed.
Example C22_parallel_nan_example :
  intersectionOfTwoLines1 (fin3 (V3 0 0 0)) (fin3 (V3 1 2 3)) (fin3 (V3 3 5 2)) (fin3 (V3 (-2) (-4) (-6))) = nan3.
Proof.
  apply (C22_parallel_nan _ _ _ _ (V3 0 0 0) (V3 1 2 3) (V3 3 5 2) (V3 (-2) (-4) (-6))); try apply rep3_fin.
  apply v3_ext; vring; ring.
Qed.

(** ** C23 *)
(** [d] is the distance of two point sets given by parametrisations. *)
Definition is_distance (L1 L2 : R -> v3 R) (d : R) : Prop :=
  (forall s t, d <= rdist (L1 s) (L2 t)) /\ exists s t, rdist (L1 s) (L2 t) = d.

Lemma isclose0_spec x r : rep x r -> isclose0 x = true <-> Rabs r <= close_tol.
Proof.
  intros H. unfold isclose0. rewrite (rep_leb _ _ _ _ (rep_abs _ _ H) (rep_Fin _)). apply Rleb_iff.
Qed.
Lemma isclose0_spec_f x r : rep x r -> close_tol < Rabs r -> isclose0 x = false.
Proof.
  intros H L. destruct (isclose0 x) eqn:E; auto. apply (isclose0_spec _ _ H) in E. lra.
Qed.
Lemma rnorm_rv0 : rnorm rv0 = 0.
Proof. unfold rnorm. replace (rdot rv0 rv0) with 0 by (vring; ring). apply sqrt_0. Qed.
Lemma close_tol_pos : 0 < close_tol. Proof. unfold close_tol. lra. Qed.

Lemma rnorm_m1 a : rnorm (rv_scale (-1) a) = rnorm a.
Proof. unfold rnorm; f_equal; vring; ring. Qed.

Lemma point_line_foot Q V : V <> rv0 ->
  exists t, rnorm (rv_sub Q (rv_scale t V)) = rnorm (rcross Q V) / rnorm V /\
    forall t', rnorm (rcross Q V) / rnorm V <= rnorm (rv_sub Q (rv_scale t' V)).
Proof.
  intros HV. pose proof (rnorm_pos _ HV) as NP.
  assert (VV : 0 < rdot V V) by (rewrite <- rnorm_sqr; nra).
  assert (EV : rnorm (rcross Q V) / rnorm V = sqrt (rdot (rcross Q V) (rcross Q V) / rdot V V)).
  { unfold rnorm. rewrite sqrt_div; auto using rdot_self_nonneg. }
  assert (EQ : forall t, rdot (rv_sub Q (rv_scale t V)) (rv_sub Q (rv_scale t V)) =
     rdot (rcross Q V) (rcross Q V) / rdot V V + rdot V V * (t - rdot Q V / rdot V V) * (t - rdot Q V / rdot V V)).
  { intros t. rewrite lagrange.
    replace (rdot (rv_sub Q (rv_scale t V)) (rv_sub Q (rv_scale t V))) with
      (rdot Q Q - 2 * t * rdot Q V + t * t * rdot V V) by (vring; ring).
    field; lra. }
  exists (rdot Q V / rdot V V). split.
  - rewrite EV. unfold rnorm. rewrite EQ. f_equal. field; lra.
  - intros t'. rewrite EV. unfold rnorm. apply sqrt_le_1_alt. rewrite EQ.
    set (e := t' - rdot Q V / rdot V V). assert (0 <= e * e) by nra.
    assert (0 <= rdot V V * (e * e)) by (apply Rmult_le_pos; lra). lra.
Qed.

Theorem C23_distance_of_lines : forall p1 v1 p2 v2 P1 V1 P2 W2,
  rep3 p1 P1 -> rep3 v1 V1 -> rep3 p2 P2 -> rep3 v2 W2 ->
  (* clearly not parallel, or exactly parallel with directions that are zero or not tiny *)
  (close_tol < rnorm (rcross V1 W2) \/
   (rcross V1 W2 = rv0 /\ (close_tol < rnorm V1 \/ V1 = rv0) /\ (close_tol < rnorm W2 \/ W2 = rv0))) ->
  exists d, rep (distanceOfTwoLines1 p1 v1 p2 v2) d /\ is_distance (line_at P1 V1) (line_at P2 W2) d.
Proof.
  intros p1 v1 p2 v2 P1 V1 P2 W2 H1 H2 H3 H4 HH.
  unfold distanceOfTwoLines1. cbv zeta.
  pose proof (rep3_sub _ _ _ _ H3 H1) as HP. pose proof (rep3_cross _ _ _ _ H2 H4) as HC.
  pose proof (rep_norm _ _ HC) as HN.
  set (Q := rv_sub P2 P1) in *.
  destruct HH as [HH|(HZ&HV1&HV2)].
  - rewrite (isclose0_spec_f _ _ HN) by (rewrite Rabs_right; [lra|apply Rle_ge, rnorm_nonneg]).
    pose proof close_tol_pos.
    set (C := rcross V1 W2) in *.
    assert (NZ : rnorm C <> 0) by lra.
    exists (Rabs (rdot Q C) / rnorm C). split.
    { apply rep_div; auto. apply rep_abs, rep_dot; auto. }
    split.
    + intros s t. apply Rmult_le_reg_r with (rnorm C); [lra|].
      unfold Rdiv. rewrite Rmult_assoc, Rinv_l, Rmult_1_r by auto.
      unfold rdist. eapply Rle_trans; [|apply cauchy]. right.
      rewrite <- Rabs_Ropp. f_equal. unfold C, Q, line_at. vring. ring.
    + assert (HCn : rcross V1 W2 <> rv0) by (intros Z; fold C in Z; apply NZ; rewrite Z; apply rnorm_rv0).
      destruct (lines_system_spec _ _ _ _ _ _ _ _ H1 H2 H3 H4) as (_&L).
      destruct (L HCn) as (_&_&S&T&_&_&_&O1&O2). exists S, T.
      cbv zeta in O1, O2. set (w := rv_sub (line_at P1 V1 S) (line_at P2 W2 T)) in *.
      unfold rdist. fold w.
      assert (EW : rv_scale (rdot C C) w = rv_scale (rdot w C) C).
      { assert (E : rv_scale (rdot C C) w = rv_add (rv_scale (rdot w C) C)
            (rcross C (rv_sub (rv_scale (rdot w W2) V1) (rv_scale (rdot w V1) W2)))).
        { unfold C. clearbody w. clear. apply v3_ext; vring; ring. }
        rewrite E, O1, O2. apply v3_ext; vring; ring. }
      assert (EN : rdot C C * rnorm w = Rabs (rdot w C) * rnorm C).
      { rewrite <- rnorm_scale, <- EW, rnorm_scale, Rabs_right; auto. apply Rle_ge, rdot_self_nonneg. }
      rewrite <- rnorm_sqr in EN.
      assert (EA : Rabs (rdot w C) = Rabs (rdot Q C)).
      { rewrite <- Rabs_Ropp. f_equal. unfold w, Q, C, line_at. clear. vring. ring. }
      rewrite <- EA. apply Rmult_eq_reg_r with (rnorm C * rnorm C); [|apply Rmult_integral_contrapositive; auto].
      transitivity (Rabs (rdot w C) * rnorm C); [lra|field; auto].
  - assert (C0 : isclose0 (nv_norm (nv_cross v1 v2)) = true).
    { apply (isclose0_spec _ _ HN). rewrite HZ, rnorm_rv0, Rabs_R0. pose proof close_tol_pos; lra. }
    rewrite C0. pose proof (rep_norm _ _ H2) as HN1. pose proof (rep_norm _ _ H4) as HN2.
    destruct HV1 as [HV1|HV1].
    + rewrite (isclose0_spec_f _ _ HN1) by (rewrite Rabs_right; [lra|apply Rle_ge, rnorm_nonneg]).
      pose proof close_tol_pos. assert (NZ : V1 <> rv0) by (intros Z; rewrite Z, rnorm_rv0 in HV1; lra).
      exists (rnorm (rcross Q V1) / rnorm V1). split.
      { apply rep_div; auto. apply rep_norm, rep3_cross; auto. lra. }
      assert (PAR : exists k, W2 = rv_scale k V1).
      { pose proof (rnorm_pos _ NZ) as NP. assert (VV : rdot V1 V1 <> 0) by (rewrite <- rnorm_sqr; nra).
        exists (rdot V1 W2 / rdot V1 V1).
        assert (E : rv_scale (rdot V1 V1) W2 = rv_add (rv_scale (rdot V1 W2) V1) (rcross (rcross V1 W2) V1))
          by (apply v3_ext; vring; ring).
        rewrite HZ in E.
        apply v3_ext; [apply (f_equal cx) in E|apply (f_equal cy) in E|apply (f_equal cz) in E];
          cbn [rv_scale rv_add zip3v map3v cx cy cz rcross rv0] in *;
          apply Rmult_eq_reg_l with (rdot V1 V1); auto; field_simplify; auto; lra. }
      destruct PAR as (k&EK). destruct (point_line_foot Q V1 NZ) as (t0&A&B). split.
      * intros s t. unfold rdist.
        replace (rv_sub (line_at P1 V1 s) (line_at P2 W2 t)) with (rv_scale (-1) (rv_sub Q (rv_scale (s - t * k) V1)))
          by (rewrite EK; unfold Q, line_at; apply v3_ext; vring; ring).
        rewrite rnorm_m1. apply B.
      * exists t0, 0. unfold rdist.
        replace (rv_sub (line_at P1 V1 t0) (line_at P2 W2 0)) with (rv_scale (-1) (rv_sub Q (rv_scale t0 V1)))
          by (unfold Q, line_at; apply v3_ext; vring; ring).
        rewrite rnorm_m1. apply A.
    + assert (C1 : isclose0 (nv_norm v1) = true).
      { apply (isclose0_spec _ _ HN1). rewrite HV1, rnorm_rv0, Rabs_R0. pose proof close_tol_pos; lra. }
      rewrite C1. destruct HV2 as [HV2|HV2].
      * rewrite (isclose0_spec_f _ _ HN2) by (rewrite Rabs_right; [lra|apply Rle_ge, rnorm_nonneg]).
        pose proof close_tol_pos. assert (NZ : W2 <> rv0) by (intros Z; rewrite Z, rnorm_rv0 in HV2; lra).
        exists (rnorm (rcross Q W2) / rnorm W2). split.
        { apply rep_div; auto. apply rep_norm, rep3_cross; auto. lra. }
        destruct (point_line_foot Q W2 NZ) as (t0&A&B). split.
        -- intros s t. unfold rdist. rewrite HV1.
           replace (rv_sub (line_at P1 rv0 s) (line_at P2 W2 t)) with (rv_scale (-1) (rv_sub Q (rv_scale (-t) W2)))
             by (unfold Q, line_at; apply v3_ext; vring; ring).
           rewrite rnorm_m1. apply B.
        -- exists 0, (-t0). unfold rdist. rewrite HV1.
           replace (rv_sub (line_at P1 rv0 0) (line_at P2 W2 (-t0))) with (rv_scale (-1) (rv_sub Q (rv_scale t0 W2)))
             by (unfold Q, line_at; apply v3_ext; vring; ring).
           rewrite rnorm_m1. apply A.
      * assert (C2 : isclose0 (nv_norm v2) = true).
        { apply (isclose0_spec _ _ HN2). rewrite HV2, rnorm_rv0, Rabs_R0. pose proof close_tol_pos; lra. }
        rewrite C2. exists (rnorm Q). split; [apply rep_norm; auto|].
        assert (E : forall s t, rdist (line_at P1 V1 s) (line_at P2 W2 t) = rnorm Q).
        { intros. unfold rdist. rewrite HV1, HV2.
          replace (rv_sub (line_at P1 rv0 s) (line_at P2 rv0 t)) with (rv_scale (-1) Q)
            by (unfold Q, line_at; apply v3_ext; vring; ring).
          apply rnorm_m1. }
        split; [intros; rewrite E; lra|exists 0, 0; auto].
Qed.
Print Assumptions C23_distance_of_lines.

Theorem C23_batch_rows : forall p1 vs1 p2 vs2 i v1 v2,
  nth_error vs1 i = Some v1 -> nth_error vs2 i = Some v2 ->
  nth_error (distanceOfTwoLinesN p1 vs1 p2 vs2) i = Some (distanceOfTwoLines1 p1 v1 p2 v2).
Proof.
  intros p1 vs1 p2. induction vs1 as [|a vs1 IH]; intros [|b vs2] [|i] v1 v2; simpl; try discriminate.
  - intros [= ->] [= ->]. reflexivity.
  - apply IH.
Qed.
Print Assumptions C23_batch_rows.

(** Short direction vectors: the two lines below meet, but the reported distance is 1. *)
Theorem C23_short_direction_refuted : exists P1 V1 P2 W2,
  rcross V1 W2 <> rv0 /\ is_distance (line_at P1 V1) (line_at P2 W2) 0 /\
  rep (distanceOfTwoLines1 (fin3 P1) (fin3 V1) (fin3 P2) (fin3 W2)) 1.
Proof.
  set (e := close_tol / 10).
  exists (V3 0 0 0), (V3 e 0 0), (V3 1 0 0), (V3 0 1 0).
  assert (He : 0 < e) by (pose proof close_tol_pos; unfold e; lra).
  splits.
  - intros H. apply (f_equal cz) in H. vring. lra.
  - split; [intros; apply rnorm_nonneg|]. exists (1 / e), 0.
    unfold rdist, rnorm. replace (rdot _ _) with 0; [apply sqrt_0|]. unfold line_at; vring. field; lra.
  - unfold distanceOfTwoLines1. cbv zeta.
    assert (N1 : rep (nv_norm (nv_cross (fin3 (V3 e 0 0)) (fin3 (V3 0 1 0)))) e).
    { eapply rep_eq; [apply rep_norm, rep3_cross; apply rep3_fin|].
      unfold rnorm. replace (rdot _ _) with (e * e) by (vring; ring). apply sqrt_square; lra. }
    assert (N2 : rep (nv_norm (fin3 (V3 e 0 0))) e).
    { eapply rep_eq; [apply rep_norm; apply rep3_fin|].
      unfold rnorm. replace (rdot _ _) with (e * e) by (vring; ring). apply sqrt_square; lra. }
    assert (N3 : rep (nv_norm (fin3 (V3 0 1 0))) 1).
    { eapply rep_eq; [apply rep_norm; apply rep3_fin|].
      unfold rnorm. replace (rdot _ _) with (1 * 1) by (vring; ring). apply sqrt_square; lra. }
    assert (Le : Rabs e <= close_tol) by (rewrite Rabs_right by lra; pose proof close_tol_pos; unfold e; lra).
    rewrite (proj2 (isclose0_spec _ _ N1) Le), (proj2 (isclose0_spec _ _ N2) Le).
    rewrite (isclose0_spec_f _ _ N3) by (rewrite Rabs_R1; unfold close_tol; lra).
    eapply rep_eq; [apply rep_div; [apply rep_norm, rep3_cross; [apply rep3_sub|]; apply rep3_fin|exact N3|lra]|].
    unfold rnorm. replace (rdot _ _) with (1 * 1) by (vring; ring). rewrite sqrt_square; lra.
Qed.
Print Assumptions C23_short_direction_refuted.

Example C23_example : exists d,
  rep (distanceOfTwoLines1 (fin3 (V3 0 0 0)) (fin3 (V3 1 0 0)) (fin3 (V3 3 5 2)) (fin3 (V3 0 1 0))) d /\
  is_distance (line_at (V3 0 0 0) (V3 1 0 0)) (line_at (V3 3 5 2) (V3 0 1 0)) d.
Proof.
  apply C23_distance_of_lines; try apply rep3_fin. left. unfold rnorm, close_tol.
  replace (rdot _ _) with (1 * 1) by (vring; ring). rewrite sqrt_square; lra.
Qed.
(** Parallel lines, the other case of the hypothesis. *)
Example C23_parallel_example : rep (distanceOfTwoLines1 (fin3 (V3 0 0 0)) (fin3 (V3 1 0 0)) (fin3 (V3 3 3 4)) (fin3 (V3 2 0 0))) 5.
Proof.
  destruct (C23_distance_of_lines (fin3 (V3 0 0 0)) (fin3 (V3 1 0 0)) (fin3 (V3 3 3 4)) (fin3 (V3 2 0 0)) _ _ _ _
    (rep3_fin _) (rep3_fin _) (rep3_fin _) (rep3_fin _)) as (d&Rd&MIN&s&t&AT).
  { right. split; [apply v3_ext; vring; ring|]. split; left; unfold rnorm, close_tol.
    - vring. replace (1 * 1 + 0 * 0 + 0 * 0) with 1 by ring. rewrite sqrt_1. lra.
    - vring. replace (2 * 2 + 0 * 0 + 0 * 0) with (2 * 2) by ring. rewrite sqrt_square; lra. }
  eapply rep_eq; [exact Rd|]. apply Rle_antisym.
  - eapply Rle_trans; [apply (MIN 3 0)|]. unfold rdist, rnorm, line_at. vring. match goal with |- sqrt ?x <= _ => replace x with (5 * 5) by ring end. rewrite sqrt_square; lra.
  - rewrite <- AT. unfold rdist, rnorm, line_at. apply Rle_trans with (sqrt (5 * 5)); [rewrite sqrt_square; lra|]. apply sqrt_le_1_alt. vring. pose proof (Rle_0_sqr (s - 2 * t - 3)) as Q; unfold Rsqr in Q. lra.
Qed.

(** ** C24 *)
Theorem C24_foot_of_perpendicular : forall origin ray point O V P,
  rep3 origin O -> rep3 ray V -> rep3 point P -> V <> rv0 ->
  exists s, let F := line_at O V s in
    rep3 (fst (getClosestPointFromLine origin ray point)) F /\
    rdot (rv_sub P F) V = 0 /\
    (forall s', rdist F P <= rdist (line_at O V s') P) /\
    (forall s', rdist F P = rdist (line_at O V s') P -> s' = s).
Proof.
  intros origin ray point O V P Ho Hv Hp NZ.
  pose proof (rnorm_pos _ NZ) as NP.
  assert (VV : 0 < rdot V V) by (rewrite <- rnorm_sqr; nra).
  set (s := rdot V (rv_sub P O) / rdot V V).
  exists s. cbv zeta.
  assert (PERP : rdot (rv_sub P (line_at O V s)) V = 0).
  { transitivity (rdot V (rv_sub P O) - s * rdot V V); [unfold line_at; vring; ring|]. unfold s. field; lra. }
  assert (EQ : forall s', rdot (rv_sub (line_at O V s') P) (rv_sub (line_at O V s') P) =
    rdot (rv_sub (line_at O V s) P) (rv_sub (line_at O V s) P) + (s' - s) * (s' - s) * rdot V V).
  { intros s'. transitivity (rdot (rv_sub (line_at O V s) P) (rv_sub (line_at O V s) P) + (s' - s) * (s' - s) * rdot V V
      - 2 * (s' - s) * rdot (rv_sub P (line_at O V s)) V).
    - unfold line_at. clearbody s. vring. ring.
    - rewrite PERP. ring. }
  splits.
  - unfold getClosestPointFromLine. cbv zeta. cbn [fst].
    pose proof (rep_norm _ _ Hv) as HN. pose proof (rep3_div _ _ _ _ Hv HN ltac:(lra)) as HR.
    eapply rep3_eq.
    + apply rep3_add; [exact Ho|]. apply rep3_scale; [|exact HR]. apply rep_dot; [exact HR|]. apply rep3_sub; eauto.
    + unfold line_at. f_equal. rewrite rdot_scale.
      assert (ES : s * (rnorm V * rnorm V) = rdot V (rv_sub P O)) by (rewrite rnorm_sqr; unfold s; field; lra).
      apply v3_ext; cbn [rv_scale map3v cx cy cz]; rewrite <- ES; field; lra.
  - exact PERP.
  - intros s'. apply rdist_le. rewrite (EQ s'). assert (0 <= (s' - s) * (s' - s)) by exact (Rle_0_sqr (s' - s)).
    assert (0 <= (s' - s) * (s' - s) * rdot V V) by (apply Rmult_le_pos; lra). lra.
  - intros s' E. unfold rdist in E.
    pose proof (rnorm_sqr (rv_sub (line_at O V s') P)) as Q1. rewrite <- E, rnorm_sqr, (EQ s') in Q1.
    assert (Z : (s' - s) * (s' - s) = 0) by (apply Rmult_eq_reg_r with (rdot V V); lra).
    apply Rsqr_0_uniq in Z. lra.
Qed.
Print Assumptions C24_foot_of_perpendicular.

(** Side effect: the caller's direction vector is replaced by the unit vector. *)
Theorem C24_direction_overwritten : forall origin ray point V,
  rep3 ray V -> V <> rv0 ->
  exists U, rep3 (snd (getClosestPointFromLine origin ray point)) U /\
    V = rv_scale (rnorm V) U /\ rnorm U = 1 /\ (rnorm V <> 1 -> U <> V).
Proof.
  intros origin ray point V Hv NZ. pose proof (rnorm_pos _ NZ) as NP.
  exists (rv_scale (/ rnorm V) V).
  assert (U1 : rnorm (rv_scale (/ rnorm V) V) = 1).
  { rewrite rnorm_scale, Rabs_right; [field; lra|]. apply Rle_ge, Rlt_le, Rinv_0_lt_compat; auto. }
  splits; auto.
  - apply rep3_div; auto; [apply rep_norm; auto|lra].
  - apply v3_ext; simpl; field; lra.
  - intros H E. rewrite E in U1. contradiction.
Qed.
Print Assumptions C24_direction_overwritten.
(** A zero direction gives nan everywhere. *)
Theorem C24_zero_direction_nan : forall origin point O P,
  rep3 origin O -> rep3 point P ->
  fst (getClosestPointFromLine origin (fin3 rv0) point) = nan3.
Proof.
  intros origin point O P Ho Hp. unfold getClosestPointFromLine. cbv zeta. cbn [fst].
  assert (N : rep (nv_norm (fin3 rv0)) 0) by (eapply rep_eq; [apply rep_norm, rep3_fin|apply rnorm_rv0]).
  assert (E : nv_div (fin3 rv0) (nv_norm (fin3 rv0)) = nan3).
  { apply v3_ext; simpl; apply ndiv_0_0; auto; reflexivity. }
  rewrite E. unfold nv_dot. cbn [nan3 cx cy cz]. rewrite !nmul_NaN_l, !nadd_NaN_l.
  rewrite nan_scale. unfold nv_add, nan3, zip3v; cbn [cx cy cz]. rewrite !nadd_NaN_r. reflexivity.
Qed.
Print Assumptions C24_zero_direction_nan.
Example C24_example : exists s,
  rep3 (fst (getClosestPointFromLine (fin3 (V3 0 0 0)) (fin3 (V3 2 0 0)) (fin3 (V3 3 4 0)))) (line_at (V3 0 0 0) (V3 2 0 0) s).
Proof.
  destruct (C24_foot_of_perpendicular (fin3 (V3 0 0 0)) (fin3 (V3 2 0 0)) (fin3 (V3 3 4 0)) (V3 0 0 0) (V3 2 0 0) (V3 3 4 0)
   (rep3_fin _) (rep3_fin _) (rep3_fin _)) as (s&H&_).
  - intros H. apply (f_equal cx) in H. vring. lra.
  - exists s; exact H.
Qed.
Example C24_direction_overwritten_example : exists U, rep3 (snd (getClosestPointFromLine (fin3 (V3 0 0 0)) (fin3 (V3 2 0 0)) (fin3 (V3 3 4 0)))) U /\
  U <> V3 2 0 0.
Proof.
  destruct (C24_direction_overwritten (fin3 (V3 0 0 0)) (fin3 (V3 2 0 0)) (fin3 (V3 3 4 0)) _ (rep3_fin (V3 2 0 0))) as (U&RU&_&_&N).
  { vring. intros H; injection H; lra. }
  exists U. split; [exact RU|]. apply N. unfold rnorm. vring. replace (2 * 2 + 0 * 0 + 0 * 0) with (2 * 2) by ring. rewrite sqrt_square; lra.
Qed.

(** ** C25 *)
Definition tri_area (T : tri R) : R := rnorm (normal T) / 2.
Lemma heron T : let a := rdist (cx T) (cy T) in let b := rdist (cy T) (cz T) in let c := rdist (cz T) (cx T) in
  let s := (a + b + c) / 2 in s * (s - a) * (s - b) * (s - c) = rdot (normal T) (normal T) / 4.
Proof.
  intros a b c s.
  assert (Ea : a * a = rdot (rv_sub (cx T) (cy T)) (rv_sub (cx T) (cy T))) by apply rnorm_sqr.
  assert (Eb : b * b = rdot (rv_sub (cy T) (cz T)) (rv_sub (cy T) (cz T))) by apply rnorm_sqr.
  assert (Ec : c * c = rdot (rv_sub (cz T) (cx T)) (rv_sub (cz T) (cx T))) by apply rnorm_sqr.
  transitivity ((4 * (a * a) * (c * c) - (a * a + c * c - b * b) * (a * a + c * c - b * b)) / 16).
  - unfold s. field.
  - rewrite Ea, Eb, Ec. vring. field.
Qed.
Theorem C25_triangle_area : forall t T, rept t T -> rep (areaOfTriangle t) (tri_area T).
Proof.
  intros t T (H0&H1&H2). unfold areaOfTriangle. cbv zeta.
  pose proof (rep_norm _ _ (rep3_sub _ _ _ _ H0 H1)) as A.
  pose proof (rep_norm _ _ (rep3_sub _ _ _ _ H1 H2)) as B.
  pose proof (rep_norm _ _ (rep3_sub _ _ _ _ H2 H0)) as C.
  fold (rdist (cx T) (cy T)) in A. fold (rdist (cy T) (cz T)) in B. fold (rdist (cz T) (cx T)) in C.
  assert (E : tri_area T = sqrt (rdot (normal T) (normal T) / 4)).
  { unfold tri_area, rnorm. rewrite sqrt_div; [|apply rdot_self_nonneg|lra].
    replace 4 with (2 * 2) by ring. rewrite sqrt_square; lra. }
  rewrite E. pose proof (heron T) as HH. cbv zeta in HH.
  eapply rep_eq; [apply rep_sqrt; [rep_all; lra|]|].
  - rewrite HH. pose proof (rdot_self_nonneg (normal T)). lra.
  - rewrite HH. reflexivity.
Qed.
Print Assumptions C25_triangle_area.
(** Consequences: zero exactly for collinear corners, and invariance. *)
Theorem C25_triangle_area_zero_iff : forall t T, rept t T ->
  (rep (areaOfTriangle t) 0 <-> rcross (rv_sub (cy T) (cx T)) (rv_sub (cz T) (cx T)) = rv0).
Proof.
  intros t T H. pose proof (C25_triangle_area _ _ H) as A. split.
  - intros Z. pose proof (rep_inj _ _ _ A Z) as E. apply rnorm_0. unfold tri_area, normal, edge_u, edge_v in E. lra.
  - intros Z. eapply rep_eq; [exact A|]. unfold tri_area, normal, edge_u, edge_v. rewrite Z, rnorm_rv0. lra.
Qed.
Print Assumptions C25_triangle_area_zero_iff.
Theorem C25_triangle_area_invariant : forall t t' T T' a,
  rept t T -> rept t' T' -> rep (areaOfTriangle t) a ->
  (T' = V3 (cy T) (cx T) (cz T) \/ T' = V3 (cx T) (cz T) (cy T) \/
   exists M s, orthonormal (rm_trans M) /\ T' = map3v (fun p => rv_add (rm_mul_v M p) s) T) ->
  rep (areaOfTriangle t') a.
Proof.
  intros t t' T T' a H H' Ha HT.
  pose proof (C25_triangle_area _ _ H) as A. rewrite (rep_inj _ _ _ Ha A). clear a Ha A.
  eapply rep_eq; [apply C25_triangle_area; eauto|].
  unfold tri_area. f_equal. unfold rnorm. f_equal.
  destruct HT as [->|[->|(M&s&HM&->)]].
  - vring; ring.
  - vring; ring.
  - unfold normal. rewrite !lagrange.
    assert (E1 : edge_u (map3v (fun p => rv_add (rm_mul_v M p) s) T) = rm_mul_v M (edge_u T)).
    { unfold edge_u. rewrite rm_mul_v_sub. apply v3_ext; simpl; ring. }
    assert (E2 : edge_v (map3v (fun p => rv_add (rm_mul_v M p) s) T) = rm_mul_v M (edge_v T)).
    { unfold edge_v. rewrite rm_mul_v_sub. apply v3_ext; simpl; ring. }
    rewrite E1, E2, !orthonormal_dot by auto. reflexivity.
Qed.
Print Assumptions C25_triangle_area_invariant.

(** Signed double area of a 2D polygon (shoelace) and of a triangle. *)
Definition cross2 (p q : v2 R) : R := c1 p * c2 q - c1 q * c2 p.
Definition shoelace (A B C D : v2 R) : R := (cross2 A B + cross2 B C + cross2 C D + cross2 D A) / 2.
Definition tri2 (A B C : v2 R) : R := (cross2 A B + cross2 B C + cross2 C A) / 2.
Lemma quad_rep a b c d A B C D : rep2 a A -> rep2 b B -> rep2 c C -> rep2 d D ->
  rep (areaOfQuadrilateral a b c d) (Rabs (shoelace A B C D)).
Proof.
  intros (?&?) (?&?) (?&?) (?&?). unfold areaOfQuadrilateral. eapply rep_eq; [rep_all|].
  replace (1 / 2) with (Rabs (1 / 2)) by (apply Rabs_right; lra).
  rewrite <- Rabs_mult. f_equal. unfold shoelace, cross2. field.
Qed.
Theorem C25_quadrilateral_area : forall a b c d A B C D,
  rep2 a A -> rep2 b B -> rep2 c C -> rep2 d D ->
  rep (areaOfQuadrilateral a b c d) (Rabs (shoelace A B C D)) /\
  (* convex, either orientation: the sum of the two triangles *)
  ((0 <= tri2 A B C /\ 0 <= tri2 A C D) \/ (tri2 A B C <= 0 /\ tri2 A C D <= 0) ->
   rep (areaOfQuadrilateral a b c d) (Rabs (tri2 A B C) + Rabs (tri2 A C D))).
Proof.
  intros a b c d A B C D Ha Hb Hc Hd. pose proof (quad_rep _ _ _ _ _ _ _ _ Ha Hb Hc Hd) as H. split; auto.
  intros HC. eapply rep_eq; [exact H|].
  assert (E : shoelace A B C D = tri2 A B C + tri2 A C D) by (unfold shoelace, tri2, cross2; field).
  rewrite E. destruct HC as [(?&?)|(?&?)].
  - rewrite !Rabs_right; lra.
  - rewrite !Rabs_left1; lra.
Qed.
Print Assumptions C25_quadrilateral_area.
Theorem C25_quadrilateral_renumbering : forall a b c d A B C D q,
  rep2 a A -> rep2 b B -> rep2 c C -> rep2 d D ->
  rep (areaOfQuadrilateral a b c d) q ->
  rep (areaOfQuadrilateral b c d a) q /\ rep (areaOfQuadrilateral d c b a) q.
Proof.
  intros a b c d A B C D q Ha Hb Hc Hd Hq.
  rewrite (rep_inj _ _ _ Hq (quad_rep _ _ _ _ _ _ _ _ Ha Hb Hc Hd)).
  split.
  - eapply rep_eq; [apply (quad_rep _ _ _ _ _ _ _ _ Hb Hc Hd Ha)|]. f_equal. unfold shoelace; field.
  - eapply rep_eq; [apply (quad_rep _ _ _ _ _ _ _ _ Hd Hc Hb Ha)|]. rewrite <- Rabs_Ropp. f_equal.
    unfold shoelace, cross2; field.
Qed.
Print Assumptions C25_quadrilateral_renumbering.
Example C25_example :
  rep (areaOfQuadrilateral (fin2 (V2 0 0)) (fin2 (V2 2 0)) (fin2 (V2 2 3)) (fin2 (V2 0 3))) 6.
Proof.
  eapply rep_eq; [apply quad_rep; apply rep2_fin|]. unfold shoelace, cross2; simpl. rewrite Rabs_right; lra.
Qed.
Example C25_triangle_example : rep (areaOfTriangle (fint (V3 (V3 0 0 0) (V3 4 0 0) (V3 0 3 0)))) 6 /\
  rep (areaOfTriangle (fint (V3 (V3 0 0 0) (V3 1 1 1) (V3 3 3 3)))) 0 /\
  rep (areaOfTriangle (fint (V3 (V3 1 1 5) (V3 1 1 9) (V3 4 1 5)))) 6.
Proof.
  assert (A : rep (areaOfTriangle (fint (V3 (V3 0 0 0) (V3 4 0 0) (V3 0 3 0)))) 6).
  { eapply rep_eq; [apply (C25_triangle_area _ _ (rept_fint _))|]. unfold tri_area, rnorm. vring.
    match goal with |- sqrt ?x / _ = _ => replace x with (12 * 12) by ring end. rewrite sqrt_square; lra. }
  split; [exact A|]. split.
  - apply (C25_triangle_area_zero_iff _ _ (rept_fint _)). apply v3_ext; vring; ring.
  - (* moved by (1, 1, 5) and turned: x goes to z, y to x *)
    apply (C25_triangle_area_invariant _ _ _ _ 6 (rept_fint (V3 (V3 0 0 0) (V3 4 0 0) (V3 0 3 0))) (rept_fint _) A).
    right; right. exists (V3 (V3 0 1 0) (V3 0 0 1) (V3 1 0 0)), (V3 1 1 5). split.
    + unfold orthonormal, rm_trans, rdot; cbn [cx cy cz]. splits; ring.
    + unfold map3v, rv_add, rm_mul_v, zip3v, rdot; cbn [cx cy cz]. apply v3_ext; apply v3_ext; cbn [cx cy cz]; ring.
Qed.
Example C25_renumbering_example :
  rep (areaOfQuadrilateral (fin2 (V2 0 3)) (fin2 (V2 2 3)) (fin2 (V2 2 0)) (fin2 (V2 0 0))) 6.
Proof. apply (C25_quadrilateral_renumbering _ _ _ _ (V2 0 0) (V2 2 0) (V2 2 3) (V2 0 3) 6); try apply rep2_fin. apply C25_example. Qed.

(** ** C26 *)
(** The vertical wall over the segment from [p] to [q] between heights z0 and z1. *)
Definition wall_point (p q : v2 R) (z0 z1 u h : R) : v3 R :=
  V3 (c1 p + u * (c1 q - c1 p)) (c2 p + u * (c2 q - c2 p)) (z0 + h * (z1 - z0)).
Definition in_wall (p q : v2 R) (z0 z1 : R) (P : v3 R) : Prop :=
  exists u h, 0 <= u <= 1 /\ 0 <= h <= 1 /\ P = wall_point p q z0 z1 u h.
Definition wall_area (p q : v2 R) (z0 z1 : R) : R :=
  sqrt ((c1 q - c1 p) * (c1 q - c1 p) + (c2 q - c2 p) * (c2 q - c2 p)) * Rabs (z1 - z0).
Fixpoint segments (l : list (v2 R)) : list (v2 R * v2 R) :=
  match l with p :: ((q :: _) as l') => (p, q) :: segments l' | _ => [] end.
Definition sum (l : list R) : R := fold_right Rplus 0 l.

(** The real triangles the code produces for one segment. *)
Definition wall_tri1 (p q : v2 R) (z0 z1 : R) : tri R :=
  V3 (V3 (c1 q) (c2 q) z0) (V3 (c1 p) (c2 p) z0) (V3 (c1 q) (c2 q) z1).
Definition wall_tri2 (p q : v2 R) (z0 z1 : R) : tri R :=
  V3 (V3 (c1 q) (c2 q) z0) (V3 (c1 p) (c2 p) z0) (V3 (c1 p) (c2 p) z1).
Definition wall_mesh (l : list (v2 R)) z0 z1 : list (tri R) :=
  flat_map (fun s => [wall_tri1 (fst s) (snd s) z0 z1; wall_tri2 (fst s) (snd s) z0 z1]) (segments l).

Lemma extrude_rep : forall pts PTS z0 z1 Z0 Z1, Forall2 rep2 pts PTS -> rep z0 Z0 -> rep z1 Z1 ->
  Forall2 rept (extrudeLine pts z0 z1) (wall_mesh PTS Z0 Z1).
Proof.
  intros pts PTS z0 z1 Z0 Z1 H H0 H1. destruct H as [|p P l L Hp Hl]; [constructor|].
  simpl. revert p P Hp. induction Hl as [|q Q l L Hq Hl IH]; intros p P Hp; [constructor|].
  simpl. destruct Hp, Hq. constructor.
  - unfold rept, at_z, wall_tri1, rep3; simpl; splits; auto.
  - constructor; [unfold rept, at_z, wall_tri2, rep3; simpl; splits; auto|]. apply IH. split; auto.
Qed.
Theorem C26_two_triangles_per_segment : forall pts z0 z1,
  length (extrudeLine pts z0 z1) = (2 * (length pts - 1))%nat.
Proof.
  intros [|p l] z0 z1; [reflexivity|]. simpl. rewrite PeanoNat.Nat.sub_0_r.
  revert p. induction l as [|q l IH]; intros p; [reflexivity|]. simpl. rewrite IH. simpl. 
  rewrite PeanoNat.Nat.add_0_r. rewrite PeanoNat.Nat.add_succ_r. reflexivity.
Qed.
Print Assumptions C26_two_triangles_per_segment.

Lemma wall_tris_in p q z0 z1 P : in_tri (wall_tri1 p q z0 z1) P \/ in_tri (wall_tri2 p q z0 z1) P ->
  in_wall p q z0 z1 P.
Proof.
  intros [(s&t&H1&H2&H3&->)|(s&t&H1&H2&H3&->)].
  - exists (1 - s), t. splits; try lra. apply v3_ext; unfold wall_point, wall_tri1; vring; ring.
  - exists (1 - s - t), t. splits; try lra. apply v3_ext; unfold wall_point, wall_tri2; vring; ring.
Qed.
(** Every point of every triangle lies in the wall over some segment. *)
Theorem C26_mesh_in_wall : forall pts PTS z0 z1 Z0 Z1, 
  Forall2 rep2 pts PTS -> rep z0 Z0 -> rep z1 Z1 ->
  exists M, Forall2 rept (extrudeLine pts z0 z1) M /\
    forall T P, In T M -> in_tri T P -> exists s, In s (segments PTS) /\ in_wall (fst s) (snd s) Z0 Z1 P.
Proof.
  intros pts PTS z0 z1 Z0 Z1 H H0 H1. exists (wall_mesh PTS Z0 Z1). split; [apply extrude_rep; auto|].
  intros T P HT HP. apply in_flat_map in HT. destruct HT as (s&Hs&[<-|[<-|[]]]);
   exists s; split; auto; apply wall_tris_in; auto.
Qed.
Print Assumptions C26_mesh_in_wall.

Lemma wall_tri_area p q z0 z1 :
  tri_area (wall_tri1 p q z0 z1) = wall_area p q z0 z1 / 2 /\
  tri_area (wall_tri2 p q z0 z1) = wall_area p q z0 z1 / 2.
Proof.
  unfold wall_area. set (L := (c1 q - c1 p) * (c1 q - c1 p) + (c2 q - c2 p) * (c2 q - c2 p)).
  assert (0 <= L) by (unfold L; apply Rplus_le_le_0_compat; apply Rle_0_sqr).
  assert (E : sqrt L * Rabs (z1 - z0) = sqrt (L * ((z1 - z0) * (z1 - z0)))).
  { rewrite sqrt_mult by (auto; exact (Rle_0_sqr (z1 - z0))). f_equal. symmetry. apply sqrt_Rsqr_abs. }
  rewrite E. split; unfold tri_area; f_equal; unfold rnorm; f_equal; unfold L, wall_tri1, wall_tri2; vring; ring.
Qed.
(** The areas of the triangles add up to the area of the wall. *)
Theorem C26_total_area : forall pts PTS z0 z1 Z0 Z1,
  Forall2 rep2 pts PTS -> rep z0 Z0 -> rep z1 Z1 ->
  exists areas, Forall2 rep (map areaOfTriangle (extrudeLine pts z0 z1)) areas /\
    sum areas = sum (map (fun s => wall_area (fst s) (snd s) Z0 Z1) (segments PTS)).
Proof.
  intros pts PTS z0 z1 Z0 Z1 H H0 H1. exists (map tri_area (wall_mesh PTS Z0 Z1)). split.
  - pose proof (extrude_rep _ _ _ _ _ _ H H0 H1) as E. revert E. clear.
    induction 1; simpl; constructor; auto. apply C25_triangle_area; auto.
  - unfold wall_mesh. induction (segments PTS) as [|s l IH]; [reflexivity|].
    simpl in *. destruct (wall_tri_area (fst s) (snd s) Z0 Z1) as (->&->). rewrite IH. lra.
Qed.
Print Assumptions C26_total_area.

(** The mesh does not cover the wall: in every segment the region above both diagonals
    is missing ... *)
Theorem C26_gap : forall p q z0 z1 u h, (c1 p <> c1 q \/ c2 p <> c2 q) -> z0 <> z1 ->
  0 < u < 1 -> 0 < h < 1 -> u < h -> 1 - u < h ->
  let P := wall_point p q z0 z1 u h in
  in_wall p q z0 z1 P /\
  exists M, Forall2 rept (extrudeLine [fin2 p; fin2 q] (Fin z0) (Fin z1)) M /\ forall T, In T M -> ~ in_tri T P.
Proof.
  intros p q z0 z1 u h HP HZ Hu Hh H1 H2 P. split.
  { exists u, h. splits; try lra. reflexivity. }
  exists (wall_mesh [p; q] z0 z1). split.
  { apply extrude_rep; try apply rep_Fin. repeat constructor; apply rep2_fin. }
  assert (HU : forall a b, a * (c1 q - c1 p) = b * (c1 q - c1 p) -> a * (c2 q - c2 p) = b * (c2 q - c2 p) -> a = b).
  { intros a b A B. destruct HP as [HP|HP]; [apply Rmult_eq_reg_r with (c1 q - c1 p)|apply Rmult_eq_reg_r with (c2 q - c2 p)]; lra. }
  assert (HH : forall a b, a * (z1 - z0) = b * (z1 - z0) -> a = b).
  { intros a b A. apply Rmult_eq_reg_r with (z1 - z0); lra. }
  intros T [<-|[<-|[]]] (s&t&A&B&C&E); unfold P, wall_point, wall_tri1, wall_tri2 in E; cbn [fst snd] in E.
  - assert (h = t) by (apply HH; apply (f_equal cz) in E; vring; lra).
    assert (u = 1 - s) by (apply HU; [apply (f_equal cx) in E|apply (f_equal cy) in E]; vring; lra).
    lra.
  - assert (h = t) by (apply HH; apply (f_equal cz) in E; vring; lra).
    assert (u = 1 - s - t) by (apply HU; [apply (f_equal cx) in E|apply (f_equal cy) in E]; vring; lra).
    lra.
Qed.
Print Assumptions C26_gap.
(** ... so that a ray straight at the wall misses it. *)
Theorem C26_covers_wall_refuted : exists p q z0 z1 O D r P,
  in_wall p q z0 z1 (ray_at O D r) /\ 0 <= r /\
  ray_intersect_triangle false (fin3 O) (fin3 D) (extrudeLine [fin2 p; fin2 q] (Fin z0) (Fin z1)) = Some P /\
  cy P = PInf.
Proof.
  exists (V2 0 0), (V2 2 0), 0, 2, (V3 1 (-5) (3/2)), (V3 0 1 0), 5.
  set (M := wall_mesh [V2 0 0; V2 2 0] 0 2).
  assert (HM : Forall2 rept (extrudeLine [fin2 (V2 0 0); fin2 (V2 2 0)] (Fin 0) (Fin 2)) M).
  { apply extrude_rep; try apply rep_Fin. repeat constructor; apply rep2_fin. }
  assert (RG : forall T, In T M -> regular (V3 1 (-5) (3/2)) (V3 0 1 0) T).
  { intros T [<-|[<-|[]]]; split; unfold plane_a, plane_b, wall_tri1, wall_tri2; cbn [fst snd c1 c2]; vring;
    try (intros H; injection H; intros; lra); lra. }
  destruct (C21_nearest_hit _ _ _ _ _ _ (rep3_fin (V3 1 (-5) (3/2))) (rep3_fin (V3 0 1 0)) HM ltac:(discriminate) RG)
    as (P&E&[(r&T&HT&(Hr&s&t&A&B&C&EQ)&_)|(_&L)]).
  - exfalso. destruct HT as [<-|[<-|[]]]; unfold wall_tri1, wall_tri2 in EQ; cbn [fst snd c1 c2] in EQ;
     pose proof (f_equal cx EQ) as E1; pose proof (f_equal cz EQ) as E2; vring; lra.
  - exists P. splits; auto; try lra.
    + exists (1/2), (3/4). splits; try lra. apply v3_ext; unfold wall_point; cbn [c1 c2]; vring; lra.
    + apply (L AY). simpl; lra.
Qed.
Print Assumptions C26_covers_wall_refuted.
(** A wall of two segments and height 2; the points above both diagonals are missed. *)
Example C26_example :
  (exists areas, Forall2 rep (map areaOfTriangle (extrudeLine [fin2 (V2 0 0); fin2 (V2 3 0); fin2 (V2 3 5)] (Fin 0) (Fin 2))) areas /\ sum areas = 16) /\
  (in_wall (V2 0 0) (V2 2 0) 0 2 (V3 1 0 (3 / 2)) /\
   exists M, Forall2 rept (extrudeLine [fin2 (V2 0 0); fin2 (V2 2 0)] (Fin 0) (Fin 2)) M /\ forall T, In T M -> ~ in_tri T (V3 1 0 (3 / 2))).
Proof.
  split.
  - destruct (C26_total_area [fin2 (V2 0 0); fin2 (V2 3 0); fin2 (V2 3 5)] [V2 0 0; V2 3 0; V2 3 5] (Fin 0) (Fin 2) 0 2) as (a&F&E).
    + repeat constructor; apply rep_Fin.
    + apply rep_Fin.
    + apply rep_Fin.
    + exists a. split; [exact F|]. rewrite E. cbn [segments map sum fold_right fst snd]. unfold wall_area. cbn [c1 c2].
      replace ((3 - 0) * (3 - 0) + (0 - 0) * (0 - 0)) with (3 * 3) by ring.
      replace ((3 - 3) * (3 - 3) + (5 - 0) * (5 - 0)) with (5 * 5) by ring.
      rewrite !sqrt_square, Rabs_right by lra. lra.
  - replace (V3 1 0 (3 / 2)) with (wall_point (V2 0 0) (V2 2 0) 0 2 (1 / 2) (3 / 4)) by (unfold wall_point; cbn [c1 c2]; f_equal; lra).
    apply C26_gap; cbn [c1 c2]; lra.
Qed.
