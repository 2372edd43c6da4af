(** * Property C86: saving and loading the parts of a camera *)
Require Import Reals Lra List Bool String Arith NArith QArith Qreals Lia.
From Verif Require Import Num Projection CameraTransform Param ParamFacts ParamOps ParamSteps ParamReach ParamCam ParamLaws ParamMap PropParam PropFit.
From Verif Require Import ParamCheck ParamExamples ParamTotal PropTotal ParamSave PropSave ParamParts.
Import ListNotations.
Open Scope nat_scope.
Open Scope string_scope.

(** [y] in [h2] is a part of the same type as [x] in [h], with the same parameters. *)
Definition is_part (k : kind) : Prop := match k with KProj _ | KOrient _ | KLens _ => True | _ => False end.
Definition same_part (h : heapn) (x : oid) (h2 : heapn) (y : oid) : Prop :=
  exists b b2, objs h x = Some b /\ objs h2 y = Some b2 /\ is_part (okd b) /\ okd b2 = okd b /\
    forall n, assoc n (table b2) = None <-> assoc n (table b) = None.
(** No attribute set by hand hides a parameter of [y]. *)
Definition visible (h : heapn) (y : oid) : Prop := forall n l, writes h y n l -> reads h y n l.

(** ** Tables *)
Lemma part_table (h : heapn) o b : reach h -> objs h o = Some b -> is_part (okd b) ->
  (forall n l, assoc n (table b) = Some l -> l_name l = n) /\ NoDup (map fst (table b)).
Proof.
  intros HR E P. destruct (reach_inv h HR) as (HI&_). destruct (HI o b E) as (_&W&_).
  assert (SELF : forall k, table b = self_table o k -> is_part k -> (forall n l, assoc n (table b) = Some l -> l_name l = n) /\ NoDup (map fst (table b))).
  { intros k T Pk. rewrite T. split.
    - intros n l H. rewrite assoc_self in H. destruct (mem_name n (base_names k)); inversion H. reflexivity.
    - unfold self_table. rewrite map_map. cbn [fst]. rewrite map_id.
      destruct k as [pk|k|k| |p q r|l]; try contradiction; [|destruct k|destruct k];
      repeat (constructor; [cbn; intros X; repeat destruct X as [X|X]; try discriminate; contradiction|]); constructor. }
  unfold wired in W. destruct (okd b) as [pk|k|k| |p q r|l] eqn:K; try contradiction.
  - apply (SELF (KProj pk)); [apply W|exact I].
  - apply (SELF (KOrient k)); [apply W|exact I].
  - destruct W as (_&_&W). destruct (lproj b) as [p|]; [|apply (SELF (KLens k)); [exact W|exact I]].
    destruct W as (NK&T&_). rewrite T. split.
    + intros n l H. unfold lens_table in H. apply assoc_in in H. apply in_app_iff in H. destruct H as [H|H]; apply in_map_iff in H; destruct H as (m&X&_); inversion X; reflexivity.
    + unfold lens_table. rewrite map_app, !map_map. cbn [fst]. rewrite !map_id.
      destruct k; repeat (constructor; [cbn; intros X; repeat destruct X as [X|X]; try discriminate; contradiction|]); constructor.
Qed.
Lemma set_known_all (h : heapn) y vars : forall h3, (forall n a, In (n, a) vars -> exists l, writes h y n l) -> reach h ->
  set_known wrapn h y vars = (h3, true) -> set_all wrapn h y vars = (h3, true).
Proof.
  revert h. induction vars as [|[n a] vars IH]; intros h h3 H HR HS; [exact HS|]. cbn [set_known set_all] in *.
  destruct (H n a (or_introl eq_refl)) as (l&b&E&T). rewrite E, T in HS. apply bind_ok in HS. destruct HS as (h1&E1&HS).
  destruct (reach_inv h HR) as (HI&_). destruct (set_attr_mem wrapn wrapn_ok h y n a l h1 HI ltac:(exists b; auto) E1) as (S1&_).
  rewrite E1. cbn [bind snd fst]. apply IH; auto.
  - intros m c Hm. destruct (H m c (or_intror Hm)) as (l'&W). exists l'. eapply writes_sim; eauto.
  - exact (Rstep wrapn litn h (OSet y n a) h1 HR I E1).
Qed.
Lemma set_all_reach y vars : forall h h3, reach h -> set_all wrapn h y vars = (h3, true) -> reach h3.
Proof.
  induction vars as [|[n a] vars IH]; intros h h3 HR HS; [inversion HS; subst; exact HR|]. cbn [set_all] in HS.
  apply bind_ok in HS. destruct HS as (h1&E1&HS). apply (IH h1 h3); auto. exact (Rstep wrapn litn h (OSet y n a) h1 HR I E1).
Qed.
Definition at_of (b2 : obj num) (y : oid) (n : name) : loc := match assoc n (table b2) with Some l => l | None => Loc y n end.
(** What is saved: the numbers of all parameters other than focallength_px. *)
Lemma saved_vars (h : heapn) x b f : reach h -> objs h x = Some b -> is_part (okd b) -> complete h x -> save_part h x = Some f ->
  NoDup (map fst f) /\ forall n a, In (n, a) f <-> n <> "focallength_px" /\ exists l v, assoc n (table b) = Some l /\ get_num h x n = Some v /\ a = ANum v.
Proof.
  intros HR E P HC HS. destruct (part_table h x b HR E P) as (TN&ND).
  assert (NF : ~ (exists k, okd b = KProj k) -> ~ In "focallength_px" (map fst (table b))).
  { intros NP. destruct (reach_inv h HR) as (HI&_). destruct (HI x b E) as (_&W&_). unfold wired in W.
    destruct (okd b) as [pk|k|k| |p q r|l] eqn:K; try contradiction; [destruct NP; eauto| |].
    - destruct W as (-> &_). unfold self_table. rewrite map_map. cbn [fst]. rewrite map_id. destruct k; cbn; intros X; repeat destruct X as [X|X]; try discriminate; exact X.
    - destruct W as (_&_&W). destruct (lproj b); [destruct W as (_&->&_); unfold lens_table; rewrite map_app, !map_map|rewrite W; unfold self_table; rewrite map_map]; cbn [fst]; rewrite !map_id;
      destruct k; cbn; intros X; repeat destruct X as [X|X]; try discriminate; exact X. }
  set (t := filter (fun nl => negb (String.eqb (fst nl) "focallength_px")) (table b)).
  assert (F : f = export h x t).
  { unfold save_part in HS. rewrite E in HS.
    assert (NX : ~ (exists k, okd b = KProj k) -> table b = t).
    { intros NP. specialize (NF NP). unfold t. revert NF. generalize (table b). induction l as [|[n c] l IH]; intros H; [reflexivity|]. cbn [filter fst]. cbn [map fst In] in H.
      destruct (String.eqb_spec n "focallength_px") as [-> |]; [exfalso; apply H; left; reflexivity|]. cbn [negb]. f_equal. apply IH. intros X. apply H. right; exact X. }
    destruct (okd b) as [pk|k|k| |p q r|l] eqn:K; try contradiction; inversion HS; subst f; [reflexivity| |]; f_equal; apply NX; intros (k'&X); discriminate. }
  subst f. clear HS. unfold export. split.
  - rewrite map_map. cbn [fst]. clear - ND. unfold t. induction (table b) as [|[n c] l IH]; [constructor|]. cbn [map fst] in ND. inversion ND; subst. cbn [filter fst].
    destruct (negb (String.eqb n "focallength_px")); cbn [map fst]; auto. constructor; auto. intros X. apply H1. apply in_map_iff in X. destruct X as ((m&c')&X1&X2). apply filter_In in X2.
    cbn in X1. subst m. apply in_map_iff. exists (n, c'). tauto.
  - intros n a. rewrite in_map_iff. split.
    + intros ((m&l)&X&Y). cbn [fst] in X. inversion X; subst m a. clear X. apply filter_In in Y. destruct Y as (Y1&Y2). cbn [fst] in Y2.
      split; [destruct (String.eqb_spec n "focallength_px"); [discriminate|assumption]|].
      destruct (assoc n (table b)) as [l'|] eqn:T; [|exfalso; apply (assoc_none_fst n (table b) T); apply in_map_iff; exists (n, l); auto].
      destruct (HC n l') as (v&Hv); [exists b; auto|]. exists l', v. split; [reflexivity|]. split; [exact Hv|]. unfold get_num in Hv. destruct (get_attr h x n) as [[]|]; congruence.
    + intros (NF'&l&v&T&G&->). exists (n, l). cbn [fst]. split.
      * f_equal. unfold get_num in G. destruct (get_attr h x n) as [[]|]; congruence.
      * apply filter_In. split; [apply assoc_in; exact T|]. cbn [fst]. destruct (String.eqb_spec n "focallength_px"); [contradiction|reflexivity].
Qed.

(** ** Loading a part into a part of the same type *)
Lemma load_part_facts (h : heapn) x f h2 y h3 : reach h -> reach h2 -> same_part h x h2 y -> complete h x ->
  save_part h x = Some f -> load_part wrapn h2 y f = (h3, true) ->
  reach h3 /\ sim h2 h3 /\
  (forall n l, writes h2 y n l -> n <> "focallength_px" -> rdl h3 l = get_num h x n) /\
  (forall l, (forall n, n <> "focallength_px" -> ~ writes h2 y n l) -> mem h3 l = mem h2 l).
Proof.
  intros HR HR2 (b&b2&E&E2&P&K2&TT) HC HS HL.
  destruct (saved_vars h x b f HR E P HC HS) as (ND&IV).
  assert (HW : forall n a, In (n, a) f -> writes h2 y n (at_of b2 y n)).
  { intros n a Hn. apply IV in Hn. destruct Hn as (_&l&v&T&_). exists b2. split; [exact E2|]. unfold at_of.
    destruct (assoc n (table b2)) eqn:T2; [reflexivity|]. apply TT in T2. congruence. }
  assert (SA : set_all wrapn h2 y f = (h3, true)).
  { unfold load_part in HL. rewrite E2, K2 in HL. destruct (okd b) as [pk|k|k| |p q r|l]; try contradiction; auto.
    apply set_known_all; auto. intros n a Hn. eauto. }
  destruct (reach_inv h2 HR2) as (HI2&_). destruct (reach_inv h HR) as (HI&_).
  destruct (part_table h2 y b2 HR2 E2) as (TN2&_); [rewrite K2; exact P|].
  assert (AN : forall n, l_name (at_of b2 y n) = n).
  { intros n. unfold at_of. destruct (assoc n (table b2)) eqn:T; [eapply TN2; eauto|reflexivity]. }
  destruct (set_all_get wrapn wrapn_ok (at_of b2 y) y f AN h2 h3 HI2) as (S3&_&G3&O3); auto.
  { intros n a Hn. pose proof (HW n a Hn) as W2. apply IV in Hn. destruct Hn as (NF&l&v&T&G&->). split; [exact NF|]. split; [exact W2|]. exists v. split; [reflexivity|].
    intros WL. unfold wrapped_loc in WL.
    assert (KO : exists k, okd b2 = KOrient k /\ n = wrapped_name k).
    { destruct (HI2 y b2 E2) as (_&W&_). unfold wired in W. destruct W2 as (b2'&E2'&T2). assert (b2' = b2) by congruence. subst b2'.
      destruct (okd b2) as [pk|k|k| |p q r|l0] eqn:KB; try (rewrite <- K2 in P; contradiction).
      - destruct W as (W&_). rewrite W, assoc_self in T2. destruct (mem_name n _) in T2; inversion T2 as [A]. rewrite <- A in WL. cbn [l_owner] in WL. rewrite E2, KB in WL. discriminate.
      - destruct W as (W&_). rewrite W, assoc_self in T2. destruct (mem_name n _) in T2; inversion T2 as [A]. rewrite <- A in WL. cbn [l_owner l_name] in WL. rewrite E2, KB in WL.
        exists k. split; [reflexivity|]. apply String.eqb_eq; exact WL.
      - destruct W as (_&_&W). destruct (lproj b2) as [p|].
        + destruct W as (_&W&(bp&Ep&Kp)&_). rewrite W in T2. unfold lens_table in T2. apply assoc_in, in_app_iff in T2.
          destruct T2 as [T2|T2]; apply in_map_iff in T2; destruct T2 as (m&X&_); inversion X as [[X1 X2]]; rewrite <- X2 in WL; cbn [l_owner] in WL.
          * rewrite E2, KB in WL. discriminate.
          * rewrite Ep in WL. destruct (okd bp); try contradiction; discriminate.
        + rewrite W, assoc_self in T2. destruct (mem_name n _) in T2; inversion T2 as [A]. rewrite <- A in WL. cbn [l_owner] in WL. rewrite E2, KB in WL. discriminate. }
    destruct KO as (k&KO&EN). rewrite K2 in KO. destruct (HI x b E) as (_&W&F). specialize (F (fun H => H)). unfold ParamFacts.fresh in F. unfold wired in W. rewrite KO in F, W.
    destruct F as (_&(w&R&Wv)&_). destruct W as (TB&AT). subst n.
    assert (RD : reads h x (wrapped_name k) (Loc x (wrapped_name k))).
    { exists b. split; [exact E|]. assert (IN : In (wrapped_name k) (onames k)) by (destruct k; cbn; tauto). split; [apply AT; exact IN|]. rewrite TB. apply on_table; exact IN. }
    rewrite (reads_num _ _ _ _ RD) in G. congruence. }
  split; [eapply set_all_reach; eauto|]. split; [exact S3|]. split.
  - intros n l (b2'&E2'&T2) NF. assert (b2' = b2) by congruence. subst b2'.
    destruct (assoc n (table b)) as [lx|] eqn:T; [|apply TT in T; congruence].
    destruct (HC n lx) as (v&Hv); [exists b; auto|]. rewrite Hv.
    assert (In (n, ANum v) f) by (apply IV; split; [exact NF|]; exists lx, v; auto).
    specialize (G3 n v H). unfold at_of in G3. rewrite T2 in G3. exact G3.
  - intros l HN. apply O3. intros n Hn ->. apply in_map_iff in Hn. destruct Hn as ((m&a)&X&Y). cbn in X. subst m.
    pose proof (HW n a Y) as W2. apply IV in Y. apply (HN n (proj1 Y) W2).
Qed.
(** Every parameter of the loaded part reads the saved number; nothing else changes. *)
Theorem C86_load : forall h x f h2 y h3, reach h -> reach h2 -> same_part h x h2 y -> complete h x -> visible h2 y ->
  save_part h x = Some f -> load_part wrapn h2 y f = (h3, true) ->
  reach h3 /\ (forall n l, writes h x n l -> n <> "focallength_px" -> get_num h3 y n = get_num h x n) /\
  (forall o n l, reads h2 o n l -> (forall m, m <> "focallength_px" -> ~ writes h2 y m l) -> get_attr h3 o n = get_attr h2 o n).
Proof.
  intros h x f h2 y h3 HR HR2 HP HC HV HS HL. destruct (load_part_facts h x f h2 y h3 HR HR2 HP HC HS HL) as (R3&S3&G3&O3).
  split; [exact R3|]. split.
  - intros n l (b&E&T) NF. destruct HP as (b'&b2&E'&E2&P&K2&TT). assert (b' = b) by congruence. subst b'.
    destruct (assoc n (table b2)) as [l2|] eqn:T2; [|apply TT in T2; congruence].
    assert (W2 : writes h2 y n l2) by (exists b2; auto).
    rewrite <- (G3 n l2 W2 NF). apply reads_num. eapply reads_sim; [exact S3|]. apply HV, W2.
  - intros o n l RD HN. rewrite (reads_get _ _ _ _ (reads_sim _ _ _ _ _ S3 RD)), (reads_get _ _ _ _ RD). unfold rdl. rewrite O3 by exact HN. reflexivity.
Qed.
Print Assumptions C86_load.
(** Loading does not raise. *)
Theorem C86_load_returns : forall h x f h2 y, reach h -> reach h2 -> full h2 -> same_part h x h2 y -> complete h x ->
  save_part h x = Some f -> exists h3, load_part wrapn h2 y f = (h3, true).
Proof.
  intros h x f h2 y HR HR2 HF (b&b2&E&E2&P&K2&TT) HC HS. destruct (saved_vars h x b f HR E P HC HS) as (ND&IV).
  destruct (reach_inv h2 HR2) as (HI2&_).
  destruct (full_set_all wrapn wrapn_ok y f h2 HI2 HF) as (h3&SA&_); [congruence| |].
  { intros n a Hn ->. apply IV in Hn. destruct Hn as (_&l&v&_&_&X). discriminate. }
  exists h3. unfold load_part. rewrite E2, K2. destruct (okd b) as [pk|k|k| |p q r|l] eqn:K; try contradiction; auto.
  assert (KN : forall n a, In (n, a) f -> exists l, writes h2 y n l).
  { intros n a Hn. apply IV in Hn. destruct Hn as (_&l&v&T&_). destruct (assoc n (table b2)) as [l2|] eqn:T2; [exists l2, b2; auto|]. apply TT in T2. congruence. }
  clear - SA KN HR2. revert h2 h3 SA KN HR2. induction f as [|[n a] f IH]; intros h2 h3 SA KN HR2; [exact SA|]. cbn [set_known set_all] in *.
  destruct (KN n a (or_introl eq_refl)) as (l&b2&E2&T2). rewrite E2, T2. apply bind_ok in SA. destruct SA as (h4&E4&SA). rewrite E4. cbn [bind snd fst].
  destruct (reach_inv h2 HR2) as (HI2&_). destruct (set_attr_mem wrapn wrapn_ok h2 y n a l h4 HI2 ltac:(exists b2; auto) E4) as (S4&_).
  apply IH; auto; [|exact (Rstep wrapn litn h2 (OSet y n a) h4 HR2 I E4)].
  intros m c Hm. destruct (KN m c (or_intror Hm)) as (l'&W). exists l'. eapply writes_sim; eauto.
Qed.
Print Assumptions C86_load_returns.

(** ** All three parts of a camera *)
Lemma self_writes (h : heapn) o b n l : reach h -> objs h o = Some b -> (exists k, okd b = KProj k) \/ (exists k, okd b = KOrient k) -> writes h o n l -> l = Loc o n.
Proof.
  intros HR E K (b'&E'&T). assert (b' = b) by congruence. subst b'. destruct (reach_inv h HR) as (HI&_). destruct (HI o b E) as (_&W&_). unfold wired in W.
  assert (TS : table b = self_table o (okd b)) by (destruct K as [(k&K)|(k&K)]; rewrite K in *; apply W).
  rewrite TS, assoc_self in T. destruct (mem_name n _) in T; congruence.
Qed.
Lemma lens_writes (h : heapn) c p o l k n x : reach h -> cam_at h c p o l -> lens_at h l k -> writes h l n x ->
  (x = Loc l n /\ In n (lnames k)) \/ (x = Loc p n /\ In n shared_names /\ k <> NoDist).
Proof.
  intros HR (b&E&K) (bl&El&Kl) (b'&E'&T). assert (b' = bl) by congruence. subst b'.
  destruct (reach_inv h HR) as (HI&CI). destruct (CI c b p o l E K) as (g&pk&k'&lk&_&_&(bl'&El'&Kl')&HL&_).
  assert (lk = k) by congruence. subst lk. destruct (HI l bl El) as (_&W&_). unfold wired in W. rewrite Kl in W. destruct W as (_&_&W).
  destruct (lproj bl) as [q|] eqn:LP.
  - destruct W as (NK&W&_). destruct (HL NK) as (bx&kx&Ex&Kx&Nx&Lx). assert (bx = bl) by congruence. subst bx. assert (q = p) by congruence. subst q.
    rewrite W in T. unfold lens_table in T. apply assoc_in, in_app_iff in T. destruct T as [T|T]; apply in_map_iff in T; destruct T as (m&X&Y); inversion X; subst; auto.
  - left. rewrite W, assoc_self in T. destruct (mem_name_spec n (base_names (KLens k))) as [Y|Y]; inversion T. split; [reflexivity|exact Y].
Qed.
Lemma part_same (h h2 : heapn) x y b b2 : reach h -> reach h2 -> objs h x = Some b -> objs h2 y = Some b2 -> is_part (okd b) -> okd b2 = okd b ->
  (forall k, okd b = KLens k -> k <> NoDist -> lproj b <> None /\ lproj b2 <> None) -> same_part h x h2 y.
Proof.
  intros HR HR2 E E2 P K2 HL. exists b, b2. splits; auto. intros n.
  destruct (reach_inv h HR) as (HI&_). destruct (reach_inv h2 HR2) as (HI2&_). destruct (HI x b E) as (_&W&_). destruct (HI2 y b2 E2) as (_&W2&_). unfold wired in *. rewrite K2 in W2.
  assert (SELF : table b = self_table x (okd b) -> table b2 = self_table y (okd b) -> assoc n (table b2) = None <-> assoc n (table b) = None).
  { intros -> ->. rewrite !assoc_self. destruct (mem_name n (base_names (okd b))); split; intros X; congruence. }
  destruct (okd b) as [pk|k|k| |p q r|l] eqn:K; try contradiction.
  - apply SELF; [apply W|apply W2].
  - apply SELF; [apply W|apply W2].
  - destruct W as (_&_&W), W2 as (_&_&W2).
    assert (D : k = NoDist \/ k <> NoDist) by (destruct k; auto; right; discriminate). destruct D as [-> |D].
    + destruct (lproj b); [destruct W as (X&_); contradiction|]. destruct (lproj b2); [destruct W2 as (X&_); contradiction|]. apply SELF; assumption.
    + destruct (HL k eq_refl D) as (L1&L2). destruct (lproj b) as [p1|]; [|contradiction]. destruct (lproj b2) as [p2|]; [|contradiction].
      destruct W as (_&->&_), W2 as (_&->&_). unfold lens_table.
      assert (A : forall g g2 : name -> loc, forall ns, (assoc n (map (fun m => (m, g m)) ns) = None <-> assoc n (map (fun m => (m, g2 m)) ns) = None)).
      { intros g g2 ns. rewrite !assoc_map. destruct (mem_name n ns); split; intros X; congruence. }
      assert (B : forall t t' s s' : list (name * loc), (assoc n t = None <-> assoc n t' = None) -> (assoc n s = None <-> assoc n s' = None) -> (assoc n (t ++ s) = None <-> assoc n (t' ++ s') = None)).
      { intros t t' s s'. rewrite !assoc_app. destruct (assoc n t), (assoc n t'); intros X Y; try (exfalso; intuition congruence); tauto. }
      apply B; apply A.
Qed.
(** Loading the files of projection, orientation and lens of a camera into those of another camera with parts of the same
    types makes the other camera transform alike, also with yaw-pitch-roll orientation. *)
Theorem C86_camera : forall spline h c p o l h2 c2 p2 o2 l2 fp fo fl h3 h4 h5, reach h -> reach h2 ->
  cam_at h c p o l -> cam_at h2 c2 p2 o2 l2 -> same_kinds h c h2 c2 -> complete h c -> unfrozen h p -> visible h l -> unfrozen h2 p2 ->
  save_part h p = Some fp -> save_part h o = Some fo -> save_part h l = Some fl ->
  load_part wrapn h2 p2 fp = (h3, true) -> load_part wrapn h3 o2 fo = (h4, true) -> load_part wrapn h4 l2 fl = (h5, true) ->
  reach h5 /\ camera_in_use spline h5 c2 = camera_in_use spline h c.
Proof.
  intros spline h c p o l h2 c2 p2 o2 l2 fp fo fl h3 h4 h5 HR HR2 CA CA2 SK HC HU VL HU2 SP SO SL LP LO LL.
  destruct SK as (p'&o'&l'&p2'&o2'&l2'&pk&k&lk&C'&C2'&PA&PA2&OA&OA2&LA&LA2).
  destruct (reach_inv h HR) as (HI&CI). destruct (reach_inv h2 HR2) as (HI2&CI2).
  pose proof CA as (b&E&K). pose proof CA2 as (b2&E2&K2).
  assert (X : p' = p /\ o' = o /\ l' = l) by (destruct C' as (?&?&?); split; [|split]; congruence). destruct X as (->&->&->).
  assert (X : p2' = p2 /\ o2' = o2 /\ l2' = l2) by (destruct C2' as (?&?&?); split; [|split]; congruence). destruct X as (->&->&->). clear C' C2'.
  pose proof PA as (bp&Ep&Kp). pose proof OA as (bo&Eo&Ko). pose proof LA as (bl&El&Kl).
  pose proof PA2 as (bp2&Ep2&Kp2). pose proof OA2 as (bo2&Eo2&Ko2). pose proof LA2 as (bl2&El2&Kl2).
  assert (ON : lk <> NoDist -> lproj bl = Some p).
  { intros NK. destruct (CI c b p o l E K) as (g&?&?&lk'&_&_&(?&?&?)&HL&_). assert (lk' = lk) by congruence. subst lk'.
    destruct (HL NK) as (bx&kx&Ex&Kx&Nx&Lx). congruence. }
  assert (ON2 : lk <> NoDist -> lproj bl2 = Some p2).
  { intros NK. destruct (CI2 c2 b2 p2 o2 l2 E2 K2) as (g&?&?&lk'&_&_&(?&?&?)&HL&_). assert (lk' = lk) by congruence. subst lk'.
    destruct (HL NK) as (bx&kx&Ex&Kx&Nx&Lx). congruence. }
  assert (RC : forall n, (In n pnames -> reads h c n (Loc p n) /\ reads h p n (Loc p n)) /\ (In n (onames k) -> reads h c n (Loc o n) /\ reads h o n (Loc o n)) /\
    (In n (lnames lk) -> reads h c n (Loc l n) /\ reads h l n (Loc l n)) /\ (lk <> NoDist -> In n shared_names -> reads h l n (Loc p n))).
  { intros n. destruct (camera_reads wrapn h c p o l n CI HI CA) as (A1&A2&A3&A4). split; [|split; [|split]]; [|eauto|eauto|intros NK Hn; apply VL; eauto].
    intros Hn. destruct (A1 Hn) as (B1&B2). split; [exact B1|]. destruct B2 as (bx&Ex&Tx). exists bx. split; [exact Ex|]. split; [apply (HU bx n Ex Hn)|exact Tx]. }
  assert (CW : forall n x, reads h c n x -> exists v, rdl h x = Some v).
  { intros n x RX. destruct (HC n x) as (v&Hv); [destruct RX as (bb&?&?&?); exists bb; auto|]. rewrite (reads_num _ _ _ _ RX) in Hv. eauto. }
  assert (CP : complete h p).
  { intros n x HW. assert (EX : x = Loc p n) by (eapply self_writes; [exact HR| |  |exact HW]; eauto). subst x.
    assert (Hn : In n pnames). { destruct HW as (bb&Eb&Tb). destruct (HI p bp Ep) as (_&W&_). unfold wired in W. rewrite Kp in W. destruct W as (W&_). assert (bb = bp) by congruence. subst bb.
      rewrite W, assoc_self in Tb. destruct (mem_name_spec n (base_names (KProj pk))); [assumption|discriminate]. }
    destruct (RC n) as (A&_). destruct (A Hn) as (A1&A2). rewrite (reads_num _ _ _ _ A2). eauto. }
  assert (CO : complete h o).
  { intros n x HW. assert (EX : x = Loc o n) by (eapply self_writes; [exact HR| |  |exact HW]; eauto). subst x.
    assert (Hn : In n (onames k)). { destruct HW as (bb&Eb&Tb). destruct (HI o bo Eo) as (_&W&_). unfold wired in W. rewrite Ko in W. destruct W as (W&_). assert (bb = bo) by congruence. subst bb.
      rewrite W, assoc_self in Tb. destruct (mem_name_spec n (base_names (KOrient k))); [assumption|discriminate]. }
    destruct (RC n) as (_&A&_). destruct (A Hn) as (A1&A2). rewrite (reads_num _ _ _ _ A2). eauto. }
  assert (CL : complete h l).
  { intros n x HW. rewrite (reads_num _ _ _ _ (VL n x HW)). destruct (RC n) as (A&_&B&_).
    destruct (lens_writes h c p o l lk n x HR CA LA HW) as [(->&Hn)|(->&Hn&_)]; [apply (CW n), (B Hn)|apply (CW n), (A (shared_pnames _ Hn))]. }
  assert (SPp : same_part h p h2 p2) by (eapply part_same; eauto; [rewrite Kp; exact I|congruence|intros; congruence]).
  destruct (load_part_facts h p fp h2 p2 h3 HR HR2 SPp CP SP LP) as (R3&S3&G3&U3).
  assert (KEEP : forall (ha hb : heapn) x bx, sim ha hb -> objs ha x = Some bx -> exists bx', objs hb x = Some bx' /\ okd bx' = okd bx /\ table bx' = table bx /\ attrs bx' = attrs bx /\ lproj bx' = lproj bx).
  { intros ha hb x bx (_&S) Ex. specialize (S x). rewrite Ex in S. destruct (objs hb x) as [bx'|]; [|contradiction]. exists bx'. destruct S as (?&?&?&?). auto. }
  destruct (KEEP h2 h3 o2 bo2 S3 Eo2) as (bo3&Eo3&Ko3&_).
  assert (SPo : same_part h o h3 o2) by (eapply part_same; eauto; [rewrite Ko; exact I|congruence|intros; congruence]).
  destruct (load_part_facts h o fo h3 o2 h4 HR R3 SPo CO SO LO) as (R4&S4&G4&U4).
  destruct (KEEP h2 h3 l2 bl2 S3 El2) as (bl3&El3&Kl3&_&_&L3). destruct (KEEP h3 h4 l2 bl3 S4 El3) as (bl4&El4&Kl4&_&_&L4).
  assert (SPl : same_part h l h4 l2).
  { eapply part_same; eauto; [rewrite Kl; exact I|congruence|]. intros k0 K0 N0. assert (k0 = lk) by congruence. subst k0. rewrite L4, L3, ON, ON2 by exact N0. split; discriminate. }
  destruct (load_part_facts h l fl h4 l2 h5 HR R4 SPl CL SL LL) as (R5&S5&G5&U5).
  split; [exact R5|].
  destruct (KEEP h2 h3 c2 b2 S3 E2) as (b3&E3&K3&_). destruct (KEEP h3 h4 c2 b3 S4 E3) as (b4&E4&K4&_). destruct (KEEP h4 h5 c2 b4 S5 E4) as (b5&E5&K5&_).
  destruct (KEEP h2 h3 p2 bp2 S3 Ep2) as (bp3&Ep3&Kp3&_&A3&_). destruct (KEEP h3 h4 p2 bp3 S4 Ep3) as (bp4&Ep4&Kp4&_&A4&_). destruct (KEEP h4 h5 p2 bp4 S5 Ep4) as (bp5&Ep5&Kp5&_&A5&_).
  destruct (KEEP h3 h4 o2 bo3 S4 Eo3) as (bo4&Eo4&Ko4&_). destruct (KEEP h4 h5 o2 bo4 S5 Eo4) as (bo5&Eo5&Ko5&_).
  destruct (KEEP h4 h5 l2 bl4 S5 El4) as (bl5&El5&Kl5&_).
  assert (CA5 : cam_at h5 c2 p2 o2 l2) by (exists b5; split; congruence).
  assert (CA4 : cam_at h4 c2 p2 o2 l2) by (exists b4; split; congruence).
  assert (LA4 : lens_at h4 l2 lk) by (exists bl4; split; congruence).
  assert (OA5 : orient_at h5 o2 k) by (exists bo5; split; congruence).
  assert (OA3 : orient_at h3 o2 k) by (exists bo3; split; congruence).
  assert (LA5 : lens_at h5 l2 lk) by (exists bl5; split; congruence).
  assert (DPO : p2 <> o2) by congruence. assert (DPL : p2 <> l2) by congruence. assert (DOL : o2 <> l2) by congruence.
  destruct (reach_inv h5 R5) as (HI5&CI5). destruct (reach_inv h3 R3) as (HI3&CI3). destruct (reach_inv h4 R4) as (HI4&CI4).
  assert (CA3 : cam_at h3 c2 p2 o2 l2) by (exists b3; split; congruence).
  assert (NFS : forall n, In n shared_names -> n <> "focallength_px") by (intros n Hn ->; cbn in Hn; repeat destruct Hn as [Hn|Hn]; try discriminate; exact Hn).
  assert (NFO : forall n, In n (onames k) -> n <> "focallength_px") by (intros n Hn ->; destruct k; cbn in Hn; repeat destruct Hn as [Hn|Hn]; try discriminate; exact Hn).
  assert (NFL : forall n, In n (lnames lk) -> n <> "focallength_px") by (intros n Hn ->; destruct lk; cbn in Hn; repeat destruct Hn as [Hn|Hn]; try discriminate; exact Hn).
  assert (VP : forall n, In n shared_names -> rdl h5 (Loc p2 n) = rdl h (Loc p n)).
  { intros n Hn. pose proof (shared_pnames n Hn) as Hp. destruct (RC n) as (A&_&_&D). destruct (A Hp) as (_&RP).
    assert (V3 : rdl h3 (Loc p2 n) = rdl h (Loc p n)).
    { rewrite <- (reads_num _ _ _ _ RP). apply G3; [|auto]. apply (camera_reads wrapn h2 c2 p2 o2 l2 n CI2 HI2 CA2), Hp. }
    assert (V4 : rdl h4 (Loc p2 n) = rdl h (Loc p n)).
    { rewrite <- V3. unfold rdl. rewrite U4; [reflexivity|]. intros m _ HW. apply DPO. assert (X : Loc p2 n = Loc o2 m) by (eapply self_writes; [exact R3|exact Eo3| |exact HW]; right; exists k; congruence). congruence. }
    assert (D' : lk = NoDist \/ lk <> NoDist) by (destruct lk; auto; right; discriminate). destruct D' as [NK|NK].
    - rewrite <- V4. unfold rdl. rewrite U5; [reflexivity|]. intros m _ HW. destruct (lens_writes h4 c2 p2 o2 l2 lk m _ R4 CA4 LA4 HW) as [(X&_)|(_&_&X)]; congruence.
    - rewrite <- (reads_num _ _ _ _ (D NK Hn)). apply G5; [|auto]. eapply (camera_reads wrapn h4 c2 p2 o2 l2 n CI4 HI4 CA4); eauto. }
  assert (VO : forall n, In n (onames k) -> rdl h5 (Loc o2 n) = rdl h (Loc o n)).
  { intros n Hn. destruct (RC n) as (_&A&_). destruct (A Hn) as (_&RO).
    assert (V4 : rdl h4 (Loc o2 n) = rdl h (Loc o n)).
    { rewrite <- (reads_num _ _ _ _ RO). apply G4; [|auto]. destruct (camera_reads wrapn h3 c2 p2 o2 l2 n CI3 HI3 CA3) as (_&B&_). destruct (B k OA3 Hn) as (_&(bb&X1&_&X3)). exists bb; auto. }
    rewrite <- V4. unfold rdl. rewrite U5; [reflexivity|]. intros m _ HW. destruct (lens_writes h4 c2 p2 o2 l2 lk m _ R4 CA4 LA4 HW) as [(X&_)|(X&_)]; congruence. }
  assert (VLn : forall n, In n (lnames lk) -> rdl h5 (Loc l2 n) = rdl h (Loc l n)).
  { intros n Hn. destruct (RC n) as (_&_&A&_). destruct (A Hn) as (_&RL). rewrite <- (reads_num _ _ _ _ RL). apply G5; [|auto].
    destruct (camera_reads wrapn h4 c2 p2 o2 l2 n CI4 HI4 CA4) as (_&_&B&_). destruct (B lk LA4 Hn) as (_&(bb&X1&_&X3)). exists bb; auto. }
  rewrite (C37_current_values spline h5 c2 R5), (C37_current_values spline h c HR).
  2:{ intros q (q1&q2&bq&Eq&Kq). assert (q = p) by congruence. subst q. exact HU. }
  2:{ intros q (q1&q2&bq&Eq&Kq). assert (q = p2) by congruence. subst q. intros bb n Eb Hn. assert (bb = bp5) by congruence. subst bb. rewrite A5, A4, A3. apply (HU2 bp2 n Ep2 Hn). }
  unfold camera_of_reads.
  rewrite E, K, Ep, Eo, El, Kp, Ko, Kl, E5, K5, K4, K3, K2, Ep5, Eo5, El5, Kp5, Kp4, Kp3, Kp2, Ko5, Ko4, Ko3, Ko2, Kl5, Kl4, Kl3, Kl2.
  assert (RS : forall n, In n shared_names -> get_num h5 c2 n = get_num h c n).
  { intros n Hn. pose proof (shared_pnames n Hn) as Hp. destruct (RC n) as (A&_). destruct (A Hp) as (R1&_).
    destruct (camera_reads wrapn h5 c2 p2 o2 l2 n CI5 HI5 CA5) as (B&_). destruct (B Hp) as (R2&_). rewrite (reads_num _ _ _ _ R1), (reads_num _ _ _ _ R2). auto. }
  apply camera_of_ext.
  - exact RS.
  - intros n Hn. destruct (RC n) as (_&A&_). destruct (A Hn) as (R1&_).
    destruct (camera_reads wrapn h5 c2 p2 o2 l2 n CI5 HI5 CA5) as (_&B&_). destruct (B k OA5 Hn) as (R2&_). rewrite (reads_num _ _ _ _ R1), (reads_num _ _ _ _ R2). auto.
  - intros n Hn. destruct (RC n) as (_&_&A&_). destruct (A Hn) as (R1&_).
    destruct (camera_reads wrapn h5 c2 p2 o2 l2 n CI5 HI5 CA5) as (_&_&B&_). destruct (B lk LA5 Hn) as (R2&_). rewrite (reads_num _ _ _ _ R1), (reads_num _ _ _ _ R2). auto.
  - intros n Hn. apply RS. apply (reads_shared lk). exact Hn.
Qed.
Print Assumptions C86_camera.
(** An orientation takes from a file only the names it has: the others are ignored without an error. *)
Theorem C86_orientation_other_names : forall h y k b f, reach h -> objs h y = Some b -> okd b = KOrient k ->
  load_part wrapn h y f = load_part wrapn h y (filter (fun na => mem_name (fst na) (onames k)) f).
Proof.
  intros h y k b f HR E K. unfold load_part. rewrite E, K.
  assert (G : forall f h, reach h -> orient_at h y k -> set_known wrapn h y f = set_known wrapn h y (filter (fun na => mem_name (fst na) (onames k)) f)).
  { clear. induction f as [|[n a] f IH]; intros h HR (b&E&K); [reflexivity|].
    destruct (reach_inv h HR) as (HI&_). destruct (HI y b E) as (_&W&_). unfold wired in W. rewrite K in W. destruct W as (T&_).
    cbn [filter fst set_known]. rewrite E, T, assoc_self. change (base_names (KOrient k)) with (onames k).
    destruct (mem_name_spec n (onames k)) as [Y|Y].
    - cbn [set_known]. rewrite E, T, assoc_self. change (base_names (KOrient k)) with (onames k). rewrite mem_name_in by exact Y.
      destruct (set_attr wrapn h y n a) as (h1&[]) eqn:E1; [|reflexivity]. cbn [bind snd fst].
      assert (W : writes h y n (Loc y n)) by (exists b; split; [exact E|]; rewrite T; apply on_table; exact Y).
      destruct (set_attr_mem wrapn wrapn_ok h y n a _ h1 HI W E1) as ((_&S)&_). specialize (S y). rewrite E in S.
      apply IH; [exact (Rstep wrapn litn h (OSet y n a) h1 HR I E1)|]. destruct (objs h1 y) as [b1|] eqn:E1'; [|contradiction]. exists b1. split; [exact E1'|]. destruct S as (S&_). congruence.
    - cbn [bind snd fst]. apply IH; [exact HR|exists b; auto]. }
  apply G; [exact HR|exists b; auto].
Qed.
Print Assumptions C86_orientation_other_names.

(** ** Examples and counterexamples *)
Definition amapv (f : list (name * arg Q)) : list (name * arg num) := map (fun na => (fst na, amap litn (snd na))) f.
Lemma save_part_q h o : save_part (floats h) o = option_map amapv (save_part h o).
Proof.
  assert (X : forall t, export (floats h) o t = amapv (export h o t)).
  { intros t. unfold export, amapv. rewrite map_map. apply map_ext. intros (n&l). cbn [fst snd]. rewrite get_attr_map. destruct (get_attr h o n); reflexivity. }
  unfold save_part. cbn [hmap objs]. destruct (objs h o) as [b|]; [|reflexivity]. cbn [option_map omap okd table].
  destruct (okd b); cbn [option_map]; rewrite ?X; reflexivity.
Qed.
Lemma load_part_q h o f : snd (load_part wrapq h o f) = true -> load_part wrapn (floats h) o (amapv f) = (floats (fst (load_part wrapq h o f)), true).
Proof.
  intros H. assert (X : load_part wrapn (floats h) o (amapv f) = rmap litn (load_part wrapq h o f)); [|rewrite X; unfold rmap; rewrite H; reflexivity].
  clear H. unfold load_part. cbn [hmap objs]. destruct (objs h o) as [b|] eqn:E; [|reflexivity]. cbn [option_map omap okd].
  assert (SA := set_all_map litn wrapq wrapn wrap_map o f h). fold (amapv f) in SA.
  destruct (okd b); try reflexivity; try exact SA. clear b E SA. revert h.
  induction f as [|[n a] f IH]; intros h; [reflexivity|]. cbn [amapv map fst snd set_known]. fold (amapv f).
  assert (Y : (match objs (floats h) o with Some b => match assoc n (table b) with Some _ => set_attr wrapn (floats h) o n (amap litn a) | None => (floats h, true) end | None => (floats h, false) end) =
    rmap litn (match objs h o with Some b => match assoc n (table b) with Some _ => set_attr wrapq h o n a | None => (h, true) end | None => (h, false) end)).
  { cbn [hmap objs]. destruct (objs h o) as [b|]; [|reflexivity]. cbn [option_map omap table]. destruct (assoc n (table b)); [|reflexivity]. apply (set_attr_map litn wrapq wrapn wrap_map). }
  cbn [hmap objs] in Y |- *. rewrite Y. apply bind_map. exact IH.
Qed.
Lemma visible_q h y : (match objs h y with Some b => forallb (fun nl => negb (is_some (attrs b (fst nl)))) (table b) | None => true end) = true -> visible (floats h) y.
Proof.
  intros H n l (b&E&T). exists b. split; [exact E|]. split; [|exact T]. cbn [hmap objs] in E. destruct (objs h y) as [b0|]; [|discriminate]. inversion E; subst b. cbn [omap table attrs] in *.
  rewrite forallb_forall in H. specialize (H (n, l) (assoc_in n (table b0) l T)). cbn [fst] in H. destruct (attrs b0 n); [discriminate|reflexivity].
Qed.
Lemma proj_q h o k : kind_at h o = Some (KProj k) -> proj_at (floats h) o k.
Proof. unfold kind_at, proj_at. cbn [hmap objs]. destruct (objs h o) as [b|]; [|discriminate]. cbn. intros X. injection X as X. eexists; split; [reflexivity|exact X]. Qed.
Lemma lens_q h o k : kind_at h o = Some (KLens k) -> lens_at (floats h) o k.
Proof. unfold kind_at, lens_at. cbn [hmap objs]. destruct (objs h o) as [b|]; [|discriminate]. cbn. intros X. injection X as X. eexists; split; [reflexivity|exact X]. Qed.
(** Two cameras with yaw, pitch and roll and a Brown lens: 0, 1, 2 make 3 and 5, 6, 7 make 8; 10 is a lens of no camera. *)
Definition twoq : heap Q :=
  hist empty [OProj Rectilinear pvals false; OOrient YawPitchRoll (dict [("yaw_deg", 20#1); ("pitch_deg", 30#1)]%Q); OLens Brown (dict [("k1", 1#10)]%Q); OCamera 0 1 2;
              OProj Rectilinear pvals2 false; OOrient YawPitchRoll none; OLens Brown none; OCamera 5 6 7; OLens Brown none].
Definition part_file (o : oid) : list (name * arg Q) := match save_part twoq o with Some f => f | None => [] end.
Definition twoq3 : heap Q := fst (load_part wrapq twoq 5 (part_file 0)).
Definition twoq4 : heap Q := fst (load_part wrapq twoq3 6 (part_file 1)).
Definition twoq5 : heap Q := fst (load_part wrapq twoq4 7 (part_file 2)).
Lemma twoq_reach : reach (floats twoq).
Proof. apply hist_reach; [stand|vm]. Qed.
Lemma saved_q o : (match save_part twoq o with Some _ => true | None => false end) = true -> save_part (floats twoq) o = Some (amapv (part_file o)).
Proof. rewrite save_part_q. unfold part_file. destruct (save_part twoq o); [reflexivity|discriminate]. Qed.
Example C86_camera_example : let h := floats twoq in
  reach h /\ cam_at h 3 0 1 2 /\ cam_at h 8 5 6 7 /\ same_kinds h 3 h 8 /\ complete h 3 /\ unfrozen h 0 /\ visible h 2 /\ unfrozen h 5 /\ full h /\
  save_part h 0 = Some (amapv (part_file 0)) /\ save_part h 1 = Some (amapv (part_file 1)) /\ save_part h 2 = Some (amapv (part_file 2)) /\
  load_part wrapn h 5 (amapv (part_file 0)) = (floats twoq3, true) /\ load_part wrapn (floats twoq3) 6 (amapv (part_file 1)) = (floats twoq4, true) /\
  load_part wrapn (floats twoq4) 7 (amapv (part_file 2)) = (floats twoq5, true) /\
  get_num h 8 "center_x_px" = Some (litn (60#1)) /\ get_num (floats twoq5) 8 "center_x_px" = Some (litn (50#1)) /\
  get_num (floats twoq5) 8 "yaw_deg" = Some (litn (20#1)) /\ get_num (floats twoq5) 8 "k1" = Some (litn (1#10)).
Proof.
  intros h. split; [exact twoq_reach|]. split; [apply cam_q; vm|]. split; [apply cam_q; vm|].
  split. { exists 0, 1, 2, 5, 6, 7, Rectilinear, YawPitchRoll, Brown. split; [apply cam_q; vm|]. split; [apply cam_q; vm|]. split; [apply proj_q; vm|]. split; [apply proj_q; vm|].
    split; [apply orient_q; vm|]. split; [apply orient_q; vm|]. split; apply lens_q; vm. }
  split; [apply complete_q; vm|]. split; [intros b n E _; vm_compute in E; inversion E; subst b; reflexivity|].
  split; [apply visible_q; vm|]. split; [intros b n E _; vm_compute in E; inversion E; subst b; reflexivity|].
  split; [apply fullb_ok; [exact twoq_reach|vm]|].
  split; [apply saved_q; vm|]. split; [apply saved_q; vm|]. split; [apply saved_q; vm|].
  split; [apply load_part_q; vm|]. split; [apply load_part_q; vm|]. split; [apply load_part_q; vm|].
  split; [unfold h; rewrite num_q; vm|]. split; [rewrite num_q; vm|]. split; rewrite num_q; vm.
Qed.
Definition part_names (h : heap Q) (o : oid) : option (kind * list name) := match objs h o with Some b => Some (okd b, map fst (table b)) | None => None end.
Lemma same_part_q h x y k : part_names h x = part_names h y -> kind_at h x = Some k -> (match k with KProj _ | KOrient _ | KLens _ => true | _ => false end) = true -> same_part (floats h) x (floats h) y.
Proof.
  unfold part_names, kind_at, same_part. cbn [hmap objs]. destruct (objs h x) as [b|]; [|discriminate]. destruct (objs h y) as [b2|]; [|discriminate]. intros X Y P. inversion X as [[X1 X2]].
  inversion Y as [Y1]. exists (omap litn b), (omap litn b2). cbn [omap okd table option_map]. split; [reflexivity|]. split; [reflexivity|]. split; [rewrite Y1; destruct k; try discriminate; exact Logic.I|]. split; [congruence|].
  clear - X2. intros n. revert X2. generalize (table b2). induction (table b) as [|[m l] t IH]; intros [|[m2 l2] t2] X; try discriminate; [tauto|]. cbn [map fst] in X. inversion X. subst m2.
  cbn [assoc]. destruct (String.eqb n m); [split; discriminate|]. apply IH; assumption.
Qed.
(** The hypotheses of C86_load and C86_load_returns for the lens of the first camera and that of the second. *)
Example C86_load_example : let h := floats twoq in reach h /\ full h /\ same_part h 2 h 7 /\ complete h 2 /\ visible h 7 /\
  save_part h 2 = Some (amapv (part_file 2)) /\ exists h3, load_part wrapn h 7 (amapv (part_file 2)) = (h3, true).
Proof.
  intros h. split; [exact twoq_reach|]. split; [apply fullb_ok; [exact twoq_reach|vm]|].
  split; [apply (same_part_q _ _ _ (KLens Brown)); vm|].
  split; [apply complete_q; vm|]. split; [apply visible_q; vm|]. split; [apply saved_q; vm|]. eexists. apply load_part_q; vm.
Qed.
(** The file of a lens in a camera holds the focal lengths and the centre of that camera: loading it into the lens of another camera moves the other camera's centre. *)
Theorem C86_lens_file_refuted : exists h x p2 y f h3, reach h /\ same_part h x h y /\ complete h x /\ visible h y /\ proj_at h p2 Rectilinear /\ lens_at h y Brown /\
  save_part h x = Some f /\ load_part wrapn h y f = (h3, true) /\ get_num h3 p2 "center_x_px" <> get_num h p2 "center_x_px".
Proof.
  exists (floats twoq), 2, 5, 7, (amapv (part_file 2)). destruct C86_load_example as (R&_&S&C&V&F&_). eexists.
  split; [exact R|]. split; [exact S|]. split; [exact C|]. split; [exact V|]. split; [apply proj_q; vm|]. split; [apply lens_q; vm|]. split; [exact F|].
  split; [apply load_part_q; vm|]. rewrite !num_q. replace (get_num twoq 5 "center_x_px") with (Some (60#1)%Q) by vm.
  replace (get_num (fst _) 5 "center_x_px") with (Some (50#1)%Q) by vm. cbn [option_map]. apply lit_ne. qne.
Qed.
Print Assumptions C86_lens_file_refuted.
(** Loaded into a lens of no camera, the same entries become plain attributes: once a camera is made with the lens, the lens goes on reading the saved centre. *)
Theorem C86_bare_lens_refuted : exists h x y f h3 h4 c, reach h /\ complete h x /\ save_part h x = Some f /\ load_part wrapn h y f = (h3, true) /\
  new_camera wrapn litn h3 5 6 y = (h4, true) /\ cam_at h4 c 5 6 y /\ get_num h4 y "center_x_px" <> get_num h4 c "center_x_px".
Proof.
  set (h1 := hist empty [OProj Rectilinear pvals false; OOrient YawPitchRoll none; OLens Brown (dict [("k1", 1#10)]%Q); OCamera 0 1 2; OProj Rectilinear pvals2 false; OOrient YawPitchRoll none; OLens Brown none]).
  set (f := match save_part h1 2 with Some f => f | None => [] end).
  set (h3 := fst (load_part wrapq h1 7 f)).
  exists (floats h1), 2, 7, (amapv f), (floats h3), (floats (fst (new_camera wrapq idq h3 5 6 7))), 8.
  split; [apply hist_reach; [stand|vm]|]. split; [apply complete_q; vm|].
  split; [rewrite save_part_q; unfold f; destruct (save_part h1 2) eqn:E; [reflexivity|vm_compute in E; discriminate E]|].
  split; [apply load_part_q; vm|].
  split; [rewrite (new_camera_map litn wrapq wrapn idq litn wrap_map (fun q => eq_refl)); unfold rmap; f_equal; vm|].
  split; [apply cam_q; vm|]. rewrite !num_q. replace (get_num _ 7 "center_x_px") with (Some (50#1)%Q) by vm.
  replace (get_num _ 8 "center_x_px") with (Some (60#1)%Q) by vm. cbn [option_map]. apply lit_ne. qne.
Qed.
Print Assumptions C86_bare_lens_refuted.
(** A file of a tilt-heading orientation into one with yaw, pitch and roll: the position and elevation are taken, tilt and heading are not. *)
Example C86_orientation_example : let h := floats twoq in let f := amapv [("tilt_deg", ANum (45#1)%Q); ("pos_x_m", ANum (7#1)%Q); ("heading_deg", ANum (5#1)%Q)] in
  reach h /\ orient_at h 6 YawPitchRoll /\ exists h3, load_part wrapn h 6 f = (h3, true) /\
  get_num h3 6 "pos_x_m" = Some (litn (7#1)) /\ get_attr h3 6 "tilt_deg" = None /\ get_num h3 6 "yaw_deg" = get_num h 6 "yaw_deg".
Proof.
  intros h f. split; [exact twoq_reach|]. split; [apply orient_q; vm|]. eexists. split; [apply load_part_q; vm|]. split; [rewrite num_q; vm|].
  split; [rewrite get_attr_map; vm|]. unfold h. rewrite !num_q. vm.
Qed.
