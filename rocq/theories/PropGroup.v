(** * Property C28: the parameters and cameras of a CameraGroup *)
Require Import Reals Lra List Bool String Arith NArith QArith Qreals Lia.
From Verif Require Import Num Projection CameraTransform Param ParamFacts ParamOps ParamSteps ParamReach ParamCam ParamLaws ParamMap PropParam PropFit.
From Verif Require Import ParamCheck ParamExamples ParamTotal PropTotal ParamSave PropSave ParamGroup.
Import ListNotations.
Open Scope nat_scope.
Open Scope string_scope.

(** ** Histories that go on from a given state *)
Inductive later (P : op num -> Prop) : heapn -> heapn -> Prop :=
| Lrefl h : later P h h
| Lstep h h1 p h2 : later P h h1 -> op_ok h1 p -> P p -> exec wrapn litn h1 p = (h2, true) -> later P h h2.
Lemma later_reach P h h' : reach h -> later P h h' -> reach h'.
Proof. intros HR. induction 1 as [|h h1 p h2 _ IH HO _ HE]; [exact HR|]. exact (Rstep wrapn litn h1 p h2 (IH HR) HO HE). Qed.
Definition anything (p : op num) : Prop := True.
(** No file is loaded into camera [c]. *)
Definition not_loading (c : oid) (p : op num) : Prop := forall f, p <> OLoad c f.

(** ** What the operations leave alone *)
Definition upper (k : kind) : Prop := match k with KCam _ _ _ | KGroup _ => True | _ => False end.
Definition same_obj (b b' : obj num) : Prop :=
  okd b' = okd b /\ table b' = table b /\ (forall n, In n (map fst (table b)) -> attrs b n = None -> attrs b' n = None).
Lemma same_refl b : same_obj b b. Proof. repeat split; auto. Qed.
Lemma same_trans a b c : same_obj a b -> same_obj b c -> same_obj a c.
Proof.
  intros (A1&A2&A3) (B1&B2&B3). split; [congruence|split; [congruence|]]. intros n Hn X. apply B3; [rewrite A2; exact Hn|auto].
Qed.
Lemma same_osim b b' : osim b b' -> same_obj b b'.
Proof. intros (A&B&C&_). split; [exact A|split; [exact C|]]. intros n _ X. rewrite B. exact X. Qed.
Definition stays (h h' : heapn) (x : oid) : Prop :=
  forall b, objs h x = Some b -> upper (okd b) -> exists b', objs h' x = Some b' /\ same_obj b b'.
Lemma stays_trans h1 h2 h3 x : stays h1 h2 x -> stays h2 h3 x -> stays h1 h3 x.
Proof.
  intros A B b E U. destruct (A b E U) as (b2&E2&S2). destruct (B b2 E2) as (b3&E3&S3); [destruct S2 as (K&_); rewrite K; exact U|].
  exists b3. split; [exact E3|eapply same_trans; eauto].
Qed.
Lemma stays_sim (h h' : heapn) x : sim h h' -> stays h h' x.
Proof. intros S b E _. destruct (sim_fwd _ _ _ _ S E) as (b'&E'&O). exists b'. split; [exact E'|apply same_osim; exact O]. Qed.
Lemma stays_grown (h h' : heapn) k x : grown h h' k -> stays h h' x.
Proof. intros (_&_&F&_) b E _. destruct (F x b E) as (b'&E'&O). exists b'. split; [exact E'|apply same_osim; exact O]. Qed.
Lemma stays_made (h h' : heapn) c p o l x : sharing_ok h l p -> camera_made h h' c p o l -> x <> c -> stays h h' x.
Proof.
  intros (bl&kl&El&Kl&_) (_&F&_) N b E U. destruct (F x b E N) as (b'&E'&K&A&T&_). exists b'. split; [exact E'|].
  destruct T as (T&_); [left; intros ->; rewrite E in El; inversion El; subst; rewrite Kl in U; exact U|].
  split; [exact K|split; [exact T|]]. intros n _ X. rewrite A. exact X.
Qed.
Lemma stays_cameras n : forall h i ps os ls prs h' cs x, Inv wrapn clean h -> pairs_ok h prs -> incl (cam_pairs i n ps ls) prs ->
  make_cameras wrapn litn h i n ps os ls = (h', true, cs) -> stays h h' x.
Proof.
  induction n as [|n IH]; intros h i ps os ls prs h' cs x HI HP HC HR.
  - inversion HR; subst. intros b E _. exists b. split; [exact E|apply same_refl].
  - assert (R0 : stays h h x) by (intros b E _; exists b; split; [exact E|apply same_refl]).
    cbn [make_cameras] in HR. cbn [cam_pairs] in HC.
    destruct (nth_error ps (i mod List.length ps)) as [p|] eqn:Ep; [|inversion HR; subst; exact R0].
    destruct (nth_error os (i mod List.length os)) as [o|] eqn:Eo; [|inversion HR; subst; exact R0].
    destruct (nth_error ls (i mod List.length ls)) as [l|] eqn:El; [|inversion HR; subst; exact R0].
    destruct (new_camera wrapn litn h p o l) as [h1 []] eqn:EC; cbn [fst snd] in HR; [|discriminate].
    assert (IN : In (l, p) prs) by (apply HC; left; auto).
    assert (SH : sharing_ok h l p) by (apply HP; auto).
    destruct (Inv_new_camera wrapn litn wrapn_ok clean h p o l h1 HI SH EC) as (I1&CM).
    destruct (make_cameras wrapn litn h1 (S i) n ps os ls) as [[h2 ok] cs'] eqn:EM. inversion HR; subst.
    eapply stays_trans; [|eapply (IH h1); [exact I1| | |exact EM]].
    + intros b E U. assert (x < next h) by (eapply Inv_objs_lt; eauto).
      apply (stays_made (reserve h) h1 (next h) p o l x SH CM) with (b := b); auto. lia.
    + exact (pairs_ok_step wrapn clean h h1 p o l prs HI HP IN CM).
    + intros y Hy. apply HC. right. exact Hy.
Qed.
Lemma stays_set h o n a h' x : Inv wrapn clean h -> set_attr wrapn h o n a = (h', true) -> stays h h' x.
Proof.
  intros HI HS. destruct (objs h o) as [b|] eqn:E; [|unfold set_attr in HS; rewrite E in HS; discriminate].
  destruct (assoc n (table b)) as [l|] eqn:T.
  - apply stays_sim. eapply (set_attr_mem wrapn wrapn_ok h o n a l h' HI); [exists b; auto|exact HS].
  - unfold set_attr in HS. rewrite E, T in HS. inversion HS; subst h'. intros b0 E0 _. cbn [objs set_obj].
    destruct (Nat.eqb_spec x o) as [->|N]; [|exists b0; split; [exact E0|apply same_refl]].
    rewrite E in E0; inversion E0; subst b0. eexists. split; [reflexivity|]. split; [reflexivity|split; [reflexivity|]].
    intros m Hm X. cbn [attrs add_attr]. destruct (String.eqb_spec m n) as [->|]; [|exact X]. exfalso.
    apply in_map_iff in Hm. destruct Hm as ((m&y)&Em&Hin). cbn in Em. subst m.
    clear -T Hin. induction (table b) as [|[k z] t IHt]; [contradiction|]. cbn in T. destruct (String.eqb_spec n k) as [->|N]; [discriminate|].
    destruct Hin as [X|X]; [inversion X; congruence|auto].
Qed.
Lemma stays_set_all c vars x : forall h h', Inv wrapn clean h -> set_all wrapn h c vars = (h', true) -> stays h h' x.
Proof.
  induction vars as [|[n a] vars IH]; intros h h' HI HR.
  - inversion HR; subst. intros b E _. exists b. split; [exact E|apply same_refl].
  - cbn [set_all] in HR. apply bind_ok in HR. destruct HR as (h1&E1&HR).
    eapply stays_trans; [eapply stays_set; eauto|]. eapply IH; [|exact HR]. eapply Inv_set_attr; eauto using wrapn_ok.
Qed.
Lemma exec_stays h p h' x : reach h -> op_ok h p -> exec wrapn litn h p = (h', true) -> not_loading x p -> stays h h' x.
Proof.
  intros HRc HO HR HN. destruct (reach_inv h HRc) as (HI&HC). assert (NC : forall x, ~ clean x) by (intros y []).
  destruct p as [k vals|k vals fr|k vals|p o l|pa oa la|o n a|o n v|ord o vals|rnd ord o|ord o|c f]; cbn [Param.exec op_ok] in *.
  - eapply stays_grown, new_orient_grown; eauto using wrapn_ok.
  - eapply stays_grown, new_proj_grown; eauto.
  - eapply stays_grown, new_lens_grown; eauto using wrapn_ok.
  - destruct HO as (_&_&SH). destruct (Inv_new_camera wrapn litn wrapn_ok clean h p o l h' HI SH HR) as (_&CM).
    intros b E U. assert (x < next h) by (eapply Inv_objs_lt; eauto).
    apply (stays_made (reserve h) h' (next h) p o l x SH CM) with (b := b); auto. lia.
  - destruct HO as (_&HG). unfold new_group in HR. set (n := group_size _) in *. unfold group_ok in HG. fold n in HG.
    destruct (make_cameras wrapn litn (reserve h) 0 n (comp_list pa) (comp_list oa) (comp_list la)) as [[h1 []] cs] eqn:EM; [|discriminate].
    inversion HR; subst h'. clear HR. intros b E U. assert (x < next h) by (eapply Inv_objs_lt; eauto).
    destruct (stays_cameras n (reserve h) 0 _ _ _ _ h1 cs x (Inv_reserve wrapn clean h HI) HG (incl_refl _) EM b E U) as (b'&E'&S').
    exists b'. split; [|exact S']. cbn [objs set_obj]. destruct (Nat.eqb_spec x (next h)); [lia|exact E'].
  - eapply stays_set; eauto.
  - apply stays_sim. eapply set_default_sim; eauto using wrapn_ok.
  - destruct (objs h o) as [b|] eqn:E; [|unfold set_fit in HR; rewrite E in HR; discriminate].
    destruct (set_fit_spec wrapn wrapn_ok ord clean h o vals h' b HO HI NC E HR) as (?&?&A&S&_). apply stays_sim; exact S.
  - destruct (objs h o) as [b|] eqn:E; [|unfold sample, stats_op in HR; rewrite E in HR; discriminate].
    destruct (stats_spec wrapn wrapn_ok rnd ord clean h o h' b HO HI NC E HR) as (?&?&A&S&_). apply stays_sim; exact S.
  - destruct (objs h o) as [b|] eqn:E; [|unfold set_to_mean, stats_op in HR; rewrite E in HR; discriminate].
    destruct (stats_spec wrapn wrapn_ok (fun _ m _ => m) ord clean h o h' b HO HI NC E HR) as (?&?&A&S&_). apply stays_sim; exact S.
  - destruct HO as (b&p&o&l&E&K&NS). unfold load in HR. rewrite E in HR.
    assert (NB : not_base h c). { intros b' E'. rewrite E in E'; inversion E'; subst. rewrite K. intros X; exact X. }
    assert (LT : c < next h) by (eapply Inv_objs_lt; eauto).
    assert (XC : x <> c) by (intros ->; apply (HN f); reflexivity).
    destruct (load_steps wrapn litn wrapn_ok clean h c (attrs b) f h' HI NB LT HR) as
      (h1&h2&h3&h4&E1&E2&E3&E4&E5&I3&SH&NB3&LT3&I4&CM&N1&N2&N3&G1&G2&G3).
    eapply stays_trans; [eapply stays_grown; exact G1|]. eapply stays_trans; [eapply stays_grown; exact G2|].
    eapply stays_trans; [eapply stays_grown; exact G3|]. eapply stays_trans; [eapply stays_made; [exact SH|exact CM|exact XC]|].
    eapply stays_set_all; eauto.
Qed.
Lemma later_stays P h h' x : reach h -> later P h h' -> (forall p, P p -> not_loading x p) -> stays h h' x.
Proof.
  intros HR HL HP. induction HL as [h|h h1 p h2 HL IH HO HPp HE]; [intros b E _; exists b; split; [exact E|apply same_refl]|].
  eapply stays_trans; [exact (IH HR)|]. eapply exec_stays; eauto. eapply later_reach; eauto.
Qed.
(** A group is never loaded into. *)
Lemma later_group P h h' g b cs : reach h -> later P h h' -> objs h g = Some b -> okd b = KGroup cs ->
  exists b', objs h' g = Some b' /\ same_obj b b'.
Proof.
  intros HR HL E K. induction HL as [h|h h1 p h2 HL IH HO HPp HE]; [exists b; split; [exact E|apply same_refl]|].
  destruct (IH HR E) as (b1&E1&S1). assert (K1 : okd b1 = KGroup cs) by (destruct S1 as (X&_); congruence).
  destruct (exec_stays h1 p h2 g (later_reach P h h1 HR HL) HO HE) with (b := b1) as (b2&E2&S2); auto.
  - intros f ->. cbn in HO. destruct HO as (b'&p'&o'&l'&E'&K'&_). congruence.
  - rewrite K1. exact I.
  - exists b2. split; [exact E2|eapply same_trans; eauto].
Qed.

(** ** Specification *)
(** The components given: a single one, or a list. *)
Definition parts (pa oa la : oid + list oid) : list (list oid) := [comp_list pa; comp_list oa; comp_list la].
(** As many cameras as the last list given has elements; one if no list is given. *)
Definition expected_cameras (pa oa la : oid + list oid) : nat :=
  match la, oa, pa with
  | inr l, _, _ => List.length l
  | _, inr l, _ => List.length l
  | _, _, inr l => List.length l
  | _, _, _ => 1
  end.
Lemma expected_size pa oa la : expected_cameras pa oa la = group_size [comp_given pa; comp_given oa; comp_given la].
Proof. destruct pa, oa, la; reflexivity. Qed.
(** The parameter [x] of the old state is known to the group as [k]. *)
Definition listed (h : heapn) pa oa la (k : name) (x : loc) : Prop :=
  exists comps i o n, In comps (parts pa oa la) /\ nth_error comps i = Some o /\ writes h o n x /\ k = group_name (List.length comps) i n.

Lemma functional_assoc {A} (t : list (name * A)) : functional t -> forall k a, assoc k t = Some a <-> In (k, a) t.
Proof.
  intros F k a. split; [apply assoc_in|]. intros Hin.
  assert (X : exists a', assoc k t = Some a').
  { clear F. induction t as [|[m b] t IH]; [contradiction|]. cbn. destruct (String.eqb_spec k m) as [->|N]; [eauto|].
    destruct Hin as [X|X]; [inversion X; congruence|auto]. }
  destruct X as (a'&Ha). rewrite Ha. f_equal. eapply F; [apply assoc_in; exact Ha|exact Hin].
Qed.
Lemma map_functional {A} (f : name -> A) ns : functional (map (fun n => (n, f n)) ns).
Proof. intros k a b Ha Hb. apply in_map_iff in Ha, Hb. destruct Ha as (n&X&_), Hb as (m&Y&_). inversion X; inversion Y; subst. congruence. Qed.
Lemma part_functional h pa oa la comps o : Inv wrapn clean h -> comps_ok h (comp_list pa) (comp_list oa) (comp_list la) ->
  In comps (parts pa oa la) -> In o comps -> functional (tab h o).
Proof.
  intros HI (CP&CO&CL) HP HO. destruct HP as [<-|[<-|[<-|[]]]].
  - destruct (CP o HO) as (k&H). rewrite (tab_proj wrapn clean h o k HI H). apply map_functional.
  - destruct (CO o HO) as (k&H). rewrite (tab_orient wrapn clean h o k HI H). apply map_functional.
  - destruct (CL o HO) as (k&H). destruct (tab_lens wrapn clean h o k HI H) as [T|(p&NK&T&_)]; rewrite T; [apply map_functional|].
    intros n a b Ha Hb. unfold lens_table in Ha, Hb. rewrite in_app_iff, !in_self in Ha, Hb.
    assert (X : In n (lnames k) -> In n shared_names -> False).
    { intros X Y. destruct k; cbn in X, Y; repeat destruct X as [<-|X]; try contradiction; repeat destruct Y as [Y|Y]; try discriminate; contradiction. }
    destruct Ha as [(A1&->)|(A1&->)], Hb as [(B1&->)|(B1&->)]; auto; exfalso; auto.
Qed.
Lemma tab_writes h pa oa la comps i o n x : Inv wrapn clean h -> comps_ok h (comp_list pa) (comp_list oa) (comp_list la) ->
  In comps (parts pa oa la) -> nth_error comps i = Some o -> (In (n, x) (tab h o) <-> writes h o n x).
Proof.
  intros HI HO HP HN. assert (F := part_functional h pa oa la comps o HI HO HP (nth_error_In _ _ HN)).
  rewrite <- (functional_assoc _ F). unfold tab, writes. destruct (objs h o) as [b|].
  - split; [intros X; exists b; auto|]. intros (b'&E&X). inversion E; subst; exact X.
  - cbn. split; [discriminate|]. intros (b'&E&_). discriminate.
Qed.

(** ** C28: names *)
(** A group knows exactly the parameters of its components: a single component's under
    their own names, those of element [i] of a list with the prefix "C<i>_"; at all later times. *)
Theorem C28_names h pa oa la h1 P h2 k x : reach h -> group_good h pa oa la -> 0 < expected_cameras pa oa la ->
  new_group wrapn litn h pa oa la = (h1, true) -> later P h1 h2 ->
  (writes h2 (next h) k x <-> listed h pa oa la k x).
Proof.
  intros HR HG HN HE HL. destruct (reach_inv h HR) as (HI&HC). rewrite expected_size in HN.
  destruct (new_group_spec wrapn litn wrapn_ok clean h pa oa la h1 HI HC HG HN HE) as (b&cs&E&K&_&T&_).
  assert (R1 : reach h1) by exact (Rstep wrapn litn h (OGroup pa oa la) h1 HR HG HE).
  destruct (later_group P h1 h2 (next h) b cs R1 HL E K) as (b2&E2&(K2&T2&_)).
  assert (X : writes h2 (next h) k x <-> In (k, x) (entries h pa oa la)).
  { rewrite <- T, <- T2. unfold writes. rewrite E2. split; [intros (b'&Eb&X); inversion Eb; subst; exact X|]. intros Y; exists b2; auto. }
  rewrite X. unfold entries. rewrite !in_app_iff, !in_keys. destruct HG as (HO&_).
  assert (TW := fun comps i o n Hp Hn => tab_writes h pa oa la comps i o n x HI HO Hp Hn).
  unfold listed. split.
  - assert (S : forall comps, In comps (parts pa oa la) -> (exists i o n, nth_error comps i = Some o /\ In (n, x) (tab h o) /\ k = group_name (List.length comps) i n) ->
      exists comps i o n, In comps (parts pa oa la) /\ nth_error comps i = Some o /\ writes h o n x /\ k = group_name (List.length comps) i n).
    { intros comps Hp (i&o&n&H1&H2&H3). exists comps, i, o, n. split; [exact Hp|split; [exact H1|split; [|exact H3]]]. eapply TW; eauto. }
    intros [[H|H]|H]; eapply S; eauto; unfold parts; cbn; auto.
  - intros (comps&i&o&n&Hp&H1&H2&H3). pose proof (proj2 (TW comps i o n Hp H1) H2) as H4.
    destruct Hp as [<-|[<-|[<-|[]]]]; eauto 10.
Qed.
Print Assumptions C28_names.
(** No two parameters share a name, and no parameter is reachable through two list positions by one name. *)
Theorem C28_names_unambiguous h pa oa la k x y : reach h -> group_good h pa oa la -> 0 < expected_cameras pa oa la ->
  listed h pa oa la k x -> listed h pa oa la k y -> x = y.
Proof.
  intros HR HG HN HX HY. destruct (reach_inv h HR) as (HI&_). rewrite expected_size in HN.
  pose proof (entries_functional wrapn clean h pa oa la HI HG HN) as F. destruct HG as (HO&_).
  assert (L : forall z, listed h pa oa la k z -> In (k, z) (entries h pa oa la)).
  { intros z (comps&i&o&n&Hp&H1&H2&H3). unfold entries. rewrite !in_app_iff, !in_keys.
    apply (tab_writes h pa oa la comps i o n z HI HO Hp H1) in H2. destruct Hp as [<-|[<-|[<-|[]]]]; eauto 10. }
  eapply F; eauto.
Qed.
Print Assumptions C28_names_unambiguous.

(** ** C28: cameras *)
(** Camera [c] is the [i]-th camera of the group [g]. *)
Definition camera_no (h : heapn) (g : oid) (i : nat) (c : oid) : Prop :=
  exists b cs, objs h g = Some b /\ okd b = KGroup cs /\ nth_error cs i = Some c.
Definition cycled (l : list oid) (i : nat) (o : oid) : Prop := nth_error l (i mod List.length l) = Some o.
Theorem C28_cameras h pa oa la h1 P h2 : reach h -> group_good h pa oa la -> 0 < expected_cameras pa oa la ->
  comp_list pa <> [] -> comp_list oa <> [] -> comp_list la <> [] ->
  new_group wrapn litn h pa oa la = (h1, true) -> later P h1 h2 ->
  (forall i, i < expected_cameras pa oa la <-> exists c, camera_no h2 (next h) i c) /\
  forall i c, camera_no h2 (next h) i c -> (forall p, P p -> not_loading c p) ->
    exists p o l, cycled (comp_list pa) i p /\ cycled (comp_list oa) i o /\ cycled (comp_list la) i l /\ cam_at h2 c p o l.
Proof.
  intros HR HG HN NP NO NL HE HL. destruct (reach_inv h HR) as (HI&HC). rewrite expected_size in *.
  destruct (new_group_spec wrapn litn wrapn_ok clean h pa oa la h1 HI HC HG HN HE) as (b&cs&E&K&_&_&S).
  destruct (S NP NO NL) as (LC&SC). assert (R1 : reach h1) by exact (Rstep wrapn litn h (OGroup pa oa la) h1 HR HG HE).
  destruct (later_group P h1 h2 (next h) b cs R1 HL E K) as (b2&E2&(K2&_&_)).
  assert (CN : forall i c, camera_no h2 (next h) i c <-> nth_error cs i = Some c).
  { intros i c. split; [intros (b'&cs'&X&Y&Z)|intros X; exists b2, cs; split; [exact E2|split; congruence]].
    rewrite E2 in X; inversion X; subst b'. rewrite K2, K in Y. inversion Y; subst cs'. exact Z. }
  split.
  - intros i. rewrite <- LC. rewrite <- nth_error_Some. split.
    + destruct (nth_error cs i) as [c|] eqn:EN; [|congruence]. intros _. exists c. apply CN, EN.
    + intros (c&Hc) X. apply CN in Hc. congruence.
  - intros i c Hc HP. apply CN in Hc. destruct (SC i c Hc) as (p&o&l&X1&X2&X3&(bc&Ec&Kc)).
    exists p, o, l. split; [exact X1|split; [exact X2|split; [exact X3|]]].
    destruct (later_stays P h1 h2 c R1 HL HP bc Ec) as (bc2&Ec2&(Kc2&_)); [rewrite Kc; exact I|]. exists bc2. split; congruence.
Qed.
Print Assumptions C28_cameras.

(** ** C28: one parameter, many names *)
(** A component of camera number [i], and its parameter [n]. *)
Inductive component_of (h : heapn) (pa oa la : oid + list oid) (i : nat) : list oid -> oid -> name -> Prop :=
| COproj p n : cycled (comp_list pa) i p -> In n pnames -> component_of h pa oa la i (comp_list pa) p n
| COorient o k n : cycled (comp_list oa) i o -> orient_at h o k -> In n (onames k) -> component_of h pa oa la i (comp_list oa) o n
| COlens l k n : cycled (comp_list la) i l -> lens_at h l k -> In n (lnames k) -> component_of h pa oa la i (comp_list la) l n.

Lemma base_sim (h h' : heapn) : sim h h' -> base_keep h h'.
Proof. intros S x b E _. destruct (sim_fwd _ _ _ _ S E) as (b'&E'&(K&_&_&L)). exists b'. split; [exact E'|split; [exact K|intros _; exact L]]. Qed.
Lemma base_set h o n a h' : Inv wrapn clean h -> set_attr wrapn h o n a = (h', true) -> base_keep h h'.
Proof.
  intros HI HS. destruct (objs h o) as [b|] eqn:E; [|unfold set_attr in HS; rewrite E in HS; discriminate].
  destruct (assoc n (table b)) as [l|] eqn:T.
  - apply base_sim. eapply (set_attr_mem wrapn wrapn_ok h o n a l h' HI); [exists b; auto|exact HS].
  - unfold set_attr in HS. rewrite E, T in HS. inversion HS; subst h'. intros x b0 E0 _. cbn [objs set_obj].
    destruct (Nat.eqb_spec x o) as [->|N]; [|exists b0; auto].
    rewrite E in E0; inversion E0; subst b0. eexists. split; [reflexivity|]. auto.
Qed.
Lemma base_set_all c vars : forall h h', Inv wrapn clean h -> set_all wrapn h c vars = (h', true) -> base_keep h h'.
Proof.
  induction vars as [|[n a] vars IH]; intros h h' HI HR.
  - inversion HR; subst. apply base_keep_refl.
  - cbn [set_all] in HR. apply bind_ok in HR. destruct HR as (h1&E1&HR).
    eapply base_keep_trans; [eapply base_set; eauto|]. eapply IH; [|exact HR]. eapply Inv_set_attr; eauto using wrapn_ok.
Qed.
Lemma base_made (h h' : heapn) c p o l : not_base h c -> sharing_ok h l p -> camera_made h h' c p o l -> base_keep h h'.
Proof.
  intros NB (bl&kl&El&Kl&SH) (_&F&_) x b E K. assert (N : x <> c) by (intros ->; apply (NB b E K)).
  destruct (F x b E N) as (b'&E'&K'&A&T&T2). exists b'. split; [exact E'|split; [exact K'|]]. intros NL.
  destruct (Nat.eq_dec x l) as [->|Nx]; [|apply T; auto]. rewrite E in El; inversion El; subst bl.
  destruct (okd b) as [| |lk| | |] eqn:Kb; try discriminate. destruct lk.
  - apply T. right. intros (b2&k2&X&Y&Z). rewrite E in X; inversion X; subst. congruence.
  - destruct SH as (SH&_); [congruence|]. rewrite T2; auto; [destruct SH; congruence|]. exists b, Brown. split; [exact E|split; [exact Kb|discriminate]].
  - destruct SH as (SH&_); [congruence|]. rewrite T2; auto; [destruct SH; congruence|]. exists b, ABC. split; [exact E|split; [exact Kb|discriminate]].
Qed.
Lemma exec_base h p h' : reach h -> op_ok h p -> exec wrapn litn h p = (h', true) -> base_keep h h'.
Proof.
  intros HRc HO HR. destruct (reach_inv h HRc) as (HI&HC). assert (NC : forall x, ~ clean x) by (intros y []).
  destruct p as [k vals|k vals fr|k vals|p o l|pa oa la|o n a|o n v|ord o vals|rnd ord o|ord o|c f]; cbn [Param.exec op_ok] in *.
  - eapply grown_base_keep, new_orient_grown; eauto using wrapn_ok.
  - eapply grown_base_keep, new_proj_grown; eauto.
  - eapply grown_base_keep, new_lens_grown; eauto using wrapn_ok.
  - eapply new_camera_cam; eauto using wrapn_ok.
  - eapply new_group_cam; eauto using wrapn_ok.
  - eapply base_set; eauto.
  - apply base_sim. eapply set_default_sim; eauto using wrapn_ok.
  - destruct (objs h o) as [b|] eqn:E; [|unfold set_fit in HR; rewrite E in HR; discriminate].
    destruct (set_fit_spec wrapn wrapn_ok ord clean h o vals h' b HO HI NC E HR) as (?&?&A&S&_). apply base_sim; exact S.
  - destruct (objs h o) as [b|] eqn:E; [|unfold sample, stats_op in HR; rewrite E in HR; discriminate].
    destruct (stats_spec wrapn wrapn_ok rnd ord clean h o h' b HO HI NC E HR) as (?&?&A&S&_). apply base_sim; exact S.
  - destruct (objs h o) as [b|] eqn:E; [|unfold set_to_mean, stats_op in HR; rewrite E in HR; discriminate].
    destruct (stats_spec wrapn wrapn_ok (fun _ m _ => m) ord clean h o h' b HO HI NC E HR) as (?&?&A&S&_). apply base_sim; exact S.
  - destruct HO as (b&p&o&l&E&K&NS). unfold load in HR. rewrite E in HR.
    assert (NB : not_base h c). { intros b' E'. rewrite E in E'; inversion E'; subst. rewrite K. intros X; exact X. }
    assert (LT : c < next h) by (eapply Inv_objs_lt; eauto).
    destruct (load_steps wrapn litn wrapn_ok clean h c (attrs b) f h' HI NB LT HR) as
      (h1&h2&h3&h4&E1&E2&E3&E4&E5&I3&SH&NB3&LT3&I4&CM&N1&N2&N3&G1&G2&G3).
    eapply base_keep_trans; [eapply grown_base_keep; exact G1|]. eapply base_keep_trans; [eapply grown_base_keep; exact G2|].
    eapply base_keep_trans; [eapply grown_base_keep; exact G3|]. eapply base_keep_trans; [eapply base_made; [exact NB3|exact SH|exact CM]|].
    eapply base_set_all; eauto.
Qed.
Lemma later_base P h h' : reach h -> later P h h' -> base_keep h h'.
Proof.
  intros HR HL. induction HL as [h|h h1 p h2 HL IH HO HPp HE]; [apply base_keep_refl|].
  eapply base_keep_trans; [exact (IH HR)|]. eapply exec_base; eauto. eapply later_reach; eauto.
Qed.
Lemma component_alias h pa oa la h1 P h2 i c comps o n : reach h -> group_good h pa oa la -> 0 < expected_cameras pa oa la ->
  comp_list pa <> [] -> comp_list oa <> [] -> comp_list la <> [] ->
  new_group wrapn litn h pa oa la = (h1, true) -> later P h1 h2 ->
  camera_no h2 (next h) i c -> (forall p, P p -> not_loading c p) -> component_of h pa oa la i comps o n ->
  reads h2 c n (Loc o n) /\ reads h2 (next h) (group_name (List.length comps) (i mod List.length comps) n) (Loc o n).
Proof.
  intros HR HG HN NP NO NL HE HL HC HP HK. destruct (reach_inv h HR) as (HI&HCI).
  assert (R1 : reach h1) by exact (Rstep wrapn litn h (OGroup pa oa la) h1 HR HG HE).
  assert (R2 : reach h2) by exact (later_reach P h1 h2 R1 HL).
  destruct (C28_cameras h pa oa la h1 P h2 HR HG HN NP NO NL HE HL) as (_&CAM). destruct (CAM i c HC HP) as (p&oo&l&C1&C2&C3&CA).
  destruct (C36_aliases h2 c p oo l n R2 CA) as (A1&A2&A3&_).
  assert (BK : base_keep h h2).
  { eapply base_keep_trans; [|exact (later_base P h1 h2 R1 HL)]. exact (exec_base h (OGroup pa oa la) h1 HR HG HE). }
  assert (W : writes h o n (Loc o n) /\ In comps (parts pa oa la) /\ nth_error comps (i mod List.length comps) = Some o /\ reads h2 c n (Loc o n)).
  { destruct HG as (HO&_). pose proof HO as (O1&O2&O3). unfold cycled in *. destruct HK as [p' n X1 X2|o' k n X1 X2 X3|l' k n X1 X2 X3].
    - assert (p' = p) by congruence. subst p'. destruct (O1 p (nth_error_In _ _ X1)) as (pk&HPK). split; [|split; [left; reflexivity|split; [exact X1|apply A1; exact X2]]].
      apply (tab_writes h pa oa la (comp_list pa) (i mod List.length (comp_list pa)) p n (Loc p n) HI HO); [left; reflexivity|exact X1|].
      rewrite (tab_proj wrapn clean h p pk HI HPK). apply in_self. auto.
    - assert (o' = oo) by congruence. subst o'. split; [|split; [right; left; reflexivity|split; [exact X1|]]].
      + apply (tab_writes h pa oa la (comp_list oa) (i mod List.length (comp_list oa)) oo n (Loc oo n) HI HO); [right; left; reflexivity|exact X1|].
        rewrite (tab_orient wrapn clean h oo k HI X2). apply in_self. auto.
      + apply (A2 k); [|exact X3]. destruct X2 as (b&E&K). destruct (BK oo b E) as (b'&E'&K'&_); [rewrite K; exact I|]. exists b'. split; congruence.
    - assert (l' = l) by congruence. subst l'. split; [|split; [right; right; left; reflexivity|split; [exact X1|]]].
      + apply (tab_writes h pa oa la (comp_list la) (i mod List.length (comp_list la)) l n (Loc l n) HI HO); [right; right; left; reflexivity|exact X1|].
        destruct (tab_lens wrapn clean h l k HI X2) as [T|(q&NK&T&_)]; rewrite T; [apply in_self; auto|].
        unfold lens_table. apply in_app_iff. left. apply in_self. auto.
      + apply (A3 k); [|exact X3]. destruct X2 as (b&E&K). destruct (BK l b E) as (b'&E'&K'&_); [rewrite K; exact I|]. exists b'. split; congruence. }
  destruct W as (W&HIn&HNth&RD). split; [exact RD|].
  assert (LS : listed h pa oa la (group_name (List.length comps) (i mod List.length comps) n) (Loc o n)).
  { exists comps, (i mod List.length comps), o, n. auto. }
  apply (C28_names h pa oa la h1 P h2 _ _ HR HG HN HE HL) in LS as (b2&E2&T2).
  exists b2. split; [exact E2|split; [|exact T2]].
  rewrite expected_size in HN.
  destruct (new_group_spec wrapn litn wrapn_ok clean h pa oa la h1 HI HCI HG HN HE) as (b&cs&E&K&AT&_).
  destruct (later_group P h1 h2 (next h) b cs R1 HL E K) as (b2'&E2'&(K2&TT&AA)). rewrite E2 in E2'; inversion E2'; subst b2'.
  apply AA; [|rewrite AT; reflexivity]. rewrite <- TT. apply assoc_in in T2. apply in_map_iff. eexists; split; [|exact T2]. reflexivity.
Qed.
(** Assigning through the group is seen by the camera, and the other way round. *)
Theorem C28_shared h pa oa la h1 P h2 i c comps o n v h3 : reach h -> group_good h pa oa la -> 0 < expected_cameras pa oa la ->
  comp_list pa <> [] -> comp_list oa <> [] -> comp_list la <> [] ->
  new_group wrapn litn h pa oa la = (h1, true) -> later P h1 h2 ->
  camera_no h2 (next h) i c -> (forall p, P p -> not_loading c p) -> component_of h pa oa la i comps o n ->
  let k := group_name (List.length comps) (i mod List.length comps) n in
  get_num h2 (next h) k = get_num h2 c n /\
  (set_attr wrapn h2 (next h) k (ANum v) = (h3, true) -> get_num h3 c n = Some (in_range h2 (Loc o n) v)) /\
  (set_attr wrapn h2 c n (ANum v) = (h3, true) -> get_num h3 (next h) k = Some (in_range h2 (Loc o n) v)).
Proof.
  intros HR HG HN NP NO NL HE HL HC HP HK k.
  destruct (component_alias h pa oa la h1 P h2 i c comps o n HR HG HN NP NO NL HE HL HC HP HK) as (RC&RG). fold k in RG.
  assert (R1 : reach h1) by exact (Rstep wrapn litn h (OGroup pa oa la) h1 HR HG HE).
  assert (R2 : reach h2) by exact (later_reach P h1 h2 R1 HL).
  split; [rewrite (reads_num _ _ _ _ RC), (reads_num _ _ _ _ RG); reflexivity|]. split; intros HS.
  - exact (C36_read_your_write h2 (next h) k (Loc o n) v h3 c n R2 (reads_writes _ _ _ _ RG) RC HS).
  - exact (C36_read_your_write h2 c n (Loc o n) v h3 (next h) k R2 (reads_writes _ _ _ _ RC) RG HS).
Qed.
Print Assumptions C28_shared.

(** ** Example *)
Example C28_names_example : group_name 1 0 "tilt_deg" = "tilt_deg" /\ group_name 2 1 "tilt_deg" = "C1_tilt_deg" /\ group_name 13 12 "tilt_deg" = "C12_tilt_deg".
Proof. repeat split. Qed.
(** A stereo pair: one projection (object 0), two orientations (1, 2), one lens (3); the
    group is object 4, its cameras are 5 and 7. *)
Definition stereo_ops : list (op Q) :=
  [OProj Rectilinear pvals false; OOrient TiltHeading ovals; OOrient TiltHeading (dict [("pos_x_m", 2#1)]%Q); OLens Brown none].
Definition stereoq : heap Q := hist empty stereo_ops.
Definition stereo_group : heap Q := fst (new_group wrapq idq stereoq (inl 0) (inr [1; 2]) (inl 3)).
Lemma group_q h pa oa la : snd (new_group wrapq idq h pa oa la) = true ->
  new_group wrapn litn (floats h) pa oa la = (floats (fst (new_group wrapq idq h pa oa la)), true).
Proof. intros H. rewrite (new_group_map litn wrapq wrapn idq litn wrap_map (fun q => eq_refl)). unfold rmap. rewrite H. reflexivity. Qed.
Lemma stereo_reach : reach (floats stereoq).
Proof. apply hist_reach; [unfold stereo_ops; stand|vm]. Qed.
Lemma stereo_good : group_good (floats stereoq) (inl 0) (inr [1; 2]) (inl 3).
Proof.
  refine (op_okb_ok (floats stereoq) (OGroup (inl 0) (inr [1; 2]) (inl 3)) _ I _).
  - intros x b E. exact (Inv_objs_lt wrapn clean _ (proj1 (reach_inv _ stereo_reach)) x b E).
  - rewrite (okb_map stereoq (OGroup (inl 0) (inr [1; 2]) (inl 3))); [vm|constructor].
Qed.
Lemma camera_no_q h g i c : match kind_at h g with Some (KGroup cs) => nth_error cs i | _ => None end = Some c -> camera_no (floats h) g i c.
Proof.
  unfold kind_at, camera_no. cbn [hmap objs]. destruct (objs h g) as [b|]; [|discriminate]. cbn [option_map]. intros H.
  destruct (okd b) as [| | | | |cs] eqn:K; try discriminate. exists (omap litn b), cs. split; [reflexivity|split; [exact K|exact H]].
Qed.
Example C28_example : let h := floats stereoq in let pa := inl 0 in let oa := inr [1; 2] in let la := inl 3 in
  reach h /\ group_good h pa oa la /\ expected_cameras pa oa la = 2 /\ next h = 4 /\
  new_group wrapn litn h pa oa la = (floats stereo_group, true) /\ later anything (floats stereo_group) (floats stereo_group) /\
  camera_no (floats stereo_group) 4 1 7 /\ component_of h pa oa la 1 [1; 2] 2 "heading_deg" /\
  group_name 2 (1 mod 2) "heading_deg" = "C1_heading_deg" /\
  exists h3, set_attr wrapn (floats stereo_group) 4 "C1_heading_deg" (ANum (litn (725#1))) = (h3, true) /\
    get_num h3 7 "heading_deg" = Some (litn (5#1)) /\ get_num h3 5 "heading_deg" = Some (litn (0#1)).
Proof.
  intros h pa oa la. split; [exact stereo_reach|split; [exact stereo_good|split; [reflexivity|split; [vm|]]]].
  split; [apply group_q; vm|split; [apply Lrefl|]]. split; [apply camera_no_q; vm|].
  split; [eapply (COorient h pa oa la 1 2 TiltHeading); [reflexivity|apply orient_q; vm|cbn; tauto]|].
  split; [reflexivity|]. eexists. split; [apply (set_q stereo_group 4 "C1_heading_deg" (ANum (725#1))); vm|].
  split; rewrite num_q; vm.
Qed.

(** ** Counterexamples *)
(** After a file has been loaded into a camera of the group, the group's names still
    denote the components that camera no longer uses. *)
Theorem C28_load_refuted : exists h pa oa la h1 h2 c n v h3, reach h /\ group_good h pa oa la /\ 0 < expected_cameras pa oa la /\
  new_group wrapn litn h pa oa la = (h1, true) /\ later anything h1 h2 /\ camera_no h2 (next h) 1 c /\
  component_of h pa oa la 1 (comp_list oa) 2 n /\
  set_attr wrapn h2 (next h) (group_name 2 1 n) (ANum v) = (h3, true) /\ get_num h3 c n <> Some v /\ get_num h3 c n = get_num h2 c n.
Proof.
  set (f := match save stereo_group 7 with Some f => f | None => File Rectilinear NoDist [] end).
  set (hl := fst (load wrapq idq stereo_group 7 f)).
  exists (floats stereoq), (inl 0), (inr [1; 2]), (inl 3), (floats stereo_group), (floats hl), 7, "tilt_deg", (litn (10#1)).
  eexists. split; [exact stereo_reach|split; [exact stereo_good|split; [cbn; lia|]]].
  split; [apply group_q; vm|]. split.
  { eapply (Lstep anything _ _ (OLoad 7 (fmap litn f)) _ (Lrefl _ _)); [|exact I|].
    - refine (op_okb_ok (floats stereo_group) (OLoad 7 (fmap litn f)) _ I _).
      + intros x b E. assert (RG : reach (floats stereo_group)).
        { refine (Rstep wrapn litn (floats stereoq) (OGroup (inl 0) (inr [1; 2]) (inl 3)) _ stereo_reach stereo_good _). apply group_q; vm. }
        exact (Inv_objs_lt wrapn clean _ (proj1 (reach_inv _ RG)) x b E).
      + rewrite (okb_map stereo_group (OLoad 7 f)); [vm|constructor].
    - rewrite (exec_map litn wrapq wrapn idq litn wrap_map (fun q => eq_refl) (OLoad 7 f) (OLoad 7 (fmap litn f)) stereo_group); [|constructor].
      unfold rmap. cbn [exec]. replace (snd (load wrapq idq stereo_group 7 f)) with true by vm. reflexivity. }
  split; [apply camera_no_q; vm|].
  split; [eapply (COorient (floats stereoq) (inl 0) (inr [1; 2]) (inl 3) 1 2 TiltHeading); [reflexivity|apply orient_q; vm|cbn; tauto]|].
  split; [replace (next (floats stereoq)) with 4 by vm; apply (set_q hl 4 "C1_tilt_deg" (ANum (10#1))); vm|].
  split; rewrite ?num_q.
  - replace (get_num (fst _) 7 "tilt_deg") with (Some (85#1)%Q) by vm. cbn [option_map]. apply lit_ne. qne.
  - apply (f_equal (option_map litn)). vm.
Qed.
Print Assumptions C28_load_refuted.
