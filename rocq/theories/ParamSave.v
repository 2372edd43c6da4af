(** * Saving and loading: what is stored and what is read back *)
Require Import List Bool String Arith NArith QArith Lia.
From Verif Require Import Projection Param ParamFacts ParamOps ParamSteps ParamReach ParamCam ParamLaws ParamTotal.
Import ListNotations.
Open Scope nat_scope.
Open Scope string_scope.

Section Save.
Context {V : Type} (wrapv : V -> option V) (lit : Q -> V).
Hypothesis wrap_ok : forall v v', wrapv v = Some v' -> wrapv v' = None.
Notation heap := (heap V). Notation obj := (obj V). Notation param := (param V). Notation arg := (arg V).
Notation Inv := (Inv wrapv). Notation norm := (norm wrapv).
Implicit Types (h : heap) (b : obj).

Lemma wrapped_loc_sim h h' l : sim h h' -> wrapped_loc h' l = wrapped_loc h l.
Proof.
  intros S. unfold wrapped_loc. destruct (objs h (l_owner l)) as [b|] eqn:E.
  - destruct (sim_fwd _ _ _ _ S E) as (b'&E'&(K&_)). rewrite E', K. reflexivity.
  - destruct (objs h' (l_owner l)) as [b'|] eqn:E'; [|reflexivity]. destruct (sim_back _ _ _ _ S E') as (b&E2&_). congruence.
Qed.
Lemma writes_sim h h' o n l : sim h h' -> writes h o n l -> writes h' o n l.
Proof. intros S (b&E&T). destruct (sim_fwd _ _ _ _ S E) as (b'&E'&(_&_&T'&_)). exists b'. rewrite T'. auto. Qed.

(** Assigning a list of numbers by name. *)
Lemma set_all_get (at_ : name -> loc) c vars : (forall n, l_name (at_ n) = n) -> forall h h', Inv clean h ->
  (forall n a, In (n, a) vars -> n <> "focallength_px" /\ writes h c n (at_ n) /\
     exists v, a = ANum v /\ (wrapped_loc h (at_ n) = true -> wrapv v = None)) ->
  NoDup (map fst vars) -> set_all wrapv h c vars = (h', true) ->
  sim h h' /\ Inv clean h' /\ (forall n v, In (n, ANum v) vars -> rdl h' (at_ n) = Some v) /\
  (forall x, (forall n, In n (map fst vars) -> x <> at_ n) -> mem h' x = mem h x).
Proof.
  intros HA. induction vars as [|[n a] vars IH]; intros h h' HI HV ND HR.
  - inversion HR; subst. split; [apply sim_refl|]. split; [exact HI|]. split; [intros n v []|auto].
  - cbn [set_all] in HR. apply bind_ok in HR. destruct HR as (h1&E1&HR).
    destruct (HV n a (or_introl eq_refl)) as (NF&HW&v&->&HN).
    destruct (set_attr_mem wrapv wrap_ok h c n (ANum v) (at_ n) h1 HI HW E1) as (S1&M1&M2).
    assert (FO : forall x, follows (at_ n) x = false).
    { intros x. unfold follows. rewrite HA. destruct (String.eqb_spec n "focallength_px"); [contradiction|].
      destruct (Nat.eqb _ _); reflexivity. }
    inversion ND as [|n' ns NI ND']; subst.
    destruct (IH h1 h') as (S2&I2&G2&O2); auto.
    + eapply Inv_set_attr; eauto.
    + intros m a Hm. destruct (HV m a (or_intror Hm)) as (X1&X2&w&X3&X4). split; [exact X1|]. split; [eapply writes_sim; eauto|].
      exists w. split; [exact X3|]. rewrite (wrapped_loc_sim h h1 _ S1). exact X4.
    + split; [eapply sim_trans; eauto|]. split; [exact I2|]. split.
      * intros m w [X|X]; [|apply G2; exact X]. inversion X; subst m w. unfold rdl. rewrite O2.
        -- rewrite M1. destruct (wrapped_loc h (at_ n)) eqn:W; [|reflexivity]. unfold ParamOps.norm. cbn [rd value assign].
           rewrite (HN eq_refl). reflexivity.
        -- intros m Hm X2. apply NI. assert (m = n) by (rewrite <- (HA m), <- (HA n); congruence). subst m. exact Hm.
      * intros x Hx. rewrite O2.
        -- rewrite M2, FO; [reflexivity|]. apply Hx. left; reflexivity.
        -- intros m Hm. apply Hx. right; exact Hm.
Qed.

(** What save stores. *)
Lemma save_vars h c p o l g pk k lk b f : objs h c = Some b -> okd b = KCam p o l -> wired_cam h b p o l g pk k lk -> save h c = Some f ->
  file_proj f = pk /\ file_lens f = lk /\
  file_vars f = map (fun n => (n, of_opt (rdl h (Loc (owner_of g p o l k lk n) n))))
                    (filter (fun n => negb (String.eqb n "focallength_px")) (all_names k lk)).
Proof.
  intros E K ((bp&Ep&Kp)&(bo&Eo&Ko)&(bl&El&Kl)&_&_&T&A) HS. unfold save in HS. rewrite E, K, Ep, El, Kp, Kl in HS.
  inversion HS; subst f. clear HS. cbn [file_proj file_lens file_vars]. split; [reflexivity|split; [reflexivity|]].
  rewrite T, cam_table_locs.
  assert (G : forall ns, (forall n, In n ns -> In n (all_names k lk)) ->
    map (fun nl : name * loc => (fst nl, match get_attr h c (fst nl) with Some a => a | None => ANone end))
        (filter (fun nl => negb (String.eqb (fst nl) "focallength_px")) (map (fun n => (n, Loc (owner_of g p o l k lk n) n)) ns)) =
    map (fun n => (n, of_opt (rdl h (Loc (owner_of g p o l k lk n) n)))) (filter (fun n => negb (String.eqb n "focallength_px")) ns)).
  { induction ns as [|n ns IH]; intros HN; [reflexivity|]. cbn [map filter fst].
    destruct (negb (String.eqb n "focallength_px")); cbn [map fst]; rewrite IH by (intros m Hm; apply HN; right; exact Hm); [|reflexivity].
    f_equal. f_equal. unfold get_attr. rewrite E, (A n) by (apply HN; left; reflexivity). rewrite T, cam_table_assoc.
    destruct (mem_name_spec n (all_names k lk)) as [X|X]; [reflexivity|]. exfalso. apply X, HN. left; reflexivity. }
  apply G. auto.
Qed.
Lemma all_names_nodup k lk : NoDup (all_names k lk).
Proof. destruct k, lk; repeat (constructor; [cbn; intros X; repeat destruct X as [X|X]; try discriminate; contradiction|]); constructor. Qed.
Lemma nodup_filter {A} (f : A -> bool) l : NoDup l -> NoDup (filter f l).
Proof.
  induction 1 as [|x l NI _ IH]; [constructor|]. cbn. destruct (f x); [constructor|]; auto. intros X. apply NI. apply filter_In in X. tauto.
Qed.

(** Everything that is saved is read back. *)
Lemma load_saved h c p o l f h2 c2 b2 h3 : Inv clean h -> CamInv h -> cam_at h c p o l -> orient_at h o TiltHeading ->
  (forall n l, writes h c n l -> rdl h l <> None) -> save h c = Some f ->
  Inv clean h2 -> CamInv h2 -> objs h2 c2 = Some b2 -> not_base h2 c2 -> no_shadow (attrs b2) f -> load wrapv lit h2 c2 f = (h3, true) ->
  exists p' o' l', cam_at h3 c2 p' o' l' /\
    (forall k, proj_at h p k -> proj_at h3 p' k) /\ orient_at h3 o' TiltHeading /\ (forall k, lens_at h l k -> lens_at h3 l' k) /\
    (forall n, n <> "focallength_px" -> get_num h3 c2 n = get_num h c n \/ (forall x, ~ writes h c n x)) /\
    (forall b n, objs h3 p' = Some b -> attrs b n = None).
Proof.
  intros HI HC (b&E&K) HO HF HS HI2 HC2 E2 NB2 NS2 HR.
  destruct (HC c b p o l E K) as (g&pk&k&lk&W). destruct (save_vars h c p o l g pk k lk b f E K W HS) as (F1&F2&F3).
  pose proof W as ((bp&Ep&Kp)&(bo&Eo&Ko)&(bl&El&Kl)&_&_&T&A).
  assert (EK : k = TiltHeading) by (destruct HO as (bo'&Eo'&Ko'); congruence). subst k.
  assert (LT : c2 < next h2) by (eapply Inv_objs_lt; eauto).
  unfold load in HR. rewrite E2 in HR.
  destruct (load_cam wrapv lit wrap_ok clean h2 c2 (attrs b2) f h3 HI2 HC2 NB2 LT NS2 HR)
    as (h4&I4&V4&SA&(b4&E4&K4&T4)&P4&O4&L4&U4).
  destruct (V4 c2 b4 _ _ _ E4 K4) as (g4&pk4&k4&lk4&_&(bo4&Eo4&Ko4)&(bl4&El4&Kl4)&_&_&_&A4).
  assert (k4 = TiltHeading) by (destruct O4 as (bx&Ex&Kx); congruence). subst k4.
  assert (lk4 = lk) by (destruct L4 as (bx&Ex&Kx); congruence). subst lk4.
  rewrite F2 in T4. set (p4 := next h2) in *. set (o4 := S (S p4)) in *. set (l4 := S p4) in *. set (gg := S o4) in *.
  set (at4 := fun n => Loc (owner_of gg p4 o4 l4 TiltHeading lk n) n).
  assert (W4 : forall n, In n (all_names TiltHeading lk) -> writes h4 c2 n (at4 n)).
  { intros n Hn. exists b4. split; [exact E4|]. rewrite T4, cam_table_assoc. destruct (mem_name_spec n (all_names TiltHeading lk)); [reflexivity|contradiction]. }
  assert (WH : forall n, In n (all_names TiltHeading lk) -> writes h c n (Loc (owner_of g p o l TiltHeading lk n) n)).
  { intros n Hn. exists b. split; [exact E|]. rewrite T, cam_table_assoc. destruct (mem_name_spec n (all_names TiltHeading lk)); [reflexivity|contradiction]. }
  assert (IV : forall n a, In (n, a) (file_vars f) <-> n <> "focallength_px" /\ In n (all_names TiltHeading lk) /\ a = of_opt (rdl h (Loc (owner_of g p o l TiltHeading lk n) n))).
  { intros n a. rewrite F3, in_map_iff. split.
    - intros (m&X&Y). inversion X; subst m a. apply filter_In in Y. destruct Y as (Y1&Y2). split; [|split; [exact Y1|reflexivity]].
      destruct (String.eqb_spec n "focallength_px"); [discriminate|assumption].
    - intros (X1&X2&X3). exists n. split; [congruence|]. apply filter_In. split; [exact X2|]. destruct (String.eqb_spec n "focallength_px"); [contradiction|reflexivity]. }
  destruct (set_all_get at4 c2 (file_vars f) (fun n => eq_refl) h4 h3 I4) as (S3&I3&G3&_).
  - intros n a Hn. apply IV in Hn. destruct Hn as (N1&N2&N3). split; [exact N1|]. split; [apply W4; exact N2|].
    destruct (rdl h (Loc (owner_of g p o l TiltHeading lk n) n)) as [v|] eqn:EV; [|exfalso; apply (HF n _ (WH n N2)); exact EV].
    exists v. split; [exact N3|]. intros HW.
    (* the saved angle is in range already *)
    assert (EN : n = "heading_deg").
    { unfold wrapped_loc, at4 in HW. cbn [l_owner l_name] in HW. destruct (objs h4 (owner_of gg p4 o4 l4 TiltHeading lk n)) as [bw|] eqn:Ew; [|discriminate].
      destruct (okd bw) as [|kw| | | |] eqn:Kw; try discriminate. apply String.eqb_eq in HW. subst n. destruct kw; [reflexivity|].
      exfalso. cbn in N2. destruct lk; cbn in N2; repeat destruct N2 as [N2|N2]; try discriminate; contradiction. }
    subst n. assert (WR : wrapped_loc h (Loc o "heading_deg") = true) by (unfold wrapped_loc; cbn [l_owner l_name]; rewrite Eo, Ko; reflexivity).
    destruct (HI o bo Eo) as (_&_&F). specialize (F (fun H => H)). unfold ParamFacts.fresh in F. rewrite Ko in F. destruct F as (_&(w&R&Wv)&_).
    change (owner_of g p o l TiltHeading lk "heading_deg") with o in EV. cbn [wrapped_name] in R. congruence.
  - rewrite F3, map_map. cbn [fst]. rewrite map_id. apply nodup_filter, all_names_nodup.
  - exact SA.
  - destruct (sim_fwd _ _ _ _ S3 E4) as (b3&E3&(K3&A3&T3&_)).
    exists p4, o4, l4. split; [exists b3; split; congruence|].
    assert (TR : forall x b0 k0, objs h4 x = Some b0 -> okd b0 = k0 -> exists b1, objs h3 x = Some b1 /\ okd b1 = k0).
    { intros x b0 k0 X1 X2. destruct (sim_fwd _ _ _ _ S3 X1) as (b1&Y1&(Y2&_)). exists b1. split; congruence. }
    split; [intros k0 (bp0&Ep0&Kp0)|split; [|split; [intros k0 (bl0&El0&Kl0)|split]]].
    + destruct P4 as (bq&Eq&Kq). destruct (TR _ _ _ Eq Kq) as (b1&Y1&Y2). exists b1. split; congruence.
    + destruct O4 as (bq&Eq&Kq). destruct (TR _ _ _ Eq Kq) as (b1&Y1&Y2). exists b1. split; congruence.
    + destruct L4 as (bq&Eq&Kq). destruct (TR _ _ _ Eq Kq) as (b1&Y1&Y2). exists b1. split; congruence.
    + intros n NF. destruct (mem_name_spec n (all_names TiltHeading lk)) as [Hn|Hn].
      * left. assert (R1 : reads h c n (Loc (owner_of g p o l TiltHeading lk n) n)).
        { destruct (WH n Hn) as (bx&Ex&Tx). rewrite E in Ex; inversion Ex; subst bx. exists b. auto. }
        rewrite (reads_num _ _ _ _ R1).
        assert (R3 : reads h3 c2 n (at4 n)).
        { eapply reads_sim; [exact S3|]. destruct (W4 n Hn) as (bx&Ex&Tx). rewrite E4 in Ex; inversion Ex; subst bx. exists b4. split; [exact E4|]. split; [|exact Tx].
          apply A4; exact Hn. }
        rewrite (reads_num _ _ _ _ R3).
        destruct (rdl h (Loc (owner_of g p o l TiltHeading lk n) n)) as [v|] eqn:EV; [|exfalso; apply (HF n _ (WH n Hn)); exact EV].
        apply G3. apply IV. rewrite EV. auto.
      * right. intros x (bx&Ex&Tx). rewrite E in Ex; inversion Ex; subst bx. rewrite T, cam_table_assoc in Tx.
        destruct (mem_name_spec n (all_names TiltHeading lk)); [contradiction|discriminate].
    + intros b0 n E0. destruct (sim_back _ _ _ _ S3 E0) as (b1&E1&(_&A1&_)). rewrite A1. eapply U4; eauto.
Qed.
End Save.
