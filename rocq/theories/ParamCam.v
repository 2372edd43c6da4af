(** * Cameras keep their components; histories *)
Require Import List Bool String Arith NArith QArith Lia.
From Verif Require Import Projection Param ParamFacts ParamOps ParamSteps ParamReach.
Import ListNotations.
Open Scope nat_scope.
Open Scope string_scope.

Section Cam.
Context {V : Type} (wrapv : V -> option V) (lit : Q -> V).
Hypothesis wrap_ok : forall v v', wrapv v = Some v' -> wrapv v' = None.
Notation heap := (heap V). Notation obj := (obj V). Notation param := (param V). Notation arg := (arg V).
Notation op := (op V).
Notation run_cb := (run_cb wrapv).
Notation Inv := (Inv wrapv). Notation fresh := (fresh wrapv).
Notation exec := (exec wrapv lit).
Implicit Types (h : heap) (b : obj).

Definition proj_at h (p : oid) (k : pkind) : Prop := exists b, objs h p = Some b /\ okd b = KProj k.
Definition lens_at h (l : oid) (k : lkind) : Prop := exists b, objs h l = Some b /\ okd b = KLens k.
Definition cam_at h (c p o l : oid) : Prop := exists b, objs h c = Some b /\ okd b = KCam p o l.

(** The parameter dict of a camera. *)
Definition lens_tab (l p : oid) (k : lkind) : list (name * loc) :=
  match k with NoDist => [] | _ => lens_table l p k end.
Definition cam_names_table (g p o l : oid) (k : okind) (lk : lkind) : list (name * loc) :=
  dict_update (dict_update (dict_update (self_table g KGps) (map (fun n => (n, Loc p n)) pnames))
                           (self_table o (KOrient k))) (lens_tab l p lk).
Definition all_names (k : okind) (lk : lkind) : list name := gnames ++ pnames ++ onames k ++ lnames lk.
Definition owner_of (g p o l : oid) (k : okind) (lk : lkind) (n : name) : oid :=
  if mem_name n gnames then g else if mem_name n pnames then p else if mem_name n (onames k) then o else l.
Lemma cam_table_fst g p o l k lk : map fst (cam_names_table g p o l k lk) = all_names k lk.
Proof. destruct k, lk; reflexivity. Qed.
Lemma cam_table_locs g p o l k lk : cam_names_table g p o l k lk = map (fun n => (n, Loc (owner_of g p o l k lk n) n)) (all_names k lk).
Proof. destruct k, lk; reflexivity. Qed.
Lemma cam_table_assoc g p o l k lk n : assoc n (cam_names_table g p o l k lk) =
  if mem_name n (all_names k lk) then Some (Loc (owner_of g p o l k lk n) n) else None.
Proof. rewrite cam_table_locs. apply (assoc_map (fun n => Loc (owner_of g p o l k lk n) n)). Qed.

Definition wired_cam h b (p o l g : oid) (pk : pkind) (k : okind) (lk : lkind) : Prop :=
  proj_at h p pk /\ orient_at h o k /\ lens_at h l lk /\ (lk <> NoDist -> lens_on h l p) /\
  (exists bg, objs h g = Some bg /\ okd bg = KGps) /\ table b = cam_names_table g p o l k lk /\
  (forall n, In n (all_names k lk) -> attrs b n = None).
Definition CamInv h : Prop :=
  forall c b p o l, objs h c = Some b -> okd b = KCam p o l -> exists g pk k lk, wired_cam h b p o l g pk k lk.

(** ** Operations keep components *)
Definition base_keep h h' : Prop :=
  forall x b, objs h x = Some b -> base_kind (okd b) ->
    exists b', objs h' x = Some b' /\ okd b' = okd b /\ (lproj b <> None -> lproj b' = lproj b).
Lemma base_keep_refl h : base_keep h h. Proof. intros x b E _. exists b; auto. Qed.
Lemma base_keep_trans h1 h2 h3 : base_keep h1 h2 -> base_keep h2 h3 -> base_keep h1 h3.
Proof.
  intros A B x b E K. destruct (A x b E K) as (b2&E2&K2&L2). destruct (B x b2 E2) as (b3&E3&K3&L3); [rewrite K2; auto|].
  exists b3. split; [exact E3|split; [congruence|]]. intros N. rewrite L3, L2; auto. rewrite L2; auto.
Qed.
Lemma wired_cam_keep h h' b p o l g pk k lk : base_keep h h' -> wired_cam h b p o l g pk k lk -> wired_cam h' b p o l g pk k lk.
Proof.
  intros HB ((bp&Ep&Kp)&(bo&Eo&Ko)&(bl&El&Kl)&HL&(bg&Eg&Kg)&HT&HA).
  destruct (HB p bp Ep) as (bp'&Ep'&Kp'&_); [rewrite Kp; exact I|].
  destruct (HB o bo Eo) as (bo'&Eo'&Ko'&_); [rewrite Ko; exact I|].
  destruct (HB l bl El) as (bl'&El'&Kl'&Ll'); [rewrite Kl; exact I|].
  destruct (HB g bg Eg) as (bg'&Eg'&Kg'&_); [rewrite Kg; exact I|].
  split; [exists bp'; split; congruence|]. split; [exists bo'; split; congruence|]. split; [exists bl'; split; congruence|].
  split; [|split; [exists bg'; split; congruence|auto]].
  intros NK. destruct (HL NK) as (bx&kx&Ex&Kx&Nx&Lx). rewrite El in Ex; inversion Ex; subst bx.
  exists bl', kx. split; [exact El'|split; [congruence|split; [exact Nx|]]]. rewrite Ll'; congruence.
Qed.
(** Every camera of the new heap is an old one with the same table or satisfies the invariant. *)
Definition cam_keep h h' : Prop :=
  forall c b' p o l, objs h' c = Some b' -> okd b' = KCam p o l ->
    (exists b, objs h c = Some b /\ okd b = KCam p o l /\ table b' = table b /\
       (forall n, In n (map fst (table b)) -> attrs b n = None -> attrs b' n = None)) \/
    (exists g pk k lk, wired_cam h' b' p o l g pk k lk).
Lemma CamInv_keep h h' : CamInv h -> base_keep h h' -> cam_keep h h' -> CamInv h'.
Proof.
  intros HC HB HK c b' p o l E' K'. destruct (HK c b' p o l E' K') as [(b&E&K&T&A)|X]; [|exact X].
  destruct (HC c b p o l E K) as (g&pk&k&lk&W). exists g, pk, k, lk.
  destruct (wired_cam_keep h h' b p o l g pk k lk HB W) as (W1&W2&W3&W4&W5&W6&W7).
  split; [exact W1|]. split; [exact W2|]. split; [exact W3|]. split; [exact W4|]. split; [exact W5|]. split; [congruence|].
  intros n Hn. apply A; [|auto]. rewrite W6, cam_table_fst. exact Hn.
Qed.
Lemma sim_base_keep h h' : sim h h' -> base_keep h h'.
Proof. intros HS x b E _. destruct (sim_fwd _ _ _ _ HS E) as (b'&E'&(K&_&_&L)). exists b'. auto. Qed.
Lemma sim_cam_keep h h' : sim h h' -> cam_keep h h'.
Proof.
  intros HS c b' p o l E' K'. left. destruct (sim_back _ _ _ _ HS E') as (b&E&(K&A&T&_)). exists b.
  split; [exact E|split; [congruence|split; [exact T|]]]. intros n _. rewrite A. auto.
Qed.
Lemma CamInv_sim h h' : CamInv h -> sim h h' -> CamInv h'.
Proof. intros HC HS. eapply CamInv_keep; [exact HC|apply sim_base_keep; auto|apply sim_cam_keep; auto]. Qed.
Lemma grown_base_keep h h' k : grown h h' k -> base_keep h h'.
Proof. intros (_&_&F&_) x b E _. destruct (F x b E) as (b'&E'&(K&_&_&L)). exists b'. auto. Qed.
Lemma CamInv_grown h h' k : CamInv h -> base_kind k -> grown h h' k -> CamInv h'.
Proof.
  intros HC HB HG. eapply CamInv_keep; [exact HC|eapply grown_base_keep; eauto|].
  destruct HG as (N&(bk&Ek&Kk&_)&F&B). intros c b' p o l E' K'. left. destruct (Nat.eq_dec c (next h)) as [->|Nc].
  - rewrite Ek in E'; inversion E'; subst. rewrite K' in HB. contradiction.
  - destruct (B c b' E' Nc) as (b&E&(K&A&T&_)). exists b. split; [exact E|split; [congruence|split; [exact T|]]].
    intros n _. rewrite A. auto.
Qed.
Lemma set_attr_cases h o n a h' D : Inv D h -> set_attr wrapv h o n a = (h', true) ->
  sim h h' \/ exists b, objs h o = Some b /\ assoc n (table b) = None /\ h' = set_obj h o (add_attr b n a).
Proof.
  intros HI HR. unfold set_attr in HR. destruct (objs h o) as [b|] eqn:E; [|discriminate].
  destruct (assoc n (table b)) as [l|] eqn:Ha.
  - left. cbv zeta in HR. rewrite set_mem_same in HR.
    assert (HV : valid h l) by (eapply table_valid; eauto).
    assert (EC : callback (assign a (mem h l)) = cbk h l) by (destruct a; reflexivity).
    destruct (write_call wrapv wrap_ok D h l _ h' HI HV EC HR) as (_&_&S). exact S.
  - right. exists b. inversion HR; subst. auto.
Qed.
Lemma CamInv_set_attr D h o n a h' : Inv D h -> CamInv h -> set_attr wrapv h o n a = (h', true) -> CamInv h'.
Proof.
  intros HI HC HR. destruct (set_attr_cases h o n a h' D HI HR) as [S|(b&E&Ha&->)]; [eapply CamInv_sim; eauto|].
  eapply CamInv_keep; [exact HC| |].
  - intros x bx Ex _. cbn. destruct (Nat.eqb_spec x o) as [->|N]; [|exists bx; auto].
    rewrite E in Ex; inversion Ex; subst bx. eexists. split; [reflexivity|]. auto.
  - intros c b' p q l E' K'. left. cbn in E'. destruct (Nat.eqb_spec c o) as [->|N]; [|exists b'; auto].
    inversion E'; subst b'. exists b. split; [exact E|split; [exact K'|split; [reflexivity|]]].
    intros m Hm Am. cbn. destruct (String.eqb_spec m n) as [->|]; auto. exfalso. eapply assoc_none_fst; eauto.
Qed.
Lemma set_default_sim D h o n v h' : Inv D h -> set_default wrapv h o n v = (h', true) -> sim h h'.
Proof.
  intros HI HR. unfold set_default in HR. destruct (objs h o) as [b|] eqn:E; [|discriminate].
  destruct (assoc n (table b)) as [l|] eqn:Ha; [|inversion HR; subst; apply sim_refl].
  cbv zeta in HR. set (p := Param _ _ _ v _ _ _) in *. assert (HV : valid h l) by (eapply table_valid; eauto).
  destruct (value (mem h l)) as [w|]; [inversion HR; subst h'; apply set_mem_sim|].
  change (callback (mem h l)) with (callback p) in HR.
  destruct (write_call wrapv wrap_ok D h l p h' HI HV eq_refl HR) as (_&_&S). exact S.
Qed.

(** ** Making cameras *)
Definition cam_ok h (p o l : oid) : Prop := (exists k, proj_at h p k) /\ (exists k, orient_at h o k) /\ sharing_ok h l p.
Lemma init_camera_cam D h c p o l at_ h' : Inv D h -> CamInv h -> cam_ok h p o l -> not_base h c -> c < next h ->
  (forall k lk n, orient_at h o k -> lens_at h l lk -> In n (all_names k lk) -> at_ n = None) ->
  init_camera wrapv lit h c p o l at_ = (h', true) ->
  base_keep h h' /\ CamInv h' /\
  (exists b, objs h' c = Some b /\ okd b = KCam p o l /\ attrs b = at_ /\
     forall k lk, orient_at h o k -> lens_at h l lk -> table b = cam_names_table (next h) p o l k lk) /\
  (forall x, x <> c -> x < next h -> objs h x = None -> objs h' x = None).
Proof.
  intros HI HC ((pk&bp&Ep&Kp)&(k&bo&Eo&Ko)&HS) HN HL HA HR.
  pose proof HS as (bl&lk&El&Kl&HS2).
  unfold init_camera in HR. apply bind_ok in HR. destruct HR as (h1&E1&HR).
  destruct (Inv_set_projection wrapv wrap_ok D h l p h1 HI HS E1) as (I1&AT&N1&R1).
  cbv zeta in HR. set (h2 := alloc lit h1 KGps (zero_gps lit) no_attrs) in *.
  assert (LT := Inv_objs_lt wrapv D h HI).
  assert (OLD : forall x, x < next h -> objs h2 x = objs h1 x).
  { intros x Nx. unfold h2; cbn. destruct (Nat.eqb_spec x (next h1)); [lia|auto]. }
  assert (PL : p <> l) by (intros ->; congruence). assert (OL : o <> l) by (intros ->; congruence).
  assert (TP : tab h2 p = map (fun n => (n, Loc p n)) pnames).
  { unfold tab. rewrite OLD by (eapply LT; eauto). pose proof (AT p) as A. rewrite Ep in A. destruct (objs h1 p) as [bp1|]; [|contradiction].
    destruct A as (_&_&A&_). destruct A as (A&_); [auto|]. rewrite A.
    destruct (HI p bp Ep) as (_&W&_). unfold wired in W. rewrite Kp in W. destruct W as (W&_). rewrite W, ?Kp. reflexivity. }
  assert (TO : tab h2 o = self_table o (KOrient k)).
  { unfold tab. rewrite OLD by (eapply LT; eauto). pose proof (AT o) as A. rewrite Eo in A. destruct (objs h1 o) as [bo1|]; [|contradiction].
    destruct A as (_&_&A&_). destruct A as (A&_); [auto|]. rewrite A.
    destruct (HI o bo Eo) as (_&W&_). unfold wired in W. rewrite Ko in W. destruct W as (W&_). rewrite W, ?Ko. reflexivity. }
  assert (TL : tab h2 l = lens_tab l p lk /\ (lk <> NoDist -> exists bl1, objs h1 l = Some bl1 /\ lproj bl1 = Some p)).
  { unfold tab. rewrite OLD by (eapply LT; eauto). pose proof (AT l) as A. rewrite El in A. destruct (objs h1 l) as [bl1|]; [|contradiction].
    destruct A as (A0&_&A1&A2). destruct lk eqn:EK.
    - destruct A1 as (A1&_); [right; intros (bx&kx&Ex&Kx&Nx); congruence|]. rewrite A1. split; [|congruence].
      destruct (HI l bl El) as (_&W&_). unfold wired in W. rewrite Kl in W. destruct W as (_&_&W).
      destruct (lproj bl); [destruct W as (W&_); congruence|]. rewrite W, ?Kl. reflexivity.
    - assert (DL : distorting h l) by (exists bl, Brown; repeat split; auto; discriminate).
      destruct (A2 eq_refl DL) as (A3&A4). split; [exact (A4 _ Kl)|]. intros _. exists bl1. auto.
    - assert (DL : distorting h l) by (exists bl, ABC; repeat split; auto; discriminate).
      destruct (A2 eq_refl DL) as (A3&A4). split; [exact (A4 _ Kl)|]. intros _. exists bl1. auto. }
  destruct TL as (TL&LP).
  assert (BK1 : base_keep h h1).
  { intros x b E K. pose proof (AT x) as A. rewrite E in A. destruct (objs h1 x) as [b1|]; [|contradiction]. exists b1.
    destruct A as (A0&_&A1&A2). split; [reflexivity|split; [exact A0|]]. intros NN.
    destruct (Nat.eq_dec x l) as [->|Nx]; [|apply A1; auto]. rewrite El in E; inversion E; subst b.
    destruct lk eqn:EK.
    - apply A1. right. intros (bx&kx&Ex&Kx&Nx). congruence.
    - assert (DL : distorting h l) by (exists bl, Brown; repeat split; auto; discriminate).
      destruct (A2 eq_refl DL) as (A3&_). destruct (HS2 ltac:(discriminate)) as ([X|X]&_); congruence.
    - assert (DL : distorting h l) by (exists bl, ABC; repeat split; auto; discriminate).
      destruct (A2 eq_refl DL) as (A3&_). destruct (HS2 ltac:(discriminate)) as ([X|X]&_); congruence. }
  assert (ND2 : not_base h2 c).
  { intros b Eb. rewrite OLD in Eb by auto. pose proof (AT c) as A. rewrite Eb in A. destruct (objs h c) as [b0|] eqn:E0; [|contradiction].
    destruct A as (K&_). rewrite K. apply HN; auto. }
  assert (BK2 : base_keep h h').
  { intros x b E K. destruct (BK1 x b E K) as (b1&Eb1&K1&L1). exists b1. split; [|auto].
    inversion HR; subst h'. cbn [objs set_obj]. destruct (Nat.eqb_spec x c) as [->|Nx].
    - exfalso. apply (HN b E K).
    - rewrite OLD; auto. eapply LT; eauto. }
  set (bc := Obj (KCam p o l) at_ (cam_table h2 (next h1) p o l) (fun _ : name => @None V) None) in *.
  assert (TC : table bc = cam_names_table (next h) p o l k lk).
  { unfold bc; cbn [table]. unfold cam_table, cam_names_table. rewrite TP, TO, TL, N1. reflexivity. }
  assert (OC : objs h' c = Some bc) by (inversion HR; subst h'; cbn; rewrite Nat.eqb_refl; reflexivity).
  split; [exact BK2|split; [|split]].
  - apply (CamInv_keep h); [exact HC|exact BK2|]. intros x b' p' o' l' E' K'.
    destruct (Nat.eq_dec x c) as [->|Nx].
    + right. rewrite OC in E'; inversion E'; subst b'. inversion K'; subst p' o' l'. exists (next h), pk, k, lk.
      destruct (BK2 p bp Ep) as (bp'&Ep'&Kp'&_); [rewrite Kp; exact I|].
      destruct (BK2 o bo Eo) as (bo'&Eo'&Ko'&_); [rewrite Ko; exact I|].
      destruct (BK1 l bl El) as (bl1&El1&Kl1&_); [rewrite Kl; exact I|].
      assert (El2 : objs h' l = Some bl1).
      { inversion HR; subst h'. cbn [objs set_obj]. destruct (Nat.eqb_spec l c) as [<-|Nl].
        - exfalso. apply (HN bl El). rewrite Kl. exact I.
        - rewrite OLD; auto. eapply LT; eauto. }
      split; [exists bp'; split; congruence|]. split; [exists bo'; split; congruence|]. split; [exists bl1; split; congruence|].
      split; [|split; [|split; [exact TC|]]].
      * intros NK. destruct (LP NK) as (bx&Ex&Lx). rewrite El1 in Ex; inversion Ex; subst bx. exists bl1, lk.
        split; [exact El2|split; [congruence|auto]].
      * exists (Obj KGps no_attrs (self_table (next h1) KGps) (fun _ => None) None). split; [|reflexivity].
        inversion HR; subst h'. cbn [objs set_obj]. destruct (Nat.eqb_spec (next h) c) as [X|X]; [lia|].
        rewrite <- N1. unfold h2. apply alloc_obj.
      * intros n Hn. cbn [attrs bc]. apply (HA k lk); auto; [exists bo; auto|exists bl; auto].
    + left. inversion HR; subst h'. cbn [objs set_obj] in E'. destruct (Nat.eqb_spec x c); [contradiction|].
      destruct (Nat.eq_dec x (next h1)) as [->|Nn].
      * unfold h2 in E'. rewrite alloc_obj in E'. inversion E'; subst b'. discriminate.
      * assert (E1' : objs h1 x = Some b') by (unfold h2 in E'; cbn in E'; destruct (Nat.eqb_spec x (next h1)); congruence).
        pose proof (AT x) as A. rewrite E1' in A. destruct (objs h x) as [b|] eqn:Eb; [|contradiction].
        destruct A as (A0&A1&A2&_). assert (XL : x <> l) by (intros ->; congruence).
        exists b. split; [auto|split; [congruence|split; [apply A2; auto|]]]. intros m _. rewrite A1. auto.
  - exists bc. split; [exact OC|split; [reflexivity|split; [reflexivity|]]].
    intros k' lk' (bo'&Eo'&Ko') (bl'&El'&Kl'). rewrite TC. congruence.
  - intros x Nx Hx E. inversion HR; subst h'. cbn [objs set_obj]. destruct (Nat.eqb_spec x c); [contradiction|].
    rewrite OLD by auto. pose proof (AT x) as A. rewrite E in A. destruct (objs h1 x); [contradiction|auto].
Qed.
Lemma CamInv_reserve h : CamInv h -> CamInv (reserve h).
Proof. intros HC. exact HC. Qed.
Lemma new_camera_cam D h p o l h' : Inv D h -> CamInv h -> cam_ok h p o l ->
  new_camera wrapv lit h p o l = (h', true) ->
  base_keep h h' /\ CamInv h' /\
  (exists b, objs h' (next h) = Some b /\ okd b = KCam p o l /\ attrs b = no_attrs /\
     forall k lk, orient_at h o k -> lens_at h l lk -> table b = cam_names_table (S (next h)) p o l k lk) /\
  (forall x, x < next h -> objs h x = None -> objs h' x = None).
Proof.
  intros HI HC HO HR. unfold new_camera in HR.
  destruct (init_camera_cam D (reserve h) (next h) p o l no_attrs h') as (A&B&C&F); auto.
  - apply Inv_reserve; auto.
  - eapply not_base_next; eauto.
  - split; [exact A|split; [exact B|split; [exact C|]]]. intros x Hx E. apply F; [lia|cbn; lia|exact E].
Qed.
Lemma kept_objs h h' x b : kept h h' -> objs h x = Some b -> exists b', objs h' x = Some b' /\ okd b' = okd b.
Proof. intros (_&K&_) E. destruct (K x b E) as (b'&E'&X&_). eauto. Qed.
Definition comps_ok h (ps os ls : list oid) : Prop :=
  (forall p, In p ps -> exists k, proj_at h p k) /\ (forall o, In o os -> exists k, orient_at h o k) /\
  (forall l, In l ls -> exists k, lens_at h l k).
Lemma comps_ok_kept h h' ps os ls : kept h h' -> comps_ok h ps os ls -> comps_ok h' ps os ls.
Proof.
  intros HK (A&B&C). split; [|split].
  - intros p Hp. destruct (A p Hp) as (k&b&E&K). destruct (kept_objs _ _ _ _ HK E) as (b'&E'&K'). exists k, b'. split; congruence.
  - intros p Hp. destruct (B p Hp) as (k&b&E&K). destruct (kept_objs _ _ _ _ HK E) as (b'&E'&K'). exists k, b'. split; congruence.
  - intros p Hp. destruct (C p Hp) as (k&b&E&K). destruct (kept_objs _ _ _ _ HK E) as (b'&E'&K'). exists k, b'. split; congruence.
Qed.
Lemma make_cameras_cam n : forall D h i ps os ls prs h' cs, Inv D h -> CamInv h -> comps_ok h ps os ls -> pairs_ok h prs ->
  incl (cam_pairs i n ps ls) prs -> make_cameras wrapv lit h i n ps os ls = (h', true, cs) -> CamInv h' /\ base_keep h h'.
Proof.
  induction n as [|n IH]; intros D h i ps os ls prs h' cs HI HV HO HP HC HR.
  - inversion HR; subst. split; [exact HV|apply base_keep_refl].
  - cbn [make_cameras] in HR. cbn [cam_pairs] in HC.
    destruct (nth_error ps (i mod List.length ps)) as [p|] eqn:Ep; [|inversion HR; subst; split; [exact HV|apply base_keep_refl]].
    destruct (nth_error os (i mod List.length os)) as [o|] eqn:Eo; [|inversion HR; subst; split; [exact HV|apply base_keep_refl]].
    destruct (nth_error ls (i mod List.length ls)) as [l|] eqn:El; [|inversion HR; subst; split; [exact HV|apply base_keep_refl]].
    destruct (new_camera wrapv lit h p o l) as [h1 []] eqn:EC; cbn [fst snd] in HR; [|discriminate].
    assert (IN : In (l, p) prs) by (apply HC; left; auto).
    assert (SH : sharing_ok h l p) by (apply HP; auto).
    destruct (Inv_new_camera wrapv lit wrap_ok D h p o l h1 HI SH EC) as (I1&CM).
    assert (CO : cam_ok h p o l).
    { destruct HO as (A&B&_). split; [apply A; eapply nth_error_In; eauto|split; [apply B; eapply nth_error_In; eauto|exact SH]]. }
    destruct (new_camera_cam D h p o l h1 HI HV CO EC) as (BK&V1&_).
    destruct (make_cameras wrapv lit h1 (S i) n ps os ls) as [[h2 ok] cs'] eqn:EM. inversion HR; subst.
    assert (HP1 : pairs_ok h1 prs) by exact (pairs_ok_step wrapv D h h1 p o l prs HI HP IN CM).
    assert (HC1 : incl (cam_pairs (S i) n ps ls) prs) by (intros x Hx; apply HC; right; exact Hx).
    assert (HO1 : comps_ok h1 ps os ls) by (eapply comps_ok_kept; [exact (camera_kept wrapv D h h1 p o l HI CM)|exact HO]).
    destruct (IH D h1 (S i) ps os ls prs h' cs' I1 V1 HO1 HP1 HC1 EM) as (V2&B2).
    split; [exact V2|eapply base_keep_trans; eauto].
Qed.
Definition group_good h (pa oa la : oid + list oid) : Prop :=
  comps_ok h (comp_list pa) (comp_list oa) (comp_list la) /\ group_ok h pa oa la.
Lemma new_group_cam D h pa oa la h' : Inv D h -> CamInv h -> group_good h pa oa la ->
  new_group wrapv lit h pa oa la = (h', true) -> CamInv h' /\ base_keep h h'.
Proof.
  intros HI HC (HO&HG) HR. unfold new_group in HR.
  set (n := group_size _) in *. unfold group_ok in HG. fold n in HG.
  destruct (make_cameras wrapv lit (reserve h) 0 n (comp_list pa) (comp_list oa) (comp_list la)) as [[h1 []] cs] eqn:EM; [|discriminate].
  inversion HR; subst h'. clear HR.
  assert (IR := Inv_reserve wrapv D h HI).
  destruct (make_cameras_Inv wrapv lit wrap_ok n D (reserve h) 0 _ _ _ _ h1 cs IR HG (incl_refl _) EM) as (I1&K1).
  destruct (make_cameras_cam n D (reserve h) 0 _ _ _ _ h1 cs IR HC HO HG (incl_refl _) EM) as (V1&B1).
  assert (NB : objs h1 (next h) = None).
  { destruct K1 as (_&_&K&_). apply K; [cbn; lia|]. change (objs h (next h) = None). destruct (objs h (next h)) as [b|] eqn:E; auto.
    apply (Inv_objs_lt wrapv D h HI) in E. lia. }
  set (h2 := set_obj _ _ _).
  assert (B2 : base_keep h1 h2).
  { intros x b E K. exists b. split; [|auto]. cbn. destruct (Nat.eqb_spec x (next h)); [congruence|auto]. }
  split.
  - eapply CamInv_keep; [exact V1|exact B2|]. intros c b' p o l E' K'. left. cbn in E'.
    destruct (Nat.eqb_spec c (next h)); [inversion E'; subst b'; discriminate|]. exists b'. auto.
  - eapply base_keep_trans; [exact B1|exact B2].
Qed.

(** ** Loading *)
Lemma set_all_cam D c vars : forall h h', Inv D h -> CamInv h -> set_all wrapv h c vars = (h', true) -> CamInv h'.
Proof.
  induction vars as [|[n a] vars IH]; intros h h' HI HC HR; [inversion HR; subst; auto|].
  cbn [set_all] in HR. apply bind_ok in HR. destruct HR as (h1&E1&HR). eapply IH; [| |exact HR].
  - eapply Inv_set_attr; eauto.
  - eapply CamInv_set_attr; eauto.
Qed.
Lemma grown_at h h' k : grown h h' k -> exists b, objs h' (next h) = Some b /\ okd b = k.
Proof. intros (_&(b&E&K&_)&_). eauto. Qed.
Lemma base_keep_at h h' x b k : base_keep h h' -> objs h x = Some b -> okd b = k -> base_kind k -> exists b', objs h' x = Some b' /\ okd b' = k.
Proof. intros HB E K BK. destruct (HB x b E) as (b'&E'&K'&_); [congruence|]. exists b'. split; congruence. Qed.
Definition no_shadow (at_ : name -> option arg) (f : file V) : Prop :=
  forall n, In n (all_names TiltHeading (file_lens f)) -> at_ n = None.
(** State of a load before the values are assigned. *)
Lemma load_cam D h c at_ f h' : Inv D h -> CamInv h -> not_base h c -> c < next h -> no_shadow at_ f ->
  load_into wrapv lit h c at_ f = (h', true) ->
  exists h4, Inv D h4 /\ CamInv h4 /\ set_all wrapv h4 c (file_vars f) = (h', true) /\
    (exists b, objs h4 c = Some b /\ okd b = KCam (next h) (S (S (next h))) (S (next h)) /\
       table b = cam_names_table (S (S (S (next h)))) (next h) (S (S (next h))) (S (next h)) TiltHeading (file_lens f)) /\
    proj_at h4 (next h) (file_proj f) /\ orient_at h4 (S (S (next h))) TiltHeading /\ lens_at h4 (S (next h)) (file_lens f) /\
    (forall b n, objs h4 (next h) = Some b -> attrs b n = None).
Proof.
  intros HI HC HB HL HA HR.
  destruct (load_steps wrapv lit wrap_ok D h c at_ f h' HI HB HL HR) as
    (h1&h2&h3&h4&E1&E2&E3&E4&E5&I3&SH&NB&LT&I4&CM&N1&N2&N3&G1&G2&G3).
  assert (V1 := CamInv_grown h h1 (KProj (file_proj f)) HC I G1). assert (V2 := CamInv_grown h1 h2 (KLens (file_lens f)) V1 I G2).
  assert (V3 := CamInv_grown h2 h3 (KOrient TiltHeading) V2 I G3).
  destruct (grown_at _ _ _ G1) as (bp&Ep&Kp). destruct (grown_at _ _ _ G2) as (bl&El&Kl). destruct (grown_at _ _ _ G3) as (bo&Eo&Ko).
  destruct (base_keep_at h1 h2 _ _ _ (grown_base_keep _ _ _ G2) Ep Kp I) as (bp2&Ep2&Kp2).
  destruct (base_keep_at h2 h3 _ _ _ (grown_base_keep _ _ _ G3) Ep2 Kp2 I) as (bp3&Ep3&Kp3).
  destruct (base_keep_at h2 h3 _ _ _ (grown_base_keep _ _ _ G3) El Kl I) as (bl3&El3&Kl3).
  assert (O3 : orient_at h3 (next h2) TiltHeading) by (exists bo; auto).
  assert (L3 : lens_at h3 (next h1) (file_lens f)) by (exists bl3; auto).
  assert (CO : cam_ok h3 (next h) (next h2) (next h1)).
  { split; [exists (file_proj f), bp3; auto|split; [exists TiltHeading; exact O3|exact SH]]. }
  destruct (init_camera_cam D h3 c _ _ _ at_ h4 I3 V3 CO NB LT) with (2 := E4) as (BK&V4&(b&Eb&Kb&_&Tb)&_).
  { intros k lk n (bo'&Eo'&Ko') (bl'&El'&Kl') Hn. rewrite Eo in Eo'; inversion Eo'; subst bo'. rewrite El3 in El'; inversion El'; subst bl'.
    apply HA. rewrite Ko in Ko'; inversion Ko'; subst. rewrite Kl3 in Kl'; inversion Kl'; subst. exact Hn. }
  exists h4. split; [exact I4|split; [exact V4|split; [exact E5|]]].
  specialize (Tb TiltHeading (file_lens f) O3 L3).
  destruct (base_keep_at h3 h4 _ _ _ BK Ep3 Kp3 I) as (bp4&Ep4&Kp4).
  destruct (base_keep_at h3 h4 _ _ _ BK El3 Kl3 I) as (bl4&El4&Kl4).
  destruct (base_keep_at h3 h4 _ _ _ BK Eo Ko I) as (bo4&Eo4&Ko4).
  rewrite N1, N2, N3 in *. split; [exists b; auto|]. split; [exists bp4; auto|]. split; [exists bo4; auto|]. split; [exists bl4; auto|].
  intros b' n Eb'. pose proof G2 as (_&_&F2&_). pose proof G3 as (_&_&F3&_). destruct CM as (_&F4&_).
  assert (A1 : attrs bp n = None).
  { unfold new_proj in E1. destruct (forallb _ _); [|discriminate]. inversion E1; subst h1. rewrite alloc_obj in Ep. inversion Ep; subst bp. reflexivity. }
  destruct (F2 _ _ Ep) as (x2&X2&(_&Y2&_)). destruct (F3 _ _ X2) as (x3&X3&(_&Y3&_)).
  destruct (F4 _ _ X3) as (x4&X4&_&Y4&_); [lia|]. rewrite Eb' in X4; inversion X4; subst x4. rewrite Y4, Y3, Y2. exact A1.
Qed.

(** ** Histories *)
(** The admissible operations: cameras and groups are made from components of the right
    kind and never let two lenses meet one projection (or one lens two projections);
    fits may run the callbacks in any order; files are loaded into cameras without plain
    attributes that hide a parameter. *)
Definition op_ok (h : heap) (p : op) : Prop :=
  match p with
  | OCamera p o l => cam_ok h p o l
  | OGroup pa oa la => group_good h pa oa la
  | OFit ord _ _ | OSample _ ord _ | OMean ord _ => is_order ord
  | OLoad c f => exists b p o l, objs h c = Some b /\ okd b = KCam p o l /\ no_shadow (attrs b) f
  | _ => True
  end.
Inductive reachable : heap -> Prop :=
| Rempty : reachable empty
| Rstep h p h' : reachable h -> op_ok h p -> exec h p = (h', true) -> reachable h'.

Lemma exec_Inv h p h' : Inv clean h -> CamInv h -> op_ok h p -> exec h p = (h', true) -> Inv clean h' /\ CamInv h'.
Proof.
  intros HI HC HO HR. assert (NC : forall x, ~ clean x) by (intros x []).
  destruct p as [k vals|k vals fr|k vals|p o l|pa oa la|o n a|o n v|ord o vals|rnd ord o|ord o|c f]; cbn [Param.exec op_ok] in *.
  - split; [eapply Inv_new_orient; eauto|]. refine (CamInv_grown h h' (KOrient k) HC I _). eapply new_orient_grown; eauto.
  - split; [eapply Inv_new_proj; eauto|]. refine (CamInv_grown h h' (KProj k) HC I _). eapply new_proj_grown; eauto.
  - split; [eapply Inv_new_lens; eauto|]. refine (CamInv_grown h h' (KLens k) HC I _). eapply new_lens_grown; eauto.
  - split; [eapply Inv_new_camera; eauto; apply HO|]. eapply new_camera_cam; eauto.
  - split; [eapply Inv_new_group; eauto; apply HO|]. eapply new_group_cam; eauto.
  - split; [eapply Inv_set_attr; eauto|eapply CamInv_set_attr; eauto].
  - split; [eapply Inv_set_default; eauto|]. eapply CamInv_sim; [exact HC|eapply set_default_sim; eauto].
  - destruct (objs h o) as [b|] eqn:E; [|unfold set_fit in HR; rewrite E in HR; discriminate].
    destruct (set_fit_spec wrapv wrap_ok ord clean h o vals h' b HO HI NC E HR) as (?&?&A&S&_).
    split; [exact A|eapply CamInv_sim; eauto].
  - destruct (objs h o) as [b|] eqn:E; [|unfold sample, stats_op in HR; rewrite E in HR; discriminate].
    destruct (stats_spec wrapv wrap_ok rnd ord clean h o h' b HO HI NC E HR) as (?&?&A&S&_).
    split; [exact A|eapply CamInv_sim; eauto].
  - destruct (objs h o) as [b|] eqn:E; [|unfold set_to_mean, stats_op in HR; rewrite E in HR; discriminate].
    destruct (stats_spec wrapv wrap_ok (fun _ m _ => m) ord clean h o h' b HO HI NC E HR) as (?&?&A&S&_).
    split; [exact A|eapply CamInv_sim; eauto].
  - destruct HO as (b&p&o&l&E&K&NS). unfold load in HR. rewrite E in HR.
    assert (NB : not_base h c). { intros b' E'. rewrite E in E'; inversion E'; subst. rewrite K. intros X; exact X. }
    assert (LT : c < next h) by (eapply Inv_objs_lt; eauto).
    split; [eapply Inv_load_into; eauto|].
    destruct (load_cam clean h c (attrs b) f h' HI HC NB LT NS HR) as (h4&I4&V4&S4&_). eapply set_all_cam; eauto.
Qed.
Lemma empty_Inv : Inv clean empty.
Proof. intros o b E. discriminate. Qed.
Lemma reachable_Inv h : reachable h -> Inv clean h /\ CamInv h.
Proof.
  induction 1 as [|h p h' _ (I1&C1) HO HR]; [split; [apply empty_Inv|intros c b p o l E; discriminate]|].
  eapply exec_Inv; eauto.
Qed.
End Cam.
