(** * The operations preserve the invariant of the parameter heap *)
Require Import List Bool String Arith NArith QArith Lia.
From Verif Require Import Projection Param ParamFacts.
Import ListNotations.
Open Scope nat_scope.
Open Scope string_scope.

Section Ops.
Context {V : Type} (wrapv : V -> option V) (lit : Q -> V).
Hypothesis wrap_ok : forall v v', wrapv v = Some v' -> wrapv v' = None.
Notation heap := (heap V). Notation obj := (obj V). Notation param := (param V). Notation arg := (arg V).
Notation run_cb := (run_cb wrapv). Notation call := (call wrapv). Notation calls := (calls wrapv).
Notation Inv := (Inv wrapv). Notation fresh := (fresh wrapv).
Implicit Types (h : heap) (b : obj).

(** ** Lists of callbacks *)
Definition hit (cs : list cb) (c : cb) : bool := existsb (cb_eqb c) cs.
Lemma hit_spec cs c : reflect (In c cs) (hit cs c).
Proof.
  unfold hit. destruct (existsb _ _) eqn:E; constructor.
  - apply existsb_exists in E. destruct E as (x&H&E). destruct (cb_eqb_spec c x); [subst; auto|discriminate].
  - intros H. assert (existsb (cb_eqb c) cs = true); [|congruence].
    apply existsb_exists. exists c; split; auto. destruct (cb_eqb_spec c c); auto.
Qed.
Definition is_f (n : name) : bool := String.eqb n "focallength_x_px" || String.eqb n "focallength_y_px".
Definition norm (p : param) : param :=
  match rd p with Some v => match wrapv v with Some v' => assign (ANum v') p | None => p end | None => p end.
Lemma norm_norm p : norm (norm p) = norm p.
Proof.
  unfold norm. destruct (rd p) as [v|] eqn:E; [|rewrite E; auto]. destruct (wrapv v) as [v'|] eqn:W.
  - cbn [rd value assign]. rewrite (wrap_ok _ _ W). auto.
  - rewrite E, W. auto.
Qed.
(** The parameters after the callbacks [cs], whatever their order. *)
Definition posts (h : heap) (cs : list cb) (l : loc) : param :=
  match objs h (l_owner l) with
  | Some b =>
    match okd b with
    | KOrient k => if String.eqb (l_name l) (wrapped_name k) && hit cs (CbOrient (l_owner l)) then norm (mem h l) else mem h l
    | KProj _ => if is_f (l_name l) && hit cs (CbFocal (l_owner l))
                 then with_value (value (mem h (Loc (l_owner l) "focallength_px"))) (mem h l) else mem h l
    | _ => mem h l
    end
  | None => mem h l
  end.
Lemma loc_split l o n : loc_eqb l (Loc o n) = Nat.eqb (l_owner l) o && String.eqb (l_name l) n.
Proof. destruct l; reflexivity. Qed.
Lemma post_posts h c l : cb_ok h c -> post wrapv h c l = posts h [c] l.
Proof.
  intros HC. unfold post, posts. destruct c as [o|o|p]; cbn [hit existsb].
  - destruct HC as (k&b&E&K). rewrite E, K, loc_split. destruct (Nat.eqb_spec (l_owner l) o) as [->|N].
    + rewrite E, K. cbn [andb]. rewrite orb_false_r. cbn [cb_eqb]. rewrite Nat.eqb_refl, andb_true_r.
      destruct (String.eqb _ _); auto.
    + cbn [andb]. destruct (objs h (l_owner l)) as [b'|]; auto. destruct (okd b'); auto.
      * cbn [cb_eqb orb]. rewrite andb_false_r. auto.
      * cbn [cb_eqb]. destruct (Nat.eqb_spec (l_owner l) o); [contradiction|]. rewrite andb_false_r. auto.
  - destruct (objs h (l_owner l)) as [b|]; auto. destruct (okd b); auto; cbn [cb_eqb orb]; rewrite andb_false_r; auto.
  - destruct HC as (b&E&K). rewrite !loc_split. destruct (Nat.eqb_spec (l_owner l) p) as [->|N].
    + rewrite E. destruct (okd b) eqn:Kb; try contradiction. cbn [andb cb_eqb]. rewrite Nat.eqb_refl. cbn [orb].
      rewrite andb_true_r. reflexivity.
    + cbn [andb orb]. destruct (objs h (l_owner l)) as [b'|]; auto. destruct (okd b'); auto; cbn [cb_eqb orb].
      * destruct (Nat.eqb_spec (l_owner l) p); [contradiction|]. rewrite andb_false_r. auto.
      * rewrite andb_false_r. auto.
Qed.
Lemma posts_nil h l : posts h [] l = mem h l.
Proof.
  unfold posts. destruct (objs h (l_owner l)) as [b|]; auto. destruct (okd b); auto; cbn [hit existsb]; rewrite andb_false_r; auto.
Qed.
Lemma f_not_f : is_f "focallength_px" = false. Proof. reflexivity. Qed.
Lemma posts_cons h h1 c cs l : sim h h1 -> (forall x, mem h1 x = posts h [c] x) ->
  posts h1 cs l = posts h (c :: cs) l.
Proof.
  intros (_&HS) HM. unfold posts at 1 2. pose proof (HS (l_owner l)) as HO.
  destruct (objs h (l_owner l)) as [b|] eqn:E, (objs h1 (l_owner l)) as [b1|] eqn:E1; try contradiction.
  2: { rewrite HM. unfold posts. rewrite E. auto. }
  destruct HO as (K&_). rewrite K.
  assert (HMl := HM l). unfold posts in HMl. rewrite E in HMl.
  destruct (okd b) eqn:Kb; try (rewrite HMl; reflexivity).
  - assert (HMf := HM (Loc (l_owner l) "focallength_px")). unfold posts in HMf. cbn [l_owner l_name] in HMf.
    rewrite E, Kb, f_not_f in HMf. cbn [andb] in HMf. rewrite HMf, HMl. unfold hit. cbn [existsb].
    destruct (is_f (l_name l)); cbn [andb]; auto. rewrite orb_false_r.
    destruct (cb_eqb _ c); cbn [orb]; destruct (existsb _ cs); auto.
  - rewrite HMl. unfold hit. cbn [existsb]. destruct (String.eqb (l_name l) (wrapped_name k)); cbn [andb]; auto.
    rewrite orb_false_r. destruct (cb_eqb _ c); cbn [orb]; destruct (existsb _ cs); auto. apply norm_norm.
Qed.
Lemma posts_cbk h cs l : callback (posts h cs l) = cbk h l.
Proof.
  unfold posts, cbk. destruct (objs h (l_owner l)) as [b|]; auto. destruct (okd b); auto.
  - destruct (_ && _); auto.
  - destruct (_ && _); auto. unfold norm. destruct (rd _) as [v|]; auto. destruct (wrapv v); auto.
Qed.

Definition minuses (D : oid -> Prop) (cs : list cb) (o : oid) : Prop := D o /\ forall c, In c cs -> ~ tgt (Some c) o.
Lemma calls_spec cs : forall D h h', Inv D h -> (forall c, In c cs -> cb_ok h c) -> calls h cs = (h', true) ->
  Inv (minuses D cs) h' /\ (forall l, mem h' l = posts h cs l) /\ sim h h'.
Proof.
  induction cs as [|c cs IH]; intros D h h' HI HC HR.
  - inversion HR; subst. split; [|split].
    + eapply Inv_weaken; [|exact HI]. intros o Ho; split; auto.
    + intros l. rewrite posts_nil; auto.
    + apply sim_refl.
  - rewrite calls_cons in HR. apply bind_ok in HR. destruct HR as (h1&E1&HR).
    assert (OKc : cb_ok h c) by (apply HC; left; auto).
    destruct (run_cb_depth wrapv wrap_ok D h c h1 HI OKc E1) as [A B C F].
    assert (HC1 : forall c, In c cs -> cb_ok h1 c) by (intros c0 H0; eapply cb_ok_sim; [exact C|apply HC; right; auto]).
    destruct (IH _ h1 h' A HC1 HR) as (A2&B2&C2).
    assert (MB : forall x, mem h1 x = posts h [c] x) by (intros x; rewrite B; apply post_posts; auto).
    split; [|split].
    + eapply Inv_weaken; [|exact A2]. intros o ((H1&H2)&H3); split; auto. intros c0 [<-|H0]; auto.
    + intros l. rewrite B2. apply posts_cons; auto.
    + eapply sim_trans; eauto.
Qed.

(** ** When a callback raises *)
Definition okc_lens (h : heap) (o : oid) : Prop :=
  forall b k, objs h o = Some b -> okd b = KLens k ->
    (forall n, In n (lnames k) -> rdl h (Loc o n) <> None) /\
    (k = ABC -> forall p, lproj b = Some p -> get_num h p "image_width_px" <> None /\ get_num h p "image_height_px" <> None).
Definition okc (h : heap) (c : cb) : Prop :=
  match c with
  | CbOrient o => forall k, orient_at h o k -> forall n, In n (angle_names k) -> rdl h (Loc o n) <> None
  | CbLens o => okc_lens h o
  | CbFocal p => forall o, (cbk h (Loc p "focallength_x_px") = Some (CbLens o) \/ cbk h (Loc p "focallength_y_px") = Some (CbLens o)) ->
      okc_lens h o
  end.
Lemma is_some_iff {A} (x : option A) : is_some x = true <-> x <> None.
Proof. destruct x; cbn; split; congruence. Qed.
Lemma wrapped_angle k : In (wrapped_name k) (angle_names k). Proof. destruct k; cbn; tauto. Qed.
Lemma lens_tget D h o b k n : Inv D h -> objs h o = Some b -> okd b = KLens k -> In n (lnames k) ->
  tget h b n = rdl h (Loc o n).
Proof.
  intros HI E K Hn. destruct (HI o b E) as (_&HW&_). unfold wired in HW. rewrite K in HW. destruct HW as (_&_&W).
  unfold tget. destruct (lproj b) as [p|].
  - destruct W as (_&T&_). rewrite T, ln_table by auto. auto.
  - rewrite W, assoc_self. cbn [base_names]. rewrite mem_name_in; auto.
Qed.
Lemma orient_tget D h o b k n : Inv D h -> objs h o = Some b -> okd b = KOrient k -> In n (onames k) ->
  tget h b n = rdl h (Loc o n).
Proof.
  intros HI E K Hn. destruct (HI o b E) as (_&HW&_). unfold wired in HW. rewrite K in HW. destruct HW as (T&_).
  unfold tget. rewrite T, on_table; auto.
Qed.
Lemma ok_lens D h o fuel : Inv D h -> cb_ok h (CbLens o) -> okc_lens h o ->
  exists h', run_cb (S fuel) h (CbLens o) = (h', true).
Proof.
  intros HI (b&k&E&K) HO. destruct (HO b k E K) as (H1&H2). cbn [Param.run_cb]. unfold lens_finish. rewrite E, K.
  assert (A : all_set h b (lnames k) = true).
  { apply forallb_forall. intros n Hn. apply is_some_iff. rewrite (lens_tget D h o b k n); auto. }
  rewrite A. cbv zeta. destruct (lproj b) as [p|]; [|eauto]. destruct k; eauto.
  destruct (H2 eq_refl p eq_refl) as (G1&G2). apply is_some_iff in G1. apply is_some_iff in G2. rewrite G1, G2. cbn [andb]. eauto.
Qed.
Lemma ok_orient_finish D h o k : Inv D h -> orient_at h o k -> okc h (CbOrient o) ->
  exists h', orient_finish h o = (h', true).
Proof.
  intros HI (b&E&K) HO. unfold orient_finish. rewrite E, K.
  assert (A : all_set h b (angle_names k) = true).
  { apply forallb_forall. intros n Hn. apply is_some_iff. rewrite (orient_tget D h o b k n); auto; [|apply angle_in; auto].
    apply (HO k (ex_intro _ b (conj E K))); auto. }
  rewrite A. eauto.
Qed.
Lemma okc_write_orient D h o k v' b : Inv D h -> objs h o = Some b -> okd b = KOrient k -> okc h (CbOrient o) ->
  okc (set_mem h (Loc o (wrapped_name k)) (assign (ANum v') (mem h (Loc o (wrapped_name k))))) (CbOrient o).
Proof.
  intros HI E K HO k' (b'&E'&K') n Hn. cbn [objs set_mem] in E'. assert (k' = k) by congruence; subst k'.
  unfold rdl. destruct (loc_eqb_spec (Loc o n) (Loc o (wrapped_name k))) as [->|N].
  - rewrite set_mem_same. discriminate.
  - rewrite set_mem_other by auto. apply (HO k (ex_intro _ b (conj E K))); auto.
Qed.
Lemma ok_orient1 D h o fuel k : Inv D h -> orient_at h o k -> okc h (CbOrient o) ->
  (forall v, rdl h (Loc o (wrapped_name k)) = Some v -> wrapv v = None) ->
  exists h', run_cb (S fuel) h (CbOrient o) = (h', true).
Proof.
  intros HI HO0 HO HV. pose proof HO0 as (b&E&K). cbn [Param.run_cb]. rewrite E, K.
  destruct (get_num_orient wrapv D h o k b HI E K) as (G1&G2). rewrite G1, G2.
  pose proof (HO k HO0 _ (wrapped_angle k)) as NN. destruct (rdl h (Loc o (wrapped_name k))) as [v|] eqn:EV; [|congruence].
  rewrite (HV v eq_refl). cbn [bind fst snd]. eapply ok_orient_finish; eauto.
Qed.
Lemma ok_orient D h o fuel : Inv D h -> cb_ok h (CbOrient o) -> okc h (CbOrient o) ->
  exists h', run_cb (S (S fuel)) h (CbOrient o) = (h', true).
Proof.
  intros HI (k&HO0) HO. pose proof HO0 as (b&E&K).
  pose proof (HO k HO0 _ (wrapped_angle k)) as NN. destruct (rdl h (Loc o (wrapped_name k))) as [v|] eqn:EV; [|congruence].
  destruct (wrapv v) as [v'|] eqn:EW.
  2: { eapply ok_orient1; eauto. rewrite EV. intros v0 X; inversion X; subst; auto. }
  set (fuel1 := S fuel). cbn [Param.run_cb]. rewrite E, K.
  destruct (get_num_orient wrapv D h o k b HI E K) as (G1&G2). rewrite G1, G2, EV, EW.
  set (l := Loc o (wrapped_name k)) in *. set (h1 := set_mem h l (assign (ANum v') (mem h l))) in *.
  destruct (HI o b E) as (_&HW&_). unfold wired in HW. rewrite K in HW. destruct HW as (T&C).
  assert (CB : callback (mem h1 l) = Some (CbOrient o)).
  { unfold h1. rewrite set_mem_same. cbn [assign callback]. apply (C _ (wrapped_in k)). }
  rewrite CB.
  assert (I1 : Inv (fun x => D x \/ tgt (cbk h l) x) h1) by (apply Inv_write; auto).
  assert (HO1 : orient_at h1 o k) by (exists b; auto).
  assert (R1 : rdl h1 l = Some v') by (unfold rdl, h1; rewrite set_mem_same; reflexivity).
  assert (OK1 : okc h1 (CbOrient o)) by (eapply okc_write_orient; eauto).
  assert (IR : forall v, rdl h1 l = Some v -> wrapv v = None).
  { intros v0 X. rewrite R1 in X; inversion X; subst. eapply wrap_ok; eauto. }
  destruct (ok_orient1 _ h1 o fuel k I1 HO1 OK1 IR) as (h2&E2). unfold fuel1. rewrite E2. cbn [bind fst snd].
  assert (S2 := run_orient_in_range wrapv _ h1 o k h2 fuel I1 HO1 IR E2). destruct S2 as [A2 B2 C2 D2].
  apply (ok_orient_finish _ h2 o k A2).
  - destruct HO1 as (b1&E1&K1). destruct (sim_fwd _ _ _ _ C2 E1) as (b2&Eb&(Kb&_)). exists b2. rewrite Kb; auto.
  - intros k' (b'&Eb'&Kb') n Hn. destruct (sim_back _ _ _ _ C2 Eb') as (b1&E1&(Kb1&_)).
    assert (k' = k) by (change (objs h o = Some b1) in E1; rewrite E in E1; inversion E1; subst; congruence). subst k'.
    unfold rdl. rewrite B2. unfold post. rewrite E1, <- Kb1, Kb'. fold l.
    destruct (loc_eqb_spec (Loc o n) l) as [->|N].
    + rewrite R1, (IR v' R1). change (rdl h1 l <> None). congruence.
    + apply (OK1 k HO1 n Hn).
Qed.

(** [okc] only looks at parameters no callback makes None. *)
Lemma okc_lens_ext h h' o : sim h h' ->
  (forall n, In n (lnames Brown) \/ In n (lnames ABC) -> rdl h (Loc o n) <> None -> rdl h' (Loc o n) <> None) ->
  (forall p n, In n ["image_width_px"; "image_height_px"] -> get_num h p n <> None -> get_num h' p n <> None) ->
  okc_lens h o -> okc_lens h' o.
Proof.
  intros HS H1 H2 HO b' k E' K'. destruct (sim_back _ _ _ _ HS E') as (b&E&(Kb&_&_&Lb)).
  assert (K : okd b = KLens k) by congruence. destruct (HO b k E K) as (A&B). split.
  - intros n Hn. apply H1; auto. destruct k; cbn in *; tauto.
  - intros EA p Hp. rewrite Lb in Hp. destruct (B EA p Hp). split; apply H2; cbn; auto.
Qed.
Lemma set_fxy_get_num h p n v q m : is_f n = true -> In m ["image_width_px"; "image_height_px"] ->
  (forall b, objs h q = Some b -> forall l, assoc m (table b) = Some l -> l <> Loc p n) ->
  get_num (set_mem h (Loc p n) v) q m = get_num h q m.
Proof.
  intros Hf Hm HT. apply get_num_ext; auto. intros b l E A T. unfold rdl. rewrite set_mem_other; eauto.
Qed.
Lemma lproj_table D h o b p : Inv D h -> objs h o = Some b -> lproj b = Some p -> (exists k, okd b = KLens k) ->
  forall bp, objs h p = Some bp -> forall m l, In m shared_names -> assoc m (table bp) = Some l -> l = Loc p m.
Proof.
  intros HI E L (k&K) bp Ep m l Hm Hl. destruct (HI o b E) as (_&HW&_). unfold wired in HW. rewrite K, L in HW.
  destruct HW as (_&_&_&_&(bp'&Ep'&Kp)&_). assert (bp' = bp) by congruence; subst bp'.
  destruct (HI p bp Ep) as (_&HWp&_). unfold wired in HWp. destruct (okd bp); try contradiction.
  destruct HWp as (T&_). rewrite T, pn_table in Hl by (apply shared_pnames; auto). congruence.
Qed.
Lemma okc_lens_write D h o l q : Inv D h -> (forall n, l <> Loc o n) -> is_f (l_name l) = true -> okc_lens h o -> okc_lens (set_mem h l q) o.
Proof.
  intros HI HL Hf HO b k E K. change (objs h o = Some b) in E. destruct (HO b k E K) as (A&B). split.
  - intros n Hn. unfold rdl. rewrite set_mem_other; [apply A; auto|]. intros X. eapply HL; eauto.
  - intros EA p Hp. destruct (B EA p Hp) as (B1&B2).
    assert (G : forall m, In m ["image_width_px"; "image_height_px"] -> get_num (set_mem h l q) p m = get_num h p m).
    { intros m Hm. apply get_num_ext; auto. intros bp lp Ep Ap Tp. unfold rdl. rewrite set_mem_other; auto.
      assert (Hs : In m shared_names) by (cbn in Hm |- *; tauto).
      rewrite (lproj_table D h o b p HI E Hp (ex_intro _ k K) bp Ep m lp Hs Tp). intros <-. cbn [l_name] in Hf.
      cbn in Hm. destruct Hm as [<-|[<-|[]]]; discriminate. }
    rewrite !G; cbn; auto.
Qed.
Lemma cbk_lens_owner D h p b n o : Inv D h -> objs h p = Some b -> is_proj (okd b) -> In n pnames ->
  cbk h (Loc p n) = Some (CbLens o) -> o <> p.
Proof.
  intros HI E K Hn HC ->. destruct (valid_cb wrapv D h (Loc p n) (CbLens p) HI) as (b'&k&E'&K'); auto.
  - exists b; split; auto. destruct (okd b); try contradiction; auto.
  - assert (b' = b) by congruence; subst. rewrite K' in K. contradiction.
Qed.
Lemma ok_write_run D h l q fuel : Inv D h -> callback q = cbk h l ->
  (cbk h l = None \/ exists o, cbk h l = Some (CbLens o) /\ cb_ok h (CbLens o) /\ okc_lens (set_mem h l q) o) ->
  exists h', (match callback (mem (set_mem h l q) l) with Some c => run_cb (S fuel) (set_mem h l q) c | None => (set_mem h l q, true) end)
    = (h', true).
Proof.
  intros HI EC HC. rewrite set_mem_same, EC. destruct HC as [E|(o&E&OK&HO)]; rewrite E; [eauto|].
  pose proof (Inv_write wrapv D h l q HI EC) as I1. assert (OK1 : cb_ok (set_mem h l q) (CbLens o)) by (eapply cb_ok_sim; [apply set_mem_sim|exact OK]). exact (ok_lens _ _ o fuel I1 OK1 HO).
Qed.
Lemma ok_focal D h p fuel : Inv D h -> cb_ok h (CbFocal p) -> okc h (CbFocal p) ->
  exists h', run_cb (S (S fuel)) h (CbFocal p) = (h', true).
Proof.
  intros HI (b&E&K) HO.
  change (run_cb (S (S fuel)) h (CbFocal p)) with
   (let f := Loc p "focallength_px" in let fx := Loc p "focallength_x_px" in let fy := Loc p "focallength_y_px" in
    let h1 := set_mem h fx (with_value (value (mem h f)) (mem h fx)) in
    bind (match callback (mem h1 fx) with Some c => run_cb (S fuel) h1 c | None => (h1, true) end)
      (fun h2 => let h3 := set_mem h2 fy (with_value (value (mem h2 f)) (mem h2 fy)) in
         match callback (mem h3 fy) with Some c => run_cb (S fuel) h3 c | None => (h3, true) end)).
  cbv zeta.
  set (fx := Loc p "focallength_x_px") in *. set (fy := Loc p "focallength_y_px") in *. set (f := Loc p "focallength_px") in *.
  set (q := with_value (value (mem h f)) (mem h fx)) in *.
  assert (PX := proj_cb wrapv D h p b "focallength_x_px" HI E K ltac:(cbn; tauto) ltac:(discriminate)). fold fx in PX.
  assert (EX : exists h2, (match callback (mem (set_mem h fx q) fx) with Some c => run_cb (S fuel) (set_mem h fx q) c | None => (set_mem h fx q, true) end) = (h2, true)).
  { apply (ok_write_run D); auto. destruct PX as [?|(o&Eo&OK)]; [left; auto|right]. exists o. split; [|split]; auto.
    apply (okc_lens_write D); auto.
    intros n X. apply (cbk_lens_owner D h p b "focallength_x_px" o HI E K ltac:(cbn; tauto) Eo). inversion X; auto.
    }
  destruct EX as (h2&E2). rewrite E2. unfold bind; cbn [fst snd].
  assert (TM : forall o, D o -> minus D (CbFocal p) o) by (intros o Ho; split; auto; intros [X|X]; discriminate).
  destruct (write_run wrapv D h fx q h2 fuel (CbFocal p) HI eq_refl PX E2 TM) as (I2&M2&S2&K2).
  destruct (sim_fwd _ _ _ _ S2 E) as (b2&Eb2&(Kb2&_)).
  assert (PK : is_proj (okd b2)) by (rewrite Kb2; exact K).
  assert (PY := proj_cb wrapv D h2 p b2 "focallength_y_px" I2 Eb2 PK ltac:(cbn; tauto) ltac:(discriminate)). fold fy in PY.
  apply (ok_write_run D); auto. destruct PY as [?|(o&Eo&OK)]; [left; auto|right]. exists o. split; [|split]; auto.
  assert (No : o <> p) by (apply (cbk_lens_owner D h2 p b2 "focallength_y_px" o I2 Eb2 PK ltac:(cbn; tauto) Eo)).
  apply (okc_lens_write D); auto.
  - intros n X. inversion X; congruence.
  - assert (CY : cbk h fy = Some (CbLens o)) by (unfold cbk in *; rewrite M2, set_mem_other in Eo; auto; apply fy_not_fx).
    assert (O1 : okc_lens (set_mem h fx q) o).
    { apply (okc_lens_write D); auto. intros n X; inversion X; congruence. }
    eapply okc_lens_ext; [| | |exact O1].
    + split; [apply S2|]. intros x. apply S2.
    + intros n _ H. unfold rdl in *. rewrite M2. auto.
    + intros x n _ H. rewrite (get_num_sim (set_mem h fx q) h2); [exact H| |].
      * split; [apply S2|]. intros y. apply S2.
      * intros y. unfold rdl. rewrite M2. auto.
Qed.
Lemma ok_run D h c : Inv D h -> cb_ok h c -> okc h c -> exists h', run_cb depth h c = (h', true).
Proof.
  intros HI HC HO. rewrite depth_S. destruct c.
  - eapply ok_orient; eauto.
  - eapply ok_lens; eauto.
  - eapply ok_focal; eauto.
Qed.
End Ops.
