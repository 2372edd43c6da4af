(** * Assignments, fits, samples and constructors preserve the invariant *)
Require Import List Bool String Arith NArith QArith Lia Permutation.
From Verif Require Import Projection Param ParamFacts ParamOps.
Import ListNotations.
Open Scope nat_scope.
Open Scope string_scope.

Section Steps.
Context {V : Type} (wrapv : V -> option V) (lit : Q -> V).
Hypothesis wrap_ok : forall v v', wrapv v = Some v' -> wrapv v' = None.
Notation heap := (heap V). Notation obj := (obj V). Notation param := (param V). Notation arg := (arg V).
Notation run_cb := (run_cb wrapv). Notation call := (call wrapv). Notation calls := (calls wrapv).
Notation Inv := (Inv wrapv). Notation fresh := (fresh wrapv). Notation posts := (posts wrapv).
Implicit Types (h : heap) (b : obj).

(** ** Success of callbacks does not depend on their order *)
Lemma rd_with_value (v : V) (p : param) : rd (with_value (Some v) p) = Some v. Proof. reflexivity. Qed.
Lemma posts_rdl h h' cs l : (forall x, mem h' x = posts h cs x) -> is_f (l_name l) = false ->
  rdl h l <> None -> rdl h' l <> None.
Proof.
  intros HM Hf H. unfold rdl in *. rewrite HM. unfold ParamOps.posts. destruct (objs h (l_owner l)) as [b|]; auto.
  destruct (okd b); auto; [rewrite Hf; auto|]. destruct (_ && _); auto. unfold norm.
  destruct (rd (mem h l)) as [v|] eqn:E; auto. destruct (wrapv v) eqn:W; cbn; congruence.
Qed.
Lemma posts_rdl_back h h' cs l : (forall x, mem h' x = posts h cs x) -> is_f (l_name l) = false ->
  rdl h' l <> None -> rdl h l <> None.
Proof.
  intros HM Hf H. unfold rdl in *. rewrite HM in H. unfold ParamOps.posts in H. destruct (objs h (l_owner l)) as [b|]; auto.
  destruct (okd b); auto; [rewrite Hf in H; auto|]. destruct (_ && _) in H; auto. unfold norm in H.
  destruct (rd (mem h l)) as [v|] eqn:E; auto; congruence.
Qed.
(** [okc_lens] as a condition on locations. *)
Lemma get_num_proj D h p bp n : Inv D h -> objs h p = Some bp -> is_proj (okd bp) -> In n pnames ->
  get_num h p n = match attrs bp n with Some (ANum v) => Some v | Some _ => None | None => rdl h (Loc p n) end.
Proof.
  intros HI E K Hn. destruct (HI p bp E) as (_&HW&_). unfold wired in HW. destruct (okd bp); try contradiction.
  destruct HW as (T&_). unfold get_num, get_attr. rewrite E. destruct (attrs bp n) as [[| |]|]; auto.
  rewrite T, pn_table by auto. destruct (rdl h (Loc p n)); auto.
Qed.
Lemma okc_lens_sim D D' h h' o : Inv D h -> Inv D' h' -> sim h h' ->
  (forall l, is_f (l_name l) = false -> rdl h l <> None -> rdl h' l <> None) -> okc_lens h o -> okc_lens h' o.
Proof.
  intros HI HI' HS HR HO b' k E' K'. destruct (sim_back _ _ _ _ HS E') as (b&E&(Kb&_&_&Lb)).
  assert (K : okd b = KLens k) by congruence. destruct (HO b k E K) as (A&B). split.
  - intros n Hn. apply HR; auto. destruct k; cbn in Hn; repeat destruct Hn as [<-|Hn]; try contradiction; reflexivity.
  - intros EA p Hp. rewrite Lb in Hp. destruct (B EA p Hp) as (B1&B2).
    destruct (HI o b E) as (_&HW&_). unfold wired in HW. rewrite K, Hp in HW.
    destruct HW as (_&_&_&_&(bp&Ep&Kp)&_). destruct (sim_fwd _ _ _ _ HS Ep) as (bp'&Ep'&(Kp'&Ap'&_)).
    assert (Kp2 : is_proj (okd bp')) by (rewrite Kp'; auto).
    assert (G : forall n, In n ["image_width_px"; "image_height_px"] -> get_num h p n <> None -> get_num h' p n <> None).
    { intros n Hn H. rewrite (get_num_proj D h p bp n) in H by (auto; cbn in *; tauto).
      rewrite (get_num_proj D' h' p bp' n) by (auto; cbn in *; tauto). rewrite Ap'.
      destruct (attrs bp n); auto. apply HR; auto. cbn in Hn. destruct Hn as [<-|[<-|[]]]; reflexivity. }
    split; apply G; cbn; auto.
Qed.
Lemma okc_sim D D' h h' c : Inv D h -> Inv D' h' -> sim h h' -> (forall l, cbk h' l = cbk h l) ->
  (forall l, is_f (l_name l) = false -> rdl h l <> None -> rdl h' l <> None) -> okc h c -> okc h' c.
Proof.
  intros HI HI' HS HC HR. destruct c as [o|o|p]; cbn [okc].
  - intros H k (b'&E'&K') n Hn. destruct (sim_back _ _ _ _ HS E') as (b&E&(Kb&_)).
    apply HR.
    + destruct k; cbn in Hn; repeat destruct Hn as [<-|Hn]; try contradiction; reflexivity.
    + apply (H k); auto. exists b; split; auto; congruence.
  - intros H. exact (okc_lens_sim D D' h h' o HI HI' HS HR H).
  - intros H o Ho. rewrite !HC in Ho. exact (okc_lens_sim D D' h h' o HI HI' HS HR (H o Ho)).
Qed.
Lemma calls_ok cs : forall D h, Inv D h -> (forall c, In c cs -> cb_ok h c) -> (forall c, In c cs -> okc h c) ->
  exists h', calls h cs = (h', true).
Proof.
  induction cs as [|c cs IH]; intros D h HI HC HO; [eexists; reflexivity|].
  rewrite calls_cons. destruct (ok_run wrapv wrap_ok D h c HI) as (h1&E1); [apply HC; left; auto|apply HO; left; auto|].
  rewrite E1, bind_run.
  assert (OKc : cb_ok h c) by (apply HC; left; auto).
  destruct (run_cb_depth wrapv wrap_ok D h c h1 HI OKc E1) as [A B C F].
  assert (MB : forall x, mem h1 x = posts h [c] x) by (intros x; rewrite B; apply post_posts; auto).
  apply (IH _ h1 A).
  - intros c0 H0. eapply cb_ok_sim; [exact C|apply HC; right; auto].
  - intros c0 H0. apply (okc_sim _ _ h h1 c0 HI A C).
    + intros l. unfold cbk. rewrite MB, posts_cbk. reflexivity.
    + intros l Hl. apply (posts_rdl h h1 [c] l MB Hl).
    + apply HO; right; auto.
Qed.
Lemma lens_run_okc D h o h' fuel : Inv D h -> run_cb (S fuel) h (CbLens o) = (h', true) -> okc_lens h o.
Proof.
  intros HI HR b k E K. cbn [Param.run_cb] in HR. unfold lens_finish in HR. rewrite E, K in HR.
  destruct (all_set h b (lnames k)) eqn:A; [|discriminate]. unfold all_set in A. rewrite forallb_forall in A. split.
  - intros n Hn. specialize (A n Hn). apply is_some_iff in A. rewrite (lens_tget wrapv D h o b k n HI E K Hn) in A. auto.
  - intros -> p Hp. cbv zeta in HR. rewrite Hp in HR.
    destruct (is_some (get_num h p "image_width_px")) eqn:B1; [|discriminate].
    destruct (is_some (get_num h p "image_height_px")) eqn:B2; [|discriminate].
    apply is_some_iff in B1. apply is_some_iff in B2. auto.
Qed.
Lemma focal_run_okc D h p h' fuel : Inv D h -> cb_ok h (CbFocal p) -> run_cb (S (S fuel)) h (CbFocal p) = (h', true) ->
  okc h (CbFocal p).
Proof.
  intros HI (b&E&K) HR.
  change (run_cb (S (S fuel)) h (CbFocal p)) with
   (let f := Loc p "focallength_px" in let fx := Loc p "focallength_x_px" in let fy := Loc p "focallength_y_px" in
    let h1 := set_mem h fx (with_value (value (mem h f)) (mem h fx)) in
    bind (match callback (mem h1 fx) with Some c => run_cb (S fuel) h1 c | None => (h1, true) end)
      (fun h2 => let h3 := set_mem h2 fy (with_value (value (mem h2 f)) (mem h2 fy)) in
         match callback (mem h3 fy) with Some c => run_cb (S fuel) h3 c | None => (h3, true) end)) in HR.
  cbv zeta in HR.
  set (fx := Loc p "focallength_x_px") in *. set (fy := Loc p "focallength_y_px") in *. set (f := Loc p "focallength_px") in *.
  set (q := with_value (value (mem h f)) (mem h fx)) in *.
  apply bind_ok in HR. destruct HR as (h2&E2&HR).
  assert (PX := proj_cb wrapv D h p b "focallength_x_px" HI E K ltac:(cbn; tauto) ltac:(discriminate)). fold fx in PX.
  assert (TM : forall o, D o -> minus D (CbFocal p) o) by (intros o Ho; split; auto; intros [X|X]; discriminate).
  destruct (write_run wrapv D h fx q h2 fuel (CbFocal p) HI eq_refl PX E2 TM) as (I2&M2&S2&K2).
  assert (I1 := Inv_write wrapv D h fx q HI eq_refl).
  assert (KEEPx : forall l, is_f (l_name l) = false -> rdl (set_mem h fx q) l = rdl h l).
  { intros l Hl. unfold rdl. rewrite set_mem_other; auto. intros ->. discriminate. }
  assert (C2 : forall l, cbk h2 l = cbk h l).
  { intros l. unfold cbk. rewrite M2. apply (set_mem_cbk h fx q eq_refl l). }
  assert (SB : sim (set_mem h fx q) h) by (split; auto; intros x; cbn; destruct (objs h x); auto; apply osim_refl).
  assert (SYM : forall a c : heap, sim a c -> sim c a).
  { intros a c (N&H). split; auto. intros x. specialize (H x). destruct (objs a x), (objs c x); auto.
    destruct H as (?&?&?&?). repeat split; auto. }
  intros o [Ho|Ho].
  - rewrite set_mem_same in E2. change (callback q) with (cbk h fx) in E2. fold fx in Ho. rewrite Ho in E2.
    pose proof (lens_run_okc _ _ _ _ _ I1 E2) as O1.
    eapply (okc_lens_sim _ _ (set_mem h fx q) h o I1 HI SB); [|exact O1]. intros l Hl. rewrite KEEPx; auto.
  - rewrite set_mem_same in HR. change (callback (with_value (value (mem h2 f)) (mem h2 fy))) with (cbk h2 fy) in HR.
    rewrite C2 in HR. fold fy in Ho. rewrite Ho in HR.
    assert (I3 := Inv_write wrapv D h2 fy (with_value (value (mem h2 f)) (mem h2 fy)) I2 eq_refl).
    pose proof (lens_run_okc _ _ _ _ _ I3 HR) as O3.
    eapply (okc_lens_sim _ _ _ h o I3 HI); [|intros l Hl|exact O3].
    + apply SYM. eapply sim_trans; [exact S2|apply set_mem_sim].
    + unfold rdl at 1. rewrite set_mem_other by (intros ->; discriminate). change (rdl h2 l <> None -> rdl h l <> None).
      unfold rdl at 1. rewrite M2. change (rdl (set_mem h fx q) l <> None -> rdl h l <> None). rewrite KEEPx; auto.
Qed.
Lemma run_okc D h c h' : Inv D h -> cb_ok h c -> run_cb depth h c = (h', true) -> okc h c.
Proof.
  intros HI HC HR. destruct (run_cb_depth wrapv wrap_ok D h c h' HI HC HR) as [A B C F].
  assert (MB : forall x, mem h' x = posts h [c] x) by (intros x; rewrite B; apply post_posts; auto).
  rewrite depth_S in HR. destruct c as [o|o|p].
  - intros k (b&E&K) n Hn. destruct (sim_fwd _ _ _ _ C E) as (b'&E'&(K'&_)). destruct (A o b' E') as (_&_&HF).
    assert (NM : ~ minus D (CbOrient o) o) by (intros (_&X); apply X; left; auto). specialize (HF NM).
    unfold ParamFacts.fresh in HF. rewrite K', K in HF. destruct HF as (_&_&HF).
    apply (posts_rdl_back h h' [CbOrient o] (Loc o n) MB).
    + destruct k; cbn in Hn; repeat destruct Hn as [<-|Hn]; try contradiction; reflexivity.
    + apply HF; auto.
  - eapply lens_run_okc; eauto.
  - eapply focal_run_okc; eauto.
Qed.
Lemma calls_okc cs : forall D h h', Inv D h -> (forall c, In c cs -> cb_ok h c) -> calls h cs = (h', true) ->
  forall c, In c cs -> okc h c.
Proof.
  induction cs as [|c cs IH]; intros D h h' HI HC HR c0 Hc; [destruct Hc|].
  rewrite calls_cons in HR. apply bind_ok in HR. destruct HR as (h1&E1&HR).
  assert (OKc : cb_ok h c) by (apply HC; left; auto).
  destruct Hc as [<-|Hc]; [eapply run_okc; eauto|].
  destruct (run_cb_depth wrapv wrap_ok D h c h1 HI OKc E1) as [A B C F].
  assert (MB : forall x, mem h1 x = posts h [c] x) by (intros x; rewrite B; apply post_posts; auto).
  assert (O1 : okc h1 c0).
  { eapply IH; eauto. intros c1 H1. eapply cb_ok_sim; [exact C|apply HC; right; auto]. }
  apply (okc_sim _ _ h1 h c0 A HI); auto.
  - destruct C as (N&H). split; auto. intros x. specialize (H x). destruct (objs h x), (objs h1 x); auto.
    destruct H as (?&?&?&?). repeat split; auto.
  - intros l. unfold cbk. rewrite MB, posts_cbk. reflexivity.
  - intros l Hl. apply (posts_rdl_back h h1 [c] l MB Hl).
Qed.

(** ** Assignments *)
Definition cs_of (c : option cb) : list cb := match c with Some c => [c] | None => [] end.
Lemma call_calls h c : call h c = calls h (cs_of c).
Proof.
  destruct c as [c|]; [|reflexivity]. cbn [cs_of]. rewrite calls_cons.
  cbn [Param.call]. destruct (run_cb depth h c) as [h1 []]; reflexivity.
Qed.
(** A write followed by the callback of the parameter. *)
Lemma write_call D h l p h' : Inv D h -> valid h l -> callback p = cbk h l ->
  call (set_mem h l p) (callback p) = (h', true) ->
  Inv D h' /\ (forall x, mem h' x = posts (set_mem h l p) (cs_of (cbk h l)) x) /\ sim h h'.
Proof.
  intros HI HV EC HR. rewrite call_calls, EC in HR.
  assert (I1 := Inv_write wrapv D h l p HI EC).
  assert (OK : forall c, In c (cs_of (cbk h l)) -> cb_ok (set_mem h l p) c).
  { intros c Hc. eapply cb_ok_sim; [apply set_mem_sim|]. destruct (cbk h l) as [c0|] eqn:E; [|destruct Hc].
    destruct Hc as [<-|[]]. eapply valid_cb; eauto. }
  destruct (calls_spec wrapv wrap_ok _ _ _ _ I1 OK HR) as (A&B&C). split; [|split; [exact B|]].
  - eapply Inv_weaken; [|exact A]. intros o ([H|H]&N); auto. exfalso. destruct (cbk h l) as [c|]; [|destruct H; discriminate].
    apply (N c); [left; auto|exact H].
  - eapply sim_trans; [apply set_mem_sim|exact C].
Qed.

Lemma attr_fresh_names D h o b n : Inv D h -> objs h o = Some b -> assoc n (table b) = None ->
  ~ In n (base_names (okd b)).
Proof.
  intros HI E Ha Hn. destruct (HI o b E) as (_&HW&_). unfold wired in HW.
  assert (SELF : table b = self_table o (okd b) -> False).
  { intros T. rewrite T, assoc_self, mem_name_in in Ha by auto. discriminate. }
  destruct (okd b) as [k|k|k| | |] eqn:K; try (apply SELF; apply HW); try exact Hn.
  destruct HW as (_&_&W). destruct (lproj b) as [p|]; [|apply SELF; exact W].
  destruct W as (_&T&_). rewrite T, ln_table in Ha by auto. discriminate.
Qed.
Lemma assoc_none_fst {A} n (t : list (name * A)) : assoc n t = None -> ~ In n (map fst t).
Proof.
  induction t as [|[m a] t IH]; cbn; auto. destruct (String.eqb_spec n m) as [->|N]; [discriminate|].
  intros H [X|X]; [congruence|]. exact (IH H X).
Qed.
Definition add_attr b n (a : arg) : obj :=
  Obj (okd b) (fun m => if String.eqb m n then Some a else attrs b m) (table b) (used b) (lproj b).
Lemma Inv_attr D h o b n a : Inv D h -> objs h o = Some b -> assoc n (table b) = None ->
  Inv D (set_obj h o (add_attr b n a)).
Proof.
  intros HI E Ha x bx Ex. cbn in Ex.
  assert (NB := attr_fresh_names D h o b n HI E Ha).
  set (h' := set_obj h o (add_attr b n a)) in *.
  assert (FW : forall y by0, objs h y = Some by0 -> exists by', objs h' y = Some by' /\ okd by' = okd by0 /\ lproj by' = lproj by0 /\ table by' = table by0).
  { intros y by0 Ey. cbn. destruct (Nat.eqb_spec y o) as [->|]; [|eauto 6]. rewrite E in Ey; inversion Ey; subst.
    eexists; split; [reflexivity|]. cbn. auto. }
  assert (VAL : forall l, valid h l -> valid h' l).
  { intros l (bl&El&Hl). destruct (FW _ _ El) as (bl'&El'&Kl&_). exists bl'. rewrite Kl; auto. }
  assert (LON : forall y p, lens_on h y p -> lens_on h' y p).
  { intros y p (bl&k&El&Kl&Nl&Ll). destruct (FW _ _ El) as (bl'&El'&Kl'&Ll'&_). exists bl', k. rewrite Kl', Ll'; auto. }
  assert (GN : forall p m, In m shared_names -> (exists bp, objs h p = Some bp /\ is_proj (okd bp)) -> get_num h' p m = get_num h p m).
  { intros p m Hm (bp&Ep&Kp). unfold get_num, get_attr, h'. cbn [objs set_obj]. destruct (Nat.eqb_spec p o) as [->|]; auto.
    rewrite E in Ep; inversion Ep; subst bp. rewrite E. cbn [attrs add_attr table]. destruct (String.eqb_spec m n) as [->|]; auto.
    exfalso. apply NB. destruct (okd b); try contradiction. apply shared_pnames; auto. }
  assert (EX : exists b0, objs h x = Some b0 /\ okd bx = okd b0 /\ table bx = table b0 /\ lproj bx = lproj b0 /\ used bx = used b0 /\
     (forall m, (x = o -> m <> n) -> attrs bx m = attrs b0 m)).
  { destruct (Nat.eqb_spec x o) as [->|].
    - inversion Ex; subst bx. exists b. cbn. repeat split; auto. intros m Hm. destruct (String.eqb_spec m n); auto.
      exfalso; apply Hm; auto.
    - exists bx. repeat split; auto. }
  destruct EX as (b0&E0&K0&T0&L0&U0&A0). destruct (HI x b0 E0) as (HN&HW&HF).
  assert (NA : forall m, In m (base_names (okd b0)) \/ In m (map fst (table b0)) -> attrs bx m = attrs b0 m).
  { intros m Hm. apply A0. intros -> ->. rewrite E in E0; inversion E0; subst b0. destruct Hm as [Hm|Hm]; [apply NB; auto|].
    eapply assoc_none_fst; eauto. }
  split; [exact HN|split].
  - unfold wired in *. rewrite K0, T0, L0. destruct (okd b0) as [k|k|k| | |] eqn:Kb.
    + destruct HW as (W1&W2&W3&W4). split; [exact W1|split; [exact W2|split]].
      * rewrite NA; [exact W3|]. left; cbn; tauto.
      * intros m Hm Hf. destruct (W4 m Hm Hf) as [?|(?&l&?&?)]; [left; assumption|]. right. split; auto. exists l; auto.
    + destruct HW as (W1&W2). split; [exact W1|]. intros m Hm. rewrite NA; [exact (W2 m Hm)|left; exact Hm].
    + destruct HW as (W1&W2&W3). split; [exact W1|split].
      * intros m Hm. rewrite NA; [exact (W2 m Hm)|left; exact Hm].
      * destruct (lproj b0); [|exact W3]. destruct W3 as (?&?&(bp&Ep&Kp)&?). split; [assumption|split; [assumption|split; [|assumption]]].
        destruct (FW _ _ Ep) as (bp'&Ep'&Kp'&_). exists bp'. rewrite Kp'; auto.
    + destruct HW as (W1&W2); auto.
    + intros m0 l0 Hin. eapply VAL, HW; eauto.
    + intros m0 l0 Hin. eapply VAL, HW; eauto.
  - intros ND. specialize (HF ND). unfold ParamFacts.fresh in *. rewrite K0, L0, U0. destruct (okd b0) eqn:Kb; auto.
    destruct HF as (F1&F2). split; auto. intros p Hp m Hm. rewrite (F2 p Hp m Hm). symmetry. apply GN.
    + eapply reads_shared; eauto.
    + unfold wired in HW. rewrite Kb, Hp in HW. destruct HW as (_&_&_&_&X&_). exact X.
Qed.

Lemma Inv_set_attr D h o n a h' : Inv D h -> set_attr wrapv h o n a = (h', true) -> Inv D h'.
Proof.
  intros HI HR. unfold set_attr in HR. destruct (objs h o) as [b|] eqn:E; [|discriminate].
  destruct (assoc n (table b)) as [l|] eqn:Ha.
  - cbv zeta in HR. rewrite set_mem_same in HR.
    assert (HV : valid h l) by (eapply table_valid; eauto).
    assert (EC : callback (assign a (mem h l)) = cbk h l) by (destruct a; reflexivity).
    destruct (write_call D h l _ h' HI HV EC HR) as (A&_). exact A.
  - inversion HR; subst. apply (Inv_attr D h o b n a HI E Ha).
Qed.

Lemma Inv_set_default D h o n v h' : Inv D h -> set_default wrapv h o n v = (h', true) -> Inv D h'.
Proof.
  intros HI HR. unfold set_default in HR. destruct (objs h o) as [b|] eqn:E; [|discriminate].
  destruct (assoc n (table b)) as [l|] eqn:Ha; [|inversion HR; subst; auto].
  cbv zeta in HR. set (p := Param (value (mem h l)) (mean (mem h l)) (std (mem h l)) v (state (mem h l)) (ptype (mem h l)) (callback (mem h l))) in *.
  assert (HV : valid h l) by (eapply table_valid; eauto).
  destruct (value (mem h l)) as [w|] eqn:EV.
  - inversion HR; subst h'. (* the value hides the default: nothing reads differently *)
    assert (RD : forall x, rdl (set_mem h l p) x = rdl h x).
    { intros x. unfold rdl. destruct (loc_eqb_spec x l) as [->|N]; [|rewrite set_mem_other; auto].
      rewrite set_mem_same. unfold rd, p. cbn [value]. rewrite EV. reflexivity. }
    intros x b0 E0. change (objs h x = Some b0) in E0. destruct (HI x b0 E0) as (HN&HW&HF). split; [exact HN|split].
    + eapply wired_sim; [apply set_mem_sim|apply set_mem_cbk; reflexivity|apply osim_refl|exact HW].
    + intros ND. specialize (HF ND). unfold ParamFacts.fresh in *. destruct (okd b0) eqn:Kb; auto.
      * destruct HF as (F1&F2&F3). split; [|split].
        -- intros m Hm. rewrite RD; auto.
        -- rewrite RD; auto.
        -- intros m Hm. rewrite RD; auto.
      * destruct HF as (F1&F2). split.
        -- intros m Hm. rewrite RD; auto.
        -- intros q Hq m Hm. rewrite (F2 q Hq m Hm). symmetry. apply get_num_sim; auto. apply set_mem_sim.
  - change (callback (mem h l)) with (callback p) in HR.
    destruct (write_call D h l p h' HI HV eq_refl HR) as (A&_). exact A.
Qed.

(** ** Fits *)
Definition covers (cs : list cb) (o : oid) : Prop := exists c, In c cs /\ tgt (Some c) o.
Lemma add_cb_in cs c x : In x (add_cb cs c) <-> In x cs \/ c = Some x.
Proof.
  unfold add_cb. destruct c as [c|]; [|split; [auto|intros [?|?]; auto; discriminate]].
  destruct (existsb (cb_eqb c) cs) eqn:E.
  - split; auto. intros [H|H]; auto. inversion H; subst. fold (hit cs x) in E. destruct (hit_spec cs x); auto; discriminate.
  - rewrite in_app_iff. cbn. split; intros [H|H]; auto.
    + destruct H as [->|[]]; auto.
    + inversion H; auto.
Qed.
Definition fit_param (v : V) (p : param) : param := Param (Some v) (mean p) (std p) (default p) SFit (ptype p) (callback p).
(** Last value given for a location. *)
Fixpoint last_for (t : list (name * loc)) (l : loc) (vals : list (name * V)) : option V :=
  match vals with
  | [] => None
  | (n, v) :: vals' =>
    match last_for t l vals' with
    | Some w => Some w
    | None => match assoc n t with Some l' => if loc_eqb l' l then Some v else None | None => None end
    end
  end.
Lemma write_fit_spec o b vals : forall D h cs h1 cs1, write_fit h b vals cs = (h1, cs1) ->
  Inv D h -> objs h o = Some b -> (forall x, D x -> covers cs x) -> (forall c, In c cs -> cb_ok h c) ->
  exists D1, Inv D1 h1 /\ (forall x, D1 x -> covers cs1 x) /\ (forall c, In c cs1 -> cb_ok h1 c) /\
    objs h1 = objs h /\ next h1 = next h /\ (forall l, cbk h1 l = cbk h l) /\
    (forall l, mem h1 l = match last_for (table b) l vals with Some v => fit_param v (mem h l) | None => mem h l end) /\
    (forall c, In c cs1 <-> In c cs \/ exists n v l, In (n, v) vals /\ assoc n (table b) = Some l /\ cbk h l = Some c).
Proof.
  induction vals as [|[n v] vals IH]; intros D h cs h1 cs1 HW HI E HD HC.
  - inversion HW; subst. exists D. split; [exact HI|split; [exact HD|split; [exact HC|]]].
    split; [reflexivity|split; [reflexivity|split; [reflexivity|split; [reflexivity|]]]].
    intros c. split; [auto|]. intros [X|(n&v&l&[]&_)]; exact X.
  - cbn [write_fit] in HW. destruct (assoc n (table b)) as [l|] eqn:Ha.
    + set (p := Param (Some v) (mean (mem h l)) (std (mem h l)) (default (mem h l)) SFit (ptype (mem h l)) (callback (mem h l))) in *.
      set (h0 := set_mem h l p) in *.
      assert (I0 := Inv_write wrapv D h l p HI eq_refl). fold h0 in I0.
      assert (HV : valid h l) by (eapply table_valid; eauto).
      assert (HD0 : forall x, D x \/ tgt (cbk h l) x -> covers (add_cb cs (callback (mem h l))) x).
      { intros x [H|H].
        - destruct (HD x H) as (c&Hc&Ht). exists c. split; auto. apply add_cb_in; auto.
        - change (callback (mem h l)) with (cbk h l). destruct (cbk h l) as [c|] eqn:Ec; [|destruct H; discriminate].
          exists c. split; auto. apply add_cb_in; auto. }
      assert (HC0 : forall c, In c (add_cb cs (callback (mem h l))) -> cb_ok h0 c).
      { intros c Hc. eapply cb_ok_sim; [apply set_mem_sim|]. apply add_cb_in in Hc. destruct Hc as [Hc|Hc]; auto.
        eapply valid_cb; eauto. }
      destruct (IH _ h0 _ h1 cs1 HW I0 E HD0 HC0) as (D1&A1&A2&A3&A4&A5&A6&A7&A8).
      assert (CB0 : forall x, cbk h0 x = cbk h x) by (apply set_mem_cbk; reflexivity).
      exists D1. split; [|split; [|split; [|split; [|split; [|split; [|split]]]]]]; auto.
      * intros x. rewrite A6; auto.
      * intros x. rewrite A7. cbn [last_for]. rewrite Ha. destruct (last_for (table b) x vals) as [w|] eqn:EL.
        -- destruct (loc_eqb_spec x l) as [->|N]; unfold h0; [rewrite set_mem_same|rewrite set_mem_other by auto]; reflexivity.
        -- destruct (loc_eqb_spec l x) as [->|N]; unfold h0; [rewrite set_mem_same; reflexivity|rewrite set_mem_other; auto].
      * intros c. rewrite A8, add_cb_in. split.
        -- intros [[H|H]|(n0&v0&l0&H1&H2&H3)]; auto.
           ++ right. exists n, v, l. split; [left; auto|]. split; auto.
           ++ right. exists n0, v0, l0. rewrite CB0 in H3. split; [right; auto|]. split; auto.
        -- intros [H|(n0&v0&l0&[H1|H1]&H2&H3)]; auto.
           ++ inversion H1; subst. left. right. rewrite Ha in H2. inversion H2; subst. exact H3.
           ++ right. exists n0, v0, l0. rewrite CB0. auto.
    + destruct (IH D h cs h1 cs1 HW HI E HD HC) as (D1&A1&A2&A3&A4&A5&A6&A7&A8).
      exists D1. split; [|split; [|split; [|split; [|split; [|split; [|split]]]]]]; auto.
      * intros x. rewrite A7. cbn [last_for]. rewrite Ha. destruct (last_for (table b) x vals); auto.
      * intros c. rewrite A8. split.
        -- intros [H|(n0&v0&l0&H1&H2&H3)]; auto. right. exists n0, v0, l0. split; [right; auto|auto].
        -- intros [H|(n0&v0&l0&[H1|H1]&H2&H3)]; auto.
           ++ inversion H1; subst. congruence.
           ++ right. exists n0, v0, l0. auto.
Qed.
Definition is_order (ord : list cb -> list cb) : Prop := forall l c, In c (ord l) <-> In c l.

Lemma set_fit_spec ord D h o vals h' b : is_order ord -> Inv D h -> (forall x, ~ D x) -> objs h o = Some b ->
  set_fit wrapv ord h o vals = (h', true) ->
  exists h1 cs, Inv D h' /\ sim h h' /\ objs h1 = objs h /\ 
    (forall l, mem h1 l = match last_for (table b) l vals with Some v => fit_param v (mem h l) | None => mem h l end) /\
    (forall c, In c cs <-> exists n v l, In (n, v) vals /\ assoc n (table b) = Some l /\ cbk h l = Some c) /\
    (forall l, mem h' l = posts h1 cs l).
Proof.
  intros HO HI ND E HR. unfold set_fit in HR. rewrite E in HR.
  destruct (write_fit h b vals []) as [h1 cs] eqn:EW.
  destruct (write_fit_spec o b vals D h [] h1 cs EW HI E) as (D1&A1&A2&A3&A4&A5&A6&A7&A8).
  { intros x H; exfalso; eapply ND; eauto. } { intros c []. }
  assert (OKC : forall c, In c (ord cs) -> cb_ok h1 c) by (intros c Hc; apply A3, HO, Hc).
  destruct (calls_spec wrapv wrap_ok (ord cs) D1 h1 h' A1 OKC HR) as (B1&B2&B3).
  exists h1, cs. split; [|split; [|split; [|split; [|split]]]]; auto.
  - eapply Inv_weaken; [|exact B1]. intros x (H1&H2). exfalso. destruct (A2 x H1) as (c&Hc&Ht). apply (H2 c); auto. apply HO; auto.
  - assert (S1 : sim h h1). { split; auto. intros x. rewrite A4. destruct (objs h x); auto. apply osim_refl. }
    eapply sim_trans; eauto.
  - intros c. rewrite A8. split; [intros [[]|H]; auto|auto].
  - intros l. rewrite B2. unfold ParamOps.posts. destruct (objs h1 (l_owner l)) as [b1|]; auto.
    assert (HH : forall c, hit (ord cs) c = hit cs c).
    { intros c. destruct (hit_spec (ord cs) c), (hit_spec cs c); auto; exfalso; apply n; apply HO; auto. }
    destruct (okd b1); auto; rewrite HH; auto.
Qed.

(** ** Samples and means *)
Definition stat_param (f : name -> V -> option V -> V) (n : name) (p : param) : param :=
  match mean p with Some m => with_value (Some (f n m (std p))) p | None => p end.
Fixpoint last_name (l : loc) (t : list (name * loc)) : option name :=
  match t with
  | [] => None
  | (n, l') :: t' => match last_name l t' with Some m => Some m | None => if loc_eqb l' l then Some n else None end
  end.
Lemma write_stats_spec f t : forall D h cs h1 cs1, write_stats f h t cs = (h1, cs1) ->
  Inv D h -> (forall n l, In (n, l) t -> valid h l) -> (forall x, D x -> covers cs x) -> (forall c, In c cs -> cb_ok h c) ->
  exists D1, Inv D1 h1 /\ (forall x, D1 x -> covers cs1 x) /\ (forall c, In c cs1 -> cb_ok h1 c) /\
    objs h1 = objs h /\ next h1 = next h /\ (forall l, cbk h1 l = cbk h l) /\
    (forall l, mem h1 l = match last_name l t with Some n => stat_param f n (mem h l) | None => mem h l end) /\
    (forall c, In c cs1 <-> In c cs \/ exists n l, In (n, l) t /\ cbk h l = Some c).
Proof.
  induction t as [|[n l] t IH]; intros D h cs h1 cs1 HW HI HT HD HC.
  - inversion HW; subst. exists D. split; [exact HI|split; [exact HD|split; [exact HC|]]].
    split; [reflexivity|split; [reflexivity|split; [reflexivity|split; [reflexivity|]]]].
    intros c. split; [auto|]. intros [X|(n&l&[]&_)]; exact X.
  - cbn [write_stats] in HW.
    set (h0 := match mean (mem h l) with Some m => set_mem h l (with_value (Some (f n m (std (mem h l)))) (mem h l)) | None => h end) in *.
    assert (HV : valid h l) by (apply (HT n l); left; auto).
    assert (M0 : forall x, mem h0 x = if loc_eqb l x then stat_param f n (mem h x) else mem h x).
    { intros x. unfold h0, stat_param. destruct (loc_eqb_spec l x) as [->|N].
      - destruct (mean (mem h x)); auto. rewrite set_mem_same. auto.
      - destruct (mean (mem h l)); auto. rewrite set_mem_other; auto. }
    assert (O0 : objs h0 = objs h) by (unfold h0; destruct (mean (mem h l)); auto).
    assert (N0 : next h0 = next h) by (unfold h0; destruct (mean (mem h l)); auto).
    assert (C0 : forall x, cbk h0 x = cbk h x).
    { intros x. unfold cbk. rewrite M0. destruct (loc_eqb l x); auto. unfold stat_param. destruct (mean (mem h x)); auto. }
    assert (S0 : sim h h0). { split; auto. intros x. rewrite O0. destruct (objs h x); auto. apply osim_refl. }
    assert (I0 : Inv (fun x => D x \/ tgt (cbk h l) x) h0).
    { unfold h0. destruct (mean (mem h l)); [apply Inv_write; auto|]. eapply Inv_weaken; [|exact HI]. auto. }
    assert (HD0 : forall x, D x \/ tgt (cbk h l) x -> covers (add_cb cs (callback (mem h l))) x).
    { intros x [H|H].
      - destruct (HD x H) as (c&Hc&Ht). exists c. split; auto. apply add_cb_in; auto.
      - change (callback (mem h l)) with (cbk h l). destruct (cbk h l) as [c|] eqn:Ec; [|destruct H; discriminate].
        exists c. split; auto. apply add_cb_in; auto. }
    assert (HC0 : forall c, In c (add_cb cs (callback (mem h l))) -> cb_ok h0 c).
    { intros c Hc. eapply cb_ok_sim; [exact S0|]. apply add_cb_in in Hc. destruct Hc as [Hc|Hc]; auto.
      eapply valid_cb; eauto. }
    assert (HT0 : forall m l', In (m, l') t -> valid h0 l') by (intros m l' H; eapply valid_sim; [exact S0|apply (HT m l'); right; auto]).
    destruct (IH _ h0 _ h1 cs1 HW I0 HT0 HD0 HC0) as (D1&A1&A2&A3&A4&A5&A6&A7&A8).
    exists D1. split; [exact A1|split; [exact A2|split; [exact A3|split; [congruence|split; [congruence|split; [|split]]]]]].
    + intros x. rewrite A6; auto.
    + intros x. rewrite A7, M0. cbn [last_name]. destruct (last_name x t) as [m|]; destruct (loc_eqb l x); auto.
      unfold stat_param. destruct (mean (mem h x)) eqn:Em; cbn [mean with_value]; rewrite Em; auto.
    + intros c. rewrite A8, add_cb_in. split.
      * intros [[H|H]|(m&l'&H1&H2)]; auto.
        -- right. exists n, l. split; [left; auto|exact H].
        -- right. exists m, l'. rewrite C0 in H2. split; [right; auto|auto].
      * intros [H|(m&l'&[H1|H1]&H2)]; auto.
        -- inversion H1; subst. left; right. exact H2.
        -- right. exists m, l'. rewrite C0. auto.
Qed.
Lemma stats_spec f ord D h o h' b : is_order ord -> Inv D h -> (forall x, ~ D x) -> objs h o = Some b ->
  stats_op wrapv f ord h o = (h', true) ->
  exists h1 cs, Inv D h' /\ sim h h' /\ objs h1 = objs h /\ 
    (forall l, mem h1 l = match last_name l (table b) with Some n => stat_param f n (mem h l) | None => mem h l end) /\
    (forall c, In c cs <-> exists n l, In (n, l) (table b) /\ cbk h l = Some c) /\
    (forall l, mem h' l = posts h1 cs l).
Proof.
  intros HO HI ND E HR. unfold stats_op in HR. rewrite E in HR.
  destruct (write_stats f h (table b) []) as [h1 cs] eqn:EW.
  destruct (write_stats_spec f (table b) D h [] h1 cs EW HI) as (D1&A1&A2&A3&A4&A5&A6&A7&A8).
  { intros n l Hin. eapply table_valid_in; eauto. }
  { intros x H; exfalso; eapply ND; eauto. } { intros c []. }
  assert (OKC : forall c, In c (ord cs) -> cb_ok h1 c) by (intros c Hc; apply A3, HO, Hc).
  destruct (calls_spec wrapv wrap_ok (ord cs) D1 h1 h' A1 OKC HR) as (B1&B2&B3).
  exists h1, cs. split; [|split; [|split; [|split; [|split]]]]; auto.
  - eapply Inv_weaken; [|exact B1]. intros x (H1&H2). exfalso. destruct (A2 x H1) as (c&Hc&Ht). apply (H2 c); auto. apply HO; auto.
  - assert (S1 : sim h h1). { split; auto. intros x. rewrite A4. destruct (objs h x); auto. apply osim_refl. }
    eapply sim_trans; eauto.
  - intros c. rewrite A8. split; [intros [[]|H]; auto|auto].
  - intros l. rewrite B2. unfold ParamOps.posts. destruct (objs h1 (l_owner l)) as [b1|]; auto.
    assert (HH : forall c, hit (ord cs) c = hit cs c).
    { intros c. destruct (hit_spec (ord cs) c), (hit_spec cs c); auto; exfalso; apply n; apply HO; auto. }
    destruct (okd b1); auto; rewrite HH; auto.
Qed.
End Steps.
