(** * What each operation does to the parameters *)
Require Import List Bool String Arith NArith QArith Lia.
From Verif Require Import Projection Param ParamFacts ParamOps ParamSteps ParamReach ParamCam.
Import ListNotations.
Open Scope nat_scope.
Open Scope string_scope.

Section Laws.
Context {V : Type} (wrapv : V -> option V) (lit : Q -> V).
Hypothesis wrap_ok : forall v v', wrapv v = Some v' -> wrapv v' = None.
Notation heap := (heap V). Notation obj := (obj V). Notation param := (param V). Notation arg := (arg V).
Notation run_cb := (run_cb wrapv).
Notation Inv := (Inv wrapv). Notation fresh := (fresh wrapv). Notation norm := (norm wrapv).
Notation posts := (posts wrapv).
Implicit Types (h : heap) (b : obj).

(** The name [n] of object [o] denotes the Parameter [l]. *)
Definition writes h (o : oid) (n : name) (l : loc) : Prop := exists b, objs h o = Some b /\ assoc n (table b) = Some l.
(** ... and reading it is not intercepted by an instance attribute. *)
Definition reads h (o : oid) (n : name) (l : loc) : Prop :=
  exists b, objs h o = Some b /\ attrs b n = None /\ assoc n (table b) = Some l.
Lemma reads_get h o n l : reads h o n l -> get_attr h o n = Some (of_opt (rdl h l)).
Proof. intros (b&E&A&T). unfold get_attr. rewrite E, A, T. reflexivity. Qed.
Lemma reads_num h o n l : reads h o n l -> get_num h o n = rdl h l.
Proof. intros H. unfold get_num. rewrite (reads_get _ _ _ _ H). destruct (rdl h l); reflexivity. Qed.
Lemma reads_sim h h' o n l : sim h h' -> reads h o n l -> reads h' o n l.
Proof. intros S (b&E&A&T). destruct (sim_fwd _ _ _ _ S E) as (b'&E'&(_&A'&T'&_)). exists b'. rewrite A', T'. auto. Qed.
Lemma writes_valid D h o n l : Inv D h -> writes h o n l -> valid h l.
Proof. intros HI (b&E&T). eapply table_valid; eauto. Qed.
(** The angle an orientation brings into range. *)
Definition wrapped_loc h (l : loc) : bool :=
  match objs h (l_owner l) with
  | Some b => match okd b with KOrient k => String.eqb (l_name l) (wrapped_name k) | _ => false end
  | None => false
  end.
Definition proj_loc h (l : loc) : bool :=
  match objs h (l_owner l) with Some b => match okd b with KProj _ => true | _ => false end | None => false end.
(** [x] is one of the two focal lengths that follow the focallength_px [l]. *)
Definition follows (l x : loc) : bool :=
  Nat.eqb (l_owner x) (l_owner l) && String.eqb (l_name l) "focallength_px" && is_f (l_name x).

Lemma clean_norm h l : Inv clean h -> wrapped_loc h l = true -> norm (mem h l) = mem h l.
Proof.
  intros HI HW. unfold wrapped_loc in HW. destruct (objs h (l_owner l)) as [b|] eqn:E; [|discriminate].
  destruct (okd b) as [|k| | | |] eqn:K; try discriminate. apply String.eqb_eq in HW.
  destruct (HI _ b E) as (_&_&F). specialize (F (fun H => H)). unfold ParamFacts.fresh in F. rewrite K in F.
  destruct F as (_&(v&R&W)&_). assert (EL : Loc (l_owner l) (wrapped_name k) = l) by (destruct l; cbn in *; congruence).
  rewrite EL in R. unfold ParamOps.norm. unfold rdl in R. rewrite R, W. reflexivity.
Qed.
Lemma focal_cb D h l q : Inv D h -> valid h l -> (cbk h l = Some (CbFocal q) <-> l = Loc q "focallength_px").
Proof.
  intros HI (b&E&Hn). destruct (HI _ b E) as (_&W&_). unfold wired in W.
  assert (EL : l = Loc (l_owner l) (l_name l)) by (destruct l; reflexivity).
  destruct (okd b) as [k|k|k| | |] eqn:K; try contradiction Hn.
  - destruct W as (_&F&_&O). destruct (string_dec (l_name l) "focallength_px") as [En|Nn].
    + rewrite EL at 1. rewrite En, F. split; intros X; [inversion X; subst; rewrite EL, En; reflexivity|]. rewrite X. reflexivity.
    + split; [|intros ->; cbn in Nn; congruence]. intros X. rewrite EL in X.
      destruct (O _ Hn Nn) as [Y|(_&l2&Y&_)]; congruence.
  - destruct W as (_&W). split; [|intros ->]; [|cbn [l_name base_names] in Hn; destruct k; cbn in Hn; repeat destruct Hn as [Hn|Hn]; try discriminate; contradiction].
    intros X. rewrite EL in X. destruct (W _ Hn) as (_&Y). congruence.
  - destruct W as (W&_). split; [|intros ->]; [|cbn [l_name base_names] in Hn; destruct k; cbn in Hn; repeat destruct Hn as [Hn|Hn]; try discriminate; contradiction].
    intros X. rewrite EL in X. rewrite (W _ Hn) in X. discriminate.
  - destruct W as (_&W). split; [|intros ->]; [|cbn in Hn; repeat destruct Hn as [Hn|Hn]; try discriminate; contradiction].
    intros X. rewrite EL in X. rewrite (W _ Hn) in X. discriminate.
Qed.
Lemma wrapped_cb h l D : Inv D h -> wrapped_loc h l = true -> cbk h l = Some (CbOrient (l_owner l)).
Proof.
  intros HI HW. unfold wrapped_loc in HW. destruct (objs h (l_owner l)) as [b|] eqn:E; [|discriminate].
  destruct (okd b) as [|k| | | |] eqn:K; try discriminate. apply String.eqb_eq in HW.
  destruct (HI _ b E) as (_&W&_). unfold wired in W. rewrite K in W. destruct W as (_&W).
  destruct (W _ (wrapped_in k)) as (_&Y). rewrite <- Y. destruct l; cbn in *; congruence.
Qed.

(** ** One assignment *)
Lemma write_mem h l p h' : Inv clean h -> valid h l -> callback p = cbk h l ->
  call wrapv (set_mem h l p) (callback p) = (h', true) ->
  sim h h' /\ mem h' l = (if wrapped_loc h l then norm p else p) /\
  (forall x, x <> l -> mem h' x = if follows l x then with_value (value p) (mem h x) else mem h x).
Proof.
  intros HI HV EC HR. destruct (write_call wrapv wrap_ok clean h l p h' HI HV EC HR) as (I'&M&S). split; [exact S|].
  assert (O1 : objs (set_mem h l p) = objs h) by reflexivity.
  split.
  - rewrite M. unfold ParamOps.posts. rewrite O1. destruct (objs h (l_owner l)) as [b|] eqn:E; [|destruct HV as (b&E'&_); congruence].
    destruct (wrapped_loc h l) eqn:HW.
    + assert (C := wrapped_cb h l clean HI HW). unfold wrapped_loc in HW. rewrite E in HW. destruct (okd b); try discriminate.
      rewrite HW, C. cbn [cs_of hit existsb cb_eqb]. rewrite Nat.eqb_refl. cbn [orb andb]. rewrite set_mem_same. reflexivity.
    + unfold wrapped_loc in HW. rewrite E in HW. destruct (okd b) eqn:K; try apply set_mem_same.
      * destruct (is_f (l_name l)) eqn:F; [|cbn [andb]; apply set_mem_same].
        destruct (hit_spec (cs_of (cbk h l)) (CbFocal (l_owner l))) as [Hh|Hh]; [|cbn [andb]; apply set_mem_same].
        exfalso. destruct (cbk h l) as [c|] eqn:Ec; [|destruct Hh]. destruct Hh as [->|[]].
        apply (focal_cb clean h l _ HI HV) in Ec. rewrite Ec in F. discriminate.
      * rewrite HW. cbn [andb]. apply set_mem_same.
  - intros x N. rewrite M. unfold ParamOps.posts. rewrite O1.
    destruct (objs h (l_owner x)) as [b|] eqn:E.
    + destruct (follows l x) eqn:HF.
      * unfold follows in HF. apply andb_prop in HF. destruct HF as (HF&F3). apply andb_prop in HF. destruct HF as (F1&F2).
        apply Nat.eqb_eq in F1. apply String.eqb_eq in F2.
        assert (EL : l = Loc (l_owner x) "focallength_px") by (destruct l, x; cbn in *; congruence).
        assert (C : cbk h l = Some (CbFocal (l_owner x))) by (apply (focal_cb clean h l _ HI HV); exact EL).
        assert (PK : exists k, okd b = KProj k).
        { destruct HV as (b2&E2&Hn). rewrite <- F1, E in E2. inversion E2; subst b2. rewrite F2 in Hn.
          destruct (okd b) as [k|k|k| | |]; eauto; exfalso; try (destruct k); cbn in Hn; repeat destruct Hn as [Hn|Hn]; try discriminate; contradiction. }
        destruct PK as (k&K). rewrite K, F3, C. cbn [cs_of hit existsb cb_eqb]. rewrite Nat.eqb_refl. cbn [orb andb].
        rewrite (set_mem_other h l p x N), <- EL, set_mem_same. reflexivity.
      * destruct (okd b) as [k|k|k| | |] eqn:K; try (apply set_mem_other; exact N).
        -- destruct (is_f (l_name x)) eqn:F; [|cbn [andb]; apply set_mem_other; exact N].
           destruct (hit_spec (cs_of (cbk h l)) (CbFocal (l_owner x))) as [Hh|Hh]; [|cbn [andb]; apply set_mem_other; exact N].
           exfalso. destruct (cbk h l) as [c|] eqn:Ec; [|destruct Hh]. destruct Hh as [->|[]].
           apply (focal_cb clean h l _ HI HV) in Ec. unfold follows in HF. rewrite Ec, F in HF. cbn in HF. rewrite Nat.eqb_refl in HF. discriminate.
        -- rewrite set_mem_other by exact N. destruct (String.eqb_spec (l_name x) (wrapped_name k)) as [Ew|]; [|reflexivity].
           destruct (hit _ _); [|reflexivity]. cbn [andb]. apply clean_norm; [exact HI|].
           unfold wrapped_loc. rewrite E, K, Ew. apply String.eqb_refl.
    + rewrite set_mem_other by exact N. destruct (follows l x) eqn:HF; [|reflexivity].
      exfalso. unfold follows in HF. apply andb_prop in HF. destruct HF as (HF&_). apply andb_prop in HF. destruct HF as (F1&_).
      apply Nat.eqb_eq in F1. destruct HV as (b&E2&_). rewrite <- F1, E in E2. discriminate.
Qed.
Lemma set_attr_mem h o n a l h' : Inv clean h -> writes h o n l -> set_attr wrapv h o n a = (h', true) ->
  sim h h' /\ mem h' l = (if wrapped_loc h l then norm (assign a (mem h l)) else assign a (mem h l)) /\
  (forall x, x <> l -> mem h' x = if follows l x then with_value (value (assign a (mem h l))) (mem h x) else mem h x).
Proof.
  intros HI HW HR. assert (HV := writes_valid clean h o n l HI HW). destruct HW as (b&E&Ha).
  unfold set_attr in HR. rewrite E, Ha in HR. cbv zeta in HR. rewrite set_mem_same in HR.
  apply write_mem; auto. destruct a; reflexivity.
Qed.
Lemma set_attr_plain h o n a h' : (forall l, ~ writes h o n l) -> set_attr wrapv h o n a = (h', true) ->
  exists b, objs h o = Some b /\ h' = set_obj h o (add_attr b n a).
Proof.
  intros HW HR. unfold set_attr in HR. destruct (objs h o) as [b|] eqn:E; [|discriminate].
  destruct (assoc n (table b)) as [l|] eqn:Ha.
  - exfalso. apply (HW l). exists b. auto.
  - inversion HR; subst. exists b. auto.
Qed.
Definition with_default (v : option V) (p : param) : param :=
  Param (value p) (mean p) (std p) v (state p) (ptype p) (callback p).
Lemma set_default_mem h o n v l h' : Inv clean h -> writes h o n l -> set_default wrapv h o n v = (h', true) ->
  sim h h' /\
  (value (mem h l) <> None -> mem h' l = with_default v (mem h l) /\ forall x, x <> l -> mem h' x = mem h x) /\
  (value (mem h l) = None ->
     mem h' l = (if wrapped_loc h l then norm (with_default v (mem h l)) else with_default v (mem h l)) /\
     forall x, x <> l -> mem h' x = if follows l x then with_value None (mem h x) else mem h x).
Proof.
  intros HI HW HR. assert (HV := writes_valid clean h o n l HI HW). destruct HW as (b&E&Ha).
  unfold set_default in HR. rewrite E, Ha in HR. cbv zeta in HR. fold (with_default v (mem h l)) in HR.
  destruct (value (mem h l)) as [w|] eqn:Ev.
  - inversion HR; subst h'. split; [apply set_mem_sim|]. split; [|congruence]. intros _.
    split; [apply set_mem_same|]. intros x N. apply set_mem_other; exact N.
  - change (callback (mem h l)) with (callback (with_default v (mem h l))) in HR.
    destruct (write_mem h l (with_default v (mem h l)) h' HI HV eq_refl HR) as (S&M1&M2). split; [exact S|].
    split; [congruence|]. intros _. split; [exact M1|]. intros x N. rewrite (M2 x N). cbn [value with_default]. rewrite Ev. reflexivity.
Qed.

(** ** Fits, samples and means *)
Lemma last_for_hit t l vals : last_for t l vals <> None <-> exists n (v : V), In (n, v) vals /\ assoc n t = Some l.
Proof.
  induction vals as [|[n v] vals IH]; cbn [last_for].
  - split; [congruence|intros (n&v&[]&_)].
  - destruct (last_for t l vals) as [w|].
    + split; [|congruence]. intros _. destruct IH as (IH&_). destruct IH as (m&u&Hi&Ha); [congruence|]. exists m, u. split; [right|]; auto.
    + destruct (assoc n t) as [l'|] eqn:Ha.
      * destruct (loc_eqb_spec l' l) as [->|N].
        -- split; [|congruence]. intros _. exists n, v. split; [left; auto|exact Ha].
        -- split; [congruence|]. intros (m&u&[X|X]&Y); [inversion X; subst; congruence|]. apply IH. exists m, u. auto.
      * split; [congruence|]. intros (m&u&[X|X]&Y); [inversion X; subst; congruence|]. apply IH. exists m, u. auto.
Qed.
Lemma last_name_hit l (t : list (name * loc)) : last_name l t <> None <-> exists n, In (n, l) t.
Proof.
  induction t as [|[n l'] t IH]; cbn [last_name].
  - split; [congruence|intros (n&[])].
  - destruct (last_name l t) as [w|].
    + split; [|congruence]. intros _. destruct IH as (IH&_). destruct IH as (m&Hi); [congruence|]. exists m. right; auto.
    + destruct (loc_eqb_spec l' l) as [->|N].
      * split; [|congruence]. intros _. exists n. left; auto.
      * split; [congruence|]. intros (m&[X|X]); [inversion X; subst; congruence|]. apply IH. exists m. auto.
Qed.
(** The common end of both: [q] is what was written, [F] whether focallength_px was visited. *)
Definition settled h (q : loc -> param) (F : loc -> bool) (x : loc) : param :=
  if wrapped_loc h x then norm (q x)
  else if proj_loc h x && is_f (l_name x) && F (Loc (l_owner x) "focallength_px")
       then with_value (value (q (Loc (l_owner x) "focallength_px"))) (q x) else q x.
Lemma posts_settled h h1 (W : loc -> Prop) F cs : Inv clean h -> objs h1 = objs h ->
  (forall x, W x -> valid h x) -> (forall x, F x = true <-> W x) ->
  (forall x, ~ W x -> mem h1 x = mem h x) ->
  (forall c, In c cs <-> exists l, W l /\ cbk h l = Some c) ->
  forall x, posts h1 cs x = settled h (mem h1) F x.
Proof.
  intros HI HO HV HF HK HC x. unfold ParamOps.posts, settled, wrapped_loc, proj_loc. rewrite HO.
  destruct (objs h (l_owner x)) as [b|] eqn:E; [|reflexivity].
  destruct (okd b) as [k|k|k| | |] eqn:K; cbn [andb]; try reflexivity.
  - destruct (is_f (l_name x)) eqn:EF; [|reflexivity]. cbn [andb].
    destruct (hit_spec cs (CbFocal (l_owner x))) as [Hh|Hh].
    + apply HC in Hh. destruct Hh as (l&Wl&Cl). apply (focal_cb clean h l _ HI (HV l Wl)) in Cl. subst l.
      apply HF in Wl. rewrite Wl. reflexivity.
    + destruct (F (Loc (l_owner x) "focallength_px")) eqn:EFx; [|reflexivity]. exfalso. apply Hh. apply HC.
      apply HF in EFx. exists (Loc (l_owner x) "focallength_px"). split; [exact EFx|]. apply (focal_cb clean h _ _ HI (HV _ EFx)). reflexivity.
  - destruct (String.eqb_spec (l_name x) (wrapped_name k)) as [Ew|]; [|reflexivity]. cbn [andb].
    assert (HWr : wrapped_loc h x = true) by (unfold wrapped_loc; rewrite E, K, Ew; apply String.eqb_refl).
    destruct (hit_spec cs (CbOrient (l_owner x))) as [Hh|Hh]; [reflexivity|].
    assert (NW : ~ W x). { intros Wx. apply Hh, HC. exists x. split; [exact Wx|]. apply (wrapped_cb h x clean); auto. }
    rewrite (HK x NW). symmetry. apply clean_norm; auto.
Qed.
Definition fitted (t : list (name * loc)) (vals : list (name * V)) h (x : loc) : param :=
  match last_for t x vals with Some v => fit_param v (mem h x) | None => mem h x end.
Lemma set_fit_mem ord h o vals h' b : is_order ord -> Inv clean h -> objs h o = Some b ->
  set_fit wrapv ord h o vals = (h', true) ->
  sim h h' /\ forall x, mem h' x = settled h (fitted (table b) vals h)
                          (fun f => match last_for (table b) f vals with Some _ => true | None => false end) x.
Proof.
  intros HO HI E HR. destruct (set_fit_spec wrapv wrap_ok ord clean h o vals h' b HO HI (fun x H => H) E HR) as (h1&cs&I'&S&O1&M1&C1&M2).
  split; [exact S|]. intros x. rewrite M2.
  assert (EM : forall y, mem h1 y = fitted (table b) vals h y) by (intros y; rewrite M1; reflexivity).
  set (F := fun f => match last_for (table b) f vals with Some _ => true | None => false end).
  transitivity (settled h (mem h1) F x).
  - apply (posts_settled h h1 (fun l => last_for (table b) l vals <> None) F cs); auto.
    + intros y Hy. apply last_for_hit in Hy. destruct Hy as (n&v&_&Ha). eapply table_valid; eauto.
    + intros y. unfold F. destruct (last_for (table b) y vals); split; congruence.
    + intros y Hy. rewrite M1. destruct (last_for (table b) y vals); [exfalso; apply Hy; congruence|reflexivity].
    + intros c. rewrite C1. split.
      * intros (n&v&l&H1&H2&H3). exists l. split; [|exact H3]. apply last_for_hit. exists n, v. auto.
      * intros (l&H1&H3). apply last_for_hit in H1. destruct H1 as (n&v&H1&H2). exists n, v, l. auto.
  - unfold settled. rewrite !EM. reflexivity.
Qed.
Definition drawn (f : name -> V -> option V -> V) (t : list (name * loc)) h (x : loc) : param :=
  match last_name x t with Some n => stat_param f n (mem h x) | None => mem h x end.
Lemma stats_mem f ord h o h' b : is_order ord -> Inv clean h -> objs h o = Some b ->
  stats_op wrapv f ord h o = (h', true) ->
  sim h h' /\ forall x, mem h' x = settled h (drawn f (table b) h)
                          (fun y => match last_name y (table b) with Some _ => true | None => false end) x.
Proof.
  intros HO HI E HR. destruct (stats_spec wrapv wrap_ok f ord clean h o h' b HO HI (fun x H => H) E HR) as (h1&cs&I'&S&O1&M1&C1&M2).
  split; [exact S|]. intros x. rewrite M2.
  assert (EM : forall y, mem h1 y = drawn f (table b) h y) by (intros y; rewrite M1; reflexivity).
  set (F := fun y => match last_name y (table b) with Some _ => true | None => false end).
  transitivity (settled h (mem h1) F x).
  - apply (posts_settled h h1 (fun l => last_name l (table b) <> None) F cs); auto.
    + intros y Hy. apply last_name_hit in Hy. destruct Hy as (n&Hn). eapply table_valid_in; eauto.
    + intros y. unfold F. destruct (last_name y (table b)); split; congruence.
    + intros y Hy. rewrite M1. destruct (last_name y (table b)); [exfalso; apply Hy; congruence|reflexivity].
    + intros c. rewrite C1. split.
      * intros (n&l&H1&H3). exists l. split; [|exact H3]. apply last_name_hit. exists n. auto.
      * intros (l&H1&H3). apply last_name_hit in H1. destruct H1 as (n&H1). exists n, l. auto.
  - unfold settled. rewrite !EM. reflexivity.
Qed.

(** ** The order of the callbacks does not matter *)
Lemma calls_order D h cs1 cs2 h1 : Inv D h -> (forall c, In c cs1 <-> In c cs2) ->
  (forall x, D x -> covers cs1 x) -> (forall c, In c cs1 -> cb_ok h c) -> calls wrapv h cs1 = (h1, true) ->
  exists h2, calls wrapv h cs2 = (h2, true) /\ Inv clean h1 /\ Inv clean h2 /\ sim h h1 /\ sim h h2 /\ forall x, mem h2 x = mem h1 x.
Proof.
  intros HI HP HD HC HR. destruct (calls_spec wrapv wrap_ok cs1 D h h1 HI HC HR) as (A1&A2&A3).
  assert (HC2 : forall c, In c cs2 -> cb_ok h c) by (intros c Hc; apply HC, HP, Hc).
  assert (OK := calls_okc wrapv wrap_ok cs1 D h h1 HI HC HR).
  destruct (calls_ok wrapv wrap_ok cs2 D h HI HC2) as (h2&R2); [intros c Hc; apply OK, HP, Hc|].
  destruct (calls_spec wrapv wrap_ok cs2 D h h2 HI HC2 R2) as (B1&B2&B3).
  exists h2. split; [exact R2|]. split; [|split; [|split; [exact A3|split; [exact B3|]]]].
  - eapply Inv_weaken; [|exact A1]. intros x (Hx&Nx). destruct (HD x Hx) as (c&Hc&Ht). exfalso. apply (Nx c); auto.
  - eapply Inv_weaken; [|exact B1]. intros x (Hx&Nx). destruct (HD x Hx) as (c&Hc&Ht). exfalso. apply (Nx c); auto. apply HP; auto.
  - intros x. rewrite A2, B2. unfold ParamOps.posts. destruct (objs h (l_owner x)) as [b|]; auto.
    assert (HH : forall c, hit cs2 c = hit cs1 c).
    { intros c. destruct (hit_spec cs1 c) as [X|X], (hit_spec cs2 c) as [Y|Y]; auto; exfalso; [apply Y, HP, X|apply X, HP, Y]. }
    destruct (okd b); auto; rewrite HH; auto.
Qed.
Lemma set_fit_order ord1 ord2 h o vals h1 : is_order ord1 -> is_order ord2 -> Inv clean h ->
  set_fit wrapv ord1 h o vals = (h1, true) ->
  exists h2, set_fit wrapv ord2 h o vals = (h2, true) /\ Inv clean h1 /\ Inv clean h2 /\ sim h h1 /\ sim h h2 /\ forall x, mem h2 x = mem h1 x.
Proof.
  intros O1 O2 HI HR. unfold set_fit in *. destruct (objs h o) as [b|] eqn:E; [|discriminate].
  destruct (write_fit h b vals []) as [h0 cs] eqn:EW.
  destruct (write_fit_spec wrapv o b vals clean h [] h0 cs EW HI E) as (D1&A1&A2&A3&A4&A5&A6&A7&A8).
  { intros x []. } { intros c []. }
  destruct (calls_order D1 h0 (ord1 cs) (ord2 cs) h1 A1) with (4 := HR) as (h2&B1&B2&B3&B4&B5&B6).
  - intros c. rewrite (O1 cs c), (O2 cs c). tauto.
  - intros x Hx. destruct (A2 x Hx) as (c&Hc&Ht). exists c. split; [apply O1; exact Hc|exact Ht].
  - intros c Hc. apply A3, O1, Hc.
  - assert (S1 : sim h h0). { split; auto. intros x. rewrite A4. destruct (objs h x); auto. apply osim_refl. }
    exists h2. split; [exact B1|split; [exact B2|split; [exact B3|split; [eapply sim_trans; eauto|split; [eapply sim_trans; eauto|exact B6]]]]].
Qed.
Lemma stats_order f ord1 ord2 h o h1 : is_order ord1 -> is_order ord2 -> Inv clean h ->
  stats_op wrapv f ord1 h o = (h1, true) ->
  exists h2, stats_op wrapv f ord2 h o = (h2, true) /\ Inv clean h1 /\ Inv clean h2 /\ sim h h1 /\ sim h h2 /\ forall x, mem h2 x = mem h1 x.
Proof.
  intros O1 O2 HI HR. unfold stats_op in *. destruct (objs h o) as [b|] eqn:E; [|discriminate].
  destruct (write_stats f h (table b) []) as [h0 cs] eqn:EW.
  destruct (write_stats_spec wrapv f (table b) clean h [] h0 cs EW HI) as (D1&A1&A2&A3&A4&A5&A6&A7&A8).
  { intros n l Hin. eapply table_valid_in; eauto. } { intros x []. } { intros c []. }
  destruct (calls_order D1 h0 (ord1 cs) (ord2 cs) h1 A1) with (4 := HR) as (h2&B1&B2&B3&B4&B5&B6).
  - intros c. rewrite (O1 cs c), (O2 cs c). tauto.
  - intros x Hx. destruct (A2 x Hx) as (c&Hc&Ht). exists c. split; [apply O1; exact Hc|exact Ht].
  - intros c Hc. apply A3, O1, Hc.
  - assert (S1 : sim h h0). { split; auto. intros x. rewrite A4. destruct (objs h x); auto. apply osim_refl. }
    exists h2. split; [exact B1|split; [exact B2|split; [exact B3|split; [eapply sim_trans; eauto|split; [eapply sim_trans; eauto|exact B6]]]]].
Qed.
(** Equal memories and objects up to derived state: every attribute reads the same. *)
Lemma get_attr_same h h' o n : sim h h' -> (forall x, rdl h' x = rdl h x) -> get_attr h' o n = get_attr h o n.
Proof.
  intros (_&S) M. specialize (S o). unfold get_attr. destruct (objs h o) as [b|], (objs h' o) as [b'|]; try contradiction; auto.
  destruct S as (_&A&T&_). rewrite A, T. destruct (attrs b n); auto. destruct (assoc n (table b)); auto. rewrite M. auto.
Qed.
Lemma sim_sym h h' : sim h h' -> sim h' h.
Proof.
  intros (N&S). split; [congruence|]. intros o. specialize (S o). destruct (objs h o), (objs h' o); try contradiction; auto.
  destruct S as (?&?&?&?). repeat split; congruence.
Qed.

(** ** A camera and its components *)
Lemma camera_reads h c p o l n : CamInv h -> Inv clean h -> cam_at h c p o l ->
  (In n pnames -> reads h c n (Loc p n) /\ writes h p n (Loc p n)) /\
  (forall k, orient_at h o k -> In n (onames k) -> reads h c n (Loc o n) /\ reads h o n (Loc o n)) /\
  (forall k, lens_at h l k -> In n (lnames k) -> reads h c n (Loc l n) /\ reads h l n (Loc l n)) /\
  (forall k, lens_at h l k -> k <> NoDist -> In n shared_names -> writes h l n (Loc p n)).
Proof.
  intros HC HI (b&E&K). destruct (HC c b p o l E K) as (g&pk&k&lk&(bp&Ep&Kp)&(bo&Eo&Ko)&(bl&El&Kl)&HL&_&HT&HA).
  assert (AS : forall m, assoc m (table b) = if mem_name m (all_names k lk) then Some (Loc (owner_of g p o l k lk m) m) else None).
  { intros m. rewrite HT. apply cam_table_assoc. }
  assert (IN : forall m x, owner_of g p o l k lk m = x -> In m (all_names k lk) -> reads h c m (Loc x m)).
  { intros m x Hx Hm. exists b. split; [exact E|split; [apply HA; exact Hm|]]. rewrite AS, mem_name_in, Hx by exact Hm. reflexivity. }
  split; [|split; [|split]].
  - intros Hn. split.
    + apply IN; [|unfold all_names; rewrite !in_app_iff; auto]. cbn in Hn. repeat destruct Hn as [<-|Hn]; try reflexivity. contradiction.
    + exists bp. split; [exact Ep|]. destruct (HI p bp Ep) as (_&W&_). unfold wired in W. rewrite Kp in W. destruct W as (T&_).
      rewrite T. apply pn_table; exact Hn.
  - intros k' (bo'&Eo'&Ko') Hn. assert (k' = k) by congruence. subst k'. split.
    + apply IN; [|unfold all_names; rewrite !in_app_iff; auto]. destruct k; cbn in Hn; repeat destruct Hn as [<-|Hn]; try reflexivity; contradiction.
    + destruct (HI o bo Eo) as (_&W&_). unfold wired in W. rewrite Ko in W. destruct W as (T&W). exists bo. split; [exact Eo|].
      split; [apply W; exact Hn|]. rewrite T. apply on_table; exact Hn.
  - intros k' (bl'&El'&Kl') Hn. assert (k' = lk) by congruence. subst k'. split.
    + apply IN; [|unfold all_names; rewrite !in_app_iff; auto].
      destruct k, lk; cbn in Hn; repeat destruct Hn as [<-|Hn]; try reflexivity; contradiction.
    + destruct (HI l bl El) as (_&W&_). unfold wired in W. rewrite Kl in W. destruct W as (_&W&T). exists bl. split; [exact El|].
      split; [apply W; exact Hn|]. destruct (lproj bl) as [q|].
      * destruct T as (_&T&_). rewrite T. apply ln_table; exact Hn.
      * rewrite T. unfold self_table. rewrite (assoc_map (Loc l)). cbn [base_names]. rewrite mem_name_in by exact Hn. reflexivity.
  - intros k' (bl'&El'&Kl') NK Hn. assert (k' = lk) by congruence. subst k'. destruct (HL NK) as (bx&kx&Ex&Kx&Nx&Lx).
    assert (bx = bl) by congruence. subst bx. exists bl. split; [exact El|].
    destruct (HI l bl El) as (_&W&_). unfold wired in W. rewrite Kl in W. destruct W as (_&_&T). rewrite Lx in T. destruct T as (_&T&_).
    rewrite T. unfold lens_table. rewrite assoc_app, (assoc_map (Loc l)).
    destruct (mem_name_spec n (lnames lk)) as [X|X].
    + exfalso. destruct lk; cbn in X, Hn; repeat destruct X as [<-|X]; try contradiction; repeat destruct Hn as [Hn|Hn]; try discriminate; contradiction.
    + rewrite (assoc_map (Loc p)), mem_name_in by exact Hn. reflexivity.
Qed.
End Laws.
