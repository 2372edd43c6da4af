(** * When operations raise *)
Require Import List Bool String Arith NArith QArith Lia.
From Verif Require Import Projection Param ParamFacts ParamOps ParamSteps ParamReach ParamCam ParamLaws.
Import ListNotations.
Open Scope nat_scope.
Open Scope string_scope.

Section Total.
Context {V : Type} (wrapv : V -> option V) (lit : Q -> V).
Hypothesis wrap_ok : forall v v', wrapv v = Some v' -> wrapv v' = None.
Notation heap := (heap V). Notation obj := (obj V). Notation param := (param V). Notation arg := (arg V).
Notation Inv := (Inv wrapv). Notation norm := (norm wrapv). Notation posts := (posts wrapv).
Implicit Types (h : heap) (b : obj).

(** Every parameter reads a number; every focallength_px has a value; the frozen image
    size of a projection is a number. *)
Definition full h : Prop :=
  (forall l, valid h l -> rdl h l <> None) /\
  (forall p, valid h (Loc p "focallength_px") -> value (mem h (Loc p "focallength_px")) <> None) /\
  (forall p b n, objs h p = Some b -> is_proj (okd b) -> In n ["image_width_px"; "image_height_px"] ->
     attrs b n = None \/ exists v, attrs b n = Some (ANum v)).

Lemma full_okc_lens D h o : Inv D h -> full h -> okc_lens h o.
Proof.
  intros HI (FR&_&FA) b k E K. split.
  - intros n Hn. apply FR. exists b. split; [exact E|]. cbn [l_name]. rewrite K. exact Hn.
  - intros _ p L. destruct (HI o b E) as (_&W&_). unfold wired in W. rewrite K, L in W. destruct W as (_&_&_&_&(bp&Ep&Kp)&_).
    assert (G : forall n, In n ["image_width_px"; "image_height_px"] -> get_num h p n <> None).
    { intros n Hn. unfold get_num, get_attr. rewrite Ep. destruct (FA p bp n Ep Kp Hn) as [A|(v&A)]; rewrite A; [|discriminate].
      destruct (HI p bp Ep) as (_&Wp&_). unfold wired in Wp. destruct (okd bp) as [pk| | | | |] eqn:Kb; try contradiction.
      destruct Wp as (T&_). assert (Hp : In n pnames) by (cbn in Hn; destruct Hn as [<-|[<-|[]]]; cbn; tauto).
      rewrite T, (pn_table p pk n Hp).
      assert (X : rdl h (Loc p n) <> None) by (apply FR; exists bp; split; [exact Ep|]; cbn [l_name]; rewrite Kb; exact Hp).
      destruct (rdl h (Loc p n)); [discriminate|congruence]. }
    split; apply G; cbn; tauto.
Qed.
Lemma full_okc D h c : Inv D h -> full h -> okc h c.
Proof.
  intros HI HF. destruct c as [o|o|p]; cbn [okc].
  - intros k (b&E&K) n Hn. destruct HF as (FR&_). apply FR. exists b. split; [exact E|]. cbn [l_name]. rewrite K. apply angle_in; exact Hn.
  - eapply full_okc_lens; eauto.
  - intros o _. eapply full_okc_lens; eauto.
Qed.
Lemma norm_some p : rd p <> None -> rd (norm p) <> None.
Proof. intros H. unfold ParamOps.norm. destruct (rd p) as [v|] eqn:E; [|congruence]. destruct (wrapv v); [discriminate|congruence]. Qed.
Lemma focal_owner h p : valid h (Loc p "focallength_px") -> exists b k, objs h p = Some b /\ okd b = KProj k.
Proof.
  intros (b&E&Hn). cbn [l_owner l_name] in *. exists b. destruct (okd b) as [k|k|k| | |] eqn:K; eauto; exfalso;
    try destruct k; cbn in Hn; repeat destruct Hn as [Hn|Hn]; try discriminate; contradiction.
Qed.
Lemma proj_valid h p b k n : objs h p = Some b -> okd b = KProj k -> In n pnames -> valid h (Loc p n).
Proof. intros E K Hn. exists b. split; [exact E|]. cbn [l_name]. rewrite K. exact Hn. Qed.
Lemma valid_back h h' l : sim h h' -> valid h' l -> valid h l.
Proof. intros S. apply valid_sim, sim_sym, S. Qed.
Lemma full_posts h h' cs : full h -> sim h h' -> (forall x, mem h' x = posts h cs x) -> full h'.
Proof.
  intros (FR&FF&FA) S M. split; [|split].
  - intros l Hl. apply (valid_back h h' l S) in Hl. unfold rdl. rewrite M. unfold ParamOps.posts.
    destruct (objs h (l_owner l)) as [b|] eqn:E; [|apply FR; exact Hl].
    destruct (okd b) as [k|k|k| | |] eqn:K; try (apply FR; exact Hl).
    + destruct (is_f (l_name l) && _); [|apply FR; exact Hl]. unfold rd. cbn [value with_value].
      assert (X : value (mem h (Loc (l_owner l) "focallength_px")) <> None) by (apply FF; eapply proj_valid; eauto; cbn; tauto).
      destruct (value _); congruence.
    + destruct (_ && _); [|apply FR; exact Hl]. apply norm_some. apply FR. exact Hl.
  - intros p Hp. apply (valid_back h h' _ S) in Hp. destruct (focal_owner h p Hp) as (b&k&E&K). rewrite M. unfold ParamOps.posts.
    cbn [l_owner l_name]. rewrite E, K. cbn [is_f String.eqb]. cbn. apply FF. exact Hp.
  - intros p b' n E' K' Hn. destruct (sim_back _ _ _ _ S E') as (b&E&(Kb&A&_)). rewrite A. apply (FA p b n E); [congruence|exact Hn].
Qed.
Lemma calls_full D h cs : Inv D h -> full h -> (forall c, In c cs -> cb_ok h c) -> exists h', calls wrapv h cs = (h', true) /\ full h'.
Proof.
  intros HI HF HC. destruct (calls_ok wrapv wrap_ok cs D h HI HC) as (h'&R); [intros c _; eapply full_okc; eauto|].
  exists h'. split; [exact R|]. destruct (calls_spec wrapv wrap_ok cs D h h' HI HC R) as (_&M&S). eapply full_posts; eauto.
Qed.
Lemma full_set h l p : full h -> rd p <> None -> (l_name l = "focallength_px" -> value p <> None) -> full (set_mem h l p).
Proof.
  intros (FR&FF&FA) HR HV. split; [|split; [|exact FA]].
  - intros x Hx. unfold rdl. cbn [mem set_mem]. destruct (loc_eqb_spec x l); [exact HR|apply FR; exact Hx].
  - intros q Hq. cbn [mem set_mem]. destruct (loc_eqb_spec (Loc q "focallength_px") l) as [X|]; [|apply FF; exact Hq].
    apply HV. rewrite <- X. reflexivity.
Qed.
Lemma write_full h l p : Inv clean h -> full h -> valid h l -> callback p = cbk h l -> rd p <> None ->
  (l_name l = "focallength_px" -> value p <> None) ->
  exists h', call wrapv (set_mem h l p) (callback p) = (h', true) /\ full h'.
Proof.
  intros HI HF HV EC HR HVal. rewrite call_calls. assert (I1 := Inv_write wrapv clean h l p HI EC).
  apply (calls_full _ _ _ I1); [apply full_set; auto|].
  rewrite EC. intros c Hc. eapply cb_ok_sim; [apply set_mem_sim|]. destruct (cbk h l) as [c0|] eqn:E; [|destruct Hc].
  destruct Hc as [<-|[]]. eapply valid_cb; eauto.
Qed.

(** ** Assignments, defaults, fits, samples *)
Lemma full_set_attr h o n a b : Inv clean h -> full h -> objs h o = Some b ->
  (a = ANone -> forall l, writes h o n l -> default (mem h l) <> None /\ l_name l <> "focallength_px") ->
  exists h', set_attr wrapv h o n a = (h', true) /\ full h'.
Proof.
  intros HI HF E HN. unfold set_attr. rewrite E. destruct (assoc n (table b)) as [l|] eqn:Ha.
  - assert (HW : writes h o n l) by (exists b; auto). cbv zeta. rewrite set_mem_same.
    apply write_full; auto.
    + eapply table_valid; eauto.
    + destruct a; reflexivity.
    + destruct a; cbn [assign rd value]; try discriminate. unfold rd; cbn [value default]. apply (HN eq_refl l HW).
    + destruct a; cbn [assign value]; try discriminate. intros X. exfalso. apply (proj2 (HN eq_refl l HW) X).
  - eexists. split; [reflexivity|]. destruct HF as (FR&FF&FA).
    assert (VB : forall x, valid (set_obj h o (add_attr b n a)) x -> valid h x).
    { intros x (bx&Ex&Hx). cbn [objs set_obj] in Ex. destruct (Nat.eqb_spec (l_owner x) o) as [EO|NO].
      - inversion Ex; subst bx. exists b. rewrite EO. auto.
      - exists bx. auto. }
    split; [|split].
    + intros x Hx. apply FR, VB, Hx.
    + intros p Hp. apply FF, VB, Hp.
    + intros p b' m E' K' Hm. cbn [objs set_obj] in E'. destruct (Nat.eqb_spec p o) as [->|NO]; [|eapply FA; eauto].
      inversion E'; subst b'. cbn [okd attrs add_attr] in *. destruct (String.eqb_spec m n) as [->|]; [|eapply FA; eauto].
      exfalso. destruct (HI o b E) as (_&W&_). unfold wired in W. destruct (okd b) as [k| | | | |]; try contradiction. destruct W as (T&_).
      rewrite T, (pn_table o k n) in Ha; [discriminate|]. cbn in Hm. destruct Hm as [<-|[<-|[]]]; cbn; tauto.
Qed.
Lemma full_set_default h o n v b : Inv clean h -> full h -> objs h o = Some b ->
  (v = None -> forall l, writes h o n l -> value (mem h l) <> None) ->
  exists h', set_default wrapv h o n v = (h', true) /\ full h'.
Proof.
  intros HI HF E HN. unfold set_default. rewrite E. destruct (assoc n (table b)) as [l|] eqn:Ha; [|eexists; split; [reflexivity|exact HF]].
  assert (HW : writes h o n l) by (exists b; auto). cbv zeta. fold (with_default v (mem h l)).
  assert (HV : valid h l) by (eapply table_valid; eauto).
  destruct (value (mem h l)) as [w|] eqn:Ev.
  - eexists. split; [reflexivity|]. apply full_set; auto; unfold rd; cbn [value with_default]; rewrite Ev; discriminate.
  - change (callback (mem h l)) with (callback (with_default v (mem h l))). apply write_full; auto.
    + unfold rd; cbn [value default with_default]. rewrite Ev. destruct v; [discriminate|]. exfalso. apply (HN eq_refl l HW Ev).
    + intros X. exfalso. destruct HF as (_&FF&_). assert (El : l = Loc (l_owner l) "focallength_px") by (destruct l; cbn in *; congruence).
      rewrite El in HV, Ev. apply (FF _ HV Ev).
Qed.
Lemma full_values h h1 : full h -> objs h1 = objs h ->
  (forall l, mem h1 l = mem h l \/ value (mem h1 l) <> None) -> full h1.
Proof.
  intros (FR&FF&FA) EO HM.
  assert (VB : forall l, valid h1 l -> valid h l) by (intros l (b&E&Hn); exists b; rewrite <- EO; auto).
  split; [|split].
  - intros l Hl. unfold rdl, rd. destruct (HM l) as [X|X]; [rewrite X; apply (FR l (VB l Hl))|]. destruct (value (mem h1 l)); congruence.
  - intros p Hp. destruct (HM (Loc p "focallength_px")) as [X|X]; [rewrite X; apply FF, VB, Hp|exact X].
  - intros p b n E. rewrite EO in E. eapply FA; eauto.
Qed.
Lemma full_set_fit ord h o vals b : is_order ord -> Inv clean h -> full h -> objs h o = Some b ->
  exists h', set_fit wrapv ord h o vals = (h', true) /\ full h'.
Proof.
  intros HO HI HF E. unfold set_fit. rewrite E. destruct (write_fit h b vals []) as [h1 cs] eqn:EW.
  destruct (write_fit_spec wrapv o b vals clean h [] h1 cs EW HI E) as (D1&A1&A2&A3&A4&A5&A6&A7&A8).
  { intros x []. } { intros c []. }
  apply (calls_full D1); [exact A1| |intros c Hc; apply A3, HO, Hc].
  apply (full_values h h1 HF A4). intros l. rewrite A7. destruct (last_for (table b) l vals); [right; discriminate|left; reflexivity].
Qed.
Lemma full_stats f ord h o b : is_order ord -> Inv clean h -> full h -> objs h o = Some b ->
  exists h', stats_op wrapv f ord h o = (h', true) /\ full h'.
Proof.
  intros HO HI HF E. unfold stats_op. rewrite E. destruct (write_stats f h (table b) []) as [h1 cs] eqn:EW.
  destruct (write_stats_spec wrapv f (table b) clean h [] h1 cs EW HI) as (D1&A1&A2&A3&A4&A5&A6&A7&A8).
  { intros n l Hin. eapply table_valid_in; eauto. } { intros x []. } { intros c []. }
  apply (calls_full D1); [exact A1| |intros c Hc; apply A3, HO, Hc].
  apply (full_values h h1 HF A4). intros l. rewrite A7. destruct (last_name l (table b)); [|left; reflexivity].
  unfold stat_param. destruct (mean (mem h l)); [right; discriminate|left; reflexivity].
Qed.

(** ** Constructors *)
Lemma alloc_valid h k vals at_ l : valid (alloc lit h k vals at_) l ->
  (l_owner l = next h /\ In (l_name l) (base_names k)) \/ (l_owner l <> next h /\ valid h l).
Proof.
  intros (b&E&Hn). cbn [objs alloc] in E. destruct (Nat.eqb_spec (l_owner l) (next h)) as [EO|NO].
  - left. inversion E; subst b. auto.
  - right. split; [exact NO|]. exists b. auto.
Qed.
Lemma full_alloc h k vals at_ : full h -> (forall n, In n (base_names k) -> vals n <> None \/ default_of lit n <> None) ->
  (is_proj k -> vals "focallength_px" <> None /\
     forall n, In n ["image_width_px"; "image_height_px"] -> at_ n = None \/ exists v, at_ n = Some (ANum v)) ->
  full (alloc lit h k vals at_).
Proof.
  intros (FR&FF&FA) HV HP. split; [|split].
  - intros l Hl. apply alloc_valid in Hl. unfold rdl. cbn [mem alloc]. destruct Hl as [(EO&Hn)|(NO&Hl)].
    + rewrite EO, Nat.eqb_refl. unfold rd. cbn [value default]. destruct (HV _ Hn) as [X|X]; destruct (vals (l_name l)); congruence.
    + destruct (Nat.eqb_spec (l_owner l) (next h)); [contradiction|]. apply FR; exact Hl.
  - intros p Hp. destruct (focal_owner _ _ Hp) as (b&pk&E&K). apply alloc_valid in Hp. cbn [l_owner l_name mem alloc] in *.
    destruct Hp as [(EO&Hn)|(NO&Hl)].
    + rewrite EO in *. rewrite alloc_obj in E. inversion E; subst b. cbn in K. rewrite Nat.eqb_refl. cbn [value].
      apply HP. rewrite K. exact I.
    + destruct (Nat.eqb_spec p (next h)); [contradiction|]. apply FF; exact Hl.
  - intros p b n E K Hn. cbn [objs alloc] in E. destruct (Nat.eqb_spec p (next h)) as [EO|NO]; [|eapply FA; eauto].
    inversion E; subst b. cbn [attrs okd] in *. apply HP; auto.
Qed.
Lemma onames_default k n : In n (onames k) -> default_of lit n <> None.
Proof. destruct k; cbn; intros H; repeat destruct H as [<-|H]; try discriminate; contradiction. Qed.
Lemma lnames_default k n : In n (lnames k) -> default_of lit n <> None.
Proof. destruct k; cbn; intros H; repeat destruct H as [<-|H]; try discriminate; contradiction. Qed.
Lemma run_full D h c : Inv D h -> full h -> cb_ok h c -> exists h', run_cb wrapv depth h c = (h', true) /\ full h'.
Proof.
  intros HI HF HC. destruct (calls_full D h [c] HI HF) as (h'&R&F').
  - intros c' [<-|[]]. exact HC.
  - exists h'. split; [|exact F']. rewrite calls_cons in R. destruct (Param.run_cb wrapv depth h c) as [h1 []]; [exact R|discriminate].
Qed.
Lemma full_new_orient h k vals : Inv clean h -> full h -> exists h', new_orient wrapv lit h k vals = (h', true) /\ full h'.
Proof.
  intros HI HF. unfold new_orient.
  assert (I1 : Inv (fun x => clean x \/ x = next h) (alloc lit h (KOrient k) vals no_attrs)) by (apply Inv_alloc; [exact HI|exact I|reflexivity]).
  apply (run_full _ _ _ I1).
  - apply full_alloc; [exact HF|intros n Hn; right; eapply onames_default; eauto|intros []].
  - exists k. eexists. split; [apply alloc_obj|reflexivity].
Qed.
Lemma full_new_lens h k vals : Inv clean h -> full h -> exists h', new_lens wrapv lit h k vals = (h', true) /\ full h'.
Proof.
  intros HI HF. assert (F1 : full (alloc lit h (KLens k) vals no_attrs)).
  { apply full_alloc; [exact HF|intros n Hn; right; eapply lnames_default; eauto|intros []]. }
  assert (I1 : Inv (fun x => clean x \/ x = next h) (alloc lit h (KLens k) vals no_attrs)) by (apply Inv_alloc; [exact HI|exact I|reflexivity]).
  assert (R : exists h', run_cb wrapv depth (alloc lit h (KLens k) vals no_attrs) (CbLens (next h)) = (h', true) /\ full h').
  { apply (run_full _ _ _ I1 F1). eexists _, k. split; [apply alloc_obj|reflexivity]. }
  unfold new_lens. destruct k; [eexists; split; [reflexivity|exact F1]|exact R|exact R].
Qed.
Definition proj_given (vals : name -> option V) : Prop :=
  forall n, In n ["focallength_x_px"; "focallength_y_px"; "image_height_px"; "image_width_px"] -> vals n <> None.
Lemma full_new_proj h k vals fr : full h -> proj_given vals -> exists h', new_proj lit h k vals fr = (h', true) /\ full h'.
Proof.
  intros HF HG. unfold new_proj.
  assert (FA : forallb (fun n => is_some (vals n)) ["focallength_x_px"; "focallength_y_px"; "image_height_px"; "image_width_px"] = true).
  { apply forallb_forall. intros n Hn. apply is_some_iff, HG, Hn. }
  rewrite FA. eexists. split; [reflexivity|]. apply full_alloc; [exact HF| |].
  - intros n Hn. assert (GX := HG "focallength_x_px"). cbn in Hn. repeat destruct Hn as [<-|Hn]; try contradiction;
      try (left; apply HG; cbn; tauto); try (right; discriminate).
  - intros _. split; [cbn; apply HG; cbn; tauto|]. intros n Hn. destruct (fr && mem_name n _); [right|left; reflexivity].
    assert (GX : vals n <> None) by (apply HG; cbn in Hn; destruct Hn as [<-|[<-|[]]]; cbn; tauto).
    destruct (vals n) as [v|]; [|congruence]. exists v. reflexivity.
Qed.

(** ** Cameras, groups, loading *)
Lemma full_set_projection h l p : Inv clean h -> full h -> sharing_ok h l p -> exists h', set_projection wrapv h l p = (h', true) /\ full h'.
Proof.
  intros HI HF HS. pose proof HS as (b&k&E&K&_). unfold set_projection. rewrite E, K.
  assert (CASE : k = NoDist \/ k <> NoDist) by (destruct k; auto; right; discriminate).
  destruct CASE as [->|NK]; [eexists; split; [reflexivity|exact HF]|].
  pose proof (set_proj_Inv wrapv clean h l p b k HI E K NK HS) as I1. set (h1 := Heap _ _ _) in I1.
  assert (R : exists h', run_cb wrapv depth h1 (CbLens l) = (h', true) /\ full h').
  { apply (run_full _ _ _ I1).
    - destruct HF as (FR&FF&FA).
      assert (VB : forall x, valid h1 x -> valid h x).
      { intros x (bx&Ex&Hx). unfold h1 in Ex; cbn [objs] in Ex. destruct (Nat.eqb_spec (l_owner x) l) as [EO|NO].
        - inversion Ex; subst bx. exists b. rewrite EO. auto.
        - exists bx. auto. }
      split; [|split].
      + intros x Hx. unfold rdl, h1; cbn [mem]. destruct (existsb _ _); apply (FR x (VB x Hx)).
      + intros q Hq. unfold h1; cbn [mem]. destruct (existsb _ _); apply (FF q (VB _ Hq)).
      + intros q b' n E' K' Hn. unfold h1 in E'; cbn [objs] in E'. destruct (Nat.eqb_spec q l) as [->|NO]; [|eapply FA; eauto].
        inversion E'; subst b'. cbn [attrs okd] in *. eapply FA; eauto.
    - eexists _, k. split; [unfold h1; cbn [objs]; rewrite Nat.eqb_refl; reflexivity|exact K]. }
  destruct k; [congruence|rewrite <- K; exact R|rewrite <- K; exact R].
Qed.
Lemma full_set_cam h c b : full h -> not_base h c -> ~ base_kind (okd b) -> full (set_obj h c b).
Proof.
  intros (FR&FF&FA) HN HB.
  assert (VB : forall x, valid (set_obj h c b) x -> valid h x).
  { intros x (bx&Ex&Hx). cbn [objs set_obj] in Ex. destruct (Nat.eqb_spec (l_owner x) c) as [EO|NO]; [|exists bx; auto].
    inversion Ex; subst bx. exfalso. destruct (okd b); try (apply HB; exact I); contradiction. }
  split; [intros x Hx; apply FR, VB, Hx|split; [intros p Hp; apply FF, VB, Hp|]].
  intros p b' n E K Hn. cbn [objs set_obj] in E. destruct (Nat.eqb_spec p c) as [->|]; [|eapply FA; eauto].
  inversion E; subst b'. exfalso. destruct (okd b); try contradiction; apply HB; exact I.
Qed.
Lemma full_init_camera h c p o l at_ : Inv clean h -> full h -> sharing_ok h l p -> not_base h c -> c < next h ->
  exists h', init_camera wrapv lit h c p o l at_ = (h', true) /\ full h'.
Proof.
  intros HI HF HS HN HC. unfold init_camera. destruct (full_set_projection h l p HI HF HS) as (h1&R1&F1). rewrite R1, bind_run.
  destruct (Inv_set_projection wrapv wrap_ok clean h l p h1 HI HS R1) as (I1&AT&N1&_).
  eexists. split; [reflexivity|]. apply full_set_cam; [| |intros X; exact X].
  - apply full_alloc; [exact F1| |intros []]. intros n Hn. right. cbn in Hn. destruct Hn as [<-|[<-|[]]]; discriminate.
  - intros b Eb. cbn [objs alloc] in Eb. destruct (Nat.eqb_spec c (next h1)); [lia|]. specialize (AT c). rewrite Eb in AT.
    destruct (objs h c) as [b0|] eqn:E0; [|contradiction]. destruct AT as (K&_). rewrite K. apply HN; exact E0.
Qed.
Lemma full_reserve h : full h -> full (reserve h).
Proof. intros H. exact H. Qed.
Lemma full_new_camera h p o l : Inv clean h -> full h -> sharing_ok h l p -> exists h', new_camera wrapv lit h p o l = (h', true) /\ full h'.
Proof.
  intros HI HF HS. unfold new_camera. apply full_init_camera; [apply Inv_reserve; auto|exact HF|exact HS|eapply not_base_next; eauto|cbn; lia].
Qed.
Lemma full_make_cameras n : forall h i ps os ls prs, Inv clean h -> full h -> pairs_ok h prs -> incl (cam_pairs i n ps ls) prs ->
  exists h' cs, make_cameras wrapv lit h i n ps os ls = (h', true, cs) /\ full h'.
Proof.
  induction n as [|n IH]; intros h i ps os ls prs HI HF HP HC; [eexists _, _; split; [reflexivity|exact HF]|].
  cbn [make_cameras]. cbn [cam_pairs] in HC.
  destruct (nth_error ps (i mod List.length ps)) as [p|] eqn:Ep; [|eexists _, _; split; [reflexivity|exact HF]].
  destruct (nth_error os (i mod List.length os)) as [o|] eqn:Eo; [|eexists _, _; split; [reflexivity|exact HF]].
  destruct (nth_error ls (i mod List.length ls)) as [l|] eqn:El; [|eexists _, _; split; [reflexivity|exact HF]].
  assert (IN : In (l, p) prs) by (apply HC; left; auto).
  destruct (full_new_camera h p o l HI HF) as (h1&EC&F1); [apply HP; exact IN|]. rewrite EC. cbn [fst snd].
  destruct (Inv_new_camera wrapv lit wrap_ok clean h p o l h1 HI) with (2 := EC) as (I1&CM); [apply HP; exact IN|].
  destruct (IH h1 (S i) ps os ls prs I1 F1) as (h2&cs&EM&F2).
  - exact (pairs_ok_step wrapv clean h h1 p o l prs HI HP IN CM).
  - intros x Hx; apply HC; right; exact Hx.
  - rewrite EM. eexists _, _. split; [reflexivity|exact F2].
Qed.
Lemma full_new_group h pa oa la : Inv clean h -> full h -> group_ok h pa oa la -> exists h', new_group wrapv lit h pa oa la = (h', true) /\ full h'.
Proof.
  intros HI HF HG. unfold new_group. set (n := group_size _) in *. unfold group_ok in HG. fold n in HG.
  assert (IR := Inv_reserve wrapv clean h HI).
  destruct (full_make_cameras n (reserve h) 0 (comp_list pa) (comp_list oa) (comp_list la) _ IR HF HG (incl_refl _)) as (h1&cs&EM&F1).
  rewrite EM. eexists. split; [reflexivity|]. apply full_set_cam; [exact F1| |intros X; exact X].
  destruct (make_cameras_Inv wrapv lit wrap_ok n clean (reserve h) 0 _ _ _ _ h1 cs IR HG (incl_refl _) EM) as (I1&(_&_&K&_)).
  intros b E. rewrite K in E; [discriminate|cbn; lia|]. change (objs h (next h) = None). destruct (objs h (next h)) as [b0|] eqn:E0; auto.
  apply (Inv_objs_lt wrapv clean h HI) in E0. lia.
Qed.
Lemma full_set_all c vars : forall h, Inv clean h -> full h -> objs h c <> None -> (forall n a, In (n, a) vars -> a <> ANone) ->
  exists h', set_all wrapv h c vars = (h', true) /\ full h'.
Proof.
  induction vars as [|[n a] vars IH]; intros h HI HF HO HV; [eexists; split; [reflexivity|exact HF]|].
  cbn [set_all]. destruct (objs h c) as [b|] eqn:E; [|congruence].
  destruct (full_set_attr h c n a b HI HF E) as (h1&R1&F1).
  { intros -> . exfalso. apply (HV n ANone); [left; auto|reflexivity]. }
  rewrite R1, bind_run. apply IH; [eapply Inv_set_attr; eauto|exact F1| |intros m x Hm; apply (HV m x); right; exact Hm].
  destruct (set_attr_cases wrapv wrap_ok h c n a h1 clean HI R1) as [S|(b'&E'&_&->)].
  - destruct (sim_fwd _ _ _ _ S E) as (b'&E'&_). congruence.
  - cbn. rewrite Nat.eqb_refl. discriminate.
Qed.
Lemma full_load_into h c at_ f : Inv clean h -> full h -> not_base h c -> c < next h ->
  (forall n a, In (n, a) (file_vars f) -> a <> ANone) ->
  exists h', load_into wrapv lit h c at_ f = (h', true) /\ full h'.
Proof.
  intros HI HF HB HC HV. unfold load_into. cbv zeta.
  destruct (full_new_proj h (file_proj f) (placeholder lit) false HF) as (h1&E1&F1).
  { intros n Hn. cbn in Hn. repeat destruct Hn as [<-|Hn]; try discriminate. contradiction. }
  pose proof (Inv_new_proj wrapv lit clean _ _ _ _ _ HI E1) as I1.
  destruct (full_new_lens h1 (file_lens f) none_vals I1 F1) as (h2&E2&F2).
  pose proof (Inv_new_lens wrapv lit wrap_ok clean _ _ _ _ I1 E2) as I2.
  destruct (full_new_orient h2 TiltHeading none_vals I2 F2) as (h3&E3&F3).
  destruct (load_prep wrapv lit wrap_ok clean h c f h1 h2 h3 HI HB HC E1 E2 E3) as (I3&SH&NB&LT&_).
  destruct (full_init_camera h3 c (next h) (next h2) (next h1) at_ I3 F3 SH NB LT) as (h4&E4&F4).
  destruct (Inv_init_camera wrapv lit wrap_ok clean h3 c _ _ _ at_ h4 I3 SH NB LT E4) as (I4&(_&_&_&(b&Eb&_)&_)).
  rewrite E1, bind_run, E2, bind_run, E3, bind_run, E4, bind_run.
  apply full_set_all; auto. congruence.
Qed.

(** ** All operations *)
(** No None is stored, and the object exists. *)
Definition none_free h (p : op V) : Prop :=
  match p with
  | OProj _ vals _ => proj_given vals
  | OSet o n a => objs h o <> None /\
      (a = ANone -> forall l, writes h o n l -> default (mem h l) <> None /\ l_name l <> "focallength_px")
  | ODefault o n v => objs h o <> None /\ (v = None -> forall l, writes h o n l -> value (mem h l) <> None)
  | OFit _ o _ | OSample _ _ o | OMean _ o => objs h o <> None
  | OLoad _ f => forall n a, In (n, a) (file_vars f) -> a <> ANone
  | _ => True
  end.
Lemma full_exec h p : Inv clean h -> full h -> op_ok h p -> none_free h p -> exists h', exec wrapv lit h p = (h', true) /\ full h'.
Proof.
  intros HI HF HO HN. destruct p as [k vals|k vals fr|k vals|p o l|pa oa la|o n a|o n v|ord o vals|rnd ord o|ord o|c f]; cbn [exec op_ok none_free] in *.
  - apply full_new_orient; auto.
  - apply full_new_proj; auto.
  - apply full_new_lens; auto.
  - destruct HO as (_&_&HS). apply full_new_camera; auto.
  - destruct HO as (_&HG). apply full_new_group; auto.
  - destruct HN as (HX&HN). destruct (objs h o) as [b|] eqn:E; [|congruence]. eapply full_set_attr; eauto.
  - destruct HN as (HX&HN). destruct (objs h o) as [b|] eqn:E; [|congruence]. eapply full_set_default; eauto.
  - destruct (objs h o) as [b|] eqn:E; [|congruence]. eapply full_set_fit; eauto.
  - destruct (objs h o) as [b|] eqn:E; [|congruence]. eapply full_stats; eauto.
  - destruct (objs h o) as [b|] eqn:E; [|congruence]. eapply full_stats; eauto.
  - destruct HO as (b&p&o&l&E&K&HA). unfold load. apply full_load_into; auto.
    + intros b' E'. rewrite E in E'; inversion E'; subst. rewrite K. intros X; exact X.
    + eapply Inv_objs_lt; eauto.
Qed.
Lemma full_empty : full empty.
Proof. split; [intros l (b&E&_); discriminate|split; [intros p (b&E&_); discriminate|intros p b n E; discriminate]]. Qed.
End Total.
