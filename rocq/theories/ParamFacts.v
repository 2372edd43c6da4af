(** * Invariants of the parameter heap *)
Require Import List Bool String Arith NArith QArith Lia.
From Verif Require Import Projection Param.
Import ListNotations.
Open Scope nat_scope.
Open Scope string_scope.

Lemma loc_eqb_spec a b : reflect (a = b) (loc_eqb a b).
Proof.
  destruct a as [o n], b as [o' n']. unfold loc_eqb; cbn [l_owner l_name].
  destruct (Nat.eqb_spec o o'), (String.eqb_spec n n'); constructor; congruence.
Qed.
Lemma loc_eqb_refl a : loc_eqb a a = true. Proof. destruct (loc_eqb_spec a a); auto. Qed.
Lemma cb_eqb_spec a b : reflect (a = b) (cb_eqb a b).
Proof.
  destruct a as [x|x|x], b as [y|y|y]; cbn; try (constructor; congruence);
    destruct (Nat.eqb_spec x y); constructor; congruence.
Qed.
Lemma mem_name_spec n l : reflect (In n l) (mem_name n l).
Proof.
  unfold mem_name. destruct (existsb _ _) eqn:E; constructor.
  - apply existsb_exists in E. destruct E as (x&H&E). apply String.eqb_eq in E. subst; auto.
  - intros H. assert (existsb (String.eqb n) l = true); [|congruence].
    apply existsb_exists. exists n; split; auto. apply String.eqb_refl.
Qed.
Lemma mem_name_in n l : In n l -> mem_name n l = true.
Proof. intros; destruct (mem_name_spec n l); auto; contradiction. Qed.

Lemma depth_S : depth = S (S 198). Proof. reflexivity. Qed.
Global Opaque depth.

Section Facts.
Context {V : Type} (wrapv : V -> option V) (lit : Q -> V).
Hypothesis wrap_ok : forall v v', wrapv v = Some v' -> wrapv v' = None.
Notation heap := (heap V). Notation obj := (obj V). Notation param := (param V). Notation arg := (arg V).
Notation run_cb := (run_cb wrapv). Notation call := (call wrapv). Notation calls := (calls wrapv).

Implicit Types (h : heap) (b : obj).

(** ** Tables *)
Lemma assoc_map {A} (f : name -> A) (l : list name) n :
  assoc n (map (fun n => (n, f n)) l) = if mem_name n l then Some (f n) else None.
Proof.
  unfold mem_name. induction l as [|m l IH]; auto. cbn [map assoc existsb].
  destruct (String.eqb_spec n m) as [->|]; auto.
Qed.
Lemma assoc_self o k n : assoc n (self_table o k) = if mem_name n (base_names k) then Some (Loc o n) else None.
Proof. apply assoc_map. Qed.
Lemma assoc_app {A} n (t u : list (name * A)) :
  assoc n (t ++ u) = match assoc n t with Some a => Some a | None => assoc n u end.
Proof. induction t as [|[m a] t IH]; auto. cbn [app assoc]. destruct (String.eqb n m); auto. Qed.
Lemma assoc_in {A} n (t : list (name * A)) a : assoc n t = Some a -> In (n, a) t.
Proof.
  induction t as [|[m b] t IH]; [discriminate|]. cbn [assoc]. destruct (String.eqb_spec n m) as [->|].
  - intros E; inversion E; left; auto.
  - right; auto.
Qed.

(** ** Well-formedness *)
Definition is_proj (k : kind) : Prop := match k with KProj _ => True | _ => False end.
Definition valid (h : heap) (l : loc) : Prop :=
  exists b, objs h (l_owner l) = Some b /\ In (l_name l) (base_names (okd b)).
Definition lens_on (h : heap) (l p : oid) : Prop :=
  exists b k, objs h l = Some b /\ okd b = KLens k /\ k <> NoDist /\ lproj b = Some p.
Definition cbk (h : heap) (l : loc) : option cb := callback (mem h l).
Definition wired (h : heap) (o : oid) (b : obj) : Prop :=
  match okd b with
  | KOrient k => table b = self_table o (okd b) /\
      (forall n, In n (onames k) -> attrs b n = None /\ cbk h (Loc o n) = Some (CbOrient o))
  | KProj _ => table b = self_table o (okd b) /\ cbk h (Loc o "focallength_px") = Some (CbFocal o) /\
      attrs b "focallength_px" = None /\
      (forall n, In n pnames -> n <> "focallength_px" ->
         cbk h (Loc o n) = None \/ (In n shared_names /\ exists l, cbk h (Loc o n) = Some (CbLens l) /\ lens_on h l o))
  | KLens k => (forall n, In n (lnames k) -> cbk h (Loc o n) = Some (CbLens o)) /\
      (forall n, In n (lnames k) -> attrs b n = None) /\
      match lproj b with
      | None => table b = self_table o (okd b)
      | Some p => k <> NoDist /\ table b = lens_table o p k /\
          (exists bp, objs h p = Some bp /\ is_proj (okd bp)) /\
          (forall n, In n shared_names -> cbk h (Loc p n) = Some (CbLens o))
      end
  | KGps => table b = self_table o (okd b) /\ (forall n, In n gnames -> cbk h (Loc o n) = None)
  | KCam _ _ _ | KGroup _ => forall n l, In (n, l) (table b) -> valid h l
  end.
(** Derived state agrees with the current values. *)
Definition fresh (h : heap) (o : oid) (b : obj) : Prop :=
  match okd b with
  | KOrient k => (forall n, In n (onames k) -> used b n = rdl h (Loc o n)) /\
      (exists v, rdl h (Loc o (wrapped_name k)) = Some v /\ wrapv v = None) /\
      (forall n, In n (angle_names k) -> rdl h (Loc o n) <> None)
  | KLens k => (forall n, In n (lnames k) -> used b n = rdl h (Loc o n)) /\
      (forall p, lproj b = Some p -> forall n, In n (lens_reads k) -> used b n = get_num h p n)
  | _ => True
  end.
Definition Inv (D : oid -> Prop) (h : heap) : Prop :=
  forall o b, objs h o = Some b -> o < next h /\ wired h o b /\ (~ D o -> fresh h o b).
Definition clean (_ : oid) : Prop := False.
Lemma Inv_weaken (D D' : oid -> Prop) h : (forall o, D o -> D' o) -> Inv D h -> Inv D' h.
Proof. intros HD HI o b E. destruct (HI o b E) as (A&B&C). split; [|split]; auto. Qed.

(** The objects whose derived state depends on the parameter with callback [c]. *)
Definition tgt (c : option cb) (o : oid) : Prop := c = Some (CbOrient o) \/ c = Some (CbLens o).

Lemma reads_shared k n : In n (lens_reads k) -> In n shared_names.
Proof. destruct k; cbn; tauto. Qed.
Lemma shared_pnames n : In n shared_names -> In n pnames.
Proof. cbn; tauto. Qed.
Lemma shared_not_f n : In n shared_names -> n <> "focallength_px".
Proof. cbn. intros H ->. repeat destruct H as [H|H]; try discriminate; auto. Qed.
Lemma pn_table o k n : In n pnames -> assoc n (self_table o (KProj k)) = Some (Loc o n).
Proof. intros H. rewrite assoc_self, mem_name_in; auto. Qed.
Lemma on_table o k n : In n (onames k) -> assoc n (self_table o (KOrient k)) = Some (Loc o n).
Proof. intros H. rewrite assoc_self, mem_name_in; auto. Qed.
Lemma ln_table o p k n : In n (lnames k) -> assoc n (lens_table o p k) = Some (Loc o n).
Proof.
  intros H. unfold lens_table. rewrite assoc_app, (assoc_map (Loc o)), mem_name_in by auto. reflexivity.
Qed.
Lemma wrapped_in k : In (wrapped_name k) (onames k). Proof. destruct k; cbn; tauto. Qed.
Lemma angle_in k n : In n (angle_names k) -> In n (onames k). Proof. destruct k; cbn; tauto. Qed.

(** Same objects up to [used]. *)
Definition osim (b b' : obj) : Prop :=
  okd b' = okd b /\ attrs b' = attrs b /\ table b' = table b /\ lproj b' = lproj b.
Definition sim (h h' : heap) : Prop :=
  next h' = next h /\
  forall o, match objs h o, objs h' o with
            | Some b, Some b' => osim b b' | None, None => True | _, _ => False end.
Lemma osim_refl b : osim b b. Proof. repeat split. Qed.
Lemma osim_trans a b c : osim a b -> osim b c -> osim a c.
Proof. intros (?&?&?&?) (?&?&?&?); repeat split; congruence. Qed.
Lemma sim_refl h : sim h h.
Proof. split; auto. intros o; destruct (objs h o); auto. apply osim_refl. Qed.
Lemma sim_trans (a b c : heap) : sim a b -> sim b c -> sim a c.
Proof.
  intros (N1&H1) (N2&H2). split; [congruence|]. intros o. specialize (H1 o); specialize (H2 o).
  destruct (objs a o), (objs b o), (objs c o); try contradiction; auto. eapply osim_trans; eauto.
Qed.
Lemma sim_back h h' o b' : sim h h' -> objs h' o = Some b' -> exists b, objs h o = Some b /\ osim b b'.
Proof. intros (_&H) E. specialize (H o). rewrite E in H. destruct (objs h o); try contradiction; eauto. Qed.
Lemma sim_fwd h h' o b : sim h h' -> objs h o = Some b -> exists b', objs h' o = Some b' /\ osim b b'.
Proof. intros (_&H) E. specialize (H o). rewrite E in H. destruct (objs h' o); try contradiction; eauto. Qed.
Lemma set_mem_sim h l p : sim h (set_mem h l p).
Proof. split; auto. intros o; cbn. destruct (objs h o); auto. apply osim_refl. Qed.
Lemma set_used_sim h o b u : objs h o = Some b -> sim h (set_obj h o (with_used b u)).
Proof.
  intros E. split; auto. intros o'; cbn. destruct (Nat.eqb_spec o' o) as [->|].
  - rewrite E. repeat split.
  - destruct (objs h o'); auto. apply osim_refl.
Qed.

Lemma valid_sim h h' l : sim h h' -> valid h l -> valid h' l.
Proof.
  intros HS (b&E&Hn). destruct (sim_fwd _ _ _ _ HS E) as (b'&E'&(K&_)). exists b'; split; auto. rewrite K; auto.
Qed.
Lemma lens_on_sim h h' l p : sim h h' -> lens_on h l p -> lens_on h' l p.
Proof.
  intros HS (b&k&E&K&N&L). destruct (sim_fwd _ _ _ _ HS E) as (b'&E'&(K'&_&_&L')).
  exists b', k. rewrite K', L'. auto.
Qed.
Lemma wired_sim h h' o b b' : sim h h' -> (forall l, cbk h' l = cbk h l) -> osim b b' -> wired h o b -> wired h' o b'.
Proof.
  intros HS HC (K&A&T&L). unfold wired. rewrite K, A, T, L. destruct (okd b) as [k|k|k| |p q r|cs].
  - intros (E&F&G&H). rewrite HC. repeat split; auto. intros n Hn Hf. rewrite HC. destruct (H n Hn Hf) as [?|(?&l&?&?)]; auto.
    right. split; auto. exists l. split; auto. eapply lens_on_sim; eauto.
  - intros (E&H). split; auto. intros n Hn. rewrite HC. auto.
  - intros (E&G&H). split; [|split]; auto.
    + intros n Hn. rewrite HC; auto.
    + destruct (lproj b); auto. destruct H as (H1&H2&(bp&H3&H4)&H5). repeat split; auto.
      * destruct (sim_fwd _ _ _ _ HS H3) as (bp'&E'&(K'&_)). exists bp'. rewrite K'; auto.
      * intros n Hn. rewrite HC; auto.
  - intros (E&H). split; auto. intros n Hn. rewrite HC; auto.
  - intros H n l Hin. eapply valid_sim; eauto.
  - intros H n l Hin. eapply valid_sim; eauto.
Qed.

Lemma get_num_ext h h' p n : objs h' p = objs h p ->
  (forall b l, objs h p = Some b -> attrs b n = None -> assoc n (table b) = Some l -> rdl h' l = rdl h l) ->
  get_num h' p n = get_num h p n.
Proof.
  intros E H. unfold get_num, get_attr. rewrite E. destruct (objs h p) as [b|] eqn:Eb; auto.
  destruct (attrs b n) eqn:Ea; auto. destruct (assoc n (table b)) as [l|] eqn:El; auto.
  rewrite (H b l eq_refl Ea El). auto.
Qed.
Lemma get_num_sim h h' p n : sim h h' -> (forall l, rdl h' l = rdl h l) -> get_num h' p n = get_num h p n.
Proof.
  intros (_&HS) HR. unfold get_num, get_attr. specialize (HS p).
  destruct (objs h p) as [b|], (objs h' p) as [b'|]; try contradiction; auto.
  destruct HS as (_&A&T&_). rewrite A, T. destruct (attrs b n); auto. destruct (assoc n (table b)); auto.
  rewrite HR; auto.
Qed.

(** ** Writing a parameter makes only its target stale *)
Lemma set_mem_same h l p : mem (set_mem h l p) l = p.
Proof. cbn. rewrite loc_eqb_refl. auto. Qed.
Lemma set_mem_other h l p l' : l' <> l -> mem (set_mem h l p) l' = mem h l'.
Proof. intros N. cbn. destruct (loc_eqb_spec l' l); congruence. Qed.
Lemma set_mem_cbk h l p : callback p = cbk h l -> forall l', cbk (set_mem h l p) l' = cbk h l'.
Proof.
  intros E l'. unfold cbk at 1. destruct (loc_eqb_spec l' l) as [->|N].
  - rewrite set_mem_same; auto.
  - rewrite set_mem_other; auto.
Qed.

Lemma Inv_write D h l p : Inv D h -> callback p = cbk h l ->
  Inv (fun o => D o \/ tgt (cbk h l) o) (set_mem h l p).
Proof.
  intros HI EC o b E. change (objs h o = Some b) in E. destruct (HI o b E) as (HN&HW&HF).
  split; [exact HN|split].
  - eapply wired_sim; [apply set_mem_sim|apply set_mem_cbk; exact EC|apply osim_refl|exact HW].
  - intros ND. assert (ND1 : ~ D o) by tauto. assert (NT : ~ tgt (cbk h l) o) by tauto. specialize (HF ND1).
    assert (KEEP : forall l', cbk h l' = Some (CbOrient o) \/ cbk h l' = Some (CbLens o) -> rdl (set_mem h l p) l' = rdl h l').
    { intros l' H. unfold rdl. rewrite set_mem_other; auto. intros ->. apply NT. exact H. }
    unfold fresh, wired in *. destruct (okd b) as [k|k|k| | |] eqn:K; auto.
    + destruct HW as (T&C). destruct HF as (F1&F2&F3). split; [|split].
      * intros n Hn. rewrite KEEP; auto. left. apply C; auto.
      * rewrite KEEP; auto. left. apply C, wrapped_in.
      * intros n Hn. rewrite KEEP; auto. left. apply C, angle_in; auto.
    + destruct HW as (C&_&W). destruct HF as (F1&F2). split.
      * intros n Hn. rewrite KEEP; auto.
      * intros q Hq n Hn. rewrite (F2 q Hq n Hn). symmetry. apply get_num_ext; auto.
        intros bq lq Eq Aq Tq. apply KEEP. right. rewrite Hq in W. destruct W as (_&_&(bp&Ep&Kp)&W).
        assert (bp = bq) by congruence; subst bp. destruct (HI q bq Eq) as (_&Wq&_). unfold wired in Wq.
        destruct (okd bq) eqn:Kq; try contradiction. destruct Wq as (Tb&_). rewrite Tb in Tq.
        apply reads_shared in Hn. rewrite pn_table in Tq by (apply shared_pnames; auto). inversion Tq; subst. auto.
Qed.

(** ** The callbacks *)
Definition orient_at (h : heap) (o : oid) (k : okind) : Prop := exists b, objs h o = Some b /\ okd b = KOrient k.
(** Effect of a callback on the parameters. *)
Definition post (h : heap) (c : cb) (l : loc) : param :=
  match c with
  | CbLens _ => mem h l
  | CbFocal p =>
    if loc_eqb l (Loc p "focallength_x_px") || loc_eqb l (Loc p "focallength_y_px")
    then with_value (value (mem h (Loc p "focallength_px"))) (mem h l) else mem h l
  | CbOrient o =>
    match objs h o with
    | Some b => match okd b with
      | KOrient k => if loc_eqb l (Loc o (wrapped_name k)) then
          match rdl h l with Some v => match wrapv v with Some v' => assign (ANum v') (mem h l) | None => mem h l end
                           | None => mem h l end
          else mem h l
      | _ => mem h l end
    | None => mem h l
    end
  end.
Definition minus (D : oid -> Prop) (c : cb) (o : oid) : Prop := D o /\ ~ tgt (Some c) o.
(** Derived state of other objects is untouched. *)
Definition keeps (c : cb -> Prop) (h h' : heap) : Prop :=
  forall o, (forall k, c k -> ~ tgt (Some k) o) -> objs h' o = objs h o.

Lemma post_cbk h c l : callback (post h c l) = cbk h l.
Proof.
  unfold post, cbk. destruct c as [o|o|p]; auto.
  - destruct (objs h o) as [b|]; auto. destruct (okd b); auto. destruct (loc_eqb l _); auto.
    destruct (rdl h l) as [v|]; auto. destruct (wrapv v); auto.
  - destruct (_ || _); auto.
Qed.

Lemma orient_finish_spec D h o k h' : Inv D h -> orient_at h o k ->
  (exists v, rdl h (Loc o (wrapped_name k)) = Some v /\ wrapv v = None) ->
  orient_finish h o = (h', true) ->
  Inv (fun x => D x /\ x <> o) h' /\ (forall l, mem h' l = mem h l) /\ sim h h' /\
  (forall x, x <> o -> objs h' x = objs h x).
Proof.
  intros HI (b&E&K) HV HF. unfold orient_finish in HF. rewrite E, K in HF.
  destruct (all_set h b (angle_names k)) eqn:EA; [|discriminate]. inversion HF; subst h'; clear HF.
  assert (HS := set_used_sim h o b (tget h b) E).
  split; [|split; [|split]]; auto.
  2: { intros x N. cbn. destruct (Nat.eqb_spec x o); congruence. }
  intros x bx Ex. destruct (sim_back _ _ _ _ HS Ex) as (b0&E0&SO). destruct (HI x b0 E0) as (HN&HW&HFr).
  split; [exact HN|split].
  - eapply wired_sim; [exact HS|reflexivity|exact SO|exact HW].
  - intros ND. cbn in Ex. destruct (Nat.eqb_spec x o) as [->|Nx].
    + inversion Ex; subst bx. rewrite E in E0; inversion E0; subst b0.
      unfold fresh. cbn [okd with_used used]. rewrite K. unfold wired in HW. rewrite K in HW. destruct HW as (T&C).
      split; [|split]; auto.
      * intros n Hn. unfold tget. rewrite T, on_table by auto. reflexivity.
      * intros n Hn. unfold all_set in EA. rewrite forallb_forall in EA. specialize (EA n Hn).
        unfold tget in EA. rewrite T, on_table in EA by (apply angle_in; auto).
        change (rdl h (Loc o n) <> None). destruct (rdl h (Loc o n)); [congruence|discriminate].
    + rewrite E0 in Ex. inversion Ex; subst bx. assert (NDx : ~ D x) by tauto. specialize (HFr NDx).
      unfold fresh in *. destruct (okd b0); auto. destruct HFr as (F1&F2). split; auto.
      intros q Hq n Hn. rewrite (F2 q Hq n Hn). symmetry. apply get_num_sim; auto.
Qed.

Lemma lens_finish_spec D h o k b h' : Inv D h -> objs h o = Some b -> okd b = KLens k ->
  lens_finish h o = (h', true) ->
  Inv (fun x => D x /\ x <> o) h' /\ (forall l, mem h' l = mem h l) /\ sim h h' /\
  (forall x, x <> o -> objs h' x = objs h x).
Proof.
  intros HI E K HF. unfold lens_finish in HF. rewrite E, K in HF.
  destruct (all_set h b (lnames k)) eqn:EA; [|discriminate]. cbv zeta in HF.
  set (u := fun n => if mem_name n (lnames k) then tget h b n else used b n) in *.
  assert (HU : exists u', h' = set_obj h o (with_used b u') /\
     (forall n, In n (lnames k) -> (forall p, lproj b = Some p -> ~ In n (lens_reads k)) -> u' n = tget h b n) /\
     (forall p, lproj b = Some p -> forall n, In n (lens_reads k) -> u' n = get_num h p n)).
  { assert (U1 : forall n, In n (lnames k) -> u n = tget h b n).
    { intros n Hn. unfold u. rewrite mem_name_in; auto. }
    destruct (lproj b) as [p|].
    - assert (G : h' = set_obj h o (with_used b (fun n => if mem_name n (lens_reads k) then get_num h p n else u n))).
      { destruct k; try (inversion HF; reflexivity). destruct (_ && _); inversion HF; reflexivity. }
      eexists; split; [exact G|]. split.
      + intros n Hn Nr. destruct (mem_name_spec n (lens_reads k)); auto. exfalso; eapply Nr; eauto.
      + intros p' Ep n Hn. inversion Ep; subst. rewrite mem_name_in; auto.
    - exists u. split; [inversion HF; auto|]. split; auto. intros; discriminate. }
  destruct HU as (u'&->&HU1&HU2).
  assert (HS := set_used_sim h o b u' E).
  split; [|split; [|split]]; auto.
  2: { intros x N. cbn. destruct (Nat.eqb_spec x o); congruence. }
  intros x bx Ex. destruct (sim_back _ _ _ _ HS Ex) as (b0&E0&SO). destruct (HI x b0 E0) as (HN&HW&HFr).
  split; [exact HN|split].
  - eapply wired_sim; [exact HS|reflexivity|exact SO|exact HW].
  - intros ND. cbn in Ex. destruct (Nat.eqb_spec x o) as [->|Nx].
    + inversion Ex; subst bx. rewrite E in E0; inversion E0; subst b0.
      unfold fresh. cbn [okd with_used used lproj]. rewrite K. unfold wired in HW. rewrite K in HW.
      destruct HW as (C&_&W). split.
      * intros n Hn. rewrite HU1; auto.
        -- unfold tget. destruct (lproj b) as [p|].
           ++ destruct W as (_&T&_). rewrite T, ln_table by auto. reflexivity.
           ++ rewrite W, assoc_self. rewrite ?K. cbn [base_names]. rewrite mem_name_in by auto. reflexivity.
        -- intros p _ Hr. destruct k; cbn in Hn, Hr; 
             repeat match goal with H : _ \/ _ |- _ => destruct H | H : False |- _ => destruct H end; subst; discriminate.
      * intros q Hq n Hn. rewrite (HU2 q Hq n Hn). symmetry. apply get_num_sim; auto.
    + rewrite E0 in Ex. inversion Ex; subst bx. assert (NDx : ~ D x) by tauto. specialize (HFr NDx).
      unfold fresh in *. destruct (okd b0); auto. destruct HFr as (F1&F2). split; auto.
      intros q Hq n Hn. rewrite (F2 q Hq n Hn). symmetry. apply get_num_sim; auto.
Qed.

(** The objects whose derived state a callback recomputes. *)
Definition touches (h : heap) (c : cb) (o : oid) : Prop :=
  tgt (Some c) o \/
  match c with
  | CbFocal p => tgt (cbk h (Loc p "focallength_x_px")) o \/ tgt (cbk h (Loc p "focallength_y_px")) o
  | _ => False
  end.
Record cb_spec (D : oid -> Prop) (h : heap) (c : cb) (h' : heap) : Prop := CbSpec
  { cs_inv : Inv (minus D c) h';
    cs_mem : forall l, mem h' l = post h c l;
    cs_sim : sim h h';
    cs_keep : forall o, ~ touches h c o -> objs h' o = objs h o }.

Definition cb_ok (h : heap) (c : cb) : Prop :=
  match c with
  | CbOrient o => exists k, orient_at h o k
  | CbLens o => exists b k, objs h o = Some b /\ okd b = KLens k
  | CbFocal p => exists b, objs h p = Some b /\ is_proj (okd b)
  end.
Lemma cb_ok_sim h h' c : sim h h' -> cb_ok h c -> cb_ok h' c.
Proof.
  intros HS. destruct c; cbn.
  - intros (k&b&E&K). destruct (sim_fwd _ _ _ _ HS E) as (b'&E'&(K'&_)). exists k, b'. rewrite K'; auto.
  - intros (b&k&E&K). destruct (sim_fwd _ _ _ _ HS E) as (b'&E'&(K'&_)). exists b', k. rewrite K'; auto.
  - intros (b&E&K). destruct (sim_fwd _ _ _ _ HS E) as (b'&E'&(K'&_)). exists b'. rewrite K'; auto.
Qed.

Lemma get_num_orient D h o k b : Inv D h -> objs h o = Some b -> okd b = KOrient k ->
  get_num h o (wrapped_name k) = rdl h (Loc o (wrapped_name k)) /\
  assoc (wrapped_name k) (table b) = Some (Loc o (wrapped_name k)).
Proof.
  intros HI E K. destruct (HI o b E) as (_&HW&_). unfold wired in HW. rewrite K in HW. destruct HW as (T&C).
  assert (EA : assoc (wrapped_name k) (table b) = Some (Loc o (wrapped_name k))) by (rewrite T, on_table; auto; apply wrapped_in).
  split; auto. unfold get_num, get_attr. rewrite E. destruct (C (wrapped_name k) (wrapped_in k)) as (A&_).
  rewrite A, EA. destruct (rdl h _); auto.
Qed.

Lemma run_lens D h o h' fuel : Inv D h -> cb_ok h (CbLens o) -> run_cb (S fuel) h (CbLens o) = (h', true) ->
  cb_spec D h (CbLens o) h'.
Proof.
  intros HI (b&k&E&K) HR. cbn [Param.run_cb] in HR.
  destruct (lens_finish_spec D h o k b h' HI E K HR) as (A&B&C&F). split; auto.
  - eapply Inv_weaken; [|exact A]. unfold minus, tgt. intros x (H1&H2); split; auto. intros [X|X]; inversion X; auto.
  - intros x HT. apply F. intros ->. apply HT. left; right; auto.
Qed.

Lemma run_orient_in_range D h o k h' fuel : Inv D h -> orient_at h o k ->
  (forall v, rdl h (Loc o (wrapped_name k)) = Some v -> wrapv v = None) ->
  run_cb (S fuel) h (CbOrient o) = (h', true) -> cb_spec D h (CbOrient o) h' .
Proof.
  intros HI (b&E&K) HV HR. cbn [Param.run_cb] in HR. rewrite E, K in HR.
  destruct (get_num_orient D h o k b HI E K) as (G1&G2). rewrite G1, G2 in HR.
  destruct (rdl h (Loc o (wrapped_name k))) as [v|] eqn:EV; [|discriminate].
  rewrite (HV v eq_refl) in HR. cbn [bind fst snd] in HR.
  assert (HX : exists v, rdl h (Loc o (wrapped_name k)) = Some v /\ wrapv v = None) by (exists v; split; auto).
  destruct (orient_finish_spec D h o k h' HI (ex_intro _ b (conj E K)) HX HR) as (A&B&C&F).
  split; auto.
  - eapply Inv_weaken; [|exact A]. unfold minus, tgt. intros x (H1&H2); split; auto. intros [X|X]; inversion X; auto.
  - intros l. rewrite B. unfold post. rewrite E, K. destruct (loc_eqb_spec l (Loc o (wrapped_name k))) as [->|]; auto.
    rewrite EV, (HV v eq_refl). auto.
  - intros x HT. apply F. intros ->. apply HT. left; left; auto.
Qed.

Lemma run_orient D h o h' fuel : Inv D h -> cb_ok h (CbOrient o) ->
  run_cb (S (S fuel)) h (CbOrient o) = (h', true) -> cb_spec D h (CbOrient o) h'.
Proof.
  intros HI (k&b&E&K) HR.
  assert (HO : orient_at h o k) by (exists b; auto).
  destruct (rdl h (Loc o (wrapped_name k))) as [v|] eqn:EV.
  2: { eapply run_orient_in_range; eauto. rewrite EV; discriminate. }
  destruct (wrapv v) as [v'|] eqn:EW.
  2: { eapply run_orient_in_range; eauto. intros v0 E0. rewrite EV in E0; inversion E0; subst; auto. }
  cbn [Param.run_cb] in HR. rewrite E, K in HR.
  destruct (get_num_orient D h o k b HI E K) as (G1&G2). rewrite G1, G2, EV, EW in HR.
  set (l := Loc o (wrapped_name k)) in *. set (h1 := set_mem h l (assign (ANum v') (mem h l))) in *.
  destruct (HI o b E) as (_&HW&_). unfold wired in HW. rewrite K in HW. destruct HW as (T&C).
  assert (CB : callback (mem h1 l) = Some (CbOrient o)).
  { unfold h1. rewrite set_mem_same. cbn [assign callback]. apply (C _ (wrapped_in k)). }
  rewrite CB in HR.
  assert (I1 : Inv (fun x => D x \/ tgt (cbk h l) x) h1).
  { apply Inv_write; auto. }
  assert (EL : cbk h l = Some (CbOrient o)) by (apply (C _ (wrapped_in k))).
  assert (R1 : rdl h1 l = Some v') by (unfold rdl, h1; rewrite set_mem_same; reflexivity).
  change (bind (run_cb (S fuel) h1 (CbOrient o)) (fun h' => orient_finish h' o) = (h', true)) in HR.
  destruct (run_cb (S fuel) h1 (CbOrient o)) as [h2 ok2] eqn:E2. unfold bind in HR. cbn [fst snd] in HR.
  destruct ok2; [|discriminate].
  assert (HO1 : orient_at h1 o k) by (exists b; auto).
  assert (S2 : cb_spec (fun x => D x \/ tgt (cbk h l) x) h1 (CbOrient o) h2).
  { eapply (run_orient_in_range _ h1 o k h2 fuel I1 HO1); auto. fold l. rewrite R1. intros v0 E0. inversion E0; subst. eapply wrap_ok; eauto. }
  destruct S2 as [A2 B2 C2 D2].
  assert (M2 : forall x, mem h2 x = mem h1 x).
  { intros x. rewrite B2. unfold post. destruct HO1 as (b1&E1&K1). rewrite E1, K1. fold l. destruct (loc_eqb_spec x l) as [->|]; auto.
    rewrite R1, (wrap_ok v v' EW). auto. }
  assert (R2 : rdl h2 l = Some v') by (unfold rdl; rewrite M2; exact R1).
  assert (HO2 : orient_at h2 o k).
  { destruct HO1 as (b1&E1&K1). destruct (sim_fwd _ _ _ _ C2 E1) as (b2&Eb&(Kb&_)). exists b2. rewrite Kb; auto. }
  destruct (orient_finish_spec _ h2 o k h' A2 HO2 (ex_intro _ v' (conj R2 (wrap_ok _ _ EW))) HR) as (A3&B3&C3&F3).
  split.
  - eapply Inv_weaken; [|exact A3]. unfold minus. intros x (([H1|H1]&H2)&H3); split; auto.
    exfalso; apply H2. rewrite EL in H1. exact H1.
  - intros x. rewrite B3, M2. unfold post. rewrite E, K. fold l. destruct (loc_eqb_spec x l) as [->|N].
    + rewrite EV, EW. unfold h1. rewrite set_mem_same. auto.
    + unfold h1. rewrite set_mem_other; auto.
  - eapply sim_trans; [apply set_mem_sim|]. eapply sim_trans; eauto.
  - intros x HT. rewrite F3 by (intros ->; apply HT; left; left; auto). rewrite D2; [reflexivity|].
    intros [X|[]]. apply HT. left; exact X.
Qed.

Lemma fy_not_fx p : Loc p "focallength_y_px" <> Loc p "focallength_x_px". Proof. congruence. Qed.
Lemma f_not_fx p : Loc p "focallength_px" <> Loc p "focallength_x_px". Proof. congruence. Qed.
Lemma f_not_fy p : Loc p "focallength_px" <> Loc p "focallength_y_px". Proof. congruence. Qed.

(** Writing a focal length and running its callback. *)
Lemma write_run D h l p h' fuel c0 : Inv D h -> callback p = cbk h l ->
  (cbk h l = None \/ exists o, cbk h l = Some (CbLens o) /\ cb_ok h (CbLens o)) ->
  (match callback (mem (set_mem h l p) l) with Some c => run_cb (S fuel) (set_mem h l p) c | None => (set_mem h l p, true) end)
    = (h', true) -> (forall o, D o -> minus D c0 o) ->
  Inv D h' /\ (forall x, mem h' x = mem (set_mem h l p) x) /\ sim h h' /\
  (forall o, ~ tgt (cbk h l) o -> objs h' o = objs h o).
Proof.
  intros HI EC HC HR _. rewrite set_mem_same, EC in HR.
  pose proof (Inv_write D h l p HI EC) as I1. destruct HC as [E|(o&E&OK)]; rewrite E in *.
  - inversion HR; subst h'. split; [|split; [|split]]; auto.
    + eapply Inv_weaken; [|exact I1]. intros o [H|[H|H]]; auto; discriminate.
    + apply set_mem_sim.
  - assert (OK1 : cb_ok (set_mem h l p) (CbLens o)) by (eapply cb_ok_sim; [apply set_mem_sim|exact OK]).
    destruct (run_lens _ _ _ _ _ I1 OK1 HR) as [A B C F]. split; [|split; [|split]].
    + eapply Inv_weaken; [|exact A]. intros x ([H|H]&N); auto. exfalso; apply N; exact H.
    + intros x. rewrite B. reflexivity.
    + eapply sim_trans; [apply set_mem_sim|exact C].
    + intros x N. rewrite F; [reflexivity|]. intros [X|[]]. apply N. exact X.
Qed.

Lemma proj_cb D h p b n : Inv D h -> objs h p = Some b -> is_proj (okd b) -> In n pnames -> n <> "focallength_px" ->
  cbk h (Loc p n) = None \/ exists o, cbk h (Loc p n) = Some (CbLens o) /\ cb_ok h (CbLens o).
Proof.
  intros HI E K Hn Hf. destruct (HI p b E) as (_&HW&_). unfold wired in HW. destruct (okd b); try contradiction.
  destruct HW as (_&_&_&H). destruct (H n Hn Hf) as [X|(_&o&X&(bo&ko&Eo&Ko&_))]; auto.
  right. exists o. split; auto. exists bo, ko. auto.
Qed.

Lemma run_focal D h p h' fuel : Inv D h -> cb_ok h (CbFocal p) ->
  run_cb (S (S fuel)) h (CbFocal p) = (h', true) -> cb_spec D h (CbFocal p) h'.
Proof.
  intros HI (b&E&K) HR.
  change (run_cb (S (S fuel)) h (CbFocal p)) with
   (let f := Loc p "focallength_px" in let fx := Loc p "focallength_x_px" in let fy := Loc p "focallength_y_px" in
    let h1 := set_mem h fx (with_value (value (mem h f)) (mem h fx)) in
    bind (match callback (mem h1 fx) with Some c => run_cb (S fuel) h1 c | None => (h1, true) end)
      (fun h2 => let h3 := set_mem h2 fy (with_value (value (mem h2 f)) (mem h2 fy)) in
         match callback (mem h3 fy) with Some c => run_cb (S fuel) h3 c | None => (h3, true) end)) in HR.
  cbv zeta in HR.
  set (fx := Loc p "focallength_x_px") in *. set (fy := Loc p "focallength_y_px") in *. set (f := Loc p "focallength_px") in *.
  set (q := with_value (value (mem h f)) (mem h fx)) in *.
  destruct (match callback (mem (set_mem h fx q) fx) with Some c => _ | None => _ end) as [h2 ok2] eqn:E2.
  unfold bind in HR; cbn [fst snd] in HR. destruct ok2; [|discriminate].
  assert (TM : forall o, D o -> minus D (CbFocal p) o) by (intros o Ho; split; auto; intros [X|X]; discriminate).
  assert (PX := proj_cb D h p b "focallength_x_px" HI E K ltac:(cbn; tauto) ltac:(discriminate)).
  destruct (write_run D h fx q h2 fuel (CbFocal p) HI eq_refl PX E2 TM) as (I2&M2&S2&K2).
  destruct (sim_fwd _ _ _ _ S2 E) as (b2&Eb2&(Kb2&_)).
  assert (PY := proj_cb D h2 p b2 "focallength_y_px" I2 Eb2 ltac:(rewrite Kb2; exact K) ltac:(cbn; tauto) ltac:(discriminate)).
  destruct (write_run D h2 fy (with_value (value (mem h2 f)) (mem h2 fy)) h' fuel (CbFocal p) I2 eq_refl PY HR TM) as (I3&M3&S3&K3).
  assert (Mf : mem h2 f = mem h f) by (rewrite M2, set_mem_other; [auto|apply f_not_fx]).
  assert (Mfy : mem h2 fy = mem h fy) by (rewrite M2, set_mem_other; [auto|apply fy_not_fx]).
  split.
  - eapply Inv_weaken; [|exact I3]. exact TM.
  - intros x. rewrite M3. unfold post. fold fx fy f. destruct (loc_eqb_spec x fy) as [->|Ny].
    + rewrite set_mem_same, orb_true_r. rewrite Mf, Mfy. reflexivity.
    + rewrite set_mem_other, M2 by auto. rewrite orb_false_r. destruct (loc_eqb_spec x fx) as [->|Nx].
      * rewrite set_mem_same. reflexivity.
      * rewrite set_mem_other; auto.
  - eapply sim_trans; eauto.
  - intros x HT. rewrite K3, K2; auto.
    + intros X. apply HT. right. left. exact X.
    + intros X. apply HT. right. right. unfold cbk in *. rewrite Mfy in X. exact X.
Qed.

Lemma run_cb_spec D h c h' fuel : Inv D h -> cb_ok h c -> run_cb (S (S fuel)) h c = (h', true) -> cb_spec D h c h'.
Proof.
  intros HI HC HR. destruct c.
  - eapply run_orient; eauto.
  - eapply run_lens; eauto.
  - eapply run_focal; eauto.
Qed.
Lemma run_cb_depth D h c h' : Inv D h -> cb_ok h c -> run_cb depth h c = (h', true) -> cb_spec D h c h'.
Proof. intros HI HC HR. rewrite depth_S in HR. exact (run_cb_spec D h c h' 198 HI HC HR). Qed.
Lemma bind_ok (r : res (V := V)) f h' : bind r f = (h', true) -> exists h1, r = (h1, true) /\ f h1 = (h', true).
Proof. destruct r as [h1 []]; unfold bind; cbn [fst snd]; intros H; [eauto|discriminate]. Qed.
Lemma bind_run (h1 : heap) f : bind (h1, true) f = f h1. Proof. reflexivity. Qed.
Lemma calls_cons h c cs : calls h (c :: cs) = bind (run_cb depth h c) (fun h' => calls h' cs).
Proof. reflexivity. Qed.

(** Every parameter reachable through a table has a usable callback. *)
Lemma valid_cb D h l c : Inv D h -> valid h l -> cbk h l = Some c -> cb_ok h c.
Proof.
  intros HI (b&E&Hn) HC. destruct l as [o n]. cbn [l_owner l_name] in *. destruct (HI o b E) as (_&HW&_).
  unfold wired in HW. destruct (okd b) as [k|k|k| | |] eqn:K; cbn [base_names] in Hn; try contradiction.
  - destruct HW as (_&HF&_&H). destruct (String.eqb_spec n "focallength_px") as [->|N].
    + rewrite HF in HC; inversion HC. exists b. rewrite K. split; auto. exact I.
    + destruct (H n Hn N) as [X|(_&l&X&(bl&kl&El&Kl&_))]; rewrite X in HC; inversion HC. exists bl, kl; auto.
  - destruct HW as (_&H). destruct (H n Hn) as (_&X). rewrite X in HC; inversion HC. exists k, b; auto.
  - destruct HW as (H&_). rewrite (H n Hn) in HC; inversion HC. exists b, k; auto.
  - destruct HW as (_&H). rewrite (H n Hn) in HC; discriminate.
Qed.
Lemma table_valid D h o b n l : Inv D h -> objs h o = Some b -> assoc n (table b) = Some l -> valid h l.
Proof.
  intros HI E Ha. destruct (HI o b E) as (_&HW&_). unfold wired in HW.
  assert (SELF : table b = self_table o (okd b) -> valid h l).
  { intros T. rewrite T, assoc_self in Ha. destruct (mem_name_spec n (base_names (okd b))); inversion Ha. exists b; auto. }
  destruct (okd b) as [k|k|k| |p q r|cs] eqn:K; try (apply SELF; apply HW).
  - destruct HW as (_&_&W). destruct (lproj b) as [p|]; [|apply SELF; exact W].
    destruct W as (_&T&(bp&Ep&Kp)&_). rewrite T in Ha. unfold lens_table in Ha.
    rewrite assoc_app, (assoc_map (Loc o)) in Ha. destruct (mem_name_spec n (lnames k)).
    + inversion Ha. exists b. rewrite K. auto.
    + rewrite (assoc_map (Loc p)) in Ha. destruct (mem_name_spec n shared_names) as [Hs|]; inversion Ha.
      exists bp. split; auto. destruct (okd bp); try contradiction. apply shared_pnames, Hs.
  - eapply HW, assoc_in, Ha.
  - eapply HW, assoc_in, Ha.
Qed.
Lemma table_valid_in D h o b n l : Inv D h -> objs h o = Some b -> In (n, l) (table b) -> valid h l.
Proof.
  intros HI E Hin. destruct (HI o b E) as (_&HW&_). unfold wired in HW.
  assert (SELF : table b = self_table o (okd b) -> valid h l).
  { intros T. rewrite T in Hin. apply in_map_iff in Hin. destruct Hin as (m&X&Hm). inversion X; subst. exists b; auto. }
  destruct (okd b) as [k|k|k| |p q r|cs] eqn:K; try (apply SELF; apply HW).
  - destruct HW as (_&_&W). destruct (lproj b) as [p|]; [|apply SELF; exact W].
    destruct W as (_&T&(bp&Ep&Kp)&_). rewrite T in Hin. apply in_app_iff in Hin. destruct Hin as [Hin|Hin];
      apply in_map_iff in Hin; destruct Hin as (m&X&Hm); inversion X; subst.
    + exists b. rewrite K; auto.
    + exists bp. split; auto. destruct (okd bp); try contradiction. apply shared_pnames, Hm.
  - eapply HW; eauto.
  - eapply HW; eauto.
Qed.
End Facts.
