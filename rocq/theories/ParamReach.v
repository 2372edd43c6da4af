(** * Constructors, cameras, groups and loading preserve the invariant *)
Require Import List Bool String Arith NArith QArith Lia.
From Verif Require Import Projection Param ParamFacts ParamOps ParamSteps.
Import ListNotations.
Open Scope nat_scope.
Open Scope string_scope.

Lemma dict_set_in {A} n (a : A) t x : In x (dict_set n a t) -> In x t \/ x = (n, a).
Proof.
  induction t as [|[m b] t IH]; cbn [dict_set].
  - intros [H|[]]; auto.
  - destruct (String.eqb_spec n m) as [->|N].
    + intros [H|H]; [right; auto|left; right; auto].
    + intros [H|H]; [left; left; auto|]. destruct (IH H); [left; right; auto|right; auto].
Qed.
Lemma dict_update_in {A} (u : list (name * A)) : forall t x, In x (dict_update t u) -> In x t \/ In x u.
Proof.
  induction u as [|[n a] u IH]; intros t x; cbn [dict_update fold_left]; auto.
  intros H. destruct (IH _ _ H) as [X|X]; [|right; right; auto].
  cbn in X. destruct (dict_set_in _ _ _ _ X) as [Y| ->]; [left; auto|right; left; auto].
Qed.

Section Reach.
Context {V : Type} (wrapv : V -> option V) (lit : Q -> V).
Hypothesis wrap_ok : forall v v', wrapv v = Some v' -> wrapv v' = None.
Notation heap := (heap V). Notation obj := (obj V). Notation param := (param V). Notation arg := (arg V).
Notation op := (op V).
Notation run_cb := (run_cb wrapv).
Notation Inv := (Inv wrapv). Notation fresh := (fresh wrapv).
Notation exec := (exec wrapv lit).
Implicit Types (h : heap) (b : obj).

(** ** Extending the heap leaves old objects alone *)
Definition extends (h h' : heap) : Prop :=
  (forall y, y < next h -> objs h' y = objs h y) /\ (forall l, l_owner l < next h -> mem h' l = mem h l).
Lemma ext_obj D h h' x b : Inv D h -> extends h h' -> objs h x = Some b ->
  wired h' x b /\ (~ D x -> fresh h' x b).
Proof.
  intros HI (HO&HM) E. destruct (HI x b E) as (HN&HW&HF).
  assert (CB : forall n, cbk h' (Loc x n) = cbk h (Loc x n)) by (intros n; unfold cbk; rewrite HM; auto).
  assert (RD : forall n, rdl h' (Loc x n) = rdl h (Loc x n)) by (intros n; unfold rdl; rewrite HM; auto).
  assert (OB : forall y by0, objs h y = Some by0 -> objs h' y = Some by0).
  { intros y by0 Ey. destruct (HI y by0 Ey) as (Hy&_). rewrite HO; auto. }
  assert (VAL : forall l, valid h l -> valid h' l) by (intros l (bl&El&Hl); exists bl; auto).
  split.
  - unfold wired in *. destruct (okd b) as [k|k|k| |cp co cl|cc] eqn:K.
    + destruct HW as (W1&W2&W3&W4). split; [exact W1|split; [rewrite CB; exact W2|split; [exact W3|]]].
      intros n Hn Hf. rewrite CB. destruct (W4 n Hn Hf) as [?|(?&l&?&(bl&kl&El&?))]; [left; assumption|].
      right. split; [assumption|]. exists l. split; [assumption|]. exists bl, kl. split; auto.
    + destruct HW as (W1&W2). split; [exact W1|]. intros n Hn. rewrite CB. auto.
    + destruct HW as (W1&W2&W3). split; [intros n Hn; rewrite CB; auto|split; [exact W2|]].
      destruct (lproj b) as [p|]; [|exact W3]. destruct W3 as (W4&W5&(bp&Ep&Kp)&W6). split; [exact W4|split; [exact W5|split]].
      * exists bp. auto.
      * intros n Hn. unfold cbk. rewrite HM; [apply W6; auto|]. cbn. apply (HI p bp Ep).
    + destruct HW as (W1&W2). split; [exact W1|]. intros n Hn. rewrite CB; auto.
    + intros n l Hin. eapply VAL, HW; eauto.
    + intros n l Hin. eapply VAL, HW; eauto.
  - intros ND. specialize (HF ND). unfold ParamFacts.fresh in *. destruct (okd b) as [k|k|k| |cp co cl|cc] eqn:K; auto.
    + destruct HF as (F1&F2&F3). split; [|split].
      * intros n Hn. rewrite RD; auto.
      * rewrite RD; auto.
      * intros n Hn. rewrite RD; auto.
    + destruct HF as (F1&F2). split; [intros n Hn; rewrite RD; auto|].
      intros p Hp n Hn. rewrite (F2 p Hp n Hn). symmetry. unfold wired in HW. rewrite K, Hp in HW.
      destruct HW as (_&_&_&_&(bp&Ep&Kp)&_). apply get_num_ext; [rewrite (OB _ _ Ep); auto|].
      intros b1 l E1 _ Ha. unfold rdl. rewrite HM; auto. destruct (table_valid wrapv D h p b1 n l HI E1 Ha) as (bl&El&_).
      apply (HI _ _ El).
Qed.
Lemma alloc_extends h k vals at_ : extends h (alloc lit h k vals at_).
Proof.
  split.
  - intros y Hy. cbn. destruct (Nat.eqb_spec y (next h)); auto; lia.
  - intros l Hl. cbn. destruct (Nat.eqb_spec (l_owner l) (next h)); auto; lia.
Qed.
Definition base_kind (k : kind) : Prop := match k with KCam _ _ _ | KGroup _ => False | _ => True end.
Lemma Inv_alloc D h k vals at_ : Inv D h -> base_kind k ->
  (forall n, In n (base_names k) -> (is_proj k -> n = "focallength_px") -> at_ n = None) ->
  Inv (fun x => D x \/ x = next h) (alloc lit h k vals at_).
Proof.
  intros HI HB HA x b E. cbn [objs alloc] in E. destruct (Nat.eqb_spec x (next h)) as [->|N].
  - inversion E; subst b. split; [cbn; lia|split; [|intros X; exfalso; apply X; auto]].
    assert (CB : forall n, cbk (alloc lit h k vals at_) (Loc (next h) n) = fresh_cb (next h) k n).
    { intros n. unfold cbk. cbn. rewrite Nat.eqb_refl. reflexivity. }
    unfold wired. cbn [okd table attrs lproj]. destruct k as [k|k|k| |cp co cl|cc]; try contradiction.
    + split; [reflexivity|split; [rewrite CB; reflexivity|split]].
      * apply HA; [cbn; tauto|auto].
      * intros n Hn Hf. left. rewrite CB. cbn. destruct (String.eqb_spec n "focallength_px"); congruence.
    + split; [reflexivity|]. intros n Hn. rewrite CB. split; [apply HA; [auto|intros []]|reflexivity].
    + split; [intros n Hn; rewrite CB; reflexivity|split; [|reflexivity]]. intros n Hn. apply HA; [auto|intros []].
    + split; [reflexivity|]. intros n Hn. rewrite CB. reflexivity.
  - destruct (ext_obj D h (alloc lit h k vals at_) x b HI (alloc_extends h k vals at_) E) as (W&F).
    destruct (HI x b E) as (HN&_). split; [cbn; lia|split; [exact W|]]. intros X. apply F. tauto.
Qed.
(** Objects without derived state are never stale. *)
Lemma Inv_drop D h o b : Inv (fun x => D x \/ x = o) h -> objs h o = Some b -> fresh h o b -> Inv D h.
Proof.
  intros HI E HF x bx Ex. destruct (HI x bx Ex) as (A&B&C). split; [exact A|split; [exact B|]]. intros ND.
  destruct (Nat.eq_dec x o) as [->|N]; [congruence|]. apply C. tauto.
Qed.
Lemma alloc_obj h k vals at_ : objs (alloc lit h k vals at_) (next h) = Some (Obj k at_ (self_table (next h) k) (fun _ => None) None).
Proof. cbn. rewrite Nat.eqb_refl. reflexivity. Qed.

Lemma Inv_new_proj D h k vals fr h' : Inv D h -> new_proj lit h k vals fr = (h', true) -> Inv D h'.
Proof.
  intros HI HR. unfold new_proj in HR. destruct (forallb _ _); [|discriminate]. inversion HR; subst h'.
  eapply Inv_drop; [apply Inv_alloc; [exact HI|exact I|]|apply alloc_obj|exact I].
  intros n Hn HP. rewrite (HP I). cbn. rewrite andb_false_r. reflexivity.
Qed.
Lemma Inv_new_orient D h k vals h' : Inv D h -> new_orient wrapv lit h k vals = (h', true) -> Inv D h'.
Proof.
  intros HI HR. unfold new_orient in HR.
  assert (I1 : Inv (fun x => D x \/ x = next h) (alloc lit h (KOrient k) vals no_attrs)).
  { apply Inv_alloc; [exact HI|exact I|reflexivity]. }
  assert (OKC : cb_ok (alloc lit h (KOrient k) vals no_attrs) (CbOrient (next h))).
  { exists k. eexists. split; [apply alloc_obj|reflexivity]. }
  destruct (run_cb_depth wrapv wrap_ok _ _ _ _ I1 OKC HR) as [A _ _ _].
  eapply Inv_weaken; [|exact A]. intros o ([H|H]&N); auto. subst. exfalso. apply N. left; auto.
Qed.
Lemma Inv_new_lens D h k vals h' : Inv D h -> new_lens wrapv lit h k vals = (h', true) -> Inv D h'.
Proof.
  intros HI HR.
  assert (I1 : Inv (fun x => D x \/ x = next h) (alloc lit h (KLens k) vals no_attrs)).
  { apply Inv_alloc; [exact HI|exact I|reflexivity]. }
  assert (CASE : k = NoDist \/ run_cb depth (alloc lit h (KLens k) vals no_attrs) (CbLens (next h)) = (h', true)).
  { destruct k; auto. }
  destruct CASE as [->|HR'].
  - inversion HR; subst h'. eapply Inv_drop; [exact I1|apply alloc_obj|]. split; [intros n []|discriminate].
  - assert (OKC : cb_ok (alloc lit h (KLens k) vals no_attrs) (CbLens (next h))).
    { eexists _, k. split; [apply alloc_obj|reflexivity]. }
    destruct (run_cb_depth wrapv wrap_ok _ _ _ _ I1 OKC HR') as [A _ _ _].
    eapply Inv_weaken; [|exact A]. intros o ([H|H]&N); auto. subst. exfalso. apply N. right; auto.
Qed.
Lemma Inv_reserve D h : Inv D h -> Inv D (reserve h).
Proof.
  intros HI x b E. change (objs h x = Some b) in E. destruct (HI x b E) as (HN&_).
  destruct (ext_obj D h (reserve h) x b HI) as (W&F); [split; auto|exact E|].
  split; [cbn; lia|split; [exact W|exact F]].
Qed.

(** ** Attaching a lens to a projection *)
(** The lens is not yet attached to another projection, and no other lens is attached to
    this one. *)
Definition sharing_ok (h : heap) (l p : oid) : Prop :=
  exists b k, objs h l = Some b /\ okd b = KLens k /\
    (k <> NoDist -> (lproj b = None \/ lproj b = Some p) /\
                    (exists bp, objs h p = Some bp /\ is_proj (okd bp)) /\
                    (forall l', lens_on h l' p -> l' = l)).
Definition distorting (h : heap) (l : oid) : Prop := exists b k, objs h l = Some b /\ okd b = KLens k /\ k <> NoDist.

(** Same objects, except that lens [l] is now attached to [p]. *)
Definition attached (h h' : heap) (l p : oid) : Prop :=
  forall x, match objs h x, objs h' x with
            | Some b, Some b' => okd b' = okd b /\ attrs b' = attrs b /\
                (x <> l \/ ~ distorting h l -> table b' = table b /\ lproj b' = lproj b) /\
                (x = l -> distorting h l -> lproj b' = Some p /\ forall k, okd b = KLens k -> table b' = lens_table l p k)
            | None, None => True
            | _, _ => False
            end.
Lemma set_proj_Inv D h l p b k : Inv D h -> objs h l = Some b -> okd b = KLens k -> k <> NoDist -> sharing_ok h l p ->
  Inv (fun x => D x \/ x = l)
    (Heap (fun x => if existsb (fun nl => loc_eqb x (snd nl)) (lens_table l p k) then with_cb (Some (CbLens l)) (mem h x) else mem h x)
          (fun o => if Nat.eqb o l then Some (Obj (okd b) (attrs b) (lens_table l p k) (used b) (Some p)) else objs h o)
          (next h)).
Proof.
  intros HI E K NK (b0&k0&E0&K0&HS). rewrite E in E0; inversion E0; subst b0. rewrite K in K0; inversion K0; subst k0.
  destruct (HS NK) as (HL&(bp&Ep&Kp)&HU). clear HS E0 K0.
  assert (NPL : p <> l) by (intros ->; rewrite E in Ep; inversion Ep; subst; rewrite K in Kp; contradiction).
  set (h1 := Heap _ _ _).
  assert (IN : forall x, existsb (fun nl => loc_eqb x (snd nl)) (lens_table l p k) = true <->
     (l_owner x = l /\ In (l_name x) (lnames k)) \/ (l_owner x = p /\ In (l_name x) shared_names)).
  { intros x. rewrite existsb_exists. unfold lens_table. split.
    - intros (nl&Hin&Hx). destruct (loc_eqb_spec x (snd nl)); [|discriminate]. subst x. apply in_app_or in Hin.
      destruct Hin as [Hin|Hin]; apply in_map_iff in Hin; destruct Hin as (m&<-&Hm); cbn; auto.
    - intros [(H1&H2)|(H1&H2)].
      + exists (l_name x, Loc l (l_name x)). split; [apply in_or_app; left; apply in_map_iff; eauto|].
        cbn [snd]. destruct (loc_eqb_spec x (Loc l (l_name x))) as [|X]; auto. exfalso; apply X; destruct x; cbn in *; congruence.
      + exists (l_name x, Loc p (l_name x)). split; [apply in_or_app; right; apply in_map_iff; eauto|].
        cbn [snd]. destruct (loc_eqb_spec x (Loc p (l_name x))) as [|X]; auto. exfalso; apply X; destruct x; cbn in *; congruence. }
  assert (CBY : forall y n, (y = l /\ In n (lnames k)) \/ (y = p /\ In n shared_names) -> cbk h1 (Loc y n) = Some (CbLens l)).
  { intros y n Hy. unfold cbk, h1. cbn [mem]. rewrite (proj2 (IN (Loc y n)) Hy). reflexivity. }
  assert (CBN : forall y n, ~ (y = l /\ In n (lnames k)) -> ~ (y = p /\ In n shared_names) -> cbk h1 (Loc y n) = cbk h (Loc y n)).
  { intros y n H1 H2. unfold cbk, h1. cbn [mem]. destruct (existsb _ _) eqn:X; auto. apply IN in X. cbn [l_owner l_name] in X. tauto. }
  assert (RD : forall x, rdl h1 x = rdl h x).
  { intros x. unfold rdl, h1. cbn [mem]. destruct (existsb _ _); reflexivity. }
  assert (OB : forall y, y <> l -> objs h1 y = objs h y).
  { intros y Hy. cbn. destruct (Nat.eqb_spec y l); congruence. }
  assert (OL : objs h1 l = Some (Obj (okd b) (attrs b) (lens_table l p k) (used b) (Some p))) by (cbn; rewrite Nat.eqb_refl; auto).
  assert (VAL : forall x, valid h x -> valid h1 x).
  { intros x (bl&El&Hl). destruct (Nat.eq_dec (l_owner x) l) as [X|X].
    - rewrite X in El. eexists. rewrite X. split; [exact OL|]. cbn. congruence.
    - exists bl. rewrite OB; auto. }
  assert (GN : forall q n, q <> l -> get_num h1 q n = get_num h q n).
  { intros q n Hq. apply get_num_ext; [apply OB; auto|]. intros; apply RD. }
  intros y by0 Ey. destruct (Nat.eq_dec y l) as [->|Ny].
  - rewrite OL in Ey; inversion Ey; subst by0. destruct (HI l b E) as (HN&HW&_). split; [exact HN|split; [|tauto]].
    unfold wired in *. cbn [okd table attrs lproj]. rewrite K in *. destruct HW as (W1&W2&W3). split; [|split; [exact W2|]].
    + intros n Hn. apply CBY; auto.
    + split; [exact NK|split; [reflexivity|split]].
      * exists bp. rewrite OB; auto.
      * intros n Hn. apply CBY; auto.
  - rewrite (OB y Ny) in Ey. destruct (HI y by0 Ey) as (HN&HW&HF). split; [exact HN|split].
    + unfold wired in *. destruct (okd by0) as [ky|ky|ky| |cp co cl|cc] eqn:Ky.
      * destruct HW as (W1&W2&W3&W4). split; [exact W1|split; [|split; [exact W3|]]].
        -- rewrite CBN; [exact W2|intros (X&_); auto|]. intros (_&X). eapply shared_not_f; eauto.
        -- intros n Hn Hf. destruct (Nat.eq_dec y p) as [->|Np].
           ++ destruct (in_dec string_dec n shared_names) as [Hs|Hs].
              ** right. split; [exact Hs|]. exists l. split; [apply CBY; auto|]. exists (Obj (okd b) (attrs b) (lens_table l p k) (used b) (Some p)), k.
                 split; [exact OL|split; [exact K|split; [exact NK|reflexivity]]].
              ** rewrite CBN by (intros (XX&YY); auto). destruct (W4 n Hn Hf) as [?|(?&_)]; [left; assumption|contradiction].
           ++ rewrite CBN by (intros (XX&YY); auto). destruct (W4 n Hn Hf) as [?|(?&l'&?&(bl&kl&El&Kl&Nl&Ll))]; [left; assumption|].
              right. split; [assumption|]. exists l'. split; [assumption|]. destruct (Nat.eq_dec l' l) as [->|Nl'].
              ** exfalso. rewrite E in El; inversion El; subst bl. destruct HL; congruence.
              ** exists bl, kl. rewrite OB; auto.
      * destruct HW as (W1&W2). split; [exact W1|]. intros n Hn. rewrite CBN; [auto|intros (XX&_); exact (Ny XX)|].
        intros (->&_). rewrite Ep in Ey; inversion Ey; subst; rewrite Ky in Kp; contradiction.
      * destruct HW as (W1&W2&W3). split; [|split; [exact W2|]].
        -- intros n Hn. rewrite CBN; [auto|intros (XX&_); exact (Ny XX)|]. intros (->&_). rewrite Ep in Ey; inversion Ey; subst; rewrite Ky in Kp; contradiction.
        -- destruct (lproj by0) as [q|] eqn:Lq; [|exact W3]. destruct W3 as (W4&W5&(bq&Eq&Kq)&W6).
           assert (Nq : q <> l) by (intros ->; rewrite E in Eq; inversion Eq; subst; rewrite K in Kq; contradiction).
           split; [exact W4|split; [exact W5|split]].
           ++ exists bq. rewrite OB; auto.
           ++ intros n Hn. rewrite CBN; [auto|intros (XX&_); exact (Nq XX)|]. intros (->&_). apply Ny. apply HU. exists by0, ky. auto.
      * destruct HW as (W1&W2). split; [exact W1|]. intros n Hn. rewrite CBN; [auto|intros (XX&_); exact (Ny XX)|].
        intros (->&_). rewrite Ep in Ey; inversion Ey; subst; rewrite Ky in Kp; contradiction.
      * intros n x Hin. eapply VAL, HW; eauto.
      * intros n x Hin. eapply VAL, HW; eauto.
    + intros ND. assert (NDy : ~ D y) by tauto. specialize (HF NDy). unfold ParamFacts.fresh in *.
      destruct (okd by0) as [ky|ky|ky| |cp co cl|cc] eqn:Ky; auto.
      * destruct HF as (F1&F2&F3). split; [|split].
        -- intros n Hn. rewrite RD; auto.
        -- rewrite RD; auto.
        -- intros n Hn. rewrite RD; auto.
      * destruct HF as (F1&F2). split; [intros n Hn; rewrite RD; auto|]. intros q Hq n Hn. rewrite (F2 q Hq n Hn). symmetry.
        apply GN. intros ->. unfold wired in HW. rewrite Ky, Hq in HW. destruct HW as (_&_&_&_&(bq&Eq&Kq)&_).
        rewrite E in Eq; inversion Eq; subst; rewrite K in Kq; contradiction.
Qed.
Lemma Inv_set_projection D h l p h' : Inv D h -> sharing_ok h l p -> set_projection wrapv h l p = (h', true) ->
  Inv D h' /\ attached h h' l p /\ next h' = next h /\ (forall x, rdl h' x = rdl h x).
Proof.
  intros HI HS HR. pose proof HS as (b&k&E&K&_). unfold set_projection in HR. rewrite E, K in HR.
  assert (CASE : (k = NoDist /\ h' = h) \/ (k <> NoDist /\ run_cb depth
    (Heap (fun x => if existsb (fun nl => loc_eqb x (snd nl)) (lens_table l p k) then with_cb (Some (CbLens l)) (mem h x) else mem h x)
          (fun o => if Nat.eqb o l then Some (Obj (okd b) (attrs b) (lens_table l p k) (used b) (Some p)) else objs h o)
          (next h)) (CbLens l) = (h', true))).
  { destruct k; [left; inversion HR; auto|right|right]; (split; [discriminate|]; rewrite K; exact HR). }
  clear HR. destruct CASE as [(->&->)|(NK&HR)].
  - split; [exact HI|split; [|auto]]. intros x. destruct (objs h x) as [bx|] eqn:Ex; auto. split; [reflexivity|split; [reflexivity|split; [auto|]]].
    intros -> (b1&k1&E1&K1&N1). congruence.
  - pose proof (set_proj_Inv D h l p b k HI E K NK HS) as I1.
    set (h1 := Heap _ _ _) in *.
    assert (OKC : cb_ok h1 (CbLens l)).
    { eexists _, k. split; [unfold h1; cbn [objs]; rewrite Nat.eqb_refl; reflexivity|exact K]. }
    destruct (run_cb_depth wrapv wrap_ok _ _ _ _ I1 OKC HR) as [A M S _].
    split; [|split; [|split]].
    + eapply Inv_weaken; [|exact A]. intros o ([H|H]&N); auto. subst. exfalso. apply N. right; auto.
    + assert (DL : distorting h l) by (exists b, k; auto).
      intros x. destruct S as (_&S). specialize (S x). unfold h1 in S; cbn [objs] in S.
      destruct (Nat.eqb_spec x l) as [EX|N]; [subst x|].
      * rewrite E. destruct (objs h' l) as [b'|]; [|contradiction]. destruct S as (S1&S2&S3&S4). cbn in *.
        split; [exact S1|split; [exact S2|split]].
        -- intros [X|X]; contradiction.
        -- intros _ _. split; [exact S4|]. intros k1 K1. rewrite S3. congruence.
      * destruct (objs h x) as [bx|], (objs h' x) as [b'|]; auto. destruct S as (S1&S2&S3&S4).
        split; [exact S1|split; [exact S2|split; [auto|]]]. intros X; contradiction.
    + destruct S as (S&_). exact S.
    + intros x. unfold rdl. rewrite M. unfold post, h1. cbn [mem]. destruct (existsb _ _); reflexivity.
Qed.

(** ** Cameras and groups *)
Definition not_base (h : heap) (c : oid) : Prop := forall b, objs h c = Some b -> ~ base_kind (okd b).
Lemma Inv_set_cam D h c b : Inv D h -> not_base h c -> c < next h -> ~ base_kind (okd b) ->
  (forall n l, In (n, l) (table b) -> valid h l) -> Inv D (set_obj h c b).
Proof.
  intros HI HN HC HB HT.
  set (h1 := set_obj h c b).
  assert (OB : forall y by0, objs h y = Some by0 -> base_kind (okd by0) -> objs h1 y = Some by0).
  { intros y by0 Ey Ky. cbn. destruct (Nat.eqb_spec y c) as [->|]; auto. exfalso. apply (HN by0 Ey Ky). }
  assert (VAL : forall l, valid h l -> valid h1 l).
  { intros l (bl&El&Hl). exists bl. split; auto. apply OB; auto. destruct (okd bl); auto; exact I. }
  assert (LON : forall l p, lens_on h l p -> lens_on h1 l p).
  { intros l p (bl&kl&El&Kl&R). exists bl, kl. split; [apply OB; auto; rewrite Kl; exact I|auto]. }
  intros x bx Ex. destruct (Nat.eq_dec x c) as [->|N].
  - unfold h1 in Ex. cbn in Ex. rewrite Nat.eqb_refl in Ex. inversion Ex; subst bx. split; [exact HC|split].
    + unfold wired. destruct (okd b); try (exfalso; apply HB; exact I); intros n0 l0 Hin; eapply VAL, HT; eauto.
    + intros _. unfold ParamFacts.fresh. destruct (okd b); auto; exfalso; apply HB; exact I.
  - assert (Ex' : objs h x = Some bx) by (unfold h1 in Ex; cbn in Ex; destruct (Nat.eqb_spec x c); congruence).
    destruct (HI x bx Ex') as (A&HW&HF). split; [exact A|split].
    + unfold wired in *. change (fun l => cbk h1 l) with (fun l => cbk h l).
      destruct (okd bx) as [ky|ky|ky| |cp co cl|cc] eqn:Ky.
      * destruct HW as (W1&W2&W3&W4). split; [exact W1|split; [exact W2|split; [exact W3|]]].
        intros n Hn Hf. destruct (W4 n Hn Hf) as [?|(?&l'&?&?)]; [left; assumption|]. right. split; [assumption|]. exists l'. auto.
      * exact HW.
      * destruct HW as (W1&W2&W3). split; [exact W1|split; [exact W2|]]. destruct (lproj bx); [|exact W3].
        destruct W3 as (W4&W5&(bp&Ep&Kp)&W6). split; [exact W4|split; [exact W5|split; [|exact W6]]].
        exists bp. split; auto. apply OB; auto. destruct (okd bp); try contradiction; exact I.
      * exact HW.
      * intros n l Hin. eapply VAL, HW; eauto.
      * intros n l Hin. eapply VAL, HW; eauto.
    + intros ND. specialize (HF ND). unfold ParamFacts.fresh in *. destruct (okd bx) as [ky|ky|ky| |cp co cl|cc] eqn:Ky; auto.
      destruct HF as (F1&F2). split; [exact F1|]. intros p Hp n Hn. rewrite (F2 p Hp n Hn). symmetry.
      unfold wired in HW. rewrite Ky, Hp in HW. destruct HW as (_&_&_&_&(bp&Ep&Kp)&_). apply get_num_ext; auto.
      rewrite Ep. apply OB; auto. destruct (okd bp); try contradiction; exact I.
Qed.
Lemma tab_valid D h o n l : Inv D h -> In (n, l) (tab h o) -> valid h l.
Proof. intros HI. unfold tab. destruct (objs h o) eqn:E; [|intros []]. intros. eapply table_valid_in; eauto. Qed.
Lemma cam_table_valid D h g p o l n x : Inv D h ->
  (forall m, In m gnames -> valid h (Loc g m)) -> In (n, x) (cam_table h g p o l) -> valid h x.
Proof.
  intros HI HG Hin. unfold cam_table in Hin.
  destruct (dict_update_in _ _ _ Hin) as [Hin1|Hin1]; [|eapply tab_valid; eauto].
  destruct (dict_update_in _ _ _ Hin1) as [Hin2|Hin2]; [|eapply tab_valid; eauto].
  destruct (dict_update_in _ _ _ Hin2) as [Hin3|Hin3]; [|eapply tab_valid; eauto].
  apply in_map_iff in Hin3. destruct Hin3 as (m&X&Hm). inversion X; subst. apply HG; auto.
Qed.
(** What creating a camera [c] leaves of the old heap. *)
Definition camera_made (h h' : heap) (c p o l : oid) : Prop :=
  (next h <= next h') /\
  (forall x b, objs h x = Some b -> x <> c -> exists b', objs h' x = Some b' /\ okd b' = okd b /\ attrs b' = attrs b /\
     (x <> l \/ ~ distorting h l -> table b' = table b /\ lproj b' = lproj b) /\
     (x = l -> distorting h l -> lproj b' = Some p)) /\
  (forall x b', objs h' x = Some b' -> x <> c ->
     (exists b, objs h x = Some b) \/ (next h <= x /\ okd b' = KGps)) /\
  (exists b', objs h' c = Some b' /\ okd b' = KCam p o l) /\
  (forall x, l_owner x < next h -> rdl h' x = rdl h x).
Lemma Inv_init_camera D h c p o l at_ h' : Inv D h -> sharing_ok h l p -> not_base h c -> c < next h ->
  init_camera wrapv lit h c p o l at_ = (h', true) -> Inv D h' /\ camera_made h h' c p o l.
Proof.
  intros HI HS HN HC HR. unfold init_camera in HR. apply bind_ok in HR. destruct HR as (h1&E1&HR).
  destruct (Inv_set_projection D h l p h1 HI HS E1) as (I1&AT&N1&R1).
  cbv zeta in HR. set (h2 := alloc lit h1 KGps (zero_gps lit) no_attrs) in *. inversion HR; subst h'. clear HR.
  assert (I2 : Inv D h2).
  { eapply Inv_drop; [apply Inv_alloc; [exact I1|exact I|reflexivity]|apply alloc_obj|exact I]. }
  assert (OLD : forall x, x <> next h1 -> objs h2 x = objs h1 x).
  { intros x Nx. unfold h2; cbn. destruct (Nat.eqb_spec x (next h1)); congruence. }
  assert (NB : not_base h2 c).
  { intros b Eb. rewrite OLD in Eb by lia. specialize (AT c). rewrite Eb in AT. destruct (objs h c) as [b0|] eqn:E0; [|contradiction].
    destruct AT as (K&_). rewrite K. apply HN; auto. }
  split.
  - apply Inv_set_cam; [exact I2|exact NB|unfold h2; cbn; lia|intros X; exact X|]. cbn [table]. intros n x Hin.
    eapply cam_table_valid; [exact I2| |exact Hin]. intros m Hm. eexists. split; [apply alloc_obj|exact Hm].
  - split; [cbn; lia|split; [|split; [|split]]].
    + intros x b Eb Nx. specialize (AT x). rewrite Eb in AT. destruct (objs h1 x) as [b'|] eqn:E'; [|contradiction].
      exists b'. split; [cbn [objs set_obj]; destruct (Nat.eqb_spec x c); [contradiction|]|].
      * rewrite OLD; auto. destruct (HI x b Eb). lia.
      * destruct AT as (T1&T2&T3&T4). split; [exact T1|split; [exact T2|split; [exact T3|]]]. intros X Y. apply (T4 X Y).
    + intros x b' E' Nx. cbn [objs set_obj] in E'. destruct (Nat.eqb_spec x c) as [|_]; [contradiction|].
      destruct (Nat.eq_dec x (next h1)) as [->|Nn].
      * right. split; [lia|]. unfold h2 in E'. rewrite alloc_obj in E'. inversion E'. reflexivity.
      * left. rewrite OLD in E' by auto. specialize (AT x). rewrite E' in AT. destruct (objs h x); [eauto|contradiction].
    + eexists. split; [cbn [objs set_obj]; rewrite Nat.eqb_refl; reflexivity|reflexivity].
    + intros x Hx. unfold rdl. cbn [mem set_obj]. unfold h2; cbn [mem alloc].
      destruct (Nat.eqb_spec (l_owner x) (next h1)); [lia|]. apply R1.
Qed.
Lemma Inv_objs_lt D h : Inv D h -> forall x b, objs h x = Some b -> x < next h.
Proof. intros HI x b E. apply (HI x b E). Qed.
Lemma not_base_next D h : Inv D h -> not_base (reserve h) (next h).
Proof. intros HI b E. change (objs h (next h) = Some b) in E. apply (Inv_objs_lt D h HI) in E. lia. Qed.
Lemma Inv_new_camera D h p o l h' : Inv D h -> sharing_ok h l p ->
  new_camera wrapv lit h p o l = (h', true) -> Inv D h' /\ camera_made (reserve h) h' (next h) p o l.
Proof.
  intros HI HS HR. unfold new_camera in HR.
  eapply (Inv_init_camera D (reserve h)); [apply Inv_reserve; auto|exact HS|eapply not_base_next; eauto|cbn; lia|exact HR].
Qed.

(** Groups: the pairs (lens, projection) of the cameras made. *)
Definition pairs_ok (h : heap) (prs : list (oid * oid)) : Prop :=
  (forall l p, In (l, p) prs -> sharing_ok h l p) /\
  (forall l1 p1 l2 p2, In (l1, p1) prs -> In (l2, p2) prs -> distorting h l1 -> distorting h l2 -> l1 = l2 <-> p1 = p2).
Lemma pairs_ok_step D h h' p o l prs : Inv D h -> pairs_ok h prs -> In (l, p) prs ->
  camera_made (reserve h) h' (next h) p o l -> pairs_ok h' prs.
Proof.
  intros HI (P1&P2) Hin (C1&C2&C3&C4&_).
  change (forall x b, objs h x = Some b -> x <> next h -> exists b', objs h' x = Some b' /\ okd b' = okd b /\ attrs b' = attrs b /\
     (x <> l \/ ~ distorting h l -> table b' = table b /\ lproj b' = lproj b) /\
     (x = l -> distorting h l -> lproj b' = Some p)) in C2.
  assert (FW : forall x b, objs h x = Some b -> exists b', objs h' x = Some b' /\ okd b' = okd b /\
     (x <> l \/ ~ distorting h l -> lproj b' = lproj b) /\ (x = l -> distorting h l -> lproj b' = Some p)).
  { intros x b E. pose proof (Inv_objs_lt D h HI x b E). destruct (C2 x b E) as (b'&E'&K&_&T1&T2); [lia|].
    exists b'. split; [exact E'|split; [exact K|split; [|exact T2]]]. intros X. apply (T1 X). }
  assert (BK : forall x b' k, objs h' x = Some b' -> okd b' = KLens k -> exists b, objs h x = Some b /\ okd b = KLens k /\
     (x <> l \/ ~ distorting h l -> lproj b' = lproj b) /\ (x = l -> distorting h l -> lproj b' = Some p)).
  { intros x b' k E' K'. destruct (Nat.eq_dec x (next h)) as [->|Nx].
    - destruct C4 as (bc&Ec&Kc). rewrite E' in Ec; inversion Ec; subst. congruence.
    - destruct (C3 x b' E' Nx) as [(b&E)|(_&X)]; [|congruence]. change (objs h x = Some b) in E.
      destruct (FW x b E) as (b2&E2&K2&F1&F2). rewrite E' in E2; inversion E2; subst b2. exists b. rewrite <- K2. auto. }
  assert (DI : forall x, distorting h' x -> distorting h x).
  { intros x (b'&k&E'&K'&N). destruct (BK x b' k E' K') as (b&E&K&_). exists b, k; auto. }
  split; [|intros l1 p1 l2 p2 I1 I2 D1 D2; apply P2; auto].
  intros l1 p1 I1. destruct (P1 l1 p1 I1) as (b1&k1&E1&K1&S1).
  destruct (FW l1 b1 E1) as (b1'&E1'&K1'&F1&F2). exists b1', k1. split; [exact E1'|split; [congruence|]].
  intros N1. destruct (S1 N1) as (S2&(bp&Ep&Kp)&S3).
  assert (D1 : distorting h l1) by (exists b1, k1; auto).
  split; [|split].
  - destruct (Nat.eq_dec l1 l) as [->|Nl]; [|rewrite F1; auto].
    right. rewrite (F2 eq_refl D1). f_equal. apply (P2 l p l p1); auto.
  - destruct (FW p1 bp Ep) as (bp'&Ep'&Kp'&_). exists bp'. rewrite Kp'. auto.
  - intros l2 (b2'&k2&E2'&K2'&N2&L2). destruct (BK l2 b2' k2 E2' K2') as (b2&E2&K2&G1&G2).
    assert (D2 : distorting h l2) by (exists b2, k2; auto).
    destruct (Nat.eq_dec l2 l) as [->|Nl].
    + rewrite (G2 eq_refl D2) in L2. inversion L2; subst p1. apply (P2 l p l1 p); auto.
    + apply S3. exists b2, k2. rewrite G1 in L2; auto.
Qed.
Lemma In_nth_mod (l : list oid) i x : nth_error l (i mod List.length l) = Some x -> In x l.
Proof. apply nth_error_In. Qed.
(** The (lens, projection) pairs of [n] cameras from index [i]. *)
Fixpoint cam_pairs (i n : nat) (ps ls : list oid) : list (oid * oid) :=
  match n with
  | O => []
  | S n' => match nth_error ls (i mod List.length ls), nth_error ps (i mod List.length ps) with
            | Some l, Some p => (l, p) :: cam_pairs (S i) n' ps ls
            | _, _ => []
            end
  end.
(** Old objects keep kind and attributes. *)
Definition kept (h h' : heap) : Prop :=
  next h <= next h' /\
  (forall x b, objs h x = Some b -> exists b', objs h' x = Some b' /\ okd b' = okd b /\ attrs b' = attrs b) /\
  (forall x, x < next h -> objs h x = None -> objs h' x = None) /\
  (forall x, l_owner x < next h -> rdl h' x = rdl h x).
Lemma kept_refl h : kept h h.
Proof. split; [lia|split; [|split]]; auto. intros x b E. exists b; auto. Qed.
Lemma kept_trans h1 h2 h3 : kept h1 h2 -> kept h2 h3 -> kept h1 h3.
Proof.
  intros (A1&A2&A3&A4) (B1&B2&B3&B4). split; [lia|split; [|split]].
  - intros x b E. destruct (A2 x b E) as (b2&E2&K2&T2). destruct (B2 x b2 E2) as (b3&E3&K3&T3). exists b3. repeat split; congruence.
  - intros x Hx E. apply B3; [lia|auto].
  - intros x Hx. rewrite B4 by lia. auto.
Qed.
Lemma camera_kept D h h' p o l : Inv D h -> camera_made (reserve h) h' (next h) p o l -> kept h h'.
Proof.
  intros HI (C1&C2&C3&C4&C5). cbn [next reserve] in *. split; [lia|split; [|split]].
  - intros x b E. pose proof (Inv_objs_lt D h HI x b E). destruct (C2 x b E) as (b'&E'&K&A&_); [lia|]. exists b'. auto.
  - intros x Hx E. destruct (objs h' x) as [b'|] eqn:E'; auto. destruct (C3 x b' E') as [(b&Eb)|(X&_)]; try lia.
    change (objs h x = Some b) in Eb. congruence.
  - intros x Hx. rewrite C5 by lia. reflexivity.
Qed.
Lemma make_cameras_Inv n : forall D h i ps os ls prs h' cs, Inv D h -> pairs_ok h prs -> incl (cam_pairs i n ps ls) prs ->
  make_cameras wrapv lit h i n ps os ls = (h', true, cs) -> Inv D h' /\ kept h h'.
Proof.
  induction n as [|n IH]; intros D h i ps os ls prs h' cs HI HP HC HR.
  - inversion HR; subst. split; [exact HI|apply kept_refl].
  - cbn [make_cameras] in HR. cbn [cam_pairs] in HC.
    destruct (nth_error ps (i mod List.length ps)) as [p|] eqn:Ep; [|inversion HR; subst; split; [exact HI|apply kept_refl]].
    destruct (nth_error os (i mod List.length os)) as [o|] eqn:Eo; [|inversion HR; subst; split; [exact HI|apply kept_refl]].
    destruct (nth_error ls (i mod List.length ls)) as [l|] eqn:El; [|inversion HR; subst; split; [exact HI|apply kept_refl]].
    destruct (new_camera wrapv lit h p o l) as [h1 []] eqn:EC; cbn [fst snd] in HR; [|discriminate].
    assert (IN : In (l, p) prs) by (apply HC; left; auto).
    destruct (Inv_new_camera D h p o l h1 HI) with (2 := EC) as (I1&CM); [apply HP; auto|].
    destruct (make_cameras wrapv lit h1 (S i) n ps os ls) as [[h2 ok] cs'] eqn:EM. inversion HR; subst.
    assert (HP1 : pairs_ok h1 prs) by exact (pairs_ok_step D h h1 p o l prs HI HP IN CM).
    assert (HC1 : incl (cam_pairs (S i) n ps ls) prs) by (intros x Hx; apply HC; right; exact Hx).
    destruct (IH D h1 (S i) ps os ls prs h' cs' I1 HP1 HC1 EM) as (I2&K2).
    split; [exact I2|]. eapply kept_trans; [exact (camera_kept D h h1 p o l HI CM)|exact K2].
Qed.
Lemma fold_in {A} (f : list (name * loc) -> A -> list (name * loc)) (Q : loc -> Prop) l :
  forall t, (forall t a, In a l -> (forall n x, In (n, x) t -> Q x) -> forall n x, In (n, x) (f t a) -> Q x) ->
  (forall n x, In (n, x) t -> Q x) -> forall n x, In (n, x) (fold_left f l t) -> Q x.
Proof.
  induction l as [|a l IH]; intros t Hf Ht; cbn [fold_left]; auto. apply IH.
  - intros t0 a0 Ha. apply Hf. right; auto.
  - apply Hf; [left; auto|auto].
Qed.
Lemma gather_valid D h t l : Inv D h -> (forall n x, In (n, x) t -> valid h x) -> forall n x, In (n, x) (gather h t l) -> valid h x.
Proof.
  intros HI HT. unfold gather.
  assert (ONE : forall o, forall n x, In (n, x) (dict_update t (tab h o)) -> valid h x).
  { intros o n x H. destruct (dict_update_in _ _ _ H); [eauto|eapply tab_valid; eauto]. }
  assert (ALL : forall n x, In (n, x) (fold_left (fun ps io =>
           fold_left (fun ps nl => dict_set ("C" ++ nat_string (fst io) ++ "_" ++ fst nl) (snd nl) ps) (tab h (snd io)) ps)
         (combine (seq 0 (List.length l)) l) t) -> valid h x).
  { apply fold_in; auto. intros t0 (i&o) _ H0. apply fold_in; auto. intros t1 (n1&x1) Hin H1 n x H.
    destruct (dict_set_in _ _ _ _ H) as [X|X]; [eauto|]. inversion X; subst. eapply tab_valid; eauto. }
  destruct l as [|o [|o2 l]]; [exact ALL|apply ONE|exact ALL].
Qed.
Definition group_ok (h : heap) (pa oa la : oid + list oid) : Prop :=
  pairs_ok h (cam_pairs 0 (group_size [comp_given pa; comp_given oa; comp_given la]) (comp_list pa) (comp_list la)).
Lemma Inv_new_group D h pa oa la h' : Inv D h -> group_ok h pa oa la ->
  new_group wrapv lit h pa oa la = (h', true) -> Inv D h' /\ kept h h'.
Proof.
  intros HI HG HR. unfold new_group in HR.
  set (n := group_size _) in *. unfold group_ok in HG. fold n in HG.
  destruct (make_cameras wrapv lit (reserve h) 0 n (comp_list pa) (comp_list oa) (comp_list la)) as [[h1 []] cs] eqn:EM; [|discriminate].
  inversion HR; subst h'. clear HR.
  assert (IR := Inv_reserve D h HI).
  destruct (make_cameras_Inv n D (reserve h) 0 _ _ _ _ h1 cs IR HG (incl_refl _) EM) as (I1&K1).
  assert (NB : objs h1 (next h) = None).
  { destruct K1 as (_&_&K&_). apply K; [cbn; lia|]. change (objs h (next h) = None). destruct (objs h (next h)) as [b|] eqn:E; auto.
    apply (Inv_objs_lt D h HI) in E. lia. }
  assert (VK : forall x, valid h x -> valid h1 x).
  { intros x (b&E&Hn). destruct K1 as (_&K&_). destruct (K (l_owner x) b E) as (b'&E'&K'&_). exists b'. rewrite K'. auto. }
  split.
  - apply Inv_set_cam; [exact I1|intros b E; congruence|destruct K1 as (K&_); cbn in K; lia|intros X; exact X|].
    cbn [table]. intros m x Hin. apply VK. revert m x Hin. apply gather_valid with (D := D); auto.
    apply gather_valid with (D := D); auto. apply gather_valid with (D := D); auto. intros m x [].
  - destruct K1 as (K1&K2&K3&K4). cbn [next reserve] in *. split; [cbn; lia|split; [|split]].
    + intros x b E. destruct (K2 x b E) as (b'&E'&R). exists b'. split; auto. cbn. pose proof (Inv_objs_lt D h HI x b E).
      destruct (Nat.eqb_spec x (next h)); [lia|auto].
    + intros x Hx E. cbn. destruct (Nat.eqb_spec x (next h)); [lia|]. apply K3; [lia|auto].
    + intros x Hx. unfold rdl. cbn [mem set_obj]. apply K4. lia.
Qed.

(** ** Loading *)
Lemma Inv_set_all D o vars : forall h h', Inv D h -> set_all wrapv h o vars = (h', true) -> Inv D h'.
Proof.
  induction vars as [|[n a] vars IH]; intros h h' HI HR; [inversion HR; subst; auto|].
  cbn [set_all] in HR. apply bind_ok in HR. destruct HR as (h1&E1&HR). eapply IH; [|exact HR]. eapply Inv_set_attr; eauto.
Qed.
Lemma run_sim D h c h' : Inv D h -> cb_ok h c -> run_cb depth h c = (h', true) -> sim h h'.
Proof. intros HI HC HR. apply (run_cb_depth wrapv wrap_ok D h c h' HI HC HR). Qed.
Definition grown (h h' : heap) (k : kind) : Prop :=
  next h' = S (next h) /\ (exists b, objs h' (next h) = Some b /\ okd b = k /\ lproj b = None) /\
  (forall x b, objs h x = Some b -> exists b', objs h' x = Some b' /\ osim b b') /\
  (forall x b', objs h' x = Some b' -> x <> next h -> exists b, objs h x = Some b /\ osim b b').
Lemma grown_alloc D h k vals at_ h' : Inv D h -> sim (alloc lit h k vals at_) h' -> grown h h' k.
Proof.
  intros HI S. pose proof S as (N&_). split; [exact N|split; [|split]].
  - destruct (sim_fwd _ _ _ _ S (alloc_obj h k vals at_)) as (b'&E'&(K&_&_&L)). exists b'. split; [exact E'|split; [exact K|exact L]].
  - intros x b E. destruct (sim_fwd _ _ x b S) as (b'&E'&O); eauto. cbn. pose proof (Inv_objs_lt D h HI x b E).
    destruct (Nat.eqb_spec x (next h)); [lia|auto].
  - intros x b' E' Nx. destruct (sim_back _ _ _ _ S E') as (b&E&O). exists b. split; auto. cbn in E.
    destruct (Nat.eqb_spec x (next h)); [contradiction|auto].
Qed.
Lemma new_proj_grown D h k vals fr h' : Inv D h -> new_proj lit h k vals fr = (h', true) -> grown h h' (KProj k).
Proof.
  intros HI HR. unfold new_proj in HR. destruct (forallb _ _); [|discriminate]. inversion HR; subst h'.
  eapply grown_alloc; [exact HI|apply sim_refl].
Qed.
Lemma new_orient_grown D h k vals h' : Inv D h -> new_orient wrapv lit h k vals = (h', true) -> grown h h' (KOrient k).
Proof.
  intros HI HR. unfold new_orient in HR. eapply grown_alloc; [exact HI|]. eapply run_sim; [| |exact HR].
  - apply Inv_alloc; [exact HI|exact I|reflexivity].
  - exists k. eexists. split; [apply alloc_obj|reflexivity].
Qed.
Lemma new_lens_grown D h k vals h' : Inv D h -> new_lens wrapv lit h k vals = (h', true) -> grown h h' (KLens k).
Proof.
  intros HI HR.
  assert (CASE : k = NoDist \/ run_cb depth (alloc lit h (KLens k) vals no_attrs) (CbLens (next h)) = (h', true)).
  { destruct k; auto. }
  destruct CASE as [->|HR'].
  - inversion HR; subst h'. eapply grown_alloc; [exact HI|apply sim_refl].
  - eapply grown_alloc; [exact HI|]. eapply run_sim; [| |exact HR'].
    + apply Inv_alloc; [exact HI|exact I|reflexivity].
    + eexists _, k. split; [apply alloc_obj|reflexivity].
Qed.
Lemma load_prep D h c (f : file V) h1 h2 h3 : Inv D h -> not_base h c -> c < next h ->
  new_proj lit h (file_proj f) (placeholder lit) false = (h1, true) ->
  new_lens wrapv lit h1 (file_lens f) none_vals = (h2, true) ->
  new_orient wrapv lit h2 TiltHeading none_vals = (h3, true) ->
  Inv D h3 /\ sharing_ok h3 (next h1) (next h) /\ not_base h3 c /\ c < next h3 /\
  next h1 = S (next h) /\ next h2 = S (S (next h)) /\ next h3 = S (S (S (next h))) /\
  grown h h1 (KProj (file_proj f)) /\ grown h1 h2 (KLens (file_lens f)) /\ grown h2 h3 (KOrient TiltHeading).
Proof.
  intros HI HB HC E1 E2 E3.
  pose proof (Inv_new_proj D _ _ _ _ _ HI E1) as I1. pose proof (new_proj_grown D _ _ _ _ _ HI E1) as G1.
  pose proof (Inv_new_lens D _ _ _ _ I1 E2) as I2. pose proof (new_lens_grown D _ _ _ _ I1 E2) as G2.
  pose proof (Inv_new_orient D _ _ _ _ I2 E3) as I3. pose proof (new_orient_grown D _ _ _ _ I2 E3) as G3.
  pose proof G1 as (N1&(bp1&Ep1&Kp1&_)&F1&B1). pose proof G2 as (N2&(bl2&El2&Kl2&Ll2)&F2&B2). pose proof G3 as (N3&_&F3&B3).
  assert (SH : sharing_ok h3 (next h1) (next h)).
  { destruct (F3 _ _ El2) as (bl3&El3&(Kl3&_&_&Ll3)). exists bl3, (file_lens f). split; [exact El3|split; [congruence|]].
    intros NK. split; [left; congruence|split].
    - destruct (F2 _ _ Ep1) as (bp2&Ep2&(Kp2&_)). destruct (F3 _ _ Ep2) as (bp3&Ep3&(Kp3&_)).
      exists bp3. split; [exact Ep3|]. rewrite Kp3, Kp2, Kp1. exact I.
    - intros l' (bl'&kl'&El'&Kl'&Nl'&Ll'). 
      assert (X3 : l' <> next h2).
      { intros ->. destruct G3 as (_&(bo&Eo&Ko&_)&_). rewrite El' in Eo; inversion Eo; subst. congruence. }
      destruct (B3 _ _ El' X3) as (c2&Ec2&(Kc2&_&_&Lc2)).
      destruct (Nat.eq_dec l' (next h1)) as [|X2]; auto.
      destruct (B2 _ _ Ec2 X2) as (c1&Ec1&(Kc1&_&_&Lc1)).
      assert (X1 : l' <> next h).
      { intros ->. rewrite Ep1 in Ec1; inversion Ec1; subst. congruence. }
      destruct (B1 _ _ Ec1 X1) as (c0&Ec0&(Kc0&_&_&Lc0)).
      destruct (HI l' c0 Ec0) as (_&W&_). unfold wired in W.
      rewrite <- Kc0, <- Kc1, <- Kc2, Kl' in W. rewrite <- Lc0, <- Lc1, <- Lc2, Ll' in W.
      destruct W as (_&_&_&_&(bx&Ex&_)&_). apply (Inv_objs_lt D h HI) in Ex. lia. }
  assert (NB : not_base h3 c).
  { intros b3 Eb3. assert (X3 : c <> next h2) by (intros ->; lia). destruct (B3 _ _ Eb3 X3) as (b2&Eb2&(K3&_)).
    assert (X2 : c <> next h1) by (intros ->; lia). destruct (B2 _ _ Eb2 X2) as (b1&Eb1&(K2&_)).
    assert (X1 : c <> next h) by (intros ->; lia). destruct (B1 _ _ Eb1 X1) as (b0&Eb0&(K1&_)).
    rewrite K3, K2, K1. apply HB; auto. }
  assert (LT : c < next h3) by lia.
  repeat (split; [assumption|]). split; [lia|split; [lia|]]. auto.
Qed.
Lemma load_steps D h c at_ f h' : Inv D h -> not_base h c -> c < next h -> load_into wrapv lit h c at_ f = (h', true) ->
  exists h1 h2 h3 h4, new_proj lit h (file_proj f) (placeholder lit) false = (h1, true) /\
    new_lens wrapv lit h1 (file_lens f) none_vals = (h2, true) /\
    new_orient wrapv lit h2 TiltHeading none_vals = (h3, true) /\
    init_camera wrapv lit h3 c (next h) (next h2) (next h1) at_ = (h4, true) /\
    set_all wrapv h4 c (file_vars f) = (h', true) /\ Inv D h3 /\ sharing_ok h3 (next h1) (next h) /\
    not_base h3 c /\ c < next h3 /\ Inv D h4 /\ camera_made h3 h4 c (next h) (next h2) (next h1) /\
    next h1 = S (next h) /\ next h2 = S (S (next h)) /\ next h3 = S (S (S (next h))) /\
    grown h h1 (KProj (file_proj f)) /\ grown h1 h2 (KLens (file_lens f)) /\ grown h2 h3 (KOrient TiltHeading).
Proof.
  intros HI HB HC HR. unfold load_into in HR. cbv zeta in HR.
  apply bind_ok in HR. destruct HR as (h1&E1&HR).
  apply bind_ok in HR. destruct HR as (h2&E2&HR).
  apply bind_ok in HR. destruct HR as (h3&E3&HR).
  apply bind_ok in HR. destruct HR as (h4&E4&HR).
  destruct (load_prep D h c f h1 h2 h3 HI HB HC E1 E2 E3) as (I3&SH&NB&LT&N1&N2&N3&G1&G2&G3).
  destruct (Inv_init_camera D h3 c _ _ _ at_ h4 I3 SH NB LT E4) as (I4&CM).
  exists h1, h2, h3, h4. repeat (split; [assumption|]). exact G3.
Qed.
Lemma Inv_load_into D h c at_ f h' : Inv D h -> not_base h c -> c < next h -> load_into wrapv lit h c at_ f = (h', true) -> Inv D h'.
Proof.
  intros HI HB HC HR. destruct (load_steps D h c at_ f h' HI HB HC HR) as (h1&h2&h3&h4&_&_&_&_&E&_&_&_&_&I4&_).
  eapply Inv_set_all; eauto.
Qed.

End Reach.
