(** * The parameter dict of a CameraGroup *)
Require Import List Bool String Ascii Arith NArith QArith Lia.
From Verif Require Import Projection Param ParamFacts ParamOps ParamSteps ParamReach ParamCam ParamLaws.
Import ListNotations.
Open Scope nat_scope.
Open Scope string_scope.

(** ** Names *)
Fixpoint val (s : string) (acc : nat) : nat :=
  match s with "" => acc | String a s' => val s' (10 * acc + (nat_of_ascii a - 48)) end.
Lemma val_app s t : forall acc, val (s ++ t) acc = val t (val s acc).
Proof. induction s as [|a s IH]; intros acc; [reflexivity|]. cbn. apply IH. Qed.
Lemma digit_nat d : d < 10 -> nat_of_ascii (ascii_of_nat (48 + d)) - 48 = d.
Proof. intros H. rewrite nat_ascii_embedding by lia. lia. Qed.
Lemma digits_val f : forall n, n < f -> val (digits f n) 0 = n.
Proof.
  induction f as [|f IH]; intros n H; [lia|]. cbn [digits]. assert (M : n mod 10 < 10) by (apply Nat.mod_upper_bound; lia).
  destruct (Nat.ltb_spec n 10) as [L|L].
  - cbn [val]. rewrite digit_nat by exact M. rewrite Nat.mod_small by exact L. lia.
  - rewrite val_app, IH.
    + cbn [val]. rewrite digit_nat by exact M. pose proof (Nat.div_mod n 10). lia.
    + assert (n / 10 < n) by (apply Nat.div_lt; lia). lia.
Qed.
Lemma nat_string_inj a b : nat_string a = nat_string b -> a = b.
Proof. intros H. rewrite <- (digits_val (S a) a), <- (digits_val (S b) b) by lia. unfold nat_string in H. rewrite H. reflexivity. Qed.
Fixpoint clear_us (s : string) : bool := match s with "" => true | String a s' => negb (Ascii.eqb a "_") && clear_us s' end.
Lemma clear_us_app s t : clear_us (s ++ t) = clear_us s && clear_us t.
Proof. induction s as [|a s IH]; [reflexivity|]. cbn. rewrite IH, andb_assoc. reflexivity. Qed.
Lemma digit_clear d : d < 10 -> Ascii.eqb (ascii_of_nat (48 + d)) "_" = false.
Proof. intros H. do 10 (destruct d as [|d]; [reflexivity|]). lia. Qed.
Lemma digits_clear f : forall n, clear_us (digits f n) = true.
Proof.
  induction f as [|f IH]; intros n; [reflexivity|]. cbn [digits]. assert (M : n mod 10 < 10) by (apply Nat.mod_upper_bound; lia).
  destruct (n <? 10)%nat; [|rewrite clear_us_app, IH]; cbn [clear_us andb]; rewrite digit_clear by exact M; reflexivity.
Qed.
Lemma us_split a : forall b x y, clear_us a = true -> clear_us b = true -> a ++ String "_" x = b ++ String "_" y -> a = b /\ x = y.
Proof.
  induction a as [|c a IH]; intros [|d b] x y Ha Hb H; cbn in *.
  - inversion H. auto.
  - inversion H; subst. cbn in Hb. discriminate.
  - inversion H; subst. cbn in Ha. discriminate.
  - inversion H; subst. apply andb_prop in Ha. apply andb_prop in Hb. destruct (IH b x y) as (->&->); tauto.
Qed.
(** The name of parameter [n] of the [i]-th of [len] components. *)
Definition group_name (len i : nat) (n : name) : name :=
  if Nat.eqb len 1 then n else "C" ++ nat_string i ++ "_" ++ n.
Definition starts_C (n : name) : bool := match n with String "C" _ => true | _ => false end.
Lemma group_name_inj len1 i1 n1 len2 i2 n2 : starts_C n1 = false -> starts_C n2 = false -> i1 < len1 -> i2 < len2 ->
  group_name len1 i1 n1 = group_name len2 i2 n2 -> i1 = i2 /\ n1 = n2 /\ (len1 = 1 <-> len2 = 1).
Proof.
  unfold group_name. intros S1 S2 L1 L2 H. destruct (Nat.eqb_spec len1 1) as [E1|E1], (Nat.eqb_spec len2 1) as [E2|E2].
  - split; [lia|split; [exact H|tauto]].
  - subst n1. cbn in S1. discriminate.
  - subst n2. cbn in S2. discriminate.
  - cbn [append] in H. inversion H as [H0]. destruct (us_split (nat_string i1) (nat_string i2) n1 n2) as (A&B); try exact (digits_clear _ _); auto.
    split; [apply nat_string_inj; exact A|split; [exact B|tauto]].
Qed.

(** ** Dicts *)
Section Dict.
Context {A : Type}.
Implicit Types t u : list (name * A).
Lemma assoc_set k n (a : A) t : assoc k (dict_set n a t) = if String.eqb k n then Some a else assoc k t.
Proof.
  induction t as [|[m b] t IH]; cbn; [reflexivity|]. destruct (String.eqb_spec n m) as [->|N]; cbn.
  - destruct (String.eqb_spec k m); reflexivity.
  - rewrite IH. destruct (String.eqb_spec k m) as [->|]; [|reflexivity]. destruct (String.eqb_spec m n); congruence.
Qed.
Definition functional u : Prop := forall k a b, In (k, a) u -> In (k, b) u -> a = b.
Lemma dict_update_assoc k u : forall t, functional u ->
  match assoc k (dict_update t u) with
  | Some a => In (k, a) u \/ (assoc k t = Some a /\ ~ In k (map fst u))
  | None => assoc k t = None /\ ~ In k (map fst u)
  end.
Proof.
  unfold dict_update. induction u as [|[n x] u IH] using rev_ind; intros t F; [cbn; destruct (assoc k t); auto|].
  rewrite fold_left_app. cbn [fold_left fst snd]. rewrite assoc_set. rewrite map_app. cbn [map fst].
  destruct (String.eqb_spec k n) as [->|N].
  - left. apply in_app_iff. right; left; reflexivity.
  - assert (F' : functional u) by (intros k' a b Ha Hb; eapply F; apply in_app_iff; eauto).
    specialize (IH t F'). destruct (assoc k (fold_left _ u t)).
    + destruct IH as [X|(X&Y)]; [left; apply in_app_iff; auto|right]. split; [exact X|]. intros Z. apply in_app_iff in Z. destruct Z as [Z|[Z|[]]]; [contradiction|congruence].
    + destruct IH as (X&Y). split; [exact X|]. intros Z. apply in_app_iff in Z. destruct Z as [Z|[Z|[]]]; [contradiction|congruence].
Qed.
Lemma dict_of u k a : functional u -> assoc k (dict_update [] u) = Some a <-> In (k, a) u.
Proof.
  intros F. pose proof (dict_update_assoc k u [] F) as H. split.
  - intros E. rewrite E in H. destruct H as [H|(H&_)]; [exact H|discriminate].
  - intros Hin. destruct (assoc k (dict_update [] u)) as [b|].
    + destruct H as [H|(H&_)]; [|discriminate]. f_equal. eapply F; eauto.
    + exfalso. apply (proj2 H). apply in_map_iff. exists (k, a). auto.
Qed.
End Dict.

Section Group.
Context {V : Type} (wrapv : V -> option V) (lit : Q -> V).
Hypothesis wrap_ok : forall v v', wrapv v = Some v' -> wrapv v' = None.
Notation heap := (heap V). Notation obj := (obj V).
Notation Inv := (Inv wrapv).
Implicit Types (h : heap) (b : obj).

Definition keys h (l : list oid) : list (name * loc) :=
  match l with
  | [o] => tab h o
  | _ => List.concat (map (fun io => map (fun nl => ("C" ++ nat_string (fst io) ++ "_" ++ fst nl, snd nl)) (tab h (snd io)))
                     (combine (seq 0 (List.length l)) l))
  end.
Lemma gather_keys h params l : gather h params l = dict_update params (keys h l).
Proof.
  assert (G : forall js ps, fold_left (fun ps io =>
           fold_left (fun ps nl => dict_set ("C" ++ nat_string (fst io) ++ "_" ++ fst nl) (snd nl) ps) (tab h (snd io)) ps) js ps =
         dict_update ps (List.concat (map (fun io => map (fun nl => ("C" ++ nat_string (fst io) ++ "_" ++ fst nl, snd nl)) (tab h (snd io))) js))).
  { induction js as [|io js IH]; intros ps; [reflexivity|]. cbn [fold_left map List.concat]. rewrite IH. unfold dict_update.
    rewrite fold_left_app. f_equal. generalize (tab h (snd io)) as t. clear. intros t. revert ps. induction t as [|nl t IHt]; intros ps; [reflexivity|].
    cbn [fold_left map fst snd]. apply IHt. }
  unfold gather, keys. destruct l as [|o [|o2 l]]; [apply G|reflexivity|apply G].
Qed.
Lemma in_keys h l k x : In (k, x) (keys h l) <->
  exists i o n, nth_error l i = Some o /\ In (n, x) (tab h o) /\ k = group_name (List.length l) i n.
Proof.
  assert (G : forall i0 l, In (k, x) (List.concat (map (fun io => map (fun nl : name * loc => ("C" ++ nat_string (fst io) ++ "_" ++ fst nl, snd nl)) (tab h (snd io)))
                     (combine (seq i0 (List.length l)) l))) <->
         exists i o n, nth_error l i = Some o /\ In (n, x) (tab h o) /\ k = "C" ++ nat_string (i0 + i) ++ "_" ++ n).
  { intros i0 l0. revert i0. induction l0 as [|o0 l0 IH]; intros i0.
    - cbn. split; [intros []|]. intros (i&o&n&H&_). destruct i; discriminate.
    - cbn [List.length seq combine map List.concat fst snd]. rewrite in_app_iff, IH, in_map_iff. split.
      + intros [((n&y)&E&Hin)|(i&o&n&H1&H2&H3)].
        * inversion E; subst. exists 0, o0, n. rewrite Nat.add_0_r. auto.
        * exists (S i), o, n. rewrite Nat.add_succ_r. auto.
      + intros (i&o&n&H1&H2&H3). destruct i as [|i].
        * left. inversion H1; subst o0. exists (n, x). rewrite Nat.add_0_r in H3. rewrite H3. auto.
        * right. exists i, o, n. rewrite Nat.add_succ_r in H3. auto. }
  unfold keys. destruct l as [|o [|o2 l]].
  - rewrite (G 0 []). reflexivity.
  - split.
    + intros H. exists 0, o, k. auto.
    + intros (i&o'&n&H1&H2&H3). destruct i as [|i]; [|destruct i; discriminate]. inversion H1; subst o'. cbn in H3. subst. exact H2.
  - rewrite (G 0 (o :: o2 :: l)). reflexivity.
Qed.

(** ** Tables of components *)
Lemma tab_proj D h p k : Inv D h -> proj_at h p k -> tab h p = map (fun n => (n, Loc p n)) pnames.
Proof. intros HI (b&E&K). unfold tab. rewrite E. destruct (HI p b E) as (_&W&_). unfold wired in W. rewrite K in W. destruct W as (T&_). rewrite T. reflexivity. Qed.
Lemma tab_orient D h o k : Inv D h -> orient_at h o k -> tab h o = map (fun n => (n, Loc o n)) (onames k).
Proof. intros HI (b&E&K). unfold tab. rewrite E. destruct (HI o b E) as (_&W&_). unfold wired in W. rewrite K in W. destruct W as (T&_). rewrite T. reflexivity. Qed.
Lemma tab_lens D h l k : Inv D h -> lens_at h l k ->
  tab h l = map (fun n => (n, Loc l n)) (lnames k) \/
  exists p, k <> NoDist /\ tab h l = lens_table l p k /\ exists b, objs h l = Some b /\ lproj b = Some p.
Proof.
  intros HI (b&E&K). unfold tab. rewrite E. destruct (HI l b E) as (_&W&_). unfold wired in W. rewrite K in W. destruct W as (_&_&T).
  destruct (lproj b) as [p|] eqn:L; [|left; rewrite T; reflexivity]. destruct T as (NK&T&_). right. exists p. split; [exact NK|split; [exact T|]].
  exists b. auto.
Qed.
Lemma in_self (f : name -> loc) ns n x : In (n, x) (map (fun n => (n, f n)) ns) <-> In n ns /\ x = f n.
Proof.
  rewrite in_map_iff. split; [intros (m&E&Hm); inversion E; subst; auto|intros (Hn&->); exists n; auto].
Qed.
Definition entries h (pa oa la : oid + list oid) : list (name * loc) :=
  (keys h (comp_list pa) ++ keys h (comp_list oa)) ++ keys h (comp_list la).
Lemma names_no_C k lk n : In n (pnames ++ onames k ++ lnames lk) -> starts_C n = false.
Proof.
  assert (H : forallb (fun n => negb (starts_C n)) (pnames ++ onames k ++ lnames lk) = true) by (destruct k, lk; reflexivity).
  rewrite forallb_forall in H. intros Hn. specialize (H n Hn). destruct (starts_C n); [discriminate|reflexivity].
Qed.
(** Kind of component and parameter. *)
Lemma cam_pairs_in n : forall i0 i ps ls l p, ps <> [] -> ls <> [] -> i < n ->
  nth_error ls ((i0 + i) mod List.length ls) = Some l -> nth_error ps ((i0 + i) mod List.length ps) = Some p -> In (l, p) (cam_pairs i0 n ps ls).
Proof.
  induction n as [|n IH]; intros i0 i ps ls l p NP NL Hi El Ep; [lia|]. cbn [cam_pairs].
  assert (L1 : List.length ls <> 0) by (destruct ls; [congruence|discriminate]). assert (L2 : List.length ps <> 0) by (destruct ps; [congruence|discriminate]).
  destruct (nth_error ls (i0 mod List.length ls)) as [l0|] eqn:E1.
  2: { apply nth_error_None in E1. pose proof (Nat.mod_upper_bound i0 _ L1). lia. }
  destruct (nth_error ps (i0 mod List.length ps)) as [p0|] eqn:E2.
  2: { apply nth_error_None in E2. pose proof (Nat.mod_upper_bound i0 _ L2). lia. }
  destruct i as [|i].
  - left. rewrite Nat.add_0_r in *. congruence.
  - right. apply (IH (S i0) i); auto; try lia; rewrite Nat.add_succ_comm in *; assumption.
Qed.
Lemma comp_size pa oa la : let n := group_size [comp_given pa; comp_given oa; comp_given la] in
  forall i, (List.length (comp_list la) <> 1 -> i < List.length (comp_list la) -> i < n) /\ (i = 0 -> 0 < n -> i < n).
Proof.
  intros n i. split; [|lia]. intros H. subst n. unfold group_size. cbn [fold_left]. destruct la as [l|ls]; cbn in *; [congruence|auto].
Qed.
Lemma entries_functional D h pa oa la : Inv D h -> group_good h pa oa la ->
  0 < group_size [comp_given pa; comp_given oa; comp_given la] -> functional (entries h pa oa la).
Proof.
  intros HI ((CP&CO&CL)&(HG&_)) HN. set (N := group_size _) in *.
  set (ps := comp_list pa) in *. set (os := comp_list oa) in *. set (ls := comp_list la) in *.
  (* what an entry is *)
  assert (EP : forall k x, In (k, x) (keys h ps) -> exists i p n, nth_error ps i = Some p /\ In n pnames /\ x = Loc p n /\ k = group_name (List.length ps) i n).
  { intros k x H. apply in_keys in H. destruct H as (i&p&n&H1&H2&H3). destruct (CP p (nth_error_In _ _ H1)) as (pk&Hp).
    rewrite (tab_proj D h p pk HI Hp) in H2. apply in_self in H2. destruct H2 as (H2&->). eauto 10. }
  assert (EO : forall k x, In (k, x) (keys h os) -> exists i o kk n, nth_error os i = Some o /\ In n (onames kk) /\ x = Loc o n /\ k = group_name (List.length os) i n).
  { intros k x H. apply in_keys in H. destruct H as (i&o&n&H1&H2&H3). destruct (CO o (nth_error_In _ _ H1)) as (kk&Ho).
    rewrite (tab_orient D h o kk HI Ho) in H2. apply in_self in H2. destruct H2 as (H2&->). eauto 12. }
  assert (EL : forall k x, In (k, x) (keys h ls) -> exists i l kk n, nth_error ls i = Some l /\ k = group_name (List.length ls) i n /\
     ((In n (lnames kk) /\ x = Loc l n) \/ (In n shared_names /\ exists p b, x = Loc p n /\ objs h l = Some b /\ okd b = KLens kk /\ kk <> NoDist /\ lproj b = Some p))).
  { intros k x H. apply in_keys in H. destruct H as (i&l&n&H1&H2&H3). destruct (CL l (nth_error_In _ _ H1)) as (kk&Hl).
    exists i, l, kk, n. split; [exact H1|split; [exact H3|]].
    destruct (tab_lens D h l kk HI Hl) as [T|(p&NK&T&(b&E&L))]; rewrite T in H2.
    - left. apply in_self in H2. exact H2.
    - unfold lens_table in H2. apply in_app_iff in H2. destruct H2 as [H2|H2]; apply in_self in H2; [left; exact H2|right].
      destruct H2 as (H2&->). split; [exact H2|]. exists p, b. destruct Hl as (b'&E'&K'). assert (b' = b) by congruence. subst. auto. }
  assert (NTH : forall (l : list oid) i o, nth_error l i = Some o -> i < List.length l).
  { intros l i o H. apply nth_error_Some. congruence. }
  assert (PN : forall n, In n pnames -> starts_C n = false) by (intros n Hn; apply (names_no_C TiltHeading NoDist); apply in_app_iff; auto).
  assert (ON : forall k n, In n (onames k) -> starts_C n = false).
  { intros k n Hn; apply (names_no_C k NoDist). rewrite !in_app_iff. auto. }
  assert (LN : forall k n, In n (lnames k) -> starts_C n = false).
  { intros k n Hn; apply (names_no_C TiltHeading k). rewrite !in_app_iff. auto. }
  assert (LS : forall kk n l x, (In n (lnames kk) /\ x = Loc l n) \/ (In n shared_names /\ exists p b, x = Loc p n /\ objs h l = Some b /\ okd b = KLens kk /\ kk <> NoDist /\ lproj b = Some p) -> starts_C n = false).
  { intros kk n l x [(H&_)|(H&_)]; [eapply LN; eauto|apply PN, shared_pnames, H]. }
  assert (PO : forall k n, In n pnames -> In n (onames k) -> False).
  { intros k n H1 H2. destruct k; cbn in H1, H2; repeat destruct H2 as [<-|H2]; try contradiction; repeat destruct H1 as [H1|H1]; try discriminate; contradiction. }
  assert (PL : forall k n, In n pnames -> In n (lnames k) -> False).
  { intros k n H1 H2. destruct k; cbn in H1, H2; repeat destruct H2 as [<-|H2]; try contradiction; repeat destruct H1 as [H1|H1]; try discriminate; contradiction. }
  assert (OLx : forall k k' n, In n (onames k) -> In n (lnames k') -> False).
  { intros k k' n H1 H2. destruct k, k'; cbn in H1, H2; repeat destruct H2 as [<-|H2]; try contradiction; repeat destruct H1 as [H1|H1]; try discriminate; contradiction. }
  assert (A_PO : forall k a c, In (k, a) (keys h ps) -> In (k, c) (keys h os) -> False).
  { intros k a c Ha Hc. destruct (EP k a Ha) as (i&p&n&H1&H2&->&H3). destruct (EO k c Hc) as (j&o&kk&m&J1&J2&->&J3). rewrite H3 in J3.
    destruct (group_name_inj _ _ _ _ _ _ (PN n H2) (ON kk m J2) (NTH _ _ _ H1) (NTH _ _ _ J1) J3) as (_&<-&_). eapply PO; eauto. }
  assert (A_OL : forall k a c, In (k, a) (keys h os) -> In (k, c) (keys h ls) -> False).
  { intros k a c Ha Hc. destruct (EO k a Ha) as (i&o&kk&n&H1&H2&->&H3). destruct (EL k c Hc) as (j&l&lk&m&J1&J3&J2). rewrite H3 in J3.
    destruct (group_name_inj _ _ _ _ _ _ (ON kk n H2) (LS _ _ _ _ J2) (NTH _ _ _ H1) (NTH _ _ _ J1) J3) as (_&<-&_).
    destruct J2 as [(J2&_)|(J2&_)]; [eapply OLx; eauto|eapply PO; eauto; apply shared_pnames; exact J2]. }
  assert (A_PL : forall k a c, In (k, a) (keys h ps) -> In (k, c) (keys h ls) -> a = c).
  { intros k a c Ha Hc. destruct (EP k a Ha) as (i&p&n&H1&H2&->&H3). destruct (EL k c Hc) as (j&l&lk&m&J1&J3&J2). rewrite H3 in J3.
    destruct (group_name_inj _ _ _ _ _ _ (PN n H2) (LS _ _ _ _ J2) (NTH _ _ _ H1) (NTH _ _ _ J1) J3) as (<-&<-&L1).
    destruct J2 as [(J2&_)|(J2&p'&b&->&Eb&Kb&NK&Lb)]; [exfalso; eapply PL; eauto|]. f_equal.
    assert (Hi : i < N).
    { destruct (comp_size pa oa la i) as (C1&C2). fold N ls in C1, C2. destruct (Nat.eq_dec (List.length ls) 1) as [L|L].
      - apply C2; [|exact HN]. pose proof (NTH _ _ _ J1). lia.
      - apply C1; [exact L|apply (NTH _ _ _ J1)]. }
    assert (IN : In (l, p) (cam_pairs 0 N ps ls)).
    { apply (cam_pairs_in N 0 i); auto.
      - intros X. rewrite X in H1. destruct i; discriminate.
      - intros X. rewrite X in J1. destruct i; discriminate.
      - cbn [Nat.add]. rewrite Nat.mod_small by (apply (NTH _ _ _ J1)). exact J1.
      - cbn [Nat.add]. rewrite Nat.mod_small by (apply (NTH _ _ _ H1)). exact H1. }
    destruct (HG l p IN) as (b'&k'&E'&K'&SH). assert (b' = b) by congruence. subst b'. assert (k' = lk) by congruence. subst k'.
    destruct (SH NK) as ([X|X]&_); congruence. }
  assert (A_PP : forall k a c, In (k, a) (keys h ps) -> In (k, c) (keys h ps) -> a = c).
  { intros k a c Ha Hc. destruct (EP k a Ha) as (i&p&n&H1&H2&->&H3). destruct (EP k c Hc) as (j&q&m&J1&J2&->&J3). rewrite H3 in J3.
    destruct (group_name_inj _ _ _ _ _ _ (PN n H2) (PN m J2) (NTH _ _ _ H1) (NTH _ _ _ J1) J3) as (<-&<-&_). congruence. }
  assert (A_OO : forall k a c, In (k, a) (keys h os) -> In (k, c) (keys h os) -> a = c).
  { intros k a c Ha Hc. destruct (EO k a Ha) as (i&p&kk&n&H1&H2&->&H3). destruct (EO k c Hc) as (j&q&kk'&m&J1&J2&->&J3). rewrite H3 in J3.
    destruct (group_name_inj _ _ _ _ _ _ (ON _ n H2) (ON _ m J2) (NTH _ _ _ H1) (NTH _ _ _ J1) J3) as (<-&<-&_). congruence. }
  assert (A_LL : forall k a c, In (k, a) (keys h ls) -> In (k, c) (keys h ls) -> a = c).
  { intros k a c Ha Hc. destruct (EL k a Ha) as (i&l&kk&n&H1&H3&H2). destruct (EL k c Hc) as (j&l'&kk'&m&J1&J3&J2). rewrite H3 in J3.
    destruct (group_name_inj _ _ _ _ _ _ (LS _ _ _ _ H2) (LS _ _ _ _ J2) (NTH _ _ _ H1) (NTH _ _ _ J1) J3) as (<-&<-&_).
    assert (l' = l) by congruence. subst l'.
    destruct H2 as [(H2&->)|(H2&p&b&->&Eb&Kb&NK&Lb)], J2 as [(J2&->)|(J2&p'&b'&->&Eb'&Kb'&NK'&Lb')].
    - reflexivity.
    - exfalso. eapply PL; [apply shared_pnames; exact J2|exact H2].
    - exfalso. eapply PL; [apply shared_pnames; exact H2|exact J2].
    - congruence. }
  intros k a c Ha Hc. unfold entries in Ha, Hc. fold ps os ls in Ha, Hc. rewrite !in_app_iff in Ha, Hc.
  destruct Ha as [[Ha|Ha]|Ha], Hc as [[Hc|Hc]|Hc]; eauto; try (exfalso; eauto; fail).
  symmetry; eauto.
Qed.
Lemma dict_update_app {A} (t u w : list (name * A)) : dict_update (dict_update t u) w = dict_update t (u ++ w).
Proof. unfold dict_update. rewrite fold_left_app. reflexivity. Qed.

(** ** The cameras *)
Lemma make_cameras_list n : forall D h i ps os ls prs h' cs, Inv D h -> CamInv h -> comps_ok h ps os ls -> pairs_ok h prs ->
  incl (cam_pairs i n ps ls) prs -> ps <> [] -> os <> [] -> ls <> [] ->
  make_cameras wrapv lit h i n ps os ls = (h', true, cs) ->
  List.length cs = n /\ forall j c, nth_error cs j = Some c -> next h <= c < next h' /\
    exists p o l, nth_error ps ((i + j) mod List.length ps) = Some p /\ nth_error os ((i + j) mod List.length os) = Some o /\
      nth_error ls ((i + j) mod List.length ls) = Some l /\ cam_at h' c p o l.
Proof.
  induction n as [|n IH]; intros D h i ps os ls prs h' cs HI HV HO HP HC NP NO NL HR.
  - inversion HR; subst. split; [reflexivity|]. intros j c Hj. destruct j; discriminate.
  - cbn [make_cameras] in HR. cbn [cam_pairs] in HC.
    assert (T : forall ls : list oid, ls <> [] -> exists x, nth_error ls (i mod List.length ls) = Some x).
    { intros l0 N0. destruct (nth_error l0 (i mod List.length l0)) as [x|] eqn:E0; [eauto|]. apply nth_error_None in E0.
      assert (L : List.length l0 <> 0) by (destruct l0; [congruence|discriminate]). pose proof (Nat.mod_upper_bound i _ L). lia. }
    destruct (T ps NP) as (p&Ep). destruct (T os NO) as (o&Eo). destruct (T ls NL) as (l&El). rewrite Ep, Eo, El in HR. rewrite Ep, El in HC.
    destruct (new_camera wrapv lit h p o l) as [h1 []] eqn:EC; cbn [fst snd] in HR; [|discriminate].
    assert (IN : In (l, p) prs) by (apply HC; left; auto).
    assert (SH : sharing_ok h l p) by (apply HP; auto).
    destruct (Inv_new_camera wrapv lit wrap_ok D h p o l h1 HI SH EC) as (I1&CM).
    assert (CO : cam_ok h p o l).
    { destruct HO as (A&B&_). split; [apply A; eapply nth_error_In; eauto|split; [apply B; eapply nth_error_In; eauto|exact SH]]. }
    destruct (new_camera_cam wrapv lit wrap_ok D h p o l h1 HI HV CO EC) as (BK&V1&(bc&Ec&Kc&_)&_).
    destruct (make_cameras wrapv lit h1 (S i) n ps os ls) as [[h2 ok] cs'] eqn:EM. inversion HR; subst.
    assert (HP1 : pairs_ok h1 prs) by exact (pairs_ok_step wrapv D h h1 p o l prs HI HP IN CM).
    assert (HC1 : incl (cam_pairs (S i) n ps ls) prs) by (intros x Hx; apply HC; right; exact Hx).
    assert (HO1 : comps_ok h1 ps os ls) by (eapply comps_ok_kept; [exact (camera_kept wrapv D h h1 p o l HI CM)|exact HO]).
    destruct (IH D h1 (S i) ps os ls prs h' cs' I1 V1 HO1 HP1 HC1 NP NO NL EM) as (L2&J2).
    destruct (make_cameras_Inv wrapv lit wrap_ok n D h1 (S i) ps os ls prs h' cs' I1 HP1 HC1 EM) as (I2&(N2&K2&_)).
    assert (LT : next h < next h1) by (eapply Inv_objs_lt; eauto).
    split; [cbn; lia|]. intros j c Hj. destruct j as [|j].
    + inversion Hj; subst c. split; [lia|]. exists p, o, l. rewrite Nat.add_0_r. split; [exact Ep|split; [exact Eo|split; [exact El|]]].
      destruct (K2 _ _ Ec) as (b'&E'&K'&_). exists b'. split; congruence.
    + destruct (J2 j c Hj) as (R&X). rewrite Nat.add_succ_comm in X. split; [lia|exact X].
Qed.
Lemma new_group_spec D h pa oa la h' : Inv D h -> CamInv h -> group_good h pa oa la ->
  0 < group_size [comp_given pa; comp_given oa; comp_given la] -> new_group wrapv lit h pa oa la = (h', true) ->
  exists b cs, objs h' (next h) = Some b /\ okd b = KGroup cs /\ attrs b = no_attrs /\
    (forall k x, assoc k (table b) = Some x <-> In (k, x) (entries h pa oa la)) /\
    (comp_list pa <> [] -> comp_list oa <> [] -> comp_list la <> [] ->
     List.length cs = group_size [comp_given pa; comp_given oa; comp_given la] /\
     forall i c, nth_error cs i = Some c -> exists p o l, nth_error (comp_list pa) (i mod List.length (comp_list pa)) = Some p /\
       nth_error (comp_list oa) (i mod List.length (comp_list oa)) = Some o /\
       nth_error (comp_list la) (i mod List.length (comp_list la)) = Some l /\ cam_at h' c p o l).
Proof.
  intros HI HC HG HN HR. pose proof (entries_functional D h pa oa la HI HG HN) as FU. unfold new_group in HR.
  set (n := group_size _) in *. pose proof HG as (HO&HP). unfold group_ok in HP. fold n in HP.
  destruct (make_cameras wrapv lit (reserve h) 0 n (comp_list pa) (comp_list oa) (comp_list la)) as [[h1 []] cs] eqn:EM; [|discriminate].
  inversion HR; subst h'. clear HR. eexists _, cs. split; [cbn [objs set_obj]; rewrite Nat.eqb_refl; reflexivity|].
  split; [reflexivity|split; [reflexivity|split]].
  - intros k x. cbn [table]. rewrite !gather_keys, !dict_update_app, app_assoc. apply dict_of. exact FU.
  - intros NP NO NL. assert (IR := Inv_reserve wrapv D h HI).
    destruct (make_cameras_list n D (reserve h) 0 _ _ _ _ h1 cs IR HC HO HP (incl_refl _) NP NO NL EM) as (LC&J).
    split; [exact LC|]. intros i c Hi. destruct (J i c Hi) as (R&p&o&l&X1&X2&X3&(b&E&K)). exists p, o, l. cbn [Nat.add] in *.
    split; [exact X1|split; [exact X2|split; [exact X3|]]]. exists b. split; [|exact K]. cbn [objs set_obj].
    destruct (Nat.eqb_spec c (next h)); [cbn in R; lia|exact E].
Qed.
End Group.
