(** * C47: fitting; C46: the camera after sampling *)
Require Import Reals Lra List Bool String Arith NArith QArith Qreals Lia ZArith.
From Verif Require Import Num Orientation Projection Ray CameraTransform Param ParamFacts ParamOps ParamSteps ParamReach ParamCam ParamLaws.
From Verif Require Import ParamMap PropParam ParamCheck ParamExamples ParamTotal PropTotal PropFit Metropolis PropMetropolis LogProb PropLogProb Fit.
Import ListNotations.
Open Scope nat_scope.
Open Scope string_scope.

Implicit Types h : heapn.

(** ** Specification *)
(** Two states read the same: every attribute of every object and every camera's transforms. *)
Definition same_reads spline h1 h2 : Prop :=
  (forall o n, get_attr h1 o n = get_attr h2 o n) /\ (forall c, camera_in_use spline h1 c = camera_in_use spline h2 c).
(** The log probability looks at the cameras only through attributes and transforms. *)
Definition reads_only spline (lp : heapn -> num) : Prop := forall h1 h2, same_reads spline h1 h2 -> lp h1 = lp h2.
(** A computation all of whose positions have [n] entries and whose results satisfy [Q]. *)
Fixpoint asks {A} (n : nat) (Q : A -> Prop) (s : strat A) : Prop :=
  match s with Done a => Q a | Ask p k => List.length p = n /\ forall v, asks n Q (k v) end.
Definition has_len (n : nat) (p : list num) : Prop := List.length p = n.

(** ** Facts *)
Lemma asks_bind {A B} n (Q : A -> Prop) (Q' : B -> Prop) s f : asks n Q s -> (forall a, Q a -> asks n Q' (f a)) -> asks n Q' (sbind s f).
Proof. induction s as [a|p k IH]; simpl; auto. intros (L&H) F. split; auto. Qed.
Lemma asks_neg {A} n (Q : A -> Prop) s : asks n Q s -> asks n Q (negated s).
Proof. induction s as [a|p k IH]; simpl; auto. intros (L&H). split; auto. Qed.
Lemma pure_bind {A B} f (s : strat A) (g : A -> strat B) : pure_run f (sbind s g) = pure_run f (g (pure_run f s)).
Proof. induction s as [a|p k IH]; simpl; auto. Qed.
Lemma pure_neg {A} f (s : strat A) : pure_run f (negated s) = pure_run (fun p => (- f p)%num) s.
Proof. induction s as [a|p k IH]; simpl; auto. Qed.

(** Which parameters a position reaches. *)
Definition covered (t : list (name * loc)) (names : list name) (l : loc) : Prop := exists n, In n names /\ assoc n t = Some l.
Lemma last_covered t l names : forall pos : list num, List.length pos = List.length names ->
  (last_for t l (combine names pos) = None <-> ~ covered t names l).
Proof.
  unfold covered. induction names as [|n names IH]; intros [|v pos] L; try discriminate; cbn [combine last_for].
  - split; auto. intros _ (m&[]&_).
  - specialize (IH pos ltac:(simpl in L; congruence)). destruct (last_for t l (combine names pos)) as [w|].
    + split; [discriminate|]. intros H. exfalso. assert (X : Some w = None); [|discriminate]. apply IH. intros (m&I&E). apply H. exists m. simpl; auto.
    + destruct (assoc n t) as [l'|] eqn:E.
      * destruct (loc_eqb_spec l' l) as [->|N].
        -- split; [discriminate|]. intros H. exfalso. apply H. exists n. simpl; auto.
        -- split; auto. intros _ (m&[->|I]&E'); [congruence|]. apply (proj1 IH eq_refl). exists m; auto.
      * split; auto. intros _ (m&[->|I]&E'); [congruence|]. apply (proj1 IH eq_refl). exists m; auto.
Qed.

Section Facts.
Context (spline : list (num * num) -> num -> num) (lp : heapn -> num) (ord : list cb -> list cb) (o : oid) (names : list name) (h0 : heapn) (b : obj num).
Hypothesis HR0 : reach h0.
Hypothesis HF0 : full h0.
Hypothesis HO : is_order ord.
Hypothesis E0 : objs h0 o = Some b.
Let follows_covered (l : loc) : Prop :=
  (proj_loc h0 l && is_f (l_name l)) = true /\ covered (table b) names (Loc (l_owner l) "focallength_px").
(** The states during a fit: reachable, and changed only where the positions reach. *)
Definition during h : Prop := reach h /\ full h /\ sim h0 h /\
  forall l, ~ covered (table b) names l -> ~ follows_covered l -> rdl h l = rdl h0 l.
Lemma during_start : during h0.
Proof. split; [auto|split; [auto|split; [apply sim_refl|auto]]]. Qed.
Lemma step_set h pos : during h -> List.length pos = List.length names ->
  exists h1, set_position ord o names h pos = (h1, true) /\ during h1.
Proof.
  intros (R&F&S&U) L. destruct (reach_inv h R) as (HI&_). destruct (sim_fwd _ _ _ _ S E0) as (b'&E'&(K&A&T&LL)).
  destruct (full_set_fit wrapn wrapn_ok ord h o (combine names pos) b' HO HI F E') as (h1&HS&F1). exists h1. split; [exact HS|].
  split; [|split; [exact F1|]].
  - apply (Rstep wrapn litn h (OFit ord o (combine names pos)) h1 R); [exact HO|exact HS].
  - destruct (set_fit_mem wrapn wrapn_ok ord h o (combine names pos) h1 b' HO HI E' HS) as (S1&M).
    split; [eapply sim_trans; eauto|]. intros l NC NF. rewrite <- (U l NC NF). unfold rdl. rewrite M. unfold settled, fitted.
    rewrite T. apply (last_covered (table b) l names pos L) in NC. rewrite NC.
    destruct (wrapped_loc h l) eqn:W; [rewrite (clean_norm wrapn h l HI W); reflexivity|].
    destruct (wrapped_sim h0 h l S) as (_&PS). rewrite PS.
    destruct (proj_loc h0 l && is_f (l_name l)) eqn:PF; cbn [andb]; [|reflexivity].
    destruct (last_for (table b) (Loc (l_owner l) "focallength_px") (combine names pos)) eqn:LF; [|reflexivity].
    exfalso. apply NF. split; [exact PF|]. destruct (Classical_Prop.classic (covered (table b) names (Loc (l_owner l) "focallength_px"))) as [C|C]; auto.
    apply (last_covered (table b) _ names pos L) in C. congruence.
Qed.
(** The same position set in two such states gives states that read the same. *)
Lemma step_same h h' pos h1 h1' : during h -> during h' -> List.length pos = List.length names ->
  set_position ord o names h pos = (h1, true) -> set_position ord o names h' pos = (h1', true) ->
  forall l, rdl h1 l = rdl h1' l.
Proof.
  intros (R&F&S&U) (R'&F'&S'&U') L HS HS' l. destruct (reach_inv h R) as (HI&_). destruct (reach_inv h' R') as (HI'&_).
  destruct (sim_fwd _ _ _ _ S E0) as (c&Ec&(_&_&T&_)). destruct (sim_fwd _ _ _ _ S' E0) as (c'&Ec'&(_&_&T'&_)).
  destruct (set_fit_mem wrapn wrapn_ok ord h o (combine names pos) h1 c HO HI Ec HS) as (_&M).
  destruct (set_fit_mem wrapn wrapn_ok ord h' o (combine names pos) h1' c' HO HI' Ec' HS') as (_&M').
  unfold rdl. rewrite M, M'. unfold settled. rewrite T, T'.
  destruct (wrapped_sim h0 h l S) as (W&P). destruct (wrapped_sim h0 h' l S') as (W'&P'). rewrite W, W', P, P'.
  assert (Q : ~ follows_covered l -> rd (fitted (table b) (combine names pos) h l) = rd (fitted (table b) (combine names pos) h' l)).
  { intros NF. unfold fitted. destruct (last_for (table b) l (combine names pos)) eqn:LF; [reflexivity|].
    apply (last_covered (table b) l names pos L) in LF. change (rdl h l = rdl h' l). rewrite U, U'; auto. }
  destruct (wrapped_loc h0 l) eqn:WL.
  - rewrite !rd_norm. f_equal. apply Q. unfold follows_covered. intros (X&_). unfold wrapped_loc, proj_loc in *.
    destruct (objs h0 (l_owner l)) as [bb|]; [|discriminate]. destruct (okd bb); discriminate.
  - destruct (proj_loc h0 l && is_f (l_name l)) eqn:PF; cbn [andb].
    + destruct (last_for (table b) (Loc (l_owner l) "focallength_px") (combine names pos)) as [v|] eqn:LF.
      * unfold fitted at 1 3. rewrite LF. reflexivity.
      * apply Q. intros (_&C). apply (last_covered (table b) _ names pos L) in LF. contradiction.
    + apply Q. intros (X&_). unfold follows_covered in X. congruence.
Qed.
Lemma same_rdl h h' : during h -> during h' -> (forall l, rdl h l = rdl h' l) -> same_reads spline h h'.
Proof.
  intros (R&F&S&U) (R'&F'&S'&U') H. destruct (reach_inv h R) as (I1&C1). destruct (reach_inv h' R') as (I2&C2).
  assert (SS : sim h h') by (eapply sim_trans; [apply sim_sym; exact S|exact S']).
  split.
  - intros q n. symmetry. apply get_attr_same; auto.
  - intros c. apply same_derived; auto.
Qed.
(** The log probability as a function of the position. *)
Definition objective (pos : list num) : num := lp (fst (set_position ord o names h0 pos)).
Hypothesis HL : reads_only spline lp.
Lemma run_same {A} (Q : A -> Prop) (s : strat A) : asks (List.length names) Q s -> forall h, during h ->
  exists h', heap_run lp ord o names h s = (h', Some (pure_run objective s)) /\ during h' /\ Q (pure_run objective s).
Proof.
  induction s as [a|p k IH]; intros AS h D; cbn [asks heap_run pure_run] in *; [exists h; auto|].
  destruct AS as (L&AS). destruct (step_set h p D L) as (h1&HS&D1). rewrite HS.
  destruct (step_set h0 p during_start L) as (h1'&HS'&D1').
  assert (EQ : lp h1 = objective p).
  { unfold objective. rewrite HS'. cbn [fst]. apply HL. apply same_rdl; auto. exact (step_same h h0 p h1 h1' D during_start L HS HS'). }
  rewrite EQ. destruct (IH (objective p) (AS _) h1 D1) as (h'&Hh&Dh). exists h'. auto.
Qed.
End Facts.

(** ** The start search *)
Definition start_at (draws : nat -> list num) (est : list num) (k : nat) : list num := match k with O => est | S j => draws j end.
Lemma search_spec f draws left : forall est, left <= max_tries ->
  let pos k := match k with O => est | S j => draws (max_tries - left + j) end in
  exists k, k <= left /\ (forall j, j < k -> nisinf (f (pos j)) = true) /\ (k = left \/ nisinf (f (pos k)) = false) /\
    pure_run f (search draws left est) = (pos k, left - k).
Proof.
  induction left as [|left IH]; intros est L pos; cbn [search pure_run].
  - exists 0. split; [lia|split; [intros; lia|split; [auto|reflexivity]]].
  - destruct (nisinf (f est)) eqn:E.
    + destruct (IH (draws (max_tries - S left)) ltac:(lia)) as (k&K1&K2&K3&K4).
      assert (PP : forall j, match j with O => draws (max_tries - S left) | S i => draws (max_tries - left + i) end = pos (S j)).
      { intros [|j]; unfold pos; [rewrite Nat.add_0_r|replace (max_tries - S left + S j) with (max_tries - left + j) by lia]; reflexivity. }
      exists (S k). split; [lia|]. split; [intros [|j] J; [exact E|rewrite <- PP; apply K2; lia]|].
      rewrite PP in K3, K4. split; [destruct K3; auto|]. rewrite K4. reflexivity.
    + exists 0. split; [lia|split; [intros; lia|split; [auto|]]]. reflexivity.
Qed.
Lemma search_start f draws est :
  exists k, k <= max_tries /\ (forall j, j < k -> nisinf (f (start_at draws est j)) = true) /\
    (k = max_tries \/ nisinf (f (start_at draws est k)) = false) /\
    pure_run f (search draws max_tries est) = (start_at draws est k, max_tries - k).
Proof.
  destruct (search_spec f draws max_tries est (le_n _)) as (k&K1&K2&K3&K4). rewrite Nat.sub_diag in *. exists k. auto.
Qed.
Lemma asks_search n draws left : forall est, has_len n est -> (forall i, has_len n (draws i)) ->
  asks n (fun r => has_len n (fst r)) (search draws left est).
Proof.
  induction left as [|left IH]; intros est L D; cbn [search asks]; split; auto; intros v; cbn [asks fst]; auto.
  destruct (nisinf v); [apply IH; auto|exact L].
Qed.

(** ** C47 *)
Section Props.
Context (spline : list (num * num) -> num -> num) (lp : heapn -> num) (ord : list cb -> list cb) (o : oid) (names : list name).
Let n := List.length names.
(** fit(parameters): the first of the given values and the first 999 random positions with a finite log
    probability is handed to the minimiser, which sees the negative log probability as a function of the position;
    afterwards everything reads as if its result alone had been set.  If there is none, ValueError. *)
Theorem C47_fit h draws est minimize : reach h -> full h -> is_order ord -> objs h o <> None -> reads_only spline lp ->
  has_len n est -> (forall i, has_len n (draws i)) -> (forall p, has_len n p -> asks n (has_len n) (minimize p)) ->
  let f := objective lp ord o names h in
  ((forall k, k < 1000 -> nisinf (f (start_at draws est k)) = true) /\ exists h', fit lp ord o names h draws est minimize = (h', ValueError)) \/
  (exists k x h', k < 1000 /\ (forall j, j < k -> nisinf (f (start_at draws est j)) = true) /\ nisinf (f (start_at draws est k)) = false /\
     x = pure_run (fun p => - f p)%num (minimize (start_at draws est k)) /\
     fit lp ord o names h draws est minimize = (h', Ok x) /\ reach h' /\
     exists hx, set_position ord o names h x = (hx, true) /\ same_reads spline h' hx).
Proof.
  intros HR HF HO E HL LE LD LM f. destruct (objs h o) as [b|] eqn:Eb; [|congruence].
  assert (AS : asks n (fun r => match r with Some x => has_len n x | None => True end) (fit_strat draws est minimize)).
  { unfold fit_strat. apply (asks_bind n (fun r => has_len n (fst r))); [apply asks_search; auto|].
    intros (p, [|l]) Hp; cbn [fst snd asks]; [exact I|]. apply (asks_bind n (has_len n)); [apply asks_neg; auto|]. intros x Hx. exact Hx. }
  destruct (run_same spline lp ord o names h b HR HF HO Eb HL _ _ AS h (during_start names h b HR HF)) as (h1&Hh&D&Q).
  unfold fit. rewrite Hh. fold f in Q |- *. revert Q. unfold fit_strat. rewrite pure_bind.
  destruct (search_start f draws est) as (k&K1&K2&K3&K4). rewrite K4. cbn [snd fst].
  destruct (Nat.eq_dec k max_tries) as [KM|KM].
  - rewrite KM, Nat.sub_diag. cbn [pure_run]. intros _. left. split; [|eexists; reflexivity]. intros j J. apply K2. rewrite KM. exact J.
  - destruct K3 as [K3|K3]; [contradiction|].
    destruct (max_tries - k) as [|m] eqn:EM; [exfalso; clear - K1 KM EM; lia|].
    rewrite pure_bind, pure_neg. cbn [pure_run]. set (x := pure_run _ (minimize _)). intros Q. right.
    destruct (step_set ord o names h b HO Eb h1 x D Q) as (h2&HS&D2). rewrite HS.
    destruct (step_set ord o names h b HO Eb h x (during_start names h b HR HF) Q) as (hx&HSx&Dx).
    exists k, x, h2. split; [assert (k <> 1000) by exact KM; assert (k <= 1000) by exact K1; lia|]. split; [exact K2|]. split; [exact K3|].
    split; [reflexivity|]. split; [reflexivity|]. split; [apply D2|]. exists hx. split; [exact HSx|].
    apply (same_rdl spline names h b); auto.
    exact (step_same ord o names h b HO Eb h1 h x h2 hx D (during_start names h b HR HF) Q HS HSx).
Qed.
(** The parameters after a fit: the named ones hold the result, every other one is as before. *)
Theorem C47_parameters h draws est minimize h' x b o' n' l : reach h -> full h -> is_order ord -> objs h o = Some b -> reads_only spline lp ->
  has_len n est -> (forall i, has_len n (draws i)) -> (forall p, has_len n p -> asks n (has_len n) (minimize p)) ->
  fit lp ord o names h draws est minimize = (h', Ok x) -> reads h o' n' l -> (proj_loc h l && is_f (l_name l)) = false ->
  get_num h' o' n' = match last_for (table b) l (combine names x) with Some v => Some (in_range h l v) | None => get_num h o' n' end.
Proof.
  intros HR HF HO E HL LE LD LM HFit Rd NF.
  destruct (C47_fit h draws est minimize HR HF HO ltac:(congruence) HL LE LD LM) as [(_&h1&X)|(k&y&h1&_&_&_&_&X&_&hx&HS&(SA&_))]; [congruence|].
  assert (y = x /\ h1 = h') as (->&->) by (split; congruence).
  rewrite <- (C40_set_fit ord h o (combine names x) hx b o' n' l HR HO E HS Rd NF). unfold get_num. rewrite SA. reflexivity.
Qed.
(** After a ValueError everything reads as if the last random position alone had been set: the parameters are
    not put back. *)
Lemma search_last h b draws left : reach h -> full h -> is_order ord -> objs h o = Some b -> reads_only spline lp ->
  (forall i, has_len n (draws i)) -> forall est g, has_len n est -> during names h b g ->
  exists g' gp, let r := pure_run (objective lp ord o names h) (search draws left est) in
    heap_run lp ord o names g (search draws left est) = (g', Some r) /\ during names h b gp /\ has_len n (fst r) /\
    set_position ord o names gp (fst r) = (g', true).
Proof.
  intros HR HF HO E HL LD. cbv zeta. induction left as [|left IH]; intros est g LE D; cbn [search heap_run pure_run].
  - destruct (step_set ord o names h b HO E g est D LE) as (g1&HS&D1). rewrite HS. exists g1, g. cbn [heap_run pure_run fst]. auto.
  - destruct (step_set ord o names h b HO E g est D LE) as (g1&HS&D1). rewrite HS.
    destruct (step_set ord o names h b HO E h est (during_start names h b HR HF) LE) as (h1&HS'&D1').
    assert (EQ : lp g1 = objective lp ord o names h est).
    { unfold objective. rewrite HS'. cbn [fst]. apply HL. apply (same_rdl spline names h b); auto.
      exact (step_same ord o names h b HO E g h est g1 h1 D (during_start names h b HR HF) LE HS HS'). }
    rewrite EQ. destruct (nisinf _) eqn:EI; [apply IH; auto|]. exists g1, g. cbn [heap_run pure_run fst]. auto.
Qed.
Lemma heap_bind {A B} (s : strat A) (k : A -> strat B) : forall h,
  heap_run lp ord o names h (sbind s k) = match heap_run lp ord o names h s with (h1, Some a) => heap_run lp ord o names h1 (k a) | (h1, None) => (h1, None) end.
Proof.
  induction s as [a|p q IH]; intros h; cbn [sbind heap_run]; [reflexivity|]. destruct (set_position ord o names h p) as [h1 []]; auto.
Qed.
Theorem C47_failed h draws est minimize h' : reach h -> full h -> is_order ord -> objs h o <> None -> reads_only spline lp ->
  has_len n est -> (forall i, has_len n (draws i)) -> (forall p, has_len n p -> asks n (has_len n) (minimize p)) ->
  fit lp ord o names h draws est minimize = (h', ValueError) ->
  exists hx, set_position ord o names h (draws 999) = (hx, true) /\ same_reads spline h' hx /\ reach h'.
Proof.
  intros HR HF HO E HL LE LD LM HFit. destruct (objs h o) as [b|] eqn:Eb; [|congruence]. unfold fit, fit_strat in HFit. rewrite heap_bind in HFit.
  destruct (search_last h b draws max_tries HR HF HO Eb HL LD est h LE (during_start names h b HR HF)) as (g'&gp&Hr&Dp&Lr&HS).
  rewrite Hr in HFit. destruct (search_start (objective lp ord o names h) draws est) as (k&K1&K2&K3&K4). rewrite K4 in *. cbn [snd fst] in *.
  destruct (Nat.eq_dec k max_tries) as [KM|KM].
  - rewrite KM, Nat.sub_diag in HFit. cbn [heap_run] in HFit. assert (g' = h') by congruence; subst g'.
    assert (EP : start_at draws est k = draws 999) by (rewrite KM; reflexivity). rewrite EP in *.
    destruct (step_set ord o names h b HO Eb h (draws 999) (during_start names h b HR HF) (LD _)) as (hx&HSx&Dx).
    exists hx. split; [exact HSx|].
    destruct (step_set ord o names h b HO Eb gp (draws 999) Dp (LD _)) as (g2&HS2&D2). assert (g2 = h') by congruence; subst g2.
    split; [|apply D2]. apply (same_rdl spline names h b); auto.
    exact (step_same ord o names h b HO Eb gp h (draws 999) h' hx Dp (during_start names h b HR HF) (LD _) HS HSx).
  - exfalso. destruct (max_tries - k) as [|m] eqn:EM; [clear - K1 KM EM; lia|]. rewrite heap_bind in HFit.
    assert (D' : during names h b g'). { destruct (step_set ord o names h b HO Eb gp _ Dp Lr) as (g2&HS2&D2). assert (g2 = g') by congruence; subst; auto. }
    destruct (run_same spline lp ord o names h b HR HF HO Eb HL _ _ (asks_neg _ _ _ (LM _ Lr)) g' D') as (h3&H3&_).
    rewrite H3 in HFit. cbn [heap_run] in HFit. destruct (set_position ord o names h3 _) as [h4 []]; discriminate.
Qed.

(** ** C46: the camera after metropolis() *)
Lemma pure_sampler f step burn draws is : forall m,
  pure_run f (sampler step burn draws m is) = run_loop f step burn draws m is.
Proof. induction is as [|i is IH]; intros m; cbn [sampler pure_run]; [reflexivity|]. rewrite IH. reflexivity. Qed.
Lemma pure_metropolis f start step iterations burn draws :
  pure_run f (metropolis_strat start step iterations burn draws) = metropolis f start step iterations burn [] draws.
Proof.
  unfold metropolis_strat, metropolis. cbn [pure_run]. rewrite pure_bind, pure_sampler. cbn [pure_run].
  unfold start_state. rewrite app_nil_r. reflexivity.
Qed.
Lemma propose_len scale k : forall pos step t, List.length pos = k -> List.length step = k -> List.length t = k ->
  List.length (propose scale pos step t) = k.
Proof.
  induction k as [|k IH]; intros [|p pos] [|s step] [|t ts]; simpl; intros; try discriminate; auto; try (f_equal; apply IH; congruence).
Qed.
Definition draws_len (k : nat) (draws : nat -> draw) : Prop := forall i, has_len k (d_t (draws i)) /\ d_prior (draws i) = [].
Lemma asks_sampler step burn draws is : has_len n step -> draws_len n draws -> forall m, has_len n (m_pos m) ->
  Forall (fun s => has_len n (s_pos s)) (m_trace m) ->
  asks n (fun m => Forall (fun s => has_len n (s_pos s)) (m_trace m)) (sampler step burn draws m is).
Proof.
  intros LS LD. induction is as [|i is IH]; intros m LP LT; cbn [sampler asks]; [exact LT|].
  destruct (LD i) as (Lt&Lp). rewrite Lp, app_nil_r.
  assert (LN : has_len n (propose (m_scale m) (m_pos m) step (d_t (draws i)))) by (apply propose_len; auto).
  split; [exact LN|]. intros v. apply IH.
  - unfold iterate. destruct (accepts _ _ _); destruct (burn <? Z.of_nat i)%Z; try (destruct (Nat.ltb 100 i && _)); cbn [m_pos]; auto.
  - unfold iterate. destruct (burn <? Z.of_nat i)%Z; [|destruct (Nat.ltb 100 i && _); exact LT].
    cbn [m_trace]. apply Forall_app. split; [exact LT|]. constructor; [|constructor]. cbn [s_pos]. destruct (accepts _ _ _); auto.
Qed.
Lemma asks_metropolis start step iterations burn draws : has_len n start -> has_len n step -> draws_len n draws ->
  asks n (Forall (fun s => has_len n (s_pos s))) (metropolis_strat start step iterations burn draws).
Proof.
  intros L LS LD. unfold metropolis_strat. cbn [asks]. split; [exact L|]. intros v.
  eapply asks_bind; [apply asks_sampler; auto; constructor|]. intros m H. exact H.
Qed.
Lemma nleb_of_nltb x y : x <> NaN -> y <> NaN -> (x <? y)%num = false -> (y <=? x)%num = true.
Proof.
  intros NX NY. destruct (num_cases x) as [(a&Ha)|[-> |[-> | ->]]], (num_cases y) as [(c&Hc)|[-> |[-> | ->]]]; try contradiction; auto.
  - rewrite (rep_ltb _ _ _ _ Ha Hc), (rep_leb _ _ _ _ Hc Ha). unfold Rltb, Rleb. destruct (Rlt_dec a c), (Rle_dec c a); auto; try discriminate; lra.
  - unfold rep, toR in Ha. destruct x; discriminate.
  - unfold rep, toR in Ha. destruct x; discriminate || reflexivity.
  - unfold rep, toR in Hc. destruct y; discriminate || reflexivity.
  - unfold rep, toR in Hc. destruct y; discriminate.
Qed.
Lemma nleb_trans x y z : (x <=? y)%num = true -> (y <=? z)%num = true -> (x <=? z)%num = true.
Proof.
  assert (B : forall x, (PInf <=? x)%num = true -> x = PInf) by (intros []; reflexivity || discriminate).
  assert (C : forall x, (x <=? NInf)%num = true -> x = NInf) by (intros []; reflexivity || discriminate).
  assert (NR : forall x, (x <=? NaN)%num = true -> False) by (intros []; discriminate).
  assert (NL : forall x, (NaN <=? x)%num = true -> False) by (intros []; discriminate).
  intros H1 H2. destruct (num_cases z) as [(d&Hd)|[-> |[-> | ->]]]; [| |apply C in H2; subst; auto|exfalso; solve [exact (NR _ H2)|exact (NL _ H1)|exact (NR _ H1)|exact (NL _ H2)]].
  - destruct (num_cases x) as [(a&Ha)|[-> |[-> | ->]]]; [|apply B in H1; subst; auto| |exfalso; solve [exact (NR _ H2)|exact (NL _ H1)|exact (NR _ H1)|exact (NL _ H2)]].
    + destruct (num_cases y) as [(c&Hc)|[-> |[-> | ->]]]; [|apply B in H2; subst; discriminate|apply C in H1; subst; discriminate|exfalso; solve [exact (NR _ H2)|exact (NL _ H1)|exact (NR _ H1)|exact (NL _ H2)]].
      rewrite (rep_leb _ _ _ _ Ha Hc) in H1. rewrite (rep_leb _ _ _ _ Hc Hd) in H2. rewrite (rep_leb _ _ _ _ Ha Hd).
      unfold Rleb in *. destruct (Rle_dec a c); try discriminate H1; destruct (Rle_dec c d); try discriminate H2; destruct (Rle_dec a d); auto; lra.
    + unfold rep, toR in Hd. destruct z; discriminate || reflexivity.
  - destruct x; try reflexivity. exfalso. exact (NL _ H1).
Qed.
Lemma idxmax_spec trace : (forall s, In s trace -> s_prob s <> NaN) -> trace <> [] ->
  exists s, idxmax trace = Some s /\ In s trace /\ forall t, In t trace -> (s_prob t <=? s_prob s)%num = true.
Proof.
  destruct trace as [|s0 l]; [congruence|]. intros NN _. cbn [idxmax]. exists (fold_left better l s0). split; [reflexivity|].
  assert (G : forall l s0, (forall s, In s (s0 :: l) -> s_prob s <> NaN) ->
    In (fold_left better l s0) (s0 :: l) /\ forall t, In t (s0 :: l) -> (s_prob t <=? s_prob (fold_left better l s0))%num = true).
  { clear. induction l as [|t l IH]; intros s0 NN; cbn [fold_left].
    - split; [left; auto|]. intros t [<-|[]]. apply nleb_of_nltb; try (apply NN; left; auto).
      destruct (num_cases (s_prob s0)) as [(a&Ha)|[E|[E|E]]]; try (rewrite E; reflexivity). rewrite (rep_ltb _ _ _ _ Ha Ha). apply Rltb_false. lra.
    - destruct (IH (better s0 t)) as (I1&I2).
      { intros s [<-|I]; [|apply NN; right; right; auto]. unfold better. destruct (_ <? _)%num; apply NN; [right; left|left]; auto. }
      split.
      + destruct I1 as [<-|I1]; [|right; right; auto]. unfold better. destruct (_ <? _)%num; [right; left|left]; auto.
      + pose proof (I2 _ (or_introl eq_refl)) as B.
        assert (BB : (s_prob s0 <=? s_prob (better s0 t))%num = true /\ (s_prob t <=? s_prob (better s0 t))%num = true).
        { assert (REF : forall z, z <> NaN -> (z <=? z)%num = true).
          { intros z Nz. apply nleb_of_nltb; auto. destruct (num_cases z) as [(a&Ha)|[E|[E|E]]]; try (rewrite E; reflexivity). rewrite (rep_ltb _ _ _ _ Ha Ha). apply Rltb_false. lra. }
          assert (N0 : s_prob s0 <> NaN) by (apply NN; left; auto). assert (N1 : s_prob t <> NaN) by (apply NN; right; left; auto).
          unfold better. destruct (s_prob s0 <? s_prob t)%num eqn:E; split; auto.
          - destruct (num_cases (s_prob s0)) as [(a&Ha)|[E0|[E0|E0]]], (num_cases (s_prob t)) as [(c&Hc)|[E1|[E1|E1]]]; try contradiction;
              try rewrite E0 in *; try rewrite E1 in *; auto; try discriminate.
            + rewrite (rep_ltb _ _ _ _ Ha Hc) in E. rewrite (rep_leb _ _ _ _ Ha Hc). unfold Rltb, Rleb in *. destruct (Rlt_dec a c), (Rle_dec a c); auto; try discriminate; lra.
            + unfold rep, toR in Ha. destruct (s_prob s0); discriminate || reflexivity.
            + unfold rep, toR in Ha. destruct (s_prob s0); discriminate || reflexivity.
            + unfold rep, toR in Hc. destruct (s_prob t); discriminate || reflexivity.
            + unfold rep, toR in Hc. destruct (s_prob t); discriminate || reflexivity.
          - apply nleb_of_nltb; auto. }
        destruct BB as (B1&B2). intros s [<-|[<-|I]]; [eapply nleb_trans; eauto|eapply nleb_trans; eauto|apply I2; right; auto]. }
  apply G; auto.
Qed.
(** metropolis(parameters) samples the log probability as a function of the position, from the first start that is
    not impossible, and leaves the camera at the most probable sample. *)
Theorem C46_method h tries start step iterations burn draws : reach h -> full h -> is_order ord -> objs h o <> None -> reads_only spline lp ->
  (forall g, lp g <> NaN) -> has_len n start -> (forall i, has_len n (tries i)) -> has_len n step -> draws_len n draws ->
  let f := objective lp ord o names h in
  exists h', (metropolis_method lp ord o names h tries start step iterations burn draws = (h', ValueError) /\
     ((forall k, k < 1000 -> nisinf (f (start_at tries start k)) = true) \/
      exists k, k < 1000 /\ metropolis f (start_at tries start k) step iterations burn [] draws = [])) \/
  exists k, k < 1000 /\ (forall j, j < k -> nisinf (f (start_at tries start j)) = true) /\ nisinf (f (start_at tries start k)) = false /\
    let trace := metropolis f (start_at tries start k) step iterations burn [] draws in
    metropolis_method lp ord o names h tries start step iterations burn draws = (h', Ok trace) /\
    exists s hx, In s trace /\ (forall t, In t trace -> (s_prob t <=? s_prob s)%num = true) /\
      set_position ord o names h (s_pos s) = (hx, true) /\ same_reads spline h' hx.
Proof.
  intros HR HF HO E HL NN LE LT LS LD f. destruct (objs h o) as [b|] eqn:Eb; [|congruence].
  set (prog := sbind (search tries max_tries start) (fun r => match snd r with O => Done None | S _ => sbind (metropolis_strat (fst r) step iterations burn draws) (fun t => Done (Some t)) end)).
  assert (AS : asks n (fun r => match r with Some t => Forall (fun s => has_len n (s_pos s)) t | None => True end) prog).
  { unfold prog. apply (asks_bind n (fun r => has_len n (fst r))); [apply asks_search; auto|].
    intros (p, [|q]) Hp; cbn [fst snd asks]; [exact I|]. eapply asks_bind; [apply asks_metropolis; auto|]. intros x Hx. exact Hx. }
  destruct (run_same spline lp ord o names h b HR HF HO Eb HL _ _ AS h (during_start names h b HR HF)) as (h1&Hh&D&Q).
  unfold metropolis_method. fold prog. rewrite Hh. fold f in Q |- *. revert Q. unfold prog. rewrite pure_bind.
  destruct (search_start f tries start) as (k&K1&K2&K3&K4). rewrite K4. cbn [snd fst].
  destruct (Nat.eq_dec k max_tries) as [KM|KM].
  - rewrite KM, Nat.sub_diag. cbn [pure_run]. intros _. exists h1. left. split; [reflexivity|]. left. intros j J. apply K2. rewrite KM. exact J.
  - destruct K3 as [K3|K3]; [contradiction|].
    destruct (max_tries - k) as [|m] eqn:EM; [exfalso; clear - K1 KM EM; lia|].
    assert (KL : k < 1000) by (assert (k <> 1000) by exact KM; assert (k <= 1000) by exact K1; lia).
    rewrite pure_bind, pure_metropolis. cbn [pure_run]. set (trace := metropolis _ _ _ _ _ _ _). intros Q.
    destruct trace as [|s0 l] eqn:ET.
    + exists h1. left. split; [reflexivity|]. right. exists k. split; [exact KL|exact ET].
    + assert (NZ : forall s, In s trace -> s_prob s <> NaN).
      { assert (GG := C46_recorded f (start_at tries start k) step iterations burn draws (fun i => proj2 (LD i))). rewrite Forall_forall in GG.
        intros s Hs. destruct (GG s Hs) as (_&->). apply NN. }
      rewrite <- ET in *. destruct (idxmax_spec trace NZ ltac:(rewrite ET; discriminate)) as (s&Es&Is&Ms). rewrite Es.
      rewrite Forall_forall in Q. specialize (Q s Is).
      destruct (step_set ord o names h b HO Eb h1 (s_pos s) D Q) as (h2&HS&D2). rewrite HS.
      destruct (step_set ord o names h b HO Eb h (s_pos s) (during_start names h b HR HF) Q) as (hx&HSx&Dx).
      exists h2. right. exists k. split; [exact KL|]. split; [exact K2|]. split; [exact K3|]. split; [reflexivity|].
      exists s, hx. split; [exact Is|]. split; [exact Ms|]. split; [exact HSx|].
      apply (same_rdl spline names h b); auto.
      exact (step_same ord o names h b HO Eb h1 h (s_pos s) h2 hx D (during_start names h b HR HF) Q HS HSx).
Qed.
End Props.

(** ** The log probability of C48 *)
Lemma log_probability_not_nan (i : info heapn) h : getLogProbability i h <> NaN.
Proof. unfold getLogProbability. destruct (nisnan _) eqn:N; [discriminate|]. intros X. rewrite X in N. discriminate. Qed.
Lemma log_probability_reads spline (i : info heapn) : Forall (reads_only spline) (log_prob i) -> reads_only spline (getLogProbability i).
Proof.
  intros F h1 h2 S. unfold getLogProbability. assert (X : map (fun t => t h1) (log_prob i) = map (fun t => t h2) (log_prob i)); [|rewrite X; reflexivity].
  apply map_ext_in. intros t Ht. rewrite Forall_forall in F. apply F; auto.
Qed.
(** A fit of registered terms that returns started where the log probability is a number. *)
Theorem C47_start spline (i : info heapn) ord o names h draws est minimize h' x :
  reach h -> full h -> is_order ord -> objs h o <> None -> Forall (reads_only spline) (log_prob i) ->
  has_len (List.length names) est -> (forall k, has_len (List.length names) (draws k)) ->
  (forall p, has_len (List.length names) p -> asks (List.length names) (has_len (List.length names)) (minimize p)) ->
  fit (getLogProbability i) ord o names h draws est minimize = (h', Ok x) ->
  exists k hx r, k < 1000 /\ set_position ord o names h (start_at draws est k) = (hx, true) /\ rep (getLogProbability i hx) r.
Proof.
  intros HR HF HO E HL LE LD LM HFit.
  destruct (C47_fit spline _ ord o names h draws est minimize HR HF HO E (log_probability_reads spline i HL) LE LD LM)
    as [(_&h1&X)|(k&y&h1&K&_&F&_)]; [congruence|].
  destruct (objs h o) as [b|] eqn:Eb; [|congruence].
  destruct (step_set ord o names h b HO Eb h (start_at draws est k) (during_start names h b HR HF)) as (hx&HS&_).
  { destruct k; cbn; auto. apply LD. }
  unfold objective in F. rewrite HS in F. cbn [fst] in F. pose proof (log_probability_not_nan i hx) as NN.
  destruct (num_cases (getLogProbability i hx)) as [(r&H)|[X|[X|X]]]; [exists k, hx, r; auto|rewrite X in F; discriminate|rewrite X in F; discriminate|contradiction].
Qed.

(** ** Examples and refutations *)
(** a camera with one term: sure at elevation 1, impossible elsewhere *)
Definition at_one (h : heapn) : num := match get_num h 3 "elevation_m" with Some (Fin r) => if Reqb r 1 then Fin 0 else NInf | _ => NInf end.
Lemma at_one_reads spline : reads_only spline at_one.
Proof. intros h1 h2 (S&_). unfold at_one, get_num. rewrite S. reflexivity. Qed.
Definition exh : heapn := floats (camq NoDist).
Lemma exh_ok : reach exh /\ full exh /\ objs exh 3 <> None /\ reads exh 3 "elevation_m" (Loc 1 "elevation_m") /\ get_num exh 3 "elevation_m" = Some (litn (10#1)).
Proof.
  assert (R : reach exh) by (apply (cam_reach NoDist []); [stand|vm]). split; [exact R|]. split; [apply fullb_ok; [exact R|vm]|].
  split; [vm_compute; discriminate|]. split; [apply reads_q; vm|]. unfold exh. rewrite num_q. vm.
Qed.
Definition same_order (l : list cb) := l.
Lemma same_order_ok : is_order same_order. Proof. intros l c. unfold same_order. tauto. Qed.
Lemma set_elevation v h' : set_position same_order 3 ["elevation_m"] exh [v] = (h', true) -> get_num h' 3 "elevation_m" = Some v.
Proof.
  intros HS. destruct exh_ok as (R&_&E&Rd&_). destruct (objs exh 3) as [b|] eqn:Eb; [|congruence].
  rewrite (C40_set_fit same_order exh 3 _ h' b 3 "elevation_m" _ R same_order_ok Eb HS Rd); [|vm].
  assert (A : assoc "elevation_m" (table b) = Some (Loc 1 "elevation_m")) by (vm_compute in Eb; inversion Eb; vm).
  cbn [combine last_for]. rewrite A. destruct (loc_eqb_spec (Loc 1 "elevation_m") (Loc 1 "elevation_m")) as [_|N]; [|congruence].
  unfold in_range. replace (wrapped_loc exh (Loc 1 "elevation_m")) with false by vm. reflexivity.
Qed.
Lemma ex_objective v : objective at_one same_order 3 ["elevation_m"] exh [v] = match v with Fin r => if Reqb r 1 then Fin 0 else NInf | _ => NInf end.
Proof.
  destruct exh_ok as (R&F&E&_). destruct (objs exh 3) as [b|] eqn:Eb; [|congruence].
  destruct (step_set same_order 3 ["elevation_m"] exh b same_order_ok Eb exh [v] (during_start _ _ _ R F) eq_refl) as (h1&HS&_).
  unfold objective. rewrite HS. cbn [fst]. unfold at_one. rewrite (set_elevation v h1 HS). reflexivity.
Qed.
Lemma Reqb_21 : Reqb 2 1 = false.
Proof. destruct (Reqb 2 1) eqn:E; auto. apply Reqb_iff in E. lra. Qed.
Lemma Reqb_11 : Reqb 1 1 = true.
Proof. apply Reqb_iff. reflexivity. Qed.
(** The last of the 1000 random positions is evaluated, but finding a start there still raises. *)
Theorem C47_last_try_refuted : exists lp ord o names h draws est minimize h', reach h /\ full h /\ is_order ord /\
  nisinf (objective lp ord o names h (draws 999)) = false /\
  fit lp ord o names h draws est minimize = (h', ValueError) /\ lp h' = objective lp ord o names h (draws 999) /\
  get_num h' o "elevation_m" <> get_num h o "elevation_m".
Proof.
  set (draws := fun i => if Nat.eqb i 999 then [Fin 1] else [Fin 2]).
  destruct exh_ok as (R&F&E&_&V). set (sp := fun (_ : list (num * num)) (x : num) => x).
  assert (O999 : objective at_one same_order 3 ["elevation_m"] exh (draws 999) = Fin 0) by (change (draws 999) with [Fin 1]; rewrite ex_objective, Reqb_11; reflexivity).
  assert (LD : forall i, has_len 1 (draws i)) by (intros i; unfold draws; destruct (Nat.eqb i 999); reflexivity).
  destruct (C47_fit sp at_one same_order 3 ["elevation_m"] exh draws [Fin 2] (fun p => Done p) R F same_order_ok E (at_one_reads sp) eq_refl LD)
    as [(_&h'&X)|(k&x&h'&K&_&B&_)].
  - intros p Hp. exact Hp.
  - destruct (C47_failed sp at_one same_order 3 ["elevation_m"] exh draws [Fin 2] (fun p => Done p) h' R F same_order_ok E (at_one_reads sp) eq_refl LD) as (hx&HS&SR&_); auto.
    exists at_one, same_order, 3, ["elevation_m"], exh, draws, [Fin 2], (fun p => Done p), h'.
    split; [auto|split; [auto|split; [exact same_order_ok|]]]. split; [rewrite O999; reflexivity|]. split; [exact X|].
    split; [rewrite (at_one_reads sp h' hx SR); unfold objective; rewrite HS; reflexivity|].
    unfold get_num at 1. rewrite (proj1 SR). fold (get_num hx 3 "elevation_m"). change (draws 999) with [Fin 1] in HS. rewrite (set_elevation _ _ HS), V.
    intros Y. assert (Z : Fin 1 = litn (10#1)) by congruence. unfold litn in Z. injection Z as Z. unfold Q2R in Z. cbn in Z. lra.
  - exfalso. assert (S2 : start_at draws [Fin 2] k = [Fin 2]).
    { destruct k as [|k]; cbn [start_at]; [reflexivity|]. unfold draws. destruct (Nat.eqb_spec k 999); [lia|reflexivity]. }
    rewrite S2, ex_objective, Reqb_21 in B. discriminate.
Qed.
(** The second random position is possible: the fit starts there; a minimiser that looks at one other position and
    keeps the better one returns it. *)
Example C47_example :
  let draws := fun i => if Nat.eqb i 1 then [Fin 1] else [Fin 2] in
  let minimize := fun p => Ask p (fun a => Ask [Fin 3] (fun c => Done (if (c <? a)%num then [Fin 3] else p))) in
  exists h', reach exh /\ full exh /\ fit at_one same_order 3 ["elevation_m"] exh draws [Fin 2] minimize = (h', Ok [Fin 1]) /\
    get_num h' 3 "elevation_m" = Some (Fin 1).
Proof.
  intros draws minimize. destruct exh_ok as (R&F&E&_&V). set (sp := fun (_ : list (num * num)) (x : num) => x).
  assert (LD : forall i, has_len 1 (draws i)) by (intros i; unfold draws; destruct (Nat.eqb i 1); reflexivity).
  assert (LM : forall p, has_len 1 p -> asks 1 (has_len 1) (minimize p)).
  { intros p Hp. unfold minimize. cbn [asks]. split; [exact Hp|]. intros a. split; [reflexivity|]. intros c. destruct (c <? a)%num; [reflexivity|exact Hp]. }
  destruct (C47_fit sp at_one same_order 3 ["elevation_m"] exh draws [Fin 2] minimize R F same_order_ok E (at_one_reads sp) eq_refl LD LM)
    as [(A&_)|(k&x&h'&K&A&B&X&Y&_&hx&HS&SR)].
  - exfalso. specialize (A 2 ltac:(lia)). change (start_at draws [Fin 2] 2) with [Fin 1] in A. rewrite ex_objective, Reqb_11 in A. discriminate.
  - assert (k = 2).
    { destruct k as [|[|[|k]]]; auto; exfalso.
      - change (start_at draws [Fin 2] 0) with [Fin 2] in B. rewrite ex_objective, Reqb_21 in B. discriminate.
      - change (start_at draws [Fin 2] 1) with [Fin 2] in B. rewrite ex_objective, Reqb_21 in B. discriminate.
      - specialize (A 2 ltac:(lia)). change (start_at draws [Fin 2] 2) with [Fin 1] in A. rewrite ex_objective, Reqb_11 in A. discriminate. }
    subst k. change (start_at draws [Fin 2] 2) with [Fin 1] in X. unfold minimize in X. cbn [pure_run] in X. rewrite !ex_objective, Reqb_11 in X.
    assert (R31 : Reqb 3 1 = false) by (destruct (Reqb 3 1) eqn:Z; auto; apply Reqb_iff in Z; lra). rewrite R31 in X.
    assert (C : (- NInf <? - Fin 0)%num = false).
    { change (- NInf)%num with PInf. assert (PL : forall z, (PInf <? z)%num = false) by (intros []; reflexivity). apply PL. }
    rewrite C in X. subst x. exists h'. split; [exact R|]. split; [exact F|]. split; [exact Y|].
    unfold get_num. rewrite (proj1 SR). exact (set_elevation _ _ HS).
Qed.
Print Assumptions C46_method.
Print Assumptions C47_fit.
Print Assumptions C47_parameters.
Print Assumptions C47_failed.
Print Assumptions C47_start.
Print Assumptions C47_last_try_refuted.
