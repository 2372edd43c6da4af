(** * C61: sampling with bayesianfridge and the FitParameter objects *)
Require Import Reals Lra List Bool String Arith NArith QArith Qreals Lia ZArith.
From Verif Require Import Num Orientation Projection Ray CameraTransform Param ParamFacts ParamOps ParamSteps ParamReach ParamCam ParamLaws.
From Verif Require Import ParamMap PropParam ParamCheck ParamExamples ParamTotal PropTotal PropFit Metropolis PropMetropolis LogProb PropLogProb Fit PropFitRun Fridge.
Import ListNotations.
Open Scope nat_scope.
Open Scope string_scope.

Implicit Types h : heapn.

(** ** Specification *)
(** The values the variables have when the sampler is done: those of the last question, or the ones before. *)
Fixpoint last_asked {A} (f : list num -> num) (v : list num) (s : strat A) : list num :=
  match s with Done _ => v | Ask p k => last_asked f p (k (f p)) end.
(** The terms look at the camera only, not at the values of the variables. *)
Definition camera_only (lp : heapn -> list num -> num) : Prop := forall h v w, lp h v = lp h w.

Section Props.
Context (spline : list (num * num) -> num -> num) (lp : heapn -> list num -> num) (ord : list cb -> list cb) (o : oid) (names : list name).
Let n := List.length names.

Lemma sample_run_pure {A} h (s : strat A) : forall v, sample_run lp h v s = (last_asked (lp h) v s, pure_run (lp h) s).
Proof. induction s as [a|p k IH]; intros v; cbn [sample_run last_asked pure_run]; [reflexivity|]. apply IH. Qed.

Lemma record_spec h0 b v : reach h0 -> full h0 -> is_order ord -> objs h0 o = Some b -> reads_only spline (fun h => lp h v) ->
  forall rows h, Forall (has_len n) rows -> during names h0 b h ->
  exists h', record lp ord o names h v rows = (h', Some (map (fun r => Sample r [] (objective (fun h => lp h v) ord o names h0 r)) rows)) /\ during names h0 b h'.
Proof.
  intros HR HF HO Eb HL. induction rows as [|r rows IH]; intros h L D; cbn [record map]; [exists h; auto|].
  inversion L as [|? ? L1 L2]; subst. destruct (step_set ord o names h0 b HO Eb h r D L1) as (h1&HS&D1). rewrite HS.
  destruct (step_set ord o names h0 b HO Eb h0 r (during_start names h0 b HR HF) L1) as (h1'&HS'&D1').
  assert (EQ : lp h1 v = objective (fun h => lp h v) ord o names h0 r).
  { unfold objective. rewrite HS'. cbn [fst]. apply HL. apply (same_rdl spline names h0 b); auto.
    exact (step_same ord o names h0 b HO Eb h h0 r h1 h1' D (during_start names h0 b HR HF) L1 HS HS'). }
  destruct (IH h1 L2 D1) as (h'&Hr&D'). rewrite Hr, EQ. exists h'. auto.
Qed.

(** What fridge does: the sampler runs on the log probability of the camera as it is before; every sample it returns
    is recorded with the log probability of the camera with that sample, for the values that the variables were left
    with; the camera is left at the most probable sample. *)
Theorem C61_fridge h v sampler : reach h -> full h -> is_order ord -> objs h o <> None -> (forall w, reads_only spline (fun g => lp g w)) ->
  (forall g w, lp g w <> NaN) ->
  let rows := pure_run (lp h) sampler in
  let w := last_asked (lp h) v sampler in
  Forall (has_len n) rows ->
  (rows = [] -> fridge lp ord o names h v sampler = (h, ValueError)) /\
  (rows <> [] -> exists h' trace, fridge lp ord o names h v sampler = (h', Ok trace) /\
     map s_pos trace = rows /\
     (forall s, In s trace -> exists hx, set_position ord o names h (s_pos s) = (hx, true) /\ s_prob s = lp hx w) /\
     exists s hx, In s trace /\ (forall t, In t trace -> (s_prob t <=? s_prob s)%num = true) /\
       set_position ord o names h (s_pos s) = (hx, true) /\ same_reads spline h' hx).
Proof.
  intros HR HF HO E HL NN rows w LR. destruct (objs h o) as [b|] eqn:Eb; [|congruence].
  unfold fridge. rewrite sample_run_pure. fold w rows.
  destruct (record_spec h b w HR HF HO Eb (HL w) rows h LR (during_start names h b HR HF)) as (h1&Hr&D1). rewrite Hr.
  set (trace := map _ rows) in *. split.
  - intros Z. unfold trace. rewrite Z in Hr |- *. cbn [map idxmax]. cbn [record] in Hr. inversion Hr. reflexivity.
  - intros NE.
    assert (IT : forall s, In s trace -> has_len n (s_pos s) /\ s_prob s = objective (fun g => lp g w) ord o names h (s_pos s)).
    { intros s Hs. unfold trace in Hs. apply in_map_iff in Hs. destruct Hs as (r&<-&Ir). cbn [s_pos s_prob]. rewrite Forall_forall in LR. auto. }
    assert (ST : forall s, In s trace -> exists hx, set_position ord o names h (s_pos s) = (hx, true) /\ s_prob s = lp hx w /\ during names h b hx).
    { intros s Hs. destruct (IT s Hs) as (L1&P1). destruct (step_set ord o names h b HO Eb h (s_pos s) (during_start names h b HR HF) L1) as (hx&HS&Dx).
      exists hx. split; [exact HS|]. split; [|exact Dx]. rewrite P1. unfold objective. rewrite HS. reflexivity. }
    destruct (idxmax_spec trace) as (s&Es&Is&Ms).
    { intros s Hs. destruct (ST s Hs) as (hx&_&->&_). apply NN. }
    { unfold trace. destruct rows; [congruence|discriminate]. }
    rewrite Es. destruct (IT s Is) as (L1&_). destruct (step_set ord o names h b HO Eb h1 (s_pos s) D1 L1) as (h2&HS2&D2). rewrite HS2.
    destruct (ST s Is) as (hx&HSx&_&Dx).
    exists h2, trace. split; [reflexivity|]. split; [unfold trace; rewrite map_map; cbn [s_pos]; apply map_id|].
    split; [intros t Ht; destruct (ST t Ht) as (hy&A&B&_); exists hy; auto|].
    exists s, hx. split; [exact Is|]. split; [exact Ms|]. split; [exact HSx|].
    apply (same_rdl spline names h b); auto.
    exact (step_same ord o names h b HO Eb h1 h (s_pos s) h2 hx D1 (during_start names h b HR HF) L1 HS2 HSx).
Qed.

(** Without terms that look at the variables the recorded probability of a sample is the log probability of the
    camera with the sample. *)
Theorem C61_recorded h v sampler h' trace s : reach h -> full h -> is_order ord -> objs h o <> None -> (forall w, reads_only spline (fun g => lp g w)) ->
  (forall g w, lp g w <> NaN) -> camera_only lp -> Forall (has_len n) (pure_run (lp h) sampler) ->
  fridge lp ord o names h v sampler = (h', Ok trace) -> In s trace ->
  exists hx, set_position ord o names h (s_pos s) = (hx, true) /\ s_prob s = lp hx (s_pos s).
Proof.
  intros HR HF HO E HL NN CO LR HFr Is. destruct (C61_fridge h v sampler HR HF HO E HL NN LR) as (Z1&Z2).
  destruct (pure_run (lp h) sampler) as [|r rows] eqn:ER; [rewrite Z1 in HFr by reflexivity; congruence|].
  destruct Z2 as (h2&t2&F2&_&P2&_); [discriminate|]. rewrite F2 in HFr. injection HFr as <- <-.
  destruct (P2 s Is) as (hx&A&B). exists hx. split; [exact A|]. rewrite B. apply CO.
Qed.

(** The sampler learns nothing about the parameters: for terms that look at the camera only, it returns what it would
    return for a log probability that is the same number everywhere. *)
Theorem C61_blind h v sampler h' trace : reach h -> full h -> is_order ord -> objs h o <> None -> (forall w, reads_only spline (fun g => lp g w)) ->
  (forall g w, lp g w <> NaN) -> camera_only lp -> Forall (has_len n) (pure_run (lp h) sampler) ->
  fridge lp ord o names h v sampler = (h', Ok trace) -> map s_pos trace = pure_run (fun _ => lp h v) sampler.
Proof.
  intros HR HF HO E HL NN CO LR HFr. destruct (C61_fridge h v sampler HR HF HO E HL NN LR) as (Z1&Z2).
  assert (ER : pure_run (fun _ => lp h v) sampler = pure_run (lp h) sampler).
  { clear - CO. induction sampler as [a|p k IH]; cbn [pure_run]; [reflexivity|]. rewrite (CO h p v). apply IH. }
  rewrite ER. destruct (pure_run (lp h) sampler) as [|r rows] eqn:EQ; [rewrite Z1 in HFr by reflexivity; congruence|].
  destruct Z2 as (h2&t2&F2&M2&_); [discriminate|]. rewrite F2 in HFr. injection HFr as <- <-. exact M2.
Qed.
End Props.

(** ** FitParameter *)
(** Which arguments give which prior, and the bounds fit and metropolis take from it. *)
Theorem C61_fit_parameter {P} (distribution : option P) lower upper value mean std :
  (forall d, distribution = Some d -> exists p, FitParameter distribution lower upper value mean std = Ok p /\ fp_dist p = Given d /\ range_of p = Raised) /\
  (distribution = None -> forall l u, lower = Some l -> upper = Some u -> exists p, FitParameter distribution lower upper value mean std = Ok p /\
     fp_dist p = Uniform l (u - l)%num /\ range_of p = Ok (Some l, Some u)) /\
  (distribution = None -> lower = None \/ upper = None -> forall m s, mean = Some m -> std = Some s -> exists p, FitParameter distribution lower upper value mean std = Ok p /\
     fp_dist p = Norm m s /\ range_of p = Ok (None, None)) /\
  (FitParameter distribution lower upper value mean std = ValueError <->
     distribution = None /\ (lower = None \/ upper = None) /\ (mean = None \/ std = None)).
Proof.
  split; [intros d ->; eexists; split; [reflexivity|split; reflexivity]|].
  split; [intros -> l u -> ->; eexists; split; [reflexivity|split; reflexivity]|].
  split; [intros -> B m s -> ->; destruct lower, upper; destruct B; try discriminate; (eexists; split; [reflexivity|split; reflexivity])|].
  destruct distribution, lower, upper, mean, std; cbn [FitParameter]; split; try discriminate; try (intros (A&B&C); destruct A, B, C; discriminate || congruence); auto 8.
  all: intros (A&B&C); try discriminate; destruct B; try discriminate; destruct C; discriminate.
Qed.
Lemma ranges_of_raised {P} (ps : list (fit_parameter P)) : (exists p, In p ps /\ range_of p = Raised) -> ranges_of ps = Raised.
Proof.
  assert (NV : forall q : fit_parameter P, range_of q <> ValueError).
  { intros q. unfold range_of. destruct (parents_get q "lower"), (parents_get q "upper"); discriminate. }
  intros (p&Ip&RP). induction ps as [|q ps IH]; [destruct Ip|]. cbn [ranges_of]. destruct Ip as [->|Ip]; [rewrite RP; reflexivity|].
  rewrite (IH Ip). specialize (NV q). destruct (range_of q); congruence || reflexivity.
Qed.
(** fit raises for a parameter given by its distribution, before it changes anything. *)
Theorem C61_distribution {P} lp ord o names h (ps : list (fit_parameter P)) draws est minimize p d lower upper value mean std :
  FitParameter (Some d) lower upper value mean std = Ok p -> In p ps ->
  fit_call lp ord o names h ps draws est minimize = (h, Raised).
Proof.
  intros Hp Ip. unfold fit_call. rewrite ranges_of_raised; [reflexivity|]. exists p. split; [exact Ip|]. inversion Hp. reflexivity.
Qed.
(** The mean and the standard deviation of a normal prior do not enter: fit gives the same for every choice. *)
Definition normal_prior {P} (p : fit_parameter P) : Prop := exists m s value, FitParameter None None None value (Some m) (Some s) = Ok p.
Theorem C61_normal_prior {P} lp ord o names h (ps qs : list (fit_parameter P)) draws est minimize :
  Forall normal_prior ps -> Forall normal_prior qs -> List.length ps = List.length qs ->
  fit_call lp ord o names h ps draws est minimize = fit_call lp ord o names h qs draws est minimize.
Proof.
  intros HP HQ L. unfold fit_call. assert (X : ranges_of ps = ranges_of qs); [|rewrite X; reflexivity].
  revert qs HQ L. induction HP as [|p ps (m&s&v&Hp) HP IH]; intros [|q qs] HQ L; try discriminate; [reflexivity|].
  inversion HQ as [|? ? (m'&s'&v'&Hq) HQ']; subst. cbn [ranges_of]. rewrite (IH qs HQ' ltac:(cbn in L; congruence)).
  inversion Hp. inversion Hq. reflexivity.
Qed.

(** ** Examples and refutations *)
(** A sampler that asks twice and returns the better position. *)
Definition two_guesses : strat (list (list num)) :=
  Ask [Fin 2] (fun a => Ask [Fin 1] (fun c => Done [if (a <? c)%num then [Fin 1] else [Fin 2]])).
Lemma NInf_lt_NInf : (NInf <? NInf)%num = false. Proof. reflexivity. Qed.
Lemma at_one_not_nan h : at_one h <> NaN.
Proof. unfold at_one. destruct (get_num h 3 "elevation_m") as [[]|]; try discriminate. destruct (Reqb _ _); discriminate. Qed.
Lemma at_one_exh : at_one exh = NInf.
Proof.
  destruct exh_ok as (_&_&_&_&V). unfold at_one. rewrite V. unfold litn.
  match goal with |- context [Reqb ?r 1] => assert (Z : Reqb r 1 = false) end; [|rewrite Z; reflexivity].
  destruct (Reqb (Q2R (10#1)) 1) eqn:E; auto. apply Reqb_iff in E. unfold Q2R in E. cbn in E. lra.
Qed.
(** The sampler should get the log probability of the camera with the values it asks for.  It does not: here one of
    its two guesses is sure and the other one impossible, and it takes the impossible one for as good, returns it, and
    the camera ends up there. *)
Theorem C61_sampler_refuted : exists lp ord o names h v sampler h' trace,
  reach h /\ full h /\ is_order ord /\ objs h o <> None /\ camera_only lp /\
  fridge lp ord o names h v sampler = (h', Ok trace) /\
  map s_pos trace <> pure_run (fun p => lp (fst (set_position ord o names h p)) p) sampler /\
  (exists p hx, set_position ord o names h p = (hx, true) /\ lp hx p = Fin 0) /\ lp h' v = NInf.
Proof.
  destruct exh_ok as (R&F&E&_&V). set (sp := fun (_ : list (num * num)) (x : num) => x).
  set (lp := fun h (_ : list num) => at_one h).
  assert (ER : pure_run (lp exh) two_guesses = [[Fin 2]]).
  { unfold two_guesses. cbn [pure_run]. unfold lp. rewrite at_one_exh, NInf_lt_NInf. reflexivity. }
  destruct (C61_fridge sp lp same_order 3 ["elevation_m"] exh [] two_guesses R F same_order_ok E) as (_&Z).
  { intros w. apply at_one_reads. } { intros g w. apply at_one_not_nan. } { rewrite ER. repeat constructor. }
  rewrite ER in Z. destruct Z as (h'&trace&HFr&M&_&s&hx&Is&_&HS&SR); [discriminate|].
  exists lp, same_order, 3, ["elevation_m"], exh, [], two_guesses, h', trace.
  split; [exact R|]. split; [exact F|]. split; [exact same_order_ok|]. split; [exact E|]. split; [intros g a c; reflexivity|]. split; [exact HFr|]. split; [|split].
  - rewrite M. unfold two_guesses. cbn [pure_run].
    change (fun h' => lp h' [Fin 2]) with at_one. unfold lp.
    change (at_one (fst (set_position same_order 3 ["elevation_m"] exh [Fin 2]))) with (objective at_one same_order 3 ["elevation_m"] exh [Fin 2]).
    change (at_one (fst (set_position same_order 3 ["elevation_m"] exh [Fin 1]))) with (objective at_one same_order 3 ["elevation_m"] exh [Fin 1]).
    rewrite !ex_objective, Reqb_21, Reqb_11. assert (X : (NInf <? Fin 0)%num = true) by reflexivity. rewrite X.
    intros Y. injection Y as Y. lra.
  - destruct (objs exh 3) as [b|] eqn:Eb; [|congruence].
    destruct (step_set same_order 3 ["elevation_m"] exh b same_order_ok Eb exh [Fin 1] (during_start _ _ _ R F) eq_refl) as (h1&HS1&_).
    exists [Fin 1], h1. split; [exact HS1|]. unfold lp, at_one. rewrite (set_elevation _ _ HS1), Reqb_11. reflexivity.
  - unfold lp. rewrite (at_one_reads sp h' hx SR). assert (X : s_pos s = [Fin 2]).
    { assert (IM : In (s_pos s) [[Fin 2]]) by (rewrite <- M; apply in_map; exact Is). destruct IM as [<-|[]]. reflexivity. }
    rewrite X in HS. unfold at_one. rewrite (set_elevation _ _ HS), Reqb_21. reflexivity.
Qed.
(** A term of an additional parameter that is sure for the value 1 and impossible for others. *)
Definition extra_one (h : heapn) (v : list num) : num :=
  match v with _ :: Fin r :: _ => if Reqb r 1 then Fin 0 else NInf | _ => NInf end.
(** The recorded probability of a sample should be the log probability for the sample.  With an additional parameter
    it is not: the value of the additional parameter is the one the sampler used last. *)
Theorem C61_additional_refuted : exists lp ord o names h v sampler h' trace s,
  reach h /\ full h /\ is_order ord /\ objs h o <> None /\
  fridge lp ord o names h v sampler = (h', Ok trace) /\ In s trace /\
  exists hx, set_position ord o names h (s_pos s) = (hx, true) /\ s_prob s <> lp hx (s_pos s).
Proof.
  destruct exh_ok as (R&F&E&_&V). set (sp := fun (_ : list (num * num)) (x : num) => x).
  set (sampler := Ask [Fin 5; Fin 1] (fun a => Ask [Fin 5; Fin 2] (fun c => Done [[Fin 5; Fin 1]]))).
  destruct (C61_fridge sp extra_one same_order 3 ["elevation_m"; "sigma"] exh [] sampler R F same_order_ok E) as (_&Z).
  { intros w g1 g2 _. reflexivity. }
  { intros g [|a [|[] ?]]; try discriminate. cbn. destruct (Reqb _ _); discriminate. }
  { repeat constructor. }
  destruct Z as (h'&trace&HFr&M&P&_); [discriminate|]. cbn [pure_run sampler] in M.
  destruct trace as [|s [|s' trace]]; try discriminate. cbn [map] in M.
  assert (MS : s_pos s = [Fin 5; Fin 1]) by (unfold sampler in M; cbn [pure_run] in M; congruence).
  destruct (P s (or_introl eq_refl)) as (hx&HS&PS).
  exists extra_one, same_order, 3, ["elevation_m"; "sigma"], exh, [], sampler, h', [s], s.
  split; [exact R|]. split; [exact F|]. split; [exact same_order_ok|]. split; [exact E|]. split; [exact HFr|]. split; [left; reflexivity|].
  exists hx. split; [exact HS|]. rewrite PS, MS. unfold sampler. cbn [last_asked extra_one]. rewrite Reqb_21, Reqb_11. discriminate.
Qed.
(** A sampler that returns three positions without looking: the camera ends at the possible one. *)
Example C61_example : let lp := fun h (_ : list num) => at_one h in exists h' trace,
  fridge lp same_order 3 ["elevation_m"] exh [Fin 10] (Ask [Fin 2] (fun _ => Done [[Fin 2]; [Fin 1]; [Fin 2]])) = (h', Ok trace) /\
  map s_pos trace = [[Fin 2]; [Fin 1]; [Fin 2]] /\ map s_prob trace = [NInf; Fin 0; NInf] /\ get_num h' 3 "elevation_m" = Some (Fin 1).
Proof.
  intros lp. destruct exh_ok as (R&F&E&_&V). set (sp := fun (_ : list (num * num)) (x : num) => x).
  set (sampler := Ask [Fin 2] (fun _ => Done [[Fin 2]; [Fin 1]; [Fin 2]])).
  destruct (C61_fridge sp lp same_order 3 ["elevation_m"] exh [Fin 10] sampler R F same_order_ok E) as (_&Z).
  { intros w. apply at_one_reads. } { intros g w. apply at_one_not_nan. } { repeat constructor. }
  destruct Z as (h'&trace&HFr&M&P&s&hx&Is&Ms&HS&SR); [discriminate|]. unfold sampler in M. cbn [pure_run] in M.
  exists h', trace. split; [exact HFr|]. split; [exact M|].
  assert (PR : forall t, In t trace -> forall v, s_pos t = [v] -> s_prob t = match v with Fin r => if Reqb r 1 then Fin 0 else NInf | _ => NInf end).
  { intros t It v Hv. destruct (P t It) as (hy&HSy&->). rewrite Hv in HSy. unfold lp, at_one. rewrite (set_elevation _ _ HSy). reflexivity. }
  destruct trace as [|t1 [|t2 [|t3 [|]]]]; try discriminate. cbn [map] in M. injection M as M1 M2 M3.
  assert (P1 := PR t1 ltac:(cbn; auto) _ M1). assert (P2 := PR t2 ltac:(cbn; auto) _ M2). assert (P3 := PR t3 ltac:(cbn; auto) _ M3).
  cbv iota beta in P1, P2, P3. rewrite Reqb_21 in P1, P3. rewrite Reqb_11 in P2.
  split; [cbn [map]; rewrite P1, P2, P3; reflexivity|].
  assert (X : s_pos s = [Fin 1]).
  { destruct Is as [<-|[<-|[<-|[]]]]; [|exact M2|]; exfalso; specialize (Ms t2 ltac:(cbn; auto)).
    - rewrite P1, P2 in Ms. discriminate.
    - rewrite P3, P2 in Ms. discriminate. }
  unfold get_num. rewrite (proj1 SR). rewrite X in HS. exact (set_elevation _ _ HS).
Qed.
Print Assumptions C61_fridge.
Print Assumptions C61_recorded.
Print Assumptions C61_blind.
Print Assumptions C61_fit_parameter.
Print Assumptions C61_distribution.
Print Assumptions C61_normal_prior.
Print Assumptions C61_sampler_refuted.
Print Assumptions C61_additional_refuted.
