(** * C63: the parameters of the terms in sampling and fitting *)
Require Import Reals Lra List Bool String Arith NArith QArith Qreals Lia ZArith.
From Verif Require Import Num Orientation Projection Ray CameraTransform Param ParamFacts ParamOps ParamSteps ParamReach ParamCam ParamLaws.
From Verif Require Import ParamMap PropParam ParamCheck ParamExamples ParamTotal PropTotal PropFit Metropolis PropMetropolis LogProb PropLogProb Fit PropFitRun Fridge PropFridge.
From Verif Require Import Additional.
Import ListNotations.
Open Scope nat_scope.
Open Scope string_scope.

Implicit Types h : heapn.

Section Props.
Context (spline : list (num * num) -> num -> num) (lp : heapn -> list num -> num) (ord : list cb -> list cb) (o : oid) (names extra : list name).
Let n := List.length names.
Let N := List.length (names ++ extra).

(** ** Specification *)
(** The log probability at a position: the camera has its first entries and the additional parameters the others. *)
Definition at_position h (p : list num) : num := lp (fst (set_position ord o names h (firstn n p))) (skipn n p).

(** ** Facts *)
Lemma set_values_all : forall vals new, List.length vals = List.length new -> set_values vals new = new.
Proof. induction vals as [|v vals IH]; intros [|w new] L; try discriminate; cbn [set_values]; [reflexivity|]. f_equal. apply IH. cbn in L. congruence. Qed.
Fixpoint last_values {A} (f : list num -> num) (v : list num) (s : strat A) : list num :=
  match s with Done _ => v | Ask p k => last_values f (skipn n p) (k (f p)) end.
Lemma last_values_bind {A B} f (s : strat A) (g : A -> strat B) : forall v,
  last_values f v (sbind s g) = last_values f (last_values f v s) (g (pure_run f s)).
Proof. induction s as [a|p k IH]; intros v; cbn [sbind last_values pure_run]; auto. Qed.

Section Run.
Context (h0 : heapn) (b : obj num).
Hypothesis HR : reach h0.
Hypothesis HF : full h0.
Hypothesis HO : is_order ord.
Hypothesis Eb : objs h0 o = Some b.
Hypothesis HL : forall w, reads_only spline (fun g => lp g w).
Lemma first_len (p : list num) : List.length p = N -> List.length (firstn n p) = List.length names.
Proof. intros L. rewrite firstn_length, L. unfold N. rewrite app_length. fold n. lia. Qed.
Lemma rest_len (p : list num) : List.length p = N -> List.length (skipn n p) = List.length extra.
Proof. intros L. rewrite skipn_length, L. unfold N. rewrite app_length. fold n. lia. Qed.
Lemma value_run_same {A} (Q : A -> Prop) (s : strat A) : asks N Q s -> forall h vals, during names h0 b h -> List.length vals = List.length extra ->
  exists h', value_run lp ord o names h vals s = (h', last_values (at_position h0) vals s, Some (pure_run (at_position h0) s)) /\
    during names h0 b h' /\ Q (pure_run (at_position h0) s).
Proof.
  induction s as [a|p k IH]; intros AS h vals D LV; cbn [asks value_run pure_run last_values] in *; [exists h; auto|].
  destruct AS as (L&AS). assert (L1 := first_len p L). assert (L2 := rest_len p L). fold n.
  destruct (step_set ord o names h0 b HO Eb h (firstn n p) D L1) as (h1&HS&D1). rewrite HS.
  destruct (step_set ord o names h0 b HO Eb h0 (firstn n p) (during_start names h0 b HR HF) L1) as (h1'&HS'&D1').
  rewrite set_values_all by congruence.
  assert (EQ : lp h1 (skipn n p) = at_position h0 p).
  { unfold at_position. rewrite HS'. cbn [fst]. apply (HL (skipn n p)). apply (same_rdl spline names h0 b); auto.
    exact (step_same ord o names h0 b HO Eb h h0 (firstn n p) h1 h1' D (during_start names h0 b HR HF) L1 HS HS'). }
  rewrite EQ. apply (IH (at_position h0 p) (AS _) h1 (skipn n p) D1 L2).
Qed.
End Run.

Lemma write_fit_unknown (b : obj num) : forall vals, (forall e v, In (e, v) vals -> assoc e (table b) = None) ->
  forall h cs, write_fit h b vals cs = (h, cs).
Proof.
  induction vals as [|(e, v) vals IH]; intros U h cs; cbn [write_fit]; [reflexivity|].
  rewrite (U e v (or_introl eq_refl)). apply IH. intros e' v' I. apply (U e' v'). right; exact I.
Qed.
Lemma write_fit_app (b : obj num) l2 : forall l1 h cs, write_fit h b (l1 ++ l2)%list cs = let (h1, cs1) := write_fit h b l1 cs in write_fit h1 b l2 cs1.
Proof.
  induction l1 as [|(e, v) l1 IH]; intros h cs; cbn [app write_fit]; [reflexivity|].
  destruct (assoc e (table b)); apply IH.
Qed.
Lemma combine_app {A B} : forall (a a' : list A) (l : list B), combine (a ++ a') l = (combine a (firstn (List.length a) l) ++ combine a' (skipn (List.length a) l))%list.
Proof.
  induction a as [|x a IH]; intros a' l; [reflexivity|]. destruct l as [|y l]; cbn [app combine List.length firstn skipn].
  - destruct a'; reflexivity.
  - rewrite IH. reflexivity.
Qed.
Lemma set_row_position h (b : obj num) row : objs h o = Some b -> (forall e, In e extra -> assoc e (table b) = None) ->
  set_row ord o names extra h row = set_position ord o names h (firstn n row).
Proof.
  intros Eb U. unfold set_row, set_position, set_fit. rewrite Eb, combine_app, write_fit_app. fold n.
  destruct (write_fit h b (combine names (firstn n row)) []) as (h1, cs).
  rewrite write_fit_unknown; [reflexivity|]. intros e v I. apply U. apply in_combine_l in I. exact I.
Qed.

(** The sampler's last proposal. *)
Lemma last_sampler f st burn draws i : forall is m v, d_prior (draws i) = [] ->
  let m' := run_loop f st burn draws m is in
  last_values f v (sampler st burn draws m (is ++ [i])) = skipn n (propose (m_scale m') (m_pos m') st (d_t (draws i))).
Proof.
  induction is as [|j is IH]; intros m v NP; cbn [app sampler last_values].
  - rewrite NP, app_nil_r. reflexivity.
  - apply IH. exact NP.
Qed.
Definition before_last f start st iterations burn draws : mstate :=
  run_loop f st (burn_in iterations burn) draws (start_state f start []) (seq 0 (Z.to_nat (trunc iterations) - 1)).
Lemma last_metropolis f start st iterations burn draws v : (forall i, d_prior (draws i) = []) ->
  metropolis f start st iterations burn [] draws <> [] ->
  let m := before_last f start st iterations burn draws in
  last_values f v (metropolis_strat start st iterations burn draws) =
  skipn n (propose (m_scale m) (m_pos m) st (d_t (draws (Z.to_nat (trunc iterations) - 1)))).
Proof.
  intros NP NE m. unfold metropolis_strat. cbn [last_values]. rewrite last_values_bind. cbn [last_values].
  unfold m, before_last. unfold metropolis in NE. destruct (Z.to_nat (trunc iterations)) as [|it]; [exfalso; apply NE; reflexivity|].
  replace (S it - 1) with it by lia. rewrite seq_S. cbn [plus]. rewrite last_sampler by apply NP.
  unfold start_state. rewrite app_nil_r. reflexivity.
Qed.

(** ** C63 *)
(** What metropolis does when the steps fit the position. *)
Lemma sampled h b vals tries start steps factor iterations burn draws st : reach h -> full h -> is_order ord -> objs h o = Some b ->
  (forall w, reads_only spline (fun g => lp g w)) -> (forall g w, lp g w <> NaN) -> (forall e, In e extra -> assoc e (table b) = None) ->
  List.length vals = List.length extra -> has_len N start -> (forall i, has_len N (tries i)) -> has_len N st -> draws_len N draws ->
  broadcast N (map (fun s => (factor * s)%num) steps) = Some st ->
  let f := at_position h in
  exists h' vals', (metropolis_additional lp ord o names extra h vals tries start steps factor iterations burn draws = (h', vals', ValueError) /\
     ((forall k, k < 1000 -> nisinf (f (start_at tries start k)) = true) \/
      exists k, k < 1000 /\ metropolis f (start_at tries start k) st iterations burn [] draws = [])) \/
  exists k, k < 1000 /\ (forall j, j < k -> nisinf (f (start_at tries start j)) = true) /\ nisinf (f (start_at tries start k)) = false /\
    let trace := metropolis f (start_at tries start k) st iterations burn [] draws in
    metropolis_additional lp ord o names extra h vals tries start steps factor iterations burn draws = (h', vals', Ok trace) /\
    (forall t, In t trace -> s_prob t = f (s_pos t)) /\
    (exists s hx, In s trace /\ (forall t, In t trace -> (s_prob t <=? s_prob s)%num = true) /\
      set_position ord o names h (firstn n (s_pos s)) = (hx, true) /\ same_reads spline h' hx) /\
    let m := before_last f (start_at tries start k) st iterations burn draws in
    vals' = skipn n (propose (m_scale m) (m_pos m) st (d_t (draws (Z.to_nat (trunc iterations) - 1)))).
Proof.
  intros HR HF HO Eb HL NN U LV LE LT LS LD BC f. rewrite <- LE in BC.
  set (prog := walk tries start steps factor iterations burn draws).
  assert (AS : asks N (fun r => match r with Some t => Forall (fun s => has_len N (s_pos s)) t | None => True end) prog).
  { unfold prog, walk. apply (asks_bind N (fun r => has_len N (fst r))); [apply asks_search; auto|].
    intros (p, [|q]) Hp; cbn [fst snd asks]; [exact I|]. rewrite BC. eapply asks_bind; [apply (asks_metropolis (names ++ extra)); auto|]. intros x Hx. exact Hx. }
  destruct (value_run_same h b HR HF HO Eb HL _ _ AS h vals (during_start names h b HR HF) LV) as (h1&Hh&D&Q).
  unfold metropolis_additional. fold prog. rewrite Hh. fold f in Q |- *. revert Q. unfold prog, walk. rewrite pure_bind, last_values_bind.
  destruct (search_start f tries start) as (k&K1&K2&K3&K4). rewrite K4. cbn [snd fst].
  destruct (Nat.eq_dec k max_tries) as [KM|KM].
  - rewrite KM, Nat.sub_diag. cbn [pure_run]. intros _. exists h1. eexists. left. split; [reflexivity|]. left. intros j J. apply K2. rewrite KM. exact J.
  - destruct K3 as [K3|K3]; [contradiction|].
    destruct (max_tries - k) as [|m] eqn:EM; [exfalso; clear - K1 KM EM; lia|].
    assert (KL : k < 1000) by (assert (k <> 1000) by exact KM; assert (k <= 1000) by exact K1; lia).
    cbv iota beta. rewrite !BC. cbv iota beta. rewrite pure_bind, pure_metropolis, last_values_bind. cbn [pure_run last_values]. set (trace := metropolis _ _ _ _ _ _ _). intros Q.
    destruct trace as [|s0 l] eqn:ET.
    + exists h1. eexists. left. split; [reflexivity|]. right. exists k. split; [exact KL|exact ET].
    + assert (RC : forall s, In s trace -> s_prob s = f (s_pos s)).
      { assert (GG := C46_recorded f (start_at tries start k) st iterations burn draws (fun i => proj2 (LD i))). rewrite Forall_forall in GG.
        intros s Hs. exact (proj2 (GG s Hs)). }
      assert (NZ : forall s, In s trace -> s_prob s <> NaN) by (intros s Hs; rewrite (RC s Hs); apply NN).
      assert (NE : trace <> []) by (rewrite ET; discriminate).
      rewrite <- ET in *. clear ET. destruct (idxmax_spec trace NZ NE) as (s&Es&Is&Ms). rewrite Es.
      rewrite Forall_forall in Q. specialize (Q s Is). assert (L1 := first_len _ Q).
      assert (D0 := D). destruct D0 as (_&_&SM&_). destruct (sim_fwd _ _ _ _ SM Eb) as (b'&E'&(_&_&T&_)).
      rewrite (set_row_position h1 b' (s_pos s) E') by (rewrite T; exact U).
      destruct (step_set ord o names h b HO Eb h1 (firstn n (s_pos s)) D L1) as (h2&HS&D2). rewrite HS.
      destruct (step_set ord o names h b HO Eb h (firstn n (s_pos s)) (during_start names h b HR HF) L1) as (hx&HSx&Dx).
      exists h2. eexists. right. exists k. split; [exact KL|]. split; [exact K2|]. split; [exact K3|]. split; [reflexivity|].
      split; [exact RC|]. split.
      * exists s, hx. split; [exact Is|]. split; [exact Ms|]. split; [exact HSx|].
        apply (same_rdl spline names h b); auto.
        exact (step_same ord o names h b HO Eb h1 h (firstn n (s_pos s)) h2 hx D (during_start names h b HR HF) L1 HS HSx).
      * apply last_metropolis; [intros i; apply (LD i)|exact NE].
Qed.
(** One parameter and any number of additional parameters: metropolis walks through all of them from the first start
    that is not impossible, with the step of the one parameter for every coordinate, and records every position with
    its log probability.  The camera is left at the most probable position; the additional parameters are left at
    the last proposal, taken or not. *)
Theorem C63_one_parameter h b vals tries start s factor iterations burn draws : n = 1 -> reach h -> full h -> is_order ord -> objs h o = Some b ->
  (forall w, reads_only spline (fun g => lp g w)) -> (forall g w, lp g w <> NaN) -> (forall e, In e extra -> assoc e (table b) = None) ->
  List.length vals = List.length extra -> has_len (1 + List.length extra) start -> (forall i, has_len (1 + List.length extra) (tries i)) -> draws_len (1 + List.length extra) draws ->
  let f := at_position h in let st := repeat (factor * s)%num (1 + List.length extra) in
  exists h' vals', (metropolis_additional lp ord o names extra h vals tries start [s] factor iterations burn draws = (h', vals', ValueError) /\
     ((forall k, k < 1000 -> nisinf (f (start_at tries start k)) = true) \/
      exists k, k < 1000 /\ metropolis f (start_at tries start k) st iterations burn [] draws = [])) \/
  exists k, k < 1000 /\ (forall j, j < k -> nisinf (f (start_at tries start j)) = true) /\ nisinf (f (start_at tries start k)) = false /\
    let trace := metropolis f (start_at tries start k) st iterations burn [] draws in
    metropolis_additional lp ord o names extra h vals tries start [s] factor iterations burn draws = (h', vals', Ok trace) /\
    (forall t, In t trace -> s_prob t = f (s_pos t)) /\
    (exists s hx, In s trace /\ (forall t, In t trace -> (s_prob t <=? s_prob s)%num = true) /\
      set_position ord o names h (firstn n (s_pos s)) = (hx, true) /\ same_reads spline h' hx) /\
    let m := before_last f (start_at tries start k) st iterations burn draws in
    vals' = skipn n (propose (m_scale m) (m_pos m) st (d_t (draws (Z.to_nat (trunc iterations) - 1)))).
Proof.
  intros N1 HR HF HO Eb HL NN U LV LE LT LD f st. assert (EN : N = 1 + List.length extra) by (unfold N; rewrite app_length; fold n; rewrite N1; reflexivity).
  assert (X := sampled h b vals tries start [s] factor iterations burn draws st HR HF HO Eb HL NN U LV).
  rewrite EN in X. cbv zeta in X. apply X; auto.
  - unfold has_len, st. apply repeat_length.
  - unfold broadcast, st. cbn [map List.length plus repeat]. destruct (List.length extra) as [|k]; reflexivity.
Qed.
(** Without additional parameters this is the sampling of C46. *)
Theorem C63_no_additional h tries start steps factor iterations burn draws : extra = [] -> List.length steps = n -> has_len n start ->
  forall h' r, metropolis_method (fun g => lp g []) ord o names h tries start (map (fun s => (factor * s)%num) steps) iterations burn draws = (h', r) ->
  metropolis_additional lp ord o names extra h [] tries start steps factor iterations burn draws = (h', [], r).
Proof.
  intros E0 LS LE h' r. unfold metropolis_method, metropolis_additional, walk.
  assert (BC : broadcast (List.length start) (map (fun s => (factor * s)%num) steps) = Some (map (fun s => (factor * s)%num) steps)).
  { unfold broadcast. rewrite map_length, LS, LE, Nat.eqb_refl. reflexivity. }
  rewrite BC.
  assert (SP : forall h p, set_position ord o names h (firstn (List.length names) p) = set_position ord o names h p).
  { intros g p. unfold set_position. rewrite <- combine_firstn_l. reflexivity. }
  assert (V0 : forall new, set_values [] new = []) by reflexivity.
  assert (RUN : forall (A : Type) (s : strat A) h, value_run lp ord o names h [] s = (fst (heap_run (fun g => lp g []) ord o names h s), [], snd (heap_run (fun g => lp g []) ord o names h s))).
  { intros A s. induction s as [a|p k IH]; intros g; cbn [value_run heap_run]; [reflexivity|]. rewrite SP.
    destruct (set_position ord o names g p) as (g1, []); [|reflexivity]. rewrite V0. apply IH. }
  rewrite RUN. set (q := heap_run _ _ _ _ _ _). destruct q as (h1, [[trace|]|]); cbn [fst snd]; try (intros X; inversion X; reflexivity).
  destruct (idxmax trace) as [s|]; [|intros X; inversion X; reflexivity]. rewrite E0. unfold set_row. rewrite app_nil_r. fold (set_position ord o names h1 (s_pos s)).
  destruct (set_position ord o names h1 (s_pos s)) as (h2, ok). intros X; inversion X; reflexivity.
Qed.
(** Two or more parameters and an additional parameter: metropolis raises ValueError. *)
Theorem C63_raises h vals tries start steps factor iterations burn draws : reach h -> full h -> is_order ord -> objs h o <> None ->
  (forall w, reads_only spline (fun g => lp g w)) -> 2 <= n -> 1 <= List.length extra ->
  List.length vals = List.length extra -> has_len N start -> (forall i, has_len N (tries i)) -> List.length steps = n ->
  exists h' vals', metropolis_additional lp ord o names extra h vals tries start steps factor iterations burn draws = (h', vals', ValueError).
Proof.
  intros HR HF HO E HL N2 K1 LV LE LT LS. destruct (objs h o) as [b|] eqn:Eb; [|congruence].
  assert (BC : broadcast (List.length start) (map (fun s => (factor * s)%num) steps) = None).
  { unfold broadcast. rewrite map_length, LE, LS. assert (X : Nat.eqb n N = false) by (apply Nat.eqb_neq; unfold N; rewrite app_length; fold n; lia).
    rewrite X. destruct steps as [|s1 [|s2 steps]]; [cbn in LS; lia|cbn in LS; lia|reflexivity]. }
  set (prog := walk tries start steps factor iterations burn draws).
  assert (AS : asks N (fun r => r = None) prog).
  { unfold prog, walk. apply (asks_bind N (fun r => has_len N (fst r))); [apply asks_search; auto|].
    intros (p, [|q]) Hp; cbn [fst snd asks]; [reflexivity|]. rewrite BC. cbn [asks]. split; auto. }
  destruct (value_run_same h b HR HF HO Eb HL _ _ AS h vals (during_start names h b HR HF) LV) as (h1&Hh&_&Q).
  unfold metropolis_additional. fold prog. rewrite Hh, Q. eexists. eexists. reflexivity.
Qed.
End Props.

(** The mean and the standard deviation of a normal prior do not enter: metropolis gives the same for every choice. *)
Lemma ranges_normal {P} : forall ps qs : list (fit_parameter P), Forall normal_prior ps -> Forall normal_prior qs -> List.length ps = List.length qs ->
  ranges_of ps = ranges_of qs.
Proof.
  intros ps qs HP HQ L. revert qs HQ L. induction HP as [|p ps (m&s&v&Hp) HP IH]; intros [|q qs] HQ L; try discriminate; [reflexivity|].
  inversion HQ as [|? ? (m'&s'&v'&Hq) HQ']; subst. cbn [ranges_of]. rewrite (IH qs HQ' ltac:(cbn in L; congruence)).
  inversion Hp. inversion Hq. reflexivity.
Qed.
Theorem C63_priors {P} lp ord o names extra h vals (ps qs ps' qs' : list (fit_parameter P)) tries start steps factor iterations burn draws :
  Forall normal_prior (ps ++ qs) -> Forall normal_prior (ps' ++ qs') -> List.length ps = List.length ps' -> List.length qs = List.length qs' ->
  metropolis_call lp ord o names extra h vals ps qs tries start steps factor iterations burn draws =
  metropolis_call lp ord o names extra h vals ps' qs' tries start steps factor iterations burn draws.
Proof.
  intros H1 H2 L1 L2. unfold metropolis_call. rewrite (ranges_normal (ps ++ qs) (ps' ++ qs')); auto.
  rewrite !app_length. congruence.
Qed.
(** A parameter with a distribution of its own makes metropolis raise before the camera is touched. *)
Theorem C63_distribution {P} lp ord o names extra h vals (ps qs : list (fit_parameter P)) tries start steps factor iterations burn draws p d lower upper value mean std :
  FitParameter (Some d) lower upper value mean std = Ok p -> In p (ps ++ qs) ->
  metropolis_call lp ord o names extra h vals ps qs tries start steps factor iterations burn draws = (h, vals, Raised).
Proof.
  intros Hp Ip. unfold metropolis_call. rewrite ranges_of_raised; [reflexivity|]. exists p. split; [exact Ip|]. inversion Hp. reflexivity.
Qed.

(** ** Refutations *)
(** A term of one additional parameter that is sure for the value 1 and impossible for others. *)
Definition sigma_one (h : heapn) (v : list num) : num := match v with [Fin r] => if Reqb r 1 then Fin 0 else NInf | _ => NInf end.
Lemma sigma_one_reads spline w : reads_only spline (fun g => sigma_one g w).
Proof. intros g1 g2 _. reflexivity. Qed.
Lemma sigma_one_nan g w : sigma_one g w <> NaN.
Proof. unfold sigma_one. destruct w as [|[] [|]]; try discriminate. destruct (Reqb _ _); discriminate. Qed.
Lemma sigma_at f a c r : f = at_position sigma_one same_order 3 ["elevation_m"] exh -> rep c r -> r <> 0%R -> f [a; c] = if Reqb r 1 then Fin 0 else NInf.
Proof.
  intros -> Hc Hr. assert (X : c = Fin r); [|subst c; reflexivity].
  unfold rep, toR in Hc. destruct c; try discriminate; inversion Hc; subst; [reflexivity|exfalso; lra].
Qed.
(** Two samples; the second proposal is impossible and is not taken. *)
Definition two_draws (i : nat) : draw := match i with O => Draw [] [Fin 0; Fin 0] (Fin (1/2)) | _ => Draw [] [Fin 0; Fin 1] (Fin (1/2)) end.
(** After sampling, the object's log probability should be that of the most probable sample, to which it was set.
    With an additional parameter it is not: here all samples are sure, and the state after sampling is impossible. *)
Theorem C63_left_refuted : exists lp ord o names extra h b vals tries start s factor iterations burn draws h' vals' trace,
  List.length names = 1 /\ List.length extra = 1 /\ reach h /\ full h /\ is_order ord /\ objs h o = Some b /\
  (forall e, In e extra -> assoc e (table b) = None) /\
  metropolis_additional lp ord o names extra h vals tries start [s] factor iterations burn draws = (h', vals', Ok trace) /\
  trace <> [] /\ (forall t, In t trace -> s_prob t = Fin 0) /\ lp h' vals' = NInf.
Proof.
  destruct exh_ok as (R&F&E&_&_). destruct (objs exh 3) as [b|] eqn:Eb; [|congruence]. clear E. set (sp := fun (_ : list (num * num)) (x : num) => x).
  assert (U : forall e, In e ["sigma"] -> assoc e (table b) = None) by (vm_compute in Eb; inversion Eb; intros e [<-|[]]; vm).
  assert (X := C63_one_parameter sp sigma_one same_order 3 ["elevation_m"] ["sigma"] exh b [Fin 1] (fun _ => [Fin 5; Fin 1]) [Fin 5; Fin 1] (Fin 1) (Fin 1)
    (INR 2) 0%R two_draws eq_refl R F same_order_ok Eb (sigma_one_reads sp) sigma_one_nan U eq_refl eq_refl (fun _ => eq_refl)).
  assert (LD : draws_len 2 two_draws) by (intros [|i]; split; reflexivity).
  specialize (X LD). cbv zeta in X. set (f := at_position sigma_one same_order 3 ["elevation_m"] exh) in *.
  assert (SA : forall k, start_at (fun _ : nat => [Fin 5; Fin 1]) [Fin 5; Fin 1] k = [Fin 5; Fin 1]) by (intros [|k]; reflexivity).
  assert (F1 : f [Fin 5; Fin 1] = Fin 0) by (rewrite (sigma_at f _ _ 1%R eq_refl (rep_Fin 1) R1_neq_R0), Reqb_11; reflexivity).
  set (st := repeat (Fin 1 * Fin 1)%num (1 + @List.length name ["sigma"])) in *.
  set (m0 := start_state f [Fin 5; Fin 1] []) in *. set (m1 := iterate f st 0 two_draws m0 0).
  assert (M1 : exists a c, m_pos m1 = [a; c] /\ rep c 1 /\ m_scale m1 = 1%R /\ m_prob m1 = Fin 0).
  { assert (SC : m_scale m1 = 1%R) by (unfold m1, iterate; destruct (accepts _ _ _); reflexivity).
    destruct (iterate_pos f st 0 two_draws m0 0) as [(_&P&Q)|(_&P&Q)]; fold m1 in P, Q.
    - rewrite P, Q. cbn [two_draws d_t d_prior]. unfold st, m0, start_state. cbn [m_scale m_pos List.length plus repeat propose app].
      assert (RC : rep (Fin 1 + Fin 1 * (Fin 1 * Fin 1) * Fin 0)%num 1).
      { apply (rep_eq _ (1 + 1 * (1 * 1) * 0)%R); [repeat (apply rep_add || apply rep_mul || apply rep_Fin)|ring]. }
      eexists. eexists. split; [reflexivity|]. split; [exact RC|]. split; [exact SC|].
      rewrite (sigma_at f _ _ 1%R eq_refl RC R1_neq_R0), Reqb_11. reflexivity.
    - rewrite P, Q. exists (Fin 5), (Fin 1). split; [reflexivity|]. split; [apply rep_Fin|]. split; [exact SC|]. exact F1. }
  destruct M1 as (a&c&MP&Hc&MS&MB).
  assert (PV : exists y z, propose (m_scale m1) (m_pos m1) st (d_t (two_draws 1)) = [y; z] /\ rep z 2).
  { rewrite MP, MS. unfold st. cbn [List.length plus repeat propose two_draws d_t]. eexists. eexists. split; [reflexivity|].
    apply (rep_eq _ (1 + 1 * (1 * 1) * 1)%R); [apply rep_add; [exact Hc|repeat (apply rep_mul || apply rep_Fin)]|ring]. }
  destruct PV as (y&z&PV&Hz).
  assert (FN : f [y; z] = NInf) by (rewrite (sigma_at f _ _ 2%R eq_refl Hz ltac:(lra)), Reqb_21; reflexivity).
  set (m2 := iterate f st 0 two_draws m1 1).
  assert (M2 : m_prob m2 = Fin 0).
  { destruct (iterate_pos f st 0 two_draws m1 1) as [(A&_&_)|(_&_&Q)]; [|fold m2 in Q; rewrite Q; exact MB].
    exfalso. rewrite PV in A. change (d_prior (two_draws 1)) with (@nil num) in A. rewrite app_nil_r, FN, MB in A.
    destruct (accept_finite NInf (Fin 0) _ 0 (1/2) (rep_Fin 0) (rep_Fin (1/2)) ltac:(lra) ltac:(discriminate) A) as (q&Hq). discriminate Hq. }
  assert (TR : metropolis f [Fin 5; Fin 1] st (INR 2) 0 [] two_draws = [Sample (m_pos m2) [] (m_prob m2)]).
  { unfold metropolis. rewrite burn_zero, trunc_nat, Nat2Z.id. cbn [seq]. unfold run_loop. cbn [fold_left]. fold m0. fold m1. fold m2.
    unfold m2 at 1. rewrite iterate_trace. unfold m1 at 1. rewrite iterate_trace. reflexivity. }
  destruct X as (h'&vals'&[(_&[Z|(k&_&Z)])|(k&K&_&_&Z&_&_&V)]).
  - exfalso. specialize (Z 0 ltac:(lia)). rewrite SA, F1 in Z. discriminate.
  - exfalso. rewrite SA, TR in Z. discriminate.
  - rewrite SA in Z, V. rewrite TR in Z.
    exists sigma_one, same_order, 3, ["elevation_m"], ["sigma"], exh, b, [Fin 1], (fun _ => [Fin 5; Fin 1]), [Fin 5; Fin 1], (Fin 1), (Fin 1), (INR 2), 0%R, two_draws, h', vals'.
    eexists. split; [reflexivity|]. split; [reflexivity|]. split; [exact R|]. split; [exact F|]. split; [exact same_order_ok|]. split; [exact Eb|]. split; [exact U|].
    split; [exact Z|]. split; [discriminate|]. split; [intros t [<-|[]]; exact M2|].
    rewrite V. unfold before_last. rewrite burn_zero, trunc_nat, Nat2Z.id. cbn [Nat.sub seq]. unfold run_loop. cbn [fold_left]. fold m0. fold m1. rewrite PV.
    exact FN.
Qed.
(** A term that is better for the value 1 of the additional parameter than for any other. *)
Definition sigma_best (h : heapn) (v : list num) : num := match v with [Fin r] => if Reqb r 1 then Fin 0 else Fin (-1) | _ => Fin (-1) end.
(** fit should find the additional parameters too.  It does not: whatever the minimiser, they keep their values, and
    another value of the additional parameter is more probable. *)
Theorem C63_fit_refuted : exists lp ord o names h vals, reach h /\ full h /\ is_order ord /\ objs h o <> None /\
  (exists draws est minimize h' x, fit_additional lp ord o names h vals draws est minimize = (h', vals, Ok x)) /\
  (forall draws est minimize h' vals' x, fit_additional lp ord o names h vals draws est minimize = (h', vals', Ok x) ->
    vals' = vals /\ exists w, List.length w = List.length vals' /\ (lp h' vals' <? lp h' w)%num = true).
Proof.
  destruct exh_ok as (R&F&E&_&_). set (sp := fun (_ : list (num * num)) (x : num) => x).
  exists sigma_best, same_order, 3, ["elevation_m"], exh, [Fin 2].
  split; [exact R|]. split; [exact F|]. split; [exact same_order_ok|]. split; [exact E|]. split.
  - exists (fun _ => [Fin 5]), [Fin 5], (fun p => Done p).
    destruct (C47_fit sp (fun g => sigma_best g [Fin 2]) same_order 3 ["elevation_m"] exh (fun _ => [Fin 5]) [Fin 5] (fun p => Done p) R F same_order_ok E (fun _ _ _ => eq_refl) eq_refl (fun _ => eq_refl) (fun p Hp => Hp))
      as [(A&_)|(k&x&h'&K&A&B&X&Y&_)].
    + exfalso. specialize (A 0 ltac:(lia)). unfold objective, sigma_best in A. rewrite Reqb_21 in A. discriminate.
    + exists h', x. unfold fit_additional. rewrite Y. reflexivity.
  - intros draws est minimize h' vals' x. unfold fit_additional. destruct (fit _ _ _ _ _ _ _ _) as (h1, r). intros X. inversion X; subst. split; [reflexivity|].
    exists [Fin 1]. split; [reflexivity|]. unfold sigma_best. rewrite Reqb_21, Reqb_11. rewrite (rep_ltb _ _ (-1) 0 (rep_Fin _) (rep_Fin _)). apply Rltb_true. lra.
Qed.
(** A camera with two parameters and a term with one additional parameter cannot be sampled. *)
Example C63_example : exists h' vals',
  metropolis_additional sigma_one same_order 3 ["elevation_m"; "heading_deg"] ["sigma"] exh [Fin 1] (fun _ => [Fin 5; Fin 0; Fin 1]) [Fin 5; Fin 0; Fin 1]
    [Fin 1; Fin 1] (Fin 1) (INR 100) 0%R (fun _ => Draw [] [Fin 0; Fin 0; Fin 0] (Fin (1/2))) = (h', vals', ValueError).
Proof.
  destruct exh_ok as (R&F&E&_&_). set (sp := fun (_ : list (num * num)) (x : num) => x).
  apply (C63_raises sp); auto using same_order_ok; try (exact (sigma_one_reads sp)); intros; reflexivity.
Qed.
Print Assumptions C63_one_parameter.
Print Assumptions C63_no_additional.
Print Assumptions C63_raises.
Print Assumptions C63_priors.
Print Assumptions C63_distribution.
Print Assumptions C63_left_refuted.
Print Assumptions C63_fit_refuted.
