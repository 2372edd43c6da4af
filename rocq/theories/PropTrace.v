(** * C67: sampling cameras from a trace *)
Require Import Reals Lra List Bool String Arith NArith QArith Qreals Lia ZArith.
From Verif Require Import Num Orientation Projection Ray CameraTransform Param ParamFacts ParamOps ParamSteps ParamReach ParamCam ParamLaws.
From Verif Require Import ParamMap PropParam ParamCheck ParamExamples ParamTotal PropTotal PropFit Metropolis PropMetropolis LogProb PropLogProb Fit PropFitRun Trace.
Import ListNotations.
Open Scope nat_scope.
Open Scope string_scope.

Implicit Types h : heapn.

(** ** Rows by their label *)
Lemma row_seq l : forall a r, filter (fun p : nat * sample => Nat.eqb (fst p) r) (combine (seq a (List.length l)) l) =
  match nth_error l (r - a) with Some s => if Nat.leb a r then [(r, s)] else [] | None => [] end.
Proof.
  induction l as [|s l IH]; intros a r; cbn [List.length seq combine filter]; [destruct (r - a); reflexivity|].
  rewrite IH. cbn [fst]. destruct (Nat.eqb_spec a r) as [->|N].
  - rewrite Nat.sub_diag. cbn [nth_error]. rewrite Nat.leb_refl.
    replace (Nat.leb (S r) r) with false by (symmetry; apply Nat.leb_gt; lia).
    destruct (nth_error l (r - S r)); reflexivity.
  - destruct (Nat.leb_spec a r).
    + replace (r - a) with (S (r - S a)) by lia. cbn [nth_error].
      destruct (nth_error l (r - S a)); [|reflexivity]. replace (Nat.leb (S a) r) with true by (symmetry; apply Nat.leb_le; lia). reflexivity.
    + destruct (nth_error l (r - S a)), (nth_error (s :: l) (r - a)); try reflexivity; replace (Nat.leb (S a) r) with false by (symmetry; apply Nat.leb_gt; lia); reflexivity.
Qed.
Lemma row_frame names l r : row_at (frame_of names l) r = nth_error l r.
Proof.
  unfold row_at, frame_of. cbn [f_index f_rows]. rewrite row_seq, Nat.sub_0_r. destruct (nth_error l r); reflexivity.
Qed.
Lemma best_fold l : forall q : option (nat * sample), Forall (fun p : nat * sample => s_prob (snd p) <> NaN) l ->
  forall b, q = Some b -> 
  option_map snd (fold_left (fun b p => if nisnan (s_prob (snd p)) then b else
    match b with None => Some p | Some q => if (s_prob (snd q) <? s_prob (snd p))%num then Some p else b end) l q) =
  Some (fold_left better (map snd l) (snd b)) /\
  (forall c, fold_left (fun b p => if nisnan (s_prob (snd p)) then b else
    match b with None => Some p | Some q => if (s_prob (snd q) <? s_prob (snd p))%num then Some p else b end) l q = Some c -> c = b \/ In c l).
Proof.
  induction l as [|p l IH]; intros q F b ->; cbn [fold_left map option_map]; [split; [reflexivity|intros c E; left; congruence]|].
  inversion_clear F as [|? ? N F']. assert (nisnan (s_prob (snd p)) = false) as -> by (destruct (s_prob (snd p)); auto; congruence).
  unfold better at 2. destruct (s_prob (snd b) <? s_prob (snd p))%num.
  - destruct (IH (Some p) F' p eq_refl) as (E&I1). split; [exact E|]. intros c C. destruct (I1 c C) as [->|X]; simpl; auto.
  - destruct (IH (Some b) F' b eq_refl) as (E&I1). split; [exact E|]. intros c C. destruct (I1 c C) as [->|X]; simpl; auto.
Qed.
Lemma combine_seq_nth (l : list sample) : forall a i s, In (i, s) (combine (seq a (List.length l)) l) -> a <= i /\ nth_error l (i - a) = Some s.
Proof.
  induction l as [|t l IH]; intros a i s; cbn [List.length seq combine]; [intros []|]. intros [E|I1].
  - injection E as -> ->. rewrite Nat.sub_diag. auto.
  - destruct (IH _ _ _ I1) as (L&E). split; [lia|]. replace (i - a) with (S (i - S a)) by lia. exact E.
Qed.
Lemma map_snd_combine (l : list sample) a : map snd (combine (seq a (List.length l)) l) = l.
Proof. revert a. induction l; intros; cbn [List.length seq combine map snd]; f_equal; auto. Qed.
(** The label of the most probable row leads to this row. *)
Lemma best_frame names l s : (forall t, In t l -> s_prob t <> NaN) -> idxmax l = Some s ->
  exists k, best_label (frame_of names l) = Some k /\ row_at (frame_of names l) k = Some s.
Proof.
  intros NN E. destruct l as [|s0 l]; [discriminate|]. cbn [idxmax] in E.
  unfold best_label, frame_of. cbn [f_index f_rows List.length seq combine fold_left snd].
  assert (nisnan (s_prob s0) = false) as -> by (pose proof (NN s0 (or_introl eq_refl)); destruct (s_prob s0); auto; congruence).
  destruct (best_fold (combine (seq 1 (List.length l)) l) (Some (0, s0)) ltac:(
    apply Forall_forall; intros (i, t) I1; apply NN; right; apply (in_combine_r _ _ _ _ I1)) (0, s0) eq_refl) as (B1&B2).
  cbn [snd] in B1. rewrite map_snd_combine in B1.
  match type of B1 with option_map snd ?x = _ => destruct x as [(k&t)|] eqn:EF end; [|discriminate].
  cbn [option_map snd] in B1. exists k. split; [reflexivity|].
  change (row_at (frame_of names (s0 :: l)) k = Some s). rewrite row_frame.
  assert (t = s) as <- by congruence.
  destruct (B2 _ eq_refl) as [X|X].
  - injection X as -> ->. reflexivity.
  - destruct (combine_seq_nth _ _ _ _ X) as (L&N). replace k with (S (k - 1)) by lia. exact N.
Qed.

Section Props.
Context (spline : list (num * num) -> num -> num) (lp : heapn -> num) (ord : list cb -> list cb) (o : oid) (names : list name).
Let n := List.length names.
(** The state and the trace after metropolis() *)
Lemma method_trace h b tries start step iterations burn draws h' trace : reach h -> full h -> is_order ord -> objs h o = Some b -> reads_only spline lp ->
  (forall g, lp g <> NaN) -> has_len n start -> (forall i, has_len n (tries i)) -> has_len n step -> draws_len n draws ->
  metropolis_method lp ord o names h tries start step iterations burn draws = (h', Ok trace) ->
  during names h b h' /\ Forall (fun s => has_len n (s_pos s) /\ s_prob s = objective lp ord o names h (s_pos s)) trace /\
  exists s hx, idxmax trace = Some s /\ In s trace /\ set_position ord o names h (s_pos s) = (hx, true) /\ same_reads spline h' hx.
Proof.
  intros HR HF HO Eb HL NN LE LT LS LD.
  set (prog := sbind (search tries max_tries start) (fun r => match snd r with O => Done None | S _ => sbind (metropolis_strat (fst r) step iterations burn draws) (fun t => Done (Some t)) end)).
  assert (AS : asks n (fun r => match r with Some t => Forall (fun s => has_len n (s_pos s)) t | None => True end) prog).
  { unfold prog. apply (asks_bind n (fun r => has_len n (fst r))); [apply asks_search; auto|].
    intros (p, [|q]) Hp; cbn [fst snd asks]; [exact I|]. eapply asks_bind; [apply asks_metropolis; auto|]. intros x Hx. exact Hx. }
  destruct (run_same spline lp ord o names h b HR HF HO Eb HL _ _ AS h (during_start names h b HR HF)) as (h1&Hh&D&Q).
  unfold metropolis_method. fold prog. rewrite Hh. set (f := objective lp ord o names h) in *.
  assert (RC : forall t, pure_run f prog = Some t -> Forall (fun s => s_prob s = f (s_pos s)) t).
  { intros t. unfold prog. rewrite pure_bind. destruct (snd _); cbn [pure_run]; [discriminate|].
    rewrite pure_bind, pure_metropolis. cbn [pure_run].
    match goal with |- Some ?m = _ -> _ => assert (G : Forall (fun s => s_prior s = [] /\ s_prob s = f (s_pos s)) m)
      by (apply C46_recorded; intros i; exact (proj2 (LD i))); generalize dependent m end.
    intros m G E. assert (m = t) as <- by congruence. eapply Forall_impl; [|exact G]. intros s (_&X). exact X. }
  destruct (pure_run f prog) as [t|]; [|discriminate]. specialize (RC t eq_refl).
  destruct (idxmax t) as [s|] eqn:ES; [|discriminate].
  assert (Is : In s t).
  { assert (NZ : forall x, In x t -> s_prob x <> NaN) by (intros x Ix; rewrite Forall_forall in RC; rewrite (RC x Ix); apply NN).
    destruct (idxmax_spec t NZ) as (s'&E'&I'&_); [destruct t; discriminate|]. assert (s' = s) as <- by congruence. exact I'. }
  assert (Ls : has_len n (s_pos s)) by (rewrite Forall_forall in Q; apply Q, Is).
  destruct (step_set ord o names h b HO Eb h1 (s_pos s) D Ls) as (h2&HS&D2). rewrite HS.
  intros E. assert (h2 = h' /\ t = trace) as (->&->) by (split; congruence).
  destruct (step_set ord o names h b HO Eb h (s_pos s) (during_start names h b HR HF) Ls) as (hx&HSx&Dx).
  split; [exact D2|]. split.
  - rewrite Forall_forall in *. intros x Ix. auto.
  - exists s, hx. split; [exact ES|]. split; [exact Is|]. split; [exact HSx|]. apply (same_rdl spline names h b); auto.
    exact (step_same ord o names h b HO Eb h1 h (s_pos s) h' hx D (during_start names h b HR HF) Ls HS HSx).
Qed.
Section After.
Context (h : heapn) (b : obj num) (trace : list sample).
Hypothesis HR : reach h.
Hypothesis HF : full h.
Hypothesis HO : is_order ord.
Hypothesis Eb : objs h o = Some b.
Hypothesis HL : reads_only spline lp.
Hypothesis RC : Forall (fun s => has_len n (s_pos s) /\ s_prob s = objective lp ord o names h (s_pos s)) trace.
Lemma step_row g s : during names h b g -> In s trace ->
  exists g1 hx, set_position ord o names g (s_pos s) = (g1, true) /\ during names h b g1 /\ lp g1 = s_prob s /\
    set_position ord o names h (s_pos s) = (hx, true) /\ same_reads spline g1 hx.
Proof.
  intros D Is. rewrite Forall_forall in RC. destruct (RC s Is) as (Ls&E).
  destruct (step_set ord o names h b HO Eb g (s_pos s) D Ls) as (g1&HS&D1).
  destruct (step_set ord o names h b HO Eb h (s_pos s) (during_start names h b HR HF) Ls) as (hx&HSx&Dx).
  assert (SR : same_reads spline g1 hx).
  { apply (same_rdl spline names h b); auto. exact (step_same ord o names h b HO Eb g h (s_pos s) g1 hx D (during_start names h b HR HF) Ls HS HSx). }
  exists g1, hx. split; [exact HS|]. split; [exact D1|]. split; [|split; [exact HSx|exact SR]].
  rewrite E. unfold objective. rewrite HSx. cbn [fst]. apply HL. exact SR.
Qed.
Lemma op_during g op : during names h b g -> during names h b (trace_step ord o (frame_of names trace) g op).
Proof.
  intros D. destruct op as [r|]; cbn [trace_step].
  - unfold trace_sample. cbn [f_rows frame_of]. destruct trace as [|s0 l] eqn:ET; [exact D|]. rewrite <- ET in *. rewrite row_frame.
    destruct (nth_error trace r) as [s|] eqn:ES; [|exact D]. apply nth_error_In in ES.
    destruct (step_row g s D ES) as (g1&hx&HS&D1&_). unfold set_frame_row. cbn [frame_of f_names]. unfold set_position in HS. rewrite HS. exact D1.
  - unfold trace_mean. cbn [f_rows frame_of]. destruct trace as [|s0 l] eqn:ET; [exact D|]. rewrite <- ET in *.
    destruct (best_label _) as [k|]; [|exact D]. rewrite row_frame.
    destruct (nth_error trace k) as [s|] eqn:ES; [|exact D]. apply nth_error_In in ES.
    destruct (step_row g s D ES) as (g1&hx&HS&D1&_). unfold set_frame_row. cbn [frame_of f_names]. unfold set_position in HS. rewrite HS. exact D1.
Qed.
Lemma run_during ops : forall g, during names h b g -> during names h b (trace_run ord o (frame_of names trace) g ops).
Proof. induction ops as [|op ops IH]; intros g D; cbn; [exact D|]. apply IH, op_during, D. Qed.
End After.

(** After metropolis(), however often sample() and set_to_mean() have been called: sample() with the random number r
    sets the camera to the r-th sample, and returns the log probability of the camera as it is then.  Everything
    reads as if this sample alone had been set before the sampling. *)
Theorem C67_sample h tries start step iterations burn draws h' trace ops r : reach h -> full h -> is_order ord -> objs h o <> None -> reads_only spline lp ->
  (forall g, lp g <> NaN) -> has_len n start -> (forall i, has_len n (tries i)) -> has_len n step -> draws_len n draws ->
  metropolis_method lp ord o names h tries start step iterations burn draws = (h', Ok trace) -> r < List.length trace ->
  exists s h2 hx, nth_error trace r = Some s /\
    trace_sample ord o (trace_run ord o (frame_of names trace) h' ops) (frame_of names trace) r = (h2, Ok (s_prob s)) /\
    lp h2 = s_prob s /\ set_position ord o names h (s_pos s) = (hx, true) /\ same_reads spline h2 hx.
Proof.
  intros HR HF HO E HL NN LE LT LS LD HM Lr. destruct (objs h o) as [b|] eqn:Eb; [|congruence].
  destruct (method_trace h b tries start step iterations burn draws h' trace HR HF HO Eb HL NN LE LT LS LD HM) as (D&RC&_).
  destruct (nth_error trace r) as [s|] eqn:ES; [|apply nth_error_None in ES; lia].
  pose proof (run_during h b trace HR HF HO Eb HL RC ops h' D) as D1.
  destruct (step_row h b trace HR HF HO Eb HL RC _ s D1 (nth_error_In _ _ ES)) as (g1&hx&HS&D2&P&HSx&SR).
  exists s, g1, hx. split; [reflexivity|]. split; [|auto].
  unfold trace_sample. cbn [f_rows frame_of]. destruct trace as [|s0 l] eqn:ET; [destruct r; discriminate|]. rewrite <- ET in *.
  rewrite row_frame, ES. unfold set_frame_row. cbn [frame_of f_names]. unfold set_position in HS. rewrite HS. reflexivity.
Qed.
(** set_to_mean() brings the camera back to the state it has after metropolis(), the most probable sample. *)
Theorem C67_mean h tries start step iterations burn draws h' trace ops : reach h -> full h -> is_order ord -> objs h o <> None -> reads_only spline lp ->
  (forall g, lp g <> NaN) -> has_len n start -> (forall i, has_len n (tries i)) -> has_len n step -> draws_len n draws ->
  metropolis_method lp ord o names h tries start step iterations burn draws = (h', Ok trace) ->
  exists h2, trace_mean ord o (trace_run ord o (frame_of names trace) h' ops) (frame_of names trace) = (h2, Ok tt) /\ same_reads spline h2 h' /\
    forall s, In s trace -> (s_prob s <=? lp h2)%num = true.
Proof.
  intros HR HF HO E HL NN LE LT LS LD HM. destruct (objs h o) as [b|] eqn:Eb; [|congruence].
  destruct (method_trace h b tries start step iterations burn draws h' trace HR HF HO Eb HL NN LE LT LS LD HM) as (D&RC&s&hy&ES&Is&HSy&SRy).
  pose proof (run_during h b trace HR HF HO Eb HL RC ops h' D) as D1.
  destruct (step_row h b trace HR HF HO Eb HL RC _ s D1 Is) as (g1&hx&HS&D2&P&HSx&SR).
  assert (NZ : forall x, In x trace -> s_prob x <> NaN) by (intros x Ix; rewrite Forall_forall in RC; rewrite (proj2 (RC x Ix)); apply NN).
  destruct (best_frame names trace s NZ ES) as (k&K1&K2).
  exists g1. split; [|split].
  - unfold trace_mean. cbn [f_rows frame_of]. destruct trace as [|s0 l] eqn:ET; [discriminate|]. rewrite <- ET in *.
    rewrite K1, K2. unfold set_frame_row. cbn [frame_of f_names]. unfold set_position in HS. rewrite HS. reflexivity.
  - assert (hx = hy) as <- by congruence. destruct SR as (A1&A2). destruct SRy as (B1&B2). split; intros; [rewrite A1, B1|rewrite A2, B2]; reflexivity.
  - rewrite P. destruct (idxmax_spec trace NZ) as (s'&E'&_&M); [destruct trace; discriminate|]. assert (s' = s) as <- by congruence. exact M.
Qed.
End Props.

(** ** Any trace *)
(** sample() sets the named parameters to the row with the drawn label and leaves every other parameter as it is, also
    one that has a mean and a standard deviation (set_trace takes precedence over the statistics of C39). *)
Theorem C67_values ord o h f r h' p b o' n' l : reach h -> is_order ord -> objs h o = Some b ->
  trace_sample ord o h f r = (h', Ok p) -> reads h o' n' l -> (proj_loc h l && is_f (l_name l)) = false ->
  exists s, In (r, s) (combine (f_index f) (f_rows f)) /\ p = s_prob s /\
    get_num h' o' n' = match last_for (table b) l (combine (f_names f) (s_pos s)) with Some v => Some (in_range h l v) | None => get_num h o' n' end.
Proof.
  intros HR HO E HS Rd NF. unfold trace_sample in HS. destruct (f_rows f) as [|s0 rows] eqn:ER; [discriminate|]. rewrite <- ER in *.
  destruct (row_at f r) as [s|] eqn:EA; [|discriminate]. destruct (set_frame_row ord o h f s) as [h1 []] eqn:EF; [|discriminate].
  assert (h1 = h' /\ s_prob s = p) as (->& <-) by (split; congruence). exists s. split; [|split; [reflexivity|]].
  - unfold row_at in EA. destruct (filter _ _) as [|(i&t) [|]] eqn:EL; try discriminate. injection EA as ->.
    assert (I1 : In (i, s) [(i, s)]) by (left; auto). rewrite <- EL in I1. apply filter_In in I1. destruct I1 as (I1&I2). cbn [fst] in I2.
    apply Nat.eqb_eq in I2. subst i. exact I1.
  - exact (C40_set_fit ord h o _ h' b o' n' l HR HO E EF Rd NF).
Qed.
(** It works exactly if the drawn number is the label of one row. *)
Theorem C67_label ord o h f r : reach h -> full h -> is_order ord -> objs h o <> None -> f_rows f <> [] ->
  ((exists h' p, trace_sample ord o h f r = (h', Ok p)) <->
   exists before s after, combine (f_index f) (f_rows f) = (before ++ (r, s) :: after)%list /\ ~ In r (map fst before) /\ ~ In r (map fst after)).
Proof.
  intros HR HF HO E NE. destruct (objs h o) as [b|] eqn:Eb; [|congruence]. destruct (reach_inv h HR) as (HI&_).
  assert (NF : forall l : list (nat * sample), filter (fun p => Nat.eqb (fst p) r) l = [] <-> ~ In r (map fst l)).
  { induction l as [|(i&s) l IH]; cbn; [tauto|]. destruct (Nat.eqb_spec i r); [subst; split; [discriminate|intros X; exfalso; auto]|]. rewrite IH. tauto. }
  assert (ROW : (exists s, row_at f r = Some s) <-> exists before s after, combine (f_index f) (f_rows f) = (before ++ (r, s) :: after)%list /\ ~ In r (map fst before) /\ ~ In r (map fst after)).
  { unfold row_at. generalize (combine (f_index f) (f_rows f)) as l. intros l. split.
    - intros (s&H). destruct (filter _ l) as [|(i&t) [|]] eqn:EL; try discriminate. clear H s.
      induction l as [|(j&u) l IH]; [discriminate|]. cbn [filter fst] in EL. destruct (Nat.eqb_spec j r) as [->|N].
      + injection EL as -> -> EL. exists [], t, l. split; [reflexivity|]. split; [intros []|]. apply NF, EL.
      + destruct (IH EL) as (before&s&after&->&B&A). exists ((j, u) :: before), s, after. split; [reflexivity|]. split; [|exact A]. cbn. intros [X|X]; auto.
    - intros (before&s&after&->&B&A). exists s. rewrite filter_app. apply NF in B. apply NF in A. cbn [filter fst]. rewrite Nat.eqb_refl, B, A. reflexivity. }
  rewrite <- ROW. unfold trace_sample. destruct (f_rows f) as [|s0 rows] eqn:ER; [congruence|]. split.
  - intros (h'&p&H). destruct (row_at f r) as [s|]; [eauto|discriminate].
  - intros (s&->). destruct (full_set_fit wrapn wrapn_ok ord h o (combine (f_names f) (s_pos s)) b HO HI HF Eb) as (h1&HS&_).
    unfold set_frame_row. rewrite HS. eauto.
Qed.
(** so a trace from which the first rows have been cut off cannot be sampled: the rows keep their labels. *)
Theorem C67_cut_refuted : exists ord o h names (s0 s1 : sample), reach h /\ full h /\ is_order ord /\ objs h o <> None /\
  (exists h' p, trace_sample ord o h (frame_of names [s0; s1]) 0 = (h', Ok p)) /\
  let cut := Frame [1] names [s1] in trace_sample ord o h cut 0 = (h, Raised).
Proof.
  destruct exh_ok as (R&F&E&_).
  exists same_order, 3, exh, ["elevation_m"], (Sample [Fin 1] [] (Fin 0)), (Sample [Fin 2] [] (Fin 0)).
  split; [exact R|]. split; [exact F|]. split; [exact same_order_ok|]. split; [exact E|]. split; [|reflexivity].
  apply C67_label; auto; [apply same_order_ok|discriminate|]. exists [], (Sample [Fin 1] [] (Fin 0)), [(1, Sample [Fin 2] [] (Fin 0))].
  split; [reflexivity|]. cbn. split; [tauto|]. intros [X|[]]. discriminate.
Qed.

(** ** Example: two samples of a camera of fixed elevation 1 *)
Example C67_example :
  let draws := fun _ : nat => Draw [] [Fin 0] (Fin (1/2)) in
  exists h' trace, reach exh /\ full exh /\ objs exh 3 <> None /\ (forall g, at_one g <> NaN) /\ draws_len 1 draws /\
    metropolis_method at_one same_order 3 ["elevation_m"] exh (fun _ => [Fin 1]) [Fin 1] [Fin 1] (INR 3) 0 draws = (h', Ok trace) /\ List.length trace = 2.
Proof.
  intros draws. destruct exh_ok as (R&F&E&_). set (sp := fun (_ : list (num * num)) (x : num) => x).
  assert (NN : forall g, at_one g <> NaN).
  { intros g. unfold at_one. destruct (get_num g 3 "elevation_m") as [[r| | | |]|]; try discriminate. destruct (Reqb r 1); discriminate. }
  assert (LD : draws_len 1 draws) by (intros i; split; reflexivity).
  assert (LEN : forall f start, List.length (metropolis f start [Fin 1] (INR 3) 0 [] draws) = 2).
  { intros f start. rewrite (C46_length f start [Fin 1] (INR 3) 0 [] draws 3 0); [reflexivity|rewrite trunc_nat; apply Nat2Z.id|apply burn_zero]. }
  destruct (C46_method sp at_one same_order 3 ["elevation_m"] exh (fun _ => [Fin 1]) [Fin 1] [Fin 1] (INR 3) 0 draws R F same_order_ok E (at_one_reads sp) NN eq_refl (fun _ => eq_refl) eq_refl LD)
    as (h'&[(_&[A|(k&_&A)])|(k&_&_&_&A&_)]).
  - exfalso. specialize (A 0 ltac:(lia)). cbn [start_at] in A. rewrite ex_objective, Reqb_11 in A. discriminate.
  - exfalso. specialize (LEN (objective at_one same_order 3 ["elevation_m"] exh) (start_at (fun _ => [Fin 1]) [Fin 1] k)). rewrite A in LEN. discriminate.
  - eexists h', _. split; [exact R|]. split; [exact F|]. split; [exact E|]. split; [exact NN|]. split; [exact LD|]. split; [exact A|]. apply LEN.
Qed.
(** A trace with the labels 5 and 6: the draw 6 takes the second row. *)
Example C67_values_example :
  let f := Frame [5; 6] ["elevation_m"] [Sample [Fin 1] [] (Fin 0); Sample [Fin 2] [] (Fin (-1))] in
  exists h', trace_sample same_order 3 exh f 6 = (h', Ok (Fin (-1))) /\ get_num h' 3 "elevation_m" = Some (Fin 2).
Proof.
  intros f. destruct exh_ok as (R&F&E&_). destruct (objs exh 3) as [b|] eqn:Eb; [|congruence].
  destruct (step_set same_order 3 ["elevation_m"] exh b same_order_ok Eb exh [Fin 2] (during_start _ _ _ R F) eq_refl) as (h1&HS&_).
  exists h1. split; [|exact (set_elevation _ _ HS)].
  unfold trace_sample, row_at, f. cbn [f_rows f_index combine filter fst Nat.eqb]. unfold set_frame_row. cbn [f_names s_pos].
  unfold set_position in HS. rewrite HS. reflexivity.
Qed.
Print Assumptions C67_sample.
Print Assumptions C67_mean.
Print Assumptions C67_values.
Print Assumptions C67_label.
Print Assumptions C67_cut_refuted.
