(** * C72: what the calibration window fits and shows *)
Require Import Reals Lra List Bool String Arith NArith Lia.
From Verif Require Import Num Vec Calibration CalibWindow.
Import ListNotations.
Open Scope list_scope.
Open Scope nat_scope.

(** ** Facts *)
Lemma nth_update {A} i (f : A -> A) l j : nth_error (update i f l) j = if Nat.eqb i j then option_map f (nth_error l j) else nth_error l j.
Proof.
  revert i j. induction l as [|a l IH]; intros i j; [destruct i, j; cbn; try reflexivity; destruct (Nat.eqb _ _); reflexivity|].
  destruct i, j; cbn [update nth_error Nat.eqb]; try reflexivity. apply IH.
Qed.
Lemma length_update {A} i (f : A -> A) l : List.length (update i f l) = List.length l.
Proof. revert i. induction l as [|a l IH]; intros [|i]; cbn; auto. Qed.
Lemma replace_in k t ts x : In x (replace_thread k t ts) -> In x ts \/ Some x = t.
Proof.
  unfold replace_thread. rewrite !in_app_iff. intros [I|[I|I]].
  - left. rewrite <- (firstn_skipn k ts). apply in_or_app; auto.
  - destruct t; [|destruct I]. destruct I as [<-|[]]. auto.
  - left. rewrite <- (firstn_skipn (S k) ts). apply in_or_app; auto.
Qed.
Lemma in_replace k t ts x : In x ts -> nth_error ts k = Some x \/ In x (replace_thread k t ts).
Proof.
  intros I. apply In_nth_error in I. destruct I as (j&E). destruct (Nat.eq_dec j k) as [->|N]; [auto|]. right.
  unfold replace_thread. rewrite !in_app_iff. destruct (Nat.lt_ge_cases j k) as [L|L].
  - left. apply (nth_error_In _ j). rewrite nth_error_app1 || idtac. rewrite <- E. revert ts j E L N. induction k as [|k IH]; intros [|a ts] [|j] E L N; cbn in *; try lia; try discriminate; auto. apply IH; auto; lia.
  - right; right. apply (nth_error_In _ (j - S k)). rewrite <- E. clear t. revert ts j E L N. induction k as [|k IH]; intros ts j E L N.
    + destruct ts as [|a ts]; [destruct j; discriminate|]. destruct j as [|j]; [lia|]. cbn. f_equal. lia.
    + destruct ts as [|a ts]; [destruct j; discriminate|]. destruct j as [|j]; [lia|]. cbn in E. cbn [skipn nth_error Nat.sub]. apply IH; auto; lia.
Qed.
Lemma new_in k t ts : In t (replace_thread k (Some t) ts).
Proof. unfold replace_thread. rewrite !in_app_iff. cbn. auto. Qed.
Definition tid (t : thread) : nat := match t with Proc i _ => i | Load i _ _ => i end.
Definition busy (p : proc_at) : bool := match p with PRun | PCorners _ | PPattern | PStatus | PFail => true | _ => false end.
Definition has_corners (p : proc_at) : bool := match p with PPattern | PStatus | PUse => true | _ => false end.
(** What holds in every state about the images [ms], the list [li] and the threads [ts]. *)
Record sane (ms : list img) (li : list nat) (ts : list thread) : Prop := Sane {
  s_list : forall i, In i li -> i < List.length ms;
  s_tid : forall t, In t ts -> tid t < List.length ms;
  s_use : forall i m, nth_error ms i = Some m -> i_use m = true -> i_corners m <> None;
  s_have : forall i p m, In (Proc i p) ts -> has_corners p = true -> nth_error ms i = Some m -> i_corners m <> None;
  s_pattern : forall i m, nth_error ms i = Some m -> i_corners m <> None -> i_pattern m = true \/ In (Proc i PPattern) ts;
  s_busy : forall i m, nth_error ms i = Some m -> i_status m = InProgress -> exists p, busy p = true /\ In (Proc i p) ts;
  s_conn : forall i p m, In (Proc i p) ts -> nth_error ms i = Some m -> 1 <= i_conn m }.

(** changing an image *)
Lemma looked i f (ms : list img) j m : nth_error (update i f ms) j = Some m -> exists m0, nth_error ms j = Some m0 /\ m = if Nat.eqb i j then f m0 else m0.
Proof. rewrite nth_update. destruct (nth_error ms j) as [m0|]; [|destruct (Nat.eqb i j); discriminate]. destruct (Nat.eqb i j); cbn; intros E; injection E as <-; eauto. Qed.
Lemma sane_undist i p ms li ts : sane ms li ts -> sane (update i (with_undist p) ms) li ts.
Proof.
  intros [A B C D E F G]. constructor; rewrite ?length_update; auto; intros j.
  - intros m H. apply looked in H. destruct H as (m0&H&->). destruct (Nat.eqb i j); apply (C j m0 H).
  - intros q m H1 H2 H. apply looked in H. destruct H as (m0&H&->). destruct (Nat.eqb i j); apply (D j q m0 H1 H2 H).
  - intros m H. apply looked in H. destruct H as (m0&H&->). destruct (Nat.eqb i j); apply (E j m0 H).
  - intros m H. apply looked in H. destruct H as (m0&H&->). destruct (Nat.eqb i j); apply (F j m0 H).
  - intros q m H1 H. apply looked in H. destruct H as (m0&H&->). destruct (Nat.eqb i j); apply (G j q m0 H1 H).
Qed.
Lemma sane_list ms li li' ts : sane ms li ts -> (forall i, In i li' -> i < List.length ms) -> sane ms li' ts.
Proof. intros [A B C D E F G] H. constructor; auto. Qed.
Lemma sane_new d ms li ts files : sane ms li ts -> sane (ms ++ map (new_img d) files) (li ++ seq (List.length ms) (List.length files)) ts.
Proof.
  intros [A B C D E F G].
  assert (S : forall j m, nth_error (ms ++ map (new_img d) files) j = Some m -> nth_error ms j = Some m \/ (List.length ms <= j /\ exists f, m = new_img d f)).
  { intros j m H. destruct (Nat.lt_ge_cases j (List.length ms)) as [L|L]; [rewrite nth_error_app1 in H by exact L; auto|]. right. split; [exact L|].
    rewrite nth_error_app2 in H by exact L. apply nth_error_In in H. apply in_map_iff in H. destruct H as (f&<-&_). eauto. }
  constructor.
  - intros i. rewrite in_app_iff, in_seq, app_length, map_length. intros [H|H]; [apply A in H|]; lia.
  - intros t H. apply B in H. rewrite app_length. lia.
  - intros j m H. destruct (S _ _ H) as [X|(L&f&->)]; [apply (C j m X)|]. unfold new_img. destruct (d _); [discriminate|discriminate].
  - intros j p m H1 H2 H. destruct (S _ _ H) as [X|(L&_)]; [apply (D j p m H1 H2 X)|]. apply B in H1. cbn in H1. lia.
  - intros j m H. destruct (S _ _ H) as [X|(L&f&->)]; [apply (E j m X)|]. unfold new_img. destruct (d _); cbn; [auto|congruence].
  - intros j m H. destruct (S _ _ H) as [X|(L&f&->)]; [apply (F j m X)|]. unfold new_img. destruct (d _); cbn; discriminate.
  - intros j p m H1 H. destruct (S _ _ H) as [X|(L&_)]; [apply (G j p m H1 X)|]. apply B in H1. cbn in H1. lia.
Qed.
Definition toggled (m : img) : img := match i_corners m with Some _ => with_use (negb (i_use m)) m | None => m end.
Lemma toggled_same m : i_corners (toggled m) = i_corners m /\ i_pattern (toggled m) = i_pattern m /\ i_status (toggled m) = i_status m /\ i_conn (toggled m) = i_conn m
  /\ i_file (toggled m) = i_file m /\ i_undist (toggled m) = i_undist m.
Proof. unfold toggled. destruct (i_corners m) eqn:E; repeat split; auto. Qed.
Lemma sane_toggle i ms li ts : sane ms li ts -> sane (update i toggled ms) li ts.
Proof.
  intros [A B C D E F G]. constructor; rewrite ?length_update; auto; intros j.
  - intros m H. apply looked in H. destruct H as (m0&H&->). destruct (Nat.eqb i j); [|apply (C j m0 H)]. intros U X.
    destruct (toggled_same m0) as (T&_). rewrite T in X. unfold toggled in U. rewrite X in U. apply (C j m0 H U X).
  - intros q m H1 H2 H. apply looked in H. destruct H as (m0&H&->). specialize (D j q m0 H1 H2 H). destruct (Nat.eqb i j); auto. destruct (toggled_same m0) as (T&_). congruence.
  - intros m H. apply looked in H. destruct H as (m0&H&->). specialize (E j m0 H). destruct (Nat.eqb i j); auto. destruct (toggled_same m0) as (T&T2&_). rewrite T, T2. exact E.
  - intros m H. apply looked in H. destruct H as (m0&H&->). specialize (F j m0 H). destruct (Nat.eqb i j); auto. destruct (toggled_same m0) as (T&T2&T3&_). rewrite T3. exact F.
  - intros q m H1 H. apply looked in H. destruct H as (m0&H&->). specialize (G j q m0 H1 H). destruct (Nat.eqb i j); auto. destruct (toggled_same m0) as (T&T2&T3&T4&_). lia.
Qed.
Lemma sane_process i ms li ts : sane ms li ts -> In i li -> sane (update i connected ms) li (ts ++ [Proc i PStart]).
Proof.
  intros [A B C D E F G] I. constructor; rewrite ?length_update; auto.
  - intros t. rewrite in_app_iff. intros [H|[<-|[]]]; [auto|cbn; auto].
  - intros j m H. apply looked in H. destruct H as (m0&H&->). destruct (Nat.eqb i j); apply (C j m0 H).
  - intros j q m H1 H2 H. rewrite in_app_iff in H1. destruct H1 as [H1|[H1|[]]]; [|injection H1 as <- <-; discriminate].
    apply looked in H. destruct H as (m0&H&->). destruct (Nat.eqb i j); apply (D j q m0 H1 H2 H).
  - intros j m H. apply looked in H. destruct H as (m0&H&->). rewrite in_app_iff. intros X.
    assert (Y : i_pattern m0 = true \/ In (Proc j PPattern) ts) by (destruct (Nat.eqb i j); apply (E j m0 H X)). destruct Y; [left|auto]. destruct (Nat.eqb i j); assumption.
  - intros j m H. apply looked in H. destruct H as (m0&H&->). intros X.
    assert (Y : exists p, busy p = true /\ In (Proc j p) ts) by (destruct (Nat.eqb i j); apply (F j m0 H X)). destruct Y as (p&Y1&Y2). exists p. rewrite in_app_iff. auto.
  - intros j q m H1 H. apply looked in H. destruct H as (m0&H&->). destruct (Nat.eqb_spec i j); [cbn; lia|]. rewrite in_app_iff in H1.
    destruct H1 as [H1|[H1|[]]]; [apply (G j q m0 H1 H)|congruence].
Qed.
Lemma sane_thread_new i c ms li ts p : sane ms li ts -> In i li -> sane ms li (ts ++ [Load i c p]).
Proof.
  intros [A B C D E F G] I. constructor; auto.
  - intros t. rewrite in_app_iff. intros [H|[<-|[]]]; [auto|cbn; auto].
  - intros j q m. rewrite in_app_iff. intros [H|[H|[]]]; [eauto|discriminate].
  - intros j m H X. rewrite in_app_iff. destruct (E j m H X); auto.
  - intros j m H X. destruct (F j m H X) as (q&Q1&Q2). exists q. rewrite in_app_iff. auto.
  - intros j q m. rewrite in_app_iff. intros [H|[H|[]]]; [eauto|discriminate].
Qed.
Lemma sane_load k i c p r ms li ts : sane ms li ts -> nth_error ts k = Some (Load i c p) -> sane ms li (replace_thread k (option_map (Load i c) r) ts).
Proof.
  intros [A B C D E F G] N.
  assert (Y : forall j q, In (Proc j q) (replace_thread k (option_map (Load i c) r) ts) <-> In (Proc j q) ts).
  { intros j q. split; intros H; [apply replace_in in H; destruct H as [H|H]; [exact H|destruct r; discriminate]|]. apply (in_replace k (option_map (Load i c) r)) in H. destruct H as [H|H]; [congruence|exact H]. }
  constructor; auto.
  - intros t H. apply replace_in in H. destruct H as [H|H]; [auto|]. destruct r; [|discriminate]. injection H as ->. apply (B (Load i c p)). eapply nth_error_In; eauto.
  - intros j q m. rewrite Y. eauto.
  - intros j m. rewrite Y. eauto.
  - intros j m H X. destruct (F j m H X) as (q&Q1&Q2). exists q. rewrite Y. auto.
  - intros j q m. rewrite Y. eauto.
Qed.
(** one step of a processing thread *)
Definition proc_change (p : proc_at) (m : img) : img :=
  match p with
  | PStart => with_status InProgress m | PCorners c => with_corners (Some c) m | PPattern => with_pattern m | PStatus => with_status Done m
  | PUse => with_use true m | PFail => with_status Failed m | _ => m
  end.
Definition follows_proc (p : proc_at) (r : option proc_at) : Prop :=
  match p, r with
  | PStart, Some PRun | PRun, Some (PCorners _) | PRun, Some PFail | PCorners _, Some PPattern | PPattern, Some PStatus | PStatus, Some PUse
  | PUse, Some PEmit | PFail, Some PEmit | PEmit, None => True
  | _, _ => False
  end.
Lemma update_id {A} i (l : list A) : update i (fun m => m) l = l.
Proof. revert i. induction l as [|a l IH]; intros [|i]; cbn; [reflexivity|reflexivity|reflexivity|]. rewrite IH. reflexivity. Qed.
Lemma sane_proc k i p r ms li ts : sane ms li ts -> nth_error ts k = Some (Proc i p) -> follows_proc p r ->
  sane (update i (proc_change p) ms) li (replace_thread k (option_map (Proc i) r) ts).
Proof.
  intros [A B C D E F G] N FW. pose proof (nth_error_In _ _ N) as NI.
  set (ts' := replace_thread k (option_map (Proc i) r) ts).
  assert (Y1 : forall x, In x ts' -> In x ts \/ exists q, r = Some q /\ x = Proc i q).
  { intros x H. apply replace_in in H. destruct H as [H|H]; [auto|]. destruct r as [q|]; [|discriminate]. injection H as ->. eauto. }
  assert (Y2 : forall x, In x ts -> x = Proc i p \/ In x ts').
  { intros x H. apply (in_replace k (option_map (Proc i) r)) in H. destruct H as [H|H]; [left; congruence|auto]. }
  assert (Y3 : forall q, r = Some q -> In (Proc i q) ts') by (intros q ->; apply new_in).
  constructor; rewrite ?length_update; auto.
  - intros t H. destruct (Y1 _ H) as [H'|(q&_&->)]; [auto|]. apply (B _ NI).
  - intros j m H. apply looked in H. destruct H as (m0&H&->). destruct (Nat.eqb_spec i j) as [<-|NE]; [|apply (C j m0 H)].
    destruct p; cbn; try apply (C i m0 H); try discriminate. intros _. apply (D i PUse m0 NI eq_refl H).
  - intros j q m H1 H2 H. apply looked in H. destruct H as (m0&H&->).
    assert (Z : In (Proc j q) ts -> i_corners (if Nat.eqb i j then proc_change p m0 else m0) <> None).
    { intros X. specialize (D j q m0 X H2 H). destruct (Nat.eqb i j); auto. destruct p; cbn; auto; discriminate. }
    destruct (Y1 _ H1) as [H'|(q'&Eq&X)]; [auto|]. injection X as -> ->. rewrite Nat.eqb_refl in *.
    destruct p, r as [[]|]; try contradiction; try discriminate Eq; injection Eq as <-; try discriminate; cbn; try discriminate.
    all: try (apply (D i PPattern m0 NI eq_refl H)); apply (D i PStatus m0 NI eq_refl H).
  - intros j m H X. apply looked in H. destruct H as (m0&H&->). destruct (Nat.eqb_spec i j) as [<-|NE].
    + destruct p; cbn in X |- *; auto.
      all: try (destruct (E i m0 H X) as [Y|Y]; [auto|]; destruct (Y2 _ Y) as [W|W]; [discriminate|auto]).
      destruct r as [[]|]; try contradiction. auto.
    + destruct (E j m0 H X) as [Y|Y]; [auto|]. destruct (Y2 _ Y) as [W|W]; [congruence|auto].
  - intros j m H X. apply looked in H. destruct H as (m0&H&->). destruct (Nat.eqb_spec i j) as [<-|NE].
    + destruct p; cbn in X; try discriminate; destruct r as [q|]; try contradiction.
      all: try (destruct q; try contradiction; (eexists; split; [|apply Y3; reflexivity]; reflexivity)).
      all: try (destruct (F i m0 H X) as (q'&Q1&Q2); destruct (Y2 _ Q2) as [W|W]; [injection W as ->; discriminate|eauto]).
    + destruct (F j m0 H X) as (q&Q1&Q2). destruct (Y2 _ Q2) as [W|W]; [congruence|eauto].
  - intros j q m H1 H. apply looked in H. destruct H as (m0&H&->).
    assert (Z : 1 <= i_conn m0) by (destruct (Y1 _ H1) as [H'|(q'&_&X)]; [apply (G j q m0 H' H)|injection X as -> _; apply (G i p m0 NI H)]).
    destruct (Nat.eqb i j); auto. destruct p; exact Z.
Qed.

Section Runs.
Variable detect : file -> option corner_list.
Variable sizeof : file -> num * num.
Notation stp := (step detect sizeof).
Notation rn := (run detect sizeof).
Definition ok (w : win) : Prop := sane (imgs w) (images w) (threads w).
Lemma next_ok w : ok w -> ok (process_next w).
Proof.
  intros H. unfold process_next. destruct (nth_error (images w) (index w)) as [i|] eqn:E; [|exact H]. apply nth_error_In in E. exact (sane_process i _ _ _ H E).
Qed.
Lemma selected_in w i : selected_image w = Some i -> In i (images w).
Proof. unfold selected_image. destruct (nth_error (images w) (selected w)) eqn:E; [intros X; injection X as <-; eapply nth_error_In; eauto|apply nth_error_In]. Qed.
Lemma image_selected_ok w : ok w -> ok (image_selected w).
Proof.
  intros H. unfold image_selected. destruct (selected_image w) as [i|] eqn:E; [|exact H]. apply selected_in in E. apply (sane_thread_new i _ _ _ _ LCheck H E).
Qed.
(** newCalibration only resets undistorted pictures *)
Definition reset (l : list nat) (w : win) : win := fold_left (fun w i => change i (with_undist None) w) l w.
Lemma reset_other l : forall w, reset l w = set_imgs (imgs (reset l w)) w /\ List.length (imgs (reset l w)) = List.length (imgs w) /\
  forall j, nth_error (imgs (reset l w)) j = option_map (fun m => if existsb (Nat.eqb j) l then with_undist None m else m) (nth_error (imgs w) j).
Proof.
  induction l as [|i l IH]; intros w.
  - cbn. split; [destruct w; reflexivity|]. split; [reflexivity|]. intros j. destruct (nth_error (imgs w) j); reflexivity.
  - cbn [reset fold_left]. fold (reset l (change i (with_undist None) w)). destruct (IH (change i (with_undist None) w)) as (A&B&C). split; [rewrite A; destruct w; reflexivity|].
    split; [rewrite B; cbn; apply length_update|]. intros j. rewrite C. cbn [change set_imgs imgs existsb]. rewrite nth_update, (Nat.eqb_sym j i).
    destruct (nth_error (imgs w) j) as [m|]; [|destruct (Nat.eqb i j); reflexivity]. destruct (Nat.eqb i j); cbn [option_map orb]; [|reflexivity].
    destruct (existsb (Nat.eqb j) l); reflexivity.
Qed.
Lemma reset_ok l : forall w, ok w -> ok (reset l w).
Proof. induction l as [|i l IH]; intros w H; [exact H|]. cbn. apply IH. apply (sane_undist i None _ _ _ H). Qed.
Lemma calibration_ok c w : ok w -> ok (new_calibration c w).
Proof. intros H. unfold new_calibration. apply image_selected_ok. apply (reset_ok _ (set_size _ (set_map _ (set_cal _ w)))). exact H. Qed.
Lemma found_same f w : imgs (fst (found detect f w)) = imgs w /\ images (fst (found detect f w)) = images w /\ threads (fst (found detect f w)) = threads w /\
  index (fst (found detect f w)) = index w /\ calls (fst (found detect f w)) = calls w /\ size (fst (found detect f w)) = size w /\ cal (fst (found detect f w)) = cal w /\
  undist_map (fst (found detect f w)) = undist_map w /\ selected (fst (found detect f w)) = selected w.
Proof. unfold found. destruct (disk w (corner_path f)); [repeat split|]. destruct (detect f); repeat split. Qed.
(** one step of a processing thread changes the image as [proc_change] says, perhaps the disk or the calls, and the thread *)
Lemma proc_spec i p w : i < List.length (imgs w) -> exists d n r, follows_proc p r /\
  proc_step detect i p w = (set_calls n (set_disk d (change i (proc_change p) w)), r) /\
  (n = match p with PEmit => calls w + match nth_error (imgs w) i with Some m => i_conn m | None => 0 end | _ => calls w end).
Proof.
  intros L. destruct (nth_error (imgs w) i) as [m|] eqn:E; [|apply nth_error_None in E; lia].
  destruct p; cbn [proc_step proc_change]; rewrite ?E; unfold change; rewrite ?update_id.
  all: try (exists (disk w), (calls w); eexists; split; [|split; [destruct w; reflexivity|reflexivity]]; exact I).
  - unfold found. destruct (disk w (corner_path (i_file m))) as [c|].
    + exists (disk w), (calls w), (Some (if Nat.eqb (List.length c) 54 then PCorners c else PFail)). destruct (Nat.eqb _ 54); (split; [exact I|]; split; [destruct w; reflexivity|reflexivity]).
    + destruct (detect (i_file m)) as [c|]; [exists (fun p => if path_eqb p (corner_path (i_file m)) then Some c else disk w p), (calls w), (Some (PCorners c))|exists (disk w), (calls w), (Some PFail)];
        (split; [exact I|]; split; [destruct w; reflexivity|reflexivity]).
  - exists (disk w), (calls w + i_conn m), None. split; [exact I|]. split; [destruct w; reflexivity|reflexivity].
Qed.
Lemma load_spec i c p w : exists m r, load_step sizeof i c p w = (match p with LStore q => change i (with_undist (Some q)) w | _ => set_map m w end, r) /\
  m = match p with LWrite m => Some m | _ => undist_map w end.
Proof. destruct p; cbn [load_step]; eexists _, _; (split; [|reflexivity]); destruct w; reflexivity. Qed.
Lemma thread_ok k w : ok w -> ok (thread_step detect sizeof k w).
Proof.
  intros H. unfold thread_step. destruct (nth_error (threads w) k) as [[i p|i c p]|] eqn:E; [| |exact H].
  - destruct (proc_spec i p w) as (d&n&r&F&ES&_); [apply (s_tid _ _ _ H (Proc i p)); eapply nth_error_In; eauto|]. rewrite ES.
    apply (sane_proc k i p r _ _ _ H E F).
  - destruct (load_spec i c p w) as (m&r&ES&_). rewrite ES. destruct p; try apply (sane_load k i c _ r _ _ _ H E).
    apply (sane_load k i c _ r _ _ _ (sane_undist i _ _ _ _ H) E).
Qed.
Lemma batch_spec files w : let ms := imgs w ++ map (new_img (disk w)) files in let li := images w ++ seq (List.length (imgs w)) (List.length files) in
  exists s, load_batch sizeof files w = set_size s (set_images li (set_imgs ms w)) /\
    forall i l m, li = i :: l -> nth_error ms i = Some m -> s = Some (sizeof (i_file m)).
Proof.
  intros ms li. unfold load_batch. fold ms. fold li. cbn [images set_images imgs set_imgs]. destruct li as [|i l]; [exists (size w); split; [destruct w; reflexivity|discriminate]|].
  destruct (nth_error ms i) as [m|] eqn:E; [exists (Some (sizeof (i_file m)))|exists (size w)]; (split; [destruct w; reflexivity|]);
    intros i' l' m' X; injection X as <- <-; congruence.
Qed.
Lemma step_ok e w : ok w -> ok (stp e w).
Proof.
  intros H. destruct e; cbn [step].
  - destruct (batch_spec files w) as (s&->&_). apply (sane_new (disk w) _ _ _ files H).
  - apply (sane_list _ _ [] _ H). intros i [].
  - unfold toggle. destruct (nth_error (images w) row) as [i|]; [|exact H]. apply (sane_toggle i _ _ _ H).
  - apply next_ok. exact H.
  - unfold fit. destruct (fit_points _); [|exact H]. destruct (size w) as [[a b]|]; [|exact H]. destruct (of_cv _ _ _ _ _); [|exact H]. apply calibration_ok. exact H.
  - apply calibration_ok. exact H.
  - apply image_selected_ok. exact H.
  - destruct (calls w); [exact H|]. apply next_ok. exact H.
  - apply thread_ok. exact H.
Qed.
Lemma start_ok d : ok (start d).
Proof. constructor; cbn; try contradiction; intros [|i] m; try discriminate. all: intros; contradiction. Qed.
Lemma run_inv (P : win -> Prop) : (forall e w, P w -> P (stp e w)) -> forall es w, P w -> P (rn es w).
Proof. intros S es. induction es as [|e es IH]; intros w H; [exact H|]. apply (IH (stp e w)). apply S. exact H. Qed.
Lemma run_ok d es : ok (rn es (start d)).
Proof. apply (run_inv ok step_ok). apply start_ok. Qed.

(** ** Which points are fitted *)
Lemma listed_in w m : In m (listed w) <-> exists i, In i (images w) /\ nth_error (imgs w) i = Some m.
Proof.
  unfold listed. rewrite in_flat_map. split; intros (i&I&H); exists i; (split; [exact I|]).
  - destruct (nth_error (imgs w) i); [|destruct H]. destruct H as [<-|[]]. reflexivity.
  - rewrite H. left. reflexivity.
Qed.
(** An image marked in the column "Use" always has corners, in every state of the window and its threads; and a fit
    finds the pattern of every image it uses, unless it falls exactly between two statements of a thread. *)
Theorem C72_used d es : let w := rn es (start d) in
  (forall m, In m (imgs w) -> i_use m = true -> i_corners m <> None) /\
  ((forall i, ~ In (Proc i PPattern) (threads w)) -> exists l, fit_points (listed w) = Some l).
Proof.
  intros w. pose proof (run_ok d es) as [A B C D E F G]. fold w in A, B, C, D, E, F, G. split.
  - intros m I. apply In_nth_error in I. destruct I as (i&I). apply (C i m I).
  - intros N. assert (X : forall m, In m (listed w) -> i_corners m <> None -> i_pattern m = true).
    { intros m I H. apply listed_in in I. destruct I as (i&_&I). destruct (E i m I H) as [Y|Y]; [exact Y|destruct (N i Y)]. }
    induction (listed w) as [|m l IH]; [eexists; reflexivity|]. destruct IH as (r&IH); [intros m' I; apply X; right; exact I|]. cbn [fit_points]. rewrite IH.
    destruct (i_corners m) eqn:EC; [|eauto]. destruct (i_use m); [|eauto]. rewrite X by (try (left; reflexivity); congruence). eauto.
Qed.

(** The corners of every image are those of its own picture, if the files found in the output folder at the start are
    and no two pictures have the same folder and base name (and a different content). *)
Definition batch_of (e : event) : list file := match e with EBatch l => l | _ => [] end.
Definition own_corners (F : list file) (w : win) : Prop :=
  (forall f, In f F -> forall c, disk w (corner_path f) = Some c -> detect f = Some c) /\
  (forall m, In m (imgs w) -> In (i_file m) F /\ forall c, i_corners m = Some c -> detect (i_file m) = Some c) /\
  (forall i c m, In (Proc i (PCorners c)) (threads w) -> nth_error (imgs w) i = Some m -> detect (i_file m) = Some c).
Lemma in_update {A} i (f : A -> A) l x : In x (update i f l) -> exists y, In y l /\ (x = y \/ x = f y).
Proof.
  revert i. induction l as [|a l IH]; intros [|i]; cbn; try contradiction.
  - intros [<-|H]; eauto.
  - intros [<-|H]; [eauto|]. destruct (IH i H) as (y&Y1&Y2). eauto.
Qed.
Lemma own_change F i f w : (forall m, i_file (f m) = i_file m /\ i_corners (f m) = i_corners m) -> own_corners F w -> own_corners F (change i f w).
Proof.
  intros S (A&B&C). split; [exact A|]. split.
  - intros m I. cbn in I. apply in_update in I. destruct I as (y&Y&[->| ->]); [auto|]. destruct (S y) as (->& ->). apply B. exact Y.
  - intros j c m I H. cbn in I, H. apply looked in H. destruct H as (m0&H&->). specialize (C j c m0 I H). destruct (Nat.eqb i j); [|exact C]. destruct (S m0) as (->&_). exact C.
Qed.
Lemma own_threads F w ts : own_corners F w -> (forall i c, In (Proc i (PCorners c)) ts -> In (Proc i (PCorners c)) (threads w)) -> own_corners F (set_threads ts w).
Proof. intros (A&B&C) H. split; [exact A|]. split; [exact B|]. intros i c m I. apply C. apply H. exact I. Qed.
Lemma own_next F w : own_corners F w -> own_corners F (process_next w).
Proof.
  intros H. unfold process_next. destruct (nth_error (images w) (index w)) as [i|]; [|exact H]. apply own_threads.
  - apply own_change; [intros; split; reflexivity|exact H].
  - intros j c I. cbn in I. apply in_app_iff in I. destruct I as [I|[I|[]]]; [exact I|discriminate].
Qed.
Lemma own_selected F w : own_corners F w -> own_corners F (image_selected w).
Proof.
  intros H. unfold image_selected. destruct (selected_image w) as [i|]; [|exact H]. apply own_threads; [exact H|].
  intros j c I. apply in_app_iff in I. destruct I as [I|[I|[]]]; [exact I|discriminate].
Qed.
Lemma own_reset F l : forall w, own_corners F w -> own_corners F (reset l w).
Proof. induction l as [|i l IH]; intros w H; [exact H|]. cbn. apply IH. apply own_change; [intros; split; reflexivity|exact H]. Qed.
Lemma own_calibration F c w : own_corners F w -> own_corners F (new_calibration c w).
Proof. intros H. apply own_selected. apply (own_reset F _ (set_size _ (set_map _ (set_cal _ w)))). exact H. Qed.
Lemma path_eqb_eq a b : path_eqb a b = true -> a = b.
Proof. unfold path_eqb. intros H. apply andb_prop in H. destruct H as (H1&H2). apply String.eqb_eq in H1, H2. destruct a, b. cbn in *. congruence. Qed.
Lemma own_step F e w : (forall f g, In f F -> In g F -> corner_path f = corner_path g -> detect f = detect g) -> (forall f, In f (batch_of e) -> In f F) ->
  ok w -> own_corners F w -> own_corners F (stp e w).
Proof.
  intros U FF HO H. destruct e; cbn [step].
  - destruct (batch_spec files w) as (s&->&_). destruct H as (A&B&C). split; [exact A|]. split.
    + intros m I. cbn in I. apply in_app_iff in I. destruct I as [I|I]; [apply B; exact I|]. apply in_map_iff in I. destruct I as (f&<-&I).
      unfold new_img. pose proof (A f (FF f I)) as X. destruct (disk w (corner_path f)) as [c|]; cbn; (split; [apply FF; exact I|]); [intros c' Y; injection Y as <-; apply X; reflexivity|discriminate].
    + intros i c m I Hm. cbn in I, Hm. destruct (Nat.lt_ge_cases i (List.length (imgs w))) as [L|L]; [rewrite nth_error_app1 in Hm by exact L; apply (C i c m I Hm)|].
      exfalso. apply (s_tid _ _ _ HO) in I. cbn in I. lia.
  - exact H.
  - unfold toggle. destruct (nth_error (images w) row) as [i|]; [|exact H]. apply (own_change F i toggled); [|exact H]. intros m. destruct (toggled_same m) as (T1&_&_&_&T2&_). auto.
  - apply own_next. exact H.
  - unfold fit. destruct (fit_points _); [|exact H]. destruct (size w) as [[a b]|]; [|exact H]. destruct (of_cv _ _ _ _ _); [|exact H]. apply own_calibration. exact H.
  - apply own_calibration. exact H.
  - apply own_selected. exact H.
  - destruct (calls w); [exact H|]. apply own_next. exact H.
  - unfold thread_step. destruct (nth_error (threads w) k) as [[i p|i c p]|] eqn:E; [| |exact H].
    + assert (TI := nth_error_In _ _ E). assert (L := s_tid _ _ _ HO _ TI). cbn in L.
      assert (OT : forall w' r, own_corners F w' -> threads w' = threads w -> (forall c, r = Some (PCorners c) -> forall m, nth_error (imgs w') i = Some m -> detect (i_file m) = Some c) ->
        own_corners F (set_threads (replace_thread k (option_map (Proc i) r) (threads w)) w')).
      { intros w' r (A&B&C) ET R. split; [exact A|]. split; [exact B|]. intros j c m I Hm. cbn in I, Hm. apply replace_in in I. destruct I as [I|I].
        - apply (C j c m); [rewrite ET; exact I|exact Hm].
        - destruct r as [q|]; [|discriminate]. injection I as -> <-. apply (R c eq_refl m Hm). }
      destruct p; cbn [proc_step].
      * apply OT; [apply own_change; [intros; split; reflexivity|exact H]|reflexivity|discriminate].
      * destruct (nth_error (imgs w) i) as [m|] eqn:Em; [|apply nth_error_None in Em; lia].
        pose proof H as (A&B&C). destruct (B m (nth_error_In _ _ Em)) as (IF&_). unfold found. destruct (disk w (corner_path (i_file m))) as [c|] eqn:ED.
        -- apply (OT w); [exact H|reflexivity|]. intros c' Ec m' Em'. assert (m' = m) by congruence. subst m'. rewrite (A _ IF _ ED).
           destruct (Nat.eqb (List.length c) 54); congruence.
        -- destruct (detect (i_file m)) as [c|] eqn:Edet; [|apply (OT w); [exact H|reflexivity|discriminate]].
           apply (OT (set_disk _ w)); [|reflexivity|cbn; intros c' Ec m' Em'; congruence].
           split; [|split; [exact B|exact C]]. intros g Hg c'. cbn. destruct (path_eqb (corner_path g) (corner_path (i_file m))) eqn:EP; [|apply A; exact Hg].
           apply path_eqb_eq in EP. rewrite (U g (i_file m) Hg IF EP). congruence.
      * apply OT; [|reflexivity|discriminate]. destruct H as (A&B&C). split; [exact A|]. split.
        -- intros m I. cbn in I. apply In_nth_error in I. destruct I as (j&I). apply looked in I. destruct I as (m0&I&->).
           destruct (B m0 (nth_error_In _ _ I)) as (B1&B2). destruct (Nat.eqb_spec i j) as [<-|N]; [|auto]. cbn. split; [exact B1|].
           intros c' X. injection X as <-. apply (C i c m0 TI I).
        -- intros j c' m I Hm. cbn in I, Hm. apply looked in Hm. destruct Hm as (m0&Hm&->). specialize (C j c' m0 I Hm). destruct (Nat.eqb i j); exact C.
      * apply OT; [apply own_change; [intros; split; reflexivity|exact H]|reflexivity|discriminate].
      * apply OT; [apply own_change; [intros; split; reflexivity|exact H]|reflexivity|discriminate].
      * apply OT; [apply own_change; [intros; split; reflexivity|exact H]|reflexivity|discriminate].
      * apply OT; [apply own_change; [intros; split; reflexivity|exact H]|reflexivity|discriminate].
      * destruct (nth_error (imgs w) i); (apply OT; [exact H|reflexivity|discriminate]).
    + destruct (load_spec i c p w) as (m&r&ES&_). rewrite ES. apply own_threads.
      * destruct p; try exact H. apply own_change; [intros; split; reflexivity|exact H].
      * intros j c' I. apply replace_in in I. destruct I as [I|I]; [|destruct r; discriminate]. destruct p; exact I.
Qed.
Theorem C72_points (F : list file) d es : (forall f g, In f F -> In g F -> corner_path f = corner_path g -> detect f = detect g) ->
  (forall f, In f F -> forall c, d (corner_path f) = Some c -> detect f = Some c) -> (forall e f, In e es -> In f (batch_of e) -> In f F) ->
  let w := rn es (start d) in forall l, fit_points (listed w) = Some l -> Forall2 (fun m c => detect (i_file m) = Some c) (filter i_use (listed w)) l.
Proof.
  intros U D FF w. assert (X : ok w /\ own_corners F w).
  { unfold w. assert (S : ok (start d) /\ own_corners F (start d)) by (split; [apply start_ok|]; split; [exact D|]; split; [intros m []|intros i c m []]).
    revert S. generalize (start d) as w0. clear w D. induction es as [|e es IH]; intros w0 S; [exact S|]. apply (IH (fun e' f I => FF e' f (or_intror I)) (stp e w0)).
    destruct S as (S1&S2). split; [apply step_ok; exact S1|]. apply own_step; auto. intros f. apply (FF e f (or_introl eq_refl)). }
  destruct X as (HO&_&B&_).
  assert (P : forall m, In m (listed w) -> (i_use m = true -> i_corners m <> None) /\ forall c, i_corners m = Some c -> detect (i_file m) = Some c).
  { intros m I. apply listed_in in I. destruct I as (i&_&I). split; [apply (s_use _ _ _ HO i m I)|apply B; eapply nth_error_In; eauto]. }
  induction (listed w) as [|m ms IH]; intros l E; [injection E as <-; constructor|].
  assert (IH' := IH (fun m' I => P m' (or_intror I))). clear IH. destruct (P m (or_introl eq_refl)) as (P1&P2). cbn [fit_points] in E. cbn [filter].
  destruct (i_use m).
  - destruct (i_corners m) as [c|]; [|destruct (P1 eq_refl eq_refl)]. destruct (i_pattern m); [|discriminate]. destruct (fit_points ms) as [r|]; [|discriminate].
    injection E as <-. constructor; [apply P2; reflexivity|apply IH'; reflexivity].
  - apply IH'. destruct (i_corners m); exact E.
Qed.

(** ** Processing *)
(** After "Process" is pressed, and no further images are loaded, every image is done or failed as soon as no thread
    processes and no call waits: however the threads and the user's other actions interleave. *)
Definition processing (t : thread) : bool := match t with Proc _ _ => true | _ => false end.
Definition quiet (w : win) : Prop := calls w = 0 /\ forall t, In t (threads w) -> processing t = false.
Definition settled (s : status) : Prop := s = Done \/ s = Failed.
Definition not_batch (e : event) : Prop := match e with EBatch _ => False | _ => True end.
Definition going (w : win) : Prop := (exists t, In t (threads w) /\ processing t = true) \/ 0 < calls w \/ List.length (images w) <= index w.
Definition begun (w : win) : Prop := forall k i m, k < index w -> nth_error (images w) k = Some i -> nth_error (imgs w) i = Some m ->
  i_status m <> Unprocessed \/ In (Proc i PStart) (threads w).
Lemma next_under_way w : begun w -> going (process_next w) /\ begun (process_next w).
Proof.
  intros H. unfold process_next. destruct (nth_error (images w) (index w)) as [i|] eqn:E.
  - split; [left; exists (Proc i PStart); cbn; rewrite in_app_iff; cbn; auto|]. intros k j m L Ej Em. cbn in L, Ej, Em |- *. rewrite in_app_iff.
    apply looked in Em. destruct Em as (m0&Em&->). destruct (Nat.eq_dec k (index w)) as [->|N].
    + assert (j = i) by congruence. subst j. right. right. left. reflexivity.
    + destruct (H k j m0 ltac:(lia) Ej Em) as [X|X]; [left|auto]. destruct (Nat.eqb i j); exact X.
  - split; [|exact H]. right. right. apply nth_error_None. exact E.
Qed.
Lemma begun_images w w' : begun w -> images w' = images w -> index w' = index w -> threads w' = threads w ->
  (forall i m', nth_error (imgs w') i = Some m' -> exists m, nth_error (imgs w) i = Some m /\ (i_status m <> Unprocessed -> i_status m' <> Unprocessed)) -> begun w'.
Proof.
  intros H E1 E2 E3 E4 k i m' L Ei Em. rewrite E1, E2, E3 in *. destruct (E4 i m' Em) as (m&Em0&X). destruct (H k i m L Ei Em0); auto.
Qed.
Lemma selected_spec w : exists ts, image_selected w = set_threads (threads w ++ ts) w /\
  (ts = [] \/ exists i, In i (images w) /\ ts = [Load i (match cal w with Some _ => true | None => false end) LCheck]).
Proof.
  unfold image_selected. destruct (selected_image w) as [i|] eqn:E; [|exists []; rewrite app_nil_r; split; [destruct w; reflexivity|auto]].
  eexists. split; [reflexivity|]. right. exists i. split; [apply selected_in; exact E|reflexivity].
Qed.
Lemma calib_spec c w : exists ms ts, new_calibration c w = set_threads (threads w ++ ts) (set_imgs ms (set_size (Some (cal_w c, cal_h c)) (set_map None (set_cal (Some c) w)))) /\
  List.length ms = List.length (imgs w) /\
  (forall j, nth_error ms j = option_map (fun m => if existsb (Nat.eqb j) (images w) then with_undist None m else m) (nth_error (imgs w) j)) /\
  (ts = [] \/ exists i, In i (images w) /\ ts = [Load i true LCheck]).
Proof.
  unfold new_calibration. set (w2 := set_size (Some (cal_w c, cal_h c)) (set_map None (set_cal (Some c) w))).
  change (fold_left (fun w i => change i (with_undist None) w) (images w2) w2) with (reset (images w2) w2).
  destruct (reset_other (images w2) w2) as (A&B&C). destruct (selected_spec (reset (images w2) w2)) as (ts&E&T). rewrite E, A.
  exists (imgs (reset (images w2) w2)), ts. split; [reflexivity|]. split; [exact B|]. split; [exact C|].
  destruct T as [T|(i&I&T)]; [auto|]. rewrite A in I, T. right. exists i. split; [exact I|exact T].
Qed.
Lemma fit_spec rms m dist w : fit rms m dist w = w \/ exists c a b, fit rms m dist w = new_calibration c w /\ size w = Some (a, b) /\ cal_w c = a /\ cal_h c = b.
Proof.
  unfold fit. destruct (fit_points _); [|auto]. destruct (size w) as [[a b]|]; [|auto]. destruct (of_cv rms m dist a b) as [c|] eqn:E; [|auto].
  right. exists c, a, b. split; [reflexivity|]. split; [reflexivity|]. unfold of_cv in E. destruct dist as [|k1 [|k2 [|t1 [|t2 [|k3 [|]]]]]]; try discriminate. injection E as <-. auto.
Qed.
Definition under_way (w : win) : Prop := going w /\ begun w.
Lemma under_way_same w w' : under_way w -> images w' = images w -> index w' = index w -> calls w' = calls w ->
  (forall i p, In (Proc i p) (threads w') <-> In (Proc i p) (threads w)) ->
  (forall i m', nth_error (imgs w') i = Some m' -> exists m, nth_error (imgs w) i = Some m /\ (i_status m <> Unprocessed -> i_status m' <> Unprocessed)) -> under_way w'.
Proof.
  intros (G&H) E1 E2 E0 E3 E4. split.
  - unfold going in *. rewrite E1, E2, E0. destruct G as [(t&T1&T2)|G]; [left|auto]. destruct t as [i p|]; [|discriminate]. exists (Proc i p). rewrite E3. auto.
  - intros k i m' L Ei Em. rewrite E1 in Ei. rewrite E2 in L. rewrite E3. destruct (E4 i m' Em) as (m&Em0&X). destruct (H k i m L Ei Em0); auto.
Qed.
Lemma under_way_calibration c w : under_way w -> under_way (new_calibration c w).
Proof.
  intros H. destruct (calib_spec c w) as (ms&ts&->&_&M&T). apply (under_way_same w); auto.
  - intros i p. cbn. rewrite in_app_iff. split; [|auto]. intros [I|I]; [exact I|]. destruct T as [->|(j&_&->)]; [destruct I|]. destruct I as [I|[]]. discriminate.
  - intros i m'. cbn. rewrite M. destruct (nth_error (imgs w) i) as [m|]; [|discriminate]. cbn. intros X. injection X as <-. exists m. split; [reflexivity|]. destruct (existsb _ _); auto.
Qed.
Lemma under_way_selected w : under_way w -> under_way (image_selected w).
Proof.
  intros H. destruct (selected_spec w) as (ts&->&T). apply (under_way_same w); auto.
  - intros i p. cbn. rewrite in_app_iff. split; [|auto]. intros [I|I]; [exact I|]. destruct T as [->|(j&_&->)]; [destruct I|]. destruct I as [I|[]]. discriminate.
  - intros i m'. cbn. eauto.
Qed.
Lemma under_way_step e w : not_batch e -> ok w -> under_way w -> under_way (stp e w).
Proof.
  intros NB HO H. destruct e; cbn [step].
  - destruct NB.
  - split; [right; right; cbn; lia|]. intros k i m _ E. cbn in E. destruct k; discriminate.
  - unfold toggle. destruct (nth_error (images w) row) as [i|]; [|exact H]. apply (under_way_same w); auto; [reflexivity|]. intros j m' Hj. cbn in Hj. change (fun m => _) with toggled in Hj.
    apply looked in Hj. destruct Hj as (m0&Hj&->). exists m0. split; [exact Hj|]. destruct (Nat.eqb i j); [|auto]. destruct (toggled_same m0) as (_&_&->&_). auto.
  - apply next_under_way. intros k i m L. cbn in L. lia.
  - destruct (fit_spec rms m dist w) as [->|(c&a&b&->&_)]; [exact H|]. apply under_way_calibration. exact H.
  - apply under_way_calibration. exact H.
  - apply under_way_selected. exact H.
  - destruct (calls w); [exact H|]. apply next_under_way. destruct H as (_&H). exact H.
  - unfold thread_step. destruct (nth_error (threads w) k) as [[i p|i c p]|] eqn:E; [| |exact H].
    + assert (TI := nth_error_In _ _ E). assert (L := s_tid _ _ _ HO _ TI). cbn in L.
      destruct (proc_spec i p w L) as (d&n&r&F&ES&EN). rewrite ES. destruct H as (G&B). split.
      * destruct r as [q|].
        -- left. exists (Proc i q). split; [apply new_in|reflexivity].
        -- right. left. cbn. destruct p; try contradiction. destruct (nth_error (imgs w) i) as [m|] eqn:Em; [|apply nth_error_None in Em; lia].
           pose proof (s_conn _ _ _ HO i _ m TI Em). lia.
      * intros k' j m Lk Ej Em. cbn in Lk, Ej, Em |- *. apply looked in Em. destruct Em as (m0&Em&->). destruct (B k' j m0 Lk Ej Em) as [X|X].
        -- left. destruct (Nat.eqb i j); [|exact X]. destruct p; cbn; auto; discriminate.
        -- apply (in_replace k (option_map (Proc i) r)) in X. destruct X as [X|X]; [|auto]. assert (Y : Proc j PStart = Proc i p) by congruence. injection Y as -> <-.
           left. rewrite Nat.eqb_refl. discriminate.
    + destruct (load_spec i c p w) as (m&r&ES&_). rewrite ES. apply (under_way_same w); try (destruct p; reflexivity); auto.
      * intros j q. cbn. split; intros I; [apply replace_in in I; destruct I as [I|I]; [exact I|destruct r; discriminate]|].
        apply (in_replace k (option_map (Load i c) r)) in I. destruct I as [I|I]; [congruence|exact I].
      * intros j m' Hj. destruct p; cbn in Hj; eauto. apply looked in Hj. destruct Hj as (m0&Hj&->). exists m0. split; [exact Hj|]. destruct (Nat.eqb i j); auto.
Qed.
Theorem C72_processed d before es : (forall e, In e es -> not_batch e) -> let w := rn (before ++ EProcess :: es) (start d) in quiet w ->
  forall m, In m (listed w) -> settled (i_status m).
Proof.
  intros NB w (Q1&Q2) m I. assert (X : ok w /\ under_way w).
  { unfold w. unfold run. rewrite fold_left_app. cbn [fold_left]. change (fold_left (fun w e => stp e w)) with (fun es w => rn es w). cbv beta.
    assert (S : ok (stp EProcess (rn before (start d))) /\ under_way (stp EProcess (rn before (start d)))).
    { split; [apply step_ok; apply run_ok|]. apply next_under_way. intros k i m' L. cbn in L. lia. }
    revert S. generalize (stp EProcess (rn before (start d))) as w0. clear w Q1 Q2 I. induction es as [|e es IH]; intros w0 (S1&S2); [split; assumption|].
    apply (IH (fun e' I => NB e' (or_intror I)) (stp e w0)). split; [apply step_ok; exact S1|]. apply under_way_step; auto. apply NB. left. reflexivity. }
  destruct X as (HO&G&B). apply listed_in in I. destruct I as (i&I&Em). apply In_nth_error in I. destruct I as (k&Ek).
  assert (LE : List.length (images w) <= index w).
  { destruct G as [(t&T1&T2)|[G|G]]; [rewrite Q2 in T2 by exact T1; discriminate|lia|exact G]. }
  assert (LK : k < List.length (images w)) by (apply nth_error_Some; congruence).
  destruct (B k i m ltac:(lia) Ek Em) as [X|X]; [|apply Q2 in X; discriminate].
  destruct (i_status m) eqn:ES; [congruence| |right; reflexivity|left; reflexivity].
  destruct (s_busy _ _ _ HO i m Em ES) as (p&_&P). apply Q2 in P. discriminate.
Qed.

(** ** What is shown *)
(** If a new calibration arrives only while no picture is being loaded, every corrected picture in the list is the one of
    the current calibration (or the picture itself before there is any). *)
Definition loading (t : thread) : bool := match t with Load _ _ _ => true | _ => false end.
Definition brings (e : event) : bool := match e with EFit _ _ _ | ELoad _ => true | _ => false end.
Fixpoint calm (es : list event) (w : win) : Prop :=
  match es with
  | [] => True
  | e :: es => (brings e = true -> forall t, In t (threads w) -> loading t = false) /\ calm es (stp e w)
  end.
Definition has_cal (w : win) : bool := match cal w with Some _ => true | None => false end.
Definition fresh (w : win) : Prop :=
  (forall m, undist_map w = Some m -> cal w = Some m) /\
  (forall i c p, In (Load i c p) (threads w) -> c = has_cal w /\ match p with LWrite m => cal w = Some m | LStore q => cal w = q | _ => True end) /\
  (forall i m p, In i (images w) -> nth_error (imgs w) i = Some m -> i_undist m = Some p -> cal w = p).
Lemma fresh_same w w' : fresh w -> cal w' = cal w -> undist_map w' = undist_map w -> (forall i, In i (images w') -> In i (images w)) ->
  (forall i c p, In (Load i c p) (threads w') -> In (Load i c p) (threads w) \/ (c = has_cal w /\ p = LCheck)) ->
  (forall i m' p, In i (images w') -> nth_error (imgs w') i = Some m' -> i_undist m' = Some p -> exists m, nth_error (imgs w) i = Some m /\ i_undist m = Some p) -> fresh w'.
Proof.
  intros (A&B&C) E1 E2 E3 E4 E5. unfold fresh, has_cal. rewrite E1, E2. split; [exact A|]. split.
  - intros i c p I. destruct (E4 i c p I) as [X|(->& ->)]; [apply (B i c p X)|]. split; [reflexivity|exact Logic.I].
  - intros i m' p I Em Eu. destruct (E5 i m' p I Em Eu) as (m&X1&X2). apply (C i m p (E3 i I) X1 X2).
Qed.
Lemma fresh_next w : fresh w -> fresh (process_next w).
Proof.
  intros H. unfold process_next. destruct (nth_error (images w) (index w)) as [i|]; [|exact H]. apply (fresh_same w); auto.
  - intros j c p. cbn. rewrite in_app_iff. intros [I|[I|[]]]; [auto|discriminate].
  - intros j m' p _. cbn. intros Em. apply looked in Em. destruct Em as (m0&Em&->). intros X. exists m0. split; [exact Em|]. destruct (Nat.eqb i j); exact X.
Qed.
Lemma fresh_calibration c w : ok w -> (forall t, In t (threads w) -> loading t = false) -> fresh (new_calibration c w).
Proof.
  intros HO N. destruct (calib_spec c w) as (ms&ts&->&_&M&T). split; [intros m X; discriminate|]. split.
  - intros i c' p. cbn. rewrite in_app_iff. intros [I|I]; [apply N in I; discriminate|]. destruct T as [->|(j&_&->)]; [destruct I|]. destruct I as [I|[]]. injection I as <- <- <-. auto.
  - intros i m p I. cbn in I |- *. rewrite M. destruct (nth_error (imgs w) i) as [m0|]; [|discriminate]. cbn. intros X. injection X as <-.
    replace (existsb (Nat.eqb i) (images w)) with true; [discriminate|]. symmetry. apply existsb_exists. exists i. split; [exact I|apply Nat.eqb_refl].
Qed.
Lemma fresh_step e w : (brings e = true -> forall t, In t (threads w) -> loading t = false) -> ok w -> fresh w -> fresh (stp e w).
Proof.
  intros N HO H. destruct e; cbn [step].
  - destruct (batch_spec files w) as (s&->&_). destruct H as (A&B&C). split; [exact A|]. split; [exact B|].
    intros i m p I. cbn in I |- *. intros Em Eu. destruct (Nat.lt_ge_cases i (List.length (imgs w))) as [L|L].
    + rewrite nth_error_app1 in Em by exact L. apply (C i m p); auto. apply in_app_iff in I. destruct I as [I|I]; [exact I|]. apply in_seq in I. lia.
    + rewrite nth_error_app2 in Em by exact L. apply nth_error_In in Em. apply in_map_iff in Em. destruct Em as (f&<-&_). unfold new_img in Eu. destruct (disk w (corner_path f)); discriminate.
  - apply (fresh_same w); auto. { intros i []. } intros i m' p [].
  - unfold toggle. destruct (nth_error (images w) row) as [i|]; [|exact H]. apply (fresh_same w); auto.
    intros j m' p _ Hj Hu. cbn in Hj. change (fun m => _) with toggled in Hj. apply looked in Hj. destruct Hj as (m0&Hj&->). exists m0. split; [exact Hj|].
    destruct (Nat.eqb i j); [|auto]. destruct (toggled_same m0) as (_&_&_&_&_&Y). congruence.
  - apply fresh_next. exact H.
  - destruct (fit_spec rms m dist w) as [->|(c&a&b&->&_)]; [exact H|]. apply fresh_calibration; auto.
  - apply fresh_calibration; auto.
  - destruct (selected_spec (set_selected row w)) as (ts&->&T). apply (fresh_same w); auto.
    + intros i c p. cbn. rewrite in_app_iff. intros [I|I]; [auto|]. destruct T as [->|(j&_&->)]; [destruct I|]. destruct I as [I|[]]. injection I as <- <- <-. auto.
    + intros i m' p _. cbn. eauto.
  - destruct (calls w); [exact H|]. apply fresh_next. exact H.
  - unfold thread_step. destruct (nth_error (threads w) k) as [[i p|i c p]|] eqn:E; [| |exact H].
    + assert (TI := nth_error_In _ _ E). assert (L := s_tid _ _ _ HO _ TI). cbn in L.
      destruct (proc_spec i p w L) as (d&n&r&F&ES&EN). rewrite ES. apply (fresh_same w); auto.
      * intros j c q. cbn. intros I. apply replace_in in I. destruct I as [I|I]; [auto|destruct r; discriminate].
      * intros j m' q _. cbn. intros Em. apply looked in Em. destruct Em as (m0&Em&->). intros X. exists m0. split; [exact Em|]. destruct (Nat.eqb i j); [|exact X]. destruct p; exact X.
    + assert (TI := nth_error_In _ _ E). pose proof H as (A&B&C). destruct (B i c p TI) as (Ec&Ep).
      assert (BT : forall w' r, cal w' = cal w -> (match r with Some (LWrite m) => cal w = Some m | Some (LStore q) => cal w = q | _ => True end) ->
        forall j c' q, In (Load j c' q) (replace_thread k (option_map (Load i c) r) (threads w)) ->
          c' = has_cal w' /\ match q with LWrite m => cal w' = Some m | LStore q => cal w' = q | _ => True end).
      { intros w' r EC R j c' q I. unfold has_cal. rewrite EC. apply replace_in in I. destruct I as [I|I]; [apply (B j c' q I)|]. destruct r as [q'|]; [|discriminate].
        injection I as -> -> ->. split; [exact Ec|]. destruct q'; auto. }
      destruct p; cbn [load_step].
      * split; [exact A|]. split; [|exact C]. apply BT; [reflexivity|]. destruct (nth_error (imgs w) i) as [m|]; [|exact I]. destruct (i_undist m); [exact I|].
        destruct c; [exact I|]. unfold has_cal in Ec. destruct (cal w); [discriminate|reflexivity].
      * split; [exact A|]. split; [|exact C]. apply BT; [reflexivity|]. destruct (nth_error (imgs w) i) as [m|]; [|exact I]. destruct (cal w); [|exact I]. destruct (same_size _ _); exact I.
      * split; [exact A|]. split; [|exact C]. apply BT; [reflexivity|]. destruct (cal w) as [c0|]; [|exact I]. destruct (undist_map w) as [m|]; [|reflexivity].
        destruct (same_size _ _); [exact I|reflexivity].
      * split; [cbn; intros m' X; injection X as <-; exact Ep|]. split; [|exact C]. apply BT; [reflexivity|exact I].
      * split; [exact A|]. split; [|exact C]. apply BT; [reflexivity|]. destruct (undist_map w) as [m|] eqn:Em; [|exact I]. apply A. reflexivity.
      * split; [exact A|]. split; [apply (BT (change i (with_undist (Some p)) w)); [reflexivity|exact I]|].
        intros j m q Ij Em Eu. cbn in Ij, Em |- *. apply looked in Em. destruct Em as (m0&Em&->). destruct (Nat.eqb i j); [|apply (C j m0 q Ij Em Eu)].
        cbn in Eu. injection Eu as <-. exact Ep.
Qed.
Theorem C72_shown d es : calm es (start d) -> let w := rn es (start d) in
  forall m, In m (listed w) -> i_undist m = None \/ second_view m = cal w.
Proof.
  intros HC w m I. assert (X : fresh w).
  { unfold w. assert (S : ok (start d) /\ fresh (start d)) by (split; [apply start_ok|]; split; [discriminate|]; split; [intros i c p []|intros i m' p []]).
    clear w I. revert HC S. generalize (start d) as w0. induction es as [|e es IH]; intros w0 HC (S1&S2); [exact S2|]. destruct HC as (H1&H2).
    apply (IH (stp e w0) H2). split; [apply step_ok; exact S1|]. apply fresh_step; auto. }
  destruct X as (_&_&C). apply listed_in in I. destruct I as (i&I&Em). unfold second_view. destruct (i_undist m) as [p|] eqn:E; [right|auto]. symmetry. apply (C i m p I Em E).
Qed.

(** ** The image size of a fit *)
(** As long as no calibration is loaded from a file, the size with which a fit is made is that of the first image of the
    list. *)
Definition not_load (e : event) : Prop := match e with ELoad _ => False | _ => True end.
Definition sized (w : win) : Prop := forall i l m, images w = i :: l -> nth_error (imgs w) i = Some m -> size w = Some (sizeof (i_file m)).
Lemma sized_same w w' : sized w -> (images w' = images w \/ images w' = []) -> (images w <> [] -> size w' = size w) ->
  (forall i m', nth_error (imgs w') i = Some m' -> exists m, nth_error (imgs w) i = Some m /\ i_file m' = i_file m) -> sized w'.
Proof.
  intros H [E|E] ES EM i l m' EI Em; [|rewrite E in EI; discriminate]. rewrite E in EI. destruct (EM i m' Em) as (m&X&->). rewrite ES by (rewrite EI; discriminate). apply (H i l m EI X).
Qed.
Lemma sized_change i f (ms : list img) : (forall m, i_file (f m) = i_file m) -> forall j m', nth_error (update i f ms) j = Some m' -> exists m, nth_error ms j = Some m /\ i_file m' = i_file m.
Proof. intros F j m' H. apply looked in H. destruct H as (m0&H&->). exists m0. split; [exact H|]. destruct (Nat.eqb i j); [apply F|reflexivity]. Qed.
Lemma sized_next w : sized w -> sized (process_next w).
Proof.
  intros H. unfold process_next. destruct (nth_error (images w) (index w)) as [i|]; [|exact H]. apply (sized_same w); auto. apply (sized_change i connected). reflexivity.
Qed.
Lemma sized_step e w : not_load e -> ok w -> sized w -> sized (stp e w).
Proof.
  intros N HO H. destruct e; cbn [step].
  - destruct (batch_spec files w) as (s&->&S). intros i l m. cbn. apply S.
  - apply (sized_same w); eauto.
  - unfold toggle. destruct (nth_error (images w) row) as [i|]; [|exact H]. apply (sized_same w); auto. apply (sized_change i toggled).
    intros m. destruct (toggled_same m) as (_&_&_&_&Y&_). exact Y.
  - apply sized_next. exact H.
  - destruct (fit_spec rms m dist w) as [->|(c&a&b&->&E1&<-&<-)]; [exact H|]. destruct (calib_spec c w) as (ms&ts&->&_&M&T). apply (sized_same w); auto.
    intros i m'. cbn. rewrite M. destruct (nth_error (imgs w) i) as [m0|]; [|discriminate]. cbn. intros X. injection X as <-. exists m0. split; [reflexivity|]. destruct (existsb _ _); reflexivity.
  - destruct N.
  - destruct (selected_spec (set_selected row w)) as (ts&->&T). exact H.
  - destruct (calls w); [exact H|]. apply sized_next. exact H.
  - unfold thread_step. destruct (nth_error (threads w) k) as [[i p|i c p]|] eqn:E; [| |exact H].
    + assert (TI := nth_error_In _ _ E). assert (L := s_tid _ _ _ HO _ TI). cbn in L.
      destruct (proc_spec i p w L) as (d&n&r&F&ES&EN). rewrite ES. apply (sized_same w); auto. apply (sized_change i (proc_change p)). intros m. destruct p; reflexivity.
    + destruct (load_spec i c p w) as (m&r&ES&_). rewrite ES. destruct p; try exact H. apply (sized_same w); auto. apply (sized_change i). reflexivity.
Qed.
Theorem C72_size d es : (forall e, In e es -> not_load e) -> let w := rn es (start d) in
  forall m l, listed w = m :: l -> size w = Some (sizeof (i_file m)).
Proof.
  intros N w m l E. assert (X : ok w /\ sized w).
  { unfold w. assert (S : ok (start d) /\ sized (start d)) by (split; [apply start_ok|]; intros i l' m'; discriminate).
    clear w E. revert S. generalize (start d) as w0. induction es as [|e es IH]; intros w0 (S1&S2); [split; assumption|].
    apply (IH (fun e' I => N e' (or_intror I)) (stp e w0)). split; [apply step_ok; exact S1|]. apply sized_step; auto. apply N. left. reflexivity. }
  destruct X as (HO&X). destruct (images w) as [|i li] eqn:EI; [unfold listed in E; rewrite EI in E; discriminate|].
  destruct (nth_error (imgs w) i) as [m0|] eqn:Em; [|apply nth_error_None in Em; pose proof (s_list _ _ _ HO i) as Y; rewrite EI in Y; specialize (Y (or_introl eq_refl)); lia].
  rewrite (X i li m0 EI Em). unfold listed in E. rewrite EI in E. cbn [flat_map] in E. rewrite Em in E. cbn in E. congruence.
Qed.
(** ** Only pictures of the camera's size are corrected *)
(** [fits m c]: the picture has the width and the height of the calibration. *)
Definition fits (m : img) (c : calibration) : Prop := neqb (fst (sizeof (i_file m))) (cal_w c) = true /\ neqb (snd (sizeof (i_file m))) (cal_h c) = true.
Lemma fits_dec m c : {fits m c} + {~ fits m c}.
Proof. unfold fits. destruct (neqb _ _); [destruct (neqb _ _); [left; auto|]|]; right; intros (A&B); discriminate. Qed.
Lemma same_fits m c : same_size (sizeof (i_file m)) (cal_size c) = true <-> fits m c.
Proof. unfold same_size, fits. rewrite andb_true_iff. reflexivity. Qed.
Definition past (p : load_at) : bool := match p with LTest | LWrite _ | LReturn | LStore (Some _) => true | _ => false end.
Definition checked (w : win) : Prop :=
  (forall i c p m c0, In (Load i c p) (threads w) -> past p = true -> nth_error (imgs w) i = Some m -> cal w = Some c0 -> fits m c0) /\
  (forall i m q c0, In i (images w) -> nth_error (imgs w) i = Some m -> i_undist m = Some (Some q) -> cal w = Some c0 -> fits m c0) /\
  (forall i c, In (Load i c LReturn) (threads w) -> undist_map w <> None) /\
  (forall i c p, In (Load i c p) (threads w) -> p = LSize \/ p = LTest -> c = true).
Lemma checked_same w w' : checked w -> cal w' = cal w -> undist_map w' = undist_map w -> (forall i, In i (images w') -> In i (images w)) ->
  (forall i c p, In (Load i c p) (threads w') -> In (Load i c p) (threads w) \/ p = LCheck) ->
  (forall i m', nth_error (imgs w') i = Some m' -> (exists m, nth_error (imgs w) i = Some m /\ i_file m' = i_file m /\ i_undist m' = i_undist m)) -> checked w'.
Proof.
  intros (A&B&C&D) E1 E2 E3 E4 E5. unfold checked. rewrite E1, E2. split; [|split; [|split]].
  - intros i c p m' c0 I P Em. destruct (E4 i c p I) as [X| ->]; [|discriminate]. destruct (E5 i m' Em) as (m&X1&X2&_). unfold fits. rewrite X2. apply (A i c p m c0 X P X1).
  - intros i m' q c0 I Em. destruct (E5 i m' Em) as (m&X1&X2&->). unfold fits. rewrite X2. apply (B i m q c0 (E3 i I) X1).
  - intros i c I. destruct (E4 i c _ I) as [X|X]; [apply (C i c X)|discriminate].
  - intros i c p I. destruct (E4 i c p I) as [X| ->]; [apply (D i c p X)|intros [X|X]; discriminate].
Qed.
Lemma kept_change i f (ms : list img) : (forall m, i_file (f m) = i_file m /\ i_undist (f m) = i_undist m) ->
  forall j m', nth_error (update i f ms) j = Some m' -> exists m, nth_error ms j = Some m /\ i_file m' = i_file m /\ i_undist m' = i_undist m.
Proof. intros F j m' H. apply looked in H. destruct H as (m0&H&->). exists m0. split; [exact H|]. destruct (Nat.eqb i j); [apply F|auto]. Qed.
Lemma checked_next w : checked w -> checked (process_next w).
Proof.
  intros H. unfold process_next. destruct (nth_error (images w) (index w)) as [i|]; [|exact H]. apply (checked_same w); auto.
  - intros j c p. cbn. rewrite in_app_iff. intros [X|[X|[]]]; [auto|discriminate].
  - apply (kept_change i connected). auto.
Qed.
Lemma checked_calibration c w : (forall t, In t (threads w) -> loading t = false) -> checked (new_calibration c w).
Proof.
  intros N. destruct (calib_spec c w) as (ms&ts&->&_&M&T).
  assert (X : forall i c' p, In (Load i c' p) (threads w ++ ts) -> p = LCheck).
  { intros i c' p. rewrite in_app_iff. intros [Y|Y]; [apply N in Y; discriminate|]. destruct T as [->|(j&_&->)]; [destruct Y|]. destruct Y as [Y|[]]. congruence. }
  split; [|split; [|split]].
  - intros i c' p m c0 Y P. apply X in Y. subst p. discriminate.
  - intros i m q c0 Y. cbn in Y |- *. rewrite M. destruct (nth_error (imgs w) i) as [m0|]; [|discriminate]. cbn. intros Z. injection Z as <-.
    replace (existsb (Nat.eqb i) (images w)) with true; [discriminate|]. symmetry. apply existsb_exists. exists i. split; [exact Y|apply Nat.eqb_refl].
  - intros i c' Y. apply X in Y. discriminate.
  - intros i c' p Y. apply X in Y. subst p. intros [Z|Z]; discriminate.
Qed.
Lemma checked_step e w : (brings e = true -> forall t, In t (threads w) -> loading t = false) -> ok w -> fresh w -> checked w -> checked (stp e w).
Proof.
  intros N HO HF H. destruct e; cbn [step].
  - destruct (batch_spec files w) as (s&->&_). destruct H as (A&B&C&D). split; [|split; [|split; [exact C|exact D]]].
    + intros i c p m c0 Y P. cbn. assert (L := s_tid _ _ _ HO _ Y). cbn in L. rewrite nth_error_app1 by exact L. apply (A i c p m c0 Y P).
    + intros i m q c0 Y. cbn in Y |- *. intros Em. destruct (Nat.lt_ge_cases i (List.length (imgs w))) as [L|L].
      * rewrite nth_error_app1 in Em by exact L. apply (B i m q c0); auto. apply in_app_iff in Y. destruct Y as [Y|Y]; [exact Y|]. apply in_seq in Y. lia.
      * rewrite nth_error_app2 in Em by exact L. apply nth_error_In in Em. apply in_map_iff in Em. destruct Em as (f&<-&_). unfold new_img. destruct (disk w (corner_path f)); discriminate.
  - apply (checked_same w); auto; [intros i []|]. intros i m. cbn. eauto.
  - unfold toggle. destruct (nth_error (images w) row) as [i|]; [|exact H]. apply (checked_same w); auto. apply (kept_change i toggled).
    intros m. destruct (toggled_same m) as (_&_&_&_&Y&Z). auto.
  - apply checked_next. apply (checked_same w); auto. intros i m. cbn. eauto.
  - destruct (fit_spec rms m dist w) as [->|(c&a&b&->&_)]; [exact H|]. apply checked_calibration; auto.
  - apply checked_calibration; auto.
  - destruct (selected_spec (set_selected row w)) as (ts&->&T). apply (checked_same w); auto.
    + intros i c p. cbn. rewrite in_app_iff. intros [Y|Y]; [auto|]. destruct T as [->|(j&_&->)]; [destruct Y|]. destruct Y as [Y|[]]. injection Y as <- <- <-. auto.
    + intros i m. cbn. eauto.
  - destruct (calls w); [exact H|]. apply checked_next. apply (checked_same w); auto. intros i m. cbn. eauto.
  - unfold thread_step. destruct (nth_error (threads w) k) as [[i p|i c p]|] eqn:E; [| |exact H].
    + assert (TI := nth_error_In _ _ E). assert (L := s_tid _ _ _ HO _ TI). cbn in L.
      destruct (proc_spec i p w L) as (d&n&r&F&ES&EN). rewrite ES. apply (checked_same w); auto.
      * intros j c q. cbn. intros Y. apply replace_in in Y. destruct Y as [Y|Y]; [auto|destruct r; discriminate].
      * apply (kept_change i (proc_change p)). intros m. destruct p; auto.
    + assert (TI := nth_error_In _ _ E). pose proof H as (A&B&C&D). pose proof HF as (F1&F2&F3). destruct (F2 i c p TI) as (Ec&Ep).
      assert (BT : forall r, (forall q m c0, r = Some q -> past q = true -> nth_error (imgs w) i = Some m -> cal w = Some c0 -> fits m c0) ->
        forall j c' q m c0, In (Load j c' q) (replace_thread k (option_map (Load i c) r) (threads w)) -> past q = true -> nth_error (imgs w) j = Some m -> cal w = Some c0 -> fits m c0).
      { intros r X j c' q m c0 Y. apply replace_in in Y. destruct Y as [Y|Y]; [apply (A j c' q m c0 Y)|]. destruct r as [q'|]; [|discriminate]. injection Y as -> -> ->. apply X. reflexivity. }
      assert (CT : forall r, (r = Some LReturn -> undist_map w <> None) -> forall j c', In (Load j c' LReturn) (replace_thread k (option_map (Load i c) r) (threads w)) -> undist_map w <> None).
      { intros r X j c' Y. apply replace_in in Y. destruct Y as [Y|Y]; [apply (C j c' Y)|]. destruct r as [q'|]; [|discriminate]. injection Y as -> -> <-. auto. }
      assert (DT : forall r, (forall q, r = Some q -> q = LSize \/ q = LTest -> c = true) -> forall j c' q, In (Load j c' q) (replace_thread k (option_map (Load i c) r) (threads w)) -> q = LSize \/ q = LTest -> c' = true).
      { intros r X j c' q Y. apply replace_in in Y. destruct Y as [Y|Y]; [apply (D j c' q Y)|]. destruct r as [q'|]; [|discriminate]. injection Y as -> -> <-. exact (X _ eq_refl). }
      assert (PP : past p = true -> forall m c0, nth_error (imgs w) i = Some m -> cal w = Some c0 -> fits m c0) by (intros P m c0; apply (A i c p m c0 TI P)).
      destruct p; cbn [load_step].
      * split; [apply BT|split; [exact B|split; [apply CT|apply DT]]].
        -- intros q m c0 X P Em _. rewrite Em in X. destruct (i_undist m); [discriminate|]. destruct c; injection X as <-; discriminate.
        -- destruct (nth_error (imgs w) i) as [m|]; [|discriminate]. destruct (i_undist m); [discriminate|]. destruct c; discriminate.
        -- intros q X Y. destruct (nth_error (imgs w) i) as [m|]; [|discriminate]. destruct (i_undist m); [discriminate|]. destruct c; [reflexivity|]. injection X as <-. destruct Y; discriminate.
      * assert (T : c = true) by (apply (D i c LSize TI); auto). split; [apply BT|split; [exact B|split; [apply CT|apply DT; auto]]].
        -- intros q m c0 X P Em Ec0. rewrite Em, Ec0 in X. destruct (same_size _ _) eqn:ES; [|discriminate]. apply same_fits. exact ES.
        -- destruct (nth_error (imgs w) i); [|discriminate]. destruct (cal w); [|discriminate]. destruct (same_size _ _); discriminate.
      * assert (T : c = true) by (apply (D i c LTest TI); auto). split; [apply BT; intros q m c0 _ _; auto|split; [exact B|split; [apply CT|apply DT; auto]]].
        destruct (cal w); [|discriminate]. destruct (undist_map w); discriminate.
      * split; [apply (BT (Some LReturn)); intros q m0 c0 _ _; auto|]. split; [exact B|]. split; [cbn; discriminate|]. apply (DT (Some LReturn)). intros q X. injection X as <-. intros [X|X]; discriminate.
      * split; [apply BT; intros q m c0 _ _; auto|]. split; [exact B|]. split; [apply CT|apply DT]; destruct (undist_map w); try discriminate.
        intros q X. injection X as <-. intros [X|X]; discriminate.
      * split; [|split; [|split; [apply (CT None); discriminate|apply (DT None); discriminate]]].
        -- intros j c' q m c0 Y P. cbn. intros Em Ec0. apply looked in Em. destruct Em as (m0&Em&->).
           replace (fits (if Nat.eqb i j then with_undist (Some p) m0 else m0) c0) with (fits m0 c0) by (destruct (Nat.eqb i j); reflexivity).
           apply (BT None) with (j := j) (c' := c') (q := q); auto. discriminate.
        -- intros j m q c0 Y. cbn in Y |- *. intros Em Eu Ec0. apply looked in Em. destruct Em as (m0&Em&->). destruct (Nat.eqb_spec i j) as [<-|_]; [|apply (B j m0 q c0 Y Em Eu Ec0)].
           cbn in Eu. injection Eu as ->. apply (PP eq_refl m0 c0 Em Ec0).
Qed.
(** A picture that was corrected has the width and the height for which the camera was calibrated. *)
Theorem C72_corrected_size d es : calm es (start d) -> let w := rn es (start d) in
  forall m c, In m (listed w) -> i_undist m = Some (Some c) -> fits m c.
Proof.
  intros HC w m c I Eu. assert (X : ok w /\ fresh w /\ checked w).
  { unfold w. assert (S : ok (start d) /\ fresh (start d) /\ checked (start d)).
    { split; [apply start_ok|]; split; [split; [discriminate|]; split; [intros i c' p []|intros i m' p []]|]. split; [intros i c' p m' c0 []|split; [intros i m' q c0 []|split; [intros i c' []|intros i c' p []]]]. }
    clear w I. revert HC S. generalize (start d) as w0. induction es as [|e es IH]; intros w0 HC (S1&S2&S3); [auto|]. destruct HC as (H1&H2).
    apply (IH (stp e w0) H2). split; [apply step_ok; exact S1|]. split; [apply fresh_step; auto|apply checked_step; auto]. }
  destruct X as (_&(_&_&F)&(_&C&_&_)). apply listed_in in I. destruct I as (i&I&Em). apply (C i m c c I Em Eu (F i m (Some c) I Em Eu)).
Qed.

(** ** The selected picture is loaded *)
(** A selected row that does not exist counts as the first.  When all loading has come to an end and nothing else was
    selected, the selected picture is there: corrected with the current calibration, or itself without one; only if its
    size is not that of the camera there may be none. *)
Definition chosen (l : list nat) (row : nat) : nat := if Nat.ltb row (List.length l) then row else 0.
Definition stays (e : event) : Prop := match e with EClear | ESelect _ | EBatch _ => False | _ => True end.
Definition awaited (row i : nat) (w : win) : Prop := selected w = row /\ nth_error (images w) (chosen (images w) row) = Some i /\
  ((exists c p, In (Load i c p) (threads w)) \/ forall m, nth_error (imgs w) i = Some m -> i_undist m <> None \/ exists c, cal w = Some c /\ ~ fits m c).
Lemma chosen_image w row i : selected w = row -> nth_error (images w) (chosen (images w) row) = Some i -> selected_image w = Some i.
Proof.
  intros <-. unfold chosen, selected_image. destruct (Nat.ltb_spec (selected w) (List.length (images w))) as [L|L]; intros E; [rewrite E; reflexivity|].
  apply nth_error_None in L. rewrite L. exact E.
Qed.
Lemma awaited_same row i w w' : awaited row i w -> selected w' = selected w -> images w' = images w -> cal w' = cal w ->
  (forall c p, In (Load i c p) (threads w) -> exists c p, In (Load i c p) (threads w')) ->
  (forall m', nth_error (imgs w') i = Some m' -> exists m, nth_error (imgs w) i = Some m /\ i_file m' = i_file m /\ i_undist m' = i_undist m) -> awaited row i w'.
Proof.
  intros (A&B&C) E1 E2 E3 E4 E5. unfold awaited. rewrite E1, E2, E3. split; [exact A|]. split; [exact B|].
  destruct C as [(c&p&C)|C]; [left; eauto|right]. intros m' Em. destruct (E5 m' Em) as (m&X1&X2&X3). unfold fits. rewrite X2, X3. apply (C m X1).
Qed.
Lemma awaited_next row i w : awaited row i w -> awaited row i (process_next w).
Proof.
  intros H. unfold process_next. destruct (nth_error (images w) (index w)) as [j|]; [|exact H]. apply (awaited_same row i w); auto.
  - intros c p Y. exists c, p. cbn. apply in_app_iff. auto.
  - apply (kept_change j connected). auto.
Qed.
Lemma awaited_selected row i w : selected w = row -> nth_error (images w) (chosen (images w) row) = Some i -> awaited row i (image_selected w).
Proof.
  intros A B. unfold image_selected. rewrite (chosen_image w row i A B). split; [exact A|]. split; [exact B|]. left. do 2 eexists. cbn. apply in_app_iff. right. left. reflexivity.
Qed.
Lemma awaited_calibration row i c w : awaited row i w -> awaited row i (new_calibration c w).
Proof.
  intros (A&B&_). unfold new_calibration. set (w2 := set_size (Some (cal_w c, cal_h c)) (set_map None (set_cal (Some c) w))).
  change (fold_left (fun w i => change i (with_undist None) w) (images w2) w2) with (reset (images w2) w2).
  destruct (reset_other (images w2) w2) as (E&_&_). apply awaited_selected; rewrite E; [exact A|exact B].
Qed.
Lemma awaited_step row i e w : stays e -> ok w -> fresh w -> checked w -> awaited row i w -> awaited row i (stp e w).
Proof.
  intros N HO HF HC H. destruct e; try destruct N; cbn [step].
  - unfold toggle. destruct (nth_error (images w) row0) as [j|]; [|exact H]. apply (awaited_same row i w); eauto. apply (kept_change j toggled).
    intros m. destruct (toggled_same m) as (_&_&_&_&Y&Z). auto.
  - apply awaited_next. apply (awaited_same row i w); eauto.
  - destruct (fit_spec rms m dist w) as [->|(c&a&b&->&_)]; [exact H|]. apply awaited_calibration; auto.
  - apply awaited_calibration; auto.
  - destruct (calls w); [exact H|]. apply awaited_next. apply (awaited_same row i w); eauto.
  - unfold thread_step. destruct (nth_error (threads w) k) as [[j p|j c p]|] eqn:E; [| |exact H].
    + assert (TI := nth_error_In _ _ E). assert (L := s_tid _ _ _ HO _ TI). cbn in L.
      destruct (proc_spec j p w L) as (d&n&r&F&ES&EN). rewrite ES. apply (awaited_same row i w); auto.
      * intros c q Y. exists c, q. cbn. destruct (in_replace k (option_map (Proc j) r) _ _ Y) as [Z|Z]; [congruence|exact Z].
      * apply (kept_change j (proc_change p)). intros m. destruct p; auto.
    + assert (TI := nth_error_In _ _ E). pose proof H as (A&B&C). pose proof HF as (F1&F2&F3). destruct (F2 j c p TI) as (Ec&Ep). destruct HC as (_&_&K&K2).
      assert (GO : forall w' r, selected w' = selected w -> images w' = images w -> cal w' = cal w -> imgs w' = imgs w ->
        (i = j -> r = None -> forall m, nth_error (imgs w) i = Some m -> i_undist m <> None \/ exists c, cal w = Some c /\ ~ fits m c) ->
        awaited row i (set_threads (replace_thread k (option_map (Load j c) r) (threads w)) w')).
      { intros w' r E1 E2 E3 E4 X. unfold awaited. cbn [selected images threads imgs cal set_threads]. rewrite E1, E2, E3, E4. split; [exact A|]. split; [exact B|].
        destruct C as [(c1&p1&C)|C]; [|auto]. destruct (in_replace k (option_map (Load j c) r) _ _ C) as [Z|Z]; [|left; eauto].
        rewrite E in Z. injection Z as -> -> ->. destruct r as [q|]; [left; exists c1, q; apply new_in|right; auto]. }
      destruct p; cbn [load_step].
      * apply GO; auto. intros <- X m Em. rewrite Em in X. destruct (i_undist m); [left; discriminate|destruct c; discriminate].
      * apply GO; auto. intros <- X m Em. rewrite Em in X. unfold has_cal in Ec. destruct (cal w) as [c0|] eqn:EC.
        -- destruct (same_size _ _) eqn:ES; [discriminate|]. right. exists c0. split; [reflexivity|]. rewrite <- same_fits. congruence.
        -- rewrite (K2 _ _ _ TI (or_introl eq_refl)) in Ec. discriminate.
      * apply GO; auto. intros <- X m Em. unfold has_cal in Ec. destruct (cal w) as [c0|] eqn:EC.
        -- destruct (undist_map w); discriminate.
        -- rewrite (K2 _ _ _ TI (or_intror eq_refl)) in Ec. discriminate.
      * apply (GO (set_map (Some m) w) (Some LReturn)); auto. discriminate.
      * apply GO; auto. intros <- X. destruct (undist_map w) eqn:EU; [discriminate|]. destruct (K _ _ TI eq_refl).
      * unfold awaited. cbn [selected images threads imgs cal set_threads change set_imgs]. split; [exact A|]. split; [exact B|].
        destruct (Nat.eq_dec i j) as [<-|NE].
        -- right. intros m Em. apply looked in Em. destruct Em as (m0&Em&->). rewrite Nat.eqb_refl. left. discriminate.
        -- destruct C as [(c1&p1&C)|C].
           ++ destruct (in_replace k (option_map (Load j c) None) _ _ C) as [Z|Z]; [congruence|left; eauto].
           ++ right. intros m Em. apply looked in Em. destruct Em as (m0&Em&->). destruct (Nat.eqb_spec j i); [congruence|]. apply (C m0 Em).
Qed.
Lemma calm_after a b w : calm (a ++ b) w <-> calm a w /\ calm b (rn a w).
Proof. revert w. induction a as [|e a IH]; intros w; [cbn; tauto|]. cbn [app calm]. rewrite IH. cbn. tauto. Qed.
Definition good (w : win) : Prop := ok w /\ fresh w /\ checked w.
Lemma good_start d : good (start d).
Proof. split; [apply start_ok|]; split; [split; [discriminate|]; split; [intros i c' p []|intros i m' p []]|]. split; [intros i c' p m' c0 []|split; [intros i m' q c0 []|split; [intros i c' []|intros i c' p []]]]. Qed.
Lemma good_step e w : (brings e = true -> forall t, In t (threads w) -> loading t = false) -> good w -> good (stp e w).
Proof. intros H (A&B&C). split; [apply step_ok; exact A|]. split; [apply fresh_step; auto|apply checked_step; auto]. Qed.
Lemma good_run es w : calm es w -> good w -> good (rn es w).
Proof. revert w. induction es as [|e es IH]; intros w HC G; [exact G|]. destruct HC as (H1&H2). apply (IH (stp e w) H2). apply good_step; auto. Qed.
Theorem C72_selected d before row es i : let all := before ++ ESelect row :: es in let l := images (rn before (start d)) in let w := rn all (start d) in
  calm all (start d) -> (forall e, In e es -> stays e) -> nth_error l (chosen l row) = Some i -> (forall t, In t (threads w) -> loading t = false) ->
  exists m, nth_error (imgs w) i = Some m /\ In m (listed w) /\
    (i_undist m = Some (cal w) \/ exists c, cal w = Some c /\ ~ fits m c).
Proof.
  intros all l w HC HS Hi Q. unfold all in HC. apply calm_after in HC. destruct HC as (C1&C2&C3).
  pose proof (good_run _ _ C1 (good_start d)) as G0.
  assert (G1 : good (stp (ESelect row) (rn before (start d)))) by (apply good_step; [discriminate|exact G0]).
  assert (A1 : awaited row i (stp (ESelect row) (rn before (start d)))) by (apply awaited_selected; [reflexivity|exact Hi]).
  assert (X : good w /\ awaited row i w).
  { unfold w, all. unfold run. rewrite fold_left_app. cbn [fold_left]. change (fold_left (fun w e => stp e w)) with (fun es w => rn es w). cbv beta.
    revert C3 G1 A1. generalize (stp (ESelect row) (rn before (start d))) as w0. clear -HS. induction es as [|e es IH]; intros w0 C G A; [auto|]. destruct C as (H1&H2).
    apply (IH (fun e' I => HS e' (or_intror I)) (stp e w0) H2); [apply good_step; auto|]. destruct G as (G1&G2&G3). apply awaited_step; auto. apply HS. left. reflexivity. }
  destruct X as ((HO&(_&_&F)&_)&(_&B&C)). assert (I := nth_error_In _ _ B). pose proof (s_list _ _ _ HO i I) as L.
  destruct (nth_error (imgs w) i) as [m|] eqn:Em; [|apply nth_error_None in Em; lia]. exists m. split; [reflexivity|]. split; [apply listed_in; eauto|].
  destruct C as [(c&p&C)|C]; [apply Q in C; discriminate|]. destruct (C m eq_refl) as [X|X]; [left|auto].
  destruct (i_undist m) as [p|] eqn:Eu; [|congruence]. rewrite (F i m p I Em Eu). reflexivity.
Qed.
End Runs.
Print Assumptions C72_used.
Print Assumptions C72_points.
Print Assumptions C72_processed.
Print Assumptions C72_shown.
Print Assumptions C72_size.
Print Assumptions C72_corrected_size.
Print Assumptions C72_selected.

(** ** The flags *)
(** cv2.calibrateCamera leaves alone exactly what is not ticked (bits of its documentation: 1 aspect ratio, 2 centre,
    3 no tangential distortion, 5 to 7 the radial coefficients). *)
Definition fixed (center aspect k1 k2 k3 : bool) (bit : N) : bool :=
  match bit with 1 => negb aspect | 2 => negb center | 3 => true | 5 => negb k1 | 6 => negb k2 | 7 => negb k3 | _ => false end%N.
Theorem C72_flags center aspect k1 k2 k3 bit : N.testbit (flags center aspect k1 k2 k3) bit = fixed center aspect k1 k2 k3 bit.
Proof.
  destruct (N.lt_ge_cases bit 8) as [L|L].
  - assert (B : (bit = 0 \/ bit = 1 \/ bit = 2 \/ bit = 3 \/ bit = 4 \/ bit = 5 \/ bit = 6 \/ bit = 7)%N) by lia.
    repeat (destruct B as [->|B]; [destruct center, aspect, k1, k2, k3; reflexivity|]). subst bit. destruct center, aspect, k1, k2, k3; reflexivity.
  - rewrite N.bits_above_log2.
    + destruct bit as [|p]; [reflexivity|]. destruct p as [[[p|p|]|[p|p|]|]|[[p|p|]|[p|p|]|]|]; try reflexivity; lia.
    + apply (N.lt_le_trans _ 8); [|exact L]. destruct center, aspect, k1, k2, k3; reflexivity.
Qed.
Print Assumptions C72_flags.

(** ** What does not hold *)
Definition steps (k n : nat) : list event := repeat (EThread k) n.
Definition corners_a : corner_list := repeat (V2 PInf NegZ) 54.
Definition corners_b : corner_list := repeat (V2 NInf NegZ) 54.
Definition jpg : file := File "dir" "a" "jpg".
Definition png : file := File "dir" "a" "png".
Definition other : file := File "dir" "b" "jpg".
Definition third : file := File "dir" "c" "jpg".
Definition empty_disk : path -> option corner_list := fun _ => None.
Definition see (f : file) : option corner_list := if String.eqb (f_ext f) "jpg" then Some corners_a else Some corners_b.
Definition one_size (f : file) : num * num := (Fin 100, Fin 80).
(** Pictures a.jpg and a.png of one folder: the second is fitted with the corners of the first. *)
Theorem C72_same_name_refuted : exists detect sizeof es m c, let w := run detect sizeof es (start empty_disk) in
  In m (listed w) /\ i_use m = true /\ i_status m = Done /\ i_corners m = Some c /\ detect (i_file m) <> Some c.
Proof.
  exists see, one_size, (EBatch [jpg; png] :: EProcess :: steps 0 7 ++ ECall :: steps 0 7), (Img png (Some corners_a) true Done true 1 None), corners_a.
  split; [refine (nth_error_In _ 1 _); vm_compute; reflexivity|]. split; [reflexivity|]. split; [reflexivity|]. split; [reflexivity|]. vm_compute. discriminate.
Qed.
Print Assumptions C72_same_name_refuted.
(** A stored file with another number of corners (of another chessboard): the image is marked as failed, but it is used. *)
Theorem C72_failed_refuted : exists detect sizeof d es m c, let w := run detect sizeof es (start d) in
  In m (listed w) /\ i_status m = Failed /\ fit_points (listed w) = Some [c] /\ List.length c <> 54.
Proof.
  exists see, one_size, (fun _ => Some (repeat (V2 PInf NegZ) 35)), (EBatch [jpg] :: EProcess :: steps 0 4). do 2 eexists.
  split; [left; reflexivity|]. split; [reflexivity|]. split; [reflexivity|]. discriminate.
Qed.
Print Assumptions C72_failed_refuted.
(** Marking an image as used just when a thread has stored its corners and not yet its pattern: the fit raises. *)
Theorem C72_race_refuted : exists detect sizeof es, let w := run detect sizeof es (start empty_disk) in fit_points (listed w) = None.
Proof. exists see, one_size, (EBatch [jpg] :: EProcess :: steps 0 3 ++ [EToggle 0]). reflexivity. Qed.
Print Assumptions C72_race_refuted.
(** After "Process" was pressed a second time, images are no longer processed one after the other. *)
Theorem C72_parallel_refuted : exists detect sizeof es, let w := run detect sizeof es (start empty_disk) in
  List.length (filter processing (threads w)) = 2 /\ threads (run detect sizeof (EBatch [jpg; other; third] :: EProcess :: steps 0 7 ++ ECall :: steps 0 7 ++ ECall :: steps 0 7) (start empty_disk)) = [].
Proof.
  exists see, one_size, (EBatch [jpg; other; third] :: EProcess :: steps 0 7 ++ ECall :: steps 0 7 ++ ECall :: steps 0 7 ++ ECall :: EProcess :: steps 0 7 ++ [ECall; ECall]).
  split; reflexivity.
Qed.
Print Assumptions C72_parallel_refuted.
(** Images of different sizes are fitted together (processImage gets no size to compare with). *)
Theorem C72_mixed_refuted : exists detect sizeof es m n, let w := run detect sizeof es (start empty_disk) in
  filter i_use (listed w) = [m; n] /\ (exists l, fit_points (listed w) = Some l /\ List.length l = 2) /\ sizeof (i_file m) <> sizeof (i_file n).
Proof.
  exists see, (fun f => if String.eqb (f_base f) "a" then (Fin 100, Fin 80) else (Fin 200, Fin 80)),
    (EBatch [jpg; other] :: EProcess :: steps 0 7 ++ ECall :: steps 0 7). do 2 eexists.
  split; [reflexivity|]. split; [eexists; split; reflexivity|]. intros X. apply (f_equal fst) in X. cbn in X. injection X as X. lra.
Qed.
Print Assumptions C72_mixed_refuted.
Definition cal_of (w h k : R) : calibration := Cal (Fin 0) (Fin w) (Fin h) (Fin 100) (Fin 100) (Fin 50) (Fin 40) (Fin k) (Fin 0) (Fin 0).
(** After loading a calibration of another image size, a fit uses that size for the images. *)
Theorem C72_size_refuted : exists detect sizeof es m l, let w := run detect sizeof es (start empty_disk) in
  listed w = m :: l /\ size w <> Some (sizeof (i_file m)) /\ exists c, cal (run detect sizeof (es ++ [EFit (Fin 0) (V3 (V3 (Fin 1) (Fin 0) (Fin 0)) (V3 (Fin 0) (Fin 1) (Fin 0)) (V3 (Fin 0) (Fin 0) (Fin 1))) (repeat (Fin 0) 5)]) (start empty_disk)) = Some c /\
    (cal_w c, cal_h c) <> sizeof (i_file m).
Proof.
  exists see, one_size, [EBatch [jpg]; ELoad (cal_of 200 80 0)]. do 2 eexists. split; [reflexivity|].
  assert (N : (Fin 200, Fin 80) <> (Fin 100, Fin 80)) by (intros X; apply (f_equal fst) in X; cbn in X; injection X as X; lra).
  split; [intros X; apply N; injection X; intros; cbn; congruence|]. eexists. split; [reflexivity|]. exact N.
Qed.
Print Assumptions C72_size_refuted.
(** Running the events one by one. *)
Lemma run_one d s e es w : run d s (e :: es) w = run d s es (step d s e w).
Proof. reflexivity. Qed.
Lemma run_end d s w : run d s [] w = w.
Proof. reflexivity. Qed.
Ltac one_event :=
  match goal with |- context [run ?d ?s (?e :: ?es) ?w] =>
    rewrite (run_one d s e es w);
    let w' := eval cbv -[same_size IZR] in (step d s e w) in
    let E := fresh in assert (E : step d s e w = w') by (cbv -[same_size IZR]; reflexivity); rewrite E; clear E
  end.
Lemma same_size_fin a b : same_size (Fin a, Fin b) (Fin a, Fin b) = true.
Proof.
  unfold same_size; cbn [fst snd]. rewrite !(rep_eqb _ _ _ _ (rep_Fin _) (rep_Fin _)). unfold Reqb.
  repeat destruct Req_EM_T; first [reflexivity | exfalso; congruence].
Qed.
Ltac events := cbn [steps repeat app]; repeat (one_event; rewrite ?same_size_fin); rewrite run_end.
(** A calibration that arrives while a picture is being corrected: the picture keeps the old correction for ever, ... *)
Theorem C72_stale_refuted : exists detect sizeof es m c, let w := run detect sizeof es (start empty_disk) in
  threads w = [] /\ In m (listed w) /\ cal w = Some c /\ i_undist m <> None /\ second_view m <> Some c.
Proof.
  exists see, one_size, (EBatch [jpg] :: ELoad (cal_of 100 80 0) :: steps 0 5 ++ ELoad (cal_of 100 80 1) :: [EThread 0; EThread 0]). do 2 eexists.
  events.
  split; [reflexivity|]. split; [left; reflexivity|]. split; [reflexivity|]. split; [discriminate|]. cbn. intros X. injection X as X. lra.
Qed.
Print Assumptions C72_stale_refuted.
(** ... and if the map was just being written, every picture that is looked at later is corrected with the old one. *)
Theorem C72_stale_map_refuted : exists detect sizeof es m c, let w := run detect sizeof es (start empty_disk) in
  threads w = [] /\ cal w = Some c /\ listed w <> [] /\ i_undist m = None /\ nth_error (listed w) 1 = Some m /\
  exists es', let w' := run detect sizeof (ESelect 1 :: es') w in
    threads w' = [] /\ cal w' = Some c /\ exists m', nth_error (listed w') 1 = Some m' /\ i_undist m' <> None /\ second_view m' <> Some c.
Proof.
  exists see, one_size, (EBatch [jpg; other] :: ELoad (cal_of 100 80 0) :: steps 0 3 ++ ELoad (cal_of 100 80 1) :: steps 0 3 ++ steps 0 5). do 2 eexists.
  events. cbv zeta.
  split; [reflexivity|]. split; [reflexivity|]. split; [discriminate|]. split; [|split; [reflexivity|]]; [reflexivity|].
  exists (steps 0 5). events.
  split; [reflexivity|]. split; [reflexivity|]. eexists. split; [reflexivity|]. split; [discriminate|].
  cbn. intros X. injection X as X. lra.
Qed.
Print Assumptions C72_stale_map_refuted.

(** ** Examples *)
Definition both : list event := EProcess :: steps 0 7 ++ ECall :: steps 0 7 ++ [ECall].
(** Two images are found one after the other, all their corners are used; the second is then left out. *)
Example C72_used_example : let w := run see one_size (EBatch [jpg; other] :: both) (start empty_disk) in
  (forall i, ~ In (Proc i PPattern) (threads w)) /\ fit_points (listed w) = Some [corners_a; corners_a] /\
  fit_points (listed (run see one_size [EToggle 1] w)) = Some [corners_a].
Proof. cbv zeta. split; [intros i I; vm_compute in I; destruct I|]. split; vm_compute; reflexivity. Qed.
Example C72_points_example : let F := [jpg; other] in let es := EBatch [jpg; other] :: both in
  (forall f g, In f F -> In g F -> corner_path f = corner_path g -> see f = see g) /\
  (forall f, In f F -> forall c, empty_disk (corner_path f) = Some c -> see f = Some c) /\ (forall e f, In e es -> In f (batch_of e) -> In f F) /\
  fit_points (listed (run see one_size es (start empty_disk))) = Some [corners_a; corners_a].
Proof.
  cbv zeta. split; [intros f g [<-|[<-|[]]] [<-|[<-|[]]] _; reflexivity|]. split; [discriminate|]. split; [|vm_compute; reflexivity].
  intros e f I. unfold both in I. cbn [steps repeat app] in I. cbn [In] in I. repeat (destruct I as [<-|I]; [cbn; tauto|]). destruct I.
Qed.
Definition see_one (f : file) : option corner_list := if String.eqb (f_base f) "a" then Some corners_a else None.
Example C72_processed_example : let es := steps 0 7 ++ ECall :: EToggle 0 :: steps 0 7 ++ [ECall] in
  let w := run see_one one_size ([EBatch [jpg; other]] ++ EProcess :: es) (start empty_disk) in
  (forall e, In e es -> not_batch e) /\ quiet w /\ map i_status (listed w) = [Done; Failed] /\ map i_use (listed w) = [false; false].
Proof.
  cbv zeta. split.
  - intros e I. cbn [steps repeat app] in I. cbn [In] in I. repeat (destruct I as [<-|I]; [exact Logic.I|]). destruct I.
  - split; [split; [vm_compute; reflexivity|intros t I; vm_compute in I; destruct I]|]. split; vm_compute; reflexivity.
Qed.
Lemma calm_app d s a : forall b w, calm d s a w -> calm d s b (run d s a w) -> calm d s (a ++ b) w.
Proof. induction a as [|e a IH]; intros b w A B; [exact B|]. destruct A as (A1&A2). split; [exact A1|]. apply IH; assumption. Qed.
Lemma calm_steps d s k n : forall w, calm d s (steps k n) w.
Proof. induction n as [|n IH]; intros w; [exact Logic.I|]. split; [discriminate|]. apply IH. Qed.
Lemma calm_one d s e es w : threads w = [] -> calm d s es (step d s e w) -> calm d s (e :: es) w.
Proof. intros E C. split; [|exact C]. intros _ t I. rewrite E in I. destruct I. Qed.
(** A second calibration, loaded after the picture was corrected with the first. *)
Definition first_correction : list event := EBatch [jpg] :: ELoad (cal_of 100 80 0) :: steps 0 6.
Example C72_shown_example : let es := first_correction ++ ELoad (cal_of 100 80 1) :: steps 0 6 in
  calm see one_size es (start empty_disk) /\
  map i_undist (listed (run see one_size es (start empty_disk))) = [Some (Some (cal_of 100 80 1))].
Proof.
  cbv zeta. unfold first_correction. split.
  - apply calm_app.
    + apply calm_one; [reflexivity|]. apply calm_one; [reflexivity|]. apply calm_steps.
    + apply calm_one; [|apply calm_steps]. events. reflexivity.
  - events. reflexivity.
Qed.
Example C72_corrected_size_example : let es := first_correction in
  calm see one_size es (start empty_disk) /\
  map i_undist (listed (run see one_size es (start empty_disk))) = [Some (Some (cal_of 100 80 0))] /\
  fits one_size (Img jpg None false Unprocessed false 0 None) (cal_of 100 80 0) /\ ~ fits one_size (Img jpg None false Unprocessed false 0 None) (cal_of 100 90 0).
Proof.
  cbv zeta. unfold first_correction. split.
  - apply calm_one; [reflexivity|]. apply calm_one; [reflexivity|]. apply calm_steps.
  - split; [events; reflexivity|]. unfold fits. cbn [one_size fst snd cal_of cal_w cal_h]. rewrite !(rep_eqb _ _ _ _ (rep_Fin _) (rep_Fin _)). unfold Reqb.
    split; [split; destruct (Req_EM_T _ _); congruence|]. intros (_&X). destruct (Req_EM_T 80 90); [lra|discriminate].
Qed.
(** Two pictures; the second is selected after the first was corrected. *)
Definition both_loaded : list event := EBatch [jpg; other] :: ELoad (cal_of 100 80 0) :: steps 0 6.
Example C72_selected_example : let before := both_loaded in let es := steps 0 5 in let all := before ++ ESelect 1 :: es in
  let l := images (run see one_size before (start empty_disk)) in let w := run see one_size all (start empty_disk) in
  calm see one_size all (start empty_disk) /\ (forall e, In e es -> stays e) /\ nth_error l (chosen l 1) = Some 1 /\ chosen l 7 = 0 /\ threads w = [] /\
  map i_undist (listed w) = [Some (Some (cal_of 100 80 0)); Some (Some (cal_of 100 80 0))].
Proof.
  cbv zeta. unfold both_loaded. splits.
  - apply calm_app.
    + apply calm_one; [reflexivity|]. apply calm_one; [reflexivity|]. apply calm_steps.
    + apply calm_one; [|apply calm_steps]. events. reflexivity.
  - intros e H. apply repeat_spec in H. subst e. exact Logic.I.
  - events. reflexivity.
  - events. reflexivity.
  - events. reflexivity.
  - events. reflexivity.
Qed.
Example C72_size_example : let es := [EBatch [jpg; other]; EFit (Fin 0) (V3 (V3 (Fin 1) (Fin 0) (Fin 0)) (V3 (Fin 0) (Fin 1) (Fin 0)) (V3 (Fin 0) (Fin 0) (Fin 1))) (repeat (Fin 0) 5)] in
  let w := run see one_size es (start empty_disk) in
  (forall e, In e es -> not_load e) /\ size w = Some (Fin 100, Fin 80) /\ List.length (listed w) = 2 /\ cal w <> None.
Proof.
  cbv zeta. split; [intros e [<-|[<-|[]]]; exact Logic.I|]. split; [reflexivity|]. split; [reflexivity|]. discriminate.
Qed.
Example C72_flags_example : flags true false true true false = 138%N.
Proof. reflexivity. Qed.
