(** * C48: the log probability *)
Require Import Lia Reals Lra List Bool String Permutation.
From Verif Require Import Num LogProb.
Import ListNotations.
Open Scope R_scope.

(** ** Specification *)
(** [v] is the log probability of independent observations of log probabilities [l]: their sum, +infinity if one
    is +infinity, and -infinity (impossible) if one is -infinity, undefined, or the sum is. *)
Inductive total (l : list num) : num -> Prop :=
| TSum xs v : Forall2 rep l xs -> rep v (fold_right Rplus 0 xs) -> total l v
| TSure : In PInf l -> ~ In NInf l -> ~ In NaN l -> total l PInf
| TImpossible : In NInf l \/ In NaN l -> total l NInf.
(** The terms registered by a history without clearLogProbability. *)
Inductive registers {St : Type} : list (reg St) -> list (@term St) -> Prop :=
| GNil : registers [] []
| GPlot t x rs l : registers rs l -> registers (RInfo true t x :: rs) l
| GInfo t x rs l : registers rs l -> registers (RInfo false t x :: rs) (t :: l)
| GCustom t x rs l : registers rs l -> registers (RCustom t x :: rs) (t :: l).
Definition history {St} (rs : list (reg St)) : info St := fold_left register rs new_info.

(** ** Sums *)
Definition has_nan l := In NaN l \/ (In PInf l /\ In NInf l).
Lemma num_cases x : finite x \/ x = PInf \/ x = NInf \/ x = NaN.
Proof. destruct x; auto; left; eexists; reflexivity. Qed.
Lemma add_nan_l y : (NaN + y)%num = NaN. Proof. reflexivity. Qed.
Lemma add_nan_r x : (x + NaN)%num = NaN. Proof. unfold nadd. cbn [look]. destruct (look x); reflexivity. Qed.
Lemma add_inf_r x a s : rep x a -> (x + inf s)%num = inf s.
Proof. intros H. rlook H. unfold nadd. rewrite H0. destruct s; reflexivity. Qed.
Lemma add_inf_l x a s : rep x a -> (inf s + x)%num = inf s.
Proof. intros H. rlook H. unfold nadd. destruct s; cbn [inf look]; rewrite H0; reflexivity. Qed.
(** what a sum started at [a] comes to *)
Lemma fold_cases l : forall a,
  (fold_left nadd l a = NaN /\ has_nan (a :: l)) \/
  (fold_left nadd l a = PInf /\ In PInf (a :: l) /\ ~ In NInf (a :: l) /\ ~ In NaN (a :: l)) \/
  (fold_left nadd l a = NInf /\ In NInf (a :: l) /\ ~ In PInf (a :: l) /\ ~ In NaN (a :: l)) \/
  (exists r xs, rep a r /\ Forall2 rep l xs /\ rep (fold_left nadd l a) (r + fold_right Rplus 0 xs)).
Proof.
  unfold has_nan. induction l as [|x l IH]; intros a; cbn [fold_left].
  - destruct (num_cases a) as [(r&H)|[-> |[-> | ->]]].
    + right; right; right. exists r, []. split; [auto|split; [constructor|]]. simpl. apply (rep_eq _ r); auto. ring.
    + right; left. simpl. split; [auto|split; [auto|]]. split; intros [X|[]]; discriminate.
    + right; right; left. simpl. split; [auto|split; [auto|]]. split; intros [X|[]]; discriminate.
    + left. simpl. auto.
  - specialize (IH (a + x)%num).
    assert (FN : forall z q, rep z q -> z <> PInf /\ z <> NInf /\ z <> NaN).
    { intros z q H. unfold rep, toR in H. destruct z; try discriminate; repeat split; discriminate. }
    destruct (num_cases a) as [(r&Ha)|[-> |[-> | ->]]], (num_cases x) as [(q&Hx)|[-> |[-> | ->]]].
    all: try (rewrite add_nan_r in * ).
    all: try (rewrite add_nan_l in * ).
    all: try (change (PInf + NInf)%num with NaN in * ); try (change (NInf + PInf)%num with NaN in * ).
    all: try (change (PInf + PInf)%num with PInf in * ); try (change (NInf + NInf)%num with NInf in * ).
    all: try (rewrite (add_inf_r _ _ false Ha : (a + PInf)%num = PInf) in * ).
    all: try (rewrite (add_inf_r _ _ true Ha : (a + NInf)%num = NInf) in * ).
    all: try (rewrite (add_inf_l _ _ false Hx : (PInf + x)%num = PInf) in * ).
    all: try (rewrite (add_inf_l _ _ true Hx : (NInf + x)%num = NInf) in * ).
    all: try (pose proof (FN _ _ Ha) as (Fa1&Fa2&Fa3)); try (pose proof (FN _ _ Hx) as (Fx1&Fx2&Fx3)).
    (* finite + finite *)
    1: { pose proof (rep_add _ _ _ _ Ha Hx) as Hs. pose proof (FN _ _ Hs) as (Fs1&Fs2&Fs3). simpl in IH |- *.
         destruct IH as [(E&IH)|[(E&I1&I2&I3)|[(E&I1&I2&I3)|(r'&xs&R1&R2&R3)]]].
         - left. split; auto. destruct IH as [[X|X]|([X|X]&[Y|Y])]; try congruence; auto.
         - right; left. split; auto. split; [destruct I1; [congruence|auto]|]. split; intros [X|[X|X]]; auto.
         - right; right; left. split; auto. split; [destruct I1; [congruence|auto]|]. split; intros [X|[X|X]]; auto.
         - right; right; right. exists r, (q :: xs). split; auto. split; [constructor; auto|]. simpl.
           apply (rep_eq _ (r' + fold_right Rplus 0 xs)); auto. rewrite (rep_inj _ _ _ R1 Hs). ring. }
    all: simpl in IH |- *; destruct IH as [(E&IH)|[(E&I1&I2&I3)|[(E&I1&I2&I3)|(r'&xs&R1&R2&R3)]]]; try discriminate R1.
    all: try (exfalso; solve [apply I2; left; reflexivity | apply I3; left; reflexivity]).
    all: try (left; split; [exact E|]; destruct IH as [[X|X]|([X|X]&[Y|Y])]; first [discriminate X | discriminate Y | idtac]; solve [auto 8]).
    all: try (right; left; split; [exact E|]; split; [solve [auto 8]|]; split; intros [X|[X|X]]; (congruence || (apply I2; solve [auto]) || (apply I3; solve [auto]))).
    all: try (right; right; left; split; [exact E|]; split; [solve [auto 8]|]; split; intros [X|[X|X]]; (congruence || (apply I2; solve [auto]) || (apply I3; solve [auto]))).
Qed.
Lemma nisnan_iff x : nisnan x = true <-> x = NaN.
Proof. destruct x; cbn; split; congruence. Qed.
Lemma nsum_total l : total l (if nisnan (nsum l) then NInf else nsum l).
Proof.
  unfold nsum. assert (F0 : forall z, In z (Fin 0 :: l) -> z <> Fin 0 -> In z l) by (simpl; intros z [H|H]; congruence || auto).
  destruct (fold_cases l (Fin 0)) as [(E&H)|[(E&I1&I2&I3)|[(E&I1&I2&I3)|(r&xs&R1&R2&R3)]]].
  - rewrite E. cbn. apply TImpossible. destruct H as [H|(_&H)]; [right|left]; apply F0; auto; discriminate.
  - rewrite E. cbn. apply TSure; [apply F0; auto; discriminate| |]; intros X; [apply I2|apply I3]; right; auto.
  - rewrite E. cbn. apply TImpossible. left. apply F0; auto; discriminate.
  - destruct (nisnan _) eqn:N; [apply nisnan_iff in N; rewrite N in R3; discriminate|].
    apply (TSum l xs); auto. apply (rep_eq _ _ _ R3). rewrite (rep_inj _ _ _ R1 (rep_Fin 0)). ring.
Qed.
(** The specification determines the value up to the sign of a zero. *)
Lemma total_fun l v w : total l v -> total l w -> v = w \/ exists r, rep v r /\ rep w r.
Proof.
  assert (X : forall l xs, Forall2 rep l xs -> ~ In PInf l /\ ~ In NInf l /\ ~ In NaN l).
  { induction 1 as [|x y l' l'' H _ IH]; simpl; [tauto|]. destruct IH as (A&B&C).
    unfold rep, toR in H. destruct x; try discriminate; repeat split; intros [Y|Y]; congruence || auto. }
  intros [xs v' F R|A B C|A] [ys w' F' R'|A' B' C'|A']; try (left; reflexivity);
    try (destruct (X _ _ F) as (?&?&?)); try (destruct (X _ _ F') as (?&?&?)); try tauto.
  right. exists (fold_right Rplus 0 xs). split; auto. assert (xs = ys); [|subst; auto].
  clear - F F'. revert ys F'. induction F as [|x y l l' H _ IH]; intros ys F'; inversion F'; subst; auto. f_equal; [eapply rep_inj; eauto|auto].
Qed.

(** ** C48 *)
Lemma history_app {St} (i : info St) rs l : registers rs l -> log_prob (fold_left register rs i) = (log_prob i ++ l)%list.
Proof.
  intros H. revert i. induction H; intros i; cbn [fold_left]; [rewrite app_nil_r; auto| | |]; rewrite IHregisters; cbn; auto; rewrite <- app_assoc; auto.
Qed.
(** The log probability is the total of the terms registered since the last clearLogProbability (if any),
    evaluated at the present parameters; terms registered with only_plot do not count. *)
Theorem C48_log_probability {St} (old new : list (reg St)) l s : registers new l ->
  (old = [] \/ exists o, old = (o ++ [RClear])%list) ->
  total (map (fun t => t s) l) (getLogProbability (history (old ++ new)) s).
Proof.
  intros R O. unfold getLogProbability, history. rewrite fold_left_app, (history_app _ _ _ R).
  assert (E : log_prob (fold_left register old new_info) = []).
  { destruct O as [-> |(o&->)]; [reflexivity|]. rewrite fold_left_app. reflexivity. }
  rewrite E. apply nsum_total.
Qed.
(** every history has that form *)
Lemma history_split {St} (rs : list (reg St)) : exists old new l, rs = (old ++ new)%list /\ registers new l /\
  (old = [] \/ exists o, old = (o ++ [RClear])%list).
Proof.
  induction rs as [|r rs (old&new&l&->&R&O)].
  - exists [], [], []. split; [|split]; [auto|constructor|auto].
  - destruct O as [-> |(o&->)].
    + destruct r as [[] t x|t x|].
      * exists [], (RInfo true t x :: new), l. split; [|split]; [auto|constructor; auto|auto].
      * exists [], (RInfo false t x :: new), (t :: l). split; [|split]; [auto|constructor; auto|auto].
      * exists [], (RCustom t x :: new), (t :: l). split; [|split]; [auto|constructor; auto|auto].
      * exists [RClear], new, l. split; [|split]; [auto|auto|]. right. exists []. auto.
    + exists (r :: o ++ [RClear])%list, new, l. split; [|split]; [auto|auto|]. right. exists (r :: o). auto.
Qed.
(** In particular it does not depend on the order of registration. *)
Theorem C48_order {St} (rs rs' : list (reg St)) l l' s : registers rs l -> registers rs' l' -> Permutation l l' ->
  let v := getLogProbability (history rs) s in let v' := getLogProbability (history rs') s in
  v = v' \/ exists r, rep v r /\ rep v' r.
Proof.
  intros G G' P. cbv zeta. apply (total_fun (map (fun t => t s) l)); [apply (C48_log_probability []); auto|].
  pose proof (C48_log_probability [] rs' l' s G' (or_introl eq_refl)) as T. cbn [app] in T.
  apply (Permutation_map (fun t => t s)) in P. apply Permutation_sym in P. revert T P.
  generalize (map (fun t => t s) l) (map (fun t => t s) l'). intros a b T P.
  assert (IN : forall z, In z a <-> In z b) by (intros z; split; apply Permutation_in; [apply Permutation_sym|]; auto).
  destruct T as [xs v F H|A B C|A].
  - destruct (Permutation_Forall2 (A := num) (B := R) P F) as (ys&Py&Fy). apply (TSum a ys); auto.
    apply (rep_eq _ _ _ H). clear - Py. induction Py; simpl; lra.
  - apply TSure; rewrite IN; auto.
  - apply TImpossible. rewrite !IN. auto.
Qed.
Lemma two_sums a b : total (a ++ b) (let prob := (nsum a + nsum b)%num in if nisnan prob then NInf else prob).
Proof.
  cbv zeta.
  unfold nsum.
  assert (Z : forall l, ~ In PInf (Fin 0 :: l) <-> ~ In PInf l) by (intros l; simpl; split; intros H X; apply H; auto; destruct X; [discriminate|auto]).
  assert (FZ : forall l z, In z (Fin 0 :: l) -> z <> Fin 0 -> In z l) by (simpl; intros l z [H|H]; congruence || auto).
  assert (NF : forall l xs, Forall2 rep l xs -> ~ In PInf l /\ ~ In NInf l /\ ~ In NaN l).
  { induction 1 as [|x y l' l'' H _ IH]; simpl; [tauto|]. destruct IH as (A&B&C).
    unfold rep, toR in H. destruct x; try discriminate; repeat split; intros [Y|Y]; congruence || auto. }
  assert (IMP : In NInf (a ++ b) \/ In NaN (a ++ b) -> total (a ++ b) NInf) by apply TImpossible.
  assert (SURE : In PInf (a ++ b) -> ~ (In NInf a \/ In NInf b) -> ~ (In NaN a \/ In NaN b) -> total (a ++ b) PInf).
  { intros X Y W. apply TSure; auto; rewrite in_app_iff; auto. }
  rewrite !in_app_iff in *.
  destruct (fold_cases a (Fin 0)) as [(Ea&Ha)|[(Ea&A1&A2&A3)|[(Ea&A1&A2&A3)|(ra&xa&Ra&Fa&Sa)]]].
  { rewrite Ea. cbn [nadd look nisnan]. apply IMP. destruct Ha as [H|(_&H)]; apply FZ in H; try discriminate; auto. }
  all: destruct (fold_cases b (Fin 0)) as [(Eb&Hb)|[(Eb&B1&B2&B3)|[(Eb&B1&B2&B3)|(rb&xb&Rb&Fb&Sb)]]].
  all: try (rewrite Eb, add_nan_r; cbn [nisnan]; apply IMP; destruct Hb as [H|(_&H)]; apply FZ in H; try discriminate; solve [auto]).
  all: try rewrite Ea; try rewrite Eb.
  all: try (apply FZ in A1; [|discriminate]); try (apply FZ in B1; [|discriminate]).
  all: try (destruct (NF _ _ Fa) as (Na1&Na2&Na3)); try (destruct (NF _ _ Fb) as (Nb1&Nb2&Nb3)).
  all: try (apply IMP; solve [auto]).
  - apply SURE; auto; intros [X|X]; solve [apply A2; right; exact X|apply A3; right; exact X|apply B2; right; exact X|apply B3; right; exact X].
  - rewrite (add_inf_l _ _ false Sb : (PInf + _)%num = PInf). cbn [nisnan]. apply SURE; auto; intros [X|X]; auto; solve [apply A2; right; exact X|apply A3; right; exact X].
  - rewrite (add_inf_l _ _ true Sb : (NInf + _)%num = NInf). cbn [nisnan]. apply IMP; auto.
  - rewrite (add_inf_r _ _ false Sa : (_ + PInf)%num = PInf). cbn [nisnan]. apply SURE; auto; intros [X|X]; auto; solve [apply B2; right; exact X|apply B3; right; exact X].
  - rewrite (add_inf_r _ _ true Sa : (_ + NInf)%num = NInf). cbn [nisnan]. apply IMP; auto.
  - pose proof (rep_add _ _ _ _ Sa Sb) as S. destruct (nisnan _) eqn:N; [apply nisnan_iff in N; rewrite N in S; discriminate|].
    apply (TSum _ (xa ++ xb)); [apply Forall2_app; auto|]. apply (rep_eq _ _ _ S). rewrite fold_right_app.
    rewrite (rep_inj _ _ _ Ra (rep_Fin 0)), (rep_inj _ _ _ Rb (rep_Fin 0)).
    generalize (fold_right Rplus 0 xb). clear. intros q. induction xa; simpl in *; lra.
Qed.
(** A group adds the terms of its cameras to its own. *)
Theorem C48_group {St} (g : info St) (cams : list (info St)) s :
  total (map (fun t => t s) (log_prob g ++ flat_map log_prob cams)) (group_log_probability g cams s).
Proof.
  unfold group_log_probability. rewrite map_app. apply two_sums.
Qed.

(** The additional parameters of a fit: those brought by the terms registered since the last clearLogProbability,
    in the order of registration.  Terms only plotted bring none. *)
Inductive brings {St : Type} : list (reg St) -> list string -> Prop :=
| BNil : brings [] []
| BPlot t x rs l : brings rs l -> brings (RInfo true t x :: rs) l
| BNumber t rs l : brings rs l -> brings (RInfo false t None :: rs) l
| BVariation t n rs l : brings rs l -> brings (RInfo false t (Some n) :: rs) (n :: l)
| BCustom t ns rs l : brings rs l -> brings (RCustom t ns :: rs) (ns ++ l).
Theorem C48_additional {St} (old new : list (reg St)) l : brings new l ->
  (old = [] \/ exists o, old = (o ++ [RClear])%list) -> additional (history (old ++ new)) = l.
Proof.
  intros R O. unfold history. rewrite fold_left_app.
  assert (E : additional (fold_left register old new_info) = []).
  { destruct O as [-> |(o&->)]; [reflexivity|]. rewrite fold_left_app. reflexivity. }
  assert (X : forall i, additional (fold_left register new i) = (additional i ++ l)%list).
  { clear -R. induction R; intros i; cbn [fold_left]; [rewrite app_nil_r; auto| | | |]; rewrite IHR; cbn; auto; rewrite <- ?app_assoc; auto. }
  rewrite X, E. reflexivity.
Qed.
Print Assumptions C48_additional.
Example C48_additional_example : let t (s : unit) := Fin (-1) in
  brings [RInfo false t (Some "a"%string); RInfo true t (Some "b"%string); RCustom t ["c"%string; "d"%string]] ["a"; "c"; "d"]%string.
Proof. intros t. constructor. constructor. apply (BCustom t ["c"; "d"]%string [] []). constructor. Qed.

(** Height 1.5 observed twice (one of them only for the plot), cleared, then two terms: the log probability is
    their sum; a group adds it to its own term, and one impossible observation makes it impossible. *)
Example C48_example : let t (x : R) (s : unit) := Fin x in
  let rs := [RInfo false (t (-1)) None; RInfo true (t (-2)) (Some "v"%string); RClear; RInfo false (t (-3)) None; RCustom (t (-4)) []] in
  registers [RInfo false (t (-3)) None; RCustom (t (-4)) []] [t (-3); t (-4)] /\
  rep (getLogProbability (history rs) tt) (-7) /\
  rep (group_log_probability (history [RCustom (t 1) []]) [history rs] tt) (-6) /\
  getLogProbability (history (rs ++ [RCustom (fun _ => NaN) []])) tt = NInf.
Proof.
  intros t rs. assert (G : registers [RInfo false (t (-3)) None; RCustom (t (-4)) []] [t (-3); t (-4)]) by repeat constructor.
  assert (V : forall l v xs r, total l v -> Forall2 rep l xs -> fold_right Rplus 0 xs = r -> rep v r).
  { intros l v xs r T F E. destruct (total_fun l v (Fin r) T) as [-> |(q&Q1&Q2)].
    - apply (TSum l xs); auto. apply (rep_eq _ r); auto. apply rep_Fin.
    - apply rep_Fin.
    - rewrite <- (rep_inj _ _ _ Q2 (rep_Fin r)). auto. }
  split; [exact G|]. split; [|split].
  - eapply V; [apply (C48_log_probability [RInfo false (t (-1)) None; RInfo true (t (-2)) (Some "v"%string); RClear] _ _ tt G)| |].
    + right. exists [RInfo false (t (-1)) None; RInfo true (t (-2)) (Some "v"%string)]. reflexivity.
    + repeat constructor; apply rep_Fin.
    + simpl. ring.
  - eapply V; [apply C48_group|repeat constructor; apply rep_Fin|]. simpl. ring.
  - unfold getLogProbability, history, rs. cbn [app fold_left register log_prob map additional plots new_info]. unfold nsum. cbn [fold_left].
    rewrite add_nan_r. reflexivity.
Qed.
Print Assumptions C48_log_probability.
Print Assumptions C48_order.
Print Assumptions C48_group.

(** The sum that is not replaced (parameter_set.py 236-241): the same value, but nan where an observation is nan or one is
    certain and another impossible. *)
Theorem C48_raw {St} (old new : list (reg St)) l s : registers new l -> (old = [] \/ exists o, old = (o ++ [RClear])%list) ->
  let v := raw_log_probability (history (old ++ new)) s in
  (v = NaN <-> In NaN (map (fun t => t s) l) \/ In PInf (map (fun t => t s) l) /\ In NInf (map (fun t => t s) l)) /\
  (v <> NaN -> v = getLogProbability (history (old ++ new)) s) /\ (v = NaN -> getLogProbability (history (old ++ new)) s = NInf).
Proof.
  intros G O v. unfold v, raw_log_probability, getLogProbability, history. rewrite fold_left_app, (history_app _ _ _ G).
  assert (E : log_prob (fold_left register old new_info) = []).
  { destruct O as [-> |(o&->)]; [reflexivity|]. rewrite fold_left_app. reflexivity. }
  rewrite E. cbn [app]. set (m := map (fun t => t s) l). split; [|split].
  - unfold nsum. assert (F0 : forall z, In z (Fin 0 :: m) -> z <> Fin 0 -> In z m) by (simpl; intros z [H|H]; congruence || auto).
    destruct (fold_cases m (Fin 0)) as [(Ev&H)|[(Ev&I1&I2&I3)|[(Ev&I1&I2&I3)|(r&xs&R1&R2&R3)]]]; split; intros H'; auto.
    + destruct H as [H|(H1&H2)]; [left|right; split]; apply F0; auto; discriminate.
    + rewrite Ev in H'. discriminate.
    + exfalso. destruct H' as [X|(X&Y)]; first [apply I2; right; assumption | apply I3; right; assumption].
    + rewrite Ev in H'. discriminate.
    + exfalso. destruct H' as [X|(X&Y)]; first [apply I2; right; assumption | apply I3; right; assumption].
    + rewrite H' in R3. discriminate.
    + exfalso. assert (X : forall l xs, Forall2 rep l xs -> ~ In PInf l /\ ~ In NInf l /\ ~ In NaN l).
      { induction 1 as [|x y l' l'' H _ IH]; simpl; [tauto|]. destruct IH as (A&B&C).
        unfold rep, toR in H. destruct x; try discriminate; repeat split; intros [Y|Y]; congruence || auto. }
      destruct (X _ _ R2) as (?&?&?). tauto.
  - intros H. destruct (nisnan (nsum m)) eqn:K; auto. apply nisnan_iff in K. contradiction.
  - intros H. rewrite H. reflexivity.
Qed.
Print Assumptions C48_raw.
(** Every add...Information also leaves a plot function, only_plot or not, and clearLogProbability leaves them all. *)
Inductive observed {St} : list (reg St) -> nat -> Prop :=
| ONil : observed [] 0
| OInfo b t x rs n : observed rs n -> observed (RInfo b t x :: rs) (S n)
| OCustom t x rs n : observed rs n -> observed (RCustom t x :: rs) n
| OClear rs n : observed rs n -> observed (RClear :: rs) n.
Theorem C48_plots {St} (rs : list (reg St)) n : observed rs n -> plots (history rs) = n.
Proof.
  intros H. unfold history. change n with (plots (@new_info St) + n)%nat. generalize (@new_info St).
  induction H as [|b t x rs n H IH|t x rs n H IH|rs n H IH]; intros i; cbn [fold_left]; [lia| | |]; rewrite IH; [destruct b|..]; cbn; lia.
Qed.
Print Assumptions C48_plots.
Example C48_plots_example : let t (s : unit) := Fin (-1) in
  observed [RInfo false t None; RCustom t []; RClear; RInfo true t None] 2 /\
  raw_log_probability (history [RInfo false t None; RInfo true t None; RCustom (fun _ => NaN) []]) tt = NaN.
Proof.
  intros t. split; [repeat constructor|].
  assert (G : registers [RInfo false t None; RInfo true t None; RCustom (fun _ => NaN) []] [t; fun _ => NaN]) by repeat constructor.
  apply (C48_raw [] _ _ tt G (or_introl eq_refl)). left. simpl. auto.
Qed.
