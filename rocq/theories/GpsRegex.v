(** * How the patterns of gps.py match a text *)
Require Import Reals Lia List Bool NArith.
From Verif Require Import Num GpsString GpsStringFacts.
Import ListNotations.
Open Scope N_scope.

(** the first way to match, and no way at all *)
Definition first (r : re) (s : str) (h : hit) : Prop := exists l, runs r s = h :: l.
Definition stops (p : N -> bool) (s : str) : Prop := match s with c :: _ => p c = false | [] => True end.

Lemma first_match r s h : first r s h -> re_match r s = Some h.
Proof. intros (l&E). unfold re_match. rewrite E; auto. Qed.
Lemma first_seq a b s h h' : first a s h -> first b (rest h) h' -> first (Seq a b) s (glue h h').
Proof. intros (l&E) (l'&E'). unfold first. cbn [runs]. rewrite E. cbn [flat_map]. rewrite E'. simpl. eauto. Qed.
Lemma first_spans p w t : forallb p w = true -> stops p t -> first (Star p) (w ++ t) (Hit [] w t).
Proof.
  unfold first. cbn [runs]. induction w as [|c w IH]; intros H K.
  - destruct t as [|d t]; cbn [app spans]; [eauto|]. simpl in K. rewrite K. eauto.
  - cbn [forallb] in H. apply andb_true_iff in H as (A&B). cbn [app spans]. rewrite A.
    destruct (IH B K) as (l&E). rewrite E. cbn [map app eaten rest]. eauto.
Qed.
Lemma first_plus p w t : forallb p w = true -> w <> [] -> stops p t -> first (Plus p) (w ++ t) (Hit [] w t).
Proof.
  destruct w as [|c w]; [contradiction|]. intros H _ K. cbn [forallb] in H. apply andb_true_iff in H as (A&B).
  destruct (first_spans p w t B K) as (l&E). cbn [runs] in E. unfold first. cbn [runs app]. rewrite A, E. cbn. eauto.
Qed.
Lemma first_grp k a s h : first a s h -> first (Grp k a) s (Hit ((k, eaten h) :: groups h) (eaten h) (rest h)).
Proof. intros (l&E). unfold first. cbn [runs]. rewrite E. cbn. eauto. Qed.
Lemma first_one p c t : p c = true -> first (One p) (c :: t) (Hit [] [c] t).
Proof. intros H. unfold first. cbn [runs]. rewrite H. eauto. Qed.
Lemma first_lit u t : first (Lit u) (u ++ t) (Hit [] u t).
Proof.
  unfold first. cbn [runs]. assert (strip u (u ++ t) = Some t) as ->; [|eauto].
  induction u; simpl; auto. rewrite N.eqb_refl; auto.
Qed.
Lemma first_opt a s h : first a s h -> first (Opt a) s h.
Proof. intros (l&E). unfold first. cbn [runs]. rewrite E. cbn. eauto. Qed.
Lemma first_opt_none a s : runs a s = [] -> first (Opt a) s (Hit [] [] s).
Proof. intros E. unfold first. cbn [runs]. rewrite E. cbn. eauto. Qed.
Lemma first_alt_l a b s h : first a s h -> first (Alt a b) s h.
Proof. intros (l&E). unfold first. cbn [runs]. rewrite E. cbn. eauto. Qed.
Lemma first_alt_r a b s h : runs a s = [] -> first b s h -> first (Alt a b) s h.
Proof. intros E (l&F). unfold first. cbn [runs]. rewrite E, F. cbn. eauto. Qed.

(** ** Failing *)
Lemma fails_seq a b s : (forall h, In h (runs a s) -> runs b (rest h) = []) -> runs (Seq a b) s = [].
Proof.
  intros H. cbn [runs]. induction (runs a s) as [|h l IH]; auto. cbn [flat_map].
  rewrite (H h) by (left; auto). simpl. apply IH. intros; apply H; right; auto.
Qed.
(** a repetition stops somewhere in what it can eat *)
Lemma spans_rest p w t h : forallb p w = true -> stops p t -> In h (spans p (w ++ t)) ->
  exists u, rest h = (u ++ t)%list /\ forallb p u = true /\ groups h = [].
Proof.
  revert h; induction w as [|c w IH]; intros h H K I.
  - exists []. destruct t as [|d t]; cbn [app spans] in I; [|simpl in K; rewrite K in I]; destruct I as [<-|[]]; auto.
  - pose proof H as H'. cbn [forallb] in H. apply andb_true_iff in H as (A&B).
    cbn [app spans] in I. rewrite A in I.
    apply in_app_or in I as [I|[<-|[]]]; [|exists (c :: w); auto].
    apply in_map_iff in I as (h'&<-&I). destruct (IH h' B K I) as (u&E&F&G). exists u; auto.
Qed.
Lemma plus_rest p w t h : forallb p w = true -> stops p t -> In h (runs (Plus p) (w ++ t)) ->
  exists u, rest h = (u ++ t)%list /\ forallb p u = true.
Proof.
  destruct w as [|c w]; intros H K I.
  - cbn [app] in I. destruct t as [|d t]; cbn [runs] in I; [contradiction|]. simpl in K. rewrite K in I. contradiction.
  - cbn [forallb] in H. apply andb_true_iff in H as (A&B). cbn [runs app] in I. rewrite A in I.
    apply in_map_iff in I as (h'&<-&I). destruct (spans_rest p w t h' B K I) as (u&E&F&G). exists u; auto.
Qed.
(** one character of [q] must follow the repetition *)
Definition starts_in (q : N -> bool) (b : re) : Prop := forall s, stops q s -> runs b s = [].
Lemma starts_one q b : starts_in q (Seq (One q) b).
Proof. intros s H. cbn [runs]. destruct s as [|c s]; auto. simpl in H. rewrite H; auto. Qed.
Lemma starts_lit c b : starts_in (N.eqb c) (Seq (Lit [c]) b).
Proof. intros s H. cbn [runs strip]. destruct s as [|d s]; auto. simpl in H. rewrite H; auto. Qed.
Lemma starts_plus k q b : starts_in q (Seq (Grp k (Plus q)) b).
Proof. intros s H. cbn [runs]. destruct s as [|c s]; auto. simpl in H. rewrite H; auto. Qed.
Lemma fails_star p q b w t : starts_in q b -> (forall c, p c = true -> q c = false) ->
  forallb p w = true -> stops p t -> runs b t = [] -> runs (Seq (Star p) b) (w ++ t) = [].
Proof.
  intros S D H K F. apply fails_seq. intros h I. destruct (spans_rest p w t h H K I) as (u&E&G&_). rewrite E.
  destruct u as [|c u]; auto. apply S. simpl. simpl in G. apply andb_true_iff in G as (G&_). auto.
Qed.
Lemma fails_plus k p q b w t : starts_in q b -> (forall c, p c = true -> q c = false) ->
  forallb p w = true -> stops p t -> runs b t = [] -> runs (Seq (Grp k (Plus p)) b) (w ++ t) = [].
Proof.
  intros S D H K F. apply fails_seq. intros h I. cbn [runs] in I. apply in_map_iff in I as (h'&<-&I). cbn [rest].
  destruct (plus_rest p w t h' H K I) as (u&E&G). rewrite E.
  destruct u as [|c u]; auto. apply S. simpl. simpl in G. apply andb_true_iff in G as (G&_). auto.
Qed.
Lemma fails_lit c b t : runs b t = [] -> runs (Seq (Lit [c]) b) (c :: t) = [].
Proof. intros H. apply fails_seq. intros h I. cbn [runs strip] in I. rewrite N.eqb_refl in I. destruct I as [<-|[]]; auto. Qed.

(** ** How many of a character a match must eat *)
Fixpoint count (c : N) (s : str) : nat :=
  match s with [] => 0 | d :: t => (if N.eqb c d then 1 else 0) + count c t end%nat.
Lemma count_app c a b : count c (a ++ b) = (count c a + count c b)%nat.
Proof. induction a; simpl; auto. rewrite IHa. lia. Qed.
Fixpoint needs (c : N) (r : re) : nat :=
  match r with
  | Lit u => count c u
  | Seq a b => needs c a + needs c b
  | Alt a b => Nat.min (needs c a) (needs c b)
  | Grp _ a => needs c a
  | _ => 0
  end%nat.
Lemma strip_app u s t : strip u s = Some t -> s = (u ++ t)%list.
Proof.
  revert s; induction u as [|c u IH]; intros s; cbn [strip].
  - intros E; inversion E; auto.
  - destruct s as [|d s]; [discriminate|]. destruct (N.eqb_spec c d) as [->|]; [|discriminate].
    intros E. rewrite (IH _ E); auto.
Qed.
Lemma spans_eaten p s h : In h (spans p s) -> s = (eaten h ++ rest h)%list.
Proof.
  revert h; induction s as [|c s IH]; intros h I; cbn [spans] in I.
  - destruct I as [<-|[]]; auto.
  - destruct (p c).
    + apply in_app_or in I as [I|[<-|[]]]; auto. apply in_map_iff in I as (h'&<-&I). simpl. rewrite (IH h' I) at 1; auto.
    + destruct I as [<-|[]]; auto.
Qed.
Lemma runs_eaten r s h : In h (runs r s) -> s = (eaten h ++ rest h)%list.
Proof.
  revert s h; induction r as [p|u|p|p|a IHr1 b IHr2|a IHr|k a IHr|a IHr1 b IHr2]; intros s h I; cbn [runs] in I.
  - destruct s as [|c s]; [contradiction|]. destruct (p c); [destruct I as [<-|[]]; auto|contradiction].
  - destruct (strip u s) eqn:E; [|contradiction]. destruct I as [<-|[]]; simpl. apply strip_app; auto.
  - apply spans_eaten in I; auto.
  - destruct s as [|c s]; [contradiction|]. destruct (p c); [|contradiction].
    apply in_map_iff in I as (h'&<-&I). simpl. rewrite (spans_eaten _ _ _ I) at 1; auto.
  - apply in_app_or in I as [I|I]; auto.
  - apply in_app_or in I as [I|[<-|[]]]; auto.
  - apply in_map_iff in I as (h'&<-&I). simpl; auto.
  - apply in_flat_map in I as (h1&I1&I). apply in_map_iff in I as (h2&<-&I2). simpl.
    rewrite (IHr1 _ _ I1), (IHr2 _ _ I2) at 1. apply app_assoc.
Qed.
Lemma runs_needs c r s h : In h (runs r s) -> (needs c r <= count c (eaten h))%nat.
Proof.
  revert s h; induction r as [p|u|p|p|a IHr1 b IHr2|a IHr|k a IHr|a IHr1 b IHr2]; intros s h I; cbn [needs]; try lia; cbn [runs] in I.
  - destruct (strip u s) eqn:E; [|contradiction]. destruct I as [<-|[]]; simpl; auto.
  - apply in_app_or in I as [I|I]; [apply IHr1 in I | apply IHr2 in I]; lia.
  - apply in_map_iff in I as (h'&<-&I). simpl; eauto.
  - apply in_flat_map in I as (h1&I1&I). apply in_map_iff in I as (h2&<-&I2). simpl. rewrite count_app.
    apply IHr1 in I1. apply IHr2 in I2. lia.
Qed.
Lemma too_few c r s : (count c s < needs c r)%nat -> runs r s = [].
Proof.
  intros H. destruct (runs r s) as [|h l] eqn:E; auto.
  assert (I : In h (runs r s)) by (rewrite E; left; auto).
  pose proof (runs_needs c r s h I). pose proof (runs_eaten r s h I) as Es. rewrite Es, count_app in H. lia.
Qed.
Lemma count_none c p s : forallb p s = true -> p c = false -> count c s = 0%nat.
Proof.
  induction s as [|d s IH]; simpl; auto. intros H K. apply andb_true_iff in H as (A&B).
  destruct (N.eqb_spec c d) as [->|]; [congruence|]. auto.
Qed.

(** A text with one degree sign is never a pair. *)
Lemma one_degree_no_pair s : count DEG s = 1%nat -> forall r, In r (map pair_pattern regex_list) -> runs r s = [].
Proof.
  intros H r I. apply (too_few DEG). rewrite H.
  destruct I as [<-|[<-|[<-|[]]]]; vm_compute; lia.
Qed.
Lemma single_only s : count DEG s = 1%nat ->
  gpsFromString s = try (map single_pattern regex_list) of_single s GNone.
Proof.
  intros H. unfold gpsFromString. pose proof (one_degree_no_pair s H) as F.
  unfold regex_list in *. cbn [map try] in *. unfold re_match.
  rewrite !F by (simpl; auto). reflexivity.
Qed.
