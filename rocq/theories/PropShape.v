(** * C45: shape validation *)
Require Import List Bool NArith Arith Lia String.
From Verif Require Import GpsString GpsStringFacts Shape.
Import ListNotations.
Open Scope N_scope.

(** ** Specification *)
(** an entry against a dimension, under an assignment of sizes to letters *)
Definition fits (s : str -> N) (i : item) (d : N) : Prop := match i with INum n => d = n | IStr w => d = s w end.
(** "..." matches any leading dimensions; all other entries match one dimension each *)
Definition matches (pat : list item) (sh : list N) : Prop :=
  exists s, match pat with
            | i :: rest => if is_dots i then exists pre post, sh = (pre ++ post)%list /\ Forall2 (fits s) rest post
                           else Forall2 (fits s) pat sh
            | [] => False
            end.
(** "..." occurs at most as the first entry *)
Definition dots_first (pat : list item) : Prop := match pat with _ :: rest => Forall (fun i => is_dots i = false) rest | [] => True end.

(** ** Facts *)
Definition agrees (s : str -> N) (l : list (str * N)) : Prop := forall k v, get l k = Some v -> s k = v.
Lemma get_same k v l : get ((k, v) :: l) k = Some v.
Proof. simpl. rewrite (proj2 (str_eqb_spec k k) eq_refl). reflexivity. Qed.
Lemma get_other k k' v l : k <> k' -> get ((k', v) :: l) k = get l k.
Proof. intros H. simpl. destruct (str_eqb k k') eqn:E; auto. apply str_eqb_spec in E. contradiction. Qed.
Lemma walk_ok ps : forall l ds, Forall (fun i => is_dots i = false) ps ->
  (walk l ps ds = EOk tt <-> exists s post, agrees s l /\ Forall2 (fits s) ps post /\ exists pre, ds = (post ++ pre)%list).
Proof.
  induction ps as [|p ps IH]; intros l ds F.
  - simpl. split; auto. intros _. exists (fun k => match get l k with Some v => v | None => 0 end), [].
    split; [intros k v ->; auto|]. split; auto. exists ds; auto.
  - inversion_clear F as [|? ? D F']. simpl. rewrite D. destruct p as [n|w], ds as [|d ds].
    + split; [discriminate|]. intros (s&post&_&F2&pre&E). inversion F2; subst; discriminate.
    + destruct (N.eqb_spec d n) as [->|NE].
      * rewrite IH by auto. split.
        -- intros (s&post&A&F2&pre&->). exists s, (n :: post). split; auto. split; [constructor; auto; reflexivity|exists pre; auto].
        -- intros (s&post&A&F2&pre&E). inversion F2; subst. injection E as E1 E2. exists s, l'. eauto.
      * split; [discriminate|]. intros (s&post&A&F2&pre&E). inversion F2; subst. injection E as <- _. contradiction.
    + split; [discriminate|]. intros (s&post&_&F2&pre&E). inversion F2; subst; discriminate.
    + assert (K : (forall n, get l w = Some n -> n = d) ->
        ((exists s post, agrees s ((w, d) :: l) /\ Forall2 (fits s) ps post /\ exists pre, ds = (post ++ pre)%list) <->
         exists s post, agrees s l /\ Forall2 (fits s) (IStr w :: ps) post /\ exists pre, d :: ds = (post ++ pre)%list)).
      { intros G. split.
        - intros (s&post&A&F2&pre&->). exists s, (d :: post).
          assert (SW : s w = d) by (apply A, get_same).
          split; [|split; [constructor; [symmetry; exact SW|auto]|exists pre; auto]].
          intros k v H. destruct (str_eqb k w) eqn:E.
          + apply str_eqb_spec in E as ->. rewrite (G _ H). auto.
          + apply A. rewrite get_other; auto. intros ->. rewrite (proj2 (str_eqb_spec w w) eq_refl) in E. discriminate.
        - intros (s&post&A&F2&pre&E). inversion F2; subst. injection E as E1 E2. subst. exists s, l'. split; [|eauto].
          intros k v H. simpl in H. destruct (str_eqb k w) eqn:E.
          + apply str_eqb_spec in E as ->. injection H as <-. symmetry. assumption.
          + auto. }
      destruct (get l w) as [n|] eqn:G.
      * destruct (N.eqb_spec n d) as [->|NE].
        -- rewrite IH by auto. apply K. congruence.
        -- split; [discriminate|]. intros (s&post&A&F2&pre&E). inversion F2; subst. injection E as E1 _. subst.
           exfalso. apply NE. rewrite <- (A _ _ G). symmetry. assumption.
      * rewrite IH by auto. apply K. discriminate.
Qed.
Lemma walk_dots ps l ds i : is_dots i = true -> Forall (fun i => is_dots i = false) ps -> walk l (ps ++ [i]) ds = walk l ps ds.
Proof.
  intros D F. revert l ds. induction ps as [|p ps IH]; intros l ds; simpl.
  - rewrite D. reflexivity.
  - inversion_clear F as [|? ? D' F']. rewrite D'. destruct p as [n|w], ds as [|d ds]; auto.
    + destruct (d =? n); auto.
    + destruct (get l w) as [n|]; auto. destruct (n =? d); auto.
Qed.
Lemma Forall2_rev {A B} (P : A -> B -> Prop) l m : Forall2 P l m -> Forall2 P (rev l) (rev m).
Proof. induction 1; simpl; auto. apply Forall2_app; auto. Qed.
Lemma Forall2_length {A B} (P : A -> B -> Prop) l m : Forall2 P l m -> List.length l = List.length m.
Proof. induction 1; simpl; auto. Qed.
Lemma agrees_nil s : agrees s []. Proof. intros k v; discriminate. Qed.

(** ** C45 *)
(** A pattern accepts exactly the shapes it matches, and returns the array itself. *)
Theorem C45_ensure A pat (p : arr A) : dots_first pat ->
  (matches pat (shp p) /\ ensure1 pat p = EOk p) \/
  (~ matches pat (shp p) /\ (ensure1 pat p = EValueError \/ ensure1 pat p = EAssertion \/ ensure1 pat p = EIndex)).
Proof.
  intros DF. destruct pat as [|i rest].
  { right. split; [intros (s&[])|auto]. }
  unfold ensure1, matches. simpl in DF. destruct (is_dots i) eqn:D; cbn [negb andb].
  - cbn [rev]. rewrite walk_dots by (auto; apply Forall_rev; auto).
    destruct (walk [] (rev rest) (rev (shp p))) as [[]| | |] eqn:W.
    1:{ left. split; auto. apply walk_ok in W; [|apply Forall_rev; auto]. destruct W as (s&post&_&F2&pre&E).
        exists s, (rev pre), (rev post). split.
        - rewrite <- rev_app_distr, <- E, rev_involutive. reflexivity.
        - rewrite <- (rev_involutive rest). apply Forall2_rev; auto. }
    all: right; split; auto; intros (s&pre&post&E&F2);
      enough (walk [] (rev rest) (rev (shp p)) = EOk tt) by congruence;
      (apply walk_ok; [apply Forall_rev; auto|]); exists s, (rev post); (split; [apply agrees_nil|]);
      (split; [apply Forall2_rev; auto|]); exists (rev pre); rewrite E, rev_app_distr; reflexivity.
  - destruct (Nat.eqb_spec (List.length (shp p)) (List.length (i :: rest))) as [L|L]; cbn [negb].
    2:{ right. split; auto. intros (s&F2). apply L. symmetry. eapply Forall2_length; eauto. }
    assert (F : Forall (fun i => is_dots i = false) (rev (i :: rest))) by (apply Forall_rev; constructor; auto).
    destruct (walk [] (rev (i :: rest)) (rev (shp p))) as [[]| | |] eqn:W.
    1:{ left. split; auto. apply walk_ok in W; auto. destruct W as (s&post&_&F2&pre&E).
        assert (pre = []) as ->.
        { apply (f_equal (@List.length N)) in E. rewrite app_length, rev_length in E. apply Forall2_length in F2.
          rewrite rev_length in F2. destruct pre; auto. simpl in E. simpl in L, F2. lia. }
        rewrite app_nil_r in E. exists s. rewrite <- (rev_involutive (i :: rest)), <- (rev_involutive (shp p)), E. apply Forall2_rev. auto. }
    all: right; split; auto; intros (s&F2); enough (walk [] (rev (i :: rest)) (rev (shp p)) = EOk tt) by congruence;
      (apply walk_ok; auto); exists s, (rev (shp p)); (split; [apply agrees_nil|]); (split; [apply Forall2_rev; auto|]);
      exists []; rewrite app_nil_r; reflexivity.
Qed.
(** Several arrays: all must have the same shape, and it must match. *)
Theorem C45_ensure_many A pat (p : arr A) more : dots_first pat ->
  (Forall (fun a => shp a = shp p) more /\ matches pat (shp p) /\ ensure_many pat p more = EOk (p :: more)) \/
  (~ (Forall (fun a => shp a = shp p) more /\ matches pat (shp p)) /\ forall r, ensure_many pat p more <> EOk r).
Proof.
  intros DF. unfold ensure_many. destruct (forallb _ (p :: more)) eqn:F.
  - assert (S : Forall (fun a => shp a = shp p) (p :: more)).
    { apply Forall_forall. intros a I. rewrite forallb_forall in F. apply str_eqb_spec. apply F. auto. }
    assert (S' : Forall (fun a => shp a = shp p) more) by (inversion S; auto).
    destruct (C45_ensure A pat p DF) as [(M&_)|(M&E)].
    + left. split; auto. split; auto. clear F S'. induction S as [|a l E S IH]; auto.
      cbn [ensure_all]. destruct (C45_ensure A pat a DF) as [(_&->)|(M'&_)]; [|rewrite E in M'; contradiction].
      rewrite IH. reflexivity.
    + right. split; [tauto|]. intros r. cbn [ensure_all]. destruct E as [-> | [-> | ->]]; discriminate.
  - right. split; [|discriminate]. intros (S&_). cbn [forallb] in F.
    assert (forallb (fun a => shape_eqb (shp a) (shp p)) more = true) as F2.
    { apply forallb_forall. intros a I. rewrite Forall_forall in S. apply str_eqb_spec. auto. }
    rewrite F2 in F. unfold shape_eqb in F. rewrite (proj2 (str_eqb_spec (shp p) (shp p)) eq_refl) in F. discriminate.
Qed.
(** The text of a pattern: entries joined by x. *)
Fixpoint join (l : list str) : str := match l with [] => [] | [p] => p | p :: ps => (p ++ 120 :: join ps)%list end.
Lemma split_plain p : ~ In 120 p -> split_x p = [p].
Proof.
  induction p as [|c p IH]; intros H; auto. cbn [split_x]. destruct (N.eqb_spec c 120) as [->|N]; [exfalso; apply H; left; auto|].
  rewrite IH; auto. intros I. apply H. right. auto.
Qed.
Lemma split_app p s : ~ In 120 p -> split_x (p ++ 120 :: s) = p :: split_x s.
Proof.
  induction p as [|c p IH]; intros H; auto. cbn [app split_x]. destruct (N.eqb_spec c 120) as [->|N]; [exfalso; apply H; left; auto|].
  rewrite IH; auto. intros I. apply H. right. auto.
Qed.
Theorem C45_parse l : l <> [] -> Forall (fun p => ~ In 120 p) l ->
  List.length (string_to_shape (join l)) = List.length l /\
  forall k p, nth_error l k = Some p ->
    (forall n, p = dec n -> nth_error (string_to_shape (join l)) k = Some (INum n)) /\
    (forallb is_digit p = false -> nth_error (string_to_shape (join l)) k = Some (IStr p)).
Proof.
  intros NE F. assert (split_x (join l) = l) as E.
  { induction l as [|p l IH]; [contradiction|]. inversion_clear F as [|? ? H F']. destruct l as [|q l].
    - apply split_plain; auto.
    - cbn [join]. rewrite split_app by auto. f_equal. apply IH; auto. discriminate. }
  unfold string_to_shape. rewrite E. split; [apply map_length|]. intros k p K. rewrite (map_nth_error classify _ _ K). split.
  - intros n ->. unfold classify. pose proof (dec_nonempty n). destruct (dec n) eqn:D; [contradiction|]. rewrite <- D.
    rewrite dec_digits, value_dec. reflexivity.
  - intros D. unfold classify. destruct p; [discriminate|]. rewrite D. reflexivity.
Qed.
(** "..." in the middle switches the check of all entries before it off: "2x...x3" accepts 7 x 5 x 3. *)
Theorem C45_inner_dots_refuted : exists (p : arr unit), ensure1 (string_to_shape (text "2x...x3")) p = EOk p /\
  nth_error (shp p) 0 = Some 7.
Proof. exists (Arr [7; 5; 3] tt). vm_compute. split; reflexivity. Qed.
Example C45_example : dots_first (string_to_shape (text "...x3")) /\ matches (string_to_shape (text "...x3")) [4; 5; 3] /\
  matches (string_to_shape (text "NxNx3")) [4; 4; 3] /\ ~ matches (string_to_shape (text "NxNx3")) [4; 5; 3].
Proof.
  split; [repeat constructor|]. split.
  { exists (fun _ => 0), [4; 5], [3]. split; [reflexivity|]. repeat constructor. }
  split.
  { exists (fun _ => 4). repeat constructor. }
  intros M. destruct (C45_ensure unit (string_to_shape (text "NxNx3")) (Arr [4; 5; 3] tt)) as [(_&E)|(NM&_)].
  - repeat constructor.
  - vm_compute in E. discriminate.
  - contradiction.
Qed.
Print Assumptions C45_ensure.
Print Assumptions C45_ensure_many.
Print Assumptions C45_parse.
Print Assumptions C45_inner_dots_refuted.

(** Arrays that all have the shape of the first fail together, with the error of the first. *)
Theorem C45_errors A pat (p : arr A) more : Forall (fun a => shp a = shp p) more ->
  match ensure1 pat p with
  | EOk _ => ensure_many pat p more = EOk (p :: more)
  | EValueError => ensure_many pat p more = EValueError
  | EAssertion => ensure_many pat p more = EAssertion
  | EIndex => ensure_many pat p more = EIndex
  end.
Proof.
  intros H. unfold ensure_many.
  assert (forallb (fun a => shape_eqb (shp a) (shp p)) (p :: more) = true) as ->.
  { apply forallb_forall. intros a [<-|I]; [apply str_eqb_refl|]. rewrite Forall_forall in H. rewrite (H a I). apply str_eqb_refl. }
  assert (S : forall a : arr A, shp a = shp p -> match ensure1 pat p with EOk _ => ensure1 pat a = EOk a | _ => True end).
  { intros a Ea. unfold ensure1. destruct pat as [|i rest]; auto. rewrite Ea.
    destruct (negb (is_dots i) && _); auto. destruct (walk [] (rev (i :: rest)) (rev (shp p))); auto. }
  cbn [ensure_all]. pose proof (S p eq_refl) as Sp. destruct (ensure1 pat p) as [q| | |]; auto. inversion Sp; subst q.
  assert (L : ensure_all pat more = EOk more).
  { clear -H S. induction H as [|a l Ha Hl IH]; auto. cbn [ensure_all]. rewrite (S a Ha), IH. reflexivity. }
  rewrite L. reflexivity.
Qed.
Print Assumptions C45_errors.
(** two arrays of 4 x 5 against NxN: the assertion *)
Example C45_errors_example : ensure_many (string_to_shape (text "NxN")) (Arr [4; 5] tt) [Arr [4; 5] tt] = EAssertion.
Proof. apply (C45_errors unit (string_to_shape (text "NxN")) (Arr [4; 5] tt) [Arr [4; 5] tt]). repeat constructor. Qed.
