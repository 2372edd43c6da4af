(** * C69: positions given as text, lists and heights *)
Require Import Reals List Bool String NArith QArith Qreals Lia Lra.
From Verif Require Import GpsString GpsStringFacts GpsRegex PropGpsString Num GpsInput.
Import ListNotations.
Open Scope nat_scope.

(** ** Specification *)
(** One coordinate *)
Inductive coordinate : input -> num -> Prop :=
| co_text s v : gpsFromString s = GSingle v -> coordinate (IStr s) (Fin (Q2R v))
| co_number x : coordinate (INum x) x.
(** The numbers a position means: latitude, longitude and, if there is one, the height *)
Inductive position : input -> list num -> Prop :=
| po_text s a b : gpsFromString s = GPair a b -> position (IStr s) [Fin (Q2R a); Fin (Q2R b)]
| po_text_height s a b z : gpsFromString s = GPair a b -> position (IList [IStr s; INum z]) [Fin (Q2R a); Fin (Q2R b); z]
| po_two i j a b : coordinate i a -> coordinate j b -> (forall s x, [i; j] <> [IStr s; INum x]) -> position (IList [i; j]) [a; b]
| po_two_height i j a b z : coordinate i a -> coordinate j b -> position (IList [i; j; INum z]) [a; b; z].
Definition vec (l : list num) : nd := Rows (map number l).
(** A table of numbers with [d] entries per axis *)
Inductive table : list nat -> input -> Prop :=
| ta_number x : table [] (INum x)
| ta_list n d l : List.length l = n -> (forall i, In i l -> table d i) -> table (n :: d) (IList l).
Fixpoint same_numbers (i : input) (a : nd) : Prop :=
  match i, a with
  | INum x, Cell (Some y) => x = y
  | IList l, Rows r => (fix each (l : list input) (r : list nd) : Prop :=
                          match l, r with
                          | [], [] => True
                          | i :: l, a :: r => same_numbers i a /\ each l r
                          | _, _ => False
                          end) l r
  | _, _ => False
  end.

(** ** Facts *)
Fixpoint each (l : list input) : option (list nd) :=
  match l with [] => Some [] | i :: l => obind (gps_from i HNone) (fun a => obind (each l) (fun r => Some (a :: r))) end.
Definition text_number (l : list input) : bool := match l with [IStr _; INum _] => true | _ => false end.
Lemma gps_from_list l h : text_number l = false ->
  gps_from (IList l) h = obind (each l) (fun rs => obind (np_array rs) (fun data => add_height data h)).
Proof.
  intros H. cbn [gps_from].
  assert (E : (fix each (l : list input) : option (list nd) :=
                 match l with
                 | [] => Some []
                 | i :: l => obind (gps_from i HNone) (fun a => obind (each l) (fun r => Some (a :: r)))
                 end) l = each l) by (clear; induction l as [|i l IH]; [reflexivity|]; cbn [each]; rewrite <- IH; reflexivity).
  rewrite E. clear E. destruct l as [|[s|x|l1] [|[s'|x'|l2] [|k l']]]; try reflexivity; discriminate.
Qed.
Lemma each_spec l rs : each l = Some rs <-> Forall2 (fun i r => gps_from i HNone = Some r) l rs.
Proof.
  revert rs. induction l as [|i l IH]; intros rs; cbn [each].
  - split; intros H; [injection H as <-; constructor|inversion H; reflexivity].
  - destruct (gps_from i HNone) as [a|] eqn:E; cbn [obind].
    + destruct (each l) as [r|] eqn:F; cbn [obind].
      * split; intros H.
        -- injection H as <-. constructor; [exact E|]. apply IH. reflexivity.
        -- inversion H as [|? a' ? r' Ha Hr]; subst. rewrite E in Ha. injection Ha as <-. apply IH in Hr. injection Hr as <-. reflexivity.
      * split; intros H; [discriminate|]. inversion H as [|? a' ? r' Ha Hr]; subst. apply IH in Hr. discriminate.
    + split; intros H; [discriminate|]. inversion H; subst. congruence.
Qed.
Lemma shape_eqb_iff s t : shape_eqb s t = true <-> s = t.
Proof. unfold shape_eqb. destruct (list_eq_dec Nat.eq_dec s t); split; intros; subst; auto; congruence. Qed.
Lemma np_array_spec l a : np_array l = Some a <-> a = Rows l /\ exists d, forall r, In r l -> shape r = d.
Proof.
  destruct l as [|b l]; cbn [np_array].
  - split; [intros E; injection E as <-; split; [reflexivity|exists []; intros r []]|intros (->&_); reflexivity].
  - destruct (forallb (fun x => shape_eqb (shape x) (shape b)) l) eqn:F.
    + split; [intros E; injection E as <-|intros (->&_); reflexivity]. split; [reflexivity|]. exists (shape b). intros r [<-|H]; [reflexivity|].
      rewrite forallb_forall in F. apply shape_eqb_iff. apply F. exact H.
    + split; [discriminate|]. intros (_&d&H). assert (F' : forallb (fun x => shape_eqb (shape x) (shape b)) l = true); [|congruence].
      apply forallb_forall. intros x Hx. apply shape_eqb_iff. rewrite (H b), (H x); [reflexivity| |]; [right; exact Hx|left; reflexivity].
Qed.
Lemma shape_vec l : l <> [] -> shape (vec l) = [List.length l].
Proof. destruct l as [|x l]; [congruence|]. intros _. unfold vec, number. cbn [map shape List.length]. rewrite map_length. reflexivity. Qed.
Lemma np_vec l : np_array (map number l) = Some (vec l).
Proof. apply np_array_spec. split; [reflexivity|]. exists []. intros r H. apply in_map_iff in H. destruct H as (x&<-&_). reflexivity. Qed.
Lemma coordinate_from i x : coordinate i x -> gps_from i HNone = Some (number x).
Proof. intros [s v E|y]; cbn [gps_from]; [unfold of_string; rewrite E|]; reflexivity. Qed.
Lemma position_len i p : position i p -> List.length p = 2 \/ List.length p = 3.
Proof. intros []; auto. Qed.
Lemma F2_length {A B} (P : A -> B -> Prop) l r : Forall2 P l r -> List.length l = List.length r.
Proof. induction 1; cbn [List.length]; congruence. Qed.
Lemma Forall2_left {A B} (P : A -> B -> Prop) l r : Forall2 P l r -> forall y, In y r -> exists x, In x l /\ P x y.
Proof. induction 1 as [|a b l r H F IH]; [intros y []|]. intros y [X|X]; [subst; exists a; split; [left|]; auto|]. destruct (IH y X) as (x&I&Q). exists x. split; [right|]; auto. Qed.

Lemma Forall2_right {A B} (P : A -> B -> Prop) l r : Forall2 P l r -> forall x, In x l -> exists y, In y r /\ P x y.
Proof. induction 1 as [|a b l r H F IH]; [intros x []|]. intros x [X|X]; [subst; exists b; split; [left|]; auto|]. destruct (IH x X) as (y&I&Q). exists y. split; [right|]; auto. Qed.

(** ** The properties *)
(** A position in any of the documented forms gives its numbers; with a height as well *)
Theorem C69_position i p : position i p ->
  gps_from i HNone = Some (vec p) /\
  (List.length p = 2 -> forall z, gps_from i (HNum z) = Some (vec (p ++ [z]))).
Proof.
  intros [s a b E|s a b z E|i1 i2 a b Hi Hj N|i1 i2 a b z Hi Hj].
  - cbn [gps_from]. unfold of_string. rewrite E. split; [reflexivity|]. intros _ z. reflexivity.
  - split; [|intros L; discriminate]. cbn [gps_from]. unfold of_string. rewrite E. reflexivity.
  - assert (F : text_number [i1; i2] = false).
    { destruct i1 as [t| |], i2 as [|y|]; try reflexivity. destruct (N t y). reflexivity. }
    apply coordinate_from in Hi, Hj. split; [|intros _ z]; rewrite (gps_from_list _ _ F); cbn [each]; rewrite Hi, Hj; reflexivity.
  - split; [|intros L; discriminate]. apply coordinate_from in Hi, Hj. rewrite gps_from_list by (destruct i1, i2; reflexivity).
    cbn [each]. rewrite Hi, Hj. reflexivity.
Qed.
Print Assumptions C69_position.

(** Many positions: one row each, if all or none have a height, and a ValueError otherwise *)
Theorem C69_batch l ps : Forall2 position l ps ->
  ((forall p q, In p ps -> In q ps -> List.length p = List.length q) -> gps_from (IList l) HNone = Some (Rows (map vec ps))) /\
  (gps_from (IList l) HNone <> None -> forall p q, In p ps -> In q ps -> List.length p = List.length q).
Proof.
  intros F. assert (T : text_number l = false).
  { destruct F as [|i p l ps H F]; [reflexivity|]. destruct i as [s| |]; try reflexivity. destruct F as [|j q l ps H2 F]; [reflexivity|].
    destruct j; try reflexivity. inversion H2. }
  assert (E : each l = Some (map vec ps)).
  { apply each_spec. clear T. induction F as [|i p l ps H F IH]; cbn [map]; constructor; auto. apply C69_position. exact H. }
  assert (NE : forall p, In p ps -> p <> []).
  { intros p H. destruct (Forall2_left _ _ _ F p H) as (i&_&HP). apply position_len in HP. intros ->. destruct HP; discriminate. }
  rewrite (gps_from_list _ _ T), E. cbn [obind]. split.
  - intros L. assert (X : np_array (map vec ps) = Some (Rows (map vec ps))); [|rewrite X; reflexivity].
    apply np_array_spec. split; [reflexivity|]. destruct ps as [|p ps]; [exists []; intros r []|]. exists [List.length p].
    intros r H. apply in_map_iff in H. destruct H as (q&<-&H). rewrite shape_vec by (apply NE; exact H).
    f_equal. apply L; [exact H|left; reflexivity].
  - intros X p q Hp Hq. destruct (np_array (map vec ps)) as [a|] eqn:Y; [|destruct X; reflexivity].
    apply np_array_spec in Y. destruct Y as (_&d&D).
    pose proof (D _ (in_map vec _ _ Hp)) as D1. pose proof (D _ (in_map vec _ _ Hq)) as D2.
    rewrite shape_vec in D1, D2 by (apply NE; assumption). congruence.
Qed.
Print Assumptions C69_batch.

(** Numbers are kept: a table of numbers of any number of axes comes back as it is, and lists of numbers that are no
    table are refused. *)
Fixpoint only_numbers (i : input) : Prop :=
  match i with
  | INum _ => True
  | IStr _ => False
  | IList l => (fix each (l : list input) : Prop := match l with [] => True | i :: l => only_numbers i /\ each l end) l
  end.
Lemma input_ind' (P : input -> Prop) : (forall s, P (IStr s)) -> (forall x, P (INum x)) ->
  (forall l, Forall P l -> P (IList l)) -> forall i, P i.
Proof.
  intros HS HN HL. fix IH 1. intros [s|x|l]; [apply HS|apply HN|]. apply HL. induction l as [|i l IL]; constructor; auto.
Qed.
Lemma only_numbers_list l : only_numbers (IList l) <-> Forall only_numbers l.
Proof.
  cbn [only_numbers]. induction l as [|i l IH]; split; intros H; auto; [destruct H; constructor; auto; apply IH; auto|].
  inversion H; subst. split; auto. apply IH. auto.
Qed.
Lemma same_list l r : same_numbers (IList l) (Rows r) <-> Forall2 same_numbers l r.
Proof.
  cbn [same_numbers]. revert r. induction l as [|i l IH]; intros [|a r]; split; intros H; auto; try contradiction; try (inversion H; fail).
  - destruct H. constructor; auto. apply IH. auto.
  - inversion H; subst. split; auto. apply IH. auto.
Qed.
Lemma numbers_no_text l : Forall only_numbers l -> text_number l = false.
Proof. intros [|i l' H F]; [reflexivity|]. destruct i; try reflexivity. destruct H. Qed.
Lemma shape_table d i : table d i -> forall a, same_numbers i a ->
  (forall e j b, table e j -> same_numbers j b -> (e = d -> shape b = shape a)) .
Proof.
  intros T. induction T as [x|n d l L T IH]; intros a S e j b Te Sb ->.
  - inversion Te; subst. destruct a as [[y|]|]; try contradiction. destruct b as [[z|]|]; try contradiction. reflexivity.
  - inversion Te as [|n' d' l' L' T' X1 X2]; subst. destruct a as [c|r]; [destruct S|]. destruct b as [c|r']; [destruct Sb|].
    apply same_list in S. apply same_list in Sb. pose proof (F2_length _ _ _ S) as A1. pose proof (F2_length _ _ _ Sb) as A2.
    destruct S as [|i a l r Hi S]; destruct Sb as [|j b l' r' Hj Sb]; cbn [List.length] in *; try discriminate; [reflexivity|].
    cbn [shape]. f_equal; [cbn [List.length]; lia|]. eapply (IH i (or_introl eq_refl) a Hi d j b); auto. apply T'. left. reflexivity.
Qed.
Theorem C69_numbers i : only_numbers i ->
  (forall d, table d i -> forall h, h = HNone \/ d = [] -> exists a, gps_from i h = Some a /\ same_numbers i a) /\
  (forall a, gps_from i HNone = Some a -> same_numbers i a /\ table (shape a) i).
Proof.
  revert i. apply (input_ind' (fun i => only_numbers i ->
    (forall d, table d i -> forall h, h = HNone \/ d = [] -> exists a, gps_from i h = Some a /\ same_numbers i a) /\
    (forall a, gps_from i HNone = Some a -> same_numbers i a /\ table (shape a) i))).
  - intros s [].
  - intros x _. split.
    + intros d T h _. exists (number x). split; reflexivity.
    + intros a E. cbn [gps_from] in E. injection E as <-. split; [reflexivity|]. constructor.
  - intros l IH O. apply only_numbers_list in O. split.
    + intros d T h Hh. inversion T as [|n d' l' L T' X1 X2]; subst. destruct Hh as [->|X]; [|discriminate].
      assert (X : exists rs, Forall2 (fun i r => gps_from i HNone = Some r /\ same_numbers i r) l rs).
      { clear T. revert T'. induction IH as [|i l Hi IH IHl]; intros T; [exists []; constructor|]. inversion O as [|? ? O1 O2]; subst.
        destruct (IHl O2) as (rs&Hrs); [intros k Hk; apply T; right; exact Hk|].
        destruct (proj1 (Hi O1) d' (T i (or_introl eq_refl)) HNone (or_introl eq_refl)) as (a&E&S). exists (a :: rs). constructor; auto. }
      destruct X as (rs&X).
      assert (E : each l = Some rs) by (apply each_spec; clear -X; induction X as [|? ? ? ? []]; constructor; auto).
      assert (S : Forall2 same_numbers l rs) by (clear -X; induction X as [|? ? ? ? []]; constructor; auto).
      exists (Rows rs). split; [|apply same_list; exact S].
      rewrite (gps_from_list _ _ (numbers_no_text _ O)), E. cbn [obind].
      assert (NP : np_array rs = Some (Rows rs)); [|rewrite NP; reflexivity].
      apply np_array_spec. split; [reflexivity|]. destruct S as [|i a l rs Hi S]; [exists []; intros r []|].
      exists (shape a). intros r [<-|Hr]; [reflexivity|]. destruct (Forall2_left _ _ _ S r Hr) as (k&Hk&Sk).
      eapply (shape_table d' i (T' i (or_introl eq_refl)) a Hi d' k r); auto. apply T'. right. exact Hk.
    + intros a E. rewrite (gps_from_list _ _ (numbers_no_text _ O)) in E.
      destruct (each l) as [rs|] eqn:F; [|discriminate]. cbn [obind] in E. destruct (np_array rs) as [b|] eqn:G; [|discriminate].
      cbn in E. injection E as <-. apply np_array_spec in G. destruct G as (->&sh&G). apply each_spec in F.
      assert (X : Forall2 (fun i r => same_numbers i r /\ table (shape r) i) l rs).
      { clear G. revert rs F. induction IH as [|i l Hi IH IHl]; intros rs F; inversion F; subst; constructor; inversion O; subst; auto.
        apply Hi; auto. }
      split; [apply same_list; clear -X; induction X as [|? ? ? ? []]; constructor; auto|].
      destruct X as [|i r l rs Hi X]; [constructor; [reflexivity|intros i []]|].
      cbn [shape]. constructor; [cbn [List.length]; f_equal; exact (F2_length _ _ _ X)|].
      intros k [<-|Hk]; [apply Hi|]. destruct (Forall2_right _ _ _ X k Hk) as (y&Hy&_&HT).
      rewrite (G r (or_introl eq_refl)), <- (G y (or_intror Hy)). exact HT.
Qed.
Print Assumptions C69_numbers.

(** What formatGPS writes is read back: a list of places with heights becomes a table with one row per place *)
Definition known_format (fmt : option str) (e : R) : Prop :=
  (fmt = None /\ e = 1 / 2 / 1000 / 3600)%R \/
  ((fmt = Some format_minutes \/ fmt = Some format_example) /\ e = 1 / 2 / 1000 / 60)%R \/
  (fmt = Some format_degrees /\ e = 1 / 2 / 1000)%R.
Record place := Place { p_lat : R; p_lon : R; p_height : num }.
(** the entry for a place: both coordinates in one text with the height, or each in its own text *)
Definition entry_of (fmt : option str) (sep : option str) (p : place) (i : input) : Prop :=
  exists s1 s2, formatGPS (p_lat p) (p_lon p) fmt = (FOk s1, FOk s2) /\
    i = match sep with
        | Some t => IList [IStr (s1 ++ t ++ s2); INum (p_height p)]
        | None => IList [IStr s1; IStr s2; INum (p_height p)]
        end.
Definition row_of (e : R) (p : place) (r : nd) : Prop :=
  exists a b, r = vec [Fin a; Fin b; p_height p] /\ (Rabs (a - p_lat p) <= e)%R /\ (Rabs (b - p_lon p) <= e)%R.
Theorem C69_round_trip fmt e sep places : known_format fmt e -> (forall t, sep = Some t -> separator t) ->
  exists l rows, Forall2 (entry_of fmt sep) places l /\ gps_from (IList l) HNone = Some (Rows rows) /\
    Forall2 (row_of e) places rows.
Proof.
  intros K SEP.
  assert (RT : round_trip fmt e).
  { destruct K as [(->&->)|[([-> | ->]&->)|(->&->)]]; [apply C33_default_format|apply (C33_minutes_format true)|apply (C33_minutes_format false)|apply C33_degrees_format]. }
  assert (X : exists l ps, Forall2 (entry_of fmt sep) places l /\ Forall2 position l ps /\ Forall2 (fun p q => row_of e p (vec q)) places ps /\
                forall q, In q ps -> List.length q = 3).
  { induction places as [|p places IH].
    - exists [], []. repeat split; try constructor. intros q [].
    - destruct IH as (l&ps&E&P&W&L).
      destruct (RT (p_lat p) (p_lon p) (match sep with Some t => t | None => text " " end)) as (s1&s2&a&b&HF&HP&HS&HA&HB).
      { destruct sep as [t|]; [apply SEP; reflexivity|]. left. reflexivity. }
      unfold gpsFromStrings in HS. cbn [map] in HS. injection HS as S1 S2.
      eexists (_ :: l), ([Fin (Q2R a); Fin (Q2R b); p_height p] :: ps). split; [|split; [|split]].
      + constructor; [|exact E]. exists s1, s2. split; [exact HF|reflexivity].
      + constructor; [|exact P]. destruct sep as [t|].
        * apply po_text_height. exact HP.
        * apply po_two_height; constructor; assumption.
      + constructor; [|exact W]. exists (Q2R a), (Q2R b). auto.
      + intros q [<-|Hq]; [reflexivity|apply L; exact Hq]. }
  destruct X as (l&ps&E&P&W&L). exists l, (map vec ps). split; [exact E|]. split.
  - apply (C69_batch l ps P). intros p q Hp Hq. rewrite (L p Hp), (L q Hq). reflexivity.
  - clear -W. induction W; cbn [map]; constructor; auto.
Qed.
Print Assumptions C69_round_trip.

(** A height beside a list of positions: refused, except a list of heights beside a list of one position *)
Lemma position_shape l ps a : Forall2 position l ps -> gps_from (IList l) HNone = Some a -> l <> [] ->
  a = Rows (map vec ps) /\ exists n, shape a = [List.length l; n].
Proof.
  intros F E NE. destruct (C69_batch l ps F) as (X&Y). assert (L := Y ltac:(congruence)). rewrite (X L) in E. injection E as <-.
  split; [reflexivity|]. pose proof (F2_length _ _ _ F) as LL. destruct ps as [|p ps]; [destruct l; [congruence|discriminate LL]|].
  cbn [map shape]. exists (List.length p). rewrite shape_vec; [cbn [List.length]; rewrite map_length, LL; reflexivity|].
  destruct (Forall2_left _ _ _ F p (or_introl eq_refl)) as (i&_&HP). apply position_len in HP. intros ->. destruct HP; discriminate.
Qed.
Lemma gps_from_height l h : text_number l = false ->
  gps_from (IList l) h = obind (gps_from (IList l) HNone) (fun a => add_height a h).
Proof.
  intros T. rewrite (gps_from_list l h T), (gps_from_list l HNone T). destruct (each l) as [rs|]; [|reflexivity]. cbn [obind].
  destruct (np_array rs); reflexivity.
Qed.
Lemma position_no_text l ps : Forall2 position l ps -> text_number l = false.
Proof.
  intros F. destruct F as [|i p l ps H F]; [reflexivity|]. destruct i as [s| |]; try reflexivity. destruct F as [|j q l ps H2 F]; [reflexivity|].
  destruct j; try reflexivity. inversion H2.
Qed.
Theorem C69_height_raises l ps : Forall2 position l ps -> l <> [] ->
  (forall z, gps_from (IList l) (HNum z) = None) /\
  (forall hs, List.length l <> 1 -> gps_from (IList l) (HList hs) = None) /\
  (forall p hs, ps = [p] -> gps_from (IList l) (HList hs) = Some (Rows [vec (p ++ hs)])).
Proof.
  intros F NE. pose proof (position_no_text _ _ F) as T. splits; intros; rewrite (gps_from_height _ _ T).
  - destruct (gps_from (IList l) HNone) as [a|] eqn:E; [|reflexivity]. destruct (position_shape l ps a F E NE) as (->&n&S).
    cbn [obind add_height]. rewrite S. reflexivity.
  - destruct (gps_from (IList l) HNone) as [a|] eqn:E; [|reflexivity]. destruct (position_shape l ps a F E NE) as (->&n&S).
    pose proof (F2_length _ _ _ F) as LL. cbn [obind add_height]. destruct ps as [|p [|q ps]]; cbn [map]; [reflexivity|cbn [List.length] in LL; lia|reflexivity].
  - subst ps. rewrite (proj1 (C69_batch l [p] F)) by (intros p1 p2 [<-|[]] [<-|[]]; reflexivity).
    assert (P : p <> []). { destruct (Forall2_left _ _ _ F p (or_introl eq_refl)) as (i&_&HP). apply position_len in HP. intros ->. destruct HP; discriminate. }
    assert (SH : shape (Rows [vec p]) = [1; List.length p]) by (change (shape (Rows [vec p])) with (1 :: shape (vec p)); rewrite (shape_vec p P); reflexivity).
    cbn [map obind]. unfold add_height. unfold vec in SH |- *. rewrite SH, map_app. reflexivity.
Qed.
Print Assumptions C69_height_raises.

(** ** What is false *)
Definition south : str := (text "66" ++ [DEG] ++ text "39'56.12862''S")%list.
Definition here : str := (text "-66.66559128" ++ [DEG] ++ text " 140.02233212" ++ [DEG])%list.
(** several positions with one height, or with one height each *)
Theorem C69_heights_refuted : exists l ps, Forall2 position l ps /\ List.length l = 2 /\
  (forall z, gps_from (IList l) (HNum z) = None) /\ (forall z1 z2, gps_from (IList l) (HList [z1; z2]) = None).
Proof.
  assert (G : exists a b, gpsFromString here = GPair a b) by (eexists; eexists; vm_compute; reflexivity).
  destruct G as (a&b&G). exists [IStr here; IStr here], [[Fin (Q2R a); Fin (Q2R b)]; [Fin (Q2R a); Fin (Q2R b)]].
  assert (F : Forall2 position [IStr here; IStr here] [[Fin (Q2R a); Fin (Q2R b)]; [Fin (Q2R a); Fin (Q2R b)]])
    by (repeat constructor; exact G).
  split; [exact F|]. split; [reflexivity|]. destruct (C69_height_raises _ _ F) as (A&B&_); [discriminate|].
  split; [exact A|]. intros z1 z2. apply B. discriminate.
Qed.
Print Assumptions C69_heights_refuted.
(** the height beside a single coordinate, and the longitude beside a latitude as text, are dropped *)
Theorem C69_dropped_refuted : exists s v, gpsFromString s = GSingle v /\ forall z,
  gps_from (IStr s) (HNum z) = Some (number (Fin (Q2R v))) /\ gps_from (IList [IStr s; INum z]) HNone = Some (number (Fin (Q2R v))).
Proof.
  assert (G : exists v, gpsFromString south = GSingle v) by (eexists; vm_compute; reflexivity). destruct G as (v&G).
  exists south, v. split; [exact G|]. intros z. cbn [gps_from]. unfold of_string. rewrite G. split; reflexivity.
Qed.
Print Assumptions C69_dropped_refuted.
(** text without degree signs is no error: the result is None, also inside a list *)
Theorem C69_unreadable_refuted : exists s, gps_from (IStr s) HNone = Some (Cell None) /\
  gps_from (IList [IStr s; IStr s]) HNone = Some (Rows [Cell None; Cell None]).
Proof.
  assert (G : gpsFromString (text "70.61805 8.1573") = GNone) by (vm_compute; reflexivity).
  exists (text "70.61805 8.1573"). cbn [gps_from]. unfold of_string. rewrite G. split; reflexivity.
Qed.
Print Assumptions C69_unreadable_refuted.

(** ** Examples *)
Example C69_example_position : (exists a b, position (IStr here) [a; b]) /\
  (exists a b, position (IList [IStr here; INum (Fin 13)]) [a; b; Fin 13]) /\
  (exists a b, position (IList [IStr south; IStr south]) [a; b]) /\
  (exists a, position (IList [IStr south; INum (Fin 140); INum (Fin 7)]) [a; Fin 140; Fin 7]).
Proof.
  assert (G : exists a b, gpsFromString here = GPair a b) by (eexists; eexists; vm_compute; reflexivity). destruct G as (a&b&G).
  assert (S : exists v, gpsFromString south = GSingle v) by (eexists; vm_compute; reflexivity). destruct S as (v&S).
  splits.
  - do 2 eexists. apply po_text. exact G.
  - do 2 eexists. apply po_text_height. exact G.
  - do 2 eexists. apply po_two; [constructor; exact S|constructor; exact S|discriminate].
  - eexists. apply po_two_height; [constructor; exact S|constructor].
Qed.
Example C69_example_batch : exists l ps, Forall2 position l ps /\ List.length l = 2 /\ gps_from (IList l) HNone = Some (Rows (map vec ps)).
Proof.
  assert (G : exists a b, gpsFromString here = GPair a b) by (eexists; eexists; vm_compute; reflexivity). destruct G as (a&b&G).
  assert (S : exists v, gpsFromString south = GSingle v) by (eexists; vm_compute; reflexivity). destruct S as (v&S).
  exists [IList [IStr here; INum (Fin 13)]; IList [IStr south; INum (Fin 140); INum (Fin 7)]],
    [[Fin (Q2R a); Fin (Q2R b); Fin 13]; [Fin (Q2R v); Fin 140; Fin 7]].
  assert (F : Forall2 position [IList [IStr here; INum (Fin 13)]; IList [IStr south; INum (Fin 140); INum (Fin 7)]]
    [[Fin (Q2R a); Fin (Q2R b); Fin 13]; [Fin (Q2R v); Fin 140; Fin 7]]).
  { constructor; [apply po_text_height; exact G|]. constructor; [|constructor]. apply po_two_height; constructor. exact S. }
  split; [exact F|]. split; [reflexivity|]. apply (C69_batch _ _ F). intros p q [<-|[<-|[]]] [<-|[<-|[]]]; reflexivity.
Qed.
Example C69_example_mixed : gps_from (IList [IList [INum (Fin 1); INum (Fin 2)]; IList [INum (Fin 1); INum (Fin 2); INum (Fin 3)]]) HNone = None.
Proof. reflexivity. Qed.
Example C69_example_numbers : table [2; 2] (IList [IList [INum (Fin 1); INum (Fin 2)]; IList [INum (Fin 3); INum NaN]]) /\
  only_numbers (IList [IList [INum (Fin 1); INum (Fin 2)]; IList [INum (Fin 3); INum NaN]]).
Proof.
  split.
  - constructor; [reflexivity|]. intros i [<-|[<-|[]]]; (constructor; [reflexivity|]; intros j [<-|[<-|[]]]; constructor).
  - repeat split.
Qed.
Example C69_example_round_trip : known_format None (1 / 2 / 1000 / 3600) /\ separator (text ", ").
Proof. split; [left; split; reflexivity|right; reflexivity]. Qed.
Example C69_example_one_row : exists a b, gps_from (IList [IStr here]) (HList [Fin 5]) = Some (Rows [vec [a; b; Fin 5]]).
Proof.
  assert (G : exists a b, gpsFromString here = GPair a b) by (eexists; eexists; vm_compute; reflexivity). destruct G as (a&b&G).
  exists (Fin (Q2R a)), (Fin (Q2R b)).
  assert (F : Forall2 position [IStr here] [[Fin (Q2R a); Fin (Q2R b)]]) by (repeat constructor; exact G).
  destruct (C69_height_raises _ _ F) as (_&_&C); [discriminate|]. apply (C _ [Fin 5] eq_refl).
Qed.
