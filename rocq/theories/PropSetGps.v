(** * Property C53: setting the GPS position *)
From Verif Require Import GpsString.
Require Import Reals Lra List Bool String Arith NArith QArith Qreals Lia.
From Verif Require Import Num Vec Orientation Projection.
From Verif Require Import Param ParamFacts ParamOps ParamSteps ParamReach ParamCam ParamLaws PropParam.
From Verif Require Import ParamMap ParamCheck ParamExamples ParamTotal PropTotal ParamSave PropSave PropSpace SetGps.
Import ListNotations.
Open Scope nat_scope.
Open Scope string_scope.
Implicit Types h : heapn.

(** ** Specification: the position a call asks for *)
Inductive asks : lat_arg -> option num -> option num -> num -> option num -> option num -> Prop :=
| asks_numbers x lo el : asks (LNum x) lo el x lo el
| asks_three a b z rest lo el : asks (LSeq a b (z :: rest)) lo el a (Some b) (Some z)
| asks_two a b lo : asks (LSeq a b []) lo None a (Some b) None
| asks_string s qa qb lo el : gpsFromString s = GPair qa qb -> asks (LStr s) lo el (Fin (Q2R qa)) (Some (Fin (Q2R qb))) el.
(** ... and a string that holds no pair of coordinates *)
Definition no_pair (s : str) : Prop := forall a b, gpsFromString s <> GPair a b.

(** ** Facts *)
Lemma asks_args lat lon el la lo e : asks lat lon el la lo e -> gps_args lat lon el = GArgs la lo e.
Proof.
  destruct 1 as [| | |s qa qb lo el E]; try reflexivity. unfold gps_args, string_array. rewrite E. destruct el; reflexivity.
Qed.
Lemma gps_reads h c p o l : reach h -> cam_at h c p o l -> exists g, forall n, In n gnames -> reads h c n (Loc g n).
Proof.
  intros HR (b&E&K). destruct (reach_inv h HR) as (_&CI). destruct (CI c b p o l E K) as (g&pk&k&lk&_&_&_&_&_&HT&HA).
  exists g. intros n Hn. assert (IN : In n (all_names k lk)) by (unfold all_names; rewrite in_app_iff; auto).
  exists b. split; [exact E|split; [apply HA; exact IN|]]. rewrite HT, cam_table_assoc, (mem_name_in _ _ IN).
  unfold owner_of. rewrite (mem_name_in n gnames Hn). reflexivity.
Qed.
Lemma elevation_reads h c p o l : reach h -> cam_at h c p o l -> reads h c "elevation_m" (Loc o "elevation_m").
Proof.
  intros HR HC. destruct (reach_inv h HR) as (HI&CI). pose proof HC as (b&E&K).
  destruct (CI c b p o l E K) as (g&pk&k&lk&_&HO&_). destruct (camera_reads wrapn h c p o l "elevation_m" CI HI HC) as (_&RO&_).
  destruct (RO k HO) as (R&_); [destruct k; cbn; tauto|exact R].
Qed.
(** an assignment to a parameter that is neither a heading nor focallength_px *)
Definition ordinary (n : name) : Prop := n <> "heading_deg" /\ n <> "pitch_deg" /\ n <> "focallength_px".
Lemma ordinary_step h o n x a h1 : reach h -> ordinary n -> reads h o n (Loc x n) -> set_attr wrapn h o n a = (h1, true) ->
  reach h1 /\ sim h h1 /\ rdl h1 (Loc x n) = match a with ANum v => Some v | APair m _ => Some m | ANone => default (mem h (Loc x n)) end /\
  default (mem h1 (Loc x n)) = default (mem h (Loc x n)) /\ forall z, z <> Loc x n -> mem h1 z = mem h z.
Proof.
  intros HR (N1&N2&N3) R HS. destruct (reach_inv h HR) as (HI&CI). assert (W := reads_writes _ _ _ _ R).
  destruct (set_attr_mem wrapn wrapn_ok h o n a _ h1 HI W HS) as (S&M&MO).
  assert (WL : wrapped_loc h (Loc x n) = false).
  { unfold wrapped_loc. cbn [l_owner l_name]. destruct (objs h x) as [b|]; auto. destruct (okd b); auto.
    apply String.eqb_neq. destruct k; assumption. }
  rewrite WL in M. split; [exact (Rstep wrapn litn h (OSet o n a) h1 HR I HS)|]. split; [exact S|]. split; [|split].
  - unfold rdl. rewrite M. unfold rd. destruct a; reflexivity.
  - rewrite M. destruct a; reflexivity.
  - intros z N. rewrite MO by exact N. unfold follows. cbn [l_name]. rewrite (proj2 (String.eqb_neq _ _) N3), andb_false_r. reflexivity.
Qed.
Lemma set_gps_spec h c p o l g lat lon el la lo e h' : reach h -> cam_at h c p o l -> (forall n, In n gnames -> reads h c n (Loc g n)) ->
  gps_args lat lon el = GArgs la lo e -> setGPSpos h c lat lon el = (h', true) ->
  reach h' /\ sim h h' /\ rdl h' (Loc g "gps_lat") = Some la /\
  rdl h' (Loc g "gps_lon") = match lo with Some v => Some v | None => default (mem h (Loc g "gps_lon")) end /\
  rdl h' (Loc o "elevation_m") = match e with Some v => Some v | None => rdl h (Loc o "elevation_m") end /\
  forall z, z <> Loc g "gps_lat" -> z <> Loc g "gps_lon" -> (e <> None -> z <> Loc o "elevation_m") -> mem h' z = mem h z.
Proof.
  intros HR HC HG EA HS. unfold setGPSpos in HS. rewrite EA in HS.
  apply bind_ok in HS. destruct HS as (h1&E1&HS). apply bind_ok in HS. destruct HS as (h2&E2&HS).
  assert (O1 : ordinary "gps_lat") by (repeat split; discriminate). assert (O2 : ordinary "gps_lon") by (repeat split; discriminate).
  assert (O3 : ordinary "elevation_m") by (repeat split; discriminate).
  destruct (ordinary_step h c "gps_lat" g _ h1 HR O1 (HG _ ltac:(cbn; tauto)) E1) as (R1&S1&V1&D1&M1).
  assert (HG1 : reads h1 c "gps_lon" (Loc g "gps_lon")) by (eapply reads_sim; [exact S1|apply HG; cbn; tauto]).
  destruct (ordinary_step h1 c "gps_lon" g _ h2 R1 O2 HG1 E2) as (R2&S2&V2&D2&M2).
  assert (C2 := cam_sim _ _ _ _ _ _ (sim_trans _ _ _ S1 S2) HC). assert (RE := elevation_reads h2 c p o l R2 C2).
  assert (V2' : rdl h2 (Loc g "gps_lon") = match lo with Some v => Some v | None => default (mem h (Loc g "gps_lon")) end).
  { rewrite V2. destruct lo; [reflexivity|]. cbn [of_opt]. rewrite M1 by discriminate. reflexivity. }
  destruct e as [z|].
  - destruct (ordinary_step h2 c "elevation_m" o _ h' R2 O3 RE HS) as (R3&S3&V3&D3&M3).
    split; [exact R3|]. split; [eapply sim_trans; [exact S1|eapply sim_trans; eauto]|].
    split; [unfold rdl; rewrite M3, M2 by discriminate; exact V1|].
    split; [unfold rdl; rewrite M3 by discriminate; exact V2'|]. split; [exact V3|].
    intros y N1 N2 N3. rewrite M3, M2, M1 by (auto; apply N3; discriminate). reflexivity.
  - inversion HS; subst h'. split; [exact R2|]. split; [eapply sim_trans; eauto|].
    split; [unfold rdl; rewrite M2 by discriminate; exact V1|]. split; [exact V2'|].
    split; [unfold rdl; rewrite M2, M1 by discriminate; reflexivity|].
    intros y N1 N2 _. rewrite M2, M1 by auto. reflexivity.
Qed.

(** ** C53 *)
(** After a call the camera reads what was asked for: latitude, longitude (its default if none was given) and,
    if one was given, the elevation.  Every other attribute of every object reads as before, except where it is
    another name of one of these parameters. *)
Theorem C53_position : forall h c p o l lat lon el la lo e h', reach h -> cam_at h c p o l ->
  asks lat lon el la lo e -> setGPSpos h c lat lon el = (h', true) ->
  get_num h' c "gps_lat" = Some la /\
  (forall v, lo = Some v -> get_num h' c "gps_lon" = Some v) /\
  (lo = None -> forall x, writes h c "gps_lon" x -> get_num h' c "gps_lon" = default (mem h x)) /\
  (forall v, e = Some v -> get_num h' c "elevation_m" = Some v /\ get_num h' o "elevation_m" = Some v) /\
  (e = None -> get_num h' c "elevation_m" = get_num h c "elevation_m") /\
  (forall o' n x, writes h o' n x -> ~ writes h c "gps_lat" x -> ~ writes h c "gps_lon" x ->
     (e <> None -> ~ writes h c "elevation_m" x) -> get_attr h' o' n = get_attr h o' n) /\
  reach h'.
Proof.
  intros h c p o l lat lon el la lo e h' HR HC HA HS. apply asks_args in HA.
  destruct (gps_reads h c p o l HR HC) as (g&HG).
  destruct (set_gps_spec h c p o l g lat lon el la lo e h' HR HC HG HA HS) as (R'&S&V1&V2&V3&M).
  assert (G1 : reads h' c "gps_lat" (Loc g "gps_lat")) by (eapply reads_sim; [exact S|apply HG; cbn; tauto]).
  assert (G2 : reads h' c "gps_lon" (Loc g "gps_lon")) by (eapply reads_sim; [exact S|apply HG; cbn; tauto]).
  assert (C' := cam_sim _ _ _ _ _ _ S HC). assert (G3 := elevation_reads h' c p o l R' C'). assert (G0 := elevation_reads h c p o l HR HC).
  assert (W1 := reads_writes _ _ _ _ (HG "gps_lat" ltac:(cbn; tauto))). assert (W2 := reads_writes _ _ _ _ (HG "gps_lon" ltac:(cbn; tauto))).
  assert (W3 := reads_writes _ _ _ _ G0).
  split; [rewrite (reads_num _ _ _ _ G1); exact V1|]. split; [intros v ->; rewrite (reads_num _ _ _ _ G2); exact V2|].
  split. { intros -> x (b&E&A). rewrite (reads_num _ _ _ _ G2), V2. destruct W2 as (b2&E2&A2). repeat f_equal. congruence. }
  split. { intros v ->. split; [rewrite (reads_num _ _ _ _ G3); exact V3|]. destruct (reach_inv h' R') as (HI'&CI').
    pose proof C' as (b&E&K). destruct (CI' c b p o l E K) as (g'&pk&k&lk&_&HO&_).
    destruct (camera_reads wrapn h' c p o l "elevation_m" CI' HI' C') as (_&RO&_).
    destruct (RO k HO) as (_&RO'); [destruct k; cbn; tauto|]. rewrite (reads_num _ _ _ _ RO'). exact V3. }
  split; [intros ->; rewrite (reads_num _ _ _ _ G3), (reads_num _ _ _ _ G0); exact V3|].
  split; [|exact R'].
  intros o' n x (b&E&A) N1 N2 N3. destruct (sim_fwd _ _ _ _ S E) as (b'&E'&(_&A'&T'&_)).
  unfold get_attr. rewrite E, E', A', T'. destruct (attrs b n); [reflexivity|]. rewrite A. unfold rdl. rewrite M; [reflexivity|..].
  - intros ->. contradiction.
  - intros ->. contradiction.
  - intros NE ->. apply (N3 NE). exact W3.
Qed.
Print Assumptions C53_position.
(** In a state without a None the call returns, if a longitude was given or the longitude has a default. *)
Theorem C53_returns : forall h c p o l lat lon el la lo e, reach h -> full h -> cam_at h c p o l -> asks lat lon el la lo e ->
  (lo = None -> forall x, writes h c "gps_lon" x -> default (mem h x) <> None) ->
  exists h', setGPSpos h c lat lon el = (h', true) /\ full h'.
Proof.
  intros h c p o l lat lon el la lo e HR HF HC HA HD. apply asks_args in HA. unfold setGPSpos. rewrite HA.
  destruct (reach_inv h HR) as (HI&_). pose proof HC as (b&E&_). destruct (gps_reads h c p o l HR HC) as (g&HG).
  destruct (full_set_attr wrapn wrapn_ok h c "gps_lat" (ANum la) b HI HF E) as (h1&E1&F1); [discriminate|]. rewrite E1, bind_run.
  assert (O1 : ordinary "gps_lat") by (repeat split; discriminate).
  destruct (ordinary_step h c "gps_lat" g _ h1 HR O1 (HG _ ltac:(cbn; tauto)) E1) as (R1&S1&V1&D1&M1).
  destruct (reach_inv h1 R1) as (HI1&_). destruct (sim_fwd _ _ _ _ S1 E) as (b1&E1'&_).
  assert (HG1 : reads h1 c "gps_lon" (Loc g "gps_lon")) by (eapply reads_sim; [exact S1|apply HG; cbn; tauto]).
  destruct (full_set_attr wrapn wrapn_ok h1 c "gps_lon" (of_opt lo) b1 HI1 F1 E1') as (h2&E2&F2).
  { intros EN x (bx&Ex&Ax). destruct lo; [discriminate|]. destruct HG1 as (by'&Ey&_&Ay). assert (x = Loc g "gps_lon") by congruence. subst x.
    rewrite M1 by discriminate. split; [|discriminate]. apply (HD eq_refl). apply reads_writes. apply HG. cbn; tauto. }
  rewrite E2, bind_run. destruct e as [z|]; [|exists h2; auto].
  assert (O2 : ordinary "gps_lon") by (repeat split; discriminate).
  destruct (ordinary_step h1 c "gps_lon" g _ h2 R1 O2 HG1 E2) as (R2&S2&_).
  destruct (reach_inv h2 R2) as (HI2&_). destruct (sim_fwd _ _ _ _ S2 E1') as (b2&E2'&_).
  apply (full_set_attr wrapn wrapn_ok h2 c "elevation_m" (ANum z) b2 HI2 F2 E2'). discriminate.
Qed.
Print Assumptions C53_returns.
(** A string without a pair of coordinates raises and changes nothing. *)
Theorem C53_not_a_position : forall h c s lon el, no_pair s -> setGPSpos h c (LStr s) lon el = (h, false).
Proof.
  intros h c s lon el H. unfold setGPSpos, gps_args, string_array. destruct (gpsFromString s) eqn:E; try reflexivity.
  exfalso. exact (H _ _ E).
Qed.
Print Assumptions C53_not_a_position.
(** The three forms with the same values do the same. *)
Theorem C53_forms_agree : forall h c s qa qb z lon lon' el, gpsFromString s = GPair qa qb ->
  setGPSpos h c (LStr s) lon (Some z) = setGPSpos h c (LNum (Fin (Q2R qa))) (Some (Fin (Q2R qb))) (Some z) /\
  setGPSpos h c (LSeq (Fin (Q2R qa)) (Fin (Q2R qb)) [z]) lon' el = setGPSpos h c (LNum (Fin (Q2R qa))) (Some (Fin (Q2R qb))) (Some z) /\
  setGPSpos h c (LStr s) lon None = setGPSpos h c (LNum (Fin (Q2R qa))) (Some (Fin (Q2R qb))) None.
Proof.
  intros h c s qa qb z lon lon' el E. unfold setGPSpos, gps_args, string_array, split_deg. rewrite E. split; [|split]; reflexivity.
Qed.
Print Assumptions C53_forms_agree.

(** ** Examples *)
Lemma gps_cam : let h := floats spaceq in reach h /\ full h /\ cam_at h 3 0 1 2 /\ get_num h 3 "elevation_m" = Some (litn (10#1)).
Proof.
  intros h. split; [exact spaceq_reach|]. split; [apply fullb_ok; [exact spaceq_reach|vm]|]. split; [apply cam_q; vm|apply get_q; vm].
Qed.
Definition ex_string : str := (text "-66" ++ [DEG] ++ text " 140" ++ [DEG])%list.
Example C53_example : exists h h', reach h /\ full h /\ cam_at h 3 0 1 2 /\
  asks (LStr ex_string) None (Some (Fin 19)) (Fin (Q2R (-66#1))) (Some (Fin (Q2R (140#1)))) (Some (Fin 19)) /\
  setGPSpos h 3 (LStr ex_string) None (Some (Fin 19)) = (h', true) /\ no_pair (text "north") /\
  (forall x, writes h 3 "gps_lon" x -> default (mem h x) <> None).
Proof.
  destruct gps_cam as (R&F&C&_).
  assert (G : exists a b, gpsFromString ex_string = GPair a b /\ Q2R a = Q2R (-66#1) /\ Q2R b = Q2R (140#1)).
  { do 2 eexists. split; [vm_compute; reflexivity|]. split; unfold Q2R; simpl; field. }
  destruct G as (a&b&G&E1&E2).
  assert (A : asks (LStr ex_string) None (Some (Fin 19)) (Fin (Q2R (-66#1))) (Some (Fin (Q2R (140#1)))) (Some (Fin 19))).
  { rewrite <- E1, <- E2. apply asks_string. exact G. }
  destruct (C53_returns (floats spaceq) 3 0 1 2 _ _ _ _ _ _ R F C A) as (h'&E'&_); [intros XX; discriminate XX|].
  exists (floats spaceq), h'. split; [exact R|]. split; [exact F|]. split; [exact C|]. split; [exact A|]. split; [exact E'|].
  split; [intros x y H; vm_compute in H; discriminate|].
  intros x (bx&Ex&Ax). vm_compute in Ex. inversion Ex; subst bx. vm_compute in Ax. inversion Ax; subst x. vm_compute. discriminate.
Qed.
Lemma seq_ignores h c a b rest lon el lon' el' : setGPSpos h c (LSeq a b rest) lon el = setGPSpos h c (LSeq a b rest) lon' el'.
Proof. unfold setGPSpos, gps_args. reflexivity. Qed.
(** With a sequence of two numbers an elevation that was given is ignored. *)
Theorem C53_elevation_refuted : exists h c p o l a b z h', reach h /\ full h /\ cam_at h c p o l /\
  setGPSpos h c (LSeq a b []) None (Some z) = (h', true) /\ get_num h' c "elevation_m" <> Some z.
Proof.
  destruct gps_cam as (R&F&C&V).
  destruct (C53_returns (floats spaceq) 3 0 1 2 _ _ _ _ _ _ R F C (asks_two (Fin 1) (Fin 2) None)) as (h'&E'&_); [intros XX; discriminate XX|].
  exists (floats spaceq), 3, 0, 1, 2, (Fin 1), (Fin 2), (Fin 19), h'. split; [exact R|]. split; [exact F|]. split; [exact C|].
  split; [rewrite (seq_ignores _ _ _ _ _ _ _ None None); exact E'|].
  destruct (C53_position (floats spaceq) 3 0 1 2 _ _ _ _ _ _ h' R C (asks_two (Fin 1) (Fin 2) None) E') as (_&_&_&_&K&_).
  rewrite (K eq_refl), V. intros X. inversion X as [Y]. unfold Q2R in Y. simpl in Y. lra.
Qed.
Print Assumptions C53_elevation_refuted.
