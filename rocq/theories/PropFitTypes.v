(** * C40: the types of parameters, parameter_set.py 31-37 and 126-134 *)
Require Import Reals List Bool String Arith NArith QArith Lia.
From Verif Require Import Num Projection Param ParamFacts ParamOps ParamSteps ParamReach ParamCam ParamLaws ParamMap PropParam PropFit ParamCheck ParamExamples.
Import ListNotations.
Open Scope nat_scope.
Open Scope string_scope.

(** ** Specification *)
(** TYPE_INTRINSIC, TYPE_EXTRINSIC1 (height and how the camera is tilted), TYPE_EXTRINSIC2 (where it stands and where it
    looks to), TYPE_DISTORTION and TYPE_GPS *)
Definition classes : list (N * list name) :=
  [(2, ["focallength_x_px"; "focallength_y_px"; "focallength_px"; "center_x_px"; "center_y_px"; "image_width_px"; "image_height_px";
        "sensor_width_mm"; "sensor_height_mm"]);
   (4, ["elevation_m"; "tilt_deg"; "roll_deg"; "yaw_deg"]);
   (8, ["heading_deg"; "pitch_deg"; "pos_x_m"; "pos_y_m"]);
   (16, ["k1"; "k2"; "k3"; "a"; "b"; "c"]);
   (32, ["gps_lat"; "gps_lon"])]%N.
Definition of_class (n : name) (c : N) : Prop := exists names, In (c, names) classes /\ In n names.
(** The classes that a mask (a sum of types) asks for *)
Definition asked (m : N) (n : name) : Prop := exists c, of_class n c /\ N.land c m <> 0%N.
(** A parameter that a fit may change *)
Definition free (h : heapn) (l : loc) : Prop := state (mem h l) <> SUser \/ value (mem h l) = None.

(** ** Every parameter has the type of its name *)
Section Typed.
Context {V : Type} (wrapv : V -> option V) (lit : Q -> V).
Implicit Types h : heap V.
Definition typed (h : heap V) : Prop := forall o b n, objs h o = Some b -> In n (base_names (okd b)) -> of_class n (ptype (mem h (Loc o n))).
Lemma class_of_kind k n : In n (base_names k) -> of_class n (type_of k n).
Proof.
  destruct k as [k|k|k| | |]; cbn [base_names type_of]; [| | | |intros []|intros []].
  - unfold pnames. intros H. exists ["focallength_x_px"; "focallength_y_px"; "focallength_px"; "center_x_px"; "center_y_px"; "image_width_px"; "image_height_px";
        "sensor_width_mm"; "sensor_height_mm"]. split; [cbn; tauto|]. cbn in H |- *. intuition.
  - destruct k; cbn [onames In]; intros H; repeat destruct H as [<-|H]; try contradiction; cbn [mem_name existsb String.eqb Ascii.eqb Bool.eqb orb];
    (eexists; split; [unfold classes; cbn [In]; eauto 10|cbn; tauto]).
  - destruct k; cbn [lnames In]; intros H; repeat destruct H as [<-|H]; try contradiction;
    (eexists; split; [unfold classes; cbn [In]; eauto 10|cbn; tauto]).
  - unfold gnames. cbn [In]. intros H; repeat destruct H as [<-|H]; try contradiction;
    (eexists; split; [unfold classes; cbn [In]; eauto 10|cbn; tauto]).
Qed.
Lemma typed_mem h l p : typed h -> ptype p = ptype (mem h l) -> typed (set_mem h l p).
Proof.
  intros HT HP o b n E Hn. cbn [set_mem mem]. destruct (loc_eqb_spec (Loc o n) l) as [X|X].
  - rewrite HP, <- X. eapply HT; eauto.
  - eapply HT; eauto.
Qed.
Lemma typed_obj h o b' : typed h -> (forall n, In n (base_names (okd b')) -> exists b, objs h o = Some b /\ In n (base_names (okd b))) -> typed (set_obj h o b').
Proof.
  intros HT HP x b n E Hn. cbn [set_obj objs mem] in *. destruct (Nat.eqb_spec x o) as [->|X].
  - injection E as <-. destruct (HP n Hn) as (b&Eb&Hb). eapply HT; eauto.
  - eapply HT; eauto.
Qed.
Lemma typed_alloc h k vals at_ : typed h -> typed (alloc lit h k vals at_).
Proof.
  intros HT o b n E Hn. unfold alloc in *. cbn [mem objs l_owner l_name] in *. destruct (Nat.eqb_spec o (next h)) as [->|X].
  - injection E as <-. cbn [okd ptype] in *. apply class_of_kind; auto.
  - eapply HT; eauto.
Qed.
Lemma typed_reserve h : typed h -> typed (reserve h). Proof. intros HT. exact HT. Qed.
Lemma typed_bind (r : heap V * bool) f : typed (fst r) -> (forall h, typed h -> typed (fst (f h))) -> typed (fst (bind r f)).
Proof. intros H1 H2. unfold bind. destruct (snd r); auto. Qed.
Lemma typed_orient h o : typed h -> typed (fst (orient_finish h o)).
Proof.
  intros HT. unfold orient_finish. destruct (objs h o) as [b|] eqn:E; [|exact HT]. destruct (okd b) eqn:K; try exact HT.
  destruct (all_set h b _); [|exact HT]. apply typed_obj; [exact HT|]. cbn [with_used okd]. eauto.
Qed.
Lemma typed_lens h o : typed h -> typed (fst (lens_finish h o)).
Proof.
  intros HT. unfold lens_finish. destruct (objs h o) as [b|] eqn:E; [|exact HT]. destruct (okd b) eqn:K; try exact HT.
  destruct (all_set h b _); [|exact HT].
  assert (U : forall u, typed (set_obj h o (with_used b u))) by (intros u; apply typed_obj; [exact HT|cbn [with_used okd]; eauto]).
  destruct (lproj b); [|apply U]. destruct k; try apply U. destruct (_ && _); apply U.
Qed.
Lemma typed_run fuel : forall h c, typed h -> typed (fst (run_cb wrapv fuel h c)).
Proof.
  induction fuel as [|fuel IH]; intros h c HT; [exact HT|]. cbn [run_cb].
  assert (RO : forall h c, typed h -> typed (fst (match c with Some c => run_cb wrapv fuel h c | None => (h, true) end))) by (intros g [d|] Hg; [apply IH; auto|exact Hg]).
  destruct c as [o|o|o].
  - destruct (objs h o) as [b|] eqn:E; [|exact HT]. destruct (okd b) eqn:K; try exact HT.
    destruct (get_num h o (wrapped_name k)) as [v|]; [|exact HT]. destruct (assoc (wrapped_name k) (table b)) as [l|]; [|exact HT].
    apply typed_bind; [|intros; apply typed_orient; auto]. destruct (wrapv v); [|exact HT]. apply RO. apply typed_mem; auto.
  - apply typed_lens; auto.
  - apply typed_bind; [apply RO; apply typed_mem; auto|]. intros g Hg. apply RO. apply typed_mem; auto.
Qed.
Lemma typed_call h c : typed h -> typed (fst (call wrapv h c)).
Proof. intros HT. destruct c; [apply typed_run; auto|exact HT]. Qed.
Lemma typed_calls cs : forall h, typed h -> typed (fst (calls wrapv h cs)).
Proof. induction cs as [|c cs IH]; intros h HT; [exact HT|]. cbn [calls]. apply typed_bind; [apply typed_run; auto|]. auto. Qed.
Lemma typed_set h o n a : typed h -> typed (fst (set_attr wrapv h o n a)).
Proof.
  intros HT. unfold set_attr. destruct (objs h o) as [b|] eqn:E; [|exact HT]. destruct (assoc n (table b)) as [l|].
  - apply typed_call. apply typed_mem; auto. destruct a; reflexivity.
  - apply typed_obj; [exact HT|]. cbn [okd]. eauto.
Qed.
Lemma typed_default h o n v : typed h -> typed (fst (set_default wrapv h o n v)).
Proof.
  intros HT. unfold set_default. destruct (objs h o) as [b|] eqn:E; [|exact HT]. destruct (assoc n (table b)) as [l|]; [|exact HT].
  assert (T1 := typed_mem h l (Param (value (mem h l)) (mean (mem h l)) (std (mem h l)) v (state (mem h l)) (ptype (mem h l)) (callback (mem h l))) HT eq_refl).
  cbv zeta. destruct (value (mem h l)); [exact T1|apply typed_call; exact T1].
Qed.
Lemma typed_write_fit b vals : forall h cs, typed h -> typed (fst (write_fit h b vals cs)).
Proof.
  induction vals as [|(n&v) vals IH]; intros h cs HT; [exact HT|]. cbn [write_fit]. destruct (assoc n (table b)) as [l|]; [|auto].
  apply IH. apply typed_mem; auto.
Qed.
Lemma typed_fit ord h o vals : typed h -> typed (fst (set_fit wrapv ord h o vals)).
Proof.
  intros HT. unfold set_fit. destruct (objs h o) as [b|]; [|exact HT]. pose proof (typed_write_fit b vals h [] HT) as K.
  destruct (write_fit h b vals []) as (h1&cs). apply typed_calls. exact K.
Qed.
Lemma typed_write_stats f t : forall h cs, typed h -> typed (fst (write_stats f h t cs)).
Proof.
  induction t as [|(n&l) t IH]; intros h cs HT; [exact HT|]. cbn [write_stats]. apply IH. destruct (mean (mem h l)); [|exact HT]. apply typed_mem; auto.
Qed.
Lemma typed_stats f ord h o : typed h -> typed (fst (stats_op wrapv f ord h o)).
Proof.
  intros HT. unfold stats_op. destruct (objs h o) as [b|]; [|exact HT]. pose proof (typed_write_stats f (table b) h [] HT) as K.
  destruct (write_stats f h (table b) []) as (h1&cs). apply typed_calls. exact K.
Qed.
Lemma typed_new_orient h k vals : typed h -> typed (fst (new_orient wrapv lit h k vals)).
Proof. intros HT. apply typed_run, typed_alloc, HT. Qed.
Lemma typed_new_proj h k vals fr : typed h -> typed (fst (new_proj lit h k vals fr)).
Proof. intros HT. unfold new_proj. destruct (forallb _ _); [apply typed_alloc, HT|exact HT]. Qed.
Lemma typed_new_lens h k vals : typed h -> typed (fst (new_lens wrapv lit h k vals)).
Proof. intros HT. unfold new_lens. destruct k; try apply typed_run; apply typed_alloc, HT. Qed.
Lemma typed_set_projection h l p : typed h -> typed (fst (set_projection wrapv h l p)).
Proof.
  intros HT. unfold set_projection. destruct (objs h l) as [b|] eqn:E; [|exact HT]. destruct (okd b) as [| |k| | |] eqn:K; try exact HT.
  assert (G : typed (fst (run_cb wrapv depth
        (Heap (fun x => if existsb (fun nl => loc_eqb x (snd nl)) (lens_table l p k) then with_cb (Some (CbLens l)) (mem h x) else mem h x)
              (fun o => if Nat.eqb o l then Some (Obj (KLens k) (attrs b) (lens_table l p k) (used b) (Some p)) else objs h o)
              (next h)) (CbLens l)))).
  { apply typed_run. intros o b' n E' Hn. cbn [mem objs] in *.
    assert (T : ptype (if existsb (fun nl => loc_eqb (Loc o n) (snd nl)) (lens_table l p k) then with_cb (Some (CbLens l)) (mem h (Loc o n)) else mem h (Loc o n)) = ptype (mem h (Loc o n))) by (destruct (existsb _ _); reflexivity).
    rewrite T. destruct (Nat.eqb_spec o l) as [->|X]; [|eapply HT; eauto]. injection E' as <-. cbn [okd] in Hn. apply (HT l b n E). rewrite K. exact Hn. }
  destruct k; [exact HT|exact G|exact G].
Qed.
Lemma typed_init_camera h c p o l at_ : typed h -> typed (fst (init_camera wrapv lit h c p o l at_)).
Proof.
  intros HT. unfold init_camera. apply typed_bind; [apply typed_set_projection, HT|]. intros h1 H1.
  apply typed_obj; [apply typed_alloc, H1|]. cbn [okd base_names]. intros n [].
Qed.
Lemma typed_new_camera h p o l : typed h -> typed (fst (new_camera wrapv lit h p o l)).
Proof. intros HT. apply typed_init_camera, typed_reserve, HT. Qed.
Lemma typed_make ps os ls n : forall h i, typed h -> typed (fst (fst (make_cameras wrapv lit h i n ps os ls))).
Proof.
  induction n as [|n IH]; intros h i HT; [exact HT|]. cbn [make_cameras].
  destruct (nth_error ps _) as [p|]; [|exact HT]. destruct (nth_error os _) as [o|]; [|exact HT]. destruct (nth_error ls _) as [l|]; [|exact HT].
  pose proof (typed_new_camera h p o l HT) as K. destruct (new_camera wrapv lit h p o l) as (h1&ok). cbn [fst snd] in *. destruct ok; [|exact K].
  pose proof (IH h1 (S i) K) as K2. destruct (make_cameras wrapv lit h1 (S i) n ps os ls) as ((h2&ok2)&cs). exact K2.
Qed.
Lemma typed_new_group h pa oa la : typed h -> typed (fst (new_group wrapv lit h pa oa la)).
Proof.
  intros HT. unfold new_group. pose proof (typed_make (comp_list pa) (comp_list oa) (comp_list la)
    (group_size [comp_given pa; comp_given oa; comp_given la]) (reserve h) 0 (typed_reserve _ HT)) as K.
  destruct (make_cameras _ _ _ _ _ _ _ _) as ((h1&ok)&cs). cbn [fst] in K. destruct ok; [|exact K].
  apply typed_obj; [exact K|]. cbn [okd base_names]. intros n [].
Qed.
Lemma typed_set_all o vars : forall h, typed h -> typed (fst (set_all wrapv h o vars)).
Proof. induction vars as [|(n&a) vars IH]; intros h HT; [exact HT|]. cbn [set_all]. apply typed_bind; [apply typed_set, HT|auto]. Qed.
Lemma typed_load h c f : typed h -> typed (fst (load wrapv lit h c f)).
Proof.
  intros HT. unfold load, load_into. apply typed_bind; [apply typed_new_proj, HT|]. intros h1 H1.
  apply typed_bind; [apply typed_new_lens, H1|]. intros h2 H2. apply typed_bind; [apply typed_new_orient, H2|]. intros h3 H3.
  apply typed_bind; [apply typed_init_camera, H3|]. intros h4 H4. apply typed_set_all, H4.
Qed.
Lemma typed_exec h p : typed h -> typed (fst (exec wrapv lit h p)).
Proof.
  intros HT. destruct p; cbn [exec].
  - apply typed_new_orient, HT. - apply typed_new_proj, HT. - apply typed_new_lens, HT. - apply typed_new_camera, HT. - apply typed_new_group, HT.
  - apply typed_set, HT. - apply typed_default, HT. - apply typed_fit, HT. - apply typed_stats, HT. - apply typed_stats, HT. - apply typed_load, HT.
Qed.
Lemma reach_typed h : reachable wrapv lit h -> typed h.
Proof.
  induction 1 as [|h p h' _ IH _ HE]; [intros o b n E; discriminate|]. pose proof (typed_exec h p IH) as K. rewrite HE in K. exact K.
Qed.
End Typed.

(** ** Theorems *)
Lemma class_unique n c c' : of_class n c -> of_class n c' -> c = c'.
Proof.
  intros (l1&H1&N1) (l2&H2&N2). unfold classes in *. cbn [In] in H1, H2.
  repeat (destruct H1 as [H1|H1]; [injection H1 as <- <-|]); try contradiction;
  repeat (destruct H2 as [H2|H2]; [injection H2 as <- <-|]); try contradiction; try reflexivity; exfalso; cbn [In] in N1, N2;
  repeat (destruct N1 as [<-|N1]; [intuition discriminate|]); contradiction.
Qed.
Lemma free_bool (h : heapn) l : (match state (mem h l) with SUser => false | _ => true end || negb (is_some (value (mem h l))))%bool = true <-> free h l.
Proof.
  unfold free. destruct (state (mem h l)), (value (mem h l)); cbn; split; intros H; try reflexivity; try discriminate; try (left; discriminate); try (right; reflexivity);
  destruct H; congruence.
Qed.
(** The names that get_fit_parameters(type) returns are those of the free parameters of the classes asked for, *)
Theorem C40_types : forall (h : heapn) o n m, reach h ->
  (In n (get_fit h o (Some m)) <-> exists l, param_of h o n l /\ free h l /\ asked m (l_name l)) /\
  (In n (get_fit h o None) <-> exists l, param_of h o n l /\ free h l).
Proof.
  intros h o n m HR. pose proof (reach_typed wrapn litn h HR) as HT. destruct (reach_inv h HR) as (HI&_).
  unfold get_fit, param_of. destruct (objs h o) as [b|] eqn:E; [|split; split; [intros []|intros (l&(b&X&_)&_); discriminate|intros []|intros (l&(b&X&_)&_); discriminate]].
  assert (TY : forall l, In (n, l) (table b) -> of_class (l_name l) (ptype (mem h l))).
  { intros l Hl. destruct (table_valid_in wrapn clean h o b n l HI E Hl) as (b'&E'&N'). destruct l as [x k]. exact (HT x b' k E' N'). }
  split; rewrite in_map_iff.
  - split.
    + intros ((n'&l)&<-&HF). apply filter_In in HF. destruct HF as (Hl&HB). cbn [fst snd] in *. apply andb_prop in HB. destruct HB as (B1&B2).
      exists l. split; [exists b; auto|]. split; [apply free_bool, B2|]. exists (ptype (mem h l)). split; [apply TY, Hl|].
      intros Z. rewrite Z in B1. discriminate.
    + intros (l&(b'&E'&Hl)&HF&(c&HC&HM)). assert (b' = b) by congruence. subst b'. exists (n, l). split; [reflexivity|]. apply filter_In. split; [exact Hl|].
      cbn [snd]. rewrite (class_unique _ _ _ (TY l Hl) HC). apply andb_true_intro. split; [|apply free_bool, HF].
      destruct (N.eqb_spec (N.land c m) 0); [contradiction|reflexivity].
  - split.
    + intros ((n'&l)&<-&HF). apply filter_In in HF. destruct HF as (Hl&HB). cbn [fst snd] in *. exists l. split; [exists b; auto|]. apply free_bool. exact HB.
    + intros (l&(b'&E'&Hl)&HF). assert (b' = b) by congruence. subst b'. exists (n, l). split; [reflexivity|]. apply filter_In. split; [exact Hl|].
      cbn [snd andb]. apply free_bool, HF.
Qed.
Print Assumptions C40_types.
(** for a camera under their own names and in the order of the camera. *)
Definition askedb (m : N) (n : name) : bool :=
  existsb (fun c => existsb (String.eqb n) (snd c) && negb (N.eqb (N.land (fst c) m) 0))%bool classes.
Lemma askedb_class m n c : of_class n c -> askedb m n = negb (N.eqb (N.land c m) 0).
Proof.
  intros HC. pose proof HC as (ns&H1&H2). unfold askedb. destruct (N.eqb (N.land c m) 0) eqn:E; cbn [negb].
  - apply Bool.not_true_is_false. intros X. apply existsb_exists in X. destruct X as ((c'&ns')&I1&B). cbn [fst snd] in B. apply andb_prop in B.
    destruct B as (B1&B2). apply existsb_exists in B1. destruct B1 as (n'&I2&B1). apply String.eqb_eq in B1. subst n'.
    rewrite (class_unique n c' c) in B2; [rewrite E in B2; discriminate|exists ns'; auto|exact HC].
  - apply existsb_exists. exists (c, ns). split; [exact H1|]. cbn [fst snd]. rewrite E. cbn [negb]. rewrite andb_true_r. apply existsb_exists.
    exists n. split; [exact H2|apply String.eqb_refl].
Qed.
Theorem C40_types_camera : forall (h : heapn) c p o l m, reach h -> cam_at h c p o l ->
  get_fit h c (Some m) = filter (askedb m) (get_fit h c None).
Proof.
  intros h c p o l m HR HC. pose proof (reach_typed wrapn litn h HR) as HT. destruct (reach_inv h HR) as (HI&CI).
  destruct HC as (b&E&K). destruct (CI c b p o l E K) as (g&pk&k&lk&_&_&_&_&_&TB&_).
  unfold get_fit. rewrite E.
  assert (G : forall t, (forall x, In x t -> In x (table b)) ->
    map fst (filter (fun nl => (negb (N.eqb (N.land (ptype (mem h (snd nl))) m) 0) && (match state (mem h (snd nl)) with SUser => false | _ => true end || negb (is_some (value (mem h (snd nl))))))%bool) t) =
    filter (askedb m) (map fst (filter (fun nl => (true && (match state (mem h (snd nl)) with SUser => false | _ => true end || negb (is_some (value (mem h (snd nl))))))%bool) t))).
  { induction t as [|x t IH]; intros Ht; [reflexivity|]. specialize (IH (fun y Hy => Ht y (or_intror Hy))). cbn [filter map].
    assert (A : askedb m (fst x) = negb (N.eqb (N.land (ptype (mem h (snd x))) m) 0)).
    { pose proof (Ht x (or_introl eq_refl)) as Hx. destruct x as (n&y). cbn [fst snd]. apply askedb_class.
      destruct (table_valid_in wrapn clean h c b n y HI E Hx) as (b'&E'&N').
      assert (NM : l_name y = n). { rewrite TB, cam_table_locs in Hx. apply in_map_iff in Hx. destruct Hx as (z&Z&_). injection Z as <- <-. reflexivity. }
      rewrite <- NM. destruct y as [w z]. exact (HT w b' z E' N'). }
    rewrite <- A. cbn [andb]. destruct (_ || _)%bool; [|rewrite andb_false_r; exact IH]. rewrite andb_true_r. cbn [map filter].
    destruct (askedb m (fst x)); cbn [map]; rewrite IH; reflexivity. }
  apply G. auto.
Qed.
Print Assumptions C40_types_camera.

(** A camera with a Brown lens, of which the height, the tilt and the focal length were given: what is free, what of it is
    intrinsic or about the position and the view direction. *)
Example C40_types_example : let h := floats (camq Brown) in reach h /\ cam_at h 3 0 1 2 /\
  get_fit h 3 (Some 2%N) = ["sensor_height_mm"; "sensor_width_mm"] /\ get_fit h 3 (Some 12%N) = ["roll_deg"; "heading_deg"; "pos_x_m"; "pos_y_m"] /\
  In "roll_deg" (get_fit h 1 (Some 4%N)) /\ asked 12 "roll_deg" /\ ~ asked 2 "roll_deg".
Proof.
  intros h. split; [apply (cam_reach Brown []); [stand|vm]|]. split; [eexists; split; [vm_compute; reflexivity|vm]|].
  split; [vm|]. split; [vm|]. split; [unfold h; rewrite get_fit_map; vm_compute; tauto|].
  assert (R4 : of_class "roll_deg" 4%N) by (exists ["elevation_m"; "tilt_deg"; "roll_deg"; "yaw_deg"]; cbn; tauto).
  split.
  - exists 4%N. split; [exact R4|discriminate].
  - intros (c&HC&HM). rewrite (class_unique _ _ _ HC R4) in HM. apply HM. reflexivity.
Qed.
