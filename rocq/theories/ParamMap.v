(** * Changing the number type of a heap *)
(** Used to compute concrete histories over the rationals and carry them over to floats. *)
Require Import List Bool String Arith NArith QArith Lia FunctionalExtensionality.
From Verif Require Import Projection Param ParamFacts ParamOps ParamSteps ParamReach ParamCam ParamLaws.
Import ListNotations.
Open Scope nat_scope.
Open Scope string_scope.

Section Map.
Context {A B : Type} (f : A -> B) (wa : A -> option A) (wb : B -> option B) (la : Q -> A) (lb : Q -> B).
Hypothesis hw : forall v, wb (f v) = option_map f (wa v).
Hypothesis hl : forall q, lb q = f (la q).

Definition pmap (p : param A) : param B :=
  Param (option_map f (value p)) (option_map f (mean p)) (option_map f (std p)) (option_map f (default p)) (state p) (ptype p) (callback p).
Definition amap (a : arg A) : arg B :=
  match a with ANone => ANone | ANum v => ANum (f v) | APair m s => APair (f m) (f s) end.
Definition omap (b : obj A) : obj B :=
  Obj (okd b) (fun n => option_map amap (attrs b n)) (table b) (fun n => option_map f (used b n)) (lproj b).
Definition hmap (h : heap A) : heap B :=
  Heap (fun l => pmap (mem h l)) (fun o => option_map omap (objs h o)) (next h).
Definition rmap (r : heap A * bool) : heap B * bool := (hmap (fst r), snd r).
Definition vmap (vals : name -> option A) : name -> option B := fun n => option_map f (vals n).
Definition lmap (vals : list (name * A)) : list (name * B) := map (fun nv => (fst nv, f (snd nv))) vals.
Definition fmap (g : file A) : file B := File (file_proj g) (file_lens g) (map (fun na => (fst na, amap (snd na))) (file_vars g)).

Lemma heap_eq (h h' : heap B) : (forall l, mem h l = mem h' l) -> (forall o, objs h o = objs h' o) -> next h = next h' -> h = h'.
Proof.
  destruct h as [m o n], h' as [m' o' n']; cbn. intros H1 H2 ->.
  apply functional_extensionality in H1. apply functional_extensionality in H2. subst. reflexivity.
Qed.
Lemma obj_eq (b b' : obj B) : okd b = okd b' -> (forall n, attrs b n = attrs b' n) -> table b = table b' ->
  (forall n, used b n = used b' n) -> lproj b = lproj b' -> b = b'.
Proof.
  destruct b, b'; cbn. intros -> H1 -> H2 ->. apply functional_extensionality in H1. apply functional_extensionality in H2. subst. reflexivity.
Qed.
Lemma set_mem_map h l p : set_mem (hmap h) l (pmap p) = hmap (set_mem h l p).
Proof. apply heap_eq; auto. intros l'. cbn. destruct (loc_eqb l' l); reflexivity. Qed.
Lemma set_obj_map h o b : set_obj (hmap h) o (omap b) = hmap (set_obj h o b).
Proof. apply heap_eq; auto. intros o'. cbn. destruct (Nat.eqb o' o); reflexivity. Qed.
Lemma with_used_map b u : with_used (omap b) (fun n => option_map f (u n)) = omap (with_used b u).
Proof. reflexivity. Qed.
Lemma rdl_map h l : rdl (hmap h) l = option_map f (rdl h l).
Proof. unfold rdl, rd; cbn. destruct (value (mem h l)); reflexivity. Qed.
Lemma tget_map h b n : tget (hmap h) (omap b) n = option_map f (tget h b n).
Proof. unfold tget; cbn. destruct (assoc n (table b)); [apply rdl_map|reflexivity]. Qed.
Lemma of_opt_map (v : option A) : of_opt (option_map f v) = amap (of_opt v).
Proof. destruct v; reflexivity. Qed.
Lemma get_attr_map h o n : get_attr (hmap h) o n = option_map amap (get_attr h o n).
Proof.
  unfold get_attr; cbn. destruct (objs h o) as [b|]; [|reflexivity]. cbn. destruct (attrs b n) as [a|]; [reflexivity|]. cbn.
  destruct (assoc n (table b)); [|reflexivity]. cbn. rewrite rdl_map, of_opt_map. reflexivity.
Qed.
Lemma get_num_map h o n : get_num (hmap h) o n = option_map f (get_num h o n).
Proof. unfold get_num. rewrite get_attr_map. destruct (get_attr h o n) as [[]|]; reflexivity. Qed.
Lemma is_some_map {X Y} (g : X -> Y) (x : option X) : is_some (option_map g x) = is_some x.
Proof. destruct x; reflexivity. Qed.
Lemma all_set_map h b l : all_set (hmap h) (omap b) l = all_set h b l.
Proof. unfold all_set. induction l as [|n l IH]; [reflexivity|]. cbn. rewrite tget_map, is_some_map, IH. reflexivity. Qed.
Lemma bind_map (r : heap A * bool) (g : heap A -> heap A * bool) (g' : heap B -> heap B * bool) :
  (forall h, g' (hmap h) = rmap (g h)) -> bind (rmap r) g' = rmap (bind r g).
Proof. intros H. unfold bind; cbn. destruct (snd r) eqn:E; [apply H|]. unfold rmap. rewrite E. reflexivity. Qed.
Lemma orient_finish_map h o : orient_finish (hmap h) o = rmap (orient_finish h o).
Proof.
  unfold orient_finish. cbn [hmap objs]. destruct (objs h o) as [b|] eqn:E; [|reflexivity]. cbn [option_map omap okd].
  destruct (okd b); try reflexivity. fold (omap b). fold (hmap h). rewrite all_set_map. destruct (all_set h b _); [|reflexivity].
  unfold rmap; cbn [fst snd]. f_equal. rewrite <- set_obj_map. f_equal. apply obj_eq; auto. intros n. cbn [used with_used omap]. apply tget_map.
Qed.
Lemma used_eq (b : obj A) (u' : name -> option B) u : (forall n, u' n = option_map f (u n)) -> with_used (omap b) u' = omap (with_used b u).
Proof. intros H. apply obj_eq; auto. Qed.
Lemma lens_finish_map h o : lens_finish (hmap h) o = rmap (lens_finish h o).
Proof.
  unfold lens_finish. change (objs (hmap h) o) with (option_map omap (objs h o)). destruct (objs h o) as [b|] eqn:E; [|reflexivity].
  cbn [option_map]. change (okd (omap b)) with (okd b). change (lproj (omap b)) with (lproj b).
  destruct (okd b) as [| |k| | |]; try reflexivity. rewrite all_set_map. destruct (all_set h b _); [|reflexivity].
  cbv zeta. set (u := fun n => if mem_name n (lnames k) then tget h b n else used b n).
  set (u' := fun n => if mem_name n (lnames k) then tget (hmap h) (omap b) n else used (omap b) n).
  assert (U : forall n, u' n = option_map f (u n)).
  { intros n. unfold u, u'. destruct (mem_name n (lnames k)); [apply tget_map|reflexivity]. }
  rewrite (used_eq b u' u U). destruct (lproj b) as [p|].
  - assert (U2 : forall n, (if mem_name n (lens_reads k) then get_num (hmap h) p n else u' n) =
                           option_map f (if mem_name n (lens_reads k) then get_num h p n else u n)).
    { intros n. destruct (mem_name n (lens_reads k)); [apply get_num_map|apply U]. }
    assert (U3 := used_eq b _ _ U2). destruct k.
    + unfold rmap; cbn [fst snd]. rewrite <- set_obj_map. apply (f_equal (fun b => (set_obj (hmap h) o b, true))). exact U3.
    + unfold rmap; cbn [fst snd]. rewrite <- set_obj_map. apply (f_equal (fun b => (set_obj (hmap h) o b, true))). exact U3.
    + rewrite !get_num_map, !is_some_map. destruct (_ && _); unfold rmap; cbn [fst snd]; rewrite <- set_obj_map; [|reflexivity].
      apply (f_equal (fun b => (set_obj (hmap h) o b, true))). exact U3.
  - rewrite set_obj_map. reflexivity.
Qed.
Lemma assign_map a p : assign (amap a) (pmap p) = pmap (assign a p). Proof. destruct a; reflexivity. Qed.
Lemma with_value_map v p : with_value (option_map f v) (pmap p) = pmap (with_value v p). Proof. reflexivity. Qed.
Lemma run_cb_map n : forall h c, run_cb wb n (hmap h) c = rmap (run_cb wa n h c).
Proof.
  induction n as [|n IH]; intros h c; [reflexivity|].
  assert (IHo : forall h c, match c with Some c => run_cb wb n (hmap h) c | None => (hmap h, true) end =
                            rmap (match c with Some c => run_cb wa n h c | None => (h, true) end)).
  { intros g [d|]; [apply IH|reflexivity]. }
  destruct c as [o|o|p]; cbn [run_cb].
  - change (objs (hmap h) o) with (option_map omap (objs h o)). destruct (objs h o) as [b|]; [|reflexivity].
    cbn [option_map]. change (okd (omap b)) with (okd b). change (table (omap b)) with (table b).
    destruct (okd b) as [|k| | | |]; try reflexivity. rewrite get_num_map.
    destruct (get_num h o (wrapped_name k)) as [v|]; [|reflexivity]. cbn [option_map].
    destruct (assoc (wrapped_name k) (table b)) as [l|]; [|reflexivity]. rewrite hw.
    rewrite <- (bind_map _ (fun h' => orient_finish h' o) (fun h' => orient_finish h' o)) by (intros; apply orient_finish_map).
    f_equal. destruct (wa v) as [v'|]; [|reflexivity]. cbn [option_map].
    change (ANum (f v')) with (amap (ANum v')). change (mem (hmap h) l) with (pmap (mem h l)).
    rewrite assign_map, set_mem_map. apply IHo.
  - apply lens_finish_map.
  - change (value (mem (hmap h) (Loc p "focallength_px"))) with (option_map f (value (mem h (Loc p "focallength_px")))).
    change (mem (hmap h) (Loc p "focallength_x_px")) with (pmap (mem h (Loc p "focallength_x_px"))).
    rewrite with_value_map, set_mem_map. 
    rewrite IHo. apply bind_map. intros g.
    change (value (mem (hmap g) (Loc p "focallength_px"))) with (option_map f (value (mem g (Loc p "focallength_px")))).
    change (mem (hmap g) (Loc p "focallength_y_px")) with (pmap (mem g (Loc p "focallength_y_px"))).
    rewrite with_value_map, set_mem_map. apply IHo.
Qed.
Lemma call_map h c : call wb (hmap h) c = rmap (call wa h c).
Proof. destruct c; [apply run_cb_map|reflexivity]. Qed.
Lemma calls_map cs : forall h, calls wb (hmap h) cs = rmap (calls wa h cs).
Proof.
  induction cs as [|c cs IH]; intros h; [reflexivity|]. rewrite !calls_cons, run_cb_map. apply bind_map. exact IH.
Qed.
Lemma set_attr_map h o n a : set_attr wb (hmap h) o n (amap a) = rmap (set_attr wa h o n a).
Proof.
  unfold set_attr. change (objs (hmap h) o) with (option_map omap (objs h o)). destruct (objs h o) as [b|]; [|reflexivity].
  cbn [option_map]. change (table (omap b)) with (table b). destruct (assoc n (table b)) as [l|].
  - cbv zeta. change (mem (hmap h) l) with (pmap (mem h l)). rewrite assign_map, set_mem_map. apply call_map.
  - unfold rmap; cbn [fst snd]. rewrite <- set_obj_map. f_equal. f_equal. apply obj_eq; auto. intros m. cbn.
    destruct (String.eqb m n); reflexivity.
Qed.
Lemma set_default_map h o n v : set_default wb (hmap h) o n (option_map f v) = rmap (set_default wa h o n v).
Proof.
  unfold set_default. change (objs (hmap h) o) with (option_map omap (objs h o)). destruct (objs h o) as [b|]; [|reflexivity].
  cbn [option_map]. change (table (omap b)) with (table b). destruct (assoc n (table b)) as [l|]; [|reflexivity].
  cbv zeta. set (p := Param (value (mem h l)) _ _ v _ _ _).
  change (Param (value (mem (hmap h) l)) (mean (mem (hmap h) l)) (std (mem (hmap h) l)) (option_map f v) (state (mem (hmap h) l))
    (ptype (mem (hmap h) l)) (callback (mem (hmap h) l))) with (pmap p).
  rewrite set_mem_map. change (value (mem (hmap h) l)) with (option_map f (value (mem h l))).
  destruct (value (mem h l)); [reflexivity|]. apply call_map.
Qed.
Lemma write_fit_map b vals : forall h cs,
  write_fit (hmap h) (omap b) (lmap vals) cs = (hmap (fst (write_fit h b vals cs)), snd (write_fit h b vals cs)).
Proof.
  induction vals as [|[n v] vals IH]; intros h cs; [reflexivity|]. cbn [lmap map write_fit fst snd].
  change (table (omap b)) with (table b). destruct (assoc n (table b)) as [l|]; [|apply IH].
  set (p := Param (Some v) _ _ _ SFit _ _).
  change (Param (Some (f v)) (mean (mem (hmap h) l)) (std (mem (hmap h) l)) (default (mem (hmap h) l)) SFit
    (ptype (mem (hmap h) l)) (callback (mem (hmap h) l))) with (pmap p).
  rewrite set_mem_map. apply IH.
Qed.
Lemma set_fit_map ord h o vals : set_fit wb ord (hmap h) o (lmap vals) = rmap (set_fit wa ord h o vals).
Proof.
  unfold set_fit. change (objs (hmap h) o) with (option_map omap (objs h o)). destruct (objs h o) as [b|]; [|reflexivity].
  cbn [option_map]. rewrite write_fit_map. destruct (write_fit h b vals []) as [h1 cs]. apply calls_map.
Qed.
Definition rnd_map (ra : name -> A -> option A -> A) (rb : name -> B -> option B -> B) : Prop :=
  forall n m s, rb n (f m) (option_map f s) = f (ra n m s).
Lemma write_stats_map ra rb t : rnd_map ra rb -> forall h cs,
  write_stats rb (hmap h) t cs = (hmap (fst (write_stats ra h t cs)), snd (write_stats ra h t cs)).
Proof.
  intros HR. induction t as [|[n l] t IH]; intros h cs; [reflexivity|]. cbn [write_stats].
  change (mean (mem (hmap h) l)) with (option_map f (mean (mem h l))). destruct (mean (mem h l)) as [m|]; cbn [option_map].
  - change (std (mem (hmap h) l)) with (option_map f (std (mem h l))). rewrite HR.
    change (Some (f (ra n m (std (mem h l))))) with (option_map f (Some (ra n m (std (mem h l))))).
    change (mem (hmap h) l) with (pmap (mem h l)). rewrite with_value_map, set_mem_map. apply IH.
  - apply IH.
Qed.
Lemma stats_map ra rb ord h o : rnd_map ra rb -> stats_op wb rb ord (hmap h) o = rmap (stats_op wa ra ord h o).
Proof.
  intros HR. unfold stats_op. change (objs (hmap h) o) with (option_map omap (objs h o)). destruct (objs h o) as [b|]; [|reflexivity].
  cbn [option_map]. change (table (omap b)) with (table b). rewrite (write_stats_map ra rb (table b) HR).
  destruct (write_stats ra h (table b) []) as [h1 cs]. apply calls_map.
Qed.
Lemma default_of_map n : default_of lb n = option_map f (default_of la n).
Proof. unfold default_of. destruct (assoc n _); [|reflexivity]. cbn. rewrite hl. reflexivity. Qed.
Lemma alloc_map h k vals at_ : alloc lb (hmap h) k (vmap vals) (fun n => option_map amap (at_ n)) = hmap (alloc la h k vals at_).
Proof.
  apply heap_eq; [| |reflexivity].
  - intros l. cbn. destruct (Nat.eqb (l_owner l) (next h)); [|reflexivity]. unfold pmap, vmap; cbn.
    rewrite default_of_map. destruct (vals (l_name l)); reflexivity.
  - intros o. cbn. destruct (Nat.eqb o (next h)); reflexivity.
Qed.
Lemma alloc_map0 h k vals : alloc lb (hmap h) k (vmap vals) no_attrs = hmap (alloc la h k vals no_attrs).
Proof. exact (alloc_map h k vals no_attrs). Qed.
Lemma new_orient_map h k vals : new_orient wb lb (hmap h) k (vmap vals) = rmap (new_orient wa la h k vals).
Proof. unfold new_orient. rewrite alloc_map0. apply run_cb_map. Qed.
Lemma new_proj_map h k vals fr : new_proj lb (hmap h) k (vmap vals) fr = rmap (new_proj la h k vals fr).
Proof.
  unfold new_proj. unfold vmap at 1. cbn [forallb]. rewrite !is_some_map.
  destruct (_ && _); [|reflexivity]. unfold rmap; cbn [fst snd]. f_equal. rewrite <- alloc_map. f_equal.
  - apply functional_extensionality. intros n. unfold vmap. destruct (String.eqb n "focallength_px"); reflexivity.
  - apply functional_extensionality. intros n. destruct (_ && _); [|reflexivity]. cbn. unfold vmap. rewrite of_opt_map. reflexivity.
Qed.
Lemma new_lens_map h k vals : new_lens wb lb (hmap h) k (vmap vals) = rmap (new_lens wa la h k vals).
Proof. unfold new_lens. rewrite alloc_map0. destruct k; [reflexivity|apply run_cb_map|apply run_cb_map]. Qed.
Lemma set_projection_map h l p : set_projection wb (hmap h) l p = rmap (set_projection wa h l p).
Proof.
  unfold set_projection. change (objs (hmap h) l) with (option_map omap (objs h l)). destruct (objs h l) as [b|]; [|reflexivity].
  cbn [option_map]. change (okd (omap b)) with (okd b). destruct (okd b) as [| |k| | |]; try reflexivity.
  assert (G : forall t, run_cb wb depth
    (Heap (fun x => if existsb (fun nl => loc_eqb x (snd nl)) t then with_cb (Some (CbLens l)) (mem (hmap h) x) else mem (hmap h) x)
       (fun o => if Nat.eqb o l then Some (Obj (KLens k) (attrs (omap b)) t (used (omap b)) (Some p)) else objs (hmap h) o) (next (hmap h))) (CbLens l) =
    rmap (run_cb wa depth
    (Heap (fun x => if existsb (fun nl => loc_eqb x (snd nl)) t then with_cb (Some (CbLens l)) (mem h x) else mem h x)
       (fun o => if Nat.eqb o l then Some (Obj (KLens k) (attrs b) t (used b) (Some p)) else objs h o) (next h)) (CbLens l))).
  { intros t. rewrite <- run_cb_map. f_equal. apply heap_eq; [| |reflexivity].
    - intros x. cbn. destruct (existsb _ t); reflexivity.
    - intros o. cbn. destruct (Nat.eqb o l); reflexivity. }
  destruct k; [reflexivity|apply G|apply G].
Qed.
Lemma tab_map h o : tab (hmap h) o = tab h o.
Proof. unfold tab; cbn. destruct (objs h o); reflexivity. Qed.
Lemma init_camera_map h c p o l at_ :
  init_camera wb lb (hmap h) c p o l (fun n => option_map amap (at_ n)) = rmap (init_camera wa la h c p o l at_).
Proof.
  unfold init_camera. rewrite set_projection_map. apply bind_map. intros g. cbv zeta.
  assert (Z : zero_gps lb = vmap (zero_gps la)).
  { apply functional_extensionality. intros n. unfold vmap, zero_gps. destruct (mem_name n gnames); [cbn; rewrite hl|]; reflexivity. }
  rewrite Z. change (alloc lb (hmap g) KGps (vmap (zero_gps la)) no_attrs) with (alloc lb (hmap g) KGps (vmap (zero_gps la)) (@no_attrs B)).
  rewrite alloc_map0. unfold rmap; cbn [fst snd]. f_equal. rewrite <- set_obj_map. f_equal.
  apply obj_eq; auto. cbn [table omap]. unfold cam_table. rewrite !tab_map. reflexivity.
Qed.
Lemma reserve_map h : reserve (hmap h) = hmap (reserve h). Proof. reflexivity. Qed.
Lemma new_camera_map h p o l : new_camera wb lb (hmap h) p o l = rmap (new_camera wa la h p o l).
Proof. unfold new_camera. rewrite reserve_map. apply (init_camera_map (reserve h) (next h) p o l no_attrs). Qed.
Lemma gather_map h t l : gather (hmap h) t l = gather h t l.
Proof.
  unfold gather. assert (G : forall l t, fold_left (fun ps io => fold_left (fun ps nl => dict_set ("C" ++ nat_string (fst io) ++ "_" ++ fst nl) (snd nl) ps) (tab (hmap h) (snd io)) ps) l t
    = fold_left (fun ps io => fold_left (fun ps nl => dict_set ("C" ++ nat_string (fst io) ++ "_" ++ fst nl) (snd nl) ps) (tab h (snd io)) ps) l t).
  { induction l0 as [|x l0 IH]; intros u; [reflexivity|]. cbn [fold_left]. rewrite tab_map. apply IH. }
  destruct l as [|a [|b l]]; try apply G. rewrite tab_map. reflexivity.
Qed.
Lemma make_cameras_map n : forall h i ps os ls, make_cameras wb lb (hmap h) i n ps os ls =
  let r := make_cameras wa la h i n ps os ls in (hmap (fst (fst r)), snd (fst r), snd r).
Proof.
  induction n as [|n IH]; intros h i ps os ls; [reflexivity|]. cbn [make_cameras].
  destruct (nth_error ps _) as [p|]; [|reflexivity]. destruct (nth_error os _) as [o|]; [|reflexivity]. destruct (nth_error ls _) as [l|]; [|reflexivity].
  rewrite new_camera_map. unfold rmap; cbn [fst snd]. destruct (snd (new_camera wa la h p o l)); [|reflexivity].
  rewrite IH. cbv zeta. destruct (make_cameras wa la (fst (new_camera wa la h p o l)) (S i) n ps os ls) as [[h2 ok] cs]. reflexivity.
Qed.
Lemma new_group_map h pa oa l_a : new_group wb lb (hmap h) pa oa l_a = rmap (new_group wa la h pa oa l_a).
Proof.
  unfold new_group. rewrite reserve_map, make_cameras_map. cbv zeta.
  destruct (make_cameras wa la (reserve h) 0 _ _ _ _) as [[h2 ok] cs]. cbn [fst snd]. rewrite !gather_map.
  destruct ok; [|reflexivity]. unfold rmap; cbn [fst snd]. f_equal. rewrite <- set_obj_map. f_equal.
Qed.
Lemma set_all_map o vars : forall h, set_all wb (hmap h) o (map (fun na => (fst na, amap (snd na))) vars) = rmap (set_all wa h o vars).
Proof.
  induction vars as [|[n a] vars IH]; intros h; [reflexivity|]. cbn [map fst snd set_all]. rewrite set_attr_map. apply bind_map. exact IH.
Qed.
Lemma placeholder_map : placeholder lb = vmap (placeholder la).
Proof. apply functional_extensionality. intros n. unfold placeholder, vmap. destruct (assoc n _); [cbn; rewrite hl|]; reflexivity. Qed.
Lemma load_into_map h c at_ g :
  load_into wb lb (hmap h) c (fun n => option_map amap (at_ n)) (fmap g) = rmap (load_into wa la h c at_ g).
Proof.
  unfold load_into. cbn [fmap file_proj file_lens file_vars]. rewrite placeholder_map, new_proj_map. apply bind_map. intros h1.
  change (@none_vals B) with (vmap (@none_vals A)). rewrite new_lens_map. apply bind_map. intros h2.
  rewrite new_orient_map. apply bind_map. intros h3. cbn [hmap next]. fold (hmap h3). rewrite init_camera_map. apply bind_map. intros h4. apply set_all_map.
Qed.
Lemma load_map h c g : load wb lb (hmap h) c (fmap g) = rmap (load wa la h c g).
Proof.
  unfold load. rewrite <- load_into_map. f_equal. change (objs (hmap h) c) with (option_map omap (objs h c)).
  destruct (objs h c); reflexivity.
Qed.
Lemma load_camera_map h g : load_camera wb lb (hmap h) (fmap g) = rmap (load_camera wa la h g).
Proof.
  unfold load_camera. rewrite placeholder_map, new_proj_map. apply bind_map. intros h1. change (@none_vals B) with (vmap (@none_vals A)).
  rewrite new_orient_map. apply bind_map. intros h2. rewrite new_lens_map. apply bind_map. intros h3.
  cbn [hmap next]. fold (hmap h3). rewrite new_camera_map. apply bind_map. intros h4. apply load_map.
Qed.
Lemma save_map h c : save (hmap h) c = option_map fmap (save h c).
Proof.
  unfold save. change (objs (hmap h) c) with (option_map omap (objs h c)). destruct (objs h c) as [b|] eqn:E; [|reflexivity].
  cbn [option_map]. change (okd (omap b)) with (okd b). destruct (okd b) as [| | | |p o l|]; try reflexivity.
  change (objs (hmap h) p) with (option_map omap (objs h p)). change (objs (hmap h) l) with (option_map omap (objs h l)).
  destruct (objs h p) as [bp|]; [|reflexivity]. destruct (objs h l) as [bl|]; [|reflexivity].
  cbn [option_map]. change (okd (omap bp)) with (okd bp). change (okd (omap bl)) with (okd bl).
  destruct (okd bp); try reflexivity. destruct (okd bl); try reflexivity. unfold option_map at 1, fmap. cbn [file_proj file_lens file_vars].
  f_equal. f_equal. rewrite map_map. apply map_ext. intros [n x]. cbn [fst snd]. rewrite get_attr_map. destruct (get_attr h c n); reflexivity.
Qed.
Lemma get_fit_map h o m : get_fit (hmap h) o m = get_fit h o m.
Proof.
  unfold get_fit. change (objs (hmap h) o) with (option_map omap (objs h o)). destruct (objs h o) as [b|]; [|reflexivity].
  cbn [option_map]. change (table (omap b)) with (table b). f_equal. apply filter_ext. intros [n l]. cbn [snd].
  change (value (mem (hmap h) l)) with (option_map f (value (mem h l))). rewrite is_some_map. reflexivity.
Qed.

(** ** Histories *)
Inductive op_map : op A -> op B -> Prop :=
| MOrient k v : op_map (OOrient k v) (OOrient k (vmap v))
| MProj k v fr : op_map (OProj k v fr) (OProj k (vmap v) fr)
| MLens k v : op_map (OLens k v) (OLens k (vmap v))
| MCamera p o l : op_map (OCamera p o l) (OCamera p o l)
| MGroup x y z : op_map (OGroup x y z) (OGroup x y z)
| MSet o n a : op_map (OSet o n a) (OSet o n (amap a))
| MDefault o n v : op_map (ODefault o n v) (ODefault o n (option_map f v))
| MFit ord o v : op_map (OFit ord o v) (OFit ord o (lmap v))
| MSample ra rb ord o : rnd_map ra rb -> op_map (OSample ra ord o) (OSample rb ord o)
| MMean ord o : op_map (OMean ord o) (OMean ord o)
| MLoad c g : op_map (OLoad c g) (OLoad c (fmap g)).
Lemma exec_map p q h : op_map p q -> exec wb lb (hmap h) q = rmap (exec wa la h p).
Proof.
  destruct 1; cbn [exec].
  - apply new_orient_map.
  - apply new_proj_map.
  - apply new_lens_map.
  - apply new_camera_map.
  - apply new_group_map.
  - apply set_attr_map.
  - apply set_default_map.
  - apply set_fit_map.
  - apply stats_map; assumption.
  - apply stats_map. intros n m s. reflexivity.
  - apply load_map.
Qed.
End Map.
