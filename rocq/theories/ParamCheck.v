(** * Checking concrete histories over the rationals *)
Require Import Reals Lra List Bool String Arith NArith QArith Qround Qreals Lia.
From Verif Require Import Num Orientation OrientationFacts Projection.
From Verif Require Import Param ParamFacts ParamOps ParamSteps ParamReach ParamCam ParamLaws ParamMap PropParam.
Import ListNotations.
Open Scope nat_scope.
Open Scope string_scope.

(** ** Decidable admissibility *)
Section Check.
Context {V : Type}.
Implicit Types h : heap V.
Definition kind_at h (o : oid) : option kind := option_map (@okd V) (objs h o).
Definition projb h o : bool := match kind_at h o with Some (KProj _) => true | _ => false end.
Definition orientb h o : bool := match kind_at h o with Some (KOrient _) => true | _ => false end.
Definition lensb h o : bool := match kind_at h o with Some (KLens _) => true | _ => false end.
Definition distb h o : bool := match kind_at h o with Some (KLens Brown) | Some (KLens ABC) => true | _ => false end.
Definition lproj_at h o : option oid := match objs h o with Some b => lproj b | None => None end.
Definition oid_opt_eqb (x : option oid) (p : oid) : bool := match x with Some y => Nat.eqb y p | None => false end.
Definition sharing_okb h (l p : oid) : bool :=
  lensb h l &&
  (negb (distb h l) ||
   (match lproj_at h l with None => true | Some q => Nat.eqb q p end && projb h p &&
    forallb (fun x => negb (distb h x && oid_opt_eqb (lproj_at h x) p) || Nat.eqb x l) (seq 0 (next h)))).
Definition op_okb h (p : op V) : bool :=
  match p with
  | OCamera p o l => projb h p && orientb h o && sharing_okb h l p
  | OGroup pa oa la =>
    forallb (projb h) (comp_list pa) && forallb (orientb h) (comp_list oa) && forallb (lensb h) (comp_list la) &&
    let prs := cam_pairs 0 (group_size [comp_given pa; comp_given oa; comp_given la]) (comp_list pa) (comp_list la) in
    forallb (fun x => sharing_okb h (fst x) (snd x)) prs &&
    forallb (fun x => forallb (fun y => negb (distb h (fst x) && distb h (fst y)) ||
                                 Bool.eqb (Nat.eqb (fst x) (fst y)) (Nat.eqb (snd x) (snd y))) prs) prs
  | OLoad c f => match objs h c with
                 | Some b => match okd b with
                             | KCam _ _ _ => forallb (fun n => negb (is_some (attrs b n))) (all_names TiltHeading (file_lens f))
                             | _ => false end
                 | None => false end
  | _ => true
  end.
Definition orders (p : op V) : Prop :=
  match p with OFit ord _ _ | OSample _ ord _ | OMean ord _ => is_order ord | _ => True end.
Lemma projb_ok h o : projb h o = true -> exists k, proj_at h o k.
Proof. unfold projb, kind_at, proj_at. destruct (objs h o) as [b|]; [|discriminate]. cbn. destruct (okd b) as [k| | | | |] eqn:K; try discriminate. intros _. exists k, b. auto. Qed.
Lemma orientb_ok h o : orientb h o = true -> exists k, orient_at h o k.
Proof. unfold orientb, kind_at, orient_at. destruct (objs h o) as [b|]; [|discriminate]. cbn. destruct (okd b) as [|k| | | |] eqn:K; try discriminate. intros _. exists k, b. auto. Qed.
Lemma lensb_ok h o : lensb h o = true -> exists k, lens_at h o k.
Proof. unfold lensb, kind_at, lens_at. destruct (objs h o) as [b|]; [|discriminate]. cbn. destruct (okd b) as [| |k| | |] eqn:K; try discriminate. intros _. exists k, b. auto. Qed.
Lemma distb_iff h o : distb h o = true <-> distorting h o.
Proof.
  unfold distb, kind_at, distorting. destruct (objs h o) as [b|].
  - cbn. split.
    + intros H. exists b. destruct (okd b) as [| |k| | |] eqn:K; try discriminate. exists k. split; [reflexivity|split; [reflexivity|]]. destruct k; discriminate.
    + intros (b'&k&E&K&N). inversion E; subst. rewrite K. destruct k; congruence.
  - cbn. split; [discriminate|]. intros (b'&k&E&_). discriminate.
Qed.
Lemma sharing_okb_ok h l p : (forall x b, objs h x = Some b -> x < next h) -> sharing_okb h l p = true -> sharing_ok h l p.
Proof.
  intros HL H. unfold sharing_okb in H. apply andb_prop in H. destruct H as (H1&H2). apply lensb_ok in H1. destruct H1 as (k&b&E&K).
  exists b, k. split; [exact E|split; [exact K|]]. intros NK.
  assert (D : distb h l = true) by (apply distb_iff; exists b, k; auto). rewrite D in H2. cbn [negb orb] in H2.
  apply andb_prop in H2. destruct H2 as (H2&H4). apply andb_prop in H2. destruct H2 as (H2&H3).
  split; [|split].
  - unfold lproj_at in H2. rewrite E in H2. destruct (lproj b); auto. apply Nat.eqb_eq in H2. subst. auto.
  - apply projb_ok in H3. destruct H3 as (pk&bp&Ep&Kp). exists bp. split; [exact Ep|]. rewrite Kp. exact I.
  - intros l' (b'&k'&E'&K'&N'&L'). rewrite forallb_forall in H4. specialize (H4 l'). apply HL in E' as HLt.
    assert (IN : In l' (seq 0 (next h))) by (apply in_seq; lia). specialize (H4 IN). cbv beta in H4.
    assert (D' : distb h l' = true) by (apply distb_iff; exists b', k'; auto). rewrite D' in H4.
    unfold lproj_at in H4. rewrite E', L' in H4. cbn in H4. rewrite Nat.eqb_refl in H4. cbn in H4. apply Nat.eqb_eq. exact H4.
Qed.
Lemma op_okb_ok h p : (forall x b, objs h x = Some b -> x < next h) -> orders p -> op_okb h p = true -> op_ok h p.
Proof.
  intros HL HO H. destruct p as [k vals|k vals fr|k vals|p o l|pa oa la|o n a|o n v|ord o vals|rnd ord o|ord o|c f]; cbn [op_okb op_ok orders] in *; auto.
  - apply andb_prop in H. destruct H as (H&H3). apply andb_prop in H. destruct H as (H1&H2).
    split; [apply projb_ok; auto|split; [apply orientb_ok; auto|apply sharing_okb_ok; auto]].
  - apply andb_prop in H. destruct H as (H&H4). apply andb_prop in H. destruct H as (H&H3). apply andb_prop in H. destruct H as (H1&H2).
    apply andb_prop in H4. destruct H4 as (H4&H5). rewrite forallb_forall in H1, H2, H3, H4, H5. split.
    + split; [|split]; intros x Hx; [apply projb_ok|apply orientb_ok|apply lensb_ok]; auto.
    + split.
      * intros l p Hin. apply sharing_okb_ok; auto. apply (H4 (l, p) Hin).
      * intros l1 p1 l2 p2 I1 I2 D1 D2. specialize (H5 _ I1). rewrite forallb_forall in H5. specialize (H5 _ I2). cbn [fst snd] in H5.
        apply distb_iff in D1, D2. rewrite D1, D2 in H5. cbn [andb negb orb] in H5. apply eqb_prop in H5.
        destruct (Nat.eqb_spec l1 l2), (Nat.eqb_spec p1 p2); try discriminate; tauto.
  - destruct (objs h c) as [b|]; [|discriminate]. destruct (okd b) as [| | | |p o l|] eqn:K; try discriminate.
    exists b, p, o, l. split; [reflexivity|split; [exact K|]]. intros n Hn. rewrite forallb_forall in H. specialize (H n Hn).
    destruct (attrs b n); [discriminate|reflexivity].
Qed.
End Check.

(** ** Rationals to floats *)
Definition wrapq (q : Q) : option Q :=
  if negb (Qle_bool (-360) q && Qle_bool q 360) then Some (q - 360 * inject_Z (Qfloor (q / 360)))%Q else None.
Definition idq (q : Q) : Q := q.
Lemma Rfloor_Q2R q : Rfloor (Q2R q) = Qfloor q.
Proof.
  pose proof (Rfloor_bounds (Q2R q)) as (B1&B2).
  pose proof (Qfloor_le q) as C1. pose proof (Qlt_floor q) as C2. apply Qle_Rle in C1. apply Qlt_Rlt in C2.
  assert (I : forall z, Q2R (inject_Z z) = IZR z) by (intros z; unfold Q2R, inject_Z; cbn; lra).
  rewrite I in C1, C2. rewrite plus_IZR in C2. 
  assert (IZR (Rfloor (Q2R q)) < IZR (Qfloor q + 1))%R by (rewrite plus_IZR; lra).
  assert (IZR (Qfloor q) < IZR (Rfloor (Q2R q) + 1))%R by (rewrite plus_IZR; lra).
  apply lt_IZR in H, H0. lia.
Qed.
Lemma Q2R_360 : Q2R 360 = 360%R. Proof. unfold Q2R; cbn. lra. Qed.
Lemma Q2R_m360 : Q2R (-360) = (-360)%R. Proof. unfold Q2R; cbn. lra. Qed.
Lemma wrapq_value v : Q2R (v - 360 * inject_Z (Qfloor (v / 360)))%Q = (Q2R v - 360 * IZR (Rfloor (Q2R v / 360)))%R.
Proof.
  rewrite Q2R_minus, Q2R_mult, Q2R_360. f_equal. f_equal.
  replace (Q2R v / 360)%R with (Q2R (v / 360)%Q).
  - rewrite Rfloor_Q2R. unfold Q2R, inject_Z. cbn [Qnum Qden]. field.
  - unfold Qdiv. rewrite Q2R_mult. unfold Rdiv. f_equal. unfold Q2R. cbn. lra.
Qed.
Lemma wrap_map v : wrapn (litn v) = option_map litn (wrapq v).
Proof.
  assert (X1 : Qle_bool (-360) v = if Rlt_dec (Q2R v) (-360) then false else true).
  { destruct (Rlt_dec (Q2R v) (-360)) as [L|L].
    - destruct (Qle_bool (-360) v) eqn:E; auto. apply Qle_bool_iff, Qle_Rle in E. rewrite Q2R_m360 in E. lra.
    - apply Qle_bool_iff, Rle_Qle. rewrite Q2R_m360. lra. }
  assert (X2 : Qle_bool v 360 = if Rlt_dec 360 (Q2R v) then false else true).
  { destruct (Rlt_dec 360 (Q2R v)) as [L|L].
    - destruct (Qle_bool v 360) eqn:E; auto. apply Qle_bool_iff, Qle_Rle in E. rewrite Q2R_360 in E. lra.
    - apply Qle_bool_iff, Rle_Qle. rewrite Q2R_360. lra. }
  assert (Y : wrapn (litn v) = if negb ((if Rlt_dec (Q2R v) (-360) then false else true) && (if Rlt_dec 360 (Q2R v) then false else true))
                               then Some (Fin (Q2R v - 360 * IZR (Rfloor (Q2R v / 360)))) else None).
  { unfold wrapn, litn, nmod. cbn. unfold Rltb. destruct (Rlt_dec (Q2R v) (-360)), (Rlt_dec 360 (Q2R v)); reflexivity. }
  rewrite Y. unfold wrapq. rewrite X1, X2.
  destruct (negb _); [|reflexivity]. cbn [option_map]. unfold litn. rewrite wrapq_value. reflexivity.
Qed.
(** A float heap given by a rational one. *)
Notation floats := (hmap litn).
Fixpoint hist (h : heap Q) (ps : list (op Q)) : heap Q :=
  match ps with [] => h | p :: ps' => hist (fst (exec wrapq idq h p)) ps' end.
Fixpoint checked (h : heap Q) (ps : list (op Q)) : bool :=
  match ps with
  | [] => true
  | p :: ps' => op_okb h p && snd (exec wrapq idq h p) && checked (fst (exec wrapq idq h p)) ps'
  end.
Lemma okb_map h p q : op_map litn p q -> op_okb (floats h) q = op_okb h p.
Proof.
  assert (KA : forall o, kind_at (floats h) o = kind_at h o) by (intros o; unfold kind_at; cbn; destruct (objs h o); reflexivity).
  assert (LA : forall o, lproj_at (floats h) o = lproj_at h o) by (intros o; unfold lproj_at; cbn; destruct (objs h o); reflexivity).
  assert (P : projb (floats h) = projb h) by (apply FunctionalExtensionality.functional_extensionality; intros o; unfold projb; rewrite KA; reflexivity).
  assert (O : orientb (floats h) = orientb h) by (apply FunctionalExtensionality.functional_extensionality; intros o; unfold orientb; rewrite KA; reflexivity).
  assert (L : lensb (floats h) = lensb h) by (apply FunctionalExtensionality.functional_extensionality; intros o; unfold lensb; rewrite KA; reflexivity).
  assert (D : distb (floats h) = distb h) by (apply FunctionalExtensionality.functional_extensionality; intros o; unfold distb; rewrite KA; reflexivity).
  assert (LP : lproj_at (floats h) = lproj_at h) by (apply FunctionalExtensionality.functional_extensionality; intros o; apply LA).
  assert (S : sharing_okb (floats h) = sharing_okb h).
  { apply FunctionalExtensionality.functional_extensionality; intros l. apply FunctionalExtensionality.functional_extensionality; intros p0.
    unfold sharing_okb. rewrite L, D, LP, P. reflexivity. }
  destruct 1; try reflexivity.
  - cbn [op_okb]. rewrite P, O, S. reflexivity.
  - cbn [op_okb]. rewrite P, O, L, S, D. reflexivity.
  - cbn [op_okb]. cbn [hmap objs]. destruct (objs h c) as [b|]; [|reflexivity]. cbn [option_map omap okd]. destruct (okd b); try reflexivity.
    cbn [fmap file_lens]. induction (all_names TiltHeading (file_lens g)) as [|n t IH]; [reflexivity|]. cbn [forallb].
    rewrite IH. f_equal. f_equal. cbn [attrs omap]. destruct (attrs b n); reflexivity.
Qed.
Definition stands (ps : list (op Q)) : Prop := exists qs, Forall2 (op_map litn) ps qs /\ Forall orders qs.
Lemma hist_reach_from ps : forall h, stands ps -> reach (floats h) -> checked h ps = true -> reach (floats (hist h ps)).
Proof.
  induction ps as [|p ps IH]; intros h (qs&HM&HO) HR HC; [exact HR|].
  inversion HM as [|p' q ps' qs' M1 M2]; subst. inversion HO as [|q' qs'' O1 O2]; subst.
  cbn [checked] in HC. apply andb_prop in HC. destruct HC as (HC&C3). apply andb_prop in HC. destruct HC as (C1&C2).
  cbn [hist]. apply IH; [exists qs'; auto| |exact C3].
  eapply (Rstep wrapn litn (floats h) q); [exact HR| |].
  - destruct (reach_inv _ HR) as (HI&_). apply op_okb_ok; auto.
    + intros x b E. exact (Inv_objs_lt wrapn clean _ HI x b E).
    + rewrite (okb_map h p q M1). exact C1.
  - rewrite (exec_map litn wrapq wrapn idq litn wrap_map (fun q => eq_refl) p q h M1). unfold rmap. rewrite C2. reflexivity.
Qed.
Lemma floats_empty : floats (@empty Q) = @empty num.
Proof. apply heap_eq; reflexivity. Qed.
Lemma hist_reach ps : stands ps -> checked empty ps = true -> reach (floats (hist empty ps)).
Proof. intros HS HC. apply hist_reach_from; auto. rewrite floats_empty. apply Rempty. Qed.
Lemma litn_inj p q : litn p = litn q -> (p == q)%Q.
Proof. unfold litn. intros H. inversion H. apply eqR_Qeq. assumption. Qed.
Lemma some_litn_neq p q : Qeq_bool p q = false -> Some (litn p) <> Some (litn q).
Proof. intros H X. inversion X as [Y]. apply Qeq_bool_neq in H. apply H. apply eqR_Qeq. exact Y. Qed.
Lemma id_order : is_order (fun l => l). Proof. intros l c. tauto. Qed.
Lemma rev_order : is_order (@rev cb). Proof. intros l c. symmetry. apply in_rev. Qed.
Ltac stand := eexists; split;
  [repeat first [apply Forall2_nil | apply Forall2_cons; [econstructor|]]
  |repeat first [apply Forall_nil | apply Forall_cons; [first [exact I|exact id_order|exact rev_order]|]]].
