(** * Properties C36-C40: parameters, defaults, derived state, statistics and fits *)
Require Import Reals Lra List Bool String Arith NArith QArith Qreals Lia.
From Verif Require Import Num Vec Orientation Projection Ray CameraTransform Lens OrientationFacts.
From Verif Require Import Param ParamFacts ParamOps ParamSteps ParamReach ParamCam ParamLaws.
Import ListNotations.
Open Scope nat_scope.
Open Scope string_scope.

(** ** The heap at floating point numbers *)
(** spatial.py 104-105 (253-254): [Some] is the value assigned. *)
Definition wrapn (v : num) : option num :=
  if (v <? Fin (-360))%num || (Fin 360 <? v)%num then Some (nmod v 360) else None.
Definition litn (q : Q) : num := Fin (Q2R q).
Lemma wrapn_heading v : match wrapn v with Some w => w | None => v end = wrap_heading v.
Proof. unfold wrapn, wrap_heading. destruct (_ || _); reflexivity. Qed.
Lemma wrapn_fin r : (-360 <= r <= 360)%R -> wrapn (Fin r) = None.
Proof.
  intros H. unfold wrapn. cbn. unfold Rltb. destruct (Rlt_dec r (-360)); [lra|]. destruct (Rlt_dec 360 r); [lra|]. reflexivity.
Qed.
Lemma wrapn_ok v v' : wrapn v = Some v' -> wrapn v' = None.
Proof.
  unfold wrapn at 1. destruct (_ || _) eqn:E; [|discriminate]. intros H; inversion H; subst v'. clear H.
  assert (B : forall r : R, wrapn (Fin (r - 360 * IZR (Rfloor (r / 360)))) = None).
  { intros r. apply wrapn_fin. pose proof (Rfloor_bounds (r / 360)). split; nra. }
  destruct v as [r| | | |]; try (cbn; reflexivity); unfold nmod; cbn [look]; apply B.
Qed.
Notation heapn := (heap num).
Notation reach := (reachable wrapn litn).
Implicit Types h : heapn.
Lemma reach_inv h : reach h -> Inv wrapn clean h /\ CamInv h.
Proof. apply reachable_Inv, wrapn_ok. Qed.

(** ** C36: read your writes *)
Lemma rd_norm (p : param num) : rd (norm wrapn p) = option_map wrap_heading (rd p).
Proof.
  unfold norm. destruct (rd p) as [v|] eqn:E; [|rewrite E; reflexivity]. cbn [option_map].
  pose proof (wrapn_heading v) as W. destruct (wrapn v) as [w|].
  - cbn [rd value assign]. congruence.
  - rewrite E. congruence.
Qed.
(** An assigned angle is brought into range by an orientation. *)
Definition in_range h (l : loc) (v : num) : num := if wrapped_loc h l then wrap_heading v else v.

Theorem C36_read_your_write h o n l v h' o' n' : reach h -> writes h o n l -> reads h o' n' l ->
  set_attr wrapn h o n (ANum v) = (h', true) -> get_num h' o' n' = Some (in_range h l v).
Proof.
  intros HR HW HRd HS. destruct (reach_inv h HR) as (HI&_).
  destruct (set_attr_mem wrapn wrapn_ok h o n (ANum v) l h' HI HW HS) as (S&M&_).
  rewrite (reads_num h' o' n' l) by (eapply reads_sim; eauto). unfold rdl. rewrite M. unfold in_range.
  destruct (wrapped_loc h l); [rewrite rd_norm|]; reflexivity.
Qed.
Print Assumptions C36_read_your_write.
Theorem C36_uncertain h o n l m s h' o' n' : reach h -> writes h o n l -> reads h o' n' l ->
  set_attr wrapn h o n (APair m s) = (h', true) -> get_num h' o' n' = Some (in_range h l m).
Proof.
  intros HR HW HRd HS. destruct (reach_inv h HR) as (HI&_).
  destruct (set_attr_mem wrapn wrapn_ok h o n (APair m s) l h' HI HW HS) as (S&M&_).
  rewrite (reads_num h' o' n' l) by (eapply reads_sim; eauto). unfold rdl. rewrite M. unfold in_range.
  destruct (wrapped_loc h l); [rewrite rd_norm|]; reflexivity.
Qed.
Print Assumptions C36_uncertain.
Theorem C36_none h o n l h' o' n' : reach h -> writes h o n l -> reads h o' n' l ->
  set_attr wrapn h o n ANone = (h', true) ->
  get_num h' o' n' = option_map (in_range h l) (default (mem h l)).
Proof.
  intros HR HW HRd HS. destruct (reach_inv h HR) as (HI&_).
  destruct (set_attr_mem wrapn wrapn_ok h o n ANone l h' HI HW HS) as (S&M&_).
  rewrite (reads_num h' o' n' l) by (eapply reads_sim; eauto). unfold rdl. rewrite M. unfold in_range.
  destruct (wrapped_loc h l); [rewrite rd_norm; reflexivity|]. unfold rd; cbn [value assign default].
  destruct (default (mem h l)); reflexivity.
Qed.
Print Assumptions C36_none.
(** focallength_px sets both focal lengths. *)
Theorem C36_focal_length h o p v h' o' n' : reach h -> writes h o "focallength_px" (Loc p "focallength_px") ->
  In n' ["focallength_x_px"; "focallength_y_px"] -> reads h o' n' (Loc p n') ->
  set_attr wrapn h o "focallength_px" (ANum v) = (h', true) -> get_num h' o' n' = Some v.
Proof.
  intros HR HW Hn HRd HS. destruct (reach_inv h HR) as (HI&_).
  destruct (set_attr_mem wrapn wrapn_ok h o _ (ANum v) _ h' HI HW HS) as (S&_&M).
  rewrite (reads_num h' o' n' (Loc p n')) by (eapply reads_sim; eauto). unfold rdl.
  assert (F : follows (Loc p "focallength_px") (Loc p n') = true).
  { unfold follows; cbn [l_owner l_name]. rewrite Nat.eqb_refl. destruct Hn as [<-|[<-|[]]]; reflexivity. }
  rewrite M, F; [reflexivity|]. destruct Hn as [<-|[<-|[]]]; intros X; inversion X.
Qed.
Print Assumptions C36_focal_length.
(** Everything else reads as before. *)
Theorem C36_others_unchanged h o n l a h' o' n' : reach h -> writes h o n l ->
  (forall l', writes h o' n' l' -> l' <> l /\ follows l l' = false) ->
  set_attr wrapn h o n a = (h', true) -> get_attr h' o' n' = get_attr h o' n'.
Proof.
  intros HR HW HN HS. destruct (reach_inv h HR) as (HI&_).
  destruct (set_attr_mem wrapn wrapn_ok h o n a l h' HI HW HS) as ((_&S)&_&M).
  specialize (S o'). unfold get_attr. destruct (objs h o') as [b|] eqn:E, (objs h' o') as [b'|]; try contradiction; auto.
  destruct S as (_&A&T&_). rewrite A, T. destruct (attrs b n'); auto. destruct (assoc n' (table b)) as [l'|] eqn:Ha; auto.
  destruct (HN l') as (N&F); [exists b; auto|]. unfold rdl. rewrite M, F by exact N. reflexivity.
Qed.
Print Assumptions C36_others_unchanged.
(** A name that is no parameter of the object becomes a plain attribute: no parameter of
    any object changes and nothing is computed from it. *)
Theorem C36_unknown_name h o n a h' : (forall l, ~ writes h o n l) -> set_attr wrapn h o n a = (h', true) ->
  get_attr h' o n = Some a /\ (forall o' n', o' <> o \/ n' <> n -> get_attr h' o' n' = get_attr h o' n') /\ mem h' = mem h.
Proof.
  intros HW HS. destruct (set_attr_plain wrapn h o n a h' HW HS) as (b&E&->).
  split; [|split; [|reflexivity]].
  - unfold get_attr; cbn. rewrite Nat.eqb_refl. cbn. rewrite String.eqb_refl. reflexivity.
  - intros o' n' N. unfold get_attr; cbn [objs set_obj]. destruct (Nat.eqb_spec o' o) as [->|No]; [|reflexivity].
    rewrite E. cbn [attrs add_attr table]. destruct (String.eqb_spec n' n) as [->|Nn]; [|reflexivity].
    exfalso. destruct N; congruence.
Qed.
Print Assumptions C36_unknown_name.
(** The aliases: a camera and its components name the same parameters. *)
Theorem C36_aliases h c p o l n : reach h -> cam_at h c p o l ->
  (In n pnames -> reads h c n (Loc p n) /\ writes h p n (Loc p n)) /\
  (forall k, orient_at h o k -> In n (onames k) -> reads h c n (Loc o n) /\ reads h o n (Loc o n)) /\
  (forall k, lens_at h l k -> In n (lnames k) -> reads h c n (Loc l n) /\ reads h l n (Loc l n)) /\
  (forall k, lens_at h l k -> k <> NoDist -> In n shared_names -> writes h l n (Loc p n)).
Proof. intros HR HC. destruct (reach_inv h HR) as (HI&CI). exact (camera_reads wrapn h c p o l n CI HI HC). Qed.
Print Assumptions C36_aliases.

(** ** C37: transformations use the current values *)
(** The numbers a camera is made of, given by name. *)
Definition proj_of (val : name -> option num) : option (proj num) :=
  match val "focallength_x_px", val "focallength_y_px", val "center_x_px", val "center_y_px",
        val "image_width_px", val "image_height_px" with
  | Some fx, Some fy, Some cx, Some cy, Some w, Some g => Some (Proj fx fy cx cy w g)
  | _, _, _, _, _, _ => None
  end.
Definition matrix_of (k : okind) (val : name -> option num) : option omat :=
  match k with
  | TiltHeading =>
    match val "elevation_m", val "tilt_deg", val "roll_deg", val "heading_deg", val "pos_x_m", val "pos_y_m" with
    | Some e, Some t, Some r, Some d, Some x, Some y => init_matrix (OPar e t r d x y)
    | _, _, _, _, _, _ => None
    end
  | YawPitchRoll =>
    match val "elevation_m", val "yaw_deg", val "roll_deg", val "pitch_deg", val "pos_x_m", val "pos_y_m" with
    | Some e, Some t, Some r, Some d, Some x, Some y => init_matrix_ypr (YPar e t r d x y)
    | _, _, _, _, _, _ => None
    end
  end.
Definition or_nan (v : option num) : num := match v with Some v => v | None => NaN end.
(** [frame]: the projection numbers a lens has taken over. *)
Definition lens_of spline (k : lkind) (val frame : name -> option num) : option (option lens) :=
  let p := Proj (or_nan (frame "focallength_x_px")) (or_nan (frame "focallength_y_px")) (or_nan (frame "center_x_px"))
                (or_nan (frame "center_y_px")) (or_nan (frame "image_width_px")) (or_nan (frame "image_height_px")) in
  match k with
  | NoDist => Some None
  | Brown => match val "k1", val "k2", val "k3" with Some a, Some b, Some c => Some (Some (brown_lens spline a b c p)) | _, _, _ => None end
  | ABC => match val "a", val "b", val "c" with Some a, Some b, Some c => Some (Some (abc_lens spline a b c p)) | _, _, _ => None end
  end.
Definition camera_of spline (pk : pkind) (k : okind) (lk : lkind) (pv ov lv lf : name -> option num) : option camera :=
  match proj_of pv, matrix_of k ov, lens_of spline lk lv lf with
  | Some p, Some m, Some None => Some (plain_camera pk p m)
  | Some p, Some m, Some (Some l) => Some (lens_camera pk p m l)
  | _, _, _ => None
  end.
(** What Camera.imageFromSpace, getRay etc. use: the projection reads its attributes at
    every call (projection.py 344-581), orientation and lens use what the last callback
    computed. *)
Definition camera_in_use spline h (c : oid) : option camera :=
  match objs h c with
  | Some b =>
    match okd b with
    | KCam p o l =>
      match objs h p, objs h o, objs h l with
      | Some bp, Some bo, Some bl =>
        match okd bp, okd bo, okd bl with
        | KProj pk, KOrient k, KLens lk =>
          camera_of spline pk k lk (get_num h p) (used bo) (used bl) (used bl)
        | _, _, _ => None
        end
      | _, _, _ => None
      end
    | _ => None
    end
  | None => None
  end.
(** Specification: the camera made of the numbers the user reads from the camera object. *)
Definition camera_of_reads spline h (c : oid) : option camera :=
  match objs h c with
  | Some b =>
    match okd b with
    | KCam p o l =>
      match objs h p, objs h o, objs h l with
      | Some bp, Some bo, Some bl =>
        match okd bp, okd bo, okd bl with
        | KProj pk, KOrient k, KLens lk =>
          camera_of spline pk k lk (get_num h c) (get_num h c) (get_num h c) (get_num h c)
        | _, _, _ => None
        end
      | _, _, _ => None
      end
    | _ => None
    end
  | None => None
  end.
(** A projection not built from view_x_deg/view_y_deg. *)
Definition unfrozen h (p : oid) : Prop := forall b n, objs h p = Some b -> In n pnames -> attrs b n = None.
Definition projection_of h (c p : oid) : Prop := exists o l, cam_at h c p o l.

Lemma camera_of_ext spline pk k lk pv pv' ov ov' lv lv' lf lf' :
  (forall n, In n shared_names -> pv n = pv' n) -> (forall n, In n (onames k) -> ov n = ov' n) ->
  (forall n, In n (lnames lk) -> lv n = lv' n) -> (forall n, In n (lens_reads lk) -> lf n = lf' n) ->
  camera_of spline pk k lk pv ov lv lf = camera_of spline pk k lk pv' ov' lv' lf'.
Proof.
  intros HP HO HL HF. unfold camera_of, proj_of, matrix_of, lens_of.
  rewrite !HP by (cbn; tauto).
  destruct k, lk; rewrite ?HO by (cbn; tauto); rewrite ?HL by (cbn; tauto);
    try rewrite (HF "focallength_x_px"), (HF "focallength_y_px") by (cbn; tauto); try rewrite (HF "image_width_px"), (HF "image_height_px") by (cbn; tauto);
    try rewrite (HF "center_x_px"), (HF "center_y_px") by (cbn; tauto); reflexivity.
Qed.
Theorem C37_current_values spline h c : reach h -> (forall p, projection_of h c p -> unfrozen h p) ->
  camera_in_use spline h c = camera_of_reads spline h c.
Proof.
  intros HR HU. destruct (reach_inv h HR) as (HI&CI). unfold camera_in_use, camera_of_reads.
  destruct (objs h c) as [b|] eqn:E; [|reflexivity]. destruct (okd b) as [| | | |p o l|] eqn:K; try reflexivity.
  destruct (objs h p) as [bp|] eqn:Ep; [|reflexivity]. destruct (objs h o) as [bo|] eqn:Eo; [|reflexivity].
  destruct (objs h l) as [bl|] eqn:El; [|reflexivity].
  destruct (okd bp) as [pk| | | | |] eqn:Kp; try reflexivity. destruct (okd bo) as [|k| | | |] eqn:Ko; try reflexivity.
  destruct (okd bl) as [| |lk| | |] eqn:Kl; try reflexivity.
  assert (CA : cam_at h c p o l) by (exists b; auto).
  assert (UF : unfrozen h p) by (apply HU; exists o, l; exact CA).
  assert (PR : forall n, In n pnames -> reads h p n (Loc p n)).
  { intros n Hn. destruct (camera_reads wrapn h c p o l n CI HI CA) as (A&_). destruct (A Hn) as (_&(bp'&Ep'&T)).
    exists bp'. split; [exact Ep'|split; [apply (UF bp' n Ep' Hn)|exact T]]. }
  apply camera_of_ext.
  - intros n Hn. apply shared_pnames in Hn. destruct (camera_reads wrapn h c p o l n CI HI CA) as (A&_).
    destruct (A Hn) as (RC&_). rewrite (reads_num _ _ _ _ RC), (reads_num _ _ _ _ (PR n Hn)). reflexivity.
  - intros n Hn. destruct (camera_reads wrapn h c p o l n CI HI CA) as (_&A&_).
    destruct (A k) as (RC&_); [exists bo; auto|exact Hn|]. rewrite (reads_num _ _ _ _ RC).
    destruct (HI o bo Eo) as (_&_&F). specialize (F (fun X => X)). unfold fresh in F. rewrite Ko in F. apply F; exact Hn.
  - intros n Hn. destruct (camera_reads wrapn h c p o l n CI HI CA) as (_&_&A&_).
    destruct (A lk) as (RC&_); [exists bl; auto|exact Hn|]. rewrite (reads_num _ _ _ _ RC).
    destruct (HI l bl El) as (_&_&F). specialize (F (fun X => X)). unfold fresh in F. rewrite Kl in F. apply F; exact Hn.
  - intros n X. pose proof (shared_pnames n (reads_shared lk n X)) as Hn. destruct (camera_reads wrapn h c p o l n CI HI CA) as (A&_).
    destruct (A Hn) as (RC&_). rewrite (reads_num _ _ _ _ RC).
    destruct (CI c b p o l E K) as (g&pk'&k'&lk'&_&_&(bl'&El'&Kl')&HL&_).
    assert (bl' = bl) by congruence; subst bl'. assert (lk' = lk) by congruence; subst lk'.
    destruct HL as (bx&kx&Ex&Kx&Nx&Lx); [intros ->; exact X|]. assert (bx = bl) by congruence; subst bx.
    destruct (HI l bl El) as (_&_&F). specialize (F (fun Y => Y)). unfold fresh in F. rewrite Kl in F. destruct F as (_&F).
    rewrite (F p Lx n X). rewrite (reads_num _ _ _ _ (PR n Hn)). reflexivity.
Qed.
Print Assumptions C37_current_values.
(** Also without a camera, and for orientations of any projection: the matrices in use are
    those of the values read from the orientation object. *)
Theorem C37_orientation h o b k : reach h -> objs h o = Some b -> okd b = KOrient k ->
  matrix_of k (used b) = matrix_of k (get_num h o) /\
  exists v, get_num h o (wrapped_name k) = Some v /\ wrapn v = None.
Proof.
  intros HR E K. destruct (reach_inv h HR) as (HI&_). destruct (HI o b E) as (_&W&F). specialize (F (fun X => X)).
  unfold wired in W. unfold fresh in F. rewrite K in W, F. destruct W as (T&W). destruct F as (F1&(v&F2&F3)&_).
  assert (RD : forall n, In n (onames k) -> get_num h o n = rdl h (Loc o n)).
  { intros n Hn. apply reads_num. exists b. split; [exact E|split; [apply W; exact Hn|]]. rewrite T. apply on_table; exact Hn. }
  split.
  - unfold matrix_of. destruct k; rewrite !F1 by (cbn; tauto); rewrite !RD by (cbn; tauto); reflexivity.
  - exists v. split; [|exact F3]. rewrite RD by apply wrapped_in. exact F2.
Qed.
Print Assumptions C37_orientation.

(** ** C38: defaults *)
Theorem C38_set_default h o n l v h' o' n' : reach h -> writes h o n l -> reads h o' n' l ->
  set_default wrapn h o n v = (h', true) ->
  get_num h' o' n' = match value (mem h l) with Some w => Some w | None => option_map (in_range h l) v end.
Proof.
  intros HR HW HRd HS. destruct (reach_inv h HR) as (HI&_).
  destruct (set_default_mem wrapn wrapn_ok h o n v l h' HI HW HS) as (S&M1&M2).
  rewrite (reads_num h' o' n' l) by (eapply reads_sim; eauto). unfold rdl.
  destruct (value (mem h l)) as [w|] eqn:Ev.
  - destruct M1 as (M1&_); [discriminate|]. rewrite M1. unfold rd; cbn [value with_default]. rewrite Ev. reflexivity.
  - destruct (M2 eq_refl) as (M&_). rewrite M. unfold in_range.
    destruct (wrapped_loc h l); [rewrite rd_norm|]; unfold rd; cbn [value default with_default]; rewrite Ev; [reflexivity|].
    destruct v; reflexivity.
Qed.
Print Assumptions C38_set_default.
Theorem C38_others_unchanged h o n l v h' o' n' : reach h -> writes h o n l ->
  (forall l', writes h o' n' l' -> l' <> l /\ follows l l' = false) ->
  set_default wrapn h o n v = (h', true) -> get_attr h' o' n' = get_attr h o' n'.
Proof.
  intros HR HW HN HS. destruct (reach_inv h HR) as (HI&_).
  destruct (set_default_mem wrapn wrapn_ok h o n v l h' HI HW HS) as ((_&S)&M1&M2).
  specialize (S o'). unfold get_attr. destruct (objs h o') as [b|] eqn:E, (objs h' o') as [b'|]; try contradiction; auto.
  destruct S as (_&A&T&_). rewrite A, T. destruct (attrs b n'); auto. destruct (assoc n' (table b)) as [l'|] eqn:Ha; auto.
  destruct (HN l') as (N&F); [exists b; auto|]. unfold rdl. destruct (value (mem h l)) as [w|] eqn:Ev.
  - destruct M1 as (_&M); [discriminate|]. rewrite M by exact N. reflexivity.
  - destruct (M2 eq_refl) as (_&M). rewrite M, F by exact N. reflexivity.
Qed.
Print Assumptions C38_others_unchanged.
(** A user value survives any number of default changes (of any parameter of any object),
    unless it is one of the two focal lengths. *)
Inductive defaults_run : heapn -> heapn -> Prop :=
| DNil h : defaults_run h h
| DCons h o n v h1 h2 : set_default wrapn h o n v = (h1, true) -> defaults_run h1 h2 -> defaults_run h h2.
Theorem C38_user_value_wins h o n l v h1 h2 o' n' : reach h -> writes h o n l -> is_f (l_name l) = false -> reads h o' n' l ->
  set_attr wrapn h o n (ANum v) = (h1, true) -> defaults_run h1 h2 -> get_num h2 o' n' = Some (in_range h l v).
Proof.
  intros HR HW HF HRd HS HD. destruct (reach_inv h HR) as (HI&HC).
  destruct (set_attr_mem wrapn wrapn_ok h o n (ANum v) l h1 HI HW HS) as (S&M&_).
  assert (V1 : value (mem h1 l) = Some (in_range h l v)).
  { rewrite M. unfold in_range. destruct (wrapped_loc h l); [|reflexivity]. unfold norm; cbn [rd value assign].
    pose proof (wrapn_heading v) as W. destruct (wrapn v); cbn [value assign]; congruence. }
  assert (R1 : reach h1) by (eapply (Rstep wrapn litn h (OSet o n (ANum v))); [exact HR|exact I|exact HS]).
  assert (RD1 : reads h1 o' n' l) by (eapply reads_sim; eauto).
  assert (V2 : value (mem h2 l) = Some (in_range h l v) /\ reads h2 o' n' l).
  { clear S M HS. remember (in_range h l v) as w eqn:Ew. clear Ew HI HC HR HW HRd.
    induction HD as [g|g p m u g1 g2 HS HD IH]; [auto|].
    destruct (reach_inv g R1) as (HI&_).
    assert (R2 : reach g1) by (eapply (Rstep wrapn litn g (ODefault p m u)); [exact R1|exact I|exact HS]).
    assert (CASE : (exists x, writes g p m x) \/ g1 = g).
    { unfold set_default in HS. destruct (objs g p) as [b|] eqn:E; [|discriminate].
      destruct (assoc m (table b)) as [x|] eqn:Ha; [left; exists x, b; auto|right]. inversion HS; auto. }
    destruct CASE as [(x&HW)| ->]; [|apply IH; auto].
    destruct (set_default_mem wrapn wrapn_ok g p m u x g1 HI HW HS) as (S&M1&M2).
    apply IH; [|exact R2|eapply reads_sim; eauto].
    destruct (value (mem g x)) as [y|] eqn:Ey.
    - destruct M1 as (M1&M3); [discriminate|]. destruct (loc_eqb_spec l x) as [<-|N]; [rewrite M1; exact V1|rewrite M3; auto].
    - destruct (M2 eq_refl) as (_&M3). destruct (loc_eqb_spec l x) as [<-|N]; [congruence|]. rewrite M3 by exact N.
      unfold follows. rewrite HF, andb_false_r. exact V1. }
  destruct V2 as (V2&RD2). rewrite (reads_num _ _ _ _ RD2). unfold rdl, rd. rewrite V2. reflexivity.
Qed.
Print Assumptions C38_user_value_wins.
