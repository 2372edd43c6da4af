(** * Properties C42 and C43: cached maps and rendered images *)
Require Import Reals Lra Psatz List Bool ZArith Arith Lia.
From Verif Require Import Num Vec Orientation OrientationFacts Projection ProjectionFacts Ray CameraTransform CameraFacts PropProjection PropCamera Lens PropLens Border PropBorder Lut PropLut MapCache.
Import ListNotations.
Open Scope R_scope.

(** ** Specification *)
(** The same camera (and the same lists) without anything cached. *)
Definition forget (s : state) : state := State (s_cam s) (s_lists s) None None.
(** Calls that render with the given height and treatment of points behind the camera; no parameter of the camera
    and no list is changed. *)
Definition quiet (z : num) (hide : bool) (v : event) : Prop :=
  match v with
  | Top _ _ _ z' _ hide' => z' = z /\ hide' = hide
  | Undistort _ _ _ _ => True
  | _ => False
  end.
(** What a rendered image shows of row [v] and column [u] of the source: an opaque pixel, or the border value. *)
Definition opaque (im : image) (p : list num) : list num := match im_ch im with Some 3%nat => (p ++ [Fin 255])%list | _ => p end.
Definition blank (im : image) : list num :=
  match im_ch im with
  | None | Some 1%nat => [Fin 0] | Some O => [] | Some 2%nat => [Fin 0; Fin 1]
  | Some _ => [Fin 0; Fin 1; Fin 0; Fin 0]
  end.
Definition at_px (im : image) (v u : Z) : list num :=
  if ((0 <=? u) && (u <? Z.of_nat (im_w im)) && (0 <=? v) && (v <? Z.of_nat (im_h im)))%bool%Z
  then opaque im (im_px im (Z.to_nat v) (Z.to_nat u)) else blank im.
(** the channels of the result *)
Definition channels (im : image) : option nat := match im_ch im with Some 3%nat => Some 4%nat | c => c end.

(** ** Facts about the cache *)
Lemma neqb_toR x y : neqb x y = true -> toR x = toR y.
Proof.
  destruct x, y; cbn; intros H; try discriminate; try reflexivity; unfold neqb in H; cbn [look] in H;
    try (apply Reqb_iff in H; congruence).
Qed.
Lemma ext_eq_map f a b s t : ext_eq a b = true -> neqb s t = true -> map_over f a s = map_over f b t.
Proof.
  unfold ext_eq. rewrite !andb_true_iff. intros (((A&B)&C)&D) E. apply neqb_toR in A, B, C, D, E.
  unfold map_over, arange. rewrite A, B, C, D, E. reflexivity.
Qed.
Ltac dmap := match goal with |- context [map_over ?a ?b ?c] => destruct (map_over a b c) end.
Ltac dmap_as m E := match goal with |- context [map_over ?a ?b ?c] => match goal with |- context [match map_over a b c with _ => _ end] => destruct (map_over a b c) as [m|] eqn:E end end.
Definition top_f (c : camera) (z : num) (hide : bool) (p : v2 num) : v2 num := imageFromSpace c (V3 (c1 p) (c2 p) (z * Fin 1)%num) hide.
Definition inv_u (s : state) : Prop :=
  match s_undist s with None => True | Some c => map_over (cam_dist (s_cam s)) (contents s (c_extent c)) (c_scaling c) = Some (c_map c) end.
Definition inv_m (s : state) (z : num) (hide : bool) : Prop :=
  match s_map s with None => True | Some c => map_over (top_f (s_cam s) z hide) (contents s (c_extent c)) (c_scaling c) = Some (c_map c) end.
Lemma undist_fresh s e sc : inv_u s -> snd (getUndistortMap s e sc) = snd (getUndistortMap (forget s) e sc).
Proof.
  unfold inv_u, getUndistortMap. intros I. cbn [s_cam forget s_undist]. set (r := match e with Some n => Given n | None => _ end).
  change (contents (forget s) r) with (contents s r).
  destruct (s_undist s) as [c|]; [|dmap; reflexivity].
  match goal with |- context [if ?b then _ else _] => destruct b eqn:H end; [|dmap; reflexivity].
  apply andb_true_iff in H. destruct H as (H1&H2). rewrite (ext_eq_map _ _ _ _ _ H1 H2) in I. rewrite I. reflexivity.
Qed.
Lemma undist_inv s e sc : inv_u s -> let s' := fst (getUndistortMap s e sc) in
  inv_u s' /\ s_cam s' = s_cam s /\ s_lists s' = s_lists s /\ s_map s' = s_map s.
Proof.
  unfold inv_u, getUndistortMap. intros I. cbv zeta. set (r := match e with Some n => Given n | None => _ end).
  set (k := match sc with Some x => x | None => Fin 1 end).
  destruct (s_undist s) as [c|] eqn:EU.
  - match goal with |- context [if ?b then _ else _] => destruct b eqn:H end; [cbn [fst]; rewrite EU; auto|].
    dmap_as m EM; cbn [fst s_undist s_cam s_lists s_map]; [|rewrite EU; auto].
    splits; auto.
  - dmap_as m EM; cbn [fst s_undist s_cam s_lists s_map]; [|rewrite EU; auto]. splits; auto.
Qed.
Lemma map_fresh s e sc z hide : inv_m s z hide \/ sc = None -> snd (getMap s e sc z hide) = snd (getMap (forget s) e sc z hide).
Proof.
  unfold inv_m, getMap. intros I. cbn [s_cam forget s_map].
  match goal with |- snd (match ?o with Some r => _ | None => _ end) = _ => destruct o as [r|] end; [|reflexivity].
  change (contents (forget s) r) with (contents s r). cbv zeta.
  destruct (s_map s) as [c|]; [|dmap; reflexivity].
  destruct sc as [v|]; [|dmap; reflexivity]. destruct I as [I|I]; [|discriminate].
  match goal with |- context [if ?b then _ else _] => destruct b eqn:H end; [|dmap; reflexivity].
  apply andb_true_iff in H. destruct H as (H1&H2). rewrite (ext_eq_map _ _ _ _ _ H1 H2) in I. unfold top_f in I. rewrite I. reflexivity.
Qed.
Lemma map_inv s e sc z hide : let r := getMap s e sc z hide in let s' := fst r in
  (inv_m s z hide \/ (sc = None /\ snd r <> None) -> inv_m s' z hide) /\ s_cam s' = s_cam s /\ s_lists s' = s_lists s /\ s_undist s' = s_undist s.
Proof.
  unfold inv_m, getMap. cbv zeta.
  match goal with |- context [match ?o with Some r => _ | None => (s, None) end] => destruct o as [r|] end.
  2: { cbn [fst snd]. splits; auto. intros [I|(_&I)]; [exact I|congruence]. }
  destruct (s_map s) as [c|] eqn:EU; [destruct sc as [v|]|].
  - match goal with |- context [if ?b then _ else _] => destruct b eqn:H end.
    { cbn [fst snd]. rewrite EU. splits; auto. intros [I|(I&_)]; [exact I|discriminate]. }
    dmap_as m EM; cbn [fst snd s_undist s_cam s_lists s_map]; rewrite ?EU; splits; auto.
    intros [I|(_&I)]; [exact I|congruence].
  - dmap_as m EM; cbn [fst snd s_undist s_cam s_lists s_map]; rewrite ?EU; splits; auto.
    intros [I|(_&I)]; [exact I|congruence].
  - dmap_as m EM; cbn [fst snd s_undist s_cam s_lists s_map]; rewrite ?EU; splits; auto.
Qed.
Lemma quiet_inv z hide v s : quiet z hide v -> inv_u s -> inv_m s z hide -> inv_u (step s v) /\ inv_m (step s v) z hide.
Proof.
  intros Q IU IM. destruct v as [im e sc z' skip hide'|im e sc skip|c|n e]; try contradiction; cbn [step].
  - destruct Q as (-> & ->). unfold getTopViewOfImage. destruct (negb skip && _)%bool; [auto|].
    pose proof (map_inv s e sc z hide) as (K&K1&K2&K3). destruct (getMap s e sc z hide) as (s'&m). cbn [fst snd] in *.
    split; [|auto]. unfold inv_u in *. rewrite K3, K1. destruct (s_undist s) as [c|]; auto. destruct c as [m0 r0 k0]. cbn in *.
    destruct r0; cbn in *; rewrite ?K2; auto.
  - unfold undistortImage. destruct (negb skip && _)%bool; [auto|].
    pose proof (undist_inv s e sc IU) as (K&K1&K2&K3). destruct (getUndistortMap s e sc) as (s'&m). cbn [fst snd] in *.
    split; [auto|]. unfold inv_m in *. rewrite K3, K1. destruct (s_map s) as [c|]; auto. destruct c as [m0 r0 k0]. cbn in *.
    destruct r0; cbn in *; rewrite ?K2; auto.
Qed.
Lemma quiet_all z hide evs : Forall (quiet z hide) evs -> forall s, inv_u s -> inv_m s z hide ->
  inv_u (fold_left step evs s) /\ inv_m (fold_left step evs s) z hide.
Proof.
  induction 1 as [|v evs Q _ IH]; intros s IU IM; [auto|]. cbn [fold_left]. destruct (quiet_inv z hide v s Q IU IM). auto.
Qed.
Lemma undist_image_fresh s im e sc skip : inv_u s -> snd (undistortImage s im e sc skip) = snd (undistortImage (forget s) im e sc skip).
Proof.
  intros I. pose proof (undist_fresh s e sc I) as E. unfold undistortImage. cbn [s_cam forget]. destruct (negb skip && _)%bool; [reflexivity|].
  destruct (getUndistortMap s e sc), (getUndistortMap (forget s) e sc). cbn [snd] in *. rewrite E. reflexivity.
Qed.
Lemma top_image_fresh s im e sc z skip hide : inv_m s z hide \/ sc = None ->
  snd (getTopViewOfImage s im e sc z skip hide) = snd (getTopViewOfImage (forget s) im e sc z skip hide).
Proof.
  intros I. pose proof (map_fresh s e sc z hide I) as E. unfold getTopViewOfImage. cbn [s_cam forget]. destruct (negb skip && _)%bool; [reflexivity|].
  destruct (getMap s e sc z hide), (getMap (forget s) e sc z hide). cbn [snd] in *. rewrite E. reflexivity.
Qed.

(** ** C42 *)
(** A camera that has rendered nothing yet, any number of calls with the same height and treatment of points
    behind the camera (with any images, extents and scalings, in any order), no change in between: every further
    image is the one a camera without cached maps would give. *)
Theorem C42_unchanged : forall s0 evs z hide, s_map s0 = None -> s_undist s0 = None -> Forall (quiet z hide) evs ->
  let s := fold_left step evs s0 in
  (forall im e sc skip, snd (undistortImage s im e sc skip) = snd (undistortImage (forget s) im e sc skip)) /\
  (forall im e sc skip, snd (getTopViewOfImage s im e sc z skip hide) = snd (getTopViewOfImage (forget s) im e sc z skip hide)).
Proof.
  intros s0 evs z hide M U Q s.
  destruct (quiet_all z hide evs Q s0) as (IU&IM); [unfold inv_u; rewrite U; exact I|unfold inv_m; rewrite M; exact I|].
  split; intros; [apply undist_image_fresh|apply top_image_fresh]; auto.
Qed.
Print Assumptions C42_unchanged.
(** Without a scaling the map of the top view is always computed anew, after any history. *)
Theorem C42_default_scaling : forall s0 evs im e z skip hide, let s := fold_left step evs s0 in
  snd (getTopViewOfImage s im e None z skip hide) = snd (getTopViewOfImage (forget s) im e None z skip hide).
Proof. intros. apply top_image_fresh. auto. Qed.
Print Assumptions C42_default_scaling.
(** Such a call also repairs the cache: after it, and any unchanged calls, the top view is right again. *)
Theorem C42_repaired : forall s0 before after im0 e0 skip0 z hide,
  let s1 := fold_left step before s0 in
  snd (getTopViewOfImage s1 im0 e0 None z skip0 hide) <> None -> Forall (quiet z hide) after ->
  let s := fold_left step after (fst (getTopViewOfImage s1 im0 e0 None z skip0 hide)) in
  forall im e sc skip, snd (getTopViewOfImage s im e sc z skip hide) = snd (getTopViewOfImage (forget s) im e sc z skip hide).
Proof.
  intros s0 before after im0 e0 skip0 z hide s1 HS Q s im e sc skip. apply top_image_fresh. left.
  set (s2 := fst (getTopViewOfImage s1 im0 e0 None z skip0 hide)) in *.
  assert (IM : inv_m s2 z hide).
  { unfold s2 in *. clear s2 s Q. unfold getTopViewOfImage in *. destruct (negb skip0 && _)%bool; [contradiction HS; reflexivity|].
    pose proof (map_inv s1 e0 None z hide) as (K&_). destruct (getMap s1 e0 None z hide) as (s'&m). cbn [fst snd] in *.
    apply K. right. split; auto. intros ->. apply HS. reflexivity. }
  clear HS. unfold s. clear s. clearbody s2. revert s2 IM. induction Q as [|v after Qv Q IH]; intros s2 IM; [exact IM|]. cbn [fold_left]. apply IH.
  destruct v as [im' e' sc' z' skip' hide'|im' e' sc' skip'|c|n e']; try contradiction; cbn [step].
  - destruct Qv as (-> & ->). unfold getTopViewOfImage. destruct (negb skip' && _)%bool; [auto|].
    pose proof (map_inv s2 e' sc' z hide) as (K&_). destruct (getMap s2 e' sc' z hide) as (s'&m). cbn [fst snd] in *. auto.
  - unfold undistortImage. destruct (negb skip' && _)%bool; [auto|].
    assert (K : s_cam (fst (getUndistortMap s2 e' sc')) = s_cam s2 /\ s_lists (fst (getUndistortMap s2 e' sc')) = s_lists s2 /\ s_map (fst (getUndistortMap s2 e' sc')) = s_map s2).
    { unfold getUndistortMap. cbv zeta. destruct (s_undist s2) as [c|]; [match goal with |- context [if ?b then _ else _] => destruct b end|];
        try dmap; auto. }
    destruct K as (K1&K2&K3). destruct (getUndistortMap s2 e' sc') as (s'&m). cbn [fst snd] in *.
    unfold inv_m in *. rewrite K3, K1. destruct (s_map s2) as [c|]; auto. destruct c as [m0 r0 k0]. cbn in *.
    destruct r0; cbn in *; rewrite ?K2; auto.
Qed.
Print Assumptions C42_repaired.

(** ** Facts about rendering *)
Lemma mesh_rows f xs ys : mesh_map f xs ys = rev (map (fun y => map (fun x => f (V2 x y)) xs) ys).
Proof.
  unfold mesh_map. f_equal.
  replace (map f (concat (map (fun y => map (fun x => V2 x y) xs) ys))) with (flat_map (fun y => map (fun x => f (V2 x y)) xs) ys).
  2: { rewrite concat_map, map_map, flat_map_concat_map. f_equal. apply map_ext. intros y. rewrite map_map. reflexivity. }
  apply reshape_map. intros y _. apply map_length.
Qed.
Lemma remap_mesh im f xs ys : ys <> [] -> let r := remap im (mesh_map f xs ys) in
  im_h r = length ys /\ im_w r = length xs /\ im_ch r = im_ch im /\
  forall i j, (i < length ys)%nat -> (j < length xs)%nat -> im_px r i j = pick im (f (V2 (nth j xs NaN) (nth (length ys - 1 - i) ys NaN))).
Proof.
  intros NE. rewrite mesh_rows. unfold remap. cbv zeta. cbn [im_h im_w im_ch im_px].
  set (row := fun y => map (fun x => f (V2 x y)) xs).
  assert (R : forall i, (i < length ys)%nat -> nth i (rev (map row ys)) [] = row (nth (length ys - 1 - i) ys NaN)).
  { intros i I. rewrite rev_nth by (rewrite map_length; auto). rewrite map_length.
    rewrite (nth_indep _ [] (row NaN)) by (rewrite map_length; lia). rewrite map_nth. f_equal. f_equal. lia. }
  assert (LP : (0 < length ys)%nat) by (destruct ys; [contradiction|cbn; lia]).
  splits; auto.
  - rewrite rev_length, map_length. reflexivity.
  - rewrite R by auto. unfold row. apply map_length.
  - intros i j I J. rewrite R by auto. unfold row.
    rewrite (nth_indep _ (V2 NaN NaN) (f (V2 NaN (nth (length ys - 1 - i) ys NaN)))) by (rewrite map_length; auto).
    rewrite (map_nth (fun x => f (V2 x (nth (length ys - 1 - i) ys NaN)))). reflexivity.
Qed.
Lemma arange_pos x y s X Y k : rep x X -> rep y Y -> rep s k -> 0 < k -> X < Y ->
  exists n, arange x y s = Some (map (fun i => Fin (X + INR i * k)) (seq 0 n)) /\ (0 < n)%nat /\ (INR n - 1) * k < Y - X <= INR n * k.
Proof.
  intros HX HY HS PK L. unfold arange. unfold rep in *. rewrite HX, HY, HS. rewrite Reqb_false by lra.
  destruct (ceil_bounds ((Y - X) / k)) as (N&B). { apply Rdiv_lt_0_compat; lra. }
  eexists. split; [reflexivity|]. split; [exact N|]. revert B. generalize (INR (Z.to_nat (- Rfloor (- ((Y - X) / k))))). intros q B.
  assert (E : Y - X = (Y - X) / k * k) by (field; lra). revert E B. generalize ((Y - X) / k). intros t E B. rewrite E.
  split; [apply Rmult_lt_compat_r|apply Rmult_le_compat_r]; lra.
Qed.
Lemma nth_arange X k n i : (i < n)%nat -> nth i (map (fun i => Fin (X + INR i * k)) (seq 0 n)) NaN = Fin (X + INR i * k).
Proof.
  intros I. rewrite (nth_indep _ NaN ((fun i => Fin (X + INR i * k)) 0%nat)) by (rewrite map_length, seq_length; auto).
  rewrite (map_nth (fun i => Fin (X + INR i * k))). rewrite seq_nth by auto. reflexivity.
Qed.
Lemma alpha_border im : border_value (im_ch (with_alpha im)) = blank im.
Proof.
  unfold with_alpha, blank, border_value. destruct (im_ch im) as [[|[|[|[|n]]]]|] eqn:E; cbn [im_ch]; rewrite ?E; cbn [firstn]; rewrite ?firstn_nil; reflexivity.
Qed.
Lemma alpha_px im i j : im_px (with_alpha im) i j = opaque im (im_px im i j).
Proof. unfold with_alpha, opaque. destruct (im_ch im) as [[|[|[|[|n]]]]|]; reflexivity. Qed.
Lemma alpha_size im : im_h (with_alpha im) = im_h im /\ im_w (with_alpha im) = im_w im /\ im_ch (with_alpha im) = channels im.
Proof. unfold with_alpha, channels. destruct (im_ch im) as [[|[|[|[|n]]]]|] eqn:E; cbn; auto. Qed.
Lemma pick_near im q Q (u v : Z) : rep2 q Q -> - / 2 < c1 Q - IZR u < / 2 -> - / 2 < c2 Q - IZR v < / 2 -> pick (with_alpha im) q = at_px im v u.
Proof.
  intros (HX&HY) BU BV. unfold pick. unfold rep in HX, HY. rewrite HX, HY.
  rewrite (floor_is (c1 Q + / 2) u) by lra. rewrite (floor_is (c2 Q + / 2) v) by lra. rewrite alpha_border, alpha_px.
  destruct (alpha_size im) as (-> & -> & _). reflexivity.
Qed.
Lemma pick_nan im q : ~ (exists Q, rep2 q Q) -> pick (with_alpha im) q = blank im.
Proof.
  intros N. unfold pick. destruct (toR (c1 q)) as [x|] eqn:EX; [destruct (toR (c2 q)) as [y|] eqn:EY|]; try apply alpha_border.
  contradiction N. exists (V2 x y). split; assumption.
Qed.
Lemma size_ok_spec c im W H : rep (im_width (cam_proj c)) W -> rep (im_height (cam_proj c)) H ->
  size_ok c im = true <-> W = INR (im_w im) /\ H = INR (im_h im).
Proof.
  intros HW HH. unfold size_ok, nn. rewrite (rep_eqb _ _ _ _ (rep_Fin _) HW), (rep_eqb _ _ _ _ (rep_Fin _) HH).
  rewrite andb_true_iff, !Reqb_iff. split; intros (A&B); split; auto.
Qed.

(** ** C43 *)
(** An image of another size than the camera's is rejected unless the check is skipped; the check decides nothing
    else. *)
Theorem C43_size : forall s im W H, rep (im_width (cam_proj (s_cam s))) W -> rep (im_height (cam_proj (s_cam s))) H ->
  let fits := W = INR (im_w im) /\ H = INR (im_h im) in
  (forall e sc, (fits -> undistortImage s im e sc false = undistortImage s im e sc true) /\ (~ fits -> undistortImage s im e sc false = (s, None))) /\
  (forall e sc z hide, (fits -> getTopViewOfImage s im e sc z false hide = getTopViewOfImage s im e sc z true hide) /\
     (~ fits -> getTopViewOfImage s im e sc z false hide = (s, None))).
Proof.
  intros s im W H HW HH fits. pose proof (size_ok_spec _ im W H HW HH) as K.
  unfold undistortImage, getTopViewOfImage. destruct (size_ok (s_cam s) im) eqn:E; cbn [negb andb]; split; intros; split; intros F; auto;
    try (contradiction F; apply K; reflexivity); apply K in F; discriminate.
Qed.
Print Assumptions C43_size.
(** Without distortion: every k-th pixel of the rows c, ..., d - 1 and columns a, ..., b - 1, in their order, also
    when this reaches beyond the image.  For k = 1 this is the crop. *)
Theorem C43_crop : forall s im n sc (a b c d k : Z), s_undist s = None -> (forall q, cam_dist (s_cam s) q = q) ->
  let x := s_lists s n in
  rep (e_x0 x) (IZR a) -> rep (e_x1 x) (IZR b) -> rep (e_y0 x) (IZR c) -> rep (e_y1 x) (IZR d) -> rep sc (IZR k) ->
  (a < b)%Z -> (c < d)%Z -> (0 < k)%Z ->
  exists im', snd (undistortImage s im (Some n) (Some sc) true) = Some im' /\ im_ch im' = channels im /\
    (forall i, (i < im_h im')%nat <-> (c + k * Z.of_nat i < d)%Z) /\ (forall j, (j < im_w im')%nat <-> (a + k * Z.of_nat j < b)%Z) /\
    forall i j, (i < im_h im')%nat -> (j < im_w im')%nat -> im_px im' i j = at_px im (c + k * Z.of_nat i) (a + k * Z.of_nat j).
Proof.
  intros s im n sc a b c d k HU HD x HA HB HC HE HK LX LY PK.
  apply IZR_lt in LX, LY, PK.
  destruct (arange_pos _ _ _ _ _ _ HA HB HK PK LX) as (nx&EX&NX&BX). destruct (arange_pos _ _ _ _ _ _ HC HE HK PK LY) as (ny&EY&NY&BY).
  set (xs := map (fun i => Fin (IZR a + INR i * IZR k)) (seq 0 nx)) in *. set (ys := map (fun i => Fin (IZR c + INR i * IZR k)) (seq 0 ny)) in *.
  assert (LXS : length xs = nx) by (unfold xs; rewrite map_length, seq_length; reflexivity).
  assert (LYS : length ys = ny) by (unfold ys; rewrite map_length, seq_length; reflexivity).
  assert (NE : ys <> []) by (intros E; rewrite E in LYS; cbn in LYS; lia).
  destruct (remap_mesh (with_alpha im) (cam_dist (s_cam s)) xs ys NE) as (RH&RW&RC&RP).
  exists (flip (remap (with_alpha im) (mesh_map (cam_dist (s_cam s)) xs ys))).
  assert (CNT : forall lo hi m, (INR m - 1) * IZR k < IZR hi - IZR lo <= INR m * IZR k -> forall i, (i < m)%nat <-> (lo + k * Z.of_nat i < hi)%Z).
  { intros lo hi m (B1&B2) i. split; intros HI.
    - apply lt_IZR. rewrite plus_IZR, mult_IZR, <- INR_IZR_INZ. assert (INR i + 1 <= INR m). { rewrite <- S_INR. apply le_INR. lia. } nra.
    - apply IZR_lt in HI. rewrite plus_IZR, mult_IZR, <- INR_IZR_INZ in HI. apply INR_lt. nra. }
  split.
  { unfold undistortImage. cbn [negb andb]. unfold getUndistortMap. rewrite HU. cbn [contents]. fold x. unfold map_over. rewrite EX, EY. reflexivity. }
  unfold flip. cbn [im_ch im_h im_w im_px]. rewrite RH, RW, RC, LXS, LYS. destruct (alpha_size im) as (_&_&AC).
  splits; auto.
  intros i j I J. rewrite RP by (rewrite ?LXS, ?LYS; lia). rewrite HD.
  apply (pick_near im _ (V2 (IZR (a + k * Z.of_nat j)) (IZR (c + k * Z.of_nat i)))); cbn [c1 c2]; [|lra|lra].
  rewrite !plus_IZR, !mult_IZR, <- !INR_IZR_INZ.
  replace (length ys - 1 - (ny - 1 - i))%nat with i by lia. unfold xs, ys. rewrite !nth_arange by auto.
  split; cbn [c1 c2]; apply (rep_eq _ _ _ (rep_Fin _)); lra.
Qed.
Print Assumptions C43_crop.
Theorem C43_identity : forall s im, s_undist s = None -> (forall q, cam_dist (s_cam s) q = q) ->
  rep (im_width (cam_proj (s_cam s))) (INR (im_w im)) -> rep (im_height (cam_proj (s_cam s))) (INR (im_h im)) ->
  (0 < im_w im)%nat -> (0 < im_h im)%nat ->
  exists im', snd (undistortImage s im None None false) = Some im' /\ im_ch im' = channels im /\ im_h im' = im_h im /\ im_w im' = im_w im /\
    forall i j, (i < im_h im)%nat -> (j < im_w im)%nat -> im_px im' i j = opaque im (im_px im i j).
Proof.
  intros s im HU HD HW HH PW PH.
  (* the same with a list of the caller *)
  set (e := Ext (Fin 0) (im_width (cam_proj (s_cam s))) (Fin 0) (im_height (cam_proj (s_cam s)))).
  set (s' := State (s_cam s) (fun _ => e) (s_map s) (s_undist s)).
  destruct (C43_crop s' im 0%nat (Fin 1) 0 (Z.of_nat (im_w im)) 0 (Z.of_nat (im_h im)) 1) as (im'&E&EC&EH&EW&EP); auto; try reflexivity; try lia.
  { cbn [s' s_lists e e_x1]. rewrite <- INR_IZR_INZ. exact HW. }
  { cbn [s' s_lists e e_y1]. rewrite <- INR_IZR_INZ. exact HH. }
  exists im'. destruct (C43_size s im _ _ HW HH) as (K&_). destruct (K None None) as (K1&_). rewrite K1 by auto.
  assert (H1 : im_h im' = im_h im).
  { pose proof (EH (im_h im)). pose proof (EH (im_h im - 1)%nat). lia. }
  assert (W1 : im_w im' = im_w im).
  { pose proof (EW (im_w im)). pose proof (EW (im_w im - 1)%nat). lia. }
  splits; auto.
  - rewrite <- E. unfold undistortImage, getUndistortMap. cbn [negb andb s' s_cam s_undist]. rewrite HU. cbn [contents s_lists]. fold e.
    change (s_lists s' 0) with e. dmap; reflexivity.
  - intros i j I J. rewrite EP by lia. rewrite !Z.add_0_l, !Z.mul_1_l. unfold at_px.
    assert (B : ((0 <=? Z.of_nat j) && (Z.of_nat j <? Z.of_nat (im_w im)) && (0 <=? Z.of_nat i) && (Z.of_nat i <? Z.of_nat (im_h im)))%bool%Z = true).
    { rewrite !andb_true_iff, !Z.leb_le, !Z.ltb_lt. lia. }
    rewrite B, !Nat2Z.id. reflexivity.
Qed.
Print Assumptions C43_identity.
(** Any lens: row i, column j shows the image at the distorted position of x = x_min + j scaling,
    y = y_min + i scaling. *)
Definition shows (im : image) (q : v2 num) (px : list num) : Prop :=
  (forall Q (u v : Z), rep2 q Q -> - / 2 < c1 Q - IZR u < / 2 -> - / 2 < c2 Q - IZR v < / 2 -> px = at_px im v u) /\
  (~ (exists Q, rep2 q Q) -> px = blank im).
Theorem C43_undistorted : forall s im n sc X0 X1 Y0 Y1 k, s_undist s = None -> let x := s_lists s n in
  rep (e_x0 x) X0 -> rep (e_x1 x) X1 -> rep (e_y0 x) Y0 -> rep (e_y1 x) Y1 -> rep sc k -> X0 < X1 -> Y0 < Y1 -> 0 < k ->
  exists im', snd (undistortImage s im (Some n) (Some sc) true) = Some im' /\ im_ch im' = channels im /\
    (INR (im_w im') - 1) * k < X1 - X0 <= INR (im_w im') * k /\ (INR (im_h im') - 1) * k < Y1 - Y0 <= INR (im_h im') * k /\
    forall i j, (i < im_h im')%nat -> (j < im_w im')%nat ->
      shows im (cam_dist (s_cam s) (V2 (Fin (X0 + INR j * k)) (Fin (Y0 + INR i * k)))) (im_px im' i j).
Proof.
  intros s im n sc X0 X1 Y0 Y1 k HU x HA HB HC HE HK LX LY PK.
  destruct (arange_pos _ _ _ _ _ _ HA HB HK PK LX) as (nx&EX&NX&BX). destruct (arange_pos _ _ _ _ _ _ HC HE HK PK LY) as (ny&EY&NY&BY).
  set (xs := map (fun i => Fin (X0 + INR i * k)) (seq 0 nx)) in *. set (ys := map (fun i => Fin (Y0 + INR i * k)) (seq 0 ny)) in *.
  assert (LXS : length xs = nx) by (unfold xs; rewrite map_length, seq_length; reflexivity).
  assert (LYS : length ys = ny) by (unfold ys; rewrite map_length, seq_length; reflexivity).
  assert (NE : ys <> []) by (intros E; rewrite E in LYS; cbn in LYS; lia).
  destruct (remap_mesh (with_alpha im) (cam_dist (s_cam s)) xs ys NE) as (RH&RW&RC&RP).
  exists (flip (remap (with_alpha im) (mesh_map (cam_dist (s_cam s)) xs ys))).
  split.
  { unfold undistortImage. cbn [negb andb]. unfold getUndistortMap. rewrite HU. cbn [contents]. fold x. unfold map_over. rewrite EX, EY. reflexivity. }
  unfold flip. cbn [im_ch im_h im_w im_px]. rewrite RH, RW, RC, LXS, LYS. destruct (alpha_size im) as (_&_&AC). splits; auto; try lra.
  intros i j I J. rewrite RP by (rewrite ?LXS, ?LYS; lia). rewrite LYS. replace (ny - 1 - (ny - 1 - i))%nat with i by lia.
  unfold xs, ys. rewrite !nth_arange by lia. split.
  - intros Q u v HQ BU BV. apply (pick_near im _ Q u v HQ BU BV).
  - apply pick_nan.
Qed.
Print Assumptions C43_undistorted.
(** The top view: row i, column j shows where the image has the space point with x = x_min + j scaling and
    y = y_min + (rows - 1 - i) scaling (so that the first row has the largest y); blank where the point is not
    in the image or has no position in it. *)
Theorem C43_top_view : forall s im n sc z hide X0 X1 Y0 Y1 k Z, s_map s = None -> let x := s_lists s n in
  rep (e_x0 x) X0 -> rep (e_x1 x) X1 -> rep (e_y0 x) Y0 -> rep (e_y1 x) Y1 -> rep sc k -> rep z Z -> X0 < X1 -> Y0 < Y1 -> 0 < k ->
  exists im', snd (getTopViewOfImage s im (Some n) (Some sc) z true hide) = Some im' /\ im_ch im' = channels im /\
    (INR (im_w im') - 1) * k < X1 - X0 <= INR (im_w im') * k /\ (INR (im_h im') - 1) * k < Y1 - Y0 <= INR (im_h im') * k /\
    forall i j, (i < im_h im')%nat -> (j < im_w im')%nat ->
      exists p, rep3 p (V3 (X0 + INR j * k) (Y0 + INR (im_h im' - 1 - i) * k) Z) /\ shows im (imageFromSpace (s_cam s) p hide) (im_px im' i j).
Proof.
  intros s im n sc z hide X0 X1 Y0 Y1 k Z HM x HA HB HC HE HK HZ LX LY PK.
  destruct (arange_pos _ _ _ _ _ _ HA HB HK PK LX) as (nx&EX&NX&BX). destruct (arange_pos _ _ _ _ _ _ HC HE HK PK LY) as (ny&EY&NY&BY).
  set (xs := map (fun i => Fin (X0 + INR i * k)) (seq 0 nx)) in *. set (ys := map (fun i => Fin (Y0 + INR i * k)) (seq 0 ny)) in *.
  assert (LXS : length xs = nx) by (unfold xs; rewrite map_length, seq_length; reflexivity).
  assert (LYS : length ys = ny) by (unfold ys; rewrite map_length, seq_length; reflexivity).
  assert (NE : ys <> []) by (intros E; rewrite E in LYS; cbn in LYS; lia).
  destruct (remap_mesh (with_alpha im) (top_f (s_cam s) z hide) xs ys NE) as (RH&RW&RC&RP).
  exists (remap (with_alpha im) (mesh_map (top_f (s_cam s) z hide) xs ys)).
  split.
  { unfold getTopViewOfImage. cbn [negb andb]. unfold getMap. rewrite HM. cbn [contents]. fold x. unfold map_over. rewrite EX, EY. reflexivity. }
  rewrite RH, RW, RC, LXS, LYS. destruct (alpha_size im) as (_&_&AC). splits; auto; try lra.
  intros i j I J. rewrite RP by (rewrite ?LXS, ?LYS; lia). rewrite LYS. unfold xs, ys. rewrite !nth_arange by lia.
  exists (V3 (Fin (X0 + INR j * k)) (Fin (Y0 + INR (ny - 1 - i) * k)) (z * Fin 1)%num). split.
  - unfold rep3. splits; cbn [cx cy cz]; try apply rep_Fin. eapply rep_eq; [apply rep_mul; [exact HZ|apply rep_Fin]|]. lra.
  - unfold top_f. cbn [c1 c2]. split.
    + intros Q u v HQ BU BV. apply (pick_near im _ Q u v HQ BU BV).
    + apply pick_nan.
Qed.
Print Assumptions C43_top_view.

(** Without an extent: the width and height of the image in pixels are taken for metres. *)
Lemma fold_low t : forall a A T, rep a A -> Forall2 rep t T ->
  exists M, rep (fold_left (fun m x => if nltb x m then x else m) t a) M /\ In M (A :: T) /\ (forall X, In X (A :: T) -> M <= X).
Proof.
  induction t as [|b t IH]; intros a A T HA F; inversion F as [|? B ? T' HB F']; subst; cbn [fold_left].
  - exists A. splits; auto; [left; auto|]. intros X [-> | []]; lra.
  - rewrite (rep_ltb _ _ _ _ HB HA). destruct (Rltb B A) eqn:E.
    + apply Rltb_iff in E. destruct (IH b B T' HB F') as (M&HM&IM&LM). exists M. splits; auto; [right; auto|].
      intros X [<- | I]; [|auto]. specialize (LM B (or_introl eq_refl)). lra.
    + assert (A <= B). { destruct (Rlt_le_dec B A) as [L|L]; auto. apply Rltb_iff in L. congruence. }
      destruct (IH a A T' HA F') as (M&HM&IM&LM). exists M. splits; auto.
      * destruct IM as [I|I]; [left|right; right]; auto.
      * intros X [<- | [<- | I]]; [apply LM; left; auto| |apply LM; right; auto]. specialize (LM A (or_introl eq_refl)). lra.
Qed.
Lemma fold_high t : forall a A T, rep a A -> Forall2 rep t T ->
  exists M, rep (fold_left (fun m x => if nltb m x then x else m) t a) M /\ In M (A :: T) /\ (forall X, In X (A :: T) -> X <= M).
Proof.
  induction t as [|b t IH]; intros a A T HA F; inversion F as [|? B ? T' HB F']; subst; cbn [fold_left].
  - exists A. splits; auto; [left; auto|]. intros X [-> | []]; lra.
  - rewrite (rep_ltb _ _ _ _ HA HB). destruct (Rltb A B) eqn:E.
    + apply Rltb_iff in E. destruct (IH b B T' HB F') as (M&HM&IM&LM). exists M. splits; auto; [right; auto|].
      intros X [<- | I]; [|auto]. specialize (LM B (or_introl eq_refl)). lra.
    + assert (B <= A). { destruct (Rlt_le_dec A B) as [L|L]; auto. apply Rltb_iff in L. congruence. }
      destruct (IH a A T' HA F') as (M&HM&IM&LM). exists M. splits; auto.
      * destruct IM as [I|I]; [left|right; right]; auto.
      * intros X [<- | [<- | I]]; [apply LM; left; auto| |apply LM; right; auto]. specialize (LM A (or_introl eq_refl)). lra.
Qed.
Lemma guessed w h W H : rep w W -> rep h H -> 0 < W -> 0 < H ->
  exists e, guessed_extent w h = Some e /\ rep (e_x0 e) 0 /\ rep (e_x1 e) W /\ rep (e_y0 e) 0 /\ rep (e_y1 e) H.
Proof.
  intros HW HH PW PH. destruct (C51_border w h (Fin 1) W H 1 HW HH (rep_Fin 1) PW PH Rlt_0_1) as (b&S&E&F&_&_&_&_&OB&CO).
  unfold guessed_extent. rewrite E. set (P := map (walk W H) S) in *.
  assert (F1 : Forall2 rep (map c1 b) (map c1 P)) by (clear - F; induction F as [|? ? ? ? (X&Y) F IH]; constructor; auto).
  assert (F2 : Forall2 rep (map c2 b) (map c2 P)) by (clear - F; induction F as [|? ? ? ? (X&Y) F IH]; constructor; auto).
  assert (LO : forall l L lo, Forall2 rep l L -> In lo L -> (forall x, In x L -> lo <= x) -> exists m, lowest l = Some m /\ rep m lo).
  { intros l L lo FL IL LL. inversion FL as [|a A t T HA FT]; subst; [contradiction|]. cbn [lowest].
    destruct (fold_low t a A T HA FT) as (M&HM&IM&LM). eexists. split; [reflexivity|]. eapply rep_eq; [exact HM|].
    apply Rle_antisym; auto. }
  assert (HI : forall l L hi, Forall2 rep l L -> In hi L -> (forall x, In x L -> x <= hi) -> exists m, highest l = Some m /\ rep m hi).
  { intros l L hi FL IL LL. inversion FL as [|a A t T HA FT]; subst; [contradiction|]. cbn [highest].
    destruct (fold_high t a A T HA FT) as (M&HM&IM&LM). eexists. split; [reflexivity|]. eapply rep_eq; [exact HM|].
    apply Rle_antisym; auto. }
  rewrite Forall_forall in OB.
  assert (I0 : In (V2 0 0) P) by (apply CO; cbn; auto). assert (I1 : In (V2 W H) P) by (apply CO; cbn; auto).
  destruct (LO (map c1 b) (map c1 P) 0 F1) as (x0&E0&R0). { exact (in_map c1 _ _ I0). }
  { intros x I. apply in_map_iff in I. destruct I as (p&<-&I). apply OB in I. destruct I; lra. }
  destruct (HI (map c1 b) (map c1 P) W F1) as (x1&E1&R1). { exact (in_map c1 _ _ I1). }
  { intros x I. apply in_map_iff in I. destruct I as (p&<-&I). apply OB in I. destruct I; lra. }
  destruct (LO (map c2 b) (map c2 P) 0 F2) as (y0&E2&R2). { exact (in_map c2 _ _ I0). }
  { intros x I. apply in_map_iff in I. destruct I as (p&<-&I). apply OB in I. destruct I as (_&I&_); lra. }
  destruct (HI (map c2 b) (map c2 P) H F2) as (y1&E3&R3). { exact (in_map c2 _ _ I1). }
  { intros x I. apply in_map_iff in I. destruct I as (p&<-&I). apply OB in I. destruct I as (_&I&_); lra. }
  rewrite E0, E1, E2, E3. eexists. split; [reflexivity|]. splits; assumption.
Qed.
Theorem C43_guessed_extent : forall s im sc z skip hide W H, rep (im_width (cam_proj (s_cam s))) W -> rep (im_height (cam_proj (s_cam s))) H -> 0 < W -> 0 < H ->
  exists e, rep (e_x0 e) 0 /\ rep (e_x1 e) W /\ rep (e_y0 e) 0 /\ rep (e_y1 e) H /\
    forall n, s_lists s n = e -> snd (getTopViewOfImage s im None sc z skip hide) = snd (getTopViewOfImage s im (Some n) sc z skip hide).
Proof.
  intros s im sc z skip hide W H HW HH PW PH. destruct (guessed _ _ W H HW HH PW PH) as (e&E&R).
  exists e. splits; try apply R. intros n EN. unfold getTopViewOfImage. destruct (negb skip && _)%bool; [reflexivity|].
  unfold getMap. rewrite E. cbn [option_map contents]. rewrite EN.
  destruct (s_map s) as [c|]; [destruct sc as [v|]|]; try (match goal with |- context [if ?b then _ else _] => destruct b end); try dmap; reflexivity.
Qed.
Print Assumptions C43_guessed_extent.

(** ** Where the cached maps are outdated *)
Lemma stale s0 im n sc z hide im0 : s_map s0 = None -> snd (getTopViewOfImage s0 im (Some n) (Some sc) z true hide) = Some im0 ->
  neqb sc sc = true -> forall s2 z' hide', s_map s2 = s_map (fst (getTopViewOfImage s0 im (Some n) (Some sc) z true hide)) ->
  ext_eq (s_lists s2 n) (s_lists s2 n) = true ->
  snd (getTopViewOfImage s2 im (Some n) (Some sc) z' true hide') = Some im0.
Proof.
  intros HM. unfold getTopViewOfImage. cbn [negb andb]. unfold getMap. rewrite HM. cbn [contents].
  intros E NS s2 z' hide' EM EE. revert E EM. dmap; [|discriminate]. cbn [fst snd s_map option_map]. intros E EM. rewrite EM. cbn [c_extent contents c_scaling].
  rewrite EE, NS. exact E.
Qed.
Definition gray : image := Image 3000 4000 None (fun _ _ => [Fin 7]).
Definition spot (b : R) : extent := Ext (Fin 0) (Fin 1) (Fin b) (Fin (b + 1)).
Lemma spot_eq b : ext_eq (spot b) (spot b) = true.
Proof. unfold ext_eq, spot; cbn [e_x0 e_x1 e_y0 e_y1]. rewrite !(rep_eqb _ _ _ _ (rep_Fin _) (rep_Fin _)), !Reqb_refl. reflexivity. Qed.
Lemma one_eq : neqb (Fin 1) (Fin 1) = true.
Proof. rewrite (rep_eqb _ _ _ _ (rep_Fin _) (rep_Fin _)), Reqb_refl. reflexivity. Qed.
(** one pixel of a top view *)
Lemma spot_view s n b z hide : s_map s = None -> s_lists s n = spot b ->
  exists im' p, snd (getTopViewOfImage s gray (Some n) (Some (Fin 1)) (Fin z) true hide) = Some im' /\ rep3 p (V3 0 b z) /\
    shows gray (imageFromSpace (s_cam s) p hide) (im_px im' 0 0).
Proof.
  intros HM HL.
  destruct (C43_top_view s gray n (Fin 1) (Fin z) hide 0 1 b (b + 1) 1 z HM) as (im'&E&_&BW&BH&K);
    try (rewrite HL; reflexivity); try reflexivity; try lra.
  assert (W1 : im_w im' = 1%nat).
  { destruct (im_w im') as [|[|k]]; auto; [simpl in BW; lra|]. rewrite !S_INR in BW. pose proof (pos_INR k). lra. }
  assert (H1 : im_h im' = 1%nat).
  { destruct (im_h im') as [|[|k]]; auto; [simpl in BH; lra|]. rewrite !S_INR in BH. pose proof (pos_INR k). lra. }
  destruct (K 0%nat 0%nat) as (p&HP&HS); [lia|lia|]. exists im', p. splits; auto. rewrite H1 in HP. cbn [Nat.sub INR] in HP.
  unfold rep3 in *. cbn [cx cy cz] in *. destruct HP as (X&Y&Z). splits; auto; [eapply rep_eq; [exact X|lra]|eapply rep_eq; [exact Y|lra]].
Qed.
Definition ahead : opar R := ex_or2.
Definition behind : opar R := OPar 10 90 0 180 0 0.
Lemma cam_behind : exists c, plain_cam c Rectilinear ex_r behind.
Proof.
  assert (H : rep_opar (opar_fin behind) behind) by (repeat split).
  destruct (init_rigid _ _ H) as (m&E&_).
  exists (plain_camera Rectilinear (proj_fin ex_r) m), (proj_fin ex_r), m. splits; auto.
  - repeat split.
  - split; cbn; lra.
  - exists (opar_fin behind). split; auto.
Qed.
Lemma behind_coords P : cam_coords behind P = V3 (- cx P) (cz P - 10) (cy P).
Proof.
  unfold cam_coords, camM; cbn [tilt_deg roll_deg heading_deg behind].
  replace (rad 90) with (PI / 2) by (unfold rad; field). replace (rad 0) with 0 by (unfold rad; ring). replace (rad 180) with PI by (unfold rad; field).
  apply v3_ext; cbv [rotm rm_mul_v rv_sub zip3v rdot opos pos_x_m pos_y_m elevation_m behind cx cy cz];
  rewrite ?sin_PI2, ?cos_PI2, ?sin_0, ?cos_0, ?sin_PI, ?cos_PI; ring.
Qed.
Lemma at_position c o p P hide px (u v : Z) : plain_cam c Rectilinear ex_r o -> rep3 p P ->
  let C := cam_coords o P in tinyR <= Rabs (cz C) -> (hide = true -> cz C < 0) ->
  - cx C * 3500 / cz C + 2000 = IZR u -> cy C * 3500 / cz C + 1500 = IZR v ->
  shows gray (imageFromSpace c p hide) px -> px = at_px gray v u.
Proof.
  intros HC HP C HB HV EU EV (S&_).
  destruct (plain_good _ _ _ _ HC) as (HG&HK&HDi&_). destruct HG as (Hpr&Hf&HR).
  pose proof (rect_image_value (cam_proj c) ex_r (cameraFromSpace (cam_o c) p) C hide Hpr (rigid_camera _ _ _ _ _ HR HP) HB HV) as HQ.
  apply (S (V2 (- cx C * f_x ex_r / cz C + center_x ex_r) (cy C * f_y ex_r / cz C + center_y ex_r)) u v).
  - unfold imageFromSpace. rewrite HDi, HK. exact HQ.
  - cbn [c1 f_x center_x ex_r]. rewrite EU. lra.
  - cbn [c2 f_y center_y ex_r]. rewrite EV. lra.
Qed.
Lemma at_nothing c o p P px : plain_cam c Rectilinear ex_r o -> rep3 p P -> 0 < cz (cam_coords o P) ->
  shows gray (imageFromSpace c p true) px -> px = [Fin 0].
Proof.
  intros HC HP HB (_&S). destruct (plain_good _ _ _ _ HC) as (HG&HK&HDi&_). destruct HG as (Hpr&Hf&HR).
  apply S. intros (Q&HQ). unfold imageFromSpace in HQ. rewrite HDi, HK in HQ. cbn [p_image] in HQ.
  destruct (proj1 (C06_rect_nan_iff (cam_proj c) ex_r _ _ true Hpr Hf (rigid_camera _ _ _ _ _ HR HP))) as (_&N).
  rewrite <- HK in *. specialize (N (or_introl (conj eq_refl HB))).
  destruct HQ as (HX&_). destruct N as (NX&_). rewrite NX in HX. discriminate.
Qed.

(** After a change of the camera, of the height Z, of hide_backpoints, or of an element of the caller's list, a
    second call with the same scaling returns the old picture. *)
Definition looking (c : camera) (b : R) : state := State c (fun _ => spot b) None None.
Lemma view_ahead c : plain_cam c Rectilinear ex_r ahead -> exists im',
  snd (getTopViewOfImage (looking c 20) gray (Some 0%nat) (Some (Fin 1)) (Fin 10) true true) = Some im' /\ im_px im' 0 0 = [Fin 7].
Proof.
  intros HC. destruct (spot_view (looking c 20) 0%nat 20 10 true) as (im'&p&E&HP&HS); try reflexivity. exists im'. split; auto.
  transitivity (at_px gray 1500 2000); [|vm_compute; reflexivity].
  apply (at_position c ahead p (V3 0 20 10) true _ 2000 1500 HC HP); auto; unfold ahead; rewrite ?ex2_coords; cbn [cx cy cz]; try lra.
  rewrite Rabs_left by lra. unfold tinyR. lra.
Qed.
Lemma top_keeps s im e sc z skip hide : let s' := step s (Top im e sc z skip hide) in s_cam s' = s_cam s /\ s_lists s' = s_lists s.
Proof.
  cbn [step]. unfold getTopViewOfImage. destruct (negb skip && _)%bool; [auto|]. pose proof (map_inv s e sc z hide) as (_&C&L&_).
  destruct (getMap s e sc z hide) as (t&m). cbn [fst] in *. auto.
Qed.
Theorem C42_camera_refuted : exists s0 c' im n sc z, s_map s0 = None /\
  let s1 := step s0 (Top im (Some n) (Some sc) z true true) in let s2 := step s1 (Change c') in
  snd (getTopViewOfImage s2 im (Some n) (Some sc) z true true) <> snd (getTopViewOfImage (forget s2) im (Some n) (Some sc) z true true).
Proof.
  destruct (ex_cam2 Rectilinear) as (c&HC). destruct cam_behind as (c'&HC').
  destruct (view_ahead c HC) as (im0&E0&P0).
  exists (looking c 20), c', gray, 0%nat, (Fin 1), (Fin 10). split; [reflexivity|]. cbv zeta.
  destruct (top_keeps (looking c 20) gray (Some 0%nat) (Some (Fin 1)) (Fin 10) true true) as (S1&S2). cbv zeta in S1, S2.
  set (s1 := step (looking c 20) _) in *. set (s2 := step s1 (Change c')).
  rewrite (stale (looking c 20) gray 0%nat (Fin 1) (Fin 10) true im0 eq_refl E0 one_eq s2); [|reflexivity|cbn [s2 step s_lists]; rewrite S2; apply spot_eq].
  destruct (spot_view (forget s2) 0%nat 20 10 true) as (im'&p&E&HP&HS); try reflexivity; [cbn [forget s2 step s_lists]; rewrite S2; reflexivity|]. rewrite E. intros X. injection X as X. subst im'.
  apply (at_nothing c' behind p _ _ HC' HP) in HS; [|rewrite behind_coords; cbn; lra]. rewrite P0 in HS. injection HS as HS. lra.
Qed.
Print Assumptions C42_camera_refuted.
Theorem C42_height_refuted : exists s0 z' im n sc z, s_map s0 = None /\
  let s1 := step s0 (Top im (Some n) (Some sc) z true true) in
  snd (getTopViewOfImage s1 im (Some n) (Some sc) z' true true) <> snd (getTopViewOfImage (forget s1) im (Some n) (Some sc) z' true true).
Proof.
  destruct (ex_cam2 Rectilinear) as (c&HC). destruct (view_ahead c HC) as (im0&E0&P0).
  exists (looking c 20), (Fin 110), gray, 0%nat, (Fin 1), (Fin 10). split; [reflexivity|]. cbv zeta.
  destruct (top_keeps (looking c 20) gray (Some 0%nat) (Some (Fin 1)) (Fin 10) true true) as (S1&S2). cbv zeta in S1, S2.
  set (s1 := step (looking c 20) _) in *.
  rewrite (stale (looking c 20) gray 0%nat (Fin 1) (Fin 10) true im0 eq_refl E0 one_eq s1); [|reflexivity|rewrite S2; apply spot_eq].
  destruct (spot_view (forget s1) 0%nat 20 110 true) as (im'&p&E&HP&HS); try reflexivity; [cbn [forget s_lists]; rewrite S2; reflexivity|].
  rewrite E. intros X. injection X as X. subst im'. cbn [forget s_cam] in HS. rewrite S1 in HS.
  apply (at_position c ahead p (V3 0 20 110) true _ 2000 (-16000) HC HP) in HS; unfold ahead; rewrite ?ex2_coords; cbn [cx cy cz]; try (intros; lra).
  - change (at_px gray (-16000) 2000) with [Fin 0] in HS. rewrite P0 in HS. injection HS as HS. lra.
  - rewrite Rabs_left by lra. unfold tinyR. lra.
  - field.
Qed.
Print Assumptions C42_height_refuted.
Theorem C42_hidden_refuted : exists s0 im n sc z, s_map s0 = None /\
  let s1 := step s0 (Top im (Some n) (Some sc) z true false) in
  snd (getTopViewOfImage s1 im (Some n) (Some sc) z true true) <> snd (getTopViewOfImage (forget s1) im (Some n) (Some sc) z true true).
Proof.
  destruct cam_behind as (c&HC).
  destruct (spot_view (looking c 20) 0%nat 20 10 false) as (im0&p0&E0&HP0&HS0); try reflexivity.
  apply (at_position c behind p0 (V3 0 20 10) false _ 2000 1500 HC HP0) in HS0; rewrite ?behind_coords; cbn [cx cy cz]; try lra; try discriminate.
  2: { rewrite Rabs_right by lra. unfold tinyR. lra. }
  exists (looking c 20), gray, 0%nat, (Fin 1), (Fin 10). split; [reflexivity|]. cbv zeta.
  destruct (top_keeps (looking c 20) gray (Some 0%nat) (Some (Fin 1)) (Fin 10) true false) as (S1&S2). cbv zeta in S1, S2.
  set (s1 := step (looking c 20) _) in *.
  rewrite (stale (looking c 20) gray 0%nat (Fin 1) (Fin 10) false im0 eq_refl E0 one_eq s1); [|reflexivity|rewrite S2; apply spot_eq].
  destruct (spot_view (forget s1) 0%nat 20 10 true) as (im'&p&E&HP&HS); try reflexivity; [cbn [forget s_lists]; rewrite S2; reflexivity|].
  rewrite E. intros X. injection X as X. subst im'. cbn [forget s_cam] in HS. rewrite S1 in HS.
  apply (at_nothing c behind p _ _ HC HP) in HS; [|rewrite behind_coords; cbn; lra].
  rewrite HS0 in HS. change (at_px gray 1500 2000) with [Fin 7] in HS. injection HS as HS. lra.
Qed.
Print Assumptions C42_hidden_refuted.
Theorem C42_list_refuted : exists s0 e' im n sc z, s_map s0 = None /\
  let s1 := step s0 (Top im (Some n) (Some sc) z true true) in let s2 := step s1 (Assign n e') in
  snd (getTopViewOfImage s2 im (Some n) (Some sc) z true true) <> snd (getTopViewOfImage (forget s2) im (Some n) (Some sc) z true true).
Proof.
  destruct (ex_cam2 Rectilinear) as (c&HC). destruct (view_ahead c HC) as (im0&E0&P0).
  exists (looking c 20), (spot (-20)), gray, 0%nat, (Fin 1), (Fin 10). split; [reflexivity|]. cbv zeta.
  destruct (top_keeps (looking c 20) gray (Some 0%nat) (Some (Fin 1)) (Fin 10) true true) as (S1&S2). cbv zeta in S1, S2.
  set (s1 := step (looking c 20) _) in *.
  set (s2 := step s1 _).
  rewrite (stale (looking c 20) gray 0%nat (Fin 1) (Fin 10) true im0 eq_refl E0 one_eq s2); [|reflexivity|apply (spot_eq (-20))].
  destruct (spot_view (forget s2) 0%nat (-20) 10 true) as (im'&p&E&HP&HS); try reflexivity.
  rewrite E. intros X. injection X as X. subst im'. cbn [forget s_cam s2 step] in HS. rewrite S1 in HS.
  apply (at_nothing c ahead p _ _ HC HP) in HS; [|unfold ahead; rewrite ex2_coords; cbn; lra]. rewrite P0 in HS. injection HS as HS. lra.
Qed.
Print Assumptions C42_list_refuted.

(** The same for undistortImage after a change of the lens. *)
Lemma spot_undist s n a b : s_undist s = None -> s_lists s n = Ext (Fin a) (Fin (a + 1)) (Fin b) (Fin (b + 1)) ->
  exists im', snd (undistortImage s gray (Some n) (Some (Fin 1)) true) = Some im' /\
    shows gray (cam_dist (s_cam s) (V2 (Fin a) (Fin b))) (im_px im' 0 0).
Proof.
  intros HM HL.
  destruct (C43_undistorted s gray n (Fin 1) a (a + 1) b (b + 1) 1 HM) as (im'&E&_&BW&BH&K);
    try (rewrite HL; reflexivity); try reflexivity; try lra.
  assert (W1 : im_w im' = 1%nat).
  { destruct (im_w im') as [|[|k]]; auto; [simpl in BW; lra|]. rewrite !S_INR in BW. pose proof (pos_INR k). lra. }
  assert (H1 : im_h im' = 1%nat).
  { destruct (im_h im') as [|[|k]]; auto; [simpl in BH; lra|]. rewrite !S_INR in BH. pose proof (pos_INR k). lra. }
  specialize (K 0%nat 0%nat). rewrite W1, H1 in K. specialize (K ltac:(lia) ltac:(lia)). exists im'. split; auto.
  replace (a + INR 0 * 1) with a in K by (cbn; lra). replace (b + INR 0 * 1) with b in K by (cbn; lra). exact K.
Qed.
Lemma ex_lens_cam spline k1 k2 k3 : exists c, lens_cam c Rectilinear ex_r ahead (brown_lens spline k1 k2 k3 (proj_fin ex_r)).
Proof.
  assert (H : rep_opar (opar_fin ahead) ahead) by (repeat split). destruct (init_rigid _ _ H) as (m&E&_).
  exists (lens_camera Rectilinear (proj_fin ex_r) m (brown_lens spline k1 k2 k3 (proj_fin ex_r))), (proj_fin ex_r), m. splits; auto.
  - repeat split.
  - split; cbn; lra.
  - exists (opar_fin ahead). split; auto.
Qed.
Lemma ex_radius : radius (brown_frame ex_r) (V2 3750 1500) = / 2.
Proof.
  unfold radius, brown_frame. cbn [o_x o_y s_x s_y c1 c2 center_x center_y f_x f_y ex_r].
  replace ((1500 - 1500) / 3500) with 0 by field. replace ((3750 - 2000) / 3500) with (/ 2) by field.
  rewrite Rsqr_0, Rplus_0_r. apply sqrt_Rsqr. lra.
Qed.
Theorem C42_lens_refuted : exists s0 c' im n sc, s_undist s0 = None /\
  let s1 := step s0 (Undistort im (Some n) (Some sc) true) in let s2 := step s1 (Change c') in
  snd (undistortImage s2 im (Some n) (Some sc) true) <> snd (undistortImage (forget s2) im (Some n) (Some sc) true).
Proof.
  destruct (ex_cam2 Rectilinear) as (c&HC).
  destruct (ex_lens_cam (fun _ x => x) (Fin 4) (Fin 0) (Fin 0)) as (c'&HC').
  set (e := Ext (Fin 3750) (Fin (3750 + 1)) (Fin 1500) (Fin (1500 + 1))). set (s0 := State c (fun _ => e) None None).
  exists s0, c', gray, 0%nat, (Fin 1). split; [reflexivity|]. cbv zeta.
  destruct (spot_undist s0 0%nat 3750 1500) as (im0&E0&S0); try reflexivity.
  set (s1 := step s0 _). set (s2 := step s1 _).
  assert (L2 : s_lists s2 0%nat = e).
  { unfold s2, s1. cbn [step]. unfold undistortImage. cbn [negb andb s_lists]. pose proof (undist_inv s0 (Some 0%nat) (Some (Fin 1)) I) as (_&_&L&_).
    destruct (getUndistortMap _ _ _) as (t&m). cbn [fst] in *. rewrite L. reflexivity. }
  assert (EE : ext_eq e e = true).
  { unfold ext_eq, e; cbn [e_x0 e_x1 e_y0 e_y1]. rewrite !(rep_eqb _ _ _ _ (rep_Fin _) (rep_Fin _)), !Reqb_refl. reflexivity. }
  assert (ST : snd (undistortImage s2 gray (Some 0%nat) (Some (Fin 1)) true) = Some im0).
  { assert (U2 : s_undist s2 = s_undist (fst (getUndistortMap s0 (Some 0%nat) (Some (Fin 1))))).
    { unfold s2, s1. cbn [step]. unfold undistortImage. cbn [negb andb s_undist]. destruct (getUndistortMap _ _ _) as (t&m). reflexivity. }
    revert E0 U2. unfold undistortImage. cbn [negb andb]. generalize s2 L2. clear s1 s2 L2. intros s2 L2.
    unfold getUndistortMap. cbn [s0 s_undist s_cam s_lists contents]. dmap; [|discriminate]. cbn [fst snd s_undist option_map]. intros E0 U2. rewrite U2.
    cbn [c_extent contents c_scaling c_map]. rewrite L2, EE, one_eq. exact E0. }
  rewrite ST. destruct (spot_undist (forget s2) 0%nat 3750 1500) as (im'&E&SH); try reflexivity; [cbn [forget s_lists]; rewrite L2; reflexivity|].
  rewrite E. intros X. injection X as X. subst im'.
  destruct (plain_good _ _ _ _ HC) as (_&_&HD&_).
  assert (P0 : im_px im0 0 0 = [Fin 7]).
  { destruct S0 as (S0&_). rewrite HD in S0. rewrite (S0 (V2 3750 1500) 3750%Z 1500%Z); [vm_compute; reflexivity| | |]; cbn; try lra. split; reflexivity. }
  destruct (lens_good _ _ _ _ _ HC') as (_&_&HD'&_). change (s_cam (forget s2)) with c' in SH. rewrite HD' in SH.
  destruct (C18_radial (brown_lens (fun _ x => x) (Fin 4) (Fin 0) (Fin 0) (proj_fin ex_r)) (brown_frame ex_r) (V2 (Fin 3750) (Fin 1500)) (V2 3750 1500) 1) as (K&_).
  { apply rep_brown_lens; [repeat split|split; cbn; lra]. }
  { split; reflexivity. }
  { rewrite ex_radius. lra. }
  assert (Q : rep2 (distortedFromImage (brown_lens (fun _ x => x) (Fin 4) (Fin 0) (Fin 0) (proj_fin ex_r)) (V2 (Fin 3750) (Fin 1500))) (V2 5500 1500)).
  { replace (V2 5500 1500) with (radial (brown_frame ex_r) (1 / radius (brown_frame ex_r) (V2 3750 1500)) (V2 3750 1500)).
    2: { rewrite ex_radius. unfold radial, brown_frame. cbn [o_x o_y s_x s_y c1 c2 center_x center_y f_x f_y ex_r]. f_equal; field. }
    apply K. intros x Hx. rewrite ex_radius in Hx. cbn [brown_lens l_conv].
    eapply rep_eq; [apply (rep_brown _ _ _ 4 0 0 _ _ (rep_Fin _) (rep_Fin _) (rep_Fin _) Hx)|]. unfold brownR. field. }
  destruct SH as (SH&_). rewrite (SH (V2 5500 1500) 5500%Z 1500%Z Q) in P0; cbn [c1 c2]; try lra.
  change (at_px gray 1500 5500) with [Fin 0] in P0. injection P0 as P0. lra.
Qed.
Print Assumptions C42_lens_refuted.
(** With a lens whose coefficients are all zero, undistortImage should change nothing.  The centre of the image
    becomes blank. *)
Theorem C43_zero_lens_refuted : exists s im n im', s_undist s = None /\
  lens_cam (s_cam s) Rectilinear ex_r ahead (brown_lens (fun _ x => x) (Fin 0) (Fin 0) (Fin 0) (proj_fin ex_r)) /\
  snd (undistortImage s im (Some n) (Some (Fin 1)) true) = Some im' /\ e_x0 (s_lists s n) = Fin 2000 /\ e_y0 (s_lists s n) = Fin 1500 /\
  im_px im' 0 0 <> opaque im (im_px im 1500 2000).
Proof.
  destruct (ex_lens_cam (fun _ x => x) (Fin 0) (Fin 0) (Fin 0)) as (c&HC).
  set (s := State c (fun _ => Ext (Fin 2000) (Fin (2000 + 1)) (Fin 1500) (Fin (1500 + 1))) None None).
  destruct (spot_undist s 0%nat 2000 1500) as (im'&E&SH); try reflexivity.
  exists s, gray, 0%nat, im'. splits; auto.
  destruct (lens_good _ _ _ _ _ HC) as (_&_&HD&_). cbn [s s_cam] in SH. rewrite HD in SH.
  destruct (C18_centre_nan (brown_lens (fun _ x => x) (Fin 0) (Fin 0) (Fin 0) (proj_fin ex_r)) (brown_frame ex_r) (V2 (Fin 2000) (Fin 1500))) as (N&_).
  { apply rep_brown_lens; [repeat split|split; cbn; lra]. } { split; reflexivity. }
  destruct SH as (_&SH). rewrite SH.
  - unfold opaque, blank, gray. cbn [im_ch im_px]. intros X. injection X as X. lra.
  - rewrite N. intros (Q&HQ&_). discriminate HQ.
Qed.
Print Assumptions C43_zero_lens_refuted.
(** The guessed extent may show nothing of what the camera sees: a camera 10 m above the ground that looks towards
    negative y. *)
Theorem C43_guess_refuted : exists s im' p Q, plain_cam (s_cam s) Rectilinear ex_r behind /\
  (* a point of the ground in the middle of the image *)
  rep3 p (V3 0 (- 100) 0) /\ rep2 (imageFromSpace (s_cam s) p true) Q /\ 0 <= c1 Q < 4000 /\ 0 <= c2 Q < 3000 /\
  snd (getTopViewOfImage s gray None (Some (Fin 1)) (Fin 0) false true) = Some im' /\
  (0 < im_h im')%nat /\ (0 < im_w im')%nat /\ forall i j, (i < im_h im')%nat -> (j < im_w im')%nat -> im_px im' i j = blank gray.
Proof.
  destruct cam_behind as (c&HC). destruct (plain_good _ _ _ _ HC) as (HG&HK&HDi&_). destruct HG as (Hpr&Hf&HR).
  destruct Hpr as (_&_&_&_&HW&HH). cbn [ex_r im_width im_height] in HW, HH.
  destruct (guessed _ _ 4000 3000 HW HH ltac:(lra) ltac:(lra)) as (e&EG&R0&R1&R2&R3).
  set (s := State c (fun _ => e) None None).
  destruct (C43_top_view s gray 0%nat (Fin 1) (Fin 0) true 0 4000 0 3000 1 0) as (im'&E&_&BW&BH&K); auto; try lra; try apply rep_Fin.
  exists s, im', (V3 (Fin 0) (Fin (-100)) (Fin 0)).
  assert (HP : rep3 (V3 (Fin 0) (Fin (-100)) (Fin 0)) (V3 0 (-100) 0)) by (unfold rep3; splits; apply rep_Fin).
  eexists. split; [exact HC|]. split; [exact HP|]. split.
  { unfold imageFromSpace. cbn [s s_cam]. rewrite HDi, HK. cbn [p_image]. apply (rect_image_value _ ex_r _ (cam_coords behind (V3 0 (-100) 0))).
    - apply HC || (destruct (plain_good _ _ _ _ HC) as ((X&_)&_); exact X).
    - apply (rigid_camera _ _ _ _ _ HR HP).
    - rewrite behind_coords; cbn [cz cy]. rewrite Rabs_left by lra. unfold tinyR. lra.
    - intros _. rewrite behind_coords; cbn [cz cy]. lra. }
  rewrite behind_coords. cbn [c1 c2 cx cy cz f_x f_y center_x center_y ex_r].
  assert (HEE : (0 - 10) * 3500 / -100 + 1500 = 1850) by field. assert (HEX : - - 0 * 3500 / -100 + 2000 = 2000) by field.
  rewrite HEE, HEX. splits; try lra.
  - assert (SZ : size_ok (s_cam s) gray = true) by (apply (size_ok_spec _ _ 4000 3000 HW HH); cbn [gray im_w im_h]; rewrite !INR_IZR_INZ; split; f_equal; lia).
    revert E. unfold getTopViewOfImage. rewrite SZ. cbn [negb andb]. unfold getMap. cbn [s s_map s_cam]. rewrite EG. cbn [option_map contents s_lists].
    change (s_lists s 0%nat) with e. dmap; auto.
  - destruct (im_h im'); [cbn in BH; lra|lia].
  - destruct (im_w im'); [cbn in BW; lra|lia].
  - intros i j I J. destruct (K i j I J) as (p&HP'&HS). cbn [s s_cam] in HS.
    assert (HZ : 0 <= cz (cam_coords behind (V3 (0 + INR j * 1) (0 + INR (im_h im' - 1 - i) * 1) 0))).
    { rewrite behind_coords. cbn [cy cz]. pose proof (pos_INR (im_h im' - 1 - i)). lra. }
    destruct HS as (_&HS). apply HS. intros (Q&HQ). unfold imageFromSpace in HQ. rewrite HDi, HK in HQ. cbn [p_image] in HQ.
    destruct (plain_good _ _ _ _ HC) as ((Hpr&_&_)&_).
    destruct (proj1 (C06_rect_nan_iff (cam_proj c) ex_r _ _ true Hpr Hf (rigid_camera _ _ _ _ _ HR HP'))) as (_&N).
    fold (cam_coords behind (V3 (0 + INR j * 1) (0 + INR (im_h im' - 1 - i) * 1) 0)) in N.
    assert (NN : is_nan2 (rect_image (cam_proj c) (cameraFromSpace (cam_o c) p) true)).
    { apply N. destruct HZ as [HZ|HZ]; [left; split; auto|right]. rewrite <- HZ, Rabs_R0. apply tinyR_pos. }
    destruct HQ as (HX&_). destruct NN as (NX&_). rewrite NX in HX. discriminate.
Qed.
Print Assumptions C43_guess_refuted.
(** Beside the theorems: the hypotheses are met by a new camera and by the calls of [C42_camera_refuted] before the
    change; C43: a camera without distortion and an image of its size. *)
Example C42_example : exists s0 evs, s_map s0 = None /\ s_undist s0 = None /\ plain_cam (s_cam s0) Rectilinear ex_r ahead /\
  Forall (quiet (Fin 10) true) evs /\ s_map (fold_left step evs s0) <> None /\ length evs = 2%nat.
Proof.
  destruct (ex_cam2 Rectilinear) as (c&HC). destruct (view_ahead c HC) as (im0&E0&_).
  exists (looking c 20), [Top gray (Some 0%nat) (Some (Fin 1)) (Fin 10) true true; Undistort gray None None false].
  splits; auto; [repeat constructor|].
  cbn [fold_left step]. revert E0. unfold getTopViewOfImage. cbn [negb andb]. unfold getMap. cbn [looking s_map s_cam s_lists contents].
  dmap; [|discriminate]. intros _. cbn [fst]. unfold undistortImage. destruct (negb false && _)%bool; [discriminate|].
  unfold getUndistortMap. cbn [s_undist s_cam contents s_lists s_map]. dmap; discriminate.
Qed.
Example C43_example : exists s, s_undist s = None /\ (forall q, cam_dist (s_cam s) q = q) /\
  rep (im_width (cam_proj (s_cam s))) (INR (im_w gray)) /\ rep (im_height (cam_proj (s_cam s))) (INR (im_h gray)).
Proof.
  destruct (ex_cam2 Rectilinear) as (c&HC). destruct (plain_good _ _ _ _ HC) as (((_&_&_&_&HW&HH)&_)&_&HD&_).
  exists (looking c 20). splits; auto; cbn [looking s_cam gray im_w im_h]; rewrite INR_IZR_INZ; assumption.
Qed.
