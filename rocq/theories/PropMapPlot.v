(** * C95: where the plotted images are drawn *)
Require Import Reals Lra Psatz List Bool ZArith Arith Lia.
From Verif Require Import Num Vec Orientation OrientationFacts Projection ProjectionFacts Ray CameraTransform CameraFacts PropProjection PropCamera Lens PropLens Border PropBorder Lut PropLut MapCache PropMapCache MapPlot.
Import ListNotations.
Open Scope R_scope.

(** ** Specification *)
(** matplotlib draws an image of [m] columns between left and right in [m] columns of equal width, and its rows from top
    to bottom (origin='upper'); top may be the smaller number. *)
Definition edge (from to : R) (count k : nat) : R := from + (to - from) * INR k / INR count.
Record area := Area { a_left : R; a_right : R; a_bottom : R; a_top : R }.
Definition rep_area (d : drawing) (a : area) : Prop :=
  rep (d_left d) (a_left a) /\ rep (d_right d) (a_right a) /\ rep (d_bottom d) (a_bottom a) /\ rep (d_top d) (a_top a).
(** [x] is in the column [j]; [y] is in the row [i] (the edge nearer to the lower left of the area included) *)
Definition in_column (d : drawing) (a : area) (j : nat) (x : R) : Prop :=
  edge (a_left a) (a_right a) (im_w (d_image d)) j <= x < edge (a_left a) (a_right a) (im_w (d_image d)) (S j).
Definition in_row (d : drawing) (a : area) (i : nat) (y : R) : Prop :=
  edge (a_top a) (a_bottom a) (im_h (d_image d)) (S i) <= y < edge (a_top a) (a_bottom a) (im_h (d_image d)) i.
(** the same for rows that are counted downwards *)
Definition in_row_down (d : drawing) (a : area) (i : nat) (y : R) : Prop :=
  edge (a_top a) (a_bottom a) (im_h (d_image d)) i <= y < edge (a_top a) (a_bottom a) (im_h (d_image d)) (S i).
Definition middle (from to : R) (count k : nat) : R := (edge from to count k + edge from to count (S k)) / 2.

(** ** Facts *)
(** the k-th of the positions lo, lo + s, ... below hi is in the k-th of as many equal parts *)
Lemma sample_in lo hi s n k : (k < n)%nat -> 0 < s -> (INR n - 1) * s < hi - lo <= INR n * s ->
  edge lo hi n k <= lo + INR k * s < edge lo hi n (S k).
Proof.
  intros HK HS (B1&B2). unfold edge. rewrite S_INR.
  assert (N1 : INR k + 1 <= INR n) by (rewrite <- S_INR; apply le_INR; lia). pose proof (pos_INR k) as K0.
  set (w := (hi - lo) / INR n).
  assert (W : w * INR n = hi - lo) by (unfold w; field; lra).
  assert (W2 : w <= s) by (apply Rmult_le_reg_r with (INR n); lra).
  assert (W3 : (INR n - 1) * s < INR n * w) by lra.
  replace ((hi - lo) * INR k / INR n) with (w * INR k) by (unfold w; field; lra).
  replace ((hi - lo) * (INR k + 1) / INR n) with (w * (INR k + 1)) by (unfold w; field; lra).
  split; [nra|].
  assert (INR k * s < w * (INR k + 1)); [|lra].
  apply Rmult_lt_reg_l with (INR n); [lra|]. nra.
Qed.
Lemma edge_flip lo hi n k : (k <= n)%nat -> (0 < n)%nat -> edge hi lo n k = edge lo hi n (n - k).
Proof. intros K N0. unfold edge. rewrite minus_INR by auto. assert (0 < INR n) by (apply lt_0_INR; auto). field. lra. Qed.
Lemma edge_shift lo hi d n k : edge (lo + d) (hi + d) n k = edge lo hi n k + d.
Proof. unfold edge. replace (hi + d - (lo + d)) with (hi - lo) by ring. ring. Qed.

(** The extent that is drawn is the present one, whatever was cached. *)
Lemma eqb_rep x y v : neqb x y = true -> rep y v -> rep x v.
Proof. intros H K. apply neqb_toR in H. unfold rep in *. congruence. Qed.
Definition ext_of (d : option drawing) (X0 X1 B T : R) : Prop := forall D, d = Some D -> rep_area D (Area X0 X1 B T).
Lemma ext_eq_rep a b X0 X1 Y0 Y1 : ext_eq a b = true ->
  rep (e_x0 b) X0 -> rep (e_x1 b) X1 -> rep (e_y0 b) Y0 -> rep (e_y1 b) Y1 ->
  rep (e_x0 a) X0 /\ rep (e_x1 a) X1 /\ rep (e_y0 a) Y0 /\ rep (e_y1 a) Y1.
Proof. unfold ext_eq. rewrite !andb_true_iff. intros (((A&B)&C)&D) H1 H2 H3 H4. splits; eapply eqb_rep; eauto. Qed.
Lemma top_cached s e sc z hide x X0 X1 Y0 Y1 : match e with Some n => x = s_lists s n | None => guessed_extent (im_width (cam_proj (s_cam s))) (im_height (cam_proj (s_cam s))) = Some x end ->
  rep (e_x0 x) X0 -> rep (e_x1 x) X1 -> rep (e_y0 x) Y0 -> rep (e_y1 x) Y1 ->
  snd (getMap s e sc z hide) <> None -> exists c, s_map (fst (getMap s e sc z hide)) = Some c /\
  let x' := contents (fst (getMap s e sc z hide)) (c_extent c) in rep (e_x0 x') X0 /\ rep (e_x1 x') X1 /\ rep (e_y0 x') Y0 /\ rep (e_y1 x') Y1.
Proof.
  intros HX H1 H2 H3 H4. unfold getMap.
  set (o := match e with Some n => Some (Given n) | None => _ end).
  assert (HO : exists r, o = Some r /\ contents s r = x).
  { unfold o. destruct e as [n|]; [exists (Given n); auto|]. rewrite HX. exists (Own x). auto. }
  destruct HO as (r&->&HR). cbv zeta. rewrite HR.
  destruct (s_map s) as [c|] eqn:EM; [destruct sc as [v|]|].
  - match goal with |- context [if ?b then _ else _] => destruct b eqn:H end.
    + intros _. cbn [fst]. exists c. split; [exact EM|]. apply andb_true_iff in H. destruct H as (H&_). cbv zeta. eapply ext_eq_rep; eauto.
    + dmap; cbn [fst snd]; [|intros N0; contradiction N0; reflexivity]. intros _. eexists. split; [reflexivity|]. cbn [c_extent].
      replace (contents (State _ _ _ _) r) with x by (destruct r; symmetry; exact HR). cbv zeta. auto.
  - dmap; cbn [fst snd]; [|intros N0; contradiction N0; reflexivity]. intros _. eexists. split; [reflexivity|]. cbn [c_extent].
    replace (contents (State _ _ _ _) r) with x by (destruct r; symmetry; exact HR). cbv zeta. auto.
  - dmap; cbn [fst snd]; [|intros N0; contradiction N0; reflexivity]. intros _. eexists. split; [reflexivity|]. cbn [c_extent].
    replace (contents (State _ _ _ _) r) with x by (destruct r; symmetry; exact HR). cbv zeta. auto.
Qed.
Lemma undist_cached s e sc x X0 X1 Y0 Y1 :
  x = match e with Some n => s_lists s n | None => Ext (Fin 0) (im_width (cam_proj (s_cam s))) (Fin 0) (im_height (cam_proj (s_cam s))) end ->
  rep (e_x0 x) X0 -> rep (e_x1 x) X1 -> rep (e_y0 x) Y0 -> rep (e_y1 x) Y1 ->
  snd (getUndistortMap s e sc) <> None -> exists c, s_undist (fst (getUndistortMap s e sc)) = Some c /\
  let x' := contents (fst (getUndistortMap s e sc)) (c_extent c) in rep (e_x0 x') X0 /\ rep (e_x1 x') X1 /\ rep (e_y0 x') Y0 /\ rep (e_y1 x') Y1.
Proof.
  intros HX H1 H2 H3 H4. unfold getUndistortMap.
  set (r := match e with Some n => Given n | None => _ end).
  assert (HR : contents s r = x) by (unfold r; destruct e; symmetry; exact HX).
  cbv zeta. rewrite HR.
  destruct (s_undist s) as [c|] eqn:EM.
  - match goal with |- context [if ?b then _ else _] => destruct b eqn:H end.
    + intros _. cbn [fst]. exists c. split; [exact EM|]. apply andb_true_iff in H. destruct H as (H&_). cbv zeta. eapply ext_eq_rep; eauto.
    + dmap; cbn [fst snd]; [|intros N0; contradiction N0; reflexivity]. intros _. eexists. split; [reflexivity|]. cbn [c_extent].
      replace (contents (State _ _ _ _) r) with x by (destruct r; symmetry; exact HR). cbv zeta. auto.
  - dmap; cbn [fst snd]; [|intros N0; contradiction N0; reflexivity]. intros _. eexists. split; [reflexivity|]. cbn [c_extent].
    replace (contents (State _ _ _ _) r) with x by (destruct r; symmetry; exact HR). cbv zeta. auto.
Qed.
Lemma plot_top s im e sc z skip hide im' x X0 X1 Y0 Y1 :
  match e with Some n => x = s_lists s n | None => guessed_extent (im_width (cam_proj (s_cam s))) (im_height (cam_proj (s_cam s))) = Some x end ->
  rep (e_x0 x) X0 -> rep (e_x1 x) X1 -> rep (e_y0 x) Y0 -> rep (e_y1 x) Y1 ->
  snd (getTopViewOfImage s im e sc z skip hide) = Some im' ->
  exists D, snd (plotTopView s im e sc z skip hide) = Some D /\ d_image D = im' /\ rep_area D (Area X0 X1 Y0 Y1).
Proof.
  intros HX H1 H2 H3 H4. unfold plotTopView, getTopViewOfImage. destruct (negb skip && _)%bool; [discriminate|].
  pose proof (top_cached s e sc z hide x X0 X1 Y0 Y1 HX H1 H2 H3 H4) as K.
  destruct (getMap s e sc z hide) as (s'&m). cbn [fst snd] in *. destruct m as [m|]; [|discriminate]. cbn [option_map].
  intros E. injection E as <-. destruct K as (c&EC&K1&K2&K3&K4); [discriminate|]. rewrite EC.
  eexists. split; [reflexivity|]. split; [reflexivity|]. unfold rep_area. cbn [d_left d_right d_bottom d_top a_left a_right a_bottom a_top]. splits; auto.
Qed.
Lemma plot_undist s im e sc skip im' x X0 X1 Y0 Y1 :
  x = match e with Some n => s_lists s n | None => Ext (Fin 0) (im_width (cam_proj (s_cam s))) (Fin 0) (im_height (cam_proj (s_cam s))) end ->
  rep (e_x0 x) X0 -> rep (e_x1 x) X1 -> rep (e_y0 x) Y0 -> rep (e_y1 x) Y1 ->
  snd (undistortImage s im e sc skip) = Some im' ->
  exists D, snd (plotUndistorted s im e sc skip) = Some D /\ d_image D = im' /\ rep_area D (Area X0 X1 (Y1 - 1) (Y0 - 1)).
Proof.
  intros HX H1 H2 H3 H4. unfold plotUndistorted, undistortImage. destruct (negb skip && _)%bool; [discriminate|].
  pose proof (undist_cached s e sc x X0 X1 Y0 Y1 HX H1 H2 H3 H4) as K.
  destruct (getUndistortMap s e sc) as (s'&m). cbn [fst snd] in *. destruct m as [m|]; [|discriminate]. cbn [option_map].
  intros E. injection E as <-. destruct K as (c&EC&K1&K2&K3&K4); [discriminate|]. rewrite EC.
  eexists. split; [reflexivity|]. split; [reflexivity|]. unfold rep_area. cbn [d_left d_right d_bottom d_top a_left a_right a_bottom a_top].
  splits; auto; apply rep_sub; auto; apply rep_Fin.
Qed.

(** ** C95 *)
(** Plotting returns and keeps what the call without a plot does. *)
Theorem C95_same : forall s im e sc,
  (forall skip, fst (plotUndistorted s im e sc skip) = fst (undistortImage s im e sc skip) /\
     option_map d_image (snd (plotUndistorted s im e sc skip)) = snd (undistortImage s im e sc skip)) /\
  (forall z skip hide, fst (plotTopView s im e sc z skip hide) = fst (getTopViewOfImage s im e sc z skip hide) /\
     option_map d_image (snd (plotTopView s im e sc z skip hide)) = snd (getTopViewOfImage s im e sc z skip hide)).
Proof.
  intros s im e sc. split.
  - intros skip. unfold plotUndistorted, undistortImage. destruct (negb skip && _)%bool; [auto|].
    assert (K : snd (getUndistortMap s e sc) <> None -> s_undist (fst (getUndistortMap s e sc)) <> None).
    { unfold getUndistortMap. cbv zeta. destruct (s_undist s) as [c|] eqn:EU; [match goal with |- context [if ?b then _ else _] => destruct b end|];
        try dmap; cbn [fst snd s_undist]; intros; congruence. }
    destruct (getUndistortMap s e sc) as (s'&m). cbn [fst snd] in *. destruct m as [m|]; [|auto].
    destruct (s_undist s') eqn:EU; [auto|]. contradiction K; [discriminate|reflexivity].
  - intros z skip hide. unfold plotTopView, getTopViewOfImage. destruct (negb skip && _)%bool; [auto|].
    assert (K : snd (getMap s e sc z hide) <> None -> s_map (fst (getMap s e sc z hide)) <> None).
    { unfold getMap. cbv zeta. match goal with |- context [match ?o with Some r => _ | None => (s, None) end] => destruct o as [r|] end; [|cbn; congruence].
      destruct (s_map s) as [c|] eqn:EU; [destruct sc; [match goal with |- context [if ?b then _ else _] => destruct b end|]|];
        try dmap; cbn [fst snd s_map]; intros; congruence. }
    destruct (getMap s e sc z hide) as (s'&m). cbn [fst snd] in *. destruct m as [m|]; [|auto].
    destruct (s_map s') eqn:EU; [auto|]. contradiction K; [discriminate|reflexivity].
Qed.
Print Assumptions C95_same.
(** The top view, after any calls without a change in between: every cell of the plot contains, in the coordinates of the
    axes, a point (x, y) whose image at height z is shown in the cell.  If the sides of the extent are multiples of the
    scaling this point is the lower left corner of the cell. *)
Theorem C95_top_view : forall s0 evs z hide im n sc X0 X1 Y0 Y1 k Z,
  s_map s0 = None -> s_undist s0 = None -> Forall (quiet z hide) evs ->
  let s := fold_left step evs s0 in let x := s_lists s n in
  rep (e_x0 x) X0 -> rep (e_x1 x) X1 -> rep (e_y0 x) Y0 -> rep (e_y1 x) Y1 -> rep sc k -> rep z Z -> X0 < X1 -> Y0 < Y1 -> 0 < k ->
  exists d a, snd (plotTopView s im (Some n) (Some sc) z true hide) = Some d /\ rep_area d a /\
    a = Area X0 X1 Y0 Y1 /\ (0 < im_w (d_image d))%nat /\ (0 < im_h (d_image d))%nat /\
    forall i j, (i < im_h (d_image d))%nat -> (j < im_w (d_image d))%nat ->
      exists p xp yp, in_column d a j xp /\ in_row d a i yp /\ rep3 p (V3 xp yp Z) /\
        shows im (imageFromSpace (s_cam s) p hide) (im_px (d_image d) i j) /\
        (X1 - X0 = INR (im_w (d_image d)) * k -> xp = edge (a_left a) (a_right a) (im_w (d_image d)) j) /\
        (Y1 - Y0 = INR (im_h (d_image d)) * k -> yp = edge (a_top a) (a_bottom a) (im_h (d_image d)) (S i)).
Proof.
  intros s0 evs z hide im n sc X0 X1 Y0 Y1 k Z HM HU HQ s x H1 H2 H3 H4 HK HZ LX LY PK.
  destruct (C42_unchanged s0 evs z hide HM HU HQ) as (_&FR). fold s in FR. specialize (FR im (Some n) (Some sc) true).
  destruct (C43_top_view (forget s) im n sc z hide X0 X1 Y0 Y1 k Z eq_refl H1 H2 H3 H4 HK HZ LX LY PK) as (im'&E&_&BW&BH&V).
  rewrite <- FR in E. destruct (plot_top s im (Some n) (Some sc) z true hide im' x X0 X1 Y0 Y1 eq_refl H1 H2 H3 H4 E) as (d&ED&EI&RA).
  exists d, (Area X0 X1 Y0 Y1). rewrite EI. splits; auto.
  { destruct (im_w im'); [cbn in BW; lra|lia]. } { destruct (im_h im'); [cbn in BH; lra|lia]. }
  intros i j HI HJ. destruct (V i j HI HJ) as (p&RP&SH). exists p, (X0 + INR j * k), (Y0 + INR (im_h im' - 1 - i) * k).
  unfold in_column, in_row. rewrite EI. cbn [a_left a_right a_bottom a_top].
  rewrite !(edge_flip Y0 Y1) by lia. replace (im_h im' - i)%nat with (S (im_h im' - 1 - i)) by lia. replace (im_h im' - S i)%nat with (im_h im' - 1 - i)%nat by lia.
  split; [apply sample_in; auto|]. split; [apply sample_in; auto; lia|]. split; [exact RP|]. split; [exact SH|].
  split; intros EX; unfold edge; rewrite EX.
  - assert (0 < INR (im_w im')) by (apply lt_0_INR; lia). field. lra.
  - assert (0 < INR (im_h im')) by (apply lt_0_INR; lia). field. lra.
Qed.
Print Assumptions C95_top_view.
(** The undistorted image: the columns are at their places, but every row is drawn one pixel above its place. *)
Theorem C95_undistorted : forall s0 evs z hide im n sc X0 X1 Y0 Y1 k,
  s_map s0 = None -> s_undist s0 = None -> Forall (quiet z hide) evs ->
  let s := fold_left step evs s0 in let x := s_lists s n in
  rep (e_x0 x) X0 -> rep (e_x1 x) X1 -> rep (e_y0 x) Y0 -> rep (e_y1 x) Y1 -> rep sc k -> X0 < X1 -> Y0 < Y1 -> 0 < k ->
  exists d a, snd (plotUndistorted s im (Some n) (Some sc) true) = Some d /\ rep_area d a /\
    a = Area X0 X1 (Y1 - 1) (Y0 - 1) /\ (0 < im_w (d_image d))%nat /\ (0 < im_h (d_image d))%nat /\
    forall i j, (i < im_h (d_image d))%nat -> (j < im_w (d_image d))%nat ->
      exists xp yp, in_column d a j xp /\ in_row_down d a i (yp - 1) /\
        shows im (cam_dist (s_cam s) (V2 (Fin xp) (Fin yp))) (im_px (d_image d) i j).
Proof.
  intros s0 evs z hide im n sc X0 X1 Y0 Y1 k HM HU HQ s x H1 H2 H3 H4 HK LX LY PK.
  destruct (C42_unchanged s0 evs z hide HM HU HQ) as (FR&_). fold s in FR. specialize (FR im (Some n) (Some sc) true).
  destruct (C43_undistorted (forget s) im n sc X0 X1 Y0 Y1 k eq_refl H1 H2 H3 H4 HK LX LY PK) as (im'&E&_&BW&BH&V).
  rewrite <- FR in E. destruct (plot_undist s im (Some n) (Some sc) true im' x X0 X1 Y0 Y1 eq_refl H1 H2 H3 H4 E) as (d&ED&EI&RA).
  exists d, (Area X0 X1 (Y1 - 1) (Y0 - 1)). rewrite EI. splits; auto.
  { destruct (im_w im'); [cbn in BW; lra|lia]. } { destruct (im_h im'); [cbn in BH; lra|lia]. }
  intros i j HI HJ. exists (X0 + INR j * k), (Y0 + INR i * k).
  unfold in_column, in_row_down. rewrite EI. cbn [a_left a_right a_bottom a_top].
  split; [apply sample_in; auto|]. split; [unfold Rminus; rewrite !edge_shift|apply V; auto].
  pose proof (sample_in Y0 Y1 k (im_h im') i HI PK BH). lra.
Qed.
Print Assumptions C95_undistorted.
(** A camera without a lens: pixel (i, j) of the plotted image is the image's own and fills x from j to j + 1 and y from
    i - 1 to i, where plt.imshow(image) fills j - 1/2 to j + 1/2 and i - 1/2 to i + 1/2. *)
Theorem C95_no_lens : forall s im, s_undist s = None -> (forall q, cam_dist (s_cam s) q = q) ->
  rep (im_width (cam_proj (s_cam s))) (INR (im_w im)) -> rep (im_height (cam_proj (s_cam s))) (INR (im_h im)) ->
  (0 < im_w im)%nat -> (0 < im_h im)%nat ->
  exists d a, snd (plotUndistorted s im None None false) = Some d /\ rep_area d a /\
    im_w (d_image d) = im_w im /\ im_h (d_image d) = im_h im /\
    forall i j, (i < im_h im)%nat -> (j < im_w im)%nat ->
      im_px (d_image d) i j = opaque im (im_px im i j) /\
      middle (a_left a) (a_right a) (im_w im) j = INR j + / 2 /\ middle (a_top a) (a_bottom a) (im_h im) i = INR i - / 2.
Proof.
  intros s im HU HD HW HH PW PH.
  destruct (C43_identity s im HU HD HW HH PW PH) as (im'&E&_&EH&EW&V).
  destruct (plot_undist s im None None false im' _ 0 (INR (im_w im)) 0 (INR (im_h im)) eq_refl (rep_Fin _) HW (rep_Fin _) HH E) as (d&ED&EI&RA).
  exists d, (Area 0 (INR (im_w im)) (INR (im_h im) - 1) (0 - 1)). rewrite EI. splits; auto.
  intros i j HI HJ. assert (0 < INR (im_w im)) by (apply lt_0_INR; auto). assert (0 < INR (im_h im)) by (apply lt_0_INR; auto).
  split; [auto|]. unfold middle, edge. cbn [a_left a_right a_bottom a_top]. rewrite !S_INR. split; field; lra.
Qed.
Print Assumptions C95_no_lens.

(** ** Refutations and examples *)
(** The plotted undistorted image does not have its rows in their places: without a lens row 1 shows the pixels of row 1 of
    the image and is drawn outside y = 1, in the middle between 0 and 1. *)
Theorem C95_row_refuted : exists s d a i j, s_undist s = None /\ (forall q, cam_dist (s_cam s) q = q) /\
  snd (plotUndistorted s gray None None false) = Some d /\ rep_area d a /\ (i < im_h gray)%nat /\ (j < im_w gray)%nat /\
  im_px (d_image d) i j = im_px gray i j /\ middle (a_top a) (a_bottom a) (im_h (d_image d)) i = INR i - / 2 /\
  ~ in_row_down d a i (INR i).
Proof.
  destruct C43_example as (s&HU&HD&HW&HH).
  destruct (C95_no_lens s gray HU HD HW HH) as (d&a&E&RA&EW&EH&V); [apply Nat.ltb_lt; reflexivity|apply Nat.ltb_lt; reflexivity|].
  assert (L1 : (1 < im_h gray)%nat) by (apply Nat.ltb_lt; reflexivity). assert (L2 : (0 < im_w gray)%nat) by (apply Nat.ltb_lt; reflexivity).
  exists s, d, a, 1%nat, 0%nat. destruct (V 1%nat 0%nat L1 L2) as (V1&V2&V3). splits; auto; [rewrite EH; exact V3|].
  intros (B1&B2). rewrite EH in *.
  destruct (C43_identity s gray HU HD HW HH) as (im'&E'&_); [exact L2|apply Nat.ltb_lt; reflexivity|].
  destruct (plot_undist s gray None None false im' _ 0 (INR (im_w gray)) 0 (INR (im_h gray)) eq_refl (rep_Fin _) HW (rep_Fin _) HH E') as (d'&ED&_&(_&_&RB&RT)).
  rewrite E in ED. injection ED as <-. destruct RA as (_&_&QB&QT).
  pose proof (rep_inj _ _ _ QB RB) as EB. pose proof (rep_inj _ _ _ QT RT) as ET. cbn [a_bottom a_top] in EB, ET.
  rewrite EB, ET in B2. unfold edge in B2. assert (P : 0 < INR (im_h gray)) by (apply lt_0_INR; lia).
  replace (0 - 1 + (INR (im_h gray) - 1 - (0 - 1)) * INR 2 / INR (im_h gray)) with 1 in B2 by (cbn [INR]; field; lra).
  cbn [INR] in B2. lra.
Qed.
Print Assumptions C95_row_refuted.
(** After a change of the caller's list the old picture is drawn at the new place: no point of the only cell is shown in it. *)
Theorem C95_list_refuted : exists s0 e' n sc z d a, s_map s0 = None /\
  let s1 := step s0 (Top gray (Some n) (Some sc) z true true) in let s2 := step s1 (Assign n e') in
  snd (plotTopView s2 gray (Some n) (Some sc) z true true) = Some d /\ rep_area d a /\
  a = Area 0 1 (-20) (-19) /\ im_w (d_image d) = 1%nat /\ im_h (d_image d) = 1%nat /\
  forall p xp yp, in_column d a 0 xp -> in_row d a 0 yp -> rep3 p (V3 xp yp 10) ->
    ~ shows gray (imageFromSpace (s_cam s2) p true) (im_px (d_image d) 0 0).
Proof.
  destruct (ex_cam2 Rectilinear) as (c&HC). destruct (view_ahead c HC) as (im0&E0&P0).
  destruct (top_keeps (looking c 20) gray (Some 0%nat) (Some (Fin 1)) (Fin 10) true true) as (S1&S2). cbv zeta in S1, S2.
  pose proof (stale (looking c 20) gray 0%nat (Fin 1) (Fin 10) true im0 eq_refl E0 one_eq
    (step (step (looking c 20) (Top gray (Some 0%nat) (Some (Fin 1)) (Fin 10) true true)) (Assign 0%nat (spot (-20)))) (Fin 10) true eq_refl (spot_eq (-20))) as ST.
  set (s1 := step (looking c 20) _) in *. set (s2 := step s1 _) in *.
  assert (SZ : im_w im0 = 1%nat /\ im_h im0 = 1%nat).
  { destruct (C43_top_view (looking c 20) gray 0%nat (Fin 1) (Fin 10) true 0 1 20 (20 + 1) 1 10 eq_refl) as (im'&E&_&BW&BH&_);
      try reflexivity; try lra.
    rewrite E0 in E. injection E as <-. split.
    - destruct (im_w im0) as [|[|k]]; auto; [simpl in BW; lra|]. rewrite !S_INR in BW. pose proof (pos_INR k). lra.
    - destruct (im_h im0) as [|[|k]]; auto; [simpl in BH; lra|]. rewrite !S_INR in BH. pose proof (pos_INR k). lra. }
  destruct SZ as (W1&H1).
  destruct (plot_top s2 gray (Some 0%nat) (Some (Fin 1)) (Fin 10) true true im0 (spot (-20)) 0 1 (-20) (-20 + 1)) as (d&ED&EI&RA);
    try reflexivity; auto.
  exists (looking c 20), (spot (-20)), 0%nat, (Fin 1), (Fin 10), d, (Area 0 1 (-20) (-19)). split; [reflexivity|]. cbv zeta. fold s1. fold s2.
  replace (-20 + 1) with (-19) in RA by lra. rewrite EI. splits; auto.
  intros p xp yp _ IR RP SH.
  assert (HY : yp < -19).
  { destruct IR as (_&IR). unfold edge in IR. rewrite EI, H1 in IR. cbn [a_top a_bottom INR] in IR. lra. }
  change (s_cam s2) with (s_cam s1) in SH. rewrite S1 in SH. cbn [looking s_cam] in SH.
  apply (at_nothing c ahead p _ _ HC RP) in SH; [|unfold ahead; rewrite ex2_coords; cbn; lra]. rewrite P0 in SH. injection SH as SH. lra.
Qed.
Print Assumptions C95_list_refuted.
(** The hypotheses of [C95_top_view] are met after a call, and the cell drawn for x from 0 to 1 and y from 20 to 21 shows the
    image's gray. *)
Example C95_example : exists s0 evs d, s_map s0 = None /\ s_undist s0 = None /\ Forall (quiet (Fin 10) true) evs /\ length evs = 2%nat /\
  let s := fold_left step evs s0 in
  snd (plotTopView s gray (Some 0%nat) (Some (Fin 1)) (Fin 10) true true) = Some d /\ rep_area d (Area 0 1 20 21) /\
  im_px (d_image d) 0 0 = [Fin 7].
Proof.
  destruct (ex_cam2 Rectilinear) as (c&HC). destruct (view_ahead c HC) as (im0&E0&P0).
  set (evs := [Top gray (Some 0%nat) (Some (Fin 1)) (Fin 10) true true; Top gray (Some 0%nat) (Some (Fin 2)) (Fin 10) true true]).
  assert (Q : Forall (quiet (Fin 10) true) evs) by (repeat constructor).
  destruct (C42_unchanged (looking c 20) evs (Fin 10) true eq_refl eq_refl Q) as (_&FR).
  set (s := fold_left step evs (looking c 20)) in *.
  assert (K : s_cam s = c /\ s_lists s = fun _ => spot 20).
  { unfold s, evs. cbn [fold_left].
    destruct (top_keeps (looking c 20) gray (Some 0%nat) (Some (Fin 1)) (Fin 10) true true) as (S1&S2). cbv zeta in S1, S2.
    destruct (top_keeps (step (looking c 20) (Top gray (Some 0%nat) (Some (Fin 1)) (Fin 10) true true)) gray (Some 0%nat) (Some (Fin 2)) (Fin 10) true true) as (T1&T2). cbv zeta in T1, T2.
    rewrite T1, T2, S1, S2. split; reflexivity. }
  destruct K as (K1&K2).
  assert (E : snd (getTopViewOfImage s gray (Some 0%nat) (Some (Fin 1)) (Fin 10) true true) = Some im0).
  { rewrite FR. unfold forget. rewrite K1, K2. exact E0. }
  destruct (plot_top s gray (Some 0%nat) (Some (Fin 1)) (Fin 10) true true im0 (spot 20) 0 1 20 (20 + 1)) as (d&ED&EI&RA);
    try apply rep_Fin; auto; [rewrite K2; reflexivity|].
  replace (20 + 1) with 21 in RA by lra.
  exists (looking c 20), evs, d. do 4 (split; [auto|]). cbv zeta. fold s. rewrite EI. auto.
Qed.
