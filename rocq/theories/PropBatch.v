(** * C14: batches are processed row by row; C55: which arrays are written to *)
Require Import Reals Lra Lia List Bool Arith.
From Verif Require Import Num Vec Orientation Projection Ray CameraTransform Lens OrientationFacts ProjectionFacts CameraFacts NdArray NdCamera PropCamera.
Import ListNotations.
Open Scope nat_scope.

Lemma ensure_some {A} n (a : arr A) s : dims a = n :: s -> ensure n a = Some a.
Proof. intros E. unfold ensure. rewrite E, Nat.eqb_refl. auto. Qed.

Lemma camera_rows m p s : dims p = 3 :: s ->
  exists r, cameraFromSpace_a m p = Some r /\ dims r = 3 :: s /\ forall i, inb i s -> row3 r i = cameraFromSpace m (row3 p i).
Proof.
  intros E. unfold cameraFromSpace_a. destruct (ew2_point3 nsub p (om_t m) s E) as (d&E1&D1&G1). rewrite E1. cbn [obind].
  destruct (dot_row3 d (om_R m) s D1) as (r&E2&D2&G2). exists r. split; [auto|]. split; auto. intros i H. rewrite G2, G1 by auto. reflexivity.
Qed.
Lemma space_rows m p s b : dims p = 3 :: s ->
  exists r, spaceFromCamera_a m p b = Some r /\ dims r = 3 :: s /\ forall i, inb i s -> row3 r i = spaceFromCamera m (row3 p i) b.
Proof.
  intros E. unfold spaceFromCamera_a. destruct (dot_row3 p (om_Rinv m) s E) as (d&E1&D1&G1). rewrite E1. cbn [obind].
  destruct b.
  - exists d. split; auto. split; auto. intros i H. rewrite G1. reflexivity.
  - destruct (ew2_point3 nadd d (om_t m) s D1) as (r&E2&D2&G2). exists r. split; auto. split; auto. intros i H. rewrite G2, G1 by auto. reflexivity.
Qed.
Lemma finish_rows ray s normed : dims ray = 3 :: s ->
  exists r, finish_ray_a ray normed = Some r /\ dims r = 3 :: s /\ forall i, inb i s -> row3 r i = finish_ray (row3 ray i) normed.
Proof.
  intros E. unfold finish_ray_a, finish_ray. destruct normed.
  - destruct (norm_row3 ray s E) as (n&E1&D1&G1). rewrite E1. cbn [obind].
    destruct (ew2_each3 ndiv ray n s E D1) as (r&E2&D2&G2). rewrite E2. cbn [obind]. eexists. split; [reflexivity|]. split; [exact D2|].
    intros i H. rewrite ew1_row3, G2, G1 by auto. reflexivity.
  - cbn [obind]. eexists. split; [reflexivity|]. split; [exact E|]. intros i H. rewrite ew1_row3. reflexivity.
Qed.
Lemma ray_rows k c p s normed : dims p = 2 :: s ->
  exists r, p_getRay_a k c p normed = Some r /\ dims r = 3 :: s /\ forall i, inb i s -> row3 r i = p_getRay k c (row2 p i) normed.
Proof.
  intros E. unfold p_getRay_a. rewrite (ensure_some _ _ _ E). cbn [obind].
  destruct (unpack_T2 p s E) as (x&y&EU&DX&DY&GX&GY). rewrite EU. cbn [obind].
  assert (P : forall i, row2 p i = V2 (get x (rev i)) (get y (rev i))) by (intros i; rewrite GX, GY, rev_involutive; auto).
  destruct k; match goal with |- context [stack [?a; ?b; ?d]] => destruct (stack_T3 a b d s DX DY) as (t&ET&DT&GT); [assumption|rewrite ET] end;
    cbn [obind]; destruct (finish_rows (T t) s normed DT) as (r&ER&DR&GR); exists r; split; auto; split; auto;
    intros i H; rewrite GR, GT, P by auto; reflexivity.
Qed.
Lemma mask_rows p s : dims p = 3 :: s ->
  exists r, mask_a p = Some r /\ dims r = 3 :: s /\ forall i, row3 r i = mask_small_z (row3 p i).
Proof.
  intros E. unfold mask_a. destruct (lastk_some 2 p 3 s E) as (z&EZ&DZ&GZ); [lia|]. rewrite EZ. cbn [obind].
  match goal with |- context [setmask p ?m ?v] => destruct (setmask_rows p m v 3 s E) as (r&ER&DR&GR); [cbn [dims ew1]; auto|] end.
  exists r. split; auto. split; auto. intros i. unfold row3, mask_small_z. rewrite !GR. cbn [ew1 get cx cy cz]. rewrite GZ.
  destruct (_ <? _)%num; reflexivity.
Qed.
Lemma image_rows k c p s hide : dims p = 3 :: s ->
  exists r, image_a k c p hide = Some r /\ dims r = 2 :: s /\
    forall i p0, inb i s -> row3 p i = mask_small_z p0 -> row2 r i = p_image k c p0 hide.
Proof.
  intros E. unfold image_a. destruct (unpack_T3 p s E) as (x&y&z&EU&DX&DY&DZ&GX&GY&GZ). rewrite EU. cbn [obind].
  assert (P : forall i, row3 p i = V3 (get x (rev i)) (get y (rev i)) (get z (rev i))) by (intros i; rewrite GX, GY, GZ, rev_involutive; auto).
  assert (IR : forall i, inb i s -> inb (rev i) (rev s)).
  { intros i H. unfold inb. clear -H. induction H; cbn; [constructor|]. apply Forall2_app; auto. }
  destruct k.
  - destruct (ew2_same ndiv (ew1 (fun x => - x * f_x c)%num x) z) as (u&EU2&DU&GU); [cbn; congruence|]. rewrite EU2. cbn [obind].
    destruct (ew2_same ndiv (ew1 (fun y => y * f_y c)%num y) z) as (v&EV&DV&GV); [cbn; congruence|]. rewrite EV. cbn [obind].
    cbn [dims ew1] in DU, DV.
    match goal with |- context [stack [?a; ?b]] => destruct (stack_T2 a b s) as (t&ET&DT&GT); [cbn; congruence|cbn; congruence|rewrite ET] end. cbn [obind].
    destruct (lastk_some 2 p 3 s E) as (zz&EZ&DZZ&GZZ); [lia|]. rewrite EZ. cbn [obind].
    assert (F : forall i p0, inb i s -> row3 p i = mask_small_z p0 ->
       row2 (T t) i = V2 (- cx (mask_small_z p0) * f_x c / cz (mask_small_z p0) + center_x c)%num
                         (cy (mask_small_z p0) * f_y c / cz (mask_small_z p0) + center_y c)%num).
    { intros i p0 H HP. rewrite GT. cbn [ew1 get]. rewrite GU, GV by (cbn [ew1 dims]; rewrite ?DX, ?DY; auto). cbn [ew1 get].
      rewrite <- HP, P. reflexivity. }
    destruct hide.
    + match goal with |- context [setmask ?a ?m ?w] => destruct (setmask_rows a m w 2 s DT) as (r&ER&DR&GR); [cbn; auto|] end.
      exists r. split; auto. split; auto. intros i p0 H HP. specialize (F i p0 H HP). unfold p_image, rect_image. cbn [andb].
      rewrite <- F. unfold row2. rewrite !GR. cbn [ew1 get]. rewrite GZZ.
      assert (HZ : get p (2 :: i) = cz (mask_small_z p0)) by (rewrite <- HP; reflexivity). rewrite HZ.
      destruct (_ <? _)%num; reflexivity.
    + exists (T t). split; [auto|]. split; [auto|]. intros i p0 H HP. rewrite (F i p0 H HP). reflexivity.
  - destruct (ew2_same natan2 (ew1 nneg x) (ew1 nneg z)) as (a&EA&DA&GA); [cbn; congruence|]. rewrite EA. cbn [obind].
    destruct (ew2_same nadd (ew1 (fun x => x * x)%num x) (ew1 (fun z => z * z)%num z)) as (q&EQ&DQ&GQ); [cbn; congruence|]. rewrite EQ. cbn [obind].
    cbn [dims ew1] in DA, DQ.
    destruct (ew2_same ndiv (ew1 (fun y => - f_y c * y)%num y) (ew1 nsqrt q)) as (v&EV&DV&GV); [cbn; congruence|]. rewrite EV. cbn [obind].
    cbn [dims ew1] in DV.
    match goal with |- context [stack [?a; ?b]] => destruct (stack_T2 a b s) as (t&ET&DT&GT); [cbn; congruence|cbn; congruence|rewrite ET] end. cbn [obind].
    destruct (lastk_some 1 (T t) 2 s DT) as (zz&EZ&DZZ&GZZ); [lia|]. rewrite EZ. cbn [obind].
    match goal with |- context [setmask ?a ?m ?w] => destruct (setmask_rows a m w 2 s DT) as (r&ER&DR&GR); [cbn; auto|] end.
    exists r. split; auto. split; auto. intros i p0 H HP.
    assert (F : row2 (T t) i = V2 (- f_x c * natan2 (- cx (mask_small_z p0)) (- cz (mask_small_z p0)) + center_x c)%num
              (- f_y c * cy (mask_small_z p0) / nsqrt (cx (mask_small_z p0) * cx (mask_small_z p0) + cz (mask_small_z p0) * cz (mask_small_z p0)) + center_y c)%num).
    { rewrite GT. cbn [ew1 get]. rewrite GA, GV by (cbn [ew1 dims]; rewrite ?DX, ?DY; auto). cbn [ew1 get]. rewrite GQ by (cbn [ew1 dims]; rewrite DX; auto).
      cbn [ew1 get]. rewrite <- HP, P. reflexivity. }
    unfold p_image, cyl_image. rewrite <- F. unfold row2. rewrite !GR. cbn [ew1 get c2]. rewrite GZZ. destruct (nisnan _); reflexivity.
  - destruct (ew2_same natan2 (ew1 nneg x) (ew1 nneg z)) as (a&EA&DA&GA); [cbn; congruence|]. rewrite EA. cbn [obind].
    destruct (ew2_same nadd (ew1 (fun x => x * x)%num x) (ew1 (fun z => z * z)%num z)) as (q&EQ&DQ&GQ); [cbn; congruence|]. rewrite EQ. cbn [obind].
    cbn [dims ew1] in DA, DQ.
    destruct (ew2_same natan2 y (ew1 nsqrt q)) as (v&EV&DV&GV); [cbn; congruence|]. rewrite EV. cbn [obind].
    match goal with |- context [stack [?a; ?b]] => destruct (stack_T2 a b s) as (t&ET&DT&GT); [cbn; congruence|cbn; congruence|rewrite ET] end. cbn [obind].
    exists (T t). split; auto. split; auto. intros i p0 H HP.
    rewrite GT. cbn [ew1 get]. rewrite GA, GV by (cbn [ew1 dims]; rewrite ?DX, ?DY; auto). cbn [ew1 get]. rewrite GQ by (cbn [ew1 dims]; rewrite DX; auto).
    cbn [ew1 get]. unfold p_image, equi_image. rewrite <- HP, P. reflexivity.
Qed.
Lemma lens_rows l conv p s : dims p = 2 :: s ->
  exists r, lens_a l conv p = Some r /\ dims r = 2 :: s /\ forall i, inb i s -> row2 r i = lens_map l conv (row2 p i).
Proof.
  intros E. unfold lens_a.
  destruct (ew2_point2 nsub p (l_offset l) s E) as (a&EA&DA&GA). rewrite EA. cbn [obind].
  destruct (ew2_point2 ndiv a (l_scale l) s DA) as (b&EB&DB&GB). rewrite EB. cbn [obind].
  destruct (norm_row2 b s DB) as (n&EN&DN&GN). rewrite EN. cbn [obind].
  destruct (ew2_each2 ndiv b n s DB DN) as (d&ED&DD&GD). rewrite ED. cbn [obind].
  change (ew1 conv (newlast n)) with (newlast (ew1 conv n)).
  destruct (ew2_each2 nmul d (ew1 conv n) s DD DN) as (e&EE&DE&GE). rewrite EE. cbn [obind].
  destruct (ew2_point2 nmul e (l_scale l) s DE) as (f&EF&DF&GF). rewrite EF. cbn [obind].
  destruct (ew2_point2 nadd f (l_offset l) s DF) as (r&ER&DR&GR). exists r. split; auto. split; auto.
  intros i H. rewrite GR, GF, GE, GD by auto. cbn [ew1 get]. rewrite GN, GB, GA by auto. reflexivity.
Qed.
(** ** C14 *)
(** Any number of leading axes, of any lengths. *)
Theorem C14_imageFromSpace : forall c p s hide, dims p = 3 :: s ->
  exists r, imageFromSpace_a c p hide = Some r /\ dims r = 2 :: s /\
    forall i, inb i s -> row2 r i = imageFromSpace (camera_of c) (row3 p i) hide.
Proof.
  intros c p s hide E. unfold imageFromSpace_a. rewrite (ensure_some _ _ _ E). cbn [obind].
  destruct (camera_rows (nd_o c) p s E) as (a&EA&DA&GA). rewrite EA. cbn [obind]. rewrite (ensure_some _ _ _ DA). cbn [obind].
  destruct (mask_rows a s DA) as (b&EB&DB&GB). rewrite EB. cbn [obind].
  destruct (image_rows (nd_kind c) (nd_proj c) b s hide DB) as (d&ED&DD&GD). rewrite ED. cbn [obind].
  unfold dist_a, imageFromSpace, camera_of. destruct (nd_lens c) as [l|].
  - destruct (lens_rows l (l_conv l) d s DD) as (r&ER&DR&GR). exists r. split; auto. split; auto.
    intros i H. rewrite GR, (GD i (cameraFromSpace (nd_o c) (row3 p i))) by (auto; rewrite GB, GA; auto). reflexivity.
  - exists d. split; auto. split; auto. intros i H. rewrite (GD i (cameraFromSpace (nd_o c) (row3 p i))) by (auto; rewrite GB, GA; auto). reflexivity.
Qed.
Print Assumptions C14_imageFromSpace.
Theorem C14_getRay : forall c p s normed, dims p = 2 :: s ->
  exists o d, getRay_a c p normed = Some (o, d) /\ dims o = [3] /\ row3 o [] = ray_origin (camera_of c) /\
    dims d = 3 :: s /\ forall i, inb i s -> getRay (camera_of c) (row2 p i) normed = (row3 o [], row3 d i).
Proof.
  intros c p s normed E. unfold getRay_a. rewrite (ensure_some _ _ _ E). cbn [obind].
  destruct (space_rows (nd_o c) (of3 (V3 (Fin 0) (Fin 0) (Fin 0))) [] false eq_refl) as (o&EO&DO&GO). rewrite EO. cbn [obind].
  assert (U : exists q, undist_a c p = Some q /\ dims q = 2 :: s /\ forall i, inb i s -> row2 q i = cam_undist (camera_of c) (row2 p i)).
  { unfold undist_a, camera_of. destruct (nd_lens c) as [l|]; [apply lens_rows; auto|]. exists p. auto. }
  destruct U as (q&EQ&DQ&GQ). rewrite EQ. cbn [obind].
  destruct (ray_rows (nd_kind c) (nd_proj c) q s normed DQ) as (a&EA&DA&GA). rewrite EA. cbn [obind].
  destruct (space_rows (nd_o c) a s true DA) as (d&ED&DD&GD). rewrite ED. cbn [obind].
  exists o, d. assert (C : cam_o (camera_of c) = nd_o c) by (unfold camera_of; destruct (nd_lens c); reflexivity).
  assert (R0 : row3 o [] = ray_origin (camera_of c)) by (rewrite GO by constructor; unfold ray_origin; rewrite C; reflexivity).
  split; auto. split; auto. split; auto. split; auto.
  intros i H. rewrite GD, GA, GQ by auto. unfold getRay. rewrite R0. unfold ray_direction. f_equal. rewrite C.
  unfold camera_of. destruct (nd_lens c); reflexivity.
Qed.
Print Assumptions C14_getRay.

(** A constraint is one number for all points or an array with one number per point. *)
Definition fits (s : list nat) (a : option (arr num)) : Prop := match a with None => True | Some a => dims a = [] \/ dims a = s end.
Definition at_row (i : list nat) (a : arr num) : num := match dims a with [] => get a [] | _ => get a i end.
Definition pick_axis (k : nat) (p : v3 num) : num := match k with 0 => cx p | 1 => cy p | _ => cz p end.
Definition point_along (o d : v3 num) (f : num) : v3 num := if (f <? Fin 0)%num then nan3 else nv_add (nv_scale f d) o.

Lemma at_row_same i a s : dims a = s -> inb i s -> at_row i a = get a i.
Proof. intros E H. unfold at_row. rewrite E. destruct s; auto. inversion H; subst; auto. Qed.
Lemma factor_rows k g o d s : k < 3 -> dims o = [3] -> dims d = 3 :: s -> dims g = [] \/ dims g = s ->
  exists f, plane_factor k g (o, d) = Some f /\ dims f = s /\
    forall i, inb i s -> get f i = ((at_row i g - pick_axis k (row3 o [])) / pick_axis k (row3 d i))%num.
Proof.
  intros L HO HD HG. unfold plane_factor. cbn [fst snd].
  destruct (lastk_some k o 3 [] HO L) as (a&EA&DA&GA). rewrite EA. cbn [obind].
  destruct (lastk_some k d 3 s HD L) as (b&EB&DB&GB). rewrite EB. cbn [obind].
  destruct (ew2_scalar nsub g a DA) as (e&EE&DE&GE). rewrite EE. cbn [obind].
  assert (PA : get a [] = pick_axis k (row3 o [])) by (rewrite GA; destruct k as [|[|[|]]]; auto; lia).
  assert (PB : forall i, get b i = pick_axis k (row3 d i)) by (intros i; rewrite GB; destruct k as [|[|[|]]]; auto; lia).
  destruct HG as [HG|HG].
  - destruct (ew2_scalar_l ndiv e b) as (f&EF&DF&GF); [congruence|]. exists f. split; auto. split; [congruence|].
    intros i H. rewrite GF by (rewrite DB; auto). rewrite GE by (rewrite HG; constructor). rewrite PA, PB. unfold at_row. rewrite HG. auto.
  - destruct (ew2_same ndiv e b) as (f&EF&DF&GF); [congruence|]. exists f. split; auto. split; [congruence|].
    intros i H. rewrite GF by (rewrite DE, HG; auto). rewrite GE by (rewrite HG; auto). rewrite PA, PB, (at_row_same i g s); auto.
Qed.
(** one factor per point *)
Lemma along_rows o d f s : dims o = [3] -> dims d = 3 :: s -> dims f = s -> length s <= 1 ->
  exists r, along (o, d) f (match dims f with [] => false | _ => true end) = Some r /\ dims r = 3 :: s /\
    forall i, inb i s -> row3 r i = point_along (row3 o []) (row3 d i) (get f i).
Proof.
  intros HO HD HF L.
  assert (X : exists q, (if match dims f with [] => false | _ => true end then
      olet f := newsecond f in olet p := ew2 nmul d f in olet o := newfirst o in ew2 nadd p o
    else olet p := ew2 nmul d f in ew2 nadd p o) = Some q /\ dims q = 3 :: s /\
    forall i, inb i s -> row3 q i = nv_add (nv_scale (get f i) (row3 d i)) (row3 o [])).
  { rewrite HF. destruct s as [|n [|m s]]; [| |cbn in L; lia].
    - destruct (ew2_scalar nmul d f HF) as (p&EP&DP&GP). rewrite EP. cbn [obind]. rewrite HD in DP.
      destruct (ew2_points3 nadd p o [] DP HO) as (q&EQ&DQ&GQ). exists q. split; auto. split; auto.
      intros i H. inversion H; subst i. rewrite GQ by constructor. unfold nv_add, nv_scale. f_equal. unfold row3, map3v. cbn [cx cy cz].
      rewrite !GP by (rewrite HD; constructor; [lia|constructor]). auto.
    - unfold newsecond. rewrite HF. cbn [removelast last length app obind].
      assert (EN : ew2 nmul d (Arr [1; n] (fun i => get f (firstn 0 i ++ skipn 1 i)%list)) = ew2 nmul d (newlast f)).
      { unfold newlast. rewrite HF. reflexivity. }
      rewrite EN. destruct (ew2_each3 nmul d f [n] HD HF) as (p&EP&DP&GP). rewrite EP. cbn [obind].
      unfold newfirst. rewrite HO. cbn [obind app]. unfold ew2. cbn [dims get]. rewrite DP. cbn [bdims obind Nat.eqb].
      assert (BN : (if n =? 1 then Some [n] else if n =? 1 then Some [1] else Some [n]) = Some [n]).
      { destruct (Nat.eqb_spec n 1); auto. }
      rewrite BN. cbn [obind]. eexists. split; [reflexivity|]. cbn [dims get]. split; auto.
      intros i H. rewrite <- (GP i H) || idtac. inversion H as [|a ? ? ? LA H2]; subst. inversion H2; subst.
      unfold row3, nv_add, nv_scale, zip3v, map3v. cbn [get cx cy cz bidx Nat.eqb removelast].
      assert (Q : forall k, k < 3 -> get p [k; if n =? 1 then 0 else a] = get p [k; a]) by (intros k _; destruct (Nat.eqb_spec n 1); [replace a with 0 by lia|]; auto).
      assert (GP' := GP [a] H). unfold row3, map3v in GP'. cbn [cx cy cz] in GP'. injection GP' as G0 G1 G2.
      rewrite !Q by lia. rewrite G0, G1, G2. auto. }
  unfold along, before_mask. destruct X as (q&EQ&DQ&GQ). rewrite EQ. cbn [obind].
  match goal with |- context [setmask q ?m ?v] => destruct (setmask_rows q m v 3 s DQ) as (r&ER&DR&GR); [cbn; auto|] end.
  exists r. split; auto. split; auto. intros i H. unfold point_along. rewrite <- GQ by auto. unfold row3. rewrite !GR. cbn [ew1 get].
  destruct (_ <? _)%num; reflexivity.
Qed.
Theorem C14_spaceFromImage : forall c p s X Y Z, dims p = 2 :: s -> length s <= 1 -> fits s X -> fits s Y -> fits s Z ->
  X <> None \/ Y <> None \/ Z <> None ->
  exists r, spaceFromImage_a c p X Y Z DNone = Some r /\ dims r = 3 :: s /\
    forall i, inb i s -> spaceFromImage (camera_of c) (row2 p i)
      (Constr (option_map (at_row i) X) (option_map (at_row i) Y) (option_map (at_row i) Z) None None) = Some (row3 r i).
Proof.
  intros c p s X Y Z E L FX FY FZ NN. unfold spaceFromImage_a. rewrite (ensure_some _ _ _ E). cbn [obind].
  destruct (C14_getRay c p s false E) as (o&d&ER&DO&RO&DD&GD). rewrite ER. cbn [obind].
  assert (K : forall k g, k < 3 -> dims g = [] \/ dims g = s -> exists r,
     (olet f := plane_factor k g (o, d) in along (o, d) f (match dims f with [] => false | _ => true end)) = Some r /\ dims r = 3 :: s /\
     forall i, inb i s -> let q := getRay (camera_of c) (row2 p i) false in
       row3 r i = point_along (fst q) (snd q) ((at_row i g - pick_axis k (fst q)) / pick_axis k (snd q))%num).
  { intros k g LK HG. destruct (factor_rows k g o d s LK DO DD HG) as (f&EF&DF&GF). rewrite EF. cbn [obind].
    destruct (along_rows o d f s DO DD DF L) as (r&EA&DA&GA). exists r. split; auto. split; auto. intros i H. cbv zeta. rewrite GD by auto. cbn [fst snd].
    rewrite GA, GF by auto. auto. }
  destruct X as [x|]; [|destruct Y as [y|]; [|destruct Z as [z|]]].
  - destruct (K 0 x) as (r&EA&DA&GA); [lia|auto|]. exists r. split; auto. split; auto. intros i H. unfold spaceFromImage. cbn [k_mesh k_D k_X k_Y k_Z option_map].
    rewrite GA by auto. reflexivity.
  - destruct (K 1 y) as (r&EA&DA&GA); [lia|auto|]. exists r. split; auto. split; auto. intros i H. unfold spaceFromImage. cbn [k_mesh k_D k_X k_Y k_Z option_map].
    rewrite GA by auto. reflexivity.
  - destruct (K 2 z) as (r&EA&DA&GA); [lia|auto|]. exists r. split; auto. split; auto. intros i H. unfold spaceFromImage. cbn [k_mesh k_D k_X k_Y k_Z option_map].
    rewrite GA by auto. reflexivity.
  - destruct NN as [N|[N|N]]; congruence.
Qed.
Print Assumptions C14_spaceFromImage.
(** One distance for all points (any number of axes), or one distance per point. *)
Theorem C14_distance : forall c p s X Y Z x, dims p = 2 :: s ->
  exists r, spaceFromImage_a c p X Y Z (DNum x) = Some r /\ dims r = 3 :: s /\
    forall i, inb i s -> spaceFromImage (camera_of c) (row2 p i) (on_D x) = Some (row3 r i).
Proof.
  intros c p s X Y Z x E. unfold spaceFromImage_a. rewrite (ensure_some _ _ _ E). cbn [obind].
  destruct (C14_getRay c p s true E) as (o&d&ER&DO&RO&DD&GD). rewrite ER. cbn [obind]. unfold along, before_mask.
  destruct (ew2_scalar nmul d (scalar x) eq_refl) as (q&EQ&DQ&GQ). rewrite EQ. cbn [obind]. rewrite DD in DQ.
  assert (EO : ew2 nadd q o = ew2 nadd q (of3 (row3 o [])) \/ True) by auto. clear EO.
  assert (W : exists w, ew2 nadd q o = Some w /\ dims w = 3 :: s /\ forall i, inb i s -> row3 w i = nv_add (row3 q i) (row3 o [])).
  { unfold ew2. rewrite DQ, DO, bdims_row. cbn [obind]. eexists. split; [reflexivity|]. cbn [dims get]. split; auto.
    intros i H. unfold row3, nv_add, zip3v. cbn [get cx cy cz]. rewrite !bidx_row by lia. rewrite !bidx_in by (constructor; auto). auto. }
  destruct W as (w&EW&DW&GW). rewrite EW. cbn [obind]. unfold setmask. rewrite DW. cbn [ew1 dims scalar length]. rewrite Nat.sub_0_r.
  change (S (length s)) with (length (3 :: s)). rewrite skipn_all.
  destruct (list_eq_dec _ _ _) as [_|NE]; [|congruence]. eexists. split; [reflexivity|]. cbn [dims]. split; auto.
  intros i H. unfold spaceFromImage, on_D. cbn [k_mesh k_D k_X k_Y k_Z]. unfold row3. cbn [get ew1 scalar].
  assert (R : nv_add (nv_scale x (row3 d i)) (row3 o []) = row3 w i).
  { rewrite GW by auto. f_equal. unfold row3, nv_scale, map3v. cbn [cx cy cz]. rewrite !GQ by (rewrite DD; constructor; [lia|auto]). auto. }
  pose proof (f_equal fst (GD i H)) as G1. pose proof (f_equal snd (GD i H)) as G2. cbn [fst snd getRay] in G1, G2. cbn [getRay]. rewrite G1, G2, R. destruct (_ <? _)%num; reflexivity.
Qed.
Print Assumptions C14_distance.
Theorem C14_distances : forall c p n X Y Z D, dims p = [2; n] -> dims D = [n] ->
  exists r, spaceFromImage_a c p X Y Z (DArr D) = Some r /\ dims r = [3; n] /\
    forall i, i < n -> spaceFromImage (camera_of c) (row2 p [i]) (on_D (get D [i])) = Some (row3 r [i]).
Proof.
  intros c p n X Y Z D E HD. unfold spaceFromImage_a. rewrite (ensure_some _ _ _ E). cbn [obind].
  destruct (C14_getRay c p [n] true E) as (o&d&ER&DO&RO&DD&GD). rewrite ER. cbn [obind].
  destruct (along_rows o d D [n] DO DD HD ltac:(auto)) as (r&EA&DA&GA). rewrite HD in EA. exists r. split; auto. split; auto.
  intros i L. assert (H : inb [i] [n]) by (constructor; auto; constructor). rewrite GA by auto.
  unfold spaceFromImage, on_D. cbn [k_mesh k_D k_X k_Y k_Z]. pose proof (f_equal fst (GD [i] H)) as G1. pose proof (f_equal snd (GD [i] H)) as G2. cbn [fst snd getRay] in G1, G2. rewrite G1, G2. reflexivity.
Qed.
Print Assumptions C14_distances.

(** One point and several planes: one result per plane. *)
Theorem C14_planes : forall c p n X Y Z k g, dims p = [2] -> which X Y Z = Some (k, g) -> dims g = [n] ->
  exists r, spaceFromImage_a c p X Y Z DNone = Some r /\ dims r = [3; n] /\
    forall i, i < n -> spaceFromImage (camera_of c) (row2 p [])
      (match k with 0 => on_X (get g [i]) | 1 => on_Y (get g [i]) | _ => on_Z (get g [i]) end) = Some (row3 r [i]).
Proof.
  intros c p n X Y Z k g E W HG. unfold spaceFromImage_a. rewrite (ensure_some _ _ _ E). cbn [obind].
  destruct (C14_getRay c p [] false E) as (o&d&ER&DO&RO&DD&GD). rewrite ER. cbn [obind]. rewrite W. cbn [obind fst snd].
  assert (L : k < 3) by (unfold which in W; destruct X; [|destruct Y; [|destruct Z]]; inversion W; lia). clear W.
  unfold plane_factor. cbn [fst snd].
  destruct (lastk_some k o 3 [] DO L) as (a&EA&DA&GA). rewrite EA. cbn [obind].
  destruct (lastk_some k d 3 [] DD L) as (b&EB&DB&GB). rewrite EB. cbn [obind].
  destruct (ew2_scalar nsub g a DA) as (e&EE&DE&GE). rewrite EE. cbn [obind].
  destruct (ew2_scalar ndiv e b DB) as (f&EF&DF&GF). rewrite EF. cbn [obind]. rewrite DE in DF. rewrite HG in *.
  unfold along, before_mask, newsecond, newfirst. rewrite DF, DO. cbn [obind removelast last length app].
  unfold ew2. cbn [dims get]. rewrite DD.
  assert (BN : bdims [3] [1; n] = Some [3; n]) by reflexivity. rewrite BN. cbn [obind dims].
  assert (BM : bdims [3; n] [3; 1] = Some [3; n]) by (cbn; destruct (Nat.eqb_spec n 1); subst; auto). rewrite BM. cbn [obind].
  match goal with |- context [setmask ?q ?m ?v] => destruct (setmask_rows q m v 3 [n] eq_refl) as (r&ER'&DR&GR); [cbn; auto|] end.
  exists r. split; auto. split; auto. intros i Li. assert (H : inb [i] [n]) by (constructor; auto; constructor).
  assert (PA : get a [] = pick_axis k (row3 o [])) by (rewrite GA; destruct k as [|[|[|]]]; auto; lia).
  assert (PB : get b [] = pick_axis k (row3 d [])) by (rewrite GB; destruct k as [|[|[|]]]; auto; lia).
  assert (FV : get f [i] = ((get g [i] - pick_axis k (row3 o [])) / pick_axis k (row3 d []))%num).
  { rewrite GF by (rewrite DE; auto). rewrite GE by auto. rewrite PA, PB. auto. }
  assert (RV : row3 r [i] = point_along (row3 o []) (row3 d []) (get f [i])).
  { unfold row3 at 1. rewrite !GR. cbn [ew1 get]. unfold point_along. destruct (_ <? _)%num; [reflexivity|].
    unfold nv_add, nv_scale, zip3v, map3v, row3. cbn [cx cy cz bidx removelast firstn skipn app dims].
    assert (Q : (if n =? 1 then 0 else i) = i) by (destruct (Nat.eqb_spec n 1); lia). cbn. rewrite ?Q. cbn. rewrite ?Q.
    reflexivity. }
  rewrite RV, FV. pose proof (f_equal fst (GD [] ltac:(constructor))) as G1. pose proof (f_equal snd (GD [] ltac:(constructor))) as G2. cbn [fst snd getRay] in G1, G2.
  unfold spaceFromImage. destruct k as [|[|[|]]]; cbn [on_X on_Y on_Z k_mesh k_D k_X k_Y k_Z]; rewrite G1, G2; try reflexivity; lia.
Qed.
Print Assumptions C14_planes.

(** ** Object heights and lengths *)
Theorem C14_getObjectHeight : forall c feet heads s Z, dims feet = 2 :: s -> dims heads = 2 :: s -> length s <= 1 -> fits s (Some Z) ->
  exists r, getObjectHeight_a c feet heads Z = Some r /\ dims r = s /\
    forall i, inb i s -> getObjectHeight (camera_of c) (row2 feet i) (row2 heads i) (at_row i Z) = Some (get r i).
Proof.
  intros c feet heads s Z EF EH L FZ. unfold getObjectHeight_a, same_shape. rewrite EF, EH.
  destruct (list_eq_dec _ _ _) as [_|NE]; [|congruence]. cbn [obind]. rewrite (ensure_some _ _ _ EF), (ensure_some _ _ _ EH). cbn [obind].
  destruct (C14_spaceFromImage c feet s None None (Some Z) EF L) as (f&E1&D1&G1); try (exact I); auto; [right; right; discriminate|].
  rewrite E1. cbn [obind].
  destruct (lastk_some 1 f 3 s D1) as (y&EY&DY&GY); [lia|]. rewrite EY. cbn [obind].
  destruct (C14_spaceFromImage c heads s None (Some y) (Some (scalar (Fin 0))) EH L) as (h1&E2&D2&G2); try (exact I); cbn [fits scalar dims]; auto; [right; left; discriminate|].
  rewrite E2. cbn [obind].
  destruct (lastk_some 0 f 3 s D1) as (x&EX&DX&GX); [lia|]. rewrite EX. cbn [obind].
  destruct (C14_spaceFromImage c heads s (Some x) None (Some (scalar (Fin 0))) EH L) as (h2&E3&D3&G3); try (exact I); cbn [fits scalar dims]; auto; [left; discriminate|].
  rewrite E3. cbn [obind]. rewrite D2, D3. destruct (list_eq_dec _ _ _) as [_|NE]; [|congruence]. cbn [obind].
  destruct (ew2_points3 nadd h1 h2 s D2 D3) as (q&EQ&DQ&GQ). rewrite EQ. cbn [obind].
  destruct (lastk_some 2 (ew1 (fun s => s / Fin 2)%num q) 3 s DQ) as (a&EA&DA&GA); [lia|]. rewrite EA. cbn [obind].
  destruct (lastk_some 2 f 3 s D1) as (b&EB&DB&GB); [lia|]. rewrite EB. cbn [obind].
  destruct (ew2_same nsub a b) as (r&ER&DR&GR); [congruence|]. exists r. split; auto. split; [congruence|].
  intros i H. unfold getObjectHeight, on_Z. rewrite (G1 i H : spaceFromImage _ _ (Constr None None (Some (at_row i Z)) None None) = _).
  pose proof (G2 i H) as A2. pose proof (G3 i H) as A3. cbn [option_map at_row scalar dims get] in A2, A3.
  rewrite (at_row_same i y s DY H), GY in A2. rewrite (at_row_same i x s DX H), GX in A3.
  unfold on_Y, on_X. cbn [row3 cx cy]. rewrite A2, A3. rewrite GR by (rewrite DA; auto). rewrite GA, GB. f_equal. f_equal.
  cbn [ew1 get]. pose proof (f_equal cz (GQ i H)) as CZ. cbn [row3 cz zip3v] in CZ. rewrite CZ. reflexivity.
Qed.
Print Assumptions C14_getObjectHeight.
Theorem C14_getObjectLength : forall c front back s Z, dims front = 2 :: s -> dims back = 2 :: s -> length s <= 1 -> fits s (Some Z) ->
  exists r, getObjectLength_a c front back Z = Some r /\ dims r = s /\
    forall i, inb i s -> getObjectLength (camera_of c) (row2 front i) (row2 back i) (at_row i Z) = Some (get r i).
Proof.
  intros c front back s Z EF EH L FZ. unfold getObjectLength_a, same_shape. rewrite EF, EH.
  destruct (list_eq_dec _ _ _) as [_|NE]; [|congruence]. cbn [obind]. rewrite (ensure_some _ _ _ EF), (ensure_some _ _ _ EH). cbn [obind].
  destruct (C14_spaceFromImage c front s None None (Some Z) EF L) as (f&E1&D1&G1); try (exact I); auto; [right; right; discriminate|].
  destruct (C14_spaceFromImage c back s None None (Some Z) EH L) as (b&E2&D2&G2); try (exact I); auto; [right; right; discriminate|].
  rewrite E1. cbn [obind]. rewrite E2. cbn [obind].
  destruct (ew2_points3 nsub f b s D1 D2) as (q&EQ&DQ&GQ). rewrite EQ. cbn [obind].
  destruct (norm_row3 q s DQ) as (r&ER&DR&GR). exists r. split; auto. split; auto.
  intros i H. unfold getObjectLength, on_Z. rewrite (G1 i H : spaceFromImage _ _ (Constr None None (Some (at_row i Z)) None None) = _).
  rewrite (G2 i H : spaceFromImage _ _ (Constr None None (Some (at_row i Z)) None None) = _). rewrite GR, GQ by auto. reflexivity.
Qed.
Print Assumptions C14_getObjectLength.

(** ** More than one leading axis: spaceFromImage mixes the points *)
(** 1 x 3 pixels: component k of every result is computed with the factor of pixel k. *)
Lemma grid_value c p g : dims p = [2; 3; 1] -> dims g = [] ->
  exists r, spaceFromImage_a c p None None (Some g) DNone = Some r /\ dims r = [3; 3; 1] /\
    forall j, j < 3 -> let o := ray_origin (camera_of c) in
      let d j := ray_direction (camera_of c) (row2 p [j; 0]) false in
      let f j := ((get g [] - cz o) / cz (d j))%num in
      row3 r [j; 0] = if (f j <? Fin 0)%num then nan3
        else V3 (cx (d j) * f 0 + cx o)%num (cy (d j) * f 1 + cy o)%num (cz (d j) * f 2 + cz o)%num.
Proof.
  intros E HG. unfold spaceFromImage_a. rewrite (ensure_some _ _ _ E). cbn [obind which].
  destruct (C14_getRay c p [3; 1] false E) as (o&d&ER&DO&RO&DD&GD). rewrite ER. cbn [obind fst snd].
  destruct (factor_rows 2 g o d [3; 1] ltac:(lia) DO DD (or_introl HG)) as (f&EF&DF&GF). rewrite EF. cbn [obind].
  unfold along, before_mask, newsecond, newfirst. rewrite DF, DO. cbn [obind removelast last length app].
  unfold ew2. cbn [dims get]. rewrite DD. cbn [bdims Nat.eqb obind dims].
  match goal with |- context [setmask ?q ?m ?v] => destruct (setmask_rows q m v 3 [3; 1] eq_refl) as (r&ER'&DR&GR); [cbn; auto|] end.
  exists r. split; auto. split; auto. intros j L. cbv zeta.
  assert (B : forall k, k < 3 -> inb [k; 0] [3; 1]) by (intros k H; constructor; auto; constructor; auto; constructor).
  assert (W : forall k, k < 3 -> ray_direction (camera_of c) (row2 p [k; 0]) false = row3 d [k; 0]) by (intros k H; apply (f_equal snd (GD [k; 0] (B k H)))).
  rewrite !W by lia.
  rewrite <- RO. assert (FV : forall k, k < 3 -> get f [k; 0] = ((get g [] - cz (row3 o [])) / cz (row3 d [k; 0]))%num).
  { intros k H. rewrite GF by auto. cbn [pick_axis]. unfold at_row. rewrite HG. auto. }
  rewrite <- !FV by lia. unfold row3 at 1. rewrite !GR. cbn [ew1 get]. destruct (_ <? _)%num; [reflexivity|].
  cbn [bidx Nat.eqb removelast firstn skipn app row3 cx cy cz]. destruct j as [|[|[|]]]; try reflexivity; lia.
Qed.
Definition grid3 (a b c : v2 num) : arr num :=
  Arr [2; 3; 1] (fun i => match i with
    | k :: j :: _ => let q := match j with 0 => a | 1 => b | _ => c end in match k with 0 => c1 q | _ => c2 q end
    | _ => NaN end).
Theorem C14_grid_refuted : exists c p s r i, dims p = 2 :: s /\ inb i s /\
  spaceFromImage_a c p None None (Some (scalar (Fin 0))) DNone = Some r /\ dims r = 3 :: s /\
  spaceFromImage (camera_of c) (row2 p i) (on_Z (Fin 0)) <> Some (row3 r i).
Proof.
  destruct (ex_cam2 Rectilinear) as (c0&HC). pose proof HC as (pr&m&E0&_).
  set (c := NdCam Rectilinear pr m None). assert (EC : camera_of c = c0) by (rewrite E0; reflexivity).
  assert (DV : forall v, exists D, rep3 (ray_direction c0 (V2 (Fin 2000) (Fin v)) false) D /\ cx D = 0%R /\ cy D = 1%R /\ (cz D = (1500 - v) / 3500)%R).
  { intros v. destruct (C11_ray_starts_at_camera c0 Rectilinear ex_r ex_or2 (V2 (Fin 2000) (Fin v)) (V2 2000%R v) HC) as (D&_&RD&_&ED); [split; reflexivity|discriminate|].
    exists D. split; auto. rewrite ex2_coords in ED. unfold rayR, alphaR, betaR, ex_r in ED.
    cbn [rv_add zip3v opos ex_or2 pos_x_m pos_y_m elevation_m cx cy cz c1 c2 f_x f_y center_x center_y] in ED. injection ED as E1 E2 E3. lra. }
  destruct (C11_ray_starts_at_camera c0 Rectilinear ex_r ex_or2 (V2 (Fin 2000) (Fin 1850)) (V2 2000%R 1850%R) HC) as (_&RO&_); [split; reflexivity|discriminate|].
  cbn [getRay fst] in RO. change (opos ex_or2) with (V3 0 0 10)%R in RO.
  destruct (DV 1850%R) as (A&RA&A1&A2&A3). destruct (DV 2200%R) as (B&RB&B1&B2&B3).
  set (p := grid3 (V2 (Fin 2000) (Fin 1850)) (V2 (Fin 2000) (Fin 2200)) (V2 (Fin 2000) (Fin 2900))).
  destruct (grid_value c p (scalar (Fin 0)) eq_refl eq_refl) as (r&ER&DR&GR).
  exists c, p, [3; 1], r, [0; 0]. split; [reflexivity|]. split; [repeat constructor|]. split; [exact ER|]. split; [exact DR|].
  rewrite (GR 0) by lia. rewrite EC. unfold spaceFromImage, on_Z. cbn [k_mesh k_D k_X k_Y k_Z].
  change (row2 p [0; 0]) with (V2 (Fin 2000) (Fin 1850)). change (row2 p [1; 0]) with (V2 (Fin 2000) (Fin 2200)). change (row2 p [2; 0]) with (V2 (Fin 2000) (Fin 2900)).
  cbn [get_axis scalar get].
  assert (F0 : rep ((Fin 0 - cz (ray_origin c0)) / cz (ray_direction c0 (V2 (Fin 2000) (Fin 1850)) false))%num 100%R).
  { replace 100%R with ((0 - 10) / cz A)%R by (rewrite A3; field). apply rep_div; [apply rep_sub; [reflexivity|apply RO]|apply RA|rewrite A3; lra]. }
  assert (F1 : rep ((Fin 0 - cz (ray_origin c0)) / cz (ray_direction c0 (V2 (Fin 2000) (Fin 2200)) false))%num 50%R).
  { replace 50%R with ((0 - 10) / cz B)%R by (rewrite B3; field). apply rep_div; [apply rep_sub; [reflexivity|apply RO]|apply RB|rewrite B3; lra]. }
  rewrite (rep_ltb _ (Fin 0) 100%R 0%R F0 eq_refl). replace (Rltb 100%R 0%R) with false by (symmetry; apply Rltb_false; lra).
  intros H. apply (f_equal (fun q => match q with Some q => cy q | None => NaN end)) in H. cbn [cy] in H.
  assert (Y1 : rep (cy (ray_direction c0 (V2 (Fin 2000) (Fin 1850)) false) * ((Fin 0 - cz (ray_origin c0)) / cz (ray_direction c0 (V2 (Fin 2000) (Fin 2200)) false)) + cy (ray_origin c0))%num (1 * 50 + 0)%R).
  { apply rep_add; [apply rep_mul; [rewrite <- A2; apply RA|exact F1]|apply RO]. }
  rewrite <- H in Y1.
  assert (Y2 : rep (cy (nv_add (nv_scale ((Fin 0 - cz (ray_origin c0)) / cz (ray_direction c0 (V2 (Fin 2000) (Fin 1850)) false))%num (ray_direction c0 (V2 (Fin 2000) (Fin 1850)) false)) (ray_origin c0))) (1 * 100 + 0)%R).
  { unfold nv_add, nv_scale, zip3v, map3v. cbn [cy]. apply rep_add; [|apply RO]. apply rep_mul; [rewrite <- A2; apply RA|exact F0]. }
  pose proof (rep_inj _ _ _ Y1 Y2). lra.
Qed.
Print Assumptions C14_grid_refuted.

(** ** C55: which arrays are written to *)
(** A command that may write only to arrays from [n] on, and whose results satisfy [Q]. *)
Definition above {A} (n : nat) (c : cmd A) (Q : A -> Prop) : Prop := forall h, n <= length h ->
  length h <= length (fst (c h)) /\ (forall l, l < n -> nth_error (fst (c h)) l = nth_error h l) /\ forall a, snd (c h) = Some a -> Q a.
Lemma above_bind {A B} n (c : cmd A) (f : A -> cmd B) P Q : above n c P -> (forall a, P a -> above n (f a) Q) -> above n (cbind c f) Q.
Proof.
  intros HC HF h L. unfold cbind. destruct (HC h L) as (L1&K1&Q1). destruct (c h) as [h1 [a|]] eqn:E; cbn [fst snd] in *.
  - destruct (HF a (Q1 a eq_refl) h1) as (L2&K2&Q2); [lia|]. split; [lia|]. split; auto. intros l Hl. rewrite K2, K1; auto.
  - split; auto. split; auto. discriminate.
Qed.
Lemma above_ret {A} n (x : option A) : above n (ret x) (fun a => x = Some a).
Proof. intros h L. cbn. auto. Qed.
Lemma above_read n l : above n (read l) (fun _ => True).
Proof. intros h L. cbn. auto. Qed.
Lemma above_alloc n a : above n (alloc a) (fun l => n <= l).
Proof.
  intros h L. cbn. rewrite app_length. split; [lia|]. split; [|intros x E; inversion E; subst; auto]. intros l H. apply nth_error_app1. lia.
Qed.
Lemma update_length {A} (h : list A) l a : length (update h l a) = length h.
Proof. revert l. induction h; intros [|l]; cbn; auto. Qed.
Lemma update_other {A} (h : list A) l l' a : l <> l' -> nth_error (update h l a) l' = nth_error h l'.
Proof. revert l l'. induction h; intros [|l] [|l'] H; cbn; auto; lia. Qed.
Lemma update_same {A} (h : list A) l a : l < length h -> nth_error (update h l a) l = Some a.
Proof. revert l. induction h; intros [|l] H; cbn in *; auto; try lia. apply IHh. lia. Qed.
Lemma above_write n l a : n <= l -> above n (write l a) (fun _ => True).
Proof. intros H h L. cbn. rewrite update_length. split; auto. split; auto. intros l' Hl. apply update_other. lia. Qed.
Lemma above_weak {A} n (c : cmd A) (P Q : A -> Prop) : above n c P -> (forall a, P a -> Q a) -> above n c Q.
Proof. intros H W h L. destruct (H h L) as (A1&A2&A3). auto. Qed.
Ltac above_step := eapply above_bind; [first [apply above_read|apply above_ret|apply above_alloc]|cbv beta; intros].

Lemma above_cameraFromSpace n m l : above n (cameraFromSpace_c m l) (fun l => n <= l).
Proof. unfold cameraFromSpace_c. do 2 above_step. apply above_alloc. Qed.
Lemma above_spaceFromCamera n m l b : above n (spaceFromCamera_c m l b) (fun l => n <= l).
Proof. unfold spaceFromCamera_c. do 2 above_step. apply above_alloc. Qed.
Lemma above_p_getRay n k c l b : above n (p_getRay_c k c l b) (fun l => n <= l).
Proof. unfold p_getRay_c. do 2 above_step. apply above_alloc. Qed.
Lemma above_imageFromCamera n k c l b : n <= l -> above n (imageFromCamera_c k c l b) (fun l => n <= l).
Proof.
  intros H. unfold imageFromCamera_c. do 3 above_step. eapply above_bind; [apply above_write; auto|]. intros _ _. above_step. apply above_alloc.
Qed.
Lemma above_lens n c b l : above n (lens_c c b l) (fun l' => l' = l \/ n <= l').
Proof.
  unfold lens_c. destruct (nd_lens c).
  - do 2 above_step. eapply above_weak; [apply above_alloc|auto].
  - eapply above_weak; [apply above_ret|]. cbv beta. intros a E. inversion E; auto.
Qed.
Lemma above_imageFromSpace n c l b : above n (imageFromSpace_c c l b) (fun l => n <= l).
Proof.
  unfold imageFromSpace_c. do 2 above_step. eapply above_bind; [apply above_cameraFromSpace|]. cbv beta. intros l1 L1.
  eapply above_bind; [apply above_imageFromCamera; exact L1|]. cbv beta. intros l2 L2. eapply above_weak; [apply above_lens|].
  cbv beta. intros w [-> | H1]; auto.
Qed.
Lemma above_getRay n c l b : above n (getRay_c c l b) (fun r => n <= fst r /\ n <= snd r).
Proof.
  unfold getRay_c. do 2 above_step. above_step. eapply above_bind; [apply above_spaceFromCamera|]. cbv beta. intros o L1.
  eapply above_bind; [apply above_lens|]. intros q _. eapply above_bind; [apply above_p_getRay|]. intros r _.
  eapply above_bind; [apply above_spaceFromCamera|]. cbv beta. intros d L2. eapply above_weak; [apply above_ret|]. cbv beta. intros x E. inversion E. auto.
Qed.
Lemma above_along n o d f b : above n (along_c o d f b) (fun l => n <= l).
Proof.
  unfold along_c. do 3 above_step. above_step. do 2 above_step. eapply above_bind; [apply above_write; auto|]. intros _ _.
  eapply above_weak; [apply above_ret|]. cbv beta. intros x E. inversion E; subst; auto.
Qed.
Lemma above_read_opt n l : above n (read_opt l) (fun _ => True).
Proof. destruct l; cbn [read_opt]; [above_step|]; eapply above_weak; try apply above_ret; auto. Qed.
Lemma above_spaceFromImage n c l X Y Z D : above n (spaceFromImage_c c l X Y Z D) (fun l => n <= l).
Proof.
  unfold spaceFromImage_c. do 2 above_step. do 3 (eapply above_bind; [apply above_read_opt|intros ? _]). destruct D.
  - eapply above_bind; [apply above_getRay|]. intros r _. above_step. do 2 above_step. above_step. apply above_along.
  - eapply above_bind; [apply above_getRay|]. intros r _. apply above_along.
  - eapply above_bind; [apply above_getRay|]. intros r _. above_step. apply above_along.
Qed.
(** All arrays that exist before the call have their old content after it, and the result is a new array: the caller may
    write to the result. *)
Theorem C55_imageFromSpace : forall c l hide h, let '(h', r) := imageFromSpace_c c l hide h in
  (forall l', l' < length h -> nth_error h' l' = nth_error h l') /\ (forall l', r = Some l' -> length h <= l').
Proof. intros c l hide h. destruct (above_imageFromSpace (length h) c l hide h (le_n _)) as (_&K&Q). destruct (imageFromSpace_c c l hide h); auto. Qed.
Print Assumptions C55_imageFromSpace.
Theorem C55_getRay : forall c l normed h, let '(h', r) := getRay_c c l normed h in
  (forall l', l' < length h -> nth_error h' l' = nth_error h l') /\ (forall o d, r = Some (o, d) -> length h <= o /\ length h <= d).
Proof. intros c l b h. destruct (above_getRay (length h) c l b h (le_n _)) as (_&K&Q). destruct (getRay_c c l b h) as [h' r]; cbn in *. split; auto. intros o1 d1 E. apply (Q _ E). Qed.
Print Assumptions C55_getRay.
Theorem C55_spaceFromImage : forall c l X Y Z D h, let '(h', r) := spaceFromImage_c c l X Y Z D h in
  (forall l', l' < length h -> nth_error h' l' = nth_error h l') /\ (forall l', r = Some l' -> length h <= l').
Proof. intros c l X Y Z D h. destruct (above_spaceFromImage (length h) c l X Y Z D h (le_n _)) as (_&K&Q). destruct (spaceFromImage_c c l X Y Z D h); auto. Qed.
Print Assumptions C55_spaceFromImage.

(** The commands compute what the functions of the model compute. *)
Definition content (x : heap * option nat) : option (arr num) := match snd x with Some l => nth_error (fst x) l | None => None end.
Lemma alloc_content a h : content (alloc a h) = Some a.
Proof. cbn. rewrite nth_error_app2, Nat.sub_diag by lia. auto. Qed.
Lemma bind_read {B} l (f : arr num -> cmd B) h p : nth_error h l = Some p -> cbind (read l) f h = f p h.
Proof. intros E. unfold cbind, read. rewrite E. auto. Qed.
Lemma bind_some {A B} (x : A) (f : A -> cmd B) h : cbind (ret (Some x)) f h = f x h.
Proof. reflexivity. Qed.
Lemma bind_none {A B} (f : A -> cmd B) h : cbind (ret None) f h = (h, None).
Proof. reflexivity. Qed.
Lemma bind_bind {A B C} (c : cmd A) (f : A -> cmd B) (g : B -> cmd C) h : cbind (cbind c f) g h = cbind c (fun a => cbind (f a) g) h.
Proof. unfold cbind. destruct (c h) as [h1 [a|]]; auto. Qed.
Lemma bind_alloc {B} a (f : nat -> cmd B) h : cbind (alloc a) f h = f (length h) (h ++ [a])%list.
Proof. reflexivity. Qed.
Lemma bind_write {B} l a (f : unit -> cmd B) h : cbind (write l a) f h = f tt (update h l a).
Proof. reflexivity. Qed.
Lemma nth_last {A} (h : list A) a : nth_error (h ++ [a]) (length h) = Some a.
Proof. rewrite nth_error_app2, Nat.sub_diag by lia. auto. Qed.
Lemma nth_old {A} (h : list A) a l x : nth_error h l = Some x -> nth_error (h ++ [a]) l = Some x.
Proof. intros E. rewrite nth_error_app1; auto. apply nth_error_Some. congruence. Qed.
Lemma nth_upd {A} (h : list A) l l' a x : l <> l' -> nth_error h l' = Some x -> nth_error (update h l a) l' = Some x.
Proof. intros N E. rewrite update_other; auto. Qed.
Lemma ensure_same {A} n (a b : arr A) : ensure n a = Some b -> b = a.
Proof. unfold ensure. destruct (dims a); [discriminate|]. destruct (_ =? _); congruence. Qed.
Ltac look_up := solve [eassumption | apply nth_last | repeat first [eassumption | apply nth_last | apply nth_old]].
Ltac run := repeat (cbv beta; first
  [ rewrite bind_bind
  | rewrite bind_some | rewrite bind_none | rewrite bind_alloc | rewrite bind_write
  | erewrite bind_read by look_up
  | match goal with |- context [cbind (ret ?x) _ _] => destruct x eqn:? end ]; cbn [obind fst snd]).
Lemma lens_content c b l h p : nth_error h l = Some p ->
  content (lens_c c b l h) = (if b then undist_a c p else dist_a c p).
Proof.
  intros E. unfold lens_c, undist_a, dist_a. destruct (nd_lens c) as [ln|]; [|destruct b; auto].
  unfold cbind, read, ret. rewrite E. destruct b; (destruct (lens_a _ _ _); [apply alloc_content|auto]).
Qed.
Ltac settle :=
  repeat match goal with H : ensure _ ?a = Some ?b |- _ => lazymatch b with a => fail | _ => pose proof (ensure_same _ _ _ H); subst b end end;
  repeat (match goal with H : ?x = _ |- context [?x] => lazymatch type of x with option _ => rewrite H end end; cbn [obind fst snd]).
Theorem C55_imageFromSpace_value : forall c l hide h p, nth_error h l = Some p ->
  content (imageFromSpace_c c l hide h) = imageFromSpace_a c p hide.
Proof.
  intros c l hide h p E. unfold imageFromSpace_c, imageFromSpace_a, cameraFromSpace_c, imageFromCamera_c.
  run; auto; settle; auto. apply (lens_content c false). apply nth_last.
Qed.
Print Assumptions C55_imageFromSpace_value.
Lemma getRay_run c l b h p : nth_error h l = Some p ->
  match getRay_a c p b with
  | Some (o, d) => exists ext lo ld, getRay_c c l b h = ((h ++ ext)%list, Some (lo, ld)) /\ nth_error (h ++ ext) lo = Some o /\ nth_error (h ++ ext) ld = Some d
  | None => snd (getRay_c c l b h) = None
  end.
Proof.
  intros E. unfold getRay_c, getRay_a, spaceFromCamera_c, p_getRay_c, lens_c, undist_a.
  assert (HE : forall ext (h' : heap) lo ld o d, h' = (h ++ ext)%list -> nth_error h' lo = Some o -> nth_error h' ld = Some d ->
     exists ext lo' ld', (h', Some (lo, ld)) = ((h ++ ext)%list, Some (lo', ld')) /\ nth_error (h ++ ext) lo' = Some o /\ nth_error (h ++ ext) ld' = Some d).
  { intros ext h' lo ld o d -> A B. exists ext, lo, ld. auto. }
  destruct (nd_lens c) as [ln|]; run; auto; settle; auto;
    (eapply HE; [rewrite <- !app_assoc; reflexivity|repeat first [apply nth_last|apply nth_old]|repeat first [apply nth_last|apply nth_old]]).
Qed.
Theorem C55_getRay_value : forall c l normed h p, nth_error h l = Some p ->
  match getRay_a c p normed with
  | Some (o, d) => exists h' lo ld, getRay_c c l normed h = (h', Some (lo, ld)) /\ nth_error h' lo = Some o /\ nth_error h' ld = Some d
  | None => snd (getRay_c c l normed h) = None
  end.
Proof. intros c l b h p E. pose proof (getRay_run c l b h p E) as H. destruct (getRay_a c p b) as [[o d]|]; auto. destruct H as (ext&lo&ld&H). eauto. Qed.
Print Assumptions C55_getRay_value.
Lemma along_run lo ld f b h o d : nth_error h lo = Some o -> nth_error h ld = Some d -> content (along_c lo ld f b h) = along (o, d) f b.
Proof.
  intros A B. unfold along_c, along. run; auto; settle; auto.
  unfold content. cbn [fst snd ret]. apply update_same. rewrite app_length. cbn. lia.
Qed.
Definition holds (h : heap) (l : option nat) (a : option (arr num)) : Prop :=
  match l, a with Some l, Some a => nth_error h l = Some a | None, None => True | _, _ => False end.
Lemma read_opt_run {B} h l a (f : option (arr num) -> cmd B) : holds h l a -> cbind (read_opt l) f h = f a h.
Proof.
  destruct l as [l|], a as [a|]; cbn [holds]; try contradiction; intros H; cbn [read_opt]; [|apply bind_some].
  rewrite bind_bind. erewrite bind_read by eauto. apply bind_some.
Qed.
Lemma ext_lookup (h ext : heap) l a : nth_error h l = Some a -> nth_error (h ++ ext) l = Some a.
Proof. intros E. rewrite nth_error_app1; auto. apply nth_error_Some. congruence. Qed.
Theorem C55_spaceFromImage_value : forall c l X Y Z D h p x y z v, nth_error h l = Some p -> holds h X x -> holds h Y y -> holds h Z z ->
  match D, v with CNone, DNone => True | CNum a, DNum b => a = b | CArr l, DArr a => nth_error h l = Some a | _, _ => False end ->
  content (spaceFromImage_c c l X Y Z D h) = spaceFromImage_a c p x y z v.
Proof.
  intros c l X Y Z D h p x y z v E HX HY HZ HD. unfold spaceFromImage_c, spaceFromImage_a.
  erewrite bind_read by eauto. destruct (ensure 2 p) as [p1|] eqn:E1; [|reflexivity]. rewrite bind_some. cbn [obind].
  pose proof (ensure_same _ _ _ E1); subst p1.
  rewrite (read_opt_run h X x), (read_opt_run h Y y), (read_opt_run h Z z) by auto.
  assert (G : forall b (f : nat * nat -> cmd nat) g,
     (forall ext lo ld o d, nth_error (h ++ ext) lo = Some o -> nth_error (h ++ ext) ld = Some d -> content (f (lo, ld) (h ++ ext)%list) = g (o, d)) ->
     content (cbind (getRay_c c l b) f h) = obind (getRay_a c p b) g).
  { intros b f g HF. pose proof (getRay_run c l b h p E) as H. destruct (getRay_a c p b) as [[o d]|]; cbn [obind].
    - destruct H as (ext&lo&ld&H&A&B). unfold cbind. rewrite H. apply HF; auto.
    - unfold cbind. destruct (getRay_c c l b h) as [h' [r|]]; cbn in H; [discriminate|auto]. }
  destruct D, v; try contradiction.
  - apply G. intros ext lo ld o d A B. cbn [fst snd]. run; auto. apply along_run; auto.
  - subst. apply G. intros ext lo ld o d A B. apply along_run; auto.
  - apply G. intros ext lo ld o d A B. erewrite bind_read by (apply ext_lookup; eauto). apply along_run; auto.
Qed.
Print Assumptions C55_spaceFromImage_value.

(** projection.imageFromCamera overwrites the points with |z| < 1e-10 in the caller's array, and nothing else. *)
Theorem C55_imageFromCamera : forall k c l hide h p s, nth_error h l = Some p -> dims p = 3 :: s ->
  exists h' l' p' q, imageFromCamera_c k c l hide h = (h', Some l') /\ length h <= l' /\ nth_error h' l' = Some q /\
    nth_error h' l = Some p' /\ dims p' = dims p /\
    (forall i, inb i s -> row3 p' i = if (nabs (cz (row3 p i)) <? Fin (/ 10000000000))%num then V3 (Fin 0) (Fin 0) (Fin 0) else row3 p i) /\
    (forall l1, l1 < length h -> l1 <> l -> nth_error h' l1 = nth_error h l1).
Proof.
  intros k c l hide h p s E ED. unfold imageFromCamera_c. erewrite bind_read by eauto. rewrite (ensure_some _ _ _ ED), bind_some.
  destruct (mask_rows p s ED) as (b&EB&DB&GB).
  assert (GM : forall i, inb i s -> row3 b i = if (nabs (cz (row3 p i)) <? Fin (/ 10000000000))%num then V3 (Fin 0) (Fin 0) (Fin 0) else row3 p i).
  { intros i H. unfold mask_a in EB. destruct (lastk_some 2 p 3 s ED) as (z&EZ&DZ&GZ); [lia|]. rewrite EZ in EB. cbn [obind] in EB.
    match type of EB with setmask ?a ?m ?v = _ => destruct (setmask_rows a m v 3 s ED) as (r&ER&DR&GR); [exact DZ|] end.
    rewrite ER in EB. inversion EB; subst. unfold row3 at 1. rewrite !GR. cbn [ew1 get]. rewrite GZ. cbn [row3 cz]. destruct (_ <? _)%num; reflexivity. }
  destruct (image_rows k c b s hide DB) as (q&EQ&_&_). rewrite EB, bind_some, bind_write, EQ, bind_some.
  assert (L : l < length h) by (apply nth_error_Some; congruence).
  exists (update h l b ++ [q])%list, (length (update h l b)), b, q. split; [reflexivity|]. rewrite update_length. split; [auto|].
  split; [rewrite <- (update_length h l b); apply nth_last|]. split; [apply nth_old, update_same; auto|]. split; [congruence|]. split; auto.
  intros l1 L1 NE. rewrite nth_error_app1 by (rewrite update_length; auto). apply update_other. auto.
Qed.
Print Assumptions C55_imageFromCamera.
Theorem C55_imageFromCamera_refuted : exists k c l hide h p i, nth_error h l = Some p /\ inb i [2] /\ dims p = [3; 2] /\
  forall p', nth_error (fst (imageFromCamera_c k c l hide h)) l = Some p' -> row3 p' i <> row3 p i.
Proof.
  set (p := Arr [3; 2] (fun i => match i with 2 :: _ => Fin 0 | _ => Fin 1 end)).
  exists Rectilinear, (proj_fin ex_r), 0, true, [p], p, [1]. split; [reflexivity|]. split; [repeat constructor|]. split; [reflexivity|].
  intros p' H. destruct (C55_imageFromCamera Rectilinear (proj_fin ex_r) 0 true [p] p [2] eq_refl eq_refl) as (h'&l'&p2&q&E&_&_&EP&_&GR&_).
  rewrite E in H. cbn [fst] in H. rewrite EP in H. inversion H; subst p2. rewrite GR by repeat constructor. cbn [p row3 get cz].
  rewrite (rep_ltb _ _ (Rabs 0) (/ 10000000000)%R (rep_abs _ _ (rep_Fin 0)) (rep_Fin _)). rewrite Rabs_R0.
  replace (Rltb 0 (/ 10000000000)) with true by (symmetry; apply Rltb_true; lra). intros A. injection A as A. lra.
Qed.
Print Assumptions C55_imageFromCamera_refuted.

(** ** getClosestPointFromLine *)
Definition line_row (a : arr num) (i : list nat) : v3 num := match dims a with [_] => row3 a [] | _ => row3 a i end.
Lemma nmul_comm x y : (x * y)%num = (y * x)%num.
Proof. unfold nmul. destruct (look x), (look y); auto; rewrite ?(xorb_comm neg), ?(Rmult_comm r); auto; rewrite xorb_comm; auto. Qed.

Lemma inb_single i k : inb i [k] -> exists a, i = [a].
Proof. intros H. inversion H as [|a ? ? ? LA H2]; subst. inversion H2; subst. eauto. Qed.
Lemma line_cases a s : length s <= 1 -> dims a = [3] \/ dims a = 3 :: s -> exists t, dims a = 3 :: t /\
  (forall i, inb i s -> line_row a i = row3 a (bidx t i)) /\ (forall i, inb i s -> inb (bidx t i) t) /\ (t = [] \/ t = s).
Proof.
  intros L [E|E].
  - exists []. split; auto. split; [|split; [intros; constructor|auto]]. intros i H. unfold line_row. rewrite E. destruct i; auto.
  - exists s. split; auto. split; [|split; [intros i H; rewrite bidx_in; auto|auto]].
    intros i H. rewrite bidx_in by auto. unfold line_row. rewrite E. destruct s; auto. inversion H; subst; auto.
Qed.
Lemma ew2_lines {A B C} (f : A -> B -> C) a b t u s : dims a = 3 :: t -> dims b = 3 :: u -> length s <= 1 -> (t = [] \/ t = s) -> (u = [] \/ u = s) ->
  t = s \/ u = s ->
  exists r, ew2 f a b = Some r /\ dims r = 3 :: s /\ forall i, inb i s -> row3 r i = zip3v f (row3 a (bidx t i)) (row3 b (bidx u i)).
Proof.
  intros EA EB L HT HU HS.
  assert (BD : bdims (dims a) (dims b) = Some (3 :: s)).
  { rewrite EA, EB. destruct HS; subst.
    - destruct HU; subst; [apply bdims_row|apply bdims_same].
    - destruct HT; subst; [destruct s as [|n [|]]; cbn; auto; cbn in L; lia|apply bdims_same]. }
  unfold ew2. rewrite BD. cbn [obind]. eexists. split; [reflexivity|]. cbn [dims get]. split; auto.
  intros i H. unfold row3, zip3v. cbn [get cx cy cz]. rewrite EA, EB. reflexivity.
Qed.
Theorem C14_getClosestPointFromLine : forall h lo lr lp o r p s,
  nth_error h lo = Some o -> nth_error h lr = Some r -> nth_error h lp = Some p -> lo <> lr ->
  dims o = [3] -> length s <= 1 -> (dims r = [3] \/ dims r = 3 :: s) -> (dims p = [3] \/ dims p = 3 :: s) -> (dims r = 3 :: s \/ dims p = 3 :: s) ->
  exists q r', getClosestPointFromLine_c lo lr lp h = ((update h lr r' ++ [q])%list, Some (length h)) /\
    dims q = 3 :: s /\ dims r' = dims r /\
    forall i, inb i s -> (row3 q i, line_row r' i) = getClosestPointFromLine (row3 o []) (line_row r i) (line_row p i).
Proof.
  intros h lo lr lp o r p s EO ER EP NE DO L HR HP HRP.
  destruct (line_cases r s L HR) as (t&DR&GR&IR&TR). destruct (line_cases p s L HP) as (u&DP&GP&IP&TP).
  assert (TU : t = s \/ u = s). { rewrite DR, DP in HRP. destruct HRP as [E|E]; injection E; auto. }
  unfold getClosestPointFromLine_c. do 3 (erewrite bind_read by eauto).
  destruct (ew2_lines nsub p o u [] u DP DO) as (dl&ED&DD&GD); [destruct TP; subst; auto; cbn; lia|auto|auto|auto|]. rewrite ED, bind_some.
  destruct (norm_row3 r t DR) as (n&EN&DN&GN). rewrite EN, bind_some.
  destruct (ew2_each3 ndiv r n t DR DN) as (r'&ER'&DR'&GR'). rewrite ER', bind_some, bind_write.
  destruct (ew2_lines nmul r' dl t u s DR' DD) as (m&EM&DM&GM); auto. rewrite EM, bind_some.
  unfold sum_last. rewrite DM, bind_some. set (f := Arr s (fun i => sum_to (fun k => get m (k :: i)) 3)).
  assert (X : exists w, match newsecond f with Some f2 => ew2 nmul f2 r' | None => ew2 nmul f r' end = Some w /\ dims w = 3 :: s /\
     forall i, inb i s -> row3 w i = nv_scale (get f i) (row3 r' (bidx t i))).
  { unfold newsecond. cbn [f dims]. destruct s as [|k [|]]; [| |cbn in L; lia].
    - assert (T0 : t = []) by (destruct TR; auto). rewrite T0 in *.
      destruct (ew2_scalar_l nmul f r' eq_refl) as (w&EW&DW&GW). exists w. rewrite DR' in DW. split; auto. split; auto.
      intros i H. inversion H; subst i. unfold nv_scale, map3v, row3. rewrite !GW by (rewrite DR'; constructor; [lia|constructor]).
      cbn [cx cy cz bidx]. f_equal; apply nmul_comm.
    - cbn [removelast last length app]. unfold ew2. cbn [dims]. rewrite DR'.
      assert (B : bdims [1; k] (3 :: t) = Some [3; k]). { clear - TR. destruct TR; subst t; cbn; auto. destruct (Nat.eqb_spec k k); [|lia]. destruct (Nat.eqb_spec k 1); subst; auto. }
      rewrite B. cbn [obind]. eexists. split; [reflexivity|]. cbn [dims get]. split; auto.
      intros i H. assert (BI : bidx [k] i = i) by (apply bidx_in; auto). destruct (inb_single i k H) as (a&->).
      unfold nv_scale, map3v, row3. cbn [cx cy cz get].
      change (bidx [1; k] (0 :: [a])) with (0 :: bidx [k] [a]). change (bidx [1; k] (1 :: [a])) with (0 :: bidx [k] [a]). change (bidx [1; k] (2 :: [a])) with (0 :: bidx [k] [a]).
      rewrite BI. cbn [firstn skipn app].
      change (bidx (3 :: t) (0 :: [a])) with (0 :: bidx t [a]). change (bidx (3 :: t) (1 :: [a])) with (1 :: bidx t [a]). change (bidx (3 :: t) (2 :: [a])) with (2 :: bidx t [a]).
      f_equal; apply nmul_comm. }
  destruct X as (w&EW&DW&GW). rewrite EW, bind_some. erewrite bind_read by (rewrite update_other; eauto).
  assert (Y : exists q, ew2 nadd o w = Some q /\ dims q = 3 :: s /\ forall i, inb i s -> row3 q i = nv_add (row3 o []) (row3 w i)).
  { destruct (ew2_lines nadd o w [] s s DO DW) as (q&EQ&DQ&GQ); auto. exists q. split; auto. split; auto. intros i H. rewrite GQ, bidx_nil, bidx_in by auto. reflexivity. }
  destruct Y as (q&EQ&DQ&GQ). rewrite EQ, bind_some.
  exists q, r'. unfold alloc. rewrite update_length. split; auto. split; auto. split; [congruence|].
  intros i H. rewrite GQ, GW by auto. unfold getClosestPointFromLine. rewrite GR, GP by auto.
  assert (R1 : row3 r' (bidx t i) = nv_div (row3 r (bidx t i)) (nv_norm (row3 r (bidx t i)))) by (rewrite GR', GN by auto; reflexivity).
  assert (LR : line_row r' i = row3 r' (bidx t i)). { unfold line_row. rewrite DR'. clear - TR H. destruct TR as [-> | ->]; cbn [bidx]; [destruct i; auto|]. rewrite bidx_in by auto. destruct s; auto. inversion H; auto. }
  assert (F : get f i = nv_dot (row3 r' (bidx t i)) (nv_sub (row3 p (bidx u i)) (row3 o []))).
  { assert (M := GM i H). assert (D2 := GD (bidx u i) (IP i H)). rewrite bidx_nil in D2.
    rewrite (bidx_in u (bidx u i) (IP i H)) in D2. unfold nv_sub. rewrite <- D2.
    cbn [f get sum_to]. unfold nv_dot. pose proof (f_equal cx M) as M1. pose proof (f_equal cy M) as M2. pose proof (f_equal cz M) as M3.
    unfold zip3v in M1, M2, M3. cbn [cx cy cz] in M1, M2, M3. rewrite <- M1, <- M2, <- M3. reflexivity. }
  rewrite LR, F, R1. reflexivity.
Qed.
Print Assumptions C14_getClosestPointFromLine.
(** The caller's direction is normalised. *)
Theorem C55_getClosestPointFromLine_refuted : exists lo lr lp h r, nth_error h lr = Some r /\ dims r = [3] /\ snd (getClosestPointFromLine_c lo lr lp h) <> None /\
  forall r', nth_error (fst (getClosestPointFromLine_c lo lr lp h)) lr = Some r' -> row3 r' [] <> row3 r [].
Proof.
  set (o := of3 (V3 (Fin 0) (Fin 0) (Fin 0))). set (r := of3 (V3 (Fin 0) (Fin 0) (Fin 2))). set (p := of3 (V3 (Fin 1) (Fin 1) (Fin 1))).
  exists 0, 1, 2, [o; r; p], r. split; [reflexivity|]. split; [reflexivity|].
  destruct (C14_getClosestPointFromLine [o; r; p] 0 1 2 o r p [] eq_refl eq_refl eq_refl) as (q&r1&E&_&DR&G); try (cbn; auto; fail).
  rewrite E. cbn [fst snd]. split; [discriminate|]. intros r' H. cbn in H. inversion H; subst r1.
  specialize (G [] ltac:(constructor)). apply (f_equal snd) in G. unfold getClosestPointFromLine in G. cbn [snd] in G.
  replace (line_row r' []) with (row3 r' []) in G by (unfold line_row; rewrite DR; reflexivity).
  intros A. rewrite A in G. change (line_row r []) with (V3 (Fin 0) (Fin 0) (Fin 2)) in G. change (row3 r []) with (V3 (Fin 0) (Fin 0) (Fin 2)) in G.
  apply (f_equal cz) in G. unfold nv_div, nv_norm, map3v in G. cbn [cz cx cy] in G.
  assert (X : rep (Fin 2 / nsqrt (Fin 0 * Fin 0 + Fin 0 * Fin 0 + Fin 2 * Fin 2))%num (2 / sqrt (0 * 0 + 0 * 0 + 2 * 2))%R).
  { assert (S : sqrt (0 * 0 + 0 * 0 + 2 * 2) = 2%R) by (replace (0 * 0 + 0 * 0 + 2 * 2)%R with (2 * 2)%R by ring; apply sqrt_square; lra).
    apply rep_div; [reflexivity|apply rep_sqrt; [rep_all|lra]|rewrite S; lra]. }
  rewrite <- G in X. apply (rep_inj _ _ _ (rep_Fin 2)) in X. replace (0 * 0 + 0 * 0 + 2 * 2)%R with (2 * 2)%R in X by ring. rewrite sqrt_square in X by lra. lra.
Qed.
Print Assumptions C55_getClosestPointFromLine_refuted.

(** Two pixels of the example camera in one call: the ground below each of them. *)
Example C14_example : exists c p r, dims p = [2; 2] /\ spaceFromImage_a c p None None (Some (scalar (Fin 0))) DNone = Some r /\ dims r = [3; 2] /\
  rep3 (row3 r [0]) (V3 0 100 0)%R /\ rep3 (row3 r [1]) (V3 0 50 0)%R.
Proof.
  destruct (ex_cam2 Rectilinear) as (c0&HC). pose proof HC as (pr&m&E0&_).
  set (c := NdCam Rectilinear pr m None). assert (EC : camera_of c = c0) by (rewrite E0; reflexivity).
  set (p := Arr [2; 2] (fun i => match i with [0; _] => Fin 2000 | [_; 0] => Fin 1850 | _ => Fin 2200 end)).
  destruct (C14_spaceFromImage c p [2] None None (Some (scalar (Fin 0))) eq_refl) as (r&ER&DR&GR); cbn; auto; [right; right; discriminate|].
  exists c, p, r. split; [reflexivity|]. split; [exact ER|]. split; [exact DR|].
  assert (V : forall v G, (1500 < v)%R -> (G = 35000 / (v - 1500))%R -> forall q, spaceFromImage c0 (V2 (Fin 2000) (Fin v)) (on_Z (Fin 0)) = Some q -> rep3 q (V3 0 G 0)%R).
  { intros v G LV EG q HQ.
    destruct (C11_ray_starts_at_camera c0 Rectilinear ex_r ex_or2 (V2 (Fin 2000) (Fin v)) (V2 2000%R v) HC) as (D&_&RD&_&ED); [split; reflexivity|discriminate|].
    rewrite ex2_coords in ED. unfold rayR, alphaR, betaR, ex_r in ED.
    cbn [rv_add zip3v opos ex_or2 pos_x_m pos_y_m elevation_m cx cy cz c1 c2 f_x f_y center_x center_y] in ED. injection ED as E1 E2 E3.
    assert (D3 : cz D = ((1500 - v) / 3500)%R) by lra. assert (D1 : cx D = 0%R) by lra. assert (D2 : cy D = 1%R) by lra.
    assert (ZN : cz D <> 0%R) by (rewrite D3; lra).
    destruct (C11_axis_constraint c0 Rectilinear ex_r ex_or2 (V2 (Fin 2000) (Fin v)) (V2 2000%R v) AZ (Fin 0) 0%R D HC) as (q'&EQ&_&K); try (split; reflexivity); try exact I; try reflexivity; auto.
    cbn [get_axis opos ex_or2 elevation_m cz] in K.
    assert (FE : ((0 - 10) / cz D = G)%R) by (rewrite EG, D3; field; lra).
    assert (GP : (0 < G)%R) by (rewrite EG; apply Rdiv_lt_0_compat; lra).
    destruct K as (P&RP&_&EP&_); [rewrite FE; lra|]. rewrite FE in EP.
    change (spaceFromImage c0 (V2 (Fin 2000) (Fin v)) (on_Z (Fin 0)) = Some q') in EQ. rewrite HQ in EQ. inversion EQ; subst q'. replace (V3 0 G 0)%R with P; auto. rewrite EP. apply v3_ext; cbn; rewrite ?D1, ?D2, ?D3, ?EG; field; lra. }
  assert (G0 : inb [0] [2]) by repeat constructor. assert (G1 : inb [1] [2]) by repeat constructor.
  apply GR in G0. apply GR in G1. clear GR. rewrite EC in G0, G1. cbn [option_map at_row scalar dims get] in G0, G1.
  change (row2 p [0]) with (V2 (Fin 2000) (Fin 1850)) in G0. change (row2 p [1]) with (V2 (Fin 2000) (Fin 2200)) in G1.
  split; [apply (V 1850%R); auto; lra|apply (V 2200%R); auto; lra].
Qed.
(** The other forms of the arguments for the same two pixels. *)
Example C14_shapes_example : forall c, 
  let p := Arr [2; 2] (fun i => match i with [0; _] => Fin 2000 | [_; 0] => Fin 1850 | _ => Fin 2200 end) in
  let q := Arr [2] (fun i => match i with [0] => Fin 2000 | _ => Fin 1850 end) in
  let D := Arr [2] (fun i => match i with [0] => Fin 30 | _ => Fin 40 end) in
  (exists o d, getRay_a c p true = Some (o, d) /\ dims d = [3; 2]) /\
  (exists r, spaceFromImage_a c p None None None (DNum (Fin 30)) = Some r /\ dims r = [3; 2]) /\
  (exists r, spaceFromImage_a c p None None None (DArr D) = Some r /\ dims r = [3; 2]) /\
  (exists r, spaceFromImage_a c q None (Some D) None DNone = Some r /\ dims r = [3; 2]) /\
  (exists r, getObjectHeight_a c p p D = Some r /\ dims r = [2]) /\
  (exists r, getObjectLength_a c p p (scalar (Fin 0)) = Some r /\ dims r = [2]).
Proof.
  intros c p q D. splits.
  - destruct (C14_getRay c p [2] true eq_refl) as (o&d&E&_&_&S&_). eauto.
  - destruct (C14_distance c p [2] None None None (Fin 30) eq_refl) as (r&E&S&_). eauto.
  - destruct (C14_distances c p 2 None None None D eq_refl eq_refl) as (r&E&S&_). eauto.
  - destruct (C14_planes c q 2 None (Some D) None 1 D eq_refl eq_refl eq_refl) as (r&E&S&_). eauto.
  - destruct (C14_getObjectHeight c p p [2] D eq_refl eq_refl) as (r&E&S&_); cbn; auto. eauto.
  - destruct (C14_getObjectLength c p p [2] (scalar (Fin 0)) eq_refl eq_refl) as (r&E&S&_); cbn; auto. eauto.
Qed.
(** The example heap of C55: a caller's array and a camera; the call returns. *)
Example C55_example : exists c l h p l' h', nth_error h l = Some p /\ imageFromSpace_c c l true h = (h', Some l') /\ h' <> h /\ nth_error h' l = Some p /\ l' <> l.
Proof.
  destruct (ex_cam2 Rectilinear) as (c0&HC). pose proof HC as (pr&m&E0&_). set (c := NdCam Rectilinear pr m None).
  set (p := of3 (V3 (Fin 0) (Fin 50) (Fin 0))).
  destruct (C14_imageFromSpace c p [] true eq_refl) as (a&EA&_&_).
  pose proof (C55_imageFromSpace_value c 0 true [p] p eq_refl) as V. pose proof (C55_imageFromSpace c 0 true [p]) as K.
  unfold content in V. destruct (imageFromSpace_c c 0 true [p]) as [h' [l'|]] eqn:E; cbn [fst snd] in V; [|congruence].
  destruct K as [K1 K2]. specialize (K2 l' eq_refl). cbn in K2.
  exists c, 0, [p], p, l', h'. split; [reflexivity|]. split; [exact E|]. split; [|split; [rewrite K1; auto|lia]].
  intros ->. rewrite EA in V. destruct l' as [|[|]]; cbn in V; try discriminate; lia.
Qed.
