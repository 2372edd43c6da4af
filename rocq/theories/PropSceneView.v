(** * C70: the pictures of a scene *)
Require Import Reals Lra Psatz Bool List Arith ZArith.
From Verif Require Import Num Vec Trig Orientation OrientationFacts Projection ProjectionFacts Ray CameraTransform CameraFacts
  PropProjection PropCamera PropStereo Border Scene PropScene SceneView.
Import ListNotations.
Open Scope R_scope.

(** ** Specification *)
(** What a plotted sequence of rows shows: neighbouring rows are joined, rows with a NaN or infinite entry are left out *)
Definition point2 (p : v2 num) : option (v2 R) := match toR (c1 p), toR (c2 p) with Some x, Some y => Some (V2 x y) | _, _ => None end.
Fixpoint strokes (rows : list (v2 num)) : list (v2 R * v2 R) :=
  match rows with
  | p :: (q :: _) as rest => match point2 p, point2 q with Some a, Some b => (a, b) :: strokes rest | _, _ => strokes rest end
  | _ => []
  end.
Definition along2 (a b : v2 R) (u : R) : v2 R := V2 (c1 a + u * (c1 b - c1 a)) (c2 a + u * (c2 b - c2 a)).
Definition along3 (a b : v3 R) (u : R) : v3 R := V3 (cx a + u * (cx b - cx a)) (cy a + u * (cy b - cy a)) (cz a + u * (cz b - cz a)).
(** [X] is on a line of the picture *)
Definition shown (lines : list (list (v2 num))) (X : v2 R) : Prop :=
  exists rows a b u, In rows lines /\ In (a, b) (strokes rows) /\ 0 <= u <= 1 /\ X = along2 a b u.
(** [X] is the pixel at which the camera sees [P] *)
Definition seen_at (c : camera) (P : v3 R) (X : v2 R) : Prop := exists p, rep3 p P /\ rep2 (imageFromSpace c p true) X.
(** an entry of a row is NaN *)
Definition gap (p : v3 num) : Prop := cx p = NaN \/ cy p = NaN \/ cz p = NaN.
Definition good_rows (rows : list (v3 num)) : Prop := forall p, In p rows -> gap p \/ exists P, rep3 p P.
(** in front of the camera, by more than the 1e-10 that are treated as zero *)
Definition in_front (o : opar R) (P : v3 R) : Prop := cz (cam_coords o P) <= - tinyR.

(** ** Facts *)
Lemma point2_rep p a : rep2 p a -> point2 p = Some a.
Proof. intros (X&Y). unfold point2, rep in *. rewrite X, Y. destruct a; reflexivity. Qed.
Lemma point2_nan p : is_nan2 p -> point2 p = None.
Proof. intros (X&Y). unfold point2. rewrite X. reflexivity. Qed.
Lemma front_show o P : in_front o P <-> showable Rectilinear (cam_coords o P).
Proof.
  unfold in_front, showable. pose proof tinyR_pos. split.
  - intros H1. split; [rewrite Rabs_left by lra; lra|lra].
  - intros (B&N). rewrite Rabs_left in B by lra. lra.
Qed.
Lemma ifs_front c r o p P : plain_cam c Rectilinear r o -> rep3 p P -> in_front o P ->
  rep2 (imageFromSpace c p true) (pin r (cam_coords o P)).
Proof.
  intros HC Hp HF. apply front_show in HF. destruct HF as (B&N). destruct (plain_good _ _ _ _ HC) as ((Hpr&_&HR)&HK&HDi&_).
  unfold imageFromSpace. rewrite HDi, HK. cbn [p_image]. apply rect_image_value; auto.
  apply rigid_camera with (1 := HR). exact Hp.
Qed.
Lemma ifs_hidden c r o p P : plain_cam c Rectilinear r o -> rep3 p P -> ~ in_front o P -> is_nan2 (imageFromSpace c p true).
Proof.
  intros HC Hp NF. destruct (plain_good _ _ _ _ HC) as ((Hpr&HF&HR)&HK&HDi&_).
  unfold imageFromSpace. rewrite HDi, HK. cbn [p_image].
  apply (C06_rect_nan_iff _ r _ (cam_coords o P) true Hpr HF).
  - apply rigid_camera with (1 := HR). exact Hp.
  - unfold in_front in NF. destruct (Rlt_le_dec 0 (cz (cam_coords o P))); [left; auto|right]. rewrite Rabs_left1 by lra. lra.
Qed.
Lemma mul_nan_l x : (NaN * x)%num = NaN. Proof. reflexivity. Qed.
Lemma mul_nan_r x : (x * NaN)%num = NaN. Proof. destruct x; reflexivity. Qed.
Lemma add_nan_l x : (NaN + x)%num = NaN. Proof. reflexivity. Qed.
Lemma add_nan_r x : (x + NaN)%num = NaN. Proof. destruct x; reflexivity. Qed.
Lemma sub_nan_l x : (NaN - x)%num = NaN. Proof. reflexivity. Qed.
Lemma gap_dot p t v : gap p -> nv_dot (nv_sub p t) v = NaN.
Proof.
  unfold nv_dot, nv_sub, zip3v. cbn [cx cy cz]. intros [E|[E|E]]; rewrite E, sub_nan_l, mul_nan_l, ?add_nan_r, ?add_nan_l; reflexivity.
Qed.
Lemma gap_camera m p : gap p -> cameraFromSpace m p = V3 NaN NaN NaN.
Proof. intros G. unfold cameraFromSpace, nm_mul_v. rewrite !gap_dot by exact G. reflexivity. Qed.
Lemma gap_image c r o p : plain_cam c Rectilinear r o -> gap p -> is_nan2 (imageFromSpace c p true).
Proof.
  intros HC G. destruct (plain_good _ _ _ _ HC) as (_&HK&HDi&_). unfold imageFromSpace. rewrite HDi, HK, (gap_camera _ _ G).
  split; reflexivity.
Qed.
Lemma gap_point p : gap p -> point p = None.
Proof. unfold point. intros [E|[E|E]]; rewrite E; cbn [toR]; [|destruct (toR (cx p))|destruct (toR (cx p)), (toR (cy p))]; reflexivity. Qed.

(** the perspective image of a segment in front of the camera *)
Lemma coords_along o a b u : cam_coords o (along3 a b u) = along3 (cam_coords o a) (cam_coords o b) u.
Proof. unfold cam_coords, along3. apply v3_ext; cbv [rm_mul_v rv_sub zip3v rdot cx cy cz]; ring. Qed.
Lemma between_neg x y u : x < 0 -> y < 0 -> 0 <= u <= 1 -> x + u * (y - x) < 0.
Proof. intros. nra. Qed.
Lemma front_along o a b u : in_front o a -> in_front o b -> 0 <= u <= 1 -> in_front o (along3 a b u).
Proof. unfold in_front. intros A B U. rewrite coords_along. cbn [along3 cz]. nra. Qed.
Lemma pin_along r A B u : cz A < 0 -> cz B < 0 -> 0 <= u <= 1 ->
  pin r (along3 A B u) = along2 (pin r A) (pin r B) (u * cz B / (cz A + u * (cz B - cz A))).
Proof.
  intros ZA ZB U. pose proof (between_neg _ _ _ ZA ZB U) as Z. unfold pin, along2, along3. cbn [cx cy cz c1 c2]. f_equal; field; lra.
Qed.
Lemma ratio_in a b u : a < 0 -> b < 0 -> 0 <= u <= 1 -> 0 <= u * b / (a + u * (b - a)) <= 1.
Proof.
  intros A B U. pose proof (between_neg _ _ _ A B U) as Z.
  replace (u * b / (a + u * (b - a))) with (u * (- b) / (- (a + u * (b - a)))) by (field; lra).
  assert (D : 0 < - (a + u * (b - a))) by lra. split.
  - apply Rmult_le_pos; [nra|]. left. apply Rinv_0_lt_compat. exact D.
  - apply Rmult_le_reg_r with (1 := D). unfold Rdiv. rewrite Rmult_assoc, Rinv_l by lra. nra.
Qed.
Lemma ratio_back a b v : a < 0 -> b < 0 -> 0 <= v <= 1 ->
  let u := v * a / (b + v * (a - b)) in 0 <= u <= 1 /\ u * b / (a + u * (b - a)) = v.
Proof.
  intros A B V u. split; [apply ratio_in; auto|]. pose proof (between_neg _ _ _ B A V) as Z.
  assert (E : a + u * (b - a) = a * b / (b + v * (a - b))) by (unfold u; field; lra).
  assert (a * b <> 0) by nra. rewrite E. unfold u. field. splits; lra.
Qed.

Lemma strokes_two x y l : strokes (x :: y :: l) = match point2 x, point2 y with Some a, Some b => (a, b) :: strokes (y :: l) | _, _ => strokes (y :: l) end.
Proof. reflexivity. Qed.
Lemma drawn_two x y l : drawn (x :: y :: l) = match point x, point y with Some a, Some b => (a, b) :: drawn (y :: l) | _, _ => drawn (y :: l) end.
Proof. reflexivity. Qed.
(** the strokes of the picture of an object *)
Lemma strokes_object c r o rows : plain_cam c Rectilinear r o -> good_rows rows -> forall A B,
  In (A, B) (strokes (object_im c rows)) <->
  exists a b, In (a, b) (drawn rows) /\ in_front o a /\ in_front o b /\ A = pin r (cam_coords o a) /\ B = pin r (cam_coords o b).
Proof.
  intros HC. induction rows as [|p rows IH]; intros G A B; [split; [intros []|intros (a&b&[]&_)]|].
  destruct rows as [|q rows]; [split; [intros []|intros (a&b&[]&_)]|].
  assert (IH' := IH (fun x Hx => G x (or_intror Hx)) A B). clear IH.
  change (object_im c (p :: q :: rows)) with (imageFromSpace c p true :: imageFromSpace c q true :: object_im c rows).
  change (object_im c (q :: rows)) with (imageFromSpace c q true :: object_im c rows) in IH'.
  rewrite strokes_two, drawn_two.
  assert (X : forall x, In x (p :: q :: rows) ->
    (point2 (imageFromSpace c x true) = None /\ forall P, point x = Some P -> ~ in_front o P) \/
    (exists P, point x = Some P /\ in_front o P /\ point2 (imageFromSpace c x true) = Some (pin r (cam_coords o P)))).
  { intros x Hx. destruct (G x Hx) as [GP|(P&HP)].
    - left. split; [apply point2_nan; eapply gap_image; eauto|]. rewrite (gap_point _ GP). discriminate.
    - destruct (Rle_lt_dec (cz (cam_coords o P)) (- tinyR)) as [F|F].
      + right. exists P. splits; [apply point_rep; exact HP|exact F|]. apply point2_rep. eapply ifs_front; eauto.
      + left. split; [apply point2_nan; apply (ifs_hidden c r o x P); auto; unfold in_front; lra|].
        rewrite (point_rep _ _ HP). intros Q E. injection E as <-. unfold in_front. lra. }
  destruct (X p (or_introl eq_refl)) as [(E1&N1)|(P1&D1&F1&E1)]; rewrite E1.
  - rewrite IH'. split; intros (a&b&I&FA&FB&EE); exists a, b; splits; auto; try tauto.
    + destruct (point p), (point q); auto. right. exact I.
    + destruct (point p) as [x|] eqn:EX, (point q) as [y|] eqn:EY; auto.
      destruct I as [I|I]; [|exact I]. injection I as <- <-. destruct (N1 x eq_refl FA).
  - destruct (X q (or_intror (or_introl eq_refl))) as [(E2&N2)|(P2&D2&F2&E2)]; rewrite E2.
    + rewrite IH'. rewrite D1. split; intros (a&b&I&FA&FB&EE); exists a, b; splits; auto; try tauto.
      * destruct (point q); auto. right. exact I.
      * destruct (point q) as [y|] eqn:EY; auto. destruct I as [I|I]; [|exact I]. injection I as <- <-. destruct (N2 y eq_refl FB).
    + rewrite D1, D2. split.
      * intros [I|I]; [injection I as <- <-; exists P1, P2; splits; auto; left; reflexivity|].
        apply IH' in I. destruct I as (a&b&I&Y). exists a, b. split; [right; exact I|exact Y].
      * intros (a&b&[I|I]&FA&FB&EA&EB); [injection I as <- <-; left; congruence|]. right. apply IH'. exists a, b. auto.
Qed.

(** ** The properties *)
(** A straight edge in front of the camera: the drawn stroke is exactly the set of pixels at which the camera sees the
    points of the edge. *)
Theorem C70_edge c r o p q P Q : plain_cam c Rectilinear r o -> rep3 p P -> rep3 q Q -> in_front o P -> in_front o Q ->
  exists A B, strokes (object_im c [p; q]) = [(A, B)] /\ seen_at c P A /\ seen_at c Q B /\
    forall X, (exists v, 0 <= v <= 1 /\ X = along2 A B v) <-> exists u, 0 <= u <= 1 /\ seen_at c (along3 P Q u) X.
Proof.
  intros HC Hp Hq FP FQ. pose proof tinyR_pos as TP.
  exists (pin r (cam_coords o P)), (pin r (cam_coords o Q)).
  pose proof (ifs_front _ _ _ _ _ HC Hp FP) as IP. pose proof (ifs_front _ _ _ _ _ HC Hq FQ) as IQ.
  split; [unfold object_im; cbn [map strokes]; rewrite (point2_rep _ _ IP), (point2_rep _ _ IQ); reflexivity|].
  split; [exists p; auto|]. split; [exists q; auto|].
  assert (ZP : cz (cam_coords o P) < 0) by (unfold in_front in FP; lra). assert (ZQ : cz (cam_coords o Q) < 0) by (unfold in_front in FQ; lra).
  assert (K : forall u, 0 <= u <= 1 -> forall X, seen_at c (along3 P Q u) X <-> X = pin r (along3 (cam_coords o P) (cam_coords o Q) u)).
  { intros u U X. rewrite <- coords_along. pose proof (front_along o P Q u FP FQ U) as F. split.
    - intros (x&Hx&HX). apply (rep2_inj (imageFromSpace c x true)); [exact HX|]. eapply ifs_front; eauto.
    - intros ->. exists (fin3 (along3 P Q u)). split; [apply rep3_fin|]. eapply ifs_front; eauto. apply rep3_fin. }
  intros X. split.
  - intros (v&V&->). destruct (ratio_back _ _ v ZP ZQ V) as (U&E). cbv zeta in U, E. eexists. split; [exact U|].
    apply (K _ U). rewrite pin_along by auto. rewrite E. reflexivity.
  - intros (u&U&S). apply (K u U) in S. subst X. eexists. split; [|apply pin_along; auto]. apply ratio_in; auto.
Qed.
Print Assumptions C70_edge.

(** The whole picture: a pixel is on a line exactly if the camera sees there a point of one of the lines of the objects
    whose two ends are in front of the camera. *)
Theorem C70_picture c r o objects : plain_cam c Rectilinear r o -> (forall rows, In rows objects -> good_rows rows) ->
  forall X, shown (map (object_im c) objects) X <->
    exists rows a b u, In rows objects /\ In (a, b) (drawn rows) /\ in_front o a /\ in_front o b /\ 0 <= u <= 1 /\
      seen_at c (along3 a b u) X.
Proof.
  intros HC G X.
  assert (K : forall a b, in_front o a -> in_front o b -> forall Y,
    (exists v, 0 <= v <= 1 /\ Y = along2 (pin r (cam_coords o a)) (pin r (cam_coords o b)) v) <-> exists u, 0 <= u <= 1 /\ seen_at c (along3 a b u) Y).
  { intros a b FA FB. destruct (C70_edge c r o (fin3 a) (fin3 b) a b HC (rep3_fin a) (rep3_fin b) FA FB) as (A&B&_&SA&SB&K).
    destruct SA as (x&Hx&SA). destruct SB as (y&Hy&SB).
    rewrite (rep2_inj _ _ _ SA (ifs_front _ _ _ _ _ HC Hx FA)), (rep2_inj _ _ _ SB (ifs_front _ _ _ _ _ HC Hy FB)) in K. exact K. }
  split.
  - intros (l&A&B&v&I&S&V&->). apply in_map_iff in I. destruct I as (rows&<-&I).
    apply (strokes_object c r o rows HC (G rows I)) in S. destruct S as (a&b&D&FA&FB&->&->).
    destruct (proj1 (K a b FA FB _) (ex_intro _ v (conj V eq_refl))) as (u&U&S). exists rows, a, b, u. splits; auto; apply U.
  - intros (rows&a&b&u&I&D&FA&FB&U&S). destruct (proj2 (K a b FA FB X) (ex_intro _ u (conj U S))) as (v&V&->).
    exists (object_im c rows), (pin r (cam_coords o a)), (pin r (cam_coords o b)), v.
    splits; auto; try apply V; [apply in_map; exact I|]. apply (strokes_object c r o rows HC (G rows I)). exists a, b. auto.
Qed.
Print Assumptions C70_picture.

(** The objects of a scene: cube, square and grid.  If all corners are in front of the camera, the picture of the cube
    consists of the pixels of its edges. *)
Definition clean (rows : list (v3 num)) : Prop := forall p, In p rows -> p = nan_row \/ exists P, rep3 p P.
Lemma clean_good rows : clean rows -> good_rows rows.
Proof. intros C p I. destruct (C p I) as [->|H]; [left; left; reflexivity|right; exact H]. Qed.
Ltac clean_rows := match goal with H : In _ _ |- _ => repeat (destruct H as [<-|H]; [first [left; reflexivity|right; eexists (V3 _ _ _); unfold rep3; splits; cbn [cx cy cz]; rep_all]|]); destruct H end.
Lemma cube_clean p c w W : rep3 p c -> rep w W -> clean (cube p w).
Proof.
  intros (X&Y&Z) HW x I. apply half in HW. unfold cube in I. revert HW I. generalize (ndiv w (Fin 2)); intros r HW I. clean_rows.
Qed.
Lemma rect_clean p c w W : rep3 p c -> rep w W -> clean (rect p w).
Proof.
  intros (X&Y&Z) HW x I. apply half in HW. unfold rect in I. revert HW I. generalize (ndiv w (Fin 2)); intros r HW I. clean_rows.
Qed.
Lemma along3_swap a b u : along3 b a u = along3 a b (1 - u).
Proof. apply v3_ext; cbn [along3 cx cy cz]; ring. Qed.
Lemma picture_of c r o rows (edge : v3 R -> v3 R -> Prop) : plain_cam c Rectilinear r o -> clean rows ->
  (forall a b, has (drawn rows) a b <-> edge a b) -> (forall a b, edge a b -> in_front o a /\ in_front o b) ->
  forall X, shown [object_im c rows] X <-> exists a b u, edge a b /\ 0 <= u <= 1 /\ seen_at c (along3 a b u) X.
Proof.
  intros HC CL HE HF X. pose proof (C70_picture c r o [rows] HC) as K.
  assert (GR : forall l, In l [rows] -> good_rows l) by (intros l [<-|[]]; apply clean_good; exact CL).
  cbn [map] in K. rewrite (K GR X). clear K GR. split.
  - intros (l&a&b&u&[<-|[]]&D&_&_&U&S). exists a, b, u. splits; auto; try apply U. apply HE. left. exact D.
  - intros (a&b&u&E&U&S). destruct (HF a b E) as (FA&FB). apply HE in E. destruct E as [D|D].
    + exists rows, a, b, u. splits; auto; try apply U. left. reflexivity.
    + exists rows, b, a, (1 - u). splits; auto; try lra; [left; reflexivity|]. rewrite along3_swap. replace (1 - (1 - u)) with u by ring. exact S.
Qed.
Theorem C70_cube c r o p ctr w W : plain_cam c Rectilinear r o -> rep3 p ctr -> rep w W -> W <> 0 ->
  (forall a, corner ctr W a -> in_front o a) ->
  forall X, shown [object_im c (cube p w)] X <->
    exists a b u, (corner ctr W a /\ corner ctr W b /\ differ_once a b) /\ 0 <= u <= 1 /\ seen_at c (along3 a b u) X.
Proof.
  intros HC Hp HW NW HF. apply (picture_of c r o); auto.
  - eapply cube_clean; eauto.
  - apply (C52_cube p ctr w W); auto.
  - intros a b (A&B&_). auto.
Qed.
Print Assumptions C70_cube.
Theorem C70_rect c r o p ctr w W : plain_cam c Rectilinear r o -> rep3 p ctr -> rep w W -> W <> 0 ->
  (forall a, square_corner ctr W a -> in_front o a) ->
  forall X, shown [object_im c (rect p w)] X <->
    exists a b u, (square_corner ctr W a /\ square_corner ctr W b /\ differ_once a b) /\ 0 <= u <= 1 /\ seen_at c (along3 a b u) X.
Proof.
  intros HC Hp HW NW HF. apply (picture_of c r o); auto.
  - eapply rect_clean; eauto.
  - apply (C52_rect p ctr w W); auto.
  - intros a b (A&B&_). auto.
Qed.
Print Assumptions C70_rect.

(** The three plans of plotSceneViews are the orthogonal projections of the cone of the camera and of the objects, the
    fourth view is the picture; all three plans and the picture are drawn for every camera. *)
Lemma strokes_plan (f : v3 num -> v2 num) (g : v3 R -> v2 R) rows : (forall p P, rep3 p P -> rep2 (f p) (g P)) -> is_nan2 (f nan_row) ->
  clean rows -> strokes (map f rows) = map (fun s => (g (fst s), g (snd s))) (drawn rows).
Proof.
  intros F N. assert (E : forall p, p = nan_row \/ (exists P, rep3 p P) -> point2 (f p) = option_map g (point p)).
  { intros p [->|(P&HP)]; [rewrite (point2_nan _ N); reflexivity|]. rewrite (point2_rep _ _ (F p P HP)), (point_rep _ _ HP). reflexivity. }
  induction rows as [|p rows IH]; intros C; [reflexivity|]. destruct rows as [|q rows]; [reflexivity|].
  change (map f (p :: q :: rows)) with (f p :: f q :: map f rows). rewrite strokes_two, drawn_two.
  change (f q :: map f rows) with (map f (q :: rows)). rewrite IH by (intros x I; apply C; right; exact I).
  rewrite (E p) by (apply C; left; reflexivity). rewrite (E q) by (apply C; right; left; reflexivity).
  destruct (point p) as [a|], (point q) as [b|]; reflexivity.
Qed.
Definition plan (g : v3 R -> v2 R) (objects : list (list (v3 num))) (X : v2 R) : Prop :=
  exists rows a b u, In rows objects /\ In (a, b) (drawn rows) /\ 0 <= u <= 1 /\ X = g (along3 a b u).
Lemma shown_plan (f : v3 num -> v2 num) (g : v3 R -> v2 R) objects : (forall p P, rep3 p P -> rep2 (f p) (g P)) -> is_nan2 (f nan_row) ->
  (forall a b u, along2 (g a) (g b) u = g (along3 a b u)) -> (forall rows, In rows objects -> clean rows) ->
  forall X, shown (map (map f) objects) X <-> plan g objects X.
Proof.
  intros F N L C X. split.
  - intros (l&A&B&u&I&S&U&->). apply in_map_iff in I. destruct I as (rows&<-&I).
    rewrite (strokes_plan f g rows F N (C rows I)) in S. apply in_map_iff in S. destruct S as ((a&b)&E&S). injection E as <- <-.
    exists rows, a, b, u. splits; auto; try apply U.
  - intros (rows&a&b&u&I&D&U&->). exists (map f rows), (g a), (g b), u. splits; auto; try apply U; [apply in_map; exact I|].
    rewrite (strokes_plan f g rows F N (C rows I)). apply in_map_iff. exists (a, b). auto.
Qed.
Lemma cone_rows o b corners x : In x (cone_loop o b corners) -> x = nan_row \/ x = o \/ In x b.
Proof.
  unfold cone_loop. revert b. induction corners as [|i l IH]; intros b I; [auto|]. cbn [fold_left] in I. apply IH in I.
  destruct I as [I|[I|I]]; auto.
  assert (K : forall y, In y (b ++ [nan_row; o]) -> y = nan_row \/ y = o \/ In y b).
  { intros y Hy. apply in_app_iff in Hy. destruct Hy as [Hy|[<-|[<-|[]]]]; auto. }
  apply in_app_iff in I. destruct I as [I|[<-|[]]]; [auto|].
  destruct (nth_in_or_default i (b ++ [nan_row; o]) nan_row) as [H|H]; [apply K; exact H|left; exact H].
Qed.
Theorem C70_views c r o w h W H objects : plain_cam c Rectilinear r o -> rep w W -> rep h H -> (forall rows, In rows objects -> clean rows) ->
  exists cone v, cone_at_distance c w h (Fin 1) = Some cone /\ plotSceneViews (Some (c, w, h)) objects = Some v /\
    (forall X, shown (v_xy v) X <-> plan (fun P => V2 (cx P) (cy P)) (cone :: objects) X) /\
    (forall X, shown (v_xz v) X <-> plan (fun P => V2 (cx P) (cz P)) (cone :: objects) X) /\
    (forall X, shown (v_yz v) X <-> plan (fun P => V2 (cy P) (cz P)) (cone :: objects) X) /\
    v_image v = map (object_im c) objects.
Proof.
  intros HC HW HH CL.
  assert (K : forall q Q, rep2 q Q -> exists p P, spaceFromImage c q (on_D (Fin 1)) = Some p /\ rep3 p P).
  { intros q Q Hq. destruct (C11_distance_constraint c Rectilinear r o q Q (Fin 1) 1 HC Hq I (rep_Fin 1)) as (p&E&_&K).
    destruct (K ltac:(lra)) as (P&HP&_). exists p, P. auto. }
  destruct (K (V2 (Fin 0) h) (V2 0 H)) as (p1&P1&E1&R1); [split; [apply rep_Fin|exact HH]|].
  destruct (K (V2 w h) (V2 W H)) as (p2&P2&E2&R2); [split; assumption|].
  destruct (K (V2 w (Fin 0)) (V2 W 0)) as (p3&P3&E3&R3); [split; [exact HW|apply rep_Fin]|].
  destruct (K (V2 (Fin 0) (Fin 0)) (V2 0 0)) as (p4&P4&E4&R4); [split; apply rep_Fin|].
  set (cone := cone_loop (ray_origin c) [p1; p2; p3; p4; p1] [0; 1; 2; 3; 4; 5]%nat).
  assert (EC : cone_at_distance c w h (Fin 1) = Some cone).
  { unfold cone_at_distance, corner_border. cbn [map all_some]. rewrite E1, E2, E3, E4. reflexivity. }
  assert (CC : forall rows, In rows (cone :: objects) -> clean rows).
  { intros rows [<-|I]; [|apply CL; exact I]. intros x Hx. apply cone_rows in Hx.
    assert (RO : rep3 (ray_origin c) (opos o)) by (destruct (plain_good _ _ _ _ HC) as (HG&_); eapply origin_rep; eauto).
    destruct Hx as [->|[->|[<-|[<-|[<-|[<-|[<-|[]]]]]]]]; [left; reflexivity|right; eauto ..]. }
  exists cone, (Views (map (map xy) (cone :: objects)) (map (map xz) (cone :: objects)) (map (map yz) (cone :: objects)) (map (object_im c) objects)).
  split; [exact EC|]. split; [unfold plotSceneViews; rewrite EC; reflexivity|].
  cbn [v_xy v_xz v_yz v_image].
  split; [|split; [|split; [|reflexivity]]].
  - apply shown_plan; auto; [intros p P (X&Y&Z); split; assumption|split; reflexivity].
  - apply shown_plan; auto; [intros p P (X&Y&Z); split; assumption|split; reflexivity].
  - apply shown_plan; auto; [intros p P (X&Y&Z); split; assumption|split; reflexivity].
Qed.
Print Assumptions C70_views.

(** renderImage: the same picture, if and only if the image sizes are ints that are not negative *)
Theorem C70_render c w h objects :
  (forall wn hn, w = Int wn -> h = Int hn -> (0 <= wn)%Z -> (0 <= hn)%Z ->
     renderImage (Some (c, w, h)) objects = Some (wn, hn, map (object_im c) objects)) /\
  (renderImage (Some (c, w, h)) objects <> None -> exists wn hn, w = Int wn /\ h = Int hn /\ (0 <= wn)%Z /\ (0 <= hn)%Z).
Proof.
  unfold renderImage, zeros. split.
  - intros wn hn -> -> A B. destruct (Z.ltb_spec hn 0), (Z.ltb_spec wn 0); try lia. reflexivity.
  - destruct h as [hn|x]; [|intros []; reflexivity]. destruct (Z.ltb_spec hn 0); [intros []; reflexivity|].
    destruct w as [wn|x]; [|intros []; reflexivity]. destruct (Z.ltb_spec wn 0); [intros []; reflexivity|]. intros _. exists wn, hn. auto.
Qed.
Print Assumptions C70_render.

(** Limits.  An edge that starts behind the camera is not drawn at all, also where the camera sees it. *)
Lemma strokes_blank_l p q : point2 p = None -> strokes [p; q] = [].
Proof. intros E. cbn [strokes]. rewrite E. reflexivity. Qed.
Theorem C70_behind_refuted : exists c r o p q P Q u X, plain_cam c Rectilinear r o /\ rep3 p P /\ rep3 q Q /\ 0 <= u <= 1 /\
  seen_at c (along3 P Q u) X /\ ~ exists Y, shown [object_im c [p; q]] Y.
Proof.
  destruct (ex_cam2 Rectilinear) as (c&HC). set (P := V3 1 (-10) 0). set (Q := V3 1 50 0).
  assert (E : along3 P Q (1 / 2) = V3 1 20 0) by (apply v3_ext; cbn [along3 P Q cx cy cz]; lra).
  exists c, ex_r, ex_or2, (fin3 P), (fin3 Q), P, Q, (1 / 2), (pin ex_r (cam_coords ex_or2 (V3 1 20 0))).
  split; [exact HC|]. split; [apply rep3_fin|]. split; [apply rep3_fin|]. split; [lra|]. split.
  - rewrite E. exists (fin3 (V3 1 20 0)). split; [apply rep3_fin|]. eapply ifs_front; [exact HC|apply rep3_fin|].
    apply front_show. apply ex2_showable. lra.
  - intros (Y&l&A&B&v&[<-|[]]&S&_). unfold object_im in S. cbn [map] in S. rewrite strokes_blank_l in S; [exact S|].
    apply point2_nan. eapply ifs_hidden; [exact HC|apply rep3_fin|]. unfold in_front. rewrite ex2_coords. cbn [P cx cy cz]. unfold tinyR. lra.
Qed.
Print Assumptions C70_behind_refuted.

(** A panoramic camera sees straight edges as curves, they are drawn as straight lines: a point of the edge is seen at
    a pixel which is not on the line. *)
Lemma cyl_seen c r o p P : plain_cam c Cylindrical r o -> rep3 p P -> tinyR <= Rabs (cz (cam_coords o P)) ->
  let C := cam_coords o P in let rho := hyp (- cz C) (- cx C) in
  0 < rho /\ exists th, rep2 (imageFromSpace c p true) (V2 (- f_x r * th + center_x r) (- f_y r * cy C / rho + center_y r)) /\
    - cz C = rho * cos th /\ (cx C <> 0 -> th = Ratan2 (- cx C) (- cz C)).
Proof.
  intros HC Hp B C rho. destruct (plain_good _ _ _ _ HC) as ((Hpr&_&HR)&HK&HDi&_).
  assert (Hrho : 0 < rho) by (apply hyp_pos; left; pose proof (big_nz _ B); unfold C; lra). split; [exact Hrho|].
  assert (HQ : rep3 (cameraFromSpace (cam_o c) p) C) by (exact (rigid_camera _ _ _ _ _ HR Hp)).
  unfold imageFromSpace. rewrite HDi, HK. cbn [p_image]. unfold cyl_image. rewrite (mask_big _ _ HQ B).
  revert HQ. generalize (cameraFromSpace (cam_o c) p). intros x (X&Y&Z). destruct Hpr as (H1&H2&H3&H4&_).
  destruct (natan2_polar _ _ _ _ (rep_neg _ _ X) (rep_neg _ _ Z)) as (th&Hth&_&E1&E2); [left; pose proof (big_nz _ B); unfold C; lra|].
  exists th.
  assert (Hs : rep (nsqrt (cx x * cx x + cz x * cz x)%num) rho).
  { eapply rep_eq; [apply rep_sqrt; [rep_all|nra]|]. unfold rho, hyp. f_equal; ring. }
  assert (Hy : rep (- f_y (cam_proj c) * cy x / nsqrt (cx x * cx x + cz x * cz x) + center_y (cam_proj c))%num
      (- f_y r * cy C / rho + center_y r)).
  { apply rep_add; auto. apply rep_div; auto; [rep_all|lra]. }
  cbn [c2]. rewrite (rep_notnan _ _ Hy). split; [split; cbn [c1 c2]; [rep_all|exact Hy]|]. split; [exact E1|].
  intros N. eapply rep_inj; [exact Hth|]. apply rep_atan2; auto; [apply rep_neg; auto|apply rep_neg; auto|lra].
Qed.
Lemma shown_two c p q A B X : rep2 (imageFromSpace c p true) A -> rep2 (imageFromSpace c q true) B ->
  (shown [object_im c [p; q]] X <-> exists v, 0 <= v <= 1 /\ X = along2 A B v).
Proof.
  intros HA HB. assert (S : strokes (object_im c [p; q]) = [(A, B)]).
  { unfold object_im. cbn [map strokes]. rewrite (point2_rep _ _ HA), (point2_rep _ _ HB). reflexivity. }
  split.
  - intros (l&a&b&v&[<-|[]]&I&V&->). rewrite S in I. destruct I as [I|[]]. injection I as <- <-. exists v. split; [apply V|reflexivity].
  - intros (v&V&->). exists (object_im c [p; q]), A, B, v. splits; auto; try apply V; [left; reflexivity|]. rewrite S. left. reflexivity.
Qed.
Lemma big_one z : z = 1 \/ z = -1 -> tinyR <= Rabs z.
Proof. intros [-> | ->]; [rewrite Rabs_R1|rewrite Rabs_left by lra]; unfold tinyR; lra. Qed.
Theorem C70_panorama_refuted : exists c r o p q P Q u X, plain_cam c Cylindrical r o /\ rep3 p P /\ rep3 q Q /\
  in_front o P /\ in_front o Q /\ 0 <= u <= 1 /\ seen_at c (along3 P Q u) X /\ ~ shown [object_im c [p; q]] X.
Proof.
  destruct (ex_cam2 Cylindrical) as (c&HC). set (P := V3 1 1 11). set (Q := V3 (-1) 1 11). set (M := V3 0 1 11).
  assert (E : along3 P Q (1 / 2) = M) by (apply v3_ext; cbn [along3 P Q M cx cy cz]; lra).
  assert (CP : cam_coords ex_or2 P = V3 1 1 (-1)) by (rewrite ex2_coords; apply v3_ext; cbn [P cx cy cz]; lra).
  assert (CQ : cam_coords ex_or2 Q = V3 (-1) 1 (-1)) by (rewrite ex2_coords; apply v3_ext; cbn [Q cx cy cz]; lra).
  assert (CM : cam_coords ex_or2 M = V3 0 1 (-1)) by (rewrite ex2_coords; apply v3_ext; cbn [M cx cy cz]; lra).
  destruct (cyl_seen c ex_r ex_or2 (fin3 P) P HC (rep3_fin P)) as (rP&tP&SP&_); [rewrite CP; apply big_one; right; reflexivity|].
  destruct (cyl_seen c ex_r ex_or2 (fin3 Q) Q HC (rep3_fin Q)) as (rQ&tQ&SQ&_); [rewrite CQ; apply big_one; right; reflexivity|].
  destruct (cyl_seen c ex_r ex_or2 (fin3 M) M HC (rep3_fin M)) as (rM&tM&SM&_); [rewrite CM; apply big_one; right; reflexivity|].
  rewrite CP in SP, rP. rewrite CQ in SQ, rQ. rewrite CM in SM. cbn [cx cy cz] in *.
  assert (EQ : hyp (- -1) (- -1) = hyp (- -1) (- (1))) by (unfold hyp; f_equal; ring). rewrite EQ in *.
  exists c, ex_r, ex_or2, (fin3 P), (fin3 Q), P, Q, (1 / 2). eexists. split; [exact HC|]. split; [apply rep3_fin|]. split; [apply rep3_fin|].
  split; [unfold in_front; rewrite CP; cbn; unfold tinyR; lra|]. split; [unfold in_front; rewrite CQ; cbn; unfold tinyR; lra|].
  split; [lra|]. split; [rewrite E; exists (fin3 M); split; [apply rep3_fin|exact SM]|].
  rewrite (shown_two _ _ _ _ _ _ SP SQ). intros (v&_&X). apply (f_equal c2) in X. cbn [c2 along2] in X.
  assert (HM : hyp (- -1) (- 0) = 1) by (unfold hyp; replace (_ + _) with (Rsqr 1) by (unfold Rsqr; ring); rewrite sqrt_Rsqr; lra).
  rewrite HM in X. set (s := hyp (- -1) (- (1))) in *.
  assert (S2 : s * s = 2) by (unfold s, hyp; rewrite sqrt_def; lra).
  assert (K : - f_y ex_r * 1 / 1 = - f_y ex_r * 1 / s) by (rewrite Rminus_diag_eq in X by reflexivity; lra). cbn [f_y ex_r] in K.
  assert (K2 : - (3500) * s = - (3500) * (/ s * s)) by (rewrite <- Rmult_assoc; f_equal; lra). rewrite Rinv_l in K2 by lra. assert (s = 1) by lra. nra.
Qed.
Print Assumptions C70_panorama_refuted.
(** Behind a panoramic camera an edge runs out of the picture on one side and in again on the other; the line is drawn
    across the whole picture, through pixels where nothing of the edge is seen. *)
Theorem C70_seam_refuted : exists c r o p q P Q X, plain_cam c Cylindrical r o /\ rep3 p P /\ rep3 q Q /\
  shown [object_im c [p; q]] X /\ c1 X = center_x r /\ forall u Y, 0 <= u <= 1 -> seen_at c (along3 P Q u) Y -> c1 Y <> center_x r.
Proof.
  destruct (ex_cam2 Cylindrical) as (c&HC). set (P := V3 1 (-1) 11). set (Q := V3 (-1) (-1) 11).
  assert (CP : cam_coords ex_or2 P = V3 1 1 1) by (rewrite ex2_coords; apply v3_ext; cbn [P cx cy cz]; lra).
  assert (CQ : cam_coords ex_or2 Q = V3 (-1) 1 1) by (rewrite ex2_coords; apply v3_ext; cbn [Q cx cy cz]; lra).
  destruct (cyl_seen c ex_r ex_or2 (fin3 P) P HC (rep3_fin P)) as (rP&tP&SP&_&TP); [rewrite CP; apply big_one; left; reflexivity|].
  destruct (cyl_seen c ex_r ex_or2 (fin3 Q) Q HC (rep3_fin Q)) as (rQ&tQ&SQ&_&TQ); [rewrite CQ; apply big_one; left; reflexivity|].
  rewrite CP in TP. rewrite CQ in TQ. cbn [cx cz] in TP, TQ.
  assert (T : tP + tQ = 0).
  { rewrite TP, TQ by lra. unfold Ratan2. rewrite !(Rltb_false 0) by lra. rewrite !(Rltb_true (- (1)) 0) by lra.
    rewrite (Rltb_false (- -1) 0) by lra. replace (- -1 / - (1)) with (- (- (1) / - (1))) by field. rewrite atan_opp. ring. }
  exists c, ex_r, ex_or2, (fin3 P), (fin3 Q), P, Q. eexists. split; [exact HC|]. split; [apply rep3_fin|]. split; [apply rep3_fin|].
  split; [apply (shown_two _ _ _ _ _ _ SP SQ); exists (1 / 2); split; [lra|reflexivity]|].
  split; [cbn [c1 along2]; replace tQ with (- tP) by lra; field|].
  intros u Y U (y&Hy&SY).
  assert (CY : cam_coords ex_or2 (along3 P Q u) = V3 (1 - 2 * u) 1 1) by (rewrite coords_along, CP, CQ; apply v3_ext; cbn [along3 cx cy cz]; ring).
  destruct (cyl_seen c ex_r ex_or2 y _ HC Hy) as (rY&tY&SY'&CT&_); [rewrite CY; apply big_one; left; reflexivity|].
  rewrite CY in CT, rY. rewrite (rep2_inj _ _ _ SY SY'). cbn [c1 f_x center_x ex_r cx cz] in *. intros Z.
  assert (tY = 0) by lra. subst tY. rewrite cos_0 in CT. lra.
Qed.
Print Assumptions C70_seam_refuted.
(** Without a camera nothing is drawn, not even the plans: getCameraCone is called before the camera is tested.  A
    size that is a float, as every size from a sensor or read from a file may be, does not give a picture. *)
Theorem C70_no_camera_refuted : (forall objects, plotSceneViews None objects = None) /\
  exists c w h W H, plotSceneViews (Some (c, w, h)) [] <> None /\ rep w W /\ rep h H /\ renderImage (Some (c, Float w, Float h)) [] = None.
Proof.
  split; [reflexivity|]. destruct (ex_cam2 Rectilinear) as (c&HC). exists c, (Fin 640), (Fin 480), 640, 480.
  destruct (C70_views c ex_r ex_or2 (Fin 640) (Fin 480) 640 480 [] HC (rep_Fin _) (rep_Fin _)) as (cone&v&_&E&_); [intros rows []|].
  rewrite E. splits; try discriminate; try apply rep_Fin; reflexivity.
Qed.
Print Assumptions C70_no_camera_refuted.

(** ** Examples *)
Lemma abs5 x y : x - y = 5 \/ x - y = -5 -> Rabs (x - y) = Rabs 10 / 2.
Proof. rewrite (Rabs_right 10) by lra. intros [-> | ->]; [rewrite Rabs_right; lra|rewrite Rabs_left; lra]. Qed.
Lemma abs5_le x y : Rabs (x - y) = Rabs 10 / 2 -> y - 5 <= x.
Proof. rewrite (Rabs_right 10) by lra. intros H. pose proof (Rle_abs (- (x - y))). rewrite Rabs_Ropp in *. lra. Qed.
Lemma ex_edge_front x z y : 1 <= y -> in_front ex_or2 (V3 x y z).
Proof. intros H. apply front_show. apply ex2_showable. exact H. Qed.
Example C70_edge_example : exists c A B, plain_cam c Rectilinear ex_r ex_or2 /\
  strokes (object_im c [fin3 (V3 1 50 0); fin3 (V3 1 100 0)]) = [(A, B)] /\ seen_at c (V3 1 50 0) A /\ c1 A = 2070 /\ c2 A = 2200.
Proof.
  destruct (ex_cam2 Rectilinear) as (c&HC).
  destruct (C70_edge c _ _ _ _ _ _ HC (rep3_fin (V3 1 50 0)) (rep3_fin (V3 1 100 0))) as (A&B&S&SA&_); try (apply ex_edge_front; lra).
  exists c, A, B. split; [exact HC|]. split; [exact S|]. split; [exact SA|]. destruct SA as (p&Hp&HA).
  rewrite (rep2_inj _ _ _ HA (ifs_front _ _ _ _ _ HC Hp (ex_edge_front 1 0 50 ltac:(lra)))). rewrite ex2_coords.
  unfold pin, ex_r; cbn [c1 c2 cx cy cz f_x f_y center_x center_y]. split; field.
Qed.
Example C70_picture_example : exists c X, plain_cam c Rectilinear ex_r ex_or2 /\
  shown (map (object_im c) [cube (fin3 (V3 0 50 5)) (Fin 10); [nan_row; fin3 (V3 1 50 0); fin3 (V3 1 100 0)]]) X.
Proof.
  destruct (ex_cam2 Rectilinear) as (c&HC). exists c, (pin ex_r (cam_coords ex_or2 (along3 (V3 1 50 0) (V3 1 100 0) 1))). split; [exact HC|].
  apply (C70_picture c ex_r ex_or2); [exact HC| |].
  - intros rows [<-|[<-|[]]]; apply clean_good; [eapply cube_clean; [apply rep3_fin|apply rep_Fin]|].
    intros p [<-|[<-|[<-|[]]]]; [left; reflexivity|right; eexists; apply rep3_fin ..].
  - exists [nan_row; fin3 (V3 1 50 0); fin3 (V3 1 100 0)], (V3 1 50 0), (V3 1 100 0), 1.
    split; [right; left; reflexivity|]. split; [left; reflexivity|]. split; [apply ex_edge_front; lra|]. split; [apply ex_edge_front; lra|].
    split; [lra|]. exists (fin3 (along3 (V3 1 50 0) (V3 1 100 0) 1)). split; [apply rep3_fin|].
    eapply ifs_front; [exact HC|apply rep3_fin|]. apply ex_edge_front. cbn. lra.
Qed.
Example C70_cube_example : exists c X, plain_cam c Rectilinear ex_r ex_or2 /\ (forall a, corner (V3 0 50 5) 10 a -> in_front ex_or2 a) /\
  shown [object_im c (cube (fin3 (V3 0 50 5)) (Fin 10))] X.
Proof.
  destruct (ex_cam2 Rectilinear) as (c&HC). exists c.
  assert (F : forall a, corner (V3 0 50 5) 10 a -> in_front ex_or2 a).
  { intros [x y z] (K1&K2&K3). apply ex_edge_front. apply abs5_le in K2. cbn in *. lra. }
  eexists. split; [exact HC|]. split; [exact F|].
  apply (C70_cube c ex_r ex_or2 _ (V3 0 50 5) _ 10 HC (rep3_fin _) (rep_Fin _)); [lra|exact F|].
  exists (V3 (-5) 45 0), (V3 5 45 0), 0. split; [|split; [lra|]].
  - unfold corner, differ_once; cbn [cx cy cz]. splits; try (apply abs5; lra); lra.
  - eexists. split; [apply rep3_fin|]. eapply ifs_front; [exact HC|apply rep3_fin|]. apply ex_edge_front. cbn. lra.
Qed.
Example C70_rect_example : exists c X, plain_cam c Rectilinear ex_r ex_or2 /\ (forall a, square_corner (V3 0 50 5) 10 a -> in_front ex_or2 a) /\
  shown [object_im c (rect (fin3 (V3 0 50 5)) (Fin 10))] X.
Proof.
  destruct (ex_cam2 Rectilinear) as (c&HC). exists c.
  assert (F : forall a, square_corner (V3 0 50 5) 10 a -> in_front ex_or2 a).
  { intros [x y z] K. unfold square_corner in K. apply ex_edge_front. cbn in *. lra. }
  eexists. split; [exact HC|]. split; [exact F|].
  apply (C70_rect c ex_r ex_or2 _ (V3 0 50 5) _ 10 HC (rep3_fin _) (rep_Fin _)); [lra|exact F|].
  exists (V3 (-5) 50 0), (V3 5 50 0), 0. split; [|split; [lra|]].
  - unfold square_corner, differ_once; cbn [cx cy cz]. splits; try (apply abs5; lra); lra.
  - eexists. split; [apply rep3_fin|]. eapply ifs_front; [exact HC|apply rep3_fin|]. apply ex_edge_front. cbn. lra.
Qed.
Example C70_views_example : exists c v, plain_cam c Rectilinear ex_r ex_or2 /\
  plotSceneViews (Some (c, Fin 640, Fin 480)) [rect (fin3 (V3 0 50 5)) (Fin 10)] = Some v /\ shown (v_xy v) (V2 (-5) 50).
Proof.
  destruct (ex_cam2 Rectilinear) as (c&HC). exists c.
  assert (CL : clean (rect (fin3 (V3 0 50 5)) (Fin 10))) by (eapply rect_clean; [apply rep3_fin|apply rep_Fin]).
  destruct (C70_views c ex_r ex_or2 (Fin 640) (Fin 480) 640 480 [rect (fin3 (V3 0 50 5)) (Fin 10)] HC (rep_Fin _) (rep_Fin _)) as (cone&v&_&E&K&_);
    [intros rows [<-|[]]; exact CL|].
  exists v. split; [exact HC|]. split; [exact E|]. apply K.
  assert (HS : has (drawn (rect (fin3 (V3 0 50 5)) (Fin 10))) (V3 (-5) 50 0) (V3 5 50 0)).
  { apply (C52_rect _ (V3 0 50 5) _ 10 (rep3_fin _) (rep_Fin _)); [lra|]. unfold square_corner, differ_once; cbn [cx cy cz]. splits; try (apply abs5; lra); lra. }
  destruct HS as [D|D]; [exists (rect (fin3 (V3 0 50 5)) (Fin 10)), (V3 (-5) 50 0), (V3 5 50 0), 0|exists (rect (fin3 (V3 0 50 5)) (Fin 10)), (V3 5 50 0), (V3 (-5) 50 0), 1];
  (split; [right; left; reflexivity|]; split; [exact D|]; split; [lra|]; cbn; f_equal; lra).
Qed.
Example C70_render_example : exists c, plain_cam c Rectilinear ex_r ex_or2 /\
  renderImage (Some (c, Int 640, Int 480)) [] = Some (640%Z, 480%Z, []).
Proof. destruct (ex_cam2 Rectilinear) as (c&HC). exists c. split; [exact HC|]. apply (proj1 (C70_render c (Int 640) (Int 480) [])); auto; lia. Qed.
