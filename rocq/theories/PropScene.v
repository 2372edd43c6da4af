(** * C52: what the wire frame objects of a scene draw *)
Require Import Reals Lra List Arith Lia.
From Verif Require Import Num Vec Scene.
Import ListNotations.
Open Scope R_scope.

(** ** Specification *)
(** A plotted line joins neighbouring rows; a row with a NaN or infinite entry is left out together with both
    joints (matplotlib's rule for plot). *)
Definition point (p : v3 num) : option (v3 R) :=
  match toR (cx p), toR (cy p), toR (cz p) with Some x, Some y, Some z => Some (V3 x y z) | _, _, _ => None end.
Fixpoint drawn (rows : list (v3 num)) : list (v3 R * v3 R) :=
  match rows with
  | p :: (q :: _) as rest => match point p, point q with Some a, Some b => (a, b) :: drawn rest | _, _ => drawn rest end
  | _ => []
  end.
(** a segment occurs in a list of segments, in either direction *)
Definition has (l : list (v3 R * v3 R)) (a b : v3 R) : Prop := In (a, b) l \/ In (b, a) l.
(** no segment is drawn twice, not even backwards *)
Inductive once : list (v3 R * v3 R) -> Prop :=
| once_nil : once []
| once_cons a b l : ~ has l a b -> once l -> once ((a, b) :: l).
(** corners of the cube with centre [c] and width [w], of the upright square, and their edges *)
Definition corner (c : v3 R) (w : R) (p : v3 R) : Prop :=
  Rabs (cx p - cx c) = Rabs w / 2 /\ Rabs (cy p - cy c) = Rabs w / 2 /\ Rabs (cz p - cz c) = Rabs w / 2.
Definition square_corner (c : v3 R) (w : R) (p : v3 R) : Prop :=
  Rabs (cx p - cx c) = Rabs w / 2 /\ cy p = cy c /\ Rabs (cz p - cz c) = Rabs w / 2.
Definition differ_once (p q : v3 R) : Prop :=
  cx p <> cx q /\ cy p = cy q /\ cz p = cz q \/ cx p = cx q /\ cy p <> cy q /\ cz p = cz q \/
  cx p = cx q /\ cy p = cy q /\ cz p <> cz q.
(** the smallest and the largest value of a list *)
Definition least (l : list R) (m : R) : Prop := In m l /\ forall x, In x l -> m <= x.
Definition greatest (l : list R) (m : R) : Prop := In m l /\ forall x, In x l -> x <= m.

(** ** Facts *)
Lemma point_rep p a : rep3 p a -> point p = Some a.
Proof. intros (X&Y&Z). unfold point, rep in *. rewrite X, Y, Z. destruct a; reflexivity. Qed.
Lemma point_nan : point nan_row = None. Proof. reflexivity. Qed.
Lemma drawn_step p q rest a b : rep3 p a -> rep3 q b -> drawn (p :: q :: rest) = (a, b) :: drawn (q :: rest).
Proof. intros P Q. cbn [drawn]. rewrite (point_rep _ _ P), (point_rep _ _ Q). reflexivity. Qed.
Lemma drawn_nan_l rest : drawn (nan_row :: rest) = drawn rest.
Proof. destruct rest; reflexivity. Qed.
Lemma drawn_nan_r p rest : drawn (p :: nan_row :: rest) = drawn rest.
Proof. cbn [drawn]. rewrite point_nan. destruct (point p); apply (drawn_nan_l rest). Qed.
Lemma half w W : rep w W -> rep (ndiv w (Fin 2)) (W / 2).
Proof. intros H. apply rep_div; [assumption|apply rep_Fin|lra]. Qed.
Lemma abs_pm x c w : Rabs (x - c) = Rabs w / 2 <-> x = c + w / 2 \/ x = c - w / 2.
Proof.
  split.
  - intros H. unfold Rabs in H. destruct (Rcase_abs (x - c)), (Rcase_abs w); lra.
  - intros [-> | ->]; unfold Rabs; destruct (Rcase_abs _), (Rcase_abs w); lra.
Qed.

Definition cube_segments (c : v3 R) (w : R) : list (v3 R * v3 R) :=
  let P a b d := V3 (cx c + a * (w / 2)) (cy c + b * (w / 2)) (cz c + d * (w / 2)) in
  [(P 1 1 (-1), P 1 (-1) (-1)); (P 1 (-1) (-1), P (-1) (-1) (-1)); (P (-1) (-1) (-1), P (-1) 1 (-1)); (P (-1) 1 (-1), P 1 1 (-1));
   (P 1 1 (-1), P 1 1 1); (P 1 (-1) (-1), P 1 (-1) 1); (P (-1) (-1) (-1), P (-1) (-1) 1); (P (-1) 1 (-1), P (-1) 1 1);
   (P 1 1 1, P 1 (-1) 1); (P 1 (-1) 1, P (-1) (-1) 1); (P (-1) (-1) 1, P (-1) 1 1); (P (-1) 1 1, P 1 1 1)].
Definition rect_segments (c : v3 R) (w : R) : list (v3 R * v3 R) :=
  let P a d := V3 (cx c + a * (w / 2)) (cy c) (cz c + d * (w / 2)) in
  [(P 1 (-1), P 1 1); (P 1 1, P (-1) 1); (P (-1) 1, P (-1) (-1)); (P (-1) (-1), P 1 (-1))].

Lemma drawn_rows x y z x' y' z' rest X Y Z X' Y' Z' : rep x X -> rep y Y -> rep z Z -> rep x' X' -> rep y' Y' -> rep z' Z' ->
  drawn (V3 x y z :: V3 x' y' z' :: rest) = (V3 X Y Z, V3 X' Y' Z') :: drawn (V3 x' y' z' :: rest).
Proof. intros. apply drawn_step; unfold rep3; splits; assumption. Qed.
Ltac rows := repeat first
  [ rewrite drawn_nan_l | rewrite drawn_nan_r
  | erewrite drawn_rows by first [eassumption | apply rep_add; eassumption | apply rep_sub; eassumption] ];
  change (drawn []) with (@nil (v3 R * v3 R)).
Lemma cube_drawn p c w W : rep3 p c -> rep w W -> drawn (cube p w) = cube_segments c W.
Proof.
  intros (X&Y&Z) HW. apply half in HW. unfold cube. revert HW. generalize (ndiv w (Fin 2)); intros r HW. rows.
  unfold cube_segments.
  repeat (apply f_equal2; [f_equal; apply v3_ext; cbn [cx cy cz]; ring|]). reflexivity.
Qed.
Lemma rect_drawn p c w W : rep3 p c -> rep w W -> drawn (rect p w) = rect_segments c W.
Proof.
  intros (X&Y&Z) HW. apply half in HW. unfold rect. revert HW. generalize (ndiv w (Fin 2)); intros r HW. rows.
  unfold rect_segments.
  repeat (apply f_equal2; [f_equal; apply v3_ext; cbn [cx cy cz]; ring|]). reflexivity.
Qed.

(** ** Cube and rectangle *)
(** coordinates of corners as signs *)
Lemma pm x c w : (x = c + w / 2 \/ x = c - w / 2) -> exists k, (k = 1 \/ k = -1) /\ x = c + k * (w / 2).
Proof. intros [-> | ->]; [exists 1|exists (-1)]; split; auto; lra. Qed.
Lemma corner_sign c w p : corner c w p -> exists a b d, (a = 1 \/ a = -1) /\ (b = 1 \/ b = -1) /\ (d = 1 \/ d = -1) /\
  p = V3 (cx c + a * (w / 2)) (cy c + b * (w / 2)) (cz c + d * (w / 2)).
Proof.
  intros (X&Y&Z). apply abs_pm, pm in X as (a&A&X). apply abs_pm, pm in Y as (b&B&Y). apply abs_pm, pm in Z as (d&D&Z).
  exists a, b, d. splits; auto. apply v3_ext; assumption.
Qed.
Lemma square_sign c w p : square_corner c w p -> exists a d, (a = 1 \/ a = -1) /\ (d = 1 \/ d = -1) /\
  p = V3 (cx c + a * (w / 2)) (cy c) (cz c + d * (w / 2)).
Proof.
  intros (X&Y&Z). apply abs_pm, pm in X as (a&A&X). apply abs_pm, pm in Z as (d&D&Z).
  exists a, d. splits; auto. apply v3_ext; assumption.
Qed.
Lemma sign_corner c w a b d : (a = 1 \/ a = -1) -> (b = 1 \/ b = -1) -> (d = 1 \/ d = -1) ->
  corner c w (V3 (cx c + a * (w / 2)) (cy c + b * (w / 2)) (cz c + d * (w / 2))).
Proof.
  intros A B D. unfold corner; splits; cbn [cx cy cz]; apply abs_pm;
    [destruct A as [-> | ->]|destruct B as [-> | ->]|destruct D as [-> | ->]]; solve [left; lra|right; lra].
Qed.
Lemma sign_square c w a d : (a = 1 \/ a = -1) -> (d = 1 \/ d = -1) ->
  square_corner c w (V3 (cx c + a * (w / 2)) (cy c) (cz c + d * (w / 2))).
Proof.
  intros A D. unfold square_corner; splits; cbn [cx cy cz]; try reflexivity; apply abs_pm;
    [destruct A as [-> | ->]|destruct D as [-> | ->]]; solve [left; lra|right; lra].
Qed.
Ltac notin := unfold has; cbn [In]; intros H;
  repeat match type of H with _ \/ _ => destruct H as [H|H] end; try contradiction;
  injection H; intros; lra.
Ltac inseg := solve [repeat first [left; reflexivity | right]].

Lemma cube_edges c w : w <> 0 -> forall a b, has (cube_segments c w) a b <-> corner c w a /\ corner c w b /\ differ_once a b.
Proof.
  intros NZ a b. split.
  - intros H. unfold has, cube_segments in H. cbn [In] in H.
    repeat match type of H with _ \/ _ => destruct H as [H|H] end; try contradiction; injection H; intros; subst a b;
      (splits; [apply sign_corner; auto|apply sign_corner; auto|unfold differ_once; cbn [cx cy cz];
        solve [left; splits; lra|right; left; splits; lra|right; right; splits; lra]]).
  - intros (A&B&D). apply corner_sign in A as (a1&a2&a3&A1&A2&A3&->). apply corner_sign in B as (b1&b2&b3&B1&B2&B3&->).
    unfold differ_once in D; cbn [cx cy cz] in D.
    destruct A1 as [-> | ->], A2 as [-> | ->], A3 as [-> | ->], B1 as [-> | ->], B2 as [-> | ->], B3 as [-> | ->];
      try (exfalso; lra); unfold has, cube_segments; cbn [In]; solve [left; inseg|right; inseg].
Qed.
Lemma rect_edges c w : w <> 0 -> forall a b, has (rect_segments c w) a b <-> square_corner c w a /\ square_corner c w b /\ differ_once a b.
Proof.
  intros NZ a b. split.
  - intros H. unfold has, rect_segments in H. cbn [In] in H.
    repeat match type of H with _ \/ _ => destruct H as [H|H] end; try contradiction; injection H; intros; subst a b;
      (splits; [apply sign_square; auto|apply sign_square; auto|unfold differ_once; cbn [cx cy cz];
        solve [left; splits; lra|right; left; splits; lra|right; right; splits; lra]]).
  - intros (A&B&D). apply square_sign in A as (a1&a3&A1&A3&->). apply square_sign in B as (b1&b3&B1&B3&->).
    unfold differ_once in D; cbn [cx cy cz] in D.
    destruct A1 as [-> | ->], A3 as [-> | ->], B1 as [-> | ->], B3 as [-> | ->];
      try (exfalso; lra); unfold has, rect_segments; cbn [In]; solve [left; inseg|right; inseg].
Qed.
Lemma cube_once c w : w <> 0 -> once (cube_segments c w).
Proof. intros NZ. unfold cube_segments. repeat (apply once_cons; [notin|]). apply once_nil. Qed.
Lemma rect_once c w : w <> 0 -> once (rect_segments c w).
Proof. intros NZ. unfold rect_segments. repeat (apply once_cons; [notin|]). apply once_nil. Qed.

(** the cube: its twelve edges, each once *)
Theorem C52_cube : forall p c w W, rep3 p c -> rep w W -> W <> 0 ->
  (forall a b, has (drawn (cube p w)) a b <-> corner c W a /\ corner c W b /\ differ_once a b) /\
  once (drawn (cube p w)) /\ length (drawn (cube p w)) = 12%nat.
Proof. intros p c w W P HW NZ. rewrite (cube_drawn p c w W P HW). splits; [apply cube_edges|apply cube_once|reflexivity]; auto. Qed.
Print Assumptions C52_cube.
(** the rectangle: an upright square seen along y *)
Theorem C52_rect : forall p c w W, rep3 p c -> rep w W -> W <> 0 ->
  (forall a b, has (drawn (rect p w)) a b <-> square_corner c W a /\ square_corner c W b /\ differ_once a b) /\
  once (drawn (rect p w)) /\ length (drawn (rect p w)) = 4%nat.
Proof. intros p c w W P HW NZ. rewrite (rect_drawn p c w W P HW). splits; [apply rect_edges|apply rect_once|reflexivity]; auto. Qed.
Print Assumptions C52_rect.

(** ** Grid *)
Lemma fold_min l : forall a L A, Forall2 rep l L -> rep a A ->
  exists m, rep (fold_left (fun m x => if nltb x m then x else m) l a) m /\ least (A :: L) m.
Proof.
  induction l as [|x l IH]; intros a L A F HA; inversion F as [|? X ? L' HX F']; subst.
  - exists A. split; auto. split; [left; auto|]. intros ? [->|[]]. lra.
  - cbn [fold_left]. destruct (IH (if nltb x a then x else a) L' (if Rltb X A then X else A) F') as (m&Hm&I&L).
    { rewrite (rep_ltb _ _ _ _ HX HA). destruct (Rltb X A); auto. }
    exists m. split; auto. split.
    + destruct I as [E|I]; [|right; right; auto]. destruct (Rltb X A); subst; [right; left|left]; auto.
    + assert (M : m <= (if Rltb X A then X else A)) by (apply L; left; auto).
      unfold Rltb in M. intros y [<-|[<-|I']]; [..|apply L; right; auto]; destruct (Rlt_dec X A); lra.
Qed.
Lemma fold_max l : forall a L A, Forall2 rep l L -> rep a A ->
  exists m, rep (fold_left (fun m x => if nltb m x then x else m) l a) m /\ greatest (A :: L) m.
Proof.
  induction l as [|x l IH]; intros a L A F HA; inversion F as [|? X ? L' HX F']; subst.
  - exists A. split; auto. split; [left; auto|]. intros ? [->|[]]. lra.
  - cbn [fold_left]. destruct (IH (if nltb a x then x else a) L' (if Rltb A X then X else A) F') as (m&Hm&I&L).
    { rewrite (rep_ltb _ _ _ _ HA HX). destruct (Rltb A X); auto. }
    exists m. split; auto. split.
    + destruct I as [E|I]; [|right; right; auto]. destruct (Rltb A X); subst; [right; left|left]; auto.
    + assert (M : (if Rltb A X then X else A) <= m) by (apply L; left; auto).
      unfold Rltb in M. intros y [<-|[<-|I']]; [..|apply L; right; auto]; destruct (Rlt_dec A X); lra.
Qed.
Lemma drawn_lines A (f g : A -> v3 num) B (F G : B -> v3 R) (P : A -> B -> Prop) l L rest :
  (forall a b, P a b -> rep3 (f a) (F b) /\ rep3 (g a) (G b)) -> Forall2 P l L ->
  drawn (flat_map (fun a => [f a; g a; nan_row]) l ++ rest) = map (fun b => (F b, G b)) L ++ drawn rest.
Proof.
  intros H F2. induction F2 as [|a b l L Pab F2 IH]; [reflexivity|]. destruct (H a b Pab) as (R1&R2).
  cbn [flat_map app map]. rewrite (drawn_step _ _ _ _ _ R1 R2). rewrite drawn_nan_r. rewrite IH. reflexivity.
Qed.

(** the grid: one line per y value from the least to the greatest x value, then one per x value, all at height 0;
    an empty list of values raises and draws nothing *)
Theorem C52_grid : forall xs ys X Y, Forall2 rep xs X -> Forall2 rep ys Y ->
  (X <> [] /\ Y <> [] -> exists pts x0 x1 y0 y1, grid xs ys = Some pts /\
     least X x0 /\ greatest X x1 /\ least Y y0 /\ greatest Y y1 /\
     drawn pts = map (fun y => (V3 x0 y 0, V3 x1 y 0)) Y ++ map (fun x => (V3 x y0 0, V3 x y1 0)) X) /\
  (X = [] \/ Y = [] -> grid xs ys = None).
Proof.
  intros xs ys X Y FX FY. split.
  - intros (NX&NY). destruct FX as [|x A xs X HA FX]; [congruence|]. destruct FY as [|y B ys Y HB FY]; [congruence|].
    destruct (fold_min _ _ _ _ FX HA) as (x0&Hx0&Lx). destruct (fold_max _ _ _ _ FX HA) as (x1&Hx1&Gx).
    destruct (fold_min _ _ _ _ FY HB) as (y0&Hy0&Ly). destruct (fold_max _ _ _ _ FY HB) as (y1&Hy1&Gy).
    do 5 eexists. split; [reflexivity|]. splits; try eassumption.
    erewrite (drawn_lines num _ _ R (fun y => V3 x0 y 0) (fun y => V3 x1 y 0) rep (y :: ys) (B :: Y)).
    + rewrite <- (app_nil_r (flat_map _ (x :: xs))).
      erewrite (drawn_lines num _ _ R (fun x => V3 x y0 0) (fun x => V3 x y1 0) rep (x :: xs) (A :: X)).
      * cbn [drawn]. rewrite app_nil_r. reflexivity.
      * intros a b H. split; unfold rep3; splits; cbn [cx cy cz]; auto using rep_Fin.
      * constructor; auto.
    + intros a b H. split; unfold rep3; splits; cbn [cx cy cz]; auto using rep_Fin.
    + constructor; auto.
  - intros [-> | ->]; [inversion FX; subst; reflexivity|]. inversion FY; subst. unfold grid. cbn [py_min]. destruct (py_min xs), (py_max xs); reflexivity.
Qed.
Print Assumptions C52_grid.

(** ** Objects of the scenes *)
(** what a program can do with scenes *)
Inductive reach : world -> Prop :=
| r_start : reach world0
| r_scene w : reach w -> reach (fst (scene_new w))
| r_array w pts : reach w -> reach (fst (array_new w pts))
| r_add w s a : reach w -> (s < length (scenes w))%nat -> (a < length (arrays w))%nat -> reach (scene_add w s a)
| r_cube w s p d : reach w -> (s < length (scenes w))%nat -> reach (fst (add_cube w s p d))
| r_rect w s p d : reach w -> (s < length (scenes w))%nat -> reach (fst (add_rect w s p d))
| r_grid w s xs ys w' a : reach w -> (s < length (scenes w))%nat -> add_grid w s xs ys = Some (w', a) -> reach w'
| r_poke w a i row : reach w -> reach (poke w a i row).

Lemma upd_length A (l : list A) i f : length (upd l i f) = length l.
Proof. unfold upd. rewrite <- (firstn_skipn i l) at 3. rewrite !app_length. f_equal. destruct (skipn i l); reflexivity. Qed.
Lemma nth_upd_same A (l : list A) i f d : (i < length l)%nat -> nth i (upd l i f) d = f (nth i l d).
Proof.
  revert i. induction l as [|a l IH]; intros [|i] H; cbn in *; try lia; [reflexivity|]. apply (IH i). lia.
Qed.
Lemma nth_upd_other A (l : list A) i j f d : i <> j -> nth j (upd l i f) d = nth j l d.
Proof.
  revert i j. induction l as [|a l IH]; intros [|i] [|j] H; cbn; try congruence; try reflexivity.
  apply (IH i j). congruence.
Qed.
Lemma upd_out A (l : list A) i f : (length l <= i)%nat -> upd l i f = l.
Proof. intros H. unfold upd. rewrite firstn_all2, skipn_all2 by auto. apply app_nil_r. Qed.

Definition wf (w : world) : Prop :=
  Forall (fun l => Forall (fun a => (a < length (arrays w))%nat) l) (lists w) /\
  Forall (fun l => (l < length (lists w))%nat) (scenes w) /\ NoDup (scenes w).
Lemma Forall_upd A (P : A -> Prop) l i f : Forall P l -> (forall x, P x -> P (f x)) -> Forall P (upd l i f).
Proof.
  intros F H. unfold upd. apply Forall_app. rewrite <- (firstn_skipn i l) in F. apply Forall_app in F as (F1&F2).
  split; auto. destruct (skipn i l); auto. inversion F2; subst. constructor; auto.
Qed.
Lemma wf_array w pts : wf w -> wf (fst (array_new w pts)).
Proof.
  intros (A&B&C). unfold wf; splits; cbn; auto. rewrite app_length. cbn. eapply Forall_impl; [|exact A].
  intros l. apply Forall_impl. intros a H; lia.
Qed.
Lemma wf_add w s a : wf w -> (a < length (arrays w))%nat -> wf (scene_add w s a).
Proof.
  intros (A&B&C) H. unfold wf; splits; cbn; auto.
  - apply Forall_upd; auto. intros x F. apply Forall_app; auto.
  - rewrite upd_length. auto.
Qed.
Lemma wf_points w s pts : wf w -> wf (fst (add_points w s pts)).
Proof. intros W. apply wf_array. apply wf_add; [apply wf_array; auto|]. cbn. rewrite app_length. cbn. lia. Qed.
Lemma reach_wf w : reach w -> wf w.
Proof.
  induction 1; auto using wf_array, wf_add; try apply wf_points; auto.
  - unfold wf; splits; cbn; repeat constructor.
  - destruct IHreach as (A&B&C). unfold wf; splits; cbn.
    + apply Forall_app; auto.
    + rewrite app_length. cbn. apply Forall_app. split; [|repeat constructor; lia].
      eapply Forall_impl; [|exact B]. intros; cbn in *; lia.
    + apply NoDup_rev in C. rewrite <- rev_involutive. apply NoDup_rev. rewrite rev_app_distr. cbn. constructor; auto.
      rewrite <- in_rev. intros I. rewrite Forall_forall in B. apply B in I. lia.
  - unfold add_grid in *. destruct (grid xs ys) as [pts|]; [|discriminate].
    assert (E : fst (add_points w s pts) = w') by exact (f_equal (fun o => match o with Some r => fst r | None => w end) H1).
    rewrite <- E. apply wf_points; auto.
  - destruct IHreach as (A&B&C). unfold wf; splits; cbn; auto. rewrite upd_length. auto.
Qed.

Lemma objects_array w pts s : wf w -> (s < length (scenes w))%nat -> objects (fst (array_new w pts)) s = objects w s.
Proof.
  intros (A&B&C) S. unfold objects; cbn. apply map_ext_in. intros a I. apply app_nth1.
  rewrite Forall_forall in A. assert (L : In (nth (nth s (scenes w) 0%nat) (lists w) []) (lists w)).
  { apply nth_In. rewrite Forall_forall in B. apply B, nth_In; auto. }
  apply A in L. rewrite Forall_forall in L. auto.
Qed.
Lemma objects_add w s a t : wf w -> (s < length (scenes w))%nat -> (t < length (scenes w))%nat ->
  objects (scene_add w s a) t = if Nat.eq_dec s t then objects w s ++ [nth a (arrays w) []] else objects w t.
Proof.
  intros (A&B&C) S T. unfold objects; cbn. destruct (Nat.eq_dec s t) as [<-|NE].
  - rewrite nth_upd_same by (rewrite Forall_forall in B; apply B, nth_In; auto). rewrite map_app. reflexivity.
  - rewrite nth_upd_other; auto. intros E. apply NE. rewrite NoDup_nth in C. apply C; auto. exact E.
Qed.
Lemma lists_bound w s : wf w -> (s < length (scenes w))%nat -> Forall (fun a => (a < length (arrays w))%nat) (nth (nth s (scenes w) 0%nat) (lists w) []).
Proof.
  intros (A&B&C) S. rewrite Forall_forall in A. apply A, nth_In. rewrite Forall_forall in B. apply B, nth_In; auto.
Qed.

(** Every drawing call appends exactly one object, the drawn rows, to its own scene and to no other, and hands out
    a separate array with the same rows: writing to that array changes no scene. *)
Definition appended (w : world) (s : nat) (pts : list (v3 num)) (r : world * nat) : Prop :=
  length (scenes (fst r)) = length (scenes w) /\
  objects (fst r) s = objects w s ++ [pts] /\
  (forall t, (t < length (scenes w))%nat -> t <> s -> objects (fst r) t = objects w t) /\
  nth (snd r) (arrays (fst r)) [] = pts /\
  (forall t i row, (t < length (scenes w))%nat -> objects (poke (fst r) (snd r) i row) t = objects (fst r) t).
Lemma points_appended w s pts : wf w -> (s < length (scenes w))%nat -> appended w s pts (add_points w s pts).
Proof.
  intros W S. set (w1 := fst (array_new w pts)). assert (W1 : wf w1) by (apply wf_array; auto).
  assert (A1 : (length (arrays w) < length (arrays w1))%nat) by (cbn; rewrite app_length; cbn; lia).
  set (w2 := scene_add w1 s (length (arrays w))). assert (W2 : wf w2) by (apply wf_add; auto).
  assert (E : add_points w s pts = array_new w2 pts) by reflexivity. rewrite E.
  assert (O : forall t, (t < length (scenes w))%nat -> objects (fst (array_new w2 pts)) t = objects w2 t) by (intros t T; apply objects_array; auto).
  unfold appended; splits; [reflexivity|..].
  - rewrite O by auto. unfold w2. rewrite objects_add by auto. destruct (Nat.eq_dec s s); [|congruence].
    unfold w1 at 1. rewrite objects_array by auto. cbn. rewrite app_nth2, Nat.sub_diag by lia. reflexivity.
  - intros t T NE. rewrite O by auto. unfold w2. rewrite objects_add by auto. destruct (Nat.eq_dec s t); [congruence|].
    apply objects_array; auto.
  - cbn. rewrite app_nth2, Nat.sub_diag by lia. reflexivity.
  - intros t i row T. unfold objects, poke; cbn [arrays lists scenes snd array_new]. apply map_ext_in. intros a I.
    apply nth_upd_other. assert (B := lists_bound w2 t W2 T). rewrite Forall_forall in B. apply B in I. lia.
Qed.
Theorem C52_objects : forall w s, reach w -> (s < length (scenes w))%nat ->
  (forall p d, appended w s (cube p d) (add_cube w s p d)) /\
  (forall p d, appended w s (rect p d) (add_rect w s p d)) /\
  (forall xs ys pts, grid xs ys = Some pts -> exists r, add_grid w s xs ys = Some r /\ appended w s pts r) /\
  (forall xs ys, grid xs ys = None -> add_grid w s xs ys = None).
Proof.
  intros w s HR S. apply reach_wf in HR. splits; intros.
  - apply points_appended; auto.
  - apply points_appended; auto.
  - unfold add_grid. rewrite H. eexists; split; [reflexivity|]. apply points_appended; auto.
  - unfold add_grid. rewrite H. reflexivity.
Qed.
Print Assumptions C52_objects.
(** an array handed to [add] is kept, not copied: writing to it later changes what the scene draws, in every scene
    it was added to *)
Theorem C52_added_array : forall w s a i row, reach w -> (s < length (scenes w))%nat -> (a < length (arrays w))%nat ->
  objects (scene_add w s a) s = objects w s ++ [nth a (arrays w) []] /\
  last (objects (poke (scene_add w s a) a i row) s) [] = upd (nth a (arrays w) []) i (fun _ => row).
Proof.
  intros w s a i row HR S A. apply reach_wf in HR. split.
  - rewrite objects_add by auto. destruct (Nat.eq_dec s s); congruence.
  - destruct HR as (_&B&_). unfold objects, poke, scene_add; cbn [arrays lists scenes].
    rewrite nth_upd_same by (rewrite Forall_forall in B; apply B, nth_In; auto).
    rewrite map_app. cbn [map]. rewrite last_last. apply nth_upd_same. auto.
Qed.
Print Assumptions C52_added_array.
(** a new scene is empty, also after other scenes were filled *)
Theorem C52_new_scene : forall w, reach w ->
  objects (fst (scene_new w)) (snd (scene_new w)) = [] /\
  forall t, (t < length (scenes w))%nat -> objects (fst (scene_new w)) t = objects w t.
Proof.
  intros w HR. apply reach_wf in HR. destruct HR as (A&B&C). unfold objects, scene_new; cbn. split.
  - rewrite (app_nth2 (scenes w)), Nat.sub_diag by lia. cbn. rewrite app_nth2, Nat.sub_diag by lia. reflexivity.
  - intros t T. rewrite (app_nth1 (scenes w)) by auto. rewrite app_nth1; auto. rewrite Forall_forall in B. apply B, nth_In; auto.
Qed.
Print Assumptions C52_new_scene.

(** two scenes, a cube of width 2 at (1, 2, 3) in the second *)
Example C52_example :
  (let w := fst (scene_new (fst (scene_new world0))) in
   reach w /\ (1 < length (scenes w))%nat /\
   objects (fst (add_cube w 1%nat (V3 (Fin 1) (Fin 2) (Fin 3)) (Fin 2))) 0%nat = [] /\
   length (objects (fst (add_cube w 1%nat (V3 (Fin 1) (Fin 2) (Fin 3)) (Fin 2))) 1%nat) = 1%nat) /\
  rep3 (V3 (Fin 1) (Fin 2) (Fin 3)) (V3 1 2 3) /\ rep (Fin 2) 2 /\ 2 <> 0 /\
  has (drawn (cube (V3 (Fin 1) (Fin 2) (Fin 3)) (Fin 2))) (V3 2 3 2) (V3 2 3 4) /\
  Forall2 rep [Fin 3; Fin 1] [3; 1] /\ (exists pts, grid [Fin 3; Fin 1] [Fin 5] = Some pts).
Proof.
  split; [|split; [|split; [|split; [|split; [|split]]]]].
  - split; [apply r_scene, r_scene, r_start|]. split; [apply le_n|]. split; reflexivity.
  - repeat split.
  - reflexivity.
  - lra.
  - rewrite (cube_drawn _ (V3 1 2 3) _ 2) by (repeat split). apply cube_edges; [lra|].
    unfold corner, differ_once; cbn [cx cy cz].
    splits; try (right; right; splits; lra); rewrite (Rabs_right 2) by lra; unfold Rabs; destruct (Rcase_abs _); lra.
  - repeat constructor.
  - eexists. reflexivity.
Qed.

(** The list that the class itself holds (scene.py 25) is never written to: adding to a scene fills the scene's own list. *)
Theorem C52_class_list w : reach w -> nth_error (lists w) 0 = Some [] /\ Forall (fun i => (0 < i)%nat) (scenes w).
Proof.
  assert (A : forall w s a, (s < length (scenes w))%nat -> nth_error (lists w) 0 = Some [] /\ Forall (fun i => (0 < i)%nat) (scenes w) ->
    nth_error (lists (scene_add w s a)) 0 = Some [] /\ Forall (fun i => (0 < i)%nat) (scenes (scene_add w s a))).
  { intros v s a L (E&F). split; [|exact F]. unfold scene_add. cbn [lists]. rewrite Forall_forall in F.
    specialize (F _ (nth_In _ 0%nat L)). destruct (nth s (scenes v) 0%nat) as [|k]; [lia|].
    destruct (lists v) as [|x l]; [discriminate|]. cbn in E |- *. exact E. }
  intros H. induction H as [|w H IH|w pts H IH|w s a H IH L L'|w s p d H IH L|w s p d H IH L|w s xs ys w' a H IH L G|w a i row H IH].
  - split; [reflexivity|constructor].
  - destruct IH as (E&F). unfold scene_new. cbn [fst lists scenes]. split.
    + destruct (lists w) as [|x l]; [discriminate|exact E].
    + apply Forall_app. split; [exact F|]. constructor; [|constructor]. destruct (lists w); [discriminate|cbn; lia].
  - exact IH.
  - apply A; auto.
  - apply (A (fst (array_new w (cube p d))) s); auto.
  - apply (A (fst (array_new w (rect p d))) s); auto.
  - unfold add_grid in G. destruct (grid xs ys) as [pts|]; [|discriminate]. inversion G as [[G1 G2]].
    apply (A (fst (array_new w pts)) s); auto.
  - exact IH.
Qed.
Print Assumptions C52_class_list.
Example C52_class_example : let w := fst (add_cube (fst (scene_new world0)) 0%nat (V3 (Fin 1) (Fin 2) (Fin 3)) (Fin 2)) in
  reach w /\ length (objects w 0%nat) = 1%nat /\ nth_error (lists w) 0 = Some [].
Proof.
  intros w. assert (H : reach w) by (apply r_cube; [apply r_scene, r_start|apply le_n]).
  split; [exact H|]. split; [reflexivity|]. apply C52_class_list, H.
Qed.
