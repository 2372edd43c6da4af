(** * C51: the outline of the picture on the ground *)
Require Import Reals Lra Psatz List Bool Arith Lia.
From Verif Require Import Num Vec Orientation OrientationFacts PropOrientation Projection ProjectionFacts Ray CameraTransform CameraFacts PropCamera PropRay Scene PropScene Border PropBorder.
From Verif Require Import FitTerms PropFitTerms PropPerspective PropSensitivity PropResect PropTurn Lut PropLut PropLutArea.
Import ListNotations.
Open Scope R_scope.

(** ** The ground point of a pixel position *)
Definition spot (o : opar R) (r : proj R) (Q : v2 R) : v3 R := rv_add (opos o) (rm_mul_v (rm_trans (camM o)) (rv_scale (elevation_m o / descent o r Q) (rayR Rectilinear r Q))).
Lemma spot_meets o r Q : descent o r Q <> 0 -> meets o Rectilinear r Q (elevation_m o / descent o r Q) (spot o r Q).
Proof.
  intros N. set (f := elevation_m o / descent o r Q).
  assert (E : cam_coords o (spot o r Q) = rv_scale f (rayR Rectilinear r Q)).
  { unfold spot, cam_coords. fold f. rewrite <- (mul_trans (camM o) (rv_scale f (rayR Rectilinear r Q))) at 2 by apply rotm_rows. f_equal. generalize (rm_mul_v (rm_trans (camM o)) (rv_scale f (rayR Rectilinear r Q))). intros [x y z]. apply v3_ext; cbn; ring. }
  split; [|exact E]. rewrite (descent_down o r Q f _ E). unfold f. field. exact N.
Qed.
Lemma descent_between o r A B t : foc_ok r -> descent o r (between2 A B t) = descent o r A + t * (descent o r B - descent o r A).
Proof. intros (N1&N2). unfold descent, down, across, between2. cbn [c1 c2]. field. auto. Qed.
Lemma spot_between o r A B t : foc_ok r -> 0 < descent o r A -> 0 < descent o r B -> 0 <= t <= 1 ->
  spot o r (between2 A B t) = between3 (spot o r A) (spot o r B) (share (descent o r A) (descent o r B) t).
Proof.
  intros HF DA DB T. pose proof (mix_pos _ _ t DA DB T) as M. rewrite <- (descent_between o r A B t HF) in M. pose proof (descent_between o r A B t HF) as ED.
  assert (ER : rayR Rectilinear r (between2 A B t) = between3 (rayR Rectilinear r A) (rayR Rectilinear r B) t).
  { destruct HF as (N1&N2). unfold rayR, alphaR, betaR, between2, between3. cbn [c1 c2 cx cy cz]. apply v3_ext; cbn; field; auto. }
  unfold spot. rewrite ER. unfold share. rewrite <- ED. set (d := descent o r (between2 A B t)) in *. set (a := descent o r A) in *. set (b := descent o r B) in *. clearbody a b d.
  destruct (rayR Rectilinear r A) as [x y z], (rayR Rectilinear r B) as [x' y' z']. destruct (camM o) as [[m1 m2 m3] [m4 m5 m6] [m7 m8 m9]]. subst d.
  unfold between3, opos. unfold rm_mul_v, rdot; apply v3_ext; cbn; field; lra.
Qed.
Lemma walk_side W H a b A B : 0 < W -> 0 < H -> In (a, b, A, B) [(0, H, V2 0 0, V2 0 H); (H, H + W, V2 0 H, V2 W H); (H + W, 2 * H + W, V2 W H, V2 W 0); (2 * H + W, 2 * (W + H), V2 W 0, V2 0 0)] ->
  forall t, 0 <= t <= 1 -> walk W H (a + t * (b - a)) = between2 A B t.
Proof.
  intros HW HH I t T. assert (T1 : 0 <= t * H <= H) by nra. assert (T2 : 0 <= t * W <= W) by nra. cbn in I. unfold walk, between2.
  destruct I as [I|[I|[I|[I|[]]]]]; injection I as <- <- <- <-; cbn [c1 c2]; repeat (destruct (Rlt_dec _ _)); f_equal; nra.
Qed.

(** ** C51 *)
(** A rectilinear camera whose picture shows only ground: the cone drawn on the ground begins with points [F i] that are shown at the whole numbers of the
    walk around the picture; they are on the four straight sides between the corners, in order; the corners make a convex
    quadrilateral, and its area is that of the picture ([block_area]). *)
Theorem C51_outline c r o w h : plain_cam c Rectilinear r o -> (0 < w)%nat -> (0 < h)%nat -> 0 < elevation_m o -> 0 < f_x r -> 0 < f_y r ->
  let W := INR w in let H := INR h in (forall Q, In Q (block 0 W 0 H) -> 0 < descent o r Q) ->
  exists rows outline rest F, cone_on_ground c w h = Some rows /\ drawn rows = drawn outline ++ rest /\ length outline = (2 * (w + h))%nat /\
    (forall i p, nth_error outline i = Some p -> rep3 p (F (INR i))) /\
    (forall s, 0 <= s <= 2 * (W + H) -> exists f, 0 < f /\ meets o Rectilinear r (walk W H s) f (F s)) /\
    (forall a b, In (a, b) [(0, H); (H, H + W); (H + W, 2 * H + W); (2 * H + W, 2 * (W + H))] ->
       exists g, reparam g /\ forall t, 0 <= t <= 1 -> F (a + t * (b - a)) = between3 (F a) (F b) (g t)) /\
    let P1 := ground (F 0) in let P2 := ground (F H) in let P3 := ground (F (H + W)) in let P4 := ground (F (2 * H + W)) in
    0 < tri2 P1 P2 P3 /\ 0 < tri2 P2 P3 P4 /\ 0 < tri2 P3 P4 P1 /\ 0 < tri2 P4 P1 P2 /\ shoelace P1 P2 P3 P4 = block_area o r 0 W 0 H.
Proof.
  intros HC Hw Hh HE F1 F2 W H HD. assert (W0 : 0 < W) by (apply lt_0_INR; exact Hw). assert (H0 : 0 < H) by (apply lt_0_INR; exact Hh). pose proof (plain_foc2 _ _ _ _ HC) as HF.
  destruct (C51_cone_ground c Rectilinear r o w h HC Hw Hh) as (rows&outline&a1&a2&a3&a4&EC&EO&_&_&_&_&ED). cbv zeta in EO. fold W H in EO.
  assert (D1 := HD (V2 0 0) ltac:(cbn; auto)). assert (D2 := HD (V2 0 H) ltac:(cbn; auto 10)). assert (D3 := HD (V2 W H) ltac:(cbn; auto)). assert (D4 := HD (V2 W 0) ltac:(cbn; auto)).
  set (sides := [(0, H, V2 0 0, V2 0 H); (H, H + W, V2 0 H, V2 W H); (H + W, 2 * H + W, V2 W H, V2 W 0); (2 * H + W, 2 * (W + H), V2 W 0, V2 0 0)]).
  assert (SD : forall a b A B, In (a, b, A, B) sides -> a < b /\ 0 < descent o r A /\ 0 < descent o r B).
  { intros a b A B I. cbn in I. destruct I as [I|[I|[I|[I|[]]]]]; injection I as <- <- <- <-; splits; auto; lra. }
  assert (DP : forall s, 0 <= s <= 2 * (W + H) -> 0 < descent o r (walk W H s)).
  { intros s S0. assert (X : exists a b A B, In (a, b, A, B) sides /\ a <= s <= b).
    { destruct (Rle_lt_dec s H); [do 4 eexists; split; [left; reflexivity|lra]|]. destruct (Rle_lt_dec s (H + W)); [do 4 eexists; split; [right; left; reflexivity|lra]|].
      destruct (Rle_lt_dec s (2 * H + W)); [do 4 eexists; split; [right; right; left; reflexivity|lra]|]. do 4 eexists; split; [right; right; right; left; reflexivity|lra]. }
    destruct X as (a&b&A&B&I&L). destruct (SD _ _ _ _ I) as (AB&DA&DB). set (t := (s - a) / (b - a)). assert (Es : s = a + t * (b - a)) by (unfold t; field; lra).
    assert (T : 0 <= t <= 1) by (split; apply (Rmult_le_reg_r (b - a)); lra). rewrite Es, (walk_side W H a b A B W0 H0 I t T), (descent_between o r A B t HF). apply mix_pos; auto. }
  set (F := fun s => spot o r (walk W H s)).
  assert (C1 : walk W H 0 = V2 0 0) by (replace 0 with (0 + 0 * (H - 0)) at 1 by ring; rewrite (walk_side W H 0 H (V2 0 0) (V2 0 H)); auto; [unfold between2; cbn; f_equal; ring|cbn; auto|lra]).
  assert (C2 : walk W H H = V2 0 H) by (replace H with (H + 0 * (H + W - H)) at 2 by ring; rewrite (walk_side W H H (H + W) (V2 0 H) (V2 W H)); auto; [unfold between2; cbn; f_equal; ring|cbn; auto|lra]).
  assert (C3 : walk W H (H + W) = V2 W H) by (replace (H + W) with (H + W + 0 * (2 * H + W - (H + W))) by ring; rewrite (walk_side W H (H + W) (2 * H + W) (V2 W H) (V2 W 0)); auto; [unfold between2; cbn; f_equal; ring|cbn; auto|lra]).
  assert (C4 : walk W H (2 * H + W) = V2 W 0) by (replace (2 * H + W) with (2 * H + W + 0 * (2 * (W + H) - (2 * H + W))) by ring; rewrite (walk_side W H (2 * H + W) (2 * (W + H)) (V2 W 0) (V2 0 0)); auto; [unfold between2; cbn; f_equal; ring|cbn; auto 10|lra]).
  assert (C5 : walk W H (2 * (W + H)) = V2 0 0) by (replace (2 * (W + H)) with (2 * H + W + 1 * (2 * (W + H) - (2 * H + W))) by ring; rewrite (walk_side W H (2 * H + W) (2 * (W + H)) (V2 W 0) (V2 0 0)); auto; [unfold between2; cbn; f_equal; ring|cbn; auto 10|lra]).
  assert (LO : length outline = (2 * (w + h))%nat) by (apply (f_equal (@length _)) in EO; rewrite !map_length, seq_length in EO; exact EO).
  assert (MF : forall s, 0 <= s <= 2 * (W + H) -> exists f, 0 < f /\ meets o Rectilinear r (walk W H s) f (F s)).
  { intros s S0. specialize (DP s S0). eexists. split; [|apply spot_meets; lra]. apply Rdiv_lt_0_compat; auto. }
  exists rows, outline, (rays (opos o) [a1; a2; a3; a4]), F. split; [exact EC|]. split; [exact ED|]. split; [exact LO|]. split; [|split; [exact MF|split]].
  - intros i p Hi. assert (Li : (i < 2 * (w + h))%nat) by (rewrite <- LO; apply nth_error_Some; rewrite Hi; discriminate).
    apply (f_equal (fun l => nth_error l i)) in EO. rewrite !nth_error_map, Hi, (nth_error_nth' (seq 0 (2 * (w + h))) 0%nat), seq_nth in EO by (try rewrite seq_length; exact Li). cbn [option_map] in EO. rewrite Nat.add_0_l in EO. apply (f_equal (fun x => match x with Some y => y | None => None end)) in EO. cbv beta iota in EO.
    destruct (MF (INR i)) as (f&Hf&M). { split; [apply pos_INR|]. apply lt_INR in Li. rewrite mult_INR, plus_INR in Li. change (INR 2) with 2 in Li. fold W H in Li. lra. }
    destruct (meets_space c Rectilinear r o (fin2 (walk W H (INR i))) _ f _ HC (rep2_fin _) I ltac:(lra) M) as (p'&E'&_&R').
    change (fin2 (walk W H (INR i))) with (V2 (Fin (c1 (walk W H (INR i)))) (Fin (c2 (walk W H (INR i))))) in E'. rewrite E' in EO. injection EO as ->. apply R'. lra.
  - intros a b I. assert (X : exists A B, In (a, b, A, B) sides /\ walk W H a = A /\ walk W H b = B).
    { cbn in I. destruct I as [I|[I|[I|[I|[]]]]]; injection I as <- <-; do 2 eexists; split; [left; reflexivity|auto|right; left; reflexivity|auto|right; right; left; reflexivity|auto|right; right; right; left; reflexivity|auto]. }
    destruct X as (A&B&I'&EA&EB). destruct (SD _ _ _ _ I') as (AB&DA&DB). exists (share (descent o r A) (descent o r B)). split; [apply share_reparam; auto|].
    intros t T. unfold F. rewrite (walk_side W H a b A B W0 H0 I' t T), EA, EB. apply spot_between; auto.
  - cbv zeta. unfold F. rewrite C1, C2, C3, C4. set (d1 := descent o r (V2 0 0)) in *. set (d2 := descent o r (V2 0 H)) in *. set (d3 := descent o r (V2 W H)) in *. set (d4 := descent o r (V2 W 0)) in *.
    pose proof (spot_meets o r (V2 0 0) ltac:(apply Rgt_not_eq, D1)) as M1. pose proof (spot_meets o r (V2 0 H) ltac:(apply Rgt_not_eq, D2)) as M2. pose proof (spot_meets o r (V2 W H) ltac:(apply Rgt_not_eq, D3)) as M3. pose proof (spot_meets o r (V2 W 0) ltac:(apply Rgt_not_eq, D4)) as M4.
    fold d1 in M1. fold d2 in M2. fold d3 in M3. fold d4 in M4.
    assert (TR : forall Q1 Q2 Q3 x1 x2 x3 P1 P2 P3 k, 0 < x1 -> 0 < x2 -> 0 < x3 -> 0 < k -> meets o Rectilinear r Q1 (elevation_m o / x1) P1 -> meets o Rectilinear r Q2 (elevation_m o / x2) P2 -> meets o Rectilinear r Q3 (elevation_m o / x3) P3 ->
      rdet (V3 (rayR Rectilinear r Q1) (rayR Rectilinear r Q2) (rayR Rectilinear r Q3)) = - k -> 0 < tri2 (ground P1) (ground P2) (ground P3)).
    { clear - HE. intros Q1 Q2 Q3 x1 x2 x3 P1 P2 P3 k X1 X2 X3 K N1 N2 N3 D. pose proof (tri_ground _ _ _ _ _ _ _ _ _ _ _ N1 N2 N3) as T. rewrite D in T. set (A := tri2 _ _ _) in *.
      assert (0 < elevation_m o / x1 * (elevation_m o / x2) * (elevation_m o / x3)) by (repeat apply Rmult_lt_0_compat; auto; apply Rinv_0_lt_compat; auto). nra. }
    assert (K0 : 0 < W / f_x r * (H / f_y r)) by (apply Rmult_lt_0_compat; apply Rdiv_lt_0_compat; auto).
    splits; try (eapply TR; [| | |exact K0|eassumption|eassumption|eassumption|]; auto; unfold rayR, alphaR, betaR, rdet, rdot, rcross; cbn [c1 c2 cx cy cz]; field; lra).
    assert (FB : Forall2 (fun Q P => exists f, meets o Rectilinear r Q f P) (block 0 W 0 H) [spot o r (V2 0 0); spot o r (V2 W 0); spot o r (V2 W H); spot o r (V2 0 H)]).
    { unfold block. repeat (constructor; [eexists; eassumption|]). constructor. }
    pose proof (shoelace_block o r 0 W 0 H _ _ _ _ ltac:(lra) ltac:(lra) ltac:(lra) FB) as SB. rewrite <- (Ropp_involutive (block_area o r 0 W 0 H)), <- SB. unfold shoelace, cross2. field.
Qed.
Print Assumptions C51_outline.
(** A camera 10 m above the ground that looks straight down with 4000 x 3000 pixels and a focal length of 3500 pixels: 11.4 m by 8.6 m *)
Example C51_outline_example : let o := OPar 10 0 0 0 0 0 in (exists c, plain_cam c Rectilinear ex_r o) /\ 0 < elevation_m o /\ 0 < f_x ex_r /\ 0 < f_y ex_r /\
  (forall Q, In Q (block 0 4000 0 3000) -> 0 < descent o ex_r Q) /\ block_area o ex_r 0 4000 0 3000 = 40000 / 3500 * (30000 / 3500).
Proof.
  cbv zeta. set (o := OPar 10 0 0 0 0 0). assert (D : forall Q, descent o ex_r Q = 1) by (intros Q; unfold descent; cbn [tilt_deg roll_deg o]; rewrite rad00, sin_0, cos_0; ring).
  splits; try (cbn; lra).
  - assert (HR : rep_opar (opar_fin o) o) by (repeat split). destruct (init_rigid _ _ HR) as (m&E&_). exists (plain_camera Rectilinear (proj_fin ex_r) m), (proj_fin ex_r), m. splits; auto; [repeat split|split; cbn; lra|eauto].
  - intros Q _. rewrite D. lra.
  - unfold block_area. cbv zeta. rewrite !D. cbn [elevation_m o f_x f_y ex_r]. field.
Qed.
