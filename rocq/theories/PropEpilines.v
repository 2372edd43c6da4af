(** * C62: epipolar lines *)
Require Import Reals Lra Psatz Bool List Arith.
From Verif Require Import Num Vec Trig Orientation OrientationFacts Projection ProjectionFacts
  PropProjection Ray CameraTransform CameraFacts PropCamera RayFacts PropRay Stereo PropStereo Epilines.
Import ListNotations.
Open Scope R_scope.

(** ** Specification *)
Record rect := Rect { x0 : R; x1 : R; y0 : R; y1 : R }.
Definition proper (r : rect) : Prop := x0 r < x1 r /\ y0 r < y1 r.
Definition on_line (A B C : R) (P : v2 R) : Prop := A * c1 P + B * c2 P + C = 0.
Definition inside (r : rect) (P : v2 R) : Prop := x0 r < c1 P < x1 r /\ y0 r < c2 P < y1 r.
Definition in_rect (r : rect) (P : v2 R) : Prop := x0 r <= c1 P <= x1 r /\ y0 r <= c2 P <= y1 r.
(** A side without its end points. *)
Definition on_vertical (r : rect) (P : v2 R) : Prop := (c1 P = x0 r \/ c1 P = x1 r) /\ y0 r < c2 P < y1 r.
Definition on_horizontal (r : rect) (P : v2 R) : Prop := (c2 P = y0 r \/ c2 P = y1 r) /\ x0 r < c1 P < x1 r.
Definition corner (r : rect) (P : v2 R) : Prop := (c1 P = x0 r \/ c1 P = x1 r) /\ (c2 P = y0 r \/ c2 P = y1 r).
Definition toward (P Q : v2 R) (u : R) : v2 R := V2 (c1 P + u * (c1 Q - c1 P)) (c2 P + u * (c2 Q - c2 P)).

(** ** One side *)
Lemma between_spec lo x hi LO X HI : rep lo LO -> rep x X -> rep hi HI -> between lo x hi = true <-> LO < X < HI.
Proof.
  intros L H U. unfold between. rewrite (rep_ltb _ _ _ _ L H), (rep_ltb _ _ _ _ H U), andb_true_iff. unfold Rltb.
  destruct (Rlt_dec LO X), (Rlt_dec X HI); split; intros; try tauto; try (destruct H0; congruence); try lra; try (split; reflexivity).
Qed.
Lemma between_div_zero lo n d hi LO N HI : rep lo LO -> rep hi HI -> rep n N -> rep d 0 -> between lo (n / d)%num hi = false.
Proof.
  intros L U Hn Hd. rlook L; rlook U. unfold between.
  assert (X : (n / d)%num = NaN \/ (n / d)%num = PInf \/ (n / d)%num = NInf).
  { destruct (Req_dec N 0) as [->|Z]; [left; apply ndiv_0_0; auto|]. right. apply (ndiv_x_0 n d N); auto. }
  destruct X as [->|[->| ->]]; destruct lo, hi; try discriminate; reflexivity.
Qed.
(** The value computed for one side is between its ends exactly if the line separates the ends. *)
Lemma side a x c b lo hi A X C B LO HI : rep a A -> rep x X -> rep c C -> rep b B -> rep lo LO -> rep hi HI -> LO < HI ->
  let u := A * X + B * LO + C in let v := A * X + B * HI + C in
  ((u < 0 < v \/ v < 0 < u) /\ between lo (solve a x c b) hi = true /\ B <> 0 /\
     exists Y, rep (solve a x c b) Y /\ A * X + B * Y + C = 0 /\ LO < Y < HI) \/
  (~ (u < 0 < v) /\ ~ (v < 0 < u) /\ between lo (solve a x c b) hi = false).
Proof.
  intros Ra Rx Rc Rb Rl Rh LH u v. unfold solve.
  assert (RN : rep (- (a * x + c))%num (- (A * X + C))) by rep_all.
  destruct (Req_dec B 0) as [->|NB].
  - right. split; [unfold u, v; lra|]. split; [unfold u, v; lra|]. eapply between_div_zero; eauto.
  - assert (RY : rep (- (a * x + c) / b)%num (- (A * X + C) / B)) by (apply rep_div; auto).
    set (Y := - (A * X + C) / B) in *.
    assert (EY : A * X + B * Y + C = 0) by (unfold Y; field; auto).
    assert (U : u = B * (LO - Y)) by (unfold u; lra). assert (V : v = B * (HI - Y)) by (unfold v; lra).
    pose proof (between_spec _ _ _ _ _ _ Rl RY Rh) as BS.
    destruct (between lo (- (a * x + c) / b)%num hi) eqn:EB.
    + left. assert (IN : LO < Y < HI) by (apply BS; reflexivity). split; [|split; [reflexivity|split; [exact NB|exists Y; auto]]].
      destruct (Rdichotomy B 0 NB); rewrite U, V; [right|left]; nra.
    + right. assert (NI : ~ (LO < Y < HI)) by (intros X0; apply BS in X0; discriminate).
      split; [|split; [|reflexivity]]; rewrite U, V; intros (S1&S2); apply NI; destruct (Rdichotomy B 0 NB); split; nra.
Qed.

Lemma separates B E lo y hi u : B <> 0 -> B * y + E = 0 -> lo < y < hi -> forall v, u = B * lo + E -> v = B * hi + E -> u < 0 < v \/ v < 0 < u.
Proof.
  intros NB EY (L1&L2) v -> ->. replace E with (- B * y) by lra. destruct (Rdichotomy B 0 NB) as [N|N]; [right|left].
  - pose proof (Rmult_lt_0_compat (- B) (y - lo)). pose proof (Rmult_lt_0_compat (- B) (hi - y)). lra.
  - pose proof (Rmult_lt_0_compat B (y - lo)). pose proof (Rmult_lt_0_compat B (hi - y)). lra.
Qed.

Section Clip.
Context (a b c xmin xmax ymin ymax : num) (A B C : R) (r : rect).
Hypothesis Ra : rep a A. Hypothesis Rb : rep b B. Hypothesis Rc : rep c C.
Hypothesis R1 : rep xmin (x0 r). Hypothesis R2 : rep xmax (x1 r). Hypothesis R3 : rep ymin (y0 r). Hypothesis R4 : rep ymax (y1 r).
Hypothesis PR : proper r.

(** drawLine finds exactly the points where the line crosses a side between its end points; a side that is part of the
    line is not crossed. *)
Theorem C62_crossings : (forall p, In p (drawLine a b c xmin xmax ymin ymax) -> exists P, rep2 p P) /\
  forall P, (exists p, In p (drawLine a b c xmin xmax ymin ymax) /\ rep2 p P) <->
    on_line A B C P /\ (on_vertical r P /\ B <> 0 \/ on_horizontal r P /\ A <> 0).
Proof.
  destruct PR as (PX&PY). unfold drawLine.
  pose proof (side a xmin c b ymin ymax A _ C B _ _ Ra R1 Rc Rb R3 R4 PY) as S1.
  pose proof (side a xmax c b ymin ymax A _ C B _ _ Ra R2 Rc Rb R3 R4 PY) as S2.
  pose proof (side b ymin c a xmin xmax B _ C A _ _ Rb R3 Rc Ra R1 R2 PX) as S3.
  pose proof (side b ymax c a xmin xmax B _ C A _ _ Rb R4 Rc Ra R1 R2 PX) as S4.
  cbv zeta in S1, S2, S3, S4.
  set (b1 := between ymin (solve a xmin c b) ymax) in *. set (b2 := between ymin (solve a xmax c b) ymax) in *.
  set (b3 := between xmin (solve b ymin c a) xmax) in *. set (b4 := between xmin (solve b ymax c a) xmax) in *.
  split.
  - intros p I. rewrite !in_app_iff in I.
    destruct I as [I|[I|[I|I]]].
    + destruct b1 eqn:E; [|destruct I]. destruct I as [<-|[]]. destruct S1 as [(_&_&_&Y&RY&_)|(_&_&X)]; [|discriminate]. exists (V2 (x0 r) Y). split; auto.
    + destruct b2 eqn:E; [|destruct I]. destruct I as [<-|[]]. destruct S2 as [(_&_&_&Y&RY&_)|(_&_&X)]; [|discriminate]. exists (V2 (x1 r) Y). split; auto.
    + destruct b3 eqn:E; [|destruct I]. destruct I as [<-|[]]. destruct S3 as [(_&_&_&Y&RY&_)|(_&_&X)]; [|discriminate]. exists (V2 Y (y0 r)). split; auto.
    + destruct b4 eqn:E; [|destruct I]. destruct I as [<-|[]]. destruct S4 as [(_&_&_&Y&RY&_)|(_&_&X)]; [|discriminate]. exists (V2 Y (y1 r)). split; auto.
  - intros P. unfold on_line, on_vertical, on_horizontal. split.
    + intros (p&I&(P1&P2)). rewrite !in_app_iff in I. destruct I as [I|[I|[I|I]]].
      * destruct b1 eqn:E; [|destruct I]. destruct I as [<-|[]]. destruct S1 as [(_&_&NB&Y&RY&EY&IY)|(_&_&X)]; [|discriminate].
        cbn [c1 c2] in P1, P2. pose proof (rep_inj _ _ _ P1 R1) as E1. pose proof (rep_inj _ _ _ P2 RY) as E2. rewrite E1, E2. split; [lra|]. left. split; [split; [auto|lra]|exact NB].
      * destruct b2 eqn:E; [|destruct I]. destruct I as [<-|[]]. destruct S2 as [(_&_&NB&Y&RY&EY&IY)|(_&_&X)]; [|discriminate].
        cbn [c1 c2] in P1, P2. pose proof (rep_inj _ _ _ P1 R2) as E1. pose proof (rep_inj _ _ _ P2 RY) as E2. rewrite E1, E2. split; [lra|]. left. split; [split; [auto|lra]|exact NB].
      * destruct b3 eqn:E; [|destruct I]. destruct I as [<-|[]]. destruct S3 as [(_&_&NB&Y&RY&EY&IY)|(_&_&X)]; [|discriminate].
        cbn [c1 c2] in P1, P2. pose proof (rep_inj _ _ _ P1 RY) as E1. pose proof (rep_inj _ _ _ P2 R3) as E2. rewrite E1, E2. split; [lra|]. right. split; [split; [auto|lra]|exact NB].
      * destruct b4 eqn:E; [|destruct I]. destruct I as [<-|[]]. destruct S4 as [(_&_&NB&Y&RY&EY&IY)|(_&_&X)]; [|discriminate].
        cbn [c1 c2] in P1, P2. pose proof (rep_inj _ _ _ P1 RY) as E1. pose proof (rep_inj _ _ _ P2 R4) as E2. rewrite E1, E2. split; [lra|]. right. split; [split; [auto|lra]|exact NB].
    + destruct P as [px py]. cbn [c1 c2]. intros (OL&[(([-> | ->]&IY)&NB)|(([-> | ->]&IX)&NA)]).
      * destruct S1 as [(_&EB&_&Y&RY&EY&_)|(N1&N2&_)].
        -- rewrite EB. eexists. split; [apply in_app_iff; left; left; reflexivity|]. split; [exact R1|]. cbn [c2].
           replace py with Y; auto. apply Rmult_eq_reg_l with B; auto. lra.
        -- exfalso. assert (OL' : B * py + (A * x0 r + C) = 0) by lra. destruct (separates B _ _ _ _ _ NB OL' IY _ eq_refl eq_refl) as [SP|SP]; [apply N1|apply N2]; lra.
      * destruct S2 as [(_&EB&_&Y&RY&EY&_)|(N1&N2&_)].
        -- rewrite EB. eexists. split; [rewrite !in_app_iff; right; left; left; reflexivity|]. split; [exact R2|]. cbn [c2].
           replace py with Y; auto. apply Rmult_eq_reg_l with B; auto. lra.
        -- exfalso. assert (OL' : B * py + (A * x1 r + C) = 0) by lra. destruct (separates B _ _ _ _ _ NB OL' IY _ eq_refl eq_refl) as [SP|SP]; [apply N1|apply N2]; lra.
      * destruct S3 as [(_&EB&_&Y&RY&EY&_)|(N1&N2&_)].
        -- rewrite EB. eexists. split; [rewrite !in_app_iff; right; right; left; left; reflexivity|]. split; [|exact R3]. cbn [c1].
           replace px with Y; auto. apply Rmult_eq_reg_l with A; auto. lra.
        -- exfalso. assert (OL' : A * px + (B * y0 r + C) = 0) by lra. destruct (separates A _ _ _ _ _ NA OL' IX _ eq_refl eq_refl) as [SP|SP]; [apply N1|apply N2]; lra.
      * destruct S4 as [(_&EB&_&Y&RY&EY&_)|(N1&N2&_)].
        -- rewrite EB. eexists. split; [rewrite !in_app_iff; right; right; right; left; reflexivity|]. split; [|exact R4]. cbn [c1].
           replace px with Y; auto. apply Rmult_eq_reg_l with A; auto. lra.
        -- exfalso. assert (OL' : A * px + (B * y1 r + C) = 0) by lra. destruct (separates A _ _ _ _ _ NA OL' IX _ eq_refl eq_refl) as [SP|SP]; [apply N1|apply N2]; lra.
Qed.

(** P is on a side beyond which the rectangle does not extend, Q is not. *)
Definition leaves (P Q : v2 R) : Prop :=
  c1 P = x0 r /\ x0 r < c1 Q \/ c1 P = x1 r /\ c1 Q < x1 r \/ c2 P = y0 r /\ y0 r < c2 Q \/ c2 P = y1 r /\ c2 Q < y1 r.
Lemma leaves_u P Q u : leaves P Q -> in_rect r (toward P Q u) -> 0 <= u.
Proof.
  unfold leaves, in_rect, toward. cbn [c1 c2]. intros [(E&L)|[(E&L)|[(E&L)|(E&L)]]] ((H1&H2)&(H3&H4)); destruct (Rle_or_lt 0 u); auto; nra.
Qed.
Lemma segment P Q : A <> 0 \/ B <> 0 -> on_line A B C P -> on_line A B C Q -> in_rect r P -> in_rect r Q -> leaves P Q -> leaves Q P ->
  P <> Q /\ forall X, on_line A B C X /\ in_rect r X <-> exists u, 0 <= u <= 1 /\ X = toward P Q u.
Proof.
  intros NZ OP OQ IP IQ L1 L2. split.
  { intros ->. unfold leaves in L1. lra. }
  intros X. split.
  - intros (OX&IX).
    assert (EX : exists u, X = toward P Q u).
    { unfold on_line in *. destruct P as [px py], Q as [qx qy], X as [ux uy]. unfold toward. cbn [c1 c2] in *.
      destruct (Req_dec (qx - px) 0) as [DX|DX].
      - assert (DY : qy - py <> 0) by (unfold leaves in L1; cbn [c1 c2] in L1; intros Z; lra).
        assert (B0 : B = 0). { assert (Z : B * (qy - py) = 0) by nra. apply Rmult_integral in Z. tauto. }
        assert (A0 : A <> 0) by tauto. subst B.
        exists ((uy - py) / (qy - py)). f_equal.
        + apply Rmult_eq_reg_l with A; auto. replace (qx - px) with 0. lra.
        + field; auto.
      - exists ((ux - px) / (qx - px)). f_equal; [field; auto|].
        assert (B0 : B <> 0).
        { intros ->. assert (Z : A * (qx - px) = 0) by lra. apply Rmult_integral in Z. destruct Z; [destruct NZ; lra|lra]. }
        apply Rmult_eq_reg_l with (B * (qx - px)); [|apply Rmult_integral_contrapositive_currified; auto].
        transitivity (B * (qx - px) * py + (ux - px) * (B * (qy - py))); [|field; auto].
        replace (B * (qy - py)) with (- A * (qx - px)) by lra.
        transitivity ((qx - px) * (B * uy)); [ring|]. replace (B * uy) with (- A * ux - C) by lra. replace (B * (qx - px) * py) with ((qx - px) * (- A * px - C)) by nra. ring. }
    destruct EX as (u&->). exists u. split; [|reflexivity]. split; [apply (leaves_u P Q u L1 IX)|].
    assert (IX2 : in_rect r (toward Q P (1 - u))).
    { unfold in_rect, toward in *. cbn [c1 c2] in *. lra. }
    pose proof (leaves_u Q P (1 - u) L2 IX2). lra.
  - intros (u&(U0&U1)&->). unfold on_line, in_rect, toward in *. cbn [c1 c2]. split; [nra|]. repeat split; nra.
Qed.

(** A line through the inside of the image and through no corner is drawn as a segment: what the line and the image
    have in common. *)
Theorem C62_clip : (exists M, inside r M /\ on_line A B C M) -> (forall P, corner r P -> ~ on_line A B C P) ->
  exists p q P Q, drawLine a b c xmin xmax ymin ymax = [p; q] /\ rep2 p P /\ rep2 q Q /\ P <> Q /\
    forall X, on_line A B C X /\ in_rect r X <-> exists u, 0 <= u <= 1 /\ X = toward P Q u.
Proof.
  intros (M&IM&OM) NC. destruct PR as (PX&PY). unfold drawLine.
  pose proof (side a xmin c b ymin ymax A _ C B _ _ Ra R1 Rc Rb R3 R4 PY) as S1.
  pose proof (side a xmax c b ymin ymax A _ C B _ _ Ra R2 Rc Rb R3 R4 PY) as S2.
  pose proof (side b ymin c a xmin xmax B _ C A _ _ Rb R3 Rc Ra R1 R2 PX) as S3.
  pose proof (side b ymax c a xmin xmax B _ C A _ _ Rb R4 Rc Ra R1 R2 PX) as S4.
  cbv zeta in S1, S2, S3, S4.
  set (b1 := between ymin (solve a xmin c b) ymax) in *. set (b2 := between ymin (solve a xmax c b) ymax) in *.
  set (b3 := between xmin (solve b ymin c a) xmax) in *. set (b4 := between xmin (solve b ymax c a) xmax) in *.
  assert (N00 : A * x0 r + B * y0 r + C <> 0) by (apply (NC (V2 (x0 r) (y0 r))); split; auto).
  assert (N01 : A * x0 r + B * y1 r + C <> 0) by (apply (NC (V2 (x0 r) (y1 r))); split; auto).
  assert (N10 : A * x1 r + B * y0 r + C <> 0) by (apply (NC (V2 (x1 r) (y0 r))); split; auto).
  assert (N11 : A * x1 r + B * y1 r + C <> 0) by (apply (NC (V2 (x1 r) (y1 r))); split; auto).
  assert (NZ : A <> 0 \/ B <> 0).
  { destruct (Req_dec A 0) as [->|]; auto. destruct (Req_dec B 0) as [->|]; auto. exfalso. unfold on_line in OM. apply N00. lra. }
  (* the corners are not all on one side *)
  assert (MX : exists s, 0 < s < 1 /\ c1 M = x0 r + s * (x1 r - x0 r)).
  { exists ((c1 M - x0 r) / (x1 r - x0 r)). destruct IM as ((m1&m2)&_). split; [|field; lra]. split; [apply Rdiv_lt_0_compat; lra|].
    apply Rmult_lt_reg_r with (x1 r - x0 r); [lra|]. unfold Rdiv. rewrite Rmult_assoc, Rinv_l by lra. lra. }
  assert (MY : exists t, 0 < t < 1 /\ c2 M = y0 r + t * (y1 r - y0 r)).
  { exists ((c2 M - y0 r) / (y1 r - y0 r)). destruct IM as (_&(m1&m2)). split; [|field; lra]. split; [apply Rdiv_lt_0_compat; lra|].
    apply Rmult_lt_reg_r with (y1 r - y0 r); [lra|]. unfold Rdiv. rewrite Rmult_assoc, Rinv_l by lra. lra. }
  destruct MX as (s&Hs&EX), MY as (t&Ht&EY).
  set (f00 := A * x0 r + B * y0 r + C) in *. set (f01 := A * x0 r + B * y1 r + C) in *.
  set (f10 := A * x1 r + B * y0 r + C) in *. set (f11 := A * x1 r + B * y1 r + C) in *.
  replace (B * y0 r + A * x0 r + C) with f00 in * by (unfold f00; ring). replace (B * y0 r + A * x1 r + C) with f10 in * by (unfold f10; ring).
  replace (B * y1 r + A * x0 r + C) with f01 in * by (unfold f01; ring). replace (B * y1 r + A * x1 r + C) with f11 in * by (unfold f11; ring).
  assert (SUM : f00 + f11 = f01 + f10) by (unfold f00, f01, f10, f11; ring).
  assert (COMB : (1 - s) * (1 - t) * f00 + (1 - s) * t * f01 + s * (1 - t) * f10 + s * t * f11 = 0).
  { unfold on_line in OM. rewrite EX, EY in OM. unfold f00, f01, f10, f11. rewrite <- OM. ring. }
  assert (K1 : 0 < (1 - s) * (1 - t)) by (apply Rmult_lt_0_compat; lra). assert (K2 : 0 < (1 - s) * t) by (apply Rmult_lt_0_compat; lra). assert (K3 : 0 < s * (1 - t)) by (apply Rmult_lt_0_compat; lra). assert (K4 : 0 < s * t) by (apply Rmult_lt_0_compat; lra).
  assert (NPOS : ~ (0 < f00 /\ 0 < f01 /\ 0 < f10 /\ 0 < f11)).
  { intros (G1&G2&G3&G4). pose proof (Rmult_lt_0_compat _ _ K1 G1). pose proof (Rmult_lt_0_compat _ _ K2 G2).
    pose proof (Rmult_lt_0_compat _ _ K3 G3). pose proof (Rmult_lt_0_compat _ _ K4 G4). lra. }
  assert (NNEG : ~ (f00 < 0 /\ f01 < 0 /\ f10 < 0 /\ f11 < 0)).
  { intros (G1&G2&G3&G4). assert (Q : forall k f, 0 < k -> f < 0 -> k * f < 0) by (intros; nra).
    pose proof (Q _ _ K1 G1). pose proof (Q _ _ K2 G2). pose proof (Q _ _ K3 G3). pose proof (Q _ _ K4 G4). lra. }
  clearbody f00 f01 f10 f11. clear COMB K1 K2 K3 K4 s Hs EX t Ht EY IM OM.
  assert (FIN : forall p q P Q, rep2 p P -> rep2 q Q -> on_line A B C P -> on_line A B C Q -> in_rect r P -> in_rect r Q -> leaves P Q -> leaves Q P ->
    exists p' q' P' Q', [p; q] = [p'; q'] /\ rep2 p' P' /\ rep2 q' Q' /\ P' <> Q' /\
      forall X, on_line A B C X /\ in_rect r X <-> exists u, 0 <= u <= 1 /\ X = toward P' Q' u).
  { intros p q P Q HP HQ G1 G2 G3 G4 G5 G6. destruct (segment P Q NZ G1 G2 G3 G4 G5 G6) as (D&S). exists p, q, P, Q. auto. }
  destruct S1 as [(G1&->&_&Y1&V1&O1&I1)|(G1&G1'&->)], S2 as [(G2&->&_&Y2&V2'&O2&I2)|(G2&G2'&->)],
           S3 as [(G3&->&_&Y3&V3'&O3&I3)|(G3&G3'&->)], S4 as [(G4&->&_&Y4&V4&O4&I4)|(G4&G4'&->)];
    try (exfalso; destruct (Rdichotomy _ _ N00), (Rdichotomy _ _ N01), (Rdichotomy _ _ N10), (Rdichotomy _ _ N11); lra);
    cbn [app].
  - (* xmin, xmax *) apply (FIN _ _ (V2 (x0 r) Y1) (V2 (x1 r) Y2)); unfold on_line, in_rect, leaves; cbn [c1 c2]; try lra; split; auto.
  - apply (FIN _ _ (V2 (x0 r) Y1) (V2 Y3 (y0 r))); unfold on_line, in_rect, leaves; cbn [c1 c2]; try lra; split; auto.
  - apply (FIN _ _ (V2 (x0 r) Y1) (V2 Y4 (y1 r))); unfold on_line, in_rect, leaves; cbn [c1 c2]; try lra; split; auto.
  - apply (FIN _ _ (V2 (x1 r) Y2) (V2 Y3 (y0 r))); unfold on_line, in_rect, leaves; cbn [c1 c2]; try lra; split; auto.
  - apply (FIN _ _ (V2 (x1 r) Y2) (V2 Y4 (y1 r))); unfold on_line, in_rect, leaves; cbn [c1 c2]; try lra; split; auto.
  - apply (FIN _ _ (V2 Y3 (y0 r)) (V2 Y4 (y1 r))); unfold on_line, in_rect, leaves; cbn [c1 c2]; try lra; split; auto.
Qed.
End Clip.
(** drawEpilines raises exactly if one of the lines crosses no side. *)
Definition crosses (r : rect) (L : v3 R) : Prop :=
  exists P, on_line (cx L) (cy L) (cz L) P /\ (on_vertical r P /\ cy L <> 0 \/ on_horizontal r P /\ cx L <> 0).
Theorem C62_raises w h W H pls Ls : rep w W -> rep h H -> 0 < W -> 0 < H -> Forall2 (fun pl L => rep3 (snd pl) L) pls Ls ->
  (drawEpilines w h pls = None <-> exists L, In L Ls /\ ~ crosses (Rect 0 W 0 H) L) /\
  (forall l, drawEpilines w h pls = Some l -> List.length l = List.length pls).
Proof.
  intros Rw Rh PW PH F. induction F as [|(q, [a b c]) [A B C] pls Ls (Ra&Rb&Rc) F (IH1&IH2)]; cbn [drawEpilines].
  - split; [split; [discriminate|intros (L&[]&_)]|]. intros l E. inversion E. reflexivity.
  - cbn [snd cx cy cz] in Ra, Rb, Rc.
    destruct (C62_crossings a b c (Fin 0) w (Fin 0) h A B C (Rect 0 W 0 H) Ra Rb Rc (rep_Fin 0) Rw (rep_Fin 0) Rh (conj PW PH)) as (K1&K2).
    destruct (drawLine a b c (Fin 0) w (Fin 0) h) as [|p l0] eqn:E.
    + split; [|discriminate]. split; [intros _|reflexivity]. exists (V3 A B C). split; [left; reflexivity|]. intros (P&HP).
      apply (K2 P) in HP. destruct HP as (p&[]&_).
    + assert (CR : crosses (Rect 0 W 0 H) (V3 A B C)).
      { destruct (K1 p (or_introl eq_refl)) as (P&HP). exists P. apply K2. exists p. split; [left; reflexivity|exact HP]. }
      split.
      * transitivity (drawEpilines w h pls = None); [destruct (drawEpilines w h pls); split; [discriminate|discriminate|reflexivity|reflexivity]|].
        rewrite IH1. split.
        -- intros (L&I&N). exists L. split; [right; exact I|exact N].
        -- intros (L&[<-|I]&N); [contradiction|]. exists L. auto.
      * intros l. destruct (drawEpilines w h pls) as [l1|]; [|discriminate]. intros X. inversion X. cbn. rewrite (IH2 l1 eq_refl). reflexivity.
Qed.

(** ** The lines of plotMyEpiploarLines *)
(** The image of a line of space in a rectilinear camera is on a straight line: the one through the images of two of
    its points. *)
Lemma image_line b rb ob T W s1 s2 : plain_cam b Rectilinear rb ob -> s1 <> s2 ->
  let X s := line_at T W s in
  tinyR <= Rabs (cz (cam_coords ob (X s1))) -> tinyR <= Rabs (cz (cam_coords ob (X s2))) ->
  rcross (rv_sub T (opos ob)) W <> rv0 ->
  let A := pin rb (cam_coords ob (X s1)) in let B := pin rb (cam_coords ob (X s2)) in
  let V := V2 (c1 B - c1 A) (c2 B - c2 A) in
  V <> V2 0 0 /\ forall s, tinyR <= Rabs (cz (cam_coords ob (X s))) -> exists u, pin rb (cam_coords ob (X s)) = line2 A V u.
Proof.
  intros Hb NS X B1 B2 NC A B V.
  pose proof (big_nz _ B1) as Z1. pose proof (big_nz _ B2) as Z2.
  assert (FO : f_x rb <> 0 /\ f_y rb <> 0).
  { destruct (plain_good _ _ _ _ Hb) as ((_&F&_)&_). exact F. }
  destruct FO as (FX&FY).
  set (a0 := cam_coords ob T). set (w := rm_mul_v (camM ob) W).
  assert (CX : forall s, cam_coords ob (X s) = line_at a0 w s) by (intros; apply cam_coords_line).
  split.
  - intros E. apply NC.
    assert (E1 : c1 B = c1 A) by (apply (f_equal c1) in E; cbn [V c1] in E; lra).
    assert (E2 : c2 B = c2 A) by (apply (f_equal c2) in E; cbn [V c2] in E; lra).
    set (C1 := cam_coords ob (X s1)) in *. set (C2 := cam_coords ob (X s2)) in *.
    assert (K1 : cx C2 / cz C2 = cx C1 / cz C1).
    { cbn [A B pin c1] in E1. apply Rmult_eq_reg_l with (- f_x rb); [|lra].
      apply Rplus_eq_reg_r with (center_x rb). transitivity (- cx C2 * f_x rb / cz C2 + center_x rb); [field; auto|].
      rewrite E1. field; auto. }
    assert (K2 : cy C2 / cz C2 = cy C1 / cz C1).
    { cbn [A B pin c2] in E2. apply Rmult_eq_reg_l with (f_y rb); [|lra].
      apply Rplus_eq_reg_r with (center_y rb). transitivity (cy C2 * f_y rb / cz C2 + center_y rb); [field; auto|].
      rewrite E2. field; auto. }
    set (k := cz C2 / cz C1).
    assert (EK : C2 = rv_scale k C1).
    { apply v3_ext; cbn [rv_scale map3v cx cy cz]; unfold k.
      - transitivity (cz C2 * (cx C2 / cz C2)); [field; auto|]. rewrite K1. field; auto.
      - transitivity (cz C2 * (cy C2 / cz C2)); [field; auto|]. rewrite K2. field; auto.
      - field; auto. }
    assert (OR : orthonormal (rm_trans (camM ob))) by apply rotm_cols.
    assert (G : rv_sub (X s2) (opos ob) = rv_scale k (rv_sub (X s1) (opos ob))).
    { rewrite <- (trans_mul (camM ob) (rv_sub (X s2) (opos ob)) OR).
      rewrite <- (trans_mul (camM ob) (rv_sub (X s1) (opos ob)) OR), <- rm_mul_v_scale. f_equal. exact EK. }
    clearbody k. clear - G NS. unfold X, line_at in G.
    set (t := rv_sub T (opos ob)).
    assert (GX : (1 - k) * cx t = (k * s1 - s2) * cx W) by (apply (f_equal cx) in G; unfold t; cbn in *; lra).
    assert (GY : (1 - k) * cy t = (k * s1 - s2) * cy W) by (apply (f_equal cy) in G; unfold t; cbn in *; lra).
    assert (GZ : (1 - k) * cz t = (k * s1 - s2) * cz W) by (apply (f_equal cz) in G; unfold t; cbn in *; lra).
    clearbody t. clear G.
    assert (Q : forall p q r s : R, (1 - k) * p = (k * s1 - s2) * q -> (1 - k) * r = (k * s1 - s2) * s -> p * s - r * q = 0).
    { intros p q r s H1 H2. destruct (Req_dec k 1) as [->|N].
      - assert (q = 0) by (apply Rmult_eq_reg_l with (1 * s1 - s2); lra). assert (s = 0) by (apply Rmult_eq_reg_l with (1 * s1 - s2); lra). subst. ring.
      - apply Rmult_eq_reg_l with (1 - k); [|lra].
        transitivity ((1 - k) * p * s - (1 - k) * r * q); [ring|]. rewrite H1, H2. ring. }
    apply v3_ext; cbn [rcross rv0 cx cy cz];
      [rewrite <- (Q (cy t) (cy W) (cz t) (cz W))|rewrite <- (Q (cz t) (cz W) (cx t) (cx W))
      |rewrite <- (Q (cx t) (cx W) (cy t) (cy W))]; auto; ring.
  - intros s HB. pose proof (big_nz _ HB) as Z. rewrite CX in Z1, Z2, Z.
    exists ((s - s1) / (s2 - s1) * cz (cam_coords ob (X s2)) / cz (cam_coords ob (X s))).
    unfold V, A, B. rewrite !CX.
    cbn [line_at rv_add zip3v rv_scale map3v cx cy cz] in Z, Z1, Z2.
    unfold line2, pin, line_at. cbn [rv_add zip3v rv_scale map3v cx cy cz c1 c2].
    f_equal; field; splits; try lra; intros Y; first [apply Z; rewrite <- Y; ring|apply Z1; rewrite <- Y; ring|apply Z2; rewrite <- Y; ring].
Qed.
Lemma steps_two : steps = -10000 :: -9900 :: map (fun k => -10000 + 100 * INR k) (seq 2 198).
Proof. unfold steps. change (seq 0 200) with (0%nat :: 1%nat :: seq 2 198). cbn [map]. f_equal; [cbn; ring|]. f_equal. cbn; ring. Qed.

(** The rows of pixels drawn in camera [a] for a pixel of camera [b] are on one straight line, and the number printed is
    the distance of the pixel of camera [a] from that line. *)
Theorem C62_line : forall a b kb ra rb oa ob qa QA qb QB W,
  plain_cam a Rectilinear ra oa -> plain_cam b kb rb ob -> rep2 qb QB -> in_range kb rb QB -> rep2 qa QA ->
  rep3 (snd (getRay b qb true)) W ->
  let X s := line_at (opos ob) W s in
  tinyR <= Rabs (cz (cam_coords oa (X (-10000)))) -> tinyR <= Rabs (cz (cam_coords oa (X (-9900)))) ->
  (* the first camera is not on the ray's line *)
  rcross (rv_sub (opos ob) (opos oa)) W <> rv0 ->
  exists A V d, V <> V2 0 0 /\
    (forall i, (i < 200)%nat -> tinyR <= Rabs (cz (cam_coords oa (X (-10000 + 100 * INR i)))) ->
       exists p u, nth_error (pixel_points a b qb) i = Some p /\ rep2 p (line2 A V u)) /\
    (exists e, drawn_distance a b qa qb = Some e /\ rep e d) /\
    (forall u, d <= rdist2 (line2 A V u) QA) /\ exists u, rdist2 (line2 A V u) QA = d.
Proof.
  intros a b kb ra rb oa ob qa QA qb QB W Ha Hb Hqb HI Hqa HW X B1 B2 NC.
  assert (HO : rep3 (fst (getRay b qb true)) (opos ob)).
  { destruct (plain_good _ _ _ _ Hb) as (HG&_). cbn [getRay fst]. eapply origin_rep; eauto. }
  assert (RS : forall s, tinyR <= Rabs (cz (cam_coords oa (X s))) -> rep2 (sample a b qb s) (pin ra (cam_coords oa (X s)))).
  { intros s HS. unfold sample. apply ifs_pin; auto. apply rep3_add; auto. apply rep3_scale; auto. apply rep_Fin. }
  destruct (image_line a ra oa (opos ob) W (-10000) (-9900) Ha ltac:(lra) B1 B2 NC) as (NV&ON). fold X in NV, ON.
  set (A := pin ra (cam_coords oa (X (-10000)))) in *. set (B := pin ra (cam_coords oa (X (-9900)))) in *.
  set (V := V2 (c1 B - c1 A) (c2 B - c2 A)) in *.
  pose proof (RS _ B1) as I1. pose proof (RS _ B2) as I2.
  assert (RV : rep2 (nv2_sub (sample a b qb (-9900)) (sample a b qb (-10000))) V).
  { destruct I1, I2. split; cbn [nv2_sub zip2v c1 c2 V]; apply rep_sub; auto. }
  destruct (closest2_spec _ _ _ _ _ _ I1 RV Hqa NV) as (u&RU&MIN).
  exists A, V, (rdist2 (line2 A V u) QA). split; [exact NV|]. split; [|split; [|split; [exact MIN|exists u; reflexivity]]].
  - intros i Hi HS. destruct (ON _ HS) as (u'&EU). exists (sample a b qb (-10000 + 100 * INR i)), u'. split.
    + unfold pixel_points, steps. rewrite map_map. apply map_nth_error with (f := fun k => sample a b qb (-10000 + 100 * INR k)).
      rewrite (nth_error_nth' (seq 0 200) 0%nat); [rewrite seq_nth; auto|rewrite seq_length; exact Hi].
    + eapply rep2_eq; [apply RS; exact HS|exact EU].
  - unfold drawn_distance, pixel_points. rewrite steps_two. cbn [map]. eexists. split; [reflexivity|].
    destruct RU as (U1&U2), Hqa as (Q1&Q2). unfold nv_norm2, rdist2. cbn [nv2_sub zip2v c1 c2].
    apply rep_sqrt; [rep_all|]. apply Rplus_le_le_0_compat; apply Rle_0_sqr.
Qed.

(** All these lines pass through the epipole: the hundred and first pixel is the image of the other camera's position. *)
Theorem C62_epipole : forall a b kb ra rb oa ob qb QB W p,
  plain_cam a Rectilinear ra oa -> plain_cam b kb rb ob -> rep2 qb QB -> in_range kb rb QB -> rep3 (snd (getRay b qb true)) W ->
  rep3 p (opos ob) -> tinyR <= Rabs (cz (cam_coords oa (opos ob))) ->
  exists q Q, nth_error (pixel_points a b qb) 100 = Some q /\ rep2 q Q /\ rep2 (imageFromSpace a p false) Q.
Proof.
  intros a b kb ra rb oa ob qb QB W p Ha Hb Hqb HI HW Hp HT.
  assert (HO : rep3 (fst (getRay b qb true)) (opos ob)).
  { destruct (plain_good _ _ _ _ Hb) as (HG&_). cbn [getRay fst]. eapply origin_rep; eauto. }
  exists (sample a b qb (-10000 + 100 * INR 100)), (pin ra (cam_coords oa (opos ob))). split; [|split].
  - unfold pixel_points, steps. rewrite map_map. apply map_nth_error with (f := fun k => sample a b qb (-10000 + 100 * INR k)).
    rewrite (nth_error_nth' (seq 0 200) 0%nat); [rewrite seq_nth; [reflexivity|]|rewrite seq_length]; apply Nat.ltb_lt; reflexivity.
  - unfold sample. apply ifs_pin; auto.
    eapply rep3_eq; [apply rep3_add; [exact HO|apply rep3_scale; [apply rep_Fin|exact HW]]|].
    assert (Z : -10000 + 100 * INR 100 = 0) by (rewrite INR_IZR_INZ; cbn; lra). rewrite Z. apply v3_ext; cbn; ring.
  - apply ifs_pin; auto.
Qed.

(** The red cross of plotEpilines is drawn at that place when the other camera is in front, and is not drawn (both numbers
    are nan) when the other camera is behind or beside: the lines of plotMyEpiploarLines still go through the epipole. *)
Theorem C62_cross : forall a b kb ra rb oa ob qb QB W x y e,
  plain_cam a Rectilinear ra oa -> plain_cam b kb rb ob -> rep2 qb QB -> in_range kb rb QB -> rep3 (snd (getRay b qb true)) W ->
  rep x (cx (opos ob)) -> rep y (cy (opos ob)) -> rep e (cz (opos ob)) ->
  (cz (cam_coords oa (opos ob)) <= - tinyR ->
     exists q Q, nth_error (pixel_points a b qb) 100 = Some q /\ rep2 q Q /\ rep2 (cross a (getPos x y e)) Q) /\
  (- tinyR < cz (cam_coords oa (opos ob)) -> is_nan2 (cross a (getPos x y e))).
Proof.
  intros a b kb ra rb oa ob qb QB W x y e Ha Hb Hqb HI HW Hx Hy He.
  assert (Hp : rep3 (getPos x y e) (opos ob)) by (unfold rep3, getPos; cbn [cx cy cz]; auto).
  destruct (plain_good _ _ _ _ Ha) as ((Hpr&Hf&HR)&HK&HDi&_).
  assert (HC : rep3 (cameraFromSpace (cam_o a) (getPos x y e)) (cam_coords oa (opos ob))) by exact (rigid_camera _ _ _ _ _ HR Hp).
  assert (E : cross a (getPos x y e) = rect_image (cam_proj a) (cameraFromSpace (cam_o a) (getPos x y e)) true).
  { unfold cross, imageFromSpace. rewrite HDi, HK. reflexivity. }
  pose proof tinyR_pos as TP. split; intros HZ.
  - assert (B : tinyR <= Rabs (cz (cam_coords oa (opos ob)))) by (rewrite Rabs_left; lra).
    destruct (C62_epipole a b kb ra rb oa ob qb QB W _ Ha Hb Hqb HI HW Hp B) as (q&Q&N1&RQ&RI).
    exists q, Q. splits; auto. rewrite E.
    assert (V : rep2 (rect_image (cam_proj a) (cameraFromSpace (cam_o a) (getPos x y e)) true) (pin ra (cam_coords oa (opos ob))))
      by (apply rect_image_value; auto; intros; lra).
    eapply rep2_eq; [exact V|]. eapply rep2_inj; [|exact RI]. apply ifs_pin; auto.
  - rewrite E. apply (C06_rect_nan_iff _ _ _ _ true Hpr Hf HC).
    destruct (Rlt_le_dec 0 (cz (cam_coords oa (opos ob)))); [left; auto|right]. rewrite Rabs_left1; lra.
Qed.
Print Assumptions C62_cross.

(** For the two pixels of one point the distance is zero. *)
Theorem C62_zero : forall a b kb ra rb oa ob p P W,
  plain_cam a Rectilinear ra oa -> plain_cam b kb rb ob -> rep3 p P ->
  showable Rectilinear (cam_coords oa P) -> showable kb (cam_coords ob P) ->
  (forall Q, rep2 (imageFromSpace b p true) Q -> in_range kb rb Q) ->
  rep3 (snd (getRay b (imageFromSpace b p true) true)) W ->
  tinyR <= Rabs (cz (cam_coords oa (line_at (opos ob) W (-10000)))) -> tinyR <= Rabs (cz (cam_coords oa (line_at (opos ob) W (-9900)))) ->
  rcross (rv_sub P (opos ob)) (rv_sub P (opos oa)) <> rv0 ->
  exists e, drawn_distance a b (imageFromSpace a p true) (imageFromSpace b p true) = Some e /\ rep e 0.
Proof.
  intros a b kb ra rb oa ob p P W Ha Hb Hp Sa Sb HI HW B1 B2 NC.
  destruct (seen_direction b kb rb ob p P true true Hb Hp Sb) as (Q1&D1&l1&I1&O1&R1&L1&_&E1).
  destruct (seen_direction a _ ra oa p P true false Ha Hp Sa) as (Q2&D2&l2&I2&_).
  pose proof (rep3_inj _ _ _ HW R1) as <-.
  assert (NC' : rcross (rv_sub (opos ob) (opos oa)) W <> rv0).
  { intros Z. apply NC. rewrite E1. replace (rv_sub P (opos oa)) with (rv_add (rv_sub (opos ob) (opos oa)) (rv_scale l1 W)).
    - transitivity (rv_scale (- l1) (rcross (rv_sub (opos ob) (opos oa)) W)); [apply v3_ext; vring; ring|].
      rewrite Z. apply rv_scale_0.
    - rewrite <- E1. apply v3_ext; vring; ring. }
  assert (EP : line_at (opos ob) W l1 = P) by (apply line_back; auto).
  assert (Q2E : Q2 = pin ra (cam_coords oa P)).
  { destruct Sa as (SB&SF). assert (PT : rep2 (imageFromSpace a p true) (pin ra (cam_coords oa P))).
    { destruct (plain_good _ _ _ _ Ha) as ((Hpr&_&HR)&HK&HDi&_).
      unfold imageFromSpace. rewrite HDi, HK. cbn [p_image].
      apply rect_image_value; auto. exact (rigid_camera _ _ _ _ _ HR Hp). }
    exact (rep2_inj _ _ _ I2 PT). }
  destruct (image_line a ra oa (opos ob) W (-10000) (-9900) Ha ltac:(lra) B1 B2 NC') as (NV&ON).
  destruct (ON l1) as (u'&EU). { rewrite EP. apply Sa. }
  assert (HO : rep3 (fst (getRay b (imageFromSpace b p true) true)) (opos ob)) by exact O1.
  assert (RS : forall s, tinyR <= Rabs (cz (cam_coords oa (line_at (opos ob) W s))) -> rep2 (sample a b (imageFromSpace b p true) s) (pin ra (cam_coords oa (line_at (opos ob) W s)))).
  { intros s HS. unfold sample. apply ifs_pin; auto. apply rep3_add; auto. apply rep3_scale; auto. apply rep_Fin. }
  pose proof (RS _ B1) as J1. pose proof (RS _ B2) as J2.
  cbv zeta in NV, EU. set (A := pin ra (cam_coords oa (line_at (opos ob) W (-10000)))) in *. set (B := pin ra (cam_coords oa (line_at (opos ob) W (-9900)))) in *.
  set (V := V2 (c1 B - c1 A) (c2 B - c2 A)) in *.
  assert (RV : rep2 (nv2_sub (sample a b (imageFromSpace b p true) (-9900)) (sample a b (imageFromSpace b p true) (-10000))) V).
  { destruct J1, J2. split; cbn [nv2_sub zip2v c1 c2 V]; apply rep_sub; auto. }
  destruct (closest2_spec _ _ _ _ _ _ J1 RV I2 NV) as (u&RU&MIN).
  unfold drawn_distance, pixel_points. rewrite steps_two. cbn [map]. eexists. split; [reflexivity|].
  assert (D0 : rdist2 (line2 A V u) Q2 = 0).
  { specialize (MIN u'). rewrite EP in EU. rewrite <- EU, <- Q2E, rdist2_0 in MIN. assert (0 <= rdist2 (line2 A V u) Q2) by apply sqrt_pos. lra. }
  rewrite <- D0. destruct RU as (U1&U2), I2 as (W1&W2). unfold nv_norm2, rdist2. cbn [nv2_sub zip2v c1 c2].
  apply rep_sqrt; [rep_all|]. apply Rplus_le_le_0_compat; apply Rle_0_sqr.
Qed.

(** ** Examples and refutations *)
(** The diagonal of a quadratic image: it goes through the inside and through two corners.  Nothing is drawn and
    plotEpilines raises. *)
Theorem C62_diagonal_refuted : exists (w h a b c : num) W H A B C, rep w W /\ rep h H /\ rep a A /\ rep b B /\ rep c C /\ 0 < W /\ 0 < H /\
  (exists M, inside (Rect 0 W 0 H) M /\ on_line A B C M) /\
  drawLine a b c (Fin 0) w (Fin 0) h = [] /\ forall q, drawEpilines w h [(q, V3 a b c)] = None.
Proof.
  exists (Fin 10), (Fin 10), (Fin 1), (Fin (-1)), (Fin 0), 10, 10, 1, (-1), 0.
  assert (PR : proper (Rect 0 10 0 10)) by (split; cbn; lra).
  assert (E : drawLine (Fin 1) (Fin (-1)) (Fin 0) (Fin 0) (Fin 10) (Fin 0) (Fin 10) = []).
  { destruct (C62_crossings (Fin 1) (Fin (-1)) (Fin 0) (Fin 0) (Fin 10) (Fin 0) (Fin 10) 1 (-1) 0 (Rect 0 10 0 10)
      (rep_Fin _) (rep_Fin _) (rep_Fin _) (rep_Fin _) (rep_Fin _) (rep_Fin _) (rep_Fin _) PR) as (K1&K2).
    destruct (drawLine _ _ _ _ _ _ _) as [|p l] eqn:E; [reflexivity|]. exfalso.
    destruct (K1 p (or_introl eq_refl)) as (P&HP).
    destruct (proj1 (K2 P)) as (OL&X). { exists p. split; [left; reflexivity|exact HP]. }
    unfold on_line, on_vertical, on_horizontal in *. cbn [x0 x1 y0 y1] in *. lra. }
  do 5 (split; [apply rep_Fin|]). split; [lra|]. split; [lra|]. split.
  - exists (V2 5 5). unfold inside, on_line. cbn [x0 x1 y0 y1 c1 c2]. lra.
  - split; [exact E|]. intros q. cbn [drawEpilines]. rewrite E. reflexivity.
Qed.
(** A line that meets the theorems' hypotheses: y = 3 + x / 10 in an image of 10 by 20 pixels. *)
Example C62_example : exists p q, drawLine (Fin 1) (Fin (-10)) (Fin 30) (Fin 0) (Fin 10) (Fin 0) (Fin 20) = [p; q] /\
  rep2 p (V2 0 3) /\ rep2 q (V2 10 4).
Proof.
  set (r := Rect 0 10 0 20).
  assert (PR : proper r) by (split; cbn; lra).
  destruct (C62_clip (Fin 1) (Fin (-10)) (Fin 30) (Fin 0) (Fin 10) (Fin 0) (Fin 20) 1 (-10) 30 r
      (rep_Fin _) (rep_Fin _) (rep_Fin _) (rep_Fin _) (rep_Fin _) (rep_Fin _) (rep_Fin _) PR) as (p&q&P&Q&E&RP&RQ&_).
  - exists (V2 5 (7 / 2)). unfold inside, on_line, r. cbn [x0 x1 y0 y1 c1 c2]. lra.
  - intros P. unfold corner, on_line, r. cbn [x0 x1 y0 y1]. lra.
  - exists p, q. split; [exact E|].
    assert (PP : p = V2 (Fin 0) (solve (Fin 1) (Fin 0) (Fin 30) (Fin (-10))) /\ q = V2 (Fin 10) (solve (Fin 1) (Fin 10) (Fin 30) (Fin (-10)))).
    { assert (B1 : between (Fin 0) (solve (Fin 1) (Fin 0) (Fin 30) (Fin (-10))) (Fin 20) = true).
      { apply (between_spec _ _ _ 0 (- (1 * 0 + 30) / -10) 20); [apply rep_Fin| |apply rep_Fin|lra]. unfold solve. rep_all; try apply rep_Fin; lra. }
      assert (B2 : between (Fin 0) (solve (Fin 1) (Fin 10) (Fin 30) (Fin (-10))) (Fin 20) = true).
      { apply (between_spec _ _ _ 0 (- (1 * 10 + 30) / -10) 20); [apply rep_Fin| |apply rep_Fin|lra]. unfold solve. rep_all; try apply rep_Fin; lra. }
      unfold drawLine in E. rewrite B1, B2 in E. cbn [app] in E. injection E. auto. }
    destruct PP as (->&->). split; split; cbn [c1 c2]; try apply rep_Fin; unfold solve.
    + replace 3 with (- (1 * 0 + 30) / -10) by lra. rep_all; try apply rep_Fin; lra.
    + replace 4 with (- (1 * 10 + 30) / -10) by lra. rep_all; try apply rep_Fin; lra.
Qed.
(** Two cameras that see one point: the distance shown for the two pixels is zero. *)
Example C62_example_zero : exists a b e, plain_cam a Rectilinear ex_r (ex_at 0) /\ plain_cam b Rectilinear ex_r (ex_at 1) /\
  drawn_distance a b (imageFromSpace a (fin3 (V3 0 20 30)) true) (imageFromSpace b (fin3 (V3 0 20 30)) true) = Some e /\ rep e 0.
Proof.
  destruct (ex_cam_at Rectilinear 0) as (a&Ha), (ex_cam_at Rectilinear 1) as (b&Hb). set (P := V3 0 20 30).
  assert (S : forall s, showable Rectilinear (cam_coords (ex_at s) P)) by (intros; apply ex_at_showable; simpl; lra).
  destruct (seen_direction b Rectilinear ex_r (ex_at 1) (fin3 P) P true true Hb (rep3_fin P) (S 1)) as (Q&D&l&_&_&RD&L&_&ED).
  rewrite opos_at in ED.
  assert (DY : l * cy D = 20) by (apply (f_equal cy) in ED; cbn in ED; lra).
  assert (DP : 0 < cy D) by (apply Rmult_lt_reg_l with l; lra).
  assert (LU : l < 30).
  { assert (N1 : rdot D D = 1).
    { destruct (seen_direction b Rectilinear ex_r (ex_at 1) (fin3 P) P true true Hb (rep3_fin P) (S 1)) as (Q'&D'&l'&_&_&RD'&_&U'&_).
      pose proof (rep3_inj _ _ _ RD RD') as <-. specialize (U' eq_refl). unfold rnorm in U'.
      assert (0 <= rdot D D) by (unfold rdot; nra). rewrite <- (sqrt_sqrt (rdot D D)) by auto. rewrite U'. ring. }
    assert (NL : l * l = 801).
    { transitivity (rdot (rv_scale l D) (rv_scale l D)); [transitivity (l * l * rdot D D); [rewrite N1; ring|unfold rdot; vring; ring]|].
      rewrite <- ED. unfold rdot, P. vring. ring. }
    destruct (Rlt_or_le l 30); auto. nra. }
  assert (DL : 2 / 3 < cy D) by (apply Rmult_lt_reg_l with l; [lra|rewrite DY; lra]).
  destruct (C62_zero a b Rectilinear ex_r ex_r (ex_at 0) (ex_at 1) (fin3 P) P D Ha Hb (rep3_fin P) (S 0) (S 1)) as (e&E&R0); auto.
  - intros; exact I.
  - rewrite ex_at_coords, opos_at. cbn. rewrite Rabs_right; unfold tinyR; lra.
  - rewrite ex_at_coords, opos_at. cbn. rewrite Rabs_right; unfold tinyR; lra.
  - rewrite !opos_at. unfold P. vring. intros H; injection H; lra.
  - exists a, b, e. auto.
Qed.
(** For two cameras side by side no cross is drawn; in the image of a camera five metres behind the other one the cross is
    in the middle. *)
Example C62_example_cross : exists a b c, plain_cam a Rectilinear ex_r (ex_at 0) /\ plain_cam b Rectilinear ex_r (ex_at 1) /\
  plain_cam c Rectilinear ex_r ex_behind /\ is_nan2 (cross a (getPos (Fin 1) (Fin 0) (Fin 10))) /\
  rep2 (cross c (getPos (Fin 0) (Fin 0) (Fin 10))) (V2 2000 1500).
Proof.
  destruct (ex_cam_at Rectilinear 0) as (a&Ha), (ex_cam_at Rectilinear 1) as (b&Hb).
  assert (H : rep_opar (opar_fin ex_behind) ex_behind) by (repeat split).
  destruct (init_rigid _ _ H) as (m&E&_).
  assert (Hc : plain_cam (plain_camera Rectilinear (proj_fin ex_r) m) Rectilinear ex_r ex_behind).
  { exists (proj_fin ex_r), m. splits; auto; [repeat split|split; simpl; lra|eauto]. }
  assert (C : cam_coords ex_behind (opos (ex_at 0)) = V3 0 0 (-5)).
  { rewrite opos_at. unfold cam_coords, camM; cbn [tilt_deg roll_deg heading_deg ex_behind].
    replace (rad 90) with (PI / 2) by (unfold rad; field). replace (rad 0) with 0 by (unfold rad; ring).
    apply v3_ext; cbv [rotm rm_mul_v rv_sub zip3v rdot opos pos_x_m pos_y_m elevation_m ex_behind cx cy cz];
    rewrite ?sin_PI2, ?cos_PI2, ?sin_0, ?cos_0; ring. }
  assert (RAY : forall x s, plain_cam x Rectilinear ex_r (ex_at s) -> exists W, rep3 (snd (getRay x (V2 (Fin 7) (Fin 9)) true)) W).
  { intros x s Hx. destruct (plain_good _ _ _ _ Hx) as (HG&HK&_&HU). eexists. cbn [getRay snd].
    apply (direction_rep _ _ _ _ _ (V2 7 9) true HG); [rewrite HU; split; reflexivity|rewrite HK; exact I]. }
  destruct (RAY a 0 Ha) as (WA&RA), (RAY b 1 Hb) as (WB&RB).
  exists a, b, (plain_camera Rectilinear (proj_fin ex_r) m). splits; auto.
  - apply (C62_cross a b Rectilinear ex_r ex_r (ex_at 0) (ex_at 1) (V2 (Fin 7) (Fin 9)) (V2 7 9) WB _ _ _ Ha Hb); auto; try apply rep_Fin; try (split; reflexivity).
    rewrite ex_at_coords, opos_at. cbn [cx cy cz]. unfold tinyR. lra.
  - destruct (C62_cross _ a Rectilinear ex_r ex_r ex_behind (ex_at 0) (V2 (Fin 7) (Fin 9)) (V2 7 9) WA (Fin 0) (Fin 0) (Fin 10) Hc Ha) as (K&_);
      auto; try apply rep_Fin; try (split; reflexivity).
    destruct K as (q&Q&_&_&RQ); [rewrite C; cbn [cz]; unfold tinyR; lra|].
    eapply rep2_eq; [exact RQ|]. eapply rep2_inj; [exact RQ|].
    assert (P : rep2 (cross (plain_camera Rectilinear (proj_fin ex_r) m) (getPos (Fin 0) (Fin 0) (Fin 10))) (pin ex_r (V3 0 0 (-5)))).
    { destruct (plain_good _ _ _ _ Hc) as ((Hpr&_&HR)&HK&HDi&_). unfold cross, imageFromSpace. rewrite HDi, HK. cbn [p_image].
      apply rect_image_value; auto; cbn [cz]; try (rewrite Rabs_left; unfold tinyR; lra); try lra.
      rewrite <- C. apply (rigid_camera _ _ _ _ _ HR). repeat split. }
    eapply rep2_eq; [exact P|]. unfold pin, ex_r. cbn [cx cy cz f_x f_y center_x center_y]. apply v2_ext; cbn [c1 c2]; field.
Qed.
Print Assumptions C62_crossings.
Print Assumptions C62_clip.
Print Assumptions C62_raises.
Print Assumptions C62_line.
Print Assumptions C62_epipole.
Print Assumptions C62_zero.
Print Assumptions C62_diagonal_refuted.
