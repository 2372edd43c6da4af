(** * C66: which density the Metropolis sampler samples *)
Require Import Reals Lra Lia List Bool ZArith Arith Psatz FunctionalExtensionality.
From Verif Require Import Num Trig Metropolis PropMetropolis.
Import ListNotations.
Open Scope R_scope.

(** ** The truncated normal distribution (scipy.stats.truncnorm)
    Its density is the bell curve divided by the area under it between the bounds. *)
Definition bump (t : R) : R := exp (- (t * t) / 2).
Definition area (a b v : R) : Prop := exists pr : Riemann_integrable bump a b, v = RiemannInt pr.
Definition between (A B : num) (t : R) : Prop := (A <=? Fin t)%num = true /\ (Fin t <=? B)%num = true.
(** The bounds may be infinite: the least upper bound of the areas between two points in the range. *)
Definition mass (A B : num) (m : R) : Prop :=
  is_lub (fun v => exists a b, a <= b /\ between A B a /\ between A B b /\ area a b v) m.
Definition truncated (A B : num) (t d : R) : Prop :=
  exists m, mass A B m /\ (between A B t /\ d = bump t / m \/ ~ between A B t /\ d = 0).

(** *** Facts about the areas *)
Lemma bump_cont : continuity bump.
Proof.
  intros t. unfold bump. apply (continuity_pt_comp (fun t => - (t * t) / 2) exp); apply derivable_continuous_pt; [reg|apply derivable_pt_exp].
Qed.
Lemma bump_pos t : 0 < bump t. Proof. apply exp_pos. Qed.
Lemma bump_even t : bump (- t) = bump t. Proof. unfold bump. f_equal. field. Qed.
Lemma bump_le s t : s * s <= t * t -> bump t <= bump s.
Proof. intros H. unfold bump. destruct (Req_dec (s * s) (t * t)) as [-> |N]; [lra|]. left. apply exp_increasing. lra. Qed.
Lemma area_ex a b : a <= b -> exists v, area a b v.
Proof. intros H. assert (pr : Riemann_integrable bump a b) by (apply continuity_implies_RiemannInt; auto; intros; apply bump_cont). exists (RiemannInt pr), pr. reflexivity. Qed.
Lemma area_unique a b u v : area a b u -> area a b v -> u = v.
Proof. intros (p&->) (q&->). apply RiemannInt_P5. Qed.
Lemma area_point a v : area a a v -> v = 0.
Proof. intros (p&->). apply RiemannInt_P9. Qed.
Lemma area_chasles a b c u v : area a b u -> area b c v -> area a c (u + v).
Proof.
  intros (p&->) (q&->). pose (r := RiemannInt_P24 p q). exists r. apply RiemannInt_P26.
Qed.
Lemma area_bounds a b v l h : a <= b -> area a b v -> (forall t, a < t < b -> l <= bump t <= h) -> l * (b - a) <= v <= h * (b - a).
Proof.
  intros L (p&->) H. split.
  - rewrite <- (RiemannInt_P15 (RiemannInt_P14 a b l)). apply RiemannInt_P19; auto. intros t T. unfold fct_cte. apply H; auto.
  - rewrite <- (RiemannInt_P15 (RiemannInt_P14 a b h)). apply RiemannInt_P19; auto. intros t T. unfold fct_cte. apply H; auto.
Qed.
Lemma area_nonneg a b v : a <= b -> area a b v -> 0 <= v.
Proof. 
  intros L (p&->). replace 0 with (0 * (b - a)) by ring. rewrite <- (RiemannInt_P15 (RiemannInt_P14 a b 0)).
  apply RiemannInt_P19; auto. intros t _. unfold fct_cte. left. apply bump_pos.
Qed.
(** The whole area is finite: exp (- t^2 / 2) <= 2 / (1 + t^2), the derivative of 2 atan. *)
Lemma atan2_diff : derivable (fun t => 2 * atan t).
Proof. intros t. apply (derivable_pt_mult (fct_cte 2) atan); [apply derivable_pt_const|apply derivable_pt_atan]. Qed.
Lemma atan2_derive : derive (fun t => 2 * atan t) atan2_diff = fun t => 2 * / (1 + t * t).
Proof.
  apply functional_extensionality. intros t. unfold derive. apply derive_pt_eq_0.
  replace (2 * / (1 + t * t)) with (0 * atan t + 2 * / (1 + t * t)) by ring.
  apply (derivable_pt_lim_mult (fct_cte 2) atan t 0); [apply derivable_pt_lim_const|].
  replace (t * t) with (t ^ 2) by ring. apply derivable_pt_lim_atan.
Qed.
Lemma atan2_cont : continuity (derive (fun t => 2 * atan t) atan2_diff).
Proof.
  rewrite atan2_derive. intros t. apply (continuity_pt_mult (fct_cte 2) (fun t => / (1 + t * t))); [apply continuity_pt_const; intros x y; reflexivity|].
  apply (continuity_pt_inv (fun t => 1 + t * t)); [reg|nra].
Qed.
Lemma area_total a b v : a <= b -> area a b v -> v <= 2 * PI.
Proof.
  intros L (p&->). set (f := mkC1 atan2_cont).
  assert (q : Riemann_integrable (derive f (diff0 f)) a b) by (apply continuity_implies_RiemannInt; auto; intros; apply (cont1 f)).
  apply Rle_trans with (RiemannInt q).
  - apply RiemannInt_P19; auto. intros t _. cbn. rewrite atan2_derive. unfold bump.
    apply Rmult_le_reg_r with (1 + t * t); [nra|]. rewrite Rmult_assoc, Rinv_l by nra.
    apply Rmult_le_reg_l with (exp (t * t / 2)); [apply exp_pos|]. rewrite <- Rmult_assoc, <- exp_plus.
    replace (t * t / 2 + - (t * t) / 2) with 0 by field. rewrite exp_0. pose proof (exp_ineq1_le (t * t / 2)). nra.
  - rewrite (FTC_Riemann f). cbn. pose proof (atan_bound a). pose proof (atan_bound b). lra.
Qed.
Lemma mass_unique A B m m' : mass A B m -> mass A B m' -> m = m'.
Proof. apply is_lub_u. Qed.
Lemma mass_exists A B t : between A B t -> exists m, mass A B m.
Proof.
  intros T. destruct (completeness (fun v => exists a b, a <= b /\ between A B a /\ between A B b /\ area a b v)) as (m&M).
  - exists (2 * PI). intros v (a&b&L&_&_&V). exact (area_total a b v L V).
  - destruct (area_ex t t (Rle_refl t)) as (v&V). exists v, t, t. split; [lra|]. auto.
  - exists m. exact M.
Qed.
Lemma mass_pos A B m a b : mass A B m -> between A B a -> between A B b -> a < b -> 0 < m.
Proof.
  intros (M&_) HA HB L. destruct (area_ex a b (Rlt_le _ _ L)) as (v&V).
  assert (v <= m). { apply M. exists a, b. split; [lra|]. auto. }
  set (c := Rabs a + Rabs b).
  destruct (area_bounds a b v (bump c) 1 (Rlt_le _ _ L) V) as (K&_).
  - intros t T. split; [|unfold bump; rewrite <- exp_0; destruct (Req_dec (- (t * t) / 2) 0) as [-> |N]; [lra|left; apply exp_increasing; nra]].
    apply bump_le. assert (Rabs t <= c) by (unfold c, Rabs in *; repeat destruct Rcase_abs; lra).
    rewrite <- (Rabs_pos_eq (t * t)) by nra. rewrite Rabs_mult. pose proof (Rabs_pos t). nra.
  - pose proof (bump_pos c). nra.
Qed.
Lemma between_fin a b t : between (Fin a) (Fin b) t <-> a <= t <= b.
Proof. unfold between. rewrite (nleb_rep _ _ _ _ (rep_Fin a) (rep_Fin t)), (nleb_rep _ _ _ _ (rep_Fin t) (rep_Fin b)). tauto. Qed.
(** For finite bounds the mass is the area. *)
Lemma mass_area a b m : a <= b -> (mass (Fin a) (Fin b) m <-> area a b m).
Proof.
  intros L. destruct (area_ex a b L) as (v&V).
  assert (MV : mass (Fin a) (Fin b) v).
  { split.
    - intros u (c&d&CD&C&D&U). apply between_fin in C. apply between_fin in D.
      destruct (area_ex a c) as (u1&U1); [lra|]. destruct (area_ex d b) as (u2&U2); [lra|].
      pose proof (area_unique _ _ _ _ V (area_chasles _ _ _ _ _ U1 (area_chasles _ _ _ _ _ U U2))).
      pose proof (area_nonneg a c u1 ltac:(lra) U1). pose proof (area_nonneg d b u2 ltac:(lra) U2). lra.
    - intros u HU. apply HU. exists a, b. split; [exact L|]. rewrite !between_fin. split; [lra|]. split; [lra|exact V]. }
  split; intros H.
  - rewrite (mass_unique _ _ _ _ H MV). exact V.
  - rewrite (area_unique _ _ _ _ H V). exact MV.
Qed.

(** ** The chain
    The probability that line 117 accepts, for np.random.rand() uniform in [0, 1). *)
Definition accept_prob (next last : num) (p : R) : Prop :=
  0 <= p <= 1 /\ forall u r, rep u r -> 0 <= r < 1 -> (accepts next last u = true <-> r < p).
(** The density that a log probability stands for *)
Definition weight (v : num) (w : R) : Prop := (exists a, rep v a /\ w = exp a) \/ (v = NInf /\ w = 0).
(** The density of the draw of line 108 for a position X: one truncated normal variable per coordinate *)
Inductive draw_density : list (num * num) -> list R -> list R -> list R -> R -> Prop :=
| dd_nil : draw_density [] [] [] [] 1
| dd_cons lo hi x s t d ranges X step T e :
    truncated ((lo - Fin x) / Fin s)%num ((hi - Fin x) / Fin s)%num t d -> draw_density ranges X step T e ->
    draw_density ((lo, hi) :: ranges) (x :: X) (s :: step) (t :: T) (d * e).
(** The draw T becomes the proposal Y, which spreads a unit volume over [volume]. *)
Fixpoint volume (scale : R) (step : list R) : R :=
  match step with [] => 1 | s :: step => scale * s * volume scale step end.
(** The density of proposing Y at X *)
Definition proposal (scale : R) (ranges : list (num * num)) (step X Y : list R) (q : R) : Prop :=
  exists T d, Forall2 rep (propose scale (map Fin X) (map Fin step) (map Fin T)) Y /\
    draw_density ranges X step T d /\ q = d / volume scale step.
(** The density of going from X to Y in one iteration *)
Definition transition (lp : list num -> num) (scale : R) (ranges : list (num * num)) (step X Y : list R) (k : R) : Prop :=
  exists q p, proposal scale ranges step X Y q /\ accept_prob (lp (map Fin Y)) (lp (map Fin X)) p /\ k = q * p.
(** The probability that an untruncated proposal at X stays in the ranges (up to the constant factor of the bell curve) *)
Inductive room : list (num * num) -> list R -> list R -> R -> Prop :=
| room_nil : room [] [] [] 1
| room_cons lo hi x s m ranges X step z :
    mass ((lo - Fin x) / Fin s)%num ((hi - Fin x) / Fin s)%num m -> room ranges X step z ->
    room ((lo, hi) :: ranges) (x :: X) (s :: step) (m * z).

(** *** The acceptance *)
Lemma weight_nonneg v w : weight v w -> 0 <= w.
Proof. intros [(a&_&->)|(_&->)]; [left; apply exp_pos|lra]. Qed.
Lemma accept_weight next last w w' p : weight last w -> weight next w' -> accept_prob next last p -> w * p = Rmin w w'.
Proof.
  intros [(b&Hb&->)|(->&->)] HN ((P0&P1)&A).
  2:{ pose proof (weight_nonneg _ _ HN). rewrite Rmin_left by lra. ring. }
  destruct HN as [(a&Ha&->)|(->&->)].
  - pose proof (exp_pos a) as Ea. pose proof (exp_pos b) as Eb.
    assert (E : forall r, 0 <= r < 1 -> (r < p <-> r * exp b < exp a)).
    { intros r Hr. rewrite <- (A (Fin r) r (rep_Fin r) Hr). apply C46_acceptance; auto. apply rep_Fin. }
    unfold Rmin. destruct (Rle_dec (exp b) (exp a)) as [L|L].
    + destruct (Req_dec p 1) as [-> |N]; [ring|]. exfalso. specialize (E p ltac:(lra)). assert (p * exp b < exp a) by nra. tauto || lra.
    + set (r := exp a / exp b). assert (Er : r * exp b = exp a) by (unfold r; field; lra).
      assert (Hr : 0 <= r < 1) by nra. destruct (Rtotal_order p r) as [C|[C|C]].
      * specialize (E p ltac:(lra)). assert (p * exp b < exp a) by nra. lra.
      * rewrite C. lra.
      * apply (E r Hr) in C. lra.
  - rewrite Rmin_right by (left; apply exp_pos). destruct (Rle_lt_or_eq_dec 0 p P0) as [C| <-]; [exfalso|ring].
    apply (A (Fin 0) 0 (rep_Fin 0)) in C; [|lra].
    destruct (accept_finite NInf last (Fin 0) b 0 Hb (rep_Fin 0) (Rle_refl 0) ltac:(discriminate) C) as (x&X). discriminate.
Qed.
Lemma accept_exists next last w w' : weight last w -> weight next w' -> exists p, accept_prob next last p.
Proof.
  intros [(b&Hb&->)|(->&->)] HN.
  - destruct HN as [(a&Ha&->)|(->&->)].
    + exists (Rmin 1 (exp a / exp b)). pose proof (exp_pos a) as Ea. pose proof (exp_pos b) as Eb.
      assert (Er : exp a / exp b * exp b = exp a) by (field; lra). set (r0 := exp a / exp b) in *.
      assert (0 <= r0) by nra. split; [unfold Rmin; destruct (Rle_dec 1 r0); lra|].
      intros u r Hu Hr. rewrite (C46_acceptance _ _ _ a b r Ha Hb Hu Hr).
      unfold Rmin. destruct (Rle_dec 1 r0); split; intros; nra.
    + exists 0. split; [lra|]. intros u r Hu Hr. split; [|lra]. intros C.
      destruct (accept_finite NInf last u b r Hb Hu ltac:(lra) ltac:(discriminate) C) as (x&X). discriminate.
  - exists 1. split; [lra|]. intros u r Hu Hr. split; [intros; lra|intros _].
    destruct HN as [(a&Ha&->)|(->&->)]; unfold accepts.
    + rewrite (nisinf_rep _ _ Ha). cbn [andb]. replace (next - NInf)%num with PInf; [reflexivity|].
      rlook Ha. unfold nsub, nadd. rewrite H. reflexivity.
    + cbn [nisinf andb]. rewrite (rep_leb _ _ _ _ (rep_Fin 0) (rep_Fin 0)). unfold Rleb. destruct (Rle_dec 0 0); [reflexivity|lra].
Qed.

(** *** The proposal *)
Lemma NInf_bound x s : 0 < s -> ((NInf - Fin x) / Fin s)%num = NInf.
Proof. intros H. rewrite (NInf_sub _ _ (rep_Fin x)). unfold ndiv. cbn [look]. rewrite Rltb_false by lra. reflexivity. Qed.
Lemma PInf_bound x s : 0 < s -> ((PInf - Fin x) / Fin s)%num = PInf.
Proof.
  intros H. assert ((PInf - Fin x)%num = PInf) as ->. { rlook (rep_neg _ _ (rep_Fin x)). unfold nsub, nadd. cbn [look]. rewrite H0. reflexivity. }
  unfold ndiv. cbn [look]. rewrite Rltb_false by lra. reflexivity.
Qed.
Lemma lower_inside lo x s t : finite lo \/ lo = NInf -> 0 < s ->
  (((lo - Fin x) / Fin s <=? Fin t)%num = true <-> (lo <=? Fin (x + s * t))%num = true).
Proof.
  intros [(L&HL)| ->] PS; [|rewrite (NInf_bound x s PS), (NInf_le _ _ (rep_Fin t)), (NInf_le _ _ (rep_Fin (x + s * t))); tauto].
  rewrite (nleb_rep _ _ _ t (rep_div _ _ _ _ (rep_sub _ _ _ _ HL (rep_Fin x)) (rep_Fin s) ltac:(lra)) (rep_Fin t)), (nleb_rep _ _ _ _ HL (rep_Fin (x + s * t))).
  assert ((L - x) / s * s = L - x) by (field; lra). split; intros; nra.
Qed.
Lemma upper_inside hi x s t : finite hi \/ hi = PInf -> 0 < s ->
  ((Fin t <=? (hi - Fin x) / Fin s)%num = true <-> (Fin (x + s * t) <=? hi)%num = true).
Proof.
  intros [(L&HL)| ->] PS; [|rewrite (PInf_bound x s PS), (le_PInf _ _ (rep_Fin t)), (le_PInf _ _ (rep_Fin (x + s * t))); tauto].
  rewrite (nleb_rep _ _ t _ (rep_Fin t) (rep_div _ _ _ _ (rep_sub _ _ _ _ HL (rep_Fin x)) (rep_Fin s) ltac:(lra))), (nleb_rep _ _ _ _ (rep_Fin (x + s * t)) HL).
  assert ((L - x) / s * s = L - x) by (field; lra). split; intros; nra.
Qed.
Lemma between_inside lo hi x s t : good_range (lo, hi) -> 0 < s ->
  (between ((lo - Fin x) / Fin s)%num ((hi - Fin x) / Fin s)%num t <-> inside lo hi (Fin (x + s * t))).
Proof.
  intros (GL&GH) PS. cbn [fst snd] in *. unfold between, inside. rewrite (lower_inside lo x s t GL PS), (upper_inside hi x s t GH PS). tauto.
Qed.
Lemma propose_point scale : 0 < scale -> forall step X T Y, Forall (fun s => 0 < s) step ->
  Forall2 rep (propose scale (map Fin X) (map Fin step) (map Fin T)) Y ->
  forall T', List.length X = List.length step -> List.length T = List.length step -> List.length T' = List.length step ->
  Forall2 rep (propose scale (map Fin Y) (map Fin step) (map Fin T')) X -> T' = map Ropp T.
Proof.
  intros PS. induction step as [|s step IH]; intros [|x X] [|t T] Y P F [|t' T'] LX LT LT' F'; try discriminate; auto.
  cbn [map propose] in F. inversion F as [|? y ? Y' HY FY]; subst. cbn [map propose] in F'. inversion F' as [|? ? ? ? HX FX]; subst.
  inversion_clear P. cbn [map]. f_equal; [|eapply IH; eauto].
  assert (E1 : y = x + scale * s * t).
  { eapply rep_inj; [exact HY|]. apply rep_add; [apply rep_Fin|]. apply rep_mul; [|apply rep_Fin]. apply rep_mul; apply rep_Fin. }
  assert (E2 : x = y + scale * s * t').
  { eapply rep_inj; [exact HX|]. apply rep_add; [apply rep_Fin|]. apply rep_mul; [|apply rep_Fin]. apply rep_mul; apply rep_Fin. }
  assert (scale * s * (t' + t) = 0) as Z by lra. assert (0 < scale * s) by (apply Rmult_lt_0_compat; auto).
  apply Rmult_integral in Z. lra.
Qed.
Lemma density_length ranges X step T d : draw_density ranges X step T d ->
  List.length X = List.length step /\ List.length T = List.length step.
Proof. induction 1; simpl; lia. Qed.
Lemma propose_ex scale : 0 < scale -> forall step X Y, Forall (fun s => 0 < s) step -> List.length X = List.length step -> List.length Y = List.length step ->
  exists T, List.length T = List.length step /\ Forall2 rep (propose scale (map Fin X) (map Fin step) (map Fin T)) Y.
Proof.
  intros PS. induction step as [|s step IH]; intros [|x X] [|y Y] P LX LY; try discriminate; [exists []; simpl; auto|].
  inversion_clear P. injection LX as LX. injection LY as LY. destruct (IH X Y) as (T&LT&HT); auto.
  exists ((y - x) / (scale * s) :: T). split; [simpl; lia|]. cbn [map propose]. constructor; auto.
  assert (0 < scale * s) by (apply Rmult_lt_0_compat; auto).
  replace y with (x + scale * s * ((y - x) / (scale * s))) at 2 by (field; lra).
  apply rep_add; [apply rep_Fin|]. apply rep_mul; [|apply rep_Fin]. apply rep_mul; apply rep_Fin.
Qed.

(** ** Without ranges *)
Definition unbounded (r : num * num) : Prop := r = (NInf, PInf).
Lemma all_between t : between NInf PInf t.
Proof. split; [eapply NInf_le|eapply le_PInf]; apply rep_Fin. Qed.
Lemma density_unbounded ranges X step T d : draw_density ranges X step T d -> forall Y d', Forall unbounded ranges ->
  Forall (fun s => 0 < s) step -> draw_density ranges Y step (map Ropp T) d' -> d' = d.
Proof.
  induction 1 as [|lo hi x s t d ranges X step T e HT HD IH]; intros Y d' U P F'; inversion F' as [|? ? y ? ? d2 ? ? ? ? e2 HT' HD']; subst; auto.
  inversion_clear U as [|? ? U1 U2]. inversion_clear P. rewrite (IH _ _ U2 H0 HD'). f_equal.
  injection U1 as -> ->. rewrite NInf_bound, PInf_bound in HT, HT' by auto.
  destruct HT as (m&M&[(_&->)|(C&_)]); [|destruct (C (all_between t))].
  destruct HT' as (m'&M'&[(_&->)|(C&_)]); [|destruct (C (all_between _))].
  rewrite (mass_unique _ _ _ _ M M'), bump_even. reflexivity.
Qed.
(** Detailed balance: in the long run of the chain, X is left for Y as often as Y for X, if the positions are
    distributed with the density that getLogProb stands for. *)
Theorem C66_unbounded lp scale ranges step X Y k k' w w' : 0 < scale -> Forall (fun s => 0 < s) step -> Forall unbounded ranges ->
  weight (lp (map Fin X)) w -> weight (lp (map Fin Y)) w' ->
  transition lp scale ranges step X Y k -> transition lp scale ranges step Y X k' -> w * k = w' * k'.
Proof.
  intros PS P U W W' (q&p&(T&d&HT&HD&->)&HA&->) (q'&p'&(T'&d'&HT'&HD'&->)&HA'&->).
  destruct (density_length _ _ _ _ _ HD) as (L1&L2). destruct (density_length _ _ _ _ _ HD') as (L1'&L2').
  assert (T' = map Ropp T) as -> by (eapply propose_point; eauto).
  rewrite (density_unbounded _ _ _ _ _ HD _ _ U P HD').
  pose proof (accept_weight _ _ _ _ _ W W' HA) as E. pose proof (accept_weight _ _ _ _ _ W' W HA') as E'. rewrite Rmin_comm in E'.
  transitivity (d / volume scale step * (w * p)); [ring|]. rewrite E, <- E'. ring.
Qed.

(** ** With ranges *)
(** A range that holds more than one number *)
Definition wide (r : num * num) : Prop := exists a b, a < b /\ inside (fst r) (snd r) (Fin a) /\ inside (fst r) (snd r) (Fin b).
Lemma wide_point lo hi c s : good_range (lo, hi) -> wide (lo, hi) -> 0 < s ->
  exists a b, a < b /\ between ((lo - Fin c) / Fin s)%num ((hi - Fin c) / Fin s)%num a /\ between ((lo - Fin c) / Fin s)%num ((hi - Fin c) / Fin s)%num b.
Proof.
  intros G (a&b&AB&IA&IB) P. cbn [fst snd] in IA, IB. exists ((a - c) / s), ((b - c) / s). split; [|split].
  - apply Rmult_lt_compat_r; [apply Rinv_0_lt_compat; auto|lra].
  - apply between_inside; auto. replace (c + s * ((a - c) / s)) with a by (field; lra). exact IA.
  - apply between_inside; auto. replace (c + s * ((b - c) / s)) with b by (field; lra). exact IB.
Qed.
Lemma wide_mass lo hi c s m : good_range (lo, hi) -> wide (lo, hi) -> 0 < s ->
  mass ((lo - Fin c) / Fin s)%num ((hi - Fin c) / Fin s)%num m -> 0 < m.
Proof. intros G WD P M. destruct (wide_point lo hi c s G WD P) as (a&b&AB&IA&IB). exact (mass_pos _ _ _ a b M IA IB AB). Qed.
Lemma density_ranges ranges X step T d : draw_density ranges X step T d -> forall Y d' z z', Forall good_range ranges ->
  Forall wide ranges ->
  Forall (fun s => 0 < s) step -> all_inside ranges (map Fin X) -> all_inside ranges (map Fin Y) ->
  Forall2 rep (propose 1 (map Fin X) (map Fin step) (map Fin T)) Y ->
  room ranges X step z -> room ranges Y step z' -> draw_density ranges Y step (map Ropp T) d' -> z * d = z' * d'.
Proof.
  induction 1 as [|lo hi x s t d ranges X step T e HT HD IH]; intros Y d' z z' G WD P IX IY HP RX RY F';
    inversion F' as [|? ? y ? ? d2 ? Y' ? ? e2 HT' HD']; subst; inversion RX; inversion RY; subst; auto.
  inversion_clear G as [|? ? G1 G2]. inversion_clear P as [|? ? P1 P2]. cbn [map propose] in HP. inversion_clear HP as [|? ? ? ? HY HP'].
  destruct IX as (I1&I2). destruct IY as (J1&J2).
  match goal with H1 : room _ X _ ?z1, H2 : room _ Y' _ ?z2 |- _ => pose proof (IH Y' e2 z1 z2 G2 (Forall_inv_tail WD) P2 I2 J2 HP' H1 H2 HD') as E end.
  assert (E1 : y = x + s * t).
  { eapply rep_inj; [exact HY|]. replace (x + s * t) with (x + 1 * s * t) by ring. apply rep_add; [apply rep_Fin|]. apply rep_mul; [|apply rep_Fin]. apply rep_mul; apply rep_Fin. }
  assert (MP : forall c mm, mass ((lo - Fin c) / Fin s)%num ((hi - Fin c) / Fin s)%num mm -> 0 < mm).
  { intros c mm M. eapply wide_mass; eauto. exact (Forall_inv WD). }
  destruct HT as (m1&M1&[(_&->)|(C&_)]); [|destruct C; apply between_inside; auto; rewrite <- E1; exact J1].
  destruct HT' as (m2&M2&[(_&->)|(C&_)]); [|destruct C; apply between_inside; auto; replace (y + s * - t) with x by lra; exact I1].
  rewrite bump_even.
  match goal with M : mass ((lo - Fin x) / _)%num _ ?n |- context [?n * _] => rewrite (mass_unique _ _ _ _ M M1) end.
  match goal with M : mass ((lo - Fin y) / _)%num _ ?n |- context [?n * _] => rewrite (mass_unique _ _ _ _ M M2) end.
  pose proof (MP x m1 M1). pose proof (MP y m2 M2).
  match goal with |- ?m1 * ?z1 * (?b / ?m1 * ?e1) = ?m2 * ?z2 * (_ / ?m2 * ?e2) => 
    transitivity (b * (z1 * e1)); [field; lra|]; rewrite E; field; lra end.
Qed.
(** With ranges and the scale factor of the start, the chain balances another density: the one of getLogProb
    times the room that a proposal has.  Near a border that is less than in the middle. *)
Theorem C66_bounded lp ranges step X Y k k' w w' z z' : Forall (fun s => 0 < s) step -> Forall good_range ranges ->
  Forall wide ranges ->
  all_inside ranges (map Fin X) -> all_inside ranges (map Fin Y) ->
  weight (lp (map Fin X)) w -> weight (lp (map Fin Y)) w' -> room ranges X step z -> room ranges Y step z' ->
  transition lp 1 ranges step X Y k -> transition lp 1 ranges step Y X k' -> (w * z) * k = (w' * z') * k'.
Proof.
  intros P G WD IX IY W W' RX RY (q&p&(T&d&HT&HD&->)&HA&->) (q'&p'&(T'&d'&HT'&HD'&->)&HA'&->).
  destruct (density_length _ _ _ _ _ HD) as (L1&L2). destruct (density_length _ _ _ _ _ HD') as (L1'&L2').
  assert (T' = map Ropp T) as -> by (eapply (propose_point 1); eauto; lra).
  pose proof (density_ranges _ _ _ _ _ HD _ _ _ _ G WD P IX IY HT RX RY HD') as Z.
  pose proof (accept_weight _ _ _ _ _ W W' HA) as E. pose proof (accept_weight _ _ _ _ _ W' W HA') as E'. rewrite Rmin_comm in E'.
  transitivity (z * d / volume 1 step * (w * p)); [unfold Rdiv; ring|]. rewrite E, <- E', Z. unfold Rdiv; ring.
Qed.

(** ** The densities exist *)
Lemma density_ex ranges : forall X step T, Forall good_range ranges -> Forall wide ranges -> Forall (fun s => 0 < s) step ->
  List.length ranges = List.length step -> List.length X = List.length step -> List.length T = List.length step ->
  exists d, draw_density ranges X step T d /\ 0 <= d.
Proof.
  induction ranges as [|(lo&hi) ranges IH]; intros [|x X] [|s step] [|t T] G WD P LR LX LT; try discriminate.
  - exists 1. split; [constructor|lra].
  - inversion_clear G as [|? ? G1 G2]. inversion_clear WD as [|? ? W1 W2]. inversion_clear P as [|? ? P1 P2].
    injection LR as LR. injection LX as LX. injection LT as LT. destruct (IH X step T) as (e&E&E0); auto.
    destruct (wide_point lo hi x s G1 W1 P1) as (a&b&AB&IA&IB). destruct (mass_exists _ _ a IA) as (m&M).
    pose proof (wide_mass lo hi x s m G1 W1 P1 M) as MP. pose proof (bump_pos t) as BP.
    assert (exists d, truncated ((lo - Fin x) / Fin s)%num ((hi - Fin x) / Fin s)%num t d /\ 0 <= d) as (d&D&D0).
    { destruct (Classical_Prop.classic (between ((lo - Fin x) / Fin s)%num ((hi - Fin x) / Fin s)%num t)) as [C|C].
      - exists (bump t / m). split; [exists m; auto|]. left. apply Rmult_lt_0_compat; auto. apply Rinv_0_lt_compat; auto.
      - exists 0. split; [exists m; auto|lra]. }
    exists (d * e). split; [constructor; auto|]. apply Rmult_le_pos; auto.
Qed.
Lemma room_ex ranges : forall X step, Forall good_range ranges -> Forall wide ranges -> Forall (fun s => 0 < s) step ->
  List.length ranges = List.length step -> List.length X = List.length step -> exists z, room ranges X step z /\ 0 < z.
Proof.
  induction ranges as [|(lo&hi) ranges IH]; intros [|x X] [|s step] G WD P LR LX; try discriminate.
  - exists 1. split; [constructor|lra].
  - inversion_clear G as [|? ? G1 G2]. inversion_clear WD as [|? ? W1 W2]. inversion_clear P as [|? ? P1 P2].
    injection LR as LR. injection LX as LX. destruct (IH X step) as (z&Z&Z0); auto.
    destruct (wide_point lo hi x s G1 W1 P1) as (a&b&AB&IA&IB). destruct (mass_exists _ _ a IA) as (m&M).
    exists (m * z). split; [constructor; auto|]. apply Rmult_lt_0_compat; auto. eapply (wide_mass lo hi x s); eauto.
Qed.
Lemma volume_pos scale step : 0 < scale -> Forall (fun s => 0 < s) step -> 0 < volume scale step.
Proof. intros PS. induction 1; cbn [volume]; [lra|]. apply Rmult_lt_0_compat; auto. apply Rmult_lt_0_compat; auto. Qed.
(** For any two positions there are one transition density and one room. *)
Theorem C66_defined lp scale ranges step X Y w w' : 0 < scale -> Forall (fun s => 0 < s) step -> Forall good_range ranges -> Forall wide ranges ->
  List.length ranges = List.length step -> List.length X = List.length step -> List.length Y = List.length step ->
  weight (lp (map Fin X)) w -> weight (lp (map Fin Y)) w' ->
  (exists k, 0 <= k /\ transition lp scale ranges step X Y k) /\ (exists z, 0 < z /\ room ranges X step z).
Proof.
  intros PS P G WD LR LX LY W W'. split.
  - destruct (propose_ex scale PS step X Y P LX LY) as (T&LT&HT). destruct (density_ex ranges X step T G WD P LR LX LT) as (d&D&D0).
    destruct (accept_exists _ _ _ _ W W') as (p&HP). exists (d / volume scale step * p). split; [|exists (d / volume scale step), p; split; [exists T, d; auto|auto]].
    apply Rmult_le_pos; [|apply HP]. apply Rmult_le_pos; auto. left. apply Rinv_0_lt_compat, volume_pos; auto.
  - destruct (room_ex ranges X step G WD P LR LX) as (z&Z&Z0). eauto.
Qed.

(** ** The samples are one chain
    After the burn-in all iterations use one scale factor: each takes the proposal with the acceptance of line 117, or stays. *)
Lemma tune_pos acc rej scale : 0 < scale -> 0 < tune acc rej scale.
Proof. intros H. unfold tune. repeat match goal with |- context [if ?b then _ else _] => destruct b end; lra. Qed.
Lemma iterate_scale lp step burn draws m i : 0 < m_scale m -> 0 < m_scale (iterate lp step burn draws m i).
Proof. intros H. unfold iterate. destruct (burn <? Z.of_nat i)%Z; [exact H|]. destruct (Nat.ltb 100 i && _); [apply tune_pos; exact H|exact H]. Qed.
Theorem C66_chain lp start step burn draws : (forall i, d_prior (draws i) = []) ->
  let state n := run_loop lp step burn draws (start_state lp start []) (seq 0 n) in
  exists scale, 0 < scale /\ forall n, (burn < Z.of_nat n)%Z ->
    let next := propose scale (m_pos (state n)) step (d_t (draws n)) in
    m_pos (state (S n)) = if accepts (lp next) (lp (m_pos (state n))) (d_r (draws n)) then next else m_pos (state n).
Proof.
  intros NP state.
  assert (ST : forall n, state (S n) = iterate lp step burn draws (state n) n).
  { intros n. unfold state. rewrite seq_S, loop_app. reflexivity. }
  assert (SP : forall n, 0 < m_scale (state n)).
  { induction n; [simpl; lra|]. rewrite ST. apply iterate_scale; auto. }
  assert (PR : forall n, m_prob (state n) = lp (m_pos (state n))).
  { induction n; [simpl; rewrite app_nil_r; reflexivity|]. rewrite ST.
    destruct (iterate_pos lp step burn draws (state n) n) as [(_&Q&Q')|(_&Q&Q')]; rewrite Q, Q'; auto. rewrite NP, app_nil_r. reflexivity. }
  set (n0 := Z.to_nat (burn + 1)). exists (m_scale (state n0)). split; auto. intros n Hn.
  assert (SC' : m_scale (state n) = m_scale (state n0)).
  { assert (forall j, m_scale (state (n0 + j)%nat) = m_scale (state n0)) as SJ.
    { induction j as [|j IH]; [f_equal; f_equal; lia|]. rewrite Nat.add_succ_r, ST, <- IH. unfold iterate.
      destruct (Z.ltb_spec burn (Z.of_nat (n0 + j))); [reflexivity|unfold n0 in *; lia]. }
    replace n with (n0 + (n - n0))%nat by (unfold n0; lia). apply SJ. }
  cbv zeta. rewrite <- SC', ST.
  destruct (iterate_pos lp step burn draws (state n) n) as [(A&Q&_)|(A&Q&_)]; rewrite NP, app_nil_r, PR in A; rewrite A; exact Q.
Qed.

(** ** Refutations *)
Definition flat_lp (l : list num) : num := Fin 0.
Lemma flat_weight l : weight (flat_lp l) 1.
Proof. left. exists 0. split; [apply rep_Fin|]. symmetry. apply exp_0. Qed.
Lemma unit_good : good_range (Fin 0, Fin 1).
Proof. split; left; eexists; apply rep_Fin. Qed.
Lemma unit_inside x : 0 <= x <= 1 -> inside (Fin 0) (Fin 1) (Fin x).
Proof. intros H. split; apply (nleb_rep _ _ _ _ (rep_Fin _) (rep_Fin _)); lra. Qed.
Lemma unit_wide : wide (Fin 0, Fin 1).
Proof. exists 0, 1. split; [lra|]. split; apply unit_inside; lra. Qed.
Lemma mass_bounds lo hi x m : lo <= hi -> mass ((Fin lo - Fin x) / Fin 1)%num ((Fin hi - Fin x) / Fin 1)%num m -> area (lo - x) (hi - x) m.
Proof.
  intros L M. apply mass_area; [lra|].
  assert (B : forall t, between ((Fin lo - Fin x) / Fin 1)%num ((Fin hi - Fin x) / Fin 1)%num t <-> between (Fin (lo - x)) (Fin (hi - x)) t).
  { intros t. rewrite between_inside, between_fin; [|split; left; eexists; apply rep_Fin|lra]. unfold inside.
    rewrite (nleb_rep _ _ _ _ (rep_Fin lo) (rep_Fin (x + 1 * t))), (nleb_rep _ _ _ _ (rep_Fin (x + 1 * t)) (rep_Fin hi)). split; intros; lra. }
  destruct M as (M1&M2). split.
  - intros v (a&b&AB&IA&IB&V). apply M1. exists a, b. rewrite !B. auto.
  - intros u U. apply M2. intros v (a&b&AB&IA&IB&V). apply U. exists a, b. rewrite B in IA, IB. auto.
Qed.
(** There is less room at a border: between 0 and 1 seen from 0 and from 1/2. *)
Lemma less_room z z' : area 0 1 z -> area (-(1/2)) (1/2) z' -> z < z'.
Proof.
  intros A A'. destruct (area_ex 0 (1/2)) as (a&HA); [lra|]. destruct (area_ex (1/2) (3/4)) as (b&HB); [lra|].
  destruct (area_ex (3/4) 1) as (c&HC); [lra|]. destruct (area_ex (-(1/2)) 0) as (d&HD); [lra|].
  rewrite (area_unique _ _ _ _ A (area_chasles _ _ _ _ _ HA (area_chasles _ _ _ _ _ HB HC))).
  rewrite (area_unique _ _ _ _ A' (area_chasles _ _ _ _ _ HD HA)).
  destruct (area_bounds (1/2) (3/4) b 0 (bump (1/2)) ltac:(lra) HB) as (_&B2).
  { intros t T. split; [left; apply bump_pos|]. apply bump_le. nra. }
  destruct (area_bounds (3/4) 1 c 0 (bump (3/4)) ltac:(lra) HC) as (_&C2).
  { intros t T. split; [left; apply bump_pos|]. apply bump_le. nra. }
  destruct (area_bounds (-(1/2)) 0 d (bump (1/2)) 1 ltac:(lra) HD) as (D1&_).
  { intros t T. split; [|unfold bump; rewrite <- exp_0; destruct (Req_dec (- (t * t) / 2) 0) as [-> |N]; [lra|left; apply exp_increasing; nra]]. apply bump_le. nra. }
  assert (bump (3/4) < bump (1/2)) by (apply exp_increasing; lra). lra.
Qed.
(** With ranges the density of getLogProb itself is not balanced. *)
Theorem C66_bounded_refuted : exists lp ranges step X Y k k' w w', Forall (fun s => 0 < s) step /\ Forall good_range ranges /\ Forall wide ranges /\
  all_inside ranges (map Fin X) /\ all_inside ranges (map Fin Y) /\ weight (lp (map Fin X)) w /\ weight (lp (map Fin Y)) w' /\
  transition lp 1 ranges step X Y k /\ transition lp 1 ranges step Y X k' /\ w * k <> w' * k'.
Proof.
  assert (G : Forall good_range [(Fin 0, Fin 1)]) by (constructor; [apply unit_good|constructor]).
  assert (WD : Forall wide [(Fin 0, Fin 1)]) by (constructor; [apply unit_wide|constructor]).
  assert (P : Forall (fun s => 0 < s) [1]) by (repeat constructor; lra).
  assert (I0 : all_inside [(Fin 0, Fin 1)] (map Fin [0])) by (split; [apply unit_inside; lra|exact I]).
  assert (I1 : all_inside [(Fin 0, Fin 1)] (map Fin [1/2])) by (split; [apply unit_inside; lra|exact I]).
  assert (TR : forall x y, 0 <= x <= 1 -> 0 <= y <= 1 -> exists k, 0 < k /\ transition flat_lp 1 [(Fin 0, Fin 1)] [1] [x] [y] k).
  { intros x y Hx Hy. destruct (wide_point (Fin 0) (Fin 1) x 1 unit_good unit_wide ltac:(lra)) as (a&b&AB&IA&IB).
    destruct (mass_exists _ _ a IA) as (m&M). pose proof (wide_mass _ _ x 1 m unit_good unit_wide ltac:(lra) M) as MP.
    destruct (accept_exists _ _ _ _ (flat_weight [Fin x]) (flat_weight [Fin y])) as (p&HP).
    assert (p = 1) as E. { pose proof (accept_weight _ _ _ _ _ (flat_weight _) (flat_weight _) HP) as E. rewrite Rmin_left in E by lra. lra. }
    exists (bump (y - x) / m * 1 / (1 * 1 * 1) * p). split.
    - rewrite E. replace (bump (y - x) / m * 1 / (1 * 1 * 1) * 1) with (bump (y - x) * / m) by (field; lra).
      apply Rmult_lt_0_compat; [apply bump_pos|apply Rinv_0_lt_compat; auto].
    - exists (bump (y - x) / m * 1 / (1 * 1 * 1)), p. split; [|split; [exact HP|reflexivity]].
      exists [y - x], (bump (y - x) / m * 1). split; [|split; [|reflexivity]].
      + cbn [map propose]. constructor; [|constructor]. replace y with (x + 1 * 1 * (y - x)) at 2 by ring.
        apply rep_add; [apply rep_Fin|]. apply rep_mul; [|apply rep_Fin]. apply rep_mul; apply rep_Fin.
      + constructor; [|constructor]. exists m. split; [exact M|left]. split; [|reflexivity].
        apply between_inside; [apply unit_good|lra|]. apply unit_inside. lra. }
  destruct (TR 0 (1/2)) as (k&K&TK); [lra|lra|]. destruct (TR (1/2) 0) as (k'&K'&TK'); [lra|lra|].
  exists flat_lp, [(Fin 0, Fin 1)], [1], [0], [1/2], k, k', 1, 1.
  repeat (split; [solve [auto | apply flat_weight]|]).
  destruct (room_ex [(Fin 0, Fin 1)] [0] [1] G WD P eq_refl eq_refl) as (z&Z&Z0).
  destruct (room_ex [(Fin 0, Fin 1)] [1/2] [1] G WD P eq_refl eq_refl) as (z'&Z'&Z0').
  pose proof (C66_bounded flat_lp _ _ _ _ _ _ 1 1 _ _ P G WD I0 I1 (flat_weight _) (flat_weight _) Z Z' TK TK') as B.
  assert (z < z').
  { inversion Z as [|? ? ? ? m ? ? ? e M RE]; subst. inversion RE; subst. inversion Z' as [|? ? ? ? m' ? ? ? e' M' RE']; subst. inversion RE'; subst.
    apply mass_bounds in M; [|lra]. apply mass_bounds in M'; [|lra]. replace (0 - 0) with 0 in M by lra. replace (1 - 0) with 1 in M by lra.
    replace (0 - 1/2) with (-(1/2)) in M' by lra. replace (1 - 1/2) with (1/2) in M' by lra. pose proof (less_room _ _ M M'). lra. }
  intros E. rewrite !Rmult_1_l in E. rewrite <- E, !Rmult_1_l in B. apply Rmult_eq_reg_r in B; lra.
Qed.

(** A scale factor other than 1 (line 108 does not divide the bounds by it) breaks more: there are positions that
    are left and never come back, so that the chain balances no positive density at all. *)
Theorem C66_tuned_refuted : exists lp ranges step scale X Y k k', Forall (fun s => 0 < s) step /\ Forall good_range ranges /\ Forall wide ranges /\
  all_inside ranges (map Fin X) /\ all_inside ranges (map Fin Y) /\ (exists acc rej, scale = tune acc rej 1) /\
  transition lp scale ranges step X Y k /\ transition lp scale ranges step Y X k' /\ forall w w', 0 < w -> 0 < w' -> w * k <> w' * k'.
Proof.
  assert (G : Forall good_range [(Fin 0, Fin 1)]) by (constructor; [apply unit_good|constructor]).
  assert (WD : Forall wide [(Fin 0, Fin 1)]) by (constructor; [apply unit_wide|constructor]).
  assert (M : forall x, exists m, 0 < m /\ mass ((Fin 0 - Fin x) / Fin 1)%num ((Fin 1 - Fin x) / Fin 1)%num m).
  { intros x. destruct (wide_point (Fin 0) (Fin 1) x 1 unit_good unit_wide ltac:(lra)) as (a&b&AB&IA&IB).
    destruct (mass_exists _ _ a IA) as (m&M). exists m. split; auto. apply (wide_mass _ _ x 1 m unit_good unit_wide ltac:(lra) M). }
  destruct (M 0) as (m&MP&MM). destruct (M (1/2)) as (m'&MP'&MM').
  exists flat_lp, [(Fin 0, Fin 1)], [1], (1/2), [0], [1/2], (bump 1 / m * 1 / (1/2 * 1 * 1) * 1), (0 * 1 / (1/2 * 1 * 1) * 1).
  assert (HP : accept_prob (Fin 0) (Fin 0) 1).
  { split; [lra|]. intros u r _ Hr. split; [lra|]. intros _. apply accepts_same. }
  split; [repeat constructor; lra|]. split; [exact G|]. split; [exact WD|].
  split; [split; [apply unit_inside; lra|exact I]|]. split; [split; [apply unit_inside; lra|exact I]|].
  split; [|split; [|split]].
  - exists 4%nat, 96%nat. unfold tune. replace (INR 4 / INR (4 + 96)) with (4/100) by (simpl; field).
    rewrite Rltb_false by lra. rewrite Rltb_true by lra. lra.
  - exists (bump 1 / m * 1 / (1/2 * 1 * 1)), 1. split; [|split; [exact HP|reflexivity]].
    exists [1], (bump 1 / m * 1). split; [|split; [|reflexivity]].
    + cbn [map propose]. constructor; [|constructor]. replace (1/2) with (0 + 1/2 * 1 * 1) at 2 by lra.
      apply rep_add; [apply rep_Fin|]. apply rep_mul; [|apply rep_Fin]. apply rep_mul; apply rep_Fin.
    + constructor; [|constructor]. exists m. split; [exact MM|left]. split; [|reflexivity].
      apply between_inside; [apply unit_good|lra|]. apply unit_inside. lra.
  - exists (0 * 1 / (1/2 * 1 * 1)), 1. split; [|split; [exact HP|reflexivity]].
    exists [-1], (0 * 1). split; [|split; [|reflexivity]].
    + cbn [map propose]. constructor; [|constructor]. replace 0 with (1/2 + 1/2 * 1 * -1) by lra.
      apply rep_add; [apply rep_Fin|]. apply rep_mul; [|apply rep_Fin]. apply rep_mul; apply rep_Fin.
    + constructor; [|constructor]. exists m'. split; [exact MM'|right]. split; [|reflexivity].
      intros C. apply between_inside in C; [|apply unit_good|lra]. destruct C as (C&_).
      apply (nleb_rep _ _ _ _ (rep_Fin _) (rep_Fin _)) in C. lra.
  - intros w w' W W'. replace (w' * (0 * 1 / (1/2 * 1 * 1) * 1)) with 0 by field.
    assert (0 < bump 1 / m * 1 / (1/2 * 1 * 1) * 1).
    { replace (bump 1 / m * 1 / (1/2 * 1 * 1) * 1) with (2 * bump 1 * / m) by (field; lra).
      apply Rmult_lt_0_compat; [pose proof (bump_pos 1); lra|apply Rinv_0_lt_compat; auto]. }
    apply Rgt_not_eq. apply Rmult_lt_0_compat; auto.
Qed.

(** ** Examples *)
(** Two free parameters, the bell curve around (1, 2) as probability, from (0, 0) to (1, 2): the transitions exist and balance. *)
Example C66_unbounded_example :
  let lp := fun l => match l with [Fin x; Fin y] => Fin (- ((x - 1)² + (y - 2)²) / 2) | _ => NInf end in
  let ranges := [(NInf, PInf); (NInf, PInf)] in let X := [0; 0] in let Y := [1; 2] in let step := [1; 1/2] in
  0 < 3 /\ Forall (fun s => 0 < s) step /\ Forall unbounded ranges /\ weight (lp (map Fin X)) (exp (- (5/2))) /\ weight (lp (map Fin Y)) 1 /\
  exists k k', transition lp 3 ranges step X Y k /\ transition lp 3 ranges step Y X k' /\ exp (- (5/2)) * k = 1 * k'.
Proof.
  intros lp ranges X Y step.
  assert (P : Forall (fun s => 0 < s) step) by (repeat constructor; lra).
  assert (U : Forall unbounded ranges) by (repeat constructor).
  assert (W : weight (lp (map Fin X)) (exp (- (5/2)))).
  { left. exists (- (5/2)). split; [|reflexivity]. cbn [lp map X]. replace (- ((0 - 1)² + (0 - 2)²) / 2) with (- (5/2)) by (unfold Rsqr; lra). apply rep_Fin. }
  assert (W' : weight (lp (map Fin Y)) 1).
  { left. exists 0. split; [|symmetry; apply exp_0]. cbn [lp map Y]. replace (- ((1 - 1)² + (2 - 2)²) / 2) with 0 by (unfold Rsqr; lra). apply rep_Fin. }
  assert (G : Forall good_range ranges) by (constructor; [|constructor; [|constructor]]; split; right; reflexivity).
  assert (WD : Forall wide ranges).
  { constructor; [|constructor; [|constructor]]; exists 0, 1; (split; [lra|]); split; split; reflexivity. }
  destruct (C66_defined lp 3 ranges step X Y _ _ ltac:(lra) P G WD eq_refl eq_refl eq_refl W W') as ((k&_&K)&_).
  destruct (C66_defined lp 3 ranges step Y X _ _ ltac:(lra) P G WD eq_refl eq_refl eq_refl W' W) as ((k'&_&K')&_).
  split; [lra|]. split; [exact P|]. split; [exact U|]. split; [exact W|]. split; [exact W'|]. exists k, k'. split; [exact K|]. split; [exact K'|].
  exact (C66_unbounded lp 3 ranges step X Y k k' _ _ ltac:(lra) P U W W' K K').
Qed.
(** A parameter between 0 and 1 and a free one with a flat probability: the rooms are different at (0, 5) and (1/2, 5). *)
Example C66_bounded_example :
  let ranges := [(Fin 0, Fin 1); (NInf, PInf)] in let X := [0; 5] in let Y := [1/2; 5] in let step := [1; 1] in
  Forall (fun s => 0 < s) step /\ Forall good_range ranges /\ Forall wide ranges /\ all_inside ranges (map Fin X) /\ all_inside ranges (map Fin Y) /\
  exists k k' z z', room ranges X step z /\ room ranges Y step z' /\ transition flat_lp 1 ranges step X Y k /\ transition flat_lp 1 ranges step Y X k' /\
    0 < z < z' /\ z * k = z' * k'.
Proof.
  intros ranges X Y step.
  assert (P : Forall (fun s => 0 < s) step) by (repeat constructor; lra).
  assert (G : Forall good_range ranges) by (constructor; [apply unit_good|constructor; [|constructor]]; split; right; reflexivity).
  assert (WD : Forall wide ranges).
  { constructor; [apply unit_wide|constructor; [|constructor]]; exists 0, 1; (split; [lra|]); split; split; reflexivity. }
  assert (I0 : all_inside ranges (map Fin X)) by (split; [apply unit_inside; lra|split; [split; reflexivity|exact I]]).
  assert (I1 : all_inside ranges (map Fin Y)) by (split; [apply unit_inside; lra|split; [split; reflexivity|exact I]]).
  destruct (C66_defined flat_lp 1 ranges step X Y 1 1 ltac:(lra) P G WD eq_refl eq_refl eq_refl (flat_weight _) (flat_weight _)) as ((k&_&K)&(z&ZP&Z)).
  destruct (C66_defined flat_lp 1 ranges step Y X 1 1 ltac:(lra) P G WD eq_refl eq_refl eq_refl (flat_weight _) (flat_weight _)) as ((k'&_&K')&(z'&ZP'&Z')).
  repeat (split; [assumption|]). exists k, k', z, z'. repeat (split; [assumption|]). split.
  - split; [exact ZP|]. inversion Z as [|? ? ? ? m ? ? ? e M RE]; subst. inversion RE as [|? ? ? ? n ? ? ? f N RF]; subst. inversion RF; subst.
    inversion Z' as [|? ? ? ? m' ? ? ? e' M' RE']; subst. inversion RE' as [|? ? ? ? n' ? ? ? f' N' RF']; subst. inversion RF'; subst.
    rewrite (mass_unique _ _ _ _ N' N) in *. pose proof (wide_mass NInf PInf 5 1 n ltac:(split; right; reflexivity) ltac:(exists 0, 1; split; [lra|split; split; reflexivity]) ltac:(lra) N).
    apply mass_bounds in M; [|lra]. apply mass_bounds in M'; [|lra]. replace (0 - 0) with 0 in M by lra. replace (1 - 0) with 1 in M by lra.
    replace (0 - 1/2) with (-(1/2)) in M' by lra. replace (1 - 1/2) with (1/2) in M' by lra. pose proof (less_room _ _ M M'). nra.
  - pose proof (C66_bounded flat_lp ranges step X Y k k' 1 1 z z' P G WD I0 I1 (flat_weight _) (flat_weight _) Z Z' K K'). lra.
Qed.
(** The chain of C66_chain moves: with a flat probability each draw of 1 moves the position by 1. *)
Example C66_chain_example :
  let draws := fun _ : nat => Draw [] [Fin 1] (Fin (1/2)) in
  let state n := run_loop flat_lp [Fin 1] 0 draws (start_state flat_lp [Fin 0] []) (seq 0 n) in
  (forall i, d_prior (draws i) = []) /\ Forall2 rep (m_pos (state 1%nat)) [1] /\ Forall2 rep (m_pos (state 2%nat)) [2].
Proof.
  intros draws state. split; [reflexivity|].
  assert (M : forall m i x, m_prob m = Fin 0 -> m_scale m = 1 -> (i < 100)%nat -> Forall2 rep (m_pos m) [x] ->
    let m' := iterate flat_lp [Fin 1] 0 draws m i in m_prob m' = Fin 0 /\ m_scale m' = 1 /\ Forall2 rep (m_pos m') [x + 1]).
  { intros m i x Q S1 L HX. cbv zeta. split; [|split].
    - destruct (iterate_pos flat_lp [Fin 1] 0 draws m i) as [(_&_&E)|(_&_&E)]; rewrite E; auto.
    - unfold iterate. destruct (0 <? Z.of_nat i)%Z; [exact S1|]. destruct (Nat.ltb_spec 100 i); [lia|exact S1].
    - destruct (iterate_pos flat_lp [Fin 1] 0 draws m i) as [(_&E&_)|(A&_&_)].
      + rewrite E, S1. inversion HX as [|p ? ps ? HP F]; subst. inversion F; subst. cbn [propose draws d_t]. constructor; [|constructor].
        replace (x + 1) with (x + 1 * 1 * 1) by ring. apply rep_add; [exact HP|]. apply rep_mul; [|apply rep_Fin]. apply rep_mul; apply rep_Fin.
      + rewrite Q in A. unfold flat_lp in A. rewrite accepts_same in A. discriminate. }
  destruct (M (start_state flat_lp [Fin 0] []) 0%nat 0 eq_refl eq_refl ltac:(lia)) as (Q1&S1&P1); [repeat constructor|].
  destruct (M _ 1%nat (0 + 1) Q1 S1 ltac:(lia) P1) as (_&_&P2).
  replace (0 + 1) with 1 in P1 by ring. replace (0 + 1 + 1) with 2 in P2 by ring. split; [exact P1|exact P2].
Qed.
Print Assumptions C66_unbounded.
Print Assumptions C66_bounded.
Print Assumptions C66_defined.
Print Assumptions C66_chain.
Print Assumptions C66_bounded_refuted.
Print Assumptions C66_tuned_refuted.
