(** * Property C51: the image border and the cone of a camera *)
Require Import Reals Lra Psatz List Bool ZArith Arith Lia.
From Verif Require Import Num Vec Orientation OrientationFacts Projection ProjectionFacts Ray CameraTransform CameraFacts PropCamera Scene PropScene Border.
Import ListNotations.
Open Scope R_scope.

(** ** Specification *)
(** The point reached after walking the length s around the rectangle [0,W] x [0,H] from (0, 0): first along
    x = 0, then y = H, then x = W, then y = 0. *)
Definition walk (W H s : R) : v2 R :=
  if Rlt_dec s H then V2 0 s
  else if Rlt_dec s (H + W) then V2 (s - H) H
  else if Rlt_dec s (2 * H + W) then V2 W (H - (s - H - W))
  else V2 (W - (s - 2 * H - W)) 0.
(** Positions in increasing order, neighbours at most r apart, and so is the last one from the end. *)
Fixpoint chain (r e : R) (S : list R) : Prop :=
  match S with
  | [] => True
  | a :: t => 0 < (match t with [] => e | b :: _ => b end) - a <= r /\ chain r e t
  end.
Definition on_border (W H : R) (p : v2 R) : Prop :=
  0 <= c1 p <= W /\ 0 <= c2 p <= H /\ (c1 p = 0 \/ c1 p = W \/ c2 p = 0 \/ c2 p = H).

(** ** Facts *)
Lemma walk_on_border W H s : 0 < W -> 0 < H -> 0 <= s < 2 * (W + H) -> on_border W H (walk W H s).
Proof.
  intros HW HH HS. unfold walk, on_border. destruct (Rlt_dec s H); [cbn; lra|]. destruct (Rlt_dec s (H + W)); [cbn; lra|].
  destruct (Rlt_dec s (2 * H + W)); cbn; lra.
Qed.
Lemma walk_inj W H s t : 0 < W -> 0 < H -> 0 <= s < 2 * (W + H) -> 0 <= t < 2 * (W + H) -> walk W H s = walk W H t -> s = t.
Proof.
  intros HW HH HS HT. unfold walk.
  destruct (Rlt_dec s H), (Rlt_dec t H); try destruct (Rlt_dec s (H + W)); try destruct (Rlt_dec t (H + W));
    try destruct (Rlt_dec s (2 * H + W)); try destruct (Rlt_dec t (2 * H + W)); intros E; injection E; intros; lra.
Qed.
Definition between (p q : v2 R) : R := Rabs (c1 p - c1 q) + Rabs (c2 p - c2 q).
Lemma walk_short W H s t : 0 < W -> 0 < H -> 0 <= s <= t -> t <= 2 * (W + H) -> between (walk W H s) (walk W H t) <= t - s.
Proof.
  intros HW HH HS HT. unfold walk, between.
  destruct (Rlt_dec s H), (Rlt_dec t H); try destruct (Rlt_dec s (H + W)); try destruct (Rlt_dec t (H + W));
    try destruct (Rlt_dec s (2 * H + W)); try destruct (Rlt_dec t (2 * H + W)); cbn [c1 c2]; try lra;
    unfold Rabs; repeat destruct (Rcase_abs _); lra.
Qed.
Definition nextp (S : list R) (e : R) : R := match S with [] => e | b :: _ => b end.
Definition block (a r : R) (k n : nat) : list R := map (fun i => a + INR i * r) (seq k n).
Lemma block_chain r e a L T n : forall k, nextp T e = a + L -> chain r e T -> (0 < n)%nat ->
  (INR (k + n) - 1) * r < L <= INR (k + n) * r -> chain r e (block a r k n ++ T).
Proof.
  induction n as [|n IH]; intros k HN HT Hn HL; [lia|].
  unfold block in *. cbn [seq map app chain]. destruct n as [|n].
  - cbn [seq map app]. split; auto. fold (nextp T e). rewrite HN. rewrite plus_INR in HL. change (INR 1) with 1 in HL. lra.
  - split.
    + cbn [seq map app]. rewrite S_INR. assert (0 < r) by nra. lra.
    + apply (IH (S k)); auto; [lia|]. rewrite <- plus_n_Sm in HL. exact HL.
Qed.
Lemma chain_bounds r e S : chain r e S -> forall x, In x S -> nextp S e <= x < e.
Proof.
  induction S as [|a t IH]; intros C x I; [contradiction|]. destruct C as (G&C). fold (nextp t e) in G. cbn [nextp].
  assert (N : nextp t e <= e). { destruct t as [|b t]; [cbn; lra|]. specialize (IH C b (or_introl eq_refl)). cbn in *. lra. }
  destruct I as [<-|I]; [lra|]. specialize (IH C x I). lra.
Qed.
Lemma chain_nodup r e S : chain r e S -> NoDup S.
Proof.
  induction S as [|a t IH]; intros C; [constructor|]. destruct C as (G&C). constructor; auto.
  intros I. apply (chain_bounds r e t C) in I. fold (nextp t e) in G. lra.
Qed.
Lemma NoDup_map_on A B (f : A -> B) l : (forall x y, In x l -> In y l -> f x = f y -> x = y) -> NoDup l -> NoDup (map f l).
Proof.
  intros HI. induction 1 as [|a l NI ND IH]; [constructor|]. cbn. constructor.
  - rewrite in_map_iff. intros (x&E&I). apply NI. rewrite <- (HI x a); auto; [right; auto|left; auto].
  - apply IH. intros x y Ix Iy. apply HI; right; auto.
Qed.
Lemma floor_is x z : IZR z <= x < IZR z + 1 -> Rfloor x = z.
Proof.
  intros B. pose proof (Rfloor_bounds x). assert (z < Rfloor x + 1)%Z by (apply lt_IZR; rewrite plus_IZR; simpl; lra).
  assert (Rfloor x < z + 1)%Z by (apply lt_IZR; rewrite plus_IZR; simpl; lra). lia.
Qed.
Lemma ceil_bounds x : 0 < x -> let n := Z.to_nat (- Rfloor (- x)) in (0 < n)%nat /\ INR n - 1 < x <= INR n.
Proof.
  intros HX n. pose proof (Rfloor_bounds (- x)) as B. set (z := Rfloor (- x)) in *.
  assert (ZP : (0 < - z)%Z). { apply lt_IZR. rewrite opp_IZR. simpl. lra. }
  assert (E : INR n = - IZR z). { unfold n. rewrite INR_IZR_INZ, Z2Nat.id by lia. apply opp_IZR. }
  split; [unfold n; lia|]. rewrite E. lra.
Qed.
Lemma arange_up h H r R0 : rep h H -> rep r R0 -> 0 < H -> 0 < R0 ->
  exists n, arange (Fin 0) h r = Some (map (fun i => Fin (0 + INR i * R0)) (seq 0 n)) /\ (0 < n)%nat /\ (INR n - 1) * R0 < H <= INR n * R0.
Proof.
  intros HH HR P1 P2. unfold arange. cbn [toR]. unfold rep in *. rewrite HH, HR. rewrite Reqb_false by lra.
  destruct (ceil_bounds ((H - 0) / R0)) as (N&B). { apply Rdiv_lt_0_compat; lra. }
  eexists. split; [reflexivity|]. split; [exact N|]. revert B. generalize (INR (Z.to_nat (- Rfloor (- ((H - 0) / R0))))). intros x B.
  assert (E : H = (H - 0) / R0 * R0) by (field; lra). revert E B. generalize ((H - 0) / R0). intros q -> B. split; [apply Rmult_lt_compat_r|apply Rmult_le_compat_r]; lra.
Qed.
Lemma arange_down h H r R0 : rep h H -> rep r R0 -> 0 < H -> 0 < R0 ->
  exists n, arange h (Fin 0) (- r)%num = Some (map (fun i => Fin (H + INR i * - R0)) (seq 0 n)) /\ (0 < n)%nat /\ (INR n - 1) * R0 < H <= INR n * R0.
Proof.
  intros HH HR P1 P2. apply rep_neg in HR. unfold arange. cbn [toR]. unfold rep in *. rewrite HH, HR. rewrite Reqb_false by lra.
  replace ((0 - H) / - R0) with (H / R0) by (field; lra).
  destruct (ceil_bounds (H / R0)) as (N&B). { apply Rdiv_lt_0_compat; lra. }
  eexists. split; [reflexivity|]. split; [exact N|]. revert B. generalize (INR (Z.to_nat (- Rfloor (- (H / R0))))). intros x B.
  assert (E : H = H / R0 * R0) by (field; lra). revert E B. generalize (H / R0). intros q E B. rewrite E. split; [apply Rmult_lt_compat_r|apply Rmult_le_compat_r]; lra.
Qed.
Lemma blocks_same n m r L : (0 < n)%nat -> (0 < m)%nat -> 0 < r -> (INR n - 1) * r < L <= INR n * r -> (INR m - 1) * r < L <= INR m * r -> n = m.
Proof.
  intros N M HR A B. assert (INR n - 1 < INR m) by nra. assert (INR m - 1 < INR n) by nra.
  assert (n < m + 1)%nat by (apply INR_lt; rewrite plus_INR; simpl; lra). assert (m < n + 1)%nat by (apply INR_lt; rewrite plus_INR; simpl; lra). lia.
Qed.
Lemma Forall2_map_both A B C (P : B -> C -> Prop) (f : A -> B) (g : A -> C) l : (forall x, In x l -> P (f x) (g x)) -> Forall2 P (map f l) (map g l).
Proof. induction l as [|a l IH]; intros H; constructor; [apply H; left; auto|]. apply IH. intros x I. apply H. right; auto. Qed.
Lemma block_in a r n i : In i (seq 0 n) -> 0 < r -> (INR n - 1) * r < a -> 0 <= INR i * r < a.
Proof.
  intros I HR HA. apply in_seq in I. assert (INR i + 1 <= INR n). { rewrite <- S_INR. apply le_INR. lia. }
  pose proof (pos_INR i). split; nra.
Qed.

(** ** C51: the border *)
(** The points, in order, are the points of a walk around the image: every position once, neighbours (also the
    last and the first) at most the resolution apart, and the four corners are among them. *)
Theorem C51_border : forall w h r W H Rs, rep w W -> rep h H -> rep r Rs -> 0 < W -> 0 < H -> 0 < Rs ->
  exists border S, getImageBorder w h r = Some border /\ Forall2 rep2 border (map (walk W H) S) /\
    hd 0 S = 0 /\ chain Rs (2 * (W + H)) S /\ (forall s, In s S -> 0 <= s < 2 * (W + H)) /\
    NoDup (map (walk W H) S) /\ Forall (on_border W H) (map (walk W H) S) /\
    (forall C, In C [V2 0 0; V2 0 H; V2 W H; V2 W 0] -> In C (map (walk W H) S)).
Proof.
  intros w h r W H Rs HW HH HR PW PH PR.
  destruct (arange_up h H r Rs HH HR PH PR) as (n&E1&N1&B1). destruct (arange_up w W r Rs HW HR PW PR) as (m&E2&N2&B2).
  destruct (arange_down h H r Rs HH HR PH PR) as (n'&E3&N3&B3). destruct (arange_down w W r Rs HW HR PW PR) as (m'&E4&N4&B4).
  assert (n' = n) by (eapply blocks_same; eauto). assert (m' = m) by (eapply blocks_same; eauto). subst n' m'. clear N3 N4 B3 B4.
  set (S := block 0 Rs 0 n ++ block H Rs 0 m ++ block (H + W) Rs 0 n ++ block (2 * H + W) Rs 0 m).
  assert (FN : forall a k, (0 < k)%nat -> nextp (block a Rs 0 k) (2 * (W + H)) = a).
  { intros a [|k] K; [lia|]. cbn. lra. }
  assert (FA : forall a k T, (0 < k)%nat -> nextp (block a Rs 0 k ++ T) (2 * (W + H)) = a).
  { intros a [|k] T K; [lia|]. cbn. lra. }
  assert (CH : chain Rs (2 * (W + H)) S).
  { unfold S. apply (block_chain _ _ _ H); [rewrite FA by auto; lra| |auto|auto].
    apply (block_chain _ _ _ W); [rewrite FA by auto; lra| |auto|auto].
    apply (block_chain _ _ _ H); [rewrite FN by auto; lra| |auto|auto].
    rewrite <- (app_nil_r (block (2 * H + W) Rs 0 m)). apply (block_chain _ _ _ W); [cbn; lra|exact I|auto|auto]. }
  assert (HD : nextp S (2 * (W + H)) = 0) by (unfold S; apply FA; auto).
  assert (BD : forall s, In s S -> 0 <= s < 2 * (W + H)).
  { intros s I. apply (chain_bounds _ _ _ CH) in I. rewrite HD in I. exact I. }
  eexists _, S. split; [unfold getImageBorder; rewrite E1, E2, E3, E4; reflexivity|].
  splits; auto.
  - unfold S, block. rewrite !map_app, !map_map.
    repeat apply Forall2_app; apply Forall2_map_both; intros i I.
    + destruct (block_in H Rs n i I PR) as (I1&I2); [lra|]. unfold walk. destruct (Rlt_dec (0 + INR i * Rs) H); [|lra].
      split; reflexivity.
    + destruct (block_in W Rs m i I PR) as (I1&I2); [lra|]. unfold walk. destruct (Rlt_dec (H + INR i * Rs) H); [lra|].
      destruct (Rlt_dec (H + INR i * Rs) (H + W)); [|lra]. split; cbn [c1 c2]; [|exact HH].
      apply (rep_eq _ _ _ (rep_Fin _)). lra.
    + destruct (block_in H Rs n i I PR) as (I1&I2); [lra|]. unfold walk. destruct (Rlt_dec (H + W + INR i * Rs) H); [lra|].
      destruct (Rlt_dec (H + W + INR i * Rs) (H + W)); [lra|]. destruct (Rlt_dec (H + W + INR i * Rs) (2 * H + W)); [|lra].
      split; cbn [c1 c2]; [exact HW|]. apply (rep_eq _ _ _ (rep_Fin _)). lra.
    + destruct (block_in W Rs m i I PR) as (I1&I2); [lra|]. unfold walk. destruct (Rlt_dec (2 * H + W + INR i * Rs) H); [lra|].
      destruct (Rlt_dec (2 * H + W + INR i * Rs) (H + W)); [lra|]. destruct (Rlt_dec (2 * H + W + INR i * Rs) (2 * H + W)); [lra|].
      split; cbn [c1 c2]; [|apply rep_Fin]. apply (rep_eq _ _ _ (rep_Fin _)). lra.
  - unfold S in *. destruct n as [|n]; [lia|]. cbn. lra.
  - apply NoDup_map_on; [|eapply chain_nodup; exact CH]. intros x y Ix Iy. apply walk_inj; auto.
  - apply Forall_map. apply Forall_forall. intros s I. apply walk_on_border; auto.
  - assert (IB : forall a k, (0 < k)%nat -> In a (block a Rs 0 k)).
    { intros a [|k] K; [lia|]. left. cbn. lra. }
    assert (I0 : In 0 S) by (unfold S; rewrite !in_app_iff; auto).
    assert (I1 : In H S) by (unfold S; rewrite !in_app_iff; auto).
    assert (I2 : In (H + W) S) by (unfold S; rewrite !in_app_iff; auto).
    assert (I3 : In (2 * H + W) S) by (unfold S; rewrite !in_app_iff; auto).
    intros C IC. apply in_map_iff. cbn in IC.
    destruct IC as [<-|[<-|[<-|[<-|[]]]]].
    + exists 0. split; auto. unfold walk. destruct (Rlt_dec 0 H); [reflexivity|lra].
    + exists H. split; auto. unfold walk. destruct (Rlt_dec H H); [lra|]. destruct (Rlt_dec H (H + W)); [|lra]. f_equal; lra.
    + exists (H + W). split; auto. unfold walk. destruct (Rlt_dec (H + W) H); [lra|]. destruct (Rlt_dec (H + W) (H + W)); [lra|].
      destruct (Rlt_dec (H + W) (2 * H + W)); [|lra]. f_equal; lra.
    + exists (2 * H + W). split; auto. unfold walk. destruct (Rlt_dec (2 * H + W) H); [lra|]. destruct (Rlt_dec (2 * H + W) (H + W)); [lra|].
      destruct (Rlt_dec (2 * H + W) (2 * H + W)); [lra|]. f_equal; lra.
Qed.
Print Assumptions C51_border.

(** A walk of length d never gets further than d from where it started, so neighbouring points of the border are
    at most the resolution apart in the image. *)
Theorem C51_neighbours : forall w h r W H Rs border, rep w W -> rep h H -> rep r Rs -> 0 < W -> 0 < H -> 0 < Rs ->
  getImageBorder w h r = Some border ->
  exists points, Forall2 rep2 border points /\
    (forall i p q, nth_error points i = Some p -> nth_error points (S i) = Some q -> p <> q /\ between p q <= Rs) /\
    (forall p, nth_error points (length points - 1) = Some p -> between p (V2 0 0) <= Rs).
Proof.
  intros w h r W H Rs border HW HH HR PW PH PR E.
  destruct (C51_border w h r W H Rs HW HH HR PW PH PR) as (b&S&E'&F&HD&CH&BD&ND&_&_). rewrite E in E'. injection E' as <-.
  exists (map (walk W H) S). split; auto. split.
  - intros i p q Hp Hq. split.
    + intros <-. pose proof (proj1 (NoDup_nth_error _) ND i (Datatypes.S i)) as K.
      assert (i < length (map (walk W H) S))%nat by (apply nth_error_Some; congruence). specialize (K H0). rewrite Hp, Hq in K. specialize (K eq_refl). lia.
    + rewrite nth_error_map in Hp, Hq.
      destruct (nth_error S i) as [s|] eqn:Es; [|discriminate]. destruct (nth_error S (Datatypes.S i)) as [t|] eqn:Et; [|discriminate].
      injection Hp as <-. injection Hq as <-.
      assert (G : 0 < t - s <= Rs).
      { clear - CH Es Et. revert i Es Et. induction S as [|a l IH]; intros i Es Et; [destruct i; discriminate|].
        destruct CH as (G&CH). destruct i as [|i]; cbn in Es, Et; [|eapply IH; eauto].
        destruct l as [|b l]; [discriminate|]. cbn in Et. congruence. }
      pose proof (BD s (nth_error_In _ _ Es)). pose proof (BD t (nth_error_In _ _ Et)).
      eapply Rle_trans; [apply walk_short|]; lra.
  - intros p Hp. rewrite map_length, nth_error_map in Hp. destruct (nth_error S (length S - 1)) as [s|] eqn:Es; [|discriminate].
    injection Hp as <-.
    assert (G : 0 < 2 * (W + H) - s <= Rs).
    { clear - CH Es. induction S as [|a l IH]; [discriminate|]. destruct CH as (G&CH).
      destruct l as [|b l]. { cbn in Es. congruence. }
      apply IH; auto. cbn in *. rewrite Nat.sub_0_r. exact Es. }
    pose proof (BD s (nth_error_In _ _ Es)).
    assert (EQ : V2 0 0 = walk W H (2 * (W + H))).
    { unfold walk. repeat (destruct (Rlt_dec _ _); [lra|]). f_equal; lra. }
    rewrite EQ. eapply Rle_trans; [apply walk_short|]; lra.
Qed.
Print Assumptions C51_neighbours.
(** A negative resolution gives no point at all, the resolution zero an exception. *)
Theorem C51_resolution : forall w h r W H Rs, rep w W -> rep h H -> rep r Rs -> 0 < W -> 0 < H ->
  (Rs < 0 -> getImageBorder w h r = Some []) /\ (Rs = 0 -> getImageBorder w h r = None).
Proof.
  intros w h r W H Rs HW HH HR PW PH. pose proof (rep_neg _ _ HR) as HN. split; intros HS.
  - assert (C : forall x, x < 0 -> Z.to_nat (- Rfloor (- x)) = 0%nat).
    { intros x X. pose proof (Rfloor_bounds (- x)). assert (-1 < Rfloor (- x))%Z by (apply lt_IZR; simpl; lra). lia. }
    assert (U : forall x X, rep x X -> 0 < X -> arange (Fin 0) x r = Some []).
    { intros x X HX P. unfold arange, rep in *. cbn [toR]. rewrite HX, HR, Reqb_false by lra. rewrite C; [reflexivity|].
      unfold Rdiv; assert (/ Rs < 0) by (apply Rinv_lt_0_compat; lra); nra. }
    assert (D : forall x X, rep x X -> 0 < X -> arange x (Fin 0) (- r)%num = Some []).
    { intros x X HX P. unfold arange, rep in *. cbn [toR]. rewrite HX, HN, Reqb_false by lra. rewrite C; [reflexivity|].
      unfold Rdiv. assert (0 < / - Rs) by (apply Rinv_0_lt_compat; lra). nra. }
    unfold getImageBorder. rewrite (U h H), (U w W), (D h H), (D w W) by auto. reflexivity.
  - subst. unfold getImageBorder, arange. cbn [toR]. unfold rep in *. rewrite HH, HR. rewrite (proj2 (Reqb_iff 0 0)); auto.
Qed.
Print Assumptions C51_resolution.

(** ** C51: the cone *)
(** The segments drawn from [O] to the points among the rows [corners]. *)
Definition rays (O : v3 R) (corners : list (v3 num)) : list (v3 R * v3 R) :=
  flat_map (fun c => match point c with Some P => [(O, P)] | None => [] end) corners.
Lemma drawn_app l m : drawn (l ++ nan_row :: m) = drawn l ++ drawn m.
Proof.
  induction l as [|p l IH]; [apply drawn_nan_l|]. destruct l as [|q l].
  - cbn [app]. rewrite drawn_nan_r. reflexivity.
  - cbn [app] in *. cbn [drawn] in *. destruct (point p); [destruct (point q)|]; rewrite IH; reflexivity.
Qed.
Lemma drawn_ray o O p : rep3 o O -> drawn [o; p] = rays O [p].
Proof. intros H. cbn. rewrite (point_rep _ _ H). destruct (point p); reflexivity. Qed.
Lemma cone_loop_drawn o O border corners : rep3 o O -> Forall (fun i => i <= length border)%nat corners ->
  drawn (cone_loop o border corners) = drawn border ++ rays O (map (fun i => nth i border nan_row) corners).
Proof.
  intros HO HF.
  assert (G : forall T, T = [] \/ hd_error T = Some nan_row ->
    drawn (cone_loop o (border ++ T) corners) = drawn (border ++ T) ++ rays O (map (fun i => nth i border nan_row) corners)).
  { induction HF as [|i l Hi HF IH]; intros T HT; [cbn; rewrite app_nil_r; reflexivity|].
    assert (EN : nth i ((border ++ T) ++ [nan_row; o]) nan_row = nth i border nan_row).
    { rewrite <- app_assoc. destruct (Nat.eq_dec i (length border)) as [->|NE].
      - rewrite (nth_overflow border) by lia. rewrite app_nth2, Nat.sub_diag by lia. destruct HT as [-> | HT]; [reflexivity|].
        destruct T as [|t T]; [discriminate|]. cbn in *. congruence.
      - rewrite app_nth1 by lia. reflexivity. }
    unfold cone_loop in *. cbn [fold_left map]. rewrite EN.
    replace (((border ++ T) ++ [nan_row; o]) ++ [nth i border nan_row]) with (border ++ (T ++ [nan_row; o; nth i border nan_row]))
      by (rewrite <- !app_assoc; reflexivity).
    rewrite IH.
    - rewrite (app_assoc border T), drawn_app. rewrite (drawn_ray o O) by auto. rewrite <- app_assoc. f_equal.
      cbn. rewrite app_nil_r. reflexivity.
    - right. destruct HT as [-> | HT]; [reflexivity|]. destruct T; [discriminate|]. exact HT. }
  specialize (G [] (or_introl eq_refl)). rewrite app_nil_r in G. exact G.
Qed.
Lemma all_some_map A B (f : A -> option B) (g : A -> B) l : (forall x, In x l -> f x = Some (g x)) -> all_some (map f l) = Some (map g l).
Proof.
  induction l as [|a l IH]; intros H; [reflexivity|]. cbn. rewrite (H a) by (left; auto). rewrite IH; [reflexivity|].
  intros x I. apply H. right; auto.
Qed.
Lemma plain_origin c k r o : plain_cam c k r o -> rep3 (ray_origin c) (opos o).
Proof. intros HC. destruct (plain_good _ _ _ _ HC) as (HG&_). eapply origin_rep; eauto. Qed.

(** With a distance: four edges between the corners of the image, seen at this distance from the camera, and the
    segments from the camera to the corners (the one to the lower left corner twice). *)
Theorem C51_cone_distance : forall c k r o w h W H d D, plain_cam c k r o -> rep w W -> rep h H -> rep d D -> 0 <= D ->
  (forall Q, In Q [V2 0 0; V2 0 H; V2 W H; V2 W 0] -> in_range k r Q) ->
  exists rows P1 P2 P3 P4, cone_at_distance c w h d = Some rows /\
    drawn rows = [(P1, P2); (P2, P3); (P3, P4); (P4, P1); (opos o, P1); (opos o, P2); (opos o, P3); (opos o, P4); (opos o, P1)] /\
    Forall2 (fun P Q => rdist P (opos o) = D /\ exists p, In p rows /\ rep3 p P /\
       forall hide, tinyR <= Rabs (cz (cam_coords o P)) -> rep2 (imageFromSpace c p hide) Q)
      [P1; P2; P3; P4] [V2 0 H; V2 W H; V2 W 0; V2 0 0].
Proof.
  intros c k r o w h W H d D HC HW HH Hd HD HI.
  assert (K : forall q Q, rep2 q Q -> in_range k r Q -> exists p P, spaceFromImage c q (on_D d) = Some p /\ rep3 p P /\ rdist P (opos o) = D /\
    forall hide, tinyR <= Rabs (cz (cam_coords o P)) -> rep2 (imageFromSpace c p hide) Q).
  { intros q Q Hq HQ. destruct (C11_distance_constraint c k r o q Q d D HC Hq HQ Hd) as (p&E&_&K). destruct (K HD) as (P&HP&HP2&HP3).
    exists p, P. splits; auto. }
  destruct (K (V2 (Fin 0) h) (V2 0 H)) as (p1&P1&E1&R1&D1&I1); [split; [apply rep_Fin|exact HH]|apply HI; cbn; auto|].
  destruct (K (V2 w h) (V2 W H)) as (p2&P2&E2&R2&D2&I2); [split; assumption|apply HI; cbn; auto|].
  destruct (K (V2 w (Fin 0)) (V2 W 0)) as (p3&P3&E3&R3&D3&I3); [split; [exact HW|apply rep_Fin]|apply HI; cbn; auto|].
  destruct (K (V2 (Fin 0) (Fin 0)) (V2 0 0)) as (p4&P4&E4&R4&D4&I4); [split; apply rep_Fin|apply HI; cbn; auto|].
  exists (cone_loop (ray_origin c) [p1; p2; p3; p4; p1] [0; 1; 2; 3; 4; 5]%nat), P1, P2, P3, P4. splits.
  - unfold cone_at_distance, corner_border. cbn [map all_some]. rewrite E1, E2, E3, E4. reflexivity.
  - rewrite (cone_loop_drawn _ (opos o)); [|eapply plain_origin; eauto|repeat constructor].
    cbn [nth map]. rewrite !(drawn_step _ _ _ _ _ R1 R2), (drawn_step _ _ _ _ _ R2 R3), (drawn_step _ _ _ _ _ R3 R4), (drawn_step _ _ _ _ _ R4 R1).
    cbn. rewrite (point_rep _ _ R1), (point_rep _ _ R2), (point_rep _ _ R3), (point_rep _ _ R4). reflexivity.
  - assert (IN : forall p, In p [p1; p2; p3; p4] -> In p (cone_loop (ray_origin c) [p1; p2; p3; p4; p1] [0; 1; 2; 3; 4; 5]%nat)).
    { intros p I. cbn in I |- *. decompose [or] I; auto; contradiction. }
    constructor; [split; [exact D1|exists p1; splits; auto; apply IN; cbn; auto]|].
    constructor; [split; [exact D2|exists p2; splits; auto; apply IN; cbn; auto]|].
    constructor; [split; [exact D3|exists p3; splits; auto; apply IN; cbn; auto]|].
    constructor; [split; [exact D4|exists p4; splits; auto; apply IN; cbn; auto]|constructor].
Qed.
Print Assumptions C51_cone_distance.

(** On the ground: the outline consists of the images of the points at the whole numbers of the walk around the
    image, in order; then the segments from the camera to those corners of the image that see the ground. *)
Lemma seq_from a n : seq a n = map (fun i => (a + i)%nat) (seq 0 n).
Proof.
  induction a as [|a IH]; [rewrite map_id; reflexivity|]. rewrite <- seq_shift, IH, map_map. reflexivity.
Qed.
Lemma seq_walk A (f g : nat -> A) a n : (forall i, (i < n)%nat -> g i = f (a + i)%nat) -> map g (seq 0 n) = map f (seq a n).
Proof.
  intros H. rewrite (seq_from a n), map_map. apply map_ext_in. intros i I. apply in_seq in I. apply H. lia.
Qed.
Lemma ground_border_walk w h : (0 < w)%nat -> (0 < h)%nat ->
  fst (ground_border w h) = map (fun i => fin2 (walk (INR w) (INR h) (INR i))) (seq 0 (2 * (w + h))) /\
  snd (ground_border w h) = [0; h; h + w; 2 * h + w; 2 * (w + h)]%nat.
Proof.
  intros PW PH. unfold ground_border. cbn [fst snd]. rewrite !app_length, !map_length, !seq_length.
  split; [|f_equal; f_equal; f_equal; f_equal; [lia|f_equal; lia]].
  replace (2 * (w + h))%nat with (h + (w + (h + w)))%nat by lia.
  rewrite !seq_app, !map_app, <- !app_assoc. cbn [Nat.add].
  assert (LI : forall a b, (a < b)%nat -> INR a < INR b) by (intros; apply lt_INR; auto).
  assert (LE : forall a, 0 <= INR a) by (intros; apply pos_INR).
  f_equal; [|f_equal; [|f_equal]]; apply seq_walk; intros i I; unfold fin2, walk, nn; rewrite ?plus_INR;
    pose proof (LI _ _ I); pose proof (LE i); pose proof (LE h); pose proof (LE w).
  - destruct (Rlt_dec _ _); [unfold map2v; cbn [c1 c2 INR]; f_equal; f_equal; lra|cbn in *; lra].
  - destruct (Rlt_dec _ _); [lra|]. destruct (Rlt_dec _ _); [|lra]. unfold map2v; cbn [c1 c2]. f_equal. f_equal. lra.
  - destruct (Rlt_dec _ _); [lra|]. destruct (Rlt_dec _ _); [lra|]. destruct (Rlt_dec _ _); [|lra]. unfold map2v; cbn [c1 c2]. f_equal. f_equal.
    rewrite minus_INR by lia. lra.
  - destruct (Rlt_dec _ _); [lra|]. destruct (Rlt_dec _ _); [lra|]. destruct (Rlt_dec _ _); [lra|]. unfold map2v; cbn [c1 c2]. f_equal. f_equal.
    rewrite minus_INR by lia. lra.
Qed.
Theorem C51_cone_ground : forall c k r o w h, plain_cam c k r o -> (0 < w)%nat -> (0 < h)%nat ->
  let seen x y := spaceFromImage c (V2 (Fin x) (Fin y)) (on_Z (Fin 0)) in
  exists rows outline a1 a2 a3 a4, cone_on_ground c w h = Some rows /\
    map Some outline = map (fun i => let P := walk (INR w) (INR h) (INR i) in seen (c1 P) (c2 P)) (seq 0 (2 * (w + h))) /\
    seen 0 0 = Some a1 /\ seen 0 (INR h) = Some a2 /\ seen (INR w) (INR h) = Some a3 /\ seen (INR w) 0 = Some a4 /\
    drawn rows = drawn outline ++ rays (opos o) [a1; a2; a3; a4].
Proof.
  intros c k r o w h HC PW PH seen.
  destruct (ground_border_walk w h PW PH) as (EB&EC).
  assert (TOT : forall q, exists p, spaceFromImage c q (on_Z (Fin 0)) = Some p).
  { intros q. unfold spaceFromImage, on_Z. cbn [k_mesh k_D k_X k_Y k_Z]. eexists; reflexivity. }
  set (g := fun q => match spaceFromImage c q (on_Z (Fin 0)) with Some p => p | None => nan_row end).
  assert (HG : forall q, spaceFromImage c q (on_Z (Fin 0)) = Some (g q)).
  { intros q. unfold g. destruct (TOT q) as (p&E). rewrite E. reflexivity. }
  set (f := fun i => fin2 (walk (INR w) (INR h) (INR i))).
  set (outline := map g (map f (seq 0 (2 * (w + h))))).
  assert (LEN : length outline = (2 * (w + h))%nat) by (unfold outline; rewrite !map_length, seq_length; reflexivity).
  assert (NTH : forall i, (i < 2 * (w + h))%nat -> nth i outline nan_row = g (f i)).
  { intros i I. unfold outline. rewrite map_map. rewrite (nth_indep _ nan_row (g (f 0%nat))) by (rewrite map_length, seq_length; auto).
    rewrite (map_nth (fun x => g (f x))). rewrite seq_nth by auto. reflexivity. }
  assert (0 < INR w) by (apply lt_0_INR; auto). assert (0 < INR h) by (apply lt_0_INR; auto).
  assert (F1 : f 0%nat = V2 (Fin 0) (Fin 0)).
  { unfold f, walk. cbn [INR]. destruct (Rlt_dec _ _); [reflexivity|lra]. }
  assert (F2 : f h = V2 (Fin 0) (Fin (INR h))).
  { unfold f, walk. destruct (Rlt_dec _ _); [lra|]. destruct (Rlt_dec _ _); [|lra]. unfold fin2, map2v; cbn [c1 c2]. f_equal; f_equal; lra. }
  assert (F3 : f (h + w)%nat = V2 (Fin (INR w)) (Fin (INR h))).
  { unfold f, walk. rewrite plus_INR. destruct (Rlt_dec _ _); [lra|]. destruct (Rlt_dec _ _); [lra|]. destruct (Rlt_dec _ _); [|lra].
    unfold fin2, map2v; cbn [c1 c2]. f_equal; f_equal; lra. }
  assert (F4 : f (2 * h + w)%nat = V2 (Fin (INR w)) (Fin 0)).
  { unfold f, walk. rewrite plus_INR, mult_INR. change (INR 2) with 2. destruct (Rlt_dec _ _); [lra|]. destruct (Rlt_dec _ _); [lra|]. destruct (Rlt_dec _ _); [lra|].
    unfold fin2, map2v; cbn [c1 c2]. f_equal; f_equal; lra. }
  exists (cone_loop (ray_origin c) outline [0; h; h + w; 2 * h + w; 2 * (w + h)]%nat), outline,
    (g (f 0%nat)), (g (f h)), (g (f (h + w)%nat)), (g (f (2 * h + w)%nat)). splits.
  - unfold cone_on_ground. destruct (ground_border w h) as (b&cs). cbn [fst snd] in EB, EC. subst b cs.
    rewrite (all_some_map _ _ _ g) by auto. reflexivity.
  - unfold outline. rewrite !map_map. apply map_ext. intros i. unfold seen. rewrite <- HG. reflexivity.
  - rewrite F1. unfold seen. apply HG.
  - rewrite F2. unfold seen. apply HG.
  - rewrite F3. unfold seen. apply HG.
  - rewrite F4. unfold seen. apply HG.
  - rewrite (cone_loop_drawn _ (opos o)); [|eapply plain_origin; eauto|rewrite LEN; repeat constructor; lia].
    cbn [map]. rewrite !NTH by lia. rewrite (nth_overflow outline) by lia. reflexivity.
Qed.
Print Assumptions C51_cone_ground.

(** The docstring of getImageBorder promises coordinates in the space.  They are pixels: in the example the lower
    left pixel of the border is on the ground at another place. *)
Theorem C51_space_refuted : exists c w h res border q p P, plain_cam c Rectilinear ex_r ex_or2 /\
  getImageBorder w h res = Some border /\ In q border /\ spaceFromImage c q (on_Z (Fin 0)) = Some p /\ rep3 p P /\
  ~ rep (c1 q) (cx P).
Proof.
  destruct (ex_cam2 Rectilinear) as (c&HC).
  destruct (C51_border (Fin 4000) (Fin 3000) (Fin 1) 4000 3000 1) as (b&S&E&F&_&_&_&_&_&CO); try reflexivity; try lra.
  assert (I : In (V2 0 3000) (map (walk 4000 3000) S)) by (apply CO; cbn; auto).
  assert (XQ : exists q, In q b /\ rep2 q (V2 0 3000)).
  { clear - F I. induction F as [|a A l L HA F IH]; [contradiction|]. destruct I as [-> | I]; [exists a; split; [left|]; auto|].
    destruct (IH I) as (q&Iq&Rq). exists q. split; [right|]; auto. }
  destruct XQ as (q&Iq&Rq).
  assert (HR : in_range Rectilinear ex_r (V2 0 3000)) by exact Logic.I.
  destruct (C11_ray_starts_at_camera c Rectilinear ex_r ex_or2 q (V2 0 3000) HC Rq) as (D&_&RD&_&ED); [discriminate|].
  rewrite ex2_coords in ED. unfold rayR, alphaR, betaR, ex_r in ED. cbn [rv_add zip3v opos ex_or2 pos_x_m pos_y_m elevation_m cx cy cz c1 c2 f_x f_y center_x center_y] in ED.
  injection ED as E1 E2 E3.
  destruct (C11_axis_constraint c Rectilinear ex_r ex_or2 q (V2 0 3000) AZ (Fin 0) 0 D HC Rq HR (rep_Fin 0) RD) as (p&EP&_&K).
  { cbn [get_axis]. lra. }
  cbn [get_axis opos ex_or2 elevation_m cz] in K. destruct K as (P&RP&_&EQ&_). { assert (EZ : cz D = -(3/7)) by lra. rewrite EZ. replace ((0 - 10) / - (3 / 7)) with (70 / 3) by field. lra. }
  exists c, (Fin 4000), (Fin 3000), (Fin 1), b, q, p, P. splits; auto.
  intros B. pose proof (rep_inj _ _ _ (proj1 Rq) B) as X. cbn [c1] in X. rewrite EQ in X.
  cbn [rv_add rv_scale zip3v map3v opos ex_or2 pos_x_m cx] in X. assert (EZ : cz D = -(3/7)) by lra. rewrite EZ in X.
  replace ((0 - 10) / - (3 / 7)) with (70 / 3) in X by field. lra.
Qed.
Print Assumptions C51_space_refuted.
(** Beside the theorems: the border of a 5 x 2 image with resolution 2 (the width is no multiple of it). *)
Example C51_example : exists b, getImageBorder (Fin 5) (Fin 2) (Fin 2) = Some b /\
  Forall2 rep2 b [V2 0 0; V2 0 2; V2 2 2; V2 4 2; V2 5 2; V2 5 0; V2 3 0; V2 1 0].
Proof.
  assert (C : forall a b s n, s <> 0 -> INR n - 1 < (b - a) / s <= INR n -> arange (Fin a) (Fin b) (Fin s) = Some (map (fun i => Fin (a + INR i * s)) (seq 0 n))).
  { intros a b s n HS HN. unfold arange. cbn [toR]. rewrite Reqb_false by auto. repeat f_equal.
    assert (E : Rfloor (- ((b - a) / s)) = (- Z.of_nat n)%Z). { apply floor_is. rewrite opp_IZR, <- INR_IZR_INZ. lra. }
    rewrite E. lia. }
  unfold getImageBorder. replace (- Fin 2)%num with (Fin (- 2)) by (unfold nneg, look, mk; rewrite Reqb_false by lra; reflexivity).
  rewrite (C 0 2 2 1%nat), (C 0 5 2 3%nat), (C 2 0 (-2) 1%nat), (C 5 0 (-2) 3%nat) by (cbn [INR]; lra).
  eexists. split; [reflexivity|]. cbn [seq map app].
  repeat (constructor; [split; cbn [c1 c2 INR]; apply (rep_eq _ _ _ (rep_Fin _)); lra|]). constructor.
Qed.
Example C51_cone_example : exists c rows, plain_cam c Rectilinear ex_r ex_or2 /\ cone_at_distance c (Fin 4000) (Fin 3000) (Fin 7) = Some rows /\
  length (drawn rows) = 9%nat /\ getImageBorder (Fin 5) (Fin 2) (Fin (-1)) = Some [] /\ getImageBorder (Fin 5) (Fin 2) (Fin 0) = None /\
  exists ground, cone_on_ground c 4000 3000 = Some ground.
Proof.
  destruct (ex_cam2 Rectilinear) as (c&HC).
  destruct (C51_cone_distance c Rectilinear ex_r ex_or2 (Fin 4000) (Fin 3000) 4000 3000 (Fin 7) 7 HC) as (rows&P1&P2&P3&P4&E&L&_); try apply rep_Fin; [lra|intros; exact I|].
  exists c, rows. split; [exact HC|]. split; [exact E|]. split; [rewrite L; reflexivity|].
  destruct (C51_resolution (Fin 5) (Fin 2) (Fin (-1)) 5 2 (-1)) as (K1&_); try apply rep_Fin; try lra.
  destruct (C51_resolution (Fin 5) (Fin 2) (Fin 0) 5 2 0) as (_&K2); try apply rep_Fin; try lra.
  split; [apply K1; lra|]. split; [apply K2; lra|].
  destruct (C51_cone_ground c Rectilinear ex_r ex_or2 4000 3000 HC) as (g&_&_&_&_&_&G&_); [apply Nat.ltb_lt; vm_compute; reflexivity|apply Nat.ltb_lt; vm_compute; reflexivity|].
  exists g. exact G.
Qed.
