(** * C44: constructing a projection *)
Require Import Reals Lra Bool List.
From Verif Require Import Num Vec Projection PropProjection ProjInit.
Import ListNotations.
Open Scope R_scope.

(** ** Specification *)
(** a finite nonzero number *)
Definition fine (x : num) : Prop := exists r, rep x r /\ r <> 0.
Definition fine_o (o : option num) : Prop := match o with Some x => fine x | None => True end.
Definition fine_2 (o : option (num * num)) : Prop := match o with Some (x, y) => fine x /\ fine y | None => True end.
(** all numbers given are finite and nonzero (the centre may be anything) *)
Definition fine_args (a : args) : Prop :=
  match a_f a with Some (FNum x) => fine x | _ => True end /\
  fine_o (a_fx a) /\ fine_o (a_fy a) /\ fine_o (a_cx a) /\ fine_o (a_cy a) /\ fine_o (a_mm a) /\
  fine_o (a_w a) /\ fine_o (a_h a) /\ fine_o (a_sw a) /\ fine_o (a_sh a) /\ fine_2 (a_sensor a) /\
  match a_image a with
  | Some (ITuple w h) => fine w /\ fine h
  | Some (IArray s) => ~ In O s
  | None => True
  end /\ fine_o (a_vx a) /\ fine_o (a_vy a).
Definition absent {A} (o : option A) : Prop := o = None.
Definition present {A} (o : option A) : Prop := o <> None.
(** The argument combinations that are complete and not contradictory. *)
Record accepted (a : args) : Prop :=
  { acc_image : match a_image a with
                | Some (ITuple _ _) => absent (a_w a) /\ absent (a_h a)
                | Some (IArray s) => absent (a_w a) /\ absent (a_h a) /\ (2 <= List.length s)%nat
                | None => present (a_w a) /\ present (a_h a)
                end;
    acc_center : absent (a_center a) \/ absent (a_cx a) /\ absent (a_cy a);
    acc_sensor : absent (a_sensor a) \/ absent (a_sw a) /\ absent (a_sh a);
    acc_px : absent (a_f a) \/ absent (a_fx a) /\ absent (a_fy a);
    acc_mm : absent (a_mm a) \/ absent (a_f a) /\ absent (a_fx a) /\ absent (a_fy a) /\
               (present (a_sensor a) \/ present (a_sw a) \/ present (a_sh a));
    acc_vx : absent (a_vx a) \/ absent (a_f a) /\ absent (a_fx a) /\ absent (a_mm a);
    acc_vy : absent (a_vy a) \/ absent (a_f a) /\ absent (a_fy a) /\ absent (a_mm a);
    acc_focal : present (a_f a) \/ present (a_mm a) \/ present (a_vx a) \/ present (a_vy a) \/
                present (a_fx a) /\ present (a_fy a) }.

(** ** Facts *)
Lemma nonzero_fine x : fine x -> nonzero x = true.
Proof.
  intros (r&H&N). unfold nonzero, neqb. destruct x; try discriminate; cbn in *.
  - injection H as ->. unfold Reqb. destruct (Req_EM_T r 0); [contradiction|reflexivity].
  - injection H as <-. contradiction.
Qed.
Lemma truthy_fine o : fine_o o -> truthy o = given o.
Proof. destruct o as [x|]; simpl; auto. apply nonzero_fine. Qed.
Lemma fine_div x y : fine x -> fine y -> fine (x / y)%num.
Proof.
  intros (r&H&N) (s&H'&N'). exists (r / s). split; [apply rep_div; auto|].
  apply Rmult_integral_contrapositive. split; auto. apply Rinv_neq_0_compat; auto.
Qed.
Lemma fine_mul x y : fine x -> fine y -> fine (x * y)%num.
Proof. intros (r&H&N) (s&H'&N'). exists (r * s). split; [apply rep_mul; auto|]. apply Rmult_integral_contrapositive; auto. Qed.
Lemma pydiv_fine x y : fine y -> pydiv x y = POk (x / y)%num.
Proof. intros H. unfold pydiv. rewrite nonzero_fine; auto. Qed.

Lemma image_stage a : fine_args a ->
  let P := match a_image a with
                | Some (ITuple _ _) => absent (a_w a) /\ absent (a_h a)
                | Some (IArray s) => absent (a_w a) /\ absent (a_h a) /\ (2 <= List.length s)%nat
                | None => present (a_w a) /\ present (a_h a)
                end in
  (P /\ exists w h, stage_image a = POk (w, h) /\ fine w /\ fine h) \/ (~ P /\ stage_image a = PValueError).
Proof.
  intros (_&_&_&_&_&_&FW&FH&_&_&_&FI&_). unfold stage_image. rewrite !truthy_fine by auto.
  assert (K : forall n, n <> O -> fine (Fin (INR n))).
  { intros n H. exists (INR n). split; [apply rep_Fin|]. apply not_0_INR; auto. }
  destruct (a_image a) as [i|]; [destruct i as [w h|s]|]; destruct (a_w a) as [w'|], (a_h a) as [h'|]; simpl;
    unfold absent, present; simpl in FW, FH, FI;
    try (right; split; [intuition congruence|reflexivity]); try (left; split; [intuition congruence|eauto]).
  destruct s as [|n [|m s]]; simpl in *.
  - right. split; [intros (_&_&L); inversion L|reflexivity].
  - right. split; [intros (_&_&L); inversion L; inversion H0|reflexivity].
  - left. split; [repeat split; auto; repeat apply le_n_S; apply Nat.le_0_l|].
    eexists _, _. split; [reflexivity|]. split; apply K; intros ->; apply FI; auto.
Qed.
Lemma center_stage a w h : fine_args a ->
  let P := absent (a_center a) \/ absent (a_cx a) /\ absent (a_cy a) in
  (P /\ exists x y, stage_center a w h = POk (x, y)) \/ (~ P /\ stage_center a w h = PValueError).
Proof.
  intros (_&_&_&FX&FY&_). unfold stage_center. rewrite !truthy_fine by auto.
  destruct (a_center a) as [(x&y)|], (a_cx a) as [x'|], (a_cy a) as [y'|]; simpl; unfold absent;
    try (right; split; [intuition discriminate|reflexivity]); left; (split; [auto|eauto]).
Qed.
Lemma px_stage a : fine_args a ->
  let P := (absent (a_f a) \/ absent (a_fx a) /\ absent (a_fy a)) /\
           (absent (a_mm a) \/ absent (a_f a) /\ absent (a_fx a) /\ absent (a_fy a)) in
  (P /\ stage_px a = POk (match a_f a with Some f => (Some f, Some f) | None => (option_map FNum (a_fx a), option_map FNum (a_fy a)) end)) \/
  (~ P /\ stage_px a = PValueError).
Proof.
  intros (FF&FX&FY&_). unfold stage_px. rewrite !truthy_fine by auto.
  assert (truthyF (a_f a) = given (a_f a)) as ->.
  { destruct (a_f a) as [[x|x y]|]; simpl; auto. apply nonzero_fine; auto. }
  destruct (a_f a) as [f|], (a_fx a) as [x'|], (a_fy a) as [y'|], (a_mm a); simpl; unfold absent;
    try (right; split; [intuition discriminate|reflexivity]); left; (split; [intuition congruence|reflexivity]).
Qed.
(** the sensor that belongs to the arguments *)
Definition sensor_spec (a : args) (w h : num) : option num * option num :=
  match a_sensor a with
  | Some (x, y) => (Some x, Some y)
  | None => match a_sw a, a_sh a with
            | Some x, None => (Some x, Some (x / w * h)%num)
            | None, Some y => (Some (y / h * w)%num, Some y)
            | x, y => (x, y)
            end
  end.
Lemma sensor_stage a w h : fine_args a -> fine w -> fine h ->
  let P := absent (a_sensor a) \/ absent (a_sw a) /\ absent (a_sh a) in
  (P /\ stage_sensor a w h = POk (sensor_spec a w h)) \/ (~ P /\ stage_sensor a w h = PValueError).
Proof.
  intros (_&_&_&_&_&_&_&_&FX&FY&FS&_) Fw Fh. unfold stage_sensor, sensor_spec. rewrite !truthy_fine by auto.
  destruct (a_sensor a) as [(x&y)|], (a_sw a) as [x'|], (a_sh a) as [y'|]; simpl; unfold absent; simpl in FX, FY, FS;
    try (right; split; [intuition discriminate|reflexivity]); left; (split; [auto|]); try reflexivity.
  - rewrite nonzero_fine, pydiv_fine by auto. reflexivity.
  - rewrite nonzero_fine, pydiv_fine by auto. reflexivity.
Qed.
Lemma sensor_fine a w h : fine_args a -> fine w -> fine h -> let '(x, y) := sensor_spec a w h in fine_o x /\ fine_o y.
Proof.
  intros (_&_&_&_&_&_&_&_&FX&FY&FS&_) Fw Fh. unfold sensor_spec.
  destruct (a_sensor a) as [(x&y)|], (a_sw a) as [x'|], (a_sh a) as [y'|]; simpl; simpl in FX, FY, FS; intuition;
   apply fine_mul; auto; apply fine_div; auto.
Qed.
Definition mm_spec (a : args) (w h : num) (f : option fval * option fval) : option fval * option fval :=
  match a_mm a, sensor_spec a w h with
  | Some m, (Some x, Some y) => (Some (FNum (m / x * w)%num), Some (FNum (m / y * h)%num))
  | _, _ => f
  end.
Lemma mm_stage a w h f : fine_args a -> fine w -> fine h ->
  (absent (a_sensor a) \/ absent (a_sw a) /\ absent (a_sh a)) ->
  let P := absent (a_mm a) \/ present (a_sensor a) \/ present (a_sw a) \/ present (a_sh a) in
  (P /\ stage_mm a w h (sensor_spec a w h) f = POk (mm_spec a w h f)) \/
  (~ P /\ stage_mm a w h (sensor_spec a w h) f = PValueError).
Proof.
  intros FA Fw Fh HS. pose proof (sensor_fine a w h FA Fw Fh) as SF.
  destruct FA as (_&_&_&_&_&FM&_). unfold stage_mm, mm_spec. unfold absent, present.
  destruct (a_mm a) as [m|]; [|left; auto]. simpl in FM. rewrite nonzero_fine by auto.
  assert (D : (exists x y, sensor_spec a w h = (Some x, Some y) /\ (a_sensor a <> None \/ a_sw a <> None \/ a_sh a <> None)) \/
    (sensor_spec a w h = (None, None) /\ a_sensor a = None /\ a_sw a = None /\ a_sh a = None)).
  { unfold sensor_spec in *. destruct (a_sensor a) as [(x&y)|], (a_sw a) as [x'|], (a_sh a) as [y'|];
      try (left; eexists _, _; split; [reflexivity|intuition congruence]). right. auto. }
  destruct D as [(x&y&E&D)|(E&D1&D2&D3)]; rewrite E in *.
  - left. split; [right; auto|]. destruct SF as (S1&S2). simpl in S1, S2. rewrite !pydiv_fine by auto. reflexivity.
  - right. split; [intuition congruence|reflexivity].
Qed.
(** focal lengths after the fields of view *)
Definition view_spec (k : pkind) (a : args) (w h : num) (f : option fval * option fval) : option fval * option fval :=
  let c := Proj NaN NaN NaN NaN w h in
  match a_vx a, a_vy a with
  | Some v, Some u => (Some (FNum (focallengthFromFOV k c (Some v) NaN)), Some (FNum (focallengthFromFOV k c None u)))
  | Some v, None => let x := Some (FNum (focallengthFromFOV k c (Some v) NaN)) in (x, x)
  | None, Some u => let y := Some (FNum (focallengthFromFOV k c None u)) in (y, y)
  | None, None => f
  end.
Lemma view_stage k a w h f : fine_args a -> (truthyF (snd f) = given (snd f)) ->
  let P := (absent (a_vx a) \/ fst f = None) /\ (absent (a_vy a) \/ snd f = None) in
  (P /\ stage_view k a w h f = POk (view_spec k a w h f)) \/ (~ P /\ stage_view k a w h f = PValueError).
Proof.
  intros (_&_&_&_&_&_&_&_&_&_&_&_&FX&FY) T. unfold stage_view, view_spec. rewrite !truthy_fine by auto.
  destruct f as (fx, fy). cbn [fst snd] in *. unfold absent.
  destruct (a_vx a) as [v|], (a_vy a) as [u|]; simpl in FX, FY; cbn [given orb fst snd]; rewrite ?nonzero_fine by auto.
  - destruct fx as [fx|]; cbn [given]; [right; split; [intuition discriminate|reflexivity]|].
    cbn [pbind fst snd]. rewrite ?nonzero_fine by auto. rewrite T. destruct fy as [fy|]; cbn [given];
      [right; split; [intuition discriminate|reflexivity]|left; split; [auto|reflexivity]].
  - destruct fx as [fx|]; cbn [given]; [right; split; [intuition discriminate|reflexivity]|left; split; [auto|reflexivity]].
  - cbn [pbind fst snd]. rewrite ?nonzero_fine by auto. rewrite T. destruct fy as [fy|]; cbn [given];
      [right; split; [intuition discriminate|reflexivity]|left; split; [auto|reflexivity]].
  - left. auto.
Qed.
Definition px_spec (a : args) : option fval * option fval :=
  match a_f a with Some f => (Some f, Some f) | None => (option_map FNum (a_fx a), option_map FNum (a_fy a)) end.
Lemma truthyF_px a w h : fine_args a -> fine w -> fine h ->
  truthyF (snd (mm_spec a w h (px_spec a))) = given (snd (mm_spec a w h (px_spec a))).
Proof.
  intros FA Fw Fh. pose proof (sensor_fine a w h FA Fw Fh) as SF. destruct FA as (FF&FX&FY&_&_&FM&_).
  assert (B : truthyF (snd (px_spec a)) = given (snd (px_spec a))).
  { unfold px_spec. destruct (a_f a) as [[x|x y]|]; simpl; auto; [apply nonzero_fine; auto|].
    destruct (a_fy a); simpl; auto. apply nonzero_fine; auto. }
  unfold mm_spec. destruct (a_mm a) as [m|]; auto. destruct (sensor_spec a w h) as ([x|]&[y|]); auto. simpl.
  simpl in FM, SF. apply nonzero_fine. apply fine_mul; auto. apply fine_div; tauto.
Qed.
Lemma init_spec k a : fine_args a ->
  (accepted a /\ exists w h cx cy fx fy, stage_image a = POk (w, h) /\ stage_center a w h = POk (cx, cy) /\ fine w /\ fine h /\
     view_spec k a w h (mm_spec a w h (px_spec a)) = (Some fx, Some fy) /\
     init k a = POk (Pinit fx fy cx cy w h (fst (sensor_spec a w h)) (snd (sensor_spec a w h))
                  (if given (a_vx a) || given (a_vy a) then Some (w, h) else None))) \/
  (~ accepted a /\ init k a = PValueError).
Proof.
  intros FA. unfold init.
  destruct (image_stage a FA) as [(P1&w&h&E1&Fw&Fh)|(P1&E1)]; [|right; split; [intros []; auto|rewrite E1; reflexivity]].
  rewrite E1. cbn [pbind].
  destruct (center_stage a w h FA) as [(P2&cx&cy&E2)|(P2&E2)]; [|right; split; [intros []; auto|rewrite E2; reflexivity]].
  rewrite E2. cbn [pbind].
  destruct (px_stage a FA) as [(P3&E3)|(P3&E3)]; [|right; split; [intros A; apply P3; split; [apply A|destruct (acc_mm a A) as [M|(M1&M2&M3&_)]; auto]|rewrite E3; reflexivity]].
  rewrite E3. cbn [pbind]. fold (px_spec a).
  destruct (sensor_stage a w h FA Fw Fh) as [(P4&E4)|(P4&E4)]; [|right; split; [intros []; auto|rewrite E4; reflexivity]].
  rewrite E4. cbn [pbind].
  destruct (mm_stage a w h (px_spec a) FA Fw Fh P4) as [(P5&E5)|(P5&E5)].
  2:{ right. split; [intros A; apply P5; destruct (acc_mm a A) as [M|(_&_&_&M)]; auto|]. destruct (sensor_spec a w h) as (sw, sh). rewrite E5. reflexivity. }
  assert (TX : truthy (a_vx a) = given (a_vx a)) by (apply truthy_fine, FA).
  assert (TY : truthy (a_vy a) = given (a_vy a)) by (apply truthy_fine, FA).
  pose proof (truthyF_px a w h FA Fw Fh) as T.
  destruct (view_stage k a w h _ FA T) as [(P6&E6)|(P6&E6)].
  2:{ right. split.
      - intros []. apply P6. unfold absent, present in *. split.
        + destruct acc_vx0 as [A|(A&B&C)]; [auto|]. right. unfold mm_spec, px_spec. rewrite C, A, B. reflexivity.
        + destruct acc_vy0 as [A|(A&B&C)]; [auto|]. right. unfold mm_spec, px_spec. rewrite C, A, B. reflexivity.
      - destruct (sensor_spec a w h) as (sw, sh) eqn:S. rewrite E5. cbn [pbind]. rewrite E6. reflexivity. }
  destruct (sensor_spec a w h) as (sw, sh) eqn:S. rewrite E5. cbn [pbind]. rewrite E6. cbn [pbind]. rewrite TX, TY.
  assert (ACC : (a_f a <> None \/ a_mm a <> None \/ a_vx a <> None \/ a_vy a <> None \/ a_fx a <> None /\ a_fy a <> None) -> accepted a).
  { intros H. unfold absent, present in *.
    assert (MM : a_mm a <> None -> exists x y, mm_spec a w h (px_spec a) = (Some x, Some y)).
    { intros M. unfold mm_spec. rewrite S. destruct (a_mm a) as [m|]; [|contradiction].
      destruct P5 as [P5|P5]; [discriminate|].
      unfold sensor_spec in S. destruct (a_sensor a) as [(u&v)|]; [injection S as <- <-; eauto|].
      destruct (a_sw a), (a_sh a); try (injection S as <- <-; eauto). destruct P5 as [P5|[P5|P5]]; contradiction. }
    constructor; unfold absent, present in *; auto.
    - exact (proj1 P3).
    - destruct P3 as (_&P3). destruct P3 as [P3|(P3a&P3b&P3c)]; [auto|]. destruct P5 as [P5|P5]; [auto|]. right. auto.
    - destruct P6 as ([A|A]&_); [auto|]. right. unfold mm_spec, px_spec in *.
      destruct (a_mm a) as [m|] eqn:M; [exfalso; destruct (MM ltac:(discriminate)) as (x&y&E); rewrite E in A; discriminate|].
      destruct (a_f a) as [f|]; [discriminate|]. simpl in A. destruct (a_fx a); [discriminate|auto].
    - destruct P6 as (_&[A|A]); [auto|]. right. unfold mm_spec, px_spec in *.
      destruct (a_mm a) as [m|] eqn:M; [exfalso; destruct (MM ltac:(discriminate)) as (x&y&E); rewrite E in A; discriminate|].
      destruct (a_f a) as [f|]; [discriminate|]. simpl in A. destruct (a_fy a); [discriminate|auto]. }
  destruct (view_spec k a w h (mm_spec a w h (px_spec a))) as ([fx|]&[fy|]) eqn:V.
  - left. split.
    + apply ACC. unfold view_spec in V. destruct (a_vx a); [right; right; left; discriminate|].
      destruct (a_vy a); [right; right; right; left; discriminate|]. unfold mm_spec in V. destruct (a_mm a); [right; left; discriminate|].
      unfold px_spec in V. destruct (a_f a); [left; discriminate|]. destruct (a_fx a), (a_fy a); try discriminate.
      right; right; right; right. split; discriminate.
    + exists w, h, cx, cy, fx, fy. split; [auto|]. split; [auto|]. split; [auto|]. split; [auto|]. split; [auto|rewrite S; reflexivity].
  - right. split; [|reflexivity]. intros []. unfold absent, present in *. revert V. unfold view_spec.
    destruct (a_vx a), (a_vy a); try discriminate. unfold mm_spec. rewrite S. 
    destruct (a_mm a) as [m|].
    + destruct P5 as [P5|P5]; [discriminate|].
      unfold sensor_spec in S. destruct (a_sensor a) as [(u&v)|]; [injection S as <- <-; discriminate|].
      destruct (a_sw a), (a_sh a); try (injection S as <- <-; discriminate). destruct P5 as [P5|[P5|P5]]; contradiction.
    + unfold px_spec. destruct (a_f a); [discriminate|]. destruct (a_fx a), (a_fy a); simpl; try discriminate; intros _; destruct acc_focal0 as [D|[D|[D|[D|(D1&D2)]]]]; congruence.
  - right. split; [|reflexivity]. intros []. unfold absent, present in *. revert V. unfold view_spec.
    destruct (a_vx a), (a_vy a); try discriminate. unfold mm_spec. rewrite S. 
    destruct (a_mm a) as [m|].
    + destruct P5 as [P5|P5]; [discriminate|].
      unfold sensor_spec in S. destruct (a_sensor a) as [(u&v)|]; [injection S as <- <-; discriminate|].
      destruct (a_sw a), (a_sh a); try (injection S as <- <-; discriminate). destruct P5 as [P5|[P5|P5]]; contradiction.
    + unfold px_spec. destruct (a_f a); [discriminate|]. destruct (a_fx a), (a_fy a); simpl; try discriminate; intros _; destruct acc_focal0 as [D|[D|[D|[D|(D1&D2)]]]]; congruence.
  - right. split; [|reflexivity]. intros []. unfold absent, present in *. revert V. unfold view_spec.
    destruct (a_vx a), (a_vy a); try discriminate. unfold mm_spec. rewrite S. 
    destruct (a_mm a) as [m|].
    + destruct P5 as [P5|P5]; [discriminate|].
      unfold sensor_spec in S. destruct (a_sensor a) as [(u&v)|]; [injection S as <- <-; discriminate|].
      destruct (a_sw a), (a_sh a); try (injection S as <- <-; discriminate). destruct P5 as [P5|[P5|P5]]; contradiction.
    + unfold px_spec. destruct (a_f a); [discriminate|]. destruct (a_fx a), (a_fy a); simpl; try discriminate; intros _; destruct acc_focal0 as [D|[D|[D|[D|(D1&D2)]]]]; congruence.
Qed.

(** ** C44 *)
(** Complete, consistent arguments give a projection; all others raise ValueError. *)
Theorem C44_accepts k a : fine_args a ->
  ((exists p, init k a = POk p) <-> accepted a) /\ (~ accepted a -> init k a = PValueError).
Proof.
  intros FA. destruct (init_spec k a FA) as [(A&w&h&cx&cy&fx&fy&_&_&_&_&_&E)|(A&E)].
  - split; [|intros; contradiction]. split; intros; auto. eauto.
  - split; auto. split; [intros (p&E'); congruence|intros; contradiction].
Qed.

Definition size_of (a : args) (w h : num) : Prop :=
  match a_image a with
  | Some (ITuple w' h') => w = w' /\ h = h'
  | Some (IArray s) => exists m n t, s = m :: n :: t /\ w = Fin (INR n) /\ h = Fin (INR m)
  | None => a_w a = Some w /\ a_h a = Some h
  end.
(** The image size and the centre are the ones given; a missing centre is the middle of the image. *)
Theorem C44_size_and_centre k a p : init k a = POk p ->
  size_of a (p_w p) (p_h p) /\
  match a_center a with
  | Some (x, y) => p_cx p = x /\ p_cy p = y
  | None => match a_cx a with Some x => p_cx p = x | None => forall W, rep (p_w p) W -> rep (p_cx p) (W / 2) end /\
            match a_cy a with Some y => p_cy p = y | None => forall H, rep (p_h p) H -> rep (p_cy p) (H / 2) end
  end.
Proof.
  unfold init. destruct (stage_image a) as [(w&h)| |] eqn:E1; try discriminate. cbn [pbind].
  destruct (stage_center a w h) as [(cx&cy)| |] eqn:E2; try discriminate. cbn [pbind].
  destruct (stage_px a) as [f| |]; try discriminate. cbn [pbind].
  destruct (stage_sensor a w h) as [(sw&sh)| |]; try discriminate. cbn [pbind].
  destruct (stage_mm a w h (sw, sh) f) as [f'| |]; try discriminate. cbn [pbind].
  destruct (stage_view k a w h f') as [f''| |]; try discriminate. cbn [pbind].
  destruct f'' as ([fx|]&[fy|]); try discriminate. intros E. injection E as <-. cbn [p_w p_h p_cx p_cy]. split.
  - unfold size_of, stage_image in *.
    destruct (given (a_image a) && (truthy (a_w a) || truthy (a_h a))); [discriminate|].
    destruct (negb (given (a_image a)) && (negb (given (a_w a)) || negb (given (a_h a)))); [discriminate|].
    destruct (a_image a) as [i|].
    + destruct i as [w' h'|s]; [injection E1 as <- <-; auto|].
      destruct s as [|m [|n t]]; try discriminate. injection E1 as <- <-. eauto 6.
    + destruct (a_w a), (a_h a); try discriminate. injection E1 as <- <-. auto.
  - unfold stage_center in E2. destruct (given (a_center a) && (truthy (a_cx a) || truthy (a_cy a))); [discriminate|].
    destruct (a_center a) as [(x&y)|]; [injection E2 as <- <-; auto|].
    injection E2 as <- <-. split.
    + destruct (a_cx a); auto. intros W HW. apply rep_div; [auto|apply rep_Fin|lra].
    + destruct (a_cy a); auto. intros W HW. apply rep_div; [auto|apply rep_Fin|lra].
Qed.
(** Focal lengths in pixels are taken as given, the one of both directions for both. *)
Theorem C44_focal_px k a p : fine_args a -> init k a = POk p ->
  match a_f a with
  | Some f => p_fx p = f /\ p_fy p = f
  | None => (absent (a_vy a) -> forall x, a_fx a = Some x -> p_fx p = FNum x) /\
            (absent (a_vx a) -> forall y, a_fy a = Some y -> p_fy p = FNum y)
  end.
Proof.
  intros FA E. destruct (init_spec k a FA) as [(A&w&h&cx&cy&fx&fy&_&_&_&_&V&E')|(A&E')]; [|congruence].
  rewrite E' in E. injection E as <-. cbn [p_fx p_fy]. destruct A. unfold absent, present in *.
  unfold view_spec, mm_spec, px_spec in V.
  destruct (a_f a) as [f|].
  - assert (a_vx a = None) as X by (destruct acc_vx0 as [|(?&_)]; auto; discriminate).
    assert (a_vy a = None) as Y by (destruct acc_vy0 as [|(?&_)]; auto; discriminate).
    assert (a_mm a = None) as M by (destruct acc_mm0 as [|(?&_)]; auto; discriminate).
    rewrite X, Y, M in V. injection V as <- <-. auto.
  - split.
    + intros Y x X. rewrite X, Y in *.
      assert (a_vx a = None) as X' by (destruct acc_vx0 as [|(_&?&_)]; auto; discriminate).
      assert (a_mm a = None) as M by (destruct acc_mm0 as [|(_&?&_)]; auto; discriminate).
      rewrite X', M in V. simpl in V. injection V as <- _. auto.
    + intros X y Y. rewrite X, Y in *.
      assert (a_vy a = None) as X' by (destruct acc_vy0 as [|(_&?&_)]; auto; discriminate).
      assert (a_mm a = None) as M by (destruct acc_mm0 as [|(_&_&?&_)]; auto; discriminate).
      rewrite X', M in V. simpl in V. injection V as _ <-. auto.
Qed.
(** the physical size of the sensor: as given, or completed to the aspect ratio of the image *)
Definition sensor_size (a : args) (W H SW SH : R) : Prop :=
  match a_sensor a with
  | Some (x, y) => rep x SW /\ rep y SH
  | None => match a_sw a, a_sh a with
            | Some x, Some y => rep x SW /\ rep y SH
            | Some x, None => rep x SW /\ SH / SW = H / W
            | None, Some y => rep y SH /\ SW / SH = W / H
            | None, None => SW = 17.3 /\ SH = 13
            end
  end.
Theorem C44_sensor k a p W H : fine_args a -> init k a = POk p -> rep (p_w p) W -> rep (p_h p) H ->
  exists SW SH, rep (fst (get_sensor p)) SW /\ rep (snd (get_sensor p)) SH /\ sensor_size a W H SW SH.
Proof.
  intros FA E HW HH. pose proof (init_spec k a FA) as [(A&w&h&cx&cy&fx&fy&_&_&Fw&Fh&_&E')|(A&E')]; [|congruence].
  rewrite E' in E. injection E as <-. cbn [p_w p_h] in *. unfold get_sensor. cbn [p_sw p_sh fst snd].
  destruct FA as (_&_&_&_&_&_&_&_&FX&FY&FS&_).
  destruct Fw as (W'&HW'&NW). destruct Fh as (H'&HH'&NH). rewrite (rep_inj _ _ _ HW' HW) in *. rewrite (rep_inj _ _ _ HH' HH) in *.
  unfold sensor_size, sensor_spec.
  destruct (a_sensor a) as [(x&y)|]; simpl in FX, FY, FS.
  - destruct FS as ((X&HX&_)&(Y&HY&_)). exists X, Y. auto.
  - destruct (a_sw a) as [x|], (a_sh a) as [y|]; simpl in FX, FY; cbn [fst snd].
    + destruct FX as (X&HX&_). destruct FY as (Y&HY&_). exists X, Y. auto.
    + destruct FX as (X&HX&NX). exists X, (X / W * H). split; auto. split; [apply rep_mul; auto; apply rep_div; auto|].
      split; auto. field; auto.
    + destruct FY as (Y&HY&NY). exists (Y / H * W), Y. split; [apply rep_mul; auto; apply rep_div; auto|].
      split; auto. split; auto. field; auto.
    + exists 17.3, 13. repeat split; apply rep_Fin.
Qed.
(** A focal length in mm: similar triangles of sensor and image. *)
Theorem C44_focal_mm k a p m M W H SW SH : fine_args a -> init k a = POk p -> a_mm a = Some m -> rep m M ->
  rep (p_w p) W -> rep (p_h p) H -> rep (fst (get_sensor p)) SW -> rep (snd (get_sensor p)) SH ->
  exists x y fx fy, p_fx p = FNum x /\ p_fy p = FNum y /\ rep x fx /\ rep y fy /\ fx * SW = M * W /\ fy * SH = M * H.
Proof.
  intros FA E EM HM HW HH HSW HSH. pose proof (init_spec k a FA) as [(A&w&h&cx&cy&fx&fy&_&_&Fw&Fh&V&E')|(A&E')]; [|congruence].
  pose proof (sensor_fine a w h FA Fw Fh) as SF.
  rewrite E' in E. injection E as <-. cbn [p_w p_h p_fx p_fy] in *. unfold get_sensor in *. cbn [p_sw p_sh fst snd] in *.
  destruct A. unfold absent, present in *. rewrite EM in *.
  assert (a_vx a = None) as X by (destruct acc_vx0 as [|(_&_&?)]; auto; discriminate).
  assert (a_vy a = None) as Y by (destruct acc_vy0 as [|(_&_&?)]; auto; discriminate).
  unfold view_spec, mm_spec in V. rewrite X, Y, EM in V.
  destruct (sensor_spec a w h) as (sw, sh) eqn:S.
  assert (exists x y, sw = Some x /\ sh = Some y) as (x&y&->&->).
  { destruct acc_mm0 as [D|(_&_&_&D)]; [discriminate|]. unfold sensor_spec in S.
    destruct (a_sensor a) as [(u&v)|]; [injection S as <- <-; eauto|].
    destruct (a_sw a), (a_sh a); try (injection S as <- <-; eauto). destruct D as [D|[D|D]]; contradiction. }
  injection V as <- <-. cbn [fst snd fine_o] in *. destruct SF as ((SX&HX&NX)&(SY&HY&NY)).
  rewrite (rep_inj _ _ _ HX HSW) in *. rewrite (rep_inj _ _ _ HY HSH) in *.
  exists (m / x * w)%num, (m / y * h)%num, (M / SW * W), (M / SH * H). split; [reflexivity|]. split; [reflexivity|].
  split; [apply rep_mul; [apply rep_div|]; assumption|]. split; [apply rep_mul; [apply rep_div|]; assumption|].
  split; field; assumption.
Qed.
(** Fields of view are met exactly; the other direction gets the same focal length if it has no view. *)
Theorem C44_view k a p W H : fine_args a -> init k a = POk p -> rep (p_w p) W -> rep (p_h p) H -> 0 < W -> 0 < H ->
  present (a_vx a) \/ present (a_vy a) ->
  exists c, seen p = Some c /\
    (forall v V, a_vx a = Some v -> rep v V -> 0 < V < 180 -> rep (c1 (getFieldOfView k c)) V) /\
    (forall v V, a_vy a = Some v -> rep v V -> 0 < V < 180 -> rep (c2 (getFieldOfView k c)) V) /\
    (absent (a_vx a) \/ absent (a_vy a) -> f_x c = f_y c).
Proof.
  intros FA E HW HH PW PH D. pose proof (init_spec k a FA) as [(A&w&h&cx&cy&fx&fy&_&_&Fw&Fh&V&E')|(A&E')]; [|congruence].
  rewrite E' in E. injection E as <-. cbn [p_w p_h] in *. unfold seen, get_width, get_height. cbn [p_fx p_fy p_shadow p_cx p_cy p_w p_h].
  assert (given (a_vx a) || given (a_vy a) = true) as ->.
  { unfold present in D. destruct (a_vx a), (a_vy a); auto. destruct D; contradiction. }
  set (c0 := Proj (Fin 1) (Fin 1) (Fin 1) (Fin 1) w h).
  assert (RX : forall v, focallengthFromFOV k (Proj NaN NaN NaN NaN w h) (Some v) NaN = focallengthFromFOV k c0 (Some v) NaN)
    by (intros; destruct k; reflexivity).
  assert (RY : forall v, focallengthFromFOV k (Proj NaN NaN NaN NaN w h) None v = focallengthFromFOV k c0 None v)
    by (intros; destruct k; reflexivity).
  assert (RC : rep_proj c0 (Proj 1 1 1 1 W H)) by (repeat split; auto; apply rep_Fin).
  assert (VX : forall v V y cy' cy'', rep v V -> 0 < V < 180 -> rep (c1 (getFieldOfView k (Proj (focallengthFromFOV k c0 (Some v) NaN) y cy' cy'' w h))) V).
  { intros v VV y c' c'' Hv B. destruct (C10_fov_of_focal k c0 _ v (Fin 90) VV 90 RC PW PH Hv (rep_Fin _) B ltac:(lra)) as (R1&_).
    destruct k; exact R1. }
  assert (VY : forall v V x cy' cy'', rep v V -> 0 < V < 180 -> rep (c2 (getFieldOfView k (Proj x (focallengthFromFOV k c0 None v) cy' cy'' w h))) V).
  { intros v VV x c' c'' Hv B. destruct (C10_fov_of_focal k c0 _ (Fin 90) v 90 VV RC PW PH (rep_Fin _) Hv ltac:(lra) B) as (_&R1).
    destruct k; exact R1. }
  unfold view_spec in V. unfold absent, present in *.
  destruct (a_vx a) as [v|], (a_vy a) as [u|]; [| | |destruct D; contradiction]; rewrite ?RX, ?RY in V; injection V as <- <-;
    (eexists; split; [reflexivity|]); (split; [|split]).
  - intros v' VV Ev. injection Ev as <-. apply VX.
  - intros v' VV Ev. injection Ev as <-. apply VY.
  - intros [X|X]; discriminate.
  - intros v' VV Ev. injection Ev as <-. apply VX.
  - discriminate.
  - reflexivity.
  - discriminate.
  - intros v' VV Ev. injection Ev as <-. apply VY.
  - reflexivity.
Qed.

(** ** Where C44 fails *)
Definition with_image (w h : R) : args :=
  Args None None None None None None None None None None None (Some (ITuple (Fin w) (Fin h))) None None None.
Lemma fine_Fin r : r <> 0 -> fine (Fin r).
Proof. intros H. exists r. split; [apply rep_Fin|auto]. Qed.
(** The focal length of one direction is dropped when the other direction has a field of view. *)
Definition ex_override : args :=
  Args None None (Some (Fin 77)) None None None None None None None None (Some (ITuple (Fin 200) (Fin 100))) None (Some (Fin 90)) None.
Lemma fine_override : fine_args ex_override.
Proof. repeat split; try exact I; apply fine_Fin; lra. Qed.
Lemma f_tan_90 w : rep (f_tan (Fin w) (Fin 90)) (w / 2).
Proof.
  eapply rep_eq; [apply rep_f_tan; [apply rep_Fin|apply rep_Fin|lra]|].
  replace (90 * (PI / 180) / 2) with (PI / 4) by field. rewrite tan_PI4. field.
Qed.
Theorem C44_view_and_focal_refuted : exists a p y, fine_args a /\ a_fy a = Some y /\ init Rectilinear a = POk p /\ p_fy p <> FNum y.
Proof.
  exists ex_override.
  assert (A : accepted ex_override).
  { constructor; unfold absent, present; cbn; auto; try (right; auto; fail); right; right; left; discriminate. }
  destruct (init_spec Rectilinear ex_override fine_override) as [(_&w&h&cx&cy&fx&fy&E1&E2&_&_&V&E)|(NA&_)]; [|contradiction].
  eexists _, (Fin 77). split; [apply fine_override|]. split; [reflexivity|]. split; [exact E|]. cbn [p_fy].
  assert (w = Fin 200) as ->.
  { unfold stage_image in E1. cbn in E1. congruence. }
  unfold view_spec in V. cbn [a_vx a_vy ex_override focallengthFromFOV im_width] in V.
  injection V as <- <-. intros F. injection F as F.
  pose proof (f_tan_90 200) as R1. rewrite F in R1. pose proof (rep_inj _ _ _ R1 (rep_Fin 77)). lra.
Qed.
(** The tuple of the docstring is stored unsplit in both focal lengths. *)
Definition ex_tuple : args :=
  Args (Some (FPair (Fin 3772) (Fin 3774))) None None None None None None None None None None (Some (ITuple (Fin 4608) (Fin 3456))) None None None.
Lemma fine_tuple : fine_args ex_tuple.
Proof. repeat split; try exact I; apply fine_Fin; lra. Qed.
Theorem C44_tuple_refuted : exists a x y p, fine_args a /\ a_f a = Some (FPair x y) /\
  (forall k, init k a = POk p) /\ p_fx p <> FNum x /\ p_fy p <> FNum y /\ seen p = None.
Proof.
  exists ex_tuple, (Fin 3772), (Fin 3774). eexists. split; [apply fine_tuple|]. split; [reflexivity|].
  split; [intros k; reflexivity|]. cbn. split; [discriminate|]. split; [discriminate|reflexivity].
Qed.
(** A contradiction with a coordinate 0 goes unnoticed: center=(100, 100), center_x_px=0. *)
Definition ex_zero : args :=
  Args (Some (FNum (Fin 500))) None None (Some (Fin 0)) None (Some (Fin 100, Fin 100)) None None None None None (Some (ITuple (Fin 200) (Fin 100))) None None None.
Lemma nonzero_0 : nonzero (Fin 0) = false.
Proof. unfold nonzero, neqb. cbn. unfold Reqb. destruct (Req_EM_T 0 0); auto. contradiction. Qed.
Lemma nonzero_Fin r : r <> 0 -> nonzero (Fin r) = true.
Proof. intros H. apply nonzero_fine, fine_Fin, H. Qed.
Theorem C44_zero_refuted : exists a p, ~ accepted a /\ (forall k, init k a = POk p) /\ a_cx a = Some (Fin 0) /\ p_cx p <> Fin 0.
Proof.
  exists ex_zero. eexists. split.
  { intros A. destruct (acc_center _ A) as [X|(X&_)]; discriminate. }
  split.
  - intros k. unfold init, ex_zero, stage_image, stage_center, stage_px, stage_sensor, stage_mm, stage_view.
    cbn [a_image a_w a_h a_center a_cx a_cy a_f a_fx a_fy a_mm a_sensor a_sw a_sh a_vx a_vy given truthy truthyF andb orb negb].
    rewrite nonzero_0, nonzero_Fin by lra. cbn. reflexivity.
  - cbn. split; [reflexivity|]. intros E. injection E. lra.
Qed.

(** ** C57: image sizes assigned later *)
(** Without a field of view in the constructor, an assigned image size is what the methods use. *)
Theorem C57_assigned_size k a p v : fine_args a -> absent (a_vx a) -> absent (a_vy a) -> init k a = POk p ->
  get_width (set_width p v) = v /\ get_height (set_height p v) = v /\
  get_height (set_width p v) = get_height p /\ get_width (set_height p v) = get_width p.
Proof.
  intros FA X Y E. destruct (init_spec k a FA) as [(A&w&h&cx&cy&fx&fy&_&_&_&_&_&E')|(A&E')]; [|congruence].
  rewrite X, Y in E'. rewrite E' in E. injection E as <-. repeat split.
Qed.
(** With one, the methods keep the size of the constructor for ever: the assignment reaches only the parameter. *)
Theorem C57_stale_size k a p v : fine_args a -> present (a_vx a) \/ present (a_vy a) -> init k a = POk p ->
  seen (set_width p v) = seen p /\ seen (set_height p v) = seen p /\
  p_w (set_width p v) = v /\ p_h (set_height p v) = v /\ get_width (set_width p v) = p_w p /\ get_height (set_height p v) = p_h p.
Proof.
  intros FA D E. destruct (init_spec k a FA) as [(A&w&h&cx&cy&fx&fy&_&_&_&_&_&E')|(A&E')]; [|congruence].
  assert (given (a_vx a) || given (a_vy a) = true) as G.
  { unfold present in D. destruct (a_vx a), (a_vy a); auto. destruct D; contradiction. }
  rewrite G in E'. rewrite E' in E. injection E as <-. repeat split.
Qed.
Definition ex_view : args :=
  Args None None None None None None None None None None None (Some (ITuple (Fin 200) (Fin 100))) None (Some (Fin 90)) None.
Lemma fine_view : fine_args ex_view.
Proof. repeat split; try exact I; apply fine_Fin; lra. Qed.
Lemma accepted_view : accepted ex_view.
Proof. constructor; unfold absent, present; cbn; auto. right; right; left; discriminate. Qed.
(** 200 pixels and 90 degrees; assigning 400 pixels leaves the field of view at 90 degrees (it is 126.9) *)
Theorem C57_assigned_size_refuted : exists a p v c, fine_args a /\ init Rectilinear a = POk p /\
  p_w (set_width p v) = v /\ get_width (set_width p v) <> v /\
  seen (set_width p v) = Some c /\ rep (c1 (getFieldOfView Rectilinear c)) 90.
Proof.
  assert (PV : present (a_vx ex_view)) by discriminate.
  destruct (proj2 (proj1 (C44_accepts Rectilinear ex_view fine_view)) accepted_view) as (p&E).
  destruct (C57_stale_size _ _ _ (Fin 400) fine_view (or_introl PV) E) as (S1&_&S3&_&S5&_).
  destruct (C44_size_and_centre _ _ _ E) as ((W&H)&_).
  destruct (C44_view _ _ _ 200 100 fine_view E ltac:(rewrite W; apply rep_Fin) ltac:(rewrite H; apply rep_Fin) ltac:(lra) ltac:(lra)
     (or_introl PV)) as (c&EC&V&_).
  exists ex_view, p, (Fin 400), c. split; [apply fine_view|]. split; auto. split; auto. split.
  - rewrite S5, W. intros F. injection F. lra.
  - split; [congruence|]. apply (V (Fin 90)); auto; [apply rep_Fin|lra].
Qed.

(** ** Examples *)
Example C44_example : fine_args ex_view /\ accepted ex_view /\ ~ accepted (with_image 200 100) /\
  (forall k, init k (with_image 200 100) = PValueError).
Proof.
  assert (F : fine_args (with_image 200 100)) by (repeat split; try exact I; apply fine_Fin; lra).
  assert (NA : ~ accepted (with_image 200 100)).
  { intros A. destruct (acc_focal _ A) as [D|[D|[D|[D|(D&_)]]]]; apply D; reflexivity. }
  split; [apply fine_view|]. split; [apply accepted_view|]. split; [auto|]. intros k. apply C44_accepts; auto.
Qed.
(** the docstring: 14 mm on a sensor of 17.3 mm width *)
Definition ex_mm : args :=
  Args None None None None None None (Some (Fin 14)) None None (Some (Fin 17.3)) None (Some (ITuple (Fin 4608) (Fin 3456))) None None None.
Example C44_mm_example : fine_args ex_mm /\ exists p x fx, init Rectilinear ex_mm = POk p /\ p_fx p = FNum x /\ rep x fx /\ fx * 17.3 = 14 * 4608.
Proof.
  assert (F : fine_args ex_mm) by (repeat split; try exact I; apply fine_Fin; lra).
  split; auto.
  assert (A : accepted ex_mm).
  { constructor; unfold absent, present; cbn; auto; right; repeat split; auto; try (right; left; discriminate); left; discriminate. }
  destruct (proj2 (proj1 (C44_accepts Rectilinear ex_mm F)) A) as (p&E).
  destruct (C44_size_and_centre _ _ _ E) as ((W&H)&_).
  destruct (C44_sensor _ _ _ 4608 3456 F E ltac:(rewrite W; apply rep_Fin) ltac:(rewrite H; apply rep_Fin)) as (SW&SH&R1&R2&S1&_).
  destruct (C44_focal_mm _ _ _ (Fin 14) 14 4608 3456 SW SH F E eq_refl (rep_Fin _) ltac:(rewrite W; apply rep_Fin) ltac:(rewrite H; apply rep_Fin) R1 R2)
    as (x&y&fx&fy&Ex&_&Rx&_&Q&_).
  exists p, x, fx. split; auto. split; auto. split; auto. rewrite (rep_inj _ _ _ S1 (rep_Fin 17.3)) in Q. auto.
Qed.
Example C57_example : absent (a_vx ex_mm) /\ absent (a_vy ex_mm).
Proof. split; reflexivity. Qed.

Print Assumptions C44_accepts.
Print Assumptions C44_size_and_centre.
Print Assumptions C44_focal_px.
Print Assumptions C44_sensor.
Print Assumptions C44_focal_mm.
Print Assumptions C44_view.
Print Assumptions C44_view_and_focal_refuted.
Print Assumptions C44_tuple_refuted.
Print Assumptions C44_zero_refuted.
Print Assumptions C57_assigned_size.
Print Assumptions C57_stale_size.
Print Assumptions C57_assigned_size_refuted.
