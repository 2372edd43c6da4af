(** * C77: what print(camera) writes *)
Require Import Reals Lra Lia List Bool String Arith NArith ZArith QArith Qreals.
From Verif Require Import Num Vec Orientation OrientationFacts GpsString GpsStringFacts Projection CameraTransform Param ParamFacts ParamOps ParamSteps ParamReach ParamCam ParamLaws ParamMap PropParam.
From Verif Require Import PropFit ParamCheck ParamExamples ParamTotal PropTotal ParamSave PropSave PropSpace Describe.
Import ListNotations.
Open Scope string_scope.
Open Scope list_scope.
Open Scope N_scope.

(** ** Specification *)
(** The lines of a text, and those that start with a label *)
Fixpoint lines (s : str) : list str :=
  match s with
  | [] => [[]]
  | c :: t => if c =? 10 then [] :: lines t else match lines t with l :: ls => (c :: l) :: ls | [] => [[c]] end
  end.
Fixpoint starts (label l : str) : bool :=
  match label, l with
  | [], _ => true
  | a :: label', b :: l' => (a =? b) && starts label' l'
  | _, [] => false
  end.
(** [t] is a decimal number that differs from [x] by at most [e]. *)
Definition says (t : str) (x e : R) : Prop := exists q, float_of t = Some q /\ (Rabs (Q2R q - x) <= e)%R.
(** There is exactly one line with the label; it carries the number. *)
Definition shows_line (s label unit : str) (x e : R) : Prop :=
  exists t, filter (starts label) (lines s) = [label ++ t ++ unit] /\ says t x e.
(** ... two numbers *)
Definition shows_pair (s label sep unit : str) (x y ex ey : R) : Prop :=
  exists t u, filter (starts label) (lines s) = [label ++ t ++ sep ++ u ++ unit] /\ says t x ex /\ says u y ey.
(** What a user reads from the camera *)
Definition reads_as (h : heapn) (c : oid) (n : name) (x : R) : Prop := exists v, get_num h c n = Some v /\ rep v x.
(** name, label, unit and digits of the lines with one number *)
Definition entries (k : okind) : list (name * str * str * nat) :=
  [("focallength_x_px", text "    f:" ++ [9; 9], text " px", 1%nat);
   ("pos_x_m", text "    x:" ++ [9], text " m", 6%nat); ("pos_y_m", text "    y:" ++ [9], text " m", 6%nat);
   ("elevation_m", text "    h:" ++ [9], text " m", 6%nat)] ++
  match k with
  | TiltHeading => [("tilt_deg", text "    tilt:" ++ [9; 9], [176], 6%nat); ("roll_deg", text "    roll:" ++ [9; 9], [176], 6%nat);
                    ("heading_deg", text "    heading:" ++ [9], [176], 6%nat)]
  | YawPitchRoll => [("yaw_deg", text "    yaw:" ++ [9; 9], [176], 6%nat); ("pitch_deg", text "    pitch:" ++ [9; 9], [176], 6%nat);
                     ("roll_deg", text "    roll:" ++ [9], [176], 6%nat)]
  end.

(** ** Numerals *)
Definition no10 (s : str) : bool := forallb (fun c => negb (c =? 10)) s.
Lemma no10_app a b : no10 (a ++ b) = no10 a && no10 b.
Proof. apply forallb_app. Qed.
Lemma no10_cons c s : no10 (c :: s) = negb (c =? 10) && no10 s.
Proof. reflexivity. Qed.
Lemma numeral_no10 s : forallb numeral s = true -> no10 s = true.
Proof.
  intros H. unfold no10. rewrite forallb_forall in *. intros c Hc. specialize (H c Hc). destruct (N.eqb_spec c 10); [subst; discriminate|reflexivity].
Qed.
Lemma dec_no10 n : no10 (dec n) = true.
Proof. apply numeral_no10. apply (fixed_numeral 0). Qed.
Lemma shown_f_no10 k v : no10 (shown_f k v) = true.
Proof.
  destruct v; try reflexivity; cbn [shown_f].
  - rewrite no10_app, (numeral_no10 (fixed _ _)) by apply fixed_numeral. destruct (Rneg r); reflexivity.
  - change (no10 (45 :: fixed k 0)) with (no10 (fixed k 0)). apply numeral_no10, fixed_numeral.
Qed.
Lemma shown_d_no10 v t : shown_d v = Some t -> no10 t = true.
Proof.
  destruct v; cbn [shown_d]; intros E; inversion E.
  - rewrite no10_app, dec_no10. destruct (_ && _); reflexivity.
  - apply dec_no10.
Qed.
Lemma digit_head s : match s with c :: _ => is_digit c = true | [] => False end -> match s with c :: _ => is_sign c = false | [] => False end.
Proof. destruct s as [|c s]; [auto|]. unfold is_digit, is_sign. intros H. apply andb_true_iff in H as (A&B). apply N.leb_le in A, B. apply orb_false_iff; split; apply N.eqb_neq; lia. Qed.
Lemma signed_says k n x e : (Rabs (RN n / 10 ^ k - Rabs x) <= e)%R -> says ((if Rneg x then [45] else []) ++ fixed k n) x e.
Proof.
  intros H. destruct (fixed_float k n) as (q&E&V). unfold Rneg, Rltb. destruct (Rlt_dec x 0) as [L|L].
  - exists (- q)%Q. split; [apply float_minus; [exact E|apply digit_head, fixed_head]|]. rewrite Q2R_opp, V. rewrite (Rabs_left x) in H by exact L.
    replace (- (RN n / 10 ^ k) - x)%R with (- (RN n / 10 ^ k - - x))%R by ring. rewrite Rabs_Ropp. exact H.
  - exists q. split; [exact E|]. rewrite V. rewrite (Rabs_right x) in H by lra. exact H.
Qed.
Lemma shown_f_says k v x : rep v x -> says (shown_f k v) x (1 / 2 / 10 ^ k).
Proof.
  pose proof (pow10R k) as P.
  assert (G : forall r, says ((if Rneg r then [45] else []) ++ fixed k (half_even (Rabs r * 10 ^ k))) r (1 / 2 / 10 ^ k)).
  { intros r. apply signed_says. assert (B : (0 <= Rabs r * 10 ^ k)%R) by (apply Rmult_le_pos; [apply Rabs_pos|lra]).
    pose proof (half_even_near _ B) as H. set (m := RN (half_even _)) in *.
    replace (m / 10 ^ k - Rabs r)%R with ((m - Rabs r * 10 ^ k) * / 10 ^ k)%R by (field; lra). rewrite Rabs_mult, (Rabs_right (/ 10 ^ k)).
    - apply Rmult_le_compat_r; [|exact H]. left. apply Rinv_0_lt_compat, P.
    - left. apply Rinv_0_lt_compat, P. }
  intros H. unfold rep in H. destruct v; cbn in H; try discriminate; injection H as <-; [apply G|].
  cbn [shown_f]. destruct (fixed_float k 0) as (q&E&V). exists (- q)%Q. split; [apply float_minus; [exact E|apply digit_head, fixed_head]|].
  rewrite Q2R_opp, V. change (RN 0) with 0%R. replace (- (0 / 10 ^ k) - 0)%R with 0%R by (field; lra). rewrite Rabs_R0.
  apply Rmult_le_pos; [lra|]. left. apply Rinv_0_lt_compat, P.
Qed.
(** "%d" cuts off *)
Lemma shown_d_says v x t : rep v x -> (0 <= x)%R -> shown_d v = Some t -> exists n, says t (RN n) 0 /\ (RN n <= x < RN n + 1)%R.
Proof.
  intros H P E. unfold rep in H. destruct v; cbn in H; try discriminate; injection H as <-; cbn [shown_d] in E; injection E as <-.
  - exists (truncN r). split; [|apply truncN_near, P]. rewrite Rneg_false by exact P. cbn [andb app].
    destruct (fixed_float 0 (truncN r)) as (q&E&V). exists q. split; [exact E|]. rewrite V. cbn [pow]. replace (RN (truncN r) / 1 - RN (truncN r))%R with 0%R by field. rewrite Rabs_R0. lra.
  - exists 0. destruct (fixed_float 0 0) as (q&E&V). split; [|change (RN 0) with 0%R; lra]. exists q. split; [exact E|]. rewrite V. change (RN 0) with 0%R. cbn [pow].
    replace (0 / 1 - 0)%R with 0%R by field. rewrite Rabs_R0. lra.
Qed.

(** ** The text consists of lines *)
Definition paste (L : list str) : str := flat_map (fun l => l ++ [10]) L.
Lemma lines_line l s : no10 l = true -> lines (l ++ 10 :: s) = l :: lines s.
Proof.
  induction l as [|c l IH]; [reflexivity|]. intros H. cbn [no10 forallb] in H. apply andb_true_iff in H as (A&B). apply negb_true_iff in A.
  cbn [app lines]. rewrite A, (IH B). reflexivity.
Qed.
Lemma lines_last l : no10 l = true -> lines l = [l].
Proof.
  induction l as [|c l IH]; [reflexivity|]. intros H. cbn [no10 forallb] in H. apply andb_true_iff in H as (A&B). apply negb_true_iff in A.
  cbn [lines]. rewrite A, (IH B). reflexivity.
Qed.
Lemma lines_paste L l : forallb no10 L = true -> no10 l = true -> lines (paste L ++ l) = L ++ [l].
Proof.
  induction L as [|a L IH]; intros H Hl; [apply lines_last, Hl|]. cbn [forallb] in H. apply andb_true_iff in H as (A&B).
  cbn [paste flat_map]. fold (paste L). rewrite <- !app_assoc. cbn [app]. rewrite lines_line by exact A. rewrite IH by auto. reflexivity.
Qed.
Lemma paste_app A B : paste (A ++ B) = paste A ++ paste B.
Proof. apply flat_map_app. Qed.

Definition sf (rd : name -> option num) (k : nat) (n : name) : str := match rd n with Some v => shown_f k v | None => [] end.
Definition sd (rd : name -> option num) (n : name) : str := match rd n with Some v => match shown_d v with Some t => t | None => [] end | None => [] end.
Definition lens_lines (rd : name -> option num) (k : lkind) (names : list name) : list str :=
  (text "  lens (" ++ lens_class k ++ text "):") :: map (fun n => text "    " ++ text n ++ text ":" ++ [9; 9] ++ sf rd 3 n) names.
Definition proj_lines (rd : name -> option num) (k : pkind) : list str :=
  [text "  intrinsic (" ++ proj_class k ++ text "):"; text "    f:" ++ [9; 9] ++ sf rd 1 "focallength_x_px" ++ text " px";
   text "    sensor:" ++ [9] ++ sf rd 2 "sensor_width_mm" ++ [215] ++ sf rd 2 "sensor_height_mm" ++ text " mm";
   text "    image:" ++ [9] ++ sd rd "image_width_px" ++ [215] ++ sd rd "image_height_px" ++ text " px"].
Definition orient_lines (rd : name -> option num) (k : okind) : list str :=
  [text "  position:"; text "    x:" ++ [9] ++ sf rd 6 "pos_x_m" ++ text " m"; text "    y:" ++ [9] ++ sf rd 6 "pos_y_m" ++ text " m";
   text "    h:" ++ [9] ++ sf rd 6 "elevation_m" ++ text " m"; text "  orientation:"] ++
  match k with
  | TiltHeading => [text "    tilt:" ++ [9; 9] ++ sf rd 6 "tilt_deg" ++ [176]; text "    roll:" ++ [9; 9] ++ sf rd 6 "roll_deg" ++ [176];
                    text "    heading:" ++ [9] ++ sf rd 6 "heading_deg" ++ [176]]
  | YawPitchRoll => [text "    yaw:" ++ [9; 9] ++ sf rd 6 "yaw_deg" ++ [176]; text "    pitch:" ++ [9; 9] ++ sf rd 6 "pitch_deg" ++ [176];
                     text "    roll:" ++ [9] ++ sf rd 6 "roll_deg" ++ [176]]
  end.
Lemma sf_no10 rd k n : no10 (sf rd k n) = true.
Proof. unfold sf. destruct (rd n); [apply shown_f_no10|reflexivity]. Qed.
Lemma sd_no10 rd n : no10 (sd rd n) = true.
Proof. unfold sd. destruct (rd n) as [v|]; [|reflexivity]. destruct (shown_d v) eqn:E; [|reflexivity]. eapply shown_d_no10, E. Qed.

(** one step of [write] *)
Lemma write_T rd t ps s : write rd (T t :: ps) = Some s <-> exists s', write rd ps = Some s' /\ s = t ++ s'.
Proof.
  cbn [write put]. destruct (write rd ps) as [s'|]; split.
  - intros E; inversion E. exists s'. auto.
  - intros (x&E&->). inversion E. reflexivity.
  - discriminate.
  - intros (x&E&_). discriminate.
Qed.
Lemma write_F rd k n ps s : write rd (F k n :: ps) = Some s <-> exists v s', rd n = Some v /\ write rd ps = Some s' /\ s = sf rd k n ++ s'.
Proof.
  cbn [write put]. unfold sf. destruct (rd n) as [v|]; cbn [option_map]; [destruct (write rd ps) as [s'|]|]; split; try discriminate.
  - intros E; inversion E. exists v, s'. auto.
  - intros (w&x&_&E&->). inversion E. reflexivity.
  - intros (w&x&_&E&_). discriminate.
  - intros (w&x&E&_). discriminate.
Qed.
Lemma write_D rd n ps s : write rd (D n :: ps) = Some s <->
  exists v t s', rd n = Some v /\ shown_d v = Some t /\ write rd ps = Some s' /\ s = sd rd n ++ s'.
Proof.
  cbn [write put]. unfold sd. destruct (rd n) as [v|]; [destruct (shown_d v) as [t|] eqn:Et; [destruct (write rd ps) as [s'|]|]|]; split; try discriminate.
  - intros E; inversion E. exists v, t, s'. auto.
  - intros (w&u&x&_&_&E&->). inversion E. reflexivity.
  - intros (w&u&x&_&_&E&_). discriminate.
  - intros (w&u&x&E&E'&_). congruence.
  - intros (w&u&x&E&_). discriminate.
Qed.
Ltac unwrite H :=
  repeat match type of H with
  | write _ (T _ :: _) = Some _ => apply write_T in H; destruct H as (?s&H&->)
  | write _ (F _ _ :: _) = Some _ => apply write_F in H; destruct H as (?v&?s&?E&H&->)
  | write _ (D _ :: _) = Some _ => apply write_D in H; destruct H as (?v&?t&?s&?E&?E&H&->)
  end; cbn [write] in H; injection H as <-.
Lemma proj_text rd k s : write rd (proj_format k) = Some s -> s = paste (proj_lines rd k).
Proof.
  unfold proj_format. intros H. unwrite H. unfold proj_lines, paste. cbn [flat_map]. unfold TAB, NL, TIMES. rewrite <- ?app_assoc, ?app_nil_r. reflexivity.
Qed.
Lemma orient_text rd k s : write rd (orient_format k) = Some s -> s = paste (orient_lines rd k).
Proof.
  unfold orient_format. destruct k; cbn [app]; intros H; unwrite H; unfold orient_lines, paste; cbn [flat_map app]; unfold TAB, NL, DEG;
  repeat (rewrite <- ?app_assoc, ?app_nil_r; progress cbn [app]); rewrite <- ?app_assoc; reflexivity.
Qed.
Lemma lens_text rd k names s : write rd (lens_format k names) = Some s -> s = paste (lens_lines rd k names).
Proof.
  unfold lens_format. intros H. apply write_T in H. destruct H as (s'&H&->). unfold lens_lines. cbn [paste flat_map]. unfold NL. rewrite <- !app_assoc. do 4 f_equal.
  revert s' H. induction names as [|n names IH]; intros s H; [cbn in H; injection H as <-; reflexivity|].
  cbn [flat_map app] in H. apply write_T in H. destruct H as (s1&H&->). apply write_F in H. destruct H as (v&s2&E&H&->). apply write_T in H. destruct H as (s3&H&->).
  cbn [map flat_map]. rewrite (IH s3 H). unfold TAB, NL. rewrite <- !app_assoc. reflexivity.
Qed.

(** ** The text of a camera *)
Definition lens_names (k : lkind) : list name := lnames k ++ match k with NoDist => [] | _ => shared_names end.
Lemma proj_lines_ext rd rd' k : (forall n, In n pnames -> rd n = rd' n) -> proj_lines rd k = proj_lines rd' k.
Proof. intros H. unfold proj_lines, sf, sd. rewrite !(H _) by (cbn; tauto). reflexivity. Qed.
Lemma orient_lines_ext rd rd' k : (forall n, In n (onames k) -> rd n = rd' n) -> orient_lines rd k = orient_lines rd' k.
Proof. intros H. unfold orient_lines, sf. destruct k; rewrite !(H _) by (cbn; tauto); reflexivity. Qed.
Lemma lines_no10 rd k rd' pk rd'' ok : forallb no10 (lens_lines rd k (lens_names k) ++ proj_lines rd' pk ++ orient_lines rd'' ok) = true.
Proof.
  rewrite !forallb_app. apply andb_true_iff. split; [|apply andb_true_iff; split].
  - destruct k; cbn [lens_lines lens_names lnames shared_names app map forallb]; rewrite ?no10_app, ?no10_cons, ?sf_no10; reflexivity.
  - destruct pk; cbn [proj_lines app forallb]; rewrite ?no10_app, ?no10_cons, ?no10_app, ?no10_cons, ?no10_app, ?no10_cons, ?sf_no10, ?sd_no10; reflexivity.
  - destruct ok; cbn [orient_lines app forallb]; rewrite ?no10_app, ?no10_cons, ?no10_app, ?no10_cons, ?no10_app, ?no10_cons, ?sf_no10; reflexivity.
Qed.
Lemma component_reads h c p o l : reach h -> cam_at h c p o l -> exists bp bo bl pk k lk,
  objs h p = Some bp /\ okd bp = KProj pk /\ objs h o = Some bo /\ okd bo = KOrient k /\ objs h l = Some bl /\ okd bl = KLens lk /\
  map fst (table bl) = lens_names lk /\
  (forall n, In n pnames -> tget h bp n = get_num h c n) /\ (forall n, In n (onames k) -> tget h bo n = get_num h c n) /\
  (forall n, In n (lnames lk) -> get_num h l n = get_num h c n).
Proof.
  intros HR HC. destruct (reach_inv h HR) as (HI&CI). pose proof HC as (b&E&K).
  destruct (CI c b p o l E K) as (g&pk&k&lk&(bp&Ep&Kp)&(bo&Eo&Ko)&(bl&El&Kl)&HL&_&_&_).
  exists bp, bo, bl, pk, k, lk. do 6 (split; [assumption|]).
  pose proof (fun n => camera_reads wrapn h c p o l n CI HI HC) as CR. split; [|split; [|split]].
  - destruct (HI l bl El) as (_&W&_). unfold wired in W. rewrite Kl in W. destruct W as (_&_&W). destruct (lproj bl) as [q|] eqn:LP.
    + destruct W as (NK&->&_). unfold lens_table. rewrite map_app, !map_map. cbn [fst]. rewrite !map_id. unfold lens_names. destruct lk; [congruence|reflexivity|reflexivity].
    + rewrite W. destruct lk; [reflexivity| |]; destruct HL as (b'&k'&E'&_&_&L'); try discriminate; congruence.
  - intros n Hn. destruct (CR n) as (A&_). destruct (A Hn) as (R1&(b'&E'&W')). assert (b' = bp) by congruence. subst b'.
    rewrite (reads_num _ _ _ _ R1). unfold tget. rewrite W'. reflexivity.
  - intros n Hn. destruct (CR n) as (_&A&_). destruct (A k (ex_intro _ bo (conj Eo Ko)) Hn) as (R1&(b'&E'&_&W')). assert (b' = bo) by congruence. subst b'.
    rewrite (reads_num _ _ _ _ R1). unfold tget. rewrite W'. reflexivity.
  - intros n Hn. destruct (CR n) as (_&_&A&_). destruct (A lk (ex_intro _ bl (conj El Kl)) Hn) as (R1&R2).
    rewrite (reads_num _ _ _ _ R1), (reads_num _ _ _ _ R2). reflexivity.
Qed.
Lemma camera_lines h c p o l s pk k lk : reach h -> cam_at h c p o l -> proj_at h p pk -> orient_at h o k -> lens_at h l lk -> camera_str h c = Some s ->
  lines s = (text "CameraTransform(" :: lens_lines (get_num h l) lk (lens_names lk) ++ proj_lines (get_num h c) pk ++ orient_lines (get_num h c) k) ++ [text ")"] /\
  (forall n, In n (lnames lk) -> get_num h l n = get_num h c n) /\
  (exists v t v' t', get_num h c "image_width_px" = Some v /\ shown_d v = Some t /\ get_num h c "image_height_px" = Some v' /\ shown_d v' = Some t').
Proof.
  intros HR HC (bp'&Ep'&Kp') (bo'&Eo'&Ko') (bl'&El'&Kl') HS.
  destruct (component_reads h c p o l HR HC) as (bp&bo&bl&pk1&k1&lk1&Ep&Kp&Eo&Ko&El&Kl&NT&RP&RO&RL).
  assert (bp' = bp) by congruence. assert (bo' = bo) by congruence. assert (bl' = bl) by congruence. subst bp' bo' bl'.
  assert (pk1 = pk) by congruence. assert (k1 = k) by congruence. assert (lk1 = lk) by congruence. subst pk1 k1 lk1.
  destruct HC as (b&E&K). unfold camera_str, lens_str, proj_str, orient_str in HS. rewrite E, K, Ep, Eo, El, Kp, Ko, Kl, NT in HS.
  destruct (write (get_num h l) _) as [sl|] eqn:W1; [|discriminate]. destruct (write (tget h bp) _) as [sp|] eqn:W2; [|discriminate].
  destruct (write (tget h bo) _) as [so|] eqn:W3; [|discriminate]. injection HS as <-.
  split; [|split; [exact RL|]].
  - apply lens_text in W1. pose proof (proj_text _ _ _ W2) as W2'. apply orient_text in W3. subst sl sp so.
    rewrite (proj_lines_ext (tget h bp) (get_num h c) pk RP), (orient_lines_ext (tget h bo) (get_num h c) k RO).
    set (A := lens_lines _ _ _). set (B := proj_lines _ _). set (C := orient_lines _ _).
    assert (X : text "CameraTransform(" ++ NL ++ paste A ++ paste B ++ paste C ++ text ")" = paste (text "CameraTransform(" :: A ++ B ++ C) ++ text ")").
    { cbn [paste flat_map]. fold (paste (A ++ B ++ C)). rewrite !paste_app. unfold NL. rewrite <- !app_assoc. reflexivity. }
    transitivity (lines (paste (text "CameraTransform(" :: A ++ B ++ C) ++ text ")")); [rewrite <- X; reflexivity|]. apply lines_paste; [cbn [forallb]; unfold A, B, C; rewrite lines_no10; reflexivity|reflexivity].
  - unfold proj_format in W2. unwrite W2. rewrite <- !RP by (cbn; tauto). eauto 10.
Qed.
Ltac forget := repeat match goal with |- context [sf ?a ?b ?n] => generalize (sf a b n); intro end; repeat match goal with |- context [sd ?a ?n] => generalize (sd a n); intro end.
Ltac found lk pk := destruct lk, pk; unfold lens_lines, lens_names, lnames, shared_names, proj_lines, orient_lines, lens_class, proj_class; cbn [app map]; forget; vm_compute; reflexivity.

(** ** C77 *)
(** Every line of the text carries the number that the camera has now, to the digits it shows. *)
Theorem C77_shown h c p o l k s : reach h -> cam_at h c p o l -> orient_at h o k -> camera_str h c = Some s ->
  forall n label unit d x, In (n, label, unit, d) (entries k) -> reads_as h c n x -> shows_line s label unit x (1 / 2 / 10 ^ d).
Proof.
  intros HR HC HO HS n label unit d x HE (v&G&RV). destruct (component_reads h c p o l HR HC) as (bp&bo&bl&pk&k1&lk&Ep&Kp&Eo&Ko&El&Kl&_).
  destruct (camera_lines h c p o l s pk k lk HR HC) as (L&_&_); auto; [exists bp; auto|exists bl; auto|].
  exists (sf (get_num h c) d n). split; [|unfold sf; rewrite G; apply shown_f_says, RV].
  rewrite L. clear - HE. destruct k; cbn [entries app] in HE; repeat (destruct HE as [HE|HE]; [injection HE as <- <- <- <-; found lk pk|]); contradiction.
Qed.
Print Assumptions C77_shown.
(** The coefficients of the lens *)
Theorem C77_lens h c p o l lk s n x : reach h -> cam_at h c p o l -> lens_at h l lk -> camera_str h c = Some s -> In n (lnames lk) -> reads_as h c n x ->
  shows_line s (text "    " ++ text n ++ text ":" ++ [9; 9]) [] x (1 / 2 / 10 ^ 3).
Proof.
  intros HR HC HL HS HE (v&G&RV). destruct (component_reads h c p o l HR HC) as (bp&bo&bl&pk&k&lk1&Ep&Kp&Eo&Ko&El&Kl&_).
  destruct (camera_lines h c p o l s pk k lk HR HC) as (L&RL&_); auto; [exists bp; auto|exists bo; auto|].
  exists (sf (get_num h l) 3 n). split; [|unfold sf; rewrite (RL n HE), G; apply shown_f_says, RV].
  rewrite L. clear - HE. destruct lk; cbn [lnames] in HE; repeat (destruct HE as [HE|HE]; [subst n; destruct k, pk; unfold lens_lines, lens_names, lnames, shared_names, proj_lines, orient_lines, lens_class, proj_class; rewrite app_nil_r; cbn [app map]; forget; vm_compute; reflexivity|]); contradiction.
Qed.
Print Assumptions C77_lens.
(** The sizes; the numbers of pixels are cut off to whole numbers. *)
Theorem C77_sizes h c p o l s W H sw sh : reach h -> cam_at h c p o l -> camera_str h c = Some s ->
  reads_as h c "sensor_width_mm" sw -> reads_as h c "sensor_height_mm" sh -> reads_as h c "image_width_px" W -> reads_as h c "image_height_px" H ->
  (0 <= W)%R -> (0 <= H)%R ->
  shows_pair s (text "    sensor:" ++ [9]) [215] (text " mm") sw sh (1 / 2 / 10 ^ 2) (1 / 2 / 10 ^ 2) /\
  exists n m, shows_pair s (text "    image:" ++ [9]) [215] (text " px") (RN n) (RN m) 0 0 /\ (RN n <= W < RN n + 1)%R /\ (RN m <= H < RN m + 1)%R.
Proof.
  intros HR HC HS (v1&G1&R1) (v2&G2&R2) (v3&G3&R3) (v4&G4&R4) PW PH. destruct (component_reads h c p o l HR HC) as (bp&bo&bl&pk&k&lk&Ep&Kp&Eo&Ko&El&Kl&_).
  destruct (camera_lines h c p o l s pk k lk HR HC) as (L&_&(a&t&b&u&Ga&Da&Gb&Db)); auto; [exists bp; auto|exists bo; auto|exists bl; auto|].
  assert (a = v3) by congruence. assert (b = v4) by congruence. subst a b. split.
  - exists (sf (get_num h c) 2 "sensor_width_mm"), (sf (get_num h c) 2 "sensor_height_mm"). split; [|unfold sf; rewrite G1, G2; split; apply shown_f_says; assumption].
    rewrite L. clear. destruct k; found lk pk.
  - destruct (shown_d_says v3 W t R3 PW Da) as (n&Sn&Bn). destruct (shown_d_says v4 H u R4 PH Db) as (m&Sm&Bm). exists n, m. split; [|auto].
    exists (sd (get_num h c) "image_width_px"), (sd (get_num h c) "image_height_px"). split; [|unfold sd; rewrite G3, G4, Da, Db; auto].
    rewrite L. clear. destruct k; found lk pk.
Qed.
Print Assumptions C77_sizes.

(** The text names the classes of the lens and the projection. *)
Definition class_names : list (lkind * str) * list (pkind * str) :=
  ([(NoDist, text "NoDistortion"); (Brown, text "BrownLensDistortion"); (ABC, text "ABCDistortion")],
   [(Rectilinear, text "RectilinearProjection"); (Cylindrical, text "CylindricalProjection"); (Equirectangular, text "EquirectangularProjection")]).
Theorem C77_classes h c p o l pk lk s tl tp : reach h -> cam_at h c p o l -> proj_at h p pk -> lens_at h l lk -> camera_str h c = Some s ->
  In (lk, tl) (fst class_names) -> In (pk, tp) (snd class_names) ->
  filter (starts (text "  lens (")) (lines s) = [text "  lens (" ++ tl ++ text "):"] /\ filter (starts (text "  intrinsic (")) (lines s) = [text "  intrinsic (" ++ tp ++ text "):"].
Proof.
  intros HR HC HP HL HS IL IP. destruct (component_reads h c p o l HR HC) as (bp&bo&bl&pk1&k&lk1&Ep&Kp&Eo&Ko&El&Kl&_).
  destruct (camera_lines h c p o l s pk k lk HR HC) as (L&_&_); auto; [exists bo; auto|]. rewrite L. clear - IL IP. cbn [fst snd class_names] in IL, IP.
  assert (tl = match lk with NoDist => text "NoDistortion" | Brown => text "BrownLensDistortion" | ABC => text "ABCDistortion" end) as ->
    by (repeat (destruct IL as [IL|IL]; [injection IL as <- <-; reflexivity|]); contradiction).
  assert (tp = match pk with Rectilinear => text "RectilinearProjection" | Cylindrical => text "CylindricalProjection" | Equirectangular => text "EquirectangularProjection" end) as ->
    by (repeat (destruct IP as [IP|IP]; [injection IP as <- <-; reflexivity|]); contradiction).
  split; destruct k; found lk pk.
Qed.
Print Assumptions C77_classes.
(** Numbers that are not finite are written as inf, -inf and nan. *)
Theorem C77_not_finite h c p o l k s : reach h -> cam_at h c p o l -> orient_at h o k -> camera_str h c = Some s ->
  forall n label unit d v t, In (n, label, unit, d) (entries k) -> get_num h c n = Some v -> In (v, t) [(PInf, text "inf"); (NInf, text "-inf"); (NaN, text "nan")] ->
  filter (starts label) (lines s) = [label ++ t ++ unit].
Proof.
  intros HR HC HO HS n label unit d v t HE G IV. destruct (component_reads h c p o l HR HC) as (bp&bo&bl&pk&k1&lk&Ep&Kp&Eo&Ko&El&Kl&_).
  destruct (camera_lines h c p o l s pk k lk HR HC) as (L&_&_); auto; [exists bp; auto|exists bl; auto|].
  assert (T : t = sf (get_num h c) d n) by (unfold sf; rewrite G; repeat (destruct IV as [IV|IV]; [injection IV as <- <-; reflexivity|]); contradiction).
  rewrite T, L. clear - HE. destruct k; cbn [entries app] in HE; repeat (destruct HE as [HE|HE]; [injection HE as <- <- <- <-; found lk pk|]); contradiction.
Qed.
Print Assumptions C77_not_finite.

(** ** Printing does not raise *)
Definition writable (rd : name -> option num) (p : piece) : Prop :=
  match p with T _ => True | F _ n => rd n <> None | D n => exists v r, rd n = Some v /\ rep v r end.
Lemma write_total rd ps : Forall (writable rd) ps -> exists s, write rd ps = Some s.
Proof.
  induction 1 as [|p ps Hp _ (s&IH)]; [exists []; reflexivity|]. cbn [write]. rewrite IH. destruct p as [t|k n|n]; cbn [put writable] in *.
  - eauto.
  - destruct (rd n); [|congruence]. cbn. eauto.
  - destruct Hp as (v&r&->&HV). unfold rep in HV. destruct v; try discriminate; cbn [shown_d]; eauto.
Qed.
Theorem C77_prints h c p o l W H : reach h -> cam_at h c p o l -> complete h c -> unfrozen h l ->
  reads_as h c "image_width_px" W -> reads_as h c "image_height_px" H -> exists s, camera_str h c = Some s.
Proof.
  intros HR HC HN HU (vw&Gw&Rw) (vh&Gh&Rh). destruct (component_reads h c p o l HR HC) as (bp&bo&bl&pk&k&lk&Ep&Kp&Eo&Ko&El&Kl&NT&RP&RO&RL).
  destruct (reach_inv h HR) as (HI&CI). pose proof (fun n => camera_reads wrapn h c p o l n CI HI HC) as CR.
  assert (NP : forall n, In n pnames -> get_num h c n <> None).
  { intros n Hn. destruct (CR n) as (A&_). destruct (A Hn) as (R1&_). destruct (HN n _ (reads_writes _ _ _ _ R1)) as (v&->). discriminate. }
  assert (NO : forall n, In n (onames k) -> get_num h c n <> None).
  { intros n Hn. destruct (CR n) as (_&A&_). destruct (A k (ex_intro _ bo (conj Eo Ko)) Hn) as (R1&_). destruct (HN n _ (reads_writes _ _ _ _ R1)) as (v&->). discriminate. }
  assert (NL : forall n, In n (lens_names lk) -> get_num h l n <> None).
  { intros n Hn. unfold lens_names in Hn. apply in_app_iff in Hn. destruct Hn as [Hn|Hn].
    - rewrite (RL n Hn). destruct (CR n) as (_&_&A&_). destruct (A lk (ex_intro _ bl (conj El Kl)) Hn) as (R1&_). destruct (HN n _ (reads_writes _ _ _ _ R1)) as (v&->). discriminate.
    - assert (NK : lk <> NoDist) by (destruct lk; [contradiction|discriminate|discriminate]). assert (HS : In n shared_names) by (destruct lk; [contradiction|exact Hn|exact Hn]).
      destruct (CR n) as (A&_&_&B). destruct (B lk (ex_intro _ bl (conj El Kl)) NK HS) as (b'&E'&W'). destruct (A (shared_pnames n HS)) as (R1&_).
      assert (R2 : reads h l n (Loc p n)) by (exists b'; split; [exact E'|split; [eapply HU; [exact E'|apply shared_pnames, HS]|exact W']]).
      rewrite (reads_num _ _ _ _ R2), <- (reads_num _ _ _ _ R1). apply NP, shared_pnames, HS. }
  destruct (write_total (get_num h l) (lens_format lk (lens_names lk))) as (s1&E1).
  { constructor; [exact Logic.I|]. apply Forall_forall. intros q Hq. apply in_flat_map in Hq. destruct Hq as (n&Hn&Hq). cbn in Hq.
    destruct Hq as [<- | [<- | [<- | []]]]; cbn [writable]; auto. }
  destruct (write_total (tget h bp) (proj_format pk)) as (s2&E2).
  { repeat constructor; cbn [writable]; auto; try (rewrite RP by (cbn; tauto); apply NP; cbn; tauto).
    - exists vw, W. rewrite RP by (cbn; tauto). auto.
    - exists vh, H. rewrite RP by (cbn; tauto). auto. }
  destruct (write_total (tget h bo) (orient_format k)) as (s3&E3).
  { destruct k; repeat constructor; cbn [writable]; auto; rewrite RO by (cbn; tauto); apply NO; cbn; tauto. }
  destruct HC as (b&E&K). unfold camera_str, lens_str, proj_str, orient_str. rewrite E, K, Ep, Eo, El, Kp, Ko, Kl, NT, E1, E2, E3. eauto.
Qed.
Print Assumptions C77_prints.
(** A number that was just assigned is printed. *)
Theorem C77_assigned h c p o l k n label unit d x h' s : reach h -> cam_at h c p o l -> orient_at h o k -> In (n, label, unit, d) (entries k) -> n <> wrapped_name k ->
  set_attr wrapn h c n (ANum (Fin x)) = (h', true) -> camera_str h' c = Some s -> shows_line s label unit x (1 / 2 / 10 ^ d).
Proof.
  intros HR HC HO HE NW HS HT. destruct (reach_inv h HR) as (HI&CI). destruct (camera_reads wrapn h c p o l n CI HI HC) as (AP&AO&_).
  assert (X : exists q, reads h c n (Loc q n) /\ PropParam.in_range h (Loc q n) (Fin x) = Fin x).
  { assert (Y : n = "focallength_x_px" \/ In n (onames k)).
    { destruct k; cbn [entries app] in HE; repeat (destruct HE as [HE|HE]; [injection HE as <- _ _ _; cbn; tauto|]); contradiction. }
    destruct Y as [-> | Y].
    - exists p. split; [apply AP; cbn; tauto|]. unfold PropParam.in_range. replace (wrapped_loc h (Loc p "focallength_x_px")) with false; [reflexivity|].
      unfold wrapped_loc. cbn [l_owner l_name]. destruct (component_reads h c p o l HR HC) as (bp&?&?&pk&?&?&Ep&Kp&_). rewrite Ep, Kp. reflexivity.
    - exists o. split; [apply (AO k HO Y)|]. apply (in_range_pos h o k n _ HO NW). }
  destruct X as (q&RD&IR). pose proof (C36_read_your_write h c n _ (Fin x) h' c n HR (reads_writes _ _ _ _ RD) RD HS) as G. rewrite IR in G.
  destruct (set_attr_mem wrapn wrapn_ok h c n (ANum (Fin x)) _ h' HI (reads_writes _ _ _ _ RD) HS) as (SM&_&_).
  assert (R' : reach h') by (eapply (Rstep wrapn litn h (OSet c n (ANum (Fin x)))); [exact HR|exact Logic.I|exact HS]).
  apply (C77_shown h' c p o l k s R' (cam_sim _ _ _ _ _ _ SM HC) (orient_sim _ _ _ _ SM HO) HT n label unit d x HE). exists (Fin x). split; [exact G|apply rep_Fin].
Qed.
Print Assumptions C77_assigned.

(** ** What the text does not show *)
Definition names_of (ps : list piece) : list name := flat_map (fun p => match p with T _ => [] | F _ n | D n => [n] end) ps.
Lemma write_ext rd rd' ps : (forall n, In n (names_of ps) -> rd n = rd' n) -> write rd ps = write rd' ps.
Proof.
  induction ps as [|p ps IH]; intros H; [reflexivity|]. cbn [write]. rewrite IH by (intros n Hn; apply H; cbn [names_of flat_map]; apply in_app_iff; auto).
  replace (put rd p) with (put rd' p); [reflexivity|]. destruct p as [t|k n|n]; cbn [put]; [reflexivity| |]; rewrite (H n); auto; cbn; auto.
Qed.
Lemma same_text h c p o l h' c' p' o' l' pk k : reach h -> reach h' -> cam_at h c p o l -> cam_at h' c' p' o' l' ->
  proj_at h p pk -> proj_at h' p' pk -> orient_at h o k -> orient_at h' o' k -> lens_at h l NoDist -> lens_at h' l' NoDist ->
  (forall n, In n (names_of (proj_format pk ++ orient_format k)) -> get_num h' c' n = get_num h c n) -> camera_str h' c' = camera_str h c.
Proof.
  intros HR HR' HC HC' (bp&Ep&Kp) (bp'&Ep'&Kp') (bo&Eo&Ko) (bo'&Eo'&Ko') (bl&El&Kl) (bl'&El'&Kl') HN.
  destruct (component_reads h c p o l HR HC) as (xp&xo&xl&pk1&k1&lk1&E1&K1&E2&K2&E3&K3&NT&RP&RO&_).
  destruct (component_reads h' c' p' o' l' HR' HC') as (yp&yo&yl&pk2&k2&lk2&F1&Q1&F2&Q2&F3&Q3&NT'&RP'&RO'&_).
  assert (xp = bp) by congruence. assert (xo = bo) by congruence. assert (xl = bl) by congruence. subst xp xo xl.
  assert (yp = bp') by congruence. assert (yo = bo') by congruence. assert (yl = bl') by congruence. subst yp yo yl.
  assert (k1 = k) by congruence. assert (k2 = k) by congruence. assert (lk1 = NoDist) by congruence. assert (lk2 = NoDist) by congruence. subst k1 k2 lk1 lk2.
  destruct HC as (b&E&K), HC' as (b'&E'&K'). unfold camera_str, lens_str, proj_str, orient_str. rewrite E, K, E', K', Ep, Eo, El, Kp, Ko, Kl, NT, Ep', Eo', El', Kp', Ko', Kl', NT'.
  rewrite (write_ext (get_num h' l') (get_num h l) (lens_format NoDist (lens_names NoDist))) by (cbn; contradiction).
  rewrite (write_ext (tget h' bp') (tget h bp) (proj_format pk)), (write_ext (tget h' bo') (tget h bo) (orient_format k)); [reflexivity| |].
  - intros n Hn. assert (IN : In n (onames k)) by (destruct k; cbn in Hn |- *; tauto). rewrite RO, RO' by exact IN. apply HN. unfold names_of. rewrite flat_map_app. apply in_app_iff. auto.
  - intros n Hn. assert (IN : In n pnames) by (destruct pk; cbn in Hn |- *; tauto). rewrite RP, RP' by exact IN. apply HN. unfold names_of. rewrite flat_map_app. apply in_app_iff. auto.
Qed.
(** Two cameras with different focal lengths print the same text: only the first focal length is printed. *)
Definition otherq : heap Q := hist (camq NoDist) [OSet 3%nat "focallength_y_px" (ANum (200#1)%Q)].
Lemma plain_reach : reach (floats (camq NoDist)).
Proof. apply (cam_reach NoDist []); [stand|vm]. Qed.
Lemma other_reach : reach (floats otherq).
Proof. apply (cam_reach NoDist); [stand|vm]. Qed.
Ltac at_q := first [apply cam_q; vm|apply proj_q; vm|apply orient_q; vm|apply lens_q; vm].
Lemma plain_reads n q x : get_num (camq NoDist) 3%nat n = Some q -> Q2R q = x -> reads_as (floats (camq NoDist)) 3%nat n x.
Proof. intros G <-. exists (litn q). split; [apply get_q, G|apply rep_Fin]. Qed.
Lemma plain_prints : exists s, camera_str (floats (camq NoDist)) 3%nat = Some s.
Proof.
  apply (C77_prints _ 3%nat 0%nat 1%nat 2%nat 100 80 plain_reach).
  - at_q.
  - apply complete_q. vm.
  - apply unfrozen_q. vm.
  - apply (plain_reads _ (100#1)%Q); [vm|]. unfold Q2R; simpl; field.
  - apply (plain_reads _ (80#1)%Q); [vm|]. unfold Q2R; simpl; field.
Qed.
Theorem C77_focal_refuted : exists h h' c s f f', reach h /\ reach h' /\ camera_str h c = Some s /\ camera_str h' c = Some s /\
  reads_as h c "focallength_y_px" f /\ reads_as h' c "focallength_y_px" f' /\ (f' = 2 * f)%R /\ (0 < f)%R.
Proof.
  destruct plain_prints as (s&E). exists (floats (camq NoDist)), (floats otherq), 3%nat, s, 100%R, 200%R.
  split; [exact plain_reach|]. split; [exact other_reach|]. split; [exact E|]. split.
  - rewrite <- E. apply (same_text _ 3%nat 0%nat 1%nat 2%nat _ 3%nat 0%nat 1%nat 2%nat Rectilinear TiltHeading plain_reach other_reach); try at_q.
    intros n Hn. rewrite !num_q. f_equal. cbn in Hn. repeat (destruct Hn as [<- | Hn]; [vm|]). contradiction.
  - split; [apply (plain_reads _ (100#1)%Q); [vm|unfold Q2R; simpl; field]|]. split; [|lra].
    exists (litn (200#1)). split; [apply get_q; vm|]. q2r.
Qed.
Print Assumptions C77_focal_refuted.
(** A camera made without a sensor prints 17.30 x 13.00 mm, which does not even have the shape of its pictures. *)
Theorem C77_sensor_refuted : exists h c p o l s, reach h /\ cam_at h c p o l /\ camera_str h c = Some s /\
  value (mem h (Loc p "sensor_width_mm")) = None /\ value (mem h (Loc p "sensor_height_mm")) = None /\
  shows_pair s (text "    sensor:" ++ [9]) [215] (text " mm") (173 / 10) 13 (1 / 200) (1 / 200) /\
  shows_pair s (text "    image:" ++ [9]) [215] (text " px") 100 80 0 0.
Proof.
  destruct plain_prints as (s&E). exists (floats (camq NoDist)), 3%nat, 0%nat, 1%nat, 2%nat, s. split; [exact plain_reach|]. assert (CA : cam_at (floats (camq NoDist)) 3%nat 0%nat 1%nat 2%nat) by at_q.
  split; [exact CA|]. split; [exact E|]. split; [vm|]. split; [vm|].
  destruct (C77_sizes _ 3%nat 0%nat 1%nat 2%nat s 100 80 (173 / 10) 13 plain_reach CA E) as (A&n&m&B&Bn&Bm); try lra.
  - apply (plain_reads _ (173#10)%Q); [vm|]. unfold Q2R; simpl; field.
  - apply (plain_reads _ (13#1)%Q); [vm|]. unfold Q2R; simpl; field.
  - apply (plain_reads _ (100#1)%Q); [vm|]. unfold Q2R; simpl; field.
  - apply (plain_reads _ (80#1)%Q); [vm|]. unfold Q2R; simpl; field.
  - replace (1 / 2 / 10 ^ 2)%R with (1 / 200)%R in A by field. split; [exact A|].
    assert (n = 100) by (apply (RN_between n 100 100); [exact Bn|change (RN 100) with 100%R; lra]).
    assert (m = 80) by (apply (RN_between m 80 80); [exact Bm|change (RN 80) with 80%R; lra]). subst n m. exact B.
Qed.
Print Assumptions C77_sensor_refuted.

(** ** Examples *)
(** The camera of PropSpace.v: heading 350, at (3, 4) *)
Example C77_shown_example : let h := floats spaceq in exists s, reach h /\ cam_at h 3%nat 0%nat 1%nat 2%nat /\ orient_at h 1%nat TiltHeading /\ complete h 3%nat /\ unfrozen h 2%nat /\ camera_str h 3%nat = Some s /\
  shows_line s (text "    heading:" ++ [9]) [176] 350 (1 / 2 / 10 ^ 6) /\ shows_line s (text "    x:" ++ [9]) (text " m") 3 (1 / 2 / 10 ^ 6).
Proof.
  intros h. assert (R : reach h) by exact spaceq_reach. assert (C : cam_at h 3%nat 0%nat 1%nat 2%nat) by at_q. assert (O : orient_at h 1%nat TiltHeading) by at_q.
  assert (CO : complete h 3%nat) by (apply complete_q; vm). assert (U : unfrozen h 2%nat) by (apply unfrozen_q; vm).
  assert (RW : forall n q x, get_num spaceq 3%nat n = Some q -> Q2R q = x -> reads_as h 3%nat n x) by (intros n q x G <-; exists (litn q); split; [apply get_q, G|apply rep_Fin]).
  destruct (C77_prints h 3%nat 0%nat 1%nat 2%nat 100 80 R C CO U) as (s&E); [apply (RW _ (100#1)%Q); [vm|unfold Q2R; simpl; field]|apply (RW _ (80#1)%Q); [vm|unfold Q2R; simpl; field]|].
  exists s. do 6 (split; [assumption|]). split.
  - apply (C77_shown h 3%nat 0%nat 1%nat 2%nat TiltHeading s R C O E "heading_deg"); [cbn; tauto|]. apply (RW _ (350#1)%Q); [vm|unfold Q2R; simpl; field].
  - apply (C77_shown h 3%nat 0%nat 1%nat 2%nat TiltHeading s R C O E "pos_x_m"); [cbn; tauto|]. apply (RW _ (3#1)%Q); [vm|unfold Q2R; simpl; field].
Qed.
(** A Brown lens with k1 = -0.1 *)
Definition brownq : heap Q := hist (camq Brown) [OSet 3%nat "k1" (ANum (-1#10)%Q)].
Example C77_lens_example : let h := floats brownq in exists s, reach h /\ cam_at h 3%nat 0%nat 1%nat 2%nat /\ lens_at h 2%nat Brown /\ camera_str h 3%nat = Some s /\
  shows_line s (text "    k1:" ++ [9; 9]) [] (- (1 / 10)) (1 / 2 / 10 ^ 3).
Proof.
  intros h. assert (R : reach h) by (apply (cam_reach Brown); [stand|vm]). assert (C : cam_at h 3%nat 0%nat 1%nat 2%nat) by at_q. assert (L : lens_at h 2%nat Brown) by at_q.
  assert (CO : complete h 3%nat) by (apply complete_q; vm). assert (U : unfrozen h 2%nat) by (apply unfrozen_q; vm).
  assert (RW : forall n q x, get_num brownq 3%nat n = Some q -> Q2R q = x -> reads_as h 3%nat n x) by (intros n q x G <-; exists (litn q); split; [apply get_q, G|apply rep_Fin]).
  destruct (C77_prints h 3%nat 0%nat 1%nat 2%nat 100 80 R C CO U) as (s&E); [apply (RW _ (100#1)%Q); [vm|unfold Q2R; simpl; field]|apply (RW _ (80#1)%Q); [vm|unfold Q2R; simpl; field]|].
  exists s. do 4 (split; [assumption|]). apply (C77_lens h 3%nat 0%nat 1%nat 2%nat Brown s "k1" _ R C L E); [cbn; tauto|]. apply (RW _ (-1#10)%Q); [vm|unfold Q2R; simpl; field].
Qed.
(** print shows 0.1 as 0.100, and a heading of 350 degrees as written *)
Example C77_numerals : shown_f 3 (Fin (1 / 10)) = text "0.100" /\ shown_f 6 (Fin (- 350)) = text "-350.000000" /\ shown_d (Fin 4608) = Some (text "4608").
Proof.
  cbn [shown_f shown_d]. split; [|split].
  - rewrite Rneg_false by lra. rewrite Rabs_right by lra. replace (1 / 10 * 10 ^ 3)%R with (RN 100) by (unfold RN; simpl; lra). rewrite half_even_RN. vm.
  - rewrite Rneg_true by lra. rewrite Rabs_left by lra. replace (- - 350 * 10 ^ 6)%R with (RN 350000000) by (unfold RN; simpl; lra). rewrite half_even_RN. vm.
  - rewrite Rneg_false by lra. replace 4608%R with (RN 4608) by reflexivity. rewrite truncN_RN. vm.
Qed.
(** camera.elevation_m = 12 on the plain camera, then print(camera) *)
Example C77_assigned_example : exists h' s, set_attr wrapn (floats (camq NoDist)) 3%nat "elevation_m" (ANum (Fin 12)) = (h', true) /\ camera_str h' 3%nat = Some s /\
  In ("elevation_m", text "    h:" ++ [9], text " m", 6%nat) (entries TiltHeading) /\ shows_line s (text "    h:" ++ [9]) (text " m") 12 (1 / 2 / 10 ^ 6).
Proof.
  set (q := hist (camq NoDist) [OSet 3%nat "elevation_m" (ANum (12#1)%Q)]).
  assert (S : set_attr wrapn (floats (camq NoDist)) 3%nat "elevation_m" (ANum (Fin 12)) = (floats q, true)).
  { replace (Fin 12) with (litn (12#1)) by (unfold litn, Q2R; simpl; f_equal; field). apply (set_q (camq NoDist) 3%nat "elevation_m" (ANum (12#1)%Q)). vm. }
  assert (R : reach (floats q)) by (apply (cam_reach NoDist); [stand|vm]).
  destruct (C77_prints (floats q) 3%nat 0%nat 1%nat 2%nat 100 80 R) as (s&E).
  - at_q.
  - apply complete_q. vm.
  - apply unfrozen_q. vm.
  - exists (litn (100#1)). split; [apply get_q; vm|q2r].
  - exists (litn (80#1)). split; [apply get_q; vm|q2r].
  - exists (floats q), s. split; [exact S|]. split; [exact E|]. assert (IN : In ("elevation_m", text "    h:" ++ [9], text " m", 6%nat) (entries TiltHeading)) by (cbn; tauto).
    split; [exact IN|]. eapply (C77_assigned _ 3%nat 0%nat 1%nat 2%nat TiltHeading "elevation_m" _ _ _ 12 _ s plain_reach); try exact S; try exact E; try exact IN; try at_q. discriminate.
Qed.
(** the plain camera: no lens, rectilinear *)
Example C77_classes_example : exists s, camera_str (floats (camq NoDist)) 3%nat = Some s /\
  filter (starts (text "  lens (")) (lines s) = [text "  lens (NoDistortion):"] /\ filter (starts (text "  intrinsic (")) (lines s) = [text "  intrinsic (RectilinearProjection):"].
Proof.
  destruct plain_prints as (s&E). exists s. split; [exact E|]. apply (C77_classes (floats (camq NoDist)) 3%nat 0%nat 1%nat 2%nat Rectilinear NoDist s (text "NoDistortion") (text "RectilinearProjection")); try exact E; [exact plain_reach|at_q|at_q|at_q|cbn; auto|cbn; auto].
Qed.
(** camera.elevation_m = inf, then print(camera) *)
Example C77_not_finite_example : exists h s, reach h /\ cam_at h 3%nat 0%nat 1%nat 2%nat /\ orient_at h 1%nat TiltHeading /\ camera_str h 3%nat = Some s /\
  get_num h 3%nat "elevation_m" = Some PInf /\ filter (starts (text "    h:" ++ [9])) (lines s) = [text "    h:" ++ [9] ++ text "inf" ++ text " m"].
Proof.
  set (h0 := floats (camq NoDist)). destruct (C56_no_raise h0 (OSet 3%nat "elevation_m" (ANum PInf)) plain_reach) as (h&X&FU).
  { apply fullb_ok; [exact plain_reach|vm]. }
  { exact Logic.I. }
  { split; [vm_compute; discriminate|discriminate]. }
  assert (S : set_attr wrapn h0 3%nat "elevation_m" (ANum PInf) = (h, true)) by exact X.
  assert (R' : reach h) by (eapply (Rstep wrapn litn h0 (OSet 3%nat "elevation_m" (ANum PInf))); [exact plain_reach|exact Logic.I|exact X]).
  destruct (reach_inv h0 plain_reach) as (HI&CI). assert (C0 : cam_at h0 3%nat 0%nat 1%nat 2%nat) by at_q. assert (O0 : orient_at h0 1%nat TiltHeading) by at_q.
  destruct (camera_reads wrapn h0 3%nat 0%nat 1%nat 2%nat "elevation_m" CI HI C0) as (_&AO&_). destruct (AO TiltHeading O0) as (RD&_); [cbn; tauto|].
  destruct (set_attr_mem wrapn wrapn_ok h0 3%nat "elevation_m" (ANum PInf) _ h HI (reads_writes _ _ _ _ RD) S) as (SM&_&_).
  pose proof (C36_read_your_write h0 3%nat "elevation_m" _ PInf h 3%nat "elevation_m" plain_reach (reads_writes _ _ _ _ RD) RD S) as G.
  rewrite (in_range_pos h0 1%nat TiltHeading "elevation_m" PInf O0) in G by discriminate.
  assert (C : cam_at h 3%nat 0%nat 1%nat 2%nat) by exact (cam_sim _ _ _ _ _ _ SM C0). assert (O : orient_at h 1%nat TiltHeading) by exact (orient_sim _ _ _ _ SM O0).
  assert (UF : forall i b n, objs h i = Some b -> (i = 3 \/ i = 2)%nat -> attrs b n = None).
  { intros i b n E Hi. destruct (sim_back _ _ _ _ SM E) as (b0&E0&(_&->&_)). destruct Hi; subst i; vm_compute in E0; inversion E0; subst b0; reflexivity. }
  assert (OT : forall n q x, n <> "elevation_m" -> In n pnames -> get_num (camq NoDist) 3%nat n = Some q -> Q2R q = x -> reads_as h 3%nat n x).
  { intros n q x Hn Hp Gq Ex. destruct (plain_reads n q x Gq Ex) as (v&Gv&Rv). exists v. split; [|exact Rv]. unfold get_num in *. rewrite <- Gv.
    erewrite (C36_others_unchanged h0 3%nat "elevation_m" _ _ h 3%nat n plain_reach (reads_writes _ _ _ _ RD)); [reflexivity| |exact S].
    intros l' W. destruct (camera_reads wrapn h0 3%nat 0%nat 1%nat 2%nat n CI HI C0) as (AP&_). destruct (AP Hp) as (W'&_). apply reads_writes in W'.
    destruct W as (b1&E1&W), W' as (b2&E2&W'). assert (l' = Loc 0%nat n) as -> by congruence. split; [discriminate|reflexivity]. }
  assert (P : exists s, camera_str h 3%nat = Some s).
  { apply (C77_prints h 3%nat 0%nat 1%nat 2%nat 100 80 R' C).
    - intros n l' W. destruct (reach_inv h R') as (HI'&_). assert (V : valid h l') by (eapply writes_valid; [exact HI'|exact W]). destruct W as (b&E&A).
      assert (RD' : reads h 3%nat n l') by (exists b; split; [exact E|split; [apply (UF 3%nat b n E); auto|exact A]]).
      rewrite (reads_num _ _ _ _ RD'). destruct FU as (FR&_). specialize (FR l' V). destruct (rdl h l'); [eauto|congruence].
    - intros b n E _. apply (UF 2%nat b n E); auto.
    - apply (OT _ (100#1)%Q); [discriminate|cbn; tauto|vm|unfold Q2R; simpl; field].
    - apply (OT _ (80#1)%Q); [discriminate|cbn; tauto|vm|unfold Q2R; simpl; field]. }
  destruct P as (s&E). exists h, s. do 5 (split; [assumption|]).
  apply (C77_not_finite h 3%nat 0%nat 1%nat 2%nat TiltHeading s R' C O E "elevation_m" (text "    h:" ++ [9]) (text " m") 6%nat PInf (text "inf")); [cbn; tauto|exact G|cbn; auto].
Qed.
