(** * C14: the gps functions process batches row by row *)
Require Import Reals Lra Lia List Bool Arith.
From Verif Require Import Num Vec Gps PropGps NdArray NdGps.
Import ListNotations.
Open Scope nat_scope.

(** [a] has one number for every index of shape [s] ([b = true]) or one number for all of them; its values are [f]. *)
Definition pos (b : bool) (i : list nat) : list nat := if b then i else [].
Definition vals (s : list nat) (b : bool) (a : arr num) (f : list nat -> num) : Prop :=
  dims a = (if b then s else []) /\ forall i, inb i s -> get a (pos b i) = f i.
Lemma vals_ew1 s b a f op : vals s b a f -> vals s b (ew1 op a) (fun i => op (f i)).
Proof. intros [D G]. split; auto. intros i H. cbn [ew1 get]. rewrite G; auto. Qed.
Lemma vals_ew2 op a b s p q f g : vals s p a f -> vals s q b g ->
  exists r, ew2 op a b = Some r /\ vals s (p || q) r (fun i => op (f i) (g i)).
Proof.
  intros [DA GA] [DB GB]. unfold ew2. rewrite DA, DB.
  assert (E : bdims (if p then s else []) (if q then s else []) = Some (if p || q then s else [])).
  { destruct p, q; cbn [orb]; [apply bdims_same|apply bdims_nil|apply bdims_nil_l|reflexivity]. }
  rewrite E. cbn [obind]. eexists. split; [reflexivity|]. split; [reflexivity|]. intros i H. cbn [get].
  rewrite <- GA, <- GB by auto. destruct p, q; cbn [orb pos]; rewrite ?bidx_nil; rewrite ?(bidx_in s i H); auto.
Qed.
Lemma vals_col (p : arr num) n s (b : bool) k : dims p = n :: (if b then s else []) -> k < n ->
  exists r, lastk k p = Some r /\ vals s b r (fun i => get p (k :: pos b i)).
Proof. intros E L. destruct (lastk_some k p n _ E L) as (r&ER&DR&GR). exists r. split; auto. split; auto. Qed.
Lemma vals_scalar s x : vals s false (scalar x) (fun _ => x).
Proof. split; auto. Qed.
Ltac vok := repeat apply vals_ew1; first [eassumption | apply vals_scalar].
Ltac vstep := match goal with
  | |- context [ew2 ?op ?a ?b] => let r := fresh "r" in let E := fresh "E" in let V := fresh "V" in
      edestruct (vals_ew2 op a b) as (r&E&V); [vok|vok|]; rewrite E; cbn [obind]
  end.
Ltac vcol p E := match goal with
  | |- context [lastk ?k p] => let r := fresh "c" in let X := fresh "E" in let V := fresh "V" in
      destruct (vals_col p _ _ _ k E) as (r&X&V); [lia|]; rewrite X; cbn [obind]
  end.
Lemma no_col (p : arr num) k n s : dims p = n :: s -> n <= k -> lastk k p = None.
Proof. intros E L. unfold lastk. rewrite E. destruct (Nat.ltb_spec k n); [lia|auto]. Qed.

(** The rows of an array with [n] columns. *)
Definition gps_row (n : nat) (p : arr num) (i : list nat) : gpt :=
  Gpt (get p (0 :: i)) (get p (1 :: i)) (if n =? 3 then Some (get p (2 :: i)) else None).
(** [p]: one point ([b = false]) or points of shape [s] with two or three columns. *)
Definition points (s : list nat) (b : bool) (n : nat) (p : arr num) : Prop := (n = 2 \/ n = 3) /\ dims p = n :: (if b then s else []).
Lemma split_rows s b n p : points s b n p -> exists la lo h, split_a p false = Some (la, lo, h) /\
  vals s b la (fun i => rad_lat (gps_row n p (pos b i))) /\ vals s b lo (fun i => rad_lon (gps_row n p (pos b i))) /\
  match h with
  | Some h => n = 3 /\ vals s b h (fun i => get p (2 :: pos b i))
  | None => n = 2
  end.
Proof.
  intros [N E]. unfold split_a. assert (2 <= n) by lia. vcol p E. vcol p E.
  destruct N; subst n.
  - rewrite (no_col p 2 2 _ E) by lia. do 3 eexists. split; [reflexivity|]. split; [|split; auto]; apply (vals_ew1 _ _ _ _ ndeg2rad); auto.
  - destruct (vals_col p 3 s b 2 E) as (h&EH&VH); [lia|]. rewrite EH.
    do 3 eexists. split; [reflexivity|]. split; [|split; [|split; auto]]; apply (vals_ew1 _ _ _ _ ndeg2rad); auto.
Qed.
Lemma bearing_rows s b1 n1 p b2 n2 q : points s b1 n1 p -> points s b2 n2 q ->
  exists r, getBearing_a p q = Some r /\ vals s (b1 || b2) r (fun i => getBearing (gps_row n1 p (pos b1 i)) (gps_row n2 q (pos b2 i))).
Proof.
  intros P Q. unfold getBearing_a.
  destruct (split_rows _ _ _ _ P) as (la1&lo1&h1&E1&A1&O1&_). destruct (split_rows _ _ _ _ Q) as (la2&lo2&h2&E2&A2&O2&_).
  rewrite E1. cbn [obind]. rewrite E2. cbn [obind]. repeat vstep. eexists. split; [reflexivity|].
  apply (vals_ew1 _ _ _ _ nrad2deg) in V5. destruct b1, b2; exact V5.
Qed.
Lemma distance_rows s b1 n1 p b2 n2 q : points s b1 n1 p -> points s b2 n2 q ->
  exists r, getDistance_a p q = Some r /\ vals s (b1 || b2) r (fun i => getDistance (gps_row n1 p (pos b1 i)) (gps_row n2 q (pos b2 i))).
Proof.
  intros P Q. unfold getDistance_a.
  destruct (split_rows _ _ _ _ P) as (la1&lo1&h1&E1&A1&O1&H1). destruct (split_rows _ _ _ _ Q) as (la2&lo2&h2&E2&A2&O2&H2).
  rewrite E1. cbn [obind]. rewrite E2. cbn [obind]. do 5 vstep.
  destruct h1 as [h1|].
  - destruct H1 as [-> H1]. destruct h2 as [h2|].
    + destruct H2 as [-> H2]. do 2 vstep. eexists. split; [reflexivity|]. apply (vals_ew1 _ _ _ _ nsqrt) in V5.
      destruct b1, b2; exact V5.
    + subst n2. eexists. split; [reflexivity|]. apply (vals_ew1 _ _ _ _ (fun a => earth * (Fin 2 * nasin (nsqrt a)))%num) in V3. destruct b1, b2; exact V3.
  - subst n1. eexists. split; [reflexivity|]. apply (vals_ew1 _ _ _ _ (fun a => earth * (Fin 2 * nasin (nsqrt a)))%num) in V3.
    unfold getDistance. cbn [gps_row hgt Nat.eqb]. destruct b1, b2; exact V3.
Qed.
Lemma vals_b s b b' a f : vals s b a f -> b = b' -> vals s b' a f.
Proof. intros H <-. auto. Qed.
Ltac same := repeat match goal with b : bool |- _ => destruct b end; reflexivity.
Lemma rows3_of_stack s b x y z f g h : vals s b x f -> vals s b y g -> vals s b z h ->
  exists t, stack [x; y; z] = Some t /\ dims (T t) = 3 :: rev (if b then s else []) /\
    forall i, inb i s -> row3 (T t) (rev (pos b i)) = V3 (f i) (g i) (h i).
Proof.
  intros [D1 G1] [D2 G2] [D3 G3].
  destruct (stack_T3 x y z (rev (if b then s else []))) as (t&E&D&G); try (rewrite rev_involutive; auto).
  exists t. split; auto. split; auto. intros i H. rewrite G, rev_involutive, G1, G2, G3; auto.
Qed.
Lemma rows2_of_stack s b x y f g : vals s b x f -> vals s b y g ->
  exists t, stack [x; y] = Some t /\ dims (T t) = 2 :: rev (if b then s else []) /\
    forall i, inb i s -> row2 (T t) (rev (pos b i)) = V2 (f i) (g i).
Proof.
  intros [D1 G1] [D2 G2].
  destruct (stack_T2 x y (rev (if b then s else []))) as (t&E&D&G); try (rewrite rev_involutive; auto).
  exists t. split; auto. split; auto. intros i H. rewrite G, rev_involutive, G1, G2; auto.
Qed.
(** the result of moveDistance is transposed: the index of a row is reversed *)
Lemma move_rows s (b1 : bool) n p (b2 : bool) d (b3 : bool) be : points s b1 n p -> dims d = (if b2 then s else []) -> dims be = (if b3 then s else []) ->
  let b := b1 || b2 || b3 in
  exists r, moveDistance_a p d be = Some r /\ dims r = n :: rev (if b then s else []) /\
    forall i, inb i s -> gps_row n r (rev (pos b i)) = moveDistance (gps_row n p (pos b1 i)) (get d (pos b2 i)) (get be (pos b3 i)).
Proof.
  intros P DD DB b. unfold moveDistance_a.
  assert (VD : vals s b2 d (fun i => get d (pos b2 i))) by (split; auto).
  assert (VB : vals s b3 be (fun i => get be (pos b3 i))) by (split; auto).
  destruct (split_rows _ _ _ _ P) as (la1&lo1&h1&E1&A1&O1&H1). rewrite E1. cbn [obind]. pose proof P as [N E].
  destruct N; subst n; rewrite E; cbn [obind].
  - repeat vstep.
    apply (vals_ew1 _ _ _ _ nasin), (vals_ew1 _ _ _ _ nrad2deg) in V3. apply (vals_ew1 _ _ _ _ nrad2deg) in V9.
    apply (vals_b _ _ b) in V3; [|subst b; same]. apply (vals_b _ _ b) in V9; [|subst b; same].
    destruct (rows2_of_stack _ _ _ _ _ _ V3 V9) as (t&ET&DT&GT). rewrite ET. cbn [obind]. eexists. split; [reflexivity|]. split; auto.
    intros i H. pose proof (GT i H) as G. unfold gps_row. cbn [Nat.eqb]. unfold moveDistance. cbn [hgt].
    pose proof (f_equal c1 G) as G1. pose proof (f_equal c2 G) as G2. cbn [row2 c1 c2] in G1, G2. rewrite G1, G2. reflexivity.
  - destruct (vals_col p 3 s b1 2 E) as (h&EH&VH); [lia|]. rewrite EH. cbn [obind]. repeat vstep.
    apply (vals_ew1 _ _ _ _ nasin), (vals_ew1 _ _ _ _ nrad2deg) in V4. apply (vals_ew1 _ _ _ _ nrad2deg) in V10.
    apply (vals_b _ _ b) in V4; [|subst b; same]. apply (vals_b _ _ b) in V10; [|subst b; same]. apply (vals_b _ _ b) in V11; [|subst b; same].
    destruct (rows3_of_stack _ _ _ _ _ _ _ _ V4 V10 V11) as (t&ET&DT&GT). rewrite ET. cbn [obind]. eexists. split; [reflexivity|]. split; auto.
    intros i H. pose proof (GT i H) as G. unfold gps_row. cbn [Nat.eqb]. unfold moveDistance. cbn [hgt].
    pose proof (f_equal cx G) as G1. pose proof (f_equal cy G) as G2. pose proof (f_equal cz G) as G3. cbn [row3 cx cy cz] in G1, G2, G3. rewrite G1, G2, G3. reflexivity.
Qed.
Lemma rev_short {A} (l : list A) : length l <= 1 -> rev l = l.
Proof. destruct l as [|a [|]]; cbn; auto; lia. Qed.
Lemma pos_short s b i : length s <= 1 -> inb i s -> rev (pos b i) = pos b i.
Proof. intros L H. apply rev_short. destruct b; cbn; [rewrite (inb_len _ _ H); auto|lia]. Qed.
Lemma shape_short (s : list nat) (b : bool) : length s <= 1 -> rev (if b then s else []) = if b then s else [].
Proof. intros L. apply rev_short. destruct b; cbn; auto; lia. Qed.

(** ** C14 *)
(** The points may have any number of axes; each argument is one point or an array of the common shape [s], with two or
    three columns. *)
Theorem C14_getBearing : forall s b1 n1 p b2 n2 q, points s b1 n1 p -> points s b2 n2 q ->
  exists r, getBearing_a p q = Some r /\ dims r = (if b1 || b2 then s else []) /\
    forall i, inb i s -> get r (pos (b1 || b2) i) = getBearing (gps_row n1 p (pos b1 i)) (gps_row n2 q (pos b2 i)).
Proof. intros s b1 n1 p b2 n2 q P Q. destruct (bearing_rows _ _ _ _ _ _ _ P Q) as (r&E&D&G). eauto. Qed.
Print Assumptions C14_getBearing.
Theorem C14_getDistance : forall s b1 n1 p b2 n2 q, points s b1 n1 p -> points s b2 n2 q ->
  exists r, getDistance_a p q = Some r /\ dims r = (if b1 || b2 then s else []) /\
    forall i, inb i s -> get r (pos (b1 || b2) i) = getDistance (gps_row n1 p (pos b1 i)) (gps_row n2 q (pos b2 i)).
Proof. intros s b1 n1 p b2 n2 q P Q. destruct (distance_rows _ _ _ _ _ _ _ P Q) as (r&E&D&G). eauto. Qed.
Print Assumptions C14_getDistance.
(** Any combination of one or N starts, distances and bearings. *)
Theorem C14_moveDistance : forall s (b1 : bool) n p (b2 : bool) d (b3 : bool) be, length s <= 1 ->
  points s b1 n p -> dims d = (if b2 then s else []) -> dims be = (if b3 then s else []) ->
  let b := b1 || b2 || b3 in
  exists r, moveDistance_a p d be = Some r /\ dims r = n :: (if b then s else []) /\
    forall i, inb i s -> gps_row n r (pos b i) = moveDistance (gps_row n p (pos b1 i)) (get d (pos b2 i)) (get be (pos b3 i)).
Proof.
  intros s b1 n p b2 d b3 be L P DD DB b. destruct (move_rows s b1 n p b2 d b3 be P DD DB) as (r&E&D&G).
  exists r. split; auto. rewrite shape_short in D by auto. split; auto. intros i H. rewrite <- G by auto. rewrite pos_short with (s := s); auto.
Qed.
Print Assumptions C14_moveDistance.
(** For a grid of starts the result is transposed: entry [j, i] belongs to start [i, j]. *)
Theorem C14_moveDistance_transposed : forall n a b p d be, (n = 2 \/ n = 3) -> dims p = [n; b; a] -> dims d = [] -> dims be = [] ->
  exists r, moveDistance_a p d be = Some r /\ dims r = [n; a; b] /\
    forall i j, i < a -> j < b -> gps_row n r [i; j] = moveDistance (gps_row n p [j; i]) (get d []) (get be []).
Proof.
  intros n a b p d be N E DD DB. destruct (move_rows [b; a] true n p false d false be (conj N E) DD DB) as (r&ER&D&G).
  exists r. split; auto. split; auto. intros i j Hi Hj. apply (G [j; i]). repeat constructor; auto.
Qed.
Print Assumptions C14_moveDistance_transposed.
Definition spt_row (n : nat) (p : arr num) (i : list nat) : spt :=
  Spt (get p (0 :: i)) (get p (1 :: i)) (if n =? 3 then Some (get p (2 :: i)) else None).
(** [m]: the number of columns of the result *)
Theorem C14_gpsFromSpace : forall s (b0 b : bool) n0 n sp g0, length s <= 1 -> points s b0 n0 g0 -> points s b n sp -> (b0 = true -> b = true) ->
  let m := if n =? 3 then 3 else n0 in
  exists r, gpsFromSpace_a sp g0 = Some r /\ dims r = m :: (if b then s else []) /\
    forall i, inb i s -> gps_row m r (pos b i) = gpsFromSpace (spt_row n sp (pos b i)) (gps_row n0 g0 (pos b0 i)).
Proof.
  intros s b0 b n0 n sp g0 L P0 P B m. pose proof P as [N E]. unfold gpsFromSpace_a. assert (2 <= n) by lia.
  vcol sp E. vcol sp E. vstep. rename r into rb. unfold first2. rewrite E. cbn [obind]. replace (Nat.min 2 n) with 2 by lia. unfold norm_last. cbn [dims obind].
  match goal with |- context [moveDistance_a g0 ?d ?be] => set (dist := d); set (bear := be) end.
  destruct (C14_moveDistance s b0 n0 g0 b dist b bear L P0 eq_refl) as (r&ER&DR&GR).
  { unfold bear. cbn [ew1 dims]. rewrite (proj1 V1). destruct b; reflexivity. }
  rewrite ER. cbn [obind]. assert (BB : b0 || b || b = b) by (destruct b0, b; auto; discriminate (B eq_refl)). rewrite BB in DR, GR.
  assert (GV : forall i, inb i s -> gps_row n0 r (pos b i) = moveDistance (gps_row n0 g0 (pos b0 i))
     (nsqrt (sx (spt_row n sp (pos b i)) * sx (spt_row n sp (pos b i)) + sy (spt_row n sp (pos b i)) * sy (spt_row n sp (pos b i))))%num
     (nrad2deg (natan2 (sx (spt_row n sp (pos b i))) (sy (spt_row n sp (pos b i)))))).
  { intros i H1. rewrite GR by auto. f_equal. unfold bear. cbn [ew1 get]. f_equal.
    destruct V1 as [_ V1]. specialize (V1 i H1). replace (b || b) with b in V1 by (destruct b; auto). rewrite V1. reflexivity. }
  destruct N; subst n m; cbn [Nat.eqb].
  - exists r. split; auto.
  - assert (2 <= n0) by (destruct P0; lia).
    destruct (vals_col r n0 s b 0 DR) as (a&EA&VA); [lia|]. destruct (vals_col r n0 s b 1 DR) as (o&EO&VO); [lia|].
    rewrite EA, EO. cbn [obind]. destruct (vals_col sp 3 s b 2 E) as (z&EZ&VZ); [lia|]. rewrite EZ. cbn [obind].
    destruct (rows3_of_stack _ _ _ _ _ _ _ _ VA VO VZ) as (t&ET&DT&GT). rewrite ET. cbn [obind]. eexists. split; [reflexivity|].
    rewrite shape_short in DT by auto. split; auto. intros i H1. pose proof (GT i H1) as G. rewrite (pos_short s) in G by auto.
    pose proof (f_equal cx G) as G1. pose proof (f_equal cy G) as G2. pose proof (f_equal cz G) as G3. cbn [row3 cx cy cz] in G1, G2, G3.
    unfold gps_row at 1. cbn [Nat.eqb]. rewrite G1, G2, G3. unfold gpsFromSpace. cbn [spt_row sz Nat.eqb]. rewrite <- (GV i H1 : _ = moveDistance _ (nsqrt _) _). reflexivity.
Qed.
Print Assumptions C14_gpsFromSpace.
Lemma space_rows_a s (b0 b : bool) n0 n g g0 : length s <= 1 -> points s b0 n0 g0 -> points s b n g -> (b0 = true -> b = true) ->
  len_a g = 2 \/ n = 3 ->
  exists r, spaceFromGPS_a g g0 = Some r /\ dims r = 3 :: (if b then s else []) /\
    forall i, inb i s -> space_row (len_a g) (gps_row n0 g0 (pos b0 i)) (gps_row n g (pos b i)) = Some (spt_row 3 r (pos b i)).
Proof.
  intros L P0 P B LN. pose proof P as [N E]. unfold spaceFromGPS_a.
  destruct (distance_rows _ _ _ _ _ _ _ P0 P) as (d&ED&VD). destruct (bearing_rows _ _ _ _ _ _ _ P0 P) as (be&EB&VB).
  assert (BB : b0 || b = b) by (destruct b0, b; auto; discriminate (B eq_refl)). rewrite BB in VD, VB.
  assert (X : exists h f, (if len_a g =? 2 then olet z := lastk 0 g in Some (ew1 (fun _ => Fin 0) z) else lastk 2 g) = Some h /\ vals s b h f /\
    forall i, inb i s -> (if len_a g =? 2 then Some (Fin 0) else hgt (gps_row n g (pos b i))) = Some (f i)).
  { destruct (Nat.eqb_spec (len_a g) 2) as [e|ne].
    - assert (2 <= n) by lia. vcol g E. exists (ew1 (fun _ => Fin 0) c), (fun _ => Fin 0). split; auto. split; auto. apply (vals_ew1 _ _ _ _ (fun _ => Fin 0)) in V. exact V.
    - destruct LN; [contradiction|subst n]. destruct (vals_col g 3 s b 2 E) as (h&EH&VH); [lia|]. exists h, (fun i => get g (2 :: pos b i)). split; auto. }
  destruct X as (h&f&EH&VH&GH). rewrite EH. cbn [obind]. rewrite ED. cbn [obind]. rewrite EB. cbn [obind]. repeat vstep.
  apply (vals_b _ _ b) in V; [|destruct b; auto]. apply (vals_b _ _ b) in V0; [|destruct b; auto].
  destruct (rows3_of_stack _ _ _ _ _ _ _ _ V V0 VH) as (t&ET&DT&GT). rewrite ET. cbn [obind]. eexists. split; [reflexivity|].
  rewrite shape_short in DT by auto. split; auto. intros i H. pose proof (GT i H) as G. rewrite (pos_short s) in G by auto.
  pose proof (f_equal cx G) as G1. pose proof (f_equal cy G) as G2. pose proof (f_equal cz G) as G3. cbn [row3 cx cy cz] in G1, G2, G3.
  unfold space_row. change (Nat.eqb (len_a g) 2) with (len_a g =? 2). rewrite (GH i H). unfold spt_row. cbn [Nat.eqb]. rewrite G1, G2, G3. reflexivity.
Qed.
(** One point, or N points with heights unless N = 2. *)
Theorem C14_spaceFromGPS_point : forall n0 n g g0, points [] false n0 g0 -> points [] false n g ->
  exists r, spaceFromGPS_a g g0 = Some r /\ dims r = [3] /\ spaceFromGPS (gps_row n g []) (gps_row n0 g0 []) = Some (spt_row 3 r []).
Proof.
  intros n0 n g g0 P0 P. assert (LE : len_a g = n) by (destruct P as [_ E]; unfold len_a; rewrite E; reflexivity).
  destruct (space_rows_a [] false false n0 n g g0) as (r&ER&DR&GR); auto; [destruct P as [[] _]; lia|].
  exists r. split; auto. split; auto. specialize (GR [] ltac:(constructor)). cbn [pos] in GR. rewrite LE in GR.
  unfold spaceFromGPS. replace (columns (gps_row n g [])) with n; auto. destruct P as [[-> | ->] _]; reflexivity.
Qed.
Print Assumptions C14_spaceFromGPS_point.
Theorem C14_spaceFromGPS : forall N b0 n0 g g0, N <> 2 -> points [N] b0 n0 g0 -> dims g = [3; N] ->
  exists r, spaceFromGPS_a g g0 = Some r /\ dims r = [3; N] /\
    forall i, i < N -> spaceFromGPS (gps_row 3 g [i]) (gps_row n0 g0 (pos b0 [i])) = Some (spt_row 3 r [i]).
Proof.
  intros N b0 n0 g g0 NE P0 E. assert (P : points [N] true 3 g) by (split; auto).
  destruct (space_rows_a [N] b0 true n0 3 g g0) as (r&ER&DR&GR); auto.
  exists r. split; auto. split; auto. intros i H. specialize (GR [i] ltac:(repeat constructor; auto)). cbn [pos] in GR. rewrite <- GR.
  unfold spaceFromGPS, len_a. rewrite E. cbn [columns gps_row hgt Nat.eqb last]. unfold space_row.
  destruct (Nat.eqb_spec N 2); [contradiction|]. reflexivity.
Qed.
Print Assumptions C14_spaceFromGPS.
(** Two points with heights: the heights of both rows become 0. *)
Theorem C14_two_points : forall b0 n0 n g g0, points [2] b0 n0 g0 -> (n = 2 \/ n = 3) -> dims g = [n; 2] ->
  exists r, spaceFromGPS_a g g0 = Some r /\ dims r = [3; 2] /\ forall i, i < 2 -> get r [2; i] = Fin 0.
Proof.
  intros b0 n0 n g g0 P0 N E. assert (P : points [2] true n g) by (split; auto).
  assert (LE : len_a g = 2) by (unfold len_a; rewrite E; reflexivity).
  destruct (space_rows_a [2] b0 true n0 n g g0) as (r&ER&DR&GR); auto.
  exists r. split; auto. split; auto. intros i H. assert (HI : inb [i] [2]) by (constructor; [exact H|constructor]). specialize (GR [i] HI). rewrite LE in GR.
  unfold space_row in GR. cbn [Nat.eqb] in GR. unfold spt_row in GR. cbn [Nat.eqb pos] in GR. injection GR as _ _ G. auto.
Qed.
Print Assumptions C14_two_points.
(** N points without heights: IndexError unless N = 2, although a single one is accepted. *)
Theorem C14_flat_raises : forall N g g0, N <> 2 -> dims g = [2; N] -> spaceFromGPS_a g g0 = None.
Proof.
  intros N g g0 NE E. unfold spaceFromGPS_a, len_a. rewrite E. cbn [last]. destruct (Nat.eqb_spec N 2); [contradiction|].
  rewrite (no_col g 2 2 [N] E) by lia. reflexivity.
Qed.
Print Assumptions C14_flat_raises.

(** The transposed result is not the row-wise result: a 2 x 2 grid of points on the equator. *)
Definition equator (l00 l01 l10 l11 : R) : arr num :=
  Arr [2; 2; 2] (fun i => match i with
    | [1; 0; 0] => Fin l00 | [1; 1; 0] => Fin l01 | [1; 0; 1] => Fin l10 | [1; 1; 1] => Fin l11
    | _ => Fin 0 end).
Lemma stay l : rep (lon (moveDistance (Gpt (Fin 0) (Fin l) None) (Fin 0) (Fin 0))) l.
Proof.
  unfold moveDistance, rad_lat, rad_lon, earth. cbn [lat lon hgt].
  assert (Z : rep (ndeg2rad (Fin 0)) 0%R) by (replace 0%R with (0 * (PI / 180))%R at 2 by ring; apply rep_deg2rad; apply rep_Fin).
  assert (Q : rep (Fin 0 / Fin 6371000)%num 0%R) by (replace 0%R with (0 / 6371000)%R at 2 by field; apply rep_div; [reflexivity|reflexivity|lra]).
  pose proof (rep_sin _ _ Z) as SZ. rewrite sin_0 in SZ.
  pose proof (rep_cos _ _ Z) as CZ. rewrite cos_0 in CZ.
  pose proof (rep_sin _ _ Q) as SQ. rewrite sin_0 in SQ.
  pose proof (rep_cos _ _ Q) as CQ. rewrite cos_0 in CQ.
  assert (W : exists a, rep (natan2 (nsin (ndeg2rad (Fin 0)) * nsin (Fin 0 / Fin 6371000) * ncos (ndeg2rad (Fin 0)))
     (ncos (Fin 0 / Fin 6371000) - nsin (ndeg2rad (Fin 0)) * nsin (nasin
        (nsin (ndeg2rad (Fin 0)) * ncos (Fin 0 / Fin 6371000) + ncos (ndeg2rad (Fin 0)) * nsin (Fin 0 / Fin 6371000) * ncos (ndeg2rad (Fin 0))))))%num a /\ a = 0%R).
  { eexists. split.
    - apply rep_atan2_pos.
      + apply rep_mul; [apply rep_mul|]; eauto.
      + apply rep_sub; [eauto|]. apply rep_mul; [eauto|]. apply rep_sin. apply rep_asin; [apply rep_add; [apply rep_mul; eauto|apply rep_mul; [apply rep_mul; eauto|eauto]]|lra].
      + lra.
    - unfold Ratan2. rewrite Rltb_true by lra. replace (0 * 0 * 1 / (1 - 0 * sin (asin (0 * 1 + 1 * 0 * 1))))%R with 0%R by field. apply atan_0. }
  destruct W as (a&RA&->).
  replace l with ((l * (PI / 180) + 0) * (180 / PI))%R at 2 by (field; apply PI_neq0).
  apply rep_rad2deg. apply rep_add; [apply rep_deg2rad; reflexivity|exact RA].
Qed.
Theorem C14_moveDistance_refuted : exists p d be r i s, dims p = 2 :: s /\ dims d = [] /\ dims be = [] /\ inb i s /\
  moveDistance_a p d be = Some r /\ dims r = dims p /\
  gps_row 2 r i <> moveDistance (gps_row 2 p i) (get d []) (get be []).
Proof.
  set (p := equator 0 10 20 30).
  destruct (C14_moveDistance_transposed 2 2 2 p (scalar (Fin 0)) (scalar (Fin 0)) (or_introl eq_refl) eq_refl eq_refl eq_refl) as (r&ER&DR&GR).
  exists p, (scalar (Fin 0)), (scalar (Fin 0)), r, [0; 1], [2; 2]. split; [reflexivity|]. split; [reflexivity|]. split; [reflexivity|].
  split; [repeat constructor|]. split; [exact ER|]. split; [exact DR|]. rewrite GR by lia.
  change (gps_row 2 p [1; 0]) with (Gpt (Fin 0) (Fin 10) None). change (gps_row 2 p [0; 1]) with (Gpt (Fin 0) (Fin 20) None). cbn [scalar get].
  intros A. apply (f_equal lon) in A. pose proof (stay 10) as S1. pose proof (stay 20) as S2. rewrite A in S1. pose proof (rep_inj _ _ _ S1 S2). lra.
Qed.
Print Assumptions C14_moveDistance_refuted.
(** The first rows of two points in one call lose their height. *)
Theorem C14_two_points_refuted : exists g g0 r z, dims g = [3; 2] /\ spaceFromGPS_a g g0 = Some r /\
  spaceFromGPS (gps_row 3 g [0]) (gps_row 2 g0 []) = Some z /\ spt_row 3 r [0] <> z.
Proof.
  set (g := Arr [3; 2] (fun i => match i with 2 :: _ => Fin 7 | _ => Fin 1 end)). set (g0 := of2 (V2 (Fin 0) (Fin 0))).
  assert (P0 : points [2] false 2 g0) by (split; auto).
  destruct (C14_two_points false 2 3 g g0 P0 (or_intror eq_refl) eq_refl) as (r&ER&DR&GR).
  unfold spaceFromGPS, space_row. cbn [columns gps_row hgt Nat.eqb g get].
  exists g, g0, r. eexists. split; [reflexivity|]. split; [exact ER|]. split; [reflexivity|].
  unfold spt_row. cbn [Nat.eqb]. rewrite (GR 0) by lia. intros A. apply (f_equal sz) in A. cbn [sz] in A. injection A as A. lra.
Qed.
Print Assumptions C14_two_points_refuted.
(** Three starts and one distance and bearing; hypotheses of the batch theorems. *)
Example C14_gps_example : exists p r, dims p = [2; 3] /\ moveDistance_a p (scalar (Fin 0)) (scalar (Fin 0)) = Some r /\ dims r = [2; 3] /\
  rep (get r [1; 0]) 10%R /\ rep (get r [1; 2]) 30%R.
Proof.
  set (p := Arr [2; 3] (fun i => match i with [1; 0] => Fin 10 | [1; 1] => Fin 20 | [1; 2] => Fin 30 | _ => Fin 0 end)).
  destruct (C14_moveDistance [3] true 2 p false (scalar (Fin 0)) false (scalar (Fin 0))) as (r&ER&DR&GR); auto; [split; auto|].
  exists p, r. split; [reflexivity|]. split; [exact ER|]. split; [exact DR|]. cbn [pos orb] in GR.
  pose proof (GR [0] ltac:(repeat constructor)) as A. pose proof (GR [2] ltac:(repeat constructor)) as B.
  apply (f_equal lon) in A. apply (f_equal lon) in B. unfold gps_row in A, B. cbn [lon Nat.eqb p get scalar] in A, B. rewrite A, B. split; apply stay.
Qed.
