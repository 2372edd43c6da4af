(** * C14: rays and triangles in batches *)
Require Import Reals Lra Lia List Bool Arith.
From Verif Require Import Num Vec Ray CameraTransform NdArray NdCamera NdRay PropBatch PropRay.
Import ListNotations.
Open Scope nat_scope.

(** ** Broadcasting to a common shape *)
Inductive emb : list nat -> list nat -> Prop :=
| emb_nil s : emb [] s
| emb_same n a s : emb a s -> emb (n :: a) (n :: s)
| emb_one n a s : emb a s -> emb (1 :: a) (n :: s).
#[local] Hint Constructors emb : core.
Lemma emb_refl s : emb s s.
Proof. induction s; auto. Qed.
Lemma emb_bdims s a : emb a s -> forall b, emb b s -> exists u, bdims a b = Some u /\ emb u s /\
  (a = s \/ b = s -> u = s) /\
  forall i, inb i s -> bidx a (bidx u i) = bidx a i /\ bidx b (bidx u i) = bidx b i.
Proof.
  assert (ID : forall a s, emb a s -> forall i, inb i s -> bidx a (bidx a i) = bidx a i).
  { clear. induction 1; intros i I; inversion I; subst; cbn [bidx]; auto; rewrite IHemb by auto; f_equal; destruct (_ =? _); auto. }
  induction 1 as [s|n a s H IH|n a s H IH]; intros b HB.
  - exists b. split; auto. split; auto. split; [intros [<- | E]; auto; inversion HB; auto|]. intros i I. split; auto. apply (ID b s); auto.
  - inversion HB as [s1|n1 a0 s1 H2|n1 a0 s1 H2]; subst.
    + exists (n :: a). split; auto. split; auto. split; [intros [E|E]; [auto|discriminate]|]. intros i I. split; auto. apply (ID (n :: a) (n :: s)); auto.
    + destruct (IH a0 H2) as (u&E&U&F&G). exists (n :: u). cbn [bdims]. rewrite E. cbn [obind]. rewrite Nat.eqb_refl. split; auto. split; auto.
      split; [intros [X|X]; injection X as X; f_equal; auto|]. intros i I. inversion I as [|k0 ? j0 ? L0 J0]; subst. cbn [bidx]. destruct (G _ J0) as [-> ->]. split; f_equal; destruct (n =? 1); auto.
    + destruct (IH a0 H2) as (u&E&U&F&G). exists (n :: u). cbn [bdims]. rewrite E. cbn [obind]. split; [destruct (Nat.eqb_spec n 1); subst; auto|]. split; auto.
      split; [intros [X|X]; injection X as X; f_equal; auto|]. intros i I. inversion I as [|k0 ? j0 ? L0 J0]; subst. cbn [bidx]. destruct (G _ J0) as [-> ->]. split; f_equal; destruct (n =? 1); auto.
  - inversion HB as [s1|n1 a0 s1 H2|n1 a0 s1 H2]; subst.
    + exists (1 :: a). split; auto. split; auto. split; [intros [E|E]; [auto|discriminate]|]. intros i I. split; auto. apply (ID (1 :: a) (n :: s)); auto.
    + destruct (IH a0 H2) as (u&E&U&F&G). exists (n :: u). cbn [bdims]. rewrite E. cbn [obind]. split; [destruct (Nat.eqb_spec 1 n); subst; auto|]. split; auto.
      split; [intros [X|X]; injection X as X; f_equal; auto|]. intros i I. inversion I as [|k0 ? j0 ? L0 J0]; subst. cbn [bidx]. destruct (G _ J0) as [-> ->]. split; f_equal; destruct (n =? 1); auto.
    + destruct (IH a0 H2) as (u&E&U&F&G). exists (1 :: u). cbn [bdims]. rewrite E. cbn [obind]. split; auto. split; auto.
      split; [intros [X|X]; injection X; intros; subst; f_equal; auto|]. intros i I. inversion I as [|k0 ? j0 ? L0 J0]; subst. cbn [bidx]. destruct (G _ J0) as [-> ->]. split; f_equal; auto.
Qed.
(** [a] broadcasts to shape [s] and has the values [f]; [exact]: it has shape [s] *)
Definition bv {A} (s : list nat) (a : arr A) (f : list nat -> A) : Prop :=
  emb (dims a) s /\ forall i, inb i s -> get a (bidx (dims a) i) = f i.
Definition bx {A} (s : list nat) (a : arr A) (f : list nat -> A) : Prop := dims a = s /\ forall i, inb i s -> get a i = f i.
Definition b3 (s : list nat) (a : arr num) (F : list nat -> v3 num) : Prop :=
  exists t, dims a = 3 :: t /\ emb t s /\ forall i, inb i s -> row3 a (bidx t i) = F i.
Definition x3 (s : list nat) (a : arr num) (F : list nat -> v3 num) : Prop := dims a = 3 :: s /\ forall i, inb i s -> row3 a i = F i.
Lemma bx_bv {A} s (a : arr A) f : bx s a f -> bv s a f.
Proof. intros [D G]. split; rewrite D; [apply emb_refl|]. intros i I. rewrite bidx_in; auto. Qed.
Lemma x3_b3 s a F : x3 s a F -> b3 s a F.
Proof. intros [D G]. exists s. split; auto. split; [apply emb_refl|]. intros i I. rewrite bidx_in; auto. Qed.
Lemma bv_ew1 {A B} (op : A -> B) s a f : bv s a f -> bv s (ew1 op a) (fun i => op (f i)).
Proof. intros [D G]. split; auto. intros i I. cbn [ew1 get dims]. rewrite G; auto. Qed.
Lemma bx_ew1 {A B} (op : A -> B) s a f : bx s a f -> bx s (ew1 op a) (fun i => op (f i)).
Proof. intros [D G]. split; auto. intros i I. cbn [ew1 get dims]. rewrite G; auto. Qed.
Lemma bv_ew2 {A B C} (op : A -> B -> C) a b s f g : bv s a f -> bv s b g -> dims a = s \/ dims b = s ->
  exists r, ew2 op a b = Some r /\ bx s r (fun i => op (f i) (g i)).
Proof.
  intros [DA GA] [DB GB] X. destruct (emb_bdims s _ DA _ DB) as (u&E&U&F&G). specialize (F X). subst u.
  unfold ew2. rewrite E. cbn [obind]. eexists. split; [reflexivity|]. split; auto. intros i I. cbn [get]. rewrite GA, GB; auto.
Qed.
Lemma row3_b a t k i : k < 3 -> get a (bidx (3 :: t) (k :: i)) = pick_axis k (row3 a (bidx t i)).
Proof. intros L. cbn [bidx Nat.eqb]. destruct k as [|[|[|]]]; auto; lia. Qed.
(** vectors with vectors *)
Lemma b3_ew2 op a b s F G : b3 s a F -> b3 s b G -> exists r, ew2 op a b = Some r /\ b3 s r (fun i => zip3v op (F i) (G i)) /\
  (dims a = 3 :: s \/ dims b = 3 :: s -> dims r = 3 :: s).
Proof.
  intros (t&DA&ET&GA) (u&DB&EU&GB). destruct (emb_bdims s t ET u EU) as (w&E&W&FW&GW).
  assert (EB : bdims (3 :: t) (3 :: u) = Some (3 :: w)) by (cbn [bdims]; rewrite E; reflexivity).
  unfold ew2. rewrite DA, DB, EB. cbn [obind]. eexists. split; [reflexivity|]. cbn [dims get].
  split; [|intros [X|X]; injection X as X; rewrite FW; auto].
  exists w. split; auto. split; auto. intros i I. destruct (GW i I) as [G1 G2].
  unfold row3 at 1. cbn [get]. rewrite !row3_b by lia. rewrite G1, G2, GA, GB by auto. reflexivity.
Qed.
(** a number for every vector *)
Lemma newlast_b3 (op : num -> num -> num) (a b : arr num) s f G : bv s a f -> b3 s b G -> exists r, ew2 op (newlast a) b = Some r /\ b3 s r (fun i => map3v (op (f i)) (G i)) /\
  (dims a = s \/ dims b = 3 :: s -> dims r = 3 :: s).
Proof.
  intros [EA GA] (u&DB&EU&GB). destruct (emb_bdims s _ EA u EU) as (w&E&W&FW&GW).
  assert (EB : bdims (1 :: dims a) (3 :: u) = Some (3 :: w)) by (cbn [bdims]; rewrite E; reflexivity).
  unfold ew2. cbn [newlast dims]. rewrite DB, EB. cbn [obind]. eexists. split; [reflexivity|]. cbn [dims get].
  split; [|intros [X|X]; [|injection X as X]; rewrite FW; auto].
  exists w. split; auto. split; auto. intros i I. destruct (GW i I) as [G1 G2].
  unfold row3 at 1. cbn [get]. rewrite !row3_b by lia. cbn [newlast get bidx Nat.eqb tl]. rewrite G1, G2, GA, GB by auto. reflexivity.
Qed.
Lemma inner_b a b s F G : b3 s a F -> b3 s b G -> exists r, my_inner a b = Some r /\ bv s r (fun i => nv_dot (F i) (G i)) /\
  (dims a = 3 :: s \/ dims b = 3 :: s -> dims r = s).
Proof.
  intros HA HB. destruct (b3_ew2 nmul a b s F G HA HB) as (r&E&(t&DR&ET&GR)&FD). unfold my_inner, sum_last. rewrite E. cbn [obind]. rewrite DR.
  eexists. split; [reflexivity|]. cbn [dims get]. split; [|intros X; specialize (FD X); rewrite DR in FD; injection FD; auto].
  split; auto. intros i I. specialize (GR i I).
  pose proof (f_equal cx GR) as G1. pose proof (f_equal cy GR) as G2. pose proof (f_equal cz GR) as G3.
  unfold row3, zip3v in G1, G2, G3. cbn [cx cy cz] in G1, G2, G3. cbn [dims get sum_to]. rewrite G1, G2, G3. reflexivity.
Qed.
Lemma setmask_bx {A} s (a : arr A) m v f g : bx s a f -> bx s m g -> exists r, setmask a m v = Some r /\ bx s r (fun i => if g i then v else f i).
Proof.
  intros [DA GA] [DM GM]. unfold setmask. rewrite DA, DM, Nat.sub_diag. cbn [skipn]. destruct (list_eq_dec _ _ _) as [|N]; [|congruence].
  eexists. split; [reflexivity|]. split; auto. intros i I. cbn [get]. rewrite GA, GM; auto.
Qed.

(** ** The triangles *)
Definition corner_row (t : arr num) (k j : nat) : v3 num := V3 (get t [0; k; j]) (get t [1; k; j]) (get t [2; k; j]).
Definition tri_row (t : arr num) (j : nat) : tri num := V3 (corner_row t 0 j) (corner_row t 1 j) (corner_row t 2 j).
Definition mesh_of (t : arr num) (n : nat) : list (tri num) := map (tri_row t) (seq 0 n).
Lemma corner_x3 t n k : dims t = [3; 3; n] -> k < 3 -> exists r, corner k t = Some r /\ x3 [n] r (fun i => corner_row t k (hd 0 i)).
Proof.
  intros E L. unfold corner. rewrite E. destruct (Nat.ltb_spec k 3); [|lia]. eexists. split; [reflexivity|]. split; auto.
  intros i I. destruct (inb_single _ _ I) as (a&->). reflexivity.
Qed.
Lemma x3_ew2 op a b s F G : x3 s a F -> x3 s b G -> exists r, ew2 op a b = Some r /\ x3 s r (fun i => zip3v op (F i) (G i)).
Proof.
  intros A B. pose proof A as [DA _]. destruct (b3_ew2 op a b s F G (x3_b3 _ _ _ A) (x3_b3 _ _ _ B)) as (r&E&(t&DR&ET&GR)&FD).
  exists r. split; auto. specialize (FD (or_introl DA)). split; auto. intros i I. rewrite DR in FD. injection FD as ->. rewrite <- GR by auto. rewrite bidx_in; auto.
Qed.
Lemma cross_x3 a b s F G : x3 s a F -> x3 s b G -> exists r, cross a b = Some r /\ x3 s r (fun i => nv_cross (F i) (G i)).
Proof.
  intros [DA GA] [DB GB]. unfold cross. rewrite DA, DB. destruct (list_eq_dec _ _ _) as [|N]; [|congruence]. eexists. split; [reflexivity|].
  split; auto. intros i I. unfold row3 at 1. cbn [get]. rewrite GA, GB by auto. destruct (nv_cross _ _); reflexivity.
Qed.
(** one entry per triangle becomes one entry per ray and triangle *)
Lemma newpen_b3 a n m F : x3 [n] a F -> exists r, newpen a = Some r /\ b3 [m; n] r (fun i => F (tl i)) /\ dims r = [3; 1; n].
Proof.
  intros [D G]. unfold newpen. rewrite D. eexists. split; [reflexivity|]. split; [|reflexivity]. exists [1; n]. split; auto. split; auto.
  intros i I. inversion I as [|k ? j ? L J]; subst. cbn [tl]. rewrite <- G by auto. cbn [bidx Nat.eqb]. rewrite <- (bidx_in [n] j J) at 2. reflexivity.
Qed.
Lemma newlast_bv (a : arr num) n m f : bx [n] a f -> bv [m; n] (newlast a) (fun i => f (tl i)).
Proof.
  intros [D G]. split; cbn [newlast dims get]; rewrite D; auto.
  intros i I. inversion I as [|k ? j ? L J]; subst. cbn [tl]. rewrite <- G by auto. cbn [bidx Nat.eqb tl]. rewrite <- (bidx_in [n] j J) at 2. reflexivity.
Qed.
Lemma newsecond_bv (a : arr num) n m f : bx [n] a f -> exists r, newsecond a = Some r /\ bv [m; n] r (fun i => f (tl i)).
Proof.
  intros [D G]. unfold newsecond. rewrite D. eexists. split; [reflexivity|]. cbn [removelast last length app dims get firstn skipn]. split; cbn [dims get]; auto.
  intros i I. inversion I as [|k ? j ? L J]; subst. cbn [tl]. rewrite <- G by auto. cbn [bidx Nat.eqb]. rewrite <- (bidx_in [n] j J) at 2. reflexivity.
Qed.
Lemma rays_b3 d r n : dims d = [3; r] -> b3 [r; n] d (fun i => row3 d [hd 0 i]).
Proof.
  intros D. exists [r]. split; auto. split; auto. intros i I. inversion I as [|k ? j ? L J]; subst. cbn [hd]. f_equal. cbn [bidx].
  f_equal. destruct (Nat.eqb_spec r 1); lia.
Qed.
(** the origins: one, or one for every ray *)
Definition origin_row (o : arr num) (i : nat) : v3 num := match dims o with [_] => row3 o [] | _ => row3 o [i] end.
Lemma origin_b3 o r n : dims o = [3] \/ dims o = [3; r] -> b3 [r; n] o (fun i => origin_row o (hd 0 i)).
Proof.
  intros [D|D].
  - exists []. split; auto. split; auto. intros i I. unfold origin_row. rewrite D. reflexivity.
  - destruct (rays_b3 o r n D) as (t&E). exists t. unfold origin_row. rewrite D. rewrite D in E. exact E.
Qed.
Lemma origin_new o r n : dims o = [3] \/ dims o = [3; r] -> exists p, newfirst o = Some p /\ b3 [r; n] p (fun i => origin_row o (hd 0 i)) /\ (dims o = [3; r] -> dims p = [3; r; 1]).
Proof.
  intros D. unfold newfirst, origin_row. destruct D as [D|D]; rewrite D; cbn [app]; (eexists; split; [reflexivity|]).
  - split; [|intros X; discriminate]. exists [1]. split; auto. split; auto. intros i I. inversion I as [|k ? j ? L J]; subst. reflexivity.
  - split; [|auto]. exists [r; 1]. split; auto. split; auto. intros i I. inversion I as [|k ? j ? L J]; subst. destruct (inb_single _ _ J) as (a&->).
    cbn [hd]. unfold row3. cbn [get bidx removelast]. replace (if r =? 1 then 0 else k) with k by (destruct (Nat.eqb_spec r 1); lia). reflexivity.
Qed.
(** the directions: one (1, 3) or one for every ray *)
Definition ray_row (d : arr num) (i : nat) : v3 num := match dims d with [_; 1] => row3 d [0] | _ => row3 d [i] end.
Lemma ray_row_all d r i : dims d = [3; r] -> i < r -> ray_row d i = row3 d [i].
Proof. intros D L. unfold ray_row. rewrite D. destruct r as [|[|]]; auto. replace i with 0 by lia. auto. Qed.
Definition rays_ok (o d : arr num) (r : nat) : Prop := (dims o = [3] /\ dims d = [3; r]) \/ (dims o = [3; r] /\ (dims d = [3; r] \/ dims d = [3; 1])).
Lemma rays_row d r n : dims d = [3; r] \/ dims d = [3; 1] -> b3 [r; n] d (fun i => ray_row d (hd 0 i)).
Proof.
  unfold ray_row. intros [D|D]; rewrite D.
  - destruct (rays_b3 d r n D) as (t&E&F&G). exists t. split; auto. split; auto. intros i I. rewrite (G i I). destruct r as [|[|]]; auto.
    inversion I as [|k ? j ? L J]; subst. cbn [hd]. replace k with 0 by lia. auto.
  - exists [1]. split; auto. split; auto. intros i I. inversion I; subst. reflexivity.
Qed.
Lemma pairs_bv a b n r F : x3 [n] a F -> dims b = [3; r] \/ dims b = [3; 1] -> exists p, inner a b = Some p /\
  bv [r; n] p (fun i => nv_dot (F (tl i)) (ray_row b (hd 0 i))) /\ (dims b = [3; r] -> dims p = [r; n]).
Proof.
  intros [DA GA] DB. unfold inner, ray_row. rewrite DA. destruct DB as [DB|DB]; rewrite DB; cbn [Nat.eqb]; (eexists; split; [reflexivity|]).
  - split; auto. split; [apply emb_refl|]. intros i I. cbn [dims get]. rewrite bidx_in by auto. inversion I as [|k ? j ? L J]; subst. destruct (inb_single _ _ J) as (a0&->).
    cbn [get hd tl sum_to]. rewrite <- GA by auto. destruct r as [|[|]]; auto. replace k with 0 by lia. reflexivity.
  - split; [|intros X; injection X as <-; auto]. split; [constructor; apply emb_refl|]. intros i I. cbn [dims get]. inversion I as [|k ? j ? L J]; subst.
    change (bidx [1; n] (k :: j)) with (0 :: bidx [n] j). rewrite (bidx_in [n] j J). destruct (inb_single _ _ J) as (a0&->). cbn [get hd tl sum_to]. rewrite <- GA by auto. reflexivity.
Qed.
Lemma inner_bx a b n F G : x3 [n] a F -> x3 [n] b G -> exists r, my_inner a b = Some r /\ bx [n] r (fun i => nv_dot (F i) (G i)).
Proof.
  intros A B. destruct (inner_b a b [n] F G (x3_b3 _ _ _ A) (x3_b3 _ _ _ B)) as (r&E&[_ GR]&D). exists r. split; auto.
  specialize (D (or_introl (proj1 A))). split; auto. intros i I. rewrite D in GR. rewrite <- GR by auto. rewrite bidx_in; auto.
Qed.
Lemma ew2_dims {A B C} (op : A -> B -> C) a b r s : ew2 op a b = Some r -> bdims (dims a) (dims b) = Some s -> dims r = s.
Proof. unfold ew2. intros E H. rewrite H in E. cbn [obind] in E. injection E as <-. reflexivity. Qed.
Lemma param_rows o d t up r n : rays_ok o d r -> dims t = [3; 3; n] ->
  exists p, param_a o d t up = Some p /\
    bx [r; n] p (fun i => tri_param up (origin_row o (hd 0 i)) (ray_row d (hd 0 i)) (tri_row t (hd 0 (tl i)))).
Proof.
  intros HR HT. assert (HO : dims o = [3] \/ dims o = [3; r]) by (destruct HR as [[? ?]|[? ?]]; auto).
  assert (HD : dims d = [3; r] \/ dims d = [3; 1]) by (destruct HR as [[? ?]|[? ?]]; auto).
  assert (HX : dims o = [3; r] \/ dims d = [3; r]) by (destruct HR as [[? ?]|[? ?]]; auto). unfold param_a.
  destruct (corner_x3 t n 0 HT) as (v0&E0&X0); [lia|]. rewrite E0. cbn [obind].
  destruct (corner_x3 t n 1 HT) as (v1&E1&X1); [lia|]. rewrite E1. cbn [obind].
  destruct (corner_x3 t n 2 HT) as (v2&E2&X2); [lia|]. rewrite E2. cbn [obind].
  destruct (x3_ew2 nsub v1 v0 _ _ _ X1 X0) as (u&EU&XU). rewrite EU. cbn [obind].
  destruct (x3_ew2 nsub v2 v0 _ _ _ X2 X0) as (v&EV&XV). rewrite EV. cbn [obind].
  destruct (cross_x3 u v _ _ _ XU XV) as (nn&EN&XN). rewrite EN. cbn [obind].
  destruct (pairs_bv nn d n r _ XN HD) as (b&EB&XB&DB). rewrite EB. cbn [obind].
  destruct (newpen_b3 nn n r _ XN) as (nn'&EN'&XN'&_). rewrite EN'. cbn [obind].
  destruct (newpen_b3 v0 n r _ X0) as (v0'&E0'&X0'&D0'). rewrite E0'. cbn [obind].
  destruct (origin_new o r n HO) as (o'&EO'&XO'&DO'). rewrite EO'. cbn [obind].
  destruct (b3_ew2 nsub v0' o' _ _ _ X0' XO') as (df&EDF&XDF&DDF). rewrite EDF. cbn [obind].
  destruct (inner_b nn' df _ _ _ XN' XDF) as (a&EA&XA&DA). rewrite EA. cbn [obind].
  assert (AB : dims a = [r; n] \/ dims b = [r; n]).
  { destruct HX as [H|H]; [left|right; auto]. apply DA. right. apply (ew2_dims _ _ _ _ [3; r; n] EDF). rewrite D0', (DO' H). cbn [bdims obind]. destruct n as [|[|]]; cbn [Nat.eqb obind]; destruct r as [|[|]]; auto. }
  assert (AB' : dims b = [r; n] \/ dims a = [r; n]) by (destruct AB; auto).
  destruct (bv_ew2 ndiv a b _ _ _ XA XB AB) as (r0&ER0&XR0). rewrite ER0. cbn [obind].
  destruct (bv_ew2 andb _ _ _ _ _ (bv_ew1 (fun b => neqb b zero) _ _ _ XB) (bv_ew1 (fun a => negb (neqb a zero)) _ _ _ XA) AB')
    as (m1&EM1&XM1). rewrite EM1. cbn [obind].
  destruct (setmask_bx _ _ _ NaN _ _ XR0 XM1) as (r1&ER1&XR1). rewrite ER1. cbn [obind].
  destruct (bv_ew2 andb _ _ _ _ _ (bv_ew1 (fun b => neqb b zero) _ _ _ XB) (bv_ew1 (fun a => neqb a zero) _ _ _ XA) AB')
    as (m2&EM2&XM2). rewrite EM2. cbn [obind].
  destruct (setmask_bx _ _ _ (Fin 0) _ _ XR1 XM2) as (r2&ER2&XR2). rewrite ER2. cbn [obind].
  destruct (setmask_bx _ _ _ NaN _ _ XR2 (bx_ew1 (fun r => (r <? zero)%num) _ _ _ XR2)) as (r3&ER3&XR3). rewrite ER3. cbn [obind].
  destruct up.
  { exists r3. split; [reflexivity|exact XR3]. }
  destruct (newlast_b3 nmul r3 d _ _ _ (bx_bv _ _ _ XR3) (rays_row d r n HD)) as (w1&EW1&XW1&DW1). rewrite EW1. cbn [obind].
  specialize (DW1 (or_introl (proj1 XR3))).
  destruct (b3_ew2 nadd o w1 _ _ _ (origin_b3 o r n HO) XW1) as (w2&EW2&XW2&DW2). rewrite EW2. cbn [obind]. specialize (DW2 (or_intror DW1)).
  destruct (b3_ew2 nsub w2 v0' _ _ _ XW2 X0') as (w&EW&XW&DW). rewrite EW. cbn [obind]. specialize (DW (or_introl DW2)).
  destruct (inner_bx u v _ _ _ XU XV) as (uv&EUV&XUV). rewrite EUV. cbn [obind].
  destruct (inner_bx u u _ _ _ XU XU) as (uu&EUU&XUU). rewrite EUU. cbn [obind].
  destruct (inner_bx v v _ _ _ XV XV) as (vv&EVV&XVV). rewrite EVV. cbn [obind].
  destruct (bv_ew2 nmul uv uv _ _ _ (bx_bv _ _ _ XUV) (bx_bv _ _ _ XUV) (or_introl (proj1 XUV))) as (d1&ED1&XD1). rewrite ED1. cbn [obind].
  destruct (bv_ew2 nmul uu vv _ _ _ (bx_bv _ _ _ XUU) (bx_bv _ _ _ XVV) (or_introl (proj1 XUU))) as (d2&ED2&XD2). rewrite ED2. cbn [obind].
  destruct (bv_ew2 nsub d1 d2 _ _ _ (bx_bv _ _ _ XD1) (bx_bv _ _ _ XD2) (or_introl (proj1 XD1))) as (dn&EDN&XDN). rewrite EDN. cbn [obind].
  destruct (newsecond_bv dn n r _ XDN) as (dn'&EDN'&XDN'). rewrite EDN'. cbn [obind].
  destruct (newpen_b3 v n r _ XV) as (v'&EV'&XV'&_). rewrite EV'. cbn [obind].
  destruct (newpen_b3 u n r _ XU) as (u'&EU'&XU'&_). rewrite EU'. cbn [obind].
  destruct (inner_b w v' _ _ _ XW XV') as (wv&EWV&XWV&DWV). rewrite EWV. cbn [obind]. specialize (DWV (or_introl DW)).
  destruct (inner_b w u' _ _ _ XW XU') as (wu&EWU&XWU&DWU). rewrite EWU. cbn [obind]. specialize (DWU (or_introl DW)).
  pose proof (newlast_bv uv n r _ XUV) as LUV. pose proof (newlast_bv vv n r _ XVV) as LVV. pose proof (newlast_bv uu n r _ XUU) as LUU.
  destruct (bv_ew2 nmul (newlast uv) wv _ _ _ LUV XWV (or_intror DWV)) as (s1&ES1&XS1). rewrite ES1. cbn [obind].
  destruct (bv_ew2 nmul (newlast vv) wu _ _ _ LVV XWU (or_intror DWU)) as (s2&ES2&XS2). rewrite ES2. cbn [obind].
  destruct (bv_ew2 nsub s1 s2 _ _ _ (bx_bv _ _ _ XS1) (bx_bv _ _ _ XS2) (or_introl (proj1 XS1))) as (s&ES&XS). rewrite ES. cbn [obind].
  destruct (bv_ew2 ndiv s dn' _ _ _ (bx_bv _ _ _ XS) XDN' (or_introl (proj1 XS))) as (si&ESI&XSI). rewrite ESI. cbn [obind].
  destruct (bv_ew2 orb _ _ _ _ _ (bv_ew1 (fun s => (s <? zero)%num) _ _ _ (bx_bv _ _ _ XSI)) (bv_ew1 (fun s => (Fin 1 <? s)%num) _ _ _ (bx_bv _ _ _ XSI)) (or_introl (proj1 XSI)))
    as (m3&EM3&XM3). rewrite EM3. cbn [obind].
  destruct (setmask_bx _ _ _ NaN _ _ XR3 XM3) as (r4&ER4&XR4). rewrite ER4. cbn [obind].
  destruct (bv_ew2 nmul (newlast uv) wu _ _ _ LUV XWU (or_intror DWU)) as (t1&ET1&XT1). rewrite ET1. cbn [obind].
  destruct (bv_ew2 nmul (newlast uu) wv _ _ _ LUU XWV (or_intror DWV)) as (t2&ET2&XT2). rewrite ET2. cbn [obind].
  destruct (bv_ew2 nsub t1 t2 _ _ _ (bx_bv _ _ _ XT1) (bx_bv _ _ _ XT2) (or_introl (proj1 XT1))) as (t3&ET3&XT3). rewrite ET3. cbn [obind].
  destruct (bv_ew2 ndiv t3 dn' _ _ _ (bx_bv _ _ _ XT3) XDN' (or_introl (proj1 XT3))) as (ti&ETI&XTI). rewrite ETI. cbn [obind].
  destruct (bv_ew2 nadd si ti _ _ _ (bx_bv _ _ _ XSI) (bx_bv _ _ _ XTI) (or_introl (proj1 XSI))) as (st&EST&XST). rewrite EST. cbn [obind].
  destruct (bv_ew2 orb _ _ _ _ _ (bv_ew1 (fun s => (s <? zero)%num) _ _ _ (bx_bv _ _ _ XTI)) (bv_ew1 (fun s => (Fin 1 <? s)%num) _ _ _ (bx_bv _ _ _ XST)) (or_introl (proj1 XTI)))
    as (m4&EM4&XM4). rewrite EM4. cbn [obind].
  destruct (setmask_bx _ _ _ NaN _ _ XR4 XM4) as (r5&ER5&XR5). exists r5. split; auto. split; [apply XR5|].
  intros i I. rewrite (proj2 XR5) by auto. unfold tri_param, nv_scale.
  assert (SC : forall k p, map3v (nmul k) p = map3v (fun x => (x * k)%num) p) by (intros k [p1 p2 p3]; unfold map3v; cbn [cx cy cz]; f_equal; apply nmul_comm).
  rewrite !SC. reflexivity.
Qed.
Lemma argmin_min f g m : (forall k, k <= m -> f k = nan_to_inf (g k)) ->
  f (argmin f m) = min_param (f 0) (map g (seq 1 m)) /\ argmin f m <= m.
Proof.
  intros H. induction m as [|m IH]; [split; auto|]. destruct IH as [IH1 IH2]; [intros k L; apply H; lia|].
  assert (MA : forall l b x, min_param b (l ++ [x]) = if (nan_to_inf x <? min_param b l)%num then nan_to_inf x else min_param b l).
  { induction l as [|y l IHl]; intros b x; cbn [app min_param]; auto. }
  rewrite seq_S, map_app. cbn [map]. rewrite MA, <- IH1. replace (1 + m) with (S m) by lia. rewrite <- (H (S m)) by lia. cbn [argmin].
  destruct (_ <? _)%num; split; auto.
Qed.
(** One or R origins with R directions, or R origins with one direction (1, 3); T triangles (T, 3, 3). *)
Theorem C14_ray_intersect_triangle : forall o d t up r n, rays_ok o d r -> dims t = [3; 3; n] -> 0 < n ->
  exists p, ray_intersect_triangle_a o d t up = Some p /\ dims p = [3; r] /\
    forall i, i < r -> ray_intersect_triangle up (origin_row o i) (ray_row d i) (mesh_of t n) = Some (row3 p [i]).
Proof.
  intros o d t up r n HR HT L. unfold ray_intersect_triangle_a.
  assert (HO : dims o = [3] \/ dims o = [3; r]) by (destruct HR as [[? ?]|[? ?]]; auto).
  assert (HD : dims d = [3; r] \/ dims d = [3; 1]) by (destruct HR as [[? ?]|[? ?]]; auto).
  replace (match dims d with [_] => true | _ => false end) with false by (destruct HD as [-> | ->]; reflexivity). rewrite HT. cbn [obind].
  destruct (param_rows o d t up r n HR HT) as (q&EQ&DQ&GQ). rewrite EQ. cbn [obind]. unfold nearest_a. cbn [ew1 dims]. rewrite DQ.
  destruct n as [|m]; [lia|]. cbn [obind].
  match goal with |- context [newlast (Arr [r] ?f)] => set (rI := Arr [r] f) end.
  assert (B1 : bv [r] rI (fun i => get rI i)) by (apply bx_bv; split; auto).
  assert (B2 : b3 [r] d (fun i => ray_row d (hd 0 i))).
  { unfold ray_row. destruct HD as [E|E]; rewrite E.
    - exists [r]. split; auto. split; auto. intros i I. destruct (inb_single _ _ I) as (a&->). rewrite bidx_in by auto. destruct r as [|[|]]; auto.
      inversion I; subst. cbn [hd]. replace a with 0 by lia. auto.
    - exists [1]. split; auto. split; auto. intros i I. destruct (inb_single _ _ I) as (a&->). reflexivity. }
  destruct (newlast_b3 nmul rI d _ _ _ B1 B2) as (p1&EP1&XP1&DP1). rewrite EP1. cbn [obind]. specialize (DP1 (or_introl eq_refl)).
  assert (B3 : b3 [r] o (fun i => origin_row o (hd 0 i))).
  { unfold origin_row. destruct HO as [E|E]; rewrite E.
    - exists []. split; auto.
    - exists [r]. split; auto. split; auto. intros i I. destruct (inb_single _ _ I) as (a&->). rewrite bidx_in by auto. reflexivity. }
  destruct (b3_ew2 nadd o p1 _ _ _ B3 XP1) as (p&EP&(s&DS&ES&GS)&DP). rewrite EP. cbn [obind]. specialize (DP (or_intror DP1)).
  exists p. split; auto. split; auto. intros i Li. assert (I : inb [i] [r]) by (constructor; auto; constructor).
  rewrite DP in DS. injection DS as <-. specialize (GS [i] I). rewrite bidx_in in GS by auto. rewrite GS. cbn [hd].
  unfold ray_intersect_triangle, mesh_of. rewrite map_map. cbn [seq map]. f_equal.
  unfold nv_add, nv_scale. f_equal.
  assert (V : get rI [i] = min_param (nan_to_inf (tri_param up (origin_row o i) (ray_row d i) (tri_row t 0))) (map (fun x => tri_param up (origin_row o i) (ray_row d i) (tri_row t x)) (seq 1 m))).
  { cbn [rI get ew1].
    assert (W : forall k, k <= m -> (if nisnan (get q [i; k]) then PInf else get q [i; k]) = nan_to_inf (tri_param up (origin_row o i) (ray_row d i) (tri_row t k))).
    { intros k Lk. rewrite GQ by (constructor; auto; constructor; [lia|constructor]). reflexivity. }
    destruct (argmin_min (fun k => if nisnan (get q [i; k]) then PInf else get q [i; k]) (fun x => tri_param up (origin_row o i) (ray_row d i) (tri_row t x)) m W) as [A _].
    rewrite <- (W 0) by lia. exact A. }
  rewrite V. unfold map3v. f_equal; apply nmul_comm.
Qed.
Print Assumptions C14_ray_intersect_triangle.
(** No triangles: the search for the nearest one raises. *)
Theorem C14_no_triangles : forall o d t up r, rays_ok o d r -> dims t = [3; 3; 0] -> ray_intersect_triangle_a o d t up = None.
Proof.
  intros o d t up r HR HT. unfold ray_intersect_triangle_a.
  replace (match dims d with [_] => true | _ => false end) with false by (destruct HR as [[_ ->]|[_ [-> | ->]]]; reflexivity). rewrite HT. cbn [obind].
  destruct (param_rows o d t up r 0 HR HT) as (q&EQ&DQ&GQ). rewrite EQ. cbn [obind]. unfold nearest_a. cbn [ew1 dims]. rewrite DQ. reflexivity.
Qed.
Print Assumptions C14_no_triangles.
(** One triangle (3, 3). *)
Definition one_tri (t : arr num) : tri num := V3 (row3 t [0]) (row3 t [1]) (row3 t [2]).
Theorem C14_one_triangle : forall o d t up r, rays_ok o d r -> dims t = [3; 3] ->
  exists p, ray_intersect_triangle_a o d t up = Some p /\ dims p = [3; r] /\
    forall i, i < r -> ray_intersect_triangle up (origin_row o i) (ray_row d i) [one_tri t] = Some (row3 p [i]).
Proof.
  intros o d t up r HR HT. assert (E : newfirst t = Some (Arr [3; 3; 1] (fun i => get t (removelast i)))) by (unfold newfirst; rewrite HT; reflexivity).
  destruct (C14_ray_intersect_triangle o d (Arr [3; 3; 1] (fun i => get t (removelast i))) up r 1 HR eq_refl) as (p&EP&DP&GP); [lia|].
  exists p. split; [|split; auto]. rewrite <- EP. unfold ray_intersect_triangle_a. rewrite HT, E. reflexivity.
Qed.
Print Assumptions C14_one_triangle.
(** One ray (3): one point (3); with R origins (R, 3) only the point of the first ray comes back. *)
Lemma single_ray : forall o d t up r n, dims o = [3] /\ r = 1 \/ dims o = [3; r] -> dims d = [3] -> dims t = [3; 3; n] -> 0 < n -> 0 < r ->
  exists p, ray_intersect_triangle_a o d t up = Some p /\ dims p = [3] /\
    ray_intersect_triangle up (origin_row o 0) (row3 d []) (mesh_of t n) = Some (row3 p []).
Proof.
  intros o d t up r n HO HD HT L LR.
  set (d' := Arr [3; 1] (fun i => get d (removelast i))).
  assert (E : newfirst d = Some d') by (unfold newfirst; rewrite HD; reflexivity).
  assert (HR : rays_ok o d' r) by (destruct HO as [[H ->]|H]; [left|right]; auto).
  destruct (C14_ray_intersect_triangle o d' t up r n HR HT L) as (p&EP&DP&GP).
  exists (Arr [3] (fun i => get p (i ++ [0]))). split; [|split; auto].
  - unfold ray_intersect_triangle_a in *. rewrite HD, E. cbn [obind d' dims] in *. fold d' in EP |- *. rewrite HT in *. cbn [obind] in *.
    destruct (param_a o d' t up); cbn [obind] in *; [|discriminate]. destruct (nearest_a _); cbn [obind] in *; [|discriminate].
    destruct (ew2 nmul _ _); cbn [obind] in *; [|discriminate]. destruct (ew2 nadd _ _); cbn [obind] in *; [|discriminate]. injection EP as ->. unfold first. rewrite DP. cbn [last].
    destruct (Nat.eqb_spec r 0); [lia|]. reflexivity.
  - rewrite (GP 0 LR : ray_intersect_triangle up (origin_row o 0) (row3 d []) (mesh_of t n) = _). reflexivity.
Qed.
Theorem C14_single_ray : forall o d t up n, dims o = [3] -> dims d = [3] -> dims t = [3; 3; n] -> 0 < n ->
  exists p, ray_intersect_triangle_a o d t up = Some p /\ dims p = [3] /\
    ray_intersect_triangle up (row3 o []) (row3 d []) (mesh_of t n) = Some (row3 p []).
Proof.
  intros o d t up n HO HD HT L. destruct (single_ray o d t up 1 n (or_introl (conj HO eq_refl)) HD HT L) as (p&EP&DP&GP); [lia|].
  exists p. split; auto. split; auto. unfold origin_row in GP. rewrite HO in GP. auto.
Qed.
Print Assumptions C14_single_ray.
(** The docstring admits (R, 3) origins with a direction (3); all but the first result are dropped. *)
Theorem C14_origins_refuted : exists o d t p, dims o = [3; 2] /\ dims d = [3] /\ dims t = [3; 3; 1] /\
  ray_intersect_triangle_a o d t true = Some p /\ dims p = [3].
Proof.
  set (o := Arr [3; 2] (fun _ => Fin 0)). set (d := Arr [3] (fun _ => Fin 1)). set (t := Arr [3; 3; 1] (fun _ => Fin 0)).
  destruct (single_ray o d t true 2 1 (or_intror eq_refl) eq_refl eq_refl) as (p&EP&DP&_); [lia|lia|]. exists o, d, t, p. auto.
Qed.
Print Assumptions C14_origins_refuted.
(** Projecting image points on a mesh: every point on its own, for a batch and for a single point. *)
Theorem C14_mesh : forall c p s t n, dims p = 2 :: s -> length s <= 1 -> dims t = [3; 3; n] -> 0 < n ->
  exists r, spaceFromImage_mesh_a c p t = Some r /\ dims r = 3 :: s /\
    forall i, inb i s -> spaceFromImage (camera_of c) (row2 p i) (Constr None None None None (Some (mesh_of t n))) = Some (row3 r i).
Proof.
  intros c p s t n E L HT LN. unfold spaceFromImage_mesh_a. rewrite (ensure_some _ _ _ E). cbn [obind].
  destruct (C14_getRay c p s false E) as (o&d&ER&DO&RO&DD&GD). rewrite ER. cbn [obind fst snd].
  assert (OR : forall i, inb i s -> ray_origin (camera_of c) = row3 o [] /\ ray_direction (camera_of c) (row2 p i) false = row3 d i).
  { intros i I. specialize (GD i I). pose proof (f_equal fst GD) as G1. pose proof (f_equal snd GD) as G2. auto. }
  unfold spaceFromImage. cbn [k_mesh].
  destruct s as [|r [|]]; [| |cbn in L; lia].
  - destruct (C14_single_ray o d t false n DO DD HT LN) as (q&EQ&DQ&GQ). exists q. split; auto. split; auto. intros i I. inversion I; subst.
    destruct (OR [] I) as [-> ->]. exact GQ.
  - destruct (C14_ray_intersect_triangle o d t false r n (or_introl (conj DO DD)) HT LN) as (q&EQ&DQ&GQ). exists q. split; auto. split; auto.
    intros i I. destruct (OR i I) as [-> ->]. destruct (inb_single _ _ I) as (a&->). inversion I; subst. rewrite <- GQ by auto.
    unfold origin_row. rewrite DO. rewrite (ray_row_all d r a DD) by auto. reflexivity.
Qed.
Print Assumptions C14_mesh.
Definition axis3 {A} (k : nat) (p : v3 A) : A := match k with 0 => cx p | 1 => cy p | _ => cz p end.
(** Two rays on two triangles above each other: the first one hits the nearer triangle. *)
Example C14_ray_example : exists o d t, rays_ok o d 2 /\ dims t = [3; 3; 2] /\ ray_row d 0 <> ray_row d 1 /\
  exists p, ray_intersect_triangle_a o d t false = Some p /\ dims p = [3; 2] /\ rep3 (row3 p [0]) (V3 (1/4) (1/4) 1)%R.
Proof.
  set (o := of3 (fin3 (V3 (1/4) (1/4) 3)%R)).
  set (d := Arr [3; 2] (fun i => match i with [2; 0] => Fin (-1) | [1; 1] => Fin (-1) | _ => Fin 0 end)).
  set (t := Arr [3; 3; 2] (fun i => match i with
    | [k; c; 0] => get (of3 (axis3 c (fint ex_tri))) [k]
    | [k; c; _] => get (of3 (axis3 c (fint ex_tri2))) [k]
    | _ => NaN end)).
  exists o, d, t. assert (HR : rays_ok o d 2) by (left; auto). split; auto. split; auto. split.
  { intros E. apply (f_equal cz) in E. cbn in E. injection E. lra. }
  destruct (C14_ray_intersect_triangle o d t false 2 2 HR eq_refl) as (p&EP&DP&GP); [lia|]. exists p. split; auto. split; auto.
  destruct C21_example as (q&EQ&RQ). specialize (GP 0 (Nat.lt_0_succ 1)).
  change (ray_intersect_triangle false (fin3 (V3 (1/4) (1/4) 3)%R) (fin3 (V3 0 0 (-1))%R) [fint ex_tri; fint ex_tri2] = Some (row3 p [0])) in GP.
  rewrite EQ in GP. assert (G : q = row3 p [0]) by congruence. rewrite <- G. exact RQ.
Qed.
