(** * numpy arrays: shapes, broadcasting, indexing.  What the batch versions in NdCamera.v are written in.
    Rounding, dtypes and strides are left out; [None] is an exception. *)
Require Import Reals List Bool Arith Lia.
From Verif Require Import Num Vec.
Import ListNotations.
Open Scope nat_scope.

(** The dimensions are listed from the last axis to the first (an N x 3 array has [dims] = [3; N]), the indices
    likewise.  [get] matters only for indices within the dimensions (numpy; used by spatial.py 132-203,
    projection.py 379-563, camera.py 1000-1157). *)
Record arr (A : Type) := Arr { dims : list nat; get : list nat -> A }.
Arguments Arr {A}. Arguments dims {A}. Arguments get {A}.
(** valid indices; spatial.py 132-203 *)
Definition inb (i s : list nat) : Prop := Forall2 lt i s.
(** equal arrays, as seen by spatial.py, projection.py and camera.py *)
Definition arr_eq {A} (a b : arr A) : Prop := dims a = dims b /\ forall i, inb i (dims a) -> get a i = get b i.

(** an operation that raises; spatial.py 132-203 *)
Definition obind {A B} (x : option A) (f : A -> option B) : option B := match x with Some a => f a | None => None end.
Notation "'olet' x := e 'in' k" := (obind e (fun x => k)) (at level 200, x name, k at level 200).

(** ** Element-wise operations *)
(** Broadcasting: axes are aligned from the last one; a missing axis and an axis of length 1 are repeated.
    https://numpy.org/doc/stable/user/basics.broadcasting.html (numpy; spatial.py 163-164) *)
Fixpoint bdims (s t : list nat) : option (list nat) :=
  match s, t with
  | [], _ => Some t
  | _, [] => Some s
  | a :: s', b :: t' =>
    olet u := bdims s' t' in
    if a =? b then Some (a :: u) else if a =? 1 then Some (b :: u) else if b =? 1 then Some (a :: u) else None
  end.
(** numpy; spatial.py 163-164 *)
Fixpoint bidx (s i : list nat) : list nat :=
  match s, i with d :: s', k :: i' => (if d =? 1 then 0 else k) :: bidx s' i' | _, _ => [] end.
(** numpy; projection.py 381-408 *)
Definition ew1 {A B} (f : A -> B) (a : arr A) : arr B := Arr (dims a) (fun i => f (get a i)).
(** numpy; projection.py 381-408 *)
Definition ew2 {A B C} (f : A -> B -> C) (a : arr A) (b : arr B) : option (arr C) :=
  olet s := bdims (dims a) (dims b) in Some (Arr s (fun i => f (get a (bidx (dims a) i)) (get b (bidx (dims b) i)))).
(** numpy; projection.py 381-408 *)
Definition scalar {A} (x : A) : arr A := Arr [] (fun _ => x).

(** ** Indexing *)
(** a[..., k] (projection.py 381-408) *)
Definition lastk {A} (k : nat) (a : arr A) : option (arr A) :=
  match dims a with
  | [] => None
  | n :: s => if k <? n then Some (Arr s (fun i => get a (k :: i))) else None
  end.
(** a[..., None] (camera.py 1143-1157) *)
Definition newlast {A} (a : arr A) : arr A := Arr (1 :: dims a) (fun i => get a (tl i)).
(** a[:, None]: a new axis after the first one (ray.py 49-100) *)
Definition newsecond {A} (a : arr A) : option (arr A) :=
  match dims a with
  | [] => None
  | _ => let r := removelast (dims a) in
         Some (Arr (r ++ [1; last (dims a) 0])%list (fun i => get a (firstn (length r) i ++ skipn (S (length r)) i)%list))
  end.
(** a[None, :] (ray.py 49-100) *)
Definition newfirst {A} (a : arr A) : option (arr A) :=
  match dims a with [] => None | _ => Some (Arr (dims a ++ [1])%list (fun i => get a (removelast i))) end.
(** a.T (projection.py 381-390) *)
Definition T {A} (a : arr A) : arr A := Arr (rev (dims a)) (fun i => get a (rev i)).
(** x0, ..., x(n-1) = a (projection.py 381-408) *)
Definition unpack {A} (n : nat) (a : arr A) : option (list (arr A)) :=
  match dims a with
  | [] => None
  | _ => if last (dims a) 0 =? n
         then Some (map (fun k => Arr (removelast (dims a)) (fun i => get a (i ++ [k])%list)) (seq 0 n))
         else None
  end.
(** np.array([x0, ..., x(n-1)]) of arrays of one shape (of different shapes: ValueError) (projection.py 381-408) *)
Definition stack {A} (l : list (arr A)) : option (arr A) :=
  match l with
  | [] => None
  | a :: _ => if forallb (fun b => if list_eq_dec Nat.eq_dec (dims b) (dims a) then true else false) l
              then Some (Arr (dims a ++ [length l])%list (fun i => get (nth (last i 0) l a) (removelast i)))
              else None
  end.
(** a[mask] = v: the mask covers the first axes (projection.py 398-408) *)
Definition setmask {A} (a : arr A) (mask : arr bool) (v : A) : option (arr A) :=
  let n := length (dims a) - length (dims mask) in
  if list_eq_dec Nat.eq_dec (skipn n (dims a)) (dims mask)
  then Some (Arr (dims a) (fun i => if get mask (skipn n i) then v else get a i))
  else None.

(** ** Sums over the last axis *)
(** a left-to-right sum without an initial zero (numpy may group differently) (spatial.py 163-164) *)
Fixpoint sum_to (f : nat -> num) (n : nat) : num :=
  match n with O => Fin 0 | S O => f O | S m => (sum_to f m + f m)%num end.
(** np.linalg.norm(a, axis=-1) (projection.py 381-390) *)
Definition norm_last (a : arr num) : option (arr num) :=
  match dims a with [] => None | n :: s => Some (Arr s (fun i => nsqrt (sum_to (fun k => get a (k :: i) * get a (k :: i))%num n))) end.
(** np.sum(a, axis=-1) (ray.py 23-24) *)
Definition sum_last (a : arr num) : option (arr num) :=
  match dims a with [] => None | n :: s => Some (Arr s (fun i => sum_to (fun k => get a (k :: i)) n)) end.
(** np.dot(a, m) for a matrix m (spatial.py 163-164, 199-203) *)
Definition dot (a m : arr num) : option (arr num) :=
  match dims a, dims m with
  | n :: s, [q; p] =>
    if n =? p then Some (Arr (q :: s) (fun i => match i with k :: j => sum_to (fun l => get a (l :: j) * get m [k; l])%num n | [] => NaN end)) else None
  | _, _ => None
  end.

(** ** Points as arrays *)
(** spatial.py 132-203 *)
Definition of3 {A} (p : v3 A) : arr A := Arr [3] (fun i => match i with 0 :: _ => cx p | 1 :: _ => cy p | _ => cz p end).
(** projection.py 379-408 *)
Definition of2 {A} (p : v2 A) : arr A := Arr [2] (fun i => match i with 0 :: _ => c1 p | _ => c2 p end).
(** spatial.py 129-130 *)
Definition of33 (m : m3 num) : arr num :=
  Arr [3; 3] (fun i => match i with [k; l] => get (of3 (match l with 0 => cx m | 1 => cy m | _ => cz m end)) [k] | _ => NaN end).
(** the row with index [i] (spatial.py 132-203) *)
Definition row3 {A} (a : arr A) (i : list nat) : v3 A := V3 (get a (0 :: i)) (get a (1 :: i)) (get a (2 :: i)).
(** projection.py 379-408 *)
Definition row2 {A} (a : arr A) (i : list nat) : v2 A := V2 (get a (0 :: i)) (get a (1 :: i)).

(** ** Facts *)
Lemma bdims_same s : bdims s s = Some s.
Proof. induction s as [|a s IH]; cbn [bdims]; auto. rewrite IH. cbn [obind]. rewrite Nat.eqb_refl. auto. Qed.
Lemma bdims_nil s : bdims s [] = Some s.
Proof. destruct s; auto. Qed.
Lemma bdims_nil_l s : bdims [] s = Some s.
Proof. reflexivity. Qed.
Lemma bdims_one n s : bdims (n :: s) (1 :: s) = Some (n :: s).
Proof. cbn [bdims]. rewrite bdims_same. cbn [obind]. destruct (n =? 1) eqn:E; auto. Qed.
Lemma bdims_row n s : bdims (n :: s) [n] = Some (n :: s).
Proof. cbn [bdims]. rewrite bdims_nil. cbn [obind]. rewrite Nat.eqb_refl. auto. Qed.
Lemma bidx_in s i : inb i s -> bidx s i = i.
Proof.
  induction 1 as [|k d i s L _ IH]; cbn [bidx]; auto. rewrite IH. f_equal. destruct (Nat.eqb_spec d 1); lia.
Qed.
Lemma bidx_nil i : bidx [] i = [].
Proof. reflexivity. Qed.
Lemma bidx_row n k i : k < n -> bidx [n] (k :: i) = [k].
Proof. intros L. cbn [bidx]. destruct (Nat.eqb_spec n 1); [f_equal; lia|auto]. Qed.
Lemma bidx_one s k i : inb i s -> bidx (1 :: s) (k :: i) = 0 :: i.
Proof. intros H. cbn [bidx]. rewrite bidx_in by auto. auto. Qed.
Lemma inb_cons k n i s : k < n -> inb i s -> inb (k :: i) (n :: s).
Proof. constructor; auto. Qed.
Lemma inb_len i s : inb i s -> length i = length s.
Proof. induction 1; cbn; auto. Qed.

(** The columns of points: x, y = points.T *)
Lemma unpack_T2 {A} (a : arr A) s : dims a = 2 :: s ->
  exists x y, unpack 2 (T a) = Some [x; y] /\ dims x = rev s /\ dims y = rev s /\
    (forall i, get x i = get a (0 :: rev i)) /\ (forall i, get y i = get a (1 :: rev i)).
Proof.
  intros E. unfold unpack, T. cbn [dims get]. rewrite E. cbn [rev].
  destruct (rev s ++ [2])%list as [|d t] eqn:X; [destruct (rev s); discriminate|]. rewrite <- X.
  rewrite last_last. cbn [Nat.eqb seq map]. rewrite removelast_last. do 2 eexists. split; [reflexivity|]. cbn [dims get].
  repeat split; intros i; rewrite rev_app_distr; auto.
Qed.
Lemma unpack_T3 {A} (a : arr A) s : dims a = 3 :: s ->
  exists x y z, unpack 3 (T a) = Some [x; y; z] /\ dims x = rev s /\ dims y = rev s /\ dims z = rev s /\
    (forall i, get x i = get a (0 :: rev i)) /\ (forall i, get y i = get a (1 :: rev i)) /\ (forall i, get z i = get a (2 :: rev i)).
Proof.
  intros E. unfold unpack, T. cbn [dims get]. rewrite E. cbn [rev].
  destruct (rev s ++ [3])%list as [|d t] eqn:X; [destruct (rev s); discriminate|]. rewrite <- X.
  rewrite last_last. cbn [Nat.eqb seq map]. rewrite removelast_last. do 3 eexists. split; [reflexivity|]. cbn [dims get].
  repeat split; intros i; rewrite rev_app_distr; auto.
Qed.
Lemma stack_some {A} (l : list (arr A)) a s : In a l -> (forall b, In b l -> dims b = s) ->
  exists r, stack l = Some r /\ dims r = (s ++ [length l])%list /\
    forall i k, k < length l -> get r (i ++ [k])%list = get (nth k l a) i.
Proof.
  intros I H. destruct l as [|b l]; [destruct I|]. unfold stack.
  assert (F : forallb (fun b0 => if list_eq_dec Nat.eq_dec (dims b0) (dims b) then true else false) (b :: l) = true).
  { apply forallb_forall. intros x J. destruct (list_eq_dec _ _ _) as [|N]; auto. exfalso. apply N. rewrite (H x J), (H b); [auto|left; auto]. }
  rewrite F. eexists. split; [reflexivity|]. cbn [dims get]. rewrite (H b) by (left; auto). split; auto.
  intros i k L. rewrite last_last, removelast_last. f_equal. apply nth_indep. auto.
Qed.
(** np.array([a, b, c]).T *)
Lemma stack_T2 {A} (a b : arr A) s : dims a = rev s -> dims b = rev s ->
  exists r, stack [a; b] = Some r /\ dims (T r) = 2 :: s /\ forall i, row2 (T r) i = V2 (get a (rev i)) (get b (rev i)).
Proof.
  intros H1 H2. destruct (stack_some [a; b] a (rev s)) as (r&E&D&G); [left; auto|intros x [<- |[<- |[]]]; auto|].
  exists r. split; auto. unfold T. cbn [dims get]. split; [rewrite D, rev_app_distr; cbn; rewrite rev_involutive; auto|].
  intros i. unfold row2. cbn [get rev]. rewrite !G by (cbn; lia). auto.
Qed.
Lemma stack_T3 {A} (a b c : arr A) s : dims a = rev s -> dims b = rev s -> dims c = rev s ->
  exists r, stack [a; b; c] = Some r /\ dims (T r) = 3 :: s /\ forall i, row3 (T r) i = V3 (get a (rev i)) (get b (rev i)) (get c (rev i)).
Proof.
  intros H1 H2 H3. destruct (stack_some [a; b; c] a (rev s)) as (r&E&D&G); [left; auto|intros x [<- |[<- |[<- |[]]]]; auto|].
  exists r. split; auto. unfold T. cbn [dims get]. split; [rewrite D, rev_app_distr; cbn; rewrite rev_involutive; auto|].
  intros i. unfold row3. cbn [get rev]. rewrite !G by (cbn; lia). auto.
Qed.
Lemma row3_of3 {A} (p : v3 A) i : row3 (of3 p) i = p.
Proof. destruct p; reflexivity. Qed.
Lemma row2_of2 {A} (p : v2 A) i : row2 (of2 p) i = p.
Proof. destruct p; reflexivity. Qed.
(** points of shape (..., 3) combined with one point, with another array of points, with numbers, with one number
    for every point *)
Lemma ew2_point3 {A B C} (f : A -> B -> C) a p s : dims a = 3 :: s ->
  exists r, ew2 f a (of3 p) = Some r /\ dims r = 3 :: s /\ forall i, inb i s -> row3 r i = zip3v f (row3 a i) p.
Proof.
  intros E. unfold ew2. rewrite E. cbn [of3 dims]. rewrite bdims_row. cbn [obind]. eexists. split; [reflexivity|]. cbn [dims get]. split; auto.
  intros i H. unfold row3, zip3v. cbn [get cx cy cz]. rewrite !bidx_row by lia. rewrite !bidx_in by (constructor; auto). destruct p; reflexivity.
Qed.
Lemma ew2_point2 {A B C} (f : A -> B -> C) a p s : dims a = 2 :: s ->
  exists r, ew2 f a (of2 p) = Some r /\ dims r = 2 :: s /\ forall i, inb i s -> row2 r i = zip2v f (row2 a i) p.
Proof.
  intros E. unfold ew2. rewrite E. cbn [of2 dims]. rewrite bdims_row. cbn [obind]. eexists. split; [reflexivity|]. cbn [dims get]. split; auto.
  intros i H. unfold row2, zip2v. cbn [get c1 c2]. rewrite !bidx_row by lia. rewrite !bidx_in by (constructor; auto). destruct p; reflexivity.
Qed.
Lemma ew2_points3 {A B C} (f : A -> B -> C) a b s : dims a = 3 :: s -> dims b = 3 :: s ->
  exists r, ew2 f a b = Some r /\ dims r = 3 :: s /\ forall i, inb i s -> row3 r i = zip3v f (row3 a i) (row3 b i).
Proof.
  intros E F. unfold ew2. rewrite E, F, bdims_same. cbn [obind]. eexists. split; [reflexivity|]. cbn [dims get]. split; auto.
  intros i H. unfold row3, zip3v. cbn [get cx cy cz]. rewrite !bidx_in by (constructor; auto). auto.
Qed.
Lemma ew2_each3 {A B C} (f : A -> B -> C) a b s : dims a = 3 :: s -> dims b = s ->
  exists r, ew2 f a (newlast b) = Some r /\ dims r = 3 :: s /\ forall i, inb i s -> row3 r i = map3v (fun x => f x (get b i)) (row3 a i).
Proof.
  intros E F. unfold ew2, newlast. cbn [dims get]. rewrite E, F, bdims_one. cbn [obind]. eexists. split; [reflexivity|]. cbn [dims get]. split; auto.
  intros i H. unfold row3, map3v. cbn [get cx cy cz]. rewrite !bidx_one by auto. cbn [tl]. rewrite !bidx_in by (constructor; auto). auto.
Qed.
Lemma ew2_each2 {A B C} (f : A -> B -> C) a b s : dims a = 2 :: s -> dims b = s ->
  exists r, ew2 f a (newlast b) = Some r /\ dims r = 2 :: s /\ forall i, inb i s -> row2 r i = map2v (fun x => f x (get b i)) (row2 a i).
Proof.
  intros E F. unfold ew2, newlast. cbn [dims get]. rewrite E, F, bdims_one. cbn [obind]. eexists. split; [reflexivity|]. cbn [dims get]. split; auto.
  intros i H. unfold row2, map2v. cbn [get c1 c2]. rewrite !bidx_one by auto. cbn [tl]. rewrite !bidx_in by (constructor; auto). auto.
Qed.
Lemma ew2_scalar {A B C} (f : A -> B -> C) a b : dims b = [] ->
  exists r, ew2 f a b = Some r /\ dims r = dims a /\ forall i, inb i (dims a) -> get r i = f (get a i) (get b []).
Proof.
  intros E. unfold ew2. rewrite E, bdims_nil. cbn [obind]. eexists. split; [reflexivity|]. cbn [dims get]. split; auto.
  intros i H. rewrite bidx_in, bidx_nil by auto. auto.
Qed.
Lemma ew2_scalar_l {A B C} (f : A -> B -> C) a b : dims a = [] ->
  exists r, ew2 f a b = Some r /\ dims r = dims b /\ forall i, inb i (dims b) -> get r i = f (get a []) (get b i).
Proof.
  intros E. unfold ew2. rewrite E, bdims_nil_l. cbn [obind]. eexists. split; [reflexivity|]. cbn [dims get]. split; auto.
  intros i H. rewrite (bidx_in (dims b)), bidx_nil by auto. auto.
Qed.
Lemma ew2_same {A B C} (f : A -> B -> C) a b : dims a = dims b ->
  exists r, ew2 f a b = Some r /\ dims r = dims a /\ forall i, inb i (dims a) -> get r i = f (get a i) (get b i).
Proof.
  intros E. unfold ew2. rewrite <- E, bdims_same. cbn [obind]. eexists. split; [reflexivity|]. cbn [dims get]. split; auto.
  intros i H. rewrite !bidx_in by auto. auto.
Qed.
Lemma ew1_row3 {A B} (f : A -> B) a i : row3 (ew1 f a) i = map3v f (row3 a i).
Proof. reflexivity. Qed.
Lemma norm_row3 a s : dims a = 3 :: s -> exists r, norm_last a = Some r /\ dims r = s /\ forall i, get r i = nv_norm (row3 a i).
Proof. intros E. unfold norm_last. rewrite E. eexists. split; [reflexivity|]. split; auto. Qed.
Lemma norm_row2 a s : dims a = 2 :: s -> exists r, norm_last a = Some r /\ dims r = s /\ forall i, get r i = nv_norm2 (row2 a i).
Proof. intros E. unfold norm_last. rewrite E. eexists. split; [reflexivity|]. split; auto. Qed.
(** np.dot(points, m.T) *)
Lemma dot_row3 a m s : dims a = 3 :: s ->
  exists r, dot a (T (of33 m)) = Some r /\ dims r = 3 :: s /\ forall i, row3 r i = nm_mul_v m (row3 a i).
Proof.
  intros E. unfold dot. rewrite E. cbn [T of33 dims rev app Nat.eqb]. eexists. split; [reflexivity|]. cbn [dims get]. split; auto.
Qed.
Lemma lastk_some {A} k (a : arr A) n s : dims a = n :: s -> k < n ->
  exists r, lastk k a = Some r /\ dims r = s /\ forall i, get r i = get a (k :: i).
Proof.
  intros E L. unfold lastk. rewrite E. destruct (Nat.ltb_spec k n); [|lia]. eexists. split; [reflexivity|]. split; auto.
Qed.
(** one entry of the mask for every row *)
Lemma setmask_rows {A} (a : arr A) m v n s : dims a = n :: s -> dims m = s ->
  exists r, setmask a m v = Some r /\ dims r = n :: s /\ forall k i, get r (k :: i) = if get m i then v else get a (k :: i).
Proof.
  intros E F. unfold setmask. rewrite E, F. cbn [length]. replace (S (length s) - length s) with 1 by lia. cbn [skipn].
  destruct (list_eq_dec _ _ _) as [|NE]; [|congruence]. eexists. split; [reflexivity|]. cbn [dims get]. split; auto.
Qed.
