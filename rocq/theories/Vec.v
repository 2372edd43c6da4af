(** * Points and matrices; real linear algebra used in specifications *)
Require Import Reals Lra Psatz Bool.
From Verif Require Import Num.
Open Scope R_scope.

Record v2 (A : Type) := V2 { c1 : A; c2 : A }.
Record v3 (A : Type) := V3 { cx : A; cy : A; cz : A }.
Arguments V2 {A}. Arguments c1 {A}. Arguments c2 {A}.
Arguments V3 {A}. Arguments cx {A}. Arguments cy {A}. Arguments cz {A}.
Definition m3 (A : Type) := v3 (v3 A).   (* a 3x3 matrix as three rows *)

Definition map2v {A B} (f : A -> B) (p : v2 A) : v2 B := V2 (f (c1 p)) (f (c2 p)).
Definition map3v {A B} (f : A -> B) (p : v3 A) : v3 B := V3 (f (cx p)) (f (cy p)) (f (cz p)).
Definition zip3v {A B C} (f : A -> B -> C) (p : v3 A) (q : v3 B) : v3 C :=
  V3 (f (cx p) (cx q)) (f (cy p) (cy q)) (f (cz p) (cz q)).
Definition zip2v {A B C} (f : A -> B -> C) (p : v2 A) (q : v2 B) : v2 C :=
  V2 (f (c1 p) (c1 q)) (f (c2 p) (c2 q)).
Definition forall2v {A} (P : A -> Prop) (p : v2 A) := P (c1 p) /\ P (c2 p).
Definition forall3v {A} (P : A -> Prop) (p : v3 A) := P (cx p) /\ P (cy p) /\ P (cz p).
Definition const3 {A} (a : A) : v3 A := V3 a a a.
Definition const2 {A} (a : A) : v2 A := V2 a a.

Lemma v3_ext {A} (p q : v3 A) : cx p = cx q -> cy p = cy q -> cz p = cz q -> p = q.
Proof. destruct p, q; simpl; congruence. Qed.
Lemma v2_ext {A} (p q : v2 A) : c1 p = c1 q -> c2 p = c2 q -> p = q.
Proof. destruct p, q; simpl; congruence. Qed.

(** ** Float vectors (numpy element-wise operations) *)
Definition nv_add := zip3v nadd.
Definition nv_sub := zip3v nsub.
Definition nv_scale (k : num) (p : v3 num) : v3 num := map3v (fun x => nmul x k) p.
Definition nv_neg := map3v nneg.
Definition nv_div (p : v3 num) (k : num) : v3 num := map3v (fun x => ndiv x k) p.
(** np.dot / np.inner of two 3-vectors.  numpy may start the accumulation from +0;
    that can only change the sign of a zero result. *)
Definition nv_dot (p q : v3 num) : num :=
  (cx p * cx q + cy p * cy q + cz p * cz q)%num.
Definition nv_cross (p q : v3 num) : v3 num :=
  (V3 (cy p * cz q - cz p * cy q) (cz p * cx q - cx p * cz q) (cx p * cy q - cy p * cx q))%num.
(** np.linalg.norm(p, axis=-1) *)
Definition nv_norm (p : v3 num) : num :=
  nsqrt (cx p * cx p + cy p * cy p + cz p * cz p)%num.
Definition nv_norm2 (p : v2 num) : num := nsqrt (c1 p * c1 p + c2 p * c2 p)%num.
(** 3x3 matrix applied to a vector, matrix product, transpose. *)
Definition nm_mul_v (m : m3 num) (p : v3 num) : v3 num :=
  V3 (nv_dot p (cx m)) (nv_dot p (cy m)) (nv_dot p (cz m)).
Definition nm_trans (m : m3 num) : m3 num :=
  V3 (V3 (cx (cx m)) (cx (cy m)) (cx (cz m)))
     (V3 (cy (cx m)) (cy (cy m)) (cy (cz m)))
     (V3 (cz (cx m)) (cz (cy m)) (cz (cz m))).
Definition nm_mul (a b : m3 num) : m3 num :=
  let bt := nm_trans b in
  map3v (fun row => V3 (nv_dot row (cx bt)) (nv_dot row (cy bt)) (nv_dot row (cz bt))) a.

(** ** Real vectors *)
Definition rv_add := zip3v Rplus.
Definition rv_sub := zip3v Rminus.
Definition rv_scale (k : R) (p : v3 R) : v3 R := map3v (fun x => k * x) p.
Definition rv_neg := map3v Ropp.
Definition rdot (p q : v3 R) : R := cx p * cx q + cy p * cy q + cz p * cz q.
Definition rcross (p q : v3 R) : v3 R :=
  V3 (cy p * cz q - cz p * cy q) (cz p * cx q - cx p * cz q) (cx p * cy q - cy p * cx q).
Definition rnorm (p : v3 R) : R := sqrt (rdot p p).
Definition rdist (p q : v3 R) : R := rnorm (rv_sub p q).
Definition rm_mul_v (m : m3 R) (p : v3 R) : v3 R := V3 (rdot (cx m) p) (rdot (cy m) p) (rdot (cz m) p).
Definition rm_trans (m : m3 R) : m3 R :=
  V3 (V3 (cx (cx m)) (cx (cy m)) (cx (cz m)))
     (V3 (cy (cx m)) (cy (cy m)) (cy (cz m)))
     (V3 (cz (cx m)) (cz (cy m)) (cz (cz m))).
Definition rdet (m : m3 R) : R := rdot (cx m) (rcross (cy m) (cz m)).
(** Rows are an orthonormal basis. *)
Definition orthonormal (m : m3 R) : Prop :=
  rdot (cx m) (cx m) = 1 /\ rdot (cy m) (cy m) = 1 /\ rdot (cz m) (cz m) = 1 /\
  rdot (cx m) (cy m) = 0 /\ rdot (cx m) (cz m) = 0 /\ rdot (cy m) (cz m) = 0.
Definition rv0 : v3 R := V3 0 0 0.

(** ** Refinement *)
Definition rep2 (x : v2 num) (a : v2 R) : Prop := rep (c1 x) (c1 a) /\ rep (c2 x) (c2 a).
Definition rep3 (x : v3 num) (a : v3 R) : Prop :=
  rep (cx x) (cx a) /\ rep (cy x) (cy a) /\ rep (cz x) (cz a).
Definition repm (x : m3 num) (a : m3 R) : Prop :=
  rep3 (cx x) (cx a) /\ rep3 (cy x) (cy a) /\ rep3 (cz x) (cz a).
Definition fin2 (a : v2 R) : v2 num := map2v Fin a.
Definition fin3 (a : v3 R) : v3 num := map3v Fin a.

Lemma rep2_fin a : rep2 (fin2 a) a. Proof. split; reflexivity. Qed.
Lemma rep3_fin a : rep3 (fin3 a) a. Proof. repeat split; reflexivity. Qed.
Lemma rep3_inj x a b : rep3 x a -> rep3 x b -> a = b.
Proof.
  intros (?&?&?) (?&?&?); apply v3_ext; eapply rep_inj; eauto.
Qed.
Lemma rep2_inj x a b : rep2 x a -> rep2 x b -> a = b.
Proof. intros (?&?) (?&?); apply v2_ext; eapply rep_inj; eauto. Qed.
Lemma rep3_eq x a b : rep3 x a -> a = b -> rep3 x b. Proof. intros; subst; auto. Qed.
Lemma rep2_eq x a b : rep2 x a -> a = b -> rep2 x b. Proof. intros; subst; auto. Qed.

Lemma rep3_add x y a b : rep3 x a -> rep3 y b -> rep3 (nv_add x y) (rv_add a b).
Proof. intros (?&?&?) (?&?&?); repeat split; apply rep_add; auto. Qed.
Lemma rep3_sub x y a b : rep3 x a -> rep3 y b -> rep3 (nv_sub x y) (rv_sub a b).
Proof. intros (?&?&?) (?&?&?); repeat split; apply rep_sub; auto. Qed.
Lemma rep3_neg x a : rep3 x a -> rep3 (nv_neg x) (rv_neg a).
Proof. intros (?&?&?); repeat split; apply rep_neg; auto. Qed.
Lemma rep3_scale k r x a : rep k r -> rep3 x a -> rep3 (nv_scale k x) (rv_scale r a).
Proof.
  intros ? (?&?&?); repeat split; simpl; (eapply rep_eq; [apply rep_mul; eauto|ring]).
Qed.
Lemma rep_dot x y a b : rep3 x a -> rep3 y b -> rep (nv_dot x y) (rdot a b).
Proof. intros (?&?&?) (?&?&?); unfold nv_dot, rdot; rep_all. Qed.
Lemma rep3_cross x y a b : rep3 x a -> rep3 y b -> rep3 (nv_cross x y) (rcross a b).
Proof. intros (?&?&?) (?&?&?); repeat split; unfold nv_cross, rcross; simpl; rep_all. Qed.
Lemma rdot_self_nonneg a : 0 <= rdot a a.
Proof. unfold rdot; nra. Qed.
Lemma rep_norm x a : rep3 x a -> rep (nv_norm x) (rnorm a).
Proof.
  intros (?&?&?); unfold nv_norm, rnorm; apply rep_sqrt; [unfold rdot; rep_all|].
  apply rdot_self_nonneg.
Qed.
Lemma rep3_div x a k r : rep3 x a -> rep k r -> r <> 0 -> rep3 (nv_div x k) (rv_scale (/ r) a).
Proof.
  intros (?&?&?) ? ?; repeat split; simpl;
    (eapply rep_eq; [apply rep_div; eauto| field; auto]).
Qed.
Lemma rep3_mul_v m p M P : repm m M -> rep3 p P -> rep3 (nm_mul_v m p) (rm_mul_v M P).
Proof.
  intros (?&?&?) ?; repeat split; simpl;
    (eapply rep_eq; [apply rep_dot; eauto | unfold rdot; ring]).
Qed.
Lemma repm_trans m M : repm m M -> repm (nm_trans m) (rm_trans M).
Proof.
  intros ((?&?&?)&(?&?&?)&(?&?&?)); repeat split; simpl; auto.
Qed.
Definition rm_mul (a b : m3 R) : m3 R :=
  let bt := rm_trans b in
  map3v (fun row => V3 (rdot row (cx bt)) (rdot row (cy bt)) (rdot row (cz bt))) a.
Lemma repm_mul a b A B : repm a A -> repm b B -> repm (nm_mul a b) (rm_mul A B).
Proof.
  intros (H1&H2&H3) Hb; apply repm_trans in Hb; destruct Hb as (?&?&?).
  repeat split; simpl; apply rep_dot; auto.
Qed.

(** ** Real vector algebra *)
Lemma rnorm_nonneg a : 0 <= rnorm a. Proof. apply sqrt_pos. Qed.
Lemma rnorm_sqr a : rnorm a * rnorm a = rdot a a.
Proof. apply sqrt_sqrt, rdot_self_nonneg. Qed.
Lemma rdot_self_0 a : rdot a a = 0 -> a = rv0.
Proof.
  intros H. unfold rdot in H. apply v3_ext; simpl; nra.
Qed.
Lemma rnorm_0 a : rnorm a = 0 -> a = rv0.
Proof. intros H; apply rdot_self_0; rewrite <- rnorm_sqr, H; ring. Qed.
Lemma rnorm_pos a : a <> rv0 -> 0 < rnorm a.
Proof.
  intros H; destruct (Rle_lt_or_eq_dec _ _ (rnorm_nonneg a)); auto.
  exfalso; apply H, rnorm_0; auto.
Qed.
Lemma rdot_scale k a b : rdot (rv_scale k a) b = k * rdot a b.
Proof. unfold rdot; simpl; ring. Qed.
Lemma rdot_comm a b : rdot a b = rdot b a.
Proof. unfold rdot; ring. Qed.
Lemma rnorm_scale k a : rnorm (rv_scale k a) = Rabs k * rnorm a.
Proof.
  unfold rnorm. replace (rdot (rv_scale k a) (rv_scale k a)) with (k * k * rdot a a)
    by (unfold rdot; simpl; ring).
  rewrite sqrt_mult; [|nra|apply rdot_self_nonneg].
  f_equal. change (k * k) with (Rsqr k). apply sqrt_Rsqr_abs.
Qed.
Lemma orthonormal_dot M a b :
  orthonormal (rm_trans M) -> rdot (rm_mul_v M a) (rm_mul_v M b) = rdot a b.
Proof.
  destruct M as [[a1 a2 a3] [b1 b2 b3] [d1 d2 d3]], a as [x y z], b as [u v w].
  cbv [orthonormal rm_mul_v rm_trans rdot cx cy cz]; intros (H1&H2&H3&H4&H5&H6).
  transitivity
   (x*u*(a1*a1+b1*b1+d1*d1) + y*v*(a2*a2+b2*b2+d2*d2) + z*w*(a3*a3+b3*b3+d3*d3)
    + (x*v+y*u)*(a1*a2+b1*b2+d1*d2) + (x*w+z*u)*(a1*a3+b1*b3+d1*d3)
    + (y*w+z*v)*(a2*a3+b2*b3+d2*d3)); [ring|].
  rewrite H1,H2,H3,H4,H5,H6; ring.
Qed.
Lemma rm_mul_v_sub M a b : rm_mul_v M (rv_sub a b) = rv_sub (rm_mul_v M a) (rm_mul_v M b).
Proof. apply v3_ext; unfold rdot; simpl; unfold rdot; simpl; ring. Qed.
Lemma rm_mul_v_scale M k a : rm_mul_v M (rv_scale k a) = rv_scale k (rm_mul_v M a).
Proof. apply v3_ext; simpl; unfold rdot; simpl; ring. Qed.
