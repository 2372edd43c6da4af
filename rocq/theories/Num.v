(** * Floating point numbers as used by numpy, with exact arithmetic

    The IEEE-754 special values (signed zeros, infinities, NaN) are modelled with
    their exact algebra.  Finite results are exact real numbers: rounding, overflow
    and underflow are NOT modelled.  [Fin 0] is +0, [NegZ] is -0. *)
Require Import Reals Lra ZArith Bool.
Open Scope R_scope.

Inductive num : Set := Fin (r : R) | NegZ | PInf | NInf | NaN.

Declare Scope num_scope.
Delimit Scope num_scope with num.
Bind Scope num_scope with num.

(** Uniform view: value and sign bit. *)
Inductive view := VNaN | VInf (neg : bool) | VFin (r : R) (neg : bool).

Definition Rltb (a b : R) : bool := if Rlt_dec a b then true else false.
Definition Rleb (a b : R) : bool := if Rle_dec a b then true else false.
Definition Reqb (a b : R) : bool := if Req_EM_T a b then true else false.

Definition look (x : num) : view :=
  match x with
  | Fin r => VFin r (Rltb r 0)
  | NegZ => VFin 0 true
  | PInf => VInf false
  | NInf => VInf true
  | NaN => VNaN
  end.

(** A finite value whose sign bit is [neg] in case the value is zero. *)
Definition mk (r : R) (neg : bool) : num :=
  if Reqb r 0 then (if neg then NegZ else Fin 0) else Fin r.
Definition inf (neg : bool) : num := if neg then NInf else PInf.

(** ** Arithmetic (IEEE-754 rules for the special values) *)
Definition nneg (x : num) : num :=
  match look x with VNaN => NaN | VInf s => inf (negb s) | VFin r s => mk (- r) (negb s) end.
Definition nadd (x y : num) : num :=
  match look x, look y with
  | VNaN, _ | _, VNaN => NaN
  | VInf s, VInf t => if Bool.eqb s t then inf s else NaN
  | VInf s, VFin _ _ => inf s
  | VFin _ _, VInf t => inf t
  | VFin a s, VFin b t => mk (a + b) (s && t)
  end.
Definition nsub (x y : num) : num := nadd x (nneg y).
Definition nmul (x y : num) : num :=
  match look x, look y with
  | VNaN, _ | _, VNaN => NaN
  | VInf s, VInf t => inf (xorb s t)
  | VInf s, VFin b t => if Reqb b 0 then NaN else inf (xorb s t)
  | VFin a s, VInf t => if Reqb a 0 then NaN else inf (xorb s t)
  | VFin a s, VFin b t => mk (a * b) (xorb s t)
  end.
Definition ndiv (x y : num) : num :=
  match look x, look y with
  | VNaN, _ | _, VNaN => NaN
  | VInf _, VInf _ => NaN
  | VInf s, VFin _ t => inf (xorb s t)
  | VFin _ s, VInf t => mk 0 (xorb s t)
  | VFin a s, VFin b t =>
      if Reqb b 0 then (if Reqb a 0 then NaN else inf (xorb s t))
      else mk (a / b) (xorb s t)
  end.
Definition nsqrt (x : num) : num :=
  match look x with
  | VNaN => NaN
  | VInf s => if s then NaN else PInf
  | VFin r s => if Rltb r 0 then NaN else mk (sqrt r) s
  end.
Definition nabs (x : num) : num :=
  match look x with VNaN => NaN | VInf _ => PInf | VFin r _ => Fin (Rabs r) end.

(** ** Comparisons (false as soon as one side is NaN) *)
Definition nltb (x y : num) : bool :=
  match look x, look y with
  | VNaN, _ | _, VNaN => false
  | VInf s, VInf t => s && negb t
  | VInf s, VFin _ _ => s
  | VFin _ _, VInf t => negb t
  | VFin a _, VFin b _ => Rltb a b
  end.
Definition neqb (x y : num) : bool :=
  match look x, look y with
  | VNaN, _ | _, VNaN => false
  | VInf s, VInf t => Bool.eqb s t
  | VFin a _, VFin b _ => Reqb a b
  | _, _ => false
  end.
Definition nleb (x y : num) : bool := nltb x y || neqb x y.
Definition nisnan (x : num) : bool := match x with NaN => true | _ => false end.
Definition nisinf (x : num) : bool := match x with PInf | NInf => true | _ => false end.

(** ** Functions *)
Definition nsin (x : num) : num :=
  match look x with VFin r s => mk (sin r) s | _ => NaN end.
Definition ncos (x : num) : num :=
  match look x with VFin r _ => Fin (cos r) | _ => NaN end.
(** At the (irrational, hence never representable) poles the model returns NaN. *)
Definition ntan (x : num) : num :=
  match look x with
  | VFin r s => if Reqb (cos r) 0 then NaN else mk (tan r) s
  | _ => NaN
  end.
Definition natan (x : num) : num :=
  match look x with
  | VNaN => NaN
  | VInf s => Fin (if s then - (PI / 2) else PI / 2)
  | VFin r s => mk (atan r) s
  end.
Definition nasin (x : num) : num :=
  match look x with
  | VFin r s => if Rltb 1 (Rabs r) then NaN else mk (asin r) s
  | _ => NaN
  end.
Definition nacos (x : num) : num :=
  match look x with
  | VFin r _ => if Rltb 1 (Rabs r) then NaN else Fin (acos r)
  | _ => NaN
  end.
Definition nexp (x : num) : num :=
  match look x with
  | VNaN => NaN
  | VInf s => if s then Fin 0 else PInf
  | VFin r _ => Fin (exp r)
  end.

Definition sgn (s : bool) (r : R) : R := if s then - r else r.
(** C99 / numpy arctan2. *)
Definition natan2 (y x : num) : num :=
  match look y, look x with
  | VNaN, _ | _, VNaN => NaN
  | VInf s, VInf t => Fin (sgn s (if t then 3 * PI / 4 else PI / 4))
  | VInf s, VFin _ _ => Fin (sgn s (PI / 2))
  | VFin _ s, VInf t => if t then Fin (sgn s PI) else mk 0 s
  | VFin b s, VFin a t =>
      if Rltb 0 a then mk (atan (b / a)) s
      else if Rltb a 0 then
        (if Reqb b 0 then Fin (sgn s PI) else Fin (atan (b / a) + sgn s PI))
      else (* a = +-0 *)
        if Reqb b 0 then (if t then Fin (sgn s PI) else mk 0 s)
        else Fin (sgn s (PI / 2))
  end.

Definition ndeg2rad (x : num) : num := nmul x (Fin (PI / 180)).
Definition nrad2deg (x : num) : num := nmul x (Fin (180 / PI)).

(** Python/numpy float modulo by a positive finite constant [m]: the result is in
    [0, m), a zero result is +0, infinities give NaN. *)
Definition Rfloor (r : R) : Z := Int_part r.
Definition nmod (x : num) (m : R) : num :=
  match look x with
  | VFin r _ => Fin (r - m * IZR (Rfloor (r / m)))
  | _ => NaN
  end.
Definition nmin (x y : num) : num := (* np.minimum / np.min: NaN propagates *)
  if nisnan x then NaN else if nisnan y then NaN else if nltb y x then y else x.
Fixpoint npow (x : num) (k : nat) : num :=
  match k with O => Fin 1 | S O => x | S k' => nmul x (npow x k') end.

Notation "- x" := (nneg x) : num_scope.
Infix "+" := nadd : num_scope.
Infix "-" := nsub : num_scope.
Infix "*" := nmul : num_scope.
Infix "/" := ndiv : num_scope.
Infix "<?" := nltb : num_scope.
Infix "<=?" := nleb : num_scope.

(** ** Refinement: [rep x r] says the float [x] is finite with value [r] *)
Definition toR (x : num) : option R :=
  match x with Fin r => Some r | NegZ => Some 0 | _ => None end.
Definition rep (x : num) (r : R) : Prop := toR x = Some r.
Definition finite (x : num) : Prop := exists r, rep x r.

Lemma Rltb_true a b : a < b -> Rltb a b = true.
Proof. unfold Rltb; destruct (Rlt_dec a b); tauto. Qed.
Lemma Rltb_false a b : b <= a -> Rltb a b = false.
Proof. unfold Rltb; destruct (Rlt_dec a b); auto; lra. Qed.
Lemma Rltb_iff a b : Rltb a b = true <-> a < b.
Proof. unfold Rltb; destruct (Rlt_dec a b); split; auto; discriminate. Qed.
Lemma Rltb_iff_false a b : Rltb a b = false <-> b <= a.
Proof. unfold Rltb; destruct (Rlt_dec a b); split; intros; auto; try discriminate; lra. Qed.
Lemma Rleb_true a b : a <= b -> Rleb a b = true.
Proof. unfold Rleb; destruct (Rle_dec a b); tauto. Qed.
Lemma Rleb_iff a b : Rleb a b = true <-> a <= b.
Proof. unfold Rleb; destruct (Rle_dec a b); split; auto; discriminate. Qed.
Lemma Reqb_true a b : a = b -> Reqb a b = true.
Proof. unfold Reqb; destruct (Req_EM_T a b); tauto. Qed.
Lemma Reqb_false a b : a <> b -> Reqb a b = false.
Proof. unfold Reqb; destruct (Req_EM_T a b); tauto. Qed.
Lemma Reqb_iff a b : Reqb a b = true <-> a = b.
Proof. unfold Reqb; destruct (Req_EM_T a b); split; auto; discriminate. Qed.
Lemma Reqb_refl a : Reqb a a = true.
Proof. apply Reqb_true; auto. Qed.

Lemma rep_Fin r : rep (Fin r) r.
Proof. reflexivity. Qed.
Lemma rep_NegZ : rep NegZ 0.
Proof. reflexivity. Qed.
Lemma rep_mk r s : rep (mk r s) r.
Proof.
  unfold mk, Reqb; destruct (Req_EM_T r 0) as [->|]; [destruct s|]; reflexivity.
Qed.
Lemma rep_inj x a b : rep x a -> rep x b -> a = b.
Proof. unfold rep; congruence. Qed.
Lemma rep_eq x a b : rep x a -> a = b -> rep x b.
Proof. intros; subst; auto. Qed.
Lemma rep_look x a : rep x a -> exists s, look x = VFin a s.
Proof.
  unfold rep; destruct x; simpl; intros H; inversion H; subst; eauto.
Qed.
Lemma rep_look_nz x a : rep x a -> a <> 0 -> look x = VFin a (Rltb a 0).
Proof.
  unfold rep; destruct x; simpl; intros H; inversion H; subst; auto; lra.
Qed.
Lemma look_rep x a s : look x = VFin a s -> rep x a.
Proof. destruct x; simpl; intros H; inversion H; reflexivity. Qed.

Ltac rlook H := let s := fresh "s" in destruct (rep_look _ _ H) as [s ?].

Lemma rep_neg x a : rep x a -> rep (nneg x) (- a).
Proof. intros H; rlook H; unfold nneg; rewrite H0; apply rep_mk. Qed.
Lemma rep_add x y a b : rep x a -> rep y b -> rep (nadd x y) (a + b).
Proof.
  intros Hx Hy; rlook Hx; rlook Hy; unfold nadd; rewrite H, H0; apply rep_mk.
Qed.
Lemma rep_sub x y a b : rep x a -> rep y b -> rep (nsub x y) (a - b).
Proof. intros; apply rep_add; auto; apply rep_neg; auto. Qed.
Lemma rep_mul x y a b : rep x a -> rep y b -> rep (nmul x y) (a * b).
Proof.
  intros Hx Hy; rlook Hx; rlook Hy; unfold nmul; rewrite H, H0; apply rep_mk.
Qed.
Lemma rep_div x y a b : rep x a -> rep y b -> b <> 0 -> rep (ndiv x y) (a / b).
Proof.
  intros Hx Hy Hb; rlook Hx; rlook Hy; unfold ndiv; rewrite H, H0.
  rewrite Reqb_false by auto; apply rep_mk.
Qed.
Lemma rep_sqrt x a : rep x a -> 0 <= a -> rep (nsqrt x) (sqrt a).
Proof.
  intros H Ha; rlook H; unfold nsqrt; rewrite H0.
  rewrite Rltb_false by auto; apply rep_mk.
Qed.
Lemma rep_abs x a : rep x a -> rep (nabs x) (Rabs a).
Proof. intros H; rlook H; unfold nabs; rewrite H0; apply rep_Fin. Qed.
Lemma rep_sin x a : rep x a -> rep (nsin x) (sin a).
Proof. intros H; rlook H; unfold nsin; rewrite H0; apply rep_mk. Qed.
Lemma rep_cos x a : rep x a -> rep (ncos x) (cos a).
Proof. intros H; rlook H; unfold ncos; rewrite H0; apply rep_Fin. Qed.
Lemma rep_tan x a : rep x a -> cos a <> 0 -> rep (ntan x) (tan a).
Proof.
  intros H Hc; rlook H; unfold ntan; rewrite H0.
  rewrite Reqb_false by auto; apply rep_mk.
Qed.
Lemma rep_atan x a : rep x a -> rep (natan x) (atan a).
Proof. intros H; rlook H; unfold natan; rewrite H0; apply rep_mk. Qed.
Lemma rep_asin x a : rep x a -> -1 <= a <= 1 -> rep (nasin x) (asin a).
Proof.
  intros H Ha; rlook H; unfold nasin; rewrite H0.
  rewrite Rltb_false; [apply rep_mk|]. apply Rabs_le; lra.
Qed.
Lemma rep_acos x a : rep x a -> -1 <= a <= 1 -> rep (nacos x) (acos a).
Proof.
  intros H Ha; rlook H; unfold nacos; rewrite H0.
  rewrite Rltb_false; [apply rep_Fin|]. apply Rabs_le; lra.
Qed.
Lemma rep_exp x a : rep x a -> rep (nexp x) (exp a).
Proof. intros H; rlook H; unfold nexp; rewrite H0; apply rep_Fin. Qed.
Lemma rep_deg2rad x a : rep x a -> rep (ndeg2rad x) (a * (PI / 180)).
Proof. intros; apply rep_mul; auto; apply rep_Fin. Qed.
Lemma rep_rad2deg x a : rep x a -> rep (nrad2deg x) (a * (180 / PI)).
Proof. intros; apply rep_mul; auto; apply rep_Fin. Qed.
Lemma rep_mod x a m : rep x a -> rep (nmod x m) (a - m * IZR (Rfloor (a / m))).
Proof. intros H; rlook H; unfold nmod; rewrite H0; apply rep_Fin. Qed.
Lemma rep_pow x a k : rep x a -> rep (npow x k) (a ^ k).
Proof.
  intros H; induction k as [|k IH]; [apply rep_Fin|].
  destruct k as [|k]; [simpl; eapply rep_eq; eauto; ring|].
  change (npow x (S (S k))) with (nmul x (npow x (S k))).
  change (a ^ S (S k)) with (a * a ^ S k).
  apply rep_mul; auto.
Qed.
Lemma rep_ltb x y a b : rep x a -> rep y b -> nltb x y = Rltb a b.
Proof. intros Hx Hy; rlook Hx; rlook Hy; unfold nltb; rewrite H, H0; auto. Qed.
Lemma rep_eqb x y a b : rep x a -> rep y b -> neqb x y = Reqb a b.
Proof. intros Hx Hy; rlook Hx; rlook Hy; unfold neqb; rewrite H, H0; auto. Qed.
Lemma rep_leb x y a b : rep x a -> rep y b -> nleb x y = Rleb a b.
Proof.
  intros Hx Hy; unfold nleb; rewrite (rep_ltb _ _ _ _ Hx Hy), (rep_eqb _ _ _ _ Hx Hy).
  unfold Rltb, Reqb, Rleb.
  destruct (Rlt_dec a b), (Req_EM_T a b), (Rle_dec a b); simpl; auto; lra.
Qed.
Lemma rep_min x y a b : rep x a -> rep y b -> rep (nmin x y) (Rmin a b).
Proof.
  intros Hx Hy. unfold nmin.
  destruct (nisnan x) eqn:E. { destruct x; discriminate || inversion Hx. }
  destruct (nisnan y) eqn:E'. { destruct y; discriminate || inversion Hy. }
  rewrite (rep_ltb _ _ _ _ Hy Hx); unfold Rltb, Rmin.
  destruct (Rlt_dec b a), (Rle_dec a b); auto; try lra.
Qed.
Lemma rep_notnan x a : rep x a -> nisnan x = false.
Proof. destruct x; simpl; auto; intros H; inversion H. Qed.
Lemma rep_notinf x a : rep x a -> nisinf x = false.
Proof. destruct x; simpl; auto; intros H; inversion H. Qed.

(** *** atan2 on finite arguments *)
(** Real four-quadrant arctangent: the angle in (-pi, pi] of the point (x, y). *)
Definition Ratan2 (y x : R) : R :=
  if Rltb 0 x then atan (y / x)
  else if Rltb x 0 then (if Rltb y 0 then atan (y / x) - PI else atan (y / x) + PI)
  else if Rltb y 0 then - (PI / 2) else if Rltb 0 y then PI / 2 else 0.

Lemma rep_atan2_pos y x b a : rep y b -> rep x a -> 0 < a -> rep (natan2 y x) (Ratan2 b a).
Proof.
  intros Hy Hx Ha; rlook Hy; rlook Hx; unfold natan2, Ratan2; rewrite H, H0.
  rewrite Rltb_true by auto; apply rep_mk.
Qed.
Lemma rep_atan2 y x b a :
  rep y b -> rep x a -> b <> 0 -> rep (natan2 y x) (Ratan2 b a).
Proof.
  intros Hy Hx Hb. pose proof (rep_look_nz _ _ Hy Hb) as H; rlook Hx.
  unfold natan2, Ratan2; rewrite H, H0.
  destruct (Rltb 0 a) eqn:E1; [apply rep_mk|].
  destruct (Rltb a 0) eqn:E2.
  - rewrite Reqb_false by auto. unfold sgn.
    destruct (Rltb b 0); eapply rep_eq; try apply rep_Fin; lra.
  - rewrite Reqb_false by auto. unfold sgn. destruct (Rltb b 0) eqn:E3; [apply rep_Fin|].
    apply Rltb_iff_false in E3. rewrite Rltb_true by lra. apply rep_Fin.
Qed.

(** The tactic [rep] computes the real value of a finite float expression. *)
Lemma look_NaN_inv x : look x = VNaN -> x = NaN.
Proof. destruct x; simpl; congruence. Qed.
Lemma nadd_NaN_l y : nadd NaN y = NaN. Proof. reflexivity. Qed.
Lemma nadd_NaN_r x : nadd x NaN = NaN. Proof. destruct x; reflexivity. Qed.
Lemma nneg_NaN : nneg NaN = NaN. Proof. reflexivity. Qed.
Lemma nsub_NaN_l y : nsub NaN y = NaN. Proof. reflexivity. Qed.
Lemma nsub_NaN_r x : nsub x NaN = NaN. Proof. destruct x; reflexivity. Qed.
Lemma nmul_NaN_l y : nmul NaN y = NaN. Proof. reflexivity. Qed.
Lemma nmul_NaN_r x : nmul x NaN = NaN. Proof. destruct x; reflexivity. Qed.
Lemma ndiv_NaN_l y : ndiv NaN y = NaN. Proof. reflexivity. Qed.
Lemma ndiv_NaN_r x : ndiv x NaN = NaN. Proof. destruct x; reflexivity. Qed.
Lemma natan2_NaN_l x : natan2 NaN x = NaN. Proof. reflexivity. Qed.
Lemma natan2_NaN_r x : natan2 x NaN = NaN. Proof. destruct x; reflexivity. Qed.

Lemma ndiv_0_0 x y : rep x 0 -> rep y 0 -> ndiv x y = NaN.
Proof. intros Hx Hy; rlook Hx; rlook Hy; unfold ndiv; rewrite H, H0, !Reqb_refl; auto. Qed.
Lemma ndiv_x_0 x y a : rep x a -> rep y 0 -> a <> 0 -> ndiv x y = PInf \/ ndiv x y = NInf.
Proof.
  intros Hx Hy Ha; rlook Hx; rlook Hy; unfold ndiv; rewrite H, H0, Reqb_refl.
  rewrite Reqb_false by auto. destruct (xorb s s0); auto.
Qed.

Create HintDb rep discriminated.
#[export] Hint Resolve rep_Fin rep_NegZ rep_mk rep_neg rep_add rep_sub rep_mul rep_div rep_sqrt
  rep_abs rep_sin rep_cos rep_tan rep_atan rep_asin rep_acos rep_exp rep_deg2rad rep_rad2deg
  rep_mod rep_pow rep_min rep_atan2_pos rep_atan2 : rep.

Ltac rep_step :=
  first [ eassumption
        | apply rep_Fin | apply rep_neg | apply rep_sub | apply rep_add | apply rep_mul
        | apply rep_div | apply rep_sqrt | apply rep_abs | apply rep_sin | apply rep_cos
        | apply rep_tan | apply rep_atan | apply rep_asin | apply rep_acos | apply rep_exp
        | apply rep_deg2rad | apply rep_rad2deg | apply rep_mod | apply rep_pow | apply rep_min
        | apply rep_mk | apply rep_NegZ ].
(** Reduce [rep e r] to the real equation (and definedness side conditions). *)
Ltac rep_all := repeat match goal with |- rep _ _ => rep_step end.
Ltac reps :=
  match goal with
  | |- rep _ _ => eapply rep_eq; [ rep_all | ]
  end.
(** Split syntactic conjunctions only. *)
Ltac splits := repeat match goal with |- _ /\ _ => split end.
