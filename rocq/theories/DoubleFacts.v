(** * Computing with double precision: values of [round53] *)
Require Import Reals Lra Lia ZArith.
From Verif Require Import Rounding RoundingFacts.
Open Scope R_scope.
Lemma int_part_is r z : IZR z <= r < IZR z + 1 -> Int_part r = z.
Proof.
  intros (A&B). destruct (int_part_bounds r) as (C&D). 
  assert (X : IZR (Int_part r) < IZR (z + 1)) by (rewrite plus_IZR; lra). assert (Y : IZR z < IZR (Int_part r + 1)) by (rewrite plus_IZR; lra).
  apply lt_IZR in X. apply lt_IZR in Y. lia.
Qed.
Lemma expo_is x e : powerRZ 2 e <= Rabs x < powerRZ 2 (e + 1) -> expo x = e.
Proof.
  intros (A&B). rewrite !powerRZ_Rpower in * by lra. assert (P : 0 < Rpower 2 (IZR e)) by (unfold Rpower; apply exp_pos).
  assert (L2 : 0 < ln 2) by (rewrite <- ln_1; apply ln_increasing; lra).
  assert (K : forall q, ln (Rpower 2 q) = q * ln 2) by (intros; unfold Rpower; apply ln_exp).
  assert (A' : IZR e * ln 2 <= ln (Rabs x)) by (rewrite <- K; destruct A as [A|A]; [left; apply ln_increasing; lra|right; congruence]).
  assert (B' : ln (Rabs x) < IZR (e + 1) * ln 2) by (rewrite <- K; apply ln_increasing; lra). rewrite plus_IZR in B'.
  unfold expo. apply int_part_is. split; [apply (Rmult_le_reg_r (ln 2))|apply (Rmult_lt_reg_r (ln 2))]; auto;
    replace (ln (Rabs x) / ln 2 * ln 2) with (ln (Rabs x)) by (field; lra); lra.
Qed.
(** the number with 53 digits [k * 2^(e - 52)] is nearest to [x] *)
Lemma round53_is x e k : powerRZ 2 e <= Rabs x < powerRZ 2 (e + 1) -> IZR k - 1 / 2 <= x / powerRZ 2 (e - 52) < IZR k + 1 / 2 -> round53 x = IZR k * powerRZ 2 (e - 52).
Proof.
  intros A B. unfold round53. rewrite (expo_is x e A). destruct (Req_EM_T x 0) as [->|_].
  - rewrite Rabs_R0 in A. assert (0 < powerRZ 2 e) by (apply powerRZ_lt; lra). lra.
  - unfold nearest. rewrite (int_part_is _ k) by lra. reflexivity.
Qed.
Lemma expo_bounds x : x <> 0 -> powerRZ 2 (expo x) <= Rabs x.
Proof.
  intros N. assert (P : 0 < Rabs x) by (apply Rabs_pos_lt; auto). assert (L2 : 0 < ln 2) by (rewrite <- ln_1; apply ln_increasing; lra).
  rewrite powerRZ_Rpower by lra. unfold Rpower. apply Rle_trans with (exp (ln (Rabs x))); [|right; apply exp_ln; auto].
  assert (LE : IZR (expo x) * ln 2 <= ln (Rabs x)).
  { unfold expo. pose proof (int_part_bounds (ln (Rabs x) / ln 2)) as (B&_). apply (Rmult_le_compat_r (ln 2)) in B; [|lra].
    replace (ln (Rabs x) / ln 2 * ln 2) with (ln (Rabs x)) in B by (field; lra). exact B. }
  destruct LE as [LE|LE]; [left; apply exp_increasing; auto|right; f_equal; auto].
Qed.
(** numbers with 53 digits are exact *)
Lemma round53_exact z j : (Z.abs z < 2 ^ 53)%Z -> round53 (IZR z * powerRZ 2 j) = IZR z * powerRZ 2 j.
Proof.
  intros B. set (x := IZR z * powerRZ 2 j). unfold round53. destruct (Req_EM_T x 0) as [->|N]; [reflexivity|].
  assert (E := expo_bounds x N). set (e := expo x) in *. assert (P : forall q, 0 < powerRZ 2 q) by (intros; apply powerRZ_lt; lra).
  assert (L : (e < 53 + j)%Z).
  { apply Znot_ge_lt. intros G. assert (X : Rabs x < powerRZ 2 (53 + j)).
    { unfold x. rewrite Rabs_mult, (Rabs_right (powerRZ 2 j)) by (left; apply P). rewrite powerRZ_add by lra. apply Rmult_lt_compat_r; [apply P|].
      rewrite <- abs_IZR. replace (powerRZ 2 53) with (IZR (2 ^ 53)); [apply IZR_lt; exact B|]. change (2 ^ 53)%Z with (2 ^ Z.of_nat 53)%Z. rewrite <- pow_IZR. apply pow_powerRZ. }
    assert (Y : powerRZ 2 (53 + j) <= powerRZ 2 e).
    { replace e with ((53 + j) + Z.of_nat (Z.to_nat (e - (53 + j))))%Z by lia. rewrite (powerRZ_add 2 (53 + j) _) by lra. rewrite <- pow_powerRZ.
      assert (1 <= 2 ^ Z.to_nat (e - (53 + j))) by (apply pow_R1_Rle; lra). rewrite <- (Rmult_1_r (powerRZ 2 (53 + j))) at 1. apply Rmult_le_compat_l; [left; apply P|exact H]. }
    lra. }
  assert (X : x / powerRZ 2 (e - 52) = IZR (z * 2 ^ Z.of_nat (Z.to_nat (j - e + 52)))).
  { rewrite mult_IZR, <- pow_IZR, pow_powerRZ. unfold x. replace j with ((j - e + 52) + (e - 52))%Z at 1 by ring. rewrite powerRZ_add by lra.
    rewrite (Z2Nat.id (j - e + 52)) by lia. field. pose proof (P (e - 52)%Z). lra. }
  rewrite X. unfold nearest. rewrite (int_part_is _ (z * 2 ^ Z.of_nat (Z.to_nat (j - e + 52)))) by lra. rewrite <- X. field. pose proof (P (e - 52)%Z). lra.
Qed.
Lemma round53_dyadic x z n : (Z.abs z < 2 ^ 53)%Z -> x = IZR z / IZR (2 ^ Z.of_nat n) -> round53 x = x.
Proof.
  intros B E. assert (X : x = IZR z * powerRZ 2 (- Z.of_nat n)).
  { rewrite powerRZ_neg', <- pow_powerRZ, pow_IZR. exact E. }
  rewrite X. apply round53_exact, B.
Qed.
Lemma round53_add a b : (Z.abs (a + b) <? 2 ^ 53)%Z = true -> round53 (IZR a + IZR b) = IZR (a + b).
Proof. intros E. apply Z.ltb_lt in E. rewrite plus_IZR. apply (round53_dyadic _ (a + b) 0 E). rewrite plus_IZR. cbn. field. Qed.
Lemma round53_sub a b : (Z.abs (a - b) <? 2 ^ 53)%Z = true -> round53 (IZR a - IZR b) = IZR (a - b).
Proof. intros E. apply Z.ltb_lt in E. rewrite minus_IZR. apply (round53_dyadic _ (a - b) 0 E). rewrite minus_IZR. cbn. field. Qed.
Lemma round53_mul a b : (Z.abs (a * b) <? 2 ^ 53)%Z = true -> round53 (IZR a * IZR b) = IZR (a * b).
Proof. intros E. apply Z.ltb_lt in E. rewrite mult_IZR. apply (round53_dyadic _ (a * b) 0 E). rewrite mult_IZR. cbn. field. Qed.

Lemma round53_to x n k : 4503599627370496 <= Rabs x * IZR (2 ^ Z.of_nat n) < 9007199254740992 -> IZR k - 1 / 2 <= x * IZR (2 ^ Z.of_nat n) < IZR k + 1 / 2 ->
  round53 x = IZR k / IZR (2 ^ Z.of_nat n).
Proof.
  rewrite <- (pow_IZR 2 n), pow_powerRZ. intros A B. assert (P : forall q, 0 < powerRZ 2 q) by (intros; apply powerRZ_lt; lra). assert (Q := P (Z.of_nat n)).
  rewrite (round53_is x (52 - Z.of_nat n) k).
  - replace (52 - Z.of_nat n - 52)%Z with (- Z.of_nat n)%Z by ring. rewrite powerRZ_neg'. reflexivity.
  - replace (52 - Z.of_nat n + 1)%Z with (53 + - Z.of_nat n)%Z by ring. unfold Zminus. rewrite !powerRZ_add, !powerRZ_neg' by lra.
    replace (powerRZ 2 52) with 4503599627370496 by (transitivity (2 ^ 52); [rewrite pow_IZR; reflexivity|apply (pow_powerRZ 2 52)]). replace (powerRZ 2 53) with 9007199254740992 by (transitivity (2 ^ 53); [rewrite pow_IZR; reflexivity|apply (pow_powerRZ 2 53)]).
    split; [apply (Rmult_le_reg_r (powerRZ 2 (Z.of_nat n)))|apply (Rmult_lt_reg_r (powerRZ 2 (Z.of_nat n)))]; auto; rewrite Rmult_assoc, Rinv_l by lra; lra.
  - replace (52 - Z.of_nat n - 52)%Z with (- Z.of_nat n)%Z by ring. rewrite powerRZ_neg'. unfold Rdiv at 2 3. rewrite Rinv_inv. exact B.
Qed.
(** Numerals: small integers are exact, the other values are given by their digits. *)
Ltac zs := repeat match goal with |- context [IZR ?z] => lazymatch z with Z0 => fail | Zpos _ => fail | Zneg _ => fail | _ => let y := eval vm_compute in z in change z with y end end.
Ltac ints := repeat first [rewrite round53_add by (vm_compute; reflexivity)|rewrite round53_sub by (vm_compute; reflexivity)|rewrite round53_mul by (vm_compute; reflexivity)].
