(** * Property C56: operations do not raise *)
Require Import Reals List Bool String Arith NArith QArith Qreals Lia.
From Verif Require Import Num Projection Param ParamFacts ParamOps ParamSteps ParamReach ParamCam ParamLaws ParamMap PropParam.
From Verif Require Import ParamCheck ParamExamples ParamTotal.
Import ListNotations.
Open Scope nat_scope.
Open Scope string_scope.

(** In a state without a None every admissible operation that brings in no None returns,
    and the new state is again without a None. *)
Theorem C56_no_raise (h : heapn) p : reach h -> full h -> op_ok h p -> none_free h p ->
  exists h', exec wrapn litn h p = (h', true) /\ full h'.
Proof. intros HR HF HO HN. destruct (reach_inv h HR) as (HI&_). apply (full_exec wrapn litn wrapn_ok); auto. Qed.
Print Assumptions C56_no_raise.
(** A program all of whose operations are of that kind. *)
Fixpoint none_free_run (h : heapn) (ps : list (op num)) : Prop :=
  match ps with
  | [] => True
  | p :: ps' => op_ok h p /\ none_free h p /\ forall h', exec wrapn litn h p = (h', true) -> none_free_run h' ps'
  end.
Theorem C56_histories ps : none_free_run empty ps ->
  exists h, run wrapn litn empty ps = Some h /\ reach h /\
    forall o n l, reads h o n l -> exists v, get_num h o n = Some v.
Proof.
  intros HN. assert (G : forall ps (h : heapn), reach h -> full h -> none_free_run h ps ->
            exists h', run wrapn litn h ps = Some h' /\ reach h' /\ full h').
  { clear HN ps; induction ps as [|p ps' IH]; intros h HR HF HN; [exists h; auto|]. destruct HN as (HO&HN&HT).
    destruct (C56_no_raise h p HR HF HO HN) as (h1&E1&F1). destruct (IH h1) as (h2&E2&R2&F2); auto.
    - eapply Rstep; eauto.
    - exists h2. cbn [run]. rewrite E1. auto. }
  destruct (G ps empty) as (h&E&R&F); [constructor|apply full_empty|exact HN|].
  exists h. split; [exact E|split; [exact R|]]. intros o n l HRd. rewrite (reads_num _ _ _ _ HRd).
  destruct (reach_inv h R) as (HI&_). destruct F as (FR&_).
  assert (X : rdl h l <> None) by (apply FR; eapply writes_valid; [exact HI|exact (reads_writes _ _ _ _ HRd)]).
  destruct (rdl h l) as [v|]; [eauto|congruence].
Qed.
Print Assumptions C56_histories.
(** Checking a computed state. *)
Definition fullb (h : heap Q) : bool :=
  forallb (fun o => match objs h o with
    | None => true
    | Some b =>
      forallb (fun n => is_some (rdl h (Loc o n)) && (negb (String.eqb n "focallength_px") || is_some (value (mem h (Loc o n)))))
              (base_names (okd b)) &&
      (match okd b with
       | KProj _ => forallb (fun n => match attrs b n with None | Some (ANum _) => true | _ => false end) ["image_width_px"; "image_height_px"]
       | _ => true
       end)
    end) (seq 0 (next h)).
Lemma fullb_ok (h : heap Q) : reach (floats h) -> fullb h = true -> full (floats h).
Proof.
  intros HR HB. destruct (reach_inv _ HR) as (HI&_). unfold fullb in HB. rewrite forallb_forall in HB.
  assert (G : forall o b, objs h o = Some b ->
    (forall n, In n (base_names (okd b)) -> rdl h (Loc o n) <> None /\ (n = "focallength_px" -> value (mem h (Loc o n)) <> None)) /\
    (forall k n, okd b = KProj k -> In n ["image_width_px"; "image_height_px"] -> attrs b n = None \/ exists v, attrs b n = Some (ANum v))).
  { intros o b E. specialize (HB o). rewrite E in HB.
    assert (LT : o < next h). { apply (Inv_objs_lt wrapn clean (floats h) HI o (omap litn b)). cbn [hmap objs]. rewrite E. reflexivity. }
    specialize (HB ltac:(apply in_seq; lia)). apply andb_prop in HB. destruct HB as (B1&B2). rewrite forallb_forall in B1.
    split.
    - intros n Hn. specialize (B1 n Hn). apply andb_prop in B1. destruct B1 as (B3&B4). split.
      + destruct (rdl h (Loc o n)); discriminate.
      + intros ->. cbn in B4. destruct (value (mem h (Loc o "focallength_px"))); discriminate.
    - intros k n K Hn. rewrite K in B2. rewrite forallb_forall in B2. specialize (B2 n Hn). destruct (attrs b n) as [[]|]; eauto; discriminate. }
  assert (OB : forall o b', objs (floats h) o = Some b' -> exists b, objs h o = Some b /\ b' = omap litn b).
  { intros o b' E. cbn [hmap objs] in E. destruct (objs h o) as [b|]; [|discriminate]. inversion E. eauto. }
  split; [|split].
  - intros l (b'&E&Hn). destruct (OB _ _ E) as (b&Eb&->). destruct (G _ b Eb) as (G1&_). destruct (G1 _ Hn) as (G2&_).
    rewrite rdl_map. destruct l as [lo ln]. cbn [l_owner l_name] in *. destruct (rdl h (Loc lo ln)); [discriminate|congruence].
  - intros p (b'&E&Hn). destruct (OB _ _ E) as (b&Eb&->). destruct (G _ b Eb) as (G1&_). destruct (G1 _ Hn) as (_&G2). specialize (G2 eq_refl).
    cbn [hmap mem pmap value l_owner l_name] in *. destruct (value (mem h (Loc p "focallength_px"))); [discriminate|congruence].
  - intros p b' n E K Hn. destruct (OB _ _ E) as (b&Eb&->). destruct (G _ b Eb) as (_&G2). cbn [omap okd attrs] in *.
    destruct (okd b) as [k| | | | |]; try contradiction. destruct (G2 k n eq_refl Hn) as [X|(v&X)]; rewrite X; [left|right; eexists]; reflexivity.
Qed.
(** A state in which an assignment of a number, a fit, a sample and loading a file return. *)
Example C56_example : let h := floats (camq ABC) in
  reach h /\ full h /\ none_free h (OSet 3 "image_width_px" (ANum (litn (200#1)))) /\
  none_free h (OSet 3 "heading_deg" ANone) /\ exec wrapn litn h (OSet 3 "image_width_px" (ANum (litn (200#1)))) <> (h, true).
Proof.
  intros h. assert (R : reach h) by (apply (cam_reach ABC []); [stand|vm]).
  split; [exact R|]. split; [apply fullb_ok; [exact R|vm]|].
  split; [split; [vm_compute; discriminate|discriminate]|].
  split; [split; [vm_compute; discriminate|]|].
  - intros _ l (b&E&A). vm_compute in E. inversion E; subst b. vm_compute in A. inversion A; subst l.
    split; [vm_compute; discriminate|discriminate].
  - cbn [exec]. change (ANum (litn (200#1))) with (amap litn (ANum (200#1)%Q)). unfold h. rewrite set_q by vm. intros X.
    assert (Y : get_num (floats (camq ABC)) 3 "image_width_px" = get_num (floats (fst (set_attr wrapq (camq ABC) 3 "image_width_px" (ANum (200#1)%Q)))) 3 "image_width_px") by congruence.
    rewrite !num_q in Y.
    replace (get_num (camq ABC) 3 "image_width_px") with (Some (100#1)%Q) in Y by vm.
    replace (get_num (fst _) 3 "image_width_px") with (Some (200#1)%Q) in Y by vm. revert Y. apply lit_ne. qne.
Qed.
(** Assigning None where there is no default raises, and the None is stored all the same. *)
Theorem C56_none_refuted : exists (h : heapn) p h', reach h /\ full h /\ op_ok h p /\ exec wrapn litn h p = (h', false) /\
  get_num h 3 "image_width_px" <> None /\ get_num h' 3 "image_width_px" = None.
Proof.
  exists (floats (camq ABC)), (OSet 3 "image_width_px" ANone), (floats (fst (set_attr wrapq (camq ABC) 3 "image_width_px" ANone))).
  assert (R : reach (floats (camq ABC))) by (apply (cam_reach ABC []); [stand|vm]).
  split; [exact R|split; [apply fullb_ok; [exact R|vm]|split; [exact I|split; [|split]]]].
  - cbn [exec]. change (@ANone num) with (amap litn (@ANone Q)). rewrite (set_attr_map litn wrapq wrapn wrap_map). unfold rmap. replace (snd _) with false by vm. reflexivity.
  - rewrite num_q. replace (get_num _ 3 "image_width_px") with (Some (100#1)%Q) by vm. discriminate.
  - rewrite num_q. vm.
Qed.
Print Assumptions C56_none_refuted.
