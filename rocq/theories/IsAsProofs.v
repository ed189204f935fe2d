(* IsAsProofs.v: lemmas for IsAsTheorems.v. *)
From Coq Require Import String List NArith ZArith Lia Bool.
From Verif Require Import Base TypeTableModel FamilyModel FamilyProofs FamilyTheorems LayoutModel LayoutSpec LayoutTheorems IsAsModel IsAsSpec.
Import ListNotations.
Open Scope N_scope.

Section IsAs.
Variable root : N -> N.
Variable classes : N -> option lclass.
Variable compare : N -> N -> cmp.
Hypothesis W : wf root classes compare.
Notation bases := (lbases classes).
Notation isa := (is_a root classes).

Lemma class_nz d k : classes d = Some k -> d <> 0.
Proof. intros E ->. rewrite (wf_nouti _ _ _ W) in E. discriminate. Qed.
Lemma same_spec d k r : classes d = Some k -> isSame compare d r = (d =? root r).
Proof. intros E. unfold isSame. rewrite (wf_compare _ _ _ W d k r E). destruct (d =? root r); auto. Qed.
Lemma sub_spec x r kr : classes (root r) = Some kr -> (isSubclass root classes compare x r = true <-> ancestor root bases (root (root x)) (root r)).
Proof.
  intros E. unfold isSubclass. rewrite (C33_subclass_acyclic root bases compare (W_settled root classes compare W) (W_acyclic root classes compare W) (root x) (root r) (class_nz _ _ E)).
  rewrite (wf_root _ _ _ W _ _ E). tauto.
Qed.
Lemma sub_class d k r kr : classes d = Some k -> classes (root r) = Some kr -> (isSubclass root classes compare d r = true <-> ancestor root bases d (root r)).
Proof. intros E ER. rewrite (sub_spec d r kr ER), !(wf_root _ _ _ W d k E). tauto. Qed.
Lemma isa_bool d k r kr : classes d = Some k -> classes (root r) = Some kr -> (isSame compare d r || isSubclass root classes compare d r = true <-> isa d r).
Proof.
  intros E ER. rewrite orb_true_iff, (same_spec d k r E), (sub_class d k r kr E ER), N.eqb_eq. unfold is_a. intuition.
Qed.
Lemma target_class d k u : classes d = Some k -> u <> 0 -> isa d u -> exists ku, classes (root u) = Some ku.
Proof.
  intros E NZ [->|HA]; [eauto|].
  assert (root u <> 0) as NR by (intros EZ; apply NZ, (proj1 (wf_zero _ _ _ W u)), EZ).
  destruct (ancestor_class root classes compare W d (root u) HA NR) as (ku & EU & _). eauto.
Qed.
Lemma isa_trans d k u r : classes d = Some k -> u <> 0 -> isa d u -> isa (root u) r -> isa d r.
Proof.
  intros E NZ [->|HA] H; auto. destruct H as [H|H]; [right; rewrite H; auto|right; eapply ancestor_trans; eauto].
Qed.
Lemma sub_target u ku r kr : classes (root u) = Some ku -> classes (root r) = Some kr -> (isSubclass root classes compare u r = true <-> ancestor root bases (root u) (root r)).
Proof. intros E ER. rewrite (sub_spec u r kr ER), (wf_root _ _ _ W _ _ E). tauto. Qed.
Lemma root_class d k : classes d = Some k -> root d = d.
Proof. apply (wf_root _ _ _ W). Qed.

Lemma eval_is_ok v d r kr : denotes root classes v d -> classes (root r) = Some kr -> (eval_is root classes compare v r = true <-> isa d r).
Proof.
  intros [[k E] HE HT HS HA] ER. pose proof (class_nz d k E) as NZ. unfold eval_is.
  assert ((if v_eff v =? 0 then match v_stg v with OAtom => v_stgeff v | OClass s => s end else v_eff v) = d) as ->.
  { destruct HE as [->|[-> [->|[-> ->]]]]; auto. rewrite (proj2 (N.eqb_neq d 0) NZ). auto. }
  assert (forall u, u <> 0 -> isa d u -> (isSame compare (root u) r || isSubclass root classes compare u r || isSame compare d r || isSubclass root classes compare d r = true <-> isa d r)) as HC.
  { intros u NU HU. destruct (target_class d k u E NU HU) as (ku & EU). rewrite <- orb_assoc, orb_true_iff, (isa_bool d k r kr E ER).
    rewrite orb_true_iff, (same_spec (root u) ku r EU), (sub_target u ku r kr EU ER), N.eqb_eq. split; [|auto]. intros [H|H]; auto.
    apply (isa_trans d k u r E NU HU). destruct H; [left; auto|right; auto]. }
  assert (isa d d) as HDD by (left; apply (root_class d k E)).
  destruct (match v_stg v with OAtom => v_target v | OClass s => if isSame compare (root d) s then OClass s else v_target v end) as [|u] eqn:EL.
  - assert (v_target v = OAtom) as ET by (destruct (v_stg v) as [|s]; auto; destruct (isSame compare (root d) s); congruence).
    destruct (HA ET) as [HG|[HG HF]]; rewrite HG in EL.
    + rewrite !(root_class d k E), (same_spec d k d E), (root_class d k E), N.eqb_refl in EL. discriminate.
    + rewrite HF, (proj2 (N.eqb_neq d 0) NZ). cbn [negb andb]. apply (isa_bool d k r kr E ER).
  - destruct (v_stg v) as [|s] eqn:EG.
    + destruct (HT u EL). apply HC; auto.
    + destruct (isSame compare (root d) s) eqn:ES.
      * injection EL as <-. rewrite (root_class d k E), (same_spec d k s E) in ES. apply N.eqb_eq in ES.
        destruct (N.eq_dec s 0) as [->|NS]; [rewrite !(proj2 (wf_zero _ _ _ W 0) eq_refl) in ES; congruence|].
        (* the storage's type is d or a reference to it *)
        apply HC; auto. left. auto.
      * destruct (HT u EL). apply HC; auto.
Qed.

(* what eval_as works with *)
Lemma as_parts v d : denotes root classes v d -> informed v ->
  let leftisatom := is_atom (v_target v) || is_atom (v_stg v) in
  (if leftisatom then
      if negb (v_eff v =? 0) then (OClass (v_eff v), v_eff v)
      else if negb (v_stgeff v =? 0) then (OClass (v_stgeff v), v_stgeff v)
      else match v_stg v with OClass s => (OClass s, s) | OAtom => (v_target v, 0) end
    else (v_target v, v_eff v)) = (if leftisatom then OClass d else v_target v, d).
Proof.
  intros [[k E] HE HT HS HA] HI. pose proof (class_nz d k E) as NZ. cbv zeta. pose proof (proj2 (N.eqb_neq d 0) NZ) as ND.
  destruct (is_atom (v_target v) || is_atom (v_stg v)) eqn:EA.
  - destruct HE as [->|[EZ HE]]; [rewrite ND; auto|]. rewrite EZ. cbn [N.eqb negb]. destruct HE as [HG|[HG ->]]; [|rewrite ND; auto].
    destruct (HS EZ HG) as [->| ->]; [|rewrite ND; auto]. cbn [N.eqb negb]. rewrite HG. auto.
  - apply orb_false_iff in EA. destruct EA as [E1 E2]. destruct HE as [->|[EZ _]]; auto. exfalso.
    destruct HI as [HI|[HI|HI]]; [auto|rewrite HI in E1; discriminate|rewrite HI in E2; discriminate].
Qed.

Lemma both_positions d k p r : classes d = Some k -> packBits root classes compare d = Some p -> r <> 0 -> ancestor root bases d r ->
  exists q, getABaseClassRelativePositionInAClass root classes compare d r = Some q /\ getASharedBaseClassRelativePositionInAClass root classes compare d r = Some q.
Proof.
  intros E EP NR HA. pose proof (proj2 (shared_table_in root classes compare W d r)) as HI. rewrite (root_class d k E) in HI. specialize (HI (conj NR HA)).
  destruct (pack_parts root classes compare W d k E p EP) as (o1 & _ & ND & _ & HPs).
  assert (In r (nz (lc_bases k) ++ filter (fun y => negb (mem y (lc_bases k))) (sharedTable root classes compare d))) as HL.
  { eapply Permutation.Permutation_in; [apply (parts_perm root classes compare W d k E ND)|exact HI]. }
  rewrite <- (place_fst classes _ o1) in HL. apply in_map_iff in HL. destruct HL as ([b q] & EB & HQ). cbn [fst] in EB. subst b.
  exists q. apply (HPs r q HQ).
Qed.
Lemma relpos_some d k u : classes d = Some k -> packBits root classes compare d <> None -> u <> 0 -> isa d u -> exists q, relpos root classes compare d u = Some q.
Proof.
  intros E HP NZ HU. unfold relpos. destruct (target_class d k u E NZ HU) as (ku & EU). rewrite (root_class d k E).
  destruct HU as [HU|HA].
  - rewrite HU. rewrite (C37_own_position root classes compare W d k E). eauto.
  - destruct (packBits root classes compare d) as [p|] eqn:EP; [|congruence].
    destruct (both_positions d k p (root u) E EP (class_nz _ _ EU) HA) as (q & H & _). eauto.
Qed.
Lemma table_in d k y : classes d = Some k -> (In y (filter (fun b => negb (b =? 0)) (sharedTable root classes compare d)) <-> y <> 0 /\ ancestor root bases d y).
Proof. intros E. rewrite filter_In, (shared_table_in root classes compare W d y), (root_class d k E), negb_true_iff, N.eqb_neq. tauto. Qed.
End IsAs.
