(* DRegTheorems.v: C112. *)
From Coq Require Import List NArith ZArith QArith Lia Bool Permutation Lqa.
From Coq Require Import ZifyBool ZifyNat ZifyN.
From Verif Require Import Base PickModel PickSpec PickTheorems RandModel RandTheorems DRegModel.
Import ListNotations.
Open Scope Q_scope.

(* the probability that the outcome satisfies P *)
Fixpoint prob {A} (P : A -> bool) (d : dist A) : Q := match d with [] => 0 | (a, p) :: d' => (if P a then p else 0) + prob P d' end.
(* one in n *)
Definition one_in (n : Z) : Q := 1 / inject_Z n.
Definition good (p : params) : Prop := (0 < pDC p /\ 0 < pRC p /\ 0 < pDD p /\ 0 < pAD p)%Z.

Lemma prob_app {A} (P : A -> bool) d e : prob P (d ++ e) == prob P d + prob P e.
Proof. induction d as [|[a p] d IH]; cbn [app prob]; [ring|]. rewrite IH. ring. Qed.
Lemma prob_scale {A} (P : A -> bool) q d : prob P (map (fun bq => (fst bq, q * snd bq)) d) == q * prob P d.
Proof. induction d as [|[a p] d IH]; cbn [map prob fst snd]; [ring|]. rewrite IH. destruct (P a); ring. Qed.
Lemma prob_sure {A} (P : A -> bool) a : prob P (sure a) == if P a then 1 else 0.
Proof. unfold sure. cbn [prob]. destruct (P a); ring. Qed.
Lemma prob_next_sure {A B} (P : B -> bool) (a : A) f : prob P (next (sure a) f) == prob P (f a).
Proof. unfold next, sure. cbn [flat_map fst snd]. rewrite app_nil_r, prob_scale. ring. Qed.
Lemma oneIn_list n : (0 < n)%Z -> oneIn n = true :: repeat false (Z.to_nat (n - 1)).
Proof.
  intros H. unfold oneIn, oddsOfU, createU, draws. rewrite !map_map. replace (Z.to_nat n) with (S (Z.to_nat (n - 1))) by lia. cbn [seq map]. f_equal.
  assert (forall j a, (1 <= a)%nat -> map (fun x => Z.of_nat x <? 1)%Z (seq a j) = repeat false j) as G; [|apply G; lia].
  induction j as [|j IH]; intros a Ha; [reflexivity|]. cbn [seq map repeat]. rewrite IH by lia. f_equal. lia.
Qed.
Lemma prob_falses {B} (P : B -> bool) (f : bool -> dist B) q j :
  prob P (next (map (fun b => (b, q)) (repeat false j)) f) == inject_Z (Z.of_nat j) * q * prob P (f false).
Proof.
  induction j as [|j IH]; cbn [repeat map next flat_map fst snd]; [cbn [prob]; unfold inject_Z; cbn; ring|].
  rewrite prob_app, prob_scale. unfold next in IH. rewrite IH. rewrite Nat2Z.inj_succ. unfold Z.succ. rewrite inject_Z_plus. ring.
Qed.
Lemma prob_toss {B} (P : B -> bool) n f : (0 < n)%Z -> prob P (next (toss n) f) == one_in n * prob P (f true) + (1 - one_in n) * prob P (f false).
Proof.
  intros H. unfold toss. rewrite oneIn_list by auto. cbn [List.length]. rewrite repeat_length. replace (Z.of_nat (S (Z.to_nat (n - 1)))) with n by lia.
  unfold next. cbn [map flat_map fst snd]. rewrite prob_app, prob_scale. fold (next (map (fun b => (b, / inject_Z n)) (repeat false (Z.to_nat (n - 1)))) f). rewrite prob_falses.
  rewrite Z2Nat.id by lia. unfold Z.sub. rewrite inject_Z_plus. unfold one_in. change (inject_Z (-(1))) with (-(1)). field.
  unfold Qeq, inject_Z. cbn. lia.
Qed.
Lemma pos_next {A B} (d : dist A) (f : A -> dist B) : (forall a q, In (a, q) d -> 0 < q) -> (forall a b q, In (b, q) (f a) -> 0 < q) -> forall b q, In (b, q) (next d f) -> 0 < q.
Proof.
  intros Hd Hf b q HI. apply in_flat_map in HI as ([a p] & HI & HJ). apply in_map_iff in HJ as ([c r] & E & HJ). injection E as <- <-. cbn [fst snd] in *. apply Qmult_lt_0_compat; eauto.
Qed.
Lemma pos_toss n : (0 < n)%Z -> forall b q, In (b, q) (toss n) -> 0 < q.
Proof. intros H b q HI. unfold toss in HI. apply in_map_iff in HI as (c & E & _). injection E as <- <-. apply Qinv_lt_0_compat. unfold oneIn. rewrite (proj1 (proj2 (C90_odds 1 n H))). unfold Qlt, inject_Z. cbn. lia. Qed.
Lemma pos_sure {A} (a : A) : forall b q, In (b, q) (sure a) -> 0 < q.
Proof. intros b q [E|[]]. injection E as <- <-. reflexivity. Qed.

(* Every event has an outcome: the probabilities are positive and add up to 1. *)
Theorem C112_whole : forall p w, good p -> prob (fun _ => true) (dregBehave p w) == 1 /\ forall v q, In (v, q) (dregBehave p w) -> 0 < q.
Proof.
  intros p [s o] (H1 & H2 & H3 & H4). unfold dregBehave. cbn [fst snd]. split.
  - destruct (isEmptyA o).
    + rewrite prob_toss by auto. rewrite prob_sure, prob_toss, !prob_sure by auto. ring.
    + destruct (isDRegA o).
      * rewrite prob_toss by auto. rewrite prob_next_sure, prob_toss, !prob_sure by auto. ring.
      * rewrite prob_next_sure, prob_toss, !prob_sure by auto. ring.
  - destruct (isEmptyA o).
    + apply pos_next; [apply pos_toss; auto|]. intros [|]; [apply pos_sure|]. apply pos_next; [apply pos_toss; auto|]. intros r. apply pos_sure.
    + apply pos_next; [destruct (isDRegA o); [apply pos_toss; auto|apply pos_sure]|]. intros d1. apply pos_next; [destruct d1; [apply pos_sure|apply pos_toss; auto]|]. intros d. apply pos_sure.
Qed.
Print Assumptions C112_whole.

Lemma in_next {A B} (d : dist A) (f : A -> dist B) b q : In (b, q) (next d f) -> exists a r, In (b, r) (f a).
Proof. intros HI. apply in_flat_map in HI as ([a p] & HI & HJ). apply in_map_iff in HJ as ([c r] & E & HJ). injection E as <- <-. cbn [fst snd] in *. eauto. Qed.
Lemma in_sure {A} (a b : A) q : In (b, q) (sure a) -> b = a.
Proof. intros [E|[]]. injection E as <- <-. reflexivity. Qed.
(* Whatever the parameters, the regulator is never lost. Next to an empty site it moves there and leaves nothing, a copy of itself or a
   resource behind; next to anything else it stays and leaves that alone, or erases it and moves there. *)
Theorem C112_moves : forall p self other v q, In (v, q) (dregBehave p (self, other)) ->
  (other = AEmpty -> snd v = self /\ (fst v = AEmpty \/ fst v = self \/ fst v = ARes 0)) /\
  (other <> AEmpty -> v = (self, other) \/ v = (AEmpty, self)).
Proof.
  intros p s o v q HI. unfold dregBehave in HI. cbn [fst snd] in HI. destruct (isEmptyA o) eqn:EO.
  - destruct o; try discriminate. split; [intros _|congruence]. apply in_next in HI as ([|] & r & HI).
    + apply in_sure in HI. subst. cbn. auto.
    + apply in_next in HI as ([|] & r' & HI); apply in_sure in HI; subst; cbn; auto.
  - split; [intros ->; discriminate|intros _]. apply in_next in HI as (d1 & r & HI). apply in_next in HI as ([|] & r' & HI); apply in_sure in HI; subst; cbn; auto.
Qed.
Print Assumptions C112_moves.

(* what the regulator leaves behind next to an empty site *)
Definition leaves (a : atom -> bool) (v : win) : bool := a (fst v).
(* Next to an empty site a regulator is made with the odds of pDREG_CREATE, and a resource with those of pRES_CREATE when no regulator was. *)
Theorem C112_creates : forall p d, good p -> let e := dregBehave p (ADReg d, AEmpty) in
  prob (leaves isDRegA) e == one_in (pDC p) /\ prob (leaves isResA) e == (1 - one_in (pDC p)) * one_in (pRC p) /\
  prob (leaves isEmptyA) e == (1 - one_in (pDC p)) * (1 - one_in (pRC p)).
Proof.
  intros p d (H1 & H2 & H3 & H4) e. unfold e, dregBehave. cbn [fst snd isEmptyA]. repeat split; rewrite prob_toss by auto; rewrite prob_sure, prob_toss, !prob_sure by auto; cbn; ring.
Qed.
Print Assumptions C112_creates.

Definition erases (v : win) : bool := isEmptyA (fst v).
(* Anything else than a regulator is erased with the odds of pANY_DESTROY. *)
Theorem C112_destroys : forall p d o, good p -> o <> AEmpty -> isDRegA o = false -> prob erases (dregBehave p (ADReg d, o)) == one_in (pAD p).
Proof.
  intros p d o (H1 & H2 & H3 & H4) HE HD. unfold dregBehave. cbn [fst snd]. assert (isEmptyA o = false) as -> by (destruct o; cbn; congruence). rewrite HD. rewrite prob_next_sure, prob_toss, !prob_sure by auto. cbn. ring.
Qed.
Print Assumptions C112_destroys.
(* A regulator is erased with the odds of pDREG_DESTROY or else with those of pANY_DESTROY. *)
Theorem C112_dreg : forall p d d', good p -> prob erases (dregBehave p (ADReg d, ADReg d')) == one_in (pDD p) + (1 - one_in (pDD p)) * one_in (pAD p).
Proof.
  intros p d d' (H1 & H2 & H3 & H4). unfold dregBehave. cbn [fst snd isEmptyA isDRegA]. rewrite prob_toss by auto. rewrite prob_next_sure, prob_toss, !prob_sure by auto. cbn. ring.
Qed.
Print Assumptions C112_dreg.
(* The documentation gives the odds of pDREG_DESTROY alone, and those of pANY_DESTROY to the others alone: that holds only if
   pDREG_DESTROY is 1; otherwise regulators are erased more often. With the defaults it is 109 in 1000 instead of 100. *)
Theorem C112_dreg_refuted : (forall p d d', good p -> pDD p <> 1%Z -> one_in (pDD p) < prob erases (dregBehave p (ADReg d, ADReg d'))) /\
  (forall p d d', good p -> pDD p = 1%Z -> prob erases (dregBehave p (ADReg d, ADReg d')) == one_in (pDD p)) /\
  (forall d d', prob erases (dregBehave defaults (ADReg d, ADReg d')) == 109 # 1000).
Proof.
  split; [|split].
  - intros p d d' HG HN. rewrite C112_dreg by auto. destruct HG as (H1 & H2 & H3 & H4).
    assert (one_in (pDD p) < 1) as A. { unfold one_in. apply Qlt_shift_div_r; [unfold Qlt, inject_Z; cbn; lia|]. rewrite Qmult_1_l. change 1 with (inject_Z 1). rewrite <- Zlt_Qlt. lia. }
    assert (0 < one_in (pAD p)) as B. { unfold one_in. apply Qlt_shift_div_l; [unfold Qlt, inject_Z; cbn; lia|]. rewrite Qmult_0_l. reflexivity. }
    assert (0 < (1 - one_in (pDD p)) * one_in (pAD p)) as C by (apply Qmult_lt_0_compat; lra). lra.
  - intros p d d' HG E. rewrite C112_dreg, E by auto. change (one_in 1) with (1 / 1). field.
  - intros d d'. rewrite C112_dreg by (unfold good, defaults; cbn; lia). reflexivity.
Qed.
Print Assumptions C112_dreg_refuted.

(* ---- the elements without chance ---- *)
(* A resource and a wall neither make nor destroy atoms; a resource moves just if the other site is empty, a wall never does. *)
Theorem C112_conserve : forall w, Permutation [fst (resBehave w); snd (resBehave w)] [fst w; snd w] /\ wallBehave w = w /\
  (snd w = AEmpty -> resBehave w = (AEmpty, fst w)) /\ (snd w <> AEmpty -> resBehave w = w).
Proof.
  intros [s o]. unfold resBehave, wallBehave, swap01. cbn [fst snd]. repeat split; destruct o; cbn; try congruence; auto. apply perm_swap.
Qed.
Print Assumptions C112_conserve.
(* An aggregate stays, takes resources as copies of itself and touches nothing else; a fork bomb overwrites anything. *)
Theorem C112_copies : forall w, fst (dlaBehave w) = fst w /\ (isResA (snd w) = true -> dlaBehave w = (fst w, fst w)) /\ (isResA (snd w) = false -> dlaBehave w = w) /\
  forkBehave w = (fst w, fst w).
Proof. intros [s o]. unfold dlaBehave, forkBehave, put1. cbn [fst snd]. repeat split; destruct (isResA o); try discriminate; reflexivity. Qed.
Print Assumptions C112_copies.
(* Two events of an FX bring it, its flag and the whole row back; one event changes places with a neighbour, on the other side each time. *)
Theorem C112_fx : forall pos flip r, let '(pos1, flip1, r1) := fxBehave pos flip r in let '(pos2, flip2, r2) := fxBehave pos1 flip1 r1 in
  pos2 = pos /\ flip2 = flip /\ (forall k, r2 k = r k) /\ Z.abs (pos1 - pos) = 1%Z /\ flip1 = negb flip /\ (pos1 < pos <-> flip = false)%Z /\
  r1 pos1 = r pos /\ r1 pos = r pos1 /\ (forall k, k <> pos -> k <> pos1 -> r1 k = r k).
Proof.
  intros pos flip r. unfold fxBehave, swapR. destruct flip; cbn [negb]; repeat split; try lia; try congruence; intros.
  all: repeat match goal with |- context [Z.eqb ?a ?b] => destruct (Z.eqb_spec a b) end; try f_equal; try lia.
Qed.
Print Assumptions C112_fx.

Example C112_ex : good defaults /\ List.length (dregBehave {| pDC := 2; pRC := 3; pDD := 2; pAD := 4 |} (ADReg 7, AEmpty)) = 4%nat /\
  prob (leaves isResA) (dregBehave {| pDC := 2; pRC := 3; pDD := 2; pAD := 4 |} (ADReg 7, AEmpty)) == 1 # 6 /\
  prob erases (dregBehave {| pDC := 2; pRC := 3; pDD := 2; pAD := 4 |} (ADReg 7, AOther 5 1)) == 1 # 4 /\
  prob erases (dregBehave {| pDC := 2; pRC := 3; pDD := 2; pAD := 4 |} (ADReg 7, ADReg 8)) == 5 # 8 /\
  resBehave (ARes 1, AEmpty) = (AEmpty, ARes 1) /\ dlaBehave (AOther 3 4, ARes 0) = (AOther 3 4, AOther 3 4).
Proof. unfold good. repeat split; vm_compute; reflexivity. Qed.
