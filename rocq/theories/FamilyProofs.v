(* FamilyProofs.v: what the walker visits. *)
From Coq Require Import String List NArith ZArith Lia Bool.
From Coq Require Import ZifyBool ZifyNat ZifyN.
From Verif Require Import Base TypeTableModel FamilyModel.
Import ListNotations.
Open Scope N_scope.

(* ---- specification: the inheritance graph ---- *)
Section Spec.
Variable root : N -> N.
Variable bases : N -> option (list N).
(* y stands in the table of bases of x *)
Definition edge (x y : N) : Prop := exists bs b, bases x = Some bs /\ In b bs /\ root b = y.
Inductive reach : N -> N -> Prop :=
| reach_refl x : reach x x
| reach_step x y z : edge x y -> reach y z -> reach x z.
(* one or more links *)
Definition ancestor (x z : N) : Prop := exists y, edge x y /\ reach y z.
Definition acyclic : Prop := forall x, ~ ancestor x x.
End Spec.

Lemma mem_In x l : mem x l = true <-> In x l.
Proof. unfold mem. rewrite existsb_exists. split; [intros (y & H & E); apply N.eqb_eq in E; subst; auto|intros H; exists x; split; auto; apply N.eqb_refl]. Qed.

Lemma add_in bf bs h d q : In q (addAncestorPairsOf bf bs h d) <-> In q d \/ exists b, In b bs /\ q = (b, h).
Proof.
  unfold addAncestorPairsOf. assert (In q (map (fun b => (b, h)) bs) <-> exists b, In b bs /\ q = (b, h)) as HM.
  { rewrite in_map_iff. split; intros (b & H1 & H2); exists b; subst; auto. }
  destruct bf; rewrite in_app_iff, HM; tauto.
Qed.

Section Proofs.
Variable root : N -> N.
Variable bases : N -> option (list N).
Notation edge := (edge root bases).
Notation reach := (reach root bases).
Notation ancestor := (ancestor root bases).

Lemma reach_trans x y z : reach x y -> reach y z -> reach x z.
Proof. induction 1; auto. intros HZ. econstructor; eauto. Qed.
Lemma reach_snoc x y z : reach x y -> edge y z -> reach x z.
Proof. intros H1 H2. eapply reach_trans; eauto. econstructor; eauto. constructor. Qed.
Lemma reach_ancestor x z : reach x z -> x = z \/ ancestor x z.
Proof. intros H. destruct H as [x|x y z HE HR]; auto. right. exists y. auto. Qed.
Lemma ancestor_reach x z : ancestor x z -> reach x z.
Proof. intros (y & HE & HR). econstructor; eauto. Qed.
Lemma ancestor_trans x y z : ancestor x y -> ancestor y z -> ancestor x z.
Proof. intros (w & HE & HR) H. exists w. split; auto. eapply reach_trans; eauto. apply ancestor_reach. auto. Qed.
Lemma reach_last x z : ancestor x z -> exists y, reach x y /\ edge y z.
Proof.
  intros (y & HE & HR). revert x HE. induction HR as [y|y w z HE' HR IH]; intros x HE; [exists x; split; auto; constructor|].
  destruct (IH y HE') as (v & HV & HZ). exists v. split; auto. econstructor; eauto.
Qed.

Lemma next_some d seen r h d' seen' : getNextBasePair root d seen = (Some (r, h), d', seen') ->
  seen' = r :: seen /\ ~ In r seen /\ exists p b, d = p ++ (b, h) :: d' /\ r = root b /\ forall q, In q p -> In (root (fst q)) seen.
Proof.
  induction d as [|[b k] d IH]; cbn [getNextBasePair]; [discriminate|]. destruct (mem (root b) seen) eqn:E.
  - intros H. destruct (IH H) as (E1 & NI & p & b0 & -> & -> & HP). split; auto. split; auto. exists ((b, k) :: p), b0. split; auto. split; auto. intros q [<-|HQ]; auto. apply mem_In. auto.
  - intros H. injection H as <- <- <- <-. split; auto. split. { intros HI. apply mem_In in HI. congruence. } exists [], b. split; auto. split; auto. intros q [].
Qed.
Lemma next_none d seen d' seen' : getNextBasePair root d seen = (None, d', seen') -> forall q, In q d -> In (root (fst q)) seen.
Proof.
  induction d as [|[b k] d IH]; cbn [getNextBasePair]; intros H q HQ; [contradiction|]. destruct (mem (root b) seen) eqn:E; [|discriminate].
  destruct HQ as [<-|HQ]; auto. apply mem_In. auto.
Qed.

Lemma visits_sound : forall fuel bf hd d seen, NoDup (map fst (visits root bases fuel bf hd d seen)) /\
  (forall x, In x (map fst (visits root bases fuel bf hd d seen)) -> ~ In x seen /\ exists q, In q d /\ reach (root (fst q)) x).
Proof.
  induction fuel as [|f IH]; intros bf hd d seen; cbn [visits]; [split; [constructor|intros x []]|].
  destruct (getNextBasePair root d seen) as [[[[r h]|] d'] seen'] eqn:E; [|split; [constructor|intros x []]].
  destruct (next_some _ _ _ _ _ _ E) as (-> & NI & p & b & -> & -> & HP). set (d'' := match bases (root b) with Some bs => _ | None => _ end). destruct (IH bf hd d'' (root b :: seen)) as [ND HS].
  cbn [map fst]. split.
  - constructor; auto. intros HI. apply HS in HI. destruct HI as [HI _]. apply HI. left. auto.
  - intros x [<-|HX].
    + split; auto. exists (b, h). split; [apply in_or_app; right; left; auto|constructor].
    + destruct (HS x HX) as [N1 (q & HQ & HR)]. split; [intros HI; apply N1; right; auto|]. unfold d'' in HQ. destruct (bases (root b)) as [bs|] eqn:EB.
      * apply add_in in HQ. destruct HQ as [HQ|(b' & HB & ->)]; [exists q; split; auto; apply in_or_app; right; right; auto|].
        exists (b, h). split; [apply in_or_app; right; left; auto|]. cbn [fst] in *. apply reach_step with (root b'); auto. exists bs, b'. auto.
      * exists q. split; auto. apply in_or_app. right. right. auto.
Qed.

Definition bound : N := 65536.
Lemma few (l : list N) : NoDup l -> (forall x, In x l -> x < bound) -> (List.length l <= N.to_nat bound)%nat.
Proof.
  intros ND HB. replace (N.to_nat bound) with (List.length (nrange (N.to_nat bound))) by (unfold nrange; rewrite map_length, seq_length; auto).
  apply NoDup_incl_length; auto. intros x HX. specialize (HB x HX). unfold nrange. apply in_map_iff. exists (N.to_nat x). split; [lia|]. apply in_seq. lia.
Qed.

Hypothesis root_small : forall x, root x < bound.

Lemma visits_complete : forall fuel bf hd d seen, NoDup seen -> (forall x, In x seen -> x < bound) -> (N.to_nat bound < List.length seen + fuel)%nat ->
  (forall q, In q d -> In (root (fst q)) seen \/ In (root (fst q)) (map fst (visits root bases fuel bf hd d seen))) /\
  (forall x y, In x (map fst (visits root bases fuel bf hd d seen)) -> edge x y -> In y seen \/ In y (map fst (visits root bases fuel bf hd d seen))).
Proof.
  induction fuel as [|f IH]; intros bf hd d seen ND HB HF; cbn [visits]; [pose proof (few seen ND HB); lia|].
  destruct (getNextBasePair root d seen) as [[[[r h]|] d'] seen'] eqn:E.
  2:{ split; [|intros x y []]. intros q HQ. left. eapply next_none; eauto. }
  destruct (next_some _ _ _ _ _ _ E) as (-> & NI & p & b & -> & -> & HP). set (d'' := match bases (root b) with Some bs => _ | None => _ end).
  destruct (IH bf hd d'' (root b :: seen)) as [H1 H2].
  { constructor; auto. } { intros x [<-|HX]; auto. } { cbn [List.length]. lia. }
  assert (forall q, In q d' -> In q d'') as HD by (intros q HQ; unfold d''; destruct (bases (root b)); auto; apply add_in; auto).
  cbn [map fst]. split.
  - intros q HQ. apply in_app_or in HQ. destruct HQ as [HQ|[<-|HQ]]; [left; apply HP; auto|right; left; auto|].
    destruct (H1 q (HD q HQ)) as [[->|HI]|HI]; [right; left; auto|left; auto|right; right; auto].
  - intros x y [<-|HX] HE.
    + destruct HE as (bs & b' & EB & HIn & <-). destruct (H1 (b', hd (root b) h)) as [[->|HI]|HI]; cbn [fst] in *; [|right; left; auto|left; auto|right; right; auto].
      unfold d''. rewrite EB. apply add_in. right. exists b'. auto.
    + destruct (H2 x y HX HE) as [[->|HI]|HI]; [right; left; auto|left; auto|right; right; auto].
Qed.

Lemma visits_reach bf hd d : forall x, In x (map fst (visits root bases the_fuel bf hd d [])) <-> exists q, In q d /\ reach (root (fst q)) x.
Proof.
  assert (N.to_nat bound < List.length (@nil N) + the_fuel)%nat as HF by (unfold bound, the_fuel; lia).
  destruct (visits_complete the_fuel bf hd d [] (NoDup_nil _) ltac:(intros x []) HF) as [H1 H2]. intros x. split.
  - intros HX. destruct (visits_sound the_fuel bf hd d []) as [_ HS]. destruct (HS x HX) as [_ H]. auto.
  - intros (q & HQ & HR). destruct (H1 q HQ) as [[]|HI]. revert HI. induction HR as [y|y w z HE HR IH]; auto. intros HI. destruct (H2 y w HI HE) as [[]|HI2]. auto.
Qed.

(* search is the first visited class where stop holds *)
Definition defined (b : N) : bool := match bases b with Some _ => true | None => false end.
Lemma search_find : forall fuel bf hd stop d seen, search root bases fuel bf hd stop d seen = find (fun q => defined (fst q) && stop (fst q)) (visits root bases fuel bf hd d seen).
Proof.
  induction fuel as [|f IH]; intros bf hd stop d seen; cbn [search visits]; auto. destruct (getNextBasePair root d seen) as [[[[r h]|] d'] seen']; auto.
  cbn [find fst]. unfold defined at 1. destruct (bases r) as [bs|]; cbn [andb]; [|apply IH]. destruct (stop r); auto.
Qed.
Lemma search_some bf hd stop d : (exists q, search root bases the_fuel bf hd stop d [] = Some q) <-> exists x, (exists q, In q d /\ reach (root (fst q)) x) /\ defined x = true /\ stop x = true.
Proof.
  rewrite search_find. split.
  - intros (q & E). apply find_some in E. destruct E as [HI HS]. apply andb_true_iff in HS. exists (fst q). split; [|tauto]. apply (visits_reach bf hd d). apply in_map. auto.
  - intros (x & HX & HD & HS). apply (visits_reach bf hd d) in HX. apply in_map_iff in HX. destruct HX as (q & <- & HQ).
    destruct (find _ _) as [q'|] eqn:E; [eauto|]. eapply find_none in E; eauto. cbn in E. rewrite HD, HS in E. discriminate.
Qed.

Lemma visits_head bf hd c : match visits root bases the_fuel bf hd [(c, 0)] [] with q :: _ => q = (root c, 0) | [] => False end.
Proof. change the_fuel with (S (Nat.pred the_fuel)) || (assert (the_fuel = S (N.to_nat 65536)) as -> by (unfold the_fuel; lia)). cbn [visits getNextBasePair mem existsb]. auto. Qed.
End Proofs.
