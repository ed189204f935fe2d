(* FamilyTheorems.v: walking the base classes (C32), the subclass test and the is-test's bit vector (C33). *)
From Coq Require Import String List NArith ZArith Lia Bool.
From Coq Require Import ZifyBool ZifyNat ZifyN.
From Verif Require Import Base TypeTableModel FamilyModel FamilyProofs.
Import ListNotations.
Open Scope N_scope.

(* ---- C32 ---- *)
(* Both strategies, cyclic or not: each class once, exactly those reachable, the start first. *)
Theorem C32_walk : forall root bases, (forall x, root x < 65536) -> forall breadth c,
  NoDup (walk_from root bases breadth c) /\
  (forall x, In x (walk_from root bases breadth c) <-> reach root bases (root c) x) /\
  (exists rest, walk_from root bases breadth c = root c :: rest).
Proof.
  intros root bases HB bf c. unfold walk_from. split; [|split].
  - apply (visits_sound root bases).
  - intros x. rewrite visits_reach by auto. split; [intros (q & [<-|[]] & HR); auto|]. intros HR. exists (c, 0). split; [left|]; auto.
  - pose proof (visits_head root bases bf nohead c) as H. destruct (visits _ _ _ _ _ _ _) as [|q l]; [contradiction|]. subst q. cbn [map fst]. eauto.
Qed.
Print Assumptions C32_walk.
(* started from the bases of a class instead of the class: exactly its ancestors *)
Theorem C32_ancestors : forall root bases, (forall x, root x < 65536) -> forall breadth c,
  NoDup (ancestors_of root bases breadth c) /\ (forall x, In x (ancestors_of root bases breadth c) <-> ancestor root bases c x).
Proof.
  intros root bases HB bf c. unfold ancestors_of. destruct (bases c) as [bs|] eqn:EB.
  - split; [apply (visits_sound root bases)|]. intros x. rewrite visits_reach by auto. split.
    + intros (q & HQ & HR). apply add_in in HQ. destruct HQ as [[]|(b & HI & ->)]. cbn [fst] in HR. exists (root b). split; [exists bs, b; auto|auto].
    + intros (y & (bs' & b & E & HI & <-) & HR). rewrite EB in E. injection E as <-. exists (b, 0). split; auto. apply add_in. right. exists b. auto.
  - split; [constructor|]. intros x. split; [intros []|]. intros (y & (bs' & b & E & _) & _). congruence.
Qed.
Print Assumptions C32_ancestors.

(* breadth-first: by nondecreasing distance from the start. n links lead from x to z: *)
Inductive links (root : N -> N) (bases : N -> option (list N)) (x : N) : nat -> N -> Prop :=
| links_0 : links root bases x 0 x
| links_S n y z : links root bases x n y -> edge root bases y z -> links root bases x (S n) z.

Section Breadth.
Variable root : N -> N.
Variable bases : N -> option (list N).
Variable s : N.
Notation links := (links root bases s).
Notation roots d := (map (fun q : N * N => root (fst q)) d).

Definition level (k : nat) (d1 d2 : deque) (seen : list N) : Prop :=
  (forall q, In q d1 -> links k (root (fst q))) /\ (forall q, In q d2 -> links (S k) (root (fst q))) /\
  (forall n z, (n < k)%nat -> links n z -> In z seen) /\ (forall z, links k z -> In z seen \/ In z (roots d1)) /\
  (forall x z, In x seen -> edge root bases x z -> In z seen \/ In z (roots d1) \/ In z (roots d2)).

Lemma level_shift k d2 seen : level k [] d2 seen -> level (S k) d2 [] seen.
Proof.
  intros (H1 & H2 & H3 & H4 & H5). split; auto. split; [intros q []|]. split; [|split].
  - intros n z HN HL. destruct (Nat.eq_dec n k) as [->|NE]; [destruct (H4 z HL) as [H|[]]; auto|apply (H3 n); auto; lia].
  - intros z HL. inversion HL as [|n y z' HL' HE]; subst. destruct (H4 y HL') as [H|[]]. destruct (H5 y z H HE) as [A|[[]|A]]; auto.
  - intros x z HX HE. destruct (H5 x z HX HE) as [A|[[]|A]]; auto.
Qed.
Lemma level_skip k q d1 d2 seen : In (root (fst q)) seen -> level k (q :: d1) d2 seen -> level k d1 d2 seen.
Proof.
  intros HS (H1 & H2 & H3 & H4 & H5). split; [intros q' HQ; apply H1; right; auto|]. split; auto. split; auto. split.
  - intros z HL. destruct (H4 z HL) as [A|[<-|A]]; auto.
  - intros x z HX HE. destruct (H5 x z HX HE) as [A|[[<-|A]|A]]; auto.
Qed.
Lemma level_take k q d1 d2 seen bs h : bases (root (fst q)) = Some bs -> level k (q :: d1) d2 seen -> level k d1 (d2 ++ map (fun b => (b, h)) bs) (root (fst q) :: seen).
Proof.
  intros EB (H1 & H2 & H3 & H4 & H5). split; [intros q' HQ; apply H1; right; auto|]. split; [|split; [|split]].
  - intros q' HQ. apply in_app_or in HQ. destruct HQ as [HQ|HQ]; auto. apply in_map_iff in HQ. destruct HQ as (b & <- & HB). cbn [fst].
    apply links_S with (root (fst q)); [apply H1; left; auto|]. exists bs, b. auto.
  - intros n z HN HL. right. eauto.
  - intros z HL. destruct (H4 z HL) as [A|[<-|A]]; [left; right|left; left|right]; auto.
  - intros x z HX HE. rewrite map_app, in_app_iff. destruct HX as [<-|HX].
    + right. right. right. destruct HE as (bs' & b & E & HB & <-). rewrite EB in E. injection E as <-. rewrite map_map. apply in_map_iff. exists b. auto.
    + destruct (H5 x z HX HE) as [A|[[<-|A]|A]]; [left; right|left; left|right; left|right; right; left]; auto.
Qed.
Lemma level_take_none k q d1 d2 seen : bases (root (fst q)) = None -> level k (q :: d1) d2 seen -> level k d1 d2 (root (fst q) :: seen).
Proof.
  intros EB (H1 & H2 & H3 & H4 & H5). split; [intros q' HQ; apply H1; right; auto|]. split; [|split; [|split]].
  - auto.
  - intros n z HN HL. right. eauto.
  - intros z HL. destruct (H4 z HL) as [A|[<-|A]]; [left; right|left; left|right]; auto.
  - intros x z HX HE. destruct HX as [<-|HX]; [destruct HE as (bs' & b & E & _); congruence|].
    destruct (H5 x z HX HE) as [A|[[<-|A]|A]]; [left; right|left; left|right; left|right; right]; auto.
Qed.

(* in a list sorted by distance, nothing nearer than k *)
Fixpoint by_distance (l : list N) : Prop :=
  match l with
  | [] => True
  | x :: r => (exists k, links k x /\ forall y, In y r -> forall n, links n y -> (k <= n)%nat) /\ by_distance r
  end.
Lemma next_level seen : forall d1 k d2, level k d1 d2 seen ->
  match getNextBasePair root (d1 ++ d2) seen with
  | (None, _, _) => True
  | (Some (r, h), d', seen') => exists k' q e1 e2, (k <= k')%nat /\ d' = e1 ++ e2 /\ level k' (q :: e1) e2 seen /\ r = root (fst q) /\ seen' = r :: seen /\ ~ In r seen
  end.
Proof.
  assert (forall d2 k, level k d2 [] seen -> match getNextBasePair root (d2 ++ []) seen with
    | (None, _, _) => True
    | (Some (r, h), d', seen') => exists k' q e1 e2, (k <= k')%nat /\ d' = e1 ++ e2 /\ level k' (q :: e1) e2 seen /\ r = root (fst q) /\ seen' = r :: seen /\ ~ In r seen end) as HB.
  { induction d2 as [|[b h] d2 IH]; intros k HL; cbn [app getNextBasePair]; auto. destruct (mem (root b) seen) eqn:E.
    - apply IH. apply (level_skip k (b, h)); auto. apply mem_In. auto.
    - exists k, (b, h), d2, []. split; auto. split; auto. split; auto. split; auto. split; auto. intros HI. apply mem_In in HI. congruence. }
  induction d1 as [|[b h] d1 IH]; intros k d2 HL; cbn [app getNextBasePair].
  - apply level_shift in HL. specialize (HB d2 (S k) HL). rewrite app_nil_r in HB. destruct (getNextBasePair root d2 seen) as [[[[r h]|] d'] seen']; auto.
    destruct HB as (k' & q & e1 & e2 & HK & H). exists k', q, e1, e2. split; auto. lia.
  - destruct (mem (root b) seen) eqn:E.
    + apply IH. apply (level_skip k (b, h)); auto. apply mem_In. auto.
    + exists k, (b, h), d1, d2. split; auto. split; auto. split; auto. split; auto. split; auto. intros HI. apply mem_In in HI. congruence.
Qed.
Lemma breadth_sorted hd : forall fuel k d1 d2 seen, level k d1 d2 seen -> by_distance (map fst (visits root bases fuel true hd (d1 ++ d2) seen)).
Proof.
  induction fuel as [|f IH]; intros k d1 d2 seen HL; cbn [visits]; [exact I|]. pose proof (next_level seen d1 k d2 HL) as HN.
  destruct (getNextBasePair root (d1 ++ d2) seen) as [[[[r h]|] d'] seen'] eqn:EN; [|exact I]. destruct HN as (k' & q & e1 & e2 & HK & -> & HL' & -> & -> & NI).
  cbn [map fst by_distance]. split.
  - exists k'. split; [apply HL'; left; auto|]. intros y HY n HLn. destruct (Nat.le_gt_cases k' n) as [|HLt]; auto. exfalso.
    destruct HL' as (_ & _ & H3 & _). specialize (H3 n y HLt HLn). destruct (visits_sound root bases f true hd (match bases (root (fst q)) with Some bs => addAncestorPairsOf true bs (hd (root (fst q)) h) (e1 ++ e2) | None => e1 ++ e2 end) (root (fst q) :: seen)) as [_ HS].
    destruct (HS y HY) as [HNo _]. apply HNo. right. auto.
  - destruct (bases (root (fst q))) as [bs|] eqn:EB.
    + unfold addAncestorPairsOf. rewrite <- app_assoc. apply IH with k'. apply level_take with (1 := EB); auto.
    + apply IH with k'. apply level_take_none; auto.
Qed.
End Breadth.

Theorem C32_breadth_first_by_distance : forall root bases c l1 x l2 y l3,
  walk_from root bases true c = l1 ++ x :: l2 ++ y :: l3 ->
  exists k, links root bases (root c) k x /\ forall n, links root bases (root c) n y -> (k <= n)%nat.
Proof.
  intros root bases c l1 x l2 y l3 E. assert (by_distance root bases (root c) (walk_from root bases true c)) as HS.
  { unfold walk_from. apply (breadth_sorted root bases (root c) nohead the_fuel 0 [(c, 0)] [] []).
    split; [|split; [|split; [|split]]].
    - intros q [<-|[]]. constructor. - intros q []. - intros n z HN. lia.
    - intros z HL. inversion HL; subst. right. left. auto. - intros x' z []. }
  rewrite E in HS. clear E. induction l1 as [|z l1 IH]; cbn [app by_distance] in HS; [|apply IH; apply HS].
  destruct HS as [(k & HK & HA) _]. exists k. split; auto. apply HA. apply in_or_app. right. left. auto.
Qed.
Print Assumptions C32_breadth_first_by_distance.

(* depth-first: as long as a visited class has a base not yet visited, only its ancestors are visited *)
Section Depth.
Variable root : N -> N.
Variable bases : N -> option (list N).
Definition pending (d : deque) (seen : list N) : Prop := forall y z, In y seen -> edge root bases y z -> ~ In z seen ->
  exists d1 b h d2, d = d1 ++ (b, h) :: d2 /\ root b = z /\ forall q, In q d1 -> reach root bases y (root (fst q)).
Lemma first_unseen (seen : list N) : forall p1 (b1 : N) (h1 : N) r1 p2 (b2 : N) (h2 : N) r2, p1 ++ (b1, h1) :: r1 = p2 ++ (b2, h2) :: r2 -> (forall q, In q p1 -> In (root (fst q)) seen) -> ~ In (root b2) seen ->
  (exists m, p2 = p1 ++ (b1, h1) :: m /\ r1 = m ++ (b2, h2) :: r2) \/ (p1 = p2 /\ b1 = b2 /\ r1 = r2).
Proof.
  induction p1 as [|q p1 IH]; intros b1 h1 r1 p2 b2 h2 r2 E HS HN; destruct p2 as [|q2 p2]; cbn [app] in E; injection E as E1 E2.
  - right. subst. auto.
  - left. exists p2. subst. auto.
  - exfalso. subst q. apply HN. apply (HS (b2, h2)). left. auto.
  - subst q2. destruct (IH _ _ _ _ _ _ _ E2 (fun q HQ => HS q (or_intror HQ)) HN) as [(m & -> & ->)|(-> & -> & ->)]; [left; exists m; auto|right; auto].
Qed.
Lemma depth_pending hd : forall fuel d seen p x q, pending d seen -> map fst (visits root bases fuel false hd d seen) = p ++ x :: q ->
  forall y z, In y seen \/ In y p -> edge root bases y z -> ~ In z seen -> ~ In z p -> reach root bases y x.
Proof.
  induction fuel as [|f IH]; intros d seen p x q HI; cbn [visits]; [destruct p; discriminate|].
  destruct (getNextBasePair root d seen) as [[[[r h]|] d'] seen'] eqn:E; [|destruct p; discriminate]. destruct (next_some _ _ _ _ _ _ _ E) as (-> & NI & p0 & b & -> & -> & HP). cbn [map fst].
  destruct p as [|x0 p]; cbn [app]; intros EL y z HY HE NS NP; injection EL as E1 E2.
  - subst x. destruct HY as [HY|[]]. destruct (HI y z HY HE NS) as (d1 & b' & h' & d2 & ED & <- & HD). destruct (first_unseen seen _ _ _ _ _ _ _ _ ED HP NS) as [(m & -> & ->)|(-> & -> & ->)].
    + apply (HD (b, h)). apply in_or_app. right. left. auto.
    + econstructor; eauto. constructor.
  - subst x0. eapply IH; [|exact E2| |exact HE| |]; [| |intros [E0|H]; [apply NP; left; auto|auto]|intros H; apply NP; right; auto].
    2:{ destruct HY as [HY|[<-|HY]]; [left; right|left; left|right]; auto. }
    clear y z HY HE NS NP. intros y z HY HE NS. destruct HY as [<-|HY].
    + destruct HE as (bs & b' & EB & HB & <-). rewrite EB. apply in_split in HB. destruct HB as (l1 & l2 & ->). exists (map (fun b0 => (b0, hd (root b) h)) l1), b', (hd (root b) h), (map (fun b0 => (b0, hd (root b) h)) l2 ++ d').
      split; [unfold addAncestorPairsOf; rewrite map_app, <- app_assoc; auto|]. split; auto. intros q' HQ. apply in_map_iff in HQ. destruct HQ as (b0 & <- & HB). cbn [fst]. apply reach_step with (root b0); [|constructor]. exists (l1 ++ b' :: l2), b0. split; auto. split; auto. apply in_or_app. auto.
    + assert (~ In z seen) as NZ by (intros H; apply NS; right; auto). destruct (HI y z HY HE NZ) as (d1 & b' & h' & d2 & ED & <- & HD). destruct (first_unseen seen _ _ _ _ _ _ _ _ ED HP NZ) as [(m & -> & ->)|(-> & -> & ->)]; [|exfalso; apply NS; left; auto].
      assert (reach root bases y (root b)) as HR by (apply (HD (b, h)); apply in_or_app; right; left; auto).
      destruct (bases (root b)) as [bs|] eqn:EB.
      * exists (map (fun b0 => (b0, hd (root b) h)) bs ++ m), b', h', d2. split; [unfold addAncestorPairsOf; rewrite <- app_assoc; auto|]. split; auto. intros q' HQ. apply in_app_or in HQ. destruct HQ as [HQ|HQ]; [|apply HD; apply in_or_app; right; right; auto].
        apply in_map_iff in HQ. destruct HQ as (b0 & <- & HB). cbn [fst]. eapply reach_snoc; eauto. exists bs, b0. auto.
      * exists m, b', h', d2. split; auto. split; auto. intros q' HQ. apply HD. apply in_or_app. right. right. auto.
Qed.
End Depth.

Theorem C32_depth_first : forall root bases c p x q, walk_from root bases false c = p ++ x :: q ->
  forall y z, In y p -> edge root bases y z -> ~ In z p -> reach root bases y x.
Proof.
  intros root bases c p x q E y z HY HE NZ. unfold walk_from in E. apply (depth_pending root bases nohead the_fuel [(c, 0)] [] p x q) with z; auto. intros y' z' [].
Qed.
Print Assumptions C32_depth_first.
Lemma depth_ancestors root bases c p x q : ancestors_of root bases false c = p ++ x :: q ->
  forall y z, In y p -> edge root bases y z -> ~ In z p -> reach root bases y x.
Proof.
  intros E y z HY HE NZ. unfold ancestors_of in E. destruct (bases c) as [bs|]; [|destruct p; discriminate]. eapply (depth_pending root bases nohead); [|exact E|eauto|exact HE|auto|auto]. intros y' z' [].
Qed.

(* a diamond 1 : 2 + 3, 2 : 4, 3 : 4, with 4 : 1 closing a cycle; 7 is an alias of 2; class 5 is not defined *)
Definition ex_root (x : N) : N := if x =? 7 then 2 else x mod 65536.
Definition ex_bases (x : N) : option (list N) :=
  if x =? 1 then Some [0; 7; 3] else if x =? 2 then Some [0; 4] else if x =? 3 then Some [4; 5] else if x =? 4 then Some [0; 1] else None.
Example C32_ex : (forall x, ex_root x < 65536) /\ walk_from ex_root ex_bases true 1 = [1; 0; 2; 3; 4; 5] /\ walk_from ex_root ex_bases false 1 = [1; 0; 2; 4; 3; 5].
Proof.
  split; [|split; vm_compute; auto]. intros x. unfold ex_root. destruct (x =? 7); [reflexivity|]. apply N.mod_lt. discriminate.
Qed.

(* ---- C33 ---- *)
(* The conditions: type indexes fit 16 bits; 0 stands for no class; the classes in the tables of bases are complete, so that
   the comparison of types tells whether two of them are the same. *)
Record settled (root : N -> N) (bases : N -> option (list N)) (compare : N -> N -> cmp) : Prop := {
  root_small : forall x, root x < 65536;
  root_zero : forall x, root x = 0 <-> x = 0;
  compare_ok : forall x bs b y, bases x = Some bs -> In b bs -> b <> 0 -> (compare b y <> NotSame <-> root b = root y)
}.

Section Subclass.
Variable root : N -> N.
Variable bases : N -> option (list N).
Variable compare : N -> N -> cmp.
Hypothesis ST : settled root bases compare.

Lemma base_item_spec bs y : forall i, (forall b, In b bs -> b <> 0 -> (compare b y <> NotSame <-> root b = root y)) -> y <> 0 ->
  ((exists j, base_item compare bs y i = Some j) <-> exists b, In b bs /\ root b = root y).
Proof.
  pose proof (root_zero _ _ _ ST) as RZ.
  induction bs as [|b bs IH]; intros i HC HY; cbn [base_item]; [split; [intros (j & E); discriminate|intros (b & [] & _)]|].
  destruct (b =? 0) eqn:EZ; cbn [negb andb].
  - apply N.eqb_eq in EZ. subst b. rewrite IH; auto; [|intros b' HB; apply HC; right; auto]. split; intros (b' & HB & EB); [exists b'; split; [right|]; auto|].
    destruct HB as [<-|HB]; [|eauto]. exfalso. assert (root 0 = 0) as R0 by (apply RZ; auto). rewrite R0 in EB. symmetry in EB. apply (proj1 (RZ y)) in EB. auto.
  - apply N.eqb_neq in EZ. assert (not_notsame (compare b y) = true <-> root b = root y) as HN.
    { rewrite <- (HC b (or_introl eq_refl) EZ). destruct (compare b y); cbn; split; congruence. }
    destruct (not_notsame (compare b y)).
    + split; [|eauto]. intros _. exists b. split; [left; auto|]. apply HN. auto.
    + rewrite IH; auto; [|intros b' HB; apply HC; right; auto]. split; intros (b' & HB & EB); [exists b'; split; [right|]; auto|].
      destruct HB as [<-|HB]; [|eauto]. apply HN in EB. discriminate.
Qed.
Lemma has_item_spec x y : y <> 0 -> (has_item bases compare y x = true <-> edge root bases x (root y)).
Proof.
  intros HY. unfold has_item, isABaseClassItem. destruct (bases x) as [bs|] eqn:EB.
  - pose proof (base_item_spec bs y 0 (fun b HI NZ => compare_ok _ _ _ ST x bs b y EB HI NZ) HY) as H. split.
    + intros HS. destruct (base_item compare bs y 0) as [j|] eqn:E; [|discriminate]. destruct (proj1 H (ex_intro _ j eq_refl)) as (b & HI & ER). exists bs, b. auto.
    + intros (bs' & b & E & HI & ER). rewrite EB in E. injection E as <-. destruct (proj2 H) as [j Ej]; [exists b; auto|]. rewrite Ej. auto.
  - split; [discriminate|]. intros (bs & b & E & _). congruence.
Qed.
Lemma edge_defined x y : edge root bases x y -> defined bases x = true.
Proof. intros (bs & b & E & _). unfold defined. rewrite E. auto. Qed.
Lemma search_ancestor hd c y : y <> 0 -> ((exists q, search root bases the_fuel false hd (has_item bases compare y) [(c, 0)] [] = Some q) <-> ancestor root bases (root c) (root y)).
Proof.
  intros HY. rewrite (search_some root bases (root_small _ _ _ ST)). split.
  - intros (x & (q & [<-|[]] & HR) & _ & HS). cbn [fst] in HR. apply has_item_spec in HS; auto. destruct HR as [z|z w x HE HR]; [exists (root y); split; auto; constructor|].
    exists w. split; auto. eapply reach_snoc; eauto.
  - intros HA. destruct (reach_last _ _ _ _ HA) as (x & HR & HE). exists x. split; [exists (c, 0); split; [left|]; auto|]. split; [eapply edge_defined; eauto|]. apply has_item_spec; auto.
Qed.
End Subclass.

(* For different classes, the answer is yes exactly if the second is reached over one or more links. *)
Theorem C33_subclass : forall root bases compare, settled root bases compare -> forall c b, b <> 0 ->
  (root c <> root b -> (isClassASubclassOf root bases compare c b = true <-> ancestor root bases (root c) (root b))) /\
  isClassASubclassOf root bases compare c c = false.
Proof.
  intros root bases compare ST c b HB. unfold isClassASubclassOf. split; [|rewrite N.eqb_refl; auto].
  intros HN. assert (c =? b = false) as -> by (apply N.eqb_neq; intros ->; auto).
  rewrite <- (search_ancestor root bases compare ST nohead c b HB). destruct (search _ _ _ _ _ _ _ _) as [q|]; split; auto; [intros _; exists q; auto|discriminate|intros (q & E); discriminate].
Qed.
Print Assumptions C33_subclass.
(* Without cycles, for every two classes. *)
Theorem C33_subclass_acyclic : forall root bases compare, settled root bases compare -> acyclic root bases -> forall c b, b <> 0 ->
  (isClassASubclassOf root bases compare c b = true <-> ancestor root bases (root c) (root b)).
Proof.
  intros root bases compare ST AC c b HB. destruct (N.eq_dec (root c) (root b)) as [E|NE]; [|apply (C33_subclass root bases compare ST c b HB); auto].
  rewrite E. split; [|intros HA; destruct (AC _ HA)]. unfold isClassASubclassOf. destruct (c =? b); [discriminate|]. intros HS. exfalso. apply (AC (root c)). rewrite E at 2.
  apply (search_ancestor root bases compare ST nohead c b HB). destruct (search _ _ _ _ _ _ _ _); [eauto|discriminate].
Qed.
Print Assumptions C33_subclass_acyclic.

(* "Nearest base to an ancestor" is always the class itself, found exactly if the other is an ancestor. *)
Theorem C33_nearest : forall root bases compare, settled root bases compare -> forall c a, c <> 0 -> a <> 0 ->
  (findNearestBaseClassToAnAncestor root bases compare c a = Some (root c) <-> ancestor root bases (root c) (root a)) /\
  (forall b, findNearestBaseClassToAnAncestor root bases compare c a = Some b -> b = root c).
Proof.
  intros root bases compare ST c a HC HA. pose proof (search_ancestor root bases compare ST keep_head c a HA) as H. unfold findNearestBaseClassToAnAncestor.
  assert (root c <> 0) as HRC by (intros E; apply (proj1 (root_zero _ _ _ ST c)) in E; auto).
  assert (forall fuel d seen, (forall q, In q d -> (snd q = root c) \/ (snd q = 0 /\ root (fst q) = root c)) -> forall q, search root bases fuel false keep_head (has_item bases compare a) d seen = Some q ->
    (if snd q =? 0 then fst q else snd q) = root c) as HH.
  { induction fuel as [|f IH]; intros d seen HD q; cbn [search]; [discriminate|]. destruct (getNextBasePair root d seen) as [[[[r h]|] d'] seen'] eqn:E; [|discriminate].
    destruct (next_some _ _ _ _ _ _ _ E) as (_ & _ & p & b & -> & -> & _). assert ((h = root c) \/ (h = 0 /\ root b = root c)) as Hq by (apply (HD (b, h)); apply in_or_app; right; left; auto).
    assert (forall q, In q d' -> (snd q = root c) \/ (snd q = 0 /\ root (fst q) = root c)) as HD' by (intros q' HQ; apply HD; apply in_or_app; right; right; auto).
    destruct (bases (root b)) as [bs|]; [|apply IH; auto]. destruct (has_item bases compare a (root b)).
    - intros Eq. injection Eq as <-. cbn [fst snd]. destruct (h =? 0) eqn:EZ; [apply N.eqb_eq in EZ|apply N.eqb_neq in EZ]; destruct Hq as [->|[-> ER]]; auto; congruence.
    - apply IH. intros q' HQ. apply add_in in HQ. destruct HQ as [HQ|(b' & HB & ->)]; auto. left. cbn [snd]. unfold keep_head.
      destruct (h =? 0) eqn:EZ; [apply N.eqb_eq in EZ|apply N.eqb_neq in EZ]; destruct Hq as [->|[-> ER]]; auto; congruence. }
  specialize (HH the_fuel [(c, 0)] []). assert (forall q, In q [(c, 0)] -> (snd q = root c) \/ (snd q = 0 /\ root (fst q) = root c)) as HI by (intros q [<-|[]]; right; auto).
  specialize (HH HI). destruct (search root bases the_fuel false keep_head (has_item bases compare a) [(c, 0)] []) as [[b h]|] eqn:ES.
  - specialize (HH _ eq_refl). cbn [fst snd] in HH. split; [|intros b' E; injection E as <-; auto]. rewrite HH. split; auto. intros _. apply H. eauto.
  - split; [|discriminate]. split; [discriminate|]. intros HAn. apply H in HAn. destruct HAn as [q E]. discriminate.
Qed.
Print Assumptions C33_nearest.

(* The run-time is-test: the bit of b's registry number is set for c exactly if c is b or derives from b. *)
Theorem C33_is_bits : forall root bases regnum, (forall x, root x < 65536) ->
  (forall x y, bases x <> None -> bases y <> None -> regnum x = regnum y -> x = y) ->
  forall c b, bases b <> None -> (In (regnum b) (isBits root bases regnum c) <-> root c = b \/ ancestor root bases (root c) b).
Proof.
  intros root bases regnum HS HI c b HB. unfold isBits. rewrite in_map_iff. destruct (C32_walk root bases HS false c) as (_ & HW & _). split.
  - intros (x & E & HX). apply filter_In in HX. destruct HX as [HX HD]. assert (x = b) as -> by (apply HI; auto; destruct (bases x); congruence). apply reach_ancestor. apply HW. auto.
  - intros H. exists b. split; auto. apply filter_In. split; [|destruct (bases b); congruence]. apply HW. destruct H as [->|H]; [constructor|apply ancestor_reach; auto].
Qed.
Print Assumptions C33_is_bits.

Definition ex_cmp (x y : N) : cmp := if ex_root x =? ex_root y then Same else NotSame.
Definition ex_root2 (x : N) : N := if x =? 7 then 2 else if x <? 65536 then x else 1.
Definition ex_cmp2 (x y : N) : cmp := if ex_root2 x =? ex_root2 y then Same else NotSame.
Definition ex_bases2 (x : N) : option (list N) :=
  if x =? 1 then Some [0; 7; 3] else if x =? 2 then Some [0; 4] else if x =? 3 then Some [4; 5] else if x =? 4 then Some [0] else if x =? 5 then Some [0] else None.
Lemma ex_settled : settled ex_root2 ex_bases2 ex_cmp2.
Proof.
  split.
  - intros x. unfold ex_root2. destruct (x =? 7), (x <? 65536) eqn:E; lia.
  - intros x. unfold ex_root2. destruct (x =? 7) eqn:E7, (x <? 65536) eqn:E; lia.
  - intros x bs b y _ _ _. unfold ex_cmp2. destruct (ex_root2 b =? ex_root2 y) eqn:E; [apply N.eqb_eq in E|apply N.eqb_neq in E]; split; congruence.
Qed.
Example C33_ex : settled ex_root2 ex_bases2 ex_cmp2 /\ isClassASubclassOf ex_root2 ex_bases2 ex_cmp2 1 4 = true /\ isClassASubclassOf ex_root2 ex_bases2 ex_cmp2 1 7 = true /\
  isClassASubclassOf ex_root2 ex_bases2 ex_cmp2 4 1 = false /\ isClassASubclassOf ex_root2 ex_bases2 ex_cmp2 2 3 = false /\
  findNearestBaseClassToAnAncestor ex_root2 ex_bases2 ex_cmp2 1 4 = Some 1 /\ isBits ex_root2 ex_bases2 (fun x => x + 10) 7 = [12; 14].
Proof. split; [exact ex_settled|]. vm_compute. auto 10. Qed.

(* Refuted while classes are incomplete: the comparison then answers "don't know", which the table search takes for a
   match, although its comment says "incomplete wont match, yet": class 1 with the incomplete base 2 counts as a subclass of the
   unrelated incomplete class 9. *)
Definition inc_cmp (x y : N) : cmp := if x =? y then Same else if (x =? 2) || (x =? 9) then DontKnow else NotSame.
Definition inc_bases (x : N) : option (list N) := if x =? 1 then Some [0; 2] else if (x =? 2) || (x =? 9) then Some [0] else None.
Definition id16 (x : N) : N := x mod 65536.
Theorem C33_incomplete_refuted : exists root bases compare, (forall x, root x < 65536) /\
  isClassASubclassOf root bases compare 1 9 = true /\ ~ ancestor root bases (root 1) (root 9).
Proof.
  exists id16, inc_bases, inc_cmp. split; [intros x; unfold id16; apply N.mod_lt; discriminate|]. split; [vm_compute; auto|].
  assert (forall x y, edge id16 inc_bases x y -> y <> 9) as HE.
  { intros x y (bs & b & E & HI & <-). unfold inc_bases in E. destruct (x =? 1); [injection E as <-; destruct HI as [<-|[<-|[]]]; vm_compute; discriminate|].
    destruct ((x =? 2) || (x =? 9)); [|discriminate]. injection E as <-. destruct HI as [<-|[]]. vm_compute. discriminate. }
  change (id16 1) with 1. change (id16 9) with 9. intros HA. destruct (reach_last _ _ _ _ HA) as (x & _ & H). apply HE in H. auto.
Qed.
Print Assumptions C33_incomplete_refuted.
