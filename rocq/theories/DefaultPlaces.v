(* DefaultPlaces.v: where members are, and the values of initialisers; lemmas for DefaultTheorems.v. *)
From Coq Require Import String List NArith ZArith Lia Bool Permutation.
From Coq Require Import ZifyBool ZifyNat ZifyN.
From Verif Require Import Base TypeTableModel FamilyModel FamilyProofs BitVec UTypeModel AtomModel AtomSpec AtomProofs LayoutModel LayoutSpec LayoutTheorems DefaultModel DefaultSpec DefaultProofs.
Import ListNotations.
Open Scope N_scope.
Local Opaque the_fuel.

(* ---- parts that cover exactly ---- *)
Lemma covering_cons x q parts : covering x (q :: parts) = ((if ((fst q <=? x) && (x <? fst q + snd q))%N then 1 else 0) + covering x parts)%nat.
Proof. unfold covering. cbn [filter]. destruct (_ && _); reflexivity. Qed.
Lemma covering_in x parts i s n : nth_error parts i = Some (s, n) -> s <= x < s + n -> (1 <= covering x parts)%nat.
Proof.
  revert i. induction parts as [|q parts IH]; intros [|i] E Hx; try discriminate; rewrite covering_cons; cbn [nth_error] in E.
  - injection E as ->. cbn [fst snd]. replace ((s <=? x) && (x <? s + n)) with true by lia. lia.
  - specialize (IH _ E Hx). lia.
Qed.
Lemma covering_two x parts : forall i j s n s' n', nth_error parts i = Some (s, n) -> nth_error parts j = Some (s', n') -> i <> j -> s <= x < s + n -> s' <= x < s' + n' -> (2 <= covering x parts)%nat.
Proof.
  induction parts as [|q parts IH]; intros [|i] [|j] s n s' n' E E' NE Hx Hx'; try discriminate; rewrite covering_cons; cbn [nth_error] in E, E'.
  - destruct NE; auto.
  - injection E as ->. cbn [fst snd]. replace ((s <=? x) && (x <? s + n)) with true by lia. pose proof (covering_in _ _ _ _ _ E' Hx'). lia.
  - injection E' as ->. cbn [fst snd]. replace ((s' <=? x) && (x <? s' + n')) with true by lia. pose proof (covering_in _ _ _ _ _ E Hx). lia.
  - specialize (IH _ _ _ _ _ _ E E' ltac:(lia) Hx Hx'). lia.
Qed.
Lemma cover_below parts total i s n x : exact_cover parts total -> nth_error parts i = Some (s, n) -> s <= x < s + n -> x < total.
Proof. intros H E Hx. specialize (H x). pose proof (covering_in _ _ _ _ _ E Hx). destruct (x <? total) eqn:EX; lia. Qed.
Lemma cover_disjoint parts total i j s n s' n' x : exact_cover parts total -> nth_error parts i = Some (s, n) -> nth_error parts j = Some (s', n') -> i <> j -> s <= x < s + n -> s' <= x < s' + n' -> False.
Proof. intros H E E' NE Hx Hx'. specialize (H x). pose proof (covering_two _ _ _ _ _ _ _ _ E E' NE Hx Hx'). destruct (x <? total) eqn:EX; lia. Qed.

Section Places.
Variable root : N -> N.
Variable classes : N -> option lclass.
Variable compare : N -> N -> cmp.
Variable members : N -> list dmember.
Variable emptyElement : N.
Variable rank : N -> nat.
Hypothesis P : program root classes compare members emptyElement rank.
Notation W := (p_wf _ _ _ _ _ _ P).
Notation bases := (lbases classes).
Notation ancestor := (ancestor root bases).
Notation find := (findMember root classes compare members).
Notation at_ := (member_at root classes compare members).
Notation pack := (packBits root classes compare).
Notation off := (offset_of root classes compare).

Lemma hdr_first c : hdr classes c = first_bit classes c.
Proof. unfold hdr, first_bit. destruct (classes c) as [[[] u m b]|]; reflexivity. Qed.
Lemma sizeof_class c : sizeofClass root classes c = class_size root classes c.
Proof. unfold sizeofClass, class_size, hdr. destruct (classes c) as [[[] u m b]|]; reflexivity. Qed.
Lemma size_fits c k : classes c = Some k -> first_bit classes c + totalbits root classes c <= class_size root classes c <= W8K.
Proof.
  intros E. pose proof (p_fits _ _ _ _ _ _ P c k E) as H. pose proof (p_element _ _ _ _ _ _ P c k E) as H2. revert H H2. unfold first_bit, class_size. rewrite E. generalize (totalbits root classes c) as t. unfold W8K.
  destruct k as [[] u m b]; cbn [lc_kind]; intros t H H2; try specialize (H2 eq_refl); lia.
Qed.
Lemma packed c k : classes c = Some k -> exists p, pack c = Some p.
Proof. intros E. destruct (pack c) eqn:EP; eauto. apply (C37_duplicate _ _ _ c k E) in EP. destruct EP. eapply p_nodup; eauto. Qed.

(* the members in the class that declares them *)
Lemma off_nth a k p i m : classes a = Some k -> pack a = Some p -> nth_error (lc_members k) i = Some m -> nth_error (pk_members p) i = Some (off a i).
Proof.
  intros EK EP EM. unfold offset_of. rewrite EP. destruct (pack_parts root classes compare W a k EK p EP) as (o1 & EPM & _).
  assert (List.length (pk_members p) = List.length (lc_members k)) as HL.
  { clear -EPM. revert EPM. generalize 0. generalize (pk_members p). revert o1. induction (lc_members k) as [|m l IH]; intros o1 ps o E; cbn [pack_members] in E; [injection E as <- _; auto|].
    destruct (pack_members (lc_union k) l _) as [ps' e] eqn:E'. injection E as <- _. cbn. f_equal. eapply IH; eauto. }
  destruct (nth_error (pk_members p) i) eqn:En; [f_equal; symmetry; apply nth_error_nth; auto|]. apply nth_error_None in En. assert (nth_error (lc_members k) i <> None) as H by congruence. apply nth_error_Some in H. lia.
Qed.
Lemma consecutive_within l : forall o e i s n, consecutive o l e -> nth_error l i = Some (s, n) -> o <= s /\ s + n <= e.
Proof.
  induction l as [|[s0 n0] l IH]; intros o e [|i] s n H E; try discriminate; cbn [nth_error consecutive] in *; destruct H as [-> H].
  - injection E as <- <-. apply consecutive_le in H. lia.
  - destruct (IH _ _ _ _ _ H E). lia.
Qed.
Lemma consecutive_disjoint l : forall o e i j s n s' n', consecutive o l e -> nth_error l i = Some (s, n) -> nth_error l j = Some (s', n') -> (i < j)%nat -> s + n <= s'.
Proof.
  induction l as [|[s0 n0] l IH]; intros o e [|i] [|j] s n s' n' H E E' HL; try discriminate; try lia; cbn [nth_error consecutive] in *; destruct H as [-> H].
  - injection E as <- <-. apply (consecutive_within _ _ _ _ _ _ H E').
  - apply (IH _ _ i j _ _ _ _ H E E'). lia.
Qed.
Lemma nth_combine {A B} (l1 : list A) (l2 : list B) : forall i x y, nth_error l1 i = Some x -> nth_error l2 i = Some y -> nth_error (combine l1 l2) i = Some (x, y).
Proof. revert l2. induction l1 as [|a l1 IH]; intros [|b l2] [|i] x y E1 E2; try discriminate; cbn in *; [congruence|auto]. Qed.
Lemma members_consecutive a k p : classes a = Some k -> lc_union k = false -> pack a = Some p -> consecutive 0 (combine (pk_members p) (map member_size (lc_members k))) (own_bits k).
Proof.
  intros EK EU EP. destruct (pack_parts root classes compare W a k EK p EP) as (o1 & EPM & _). rewrite EU in EPM. destruct (pack_members_ok _ _ _ _ EPM) as (_ & HC & E1).
  assert (own_bits k = o1) as -> by (unfold own_bits; rewrite EU; lia). exact HC.
Qed.
Lemma own_fit a k i m : classes a = Some k -> nth_error (lc_members k) i = Some m -> off a i + member_size m <= own_bits k.
Proof.
  intros EK EM. destruct (packed a k EK) as [p EP]. pose proof (off_nth a k p i m EK EP EM) as EO. destruct (lc_union k) eqn:EU.
  - destruct (C38_members_partial root classes compare W a k p EK EU EP) as (H1 & H2 & _). rewrite H1 in EO. rewrite nth_error_map, EM in EO. injection EO as <-. apply H2. eapply nth_error_In; eauto.
  - apply (consecutive_within _ _ _ i _ _ (members_consecutive a k p EK EU EP)). apply nth_combine; auto. rewrite nth_error_map, EM. reflexivity.
Qed.
Lemma own_disjoint a k i j m m' : classes a = Some k -> lc_union k = false -> nth_error (lc_members k) i = Some m -> nth_error (lc_members k) j = Some m' -> (i < j)%nat -> off a i + member_size m <= off a j.
Proof.
  intros EK EU EM EM' HL. destruct (packed a k EK) as [p EP]. pose proof (off_nth a k p i m EK EP EM) as EO. pose proof (off_nth a k p j m' EK EP EM') as EO'.
  apply (consecutive_disjoint _ _ _ i j _ _ _ (member_size m') (members_consecutive a k p EK EU EP)); auto; apply nth_combine; auto; rewrite nth_error_map; [rewrite EM|rewrite EM']; reflexivity.
Qed.

(* the parts of the ancestors *)
Lemma not_zero c k : classes c = Some k -> c <> 0.
Proof. intros E ->. rewrite (wf_nouti _ _ _ W) in E. discriminate. Qed.
Lemma union_no_ancestor c k a : classes c = Some k -> lc_union k = true -> a <> 0 -> ~ ancestor c a.
Proof.
  intros EK EU NZ (y & (bs & b & EB & HI & ER) & HR). unfold lbases in EB. rewrite EK in EB. injection EB as <-. pose proof (p_union _ _ _ _ _ _ P c k EK EU b HI) as ->.
  assert (y = 0) as -> by (rewrite <- ER; apply (wf_zero _ _ _ W); auto). inversion HR as [|? z ? (bs & b & EB & _)]; subst; [congruence|]. unfold lbases in EB. rewrite (wf_nouti _ _ _ W) in EB. discriminate.
Qed.
Lemma ancestor_defined c a : a <> 0 -> ancestor c a -> exists ka, classes a = Some ka.
Proof. intros NZ HA. destruct (ancestor_class root classes compare W c a HA NZ) as (ka & E & _). eauto. Qed.
Lemma ancestor_not_self c a : ancestor c a -> c <> a.
Proof. intros HA ->. destruct (W_acyclic root classes compare W a HA). Qed.
Lemma cover c k : classes c = Some k -> lc_union k = false -> exists p l, pack c = Some p /\ (forall a, In a l <-> a <> 0 /\ ancestor c a) /\
  exact_cover (combine (pk_members p) (map member_size (lc_members k)) ++ map (fun a => (base_position root classes compare c a, own_size classes a)) l) (totalbits root classes c) /\
  (forall a, In a l -> getABaseClassRelativePositionInAClass root classes compare c a = Some (base_position root classes compare c a)).
Proof.
  intros EK EU. destruct (packed c k EK) as [p EP]. exists p, (sharedTable root classes compare c). split; auto.
  assert (forall a, In a (sharedTable root classes compare c) <-> a <> 0 /\ ancestor c a) as HI. { intros a. rewrite (shared_table_in root classes compare W). rewrite (wf_root _ _ _ W c k EK). reflexivity. }
  destruct (C37_layout root classes compare W c k p EK EU EP _ (shared_table_nodup root classes compare W c) HI) as (H1 & _ & H3). split; auto. split; auto.
  intros a HA. destruct (H3 a HA) as (q & Eq & _). unfold base_position. rewrite Eq. reflexivity.
Qed.
Lemma nth_app1 {A} (l m : list A) i x : nth_error l i = Some x -> nth_error (l ++ m) i = Some x.
Proof. intros E. rewrite nth_error_app1; auto. apply nth_error_Some. congruence. Qed.
Lemma nth_app2 {A} (l m : list A) i x : nth_error m i = Some x -> nth_error (l ++ m) (List.length l + i) = Some x.
Proof. intros E. rewrite nth_error_app2 by lia. rewrite <- E. f_equal. lia. Qed.
Lemma pieces c k p l a : classes c = Some k -> pack c = Some p -> In a l -> exists j, (List.length (combine (pk_members p) (map member_size (lc_members k))) <= j)%nat /\
  nth_error (combine (pk_members p) (map member_size (lc_members k)) ++ map (fun a => (base_position root classes compare c a, own_size classes a)) l) j = Some (base_position root classes compare c a, own_size classes a).
Proof.
  intros EK EP HI. apply In_nth_error in HI. destruct HI as [j Ej]. exists (List.length (combine (pk_members p) (map member_size (lc_members k))) + j)%nat. split; [lia|]. apply nth_app2. rewrite nth_error_map, Ej. reflexivity.
Qed.

Lemma find_at c k a i m d q : classes c = Some k -> find c a i = Some (m, d, q) -> at_ c a i m d q.
Proof.
  intros EK. unfold findMember. destruct (classes a) as [ka|] eqn:EA; [|discriminate]. destruct (pack a) as [p|] eqn:EP; [|discriminate].
  destruct (nth_error (lc_members ka) i) as [m'|] eqn:EM; [|discriminate]. destruct (nth_error (members a) i) as [d'|] eqn:ED; [|discriminate]. rewrite (off_nth a ka p i m' EA EP EM).
  destruct (getABaseClassRelativePositionInAClass root classes compare c a) as [r|] eqn:ER; [|discriminate]. intros Eq. injection Eq as <- <- <-. unfold member_at.
  assert (c = a \/ a <> 0 /\ ancestor c a) as HCA.
  { destruct (N.eq_dec c a) as [|NE]; auto. right. split; [apply (not_zero a ka EA)|]. pose proof (wf_root _ _ _ W a ka EA) as RA.
    destruct (in_dec N.eq_dec a (sharedTable root classes compare c)) as [HI|HN].
    - apply (shared_table_in root classes compare W) in HI. rewrite (wf_root _ _ _ W c k EK) in HI. apply HI.
    - exfalso. rewrite (C37_only_ancestors_inside root classes compare W c k a EK) in ER; [discriminate|apply (not_zero a ka EA)|congruence|]. rewrite RA. intros HA. apply HN. apply (shared_table_in root classes compare W).
      rewrite (wf_root _ _ _ W c k EK). split; auto. apply (not_zero a ka EA). }
  split; auto. split; [eauto|]. split; auto. unfold base_at. rewrite hdr_first. destruct (c =? a) eqn:E.
  - apply N.eqb_eq in E. subst a. rewrite (C37_own_position root classes compare W c k EK) in ER. injection ER as <-. lia.
  - unfold base_position. rewrite ER. lia.
Qed.
Lemma relpos_some c k a : classes c = Some k -> c = a \/ a <> 0 /\ ancestor c a -> getABaseClassRelativePositionInAClass root classes compare c a = Some (if c =? a then 0 else base_position root classes compare c a).
Proof.
  intros EK [<-|[NZ HA]].
  - rewrite N.eqb_refl. apply (C37_own_position root classes compare W c k EK).
  - pose proof (ancestor_not_self _ _ HA) as NE. replace (c =? a) with false by lia. destruct (lc_union k) eqn:EU; [destruct (union_no_ancestor c k a EK EU NZ HA)|].
    destruct (cover c k EK EU) as (p & l & _ & HL & _ & HP). apply HP. apply HL. auto.
Qed.
Lemma at_find c k a i m d q : classes c = Some k -> at_ c a i m d q -> find c a i = Some (m, d, q).
Proof.
  intros EK (HCA & (ka & EA & EM) & ED & ->). unfold findMember. destruct (packed a ka EA) as [p EP]. rewrite EA, EP, EM, ED, (off_nth a ka p i m EA EP EM), (relpos_some c k a EK HCA). do 2 f_equal. unfold base_at. rewrite hdr_first. lia.
Qed.
(* every member lies inside the class, in the part of the class that declares it *)
Lemma base_end c k a ka : classes c = Some k -> lc_union k = false -> a <> 0 -> ancestor c a -> classes a = Some ka -> base_position root classes compare c a + own_bits ka <= totalbits root classes c.
Proof.
  intros EK EU NZ HA EA. destruct (packed c k EK) as [p EP]. destruct (pack_parts root classes compare W c k EK p EP) as (o1 & EM & NDd & EE & HP). rewrite EU in EM.
  destruct (pack_members_ok (lc_members k) 0 _ _ EM) as (HLen & HC1 & E1).
  set (rest := filter (fun y => negb (mem y (lc_bases k))) (sharedTable root classes compare c)) in *. set (ds := nz (lc_bases k)) in *.
  assert (totalbits root classes c = o1 + total classes (ds ++ rest)) as ET.
  { unfold totalbits. rewrite (mybits_own root classes compare W c k EK), (sharedbits_total root classes compare W c). unfold own_bits. rewrite EU. rewrite (total_perm classes _ _ (parts_perm root classes compare W c k EK NDd)). fold ds rest. rewrite E1. lia. }
  assert (In a (ds ++ rest)) as HI. { apply (Permutation_in _ (parts_perm root classes compare W c k EK NDd)). apply (shared_table_in root classes compare W). rewrite (wf_root _ _ _ W c k EK). auto. }
  rewrite <- (place_fst classes (ds ++ rest) o1) in HI. apply in_map_iff in HI. destruct HI as ([b q] & E & HQ). cbn [fst] in E. subst b. unfold base_position. destruct (HP a q HQ) as [-> _].
  apply In_nth_error in HQ. destruct HQ as [j Ej]. pose proof (place_consecutive classes (ds ++ rest) o1) as HC. destruct (consecutive_within _ _ _ j q (getBaseClassBitSize classes a) HC) as [_ H]; [rewrite nth_error_map, Ej; reflexivity|].
  destruct (ancestor_class root classes compare W c a HA NZ) as (ka' & EA' & Es). rewrite EA in EA'. injection EA' as <-. rewrite Es in H. lia.
Qed.
Lemma part_inside c k a ka : classes c = Some k -> c = a \/ a <> 0 /\ ancestor c a -> classes a = Some ka -> first_bit classes c <= base_at root classes compare c a /\
  base_at root classes compare c a + own_bits ka <= first_bit classes c + totalbits root classes c.
Proof.
  intros EK HCA EA. unfold base_at. split; [lia|]. destruct HCA as [<-|[NZ HA]].
  - rewrite N.eqb_refl. rewrite EA in EK. injection EK as ->. unfold totalbits. rewrite (mybits_own root classes compare W c k EA). lia.
  - pose proof (ancestor_not_self _ _ HA) as NE. replace (c =? a) with false by lia. destruct (lc_union k) eqn:EU; [destruct (union_no_ancestor c k a EK EU NZ HA)|].
    pose proof (base_end c k a ka EK EU NZ HA EA). lia.
Qed.
Lemma at_inside c k a i m d q : classes c = Some k -> at_ c a i m d q -> first_bit classes c <= q /\ q + member_size m <= first_bit classes c + totalbits root classes c.
Proof.
  intros EK (HCA & (ka & EA & EM) & ED & ->). pose proof (own_fit a ka i m EA EM). destruct (part_inside c k a ka EK HCA EA). lia.
Qed.
Lemma at_disjoint c k a i m d q a' i' m' d' q' x : classes c = Some k -> at_ c a i m d q -> at_ c a' i' m' d' q' -> (a, i) <> (a', i') ->
  (a = a' -> match classes a with Some k => lc_union k = false | None => True end) -> q <= x < q + member_size m -> q' <= x < q' + member_size m' -> False.
Proof.
  intros EK (HCA & (ka & EA & EM) & ED & ->) (HCA' & (ka' & EA' & EM') & ED' & ->) NE HU Hx Hx'. destruct (N.eq_dec a a') as [<-|NA].
  - rewrite EA in EA'. injection EA' as <-. specialize (HU eq_refl). rewrite EA in HU. destruct (Nat.lt_total i i') as [HL|[->|HL]].
    + pose proof (own_disjoint a ka i i' m m' EA HU EM EM' HL). lia.
    + congruence.
    + pose proof (own_disjoint a ka i' i m' m EA HU EM' EM HL). lia.
  - pose proof (own_fit a ka i m EA EM) as F. pose proof (own_fit a' ka' i' m' EA' EM') as F'. revert Hx Hx'. unfold base_at.
    destruct (lc_union k) eqn:EU. { assert (c = a) by (destruct HCA as [|[NZ HA]]; auto; destruct (union_no_ancestor c k a EK EU NZ HA)). assert (c = a') by (destruct HCA' as [|[NZ HA]]; auto; destruct (union_no_ancestor c k a' EK EU NZ HA)). congruence. }
    destruct (cover c k EK EU) as (p & l & EP & HL & HC & HP).
    destruct HCA as [<-|[NZ HA]], HCA' as [<-|[NZ' HA']]; [congruence| | |].
    + rewrite EA in EK. injection EK as ->. rewrite N.eqb_refl. replace (c =? a') with false by lia. destruct (pieces c k p l a' EA EP) as (j & Hj & Ej); [apply HL; auto|]. unfold own_size in Ej. rewrite EA' in Ej. intros Hx Hx'.
      assert (nth_error (combine (pk_members p) (map member_size (lc_members k))) i = Some (off c i, member_size m)) as Ei by (apply nth_combine; [eapply off_nth; eauto|rewrite nth_error_map, EM; reflexivity]).
      assert (i < List.length (combine (pk_members p) (map member_size (lc_members k))))%nat by (apply nth_error_Some; congruence).
      apply (cover_disjoint _ _ i j (off c i) (member_size m) _ _ (x - first_bit classes c) HC (nth_app1 _ _ _ _ Ei) Ej); lia.
    + rewrite EA' in EK. injection EK as ->. rewrite N.eqb_refl. replace (c =? a) with false by lia. destruct (pieces c k p l a EA' EP) as (j & Hj & Ej); [apply HL; auto|]. unfold own_size in Ej. rewrite EA in Ej. intros Hx Hx'.
      assert (nth_error (combine (pk_members p) (map member_size (lc_members k))) i' = Some (off c i', member_size m')) as Ei by (apply nth_combine; [eapply off_nth; eauto|rewrite nth_error_map, EM'; reflexivity]).
      assert (i' < List.length (combine (pk_members p) (map member_size (lc_members k))))%nat by (apply nth_error_Some; congruence).
      apply (cover_disjoint _ _ i' j (off c i') (member_size m') _ _ (x - first_bit classes c) HC (nth_app1 _ _ _ _ Ei) Ej); lia.
    + pose proof (ancestor_not_self _ _ HA). pose proof (ancestor_not_self _ _ HA'). replace (c =? a) with false by lia. replace (c =? a') with false by lia. intros Hx Hx'.
      assert (In a l) as HI by (apply HL; auto). assert (In a' l) as HI' by (apply HL; auto). apply In_nth_error in HI, HI'. destruct HI as [j Ej], HI' as [j' Ej'].
      assert (j <> j') as NJ by congruence. set (c0 := combine (pk_members p) (map member_size (lc_members k))) in *.
      apply (cover_disjoint _ _ (List.length c0 + j) (List.length c0 + j') (base_position root classes compare c a) (own_size classes a) (base_position root classes compare c a') (own_size classes a') (x - first_bit classes c) HC); try lia.
      * apply nth_app2. rewrite nth_error_map, Ej. reflexivity.
      * apply nth_app2. rewrite nth_error_map, Ej'. reflexivity.
      * unfold own_size. rewrite EA. lia.
      * unfold own_size. rewrite EA'. lia.
Qed.
End Places.
