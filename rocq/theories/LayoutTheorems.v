(* LayoutTheorems.v: C37 (parts of a class) and C38 (unions). *)
From Coq Require Import String List NArith ZArith Lia Bool Permutation.
From Coq Require Import ZifyBool ZifyNat ZifyN.
From Verif Require Import Base TypeTableModel FamilyModel FamilyProofs FamilyTheorems LayoutModel LayoutSpec.
Import ListNotations.
Open Scope N_scope.
Local Opaque the_fuel.

(* ---- parts one after the other ---- *)
Fixpoint consecutive (o : N) (l : list (N * N)) (e : N) : Prop :=
  match l with [] => o = e | (s, n) :: r => s = o /\ consecutive (o + n) r e end.
Lemma consecutive_app l1 l2 : forall o m e, consecutive o l1 m -> consecutive m l2 e -> consecutive o (l1 ++ l2) e.
Proof. induction l1 as [|[s n] l1 IH]; cbn [consecutive app]; intros o m e H1 H2; [subst; auto|]. destruct H1. split; eauto. Qed.
Lemma consecutive_le l : forall o e, consecutive o l e -> o <= e.
Proof. induction l as [|[s n] l IH]; cbn [consecutive]; intros o e H; [lia|]. destruct H as [_ H]. apply IH in H. lia. Qed.
Lemma consecutive_cover l p : forall o e, consecutive o l e -> covering p l = if (o <=? p) && (p <? e) then 1%nat else 0%nat.
Proof.
  induction l as [|[s n] l IH]; cbn [consecutive]; intros o e H.
  - subst. unfold covering. cbn. destruct (e <=? p) eqn:E1, (p <? e) eqn:E2; cbn; auto; lia.
  - destruct H as [-> H]. pose proof (consecutive_le _ _ _ H). specialize (IH _ _ H). unfold covering in *. cbn [filter fst snd].
    destruct (o <=? p) eqn:E1, (p <? o + n) eqn:E2; cbn [andb List.length]; rewrite ?IH; destruct (o + n <=? p) eqn:E3, (p <? e) eqn:E4; cbn [andb]; auto; lia.
Qed.
Lemma covering_perm p l1 l2 : Permutation l1 l2 -> covering p l1 = covering p l2.
Proof.
  intros H. unfold covering. apply Permutation_length. induction H; cbn [filter]; auto.
  - destruct (_ && _); auto.
  - destruct ((fst x <=? p) && (p <? fst x + snd x)), ((fst y <=? p) && (p <? fst y + snd y)); auto. apply perm_swap.
  - eapply Permutation_trans; eauto.
Qed.

Section Proofs.
Variable root : N -> N.
Variable classes : N -> option lclass.
Variable compare : N -> N -> cmp.
Hypothesis W : wf root classes compare.
Notation bases := (lbases classes).
Notation size := (getBaseClassBitSize classes).
Notation ancestor := (ancestor root bases).

Lemma W_settled : settled root bases compare.
Proof.
  split; [apply W|apply W|]. intros x bs b y E HI NZ. unfold lbases in E. destruct (classes x) as [k|] eqn:EK; [|discriminate]. injection E as <-.
  destruct (wf_bases _ _ _ W x k b EK HI NZ) as (kb & EB & _). rewrite (wf_compare _ _ _ W b kb y EB), (wf_root _ _ _ W b kb EB). destruct (b =? root y) eqn:E; [apply N.eqb_eq in E|apply N.eqb_neq in E]; split; congruence.
Qed.
Lemma W_acyclic : acyclic root bases.
Proof. exact (wf_acyclic _ _ _ W). Qed.

(* own sizes *)
Lemma member_sizeof m : getSizeofUlamType m = member_size m.
Proof. unfold getSizeofUlamType, member_size, getTotalBitSize, items. destruct (mt_element m), (mt_array m); lia. Qed.
Lemma sum_shift {A} (f : A -> N) l : forall a, fold_left (fun t m => t + f m) l a = a + fold_right (fun m t => f m + t) 0 l.
Proof. induction l as [|x l IH]; intros a; cbn [fold_left fold_right]; [lia|]. rewrite IH. lia. Qed.
Lemma max_shift l : (forall m, In m l -> mt_element m = false) -> forall a, fold_left (fun t m => if t <? getTotalBitSize m then getTotalBitSize m else t) l a = N.max a (fold_right (fun m t => N.max (member_size m) t) 0 l).
Proof.
  induction l as [|x l IH]; intros HE a; cbn [fold_left fold_right]; [lia|]. rewrite IH by (intros m HM; apply HE; right; auto).
  assert (getTotalBitSize x = member_size x) as -> by (unfold member_size, getTotalBitSize, items; rewrite (HE x (or_introl eq_refl)); destruct (mt_array x); lia).
  destruct (a <? member_size x) eqn:E; lia.
Qed.
Lemma mybits_own c k : classes c = Some k -> mybits classes c = own_bits k.
Proof.
  intros E. unfold mybits, own_bits. rewrite E. pose proof (fun m => wf_elements _ _ _ W c k m E) as HE. destruct (lc_union k) eqn:EU.
  - unfold getMaxVariableSymbolsBitSize. rewrite max_shift; [lia|]. intros m HM. destruct (mt_element m) eqn:EM; auto. destruct (HE m HM EM). discriminate.
  - unfold getTotalVariableSymbolsBitSize. rewrite sum_shift. rewrite N.add_0_l. induction (lc_members k) as [|m l IH]; cbn [fold_right]; auto. rewrite IH by (intros m' HM; apply HE; right; auto).
    f_equal. specialize (HE m (or_introl eq_refl)). unfold member_size, getTotalBitSize, items. destruct (mt_element m); [destruct (HE eq_refl) as [-> _]|rewrite andb_false_r]; cbn [is_transient andb]; destruct (mt_array m); lia.
Qed.
Lemma size_own x k b kb : classes x = Some k -> In b (lc_bases k) -> classes b = Some kb -> size b = own_bits kb.
Proof.
  intros E HI EB. unfold getBaseClassBitSize. rewrite EB. assert (b <> 0) as NZ by (intros ->; rewrite (wf_nouti _ _ _ W) in EB; discriminate).
  destruct (wf_bases _ _ _ W x k b E HI NZ) as (kb' & EB' & NE). rewrite EB in EB'. injection EB' as <-. destruct (lc_kind kb) eqn:EK; cbn [is_element]; try congruence; apply mybits_own; auto.
Qed.

(* the members *)
Definition member_parts (ps : list N) (ms : list mtype) : list (N * N) := combine ps (map member_size ms).
Lemma pack_members_ok : forall ms off ps e, pack_members false ms off = (ps, e) -> List.length ps = List.length ms /\ consecutive off (member_parts ps ms) e /\ e = off + fold_right (fun m t => member_size m + t) 0 ms.
Proof.
  induction ms as [|m ms IH]; intros off ps e; cbn [pack_members].
  - intros E. injection E as <- <-. cbn. split; auto. split; auto. lia.
  - destruct (pack_members false ms (off + getSizeofUlamType m)) as [qs e'] eqn:E. intros Eq. injection Eq as <- <-. rewrite member_sizeof in E. destruct (IH _ _ _ E) as (H1 & H2 & H3).
    split; [cbn; lia|]. split; [|cbn [fold_right]; lia]. unfold member_parts in *. cbn [map combine consecutive]. auto.
Qed.

(* the direct bases *)
Definition nz (l : list N) : list N := filter (fun b => negb (b =? 0)) l.
Fixpoint place (off : N) (l : list N) : list (N * N) := match l with [] => [] | a :: r => (a, off) :: place (off + size a) r end.
Definition total (l : list N) : N := fold_right (fun a t => size a + t) 0 l.
Lemma total_nil : total [] = 0. Proof. reflexivity. Qed.
Lemma total_cons a l : total (a :: l) = size a + total l. Proof. reflexivity. Qed.
Lemma total_app l1 l2 : total (l1 ++ l2) = total l1 + total l2.
Proof. induction l1 as [|a l1 IH]; cbn [app]; rewrite ?total_nil, ?total_cons; [lia|]. rewrite IH. lia. Qed.
Lemma place_app l1 l2 : forall off, place off (l1 ++ l2) = place off l1 ++ place (off + total l1) l2.
Proof. induction l1 as [|a l1 IH]; intros off; cbn [app place]; rewrite ?total_nil, ?total_cons; [rewrite N.add_0_r; auto|]. rewrite IH, N.add_assoc. auto. Qed.
Lemma place_consecutive l : forall off, consecutive off (map (fun q => (snd q, size (fst q))) (place off l)) (off + total l).
Proof. induction l as [|a l IH]; intros off; cbn [place map consecutive fst snd]; rewrite ?total_nil, ?total_cons; [lia|]. split; auto. rewrite N.add_assoc. apply IH. Qed.
Lemma place_fst l : forall off, map fst (place off l) = l.
Proof. induction l as [|a l IH]; intros off; cbn; [auto|]. f_equal. auto. Qed.

(* what each item of the table of bases got *)
Lemma pack_bases_ok : forall bs seen off ps e, pack_bases classes bs seen off = Some (ps, e) ->
  e = off + total (nz bs) /\ NoDup (nz bs) /\ (forall b, In b (nz bs) -> ~ In b seen) /\ List.length ps = List.length bs /\
  (forall i b q, nth_error bs i = Some b -> b <> 0 -> In (b, q) (place off (nz bs)) -> nth i ps None = Some q).
Proof.
  induction bs as [|b bs IH]; intros seen off ps e; cbn [pack_bases].
  - intros E. injection E as <- <-. cbn. split; [lia|]. split; [constructor|]. split; [intros b []|]. split; auto. intros [|i] b q; cbn; discriminate.
  - destruct (b =? 0) eqn:EZ.
    + destruct (pack_bases classes bs seen off) as [[qs e']|] eqn:E; [|discriminate]. intros Eq. injection Eq as <- <-. destruct (IH _ _ _ _ E) as (H1 & H2 & H3 & H4 & H5).
      unfold nz in *. cbn [filter]. rewrite EZ. cbn [negb]. split; auto. split; auto. split; auto. split; [cbn; lia|]. intros [|i] c q; cbn [nth_error nth]; [|apply H5]. intros Eq NZ. injection Eq as <-. apply N.eqb_eq in EZ. congruence.
    + destruct (mem b seen) eqn:EM; [discriminate|]. destruct (pack_bases classes bs (b :: seen) (off + size b)) as [[qs e']|] eqn:E; [|discriminate]. intros Eq. injection Eq as <- <-. destruct (IH _ _ _ _ E) as (H1 & H2 & H3 & H4 & H5).
      unfold nz in *. cbn [filter]. rewrite EZ. cbn [negb place]. rewrite total_cons. split; [lia|]. split; [constructor; auto; intros HI; apply (H3 b HI); left; auto|]. split.
      { intros c [<-|HC]; [intros HI; apply mem_In in HI; congruence|]. intros HI. apply (H3 c HC). right. auto. } split; [cbn; lia|].
      intros [|i] c q; cbn [nth_error nth].
      * intros Eq NZ. injection Eq as <-. intros [Eq|HI]; [injection Eq as <-; auto|]. exfalso. apply (H3 b); [|left; auto]. rewrite <- (place_fst (filter (fun b => negb (b =? 0)) bs) (off + size b)). change b with (fst (b, q)). apply in_map. auto.
      * intros Ei NZ [Eq|HI]; [|apply (H5 i c q Ei NZ HI)]. injection Eq as <- <-. exfalso. apply nth_error_In in Ei. apply (H3 b); [|left; auto]. apply filter_In. split; auto. rewrite EZ. auto.
Qed.
Lemma pack_bases_none : forall bs seen off, pack_bases classes bs seen off = None -> ~ (NoDup (nz bs) /\ (forall b, In b (nz bs) -> ~ In b seen)).
Proof.
  induction bs as [|b bs IH]; intros seen off; cbn [pack_bases]; [discriminate|]. unfold nz. cbn [filter]. destruct (b =? 0) eqn:EZ; cbn [negb].
  - destruct (pack_bases classes bs seen off) as [[qs e']|] eqn:E; [discriminate|]. intros _. apply (IH _ _ E).
  - destruct (mem b seen) eqn:EM; [intros _ [_ H]; apply (H b (or_introl eq_refl)); apply mem_In; auto|]. destruct (pack_bases classes bs (b :: seen) (off + size b)) as [[qs e']|] eqn:E; [discriminate|].
    intros _ [HN HS]. apply NoDup_cons_iff in HN. destruct HN as [HB HN]. apply (IH _ _ E). split; auto. intros c HC [<-|HI]; [contradiction|]. apply (HS c); auto. right. auto.
Qed.

(* the shared table: every ancestor once, in ascending order *)
Fixpoint ascending (l : list N) : Prop := match l with [] => True | x :: r => (forall y, In y r -> x < y) /\ ascending r end.
Lemma ascending_nodup l : ascending l -> NoDup l.
Proof. induction l as [|x l IH]; intros H; constructor; destruct H; auto. intros HI. specialize (H x HI). lia. Qed.
Lemma map_insert_in x m y : In y (map fst (map_insert x m)) <-> y = x \/ In y (map fst m).
Proof.
  induction m as [|[z n] m IH]; cbn [map_insert map fst In]; [intuition|]. destruct (x =? z) eqn:E; [apply N.eqb_eq in E; subst z; cbn; intuition|]. destruct (x <? z); cbn [map fst In]; [intuition|]. rewrite IH. intuition.
Qed.
Lemma map_insert_ascending x m : ascending (map fst m) -> ascending (map fst (map_insert x m)).
Proof.
  induction m as [|[z n] m IH]; cbn [map_insert map fst]; [intros _; split; [intros y []|exact I]|]. intros [HZ HA]. destruct (x =? z) eqn:E; [cbn; auto|]. destruct (x <? z) eqn:EL; cbn [map fst ascending].
  - split; [|auto]. intros y [<-|HY]; [lia|]. specialize (HZ y HY). lia.
  - split; auto. intros y HY. apply map_insert_in in HY. destruct HY as [->|HY]; [|auto]. lia.
Qed.
Lemma direct_shared bs : forall m, ascending (map fst m) -> ascending (map fst (findDirectSharedBases root bs m)) /\
  (forall y, In y (map fst (findDirectSharedBases root bs m)) <-> In y (map fst m) \/ exists b, In b bs /\ b <> 0 /\ root b = y).
Proof.
  induction bs as [|b bs IH]; intros m HA; cbn [findDirectSharedBases fold_left]; [split; auto; intros y; split; auto; intros [H|(b & [] & _)]; auto|].
  unfold findDirectSharedBases in IH. destruct (b =? 0) eqn:EZ.
  - destruct (IH m HA) as [H1 H2]. split; auto. intros y. rewrite H2. split; (intros [H|(c & HC & NZ & ER)]; [auto|]); [right; exists c; split; [right|]; auto|].
    destruct HC as [<-|HC]; [apply N.eqb_eq in EZ; congruence|right; exists c; auto].
  - destruct (IH (map_insert (root b) m) (map_insert_ascending _ _ HA)) as [H1 H2]. split; auto. intros y. rewrite H2, map_insert_in. apply N.eqb_neq in EZ. split.
    + intros [[->|H]|(c & HC & NZ & ER)]; [right; exists b; split; [left|]; auto|auto|right; exists c; split; [right|]; auto].
    + intros [H|(c & [<-|HC] & NZ & ER)]; [auto|auto|right; exists c; auto].
Qed.
Lemma svb_ok c : ascending (map fst (findTheSharedVirtualBases root classes c)) /\
  (forall y, In y (map fst (findTheSharedVirtualBases root classes c)) <-> y <> 0 /\ ancestor (root c) y).
Proof.
  assert (forall l m, ascending (map fst m) ->
    let m' := fold_left (fun m x => match bases x with Some bs => findDirectSharedBases root bs m | None => m end) l m in
    ascending (map fst m') /\ (forall y, In y (map fst m') <-> In y (map fst m) \/ exists x bs b, In x l /\ bases x = Some bs /\ In b bs /\ b <> 0 /\ root b = y)) as H.
  { induction l as [|x l IH]; intros m HA; cbn [fold_left]; [split; auto; intros y; split; auto; intros [H|(x & bs & b & [] & _)]; auto|].
    destruct (bases x) as [bs|] eqn:EB.
    - destruct (direct_shared bs m HA) as [D1 D2]. destruct (IH _ D1) as [H1 H2]. split; auto. intros y. rewrite H2, D2. split.
      + intros [[H|(b & HB)]|(z & bs' & b & HZ & HB)]; [auto|right; exists x, bs, b; split; [left|]; auto|right; exists z, bs', b; split; [right|]; auto].
      + intros [H|(z & bs' & b & [<-|HZ] & EZ & HB)]; [auto| |right; exists z, bs', b; auto]. rewrite EB in EZ. injection EZ as <-. left. right. exists b. auto.
    - destruct (IH m HA) as [H1 H2]. split; auto. intros y. rewrite H2. split; (intros [H|(z & bs' & b & HZ & EZ & HB)]; [auto|]); [right; exists z, bs', b; split; [right|]; auto|].
      destruct HZ as [<-|HZ]; [congruence|right; exists z, bs', b; auto]. }
  destruct (H (walk_from root bases false c) [] I) as [H1 H2]. split; auto. intros y. unfold findTheSharedVirtualBases. rewrite H2. destruct (C32_walk root bases (wf_small _ _ _ W) false c) as (_ & HW & _). split.
  - intros [[]|(x & bs & b & HX & EB & HB & NZ & <-)]. split; [intros E; apply (proj1 (wf_zero _ _ _ W b)) in E; auto|]. apply HW in HX. destruct HX as [x|x w x' HE HR].
    + exists (root b). split; [exists bs, b; auto|constructor].
    + exists w. split; auto. eapply reach_snoc; eauto. exists bs, b. auto.
  - intros [NZ HA]. right. destruct (reach_last _ _ _ _ HA) as (x & HR & bs & b & EB & HB & ER). exists x, bs, b. split; [apply HW; auto|]. split; auto. split; auto. split; auto. intros ->. apply NZ. rewrite <- ER. apply (wf_zero _ _ _ W). auto.
Qed.

Lemma edge_class x y : edge root bases x y -> y <> 0 -> exists k ky, classes x = Some k /\ In y (lc_bases k) /\ classes y = Some ky /\ lc_kind ky <> Element.
Proof.
  intros (bs & b & EB & HB & ER) NZ. unfold lbases in EB. destruct (classes x) as [k|] eqn:EK; [|discriminate]. injection EB as <-.
  assert (b <> 0) as NB by (intros ->; apply NZ; rewrite <- ER; apply (wf_zero _ _ _ W); auto). destruct (wf_bases _ _ _ W x k b EK HB NB) as (kb & EKb & NE).
  rewrite (wf_root _ _ _ W b kb EKb) in ER. subst y. exists k, kb. auto.
Qed.
Lemma ancestor_class x y : ancestor x y -> y <> 0 -> exists ky, classes y = Some ky /\ size y = own_bits ky.
Proof.
  intros HA NZ. destruct (reach_last _ _ _ _ HA) as (z & _ & HE). destruct (edge_class z y HE NZ) as (k & ky & EK & HI & EY & NE). exists ky. split; auto. apply (size_own z k y ky); auto.
Qed.
Lemma shared_item_spec y : forall sh i, (forall b, In b sh -> exists k, classes b = Some k) -> root y = y -> forall j, shared_item compare sh y i = Some j ->
  exists n, j = i + N.of_nat n /\ nth_error sh n = Some y.
Proof.
  induction sh as [|b sh IH]; intros i HD HY j; cbn [shared_item]; [discriminate|]. destruct (HD b (or_introl eq_refl)) as [kb EB]. rewrite (wf_compare _ _ _ W b kb y EB). rewrite HY. destruct (b =? y) eqn:E.
  - apply N.eqb_eq in E. subst b. destruct (y =? 0) eqn:EZ; [apply N.eqb_eq in EZ; subst; rewrite (wf_nouti _ _ _ W) in EB; discriminate|]. cbn [negb andb]. intros Eq. injection Eq as <-. exists 0%nat. split; [lia|auto].
  - rewrite andb_false_r. intros Ej. destruct (IH (i + 1) (fun b HB => HD b (or_intror HB)) HY j Ej) as (n & -> & Hn). exists (S n). split; [lia|auto].
Qed.
Lemma shared_item_none y : forall sh i, (forall b, In b sh -> exists k, classes b = Some k) -> root y = y -> (shared_item compare sh y i = None <-> ~ In y sh).
Proof.
  induction sh as [|b sh IH]; intros i HD HY; cbn [shared_item]; [split; auto|]. destruct (HD b (or_introl eq_refl)) as [kb EB]. rewrite (wf_compare _ _ _ W b kb y EB), HY. destruct (b =? y) eqn:E.
  - apply N.eqb_eq in E. subst b. destruct (y =? 0) eqn:EZ; [apply N.eqb_eq in EZ; subst; rewrite (wf_nouti _ _ _ W) in EB; discriminate|]. cbn [negb andb]. split; [discriminate|]. intros H. exfalso. apply H. left. auto.
  - rewrite andb_false_r, IH by (auto; intros b' HB; apply HD; right; auto). apply N.eqb_neq in E. cbn [In]. intuition.
Qed.

Lemma shared_table c : sharedTable root classes compare c = map fst (findTheSharedVirtualBases root classes c).
Proof.
  destruct (svb_ok c) as [HA HI]. unfold sharedTable.
  assert (forall (l : list (N * N)) sh, (forall y, In y (map fst l) -> root y = y) -> (forall b, In b sh -> exists k, classes b = Some k) -> (forall y, In y (map fst l) -> exists k, classes y = Some k) -> (forall y, In y (map fst l) -> ~ In y sh) -> NoDup (map fst l) ->
    fold_left (fun sh e => match shared_item compare sh (fst e) 0 with Some _ => sh | None => sh ++ [root (fst e)] end) l sh = sh ++ map fst l) as H.
  { induction l as [|[y n] l IH]; intros sh HR HD HL HN ND; cbn [fold_left map fst]; [rewrite app_nil_r; auto|]. cbn [map fst] in *. apply NoDup_cons_iff in ND. destruct ND as [NI ND].
    rewrite (proj2 (shared_item_none y sh 0 HD (HR y (or_introl eq_refl))) (HN y (or_introl eq_refl))). rewrite (HR y (or_introl eq_refl)). rewrite IH; auto.
    - rewrite <- app_assoc. auto.
    - intros z HZ. apply HR. right. auto.
    - intros b HB. apply in_app_or in HB. destruct HB as [HB|[<-|[]]]; auto. apply HL. left. auto.
    - intros z HZ. apply HL. right. auto.
    - intros z HZ HB. apply in_app_or in HB. destruct HB as [HB|[<-|[]]]; [apply (HN z); auto; right; auto|contradiction]. }
  apply (H (findTheSharedVirtualBases root classes c) []); [| | | |apply ascending_nodup; auto].
  - intros y HY. apply HI in HY. destruct HY as [NZ HY]. destruct (ancestor_class _ _ HY NZ) as (ky & EY & _). eapply wf_root; eauto.
  - intros b [].
  - intros y HY. apply HI in HY. destruct HY as [NZ HY]. destruct (ancestor_class _ _ HY NZ) as (ky & EY & _). eauto.
  - intros y _ [].
Qed.
Lemma shared_table_in c y : In y (sharedTable root classes compare c) <-> y <> 0 /\ ancestor (root c) y.
Proof. rewrite shared_table. apply svb_ok. Qed.
Lemma shared_table_nodup c : NoDup (sharedTable root classes compare c).
Proof. rewrite shared_table. apply ascending_nodup. apply svb_ok. Qed.

(* base_item gives the item of an entry *)
Lemma base_item_index y : forall bs i, (forall b, In b bs -> b <> 0 -> exists k, classes b = Some k) -> root y = y -> y <> 0 ->
  match base_item compare bs y i with Some j => exists n, j = i + N.of_nat n /\ nth_error bs n = Some y | None => ~ In y bs end.
Proof.
  induction bs as [|b bs IH]; intros i HD HY NZ; cbn [base_item]; [auto|]. specialize (IH (i + 1) (fun b HB => HD b (or_intror HB)) HY NZ). destruct (b =? 0) eqn:EZ; cbn [negb andb].
  - apply N.eqb_eq in EZ. destruct (base_item compare bs y (i + 1)) as [j|].
    + destruct IH as (n & -> & Hn). exists (S n). split; [lia|auto].
    + intros [E|HI]; [congruence|auto].
  - apply N.eqb_neq in EZ. destruct (HD b (or_introl eq_refl) EZ) as [kb EB]. rewrite (wf_compare _ _ _ W b kb y EB), HY. destruct (b =? y) eqn:E; cbn [not_notsame].
    + apply N.eqb_eq in E. subst. exists 0%nat. split; [lia|auto].
    + apply N.eqb_neq in E. destruct (base_item compare bs y (i + 1)) as [j|]; [destruct IH as (n & -> & Hn); exists (S n); split; [lia|auto]|]. intros [H|H]; auto.
Qed.

(* the shared entries: those of direct bases copy, the others follow *)
Lemma pack_shared_ok bs bps : (forall b, In b bs -> b <> 0 -> exists k, classes b = Some k) -> forall sh off ps e, (forall y, In y sh -> root y = y /\ y <> 0) -> NoDup sh -> pack_shared classes compare bs bps sh off = (ps, e) ->
  let rest := filter (fun y => negb (mem y bs)) sh in
  e = off + total rest /\ (forall n y, nth_error sh n = Some y -> ~ In y bs -> forall q, In (y, q) (place off rest) -> nth n ps None = Some q) /\
  (forall n y j, nth_error sh n = Some y -> base_item compare bs y 0 = Some j -> nth n ps None = nth (N.to_nat j) bps None).
Proof.
  intros HD. induction sh as [|y sh IH]; intros off ps e HR ND; cbn [pack_shared].
  - intros E. injection E as <- <-. cbn. split; [lia|]. split; intros [|n] y; cbn; discriminate.
  - apply NoDup_cons_iff in ND. destruct ND as [NI ND]. destruct (HR y (or_introl eq_refl)) as [RY NZ]. pose proof (base_item_index y bs 0 HD RY NZ) as HB. cbn [filter].
    destruct (base_item compare bs y 0) as [j|] eqn:EB.
    + destruct (pack_shared classes compare bs bps sh off) as [qs e'] eqn:EP. intros Eq. injection Eq as <- <-. destruct (IH _ _ _ (fun z HZ => HR z (or_intror HZ)) ND EP) as (H1 & H2 & H3).
      destruct HB as (n & -> & Hn). apply nth_error_In in Hn. rewrite (proj2 (mem_In y bs) Hn). cbn [negb]. split; auto. split.
      * intros [|m] z; cbn [nth_error nth]; [|apply H2]. intros Eq NB. injection Eq as <-. contradiction.
      * intros [|m] z j; cbn [nth_error nth]; [|apply H3]. intros Eq Ej. injection Eq as <-. rewrite EB in Ej. injection Ej as <-. auto.
    + destruct (pack_shared classes compare bs bps sh (off + size y)) as [qs e'] eqn:EP. intros Eq. injection Eq as <- <-. destruct (IH _ _ _ (fun z HZ => HR z (or_intror HZ)) ND EP) as (H1 & H2 & H3).
      destruct (mem y bs) eqn:EM; [apply mem_In in EM; contradiction|]. cbn [negb place]. rewrite total_cons. split; [lia|]. split.
      * intros [|m] z; cbn [nth_error nth].
        -- intros Eq NB q. injection Eq as <-. intros [Eq|HQ]; [congruence|]. exfalso. apply (in_map fst) in HQ. rewrite place_fst in HQ. apply filter_In in HQ. destruct HQ as [HQ _]. contradiction.
        -- intros Em NB q [Eq|HQ]; [|eapply H2; eauto]. injection Eq as <- <-. apply nth_error_In in Em. contradiction.
      * intros [|m] z j; cbn [nth_error nth]; [|apply H3]. intros Eq. injection Eq as <-. congruence.
Qed.

(* ---- the class itself ---- *)
Variable c : N.
Variable k : lclass.
Hypothesis EK : classes c = Some k.
Notation ds := (nz (lc_bases k)).
Notation sh := (sharedTable root classes compare c).
Notation rest := (filter (fun y => negb (mem y (lc_bases k))) sh).

Lemma root_c : root c = c. Proof. eapply wf_root; eauto. Qed.
Lemma c_nz : c <> 0. Proof. intros E. rewrite E, (wf_nouti _ _ _ W) in EK. discriminate. Qed.
Lemma bases_def b : In b (lc_bases k) -> b <> 0 -> exists kb, classes b = Some kb.
Proof. intros HI NZ. destruct (wf_bases _ _ _ W c k b EK HI NZ) as (kb & E & _). eauto. Qed.
Lemma direct_ancestor b : In b ds -> b <> 0 /\ ancestor c b.
Proof.
  intros HI. apply filter_In in HI. destruct HI as [HI NZ]. assert (b <> 0) as NB by lia. split; auto. exists b. split; [|constructor]. exists (lc_bases k), b. unfold lbases. rewrite EK. cbn [option_map]. split; auto. split; auto.
  destruct (bases_def b HI NB) as [kb EB]. eapply wf_root; eauto.
Qed.
Lemma NoDup_app_disjoint {A} (l1 l2 : list A) : NoDup l1 -> NoDup l2 -> (forall x, In x l1 -> ~ In x l2) -> NoDup (l1 ++ l2).
Proof.
  induction l1 as [|x l1 IH]; intros H1 H2 HD; cbn [app]; auto. apply NoDup_cons_iff in H1. destruct H1 as [NI H1]. constructor.
  - intros HI. apply in_app_or in HI. destruct HI as [HI|HI]; [auto|]. apply (HD x (or_introl eq_refl)). auto.
  - apply IH; auto. intros y HY. apply HD. right. auto.
Qed.
Lemma parts_perm : NoDup ds -> Permutation sh (ds ++ rest).
Proof.
  intros ND. apply NoDup_Permutation; [apply shared_table_nodup| |].
  - apply NoDup_app_disjoint; auto; [apply NoDup_filter, shared_table_nodup|]. intros x HX HR. apply filter_In in HX. destruct HX as [HX _]. apply filter_In in HR. destruct HR as [_ HR]. rewrite (proj2 (mem_In x _) HX) in HR. discriminate.
  - intros y. rewrite in_app_iff. split.
    + intros HY. pose proof (proj1 (shared_table_in c y) HY) as [NZ _]. destruct (mem y (lc_bases k)) eqn:EM.
      * left. apply filter_In. split; [apply mem_In; auto|]. lia.
      * right. apply filter_In. split; auto. rewrite EM. auto.
    + intros [HY|HY]; [|apply filter_In in HY; tauto]. apply shared_table_in. rewrite root_c. apply direct_ancestor. auto.
Qed.
Lemma total_perm l1 l2 : Permutation l1 l2 -> total l1 = total l2.
Proof. induction 1; rewrite ?total_cons; try lia. Qed.
Lemma sharedbits_total : sharedbits root classes c = total sh.
Proof. unfold sharedbits. rewrite shared_table, (sum_shift (fun e : N * N => size (fst e))), N.add_0_l. unfold total. induction (findTheSharedVirtualBases root classes c) as [|e l IH]; cbn [map fold_right]; auto. rewrite IH. auto. Qed.

Lemma relpos_eq a : a <> 0 -> ancestor c a -> getABaseClassRelativePositionInAClass root classes compare c a =
  match base_item compare (lc_bases k) a 0 with
  | Some i => match packBits root classes compare c with Some p => nth (N.to_nat i) (pk_bases p) None | None => None end
  | None => match shared_item compare sh a 0 with
            | Some i => match packBits root classes compare c with Some p => nth (N.to_nat i) (pk_shared p) None | None => None end
            | None => None end
  end.
Proof.
  intros NZ HA. destruct (ancestor_class c a HA NZ) as (ka & EA & _). pose proof (wf_root _ _ _ W a ka EA) as RA. unfold getABaseClassRelativePositionInAClass.
  rewrite (wf_compare _ _ _ W c k a EK), RA. destruct (c =? a) eqn:E; [apply N.eqb_eq in E; subst a; destruct (W_acyclic c HA)|].
  assert (exists f, the_fuel = S f) as [f EF]. { exists (N.to_nat 65536). Local Transparent the_fuel. unfold the_fuel. Local Opaque the_fuel. lia. }
  rewrite EF. cbn [relpos_loop getNextBasePair mem existsb]. rewrite root_c, EK.
  destruct (C33_nearest root bases compare W_settled c a c_nz NZ) as [HN _]. rewrite root_c, RA in HN. rewrite (proj2 HN HA), EK.
  destruct (base_item compare (lc_bases k) a 0) as [i|]; auto. destruct (shared_item compare sh a 0) as [i|] eqn:ES; auto. exfalso.
  apply shared_item_none in ES; auto; [|intros b HB; apply shared_table_in in HB; destruct HB as [NB HB]; destruct (ancestor_class _ _ HB NB) as (kb & Eb & _); eauto].
  apply ES. apply shared_table_in. rewrite root_c. auto.
Qed.

Variable p : packing.
Hypothesis EP : packBits root classes compare c = Some p.

Lemma pack_parts : exists o1, pack_members (lc_union k) (lc_members k) 0 = (pk_members p, o1) /\ NoDup ds /\ pk_end p = o1 + total (ds ++ rest) /\
  forall a q, In (a, q) (place o1 (ds ++ rest)) -> getABaseClassRelativePositionInAClass root classes compare c a = Some q /\ getASharedBaseClassRelativePositionInAClass root classes compare c a = Some q.
Proof.
  pose proof EP as EP'. unfold packBits in EP'. rewrite EK in EP'. destruct (pack_members (lc_union k) (lc_members k) 0) as [mps o1]. destruct (pack_bases classes (lc_bases k) [] o1) as [[bps o2]|] eqn:EB; [|discriminate].
  destruct (pack_shared classes compare (lc_bases k) bps sh o2) as [sps o3] eqn:ES. injection EP' as <-. cbn [pk_members pk_bases pk_shared pk_end] in *. exists o1. split; auto.
  destruct (pack_bases_ok _ _ _ _ _ EB) as (E2 & ND & _ & _ & HB).
  assert (forall y, In y sh -> root y = y /\ y <> 0) as HSr.
  { intros y HY. apply shared_table_in in HY. destruct HY as [NZ HY]. destruct (ancestor_class _ _ HY NZ) as (ky & EY & _). split; auto. eapply wf_root; eauto. }
  assert (forall b, In b sh -> exists k, classes b = Some k) as HSd.
  { intros y HY. apply shared_table_in in HY. destruct HY as [NZ HY]. destruct (ancestor_class _ _ HY NZ) as (ky & EY & _). eauto. }
  destruct (pack_shared_ok (lc_bases k) bps bases_def sh o2 sps o3 HSr (shared_table_nodup c) ES) as (E3 & HS1 & HS2).
  split; auto. split; [rewrite total_app; lia|]. intros a q HQ.
  assert (In a sh) as HAS. { apply (Permutation_in (l := ds ++ rest)); [apply Permutation_sym, parts_perm; auto|]. apply (in_map fst) in HQ. rewrite place_fst in HQ. auto. }
  destruct (HSr a HAS) as [RA NZ]. pose proof (proj1 (shared_table_in c a) HAS) as [_ HA]. rewrite root_c in HA.
  assert (forall i, shared_item compare sh a 0 = Some i -> nth (N.to_nat i) sps None = match base_item compare (lc_bases k) a 0 with Some j => nth (N.to_nat j) bps None | None => Some q end) as HSI.
  { intros i Ei. destruct (shared_item_spec a sh 0 HSd RA i Ei) as (n & -> & Hn). replace (N.to_nat (0 + N.of_nat n)) with n by lia. pose proof (base_item_index a (lc_bases k) 0 bases_def RA NZ) as HI. destruct (base_item compare (lc_bases k) a 0) as [j|] eqn:Ej.
    - apply (HS2 n a j); auto.
    - apply (HS1 n a); auto. rewrite place_app in HQ. apply in_app_or in HQ. destruct HQ as [HQ|HQ]; [|rewrite E2; auto]. exfalso. apply (in_map fst) in HQ. rewrite place_fst in HQ. apply filter_In in HQ. apply HI. apply HQ. }
  assert (exists i, shared_item compare sh a 0 = Some i) as [i Ei]. { destruct (shared_item compare sh a 0) eqn:E; eauto. apply shared_item_none in E; auto. contradiction. }
  assert (nth (N.to_nat i) sps None = Some q /\ match base_item compare (lc_bases k) a 0 with Some j => nth (N.to_nat j) bps None = Some q | None => True end) as [HX HY].
  { specialize (HSI i Ei). pose proof (base_item_index a (lc_bases k) 0 bases_def RA NZ) as HI. destruct (base_item compare (lc_bases k) a 0) as [j|] eqn:Ej; [|auto]. rewrite HSI. assert (nth (N.to_nat j) bps None = Some q) as ->; auto.
    destruct HI as (n & -> & Hn). replace (N.to_nat (0 + N.of_nat n)) with n by lia. apply (HB n a); auto. rewrite place_app in HQ. apply in_app_or in HQ. destruct HQ as [HQ|HQ]; auto. exfalso.
    apply (in_map fst) in HQ. rewrite place_fst in HQ. apply filter_In in HQ. destruct HQ as [_ HQ]. cbn [fst] in HQ. apply nth_error_In in Hn. rewrite (proj2 (mem_In a _) Hn) in HQ. discriminate. }
  split.
  - rewrite relpos_eq by auto. rewrite EP. cbn [pk_bases pk_shared]. rewrite Ei. destruct (base_item compare (lc_bases k) a 0); auto.
  - unfold getASharedBaseClassRelativePositionInAClass. rewrite Ei, EP. cbn [pk_shared]. rewrite HX. rewrite (wf_compare _ _ _ W c k a EK), RA. destruct (c =? a) eqn:E; auto. apply N.eqb_eq in E. subst a. destruct (W_acyclic c HA).
Qed.
End Proofs.

(* ---- C37 ---- *)
Definition base_position root classes compare c a := match getABaseClassRelativePositionInAClass root classes compare c a with Some q => q | None => 0 end.
Definition own_size (classes : N -> option lclass) a := match classes a with Some k => own_bits k | None => 0 end.

(* The members of a class and the own parts of its ancestors, each ancestor once however often it is inherited, cover the bits
   of the class exactly; both look-up functions give the same position. *)
Theorem C37_layout : forall root classes compare, wf root classes compare -> forall c k p, classes c = Some k -> lc_union k = false ->
  packBits root classes compare c = Some p ->
  forall l, NoDup l -> (forall a, In a l <-> a <> 0 /\ ancestor root (lbases classes) c a) ->
  exact_cover (combine (pk_members p) (map member_size (lc_members k)) ++ map (fun a => (base_position root classes compare c a, own_size classes a)) l) (totalbits root classes c) /\
  List.length (pk_members p) = List.length (lc_members k) /\
  (forall a, In a l -> exists q, getABaseClassRelativePositionInAClass root classes compare c a = Some q /\ getASharedBaseClassRelativePositionInAClass root classes compare c a = Some q).
Proof.
  intros root classes compare W c k p EK EU EP l ND HL. destruct (pack_parts root classes compare W c k EK p EP) as (o1 & EM & NDd & EE & HP). rewrite EU in EM.
  destruct (pack_members_ok (lc_members k) 0 _ _ EM) as (HLen & HC1 & E1).
  set (rest := filter (fun y => negb (mem y (lc_bases k))) (sharedTable root classes compare c)) in *. set (ds := nz (lc_bases k)) in *.
  assert (Permutation l (ds ++ rest)) as HPm.
  { apply Permutation_trans with (sharedTable root classes compare c); [|apply (parts_perm root classes compare W c k EK); auto]. apply NoDup_Permutation; [auto|apply (shared_table_nodup root classes compare W)|].
    intros a. rewrite HL, (shared_table_in root classes compare W c a), (root_c root classes compare W c k EK). tauto. }
  split; [|split; auto].
  - intros q. rewrite (covering_perm q _ (member_parts (pk_members p) (lc_members k) ++ map (fun a => (base_position root classes compare c a, own_size classes a)) (ds ++ rest))) by (apply Permutation_app_head, Permutation_map; auto).
    assert (map (fun a => (base_position root classes compare c a, own_size classes a)) (ds ++ rest) = map (fun e => (snd e, getBaseClassBitSize classes (fst e))) (place classes o1 (ds ++ rest))) as ->.
    { assert (forall a, In a (ds ++ rest) -> own_size classes a = getBaseClassBitSize classes a) as HS.
      { intros a HA. apply (Permutation_in _ (Permutation_sym HPm)) in HA. apply HL in HA. destruct HA as [NZ HA]. destruct (ancestor_class root classes compare W c a HA NZ) as (ka & EA & Es). unfold own_size. rewrite EA, Es. auto. }
      revert HP HS. generalize (ds ++ rest). clear. intros l. revert o1. induction l as [|a l IH]; intros o1 HP HS; cbn [map place fst snd]; auto. f_equal.
      - f_equal; [|apply HS; left; auto]. unfold base_position. destruct (HP a o1 (or_introl eq_refl)) as [-> _]. auto.
      - apply IH; [intros b r HB; apply HP; right; auto|intros b HB; apply HS; right; auto]. }
    assert (totalbits root classes c = o1 + total classes (ds ++ rest)) as ET.
    { unfold totalbits. rewrite (mybits_own root classes compare W c k EK), (sharedbits_total root classes compare W c). unfold own_bits. rewrite EU. rewrite (total_perm classes _ _ (parts_perm root classes compare W c k EK NDd)). fold ds rest. rewrite E1. lia. }
    rewrite (consecutive_cover _ q 0 (totalbits root classes c)).
    + rewrite (proj2 (N.leb_le 0 q)) by lia. auto.
    + apply consecutive_app with o1; auto. rewrite ET. apply place_consecutive.
  - intros a HA. apply (Permutation_in _ HPm) in HA. rewrite <- (place_fst classes (ds ++ rest) o1) in HA. apply in_map_iff in HA. destruct HA as ([b q] & E & HQ). cbn [fst] in E. subst b. exists q. apply HP. auto.
Qed.
Print Assumptions C37_layout.

(* The layout fails exactly if a base is named twice. *)
Theorem C37_duplicate : forall root classes compare c k, classes c = Some k ->
  (packBits root classes compare c = None <-> ~ NoDup (filter (fun b => negb (b =? 0)) (lc_bases k))).
Proof.
  intros root classes compare c k EK. unfold packBits. rewrite EK. destruct (pack_members (lc_union k) (lc_members k) 0) as [mps o1]. destruct (pack_bases classes (lc_bases k) [] o1) as [[bps o2]|] eqn:EB.
  - destruct (pack_shared _ _ _ _ _ _). split; [discriminate|]. intros H. exfalso. apply H. apply (pack_bases_ok classes _ _ _ _ _ EB).
  - split; auto. intros _ H. apply (pack_bases_none classes _ _ _ EB). split; auto.
Qed.
Print Assumptions C37_duplicate.

(* A diamond: 4 : 2 + 3, 2 : 1, 3 : 1 + 9 and 5 : 4 + 1 (the super class missing in 1 and 3); 9 is a union; 5 is a transient with
   an element member and an array. *)
Definition ex_m b := {| mt_bits := b; mt_array := None; mt_element := false |}.
Definition ex_classes (x : N) : option lclass :=
  if x =? 1 then Some {| lc_kind := Quark; lc_union := false; lc_members := [ex_m 3; ex_m 4]; lc_bases := [0] |}
  else if x =? 2 then Some {| lc_kind := Quark; lc_union := false; lc_members := [ex_m 5]; lc_bases := [1] |}
  else if x =? 3 then Some {| lc_kind := Quark; lc_union := false; lc_members := []; lc_bases := [0; 1; 9] |}
  else if x =? 4 then Some {| lc_kind := Quark; lc_union := false; lc_members := [ex_m 1]; lc_bases := [2; 3] |}
  else if x =? 5 then Some {| lc_kind := Transient; lc_union := false; lc_bases := [4; 1];
    lc_members := [{| mt_bits := 7; mt_array := None; mt_element := true |}; {| mt_bits := 2; mt_array := Some 6; mt_element := false |}] |}
  else if x =? 9 then Some {| lc_kind := Quark; lc_union := true; lc_members := [ex_m 6; ex_m 2]; lc_bases := [0] |}
  else if x =? 10 then Some {| lc_kind := Quark; lc_union := true; lc_members := [ex_m 3; ex_m 2]; lc_bases := [9] |}
  else None.
Definition ex_r (x : N) : N := if x <? 65536 then x else 1.
Definition ex_c (x y : N) : cmp := if x =? ex_r y then Same else NotSame.
Lemma ex_cases x k : ex_classes x = Some k -> In x [1; 2; 3; 4; 5; 9; 10].
Proof. unfold ex_classes. intros H. repeat match type of H with context [x =? ?n] => destruct (x =? n) eqn:?; [cbn; lia|] end. discriminate. Qed.
Ltac ex_split H := cbn [In] in H; repeat match type of H with _ \/ _ => destruct H as [H|H] end; try contradiction.
Lemma ex_edge_rank x y : edge ex_r (lbases ex_classes) x y -> (match y with 0 => 0 | 1 => 1 | 9 => 1 | 2 => 2 | 3 => 2 | 10 => 2 | 4 => 3 | _ => 4 end) < (match x with 0 => 0 | 1 => 1 | 9 => 1 | 2 => 2 | 3 => 2 | 10 => 2 | 4 => 3 | _ => 4 end).
Proof.
  intros (bs & b & EB & HB & <-). unfold lbases in EB. destruct (ex_classes x) as [k|] eqn:EK; [|discriminate]. cbn [option_map] in EB. injection EB as <-. pose proof (ex_cases x k EK) as HX.
  ex_split HX; subst x; vm_compute in EK; injection EK as <-; cbn [lc_bases] in HB; ex_split HB; subst b; vm_compute; reflexivity.
Qed.
Lemma ex_wf : wf ex_r ex_classes ex_c.
Proof.
  split.
  - intros x. unfold ex_r. destruct (x <? 65536) eqn:E; lia.
  - intros x. unfold ex_r. destruct (x <? 65536) eqn:E; lia.
  - reflexivity.
  - intros x k E. pose proof (ex_cases x k E) as HX. ex_split HX; subst x; reflexivity.
  - intros x k y E. unfold ex_c. auto.
  - intros x k b E HI NZ. pose proof (ex_cases x k E) as HX. ex_split HX; subst x; vm_compute in E; injection E as <-; cbn [lc_bases] in HI; ex_split HI; subst b; try congruence; (eexists; split; [reflexivity|discriminate]).
  - intros x k m E HI HE. pose proof (ex_cases x k E) as HX. ex_split HX; subst x; vm_compute in E; injection E as <-; cbn [lc_members] in HI; ex_split HI; subst m; try discriminate; auto.
  - intros x HA. assert (forall x y, reach ex_r (lbases ex_classes) x y -> (match y with 0 => 0 | 1 => 1 | 9 => 1 | 2 => 2 | 3 => 2 | 10 => 2 | 4 => 3 | _ => 4 end) <= (match x with 0 => 0 | 1 => 1 | 9 => 1 | 2 => 2 | 3 => 2 | 10 => 2 | 4 => 3 | _ => 4 end)) as HR.
    { induction 1 as [z|z w v HE HR IH]; [apply N.le_refl|]. apply ex_edge_rank in HE. eapply N.le_trans; [exact IH|]. apply N.lt_le_incl. exact HE. }
    destruct HA as (y & HE & HRe). apply ex_edge_rank in HE. apply HR in HRe. eapply N.lt_irrefl. eapply N.lt_le_trans; [exact HE|exact HRe].
Qed.
Example C37_ex : wf ex_r ex_classes ex_c /\ packBits ex_r ex_classes ex_c 5 = Some {| pk_members := [0; 96]; pk_bases := [Some 108; Some 109]; pk_shared := [Some 109; Some 116; Some 121; Some 108; Some 121]; pk_end := 127 |} /\
  totalbits ex_r ex_classes 5 = 127 /\ map (getABaseClassRelativePositionInAClass ex_r ex_classes ex_c 5) [1; 2; 3; 4; 9; 5; 7] = [Some 109; Some 116; Some 121; Some 108; Some 121; Some 0; None].
Proof. split; [exact ex_wf|]. vm_compute. auto. Qed.

(* a class is in itself at 0, and no class but its ancestors is in it *)
Theorem C37_own_position : forall root classes compare, wf root classes compare -> forall c k, classes c = Some k ->
  getABaseClassRelativePositionInAClass root classes compare c c = Some 0.
Proof.
  intros root classes compare W c k E. unfold getABaseClassRelativePositionInAClass.
  rewrite (wf_compare _ _ _ W c k c E), (wf_root _ _ _ W c k E), N.eqb_refl. reflexivity.
Qed.
Print Assumptions C37_own_position.

Lemma relpos_none root classes compare : wf root classes compare -> forall c b, b <> 0 -> ~ ancestor root (lbases classes) c (root b) ->
  forall f d seen, (forall q, In q d -> reach root (lbases classes) c (root (fst q))) -> relpos_loop root classes compare f b d seen = None.
Proof.
  intros W c b NB HN f. induction f as [|f IH]; intros d seen HD; cbn [relpos_loop]; auto.
  destruct (getNextBasePair root d seen) as [[[[x h]|] d'] seen'] eqn:EN; auto.
  destruct (next_some _ _ _ _ _ _ _ EN) as (_ & _ & p & b0 & -> & -> & _).
  assert (reach root (lbases classes) c (root b0)) as HR by (apply (HD (b0, h)), in_or_app; right; left; reflexivity).
  assert (forall q, In q d' -> reach root (lbases classes) c (root (fst q))) as HD' by (intros q HQ; apply HD, in_or_app; right; right; auto).
  destruct (classes (root b0)) as [k|] eqn:EK; [|apply IH; auto].
  assert (root b0 <> 0) as NZ by (intros EZ; rewrite EZ, (wf_nouti _ _ _ W) in EK; discriminate).
  destruct (C33_nearest root (lbases classes) compare (W_settled root classes compare W) (root b0) b NZ NB) as [HI HU].
  rewrite (wf_root _ _ _ W _ _ EK) in HI, HU.
  destruct (findNearestBaseClassToAnAncestor root (lbases classes) compare (root b0) b) as [fb|].
  - exfalso. apply HN. rewrite (HU fb eq_refl) in HI. destruct (proj1 HI eq_refl) as (y & HE & HRe).
    destruct (reach_ancestor _ _ _ _ HR) as [->|HA]; [exists y; auto|]. eapply ancestor_trans; [exact HA|]. exists y. auto.
  - apply IH. intros q HQ. apply add_in in HQ. destruct HQ as [HQ|(b' & HB & ->)]; auto. cbn [fst]. eapply reach_snoc; [exact HR|].
    exists (lc_bases k), b'. unfold lbases. rewrite EK. auto.
Qed.

(* only a class's ancestors have a place in it *)
Theorem C37_only_ancestors_inside : forall root classes compare, wf root classes compare -> forall c k b, classes c = Some k -> b <> 0 -> root b <> c ->
  ~ ancestor root (lbases classes) c (root b) -> getABaseClassRelativePositionInAClass root classes compare c b = None.
Proof.
  intros root classes compare W c k b EK NB NE HN. unfold getABaseClassRelativePositionInAClass. rewrite (wf_compare _ _ _ W c k b EK).
  destruct (c =? root b) eqn:E; [apply N.eqb_eq in E; congruence|]. apply (relpos_none root classes compare W c b NB HN).
  intros q [<-|[]]. cbn [fst]. rewrite (wf_root _ _ _ W c k EK). constructor.
Qed.
Print Assumptions C37_only_ancestors_inside.

(* ---- C38 ---- *)
Lemma union_members ms : forall off, pack_members true ms off = (map (fun _ => off) ms, off).
Proof. induction ms as [|m ms IH]; intros off; cbn [pack_members map]; auto. rewrite IH. auto. Qed.

(* Half of the claim: all members of a union start at 0, and fit its own bits. *)
Theorem C38_members_partial : forall root classes compare, wf root classes compare -> forall c k p, classes c = Some k -> lc_union k = true ->
  packBits root classes compare c = Some p ->
  pk_members p = map (fun _ => 0) (lc_members k) /\ (forall m, In m (lc_members k) -> member_size m <= own_bits k) /\ own_bits k <= totalbits root classes c.
Proof.
  intros root classes compare W c k p EK EU EP. destruct (pack_parts root classes compare W c k EK p EP) as (o1 & EM & _). rewrite EU, union_members in EM. injection EM as <- <-. split; auto. split.
  - unfold own_bits. rewrite EU. intros m. induction (lc_members k) as [|m' l IH]; intros HM; [contradiction|]. cbn [fold_right]. destruct HM as [->|HM]; [lia|]. apply IH in HM. lia.
  - unfold totalbits. rewrite (mybits_own root classes compare W c k EK). lia.
Qed.
Print Assumptions C38_members_partial.

(* What happens to the bases: their parts cover the bits from 0 on instead of the bits after the largest member, in every union. *)
Theorem C38_bases_at_front : forall root classes compare, wf root classes compare -> forall c k p, classes c = Some k -> lc_union k = true ->
  packBits root classes compare c = Some p ->
  forall l, NoDup l -> (forall a, In a l <-> a <> 0 /\ ancestor root (lbases classes) c a) ->
  exact_cover (map (fun a => (base_position root classes compare c a, own_size classes a)) l) (totalbits root classes c - own_bits k).
Proof.
  intros root classes compare W c k p EK EU EP l ND HL. destruct (pack_parts root classes compare W c k EK p EP) as (o1 & EM & NDd & EE & HP). rewrite EU, union_members in EM. injection EM as _ <-.
  set (rest := filter (fun y => negb (mem y (lc_bases k))) (sharedTable root classes compare c)) in *. set (ds := nz (lc_bases k)) in *.
  assert (Permutation l (ds ++ rest)) as HPm.
  { apply Permutation_trans with (sharedTable root classes compare c); [|apply (parts_perm root classes compare W c k EK); auto]. apply NoDup_Permutation; [auto|apply (shared_table_nodup root classes compare W)|].
    intros a. rewrite HL, (shared_table_in root classes compare W c a), (root_c root classes compare W c k EK). tauto. }
  intros q. rewrite (covering_perm q _ (map (fun a => (base_position root classes compare c a, own_size classes a)) (ds ++ rest))) by (apply Permutation_map; auto).
  assert (map (fun a => (base_position root classes compare c a, own_size classes a)) (ds ++ rest) = map (fun e => (snd e, getBaseClassBitSize classes (fst e))) (place classes 0 (ds ++ rest))) as ->.
  { assert (forall a, In a (ds ++ rest) -> own_size classes a = getBaseClassBitSize classes a) as HS.
    { intros a HA. apply (Permutation_in _ (Permutation_sym HPm)) in HA. apply HL in HA. destruct HA as [NZ HA]. destruct (ancestor_class root classes compare W c a HA NZ) as (ka & EA & Es). unfold own_size. rewrite EA, Es. auto. }
    revert HP HS. generalize (ds ++ rest). generalize 0. clear. intros o1 l. revert o1. induction l as [|a l IH]; intros o1 HP HS; cbn [map place fst snd]; auto. f_equal.
    - f_equal; [|apply HS; left; auto]. unfold base_position. destruct (HP a o1 (or_introl eq_refl)) as [-> _]. auto.
    - apply IH; [intros b r HB; apply HP; right; auto|intros b HB; apply HS; right; auto]. }
  assert (totalbits root classes c - own_bits k = 0 + total classes (ds ++ rest)) as ->.
  { unfold totalbits. rewrite (mybits_own root classes compare W c k EK), (sharedbits_total root classes compare W c), (total_perm classes _ _ (parts_perm root classes compare W c k EK NDd)). fold ds rest. lia. }
  rewrite (consecutive_cover _ q 0 (0 + total classes (ds ++ rest))).
  + rewrite (proj2 (N.leb_le 0 q)) by lia. auto.
  + apply place_consecutive.
Qed.
Print Assumptions C38_bases_at_front.

(* So the claim fails: union 10 : 9 (t41424's Q3 : Q) has 9 bits, but its base's 6 bits lie on its members' bits, bits 6 to 8 unused. *)
Theorem C38_refuted : exists root classes compare c k p, wf root classes compare /\ classes c = Some k /\ lc_union k = true /\ packBits root classes compare c = Some p /\
  totalbits root classes c = 9 /\ pk_members p = [0; 0] /\ map member_size (lc_members k) = [3; 2] /\
  ancestor root (lbases classes) c 9 /\ getABaseClassRelativePositionInAClass root classes compare c 9 = Some 0 /\ own_size classes 9 = 6.
Proof.
  exists ex_r, ex_classes, ex_c, 10. eexists. eexists. split; [exact ex_wf|]. split; [reflexivity|]. split; [reflexivity|]. split; [vm_compute; reflexivity|].
  split; [vm_compute; reflexivity|]. split; [reflexivity|]. split; [reflexivity|]. split; [|split; vm_compute; reflexivity].
  exists 9. split; [|constructor]. exists [9], 9. split; [reflexivity|]. split; [left; auto|reflexivity].
Qed.
Print Assumptions C38_refuted.
Example C38_ex : packBits ex_r ex_classes ex_c 9 = Some {| pk_members := [0; 0]; pk_bases := [None]; pk_shared := []; pk_end := 0 |} /\ totalbits ex_r ex_classes 9 = 6.
Proof. vm_compute. auto. Qed.
