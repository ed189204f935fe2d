(* ClassExtractTheorems.v: C80 (the part of a base, taken out of a value). *)
From Coq Require Import String List NArith ZArith Lia Bool Permutation.
From Coq Require Import ZifyBool ZifyNat ZifyN.
From Verif Require Import Base TypeTableModel FamilyModel FamilyProofs FamilyTheorems LayoutModel LayoutSpec LayoutTheorems IsAsModel IsAsSpec IsAsProofs IsAsTheorems ClassCastModel ClassCastSpec ClassCastTheorems.
Import ListNotations.
Open Scope N_scope.
Section Extract.
Variable root : N -> N.
Variable classes : N -> option lclass.
Variable compare : N -> N -> cmp.
Hypothesis W : wf root classes compare.
Notation isa := (is_a root classes).
Notation pos := (getABaseClassRelativePositionInAClass root classes compare).

Lemma place_low l : forall off a q, In (a, q) (place classes off l) -> off <= q.
Proof. induction l as [|x l IH]; intros off a q; cbn [place In]; [tauto|]. intros [E|H]; [injection E as -> ->; lia|]. apply IH in H. lia. Qed.
Lemma place_apart l : forall off a q b q', NoDup l -> In (a, q) (place classes off l) -> In (b, q') (place classes off l) -> a <> b ->
  q + getBaseClassBitSize classes a <= q' \/ q' + getBaseClassBitSize classes b <= q.
Proof.
  induction l as [|x l IH]; intros off a q b q' ND; cbn [place In]; [tauto|]. inversion ND as [|? ? NI ND']; subst. intros [E|H] [E'|H'] NE.
  - congruence.
  - injection E as -> ->. apply place_low in H'. auto.
  - injection E' as -> ->. apply place_low in H. auto.
  - eapply IH; eauto.
Qed.
Lemma isa_dec c k a ka : classes c = Some k -> classes a = Some ka -> isa c a \/ ~ isa c a.
Proof.
  intros E EA. destruct (isSubclass root classes compare c a || isSame compare c a) eqn:H; [left; apply (isa_b root classes compare W c k a ka E EA); auto|right].
  intros H'. apply (isa_b root classes compare W c k a ka E EA) in H'. congruence.
Qed.
Lemma pos_isa c k a ka q : classes c = Some k -> classes a = Some ka -> pos c a = Some q -> isa c a.
Proof.
  intros E EA H. destruct (isa_dec c k a ka E EA) as [HA|HN]; auto. exfalso.
  rewrite (C37_only_ancestors_inside root classes compare W c k a E (nz root classes compare W a ka EA)) in H; [discriminate| |].
  - intros EQ. apply HN. left. auto.
  - intros HA. apply HN. right. auto.
Qed.
Lemma parts_apart c k p a ka b kb qa qb j : classes c = Some k -> lc_union k = false -> packBits root classes compare c = Some p ->
  classes a = Some ka -> classes b = Some kb -> a <> b -> pos c a = Some qa -> pos c b = Some qb ->
  qa <= j < qa + getBaseClassBitSize classes a -> qb <= j < qb + getBaseClassBitSize classes b -> False.
Proof.
  intros E EU EP EA EB NE HA HB JA JB.
  destruct (pack_parts root classes compare W c k E p EP) as (o1 & EM & ND & EE & HP). rewrite EU in EM.
  destruct (pack_members_ok (lc_members k) 0 _ _ EM) as (_ & _ & E1).
  assert (getBaseClassBitSize classes c <= o1) as HO.
  { unfold getBaseClassBitSize. rewrite E. destruct (is_element (lc_kind k)); [lia|]. rewrite (mybits_own root classes compare W c k E). unfold own_bits. rewrite EU, E1. lia. }
  set (L := LayoutTheorems.nz (lc_bases k) ++ filter (fun y => negb (mem y (lc_bases k))) (sharedTable root classes compare c)) in *.
  assert (Permutation (sharedTable root classes compare c) L) as HPm by apply (parts_perm root classes compare W c k E ND).
  assert (NoDup L) as NDL by (eapply Permutation_NoDup; [exact HPm|apply (shared_table_nodup root classes compare W)]).
  assert (forall x kx qx, classes x = Some kx -> pos c x = Some qx -> x = c /\ qx = 0 \/ In (x, qx) (place classes o1 L)) as HIn.
  { intros x kx qx EX HX. pose proof (pos_isa c k x kx qx E EX HX) as HI. apply (isa_eq root classes compare W c k x kx E EX) in HI. destruct HI as [<-|HI].
    - left. split; auto. rewrite (C37_own_position root classes compare W c k E) in HX. congruence.
    - right. assert (In x L) as HL. { eapply Permutation_in; [exact HPm|]. apply (shared_table_in root classes compare W c x). rewrite (rc root classes compare W c k E). split; auto. apply (nz root classes compare W x kx EX). }
      rewrite <- (place_fst classes L o1) in HL. apply in_map_iff in HL. destruct HL as ([y q] & EY & HQ). cbn [fst] in EY. subst y. destruct (HP x q HQ) as [HQ1 _]. replace qx with q by congruence. auto. }
  destruct (HIn a ka qa EA HA) as [[-> ->]|IA], (HIn b kb qb EB HB) as [[-> ->]|IB].
  - congruence.
  - apply place_low in IB. lia.
  - apply place_low in IA. lia.
  - destruct (place_apart L o1 a qa b qb NDL IA IB NE); lia.
Qed.
Lemma move_in fm f to t len i : i < len -> move fm f to t len (t + i) = fm (f + i).
Proof. intros H. unfold move. replace ((t <=? t + i) && (t + i <? t + len)) with true by lia. f_equal. lia. Qed.
Lemma move_out fm f to t len j : ~ (t <= j < t + len) -> move fm f to t len j = to j.
Proof. intros H. unfold move. replace ((t <=? j) && (j <? t + len)) with false by lia. auto. Qed.

Variable maxlen cuti tuti : N.
Variable kc kt : lclass.
Variable pt : packing.
Hypothesis EC : classes cuti = Some kc.
Hypothesis ET : classes tuti = Some kt.
Hypothesis EU : lc_union kt = false.
Hypothesis EPT : packBits root classes compare tuti = Some pt.
Variable fm : bits.
Notation step := (extract_step root classes compare maxlen cuti tuti fm).
Definition touched (l : list N) (j : N) : Prop := exists a ka qf qt, In a l /\ classes a = Some ka /\ pos cuti a = Some qf /\ pos tuti a = Some qt /\ 25 + qt <= j < 25 + qt + getBaseClassBitSize classes a.
Lemma step_none l : fold_left step l None = None.
Proof. induction l as [|x l IH]; cbn [fold_left]; auto. Qed.
Lemma fold_ok l : forall to r, NoDup l -> fold_left step l (Some to) = Some r ->
  (forall a ka qf qt i, In a l -> classes a = Some ka -> pos cuti a = Some qf -> pos tuti a = Some qt -> i < getBaseClassBitSize classes a -> r (25 + qt + i) = fm (25 + qf + i)) /\
  (forall j, ~ touched l j -> r j = to j).
Proof.
  induction l as [|x l IH]; intros to r ND; cbn [fold_left].
  - intros H. injection H as <-. split; [intros a ka qf qt i []|auto].
  - inversion ND as [|? ? NI ND']; subst. intros H. destruct (step (Some to) x) as [to1|] eqn:ES; [|rewrite step_none in H; discriminate].
    destruct (IH to1 r ND' H) as [H1 H2].
    assert ((forall kx qf qt i, classes x = Some kx -> pos cuti x = Some qf -> pos tuti x = Some qt -> i < getBaseClassBitSize classes x -> to1 (25 + qt + i) = fm (25 + qf + i)) /\ (forall j, ~ touched [x] j -> to1 j = to j)) as [S1 S2].
    { unfold extract_step in ES. destruct (classes x) as [kx|] eqn:EX.
      - destruct (maxlen <? getBaseClassBitSize classes x); [discriminate|]. destruct (0 <? getBaseClassBitSize classes x) eqn:E0.
        + rewrite (relpos_pos root classes compare W cuti kc x kx EC EX), (relpos_pos root classes compare W tuti kt x kx ET EX) in ES.
          destruct (pos cuti x) as [f|] eqn:Ef; [destruct (pos tuti x) as [t|] eqn:Et|]; injection ES as <-; (split; [|]).
          * intros k' qf qt i _ Eqf Eqt HI. injection Eqf as <-. injection Eqt as <-. apply move_in. auto.
          * intros j HJ. apply move_out. intros HC. apply HJ. exists x, kx, f, t. split; [left; auto|auto].
          * intros; discriminate.
          * auto.
          * intros; discriminate.
          * auto.
        + injection ES as <-. split; [intros; lia|auto].
      - injection ES as <-. split; [intros; discriminate|auto]. }
    split.
    + intros a ka qf qt i [->|HI] EA Ef Et Hi.
      * rewrite H2; [apply (S1 ka); auto|]. intros (b & kb & qf' & qt' & HB & EB & _ & EBt & HJ).
        apply (parts_apart tuti kt pt a ka b kb qt qt' (qt + i) ET EU EPT EA EB); auto; try lia. intros ->. contradiction.
      * apply (H1 a ka); auto.
    + intros j HJ. rewrite H2; [apply S2|]; intros (b & kb & qf' & qt' & HB & HR); apply HJ; exists b, kb, qf', qt'; (split; [|exact HR]).
      * destruct HB as [<-|[]]. left. auto.
      * right. auto.
Qed.
Lemma fold_some l : forall to, (forall a, In a l -> getBaseClassBitSize classes a <= maxlen) -> exists r, fold_left step l (Some to) = Some r.
Proof.
  induction l as [|x l IH]; intros to H; cbn [fold_left]; [eauto|].
  assert (exists to1, step (Some to) x = Some to1) as [to1 ->].
  { unfold extract_step. destruct (classes x); eauto. rewrite (proj2 (N.ltb_ge maxlen _)) by (apply H; left; auto). destruct (0 <? _); eauto. destruct (relpos root classes compare cuti x), (relpos root classes compare tuti x); eauto. }
  apply IH. intros a HA. apply H. right. auto.
Qed.
End Extract.

Lemma own_part root classes compare : wf root classes compare -> forall b kb a ka, classes b = Some kb -> lc_kind kb <> Element -> classes a = Some ka -> is_a root classes b a ->
  getBaseClassBitSize classes a = own_bits ka.
Proof.
  intros W b kb a ka EB NE EA HA. unfold getBaseClassBitSize. rewrite EA, (mybits_own root classes compare W a ka EA).
  destruct (lc_kind ka) eqn:EK; auto. exfalso. pose proof (element_leaf root classes compare W b kb a ka EB EA EK HA). subst b. congruence.
Qed.
Lemma related_b root classes compare : wf root classes compare -> forall x kx b kb, classes x = Some kx -> classes b = Some kb -> related root classes x b ->
  isSubclass root classes compare x b || isSubclass root classes compare b x || isSame compare x b = true.
Proof.
  intros W x kx b kb EX EB [H|H].
  - apply (isa_b root classes compare W x kx b kb EX EB) in H. destruct (isSubclass root classes compare x b); auto. cbn [orb] in *. rewrite H. apply orb_true_r.
  - apply (isa_eq root classes compare W b kb x kx EB EX) in H. destruct H as [->|H].
    + rewrite (same_eq root classes compare W x kx x kx EX EX), N.eqb_refl. apply orb_true_r.
    + apply (sub_anc root classes compare W b kb x kx EB EX) in H. rewrite H. rewrite orb_true_r. auto.
Qed.
Lemma walk_isa root classes compare : wf root classes compare -> forall b kb a ka, classes b = Some kb -> classes a = Some ka -> (In a (walk_from root (lbases classes) false b) <-> is_a root classes b a).
Proof.
  intros W b kb a ka EB EA. destruct (C32_walk root (lbases classes) (wf_small _ _ _ W) false b) as (_ & H & _). rewrite H, (rc root classes compare W b kb EB), (isa_eq root classes compare W b kb a ka EB EA).
  split; [apply reach_ancestor|]. intros [->|HA]; [constructor|apply ancestor_reach; auto].
Qed.

(* ---- C80 ---- *)
(* From a value of class cuti to one of class tuti, the parts of buti and of the classes that it inherits from, as far as both
   have them: each arrives at its place in tuti from its place in cuti, and nothing else changes. *)
Theorem C80_extract : forall root classes compare, wf root classes compare -> forall maxlen cuti kc buti kb tuti kt fm to,
  classes cuti = Some kc -> classes buti = Some kb -> classes tuti = Some kt -> lc_kind kb <> Element -> lc_union kt = false ->
  packBits root classes compare cuti <> None -> packBits root classes compare tuti <> None -> related root classes cuti buti -> related root classes tuti buti ->
  (forall a ka, classes a = Some ka -> is_a root classes buti a -> own_bits ka <= maxlen) ->
  exists r, extractBase root classes compare maxlen cuti buti tuti fm to = Some r /\
  (forall a ka, classes a = Some ka -> is_a root classes buti a -> is_a root classes cuti a -> is_a root classes tuti a ->
     exists qf qt, getABaseClassRelativePositionInAClass root classes compare cuti a = Some qf /\ getABaseClassRelativePositionInAClass root classes compare tuti a = Some qt /\
     forall i, i < own_bits ka -> r (25 + qt + i) = fm (25 + qf + i)) /\
  (forall j, (forall a ka qt, classes a = Some ka -> is_a root classes buti a -> is_a root classes cuti a -> getABaseClassRelativePositionInAClass root classes compare tuti a = Some qt ->
     ~ (25 + qt <= j < 25 + qt + own_bits ka)) -> r j = to j).
Proof.
  intros root classes compare W maxlen cuti kc buti kb tuti kt fm to EC EB ET NE EU HPC HPT RC RT HM.
  destruct (packBits root classes compare tuti) as [pt|] eqn:EPT; [|congruence].
  unfold extractBase. rewrite (related_b root classes compare W cuti kc buti kb EC EB RC), (related_b root classes compare W tuti kt buti kb ET EB RT). cbn [andb].
  destruct (fold_some root classes compare maxlen cuti tuti fm (walk_from root (lbases classes) false buti) to) as [r HR].
  { intros a HA. destruct (classes a) as [ka|] eqn:EA; [|unfold getBaseClassBitSize; rewrite EA; lia].
    apply (walk_isa root classes compare W buti kb a ka EB EA) in HA. rewrite (own_part root classes compare W buti kb a ka EB NE EA HA). apply (HM a ka EA HA). }
  exists r. split; auto. destruct (C32_walk root (lbases classes) (wf_small _ _ _ W) false buti) as (ND & _).
  destruct (fold_ok root classes compare W maxlen cuti tuti kc kt pt EC ET EU EPT fm _ to r ND HR) as [H1 H2]. split.
  - intros a ka EA HB HC HT. destruct (packed_pos root classes compare W cuti kc a ka EC EA HPC HC) as (qf & Ef).
    assert (packBits root classes compare tuti <> None) as HPT' by congruence.
    destruct (packed_pos root classes compare W tuti kt a ka ET EA HPT' HT) as (qt & Et). exists qf, qt. split; auto. split; auto.
    intros i Hi. apply (H1 a ka); auto; [apply (walk_isa root classes compare W buti kb a ka EB EA); auto|]. rewrite (own_part root classes compare W buti kb a ka EB NE EA HB). auto.
  - intros j HJ. apply H2. intros (a & ka & qf & qt & HA & EA & Ef & Et & HI). apply (walk_isa root classes compare W buti kb a ka EB EA) in HA.
    rewrite (own_part root classes compare W buti kb a ka EB NE EA HA) in HI. apply (HJ a ka qt EA HA (pos_isa root classes compare W cuti kc a ka qf EC EA Ef) Et HI).
Qed.
Print Assumptions C80_extract.

Lemma consecutive_in l : forall o e s n, consecutive o l e -> In (s, n) l -> o <= s /\ s + n <= e.
Proof.
  induction l as [|[s' n'] l IH]; intros o e s n; cbn [consecutive In]; [tauto|]. intros [-> HC] [E|HI].
  - injection E as -> ->. apply consecutive_le in HC. lia.
  - destruct (IH _ _ _ _ HC HI). lia.
Qed.
Lemma covering_one p parts : covering p parts = 1%nat -> exists s n, In (s, n) parts /\ s <= p < s + n.
Proof.
  unfold covering. intros H. destruct (filter (fun q => (fst q <=? p) && (p <? fst q + snd q)) parts) as [|[s n] l] eqn:E; [discriminate|]. exists s, n.
  assert (In (s, n) (filter (fun q => (fst q <=? p) && (p <? fst q + snd q)) parts)) as HI by (rewrite E; left; auto). apply filter_In in HI. cbn [fst snd] in HI. split; [apply HI|lia].
Qed.
(* Cast to its base (a quark or transient that is no union): every bit of the new value is one of the object's, the same bit of
   the same class's part. *)
Theorem C80_cast : forall root classes compare, wf root classes compare -> forall maxlen cuti kc buti kb fm to,
  classes cuti = Some kc -> classes buti = Some kb -> lc_kind kb <> Element -> lc_union kb = false ->
  packBits root classes compare cuti <> None -> packBits root classes compare buti <> None -> is_a root classes cuti buti ->
  (forall a ka, classes a = Some ka -> is_a root classes buti a -> own_bits ka <= maxlen) ->
  exists r, extractBase root classes compare maxlen cuti buti buti fm to = Some r /\
  forall j, j < totalbits root classes buti -> exists a ka qf qt i, classes a = Some ka /\ is_a root classes buti a /\ i < own_bits ka /\
    getABaseClassRelativePositionInAClass root classes compare buti a = Some qt /\ j = qt + i /\
    getABaseClassRelativePositionInAClass root classes compare cuti a = Some qf /\ r (25 + j) = fm (25 + qf + i).
Proof.
  intros root classes compare W maxlen cuti kc buti kb fm to EC EB NE EU HPC HPB HI HM. pose proof (isa_refl root classes compare W buti kb EB) as HBB.
  destruct (C80_extract root classes compare W maxlen cuti kc buti kb buti kb fm to EC EB EB NE EU HPC HPB (or_introl HI) (or_introl HBB) HM) as (r & HR & H1 & _).
  exists r. split; auto. intros j HJ. destruct (packBits root classes compare buti) as [p|] eqn:EP; [|congruence].
  assert (exists a ka qt i, classes a = Some ka /\ is_a root classes buti a /\ i < own_bits ka /\ getABaseClassRelativePositionInAClass root classes compare buti a = Some qt /\ j = qt + i) as (a & ka & qt & i & EA & HA & Hi & Et & Ej).
  { destruct (C37_layout root classes compare W buti kb p EB EU EP (sharedTable root classes compare buti)) as (HC & HLen & HPos).
    - apply (shared_table_nodup root classes compare W).
    - intros a. rewrite (shared_table_in root classes compare W buti a), (rc root classes compare W buti kb EB). tauto.
    - specialize (HC j). rewrite (proj2 (N.ltb_lt _ _) HJ) in HC. apply covering_one in HC. destruct HC as (s & n & HIn & Hs). apply in_app_or in HIn. destruct HIn as [HIn|HIn].
      + destruct (pack_parts root classes compare W buti kb EB p EP) as (o1 & EM & _). rewrite EU in EM. destruct (pack_members_ok (lc_members kb) 0 _ _ EM) as (_ & HCo & E1).
        destruct (consecutive_in _ _ _ _ _ HCo HIn) as [_ HE]. exists buti, kb, 0, j. split; auto. split; auto. split; [unfold own_bits; rewrite EU; lia|]. split; [apply (C37_own_position root classes compare W buti kb EB)|lia].
      + apply in_map_iff in HIn. destruct HIn as (a & Ea & HA). injection Ea as Es En. destruct (HPos a HA) as (q & Eq & _). unfold base_position in Es. rewrite Eq in Es. subst q.
        apply (shared_table_in root classes compare W buti a) in HA. rewrite (rc root classes compare W buti kb EB) in HA. destruct HA as [NZ HA]. destruct (ancestor_class root classes compare W buti a HA NZ) as (ka & EA & _).
        exists a, ka, s, (j - s). unfold own_size in En. rewrite EA in En. split; auto. split; [apply (isa_eq root classes compare W buti kb a ka EB EA); auto|]. split; [lia|]. split; auto. lia. }
  destruct (H1 a ka EA HA (isa_tr root classes compare W cuti kc buti kb a ka EC EB EA HI HA) HA) as (qf & qt' & Ef & Et' & HV).
  assert (qt' = qt) by congruence. subst qt'. exists a, ka, qf, qt, i. repeat (split; [assumption|]). rewrite Ej, N.add_assoc. apply HV. auto.
Qed.
Print Assumptions C80_cast.

(* A union (2) with a base (1), and an heir of it (3): in the union its own bits and its base's share their place, in the heir they
   do not, so that the own bits of the union are lost. *)
Definition ux_classes (x : N) : option lclass :=
  if x =? 1 then Some {| lc_kind := Quark; lc_union := false; lc_members := [ex_m 6]; lc_bases := [0] |}
  else if x =? 2 then Some {| lc_kind := Quark; lc_union := true; lc_members := [ex_m 3; ex_m 2]; lc_bases := [1] |}
  else if x =? 3 then Some {| lc_kind := Quark; lc_union := false; lc_members := [ex_m 4]; lc_bases := [2] |}
  else None.
Lemma ux_cases x k : ux_classes x = Some k -> In x [1; 2; 3].
Proof. unfold ux_classes. intros H. repeat match type of H with context [x =? ?n] => destruct (x =? n) eqn:?; [cbn; lia|] end. discriminate. Qed.
Lemma ux_edge_rank x y : edge ex_r (lbases ux_classes) x y -> y < x.
Proof.
  intros (bs & b & EB & HB & <-). unfold lbases in EB. destruct (ux_classes x) as [k|] eqn:EK; [|discriminate]. cbn [option_map] in EB. injection EB as <-. pose proof (ux_cases x k EK) as HX.
  ex_split HX; subst x; vm_compute in EK; injection EK as <-; cbn [lc_bases] in HB; ex_split HB; subst b; vm_compute; reflexivity.
Qed.
Lemma ux_wf : wf ex_r ux_classes ex_c.
Proof.
  split.
  - intros x. unfold ex_r. destruct (x <? 65536) eqn:E; lia.
  - intros x. unfold ex_r. destruct (x <? 65536) eqn:E; lia.
  - reflexivity.
  - intros x k E. pose proof (ux_cases x k E) as HX. ex_split HX; subst x; reflexivity.
  - intros x k y E. unfold ex_c. auto.
  - intros x k b E HI NZ. pose proof (ux_cases x k E) as HX. ex_split HX; subst x; vm_compute in E; injection E as <-; cbn [lc_bases] in HI; ex_split HI; subst b; try congruence; (eexists; split; [reflexivity|discriminate]).
  - intros x k m E HI HE. pose proof (ux_cases x k E) as HX. ex_split HX; subst x; vm_compute in E; injection E as <-; cbn [lc_members] in HI; ex_split HI; subst m; try discriminate; auto.
  - intros x HA. assert (forall x y, reach ex_r (lbases ux_classes) x y -> y <= x) as HR.
    { induction 1 as [z|z w v HE HR IH]; [apply N.le_refl|]. apply ux_edge_rank in HE. lia. }
    destruct HA as (y & HE & HRe). apply ux_edge_rank in HE. apply HR in HRe. lia.
Qed.
Theorem C80_union_refuted : exists root classes compare maxlen cuti buti kb fm to r qf qt, wf root classes compare /\ classes buti = Some kb /\ lc_union kb = true /\
  packBits root classes compare cuti <> None /\ packBits root classes compare buti <> None /\ is_a root classes cuti buti /\
  extractBase root classes compare maxlen cuti buti buti fm to = Some r /\
  getABaseClassRelativePositionInAClass root classes compare cuti buti = Some qf /\ getABaseClassRelativePositionInAClass root classes compare buti buti = Some qt /\
  exists i, i < own_bits kb /\ r (25 + qt + i) <> fm (25 + qf + i).
Proof.
  destruct (extractBase ex_r ux_classes ex_c 64 3 2 2 (fun j => 32 <=? j) (fun _ => false)) as [r|] eqn:E; [|vm_compute in E; discriminate].
  eexists ex_r, ux_classes, ex_c, 64, 3, 2, _, (fun j => 32 <=? j), (fun _ => false), r, 4, 0.
  split; [exact ux_wf|]. split; [reflexivity|]. split; [reflexivity|]. split; [vm_compute; discriminate|]. split; [vm_compute; discriminate|].
  split; [right; exists 2; split; [exists [2], 2; split; [reflexivity|split; [left; auto|reflexivity]]|constructor]|].
  split; [exact E|]. split; [reflexivity|]. split; [reflexivity|]. exists 0. split; [reflexivity|].
  assert (option_map (fun r => r 25) (extractBase ex_r ux_classes ex_c 64 3 2 2 (fun j => 32 <=? j) (fun _ => false)) = Some true) as HV by (vm_compute; reflexivity).
  rewrite E in HV. cbn [option_map] in HV. change (25 + 0 + 0) with 25. injection HV as ->. discriminate.
Qed.
Print Assumptions C80_union_refuted.

(* An 8 cast to its base 7: 4 bits of the 7 itself and 5 of its base 2. *)
Example C80_ex : wf ex_r cc_classes ex_c /\ is_a ex_r cc_classes 8 7 /\ totalbits ex_r cc_classes 7 = 9 /\
  packBits ex_r cc_classes ex_c 8 <> None /\ packBits ex_r cc_classes ex_c 7 <> None /\
  (forall a ka, cc_classes a = Some ka -> is_a ex_r cc_classes 7 a -> own_bits ka <= 64) /\
  map (fun a => getABaseClassRelativePositionInAClass ex_r cc_classes ex_c 8 a) [8; 7; 2] = [Some 0; Some 9; Some 20] /\
  option_map (fun r => map r [24; 25; 26; 27; 28; 29; 30; 31; 32; 33; 34]) (extractBase ex_r cc_classes ex_c 64 8 7 7 (fun j => (34 <=? j) && (j <? 36) || (j =? 46)) (fun _ => true))
    = Some [true; true; true; false; false; false; true; false; false; false; true].
Proof.
  split; [exact cc_wf|]. split; [right; exists 7; split; [exists [7; 1], 7; split; [reflexivity|split; [left; auto|reflexivity]]|constructor]|].
  split; [reflexivity|]. split; [vm_compute; discriminate|]. split; [vm_compute; discriminate|].
  split; [intros a ka EA _; pose proof (cc_cases a ka EA) as HX; ex_split HX; subst a; vm_compute in EA; injection EA as <-; vm_compute; discriminate|].
  split; vm_compute; reflexivity.
Qed.
