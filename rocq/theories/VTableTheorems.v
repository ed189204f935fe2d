(* VTableTheorems.v: the places in virtual tables (C39) and the functions in them (C57). *)
From Coq Require Import String List NArith ZArith Lia Bool Permutation.
From Coq Require Import ZifyBool ZifyNat ZifyN.
From Verif Require Import Base TypeTableModel FamilyModel FamilyProofs FamilyTheorems SourceStreamModel SourceStreamProofs LayoutSpec LayoutTheorems VTableModel VTableSpec VTableProofs.
Import ListNotations.
Open Scope N_scope.
Local Opaque the_fuel.

Lemma Forall2_nth_l {A B} (P : A -> B -> Prop) l1 l2 j a : Forall2 P l1 l2 -> nth_error l1 j = Some a -> exists b, nth_error l2 j = Some b /\ P a b.
Proof. intros HF. revert j. induction HF as [|x y l1 l2 HP HF IH]; intros [|j]; cbn [nth_error]; try discriminate; [|apply IH]. intros E. injection E as <-. exists y. auto. Qed.

Section Theorems.
Variable root : N -> N.
Variable bases : N -> option (list N).
Variable compare : N -> N -> cmp.
Variable funs : N -> list fdecl.
Hypothesis H : hier root bases compare funs.
Notation edge := (edge root bases).
Notation reach := (reach root bases).
Notation ancestor := (ancestor root bases).
Notation virtual := (virtual root bases funs).
Notation originates := (originates root bases funs).
Notation built := (built root bases compare funs).
Notation basic := (basic root bases funs).

Lemma basic_more D D' x v : (forall y, D y <> None -> D' y <> None) -> basic D x v -> basic D' x v.
Proof. intros HM [B1 B2 B3 B4 B5]. constructor; auto. Qed.
Lemma ready_def D c : ready bases D c = true -> bases c <> None.
Proof. unfold ready. destruct (bases c); congruence. Qed.
Lemma ready_anc D c : (forall x v, D x = Some v -> basic D x v) -> ready bases D c = true -> forall y, ancestor c y -> y <> 0 -> D y <> None.
Proof.
  intros HD HR y (z & HE & HRz) NZ. destruct (N.eq_dec z 0) as [->|NZz].
  - exfalso. destruct (reach_ancestor _ _ _ _ HRz) as [<-|(w & (bs & b & EB & _) & _)]; auto. rewrite (h_nouti _ _ _ _ H) in EB. discriminate.
  - assert (D z <> None) as HDz.
    { destruct HE as (bs & b & EB & HB & ER). assert (b <> 0) as NB by (intros ->; apply NZz; rewrite <- ER; apply (root_zero _ _ _ (h_settled _ _ _ _ H)); auto). rewrite (h_root _ _ _ _ H b (h_bases _ _ _ _ H c bs b EB HB NB)) in ER. subst b.
      unfold ready in HR. rewrite EB in HR. pose proof (proj1 (forallb_forall _ _) HR z HB) as HX. cbn beta in HX. replace (z =? 0) with false in HX by lia. cbn [orb] in HX. destruct (D z); congruence. }
    destruct (reach_ancestor _ _ _ _ HRz) as [<-|HA]; auto. destruct (D z) as [v|] eqn:Ez; [|congruence]. apply (b_anc _ _ _ _ _ _ (HD z v Ez)); auto.
Qed.
Lemma calc_ready D c v : calcClass root bases compare funs D c = Some v -> ready bases D c = true.
Proof. unfold calcClass. destruct (ready bases D c); congruence. Qed.
Lemma built_basic D : built D -> forall x v, D x = Some v -> basic D x v.
Proof.
  induction 1 as [|D c v HB IH HN HC]; [discriminate|]. assert (forall y, D y <> None -> upd D c v y <> None) as HM by (intros y HY; unfold upd; destruct (y =? c); congruence).
  intros x w. unfold upd at 1. destruct (x =? c) eqn:E; [|intros Ex; eapply basic_more; eauto]. apply N.eqb_eq in E. subst x. intros Ew. injection Ew as <-. eapply basic_more; eauto.
  pose proof (calc_ready _ _ _ HC) as HR. destruct (class_done root bases compare funs H D IH c (ready_def _ _ HR) (ready_anc _ _ IH HR) HR) as (v' & EV & HV). rewrite HC in EV. injection EV as <-. apply HV.
Qed.
Lemma built_stage D c v : built D -> D c = Some v -> exists D0, built D0 /\ calcClass root bases compare funs D0 c = Some v /\ forall x w, D0 x = Some w -> D x = Some w.
Proof.
  intros HB. revert c v. induction HB as [|D a w HB IH HN HC]; [discriminate|]. assert (forall x u, D x = Some u -> upd D a w x = Some u) as HM by (intros x u Ex; unfold upd; destruct (x =? a) eqn:E; auto; apply N.eqb_eq in E; congruence).
  intros c v. unfold upd at 1. destruct (c =? a) eqn:E.
  - apply N.eqb_eq in E. subst c. intros Ew. injection Ew as <-. exists D. auto.
  - intros Ec. destruct (IH c v Ec) as (D0 & B0 & C0 & M0). exists D0. auto.
Qed.
(* everything known of c, at the time it was done *)
Lemma class_facts D c v : built D -> D c = Some v -> exists D0, built D0 /\ (forall x w, D0 x = Some w -> basic D0 x w) /\ bases c <> None /\ (forall y, ancestor c y -> y <> 0 -> D0 y <> None) /\ done root bases compare funs D0 c v /\
  (forall x, ancestor c x -> owned D0 x = owned D x) /\ (forall x w, D0 x = Some w -> D x = Some w).
Proof.
  intros HB Ec. destruct (built_stage D c v HB Ec) as (D0 & B0 & C0 & M0). pose proof (built_basic D0 B0) as HD. pose proof (calc_ready _ _ _ C0) as HR. pose proof (ready_def _ _ HR) as Hc. pose proof (ready_anc _ _ HD HR) as HA.
  destruct (class_done root bases compare funs H D0 HD c Hc HA HR) as (v' & EV & HV). rewrite C0 in EV. injection EV as <-. exists D0. split; auto. split; auto. split; auto. split; auto. split; auto. split; auto.
  intros x HX. unfold owned. destruct (N.eq_dec x 0) as [->|NZ].
  - assert (forall E w, built E -> E 0 = Some w -> False) as H0. { intros E w HE HW. apply (b_def _ _ _ _ _ _ (built_basic E HE 0 w HW)). apply (h_nouti _ _ _ _ H). }
    destruct (D0 0) eqn:E0; [exfalso; eauto|]. destruct (D 0) eqn:E1; [exfalso; eauto|auto].
  - pose proof (HA x HX NZ) as HN. destruct (D0 x) as [w|] eqn:Ex; [|congruence]. rewrite (M0 x w Ex). auto.
Qed.
Lemma origin_exists D x s : built D -> D x <> None -> virtual x s -> exists o, reach x o /\ originates o s.
Proof.
  intros HB HD HV. destruct (D x) as [v|] eqn:Ex; [|congruence]. destruct (class_facts D x v HB Ex) as (D0 & B0 & HD0 & Hc & HA & _). pose proof (originating_spec root bases compare funs H D0 HD0 x HA s) as HO.
  destruct (findOriginating root bases compare D0 x s) as [[[o|] f] e].
  - destruct HO as (H1 & H2 & _). exists o. split; auto. apply ancestor_reach. auto.
  - destruct HO as (_ & _ & HO). exists x. split; [constructor|]. split; auto.
Qed.
Lemma done_anc D c v : built D -> D c = Some v -> forall x, reach c x -> x <> 0 -> D x <> None.
Proof. intros HB Ec x HR NZ. destruct (reach_ancestor _ _ _ _ HR) as [<-|HA]; [congruence|]. apply (b_anc _ _ _ _ _ _ (built_basic D HB c v Ec)); auto. Qed.
(* where a slot is, and what is in it *)
Lemma offs_lookup_in D0 x : forall l off, lookup (offs D0 off l) x <> None <-> In x l.
Proof. induction l as [|y l IH]; intros off; cbn [offs lookup]; [split; [congruence|intros []]|]. destruct (x =? y) eqn:E; [apply N.eqb_eq in E; subst; split; [intros; left; auto|discriminate]|]. rewrite IH. apply N.eqb_neq in E. split; [intros; right; auto|intros [<-|]; congruence]. Qed.
Lemma offs_fst D0 : forall l off, map fst (offs D0 off l) = l.
Proof. induction l as [|y l IH]; intros off; cbn [offs map fst]; auto. rewrite IH. auto. Qed.
Lemma offs_consecutive D0 : forall l off, consecutive off (map (fun q => (snd q, size D0 (fst q))) (offs D0 off l)) (off + fold_right (fun x t => size D0 x + t) 0 l).
Proof. induction l as [|y l IH]; intros off; cbn [offs map fst snd consecutive fold_right]; [lia|]. split; auto. rewrite N.add_assoc. apply IH. Qed.
Lemma slot_own D c v i e : built D -> D c = Some v -> nth_error (v_owned v) i = Some e -> slot v c (N.of_nat i) = Some e.
Proof.
  intros HB Ec HE. destruct (class_facts D c v HB Ec) as (D0 & B0 & HD0 & Hc & HA & [_ DS (inh & DT & (KL & _) & _) _ _ _ _] & _). unfold slot. rewrite DS, (start_c root bases compare funs H D0 HD0 c HA), DT.
  rewrite nth_error_app2 by lia. rewrite KL. replace (N.to_nat (N.of_nat (List.length (inh0 root bases compare D0 c)) + N.of_nat i) - List.length (inh0 root bases compare D0 c))%nat with i by lia. auto.
Qed.
Lemma slot_inh D0 c v x i e : (forall x w, D0 x = Some w -> basic D0 x w) -> bases c <> None -> (forall y, ancestor c y -> y <> 0 -> D0 y <> None) -> done root bases compare funs D0 c v ->
  ancestor c x -> nth_error (owned D0 x) i = Some e -> exists e', slot v x (N.of_nat i) = Some e' /\ e_orig e' = x /\ e_vidx e' = N.of_nat i /\ snd (e_func e') = snd (e_func e) /\
  ((e' = inherit_entry root bases compare D0 c x e /\ forall d, In d (funs c) -> outcome root bases compare D0 c d <> Some (Some (x, N.of_nat i))) \/ exists d, In d (funs c) /\ outcome root bases compare D0 c d = Some (Some (x, N.of_nat i)) /\ e' = entry c d x (N.of_nat i)).
Proof.
  intros HD0 Hc HA [_ DS (inh & DT & (KL & KP) & HP) _ _ _ _] HX HE.
  assert (nth_error (owned D0 x) (N.to_nat (N.of_nat i)) = Some e) as HE' by (rewrite Nat2N.id; auto). destruct (place_ok root bases compare funs H D0 HD0 c HA x (N.of_nat i) e HX HE') as (st & S1 & S2 & S3).
  destruct (KP _ _ S2) as (e' & K1 & K2 & K3 & K4). destruct (inherit_keeps root bases compare funs H D0 HD0 c HA x e) as (G1 & G2 & G3).
  assert (e_orig e = x /\ e_vidx e = N.of_nat i) as [F1 F2]. { unfold owned in HE. destruct (D0 x) as [w|] eqn:Ex; [|destruct i; discriminate]. destruct (b_owned _ _ _ _ _ _ (HD0 x w Ex) i e HE) as (F1 & F2 & _). auto. }
  exists e'. unfold slot. rewrite DS, S1, DT. rewrite nth_error_app1 by lia. split; auto. split; [congruence|]. split; [congruence|]. split; [congruence|].
  destruct (HP (N.to_nat (st + N.of_nat i))) as [[P1 P2]|(d & e2 & HI & (o & j & st' & X1 & X2 & X3 & X4) & He)].
  - left. split; [congruence|]. intros d HI HO. apply (P2 d (entry c d x (N.of_nat i)) HI). exists x, (N.of_nat i), st. auto.
  - right. exists d. split; auto. rewrite K1 in He. injection He as <-. rewrite X4 in K2, K3. cbn in K2, K3. rewrite G1, F1 in K2. rewrite G2, F2 in K3. subst o j. split; auto.
Qed.
Lemma owned_size D x v : D x = Some v -> size D x = N.of_nat (List.length (v_owned v)).
Proof. intros E. unfold size, owned. rewrite E. auto. Qed.

Lemma table_places D c v : built D -> D c = Some v ->
  NoDup (map fst (v_start v)) /\ (forall x, In x (map fst (v_start v)) <-> reach c x /\ x <> 0) /\
  exact_cover (map (fun q => (snd q, N.of_nat (List.length (owned D (fst q))))) (v_start v)) (N.of_nat (List.length (v_table v))).
Proof.
  intros HB Ec. destruct (class_facts D c v HB Ec) as (D0 & B0 & HD0 & Hc & HA & [_ DS (inh & DT & (KL & _) & _) _ _ _ _] & HOw & HM). rewrite DS. unfold starts. rewrite map_app, offs_fst. cbn [map fst].
  pose proof (dl_in root bases compare funs H D0 HD0 c HA) as HL. pose proof (dl_nodup root bases compare funs H D0 c) as ND.
  assert (c <> 0) as NZc by (intros ->; rewrite (h_nouti _ _ _ _ H) in Hc; congruence). split; [|split].
  - apply NoDup_app_disjoint; auto; [repeat constructor; auto|]. intros x HX [<-|[]]. apply HL in HX. destruct HX as [HX _]. apply (h_acyclic _ _ _ _ H c). auto.
  - intros x. rewrite in_app_iff, HL. cbn. split.
    + intros [[H1 H2]|[<-|[]]]; split; auto; [apply ancestor_reach; auto|constructor].
    + intros [H1 H2]. destruct (reach_ancestor _ _ _ _ H1); [right; left; auto|auto].
  - intros p. assert (consecutive 0 (map (fun q => (snd q, N.of_nat (List.length (owned D (fst q))))) (offs D0 0 (dl root bases D0 c) ++ [(c, N.of_nat (List.length (inh0 root bases compare D0 c)))])) (N.of_nat (List.length (v_table v)))) as HC.
    { rewrite map_app. cbn [map fst snd]. assert (N.of_nat (List.length (inh0 root bases compare D0 c)) = 0 + fold_right (fun x t => size D0 x + t) 0 (dl root bases D0 c)) as EL.
      { unfold inh0. generalize (dl root bases D0 c). intros l0. induction l0 as [|y l IH]; cbn [flat_map fold_right]; auto. rewrite app_length, Nat2N.inj_add, IH. rewrite (chunk_size root bases compare D0 c y). lia. }
      eapply consecutive_app with (m := N.of_nat (List.length (inh0 root bases compare D0 c))).
      - rewrite EL. replace (map _ (offs D0 0 (dl root bases D0 c))) with (map (fun q => (snd q, size D0 (fst q))) (offs D0 0 (dl root bases D0 c))); [apply offs_consecutive|]. apply map_ext_in. intros q HQ. f_equal. unfold size. rewrite HOw; auto.
        apply (proj1 (HL (fst q))). rewrite <- (offs_fst D0 (dl root bases D0 c) 0). apply in_map. auto.
      - cbn [consecutive]. split; auto. unfold owned. rewrite Ec, DT, app_length, KL. lia. }
    rewrite (consecutive_cover _ p _ _ HC). replace (0 <=? p) with true by (symmetry; apply N.leb_le; lia). reflexivity.
Qed.

Lemma table_slots D c v : built D -> D c = Some v -> forall x i e, reach c x -> nth_error (owned D x) i = Some e ->
  exists e', slot v x (N.of_nat i) = Some e' /\ e_orig e' = x /\ e_vidx e' = N.of_nat i /\ snd (e_func e') = snd (e_func e).
Proof.
  intros HB Ec x i e HR HE. destruct (reach_ancestor _ _ _ _ HR) as [<-|HA].
  - unfold owned in HE. rewrite Ec in HE. exists e. split; [apply (slot_own D); auto|]. destruct (b_owned _ _ _ _ _ _ (built_basic D HB c v Ec) i e HE) as (F1 & F2 & _). auto.
  - destruct (class_facts D c v HB Ec) as (D0 & B0 & HD0 & Hc & HAn & HDn & HOw & HM). rewrite <- HOw in HE by auto. destruct (slot_inh D0 c v x i e HD0 Hc HAn HDn HA HE) as (e' & E1 & E2 & E3 & E4 & _). exists e'. auto.
Qed.

Lemma table_owned D x : built D -> D x <> None -> NoDup (map (fun e => snd (e_func e)) (owned D x)) /\
  (forall e, In e (owned D x) -> virtual x (snd (e_func e))) /\ (forall s, originates x s -> exists e, In e (owned D x) /\ snd (e_func e) = s).
Proof.
  intros HB HD. unfold owned. destruct (D x) as [v|] eqn:Ex; [|congruence]. pose proof (built_basic D HB x v Ex) as HX. split; [apply HX|]. split.
  - intros e HE. apply In_nth_error in HE. destruct HE as (i & HE). destruct (b_owned _ _ _ _ _ _ HX i e HE) as (_ & _ & _ & _ & HV & _). auto.
  - intros s HO. destruct (proj1 HO) as (d & HI & ES & _). pose proof (b_funs _ _ _ _ _ _ HX) as HF. apply In_nth_error in HI. destruct HI as (j & HI). destruct (Forall2_nth_l _ _ _ _ _ HF HI) as (f & _ & (_ & _ & _ & HV)). rewrite ES in HV. destruct (HV HO) as (i & e & _ & E2 & E3). exists e. split; auto. eapply nth_error_In; eauto.
Qed.

(* the function symbol a call finds in class x leads to the slot of the origin *)
Lemma symbol_slot D x v s f o : built D -> D x = Some v -> one_origin root bases funs x s o -> find_fun s v = Some f -> fs_virtual f = true /\ fs_orig f = o /\ exists i e, fs_vidx f = Some (N.of_nat i) /\ nth_error (owned D o) i = Some e /\ snd (e_func e) = s.
Proof.
  intros HB Ex (O1 & O2 & O3) HF. destruct (class_facts D x v HB Ex) as (D0 & B0 & HD0 & Hc & HA & HDn & HOw & HM).
  assert (exists d, In d (funs x) /\ fd_sig d = s /\ fun_done root bases compare D0 x (v_owned v) d f) as (d & HI & ES & (F1 & F2 & F3 & F4 & F5 & F6)).
  { unfold find_fun in HF. pose proof (d_funs _ _ _ _ _ _ _ HDn) as F2. clear - F2 HF. induction F2 as [|d f0 ds fs HO F2 IH]; [discriminate|]. cbn [find] in HF. destruct (fs_sig f0 =? s) eqn:E.
    - injection HF as ->. exists d. split; [left; auto|]. split; auto. apply N.eqb_eq in E. destruct HO as (HS & _). congruence.
    - destruct (IH HF) as (d' & HI & HR). exists d'. split; [right|]; auto. }
  assert (virtual x s) as HVx. { destruct (reach_ancestor _ _ _ _ O1) as [<-|HAo]; auto. apply virtual_up; eauto. }
  split; [apply F3; apply (outcome_virtual root bases compare funs H D0 HD0 x HA d HI); rewrite ES; auto|].
  destruct (reach_ancestor _ _ _ _ O1) as [E|HAo].
  - subst o. assert (originates x (fd_sig d)) as HO. { rewrite ES. split; auto. intros y HY HV. destruct (O3 y (ancestor_reach _ _ _ _ HY) HV) as [->|HC]; [apply (h_acyclic _ _ _ _ H x); auto|]. apply (h_acyclic _ _ _ _ H x). eapply ancestor_trans; eauto. }
    pose proof (outcome_new root bases compare funs H D0 HD0 x HA d HI HO) as EO. split; auto. destruct (F4 EO) as (i & e & E1 & E2 & E3). exists (N.to_nat i), e. rewrite N2Nat.id. unfold owned. rewrite Ex. split; auto. split; congruence.
  - destruct (originating_unique root bases compare funs H D0 HD0 x HA s o HAo O2) as (fo & EO & EV). { intros y HY HV. apply O3; auto. apply ancestor_reach. auto. }
    pose proof (override_spec root bases compare funs H D0 HD0 x HA s) as HOv. destruct (findOverride root bases compare D0 x s) as [kf|] eqn:EOv; [|destruct (HOv o HAo O2)].
    destruct (proj2 (vfun_spec root bases funs D0 HD0 o s) fo EV) as (w & d2 & Ew & HI2 & ES2 & (_ & _ & _ & HV2)). rewrite ES2 in HV2.
    assert (originates o s) as HOo. { split; auto. intros y HY HV. destruct (O3 y) as [->|HC]; auto; [eapply reach_trans; [exact O1|apply ancestor_reach; auto]|apply (h_acyclic _ _ _ _ H o); auto|]. apply (h_acyclic _ _ _ _ H y). eapply ancestor_trans; eauto. }
    destruct (HV2 HOo) as (i & e & E1 & E2 & E3). assert (outcome root bases compare D0 x d = Some (Some (o, i))) as EOut by (unfold outcome; rewrite ES, EOv, EO, E1; auto).
    destruct (F5 o i EOut) as [G1 G2]. split; auto. exists (N.to_nat i), e. rewrite N2Nat.id. split; auto. split; auto. rewrite <- HOw by auto. unfold owned. rewrite Ew. auto.
Qed.

(* what is in the slot *)
Lemma dispatch D c v s o : built D -> D c = Some v -> one_origin root bases funs c s o -> forall i e, nth_error (owned D o) i = Some e -> snd (e_func e) = s ->
  exists e' k d, slot v o (N.of_nat i) = Some e' /\ e_func e' = (k, s) /\ e_of e' = k /\ most_specific root bases funs c s k /\ In d (funs k) /\ fd_sig d = s /\ e_pure e' = fd_pure d.
Proof.
  intros HB Ec (O1 & O2 & O3) i e HE ES. destruct (class_facts D c v HB Ec) as (D0 & B0 & HD0 & Hc & HA & HDn & HOw & HM).
  assert (virtual c s -> most_specific root bases funs c s c) as HMc. { intros HV. split; [constructor|]. split; auto. intros x HX _ HC. destruct (reach_ancestor _ _ _ _ HX) as [<-|HX']; [apply (h_acyclic _ _ _ _ H c); auto|]. apply (h_acyclic _ _ _ _ H c). eapply ancestor_trans; eauto. }
  destruct (reach_ancestor _ _ _ _ O1) as [E|HAo].
  - subst o. unfold owned in HE. rewrite Ec in HE. destruct (b_owned _ _ _ _ _ _ (built_basic D HB c v Ec) i e HE) as (F1 & F2 & F3 & F4 & F5 & d & HI & Ed & Ep). exists e, c, d. split; [apply (slot_own D); auto|]. split; [destruct (e_func e); cbn in *; congruence|]. split; auto. split; auto. split; auto. split; congruence.
  - rewrite <- HOw in HE by auto. destruct (slot_inh D0 c v o i e HD0 Hc HA HDn HAo HE) as (e' & E1 & _ & _ & E4 & [[E5 E6]|(d & HI & EO & E5)]).
    + assert (forall d, In d (funs c) -> fd_sig d <> s) as HNo.
      { intros d HI Ed. destruct (originating_unique root bases compare funs H D0 HD0 c HA s o HAo O2) as (fo & EO & EV). { intros y HY HV. apply O3; auto. apply ancestor_reach. auto. }
        destruct (proj2 (vfun_spec root bases funs D0 HD0 o s) fo EV) as (w & d2 & Ew & HI2 & ES2 & (_ & _ & _ & HV2)). rewrite ES2 in HV2.
        assert (originates o s) as HOo. { split; auto. intros y HY HV. destruct (O3 y) as [->|HC]; auto; [eapply reach_trans; [exact O1|apply ancestor_reach; auto]|apply (h_acyclic _ _ _ _ H o); auto|]. apply (h_acyclic _ _ _ _ H y). eapply ancestor_trans; eauto. }
        destruct (HV2 HOo) as (j & e2 & X1 & X2 & X3). pose proof (override_spec root bases compare funs H D0 HD0 c HA s) as HOv. destruct (findOverride root bases compare D0 c s) as [kf|] eqn:EOv; [|destruct (HOv o HAo O2)].
        apply (E6 d HI). unfold outcome. rewrite Ed, EOv, EO, X1. do 3 f_equal. unfold owned in HE. rewrite Ew in HE. pose proof (b_sigs _ _ _ _ _ _ (HD0 o w Ew)) as NDs. apply N2Nat.inj. rewrite Nat2N.id. rewrite NoDup_nth_error in NDs. apply NDs; [rewrite map_length; apply nth_error_Some; congruence|]. rewrite !nth_error_map, X2, HE. cbn. congruence. }
      assert (~ virtual c s) as NVc by (intros (d & HI & Ed & _); destruct (HNo d HI Ed)).
      pose proof (override_spec root bases compare funs H D0 HD0 c HA s) as HOv. unfold inherit_entry in E5. rewrite ES in E5. destruct (findOverride root bases compare D0 c s) as [[k f]|] eqn:EOv; [|destruct (HOv o HAo O2)].
      destruct HOv as (K1 & K2 & K3 & K4). assert (most_specific root bases funs c s k) as HMk. { split; [apply ancestor_reach; auto|]. split; auto. intros x HX HV. destruct (reach_ancestor _ _ _ _ HX) as [<-|HX']; [contradiction|]. apply K4; auto. }
      destruct (proj2 (vfun_spec root bases funs D0 HD0 k s) f K2) as (w & d & Ew & HI & Ed & (F1 & F2 & _)). destruct (k =? o) eqn:EK.
      * apply N.eqb_eq in EK. subst k. cbn [negb andb] in E5. unfold owned in HE. rewrite Ew in HE. destruct (b_owned _ _ _ _ _ _ (HD0 o w Ew) i e HE) as (G1 & G2 & G3 & G4 & G5 & d2 & GI & Gd & Gp). exists e', o, d2. split; auto. rewrite E5. split; [destruct (e_func e); cbn in *; congruence|]. split; auto. split; auto. split; auto. split; congruence.
      * apply N.eqb_neq in EK. assert (subclass root bases compare k o = true) as ESub. { apply (sub_anc root bases compare funs H); [eapply virtual_def; eauto|eapply virtual_def; eauto|]. destruct (O3 k (ancestor_reach _ _ _ _ K1) K3); auto. contradiction. }
        rewrite ESub in E5. cbn [negb andb] in E5. exists e', k, d. split; auto. rewrite E5. cbn. split; [congruence|]. split; auto.
    + assert (fd_sig d = s) as Ed by (rewrite E5 in E4; cbn in E4; congruence). assert (virtual c s) as HVc. { rewrite <- Ed. apply (outcome_virtual root bases compare funs H D0 HD0 c HA d HI). congruence. }
      exists e', c, d. split; auto. rewrite E5. cbn. split; [congruence|]. split; auto.
Qed.

(* errors *)
Lemma sum_zero {A} (g : A -> N) l : fold_right (fun d t => g d + t) 0 l = 0 <-> forall d, In d l -> g d = 0.
Proof. induction l as [|a l IH]; cbn [fold_right]; [split; [intros _ d []|auto]|]. split; [intros HZ d [<-|HI]; [lia|apply IH; auto; lia]|]. intros HZ. rewrite (HZ a) by (left; auto). rewrite N.add_0_l. apply IH. intros d HI. apply HZ. right. auto. Qed.
Lemma conflicts D c v : built D -> D c = Some v -> (v_errs v = 0 <-> forall s, virtual c s -> exists o, one_origin root bases funs c s o).
Proof.
  intros HB Ec. destruct (class_facts D c v HB Ec) as (D0 & B0 & HD0 & Hc & HA & HDn & HOw & HM). rewrite (d_errs _ _ _ _ _ _ _ HDn), sum_zero. split.
  - intros HZ s HV. destruct (origin_exists D c s HB) as (o & HRo & HOo); [congruence|auto|]. exists o. split; auto. split; [apply HOo|]. intros x HX HVx. assert (D x <> None) as HDx by (apply (done_anc D c v HB Ec); auto; eapply virtual_nz; eauto).
    destruct (origin_exists D x s HB HDx HVx) as (o2 & HR2 & HO2). destruct (N.eq_dec o2 o) as [->|NE]; [destruct (reach_ancestor _ _ _ _ HR2); auto|]. exfalso.
    destruct (reach_ancestor _ _ _ _ HRo) as [E|HAo]. { subst o. destruct (reach_ancestor _ _ _ _ (reach_trans _ _ _ _ _ HX HR2)) as [E2|HA2]; [congruence|]. destruct (proj2 HOo o2 HA2 (proj1 HO2)). }
    destruct (reach_ancestor _ _ _ _ (reach_trans _ _ _ _ _ HX HR2)) as [E|HA2]. { subst o2. destruct (proj2 HO2 o HAo (proj1 HOo)). }
    destruct HV as (d & HI & Ed & _). specialize (HZ d HI). unfold errs_of in HZ. rewrite Ed in HZ. pose proof (override_spec root bases compare funs H D0 HD0 c HA s) as HOv. destruct (findOverride root bases compare D0 c s) as [kf|]; [|destruct (HOv o HAo (proj1 HOo))].
    revert HZ. apply (originating_conflict root bases compare funs H D0 HD0 c HA s o2 o); auto.
  - intros HS d HI. unfold errs_of. pose proof (override_spec root bases compare funs H D0 HD0 c HA (fd_sig d)) as HOv. destruct (findOverride root bases compare D0 c (fd_sig d)) as [[k f]|]; auto. destruct HOv as (K1 & _ & K3 & _).
    assert (virtual c (fd_sig d)) as HV by (apply virtual_up; eauto). destruct (HS _ HV) as (o & O1 & O2 & O3). destruct (reach_ancestor _ _ _ _ O1) as [E|HAo].
    + subst o. exfalso. destruct (O3 k (ancestor_reach _ _ _ _ K1) K3) as [->|HC]; [apply (h_acyclic _ _ _ _ H c); auto|]. apply (h_acyclic _ _ _ _ H c). eapply ancestor_trans; eauto.
    + destruct (originating_unique root bases compare funs H D0 HD0 c HA (fd_sig d) o HAo O2) as (fo & EO & _); [|rewrite EO; auto]. intros y HY HVy. apply O3; auto. apply ancestor_reach. auto.
Qed.

(* which functions have a slot *)
Lemma owned_origin D c v s o x i e : built D -> D c = Some v -> one_origin root bases funs c s o -> reach c x -> nth_error (owned D x) i = Some e -> snd (e_func e) = s -> x = o.
Proof.
  intros HB Ec (O1 & O2 & O3) HX HE ES. unfold owned in HE. destruct (D x) as [w|] eqn:Ex; [|destruct i; discriminate]. destruct (class_facts D x w HB Ex) as (D0 & B0 & HD0 & Hc & HA & HDn & HOw & HM).
  destruct (d_own _ _ _ _ _ _ _ HDn i e HE) as (d & HI & HN & Ee). assert (fd_sig d = s) as Ed by (rewrite Ee in ES; auto). unfold is_new in HN. destruct (outcome root bases compare D0 x d) as [[p|]|] eqn:EO; try discriminate.
  assert (virtual x s) as HV. { rewrite <- Ed. apply (outcome_virtual root bases compare funs H D0 HD0 x HA d HI). congruence. }
  destruct (O3 x HX HV) as [|HAo]; auto. exfalso. destruct (originating_unique root bases compare funs H D0 HD0 x HA s o HAo O2) as (fo & EF & EV). { intros y HY HVy. apply O3; auto. eapply reach_trans; [exact HX|apply ancestor_reach; auto]. }
  pose proof (override_spec root bases compare funs H D0 HD0 x HA s) as HOv. destruct (findOverride root bases compare D0 x s) as [kf|] eqn:EOv; [|destruct (HOv o HAo O2)].
  destruct (proj2 (vfun_spec root bases funs D0 HD0 o s) fo EV) as (w2 & d2 & Ew & HI2 & ES2 & (_ & _ & _ & HV2)). rewrite ES2 in HV2.
  assert (originates o s) as HOo. { split; auto. intros y HY HVy. destruct (O3 y) as [->|HC]; auto; [eapply reach_trans; [exact O1|apply ancestor_reach; auto]|apply (h_acyclic _ _ _ _ H o); auto|]. apply (h_acyclic _ _ _ _ H y). eapply ancestor_trans; eauto. }
  destruct (HV2 HOo) as (j & e2 & X1 & _). unfold outcome in EO. rewrite Ed, EOv, EF, X1 in EO. discriminate.
Qed.
Lemma one_origin_originates c s o : one_origin root bases funs c s o -> originates o s.
Proof. intros (O1 & O2 & O3). split; auto. intros y HY HVy. destruct (O3 y) as [->|HC]; auto; [eapply reach_trans; [exact O1|apply ancestor_reach; auto]|apply (h_acyclic _ _ _ _ H o); auto|]. apply (h_acyclic _ _ _ _ H y). eapply ancestor_trans; eauto. Qed.
Lemma lookup_in {A} (m : list (N * A)) x a : NoDup (map fst m) -> In (x, a) m -> lookup m x = Some a.
Proof.
  induction m as [|[y b] m IH]; cbn [map fst lookup]; intros ND HI; [contradiction|]. apply NoDup_cons_iff in ND. destruct ND as [NI ND]. destruct HI as [E|HI]; [injection E as -> ->; rewrite N.eqb_refl; auto|].
  destruct (x =? y) eqn:E; auto. apply N.eqb_eq in E. subst y. exfalso. apply NI. change x with (fst (x, a)). apply in_map. auto.
Qed.
Lemma position_slot D c v p e : built D -> D c = Some v -> nth_error (v_table v) p = Some e -> exists x i e0, reach c x /\ nth_error (owned D x) i = Some e0 /\ slot v x (N.of_nat i) = Some e.
Proof.
  intros HB Ec HE. destruct (table_places D c v HB Ec) as (ND & HIn & HC). specialize (HC (N.of_nat p)). assert (p < List.length (v_table v))%nat as HL by (apply nth_error_Some; congruence). destruct (_ <? _) eqn:E; [|lia].
  unfold covering in HC. destruct (filter _ _) as [|q l] eqn:EF; [discriminate|]. assert (In q (q :: l)) as HQ by (left; auto). rewrite <- EF in HQ. apply filter_In in HQ. destruct HQ as [HQ HB2]. apply in_map_iff in HQ. destruct HQ as ([x st] & <- & HQ). cbn [fst snd] in HB2.
  assert (reach c x) as HR. { apply HIn. change x with (fst (x, st)). apply in_map. auto. } set (i := (p - N.to_nat st)%nat). destruct (nth_error (owned D x) i) as [e0|] eqn:E0.
  - exists x, i, e0. split; auto. split; auto. unfold slot. rewrite (lookup_in _ x st ND HQ). replace (N.to_nat (st + N.of_nat i)) with p by lia. auto.
  - apply nth_error_None in E0. lia.
Qed.
Lemma abstract_ok D c v : built D -> D c = Some v ->
  (forall x s, reach c x -> virtual x s -> (exists o, one_origin root bases funs c s o) /\ exists k, final root bases funs c s k) ->
  (isAbstract v = true <-> exists s k d, final root bases funs c s k /\ In d (funs k) /\ fd_sig d = s /\ fd_pure d = true).
Proof.
  intros HB Ec HU. assert (forall s k1 k2, final root bases funs c s k1 -> most_specific root bases funs c s k2 -> k1 = k2) as HFM.
  { intros s k1 k2 (F1 & F2 & F3) (M1 & M2 & M3). destruct (F3 k2 M1 M2) as [|HC]; auto. destruct (M3 k1 F1 F2 HC). }
  unfold isAbstract. rewrite existsb_exists. split.
  - intros (e & HE & HP). apply In_nth_error in HE. destruct HE as (p & HE). destruct (position_slot D c v p e HB Ec HE) as (x & i & e0 & HR & H0 & HS). set (s := snd (e_func e0)).
    assert (D x <> None) as HDx by (unfold owned in H0; destruct (D x); [discriminate|destruct i; discriminate]). destruct (table_owned D x HB HDx) as (_ & HV & _). specialize (HV e0 (nth_error_In _ _ H0)). fold s in HV.
    destruct (HU x s HR HV) as [(o & HO) (k & HK)]. pose proof (owned_origin D c v s o x i e0 HB Ec HO HR H0 eq_refl) as ->. destruct (dispatch D c v s o HB Ec HO i e0 H0 eq_refl) as (e' & k' & d & D1 & D2 & D3 & D4 & D5 & D6 & D7).
    rewrite HS in D1. injection D1 as <-. pose proof (HFM s k k' HK D4) as <-. exists s, k, d. split; auto. split; auto. split; auto. congruence.
  - intros (s & k & d & HK & HI & Ed & HP). destruct HK as (K1 & K2 & K3). destruct (HU k s K1 K2) as [(o & HO) _]. pose proof (one_origin_originates _ _ _ HO) as HOo. assert (D o <> None) as HDo by (apply (done_anc D c v HB Ec); [apply HO|eapply virtual_nz; eauto; apply HO]).
    destruct (table_owned D o HB HDo) as (_ & _ & HT). destruct (HT s HOo) as (e0 & HE0 & ES). apply In_nth_error in HE0. destruct HE0 as (i & HE0). destruct (dispatch D c v s o HB Ec HO i e0 HE0 ES) as (e' & k' & d' & D1 & D2 & D3 & D4 & D5 & D6 & D7).
    pose proof (HFM s k k' (conj K1 (conj K2 K3)) D4) as <-. pose proof (sig_unique root bases compare funs H k d d' HI D5 ltac:(congruence)) as <-. exists e'. split; [|congruence]. unfold slot in D1. destruct (lookup (v_start v) o); [|discriminate]. eapply nth_error_In; eauto.
Qed.
End Theorems.

(* ---- C39 ---- *)
(* No assertion fails: once the direct bases are done, the table is made. *)
Theorem C39_never_fails : forall root bases compare funs, hier root bases compare funs -> forall D, built root bases compare funs D ->
  forall c, ready bases D c = true -> calcClass root bases compare funs D c <> None.
Proof.
  intros root bases compare funs H D HB c HR. pose proof (built_basic root bases compare funs H D HB) as HD.
  destruct (class_done root bases compare funs H D HD c (ready_def _ _ _ HR) (ready_anc root bases compare funs H D c HD HR) HR) as (v & E & _). congruence.
Qed.
Print Assumptions C39_never_fails.
(* The parts of the table: one for the class and each ancestor, together every position once. *)
Theorem C39_parts : forall root bases compare funs, hier root bases compare funs -> forall D c v, built root bases compare funs D -> D c = Some v ->
  NoDup (map fst (v_start v)) /\ (forall x, In x (map fst (v_start v)) <-> reach root bases c x /\ x <> 0) /\
  exact_cover (map (fun q => (snd q, N.of_nat (List.length (owned D (fst q))))) (v_start v)) (N.of_nat (List.length (v_table v))).
Proof. intros root bases compare funs H D c v. apply table_places. auto. Qed.
Print Assumptions C39_parts.
(* The slot (originating class, index) is for that function. *)
Theorem C39_slots : forall root bases compare funs, hier root bases compare funs -> forall D c v, built root bases compare funs D -> D c = Some v ->
  forall x i e, reach root bases c x -> nth_error (owned D x) i = Some e ->
  exists e', slot v x (N.of_nat i) = Some e' /\ e_orig e' = x /\ e_vidx e' = N.of_nat i /\ snd (e_func e') = snd (e_func e).
Proof. intros root bases compare funs H D c v. apply table_slots. auto. Qed.
Print Assumptions C39_slots.
(* Every first declaration of a virtual function has one slot of its own in its class. *)
Theorem C39_owned : forall root bases compare funs, hier root bases compare funs -> forall D x, built root bases compare funs D -> D x <> None ->
  NoDup (map (fun e => snd (e_func e)) (owned D x)) /\ (forall e, In e (owned D x) -> virtual root bases funs x (snd (e_func e))) /\
  (forall s, originates root bases funs x s -> exists e, In e (owned D x) /\ snd (e_func e) = s).
Proof. intros root bases compare funs H D x. apply table_owned; auto. Qed.
Print Assumptions C39_owned.

(* ---- C57 ---- *)
(* A call of s on an object of class c, made through the declaration in any ancestor-or-self x, finds by the originating class
   and index of x's function the slot of a most specific declaration of s in c. *)
Theorem C57_dispatch_partial : forall root bases compare funs, hier root bases compare funs -> forall D c v x vx s f o, built root bases compare funs D -> D c = Some v -> D x = Some vx ->
  reach root bases c x -> find_fun s vx = Some f -> one_origin root bases funs c s o -> virtual root bases funs x s ->
  fs_virtual f = true /\ fs_orig f = o /\ exists i e k d, fs_vidx f = Some i /\ slot v o i = Some e /\ e_func e = (k, s) /\ e_of e = k /\
    most_specific root bases funs c s k /\ In d (funs k) /\ fd_sig d = s /\ e_pure e = fd_pure d.
Proof.
  intros root bases compare funs H D c v x vx s f o HB Ec Ex HX HF HO HV. assert (one_origin root bases funs x s o) as HOx.
  { destruct HO as (O1 & O2 & O3). split; [destruct (O3 x HX HV) as [->|HA]; [constructor|apply ancestor_reach; auto]|]. split; auto. intros y HY HVy. apply O3; auto. eapply reach_trans; [exact HX|exact HY]. }
  destruct (symbol_slot root bases compare funs H D x vx s f o HB Ex HOx HF) as (F1 & F2 & i & e0 & F3 & F4 & F5). split; auto. split; auto.
  destruct (dispatch root bases compare funs H D c v s o HB Ec HO i e0 F4 F5) as (e & k & d & HR). exists (N.of_nat i), e, k, d. split; auto.
Qed.
Print Assumptions C57_dispatch_partial.
(* If one declaration overrides all others, that is the one called. *)
Theorem C57_final : forall root bases compare funs, hier root bases compare funs -> forall D c v x vx s f o k, built root bases compare funs D -> D c = Some v -> D x = Some vx ->
  reach root bases c x -> find_fun s vx = Some f -> one_origin root bases funs c s o -> virtual root bases funs x s -> final root bases funs c s k ->
  exists i e, fs_vidx f = Some i /\ slot v (fs_orig f) i = Some e /\ e_func e = (k, s).
Proof.
  intros root bases compare funs H D c v x vx s f o k HB Ec Ex HX HF HO HV (K1 & K2 & K3). destruct (C57_dispatch_partial root bases compare funs H D c v x vx s f o HB Ec Ex HX HF HO HV) as (_ & F2 & i & e & k' & d & F3 & F4 & F5 & F6 & (M1 & M2 & M3) & _).
  exists i, e. rewrite F2. split; auto. split; auto. destruct (K3 k' M1 M2) as [->|HC]; auto. destruct (M3 k K1 K2 HC).
Qed.
Print Assumptions C57_final.
(* An error is reported for a class exactly if one of its own virtual functions has several origins. *)
Theorem C57_conflicts : forall root bases compare funs, hier root bases compare funs -> forall D c v, built root bases compare funs D -> D c = Some v ->
  (v_errs v = 0 <-> forall s, virtual root bases funs c s -> exists o, one_origin root bases funs c s o).
Proof. intros root bases compare funs H D c v. apply conflicts. auto. Qed.
Print Assumptions C57_conflicts.
(* A class counts as abstract exactly if a declaration that overrides all others is pure. *)
Theorem C57_abstract : forall root bases compare funs, hier root bases compare funs -> forall D c v, built root bases compare funs D -> D c = Some v ->
  (forall x s, reach root bases c x -> virtual root bases funs x s -> (exists o, one_origin root bases funs c s o) /\ exists k, final root bases funs c s k) ->
  (isAbstract v = true <-> exists s k d, final root bases funs c s k /\ In d (funs k) /\ fd_sig d = s /\ fd_pure d = true).
Proof. intros root bases compare funs H D c v. apply abstract_ok. auto. Qed.
Print Assumptions C57_abstract.

(* hierarchies written as a table, the bases before the class *)
Definition t_bases (t : list (N * (list N * list fdecl))) (x : N) : option (list N) := option_map fst (lookup t x).
Definition t_funs (t : list (N * (list N * list fdecl))) (x : N) : list fdecl := match lookup t x with Some q => snd q | None => [] end.
Definition t_ok (t : list (N * (list N * list fdecl))) : bool :=
  forallb (fun q => (0 <? fst q) && (fst q <? 100) && forallb (fun b => (b <? fst q) && ((b =? 0) || match lookup t b with Some _ => true | None => false end)) (fst (snd q)) &&
    (List.length (nodup N.eq_dec (map fd_sig (snd (snd q)))) =? List.length (snd (snd q)))%nat) t.
Lemma lookup_mem {A} (m : list (N * A)) x a : lookup m x = Some a -> In (x, a) m.
Proof. induction m as [|[y b] m IH]; cbn [lookup]; [discriminate|]. destruct (x =? y) eqn:E; [|intros; right; auto]. apply N.eqb_eq in E. intros Ea. injection Ea as ->. left. congruence. Qed.
Lemma nodup_length (l : list N) : List.length (nodup N.eq_dec l) = List.length l -> NoDup l.
Proof.
  intros HL. assert (forall l : list N, (List.length (nodup N.eq_dec l) <= List.length l)%nat) as HLe. { clear. induction l as [|a l IH]; cbn [nodup List.length]; auto. destruct (in_dec N.eq_dec a l); cbn [List.length]; lia. }
  induction l as [|a l IH]; [constructor|]. cbn [nodup List.length] in HL. destruct (in_dec N.eq_dec a l) as [HI|HI]; [specialize (HLe l); lia|]. cbn [List.length] in HL. constructor; auto.
Qed.
Lemma t_hier t : t_ok t = true -> hier ex_r (t_bases t) ex_c (t_funs t).
Proof.
  intros HT. unfold t_ok in HT. pose proof (proj1 (forallb_forall _ _) HT) as HQ. cbn beta in HQ. clear HT.
  assert (forall x q, lookup t x = Some q -> 0 < x /\ x < 100 /\ (forall b, In b (fst q) -> b < x /\ (b <> 0 -> lookup t b <> None)) /\ NoDup (map fd_sig (snd q))) as HA.
  { intros x q E. specialize (HQ (x, q) (lookup_mem _ _ _ E)). cbn [fst snd] in HQ. apply andb_prop in HQ. destruct HQ as [HQ HQ4]. apply andb_prop in HQ. destruct HQ as [HQ HQ3]. split; [lia|]. split; [lia|]. split.
    - intros b HB. pose proof (proj1 (forallb_forall _ _) HQ3 b HB) as HX. cbn beta in HX. split; [lia|]. destruct (lookup t b); [congruence|]. lia.
    - apply nodup_length. rewrite map_length. apply Nat.eqb_eq. auto. }
  assert (forall x, x < 100 -> ex_r x = x) as HR by (intros x HX; unfold ex_r; destruct (x <? 65536) eqn:E; lia).
  assert (forall x bs, t_bases t x = Some bs -> exists q, lookup t x = Some q /\ fst q = bs) as HB by (intros x bs; unfold t_bases; destruct (lookup t x) as [q|]; [|discriminate]; cbn; intros E; injection E as <-; eauto).
  assert (forall x y, edge ex_r (t_bases t) x y -> y < x) as HE.
  { intros x y (bs & b & EB & HI & <-). destruct (HB x bs EB) as (q & EQ & <-). destruct (HA x q EQ) as (_ & H1 & H2 & _). destruct (H2 b HI) as [H3 _]. rewrite HR by lia. auto. }
  assert (forall x y, reach ex_r (t_bases t) x y -> y <= x) as HRe by (induction 1 as [z|z w v HEd _ IH]; [lia|]; apply HE in HEd; lia).
  split.
  - split.
    + intros x. unfold ex_r. destruct (x <? 65536) eqn:E; lia.
    + intros x. unfold ex_r. destruct (x <? 65536) eqn:E; lia.
    + intros x bs b y EB HI NZ. destruct (HB x bs EB) as (q & EQ & <-). destruct (HA x q EQ) as (_ & H1 & H2 & _). destruct (H2 b HI) as [H3 _]. rewrite (HR b) by lia. unfold ex_c. destruct (b =? ex_r y) eqn:E; [apply N.eqb_eq in E; split; [auto|discriminate]|]. apply N.eqb_neq in E. split; congruence.
  - intros x (y & HEd & HRy). apply HE in HEd. apply HRe in HRy. lia.
  - destruct (t_bases t 0) as [bs|] eqn:E; auto. destruct (HB 0 bs E) as (q & EQ & _). destruct (HA 0 q EQ). lia.
  - intros x HX. destruct (t_bases t x) as [bs|] eqn:E; [|congruence]. destruct (HB x bs E) as (q & EQ & _). destruct (HA x q EQ) as (_ & H1 & _). auto.
  - intros x bs b EB HI NZ. destruct (HB x bs EB) as (q & EQ & <-). destruct (HA x q EQ) as (_ & _ & H2 & _). destruct (H2 b HI) as [_ H3]. unfold t_bases. specialize (H3 NZ). destruct (lookup t b); cbn; congruence.
  - intros x. unfold t_funs. destruct (lookup t x) as [q|] eqn:E; [|constructor]. apply (HA x q E).
  - intros x. unfold t_bases, t_funs. destruct (lookup t x); cbn; congruence.
Qed.
Definition t_add t (D : N -> option vclass) (c : N) : N -> option vclass := match D c with Some _ => D | None => match calcClass ex_r (t_bases t) ex_c (t_funs t) D c with Some v => upd D c v | None => D end end.
Definition t_all t : N -> option vclass := fold_left (t_add t) (map fst t) (fun _ => None).
Lemma t_built t : built ex_r (t_bases t) ex_c (t_funs t) (t_all t).
Proof.
  unfold t_all. assert (forall l D, built ex_r (t_bases t) ex_c (t_funs t) D -> built ex_r (t_bases t) ex_c (t_funs t) (fold_left (t_add t) l D)) as HL; [|apply HL; constructor].
  induction l as [|c l IH]; intros D HB; cbn [fold_left]; auto. apply IH. unfold t_add. destruct (D c) eqn:E; auto. destruct (calcClass _ _ _ _ D c) eqn:EC; auto. constructor; auto.
Qed.
Definition fv s := {| fd_sig := s; fd_virtual := true; fd_pure := false |}.
Definition fpure s := {| fd_sig := s; fd_virtual := true; fd_pure := true |}.
Definition fplain s := {| fd_sig := s; fd_virtual := false; fd_pure := false |}.

(* A diamond: 1 declares f and the pure g; 2 : 1 overrides f (not saying virtual) and declares k; 3 : 1 declares h; 4 : 2 + 3 overrides g. *)
Definition ex_diamond : list (N * (list N * list fdecl)) :=
  [(1, ([0], [fv 10; fpure 11])); (2, ([1], [fplain 10; fv 13])); (3, ([1], [fplain 14; fv 12])); (4, ([2; 3], [fv 11]))].
Definition shown (t : list (N * (list N * list fdecl))) (c : N) : option (list (N * N) * list (N * N) * bool * N) := option_map (fun v => (v_start v, map e_func (v_table v), isAbstract v, v_errs v)) (t_all t c).
Example C39_ex : hier ex_r (t_bases ex_diamond) ex_c (t_funs ex_diamond) /\ built ex_r (t_bases ex_diamond) ex_c (t_funs ex_diamond) (t_all ex_diamond) /\
  shown ex_diamond 4 = Some ([(2, 0); (1, 1); (3, 3); (4, 4)], [(2, 13); (2, 10); (4, 11); (3, 12)], false, 0) /\
  shown ex_diamond 2 = Some ([(1, 0); (2, 2)], [(2, 10); (1, 11); (2, 13)], true, 0).
Proof. split; [apply t_hier; reflexivity|]. split; [apply t_built|]. split; vm_compute; reflexivity. Qed.

(* deciding the terms of the specification for such a table *)
Definition t_reach t c := walk_from ex_r (t_bases t) false c.
Definition t_anc t c := ancestors_of ex_r (t_bases t) false c.
Definition virtualb t x s := existsb (fun d => fd_sig d =? s) (t_funs t x) && existsb (fun y => existsb (fun d => (fd_sig d =? s) && fd_virtual d) (t_funs t y)) (t_reach t x).
Lemma ex_r_small x : ex_r x < 65536.
Proof. unfold ex_r. destruct (x <? 65536) eqn:E; lia. Qed.
Lemma t_reach_ok t c x : c < 65536 -> (In x (t_reach t c) <-> reach ex_r (t_bases t) c x).
Proof. intros HC. pose proof (proj1 (proj2 (C32_walk ex_r (t_bases t) ex_r_small false c)) x) as HW. assert (ex_r c = c) as E by (unfold ex_r; destruct (c <? 65536) eqn:E; lia). unfold t_reach. rewrite HW. rewrite ?E. tauto. Qed.
Lemma t_anc_ok t c x : In x (t_anc t c) <-> ancestor ex_r (t_bases t) c x.
Proof. apply (C32_ancestors ex_r (t_bases t) ex_r_small false c). Qed.
Lemma virtualb_ok t x s : x < 65536 -> (virtualb t x s = true <-> virtual ex_r (t_bases t) (t_funs t) x s).
Proof.
  intros HX. unfold virtualb, virtual. rewrite andb_true_iff, !existsb_exists. split.
  - intros [(d & HI & ES) (y & HY & HE)]. apply existsb_exists in HE. destruct HE as (d' & HI' & E). apply andb_prop in E. destruct E as [E1 E2]. exists d. split; auto. split; [apply N.eqb_eq; auto|]. exists y, d'. split; [apply t_reach_ok; auto|]. split; auto. split; auto. apply N.eqb_eq. auto.
  - intros (d & HI & ES & y & d' & HR & HI' & ES' & EV). split; [exists d; split; auto; apply N.eqb_eq; auto|]. exists y. split; [apply t_reach_ok; auto|]. apply existsb_exists. exists d'. split; auto. rewrite EV, andb_true_r. apply N.eqb_eq. auto.
Qed.
Definition one_originb t c s o := existsb (N.eqb o) (t_reach t c) && virtualb t o s && forallb (fun x => negb (virtualb t x s) || (x =? o) || existsb (N.eqb o) (t_anc t x)) (t_reach t c).
Lemma inb_ok x l : existsb (N.eqb x) l = true <-> In x l.
Proof. rewrite existsb_exists. split; [intros (y & HY & E); apply N.eqb_eq in E; subst; auto|]. intros HI. exists x. split; auto. apply N.eqb_refl. Qed.
Lemma reach_small t c x : c < 65536 -> reach ex_r (t_bases t) c x -> x < 65536.
Proof. intros HC HR. destruct (reach_ancestor _ _ _ _ HR) as [<-|HA]; auto. destruct (reach_last _ _ _ _ HA) as (z & _ & bs & b & _ & _ & <-). apply ex_r_small. Qed.
Lemma one_originb_ok t c s o : c < 65536 -> one_originb t c s o = true -> one_origin ex_r (t_bases t) (t_funs t) c s o.
Proof.
  intros HC HO. unfold one_originb in HO. apply andb_prop in HO. destruct HO as [HO HF]. apply andb_prop in HO. destruct HO as [HR HV]. apply (proj1 (inb_ok _ _)) in HR. apply t_reach_ok in HR; auto.
  split; auto. split; [apply virtualb_ok; auto; eapply reach_small; eauto|]. intros x HX HVx. pose proof (proj1 (forallb_forall _ _) HF x (proj2 (t_reach_ok t c x HC) HX)) as HB. cbn beta in HB. apply virtualb_ok in HVx; [|eapply reach_small; eauto]. rewrite HVx in HB. cbn [negb orb] in HB.
  apply orb_prop in HB. destruct HB as [HB|HB]; [left; apply N.eqb_eq; auto|right; apply t_anc_ok; apply inb_ok; auto].
Qed.
Definition finalb t c s k := existsb (N.eqb k) (t_reach t c) && virtualb t k s && forallb (fun x => negb (virtualb t x s) || (k =? x) || existsb (N.eqb x) (t_anc t k)) (t_reach t c).
Lemma finalb_ok t c s k : c < 65536 -> finalb t c s k = true -> final ex_r (t_bases t) (t_funs t) c s k.
Proof.
  intros HC HO. unfold finalb in HO. apply andb_prop in HO. destruct HO as [HO HF]. apply andb_prop in HO. destruct HO as [HR HV]. apply (proj1 (inb_ok _ _)) in HR. apply t_reach_ok in HR; auto.
  split; auto. split; [apply virtualb_ok; auto; eapply reach_small; eauto|]. intros x HX HVx. pose proof (proj1 (forallb_forall _ _) HF x (proj2 (t_reach_ok t c x HC) HX)) as HB. cbn beta in HB. apply virtualb_ok in HVx; [|eapply reach_small; eauto]. rewrite HVx in HB. cbn [negb orb] in HB.
  apply orb_prop in HB. destruct HB as [HB|HB]; [left; apply N.eqb_eq; auto|right; apply t_anc_ok; apply inb_ok; auto].
Qed.
(* in the diamond, f of class 4 originates in 1 and is overridden by 2's; g is overridden by 4's own; class 2 is abstract *)
Example C57_ex : one_origin ex_r (t_bases ex_diamond) (t_funs ex_diamond) 4 10 1 /\ final ex_r (t_bases ex_diamond) (t_funs ex_diamond) 4 10 2 /\
  one_origin ex_r (t_bases ex_diamond) (t_funs ex_diamond) 4 11 1 /\ final ex_r (t_bases ex_diamond) (t_funs ex_diamond) 4 11 4 /\ final ex_r (t_bases ex_diamond) (t_funs ex_diamond) 2 11 1 /\
  reach ex_r (t_bases ex_diamond) 4 2 /\ virtual ex_r (t_bases ex_diamond) (t_funs ex_diamond) 2 10 /\
  option_map (fun v => map (fun f => (fs_sig f, fs_orig f, fs_vidx f)) (v_funs v)) (t_all ex_diamond 2) = Some [(10, 1, Some 0); (13, 2, Some 0)] /\
  match t_all ex_diamond 4 with Some v => option_map e_func (slot v 1 0) | None => None end = Some (2, 10).
Proof.
  split; [apply one_originb_ok; vm_compute; reflexivity|]. split; [apply finalb_ok; vm_compute; reflexivity|]. split; [apply one_originb_ok; vm_compute; reflexivity|]. split; [apply finalb_ok; vm_compute; reflexivity|]. split; [apply finalb_ok; vm_compute; reflexivity|].
  split; [apply t_reach_ok; vm_compute; auto|]. split; [apply virtualb_ok; vm_compute; reflexivity|]. split; vm_compute; reflexivity.
Qed.

(* Refuted for several origins: 1 and 2 both declare virtual f, 3 : 1 and 4 : 2 override it, 5 : 3 + 4 declares nothing. The slot of
   2's f in the table of 5 still holds 2's own f, not 4's, since the search for an override finds 3's only; no error is reported.
   A call on a 5 through a reference of type 2 or 4 runs 2's f. *)
Definition ex_two_origins : list (N * (list N * list fdecl)) := [(1, ([0], [fv 10])); (2, ([0], [fv 10])); (3, ([1], [fv 10])); (4, ([2], [fv 10])); (5, ([0; 3; 4], []))].
Theorem C57_refuted : exists root bases compare funs D c v o k s e, hier root bases compare funs /\ built root bases compare funs D /\ D c = Some v /\
  reach root bases c k /\ virtual root bases funs k s /\ ancestor root bases k o /\ originates root bases funs o s /\ slot v o 0 = Some e /\ e_orig e = o /\ e_func e = (o, s) /\ v_errs v = 0.
Proof.
  set (t := ex_two_origins). assert (exists v e, t_all t 5 = Some v /\ slot v 2 0 = Some e /\ e_orig e = 2 /\ e_func e = (2, 10) /\ v_errs v = 0) as (v & e & E1 & E2 & E3 & E4 & E5).
  { eexists _, _. split; [vm_compute; reflexivity|]. split; [vm_compute; reflexivity|]. split; [reflexivity|]. split; reflexivity. }
  exists ex_r, (t_bases t), ex_c, (t_funs t), (t_all t), 5, v, 2, 4, 10, e. split; [apply t_hier; reflexivity|]. split; [apply t_built|]. split; auto. split; [apply t_reach_ok; vm_compute; auto 10|]. split; [apply virtualb_ok; vm_compute; reflexivity|]. split; [apply t_anc_ok; vm_compute; auto|].
  split; [|auto]. split; [apply virtualb_ok; vm_compute; reflexivity|]. intros y HY HV. apply t_anc_ok in HY. vm_compute in HY. destruct HY as [<-|[]]. apply virtualb_ok in HV; [|reflexivity]. vm_compute in HV. discriminate.
Qed.
Print Assumptions C57_refuted.
