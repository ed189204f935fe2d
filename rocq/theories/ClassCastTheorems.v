(* ClassCastTheorems.v: C79 (casts between classes, references to them and Atom). *)
From Coq Require Import String List NArith ZArith Lia Bool.
From Coq Require Import ZifyBool ZifyNat ZifyN.
From Verif Require Import Base TypeTableModel FamilyModel FamilyProofs FamilyTheorems LayoutModel LayoutSpec LayoutTheorems IsAsModel IsAsSpec IsAsProofs IsAsTheorems ClassCastModel ClassCastSpec.
Import ListNotations.
Open Scope N_scope.

Section Casts.
Variable root : N -> N.
Variable classes : N -> option lclass.
Variable compare : N -> N -> cmp.
Hypothesis W : wf root classes compare.
Notation isa := (is_a root classes).
Notation isSub := (isSubclass root classes compare).
Notation same := (isSame compare).

Lemma rc c k : classes c = Some k -> root c = c.
Proof. apply (wf_root _ _ _ W). Qed.
Lemma same_eq c k t kt : classes c = Some k -> classes t = Some kt -> same c t = (c =? t).
Proof. intros E ET. rewrite (same_spec root classes compare W c k t E), (rc t kt ET). auto. Qed.
Lemma sub_anc c k t kt : classes c = Some k -> classes t = Some kt -> (isSub c t = true <-> ancestor root (lbases classes) c t).
Proof. intros E ET. rewrite (sub_class root classes compare W c k t kt E); rewrite (rc t kt ET); tauto. Qed.
Lemma isa_eq c k t kt : classes c = Some k -> classes t = Some kt -> (isa c t <-> c = t \/ ancestor root (lbases classes) c t).
Proof. intros E ET. unfold is_a. rewrite (rc t kt ET). intuition. Qed.
Lemma isa_b c k t kt : classes c = Some k -> classes t = Some kt -> (isSub c t || same c t = true <-> isa c t).
Proof. intros E ET. rewrite orb_comm, (isa_bool root classes compare W c k t kt E); rewrite ?(rc t kt ET); tauto. Qed.
Lemma sub_strict c k t kt : classes c = Some k -> classes t = Some kt -> isSub c t = true -> isSub t c = false.
Proof.
  intros E ET H. destruct (isSub t c) eqn:E2; auto. exfalso. apply (sub_anc c k t kt E ET) in H. apply (sub_anc t kt c k ET E) in E2.
  apply (wf_acyclic _ _ _ W c). eapply ancestor_trans; eauto.
Qed.
Lemma sub_irrefl c k : classes c = Some k -> isSub c c = false.
Proof. intros E. destruct (isSub c c) eqn:E2; auto. exfalso. apply (sub_anc c k c k E E) in E2. apply (wf_acyclic _ _ _ W c E2). Qed.
Lemma kind_some c k : classes c = Some k -> kind_of root classes c = Some (lc_kind k).
Proof. intros E. unfold kind_of. rewrite (rc c k E), E. auto. Qed.
Lemma nz c k : classes c = Some k -> c <> 0.
Proof. apply (class_nz root classes compare W). Qed.
Lemma element_leaf d kd c k : classes d = Some kd -> classes c = Some k -> lc_kind k = Element -> isa d c -> d = c.
Proof.
  intros ED E EK H. apply (isa_eq d kd c k ED E) in H. destruct H as [H|H]; auto. exfalso. apply (element_no_heirs root classes compare W d c k (nz c k E) E EK H).
Qed.
Lemma isa_refl c k : classes c = Some k -> isa c c.
Proof. intros E. left. apply (rc c k E). Qed.
Lemma isa_tr d kd c k t kt : classes d = Some kd -> classes c = Some k -> classes t = Some kt -> isa d c -> isa c t -> isa d t.
Proof.
  intros ED E ET H1 H2. apply (isa_eq d kd t kt ED ET). apply (isa_eq d kd c k ED E) in H1. apply (isa_eq c k t kt E ET) in H2.
  destruct H1 as [->|H1], H2 as [<-|H2]; auto. right. eapply ancestor_trans; eauto.
Qed.
Lemma base_safe to from : base_safeCast to from = true <-> ~ drops_const from to.
Proof. unfold base_safeCast, drops_const. destruct (alt_of from), (alt_of to); cbn; split; intros; intuition congruence. Qed.
Lemma holds_self a c k : classes c = Some k -> holds root classes (TClass a c) c.
Proof. intros E. destruct a; cbn; auto; apply (isa_refl c k E). Qed.
Lemma holds_isa a c k d : classes c = Some k -> holds root classes (TClass a c) d -> isa d c.
Proof. intros E. destruct a; cbn; auto. intros ->. apply (isa_refl c k E). Qed.

Lemma implicit_sound to from : known classes to -> known classes from -> safeCast root classes compare to from = true ->
  ~ drops_const from to /\ forall d kd, classes d = Some kd -> holds root classes from d -> suits root classes to d.
Proof.
  intros KT KF H. unfold safeCast in H. apply andb_true_iff in H. destruct H as [HB H]. split; [apply base_safe; auto|]. intros d kd ED HD.
  destruct to as [ta|ta t], from as [fa|fa f]; cbn [suits known] in *; try discriminate.
  - exact HD.
  - destruct (classes f) as [kf|] eqn:EF; [|congruence]. rewrite (kind_some f kf EF) in H. destruct (lc_kind kf) eqn:EK; try discriminate.
    apply (holds_isa fa f kf d EF) in HD. rewrite (element_leaf d kd f kf ED EF EK HD). exists kf. auto.
  - destruct (classes f) as [kf|] eqn:EF; [|congruence]. destruct (classes t) as [kt|] eqn:ET; [|congruence].
    apply (holds_isa fa f kf d EF) in HD. apply (isa_b f kf t kt EF ET) in H. apply (isa_tr d kd f kf t kt ED EF ET HD H).
Qed.
Lemma implicit_complete to fa f : known classes to -> known classes (TClass fa f) -> ~ drops_const (TClass fa f) to ->
  (forall d kd, classes d = Some kd -> holds root classes (TClass fa f) d -> suits root classes to d) -> safeCast root classes compare to (TClass fa f) = true.
Proof.
  cbn [known]. intros KT KF HC H. unfold safeCast. rewrite (proj2 (base_safe _ _) HC). cbn [andb]. destruct (classes f) as [kf|] eqn:EF; [|congruence].
  specialize (H f kf EF (holds_self fa f kf EF)). destruct to as [ta|ta t]; cbn [suits known] in *.
  - destruct H as (k & E & EK). rewrite (kind_some f kf EF). replace k with kf in EK by congruence. rewrite EK. auto.
  - destruct (classes t) as [kt|] eqn:ET; [|congruence]. apply (isa_b f kf t kt EF ET). auto.
Qed.

Lemma explicit_class ta t fa f : classes t <> None -> classes f <> None ->
  (explicit_accepted root classes compare (TClass ta t) (TClass fa f) = true <->
   ~ drops_const (TClass fa f) (TClass ta t) /\ (isa f t \/ (isAltRefType fa = true /\ isa t f))).
Proof.
  intros KT KF. destruct (classes t) as [kt|] eqn:ET; [|congruence]. destruct (classes f) as [kf|] eqn:EF; [|congruence].
  unfold explicit_accepted. cbn [negb andb]. unfold explicitlyCastable. rewrite (kind_some t kt ET).
  assert ((match lc_kind kt with Element => class_castable root classes compare t (TClass ta t) (TClass fa f) || false | Transient => class_castable root classes compare t (TClass ta t) (TClass fa f) && negb false | Quark => class_castable root classes compare t (TClass ta t) (TClass fa f) end) = class_castable root classes compare t (TClass ta t) (TClass fa f)) as EE.
  { destruct (lc_kind kt); rewrite ?orb_false_r, ?andb_true_r; auto. }
  cbv zeta.
  match goal with |- ?X = true <-> _ => replace X with (class_castable root classes compare t (TClass ta t) (TClass fa f)) by (destruct (lc_kind kt); cbn [negb]; rewrite ?orb_false_r, ?andb_true_r; auto) end.
  unfold class_castable. rewrite andb_true_iff, base_safe.
  destruct (isSub t f) eqn:ES.
  - pose proof (sub_strict t kt f kf ET EF ES) as EN. split; intros [H1 H2]; split; auto.
    + right. split; auto. apply (isa_eq t kt f kf ET EF). right. apply (sub_anc t kt f kf ET EF). auto.
    + destruct H2 as [H2|H2]; [|apply H2]. exfalso. apply (isa_b f kf t kt EF ET) in H2. rewrite EN in H2. cbn [orb] in H2. rewrite (same_eq f kf t kt EF ET) in H2.
      apply N.eqb_eq in H2. subst t. rewrite (sub_irrefl f kf EF) in ES. discriminate.
  - rewrite (isa_b f kf t kt EF ET). split; intros [H1 H2]; split; auto. destruct H2 as [H2|[_ H2]]; auto.
    apply (isa_eq t kt f kf ET EF) in H2. destruct H2 as [->|H2]; [apply (isa_refl f kf EF)|]. apply (sub_anc t kt f kf ET EF) in H2. congruence.
Qed.

(* ---- the evaluator ---- *)
Lemma relpos_pos d k u ku : classes d = Some k -> classes u = Some ku -> relpos root classes compare d u = getABaseClassRelativePositionInAClass root classes compare d u.
Proof. intros E EU. unfold relpos. rewrite (rc d k E), (rc u ku EU). auto. Qed.
Lemma packed_pos d k u ku : classes d = Some k -> classes u = Some ku -> packBits root classes compare d <> None -> isa d u ->
  exists q, getABaseClassRelativePositionInAClass root classes compare d u = Some q.
Proof.
  intros E EU HP HU. destruct (relpos_some root classes compare W d k u E HP (nz u ku EU) HU) as (q & HQ). rewrite (relpos_pos d k u ku E EU) in HQ. eauto.
Qed.

Lemma eval_valid ta t kt a c k d kd p o : classes t = Some kt -> classes c = Some k -> classes d = Some kd -> packBits root classes compare d <> None ->
  points root classes compare p c d o -> isa d c -> related root classes c t -> isa d t ->
  exists q, getABaseClassRelativePositionInAClass root classes compare d t = Some q /\ eval_ref_cast root classes compare (TClass ta t) (TClass a c) p = CastTo (o + Z.of_N q).
Proof.
  intros ET EC ED HP [(qc & HQ & HPos) HE HS] HC HR HT. destruct (packed_pos d kd t kt ED ET HP HT) as (q & HQT). exists q. split; auto.
  unfold eval_ref_cast. cbn [same_object]. rewrite (same_eq c k t kt EC ET). destruct (c =? t) eqn:ECT.
  { apply N.eqb_eq in ECT. subst t. rewrite HPos. do 2 f_equal. congruence. }
  apply N.eqb_neq in ECT.
  assert ((if p_eff p =? 0 then c else p_eff p) = d) as ->.
  { destruct HE as [->|[-> ->]]; auto. rewrite (proj2 (N.eqb_neq d 0) (nz d kd ED)). auto. }
  match goal with |- (if ?b then _ else _) = _ => assert (b = false) as -> end.
  { destruct (p_stg p) as [|s] eqn:Es; [reflexivity|]. destruct (same s c) eqn:Esc; [|reflexivity]. cbn [andb]. apply negb_false_iff.
    unfold value_cast. rewrite (kind_some t kt ET).
    destruct (HS s eq_refl) as [KS HD]. destruct (classes s) as [ks|] eqn:EKs; [|congruence]. rewrite (same_eq s ks c k EKs EC) in Esc. apply N.eqb_eq in Esc.
    subst s. specialize (HD eq_refl). subst d. apply (isa_eq c k t kt EC ET) in HT. destruct HT as [HT|HT]; [congruence|].
    rewrite (proj2 (sub_anc c k t kt EC ET) HT). rewrite orb_true_r. destruct (lc_kind kt) eqn:EK; auto.
    exfalso. apply (element_no_heirs root classes compare W c t kt (nz t kt ET) ET EK HT). }
  destruct (isSub d t) eqn:EDT.
  - rewrite (relpos_pos d kd t kt ED ET), (relpos_pos d kd c k ED EC), HQT, HQ. f_equal. lia.
  - assert (d = t) as ->.
    { apply (isa_eq d kd t kt ED ET) in HT. destruct HT as [HT|HT]; auto. apply (sub_anc d kd t kt ED ET) in HT. congruence. }
    assert (ancestor root (lbases classes) t c) as HA. { apply (isa_eq t kd c k ED EC) in HC. destruct HC as [HC|HC]; auto. congruence. }
    rewrite (proj2 (sub_anc t kd c k ED EC) HA), (relpos_pos t kd c k ED EC), HQ. f_equal. rewrite HPos.
    pose proof (C37_own_position root classes compare W t kd ED) as H0. assert (q = 0) by congruence. lia.
Qed.

Lemma eval_atom ta t kt a p d kd : classes t = Some kt -> classes d = Some kd -> lc_kind kd = Element -> packBits root classes compare d <> None -> lc_kind kt <> Transient ->
  p_stg p = OAtom -> p_stgeff p = d ->
  (isa d t -> exists q, getABaseClassRelativePositionInAClass root classes compare d t = Some q /\ eval_ref_cast root classes compare (TClass ta t) (TAtom a) p = CastTo (p_pos p + 25 + Z.of_N q)) /\
  (~ isa d t -> eval_ref_cast root classes compare (TClass ta t) (TAtom a) p = CastUnevaluable).
Proof.
  intros ET ED EK HP NT Es Ee. unfold eval_ref_cast. cbn [same_object]. rewrite Es, Ee. cbn [andb]. unfold value_cast. rewrite (kind_some t kt ET).
  assert ((match lc_kind kt with Element => same d t | Quark => same d t || isSub d t | Transient => false end) = true <-> isa d t) as HV.
  { destruct (lc_kind kt) eqn:EKt; [|rewrite orb_comm; apply (isa_b d kd t kt ED ET)|congruence] || destruct (lc_kind kt) eqn:EKt; try congruence.
    all: try (rewrite orb_comm; apply (isa_b d kd t kt ED ET)).
    all: rewrite (same_eq d kd t kt ED ET), N.eqb_eq; split; [intros ->; apply (isa_refl t kt ET)|apply (element_leaf d kd t kt ED ET EKt)]. }
  destruct (match lc_kind kt with Element => same d t | Quark => same d t || isSub d t | Transient => false end) eqn:EV; cbv zeta; rewrite ?EV.
  - split; [|intros H; exfalso; apply H, HV; auto]. intros HT. destruct (packed_pos d kd t kt ED ET HP HT) as (q & HQ). exists q. split; auto.
    match goal with |- (if negb ?b then _ else _) = _ => replace b with true by (destruct (lc_kind kt); auto) end. cbn [negb].
    rewrite (relpos_pos d kd t kt ED ET), HQ. f_equal. lia.
  - split; [intros H; apply HV in H; discriminate|]. intros _.
    match goal with |- (if negb ?b then _ else _) = _ => replace b with false by (destruct (lc_kind kt); auto) end. reflexivity.
Qed.

Lemma eval_refuses ta t kt a c k p : classes t = Some kt -> classes c = Some k -> p_stg p = OClass c -> ~ isa c t ->
  eval_ref_cast root classes compare (TClass ta t) (TClass a c) p = CastUnevaluable.
Proof.
  intros ET EC Es HN. unfold eval_ref_cast. cbn [same_object].
  assert (same c t || isSub c t = false) as HF.
  { destruct (same c t || isSub c t) eqn:E; auto. exfalso. apply HN. rewrite orb_comm in E. apply (isa_b c k t kt EC ET). exact E. }
  apply orb_false_iff in HF. destruct HF as [HF HG]. rewrite HF, Es, (same_eq c k c k EC EC), N.eqb_refl. cbn [andb].
  unfold value_cast. rewrite (kind_some t kt ET), HF, HG. destruct (lc_kind kt); reflexivity.
Qed.

(* ---- the generated code ---- *)
Variable reg : N -> N.
Hypothesis DN : distinct_numbers classes reg.
Lemma guard_true v kv t kt : classes v = Some kv -> classes t = Some kt -> packBits root classes compare t <> None -> gen_guard root classes compare reg v t = true.
Proof.
  intros EV ET HP. unfold gen_guard. destruct (isSub t v) eqn:ES; auto. apply (sub_anc t kt v kv ET EV) in ES.
  destruct (C77_getrelpos root classes compare reg W DN t kt v kv ET EV HP) as [H _].
  destruct H as (q & _ & H); [apply (isa_eq t kt v kv ET EV); auto|]. unfold IsMethod. rewrite H. lia.
Qed.
Lemma gen_ok v kv t kt d kd g o : classes v = Some kv -> classes t = Some kt -> classes d = Some kd -> packBits root classes compare t <> None -> packBits root classes compare d <> None ->
  refers root classes compare g v d o -> isa d v -> related root classes v t ->
  (isa d t -> exists q, getABaseClassRelativePositionInAClass root classes compare d t = Some q /\ gen_ref_cast root classes compare reg v t g = GenTo (o + Z.of_N q)) /\
  (~ isa d t -> gen_ref_cast root classes compare reg v t g = PositionFails).
Proof.
  intros EV ET ED HPT HPD [HE (qv & HQV & HPos & HTo)] HV HR. unfold gen_ref_cast. rewrite (guard_true v kv t kt EV ET HPT). cbn [negb]. rewrite HE.
  destruct (C77_getrelpos root classes compare reg W DN d kd t kt ED ET HPD) as [H1 H2].
  destruct (isSub t v || isSub v t) eqn:ES.
  - split.
    + intros HT. destruct (H1 HT) as (q & HQ & HG). exists q. split; auto. rewrite HG. rewrite (proj2 (Z.ltb_ge _ _)) by lia. f_equal. lia.
    + intros HN. specialize (H2 HN). rewrite (proj2 (Z.ltb_lt _ _)) by lia. auto.
  - apply orb_false_iff in ES. destruct ES as [E1 E2].
    assert (v = t) as ->.
    { destruct HR as [HR|HR]; [apply (isa_eq v kv t kt EV ET) in HR|apply (isa_eq t kt v kv ET EV) in HR]; destruct HR as [HR|HR]; auto.
      - apply (sub_anc v kv t kt EV ET) in HR. congruence.
      - apply (sub_anc t kt v kv ET EV) in HR. congruence. }
    split; [|intros HN; contradiction]. intros _. exists qv. split; auto. congruence.
Qed.
Lemma gen_value v kv t kt start : classes v = Some kv -> classes t = Some kt -> packBits root classes compare v <> None -> packBits root classes compare t <> None -> isa v t ->
  exists q, getABaseClassRelativePositionInAClass root classes compare v t = Some q /\ gen_value_cast root classes compare reg v t start = GenTo (start + Z.of_N q).
Proof.
  intros EV ET HPV HPT HT. destruct (packed_pos v kv t kt EV ET HPV HT) as (q & HQ). exists q. split; auto. unfold gen_value_cast. rewrite (guard_true v kv t kt EV ET HPT). cbn [negb].
  apply (isa_eq v kv t kt EV ET) in HT. destruct HT as [->|HT].
  - rewrite (sub_irrefl t kt ET). rewrite (C37_own_position root classes compare W t kt ET) in HQ. injection HQ as <-. f_equal. lia.
  - apply (sub_anc v kv t kt EV ET) in HT. rewrite (sub_strict v kv t kt EV ET HT), HT, (relpos_pos v kv t kt EV ET), HQ. f_equal. lia.
Qed.
End Casts.

(* ---- C79: what is accepted ---- *)
(* An implicit cast is accepted only if it takes no protection away, and if every object that the expression may stand for can be
   seen as the new type. *)
Theorem C79_implicit_sound : forall root classes compare, wf root classes compare -> forall to from, known classes to -> known classes from ->
  safeCast root classes compare to from = true ->
  ~ drops_const from to /\ forall d kd, classes d = Some kd -> holds root classes from d -> suits root classes to d.
Proof. exact implicit_sound. Qed.
Print Assumptions C79_implicit_sound.
(* From a class, or a reference to one, every such cast is accepted. *)
Theorem C79_implicit_complete : forall root classes compare, wf root classes compare -> forall to fa f, known classes to -> known classes (TClass fa f) ->
  ~ drops_const (TClass fa f) to -> (forall d kd, classes d = Some kd -> holds root classes (TClass fa f) d -> suits root classes to d) ->
  safeCast root classes compare to (TClass fa f) = true.
Proof. exact implicit_complete. Qed.
Print Assumptions C79_implicit_complete.
(* From an atom to a class none is. *)
Theorem C79_implicit_atom : forall root classes compare ta t fa, safeCast root classes compare (TClass ta t) (TAtom fa) = false.
Proof. intros. unfold safeCast. apply andb_false_r. Qed.
Print Assumptions C79_implicit_atom.

(* An explicit cast from class to class is accepted exactly upwards, and downwards from references; only if it takes no
   protection away. *)
Theorem C79_explicit_class : forall root classes compare, wf root classes compare -> forall ta t fa f, classes t <> None -> classes f <> None ->
  (explicit_accepted root classes compare (TClass ta t) (TClass fa f) = true <->
   ~ drops_const (TClass fa f) (TClass ta t) /\ (is_a root classes f t \/ (isAltRefType fa = true /\ is_a root classes t f))).
Proof. exact explicit_class. Qed.
Print Assumptions C79_explicit_class.
(* So it succeeds for some object. *)
Theorem C79_explicit_possible : forall root classes compare, wf root classes compare -> forall ta t fa f, classes t <> None -> classes f <> None ->
  explicit_accepted root classes compare (TClass ta t) (TClass fa f) = true -> exists d, holds root classes (TClass fa f) d /\ suits root classes (TClass ta t) d.
Proof.
  intros root classes compare W ta t fa f KT KF H. apply (explicit_class root classes compare W ta t fa f KT KF) in H. destruct H as [_ H].
  destruct (classes t) as [kt|] eqn:ET; [|congruence]. destruct (classes f) as [kf|] eqn:EF; [|congruence]. destruct H as [H|[HA H]].
  - exists f. split; [apply (holds_self root classes compare W fa f kf EF)|exact H].
  - exists t. split; [|apply (isa_refl root classes compare W t kt ET)]. destruct fa; try discriminate; exact H.
Qed.
Print Assumptions C79_explicit_possible.
(* What is refused though some object would do: classes side by side with a common heir, and downwards from the variable of "as". *)
Theorem C79_explicit_refused_partial : forall root classes compare, wf root classes compare -> forall ta t fa f d kd, classes t <> None -> classes f <> None -> classes d = Some kd ->
  holds root classes (TClass fa f) d -> suits root classes (TClass ta t) d -> ~ drops_const (TClass fa f) (TClass ta t) -> fa <> AsRef -> related root classes f t ->
  explicit_accepted root classes compare (TClass ta t) (TClass fa f) = true.
Proof.
  intros root classes compare W ta t fa f d kd KT KF ED HH HS HC HA HR. apply (explicit_class root classes compare W ta t fa f KT KF). split; auto.
  destruct HR as [HR|HR]; auto. destruct fa; cbn [holds suits] in *; [left; subst d; auto|right; auto|right; auto|congruence].
Qed.
Print Assumptions C79_explicit_refused_partial.
(* Atoms: to a class exactly if it is no transient; from a class exactly if it is an element or a reference to a quark. *)
Theorem C79_explicit_to_atom : forall root classes compare, wf root classes compare -> forall ta fa f k, classes f = Some k ->
  (explicit_accepted root classes compare (TAtom ta) (TClass fa f) = true <->
   ~ drops_const (TClass fa f) (TAtom ta) /\ (lc_kind k = Element \/ (lc_kind k = Quark /\ isAltRefType fa = true))).
Proof.
  intros root classes compare W ta fa f k E. unfold explicit_accepted. rewrite !andb_true_iff. unfold explicitlyCastable. rewrite andb_true_iff, base_safe, (kind_some root classes compare W f k E).
  destruct (lc_kind k) eqn:EK; cbn [negb andb]; rewrite ?andb_false_r; cbn [negb]; intuition (try congruence); destruct fa; cbn in *; try discriminate; rewrite ?andb_false_r in *; auto; try discriminate.
Qed.
Print Assumptions C79_explicit_to_atom.
Theorem C79_explicit_from_atom : forall root classes compare, wf root classes compare -> forall ta t fa k, classes t = Some k ->
  (explicit_accepted root classes compare (TClass ta t) (TAtom fa) = true <->
   lc_kind k = Element \/ (lc_kind k = Quark /\ ~ drops_const (TAtom fa) (TClass ta t))).
Proof.
  intros root classes compare W ta t fa k E. unfold explicit_accepted. rewrite !andb_true_iff. unfold explicitlyCastable, class_castable. rewrite (kind_some root classes compare W t k E).
  destruct (lc_kind k) eqn:EK; cbn [negb andb]; rewrite ?andb_true_r, ?orb_true_r, ?base_safe; intuition (try congruence); try discriminate.
Qed.
Print Assumptions C79_explicit_from_atom.
(* Protection can be lost: an Atom that must not be changed may be cast to a reference to an element that may. *)
Theorem C79_const_refuted : exists root classes compare to from, wf root classes compare /\ known classes to /\ known classes from /\
  drops_const from to /\ explicit_accepted root classes compare to from = true.
Proof.
  exists ex_r, isas_classes, ex_c, (TClass Ref 6), (TAtom ConstRef). split; [exact isas_wf|]. split; [discriminate|]. split; [exact I|]. split; [split; reflexivity|]. reflexivity.
Qed.
Print Assumptions C79_const_refuted.

(* ---- C79: what the evaluator does ---- *)
(* A valid cast of a reference gives a pointer to the part of the object that is of the new class. *)
Theorem C79_evaluator_partial : forall root classes compare, wf root classes compare -> forall ta t kt a c k d kd p o, classes t = Some kt -> classes c = Some k -> classes d = Some kd ->
  packBits root classes compare d <> None -> points root classes compare p c d o -> is_a root classes d c -> related root classes c t -> is_a root classes d t ->
  exists q, getABaseClassRelativePositionInAClass root classes compare d t = Some q /\ eval_ref_cast root classes compare (TClass ta t) (TClass a c) p = CastTo (o + Z.of_N q).
Proof. exact eval_valid. Qed.
Print Assumptions C79_evaluator_partial.
(* The evaluator refuses a cast to a class that an object is not of, where the storage has the class of the operand. *)
Theorem C79_evaluator_refuses : forall root classes compare, wf root classes compare -> forall ta t kt a c k p, classes t = Some kt -> classes c = Some k ->
  p_stg p = OClass c -> ~ is_a root classes c t -> eval_ref_cast root classes compare (TClass ta t) (TClass a c) p = CastUnevaluable.
Proof. exact eval_refuses. Qed.
Print Assumptions C79_evaluator_refuses.
(* An atom in its storage: its state begins 25 bits after it; and the evaluator stops if the element in it is none of the class *)
Theorem C79_evaluator_atom : forall root classes compare, wf root classes compare -> forall ta t kt a p d kd, classes t = Some kt -> classes d = Some kd -> lc_kind kd = Element ->
  packBits root classes compare d <> None -> lc_kind kt <> Transient -> p_stg p = OAtom -> p_stgeff p = d ->
  (is_a root classes d t -> exists q, getABaseClassRelativePositionInAClass root classes compare d t = Some q /\ eval_ref_cast root classes compare (TClass ta t) (TAtom a) p = CastTo (p_pos p + 25 + Z.of_N q)) /\
  (~ is_a root classes d t -> eval_ref_cast root classes compare (TClass ta t) (TAtom a) p = CastUnevaluable).
Proof. exact eval_atom. Qed.
Print Assumptions C79_evaluator_atom.

(* Two elements (6, 9) with a common base (1). *)
Definition cc_classes (x : N) : option lclass :=
  if x =? 9 then Some {| lc_kind := Element; lc_union := false; lc_members := [ex_m 11]; lc_bases := [1] |} else isas_classes x.
Lemma cc_cases x k : cc_classes x = Some k -> In x [1; 2; 3; 6; 7; 8; 9].
Proof. unfold cc_classes. destruct (x =? 9) eqn:E; [cbn; lia|]. intros H. apply isas_cases in H. cbn in *. tauto. Qed.
Lemma cc_edge_rank x y : edge ex_r (lbases cc_classes) x y -> isas_rank y < isas_rank x.
Proof.
  intros (bs & b & EB & HB & <-). unfold lbases in EB. destruct (cc_classes x) as [k|] eqn:EK; [|discriminate]. cbn [option_map] in EB. injection EB as <-. pose proof (cc_cases x k EK) as HX.
  ex_split HX; subst x; vm_compute in EK; injection EK as <-; cbn [lc_bases] in HB; ex_split HB; subst b; vm_compute; reflexivity.
Qed.
Lemma cc_wf : wf ex_r cc_classes ex_c.
Proof.
  split.
  - intros x. unfold ex_r. destruct (x <? 65536) eqn:E; lia.
  - intros x. unfold ex_r. destruct (x <? 65536) eqn:E; lia.
  - reflexivity.
  - intros x k E. pose proof (cc_cases x k E) as HX. ex_split HX; subst x; reflexivity.
  - intros x k y E. unfold ex_c. auto.
  - intros x k b E HI NZ. pose proof (cc_cases x k E) as HX. ex_split HX; subst x; vm_compute in E; injection E as <-; cbn [lc_bases] in HI; ex_split HI; subst b; try congruence; (eexists; split; [reflexivity|discriminate]).
  - intros x k m E HI HE. pose proof (cc_cases x k E) as HX. ex_split HX; subst x; vm_compute in E; injection E as <-; cbn [lc_members] in HI; ex_split HI; subst m; try discriminate; auto.
  - intros x HA. assert (forall x y, reach ex_r (lbases cc_classes) x y -> isas_rank y <= isas_rank x) as HR.
    { induction 1 as [z|z w v HE HR IH]; [apply N.le_refl|]. apply cc_edge_rank in HE. eapply N.le_trans; [exact IH|]. apply N.lt_le_incl. exact HE. }
    destruct HA as (y & HE & HRe). apply cc_edge_rank in HE. apply HR in HRe. eapply N.lt_irrefl. eapply N.lt_le_trans; [exact HE|exact HRe].
Qed.
Lemma cc_not_a : ~ is_a ex_r cc_classes 9 6.
Proof.
  intros H. assert (E9 : exists k, cc_classes 9 = Some k) by (eexists; reflexivity). assert (E6 : exists k, cc_classes 6 = Some k /\ lc_kind k = Element) by (eexists; split; reflexivity).
  destruct E9 as [k9 E9]. destruct E6 as (k6 & E6 & EK). pose proof (element_leaf ex_r cc_classes ex_c cc_wf 9 k9 6 k6 E9 E6 EK H). discriminate.
Qed.
(* the 1 in a 9 that begins at position 0 *)
Definition cc_p : pointer := {| p_eff := 9; p_pos := 11; p_stg := OClass 9; p_stgeff := 0 |}.
Lemma cc_points : points ex_r cc_classes ex_c cc_p 1 9 0.
Proof.
  split.
  - exists 11. split; [vm_compute; reflexivity|reflexivity].
  - left. reflexivity.
  - intros s E. injection E as <-. split; [discriminate|discriminate].
Qed.
Lemma cc_isa : is_a ex_r cc_classes 9 1.
Proof. right. exists 1. split; [|constructor]. exists [1], 1. split; [reflexivity|]. split; [left; auto|reflexivity]. Qed.
Lemma cc_isa6 : is_a ex_r cc_classes 6 1.
Proof. right. exists 1. split; [|constructor]. exists [1; 3], 1. split; [reflexivity|]. split; [left; auto|reflexivity]. Qed.
(* A wrong cast downwards goes unnoticed by the evaluator: it gives a reference to a 6 where there is a 9. *)
Theorem C79_evaluator_refuted : exists root classes compare p t c d o pos, wf root classes compare /\ points root classes compare p c d o /\ is_a root classes d c /\ related root classes c t /\
  explicit_accepted root classes compare (TClass Ref t) (TClass Ref c) = true /\ ~ is_a root classes d t /\ eval_ref_cast root classes compare (TClass Ref t) (TClass Ref c) p = CastTo pos.
Proof.
  exists ex_r, cc_classes, ex_c, cc_p, 6, 1, 9, 0%Z, 7%Z. split; [exact cc_wf|]. split; [exact cc_points|]. split; [exact cc_isa|]. split; [right; exact cc_isa6|].
  split; [vm_compute; reflexivity|]. split; [exact cc_not_a|]. vm_compute. reflexivity.
Qed.
Print Assumptions C79_evaluator_refuted.
(* So does a wrong cast of a reference to an atom that is a variable of another element. *)
Theorem C79_evaluator_atom_refuted : exists root classes compare p t d pos, wf root classes compare /\ p_stg p = OClass d /\ p_stgeff p = d /\ ~ is_a root classes d t /\
  explicit_accepted root classes compare (TClass Ref t) (TAtom Ref) = true /\ eval_ref_cast root classes compare (TClass Ref t) (TAtom Ref) p = CastTo pos.
Proof.
  exists ex_r, cc_classes, ex_c, {| p_eff := 9; p_pos := 25; p_stg := OClass 9; p_stgeff := 9 |}, 6, 9, 25%Z. split; [exact cc_wf|]. split; [reflexivity|]. split; [reflexivity|]. split; [exact cc_not_a|].
  split; [reflexivity|]. vm_compute. reflexivity.
Qed.
Print Assumptions C79_evaluator_atom_refuted.

(* ---- C79: what the generated code does ---- *)
(* A cast of a reference finds the part that is of the new class, and fails where the position is looked up if there is none. *)
Theorem C79_generated : forall root classes compare, wf root classes compare -> forall reg, distinct_numbers classes reg -> forall v kv t kt d kd g o, classes v = Some kv -> classes t = Some kt -> classes d = Some kd ->
  packBits root classes compare t <> None -> packBits root classes compare d <> None -> refers root classes compare g v d o -> is_a root classes d v -> related root classes v t ->
  (is_a root classes d t -> exists q, getABaseClassRelativePositionInAClass root classes compare d t = Some q /\ gen_ref_cast root classes compare reg v t g = GenTo (o + Z.of_N q)) /\
  (~ is_a root classes d t -> gen_ref_cast root classes compare reg v t g = PositionFails).
Proof. exact gen_ok. Qed.
Print Assumptions C79_generated.
(* The test written before a cast downwards does not look at the object: it never fails. *)
Theorem C79_guard_refuted : forall root classes compare, wf root classes compare -> forall reg, distinct_numbers classes reg -> forall v kv t kt, classes v = Some kv -> classes t = Some kt ->
  packBits root classes compare t <> None -> gen_guard root classes compare reg v t = true.
Proof. exact guard_true. Qed.
Print Assumptions C79_guard_refuted.
(* A variable that is no reference, upwards. *)
Theorem C79_generated_value : forall root classes compare, wf root classes compare -> forall reg, distinct_numbers classes reg -> forall v kv t kt start, classes v = Some kv -> classes t = Some kt ->
  packBits root classes compare v <> None -> packBits root classes compare t <> None -> is_a root classes v t ->
  exists q, getABaseClassRelativePositionInAClass root classes compare v t = Some q /\ gen_value_cast root classes compare reg v t start = GenTo (start + Z.of_N q).
Proof. exact gen_value. Qed.
Print Assumptions C79_generated_value.
(* An atom, to an element: the test passes exactly if that element is in it. *)
Theorem C79_generated_atom : forall root classes compare, wf root classes compare -> forall t kt e ke, classes t = Some kt -> classes e = Some ke -> lc_kind kt = Element ->
  (gen_atom_guard t e = true <-> is_a root classes e t).
Proof.
  intros root classes compare W t kt e ke ET EE EK. unfold gen_atom_guard, IsMethodAtom. rewrite N.eqb_eq. split; [intros ->; apply (isa_refl root classes compare W e ke EE)|].
  intros H. symmetry. apply (element_leaf root classes compare W e ke t kt EE ET EK H).
Qed.
Print Assumptions C79_generated_atom.

Example C79_ex :
  safeCast ex_r cc_classes ex_c (TClass Ref 1) (TClass NotRef 6) = true /\ safeCast ex_r cc_classes ex_c (TClass Ref 6) (TClass Ref 1) = false /\
  safeCast ex_r cc_classes ex_c (TClass Ref 1) (TClass ConstRef 6) = false /\ safeCast ex_r cc_classes ex_c (TAtom Ref) (TClass Ref 9) = true /\
  explicit_accepted ex_r cc_classes ex_c (TClass Ref 6) (TClass Ref 1) = true /\ explicit_accepted ex_r cc_classes ex_c (TClass Ref 6) (TClass NotRef 1) = false /\
  explicit_accepted ex_r cc_classes ex_c (TClass Ref 3) (TClass Ref 1) = false /\
  distinct_numbers cc_classes (fun x => x) /\ packBits ex_r cc_classes ex_c 6 <> None /\ packBits ex_r cc_classes ex_c 9 <> None /\
  refers ex_r cc_classes ex_c {| g_eff := 9; g_pos := 36; g_toeff := 11 |} 1 9 25 /\
  gen_ref_cast ex_r cc_classes ex_c (fun x => x) 1 6 {| g_eff := 9; g_pos := 36; g_toeff := 11 |} = PositionFails /\
  gen_ref_cast ex_r cc_classes ex_c (fun x => x) 1 9 {| g_eff := 9; g_pos := 36; g_toeff := 11 |} = GenTo 25 /\
  eval_ref_cast ex_r cc_classes ex_c (TClass Ref 9) (TClass Ref 1) cc_p = CastTo 0 /\
  eval_ref_cast ex_r cc_classes ex_c (TClass Ref 3) (TAtom Ref) {| p_eff := 0; p_pos := 0; p_stg := OAtom; p_stgeff := 6 |} = CastTo 36 /\
  eval_ref_cast ex_r cc_classes ex_c (TClass Ref 3) (TAtom Ref) {| p_eff := 0; p_pos := 0; p_stg := OAtom; p_stgeff := 9 |} = CastUnevaluable.
Proof.
  repeat (split; [vm_compute; first [reflexivity|discriminate|fail 1]|]).
  split; [intros c c' _ _ E; exact E|]. split; [vm_compute; discriminate|]. split; [vm_compute; discriminate|].
  split; [split; [reflexivity|]; exists 11; split; [vm_compute; reflexivity|split; reflexivity]|].
  repeat split; vm_compute; reflexivity.
Qed.

(* class 7 (a transient) in its own storage is not an 8: the cast is refused *)
Example C79_evaluator_refuses_ex : ~ is_a ex_r isas_classes 7 8 /\
  eval_ref_cast ex_r isas_classes ex_c (TClass Ref 8) (TClass Ref 7) {| p_eff := 7; p_pos := 0; p_stg := OClass 7; p_stgeff := 7 |} = CastUnevaluable.
Proof.
  split; [|vm_compute; reflexivity]. intros [H|H]; [discriminate|].
  destruct H as (y & HE & HR). apply isas_edge_rank in HE. assert (forall x y, reach ex_r (lbases isas_classes) x y -> isas_rank y <= isas_rank x) as HM.
  { induction 1 as [z|z w v HE' HR' IH]; [apply N.le_refl|]. apply isas_edge_rank in HE'. lia. }
  apply HM in HR. change (isas_rank (ex_r 8)) with 4 in HR. change (isas_rank 7) with 3 in HE. lia.
Qed.
