(* DefaultInit.v: the values of initialiser lists; lemmas for DefaultTheorems.v. *)
From Coq Require Import String List NArith ZArith Lia Bool.
From Coq Require Import ZifyBool ZifyNat ZifyN.
From Verif Require Import Base TypeTableModel FamilyModel FamilyProofs BitVec UTypeModel AtomModel AtomSpec AtomProofs LayoutModel LayoutSpec LayoutTheorems DefaultModel DefaultSpec DefaultProofs DefaultPlaces.
Import ListNotations.
Open Scope N_scope.
Local Opaque the_fuel.

Lemma part_nil p l : part p 0 l = [].
Proof. reflexivity. Qed.
Lemma front_pre q n v : q + n <= W8K -> front n (bv_write W8K 0 n (bv_read W8K q n v) 0) = part q n (bits8k v).
Proof. intros H. rewrite front_part, write_part by lia. apply read_bits. auto. Qed.
Lemma front_nth n v x : x < n -> n <= W8K -> nth (N.to_nat x) (front n v) false = nth (N.to_nat x) (bits8k v) false.
Proof. intros H1 H2. rewrite front_part, part_nth by lia. f_equal. Qed.
Lemma part_front' p k n v : p + k <= n \/ k = 0 -> part p k (front n v) = part p k (bits8k v).
Proof. intros [H| ->]; [apply part_front; auto|]. rewrite !part_nil. reflexivity. Qed.
Lemma items_all w n : forall (post post' : list bool), List.length post = N.to_nat (n * w) -> List.length post' = N.to_nat (n * w) -> (forall i, i < n -> part (i * w) w post = part (i * w) w post') -> post = post'.
Proof.
  intros post post' H1 H2 H. apply nth_ext with (d := false) (d' := false); [congruence|]. intros x Hx.
  assert (w <> 0) as NW by (intros ->; lia). pose proof (N.div_mod (N.of_nat x) w NW) as E. pose proof (N.mod_lt (N.of_nat x) w NW) as HM.
  set (i := N.of_nat x / w) in *. assert (i < n) as Hi by (destruct (N.lt_ge_cases i n); auto; nia). specialize (H i Hi). assert (nth (N.to_nat (N.of_nat x mod w)) (part (i * w) w post) false = nth (N.to_nat (N.of_nat x mod w)) (part (i * w) w post') false) as E' by congruence.
  rewrite !part_nth in E' by lia. replace (N.to_nat (i * w) + N.to_nat (N.of_nat x mod w))%nat with x in E' by nia. exact E'.
Qed.

Section Init.
Variable root : N -> N.
Variable classes : N -> option lclass.
Variable compare : N -> N -> cmp.
Variable members : N -> list dmember.
Variable emptyElement : N.
Variable rank : N -> nat.
Hypothesis P : program root classes compare members emptyElement rank.
Notation find := (findMember root classes compare members).
Notation at_ := (member_at root classes compare members).
Notation value := (value_of root classes compare members).
Notation initialised := (initialised root classes compare members).
Notation init_ok := (init_ok root classes compare members).

(* a type with its class *)
Definition sized (cls : option N) (m : mtype) : Prop := match cls with Some c => (exists k, classes c = Some k) /\ class_size root classes c = one_size m | None => True end.
Lemma at_sized c a i m d q : at_ c a i m d q -> sized (dm_class d) m.
Proof.
  intros (_ & (ka & EA & EM) & ED & _). destruct (p_declared _ _ _ _ _ _ P a ka i m d EA EM ED) as [H _]. unfold declared in H. unfold sized. destruct (dm_class d); tauto.
Qed.
Lemma at_fits c k a i m d q : classes c = Some k -> at_ c a i m d q -> q + member_size m <= class_size root classes c <= W8K.
Proof. intros EK H. pose proof (at_inside root classes compare members emptyElement rank P c k a i m d q EK H). pose proof (size_fits root classes compare members emptyElement rank P c k EK). lia. Qed.
Lemma one_item m : item_type m = one m.
Proof. reflexivity. Qed.

Lemma value_sound : forall e cls m pre v, value e cls m pre = Some v -> sized cls m -> member_size m <= W8K -> initialised e cls m (front (member_size m) pre) (front (member_size m) v).
Proof.
  induction e as [|x|x|l IH|l IH] using cinit_ind'; intros cls m pre v E HS HB; cbn [value_of] in E.
  - destruct (mt_array m); [|discriminate]. injection E as <-. constructor.
  - destruct cls; [discriminate|]. destruct (mt_array m) eqn:EM; [discriminate|]. unfold guard in E. destruct (getSizeofUlamType m <=? 64) eqn:E64; [|discriminate]. injection E as <-.
    rewrite member_sizeof. rewrite (front_part _ (bv_write _ _ _ _ _)), write_part by lia. constructor.
  - destruct cls; [destruct (mt_array m); [discriminate|]|]; injection E as <-; constructor.
  - destruct cls as [c|]; [|discriminate]. destruct (mt_array m) eqn:EM; [discriminate|]. destruct HS as [[k EK] HS].
    assert (member_size m = class_size root classes c) as EC by (rewrite HS, size_member; unfold nitems; rewrite EM; lia). clear HS.
    destruct (init_members_ok _ _ _ _ _ _ _ _ _ _ E) as (H1 & H2 & _). apply I_members.
    + rewrite !front_length by auto. reflexivity.
    + intros a i e HI. apply In_nth_error in HI as HN. destruct HN as [p EN]. destruct (H1 p a i e EN) as (mm & d & q & w & EF & HQ & EV & HB' & EP & _).
      pose proof (find_at root classes compare members emptyElement rank P c k a i mm d q EK EF) as HA. exists mm, d, q. split; auto.
      pose proof (at_fits c k a i mm d q EK HA) as HF. rewrite !part_front' by lia. rewrite EP. pose proof (IH a i e HI (dm_class d) mm _ _ EV (at_sized _ _ _ _ _ _ HA) HB') as HR.
      rewrite front_pre in HR by auto. exact HR.
    + intros x Hx. destruct (N.lt_ge_cases x (member_size m)) as [HL|HL].
      * rewrite !front_nth by auto. apply H2. intros dc i e m' d q HI EF. apply (Hx dc i e m' d q HI). eapply find_at; eauto.
      * rewrite !nth_overflow by (rewrite front_length by auto; lia). reflexivity.
  - destruct cls as [c|]; (destruct (mt_array m) as [n|] eqn:EM; [|discriminate]); unfold guard in E; destruct (negb _) eqn:EN; try discriminate.
    + (* classes *) unfold class_array in E. unfold guard in E. destruct (1 <=? N.of_nat (List.length l)) eqn:EL; [|discriminate]. rewrite size_one in E.
      destruct (class_items _ c m l 0 pre) as [bv1|] eqn:E1; [|discriminate]. cbn [bind] in E. destruct (class_items_ok root classes compare members _ _ _ _ _ _ _ E1) as [H1 H2].
      assert (member_size m = n * one_size m) as EZ by (rewrite size_member; unfold nitems; rewrite EM; reflexivity).
      assert (forall x, x < N.of_nat (List.length l) * one_size m -> nth (N.to_nat x) (bits8k v) false = nth (N.to_nat x) (bits8k bv1) false) as HK.
      { intros x Hx. destruct (N.of_nat (List.length l) <? n) eqn:EKN; [|congruence]. destruct (copyBV bv1 _ 0 _ 0) as [last|]; [|discriminate]. cbn [bind] in E. apply (class_rest_ok _ _ _ _ _ _ E). lia. }
      assert (forall i, i < N.of_nat (List.length l) -> (i + 1) * one_size m <= W8K -> part (i * one_size m) (one_size m) (bits8k v) = part (i * one_size m) (one_size m) (bits8k bv1)) as HP.
      { intros i Hi HBi. apply part_same; rewrite ?bits_length; [lia|reflexivity|]. intros x Hx. apply HK. nia. }
      apply I_items with (n := n); auto.
      * rewrite front_length by auto. reflexivity.
      * intros i e HE Hin. assert (i < List.length l)%nat by (apply nth_error_Some; congruence). destruct (H1 i e HE) as (w & EV & HBw & EPw). rewrite N.add_0_l in *.
        rewrite !part_front by nia. rewrite HP, EPw by lia. apply nth_error_In in HE. pose proof (IH e HE (Some c) (item_type m) _ _ EV HS) as HR.
        rewrite one_item, size_of_one in HR. specialize (HR ltac:(nia)). rewrite front_pre in HR by nia. exact HR.
      * intros i Hi. replace (N.of_nat (List.length l) <? n) with true in E by lia. destruct (copyBV bv1 _ 0 _ 0) as [last|] eqn:EC; [|discriminate]. cbn [bind] in E.
        apply copyBV_some in EC. destruct EC as (C1 & C2 & ->). destruct (class_rest_ok _ _ _ _ _ _ E) as [R1 _]. rewrite !part_front by nia. rewrite R1 by lia. rewrite front_pre by auto. symmetry. apply HP; nia.
    + (* numbers *) unfold prim_array, guard in E. destruct ((1 <=? item_size m) && (item_size m <=? 64) && (1 <=? N.of_nat (List.length l))) eqn:EL; [|discriminate]. rewrite size_one in *.
      destruct (prim_items (one_size m) l 0 0) as [bv1|] eqn:E1; [|discriminate]. cbn [bind] in E. destruct (N.of_nat (List.length l) * one_size m <=? W8K) eqn:EW; [|discriminate].
      destruct (prim_items_ok _ _ _ _ _ E1 ltac:(lia)) as [H1 H2]. destruct (prim_rest_ok _ _ _ _ _ _ E) as [R1 R2].
      assert (member_size m = n * one_size m) as EZ by (rewrite size_member; unfold nitems; rewrite EM; reflexivity).
      assert (forall i, i < N.of_nat (List.length l) -> part (i * one_size m) (one_size m) (bits8k v) = part (i * one_size m) (one_size m) (bits8k bv1)) as HP.
      { intros i Hi. apply part_same; rewrite ?bits_length; [nia|reflexivity|]. intros x Hx. apply R2. left. nia. }
      apply I_items with (n := n); auto.
      * rewrite front_length by auto. reflexivity.
      * intros i e HE Hin. assert (i < List.length l)%nat by (apply nth_error_Some; congruence). destruct (H1 i e HE) as (w & -> & EPw). rewrite N.add_0_l in *.
        rewrite !part_front by nia. rewrite HP, EPw by lia. replace (one_size m) with (member_size (one m)) at 3 by apply size_of_one. constructor.
      * intros i Hi. rewrite !part_front by nia. rewrite R1 by lia. rewrite HP by lia. apply read_bits. nia.
Qed.

Lemma value_total : forall e cls m, init_ok e cls m -> sized cls m -> member_size m <= W8K -> forall pre, exists v, value e cls m pre = Some v.
Proof.
  induction e as [|x|x|l IH|l IH] using cinit_ind'; intros cls m HK HS HB pre; inversion HK as [cls0 m0 n HM|v0 m0 HM H64|v0 cls0 m0 HO|l0 m0 n HM HW HNE HLN HV|l0 c m0 n HM HNE HLN HV|l0 c m0 HM HV HND HU]; subst; cbn [value_of].
  - rewrite HM. eauto.
  - rewrite HM. unfold guard. rewrite member_sizeof. replace (member_size m <=? 64) with true by lia. cbn [bind]. eauto.
  - destruct cls; [|eauto]. destruct HO as [|H]; [discriminate|]. rewrite H. eauto.
  - rewrite HM. destruct HS as [[k EK] HS]. apply init_members_total.
    + intros a i e HI. destruct (HV a i e HI) as (mm & d & q & HA & HO). exists mm, d, q. pose proof (at_fits c k a i mm d q EK HA) as HF.
      split; [eapply at_find; eauto|]. split; [lia|]. split.
      * apply (IH a i e HI (dm_class d) mm HO (at_sized _ _ _ _ _ _ HA)). lia.
      * unfold bv_read. rewrite N.shiftr_0_l. apply N.mod_0_l. apply N.pow_nonzero. lia.
    + intros p p' a i e a' i' e' mm d q mm' d' q' E1 E2 HL F1 F2. pose proof (find_at root classes compare members emptyElement rank P c k _ _ _ _ _ EK F1) as A1. pose proof (find_at root classes compare members emptyElement rank P c k _ _ _ _ _ EK F2) as A2.
      assert ((a, i) <> (a', i')) as NE.
      { intros E. pose proof (map_nth_error (fun x => fst x) _ _ E1) as M1. pose proof (map_nth_error (fun x => fst x) _ _ E2) as M2. cbn [fst] in M1, M2. rewrite NoDup_nth_error in HND. rewrite E in M1.
        assert (p = p') by (apply HND; [apply nth_error_Some; congruence|congruence]). lia. }
      assert (a = a' -> match classes a with Some k => lc_union k = false | None => True end) as HU'.
      { intros <-. apply (HU a i e i' e'); [eapply nth_error_In; eauto|eapply nth_error_In; eauto|congruence]. }
      pose proof (fun x => at_disjoint root classes compare members emptyElement rank P c k _ _ _ _ _ _ _ _ _ _ x EK A1 A2 NE HU') as HD.
      destruct (N.eq_dec (member_size mm') 0); auto. destruct (N.eq_dec (member_size mm) 0); auto. specialize (HD (N.max q q')). lia.
  - rewrite HM. assert (member_size m = n * one_size m) as EZ by (rewrite size_member; unfold nitems; rewrite HM; reflexivity). unfold guard. replace (negb _) with true by lia. cbn [bind]. unfold prim_array, guard. rewrite size_one.
    destruct l as [|e l]; [destruct (HNE eq_refl)|]. set (l' := e :: l) in *. assert (1 <= N.of_nat (List.length l')) by (unfold l'; cbn [List.length]; lia).
    replace ((1 <=? one_size m) && (one_size m <=? 64) && (1 <=? N.of_nat (List.length l'))) with true by lia. cbn [bind].
    destruct (prim_items_total root classes compare members (one_size m) l' 0 0 HV ltac:(nia)) as [bv1 ->]. cbn [bind]. replace (N.of_nat (List.length l') * one_size m <=? W8K) with true by nia. cbn [bind].
    apply (prim_rest_total root classes compare members). nia.
  - rewrite HM. assert (member_size m = n * one_size m) as EZ by (rewrite size_member; unfold nitems; rewrite HM; reflexivity). unfold guard. replace (negb _) with true by lia. cbn [bind]. unfold class_array, guard. rewrite size_one.
    destruct l as [|e l]; [destruct (HNE eq_refl)|]. set (l' := e :: l) in *. assert (1 <= N.of_nat (List.length l')) by (unfold l'; cbn [List.length]; lia).
    replace (1 <=? N.of_nat (List.length l')) with true by lia. cbn [bind].
    destruct (class_items_total root classes compare members value c m l' 0 pre) as [bv1 ->]; [|nia|].
    { intros e' HI pre'. apply (IH e' HI (Some c) (item_type m)); [apply HV; auto|apply HS|]. rewrite one_item, size_of_one. nia. }
    cbn [bind]. destruct (N.of_nat (List.length l') <? n) eqn:EN; [|eauto]. rewrite copyBV_ok by nia. cbn [bind]. apply (class_rest_total root classes compare members); nia.
Qed.

(* the bits that an initialiser gives are determined *)
Lemma initialised_length : forall e cls m pre post, init_ok e cls m -> sized cls m -> member_size m <= W8K -> List.length pre = N.to_nat (member_size m) -> initialised e cls m pre post -> List.length post = N.to_nat (member_size m).
Proof.
  intros e cls m pre post HK HS HB HL HI. inversion HI; subst; auto; try congruence.
  - apply msb_bits_length.
  - apply front_length. auto.
Qed.
Lemma inside_dec c (l : list (N * nat * cinit)) x : (exists a i e mm d q, In (a, i, e) l /\ find c a i = Some (mm, d, q) /\ q <= x < q + member_size mm) \/
  (forall a i e mm d q, In (a, i, e) l -> find c a i = Some (mm, d, q) -> x < q \/ q + member_size mm <= x).
Proof.
  induction l as [|[[a i] e] l [(a' & i' & e' & mm & d & q & H1 & H2)|IH]]; [right; intros ? ? ? ? ? ? []|left; exists a', i', e', mm, d, q; split; [right|]; auto|].
  destruct (find c a i) as [[[mm d] q]|] eqn:EF.
  - destruct (N.lt_ge_cases x q) as [HL|HL]; [|destruct (N.lt_ge_cases x (q + member_size mm)) as [HL'|HL']].
    + right. intros a' i' e' mm' d' q' [HI|HI] F; [|eapply IH; eauto]. injection HI as <- <- <-. rewrite EF in F. injection F as <- <- <-. auto.
    + left. exists a, i, e, mm, d, q. split; [left|]; auto.
    + right. intros a' i' e' mm' d' q' [HI|HI] F; [|eapply IH; eauto]. injection HI as <- <- <-. rewrite EF in F. injection F as <- <- <-. auto.
  - right. intros a' i' e' mm' d' q' [HI|HI] F; [|eapply IH; eauto]. injection HI as <- <- <-. congruence.
Qed.
Lemma initialised_unique : forall e cls m, init_ok e cls m -> sized cls m -> member_size m <= W8K -> forall pre post post', List.length pre = N.to_nat (member_size m) ->
  initialised e cls m pre post -> initialised e cls m pre post' -> post = post'.
Proof.
  induction e as [|x|x|l IH|l IH] using cinit_ind'; intros cls m HK HS HB pre post post' HL I1 I2.
  - inversion I1; inversion I2; subst; auto.
  - inversion I1; inversion I2; subst; auto.
  - inversion I1; inversion I2; subst; auto.
  - inversion HK as [| | | | |l0 c m0 HM HV HND HU]; subst. destruct HS as [[k EK] HS]. assert (member_size m = class_size root classes c) as EC by (rewrite HS, size_member; unfold nitems; rewrite HM; lia).
    inversion I1 as [| | | |? ? ? ? ? L1 M1 R1]; subst. inversion I2 as [| | | |? ? ? ? ? L2 M2 R2]; subst. apply nth_ext with (d := false) (d' := false); [congruence|]. intros n Hn.
    assert (forall a i mm d q mm' d' q', at_ c a i mm d q -> at_ c a i mm' d' q' -> mm = mm' /\ d = d' /\ q = q') as AU.
    { intros a i mm d q mm' d' q' A1 A2. apply (at_find root classes compare members emptyElement rank P c k _ _ _ _ _ EK) in A1. apply (at_find root classes compare members emptyElement rank P c k _ _ _ _ _ EK) in A2. rewrite A1 in A2. injection A2; auto. }
    destruct (inside_dec c l (N.of_nat n)) as [(a & i & e & mm & d & q & HI & EF & Hx)|HN].
    + pose proof (find_at root classes compare members emptyElement rank P c k _ _ _ _ _ EK EF) as A. destruct (HV a i e HI) as (m3 & d3 & q3 & A3 & K3). destruct (AU _ _ _ _ _ _ _ _ A A3) as (<- & <- & <-).
      destruct (M1 a i e HI) as (m1 & d1 & q1 & A1 & J1). destruct (AU _ _ _ _ _ _ _ _ A A1) as (<- & <- & <-). destruct (M2 a i e HI) as (m2 & d2 & q2 & A2 & J2). destruct (AU _ _ _ _ _ _ _ _ A A2) as (<- & <- & <-).
      pose proof (at_fits c k a i mm d q EK A) as HF. assert (part q (member_size mm) post = part q (member_size mm) post') as E.
      { assert (member_size mm <= W8K) as HB' by (clear -HF; lia). assert (List.length (part q (member_size mm) pre) = N.to_nat (member_size mm)) as HL' by (apply part_length; rewrite HL; clear -HF EC; lia). exact (IH a i e HI (dm_class d) mm K3 (at_sized _ _ _ _ _ _ A) HB' _ _ _ HL' J1 J2). }
      assert (nth (N.to_nat (N.of_nat n - q)) (part q (member_size mm) post) false = nth (N.to_nat (N.of_nat n - q)) (part q (member_size mm) post') false) as E' by congruence.
      rewrite !part_nth in E' by (clear -Hx; lia). replace (N.to_nat q + N.to_nat (N.of_nat n - q))%nat with n in E' by (clear -Hx; lia). exact E'.
    + specialize (R1 (N.of_nat n)). specialize (R2 (N.of_nat n)). rewrite Nat2N.id in R1, R2. rewrite R1, R2; auto; intros a i e mm d q HI HA; apply (HN a i e mm d q HI); eapply at_find; eauto.
  - inversion I1 as [| | |? ? ? n ? ? HM L1 M1 R1|]; subst. inversion I2 as [| | |? ? ? n' ? ? HM' L2 M2 R2|]; subst. rewrite HM in HM'. injection HM' as <-.
    assert (member_size m = n * one_size m) as EZ by (rewrite size_member; unfold nitems; rewrite HM; reflexivity).
    assert (l <> [] /\ N.of_nat (List.length l) <= n) as [HNE HLN] by (inversion HK; subst; split; congruence).
    assert (forall e, In e l -> init_ok e cls (one m)) as HV.
    { inversion HK as [| | |? ? ? ? HW ? ? HVn|? ? ? ? ? ? ? HVc|]; subst; auto. intros e HI. destruct (HVn e HI) as [v ->]. constructor; [reflexivity|]. rewrite size_of_one. lia. }
    assert (sized cls (one m)) as HS' by exact HS.
    assert (forall i, i < N.of_nat (List.length l) -> part (i * one_size m) (one_size m) post = part (i * one_size m) (one_size m) post') as HE.
    { intros i Hi. destruct (nth_error l (N.to_nat i)) as [e|] eqn:EN; [|apply nth_error_None in EN; lia]. pose proof (M1 _ _ EN) as J1. pose proof (M2 _ _ EN) as J2. rewrite N2Nat.id in J1, J2.
      apply nth_error_In in EN. assert (member_size (one m) <= W8K) as HB' by (rewrite size_of_one; nia). assert (List.length (part (i * one_size m) (one_size m) pre) = N.to_nat (member_size (one m))) as HL' by (rewrite size_of_one; apply part_length; rewrite HL, EZ; nia). exact (IH e EN cls (one m) (HV e EN) HS' HB' _ _ _ HL' (J1 ltac:(lia)) (J2 ltac:(lia))). }
    apply (items_all (one_size m) n); [congruence|congruence|]. intros i Hi. destruct (N.lt_ge_cases i (N.of_nat (List.length l))); [auto|]. rewrite (R1 i), (R2 i) by lia. apply HE. destruct l; [congruence|cbn [List.length]; lia].
Qed.

(* what is rejected *)
Lemma too_many cls m n l pre : mt_array m = Some n -> 0 < n < N.of_nat (List.length l) -> value (CItems l) cls m pre = None.
Proof. intros HM H. cbn [value_of]. rewrite HM. unfold guard. replace (negb _) with false by lia. destruct cls; reflexivity. Qed.
Lemma twice c k l p p' a i e a' i' e' mm d q mm' d' q' x m pre : classes c = Some k -> nth_error l p = Some (a, i, e) -> nth_error l p' = Some (a', i', e') -> p <> p' ->
  at_ c a i mm d q -> at_ c a' i' mm' d' q' -> q <= x < q + member_size mm -> q' <= x < q' + member_size mm' -> value (CMembers l) (Some c) m pre = None.
Proof.
  intros EK E1 E2 NE A1 A2 H1 H2. cbn [value_of]. destruct (mt_array m); auto. destruct (init_members _ _ _ _ _ c l pre 0) eqn:E; auto. exfalso.
  destruct (init_members_ok _ _ _ _ _ _ _ _ _ _ E) as (_ & _ & _ & H). apply (at_find root classes compare members emptyElement rank P c k _ _ _ _ _ EK) in A1. apply (at_find root classes compare members emptyElement rank P c k _ _ _ _ _ EK) in A2. exact (H p p' _ _ _ _ _ _ _ _ _ _ _ _ x E1 E2 NE A1 A2 H1 H2).
Qed.
Lemma unknown_member c k l a i e m pre : classes c = Some k -> In (a, i, e) l -> (forall mm d q, ~ at_ c a i mm d q) -> value (CMembers l) (Some c) m pre = None.
Proof.
  intros EK HI HN. cbn [value_of]. destruct (mt_array m); auto. destruct (init_members _ _ _ _ _ c l pre 0) eqn:E; auto. exfalso.
  destruct (init_members_ok _ _ _ _ _ _ _ _ _ _ E) as (H & _). apply In_nth_error in HI. destruct HI as [p EN]. destruct (H p a i e EN) as (mm & d & q & v & EF & _). apply (HN mm d q). eapply find_at; eauto.
Qed.
End Init.
