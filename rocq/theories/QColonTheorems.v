(* QColonTheorems.v: C94. *)
From Coq Require Import String List NArith ZArith Lia Bool.
From Coq Require Import ZifyBool ZifyNat ZifyN.
From Verif Require Import Base BitVec UTypeModel AtomModel AtomSpec AtomProofs PrimModel PrimSpec PrimProofs PrimTheorems.
From Verif Require Import ArithModel ArithProofs QColonModel QColonSpec.
Import ListNotations.
Open Scope N_scope.

Lemma etype_eqb_eq a b : etype_eqb a b = true <-> a = b.
Proof. split; [|intros <-; destruct a; reflexivity]. destruct a, b; cbn; congruence. Qed.

Lemma same_type_scalar e m t e' n' t' : scalar_of e m t -> scalar_of e' n' t' ->
  same_type t t' = true <-> e = e' /\ m = n'.
Proof.
  intros (HE & HB & HA & HR & Hn) (HE' & HB' & HA' & HR' & Hn'). unfold same_type.
  rewrite HE, HB, HA, HR, HE', HB', HA', HR'. rewrite !andb_true_iff, etype_eqb_eq. cbn [alt_eqb].
  split; [intros (((-> & H) & _) & _); split; auto; lia | intros (-> & ->); repeat split; lia].
Qed.

Lemma same_but_ref_scalar e m t e' n' t' : scalar_of e m t -> scalar_of e' n' t' ->
  same_but_ref t t' = true <-> e = e' /\ m = n'.
Proof.
  intros (HE & HB & HA & HR & Hn) (HE' & HB' & HA' & HR' & Hn'). unfold same_but_ref.
  rewrite HE, HB, HA, HE', HB', HA'. rewrite !andb_true_iff, etype_eqb_eq.
  split; [intros ((-> & H) & _); split; auto; lia | intros (-> & ->); repeat split; lia].
Qed.

Lemma qBranch_type from t q : qBranch from t = QType q -> q = t.
Proof.
  unfold qBranch, checkSafeToCastTo. destruct (same_type t from); [congruence|].
  destruct (safeCast t from) as [[]|]; congruence.
Qed.

(* an accepted branch keeps its number *)
Lemma branch_value e m t e' n' v q : primitive e -> primitive e' -> scalar_of e m t -> scalar_of e' n' (v_ty v) ->
  qBranch (v_ty v) t = QType q ->
  exists x, operand t v = Some x /\ scalar_of e m (v_ty x) /\ number e m x = number (read_as e e') n' v.
Proof.
  intros HP HP' H H' HB. unfold qBranch in HB. unfold operand. destruct (same_type t (v_ty v)) eqn:ES.
  - apply (same_type_scalar _ _ _ _ _ _ H H') in ES as [-> ->]. exists v. split; auto. split; auto.
    destruct e'; reflexivity.
  - unfold checkSafeToCastTo in HB. destruct (safeCast t (v_ty v)) as [[]|] eqn:EC; try discriminate.
    destruct (C23_safe_cast_keeps_number e m t e' n' v HP HP' H H' EC) as (r & -> & HT & HN).
    exists r. rewrite HT. repeat split; try apply H. exact HN.
Qed.

Lemma bool_scalar : scalar_of EBool 1 BoolType.
Proof. repeat split; cbn; lia. Qed.

Lemma truth_ok ec nc c : primitive ec -> scalar_of ec nc (v_ty c) -> qCondition (v_ty c) = QType BoolType ->
  qTruth (mkNode (v_ty c) (Some c)) = Some (negb (number ec nc c =? 0)%Z).
Proof.
  intros HP H HC. unfold qTruth, castTo. cbn [q_val bind].
  assert (exists x, operand BoolType c = Some x /\ scalar_of EBool 1 (v_ty x) /\ number EBool 1 x = number ec nc c) as (x & -> & HX & HN).
  { destruct (branch_value EBool 1 BoolType ec nc c BoolType) as (x & E & HS & HN); auto using bool_scalar; [right; auto| |exists x; auto].
    unfold qBranch. destruct (same_type BoolType (v_ty c)); auto.
    unfold qCondition in HC. destruct (scalar_facts _ _ _ H) as (HS & HCo & _). rewrite HS, HCo in HC. cbn [negb] in HC.
    destruct (etype_eqb (ty_enum (v_ty c)) EBool) eqn:EE; cbn [negb] in HC; [|exact HC].
    apply etype_eqb_eq in EE. unfold checkSafeToCastTo, safeCast. rewrite (prim_safe_clear _ _ _ _ _ _ bool_scalar H).
    cbn [BoolType prim ty_enum]. unfold bool_safe. rewrite EE. reflexivity. }
  cbn [bind]. destruct HX as (HE & HB & _).
  rewrite (getImmediateData_ok (v_ty x) 1 x) by (rewrite ?HE; try discriminate; auto; lia). cbn [bind]. rewrite <- HN.
  f_equal. unfold number, meaning.
  assert (length (own_bits (v_ty x) 1 (v_bits x)) = 1%nat) as HL by (apply own_bits_len; lia).
  destruct (own_bits (v_ty x) 1 (v_bits x)) as [|b [|? ?]]; try discriminate. destruct b; reflexivity.
Qed.

(* ---- the sizes ---- *)
Lemma divide_size e n lt e' n' rt : arith e -> arith e' -> scalar_of e n lt -> scalar_of e' n' rt ->
  resultBitsize Divide lt rt = Some (opsize Divide (osize (reskind e e') e n) (osize (reskind e e') e' n') (Z.max (word n) (word n'))).
Proof.
  intros HA HA' H H'. unfold resultBitsize. rewrite (calc_ok _ _ _ _ _ _ HA HA' H H'). unfold opsize.
  set (a := osize _ e n). set (b := osize _ e' n').
  assert ((if (a >? b)%Z then a else b) = Z.max a b) as -> by (destruct (Z.gtb_spec a b); lia). reflexivity.
Qed.

Definition qkind (e e' : etype) : etype := if etype_eqb e e' then e else reskind e e'.

Lemma calc_arith e n lt e' n' rt : arith e -> arith e' -> scalar_of e n lt -> scalar_of e' n' rt -> ~ (e = e' /\ n = n') ->
  qCalcNodeType lt rt =
    QType (prim (qkind e e') (opsize Divide (osize (reskind e e') e n) (osize (reskind e e') e' n') (Z.max (word n) (word n'))) NONARRAYSIZE).
Proof.
  intros HA HA' H H' HN. unfold qCalcNodeType.
  destruct (scalar_facts _ _ _ H) as (HS & HC & _). destruct (scalar_facts _ _ _ H') as (HS' & HC' & _).
  rewrite HC, HC', HS, HS'. cbn [negb orb andb].
  destruct (same_but_ref lt rt) eqn:ES; [apply (same_but_ref_scalar _ _ _ _ _ _ H H') in ES; tauto|].
  rewrite (divide_size _ _ _ _ _ _ HA HA' H H'). unfold isPrimitiveType. destruct H as (-> & _). destruct H' as (-> & _).
  destruct HA as [-> | [-> | ->]], HA' as [-> | [-> | ->]]; reflexivity.
Qed.

Lemma calc_same e n lt rt : scalar_of e n lt -> scalar_of e n rt -> qCalcNodeType lt rt = QType lt.
Proof.
  intros H H'. unfold qCalcNodeType.
  destruct (scalar_facts _ _ _ H) as (HS & HC & _). destruct (scalar_facts _ _ _ H') as (HS' & HC' & _).
  rewrite HC, HC'. cbn [negb orb].
  assert (same_but_ref lt rt = true) as -> by (apply (same_but_ref_scalar _ _ _ _ _ _ H H'); auto).
  destruct H as (_ & _ & _ & HR & _). unfold isReference, isAltRefType. rewrite HR. reflexivity.
Qed.

Lemma calc_bits e n lt e' n' rt : primitive e -> primitive e' -> scalar_of e n lt -> scalar_of e' n' rt -> e = EBits \/ e' = EBits ->
  ~ (e = e' /\ n = n') -> qCalcNodeType lt rt = QType (prim EBits (Z.of_N (N.max n n')) NONARRAYSIZE).
Proof.
  intros HP HP' H H' HX HN. unfold qCalcNodeType.
  destruct (scalar_facts _ _ _ H) as (HS & HC & _). destruct (scalar_facts _ _ _ H') as (HS' & HC' & _).
  rewrite HC, HC', HS, HS'. cbn [negb orb andb].
  destruct (same_but_ref lt rt) eqn:ES; [apply (same_but_ref_scalar _ _ _ _ _ _ H H') in ES; tauto|].
  unfold isPrimitiveType, resultBitsizeCalcInBits. rewrite HC, HC'. destruct H as (-> & -> & _). destruct H' as (-> & -> & _).
  assert (match e with EVoid | EInt | EUnsigned | EBool | EUnary | EBits | EString => true | _ => false end = true) as ->
    by (destruct HP as [[-> | [-> | ->]] | [-> | ->]]; reflexivity).
  assert (match e' with EVoid | EInt | EUnsigned | EBool | EUnary | EBits | EString => true | _ => false end = true) as ->
    by (destruct HP' as [[-> | [-> | ->]] | [-> | ->]]; reflexivity).
  assert (etype_eqb e EBits || etype_eqb e' EBits = true) as -> by (destruct HX as [-> | ->]; [reflexivity | apply orb_true_r]).
  cbn [andb negb]. do 2 f_equal. destruct (Z.gtb_spec (Z.of_N n) (Z.of_N n')); lia.
Qed.

Lemma calc_bool e n lt e' n' rt : primitive e -> primitive e' -> scalar_of e n lt -> scalar_of e' n' rt -> e = EBool \/ e' = EBool ->
  e <> EBits -> e' <> EBits -> ~ (e = e' /\ n = n') -> qCalcNodeType lt rt = QAbort.
Proof.
  intros HP HP' H H' HX HB HB' HN. unfold qCalcNodeType.
  destruct (scalar_facts _ _ _ H) as (HS & HC & _). destruct (scalar_facts _ _ _ H') as (HS' & HC' & _).
  rewrite HC, HC', HS, HS'. cbn [negb orb andb].
  destruct (same_but_ref lt rt) eqn:ES; [apply (same_but_ref_scalar _ _ _ _ _ _ H H') in ES; tauto|].
  unfold isPrimitiveType, resultBitsize, resultBitsizeCalc, calcBitsizeForResult. rewrite HC, HC'.
  destruct H as (-> & _). destruct H' as (-> & _). cbn [negb].
  destruct HP as [[-> | [-> | ->]] | [-> | ->]]; try congruence; destruct HP' as [[-> | [-> | ->]] | [-> | ->]]; try congruence;
    try reflexivity; exfalso; destruct HX; discriminate.
Qed.

Lemma qsize_range e n e' n' : arith e -> arith e' -> 1 <= n <= 64 -> 1 <= n' <= 64 ->
  (1 <= opsize Divide (osize (reskind e e') e n) (osize (reskind e e') e' n') (Z.max (word n) (word n')) <= 64)%Z.
Proof.
  intros HA HA' Hn Hn'.
  destruct (osize_range (reskind e e') e n HA Hn) as (Ra & _). destruct (osize_range (reskind e e') e' n' HA' Hn') as (Rb & _).
  pose proof (word_max n n' Hn Hn').
  pose proof (opsize_range Divide (osize (reskind e e') e n) (osize (reskind e e') e' n') (Z.max (word n) (word n'))). lia.
Qed.

Lemma prim_scalar_Z e z : (1 <= z <= 64)%Z -> scalar_of e (Z.to_N z) (prim e z NONARRAYSIZE).
Proof. intros. repeat split; cbn [prim ty_bits]; lia. Qed.

Lemma qkind_arith e e' : arith e -> arith e' -> arith (qkind e e').
Proof. intros [-> | [-> | ->]] [-> | [-> | ->]]; unfold arith, qkind; cbn; auto. Qed.

Lemma same_dec (e e' : etype) (n n' : N) : {e = e' /\ n = n'} + {~ (e = e' /\ n = n')}.
Proof.
  destruct (etype_eqb e e') eqn:E; [apply etype_eqb_eq in E; subst|right; intros [-> _]; assert (etype_eqb e' e' = true) by (apply etype_eqb_eq; auto); congruence].
  destruct (N.eq_dec n n'); [left|right]; tauto.
Qed.

Lemma calc_scalar e n lt e' n' rt t : primitive e -> primitive e' -> scalar_of e n lt -> scalar_of e' n' rt ->
  qCalcNodeType lt rt = QType t -> exists k m, primitive k /\ scalar_of k m t.
Proof.
  intros HP HP' H H' HQ. destruct (same_dec e e' n n') as [[-> ->]|HN].
  { rewrite (calc_same _ _ _ _ H H') in HQ. injection HQ as <-. eauto. }
  pose proof H as (_ & _ & _ & _ & Hn). pose proof H' as (_ & _ & _ & _ & Hn').
  assert ({e = EBits \/ e' = EBits} + {e <> EBits /\ e' <> EBits}) as [HB|[HB HB']].
  { destruct (etype_eqb e EBits) eqn:E1; [apply etype_eqb_eq in E1; left; auto|].
    destruct (etype_eqb e' EBits) eqn:E2; [apply etype_eqb_eq in E2; left; auto|].
    right. split; intros ->; discriminate. }
  { rewrite (calc_bits _ _ _ _ _ _ HP HP' H H' HB HN) in HQ. injection HQ as <-.
    exists EBits, (N.max n n'). split; [right; right; auto|]. apply prim_scalar. lia. }
  destruct HP as [HA | [-> | ->]]; [| |congruence].
  2: { rewrite (calc_bool EBool n lt e' n' rt) in HQ; auto; try discriminate. right; auto. }
  destruct HP' as [HA' | [-> | ->]]; [| |congruence].
  2: { rewrite (calc_bool e n lt EBool n' rt) in HQ; auto; try discriminate; [left; auto|right; auto]. }
  rewrite (calc_arith _ _ _ _ _ _ HA HA' H H' HN) in HQ. injection HQ as <-.
  eexists _, _. split; [left; apply (qkind_arith e e'); auto|]. apply prim_scalar_Z. apply qsize_range; auto.
Qed.

Lemma qlabel_inv ct lt rt t : qCheckAndLabel ct lt rt = QType t ->
  (exists b, qCondition ct = QType b) /\ qCalcNodeType lt rt = QType t /\ qBranch lt t = QType t /\ qBranch rt t = QType t.
Proof.
  unfold qCheckAndLabel. destruct (qCondition ct) as [| | |b] eqn:EC; destruct (qCalcNodeType lt rt) as [| | |u] eqn:ET; try discriminate.
  destruct (qBranch lt u) as [| | |u'] eqn:EL; try discriminate. pose proof (qBranch_type _ _ _ EL). subst u'.
  intros ER. pose proof (qBranch_type _ _ _ ER). subst u. eauto.
Qed.

Lemma qCondition_bool ct b : qCondition ct = QType b -> b = BoolType.
Proof.
  unfold qCondition, checkSafeToCastTo. destruct (isComplete ct); cbn [negb]; try discriminate.
  destruct (isScalar ct); cbn [negb]; try discriminate. destruct (etype_eqb _ _); cbn [negb]; try congruence.
  destruct (safeCast BoolType ct) as [[]|]; congruence.
Qed.

(* C94: if the compiler accepts c ? a : b and gives it the type t, the expression evaluates to the number of a when c is
   true and to the number of b when it is not, whatever the other branch would do; with t Bits it is the bits *)
Theorem C94_value : forall ec nc c e1 n1 l e2 n2 r t,
  primitive ec -> primitive e1 -> primitive e2 ->
  scalar_of ec nc (v_ty c) -> scalar_of e1 n1 (q_ty l) -> scalar_of e2 n2 (q_ty r) ->
  qCheckAndLabel (v_ty c) (q_ty l) (q_ty r) = QType t ->
  exists e m, primitive e /\ scalar_of e m t /\
    (number ec nc c <> 0%Z -> forall v, q_val l = Some v -> v_ty v = q_ty l ->
       exists x, qEval t (mkNode (v_ty c) (Some c)) l r = Some x /\ scalar_of e m (v_ty x) /\
         number e m x = number (read_as e e1) n1 v) /\
    (number ec nc c = 0%Z -> forall v, q_val r = Some v -> v_ty v = q_ty r ->
       exists x, qEval t (mkNode (v_ty c) (Some c)) l r = Some x /\ scalar_of e m (v_ty x) /\
         number e m x = number (read_as e e2) n2 v).
Proof.
  intros ec nc c e1 n1 l e2 n2 r t HPc HP1 HP2 Hc H1 H2 HQ.
  apply qlabel_inv in HQ as ((b & HC) & HT & HL & HR). pose proof (qCondition_bool _ _ HC). subst b.
  destruct (calc_scalar _ _ _ _ _ _ _ HP1 HP2 H1 H2 HT) as (e & m & HP & HS). exists e, m. split; auto. split; auto.
  pose proof (truth_ok ec nc c HPc Hc HC) as HTr. unfold qEval. rewrite HTr. cbn [bind].
  split; intros HN v EV EU.
  - replace (number ec nc c =? 0)%Z with false by lia. cbn [negb]. unfold castTo. cbn [q_val]. rewrite EV. cbn [bind].
    rewrite <- EU in H1, HL. exact (branch_value e m t e1 n1 v t HP HP1 HS H1 HL).
  - replace (number ec nc c =? 0)%Z with true by lia. cbn [negb]. unfold castTo. cbn [q_val]. rewrite EV. cbn [bind].
    rewrite <- EU in H2, HR. exact (branch_value e m t e2 n2 v t HP HP2 HS H2 HR).
Qed.
Print Assumptions C94_value.

(* ---- which expressions are accepted ---- *)
Lemma condition_ok ec nc ct : primitive ec -> scalar_of ec nc ct ->
  (qCondition ct = QType BoolType /\ condition_type ec nc) \/ (qCondition ct = QNav /\ ~ condition_type ec nc).
Proof.
  intros HP H. unfold qCondition. destruct (scalar_facts _ _ _ H) as (HS & HC & _). rewrite HS, HC. cbn [negb].
  unfold checkSafeToCastTo, safeCast. rewrite (prim_safe_clear _ _ _ _ _ _ bool_scalar H). cbn [BoolType prim ty_enum].
  destruct H as (HE & HB & _ & _ & Hn). unfold bool_safe. rewrite HE, HB. unfold condition_type.
  destruct HP as [[-> | [-> | ->]] | [-> | ->]]; cbn [etype_eqb negb bind]; try (destruct (Z.eqb_spec (Z.of_N nc) 1));
    try (left; split; [reflexivity|]; first [left; reflexivity | right; split; [auto|lia]]);
    right; (split; [reflexivity|]); intros [HX | [[HX | HX] HY]]; try discriminate; lia.
Qed.

(* the least size in which the numbers of a type can be written as another kind *)
Definition need (k e : etype) (n : N) : Z :=
  match k, e with
  | EInt, EUnsigned => (Z.of_N n + 1)%Z
  | EInt, EUnary => (Z.log2 (Z.of_N n) + 2)%Z
  | EUnsigned, EUnary => (Z.log2 (Z.of_N n) + 1)%Z
  | _, _ => Z.of_N n
  end.

Lemma need_safe k m t e n t' : k = EInt \/ k = EUnsigned -> arith e -> (k = EInt \/ e <> EInt) -> scalar_of k m t -> scalar_of e n t' ->
  safeCast t t' = Some (if (need k e n <=? Z.of_N m)%Z then CAST_CLEAR else CAST_BAD).
Proof.
  intros HK HA HX H H'. unfold safeCast. rewrite (prim_safe_clear _ _ _ _ _ _ H H').
  pose proof H as (HE & HB & _ & _ & Hn). pose proof H' as (HE' & HB' & _ & _ & Hn'). rewrite HE.
  unfold int_safe, unsigned_safe, getLogBase2. rewrite HE', HB, HB'.
  destruct HK as [-> | ->]; destruct HA as [-> | [-> | ->]]; try (destruct HX; congruence); cbn [bind need];
    match goal with |- Some (if ?a then _ else _) = Some (if ?b then _ else _) => replace b with a; [reflexivity|lia] end.
Qed.

Lemma need_holds k m e n : k = EInt \/ k = EUnsigned -> arith e -> (k = EInt \/ e <> EInt) -> 1 <= m <= 64 -> 1 <= n <= 64 ->
  holds_all k m e n <-> (need k e n <= Z.of_N m)%Z.
Proof.
  intros HK HA HX Hm Hn.
  assert (arith k) as HAk by (destruct HK as [-> | ->]; unfold arith; auto).
  pose proof (C23_safe_cast_exact k m (prim k (Z.of_N m) (-1)) e n (prim e (Z.of_N n) (-1)) HAk HA (prim_scalar k m Hm) (prim_scalar e n Hn)) as HC.
  rewrite (need_safe k m _ e n _ HK HA HX (prim_scalar k m Hm) (prim_scalar e n Hn)) in HC.
  assert (holds_all k m e n <-> forall l, length l = N.to_nat n -> representable k m (meaning e l)) as ->.
  { unfold holds_all. split; [intros HH l HL; apply HH; exists l; auto|intros HH z (l & HL & <-); auto]. }
  rewrite <- HC. destruct (Z.leb_spec (need k e n) (Z.of_N m)); split; auto; try discriminate; lia.
Qed.

Lemma need_ge k e n : arith e -> 1 <= n <= 64 -> (1 <= need k e n <= 65)%Z.
Proof.
  intros HA Hn. pose proof (log2_small n Hn). destruct HA as [-> | [-> | ->]]; destruct k; cbn [need]; lia.
Qed.

Lemma need_osize k e n : k = EInt \/ k = EUnsigned -> arith e -> (k = EInt \/ e <> EInt) -> 1 <= n <= 64 ->
  osize k e n = need k e n \/ (k = EInt /\ e = EUnsigned /\ Z.of_N n = word n /\ osize k e n = Z.of_N n /\ need k e n = (Z.of_N n + 1)%Z).
Proof.
  intros HK HA HX Hn. pose proof (log2_small n Hn). pose proof (word_facts n Hn) as [W1 W2].
  destruct HK as [-> | ->]; destruct HA as [-> | [-> | ->]]; try (destruct HX; congruence); unfold osize, need, cap; auto.
  - destruct (Z.gtb_spec (Z.of_N n + 1) (word n)); [right|left; reflexivity]. repeat split; auto; lia.
  - left. destruct (Z.gtb_spec (Z.log2 (Z.of_N n) + 2) (word n)); lia.
Qed.

Lemma machine_word_ok n1 n2 : Z.max (word n1) (word n2) = Z.of_N (machine_word n1 n2).
Proof. unfold word, machine_word. destruct (N.leb_spec n1 32), (N.leb_spec n2 32), (N.leb_spec (N.max n1 n2) 32); lia. Qed.

Lemma common_reskind e e' : arith e -> arith e' -> ~ (e = EUnary /\ e' = EUnary) ->
  qkind e e' = common e e' /\ reskind e e' = common e e' /\ (common e e' = EInt \/ common e e' = EUnsigned) /\
  (common e e' = EInt \/ e <> EInt) /\ (common e e' = EInt \/ e' <> EInt).
Proof.
  intros HA HA' HN. destruct HA as [-> | [-> | ->]], HA' as [-> | [-> | ->]]; try tauto; cbn;
    repeat split; auto; right; discriminate.
Qed.

Lemma branch_arith k m t e n t' : k = EInt \/ k = EUnsigned -> arith e -> (k = EInt \/ e <> EInt) -> scalar_of k m t -> scalar_of e n t' ->
  qBranch t' t = if (need k e n <=? Z.of_N m)%Z then QType t else QNav.
Proof.
  intros HK HA HX H H'. unfold qBranch, checkSafeToCastTo. rewrite (need_safe k m t e n t' HK HA HX H H').
  destruct (same_type t t') eqn:ES.
  - apply (same_type_scalar _ _ _ _ _ _ H H') in ES as [-> ->]. destruct (Z.leb_spec (need e e n) (Z.of_N n)); auto.
    destruct HK as [-> | ->]; cbn [need] in *; lia.
  - destruct (need k e n <=? Z.of_N m)%Z; reflexivity.
Qed.

Lemma max_needs e1 n1 e2 n2 : arith e1 -> arith e2 -> ~ (e1 = EUnary /\ e2 = EUnary) -> 1 <= n1 <= 64 -> 1 <= n2 <= 64 ->
  let k := common e1 e2 in
  let s := opsize Divide (osize k e1 n1) (osize k e2 n2) (Z.max (word n1) (word n2)) in
  let d := Z.max (need k e1 n1) (need k e2 n2) in
  let w := Z.of_N (machine_word n1 n2) in
  ((d <= w -> s = d) /\ (w < d -> s < d))%Z.
Proof.
  intros HA HA' HN Hn Hn' k s d w.
  destruct (common_reskind e1 e2 HA HA' HN) as (_ & _ & HK & HX & HX'). fold k in HK, HX, HX'.
  pose proof (need_osize k e1 n1 HK HA HX Hn) as O1. pose proof (need_osize k e2 n2 HK HA' HX' Hn') as O2.
  pose proof (word_facts n1 Hn) as [W1 W1']. pose proof (word_facts n2 Hn') as [W2 W2'].
  assert (s = Z.min (Z.max (osize k e1 n1) (osize k e2 n2)) w) as ES.
  { unfold s, opsize, atmost. rewrite machine_word_ok. fold w. destruct (Z.geb_spec (Z.max (osize k e1 n1) (osize k e2 n2)) w); lia. }
  pose proof (machine_word_ok n1 n2) as EW. fold w in EW. rewrite ES. unfold d.
  destruct O1 as [O1 | (K1 & -> & A1 & B1 & C1)]; destruct O2 as [O2 | (K2 & -> & A2 & B2 & C2)].
  - rewrite O1, O2. lia.
  - assert (e1 = EInt) as -> by (unfold k in K2; destruct HA as [-> | [-> | ->]]; auto; discriminate).
    rewrite K2 in *. cbn [need] in O1, C2 |- *. rewrite O1, B2. unfold word in *. destruct (N.leb_spec n1 32), (N.leb_spec n2 32); lia.
  - assert (e2 = EInt) as -> by (unfold k in K1; destruct HA' as [-> | [-> | ->]]; auto; discriminate).
    rewrite K1 in *. cbn [need] in O2, C1 |- *. rewrite O2, B1. unfold word in *. destruct (N.leb_spec n1 32), (N.leb_spec n2 32); lia.
  - discriminate.
Qed.

(* two numeric branches that are not both Unary are accepted exactly when some type of the common kind, within the
   machine word of the two, holds every number of both; the type given is the narrowest such type *)
Theorem C94_accept : forall ec nc ct e1 n1 lt e2 n2 rt,
  primitive ec -> arith e1 -> arith e2 -> scalar_of ec nc ct -> scalar_of e1 n1 lt -> scalar_of e2 n2 rt ->
  condition_type ec nc -> ~ (e1 = EUnary /\ e2 = EUnary) ->
  ((exists t, qCheckAndLabel ct lt rt = QType t) <->
   (exists m, 1 <= m <= machine_word n1 n2 /\ holds_both (common e1 e2) m e1 n1 e2 n2)) /\
  (forall t, qCheckAndLabel ct lt rt = QType t ->
     exists m, scalar_of (common e1 e2) m t /\ holds_both (common e1 e2) m e1 n1 e2 n2 /\
       forall m', 1 <= m' -> holds_both (common e1 e2) m' e1 n1 e2 n2 -> m <= m') /\
  ((forall t, qCheckAndLabel ct lt rt <> QType t) -> qCheckAndLabel ct lt rt = QNav).
Proof.
  intros ec nc ct e1 n1 lt e2 n2 rt HPc HA1 HA2 Hc H1 H2 HC HN.
  pose proof H1 as (_ & _ & _ & _ & Hn1). pose proof H2 as (_ & _ & _ & _ & Hn2).
  destruct (common_reskind e1 e2 HA1 HA2 HN) as (EQ & ER & HK & HX1 & HX2). set (k := common e1 e2) in *.
  set (d := Z.max (need k e1 n1) (need k e2 n2)).
  pose proof (need_ge k e1 n1 HA1 Hn1) as G1. pose proof (need_ge k e2 n2 HA2 Hn2) as G2.
  assert (forall m, 1 <= m <= 64 -> holds_both k m e1 n1 e2 n2 <-> (d <= Z.of_N m)%Z) as HH.
  { intros m Hm. unfold holds_both. rewrite (need_holds k m e1 n1 HK HA1 HX1 Hm Hn1), (need_holds k m e2 n2 HK HA2 HX2 Hm Hn2). lia. }
  assert (exists s, (1 <= s <= 64)%Z /\ ((d <= Z.of_N (machine_word n1 n2))%Z -> s = d) /\ ((Z.of_N (machine_word n1 n2) < d)%Z -> (s < d)%Z) /\
    exists u, scalar_of k (Z.to_N s) u /\ qCalcNodeType lt rt = QType u) as (s & Hs & S1 & S2 & u & Hu & EC).
  { destruct (same_dec e1 e2 n1 n2) as [[E1 E2]|HD].
    - exists (Z.of_N n1). assert (k = e1) as Ek by (unfold k; subst e2; destruct HA1 as [-> | [-> | ->]]; try reflexivity; tauto).
      assert (d = Z.of_N n1) as Ed.
      { unfold d. rewrite <- E1, <- E2, Ek. destruct HA1 as [-> | [-> | ->]]; cbn [need]; lia. }
      assert (n1 <= machine_word n1 n2) by (unfold machine_word; destruct (N.leb_spec (N.max n1 n2) 32); lia).
      repeat split; try lia. exists lt. rewrite N2Z.id, Ek. split; auto. subst e2 n2. apply (calc_same e1 n1); auto.
    - pose proof (qsize_range e1 n1 e2 n2 HA1 HA2 Hn1 Hn2) as HR. pose proof (max_needs e1 n1 e2 n2 HA1 HA2 HN Hn1 Hn2) as HM. cbv zeta in HM.
      pose proof (calc_arith e1 n1 lt e2 n2 rt HA1 HA2 H1 H2 HD) as HCA. rewrite EQ in HCA. rewrite ER in HR, HCA. fold k in HM.
      eexists. split; [exact HR|]. split; [apply HM|]. split; [apply HM|]. eexists. split; [|exact HCA]. apply prim_scalar_Z. exact HR. }
  assert (qCheckAndLabel ct lt rt = if (d <=? s)%Z then QType u else QNav) as EL.
  { unfold qCheckAndLabel. destruct (condition_ok ec nc ct HPc Hc) as [[-> _]|[_ HF]]; [|tauto]. rewrite EC.
    rewrite (branch_arith k (Z.to_N s) u e1 n1 lt HK HA1 HX1 Hu H1). rewrite Z2N.id by lia.
    destruct (Z.leb_spec (need k e1 n1) s), (Z.leb_spec d s); unfold d in *; try lia; auto;
      rewrite (branch_arith k (Z.to_N s) u e2 n2 rt HK HA2 HX2 Hu H2); rewrite Z2N.id by lia;
      destruct (Z.leb_spec (need k e2 n2) s); try lia; auto. }
  assert (machine_word n1 n2 <= 64) as HMW by (unfold machine_word; destruct (N.max n1 n2 <=? 32); lia).
  rewrite EL. clear EL EC. split; [|split].
  - split.
    + intros [t Ht]. destruct (Z.leb_spec d s); [|discriminate].
      exists (Z.to_N d). assert (1 <= Z.to_N d <= machine_word n1 n2) by lia. split; auto. apply HH; lia.
    + intros (m & Hm & HB). apply HH in HB; [|lia]. destruct (Z.leb_spec d s); [eauto|]. lia.
  - intros t Ht. destruct (Z.leb_spec d s); [|discriminate]. injection Ht as <-. exists (Z.to_N s). split; auto.
    split; [apply HH; lia|]. intros m' Hm' HB. assert (64 <= m' \/ m' <= 64) as [H64|H64] by lia; [lia|].
    apply HH in HB; lia.
  - intros HF. destruct (Z.leb_spec d s); auto. exfalso. apply (HF u). reflexivity.
Qed.
Print Assumptions C94_accept.

(* branches of one and the same type: that type; the condition must be a Bool, or one bit of Unsigned or Unary *)
Theorem C94_condition : forall ec nc ct e n lt rt,
  primitive ec -> scalar_of ec nc ct -> primitive e -> scalar_of e n lt -> scalar_of e n rt ->
  (condition_type ec nc -> qCheckAndLabel ct lt rt = QType lt) /\
  (~ condition_type ec nc -> qCheckAndLabel ct lt rt = QNav).
Proof.
  intros ec nc ct e n lt rt HPc Hc HP H H'. unfold qCheckAndLabel. rewrite (calc_same _ _ _ _ H H').
  assert (qBranch lt lt = QType lt) as -> by (unfold qBranch; replace (same_type lt lt) with true; auto; symmetry; apply (same_type_scalar _ _ _ _ _ _ H H); auto).
  assert (qBranch rt lt = QType lt) as -> by (unfold qBranch; replace (same_type lt rt) with true; auto; symmetry; apply (same_type_scalar _ _ _ _ _ _ H H'); auto).
  destruct (condition_ok ec nc ct HPc Hc) as [[-> HC]|[-> HC]]; split; intros; tauto || reflexivity.
Qed.
Print Assumptions C94_condition.

(* a Bits branch: the expression is Bits of the larger size *)
Theorem C94_bits : forall ec nc ct e1 n1 lt e2 n2 rt,
  primitive ec -> scalar_of ec nc ct -> condition_type ec nc -> primitive e1 -> primitive e2 ->
  scalar_of e1 n1 lt -> scalar_of e2 n2 rt -> e1 = EBits \/ e2 = EBits ->
  exists t, qCheckAndLabel ct lt rt = QType t /\ scalar_of EBits (N.max n1 n2) t.
Proof.
  intros ec nc ct e1 n1 lt e2 n2 rt HPc Hc HC HP1 HP2 H1 H2 HX.
  destruct (same_dec e1 e2 n1 n2) as [[E1 E2]|HN].
  { subst e2 n2. exists lt. rewrite N.max_id. assert (e1 = EBits) by tauto. subst e1. split; [|exact H1].
    apply (C94_condition ec nc ct EBits n1 lt rt); auto. }
  pose proof H1 as (_ & _ & _ & _ & Hn1). pose proof H2 as (_ & _ & _ & _ & Hn2).
  set (t := prim EBits (Z.of_N (N.max n1 n2)) NONARRAYSIZE). assert (scalar_of EBits (N.max n1 n2) t) as HT by (apply prim_scalar; lia).
  exists t. split; auto. unfold qCheckAndLabel. rewrite (calc_bits _ _ _ _ _ _ HP1 HP2 H1 H2 HX HN). fold t.
  destruct (condition_ok ec nc ct HPc Hc) as [[-> _]|[_ HF]]; [|tauto].
  assert (forall e n ty, primitive e -> scalar_of e n ty -> n <= N.max n1 n2 -> qBranch ty t = QType t) as HB.
  { intros e n ty HP H HL. unfold qBranch. destruct (same_type t ty); auto. unfold checkSafeToCastTo, safeCast.
    rewrite (prim_safe_clear _ _ _ _ _ _ HT H). cbn [t prim ty_enum]. unfold bits_safe. destruct H as (-> & -> & _). cbn [t prim ty_bits].
    replace (Z.of_N (N.max n1 n2) >=? Z.of_N n)%Z with true by lia.
    destruct HP as [[-> | [-> | ->]] | [-> | ->]]; reflexivity. }
  rewrite (HB e1 n1 lt), (HB e2 n2 rt) by (auto; lia). reflexivity.
Qed.
Print Assumptions C94_bits.

(* two Unary branches of different sizes are refused (but for sizes 1 and 2), though the wider Unary holds both *)
Theorem C94_unary_refuted : forall ec nc ct n1 lt n2 rt,
  primitive ec -> scalar_of ec nc ct -> condition_type ec nc -> scalar_of EUnary n1 lt -> scalar_of EUnary n2 rt ->
  n1 <> n2 -> 3 <= N.max n1 n2 ->
  qCheckAndLabel ct lt rt = QNav /\ holds_both EUnary (N.max n1 n2) EUnary n1 EUnary n2.
Proof.
  intros ec nc ct n1 lt n2 rt HPc Hc HC H1 H2 HN H3.
  pose proof H1 as (_ & _ & _ & _ & Hn1). pose proof H2 as (_ & _ & _ & _ & Hn2).
  assert (arith EUnary) as HA by (unfold arith; auto).
  split.
  - unfold qCheckAndLabel. destruct (condition_ok ec nc ct HPc Hc) as [[-> _]|[_ HF]]; [|tauto].
    rewrite (calc_arith EUnary n1 lt EUnary n2 rt) by (auto; intros [_ HE]; auto).
    set (s := opsize Divide _ _ _).
    assert (s = Z.log2 (Z.of_N (N.max n1 n2)) + 1)%Z as Es.
    { unfold s, opsize, atmost, osize, reskind, kind. pose proof (log2_small n1 Hn1). pose proof (log2_small n2 Hn2).
      assert (Z.max (Z.log2 (Z.of_N n1) + 1) (Z.log2 (Z.of_N n2) + 1) = Z.log2 (Z.of_N (N.max n1 n2)) + 1)%Z as ->.
      { destruct (N.max_spec n1 n2) as [[HL ->]|[HL ->]]; [pose proof (Z.log2_le_mono (Z.of_N n1) (Z.of_N n2)) | pose proof (Z.log2_le_mono (Z.of_N n2) (Z.of_N n1))]; lia. }
      pose proof (log2_small (N.max n1 n2)). pose proof (word_max n1 n2 Hn1 Hn2).
      destruct (Z.geb_spec (Z.log2 (Z.of_N (N.max n1 n2)) + 1) (Z.max (word n1) (word n2))); lia. }
    assert (s < Z.of_N (N.max n1 n2))%Z as Hs.
    { rewrite Es. set (M := Z.of_N (N.max n1 n2)). assert (3 <= M)%Z by lia. clearbody M. clear - H.
      assert (Z.log2 M < M - 1)%Z; [|lia]. apply Z.log2_lt_pow2; [lia|].
      assert (M - 1 = Z.of_nat (Z.to_nat (M - 3)) + 2)%Z as -> by lia.
      assert (M = Z.of_nat (Z.to_nat (M - 3)) + 3)%Z as EM by lia. rewrite EM at 1.
      generalize (Z.to_nat (M - 3)). clear. induction n as [|n IH]; [cbn; lia|].
      replace (Z.of_nat (S n) + 2)%Z with (Z.succ (Z.of_nat n + 2)) by lia. rewrite Z.pow_succ_r by lia. lia. }
    pose proof (qsize_range EUnary n1 EUnary n2 HA HA Hn1 Hn2) as HR. fold s in HR.
    cbn [qkind etype_eqb]. set (t := prim EUnary s NONARRAYSIZE). assert (scalar_of EUnary (Z.to_N s) t) as HT by (apply prim_scalar_Z; lia).
    assert (forall n ty, scalar_of EUnary n ty -> qBranch ty t = if (Z.of_N n <=? s)%Z then QType t else QNav) as HB.
    { intros n ty H. unfold qBranch, checkSafeToCastTo, safeCast. rewrite (prim_safe_clear _ _ _ _ _ _ HT H).
      destruct (same_type t ty) eqn:ES.
      - apply (same_type_scalar _ _ _ _ _ _ HT H) in ES as [_ <-]. replace (Z.of_N (Z.to_N s) <=? s)%Z with true by lia. auto.
      - cbn [t prim ty_enum]. unfold unary_safe. destruct H as (-> & -> & _). cbn [t prim ty_bits bind].
        destruct (Z.geb_spec s (Z.of_N n)), (Z.leb_spec (Z.of_N n) s); try lia; reflexivity. }
    change (qkind EUnary EUnary) with EUnary. fold t.
    rewrite (HB n1 lt H1). destruct (Z.leb_spec (Z.of_N n1) s); [|reflexivity].
    rewrite (HB n2 rt H2). destruct (Z.leb_spec (Z.of_N n2) s); [lia|reflexivity].
  - split; intros z Hz; apply representable_iff in Hz; auto; try lia; apply representable_iff; auto; unfold lo, hi in *; lia.
Qed.
Print Assumptions C94_unary_refuted.

(* a Bool branch beside a number, or beside a Bool of another size, stops the compiler at an assertion instead of being
   accepted or refused with a message *)
Theorem C94_bool_refuted : forall ec nc ct e1 n1 lt e2 n2 rt,
  primitive ec -> scalar_of ec nc ct -> primitive e1 -> primitive e2 -> scalar_of e1 n1 lt -> scalar_of e2 n2 rt ->
  e1 = EBool \/ e2 = EBool -> e1 <> EBits -> e2 <> EBits -> ~ (e1 = e2 /\ n1 = n2) ->
  qCheckAndLabel ct lt rt = QAbort.
Proof.
  intros ec nc ct e1 n1 lt e2 n2 rt HPc Hc HP1 HP2 H1 H2 HX HB1 HB2 HN. unfold qCheckAndLabel.
  rewrite (calc_bool _ _ _ _ _ _ HP1 HP2 H1 H2 HX HB1 HB2 HN).
  destruct (condition_ok ec nc ct HPc Hc) as [[-> _]|[-> _]]; reflexivity.
Qed.
Print Assumptions C94_bool_refuted.

(* a constant condition: the node that replaces the expression has its type and the value it would have had *)
Theorem C94_fold : forall t c l r x,
  qConstantFold t c l r = Some x -> q_ty x = t /\ q_val x = qEval t c l r.
Proof.
  intros t c l r x. unfold qConstantFold, qEval. destruct (qTruth c) as [b|]; cbn [bind]; [|discriminate].
  intros H. injection H as <-. destruct b; split; reflexivity.
Qed.
Print Assumptions C94_fold.

(* Bool(3) c; Int(5) -3; Unsigned(5) 21: the type is Int(6), and the other branch is never evaluated *)
Definition ex_bool3 := prim EBool 3 NONARRAYSIZE.
Definition ex_int5 := prim EInt 5 NONARRAYSIZE.
Definition ex_uns5 := prim EUnsigned 5 NONARRAYSIZE.
Definition ex_val (t : utype) (d : N) : option uval := makeImmediate t d.

Example C94_ex :
  qCheckAndLabel ex_bool3 ex_int5 ex_uns5 = QType (prim EInt 6 NONARRAYSIZE) /\
  (exists c l x, ex_val ex_bool3 7 = Some c /\ ex_val ex_int5 29 = Some l /\
     qEval (prim EInt 6 NONARRAYSIZE) (mkNode ex_bool3 (Some c)) (mkNode ex_int5 (Some l)) (mkNode ex_uns5 None) = Some x /\
     number EBool 3 c = 1%Z /\ number EInt 5 l = (-3)%Z /\ number EInt 6 x = (-3)%Z) /\
  (exists c r x, ex_val ex_bool3 1 = Some c /\ ex_val ex_uns5 21 = Some r /\
     qEval (prim EInt 6 NONARRAYSIZE) (mkNode ex_bool3 (Some c)) (mkNode ex_int5 None) (mkNode ex_uns5 (Some r)) = Some x /\
     number EBool 3 c = 0%Z /\ number EInt 6 x = 21%Z) /\
  qCheckAndLabel ex_bool3 (prim EUnsigned 32 NONARRAYSIZE) ex_int5 = QNav /\
  qCheckAndLabel ex_bool3 (prim EUnsigned 32 NONARRAYSIZE) (prim EInt 40 NONARRAYSIZE) = QType (prim EInt 40 NONARRAYSIZE) /\
  qCheckAndLabel ex_bool3 (prim EUnary 3 NONARRAYSIZE) (prim EUnary 5 NONARRAYSIZE) = QNav /\
  qCheckAndLabel ex_bool3 (prim EUnary 1 NONARRAYSIZE) (prim EUnary 2 NONARRAYSIZE) = QType (prim EUnary 2 NONARRAYSIZE) /\
  qCheckAndLabel ex_bool3 (prim EBool 1 NONARRAYSIZE) ex_bool3 = QAbort /\
  scalar_of EInt 5 ex_int5 /\ scalar_of EUnsigned 5 ex_uns5 /\ condition_type EBool 3.
Proof.
  split; [reflexivity|]. split.
  { do 3 eexists. split; [reflexivity|]. split; [reflexivity|]. split; [reflexivity|]. repeat split; reflexivity. }
  split.
  { do 3 eexists. split; [reflexivity|]. split; [reflexivity|]. split; [reflexivity|]. repeat split; reflexivity. }
  repeat split; try reflexivity; try (cbn; lia). left. reflexivity.
Qed.
