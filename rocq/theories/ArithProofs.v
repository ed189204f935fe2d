(* ArithProofs.v: lemmas on the types of arithmetic expressions. *)
From Coq Require Import String List NArith ZArith Lia Bool.
From Coq Require Import ZifyBool ZifyNat ZifyN.
From Verif Require Import Base BitVec UTypeModel AtomModel AtomSpec AtomProofs PrimModel PrimSpec PrimProofs ArithModel.
Import ListNotations.
Ltac Zify.zify_post_hook ::= Z.div_mod_to_equations.
Open Scope N_scope.

Definition word (n : N) : Z := if n <=? 32 then 32%Z else 64%Z.

Lemma word_facts n : 1 <= n <= 64 -> (Z.of_N n <= word n /\ (word n = 32 \/ word n = 64))%Z.
Proof. unfold word. destruct (N.leb_spec n 32); lia. Qed.

(* how the sizes of the operands come out: a size in which the operand's number fits, as the kind of the result *)
Definition kind (e : etype) : etype := match e with EInt => EInt | _ => EUnsigned end.
Definition reskind (e e' : etype) : etype := match kind e, kind e' with EUnsigned, EUnsigned => EUnsigned | _, _ => EInt end.
Definition osize (res e : etype) (n : N) : Z :=
  match res, e with
  | EInt, EInt => Z.of_N n
  | EInt, EUnsigned => cap (Z.of_N n + 1) (word n)
  | EInt, _ => cap (Z.log2 (Z.of_N n) + 2) (word n)
  | _, EUnary => (Z.log2 (Z.of_N n) + 1)%Z
  | _, _ => Z.of_N n
  end.

Lemma log2_small n : 1 <= n <= 64 -> (0 <= Z.log2 (Z.of_N n) <= 6)%Z.
Proof.
  intros. split; [apply Z.log2_nonneg|]. transitivity (Z.log2 64); [|reflexivity]. apply Z.log2_le_mono. lia.
Qed.

Lemma osize_range res e n : arith e -> 1 <= n <= 64 -> (1 <= osize res e n <= 65)%Z /\ (res = EInt -> osize res e n <= word n)%Z /\
  (e <> EUnary -> osize res e n <= word n)%Z.
Proof.
  intros HA Hn. pose proof (log2_small n Hn). pose proof (word_facts n Hn) as [].
  destruct HA as [-> | [-> | ->]]; destruct res; unfold osize, cap; repeat split; intros; try congruence;
    try (destruct (Z.gtb_spec (Z.of_N n + 1) (word n)); lia); try (destruct (Z.gtb_spec (Z.log2 (Z.of_N n) + 2) (word n)); lia); try lia.
Qed.

Lemma calcBitsize_ok e n t : arith e -> scalar_of e n t ->
  calcBitsizeForResult t = Some (osize (kind e) e n, word n, kind e).
Proof.
  intros HA H. destruct (scalar_facts _ _ _ H) as (_ & HC & _ & _ & HW). destruct H as (HE & HB & _).
  unfold calcBitsizeForResult. rewrite HC, HE, HB, HW. unfold word.
  destruct HA as [-> | [-> | ->]]; reflexivity.
Qed.

Lemma convert_ok e n t res : arith e -> scalar_of e n t -> res = EInt \/ res = EUnsigned -> (res = EInt \/ e <> EInt) ->
  bitsizeToConvertTypeTo t res = Some (osize res e n).
Proof.
  intros HA H HR HX. destruct (scalar_facts _ _ _ H) as (_ & HC & _ & _ & HW). destruct H as (HE & HB & _ & _ & Hn).
  pose proof (log2_small n Hn). pose proof (word_facts n Hn) as [].
  unfold bitsizeToConvertTypeTo. rewrite HE, HB, HW. change (if n <=? 32 then 32%Z else 64%Z) with (word n).
  unfold osize, getLogBase2.
  destruct HR as [-> | ->]; destruct HA as [-> | [-> | ->]]; try (destruct HX; congruence);
    f_equal; unfold cap;
    repeat match goal with |- context [(?a >? ?b)%Z] => destruct (Z.gtb_spec a b) end; lia.
Qed.

Lemma calc_ok e n lt e' n' rt : arith e -> arith e' -> scalar_of e n lt -> scalar_of e' n' rt ->
  resultBitsizeCalc lt rt = Some (osize (reskind e e') e n, osize (reskind e e') e' n', Z.max (word n) (word n')).
Proof.
  intros HA HA' H H'. unfold resultBitsizeCalc. rewrite (calcBitsize_ok _ _ _ HA H), (calcBitsize_ok _ _ _ HA' H').
  assert ((if (word n >? word n')%Z then word n else word n') = Z.max (word n) (word n')) as ->
    by (destruct (Z.gtb_spec (word n) (word n')); lia).
  assert (forall a, arith a -> a = EInt \/ kind a = EUnsigned) as HK by (intros a [-> | [-> | ->]]; auto).
  destruct (HK e HA) as [-> | HKe]; destruct (HK e' HA') as [-> | HKe'].
  - reflexivity.
  - unfold reskind. rewrite HKe'. cbn [kind etype_eqb negb andb orb].
    rewrite (convert_ok e' n' rt EInt) by (auto; unfold arith; auto). reflexivity.
  - unfold reskind. rewrite HKe. cbn [kind etype_eqb negb andb orb].
    rewrite (convert_ok e n lt EInt) by (auto; unfold arith; auto). reflexivity.
  - unfold reskind. rewrite HKe, HKe'. reflexivity.
Qed.

Definition opsize (op : arithop) (a b w : Z) : Z :=
  match op with
  | Add | Subtract => atmost (Z.max a b + 1) w
  | Multiply => atmost (a + b) w
  | Divide | Remainder => atmost (Z.max a b) w
  end.

Lemma nodeType_ok op e n lt e' n' rt : arith e -> arith e' -> scalar_of e n lt -> scalar_of e' n' rt ->
  calcNodeType op lt rt =
    Some (prim (reskind e e') (opsize op (osize (reskind e e') e n) (osize (reskind e e') e' n') (Z.max (word n) (word n'))) (-1)).
Proof.
  intros HA HA' H H'. unfold calcNodeType, resultBitsize. rewrite (calc_ok _ _ _ _ _ _ HA HA' H H').
  destruct (scalar_facts _ _ _ H) as (HS & HC & _). destruct (scalar_facts _ _ _ H') as (HS' & HC' & _).
  destruct H as (HE & _). destruct H' as (HE' & _). unfold isNumericType. rewrite HS, HC, HS', HC', HE, HE'.
  set (a := osize _ e n). set (b := osize _ e' n').
  assert ((if (a >? b)%Z then a else b) = Z.max a b) as EM by (destruct (Z.gtb_spec a b); lia).
  destruct HA as [-> | [-> | ->]]; destruct HA' as [-> | [-> | ->]];
    cbn [andb negb etype_eqb]; destruct op; cbn [opsize reskind kind]; fold a b; rewrite ?EM; reflexivity.
Qed.

Lemma opsize_range op a b w : (1 <= a)%Z -> (1 <= b)%Z -> (w = 32 \/ w = 64)%Z -> (1 <= opsize op a b w <= w)%Z.
Proof.
  intros. unfold opsize, atmost. destruct op;
    match goal with |- context [(?x >=? ?y)%Z] => destruct (Z.geb_spec x y) end; lia.
Qed.

Lemma word_max n n' : 1 <= n <= 64 -> 1 <= n' <= 64 -> (Z.max (word n) (word n') = 32 \/ Z.max (word n) (word n') = 64)%Z.
Proof. intros. unfold word. destruct (n <=? 32), (n' <=? 32); auto. Qed.

Lemma prim_scalar e n : 1 <= n <= 64 -> scalar_of e n (prim e (Z.of_N n) (-1)).
Proof. intros. repeat split; cbn; lia. Qed.

Lemma opsize_scalar op e n e' n' : arith e -> arith e' -> 1 <= n <= 64 -> 1 <= n' <= 64 ->
  let s := opsize op (osize (reskind e e') e n) (osize (reskind e e') e' n') (Z.max (word n) (word n')) in
  (1 <= s <= 64)%Z /\ scalar_of (reskind e e') (Z.to_N s) (prim (reskind e e') s (-1)).
Proof.
  intros HA HA' Hn Hn' s.
  destruct (osize_range (reskind e e') e n HA Hn) as (HR & _). destruct (osize_range (reskind e e') e' n' HA' Hn') as (HR' & _).
  pose proof (opsize_range op (osize (reskind e e') e n) (osize (reskind e e') e' n') _ (proj1 HR) (proj1 HR') (word_max n n' Hn Hn')) as HS.
  fold s in HS. pose proof (word_max n n' Hn Hn'). clearbody s.
  split; [lia|]. rewrite <- (Z2N.id s) at 2 by lia. apply prim_scalar. lia.
Qed.

Lemma reskind_arith e e' : arith (reskind e e') /\ (reskind e e' = EInt \/ reskind e e' = EUnsigned).
Proof. unfold reskind, arith. destruct (kind e), (kind e'); auto. Qed.

(* the numbers of an operand fit its size, as the kind of the result, if the size is not cut short *)
Definition whole (res e : etype) (n : N) : Prop := ~ (res = EInt /\ e = EUnsigned /\ Z.of_N n = word n).

Lemma pow2_le a b : (0 <= a <= b)%Z -> (2 ^ a <= 2 ^ b)%Z.
Proof. intros. apply Z.pow_le_mono_r; lia. Qed.

Lemma log2_hi n : 1 <= n -> (Z.of_N n <= 2 ^ (Z.log2 (Z.of_N n) + 1) - 1)%Z.
Proof. intros. pose proof (Z.log2_spec (Z.of_N n) ltac:(lia)) as [_ HL]. rewrite Z.add_1_r. lia. Qed.

Lemma osize_fits res e n z : arith e -> (res = EInt \/ res = EUnsigned) -> (res = EInt \/ e <> EInt) -> 1 <= n <= 64 -> whole res e n ->
  (lo e n <= z <= hi e n)%Z ->
  match res with
  | EInt => (- 2 ^ (osize res e n - 1) <= z <= 2 ^ (osize res e n - 1) - 1)%Z
  | _ => (0 <= z <= 2 ^ osize res e n - 1)%Z
  end.
Proof.
  intros HA HR HX Hn HW Hz. pose proof (log2_small n Hn). pose proof (word_facts n Hn) as []. pose proof (log2_hi n ltac:(lia)).
  unfold whole in HW.
  destruct HR as [-> | ->]; destruct HA as [-> | [-> | ->]]; try (destruct HX; congruence); unfold lo, hi, osize in *.
  - lia.
  - unfold cap. destruct (Z.gtb_spec (Z.of_N n + 1) (word n)); [exfalso; apply HW; repeat split; lia|].
    replace (Z.of_N n + 1 - 1)%Z with (Z.of_N n) by lia. pose proof (zpow_pos (Z.of_N n) ltac:(lia)). lia.
  - unfold cap. destruct (Z.gtb_spec (Z.log2 (Z.of_N n) + 2) (word n)); [lia|].
    replace (Z.log2 (Z.of_N n) + 2 - 1)%Z with (Z.log2 (Z.of_N n) + 1)%Z by lia. lia.
  - lia.
  - lia.
Qed.
