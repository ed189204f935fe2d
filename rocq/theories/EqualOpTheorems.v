(* EqualOpTheorems.v: final theorems about the assignments that compute (C76). *)
From Coq Require Import String List NArith ZArith Lia Bool.
From Coq Require Import ZifyBool ZifyNat ZifyN.
From Verif Require Import Base BitVec UTypeModel AtomModel AtomSpec AtomProofs PrimModel PrimSpec PrimProofs PrimTheorems
  ArithModel ArithProofs ArithTheorems FoldModel FoldSpec FoldProofs FoldTheorems CastModel CastTheorems EqualOpModel EqualOpSpec EqualOpProofs.
Import ListNotations.
Ltac Zify.zify_post_hook ::= Z.div_mod_to_equations.
Open Scope N_scope.

Lemma clamp_nearest e n z : arith e -> 1 <= n -> nearest e n z (clamp (lo e n) (hi e n) z).
Proof.
  intros HA Hn. pose proof (hi_lo e n Hn) as HL. split.
  - apply representable_iff; auto. apply clamp_range; auto.
  - intros x HX. apply representable_iff in HX; auto. unfold clamp.
    destruct (Z.ltb_spec z (lo e n)); [lia|]. destruct (Z.gtb_spec z (hi e n)); lia.
Qed.

Lemma quot_facts a b : b <> 0%Z -> exists q r, (Z.quot a b = q /\ Z.rem a b = r /\ a = q * b + r /\ Z.abs r < Z.abs b /\ (r = 0 \/ Z.sgn r = Z.sgn a))%Z.
Proof.
  intros HB. exists (Z.quot a b), (Z.rem a b). split; auto. split; auto. split; [pose proof (Z.quot_rem' a b); lia|].
  split; [apply Z.rem_bound_abs; auto|]. destruct (Z.eq_dec (Z.rem a b) 0); auto. right. apply Z.rem_sign_nz; auto.
Qed.

Lemma exactly_apply op a b : (isDivision op = true -> b <> 0%Z) -> exactly op a b (apply_op op a b).
Proof.
  intros HD. destruct op; cbn [exactly apply_op]; try lia; destruct (quot_facts a b (HD eq_refl)) as (q & r & E1 & E2 & HE & HR & HS);
    specialize (HD eq_refl); rewrite ?E1, ?E2; clear E1 E2.
  - rewrite Z.abs_mul. destruct (Z.abs_spec a) as [[? ->]|[? ->]]; destruct (Z.abs_spec b) as [[? EB]|[? EB]]; destruct (Z.abs_spec q) as [[? EQ]|[? EQ]];
      destruct (Z.abs_spec r) as [[? ER]|[? ER]]; rewrite ?EB, ?EQ, ?ER in *; nia.
  - exists q. auto.
Qed.
Lemma exactly_unique op a b q : (isDivision op = true -> b <> 0%Z) -> exactly op a b q -> q = apply_op op a b.
Proof.
  intros HD. destruct op; cbn [exactly apply_op]; try lia; destruct (quot_facts a b (HD eq_refl)) as (q0 & r & E1 & E2 & HE & HR & HS);
    specialize (HD eq_refl); rewrite ?E1, ?E2; clear E1 E2.
  - intros [H1 H2]. rewrite Z.abs_mul in H1. destruct (Z.abs_spec a) as [[? EA]|[? EA]]; destruct (Z.abs_spec b) as [[? EB]|[? EB]]; destruct (Z.abs_spec q) as [[? EQ]|[? EQ]];
      destruct (Z.abs_spec r) as [[? ER]|[? ER]]; rewrite ?EA, ?EB, ?EQ, ?ER in *; nia.
  - intros (d & H1 & H2 & H3). assert (d = q0) by nia. subst. lia.
Qed.

(* ---- C76: op= of numbers ---- *)
Lemma rhs_number r e' n' l v : rhs_is r e' n' l -> own_bits (v_ty v) n' (v_bits v) = l -> number e' n' v = meaning e' l.
Proof. intros _ HO. unfold number. rewrite HO. reflexivity. Qed.

Lemma storable_number r e n e' n' l : 1 <= n' <= 64 -> rhs_is r e' n' l -> storable r e n e' n' -> representable e n (meaning e' l).
Proof.
  intros Hn HR HS. destruct r as [t c|v]; cbn [rhs_is storable] in *; destruct HR as [H ->]; auto.
  apply HS. apply own_bits_len. lia.
Qed.

Lemma arith_method op e long : arith e -> exists name, evalMethod long (QArith op) e = Some name.
Proof. intros [-> | [-> | ->]]; destruct long, op; cbn [evalMethod arithMethod]; eauto. Qed.

Lemma number_own e n t x : primitive e -> scalar_of e n t -> number e n (mkUV t x) = meaning e (msb_bits (N.to_nat n) x).
Proof. intros HP H. rewrite (number_term e n t x HP H). reflexivity. Qed.

Lemma arithAccepts_is r e n t e' n' l : arith e -> arith e' -> scalar_of e n t -> rhs_is r e' n' l ->
  exists b, arithAccepts t r = Some b /\ (b = true <-> storable r e n e' n').
Proof.
  intros HA HA' H HR. destruct (assignable_arith r e n t e' n' l HA HA' H HR) as (b & EB & HB).
  assert (scalar_of e' n' (rtype r)) as H' by (destruct r; apply HR).
  destruct (scalar_facts _ _ _ H) as (HS & HC & _). destruct (scalar_facts _ _ _ H') as (HS' & HC' & _). pose proof H as (HE & _).
  exists b. split; auto. unfold arithAccepts. rewrite HS, HS', HC, HC', EB. cbn [andb negb xorb bind].
  assert (isNumericType t = true) as -> by (unfold isNumericType; rewrite HE; destruct HA as [-> | [-> | ->]]; reflexivity).
  rewrite !andb_true_r. reflexivity.
Qed.

Theorem C76_arith : forall op post e n t p cur r e' n' l,
  arith e -> arith e' -> scalar_of e n t -> points p t n -> holds_fields (v_ty cur) = true -> ty_enum (v_ty cur) <> ENouti ->
  rhs_is r e' n' l -> (isDivision op = true -> meaning e' l <> 0%Z) ->
  (storable r e n e' n' ->
   exists cell v q, equalArith op post t p cur r = EDone cell v /\ elsewhere p n cur cell /\
     exactly op (content e p n cur) (meaning e' l) q /\ nearest e n q (content e p n cell) /\
     scalar_of e n (v_ty v) /\ number e n v = content e p n (if post then cur else cell)) /\
  (~ storable r e n e' n' -> equalArith op post t p cur r = EErr).
Proof.
  intros op post e n t p cur r e' n' l HA HA' H HPT HF HN HR HZ.
  assert (primitive e) as HP by (left; auto). assert (primitive e') as HP' by (left; auto).
  destruct (arithAccepts_is r e n t e' n' l HA HA' H HR) as (b & EB & HB). unfold equalArith. rewrite EB.
  split; intros HS.
  2:{ destruct b; auto. exfalso. apply HS. apply HB. reflexivity. }
  assert (b = true) as -> by (apply HB; auto).
  destruct (rvalue_ok r e' n' l HP' HR) as (v & EV & HV & HO & HTy). rewrite EV. cbn [bind].
  destruct (operand_ok e n t e' n' v HA HA' H HV) as (x & EX & HX & NX). rewrite EX. cbn [bind].
  pose proof H as (HE & _ & _ & _ & Hn). pose proof HV as (_ & _ & _ & _ & Hn').
  pose proof (storable_number r e n e' n' l Hn' HR HS) as HRep. apply representable_iff in HRep; auto; try lia.
  unfold number in NX at 2. rewrite HO, clamp_id in NX by auto. set (zr := meaning e' l) in *.
  set (z := content e p n cur). set (d := ext_enc e (Z.of_N n) (apply_op op z zr)).
  destruct (arith_method op e (negb (n <=? 32)) HA) as (name & EM).
  pose proof HX as (HEx & _).
  assert (ext_val e (Z.of_N n) (v_bits x mod 2 ^ n) = zr) as ER.
  { rewrite ext_val_mod, ext_val_meaning by (auto; lia). rewrite <- NX. unfold number. rewrite own_low by (try (rewrite HEx; apply prim_plain; auto); lia). reflexivity. }
  assert (ext_val e (Z.of_N n) (bval (placed p n cur)) = z) as EL.
  { rewrite ext_val_meaning by (auto; lia). unfold z, content, placed. rewrite field_bval by apply HPT. reflexivity. }
  destruct (doEqual_ok (QArith op) e n t p cur x d name HP H HPT HF HN) as (cell & ED & HEl & HPl); auto.
  { rewrite HEx. apply prim_plain; auto. }
  { unfold ext_eqop. rewrite ER. unfold ext_binop. rewrite EL, ER. fold d.
    assert (isDivision op && (zr =? 0)%Z = false) as ->.
    { destruct (isDivision op); auto. cbn [andb]. specialize (HZ eq_refl). lia. }
    destruct HA as [-> | [-> | ->]]; reflexivity. }
  rewrite ED. cbn [bind fst].
  assert (content e p n cell = clamp (lo e n) (hi e n) (apply_op op z zr)) as EC.
  { unfold content. rewrite HPl. unfold d. rewrite ext_enc_meaning by (auto; lia). reflexivity. }
  assert (number e n (mkUV t (d mod 2 ^ n)) = content e p n cell) as ENw.
  { rewrite (number_own e n t) by auto. unfold content. rewrite HPl, msb_bits_mod by lia. reflexivity. }
  assert (number e n (mkUV t (bval (placed p n cur))) = z) as EOld.
  { rewrite (number_own e n t) by auto. unfold z, content, placed. rewrite field_bval by apply HPT. reflexivity. }
  exists cell, (if post then mkUV t (bval (placed p n cur)) else mkUV t (d mod 2 ^ n)), (apply_op op z zr).
  split. { destruct post; [rewrite (oldValue_ok e n t) by auto|]; reflexivity. }
  split; auto. split; [apply exactly_apply; auto|]. split; [rewrite EC; apply clamp_nearest; auto; lia|].
  split; destruct post; auto.
Qed.
Print Assumptions C76_arith.

(* ---- C76: the sum with 1 and the difference with 1 are always accepted, but on an Int of one bit ---- *)
Lemma one_is : rhs_is one EInt 2 [false; true].
Proof. split; [split; [reflexivity|split; [reflexivity|split; [reflexivity|split; [reflexivity|lia]]]]|reflexivity]. Qed.

Theorem C76_step : forall (up post : bool) e n t p cur,
  arith e -> scalar_of e n t -> points p t n -> holds_fields (v_ty cur) = true -> ty_enum (v_ty cur) <> ENouti ->
  if etype_eqb e EInt && (n =? 1) then equalArith (if up then Add else Subtract) post t p cur one = EErr
  else exists cell v, equalArith (if up then Add else Subtract) post t p cur one = EDone cell v /\ elsewhere p n cur cell /\
    nearest e n (content e p n cur + (if up then 1 else -1)) (content e p n cell) /\
    scalar_of e n (v_ty v) /\ number e n v = content e p n (if post then cur else cell).
Proof.
  intros up post e n t p cur HA H HPT HF HN. pose proof H as (_ & _ & _ & _ & Hn).
  destruct (C76_arith (if up then Add else Subtract) post e n t p cur one EInt 2 [false; true] HA (or_introl eq_refl) H HPT HF HN one_is) as [H1 H2].
  { destruct up; discriminate. }
  assert (storable one e n EInt 2 <-> ~ (e = EInt /\ n = 1)) as HS.
  { cbn [one storable]. change (cnum EInt 2 1) with 1%Z. rewrite representable_iff by (auto; lia).
    destruct HA as [-> | [-> | ->]]; unfold lo, hi.
    - pose proof (zpow_pos (Z.of_N n - 1) ltac:(lia)). destruct (N.eq_dec n 1) as [->|NE]; [cbn; split; [lia|tauto]|].
      pose proof (pow2_le 1 (Z.of_N n - 1) ltac:(lia)). split; [tauto|]. intros _. change (2 ^ 1)%Z with 2%Z in *. lia.
    - pose proof (pow2_le 1 (Z.of_N n) ltac:(lia)). change (2 ^ 1)%Z with 2%Z in *. split; [intros _ [HX _]; discriminate|lia].
    - split; [intros _ [HX _]; discriminate|lia]. }
  destruct (etype_eqb e EInt && (n =? 1)) eqn:EE.
  - apply andb_true_iff in EE as [EE1 EE2]. apply etype_eqb_eq in EE1. apply N.eqb_eq in EE2. apply H2. tauto.
  - assert (storable one e n EInt 2) as HX.
    { apply HS. intros [-> ->]. discriminate. }
    destruct (H1 HX) as (cell & v & q & A & B & C & D & E & F). exists cell, v. split; auto. split; auto. split; auto.
    change (meaning EInt [false; true]) with 1%Z in C. destruct up; cbn [exactly] in C; [subst q; auto|].
    replace (content e p n cur + -1)%Z with q by lia. auto.
Qed.
Print Assumptions C76_step.

(* ---- C76: only numbers ---- *)
Theorem C76_numbers_only : forall op post e n t p cur r cell v, primitive e -> scalar_of e n t -> equalArith op post t p cur r = EDone cell v -> arith e.
Proof.
  intros op post e n t p cur r cell v HP H HD. pose proof H as (HE & _). destruct HP as [HA|HB]; auto. exfalso.
  unfold equalArith, arithAccepts in HD. assert (isNumericType t = false) as HN by (unfold isNumericType; rewrite HE; destruct HB as [-> | ->]; reflexivity).
  rewrite HN in HD. destruct (negb _); [discriminate|]. destruct (xorb _ _); [discriminate|]. destruct (assignable t r) as [b|]; [|discriminate].
  cbn [bind] in HD. rewrite andb_false_r in HD. discriminate.
Qed.
Print Assumptions C76_numbers_only.

(* ---- C76: &= |= ^= ---- *)
Lemma rhs_length r e' n' l : rhs_is r e' n' l -> length l = N.to_nat n' /\ 1 <= n' <= 64.
Proof.
  destruct r as [t c|v]; cbn [rhs_is]; intros [H ->]; destruct H as (_ & _ & _ & _ & Hn); (split; auto).
  - apply msb_bits_length.
  - apply own_bits_len. lia.
Qed.

Lemma operand_to_bits n t e' n' v : primitive e' -> scalar_of EBits n t -> scalar_of e' n' (v_ty v) ->
  exists x, operand t v = Some x /\ scalar_of EBits n (v_ty x) /\ v_bits x mod 2 ^ n = bval (own_bits (v_ty v) n' (v_bits v)) mod 2 ^ n.
Proof.
  intros HP' H H'. assert (primitive EBits) as HPB by (right; right; auto). pose proof H as (HE & _ & _ & _ & Hn). pose proof H' as (HE' & _ & _ & _ & Hn').
  unfold operand. destruct (same_type t (v_ty v)) eqn:ES.
  - destruct (same_type_facts _ _ _ _ _ _ H H' ES) as [<- <-]. exists v. split; auto. split; auto.
    rewrite own_low by (try (rewrite HE'; reflexivity); lia). rewrite bval_msb, N2Nat.id, N.mod_mod by (apply N.pow_nonzero; lia). reflexivity.
  - destruct (C74_bits EBits n t e' n' v HPB HP' (or_introl eq_refl) H H') as (x & EX & HT & HO). rewrite EX. exists x. split; auto. rewrite HT. split; auto.
    rewrite <- HO. rewrite own_low by (try (rewrite HE; reflexivity); lia). rewrite bval_msb, N2Nat.id. reflexivity.
Qed.

Lemma placed_bit p n cur i : p_pos p + n <= 96 -> 1 <= n <= 64 -> bit (placed p n cur) i = N.testbit (bval (placed p n cur)) (N.of_nat i).
Proof. intros HP Hn. apply bit_testbit. Qed.

Theorem C76_bits : forall op n t p cur r e' n' l,
  primitive e' -> scalar_of EBits n t -> points p t n -> holds_fields (v_ty cur) = true -> ty_enum (v_ty cur) <> ENouti -> rhs_is r e' n' l ->
  (n' <= n -> exists cell v, equalBitwise op t p cur r = EDone cell v) /\
  (forall cell v, equalBitwise op t p cur r = EDone cell v ->
     elsewhere p n cur cell /\
     (forall i, (i < N.to_nat n)%nat -> bit (placed p n cell) i = both op (bit (placed p n cur) i) (bit l i)) /\
     bits_are n v (bit (placed p n cell))).
Proof.
  intros op n t p cur r e' n' l HP' H HPT HF HN HR. assert (primitive EBits) as HPB by (right; right; auto).
  assert (scalar_of e' n' (rtype r)) as H' by (destruct r; apply HR).
  destruct (scalar_facts _ _ _ H) as (HS & HC & _). destruct (scalar_facts _ _ _ H') as (HS' & HC' & _). pose proof H as (HE & HBi & _ & _ & Hn).
  pose proof H' as (HE' & HB' & _). pose proof (rhs_length r e' n' l HR) as [HL Hn'].
  assert (bitwiseAccepts t r = do f <- rsafe r t; Some (forecast_eqb f CAST_CLEAR)) as EA.
  { unfold bitwiseAccepts. rewrite HS, HS', HC, HC', HE. reflexivity. }
  assert (exists cell v, done (do v <- rvalue r; do x <- operand t v; doEqualImmediate (QBits op) t p cur x) = EDone cell v /\
    elsewhere p n cur cell /\
    (forall i, (i < N.to_nat n)%nat -> bit (placed p n cell) i = both op (bit (placed p n cur) i) (bit l i)) /\
    bits_are n v (bit (placed p n cell))) as (cell & v & ED & HR1 & HR2 & HR3).
  { destruct (rvalue_ok r e' n' l HP' HR) as (v & EV & HV & HO & _). rewrite EV. cbn [bind].
    destruct (operand_to_bits n t e' n' v HP' H HV) as (x & EX & HXs & HXb). rewrite EX. cbn [bind]. rewrite HO in HXb. pose proof HXs as (HEx & _).
    set (d := ext_bitwise op n (bval (placed p n cur)) (v_bits x mod 2 ^ n)).
    assert (exists name, evalMethod (negb (n <=? 32)) (QBits op) EBits = Some name) as (name & EM) by (destruct (negb (n <=? 32)), op; cbn; eauto).
    destruct (doEqual_ok (QBits op) EBits n t p cur x d name HPB H HPT HF HN) as (cell & ED & HEl & HPl); auto.
    { rewrite HEx. reflexivity. }
    rewrite ED. cbn [done]. exists cell, (mkUV t (d mod 2 ^ n)). split; auto. split; auto. split.
    + intros i Hi. rewrite HPl, bit_msb by auto. rewrite placed_bit by (auto; apply HPT). rewrite (bit_testbit l). unfold d, ext_bitwise.
      rewrite N.mod_pow2_bits_low by lia. rewrite HXb.
      assert (N.testbit (bval l) (N.of_nat i) = N.testbit (bval l mod 2 ^ n) (N.of_nat i)) as -> by (rewrite N.mod_pow2_bits_low by lia; reflexivity).
      destruct op; cbn [both]; [apply N.land_spec|apply N.lor_spec|apply N.lxor_spec].
    + split; [exact H|]. intros i Hi. cbn [v_ty v_bits]. rewrite own_low by (try (rewrite HE; reflexivity); lia). rewrite msb_bits_mod by lia. rewrite HPl. reflexivity. }
  unfold equalBitwise. split.
  - intros Hle. assert (rsafe r t = Some CAST_CLEAR) as ES.
    { destruct r as [tr c|w]; cbn [rsafe rtype] in *.
      - apply (literal_into_bits e' n' tr c n); auto; lia.
      - unfold safeCast. rewrite (prim_safe_clear _ _ _ _ _ _ H H'), HE. unfold bits_safe. rewrite HE', HB', HBi.
        replace (Z.of_N n >=? Z.of_N n')%Z with true by lia. clear - HP'. unfold primitive, arith in HP'. intuition subst; reflexivity. }
    rewrite EA, ES. cbn [bind forecast_eqb]. rewrite ED. eauto.
  - intros cell' v' HD. destruct (bitwiseAccepts t r) as [[]|]; try discriminate. rewrite ED in HD. inversion HD. subst. auto.
Qed.
Print Assumptions C76_bits.

(* a wider expression is refused and so is a left side that is not Bits *)
Theorem C76_bits_refused : forall op e n t p cur r, primitive e -> scalar_of e n t ->
  (forall v e' n', r = RVal v -> primitive e' -> scalar_of e' n' (v_ty v) -> n < n' -> equalBitwise op t p cur r = EErr) /\
  (e <> EBits -> equalBitwise op t p cur r = EErr) /\ (forall o, e <> EBits -> equalShift o t p cur r = EErr).
Proof.
  intros op e n t p cur r HP H. destruct (scalar_facts _ _ _ H) as (HS & HC & _). pose proof H as (HE & HBi & _). split; [|split].
  - intros v e' n' -> HP' H' Hlt. destruct (scalar_facts _ _ _ H') as (HS' & HC' & _). pose proof H' as (HE' & HB' & _).
    unfold equalBitwise, bitwiseAccepts. cbn [rtype rsafe]. rewrite HS, HS', HC, HC', HE. cbn [negb andb]. destruct (etype_eqb e EBits) eqn:EB; [|reflexivity].
    apply etype_eqb_eq in EB. subst e. unfold safeCast. rewrite (prim_safe_clear _ _ _ _ _ _ H H'), EB. unfold bits_safe. rewrite HE', HB', HBi.
    replace (Z.of_N n >=? Z.of_N n')%Z with false by lia. clear - HP'. unfold primitive, arith in HP'. intuition subst; reflexivity.
  - intros HB. unfold equalBitwise, bitwiseAccepts. rewrite HE. destruct (negb _); [reflexivity|]. destruct (negb _); [reflexivity|].
    destruct (etype_eqb e EBits) eqn:EB; [apply etype_eqb_eq in EB; congruence|reflexivity].
  - intros o HB. unfold equalShift, shiftAccepts. rewrite HE. destruct (negb _); [reflexivity|]. destruct (negb _); [reflexivity|].
    destruct (etype_eqb e EBits) eqn:EB; [apply etype_eqb_eq in EB; congruence|reflexivity].
Qed.
Print Assumptions C76_bits_refused.

(* ---- C76: <<= >>= ---- *)
Lemma distance_ok r e' n' l d : arith e' -> rhs_is r e' n' l -> clean r n' -> meaning e' l = Z.of_N d -> d < 2 ^ 32 ->
  exists x, distance r = Some x /\ ty_enum (v_ty x) = EUnsigned /\ v_bits x = d.
Proof.
  intros HA HR HC HM Hd. assert (primitive e') as HP by (left; auto). destruct r as [t c|v]; cbn [rhs_is clean] in *; destruct HR as [H ->]; unfold distance; cbn [rvalue rtype].
  - rewrite (terminal_ok e' n' t c HP H). cbn [bind]. apply (shift_right_operand e' n' t c d); auto.
  - cbn [bind]. pose proof H as (HE & _ & _ & _ & Hn).
    assert (mkUV (v_ty v) (v_bits v mod 2 ^ n') = v) as EV by (rewrite N.mod_small by auto; destruct v; reflexivity).
    destruct (shift_right_operand e' n' (v_ty v) (v_bits v) d HA H) as (x & EX & HX); auto.
    { rewrite <- HM. unfold cnum, cbits. rewrite own_low by (try (rewrite HE; apply prim_plain; auto); lia). reflexivity. }
    rewrite EV in EX. exists x. auto.
Qed.

Lemma rsafe_distance r e' n' l : arith e' -> rhs_is r e' n' l ->
  exists b, rsafe r Unsigned32 = Some b /\ (b = CAST_CLEAR <-> storable r EUnsigned 32 e' n').
Proof.
  intros HA' HR. assert (scalar_of EUnsigned 32 Unsigned32) as HU by (repeat split; cbn; lia). assert (arith EUnsigned) as HAU by (right; left; auto).
  assert (scalar_of e' n' (rtype r)) as H' by (destruct r; apply HR). destruct r as [tr c|v]; cbn [rsafe rtype storable] in *.
  - destruct (C52_literal_accepted_iff_representable e' n' tr c EUnsigned 32 Unsigned32 HA' HAU H' HU) as (f & -> & HX). eauto.
  - pose proof (C23_safe_cast_exact EUnsigned 32 Unsigned32 e' n' (v_ty v) HAU HA' HU H') as HX.
    destruct (safe_ranges EUnsigned 32 Unsigned32 e' n' (v_ty v) HAU HA' HU H') as (b & EB & _). rewrite EB in *.
    eexists. split; [reflexivity|]. rewrite <- HX. split; [intros ->; reflexivity|congruence].
Qed.

Theorem C76_shift_by : forall op n t p cur r e' n' l,
  arith e' -> scalar_of EBits n t -> points p t n -> holds_fields (v_ty cur) = true -> ty_enum (v_ty cur) <> ENouti -> rhs_is r e' n' l -> clean r n' ->
  (storable r EUnsigned 32 e' n' -> exists d, meaning e' l = Z.of_N d /\
     (d mod 2 ^ n < (if n <=? 32 then 32 else 64) -> exists cell v, equalShift op t p cur r = EDone cell v /\ elsewhere p n cur cell /\
        (forall i, (i < N.to_nat n)%nat -> bit (placed p n cell) i = moved op (d mod 2 ^ n) (placed p n cur) i) /\ bits_are n v (bit (placed p n cell)))) /\
  (~ storable r EUnsigned 32 e' n' -> equalShift op t p cur r = EErr).
Proof.
  intros op n t p cur r e' n' l HA' H HPT HF HN HR HCl. assert (primitive EBits) as HPB by (right; right; auto).
  assert (scalar_of e' n' (rtype r)) as H' by (destruct r; apply HR).
  destruct (scalar_facts _ _ _ H) as (HS & HC & _). destruct (scalar_facts _ _ _ H') as (HS' & HC' & _). pose proof H as (HE & HBi & _ & _ & Hn).
  pose proof (rhs_length r e' n' l HR) as [HL Hn'].
  destruct (rsafe_distance r e' n' l HA' HR) as (f & EF & HX).
  assert (shiftAccepts t r = Some (forecast_eqb f CAST_CLEAR)) as EA.
  { unfold shiftAccepts. rewrite HS, HS', HC, HC', HE, EF. reflexivity. }
  unfold equalShift. rewrite EA. split.
  - intros HSt. pose proof HSt as HSt'. apply HX in HSt. subst f. cbn [forecast_eqb].
    assert (representable EUnsigned 32 (meaning e' l)) as (lu & HLu & HM).
    { destruct r as [tr c|v]; cbn [storable rhs_is] in *; destruct HR as [_ ->]; auto. }
    exists (bval lu). cbn [meaning] in HM. split; [auto|]. intros HD. assert (bval lu < 2 ^ 32) as HB by (pose proof (bval_lt lu) as HB; rewrite HLu in HB; exact HB).
    destruct (distance_ok r e' n' l (bval lu) HA' HR HCl (eq_sym HM) HB) as (x & EX & HXe & HXb). rewrite EX. cbn [bind]. set (D := bval lu mod 2 ^ n) in *.
    assert (exists name, evalMethod (negb (n <=? 32)) (QShift op) EBits = Some name) as (name & EM) by (destruct (negb (n <=? 32)), op; cbn; eauto).
    set (o := bval (placed p n cur)). assert (o < 2 ^ n) as Ho by (apply bval_placed; [apply HPT|lia]).
    set (d := match op with ShLeft => N.shiftl o D mod 2 ^ n | ShRight => N.shiftr (o mod 2 ^ n) D end).
    destruct (doEqual_ok (QShift op) EBits n t p cur x d name HPB H HPT HF HN) as (cell & ED & HEl & HPl); auto.
    { rewrite HXe. reflexivity. }
    { cbn [ext_eqop]. rewrite HXb. fold D. fold o. unfold ext_shift. replace (D <? (if negb (n <=? 32) then 64 else 32)) with true by (destruct (n <=? 32); cbn [negb]; lia). reflexivity. }
    rewrite ED. cbn [done]. exists cell, (mkUV t (d mod 2 ^ n)). split; auto. split; auto. split.
    + intros i Hi. rewrite HPl, bit_msb by auto. unfold moved. destruct op; unfold d.
      * rewrite N.mod_pow2_bits_low by lia. destruct (Nat.ltb_spec i (N.to_nat D)).
        -- apply N.shiftl_spec_low. lia.
        -- rewrite N.shiftl_spec_high' by lia. rewrite bit_testbit. unfold o. f_equal. lia.
      * rewrite N.shiftr_spec', bit_testbit, N.mod_small by auto. unfold o. f_equal. lia.
    + split; [exact H|]. intros i Hi. cbn [v_ty v_bits]. rewrite own_low by (try (rewrite HE; reflexivity); lia). rewrite msb_bits_mod by lia. rewrite HPl. reflexivity.
  - intros HSt. destruct f; try reflexivity. exfalso. apply HSt, HX. reflexivity.
Qed.
Print Assumptions C76_shift_by.

(* the shift is right for a distance that can be written with as many bits as the left side has and is less than the word *)
Theorem C76_shift_partial : forall op n t p cur r e' n' l d,
  arith e' -> scalar_of EBits n t -> points p t n -> holds_fields (v_ty cur) = true -> ty_enum (v_ty cur) <> ENouti -> rhs_is r e' n' l -> clean r n' ->
  storable r EUnsigned 32 e' n' -> meaning e' l = Z.of_N d -> d < 2 ^ n -> d < (if n <=? 32 then 32 else 64) ->
  exists cell v, equalShift op t p cur r = EDone cell v /\ elsewhere p n cur cell /\
    (forall i, (i < N.to_nat n)%nat -> bit (placed p n cell) i = moved op d (placed p n cur) i) /\ bits_are n v (bit (placed p n cell)).
Proof.
  intros op n t p cur r e' n' l d HA' H HPT HF HN HR HCl HSt HM Hd HW.
  destruct (C76_shift_by op n t p cur r e' n' l HA' H HPT HF HN HR HCl) as [HX _]. destruct (HX HSt) as (d' & HM' & HY).
  assert (d' = d) as -> by lia. rewrite N.mod_small in HY by auto. auto.
Qed.
Print Assumptions C76_shift_partial.

(* ---- C76: the evaluator and the generated code make the same call ---- *)
Lemma arith_name e n t op : arith e -> scalar_of e n t -> exists name, evalMethod (negb (n <=? 32)) (QArith op) e = Some name /\ methodNameForCodeGen (QArith op) t = Some name.
Proof.
  intros HA H. pose proof H as (HE & HB & _). destruct (scalar_facts _ _ _ H) as (_ & _ & _ & _ & HW).
  unfold methodNameForCodeGen. rewrite HE, ?HW. destruct (n <=? 32); destruct HA as [-> | [-> | ->]]; destruct op; cbn; eauto.
Qed.

Lemma bits_name n t op : scalar_of EBits n t -> (exists o, op = QBits o) \/ (exists o, op = QShift o) ->
  exists name, evalMethod (negb (n <=? 32)) op EBits = Some name /\ methodNameForCodeGen op t = Some name.
Proof.
  intros H HO. pose proof H as (HE & HB & _). destruct (scalar_facts _ _ _ H) as (_ & _ & _ & _ & HW).
  unfold methodNameForCodeGen. rewrite HE, ?HW. destruct (n <=? 32); destruct HO as [[[] ->] | [[] ->]]; cbn; eauto.
Qed.

Lemma both_calls op e n t p cur x m : scalar_of e n t -> points p t n -> holds_fields (v_ty cur) = true ->
  primitive (ty_enum (v_ty x)) -> scalar_of (ty_enum (v_ty x)) m (v_ty x) ->
  (exists name, evalMethod (negb (n <=? 32)) op e = Some name /\ methodNameForCodeGen op t = Some name) ->
  exists name, evalCall op t p cur x = Some (negb (n <=? 32), mkCall name (bval (placed p n cur)) (v_bits x mod 2 ^ n) n) /\
    genCall op t p cur x = Some (mkCall name (bval (placed p n cur)) (v_bits x mod 2 ^ m) n).
Proof.
  intros H HPT HF HPx Hx (name & EM & EG). exists name. pose proof H as (HE & HB & _ & _ & Hn). pose proof Hx as (_ & _ & _ & _ & Hm).
  destruct (scalar_facts _ _ _ H) as (_ & _ & HT & _ & HW). destruct (scalar_facts _ _ _ Hx) as (_ & _ & HTx & _).
  assert (plain (ty_enum (v_ty x)) = true) as HPl by (apply prim_plain; auto). split.
  - unfold evalCall. rewrite HT, HW, zlen_of. cbn [bind]. destruct (N.leb_spec n 32); cbn [negb] in *; cbn [Z.eqb Pos.eqb].
    + rewrite (read32 e n t) by auto. rewrite get32 by (auto; lia). cbn [bind]. rewrite HE, EM. reflexivity.
    + rewrite (read64 e n t) by auto. rewrite get64 by (auto; lia). cbn [bind]. rewrite HE, EM. reflexivity.
  - unfold genCall. rewrite HB, HTx, !zlen_of. cbn [bind]. rewrite (read64 e n t) by auto. rewrite get64 by (auto; lia). cbn [bind]. rewrite EG. reflexivity.
Qed.

(* arithmetic and bitwise: the right side has the type of the left, by a cast if need be *)
Theorem C76_same_call : forall op e n t p cur x, scalar_of e n t -> points p t n -> holds_fields (v_ty cur) = true -> scalar_of e n (v_ty x) ->
  (exists o, op = QArith o /\ arith e) \/ (exists o, op = QBits o /\ e = EBits) ->
  exists long k, evalCall op t p cur x = Some (long, k) /\ genCall op t p cur x = Some k.
Proof.
  intros op e n t p cur x H HPT HF Hx HO. pose proof Hx as (HEx & _).
  assert (primitive e) as HP by (destruct HO as [(o & _ & HA) | (o & _ & ->)]; [left; auto | right; right; auto]).
  destruct (both_calls op e n t p cur x n H HPT HF) as (name & E1 & E2); try (rewrite HEx; auto).
  - destruct HO as [(o & -> & HA) | (o & -> & ->)]; [eapply arith_name; eauto | eapply bits_name; eauto].
  - rewrite E1, E2. eauto.
Qed.
Print Assumptions C76_same_call.

(* shifts: all is the same but the distance, which the evaluator cuts to the size of the left side; so the calls are the same exactly if
   the distance can be written with as many bits as the left side has *)
Theorem C76_same_shift_partial : forall o n t p cur x m, scalar_of EBits n t -> points p t n -> holds_fields (v_ty cur) = true ->
  scalar_of EUnsigned m (v_ty x) -> v_bits x < 2 ^ m ->
  exists long k k', evalCall (QShift o) t p cur x = Some (long, k) /\ genCall (QShift o) t p cur x = Some k' /\ c_right k' = v_bits x /\
    (k = k' <-> v_bits x < 2 ^ n).
Proof.
  intros o n t p cur x m H HPT HF Hx HC. pose proof Hx as (HEx & _). assert (primitive EUnsigned) as HP by (left; right; left; auto).
  destruct (both_calls (QShift o) EBits n t p cur x m H HPT HF) as (name & E1 & E2); try (rewrite HEx; auto).
  - eapply bits_name; eauto.
  - rewrite E1, E2. do 3 eexists. repeat (split; [reflexivity|]). cbn [c_right]. rewrite (N.mod_small _ (2 ^ m)) by auto. split; auto. split.
    + intros HK. injection HK as HK. rewrite <- HK. apply N.mod_lt. apply N.pow_nonzero. lia.
    + intros HL. rewrite N.mod_small by auto. reflexivity.
Qed.
Print Assumptions C76_same_shift_partial.

(* ---- C76: a concrete place; the refutations ---- *)
(* fields of w bits at position 25 of an element *)
Definition ex_cell (w c : N) : uval := mkUV (mkTy EClass 71 NONARRAYSIZE AltNot CElement 0 0 false 0) (N.shiftl c (71 - w)).
Definition ex_ptr (t : utype) (w : N) : uptr := mkPtr 1 STACK t PACKEDLOADABLE 25 w false.
Definition b3 : utype := prim EBits 3 NONARRAYSIZE.
Definition i4 : utype := prim EInt 4 NONARRAYSIZE.

Example C76_ex_points : makePtr 1 STACK b3 (determinePackable b3) 25 = Some (ex_ptr b3 3) /\ points (ex_ptr b3 3) b3 3 /\ points (ex_ptr i4 4) i4 4 /\
  scalar_of EBits 3 b3 /\ scalar_of EInt 4 i4 /\ holds_fields (v_ty (ex_cell 3 5)) = true /\ ty_enum (v_ty (ex_cell 3 5)) <> ENouti /\
  placed (ex_ptr b3 3) 3 (ex_cell 3 5) = [true; false; true].
Proof. repeat split; try reflexivity; try discriminate; cbn; lia. Qed.

(* Int(4) x = 5: x += 4 gives 7; x -= 7 gives -2; x *= -2 gives -8; x /= -2 gives -2; x %= 3 gives 2; x += 9 is an error; x++ is 5, then x is 6 *)
Definition lit (n c : N) : rhs := RLit (prim EInt (Z.of_N n) NONARRAYSIZE) c.
Definition after (e : eres) : option Z := match e with EDone cell _ => Some (content EInt (ex_ptr i4 4) 4 cell) | _ => None end.
Example C76_ex : map after (map (fun q => equalArith (fst q) false i4 (ex_ptr i4 4) (ex_cell 4 5) (snd q))
    [(Add, lit 4 4); (Subtract, lit 4 7); (Multiply, lit 3 6); (Divide, lit 3 6); (Remainder, lit 3 3)]) =
    [Some 7; Some (-2); Some (-8); Some (-2); Some 2]%Z /\
  equalArith Add false i4 (ex_ptr i4 4) (ex_cell 4 5) (lit 5 9) = EErr /\
  (exists cell v, equalArith Add true i4 (ex_ptr i4 4) (ex_cell 4 5) one = EDone cell v /\ content EInt (ex_ptr i4 4) 4 cell = 6%Z /\ v_bits v = 5) /\
  rhs_is (lit 3 6) EInt 3 [true; true; false] /\ storable (lit 3 6) EInt 4 EInt 3.
Proof.
  split; [reflexivity|]. split; [reflexivity|]. split; [do 2 eexists; repeat split; reflexivity|]. split.
  - repeat split; cbn; lia.
  - exists [true; true; true; false]. split; reflexivity.
Qed.

(* Bits(3) x = 5: x &= 6 gives 4; x ^= a Bits(2) of 3 gives 6; x <<= 1 gives 2; x >>= 2 gives 1 *)
Definition now (e : eres) : option N := match e with EDone cell _ => Some (bval (placed (ex_ptr b3 3) 3 cell)) | _ => None end.
Definition dist (d : N) : rhs := RLit (prim EUnsigned 8 NONARRAYSIZE) d.
Example C76_ex_bits : now (equalBitwise BAnd b3 (ex_ptr b3 3) (ex_cell 3 5) (RLit (prim EUnsigned 3 NONARRAYSIZE) 6)) = Some 4 /\
  now (equalBitwise BXor b3 (ex_ptr b3 3) (ex_cell 3 5) (RVal (mkUV (prim EBits 2 NONARRAYSIZE) 3))) = Some 6 /\
  equalBitwise BXor b3 (ex_ptr b3 3) (ex_cell 3 5) (RVal (mkUV (prim EBits 4 NONARRAYSIZE) 3)) = EErr /\
  now (equalShift ShLeft b3 (ex_ptr b3 3) (ex_cell 3 5) (dist 1)) = Some 2 /\
  now (equalShift ShRight b3 (ex_ptr b3 3) (ex_cell 3 5) (dist 2)) = Some 1 /\
  rhs_is (dist 2) EUnsigned 8 [false; false; false; false; false; false; true; false] /\ storable (dist 2) EUnsigned 32 EUnsigned 8.
Proof.
  repeat (split; [reflexivity|]). split; [repeat split; cbn; lia|]. exists (cbits 32 2). split; reflexivity.
Qed.

(* Bits(3) x = 5: the evaluator leaves x as it is for x <<= 8 and x >>= 8; the call in the generated code gives 0 *)
Theorem C76_shift_refuted :
  now (equalShift ShLeft b3 (ex_ptr b3 3) (ex_cell 3 5) (dist 8)) = Some 5 /\
  now (equalShift ShRight b3 (ex_ptr b3 3) (ex_cell 3 5) (dist 8)) = Some 5 /\
  (forall o i, (i < 3)%nat -> moved o 8 (placed (ex_ptr b3 3) 3 (ex_cell 3 5)) i = false) /\
  (forall o, exists x k, distance (dist 8) = Some x /\ genCall (QShift o) b3 (ex_ptr b3 3) (ex_cell 3 5) x = Some k /\
     c_right k = 8 /\ ext_eqop false (QShift o) EBits (c_len k) (c_left k) (c_right k) = Some 0).
Proof.
  split; [reflexivity|]. split; [reflexivity|]. split.
  - intros o i Hi. destruct o; destruct i as [|[|[|]]]; try reflexivity; lia.
  - intros []; do 2 eexists; (split; [reflexivity|]); (split; [reflexivity|]); split; reflexivity.
Qed.
Print Assumptions C76_shift_refuted.

(* x /= 0 and x %= 0 are no errors, though 5 / 0 and 5 % 0 are (ArithModel.v): the function is called with a divisor of 0
   and what it does then is not in the code *)
Theorem C76_zero_refuted :
  makeImmediateBinaryOp Divide i4 5 0 4 = None /\ makeImmediateBinaryOp Remainder i4 5 0 4 = None /\
  (forall op, op = Divide \/ op = Remainder ->
     equalArith op false i4 (ex_ptr i4 4) (ex_cell 4 5) (RLit i4 0) = EStop /\ arithAccepts i4 (RLit i4 0) = Some true /\
     exists k, evalCall (QArith op) i4 (ex_ptr i4 4) (ex_cell 4 5) (mkUV i4 0) = Some (false, k) /\ c_left k = 5 /\ c_right k = 0).
Proof.
  split; [reflexivity|]. split; [reflexivity|]. intros op [-> | ->]; (split; [reflexivity|]); (split; [reflexivity|]); eexists; repeat split; reflexivity.
Qed.
Print Assumptions C76_zero_refuted.
