(* ArithTheorems.v: C25, C26 and C53. *)
From Coq Require Import String List NArith ZArith Lia Bool.
From Coq Require Import ZifyBool ZifyNat ZifyN.
From Verif Require Import Base BitVec UTypeModel AtomModel AtomSpec AtomProofs PrimModel PrimSpec PrimProofs ArithModel ArithProofs.
Import ListNotations.
Ltac Zify.zify_post_hook ::= Z.div_mod_to_equations.
Open Scope N_scope.

(* ---- C25 ---- *)
(* the word of the operation: 32 bits if both operands have at most 32 *)
Definition op_word (n n' : N) : N := if (n <=? 32) && (n' <=? 32) then 32 else 64.

Lemma op_word_ok n n' : Z.max (word n) (word n') = Z.of_N (op_word n n').
Proof. unfold word, op_word. destruct (n <=? 32), (n' <=? 32); reflexivity. Qed.

Lemma mixed_reskind e e' : arith e -> arith e' ->
  (reskind e e' = EInt \/ e <> EInt) /\ (reskind e e' = EInt \/ e' <> EInt) /\
  (reskind e e' = EUnsigned -> e <> EInt /\ e' <> EInt).
Proof. unfold reskind. intros [-> | [-> | ->]] [-> | [-> | ->]]; cbn; (split; [auto; right; discriminate|]); (split; [auto; right; discriminate|]); intros; try discriminate; split; discriminate. Qed.

(* an operand cut short by its own word: the other operand is wider, or the operation is as wide as its word *)
Lemma not_whole res e n e' n' : arith e' -> 1 <= n <= 64 -> 1 <= n' <= 64 -> res = reskind e e' ->
  res = EInt /\ e = EUnsigned /\ Z.of_N n = word n ->
  osize res e n = Z.of_N n /\ (word n = Z.max (word n) (word n') \/ (e' = EInt /\ n = 32 /\ 33 <= n')).
Proof.
  intros HA' Hn Hn' HR (H1 & -> & HW). pose proof (word_facts n Hn) as [_ HWn]. split.
  - rewrite H1. unfold osize, cap. destruct (Z.gtb_spec (Z.of_N n + 1) (word n)); lia.
  - destruct HA' as [-> | [-> | ->]]; rewrite HR in H1; try discriminate.
    unfold word in *. destruct (N.leb_spec n 32), (N.leb_spec n' 32); try (left; reflexivity); right; repeat split; lia.
Qed.

Definition fits (res : etype) (m z : Z) : Prop :=
  match res with EInt => (- 2 ^ (m - 1) <= z <= 2 ^ (m - 1) - 1)%Z | _ => (0 <= z <= 2 ^ m - 1)%Z end.

Lemma fits_mono res m m' z : (1 <= m <= m')%Z -> fits res m z -> fits res m' z.
Proof.
  intros H. unfold fits. pose proof (pow2_le (m - 1) (m' - 1) ltac:(lia)). pose proof (pow2_le m m' ltac:(lia)).
  destruct res; lia.
Qed.

Lemma fits_rep res m z : res = EInt \/ res = EUnsigned -> 1 <= m -> fits res (Z.of_N m) z <-> representable res m z.
Proof.
  intros HR Hm. rewrite representable_iff by (destruct HR; subst; unfold arith; auto).
  destruct HR; subst; reflexivity.
Qed.

(* both operands fit the wider of the two sizes *)
Lemma operands_fit e n e' n' zl zr : arith e -> arith e' -> 1 <= n <= 64 -> 1 <= n' <= 64 ->
  (lo e n <= zl <= hi e n)%Z -> (lo e' n' <= zr <= hi e' n')%Z ->
  let res := reskind e e' in
  let a := osize res e n in let b := osize res e' n' in
  (Z.max a b = Z.max (word n) (word n') \/ (fits res (Z.max a b) zl /\ fits res (Z.max a b) zr))%Z.
Proof.
  intros HA HA' Hn Hn' Hl Hr res a b.
  destruct (mixed_reskind e e' HA HA') as (HX & HX' & _). destruct (reskind_arith e e') as [_ HR]. fold res in HX, HX', HR.
  destruct (osize_range res e n HA Hn) as (Ra & Wa & _). destruct (osize_range res e' n' HA' Hn') as (Rb & Wb & _).
  assert ({whole res e n} + {res = EInt /\ e = EUnsigned /\ Z.of_N n = word n}) as [W|W].
  { unfold whole. destruct (etype_eqb res EInt) eqn:E1; [|left; intros (-> & _); discriminate].
    destruct (etype_eqb e EUnsigned) eqn:E2; [|left; intros (_ & -> & _); discriminate].
    destruct (Z.eq_dec (Z.of_N n) (word n)); [right|left; tauto]. destruct res; try discriminate; destruct e; try discriminate; auto. }
  - assert ({whole res e' n'} + {res = EInt /\ e' = EUnsigned /\ Z.of_N n' = word n'}) as [W'|W'].
    { unfold whole. destruct (etype_eqb res EInt) eqn:E1; [|left; intros (-> & _); discriminate].
      destruct (etype_eqb e' EUnsigned) eqn:E2; [|left; intros (_ & -> & _); discriminate].
      destruct (Z.eq_dec (Z.of_N n') (word n')); [right|left; tauto]. destruct res; try discriminate; destruct e'; try discriminate; auto. }
    + right. pose proof (osize_fits res e n zl HA HR HX Hn W Hl) as F1. pose proof (osize_fits res e' n' zr HA' HR HX' Hn' W' Hr) as F2.
      fold a in F1, Ra. fold b in F2, Rb. split; [apply (fits_mono res a)|apply (fits_mono res b)]; try lia; unfold fits; destruct HR as [E|E]; rewrite E in *; auto.
    + assert (res = reskind e' e) as HS by (unfold res, reskind; destruct (kind e), (kind e'); reflexivity).
      destruct (not_whole res e' n' e n HA Hn' Hn HS W') as [Eb [Ew | (He & H32 & H33)]].
      * left. destruct W' as (W1 & _ & W2). specialize (Wa W1). specialize (Wb W1). unfold a, b. lia.
      * right. destruct W' as (W1 & -> & W2). pose proof (osize_fits res e n zl HA HR HX Hn W Hl) as F1.
        subst e n'. assert (a = Z.of_N n) as EA by (unfold a; rewrite W1; reflexivity). assert (b = 32%Z) as EB by exact Eb.
        fold a in F1. rewrite EA in F1. rewrite EA, EB. replace (Z.max (Z.of_N n) 32) with (Z.of_N n) by lia. unfold fits. rewrite W1 in F1 |- *.
        split; [exact F1|]. unfold lo, hi in Hr. pose proof (pow2_le 32 (Z.of_N n - 1) ltac:(lia)). lia.
  - destruct (not_whole res e n e' n' HA' Hn Hn' eq_refl W) as [Ea [Ew | (He & H32 & H33)]].
    + left. destruct W as (W1 & _ & W2). specialize (Wa W1). specialize (Wb W1). unfold a, b. lia.
    + right. destruct W as (W1 & -> & W2). subst e' n. 
      assert (whole res EInt n') as W' by (intros (_ & HC & _); discriminate).
      pose proof (osize_fits res EInt n' zr HA' HR HX' Hn' W' Hr) as F2.
      assert (b = Z.of_N n') as EB by (unfold b; rewrite W1; reflexivity). assert (a = 32%Z) as EA by exact Ea.
      fold b in F2. rewrite EB in F2. rewrite EA, EB. replace (Z.max 32 (Z.of_N n')) with (Z.of_N n') by lia. unfold fits. rewrite W1 in F2 |- *.
      split; [|exact F2]. unfold lo, hi in Hl. pose proof (pow2_le 32 (Z.of_N n' - 1) ltac:(lia)). lia.
Qed.

Lemma mul_bound a b p q : (- p <= a <= p)%Z -> (- q <= b <= q)%Z -> (- (p * q) <= a * b <= p * q)%Z.
Proof. intros. nia. Qed.

(* C25: for +, - and * of Int, Unsigned and Unary operands of any sizes the type of the result (Unsigned if neither
   operand is an Int, else Int) is as wide as the word of the operation or holds the result of any two numbers;
   the difference of two numbers neither of which is Int is left out *)
Theorem C25_result_type_holds_result : forall op e n lt e' n' rt zl zr,
  arith e -> arith e' -> scalar_of e n lt -> scalar_of e' n' rt ->
  op = Add \/ op = Multiply \/ (op = Subtract /\ (e = EInt \/ e' = EInt)) ->
  representable e n zl -> representable e' n' zr ->
  exists t m, resultType op lt rt = Some t /\ scalar_of (ty_enum t) m t /\
    (ty_enum t = EUnsigned <-> e <> EInt /\ e' <> EInt) /\ (ty_enum t = EInt \/ ty_enum t = EUnsigned) /\
    (m = op_word n n' \/ representable (ty_enum t) m (apply_op op zl zr)).
Proof.
  intros op e n lt e' n' rt zl zr HA HA' H H' HO Hl Hr.
  pose proof H as (_ & _ & _ & _ & Hn). pose proof H' as (_ & _ & _ & _ & Hn').
  apply representable_iff in Hl; auto; try lia. apply representable_iff in Hr; auto; try lia.
  set (res := reskind e e'). set (a := osize res e n). set (b := osize res e' n'). set (w := Z.max (word n) (word n')).
  destruct (opsize_scalar op e n e' n' HA HA' Hn Hn') as [HB HSC]. fold res a b w in HB, HSC.
  exists (prim res (opsize op a b w) (-1)), (Z.to_N (opsize op a b w)).
  destruct (reskind_arith e e') as [_ HR]. fold res in HR.
  split.
  { unfold resultType. rewrite (nodeType_ok op e n lt e' n' rt HA HA' H H'). fold res a b w.
    destruct HO as [-> | [-> | [-> _]]]; reflexivity. }
  cbn [prim ty_enum]. split; [exact HSC|].
  split. { unfold res, reskind. destruct HA as [-> | [-> | ->]], HA' as [-> | [-> | ->]]; cbn; split; intros; try discriminate; try (split; discriminate); try tauto. }
  split; auto.
  assert (w = Z.of_N (op_word n n')) as EW by apply op_word_ok.
  enough (opsize op a b w = w \/ fits res (opsize op a b w) (apply_op op zl zr)) as [->|HF].
  { left. rewrite EW. apply N2Z.id. }
  { right. apply fits_rep; auto; [lia|]. rewrite Z2N.id by lia. exact HF. }
  destruct (osize_range res e n HA Hn) as (Ra & Wa & _). destruct (osize_range res e' n' HA' Hn') as (Rb & Wb & _).
  fold a in Ra. fold b in Rb.
  assert (op <> Multiply -> opsize op a b w = w \/ fits res (opsize op a b w) (apply_op op zl zr)) as HAS.
  { intros HM.
    assert (opsize op a b w = atmost (Z.max a b + 1) w) as -> by (destruct HO as [-> | [-> | [-> _]]]; congruence || reflexivity).
    unfold atmost. destruct (Z.geb_spec (Z.max a b + 1) w); [left; auto|].
    pose proof (operands_fit e n e' n' zl zr HA HA' Hn Hn' Hl Hr) as HOF. cbv zeta in HOF. fold res in HOF. fold a b w in HOF.
    destruct HOF as [EQ | [F1 F2]]; [lia|]. right.
    set (M := Z.max a b) in *. assert (1 <= M)%Z by lia. clearbody M.
    unfold fits in *. pose proof (pow_half M ltac:(lia)).
    destruct HR as [E | E]; rewrite E in F1, F2 |- *; replace (M + 1 - 1)%Z with M by lia.
    - destruct HO as [-> | [-> | [-> _]]]; try congruence; cbn [apply_op]; lia.
    - destruct HO as [-> | [-> | [-> HI]]]; try congruence; cbn [apply_op].
      + pose proof (pow_half (M + 1) ltac:(lia)) as HP2. replace (M + 1 - 1)%Z with M in HP2 by lia. lia.
      + exfalso. destruct (mixed_reskind e e' HA HA') as (_ & _ & HU). fold res in HU. destruct (HU E). destruct HI; congruence. }
  destruct HO as [-> | [-> | [-> HI]]]; try (apply HAS; discriminate). clear HAS.
  cbn [opsize apply_op]. unfold atmost. destruct (Z.geb_spec (a + b) w); [left; auto|]. right.
  destruct (mixed_reskind e e' HA HA') as (HX & HX' & _). fold res in HX, HX'.
  assert (w <= 64)%Z as Hw by (pose proof (word_max n n' Hn Hn') as HWM; fold w in HWM; lia).
  assert (whole res e n) as W.
  { intros W. destruct (not_whole res e n e' n' HA' Hn Hn' eq_refl W) as [Ea [Ew | (He & H32 & H33)]].
    - fold w in Ew. destruct W as (_ & _ & W2). unfold a in *. lia.
    - subst e' n. destruct W as (W1 & _ & _). assert (b = Z.of_N n') as -> by (unfold b; rewrite W1; reflexivity). unfold a in *. lia. }
  assert (whole res e' n') as W'.
  { intros W'. assert (res = reskind e' e) as HS by (unfold res, reskind; destruct (kind e), (kind e'); reflexivity).
    destruct (not_whole res e' n' e n HA Hn' Hn HS W') as [Eb [Ew | (He & H32 & H33)]].
    - rewrite Z.max_comm in Ew. fold w in Ew. destruct W' as (_ & _ & W2). unfold b in *. lia.
    - subst e n'. destruct W' as (W1 & _ & _). assert (a = Z.of_N n) as -> by (unfold a; rewrite W1; reflexivity). unfold b in *. lia. }
  pose proof (osize_fits res e n zl HA HR HX Hn W Hl) as F1. pose proof (osize_fits res e' n' zr HA' HR HX' Hn' W' Hr) as F2.
  fold a in F1. fold b in F2. unfold fits. destruct HR as [E | E]; rewrite E in F1, F2 |- *.
  - pose proof (mul_bound zl zr (2 ^ (a - 1)) (2 ^ (b - 1)) ltac:(lia) ltac:(lia)) as HM.
    rewrite <- Z.pow_add_r in HM by lia. replace (a - 1 + (b - 1))%Z with (a + b - 1 - 1)%Z in HM by lia.
    pose proof (pow_half (a + b - 1) ltac:(lia)). pose proof (zpow_pos (a + b - 1 - 1) ltac:(lia)). lia.
  - rewrite Z.pow_add_r by lia. pose proof (zpow_pos a ltac:(lia)). pose proof (zpow_pos b ltac:(lia)). nia.
Qed.
Print Assumptions C25_result_type_holds_result.

(* the quotient, truncated, has a type that holds it, but for the least Int divided by -1, and for an Unsigned as wide as
   its word divided by an Int *)
Theorem C25_quotient_type_holds_quotient : forall e n lt e' n' rt zl zr,
  arith e -> arith e' -> scalar_of e n lt -> scalar_of e' n' rt ->
  ~ (e = EUnsigned /\ e' = EInt /\ (n = 32 \/ n = 64)) ->
  representable e n zl -> representable e' n' zr -> zr <> 0%Z ->
  ~ (e = EInt /\ zl = (- 2 ^ (Z.of_N n - 1))%Z /\ zr = (-1)%Z) ->
  exists t m, resultType Divide lt rt = Some t /\ scalar_of (ty_enum t) m t /\
    (ty_enum t = EUnsigned <-> e <> EInt /\ e' <> EInt) /\ (ty_enum t = EInt \/ ty_enum t = EUnsigned) /\
    representable (ty_enum t) m (Z.quot zl zr).
Proof.
  intros e n lt e' n' rt zl zr HA HA' H H' HN Hl Hr Hz HMIN.
  pose proof H as (_ & _ & _ & _ & Hn). pose proof H' as (_ & _ & _ & _ & Hn').
  apply representable_iff in Hl; auto; try lia. apply representable_iff in Hr; auto; try lia.
  destruct (mixed_reskind e e' HA HA') as (HX & HX' & _). destruct (reskind_arith e e') as [_ HR].
  pose proof (nodeType_ok Divide e n lt e' n' rt HA HA' H H') as ET.
  assert (reskind e e' = EUnsigned <-> e <> EInt /\ e' <> EInt) as HU.
  { unfold reskind. destruct HA as [-> | [-> | ->]], HA' as [-> | [-> | ->]]; cbn; split; intros; try discriminate; try (split; discriminate); try tauto. }
  assert (whole (reskind e e') e n) as W.
  { intros (W1 & -> & W2). apply HN. split; auto. split.
    - destruct HA' as [-> | [-> | ->]]; auto; discriminate.
    - unfold word in W2. destruct (n <=? 32); lia. }
  remember (reskind e e') as res eqn:Eres in *. destruct (osize_range res e n HA Hn) as (Ra & Wa & Wb).
  pose proof (log2_small n Hn). pose proof (word_facts n Hn) as [? ?].
  assert (1 <= osize res e n <= 64)%Z as RB.
  { split; [lia|]. destruct HR as [E | E].
    - specialize (Wa E). lia.
    - destruct HA as [-> | [-> | ->]]; try (specialize (Wb ltac:(discriminate)); lia). rewrite E. unfold osize. lia. }
  exists (prim res (osize res e n) (-1)), (Z.to_N (osize res e n)).
  split. { unfold resultType. rewrite ET. cbn [castThyselfToResultType prim ty_enum].
           rewrite (convert_ok e n lt res HA H HR HX). reflexivity. }
  cbn [prim ty_enum]. split. { rewrite <- (Z2N.id (osize res e n)) at 2 by lia. apply prim_scalar. lia. }
  split; auto. split; auto.
  pose proof (osize_fits res e n zl HA HR HX Hn W Hl) as F1.
  apply fits_rep; auto; [lia|]. rewrite Z2N.id by lia.
  assert (Z.abs (Z.quot zl zr) <= Z.abs zl)%Z as HQ.
  { rewrite <- Z.quot_abs by auto. apply Z.quot_le_upper_bound; nia. }
  destruct HR as [E | E]; rewrite E in *; unfold fits.
  - destruct (Z.eq_dec zl (- 2 ^ (osize EInt e n - 1))) as [EM|]; [|lia].
    assert (e = EInt).
    { destruct HA as [-> | [-> | ->]]; auto; exfalso; unfold lo in Hl; pose proof (zpow_pos (osize EInt EUnsigned n - 1)); pose proof (zpow_pos (osize EInt EUnary n - 1)); lia. }
    subst e. cbn [osize] in *. assert (zr <> -1)%Z as Hm1 by (intros ->; apply HMIN; auto).
    destruct (Z.eq_dec zr 1) as [->|]; [rewrite Z.quot_1_r; lia|].
    assert (2 * Z.abs (Z.quot zl zr) <= Z.abs zl)%Z as HQ2.
    { rewrite <- Z.quot_abs by auto. assert (2 <= Z.abs zr)%Z by lia.
      assert (Z.abs zl ÷ Z.abs zr <= Z.abs zl ÷ 2)%Z as HQ3 by (apply Z.quot_le_compat_l; lia).
      pose proof (Z.mul_quot_le (Z.abs zl) 2 ltac:(lia) ltac:(lia)). lia. }
    pose proof (zpow_pos (Z.of_N n - 1) ltac:(lia)). lia.
  - assert (0 <= zr)%Z.
    { destruct (proj1 HU eq_refl) as [_ HI]. destruct HA' as [-> | [-> | ->]]; try congruence; unfold lo in Hr; lia. }
    pose proof (Z.quot_pos zl zr ltac:(lia) ltac:(lia)). lia.
Qed.
Print Assumptions C25_quotient_type_holds_quotient.

(* the remainder (with the sign of the left number) has a type that holds it, but for an Unsigned on the right as wide as
   its word when the left is an Int *)
Theorem C25_remainder_type_holds_remainder : forall e n lt e' n' rt zl zr,
  arith e -> arith e' -> scalar_of e n lt -> scalar_of e' n' rt ->
  ~ (e' = EUnsigned /\ e = EInt /\ (n' = 32 \/ n' = 64)) ->
  representable e n zl -> representable e' n' zr -> zr <> 0%Z ->
  exists t m, resultType Remainder lt rt = Some t /\ scalar_of (ty_enum t) m t /\
    (ty_enum t = EUnsigned <-> e <> EInt /\ e' <> EInt) /\ (ty_enum t = EInt \/ ty_enum t = EUnsigned) /\
    representable (ty_enum t) m (Z.rem zl zr).
Proof.
  intros e n lt e' n' rt zl zr HA HA' H H' HN Hl Hr Hz.
  pose proof H as (_ & _ & _ & _ & Hn). pose proof H' as (_ & _ & _ & _ & Hn').
  apply representable_iff in Hl; auto; try lia. apply representable_iff in Hr; auto; try lia.
  destruct (mixed_reskind e e' HA HA') as (HX & HX' & _). destruct (reskind_arith e e') as [_ HR].
  pose proof (nodeType_ok Remainder e n lt e' n' rt HA HA' H H') as ET.
  assert (reskind e e' = EUnsigned <-> e <> EInt /\ e' <> EInt) as HU.
  { unfold reskind. destruct HA as [-> | [-> | ->]], HA' as [-> | [-> | ->]]; cbn; split; intros; try discriminate; try (split; discriminate); try tauto. }
  assert (whole (reskind e e') e' n') as W.
  { intros (W1 & -> & W2). apply HN. split; auto. split.
    - destruct HA as [-> | [-> | ->]]; auto; discriminate.
    - unfold word in W2. destruct (n' <=? 32); lia. }
  remember (reskind e e') as res eqn:Eres in *. destruct (osize_range res e' n' HA' Hn') as (Ra & Wa & Wb).
  pose proof (log2_small n' Hn'). pose proof (word_facts n' Hn') as [? ?].
  assert (1 <= osize res e' n' <= 64)%Z as RB.
  { split; [lia|]. destruct HR as [E | E].
    - specialize (Wa E). lia.
    - destruct HA' as [-> | [-> | ->]]; try (specialize (Wb ltac:(discriminate)); lia). rewrite E. unfold osize. lia. }
  exists (prim res (osize res e' n') (-1)), (Z.to_N (osize res e' n')).
  split. { unfold resultType. rewrite ET. cbn [castThyselfToResultType prim ty_enum].
           rewrite (convert_ok e' n' rt res HA' H' HR HX'). reflexivity. }
  cbn [prim ty_enum]. split. { rewrite <- (Z2N.id (osize res e' n')) at 2 by lia. apply prim_scalar. lia. }
  split; auto. split; auto.
  pose proof (osize_fits res e' n' zr HA' HR HX' Hn' W Hr) as F1.
  apply fits_rep; auto; [lia|]. rewrite Z2N.id by lia.
  assert (Z.abs (Z.rem zl zr) < Z.abs zr)%Z as HQ by (apply Z.rem_bound_abs; auto).
  destruct HR as [E | E]; rewrite E in *; unfold fits.
  - lia.
  - assert (0 <= zl)%Z.
    { destruct (proj1 HU eq_refl) as [HI _]. destruct HA as [-> | [-> | ->]]; try congruence; unfold lo in Hl; lia. }
    pose proof (Z.rem_nonneg zl zr Hz ltac:(lia)). lia.
Qed.
Print Assumptions C25_remainder_type_holds_remainder.

(* what the property claims is wrong for: the difference of two Unsigned; the least Int divided by -1; an Unsigned(32)
   divided by an Int(40), and the remainder of an Int(40) by an Unsigned(32): the result has 32 bits though the word has 64 *)
Theorem C25_result_type_refuted :
  (exists t, resultType Subtract (prim EUnsigned 3 (-1)) (prim EUnsigned 3 (-1)) = Some t /\ t = prim EUnsigned 4 (-1) /\
     representable EUnsigned 3 1 /\ representable EUnsigned 3 2 /\ ~ representable EUnsigned 4 (1 - 2)) /\
  (resultType Divide (prim EInt 3 (-1)) (prim EInt 3 (-1)) = Some (prim EInt 3 (-1)) /\
     representable EInt 3 (-4) /\ representable EInt 3 (-1) /\ ~ representable EInt 3 (Z.quot (-4) (-1))) /\
  (resultType Divide (prim EUnsigned 32 (-1)) (prim EInt 40 (-1)) = Some (prim EInt 32 (-1)) /\
     calcNodeType Divide (prim EUnsigned 32 (-1)) (prim EInt 40 (-1)) = Some (prim EInt 40 (-1)) /\
     safeCast (prim EInt 40 (-1)) (prim EUnsigned 32 (-1)) = Some CAST_CLEAR /\
     representable EUnsigned 32 4294967295 /\ representable EInt 40 1 /\
     ~ representable EInt 32 (Z.quot 4294967295 1)) /\
  (resultType Remainder (prim EInt 40 (-1)) (prim EUnsigned 32 (-1)) = Some (prim EInt 32 (-1)) /\
     representable EInt 40 4294967294 /\ representable EUnsigned 32 4294967295 /\
     ~ representable EInt 32 (Z.rem 4294967294 4294967295)).
Proof.
  assert (forall e n z, arith e -> 1 <= n -> (lo e n <=? z)%Z && (z <=? hi e n)%Z = true -> representable e n z) as HY.
  { intros e n z HA Hn HB. apply representable_iff; auto. lia. }
  assert (forall e n z, arith e -> 1 <= n -> (lo e n <=? z)%Z && (z <=? hi e n)%Z = false -> ~ representable e n z) as HN.
  { intros e n z HA Hn HB HC. apply representable_iff in HC; auto. lia. }
  assert (arith EInt) by (unfold arith; auto). assert (arith EUnsigned) by (unfold arith; auto).
  split; [|split; [|split]].
  - eexists. split; [reflexivity|]. split; [reflexivity|]. split; [|split]; [apply HY|apply HY|apply HN]; auto; reflexivity || lia.
  - split; [reflexivity|]. split; [|split]; [apply HY|apply HY|apply HN]; auto; reflexivity || lia.
  - split; [reflexivity|]. split; [reflexivity|]. split; [reflexivity|]. split; [|split]; [apply HY|apply HY|apply HN]; auto; reflexivity || lia.
  - split; [reflexivity|]. split; [|split]; [apply HY|apply HY|apply HN]; auto; reflexivity || lia.
Qed.
Print Assumptions C25_result_type_refuted.

(* unary minus of an Int gives an Int of the same size, which holds all results but that of the least number *)
Theorem C25_negation_partial : forall n t z, scalar_of EInt n t -> representable EInt n z ->
  minusType t = Some (prim EInt (Z.of_N n) (-1)) /\
  (representable EInt n (- z) <-> z <> (- 2 ^ (Z.of_N n - 1))%Z).
Proof.
  intros n t z H Hz. pose proof H as (HE & HB & _ & _ & Hn). destruct (scalar_facts _ _ _ H) as (_ & HC & _).
  split.
  - unfold minusType, isNumericType. rewrite HC, HE, HB. reflexivity.
  - assert (arith EInt) by (unfold arith; auto).
    apply representable_iff in Hz; auto; try lia. rewrite representable_iff by (auto; lia). unfold lo, hi in *. lia.
Qed.
Print Assumptions C25_negation_partial.

Example C25_ex : scalar_of EInt 7 (prim EInt 7 (-1)) /\ scalar_of EUnsigned 12 (prim EUnsigned 12 (-1)) /\
  representable EInt 7 (-64) /\ representable EUnsigned 12 4095 /\
  resultType Multiply (prim EInt 7 (-1)) (prim EUnsigned 12 (-1)) = Some (prim EInt 20 (-1)) /\
  resultType Add (prim EInt 7 (-1)) (prim EUnary 12 (-1)) = Some (prim EInt 8 (-1)) /\
  resultType Divide (prim EUnary 40 (-1)) (prim EUnsigned 12 (-1)) = Some (prim EUnsigned 6 (-1)) /\
  resultType Remainder (prim EUnsigned 12 (-1)) (prim EInt 7 (-1)) = Some (prim EInt 7 (-1)).
Proof.
  split; [repeat split; cbn; lia|]. split; [repeat split; cbn; lia|].
  split; [apply representable_iff; unfold arith, lo, hi; auto; cbn; lia|].
  split; [apply representable_iff; unfold arith, lo, hi; auto; cbn; lia|]. repeat split.
Qed.

(* ---- C26 ---- *)
(* the size of a left shift is at least the left operand's and between 1 and the word, when the right operand has at most
   30 bits or as many as the word *)
Theorem C26_shift_left_size : forall e n lt e' n' rt,
  scalar_of e n lt -> scalar_of e' n' rt ->
  n' <= 30 \/ op_word n n' <= n' ->
  exists s, shiftLeftResultBitsize lt rt = Some s /\ (Z.of_N n <= s <= Z.of_N (op_word n n'))%Z /\
    (n' <= 5 -> s = Z.min (Z.of_N n + 2 ^ Z.of_N n') (Z.of_N (op_word n n'))).
Proof.
  intros e n lt e' n' rt H H' HS.
  destruct (scalar_facts _ _ _ H) as (_ & HC & _ & _ & HW). destruct (scalar_facts _ _ _ H') as (_ & HC' & _ & _ & HW').
  destruct H as (_ & HB & _ & _ & Hn). destruct H' as (_ & HB' & _ & _ & Hn').
  unfold shiftLeftResultBitsize, resultBitsizeCalcInBits. rewrite HC, HC', HB, HB', HW, HW'. cbn [andb].
  match goal with |- context [(if (?a >? ?b)%Z then ?a else ?b)] => assert ((if (a >? b)%Z then a else b) = Z.of_N (op_word n n')) as ->
    by (unfold op_word; destruct (n <=? 32), (n' <=? 32); reflexivity) end.
  assert (n <= op_word n n' /\ 32 <= op_word n n') as [HL H32] by (unfold op_word; destruct (N.leb_spec n 32), (N.leb_spec n' 32); cbn [andb]; lia).
  destruct (Z.geb_spec (Z.of_N n') (Z.of_N (op_word n n'))).
  - eexists. split; [reflexivity|]. unfold atmost. 
    match goal with |- context [(?x >=? ?y)%Z] => destruct (Z.geb_spec x y) end; lia.
  - assert (n' <= 30) as H30 by lia. unfold shl1. replace (Z.of_N n' <? 0)%Z with false by lia. replace (Z.of_N n' <? 31)%Z with true by lia.
    eexists. split; [reflexivity|]. pose proof (zpow_pos (Z.of_N n') ltac:(lia)). unfold atmost.
    match goal with |- context [(?x >=? ?y)%Z] => destruct (Z.geb_spec x y) end; split; lia.
Qed.
Print Assumptions C26_shift_left_size.

(* a right shift keeps the left operand's size *)
Theorem C26_shift_right_size : forall e n lt e' n' rt,
  scalar_of e n lt -> scalar_of e' n' rt -> shiftRightResultBitsize lt rt = Some (Z.of_N n).
Proof.
  intros e n lt e' n' rt H H'.
  destruct (scalar_facts _ _ _ H) as (_ & HC & _). destruct (scalar_facts _ _ _ H') as (_ & HC' & _).
  destruct H as (_ & HB & _). unfold shiftRightResultBitsize, resultBitsizeCalcInBits. rewrite HC, HC', HB. reflexivity.
Qed.
Print Assumptions C26_shift_right_size.

(* refuted: by an Unsigned(31) the size is negative; with the default Unsigned (32 bits) as distance it is undefined
   for Bits(40) and for Bits(100).  The distances are accepted: they may be cast to Unsigned safely *)
Theorem C26_shift_left_size_refuted :
  (shiftLeftResultBitsize (prim EBits 8 (-1)) (prim EUnsigned 31 (-1)) = Some (-2147483640)%Z /\
   safeCast (prim EUnsigned 32 (-1)) (prim EUnsigned 31 (-1)) = Some CAST_CLEAR) /\
  shiftLeftResultBitsize (prim EBits 40 (-1)) (prim EUnsigned 32 (-1)) = None /\
  shiftLeftResultBitsize (prim EBits 100 (-1)) (prim EUnsigned 32 (-1)) = None.
Proof. repeat split. Qed.
Print Assumptions C26_shift_left_size_refuted.

Example C26_ex : scalar_of EBits 8 (prim EBits 8 (-1)) /\ scalar_of EUnsigned 3 (prim EUnsigned 3 (-1)) /\
  shiftLeftResultBitsize (prim EBits 8 (-1)) (prim EUnsigned 3 (-1)) = Some 16%Z /\
  shiftLeftResultBitsize (prim EBits 8 (-1)) (prim EUnsigned 32 (-1)) = Some 32%Z.
Proof. split; [repeat split; cbn; lia|]. split; [repeat split; cbn; lia|]. split; reflexivity. Qed.

(* ---- C53 ---- *)
Lemma etype_eqb_eq a b : etype_eqb a b = true -> a = b.
Proof. destruct a, b; cbn; congruence. Qed.

Lemma operand_ok e n t e' n' v : arith e -> arith e' -> scalar_of e n t -> scalar_of e' n' (v_ty v) ->
  exists r, operand t v = Some r /\ scalar_of e n (v_ty r) /\ number e n r = clamp (lo e n) (hi e n) (number e' n' v).
Proof.
  intros HA HA' H H'. unfold operand. destruct (same_type t (v_ty v)) eqn:ES.
  - unfold same_type in ES. pose proof H as (HE & HB & _). pose proof H' as (HE' & HB' & _).
    assert (e = e') as <- by (rewrite <- HE, <- HE'; apply etype_eqb_eq; destruct (etype_eqb (ty_enum t) (ty_enum (v_ty v))); auto; discriminate).
    assert (n = n') as <- by lia. exists v. split; auto. split; auto. symmetry. apply clamp_id. apply number_range; auto. left; auto.
  - destruct (cast_arith e n t e' n' v HA (or_introl HA') H H') as (r & -> & HT & HN). exists r. rewrite HT. auto.
Qed.

Lemma zero_meaning f m v : f = EInt \/ f = EUnsigned -> 1 <= m <= 64 -> bval (own_bits (v_ty v) m (v_bits v)) = 0 -> number f m v = 0%Z.
Proof.
  intros HF Hm H0. unfold number. pose proof (own_bits_len (v_ty v) m (v_bits v) ltac:(lia)) as HL.
  rewrite <- (msb_bval (own_bits (v_ty v) m (v_bits v))). rewrite H0, HL.
  rewrite <- ext_val_meaning by (destruct HF; subst; unfold primitive, arith; auto; lia).
  unfold ext_val. destruct HF as [-> | ->]; [|reflexivity].
  unfold SignExtend. cbn [Z.of_N]. rewrite Z.mod_0_l by (pose proof (zpow_pos (Z.of_N m)); lia).
  pose proof (zpow_pos (Z.of_N m - 1) ltac:(lia)). replace (0 <? 2 ^ (Z.of_N m - 1))%Z with true by lia. reflexivity.
Qed.

Lemma makeImm32 e n t s : primitive e -> scalar_of e n t -> n <= 32 ->
  exists r, makeImmediate_len t (u32 s) n = Some r /\ v_ty r = t /\ own_bits t n (v_bits r) = msb_bits (N.to_nat n) s.
Proof.
  intros HP H H32. destruct (makeImmediate_prim e n t s HP H H32) as (r & E & HH). exists r. split; [|exact HH].
  unfold makeImmediate, zlen in E. destruct (scalar_facts _ _ _ H) as (_ & _ & HT & _). rewrite HT in E.
  replace (0 <=? Z.of_N n)%Z with true in E by lia. rewrite N2Z.id in E. cbn [bind] in E.
  destruct H as (HE & _). rewrite HE in E. destruct HP as [[-> | [-> | ->]] | [-> | ->]]; exact E.
Qed.

Lemma makeImm64 e n t s : primitive e -> scalar_of e n t ->
  exists r, makeImmediateLong_len t (u64 s) n = Some r /\ v_ty r = t /\ own_bits t n (v_bits r) = msb_bits (N.to_nat n) s.
Proof.
  intros HP H. destruct (makeImmediateLong_prim e n t s HP H) as (r & E & HH). exists r. split; [|exact HH].
  unfold makeImmediateLong, zlen in E. destruct (scalar_facts _ _ _ H) as (_ & _ & HT & _). rewrite HT in E.
  replace (0 <=? Z.of_N n)%Z with true in E by lia. rewrite N2Z.id in E. cbn [bind] in E.
  destruct H as (HE & _). rewrite HE in E. destruct HP as [[-> | [-> | ->]] | [-> | ->]]; exact E.
Qed.

Lemma binop_ok op f m t l r : f = EInt \/ f = EUnsigned -> scalar_of f m t -> scalar_of f m (v_ty l) -> scalar_of f m (v_ty r) ->
  (isDivision op = true -> number f m r <> 0%Z) ->
  exists x, doBinaryOperationImmediate op t l r = Some x /\ v_ty x = t /\
    number f m x = clamp (lo f m) (hi f m) (apply_op op (number f m l) (number f m r)).
Proof.
  intros HF H HL HR HZ. assert (arith f) as HA by (destruct HF; subst; unfold arith; auto). assert (primitive f) as HP by (left; auto).
  destruct (scalar_facts _ _ _ H) as (_ & _ & HT & _ & HW). pose proof H as (HE & _ & _ & _ & Hm).
  pose proof HL as (HEl & _). pose proof HR as (HEr & _). destruct (prim_enum _ HP) as (H1 & H2 & H3 & H4 & H5 & H6).
  assert (isDivision op && (bval (own_bits (v_ty r) m (v_bits r)) =? 0) = false) as HD.
  { destruct (isDivision op); auto. destruct (N.eqb_spec (bval (own_bits (v_ty r) m (v_bits r))) 0) as [E|]; auto.
    exfalso. apply HZ; auto. apply zero_meaning; auto. }
  assert (forall v, ext_val f (Z.of_N m) (bval (own_bits (v_ty v) m (v_bits v))) = number f m v) as HV.
  { intros v. rewrite ext_val_meaning by (auto; lia). unfold number. rewrite own_bits_msb by lia. reflexivity. }
  assert (forall x, own_bits t m (v_bits x) = msb_bits (N.to_nat m)
      (ext_binop op f (Z.of_N m) (bval (own_bits (v_ty l) m (v_bits l))) (bval (own_bits (v_ty r) m (v_bits r)))) -> v_ty x = t ->
      number f m x = clamp (lo f m) (hi f m) (apply_op op (number f m l) (number f m r))) as HX.
  { intros x Hx Tx. unfold number at 1. rewrite Tx, Hx. unfold ext_binop. rewrite !HV. apply ext_enc_meaning; auto; lia. }
  unfold doBinaryOperationImmediate, zlen. rewrite HT, HW. replace (0 <=? Z.of_N m)%Z with true by lia. rewrite N2Z.id. cbn [bind].
  destruct (N.leb_spec m 32).
  - cbn [Z.eqb Pos.eqb].
    rewrite (getImmediateData_ok (v_ty l) m l), (getImmediateData_ok (v_ty r) m r) by (rewrite ?HEl, ?HEr; auto; lia).
    cbn [bind]. unfold makeImmediateBinaryOp. rewrite HD, HE.
    destruct (makeImm32 f m t (ext_binop op f (Z.of_N m) (bval (own_bits (v_ty l) m (v_bits l))) (bval (own_bits (v_ty r) m (v_bits r)))) HP H ltac:(lia)) as (x & Ex & Tx & Ox).
    exists x. split; [destruct HF; subst f; exact Ex|]. split; auto.
  - cbn [Z.eqb Pos.eqb].
    rewrite (getImmediateDataLong_ok (v_ty l) m l), (getImmediateDataLong_ok (v_ty r) m r) by (rewrite ?HEl, ?HEr; auto; lia).
    cbn [bind]. unfold makeImmediateLongBinaryOp. rewrite HD, HE.
    destruct (makeImm64 f m t (ext_binop op f (Z.of_N m) (bval (own_bits (v_ty l) m (v_bits l))) (bval (own_bits (v_ty r) m (v_bits r)))) HP H) as (x & Ex & Tx & Ox).
    exists x. split; [destruct HF; subst f; exact Ex|]. split; auto.
Qed.

(* the type of the operation holds every number of the type of its result *)
Lemma result_in_op op e n lt e' n' rt : arith e -> arith e' -> scalar_of e n lt -> scalar_of e' n' rt ->
  exists t m s k, calcNodeType op lt rt = Some t /\ scalar_of (reskind e e') m t /\
    castThyselfToResultType op lt rt t = Some s /\ scalar_of (reskind e e') k s /\ k <= m.
Proof.
  intros HA HA' H H'. pose proof H as (_ & _ & _ & _ & Hn). pose proof H' as (_ & _ & _ & _ & Hn').
  pose proof (nodeType_ok op e n lt e' n' rt HA HA' H H') as ET.
  destruct (opsize_scalar op e n e' n' HA HA' Hn Hn') as [HB HSC].
  destruct (mixed_reskind e e' HA HA') as (HX & HX' & _). destruct (reskind_arith e e') as [_ HR].
  set (s := opsize op _ _ _) in *. 
  assert (forall a na, arith a -> 1 <= na <= 64 -> (1 <= osize (reskind e e') a na <= word na)%Z) as HO.
  { intros a na Ha Hna. destruct (osize_range (reskind e e') a na Ha Hna) as (R1 & R2 & R3). split; [lia|].
    destruct HR as [E | E]; [auto|]. destruct Ha as [-> | [-> | ->]]; try (apply R3; discriminate).
    rewrite E. unfold osize. pose proof (log2_small na Hna). pose proof (word_facts na Hna). lia. }
  pose proof (HO e n HA Hn) as O1. pose proof (HO e' n' HA' Hn') as O2.
  pose proof (word_facts n Hn) as [_ W1]. pose proof (word_facts n' Hn') as [_ W2].
  exists (prim (reskind e e') s (-1)), (Z.to_N s).
  destruct op; cbn [castThyselfToResultType].
  1,2,3: exists (prim (reskind e e') s (-1)), (Z.to_N s); repeat split; auto; try apply HSC; try lia.
  - exists (prim (reskind e e') (osize (reskind e e') e n) (-1)), (Z.to_N (osize (reskind e e') e n)).
    split; [exact ET|]. split; [exact HSC|]. cbn [prim ty_enum]. rewrite (convert_ok e n lt _ HA H HR HX).
    split; [reflexivity|]. split.
    + rewrite <- (Z2N.id (osize (reskind e e') e n)) at 2 by lia. apply prim_scalar. lia.
    + unfold s, opsize, atmost. destruct (Z.geb_spec (Z.max (osize (reskind e e') e n) (osize (reskind e e') e' n')) (Z.max (word n) (word n'))); lia.
  - exists (prim (reskind e e') (osize (reskind e e') e' n') (-1)), (Z.to_N (osize (reskind e e') e' n')).
    split; [exact ET|]. split; [exact HSC|]. cbn [prim ty_enum]. rewrite (convert_ok e' n' rt _ HA' H' HR HX').
    split; [reflexivity|]. split.
    + rewrite <- (Z2N.id (osize (reskind e e') e' n')) at 2 by lia. apply prim_scalar. lia.
    + unfold s, opsize, atmost. destruct (Z.geb_spec (Z.max (osize (reskind e e') e n) (osize (reskind e e') e' n')) (Z.max (word n) (word n'))); lia.
Qed.

Lemma clamp_nested f k m z : f = EInt \/ f = EUnsigned -> 1 <= k <= m ->
  clamp (lo f k) (hi f k) (clamp (lo f m) (hi f m) z) = clamp (lo f k) (hi f k) z.
Proof.
  intros HF Hk. pose proof (pow2_le (Z.of_N k) (Z.of_N m) ltac:(lia)). pose proof (pow2_le (Z.of_N k - 1) (Z.of_N m - 1) ltac:(lia)).
  pose proof (zpow_pos (Z.of_N k) ltac:(lia)). pose proof (zpow_pos (Z.of_N k - 1) ltac:(lia)).
  assert (forall a b A B, A <= a -> a <= b -> b <= B -> clamp a b (clamp A B z) = clamp a b z)%Z as HC.
  { clear. intros. unfold clamp. destruct (Z.ltb_spec z A); [|destruct (Z.gtb_spec z B)];
      repeat match goal with |- context [(?a <? ?b)%Z] => destruct (Z.ltb_spec a b)
                           | |- context [(?a >? ?b)%Z] => destruct (Z.gtb_spec a b) end; lia. }
  apply HC; unfold lo, hi; destruct HF as [-> | ->]; lia.
Qed.

(* r is the number of n bits nearest to z *)
Definition nearest (e : etype) (n : N) (z r : Z) : Prop :=
  representable e n r /\ forall x, representable e n x -> (Z.abs (r - z) <= Z.abs (x - z))%Z.

(* C53: folding an operation on two constants gives, in the type of the result, the number nearest to the exact result;
   so the exact result itself where that is representable.  The constants have to fit the type of the operation, which
   the compiler checks *)
Theorem C53_folding_gives_nearest : forall op e n e' n' lv rv,
  arith e -> arith e' -> scalar_of e n (v_ty lv) -> scalar_of e' n' (v_ty rv) ->
  (op = Divide \/ op = Remainder -> number e' n' rv <> 0%Z) ->
  exists f t m s k, calcNodeType op (v_ty lv) (v_ty rv) = Some t /\ scalar_of f m t /\
    resultType op (v_ty lv) (v_ty rv) = Some s /\ scalar_of f k s /\
    (representable f m (number e n lv) -> representable f m (number e' n' rv) ->
     exists r, fold op lv rv = Some r /\ scalar_of f k (v_ty r) /\
       nearest f k (apply_op op (number e n lv) (number e' n' rv)) (number f k r) /\
       (representable f k (apply_op op (number e n lv) (number e' n' rv)) ->
        number f k r = apply_op op (number e n lv) (number e' n' rv))).
Proof.
  intros op e n e' n' lv rv HA HA' H H' HZ.
  destruct (result_in_op op e n _ e' n' _ HA HA' H H') as (t & m & s & k & Et & Ht & Es & Hs & Hk).
  destruct (reskind_arith e e') as [HAr HR]. set (f := reskind e e') in *. clearbody f.
  exists f, t, m, s, k. split; auto. split; auto. split. { unfold resultType. rewrite Et. auto. } split; auto.
  pose proof Ht as (_ & _ & _ & _ & Hm). pose proof Hs as (_ & _ & _ & _ & Hk1).
  intros R1 R2. apply representable_iff in R1; auto; try lia. apply representable_iff in R2; auto; try lia.
  destruct (operand_ok f m t e n lv HAr HA Ht H) as (l & El & Tl & Nl). rewrite clamp_id in Nl by auto.
  destruct (operand_ok f m t e' n' rv HAr HA' Ht H') as (r & Er & Tr & Nr). rewrite clamp_id in Nr by auto.
  destruct (binop_ok op f m t l r HR Ht Tl Tr) as (x & Ex & Tx & Nx).
  { intros HD. rewrite Nr. apply HZ. destruct op; try discriminate; auto. }
  rewrite Nl, Nr in Nx.
  destruct (operand_ok f k s f m x HAr HAr Hs ltac:(rewrite Tx; auto)) as (y & Ey & Ty & Ny).
  rewrite Nx in Ny. rewrite (clamp_nested f k m _ HR ltac:(lia)) in Ny.
  exists y. split. { unfold fold. rewrite Et. cbn [bind]. rewrite El. cbn [bind]. rewrite Er. cbn [bind]. rewrite Ex. cbn [bind].
    rewrite Es. cbn [bind]. exact Ey. }
  split; auto. rewrite Ny. set (z := apply_op _ _ _). pose proof (hi_lo f k ltac:(lia)) as HL. split.
  - split. { apply representable_iff; auto; try lia. apply clamp_range; auto. }
    intros w Hw. apply representable_iff in Hw; auto; try lia. unfold clamp.
    destruct (Z.ltb_spec z (lo f k)); [lia|]. destruct (Z.gtb_spec z (hi f k)); lia.
  - intros HRz. apply representable_iff in HRz; auto; try lia. apply clamp_id; auto.
Qed.
Print Assumptions C53_folding_gives_nearest.

(* a division by zero is not folded *)
Theorem C53_no_division_by_zero : forall op e n e' n' lv rv,
  arith e -> arith e' -> scalar_of e n (v_ty lv) -> scalar_of e' n' (v_ty rv) ->
  op = Divide \/ op = Remainder -> number e' n' rv = 0%Z -> fold op lv rv = None.
Proof.
  intros op e n e' n' lv rv HA HA' H H' HO HZ.
  destruct (result_in_op op e n _ e' n' _ HA HA' H H') as (t & m & s & k & Et & Ht & Es & Hs & Hk).
  destruct (reskind_arith e e') as [HAr HR]. set (f := reskind e e') in *. clearbody f.
  pose proof Ht as (HE & _ & _ & _ & Hm).
  destruct (operand_ok f m t e n lv HAr HA Ht H) as (l & El & Tl & Nl).
  destruct (operand_ok f m t e' n' rv HAr HA' Ht H') as (r & Er & Tr & Nr).
  unfold fold. rewrite Et. cbn [bind]. rewrite El. cbn [bind]. rewrite Er. cbn [bind].
  enough (doBinaryOperationImmediate op t l r = None) as -> by reflexivity.
  destruct (scalar_facts _ _ _ Ht) as (_ & _ & HT & _ & HW). unfold doBinaryOperationImmediate, zlen. rewrite HT, HW.
  replace (0 <=? Z.of_N m)%Z with true by lia. rewrite N2Z.id. cbn [bind].
  assert (primitive f) as HP by (left; auto). destruct (prim_enum _ HP) as (H1 & H2 & H3 & H4 & H5 & H6).
  pose proof Tl as (HEl & _). pose proof Tr as (HEr & _).
  assert (number f m r = 0%Z) as HN.
  { rewrite Nr, HZ. apply clamp_id. pose proof (zpow_pos (Z.of_N m) ltac:(lia)). pose proof (zpow_pos (Z.of_N m - 1) ltac:(lia)).
    unfold lo, hi. destruct HR; subst f; lia. }
  assert (bval (own_bits (v_ty r) m (v_bits r)) = 0) as HB.
  { unfold number in HN. pose proof (own_bits_len (v_ty r) m (v_bits r) ltac:(lia)) as HL.
    set (b := own_bits _ _ _) in *. clearbody b. destruct HR; subst f; cbn [meaning] in HN; [|lia].
    destruct b as [|c b]; [reflexivity|]. cbn [twos] in HN. rewrite bval_cons.
    pose proof (bval_lt b) as HBL. destruct c; [|cbn; lia].
    assert (Z.of_N (bval b) < 2 ^ Z.of_nat (List.length b))%Z; [|lia].
    rewrite <- nat_N_Z. change 2%Z with (Z.of_N 2). rewrite <- N2Z.inj_pow. lia. }
  assert (isDivision op = true) as HD by (destruct HO; subst; reflexivity).
  destruct (N.leb_spec m 32); cbn [Z.eqb Pos.eqb].
  - rewrite (getImmediateData_ok (v_ty l) m l), (getImmediateData_ok (v_ty r) m r) by (rewrite ?HEl, ?HEr; auto; lia).
    cbn [bind]. unfold makeImmediateBinaryOp. rewrite HD, HB. reflexivity.
  - rewrite (getImmediateDataLong_ok (v_ty l) m l), (getImmediateDataLong_ok (v_ty r) m r) by (rewrite ?HEl, ?HEr; auto; lia).
    cbn [bind]. unfold makeImmediateLongBinaryOp. rewrite HD, HB. reflexivity.
Qed.
Print Assumptions C53_no_division_by_zero.

(* 5 * -3 = -15; -4 / -1 in Int(3) saturates at 3 *)
Example C53_ex :
  let five := mkUV (prim EUnsigned 3 (-1)) 5 in let m3 := mkUV (prim EInt 3 (-1)) 5 in
  let m4 := mkUV (prim EInt 3 (-1)) 4 in let m1 := mkUV (prim EInt 3 (-1)) 7 in
  number EUnsigned 3 five = 5%Z /\ number EInt 3 m3 = (-3)%Z /\
  fold Multiply five m3 = Some (mkUV (prim EInt 7 (-1)) 113) /\ number EInt 7 (mkUV (prim EInt 7 (-1)) 113) = (-15)%Z /\
  representable EInt 7 5 /\ representable EInt 7 (-3) /\
  fold Divide m4 m1 = Some (mkUV (prim EInt 3 (-1)) 3).
Proof.
  cbv zeta. split; [reflexivity|]. split; [reflexivity|]. split; [vm_compute; reflexivity|]. split; [vm_compute; reflexivity|].
  split; [apply representable_iff; unfold arith, lo, hi; auto; cbn; lia|].
  split; [apply representable_iff; unfold arith, lo, hi; auto; cbn; lia|]. vm_compute; reflexivity.
Qed.
