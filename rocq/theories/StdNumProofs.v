(* StdNumProofs.v: the operations of StdNumModel. *)
From Coq Require Import List NArith ZArith Lia Bool.
From Coq Require Import ZifyBool ZifyNat ZifyN.
From Verif Require Import Base BitVec UTypeModel AtomModel AtomSpec PrimModel PrimSpec PrimProofs ArithModel ArithProofs StdNumModel.
Import ListNotations.
Open Scope Z_scope.

Lemma prim_ok e w : 1 <= w <= 64 -> scalar_of e (Z.to_N w) (prim e w (-1)).
Proof. intros H. rewrite <- (Z2N.id w) at 2 by lia. apply prim_scalar. lia. Qed.
Lemma word_ok w : 1 <= w <= 32 -> word (Z.to_N w) = 32.
Proof. intros H. unfold word. destruct (N.leb_spec (Z.to_N w) 32); lia. Qed.
Lemma clamp_in e w z : minof e w <= z <= maxof e w -> clamp e w z = z.
Proof. unfold clamp. lia. Qed.
Lemma clamp_range e w z : 1 <= w -> minof e w <= clamp e w z <= maxof e w.
Proof.
  intros H. unfold clamp. enough (minof e w <= maxof e w) by lia. pose proof (Z.pow_pos_nonneg 2 (w - 1) ltac:(lia) ltac:(lia)). pose proof (Z.pow_pos_nonneg 2 w ltac:(lia) ltac:(lia)). destruct e; cbn [minof maxof]; lia.
Qed.
Lemma clamp_idem e w z : 1 <= w -> clamp e w (clamp e w z) = clamp e w z.
Proof. intros H. apply clamp_in, clamp_range, H. Qed.

(* the sum, difference and product *)
Lemma binop_same op e w w' a b : (e = EInt \/ e = EUnsigned) -> 1 <= w <= 32 -> 1 <= w' <= 32 -> isDivision op = false ->
  let s := opsize op w w' 32 in binop op (mkNum e w a) (mkNum e w' b) = Some (mkNum e s (clamp e s (apply_op op a b))).
Proof.
  intros HE Hw Hw' HD s. assert (arith e) as HA by (unfold arith; tauto). unfold binop, tyOf. cbn [n_e n_w n_v].
  rewrite (nodeType_ok op e (Z.to_N w) _ e (Z.to_N w') _ HA HA (prim_ok e w ltac:(lia)) (prim_ok e w' ltac:(lia))). rewrite !word_ok by lia. rewrite HD. cbn [andb].
  assert (reskind e e = e) as -> by (destruct HE as [-> | ->]; reflexivity). assert (osize e e (Z.to_N w) = w /\ osize e e (Z.to_N w') = w') as [-> ->] by (destruct HE as [-> | ->]; cbn [osize]; lia).
  change (Z.max 32 32) with 32. fold s. assert (1 <= s) as Hs by (apply opsize_range; lia). destruct op; try discriminate; cbn [castThyselfToResultType ty_enum ty_bits prim to n_v]; unfold to; cbn [n_v]; rewrite clamp_idem by lia; reflexivity.
Qed.
Lemma binop_div e w w' a b : (e = EInt \/ e = EUnsigned) -> 1 <= w <= 32 -> 1 <= w' <= 32 -> b <> 0 ->
  binop Divide (mkNum e w a) (mkNum e w' b) = Some (mkNum e w (clamp e w (clamp e (Z.max w w') (Z.quot a b)))).
Proof.
  intros HE Hw Hw' HB. assert (arith e) as HA by (unfold arith; tauto). unfold binop, tyOf. cbn [n_e n_w n_v].
  rewrite (nodeType_ok Divide e (Z.to_N w) _ e (Z.to_N w') _ HA HA (prim_ok e w ltac:(lia)) (prim_ok e w' ltac:(lia))). rewrite !word_ok by lia. cbn [isDivision andb]. replace (b =? 0) with false by lia.
  assert (reskind e e = e) as -> by (destruct HE as [-> | ->]; reflexivity). assert (osize e e (Z.to_N w) = w /\ osize e e (Z.to_N w') = w') as [-> ->] by (destruct HE as [-> | ->]; cbn [osize]; lia).
  cbn [castThyselfToResultType ty_enum prim]. rewrite (convert_ok e (Z.to_N w) _ e HA (prim_ok e w ltac:(lia))) by (destruct HE as [-> | ->]; auto; right; discriminate).
  assert (osize e e (Z.to_N w) = w) as -> by (destruct HE as [-> | ->]; cbn [osize]; lia). cbn [ty_bits prim ty_enum to n_v]. unfold to. cbn [n_v apply_op]. unfold opsize, atmost. change (Z.max 32 32) with 32. replace (if Z.max w w' >=? 32 then 32 else Z.max w w') with (Z.max w w') by (destruct (Z.geb_spec (Z.max w w') 32); lia). reflexivity.
Qed.
Lemma binop_rem e w w' a b : (e = EInt \/ e = EUnsigned) -> 1 <= w <= 32 -> 1 <= w' <= 32 -> b <> 0 ->
  binop Remainder (mkNum e w a) (mkNum e w' b) = Some (mkNum e w' (clamp e w' (clamp e (Z.max w w') (Z.rem a b)))).
Proof.
  intros HE Hw Hw' HB. assert (arith e) as HA by (unfold arith; tauto). unfold binop, tyOf. cbn [n_e n_w n_v].
  rewrite (nodeType_ok Remainder e (Z.to_N w) _ e (Z.to_N w') _ HA HA (prim_ok e w ltac:(lia)) (prim_ok e w' ltac:(lia))). rewrite !word_ok by lia. cbn [isDivision andb]. replace (b =? 0) with false by lia.
  assert (reskind e e = e) as -> by (destruct HE as [-> | ->]; reflexivity). assert (osize e e (Z.to_N w) = w /\ osize e e (Z.to_N w') = w') as [-> ->] by (destruct HE as [-> | ->]; cbn [osize]; lia).
  cbn [castThyselfToResultType ty_enum prim]. rewrite (convert_ok e (Z.to_N w') _ e HA (prim_ok e w' ltac:(lia))) by (destruct HE as [-> | ->]; auto; right; discriminate).
  assert (osize e e (Z.to_N w') = w') as -> by (destruct HE as [-> | ->]; cbn [osize]; lia). cbn [ty_bits prim ty_enum to n_v]. unfold to. cbn [n_v apply_op]. unfold opsize, atmost. change (Z.max 32 32) with 32. replace (if Z.max w w' >=? 32 then 32 else Z.max w w') with (Z.max w w') by (destruct (Z.geb_spec (Z.max w w') 32); lia). reflexivity.
Qed.
