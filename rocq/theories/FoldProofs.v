(* FoldProofs.v: lemmas on constants, the values made from them and the operations on them. *)
From Coq Require Import String List NArith ZArith Lia Bool.
From Coq Require Import ZifyBool ZifyNat ZifyN.
From Verif Require Import Base BitVec UTypeModel AtomModel AtomSpec AtomProofs PrimModel PrimSpec PrimProofs PrimTheorems
  ArithModel ArithProofs ArithTheorems FoldModel FoldSpec.
Import ListNotations.
Ltac Zify.zify_post_hook ::= Z.div_mod_to_equations.
Open Scope N_scope.

Definition plain (e : etype) : bool := match e with EAtom | EPtr | ENouti | ENav | EHzy | EClass => false | _ => true end.

Lemma prim_plain e : primitive e -> plain e = true.
Proof. intros [[-> | [-> | ->]] | [-> | ->]]; reflexivity. Qed.

Lemma pow2_pos n : 0 < 2 ^ n.
Proof. pose proof (N.pow_nonzero 2 n). lia. Qed.

(* ---- reading and writing the low bits ---- *)
Lemma write_low n v : n <= 96 -> bv_write ATOM (ATOM - n) n v 0 = v mod 2 ^ n.
Proof.
  intros. unfold bv_write, ATOM. replace (96 - (96 - n + n)) with 0 by lia.
  rewrite N.ldiff_0_l, N.lor_0_l, N.shiftl_0_r. reflexivity.
Qed.

Lemma read_low n a : n <= 96 -> bv_read ATOM (ATOM - n) n a = a mod 2 ^ n.
Proof. intros. unfold bv_read, ATOM. replace (96 - (96 - n + n)) with 0 by lia. rewrite N.shiftr_0_r. reflexivity. Qed.

Lemma own_low t n a : plain (ty_enum t) = true -> n <= 96 -> own_bits t n a = msb_bits (N.to_nat n) a.
Proof.
  intros HP Hn. unfold own_bits. replace (match ty_enum t with EClass => 25 | _ => 96 - n end) with (96 - n) by (destruct (ty_enum t); auto; discriminate).
  unfold field, abits. apply nth_ext with (d := false) (d' := false).
  - rewrite slice_length; rewrite msb_bits_length; lia.
  - intros i Hi. rewrite slice_length in Hi by (rewrite msb_bits_length; lia). rewrite slice_nth by lia.
    rewrite !msb_bits_nth by lia. f_equal. lia.
Qed.

Lemma mod_mod_le v n m : n <= m -> (v mod 2 ^ m) mod 2 ^ n = v mod 2 ^ n.
Proof.
  intros. apply N.bits_inj. intros i. destruct (N.ltb_spec i n).
  - rewrite !N.mod_pow2_bits_low by lia. reflexivity.
  - rewrite !N.mod_pow2_bits_high by lia. reflexivity.
Qed.

Lemma imm32 t d n : n <= 32 -> makeImmediate_len t (u32 d) n = Some (mkUV t (d mod 2 ^ n)).
Proof.
  intros. unfold makeImmediate_len. rewrite guard_true by lia. unfold putData. rewrite guard_true by (unfold ATOM; lia).
  cbn [bind]. rewrite write_low by lia. unfold u32. change two32 with (2 ^ 32). rewrite !mod_mod_le by lia. reflexivity.
Qed.

Lemma imm64 t d n : n <= 64 -> makeImmediateLong_len t (u64 d) n = Some (mkUV t (d mod 2 ^ n)).
Proof.
  intros. unfold makeImmediateLong_len. rewrite guard_true by lia. unfold putDataLong. rewrite guard_true by (unfold ATOM; lia).
  cbn [bind]. rewrite write_low by lia. unfold u64. change two64 with (2 ^ 64). rewrite !mod_mod_le by lia. reflexivity.
Qed.

Lemma get32 len v : plain (ty_enum (v_ty v)) = true -> len <= 32 -> getImmediateData len v = Some (v_bits v mod 2 ^ len).
Proof.
  intros HP H. unfold getImmediateData. rewrite guard_true by lia.
  destruct (ty_enum (v_ty v)); try discriminate; unfold getData; rewrite guard_true by (unfold ATOM; lia); rewrite read_low by lia; reflexivity.
Qed.

Lemma get64 len v : plain (ty_enum (v_ty v)) = true -> len <= 64 -> getImmediateDataLong len v = Some (v_bits v mod 2 ^ len).
Proof.
  intros HP H. unfold getImmediateDataLong. rewrite guard_true by lia.
  destruct (ty_enum (v_ty v)); try discriminate; unfold getDataLong; rewrite guard_true by (unfold ATOM; lia); rewrite read_low by lia; reflexivity.
Qed.

Lemma zlen_of n : zlen (Z.of_N n) = Some n.
Proof. unfold zlen. replace (0 <=? Z.of_N n)%Z with true by lia. rewrite N2Z.id. reflexivity. Qed.

Lemma makeImm_plain e n t d : primitive e -> scalar_of e n t -> n <= 32 -> makeImmediate t (u32 d) = Some (mkUV t (d mod 2 ^ n)).
Proof.
  intros HP H Hn. destruct (scalar_facts _ _ _ H) as (_ & _ & HT & _). pose proof H as (HE & _).
  unfold makeImmediate. rewrite HT, zlen_of. cbn [bind]. rewrite HE. pose proof (prim_plain _ HP).
  destruct e; try discriminate; apply imm32; lia.
Qed.

Lemma makeImmLong_plain e n t d : primitive e -> scalar_of e n t -> makeImmediateLong t (u64 d) = Some (mkUV t (d mod 2 ^ n)).
Proof.
  intros HP H. destruct (scalar_facts _ _ _ H) as (_ & _ & HT & _). pose proof H as (HE & _ & _ & _ & Hn).
  unfold makeImmediateLong. rewrite HT, zlen_of. cbn [bind]. rewrite HE. pose proof (prim_plain _ HP).
  destruct e; try discriminate; apply imm64; lia.
Qed.

Lemma terminal_ok e n t c : primitive e -> scalar_of e n t -> terminalValue t c = Some (mkUV t (c mod 2 ^ n)).
Proof.
  intros HP H. destruct (scalar_facts _ _ _ H) as (_ & _ & _ & _ & HW). unfold terminalValue. rewrite HW.
  destruct (N.leb_spec n 32).
  - apply makeImm_plain with e; auto.
  - apply makeImmLong_plain with e; auto.
Qed.

(* ---- the cast, with everything it writes ---- *)
Lemma cast_whole e n t e' n' v s : primitive e -> primitive e' -> scalar_of e n t -> scalar_of e' n' (v_ty v) ->
  conv e e' (v_bits v mod 2 ^ n') (Z.of_N n') (Z.of_N n) = Some s ->
  cast t v = CastVal (mkUV t (s mod 2 ^ n)).
Proof.
  intros HP HP' H H' HC. unfold cast. rewrite (prim_safe_clear _ _ _ _ _ _ H H').
  destruct (scalar_facts _ _ _ H) as (_ & _ & _ & _ & HW). destruct (scalar_facts _ _ _ H') as (_ & _ & _ & _ & HW').
  pose proof H as (HE & HB & _ & _ & Hn). pose proof H' as (HE' & HB' & _ & _ & Hn').
  assert (valDataLong v = Some (v_bits v mod 2 ^ n')) as V64.
  { unfold valDataLong. rewrite HB', zlen_of. cbn [bind]. replace (n' =? 0) with false by lia. apply get64; [rewrite HE'; apply prim_plain; auto|lia]. }
  assert (n' <= 32 -> valData v = Some (v_bits v mod 2 ^ n')) as V32.
  { intros. unfold valData. rewrite HB', zlen_of. cbn [bind]. replace (n' =? 0) with false by lia. apply get32; [rewrite HE'; apply prim_plain; auto|lia]. }
  unfold castTo32, castTo64. rewrite HW, HW'.
  destruct (N.leb_spec n 32) as [L|L]; destruct (N.leb_spec n' 32) as [L'|L'];
    change (32 <=? 32)%Z with true; change (64 <=? 32)%Z with false; change (64 <=? 64)%Z with true; cbv iota zeta;
    rewrite ?V64, ?V32 by lia; rewrite HE, HE', HB, HB', HC;
    rewrite ?(makeImmLong_plain e n t s HP H); try rewrite ?(makeImm_plain e n t s HP H L); cbn [fin];
    destruct e; reflexivity.
Qed.

Lemma same_type_facts e n t e' n' t' : scalar_of e n t -> scalar_of e' n' t' -> same_type t t' = true -> e = e' /\ n = n'.
Proof.
  intros (HE & HB & _) (HE' & HB' & _) HS. unfold same_type in HS. rewrite HE, HE', HB, HB' in HS.
  destruct (etype_eqb e e') eqn:EE; [|discriminate]. apply etype_eqb_eq in EE. split; auto. lia.
Qed.

(* an operand brought to Bits of at least its own size keeps its bits *)
Lemma operand_bits e n t x m : primitive e -> scalar_of e n t -> x < 2 ^ n -> n <= m <= 64 ->
  exists r, operand (prim EBits (Z.of_N m) (-1)) (mkUV t x) = Some r /\ ty_enum (v_ty r) = EBits /\ v_bits r = x.
Proof.
  intros HP H Hx Hm. pose proof H as (HE & _ & _ & _ & Hn).
  assert (scalar_of EBits m (prim EBits (Z.of_N m) (-1))) as HM by (apply prim_scalar; lia).
  assert (primitive EBits) as HB by (right; right; auto).
  unfold operand. cbn [v_ty]. destruct (same_type _ t) eqn:ES.
  - exists (mkUV t x). destruct (same_type_facts _ _ _ _ _ _ HM H ES) as [E1 E2]. subst e m. cbn [v_ty v_bits]. auto.
  - rewrite (cast_whole EBits m _ e n (mkUV t x) x HB HP HM H).
    + eexists. split; [reflexivity|]. split; [reflexivity|]. cbn [v_bits]. apply N.mod_small. pose proof (N.pow_le_mono_r 2 n m). lia.
    + cbn [v_bits]. rewrite N.mod_small by lia. destruct HP as [[-> | [-> | ->]] | [-> | ->]]; reflexivity.
Qed.

(* ---- a literal may become Bits at least as large ---- *)
Lemma conv_to_bits e d a b : primitive e -> conv EBits e d a b = Some d.
Proof. intros [[-> | [-> | ->]] | [-> | ->]]; reflexivity. Qed.

Lemma conv_from_bits e d n m : primitive e -> d < 2 ^ n -> conv e EBits d (Z.of_N m) (Z.of_N n) = Some d.
Proof.
  intros HP Hd. assert (Z.to_N (2 ^ Z.of_N n) = 2 ^ n) as EP by (rewrite <- ofN_pow; lia).
  destruct HP as [[-> | [-> | ->]] | [-> | ->]]; cbn [conv]; rewrite ?EP, ?N.mod_small by lia; reflexivity.
Qed.

Lemma ext_val_mod e n d : primitive e -> 1 <= n -> ext_val e (Z.of_N n) (d mod 2 ^ n) = ext_val e (Z.of_N n) d.
Proof. intros. rewrite !ext_val_meaning by auto. f_equal. apply msb_bits_mod. lia. Qed.

Lemma forth_back e n t m j dest : primitive e -> scalar_of e n t -> scalar_of EBits m dest -> n <= m <= 64 ->
  convertForthAndBackLong t j dest = Some (Some (j mod 2 ^ n)) /\
  (n <= 32 -> convertForthAndBack t j dest = Some (Some (j mod 2 ^ n))).
Proof.
  intros HP H HM Hm. pose proof H as (HE & _ & _ & _ & Hn).
  assert (primitive EBits) as HB by (right; right; auto).
  pose proof (N.mod_lt j (2 ^ n) ltac:(pose proof (pow2_pos n); lia)) as HL.
  pose proof (N.pow_le_mono_r 2 n m) as HPW.
  assert (cast dest (mkUV t (j mod 2 ^ n)) = CastVal (mkUV dest (j mod 2 ^ n))) as C1.
  { rewrite (cast_whole EBits m dest e n _ (j mod 2 ^ n) HB HP HM); auto.
    - f_equal. f_equal. apply N.mod_small. lia.
    - cbn [v_bits]. rewrite N.mod_mod by (pose proof (pow2_pos n); lia). apply conv_to_bits; auto. }
  assert (cast t (mkUV dest (j mod 2 ^ n)) = CastVal (mkUV t (j mod 2 ^ n))) as C2.
  { rewrite (cast_whole e n t EBits m _ (j mod 2 ^ n) HP HB H); auto.
    - f_equal. f_equal. apply N.mod_small. lia.
    - cbn [v_bits]. rewrite (N.mod_small _ (2 ^ m)) by lia. apply conv_from_bits; auto. }
  split.
  - unfold convertForthAndBackLong, makeTerminalValueLong. rewrite (makeImmLong_plain e n t j HP H). cbn [bind]. rewrite C1. cbv iota zeta. rewrite C2.
    unfold getImmediateDataLong1. rewrite guard_true by lia. cbn [v_ty v_bits]. rewrite HE.
    assert (getDataLong (ATOM - 64) 64 (j mod 2 ^ n) = Some (j mod 2 ^ n)) as EG.
    { unfold getDataLong. rewrite guard_true by (unfold ATOM; lia). rewrite read_low by lia. f_equal. apply N.mod_small. pose proof (N.pow_le_mono_r 2 n 64). lia. }
    rewrite EG. destruct HP as [[-> | [-> | ->]] | [-> | ->]]; reflexivity.
  - intros H32. unfold convertForthAndBack, makeTerminalValue. rewrite (makeImm_plain e n t j HP H H32). cbn [bind]. rewrite C1. cbv iota zeta. rewrite C2.
    rewrite get32 by (try (cbn [v_ty]; rewrite HE; apply prim_plain; auto); lia). cbn [bind v_bits]. rewrite (N.mod_small _ (2 ^ 32)); auto.
    pose proof (N.pow_le_mono_r 2 n 32). lia.
Qed.

Lemma literal_into_bits e n t c m dest : primitive e -> scalar_of e n t -> scalar_of EBits m dest -> n <= m <= 64 ->
  literalSafeToCastTo t c dest = Some CAST_CLEAR.
Proof.
  intros HP H HM Hm. pose proof H as (HE & HN & _ & HR & Hn). pose proof HM as (HEd & HNd & _ & HRd & _).
  destruct (scalar_facts _ _ _ H) as (HS & HC & _ & HF & HW). destruct (scalar_facts _ _ _ HM) as (HS' & HC' & _ & HF' & HW').
  unfold literalSafeToCastTo. rewrite HF', HEd, HE.
  assert (base_safeCast dest t = CAST_CLEAR) as EBS by (unfold base_safeCast, checkArrayCast; rewrite HC, HC', HS, HS', HR, HRd; reflexivity).
  assert (fitsInBits t c dest = Some true) as EF.
  { assert (forall long, (long = false -> n <= 32) -> fitsInBitsW long t c dest = Some true) as HL.
    { intros long HH. unfold fitsInBitsW. rewrite HN, HE. rewrite guard_true by lia.
      assert (forall j, (do r <- (if long then convertForthAndBackLong t j dest else convertForthAndBack t j dest);
               Some (match r with Some x => cmpEq e (Z.of_N n) j x | None => false end)) = Some true) as HJ.
      { intros j. destruct (forth_back e n t m j dest HP H HM Hm) as [F1 F2].
        assert ((if long then convertForthAndBackLong t j dest else convertForthAndBack t j dest) = Some (Some (j mod 2 ^ n))) as ->
          by (destruct long; auto).
        cbn [bind]. f_equal. unfold cmpEq. rewrite ext_val_mod by (auto; lia). apply Z.eqb_refl. }
      destruct HP as [[-> | [-> | ->]] | [-> | ->]]; cbv zeta; apply HJ. }
    unfold fitsInBits. rewrite HC', HW, HW'. cbn [negb].
    destruct (N.leb_spec n 32); destruct (N.leb_spec m 32);
      change (32 >? 32)%Z with false; change (64 >? 32)%Z with true; change (32 >? 64)%Z with false; change (64 >? 64)%Z with false;
      change (32 <=? 32)%Z with true; change (64 <=? 32)%Z with false; change (64 <=? 64)%Z with true; cbv iota zeta;
      apply HL; lia || congruence. }
  assert (e = EBool -> safeCast dest t = Some CAST_CLEAR) as ES.
  { intros ->. unfold safeCast, prim_safeCast. rewrite EBS, HF'. cbn [andb]. rewrite HEd. unfold bits_safe. rewrite HE, HN, HNd. replace (Z.of_N m >=? Z.of_N n)%Z with true by lia. reflexivity. }
  rewrite EBS, EF. destruct HP as [[-> | [-> | ->]] | [-> | ->]]; try reflexivity. cbn [etype_eqb orb]. auto.
Qed.

Lemma literal_to_bits e n t c m : primitive e -> scalar_of e n t -> n <= m <= 64 ->
  literalSafeToCastTo t c (prim EBits (Z.of_N m) (-1)) = Some CAST_CLEAR.
Proof. intros HP H Hm. apply (literal_into_bits e n t c m); auto. apply prim_scalar; auto. destruct H as (_ & _ & _ & _ & ?). lia. Qed.

(* ---- the operations on the data ---- *)
Lemma doBits_ok f m t l r d : scalar_of EBits m t -> plain (ty_enum (v_ty l)) = true -> plain (ty_enum (v_ty r)) = true ->
  f (negb (m <=? 32)) m (v_bits l mod 2 ^ m) (v_bits r mod 2 ^ m) = Some d ->
  doBitsImmediate f t l r = Some (mkUV t (d mod 2 ^ m)).
Proof.
  intros H HL HR HF. destruct (scalar_facts _ _ _ H) as (_ & _ & HT & _ & HW). pose proof H as (_ & _ & _ & _ & Hm).
  unfold doBitsImmediate. rewrite HT, HW, zlen_of. cbn [bind].
  destruct (N.leb_spec m 32); cbn [negb] in HF; cbn [Z.eqb Pos.eqb].
  - rewrite !get32 by (auto; lia). cbn [bind]. rewrite HF. cbn [bind]. apply imm32. lia.
  - rewrite !get64 by (auto; lia). cbn [bind]. rewrite HF. cbn [bind]. apply imm64. lia.
Qed.

Lemma doUnary_ok f e m t x : primitive e -> scalar_of e m t -> plain (ty_enum (v_ty x)) = true ->
  doUnaryImmediate f t x = Some (mkUV t (f m (v_bits x mod 2 ^ m) mod 2 ^ m)).
Proof.
  intros HP H HL. destruct (scalar_facts _ _ _ H) as (_ & _ & HT & _ & HW). pose proof H as (_ & _ & _ & _ & Hm).
  unfold doUnaryImmediate. rewrite HT, HW, zlen_of. cbn [bind].
  destruct (N.leb_spec m 32).
  - change (32 <=? 32)%Z with true. cbv iota. rewrite !get32 by (auto; lia). cbn [bind]. apply imm32. lia.
  - change (64 <=? 32)%Z with false. change (64 <=? 64)%Z with true. cbv iota. rewrite !get64 by (auto; lia). cbn [bind]. apply imm64. lia.
Qed.

Lemma Bool1_scalar : scalar_of EBool 1 Bool1.
Proof. repeat split; cbn; lia. Qed.

Lemma doCompare_ok op e m t l r : primitive e -> cmpSupports op e = true -> scalar_of e m t ->
  plain (ty_enum (v_ty l)) = true -> plain (ty_enum (v_ty r)) = true ->
  doCompareImmediate op t l r =
    Some (mkUV Bool1 (if ext_cmp op (meaning e (msb_bits (N.to_nat m) (v_bits l))) (meaning e (msb_bits (N.to_nat m) (v_bits r))) then 1 else 0)).
Proof.
  intros HP HS H HL HR. destruct (scalar_facts _ _ _ H) as (_ & _ & HT & _ & HW). pose proof H as (HE & _ & _ & _ & Hm).
  unfold doCompareImmediate. rewrite HT, HW, zlen_of. cbn [bind].
  assert (forall long, makeImmediateCompare long op t (v_bits l mod 2 ^ m) (v_bits r mod 2 ^ m) m =
    Some (mkUV Bool1 (if ext_cmp op (meaning e (msb_bits (N.to_nat m) (v_bits l))) (meaning e (msb_bits (N.to_nat m) (v_bits r))) then 1 else 0))) as HM.
  { intros long. unfold makeImmediateCompare. rewrite HE, HS. rewrite !ext_val_mod, !ext_val_meaning by (auto; lia).
    destruct long; destruct (ext_cmp _ _ _); cbv zeta; reflexivity. }
  destruct (N.leb_spec m 32); cbn [Z.eqb Pos.eqb].
  - rewrite !get32 by (auto; lia). cbn [bind]. apply HM.
  - rewrite !get64 by (auto; lia). cbn [bind]. apply HM.
Qed.

Lemma ext_cmp_rel op a b : if ext_cmp op a b then rel op a b else ~ rel op a b.
Proof.
  destruct op; cbn [ext_cmp rel].
  - destruct (Z.eqb_spec a b); auto.
  - destruct (Z.eqb_spec a b); cbn [negb]; lia.
  - destruct (Z.ltb_spec a b); lia.
  - destruct (Z.leb_spec a b); lia.
  - destruct (Z.gtb_spec a b); lia.
  - destruct (Z.geb_spec a b); lia.
Qed.

Lemma says_cmp op a b : says (mkUV Bool1 (if ext_cmp op a b then 1 else 0)) (rel op a b).
Proof.
  split; [exact Bool1_scalar|]. pose proof (ext_cmp_rel op a b). destruct (ext_cmp op a b); [left|right]; split; auto.
Qed.

(* ---- bits of lists ---- *)
Lemma bit_msb n x i : (i < n)%nat -> bit (msb_bits n x) i = N.testbit x (N.of_nat i).
Proof.
  intros H. unfold bit. rewrite rev_nth by (rewrite msb_bits_length; lia). rewrite msb_bits_length, msb_bits_nth by lia. f_equal. lia.
Qed.
Lemma bit_over l i : (List.length l <= i)%nat -> bit l i = false.
Proof. intros. unfold bit. apply nth_overflow. rewrite rev_length. lia. Qed.

(* any bit, of a number that fits *)
Lemma bit_cbits n c i : bit (cbits n c) i = N.testbit (c mod 2 ^ n) (N.of_nat i).
Proof.
  unfold cbits. destruct (Nat.ltb_spec i (N.to_nat n)).
  - rewrite bit_msb by lia. rewrite N.mod_pow2_bits_low by lia. reflexivity.
  - rewrite bit_over by (rewrite msb_bits_length; lia). rewrite N.mod_pow2_bits_high by lia. reflexivity.
Qed.

Lemma bits_are_intro n x f : 1 <= n <= 64 -> (forall i, (i < N.to_nat n)%nat -> N.testbit x (N.of_nat i) = f i) ->
  bits_are n (mkUV (prim EBits (Z.of_N n) (-1)) (x mod 2 ^ n)) f.
Proof.
  intros Hn H. split; [apply prim_scalar; lia|]. intros i Hi. cbn [v_ty v_bits]. rewrite own_low by (try reflexivity; lia).
  rewrite bit_msb by lia. rewrite N.mod_pow2_bits_low by lia. auto.
Qed.
