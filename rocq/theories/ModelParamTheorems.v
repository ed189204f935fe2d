(* ModelParamTheorems.v: C113. *)
From Coq Require Import String List NArith ZArith Lia Bool.
From Coq Require Import ZifyBool ZifyNat ZifyN.
From Verif Require Import Base BitVec UTypeModel AtomModel AtomSpec AtomProofs PrimModel PrimSpec PrimProofs PrimTheorems FoldModel FoldSpec FoldProofs FoldTheorems CastModel CastTheorems ModelParamModel.
Import ListNotations.
Open Scope N_scope.

Lemma own_mod t n c e : primitive e -> scalar_of e n t -> own_bits t n (c mod 2 ^ n) = msb_bits (N.to_nat n) c.
Proof. intros HP (HE & _ & _ & _ & Hn). rewrite own_low by (rewrite ?HE; auto using prim_plain; lia). apply msb_bits_mod. lia. Qed.

(* The default of a parameter is the number that was written, kept in the bits of the type; a number the type cannot hold, or a type of
   more than 32 bits, is an error. Nothing saturates and nothing aborts. *)
Theorem C113_default : forall e n lt c e' n' t, arith e -> arith e' -> scalar_of e n lt -> scalar_of e' n' t ->
  (representable e' n' (meaning e (msb_bits (N.to_nat n) c)) /\ n' <= 32 /\
   exists d, checkParameter t lt c = MVal d /\ d < 2 ^ n' /\ meaning e' (msb_bits (N.to_nat n') d) = meaning e (msb_bits (N.to_nat n) c)) \/
  (~ (representable e' n' (meaning e (msb_bits (N.to_nat n) c)) /\ n' <= 32) /\ checkParameter t lt c = MNav).
Proof.
  intros e n lt c e' n' t HA HA' H H'. pose proof H' as (HE' & HB' & HS' & HR' & Hn').
  destruct (scalar_facts _ _ _ H') as (_ & _ & _ & _ & HW).
  destruct (C52_literal_accepted_iff_representable e n lt c e' n' t HA HA' H H') as (f & EF & HF).
  unfold checkParameter, foldDefault. rewrite (terminal_ok e n lt c) by (auto; left; auto). rewrite EF.
  assert (f = CAST_CLEAR \/ (f = CAST_BAD /\ ~ representable e' n' (meaning e (msb_bits (N.to_nat n) c)))) as [->|[-> HN]].
  { destruct f; auto; [|right; split; auto; intros Q; apply HF in Q; discriminate]. exfalso.
    unfold literalSafeToCastTo in EF. destruct (scalar_facts _ _ _ H') as (S1 & C1 & _ & F1 & _). destruct (scalar_facts _ _ _ H) as (S2 & C2 & _ & F2 & _). pose proof H as (HE & _ & _ & HR & _). rewrite F1, HE, HE' in EF.
    assert (base_safeCast t lt = CAST_CLEAR) as EBS by (unfold base_safeCast, checkArrayCast; rewrite C1, C2, S1, S2, HR, HR'; reflexivity). rewrite EBS in EF.
    destruct (fitsInBits lt c t) as [[]|]; destruct HA as [-> | [-> | ->]]; destruct HA' as [-> | [-> | ->]]; discriminate. }
  - destruct (C52_literal_keeps_its_number e n lt c e' n' t (mkUV lt (c mod 2 ^ n)) HA HA' H H' EF eq_refl) as (r & ER & HT & HV). { cbn [v_bits]. apply (own_mod lt n c e); auto. left; auto. }
    rewrite ER, HW. pose proof (proj1 HF eq_refl) as HQ. assert (scalar_of e' n' (v_ty r)) as H'' by (rewrite HT; auto). assert (primitive e') as HP' by (left; auto).
    destruct (scalar_facts _ _ _ H') as (_ & _ & HTB & _ & _). rewrite HTB, N2Z.id. destruct (N.leb_spec n' 32).
    + left. split; auto. split; auto. change (32 =? 32)%Z with true. cbv iota. rewrite (valData_ok e' n' r) by auto. exists (bval (own_bits (v_ty r) n' (v_bits r))).
      assert (bval (own_bits (v_ty r) n' (v_bits r)) < 2 ^ n') as HL. { eapply N.lt_le_trans; [apply bval_lt|]. rewrite own_bits_length by lia. rewrite N2Nat.id. lia. }
      rewrite N.mod_small by auto. split; [reflexivity|]. split; auto. rewrite own_bits_msb by lia. exact HV.
    + right. split; [lia|]. change (64 =? 32)%Z with false. change (64 =? 64)%Z with true. cbv iota. rewrite (valDataLong_ok e' n' r) by auto. reflexivity.
  - right. split; [tauto|reflexivity].
Qed.
Print Assumptions C113_default.

(* Whether a parameter may be used where another type is wanted does not depend on its default, since it can be changed: the use is
   accepted just if a variable of its type would be. *)
Theorem C113_use : forall e n t c e' n' dest, primitive e -> primitive e' -> scalar_of e n t -> scalar_of e' n' dest ->
  paramSafeToCastTo t c dest = safeCast dest t.
Proof.
  intros e n t c e' n' dest HP HP' H H'. unfold paramSafeToCastTo. destruct (safeCast dest t) as [[]|] eqn:ES; auto.
  pose proof H as (HE & HB & _ & HR & Hn). pose proof H' as (HE' & HB' & _ & HR' & Hn').
  destruct (scalar_facts _ _ _ H') as (S1 & C1 & _ & F1 & _). destruct (scalar_facts _ _ _ H) as (S2 & C2 & _ & F2 & _).
  assert (base_safeCast dest t = CAST_CLEAR) as EBS by (unfold base_safeCast, checkArrayCast; rewrite C1, C2, S1, S2, HR, HR'; reflexivity).
  destruct HP' as [HA'|[->| ->]].
  - destruct HP as [HA|[->| ->]].
    + destruct (C52_literal_accepted_iff_representable e n t c e' n' dest HA HA' H H') as (f & -> & HF). f_equal. apply HF. apply (proj1 (C23_safe_cast_exact e' n' dest e n t HA' HA H' H) ES). apply msb_bits_length.
    + unfold literalSafeToCastTo. rewrite F1, HE, HE'. destruct HA' as [-> | [-> | ->]]; exact ES.
    + unfold literalSafeToCastTo. rewrite F1, HE, HE'. destruct HA' as [-> | [-> | ->]]; exact ES.
  - unfold literalSafeToCastTo. rewrite F1, HE, HE'. exact ES.
  - destruct HP as [HA|[->| ->]].
    + apply (literal_into_bits e n t c n'); auto; [left; auto|]. unfold safeCast, prim_safeCast in ES. rewrite EBS, F1, HE' in ES. cbn [andb bind] in ES. unfold bits_safe in ES. rewrite HE, HB, HB' in ES.
      destruct (Z.geb_spec (Z.of_N n') (Z.of_N n)); [lia|]. destruct HA as [-> | [-> | ->]]; discriminate.
    + unfold literalSafeToCastTo. rewrite F1, HE, HE'. exact ES.
    + apply (literal_into_bits EBits n t c n'); auto; [right; right; auto|]. unfold safeCast, prim_safeCast in ES. rewrite EBS, F1, HE' in ES. cbn [andb bind] in ES. unfold bits_safe in ES. rewrite HE, HB, HB' in ES.
      destruct (Z.geb_spec (Z.of_N n') (Z.of_N n)); [lia|]. discriminate.
Qed.
Print Assumptions C113_use.
(* So whatever it is changed to, between numbers an accepted use keeps the value, and none that would is refused. *)
Theorem C113_changed : forall e n t c e' n' dest, arith e -> arith e' -> scalar_of e n t -> scalar_of e' n' dest ->
  (paramSafeToCastTo t c dest = Some CAST_CLEAR <-> forall now, exists r, cast dest (mkUV t (now mod 2 ^ n)) = CastVal r /\ number e' n' r = meaning e (msb_bits (N.to_nat n) now)).
Proof.
  intros e n t c e' n' dest HA HA' H H'. assert (primitive e) as HP by (left; auto). assert (primitive e') as HP' by (left; auto).
  rewrite (C113_use e n t c e' n' dest) by auto. pose proof H' as (_ & _ & _ & _ & Hn'). pose proof H as (_ & _ & _ & _ & Hn). split.
  - intros ES now. destruct (C23_safe_cast_keeps_number e' n' dest e n (mkUV t (now mod 2 ^ n)) HP' HP H' H ES) as (r & ER & _ & HV). exists r. split; auto. rewrite HV.
    destruct HA' as [-> | [-> | ->]]; unfold number; cbn [v_ty v_bits]; rewrite (own_mod t n now e); auto.
  - intros HX. apply (C23_safe_cast_exact e' n' dest e n t HA' HA H' H). intros l HL. destruct (HX (bval l)) as (r & ER & HV).
    assert (msb_bits (N.to_nat n) (bval l) = l) as EM by (rewrite <- HL; apply msb_bval). rewrite EM in HV. rewrite <- HV. exists (own_bits (v_ty r) n' (v_bits r)). split; [apply own_bits_length; lia|reflexivity].
Qed.
Print Assumptions C113_changed.
(* A literal of the same value may be taken where the parameter is not. *)
Example C113_ex : let u8 := prim EUnsigned 8 (-1) in let i8 := prim EInt 8 (-1) in let u4 := prim EUnsigned 4 (-1) in let i40 := prim EInt 40 (-1) in
  scalar_of EUnsigned 8 u8 /\ checkParameter u8 (prim EInt 5 (-1)) 10 = MVal 10 /\ checkParameter i8 (prim EInt 3 (-1)) (2 ^ 64 - 3) = MVal 253 /\
  checkParameter u8 (prim EInt 3 (-1)) (2 ^ 64 - 3) = MNav /\ checkParameter u4 (prim EInt 6 (-1)) 16 = MNav /\ checkParameter i40 (prim EInt 5 (-1)) 10 = MNav /\
  paramSafeToCastTo u8 10 u4 = Some CAST_BAD /\ literalSafeToCastTo u8 10 u4 = Some CAST_CLEAR /\ paramSafeToCastTo u4 10 u8 = Some CAST_CLEAR.
Proof. unfold scalar_of. repeat split; vm_compute; congruence. Qed.

(* ---- Bits and Bool ---- *)
Lemma forth_back_any e n t m j dest : primitive e -> scalar_of e n t -> scalar_of EBits m dest ->
  convertForthAndBackLong t j dest = Some (Some ((j mod 2 ^ n) mod 2 ^ m)) /\
  (n <= 32 -> convertForthAndBack t j dest = Some (Some ((j mod 2 ^ n) mod 2 ^ m))).
Proof.
  intros HP H HM. pose proof H as (HE & _ & _ & _ & Hn). pose proof HM as (_ & _ & _ & _ & Hm).
  assert (primitive EBits) as HB by (right; right; auto). set (x := (j mod 2 ^ n) mod 2 ^ m).
  pose proof (N.mod_lt j (2 ^ n) ltac:(pose proof (pow2_pos n); lia)) as HL.
  assert (x < 2 ^ m) as HXm by (apply N.mod_lt; pose proof (pow2_pos m); lia).
  assert (x < 2 ^ n) as HXn by (eapply N.le_lt_trans; [apply N.mod_le; pose proof (pow2_pos m); lia|exact HL]).
  assert (cast dest (mkUV t (j mod 2 ^ n)) = CastVal (mkUV dest x)) as C1.
  { rewrite (cast_whole EBits m dest e n _ (j mod 2 ^ n) HB HP HM); auto.
    cbn [v_bits]. rewrite N.mod_mod by (pose proof (pow2_pos n); lia). apply conv_to_bits; auto. }
  assert (cast t (mkUV dest x) = CastVal (mkUV t x)) as C2.
  { rewrite (cast_whole e n t EBits m _ x HP HB H); auto.
    - f_equal. f_equal. apply N.mod_small. lia.
    - cbn [v_bits]. rewrite (N.mod_small _ (2 ^ m)) by lia. apply conv_from_bits; auto. }
  clearbody x. split.
  - unfold convertForthAndBackLong, makeTerminalValueLong. rewrite (makeImmLong_plain e n t j HP H). cbn [bind]. rewrite C1. cbv iota zeta. rewrite C2.
    unfold getImmediateDataLong1. rewrite guard_true by lia. cbn [v_ty v_bits]. rewrite HE.
    assert (getDataLong (ATOM - 64) 64 x = Some x) as EG.
    { unfold getDataLong. rewrite guard_true by (unfold ATOM; lia). rewrite read_low by lia. f_equal. apply N.mod_small. pose proof (N.pow_le_mono_r 2 n 64). lia. }
    rewrite EG. destruct HP as [[-> | [-> | ->]] | [-> | ->]]; reflexivity.
  - intros H32. unfold convertForthAndBack, makeTerminalValue. rewrite (makeImm_plain e n t j HP H H32). cbn [bind]. rewrite C1. cbv iota zeta. rewrite C2.
    rewrite get32 by (try (cbn [v_ty]; rewrite HE; apply prim_plain; auto); lia). cbn [bind v_bits]. rewrite (N.mod_small _ (2 ^ 32)); auto.
    pose proof (N.pow_le_mono_r 2 n 32). lia.
Qed.

(* the three kinds whose bits say their number in just one way *)
Definition positional (e : etype) : Prop := e = EInt \/ e = EUnsigned \/ e = EBits.
Lemma ext_val_inj e n a b : positional e -> 1 <= n -> a < 2 ^ n -> b < 2 ^ n -> ext_val e (Z.of_N n) a = ext_val e (Z.of_N n) b -> a = b.
Proof.
  intros HP Hn HA HB. assert (Z.of_N a < 2 ^ Z.of_N n)%Z as ZA by (rewrite <- ofN_pow; lia). assert (Z.of_N b < 2 ^ Z.of_N n)%Z as ZB by (rewrite <- ofN_pow; lia).
  assert (2 ^ Z.of_N n = 2 * 2 ^ (Z.of_N n - 1))%Z as E2 by (apply pow_half; lia).
  destruct HP as [-> | [-> | ->]]; unfold ext_val, SignExtend; rewrite ?Z.mod_small by lia; try lia.
  destruct (Z.ltb_spec (Z.of_N a) (2 ^ (Z.of_N n - 1))); destruct (Z.ltb_spec (Z.of_N b) (2 ^ (Z.of_N n - 1))); lia.
Qed.
Lemma literal_bits_exact e n t c m dest : positional e -> scalar_of e n t -> scalar_of EBits m dest ->
  literalSafeToCastTo t c dest = Some (if c mod 2 ^ n <? 2 ^ m then CAST_CLEAR else CAST_BAD).
Proof.
  intros HQ H HM. assert (primitive e) as HP by (unfold primitive, arith; destruct HQ as [-> | [-> | ->]]; auto 6).
  pose proof H as (HE & HN & _ & HR & Hn). pose proof HM as (HEd & HNd & _ & HRd & Hm).
  destruct (scalar_facts _ _ _ H) as (HS & HC & _ & HF & HW). destruct (scalar_facts _ _ _ HM) as (HS' & HC' & _ & HF' & HW').
  unfold literalSafeToCastTo. rewrite HF', HEd, HE.
  assert (base_safeCast dest t = CAST_CLEAR) as EBS by (unfold base_safeCast, checkArrayCast; rewrite HC, HC', HS, HS', HR, HRd; reflexivity).
  assert (fitsInBits t c dest = Some (c mod 2 ^ n <? 2 ^ m)) as EF.
  { assert (forall long, (long = false -> n <= 32) -> fitsInBitsW long t c dest = Some (c mod 2 ^ n <? 2 ^ m)) as HL.
    { intros long HH. unfold fitsInBitsW. rewrite HN, HE. rewrite guard_true by lia. set (d := if long then u64 c else u32 c).
      assert (d mod 2 ^ n = c mod 2 ^ n) as ED.
      { assert (msb_bits (N.to_nat n) d = msb_bits (N.to_nat n) c) as EM by (unfold d; destruct long; [apply msb_u64; lia|apply msb_u32; specialize (HH eq_refl); lia]).
        apply (f_equal bval) in EM. rewrite !bval_msb, N2Nat.id in EM. exact EM. }
      destruct (forth_back_any e n t m d dest HP H HM) as [F1 F2].
      assert ((if long then convertForthAndBackLong t d dest else convertForthAndBack t d dest) = Some (Some ((d mod 2 ^ n) mod 2 ^ m))) as EC by (destruct long; auto).
      rewrite ED in EC. pose proof (N.mod_lt c (2 ^ n) ltac:(pose proof (pow2_pos n); lia)) as HLn. set (y := c mod 2 ^ n) in *.
      assert (cmpEq e (Z.of_N n) d (y mod 2 ^ m) = (y <? 2 ^ m)) as EQ.
      { unfold cmpEq. rewrite <- (ext_val_mod e n d) by (auto; lia). rewrite ED. fold y. destruct (N.ltb_spec y (2 ^ m)) as [L|L].
        - rewrite N.mod_small by auto. apply Z.eqb_refl.
        - apply Z.eqb_neq. intros EV. pose proof (pow2_pos m). pose proof (N.mod_lt y (2 ^ m) ltac:(lia)). apply ext_val_inj in EV; auto; lia. }
      destruct HQ as [-> | [-> | ->]]; cbv zeta; rewrite EC; cbn [bind]; rewrite EQ; reflexivity. }
    unfold fitsInBits. rewrite HC', HW, HW'. cbn [negb].
    destruct (N.leb_spec n 32); destruct (N.leb_spec m 32);
      change (32 >? 32)%Z with false; change (64 >? 32)%Z with true; change (32 >? 64)%Z with false; change (64 >? 64)%Z with false;
      change (32 <=? 32)%Z with true; change (64 <=? 32)%Z with false; change (64 <=? 64)%Z with true; cbv iota zeta;
      apply HL; lia || congruence. }
  rewrite EBS, EF. destruct HQ as [-> | [-> | ->]]; destruct (c mod 2 ^ n <? 2 ^ m); reflexivity.
Qed.
(* A parameter of Bits keeps the bits that were written if the leading ones that are lost are zeros; otherwise, and above 32 bits, it is
   an error. *)
Theorem C113_bits : forall e n lt c n' t, positional e -> scalar_of e n lt -> scalar_of EBits n' t ->
  checkParameter t lt c = if (c mod 2 ^ n <? 2 ^ n') && (n' <=? 32) then MVal (c mod 2 ^ n) else MNav.
Proof.
  intros e n lt c n' t HQ H H'. assert (primitive e) as HP by (unfold primitive, arith; destruct HQ as [-> | [-> | ->]]; auto 6).
  assert (primitive EBits) as HB by (right; right; auto). pose proof H' as (HE' & _ & _ & _ & Hn'). pose proof H as (_ & _ & _ & _ & Hn).
  destruct (scalar_facts _ _ _ H') as (_ & _ & HTB & _ & HW). unfold checkParameter, foldDefault. rewrite (terminal_ok e n lt c) by auto. rewrite (literal_bits_exact e n lt c n' t) by auto.
  set (y := c mod 2 ^ n). assert (y mod 2 ^ n = y) as EY by (apply N.mod_mod; pose proof (pow2_pos n); lia).
  destruct (N.ltb_spec y (2 ^ n')) as [L|L]; [|reflexivity]. cbn [andb].
  rewrite (cast_whole EBits n' t e n (mkUV lt y) y) by (auto; cbn [v_bits]; rewrite EY; apply conv_to_bits; auto). rewrite (N.mod_small y) by auto.
  assert (bval (own_bits t n' y) = y) as EO. { rewrite own_low by (rewrite ?HE'; auto using prim_plain; lia). rewrite bval_msb, N2Nat.id. apply N.mod_small; auto. }
  rewrite HW, HTB, N2Z.id. destruct (N.leb_spec n' 32).
  - change (32 =? 32)%Z with true. cbv iota. rewrite (valData_ok EBits n' (mkUV t y)) by auto. cbn [v_ty v_bits]. rewrite EO, N.mod_small by auto. reflexivity.
  - change (64 =? 32)%Z with false. change (64 =? 64)%Z with true. cbv iota. rewrite (valDataLong_ok EBits n' (mkUV t y)) by auto. reflexivity.
Qed.
Print Assumptions C113_bits.
Example C113_bits_ex : checkParameter (prim EBits 8 (-1)) (prim EInt 9 (-1)) 255 = MVal 255 /\ checkParameter (prim EBits 8 (-1)) (prim EInt 3 (-1)) (2 ^ 64 - 3) = MVal 5 /\
  checkParameter (prim EBits 4 (-1)) (prim EUnsigned 5 (-1)) 16 = MNav /\ scalar_of EBits 8 (prim EBits 8 (-1)).
Proof. unfold scalar_of. repeat split; vm_compute; congruence. Qed.
(* A parameter of Bool takes a Bool, and of the numbers only those of one bit that are not Int; all its bits are then the truth of what
   was written. *)
Theorem C113_bool : forall e n lt c n' t, arith e \/ e = EBool -> scalar_of e n lt -> scalar_of EBool n' t ->
  (e = EBool \/ (e <> EInt /\ n = 1)) /\ n' <= 32 /\ (exists d, checkParameter t lt c = MVal d /\ d < 2 ^ n' /\
    msb_bits (N.to_nat n') d = repeat (negb (meaning e (msb_bits (N.to_nat n) c) =? 0)%Z) (N.to_nat n')) \/
  ~ ((e = EBool \/ (e <> EInt /\ n = 1)) /\ n' <= 32) /\ checkParameter t lt c = MNav.
Proof.
  intros e n lt c n' t HC H H'. assert (primitive e) as HP by (unfold primitive; destruct HC; auto). assert (primitive EBool) as HB by (right; left; auto).
  pose proof H' as (HE' & _ & _ & HR' & Hn'). pose proof H as (HE & HBn & _ & HR & Hn).
  destruct (scalar_facts _ _ _ H') as (S1 & C1 & HTB & F1 & HW). destruct (scalar_facts _ _ _ H) as (S2 & C2 & _ & F2 & _).
  assert (base_safeCast t lt = CAST_CLEAR) as EBS by (unfold base_safeCast, checkArrayCast; rewrite C1, C2, S1, S2, HR, HR'; reflexivity).
  unfold checkParameter, foldDefault. rewrite (terminal_ok e n lt c) by auto.
  set (ok := match e with EBool => true | EInt => false | _ => n =? 1 end).
  assert (literalSafeToCastTo lt c t = Some (if ok then CAST_CLEAR else CAST_BAD)) as ->.
  { unfold literalSafeToCastTo. rewrite F1, HE, HE'. cbn [etype_eqb orb]. unfold safeCast, prim_safeCast. rewrite EBS, F1, HE'. cbn [andb]. unfold bool_safe. rewrite HE, HBn.
    replace (Z.of_N n =? 1)%Z with (n =? 1) by (destruct (N.eqb_spec n 1), (Z.eqb_spec (Z.of_N n) 1); auto; lia). unfold ok. destruct HC as [[-> | [-> | ->]] | ->]; reflexivity. }
  assert (ok = true <-> e = EBool \/ (e <> EInt /\ n = 1)) as HO. { unfold ok. destruct HC as [[-> | [-> | ->]] | ->]; rewrite ?N.eqb_eq; split; intros Q; auto; try discriminate; try (right; split; auto; discriminate); destruct Q as [Q|[Q1 Q2]]; congruence. }
  destruct ok; [|right; split; [intros [Q _]; apply HO in Q; discriminate|reflexivity]].
  assert (e = EBool \/ (e <> EInt /\ n = 1)) as HQ by (apply HO; auto).
  destruct (C74_truth n' t e n (mkUV lt (c mod 2 ^ n)) HC H' H) as (r & ER & HT & HV & _). rewrite ER, HW, HTB, N2Z.id. unfold number in HV. cbn [v_ty v_bits] in HV. rewrite (own_mod lt n c e) in HV by auto.
  assert (scalar_of EBool n' (v_ty r)) as H'' by (rewrite HT; auto). destruct (N.leb_spec n' 32).
  - left. split; auto. split; auto. change (32 =? 32)%Z with true. cbv iota. rewrite (valData_ok EBool n' r) by auto. exists (bval (own_bits (v_ty r) n' (v_bits r))).
    assert (bval (own_bits (v_ty r) n' (v_bits r)) < 2 ^ n') as HL. { eapply N.lt_le_trans; [apply bval_lt|]. rewrite own_bits_length by lia. rewrite N2Nat.id. lia. }
    rewrite N.mod_small by auto. split; [reflexivity|]. split; auto. rewrite own_bits_msb by lia. rewrite HT. exact HV.
  - right. split; [lia|]. change (64 =? 32)%Z with false. change (64 =? 64)%Z with true. cbv iota. rewrite (valDataLong_ok EBool n' r) by auto. reflexivity.
Qed.
Print Assumptions C113_bool.
(* Bits and truth values are no defaults of numbers, nor Bits of a Bool. *)
Theorem C113_unsuited : forall e n lt c e' n' t, e = EBits /\ (arith e' \/ e' = EBool) \/ e = EBool /\ arith e' -> scalar_of e n lt -> scalar_of e' n' t -> checkParameter t lt c = MNav.
Proof.
  intros e n lt c e' n' t HC H H'. assert (primitive e) as HP by (unfold primitive; destruct HC as [[-> _]|[-> _]]; auto).
  pose proof H' as (HE' & _ & _ & HR' & Hn'). pose proof H as (HE & HBn & _ & HR & Hn).
  destruct (scalar_facts _ _ _ H') as (S1 & C1 & _ & F1 & _). destruct (scalar_facts _ _ _ H) as (S2 & C2 & _ & F2 & _).
  assert (base_safeCast t lt = CAST_CLEAR) as EBS by (unfold base_safeCast, checkArrayCast; rewrite C1, C2, S1, S2, HR, HR'; reflexivity).
  unfold checkParameter, foldDefault. rewrite (terminal_ok e n lt c) by auto.
  assert (literalSafeToCastTo lt c t = Some CAST_BAD) as ->; [|reflexivity].
  unfold literalSafeToCastTo, safeCast, prim_safeCast, int_safe, unsigned_safe, unary_safe, bool_safe. rewrite EBS, F1, HE, HE'.
  destruct HC as [[-> [[-> | [-> | ->]] | ->]] | [-> [-> | [-> | ->]]]]; reflexivity.
Qed.
Print Assumptions C113_unsuited.
Example C113_bool_ex : checkParameter (prim EBool 3 (-1)) (prim EBool 1 (-1)) 1 = MVal 7 /\ checkParameter (prim EBool 1 (-1)) (prim EInt 2 (-1)) 1 = MNav /\
  checkParameter (prim EBool 40 (-1)) (prim EBool 1 (-1)) 1 = MNav /\ checkParameter (prim EInt 8 (-1)) (prim EBits 3 (-1)) 1 = MNav.
Proof. vm_compute. auto. Qed.

Lemma ones_mod k m : N.ones k mod 2 ^ m = N.ones (N.min k m).
Proof.
  apply N.bits_inj. intros i. destruct (N.lt_ge_cases i m) as [L|L].
  - rewrite N.mod_pow2_bits_low by auto. destruct (N.lt_ge_cases i k); [rewrite !N.ones_spec_low by lia; auto|rewrite !N.ones_spec_high by lia; auto].
  - rewrite N.mod_pow2_bits_high by auto. rewrite N.ones_spec_high by lia. auto.
Qed.
Lemma unary_ones n k : k <= n -> 1 <= n -> ext_enc EUnary (Z.of_N n) (Z.of_N k) = N.ones k.
Proof. intros. unfold ext_enc. rewrite clamp_id by lia. rewrite GetNOnes_ones by lia. rewrite N2Z.id. auto. Qed.
Lemma unary_ones_val n k : k <= n -> 1 <= n -> ext_val EUnary (Z.of_N n) (N.ones k) = Z.of_N k.
Proof.
  intros. rewrite ext_val_meaning by (auto; left; right; right; auto). rewrite <- (unary_ones n k) by auto.
  rewrite (ext_enc_meaning EUnary n (Z.of_N k)) by (auto; right; right; auto). apply clamp_id. unfold lo, hi. lia.
Qed.
Lemma literal_unary_bits n t c m dest : scalar_of EUnary n t -> scalar_of EBits m dest ->
  literalSafeToCastTo t c dest = Some (if (count (msb_bits (N.to_nat n) c) <=? Z.of_N m)%Z then CAST_CLEAR else CAST_BAD).
Proof.
  intros H HM. assert (primitive EUnary) as HP by (left; right; right; auto).
  pose proof H as (HE & HN & _ & HR & Hn). pose proof HM as (HEd & HNd & _ & HRd & Hm).
  destruct (scalar_facts _ _ _ H) as (HS & HC & _ & HF & HW). destruct (scalar_facts _ _ _ HM) as (HS' & HC' & _ & HF' & HW').
  unfold literalSafeToCastTo. rewrite HF', HEd, HE.
  assert (base_safeCast dest t = CAST_CLEAR) as EBS by (unfold base_safeCast, checkArrayCast; rewrite HC, HC', HS, HS', HR, HRd; reflexivity).
  set (q := count (msb_bits (N.to_nat n) c)).
  assert (0 <= q <= Z.of_N n)%Z as HQ. { unfold q, count. pose proof (count_occ_bound bool_dec true (msb_bits (N.to_nat n) c)) as HB. rewrite msb_bits_length in HB. lia. }
  assert (fitsInBits t c dest = Some (q <=? Z.of_N m)%Z) as EF.
  { assert (forall long, (long = false -> n <= 32) -> fitsInBitsW long t c dest = Some (q <=? Z.of_N m)%Z) as HL.
    { intros long HH. unfold fitsInBitsW. rewrite HN, HE. rewrite guard_true by lia. set (d := if long then u64 c else u32 c). cbv zeta.
      assert (ext_val EUnary (Z.of_N n) d = q) as EV.
      { rewrite ext_val_meaning by (auto; lia). unfold q. cbn [meaning]. f_equal. unfold d. destruct long; [apply msb_u64; lia|apply msb_u32; specialize (HH eq_refl); lia]. }
      rewrite EV. set (k := Z.to_N q). assert (q = Z.of_N k) as EK by (unfold k; lia). rewrite EK, unary_ones by lia.
      destruct (forth_back_any EUnary n t m (N.ones k) dest HP H HM) as [F1 F2].
      assert ((if long then convertForthAndBackLong t (N.ones k) dest else convertForthAndBack t (N.ones k) dest) = Some (Some ((N.ones k mod 2 ^ n) mod 2 ^ m))) as -> by (destruct long; auto).
      cbn [bind]. rewrite !ones_mod. unfold cmpEq. rewrite !unary_ones_val by lia. f_equal. destruct (Z.leb_spec (Z.of_N k) (Z.of_N m)); lia. }
    unfold fitsInBits. rewrite HC', HW, HW'. cbn [negb].
    destruct (N.leb_spec n 32); destruct (N.leb_spec m 32);
      change (32 >? 32)%Z with false; change (64 >? 32)%Z with true; change (32 >? 64)%Z with false; change (64 >? 64)%Z with false;
      change (32 <=? 32)%Z with true; change (64 <=? 32)%Z with false; change (64 <=? 64)%Z with true; cbv iota zeta;
      apply HL; lia || congruence. }
  rewrite EBS, EF. destruct (q <=? Z.of_N m)%Z; reflexivity.
Qed.
(* A Unary given to Bits is taken if it has no more ones than there are bits, but then the bits are cut as they stand. *)
Theorem C113_unary_bits : forall n lt c n' t, scalar_of EUnary n lt -> scalar_of EBits n' t ->
  checkParameter t lt c = if (count (msb_bits (N.to_nat n) c) <=? Z.of_N n')%Z && (n' <=? 32) then MVal ((c mod 2 ^ n) mod 2 ^ n') else MNav.
Proof.
  intros n lt c n' t H H'. assert (primitive EUnary) as HP by (left; right; right; auto).
  assert (primitive EBits) as HB by (right; right; auto). pose proof H' as (HE' & _ & _ & _ & Hn'). pose proof H as (_ & _ & _ & _ & Hn).
  destruct (scalar_facts _ _ _ H') as (_ & _ & HTB & _ & HW). unfold checkParameter, foldDefault. rewrite (terminal_ok EUnary n lt c) by auto. rewrite (literal_unary_bits n lt c n' t) by auto.
  destruct (Z.leb_spec (count (msb_bits (N.to_nat n) c)) (Z.of_N n')); [|reflexivity]. cbn [andb].
  set (y := c mod 2 ^ n). assert (y mod 2 ^ n = y) as EY by (apply N.mod_mod; pose proof (pow2_pos n); lia).
  rewrite (cast_whole EBits n' t EUnary n (mkUV lt y) y) by (auto; cbn [v_bits]; rewrite EY; apply conv_to_bits; auto). set (x := y mod 2 ^ n'). assert (x < 2 ^ n') as L by (apply N.mod_lt; pose proof (pow2_pos n'); lia).
  assert (bval (own_bits t n' x) = x) as EO. { rewrite own_low by (rewrite ?HE'; auto using prim_plain; lia). rewrite bval_msb, N2Nat.id. apply N.mod_small; auto. }
  rewrite HW, HTB, N2Z.id. destruct (N.leb_spec n' 32).
  - change (32 =? 32)%Z with true. cbv iota. rewrite (valData_ok EBits n' (mkUV t x)) by auto. cbn [v_ty v_bits]. rewrite EO, N.mod_small by auto. reflexivity.
  - change (64 =? 32)%Z with false. change (64 =? 64)%Z with true. cbv iota. rewrite (valDataLong_ok EBits n' (mkUV t x)) by auto. reflexivity.
Qed.
Print Assumptions C113_unary_bits.
(* So a one may be lost without an error when the ones of the Unary are not the last bits, as after a cast from Bits. *)
Theorem C113_unary_bits_refuted : exists lt t c d, scalar_of EUnary 4 lt /\ scalar_of EBits 3 t /\ c < 2 ^ 4 /\ checkParameter t lt c = MVal d /\ d <> c /\
  cast lt (mkUV (prim EBits 4 (-1)) c) = CastVal (mkUV lt c).
Proof. exists (prim EUnary 4 (-1)), (prim EBits 3 (-1)), 10, 2. unfold scalar_of. repeat split; vm_compute; congruence. Qed.
Print Assumptions C113_unary_bits_refuted.
(* A Bool given to Bits needs as many bits as it has itself. *)
Theorem C113_bool_bits : forall n lt c n' t, scalar_of EBool n lt -> scalar_of EBits n' t -> checkParameter t lt c = if (n <=? n') && (n' <=? 32) then MVal (c mod 2 ^ n) else MNav.
Proof.
  intros n lt c n' t H H'. assert (primitive EBool) as HP by (right; left; auto).
  assert (primitive EBits) as HB by (right; right; auto). pose proof H' as (HE' & HBn' & _ & HR' & Hn'). pose proof H as (HE & HBn & _ & HR & Hn).
  destruct (scalar_facts _ _ _ H') as (S1 & C1 & HTB & F1 & HW). destruct (scalar_facts _ _ _ H) as (S2 & C2 & _ & F2 & _).
  assert (base_safeCast t lt = CAST_CLEAR) as EBS by (unfold base_safeCast, checkArrayCast; rewrite C1, C2, S1, S2, HR, HR'; reflexivity).
  unfold checkParameter, foldDefault. rewrite (terminal_ok EBool n lt c) by auto.
  assert (literalSafeToCastTo lt c t = Some (if n <=? n' then CAST_CLEAR else CAST_BAD)) as ->.
  { unfold literalSafeToCastTo, safeCast, prim_safeCast, bits_safe. rewrite EBS, F1, HE, HE', HBn, HBn'. cbn [etype_eqb orb andb bind]. replace (Z.of_N n' >=? Z.of_N n)%Z with (n <=? n') by lia. reflexivity. }
  destruct (N.leb_spec n n') as [L0|]; [|reflexivity]. cbn [andb].
  set (y := c mod 2 ^ n). assert (y < 2 ^ n) as Ly by (apply N.mod_lt; pose proof (pow2_pos n); lia). assert (y mod 2 ^ n = y) as EY by (apply N.mod_small; auto). pose proof (N.pow_le_mono_r 2 n n' ltac:(lia) L0) as LP. assert (y < 2 ^ n') as L by lia.
  rewrite (cast_whole EBits n' t EBool n (mkUV lt y) y) by (auto; cbn [v_bits]; rewrite EY; apply conv_to_bits; auto). rewrite (N.mod_small y) by auto.
  assert (bval (own_bits t n' y) = y) as EO. { rewrite own_low by (rewrite ?HE'; auto using prim_plain; lia). rewrite bval_msb, N2Nat.id. apply N.mod_small; auto. }
  rewrite HW, HTB, N2Z.id. destruct (N.leb_spec n' 32).
  - change (32 =? 32)%Z with true. cbv iota. rewrite (valData_ok EBits n' (mkUV t y)) by auto. cbn [v_ty v_bits]. rewrite EO, N.mod_small by auto. reflexivity.
  - change (64 =? 32)%Z with false. change (64 =? 64)%Z with true. cbv iota. rewrite (valDataLong_ok EBits n' (mkUV t y)) by auto. reflexivity.
Qed.
Print Assumptions C113_bool_bits.
