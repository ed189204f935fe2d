(* PrimTheorems.v: safe casts keep the number (C23), limits (C24), Unary counts (C48), literals (C52). *)
From Coq Require Import String List NArith ZArith Lia Bool.
From Coq Require Import ZifyBool ZifyNat ZifyN.
From Verif Require Import Base BitVec UTypeModel AtomModel AtomSpec AtomProofs PrimModel PrimSpec PrimProofs.
Import ListNotations.
Ltac Zify.zify_post_hook ::= Z.div_mod_to_equations.
Open Scope N_scope.

(* ---- C23 ---- *)
Lemma unsigned_to_unary_safe n t n' t' : scalar_of EUnary n t -> scalar_of EUnsigned n' t' ->
  unary_safe t t' = Some (2 ^ Z.of_N n' - 1 <=? Z.of_N n)%Z.
Proof.
  intros H H'. pose proof (getMax_unsigned _ _ H') as HM. destruct (scalar_facts _ _ _ H') as (_ & _ & _ & _ & HW).
  destruct H as (_ & HB & _ & _ & Hn). destruct H' as (HE' & _ & _ & _ & Hn').
  unfold unary_safe. rewrite HE', HW, HM, HB. unfold zu32, zu64.
  pose proof (zpow_pos (Z.of_N n') ltac:(lia)).
  destruct (n' <=? 32) eqn:E.
  - pose proof (zpow_bound (Z.of_N n') 32 ltac:(lia)). change (32 <=? 32)%Z with true. cbv iota.
    rewrite !Z.mod_small by lia. f_equal. lia.
  - pose proof (zpow_bound (Z.of_N n') 64 ltac:(lia)). change (64 <=? 32)%Z with false. cbv iota.
    rewrite !Z.mod_small by lia. f_equal. lia.
Qed.

Lemma safe_ranges e n t e' n' t' : arith e -> arith e' -> scalar_of e n t -> scalar_of e' n' t' ->
  exists b, safeCast t t' = Some (if b : bool then CAST_CLEAR else CAST_BAD) /\
    (b = true <-> (lo e n <= lo e' n' /\ hi e' n' <= hi e n)%Z).
Proof.
  intros HA HA' H H'. unfold safeCast. rewrite (prim_safe_clear _ _ _ _ _ _ H H').
  pose proof H as (HE & HB & _ & _ & Hn). pose proof H' as (HE' & HB' & _ & _ & Hn'). rewrite HE.
  assert (forall a b, (0 <= a)%Z -> (0 <= b)%Z -> (2 ^ a <= 2 ^ b <-> a <= b)%Z) as HP.
  { intros a b Ha Hb. symmetry. apply Z.pow_le_mono_r_iff; lia. }
  pose proof (HP (Z.of_N n) (Z.of_N n') ltac:(lia) ltac:(lia)) as P1. pose proof (HP (Z.of_N n') (Z.of_N n) ltac:(lia) ltac:(lia)) as P2.
  pose proof (HP (Z.of_N n' - 1) (Z.of_N n - 1) ltac:(lia) ltac:(lia))%Z as P3.
  pose proof (HP (Z.of_N n') (Z.of_N n - 1) ltac:(lia) ltac:(lia))%Z as P4.
  pose proof (zpow_pos (Z.of_N n') ltac:(lia)). pose proof (zpow_pos (Z.of_N n) ltac:(lia)).
  pose proof (zpow_pos (Z.of_N n' - 1) ltac:(lia)). pose proof (zpow_pos (Z.of_N n - 1) ltac:(lia)).
  pose proof (Z.log2_lt_pow2 (Z.of_N n') (Z.of_N n - 1) ltac:(lia)) as L1.
  pose proof (Z.log2_lt_pow2 (Z.of_N n') (Z.of_N n) ltac:(lia)) as L2.
  unfold int_safe, unsigned_safe, getLogBase2.
  destruct HA as [-> | [-> | ->]]; destruct HA' as [-> | [-> | ->]];
    try rewrite (unsigned_to_unary_safe _ _ _ _ H H');
    unfold unary_safe; rewrite ?HE', ?HB, ?HB'; match goal with |- context [bind (Some ?b) _] => exists b end; (split; [reflexivity|]); unfold lo, hi; lia.
Qed.

Theorem C23_safe_cast_keeps_number : forall e n t e' n' v,
  primitive e -> primitive e' -> scalar_of e n t -> scalar_of e' n' (v_ty v) ->
  safeCast t (v_ty v) = Some CAST_CLEAR ->
  exists r, cast t v = CastVal r /\ v_ty r = t /\
    number e n r = number (match e with EBits => EBits | _ => e' end) n' v.
Proof.
  intros e n t e' n' v HP HP' H H' HS.
  pose proof H as (HE & HB & _ & _ & Hn). pose proof H' as (HE' & HB' & _ & _ & Hn').
  destruct HP as [HA | [-> | ->]].
  - (* arithmetic destination *)
    assert (arith e') as HA'.
    { unfold safeCast in HS. rewrite (prim_safe_clear _ _ _ _ _ _ H H') in HS. rewrite HE in HS.
      unfold int_safe, unsigned_safe, unary_safe in HS. rewrite HE' in HS.
      destruct HP' as [HA' | [-> | ->]]; auto; destruct HA as [-> | [-> | ->]]; discriminate. }
    destruct (safe_ranges e n t e' n' (v_ty v) HA HA' H H') as (b & EB & HR). rewrite HS in EB.
    assert (b = true) by (destruct b; congruence). apply HR in H0 as [].
    destruct (cast_arith e n t e' n' v HA (or_introl HA') H H') as (r & E & HT & HN).
    exists r. split; auto. split; auto.
    pose proof (number_range e' n' v (or_introl HA') H') as HR'. rewrite HN, clamp_id by lia.
    destruct HA as [-> | [-> | ->]]; reflexivity.
  - (* Bool destination *)
    unfold safeCast in HS. rewrite (prim_safe_clear _ _ _ _ _ _ H H') in HS. rewrite HE in HS.
    unfold bool_safe in HS. rewrite HE', HB' in HS.
    assert (calc e' /\ (e' <> EBool -> n' = 1%N /\ (e' = EUnsigned \/ e' = EUnary))) as [HC H1].
    { destruct HP' as [[-> | [-> | ->]] | [-> | ->]]; try discriminate; cbn [bind] in HS;
        (split; [unfold calc, arith; tauto|]); try congruence; intros _;
        destruct (Z.of_N n' =? 1)%Z eqn:E1; try discriminate; (split; [lia | auto]). }
    destruct (cast_number EBool n t e' n' v (or_intror eq_refl) HC H H') as (r & E & HT & HO).
    exists r. split; auto. split; auto. unfold number at 1. rewrite HT, HO, ext_enc_bool by lia.
    assert (0 <= number e' n' v <= 1)%Z as HR.
    { pose proof (number_range e' n' v HP' H') as HR.
      destruct HP' as [[-> | [-> | ->]] | [-> | ->]]; unfold lo, hi in HR; try lia;
        destruct (H1 ltac:(discriminate)) as [-> [|]]; try discriminate; exact HR. }
    destruct (Z.eqb_spec (number e' n' v) 0); lia.
  - (* Bits destination: same bits *)
    assert (n' <= n) as HN.
    { unfold safeCast in HS. rewrite (prim_safe_clear _ _ _ _ _ _ H H') in HS. rewrite HE in HS.
      unfold bits_safe in HS. rewrite HE', HB, HB' in HS.
      destruct HP' as [[-> | [-> | ->]] | [-> | ->]]; cbn [bind] in HS;
        destruct (Z.of_N n >=? Z.of_N n')%Z eqn:E1; try discriminate; lia. }
    destruct (cast_conv EBits n t e' n' v (bval (own_bits (v_ty v) n' (v_bits v)))) as (r & E & HT & HO); auto.
    + right; right; auto.
    + destruct HP' as [[-> | [-> | ->]] | [-> | ->]]; reflexivity.
    + exists r. split; auto. split; auto. unfold number, meaning. rewrite HT, HO. rewrite bval_msb.
      rewrite N.mod_small; auto. pose proof (bval_lt (own_bits (v_ty v) n' (v_bits v))) as HL.
      rewrite own_bits_len in HL by lia. eapply N.lt_le_trans; [exact HL|]. apply N.pow_le_mono_r; lia.
Qed.
Print Assumptions C23_safe_cast_keeps_number.

(* between Int, Unsigned and Unary the rule is exact: it refuses a cast only if some value would change *)
Theorem C23_safe_cast_exact : forall e n t e' n' t',
  arith e -> arith e' -> scalar_of e n t -> scalar_of e' n' t' ->
  (safeCast t t' = Some CAST_CLEAR <->
   forall l, length l = N.to_nat n' -> representable e n (meaning e' l)).
Proof.
  intros e n t e' n' t' HA HA' H H'.
  destruct (safe_ranges e n t e' n' t' HA HA' H H') as (b & -> & HR).
  pose proof H as (_ & _ & _ & _ & Hn). pose proof H' as (_ & _ & _ & _ & Hn').
  assert (b = true <-> forall l, length l = N.to_nat n' -> representable e n (meaning e' l)) as HB.
  { rewrite HR. split.
    - intros [H1 H2] l HL. apply representable_iff; auto; try lia.
      pose proof (meaning_range e' n' l (or_introl HA') ltac:(lia) HL). lia.
    - intros HF. pose proof (hi_lo e' n' ltac:(lia)) as HLH.
      assert (forall z, (lo e' n' <= z <= hi e' n')%Z -> (lo e n <= z <= hi e n)%Z) as HI.
      { intros z Hz. apply representable_iff in Hz as (l & HL & <-); auto; try lia.
        apply representable_iff; auto; lia. }
      pose proof (HI (lo e' n') ltac:(lia)). pose proof (HI (hi e' n') ltac:(lia)). lia. }
  rewrite <- HB. destruct b; split; congruence || auto.
Qed.
Print Assumptions C23_safe_cast_exact.

(* a value cast to Bits that are wide enough and cast back is the same value, bit for bit *)
Theorem C23_bits_there_and_back : forall e n v m tb,
  primitive e -> scalar_of e n (v_ty v) -> scalar_of EBits m tb -> n <= m ->
  exists b r, cast tb v = CastVal b /\ cast (v_ty v) b = CastVal r /\ v_ty r = v_ty v /\
    own_bits (v_ty v) n (v_bits r) = own_bits (v_ty v) n (v_bits v).
Proof.
  intros e n v m tb HP H H' HN. pose proof H as (HE & HB & _ & _ & Hn). pose proof H' as (HE' & HB' & _ & _ & Hm).
  assert (primitive EBits) as HPB by (right; right; auto).
  set (p := bval (own_bits (v_ty v) n (v_bits v))).
  assert (p < 2 ^ n) as Hp.
  { unfold p. pose proof (bval_lt (own_bits (v_ty v) n (v_bits v))) as HL. rewrite own_bits_len in HL by lia.
    rewrite N2Nat.id in HL. auto. }
  assert (p < 2 ^ m) as Hpm by (eapply N.lt_le_trans; [exact Hp|]; apply N.pow_le_mono_r; lia).
  destruct (cast_conv EBits m tb e n v p) as (b & E & HT & HO); auto.
  { destruct HP as [[-> | [-> | ->]] | [-> | ->]]; reflexivity. }
  assert (bval (own_bits (v_ty b) m (v_bits b)) = p) as EP.
  { rewrite HT, HO, bval_msb, N2Nat.id. apply N.mod_small. auto. }
  destruct (cast_conv e n (v_ty v) EBits m b p) as (r & E2 & HT2 & HO2); auto.
  { rewrite HT; auto. }
  { rewrite EP. assert (Z.to_N (2 ^ Z.of_N n) = 2 ^ n) as E2N by (rewrite <- ofN_pow; apply N2Z.id).
    destruct HP as [[-> | [-> | ->]] | [-> | ->]]; cbn [conv]; rewrite ?E2N, ?N.mod_small by auto; reflexivity. }
  exists b, r. repeat split; auto. rewrite HO2. unfold p. apply own_bits_msb. lia.
Qed.
Print Assumptions C23_bits_there_and_back.

Definition i8 := prim EInt 8 (-1).
Definition u7 := prim EUnsigned 7 (-1).
Definition y40 := prim EUnary 40 (-1).
Definition u6 := prim EUnsigned 6 (-1).
Example C23_ex : scalar_of EInt 8 i8 /\ scalar_of EUnsigned 7 u7 /\ safeCast i8 u7 = Some CAST_CLEAR /\
  safeCast u7 i8 = Some CAST_BAD /\
  number EInt 8 (mkUV i8 99) = 99%Z /\ cast i8 (mkUV u7 99) = CastVal (mkUV i8 99) /\
  number EUnary 40 (mkUV y40 (2 ^ 39 + 5)) = 3%Z /\ safeCast u6 y40 = Some CAST_CLEAR /\
  cast u6 (mkUV y40 (2 ^ 39 + 5)) = CastVal (mkUV u6 3).
Proof. vm_compute. repeat split; discriminate. Qed.

(* ---- C24 ---- *)
Theorem C24_maxof : forall e n t, calc e -> scalar_of e n t ->
  exists r, getMaxUV t = Some r /\ v_ty r = t /\
    forall l, length l = N.to_nat n -> (meaning e l <= number e n r)%Z.
Proof.
  intros e n t HC H. pose proof H as (HE & HB & _ & _ & Hn). pose proof (calc_prim _ HC) as HP.
  destruct (limitUV e n t (getMax t) HP H) as (r & E & HT & HO).
  exists r. split; [exact E|]. split; auto. intros l HL.
  pose proof (meaning_range e n l HP ltac:(lia) HL) as HR.
  enough (number e n r = hi e n) by lia. clear l HL HR E.
  unfold number. rewrite HT, HO. pose proof (hi_lo e n ltac:(lia)) as HLH.
  destruct HC as [[-> | [-> | ->]] | ->].
  - rewrite (getMax_int _ _ H). rewrite (enc_mod EInt); try (unfold arith; auto; lia); try discriminate; try (unfold lo, hi in *; lia).
    rewrite ext_enc_meaning by (unfold arith; auto; lia). apply clamp_id. unfold lo, hi in *; lia.
  - rewrite (getMax_unsigned _ _ H). rewrite (enc_mod EUnsigned); try (unfold arith; auto; lia); try discriminate; try (unfold lo, hi in *; lia).
    rewrite ext_enc_meaning by (unfold arith; auto; lia). apply clamp_id. unfold lo, hi in *; lia.
  - assert (getMax t = GetNOnes (Z.of_N n)) as -> by (unfold getMax; rewrite HE, HB; replace (Z.of_N n <=? 0)%Z with false by lia; reflexivity).
    rewrite Z.mod_small by (unfold GetNOnes; pose proof (zpow_pos (Z.of_N n) ltac:(lia)); lia).
    pose proof (ext_enc_meaning EUnary n (Z.of_N n) ltac:(unfold arith; auto) ltac:(lia)) as HM.
    unfold ext_enc in HM. rewrite (clamp_id 0) in HM by lia. rewrite HM. apply clamp_id. unfold lo, hi; lia.
  - assert (getMax t = GetNOnes (Z.of_N n)) as -> by (unfold getMax; rewrite HE, HB; replace (Z.of_N n <=? 0)%Z with false by lia; reflexivity).
    rewrite Z.mod_small by (unfold GetNOnes; pose proof (zpow_pos (Z.of_N n) ltac:(lia)); lia).
    exact (ext_enc_bool n 1 ltac:(lia)).
Qed.
Print Assumptions C24_maxof.

Theorem C24_minof : forall e n t, calc e -> scalar_of e n t ->
  exists r, getMinUV t = Some r /\ v_ty r = t /\
    forall l, length l = N.to_nat n -> (number e n r <= meaning e l)%Z.
Proof.
  intros e n t HC H. pose proof H as (HE & HB & _ & _ & Hn). pose proof (calc_prim _ HC) as HP.
  destruct (limitUV e n t (getMin t) HP H) as (r & E & HT & HO).
  exists r. split; [exact E|]. split; auto. intros l HL.
  pose proof (meaning_range e n l HP ltac:(lia) HL) as HR.
  enough (number e n r = lo e n) by lia. clear l HL HR E.
  unfold number. rewrite HT, HO. pose proof (hi_lo e n ltac:(lia)) as HLH.
  assert (e <> EInt -> getMin t = 0%Z) as H0.
  { intros. unfold getMin. rewrite HE, HB. replace (Z.of_N n <=? 0)%Z with false by lia. destruct e; congruence. }
  destruct HC as [[-> | [-> | ->]] | ->].
  - rewrite (getMin_int _ _ H). rewrite (enc_mod EInt); try (unfold arith; auto; lia); try discriminate; try (unfold lo, hi in *; lia).
    rewrite ext_enc_meaning by (unfold arith; auto; lia). apply clamp_id. unfold lo, hi in *; lia.
  - rewrite H0 by discriminate. rewrite (enc_mod EUnsigned); try (unfold arith; auto; lia); try discriminate; try (unfold lo, hi in *; lia).
    rewrite ext_enc_meaning by (unfold arith; auto; lia). apply clamp_id. unfold lo, hi in *; lia.
  - rewrite H0 by discriminate. rewrite Z.mod_0_l by (pose proof (zpow_pos (Z.of_N n) ltac:(lia)); lia).
    pose proof (ext_enc_meaning EUnary n 0 ltac:(unfold arith; auto) ltac:(lia)) as HM.
    unfold ext_enc in HM. rewrite (clamp_id 0) in HM by lia. change (Z.to_N (GetNOnes 0)) with (Z.to_N 0) in HM.
    rewrite HM. apply clamp_id. unfold lo, hi; lia.
  - rewrite H0 by discriminate. rewrite Z.mod_0_l by (pose proof (zpow_pos (Z.of_N n) ltac:(lia)); lia).
    exact (ext_enc_bool n 0 ltac:(lia)).
Qed.
Print Assumptions C24_minof.

Example C24_ex : getMaxUV i8 = Some (mkUV i8 127) /\ getMinUV i8 = Some (mkUV i8 128) /\
  number EInt 8 (mkUV i8 128) = (-128)%Z /\ getMaxUV y40 = Some (mkUV y40 (2 ^ 40 - 1)) /\
  number EUnary 40 (mkUV y40 (2 ^ 40 - 1)) = 40%Z.
Proof. vm_compute. repeat split. Qed.

(* ---- C48 ---- *)
(* what a Unary is cast to depends only on how many of its bits are ones, whatever the destination *)
Theorem C48_only_the_count_matters : forall e n t n' t' a b,
  calc e -> scalar_of e n t -> scalar_of EUnary n' t' ->
  count (own_bits t' n' a) = count (own_bits t' n' b) ->
  cast t (mkUV t' a) = cast t (mkUV t' b).
Proof.
  intros e n t n' t' a b HC H H' HE.
  assert (calc EUnary) as HU by (left; right; right; auto).
  pose proof H' as (HE' & HB' & _ & _ & Hn'). pose proof H as (HEt & HBt & _ & _ & Hn).
  destruct (scalar_facts _ _ _ H') as (_ & _ & _ & _ & HW').
  assert (forall x, ext_val EUnary (Z.of_N n') (bval (own_bits t' n' x)) = count (own_bits t' n' x)) as HX.
  { intros x. rewrite ext_val_meaning by (auto using calc_prim; lia). rewrite own_bits_msb by lia. reflexivity. }
  assert (forall x, conv e EUnary (bval (own_bits t' n' x)) (Z.of_N n') (Z.of_N n) =
                    Some (ext_enc e (Z.of_N n) (count (own_bits t' n' x)))) as HV
    by (intros x; rewrite conv_calc by auto; rewrite HX; reflexivity).
  unfold cast. cbn [v_ty]. rewrite (prim_safe_clear _ _ _ _ _ _ H H').
  unfold castTo32, castTo64. cbn [v_ty]. rewrite HEt, HE', HBt, HB', HW'.
  destruct (n' <=? 32) eqn:En'.
  - rewrite (valData_ok EUnary n' (mkUV t' a)), (valData_ok EUnary n' (mkUV t' b)) by (auto using calc_prim; lia).
    change (32 <=? 32)%Z with true. cbv iota.
    cbn [v_ty v_bits]. rewrite !HV, HE. destruct (getTotalWordSize t <=? 32)%Z; [reflexivity|].
    destruct (getTotalWordSize t <=? 64)%Z; [reflexivity|]. destruct HC as [[-> | [-> | ->]] | ->]; reflexivity.
  - rewrite (valDataLong_ok EUnary n' (mkUV t' a)), (valDataLong_ok EUnary n' (mkUV t' b)) by (auto using calc_prim).
    change (64 <=? 32)%Z with false. change (64 <=? 64)%Z with true. cbv iota.
    cbn [v_ty v_bits]. rewrite !HV, HE. destruct (getTotalWordSize t <=? 32)%Z; [reflexivity|].
    destruct (getTotalWordSize t <=? 64)%Z; [reflexivity|]. destruct HC as [[-> | [-> | ->]] | ->]; reflexivity.
Qed.
Print Assumptions C48_only_the_count_matters.

(* a number k up to the size becomes k ones, and back it is k again *)
Theorem C48_every_count : forall n t e n' v k,
  scalar_of EUnary n t -> e = EInt \/ e = EUnsigned -> scalar_of e n' (v_ty v) ->
  number e n' v = Z.of_N k -> k <= n ->
  exists y r, cast t v = CastVal y /\ count (own_bits t n (v_bits y)) = Z.of_N k /\
    cast (v_ty v) y = CastVal r /\ number e n' r = Z.of_N k.
Proof.
  intros n t e n' v k H He H' HN Hk.
  assert (arith EUnary) as HU by (right; right; auto).
  assert (arith e) as HA by (destruct He; unfold arith; auto).
  destruct (cast_arith EUnary n t e n' v HU (or_introl HA) H H') as (y & E & HT & HY).
  rewrite HN in HY. rewrite clamp_id in HY by (unfold lo, hi; lia).
  destruct (cast_arith e n' (v_ty v) EUnary n y HA (or_introl HU) H') as (r & E2 & HT2 & HR); [rewrite HT; auto|].
  exists y, r. split; auto. split; [unfold number in HY; rewrite HT in HY; exact HY|]. split; auto.
  rewrite HR, HY, <- HN. apply clamp_id. apply number_range; auto. left; auto.
Qed.
Print Assumptions C48_every_count.

Example C48_ex : count (own_bits y40 40 5) = 2%Z /\ count (own_bits y40 40 (2 ^ 39 + 2 ^ 20)) = 2%Z /\
  cast u6 (mkUV y40 5) = CastVal (mkUV u6 2) /\ cast u6 (mkUV y40 (2 ^ 39 + 2 ^ 20)) = CastVal (mkUV u6 2) /\
  cast y40 (mkUV u6 33) = CastVal (mkUV y40 (2 ^ 33 - 1)).
Proof. vm_compute. repeat split. Qed.

(* ---- C52 ---- *)
(* a literal is implicitly accepted by a numeric type exactly if the type can represent its number, and then
   that is the number it becomes *)
Theorem C52_literal_accepted_iff_representable : forall e n t c e' n' dest,
  arith e -> arith e' -> scalar_of e n t -> scalar_of e' n' dest ->
  exists f, literalSafeToCastTo t c dest = Some f /\
    (f = CAST_CLEAR <-> representable e' n' (meaning e (msb_bits (N.to_nat n) c))).
Proof.
  intros e n t c e' n' dest HA HA' H H'.
  pose proof H as (HE & _ & _ & HR & Hn). pose proof H' as (HE' & _ & _ & HR' & Hn').
  destruct (fitsInBits_arith e n t e' n' dest c HA HA' H H') as (b & EB & HB).
  exists (if b then CAST_CLEAR else CAST_BAD). split.
  - unfold literalSafeToCastTo. destruct (scalar_facts _ _ _ H') as (HS' & HC' & _ & HF' & _).
    destruct (scalar_facts _ _ _ H) as (HS & HC & _ & HF & _). rewrite HF', HE, HE'.
    assert (base_safeCast dest t = CAST_CLEAR) as EBS.
    { unfold base_safeCast, checkArrayCast. rewrite HC, HC', HS, HS', HR, HR'. reflexivity. }
    rewrite EBS, EB.
    destruct HA as [-> | [-> | ->]]; destruct HA' as [-> | [-> | ->]]; reflexivity.
  - rewrite representable_iff by (auto; lia). rewrite <- HB. destruct b; split; congruence || auto.
Qed.
Print Assumptions C52_literal_accepted_iff_representable.
(* a Bool takes only the literals of the one-bit types Unsigned(1) and Unary(1), whatever their value *)
Theorem C52_literal_to_bool : forall e n t c n' dest, arith e -> scalar_of e n t -> scalar_of EBool n' dest ->
  literalSafeToCastTo t c dest = Some (match e with EInt => CAST_BAD | _ => if n =? 1 then CAST_CLEAR else CAST_BAD end).
Proof.
  intros e n t c n' dest HA H H'. pose proof H as (HE & HN & _ & HR & Hn). pose proof H' as (HE' & _ & _ & HR' & Hn').
  unfold literalSafeToCastTo. destruct (scalar_facts _ _ _ H') as (HS' & HC' & _ & HF' & _). destruct (scalar_facts _ _ _ H) as (HS & HC & _ & HF & _). rewrite HF', HE, HE'. cbn [etype_eqb orb].
  assert (base_safeCast dest t = CAST_CLEAR) as EBS by (unfold base_safeCast, checkArrayCast; rewrite HC, HC', HS, HS', HR, HR'; reflexivity).
  unfold safeCast, prim_safeCast. rewrite EBS, HF', HE'. cbn [andb]. unfold bool_safe. rewrite HE, HN. replace (Z.of_N n =? 1)%Z with (n =? 1) by (destruct (N.eqb_spec n 1), (Z.eqb_spec (Z.of_N n) 1); auto; lia).
  destruct HA as [-> | [-> | ->]]; reflexivity.
Qed.
Print Assumptions C52_literal_to_bool.
Example C52_literal_to_bool_ex : literalSafeToCastTo (prim EUnsigned 1 (-1)) 1 (prim EBool 3 (-1)) = Some CAST_CLEAR /\ literalSafeToCastTo (prim EInt 2 (-1)) 1 (prim EBool 3 (-1)) = Some CAST_BAD.
Proof. vm_compute. auto. Qed.

Theorem C52_literal_keeps_its_number : forall e n t c e' n' dest v,
  arith e -> arith e' -> scalar_of e n t -> scalar_of e' n' dest ->
  literalSafeToCastTo t c dest = Some CAST_CLEAR ->
  v_ty v = t -> own_bits t n (v_bits v) = msb_bits (N.to_nat n) c ->
  exists r, cast dest v = CastVal r /\ v_ty r = dest /\ number e' n' r = meaning e (msb_bits (N.to_nat n) c).
Proof.
  intros e n t c e' n' dest v HA HA' H H' HS HT HO.
  pose proof H' as (_ & _ & _ & _ & Hn').
  destruct (C52_literal_accepted_iff_representable e n t c e' n' dest HA HA' H H') as (f & EF & HF).
  rewrite HS in EF. injection EF as <-. destruct HF as [HF _]. specialize (HF eq_refl).
  apply representable_iff in HF; auto; try lia.
  destruct (cast_arith e' n' dest e n v HA' (or_introl HA) H') as (r & E & HTr & HN); [rewrite HT; auto|].
  exists r. split; auto. split; auto. rewrite HN. unfold number. rewrite HT, HO. apply clamp_id. auto.
Qed.
Print Assumptions C52_literal_keeps_its_number.

(* the type given to a written number holds the number *)
Theorem C52_literal_type_holds_number : forall e c n, e = EInt \/ e = EUnsigned -> c < 2 ^ 64 ->
  literalBits e c = Some n ->
  (1 <= n <= 64)%Z /\ meaning e (msb_bits (Z.to_nat n) c) = meaning e (msb_bits 64 c).
Proof.
  intros e c n He Hc HL.
  assert (Z.of_N c < 2 ^ 64)%Z as HcZ by (change (2 ^ 64)%Z with (Z.of_N (2 ^ 64)); lia).
  destruct He as [-> | ->]; unfold literalBits in HL; injection HL as <-; unfold meaning.
  - set (s := SignExtend (Z.of_N c) 64).
    assert (- 2 ^ 63 <= s < 2 ^ 63)%Z as HS.
    { unfold s, SignExtend. rewrite Z.mod_small by lia. change (2 ^ (64 - 1))%Z with (2 ^ 63)%Z.
      change (2 ^ 64)%Z with (2 * 2 ^ 63)%Z in *. destruct (Z.ltb_spec (Z.of_N c) (2 ^ 63)); lia. }
    set (m := clamp 1 64 (getLogBase2 (Z.abs s) + 1 + 1)).
    assert (0 <= Z.log2 (Z.abs s))%Z as HL0 by apply Z.log2_nonneg.
    assert (1 <= m <= 64)%Z as Hm by (apply clamp_range; lia). split; auto.
    assert (- 2 ^ (m - 1) <= s < 2 ^ (m - 1))%Z as HSm.
    { unfold m, clamp, getLogBase2. replace (Z.log2 (Z.abs s) + 1 + 1 <? 1)%Z with false by lia.
      destruct (Z.log2 (Z.abs s) + 1 + 1 >? 64)%Z; [exact HS|].
      replace (Z.log2 (Z.abs s) + 1 + 1 - 1)%Z with (Z.succ (Z.log2 (Z.abs s))) by lia.
      destruct (Z.eq_dec s 0) as [->|]; [cbn; lia|].
      assert (0 < Z.abs s)%Z as HAp by (apply Z.abs_pos; assumption). pose proof (Z.log2_spec (Z.abs s) HAp) as [_ HH]. set (q := (2 ^ Z.succ (Z.log2 (Z.abs s)))%Z) in *. clearbody q. clear - HH. lia. }
    rewrite twos_msb by lia. rewrite twos_msb by lia. rewrite Z2Nat.id by lia.
    change (SignExtend (Z.of_N c) (Z.of_nat 64)) with s.
    assert (Z.of_N c mod 2 ^ m = s mod 2 ^ m)%Z as EM.
    { unfold s, SignExtend. rewrite (Z.mod_small (Z.of_N c) (2 ^ 64)) by lia.
      assert (2 ^ 64 = 2 ^ m * 2 ^ (64 - m))%Z as E64 by (rewrite <- Z.pow_add_r by lia; f_equal; lia).
      destruct (Z.of_N c <? 2 ^ (64 - 1))%Z; auto.
      rewrite E64. replace (Z.of_N c - 2 ^ m * 2 ^ (64 - m))%Z with (Z.of_N c + (- 2 ^ (64 - m)) * 2 ^ m)%Z by lia.
      rewrite Z.mod_add; auto. pose proof (zpow_pos m ltac:(lia)). lia. }
    unfold SignExtend. rewrite EM. rewrite (pow_half m) by lia.
    pose proof (zpow_pos (m - 1) ltac:(lia)) as HPp. clearbody s m. set (p := (2 ^ (m - 1))%Z) in *. clearbody p.
    destruct (Z.ltb_spec s 0).
    + assert (s mod (2 * p) = s + 2 * p)%Z as -> by (symmetry; apply Z.mod_unique with (q := (-1)%Z); lia).
      replace (s + 2 * p <? p)%Z with false by lia. lia.
    + rewrite Z.mod_small by lia. replace (s <? p)%Z with true by lia. reflexivity.
  - unfold getLogBase2. assert (0 <= Z.log2 (Z.of_N c))%Z by apply Z.log2_nonneg.
    assert (Z.log2 (Z.of_N c) < 64)%Z.
    { destruct (N.eq_dec c 0) as [->|]; [reflexivity|]. apply Z.log2_lt_pow2; lia. }
    split; [lia|]. rewrite !bval_msb_Z. rewrite Z2Nat.id by lia. rewrite (Z.mod_small _ (2 ^ Z.of_nat 64)) by (change (Z.of_nat 64) with 64%Z; lia).
    apply Z.mod_small. split; [lia|]. destruct (N.eq_dec c 0) as [->|]; [reflexivity|].
    pose proof (Z.log2_spec (Z.of_N c) ltac:(lia)) as []. rewrite Z.add_1_r. auto.
Qed.
Print Assumptions C52_literal_type_holds_number.

Definition i9 := prim EInt 9 (-1).
Definition u8t := prim EUnsigned 8 (-1).
Definition i70 := prim EInt 34 (-1).
Example C52_ex : literalBits EInt 200 = Some 9%Z /\ literalSafeToCastTo i9 200 u8t = Some CAST_CLEAR /\
  literalSafeToCastTo i9 200 i8 = Some CAST_BAD /\ literalSafeToCastTo i9 (2 ^ 64 - 3) u8t = Some CAST_BAD /\
  literalSafeToCastTo i9 (2 ^ 64 - 3) i8 = Some CAST_CLEAR /\
  literalBits EInt (2 ^ 64 - 3) = Some 3%Z /\
  literalSafeToCastTo i70 (2 ^ 32 + 7) u8t = Some CAST_BAD.
Proof. vm_compute. repeat split. Qed.
