(* FoldTheorems.v: C63 (comparisons of constants) and C64 (bit operations on constants). *)
From Coq Require Import String List NArith ZArith Lia Bool.
From Coq Require Import ZifyBool ZifyNat ZifyN.
From Verif Require Import Base BitVec UTypeModel AtomModel AtomSpec AtomProofs PrimModel PrimSpec PrimProofs PrimTheorems
  ArithModel ArithProofs ArithTheorems FoldModel FoldSpec FoldProofs.
Import ListNotations.
Ltac Zify.zify_post_hook ::= Z.div_mod_to_equations.
Open Scope N_scope.

(* ---- C63 ---- *)
(* which numbers the common type of a comparison has room for *)
Lemma common_room e n e' n' z : arith e -> arith e' -> 1 <= n <= 64 -> 1 <= n' <= 64 -> (lo e n <= z <= hi e n)%Z ->
  let f := reskind e e' in
  let s := opsize Divide (osize f e n) (osize f e' n') (Z.max (word n) (word n')) in
  (lo f (Z.to_N s) <= z <= hi f (Z.to_N s))%Z <-> ~ clash e n z e' n'.
Proof.
  intros HA HA' Hn Hn' Hz f s.
  pose proof (log2_small n Hn) as L1. pose proof (log2_small n' Hn') as L2.
  pose proof (word_facts n Hn) as [W1 W1']. pose proof (word_facts n' Hn') as [W2 W2'].
  assert (word n = if (n <=? 32)%N then 32 else 64)%Z as EW by reflexivity.
  assert (word n' = if (n' <=? 32)%N then 32 else 64)%Z as EW' by reflexivity.
  assert (osize f e n <= word n /\ osize f e' n' <= word n')%Z as [O1 O2].
  { unfold f, reskind, kind. destruct HA as [-> | [-> | ->]]; destruct HA' as [-> | [-> | ->]]; cbn [osize]; unfold cap;
      repeat match goal with |- context [(?a >? ?b)%Z] => destruct (Z.gtb_spec a b) end; lia. }
  assert (1 <= osize f e n /\ 1 <= osize f e' n')%Z as [P1 P2].
  { split; [apply (osize_range f e n HA Hn) | apply (osize_range f e' n' HA' Hn')]. }
  assert (s = Z.max (osize f e n) (osize f e' n'))%Z as ES.
  { unfold s, opsize, atmost. match goal with |- context [(?a >=? ?b)%Z] => destruct (Z.geb_spec a b) end; lia. }
  clearbody s. rewrite ES. clear ES s.
  assert (f = EInt \/ f = EUnsigned) as HR by apply reskind_arith.
  assert (f = EInt \/ e <> EInt) as HX.
  { unfold f, reskind, kind. destruct HA as [-> | [-> | ->]]; destruct HA' as [-> | [-> | ->]]; auto; right; discriminate. }
  (* everything but an Unsigned that fills its word *)
  assert (whole f e n -> (lo f (Z.to_N (Z.max (osize f e n) (osize f e' n'))) <= z <= hi f (Z.to_N (Z.max (osize f e n) (osize f e' n'))))%Z) as HWH.
  { intros HW. pose proof (osize_fits f e n z HA HR HX Hn HW Hz) as HF. unfold lo, hi. rewrite !Z2N.id by lia.
    destruct HR as [E | E]; rewrite E in *.
    - pose proof (pow2_le (osize EInt e n - 1) (Z.max (osize EInt e n) (osize EInt e' n') - 1) ltac:(lia)). lia.
    - pose proof (pow2_le (osize EUnsigned e n) (Z.max (osize EUnsigned e n) (osize EUnsigned e' n')) ltac:(lia)). lia. }
  unfold clash. destruct HA as [-> | [-> | ->]].
  - split; [intros _ [H _]; discriminate H|]. intros _. apply HWH. intros (_ & H & _). discriminate H.
  - destruct HA' as [-> | [-> | ->]].
    + assert (f = EInt) as E by reflexivity. rewrite E in *. cbn [osize] in *. unfold lo, hi in *.
      destruct (Z.eq_dec (Z.of_N n) (word n)) as [EN | NN].
      * assert (cap (Z.of_N n + 1) (word n) = Z.of_N n) as EC by (unfold cap; destruct (Z.gtb_spec (Z.of_N n + 1) (word n)); lia).
        rewrite EC in *. rewrite !Z2N.id by lia. assert (n = 32 \/ n = 64) as H3264 by lia.
        destruct (N.leb_spec n' n).
        -- rewrite Z.max_l by lia. pose proof (zpow_pos (Z.of_N n - 1) ltac:(lia)). split.
           ++ intros HH (_ & _ & _ & _ & HB). lia.
           ++ intros HH. assert (~ (2 ^ (Z.of_N n - 1) <= z)%Z) by (intros HB; apply HH; auto). lia.
        -- assert (n = 32) as -> by lia. rewrite Z.max_r by lia. split; [intros _ (_ & _ & _ & HB & _); lia|]. intros _.
           pose proof (pow2_le 32 (Z.of_N n' - 1) ltac:(lia)). pose proof (zpow_pos (Z.of_N n' - 1) ltac:(lia)).
           change (2 ^ Z.of_N 32)%Z with (2 ^ 32)%Z in Hz. lia.
      * split; [|intros _; apply HWH; intros (_ & _ & H); auto].
        intros _ (_ & _ & HB & _ & _). destruct HB; subst n; apply NN; reflexivity.
    + split; [intros _ (_ & H & _); discriminate H|]. intros _. apply HWH. intros (H & _). discriminate H.
    + split; [intros _ (_ & H & _); discriminate H|]. intros _. apply HWH. intros (H & _). discriminate H.
  - split; [intros _ [H _]; discriminate H|]. intros _. apply HWH. intros (_ & H & _). discriminate H.
Qed.

Lemma cnum_range e n c : primitive e -> 1 <= n -> (lo e n <= cnum e n c <= hi e n)%Z.
Proof. intros. apply meaning_range; auto. apply msb_bits_length. Qed.

Lemma cnum_mod e n c : cnum e n (c mod 2 ^ n) = cnum e n c.
Proof. unfold cnum, cbits. f_equal. apply msb_bits_mod. lia. Qed.

Lemma number_term e n t x : primitive e -> scalar_of e n t -> number e n (mkUV t x) = cnum e n x.
Proof.
  intros HP (HE & _ & _ & _ & Hn). unfold number, cnum, cbits. cbn [v_ty v_bits].
  rewrite own_low by (try (rewrite HE; apply prim_plain; auto); lia). reflexivity.
Qed.

Lemma cmpType_arith op e n lt e' n' rt : arith e -> arith e' -> scalar_of e n lt -> scalar_of e' n' rt ->
  cmpType op lt rt = calcNodeType Divide lt rt.
Proof.
  intros HA HA' H H'. destruct (scalar_facts _ _ _ H) as (_ & HC & _). destruct (scalar_facts _ _ _ H') as (_ & HC' & _).
  destruct H as (HE & _). destruct H' as (HE' & _). unfold cmpType. rewrite HC, HC', HE, HE'.
  destruct op; auto; destruct HA as [-> | [-> | ->]]; destruct HA' as [-> | [-> | ->]]; reflexivity.
Qed.

(* two numeric constants: the comparison folds to the truth about the two numbers, or an error is reported; an error is
   reported exactly when an Unsigned that fills its word meets an Int no larger and is in the upper half *)
Theorem C63_numbers_compare_truly : forall op e n lt lc e' n' rt rc,
  arith e -> arith e' -> scalar_of e n lt -> scalar_of e' n' rt ->
  let l := cnum e n lc in
  let r := cnum e' n' rc in
  (clash e n l e' n' \/ clash e' n' r e n -> foldCompare op lt lc rt rc = FErr) /\
  (~ (clash e n l e' n' \/ clash e' n' r e n) -> exists v, foldCompare op lt lc rt rc = FVal v /\ says v (rel op l r)).
Proof.
  intros op e n lt lc e' n' rt rc HA HA' H H' l r.
  pose proof H as (_ & _ & _ & _ & Hn). pose proof H' as (_ & _ & _ & _ & Hn').
  assert (primitive e) as HP by (left; auto). assert (primitive e') as HP' by (left; auto).
  pose proof (nodeType_ok Divide e n lt e' n' rt HA HA' H H') as ET.
  destruct (opsize_scalar Divide e n e' n' HA HA' Hn Hn') as [HB HSC].
  destruct (reskind_arith e e') as [HAf HRf].
  pose proof (common_room e n e' n' l HA HA' Hn Hn' (cnum_range e n lc HP ltac:(lia))) as R1. cbv zeta in R1.
  pose proof (common_room e' n' e n r HA' HA Hn' Hn (cnum_range e' n' rc HP' ltac:(lia))) as R2. cbv zeta in R2.
  assert (reskind e' e = reskind e e') as EK by (unfold reskind, kind; destruct HA as [-> | [-> | ->]]; destruct HA' as [-> | [-> | ->]]; reflexivity).
  rewrite EK in R2.
  assert (forall a b w, opsize Divide a b w = opsize Divide b a w) as EO by (intros; unfold opsize; rewrite Z.max_comm; reflexivity).
  rewrite EO, (Z.max_comm (word n')) in R2.
  cbv zeta in HB, HSC. set (s := opsize _ _ _ _) in *. set (f := reskind e e') in *. set (m := Z.to_N s) in *.
  unfold foldCompare. rewrite (cmpType_arith op _ _ _ _ _ _ HA HA' H H'), ET. set (t := prim f s (-1)) in *.
  destruct (C52_literal_accepted_iff_representable e n lt lc f m t HA HAf H HSC) as (fl & E1 & A1).
  destruct (C52_literal_accepted_iff_representable e' n' rt rc f m t HA' HAf H' HSC) as (fr & E2 & A2).
  fold (cbits n lc) in A1. fold (cnum e n lc) in A1. fold (cbits n' rc) in A2. fold (cnum e' n' rc) in A2. fold l in A1. fold r in A2.
  pose proof HSC as (_ & _ & _ & _ & Hm).
  rewrite representable_iff in A1, A2 by (auto; lia). rewrite R1 in A1. rewrite R2 in A2.
  unfold checkSafeToCastTo. rewrite E1, E2. cbn [bind].
  assert (forall x, forecast_eqb x CAST_CLEAR = true <-> x = CAST_CLEAR) as HF by (intros []; cbn; split; congruence).
  split.
  - intros HC. destruct (forecast_eqb fl CAST_CLEAR && forecast_eqb fr CAST_CLEAR) eqn:EF; [|reflexivity].
    apply andb_true_iff in EF as [F1 F2]. apply HF in F1, F2. apply A1 in F1. apply A2 in F2. tauto.
  - intros HC. assert (fl = CAST_CLEAR) as -> by (apply A1; tauto). assert (fr = CAST_CLEAR) as -> by (apply A2; tauto).
    cbn [forecast_eqb andb]. rewrite (terminal_ok e n lt lc HP H), (terminal_ok e' n' rt rc HP' H'). cbn [bind].
    destruct (operand_ok f m t e n (mkUV lt (lc mod 2 ^ n)) HAf HA HSC H) as (x & Ex & Tx & Nx).
    destruct (operand_ok f m t e' n' (mkUV rt (rc mod 2 ^ n')) HAf HA' HSC H') as (y & Ey & Ty & Ny).
    rewrite number_term, cnum_mod in Nx by auto. rewrite number_term, cnum_mod in Ny by auto. fold l in Nx. fold r in Ny.
    rewrite clamp_id in Nx by (apply R1; tauto). rewrite clamp_id in Ny by (apply R2; tauto).
    rewrite Ex. cbn [bind]. rewrite Ey. cbn [bind].
    pose proof Tx as (TEx & _). pose proof Ty as (TEy & _). assert (primitive f) as HPf by (left; auto).
    assert (forall v, ty_enum (v_ty v) = f -> meaning f (msb_bits (N.to_nat m) (v_bits v)) = number f m v) as HV.
    { intros v Ev. unfold number. rewrite own_low by (try (rewrite Ev; apply prim_plain; auto); lia). reflexivity. }
    rewrite (doCompare_ok op f m t x y HPf); auto; try (rewrite ?TEx, ?TEy; apply prim_plain; auto).
    2:{ destruct HRf as [E | E]; rewrite E; destruct op; reflexivity. }
    rewrite (HV x TEx), (HV y TEy), Nx, Ny. cbn [fof]. eexists. split; [reflexivity|]. apply says_cmp.
Qed.
Print Assumptions C63_numbers_compare_truly.

Example C63_ex : foldCompare CLt (prim EInt 4 (-1)) 13 (prim EUnary 6 (-1)) 5 = FVal (mkUV Bool1 1) /\
  cnum EInt 4 13 = (-3)%Z /\ cnum EUnary 6 5 = 2%Z /\
  foldCompare CGe (prim EInt 4 (-1)) 13 (prim EUnary 6 (-1)) 5 = FVal (mkUV Bool1 0) /\
  foldCompare CEq (prim EInt 8 (-1)) 255 (prim EUnsigned 32 (-1)) (2 ^ 32 - 1) = FErr /\
  foldCompare CEq (prim EInt 8 (-1)) 127 (prim EUnsigned 32 (-1)) 127 = FVal (mkUV Bool1 1) /\
  clash EUnsigned 32 (cnum EUnsigned 32 (2 ^ 32 - 1)) EInt 8.
Proof. repeat split; vm_compute; auto; discriminate. Qed.

(* == and != of two Bools, of any sizes: compares the truth of the two *)
Lemma operand_bool n t x : scalar_of EBool n t -> x < 2 ^ n ->
  exists r, operand Bool1 (mkUV t x) = Some r /\ plain (ty_enum (v_ty r)) = true /\ meaning EBool (msb_bits 1 (v_bits r)) = cnum EBool n x.
Proof.
  intros H Hx. pose proof Bool1_scalar as HB. assert (calc EBool) as HC by (right; auto). assert (primitive EBool) as HP by (right; auto).
  pose proof H as (HE & _ & _ & _ & Hn). unfold operand. cbn [v_ty]. destruct (same_type Bool1 t) eqn:ES.
  - destruct (same_type_facts _ _ _ _ _ _ HB H ES) as [_ <-]. exists (mkUV t x). split; auto. cbn [v_ty v_bits]. split; [rewrite HE; reflexivity|]. reflexivity.
  - destruct (cast_number EBool 1 Bool1 EBool n (mkUV t x) HC HC HB H) as (r & -> & HT & HO). exists r. split; auto. rewrite HT. split; [reflexivity|].
    assert (ty_enum (v_ty r) = EBool) as HEr by (rewrite HT; reflexivity).
    rewrite own_low in HO by (try reflexivity; lia). change (N.to_nat 1) with 1%nat in HO. rewrite HO.
    rewrite number_term by auto. pose proof (ext_enc_bool 1 (cnum EBool n x) ltac:(lia)) as EE. change (N.to_nat 1) with 1%nat in EE. rewrite EE.
    pose proof (cnum_range EBool n x HP ltac:(lia)) as R. cbn [lo hi] in R. destruct (Z.eqb_spec (cnum EBool n x) 0); lia.
Qed.

Lemma literal_bool_bool n t c : scalar_of EBool n t -> literalSafeToCastTo t c Bool1 = Some CAST_CLEAR.
Proof.
  intros H. pose proof H as (HE & _). unfold literalSafeToCastTo. change (isAltRefType Bool1) with false. change (ty_enum Bool1) with EBool.
  cbn [etype_eqb orb]. unfold safeCast. rewrite (prim_safe_clear _ _ _ _ _ _ Bool1_scalar H). change (ty_enum Bool1) with EBool.
  unfold bool_safe. rewrite HE. reflexivity.
Qed.

Theorem C63_bools_compare_truly : forall op n lt lc n' rt rc,
  op = CEq \/ op = CNe -> scalar_of EBool n lt -> scalar_of EBool n' rt ->
  exists v, foldCompare op lt lc rt rc = FVal v /\ says v (rel op (cnum EBool n lc) (cnum EBool n' rc)).
Proof.
  intros op n lt lc n' rt rc HO H H'. assert (primitive EBool) as HP by (right; auto).
  destruct (scalar_facts _ _ _ H) as (HS & HC & _). destruct (scalar_facts _ _ _ H') as (HS' & HC' & _).
  pose proof H as (HE & _). pose proof H' as (HE' & _).
  assert (cmpType op lt rt = Some Bool1) as ET by (unfold cmpType; rewrite HC, HC', HS, HS', HE, HE'; destruct HO as [-> | ->]; reflexivity).
  unfold foldCompare. rewrite ET. unfold checkSafeToCastTo. rewrite (literal_bool_bool n lt lc H), (literal_bool_bool n' rt rc H').
  cbn [bind forecast_eqb andb]. rewrite (terminal_ok EBool n lt lc HP H), (terminal_ok EBool n' rt rc HP H'). cbn [bind].
  destruct (operand_bool n lt (lc mod 2 ^ n) H) as (x & -> & Px & Mx); [apply N.mod_lt; pose proof (pow2_pos n); lia|].
  destruct (operand_bool n' rt (rc mod 2 ^ n') H') as (y & -> & Py & My); [apply N.mod_lt; pose proof (pow2_pos n'); lia|].
  cbn [bind]. rewrite cnum_mod in Mx, My.
  rewrite (doCompare_ok op EBool 1 Bool1 x y HP) by (auto using Bool1_scalar; destruct HO as [-> | ->]; reflexivity).
  change (N.to_nat 1) with 1%nat. rewrite Mx, My. cbn [fof]. eexists. split; [reflexivity|]. apply says_cmp.
Qed.
Print Assumptions C63_bools_compare_truly.

Example C63_bools_ex : foldCompare CEq (prim EBool 3 (-1)) 6 (prim EBool 5 (-1)) 31 = FVal (mkUV Bool1 1) /\
  cnum EBool 3 6 = 1%Z /\ cnum EBool 5 31 = 1%Z /\
  foldCompare CNe (prim EBool 3 (-1)) 4 (prim EBool 5 (-1)) 31 = FVal (mkUV Bool1 1).
Proof. vm_compute. auto. Qed.

(* == and != with a Bits on one side: compares the bits of the two, zeros put before the shorter *)
Lemma bits_common lt rt n n' e e' : scalar_of e n lt -> scalar_of e' n' rt ->
  resultBitsizeCalcInBits lt rt = Some (Z.of_N n, Z.of_N n', if (getTotalWordSize lt >? getTotalWordSize rt)%Z then getTotalWordSize lt else getTotalWordSize rt) /\
  (if (Z.of_N n >? Z.of_N n')%Z then Z.of_N n else Z.of_N n') = Z.of_N (N.max n n').
Proof.
  intros H H'. destruct (scalar_facts _ _ _ H) as (_ & HC & _). destruct (scalar_facts _ _ _ H') as (_ & HC' & _).
  destruct H as (_ & HB & _). destruct H' as (_ & HB' & _). unfold resultBitsizeCalcInBits. rewrite HC, HC', HB, HB'. cbn [andb].
  split; [reflexivity|]. destruct (Z.gtb_spec (Z.of_N n) (Z.of_N n')); lia.
Qed.

Theorem C63_bits_compare_truly : forall op e n lt lc e' n' rt rc,
  op = CEq \/ op = CNe -> primitive e -> primitive e' -> e = EBits \/ e' = EBits -> scalar_of e n lt -> scalar_of e' n' rt ->
  exists v, foldCompare op lt lc rt rc = FVal v /\
    says v (rel op (Z.of_N (bval (cbits n lc))) (Z.of_N (bval (cbits n' rc)))).
Proof.
  intros op e n lt lc e' n' rt rc HO HP HP' HB H H'.
  destruct (scalar_facts _ _ _ H) as (HS & HC & _). destruct (scalar_facts _ _ _ H') as (HS' & HC' & _).
  pose proof H as (HE & _ & _ & _ & Hn). pose proof H' as (HE' & _ & _ & _ & Hn').
  destruct (bits_common lt rt n n' e e' H H') as [ER EM]. set (m := N.max n n') in *. set (t := prim EBits (Z.of_N m) (-1)).
  assert (scalar_of EBits m t) as HM by (apply prim_scalar; lia). assert (primitive EBits) as HPB by (right; right; auto).
  assert (cmpType op lt rt = Some t) as ET.
  { unfold cmpType. rewrite HC, HC', HS, HS', HE, HE', ER, EM. cbn [andb negb].
    assert (etype_eqb e EBits || etype_eqb e' EBits = true) as -> by (destruct HB as [-> | ->]; cbn [etype_eqb]; auto using orb_true_r).
    destruct HO as [-> | ->]; reflexivity. }
  unfold foldCompare. rewrite ET. unfold checkSafeToCastTo.
  assert (literalSafeToCastTo lt lc t = Some CAST_CLEAR) as -> by (apply (literal_to_bits e n); auto; lia).
  assert (literalSafeToCastTo rt rc t = Some CAST_CLEAR) as -> by (apply (literal_to_bits e' n'); auto; lia). cbn [bind forecast_eqb andb].
  rewrite (terminal_ok e n lt lc HP H), (terminal_ok e' n' rt rc HP' H'). cbn [bind].
  pose proof (N.mod_lt lc (2 ^ n) ltac:(pose proof (pow2_pos n); lia)). pose proof (N.mod_lt rc (2 ^ n') ltac:(pose proof (pow2_pos n'); lia)).
  destruct (operand_bits e n lt (lc mod 2 ^ n) m HP H) as (x & Ex & Px & Mx); try lia.
  destruct (operand_bits e' n' rt (rc mod 2 ^ n') m HP' H') as (y & Ey & Py & My); try lia.
  fold t in Ex, Ey. rewrite Ex. cbn [bind]. rewrite Ey. cbn [bind].
  rewrite (doCompare_ok op EBits m t x y HPB); auto; try (rewrite ?Px, ?Py; reflexivity).
  2:{ destruct HO as [-> | ->]; reflexivity. }
  cbn [fof]. eexists. split; [reflexivity|]. cbn [meaning]. unfold cbits. rewrite !bval_msb, Mx, My, !N2Nat.id.
  rewrite (N.mod_small _ (2 ^ m)), (N.mod_small (rc mod 2 ^ n') (2 ^ m)) by (pose proof (N.pow_le_mono_r 2 n m); pose proof (N.pow_le_mono_r 2 n' m); lia).
  apply says_cmp.
Qed.
Print Assumptions C63_bits_compare_truly.

Example C63_bits_ex : foldCompare CEq (prim EBits 12 (-1)) 15 (prim EInt 4 (-1)) 15 = FVal (mkUV Bool1 1) /\
  foldCompare CEq (prim EBits 12 (-1)) 15 (prim EInt 5 (-1)) 31 = FVal (mkUV Bool1 0) /\
  foldCompare CNe (prim EBits 40 (-1)) (2 ^ 39) (prim EBits 7 (-1)) 0 = FVal (mkUV Bool1 1).
Proof. vm_compute. auto. Qed.

(* every other pairing of types is an error: ordering with a Bool or a Bits, and a Bool with a number *)
Theorem C63_others_are_errors : forall op e n lt lc e' n' rt rc,
  primitive e -> primitive e' -> scalar_of e n lt -> scalar_of e' n' rt ->
  ~ (arith e /\ arith e') ->
  ~ ((op = CEq \/ op = CNe) /\ (e = EBits \/ e' = EBits)) -> ~ ((op = CEq \/ op = CNe) /\ e = EBool /\ e' = EBool) ->
  foldCompare op lt lc rt rc = FErr.
Proof.
  intros op e n lt lc e' n' rt rc HP HP' H H' N1 N2 N3. unfold foldCompare.
  destruct (scalar_facts _ _ _ H) as (HS & HC & _). destruct (scalar_facts _ _ _ H') as (HS' & HC' & _).
  destruct H as (HE & _). destruct H' as (HE' & _).
  enough (cmpType op lt rt = None) as -> by reflexivity.
  assert (calcNodeType Divide lt rt = None) as EN.
  { unfold calcNodeType, isNumericType. rewrite HS, HC, HS', HC', HE, HE'.
    destruct HP as [HA | [-> | ->]]; destruct HP' as [HA' | [-> | ->]]; try tauto; cbn [andb negb]; rewrite ?andb_false_r; try reflexivity;
      destruct HA as [-> | [-> | ->]]; reflexivity. }
  unfold cmpType. rewrite HS, HC, HS', HC', HE, HE', EN.
  destruct op; auto; cbn [andb negb];
    (destruct (etype_eqb e EBits) eqn:B1; [apply etype_eqb_eq in B1; tauto|]); (destruct (etype_eqb e' EBits) eqn:B2; [apply etype_eqb_eq in B2; tauto|]);
    cbn [orb]; (destruct (etype_eqb e EBool) eqn:B3; [apply etype_eqb_eq in B3|]); (destruct (etype_eqb e' EBool) eqn:B4; [apply etype_eqb_eq in B4|]);
    cbn [andb]; auto; tauto.
Qed.
Print Assumptions C63_others_are_errors.

Example C63_others_ex : foldCompare CEq (prim EBool 1 (-1)) 1 (prim EInt 4 (-1)) 1 = FErr /\
  foldCompare CLt (prim EBits 4 (-1)) 1 (prim EBits 4 (-1)) 2 = FErr.
Proof. vm_compute. auto. Qed.

(* ---- C64 ---- *)
(* a bitwise operation on constants of any types gives a Bits as large as the larger, each bit from the bits at its place *)
Theorem C64_bitwise_acts_bit_by_bit : forall op e n lt lc e' n' rt rc,
  primitive e -> primitive e' -> scalar_of e n lt -> scalar_of e' n' rt ->
  exists v, foldBitwise op lt lc rt rc = FVal v /\
    bits_are (N.max n n') v (fun i => both op (bit (cbits n lc) i) (bit (cbits n' rc) i)).
Proof.
  intros op e n lt lc e' n' rt rc HP HP' H H'.
  destruct (scalar_facts _ _ _ H) as (HS & HC & _). destruct (scalar_facts _ _ _ H') as (HS' & HC' & _).
  pose proof H as (HE & _ & _ & _ & Hn). pose proof H' as (HE' & _ & _ & _ & Hn').
  destruct (bits_common lt rt n n' e e' H H') as [ER EM]. set (m := N.max n n') in *. set (t := prim EBits (Z.of_N m) (-1)).
  assert (scalar_of EBits m t) as HM by (apply prim_scalar; lia).
  assert (bitwiseType lt rt = Some t) as ET by (unfold bitwiseType; rewrite HC, HC', HS, HS', ER, EM; reflexivity).
  unfold foldBitwise. rewrite ET. unfold checkSafeToCastTo.
  assert (literalSafeToCastTo lt lc t = Some CAST_CLEAR) as -> by (apply (literal_to_bits e n); auto; lia).
  assert (literalSafeToCastTo rt rc t = Some CAST_CLEAR) as -> by (apply (literal_to_bits e' n'); auto; lia). cbn [bind forecast_eqb andb].
  rewrite (terminal_ok e n lt lc HP H), (terminal_ok e' n' rt rc HP' H'). cbn [bind].
  pose proof (N.mod_lt lc (2 ^ n) ltac:(pose proof (pow2_pos n); lia)). pose proof (N.mod_lt rc (2 ^ n') ltac:(pose proof (pow2_pos n'); lia)).
  destruct (operand_bits e n lt (lc mod 2 ^ n) m HP H) as (x & Ex & Px & Mx); try lia.
  destruct (operand_bits e' n' rt (rc mod 2 ^ n') m HP' H') as (y & Ey & Py & My); try lia.
  fold t in Ex, Ey. rewrite Ex. cbn [bind]. rewrite Ey. cbn [bind].
  erewrite (doBits_ok _ m t x y); auto; try (rewrite ?Px, ?Py; reflexivity).
  cbn [fof]. eexists. split; [reflexivity|]. apply bits_are_intro; [lia|]. intros i Hi. rewrite !bit_cbits, Mx, My.
  rewrite (N.mod_small _ (2 ^ m)), (N.mod_small (rc mod 2 ^ n') (2 ^ m)) by (pose proof (N.pow_le_mono_r 2 n m); pose proof (N.pow_le_mono_r 2 n' m); lia).
  unfold ext_bitwise. rewrite N.mod_pow2_bits_low by lia. destruct op; cbn [both]; [apply N.land_spec | apply N.lor_spec | apply N.lxor_spec].
Qed.
Print Assumptions C64_bitwise_acts_bit_by_bit.

Example C64_bitwise_ex : foldBitwise BXor (prim EBits 12 (-1)) 4091 (prim EInt 4 (-1)) 14 = FVal (mkUV (prim EBits 12 (-1)) 4085) /\
  foldBitwise BAnd (prim EUnary 3 (-1)) 3 (prim EBool 1 (-1)) 1 = FVal (mkUV (prim EBits 3 (-1)) 1).
Proof. vm_compute. auto. Qed.

(* ~ flips every bit and keeps the size *)
Theorem C64_complement_flips_each_bit : forall e n t c, primitive e -> scalar_of e n t ->
  exists v, foldTwiddle t c = FVal v /\ bits_are n v (fun i => negb (bit (cbits n c) i)).
Proof.
  intros e n t c HP H. destruct (scalar_facts _ _ _ H) as (HS & HC & _ & HF & _). pose proof H as (HE & HB & _ & HR & Hn).
  unfold foldTwiddle. rewrite HC, HB. cbn [negb]. set (nt := prim EBits (Z.of_N n) (-1)).
  assert (scalar_of EBits n nt) as HM by (apply prim_scalar; lia). assert (primitive EBits) as HPB by (right; right; auto).
  assert (safeCast nt t = Some CAST_CLEAR) as ES.
  { unfold safeCast. rewrite (prim_safe_clear _ _ _ _ _ _ HM H). change (ty_enum nt) with EBits. unfold bits_safe. rewrite HE, HB.
    change (ty_bits nt) with (Z.of_N n). replace (Z.of_N n >=? Z.of_N n)%Z with true by lia.
    destruct HP as [[-> | [-> | ->]] | [-> | ->]]; reflexivity. }
  cbv zeta. change NONARRAYSIZE with (-1)%Z. fold nt. rewrite ES, (terminal_ok e n t c HP H). cbn [bind].
  pose proof (N.mod_lt c (2 ^ n) ltac:(pose proof (pow2_pos n); lia)).
  destruct (operand_bits e n t (c mod 2 ^ n) n HP H) as (x & Ex & Px & Mx); try lia. fold nt in Ex. rewrite Ex. cbn [bind].
  rewrite (doUnary_ok ext_complement EBits n nt x HPB HM) by (rewrite Px; reflexivity). cbn [fof]. eexists. split; [reflexivity|].
  apply bits_are_intro; [lia|]. intros i Hi. rewrite bit_cbits, Mx. unfold ext_complement. rewrite !N.mod_mod by (pose proof (pow2_pos n); lia).
  rewrite N.lxor_spec, N.ones_spec_low by lia. apply xorb_true_r.
Qed.
Print Assumptions C64_complement_flips_each_bit.

(* ! of a Bool negates its truth and keeps the size *)
Theorem C64_bang_negates : forall n t c, scalar_of EBool n t ->
  exists v, foldBang t c = FVal v /\ scalar_of EBool n (v_ty v) /\ number EBool n v = (1 - cnum EBool n c)%Z.
Proof.
  intros n t c H. destruct (scalar_facts _ _ _ H) as (HS & HC & _ & HF & _). pose proof H as (HE & HB & HA & HR & Hn).
  unfold foldBang. rewrite HC, HE, HB. cbn [negb etype_eqb]. assert (primitive EBool) as HP by (right; auto).
  assert (safeCast Bool1 t = Some CAST_CLEAR) as ->.
  { unfold safeCast. rewrite (prim_safe_clear _ _ _ _ _ _ Bool1_scalar H). cbn [Bool1 prim ty_enum]. unfold bool_safe. rewrite HE. reflexivity. }
  change NONARRAYSIZE with (-1)%Z. set (nt := prim EBool (Z.of_N n) (-1)). assert (scalar_of EBool n nt) as HM by (apply prim_scalar; lia).
  rewrite (terminal_ok EBool n t c HP H). cbn [bind].
  assert (operand nt (mkUV t (c mod 2 ^ n)) = Some (mkUV t (c mod 2 ^ n))) as ->.
  { unfold operand. cbn [v_ty]. unfold same_type. rewrite HE, HB, HA, HR. cbn [nt prim ty_enum ty_bits ty_arr ty_ref etype_eqb alt_eqb].
    rewrite !Z.eqb_refl. reflexivity. }
  cbn [bind]. rewrite (doUnary_ok ext_bang EBool n nt _ HP HM) by (cbn [v_ty]; rewrite HE; reflexivity).
  cbn [fof]. eexists. split; [reflexivity|]. split; [exact HM|]. cbn [v_bits]. rewrite number_term by auto. rewrite cnum_mod.
  unfold ext_bang. rewrite N.mod_mod by (pose proof (pow2_pos n); lia). rewrite ext_val_mod, ext_val_meaning by (auto; lia).
  fold (cbits n c). fold (cnum EBool n c). unfold cnum at 1. unfold cbits. rewrite ext_enc_bool by lia.
  pose proof (cnum_range EBool n c HP ltac:(lia)) as R. cbn [lo hi] in R. destruct (Z.eqb_spec (1 - cnum EBool n c) 0); lia.
Qed.
Print Assumptions C64_bang_negates.

(* ! is refused on Int and Bits of any size, and on Unsigned and Unary wider than one bit: there is no truth to negate *)
Theorem C64_bang_refused : forall e n t c, primitive e -> scalar_of e n t ->
  e = EInt \/ e = EBits \/ ((e = EUnsigned \/ e = EUnary) /\ n <> 1) -> foldBang t c = FErr.
Proof.
  intros e n t c HP H HR. destruct (scalar_facts _ _ _ H) as (HS & HC & _ & HF & _). pose proof H as (HE & HB & _ & _ & Hn).
  unfold foldBang. rewrite HC, HE. cbn [negb]. destruct (etype_eqb e EBits) eqn:EB; auto.
  assert (safeCast Bool1 t = Some CAST_BAD) as ->; auto.
  unfold safeCast. rewrite (prim_safe_clear _ _ _ _ _ _ Bool1_scalar H). cbn [Bool1 prim ty_enum]. unfold bool_safe. rewrite HE, HB.
  destruct HR as [-> | [-> | [[-> | ->] HN]]]; cbn [bind]; try reflexivity; (destruct (Z.eqb_spec (Z.of_N n) 1); [lia | reflexivity]).
Qed.
Print Assumptions C64_bang_refused.
Example C64_bang_refused_ex : foldBang (prim EBits 3 (-1)) 6 = FErr /\ foldBang (prim EUnary 2 (-1)) 1 = FErr.
Proof. vm_compute. auto. Qed.

Example C64_unary_ex : foldTwiddle (prim EInt 5 (-1)) 9 = FVal (mkUV (prim EBits 5 (-1)) 22) /\
  foldBang (prim EBool 3 (-1)) 6 = FVal (mkUV (prim EBool 3 (-1)) 0) /\ cnum EBool 3 6 = 1%Z.
Proof. vm_compute. auto. Qed.

(* ---- shifts ---- *)
Lemma literal_to_unsigned e n t c : primitive e -> scalar_of e n t ->
  exists f, literalSafeToCastTo t c Unsigned32 = Some f /\ (f = CAST_CLEAR <-> arith e /\ (0 <= cnum e n c < 2 ^ 32)%Z).
Proof.
  intros HP H. assert (scalar_of EUnsigned 32 Unsigned32) as HU by (repeat split; cbn; lia).
  assert (arith EUnsigned) as HAU by (right; left; auto).
  destruct HP as [HA | HN].
  - destruct (C52_literal_accepted_iff_representable e n t c EUnsigned 32 Unsigned32 HA HAU H HU) as (f & E & HF).
    exists f. split; auto. rewrite HF, representable_iff by (auto; lia). unfold lo, hi. fold (cbits n c). fold (cnum e n c).
    change (2 ^ Z.of_N 32)%Z with (2 ^ 32)%Z. split; [intros; split; auto; lia | intros [_ ?]; lia].
  - exists CAST_BAD. split.
    + destruct (scalar_facts _ _ _ H) as (HS & HC & _ & HF & _). pose proof H as (HE & _ & _ & HR & _).
      unfold literalSafeToCastTo. change (isAltRefType Unsigned32) with false. change (ty_enum Unsigned32) with EUnsigned. cbv iota zeta. rewrite HE.
      assert (safeCast Unsigned32 t = Some CAST_BAD) as ES.
      { unfold safeCast. rewrite (prim_safe_clear _ _ _ _ _ _ HU H). change (ty_enum Unsigned32) with EUnsigned. unfold unsigned_safe. rewrite HE.
        destruct HN as [-> | ->]; reflexivity. }
      destruct HN as [-> | ->]; cbn [etype_eqb orb andb negb]; exact ES.
    + split; [discriminate|]. intros [HA _]. exfalso. destruct HN as [-> | ->]; destruct HA as [E | [E | E]]; discriminate E.
Qed.

(* a shift by a constant is an error unless the distance is a number from 0 to 2^32 - 1 of a numeric type *)
Theorem C64_shift_distance_checked : forall op e n lt lc e' n' rt rc,
  primitive e -> primitive e' -> scalar_of e n lt -> scalar_of e' n' rt ->
  (foldShift op lt lc rt rc = FErr <-> ~ (arith e' /\ (0 <= cnum e' n' rc < 2 ^ 32)%Z)).
Proof.
  intros op e n lt lc e' n' rt rc HP HP' H H'.
  destruct (scalar_facts _ _ _ H) as (HS & HC & _). destruct (scalar_facts _ _ _ H') as (HS' & HC' & _).
  pose proof H as (HE & HB & _ & _ & Hn).
  unfold foldShift. rewrite HC, HC', HS, HS', HB. cbn [andb negb]. change NONARRAYSIZE with (-1)%Z.
  rewrite (literal_to_bits e n lt lc n HP H) by lia.
  destruct (literal_to_unsigned e' n' rt rc HP' H') as (f & -> & HF). cbn [forecast_eqb andb].
  split.
  - intros E HX. apply HF in HX. subst f. cbn [forecast_eqb] in E. destruct (shiftBitsize op lt rt); [|discriminate E].
    match type of E with fof ?x = _ => destruct x; discriminate E end.
  - intros HX. destruct f; cbn [forecast_eqb]; auto. exfalso. apply HX. apply HF. reflexivity.
Qed.
Print Assumptions C64_shift_distance_checked.

(* the two operands as they reach the operation *)
Lemma shift_left_operand e n t x : primitive e -> scalar_of e n t -> x < 2 ^ n ->
  exists r, (if etype_eqb (ty_enum t) EBits then Some (mkUV t x)
             else match cast (prim EBits (Z.of_N n) (-1)) (mkUV t x) with CastVal x => Some x | _ => None end) = Some r /\
    ty_enum (v_ty r) = EBits /\ v_bits r = x.
Proof.
  intros HP H Hx. pose proof H as (HE & _ & _ & _ & Hn). rewrite HE. destruct (etype_eqb e EBits) eqn:EB.
  - apply etype_eqb_eq in EB. subst e. exists (mkUV t x). auto.
  - assert (scalar_of EBits n (prim EBits (Z.of_N n) (-1))) as HM by (apply prim_scalar; lia). assert (primitive EBits) as HPB by (right; right; auto).
    rewrite (cast_whole EBits n _ e n (mkUV t x) x HPB HP HM H).
    + eexists. split; [reflexivity|]. split; [reflexivity|]. cbn [v_bits]. apply N.mod_small. lia.
    + cbn [v_bits]. rewrite N.mod_small by lia. apply conv_to_bits; auto.
Qed.

Lemma shift_right_operand e n t c d : arith e -> scalar_of e n t -> cnum e n c = Z.of_N d -> d < 2 ^ 32 ->
  exists r, (if etype_eqb (ty_enum t) EUnsigned then Some (mkUV t (c mod 2 ^ n))
             else match cast Unsigned32 (mkUV t (c mod 2 ^ n)) with CastVal x => Some x | _ => None end) = Some r /\
    ty_enum (v_ty r) = EUnsigned /\ v_bits r = d.
Proof.
  intros HA H HD Hd. pose proof H as (HE & _ & _ & _ & Hn). rewrite HE. destruct (etype_eqb e EUnsigned) eqn:EB.
  - apply etype_eqb_eq in EB. subst e. eexists. split; [reflexivity|]. split; auto. cbn [v_bits].
    rewrite EB in HD. unfold cnum, cbits in HD. cbn [meaning] in HD. rewrite bval_msb, N2Nat.id in HD. lia.
  - assert (scalar_of EUnsigned 32 Unsigned32) as HU by (repeat split; cbn; lia). assert (primitive EUnsigned) as HPU by (left; right; left; auto).
    assert (primitive e) as HP by (left; auto). assert (calc EUnsigned) as C1 by (left; right; left; auto). assert (calc e) as C2 by (left; auto).
    rewrite (cast_whole EUnsigned 32 Unsigned32 e n (mkUV t (c mod 2 ^ n)) d HPU HP HU H).
    + eexists. split; [reflexivity|]. split; [reflexivity|]. cbn [v_bits]. apply N.mod_small. lia.
    + cbn [v_bits]. rewrite conv_calc by auto. rewrite !ext_val_mod by (auto; lia). rewrite ext_val_meaning by (auto; lia).
      fold (cbits n c). fold (cnum e n c). rewrite HD. unfold ext_enc. f_equal. rewrite clamp_id; [lia|]. change (2 ^ Z.of_N 32)%Z with (Z.of_N (2 ^ 32)). lia.
Qed.

Lemma shift_left_size n n' e e' lt rt : scalar_of e n lt -> scalar_of e' n' rt -> n' <= 30 \/ op_word n n' <= n' ->
  shiftLeftResultBitsize lt rt = Some (Z.of_N (N.min (n + 2 ^ n') (op_word n n'))).
Proof.
  intros H H' HS. destruct (C26_shift_left_size e n lt e' n' rt H H' HS) as (s & E & HR & H5).
  destruct (scalar_facts _ _ _ H) as (_ & HC & _ & _ & HW). destruct (scalar_facts _ _ _ H') as (_ & HC' & _ & _ & HW').
  destruct H as (_ & HB & _ & _ & Hn). destruct H' as (_ & HB' & _ & _ & Hn').
  unfold shiftLeftResultBitsize, resultBitsizeCalcInBits. rewrite HC, HC', HB, HB', HW, HW'. cbn [andb].
  match goal with |- context [(if (?a >? ?b)%Z then ?a else ?b)] => assert ((if (a >? b)%Z then a else b) = Z.of_N (op_word n n')) as ->
    by (unfold op_word; destruct (n <=? 32), (n' <=? 32); reflexivity) end.
  pose proof (N.pow_gt_lin_r 2 n' ltac:(lia)) as HG. pose proof (ofN_pow n') as HO.
  destruct (Z.geb_spec (Z.of_N n') (Z.of_N (op_word n n'))).
  - unfold atmost. match goal with |- context [(?x >=? ?y)%Z] => destruct (Z.geb_spec x y) end; f_equal; lia.
  - unfold shl1. replace (Z.of_N n' <? 0)%Z with false by lia. replace (Z.of_N n' <? 31)%Z with true by lia. unfold atmost.
    match goal with |- context [(?x >=? ?y)%Z] => destruct (Z.geb_spec x y) end; f_equal; lia.
Qed.

(* a left shift puts each bit d places up, zeros below; the result has room for the longest shift the distance's type can
   ask for, up to the word, and the bits that leave it are gone *)
Theorem C64_shift_left_moves_bits : forall e n lt lc e' n' rt rc d,
  primitive e -> arith e' -> scalar_of e n lt -> scalar_of e' n' rt ->
  n' <= 30 \/ op_word n n' <= n' ->
  cnum e' n' rc = Z.of_N d -> d < op_word n n' ->
  exists v, foldShift ShLeft lt lc rt rc = FVal v /\
    bits_are (N.min (n + 2 ^ n') (op_word n n')) v
      (fun i => if (i <? N.to_nat d)%nat then false else bit (cbits n lc) (i - N.to_nat d)).
Proof.
  intros e n lt lc e' n' rt rc d HP HA' H H' HS HD Hd. assert (primitive e') as HP' by (left; auto).
  destruct (scalar_facts _ _ _ H) as (HS1 & HC & _). destruct (scalar_facts _ _ _ H') as (HS' & HC' & _).
  pose proof H as (HE & HB & _ & _ & Hn). pose proof H' as (_ & HB' & _ & _ & Hn').
  assert (op_word n n' = 32 \/ op_word n n' = 64) as HW by (unfold op_word; destruct (N.leb_spec n 32), (N.leb_spec n' 32); cbn [andb]; lia).
  assert (n <= op_word n n') as HW1 by (unfold op_word; destruct (N.leb_spec n 32), (N.leb_spec n' 32); cbn [andb]; lia).
  pose proof (shift_left_size n n' e e' lt rt H H' HS) as ES.
  set (m := N.min (n + 2 ^ n') (op_word n n')) in *.
  assert (1 <= 2 ^ n') as HP2 by (pose proof (pow2_pos n'); lia).
  assert (n < m \/ m = op_word n n') as Hm by lia. assert (1 <= m <= 64 /\ n <= m) as [Hm1 Hnm] by lia.
  set (t := prim EBits (Z.of_N m) (-1)). assert (scalar_of EBits m t) as HM by (apply prim_scalar; lia).
  assert (d < 2 ^ n') as Hdn.
  { pose proof (cnum_range e' n' rc HP' ltac:(lia)) as [_ HR]. rewrite HD in HR. rewrite <- (N2Z.id (2 ^ n')), ofN_pow.
    pose proof (N.pow_gt_lin_r 2 n' ltac:(lia)) as HG. pose proof (ofN_pow n'). pose proof (pow2_le (Z.of_N n' - 1) (Z.of_N n') ltac:(lia)).
    destruct HA' as [-> | [-> | ->]]; cbn [hi] in HR; lia. }
  assert (m <= 32 -> d < 32) as H32 by (intros; lia).
  assert (d < 2 ^ m) as Hdm.
  { destruct (N.leb_spec (n + 2 ^ n') (op_word n n')).
    - assert (m = n + 2 ^ n') as -> by (unfold m; lia). pose proof (N.pow_gt_lin_r 2 (n + 2 ^ n') ltac:(lia)). lia.
    - assert (m = op_word n n') as -> by (unfold m; lia). pose proof (N.pow_gt_lin_r 2 (op_word n n') ltac:(lia)). lia. }
  unfold foldShift. rewrite HC, HC', HS1, HS', HB. cbn [andb negb]. change NONARRAYSIZE with (-1)%Z.
  rewrite (literal_to_bits e n lt lc n HP H) by lia.
  destruct (literal_to_unsigned e' n' rt rc HP' H') as (f & -> & HF).
  assert (f = CAST_CLEAR) as -> by (apply HF; split; auto; rewrite HD; lia).
  cbn [forecast_eqb andb shiftBitsize]. rewrite ES. fold t.
  rewrite (terminal_ok e n lt lc HP H), (terminal_ok e' n' rt rc HP' H'). cbn [bind].
  pose proof (N.mod_lt lc (2 ^ n) ltac:(pose proof (pow2_pos n); lia)) as HL.
  destruct (shift_left_operand e n lt (lc mod 2 ^ n) HP H HL) as (x & -> & Px & Mx). cbn [bind].
  destruct (shift_right_operand e' n' rt rc d HA' H' HD ltac:(lia)) as (y & -> & Py & My). cbn [bind].
  assert (2 ^ n <= 2 ^ m) as HPM by (apply N.pow_le_mono_r; lia).
  erewrite (doBits_ok _ m t x y _ HM); [|rewrite Px; reflexivity|rewrite Py; reflexivity|].
  2:{ rewrite Mx, My, (N.mod_small d), (N.mod_small (lc mod _)) by lia. unfold ext_shift.
      replace (d <? (if negb (m <=? 32) then 64 else 32)) with true by (destruct (N.leb_spec m 32); cbn [negb]; lia). reflexivity. }
  cbn [fof]. eexists. split; [reflexivity|]. apply bits_are_intro; [lia|]. intros i Hi.
  rewrite N.mod_pow2_bits_low by lia. destruct (Nat.ltb_spec i (N.to_nat d)).
  - apply N.shiftl_spec_low. lia.
  - rewrite N.shiftl_spec_high' by lia. rewrite bit_cbits. f_equal. lia.
Qed.
Print Assumptions C64_shift_left_moves_bits.

Lemma bit_testbit l : forall i, bit l i = N.testbit (bval l) (N.of_nat i).
Proof.
  intros i. rewrite <- (msb_bval l) at 1. destruct (Nat.ltb_spec i (length l)) as [HL | HL].
  - rewrite bit_msb by lia. reflexivity.
  - rewrite bit_over by (rewrite msb_bits_length; lia). symmetry. pose proof (bval_lt l).
    rewrite <- (N.mod_small (bval l) (2 ^ N.of_nat (length l))) by auto. apply N.mod_pow2_bits_high. lia.
Qed.

(* so while the bits stay in the type a left shift multiplies by two to the distance *)
Theorem C64_shift_left_multiplies : forall e n lt lc e' n' rt rc d,
  primitive e -> arith e' -> scalar_of e n lt -> scalar_of e' n' rt ->
  n' <= 30 \/ op_word n n' <= n' ->
  cnum e' n' rc = Z.of_N d -> n + d <= op_word n n' ->
  let m := N.min (n + 2 ^ n') (op_word n n') in
  exists v, foldShift ShLeft lt lc rt rc = FVal v /\ scalar_of EBits m (v_ty v) /\ number EBits m v = (Z.of_N (bval (cbits n lc)) * 2 ^ Z.of_N d)%Z.
Proof.
  intros e n lt lc e' n' rt rc d HP HA' H H' HS HD Hd m. pose proof H as (_ & _ & _ & _ & Hn). pose proof H' as (_ & _ & _ & _ & Hn').
  destruct (C64_shift_left_moves_bits e n lt lc e' n' rt rc d HP HA' H H' HS HD ltac:(lia)) as (v & E & [HT HB]). fold m in HT, HB.
  exists v. split; auto. split; auto. unfold number. cbn [meaning].
  assert (d < 2 ^ n') as Hdn.
  { assert (primitive e') as HP' by (left; auto). pose proof (cnum_range e' n' rc HP' ltac:(lia)) as [_ HR]. rewrite HD in HR.
    pose proof (N.pow_gt_lin_r 2 n' ltac:(lia)) as HG. pose proof (ofN_pow n'). pose proof (pow2_le (Z.of_N n' - 1) (Z.of_N n') ltac:(lia)).
    destruct HA' as [-> | [-> | ->]]; cbn [hi] in HR; lia. }
  assert (bval (own_bits (v_ty v) m (v_bits v)) = N.shiftl (bval (cbits n lc)) d) as ->; [|rewrite N.shiftl_mul_pow2; lia].
  apply N.bits_inj. intros i. specialize (HB (N.to_nat i)). rewrite !bit_testbit, !N2Nat.id in HB.
  pose proof (msb_bits_length (N.to_nat n) lc) as HLn. fold (cbits n lc) in HLn. pose proof (bval_lt (cbits n lc)) as HVn. rewrite HLn, N2Nat.id in HVn.
  destruct (N.ltb_spec i m) as [HI | HI].
  - rewrite HB by lia. destruct (Nat.ltb_spec (N.to_nat i) (N.to_nat d)).
    + symmetry. apply N.shiftl_spec_low. lia.
    + rewrite N.shiftl_spec_high' by lia. f_equal. lia.
  - assert (forall l, bit l (N.to_nat i) = N.testbit (bval l) i) as HBT by (intros; rewrite bit_testbit, N2Nat.id; reflexivity).
    rewrite <- HBT, bit_over.
    + rewrite N.shiftl_spec_high' by lia. rewrite <- (N.mod_small (bval (cbits n lc)) (2 ^ n)) by auto. symmetry. apply N.mod_pow2_bits_high. lia.
    + destruct (scalar_facts _ _ _ HT) as (_ & _ & _ & _ & HWT). rewrite own_low by (try (destruct HT as (-> & _); reflexivity); destruct HT as (_ & _ & _ & _ & ?); lia).
      rewrite msb_bits_length. lia.
Qed.
Print Assumptions C64_shift_left_multiplies.

Example C64_shift_left_ex :
  foldShift ShLeft (prim EInt 4 (-1)) 13 (prim EUnsigned 3 (-1)) 5 = FVal (mkUV (prim EBits 12 (-1)) (13 * 32)) /\
  foldShift ShLeft (prim EUnsigned 31 (-1)) (2 ^ 30 + 1) (prim EInt 6 (-1)) 3 = FVal (mkUV (prim EBits 32 (-1)) 8) /\
  foldShift ShLeft (prim EUnsigned 31 (-1)) 1 (prim EInt 6 (-1)) 63 = FErr /\
  foldShift ShLeft (prim EUnsigned 31 (-1)) 1 (prim EBits 6 (-1)) 3 = FErr.
Proof. vm_compute. auto. Qed.

(* partial: a right shift puts each bit d places down, zeros above, when d is less than 2^n as well as less than the word; what is
   missing are the larger distances, where the result must be 0 *)
Theorem C64_shift_right_moves_bits_partial : forall e n lt lc e' n' rt rc d,
  primitive e -> arith e' -> scalar_of e n lt -> scalar_of e' n' rt ->
  cnum e' n' rc = Z.of_N d -> d < 2 ^ n -> d < (if n <=? 32 then 32 else 64) ->
  exists v, foldShift ShRight lt lc rt rc = FVal v /\ bits_are n v (fun i => bit (cbits n lc) (i + N.to_nat d)).
Proof.
  intros e n lt lc e' n' rt rc d HP HA' H H' HD Hdn Hd. assert (primitive e') as HP' by (left; auto).
  destruct (scalar_facts _ _ _ H) as (HS1 & HC & _). destruct (scalar_facts _ _ _ H') as (HS' & HC' & _).
  pose proof H as (HE & HB & _ & _ & Hn). pose proof H' as (_ & HB' & _ & _ & Hn').
  assert (d < 64) as H64 by (destruct (n <=? 32); lia).
  set (t := prim EBits (Z.of_N n) (-1)). assert (scalar_of EBits n t) as HM by (apply prim_scalar; lia).
  unfold foldShift. rewrite HC, HC', HS1, HS', HB. cbn [andb negb]. change NONARRAYSIZE with (-1)%Z.
  rewrite (literal_to_bits e n lt lc n HP H) by lia.
  destruct (literal_to_unsigned e' n' rt rc HP' H') as (f & -> & HF).
  assert (f = CAST_CLEAR) as -> by (apply HF; split; auto; rewrite HD; lia).
  cbn [forecast_eqb andb shiftBitsize]. rewrite (C26_shift_right_size e n lt e' n' rt H H').
  rewrite (terminal_ok e n lt lc HP H), (terminal_ok e' n' rt rc HP' H'). cbn [bind].
  pose proof (N.mod_lt lc (2 ^ n) ltac:(pose proof (pow2_pos n); lia)) as HL.
  destruct (shift_left_operand e n lt (lc mod 2 ^ n) HP H HL) as (x & -> & Px & Mx). cbn [bind].
  destruct (shift_right_operand e' n' rt rc d HA' H' HD ltac:(lia)) as (y & -> & Py & My). cbn [bind]. fold t.
  erewrite (doBits_ok _ n t x y _ HM); [|rewrite Px; reflexivity|rewrite Py; reflexivity|].
  2:{ rewrite Mx, My, (N.mod_small d), (N.mod_small (lc mod _)) by lia. unfold ext_shift.
      replace (d <? (if negb (n <=? 32) then 64 else 32)) with true by (destruct (N.leb_spec n 32); cbn [negb]; lia). reflexivity. }
  cbn [fof]. eexists. split; [reflexivity|]. apply bits_are_intro; [lia|]. intros i Hi.
  rewrite N.shiftr_spec', bit_cbits, N.mod_mod by (pose proof (pow2_pos n); lia). f_equal. lia.
Qed.
Print Assumptions C64_shift_right_moves_bits_partial.

(* refuted: the distance is cut to the number of bits of the left operand, so 5 in Bits(3) shifted right by 8 stays 5, and 1 in
   Bits(1) shifted right by 2 stays 1 *)
Theorem C64_shift_right_refuted :
  scalar_of EBits 3 (prim EBits 3 (-1)) /\ scalar_of EUnsigned 4 (prim EUnsigned 4 (-1)) /\ cnum EUnsigned 4 8 = 8%Z /\
  foldShift ShRight (prim EBits 3 (-1)) 5 (prim EUnsigned 4 (-1)) 8 = FVal (mkUV (prim EBits 3 (-1)) 5) /\
  foldShift ShRight (prim EBits 1 (-1)) 1 (prim EUnsigned 2 (-1)) 2 = FVal (mkUV (prim EBits 1 (-1)) 1).
Proof. repeat split; vm_compute; auto; discriminate. Qed.
Print Assumptions C64_shift_right_refuted.

Example C64_shift_right_ex : foldShift ShRight (prim EInt 6 (-1)) 45 (prim EUnary 5 (-1)) 7 = FVal (mkUV (prim EBits 6 (-1)) 5).
Proof. vm_compute. auto. Qed.
