(* DeclSizeTheorems.v: declared sizes (C104). *)
From Coq Require Import List NArith ZArith Lia Bool.
From Coq Require Import ZifyBool.
From Verif Require Import Base SourceStreamModel UTypeModel TypeTableModel TypeTableTheorems DeclSizeModel DeclSizeSpec.
Import ListNotations.
Open Scope Z_scope.

Lemma value_low : forall c, number 32 c -> - 2147483648 <= value c < 4294967296.
Proof.
  intros [e w d] ((W1 & W2) & (D1 & D2) & K). cbn in *.
  assert (P : 2 ^ w <= 2 ^ 32) by (apply Z.pow_le_mono_r; lia). change (2 ^ 32) with 4294967296 in P.
  assert (Q : 2 ^ (w - 1) <= 2 ^ 31) by (apply Z.pow_le_mono_r; lia). change (2 ^ 31) with 2147483648 in Q.
  assert (R : 2 ^ w = 2 * 2 ^ (w - 1)) by (rewrite <- Z.pow_succ_r by lia; f_equal; lia).
  assert (O : forall n, 0 <= ones n d <= Z.of_nat n).
  { induction n as [|n IH]; [cbn; lia|]. cbn [ones]. destruct (Z.testbit d (Z.of_nat n)); lia. }
  specialize (O (Z.to_nat w)).
  unfold value; cbn. destruct e; try contradiction; try lia.
  - destruct (Z.ltb_spec d (2 ^ (w - 1))); lia.
  - destruct (_ <? _); lia.
Qed.

Lemma data_small : forall c, number 32 c -> u32z (c_data c) = c_data c.
Proof.
  intros [e w d] ((W1 & W2) & (D1 & D2) & K). cbn in *. unfold u32z. apply Z.mod_small.
  assert (P : 2 ^ w <= 2 ^ 32) by (apply Z.pow_le_mono_r; lia). change (2 ^ 32) with 4294967296 in P. lia.
Qed.

Lemma even_rem : forall n, (Z.rem n 2 =? 0) = Z.even n.
Proof.
  intros n. destruct (Z.even n) eqn:E.
  - apply Z.even_spec in E. destruct E as [k ->]. rewrite (Z.mul_comm 2 k), Z.rem_mul by lia. reflexivity.
  - destruct (Z.eqb_spec (Z.rem n 2) 0) as [H|H]; auto.
    apply Z.rem_divide in H; [|lia]. destruct H as [k ->]. rewrite Z.even_mul in E. cbn in E. rewrite orb_true_r in E. discriminate.
Qed.

Lemma accepted_scalar : forall e n, sizable e -> 0 <= n <= 8192 ->
  sizesAccepted e (-2) n (-1) = (1 <=? n).
Proof.
  intros e n E N. unfold sizesAccepted. cbn [Z.ltb Z.compare].
  replace (negb (etype_eqb e EClass)) with true by (destruct E as [<-|[<-|[<-|[<-|[<-|[]]]]]]; reflexivity).
  replace (etype_eqb e EVoid) with false by (destruct E as [<-|[<-|[<-|[<-|[<-|[]]]]]]; reflexivity).
  cbn [andb orb Z.eqb]. unfold u32z, MAXBITSPERTRANSIENT. rewrite (Z.mod_small 1) by lia.
  destruct (Z.leb_spec n 0), (Z.leb_spec 1 n); try lia; auto.
  replace (n <? 0) with false by lia. rewrite (Z.mod_small n) by lia. rewrite Z.mod_small by lia.
  destruct (Z.gtb_spec (1 * n) 8192); auto; lia.
Qed.

(* C104: a constant of at most 32 bits as bit size: accepted exactly from 1 to the limit of the type, and then the type
   has just that size; for a Bool the next smaller odd one *)
Theorem C104_scalar : forall cs32, cs32_ok cs32 -> forall but c, sizable but -> number 32 c ->
  (forall n, declScalar cs32 but (Some c) = Size n <-> 1 <= value c <= limit but /\ n = oddFor but (value c)) /\
  declScalar cs32 but (Some c) <> Waits /\
  (declScalar cs32 but (Some c) = Undefined -> but = EBool /\ (value c = - 2147483648 \/ value c = 2147483648)).
Proof.
  intros cs32 OK but c E NUM. pose proof (value_low c NUM) as VL. pose proof (OK c NUM) as R. cbn zeta in R.
  assert (S : declScalar cs32 but (Some c) = resolveTypeBitsize cs32 but c).
  { unfold declScalar. destruct E as [<-|[<-|[<-|[<-|[<-|[]]]]]]; reflexivity. }
  rewrite S. unfold resolveTypeBitsize, getTypeBitSizeInParen, sizeValue. rewrite (data_small c NUM).
  set (r := cs32 (c_enum c) (c_bits c) (c_data c)) in *.
  assert (BIG : (if etype_eqb but EBits then r >? MAXBITSPERTRANSIENT else r >? MAXBITSPERLONG) = (r >? limit but)).
  { destruct E as [<-|[<-|[<-|[<-|[<-|[]]]]]]; reflexivity. }
  rewrite BIG. rewrite even_rem. change UNKNOWNSIZE with (-2). change NONARRAYSIZE with (-1).
  assert (L : 64 <= limit but <= 8192) by (destruct but; cbn; lia).
  assert (R' : (r = value c /\ value c <= 2147483647) \/ (value c > 2147483647 /\ (r > limit but \/ (r < 0 /\ r = value c - 4294967296)))) by (destruct (Z.leb_spec (value c) 2147483647); lia).
  clear R VL. destruct (Z.gtb_spec r (limit but)) as [G|G].
  { split; [|split; [discriminate|discriminate]]. intros n. split; [discriminate|]. intros [? ->]. lia. }
  destruct (etype_eqb but EBool && Z.even r) eqn:EV.
  - apply andb_prop in EV as [EB EV]. assert (but = EBool) as -> by (destruct but; auto; discriminate).
    destruct (Z.eqb_spec r (-2147483648)) as [Q|Q].
    + split; [|split; [discriminate|intros _; split; auto; lia]]. intros n. split; [discriminate|]. intros [? ?]. lia.
    + destruct (Z.ltb_spec (r - 1) 0) as [B|B].
      * split; [|split; discriminate]. intros n. split; [discriminate|]. intros [V _].
        assert (r = value c) as RV by lia. rewrite RV in *. assert (value c = 1) as V1 by lia. rewrite V1 in EV. discriminate.
      * rewrite (accepted_scalar EBool (r - 1)) by (first [exact E | cbn [limit] in *; lia]).
        assert (r = value c) as RV by lia. destruct (Z.leb_spec 1 (r - 1)) as [A|A].
        -- split; [|split; discriminate]. intros n. unfold oddFor. rewrite <- RV, EV. split; [intros H; injection H as <-; lia|intros [_ ->]; reflexivity].
        -- assert (r = 1) as R1 by lia. rewrite R1 in EV. discriminate.
  - destruct (Z.ltb_spec r 0) as [B|B].
    + split; [|split; discriminate]. intros n. split; [discriminate|]. intros [V _]. lia.
    + rewrite (accepted_scalar but r) by (auto; lia). assert (r = value c) as RV by lia.
      assert (OD : oddFor but (value c) = r).
      { rewrite <- RV. unfold oddFor. destruct but; auto. cbn [etype_eqb andb] in EV. rewrite EV. reflexivity. }
      rewrite OD. destruct (Z.leb_spec 1 r) as [A|A].
      * split; [|split; discriminate]. intros n. split; [intros H; injection H as <-; lia|intros [_ ->]; reflexivity].
      * split; [|split; discriminate]. intros n. split; [discriminate|]. intros [V _]. lia.
Qed.
Print Assumptions C104_scalar.

(* the size is always possible: within the limit, and odd for a Bool *)
Theorem C104_possible : forall cs32, cs32_ok cs32 -> forall but c n, sizable but -> number 32 c ->
  declScalar cs32 but (Some c) = Size n -> 1 <= n <= limit but /\ (but = EBool -> Z.odd n = true).
Proof.
  intros cs32 OK but c n E NUM H. apply (proj1 (C104_scalar cs32 OK but c E NUM)) in H. destruct H as [V ->].
  unfold oddFor. destruct but; try (split; [lia|discriminate]).
  destruct (Z.even (value c)) eqn:EV.
  - split.
    + assert (value c <> 1) by (intros Q; rewrite Q in EV; discriminate). cbn in *. lia.
    + intros _. rewrite Z.odd_sub, <- Z.negb_even, EV. reflexivity.
  - split; [cbn in *; lia|]. intros _. rewrite <- Z.negb_even, EV. reflexivity.
Qed.
Print Assumptions C104_possible.

(* without a size, and for Void and String with one, the size is that of the kind of type *)
Theorem C104_default : forall cs32 but c, In but [EVoid; EString] \/ c = None ->
  declScalar cs32 but c = Size (match but with EInt | EUnsigned | EUnary | EBits => 32 | EBool => 1 | EAtom => 96 | EPtr => 71
    | EString => 18 | ENav | EHzy | EHolder => -2 | _ => 0 end).
Proof.
  intros cs32 but c [H| ->]; [|destruct but; reflexivity]. destruct H as [<-|[<-|[]]]; destruct c; reflexivity.
Qed.
Print Assumptions C104_default.

(* refuted for constants of more than 32 bits, whatever the conversion does: 8 and 4294967304 (both Unsigned(33)) give
   the same result, so one is wrong *)
Theorem C104_wide_refuted : forall cs32, exists c, number 64 c /\
  ~ (forall n, declScalar cs32 EInt (Some c) = Size n <-> 1 <= value c <= 64 /\ n = value c).
Proof.
  intros cs32. set (c1 := mkCst EUnsigned 33 8). set (c2 := mkCst EUnsigned 33 4294967304).
  assert (S : declScalar cs32 EInt (Some c1) = declScalar cs32 EInt (Some c2)) by reflexivity.
  destruct (declScalar cs32 EInt (Some c1)) eqn:O1.
  4: { exists c2. split; [unfold number; cbn; lia|]. intros H. symmetry in S. specialize (H n). apply H in S. cbn in S. lia. }
  all: exists c1; split; [unfold number; cbn; lia|]; intros H; specialize (H 8); rewrite O1 in H;
    destruct H as [_ H]; assert (Q := H ltac:(cbn; lia)); discriminate Q.
Qed.
Print Assumptions C104_wide_refuted.

(* refuted: a String is not a number, but as a size it is taken for one: its index in the table of strings becomes the
   size.  (The conversion is that of an Unsigned(18).)  An array size is refused *)
Theorem C104_string_refuted : forall cs32, (forall d, 0 <= d < 2 ^ 18 -> cs32 EString 18 d = d) ->
  forall d, 1 <= d <= 64 ->
  declScalar cs32 EInt (Some (mkCst EString 18 d)) = Size d /\
  forall e old b, declArray cs32 e old b (mkCst EString 18 d) = Refused.
Proof.
  intros cs32 C d D. split; [|reflexivity].
  unfold declScalar. cbn [etype_eqb]. unfold resolveTypeBitsize, getTypeBitSizeInParen, sizeValue. cbn [c_enum c_bits c_data etype_eqb andb].
  unfold u32z. rewrite Z.mod_small by lia. rewrite C by lia. unfold MAXBITSPERLONG.
  destruct (Z.gtb_spec d 64); [lia|]. destruct (Z.ltb_spec d 0); [lia|]. change UNKNOWNSIZE with (-2). change NONARRAYSIZE with (-1).
  rewrite (accepted_scalar EInt d) by (try (left; reflexivity); lia). destruct (Z.leb_spec 1 d); [reflexivity|lia].
Qed.
Print Assumptions C104_string_refuted.

(* C104, arrays: a number of items of at most 32 bits is accepted exactly if it is not negative and all items together
   have at most 8192 bits, and then the array has that many items.  Missing: a number of items that is not an s32, a
   number of bits in all that does not fit in 32 bits (see C46_limit_refuted), and the size -2 (see
   C104_minus2_refuted) *)
Theorem C104_array_partial : forall cs32, cs32_ok cs32 -> forall e old b c,
  (e = EClass \/ old <> 0) -> e <> EVoid -> 0 < b <= 8192 -> number 32 c ->
  value c <= 2147483647 -> value c * b < 4294967296 -> value c <> -2 ->
  (forall n, declArray cs32 e old b c = Size n <->
     In (c_enum c) [EInt; EUnsigned; EUnary] /\ 0 <= value c /\ value c * b <= 8192 /\ n = value c) /\
  declArray cs32 e old b c <> Waits /\ declArray cs32 e old b c <> Undefined.
Proof.
  intros cs32 OK e old b c EO EV B NUM V PROD M2. pose proof (value_low c NUM) as VL. pose proof (OK c NUM) as R. cbn zeta in R.
  unfold declArray, getArraysizeInBracket.
  destruct (isNumericPrim (c_enum c)) eqn:NP.
  2: { split; [|split; discriminate]. intros n. split; [discriminate|]. intros [H _].
       destruct H as [H|[H|[H|[]]]]; rewrite <- H in NP; discriminate. }
  assert (KIND : In (c_enum c) [EInt; EUnsigned; EUnary]) by (destruct (c_enum c); cbn in NP |- *; try discriminate NP; auto).
  cbv zeta. unfold sizeValue. rewrite (data_small c NUM). set (r := cs32 (c_enum c) (c_bits c) (c_data c)) in *.
  destruct (Z.leb_spec (value c) 2147483647) as [_|]; [|lia].
  rewrite R in *. change UNKNOWNSIZE with (-2). destruct (Z.eqb_spec (value c) (-2)) as [Q|Q]; [contradiction|]. cbn [negb]. rewrite andb_true_r.
  destruct (Z.ltb_spec (value c) 0) as [N|N].
  - split; [|split; discriminate]. intros n. split; [discriminate|]. lia.
  - pose proof (C46_accepted_modulo e old b (value c)) as A. unfold is_s32, items in A.
    replace (value c <? 0) with false in A by lia.
    specialize (A ltac:(lia) ltac:(lia) ltac:(lia) EO EV). rewrite Z.mod_small in A by nia.
    destruct (Z.eqb_spec (value c) (-2)) as [|_]; [contradiction|]. destruct (sizesAccepted e old b (value c)).
    + split; [|split; discriminate]. intros n. split; [intros H; injection H as <-; repeat split; auto; tauto|]. intros (_ & _ & _ & ->). reflexivity.
    + split; [|split; discriminate]. intros n. split; [discriminate|]. intros (_ & _ & H & _). apply A in H. discriminate.
Qed.
Print Assumptions C104_array_partial.

(* refuted: -2 items are not refused as other negative numbers are; the number stands for a size that is not known yet,
   so the compiler goes on waiting for it *)
Theorem C104_minus2_refuted : forall cs32, cs32_ok cs32 ->
  declArray cs32 EInt 8 8 (mkCst EInt 32 4294967294) = Waits /\ value (mkCst EInt 32 4294967294) = -2 /\
  forall d, 2147483648 <= d < 4294967296 -> d <> 4294967294 -> declArray cs32 EInt 8 8 (mkCst EInt 32 d) = Refused.
Proof.
  intros cs32 OK.
  assert (N : forall d, 2147483648 <= d < 4294967296 -> cs32 EInt 32 (u32z d) = d - 4294967296).
  { intros d D. assert (NUM : number 32 (mkCst EInt 32 d)) by (unfold number; cbn; lia).
    pose proof (OK _ NUM) as R. cbn zeta in R. unfold value in R. cbn [c_enum c_bits c_data] in R.
    change (2 ^ (32 - 1)) with 2147483648 in R. change (2 ^ 32) with 4294967296 in R.
    destruct (Z.ltb_spec d 2147483648) as [|_]; [lia|]. destruct (Z.leb_spec (d - 4294967296) 2147483647) as [_|]; [|lia].
    unfold u32z. rewrite Z.mod_small by lia. exact R. }
  unfold declArray, getArraysizeInBracket, sizeValue. cbn [c_enum c_bits c_data isNumericPrim].
  split; [|split].
  - rewrite N by lia. reflexivity.
  - reflexivity.
  - intros d D ND. rewrite N by lia. change UNKNOWNSIZE with (-2).
    replace (d - 4294967296 <? 0) with true by lia. replace (d - 4294967296 =? -2) with false by lia. reflexivity.
Qed.
Print Assumptions C104_minus2_refuted.

(* refuted, arrays, for constants of more than 32 bits: as C104_wide_refuted *)
Theorem C104_wide_array_refuted : forall cs32, exists c, number 64 c /\
  ~ (forall n, declArray cs32 EInt 8 8 c = Size n <-> 0 <= value c /\ value c * 8 <= 8192 /\ n = value c).
Proof.
  intros cs32. set (c1 := mkCst EUnsigned 33 8). set (c2 := mkCst EUnsigned 33 4294967304).
  assert (S : declArray cs32 EInt 8 8 c1 = declArray cs32 EInt 8 8 c2) by reflexivity.
  destruct (declArray cs32 EInt 8 8 c1) eqn:O1.
  4: { exists c2. split; [unfold number; cbn; lia|]. intros H. symmetry in S. specialize (H n). apply H in S. cbn in S. lia. }
  all: exists c1; split; [unfold number; cbn; lia|]; intros H; specialize (H 8); rewrite O1 in H;
    destruct H as [_ H]; assert (Q := H ltac:(cbn; lia)); discriminate Q.
Qed.
Print Assumptions C104_wide_array_refuted.

(* C104, data members: exactly those that may be are accepted *)
Theorem C104_member : forall this dm scalar numeric len,
  checkDataMemberSizeConstraints this dm scalar numeric len = true <-> member_ok this dm scalar numeric len.
Proof.
  intros this dm scalar numeric len. unfold checkDataMemberSizeConstraints, member_ok, MAXBITSPERLONG, MAXSTATEBITS.
  destruct (Z.gtb_spec len 64) as [G1|G1], (Z.gtb_spec len 71) as [G2|G2]; try lia; destruct this, dm, scalar, numeric; cbn;
    (split; [intros HH; try discriminate HH; repeat split; try (left; reflexivity); try (right; repeat split); intros; try discriminate; lia
            |intros [[HT|(H1 & H2 & H3 & H4)] H5]; try reflexivity; exfalso; try discriminate;
             try (apply H1; reflexivity); try (apply H2; reflexivity);
             try (specialize (H3 eq_refl eq_refl)); try (specialize (H4 eq_refl eq_refl eq_refl)); try (specialize (H5 eq_refl eq_refl)); lia]).
Qed.
Print Assumptions C104_member.

(* a conversion as the library's is to be *)
Definition cs32_ex (e : etype) (w d : Z) : Z :=
  let v := value (mkCst e w d) in if v <=? 2147483647 then v else 2147483647.
Example C104_ex : cs32_ok cs32_ex /\ number 32 (mkCst EInt 8 12) /\
  declScalar cs32_ex EInt (Some (mkCst EInt 8 12)) = Size 12 /\
  declScalar cs32_ex EBool (Some (mkCst EInt 8 12)) = Size 11 /\
  declScalar cs32_ex EUnary (Some (mkCst EInt 8 0)) = Refused /\
  declScalar cs32_ex EInt (Some (mkCst EUnsigned 8 65)) = Refused /\
  declScalar cs32_ex EBits (Some (mkCst EUnsigned 16 8192)) = Size 8192 /\
  declScalar cs32_ex EInt (Some (mkCst EUnary 5 7)) = Size 3 /\
  declArray cs32_ex EInt 8 8 (mkCst EInt 32 1024) = Size 1024 /\
  declArray cs32_ex EInt 8 8 (mkCst EInt 32 1025) = Refused /\
  declArray cs32_ex EInt 8 8 (mkCst EInt 32 0) = Size 0 /\
  checkDataMemberSizeConstraints UcElement UcQuark false false 71 = true /\
  checkDataMemberSizeConstraints UcElement UcQuark false false 72 = false.
Proof.
  split.
  { intros c NUM. cbn zeta. unfold cs32_ex. cbn zeta. replace (mkCst (c_enum c) (c_bits c) (c_data c)) with c by (destruct c; reflexivity).
    destruct (value c <=? 2147483647); auto. }
  split; [unfold number; cbn; lia|]. vm_compute. repeat split.
Qed.
