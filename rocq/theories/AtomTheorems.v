(* AtomTheorems.v: C15, C16, C17, C18 and C51 (bit fields of an atom, packed arrays, subscripts). *)
From Coq Require Import List NArith ZArith Lia Bool.
From Coq Require Import ZifyBool ZifyNat ZifyN.
From Verif Require Import Base BitVec UTypeModel AtomModel AtomSpec AtomProofs.
Import ListNotations.
Ltac Zify.zify_post_hook ::= Z.div_mod_to_equations.
Open Scope N_scope.

Ltac parray := unfold packed_array; repeat split; try reflexivity; try discriminate; try lia.

(* ---- C15 ---- *)

(* C15: a field of up to 32 bits anywhere in the atom reads back what was written *)
Theorem C15_put_get : forall pos len v a, pos + len <= 96 -> len <= 32 ->
  exists a', putData pos len v a = Some a' /\ field pos len a' = msb_bits (N.to_nat len) v /\
    getData pos len a' = Some (v mod 2 ^ len).
Proof.
  intros pos len v a HP HL. destruct (putData_ok pos len v a HP HL) as (a' & E & HB).
  exists a'. split; auto.
  assert (field pos len a' = msb_bits (N.to_nat len) v) as EF
    by (apply splice_field_same with (a := a); auto; apply msb_bits_length).
  split; auto. rewrite getData_ok, EF, bval_msb, N2Nat.id by auto. reflexivity.
Qed.
Print Assumptions C15_put_get.

Example C15_ex : exists a', putData 30 10 0x1234 0xFFFFFFFFFFFFFFFFFFFFFFFF = Some a' /\ getData 30 10 a' = Some 0x234.
Proof. eexists. split; [vm_compute; reflexivity|]; vm_compute; reflexivity. Qed.

(* C15: likewise for fields of up to 64 bits *)
Theorem C15_put_get_long : forall pos len v a, pos + len <= 96 -> len <= 64 ->
  exists a', putDataLong pos len v a = Some a' /\ field pos len a' = msb_bits (N.to_nat len) v /\
    getDataLong pos len a' = Some (v mod 2 ^ len).
Proof.
  intros pos len v a HP HL. destruct (putDataLong_ok pos len v a HP HL) as (a' & E & HB).
  exists a'. split; auto.
  assert (field pos len a' = msb_bits (N.to_nat len) v) as EF
    by (apply splice_field_same with (a := a); auto; apply msb_bits_length).
  split; auto. rewrite getDataLong_ok, EF, bval_msb, N2Nat.id by auto. reflexivity.
Qed.
Print Assumptions C15_put_get_long.

Example C15_long_ex : exists a', putDataLong 30 64 0xFEDCBA9876543210 7 = Some a' /\
  getDataLong 30 64 a' = Some 0xFEDCBA9876543210.
Proof. eexists. split; [vm_compute; reflexivity|]; vm_compute; reflexivity. Qed.

(* C15: reading a field never looks outside it: it is the number its bits denote *)
Theorem C15_get_is_field : forall pos len a r,
  getData pos len a = Some r \/ getDataLong pos len a = Some r -> r = bval (field pos len a).
Proof. intros pos len a r [H|H]; [apply getData_field in H|apply getDataLong_field in H]; tauto. Qed.
Print Assumptions C15_get_is_field.

Example C15_get_ex : getData 92 4 0xAB = Some 0xB.
Proof. vm_compute. reflexivity. Qed.

(* C15: an immediate value (a primitive or a class of at most 64 bits) gives back the number it was made from *)
Theorem C15_immediate : forall t w v,
  getTotalBitSize t = Z.of_N w -> w <= 64 ->
  ty_enum t <> EAtom -> ty_enum t <> EPtr -> ty_enum t <> ENouti -> ty_enum t <> ENav -> ty_enum t <> EHzy ->
  (w <= 32 -> exists r, makeImmediate t v = Some r /\ getImmediateData w r = Some (v mod 2 ^ w)) /\
  (exists r, makeImmediateLong t v = Some r /\ getImmediateDataLong w r = Some (v mod 2 ^ w)).
Proof.
  intros t w v HT Hw H1 H2 H3 H4 H5. split.
  - intros Hw32. destruct (makeImmediate_ok t w v HT Hw32) as (r & E & HTy & HO). exists r. split; auto.
    rewrite (getImmediateData_ok t w r) by (rewrite ?HTy; auto). rewrite HO, bval_msb, N2Nat.id. reflexivity.
  - destruct (makeImmediateLong_ok t w v HT Hw) as (r & E & HTy & HO). exists r. split; auto.
    rewrite (getImmediateDataLong_ok t w r) by (rewrite ?HTy; auto). rewrite HO, bval_msb, N2Nat.id. reflexivity.
Qed.
Print Assumptions C15_immediate.

Example C15_immediate_ex :
  makeImmediate (prim EInt 5 (-1)) 0x3F = Some (mkUV (prim EInt 5 (-1)) 0x1F) /\
  getImmediateData 5 (mkUV (prim EInt 5 (-1)) 0x1F) = Some 0x1F.
Proof. vm_compute. auto. Qed.

(* ---- C16 ---- *)

(* C16: writing a field changes no bit outside it *)
Theorem C16_put_frame : forall pos len v a a',
  putData pos len v a = Some a' \/ putDataLong pos len v a = Some a' -> same_outside pos len a a'.
Proof.
  intros pos len v a a' [H|H];
  [apply putData_inv in H as (? & ? & HB)|apply putDataLong_inv in H as (? & ? & HB)];
  eapply splice_outside; eauto; apply msb_bits_length.
Qed.
Print Assumptions C16_put_frame.

(* C16: so a disjoint field reads the same before and after *)
Theorem C16_disjoint : forall pos len v a a' q n,
  putData pos len v a = Some a' \/ putDataLong pos len v a = Some a' ->
  q + n <= pos \/ pos + len <= q ->
  getData q n a' = getData q n a /\ getDataLong q n a' = getDataLong q n a.
Proof.
  intros pos len v a a' q n H HD. apply C16_put_frame in H.
  destruct (N.le_gt_cases (q + n) 96) as [HQ|HQ].
  - pose proof (outside_field _ _ _ _ q n H HQ HD) as E. split.
    + destruct (N.le_gt_cases n 32). { rewrite !getData_ok, E by auto. auto. }
      unfold getData. replace ((q + n <=? ATOM) && (n <=? 32)) with false by lia. auto.
    + destruct (N.le_gt_cases n 64). { rewrite !getDataLong_ok, E by auto. auto. }
      unfold getDataLong. replace ((q + n <=? ATOM) && (n <=? 64)) with false by lia. auto.
  - unfold getData, getDataLong, ATOM. replace (q + n <=? 96) with false by lia. auto.
Qed.
Print Assumptions C16_disjoint.

Example C16_ex : exists a', putData 30 10 0x1234 0xFFFFFFFFFFFFFFFFFFFFFFFF = Some a' /\
  getData 0 30 a' = Some 0x3FFFFFFF /\ getDataLong 40 56 a' = Some 0xFFFFFFFFFFFFFF.
Proof. eexists. split; [vm_compute; reflexivity|]; split; [vm_compute; reflexivity|]; vm_compute; reflexivity. Qed.

(* C16: a store through any pointer to a scalar, or to an array of at most 64 bits, changes only the bits the
   pointer covers *)
Theorem C16_store_frame : forall p d a a',
  putDataIntoAtom p d a = Some a' -> isScalar (p_ty p) = true \/ p_pack p = PACKEDLOADABLE ->
  same_outside (p_pos p) (p_len p) a a'.
Proof.
  intros p d a a' H HS. unfold putDataIntoAtom in H.
  assert (putByLen p d a = Some a') as HP.
  { destruct (p_pack p); auto; try discriminate. destruct HS as [HS|]; [|discriminate].
    rewrite HS in H. cbn [negb] in H. destruct (packfit_eqb _ _); auto. discriminate. }
  apply putByLen_splice in HP as (HB & new & HL & E). eapply splice_outside; eauto.
Qed.
Print Assumptions C16_store_frame.

(* C16: and so does a store of a packed array *)
Theorem C16_array_store_frame : forall slot sto t w n pos ap d a a',
  packed_array t w n -> w <= 64 -> pos = 0 \/ pos + w * n <= 96 ->
  makePtr slot sto t (determinePackable t) pos = Some ap ->
  putDataIntoAtom ap d a = Some a' ->
  same_outside (base_pos t w n pos) (w * n) a a'.
Proof.
  intros slot sto t w n pos ap d a a' H Hw HP E HPut.
  pose proof (makePtr_slot _ _ _ _ _ _ E) as HS. pose proof (base_pos_bounds _ _ _ _ H HP) as [HB1 HB2].
  rewrite (arrayPtr _ _ _ _ _ _ _ H HP E) in HPut.
  destruct (N.le_gt_cases (w * n) 64).
  - pose proof (C16_store_frame _ _ _ _ HPut) as F. cbn [p_pos p_len p_pack] in F. apply F. right.
    unfold pf. replace (w * n <=? 64) with true by lia. auto.
  - destruct (putPackedArray_ok slot sto t w n (base_pos t w n pos) false d a) as (b & E' & HB); auto; try lia.
    rewrite E' in HPut. injection HPut as <-. eapply splice_outside; eauto. apply field_length. lia.
Qed.
Print Assumptions C16_array_store_frame.

Example C16_array_ex : packed_array (prim EInt 23 3) 23 3 /\ 
  exists ap a', makePtr 1 STACK (prim EInt 23 3) (determinePackable (prim EInt 23 3)) 26 = Some ap /\
   putDataIntoAtom ap (mkUV (prim EInt 23 3) 0x123456) 0xFFFFFFFFFFFFFFFFFFFFFFFF = Some a' /\
   getData 0 26 a' = Some 0x3FFFFFF /\ getData 72 23 a' = Some 0x123456 /\ getData 95 1 a' = Some 1.
Proof. split; [parray|]. eexists _, _. split; [vm_compute; reflexivity|]. split; [vm_compute; reflexivity|]. split; [vm_compute; reflexivity|]; split; [vm_compute; reflexivity|]; vm_compute; reflexivity. Qed.

(* ---- C17 ---- *)

(* C17: item i of a packed array is w bits at i*w from the array's start, first item first *)
Theorem C17_item_pointer : forall slotok slot sto t w n pos ap i,
  packed_array t w n -> pos = 0 \/ pos + w * n <= 96 ->
  makePtr slot sto t (determinePackable t) pos = Some ap -> i < n ->
  exists ip, subscriptStorePtr slotok ap (Z.of_N i) = Some ip /\
    p_pos ip = base_pos t w n pos + i * w /\ p_len ip = w /\ p_slot ip = slot /\ p_ty ip = asScalar t.
Proof.
  intros slotok slot sto t w n pos ap i H HP E Hi.
  pose proof (makePtr_slot _ _ _ _ _ _ E) as HS. pose proof (base_pos_bounds _ _ _ _ H HP) as [HB1 HB2].
  rewrite (arrayPtr _ _ _ _ _ _ _ H HP E). unfold subscriptStorePtr.
  rewrite (scalarPtr slot sto t w n) by auto. cbn [bind].
  destruct (asScalar_array _ _ _ H) as (HSc & _). assert (1 <= w) by apply H. assert (i * w + w <= w * n) by nia.
  rewrite incr_item by (auto; lia). cbn [bind fst snd]. rewrite guard_true by lia.
  eexists. split; [reflexivity|]. cbn. repeat split; auto. lia.
Qed.
Print Assumptions C17_item_pointer.

(* C17: storing item i (of at most 64 bits) through the atom's store sets item i, keeps the other items and
   everything outside the array, and loading item j afterwards gives item j *)
Theorem C17_store_load : forall slotok slot sto t w n pos ap i d dst,
  packed_array t w n -> w <= 64 -> pos = 0 \/ pos + w * n <= 96 ->
  makePtr slot sto t (determinePackable t) pos = Some ap -> i < n ->
  ty_enum (v_ty d) = ty_enum t -> holds_fields (v_ty dst) = true ->
  exists ip a', subscriptStorePtr slotok ap (Z.of_N i) = Some ip /\
    putDataIntoAtom ip d (v_bits dst) = Some a' /\
    same_outside (base_pos t w n pos) (w * n) (v_bits dst) a' /\
    forall j, j < n -> exists rj old,
      subscriptLoad slotok ap (Z.of_N j) (mkUV (v_ty dst) a') = Some rj /\ v_ty rj = asScalar t /\
      subscriptLoad slotok ap (Z.of_N j) dst = Some old /\
      own_bits t w (v_bits rj) = if j =? i then own_bits t w (v_bits d) else own_bits t w (v_bits old).
Proof.
  intros slotok slot sto t w n pos ap i d dst H Hw HP E Hi HE HF.
  pose proof (makePtr_slot _ _ _ _ _ _ E) as HS. pose proof (base_pos_bounds _ _ _ _ H HP) as [HB1 HB2].
  rewrite (arrayPtr _ _ _ _ _ _ _ H HP E). unfold subscriptStorePtr.
  rewrite (scalarPtr slot sto t w n) by auto. cbn [bind].
  destruct (asScalar_array _ _ _ H) as (HSc & _). assert (1 <= w) by apply H. assert (i * w + w <= w * n) by nia.
  rewrite incr_item by (auto; lia). cbn [bind fst snd]. rewrite guard_true by lia.
  destruct (put_item_ok slot sto t w n (base_pos t w n pos + w * i) false d (v_bits dst)) as (a' & EP & HA); auto; try lia.
  eexists _, a'. split; [reflexivity|]. split; [exact EP|].
  assert (length (own_bits t w (v_bits d)) = N.to_nat w) as HL by (apply own_bits_length; lia).
  split. { apply outside_weaken with (pos := base_pos t w n pos + w * i) (len := w); try lia.
           eapply splice_outside; eauto. lia. }
  intros j Hj.
  destruct (getValAt_ok slotok slot sto t w n (base_pos t w n pos) false j (mkUV (v_ty dst) a')) as (rj & E1 & HT1 & HO1); auto.
  destruct (getValAt_ok slotok slot sto t w n (base_pos t w n pos) false j dst) as (old & E2 & HT2 & HO2); auto.
  exists rj, old. unfold subscriptLoad. cbn [p_ty].
  rewrite !guard_true by (destruct H as (_ & -> & _); lia).
  split; auto. split; auto. split; auto. rewrite HO1, HO2. cbn [v_bits].
  apply items_after_store with (a := v_bits dst); auto.
Qed.
Print Assumptions C17_store_load.

Example C17_ex : exists ap ip a' r,
  packed_array (prim EUnsigned 7 9) 7 9 /\
  makePtr 3 STACK (prim EUnsigned 7 9) (determinePackable (prim EUnsigned 7 9)) 0 = Some ap /\
  subscriptStorePtr (fun _ => true) ap 2 = Some ip /\
  putDataIntoAtom ip (mkUV (prim EUnsigned 7 (-1)) 99) 0 = Some a' /\ a' = 99 * 2 ^ 42 /\
  subscriptLoad (fun _ => true) ap 2 (mkUV (prim EUnsigned 7 9) a') = Some r /\ v_bits r = 99.
Proof.
  eexists _, _, _, _. split; [parray|]. split; [vm_compute; reflexivity|]. split; [vm_compute; reflexivity|].
  split; [vm_compute; reflexivity|]. split; [vm_compute; reflexivity|]. split; [vm_compute; reflexivity|]; vm_compute; reflexivity.
Qed.

(* C17: a whole packed array read out of an atom has the same bits, right-justified: for arrays of at most 64 bits
   and for items of at most 32 bits *)
Theorem C17_whole_array_load_partial : forall slot sto t w n pos ap d,
  packed_array t w n -> w <= 32 \/ w * n <= 64 -> pos = 0 \/ pos + w * n <= 96 ->
  makePtr slot sto t (determinePackable t) pos = Some ap ->
  exists r, getPackedArrayDataFromAtom ap d = Some r /\ v_ty r = t /\
    field (96 - w * n) (w * n) (v_bits r) = field (base_pos t w n pos) (w * n) (v_bits d).
Proof.
  intros slot sto t w n pos ap d H Hw HP E.
  pose proof (makePtr_slot _ _ _ _ _ _ E) as HS. pose proof (base_pos_bounds _ _ _ _ H HP) as [HB1 HB2].
  rewrite (arrayPtr _ _ _ _ _ _ _ H HP E). apply getPackedArray_ok; auto.
Qed.
Print Assumptions C17_whole_array_load_partial.

Example C17_whole_ex : packed_array (prim EInt 23 3) 23 3 /\ exists ap r,
  makePtr 1 STACK (prim EInt 23 3) (determinePackable (prim EInt 23 3)) 25 = Some ap /\
  getPackedArrayDataFromAtom ap (mkUV (prim EAtom 96 (-1)) (0x123456789 * 4)) = Some r /\ v_bits r = 0x123456789.
Proof. split; [parray|]. eexists _, _. split; [vm_compute; reflexivity|]. split; [vm_compute; reflexivity|]; vm_compute; reflexivity. Qed.

(* C17 is false for whole arrays of two 33-, 34- or 35-bit items (and of one item of 65 to 71 bits): the code tests
   the length of the array where it means the length of the item, and aborts *)
Theorem C17_whole_array_load_refuted : forall slot sto t w n pos ap d,
  packed_array t w n -> 32 < w -> 64 < w * n -> pos = 0 \/ pos + w * n <= 96 ->
  makePtr slot sto t (determinePackable t) pos = Some ap ->
  getPackedArrayDataFromAtom ap d = None.
Proof.
  intros slot sto t w n pos ap d H Hw Hbig HP E.
  pose proof (makePtr_slot _ _ _ _ _ _ E) as HS. pose proof (base_pos_bounds _ _ _ _ H HP) as [HB1 HB2].
  rewrite (arrayPtr _ _ _ _ _ _ _ H HP E). pose proof H as (HB & HA & ? & Hn & Hwn & _).
  unfold getPackedArrayDataFromAtom. cbn [p_ty p_pack]. unfold NONARRAYSIZE. rewrite HA.
  replace (Z.of_N n =? -1)%Z with false by lia. rewrite guard_true by lia. cbv zeta. rewrite N2Z.id.
  unfold zlen. rewrite HB. replace (0 <=? Z.of_N w)%Z with true by lia. rewrite N2Z.id. cbn [bind].
  unfold getPtrLen, getPtrPos. cbn [p_len p_pos]. rewrite !guard_true by (unfold ATOM; lia). cbn [bind].
  rewrite guard_true by lia. unfold pf at 1. replace (w * n <=? 64) with false by lia.
  rewrite (scalarPtr slot sto t w n (base_pos t w n pos) false) by auto. cbn [bind].
  replace (N.to_nat n) with (S (N.to_nat n - 1)) by lia. cbn [getPacked_loop].
  unfold getPtrLen, getPtrPos. cbn [p_len p_pos]. rewrite !guard_true by (unfold ATOM; lia). cbn [bind].
  replace (w <=? 32) with false by lia. replace (w * n <=? 64) with false by lia. reflexivity.
Qed.
Print Assumptions C17_whole_array_load_refuted.

Example C17_whole_refuted_ex : packed_array (prim EInt 33 2) 33 2 /\ exists ap,
  makePtr 1 STACK (prim EInt 33 2) (determinePackable (prim EInt 33 2)) 0 = Some ap.
Proof. split; [parray|]. eexists. vm_compute. reflexivity. Qed.

(* C17: copying a packed array of primitives out of one atom and into another keeps every item *)
Theorem C17_copy_array_partial : forall slot sto t w n pos ap d r slot' sto' pos' ap' a,
  packed_array t w n -> ty_enum t <> EClass -> w <= 64 ->
  pos = 0 \/ pos + w * n <= 96 -> pos' = 0 \/ pos' + w * n <= 96 ->
  makePtr slot sto t (determinePackable t) pos = Some ap ->
  makePtr slot' sto' t (determinePackable t) pos' = Some ap' ->
  getPackedArrayDataFromAtom ap d = Some r ->
  exists a', putDataIntoAtom ap' r a = Some a' /\
    field (base_pos t w n pos') (w * n) a' = field (base_pos t w n pos) (w * n) (v_bits d) /\
    same_outside (base_pos t w n pos') (w * n) a a'.
Proof.
  intros slot sto t w n pos ap d r slot' sto' pos' ap' a H HC Hw HP HP' E E' HR.
  pose proof (makePtr_slot _ _ _ _ _ _ E) as HS. pose proof (base_pos_bounds _ _ _ _ H HP) as [HB1 HB2].
  pose proof (makePtr_slot _ _ _ _ _ _ E') as HS'. pose proof (base_pos_bounds _ _ _ _ H HP') as [HB1' HB2'].
  destruct (N.le_gt_cases w 32) as [Hor|Hor]; [|destruct (N.le_gt_cases (w * n) 64) as [Hor2|Hor2]].
  3:{ rewrite (C17_whole_array_load_refuted slot sto t w n pos ap d) in HR by auto. discriminate. }
  all: pose proof (arrayPtr _ _ _ _ _ _ _ H HP E) as EA; rewrite EA in HR;
    destruct (getPackedArray_ok slot sto t w n (base_pos t w n pos) false d) as (r0 & Er & HT & HF); auto;
    rewrite Er in HR; injection HR as <-;
    rewrite (arrayPtr _ _ _ _ _ _ _ H HP' E').
  all: assert (exists a', putDataIntoAtom (mkPtr slot' sto' t (pf (w * n)) (base_pos t w n pos') (w * n) false) r0 a = Some a' /\
      abits a' = splice (N.to_nat (base_pos t w n pos')) (field (96 - w * n) (w * n) (v_bits r0)) (abits a)) as (a' & EP & HA).
  1,3: destruct (N.le_gt_cases (w * n) 64); [|apply putPackedArray_ok; auto; lia];
    unfold putDataIntoAtom; cbn [p_pack]; unfold pf at 1; replace (w * n <=? 64) with true by lia;
    destruct (putByLen_ok slot' sto' t t (pf (w * n)) (base_pos t w n pos') (w * n) false r0 a) as (a' & EP & HA);
      try (rewrite HT; reflexivity); try apply H; auto; try lia;
    exists a'; (split; [exact EP|]); rewrite HA; f_equal; unfold own_bits; destruct (ty_enum t); auto; congruence.
  all: exists a'; (split; [exact EP|]); split;
    [ rewrite <- HF; apply splice_field_same with (a := a); auto; apply field_length; lia
    | eapply splice_outside; eauto; apply field_length; lia ].
Qed.
Print Assumptions C17_copy_array_partial.

Example C17_copy_ex : exists ap r ap' a',
  makePtr 1 STACK (prim EInt 23 3) (determinePackable (prim EInt 23 3)) 25 = Some ap /\
  getPackedArrayDataFromAtom ap (mkUV (prim EAtom 96 (-1)) (0x123456789 * 4)) = Some r /\
  makePtr 2 STACK (prim EInt 23 3) (determinePackable (prim EInt 23 3)) 0 = Some ap' /\
  putDataIntoAtom ap' r 0 = Some a' /\ a' = 0x123456789.
Proof.
  eexists _, _, _, _. split; [vm_compute; reflexivity|]. split; [vm_compute; reflexivity|].
  split; [vm_compute; reflexivity|]. split; [vm_compute; reflexivity|]; vm_compute; reflexivity.
Qed.

(* C17 is false for copying a packed array of quarks: it is read out right-justified (getPackedArrayDataFromAtom)
   but stored from bit 25 (putDataIntoAtom), so the copy has other items *)
Definition quark8x2 : utype := mkTy EClass 8 2 AltNot CQuark 1 7 false 8.
Theorem C17_copy_quark_array_refuted : exists ap r a',
  packed_array quark8x2 8 2 /\
  makePtr 1 STACK quark8x2 (determinePackable quark8x2) 25 = Some ap /\
  getPackedArrayDataFromAtom ap (mkUV (prim EAtom 96 (-1)) (0x1234 * 2 ^ 55)) = Some r /\
  putDataIntoAtom ap r 0 = Some a' /\
  field 25 16 (0x1234 * 2 ^ 55) = msb_bits 16 0x1234 /\ field 25 16 a' = msb_bits 16 0.
Proof.
  eexists _, _, _. split; [parray|]. split; [vm_compute; reflexivity|]. split; [vm_compute; reflexivity|].
  split; [vm_compute; reflexivity|]. split; [vm_compute; reflexivity|]; vm_compute; reflexivity.
Qed.
Print Assumptions C17_copy_quark_array_refuted.

(* C17: a store to an item of a packed array variable on the stack (CallStack::assignUlamValue), array of at most
   64 bits *)
Theorem C17_stack_store_partial : forall slotok slot sto t w n pos ap i d cur,
  packed_array t w n -> w * n <= 64 -> pos = 0 \/ pos + w * n <= 96 ->
  makePtr slot sto t (determinePackable t) pos = Some ap -> i < n ->
  ty_enum (v_ty d) = ty_enum t -> v_ty cur = t ->
  exists ip cur', subscriptStorePtr slotok ap (Z.of_N i) = Some ip /\ assignInSlot ip d cur = Some cur' /\
    ((ty_enum t = EClass -> ty_ct t <> CNotaclass) -> v_ty cur' = t) /\
    same_outside (base_pos t w n pos) (w * n) (v_bits cur) (v_bits cur') /\
    forall j, j < n -> item w j (field (base_pos t w n pos) (w * n) (v_bits cur')) =
      if j =? i then own_bits t w (v_bits d) else item w j (field (base_pos t w n pos) (w * n) (v_bits cur)).
Proof.
  intros slotok slot sto t w n pos ap i d cur H Hsm HP E Hi HE HT.
  pose proof (makePtr_slot _ _ _ _ _ _ E) as HS. pose proof (base_pos_bounds _ _ _ _ H HP) as [HB1 HB2].
  rewrite (arrayPtr _ _ _ _ _ _ _ H HP E). unfold subscriptStorePtr.
  rewrite (scalarPtr slot sto t w n) by auto. cbn [bind].
  destruct (asScalar_array _ _ _ H) as (HSc & _). assert (1 <= w) by apply H. assert (i * w + w <= w * n) by nia.
  rewrite incr_item by (auto; lia). cbn [bind fst snd]. rewrite guard_true by lia.
  destruct (put_item_ok slot sto t w n (base_pos t w n pos + w * i) false d (v_bits cur)) as (a' & EP & HA); auto; try lia.
  assert (length (own_bits t w (v_bits d)) = N.to_nat w) as HL by (apply own_bits_length; lia).
  eexists _, _. split; [reflexivity|]. split.
  { unfold assignInSlot. cbn [p_pack p_ty]. 
    assert (pf (w * n) = PACKEDLOADABLE) as EPF by (unfold pf; replace (w * n <=? 64) with true by lia; auto).
    rewrite EPF in *. cbn [packfit_eqb andb]. cbv zeta. unfold getPtrLen. cbn [p_len].
    rewrite guard_true by (unfold ATOM; lia). cbn [bind]. rewrite guard_true by lia. rewrite EP. cbn [bind]. reflexivity. }
  cbn [v_bits v_ty]. split.
  { intros HCT. rewrite HT. assert (ty_enum t <> ENouti) by apply H. destruct (asScalar_array _ _ _ H) as (_ & _ & -> & _).
    destruct (ty_enum t) eqn:EE; try congruence; destruct (ty_ct t) eqn:ECT; try reflexivity; exfalso; apply HCT; auto. }
  split.
  { apply outside_weaken with (pos := base_pos t w n pos + w * i) (len := w); try lia.
    eapply splice_outside; eauto. lia. }
  apply items_after_store with (a := v_bits cur); auto.
Qed.
Print Assumptions C17_stack_store_partial.

Example C17_stack_ex : exists ap ip cur',
  makePtr 3 STACK (prim EUnsigned 7 9) (determinePackable (prim EUnsigned 7 9)) 0 = Some ap /\
  subscriptStorePtr (fun _ => true) ap 8 = Some ip /\
  assignInSlot ip (mkUV (prim EUnsigned 7 (-1)) 99) (mkUV (prim EUnsigned 7 9) (5 * 2 ^ 7)) = Some cur' /\
  v_bits cur' = 5 * 2 ^ 7 + 99.
Proof.
  eexists _, _, _. split; [vm_compute; reflexivity|]. split; [vm_compute; reflexivity|].
  split; [vm_compute; reflexivity|]; vm_compute; reflexivity.
Qed.

(* C17 is false on the stack for arrays of 65 to 71 bits: the assignment replaces the whole array by the item *)
Theorem C17_stack_store_refuted : forall slotok slot sto t w n pos ap i d cur,
  packed_array t w n -> 64 < w * n -> pos = 0 \/ pos + w * n <= 96 ->
  makePtr slot sto t (determinePackable t) pos = Some ap -> i < n ->
  exists ip, subscriptStorePtr slotok ap (Z.of_N i) = Some ip /\ assignInSlot ip d cur = Some d.
Proof.
  intros slotok slot sto t w n pos ap i d cur H Hbig HP E Hi.
  pose proof (makePtr_slot _ _ _ _ _ _ E) as HS. pose proof (base_pos_bounds _ _ _ _ H HP) as [HB1 HB2].
  rewrite (arrayPtr _ _ _ _ _ _ _ H HP E). unfold subscriptStorePtr.
  rewrite (scalarPtr slot sto t w n) by auto. cbn [bind].
  destruct (asScalar_array _ _ _ H) as (HSc & _). assert (1 <= w) by apply H. assert (i * w + w <= w * n) by nia.
  rewrite incr_item by (auto; lia). cbn [bind fst snd]. rewrite guard_true by lia.
  eexists. split; [reflexivity|]. unfold assignInSlot. cbn [p_pack p_ty]. unfold pf.
  replace (w * n <=? 64) with false by lia. rewrite HSc. reflexivity.
Qed.
Print Assumptions C17_stack_store_refuted.

(* Int(23)[3]: storing 5 into item 0 turns the array {0,0,1} into {0,0,5} *)
Example C17_stack_refuted_ex : exists ap ip cur',
  packed_array (prim EInt 23 3) 23 3 /\
  makePtr 3 STACK (prim EInt 23 3) (determinePackable (prim EInt 23 3)) 0 = Some ap /\
  subscriptStorePtr (fun _ => true) ap 0 = Some ip /\
  assignInSlot ip (mkUV (prim EInt 23 (-1)) 5) (mkUV (prim EInt 23 3) 1) = Some cur' /\
  item 23 0 (field 27 69 (v_bits cur')) = msb_bits 23 0 /\ item 23 2 (field 27 69 (v_bits cur')) = msb_bits 23 5.
Proof.
  eexists _, _, _. split; [parray|]. split; [vm_compute; reflexivity|]. split; [vm_compute; reflexivity|].
  split; [vm_compute; reflexivity|]. split; [vm_compute; reflexivity|]; vm_compute; reflexivity.
Qed.

(* ---- C18 ---- *)

(* C18: the packed default of an array of n items of w bits has the item default in each item and nothing else *)
Theorem C18_packed_default : forall t w n dval,
  ty_bits t = Z.of_N w -> ty_arr t = Z.of_N n -> 1 <= w -> 1 <= n -> w * n <= 64 -> dval < 2 ^ w ->
  exists r, getDefaultAsPackedArray t dval = Some r /\ r < 2 ^ (w * n) /\
    forall i, i < n -> item w i (msb_bits (N.to_nat (w * n)) r) = msb_bits (N.to_nat w) dval.
Proof. exact getDefaultAsPackedArray_ok. Qed.
Print Assumptions C18_packed_default.

Example C18_ex : getDefaultAsPackedArray (mkTy EClass 12 4 AltNot CQuark 1 7 false 12) 0xABC = Some 0xABCABCABCABC.
Proof. vm_compute. reflexivity. Qed.

(* C18: and the default of a larger array, built in a vector of W8K = 8192 bits *)
Theorem C18_big_default : forall w n tpos dval darr,
  w <= W8K -> tpos + n * w <= W8K ->
  exists r, getDefaultAsArray w n tpos dval darr = Some r /\
    bits8k r = splice (N.to_nat tpos) (concat (repeat (slice 0 (N.to_nat w) (bits8k dval)) (N.to_nat n))) (bits8k darr).
Proof.
  intros w n tpos dval darr Hw H. unfold getDefaultAsArray.
  destruct (defaultArray_loop_ok w tpos dval Hw (N.to_nat n) 0 darr) as (r & E & HR).
  - rewrite N2Nat.id, N.add_0_l. exact H.
  - exists r. rewrite N.mul_0_l, N.add_0_r in HR. exact (conj E HR).
Qed.
Print Assumptions C18_big_default.

Example C18_big_ex : getDefaultAsArray 96 3 5 (2 ^ 8191) 0 = Some (2 ^ 8186 + 2 ^ 8090 + 2 ^ 7994).
Proof. vm_compute. reflexivity. Qed.

(* ---- C51 ---- *)

(* C51: reading an item with an index at or past the end is refused *)
Theorem C51_load_past_end : forall slotok ap i d, (ty_arr (p_ty ap) <= i)%Z -> subscriptLoad slotok ap i d = None.
Proof. intros. unfold subscriptLoad. replace (ty_arr (p_ty ap) <=? i)%Z with true by lia. reflexivity. Qed.
Print Assumptions C51_load_past_end.

(* C51 is false for negative indices: the fields before the array are read *)
Theorem C51_negative_load_refuted : exists ap r,
  makePtr 1 STACK (prim EUnsigned 8 2) (determinePackable (prim EUnsigned 8 2)) 40 = Some ap /\
  subscriptLoad (fun _ => true) ap (-1) (mkUV (prim EAtom 96 (-1)) (0x77 * 2 ^ 56)) = Some r /\ v_bits r = 0x77.
Proof. eexists _, _. split; [vm_compute; reflexivity|]. split; [vm_compute; reflexivity|]; vm_compute; reflexivity. Qed.
Print Assumptions C51_negative_load_refuted.

(* C51 is false for stores: an index past the end of an array that is not at the end of its atom, or negative,
   gives a pointer to other bits, so another data member is overwritten *)
Theorem C51_store_refuted : forall slotok slot sto t w n pos ap i,
  packed_array t w n -> pos = 0 \/ pos + w * n <= 96 ->
  makePtr slot sto t (determinePackable t) pos = Some ap ->
  n <= i -> base_pos t w n pos + (i + 1) * w <= 96 ->
  exists ip, subscriptStorePtr slotok ap (Z.of_N i) = Some ip /\ p_pos ip = base_pos t w n pos + i * w /\ p_len ip = w.
Proof.
  intros slotok slot sto t w n pos ap i H HP E Hi HF.
  pose proof (makePtr_slot _ _ _ _ _ _ E) as HS. pose proof (base_pos_bounds _ _ _ _ H HP) as [HB1 HB2].
  rewrite (arrayPtr _ _ _ _ _ _ _ H HP E). unfold subscriptStorePtr.
  rewrite (scalarPtr slot sto t w n) by auto. cbn [bind].
  destruct (asScalar_array _ _ _ H) as (HSc & _). assert (1 <= w) by apply H.
  rewrite incr_item by (auto; lia). cbn [bind fst snd]. rewrite guard_true by lia.
  eexists. split; [reflexivity|]. cbn. split; auto. lia.
Qed.
Print Assumptions C51_store_refuted.

Example C51_store_ex : packed_array (prim EUnsigned 8 2) 8 2 /\ exists ap ip a',
  makePtr 1 STACK (prim EUnsigned 8 2) (determinePackable (prim EUnsigned 8 2)) 40 = Some ap /\
  subscriptStorePtr (fun _ => true) ap 3 = Some ip /\
  putDataIntoAtom ip (mkUV (prim EUnsigned 8 (-1)) 0x77) 0 = Some a' /\ getData 64 8 a' = Some 0x77.
Proof. split; [parray|]. eexists _, _, _. split; [vm_compute; reflexivity|]. split; [vm_compute; reflexivity|]. split; [vm_compute; reflexivity|]; vm_compute; reflexivity. Qed.

(* C51: a store past the end is refused when the array is at the end of its atom (a local variable that is not a
   class array) and the position computed does not wrap around the 8-bit field that holds it *)
Theorem C51_store_past_end_partial : forall slotok slot sto t w n ap i,
  packed_array t w n -> ty_enum t <> EClass ->
  makePtr slot sto t (determinePackable t) 0 = Some ap ->
  n <= i -> 96 - w * n + i * w < 256 -> subscriptStorePtr slotok ap (Z.of_N i) = None.
Proof.
  intros slotok slot sto t w n ap i H HC E Hi HW.
  assert (0 = 0 \/ 0 + w * n <= 96) as HP by auto.
  pose proof (makePtr_slot _ _ _ _ _ _ E) as HS. pose proof (base_pos_bounds _ _ _ _ H HP) as [HB1 HB2].
  rewrite (arrayPtr _ _ _ _ _ _ _ H HP E). unfold subscriptStorePtr.
  rewrite (scalarPtr slot sto t w n) by auto. cbn [bind].
  destruct (asScalar_array _ _ _ H) as (HSc & _). 
  assert (base_pos t w n 0 = 96 - w * n) as EB by (unfold base_pos; cbn; destruct (ty_enum t); auto; congruence).
  rewrite EB in *. rewrite incr_item by (auto; lia). cbn [bind fst snd].
  replace (96 - w * n + w * i <? 96) with false by nia. reflexivity.
Qed.
Print Assumptions C51_store_past_end_partial.

Example C51_past_end_ex : exists ap,
  makePtr 1 STACK (prim EUnsigned 8 2) (determinePackable (prim EUnsigned 8 2)) 0 = Some ap /\
  subscriptStorePtr (fun _ => true) ap 2 = None.
Proof. eexists. split; [vm_compute; reflexivity|]; vm_compute; reflexivity. Qed.

(* C51 is false even there when the position wraps: index 32 of Unsigned(8)[2] is index 0 *)
Theorem C51_store_wrap_refuted : exists ap ip,
  makePtr 1 STACK (prim EUnsigned 8 2) (determinePackable (prim EUnsigned 8 2)) 0 = Some ap /\
  subscriptStorePtr (fun _ => true) ap 32 = Some ip /\ p_pos ip = 80.
Proof. eexists _, _. split; [vm_compute; reflexivity|]. split; [vm_compute; reflexivity|]; vm_compute; reflexivity. Qed.
Print Assumptions C51_store_wrap_refuted.
