From Coq Require Import List NArith ZArith Lia Bool.
From Coq Require Import ZifyBool ZifyNat ZifyN.
From Verif Require Import Base BitVec UTypeModel AtomModel AtomSpec.
Import ListNotations.
Ltac Zify.zify_post_hook ::= Z.div_mod_to_equations.
Open Scope N_scope.

Lemma bind_some {A B} (o : option A) (f : A -> option B) r :
  bind o f = Some r -> exists x, o = Some x /\ f x = Some r.
Proof. destruct o; cbn; [eauto|discriminate]. Qed.

Lemma guard_some {B} b (e : option B) r : bind (guard b) (fun _ => e) = Some r -> b = true /\ e = Some r.
Proof. destruct b; cbn; [auto|discriminate]. Qed.

Lemma guard_true {B} b (e : option B) : b = true -> bind (guard b) (fun _ => e) = e.
Proof. intros ->; reflexivity. Qed.

Lemma abits_length a : length (abits a) = 96%nat.
Proof. apply msb_bits_length. Qed.

Lemma field_length pos len a : pos + len <= 96 -> length (field pos len a) = N.to_nat len.
Proof. intros. unfold field. apply slice_length. rewrite abits_length. lia. Qed.

Lemma getData_field pos len a r : getData pos len a = Some r ->
  pos + len <= 96 /\ len <= 32 /\ r = bval (field pos len a).
Proof.
  unfold getData. intros H. apply guard_some in H as [H E]. injection E as <-.
  unfold ATOM in *. rewrite bv_read_slice by lia. unfold field, abits. repeat split; lia || reflexivity.
Qed.

Lemma getDataLong_field pos len a r : getDataLong pos len a = Some r ->
  pos + len <= 96 /\ len <= 64 /\ r = bval (field pos len a).
Proof.
  unfold getDataLong. intros H. apply guard_some in H as [H E]. injection E as <-.
  unfold ATOM in *. rewrite bv_read_slice by lia. unfold field, abits. repeat split; lia || reflexivity.
Qed.

Lemma getData_ok pos len a : pos + len <= 96 -> len <= 32 -> getData pos len a = Some (bval (field pos len a)).
Proof.
  intros. unfold getData. rewrite guard_true by (unfold ATOM; lia). f_equal.
  unfold ATOM. rewrite bv_read_slice by lia. reflexivity.
Qed.

Lemma getDataLong_ok pos len a : pos + len <= 96 -> len <= 64 -> getDataLong pos len a = Some (bval (field pos len a)).
Proof.
  intros. unfold getDataLong. rewrite guard_true by (unfold ATOM; lia). f_equal.
  unfold ATOM. rewrite bv_read_slice by lia. reflexivity.
Qed.

Lemma msb_u32 n v : (n <= 32)%nat -> msb_bits n (u32 v) = msb_bits n v.
Proof. intros. unfold u32. change two32 with (2 ^ 32). apply msb_bits_mod. lia. Qed.

Lemma msb_u64 n v : (n <= 64)%nat -> msb_bits n (u64 v) = msb_bits n v.
Proof. intros. unfold u64. change two64 with (2 ^ 64). apply msb_bits_mod. lia. Qed.

Lemma putData_ok pos len v a : pos + len <= 96 -> len <= 32 ->
  exists a', putData pos len v a = Some a' /\ abits a' = splice (N.to_nat pos) (msb_bits (N.to_nat len) v) (abits a).
Proof.
  intros. unfold putData. rewrite guard_true by (unfold ATOM; lia). eexists. split; [reflexivity|].
  unfold abits. change 96%nat with (N.to_nat ATOM). rewrite bv_write_splice by (unfold ATOM; lia).
  rewrite msb_u32 by lia. reflexivity.
Qed.

Lemma putDataLong_ok pos len v a : pos + len <= 96 -> len <= 64 ->
  exists a', putDataLong pos len v a = Some a' /\ abits a' = splice (N.to_nat pos) (msb_bits (N.to_nat len) v) (abits a).
Proof.
  intros. unfold putDataLong. rewrite guard_true by (unfold ATOM; lia). eexists. split; [reflexivity|].
  unfold abits. change 96%nat with (N.to_nat ATOM). rewrite bv_write_splice by (unfold ATOM; lia).
  rewrite msb_u64 by lia. reflexivity.
Qed.

Lemma putData_inv pos len v a a' : putData pos len v a = Some a' ->
  pos + len <= 96 /\ len <= 32 /\ abits a' = splice (N.to_nat pos) (msb_bits (N.to_nat len) v) (abits a).
Proof.
  intros H. assert (pos + len <= 96 /\ len <= 32) as [].
  { unfold putData in H. apply guard_some in H as [H _]. unfold ATOM in H. lia. }
  destruct (putData_ok pos len v a) as (b & E & HB); auto. rewrite E in H. injection H as <-. auto.
Qed.

Lemma putDataLong_inv pos len v a a' : putDataLong pos len v a = Some a' ->
  pos + len <= 96 /\ len <= 64 /\ abits a' = splice (N.to_nat pos) (msb_bits (N.to_nat len) v) (abits a).
Proof.
  intros H. assert (pos + len <= 96 /\ len <= 64) as [].
  { unfold putDataLong in H. apply guard_some in H as [H _]. unfold ATOM in H. lia. }
  destruct (putDataLong_ok pos len v a) as (b & E & HB); auto. rewrite E in H. injection H as <-. auto.
Qed.

(* what a splice does to fields *)
Lemma splice_field_same pos len new a a' : abits a' = splice (N.to_nat pos) new (abits a) ->
  length new = N.to_nat len -> pos + len <= 96 -> field pos len a' = new.
Proof.
  intros E HL H. unfold field. rewrite E, <- HL. apply slice_splice_same. rewrite abits_length. lia.
Qed.

Lemma splice_outside pos len new a a' : abits a' = splice (N.to_nat pos) new (abits a) ->
  length new = N.to_nat len -> pos + len <= 96 -> same_outside pos len a a'.
Proof.
  intros E HL H i Hi. rewrite E, splice_nth by (rewrite abits_length; lia).
  destruct (Nat.leb_spec (N.to_nat pos) i); destruct (Nat.ltb_spec i (N.to_nat pos + length new)); cbn [andb]; auto; lia.
Qed.

Lemma outside_field pos len a a' q n : same_outside pos len a a' -> q + n <= 96 -> (q + n <= pos \/ pos + len <= q) ->
  field q n a' = field q n a.
Proof.
  intros H Hq HD. apply list_nth_ext.
  - rewrite !field_length; auto.
  - intros i Hi. rewrite field_length in Hi by auto. unfold field. rewrite !slice_nth by lia. apply H. lia.
Qed.

Lemma outside_weaken pos len pos' len' a a' : same_outside pos len a a' -> pos' <= pos -> pos + len <= pos' + len' ->
  same_outside pos' len' a a'.
Proof. intros H H1 H2 i Hi. apply H. lia. Qed.

Lemma field_bval pos len a : pos + len <= 96 -> msb_bits (N.to_nat len) (bval (field pos len a)) = field pos len a.
Proof. intros. rewrite <- (field_length pos len a) at 1 by auto. apply msb_bval. Qed.

Lemma field_sub pos len q n a : q + n <= len -> slice (N.to_nat q) (N.to_nat n) (field pos len a) = field (pos + q) n a.
Proof. intros. unfold field. rewrite slice_slice by lia. f_equal. lia. Qed.

Lemma item_field w i pos len a : i * w + w <= len -> item w i (field pos len a) = field (pos + i * w) w a.
Proof. intros. unfold item. rewrite field_sub by lia. reflexivity. Qed.

(* ---- types and pointers ---- *)
Definition pf (m : N) : packfit := if m <=? 64 then PACKEDLOADABLE else PACKED.

Lemma u32z_small z : (0 <= z < 4294967296)%Z -> u32z z = z.
Proof. intros. unfold u32z. apply Z.mod_small. lia. Qed.

Lemma total_array t w n : packed_array t w n -> getTotalBitSize t = Z.of_N (w * n).
Proof.
  intros (HB & HA & Hw & Hn & Hwn & _). unfold getTotalBitSize. rewrite HB, HA. unfold NONARRAYSIZE, UNKNOWNSIZE.
  replace (Z.of_N n >? -1)%Z with true by lia. replace (Z.of_N w =? -2)%Z with false by lia.
  rewrite u32z_small; lia.
Qed.

Lemma packable_array t w n : packed_array t w n -> getPackable t = pf (w * n).
Proof.
  intros H. pose proof (total_array _ _ _ H) as HT. destruct H as (_ & _ & _ & _ & Hwn & HE1 & HE2 & _ & _ & _ & HC).
  unfold getPackable, pf. rewrite HT. unfold MAXBITSPERLONG, MAXSTATEBITS.
  destruct (ty_enum t); try congruence; destruct (ty_ct t); try congruence;
    destruct (N.leb_spec (w * n) 64); destruct (Z.leb_spec (Z.of_N (w * n)) 64); try lia; auto;
    destruct (Z.leb_spec (Z.of_N (w * n)) 71); auto; lia.
Qed.

Lemma not_scalar_array t w n : packed_array t w n -> isScalar t = false.
Proof. intros (_ & HA & _). unfold isScalar, NONARRAYSIZE. lia. Qed.

Lemma asScalar_array t w n : packed_array t w n ->
  isScalar (asScalar t) = true /\ getTotalBitSize (asScalar t) = Z.of_N w /\
  ty_enum (asScalar t) = ty_enum t /\ ty_bits (asScalar t) = Z.of_N w /\ ty_ct (asScalar t) = ty_ct t.
Proof.
  intros H. pose proof (not_scalar_array _ _ _ H) as HS. destruct H as (HB & HA & Hw & Hn & Hwn & _).
  unfold asScalar. rewrite HS. unfold isScalar, getTotalBitSize. cbn. rewrite HB. repeat split; auto.
  replace (Z.of_N w =? -2)%Z with false by lia. unfold UNKNOWNSIZE. replace (Z.of_N w =? -2)%Z with false by lia. rewrite u32z_small; nia.
Qed.

Lemma packable_item t w n : packed_array t w n -> w <= 64 -> getPackable (asScalar t) = PACKEDLOADABLE.
Proof.
  intros H Hw. destruct (asScalar_array _ _ _ H) as (_ & HT & HE & _ & HC).
  destruct H as (_ & _ & _ & _ & Hwn & HE1 & HE2 & _ & _ & _ & HC').
  unfold getPackable. rewrite HT, HE, HC. unfold MAXBITSPERLONG.
  destruct (ty_enum t); try congruence; destruct (ty_ct t); try congruence;
  replace (Z.of_N w <=? 64)%Z with true by lia; auto.
Qed.

Lemma pf_write m : WritePacked (pf m) = true.
Proof. unfold pf. destruct (m <=? 64); reflexivity. Qed.

Lemma pf_packed m : pf m <> UNPACKED.
Proof. unfold pf. destruct (m <=? 64); discriminate. Qed.

Lemma base_pos_bounds t w n pos : packed_array t w n -> pos = 0 \/ pos + w * n <= 96 ->
  1 <= base_pos t w n pos /\ base_pos t w n pos + w * n <= 96.
Proof.
  intros (_ & _ & _ & _ & Hwn & _) HP. unfold base_pos. destruct (N.eqb_spec pos 0); [|lia].
  destruct (ty_enum t); lia.
Qed.

(* makePtr on packed types *)
Lemma makePtr_packed slot sto t packed m pos :
  packed <> UNPACKED -> getTotalBitSize t = Z.of_N m -> m <= 96 ->
  (-32768 <= slot <= 32767)%Z -> pos = 0 \/ pos + m <= 96 ->
  makePtr slot sto t packed pos =
  Some (mkPtr slot sto t packed
    (if pos =? 0 then match ty_enum t with EClass => 25 | EAtom => 0 | _ => 96 - m end else pos) m false).
Proof.
  intros HP HT Hm HS Hpos. unfold makePtr. rewrite guard_true by lia.
  assert ((match packed with UNPACKED => match ty_enum t with EAtom => BITSPERATOM | _ => ty_bits t end
      | _ => getTotalBitSize t end) = Z.of_N m) as ->.
  { destruct packed; congruence. }
  cbv zeta. destruct (N.eqb_spec pos 0) as [->|NZ].
  - unfold zlen. replace (0 <=? Z.of_N m)%Z with true by lia. rewrite N2Z.id. cbn [bind].
    rewrite guard_true by lia. destruct (ty_enum t); try (rewrite guard_true by lia); reflexivity.
  - unfold BITSPERATOM. replace (Z.of_N pos + Z.of_N m >? 96)%Z with false by lia.
    unfold zlen. replace (0 <=? Z.of_N m)%Z with true by lia. rewrite N2Z.id. cbn [bind].
    rewrite guard_true. 2:{ unfold ATOM. lia. } rewrite !guard_true by lia. reflexivity.
Qed.

Lemma makePtr_slot slot sto t packed pos p : makePtr slot sto t packed pos = Some p -> (-32768 <= slot <= 32767)%Z.
Proof. unfold makePtr. intros H. apply guard_some in H as [H _]. lia. Qed.

Lemma arrayPtr slot sto t w n pos ap : packed_array t w n -> pos = 0 \/ pos + w * n <= 96 ->
  makePtr slot sto t (determinePackable t) pos = Some ap ->
  ap = mkPtr slot sto t (pf (w * n)) (base_pos t w n pos) (w * n) false.
Proof.
  intros H HP E. pose proof (makePtr_slot _ _ _ _ _ _ E) as HS.
  unfold determinePackable in E. rewrite (packable_array _ _ _ H) in E.
  rewrite (makePtr_packed _ _ _ _ (w * n)) in E; auto; try apply pf_packed; try (apply total_array; auto).
  2:{ destruct H as (_ & _ & _ & _ & ? & _). lia. }
  injection E as <-. unfold base_pos. f_equal.
  destruct (pos =? 0); auto. destruct H as (_ & _ & _ & _ & _ & HE & _). destruct (ty_enum t); auto. congruence.
Qed.

Lemma scalarPtr slot sto t w n base abs : packed_array t w n -> (-32768 <= slot <= 32767)%Z ->
  1 <= base -> base + w * n <= 96 ->
  makeScalarPtr (mkPtr slot sto t (pf (w * n)) base (w * n) abs) =
  Some (mkPtr slot sto (asScalar t) (pf (w * n)) base w abs).
Proof.
  intros H HS HB1 HB2. unfold makeScalarPtr. cbn [p_slot p_sto p_ty p_pos p_abs p_pack].
  rewrite guard_true by (unfold ATOM; lia).
  unfold determinePackable. rewrite (packable_array _ _ _ H).
  destruct (asScalar_array _ _ _ H) as (_ & HT & HE & _).
  assert (1 <= w /\ w <= w * n) as [] by (destruct H as (_ & _ & ? & ? & ? & _); nia).
  rewrite (makePtr_packed _ _ _ _ w) by (auto; try apply pf_packed; try (right; lia); lia).
  cbn [bind p_slot p_sto p_ty p_pos p_len p_pack]. replace (base =? 0) with false by lia. reflexivity.
Qed.

Lemma incr_item slotok slot sto t w m base abs i : isScalar t = true -> base + w * i < 256 ->
  incrementPtr slotok (mkPtr slot sto t (pf m) base w abs) (Z.of_N i) =
  Some (mkPtr slot sto t (pf m) (base + w * i) w abs, base + w * i <? 96).
Proof.
  intros HS H. unfold incrementPtr. cbn [p_ty p_pack p_pos p_len p_slot p_sto p_abs]. rewrite guard_true by auto.
  rewrite pf_write. rewrite Z.mod_small by lia.
  replace (Z.to_N (Z.of_N base + Z.of_N w * Z.of_N i)) with (base + w * i) by lia. reflexivity.
Qed.

(* ---- stores ---- *)
Lemma getImmediateData_ok t w d : ty_enum (v_ty d) = ty_enum t ->
  ty_enum t <> EAtom -> ty_enum t <> EPtr -> ty_enum t <> ENouti -> ty_enum t <> ENav -> ty_enum t <> EHzy ->
  w <= 32 -> getImmediateData w d = Some (bval (own_bits t w (v_bits d))).
Proof.
  intros HE H1 H2 H3 H4 H5 Hw. unfold getImmediateData, own_bits. rewrite guard_true by lia. rewrite HE.
  destruct (ty_enum t); try congruence; rewrite getData_ok by (unfold ATOM; lia); reflexivity.
Qed.

Lemma getImmediateDataLong_ok t w d : ty_enum (v_ty d) = ty_enum t ->
  ty_enum t <> EAtom -> ty_enum t <> EPtr -> ty_enum t <> ENouti -> ty_enum t <> ENav -> ty_enum t <> EHzy ->
  w <= 64 -> getImmediateDataLong w d = Some (bval (own_bits t w (v_bits d))).
Proof.
  intros HE H1 H2 H3 H4 H5 Hw. unfold getImmediateDataLong, own_bits. rewrite guard_true by lia. rewrite HE.
  destruct (ty_enum t); try congruence; rewrite getDataLong_ok by (unfold ATOM; lia); reflexivity.
Qed.

Lemma own_bits_msb t w a : w <= 71 -> msb_bits (N.to_nat w) (bval (own_bits t w a)) = own_bits t w a.
Proof. intros. unfold own_bits. apply field_bval. destruct (ty_enum t); lia. Qed.

Lemma own_bits_length t w a : w <= 71 -> length (own_bits t w a) = N.to_nat w.
Proof. intros. unfold own_bits. apply field_length. destruct (ty_enum t); lia. Qed.

(* any successful putByLen is a splice of len bits at pos *)
Lemma putByLen_splice p d a a' : putByLen p d a = Some a' ->
  p_pos p + p_len p <= 96 /\
  exists new, length new = N.to_nat (p_len p) /\ abits a' = splice (N.to_nat (p_pos p)) new (abits a).
Proof.
  unfold putByLen, getPtrLen, getPtrPos. intros H.
  apply bind_some in H as (len & HL & H). apply guard_some in HL as [HL E]. injection E as <-.
  apply bind_some in H as (pos & HP & H). apply guard_some in HP as [HP E]. injection E as <-.
  destruct (p_len p <=? 32).
  - apply bind_some in H as (v & _ & H). apply putData_inv in H as (A & B & C).
    split; auto. eexists. split; [|exact C]. apply msb_bits_length.
  - destruct (p_len p <=? 64).
    + apply bind_some in H as (v & _ & H). apply putDataLong_inv in H as (A & B & C).
      split; auto. eexists. split; [|exact C]. apply msb_bits_length.
    + destruct (p_len p <=? 71); [|discriminate].
      apply bind_some in H as (bv & _ & H). unfold putDataBig in H. apply guard_some in H as [HB E].
      injection E as <-. unfold ATOM in HB. split; [lia|]. unfold bv_copy.
      eexists. split; [|unfold abits; change 96%nat with (N.to_nat ATOM); apply bv_write_splice; unfold ATOM; lia].
      apply msb_bits_length.
Qed.

(* storing an item or a whole loadable array *)
Lemma putByLen_ok slot sto t t' pk pos w abs d a :
  ty_enum (v_ty d) = ty_enum t ->
  ty_enum t <> EAtom -> ty_enum t <> EPtr -> ty_enum t <> ENouti -> ty_enum t <> ENav -> ty_enum t <> EHzy ->
  w <= 64 -> pos + w <= 96 ->
  exists a', putByLen (mkPtr slot sto t' pk pos w abs) d a = Some a' /\
    abits a' = splice (N.to_nat pos) (own_bits t w (v_bits d)) (abits a).
Proof.
  intros HE H1 H2 H3 H4 H5 Hw HP. unfold putByLen, getPtrLen, getPtrPos. cbn [p_len p_pos].
  rewrite !guard_true by (unfold ATOM; lia). cbn [bind]. destruct (N.leb_spec w 32).
  - rewrite (getImmediateData_ok t w d) by auto. cbn [bind].
    destruct (putData_ok pos w (bval (own_bits t w (v_bits d))) a) as (a' & E & HB); try lia.
    exists a'. split; auto. rewrite HB, own_bits_msb by lia. reflexivity.
  - replace (w <=? 64) with true by lia.
    rewrite (getImmediateDataLong_ok t w d) by auto. cbn [bind].
    destruct (putDataLong_ok pos w (bval (own_bits t w (v_bits d))) a) as (a' & E & HB); try lia.
    exists a'. split; auto. rewrite HB, own_bits_msb by lia. reflexivity.
Qed.

Lemma put_item_ok slot sto t w n pos abs d a : packed_array t w n -> w <= 64 ->
  ty_enum (v_ty d) = ty_enum t -> pos + w <= 96 ->
  exists a', putDataIntoAtom (mkPtr slot sto (asScalar t) (pf (w * n)) pos w abs) d a = Some a' /\
    abits a' = splice (N.to_nat pos) (own_bits t w (v_bits d)) (abits a).
Proof.
  intros H Hw HE HP. destruct (asScalar_array _ _ _ H) as (HS & _).
  destruct (putByLen_ok slot sto t (asScalar t) (pf (w * n)) pos w abs d a) as (a' & E & HB);
    auto; try apply H.
  exists a'. split; auto. unfold putDataIntoAtom. cbn [p_pack p_ty].
  unfold pf in *. destruct (w * n <=? 64); auto.
  rewrite HS. cbn [negb]. rewrite (packable_item _ _ _ H Hw). cbn [packfit_eqb]. auto.
Qed.

(* items of a region after a splice of one item *)
Lemma items_after_store w n base i new a a' :
  abits a' = splice (N.to_nat (base + w * i)) new (abits a) -> length new = N.to_nat w ->
  i < n -> base + w * n <= 96 ->
  forall j, j < n -> item w j (field base (w * n) a') = if j =? i then new else item w j (field base (w * n) a).
Proof.
  intros E HL Hi HB j Hj.
  assert (j * w + w <= w * n) by nia. assert (i * w + w <= w * n) by nia.
  rewrite !item_field by lia. destruct (N.eqb_spec j i) as [->|NE].
  - replace (base + i * w) with (base + w * i) by lia. apply splice_field_same with (a := a); auto. lia.
  - apply outside_field with (pos := base + w * i) (len := w); [|lia|].
    + apply splice_outside with (new := new); auto. lia.
    + destruct (N.lt_ge_cases j i); [left|right]; nia.
Qed.

(* ---- loads ---- *)
Lemma getDataFromAtom_ok slot sto t pk pos w abs d :
  isScalar t = true -> holds_fields (v_ty d) = true -> w <= 32 -> pos + w <= 96 ->
  getDataFromAtom (mkPtr slot sto t pk pos w abs) d = Some (bval (field pos w (v_bits d))).
Proof.
  intros HS HF Hw HP. unfold getDataFromAtom, getPtrLen, getPtrPos. cbn [p_ty p_pack p_len p_pos].
  rewrite HS. cbn [orb]. cbn [bind guard]. rewrite guard_true by (unfold ATOM; lia). cbn [bind].
  rewrite guard_true by lia. rewrite guard_true by (unfold ATOM; lia). cbn [bind].
  unfold holds_fields in HF.
  destruct (WritePacked (determinePackable (v_ty d))); [apply getData_ok; auto|].
  destruct (ty_ct (v_ty d)), (ty_enum (v_ty d)); try discriminate HF; apply getData_ok; auto.
Qed.

Lemma getDataLongFromAtom_ok slot sto t pk pos w abs d :
  isScalar t = true -> holds_fields (v_ty d) = true -> w <= 64 -> pos + w <= 96 ->
  getDataLongFromAtom (mkPtr slot sto t pk pos w abs) d = Some (bval (field pos w (v_bits d))).
Proof.
  intros HS HF Hw HP. unfold getDataLongFromAtom, getPtrLen, getPtrPos. cbn [p_ty p_pack p_len p_pos].
  rewrite HS. cbn [orb]. cbn [bind guard]. rewrite guard_true by (unfold ATOM; lia). cbn [bind].
  rewrite guard_true by lia. rewrite guard_true by (unfold ATOM; lia). cbn [bind].
  unfold holds_fields in HF.
  destruct (WritePacked (determinePackable (v_ty d))); [apply getDataLong_ok; auto|].
  destruct (ty_ct (v_ty d)), (ty_enum (v_ty d)); try discriminate HF; apply getDataLong_ok; auto.
Qed.

Lemma makeImmediate_ok t w v : getTotalBitSize t = Z.of_N w -> w <= 32 ->
  exists r, makeImmediate t v = Some r /\ v_ty r = t /\ own_bits t w (v_bits r) = msb_bits (N.to_nat w) v.
Proof.
  intros HT Hw. unfold makeImmediate. rewrite HT. unfold zlen. replace (0 <=? Z.of_N w)%Z with true by lia.
  rewrite N2Z.id. cbn [bind]. unfold own_bits, makeImmediateClass, makeImmediate_len. unfold ATOM.
  destruct (ty_enum t);
  match goal with |- context [putData ?p w v 0] => 
    destruct (putData_ok p w v 0) as (a & E & HB); try lia end;
  rewrite guard_true by lia; rewrite E; cbn [bind]; eexists; (split; [reflexivity|]); cbn [v_ty v_bits]; split; auto;
  apply splice_field_same with (a := 0); auto; try apply msb_bits_length; lia.
Qed.

Lemma makeImmediateLong_ok t w v : getTotalBitSize t = Z.of_N w -> w <= 64 ->
  exists r, makeImmediateLong t v = Some r /\ v_ty r = t /\ own_bits t w (v_bits r) = msb_bits (N.to_nat w) v.
Proof.
  intros HT Hw. unfold makeImmediateLong. rewrite HT. unfold zlen. replace (0 <=? Z.of_N w)%Z with true by lia.
  rewrite N2Z.id. cbn [bind]. unfold own_bits, makeImmediateLongClass, makeImmediateLong_len. unfold ATOM.
  destruct (ty_enum t);
  match goal with |- context [putDataLong ?p w v 0] => 
    destruct (putDataLong_ok p w v 0) as (a & E & HB); try lia end;
  rewrite guard_true by lia; rewrite E; cbn [bind]; eexists; (split; [reflexivity|]); cbn [v_ty v_bits]; split; auto;
  apply splice_field_same with (a := 0); auto; try apply msb_bits_length; lia.
Qed.

Lemma getValAt_ok slotok slot sto t w n base abs i d :
  packed_array t w n -> w <= 64 -> (-32768 <= slot <= 32767)%Z -> 1 <= base -> base + w * n <= 96 ->
  holds_fields (v_ty d) = true -> i < n ->
  exists r, getValAt slotok (mkPtr slot sto t (pf (w * n)) base (w * n) abs) (Z.of_N i) d = Some r /\
    v_ty r = asScalar t /\ own_bits t w (v_bits r) = item w i (field base (w * n) (v_bits d)).
Proof.
  intros H Hw HS HB1 HB2 HF Hi. assert (i * w + w <= w * n) by nia. assert (1 <= w) by apply H.
  destruct (asScalar_array _ _ _ H) as (HSc & HT & HE & _).
  unfold getValAt. cbn [p_ty]. rewrite guard_true by (destruct H as (_ & -> & _); lia).
  rewrite (scalarPtr slot sto t w n base abs) by auto. cbn [bind].
  rewrite incr_item by (auto; lia). cbn [bind fst snd].
  rewrite guard_true by lia. cbv zeta. unfold getPtrLen. cbn [p_len p_ty].
  rewrite guard_true by (unfold ATOM; lia). cbn [bind].
  rewrite item_field by lia. replace (base + i * w) with (base + w * i) by lia.
  assert (own_bits t w = own_bits (asScalar t) w) as EO by (unfold own_bits; rewrite HE; reflexivity).
  rewrite EO. destruct (N.leb_spec w 32).
  - rewrite getDataFromAtom_ok by (auto; lia). cbn [bind].
    destruct (makeImmediate_ok (asScalar t) w (bval (field (base + w * i) w (v_bits d)))) as (r & E & A & B); auto.
    exists r. split; auto. split; auto. rewrite B. apply field_bval. lia.
  - replace (w <=? 64) with true by lia. rewrite getDataLongFromAtom_ok by (auto; lia). cbn [bind].
    destruct (makeImmediateLong_ok (asScalar t) w (bval (field (base + w * i) w (v_bits d)))) as (r & E & A & B); auto.
    exists r. split; auto. split; auto. rewrite B. apply field_bval. lia.
Qed.

(* ---- whole arrays ---- *)
Lemma getPacked_loop_ok slot sto t w n m base abs d : 
  isScalar t = true -> 1 <= w -> w <= 32 -> base + w * n <= 96 -> w * n <= 96 -> 
  forall fuel i r, i + N.of_nat fuel = n ->
  exists r', getPacked_loop fuel i n w m false (mkPtr slot sto t (pf (w*n)) (base + w * i) w abs) d r = Some r' /\
    abits r' = splice (N.to_nat (96 - w * (n - i))) (field (base + w * i) (w * (n - i)) d) (abits r).
Proof.
  intros HS Hw1 Hw HB Hwn. induction fuel as [|fuel IH]; intros i r Hi; cbn [getPacked_loop].
  - exists r. split; auto. replace (n - i) with 0 by lia. rewrite N.mul_0_r. unfold field, slice.
    change (N.to_nat 0) with 0%nat. cbn [firstn]. rewrite splice_nil. reflexivity.
  - assert (i < n) by lia. assert (w * i + w <= w * n) by nia. assert (w * (n - i) = w + w * (n - (i + 1))) as EW by nia.
    unfold getPtrLen, getPtrPos. cbn [p_len p_pos]. rewrite !guard_true by (unfold ATOM; lia). cbn [bind].
    replace (w <=? 32) with true by lia. rewrite getData_ok by lia. cbn [bind]. unfold ATOM.
    destruct (putData_ok (96 - w * (n - i)) w (bval (field (base + w * i) w d)) r) as (r1 & E & HR); [nia|auto|].
    rewrite E. cbn [bind]. rewrite (incr_item _ _ _ _ _ _ _ _ 1) by (auto; lia). cbn [bind fst].
    replace (base + w * i + w * 1) with (base + w * (i + 1)) by lia.
    destruct (IH (i + 1) r1 ltac:(lia)) as (r' & E' & HR').
    exists r'. split; auto. rewrite HR', HR, field_bval by lia.
    rewrite EW.
    assert (field (base + w * i) (w + w * (n - (i + 1))) d = field (base + w * i) w d ++ field (base + w * (i+1)) (w * (n - (i+1))) d) as ->.
    { unfold field. rewrite (N2Nat.inj_add w (w * (n - (i + 1)))). rewrite slice_app_split. do 2 f_equal. lia. }
    pose proof (splice_splice (N.to_nat (96 - (w + w * (n - (i + 1))))) (field (base + w * i) w d)
      (field (base + w * (i + 1)) (w * (n - (i + 1))) d) (abits r)) as SS.
    rewrite !field_length in SS by nia. rewrite abits_length in SS. rewrite <- SS by nia.
    f_equal. nia.
Qed.

Lemma putPacked_loop_ok slot sto t w n base abs d :
  isScalar t = true -> 1 <= w -> w <= 64 -> base + w * n <= 96 -> w * n <= 96 -> 
  forall fuel i a, i + N.of_nat fuel = n ->
  exists a', putPacked_loop fuel i n w (mkPtr slot sto t (pf (w * n)) (base + w * i) w abs) d a = Some a' /\
    abits a' = splice (N.to_nat (base + w * i)) (field (96 - w * (n - i)) (w * (n - i)) d) (abits a).
Proof.
  intros HS Hw1 Hw HB Hwn. induction fuel as [|fuel IH]; intros i a Hi; cbn [putPacked_loop].
  - exists a. split; auto. replace (n - i) with 0 by lia. rewrite N.mul_0_r. unfold field, slice.
    change (N.to_nat 0) with 0%nat. cbn [firstn]. rewrite splice_nil. reflexivity.
  - assert (i < n) by lia. assert (w * i + w <= w * n) by nia. assert (w * (n - i) = w + w * (n - (i + 1))) as EW by nia.
    unfold getPtrLen, getPtrPos. cbn [p_len p_pos]. rewrite !guard_true by (unfold ATOM; lia). cbn [bind]. cbv zeta.
    unfold ATOM.
    assert (exists a1, (if w <=? 32 then bind (getData (96 - w * (n - i)) w d) (fun v => putData (base + w * i) w v a)
       else if w <=? 64 then bind (getDataLong (96 - w * (n - i)) w d) (fun v => putDataLong (base + w * i) w v a)
       else Some a) = Some a1 /\ abits a1 = splice (N.to_nat (base + w * i)) (field (96 - w * (n - i)) w d) (abits a)) as (a1 & E & HA).
    { destruct (N.leb_spec w 32).
      - rewrite getData_ok by nia. cbn [bind].
        destruct (putData_ok (base + w * i) w (bval (field (96 - w * (n - i)) w d)) a) as (a1 & E & HA); [nia|auto|].
        exists a1. split; auto. rewrite HA, field_bval by nia. auto.
      - replace (w <=? 64) with true by lia. rewrite getDataLong_ok by nia. cbn [bind].
        destruct (putDataLong_ok (base + w * i) w (bval (field (96 - w * (n - i)) w d)) a) as (a1 & E & HA); [nia|auto|].
        exists a1. split; auto. rewrite HA, field_bval by nia. auto. }
    rewrite E. cbn [bind]. rewrite (incr_item _ _ _ _ _ _ _ _ 1) by (auto; lia). cbn [bind fst].
    replace (base + w * i + w * 1) with (base + w * (i + 1)) by lia.
    destruct (IH (i + 1) a1 ltac:(lia)) as (a' & E' & HA').
    exists a'. split; auto. rewrite HA', HA. rewrite EW.
    assert (field (96 - (w + w * (n - (i + 1)))) (w + w * (n - (i + 1))) d
       = field (96 - (w + w * (n - (i + 1)))) w d ++ field (96 - w * (n - (i+1))) (w * (n - (i+1))) d) as ->.
    { unfold field. rewrite (N2Nat.inj_add w (w * (n - (i + 1)))). rewrite slice_app_split. do 2 f_equal. nia. }
    pose proof (splice_splice (N.to_nat (base + w * i)) (field (96 - (w + w * (n - (i + 1)))) w d)
      (field (96 - w * (n - (i + 1))) (w * (n - (i + 1))) d) (abits a)) as SS.
    rewrite !field_length in SS by nia. rewrite abits_length in SS. rewrite <- SS by nia.
    f_equal. lia.
Qed.

Lemma getPackedArray_ok slot sto t w n base abs d :
  packed_array t w n -> w <= 32 \/ w * n <= 64 -> (-32768 <= slot <= 32767)%Z -> 1 <= base -> base + w * n <= 96 ->
  exists r, getPackedArrayDataFromAtom (mkPtr slot sto t (pf (w * n)) base (w * n) abs) d = Some r /\
    v_ty r = t /\ field (96 - w * n) (w * n) (v_bits r) = field base (w * n) (v_bits d).
Proof.
  intros H Hor HS HB1 HB2. pose proof H as (HB & HA & Hw & Hn & Hwn & _).
  unfold getPackedArrayDataFromAtom. cbn [p_ty p_pack]. unfold NONARRAYSIZE. rewrite HA.
  replace (Z.of_N n =? -1)%Z with false by lia. rewrite guard_true by lia. cbv zeta. rewrite N2Z.id.
  unfold zlen. rewrite HB. replace (0 <=? Z.of_N w)%Z with true by lia. rewrite N2Z.id. cbn [bind].
  unfold getPtrLen, getPtrPos. cbn [p_len p_pos]. rewrite !guard_true by (unfold ATOM; lia). cbn [bind].
  rewrite guard_true by lia. unfold pf at 1. destruct (N.leb_spec (w * n) 64).
  - destruct (N.leb_spec (w * n) 32).
    + rewrite getData_ok by lia. cbn [bind]. unfold ATOM.
      destruct (putData_ok (96 - w * n) (w * n) (bval (field base (w * n) (v_bits d))) 0) as (r & E & HR); try lia.
      rewrite E. cbn [bind]. eexists. split; [reflexivity|]. cbn [v_ty v_bits]. split; auto.
      rewrite field_bval in HR by lia. apply splice_field_same with (a := 0); auto; try lia. apply field_length; lia.
    + rewrite getDataLong_ok by lia. cbn [bind]. unfold ATOM.
      destruct (putDataLong_ok (96 - w * n) (w * n) (bval (field base (w * n) (v_bits d))) 0) as (r & E & HR); try lia.
      rewrite E. cbn [bind]. eexists. split; [reflexivity|]. cbn [v_ty v_bits]. split; auto.
      rewrite field_bval in HR by lia. apply splice_field_same with (a := 0); auto; try lia. apply field_length; lia.
  - rewrite (scalarPtr slot sto t w n base abs) by auto. cbn [bind].
    destruct (asScalar_array _ _ _ H) as (HSc & _).
    destruct (getPacked_loop_ok slot sto (asScalar t) w n (w * n) base abs (v_bits d) HSc) with (fuel := N.to_nat n) (i := 0) (r := 0)
      as (r & E & HR); try lia.
    rewrite N.mul_0_r, N.add_0_r in E. rewrite E. cbn [bind]. eexists. split; [reflexivity|]. cbn [v_ty v_bits]. split; auto.
    rewrite N.mul_0_r, N.add_0_r, N.sub_0_r in HR. apply splice_field_same with (a := 0); auto; try lia. apply field_length; lia.
Qed.

Lemma putPackedArray_ok slot sto t w n base abs d a :
  packed_array t w n -> w <= 64 -> 64 < w * n -> (-32768 <= slot <= 32767)%Z -> 1 <= base -> base + w * n <= 96 ->
  exists a', putDataIntoAtom (mkPtr slot sto t (pf (w * n)) base (w * n) abs) d a = Some a' /\
    abits a' = splice (N.to_nat base) (field (96 - w * n) (w * n) (v_bits d)) (abits a).
Proof.
  intros H Hw64 Hbig HS HB1 HB2. pose proof H as (HB & HA & Hw & Hn & Hwn & _).
  unfold putDataIntoAtom. cbn [p_pack p_ty]. unfold pf at 1. replace (w * n <=? 64) with false by lia.
  rewrite (not_scalar_array _ _ _ H). cbn [negb].
  unfold putPackedArrayDataIntoAtom. cbn [p_ty]. rewrite HA. rewrite guard_true by (unfold NONARRAYSIZE; lia).
  unfold zlen. rewrite HB. replace (0 <=? Z.of_N w)%Z with true by lia. rewrite N2Z.id. cbn [bind].
  rewrite (scalarPtr slot sto t w n base abs) by auto. cbn [bind].
  unfold getPtrLen. cbn [p_len]. rewrite !guard_true by (unfold ATOM; lia). cbn [bind]. rewrite guard_true by lia.
  cbv zeta. rewrite N2Z.id. destruct (asScalar_array _ _ _ H) as (HSc & _).
  destruct (putPacked_loop_ok slot sto (asScalar t) w n base abs (v_bits d) HSc) with (fuel := N.to_nat n) (i := 0) (a := a)
    as (r & E & HR); try lia.
  rewrite N.mul_0_r, N.add_0_r in E. exists r. split; auto.
  rewrite N.mul_0_r, N.add_0_r, N.sub_0_r in HR. auto.
Qed.

(* ---- default arrays ---- *)
Lemma small_bit v w b : v < 2 ^ w -> w <= b -> N.testbit v b = false.
Proof.
  intros H Hb. destruct (N.eq_dec v 0) as [->|]; [apply N.bits_0|].
  apply N.bits_above_log2. apply N.log2_lt_pow2 in H; lia.
Qed.

Lemma packedDefault_loop_ok w n dval : 1 <= w -> w * n <= 64 -> dval < 2 ^ w ->
  forall fuel j r, j + N.of_nat fuel = n -> 1 <= j -> 
  (forall b, b < w * n -> N.testbit r b = ((b / w =? 0) || (n - b / w <? j)) && N.testbit dval (b mod w)) ->
  (forall b, w * n <= b -> N.testbit r b = false) ->
  exists r', packedDefault_loop fuel j w (w * n) 0 dval r = Some r' /\
    (forall b, b < w * n -> N.testbit r' b = N.testbit dval (b mod w)) /\
    (forall b, w * n <= b -> N.testbit r' b = false).
Proof.
  intros Hw Hwn Hd. induction fuel as [|fuel IH]; intros j r Hj Hj1 HR HZ; cbn [packedDefault_loop].
  - exists r. split; auto. split; auto. intros b Hb. rewrite HR by auto.
    assert (b / w < n) by (apply N.div_lt_upper_bound; lia).
    replace ((b / w =? 0) || (n - b / w <? j)) with true; auto.
    clear HR. remember (b / w) as q eqn:Hq. clear Hq. destruct (N.eqb_spec q 0); cbn [orb]; auto. lia.
  - assert (j < n) by lia. assert (j * w + w <= w * n) by nia.
    assert (u32 (w * n + two32 - u32 (0 + j * w)) = (n - j) * w) as ->.
    { unfold u32, two32. rewrite (N.mod_small (0 + j * w)) by lia.
      replace (w * n + 4294967296 - (0 + j * w)) with ((n - j) * w + 1 * 4294967296) by nia.
      rewrite N.mod_add by lia. apply N.mod_small. nia. }
    cbv zeta. rewrite guard_true by nia. apply IH; try lia.
    + intros b Hb. rewrite N.lor_spec, HR by auto. unfold u64. change two64 with (2 ^ 64).
      rewrite N.mod_pow2_bits_low by lia.
      assert (b / w < n) by (apply N.div_lt_upper_bound; lia).
      pose proof (N.div_mod' b w) as DM. pose proof (N.mod_lt b w ltac:(lia)) as ML.
      destruct (N.eqb_spec (n - b / w) j) as [E|NE].
      * rewrite N.shiftl_spec_high' by nia. replace (b - (n - j) * w) with (b mod w) by nia.
        replace (n - b / w <? j + 1) with true by lia. rewrite orb_true_r. cbn [andb].
        destruct (N.testbit dval (b mod w)); rewrite ?andb_false_r, ?orb_true_r; reflexivity.
      * assert (N.testbit (N.shiftl dval ((n - j) * w)) b = false) as ->.
        { destruct (N.lt_ge_cases b ((n - j) * w)).
          - apply N.shiftl_spec_low; auto.
          - rewrite N.shiftl_spec_high' by auto. apply small_bit with (w := w); auto. nia. }
        rewrite orb_false_r. f_equal. f_equal. lia.
    + intros b Hb. rewrite N.lor_spec, HZ by auto. unfold u64. change two64 with (2 ^ 64).
      cbn [orb]. destruct (N.lt_ge_cases b 64).
      * rewrite N.mod_pow2_bits_low by lia. rewrite N.shiftl_spec_high' by nia. apply small_bit with (w := w); auto. nia.
      * apply N.mod_pow2_bits_high. auto.
Qed.

Lemma items_of_bits w n r dval : 1 <= w -> (forall b, b < w * n -> N.testbit r b = N.testbit dval (b mod w)) ->
  forall i, i < n -> item w i (msb_bits (N.to_nat (w * n)) r) = msb_bits (N.to_nat w) dval.
Proof.
  intros Hw HR i Hi. assert (i * w + w <= w * n) by nia. unfold item. apply list_nth_ext.
  - rewrite slice_length, msb_bits_length; auto. rewrite msb_bits_length. lia.
  - intros k Hk. rewrite slice_length in Hk by (rewrite msb_bits_length; lia).
    rewrite slice_nth, !msb_bits_nth by lia. rewrite HR by lia. f_equal.
    replace (N.of_nat (N.to_nat (w * n) - 1 - (N.to_nat (i * w) + k)))
      with ((w - 1 - N.of_nat k) + (n - i - 1) * w) by nia.
    rewrite N.mod_add by lia. rewrite N.mod_small by lia. lia.
Qed.

Lemma getDefaultAsPackedArray_ok t w n dval :
  ty_bits t = Z.of_N w -> ty_arr t = Z.of_N n -> 1 <= w -> 1 <= n -> w * n <= 64 -> dval < 2 ^ w ->
  exists r, getDefaultAsPackedArray t dval = Some r /\ r < 2 ^ (w * n) /\
    forall i, i < n -> item w i (msb_bits (N.to_nat (w * n)) r) = msb_bits (N.to_nat w) dval.
Proof.
  intros HB HA Hw Hn Hwn Hd. assert (w <= 64) by nia. assert (n <= 64) by nia. unfold getDefaultAsPackedArray.
  assert (forall r, (forall b, w * n <= b -> N.testbit r b = false) -> r < 2 ^ (w * n)) as HBD.
  { intros r Hr. destruct (N.eq_dec r 0) as [->|NZ]. { pose proof (N.pow_nonzero 2 (w * n)). lia. }
    apply N.log2_lt_pow2; [lia|]. destruct (N.lt_ge_cases (N.log2 r) (w * n)) as [|G]; auto.
    apply Hr in G. rewrite N.bit_log2 in G by auto. discriminate. }
  destruct (N.eqb_spec dval 0) as [->|NZ].
  - exists 0. split; auto. split. { apply HBD. intros. apply N.bits_0. }
    intros i Hi. apply items_of_bits with (n := n); auto; intros; rewrite !N.bits_0; auto.
  - unfold getDefaultAsPackedArray_at. replace (dval =? 0) with false by lia.
    assert (getTotalBitSize t = Z.of_N (w * n)) as ->.
    { unfold getTotalBitSize, NONARRAYSIZE, UNKNOWNSIZE. rewrite HA, HB.
      replace (Z.of_N n >? -1)%Z with true by lia. replace (Z.of_N w =? -2)%Z with false by lia.
      rewrite u32z_small; lia. }
    rewrite HA, HB. rewrite !u32z_small by lia. rewrite !N2Z.id. cbv zeta.
    replace (0 <? n) with true by lia.
    assert (N.land dval (GetNOnes64 w) = dval) as ->.
    { unfold GetNOnes64. replace (N.min w 64) with w by lia. rewrite N.land_ones. apply N.mod_small. auto. }
    destruct (packedDefault_loop_ok w n dval Hw Hwn Hd (N.to_nat (n - 1)) 1 dval) as (r & E & HR & HZ); try lia.
    + intros b Hb. assert (b / w < n) by (apply N.div_lt_upper_bound; lia).
      replace (n - b / w <? 1) with false by lia. rewrite orb_false_r.
      destruct (N.eqb_spec (b / w) 0) as [E0|NE]; cbn [andb].
      * apply N.div_small_iff in E0; [|lia]. rewrite N.mod_small by auto. auto.
      * apply small_bit with (w := w); auto. destruct (N.lt_ge_cases b w); auto. rewrite N.div_small in NE; lia.
    + intros b Hb. apply small_bit with (w := w); auto. nia.
    + exists r. split; auto. split; auto. apply items_of_bits; auto.
Qed.

Lemma bits8k_length a : length (bits8k a) = N.to_nat W8K.
Proof. apply msb_bits_length. Qed.

Opaque W8K.
Lemma defaultArray_loop_ok w tpos dval : w <= W8K ->
  forall fuel j darr, tpos + (j + N.of_nat fuel) * w <= W8K ->
  exists r, defaultArray_loop fuel j w tpos dval darr = Some r /\
    bits8k r = splice (N.to_nat (tpos + j * w)) (concat (repeat (slice 0 (N.to_nat w) (bits8k dval)) fuel)) (bits8k darr).
Proof.
  intros HW. induction fuel as [|fuel IH]; intros j darr H; cbn [defaultArray_loop].
  - exists darr. split; auto. cbn. rewrite splice_nil. auto.
  - rewrite guard_true by nia.
    destruct (IH (j + 1) (bv_copy W8K dval 0 (tpos + j * w) w W8K darr)) as (r & E & HR); [nia|].
    exists r. split; auto. rewrite HR. unfold bv_copy. unfold bits8k at 2. rewrite bv_write_splice by nia.
    rewrite bv_read_bits by nia. fold (bits8k dval) (bits8k darr). change (N.to_nat 0) with 0%nat.
    cbn [repeat concat].
    assert (length (slice 0 (N.to_nat w) (bits8k dval)) = N.to_nat w) as HL by (apply slice_length; rewrite bits8k_length; lia).
    pose proof (splice_splice (N.to_nat (tpos + j * w)) (slice 0 (N.to_nat w) (bits8k dval))
      (concat (repeat (slice 0 (N.to_nat w) (bits8k dval)) fuel)) (bits8k darr)) as SS.
    assert (length (concat (repeat (slice 0 (N.to_nat w) (bits8k dval)) fuel)) = (fuel * N.to_nat w)%nat) as HC.
    { clear -HL. induction fuel; cbn [repeat concat]; auto. rewrite app_length, IHfuel, HL. lia. }
    rewrite HL, HC, bits8k_length in SS. rewrite <- SS by nia. f_equal. lia.
Qed.
Transparent W8K.
