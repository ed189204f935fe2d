(* PrimProofs.v: lemmas on casts, limits and literals. *)
From Coq Require Import String List NArith ZArith Lia Bool.
From Coq Require Import ZifyBool ZifyNat ZifyN.
From Verif Require Import Base BitVec UTypeModel AtomModel AtomSpec AtomProofs PrimModel PrimSpec.
Import ListNotations.
Ltac Zify.zify_post_hook ::= Z.div_mod_to_equations.
Open Scope N_scope.

(* ---- numbers of bit lists ---- *)
Lemma count_msb n d : count (msb_bits n d) = Z.of_nat (popcount n d).
Proof.
  unfold count. f_equal. induction n; cbn [msb_bits popcount]; auto.
  destruct (N.testbit d (N.of_nat n)).
  - rewrite count_occ_cons_eq by reflexivity. rewrite IHn. reflexivity.
  - rewrite count_occ_cons_neq by discriminate. rewrite IHn. reflexivity.
Qed.

Lemma count_le l : (0 <= count l <= Z.of_nat (length l))%Z.
Proof. unfold count. pose proof (count_occ_bound bool_dec true l). lia. Qed.

Lemma zpow_pos (k : Z) : (0 <= k)%Z -> (0 < 2 ^ k)%Z.
Proof. intros. apply Z.pow_pos_nonneg; lia. Qed.

Lemma pow_half (n : Z) : (1 <= n)%Z -> (2 ^ n = 2 * 2 ^ (n - 1))%Z.
Proof. intros. rewrite <- Z.pow_succ_r by lia. f_equal. lia. Qed.

Lemma ofN_pow (n : N) : Z.of_N (2 ^ n) = (2 ^ Z.of_N n)%Z.
Proof. rewrite N2Z.inj_pow. reflexivity. Qed.

Lemma bval_msb_Z n d : Z.of_N (bval (msb_bits n d)) = (Z.of_N d mod 2 ^ Z.of_nat n)%Z.
Proof. rewrite bval_msb, N2Z.inj_mod, ofN_pow, nat_N_Z. reflexivity. Qed.

Lemma testbit_step d k : (Z.of_N d mod 2 ^ Z.of_nat (S k) =
   (if N.testbit d (N.of_nat k) then 2 ^ Z.of_nat k else 0) + Z.of_N d mod 2 ^ Z.of_nat k)%Z.
Proof.
  rewrite <- !bval_msb_Z. cbn [msb_bits]. rewrite bval_cons, msb_bits_length.
  rewrite N2Z.inj_add. f_equal. destruct (N.testbit d (N.of_nat k)).
  - rewrite N.mul_1_l, ofN_pow, nat_N_Z. reflexivity.
  - reflexivity.
Qed.

Lemma twos_msb n d : (1 <= n)%nat -> twos (msb_bits n d) = SignExtend (Z.of_N d) (Z.of_nat n).
Proof.
  intros Hn. destruct n as [|k]; [lia|]. cbn [msb_bits twos]. rewrite msb_bits_length, bval_msb_Z.
  unfold SignExtend. rewrite testbit_step. replace (Z.of_nat (S k) - 1)%Z with (Z.of_nat k) by lia.
  replace (2 ^ Z.of_nat (S k))%Z with (2 * 2 ^ Z.of_nat k)%Z
    by (rewrite (pow_half (Z.of_nat (S k))) by lia; do 2 f_equal; lia).
  pose proof (zpow_pos (Z.of_nat k) ltac:(lia)) as HP.
  pose proof (Z.mod_pos_bound (Z.of_N d) _ HP) as HM.
  set (m := (Z.of_N d mod 2 ^ Z.of_nat k)%Z) in *. set (p := (2 ^ Z.of_nat k)%Z) in *. clearbody m p.
  destruct (N.testbit d (N.of_nat k)); cbv zeta.
  - replace (p + m <? p)%Z with false by lia. lia.
  - replace (0 + m <? p)%Z with true by lia. lia.
Qed.

Lemma ext_val_meaning e n d : primitive e -> 1 <= n ->
  ext_val e (Z.of_N n) d = meaning e (msb_bits (N.to_nat n) d).
Proof.
  intros HP Hn. unfold ext_val, meaning.
  destruct HP as [[-> | [-> | ->]] | [-> | ->]].
  - rewrite twos_msb by lia. rewrite N_nat_Z. reflexivity.
  - rewrite bval_msb_Z, N_nat_Z. reflexivity.
  - rewrite count_msb. f_equal. f_equal. lia.
  - rewrite count_msb, msb_bits_length, N_nat_Z. replace (Z.to_nat (Z.of_N n)) with (N.to_nat n) by lia. reflexivity.
  - rewrite bval_msb_Z, N_nat_Z. reflexivity.
Qed.

(* ---- ranges ---- *)
Definition lo (e : etype) (n : N) : Z := match e with EInt => (- 2 ^ (Z.of_N n - 1))%Z | _ => 0%Z end.
Definition hi (e : etype) (n : N) : Z :=
  match e with
  | EInt => (2 ^ (Z.of_N n - 1) - 1)%Z
  | EUnary => Z.of_N n
  | EBool => 1%Z
  | _ => (2 ^ Z.of_N n - 1)%Z
  end.

Lemma bval_lt_Z l : (0 <= Z.of_N (bval l) < 2 ^ Z.of_nat (length l))%Z.
Proof. pose proof (bval_lt l). split; [lia|]. rewrite <- nat_N_Z, <- ofN_pow. lia. Qed.

Lemma meaning_range e n l : primitive e -> 1 <= n -> length l = N.to_nat n -> (lo e n <= meaning e l <= hi e n)%Z.
Proof.
  intros HP Hn HL. unfold lo, hi, meaning. pose proof (count_le l) as HC. pose proof (bval_lt_Z l) as HB.
  assert (2 ^ Z.of_nat (length l) = 2 ^ Z.of_N n)%Z as HE by (f_equal; lia).
  destruct HP as [[-> | [-> | ->]] | [-> | ->]]; try lia.
  - destruct l as [|b r]; [cbn in HL; lia|]. cbn [twos]. cbn [length] in HL.
    pose proof (bval_lt_Z r) as HR. replace (Z.of_nat (length r)) with (Z.of_N n - 1)%Z in * by lia.
    destruct b; lia.
  - destruct (Z.of_nat (length l) <? 2 * count l)%Z; lia.
Qed.

Lemma popcount_mono n k : (k <= n)%nat -> popcount n (N.ones (N.of_nat k)) = k.
Proof.
  revert k. induction n; intros k H; cbn [popcount]; [lia|].
  destruct (Nat.eq_dec k (S n)) as [->|].
  - rewrite N.ones_spec_low by lia.
    assert (popcount n (N.ones (N.of_nat (S n))) = n) as ->; [|reflexivity].
    clear. assert (forall m j, (j <= m)%nat -> popcount j (N.ones (N.of_nat m)) = j) as HH.
    { intros m j. induction j; intros; cbn [popcount]; auto. rewrite N.ones_spec_low by lia. rewrite IHj by lia. reflexivity. }
    apply HH. lia.
  - rewrite N.ones_spec_high by lia. rewrite IHn by lia. reflexivity.
Qed.

Lemma GetNOnes_ones k : (0 <= k)%Z -> Z.to_N (GetNOnes k) = N.ones (Z.to_N k).
Proof.
  intros. unfold GetNOnes. rewrite N.ones_equiv. rewrite <- N.sub_1_r.
  rewrite Z2N.inj_sub by lia. change (Z.to_N 1) with 1. f_equal.
  rewrite Z2N.inj_pow by lia. reflexivity.
Qed.

Lemma clamp_range a b z : (a <= b)%Z -> (a <= clamp a b z <= b)%Z.
Proof. unfold clamp. destruct (z <? a)%Z eqn:?; [lia|]. destruct (z >? b)%Z eqn:?; lia. Qed.

Lemma clamp_id a b z : (a <= z <= b)%Z -> clamp a b z = z.
Proof. unfold clamp. intros. replace (z <? a)%Z with false by lia. replace (z >? b)%Z with false by lia. reflexivity. Qed.

Lemma hi_lo e n : 1 <= n -> (lo e n <= hi e n)%Z.
Proof.
  intros. unfold lo, hi. pose proof (zpow_pos (Z.of_N n) ltac:(lia)). pose proof (zpow_pos (Z.of_N n - 1) ltac:(lia)).
  destruct e; lia.
Qed.

Lemma ext_enc_meaning e n z : arith e -> 1 <= n ->
  meaning e (msb_bits (N.to_nat n) (ext_enc e (Z.of_N n) z)) = clamp (lo e n) (hi e n) z.
Proof.
  intros HA Hn. rewrite <- ext_val_meaning by (try left; auto).
  pose proof (hi_lo e n Hn) as HLH. pose proof (clamp_range _ _ z HLH) as HR.
  assert (2 ^ Z.of_N n = 2 * 2 ^ (Z.of_N n - 1))%Z as H2 by (apply pow_half; lia).
  pose proof (zpow_pos (Z.of_N n - 1) ltac:(lia)) as HP.
  destruct HA as [-> | [-> | ->]]; unfold ext_enc, ext_val, lo, hi in *.
  - set (c := clamp _ _ z) in *. clearbody c. unfold SignExtend.
    rewrite Z2N.id by (apply Z.mod_pos_bound; lia). rewrite Z.mod_mod by lia.
    set (p := (2 ^ (Z.of_N n - 1))%Z) in *. rewrite H2 in *. clearbody p.
    destruct (Z.ltb_spec c 0).
    + assert (c mod (2 * p) = c + 2 * p)%Z as -> by (symmetry; apply Z.mod_unique with (q := (-1)%Z); lia).
      replace (c + 2 * p <? p)%Z with false by lia. lia.
    + rewrite Z.mod_small by lia. replace (c <? p)%Z with true by lia. reflexivity.
  - set (c := clamp _ _ z) in *. clearbody c. rewrite Z2N.id by lia. apply Z.mod_small. lia.
  - set (c := clamp _ _ z) in *. clearbody c. rewrite GetNOnes_ones by lia.
    replace (Z.to_N c) with (N.of_nat (Z.to_nat c)) by lia. rewrite popcount_mono by lia. lia.
Qed.

Lemma ext_enc_bool n z : 1 <= n ->
  meaning EBool (msb_bits (N.to_nat n) (ext_enc EBool (Z.of_N n) z)) = (if z =? 0 then 0 else 1)%Z.
Proof.
  intros Hn. rewrite <- ext_val_meaning by (try right; auto). unfold ext_enc, ext_val.
  destruct (z =? 0)%Z.
  - assert (forall k, popcount k 0 = 0%nat) as -> by (induction k; cbn [popcount]; auto; rewrite N.bits_0; auto).
    replace (Z.of_N n <? 2 * Z.of_nat 0)%Z with false by lia. reflexivity.
  - rewrite GetNOnes_ones by lia. replace (Z.to_N (Z.of_N n)) with (N.of_nat (Z.to_nat (Z.of_N n))) by lia.
    rewrite popcount_mono by lia. replace (Z.of_N n <? 2 * Z.of_nat (Z.to_nat (Z.of_N n)))%Z with true by lia. reflexivity.
Qed.

Lemma representable_iff e n z : arith e -> 1 <= n -> representable e n z <-> (lo e n <= z <= hi e n)%Z.
Proof.
  intros HA Hn. split.
  - intros (l & HL & <-). apply meaning_range; auto. left; auto.
  - intros H. exists (msb_bits (N.to_nat n) (ext_enc e (Z.of_N n) z)). split; [apply msb_bits_length|].
    rewrite ext_enc_meaning by auto. apply clamp_id. auto.
Qed.

(* ---- the cast ---- *)
Lemma scalar_facts e n t : scalar_of e n t -> isScalar t = true /\ isComplete t = true /\ getTotalBitSize t = Z.of_N n /\
  isAltRefType t = false /\ getTotalWordSize t = (if (n <=? 32)%N then 32 else 64)%Z.
Proof.
  intros (HE & HB & HA & HR & Hn). unfold isScalar, isComplete, isAltRefType.
  assert (getTotalBitSize t = Z.of_N n) as HT.
  { unfold getTotalBitSize. rewrite HB, HA. unfold NONARRAYSIZE, UNKNOWNSIZE.
    replace (-1 >? -1)%Z with false by lia. replace (Z.of_N n =? -2)%Z with false by lia. rewrite u32z_small; lia. }
  rewrite HB, HA, HR. unfold NONARRAYSIZE, UNKNOWNSIZE. repeat split; auto; try lia.
  - unfold getTotalWordSize. rewrite HT, HB. replace (Z.of_N n <=? 64)%Z with true by lia.
    assert (calcWordSize (Z.of_N n) = if n <=? 32 then 32%Z else 64%Z) as HW.
    { unfold calcWordSize, MAXBITSPERINT. destruct (n <=? 32) eqn:?; destruct (Z.of_N n mod 32 >? 0)%Z eqn:?; lia. }
    destruct (ty_enum t); exact HW.
Qed.

Lemma prim_safe_clear e n t e' n' t' : scalar_of e n t -> scalar_of e' n' t' -> prim_safeCast t t' = CAST_CLEAR.
Proof.
  intros H H'. destruct (scalar_facts _ _ _ H) as (HS & HC & _ & HR & _). destruct (scalar_facts _ _ _ H') as (HS' & HC' & _ & HR' & _).
  unfold prim_safeCast, base_safeCast, checkArrayCast. rewrite HC, HC', HS, HS', HR. cbn.
  destruct H' as (_ & _ & _ & HF & _). rewrite HF. reflexivity.
Qed.

Lemma prim_enum e : primitive e -> e <> EAtom /\ e <> EPtr /\ e <> ENouti /\ e <> ENav /\ e <> EHzy /\ e <> EClass.
Proof. intros [[-> | [-> | ->]] | [-> | ->]]; repeat split; discriminate. Qed.

Lemma valData_ok e n v : primitive e -> scalar_of e n (v_ty v) -> n <= 32 ->
  valData v = Some (bval (own_bits (v_ty v) n (v_bits v))).
Proof.
  intros HP (HE & HB & HA & HR & Hn) H32. destruct (prim_enum _ HP) as (H1 & H2 & H3 & H4 & H5 & H6).
  unfold valData, zlen. rewrite HB. replace (0 <=? Z.of_N n)%Z with true by lia. rewrite N2Z.id. cbn [bind].
  replace (n =? 0) with false by lia. apply getImmediateData_ok; rewrite ?HE; auto.
Qed.

Lemma valDataLong_ok e n v : primitive e -> scalar_of e n (v_ty v) ->
  valDataLong v = Some (bval (own_bits (v_ty v) n (v_bits v))).
Proof.
  intros HP (HE & HB & HA & HR & Hn). destruct (prim_enum _ HP) as (H1 & H2 & H3 & H4 & H5 & H6).
  unfold valDataLong, zlen. rewrite HB. replace (0 <=? Z.of_N n)%Z with true by lia. rewrite N2Z.id. cbn [bind].
  replace (n =? 0) with false by lia. apply getImmediateDataLong_ok; rewrite ?HE; auto; lia.
Qed.

Lemma makeImmediate_prim e n t s : primitive e -> scalar_of e n t -> n <= 32 ->
  exists r, makeImmediate t (u32 s) = Some r /\ v_ty r = t /\ own_bits t n (v_bits r) = msb_bits (N.to_nat n) s.
Proof.
  intros HP H H32. destruct (scalar_facts _ _ _ H) as (_ & _ & HT & _).
  destruct H as (HE & _). destruct (prim_enum _ HP) as (H1 & H2 & H3 & H4 & H5 & H6).
  unfold makeImmediate, zlen. rewrite HT. replace (0 <=? Z.of_N n)%Z with true by lia. rewrite N2Z.id. cbn [bind].
  assert (match ty_enum t with EClass => makeImmediateClass t (u32 s) n | _ => makeImmediate_len t (u32 s) n end =
          makeImmediate_len t (u32 s) n) as -> by (rewrite HE; destruct e; auto; congruence).
  unfold makeImmediate_len. rewrite guard_true by lia.
  destruct (putData_ok (ATOM - n) n (u32 s) 0) as (a' & -> & HA); try (unfold ATOM; lia). cbn [bind].
  eexists. split; [reflexivity|]. split; [reflexivity|]. cbn [v_bits]. unfold own_bits.
  replace (match ty_enum t with EClass => 25 | _ => 96 - n end) with (ATOM - n)
    by (rewrite HE; destruct e; auto; congruence).
  rewrite <- (msb_u32 (N.to_nat n) s) by lia.
  apply splice_field_same with (a := 0); auto; try (unfold ATOM; lia). rewrite msb_bits_length. reflexivity.
Qed.

Lemma makeImmediateLong_prim e n t s : primitive e -> scalar_of e n t ->
  exists r, makeImmediateLong t (u64 s) = Some r /\ v_ty r = t /\ own_bits t n (v_bits r) = msb_bits (N.to_nat n) s.
Proof.
  intros HP H. destruct (scalar_facts _ _ _ H) as (_ & _ & HT & _).
  destruct H as (HE & _ & _ & _ & Hn). destruct (prim_enum _ HP) as (H1 & H2 & H3 & H4 & H5 & H6).
  unfold makeImmediateLong, zlen. rewrite HT. replace (0 <=? Z.of_N n)%Z with true by lia. rewrite N2Z.id. cbn [bind].
  assert (match ty_enum t with EClass => makeImmediateLongClass t (u64 s) n | _ => makeImmediateLong_len t (u64 s) n end =
          makeImmediateLong_len t (u64 s) n) as -> by (rewrite HE; destruct e; auto; congruence).
  unfold makeImmediateLong_len. rewrite guard_true by lia.
  destruct (putDataLong_ok (ATOM - n) n (u64 s) 0) as (a' & -> & HA); try (unfold ATOM; lia). cbn [bind].
  eexists. split; [reflexivity|]. split; [reflexivity|]. cbn [v_bits]. unfold own_bits.
  replace (match ty_enum t with EClass => 25 | _ => 96 - n end) with (ATOM - n)
    by (rewrite HE; destruct e; auto; congruence).
  rewrite <- (msb_u64 (N.to_nat n) s) by lia.
  apply splice_field_same with (a := 0); auto; try (unfold ATOM; lia). rewrite msb_bits_length. reflexivity.
Qed.

Lemma own_bits_len t n a : n <= 64 -> length (own_bits t n a) = N.to_nat n.
Proof. intros. apply own_bits_length. lia. Qed.

(* the cast writes the converted bits *)
Lemma cast_conv e n t e' n' v s : primitive e -> primitive e' -> scalar_of e n t -> scalar_of e' n' (v_ty v) ->
  conv e e' (bval (own_bits (v_ty v) n' (v_bits v))) (Z.of_N n') (Z.of_N n) = Some s ->
  exists r, cast t v = CastVal r /\ v_ty r = t /\ own_bits t n (v_bits r) = msb_bits (N.to_nat n) s.
Proof.
  intros HP HP' H H' HC. unfold cast. rewrite (prim_safe_clear _ _ _ _ _ _ H H').
  destruct (scalar_facts _ _ _ H) as (_ & _ & _ & _ & HW).
  destruct (scalar_facts _ _ _ H') as (_ & _ & _ & _ & HW').
  pose proof H as (HE & HB & _ & _ & Hn). pose proof H' as (HE' & HB' & _ & _ & Hn').
  assert (Hlong : forall d, d = bval (own_bits (v_ty v) n' (v_bits v)) ->
    exists r, (match conv (ty_enum t) (ty_enum (v_ty v)) d (ty_bits (v_ty v)) (ty_bits t) with
              | None => CastFalse
              | Some s =>
                match ty_enum t with
                | EBits => fin (makeImmediateLong t (u64 s))
                | _ => if (getTotalWordSize t <=? 32)%Z then fin (makeImmediate t (u32 s))
                       else if (getTotalWordSize t <=? 64)%Z then fin (makeImmediateLong t (u64 s))
                       else CastAbort
                end
              end) = CastVal r /\ v_ty r = t /\ own_bits t n (v_bits r) = msb_bits (N.to_nat n) s).
  { intros d ->. rewrite HE, HE', HB, HB', HC.
    destruct (makeImmediateLong_prim e n t s HP H) as (r & Er & Hr).
    destruct (n <=? 32) eqn:En.
    - destruct (makeImmediate_prim e n t s HP H) as (r2 & Er2 & Hr2); [lia|].
      rewrite HW. change (32 <=? 32)%Z with true. cbv iota.
      destruct e; rewrite ?Er, ?Er2; cbn [fin]; eauto; eexists; split; eauto.
    - rewrite HW. change (64 <=? 32)%Z with false. change (64 <=? 64)%Z with true. cbv iota.
      destruct e; rewrite ?Er; cbn [fin]; eauto. }
  unfold castTo32, castTo64. rewrite HW, HW'.
  destruct (n <=? 32) eqn:En; destruct (n' <=? 32) eqn:En';
    change (32 <=? 32)%Z with true; change (64 <=? 32)%Z with false; change (64 <=? 64)%Z with true; cbv iota zeta.
  - rewrite (valData_ok e' n' v HP' H') by lia. rewrite HE, HE', HB, HB', HC.
    destruct (makeImmediate_prim e n t s HP H) as (r2 & Er2 & Hr2); [lia|]. rewrite Er2. cbn [fin]. eauto.
  - rewrite (valDataLong_ok e' n' v HP' H'). rewrite HW in Hlong. apply Hlong. reflexivity.
  - rewrite (valData_ok e' n' v HP' H') by lia. rewrite HW in Hlong. apply Hlong. reflexivity.
  - rewrite (valDataLong_ok e' n' v HP' H'). rewrite HW in Hlong. apply Hlong. reflexivity.
Qed.

Definition calc (e : etype) : Prop := arith e \/ e = EBool.

Lemma conv_calc e e' d fb tb : calc e -> calc e' -> conv e e' d fb tb = Some (ext_enc e tb (ext_val e' fb d)).
Proof. intros [[-> | [-> | ->]] | ->] [[-> | [-> | ->]] | ->]; reflexivity. Qed.

Lemma calc_prim e : calc e -> primitive e.
Proof. intros [H | H]; [left | right; left]; auto. Qed.

(* a cast between arithmetic types and Bool writes the number, brought into range *)
Lemma cast_number e n t e' n' v : calc e -> calc e' -> scalar_of e n t -> scalar_of e' n' (v_ty v) ->
  exists r, cast t v = CastVal r /\ v_ty r = t /\
    own_bits t n (v_bits r) = msb_bits (N.to_nat n) (ext_enc e (Z.of_N n) (number e' n' v)).
Proof.
  intros HC HC' H H'. pose proof H' as (_ & _ & _ & _ & Hn').
  apply cast_conv with (e := e) (e' := e') (n' := n'); auto using calc_prim.
  rewrite conv_calc by auto. rewrite ext_val_meaning by (auto using calc_prim; lia).
  rewrite own_bits_msb by lia. reflexivity.
Qed.

Lemma cast_arith e n t e' n' v : arith e -> calc e' -> scalar_of e n t -> scalar_of e' n' (v_ty v) ->
  exists r, cast t v = CastVal r /\ v_ty r = t /\ number e n r = clamp (lo e n) (hi e n) (number e' n' v).
Proof.
  intros HA HC H H'. destruct (cast_number e n t e' n' v) as (r & E & HT & HO); auto; [left; auto|].
  exists r. split; auto. split; auto. unfold number at 1. rewrite HT, HO.
  pose proof H as (_ & _ & _ & _ & Hn). apply ext_enc_meaning; auto; lia.
Qed.

Lemma number_range e n v : primitive e -> scalar_of e n (v_ty v) -> (lo e n <= number e n v <= hi e n)%Z.
Proof.
  intros HP (_ & _ & _ & _ & Hn). apply meaning_range; auto; try lia. apply own_bits_len. lia.
Qed.

(* ---- literals ---- *)
Lemma low_bits_32 t n x : ty_enum t <> EClass -> n <= 32 -> msb_bits (N.to_nat n) (bval (field (ATOM - 32) 32 x)) = own_bits t n x.
Proof.
  intros HE Hn. unfold own_bits. replace (match ty_enum t with EClass => 25 | _ => 96 - n end) with (96 - n)
    by (destruct (ty_enum t); auto; congruence).
  replace (96 - n) with (ATOM - 32 + (32 - n)) by (unfold ATOM; lia).
  rewrite <- field_sub with (len := 32) by lia.
  rewrite <- (field_bval (ATOM - 32) 32 x) at 2 by (unfold ATOM; lia).
  rewrite slice_msb by lia. replace (N.to_nat 32 - (N.to_nat (32 - n) + N.to_nat n))%nat with 0%nat by lia.
  cbn [N.of_nat]. rewrite N.shiftr_0_r. reflexivity.
Qed.

Lemma low_bits_64 t n x : ty_enum t <> EClass -> n <= 64 -> msb_bits (N.to_nat n) (bval (field (ATOM - 64) 64 x)) = own_bits t n x.
Proof.
  intros HE Hn. unfold own_bits. replace (match ty_enum t with EClass => 25 | _ => 96 - n end) with (96 - n)
    by (destruct (ty_enum t); auto; congruence).
  replace (96 - n) with (ATOM - 64 + (64 - n)) by (unfold ATOM; lia).
  rewrite <- field_sub with (len := 64) by lia.
  rewrite <- (field_bval (ATOM - 64) 64 x) at 2 by (unfold ATOM; lia).
  rewrite slice_msb by lia. replace (N.to_nat 64 - (N.to_nat (64 - n) + N.to_nat n))%nat with 0%nat by lia.
  cbn [N.of_nat]. rewrite N.shiftr_0_r. reflexivity.
Qed.

Lemma roundtrip_casts e n t e' n' dest uv : arith e -> arith e' -> scalar_of e n t -> scalar_of e' n' dest ->
  v_ty uv = t -> exists r1 r2, cast dest uv = CastVal r1 /\ cast t r1 = CastVal r2 /\ v_ty r2 = t /\
    number e n r2 = clamp (lo e n) (hi e n) (clamp (lo e' n') (hi e' n') (number e n uv)).
Proof.
  intros HA HA' H H' HT.
  destruct (cast_arith e' n' dest e n uv HA' (or_introl HA) H') as (r1 & E1 & T1 & N1); [rewrite HT; auto|].
  destruct (cast_arith e n t e' n' r1 HA (or_introl HA') H) as (r2 & E2 & T2 & N2); [rewrite T1; auto|].
  exists r1, r2. repeat split; auto. rewrite N2, N1. reflexivity.
Qed.

Lemma clamp_clamp e n e' n' z : arith e -> arith e' -> 1 <= n -> 1 <= n' -> (lo e n <= z <= hi e n)%Z ->
  clamp (lo e n) (hi e n) (clamp (lo e' n') (hi e' n') z) = z <-> (lo e' n' <= z <= hi e' n')%Z.
Proof.
  intros HA HA' Hn Hn' HZ.
  assert (forall f m, arith f -> 1 <= m -> (lo f m <= 0)%Z /\ (0 <= hi f m)%Z) as HB.
  { intros f m Hf Hm. unfold lo, hi. pose proof (zpow_pos (Z.of_N m) ltac:(lia)). pose proof (zpow_pos (Z.of_N m - 1) ltac:(lia)).
    destruct Hf as [-> | [-> | ->]]; lia. }
  destruct (HB _ _ HA Hn). destruct (HB _ _ HA' Hn').
  unfold clamp.
  destruct (z <? lo e' n')%Z eqn:A1; [|destruct (z >? hi e' n')%Z eqn:A2].
  - replace (lo e' n' <? lo e n)%Z with false by lia. destruct (lo e' n' >? hi e n)%Z eqn:?; lia.
  - destruct (hi e' n' <? lo e n)%Z eqn:?; [lia|]. destruct (hi e' n' >? hi e n)%Z eqn:?; lia.
  - replace (z <? lo e n)%Z with false by lia. replace (z >? hi e n)%Z with false by lia. lia.
Qed.

Lemma fits32 e n t e' n' dest d : arith e -> arith e' -> scalar_of e n t -> scalar_of e' n' dest -> n <= 32 ->
  exists x, convertForthAndBack t d dest = Some (Some x) /\
    (cmpEq e (Z.of_N n) d x = true <-> (lo e' n' <= meaning e (msb_bits (N.to_nat n) d) <= hi e' n')%Z).
Proof.
  intros HA HA' H H' Hn. pose proof H as (HE & _ & _ & _ & Hn1). pose proof H' as (_ & _ & _ & _ & Hn1').
  assert (primitive e) as HP by (left; auto). destruct (prim_enum _ HP) as (P1 & P2 & P3 & P4 & P5 & P6).
  unfold convertForthAndBack, makeTerminalValue.
  destruct (makeImmediate_prim e n t d HP H Hn) as (uv & -> & HT & HO). cbn [bind].
  destruct (roundtrip_casts e n t e' n' dest uv HA HA' H H' HT) as (r1 & r2 & -> & -> & HT2 & HN2).
  assert (number e n uv = meaning e (msb_bits (N.to_nat n) d)) as HNU by (unfold number; rewrite HT, HO; reflexivity).
  unfold getImmediateData. rewrite guard_true by lia. rewrite HT2, HE.
  assert (match e with EAtom | EPtr | ENouti | ENav | EHzy => None | EClass => getData 25 32 (v_bits r2)
          | _ => getData (ATOM - 32) 32 (v_bits r2) end = getData (ATOM - 32) 32 (v_bits r2)) as ->
    by (destruct HA as [-> | [-> | ->]]; reflexivity).
  rewrite getData_ok by (unfold ATOM; lia). cbn [bind].
  eexists. split; [reflexivity|]. unfold cmpEq. rewrite Z.eqb_eq.
  rewrite !ext_val_meaning by (auto; lia). rewrite (low_bits_32 t) by (auto; congruence).
  rewrite <- HT2 at 1. change (meaning e (own_bits (v_ty r2) n (v_bits r2))) with (number e n r2). rewrite HN2, HNU.
  rewrite <- (clamp_clamp e n e' n') by (auto; try lia; apply meaning_range; auto; try lia; apply msb_bits_length).
  split; intros E; symmetry; exact E.
Qed.

Lemma fits64 e n t e' n' dest d : arith e -> arith e' -> scalar_of e n t -> scalar_of e' n' dest ->
  exists x, convertForthAndBackLong t d dest = Some (Some x) /\
    (cmpEq e (Z.of_N n) d x = true <-> (lo e' n' <= meaning e (msb_bits (N.to_nat n) d) <= hi e' n')%Z).
Proof.
  intros HA HA' H H'. pose proof H as (HE & _ & _ & _ & Hn1). pose proof H' as (_ & _ & _ & _ & Hn1').
  assert (primitive e) as HP by (left; auto). destruct (prim_enum _ HP) as (P1 & P2 & P3 & P4 & P5 & P6).
  unfold convertForthAndBackLong, makeTerminalValueLong.
  destruct (makeImmediateLong_prim e n t d HP H) as (uv & -> & HT & HO). cbn [bind].
  destruct (roundtrip_casts e n t e' n' dest uv HA HA' H H' HT) as (r1 & r2 & -> & -> & HT2 & HN2).
  assert (number e n uv = meaning e (msb_bits (N.to_nat n) d)) as HNU by (unfold number; rewrite HT, HO; reflexivity).
  assert (getImmediateDataLong1 64 r2 = getDataLong (ATOM - 64) 64 (v_bits r2)) as ->.
  { unfold getImmediateDataLong1. rewrite HT2, HE. destruct HA as [-> | [-> | ->]]; reflexivity. }
  rewrite getDataLong_ok by (unfold ATOM; lia). cbn [bind].
  eexists. split; [reflexivity|]. unfold cmpEq. rewrite Z.eqb_eq.
  rewrite !ext_val_meaning by (auto; lia). rewrite (low_bits_64 t) by (auto; try lia; congruence).
  rewrite <- HT2 at 1. change (meaning e (own_bits (v_ty r2) n (v_bits r2))) with (number e n r2). rewrite HN2, HNU.
  rewrite <- (clamp_clamp e n e' n') by (auto; try lia; apply meaning_range; auto; try lia; apply msb_bits_length).
  split; intros E; symmetry; exact E.
Qed.

(* the value compared is that of the literal's own bits *)
Definition justified (e : etype) (n : Z) (d : N) : N :=
  match e with EUnary => ext_enc EUnary n (ext_val EUnary n d) | _ => d end.

Lemma justified_meaning e n d : arith e -> 1 <= n ->
  meaning e (msb_bits (N.to_nat n) (justified e (Z.of_N n) d)) = meaning e (msb_bits (N.to_nat n) d).
Proof.
  intros HA Hn. assert (arith EUnary) as HU by (right; right; auto). destruct HA as [-> | [-> | ->]]; auto.
  unfold justified. rewrite ext_enc_meaning, ext_val_meaning by (auto; left; auto).
  apply clamp_id. apply meaning_range; auto; [left; auto | apply msb_bits_length].
Qed.

Lemma fitsInBits_arith e n t e' n' dest c : arith e -> arith e' -> scalar_of e n t -> scalar_of e' n' dest ->
  exists b, fitsInBits t c dest = Some b /\
    (b = true <-> (lo e' n' <= meaning e (msb_bits (N.to_nat n) c) <= hi e' n')%Z).
Proof.
  intros HA HA' H H'. unfold fitsInBits.
  destruct (scalar_facts _ _ _ H) as (_ & _ & _ & _ & HW). destruct (scalar_facts _ _ _ H') as (_ & HC' & _ & _ & HW').
  pose proof H as (HE & HB & _ & _ & Hn). rewrite HC', HW, HW'. cbn [negb].
  assert (forall long, (long = false -> n <= 32) -> exists b, fitsInBitsW long t c dest = Some b /\
    (b = true <-> (lo e' n' <= meaning e (msb_bits (N.to_nat n) c) <= hi e' n')%Z)) as HL.
  { intros long HH. unfold fitsInBitsW. rewrite HB, HE. rewrite guard_true by lia.
    set (j := justified e (Z.of_N n) (if long then u64 c else u32 c)).
    assert (meaning e (msb_bits (N.to_nat n) j) = meaning e (msb_bits (N.to_nat n) c)) as HJ.
    { unfold j. rewrite justified_meaning by (auto; lia). f_equal. destruct long; [apply msb_u64 | apply msb_u32]; lia. }
    assert (exists x, (if long then convertForthAndBackLong t j dest else convertForthAndBack t j dest) = Some (Some x) /\
      (cmpEq e (Z.of_N n) j x = true <-> (lo e' n' <= meaning e (msb_bits (N.to_nat n) j) <= hi e' n')%Z)) as (x & EX & HX).
    { destruct long; [apply fits64 | apply fits32]; auto. }
    rewrite HJ in HX. exists (cmpEq e (Z.of_N n) j x). split; auto.
    unfold j in EX. unfold j. destruct HA as [-> | [-> | ->]]; unfold justified in *; cbv zeta; rewrite EX; reflexivity. }
  destruct (n <=? 32) eqn:En; destruct (n' <=? 32) eqn:En';
    change (32 >? 32)%Z with false; change (64 >? 32)%Z with true; change (32 >? 64)%Z with false; change (64 >? 64)%Z with false;
    change (32 <=? 32)%Z with true; change (64 <=? 32)%Z with false; change (64 <=? 64)%Z with true; cbv iota zeta;
    apply HL; lia || congruence.
Qed.

(* ---- limits ---- *)
Lemma getMax_unsigned n t : scalar_of EUnsigned n t -> getMax t = (2 ^ Z.of_N n - 1)%Z.
Proof.
  intros (HE & HB & _ & _ & Hn). unfold getMax, GetNOnes. rewrite HE, HB.
  replace (Z.of_N n <=? 0)%Z with false by lia.
  destruct (Z.eqb_spec (Z.of_N n) 32) as [E|]; [rewrite E; reflexivity|].
  destruct (Z.eqb_spec (Z.of_N n) 64) as [E|]; [rewrite E; reflexivity|].
  destruct (Z.of_N n <=? 32)%Z; reflexivity.
Qed.

Lemma getMax_int n t : scalar_of EInt n t -> getMax t = (2 ^ (Z.of_N n - 1) - 1)%Z.
Proof.
  intros (HE & HB & _ & _ & Hn). unfold getMax, GetNOnes. rewrite HE, HB.
  replace (Z.of_N n <=? 0)%Z with false by lia.
  destruct (Z.eqb_spec (Z.of_N n) 32) as [E|]; [rewrite E; reflexivity|].
  destruct (Z.eqb_spec (Z.of_N n) 64) as [E|]; [rewrite E; reflexivity|].
  destruct (Z.of_N n <=? 32)%Z; reflexivity.
Qed.

Lemma getMin_int n t : scalar_of EInt n t -> getMin t = (- 2 ^ (Z.of_N n - 1))%Z.
Proof.
  intros (HE & HB & _ & _ & Hn). unfold getMin, GetNOnes. rewrite HE, HB.
  replace (Z.of_N n <=? 0)%Z with false by lia.
  assert (SignExtend (2 ^ (Z.of_N n - 1) - 1 + 1) (Z.of_N n) = - 2 ^ (Z.of_N n - 1))%Z as ES.
  { unfold SignExtend. replace (2 ^ (Z.of_N n - 1) - 1 + 1)%Z with (2 ^ (Z.of_N n - 1))%Z by lia.
    pose proof (pow_half (Z.of_N n) ltac:(lia)) as HP. pose proof (zpow_pos (Z.of_N n - 1) ltac:(lia)).
    rewrite Z.mod_small by lia. rewrite Z.ltb_irrefl. lia. }
  destruct (Z.eqb_spec (Z.of_N n) 32) as [E|]; [rewrite E; reflexivity|].
  destruct (Z.eqb_spec (Z.of_N n) 64) as [E|]; [rewrite E; reflexivity|].
  destruct (Z.of_N n <=? 32)%Z; exact ES.
Qed.

Lemma zpow_bound (k b : Z) : (0 <= k <= b)%Z -> (2 ^ k <= 2 ^ b)%Z.
Proof. intros. apply Z.pow_le_mono_r; lia. Qed.

(* the bits of z written by the long or short maker *)
Lemma limitUV e n t z : primitive e -> scalar_of e n t ->
  exists r, (if (getTotalWordSize t <=? 32)%Z then makeImmediate t (zu32 z)
             else if (getTotalWordSize t <=? 64)%Z then makeImmediateLong t (zu64 z) else None) = Some r /\
    v_ty r = t /\ own_bits t n (v_bits r) = msb_bits (N.to_nat n) (Z.to_N (z mod 2 ^ Z.of_N n)).
Proof.
  intros HP H. destruct (scalar_facts _ _ _ H) as (_ & _ & _ & _ & HW). pose proof H as (_ & _ & _ & _ & Hn). rewrite HW.
  assert (forall k, (Z.of_N n <= k)%Z -> msb_bits (N.to_nat n) (Z.to_N (z mod 2 ^ k)) =
          msb_bits (N.to_nat n) (Z.to_N (z mod 2 ^ Z.of_N n))) as HM.
  { intros k Hk. rewrite <- (msb_bits_mod _ (Z.to_N (z mod 2 ^ k)) n) by lia. f_equal.
    pose proof (zpow_pos (Z.of_N n) ltac:(lia)). pose proof (zpow_pos k ltac:(lia)).
    pose proof (Z.mod_pos_bound z (2 ^ k) ltac:(lia)).
    apply N2Z.inj. rewrite N2Z.inj_mod, ofN_pow, !Z2N.id by (try apply Z.mod_pos_bound; lia).
    rewrite <- Znumtheory.Zmod_div_mod; auto. exists (2 ^ (k - Z.of_N n))%Z. rewrite <- Z.pow_add_r by lia. f_equal. lia. }
  destruct (n <=? 32) eqn:En.
  - change (32 <=? 32)%Z with true. cbv iota.
    destruct (makeImmediate_prim e n t (zu32 z) HP H) as (r & E & HT & HO); [lia|].
    assert (u32 (zu32 z) = zu32 z) as EU.
    { unfold u32, zu32. change two32 with (2 ^ 32)%N. apply N.mod_small. pose proof (Z.mod_pos_bound z (2 ^ 32) ltac:(lia)). lia. }
    rewrite EU in E. exists r. split; auto. split; auto. rewrite HO. apply HM. lia.
  - change (64 <=? 32)%Z with false. change (64 <=? 64)%Z with true. cbv iota.
    destruct (makeImmediateLong_prim e n t (zu64 z) HP H) as (r & E & HT & HO).
    assert (u64 (zu64 z) = zu64 z) as EU.
    { unfold u64, zu64. change two64 with (2 ^ 64)%N. apply N.mod_small. pose proof (Z.mod_pos_bound z (2 ^ 64) ltac:(lia)). lia. }
    rewrite EU in E. exists r. split; auto. split; auto. rewrite HO. apply HM. lia.
Qed.

Lemma enc_mod e n z : arith e -> 1 <= n -> (lo e n <= z <= hi e n)%Z -> e <> EUnary ->
  Z.to_N (z mod 2 ^ Z.of_N n) = ext_enc e (Z.of_N n) z.
Proof.
  intros HA Hn HZ HU. unfold ext_enc. destruct HA as [-> | [-> | ->]]; [| |congruence]; unfold lo, hi in HZ.
  - rewrite clamp_id by auto. reflexivity.
  - rewrite clamp_id by auto. rewrite Z.mod_small by lia. reflexivity.
Qed.
