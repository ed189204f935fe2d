(* C66: an array subscript reaches the item it names, and one that names no item is refused. *)
From Coq Require Import List NArith ZArith Lia Bool.
From Coq Require Import ZifyBool.
From Verif Require Import IndexModel IndexSpec IndexProofs.
Ltac Zify.zify_post_hook ::= Z.div_mod_to_equations.
Open Scope Z_scope.

(* an index as the compiler makes them *)
Definition index_ok (i : index) : Prop := 1 <= ix_bits i <= 64 /\ 0 <= ix_data i < 2 ^ ix_bits i.
Definition is_signed (k : ikind) : bool := match k with KInt => true | KUnsigned => false end.
Definition iv (i : index) : Z := index_value (is_signed (ix_kind i)) (ix_bits i) (ix_data i).

(* EXTERNAL: all that is asked of the two library functions: they give the number when a C++ s32 (s64) can hold it *)
Definition reads_ok (cs32 cs64 : ikind -> Z -> Z -> Z) : Prop :=
  (forall n d, 1 <= n <= 32 -> 0 <= d < 2 ^ n -> cs32 KInt n d = signed_value n d) /\
  (forall n d, 1 <= n <= 32 -> 0 <= d < 2 ^ n -> d < 2 ^ 31 -> cs32 KUnsigned n d = d) /\
  (forall n d, 33 <= n <= 64 -> 0 <= d < 2 ^ n -> cs64 KInt n d = signed_value n d) /\
  (forall n d, 33 <= n <= 64 -> 0 <= d < 2 ^ n -> d < 2 ^ 63 -> cs64 KUnsigned n d = d).

(* an array of a items lies at p: in one word, or one item per slot of a stack *)
Inductive holds (st : stacks) (p : ptr) (a : Z) : Prop :=
| holds_word : p_packed p = true -> 0 <= p_pos p -> 0 < p_len p -> p_pos p + p_len p * a <= 96 -> holds st p a
| holds_frame : p_packed p = false -> p_abs p = false -> p_storage p = STACK \/ p_storage p = EVALRETURN ->
    - 2 ^ 15 <= p_slot p -> p_slot p + a <= 2 ^ 15 ->
    0 <= st_frame st (p_storage p) + p_slot p ->
    st_frame st (p_storage p) + p_slot p + a <= st_size st (p_storage p) < 2 ^ 32 -> holds st p a
| holds_abs : p_packed p = false -> p_abs p = true -> p_storage p <> EVENTWINDOW ->
    0 < p_slot p -> p_slot p + a <= 2 ^ 15 -> p_slot p + a <= st_size st (p_storage p) -> holds st p a.

(* where item v is *)
Definition item_at (p : ptr) (v : Z) : ptr :=
  if p_packed p then mkP (p_slot p) (p_abs p) (p_pos p + p_len p * v) (p_len p) (p_storage p) true
  else mkP (p_slot p + v) (p_abs p) (p_pos p) (p_len p) (p_storage p) false.

Lemma increment_item : forall st p a v, holds st p a -> is_item a v -> incrementPtr st p v = Some (true, item_at p v).
Proof.
  intros st p a v H I. unfold is_item in I. unfold incrementPtr, item_at.
  destruct H as [E P L F | E A S L1 L2 F1 F2 | E A S L1 L2 F].
  - rewrite E. rewrite (u8_id (p_pos p + p_len p * v)) by nia. do 2 f_equal. unfold BITSPERATOM. nia.
  - rewrite E, A. rewrite s16_id by lia.
    destruct S as [S|S]; rewrite S in *; unfold getAbsoluteStackIndexOfSlot;
      rewrite u32_id by lia; do 2 f_equal; lia.
  - rewrite E, A. rewrite s16_id by lia.
    destruct (p_storage p); try congruence; do 2 f_equal; lia.
Qed.

Lemma pow_le : forall n, 1 <= n <= 32 -> 2 ^ n <= 2 ^ 32 /\ 2 ^ n = 2 * 2 ^ (n - 1) /\ 2 ^ (n - 1) <= 2 ^ 31.
Proof.
  intros n Hn. assert (2 ^ n <= 2 ^ 32) by (apply Z.pow_le_mono_r; lia).
  assert (2 ^ n = 2 * 2 ^ (n - 1)) by (replace n with (Z.succ (n - 1)) at 1 by lia; apply Z.pow_succ_r; lia).
  repeat split; lia.
Qed.
Lemma pow_le64 : forall n, 1 <= n <= 64 -> 2 ^ n <= 2 ^ 64 /\ 2 ^ n = 2 * 2 ^ (n - 1) /\ 2 ^ (n - 1) <= 2 ^ 63.
Proof.
  intros n Hn. assert (2 ^ n <= 2 ^ 64) by (apply Z.pow_le_mono_r; lia).
  assert (2 ^ n = 2 * 2 ^ (n - 1)) by (replace n with (Z.succ (n - 1)) at 1 by lia; apply Z.pow_succ_r; lia).
  repeat split; lia.
Qed.

Lemma offset_value : forall cs32 cs64 i, reads_ok cs32 cs64 -> index_ok i -> - 2 ^ 31 <= iv i < 2 ^ 31 ->
  offsetForRead cs32 cs64 i = iv i.
Proof.
  intros cs32 cs64 [k n d] (R1 & R2 & R3 & R4) [Hn Hd] B. unfold iv, offsetForRead in *. cbn [ix_kind ix_bits ix_data] in *.
  destruct (n <=? 32) eqn:E.
  - destruct k; cbn [is_signed] in *; unfold index_value, unsigned_value in *; [apply R1|apply R2]; lia.
  - destruct k; cbn [is_signed] in *; unfold index_value, unsigned_value in *.
    + rewrite R3 by lia. apply s32_id. lia.
    + rewrite R4 by lia. apply s32_id. lia.
Qed.

(* ---- every item can be read: Int or Unsigned, of any width ---- *)
Theorem C66_read_item : forall cs32 cs64 st p a i,
  reads_ok cs32 cs64 -> index_ok i -> holds st p a -> a <= 2 ^ 31 -> is_item a (iv i) ->
  evalRead cs32 cs64 st p a i = At (item_at p (iv i)).
Proof.
  intros cs32 cs64 st p a i R O H A I. unfold evalRead. unfold is_item in I.
  rewrite (offset_value _ _ _ R O) by lia.
  destruct (a <=? iv i) eqn:E; [lia|]. rewrite s32_u32 by lia.
  rewrite (increment_item _ _ _ _ H I). reflexivity.
Qed.
Print Assumptions C66_read_item.

(* ---- and every item can be written, when the index has at most 32 bits ---- *)
Theorem C66_store_item : forall cs32 cs64 st p a i,
  reads_ok cs32 cs64 -> index_ok i -> ix_bits i <= 32 -> holds st p a -> a <= 2 ^ 31 -> is_item a (iv i) ->
  evalStore cs32 st p i = At (item_at p (iv i)).
Proof.
  intros cs32 cs64 st p a i R O W H A I. unfold evalStore.
  destruct (32 <? ix_bits i) eqn:E; [lia|].
  assert (X : offsetForRead cs32 cs64 i = iv i) by (apply offset_value; auto; unfold is_item in I; lia).
  unfold offsetForRead in X. destruct (ix_bits i <=? 32) eqn:E2; [|lia]. rewrite X.
  rewrite (increment_item _ _ _ _ H I). reflexivity.
Qed.
Print Assumptions C66_store_item.

(* ---- and the generated code reaches it too, whether or not the index is a constant ---- *)
Theorem C66_gen_item : forall c a len pos i,
  index_ok i -> is_item a (iv i) -> 0 <= pos -> 0 <= len -> a * len + pos < 2 ^ 32 ->
  genAccess c a len pos i = GPos (pos + iv i * len).
Proof.
  intros c a len pos [k n d] [Hn Hd] I P L F. unfold genAccess, iv, is_item in *. cbn [ix_kind ix_bits ix_data] in *.
  assert (X : index_value (is_signed k) n d = d).
  { destruct k; cbn [is_signed index_value] in *; unfold unsigned_value in *; auto.
    unfold signed_value in *. destruct (d <? 2 ^ (n - 1)) eqn:E; [reflexivity|lia]. }
  rewrite X in *.
  destruct (a <=? d) eqn:E; [lia|]. rewrite andb_false_r.
  rewrite u32_id by nia. f_equal. lia.
Qed.
Print Assumptions C66_gen_item.

(* ---- an Unsigned index of up to 31 bits: reading is refused exactly when there is no such item ---- *)
Theorem C66_read_unsigned : forall cs32 cs64 st p a i,
  reads_ok cs32 cs64 -> index_ok i -> ix_kind i = KUnsigned -> ix_bits i <= 31 -> holds st p a -> a <= 2 ^ 31 ->
  evalRead cs32 cs64 st p a i = if iv i <? a then At (item_at p (iv i)) else Refused.
Proof.
  intros cs32 cs64 st p a i R O K W H A.
  assert (B : 0 <= iv i < 2 ^ 31).
  { destruct O as [O1 O2]. unfold iv. rewrite K. cbn [is_signed index_value]. unfold unsigned_value.
    assert (2 ^ ix_bits i <= 2 ^ 31) by (apply Z.pow_le_mono_r; lia). lia. }
  destruct (iv i <? a) eqn:E.
  - apply C66_read_item; auto. unfold is_item. lia.
  - unfold evalRead. rewrite (offset_value _ _ _ R O) by lia. destruct (a <=? iv i) eqn:E2; [reflexivity|lia].
Qed.
Print Assumptions C66_read_unsigned.

(* ---- a non-negative index of any kind and of up to 32 bits, or one of more bits below 2^31 ---- *)
Theorem C66_read_small : forall cs32 cs64 st p a i,
  reads_ok cs32 cs64 -> index_ok i -> 0 <= iv i < 2 ^ 31 -> holds st p a -> a <= 2 ^ 31 ->
  evalRead cs32 cs64 st p a i = if iv i <? a then At (item_at p (iv i)) else Refused.
Proof.
  intros cs32 cs64 st p a i R O B H A.
  destruct (iv i <? a) eqn:E.
  - apply C66_read_item; auto. unfold is_item. lia.
  - unfold evalRead. rewrite (offset_value _ _ _ R O) by lia. destruct (a <=? iv i) eqn:E2; [reflexivity|lia].
Qed.
Print Assumptions C66_read_small.

(* ---- the generated check on an Unsigned index that is not a constant, of any width ---- *)
Theorem C66_gen_unsigned : forall a len pos i,
  index_ok i -> ix_kind i = KUnsigned -> 0 <= pos -> 0 <= len -> a * len + pos < 2 ^ 32 ->
  genAccess false a len pos i = if iv i <? a then GPos (pos + iv i * len) else GFail.
Proof.
  intros a len pos i O K P L F.
  assert (B : 0 <= iv i /\ iv i = ix_data i).
  { destruct O as [O1 O2]. unfold iv. rewrite K. cbn [is_signed index_value]. unfold unsigned_value. lia. }
  destruct (iv i <? a) eqn:E.
  - apply (C66_gen_item false a len pos i O); unfold is_item; lia.
  - unfold genAccess. destruct (a <=? ix_data i) eqn:E2; [reflexivity|lia].
Qed.
Print Assumptions C66_gen_unsigned.

(* so on an Unsigned index the evaluator and the generated code accept the same programs and name the same item *)
Theorem C66_unsigned_same : forall cs32 cs64 st p a i len pos,
  reads_ok cs32 cs64 -> index_ok i -> ix_kind i = KUnsigned -> ix_bits i <= 31 -> holds st p a -> a <= 2 ^ 31 ->
  0 <= pos -> 0 <= len -> a * len + pos < 2 ^ 32 ->
  match evalRead cs32 cs64 st p a i, genAccess false a len pos i with
  | Refused, GFail => a <= iv i
  | At q, GPos g => is_item a (iv i) /\ q = item_at p (iv i) /\ g = pos + iv i * len
  | _, _ => False
  end.
Proof.
  intros cs32 cs64 st p a i len pos R O K W H A P L F.
  rewrite (C66_read_unsigned _ _ _ _ _ _ R O K W H A), (C66_gen_unsigned _ _ _ _ O K P L F).
  assert (0 <= iv i).
  { destruct O as [O1 O2]. unfold iv. rewrite K. cbn [is_signed index_value]. unfold unsigned_value. lia. }
  destruct (iv i <? a) eqn:E; unfold is_item; repeat split; lia.
Qed.
Print Assumptions C66_unsigned_same.

(* ---- the string subscripts: the same bytes in both, and on Unsigned indexes only bytes of the string ---- *)
Theorem C66_string_same : forall len i, ix_bits i <= 32 ->
  evalStringByte len i = match genStringByte len i with Some k => Byte k | None => BRefused end.
Proof.
  intros len i W. unfold evalStringByte, genStringByte. destruct (32 <? ix_bits i) eqn:E; [lia|].
  destruct (len <=? ix_data i); reflexivity.
Qed.
Print Assumptions C66_string_same.

Theorem C66_string_in_bounds : forall len i k, index_ok i -> genStringByte len i = Some k -> is_item len k.
Proof.
  intros len i k [O1 O2] G. unfold genStringByte in G. destruct (len <=? ix_data i) eqn:E; [discriminate|].
  injection G as <-. unfold is_item. lia.
Qed.
Print Assumptions C66_string_in_bounds.

Theorem C66_string_byte : forall len i, index_ok i -> is_item len (iv i) -> genStringByte len i = Some (iv i).
Proof.
  intros len [k n d] [O1 O2] I. unfold genStringByte, iv, is_item in *. cbn [ix_kind ix_bits ix_data] in *.
  assert (X : index_value (is_signed k) n d = d).
  { destruct k; cbn [is_signed index_value] in *; unfold unsigned_value in *; auto.
    unfold signed_value in *. destruct (d <? 2 ^ (n - 1)) eqn:E; [reflexivity|lia]. }
  rewrite X in *. destruct (len <=? d) eqn:E; [lia|reflexivity].
Qed.
Print Assumptions C66_string_byte.

(* ---- constant indexes: exactly these get through ---- *)
Theorem C66_constant_exact : forall cs32 cs64 a i, reads_ok cs32 cs64 -> index_ok i -> ix_bits i <= 32 ->
  - 2 ^ 31 <= iv i < 2 ^ 31 ->
  (constIndexOk cs32 a i = true <-> 0 <= iv i <= a \/ (iv i = -2 /\ -2 <= a)).
Proof.
  intros cs32 cs64 a i R O W B. unfold constIndexOk.
  assert (X : offsetForRead cs32 cs64 i = iv i) by (apply offset_value; auto).
  unfold offsetForRead in X. destruct (ix_bits i <=? 32) eqn:E; [|lia].
  rewrite (u32_id (ix_data i)).
  2:{ destruct O as [O1 O2]. destruct (pow_le (ix_bits i)); lia. }
  rewrite X. unfold UNKNOWNSIZE. lia.
Qed.
Print Assumptions C66_constant_exact.

(* so no item of the array is turned away at compile time *)
Theorem C66_constant_item : forall cs32 cs64 a i, reads_ok cs32 cs64 -> index_ok i -> ix_bits i <= 32 -> a <= 2 ^ 31 ->
  is_item a (iv i) -> constIndexOk cs32 a i = true.
Proof.
  intros cs32 cs64 a i R O W A I. unfold is_item in I. apply (C66_constant_exact cs32 cs64); auto; lia.
Qed.
Print Assumptions C66_constant_item.

(* a library that meets reads_ok; the Examples and refutations use it, the refutations hold for every such library *)
Definition lib32 (k : ikind) (n d : Z) : Z :=
  match k with KInt => signed_value n d | KUnsigned => if d <? 2 ^ 31 then d else 2 ^ 31 - 1 end.
Definition lib64 (k : ikind) (n d : Z) : Z :=
  match k with KInt => signed_value n d | KUnsigned => if d <? 2 ^ 63 then d else 2 ^ 63 - 1 end.
Lemma lib_ok : reads_ok lib32 lib64.
Proof. unfold reads_ok, lib32, lib64. repeat split; intros; try reflexivity; destruct (d <? _) eqn:E; lia. Qed.

(* a call stack of 20 slots, the frame at 10; an array of three 40 bit items in slots 2,3,4 of the frame;
   a packed array of five 4 bit items in the last 20 bits of slot 6 *)
Definition ex_st : stacks := mkSt (fun _ => 20) (fun _ => 10) (fun _ => true).
Definition ex_p : ptr := mkP 2 false 56 40 STACK false.
Definition ex_q : ptr := mkP 6 false 76 4 STACK true.
Example C66_ex : reads_ok lib32 lib64 /\ holds ex_st ex_p 3 /\ holds ex_st ex_q 5 /\
  index_ok (mkIx KInt 8 2) /\ is_item 3 (iv (mkIx KInt 8 2)) /\
  evalRead lib32 lib64 ex_st ex_p 3 (mkIx KInt 8 2) = At (mkP 4 false 56 40 STACK false) /\
  evalStore lib32 ex_st ex_q (mkIx KUnsigned 3 4) = At (mkP 6 false 92 4 STACK true) /\
  evalStore lib32 ex_st ex_q (mkIx KUnsigned 3 5) = Refused /\
  evalRead lib32 lib64 ex_st ex_p 3 (mkIx KUnsigned 40 3) = Refused /\
  genAccess false 3 40 0 (mkIx KUnsigned 40 2) = GPos 80 /\ genAccess false 3 40 0 (mkIx KUnsigned 40 3) = GFail.
Proof.
  split; [exact lib_ok|]. split; [apply holds_frame; cbn; auto; lia|]. split; [apply holds_word; cbn; auto; lia|].
  split; [unfold index_ok; cbn; lia|]. split; [unfold is_item; cbn; lia|].
  repeat split; reflexivity.
Qed.

(* ==== what is not so ==== *)

(* a negative index is not refused: reading a[-1] goes on with the slot before the array *)
Theorem C66_read_negative_refuted : exists st p a i, holds st p a /\ index_ok i /\ iv i = -1 /\
  forall cs32 cs64, reads_ok cs32 cs64 ->
    evalRead cs32 cs64 st p a i = At (mkP (p_slot p - 1) (p_abs p) (p_pos p) (p_len p) (p_storage p) false).
Proof.
  exists ex_st, ex_p, 3, (mkIx KInt 8 255).
  split; [apply holds_frame; cbn; auto; lia|]. split; [unfold index_ok; cbn; lia|]. split; [reflexivity|].
  intros cs32 cs64 R. unfold evalRead. rewrite (offset_value _ _ _ R); try reflexivity; [unfold index_ok; cbn; lia|cbn; lia].
Qed.
Print Assumptions C66_read_negative_refuted.

(* or stops the compiler on an assertion instead of the error message *)
Theorem C66_read_negative_abort_refuted : exists st p a i, holds st p a /\ index_ok i /\ ~ is_item a (iv i) /\
  forall cs32 cs64, reads_ok cs32 cs64 -> evalRead cs32 cs64 st p a i = Abort.
Proof.
  exists ex_st, ex_p, 3, (mkIx KInt 8 200).
  split; [apply holds_frame; cbn; auto; lia|]. split; [unfold index_ok; cbn; lia|].
  split; [unfold is_item; cbn; lia|].
  intros cs32 cs64 R. unfold evalRead. rewrite (offset_value _ _ _ R); try reflexivity; [unfold index_ok; cbn; lia|cbn; lia].
Qed.
Print Assumptions C66_read_negative_abort_refuted.

(* every negative index that stays within the stack below the array is read *)
Theorem C66_read_negative_exact : forall cs32 cs64 st p a i,
  reads_ok cs32 cs64 -> index_ok i -> holds st p a -> 0 <= a -> p_packed p = false -> p_abs p = false ->
  - 2 ^ 31 <= iv i < 0 -> - 2 ^ 15 <= p_slot p + iv i -> 0 <= st_frame st (p_storage p) < 2 ^ 31 ->
  st_size st (p_storage p) < 2 ^ 31 ->
  evalRead cs32 cs64 st p a i =
    if 0 <=? st_frame st (p_storage p) + p_slot p + iv i then At (item_at p (iv i)) else Abort.
Proof.
  intros cs32 cs64 st p a i R O H A PK AB N S F Z. unfold evalRead. rewrite (offset_value _ _ _ R O) by lia.
  destruct (a <=? iv i) eqn:E; [lia|]. rewrite s32_u32 by lia. unfold incrementPtr, item_at.
  destruct H as [X P L G | X Q W L1 L2 F1 F2 | X Q W L1 L2 G]; try congruence.
  rewrite PK, AB. rewrite s16_id by lia. unfold getAbsoluteStackIndexOfSlot, u32.
  destruct W as [W|W]; rewrite W in *;
    (destruct (0 <=? _) eqn:E2;
     [destruct (_ <? st_size st _) eqn:E3; [reflexivity|]; rewrite Z.mod_small in E3; lia
     |destruct (_ <? st_size st _) eqn:E3; [|reflexivity]; exfalso; lia]).
Qed.
Print Assumptions C66_read_negative_exact.

(* an index of more than 32 bits is cut to 32: reading a[2^32] reads a[0] *)
Theorem C66_read_wide_refuted : exists st p a i, holds st p a /\ index_ok i /\ a <= iv i /\
  forall cs32 cs64, reads_ok cs32 cs64 -> evalRead cs32 cs64 st p a i = At p.
Proof.
  exists ex_st, ex_p, 3, (mkIx KUnsigned 40 (2 ^ 32)).
  split; [apply holds_frame; cbn; auto; lia|]. split; [unfold index_ok; cbn; lia|]. split; [cbn; lia|].
  intros cs32 cs64 R. destruct R as (R1 & R2 & R3 & R4). unfold evalRead, offsetForRead.
  cbn [ix_bits ix_kind ix_data]. change (40 <=? 32) with false. cbv iota. rewrite R4 by lia. reflexivity.
Qed.
Print Assumptions C66_read_wide_refuted.

(* a store is not checked against the size of the array: a[3] of three items goes on with the next slot *)
Theorem C66_store_refuted : exists st p a i, holds st p a /\ index_ok i /\ ix_bits i <= 32 /\ iv i = a /\
  forall cs32 cs64, reads_ok cs32 cs64 -> evalStore cs32 st p i = At (item_at p a).
Proof.
  exists ex_st, ex_p, 3, (mkIx KUnsigned 8 3).
  split; [apply holds_frame; cbn; auto; lia|]. split; [unfold index_ok; cbn; lia|]. split; [cbn; lia|].
  split; [reflexivity|]. intros cs32 cs64 R. destruct R as (R1 & R2 & R3 & R4). unfold evalStore.
  cbn [ix_bits ix_kind ix_data]. change (32 <? 8) with false. cbv iota. rewrite R2 by lia. reflexivity.
Qed.
Print Assumptions C66_store_refuted.

(* what is checked instead, slot by slot arrays: that the place is somewhere in the stack *)
Theorem C66_store_slots_exact : forall cs32 cs64 st p a i,
  reads_ok cs32 cs64 -> index_ok i -> ix_bits i <= 32 -> holds st p a -> p_packed p = false -> p_abs p = false ->
  - 2 ^ 31 <= iv i < 2 ^ 31 -> - 2 ^ 15 <= p_slot p + iv i < 2 ^ 15 -> 0 <= st_frame st (p_storage p) < 2 ^ 31 ->
  st_size st (p_storage p) < 2 ^ 31 ->
  evalStore cs32 st p i =
    let k := st_frame st (p_storage p) + p_slot p + iv i in
    if (0 <=? k) && (k <? st_size st (p_storage p)) then At (item_at p (iv i)) else Refused.
Proof.
  intros cs32 cs64 st p a i R O W H PK AB B S F Z. unfold evalStore.
  destruct (32 <? ix_bits i) eqn:E; [lia|].
  assert (X : offsetForRead cs32 cs64 i = iv i) by (apply offset_value; auto).
  unfold offsetForRead in X. destruct (ix_bits i <=? 32) eqn:E2; [|lia]. rewrite X.
  unfold incrementPtr, item_at.
  destruct H as [Y P L G | Y Q T L1 L2 F1 F2 | Y Q T L1 L2 G]; try congruence.
  rewrite PK, AB. rewrite s16_id by lia. unfold getAbsoluteStackIndexOfSlot, u32. cbv zeta.
  destruct T as [T|T]; rewrite T in *;
    (destruct ((0 <=? _) && _) eqn:E4;
     [destruct (_ mod _ <? st_size st _) eqn:E3; [reflexivity|]; rewrite Z.mod_small in E3; lia
     |destruct (_ mod _ <? st_size st _) eqn:E3; [|reflexivity]; exfalso; lia]).
Qed.
Print Assumptions C66_store_slots_exact.

(* packed arrays at the end of the word, as local variables are: refused exactly when the position, kept in 8 bits,
   is behind the word *)
Theorem C66_store_word_exact : forall cs32 cs64 st p a i,
  reads_ok cs32 cs64 -> index_ok i -> ix_bits i <= 32 -> holds st p a -> p_packed p = true ->
  p_pos p + p_len p * a = 96 -> - 2 ^ 31 <= iv i < 2 ^ 31 ->
  evalStore cs32 st p i =
    let w := (p_pos p + p_len p * iv i) mod 256 in
    if w <? 96 then At (mkP (p_slot p) (p_abs p) w (p_len p) (p_storage p) true) else Refused.
Proof.
  intros cs32 cs64 st p a i R O W H PK FIT B. unfold evalStore.
  destruct (32 <? ix_bits i) eqn:E; [lia|].
  assert (X : offsetForRead cs32 cs64 i = iv i) by (apply offset_value; auto).
  unfold offsetForRead in X. destruct (ix_bits i <=? 32) eqn:E2; [|lia]. rewrite X.
  unfold incrementPtr. rewrite PK. unfold u8, BITSPERATOM. change (2 ^ 8) with 256. cbv zeta.
  destruct (_ <? 96); reflexivity.
Qed.
Print Assumptions C66_store_word_exact.

(* there the next 160 bits after the word are refused: an index is caught if it is at most this much too large *)
Theorem C66_store_word_partial : forall cs32 cs64 st p a i,
  reads_ok cs32 cs64 -> index_ok i -> ix_bits i <= 32 -> holds st p a -> p_packed p = true ->
  p_pos p + p_len p * a = 96 -> 0 <= iv i -> p_pos p + p_len p * iv i < 256 ->
  evalStore cs32 st p i = if iv i <? a then At (item_at p (iv i)) else Refused.
Proof.
  intros cs32 cs64 st p a i R O W H PK FIT N B.
  assert (LP : 0 < p_len p) by (destruct H; congruence || assumption).
  assert (P0 : 0 <= p_pos p) by (destruct H; congruence || assumption).
  assert (iv i < 256) by nia.
  rewrite (C66_store_word_exact cs32 cs64 st p a i); auto; [|lia]. cbv zeta.
  rewrite Z.mod_small by nia.
  unfold item_at. rewrite PK.
  destruct (iv i <? a) eqn:E; destruct (_ <? 96) eqn:E2; try reflexivity; exfalso; nia.
Qed.
Print Assumptions C66_store_word_partial.

(* beyond that the position wraps around: a 4 bit array, a[45] is at position 0 of the word *)
Theorem C66_store_word_refuted : exists st p a i, holds st p a /\ p_pos p + p_len p * a = 96 /\ index_ok i /\
  ix_bits i <= 32 /\ a <= iv i /\
  forall cs32 cs64, reads_ok cs32 cs64 -> evalStore cs32 st p i = At (mkP (p_slot p) (p_abs p) 0 (p_len p) (p_storage p) true).
Proof.
  exists ex_st, ex_q, 5, (mkIx KUnsigned 8 45).
  split; [apply holds_word; cbn; auto; lia|]. split; [reflexivity|]. split; [unfold index_ok; cbn; lia|].
  split; [cbn; lia|]. split; [cbn; lia|]. intros cs32 cs64 R. destruct R as (R1 & R2 & R3 & R4). unfold evalStore.
  cbn [ix_bits ix_kind ix_data]. change (32 <? 8) with false. cbv iota. rewrite R2 by lia. reflexivity.
Qed.
Print Assumptions C66_store_word_refuted.

(* storing at an index of more than 32 bits stops the compiler, even if the item exists *)
Theorem C66_store_wide_refuted : forall cs32 st p i, 32 < ix_bits i -> evalStore cs32 st p i = Abort.
Proof. intros. unfold evalStore. destruct (32 <? ix_bits i) eqn:E; [reflexivity|lia]. Qed.
Print Assumptions C66_store_wide_refuted.

(* the generated check takes the bits of an Int(n) for an unsigned number: exactly these are accepted *)
Theorem C66_gen_signed_exact : forall a len pos i, index_ok i -> ix_kind i = KInt -> 0 <= a ->
  (genAccess false a len pos i <> GFail <->
   is_item a (iv i) \/ (iv i < 0 /\ iv i + 2 ^ ix_bits i < a)).
Proof.
  intros a len pos [k n d] [O1 O2] K A. unfold genAccess, iv, is_item. cbn [ix_kind ix_bits ix_data] in *.
  rewrite K. cbn [is_signed index_value]. unfold signed_value.
  assert (2 ^ n = 2 * 2 ^ (n - 1)) by (apply pow_le64; lia).
  cbn [negb andb].
  destruct (a <=? d) eqn:E; destruct (d <? 2 ^ (n - 1)) eqn:E2; split; intros G; try congruence; try lia; exfalso; lia.
Qed.
Print Assumptions C66_gen_signed_exact.

(* so a negative Int(n) index is caught when the array has at most 2^(n-1) items *)
Theorem C66_gen_negative : forall a len pos i, index_ok i -> ix_kind i = KInt -> 0 <= a <= 2 ^ (ix_bits i - 1) ->
  iv i < 0 -> genAccess false a len pos i = GFail.
Proof.
  intros a len pos i O K A N. destruct (genAccess false a len pos i) eqn:G; [reflexivity|exfalso].
  assert (X : genAccess false a len pos i <> GFail) by congruence.
  apply C66_gen_signed_exact in X; auto; [|lia].
  destruct i as [k n d]. destruct O as [O1 O2]. cbn [ix_kind ix_bits ix_data] in *. subst k.
  assert (2 ^ n = 2 * 2 ^ (n - 1)) by (apply pow_le64; lia).
  unfold is_item, iv in *. cbn [ix_kind ix_bits ix_data is_signed index_value] in *. unfold signed_value in *.
  destruct (d <? 2 ^ (n - 1)) eqn:E2; lia.
Qed.
Print Assumptions C66_gen_negative.

(* and not with larger ones: Int(4) index -1 of an array of 16 is item 15; the evaluator goes to item -1 instead *)
Theorem C66_gen_negative_refuted : exists a len i, index_ok i /\ iv i = -1 /\ genAccess false a len 0 i = GPos (15 * len).
Proof. exists 16, 2, (mkIx KInt 4 15). split; [unfold index_ok; cbn; lia|]. split; reflexivity. Qed.
Print Assumptions C66_gen_negative_refuted.

(* string subscripts likewise, in both: s[-1] with an Int(4) is byte 15 of a longer string *)
Theorem C66_string_negative_refuted : exists len i, index_ok i /\ iv i = -1 /\ genStringByte len i = Some 15 /\
  evalStringByte len i = Byte 15.
Proof. exists 20, (mkIx KInt 4 15). split; [unfold index_ok; cbn; lia|]. repeat split; reflexivity. Qed.
Print Assumptions C66_string_negative_refuted.

(* a constant index equal to the number of items passes the compile time check, and then the generated code has no
   check at all: it reads or writes the bits behind the array *)
Theorem C66_constant_refuted : forall cs32 cs64 a len pos, reads_ok cs32 cs64 -> 0 <= a < 2 ^ 31 -> 0 <= pos -> 0 <= len ->
  a * len + pos < 2 ^ 32 ->
  let i := mkIx KUnsigned 32 a in
  index_ok i /\ iv i = a /\ constIndexOk cs32 a i = true /\ genAccess true a len pos i = GPos (pos + a * len).
Proof.
  intros cs32 cs64 a len pos R A P L F i.
  assert (O : index_ok i) by (unfold index_ok; cbn; lia).
  repeat split; try (unfold index_ok in O; cbn in O |- *; lia).
  - apply (C66_constant_exact cs32 cs64); auto; subst i; cbn [ix_bits iv ix_kind is_signed ix_data index_value];
      unfold unsigned_value; try lia.
  - unfold genAccess. cbn [negb andb ix_data i]. rewrite u32_id by nia. f_equal. lia.
Qed.
Print Assumptions C66_constant_refuted.

(* and so does -2, the number that stands for an unknown size *)
Theorem C66_constant_negative_refuted : exists i, index_ok i /\ iv i = -2 /\
  forall cs32 cs64 a, reads_ok cs32 cs64 -> 0 <= a -> constIndexOk cs32 a i = true /\
    forall len pos, genAccess true a len pos i = GPos (u32 (14 * len + pos)).
Proof.
  exists (mkIx KInt 4 14). split; [unfold index_ok; cbn; lia|]. split; [reflexivity|].
  intros cs32 cs64 a R A. split.
  - apply (C66_constant_exact cs32 cs64); auto; cbn; try lia. unfold index_ok; cbn; lia.
  - intros. reflexivity.
Qed.
Print Assumptions C66_constant_negative_refuted.

(* the read check of the evaluator does catch the first of the two *)
Theorem C66_constant_eval : forall cs32 cs64 st p a, reads_ok cs32 cs64 -> 0 <= a < 2 ^ 31 ->
  evalRead cs32 cs64 st p a (mkIx KUnsigned 32 a) = Refused.
Proof.
  intros cs32 cs64 st p a R A. unfold evalRead. rewrite (offset_value _ _ _ R).
  - cbn. destruct (a <=? a) eqn:E; [reflexivity|lia].
  - unfold index_ok; cbn; lia.
  - cbn. unfold unsigned_value. lia.
Qed.
Print Assumptions C66_constant_eval.
