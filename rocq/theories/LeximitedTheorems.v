(* LeximitedTheorems.v: properties C01 and C02. *)
From Coq Require Import String List NArith ZArith Lia Bool.
From Coq Require Import ZifyBool ZifyNat ZifyN.
From Verif Require Import Base LeximitedModel LeximitedSpec LeximitedProofs.
Import ListNotations.
Open Scope N_scope.

(* C01: the reader recovers the string and exactly the text that follows. *)
Theorem C01_leximited_string_self_delimiting :
  forall s rest, N.of_nat (List.length s) < two32 ->
  read_string (ToLeximited s ++ rest) = Some (s, rest).
Proof. exact read_string_ok. Qed.
Print Assumptions C01_leximited_string_self_delimiting.

Theorem C01_leximited_prefix_free :
  forall s1 s2 r1 r2,
  N.of_nat (List.length s1) < two32 -> N.of_nat (List.length s2) < two32 ->
  ToLeximited s1 ++ r1 = ToLeximited s2 ++ r2 -> s1 = s2 /\ r1 = r2.
Proof. exact ToLeximited_prefix_free. Qed.
Print Assumptions C01_leximited_prefix_free.

(* a mangled name made of any number of leximited pieces determines the pieces *)
Theorem C01_leximited_concat_unique :
  forall l1 l2,
  Forall (fun s => N.of_nat (List.length s) < two32) l1 ->
  Forall (fun s => N.of_nat (List.length s) < two32) l2 ->
  concat (map ToLeximited l1) = concat (map ToLeximited l2) -> l1 = l2.
Proof. exact ToLeximited_concat_inj. Qed.
Print Assumptions C01_leximited_concat_unique.

Example C01_ex :
  ToLeximited (txt "Event") = txt "5Event"
  /\ ToLeximited (txt "ABCDEFGHIJ") = txt "9210ABCDEFGHIJ"
  /\ ToLeximited (repeat 65 9) = txt "919AAAAAAAAA"
  /\ read_string (ToLeximited (txt "9210ABC") ++ txt "10") = Some (txt "9210ABC", txt "10").
Proof. vm_compute. auto. Qed.

(* The length is truncated to 32 bits: beyond that the claim is false. *)
Theorem C01_leximited_beyond_u32_refuted :
  exists s1 s2 r1 r2, s1 <> s2 /\ ToLeximited s1 ++ r1 = ToLeximited s2 ++ r2.
Proof.
  exists (repeat 65 (N.to_nat two32)), [], [], (repeat 65 (N.to_nat two32)).
  split.
  - intro E. apply (f_equal (@List.length N)) in E. rewrite repeat_length in E.
    apply (f_equal N.of_nat) in E. rewrite N2Nat.id in E. discriminate.
  - unfold ToLeximited. rewrite repeat_length, N2Nat.id.
    change (u32 two32) with 0. change (u32 (N.of_nat (@List.length N []))) with 0.
    rewrite !app_nil_r. reflexivity.
Qed.
Print Assumptions C01_leximited_beyond_u32_refuted.

(* C02 *)
Theorem C02_unsigned32_roundtrip : forall n rest, n < 2 ^ 32 ->
  read_unsigned (ToLeximitedNumber32u n ++ rest) = Some (n, rest).
Proof. intros. apply read_unsigned_ok. change (2 ^ 32) with 4294967296 in *. unfold two64. lia. Qed.
Print Assumptions C02_unsigned32_roundtrip.

Theorem C02_unsigned64_roundtrip : forall n rest, n < 2 ^ 64 ->
  read_unsigned (ToLeximitedNumber64u n ++ rest) = Some (n, rest).
Proof. exact read_unsigned_ok. Qed.
Print Assumptions C02_unsigned64_roundtrip.

Theorem C02_signed32_roundtrip : forall n rest, (- 2 ^ 31 <= n < 2 ^ 31)%Z ->
  read_signed (- 2 ^ 31) (ToLeximitedNumber32s n ++ rest) = Some (n, rest).
Proof. intros. apply read_signed_ok; unfold S32_MIN, two64; lia. Qed.
Print Assumptions C02_signed32_roundtrip.

Theorem C02_signed64_roundtrip : forall n rest, (- 2 ^ 63 <= n < 2 ^ 63)%Z ->
  read_signed (- 2 ^ 63) (ToLeximitedNumber64s n ++ rest) = Some (n, rest).
Proof. intros. apply read_signed_ok; unfold S64_MIN, two64; lia. Qed.
Print Assumptions C02_signed64_roundtrip.

(* Consequence used by mangled names: equal texts (with any continuations) mean equal numbers. *)
Theorem C02_signed32_injective : forall m n r1 r2,
  (- 2 ^ 31 <= m < 2 ^ 31)%Z -> (- 2 ^ 31 <= n < 2 ^ 31)%Z ->
  ToLeximitedNumber32s m ++ r1 = ToLeximitedNumber32s n ++ r2 -> m = n /\ r1 = r2.
Proof.
  intros m n r1 r2 Hm Hn E. pose proof (C02_signed32_roundtrip m r1 Hm) as A.
  rewrite E, C02_signed32_roundtrip in A by auto. injection A as -> ->. auto.
Qed.
Print Assumptions C02_signed32_injective.

Theorem C02_signed64_injective : forall m n r1 r2,
  (- 2 ^ 63 <= m < 2 ^ 63)%Z -> (- 2 ^ 63 <= n < 2 ^ 63)%Z ->
  ToLeximitedNumber64s m ++ r1 = ToLeximitedNumber64s n ++ r2 -> m = n /\ r1 = r2.
Proof.
  intros m n r1 r2 Hm Hn E. pose proof (C02_signed64_roundtrip m r1 Hm) as A.
  rewrite E, C02_signed64_roundtrip in A by auto. injection A as -> ->. auto.
Qed.
Print Assumptions C02_signed64_injective.

Theorem C02_unsigned64_injective : forall m n r1 r2, m < 2 ^ 64 -> n < 2 ^ 64 ->
  ToLeximitedNumber64u m ++ r1 = ToLeximitedNumber64u n ++ r2 -> m = n /\ r1 = r2.
Proof.
  intros m n r1 r2 Hm Hn E. pose proof (C02_unsigned64_roundtrip m r1 Hm) as A.
  rewrite E, C02_unsigned64_roundtrip in A by auto. injection A as -> ->. auto.
Qed.
Print Assumptions C02_unsigned64_injective.

Example C02_ex :
  ToLeximitedNumber32s 0 = txt "10" /\ ToLeximitedNumber32s (-3) = txt "n13"
  /\ ToLeximitedNumber32s S32_MIN = txt "n10"
  /\ ToLeximitedNumber32s 123456789 = txt "919123456789"
  /\ ToLeximitedNumber64u 18446744073709551615 = txt "922018446744073709551615"
  /\ read_signed (- 2 ^ 31) (ToLeximitedNumber32s (-2147483647)) = Some ((-2147483647)%Z, []).
Proof. vm_compute. repeat split; reflexivity. Qed.
