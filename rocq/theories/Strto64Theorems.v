(* Strto64Theorems.v: properties C05 and C06. *)
From Coq Require Import String List NArith ZArith Lia Bool.
From Coq Require Import ZifyBool ZifyNat ZifyN.
From Verif Require Import Base Strto64Model Strto64Spec Strto64Proofs.
Import ListNotations.
Open Scope N_scope.

(* C05, signed: the conversion succeeds exactly on the literals whose value fits in 64 signed bits, and then
   returns the two's complement pattern of exactly that value. *)
Theorem C05_signed_literal_exact : forall s r, ascii_text s = true ->
  (strtos64 s = SOk r <-> exists z, literal s z /\ (- 2 ^ 63 <= z < 2 ^ 63)%Z /\ r = Z.to_N (z mod 2 ^ 64)).
Proof. exact strtos64_iff. Qed.
Print Assumptions C05_signed_literal_exact.

(* a literal outside the range is always diagnosed as too large *)
Theorem C05_signed_literal_out_of_range : forall s z, ascii_text s = true -> literal s z ->
  ~ (- 2 ^ 63 <= z < 2 ^ 63)%Z ->
  strtos64 s = SErr TooLarge \/ strtos64 s = SErr PosOverflow \/ strtos64 s = SErr NegOverflow.
Proof. exact strtos64_range_error. Qed.
Print Assumptions C05_signed_literal_out_of_range.

(* C05, unsigned, for texts without a minus sign (number tokens of the lexer never contain one) *)
Theorem C05_unsigned_literal_exact : forall s r, ascii_text s = true -> Forall (fun c => c <> 45) s ->
  (strtou64 s = SOk r <-> exists z, literal s z /\ (0 <= z < 2 ^ 64)%Z /\ r = Z.to_N z).
Proof. exact strtou64_iff. Qed.
Print Assumptions C05_unsigned_literal_exact.

Theorem C05_unsigned_literal_out_of_range : forall s z, ascii_text s = true -> Forall (fun c => c <> 45) s ->
  literal s z -> (2 ^ 64 <= z)%Z -> strtou64 s = SErr TooLarge.
Proof. exact strtou64_range_error. Qed.
Print Assumptions C05_unsigned_literal_out_of_range.

Lemma literal_hex_ff : literal (txt "0xFf") 255.
Proof.
  exists [], (txt "0xFf"), [], false, 255. repeat split; try (unfold u_suffix; auto).
  apply (bv_hex 120 (txt "Ff")); [auto|]. repeat constructor; vm_compute; reflexivity.
Qed.

Example C05_ex :
  strtos64 (txt " - 9223372036854775808") = SOk 9223372036854775808
  /\ strtos64 (txt "9223372036854775808") = SErr PosOverflow
  /\ strtou64 (txt "0xFFFFffffFFFFffffu") = SOk 18446744073709551615
  /\ strtou64 (txt "18446744073709551616") = SErr TooLarge
  /\ strtou64 (txt "0b101") = SOk 5 /\ strtou64 (txt "0177") = SOk 127
  /\ strtou64 (txt "089") = SErr IllegalChar
  /\ ascii_text (txt "0xFf") = true /\ Forall (fun c => c <> 45) (txt "0xFf").
Proof. vm_compute. repeat split; try reflexivity. repeat constructor; discriminate. Qed.

(* The unsigned conversion of a negated literal above 2^63 is accepted with a wrong value ... *)
Theorem C05_unsigned_negative_refuted :
  exists s z r, ascii_text s = true /\ literal s z /\ (z < 0)%Z /\ strtou64 s = SOk r.
Proof.
  exists (txt "-0xffffffffffffffff"), (-18446744073709551615)%Z, 1. repeat split.
  exists [45], (txt "0xffffffffffffffff"), [], true, 18446744073709551615.
  repeat split; try (unfold u_suffix; auto).
  - right. auto.
  - apply (bv_hex 120 (txt "ffffffffffffffff")); [auto|]. repeat constructor; vm_compute; reflexivity.
Qed.
Print Assumptions C05_unsigned_negative_refuted.

(* ... and for exactly -2^63 it negates S64_MIN, which is undefined behaviour. *)
Theorem C05_unsigned_negative_ub_refuted : strtou64 (txt "-0x8000000000000000") = SAbort.
Proof. reflexivity. Qed.
Print Assumptions C05_unsigned_negative_ub_refuted.

(* A radix prefix without any digit is accepted as 0 (the specification above tolerates an empty digit list;
   this records that the code does). *)
Theorem C05_prefix_without_digits_refuted :
  strtos64 (txt "0x") = SOk 0 /\ strtou64 (txt "0bu") = SOk 0.
Proof. split; reflexivity. Qed.
Print Assumptions C05_prefix_without_digits_refuted.

(* Text after a byte >= 128 is silently ignored. *)
Theorem C05_high_byte_terminates_refuted : strtos64 (txt "12" ++ [200] ++ txt "junk") = SOk 12.
Proof. reflexivity. Qed.
Print Assumptions C05_high_byte_terminates_refuted.

(* C06. Missing from the full claim: values outside n bits are not always rejected (see the refutations). *)
Theorem C06_representable_accepted_partial : forall n s z, ascii_text s = true -> (1 <= n <= 62)%Z ->
  literal s z -> (- 2 ^ (n - 1) <= z < 2 ^ (n - 1))%Z -> strto64 s (- n) = SOk (Z.to_N (z mod 2 ^ 64)).
Proof. exact strto64_n_accepts. Qed.
Print Assumptions C06_representable_accepted_partial.

Example C06_ex : strto64 (txt "-128") (-8) = SOk (two64 - 128) /\ strto64 (txt "127") (-8) = SOk 127
  /\ strto64 (txt "512") (-8) = SErr AboveMax.
Proof. vm_compute. auto. Qed.

Theorem C06_unrepresentable_accepted_refuted :
  exists n s z r, (1 <= n <= 62)%Z /\ literal s z /\ ~ (- 2 ^ (n - 1) <= z < 2 ^ (n - 1))%Z /\
    strto64 s (- n) = SOk r.
Proof.
  exists 8%Z, (txt "0xFf"), 255%Z, 255. split; [lia|]. split; [exact literal_hex_ff|].
  split; [vm_compute; intuition congruence|reflexivity].
Qed.
Print Assumptions C06_unrepresentable_accepted_refuted.

(* unsigned sizes below 64 always fail an assertion *)
Theorem C06_unsigned_sizes_abort_refuted : strto64 (txt "1") 8 = SAbort.
Proof. reflexivity. Qed.
Print Assumptions C06_unsigned_sizes_abort_refuted.
