(* HexEscapeTheorems.v: properties C03, C04, C44. *)
From Coq Require Import String List NArith ZArith Lia Bool.
From Coq Require Import ZifyBool ZifyNat ZifyN.
From Verif Require Import Base HexEscapeModel HexEscapeSpec HexEscapeProofs.
Import ListNotations.
Open Scope N_scope.

(* C03 *)
Theorem C03_hexescape_roundtrip : forall s, is_text s = true -> unescape (HexEscape s) = Some s.
Proof. exact unescape_HexEscape. Qed.
Print Assumptions C03_hexescape_roundtrip.

Theorem C03_hexescape_visible : forall s, is_text s = true -> forallb visible (HexEscape s) = true.
Proof. exact HexEscape_visible. Qed.
Print Assumptions C03_hexescape_visible.

Theorem C03_hexescape_injective : forall s t, is_text s = true -> is_text t = true ->
  HexEscape s = HexEscape t -> s = t.
Proof.
  intros s t Hs Ht E. pose proof (unescape_HexEscape s Hs) as A.
  rewrite E, unescape_HexEscape in A by auto. congruence.
Qed.
Print Assumptions C03_hexescape_injective.

Example C03_ex : HexEscape (txt "a b%" ++ [10; 255]) = txt "a%20b%25%0a%ff"
  /\ is_text (txt "a b%" ++ [10; 255]) = true.
Proof. vm_compute. auto. Qed.

(* C04 *)
Theorem C04_unsigned_constant_exact : forall d, d < 2 ^ 64 -> read_HexU64 (ToUnsignedDecimal d) = Some d.
Proof. exact ToUnsignedDecimal_ok. Qed.
Print Assumptions C04_unsigned_constant_exact.

(* a signed constant is emitted as its two's complement bit pattern *)
Theorem C04_signed_constant_exact : forall z, (- 2 ^ 63 <= z < 2 ^ 63)%Z ->
  exists d, read_HexU64 (ToSignedDecimal z) = Some d /\ d < 2 ^ 64 /\
            (if (d <? 2 ^ 63)%N then Z.of_N d else Z.of_N d - 2 ^ 64)%Z = z.
Proof.
  intros z Hz. exists (Z.to_N (z mod Z.of_N two64)). split; [apply ToSignedDecimal_ok|].
  unfold two64. change (2 ^ 64) with 18446744073709551616. change (2 ^ 63) with 9223372036854775808.
  change (2 ^ 64)%Z with 18446744073709551616%Z. change (2 ^ 63)%Z with 9223372036854775808%Z in *.
  change (Z.of_N 18446744073709551616) with 18446744073709551616%Z.
  split; [lia|]. destruct (N.ltb_spec (Z.to_N (z mod 18446744073709551616)) 9223372036854775808); lia.
Qed.
Print Assumptions C04_signed_constant_exact.

Example C04_ex : ToSignedDecimal (-2) = txt "HexU64(0xffffffff, 0xfffffffe)"
  /\ ToUnsignedDecimal 4294967296 = txt "HexU64(0x1, 0x0)".
Proof. vm_compute. auto. Qed.

(* C44: what is accepted is a file name with the suffix, and the result is the length of the stem *)
Theorem C44_accepted_is_ulam_file : forall s, N.of_nat (List.length s) < 2 ^ 32 ->
  FindUlamFilenameSuffix s <> 0 ->
  ulam_file_name s (firstn (N.to_nat (FindUlamFilenameSuffix s)) s).
Proof.
  intros s HL H. destruct (suffix_accept s _ eq_refl HL H) as (stem & A & B & C & _).
  rewrite C, B, Nat2N.id. unfold ulam_file_name.
  rewrite firstn_app, firstn_all, Nat.sub_diag, firstn_O, app_nil_r. auto.
Qed.
Print Assumptions C44_accepted_is_ulam_file.

(* Missing: the converse holds only if the stem itself does not contain ".ulam" (see the refutation). *)
Theorem C44_ulam_file_accepted_partial : forall s stem, N.of_nat (List.length s) < 2 ^ 32 ->
  ulam_file_name s stem ->
  (forall j, (j < List.length stem)%nat -> prefixb (txt ".ulam") (skipn j s) = false) ->
  FindUlamFilenameSuffix s = N.of_nat (List.length stem).
Proof.
  intros s stem HL (A & ->) H. apply suffix_accept_conv; auto.
  rewrite app_length in HL. unfold two32. change (2 ^ 32) with 4294967296 in HL. lia.
Qed.
Print Assumptions C44_ulam_file_accepted_partial.

Theorem C44_repeated_suffix_refuted :
  exists s stem, ulam_file_name s stem /\ FindUlamFilenameSuffix s = 0.
Proof.
  exists (txt "a.ulam.ulam"), (txt "a.ulam"). split; [split; [discriminate|reflexivity]|reflexivity].
Qed.
Print Assumptions C44_repeated_suffix_refuted.

Example C44_ex : FindUlamFilenameSuffix (txt "Foo.ulam") = 3 /\ FindUlamFilenameSuffix (txt ".ulam") = 0
  /\ FindUlamFilenameSuffix (txt "Foo.ulam~") = 0
  /\ (forall j, (j < 3)%nat -> prefixb (txt ".ulam") (skipn j (txt "Foo.ulam")) = false).
Proof.
  repeat split; try reflexivity. intros j Hj.
  destruct j as [|[|[|j]]]; [reflexivity..|lia].
Qed.
