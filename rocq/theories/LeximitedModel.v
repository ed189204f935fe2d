(* LeximitedModel.v: the leximited text encoding used in every mangled name.
   Transcribes src/ulam/UlamUtil.cpp:11-131. *)
From Coq Require Import List NArith ZArith Bool.
From Verif Require Import Base.
Import ListNotations.
Open Scope N_scope.

(* EXTERNAL: MFM Util.h DigitCount(num, 10) and DigitCount64(num, 10): the number of decimal digits of a
   positive number. ULAM never calls it with 0 (UlamUtil.cpp:20-21, 53, 78-79, 116 special-case 0), except
   nowhere in ToLeximitedHeader, which is only called below with len >= 9. *)
Definition DigitCount10 (n : N) : N := N.of_nat (List.length (digits 10 n)).

(* UlamUtil.cpp:62-70 ToLeximitedHeader(u32 len). The C++ function recurses on the digit count, which is at
   most 10 for a u32; fuel 4 is never exhausted (LeximitedProofs.lexheader_eq). *)
Fixpoint lexheader_fuel (fuel : nat) (len : N) : text :=
  match fuel with
  | O => []
  | S f => if len <? 9 then dec len
           else 57 :: lexheader_fuel f (DigitCount10 len) ++ dec len
  end.

Definition ToLeximitedHeader (len : N) : text := lexheader_fuel 4 len.

(* UlamUtil.cpp:125-130 ToLeximited(const std::string&): source.length() is a size_t converted to the u32
   parameter of ToLeximitedHeader. *)
Definition ToLeximited (source : text) : text :=
  ToLeximitedHeader (u32 (N.of_nat (List.length source))) ++ source.

(* UlamUtil.cpp:50-59 ToLeximitedNumber(u32) and :113-122 ToLeximitedNumber64(u64) (the same code at another
   width; the argument is already a machine word). *)
Definition ToLeximitedNumberU (num : N) : text :=
  let digs := if num =? 0 then 1 else DigitCount10 num in
  ToLeximitedHeader digs ++ dec num.

(* UlamUtil.cpp:11-47 ToLeximitedNumber(s32) and :73-110 ToLeximitedNumber64(s64); [smin] is S32_MIN or
   S64_MIN. 110 is 'n'. In the C++ code num is overwritten (0 for the most negative number, -num for other
   negative numbers) before it is printed. *)
Definition ToLeximitedNumberS (smin : Z) (num : Z) : text :=
  let '(useneg, digs, num') :=
    if (num =? 0)%Z then (false, 1, num)
    else if (num <? 0)%Z then
      if (num =? smin)%Z then (true, 1, 0%Z)
      else (true, DigitCount10 (Z.to_N (- num)), (- num)%Z)
    else (false, DigitCount10 (Z.to_N num), num) in
  (if useneg then [110] else []) ++ ToLeximitedHeader digs ++ dec (Z.to_N num').

Definition S32_MIN : Z := (-2147483648)%Z.
Definition S64_MIN : Z := (-9223372036854775808)%Z.
Definition ToLeximitedNumber32s := ToLeximitedNumberS S32_MIN.
Definition ToLeximitedNumber64s := ToLeximitedNumberS S64_MIN.
Definition ToLeximitedNumber32u := ToLeximitedNumberU.
Definition ToLeximitedNumber64u := ToLeximitedNumberU.
