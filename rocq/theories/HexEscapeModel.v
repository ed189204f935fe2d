(* HexEscapeModel.v: HexEscape, the HexU64 constant text, and the .ulam suffix test.
   Transcribes src/ulam/UlamUtil.cpp:133-197. *)
From Coq Require Import String List NArith ZArith Bool.
From Verif Require Import Base.
Import ListNotations.
Open Scope N_scope.

(* EXTERNAL: isgraph in the C locale *)
Definition isgraph (c : N) : bool := (33 <=? c) && (c <=? 126).

(* UlamUtil.cpp:133-159 HexEscape: 37 is '%', 48 is '0'; std::hex prints lower case without padding *)
Fixpoint HexEscape (source : text) : text :=
  match source with
  | [] => []
  | ch :: r =>
    (if isgraph ch && negb (ch =? 37) then [ch]
     else 37 :: (if ch <? 16 then [48] else []) ++ hex ch) ++ HexEscape r
  end.

(* UlamUtil.cpp:173-183 ToUnsignedDecimal(u64): EXTERNAL _ShiftFromBitNumber64(x,32) is x >> 32 and
   _GetMask64(0,32) is 2^32-1 *)
Definition ToUnsignedDecimal (data : N) : text :=
  let uvalhi := u32 (N.shiftr data 32) in
  let uvallo := u32 (N.land (two32 - 1) data) in
  txt "HexU64(" ++ txt "0x" ++ hex uvalhi ++ txt ", " ++ txt "0x" ++ hex uvallo ++ txt ")".

(* UlamUtil.cpp:161-171 ToSignedDecimal(s64): the cast (u64) data is reduction modulo 2^64 *)
Definition ToSignedDecimal (data : Z) : text :=
  let d := Z.to_N (data mod Z.of_N two64) in
  let svalhi := u32 (N.shiftr d 32) in
  let svallo := u32 (N.land (two32 - 1) d) in
  txt "HexU64(" ++ txt "0x" ++ hex svalhi ++ txt ", " ++ txt "0x" ++ hex svallo ++ txt ")".

(* std::string::find(".ulam"): index of the first occurrence *)
Fixpoint prefixb (p s : text) : bool :=
  match p, s with
  | [], _ => true
  | a :: p', b :: s' => (a =? b) && prefixb p' s'
  | _ :: _, [] => false
  end.

Fixpoint find_sub (p s : text) : option nat :=
  if prefixb p s then Some O
  else match s with
       | [] => None
       | _ :: s' => match find_sub p s' with Some i => Some (S i) | None => None end
       end.

Definition dot_ulam : text := txt ".ulam".

(* UlamUtil.cpp:185-195 FindUlamFilenameSuffix: 0 means "not a ulam file name". The comparison with
   fnstr.length()-5 is modulo 2^64, but an occurrence of .ulam implies a length of at least 5. The result is
   converted from size_t to u32. *)
Definition FindUlamFilenameSuffix (fnstr : text) : N :=
  match find_sub dot_ulam fnstr with
  | None => 0
  | Some i => if negb (Nat.eqb i (List.length fnstr - 5)) || Nat.eqb i 0 then 0 else u32 (N.of_nat i)
  end.
