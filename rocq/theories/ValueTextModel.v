(* ValueTextModel.v: values of classes, arrays and members as they are written into the generated code and into the map of members.
   Transcribes src/ulam/SymbolWithValue.cpp:123-128, 193-212 (setValue, getInitValue, setInitValue), 394-434 (printPostfixValueArray),
   595-688 (getClassValueAsHexString, getLexValueAsString, getHexValueAsString), src/ulam/CompilerState.cpp:1710-1728, 1865-1888,
   src/ulam/SymbolClass.cpp:663-675, src/ulam/NodeBlockClass.cpp:4162-4240 (default values in the generated code),
   src/ulam/NodeVarDecl.cpp:1453-1478, src/ulam/NodeConstantDef.cpp:1719-1735, 1843-1871, src/ulam/NodeListArrayInitialization.cpp:508-570,
   src/ulam/MapDataMemberDesc.cpp:7-15, 41-49, src/ulam/MapConstantDesc.cpp:6-10, 31-36 and src/ulam/File.cpp:59-90.
   Simplifications: the text of a declaration starts at its [; a value is ready; sizes over 8192, beyond the vector, are None.
   EXTERNAL: BitVector::ToArray, word i is the bits 32 i to 32 i + 31; for other operations see BitVec.v. *)
From Coq Require Import String List NArith ZArith Bool.
From Verif Require Import Base TypeTableModel FamilyModel BitVec LeximitedModel HexEscapeModel UTypeModel AtomModel LayoutModel DefaultModel.
Import ListNotations.
Open Scope N_scope.

(* ToArray, the first n words *)
Definition words (n : nat) (bv : N) : list N := map (fun i => bv_read W8K (32 * N.of_nat i) 32 bv) (seq 0 n).
Definition nwords (len : N) : nat := N.to_nat ((len + 31) / 32).

(* ---- hexadecimal ---- *)
Fixpoint hexlist (ws : list N) : text :=
  match ws with
  | [] => []
  | [w] => txt "0x" ++ hex w
  | w :: r => txt "0x" ++ hex w ++ txt ", " ++ hexlist r
  end.
Definition all_zero (ws : list N) : bool := forallb (fun w => w =? 0) ws.
(* SymbolWithValue.cpp:652-688: the return value and rtnstr *)
Definition getHexValueAsString (len bv : N) : option (bool * text) :=
  check (len <=? W8K);
  let ws := words (nwords len) bv in
  if all_zero ws then Some (false, txt "0x0") else Some (true, hexlist ws).

(* CompilerState.cpp:1876-1887, NodeVarDecl.cpp:1463-1473, NodeConstantDef.cpp:1724-1735 and 1843-1864 (in these of a class). File.cpp:62
   prints with %i; len is below 2^31 here. *)
Definition declare (len : N) (init : text) : text :=
  (if len =? 0 then txt "[1] = " else txt "[(" ++ dec len ++ txt " + 31)/32] = ") ++ init ++ txt ";".
Definition declareClass (len bv : N) : option text :=
  match getHexValueAsString len bv with Some (_, h) => Some (declare len (txt "{ " ++ h ++ txt " }")) | None => None end.
(* SymbolWithValue.cpp:394-434: array of a primitive type that is not String *)
Definition printPostfixValueArray (tbs bv : N) : option text :=
  if tbs =? 0 then Some (txt "{ }")
  else match getHexValueAsString tbs bv with
       | Some (false, _) => Some (txt "{ 0 }")
       | Some (true, h) => Some (txt "{ " ++ h ++ txt " }")
       | None => None
       end.
(* NodeConstantDef.cpp:1843-1871 of such an array *)
Definition declareArray (tbs bv : N) : option text :=
  match printPostfixValueArray tbs bv with Some t => Some (declare tbs t) | None => None end.
(* NodeListArrayInitialization.cpp:518-541; UlamType.cpp:722-725 with the words of the total size (calcWordSize) *)
Definition declareList (tbs bv : N) : option text :=
  check (tbs <=? W8K);
  Some (txt "[" ++ dec (N.of_nat (nwords tbs)) ++ txt "] = { " ++ hexlist (words (nwords tbs) bv) ++ txt " };").
(* 543-567: an array of at most 64 bits; File.cpp:77-90 *)
Definition packedList (tbs bv : N) : option text :=
  if Nat.leb (nwords tbs) 1 then Some (txt "0x" ++ hex (bv_read W8K 0 tbs bv))
  else if Nat.eqb (nwords tbs) 2 then Some (ToUnsignedDecimal (bv_read W8K 0 tbs bv))
  else None.
(* NodeBlockClass.cpp:4226-4234 *)
Definition quarkText (len qval : N) : text :=
  if qval =? 0 then dec 0 else if len <=? 32 then txt "0x" ++ hex (u32 qval) else ToUnsignedDecimal qval.

(* ---- leximited ---- *)
(* SymbolWithValue.cpp:611-650: words without those at the end that are zero *)
Definition strip_zeros (ws : list N) : list N :=
  rev ((fix drop (l : list N) := match l with w :: r => if w =? 0 then drop r else l | [] => [] end) (rev ws)).
Definition getLexValueAsString (len bv : N) : option text :=
  check (len <=? W8K);
  let ws := words (nwords len) bv in
  if all_zero ws then Some (txt "10")
  else let ws := strip_zeros ws in Some (ToLeximitedNumber32u (N.of_nat (List.length ws)) ++ flat_map ToLeximitedNumber32u ws).

(* setInitValue and getInitValue, setValue and getValue: the bits of the type's size *)
Definition stored (m : mtype) (v : N) : option N := copyBV v 0 0 (getSizeofUlamType m) 0.
(* MapDataMemberDesc.cpp:7-15, 41-49 and MapConstantDesc.cpp:6-10, 31-36: init is the value of the member or constant, if it has one *)
Definition mapText (m : mtype) (init : option N) : option text :=
  match init with
  | None => Some (txt "10")
  | Some v => bind (stored m v) (fun v => getLexValueAsString (getTotalBitSize m) v)
  end.

Section Default.
Variable root : N -> N.
Variable classes : N -> option lclass.
(* NodeBlockClass.cpp:4162-4182 with the default value of the class; None: no array is written *)
Definition defaultText (c : N) (k : lclass) (dv : N) : option text :=
  check (0 <? totalbits root classes c);
  declareClass (if is_element (lc_kind k) then 96 else totalbits root classes c) dv.
(* CompilerState.cpp:1710-1728, SymbolClass.cpp:663-675, NodeBlockClass.cpp:4204-4234 *)
Definition quarkDefault (c : N) (dv : N) : option text :=
  let len := totalbits root classes c in
  check (len <=? 64);
  Some (quarkText len (if 0 <? len then bv_read W8K 0 len dv else 0)).
End Default.
