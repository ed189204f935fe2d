(* MangleModel.v: the generated names of types, of template instances and of functions.
   Transcribes src/ulam/UlamType.cpp:223-249, UlamTypeClass.cpp:143-182, SymbolFunction.cpp:227-261,
   SymbolClassName.cpp:108-115, SymbolClassNameTemplate.cpp:910-1000, SymbolWithValue.cpp:72-82,478-545,806-869,
   CompilerState.cpp:5532-5538 and include/UlamType.inc.
   EXTERNAL: _Int32ToInt32, _Bool64ToCbool, _Unary64ToInt64 (MFM library) take the number out of the bits (ext_val);
   BitVector::Read gives len bits at a position, most significant first.
   Simplifications: template arguments are known values (the code writes the parameter's name for one that is not);
   a user string is its stored form (C08, C09); the class behind a type is given by name. *)
From Coq Require Import String List NArith ZArith Bool.
From Verif Require Import Base LeximitedModel BitVec UTypeModel AtomModel PrimModel.
Import ListNotations.
Open Scope N_scope.

(* include/UlamType.inc *)
Definition codeChar (e : etype) : N :=
  match e with
  | ENouti => 111 | ENav => 110 | EHzy => 122 | EVoid => 118 | EInt => 105 | EUnsigned => 117 | EBool => 98
  | EUnary => 121 | EBits => 116 | EClass => 99 | EAtom => 97 | EPtr => 112 | EHolder => 104 | ELocals => 108
  | EString => 115
  end.

(* UlamType.cpp:230-243 and UlamTypeClass.cpp:150-163: what comes before the letter or the class name; 114 is 'r' *)
Definition mangledSizes (t : utype) : text :=
  (if isReference t then [114] else []) ++
  (if (ty_arr t >? 0)%Z then ToLeximitedNumber32s (ty_arr t)
   else if (ty_arr t =? 0)%Z then ToLeximitedNumber32s (-1)
   else dec 10) ++
  (if (ty_bits t >? 0)%Z then ToLeximitedNumber32s (ty_bits t) else dec 10).

(* UlamType.cpp:223-249 *)
Definition mangledType (t : utype) : text := mangledSizes t ++ ToLeximited [codeChar (ty_enum t)].

(* UlamTypeClass.cpp:143-168 *)
Definition mangledClassType (name : text) (t : utype) : text := mangledSizes t ++ ToLeximited name.

(* ---- template arguments ---- *)
(* the value of an argument: numbers as data of a u64 (one, or one for each item of an array), user strings in their
   stored form (length byte, bytes, NUL; just the NUL for the empty one), or the bits of a class constant *)
Inductive argval := AData (items : list N) | AStrings (items : list text) | AClass (bits : list bool).
Record arg := mkArg { a_ty : utype; a_val : argval }.

(* SymbolWithValue.cpp:806-861, all but strings; None is abort *)
Definition lexNumber (e : etype) (bs : Z) (varg : N) : option text :=
  match e with
  | EInt => if (bs <=? 32)%Z then Some (ToLeximitedNumber32s (ext_val EInt bs (u32 varg)))
            else if (bs <=? 64)%Z then Some (ToLeximitedNumber64s (ext_val EInt bs varg))
            else None
  | EBool => Some (ToLeximitedNumber32s (ext_val EBool bs varg))
  | EUnary => Some (ToLeximitedNumber32s (ext_val EUnary bs varg))
  | EUnsigned | EBits => if (bs <=? 32)%Z then Some (ToLeximitedNumber32u (u32 varg))
                         else if (bs <=? 64)%Z then Some (ToLeximitedNumber64u varg)
                         else None
  | _ => None
  end.

(* SymbolWithValue.cpp:858-859: a char is signed, so from 128 on it is sign-extended; setw(2) and setfill('0') *)
Definition hexByte (c : N) : text :=
  if c <? 16 then 48 :: hex c else if c <? 128 then hex c else hex (4294967040 + c).

(* SymbolWithValue.cpp:853-861: all but the last byte, the NUL *)
Definition lexString (stored : text) : text := flat_map hexByte (removelast stored).

Fixpoint sequence (l : list (option text)) : option text :=
  match l with
  | [] => Some []
  | Some s :: r => match sequence r with Some s' => Some (s ++ s') | None => None end
  | None :: _ => None
  end.

(* SymbolWithValue.cpp:478-512 getValueAsHexString: the i-th digit is Read(i, 4); tbs is the total size *)
Definition nybble (l : list bool) (i len : nat) : N := bval (firstn len (skipn i l)).
Definition getValueAsHexString (tbs : nat) (bits : list bool) : text :=
  if Nat.eqb tbs 0 then txt "0"
  else
    let tnybbles := Nat.div tbs 4 in
    let remainder := (tbs - tnybbles * 4)%nat in
    flat_map (fun i => hex (nybble bits i 4)) (seq 0 tnybbles) ++
    (if Nat.ltb 0 remainder
     then hex (nybble bits (tnybbles * 4) remainder * 2 ^ N.of_nat (4 - remainder)) else []).

(* SymbolClassNameTemplate.cpp:962-988: the type and the value of one argument; SymbolWithValue.cpp:514-545 for arrays *)
Definition argText (a : arg) : option text :=
  let t := a_ty a in
  let value :=
    if negb (isScalar t) then
      if (getTotalBitSize t =? 0)%Z then Some (txt "10")
      else match a_val a with
           | AData l => sequence (map (lexNumber (ty_enum t) (ty_bits t)) l)
           | AStrings l => sequence (map (fun s => Some (lexString s)) l)
           | AClass _ => None
           end
    else match a_val a with
         | AClass bits => Some (ToLeximited (getValueAsHexString (Z.to_nat (getTotalBitSize t)) bits))
         | AData [d] => lexNumber (ty_enum t) (ty_bits t) d
         | AStrings [s] => Some (lexString s)
         | _ => None
         end in
  match value with Some v => Some (mangledType t ++ v) | None => None end.

(* SymbolClassNameTemplate.cpp:910-1000 of an instance; [isref]: isAltRefType of the type asked about *)
Definition formatArgs (isref : bool) (args : list arg) : option text :=
  match sequence (map argText args) with
  | Some s => Some ((if isref then [114] else []) ++ ToLeximitedNumber32u (u32 (N.of_nat (List.length args))) ++ s)
  | None => None
  end.

(* ---- functions ---- *)
(* a parameter's type: not a class, or a class by name with its template arguments (None for a class that is no
   template) *)
Inductive ptype := PPlain (t : utype) | PClass (name : text) (t : utype) (args : option (list arg)).

(* SymbolFunction.cpp:239-258 with SymbolClassName.cpp:108-115 *)
Definition paramText (p : ptype) : option text :=
  match p with
  | PPlain t => Some (mangledType t)
  | PClass name t None => Some (mangledClassType name t ++ txt "10")
  | PClass name t (Some args) =>
    match formatArgs (isAltRefType t) args with
    | Some s => Some (mangledClassType name t ++ s)
    | None => None
    end
  end.

(* SymbolFunction.cpp:227-261 with Symbol.cpp:235-254 and CompilerState.cpp:5532-5538 *)
Definition getMangledNameWithTypes (name : text) (params : list ptype) : option text :=
  match sequence (map paramText params) with
  | Some s => Some (txt "Uf_" ++ ToLeximited name ++ ToLeximitedNumber32u (u32 (N.of_nat (List.length params))) ++ s)
  | None => None
  end.
