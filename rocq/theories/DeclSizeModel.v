(* DeclSizeModel.v: the sizes written in declarations: the bit size within ( ) after the name of a type, the number of
   items within [ ] after the name of a variable, and what a data member may hold.
   Transcribes src/ulam/Parser.cpp:2804-2808,3328-3390 (parseTypeBitsize), src/ulam/NodeTypeBitsize.cpp:66-133
   (checkAndLabelType), 147-275 (getTypeBitSizeInParen), src/ulam/NodeTypeDescriptor.cpp:720-775 (resolveTypeBitsize),
   src/ulam/NodeSquareBracket.cpp:886-999 (getArraysizeInBracket), src/ulam/NodeTypeDescriptorArray.cpp:218-266
   (resolveTypeArraysize) and src/ulam/NodeVarDeclDM.cpp:492-573 (checkDataMemberSizeConstraints).
   Simplifications: the expression has been labelled and evaluated, it is a constant and ready; what is modelled is what
   becomes of its value.  setSizesOfNonClassAndArrays is sizesAccepted of TypeTableModel.v: the type is not complete
   before its size is set.  Arrays of arrays, empty brackets and holders are left out. *)
From Coq Require Import List NArith ZArith Lia Bool.
From Verif Require Import Base SourceStreamModel UTypeModel TypeTableModel.
Import ListNotations.
Open Scope Z_scope.

(* a constant: its base type, its bit size and its bits *)
Record cst := mkCst { c_enum : etype; c_bits : Z; c_data : Z }.

Inductive outcome :=
  | Undefined              (* an s32 overflows *)
  | Refused                (* an error message *)
  | Waits                  (* no error, the type is not complete and will be tried again *)
  | Size (n : Z).          (* the type is complete, with this size *)

(* include/UlamType.inc:1-15, include/Constants.h:219-227; BITSPERBOOL is 1 *)
Definition STRINGIDXBITS : Z := 18.
Definition defaultBits (e : etype) : Z :=
  match e with
  | EInt | EUnsigned | EUnary | EBits => 32
  | EBool => 1
  | EAtom => 96
  | EPtr => MAXSTATEBITS
  | EString => STRINGIDXBITS
  | ENav | EHzy | EHolder => UNKNOWNSIZE
  | _ => 0
  end.

(* Constants.h:164-166 *)
Definition MAXBITSPERLONG : Z := 64.

(* UlamTypePrimitiveInt.cpp:41, UlamTypePrimitiveUnsigned.cpp:41, UlamTypePrimitiveUnary.cpp:41; the others inherit
   UlamTypePrimitive.cpp:13-16, or say false themselves (UlamTypePrimitiveString.cpp:41) *)
Definition isNumericPrim (e : etype) : bool := match e with EInt | EUnsigned | EUnary => true | _ => false end.

Section Sizes.
  (* EXTERNAL: _Int32ToCs32, _Unsigned32ToCs32, _Unary32ToCs32, _Bool32ToCs32, _Bits32ToCs32: base type, width, data
     (getDataAsCs32 of the six types; UlamTypePrimitiveString.cpp:231-234 is that of Unsigned) *)
  Variable cs32 : etype -> Z -> Z -> Z.

  (* NodeTypeBitsize.cpp:196-221 and NodeSquareBracket.cpp:958-968: more than 32 bits are cut to 32 *)
  Definition sizeValue (c : cst) : Z := cs32 (c_enum c) (c_bits c) (u32z (c_data c)).

  (* NodeTypeBitsize.cpp:238-275; None: refused.  The decrement of the least s32 overflows *)
  Definition getTypeBitSizeInParen (but : etype) (c : cst) : outcome :=
    let n := sizeValue c in
    if (if etype_eqb but EBits then n >? MAXBITSPERTRANSIENT else n >? MAXBITSPERLONG) then Refused
    else if etype_eqb but EBool && (Z.rem n 2 =? 0) then
      if n =? - 2147483648 then Undefined else Size (n - 1)
    else Size n.

  (* NodeTypeDescriptor.cpp:731-756 *)
  Definition resolveTypeBitsize (but : etype) (c : cst) : outcome :=
    match getTypeBitSizeInParen but c with
    | Size bs => if bs <? 0 then Refused
                 else if sizesAccepted but UNKNOWNSIZE bs NONARRAYSIZE then Size bs else Refused
    | o => o
    end.

  (* Parser.cpp:2805, 3328-3390: without parentheses the size of the type's kind; for Void and String the expression is
     thrown away with a warning *)
  Definition declScalar (but : etype) (c : option cst) : outcome :=
    match c with
    | None => Size (defaultBits but)
    | Some c => if etype_eqb but EVoid then Size 0
                else if etype_eqb but EString then Size STRINGIDXBITS
                else resolveTypeBitsize but c
    end.

  (* NodeSquareBracket.cpp:947-999 *)
  Definition getArraysizeInBracket (c : cst) : outcome :=
    if isNumericPrim (c_enum c) then
      let n := sizeValue c in
      if (n <? 0) && negb (n =? UNKNOWNSIZE) then Refused else Size n
    else Refused.

  (* NodeTypeDescriptorArray.cpp:241-266: the items have base type e and b bits; old is the bit size in the key of the
     array type so far *)
  Definition declArray (e : etype) (old b : Z) (c : cst) : outcome :=
    match getArraysizeInBracket c with
    | Size n => if sizesAccepted e old b n then if n =? UNKNOWNSIZE then Waits else Size n else Refused
    | o => o
    end.
End Sizes.

(* NodeVarDeclDM.cpp:492-573: the class with the member, the type of the member: its class type, is it no array, is it
   numeric, its bits in all.  false: an error message *)
Definition checkDataMemberSizeConstraints (this dm : ulamclass) (scalar numeric : bool) (len : Z) : bool :=
  let is ct := match ct, dm with
               | UcElement, UcElement | UcQuark, UcQuark | UcTransient, UcTransient | UcNotaclass, UcNotaclass => true
               | _, _ => false end in
  let outside := match this with UcTransient => false | _ => true end in
  let bad1 := outside && (len >? MAXBITSPERLONG) && is UcNotaclass && scalar && numeric in
  let bad2 := outside && is UcElement in
  let bad3 := outside && is UcQuark && negb scalar && (len >? MAXSTATEBITS) in
  let bad4 := outside && is UcTransient in
  let bad5 := is UcQuark && scalar && (len >? MAXBITSPERLONG) in
  negb (bad1 || bad2 || bad3 || bad4 || bad5).
