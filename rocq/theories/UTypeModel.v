(* UTypeModel.v: what the evaluator and the type checker look up about one type.
   A type here is the record of what the methods of UlamType return for it; the key
   (include/UlamKeyTypeSignature.h) carries name, bit size, array size, class instance and reference kind.
   Transcribes src/ulam/UlamType.cpp:444-517,756-768, UlamTypePrimitive.cpp:374-425,
   UlamTypeClass.cpp:300-305, UlamTypeClassElement.cpp:83-97, UlamTypeAtom.cpp:66-69,
   UlamTypeInternalPtr.cpp:18-21, CompilerState.cpp:2560-2577,6412-6415 and include/Constants.h. *)
From Coq Require Import String List NArith ZArith Bool.
From Verif Require Import Base.
Import ListNotations.
Open Scope Z_scope.

(* include/UlamType.inc and include/Constants.h:52-62 *)
Inductive etype := ENouti | ENav | EHzy | EVoid | EInt | EUnsigned | EBool | EUnary | EBits
  | EClass | EAtom | EPtr | EHolder | ELocals | EString.

Definition etype_eqb (a b : etype) : bool :=
  match a, b with
  | ENouti, ENouti | ENav, ENav | EHzy, EHzy | EVoid, EVoid | EInt, EInt | EUnsigned, EUnsigned
  | EBool, EBool | EUnary, EUnary | EBits, EBits | EClass, EClass | EAtom, EAtom | EPtr, EPtr
  | EHolder, EHolder | ELocals, ELocals | EString, EString => true
  | _, _ => false
  end.

(* include/Constants.h:101 (only the kinds a complete class or non-class has) *)
Inductive classtype := CQuark | CElement | CTransient | CNotaclass.

(* include/Constants.h:115 *)
Inductive alt := AltNot | AltAs | AltRef | AltConstref.

Definition alt_eqb (a b : alt) : bool :=
  match a, b with
  | AltNot, AltNot | AltAs, AltAs | AltRef, AltRef | AltConstref, AltConstref => true
  | _, _ => false
  end.

(* include/Constants.h:124 *)
Inductive packfit := UNPACKED | PACKED | PACKEDLOADABLE.

Definition packfit_eqb (a b : packfit) : bool :=
  match a, b with
  | UNPACKED, UNPACKED | PACKED, PACKED | PACKEDLOADABLE, PACKEDLOADABLE => true
  | _, _ => false
  end.

(* include/Constants.h:126 *)
Definition WritePacked (p : packfit) : bool := packfit_eqb p PACKED || packfit_eqb p PACKEDLOADABLE.

(* include/Constants.h:132-198 *)
Definition BITSPERATOM : Z := 96.
Definition ATOMFIRSTSTATEBITPOS : Z := 25.
Definition MAXSTATEBITS : Z := 71.
Definition MAXBITSPERINT : Z := 32.
Definition MAXBITSPERLONG : Z := 64.
Definition MAXBITSPERTRANSIENT : Z := 8192.
Definition UNKNOWNSIZE : Z := -2.
Definition NONARRAYSIZE : Z := -1.

(* ty_name and ty_inst are the name id and class instance index of the key; ty_toint says whether a class is a
   quark with a toInt method (UlamTypeClass::isNumericType); ty_base is getBaseClassBitSize *)
Record utype := mkTy {
  ty_enum : etype; ty_bits : Z; ty_arr : Z; ty_ref : alt; ty_ct : classtype;
  ty_name : N; ty_inst : N; ty_toint : bool; ty_base : Z }.

(* UlamType.cpp:444-447 *)
Definition isScalar (t : utype) : bool := ty_arr t =? NONARRAYSIZE.

(* UlamType.cpp:514-517 *)
Definition isComplete (t : utype) : bool := negb ((ty_bits t <=? UNKNOWNSIZE) || (ty_arr t =? UNKNOWNSIZE)).

(* UlamType.cpp:503-507 *)
Definition isAltRefType (t : utype) : bool := alt_eqb (ty_ref t) AltRef || alt_eqb (ty_ref t) AltConstref.

(* UlamType.cpp:495-501 *)
Definition isReference (t : utype) : bool := alt_eqb (ty_ref t) AltAs || isAltRefType t.

Definition u32z (z : Z) : Z := z mod 4294967296.
Definition s32z (z : Z) : Z := let m := z mod 4294967296 in if m <? 2147483648 then m else m - 4294967296.

(* UlamType.cpp:464-472; the product is an s32, converted to u32 (wraps for huge arrays) *)
Definition getTotalBitSize (t : utype) : Z :=
  let arraysize := if ty_arr t >? NONARRAYSIZE then ty_arr t else 1 in
  let bitsize := if ty_bits t =? UNKNOWNSIZE then 0 else ty_bits t in
  u32z (bitsize * arraysize).

(* UlamType.cpp:474-477 and UlamTypeClassElement.cpp:89-97 *)
Definition getSizeofUlamType (t : utype) : Z :=
  match ty_ct t with
  | CElement => u32z (BITSPERATOM * (if ty_arr t =? NONARRAYSIZE then 1 else ty_arr t))
  | _ => getTotalBitSize t
  end.

(* UlamType.cpp:756-768 (also UlamTypePrimitive.cpp:413-425, UlamTypeClass.cpp:300-305);
   elements, atoms and pointers are UNPACKED: UlamTypeClassElement.cpp:83-87, UlamTypeAtom.cpp:66-69,
   UlamTypeInternalPtr.cpp:18-21 *)
Definition getPackable (t : utype) : packfit :=
  match ty_enum t, ty_ct t with
  | EAtom, _ | EPtr, _ | _, CElement => UNPACKED
  | _, _ =>
    if getTotalBitSize t <=? MAXBITSPERLONG then PACKEDLOADABLE
    else if getTotalBitSize t <=? MAXSTATEBITS then PACKED
    else UNPACKED
  end.

(* CompilerState.cpp:6412-6415 *)
Definition determinePackable (t : utype) : packfit := getPackable t.

(* CompilerState.cpp:1562-1588: a scalar is itself; an array of a primitive drops array size and reference kind;
   an array of a class is the class instance (whose bit size is that of the array's items) *)
Definition asScalar (t : utype) : utype :=
  if isScalar t then t
  else mkTy (ty_enum t) (ty_bits t) NONARRAYSIZE AltNot (ty_ct t) (ty_name t) (ty_inst t) (ty_toint t) (ty_base t).

(* include/Constants.h:231 *)
Definition calcWordSize (l : Z) : Z :=
  (l / MAXBITSPERINT) * MAXBITSPERINT + (if l mod MAXBITSPERINT >? 0 then MAXBITSPERINT else 0).

(* a plain scalar or array of a primitive type *)
Definition prim (e : etype) (bits arr : Z) : utype := mkTy e bits arr AltNot CNotaclass 0 0 false 0.
