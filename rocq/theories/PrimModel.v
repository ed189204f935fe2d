(* PrimModel.v: casts between the primitive types, their limits, and literals.
   Transcribes src/ulam/UlamType.cpp:96-182, UlamTypePrimitive.cpp:23-57,374-411,
   UlamTypePrimitive{Int,Unsigned,Unary,Bool,Bits}.cpp (constructor, cast, castTo32, castTo64, safeCast),
   include/Constants.h:233-245 and NodeTerminal.cpp:132-204,230-319,331-551.
   EXTERNAL: the conversions _Int32ToInt32, _Unsigned64ToUnary64, ... and the comparisons _BinOpCompareEqEqInt32, ...
   belong to the MFM library and are not in the repository.  They are modelled by what they are used for:
   take the number out of the source bits (ext_val), bring it into the range of the destination, write it as
   destination bits (ext_enc).  The 32 and 64 bit versions differ only in the width of their operands.
   Simplifications: messages are dropped; a type is the record of UTypeModel.v; class types are compared by
   instance index in checkReferenceCast; the cast of a String to a Bool (32 bit only) fails here;
   ~data for a failed conversion is a value different from data. *)
From Coq Require Import String List NArith ZArith Lia Bool.
From Coq Require Import ZifyBool ZifyNat ZifyN.
From Verif Require Import Base BitVec UTypeModel AtomModel.
Import ListNotations.
Open Scope N_scope.

(* include/Constants.h:109 *)
Inductive forecast := CAST_HAZY | CAST_CLEAR | CAST_BAD.

Definition forecast_eqb (a b : forecast) : bool :=
  match a, b with
  | CAST_HAZY, CAST_HAZY | CAST_CLEAR, CAST_CLEAR | CAST_BAD, CAST_BAD => true
  | _, _ => false
  end.

(* ---- UlamType::safeCast ---- *)
(* UlamType.cpp:124-152 *)
Definition checkArrayCast (self from : utype) : bool :=
  if isScalar self && isScalar from then true else (ty_arr self =? ty_arr from)%Z.

(* UlamType.cpp:154-182 *)
Definition checkReferenceCast (self from : utype) : bool :=
  (ty_name self =? ty_name from) && (ty_arr self =? ty_arr from)%Z && (ty_inst self =? ty_inst from)
  && (ty_bits self =? ty_bits from)%Z
  && negb (alt_eqb (ty_ref from) AltConstref && alt_eqb (ty_ref self) AltRef).

(* UlamType.cpp:96-116 *)
Definition base_safeCast (self from : utype) : forecast :=
  if negb (isComplete self) || negb (isComplete from) then CAST_HAZY
  else if negb (checkArrayCast self from) then CAST_BAD
  else if alt_eqb (ty_ref from) AltConstref && alt_eqb (ty_ref self) AltRef then CAST_BAD
  else CAST_CLEAR.

(* UlamTypePrimitive.cpp:23-35 *)
Definition prim_safeCast (self from : utype) : forecast :=
  match base_safeCast self from with
  | CAST_CLEAR => if isAltRefType self && negb (checkReferenceCast self from) then CAST_BAD else CAST_CLEAR
  | f => f
  end.

(* ---- limits ---- *)
(* _getLogBase2 (EXTERNAL): floor of the base-2 logarithm, 0 for 0 *)
Definition getLogBase2 (n : Z) : Z := Z.log2 n.

(* _GetNOnes31, 32, 63, 64 (EXTERNAL) *)
Definition GetNOnes (n : Z) : Z := (2 ^ n - 1)%Z.

(* _SignExtend32, _SignExtend64 (EXTERNAL): the low bits bits of x as a two's complement number *)
Definition SignExtend (x bits : Z) : Z :=
  let m := (x mod 2 ^ bits)%Z in if (m <? 2 ^ (bits - 1))%Z then m else (m - 2 ^ bits)%Z.

(* m_max and m_min: UlamTypePrimitiveInt.cpp:10-36 with include/Constants.h:237-245; UlamTypePrimitiveUnsigned.cpp:10-34;
   UlamTypePrimitiveUnary.cpp:10-34; UlamTypePrimitiveBool.cpp:10-33; UlamTypePrimitiveBits.cpp:10-28 *)
Definition getMax (t : utype) : Z :=
  let l := ty_bits t in
  if (l <=? 0)%Z then 0%Z else
  match ty_enum t with
  | EInt => if (l <=? 32)%Z then (if (l =? 32)%Z then 2147483647 else GetNOnes (l - 1))%Z
            else (if (l =? 64)%Z then 9223372036854775807 else GetNOnes (l - 1))%Z
  | EUnsigned => if (l <=? 32)%Z then (if (l =? 32)%Z then 4294967295 else GetNOnes l)%Z
                 else (if (l =? 64)%Z then 18446744073709551615 else GetNOnes l)%Z
  | EUnary | EBool => GetNOnes l
  | _ => 0%Z
  end.

Definition getMin (t : utype) : Z :=
  let l := ty_bits t in
  if (l <=? 0)%Z then 0%Z else
  match ty_enum t with
  | EInt => if (l <=? 32)%Z then (if (l =? 32)%Z then -2147483648 else SignExtend (GetNOnes (l - 1) + 1) l)%Z
            else (if (l =? 64)%Z then -9223372036854775808 else SignExtend (GetNOnes (l - 1) + 1) l)%Z
  | _ => 0%Z
  end.

(* m_wordLengthTotal of the primitive types: the constructors above *)
Definition getTotalWordSize (t : utype) : Z :=
  match ty_enum t with
  | EBits => if (ty_bits t <=? 64)%Z then calcWordSize (getTotalBitSize t) else MAXBITSPERTRANSIENT
  | _ => calcWordSize (getTotalBitSize t)
  end.

(* conversion of a signed or unsigned C integer to u32 or u64 *)
Definition zu32 (z : Z) : N := Z.to_N (z mod 2 ^ 32).
Definition zu64 (z : Z) : N := Z.to_N (z mod 2 ^ 64).

(* UlamTypePrimitive.cpp:389-399 (used by maxof: NodeTerminalProxy.cpp:602-620) *)
Definition getMaxUV (t : utype) : option uval :=
  if (getTotalWordSize t <=? 32)%Z then makeImmediate t (zu32 (getMax t))
  else if (getTotalWordSize t <=? 64)%Z then makeImmediateLong t (zu64 (getMax t))
  else None.

(* UlamTypePrimitive.cpp:401-411 *)
Definition getMinUV (t : utype) : option uval :=
  if (getTotalWordSize t <=? 32)%Z then makeImmediate t (zu32 (getMin t))
  else if (getTotalWordSize t <=? 64)%Z then makeImmediateLong t (zu64 (getMin t))
  else None.

(* ---- safeCast of each destination; None is abortUndefinedUlamType ---- *)
(* UlamTypePrimitiveInt.cpp:180-225 *)
Definition int_safe (self from : utype) : option bool :=
  match ty_enum from with
  | EInt => Some (ty_bits self >=? ty_bits from)%Z
  | EUnsigned => Some (ty_bits self >? ty_bits from)%Z
  | EUnary => Some (ty_bits self >? getLogBase2 (ty_bits from) + 1)%Z
  | EBool | EBits | EVoid | EAtom | EString => Some false
  | EClass => Some (if ty_toint from then (ty_bits self >=? 32)%Z else false)
  | _ => None
  end.

(* UlamTypePrimitiveUnsigned.cpp:186-220 *)
Definition unsigned_safe (self from : utype) : option bool :=
  match ty_enum from with
  | EUnsigned => Some (ty_bits self >=? ty_bits from)%Z
  | EUnary => Some (ty_bits self >=? getLogBase2 (ty_bits from) + 1)%Z
  | EInt | EBool | EBits | EVoid | EAtom | EClass | EString => Some false
  | _ => None
  end.

(* UlamTypePrimitiveUnary.cpp:175-215; both branches of the word size test convert to unsigned and compare *)
Definition unary_safe (self from : utype) : option bool :=
  match ty_enum from with
  | EUnsigned => if (getTotalWordSize from <=? 32)%Z then Some (zu32 (getMax from) <=? zu32 (ty_bits self))
                 else Some (zu64 (getMax from) <=? zu64 (ty_bits self))
  | EUnary => Some (ty_bits self >=? ty_bits from)%Z
  | EInt | EBool | EBits | EVoid | EAtom | EClass | EString => Some false
  | _ => None
  end.

(* UlamTypePrimitiveBool.cpp:174-207 *)
Definition bool_safe (self from : utype) : option bool :=
  match ty_enum from with
  | EBool => Some true
  | EUnsigned | EUnary => Some (ty_bits from =? 1)%Z
  | EInt | EBits | EVoid | EAtom | EClass | EString => Some false
  | _ => None
  end.

(* UlamTypePrimitiveBits.cpp:145-185 *)
Definition bits_safe (self from : utype) : option bool :=
  match ty_enum from with
  | EUnsigned | EUnary | EInt | EBool | EBits => Some (ty_bits self >=? ty_bits from)%Z
  | EString | EVoid | EAtom => Some false
  | EClass => Some (if ty_toint from then (ty_bits self >=? 32)%Z else false)
  | _ => None
  end.

(* safeCast of the five arithmetic and bit types *)
Definition safeCast (self from : utype) : option forecast :=
  match prim_safeCast self from with
  | CAST_CLEAR =>
    do ok <- match ty_enum self with
             | EInt => int_safe self from
             | EUnsigned => unsigned_safe self from
             | EUnary => unary_safe self from
             | EBool => bool_safe self from
             | EBits => bits_safe self from
             | _ => None
             end;
    Some (if ok : bool then CAST_CLEAR else CAST_BAD)
  | f => Some f
  end.

(* ---- EXTERNAL conversions ---- *)
Fixpoint popcount (n : nat) (d : N) : nat :=
  match n with O => O | S k => ((if N.testbit d (N.of_nat k) then 1 else 0) + popcount k d)%nat end.

(* _Int32ToCs32, _Unsigned32ToCu32, _Unary32ToCu32, _Bool32ToCbool and their 64 bit versions *)
Definition ext_val (e : etype) (n : Z) (d : N) : Z :=
  match e with
  | EInt => SignExtend (Z.of_N d) n
  | EUnary => Z.of_nat (popcount (Z.to_nat n) d)
  | EBool => if (n <? 2 * Z.of_nat (popcount (Z.to_nat n) d))%Z then 1 else 0
  | _ => (Z.of_N d mod 2 ^ n)%Z
  end.

Definition clamp (lo hi z : Z) : Z := if (z <? lo)%Z then lo else if (z >? hi)%Z then hi else z.

(* the second half of the conversions: into range, then to the bits of the destination *)
Definition ext_enc (e : etype) (n : Z) (z : Z) : N :=
  match e with
  | EInt => Z.to_N (clamp (- 2 ^ (n - 1)) (2 ^ (n - 1) - 1) z mod 2 ^ n)
  | EUnsigned => Z.to_N (clamp 0 (2 ^ n - 1) z)
  | EUnary => Z.to_N (GetNOnes (clamp 0 n z))
  | EBool => if (z =? 0)%Z then 0 else Z.to_N (GetNOnes n)
  | _ => 0
  end.

(* the switch statements of castTo32 and castTo64 (the two differ only in operand width): Int: UlamTypePrimitiveInt.cpp:
   88-126,128-178; Unsigned: 90-128,130-184; Unary: 82-118,120-173; Bool: 76-116,118-172; Bits: 83-109,111-143.
   None: the source type is not supported, the cast fails *)
Definition conv (to_e from_e : etype) (d : N) (fb tb : Z) : option N :=
  match to_e, from_e with
  | EInt, (EInt | EUnsigned | EUnary | EBool) => Some (ext_enc EInt tb (ext_val from_e fb d))
  | EInt, EBits => Some (d mod Z.to_N (2 ^ tb))   (* _Bits32ToInt32: the low bits *)
  | EUnsigned, (EInt | EUnsigned | EBool | EUnary) => Some (ext_enc EUnsigned tb (ext_val from_e fb d))
  | EUnsigned, EBits => Some d
  | EUnary, (EInt | EUnsigned | EBool | EUnary) => Some (ext_enc EUnary tb (ext_val from_e fb d))
  | EUnary, EBits => Some d
  | EBool, (EInt | EUnsigned | EUnary | EBool) => Some (ext_enc EBool tb (ext_val from_e fb d))
  | EBool, EBits => Some (d mod Z.to_N (2 ^ tb))
  | EBits, (EVoid | EInt | EUnsigned | EBool | EUnary | EBits | EClass) => Some d
  | _, _ => None
  end.

Inductive castres := CastAbort | CastFalse | CastVal (v : uval).

(* UlamValue.cpp:750-763 and 804-814: the length is the bit size of the type, 0 gives 0 *)
Definition valData (v : uval) : option N :=
  do len <- zlen (ty_bits (v_ty v)); if len =? 0 then Some 0 else getImmediateData len v.
Definition valDataLong (v : uval) : option N :=
  do len <- zlen (ty_bits (v_ty v)); if len =? 0 then Some 0 else getImmediateDataLong len v.

Definition fin (o : option uval) : castres := match o with Some v => CastVal v | None => CastAbort end.

(* castTo32 *)
Definition castTo32 (t : utype) (v : uval) : castres :=
  match valData v with
  | None => CastAbort
  | Some d => match conv (ty_enum t) (ty_enum (v_ty v)) d (ty_bits (v_ty v)) (ty_bits t) with
              | None => CastFalse
              | Some s => fin (makeImmediate t (u32 s))
              end
  end.

(* castTo64; the Bits version makes a long value even for a short type *)
Definition castTo64 (t : utype) (v : uval) : castres :=
  let vw := getTotalWordSize (v_ty v) in
  match (if (vw <=? 32)%Z then valData v else if (vw <=? 64)%Z then valDataLong v else None) with
  | None => CastAbort
  | Some d => match conv (ty_enum t) (ty_enum (v_ty v)) d (ty_bits (v_ty v)) (ty_bits t) with
              | None => CastFalse
              | Some s =>
                match ty_enum t with
                | EBits => fin (makeImmediateLong t (u64 s))
                | _ => if (getTotalWordSize t <=? 32)%Z then fin (makeImmediate t (u32 s))
                       else if (getTotalWordSize t <=? 64)%Z then fin (makeImmediateLong t (u64 s))
                       else CastAbort
                end
              end
  end.

(* cast: UlamTypePrimitiveInt.cpp:53-86, Unsigned:54-88, Unary:46-80, Bool:40-74, Bits:39-81 *)
Definition cast (t : utype) (v : uval) : castres :=
  match prim_safeCast t (v_ty v) with
  | CAST_CLEAR =>
    let w := getTotalWordSize t in
    let vw := getTotalWordSize (v_ty v) in
    if (w <=? 32)%Z then
      if (vw <=? 32)%Z then castTo32 t v
      else if (vw <=? 64)%Z then castTo64 t v
      else CastAbort
    else if (w <=? 64)%Z then castTo64 t v
    else match ty_enum t with
         | EBits => if (vw <=? w)%Z then CastVal (mkUV t (v_bits v)) else CastFalse
         | _ => CastFalse
         end
  | _ => CastFalse
  end.

(* ---- literals ---- *)
(* NodeTerminal.cpp:162-204: the bit size given to a number with 64-bit pattern c *)
Definition literalBits (e : etype) (c : N) : option Z :=
  match e with
  | EInt => let sval := SignExtend (Z.of_N c) 64 in
            Some (clamp 1 64 (getLogBase2 (Z.abs sval) + 1 + 1))
  | EBits | EUnsigned => Some (getLogBase2 (Z.of_N c) + 1)%Z
  | EUnary => Some (if 64 <? c then 64%Z else Z.of_N c)
  | EBool => Some 1%Z
  | _ => None
  end.

(* _BinOpCompareEqEqInt32, ... (EXTERNAL): the numbers are equal *)
Definition cmpEq (e : etype) (n : Z) (a b : N) : bool := (ext_val e n a =? ext_val e n b)%Z.

(* NodeTerminal.cpp:243-281 and 283-319 *)
Definition makeTerminalValue (t : utype) (d : N) : option uval := makeImmediate t (u32 d).
Definition makeTerminalValueLong (t : utype) (d : N) : option uval := makeImmediateLong t (u64 d).

(* NodeTerminal.cpp:528-539; None inside Some is a failed cast (~data) *)
Definition convertForthAndBack (t : utype) (d : N) (dest : utype) : option (option N) :=
  do uv <- makeTerminalValue t d;
  match cast dest uv with
  | CastAbort => None
  | r1 =>
    let uv1 := match r1 with CastVal x => x | _ => uv end in
    match cast t uv1 with
    | CastAbort => None
    | CastFalse => Some None
    | CastVal x => match r1 with
                   | CastVal _ => do r <- getImmediateData 32 x; Some (Some r)
                   | _ => Some None
                   end
    end
  end.

(* NodeTerminal.cpp:541-551 *)
Definition convertForthAndBackLong (t : utype) (d : N) (dest : utype) : option (option N) :=
  do uv <- makeTerminalValueLong t d;
  match cast dest uv with
  | CastAbort => None
  | r1 =>
    let uv1 := match r1 with CastVal x => x | _ => uv end in
    match cast t uv1 with
    | CastAbort => None
    | CastFalse => Some None
    | CastVal x => match r1 with
                   | CastVal _ => do r <- getImmediateDataLong1 64 x; Some (Some r)
                   | _ => Some None
                   end
    end
  end.

(* NodeTerminal.cpp:399-461 (long = false) and 464-526 (long = true): c is m_constant.uval *)
Definition fitsInBitsW (long : bool) (t : utype) (c : N) (dest : utype) : option bool :=
  check (0 <? ty_bits t)%Z;
  let d := if long then u64 c else u32 c in
  let run j := do r <- (if long then convertForthAndBackLong t j dest else convertForthAndBack t j dest);
               Some (match r with Some x => cmpEq (ty_enum t) (ty_bits t) j x | None => false end) in
  match ty_enum t with
  | EInt | EUnsigned | EBits => run d
  | EUnary => run (ext_enc EUnary (ty_bits t) (ext_val EUnary (ty_bits t) d))
  | EBool => run (ext_enc EBool (ty_bits t) (ext_val EBool (ty_bits t) d))
  | EString => Some true
  | _ => Some false
  end.

(* NodeTerminal.cpp:331-396 for a valid constant type *)
Definition fitsInBits (t : utype) (c : N) (dest : utype) : option bool :=
  if negb (isComplete dest) then Some false else
  let nw := getTotalWordSize t in
  let fw := if (nw >? getTotalWordSize dest)%Z then nw else getTotalWordSize dest in
  if (fw <=? 32)%Z then fitsInBitsW false t c dest
  else if (fw <=? 64)%Z then fitsInBitsW true t c dest
  else Some (match ty_enum dest with EBits => (getTotalBitSize t <=? getTotalBitSize dest)%Z | _ => false end).

(* NodeTerminal.cpp:132-160 for a literal of type t *)
Definition literalSafeToCastTo (t : utype) (c : N) (dest : utype) : option forecast :=
  if isAltRefType dest then Some CAST_BAD else
  let e := ty_enum dest in let ne := ty_enum t in
  if etype_eqb e EBool || etype_eqb ne EBool || etype_eqb e EAtom || etype_eqb e EClass || etype_eqb e EVoid
  then safeCast dest t
  else if etype_eqb ne EBits && negb (etype_eqb e EBits) then safeCast dest t
  else if xorb (etype_eqb ne EString) (etype_eqb e EString) then safeCast dest t
  else match base_safeCast dest t with
       | CAST_CLEAR => do b <- fitsInBits t c dest; Some (if b : bool then CAST_CLEAR else CAST_BAD)
       | f => Some f
       end.
