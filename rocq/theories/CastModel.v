(* CastModel.v: explicit casts between the primitive types.
   Transcribes src/ulam/UlamTypePrimitive.cpp:37-57, 142-168 (explicitlyCastable, castMethodForCodeGen), UlamTypePrimitiveInt.cpp:227-243,
   UlamTypePrimitiveBool.cpp:209-218, UlamTypePrimitiveBits.cpp:187-208 and the names of the conversions that castTo32 and castTo64 call:
   UlamTypePrimitive{Int,Unsigned,Unary,Bool,Bits}.cpp. The evaluation of a cast is PrimModel.cast.
   Simplifications: messages are dropped; for a String the evaluator's conversion to Bool is named but not given (PrimModel.v). *)
From Coq Require Import String List NArith ZArith Bool.
From Verif Require Import Base BitVec UTypeModel AtomModel PrimModel.
Import ListNotations.
Open Scope N_scope.

(* UlamTypePrimitive.cpp:37-57 *)
Definition prim_explicitlyCastable (self from : utype) : forecast :=
  match base_safeCast self from with
  | CAST_CLEAR =>
    if isAltRefType self && negb (checkReferenceCast self from) then CAST_BAD
    else match ty_enum self with
         | EVoid => CAST_CLEAR
         | _ => if xorb (match ty_enum from with EString => true | _ => false end) (match ty_enum self with EString => true | _ => false end)
                then CAST_BAD else CAST_CLEAR
         end
  | f => f
  end.
(* UlamTypePrimitiveInt.cpp:227-243, UlamTypePrimitiveBool.cpp:209-218, UlamTypePrimitiveBits.cpp:187-208; None: abortUndefinedUlamType *)
Definition explicitlyCastable (self from : utype) : option forecast :=
  let scr := prim_explicitlyCastable self from in
  match ty_enum self with
  | EInt => Some (match ty_enum from with EClass => (match ty_ct from with CQuark => CAST_CLEAR | _ => CAST_BAD end) | _ => scr end)
  | EBool =>
    match safeCast self from with
    | None => None
    | Some safe =>
      Some (if (match ty_enum from with EBits => forecast_eqb scr CAST_CLEAR | _ => false end) || forecast_eqb safe CAST_CLEAR then CAST_CLEAR
            else match ty_enum from with EString => CAST_CLEAR | _ => safe end)
    end
  | EBits => Some (match ty_enum from with
                   | EString => CAST_CLEAR
                   | EClass => (match ty_ct from with CQuark | CTransient => CAST_CLEAR | _ => scr end)
                   | _ => scr
                   end)
  | _ => Some scr
  end.

(* ---- which conversion ---- *)
(* include/UlamType.inc; UlamType.cpp:64-67 *)
Definition nameOnly (e : etype) : text :=
  match e with
  | EInt => txt "Int" | EUnsigned => txt "Unsigned" | EUnary => txt "Unary" | EBool => txt "Bool" | EBits => txt "Bits" | EString => txt "String" | EVoid => txt "Void"
  | _ => []
  end.
(* UlamTypePrimitive.cpp:142-168; u32 printed in decimal *)
Definition castMethodForCodeGen (self from : utype) : text :=
  let tobe := getTotalWordSize self in
  let is := getTotalWordSize from in
  let '(tobe, is) := if (tobe =? is)%Z then (tobe, is) else if (tobe <? is)%Z then (is, is) else (tobe, tobe) in
  txt "_" ++ nameOnly (ty_enum from) ++ dec (Z.to_N is) ++ txt "To" ++ nameOnly (ty_enum self) ++ dec (Z.to_N tobe).

(* castTo32: UlamTypePrimitiveInt.cpp:92-116, Unsigned:100-123, Unary:92-114, Bool:87-111; None: no function is called *)
Definition method32 (to_e from_e : etype) : option text :=
  match to_e, from_e with
  | EInt, EInt => Some (txt "_Int32ToInt32") | EInt, EUnsigned => Some (txt "_Unsigned32ToInt32") | EInt, EBits => Some (txt "_Bits32ToInt32")
  | EInt, EUnary => Some (txt "_Unary32ToInt32") | EInt, EBool => Some (txt "_Bool32ToInt32")
  | EUnsigned, EInt => Some (txt "_Int32ToUnsigned32") | EUnsigned, EUnsigned => Some (txt "_Unsigned32ToUnsigned32")
  | EUnsigned, EBool => Some (txt "_Bool32ToUnsigned32") | EUnsigned, EUnary => Some (txt "_Unary32ToUnsigned32")
  | EUnary, EInt => Some (txt "_Int32ToUnary32") | EUnary, EUnsigned => Some (txt "_Unsigned32ToUnary32")
  | EUnary, EBool => Some (txt "_Bool32ToUnary32") | EUnary, EUnary => Some (txt "_Unary32ToUnary32")
  | EBool, EInt => Some (txt "_Int32ToBool32") | EBool, EUnsigned => Some (txt "_Unsigned32ToBool32") | EBool, EUnary => Some (txt "_Unary32ToBool32")
  | EBool, EBool => Some (txt "_Bool32ToBool32") | EBool, EBits => Some (txt "_Bits32ToBool32") | EBool, EString => Some (txt "_String32ToBool32")
  | _, _ => None
  end.
(* castTo64: UlamTypePrimitiveInt.cpp:141-165, Unsigned:148-171, Unary:138-160, Bool:138-159 *)
Definition method64 (to_e from_e : etype) : option text :=
  match to_e, from_e with
  | EInt, EInt => Some (txt "_Int64ToInt64") | EInt, EUnsigned => Some (txt "_Unsigned64ToInt64") | EInt, EBits => Some (txt "_Bits64ToInt64")
  | EInt, EUnary => Some (txt "_Unary64ToInt64") | EInt, EBool => Some (txt "_Bool64ToInt64")
  | EUnsigned, EInt => Some (txt "_Int64ToUnsigned64") | EUnsigned, EUnsigned => Some (txt "_Unsigned64ToUnsigned64")
  | EUnsigned, EBool => Some (txt "_Bool64ToUnsigned64") | EUnsigned, EUnary => Some (txt "_Unary64ToUnsigned64")
  | EUnary, EInt => Some (txt "_Int64ToUnary64") | EUnary, EUnsigned => Some (txt "_Unsigned64ToUnary64")
  | EUnary, EBool => Some (txt "_Bool64ToUnary64") | EUnary, EUnary => Some (txt "_Unary64ToUnary64")
  | EBool, EInt => Some (txt "_Int64ToBool64") | EBool, EUnsigned => Some (txt "_Unsigned64ToBool64") | EBool, EUnary => Some (txt "_Unary64ToBool64")
  | EBool, EBool => Some (txt "_Bool64ToBool64") | EBool, EBits => Some (txt "_Bits64ToBool64")
  | _, _ => None
  end.
(* which of them cast (see PrimModel.cast) calls for words of at most 64 bits *)
Definition methodOfEval (self from : utype) : option text :=
  if ((getTotalWordSize self <=? 32) && (getTotalWordSize from <=? 32))%Z then method32 (ty_enum self) (ty_enum from)
  else method64 (ty_enum self) (ty_enum from).
