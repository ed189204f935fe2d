(* ArithModel.v: the types of arithmetic and shift expressions, and the folding of constant arithmetic.
   Transcribes src/ulam/NodeBinaryOp.cpp:422-515, NodeBinaryOpArith.cpp:55-104, resultBitsize and
   castThyselfToResultType of NodeBinaryOpArith{Add,Subtract,Multiply,Divide,Remainder}.cpp,
   NodeBinaryOpShift{Left,Right}.cpp, NodeUnaryOpMinus.cpp and bitsizeToConvertTypeTo of
   UlamTypePrimitive{Int,Unsigned,Unary,Bool,Bits}.cpp.
   EXTERNAL: _BinOpAddInt32, ... (the MFM library, not in the repository) take two numbers of len bits and write the
   sum, ..., brought into the range of the type, as len bits.
   Simplifications: operands are primitive types (quarks with a toInt are left out); the type looked up or made for a
   key is the plain scalar type with that key; messages are dropped; abort is None. *)
From Coq Require Import String List NArith ZArith Lia Bool.
From Verif Require Import Base BitVec UTypeModel AtomModel PrimModel.
Import ListNotations.
Open Scope Z_scope.

Definition cap (size wordsize : Z) : Z := if size >? wordsize then wordsize else size.

(* UlamTypePrimitiveInt.cpp:287-318, Unsigned:258-289, Unary:253-284, Bool:277-306, Bits:246-271.
   UNKNOWNSIZE for atom and class destinations; None is abortUndefinedUlamType *)
Definition bitsizeToConvertTypeTo (t : utype) (tob : etype) : option Z :=
  let bitsize := ty_bits t in
  let common e := match e with
                  | EVoid => Some 0
                  | EAtom | EClass => Some UNKNOWNSIZE
                  | _ => None
                  end in
  let size :=
    match ty_enum t with
    | EInt => match tob with
              | EUnsigned | EInt | EBits => Some bitsize
              | EUnary => Some (s32z (getMax t))
              | EBool => Some 1
              | e => common e
              end
    | EUnsigned => match tob with
                   | EUnary => Some (s32z (getMax t))
                   | EInt => Some (bitsize + 1)
                   | EBool => Some 1
                   | EUnsigned | EBits => Some bitsize
                   | e => common e
                   end
    | EUnary => match tob with
                | EUnsigned => Some (getLogBase2 bitsize + 1)
                | EInt => Some (getLogBase2 bitsize + 1 + 1)
                | EBool => Some 1
                | EUnary | EBits => Some bitsize
                | e => common e
                end
    | EBool => match tob with
               | EBool | EUnsigned | EUnary => Some 1
               | EInt => Some 2
               | EBits => Some bitsize
               | e => common e
               end
    | EBits => match tob with
               | EBool | EUnsigned | EUnary | EInt | EBits => Some bitsize
               | e => common e
               end
    | _ => None
    end in
  match size with Some s => Some (cap s (getTotalWordSize t)) | None => None end.

(* NodeBinaryOp.cpp:470-497 for primitive types: size, word size, type for the mixed test *)
Definition calcBitsizeForResult (t : utype) : option (Z * Z * etype) :=
  if negb (isComplete t) then None else
  match ty_enum t with
  | EUnary => Some (getLogBase2 (ty_bits t) + 1, getTotalWordSize t, EUnsigned)
  | EUnsigned => Some (ty_bits t, getTotalWordSize t, EUnsigned)
  | EInt => Some (ty_bits t, getTotalWordSize t, EInt)
  | _ => None
  end.

(* NodeBinaryOp.cpp:431-468 *)
Definition resultBitsizeCalc (lt rt : utype) : option (Z * Z * Z) :=
  match calcBitsizeForResult lt, calcBitsizeForResult rt with
  | Some (lbs, lws, le), Some (rbs, rws, re) =>
    let ws := if lws >? rws then lws else rws in
    if negb (etype_eqb le re) && (etype_eqb le EInt || etype_eqb re EInt) then
      if negb (etype_eqb le EInt) then
        match bitsizeToConvertTypeTo lt EInt with Some b => Some (b, rbs, ws) | None => None end
      else
        match bitsizeToConvertTypeTo rt EInt with Some b => Some (lbs, b, ws) | None => None end
    else Some (lbs, rbs, ws)
  | _, _ => None
  end.

Inductive arithop := Add | Subtract | Multiply | Divide | Remainder.

Definition atmost (maxbs wordsize : Z) : Z := if maxbs >=? wordsize then wordsize else maxbs.

(* NodeBinaryOpArithAdd.cpp:32-40, Subtract:32-40, Multiply:27-34, NodeBinaryOp.cpp:422-429 (the others) *)
Definition resultBitsize (op : arithop) (lt rt : utype) : option Z :=
  match resultBitsizeCalc lt rt with
  | None => None
  | Some (lbs, rbs, ws) =>
    let maxbs := if lbs >? rbs then lbs else rbs in
    Some (match op with
          | Add | Subtract => atmost (maxbs + 1) ws
          | Multiply => atmost (lbs + rbs) ws
          | Divide | Remainder => atmost maxbs ws
          end)
  end.

(* UlamType::isNumericType of the primitive types: include/UlamTypePrimitive{Int,Unsigned,Unary}.h *)
Definition isNumericType (t : utype) : bool :=
  match ty_enum t with EInt | EUnsigned | EUnary => true | _ => false end.

(* NodeBinaryOpArith.cpp:55-104: the type of the operation itself; None is Nav or Hzy *)
Definition calcNodeType (op : arithop) (lt rt : utype) : option utype :=
  if negb (isComplete lt && isComplete rt && isNumericType lt && isNumericType rt && isScalar lt && isScalar rt) then None
  else
    match resultBitsize op lt rt with
    | None => None
    | Some newbs =>
      let un t := match ty_enum t with EUnary => EUnsigned | e => e end in
      if etype_eqb (un lt) EUnsigned && etype_eqb (un rt) EUnsigned
      then Some (prim EUnsigned newbs NONARRAYSIZE)
      else Some (prim EInt newbs NONARRAYSIZE)
    end.

(* NodeBinaryOpArithDivide.cpp:33-75 and Remainder:27-68: the type of the cast the operation is wrapped in *)
Definition castThyselfToResultType (op : arithop) (lt rt newType : utype) : option utype :=
  let conv t := match bitsizeToConvertTypeTo t (ty_enum newType) with
                | Some s => Some (prim (ty_enum newType) s NONARRAYSIZE)
                | None => None
                end in
  match op with
  | Divide => conv lt
  | Remainder => conv rt
  | _ => Some newType
  end.

(* the type the rest of the program sees for the expression *)
Definition resultType (op : arithop) (lt rt : utype) : option utype :=
  match calcNodeType op lt rt with
  | Some t => castThyselfToResultType op lt rt t
  | None => None
  end.

(* ---- folding ---- *)
(* _BinOpAddInt32 ... _BinOpModUnsigned64 (EXTERNAL); C division truncates *)
Definition apply_op (op : arithop) (a b : Z) : Z :=
  match op with
  | Add => a + b
  | Subtract => a - b
  | Multiply => a * b
  | Divide => Z.quot a b
  | Remainder => Z.rem a b
  end.
Definition ext_binop (op : arithop) (e : etype) (len : Z) (l r : N) : N :=
  ext_enc e len (apply_op op (ext_val e len l) (ext_val e len r)).

(* makeImmediateBinaryOp of the five operations (e.g. NodeBinaryOpArithAdd.cpp:49-73, NodeBinaryOpArithDivide.cpp:77-110):
   None is Nav, the division by zero *)
Definition isDivision (op : arithop) : bool := match op with Divide | Remainder => true | _ => false end.
Definition makeImmediateBinaryOp (op : arithop) (t : utype) (ldata rdata : N) (len : N) : option uval :=
  if isDivision op && (rdata =? 0)%N then None
  else match ty_enum t with
       | EInt | EUnsigned => makeImmediate_len t (u32 (ext_binop op (ty_enum t) (Z.of_N len) ldata rdata)) len
       | _ => None
       end.
Definition makeImmediateLongBinaryOp (op : arithop) (t : utype) (ldata rdata : N) (len : N) : option uval :=
  if isDivision op && (rdata =? 0)%N then None
  else match ty_enum t with
       | EInt | EUnsigned => makeImmediateLong_len t (u64 (ext_binop op (ty_enum t) (Z.of_N len) ldata rdata)) len
       | _ => None
       end.

(* NodeBinaryOp.cpp:655-699 *)
Definition doBinaryOperationImmediate (op : arithop) (nuti : utype) (luv ruv : uval) : option uval :=
  do len <- zlen (getTotalBitSize nuti);
  if getTotalWordSize nuti =? 32 then
    do ldata <- getImmediateData len luv;
    do rdata <- getImmediateData len ruv;
    makeImmediateBinaryOp op nuti ldata rdata len
  else if getTotalWordSize nuti =? 64 then
    do ldata <- getImmediateDataLong len luv;
    do rdata <- getImmediateDataLong len ruv;
    makeImmediateLongBinaryOp op nuti ldata rdata len
  else None.

(* same key: compareByKeysPiecewise, UlamType.cpp *)
Definition same_type (a b : utype) : bool :=
  etype_eqb (ty_enum a) (ty_enum b) && (ty_bits a =? ty_bits b) && (ty_arr a =? ty_arr b) && alt_eqb (ty_ref a) (ty_ref b).

(* the value of an operand of the operation: NodeBinaryOp.cpp:207-220 puts a cast before it unless the types are the same *)
Definition operand (t : utype) (v : uval) : option uval :=
  if same_type t (v_ty v) then Some v
  else match cast t v with CastVal r => Some r | _ => None end.

(* checkAndLabelType, eval and constantFold of an operation on two constants (NodeBinaryOp.cpp:163-231,525-653); the
   result then goes through the cast of castThyselfToResultType.  The check that both operands may be cast
   (checkSafeToCastTo, NodeBinaryOp.cpp:273-303) is left to the theorems: see C23 and C52 *)
Definition fold (op : arithop) (lv rv : uval) : option uval :=
  do t <- calcNodeType op (v_ty lv) (v_ty rv);
  do l <- operand t lv;
  do r <- operand t rv;
  do x <- doBinaryOperationImmediate op t l r;
  do rt <- castThyselfToResultType op (v_ty lv) (v_ty rv) t;
  operand rt x.

(* ---- shifts ---- *)
(* NodeBinaryOp.cpp:499-534 for primitive types: left size, right size, word size *)
Definition resultBitsizeCalcInBits (lt rt : utype) : option (Z * Z * Z) :=
  if isComplete lt && isComplete rt then
    let lws := getTotalWordSize lt in let rws := getTotalWordSize rt in
    Some (ty_bits lt, ty_bits rt, if lws >? rws then lws else rws)
  else None.

(* C's 1 << n for int: 1 << 31 is the least int with gcc; from 32 on it is undefined *)
Definition shl1 (n : Z) : option Z :=
  if n <? 0 then None else if n <? 31 then Some (2 ^ n) else if n =? 31 then Some (-2147483648) else None.

(* NodeBinaryOpShiftLeft.cpp:34-42 *)
Definition shiftLeftResultBitsize (lt rt : utype) : option Z :=
  match resultBitsizeCalcInBits lt rt with
  | None => None
  | Some (lbs, rbs, ws) =>
    match (if rbs >=? ws then Some ws else shl1 rbs) with
    | None => None
    | Some k => Some (atmost (lbs + k) ws)
    end
  end.

(* NodeBinaryOpShiftRight.cpp:34-40 *)
Definition shiftRightResultBitsize (lt rt : utype) : option Z :=
  match resultBitsizeCalcInBits lt rt with Some (lbs, _, _) => Some lbs | None => None end.

(* NodeUnaryOpMinus.cpp:36-58 and NodeUnaryOp.cpp:235-245 *)
Definition minusType (t : utype) : option utype :=
  if isComplete t && isNumericType t then Some (prim EInt (ty_bits t) NONARRAYSIZE) else None.
