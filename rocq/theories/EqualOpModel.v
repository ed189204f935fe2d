(* EqualOpModel.v: the assignments that compute: += -= *= /= %=, ++ and --, &= |= ^=, <<= and >>=.
   Transcribes src/ulam/NodeBinaryOpEqual.cpp:40-93,196-224,524-572 (checkSafeToCastTo, makeDefaultStructAssignment, doBinaryOperationImmediate),
   NodeBinaryOpEqualArith.cpp:12-156,159-183,201-254, NodeBinaryOpEqualArith{Add,Subtract,Multiply,Divide,Remainder,PreIncr,PreDecr}.cpp
   (methodNameForCodeGen, makeImmediateBinaryOp, makeImmediateLongBinaryOp), NodeBinaryOpEqualArithPost{Incr,Decr}.cpp:36-123,161-205,
   NodeBinaryOpEqualBitwise.cpp:12-162,164-194,224-, NodeBinaryOpEqualBitwise{And,Or,Xor}.cpp, NodeBinaryOpEqualShift.cpp:12-147,149-178,
   206-, NodeBinaryOpEqualShift{Left,Right}.cpp and Parser.cpp:6525-6538,6938-6946.
   EXTERNAL: the functions named in the calls (_BinOpAddInt32, ..., _BitwiseAndBits32, ..., _ShiftOpLeftBits32, ...) are in the MFM
   library; what they do is ArithModel.ext_binop, FoldModel.ext_bitwise and FoldModel.ext_shift; a division by zero and a shift by the
   word or more are not assumed to have any result.
   Simplifications: the left side is a place in one slot that may be stored into, of a scalar primitive type of at most 64 bits that is
   not a String; the right side is a literal or an expression with a value; classes, operator overloads and arrays are left out; messages
   are dropped, except that an error was reported is EErr; EStop is an abort, an assert or a call whose result is not assumed. *)
From Coq Require Import String List NArith ZArith Lia Bool.
From Verif Require Import Base BitVec UTypeModel AtomModel PrimModel ArithModel FoldModel CastModel.
Import ListNotations.
Open Scope N_scope.

(* the right side: a literal (NodeTerminal) of a type, or an expression *)
Inductive rhs := RLit (t : utype) (c : N) | RVal (v : uval).
Definition rtype (r : rhs) : utype := match r with RLit t _ => t | RVal v => v_ty v end.
(* NodeTerminal.cpp safeToCastTo; Node.cpp safeToCastTo *)
Definition rsafe (r : rhs) (dest : utype) : option forecast :=
  match r with RLit t c => literalSafeToCastTo t c dest | RVal v => safeCast dest (v_ty v) end.
Definition rvalue (r : rhs) : option uval := match r with RLit t c => terminalValue t c | RVal v => Some v end.

Inductive eres := EErr | EStop | EDone (cell result : uval).

(* ---- the calls ---- *)
Inductive eqop := QArith (op : arithop) | QBits (op : bitop) | QShift (op : shiftop).

(* methodNameForCodeGen of each operation *)
Definition opName (op : eqop) : text :=
  match op with
  | QArith Add => txt "_BinOpAdd" | QArith Subtract => txt "_BinOpSubtract" | QArith Multiply => txt "_BinOpMultiply"
  | QArith Divide => txt "_BinOpDivide" | QArith Remainder => txt "_BinOpMod"
  | QBits BAnd => txt "_BitwiseAnd" | QBits BOr => txt "_BitwiseOr" | QBits BXor => txt "_BitwiseXor"
  | QShift ShLeft => txt "_ShiftOpLeft" | QShift ShRight => txt "_ShiftOpRight"
  end.
(* NodeBinaryOpEqualArith.cpp:159-183, NodeBinaryOpEqualBitwise.cpp:164-194, NodeBinaryOpEqualShift.cpp:149-178; None: abort *)
Definition methodNameForCodeGen (op : eqop) (t : utype) : option text :=
  let size := getTotalWordSize t in
  match op, ty_enum t with
  | _, (EInt | EUnsigned | EBool | EUnary) => Some (opName op ++ nameOnly (ty_enum t) ++ dec (Z.to_N size))
  | (QBits _ | QShift _), EBits => Some (opName op ++ nameOnly (ty_enum t) ++ dec (Z.to_N size))
  | _, _ => None
  end.

(* which function makeImmediateBinaryOp (32 bits) or makeImmediateLongBinaryOp (64 bits) calls *)
Definition arithMethod (long : bool) (op : arithop) (e : etype) : option text :=
  match long, op, e with
  | false, Add, EInt => Some (txt "_BinOpAddInt32") | false, Add, EUnsigned => Some (txt "_BinOpAddUnsigned32")
  | false, Add, EBool => Some (txt "_BinOpAddBool32") | false, Add, EUnary => Some (txt "_BinOpAddUnary32")
  | false, Subtract, EInt => Some (txt "_BinOpSubtractInt32") | false, Subtract, EUnsigned => Some (txt "_BinOpSubtractUnsigned32")
  | false, Subtract, EBool => Some (txt "_BinOpSubtractBool32") | false, Subtract, EUnary => Some (txt "_BinOpSubtractUnary32")
  | false, Multiply, EInt => Some (txt "_BinOpMultiplyInt32") | false, Multiply, EUnsigned => Some (txt "_BinOpMultiplyUnsigned32")
  | false, Multiply, EBool => Some (txt "_BinOpMultiplyBool32") | false, Multiply, EUnary => Some (txt "_BinOpMultiplyUnary32")
  | false, Divide, EInt => Some (txt "_BinOpDivideInt32") | false, Divide, EUnsigned => Some (txt "_BinOpDivideUnsigned32")
  | false, Divide, EBool => Some (txt "_BinOpDivideBool32") | false, Divide, EUnary => Some (txt "_BinOpDivideUnary32")
  | false, Remainder, EInt => Some (txt "_BinOpModInt32") | false, Remainder, EUnsigned => Some (txt "_BinOpModUnsigned32")
  | false, Remainder, EBool => Some (txt "_BinOpModBool32") | false, Remainder, EUnary => Some (txt "_BinOpModUnary32")
  | true, Add, EInt => Some (txt "_BinOpAddInt64") | true, Add, EUnsigned => Some (txt "_BinOpAddUnsigned64")
  | true, Add, EBool => Some (txt "_BinOpAddBool64") | true, Add, EUnary => Some (txt "_BinOpAddUnary64")
  | true, Subtract, EInt => Some (txt "_BinOpSubtractInt64") | true, Subtract, EUnsigned => Some (txt "_BinOpSubtractUnsigned64")
  | true, Subtract, EBool => Some (txt "_BinOpSubtractBool64") | true, Subtract, EUnary => Some (txt "_BinOpSubtractUnary64")
  | true, Multiply, EInt => Some (txt "_BinOpMultiplyInt64") | true, Multiply, EUnsigned => Some (txt "_BinOpMultiplyUnsigned64")
  | true, Multiply, EBool => Some (txt "_BinOpMultiplyBool64") | true, Multiply, EUnary => Some (txt "_BinOpMultiplyUnary64")
  | true, Divide, EInt => Some (txt "_BinOpDivideInt64") | true, Divide, EUnsigned => Some (txt "_BinOpDivideUnsigned64")
  | true, Divide, EBool => Some (txt "_BinOpDivideBool64") | true, Divide, EUnary => Some (txt "_BinOpDivideUnary64")
  | true, Remainder, EInt => Some (txt "_BinOpModInt64") | true, Remainder, EUnsigned => Some (txt "_BinOpModUnsigned64")
  | true, Remainder, EBool => Some (txt "_BinOpModBool64") | true, Remainder, EUnary => Some (txt "_BinOpModUnary64")
  | _, _, _ => None
  end.
(* the left side of these is a Bits (NodeBinaryOpEqualBitwise.cpp:122, NodeBinaryOpEqualShift.cpp:108): only that case is kept *)
Definition bitsMethod (long : bool) (op : bitop) (e : etype) : option text :=
  match long, op, e with
  | false, BAnd, EBits => Some (txt "_BitwiseAndBits32") | false, BOr, EBits => Some (txt "_BitwiseOrBits32") | false, BXor, EBits => Some (txt "_BitwiseXorBits32")
  | true, BAnd, EBits => Some (txt "_BitwiseAndBits64") | true, BOr, EBits => Some (txt "_BitwiseOrBits64") | true, BXor, EBits => Some (txt "_BitwiseXorBits64")
  | _, _, _ => None
  end.
Definition shiftMethod (long : bool) (op : shiftop) (e : etype) : option text :=
  match long, op, e with
  | false, ShLeft, EBits => Some (txt "_ShiftOpLeftBits32") | false, ShRight, EBits => Some (txt "_ShiftOpRightBits32")
  | true, ShLeft, EBits => Some (txt "_ShiftOpLeftBits64") | true, ShRight, EBits => Some (txt "_ShiftOpRightBits64")
  | _, _, _ => None
  end.
Definition evalMethod (long : bool) (op : eqop) (e : etype) : option text :=
  match op with QArith o => arithMethod long o e | QBits o => bitsMethod long o e | QShift o => shiftMethod long o e end.

(* what the functions do (EXTERNAL), by what is asked for, the type and the word *)
Definition ext_eqop (long : bool) (op : eqop) (e : etype) (len l r : N) : option N :=
  match op with
  | QArith o =>
    match e with
    | EInt | EUnsigned | EUnary =>
      if isDivision o && (ext_val e (Z.of_N len) r =? 0)%Z then None else Some (ext_binop o e (Z.of_N len) l r)
    | _ => None
    end
  | QBits o => match e with EBits => Some (ext_bitwise o len l r) | _ => None end
  | QShift o => match e with EBits => ext_shift o long len l r | _ => None end
  end.

(* a call: the name of the function and its three arguments *)
Record call := mkCall { c_name : text; c_left : N; c_right : N; c_len : N }.

(* NodeBinaryOpEqual.cpp:524-557: the call made by the evaluator; the right side is read with the length of the left *)
Definition evalCall (op : eqop) (t : utype) (p : uptr) (cur ruv : uval) : option (bool * call) :=
  do len <- zlen (getTotalBitSize t);
  if (getTotalWordSize t =? 32)%Z then
    do l <- getDataFromAtom p cur;
    do r <- getImmediateData len ruv;
    do name <- evalMethod false op (ty_enum t);
    Some (false, mkCall name l r len)
  else if (getTotalWordSize t =? 64)%Z then
    do l <- getDataLongFromAtom p cur;
    do r <- getImmediateDataLong len ruv;
    do name <- evalMethod true op (ty_enum t);
    Some (true, mkCall name l r len)
  else None.

(* NodeBinaryOpEqualArith.cpp:206-246 and the same of Bitwise and Shift: the call in the generated code; the left side is read from its
   place, the right side is the register of the right expression, with all the bits of its own type *)
Definition genCall (op : eqop) (t : utype) (p : uptr) (cur ruv : uval) : option call :=
  do len <- zlen (ty_bits t);
  do l <- getDataLongFromAtom p cur;
  do rlen <- zlen (getTotalBitSize (v_ty ruv));
  do r <- getImmediateDataLong rlen ruv;
  do name <- methodNameForCodeGen op t;
  Some (mkCall name l r len).

(* NodeBinaryOpEqual.cpp:546-571: the call, the store, the value of the expression *)
Definition doEqualImmediate (op : eqop) (t : utype) (p : uptr) (cur ruv : uval) : option (uval * uval) :=
  do c <- evalCall op t p cur ruv;
  let '(long, k) := c in
  do d <- ext_eqop long op (ty_enum t) (c_len k) (c_left k) (c_right k);
  do rtn <- (if long then makeImmediateLong_len t (u64 d) (c_len k) else makeImmediate_len t (u32 d) (c_len k));
  do cell <- assignInSlot p rtn cur;
  Some (cell, rtn).

(* NodeBinaryOpEqualArithPostIncr.cpp:36-72: the value of the expression is made anew from what was in the place *)
Definition oldValue (t : utype) (p : uptr) (cur : uval) : option uval :=
  do len <- zlen (getTotalBitSize t);
  if (getTotalWordSize t =? 32)%Z then do l <- getDataFromAtom p cur; makeImmediate_len t l len
  else if (getTotalWordSize t =? 64)%Z then do l <- getDataLongFromAtom p cur; makeImmediateLong_len t l len
  else None.

(* ---- arithmetic ---- *)
(* NodeBinaryOpEqual.cpp:196-224: the right side is cast if the types differ; it has to be safe, but for Bits to Bits *)
Definition assignable (t : utype) (r : rhs) : option bool :=
  if same_type t (rtype r) then Some true
  else if etype_eqb (ty_enum t) EBits && etype_eqb (ty_enum (rtype r)) EBits then Some true
  else do f <- rsafe r t; Some (forecast_eqb f CAST_CLEAR).
(* NodeBinaryOpEqualArith.cpp:34-156 *)
Definition arithAccepts (t : utype) (r : rhs) : option bool :=
  if negb (isComplete t && isComplete (rtype r)) then Some false
  else if xorb (isScalar t) (isScalar (rtype r)) then Some false
  else do ok <- assignable t r; Some (ok && isNumericType t && isScalar t).

Definition done (o : option (uval * uval)) : eres := match o with Some (c, v) => EDone c v | None => EStop end.
(* post is true for x++ and x-- *)
Definition equalArith (op : arithop) (post : bool) (t : utype) (p : uptr) (cur : uval) (r : rhs) : eres :=
  match arithAccepts t r with
  | None => EStop
  | Some false => EErr
  | Some true =>
    done (do v <- rvalue r;
          do x <- operand t v;
          do y <- doEqualImmediate (QArith op) t p cur x;
          if post then do o <- oldValue t p cur; Some (fst y, o) else Some y)
  end.
(* Parser.cpp:6525-6538 and 6938-6946: the four are the sum or the difference with the Int literal 1; the size of its type is that of its
   number (PrimModel.literalBits) *)
Definition one : rhs := RLit (prim EInt (match literalBits EInt 1 with Some n => n | None => 0%Z end) NONARRAYSIZE) 1.

(* ---- bits ---- *)
(* NodeBinaryOpEqualBitwise.cpp:107-162 *)
Definition bitwiseAccepts (t : utype) (r : rhs) : option bool :=
  if negb (isComplete t && isComplete (rtype r)) then Some false
  else if negb (isScalar t && isScalar (rtype r)) then Some false
  else if negb (etype_eqb (ty_enum t) EBits) then Some false
  else do f <- rsafe r t; Some (forecast_eqb f CAST_CLEAR).
Definition equalBitwise (op : bitop) (t : utype) (p : uptr) (cur : uval) (r : rhs) : eres :=
  match bitwiseAccepts t r with
  | None => EStop
  | Some false => EErr
  | Some true => done (do v <- rvalue r; do x <- operand t v; doEqualImmediate (QBits op) t p cur x)
  end.

(* NodeBinaryOpEqualShift.cpp:93-147 *)
Definition shiftAccepts (t : utype) (r : rhs) : option bool :=
  if negb (isComplete t && isComplete (rtype r)) then Some false
  else if negb (isScalar t && isScalar (rtype r)) then Some false
  else if negb (etype_eqb (ty_enum t) EBits) then Some false
  else do f <- rsafe r Unsigned32; Some (forecast_eqb f CAST_CLEAR).
(* NodeBinaryOpEqualShift.cpp:71-86 *)
Definition distance (r : rhs) : option uval :=
  do v <- rvalue r;
  if etype_eqb (ty_enum (rtype r)) EUnsigned then Some v
  else match cast Unsigned32 v with CastVal x => Some x | _ => None end.
Definition equalShift (op : shiftop) (t : utype) (p : uptr) (cur : uval) (r : rhs) : eres :=
  match shiftAccepts t r with
  | None => EStop
  | Some false => EErr
  | Some true => done (do x <- distance r; doEqualImmediate (QShift op) t p cur x)
  end.
