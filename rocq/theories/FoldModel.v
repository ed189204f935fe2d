(* FoldModel.v: the folding of comparisons, bitwise operations, shifts and the two bit operations of one operand on constants.
   Transcribes src/ulam/NodeBinaryOpCompare.cpp:25-69,158-206,266-307, NodeBinaryOpCompare{EqualEqual,NotEqual}.cpp:39-150,
   NodeBinaryOpCompare{LessThan,LessEqual,GreaterThan,GreaterEqual}.cpp:39-103, NodeBinaryOpBitwise.cpp:41-71,
   NodeBinaryOpBitwise{And,Or,Xor}.cpp:35-89, NodeBinaryOpShift.cpp:13-71,101-195, NodeBinaryOpShift{Left,Right}.cpp:34-98,
   NodeUnaryOpTwiddle.cpp:41-95, NodeUnaryOpBang.cpp:36-92, NodeUnaryOp.cpp:160-194,301-460, NodeBinaryOp.cpp:268-303,
   499-534,627-695 and NodeTerminal.cpp:230-319.
   EXTERNAL: _BinOpCompareEqEqInt32, ..., _BitwiseAndBits32, ..., _ShiftOpLeftBits32, ..., _BitwiseComplementBits32,
   _LogicalBangBool32 and their 64 bit versions are in the MFM library, not in the repository.  A comparison compares the
   numbers of len bits; a bitwise operation acts on each of the len low bits; a shift moves the bits and keeps the len low
   ones.  What a shift by the word size or more does is not assumed (C leaves it undefined): it is None here.
   Simplifications: both operands are literals or constants already folded (NodeTerminal), of a scalar primitive type other
   than String, at most 64 bits; quarks with a toInt and operator overloads are left out; the type made for a key is the
   plain scalar type with that key; messages are dropped, except that an error was reported is FErr; abort is FAbort. *)
From Coq Require Import String List NArith ZArith Lia Bool.
From Verif Require Import Base BitVec UTypeModel AtomModel PrimModel ArithModel.
Import ListNotations.
Open Scope Z_scope.

Inductive folded := FAbort | FErr | FVal (v : uval).

Definition fof (o : option uval) : folded := match o with Some v => FVal v | None => FAbort end.

(* NodeTerminal.cpp:230-241: the value of a constant of type t whose 64 bit pattern is c *)
Definition terminalValue (t : utype) (c : N) : option uval :=
  if getTotalWordSize t <=? 32 then makeTerminalValue t c
  else if getTotalWordSize t <=? 64 then makeTerminalValueLong t c
  else None.

(* NodeBinaryOp.cpp:268-303: None is abort, false is an error reported *)
Definition checkSafeToCastTo (lt : utype) (lc : N) (rt : utype) (rc : N) (newType : utype) : option bool :=
  do l <- literalSafeToCastTo lt lc newType;
  do r <- literalSafeToCastTo rt rc newType;
  Some (forecast_eqb l CAST_CLEAR && forecast_eqb r CAST_CLEAR).

(* ---- comparisons ---- *)
Inductive cmpop := CEq | CNe | CLt | CLe | CGt | CGe.

(* NodeBinaryOpCompareEqualEqual.cpp:39-82 = NotEqual:39-82; NodeBinaryOpCompare.cpp:158-206: the type both operands are
   cast to.  The last is the type of a division: same rules, same size *)
Definition cmpType (op : cmpop) (lt rt : utype) : option utype :=
  let numeric := calcNodeType Divide lt rt in
  match op with
  | CEq | CNe =>
    if negb (isComplete lt && isComplete rt) then None
    else if etype_eqb (ty_enum lt) EBits || etype_eqb (ty_enum rt) EBits then
      if isScalar lt && isScalar rt then
        match resultBitsizeCalcInBits lt rt with
        | Some (lbs, rbs, _) => Some (prim EBits (if lbs >? rbs then lbs else rbs) NONARRAYSIZE)
        | None => None
        end
      else None
    else if etype_eqb (ty_enum lt) EBool && etype_eqb (ty_enum rt) EBool then
      if isScalar lt && isScalar rt then Some (prim EBool 1 NONARRAYSIZE) else None
    else numeric
  | _ => numeric
  end.

(* _BinOpCompareEqEqInt32, ... (EXTERNAL) *)
Definition ext_cmp (op : cmpop) (a b : Z) : bool :=
  match op with
  | CEq => a =? b
  | CNe => negb (a =? b)
  | CLt => a <? b
  | CLe => a <=? b
  | CGt => a >? b
  | CGe => a >=? b
  end.

(* the switch statements of makeImmediateBinaryOp and makeImmediateLongBinaryOp of the six operations: the ordered
   comparisons do not take Bits (NodeBinaryOpCompareLessThan.cpp:60-66) *)
Definition cmpSupports (op : cmpop) (e : etype) : bool :=
  match e with
  | EInt | EUnsigned | EBool | EUnary => true
  | EBits => match op with CEq | CNe => true | _ => false end
  | _ => false
  end.
Definition Bool1 : utype := prim EBool 1 NONARRAYSIZE.
Definition makeImmediateCompare (long : bool) (op : cmpop) (t : utype) (ldata rdata len : N) : option uval :=
  if cmpSupports op (ty_enum t) then
    let b := ext_cmp op (ext_val (ty_enum t) (Z.of_N len) ldata) (ext_val (ty_enum t) (Z.of_N len) rdata) in
    let d := (if b then 1 else 0)%N in
    if long then makeImmediateLong_len Bool1 d 1 else makeImmediate_len Bool1 d 1
  else None.

(* NodeBinaryOpCompare.cpp:268-307; t is the type of the left operand *)
Definition doCompareImmediate (op : cmpop) (t : utype) (luv ruv : uval) : option uval :=
  do len <- zlen (getTotalBitSize t);
  if getTotalWordSize t =? 32 then
    do ldata <- getImmediateData len luv;
    do rdata <- getImmediateData len ruv;
    makeImmediateCompare false op t ldata rdata len
  else if getTotalWordSize t =? 64 then
    do ldata <- getImmediateDataLong len luv;
    do rdata <- getImmediateDataLong len ruv;
    makeImmediateCompare true op t ldata rdata len
  else None.

(* NodeBinaryOpCompare.cpp:25-69 with the fold: calcNodeType reports an error when the types do not go together, or when an
   operand may not be cast *)
Definition foldCompare (op : cmpop) (lt : utype) (lc : N) (rt : utype) (rc : N) : folded :=
  match cmpType op lt rt with
  | None => FErr
  | Some t =>
    match checkSafeToCastTo lt lc rt rc t with
    | None => FAbort
    | Some false => FErr
    | Some true =>
      fof (do lv <- terminalValue lt lc;
           do rv <- terminalValue rt rc;
           do l <- operand t lv;
           do r <- operand t rv;
           doCompareImmediate op t l r)
    end
  end.

(* ---- bitwise ---- *)
Inductive bitop := BAnd | BOr | BXor.

(* NodeBinaryOpBitwise.cpp:41-71 *)
Definition bitwiseType (lt rt : utype) : option utype :=
  if isComplete lt && isComplete rt && isScalar lt && isScalar rt then
    match resultBitsizeCalcInBits lt rt with
    | Some (lbs, rbs, _) => Some (prim EBits (if lbs >? rbs then lbs else rbs) NONARRAYSIZE)
    | None => None
    end
  else None.

(* _BitwiseAndBits32, ... (EXTERNAL) *)
Definition ext_bitwise (op : bitop) (len l r : N) : N :=
  (match op with BAnd => N.land l r | BOr => N.lor l r | BXor => N.lxor l r end mod 2 ^ len)%N.

(* NodeBinaryOp.cpp:655-695 with a function for the operation on the data; None from the function is undefined *)
Definition doBitsImmediate (f : bool -> N -> N -> N -> option N) (t : utype) (luv ruv : uval) : option uval :=
  do len <- zlen (getTotalBitSize t);
  if getTotalWordSize t =? 32 then
    do ldata <- getImmediateData len luv;
    do rdata <- getImmediateData len ruv;
    do d <- f false len ldata rdata;
    makeImmediate_len t (u32 d) len
  else if getTotalWordSize t =? 64 then
    do ldata <- getImmediateDataLong len luv;
    do rdata <- getImmediateDataLong len ruv;
    do d <- f true len ldata rdata;
    makeImmediateLong_len t (u64 d) len
  else None.

(* NodeBinaryOp.cpp:163-231 with the fold *)
Definition foldBitwise (op : bitop) (lt : utype) (lc : N) (rt : utype) (rc : N) : folded :=
  match bitwiseType lt rt with
  | None => FErr
  | Some t =>
    match checkSafeToCastTo lt lc rt rc t with
    | None => FAbort
    | Some false => FErr
    | Some true =>
      fof (do lv <- terminalValue lt lc;
           do rv <- terminalValue rt rc;
           do l <- operand t lv;
           do r <- operand t rv;
           doBitsImmediate (fun _ len a b => Some (ext_bitwise op len a b)) t l r)
    end
  end.

(* ---- shifts ---- *)
Inductive shiftop := ShLeft | ShRight.

Definition Unsigned32 : utype := prim EUnsigned 32 NONARRAYSIZE.

(* _ShiftOpLeftBits32, ... (EXTERNAL): defined for a distance less than the word *)
Definition ext_shift (op : shiftop) (long : bool) (len l d : N) : option N :=
  if (d <? if long then 64 else 32)%N then
    Some (match op with ShLeft => N.shiftl l d mod 2 ^ len | ShRight => N.shiftr (l mod 2 ^ len) d end)%N
  else None.

Definition shiftBitsize (op : shiftop) (lt rt : utype) : option Z :=
  match op with ShLeft => shiftLeftResultBitsize lt rt | ShRight => shiftRightResultBitsize lt rt end.

(* NodeBinaryOpShift.cpp:13-71 and 101-195 with the fold: the left operand is cast to Bits of its own size unless it is Bits,
   the right operand to Unsigned unless it is some Unsigned; the warning of line 181 is dropped *)
Definition foldShift (op : shiftop) (lt : utype) (lc : N) (rt : utype) (rc : N) : folded :=
  if negb (isComplete lt && isComplete rt && isScalar lt && isScalar rt) then FErr else
  let lbits := prim EBits (ty_bits lt) NONARRAYSIZE in
  match literalSafeToCastTo lt lc lbits, literalSafeToCastTo rt rc Unsigned32 with
  | Some lscr, Some rscr =>
    if forecast_eqb lscr CAST_CLEAR && forecast_eqb rscr CAST_CLEAR then
      match shiftBitsize op lt rt with
      | None => FAbort
      | Some newbs =>
        let t := prim EBits newbs NONARRAYSIZE in
        fof (do lv <- terminalValue lt lc;
             do rv <- terminalValue rt rc;
             do l <- (if etype_eqb (ty_enum lt) EBits then Some lv
                      else match cast lbits lv with CastVal x => Some x | _ => None end);
             do r <- (if etype_eqb (ty_enum rt) EUnsigned then Some rv
                      else match cast Unsigned32 rv with CastVal x => Some x | _ => None end);
             doBitsImmediate (ext_shift op) t l r)
      end
    else FErr
  | _, _ => FAbort
  end.

(* ---- one operand ---- *)
(* NodeUnaryOp.cpp:418-460 *)
Definition doUnaryImmediate (f : N -> N -> N) (t : utype) (uv : uval) : option uval :=
  do len <- zlen (getTotalBitSize t);
  if getTotalWordSize t <=? 32 then
    do d <- getImmediateData len uv;
    makeImmediate_len t (u32 (f len d)) len
  else if getTotalWordSize t <=? 64 then
    do d <- getImmediateDataLong len uv;
    makeImmediateLong_len t (u64 (f len d)) len
  else None.

(* _BitwiseComplementBits32, ... (EXTERNAL) *)
Definition ext_complement (len d : N) : N := N.lxor (d mod 2 ^ len) (N.ones len).

(* NodeUnaryOpTwiddle.cpp:41-85 and NodeUnaryOp.cpp:160-194 *)
Definition foldTwiddle (t : utype) (c : N) : folded :=
  if negb (isComplete t) then FErr else
  let nt := prim EBits (ty_bits t) NONARRAYSIZE in
  match safeCast nt t with
  | None => FAbort
  | Some CAST_CLEAR => fof (do v <- terminalValue t c; do x <- operand nt v; doUnaryImmediate ext_complement nt x)
  | Some _ => FErr
  end.

(* _LogicalBangBool32, ... (EXTERNAL): not the truth of the Bool *)
Definition ext_bang (len d : N) : N := ext_enc EBool (Z.of_N len) (1 - ext_val EBool (Z.of_N len) d).

(* NodeUnaryOpBang.cpp:36-82 and NodeUnaryOp.cpp:160-194 *)
Definition foldBang (t : utype) (c : N) : folded :=
  if negb (isComplete t) then FErr else
  if etype_eqb (ty_enum t) EBits then FErr else
  match safeCast Bool1 t with
  | None => FAbort
  | Some CAST_CLEAR =>
    let nt := prim EBool (if etype_eqb (ty_enum t) EBool then ty_bits t else 1) NONARRAYSIZE in
    fof (do v <- terminalValue t c; do x <- operand nt v; doUnaryImmediate ext_bang nt x)
  | Some _ => FErr
  end.
