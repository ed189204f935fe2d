(* QColonModel.v: the conditional expression c ? a : b.
   Transcribes src/ulam/NodeQuestionColon.cpp:142-316 (the type), 339-405 (folding when the condition is a constant)
   and 407-450 (evaluation), with Node.cpp:513-549 (checkSafeToCastTo).
   Simplifications: types are the records of UTypeModel.v, compared by their keys; messages are dropped; making a
   casting node always works; a failed NODE_ASSERT is QAbort; an operand is given by its type and by what its
   evaluation leaves (None: it fails). *)
From Coq Require Import String List NArith ZArith Lia Bool.
From Verif Require Import Base BitVec UTypeModel AtomModel PrimModel ArithModel.
Import ListNotations.
Open Scope Z_scope.

(* what checkAndLabelType ends with: a failed assertion, an error message (Nav), a request to come again (Hzy) or a type *)
Inductive qres := QAbort | QNav | QHzy | QType (t : utype).

(* UlamType.cpp:596-655 (compareWithWildALTKey) for complete primitive types: the keys but for the reference kind *)
Definition same_but_ref (a b : utype) : bool :=
  etype_eqb (ty_enum a) (ty_enum b) && (ty_bits a =? ty_bits b) && (ty_arr a =? ty_arr b).

(* UlamTypePrimitive.cpp isPrimitiveType, for the types derived from it *)
Definition isPrimitiveType (t : utype) : bool :=
  match ty_enum t with EVoid | EInt | EUnsigned | EBool | EUnary | EBits | EString => true | _ => false end.

(* NodeQuestionColon.cpp:142-231 *)
Definition qCalcNodeType (lt rt : utype) : qres :=
  if negb (isComplete lt) || negb (isComplete rt) then QHzy
  else if same_but_ref lt rt then QType (if isReference lt then rt else lt)
  else if negb (isPrimitiveType lt && isPrimitiveType rt) then QNav
  else if etype_eqb (ty_enum lt) EBits || etype_eqb (ty_enum rt) EBits then
    if isScalar lt && isScalar rt then
      match resultBitsizeCalcInBits lt rt with
      | Some (lbs, rbs, _) => QType (prim EBits (if lbs >? rbs then lbs else rbs) NONARRAYSIZE)
      | None => QAbort
      end
    else QNav
  else if isScalar lt && isScalar rt then
    match resultBitsize Divide lt rt with (* NodeBinaryOp.cpp:422-429, not overridden here *)
    | None => QAbort
    | Some newbs =>
      if etype_eqb (ty_enum lt) (ty_enum rt) then QType (prim (ty_enum lt) newbs NONARRAYSIZE)
      else
        let un e := match e with EUnary => EUnsigned | e => e end in
        if etype_eqb (un (ty_enum lt)) EUnsigned && etype_eqb (un (ty_enum rt)) EUnsigned
        then QType (prim EUnsigned newbs NONARRAYSIZE)
        else QType (prim EInt newbs NONARRAYSIZE)
    end
  else QNav.

(* Node.cpp:513-549 *)
Definition checkSafeToCastTo (from newType : utype) : qres :=
  match safeCast newType from with
  | Some CAST_CLEAR => QType newType
  | Some CAST_HAZY => QHzy
  | Some CAST_BAD => QNav
  | None => QAbort
  end.

Definition BoolType : utype := prim EBool 1 NONARRAYSIZE.

(* NodeQuestionColon.cpp:237-271: the type of the condition *)
Definition qCondition (ct : utype) : qres :=
  if negb (isComplete ct) then QHzy
  else if negb (isScalar ct) then QAbort
  else if negb (etype_eqb (ty_enum ct) EBool) then checkSafeToCastTo ct BoolType
  else QType BoolType.

(* NodeQuestionColon.cpp:284-302: one of the two branches *)
Definition qBranch (from newType : utype) : qres :=
  if same_type newType from then QType newType else checkSafeToCastTo from newType.

(* NodeQuestionColon.cpp:233-316 *)
Definition qCheckAndLabel (ct lt rt : utype) : qres :=
  match qCondition ct with
  | QAbort => QAbort
  | cond =>
    match qCalcNodeType lt rt with
    | QAbort => QAbort
    | newType =>
      match cond with
      | QType _ =>
        match newType with
        | QType t => match qBranch lt t with QType t' => qBranch rt t' | q => q end
        | q => q
        end
      | q => q
      end
    end
  end.

(* an operand: its type, and the value its evaluation leaves *)
Record qnode := mkNode { q_ty : utype; q_val : option uval }.

(* the casting node put before an operand, or the operand itself: NodeQuestionColon.cpp:247-263,286-302 *)
Definition castTo (t : utype) (x : qnode) : qnode :=
  mkNode t (do v <- q_val x; operand t v).

(* NodeQuestionColon.cpp:418-424: the bool of the condition *)
Definition qTruth (c : qnode) : option bool :=
  do cuv <- q_val (castTo BoolType c);
  do d <- getImmediateData 1 cuv;
  Some (negb (d =? 0)%N).

(* NodeQuestionColon.cpp:407-450 for an expression of type t *)
Definition qEval (t : utype) (c l r : qnode) : option uval :=
  do b <- qTruth c;
  if (b : bool) then q_val (castTo t l) else q_val (castTo t r).

(* NodeQuestionColon.cpp:339-405: the node that takes the place of the expression when the condition is a constant *)
Definition qConstantFold (t : utype) (c l r : qnode) : option qnode :=
  do b <- qTruth c;
  Some (if (b : bool) then castTo t l else castTo t r).
