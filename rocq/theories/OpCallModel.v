(* OpCallModel.v: operators with a class as (left) operand, from the token to the function that is called.
   Transcribes the nodes that Parser.cpp makes for the tokens: 6525-6536, 6550-6587 (assignments), 6659-6667, 6694-6704, 6808-6815,
   6843-6850, 6878-6888 (the other binary operators) and 6914-6947 (before the operand); getName of the Node*Op*.cpp files;
   src/ulam/Node.cpp:3391-3424 (buildOperatorOverloadFuncCallNodeHelper), NodeBinaryOp.cpp:163-192, 233-261,
   NodeBinaryOpEqual.cpp:163-202, 231-328, NodeBinaryOpEqualArith.cpp:85-119, NodeBinaryOpEqualBitwise.cpp:33-49,
   NodeBinaryOpEqualShift.cpp:32-48, NodeBinaryOpShift.cpp:13-30, NodeBinaryOpEqualArithPre{Incr,Decr}.cpp:36-43,
   NodeUnaryOp.cpp:132-174, NodeUnaryOp.cpp:196-199 and NodeSquareBracket.cpp:210-236, 509-543.
   The comparisons are OpDispatchModel.v.
   Parameters: as there, and matching, what findMatchingFunctionWithSafeCastsInAClassScopeOrAncestor answers for the right
   operand: how many functions, and whether it is hazy.
   Simplifications: the operands' own types are known, scalar, not Void and may be stored into (the code before the lines
   above refuses or waits otherwise); that the node built takes its place in the parent, is labelled again and reports a
   function that does not exist or is ambiguous is not part of it; messages are dropped. *)
From Coq Require Import String List NArith ZArith Bool.
From Verif Require Import Base TypeTableModel FamilyModel OpDispatchModel.
Import ListNotations.
Open Scope N_scope.

(* the node classes *)
Inductive opnode :=
  ArithAdd | ArithSubtract | ArithMultiply | ArithDivide | ArithRemainder | BitwiseAnd | BitwiseOr | BitwiseXor
| LogicalAnd | LogicalOr | ShiftLeft | ShiftRight
| Equal | EqualArithAdd | EqualArithSubtract | EqualArithMultiply | EqualArithDivide | EqualArithRemainder
| EqualBitwiseAnd | EqualBitwiseOr | EqualBitwiseXor | EqualShiftLeft | EqualShiftRight
| PreIncr | PreDecr | PostIncr | PostDecr | UMinus | UPlus | UBang | UTwiddle | SquareBracket.

(* where the operator is written *)
Inductive place := Before | Between | After.

(* the operators of a place with their nodes; Parser.cpp:6914-6947 *)
Definition before_nodes : list (list N * opnode) :=
  [(txt "-", UMinus); (txt "+", UPlus); (txt "!", UBang); (txt "~", UTwiddle); (txt "++", PreIncr); (txt "--", PreDecr)].
(* Parser.cpp:6525-6536 *)
Definition after_nodes : list (list N * opnode) := [(txt "++", PostIncr); (txt "--", PostDecr)].
(* Parser.cpp:6550-6587, 6659-6667, 6694-6704, 6808-6815, 6843-6850, 6878-6888 *)
Definition between_nodes : list (list N * opnode) :=
  [(txt "=", Equal); (txt "+=", EqualArithAdd); (txt "-=", EqualArithSubtract); (txt "*=", EqualArithMultiply);
   (txt "/=", EqualArithDivide); (txt "%=", EqualArithRemainder); (txt "&=", EqualBitwiseAnd); (txt "|=", EqualBitwiseOr);
   (txt "^=", EqualBitwiseXor); (txt "<<=", EqualShiftLeft); (txt ">>=", EqualShiftRight);
   (txt "&&", LogicalAnd); (txt "||", LogicalOr); (txt "&", BitwiseAnd); (txt "|", BitwiseOr); (txt "^", BitwiseXor);
   (txt "<<", ShiftLeft); (txt ">>", ShiftRight); (txt "+", ArithAdd); (txt "-", ArithSubtract);
   (txt "*", ArithMultiply); (txt "/", ArithDivide); (txt "%", ArithRemainder); (txt "[]", SquareBracket)].
Definition nodes_of (p : place) : list (list N * opnode) :=
  match p with Before => before_nodes | Between => between_nodes | After => after_nodes end.
Definition makeNode (p : place) (op : list N) : option opnode :=
  match find (fun e => text_eqb (fst e) op) (nodes_of p) with Some (_, n) => Some n | None => None end.

(* getName of the node classes; NodeSquareBracket's is not used *)
Definition getName (n : opnode) : list N :=
  match n with
  | ArithAdd => txt "+" | ArithSubtract => txt "-" | ArithMultiply => txt "*" | ArithDivide => txt "/" | ArithRemainder => txt "%"
  | BitwiseAnd => txt "&" | BitwiseOr => txt "|" | BitwiseXor => txt "^" | LogicalAnd => txt "&&" | LogicalOr => txt "||"
  | ShiftLeft => txt "<<" | ShiftRight => txt ">>" | Equal => txt "="
  | EqualArithAdd => txt "+=" | EqualArithSubtract => txt "-=" | EqualArithMultiply => txt "*=" | EqualArithDivide => txt "/="
  | EqualArithRemainder => txt "%=" | EqualBitwiseAnd => txt "&=" | EqualBitwiseOr => txt "|=" | EqualBitwiseXor => txt "^="
  | EqualShiftLeft => txt "<<=" | EqualShiftRight => txt ">>="
  | PreIncr => txt "+=" | PreDecr => txt "-=" | PostIncr => txt "++" | PostDecr => txt "--"
  | UMinus => txt "-" | UPlus => txt "+" | UBang => txt "!" | UTwiddle => txt "~" | SquareBracket => txt "[]"
  end.

(* the right operand of the node: the one written, or the 1 that the parser makes up: Parser.cpp:6527, 6534, 6939, 6944 *)
Inductive argument := RightOperand | One.
Definition rightNode (n : opnode) : argument := match n with PreIncr | PreDecr | PostIncr | PostDecr => One | _ => RightOperand end.

(* the strings of include/Token.inc:1-56 that are operators and not overloadable *)
Definition other_tokens : list (list N) := map txt ["&&"; "||"; "**"; "?"; "."; ".."]%string.
(* Token.cpp:139-151; the text stands for the token *)
Definition getTokenTypeFromString (s : list N) : option (list N) :=
  if existsb (text_eqb s) (overloadable ++ other_tokens) then Some s else None.

(* what becomes of the node: a call of the named function with these arguments; copying the object or (array of) atom; the
   custom array's functions; waiting for the next round; an error; an assert *)
Inductive fate := CallOf (name : list N) (args : list argument) | Copies | CustomArray | Waits | Error | Asserts.

(* Node.cpp:3391-3424 *)
Definition helper (name : list N) (arg : option argument) : fate :=
  match getTokenTypeFromString name with
  | None => Asserts
  | Some op =>
    match getOperatorOverloadFullNameId op with
    | None => Error
    | Some id => CallOf id (match arg with Some a => [a] | None => [] end)
    end
  end.

Section Call.
Variable root : N -> N.
Variable bases : N -> option (list N).
Variable hzy : N.
Variable declares : N -> list N -> bool.
Variable hazyHere : N -> bool.
Variable matching : N -> list N -> nat * bool.

(* buildOperatorOverloadFuncCallNode: NodeBinaryOp.cpp:258-261; NodeBinaryOpEqualArithPreIncr.cpp:37-44 and PreDecr.cpp:36-43;
   NodeUnaryOp.cpp:196-199; NodeSquareBracket.cpp:509-543 is below *)
Definition buildCall (n : opnode) : fate :=
  match n with
  | PreIncr => helper (txt "++") None
  | PreDecr => helper (txt "--") None
  | UMinus | UPlus | UBang | UTwiddle => helper (getName n) None
  | _ => helper (getName n) (Some (rightNode n))
  end.

(* NodeSquareBracket.cpp:509-543 and 210-236; isCustomArray: the class has aref functions *)
Definition squareBracket (c : N) (isCustomArray : bool) : fate :=
  match getTokenTypeFromString (txt "[]") with
  | None => Asserts
  | Some op =>
    match getOperatorOverloadFullNameId op with
    | None => Error
    | Some id =>
      match isFuncIdInAClassScopeOrAncestor root bases hzy declares hazyHere c id false with
      | (true, false) => helper (txt "[]") (Some RightOperand)
      | (_, true) => Waits
      | (false, false) => if isCustomArray then CustomArray else Error
      end
    end
  end.

(* NodeBinaryOpEqual.cpp:268-328 (buildOperatorOverloadFuncCallNodeForMatchingArg): hazyArg, and the new node if any *)
Definition forMatchingArg (c : N) : bool * option fate :=
  match getTokenTypeFromString (getName Equal) with
  | None => (false, Some Asserts)
  | Some op =>
    match getOperatorOverloadFullNameId op with
    | None => (false, Some Error)
    | Some id =>
      match isFuncIdInAClassScopeOrAncestor root bases hzy declares hazyHere c id false with
      | (true, false) =>
        let '(numFuncs, tmphazyargs) := matching c id in
        (tmphazyargs, if Nat.leb 1 numFuncs then Some (CallOf id [RightOperand]) else None)
      | (_, true) => (true, None)
      | (false, false) => (false, None)
      end
    end
  end.

(* NodeBinaryOpEqual.cpp:163-202, 231-263: a left operand of class c; whether the right one is a class or an atom *)
Definition assign (c : N) (classoratom : bool) : fate :=
  if negb classoratom then buildCall Equal
  else match forMatchingArg c with
       | (true, _) => Waits
       | (false, Some f) => f
       | (false, None) => Copies
       end.

(* checkAndLabelType of the node, its left operand of class c *)
Definition checkAndLabel (n : opnode) (c : N) (isCustomArray classoratom : bool) : fate :=
  match n with
  | Equal => assign c classoratom
  | SquareBracket => squareBracket c isCustomArray
  | _ => buildCall n
  end.
End Call.
