(* OpDispatchModel.v: comparisons of class operands, and the names of operator functions.
   Transcribes src/ulam/NodeBinaryOpCompare.cpp:25-37 (the start of checkAndLabelType) and 71-155
   (buildOperatorOverloadFuncCallNode), getInverseOpName of the six NodeBinaryOpCompare*.cpp:22-25,
   src/ulam/NodeBinaryOp.cpp:233-255 (buildandreplaceOperatorOverloadFuncCallNode),
   src/ulam/CompilerState.cpp:4742-4780 (isFuncIdInAClassScopeOrAncestor), src/ulam/Token.cpp:139-151,197-248 and the
   operators of include/Token.inc:26-82.
   Parameters: root and bases as in FamilyModel.v; hzy, the index of the type not known yet; declares, whether the class
   itself has a function of that name (NodeBlockClass::isFuncIdInScope); hazyHere, checkHasHazyKin of the class
   (CompilerState.cpp:7728-7764: a stub, a holder or a base class that is not ready).
   Simplifications: the numbers of the string pool are the texts; messages are dropped. *)
From Coq Require Import String List NArith ZArith Bool.
From Verif Require Import Base TypeTableModel FamilyModel.
Import ListNotations.
Open Scope N_scope.

(* ---- names ---- *)
(* the overloadable tokens of include/Token.inc (OPOL_IS), in the order of the table *)
Definition overloadable : list (list N) :=
  map txt ["[]"; "&"; "&="; "|"; "|="; "!"; "~"; "="; "=="; "!="; "<"; "<="; ">"; ">="; "<<"; "<<="; ">>"; ">>="; "+"; "++"; "+=";
           "-"; "--"; "-="; "*"; "*="; "/"; "/="; "^"; "^="; "%"; "%="]%string.

(* std::hex << (u32) c of a character below 256: Token.cpp:215-223 *)
Definition hexdigit (d : N) : N := if d <? 10 then 48 + d else 87 + d.
Definition hexOfChar (c : N) : list N := if c <? 16 then [hexdigit c] else [hexdigit (c / 16); hexdigit (c mod 16)].
Definition getOperatorHexNameFromString (s : list N) : list N := flat_map hexOfChar s.

Definition OPERATOR : list N := txt "operator".

(* Token.cpp:197-207; None is 0, not overloadable *)
Definition text_eqb (a b : list N) : bool := if list_eq_dec N.eq_dec a b then true else false.
Definition getOperatorOverloadFullNameId (op : list N) : option (list N) :=
  if existsb (text_eqb op) overloadable then Some (txt "_" ++ OPERATOR ++ getOperatorHexNameFromString op) else None.

(* Token.cpp:225-234 *)
Definition isOperatorOverloadIdentToken (name : list N) : bool := text_eqb (firstn 9 name) (txt "_operator").

(* strtol(byte, NULL, 16) of at most two characters that are hex digits *)
Definition hexval (c : N) : N := if c <? 58 then c - 48 else c - 87.
Fixpoint unhex (s : list N) : list N :=
  match s with
  | a :: b :: r => (16 * hexval a + hexval b) :: unhex r
  | [a] => [hexval a]
  | [] => []
  end.
(* Token.cpp:236-248 *)
Definition getUlamNameIdForOperatorOverloadToken (name : list N) : list N := OPERATOR ++ unhex (skipn 9 name).

(* ---- dispatch ---- *)
Inductive cmpop := Eq | Ne | Lt | Le | Gt | Ge.
(* getName: NodeBinaryOpCompareEqualEqual.cpp:12-15 and the like *)
Definition opText (o : cmpop) : list N :=
  txt (match o with Eq => "==" | Ne => "!=" | Lt => "<" | Le => "<=" | Gt => ">" | Ge => ">=" end)%string.
(* NodeBinaryOpCompareEqualEqual.cpp:22-25, NotEqual, LessThan, LessEqual, GreaterThan, GreaterEqual: the same lines *)
Definition inverse (o : cmpop) : cmpop :=
  match o with Eq => Ne | Ne => Eq | Lt => Ge | Le => Gt | Gt => Le | Ge => Lt end.

Section Dispatch.
Variable root : N -> N.
Variable bases : N -> option (list N).
Variable hzy : N.
Variable declares : N -> list N -> bool.
Variable hazyHere : N -> bool.

(* CompilerState.cpp:4742-4780: whether it is found, and whether the kin is hazy *)
Fixpoint lookup (fuel : nat) (id : list N) (d : deque) (seen : list N) (hazy : bool) : bool * bool :=
  match fuel with
  | O => (false, hazy)
  | S f =>
    match getNextBasePair root d seen with
    | (None, _, _) => (false, hazy)
    | (Some (b, h), d', seen') =>
      match bases b with
      | Some bs =>
        if declares b id then (true, hazyHere b)
        else lookup f id (addAncestorPairsOf false bs 0 d') seen' (hazy || hazyHere b)
      | None => lookup f id d' seen' (hazy || (b =? hzy))
      end
    end
  end.
Definition isFuncIdInAClassScopeOrAncestor (c : N) (id : list N) (hazy : bool) : bool * bool :=
  lookup the_fuel id [(c, 0)] [] hazy.

(* the call that replaces the comparison: the operator's function, or the negated function of the inverse *)
Inductive call := Call (o : cmpop) | NotCall (o : cmpop).

(* NodeBinaryOpCompare.cpp:71-155: the new node, and hazyArg *)
Definition buildOperatorOverloadFuncCallNode (o : cmpop) (c : N) : option call * bool :=
  match getOperatorOverloadFullNameId (opText o) with
  | None => (None, false)
  | Some id =>
    match isFuncIdInAClassScopeOrAncestor c id false with
    | (true, hz) => (Some (Call o), hz)
    | (false, hz) =>
      match getOperatorOverloadFullNameId (opText (inverse o)) with
      | None => (None, hz)
      | Some id' =>
        match isFuncIdInAClassScopeOrAncestor c id' hz with
        | (true, hz') => (Some (NotCall (inverse o)), hz')
        | (false, hz') => (None, hz')
        end
      end
    end
  end.

(* NodeBinaryOpCompare.cpp:25-37 with NodeBinaryOp.cpp:233-255, left operand of class c: the node is replaced by a call and
   deleted; it is deleted and nothing takes its place in the parent (TBOOL_HAZY is not zero); or it goes on to the rules
   of the primitive types, after the error message *)
Inductive outcome := Replaced (k : call) | Dangling | Refused.
Definition checkAndLabelCompare (o : cmpop) (c : N) : outcome :=
  match buildOperatorOverloadFuncCallNode o c with
  | (Some k, _) => Replaced k
  | (None, true) => Dangling
  | (None, false) => Refused
  end.
End Dispatch.
