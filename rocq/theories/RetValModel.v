(* RetValModel.v: return statements and the type of the function.
   Transcribes NodeReturnStatement.cpp:99-267 (checkAndLabelType) and CompilerState.cpp:5579-5676 (checkFunctionReturnNodeTypes) with
   UlamType.cpp:542-592 and 593-666 (the two ways of comparing types).
   Simplifications: all types are complete; the returned expression is what these functions see of it: a literal (NodeTerminal) with
   its value, or anything else that is not constant; makeCastingNode, called for a cast that is safe, gives a cast to the type asked for
   (Node.cpp: makeCastingNode; C79 for classes).  The returned types are the primitive ones and Void: what safeCast is for.
   That the body is walked is left to the tree: the list of return nodes has one entry for every return statement in it. *)
From Coq Require Import List NArith ZArith Bool.
From Verif Require Import Base UTypeModel PrimModel LoopModel.
Import ListNotations.
Open Scope Z_scope.

Inductive retexp := RLit (t : utype) (c : N) | ROther (t : utype).
Definition rty (e : retexp) : utype := match e with RLit t _ | ROther t => t end.
Definition isAConstant (e : retexp) : bool := match e with RLit _ _ => true | ROther _ => false end.
(* NodeTerminal.cpp:132-160, and of the other nodes, e.g. NodeIdent.cpp:292-296 *)
Definition safeToCastTo (e : retexp) (t : utype) : option forecast :=
  match e with RLit l c => literalSafeToCastTo l c t | ROther f => safeCast t f end.

Definition isVoid (t : utype) : bool := etype_eqb (ty_enum t) EVoid.
(* UlamType.cpp:593-666, both complete; the name of a primitive type is that of its kind *)
Definition sameButRef (a b : utype) : bool :=
  etype_eqb (ty_enum a) (ty_enum b) && (ty_name a =? ty_name b)%N && (ty_arr a =? ty_arr b) && (ty_bits a =? ty_bits b) && (ty_inst a =? ty_inst b)%N.
(* UlamType.cpp:542-592 *)
Definition sameByKeys (a b : utype) : bool := sameButRef a b && alt_eqb (ty_ref a) (ty_ref b).
Definition isConstantRefType (t : utype) : bool := alt_eqb (ty_ref t) AltConstref.

(* the type of the return statement: NAV an error was reported, HZY try again *)
Inductive label := NAV | HZY | Typed (t : utype) (casted : bool).
Definition byForecast (f : option forecast) (t : utype) : option label :=
  match f with None => None | Some CAST_CLEAR => Some (Typed t true) | Some CAST_BAD => Some NAV | Some CAST_HAZY => Some HZY end.

(* NodeReturnStatement.cpp:99-267; None: a forecast that is not modelled *)
Definition returnLabel (e : retexp) (rtn : utype) : option label :=
  let n := rty e in
  if xorb (isScalar n) (isScalar rtn) then Some NAV
  else if negb (sameButRef n rtn) then
    if negb (isVoid rtn) then
      if isVoid n then Some NAV else byForecast (safeToCastTo e rtn) rtn
    else Some NAV
  else if isAltRefType rtn && isAltRefType n then
    if isConstantRefType n then Some NAV else Some (Typed n false)
  else if isAltRefType rtn && negb (isConstantRefType rtn) && isAConstant e then Some NAV
  else if isAltRefType rtn || isAltRefType n then byForecast (safeToCastTo e rtn) rtn
  else Some (Typed n false).

(* the kinds of functions *)
Inductive fkind := Ordinary | Native | PureVirtual | Constructor.
Definition fkind_eqb (a b : fkind) : bool :=
  match a, b with Ordinary, Ordinary | Native, Native | PureVirtual, PureVirtual | Constructor, Constructor => true | _, _ => false end.
(* CompilerState.cpp:5581-5676; rs: the types of the return nodes *)
Definition checkFunctionReturns (k : fkind) (rtn : utype) (rs : list label) : bool :=
  match rs with
  | [] => negb (negb (isVoid rtn) && negb (fkind_eqb k Native) && negb (fkind_eqb k PureVirtual) && negb (fkind_eqb k Constructor))
  | _ => forallb (fun r => match r with Typed t _ => sameByKeys t rtn | HZY => true | NAV => false end) rs
  end.

(* the return statements in a body: NodeReturnStatement.cpp:262 is come to once for each, reached or not *)
Fixpoint returns (s : stmt) : nat :=
  match s with
  | SReturn => 1
  | SSeq a b | SIf _ a b => returns a + returns b
  | SWhile _ a | SFor _ a _ => returns a
  | SSwitch _ cs => returnsCases cs
  | _ => 0
  end
with returnsCases (cs : cases) : nat :=
  match cs with CNil => 0 | CDefault s => returns s | CCase _ _ s r => returns s + returnsCases r end.

(* a function whose return statements return the expressions es, in the order of the text: no error is reported *)
Definition functionAccepted (k : fkind) (rtn : utype) (body : stmt) (es : list retexp) : option bool :=
  match fold_right (fun e r => match returnLabel e rtn, r with Some l, Some ls => Some (l :: ls) | _, _ => None end) (Some []) (firstn (returns body) es) with
  | None => None
  | Some ls => Some (forallb (fun l => match l with Typed _ _ => true | _ => false end) ls && checkFunctionReturns k rtn ls)
  end.
