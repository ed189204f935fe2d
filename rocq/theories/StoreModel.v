(** What may be assigned to: the labels "storeIntoAble" and "referenceAble"
    that checkAndLabelType puts on the nodes of an expression, the uses that
    ask for them, and the place each node hands to a store.

    Modelled (files under src/ulam):
    - Node.cpp:179-209            setStoreIntoAble sets both labels; minTBOOL
    - NodeIdent.cpp:421-428       labels of a variable
    - NodeIdent.cpp:910-975       evalToStoreInto of a variable
    - NodeCast.cpp:337-378        refusals of explicit casts
    - NodeCast.cpp:545-551        labels of a cast
    - NodeCast.cpp:656-690        evalToStoreInto of a cast
    - NodeCast.cpp genCodeToStoreInto, genCodeToStoreIntoCastToAReference
    - NodeQuestionColon.cpp:142-157, 275-310, 452-489   type, labels, place
    - NodeSquareBracket.cpp:437-451, 718-757
    - NodeMemberSelect.cpp:482-518, 662-709
    - NodeMemberSelectByBaseClassType.cpp:225-235, 388-
    - NodeFunctionCall.cpp:241-268 (reference arguments), 471-478, 762-785
    - NodeStorageof.cpp:222-236, 265-282; NodeAtomof.cpp makeUlamValuePtr
      (for a variable of its own)
    - NodeBinaryOpEqual.cpp:123-128, 330-351, 422-440
    - NodeVarRef.cpp:262-295      initialisation of a reference
    - NodeConstant.cpp:623-       evalToStoreInto of a named constant
    - UlamType.cpp safeCast, checkReferenceCast: no cast from a constant
      reference to a plain one.

    Simplifications.  Only complete types (the label is never HAZY).  A type
    is a number for what it is without its reference kind, and the kind.
    Casts to a reference keep the number (casts between related classes are
    the subject of ClassCastModel).  Explicit casts to a non-reference are
    never refused here, which only makes more programs accepted.  A
    condition of ?: is not a compile-time constant (a constant one is folded
    away, NodeQuestionColon.cpp:312).  Custom arrays are left out. *)

From Coq Require Import String List NArith ZArith Lia Bool.
Import ListNotations.
Open Scope N_scope.

(** Kinds of references (Constants.h ALT_NOT, ALT_REF, ALT_CONSTREF, ALT_AS). *)
Inductive alt := ANot | ARef | AConst | AAs.

Definition alt_eqb (a b : alt) : bool :=
  match a, b with
  | ANot, ANot | ARef, ARef | AConst, AConst | AAs, AAs => true
  | _, _ => false
  end.

Record sty := mkTy { ty_base : N; ty_alt : alt }.

Definition sty_eqb (a b : sty) : bool :=
  (ty_base a =? ty_base b) && alt_eqb (ty_alt a) (ty_alt b).

(** UlamType::isReference (UlamType.cpp) *)
Definition isReference (t : sty) : bool := negb (alt_eqb (ty_alt t) ANot).

(** UlamType::isAltRefType (UlamType.cpp) *)
Definition isAltRef (t : sty) : bool :=
  alt_eqb (ty_alt t) ARef || alt_eqb (ty_alt t) AConst.

(** CompilerState::isConstantRefType (CompilerState.cpp) *)
Definition isConstRef (t : sty) : bool := alt_eqb (ty_alt t) AConst.

(** A variable: its name, its type, and the mark of a constant function
    parameter (NodeIdent.cpp:1743-1751). *)
Record svar := mkVar { v_name : N; v_ty : sty; v_constparam : bool }.

(** Expressions as the parser leaves them. *)
Inductive raw :=
| RVar (v : svar)
| RConst (name : N) (t : sty) (slot : bool)   (* a named constant; has it a place? *)
| RVal (t : sty) (konst : bool)               (* operations and literals *)
| RCast (t : sty) (e : raw)                   (* an explicit cast *)
| RQuest (other : N) (c : N) (a b : raw)      (* condition c; other: result when the types differ *)
| RMember (e : raw) (m : N) (t : sty)
| RIndex (e : raw) (elem : N)                 (* a subscript that is not constant *)
| RBase (e : raw) (t : sty)                   (* selection of a base class *)
| RCall (t : sty) (isclass : bool)
| RAtomof (v : svar) (atomref : N)
| RAssign (e r : raw).

(** Expressions after checkAndLabelType, with the casts it inserted. *)
Inductive tree :=
| TVar (v : svar)
| TConst (name : N) (t : sty) (slot : bool)
| TVal (t : sty) (konst : bool)
| TCast (explicit : bool) (t : sty) (e : tree)
| TQuest (t : sty) (c : N) (a b : tree)
| TMember (e : tree) (m : N) (t : sty)
| TIndex (e : tree) (elem : N)
| TBase (e : tree) (t : sty)
| TCall (t : sty) (isclass : bool)
| TAtomof (v : svar) (atomref : N)
| TAssign (e r : tree).

(** getNodeType.  An item of an array is not a reference
    (CompilerState::getUlamTypeAsScalar, ALT_NOT); .atomof of a variable is
    an atom reference (NodeStorageof.cpp:228). *)
Fixpoint tyOf (t : tree) : sty :=
  match t with
  | TVar v => v_ty v
  | TConst _ t _ => t
  | TVal t _ => t
  | TCast _ t _ => t
  | TQuest t _ _ _ => t
  | TMember _ _ t => t
  | TIndex _ el => mkTy el ANot
  | TBase _ t => t
  | TCall t _ => t
  | TAtomof _ a => mkTy a ARef
  | TAssign e _ => tyOf e
  end.

(** isAConstant: NodeIdent (a variable's symbol is not constant), NodeCast
    (passes through), NodeQuestionColon (its condition's), NodeMemberSelect
    (its left's), NodeSquareBracket (left's and subscript's). *)
Fixpoint isAConstant (t : tree) : bool :=
  match t with
  | TVar _ => false
  | TConst _ _ _ => true
  | TVal _ k => k
  | TCast _ _ e => isAConstant e
  | TQuest _ _ _ _ => false
  | TMember e _ _ => isAConstant e
  | TIndex _ _ => false
  | TBase e _ => isAConstant e
  | TCall _ _ => false
  | TAtomof _ _ => false
  | TAssign _ _ => false
  end.

(** getStoreIntoAble after checkAndLabelType *)
Fixpoint stor (t : tree) : bool :=
  match t with
  | TVar v =>                               (* NodeIdent.cpp:423-428 *)
      negb (v_constparam v) && negb (isConstRef (v_ty v))
  | TConst _ _ _ => false
  | TVal _ _ => false
  | TCast explicit t e =>                   (* NodeCast.cpp:545-551 *)
      if alt_eqb (ty_alt t) ARef then true
      else if explicit then false
      else stor e
  | TQuest _ _ _ _ => true                  (* NodeQuestionColon.cpp:309 *)
  | TMember e _ _ => stor e                 (* NodeMemberSelect.cpp:509-512; a data member is TRUE *)
  | TIndex e _ => stor e                    (* NodeSquareBracket.cpp:450 *)
  | TBase e _ => stor e                     (* NodeMemberSelectByBaseClassType.cpp:229 *)
  | TCall t isclass => isclass || isAltRef t (* NodeFunctionCall.cpp:473-475 *)
  | TAtomof _ _ => true                     (* NodeStorageof.cpp:227 *)
  | TAssign e _ => stor e                   (* NodeBinaryOpEqual.cpp:349 *)
  end.

(** getReferenceAble; setStoreIntoAble sets it too (Node.cpp:187). *)
Fixpoint refable (t : tree) : bool :=
  match t with
  | TVar v => negb (v_constparam v) && negb (isConstRef (v_ty v))
  | TConst _ _ _ => false
  | TVal _ _ => false
  | TCast explicit t e =>
      if alt_eqb (ty_alt t) ARef then true
      else if explicit then false
      else stor e
  | TQuest _ _ _ _ => true
  | TMember e _ _ => refable e              (* NodeMemberSelect.cpp:514-517 *)
  | TIndex e _ => stor e
  | TBase e _ => refable e                  (* NodeMemberSelectByBaseClassType.cpp:232 *)
  | TCall t _ => isAltRef t                 (* NodeFunctionCall.cpp:477-478 *)
  | TAtomof _ _ => true
  | TAssign e _ => stor e
  end.

(** UlamType::safeCast and UlamTypePrimitive::explicitlyCastable as far as
    reference kinds go: no constant reference becomes a plain one, and a
    cast to a reference keeps the type. *)
Definition castable (fm tobe : sty) : bool :=
  if isAltRef tobe then
    (ty_base fm =? ty_base tobe)
    && negb (isConstRef fm && alt_eqb (ty_alt tobe) ARef)
  else true.

(** A branch of ?: brought to the type of the node
    (NodeQuestionColon.cpp:283-303). *)
Definition branch (t : sty) (e : tree) : option tree :=
  if sty_eqb (tyOf e) t then Some e
  else if castable (tyOf e) t then Some (TCast false t e)
  else None.

(** NodeQuestionColon::calcNodeType (:142-157): when the types are the same
    up to the reference kind, the right one's if the left one is a
    reference, and otherwise the left one's. *)
Definition questType (other : N) (lt rt : sty) : sty :=
  if ty_base lt =? ty_base rt then (if isReference lt then rt else lt)
  else mkTy other ANot.

(** checkAndLabelType; None where it reports an error. *)
Fixpoint label (e : raw) : option tree :=
  match e with
  | RVar v => Some (TVar v)
  | RConst n t s => Some (TConst n t s)
  | RVal t k => Some (TVal t k)
  | RCast t e =>                            (* NodeCast.cpp:337-378 *)
      match label e with
      | Some e' =>
          if castable (tyOf e') t && negb (isAltRef t && isAConstant e')
          then Some (TCast true t e') else None
      | None => None
      end
  | RQuest other c a b =>
      match label a, label b with
      | Some a', Some b' =>
          let t := questType other (tyOf a') (tyOf b') in
          match branch t a', branch t b' with
          | Some a2, Some b2 => Some (TQuest t c a2 b2)
          | _, _ => None
          end
      | _, _ => None
      end
  | RMember e m t =>
      match label e with Some e' => Some (TMember e' m t) | None => None end
  | RIndex e el =>
      match label e with Some e' => Some (TIndex e' el) | None => None end
  | RBase e t =>
      match label e with Some e' => Some (TBase e' t) | None => None end
  | RCall t c => Some (TCall t c)
  | RAtomof v a => Some (TAtomof v a)
  | RAssign e r =>                          (* NodeBinaryOpEqual.cpp:123-128 *)
      match label e, label r with
      | Some e', Some r' => if stor e' then Some (TAssign e' r') else None
      | _, _ => None
      end
  end.

(** The uses through which something gets changed, and what each asks. *)
Inductive use :=
| UAssign      (* the left side of =, +=, ++ ..: NodeBinaryOpEqual.cpp:332 *)
| URefInit     (* T& r = e : NodeVarRef.cpp:267-275 *)
| UArgument    (* an argument for a parameter T& : NodeFunctionCall.cpp:247 *)
| USelf.       (* e.f() : NodeMemberSelect.cpp:485-487 *)

Definition permits (u : use) (t : tree) : bool :=
  match u with
  | UAssign => stor t
  | URefInit => refable t && stor t
  | UArgument => refable t
  | USelf => stor t
  end.

(** Where a store ends up: in what a variable names, in a named constant's
    place, or in a temporary. *)
Inductive place := PVar (v : svar) | PConst (name : N) | PTemp.

(** evalToStoreInto.  [rho] tells which conditions hold.  None: the
    evaluation fails or is not supported. *)
Fixpoint evalPlace (rho : N -> bool) (t : tree) : option place :=
  match t with
  | TVar v =>                               (* NodeIdent.cpp:925-946 *)
      if negb (stor (TVar v)) && negb (isConstRef (v_ty v))
      then if v_constparam v then Some (PVar v) else None
      else Some (PVar v)
  | TConst n _ slot =>                      (* NodeConstant.cpp:633-640 *)
      if slot then Some (PConst n) else None
  | TVal _ _ => None                        (* Node.cpp:720-729 *)
  | TCast _ t e =>                          (* NodeCast.cpp:668-684 *)
      if negb (isConstRef t) && negb (stor e) then None
      else evalPlace rho e
  | TQuest _ c a b =>                       (* NodeQuestionColon.cpp:469-477 *)
      if rho c then evalPlace rho a else evalPlace rho b
  | TMember e _ _ => evalPlace rho e
  | TIndex e _ => evalPlace rho e
  | TBase e _ => evalPlace rho e
  | TCall t c =>                            (* NodeFunctionCall.cpp:776-781 *)
      if stor (TCall t c) then Some PTemp else None
  | TAtomof v _ => Some (PVar v)            (* NodeStorageof.cpp:265-280 *)
  | TAssign e _ =>                          (* NodeBinaryOpEqual.cpp:431-436 *)
      match evalPlace rho e with Some _ => Some PTemp | None => None end
  end.

(** genCodeToStoreInto: the generated code stores where the node's operand
    is; the labels are not looked at again.  A named constant is copied into
    a temporary first (NodeConstant::genCodeToStoreInto), and casting one to
    a reference that is not constant is an assertion. *)
Fixpoint genPlace (rho : N -> bool) (t : tree) : option place :=
  match t with
  | TVar v => Some (PVar v)
  | TConst _ _ _ => Some PTemp
  | TVal _ _ => None
  | TCast _ t e =>
      if isAltRef t && isAConstant e && negb (isConstRef t) then None
      else genPlace rho e
  | TQuest _ c a b => if rho c then genPlace rho a else genPlace rho b
  | TMember e _ _ => genPlace rho e
  | TIndex e _ => genPlace rho e
  | TBase e _ => genPlace rho e
  | TCall _ _ => Some PTemp
  | TAtomof v _ => Some (PVar v)
  | TAssign _ _ => None                     (* no genCodeToStoreInto of its own: Node's, an error *)
  end.

(** The check that NodeQuestionColon and NodeStorageof leave out: every
    branch of a ?: and every operand of .atomof is itself storeIntoAble. *)
Fixpoint guarded (e : raw) : bool :=
  match e with
  | RQuest _ _ a b =>
      match label a, label b with
      | Some a', Some b' => stor a' && stor b' && guarded a && guarded b
      | _, _ => false
      end
  | RAtomof v _ => stor (TVar v)
  | RVar _ | RConst _ _ _ | RVal _ _ | RCall _ _ => true
  | RCast _ e | RMember e _ _ | RIndex e _ | RBase e _ | RAssign e _ => guarded e
  end.

(** .. and the one NodeCast leaves out: so is the operand of every cast to a
    reference. *)
Fixpoint guardedCasts (e : raw) : bool :=
  match e with
  | RCast t e =>
      match label e with
      | Some e' => (negb (isAltRef t) || stor e') && guardedCasts e
      | None => false
      end
  | RQuest _ _ a b => guardedCasts a && guardedCasts b
  | RVar _ | RConst _ _ _ | RVal _ _ | RCall _ _ | RAtomof _ _ => true
  | RMember e _ _ | RIndex e _ | RBase e _ | RAssign e _ => guardedCasts e
  end.
