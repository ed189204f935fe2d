(* InitUseModel.v: what the names in the initial value of a local variable stand for.
   Transcribes src/ulam/NodeVarDecl.cpp:745-775 (the check after the initial value is labelled, in each pass) and the
   checkVarUsedBeforeDeclared of the nodes of expressions: NodeIdent.cpp:719-769, NodeConstant.cpp:484-525, NodeBinaryOp.cpp:69-78,
   NodeUnaryOp.cpp:54-58, NodeCast.cpp:54-58, NodeQuestionColon.cpp:55-64, NodeList.cpp:112-132, NodeMemberSelect.cpp:333-363,
   NodeFunctionCall.cpp:651-654, NodeInstanceof.cpp:71-74, NodeAtomof.cpp:126-130, NodeTerminal.cpp:589, NodeConditionalIs.cpp:171-175.
   The look-up of a name is that of ScopeModel.v.
   Simplifications: blocks are numbered from the outside to the inside, so a block number less than that of the declaration's block is one of
   the blocks around it; the passes are repeated until nothing changes. *)
From Coq Require Import String List NArith Bool.
From Verif Require Import Base TypeTableModel FamilyModel ScopeModel.
Import ListNotations.
Open Scope N_scope.

(* an expression; the second number of a name: its node number *)
Inductive iexp :=
| IName (id use : N)
| ITerm
| IBin (l r : iexp) | IUn (e : iexp) | IQuest (c a b : iexp)
| INil | ICons (e r : iexp)
| ISel (l : iexp) (m : N)          (* l.m *)
| ICall (args : iexp)              (* f(args) *)
| ICallOn (l args : iexp)          (* l.f(args) *)
| IMoot (e : iexp).                (* e.instanceof, e.sizeof, e.positionof *)

Section Init.
Variable root : N -> N.
Variable bases : N -> option (list N).
Variable classes : N -> option cclass.
Variable files : N -> option table.
Variable is_type : N -> bool.
Variable x : context.
Variable did : N.        (* the name of the variable declared, m_vid *)
Variable bs : list table. (* the blocks around the declaration, its own first *)

(* no check: NodeIdent::checkAndLabelType only *)
Definition plain_name (id use : N) : meaning := ident_pass root bases classes files is_type false x id use bs.
(* NodeIdent.cpp:719-769: a local variable with the name of the one declared, found in the block of the declaration: the next pass starts from
   the block around *)
Definition name_pass (id use : N) : meaning :=
  match plain_name id use with
  | Means s =>
    if (id =? did) && s_local s then
      match bs with
      | t :: r => match t id with
                  | Some s' => if s_no s' =? s_no s then ident_pass root bases classes files is_type false x id use r else Means s
                  | None => Means s
                  end
      | [] => Means s
      end
    else Means s
  | m => m
  end.
(* the names that are evaluated, in order, with what they come to mean; walked: checkVarUsedBeforeDeclared gets here *)
Fixpoint names (walked : bool) (e : iexp) : list meaning :=
  match e with
  | IName id use => [if walked then name_pass id use else plain_name id use]
  | ITerm => []
  | IBin l r => names walked l ++ names walked r
  | IUn e => names walked e
  | IQuest c a b => names walked c ++ names walked a ++ names walked b
  | INil => []
  | ICons e r => names walked e ++ names walked r
  | ISel l _ => names walked l
  | ICall args => names false args
  | ICallOn l args => names walked l ++ names false args
  | IMoot _ => []
  end.
Definition initial_value (e : iexp) : list meaning := names true e.
End Init.
