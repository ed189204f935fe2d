(* AbstractModel.v: objects of abstract classes.
   Transcribes SymbolTableOfClasses.cpp:309-324 (checkAbstractInstanceErrorsForTableOfClasses), SymbolClassName.cpp:232-246 and
   SymbolClassNameTemplate.cpp:1739-1768 (checkAbstractInstanceErrorsForClassInstances), SymbolClass.cpp:2082-2102 (checkAbstractClassError),
   NodeBlockClass.cpp:114-119, SymbolTableOfFunctions.cpp:221-232, SymbolFunctionName.cpp:327-339, NodeBlockFunctionDefinition.cpp:65-71 and the
   checkAbstractInstanceErrors of the nodes: Node.cpp:66-69, NodeVarDecl.cpp:84-106, NodeVarRef.cpp:37-40, NodeBlock.cpp:54-58,
   NodeStatements.cpp:69-75, NodeControl.cpp:56-60, NodeControlIf.cpp:61-66, NodeReturnStatement.cpp:55-59, NodeSimpleStatement.cpp:50-54,
   NodeConstantDef.cpp:97-101, NodeList.cpp:103-110, NodeBinaryOp.cpp:63-67, NodeUnaryOp.cpp:48-52, NodeCast.cpp:48-52,
   NodeConditional.cpp:57-61, NodeQuestionColon.cpp:49-53.
   The answer is the number of errors. The virtual tables are those of VTableModel.v; whether a class is abstract is its isAbstract.
   Simplifications: a switch is the ifs and the block it is parsed into; a type is the class it is (an array: of that class), if it is one;
   classes that are anonymous or unseen, and instances still stubs, are left out. *)
From Coq Require Import List NArith Bool.
From Verif Require Import VTableModel.
Import ListNotations.
Open Scope N_scope.

(* expressions; Make: any other expression that yields an object of class c by value: c.instanceof, a cast, a class constant *)
Inductive exp :=
| Leaf
| Make (c : N) (e : exp)
| Call (ret : option N) (args : exp)    (* NodeFunctionCall: no walk of its own, so Node's *)
| Lst (e next : exp)                    (* NodeList *)
| Bin (l r : exp) | Un (e : exp) | Quest (c a b : exp) | Cond (e : exp).
Inductive stm :=
| SNil
| SDecl (ref : bool) (cls : option N) (init : exp)   (* NodeVarDecl, NodeVarDeclDM; ref: NodeVarRef, NodeVarRefAs *)
| SConst (cls : option N) (e : exp)                  (* NodeConstantDef *)
| SSeq (a b : stm)                                   (* NodeStatements, the parameters of a function *)
| SBlock (b : stm)
| SIf (c : exp) (t e : stm) | SWhile (c : exp) (b : stm)
| SReturn (e : exp) | SExp (e : exp).
Record func := { f_ret : option N; f_params : stm; f_body : stm }.
Record cls := { c_id : N; c_element : bool; c_concrete : bool; c_members : stm; c_funcs : list func }.

Section Check.
Variable D : N -> option vclass.
Definition abstr (c : N) : bool := match D c with Some v => isAbstract v | None => false end.

Fixpoint checkExp (e : exp) : nat :=
  match e with
  | Leaf => 0
  | Make _ e => checkExp e
  | Call _ _ => 0
  | Lst a b => checkExp a + checkExp b
  | Bin a b => checkExp a + checkExp b
  | Un e => checkExp e
  | Quest c a b => checkExp c + (checkExp a + checkExp b)
  | Cond e => checkExp e
  end.
Fixpoint checkStm (s : stm) : nat :=
  match s with
  | SNil => 0
  | SDecl true _ _ => 0
  | SDecl false (Some c) _ => if abstr c then 1 else 0
  | SDecl false None _ => 0
  | SConst _ e => checkExp e
  | SSeq a b => checkStm a + checkStm b
  | SBlock b => checkStm b
  | SIf c t e => checkExp c + checkStm t + checkStm e
  | SWhile c b => checkExp c + checkStm b
  | SReturn e => checkExp e
  | SExp e => checkExp e
  end.
Definition checkFunc (f : func) : nat := checkStm (f_params f) + checkStm (f_body f).
Definition checkAbstractClassError (k : cls) : nat := if (c_element k || c_concrete k) && abstr (c_id k) then 1 else 0.
Definition checkClass (k : cls) : nat :=
  checkAbstractClassError k + (checkStm (c_members k) + fold_right (fun f n => checkFunc f + n)%nat O (c_funcs k)).
Definition checkProgram (p : list cls) : nat := fold_right (fun k n => checkClass k + n)%nat O p.
End Check.
