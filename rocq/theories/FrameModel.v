(* FrameModel.v: the places of a function's variables in its stack frame, and of what is handed to it.
   Transcribes the calcMaxDepth functions of the parse tree (one per kind of node, cited below), SymbolFunctionName.cpp:300-325,
   and the order in which NodeFunctionCall.cpp:861-981 fills the stack.
   Simplifications: a node is here what calcMaxDepth sees of it: its children and the numbers of slots of the types it names
   (CompilerState.cpp:2560-2577, not negative).  A node that does nothing (Node.cpp:893-896; NodeBlockEmpty.cpp:46-49,
   NodeBlockLocals.cpp:56-59, NodeListEmpty.cpp:72-75, NodeListClassInit.cpp:191-194; NodeList.cpp:229-243 when it is the
   initial value of a variable: what it computes is dropped) and a missing child are the same, ELeaf or SNone. *)
From Coq Require Import String List NArith ZArith Lia Bool.
From Coq Require Import ZifyBool ZifyNat ZifyN.
From Verif Require Import Base UTypeModel AtomModel CallStackModel.
Import ListNotations.
Open Scope N_scope.

(* expressions *)
Inductive ex :=
  | ELeaf                                 (* names, constants, conditions is and as, ... *)
  | EOne (e : ex)                         (* NodeUnaryOp.cpp:451-456, NodeCast.cpp:994-999 *)
  | EPair (l r : ex)                      (* NodeBinaryOp.cpp:764-770: operators, assignments, subscripts, selections *)
  | EChoice (c l r : ex)                  (* NodeQuestionColon.cpp:318-330 *)
  | ECall (a : args) (rtn : N)            (* NodeFunctionCall.cpp:614-632; rtn: slots of what it returns *)
  | EStorageof (slots : N) (e : ex)       (* NodeStorageof.cpp:306-312 *)
with args :=
  | ANil
  | ACons (e : ex) (slots : N) (r : args).   (* slots of the argument's type *)

(* statements *)
Inductive stm :=
  | SNone
  | SEx (e : ex)                          (* a simple statement, NodeReturnStatement.cpp:388-393 *)
  | SDecl (v slots : N) (init : ex)       (* NodeVarDecl.cpp:916-925, NodeVarRef.cpp:333-336, NodeVarRefAs.cpp:77-81 *)
  | SThen (s next : stm)                  (* NodeStatements.cpp:289-299 *)
  | SBlock (s : stm)                      (* NodeBlock.cpp:169-177 *)
  | SWhile (c : ex) (s : stm)             (* NodeControl.cpp:166-172 *)
  | SIf (c : ex) (s s' : stm).            (* NodeControlIf.cpp:116-129 *)

(* what calcMaxDepth does to depth, a u32; expressions leave maxdepth alone and place no variables *)
Fixpoint exDepth (e : ex) (depth : N) : N :=
  match e with
  | ELeaf => depth
  | EOne e => exDepth e depth
  | EPair l r => exDepth r (exDepth l depth)
  | EChoice c l r =>
    let depth := exDepth c depth in
    let maxtrue := exDepth l depth in
    let maxfalse := exDepth r depth in
    u32 (depth + N.max maxtrue maxfalse)
  | ECall a rtn =>
    let argbase := argsDepth a 0 in
    let argbase := u32 (argbase + rtn) in
    let argbase := u32 (argbase + 1) in
    let argbase := u32 (argbase + 1) in
    u32 (depth + argbase)
  | EStorageof slots e => exDepth e (u32 (depth + slots))
  end
with argsDepth (a : args) (argbase : N) : N :=
  match a with
  | ANil => argbase
  | ACons e sloti r =>
    let depthi := exDepth e 0 in
    argsDepth r (u32 (argbase + N.max depthi sloti))
  end.

(* u32 + s32, as an s32 *)
Definition slotAt (depth : N) (base : Z) : Z := s32z (Z.of_N depth + base).

(* the slots given to variables *)
Definition placed := list (N * Z).
(* depth, maxdepth and the slots after the node *)
Record walkst := mkW { w_depth : N; w_max : N; w_slots : placed }.

Fixpoint stmDepth (s : stm) (base : Z) (w : walkst) : walkst :=
  let '(mkW depth maxdepth slots) := w in
  match s with
  | SNone => w
  | SEx e => mkW (exDepth e depth) maxdepth slots
  | SDecl v n init => mkW (exDepth init (u32 (depth + n))) maxdepth ((v, slotAt depth base) :: slots)
  | SThen s next =>
    let w1 := stmDepth s base w in
    let w2 := stmDepth next base w1 in
    mkW (N.max (w_depth w2) depth) (w_max w2) (w_slots w2)
  | SBlock s =>
    let w2 := stmDepth s base w in
    mkW depth (N.max (w_depth w2) (w_max w2)) (w_slots w2)
  | SWhile c s => stmDepth s base (mkW (exDepth c depth) maxdepth slots)
  | SIf c s s' =>
    let depth := exDepth c depth in
    let w1 := stmDepth s base (mkW depth maxdepth slots) in
    let w2 := stmDepth s' base (mkW depth (w_max w1) (w_slots w1)) in
    mkW (u32 (depth + N.max (w_depth w1) (w_depth w2))) (w_max w2) (w_slots w2)
  end.

(* the parameters of a function, first to last: name and slots *)
Definition params := list (N * N).
Record func := mkF { f_params : params; f_rtn : N; f_body : stm }.

(* NodeList.cpp:229-243, for parameters: from the last to the first; l is the reversed list *)
Fixpoint paramSlots (l : params) (negrun : Z) : placed :=
  match l with
  | [] => []
  | (v, n) :: r => (v, slotAt 0 negrun) :: paramSlots r (negrun + Z.of_N n)
  end.

Definition totalSlots (l : params) : N := fold_right (fun p t => snd p + t) 0 l.   (* SymbolFunction.cpp:67-77 *)

Record frame := mkFrame { fr_params : placed; fr_locals : placed; fr_self : Z; fr_super : Z; fr_depth : N }.

(* SymbolFunctionName.cpp:311-321, NodeBlockFunctionDefinition.cpp:496-507; self and super: NodeBlockFunctionDefinition.cpp:246-259 *)
Definition calcMaxDepthOfFunction (f : func) : frame :=
  let base := f_rtn f + 2 + totalSlots (f_params f) in
  let w := stmDepth (SBlock (f_body f)) 1 (mkW 0 0 []) in
  {| fr_params := paramSlots (rev (f_params f)) (- Z.of_N base);
     fr_locals := w_slots w;
     fr_self := -2 - Z.of_N (f_rtn f);
     fr_super := -(Z.of_N (f_rtn f) + 1);
     fr_depth := u32 (u32 (w_max w + 1) + base) |}.

(* what NodeFunctionCall.cpp:861-981 pushes on the stack for a call: the cells of the last argument first, those of one argument
   in order; the pointer to the object; a place for uc; places for what is returned *)
Definition pushed (arguments : list (list cell)) (self : cell) (empty : cell) (rtn : N) : list cell :=
  concat (rev arguments) ++ [self; empty] ++ repeat empty (N.to_nat rtn).

Fixpoint pushAll (l : list cell) (s : cstack) : res cstack :=
  match l with [] => Ok s | c :: r => rbind (pushArg c s) (pushAll r) end.

(* up to the first statement of the function: NodeBlockFunctionDefinition.cpp:392-396 *)
Definition enter (f : func) (arguments : list (list cell)) (self empty : cell) (s : cstack) : res cstack :=
  rbind (pushAll (pushed arguments self empty (f_rtn f)) s) (addFrameSlots (fr_depth (calcMaxDepthOfFunction f))).
