(** Loops, which-controls (switches), break and continue: how the parser numbers and
    labels them, how the compile-time evaluator runs the resulting tree, and what the
    generated C++ does.

    Modelled code (all under /repo/src/ulam):
    - ParsingLoopsSwitchStack.cpp 1-118: the stack of enclosing loops and switches;
    - Parser.cpp 1366-1388 (parseControlStatement), 1472-1525 (parseControlWhile),
      1526-1674 (parseControlFor), 1676-1737 (makeControlWhileNode), 1739-1876
      (parseControlSwitch), 1878-1950 (parseNextCase), 1952-2082 (parseRestOfCase),
      2219-2248 (break and continue statements);
    - CompilerState.cpp 6729 (getNextTmpVarNumber);
    - eval and genCode of NodeControlWhile.cpp 36-136, NodeControlIf.cpp 138-215,
      NodeControl.cpp 181-248, NodeStatements.cpp 226-247, NodeBlock.cpp 158-167 and
      282-298, NodeBreakStatement.cpp 57-86, NodeContinueStatement.cpp 53-65,
      NodeLabel.cpp 55-69, NodeBinaryOpLogicalOr.cpp 33-68.

    Simplifications.  Source statements arrive as a tree, not as tokens: the token level
    of these productions is not modelled, nor are [as]-conditions and declarations.
    Everything that is not control flow is an opaque action on an abstract state, and a
    condition is an opaque function that may change the state too.  The counter of
    temporary variables is not wrapped at 2^32, and neither are the use counts.  Error
    and not-ready results of the evaluator come from actions and are left out.  *)
From Coq Require Import String List NArith ZArith Lia Bool.
From Verif Require Import Base.
Import ListNotations.
Open Scope N_scope.

(** ** Source statements *)

(** A statement.  [SFor b s a] is the loop part of a for statement (its first clause is an
    action before it), [SSwitch w cs] a which-control whose value is computed by action
    [w].  *)
Inductive stmt : Type :=
| SSkip
| SAct (a : N)
| SSeq (s1 s2 : stmt)
| SIf (b : N) (s1 s2 : stmt)
| SWhile (b : N) (s : stmt)
| SFor (b : N) (s : stmt) (step : N)
| SSwitch (w : N) (cs : cases)
| SBreak
| SContinue
| SReturn
(** The cases of a which-control: [CCase b bs s cs] is a body [s] with the labels [b] and
    [bs] (several labels may share a body, Parser.cpp 1878-1950); [CDefault] is the
    otherwise clause, which ends the list (Parser.cpp 1965-1973 rejects later cases).  *)
with cases : Type :=
| CNil
| CDefault (s : stmt)
| CCase (b : N) (bs : list N) (s : stmt) (cs : cases).

Scheme stmt_cases_ind := Induction for stmt Sort Prop
with cases_stmt_ind := Induction for cases Sort Prop.
Combined Scheme stmt_mut from stmt_cases_ind, cases_stmt_ind.

(** ** The stack of enclosing loops and switches, nearest first *)

(** LoopSwitchDesc: ParsingLoopsSwitchStack.h; [ent_loop] stands for the token being
    while or for rather than switch.  *)
Record entry := mkEnt { ent_loop : bool; ent_exit : N; ent_uses : N }.

Definition ent_bump (e : entry) : entry :=
  mkEnt (ent_loop e) (ent_exit e) (ent_uses e + 1).

(** push: ParsingLoopsSwitchStack.cpp 13-23 *)
Definition pls_push (isloop : bool) (exitnum : N) (st : list entry) : list entry :=
  mkEnt isloop exitnum 0 :: st.

(** getNearestBreakExitNumber: ParsingLoopsSwitchStack.cpp 33-45; [None] is the failing
    assertion on an empty stack, which the caller has excluded with okToParseABreak.  *)
Definition nearest_break (st : list entry) : option (N * list entry) :=
  match st with
  | [] => None
  | e :: r => if ent_loop e then Some (0, st) else Some (ent_exit e, ent_bump e :: r)
  end.

(** getNearestBreakExitNumberIfUsed: ParsingLoopsSwitchStack.cpp 47-60 *)
Definition nearest_break_if_used (st : list entry) : N :=
  match st with
  | [] => 0
  | e :: _ => if ent_loop e then 0 else if 0 <? ent_uses e then ent_exit e else 0
  end.

(** getNearestContinueExitNumber: ParsingLoopsSwitchStack.cpp 62-81 *)
Fixpoint nearest_continue (st : list entry) : N * list entry :=
  match st with
  | [] => (0, [])
  | e :: r =>
    if ent_loop e then (ent_exit e, ent_bump e :: r)
    else let (n, r') := nearest_continue r in (n, e :: r')
  end.

(** getNearestContinueExitNumberIfUsed: ParsingLoopsSwitchStack.cpp 83-102 *)
Fixpoint nearest_continue_if_used (st : list entry) : N :=
  match st with
  | [] => 0
  | e :: r =>
    if ent_loop e then (if 0 <? ent_uses e then ent_exit e else 0)
    else nearest_continue_if_used r
  end.

(** ** The tree the parser builds *)

(** The condition of an if: the constant true of an otherwise clause, or case labels
    joined with || (NodeBinaryOpLogicalOr).  *)
Inductive cnd := CTrue | COr (b : N) (bs : list N).

Inductive node : Type :=
| PSkip
| PAct (a : N)
| PSeq (p q : node)               (* NodeStatements chain *)
| PIf (c : cnd) (p q : node)      (* NodeControlIf; no else part is PSkip *)
| PWhile (b : N) (p : node)       (* NodeControlWhile *)
| PBlock (p : node)               (* NodeBlock, NodeBlockSwitch *)
| PBreak (n : N)                  (* NodeBreakStatement *)
| PContinue (n : N)               (* NodeContinueStatement *)
| PLabel (n : N)                  (* NodeLabel *)
| PReturn.

(** [Some r] is the result, [None] a reported error: no program comes out.  *)
Definition bindp {A B} (x : option A) (f : A -> option B) : option B :=
  match x with Some a => f a | None => None end.

Section Parse.

(** Whether assertions are compiled in.  They are by default (Makefile 101 has -DNDEBUG
    commented out); the assertion at Parser.cpp 1510 and 1654 calls
    getNearestContinueExitNumber, which counts a use.  *)
Variable asserts : bool.

(** The assertion Parser.cpp 1510 / 1654.  Its test holds: the loop just pushed is the
    nearest one.  *)
Definition loop_assert (st : list entry) : list entry :=
  if asserts then snd (nearest_continue st) else st.

(** makeControlWhileNode after the body has been parsed (Parser.cpp 1700-1735): the body
    block, then the label if the loop counts a use, then the step of a for loop.  *)
Definition loop_body (p : node) (st : list entry) (step : option N) : node :=
  let n := nearest_continue_if_used st in
  let tail := match step with Some a => PAct a | None => PSkip end in
  PSeq (PBlock p) (if 0 <? n then PSeq (PLabel n) tail else tail).

(** The statement productions listed at the top, on an already recognised statement.  The
    arguments are the stack and the last used temporary variable number.  *)
Fixpoint parse (s : stmt) (st : list entry) (k : N) : option (node * list entry * N) :=
  match s with
  | SSkip => Some (PSkip, st, k)
  | SAct a => Some (PAct a, st, k)
  | SReturn => Some (PReturn, st, k)
  | SSeq s1 s2 =>
    bindp (parse s1 st k) (fun '(p, st1, k1) =>
    bindp (parse s2 st1 k1) (fun '(q, st2, k2) => Some (PSeq p q, st2, k2)))
  | SIf b s1 s2 =>
    bindp (parse s1 st k) (fun '(p, st1, k1) =>
    bindp (parse s2 st1 k1) (fun '(q, st2, k2) =>
      Some (PIf (COr b []) (PBlock p) (PBlock q), st2, k2)))
  | SWhile b s =>
    bindp (parse s (loop_assert (pls_push true (k + 1) st)) (k + 1)) (fun '(p, st1, k1) =>
      Some (PBlock (PWhile b (loop_body p st1 None)), tl st1, k1))
  | SFor b s a =>
    bindp (parse s (loop_assert (pls_push true (k + 1) st)) (k + 1)) (fun '(p, st1, k1) =>
      Some (PBlock (PWhile b (loop_body p st1 (Some a))), tl st1, k1))
  | SSwitch w cs =>
    (* k + 1 is the exit number, k + 2 the number of the switch variable: 1385, 1745 *)
    bindp (parse_cases cs (pls_push false (k + 1) st) (k + 2)) (fun '(p, st1, k1) =>
      let n := nearest_break_if_used st1 in
      Some (PBlock (PSeq (PAct w) (PSeq p (if 0 <? n then PLabel n else PSkip))), tl st1, k1))
  | SBreak =>
    bindp (nearest_break st) (fun '(n, st1) => Some (PBreak n, st1, k))
  | SContinue =>
    let (n, st1) := nearest_continue st in
    if n =? 0 then None else Some (PContinue n, st1, k)
  end
(** parseNextCase: each case becomes an if whose else part is the rest; an otherwise
    clause is the last else part, or an if on the constant true when it is the only
    clause, which runs the same body.  *)
with parse_cases (cs : cases) (st : list entry) (k : N) : option (node * list entry * N) :=
  match cs with
  | CNil => Some (PSkip, st, k)
  | CDefault s =>
    bindp (parse s st k) (fun '(p, st1, k1) => Some (PIf CTrue (PBlock p) PSkip, st1, k1))
  | CCase b bs s r =>
    bindp (parse s st k) (fun '(p, st1, k1) =>
    bindp (parse_cases r st1 k1) (fun '(q, st2, k2) =>
      Some (PIf (COr b bs) (PBlock p) q, st2, k2)))
  end.

End Parse.

(** ** Running a tree *)

Section Run.

Variable S : Type.
(** What an action does, and what a condition yields and does.  *)
Variable act : N -> S -> S.
Variable cond : N -> S -> bool * S.

(** Conditions joined with ||, evaluated left to right until one holds:
    NodeBinaryOpLogicalOr.cpp 33-68 (eval) and 90-155 (genCode).  *)
Fixpoint cor (b : N) (bs : list N) (t : S) : bool * S :=
  let (v, t1) := cond b t in
  if v then (true, t1)
  else match bs with
       | [] => (false, t1)
       | b2 :: bs2 => cor b2 bs2 t1
       end.

Definition eval_cnd (c : cnd) (t : S) : bool * S :=
  match c with CTrue => (true, t) | COr b bs => cor b bs t end.

(** *** The compile-time evaluator *)

(** EvalStatus (include/Node.h 61) without the error states.  *)
Inductive estat := E_NORMAL | E_RETURN | E_BREAK | E_CONTINUE.

(** The loop of NodeControlWhile::eval (36-77); [f] bounds the number of turns.  *)
Fixpoint eval_loop (f : nat) (b : N) (body : S -> option (estat * S)) (t : S)
  : option (estat * S) :=
  match f with
  | O => None
  | Datatypes.S g =>
    let (v, t1) := cond b t in
    if v then
      match body t1 with
      | None => None
      | Some (E_BREAK, t2) => Some (E_NORMAL, t2)
      | Some (E_RETURN, t2) => Some (E_RETURN, t2)
      | Some (_, t2) => eval_loop g b body t2
      end
    else Some (E_NORMAL, t1)
  end.

(** eval of the nodes; [None] when a loop takes [f] turns or more.  *)
Fixpoint eval (f : nat) (p : node) (t : S) : option (estat * S) :=
  match p with
  | PSkip => Some (E_NORMAL, t)
  | PAct a => Some (E_NORMAL, act a t)
  | PSeq p q =>
    match eval f p t with
    | Some (E_NORMAL, t1) => eval f q t1
    | r => r
    end
  | PIf c p q => let (v, t1) := eval_cnd c t in if v then eval f p t1 else eval f q t1
  | PWhile b p => eval_loop f b (eval f p) t
  | PBlock p => eval f p t
  | PBreak n => Some (if n =? 0 then E_BREAK else E_NORMAL, t)
  | PContinue _ => Some (E_CONTINUE, t)
  | PLabel _ => Some (E_NORMAL, t)
  | PReturn => Some (E_RETURN, t)
  end.

(** *** The generated C++ *)

(** How a piece of C++ ends: at its end, by a break, by a goto, or by a return.  *)
Inductive cstat := C_END | C_BREAK | C_GOTO (n : N) | C_RETURN.

(** Whether label [n] stands in the statement sequence [p] itself.  *)
Fixpoint chain_label (n : N) (p : node) : bool :=
  match p with
  | PLabel m => n =? m
  | PSeq p q => chain_label n p || chain_label n q
  | _ => false
  end.

(** "while(true) { if(!cond) break; body }": NodeControlWhile.cpp 79-136 *)
Fixpoint cxx_loop (f : nat) (b : N) (body : S -> option (cstat * S)) (t : S)
  : option (cstat * S) :=
  match f with
  | O => None
  | Datatypes.S g =>
    let (v, t1) := cond b t in
    if v then
      match body t1 with
      | None => None
      | Some (C_END, t2) => cxx_loop g b body t2
      | Some (C_BREAK, t2) => Some (C_END, t2)
      | Some (o, t2) => Some (o, t2)
      end
    else Some (C_END, t1)
  end.

(** What the C++ generated for [p] does, entered at its start, or at label [n] of its own
    statement sequence for [Some n].  A goto goes on at its label when the label stands
    later in an enclosing sequence; [C34_labels] shows that every goto has exactly one
    label, and [C34_code] that no goto is ever left over, so that this is the jump C++
    makes.  *)
Fixpoint cxx (f : nat) (p : node) (start : option N) (t : S) : option (cstat * S) :=
  match p with
  | PSkip => Some (C_END, t)
  | PAct a => Some (C_END, act a t)
  | PSeq p q =>
    let onwards r :=
      match r with
      | Some (C_END, t1) => cxx f q None t1
      | Some (C_GOTO n, t1) =>
        if chain_label n q then cxx f q (Some n) t1 else Some (C_GOTO n, t1)
      | r => r
      end in
    match start with
    | None => onwards (cxx f p None t)
    | Some n => if chain_label n p then onwards (cxx f p (Some n) t) else cxx f q (Some n) t
    end
  | PIf c p q => let (v, t1) := eval_cnd c t in if v then cxx f p None t1 else cxx f q None t1
  | PWhile b p => cxx_loop f b (cxx f p None) t
  | PBlock p => cxx f p None t
  | PBreak n => Some (if n =? 0 then C_BREAK else C_GOTO n, t)
  | PContinue n => Some (C_GOTO n, t)
  | PLabel _ => Some (C_END, t)
  | PReturn => Some (C_RETURN, t)
  end.

End Run.

(** The labels a tree puts into the generated function, and the gotos.  *)
Fixpoint labels (p : node) : list N :=
  match p with
  | PLabel n => [n]
  | PSeq p q => labels p ++ labels q
  | PIf _ p q => labels p ++ labels q
  | PWhile _ p => labels p
  | PBlock p => labels p
  | _ => []
  end.

Fixpoint gotos (p : node) : list N :=
  match p with
  | PBreak n => if n =? 0 then [] else [n]
  | PContinue n => [n]
  | PSeq p q => gotos p ++ gotos q
  | PIf _ p q => gotos p ++ gotos q
  | PWhile _ p => gotos p
  | PBlock p => gotos p
  | _ => []
  end.
