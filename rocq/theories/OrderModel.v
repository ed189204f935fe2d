(* Order of evaluation and truth of conditions: the evaluator (the eval methods, used to fold constants and to run tests)
   against the generated C++ (the genCode methods).

   Sources (all in /repo/src/ulam): NodeBinaryOp.cpp:627-653 (eval: left operand, then right), 772-835 (genCode: right, then
   left; NodeBinaryOpCompare.cpp:386- is the same); NodeBinaryOpEqual.cpp:392-420 (eval: place of the left side, then the right
   side, then the store), 721-745 (genCode: right side, then the place, then the store); NodeBinaryOpEqualArith.cpp:190-240,
   NodeBinaryOpEqualBitwise.cpp:225-, NodeBinaryOpEqualShift.cpp:209-, NodeBinaryOpEqualArithPostIncr.cpp:34-75,153-,
   NodeBinaryOpEqualArithPostDecr.cpp:153- (compound assignment: the old value is read after both);
   NodeBinaryOpLogicalAnd.cpp:34-71,94-142 and NodeBinaryOpLogicalOr.cpp:34-68,88-150; NodeQuestionColon.cpp:407-448,491-605;
   NodeSquareBracket.cpp:584-654,718-761,1001-1108; NodeUnaryOp.cpp:378-399,458-; NodeFunctionCall.cpp:660-757,861-934 (eval:
   arguments in reverse order), 1985-2052 (genCode: arguments in order); NodeControl.cpp:114-160,181-248 with
   NodeControlIf.cpp:140-180,181-212 and NodeControlWhile.cpp:36-78,81-134.

   Modelled: values are data bits; variables are arrays of items (item 0 of a plain variable); every operator is a partial
   function given by its number, the same in both worlds because makeImmediateBinaryOp and the generated code call the same
   (EXTERNAL) library function. A result None is an error, an abort or a FAIL.
   Simplified: parameters are passed by value and only read; a function body is a statement and a returned expression;
   break, continue and early return are in LoopModel.v; the bounds of an index are modelled as one check (the exact checks
   are in IndexModel.v). *)
From Coq Require Import List NArith ZArith Bool.
Import ListNotations.
From Verif Require Import UTypeModel PrimModel.
Open Scope N_scope.

Inductive expr :=
| ELit (v : N)                               (* NodeTerminal *)
| EParam (i : nat)                           (* NodeIdent of a parameter *)
| ERead (l : lval)                           (* NodeIdent, NodeSquareBracket: value *)
| EUn (f : N) (e : expr)                     (* NodeUnaryOp, NodeCast *)
| EBin (f : N) (a b : expr)                  (* NodeBinaryOp: arithmetic, bitwise, shift, compare *)
| EAssign (l : lval) (e : expr)              (* NodeBinaryOpEqual *)
| EOp (f : N) (l : lval) (e : expr)          (* NodeBinaryOpEqualArith, ...Bitwise, ...Shift: += and so on *)
| EPost (f : N) (l : lval) (e : expr)        (* NodeBinaryOpEqualArithPostIncr, PostDecr; e is the 1 *)
| EAnd (n : N) (a b : expr)                  (* NodeBinaryOpLogicalAnd, n bits in the Bool *)
| EOr (n : N) (a b : expr)                   (* NodeBinaryOpLogicalOr *)
| ECond (c a b : expr)                       (* NodeQuestionColon; the condition has type Bool(1) *)
| ECall (f : N) (es : exprs)                 (* NodeFunctionCall *)
with lval :=
| LVar (x : N)
| LIdx (x n : N) (e : expr)                  (* x[e], x has n items *)
with exprs := ENil | ECons (e : expr) (es : exprs).

Inductive stmt :=
| SSkip
| SExpr (e : expr)
| SSeq (a b : stmt)
| SIf (n : N) (c : expr) (a b : stmt)        (* NodeControlIf, the condition is a Bool(n) *)
| SWhile (n : N) (c : expr) (b : stmt).      (* NodeControlWhile *)

Definition store := N -> N -> N.
Definition upd (s : store) (x i v : N) : store :=
  fun y j => if (y =? x) && (j =? i) then v else s y j.

Record prog := MkProg {
  p_op1 : N -> N -> option N;
  p_op2 : N -> N -> N -> option N;
  p_body : N -> stmt * expr
}.

Definition callT := N -> list N -> store -> option (N * store).

(* EXTERNAL _Bool32ToCbool, _Bool64ToCbool: more than half of the n bits are ones (ext_val EBool of PrimModel.v) *)
Definition cbool (n v : N) : bool := (ext_val EBool (Z.of_N n) v =? 1)%Z.

Section Run.
Variable P : prog.
Variable call : callT.
Variable args : list N.

(* ---- the evaluator ---- *)

(* NodeIdent::eval, evalToStoreInto; NodeSquareBracket::eval (584-654), evalToStoreInto (718-761): the index, then the check *)
Fixpoint evalE (e : expr) (s : store) {struct e} : option (N * store) :=
  match e with
  | ELit v => Some (v, s)
  | EParam i => match nth_error args i with Some v => Some (v, s) | None => None end
  | ERead l => match evalL l s with Some (x, i, s1) => Some (s1 x i, s1) | None => None end
  | EUn f e =>
    match evalE e s with
    | Some (v, s1) => match p_op1 P f v with Some r => Some (r, s1) | None => None end
    | None => None end
  | EBin f a b =>
    match evalE a s with
    | Some (va, s1) =>
      match evalE b s1 with
      | Some (vb, s2) => match p_op2 P f va vb with Some r => Some (r, s2) | None => None end
      | None => None end
    | None => None end
  | EAssign l e =>
    match evalL l s with
    | Some (x, i, s1) =>
      match evalE e s1 with
      | Some (v, s2) => Some (v, upd s2 x i v)
      | None => None end
    | None => None end
  | EOp f l e =>
    match evalL l s with
    | Some (x, i, s1) =>
      match evalE e s1 with
      | Some (v, s2) => match p_op2 P f (s2 x i) v with Some r => Some (r, upd s2 x i r) | None => None end
      | None => None end
    | None => None end
  | EPost f l e =>
    match evalL l s with
    | Some (x, i, s1) =>
      match evalE e s1 with
      | Some (v, s2) => match p_op2 P f (s2 x i) v with Some r => Some (s2 x i, upd s2 x i r) | None => None end
      | None => None end
    | None => None end
  | EAnd n a b =>
    match evalE a s with
    | Some (va, s1) =>
      if 32 <? n then None   (* getImmediateData(len): more than 32 bits is an assert *)
      else if cbool n va then evalE b s1 else Some (va, s1)
    | None => None end
  | EOr n a b =>
    match evalE a s with
    | Some (va, s1) =>
      if 32 <? n then None
      else if cbool n va then Some (va, s1) else evalE b s1
    | None => None end
  | ECond c a b =>
    match evalE c s with
    | Some (v, s1) => if v =? 0 then evalE b s1 else evalE a s1   (* (bool) getImmediateData *)
    | None => None end
  | ECall f es =>
    match evalArgs es s with
    | Some (vs, s1) => call f vs s1
    | None => None end
  end
with evalL (l : lval) (s : store) {struct l} : option (N * N * store) :=
  match l with
  | LVar x => Some (x, 0, s)
  | LIdx x n e =>
    match evalE e s with
    | Some (i, s1) => if i <? n then Some (x, i, s1) else None
    | None => None end
  end
(* NodeFunctionCall.cpp:861-934: the last argument first *)
with evalArgs (es : exprs) (s : store) {struct es} : option (list N * store) :=
  match es with
  | ENil => Some ([], s)
  | ECons e es =>
    match evalArgs es s with
    | Some (vs, s1) => match evalE e s1 with Some (v, s2) => Some (v :: vs, s2) | None => None end
    | None => None end
  end.

(* NodeControlIf.cpp:140-180, NodeControlWhile.cpp:36-78: the condition is true when its bits are not zero; the while loop
   runs at most k times here (None: not finished) *)
Fixpoint evalS (k : nat) (t : stmt) (s : store) {struct t} : option store :=
  match t with
  | SSkip => Some s
  | SExpr e => match evalE e s with Some (_, s1) => Some s1 | None => None end
  | SSeq a b => match evalS k a s with Some s1 => evalS k b s1 | None => None end
  | SIf n c a b =>
    match evalE c s with
    | Some (v, s1) => if 32 <? n then None else if v =? 0 then evalS k b s1 else evalS k a s1
    | None => None end
  | SWhile n c b =>
    (fix loop (j : nat) (s : store) : option store :=
       match j with
       | O => None
       | S j =>
         match evalE c s with
         | Some (v, s1) =>
           if 32 <? n then None
           else if v =? 0 then Some s1
           else match evalS k b s1 with Some s2 => loop j s2 | None => None end
         | None => None end
       end) k s
  end.

(* ---- the generated code ---- *)
Fixpoint genE (e : expr) (s : store) {struct e} : option (N * store) :=
  match e with
  | ELit v => Some (v, s)
  | EParam i => match nth_error args i with Some v => Some (v, s) | None => None end
  | ERead l => match genL l s with Some (x, i, s1) => Some (s1 x i, s1) | None => None end
  | EUn f e =>
    match genE e s with
    | Some (v, s1) => match p_op1 P f v with Some r => Some (r, s1) | None => None end
    | None => None end
  | EBin f a b =>
    match genE b s with                                   (* generate rhs first *)
    | Some (vb, s1) =>
      match genE a s1 with
      | Some (va, s2) => match p_op2 P f va vb with Some r => Some (r, s2) | None => None end
      | None => None end
    | None => None end
  | EAssign l e =>
    match genE e s with
    | Some (v, s1) =>
      match genL l s1 with
      | Some (x, i, s2) => Some (v, upd s2 x i v)
      | None => None end
    | None => None end
  | EOp f l e =>
    match genE e s with
    | Some (v, s1) =>
      match genL l s1 with
      | Some (x, i, s2) => match p_op2 P f (s2 x i) v with Some r => Some (r, upd s2 x i r) | None => None end
      | None => None end
    | None => None end
  | EPost f l e =>
    match genE e s with
    | Some (v, s1) =>
      match genL l s1 with
      | Some (x, i, s2) => match p_op2 P f (s2 x i) v with Some r => Some (s2 x i, upd s2 x i r) | None => None end
      | None => None end
    | None => None end
  | EAnd n a b =>
    match genE a s with
    | Some (va, s1) => if cbool n va then genE b s1 else Some (0, s1)   (* the result starts as false *)
    | None => None end
  | EOr n a b =>
    match genE a s with
    | Some (va, s1) => if cbool n va then Some (va, s1) else genE b s1
    | None => None end
  | ECond c a b =>
    match genE c s with
    | Some (v, s1) => if cbool 1 v then genE a s1 else genE b s1
    | None => None end
  | ECall f es =>
    match genArgs es s with
    | Some (vs, s1) => call f vs s1
    | None => None end
  end
with genL (l : lval) (s : store) {struct l} : option (N * N * store) :=
  match l with
  | LVar x => Some (x, 0, s)
  | LIdx x n e =>
    match genE e s with
    | Some (i, s1) => if n <=? i then None else Some (x, i, s1)
    | None => None end
  end
(* NodeFunctionCall.cpp:1985-2052: the first argument first *)
with genArgs (es : exprs) (s : store) {struct es} : option (list N * store) :=
  match es with
  | ENil => Some ([], s)
  | ECons e es =>
    match genE e s with
    | Some (v, s1) => match genArgs es s1 with Some (vs, s2) => Some (v :: vs, s2) | None => None end
    | None => None end
  end.

(* NodeControl.cpp:181-248, NodeControlWhile.cpp:81-134: the condition goes through _BoolToCbool *)
Fixpoint genS (k : nat) (t : stmt) (s : store) {struct t} : option store :=
  match t with
  | SSkip => Some s
  | SExpr e => match genE e s with Some (_, s1) => Some s1 | None => None end
  | SSeq a b => match genS k a s with Some s1 => genS k b s1 | None => None end
  | SIf n c a b =>
    match genE c s with
    | Some (v, s1) => if cbool n v then genS k a s1 else genS k b s1
    | None => None end
  | SWhile n c b =>
    (fix loop (j : nat) (s : store) : option store :=
       match j with
       | O => None
       | S j =>
         match genE c s with
         | Some (v, s1) =>
           if negb (cbool n v) then Some s1
           else match genS k b s1 with Some s2 => loop j s2 | None => None end
         | None => None end
       end) k s
  end.
End Run.

(* calls nested at most k deep, loops of at most k rounds (None: not finished) *)
Fixpoint callEv (P : prog) (k : nat) (f : N) (vs : list N) (s : store) : option (N * store) :=
  match k with
  | O => None
  | S k =>
    match evalS P (callEv P k) vs k (fst (p_body P f)) s with
    | Some s1 => evalE P (callEv P k) vs (snd (p_body P f)) s1
    | None => None
    end
  end.

Fixpoint callGen (P : prog) (k : nat) (f : N) (vs : list N) (s : store) : option (N * store) :=
  match k with
  | O => None
  | S k =>
    match genS P (callGen P k) vs k (fst (p_body P f)) s with
    | Some s1 => genE P (callGen P k) vs (snd (p_body P f)) s1
    | None => None
    end
  end.

(* the whole program, run by the evaluator and as generated code *)
Definition run_eval (P : prog) (k : nat) (t : stmt) (s : store) : option store := evalS P (callEv P k) [] k t s.
Definition run_gen (P : prog) (k : nat) (t : stmt) (s : store) : option store := genS P (callGen P k) [] k t s.
