(* ExprModel.v: the expression parser.
   Transcribes src/ulam/Parser.cpp:3718-3727 (parseAssignExpr), 3777-3956 (parseIdentExpr, parseRestOfMemberSelectExpr),
   3958-4056 (parseMinMaxSizeofType), 4058-4106 (function calls), 4108-4169 (the levels), 4171-4436 (parseFactor,
   parseFactorStartingWithAType), 4438-4800 (the rests), 4803-5081 (the wraps), 6448-6516 (is, as), 6518-6954 (nodes),
   6956-6991 (casts), 7081-7128 (getExpectedToken, getNextToken).
   Simplifications: a type descriptor (name, size or arguments, selection) is one token, TType, and an opening parenthesis or a
   dot other than before an of-operator does not follow it (those, reference casts, a type after a dot, instanceof(...),
   types after 'local.' are answered Unmod); self and super are identifiers; __FUNC__ and its like are string tokens;
   structured comments are removed; symbol tables, the conditional-as state and node locations are left out; casts are allowed.
   A node is what the parser builds; NNull is the pointer NULL, alone as the answer or as a missing operand. *)
From Coq Require Import List NArith Bool.
From Verif Require Import Base.
Import ListNotations.
Open Scope N_scope.

Inductive binop := Mul | Div | Rem | Add | Sub | Shl | Shr | Lt | Gt | Le | Ge | EqEq | Ne | And | Or | Xor | LAnd | LOr.
Inductive unop := UMinus | UPlus | UBang | UTwiddle | UPreInc | UPreDec.
(* minof, maxof, sizeof, lengthof, classidof, positionof are Proxy *)
Inductive ofop := Proxy (n : N) | Constantof | Instanceof | Atomof.

(* include/Token.inc; TAssign stands for the eleven assignment operators, TEnd for end of file, semicolon and closing curly *)
Inductive tok :=
| TIdent (n : N) | TNum (n : N) | TStr (n : N) | TFloat | TType (t : N)
| TOpen | TClose | TOpenSq | TCloseSq | TSquare | TDot | TComma | TQuestion | TColon
| TBin (o : binop) | TAssign (o : N) | TBang | TTwiddle | TInc | TDec | TOf (k : ofop) | TIs (as_ : bool) | TLocal
| TErr | TEnd | TOther (n : N).

Inductive node :=
| NNull
| NIdent (n : N) | NNum (n : N) | NStr (n : N)
| NBin (o : binop) (l r : node) | NUn (u : unop) (e : node) | NPost (inc : bool) (e : node)
| NAssign (o : N) (l r : node) | NQuest (c t f : node)
| NIndex (l i : node) | NCall (f : N) (args : list node) | NMember (l r : node)
| NOf (k : ofop) (e : node) | NTypeOf (k : ofop) (t : N) | NCast (t : N) (e : node) | NIs (as_ : bool) (t : N) (e : node)
| NLocal (e : node).

Definition null (n : node) : bool := match n with NNull => true | _ => false end.
Definition is_cast (n : node) : bool := match n with NCast _ _ => true | _ => false end.

(* the level of an operator: 0 parseExpression, 1 parseLogicalExpression, 2 parseBitExpression, 3 parseEqExpression,
   4 parseCompareExpression, 5 parseShiftExpression, 6 parseTerm *)
Definition lvl (o : binop) : nat :=
  match o with
  | LAnd | LOr => 0 | And | Or | Xor => 1 | EqEq | Ne => 2 | Lt | Gt | Le | Ge => 3 | Shl | Shr => 4 | Add | Sub => 5 | Mul | Div | Rem => 6
  end%nat.

(* the parser's answer: a node, the tokens left, and whether an error was reported; or a failed assertion or a second
   delete of the same node; or a part not modelled; or not enough fuel *)
Inductive res := Got (n : node) (ts : list tok) (err : bool) | Abort | Unmod | NoFuel.
Definition flag (e : bool) (r : res) : res := match r with Got n ts e' => Got n ts (e || e') | x => x end.
Definition bind (r : res) (k : node -> list tok -> res) : res :=
  match r with Got n ts e => flag e (k n ts) | x => x end.

(* Parser.cpp:7105-7123, getNextToken, followed by unreadToken: the token and the stream it is in front of. One low level error
   token is reported and skipped *)
Definition peek (ts : list tok) (k : tok -> list tok -> res) : res :=
  match ts with
  | [] => k TEnd []
  | TErr :: r => flag true (match r with [] => k TEnd [] | t :: _ => k t r end)
  | t :: _ => k t ts
  end.
(* getNextToken without unreadToken *)
Definition get (ts : list tok) (k : tok -> list tok -> res) : res := peek ts (fun t r => k t (tl r)).

(* what is being parsed; one constructor for each function *)
Inductive task :=
| Level (k : nat)             (* parseExpression (0) ... parseTerm (6) *)
| Rest (k : nat) (n : node)   (* parseRestOfExpression (0) ... parseRestOfTerm (6) *)
| Question (c : node)         (* makeQuestionColonNode, after the question mark *)
| Factor (localbase : bool)   (* parseFactor *)
| TypeFactor                  (* parseFactorStartingWithAType *)
| RestFactor (n : node)       (* parseRestOfFactor *)
| RestLval (n : node)         (* parseRestOfLvalExpr *)
| Ident (n : N)               (* parseIdentExpr *)
| Members (n : node) (dead : bool) (* parseRestOfMemberSelectExpr, its loop; dead: classInstanceNode has been deleted *)
| Args (f : N) (acc : list node) (* parseRestOfFunctionCallArguments *)
| CastOrExpr                  (* parseRestOfCastOrExpression *)
| Assign                      (* parseAssignExpr *)
| RestAssign (n : node)       (* parseRestOfAssignExpr *)
| WrapFactor (n : node)       (* wrapFactor *)
| Wrap (k : nat) (n : node)   (* wrapTerm (6) ... wrapExpression (0) *)
| WrapAssign (n : node).      (* wrapAssignExpr *)

(* the operand of an operator of level k: makeExpressionNode ... makeTermNode, Parser.cpp:6642-6897 *)
Definition operand (k : nat) : task := if Nat.eqb k 6 then Factor false else Level (S k).

Definition unary (t : tok) : option unop :=
  match t with
  | TBin Sub => Some UMinus | TBin Add => Some UPlus | TBang => Some UBang | TTwiddle => Some UTwiddle
  | TInc => Some UPreInc | TDec => Some UPreDec | _ => None
  end.

(* Parser.cpp:3958-4056, after a member expression, the dot already read *)
Definition minMaxSizeof (n : node) (ts : list tok) (k : node -> list tok -> res) : res :=
  peek ts (fun d ts1 =>
    let ts2 := match d with TDot => tl ts1 | _ => ts1 end in
    peek ts2 (fun f ts3 =>
      match f with
      | TOf (Proxy i) => k (NOf (Proxy i) n) (tl ts3)
      | TOf Constantof => peek (tl ts3) (fun c ts4 => match c with TOpen => flag true (k NNull ts4) | _ => k (NOf Constantof n) ts4 end)
      | TOf Instanceof => peek (tl ts3) (fun c ts4 => match c with TOpen => Unmod | _ => k (NOf Instanceof n) ts4 end)
      | TOf Atomof => if null n then Abort (* assert(nodetype), 4028 *) else k (NOf Atomof n) (tl ts3)
      | _ => k NNull ts3
      end)).

Definition is_op (k : nat) (t : tok) : option binop := match t with TBin o => if Nat.eqb (lvl o) k then Some o else None | _ => None end.

(* one step; rec parses the parts *)
Definition step (rec : task -> list tok -> res) (t : task) (ts : list tok) : res :=
  match t with
  (* 4108-4169 *)
  | Level k => bind (rec (operand k) ts) (fun n ts1 => if null n then Got NNull ts1 false else rec (Rest k n) ts1)
  (* 4530-4716, with the nodes 6642-6897 *)
  | Rest k n =>
    if Nat.eqb k 0 && null n then Got NNull ts false else
    peek ts (fun p ts1 =>
      match is_op k p with
      | Some o => bind (rec (operand k) (tl ts1)) (fun r ts2 => rec (Rest k (if null r then NNull else NBin o n r)) ts2)
      | None =>
        match p with
        | TQuestion => if Nat.eqb k 0 then rec (Question n) (tl ts1) else Got n ts1 false
        | TErr => if Nat.eqb k 6 then Got n ts1 false else rec (Rest k n) (tl ts1)
        | _ => Got n ts1 false
        end
      end)
  (* 6595-6640 *)
  | Question c =>
    bind (rec (Level 0) ts) (fun tn ts1 =>
      if null tn then Got NNull ts1 true
      else peek ts1 (fun p ts2 =>
        match p with
        | TColon => bind (rec (Level 0) (tl ts2)) (fun fn ts3 => if null fn then Got NNull ts3 true else Got (NQuest c tn fn) ts3 false)
        | _ => Got NNull ts2 true
        end))
  (* 4171-4349, with 6899-6954 *)
  | Factor lb =>
    peek ts (fun p ts1 =>
      match unary p with
      | Some u => bind (rec (Factor false) (tl ts1)) (fun n ts2 => Got (if null n then NNull else NUn u n) ts2 false)
      | None =>
        match p with
        | TType _ => rec TypeFactor ts1
        | TIdent n => bind (rec (Ident n) (tl ts1)) (fun m ts2 => rec (RestFactor m) ts2)
        | TNum n => Got (NNum n) (tl ts1) false
        | TStr n => rec (RestFactor (NStr n)) (tl ts1)
        | TFloat => Got NNull (tl ts1) true
        | TOpen => bind (rec CastOrExpr (tl ts1)) (fun m ts2 => rec (RestFactor m) ts2)
        | TLocal =>
          if lb then Got NNull (tl ts1) true
          else get (tl ts1) (fun d ts2 =>
            match d with
            | TDot => bind (rec (Factor true) ts2) (fun n ts3 => Got (if null n then NNull else NLocal n) ts3 false)
            | _ => Got NNull ts2 true
            end)
        | TErr => rec (Factor false) (tl ts1)
        | _ => Got NNull ts1 false
        end
      end)
  (* 4351-4436, with makeCastNode, 6956-6991 *)
  | TypeFactor =>
    get ts (fun p ts1 =>
      match p with
      | TType ty =>
        peek ts1 (fun q ts2 =>
          match q with
          | TBin And | TOpen => Unmod
          | TDot => peek (tl ts2) (fun f ts3 =>
              match f with
              | TOf (Proxy i) => rec (RestFactor (NTypeOf (Proxy i) ty)) (tl ts3)
              | TOf Constantof | TOf Instanceof => peek (tl ts3) (fun c ts4 =>
                  match c with TOpen => Unmod
                  | _ => rec (RestFactor (NTypeOf (match f with TOf k => k | _ => Atomof end) ty)) ts4 end)
              | _ => Unmod
              end)
          | TIdent _ => Got NNull (tl ts2) true
          | TClose => bind (rec (Factor false) (tl ts2)) (fun n ts3 => Got (if null n then NNull else NCast ty n) ts3 false)
          | _ => Got NNull ts2 false
          end)
      | _ => Abort
      end)
  (* 4438-4478, with makeConditionalExprNode, 6448-6516 *)
  | RestFactor n =>
    if null n then Got NNull ts false else
    peek ts (fun p ts1 =>
      match p with
      | TIs a => peek (tl ts1) (fun q ts2 =>
          match q with
          | TType ty => peek (tl ts2) (fun c ts3 =>
              match c with
              | TOpen | TDot => Unmod
              | TBin And => rec (RestFactor (NIs a ty n)) (tl ts3)   (* read as part of the type, 2873-2904 *)
              | _ => rec (RestFactor (NIs a ty n)) ts3
              end)
          | TLocal | TOther _ => Unmod
          | _ => Got NNull ts2 true
          end)
      | TDot => bind (rec (Members n false) ts1) (fun m ts2 => rec (RestFactor m) ts2)
      | TSquare | TOpenSq => bind (rec (RestLval n) ts1) (fun m ts2 => rec (RestFactor m) ts2)
      | TInc => rec (RestFactor (NPost true n)) (tl ts1)
      | TDec => rec (RestFactor (NPost false n)) (tl ts1)
      | TErr => get ts1 (fun _ ts2 => get ts2 (fun _ ts3 => Got NNull ts3 false))
      | _ => Got n ts1 false
      end)
  (* 4718-4760; 3729-3774 makes the identifier *)
  | RestLval n =>
    if null n then Got NNull ts false else
    peek ts (fun p ts1 =>
      match p with
      | TSquare => Got (NIndex n NNull) (tl ts1) false
      | TOpenSq => bind (rec (Level 0) (tl ts1)) (fun i ts2 =>
          peek ts2 (fun q ts3 => match q with TCloseSq => rec (RestLval (NIndex n i)) (tl ts3) | _ => Got NNull ts3 true end))
      | _ => Got n ts1 false
      end)
  (* 3777-3803 *)
  | Ident i =>
    peek ts (fun p ts1 =>
      match p with
      | TOpen => rec (Args i []) (tl ts1)
      | TDot => Got (NIdent i) ts1 false
      | _ => rec (RestLval (NIdent i)) ts1
      end)
  (* 3805-3956; the second delete of classInstanceNode is 3950 *)
  | Members n dead =>
    peek ts (fun p ts1 =>
      match p with
      | TDot => peek (tl ts1) (fun q ts2 =>
          match q with
          | TIdent i => bind (rec (Ident i) (tl ts2)) (fun r ts3 => if null r then Got NNull ts3 false else rec (Members (NMember n r) dead) ts3)
          | TType _ => Unmod
          | _ => minMaxSizeof n ts2 (fun r ts3 =>
              if null r then (if dead then Abort else rec (Members NNull true) ts3) else rec (Members r dead) ts3)
          end)
      | _ => Got n ts1 false
      end)
  (* 4087-4106 *)
  | Args f acc =>
    bind (rec Assign ts) (fun a ts1 =>
      let acc' := if null a then acc else acc ++ [a] in
      get ts1 (fun p ts2 =>
        match p with
        | TClose => Got (NCall f acc') ts2 false
        | TComma => rec (Args f acc') ts2
        | _ => Got NNull ts2 true
        end))
  (* 4480-4528; the assertion is 4353 *)
  | CastOrExpr =>
    let close n ts1 := peek ts1 (fun p ts2 => match p with TClose => Got n (tl ts2) false | _ => Got NNull ts2 true end) in
    peek ts (fun p ts1 =>
      match p with
      | TLocal => Abort
      | TType _ =>
        bind (rec TypeFactor ts1) (fun n ts2 =>
          if is_cast n then Got n ts2 false
          else if null n then bind (rec Assign ts2) close
          else bind (rec (WrapFactor n) ts2) close)
      | _ => bind (rec Assign ts1) close
      end)
  (* 3718-3727 *)
  | Assign => bind (rec (Level 0) ts) (fun n ts1 => if null n then Got NNull ts1 false else rec (RestAssign n) ts1)
  (* 4762-4800, with makeAssignExprNode, 6518-6593 *)
  | RestAssign n =>
    if null n then Got NNull ts false else
    peek ts (fun p ts1 =>
      match p with
      | TAssign o => bind (rec Assign (tl ts1)) (fun r ts2 =>
          if null r then flag true (rec (RestAssign NNull) ts2) else rec (RestAssign (NAssign o n r)) ts2)
      | TInc => rec (RestAssign (NPost true n)) (tl ts1)
      | TDec => rec (RestAssign (NPost false n)) (tl ts1)
      | TErr => rec (RestAssign n) (tl ts1)
      | _ => Got n ts1 false
      end)
  (* 4802-4849 *)
  | WrapFactor n =>
    if null n then Got NNull ts false else
    peek ts (fun p ts1 =>
      match p with
      | TIdent _ | TStr _ | TFloat | TOpen => bind (rec (Factor false) ts1) (fun m ts2 => rec (RestFactor m) ts2)
      | TErr => get ts1 (fun _ ts2 => get ts2 (fun _ ts3 => rec (WrapFactor n) ts3))
      | _ => rec (Wrap 6 n) ts1
      end)
  (* 4851-5040 *)
  | Wrap k n =>
    if Nat.eqb k 0 && null n then Got NNull ts false else
    peek ts (fun p ts1 =>
      let up := match k with O => rec (WrapAssign n) ts1 | S j => rec (Wrap j n) ts1 end in
      match is_op k p with
      | Some o => bind (rec (operand k) (tl ts1)) (fun r ts2 => rec (Wrap k (if null r then NNull else NBin o n r)) ts2)
      | None =>
        match p with
        | TQuestion => if Nat.eqb k 0 then rec (Question n) (tl ts1) else up
        | TErr => rec (Wrap k n) (tl ts1)
        | _ => up
        end
      end)
  (* 5042-5081 *)
  | WrapAssign n =>
    if null n then Got NNull ts false else
    peek ts (fun p ts1 =>
      match p with
      | TAssign o => bind (rec Assign (tl ts1)) (fun r ts2 =>
          if null r then flag true (rec (WrapAssign NNull) ts2) else rec (WrapAssign (NAssign o n r)) ts2)
      | TInc => rec (WrapAssign (NPost true n)) (tl ts1)
      | TDec => rec (WrapAssign (NPost false n)) (tl ts1)
      | TErr => rec (WrapAssign n) (tl ts1)
      | _ => Got n ts1 false
      end)
  end.

Fixpoint run (fuel : nat) (t : task) (ts : list tok) : res :=
  match fuel with O => NoFuel | S g => step (run g) t ts end.

(* enough for any input, C60 *)
Definition enough (ts : list tok) : nat := (24 * S (length ts))%nat.
Definition parseAssignExpr (ts : list tok) : res := run (enough ts) Assign ts.
