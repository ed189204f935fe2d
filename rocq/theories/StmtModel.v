(* StmtModel.v: the statement parser.
   Transcribes src/ulam/Parser.cpp:1216-1351 (parseBlock, parseStatements, parseStatement, parseStatementAsBlock), 1354-1403
   (parseControlStatement), 1405-1470 (if), 1472-1524 (while), 1526-1673 (for), 1675-1737 (makeControlWhileNode), 1739-2079 (which, its
   cases), 2081-2179 (conditions with as), 2181-2283 (parseSimpleStatement), 2565-2623, 5091-5198 with 1101-1139 (declarations),
   3691-3716 (parseReturn), 5924-5953 (the body of a function), 7075-7145 (tokens).
   Simplifications: expressions are those of ExprModel (a type descriptor is one token, E (TType t)); a declaration with a reference, an
   array size, a constructor call or an initialiser list, typedef, constant and local are answered Unmodelled; symbol tables are left out
   (no name is declared twice); structured comments are removed; the numbers of labels are left out (C34), whether break and continue are
   allowed is kept. The end of the file is [] or E TEnd. *)
From Coq Require Import List NArith Bool.
From Verif Require Import Base ExprModel.
Import ListNotations.
Open Scope N_scope.

(* the words that are used outside of statements only; Ellipsis is ..., WMore any other token *)
Inductive word := WElement | WQuark | WUnion | WTransient | WConcrete | WVirtual | WNative | WParameter | Ellipsis | WMore.
(* E (TAssign 0) is the token =. Other is any other token *)
Inductive stok :=
| E (t : tok) | Semi | OpenC | CloseC
| KIf | KElse | KWhile | KFor | KWhich | KCase | KOtherwise | KReturn | KBreak | KContinue | KTypedef | KConst | KOverride
| Other (w : word).
(* what the expression parser sees *)
Definition as_tok (t : stok) : tok :=
  match t with E t => t | Semi | CloseC => TEnd | _ => TOther 0 end.

(* the condition of an if: an expression; the value of the which compared with one; true; two cases of one body *)
Inductive cond := CNode (n : node) | CCase (n : node) | CTrue | COr (a b : cond).
(* what is built. A NodeBlockEmpty is TBlock []. TBody: NodeBlockInvisible. TAsDecl: NodeVarRefAs *)
Inductive tree :=
| TEmpty | TExpr (n : node) | TReturn (n : node) | TBreak | TContinue
| TDecl (ty id : N) (init : node) | TAsDecl (ty : N)
| TBlock (ss : list tree) | TBody (ss : list tree)
| TIf (c : cond) (t : tree) (f : list tree)          (* f: none or one *)
| TWhile (c : cond) (t : tree) (step : list node)    (* step: none or one, after the body *)
| TWhich (c : node) (cases : list tree).             (* c: NNull if none; cases: none, or the first if *)

(* the default case: none, live, deleted while the pointer stays *)
Inductive dflt := DNone | DLive | DDead.
(* err: an error was reported. asf: m_parsingConditionalAs. dfl: defaultcaseNode of parseControlSwitch.
   lost is not in the program: an expression was read and came to nothing *)
Record st : Type := { toks : list stok; err : bool; asf : bool; dfl : dflt; lost : bool }.
Definition set_toks (s : st) (ts : list stok) : st := {| toks := ts; err := err s; asf := asf s; dfl := dfl s; lost := lost s |}.
Definition fail (s : st) : st := {| toks := toks s; err := true; asf := asf s; dfl := dfl s; lost := lost s |}.
Definition set_asf (s : st) (b : bool) : st := {| toks := toks s; err := err s; asf := b; dfl := dfl s; lost := lost s |}.
Definition set_dfl (s : st) (d : dflt) : st := {| toks := toks s; err := err s; asf := asf s; dfl := d; lost := lost s |}.
Definition drop (s : st) : st := set_toks s (tl (toks s)).

(* Fault: a failed assertion or the use of a deleted node *)
Inductive res (A : Type) := Done (a : A) (s : st) | Fault | Unmodelled | Fuel.
Arguments Done {A}. Arguments Fault {A}. Arguments Unmodelled {A}. Arguments Fuel {A}.
Definition sbind {A B} (r : res A) (k : A -> st -> res B) : res B :=
  match r with Done a s => k a s | Fault => Fault | Unmodelled => Unmodelled | Fuel => Fuel end.

(* 7105-7123, getNextToken and unreadToken: one low level error token is reported and skipped *)
Definition hd_tok (ts : list stok) : stok := match ts with [] => E TEnd | t :: _ => t end.
Definition look (s : st) : st := match toks s with E TErr :: r => fail (set_toks s r) | _ => s end.
Definition tok_of (s : st) : stok := hd_tok (toks (look s)).

Definition same (a b : stok) : bool :=
  match a, b with
  | Semi, Semi | OpenC, OpenC | CloseC, CloseC | KElse, KElse | E TOpen, E TOpen | E TClose, E TClose | E TColon, E TColon => true
  | _, _ => false
  end.
(* 7081-7103, getExpectedToken; quietly or not *)
Definition expect {A} (quiet : bool) (t : stok) (s : st) (yes no : st -> res A) : res A :=
  let s1 := look s in
  if same (hd_tok (toks s1)) t then yes (drop s1) else no (if quiet then s1 else fail s1).
(* 7132-7145, getTokensUntil *)
Fixpoint until (t : stok) (ts : list stok) : list stok :=
  match ts with
  | [] => []
  | E TEnd :: _ => ts
  | E TErr :: r => match r with [] => [] | E TEnd :: _ => r | x :: r' => if same x t then r' else until t r' end
  | x :: r => if same x t then r else until t r
  end.
(* followed by unreadToken *)
Fixpoint upto (t : stok) (ts : list stok) : list stok :=
  match ts with
  | [] => []
  | E TEnd :: _ => ts
  | E TErr :: r => match r with [] => [] | E TEnd :: _ => r | x :: r' => if same x t then r else upto t r' end
  | x :: r => if same x t then ts else upto t r
  end.

Definition is_as (t : stok) : bool := match t with E (TIs true) => true | _ => false end.
(* parseAssignExpr, or parseExpression. An as among the tokens read sets the flag, 4449 *)
Definition expr {A} (t : task) (s : st) (k : node -> st -> res A) : res A :=
  match run (enough (map as_tok (toks s))) t (map as_tok (toks s)) with
  | Got n rest e =>
    let i := (length (toks s) - length rest)%nat in
    let used := firstn i (toks s) in
    k n {| toks := skipn i (toks s); err := err s || e; asf := asf s || existsb is_as used; dfl := dfl s;
           lost := lost s || (null n && negb (match used with [] => true | _ => false end)) |}
  | Abort => Fault
  | Unmod => Unmodelled
  | NoFuel => Fuel
  end.

(* ---- declarations ---- *)
(* 5146-5198, 1101-1139: the initial value of a variable *)
Definition initial {A} (s : st) (k : node -> st -> res A) : res A :=
  match tok_of s with
  | E (TAssign 0) =>
    let s1 := drop (look s) in
    match tok_of s1 with
    | OpenC => Unmodelled
    | _ => expr (Level 0) (look s1) (fun n s2 => if null n then k NNull (fail s2) else k n s2)
    end
  | E TOpen | E TOpenSq | E TSquare => Unmodelled
  | _ => k NNull (look s)
  end.
(* 5091-5144; in acc those before *)
Fixpoint restOfDecls (fuel : nat) (ty : N) (acc : list tree) (s : st) : res (list tree) :=
  match fuel with
  | O => Fuel
  | S g =>
    match tok_of s with
    | E TComma =>
      let s1 := drop (look s) in
      match tok_of s1 with
      | E (TBin And) => Unmodelled
      | E (TIdent i) => initial (drop (look s1)) (fun n s2 => restOfDecls g ty (acc ++ [TDecl ty i n]) s2)
      | _ => Done acc (let s2 := fail (drop (look s1)) in set_toks s2 (upto Semi (toks s2)))
      end
    | _ => Done acc (look s)
    end
  end.
(* 2565-2623, without the answer, which is used only to report *)
Definition parseDecl (s : st) : res (list tree) :=
  match tok_of s with
  | E (TType ty) =>
    let s1 := drop (look s) in
    match tok_of s1 with
    | E TOpen | E TDot | E (TBin And) | E TOpenSq | E TSquare => Unmodelled
    | E (TIdent i) => initial (drop (look s1)) (fun n s2 => restOfDecls (S (length (toks s2))) ty [TDecl ty i n] s2)
    | _ => Done [] (fail (look s1))
    end
  | _ => Fault
  end.

(* 2181-2283 *)
Definition parseSimpleStatement (brk cont : bool) (s : st) : res (list tree) :=
  let s1 := look s in
  sbind
    match hd_tok (toks s1) with
    | Semi => Done [TEmpty] s1
    | E (TType _) => parseDecl s1
    | E TLocal | KTypedef | KConst => Unmodelled
    | KReturn => expr Assign (drop s1) (fun n s2 => Done [TReturn n] s2)
    | KBreak => if brk then Done [TBreak] (drop s1) else Done [] (fail (drop s1))
    | KContinue => if cont then Done [TContinue] (drop s1) else Done [] (fail (drop s1))
    | KOverride => Done [] (fail (drop s1))
    | E TErr => Done [] (drop s1)
    | _ => expr Assign s1 (fun n s2 => Done (if null n then [] else [TExpr n]) s2)
    end
    (fun ts s2 => expect true Semi s2 (fun s3 => Done ts s3) (fun s3 => Done ts (fail (set_toks s3 (until Semi (toks s3)))))).

(* ---- the labels of a case ---- *)
Definition dead (acc : option cond) (d : dflt) : dflt := match acc with Some CTrue => DDead | _ => d end.
(* 1953-2079; value: swvalueIdent is not NULL. A deleted default leaves dfl dead *)
Fixpoint restOfCase (fuel : nat) (value : bool) (acc : option cond) (s : st) : res (option cond) :=
  match fuel with
  | O => Fuel
  | S g =>
    let s1 := look s in
    let stop s := Done None (set_dfl s (dead acc (dfl s))) in
    let next c s := expect false (E TColon) s
      (fun s2 => restOfCase g value (Some (match acc, c with Some a, CTrue => CTrue | Some a, _ => COr a c | None, _ => c end)) s2)
      (fun s2 => stop (match c with CTrue => set_dfl s2 DDead | _ => s2 end)) in
    match hd_tok (toks s1) with
    | KCase =>
      match dfl s1 with
      | DNone =>
        expr Assign (drop s1) (fun n s2 =>
          if null n then stop (fail s2)
          else if asf s2 then
            expect false (E TColon) s2
              (fun s3 => match acc with
                         | Some _ => stop (fail s3)
                         | None => if value then stop (fail s3) else Done (Some (CNode n)) s3 end)
              stop
          else next (if value then CCase n else CNode n) s2)
      | _ => stop (fail (drop s1))
      end
    | KOtherwise =>
      match dfl s1 with
      | DNone => next CTrue (set_dfl (drop s1) DLive)
      | _ => stop (fail (drop s1))
      end
    | _ => Done acc s1
    end
  end.

(* ---- statements ---- *)
(* one constructor for each function; brk, cont: okToParseABreak, getNearestContinueExitNumber() != 0. NULL is answered by [] *)
Inductive stask :=
| Statements (brk cont : bool)   (* parseStatements: what it appends *)
| Statement (brk cont : bool)    (* parseStatement: what it appends or returns *)
| Block (brk cont : bool)        (* parseBlock *)
| AsBlock (brk cont : bool)      (* parseStatementAsBlock *)
| AsCond (brk cont : bool) (c : cond)  (* setupAsConditionalBlockAndParseStatements *)
| NextCase (brk cont value prev : bool). (* parseNextCase: the chain of ifs to link; prev: there is an if before *)

Definition as_type (c : cond) : option N := match c with CNode (NIs true ty _) => Some ty | _ => None end.

Section Step.
Variable rec : stask -> st -> res (list tree).
Definition body (brk cont : bool) (c : cond) (s : st) : res (list tree) := if asf s then rec (AsCond brk cont c) s else rec (AsBlock brk cont) s.
(* 1405-1470, after the keyword *)
Definition parseControlIf (brk cont : bool) (s : st) : res (list tree) :=
  expect false (E TOpen) s (fun s1 =>
    expr Assign s1 (fun c s2 =>
      if null c then Done [] (fail s2) else
      expect false (E TClose) s2 (fun s3 =>
        sbind (body brk cont (CNode c) s3) (fun t s4 =>
          match t with
          | [] => Done [] (fail s4)
          | t :: _ => expect true KElse s4
                        (fun s5 => sbind (rec (AsBlock brk cont) s5) (fun f s6 => Done [TBlock [TIf (CNode c) t f]] s6))
                        (fun s5 => Done [TBlock [TIf (CNode c) t []]] s5)
          end)) (Done []))) (Done []).
(* 1675-1737 *)
Definition makeControlWhileNode (pre : list tree) (c : cond) (step : list node) (s : st) : res (list tree) :=
  sbind (body true true c s) (fun t s1 => match t with [] => Done [] (fail s1) | t :: _ => Done [TBlock (pre ++ [TWhile c t step])] s1 end).
(* 1472-1524 *)
Definition parseControlWhile (s : st) : res (list tree) :=
  expect false (E TOpen) s (fun s1 =>
    expr Assign s1 (fun c s2 =>
      if null c then Done [] (fail s2) else
      expect false (E TClose) s2 (makeControlWhileNode [] (CNode c) []) (Done []))) (Done []).
(* 1526-1673 *)
Definition forAssign (pre : list tree) (c : cond) (s : st) : res (list tree) :=
  let s1 := look s in
  match hd_tok (toks s1) with
  | E TClose => makeControlWhileNode pre c [] (drop s1)
  | _ => expr Assign s1 (fun n s2 =>
           if null n then Done [] (fail s2) else expect false (E TClose) s2 (makeControlWhileNode pre c [n]) (Done []))
  end.
Definition forCond (pre : list tree) (s : st) : res (list tree) :=
  let s1 := look s in
  match hd_tok (toks s1) with
  | Semi => forAssign pre CTrue (drop s1)
  | _ => expr Assign s1 (fun n s2 =>
           if null n then Done [] (fail s2) else expect false Semi s2 (forAssign pre (CNode n)) (Done []))
  end.
(* the token after the first part is read, not unread *)
Definition forSemi (pre : list tree) (s1 : st) : res (list tree) :=
  match hd_tok (toks s1) with Semi => forCond pre (drop s1) | _ => Done [] (fail (drop s1)) end.
Definition parseControlFor (s : st) : res (list tree) :=
  expect false (E TOpen) s (fun s1 =>
    let s2 := look s1 in
    match hd_tok (toks s2) with
    | E (TType _) => sbind (parseDecl s2) (fun ds s3 => forSemi ds (look s3))
    | E (TIdent _) => expr Assign s2 (fun n s3 => if null n then forSemi [] (look (fail s3)) else forSemi [TExpr n] (look s3))
    | _ => forSemi [] s2
    end) (Done []).
(* 1739-1878 *)
Definition parseControlSwitch (cont : bool) (s : st) : res (list tree) :=
  expect false (E TOpen) s (fun s1 =>
    let value := match tok_of s1 with E TClose => false | _ => true end in
    expr Assign (look s1) (fun c s2 =>
      if null c && value then Done [] (fail s2) else
      expect false (E TClose) s2 (fun s3 =>
        expect false OpenC s3 (fun s4 =>
          sbind (rec (NextCase true cont value false) (set_dfl s4 DNone)) (fun cases s5 =>
            expect false CloseC (set_dfl s5 (dfl s4)) (fun s6 =>
              match dfl s5 with DDead => Fault | _ => Done [TWhich c cases] s6 end) (Done [])))
          (Done [])) (Done []))) (Done []).
(* 1354-1403 *)
Definition parseControlStatement (brk cont : bool) (s : st) : res (list tree) :=
  let s1 := look s in
  match hd_tok (toks s1) with
  | KIf => parseControlIf brk cont (drop s1)
  | KWhile => parseControlWhile (drop s1)
  | KFor => parseControlFor (drop s1)
  | KWhich => parseControlSwitch cont (drop s1)
  | _ => Done [] (fail (drop s1))
  end.

Definition step (t : stask) (s : st) : res (list tree) :=
  match t with
  (* 1269-1298; a simple statement is appended by parseSimpleStatement and answered by NULL. The end of the file stops only after NULL *)
  | Statements brk cont =>
    let simple := match tok_of s with OpenC | KIf | KElse | KWhile | KFor | KWhich => false | _ => true end in
    sbind (rec (Statement brk cont) s) (fun ss s1 =>
      let s2 := look s1 in
      let more := sbind (rec (Statements brk cont) s2) (fun more s3 => Done (ss ++ more) s3) in
      match hd_tok (toks s2) with
      | CloseC => Done ss s2
      | E TEnd => if simple || match ss with [] => true | _ => false end then Done ss s2 else more
      | _ => more
      end)
  (* 1300-1321 *)
  | Statement brk cont =>
    let s1 := look s in
    match hd_tok (toks s1) with
    | OpenC => rec (Block brk cont) s1
    | KIf | KElse | KWhile | KFor | KWhich => parseControlStatement brk cont s1
    | _ => parseSimpleStatement brk cont s1
    end
  (* 1216-1267 *)
  | Block brk cont =>
    expect false OpenC s (fun s1 =>
      expect true CloseC s1 (fun s2 => Done [TBlock []] s2)
        (fun s2 => sbind (rec (Statements brk cont) s2) (fun ss s3 =>
           expect true CloseC s3 (fun s4 => Done [TBlock ss] s4) (fun s4 => Done [] (set_toks s4 (until CloseC (toks s4)))))))
      (Done [])
  (* 1323-1352 *)
  | AsBlock brk cont =>
    match tok_of s with
    | OpenC => rec (Block brk cont) (look s)
    | _ => sbind (rec (Statement brk cont) (look s)) (fun ss s1 => Done [TBody ss] s1)
    end
  (* 2086-2179 *)
  | AsCond brk cont c =>
    match as_type c with
    | None => Done [] (set_asf (fail s) false)
    | Some ty =>
      let s1 := set_asf (look s) false in
      match hd_tok (toks s1) with
      | OpenC => expect true CloseC (drop s1) (fun s2 => Done [TBlock [TAsDecl ty]] s2)
                   (fun s2 => sbind (rec (Statements brk cont) s2) (fun ss s3 =>
                      expect false CloseC s3 (Done [TBlock (TAsDecl ty :: ss)]) (Done [TBlock (TAsDecl ty :: ss)])))
      | _ => sbind (rec (Statement brk cont) s1) (fun ss s2 => Done [TBlock (TAsDecl ty :: ss)] s2)
      end
    end
  (* 1880-1951 *)
  | NextCase brk cont value prev =>
    sbind (restOfCase (S (length (toks s))) value None s) (fun c s1 =>
      match c with
      | None => let s2 := look s1 in match hd_tok (toks s2) with CloseC => Done [] s2 | _ => Done [] (fail s2) end
      | Some c =>
        let s2 := look s1 in
        match hd_tok (toks s2) with
        | OpenC =>
          sbind (body brk cont c s2) (fun t s3 =>
            match t with
            | [] => Done [] (fail (set_dfl s3 (dead (Some c) (dfl s3))))
            | t :: _ =>
              match c, prev with
              | CTrue, true => sbind (rec (NextCase brk cont value false) s3) (fun _ s4 => Done [t] s4)
              | _, _ => sbind (rec (NextCase brk cont value true) s3) (fun f s4 => Done [TIf c t f] s4)
              end
            end)
        | _ => Done [] (fail (set_dfl s2 (dead (Some c) (dfl s2))))
        end
      end)
  end.
End Step.

Fixpoint srun (fuel : nat) (t : stask) (s : st) : res (list tree) := match fuel with O => Fuel | S g => step (srun g) t s end.
(* enough for any input, C72 *)
Definition plenty (ts : list stok) : nat := (8 * S (length ts))%nat.
(* 5935-5953: after the opening curly of a function *)
Definition parseFunctionBody (s : st) : res (list tree) :=
  let s1 := look s in
  match hd_tok (toks s1) with
  | CloseC => Done [] s1
  | _ => sbind (srun (plenty (toks s1)) (Statements false false) s1) (fun ss s2 =>
           let s3 := look s2 in match hd_tok (toks s3) with CloseC => Done ss s3 | _ => Done ss (fail s3) end)
  end.
Definition start (ts : list stok) : st := {| toks := ts; err := false; asf := false; dfl := DNone; lost := false |}.
