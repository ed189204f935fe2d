(* ExprTheorems.v: the expression parser: precedence and associativity (C41), operands (C42), termination (C60), tokens (C61). *)
From Coq Require Import List PeanoNat NArith Lia Bool.
From Verif Require Import Base ExprModel ExprSpec ExprProofs ExprValue ExprComplete ExprTokens ExprPrint.
Import ListNotations.
Open Scope nat_scope.

(* where an expression ends *)
Definition ender (t : tok) : Prop := match t with TEnd | TClose | TCloseSq | TComma | TColon => True | _ => False end.

(* C41. Every phrase of the grammar, apart from the three misread kinds below, is read as its tree, whatever follows its end. *)
Theorem C41_grammar_partial ts n rest :
  G true CAssign ts n -> ender (first rest) -> parseAssignExpr (ts ++ rest) = Got n rest false.
Proof.
  intros H E. rewrite parse_V. destruct (proj1 complete _ _ _ H) as [Hp _]. cbn [P] in Hp. apply Hp.
  - apply fol_closed; destruct (first rest); easy.
  - destruct (first rest); easy.
Qed.
Print Assumptions C41_grammar_partial.

(* Every tree, written with the fewest parentheses, is read back. *)
Theorem C41_printed n rest : writable n -> ender (first rest) -> parseAssignExpr (show CAssign n ++ rest) = Got n rest false.
Proof. intros W E. apply C41_grammar_partial; auto. now apply show_G. Qed.
Print Assumptions C41_printed.

(* (a + b) * c - d << e, with the shift loosest; a = b = c to the right; -x.f(y, z)[i]++ *)
Definition ex_tree : node :=
  NAssign 0 (NIdent 9) (NAssign 1 (NIdent 8)
    (NBin Shl (NBin Sub (NBin Mul (NBin Add (NIdent 1) (NIdent 2)) (NIdent 3)) (NIdent 4))
      (NUn UMinus (NPost true (NIndex (NMember (NIdent 5) (NCall 6 [NNum 1; NQuest (NIdent 1) (NNum 2) (NNum 3)])) (NNum 7)))))).
Example C41_ex :
  writable ex_tree /\
  show CAssign ex_tree =
    [TIdent 9; TAssign 0; TIdent 8; TAssign 1; TOpen; TIdent 1; TBin Add; TIdent 2; TClose; TBin Mul; TIdent 3; TBin Sub; TIdent 4; TBin Shl;
     TBin Sub; TIdent 5; TDot; TIdent 6; TOpen; TNum 1; TComma; TIdent 1; TQuestion; TNum 2; TColon; TNum 3; TClose; TOpenSq; TNum 7; TCloseSq; TInc]%N /\
  parseAssignExpr (show CAssign ex_tree ++ [TEnd]) = Got ex_tree [TEnd] false.
Proof. cbn. repeat split. Qed.
(* the grammar allows more: (Int.sizeof + 1) is Foo, in parentheses *)
Example C41_grammar_ex :
  G true CAssign [TOpen; TType 1; TDot; TOf (Proxy 0); TBin Add; TNum 1; TClose; TIs false; TType 2]%N
    (NIs false 2 (NBin Add (NTypeOf (Proxy 0) 1) (NNum 1)))%N.
Proof.
  apply G_assign_expr, G_expr. do 7 (apply G_up; [lia|]). apply G_factor.
  apply (G_is _ [TOpen; TType 1; TDot; TOf (Proxy 0); TBin Add; TNum 1; TClose]%N).
  apply G_idx. apply (G_paren_type _ [TType 1; TDot; TOf (Proxy 0); TBin Add; TNum 1]%N); [|exact I].
  do 5 (apply G_up; [lia|]). apply (G_bin _ 5 [TType 1; TDot; TOf (Proxy 0)]%N _ Add [TNum 1]%N); [reflexivity | | |discriminate].
  - do 2 (apply G_up; [lia|]). apply G_factor, G_post, G_idx, G_type_of. discriminate.
  - apply G_up; [lia|]. apply G_factor, G_num.
Qed.

(* The misread phrases. A local name in parentheses: (local.x) fails an assertion. *)
Theorem C41_local_refuted :
  exists ts n, G false CAssign ts n /\ parseAssignExpr (ts ++ [TEnd]) = Abort.
Proof.
  exists [TOpen; TLocal; TDot; TIdent 1; TClose]%N, (NLocal (NIdent 1)). split; [|reflexivity].
  apply G_assign_expr, G_expr. do 7 (apply G_up; [lia|]). apply G_factor, G_post, G_idx.
  apply (G_paren _ [TLocal; TDot; TIdent 1]%N); [|discriminate].
  apply G_assign_expr, G_expr. do 7 (apply G_up; [lia|]). apply G_factor. apply G_local; [discriminate|]. apply G_post, G_idx, G_ident.
Qed.
Print Assumptions C41_local_refuted.

(* x is Foo & y: the ampersand is read as part of the type *)
Theorem C41_is_refuted :
  exists ts n, G false CAssign ts n /\ parseAssignExpr (ts ++ [TEnd]) = Got (NIs false 1 (NIdent 1)) [TIdent 2; TEnd] false.
Proof.
  exists [TIdent 1; TIs false; TType 1; TBin And; TIdent 2]%N, (NBin And (NIs false 1 (NIdent 1)) (NIdent 2))%N. split; [|reflexivity].
  apply G_assign_expr, G_expr. apply G_up; [lia|].
  apply (G_bin _ 1 [TIdent 1; TIs false; TType 1]%N _ And [TIdent 2]%N); [reflexivity | | |discriminate].
  - do 6 (apply G_up; [lia|]). apply G_factor. apply (G_is _ [TIdent 1]%N). apply G_idx, G_ident.
  - do 5 (apply G_up; [lia|]). apply G_factor, G_post, G_idx, G_ident.
Qed.
Print Assumptions C41_is_refuted.

(* (Int.sizeof ? a : b = c): an assignment to a question-colon expression is refused where a type comes first *)
Theorem C41_wrap_refuted :
  exists ts n, G false CAssign ts n /\ parseAssignExpr (ts ++ [TEnd]) = Got NNull [TAssign 0; TIdent 3; TClose; TEnd] true.
Proof.
  exists [TOpen; TType 1; TDot; TOf (Proxy 0); TQuestion; TIdent 1; TColon; TIdent 2; TAssign 0; TIdent 3; TClose]%N,
    (NAssign 0 (NQuest (NTypeOf (Proxy 0) 1) (NIdent 1) (NIdent 2)) (NIdent 3))%N. split; [|reflexivity].
  assert (ID : forall k i, k <= 7 -> G false (CBin k) [TIdent i] (NIdent i)).
  { intros k i K. apply (G_sub false _ CIdx); [exact K | exact I | cbn; lia | apply G_ident]. }
  apply G_assign_expr, G_expr. do 7 (apply G_up; [lia|]). apply G_factor, G_post, G_idx.
  apply (G_paren _ [TType 1; TDot; TOf (Proxy 0); TQuestion; TIdent 1; TColon; TIdent 2; TAssign 0; TIdent 3]%N); [|discriminate].
  apply (G_assign _ [TType 1; TDot; TOf (Proxy 0); TQuestion; TIdent 1; TColon; TIdent 2]%N _ 0%N [TIdent 3]%N).
  - apply (G_quest _ [TType 1; TDot; TOf (Proxy 0)]%N _ [TIdent 1]%N _ [TIdent 2]%N).
    + do 7 (apply G_up; [lia|]). apply G_factor, G_post, G_idx, G_type_of. discriminate.
    + apply G_expr, ID. lia.
    + apply G_expr, ID. lia.
  - apply G_assign_expr, G_expr, ID. lia.
Qed.
Print Assumptions C41_wrap_refuted.

(* C42. a * * b gives a product without its left operand, and no error is reported; a . . . b a selection of nothing. *)
Theorem C42_refuted :
  parseAssignExpr [TIdent 1; TBin Mul; TBin Mul; TIdent 2; TEnd] = Got (NBin Mul NNull (NIdent 2)) [TEnd] false /\
  parseAssignExpr [TIdent 1; TDot; TDot; TDot; TIdent 2; TEnd] = Got (NMember NNull (NIdent 2)) [TEnd] false /\
  parseAssignExpr [TIdent 1; TOpenSq; TCloseSq; TEnd] = Got (NIndex (NIdent 1) NNull) [TEnd] false.
Proof. repeat split. Qed.
Print Assumptions C42_refuted.

(* a . . . . . deletes the node of a twice *)
Theorem C42_delete_refuted : parseAssignExpr [TIdent 1; TDot; TDot; TDot; TDot; TDot; TEnd] = Abort.
Proof. reflexivity. Qed.
Print Assumptions C42_delete_refuted.

(* For every token sequence these are the only operands missing: the left one of an operator from & to *, the object of a
   member selection or of-operator, and an index. *)
Theorem C42_partial ts n rest err : parseAssignExpr ts = Got n rest err -> n = NNull \/ good n.
Proof. intro H. pose proof (okr_run (enough ts) Assign ts I) as K. unfold parseAssignExpr in H. rewrite H in K. exact K. Qed.
Print Assumptions C42_partial.

(* Where operands and operators alternate and no error is reported, none is missing. *)
Theorem C42_alternating_partial ts n rest : alt Want ts -> parseAssignExpr ts = Got n rest false -> whole n.
Proof.
  intros A H. pose proof (fine_run (enough ts) Assign ts A) as K. unfold parseAssignExpr in H. rewrite H in K. now destruct K.
Qed.
Print Assumptions C42_alternating_partial.

Example C42_ex :
  alt Want (show CAssign ex_tree ++ [TEnd]) /\ whole ex_tree /\
  (exists n, parseAssignExpr [TIdent 1; TBin Mul; TBin Mul; TIdent 2] = Got n [] false /\ good n /\ ~ whole n).
Proof.
  split; [cbn; repeat split | split; [cbn; repeat split|]].
  exists (NBin Mul NNull (NIdent 2)). split; [reflexivity|]. cbn. split; [split; auto; right; split; auto; lia | tauto].
Qed.

(* C60. The parser answers on every token sequence and never has more tokens left than it was given. *)
Theorem C60_ends ts :
  parseAssignExpr ts <> NoFuel /\ forall n rest err, parseAssignExpr ts = Got n rest err -> length rest <= length ts.
Proof.
  rewrite parse_V. split; [apply V_answer; exact I|]. intros n rest err H.
  pose proof (ends_run (S (budget Assign ts)) Assign ts I (Nat.lt_succ_diag_r _)) as K. unfold V in H. rewrite H in K.
  cbn [ends eats] in K. lia.
Qed.
Print Assumptions C60_ends.

(* and more fuel changes nothing *)
Theorem C60_fuel g ts : run g Assign ts = NoFuel \/ run g Assign ts = parseAssignExpr ts.
Proof. rewrite parse_V. apply run_le_V. exact I. Qed.
Print Assumptions C60_fuel.

Example C60_ex : parseAssignExpr [TErr; TErr; TErr; TBin Mul; TOpen; TQuestion; TErr] = Got NNull [TBin Mul; TOpen; TQuestion; TErr] true /\
  parseAssignExpr [TIdent 1; TBin Sub; TErr; TIdent 2; TErr; TErr; TBin Mul] = Got NNull [] true.
Proof. split; reflexivity. Qed.

(* C61. Tokens are dropped without an error: f(a * ) is read as f(), f(a, , b) as f(a, b), (Int.sizeof x) as x. *)
Theorem C61_refuted :
  parseAssignExpr [TIdent 1; TOpen; TIdent 2; TBin Mul; TClose; TEnd] = Got (NCall 1 []) [TEnd] false /\
  parseAssignExpr [TIdent 1; TOpen; TIdent 2; TComma; TComma; TIdent 3; TClose; TEnd] = Got (NCall 1 [NIdent 2; NIdent 3]) [TEnd] false /\
  parseAssignExpr [TOpen; TType 1; TDot; TOf (Proxy 0); TIdent 2; TClose; TEnd] = Got (NIdent 2) [TEnd] false.
Proof. repeat split. Qed.
Print Assumptions C61_refuted.

(* Where operands and operators alternate and no error is reported, the tree's tokens are those read, in their order. *)
Theorem C61_tokens_partial ts n rest : alt Want ts -> parseAssignExpr ts = Got n rest false ->
  exists used, ts = used ++ rest /\ yield n = strip used.
Proof.
  intros A H. pose proof (fine_run (enough ts) Assign ts A) as K. unfold parseAssignExpr in H. rewrite H in K. now destruct K as (_ & K & _).
Qed.
Print Assumptions C61_tokens_partial.

Example C61_ex : yield ex_tree = strip (show CAssign ex_tree).
Proof. reflexivity. Qed.
