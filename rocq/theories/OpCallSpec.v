(* OpCallSpec.v: which function an operator written with an object calls: that of the operator, with the right operand if there
   is one.  As in C++, x++ differs from ++x by an argument.  Independent of the nodes. *)
From Coq Require Import String List NArith Bool.
From Verif Require Import Base OpDispatchModel OpCallModel.
Import ListNotations.
Open Scope N_scope.

(* the operators of the language that can be written in each place and that a class may define, by their text *)
Definition definable (p : place) (op : list N) : Prop :=
  match p with
  | Before => In op (map txt ["-"; "+"; "!"; "~"; "++"; "--"]%string)
  | After => In op (map txt ["++"; "--"]%string)
  | Between => In op (map txt ["+"; "-"; "*"; "/"; "%"; "&"; "|"; "^"; "<<"; ">>"; "+="; "-="; "*="; "/="; "%="; "&="; "|="; "^="; "<<="; ">>="]%string)
  end.

(* the arguments of the call *)
Definition arguments (p : place) : list argument :=
  match p with Before => [] | Between => [RightOperand] | After => [One] end.

(* the function of an operator: written "operator" and the operator in the class *)
Definition function_of (op : list N) (name : list N) : Prop :=
  isOperatorOverloadIdentToken name = true /\ getUlamNameIdForOperatorOverloadToken name = txt "operator" ++ op.
