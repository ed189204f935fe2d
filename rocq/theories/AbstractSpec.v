(* AbstractSpec.v: where objects live and where they come from. *)
From Coq Require Import List NArith Bool.
From Verif Require Import VTableModel AbstractModel.
Import ListNotations.
Open Scope N_scope.

(* a statement is part of another *)
Inductive part : stm -> stm -> Prop :=
| P_self s : part s s
| P_first x a b : part x a -> part x (SSeq a b)
| P_then x a b : part x b -> part x (SSeq a b)
| P_block x b : part x b -> part x (SBlock b)
| P_if1 x c t e : part x t -> part x (SIf c t e)
| P_if2 x c t e : part x e -> part x (SIf c t e)
| P_while x c b : part x b -> part x (SWhile c b).
(* a variable of class c: a data member, a parameter, a local variable; not a reference *)
Inductive variable (p : list cls) (c : N) : Prop :=
| In_member k i : In k p -> part (SDecl false (Some c) i) (c_members k) -> variable p c
| In_param k f i : In k p -> In f (c_funcs k) -> part (SDecl false (Some c) i) (f_params f) -> variable p c
| In_body k f i : In k p -> In f (c_funcs k) -> part (SDecl false (Some c) i) (f_body f) -> variable p c.
(* an expression yields an object of class c by value *)
Inductive yields : exp -> N -> Prop :=
| Y_make c e : yields (Make c e) c
| Y_call c a : yields (Call (Some c) a) c.
(* an object of class c may be: in an atom, in a variable *)
Inductive lives (p : list cls) (c : N) : Prop :=
| L_element k : In k p -> c_id k = c -> c_element k = true -> lives p c
| L_concrete k : In k p -> c_id k = c -> c_concrete k = true -> lives p c
| L_variable : variable p c -> lives p c.
