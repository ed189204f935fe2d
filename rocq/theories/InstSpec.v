(* InstSpec.v: what the instances of a template are to be. *)
From Coq Require Import List NArith Bool.
From Verif Require Import Base SourceStreamModel InstModel.
Import ListNotations.
Open Scope N_scope.

(* the uses in a compilation, each with a type index of its own *)
Fixpoint uses (ops : list op) : list N :=
  match ops with [] => [] | Use u :: r => u :: uses r | Round _ :: r => uses r end.

(* use u has become the class c *)
Definition is_class (st : state) (u c : N) : Prop := get (insts st) u = Some c /\ In c (full st).

(* how many of the uses have the arguments of u *)
Definition same_args (args : N -> text) (u : N) (l : list N) : list N :=
  filter (fun v => if list_eq_dec N.eq_dec (args v) (args u) then true else false) l.

(* a round in which nothing has to wait *)
Definition all_ready : round := mkRound (fun _ => false) (fun _ => false) (fun _ => false) (fun _ => true).
