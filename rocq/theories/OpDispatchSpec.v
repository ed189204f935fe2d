(* OpDispatchSpec.v: comparisons of two objects, as numbers are compared.  Independent of the dispatch. *)
From Coq Require Import List NArith ZArith Bool.
From Verif Require Import Base FamilyProofs OpDispatchModel.
Import ListNotations.
Open Scope Z_scope.

(* what a comparison of two numbers means *)
Definition compare_numbers (o : cmpop) (x y : Z) : bool :=
  match o with
  | Eq => x =? y
  | Ne => negb (x =? y)
  | Lt => x <? y
  | Le => x <=? y
  | Gt => y <? x
  | Ge => y <=? x
  end.

(* the class or one of its ancestors, whose text has been read, has a function of that name *)
Definition has_function (root : N -> N) (bases : N -> option (list N)) (declares : N -> list N -> bool) (c : N) (name : list N) : Prop :=
  exists x, reach root bases (root c) x /\ bases x <> None /\ declares x name = true.

(* all of the family is known *)
Definition all_known (root : N -> N) (bases : N -> option (list N)) (hzy : N) (hazyHere : N -> bool) (c : N) : Prop :=
  forall x, reach root bases (root c) x -> hazyHere x = false /\ x <> hzy.

(* some class of the family is not known yet *)
Definition unsettled (root : N -> N) (bases : N -> option (list N)) (hzy : N) (hazyHere : N -> bool) (c : N) : Prop :=
  exists x, reach root bases (root c) x /\ ((bases x <> None /\ hazyHere x = true) \/ (bases x = None /\ x = hzy)).

(* the value of the call when run o is what the operator function found for o gives *)
Definition value (run : cmpop -> bool) (k : call) : bool := match k with Call o => run o | NotCall o => negb (run o) end.
