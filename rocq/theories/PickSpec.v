(* PickSpec.v: fair choice. *)
From Coq Require Import List NArith ZArith Bool.
Import ListNotations.
Open Scope Z_scope.

(* how often something is in a list *)
Definition times {A} (p : A -> bool) (l : list A) : Z := Z.of_nat (List.length (filter p l)).
(* the votes for one of the things that are voted for, and all votes *)
Definition votes (s : Z) (l : list (Z * Z)) : Z := fold_right (fun x n => (if fst x =? s then snd x else 0) + n) 0 l.
Definition all_votes (l : list (Z * Z)) : Z := fold_right (fun x n => snd x + n) 0 l.
(* each thing is as likely as its share of the votes: times among the possible results / their number = votes / all votes *)
Definition fair {A} (result : A -> Z) (outcomes : list A) (l : list (Z * Z)) : Prop :=
  outcomes <> [] /\ forall s, times (fun o => result o =? s) outcomes * all_votes l = votes s l * Z.of_nat (List.length outcomes).
