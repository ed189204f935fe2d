(* TelomereModel.v: the growth of a colony by Telomere.
   Transcribes share/ulam/misc/Telomere.ulam:15-42.  Simplifications: a colony is the list of the ages of its atoms; the
   other atoms and where the atoms are is left out: dup is called for any atom of the colony, with a destination that is
   live and empty, or is not.  Ages are Unsigned(width), and += saturates (C76). *)
From Coq Require Import List ZArith Bool.
From Verif Require Import Base UTypeModel AtomModel PrimModel ArithModel StdNumModel.
Import ListNotations.
Open Scope Z_scope.

(* Telomere.ulam:31-39: the ages after the call (of self, and of the copy if there is one), and what is returned *)
Definition dup (width : Z) (age : Z) (free : bool) : option (list Z * bool) :=
  if age <? maxof EUnsigned width then
    if negb free then Some ([age], false)
    else do s <- binop Add (U width age) (U 1 1);
         let age' := n_v (to EUnsigned width s) in Some ([age'; age'], true)
  else Some ([age], true).

(* one call: of the atom at place i of the colony *)
Definition call (width : Z) (colony : list Z) (i : nat) (free : bool) : option (list Z) :=
  match nth_error colony i with
  | None => None
  | Some a => do r <- dup width a free; Some (firstn i colony ++ fst r ++ skipn (S i) colony)
  end.
(* any calls *)
Fixpoint calls (width : Z) (colony : list Z) (l : list (nat * bool)) : option (list Z) :=
  match l with [] => Some colony | (i, f) :: r => do c <- call width colony i f; calls width c r end.
