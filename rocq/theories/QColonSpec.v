(* QColonSpec.v: what is expected of c ? a : b.  Independent of QColonModel.v. *)
From Coq Require Import List NArith ZArith Bool.
From Verif Require Import BitVec UTypeModel AtomModel AtomSpec PrimSpec.
Import ListNotations.
Open Scope N_scope.

(* every number of n' bits of type e' can be written with n bits of type e *)
Definition holds_all (e : etype) (n : N) (e' : etype) (n' : N) : Prop :=
  forall z, representable e' n' z -> representable e n z.

Definition holds_both (e : etype) (m : N) (e1 : etype) (n1 : N) (e2 : etype) (n2 : N) : Prop :=
  holds_all e m e1 n1 /\ holds_all e m e2 n2.

(* the kind two different numeric types have in common: Int if one of them is Int *)
Definition common (e1 e2 : etype) : etype :=
  match e1, e2 with
  | EInt, _ | _, EInt => EInt
  | _, _ => EUnsigned
  end.

(* the widest machine word either operand needs *)
Definition machine_word (n1 n2 : N) : N := if N.max n1 n2 <=? 32 then 32 else 64.

(* how a number of a branch reads in the type of the expression: as a Bits value it is its bits *)
Definition read_as (t e : etype) : etype := match t with EBits => EBits | _ => e end.

(* a value that counts as a condition: a Bool, or one bit of Unsigned or Unary *)
Definition condition_type (e : etype) (n : N) : Prop :=
  e = EBool \/ ((e = EUnsigned \/ e = EUnary) /\ n = 1).
