(* RetValSpec.v: bodies that end by a return statement whichever way they are gone through. *)
From Coq Require Import List NArith ZArith Bool.
From Verif Require Import Base LoopModel LoopSpec.
Import ListNotations.

(* no way through s but by a return *)
Fixpoint always (s : stmt) : bool :=
  match s with
  | SReturn => true
  | SSeq a b => always a || (placed false false a && always b)
  | SIf _ a b => always a && always b
  | SSwitch _ cs => alwaysCases cs
  | _ => false
  end
with alwaysCases (cs : cases) : bool :=
  match cs with CNil => false | CDefault s => always s | CCase _ _ s r => always s && alwaysCases r end.

(* a return statement stands in s *)
Inductive mentions : stmt -> Prop :=
| m_return : mentions SReturn
| m_first a b : mentions a -> mentions (SSeq a b)
| m_second a b : mentions b -> mentions (SSeq a b)
| m_then c a b : mentions a -> mentions (SIf c a b)
| m_else c a b : mentions b -> mentions (SIf c a b)
| m_while c a : mentions a -> mentions (SWhile c a)
| m_for c a x : mentions a -> mentions (SFor c a x)
| m_switch w cs : mentionsC cs -> mentions (SSwitch w cs)
with mentionsC : cases -> Prop :=
| m_default s : mentions s -> mentionsC (CDefault s)
| m_case b bs s r : mentions s -> mentionsC (CCase b bs s r)
| m_rest b bs s r : mentionsC r -> mentionsC (CCase b bs s r).
