(* AtomSpec.v: what fields and packed arrays in an atom mean, in terms of the list of its 96 bits,
   position 0 first.  Independent of the functions of AtomModel.v. *)
From Coq Require Import List NArith ZArith Bool.
From Verif Require Import BitVec UTypeModel AtomModel.
Import ListNotations.
Open Scope N_scope.

(* the bits of an atom, position 0 first *)
Definition abits (a : N) : list bool := msb_bits 96 a.

(* the bits of the field of len bits at pos *)
Definition field (pos len a : N) : list bool := slice (N.to_nat pos) (N.to_nat len) (abits a).

(* a and a' agree on every bit outside the field *)
Definition same_outside (pos len a a' : N) : Prop :=
  forall i : nat, (i < N.to_nat pos \/ N.to_nat pos + N.to_nat len <= i)%nat ->
    nth i (abits a') false = nth i (abits a) false.

(* item i of an array of items of w bits, the first item first *)
Definition item (w i : N) (l : list bool) : list bool := slice (N.to_nat (i * w)) (N.to_nat w) l.

(* t is the type of an array of n items of w bits that is kept packed in one atom *)
Definition packed_array (t : utype) (w n : N) : Prop :=
  ty_bits t = Z.of_N w /\ ty_arr t = Z.of_N n /\ 1 <= w /\ 1 <= n /\ w * n <= 71 /\
  ty_enum t <> EAtom /\ ty_enum t <> EPtr /\ ty_enum t <> ENouti /\ ty_enum t <> ENav /\ ty_enum t <> EHzy /\
  ty_ct t <> CElement.

(* where a variable of the type starts: given a position inside an atom (not 0), there;
   otherwise class values are kept at bit 25 and other values at the end *)
Definition base_pos (t : utype) (w n pos : N) : N :=
  if pos =? 0 then match ty_enum t with EClass => 25 | _ => 96 - w * n end else pos.

(* the bits of the value of a scalar variable of w bits with type t kept in its own slot *)
Definition own_bits (t : utype) (w a : N) : list bool :=
  field (match ty_enum t with EClass => 25 | _ => 96 - w end) w a.

(* values whose bits are laid out as fields: packed values, class instances and atoms *)
Definition holds_fields (t : utype) : bool :=
  WritePacked (determinePackable t) || (match ty_ct t with CNotaclass => false | _ => true end)
  || (match ty_enum t with EAtom => true | _ => false end).

(* the bits of a vector of W8K bits *)
Definition bits8k (a : N) : list bool := msb_bits (N.to_nat W8K) a.
