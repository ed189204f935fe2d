(* FoldSpec.v: what comparisons, bitwise operations and shifts mean.  Independent of the functions of FoldModel.v; only the
   names of the operations are taken from there. *)
From Coq Require Import List NArith ZArith Bool.
From Verif Require Import BitVec UTypeModel AtomModel AtomSpec PrimSpec FoldModel.
Import ListNotations.
Open Scope N_scope.

(* the relation an operator names *)
Definition rel (op : cmpop) (a b : Z) : Prop :=
  match op with
  | CEq => a = b
  | CNe => a <> b
  | CLt => (a < b)%Z
  | CLe => (a <= b)%Z
  | CGt => (b < a)%Z
  | CGe => (b <= a)%Z
  end.

(* the bits of a constant of n bits, most significant first, and the number it stands for as a constant of kind e *)
Definition cbits (n c : N) : list bool := msb_bits (N.to_nat n) c.
Definition cnum (e : etype) (n c : N) : Z := meaning e (cbits n c).

(* v is a Bool of one bit that is true if P holds and false if it does not *)
Definition says (v : uval) (P : Prop) : Prop :=
  scalar_of EBool 1 (v_ty v) /\ ((P /\ number EBool 1 v = 1%Z) \/ (~ P /\ number EBool 1 v = 0%Z)).

(* an Unsigned filling its word, next to an Int no larger: the upper half of its numbers has no place *)
Definition clash (e : etype) (n : N) (z : Z) (e' : etype) (n' : N) : Prop :=
  e = EUnsigned /\ e' = EInt /\ (n = 32 \/ n = 64) /\ n' <= n /\ (2 ^ (Z.of_N n - 1) <= z)%Z.

(* bit i of a list of bits, the least significant being bit 0; beyond the end there are zeros *)
Definition bit (l : list bool) (i : nat) : bool := nth i (rev l) false.

(* v is a Bits of n bits with bits f, least significant first *)
Definition bits_are (n : N) (v : uval) (f : nat -> bool) : Prop :=
  scalar_of EBits n (v_ty v) /\
  forall i, (i < N.to_nat n)%nat -> bit (own_bits (v_ty v) n (v_bits v)) i = f i.

Definition both (op : bitop) (a b : bool) : bool :=
  match op with BAnd => a && b | BOr => a || b | BXor => xorb a b end.
