(* EqualOpSpec.v: what the assignments that compute are to do.  Independent of the functions of EqualOpModel.v. *)
From Coq Require Import List NArith ZArith Bool.
From Verif Require Import BitVec UTypeModel AtomModel AtomSpec PrimSpec ArithModel FoldModel FoldSpec EqualOpModel.
Import ListNotations.
Open Scope N_scope.

(* p points to a place of n bits, of type t, in an atom *)
Definition points (p : uptr) (t : utype) (n : N) : Prop :=
  p_ty p = t /\ p_pack p = PACKEDLOADABLE /\ p_len p = n /\ p_pos p + n <= 96.

(* the bits in that place and the number they stand for *)
Definition placed (p : uptr) (n : N) (cell : uval) : list bool := field (p_pos p) n (v_bits cell).
Definition content (e : etype) (p : uptr) (n : N) (cell : uval) : Z := meaning e (placed p n cell).

(* the right side has a value of kind e' in n' bits, which are l *)
Definition rhs_is (r : rhs) (e' : etype) (n' : N) (l : list bool) : Prop :=
  match r with
  | RLit t c => scalar_of e' n' t /\ l = cbits n' c
  | RVal v => scalar_of e' n' (v_ty v) /\ l = own_bits (v_ty v) n' (v_bits v)
  end.

(* what the exact result is; division rounds toward zero and the remainder goes with it *)
Definition exactly (op : arithop) (a b q : Z) : Prop :=
  match op with
  | Add => q = a + b
  | Subtract => q + b = a
  | Multiply => q = a * b
  | Divide => Z.abs (q * b) <= Z.abs a < Z.abs (q * b) + Z.abs b /\ (q = 0 \/ Z.sgn q = Z.sgn a * Z.sgn b)
  | Remainder => exists d, a = d * b + q /\ Z.abs q < Z.abs b /\ (q = 0 \/ Z.sgn q = Z.sgn a)
  end%Z.

(* the right side can be stored without loss: a literal if its number can, an expression if every number of its type can *)
Definition storable (r : rhs) (e : etype) (n : N) (e' : etype) (n' : N) : Prop :=
  match r with
  | RLit _ c => representable e n (cnum e' n' c)
  | RVal _ => forall l, length l = N.to_nat n' -> representable e n (meaning e' l)
  end.

(* only the place changes *)
Definition elsewhere (p : uptr) (n : N) (cur cell : uval) : Prop :=
  v_ty cell = v_ty cur /\ same_outside (p_pos p) n (v_bits cur) (v_bits cell).

(* a value holds nothing beside its own bits *)
Definition clean (r : rhs) (n' : N) : Prop := match r with RLit _ _ => True | RVal v => v_bits v < 2 ^ n' end.

(* bit i of what a shift by d places is to give *)
Definition moved (op : shiftop) (d : N) (l : list bool) (i : nat) : bool :=
  match op with
  | ShLeft => if (i <? N.to_nat d)%nat then false else bit l (i - N.to_nat d)
  | ShRight => bit l (i + N.to_nat d)
  end.
