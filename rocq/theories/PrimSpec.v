(* PrimSpec.v: what the bits of a value of a primitive type mean, most significant bit first.
   Independent of the functions of PrimModel.v. *)
From Coq Require Import List NArith ZArith Bool.
From Verif Require Import BitVec UTypeModel AtomModel AtomSpec.
Import ListNotations.
Open Scope Z_scope.

(* two's complement: the first bit counts negatively *)
Definition twos (l : list bool) : Z :=
  match l with
  | [] => 0
  | b :: r => Z.of_N (bval r) - (if b then 2 ^ Z.of_nat (length r) else 0)
  end.

(* how many bits are set *)
Definition count (l : list bool) : Z := Z.of_nat (count_occ bool_dec l true).

(* the number a value of a type stands for; truth is 1; for Bits the bits read as a number *)
Definition meaning (e : etype) (l : list bool) : Z :=
  match e with
  | EInt => twos l
  | EUnary => count l
  | EBool => if Z.of_nat (length l) <? 2 * count l then 1 else 0
  | _ => Z.of_N (bval l)
  end.

Definition arith (e : etype) : Prop := e = EInt \/ e = EUnsigned \/ e = EUnary.
Definition primitive (e : etype) : Prop := arith e \/ e = EBool \/ e = EBits.

(* a scalar variable of n bits of one of those types *)
Definition scalar_of (e : etype) (n : N) (t : utype) : Prop :=
  ty_enum t = e /\ ty_bits t = Z.of_N n /\ ty_arr t = -1 /\ ty_ref t = AltNot /\ (1 <= n <= 64)%N.

(* the number held by a value of n bits *)
Definition number (e : etype) (n : N) (v : uval) : Z := meaning e (own_bits (v_ty v) n (v_bits v)).

(* z can be written with n bits of type e *)
Definition representable (e : etype) (n : N) (z : Z) : Prop :=
  exists l, length l = N.to_nat n /\ meaning e l = z.
