(* DeclSizeSpec.v: what the size of a declared type is to be. *)
From Coq Require Import List NArith ZArith Lia Bool.
From Verif Require Import UTypeModel TypeTableModel DeclSizeModel.
Import ListNotations.
Open Scope Z_scope.

(* the number of ones among the lowest n bits *)
Fixpoint ones (n : nat) (d : Z) : Z :=
  match n with O => 0 | S k => (if Z.testbit d (Z.of_nat k) then 1 else 0) + ones k d end.

(* the number that a constant stands for *)
Definition value (c : cst) : Z :=
  match c_enum c with
  | EInt => if c_data c <? 2 ^ (c_bits c - 1) then c_data c else c_data c - 2 ^ c_bits c
  | EUnary => ones (Z.to_nat (c_bits c)) (c_data c)
  | EBool => if c_bits c <? 2 * ones (Z.to_nat (c_bits c)) (c_data c) then 1 else 0
  | _ => c_data c
  end.

(* a number of at most w bits *)
Definition number (w : Z) (c : cst) : Prop :=
  1 <= c_bits c <= w /\ 0 <= c_data c < 2 ^ c_bits c /\
  match c_enum c with EInt | EUnsigned | EUnary | EBool | EBits => True | _ => False end.

(* what the conversions of the library to a C integer of 32 bits are to do: a value that fits is kept; one that is too
   great is cut to the greatest, or goes around *)
Definition cs32_ok (cs32 : etype -> Z -> Z -> Z) : Prop := forall c, number 32 c ->
  let r := cs32 (c_enum c) (c_bits c) (c_data c) in
  if value c <=? 2147483647 then r = value c else r = 2147483647 \/ r = value c - 4294967296.

(* the greatest size of each type *)
Definition limit (e : etype) : Z := match e with EBits => 8192 | _ => 64 end.
(* the types whose size can be chosen *)
Definition sizable (e : etype) : Prop := In e [EInt; EUnsigned; EBool; EUnary; EBits].
(* a Bool has an odd number of bits *)
Definition oddFor (e : etype) (n : Z) : Z := match e with EBool => if Z.even n then n - 1 else n | _ => n end.

(* what a data member may be.  Only a transient may hold elements and transients; outside of transients a number has at
   most 64 bits, and an array of quarks fits an element; a quark has at most 64 bits everywhere *)
Definition member_ok (this dm : ulamclass) (scalar numeric : bool) (len : Z) : Prop :=
  (this = UcTransient \/
     (dm <> UcElement /\ dm <> UcTransient /\ (dm = UcQuark -> scalar = false -> len <= 71) /\
      (dm = UcNotaclass -> scalar = true -> numeric = true -> len <= 64))) /\
  (dm = UcQuark -> scalar = true -> len <= 64).
