(* PrintfSpec.v: what a format and its arguments mean.  Independent of the loop of printf; PrimSpec.meaning says what number bits stand for. *)
From Coq Require Import List NArith ZArith Bool.
From Verif Require Import Base BitVec UTypeModel AtomSpec PrimSpec PrintfModel.
Import ListNotations.
Open Scope N_scope.

(* a format is a sequence of pieces: a byte that stands for itself, %% and conversions *)
Inductive piece := Lit (b : N) | Percent | Conv (ch : N).
Definition well_formed (x : piece) : Prop :=
  match x with Lit b => b <> 0 /\ b <> 37 | Percent => True | Conv ch => ch <> 0 /\ ch <> 37 end.
Definition spelt (x : piece) : list N := match x with Lit b => [b] | Percent => [37; 37] | Conv ch => [37; ch] end.
Definition format (l : list piece) : list N := concat (map spelt l).
(* the conversions of a format: how many arguments it takes *)
Fixpoint convs (l : list piece) : list N := match l with [] => [] | Conv c :: r => c :: convs r | _ :: r => convs r end.

(* the bits of an argument of n bits, most significant first *)
Definition bits_of (n raw : N) : list bool := msb_bits (N.to_nat n) raw.

(* what one conversion of one argument is to write *)
Inductive writes (pool : N -> option (list N)) : N -> vobj -> ev -> Prop :=
| W_hex e n r : e <> EInt -> writes pool 120 (mkObj (Some (Some (e, n))) r) (Num (meaning EBits (bits_of n r)) HEX)
| W_bin e n r : e <> EInt -> writes pool 98 (mkObj (Some (Some (e, n))) r) (Num (meaning EBits (bits_of n r)) BIN)
| W_oct e n r : e <> EInt -> writes pool 111 (mkObj (Some (Some (e, n))) r) (Num (meaning EBits (bits_of n r)) OCT)
| W_dec e n r : e <> EInt -> writes pool 100 (mkObj (Some (Some (e, n))) r) (Num (meaning EBits (bits_of n r)) DEC)
| W_ihex n r : 1 <= n -> writes pool 120 (mkObj (Some (Some (EInt, n))) r) (Num (meaning EInt (bits_of n r)) HEX)
| W_ibin n r : 1 <= n -> writes pool 98 (mkObj (Some (Some (EInt, n))) r) (Num (meaning EInt (bits_of n r)) BIN)
| W_ioct n r : 1 <= n -> writes pool 111 (mkObj (Some (Some (EInt, n))) r) (Num (meaning EInt (bits_of n r)) OCT)
| W_idec n r : 1 <= n -> writes pool 100 (mkObj (Some (Some (EInt, n))) r) (Num (meaning EInt (bits_of n r)) DEC)
| W_chr e n r : n <= 32 -> writes pool 99 (mkObj (Some (Some (e, n))) r) (Chr (Z.to_N (meaning EBits (bits_of n r))))
| W_str n r s : pool r = Some s -> writes pool 115 (mkObj (Some (Some (EString, n))) r) (Str s).

(* the whole text: the pieces in order, each conversion taking the next argument; what is left of the arguments *)
Inductive prints (pool : N -> option (list N)) : list piece -> list vobj -> list ev -> list vobj -> Prop :=
| P_end a : prints pool [] a [] a
| P_lit b l a o a' : prints pool l a o a' -> prints pool (Lit b :: l) a (Byte b :: o) a'
| P_pct l a o a' : prints pool l a o a' -> prints pool (Percent :: l) a (Byte 37 :: o) a'
| P_conv c x e l a o a' : writes pool c x e -> prints pool l a o a' -> prints pool (Conv c :: l) (x :: a) (e :: o) a'.
