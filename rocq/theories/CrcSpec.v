(* CrcSpec.v: the cyclic redundancy check, one bit at a time. *)
From Coq Require Import List NArith Bool.
Import ListNotations.
Open Scope N_scope.

(* X^32+X^26+X^23+X^22+X^16+X^12+X^11+X^10+X^8+X^7+X^5+X^4+X^2+X+1, highest term in the lowest bit, without X^32: the coefficient
   of X^i is bit 31 - i *)
Definition poly : N := fold_right (fun i n => N.setbit n (31 - i)) 0 [26; 23; 22; 16; 12; 11; 10; 8; 7; 5; 4; 2; 1; 0].
(* one step of the register *)
Definition shift1 (c : N) : N := if N.odd c then N.lxor (N.div2 c) poly else N.div2 c.
(* the register after a byte, and after bytes *)
Definition step (c b : N) : N := Nat.iter 8 shift1 (N.lxor c b).
Definition crc (c : N) (bs : list N) : N := fold_left step bs c.

(* the byte whose eight digits are the bits of a storage from pos on; bits at len and beyond count as 0 *)
Definition bit_at (st : N -> bool) (len i : N) : bool := (i <? len) && st i.
Definition byte_at (st : N -> bool) (len pos : N) : N :=
  fold_left (fun n k => 2 * n + N.b2n (bit_at st len (pos + k))) [0; 1; 2; 3; 4; 5; 6; 7] 0.
Definition bytes (st : N -> bool) (len : N) : list N := map (fun k => byte_at st len (8 * N.of_nat k)) (seq 0 (N.to_nat ((len + 7) / 8))).
