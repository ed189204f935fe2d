(* What a subscript means, without the code. *)
From Coq Require Import ZArith.
Open Scope Z_scope.

(* the number n bits stand for: two's complement or plain binary *)
Definition signed_value (n d : Z) : Z := if d <? 2 ^ (n - 1) then d else d - 2 ^ n.
Definition unsigned_value (d : Z) : Z := d.

(* the items of an array of a items are 0 .. a-1 *)
Definition is_item (a v : Z) : Prop := 0 <= v < a.

(* the number the n bits of an index stand for *)
Definition index_value (signed : bool) (n d : Z) : Z := if signed then signed_value n d else unsigned_value d.
