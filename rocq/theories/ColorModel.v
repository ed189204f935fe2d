(* ColorModel.v: colours in the standard library.
   Transcribes share/ulam/stdlib/ColorUtils.ulam:4-90 with the numbers of StdNumModel; literals have the width that holds them.
   Simplifications: Bits are taken as their number, 0 to 2^32 - 1 or 0 to 255, so that & and >> are those of integers; the loops over i = 1, 2, 3
   are written out; the commented part of modify is left out. *)
From Coq Require Import List NArith ZArith Bool.
From Verif Require Import Base UTypeModel AtomModel PrimModel ArithModel StdNumModel.
Import ListNotations.
Open Scope Z_scope.

(* ColorUtils.ulam:4-6: Unsigned(8)[4] *)
Record argb := mkA { ch0 : Z; ch1 : Z; ch2 : Z; ch3 : Z }.
Definition Chan (v : Z) : num := U 8 v.
Definition toChan (x : num) : Z := n_v (to EUnsigned 8 x).

(* ColorUtils.ulam:16-23 *)
Definition colorBits (hex : Z) : argb :=
  let part s := toChan (U 32 (Z.land (Z.shiftr hex s) 255)) in mkA (part 24) (part 16) (part 8) (part 0).
(* ColorUtils.ulam:8-14: (Bits) keeps the bits *)
Definition colorInt (hex : Z) : argb := colorBits (hex mod 2 ^ 32).
Definition colorUnsigned (hex : Z) : argb := colorBits hex.
(* ColorUtils.ulam:24-31 *)
Definition colorRGB (red green blue : Z) : argb :=
  let part b := toChan (U 8 (Z.land b 255)) in mkA (toChan (U 8 255)) (part red) (part green) (part blue).

(* ColorUtils.ulam:51-60 *)
Definition mix (this that : Z) (percentOfThis percentOfThat : num) : option Z :=
  do a <- binop Multiply (Chan this) percentOfThis;
  do b <- binop Multiply (Chan that) percentOfThat;
  do s <- binop Add a b;
  do q <- binop Divide s (U 7 100);
  Some (toChan (to EUnsigned 32 q)).
Definition between (this that : argb) (percentOfThis : Z) : option argb :=
  let p := if percentOfThis >? 100 then 100 else percentOfThis in
  do r <- binop Subtract (to EUnsigned 32 (U 7 100)) (U 32 p);
  do c1 <- mix (ch1 this) (ch1 that) (U 32 p) (to EUnsigned 32 r);
  do c2 <- mix (ch2 this) (ch2 that) (U 32 p) (to EUnsigned 32 r);
  do c3 <- mix (ch3 this) (ch3 that) (U 32 p) (to EUnsigned 32 r);
  Some (mkA (ch0 this) c1 c2 c3).
(* ColorUtils.ulam:33-44 *)
Definition modify (this : argb) (percent : Z) : option argb := between (colorRGB 255 255 255) this percent.

(* ColorUtils.ulam:70-80 *)
Definition brighten (c : Z) : option Z :=
  let c := if c <? 3 then 3 else c in
  do m <- binop Multiply (U 7 100) (Chan c);
  do q <- binop Divide m (U 7 70);
  Some (toChan q).
Definition brighter (than : argb) : option argb :=
  if (ch1 than =? 0) && (ch2 than =? 0) && (ch3 than =? 0) then Some (colorUnsigned 197379)
  else
    do c1 <- brighten (ch1 than);
    do c2 <- brighten (ch2 than);
    do c3 <- brighten (ch3 than);
    Some (mkA 255 c1 c2 c3).
(* ColorUtils.ulam:85-90 *)
Definition dim (c : Z) : option Z :=
  do m <- binop Multiply (U 7 70) (Chan c);
  do q <- binop Divide m (U 7 100);
  Some (toChan q).
Definition dimmer (than : argb) : option argb :=
  do c1 <- dim (ch1 than);
  do c2 <- dim (ch2 than);
  do c3 <- dim (ch3 than);
  Some (mkA 255 c1 c2 c3).
