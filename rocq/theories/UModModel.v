(* UModModel.v: the wrap-around counter of the standard library.
   Transcribes share/ulam/stdlib/UMod.ulam:22-73, function by function, in the numbers of StdNumModel.
   Simplifications: an object is the number in its one data member mVal; a parameter of type Self & stands for the number in it.
   The literal 1u is of type Unsigned(1), the literal 2 of type Int(3) (C52, NodeTerminal.cpp). 1u << deadbits is of type Unsigned(32)
   (Bits(32), NodeBinaryOpShiftLeft.cpp:34-42, as deadbits is Unary(16): C26), so that it is 2 to the power deadbits. *)
From Coq Require Import List NArith ZArith Bool.
From Verif Require Import Base UTypeModel AtomModel PrimModel ArithModel StdNumModel.
Import ListNotations.
Open Scope Z_scope.

Section UMod.
Variables bits deadbits : Z.

(* UMod.ulam:23 *)
Definition value (v : Z) : num := U bits v.
Definition asValue (x : num) : num := to EUnsigned bits x.
(* UMod.ulam:24-27 *)
Definition cDEAD_SPREAD : option num := do d <- binop Subtract (U 32 (2 ^ deadbits)) (U 1 1); Some (asValue d).
Definition cVALUE_MIDPOINT : option num :=
  do d <- binop Subtract (value (maxof EUnsigned bits)) (value (minof EUnsigned bits)); do h <- binop Divide d (I 3 2); Some (asValue h).
Definition cVALUE_LOWER_CUT : option num := do m <- cVALUE_MIDPOINT; do s <- cDEAD_SPREAD; do d <- binop Subtract m s; Some (asValue d).
Definition cVALUE_UPPER_CUT : option num := do m <- cVALUE_MIDPOINT; do s <- cDEAD_SPREAD; do d <- binop Add m s; Some (asValue d).

(* UMod.ulam:38-41 *)
Definition isLess (mVal u2 : Z) : option bool :=
  if mVal <? u2 then do d <- binop Subtract (value u2) (value mVal); do c <- cVALUE_LOWER_CUT; Some (n_v d <? n_v c)
  else do d <- binop Subtract (value mVal) (value u2); do c <- cVALUE_UPPER_CUT; Some (n_v d >=? n_v c).
(* UMod.ulam:42-46 *)
Definition isEqual (mVal u2 : Z) : bool := mVal =? u2.
Definition isGreater (mVal u2 : Z) : option bool := if negb (isEqual mVal u2) then do l <- isLess mVal u2; Some (negb l) else Some false.
Definition isLessEqual (mVal u2 : Z) : option bool := do g <- isGreater mVal u2; Some (negb g).
Definition isGreaterEqual (mVal u2 : Z) : option bool := do l <- isLess mVal u2; Some (negb l).
Definition isNotEqual (mVal u2 : Z) : bool := negb (isEqual mVal u2).
(* UMod.ulam:36 *)
Definition isComparable (mVal u2 : Z) : option bool := do l <- isLess mVal u2; if (l : bool) then Some true else isGreaterEqual mVal u2.
(* UMod.ulam:51-53 *)
Definition incrementBy (mVal incr : Z) : option Z :=
  do s <- binop Add (to EUnsigned 32 (value mVal)) (value incr); do r <- binop Remainder s (value (maxof EUnsigned bits)); Some (n_v (asValue r)).
(* UMod.ulam:50 *)
Definition increment (mVal : Z) : option Z := incrementBy mVal 1.
(* UMod.ulam:56-58 *)
Definition decrementBy (mVal decr : Z) : option Z := do d <- binop Subtract (value (maxof EUnsigned bits)) (value decr); incrementBy mVal (n_v (asValue d)).
(* UMod.ulam:55 *)
Definition decrement (mVal : Z) : option Z := decrementBy mVal 1.
(* UMod.ulam:47-48 *)
Definition isOneLessThan (mVal u2 : Z) : option bool := do u <- decrement u2; Some (isEqual mVal u).
Definition isOneMoreThan (mVal u2 : Z) : option bool := do u <- increment u2; Some (isEqual mVal u).
(* UMod.ulam:67-70: the counter after, and the value of the expression *)
Definition preIncr (mVal : Z) : option (Z * Z) := do v <- increment mVal; Some (v, v).
Definition postIncr (mVal : Z) : option (Z * Z) := do v <- increment mVal; Some (v, v).
Definition preDecr (mVal : Z) : option (Z * Z) := do v <- decrement mVal; Some (v, v).
Definition postDecr (mVal : Z) : option (Z * Z) := do v <- decrement mVal; Some (v, v).
End UMod.
