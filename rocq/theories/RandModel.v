(* RandModel.v: ranges, odds and timers of the standard library.
   Transcribes share/ulam/stdlib/Random.ulam:19-45, XTimer.ulam:16-47, RXTimer.ulam:18-32 and Once.ulam:10-45.
   EXTERNAL: as in PickModel, create(n) for n > 0 (Uq_10106Random10_native.tcc:11-16) is the list of its equally likely results; create(0)
   has no result.
   Simplifications: a timer is its counter; the sum and difference of Int(32) numbers are brought into the range of Int(32), and casts
   bring a number into the range of the type (C53, C25, C74); k << t on 32 bits loses the bits above (C26). *)
From Coq Require Import List NArith ZArith Bool.
From Verif Require Import Base UTypeModel PrimModel StdNumModel PickModel.
Import ListNotations.
Open Scope Z_scope.

(* ---- Random ---- *)
(* Random.ulam:19 *)
Definition createU (max : Z) : list Z := draws max.
(* Random.ulam:20-23 *)
Definition createI (max : Z) : list Z := if max <=? 0 then [0] else createU (clamp EUnsigned 32 max).
(* Random.ulam:25-32 *)
Definition between (lo hi : Z) : list Z :=
  let '(lo, hi) := if lo >? hi then (hi, lo) else (lo, hi) in
  map (fun d => clamp EInt 32 (lo + clamp EInt 32 d)) (createI (clamp EInt 32 (clamp EInt 32 (hi - lo) + 1))).
(* Random.ulam:34-36 *)
Definition oddsOfU (thisMany outOfThisMany : Z) : list bool := map (fun d => d <? thisMany) (createU outOfThisMany).
(* Random.ulam:37-39 *)
Definition oddsOfI (thisMany outOfThisMany : Z) : list bool := map (fun d => clamp EInt 32 d <? thisMany) (createI outOfThisMany).
(* Random.ulam:41 *)
Definition oneIn (odds : Z) : list bool := oddsOfU 1 odds.

(* ---- XTimer and RXTimer ---- *)
Section Timer.
Variables bits triggerLevel k : Z.
Definition shl32 (a b : Z) : Z := (a * 2 ^ b) mod 2 ^ 32.
(* XTimer.ulam:25-35: reset, trigger, alarm, set *)
Definition tReset : Z := 0.
Definition tTrigger : Z := clamp EUnsigned bits triggerLevel.
Definition tAlarm (time : Z) : bool := time >=? triggerLevel.
Definition tMax : Z := clamp EUnsigned bits triggerLevel.
(* ++time on Unsigned(bits) *)
Definition tNext (time : Z) : Z := clamp EUnsigned bits (time + 1).
(* XTimer.ulam:42-46: what the counter may become *)
Definition tCount (time : Z) : list Z :=
  if negb (tAlarm time) then map (fun b : bool => if b then tNext time else time) (oneIn (shl32 k time)) else [time].
(* RXTimer.ulam:26-30; the difference is of type Unsigned(32) *)
Definition rCount (time : Z) : list Z :=
  if negb (tAlarm time) then map (fun b : bool => if b then tNext time else time) (oneIn (shl32 k (clamp EUnsigned 32 (clamp EUnsigned 32 (triggerLevel - 1) - time)))) else [time].
End Timer.

(* ---- OnceT ---- *)
(* Once.ulam:29-44: the latch after, and the result *)
Definition onceNew (done : bool) : bool * bool := if done then (done, false) else (true, true).
Definition onceReset (done : bool) : bool * bool := (false, done).
