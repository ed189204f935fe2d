(* BurnModel.v: triggers and the simple excitable medium of the demonstrations.
   Transcribes share/ulam/demos/Burn/Trigger.ulam:10-26, SimpleBurn.ulam:12-45, 73-82 (SimpleSpark) and
   share/ulam/demos/ForkBombs/Evaporator.ulam:13-18.
   Simplifications: the sites 0 to 8 of the event window are modelled, all live, with the element itself at site 0; which neighbours they
   are is left to the symmetry (EXTERNAL). An atom of a class derived from Trigger is the state of its trigger, its counter and whatever
   else it holds; other atoms are opaque. ++ on Unsigned(6) is only used below the maximum. Colours are left out. *)
From Coq Require Import List NArith Bool.
Import ListNotations.
Open Scope N_scope.

(* ---- Trigger ---- *)
(* Trigger.ulam:14-16: the number of ones in Unary(2) *)
Definition cSAFE : N := 0.
Definition cARMED : N := cSAFE + 1.
Definition cPULLED : N := cARMED + 1.
(* Trigger.ulam:18-25 *)
Definition doSafe (s : N) : N := cSAFE.
Definition isSafe (s : N) : bool := s =? cSAFE.
Definition doArm (s : N) : N := if isSafe s then cARMED else s.
Definition isArmed (s : N) : bool := s =? cARMED.
Definition doPull (s : N) : N := if isArmed s then cPULLED else s.
Definition isPulled (s : N) : bool := s =? cPULLED.

(* ---- atoms ---- *)
Inductive atom := ATrig (state count rest : N) | AOther (kind : N).
Definition pullAtom (a : atom) : atom := match a with ATrig s c r => ATrig (doPull s) c r | AOther k => AOther k end.

(* SimpleBurn.ulam:16 *)
Definition maxCount : N := 63.
(* SimpleBurn.ulam:19-45: the state and counter of the element, and the sites 1 to 8; true if it fired *)
Definition burnBehave (s c : N) (near : list atom) : N * N * list atom * bool :=
  if c <? maxCount then (s, c + 1, near, false)
  else
    let s := doArm s in
    if negb (isPulled s) then (s, c, near, false)
    else (doSafe s, 0, map pullAtom near, true).

(* SimpleBurn.ulam:74-81: the state and counter of the SimpleBurn that a spark becomes; a new SimpleBurn is safe with counter 0 *)
Definition sparkBehave : N * N := (doPull (doArm (doSafe cSAFE)), maxCount).

(* between two events of a SimpleBurn the elements around may pull it any number of times *)
Definition pulls (n : nat) (s : N) : N := Nat.iter n doPull s.
(* a row of events, before each of which it is pulled so many times: whether it fired, each time *)
Fixpoint burns (s c : N) (ps : list nat) : list bool :=
  match ps with
  | [] => []
  | p :: r => let '(s', c', _, f) := burnBehave (pulls p s) c [] in f :: burns s' c' r
  end.

(* Evaporator.ulam:15-17: sites 0 and 1 *)
Definition evaporate (w : atom * atom) : atom * atom := (snd w, snd w).
