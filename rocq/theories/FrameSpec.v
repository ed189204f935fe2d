(* FrameSpec.v: what the places of variables must be like. *)
From Coq Require Import String List NArith ZArith Bool.
From Verif Require Import Base FrameModel.
Import ListNotations.
Open Scope N_scope.

(* The variables declared in a statement, each with the variables that are in scope where it is declared, and the variables in
   scope after the statement.  A block's variables end with it. *)
Fixpoint declared (s : stm) (scope : list (N * N)) : list (N * N) * list ((N * N) * list (N * N)) :=
  match s with
  | SNone | SEx _ => (scope, [])
  | SDecl v n _ => ((v, n) :: scope, [((v, n), scope)])
  | SThen s next => let '(sc1, l1) := declared s scope in let '(sc2, l2) := declared next sc1 in (sc2, l1 ++ l2)
  | SBlock s => (scope, snd (declared s scope))
  | SWhile _ s => declared s scope
  | SIf _ s s' => (scope, snd (declared s scope) ++ snd (declared s' scope))
  end.
Definition declarations (s : stm) : list ((N * N) * list (N * N)) := snd (declared s []).
Definition names (s : stm) : list N := map (fun d => fst (fst d)) (declarations s).

(* the place of a variable *)
Fixpoint place_of (v : N) (l : placed) : option Z :=
  match l with [] => None | (x, z) :: r => if x =? v then Some z else place_of v r end.

(* the slots that a piece of code names, one by one *)
Fixpoint exSlots (e : ex) : N :=
  match e with
  | ELeaf => 0
  | EOne e => exSlots e
  | EPair l r => exSlots l + exSlots r
  | EChoice c l r => exSlots c + exSlots l + exSlots r
  | ECall a rtn => argSlots a + rtn + 2
  | EStorageof n e => n + exSlots e
  end
with argSlots (a : args) : N := match a with ANil => 0 | ACons e n r => exSlots e + n + argSlots r end.
Fixpoint stmSlots (s : stm) : N :=
  match s with
  | SNone => 0
  | SEx e => exSlots e
  | SDecl _ n e => n + exSlots e
  | SThen s s' => stmSlots s + stmSlots s'
  | SBlock s => stmSlots s
  | SWhile c s => exSlots c + stmSlots s
  | SIf c s s' => exSlots c + stmSlots s + stmSlots s'
  end.
(* The number of choices ( ? : ) in it *)
Fixpoint exChoices (e : ex) : N :=
  match e with
  | ELeaf => 0
  | EOne e => exChoices e
  | EPair l r => exChoices l + exChoices r
  | EChoice c l r => exChoices c + exChoices l + exChoices r + 1
  | ECall a _ => argChoices a
  | EStorageof _ e => exChoices e
  end
with argChoices (a : args) : N := match a with ANil => 0 | ACons e _ r => exChoices e + argChoices r end.
(* and in statements the number that lie before its end, blocks left out: *)
Fixpoint through (s : stm) : N :=
  match s with
  | SNone | SBlock _ => 0
  | SEx e | SDecl _ _ e => exChoices e
  | SThen s s' => through s + through s'
  | SWhile c s => exChoices c + through s
  | SIf c s s' => exChoices c + through s + through s' + 1
  end.
(* the most that lie before any place in it *)
Fixpoint peak (s : stm) : N :=
  match s with
  | SNone => 0
  | SEx e | SDecl _ _ e => exChoices e
  | SThen s s' => N.max (peak s) (through s + peak s')
  | SBlock s => peak s
  | SWhile c s => exChoices c + peak s
  | SIf c s s' => N.max (exChoices c + N.max (peak s) (peak s')) (through (SIf c s s'))
  end.

(* A function small enough: its slots, the local ones doubled once for each choice on a way to a declaration, are below 2^31. *)
Definition fits (f : func) : Prop :=
  f_rtn f + 2 + totalSlots (f_params f) + 2 ^ peak (f_body f) * stmSlots (f_body f) + 2 < 2147483648.
