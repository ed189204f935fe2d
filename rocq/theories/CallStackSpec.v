(* CallStackSpec.v: code that keeps to its own variables. *)
From Coq Require Import List NArith ZArith Bool.
From Verif Require Import UTypeModel AtomModel CallStackModel.
Import ListNotations.
Open Scope N_scope.

(* slot (not 0) is one of the args parameters below the frame or of the h locals above it *)
Definition own_slot (args h : N) (slot : Z) : bool :=
  ((- Z.of_N args <=? slot) && (slot <=? Z.of_N h) && negb (slot =? 0))%Z.

(* code that is handed args values (parameters and return slots), and has h slots of its own so far, keeps to
   them, and what it calls likewise; the result is the number of its slots at the end *)
Fixpoint keeps1 (args h : N) (i : instr) {struct i} : option N :=
  match i with
  | IStore slot _ => if own_slot args h slot then Some h else None
  | IPush _ => Some (h + 1)
  | IPop n => if n <=? h then Some (h - n) else None
  | ICall a depth body =>
    if a <=? h then
      match (fix go (h : N) (l : list instr) {struct l} : option N :=
               match l with [] => Some h | x :: r => match keeps1 a h x with Some h' => go h' r | None => None end end)
            depth body with
      | Some _ => Some h
      | None => None
      end
    else None
  end.

Fixpoint keeps (args h : N) (l : list instr) : option N :=
  match l with [] => Some h | x :: r => match keeps1 args h x with Some h' => keeps args h' r | None => None end end.
