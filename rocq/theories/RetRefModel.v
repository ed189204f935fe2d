(* RetRefModel.v: references returned by functions, in the evaluator.
   Transcribes NodeReturnStatement.cpp:318-353 (evalToStoreInto), CompilerState.cpp:6191-6247 (isLocalUnreturnableReferenceForEval),
   CallStack.cpp:227-237 (isLocalSlot, isLocalStackIndex), and of NodeBlockFunctionDefinition.cpp:361-455 and
   NodeFunctionCall.cpp:768-857 (evalToStoreInto) the way of the pointer back to the caller.
   Simplifications: those of RefModel.  A function that returns a reference is here a body that ends with the one return statement;
   the slot for the returned pointer is left out of the frame, so that the slots of parameters are one higher than they are (C82).
   The pointer to self, which may always be returned, is not among the lvalues. *)
From Coq Require Import List NArith ZArith Bool.
From Verif Require Import Base RefModel.
Import ListNotations.
Open Scope Z_scope.

(* CallStack.cpp:232-237; the frame of the function is the last on the stack *)
Definition isLocalStackIndex (fp depth i : Z) : bool := (fp <? i) && (i <? fp + depth + 1).
(* CompilerState.cpp:6191-6247: for a pointer to the stack *)
Definition isLocalUnreturnable (fp depth : Z) (p : ptr) : bool :=
  if p_abs p then isLocalStackIndex fp depth (p_slot p) else isLocalStackIndex fp depth (fp + p_slot p).
(* NodeReturnStatement.cpp:335-348: the pointer is handed on as it is *)
Definition returnRef (f : N) (fp depth : Z) (l : lval) (s : st) : outcome ptr :=
  match evalToStoreInto f fp s l with
  | None => Stopped
  | Some p => if isLocalUnreturnable fp depth p then Stopped else Done p
  end.

Section Call.
Variable prog : program.
Variable result : N -> lval.        (* what the return statement of a function returns *)
(* g(a) in a place where something is stored into: the state after it and the pointer that the caller goes on with *)
Definition callRef (k : nat) (f : N) (fp : Z) (g : N) (a : list arg) (s : st) : outcome (st * ptr) :=
  match evalArgs f fp s a with
  | None => Stopped
  | Some cs =>
    let fp' := fp + fn_depth (prog f) + 1 + Z.of_nat (List.length cs) + 2 in
    match exec prog k g fp' (fn_body (prog g)) (mkSt (frameCells fp' (fn_depth (prog g)) (putParams cs (fp' - 3) (mem s))) (autoptr s)) with
    | Done s' =>
      match returnRef g fp' (fn_depth (prog g)) (result g) s' with
      | Done p => Done (s', p)
      | Stopped => Stopped
      | NoFuel => NoFuel
      end
    | Stopped => Stopped
    | NoFuel => NoFuel
    end
  end.
(* g(a) = v;   T& r = g(a); *)
Definition setThrough (fp : Z) (p : ptr) (v : Z) (s : st) : st := mkSt (upd (mem s) (indexOf fp p) (CV v)) (autoptr s).
End Call.
