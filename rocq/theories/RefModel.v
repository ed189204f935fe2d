(* RefModel.v: references and what they stand for, in the evaluator.
   Transcribes the parts of NodeVarRef::eval, NodeIdent::makeUlamValuePtr, evalToStoreInto and eval, CompilerState::getPtrTarget,
   CallStack::assignUlamValue and NodeFunctionCall::evalArgumentsInReverseOrder that deal with references to variables of one slot.
   Simplifications: every value takes one slot and is a number; arrays are unpacked, an item's slot is that of the array plus the
   index, and an index outside the array ends the run (what happens then: C51, C66); the stack is a function from its indices;
   calls are statements, their arguments make no calls; functions return nothing, so that of parameter i the slot is -3-i (C82);
   a reference has the type of what it is bound to, so that the pointer kept with its symbol is the one used. *)
From Coq Require Import List NArith ZArith Bool.
From Verif Require Import Base.
Import ListNotations.
Open Scope Z_scope.

(* a pointer: PtrAbs or Ptr, and its slot index *)
Record ptr := mkP { p_abs : bool; p_slot : Z }.
Inductive cell := CV (z : Z) | CP (p : ptr).

(* what can be stored into.  LVar: a variable or a parameter that is no reference; LParam: a parameter that is one; LRef: a local
   reference, with the number of its symbol and its slot; LItem: an item of an array of n items. *)
Inductive lval := LVar (slot : Z) | LParam (slot : Z) | LRef (r : N) (slot : Z) | LItem (l : lval) (n : Z) (e : expr)
with expr := EConst (z : Z) | EGet (l : lval) | EOp (op : Z -> Z -> Z) (a b : expr).
Inductive arg := AVal (e : expr) | ARef (l : lval).
Inductive stm :=
| SSkip
| SSeq (s s' : stm)
| SBind (r : N) (slot : Z) (l : lval)          (* T& r = l; *)
| SSet (l : lval) (e : expr)                   (* l = e; *)
| SCall (f : N) (a : list arg)
| SIf (e : expr) (s s' : stm).
(* a function: the slots of its frame, and its body *)
Record fn := mkFn { fn_depth : Z; fn_body : stm }.
Definition program := N -> fn.

(* the stack, and the pointers that the symbols of references hold: SymbolVariableStack.cpp:58-67.  A symbol belongs to a function. *)
Record st := mkSt { mem : Z -> cell; autoptr : N -> N -> option ptr }.
Definition upd (m : Z -> cell) (a : Z) (c : cell) : Z -> cell := fun b => if b =? a then c else m b.
Definition setauto (t : N -> N -> option ptr) (f r : N) (p : ptr) : N -> N -> option ptr :=
  fun f' r' => if (f' =? f)%N && (r' =? r)%N then Some p else t f' r'.

(* CallStack.cpp:69-72 and the two ways of loading, CompilerState.cpp:6147-6153 *)
Definition indexOf (fp : Z) (p : ptr) : Z := if p_abs p then p_slot p else fp + p_slot p.

(* CompilerState.cpp:6118-6190 getPtrTarget, no more than PTR_LOOP_MAX+1 times around: the value, or else the pointer come to *)
Fixpoint chase (k : nat) (fp : Z) (m : Z -> cell) (p : ptr) : option Z :=
  match k with
  | O => None
  | S k => match m (indexOf fp p) with CV z => Some z | CP q => chase k fp m q end
  end.
Definition PTR_LOOP_MAX : nat := 5.

Section Eval.
Variable f : N.       (* the function being evaluated *)
Variable fp : Z.      (* its frame pointer *)
Variable s : st.
(* NodeIdent.cpp:976-1145, 939-952: the pointer; NodeSquareBracket::evalToStoreInto *)
Fixpoint evalToStoreInto (l : lval) : option ptr :=
  match l with
  | LVar x => Some (mkP false x)
  | LParam x => Some (match mem s (fp + x) with CP p => p | CV _ => mkP false x end)
  | LRef r x =>
    Some (match autoptr s f r with
          | Some p => p
          | None => match mem s (fp + x) with CP p => p | CV _ => mkP false x end
          end)
  | LItem l n e =>
    match evalToStoreInto l, eval e with
    | Some p, Some i => if (0 <=? i) && (i <? n) then Some (mkP (p_abs p) (p_slot p + i)) else None
    | _, _ => None
    end
  end
(* NodeIdent.cpp:784-895 *)
with eval (e : expr) : option Z :=
  match e with
  | EConst z => Some z
  | EGet l => match evalToStoreInto l with Some p => chase (S PTR_LOOP_MAX) fp (mem s) p | None => None end
  | EOp op a b => match eval a, eval b with Some x, Some y => Some (op x y) | _, _ => None end
  end.

(* NodeFunctionCall.cpp:861-925: a reference is passed as an absolute pointer *)
Definition evalArg (a : arg) : option cell :=
  match a with
  | AVal e => option_map CV (eval e)
  | ARef l => option_map (fun p => CP (mkP true (indexOf fp p))) (evalToStoreInto l)
  end.
Fixpoint evalArgs (l : list arg) : option (list cell) :=
  match l with
  | [] => Some []
  | a :: r => match evalArgs r, evalArg a with Some cs, Some c => Some (c :: cs) | _, _ => None end
  end.
End Eval.

(* the cells of the parameters of a function with frame pointer fp: parameter i at slot -3-i *)
Fixpoint putParams (l : list cell) (a : Z) (m : Z -> cell) : Z -> cell :=
  match l with [] => m | c :: r => putParams r (a - 1) (upd m a c) end.
(* CallStack.cpp:27-38 addFrameSlots: the slots of the new frame are 0; those of self, uc and the link hold no variable *)
Definition frameCells (fp depth : Z) (m : Z -> cell) : Z -> cell := fun a => if (fp <? a) && (a <=? fp + depth) then CV 0 else m a.

Inductive outcome (A : Type) := Done (x : A) | Stopped | NoFuel.   (* Stopped: the evaluator reports an error *)
Arguments Done {A} x. Arguments Stopped {A}. Arguments NoFuel {A}.

Section Run.
Variable prog : program.
Fixpoint exec (k : nat) (f : N) (fp : Z) (c : stm) (s : st) : outcome st :=
  match k with
  | O => NoFuel
  | S k =>
    match c with
    | SSkip => Done s
    | SSeq a b => match exec k f fp a s with Done s' => exec k f fp b s' | o => o end
    | SBind r slot l =>                                                          (* NodeVarRef.cpp:343-385 *)
      match evalToStoreInto f fp s l with
      | Some p => Done (mkSt (upd (mem s) (fp + slot) (CP p)) (setauto (autoptr s) f r p))
      | None => Stopped
      end
    | SSet l e =>                                                                (* NodeBinaryOpEqual.cpp: eval; CallStack.cpp assignUlamValue *)
      match evalToStoreInto f fp s l, eval f fp s e with
      | Some p, Some v => Done (mkSt (upd (mem s) (indexOf fp p) (CV v)) (autoptr s))
      | _, _ => Stopped
      end
    | SCall g a =>
      match evalArgs f fp s a with
      | None => Stopped
      | Some cs =>
        let fp' := fp + fn_depth (prog f) + 1 + Z.of_nat (List.length cs) + 2 in
        exec k g fp' (fn_body (prog g)) (mkSt (frameCells fp' (fn_depth (prog g)) (putParams cs (fp' - 3) (mem s))) (autoptr s))
      end
    | SIf e a b =>
      match eval f fp s e with
      | None => Stopped
      | Some v => exec k f fp (if v =? 0 then b else a) s
      end
    end
  end.
End Run.
