(* RetRefSpec.v: what a call of a function that returns a reference stands for. *)
From Coq Require Import List NArith ZArith Bool.
From Verif Require Import Base RefModel RefSpec.
Import ListNotations.
Open Scope Z_scope.

Section Call.
Variable prog : program.
Variable result : N -> lval.
(* the place that the result of g stands for when g is done, if it is there after the call: no variable or argument of g is *)
Definition call_place (k : nat) (f : N) (fp : Z) (g : N) (a : list arg) (n : names) (m : store) : outcome (store * Z) :=
  match given fp n m a with
  | None => Stopped
  | Some xs =>
    let top := fp + fn_depth (prog f) in
    let fp' := top + 1 + Z.of_nat (List.length xs) + 2 in
    match run prog k g fp' (fn_body (prog g)) (mkN (fun _ => None) (name_params xs (-3))) (new_frame fp' (fn_depth (prog g)) (put_params xs (fp' - 3) m)) with
    | Done (n', m') =>
      match place fp' n' m' (result g) with
      | Some a => if a <=? top then Done (m', a) else Stopped
      | None => Stopped
      end
    | Stopped => Stopped
    | NoFuel => NoFuel
    end
  end.
End Call.

(* not (an item of) a parameter that is no reference *)
Fixpoint notValueParam (l : lval) : Prop := match l with LVar x => 0 < x | LItem l _ _ => notValueParam l | _ => True end.
(* no reference declared in it is bound to such a parameter *)
Fixpoint bindsNoValueParam (c : stm) : Prop :=
  match c with SSeq a b | SIf _ a b => bindsNoValueParam a /\ bindsNoValueParam b | SBind _ _ l => notValueParam l | _ => True end.
(* the result of g is an lvalue of g *)
Definition formed_result (prog : program) (sh : shape) (result : N -> lval) (g : N) : Prop :=
  exists d, formed (isvar sh g) (ispar sh g) (sh_params sh) (fn_depth (prog g)) [] (fn_body (prog g)) d /\ formedL (isvar sh g) (ispar sh g) d (result g) 1.
