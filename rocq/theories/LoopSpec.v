(** What break, continue and return mean, said directly on source statements: no labels,
    no stack, no numbers.  *)
From Coq Require Import String List NArith ZArith Lia Bool.
From Verif Require Import Base LoopModel.
Import ListNotations.
Open Scope N_scope.

(** How a statement ends.  *)
Inductive outcome := Done | Broke | Continued | Returned.

Section Sem.

Variable S : Type.
Variable act : N -> S -> S.
Variable cond : N -> S -> bool * S.

(** A loop with at most [f] tests of its condition: break ends it, continue and the normal
    end go on with the step and the next turn, return leaves.  *)
Fixpoint turns (f : nat) (b : N) (body : S -> option (outcome * S)) (step : S -> S) (t : S)
  : option (outcome * S) :=
  match f with
  | O => None
  | Datatypes.S g =>
    let (v, t1) := cond b t in
    if v then
      match body t1 with
      | None => None
      | Some (Broke, t2) => Some (Done, t2)
      | Some (Returned, t2) => Some (Returned, t2)
      | Some (_, t2) => turns g b body step (step t2)
      end
    else Some (Done, t1)
  end.

(** The first case one of whose labels holds; labels are tried in order.  *)
Fixpoint any_label (b : N) (bs : list N) (t : S) : bool * S :=
  let (v, t1) := cond b t in
  if v then (true, t1)
  else match bs with [] => (false, t1) | b2 :: r => any_label b2 r t1 end.

(** The meaning of a statement; [None] when some loop tests its condition more than [f]
    times.  A switch runs the body of its first matching case; break ends the switch.  *)
Fixpoint meaning (f : nat) (s : stmt) (t : S) : option (outcome * S) :=
  match s with
  | SSkip => Some (Done, t)
  | SAct a => Some (Done, act a t)
  | SSeq s1 s2 =>
    match meaning f s1 t with
    | Some (Done, t1) => meaning f s2 t1
    | r => r
    end
  | SIf b s1 s2 => let (v, t1) := cond b t in if v then meaning f s1 t1 else meaning f s2 t1
  | SWhile b s => turns f b (meaning f s) (fun t => t) t
  | SFor b s a => turns f b (meaning f s) (act a) t
  | SSwitch w cs =>
    match meaning_cases f cs (act w t) with
    | Some (Broke, t1) => Some (Done, t1)
    | r => r
    end
  | SBreak => Some (Broke, t)
  | SContinue => Some (Continued, t)
  | SReturn => Some (Returned, t)
  end
with meaning_cases (f : nat) (cs : cases) (t : S) : option (outcome * S) :=
  match cs with
  | CNil => Some (Done, t)
  | CDefault s => meaning f s t
  | CCase b bs s r =>
    let (v, t1) := any_label b bs t in
    if v then meaning f s t1 else meaning_cases f r t1
  end.

End Sem.

(** Whether break and continue statements stand where they may: [lp] inside some loop,
    [sw] inside some loop or switch.  *)
Fixpoint placed (lp sw : bool) (s : stmt) : bool :=
  match s with
  | SSeq s1 s2 | SIf _ s1 s2 => placed lp sw s1 && placed lp sw s2
  | SWhile _ s | SFor _ s _ => placed true true s
  | SSwitch _ cs => placed_cases lp cs
  | SBreak => sw
  | SContinue => lp
  | _ => true
  end
with placed_cases (lp : bool) (cs : cases) : bool :=
  match cs with
  | CNil => true
  | CDefault s => placed lp true s
  | CCase _ _ s r => placed lp true s && placed_cases lp r
  end.

(** A break of the enclosing loop or switch occurs in [s].  *)
Fixpoint breaks_out (s : stmt) : bool :=
  match s with
  | SSeq s1 s2 | SIf _ s1 s2 => breaks_out s1 || breaks_out s2
  | SBreak => true
  | _ => false
  end.

(** The statements on which the evaluator is faithful: no continue whose nearest loop is a
    for loop ([fr]), and no statement after one that may break out of a switch ([sw]: the
    nearest enclosing construct is a switch).  *)
Fixpoint plain (sw fr : bool) (s : stmt) : bool :=
  match s with
  | SSeq s1 s2 => plain sw fr s1 && plain sw fr s2 && negb (sw && breaks_out s1)
  | SIf _ s1 s2 => plain sw fr s1 && plain sw fr s2
  | SWhile _ s => plain false false s
  | SFor _ s _ => plain false true s
  | SSwitch _ cs => plain_cases fr cs
  | SContinue => negb fr
  | _ => true
  end
with plain_cases (fr : bool) (cs : cases) : bool :=
  match cs with
  | CNil => true
  | CDefault s => plain true fr s
  | CCase _ _ s r => plain true fr s && plain_cases fr r
  end.
