(* RefSpec.v: references as the language has them: a reference is a name, in one activation of its function, for the place it was
   bound to. *)
From Coq Require Import List NArith ZArith Bool.
From Verif Require Import Base RefModel.
Import ListNotations.
Open Scope Z_scope.

(* the values by place; a place is an index into the stack *)
Definition store := Z -> Z.
Definition put (m : store) (a v : Z) : store := fun b => if b =? a then v else m b.
(* what the references of one activation stand for: the local ones by number, the parameters by slot *)
Record names := mkN { n_ref : N -> option Z; n_par : Z -> option Z }.
Definition name_ref (n : names) (r : N) (a : Z) : names := mkN (fun r' => if (r' =? r)%N then Some a else n_ref n r') (n_par n).

Section Place.
Variable fp : Z.
Variable n : names.
Variable m : store.
Fixpoint place (l : lval) : option Z :=
  match l with
  | LVar x => Some (fp + x)
  | LParam x => n_par n x
  | LRef r _ => n_ref n r
  | LItem l k e =>
    match place l, value e with
    | Some a, Some i => if (0 <=? i) && (i <? k) then Some (a + i) else None
    | _, _ => None
    end
  end
with value (e : expr) : option Z :=
  match e with
  | EConst z => Some z
  | EGet l => option_map m (place l)
  | EOp op a b => match value a, value b with Some x, Some y => Some (op x y) | _, _ => None end
  end.
(* the arguments: values and places *)
Fixpoint given (l : list arg) : option (list (Z + Z)) :=
  match l with
  | [] => Some []
  | a :: r =>
    match given r, match a with AVal e => option_map inl (value e) | ARef l => option_map inr (place l) end with
    | Some xs, Some x => Some (x :: xs)
    | _, _ => None
    end
  end.
End Place.

Fixpoint put_params (l : list (Z + Z)) (a : Z) (m : store) : store :=
  match l with [] => m | inl v :: r => put_params r (a - 1) (put m a v) | inr _ :: r => put_params r (a - 1) m end.
Fixpoint name_params (l : list (Z + Z)) (x : Z) : Z -> option Z :=
  match l with
  | [] => fun _ => None
  | inl _ :: r => name_params r (x - 1)
  | inr p :: r => fun y => if y =? x then Some p else name_params r (x - 1) y
  end.
Definition new_frame (fp depth : Z) (m : store) : store := fun a => if (fp <? a) && (a <=? fp + depth) then 0 else m a.

Section Run.
Variable prog : program.
(* a statement in an activation: the values after it, and what the references stand for *)
Fixpoint run (k : nat) (f : N) (fp : Z) (c : stm) (n : names) (m : store) : outcome (names * store) :=
  match k with
  | O => NoFuel
  | S k =>
    match c with
    | SSkip => Done (n, m)
    | SSeq a b => match run k f fp a n m with Done (n', m') => run k f fp b n' m' | o => o end
    | SBind r _ l => match place fp n m l with Some a => Done (name_ref n r a, m) | None => Stopped end
    | SSet l e => match place fp n m l, value fp n m e with Some a, Some v => Done (n, put m a v) | _, _ => Stopped end
    | SCall g a =>
      match given fp n m a with
      | None => Stopped
      | Some xs =>
        let fp' := fp + fn_depth (prog f) + 1 + Z.of_nat (List.length xs) + 2 in
        match run k g fp' (fn_body (prog g)) (mkN (fun _ => None) (name_params xs (-3))) (new_frame fp' (fn_depth (prog g)) (put_params xs (fp' - 3) m)) with
        | Done (_, m') => Done (n, m')          (* the references of the caller stand for what they stood for *)
        | Stopped => Stopped
        | NoFuel => NoFuel
        end
      end
    | SIf e a b => match value fp n m e with None => Stopped | Some v => run k f fp (if v =? 0 then b else a) n m end
    end
  end.
End Run.

(* ---- programs that are meant: the names in them are declared ---- *)
(* the variables of a function: slots of values; its references: number and slot.  v: a slot of a value; p: a parameter that is a reference *)
Section Formed.
Variable isvar : Z -> Prop.                  (* the slots of its variables and parameters that hold values *)
Variable ispar : Z -> Prop.                  (* the slots of its parameters that hold references *)
Variable prog_params : N -> list bool.       (* of every function: which parameters are references *)
Variable depth : Z.
(* an lvalue whose place has n more items after it *)
Fixpoint formedL (bound : list N) (l : lval) (n : Z) : Prop :=
  match l with
  | LVar x => forall i, 0 <= i < n -> isvar (x + i)
  | LParam x => ispar x /\ n = 1
  | LRef r _ => In r bound /\ n = 1
  | LItem l k e => n = 1 /\ (exists x, l = LVar x) /\ formedL bound l k /\ formedE bound e
  end
with formedE (bound : list N) (e : expr) : Prop :=
  match e with
  | EConst _ => True
  | EGet l => formedL bound l 1
  | EOp _ a b => formedE bound a /\ formedE bound b
  end.
Definition formedA (bound : list N) (a : arg) (r : bool) : Prop := match a, r with AVal e, false => formedE bound e | ARef l, true => formedL bound l 1 | _, _ => False end.
(* with the references bound before and after *)
Inductive formed : list N -> stm -> list N -> Prop :=
| f_skip b : formed b SSkip b
| f_seq b c d s s' : formed b s c -> formed c s' d -> formed b (SSeq s s') d
| f_bind b r x l : formedL b l 1 -> 0 < x <= depth -> ~ isvar x -> formed b (SBind r x l) (r :: b)
| f_set b l e : formedL b l 1 -> formedE b e -> formed b (SSet l e) b
| f_call b g a : Forall2 (formedA b) a (prog_params g) -> formed b (SCall g a) b
| f_if b c d e s s' : formedE b e -> formed b s c -> formed b s' d -> formed b (SIf e s s') b.
End Formed.

(* of every function: the slots of its variables, and which of its parameters are references *)
Record shape := mkShape { sh_vars : N -> list Z; sh_params : N -> list bool }.
Definition isvar (sh : shape) (f : N) (x : Z) : Prop := In x (sh_vars sh f) \/ exists i, nth_error (sh_params sh f) i = Some false /\ x = -3 - Z.of_nat i.
Definition ispar (sh : shape) (f : N) (x : Z) : Prop := exists i, nth_error (sh_params sh f) i = Some true /\ x = -3 - Z.of_nat i.
Definition formed_fn (prog : program) (sh : shape) (f : N) : Prop :=
  0 <= fn_depth (prog f) /\ (forall x, In x (sh_vars sh f) -> 0 < x <= fn_depth (prog f)) /\
  exists d, formed (isvar sh f) (ispar sh f) (sh_params sh) (fn_depth (prog f)) [] (fn_body (prog f)) d.
Definition formed_prog (prog : program) (sh : shape) : Prop := forall f, formed_fn prog sh f.

(* the calls in a statement *)
Fixpoint callees (c : stm) : list N :=
  match c with SSeq a b | SIf _ a b => callees a ++ callees b | SCall g _ => [g] | _ => [] end.
Fixpoint binds (c : stm) : Prop :=
  match c with SSeq a b | SIf _ a b => binds a \/ binds b | SBind _ _ _ => True | _ => False end.
(* f calls g, perhaps by way of others *)
Inductive leads (prog : program) : N -> N -> Prop :=
| l_here f : leads prog f f
| l_call f g h : In g (callees (fn_body (prog f))) -> leads prog g h -> leads prog f h.
(* no function that declares references comes to be called while it is active *)
Definition once_active (prog : program) : Prop :=
  forall f g, binds (fn_body (prog f)) -> In g (callees (fn_body (prog f))) -> ~ leads prog g f.
