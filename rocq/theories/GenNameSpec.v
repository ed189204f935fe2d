(* GenNameSpec.v: what a name in a generated function body may stand for. *)
From Coq Require Import List NArith.
From Verif Require Import Base.
(* the things that are named *)
Inductive thing :=
| Register (loadable : bool) (num : N)      (* a register or an array index *)
| Value (loadable : bool) (num : N)
| AutoRef (loadable : bool) (num : N)
| AtomT (num : N) | AtomStorage (num : N)
| BitVec (loadable : bool) (num : N)
| RefTmp (num : N) | RefMutTmp (num : N) | ClassTmp (num : N) | RegistryTmp (num : N)
| Label (num : N) | InitDone (num : N) | VFuncPtr (num : N)
| LocalVar (name : text) | LocalRef (name : text) | MemberOfClass (name : text) | Member (name : text) | ConstOf (name : text)
| FuncOf (name : text) (nparams : N) (types : text)
| InitOfLocal (name : text) | InitOfConst (name : text)
| This | Context.
(* what can occur: numbers of temporaries and of parameters are positive or zero s32, names are shorter than 2^32 *)
Definition ok (t : thing) : Prop :=
  match t with
  | Register _ n | Value _ n | AutoRef _ n | AtomT n | AtomStorage n | BitVec _ n | RefTmp n | RefMutTmp n | ClassTmp n | RegistryTmp n
  | Label n | InitDone n | VFuncPtr n => (n < 2 ^ 31)%N
  | LocalVar s | LocalRef s | MemberOfClass s | Member s | ConstOf s | InitOfLocal s | InitOfConst s => (N.of_nat (length s) < 2 ^ 32)%N
  | FuncOf s n _ => (N.of_nat (length s) < 2 ^ 32)%N /\ (n < 2 ^ 31)%N
  | This | Context => True
  end.
(* the temporaries *)
Definition temporary (t : thing) : bool :=
  match t with
  | Register _ _ | Value _ _ | AutoRef _ _ | AtomT _ | AtomStorage _ | BitVec _ _ | RefTmp _ | RefMutTmp _ | ClassTmp _ | RegistryTmp _ | InitDone _ => true
  | _ => false
  end.
