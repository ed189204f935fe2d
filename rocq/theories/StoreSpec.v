(** What "a constant is never changed" means, said of the source text alone.

    An expression stands for (a part of) something with a name: a variable,
    or a named constant.  The name is constant when it is a named constant,
    a constant parameter, or a constant reference.  An expression may be
    changed only when nothing constant is among what it may stand for. *)

From Coq Require Import String List NArith ZArith Lia Bool.
From Verif Require Import StoreModel.
Import ListNotations.
Open Scope N_scope.

Inductive target := TgVar (v : svar) | TgConst (name : N).

Definition constantName (x : target) : Prop :=
  match x with
  | TgVar v => v_constparam v = true \/ ty_alt (v_ty v) = AConst
  | TgConst _ => True
  end.

(** [standsFor e x]: storing into [e] may change [x]. *)
Inductive standsFor : raw -> target -> Prop :=
| SFVar v : standsFor (RVar v) (TgVar v)
| SFConst n t s : standsFor (RConst n t s) (TgConst n)
| SFCast t e x : (ty_alt t = ARef \/ ty_alt t = AConst) ->
    standsFor e x -> standsFor (RCast t e) x
| SFTrue o c a b x : standsFor a x -> standsFor (RQuest o c a b) x
| SFFalse o c a b x : standsFor b x -> standsFor (RQuest o c a b) x
| SFMember e m t x : standsFor e x -> standsFor (RMember e m t) x
| SFIndex e el x : standsFor e x -> standsFor (RIndex e el) x
| SFBase e t x : standsFor e x -> standsFor (RBase e t) x
| SFAtomof v a : standsFor (RAtomof v a) (TgVar v)
| SFAssign e r x : standsFor e x -> standsFor (RAssign e r) x.

(** The expressions that only select: a name, and members, items and base
    classes of it. *)
Fixpoint selection (e : raw) : bool :=
  match e with
  | RVar _ | RConst _ _ _ => true
  | RMember e _ _ | RIndex e _ | RBase e _ => selection e
  | _ => false
  end.

(** No cast to a reference on the way to what gets changed. *)
Fixpoint uncast (e : raw) : bool :=
  match e with
  | RCast t e => match ty_alt t with ARef | AConst => false | _ => uncast e end
  | RQuest _ _ a b => uncast a && uncast b
  | RVar _ | RConst _ _ _ | RVal _ _ | RCall _ _ | RAtomof _ _ => true
  | RMember e _ _ | RIndex e _ | RBase e _ | RAssign e _ => uncast e
  end.

(** Where a place came from. *)
Definition placeTarget (p : place) : option target :=
  match p with
  | PVar v => Some (TgVar v)
  | PConst n => Some (TgConst n)
  | PTemp => None
  end.

(** The store does not change a constant. *)
Definition harmless (p : option place) : Prop :=
  forall q x, p = Some q -> placeTarget q = Some x -> ~ constantName x.

(** The expressions made of variables, selections, choices and casts to
    references: those that have a place of their own. *)
Fixpoint placed (e : raw) : bool :=
  match e with
  | RVar _ | RAtomof _ _ => true
  | RMember e _ _ | RIndex e _ | RBase e _ => placed e
  | RQuest _ _ a b => placed a && placed b
  | RCast t e => match ty_alt t with ARef | AConst => placed e | _ => false end
  | RConst _ _ _ | RVal _ _ | RCall _ _ | RAssign _ _ => false
  end.

(** What a run stores into: the choices made, the name reached. *)
Inductive reaches (rho : N -> bool) : raw -> svar -> Prop :=
| RcVar v : reaches rho (RVar v) v
| RcAtomof v a : reaches rho (RAtomof v a) v
| RcMember e m t v : reaches rho e v -> reaches rho (RMember e m t) v
| RcIndex e el v : reaches rho e v -> reaches rho (RIndex e el) v
| RcBase e t v : reaches rho e v -> reaches rho (RBase e t) v
| RcCast t e v : reaches rho e v -> reaches rho (RCast t e) v
| RcTrue o c a b v : rho c = true -> reaches rho a v -> reaches rho (RQuest o c a b) v
| RcFalse o c a b v : rho c = false -> reaches rho b v -> reaches rho (RQuest o c a b) v
| RcAssign e r v : reaches rho e v -> reaches rho (RAssign e r) v.
