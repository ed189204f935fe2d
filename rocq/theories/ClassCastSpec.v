(* ClassCastSpec.v: what casts between classes, references and Atom should do. *)
From Coq Require Import String List NArith ZArith Bool.
From Verif Require Import Base TypeTableModel FamilyModel FamilyProofs LayoutModel IsAsModel IsAsSpec ClassCastModel.
Import ListNotations.
Open Scope N_scope.

Section Spec.
Variable root : N -> N.
Variable classes : N -> option lclass.
Definition element (d : N) : Prop := exists k, classes d = Some k /\ lc_kind k = Element.
(* the objects (by their class) that an expression of a type may stand for: a variable that is no reference an object of exactly
   its class, a reference also one of a class that inherits from it, an Atom any element *)
Definition holds (t : cty) (d : N) : Prop :=
  match t with
  | TAtom _ => element d
  | TClass NotRef c => d = c
  | TClass _ c => is_a root classes d c
  end.
(* the objects that may be seen as a type *)
Definition suits (t : cty) (d : N) : Prop := match t with TAtom _ => element d | TClass _ c => is_a root classes d c end.
(* what may not be changed could be *)
Definition drops_const (from to : cty) : Prop := alt_of from = ConstRef /\ alt_of to = Ref.
Definition known (t : cty) : Prop := match t with TAtom _ => True | TClass _ c => classes c <> None end.
(* one of the classes inherits from the other, or they are the same *)
Definition related (c t : N) : Prop := is_a root classes c t \/ is_a root classes t c.
End Spec.

(* The pointer of an expression of class c stands for an object of class d that begins at position o: it points to the c in it;
   its effective self is d or, if none is given, d is c itself; a storage for values of class c holds a c. *)
Record points (root : N -> N) (classes : N -> option lclass) (compare : N -> N -> cmp) (p : pointer) (c d : N) (o : Z) : Prop := {
  pt_pos : exists q, getABaseClassRelativePositionInAClass root classes compare d c = Some q /\ p_pos p = (o + Z.of_N q)%Z;
  pt_eff : p_eff p = d \/ (p_eff p = 0 /\ d = c);
  pt_stg : forall s, p_stg p = OClass s -> classes s <> None /\ (s = c -> d = c)
}.
(* the same for the references of the generated code *)
Record refers (root : N -> N) (classes : N -> option lclass) (compare : N -> N -> cmp) (g : gref) (c d : N) (o : Z) : Prop := {
  rf_eff : g_eff g = d;
  rf_pos : exists q, getABaseClassRelativePositionInAClass root classes compare d c = Some q /\ g_pos g = (o + Z.of_N q)%Z /\ g_toeff g = Z.of_N q
}.
