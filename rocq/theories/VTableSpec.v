(* VTableSpec.v: what virtual functions mean, without tables. *)
From Coq Require Import String List NArith ZArith Bool.
From Verif Require Import Base TypeTableModel FamilyModel FamilyProofs FamilyTheorems VTableModel.
Import ListNotations.
Open Scope N_scope.

Section Spec.
Variable root : N -> N.
Variable bases : N -> option (list N).
Variable compare : N -> N -> cmp.
Variable funs : N -> list fdecl.

(* class x declares a function with signature s that is virtual: said so there, or in an ancestor *)
Definition virtual (x s : N) : Prop :=
  exists d, In d (funs x) /\ fd_sig d = s /\ exists y d', reach root bases x y /\ In d' (funs y) /\ fd_sig d' = s /\ fd_virtual d' = true.
(* the first declaration *)
Definition originates (o s : N) : Prop := virtual o s /\ forall y, ancestor root bases o y -> ~ virtual y s.
(* in c's hierarchy, the virtual function s has one origin o *)
Definition one_origin (c s o : N) : Prop := reach root bases c o /\ virtual o s /\ forall x, reach root bases c x -> virtual x s -> x = o \/ ancestor root bases x o.
(* k's declaration is one of the most specific ones in c *)
Definition most_specific (c s k : N) : Prop := reach root bases c k /\ virtual k s /\ forall x, reach root bases c x -> virtual x s -> ~ ancestor root bases x k.
(* k's declaration overrides all others in c *)
Definition final (c s k : N) : Prop := reach root bases c k /\ virtual k s /\ forall x, reach root bases c x -> virtual x s -> k = x \/ ancestor root bases k x.

(* a hierarchy past the checks: complete classes, tables of bases with root types of defined classes, no cycles, no two functions
   of a class with the same signature *)
Record hier : Prop := {
  h_settled : settled root bases compare;
  h_acyclic : acyclic root bases;
  h_nouti : bases 0 = None;
  h_root : forall x, bases x <> None -> root x = x;
  h_bases : forall x bs b, bases x = Some bs -> In b bs -> b <> 0 -> bases b <> None;
  h_sigs : forall x, NoDup (map fd_sig (funs x));
  h_funs : forall x, bases x = None -> funs x = []
}.

(* the classes whose tables are done, in any order the compiler may choose *)
Inductive built : (N -> option vclass) -> Prop :=
| built_none : built (fun _ => None)
| built_class D c v : built D -> D c = None -> calcClass root bases compare funs D c = Some v -> built (upd D c v).
End Spec.
Definition owned (D : N -> option vclass) (x : N) : list vte := match D x with Some v => v_owned v | None => [] end.
