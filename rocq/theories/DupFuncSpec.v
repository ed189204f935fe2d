(* DupFuncSpec.v: when two functions clash, independent of the table the compiler builds. *)
From Coq Require Import String List NArith ZArith Bool.
From Verif Require Import Base UTypeModel TypeTableModel FamilyModel FamilyProofs MangleModel MangleSpec DupFuncModel.
Import ListNotations.
Open Scope N_scope.

(* same name, as many parameters, each of the same type *)
Definition same_signature (f g : func) : Prop := fn_name f = fn_name g /\ Forall2 same_param (fn_params f) (fn_params g).

(* a parameter is never the target of an as-condition *)
Definition declared (p : ptype) : Prop := match p with PPlain t => ty_ref t <> AltAs | PClass _ t _ => ty_ref t <> AltAs end.
(* what can be written: lengths of names and parameter lists below 2^32, types whose sizes are known *)
Definition known_func (templ : text -> option nat) (f : func) : Prop :=
  N.of_nat (List.length (fn_name f)) < 2 ^ 32 /\ N.of_nat (List.length (fn_params f)) < 2 ^ 32 /\ Forall (fun p => known_param templ p /\ declared p) (fn_params f) /\
  getMangledNameWithTypes (fn_name f) (fn_params f) <> None.

(* f is declared in the class before g *)
Definition before (l : list func) (f g : func) : Prop := exists l1 l2 l3, l = l1 ++ f :: l2 ++ g :: l3.

Section Family.
Variable root : N -> N.
Variable bases : N -> option (list N).
(* x is the class c or one of its ancestors, and is defined *)
Definition in_family (c x : N) : Prop := reach root bases (root c) x /\ exists bs, bases x = Some bs.
End Family.

(* two parameters written alike, as far as is known while parsing *)
Definition item (p : pkey) : N * option N * bool :=
  match p with KHzy u n => (u, Some n, false) | KGiven u r => (u, None, r) | KType u => (u, None, false) end.
(* no parameter has the type Void *)
Definition no_void (ps : list pkey) : Prop := ps <> [KType Void_uti] /\ ps <> [KGiven Void_uti false].
