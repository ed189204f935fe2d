(* ClassSizeSpec.v: what the sizes of classes should be. *)
From Coq Require Import String List NArith ZArith Bool Relations.
From Verif Require Import Base TypeTableModel FamilyModel FamilyProofs LayoutModel LayoutSpec ClassSizeModel.
Import ListNotations.
Open Scope N_scope.

(* the most bits a class can have: a quark fits a long, an element fits an atom (96 bits) beside its 25 bits of type and error
   correction, a transient fits a page of 8192 *)
Definition most_bits (k : ckind) : Z := match k with Quark => 64 | Element => 96 - 25 | Transient => 8192 end.

Section Spec.
Variable classes : N -> option sclass.

(* class c has a member of class d, a member that is an array of class d, or the base d *)
Definition contains (c d : N) : Prop := exists k, classes c = Some k /\
  (In (MClass d) (sc_members k) \/ (exists n, In (MArray d n) (sc_members k)) \/ (In d (sc_bases k) /\ d <> 0)).

(* the classes as LayoutSpec.v sees them when the classes have the sizes size *)
Definition filled_member (size : N -> N) (m : smember) : mtype :=
  match m with
  | MPrim b a => {| mt_bits := b; mt_array := a; mt_element := false |}
  | MClass c => {| mt_bits := size c; mt_array := None; mt_element := elementb classes c |}
  | MArray c n => {| mt_bits := size c; mt_array := Some n; mt_element := elementb classes c |}
  | MHzy => {| mt_bits := 0; mt_array := None; mt_element := false |}
  end.
Definition filled (size : N -> N) (c : N) : option lclass :=
  option_map (fun k => {| lc_kind := sc_kind k; lc_union := sc_union k;
                          lc_members := map (filled_member size) (sc_members k); lc_bases := sc_bases k |}) (classes c).

(* the bits of class c: its own and those of each of its ancestors once *)
Definition own (size : N -> N) (c : N) : N := match filled size c with Some k => own_bits k | None => 0 end.
Definition has_size (root : N -> N) (size : N -> N) (c : N) (n : N) : Prop :=
  exists l, NoDup l /\ (forall a, In a l <-> a <> 0 /\ ancestor root (lbases (filled size)) c a) /\
            n = own size c + fold_right (fun a t => own size a + t) 0 l.
End Spec.
