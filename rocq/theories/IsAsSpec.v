(* IsAsSpec.v: what "is" and "as" should answer. *)
From Coq Require Import String List NArith ZArith Bool.
From Verif Require Import Base TypeTableModel FamilyModel FamilyProofs LayoutModel IsAsModel.
Import ListNotations.
Open Scope N_scope.

(* an object of class d is an r: r is its class, or one of its class's ancestors *)
Definition is_a (root : N -> N) (classes : N -> option lclass) (d r : N) : Prop := root r = d \/ ancestor root (lbases classes) d (root r).

(* The left operand denotes an object of class d, seen as its own class or through a base (the target), possibly by reference:
   - the pointer's effective self is d, or unknown and the storage tells: it holds a d, or an atom with a d in it;
   - the value of a d in the storage has no other effective self;
   - the target's class is d or one of its ancestors;
   - an atom is seen in the storage of an atom or of d itself. *)
Record denotes (root : N -> N) (classes : N -> option lclass) (v : view) (d : N) : Prop := {
  dn_class : exists k, classes d = Some k;
  dn_eff : v_eff v = d \/ (v_eff v = 0 /\ (v_stg v = OClass d \/ (v_stg v = OAtom /\ v_stgeff v = d)));
  dn_target : forall u, v_target v = OClass u -> u <> 0 /\ is_a root classes d u;
  dn_stg : v_eff v = 0 -> v_stg v = OClass d -> v_stgeff v = 0 \/ v_stgeff v = d;
  dn_atom : v_target v = OAtom -> v_stg v = OClass d \/ (v_stg v = OAtom /\ v_stgeff v = d)
}.

(* what a left operand of a given static type can denote: an atom holds an element; a variable that is no reference has exactly
   its class; a reference to s an s *)
Inductive can_denote (root : N -> N) (classes : N -> option lclass) : lefttype -> N -> Prop :=
| cd_atom d k : classes d = Some k -> lc_kind k = Element -> can_denote root classes LAtom d
| cd_class d k : classes d = Some k -> can_denote root classes (LClass (lc_kind k) false) d
| cd_ref s d k kd : classes s = Some k -> classes d = Some kd -> is_a root classes d s -> can_denote root classes (LClass (lc_kind k) true) d.

(* kinds of bases that the compiler accepts (NodeBlockClass.cpp:1113-1166): a transient has quarks and transients for bases, the
   others quarks only *)
Definition bases_ok (classes : N -> option lclass) : Prop := forall x k b kb, classes x = Some k -> In b (lc_bases k) -> classes b = Some kb ->
  lc_kind kb = Quark \/ (lc_kind kb = Transient /\ lc_kind k = Transient).

(* either the pointer knows its effective self, or atoms are involved *)
Definition informed (v : view) : Prop := v_eff v <> 0 \/ v_target v = OAtom \/ v_stg v = OAtom.
