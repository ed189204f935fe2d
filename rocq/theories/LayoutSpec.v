(* LayoutSpec.v: what a layout of a class should be. *)
From Coq Require Import String List NArith ZArith Bool.
From Verif Require Import Base TypeTableModel FamilyModel FamilyProofs LayoutModel.
Import ListNotations.
Open Scope N_scope.

(* size of a data member: an element takes an atom of 96 bits, everything else its bits *)
Definition member_size (m : mtype) : N := (match mt_array m with Some n => n | None => 1 end) * (if mt_element m then 96 else mt_bits m).
(* a class's own bits: the sum of its members, in a union the largest *)
Definition own_bits (k : lclass) : N := fold_right (fun m t => if lc_union k then N.max (member_size m) t else member_size m + t) 0 (lc_members k).
(* number of the parts (start, length) that contain bit p *)
Definition covering (p : N) (parts : list (N * N)) : nat := List.length (filter (fun q => (fst q <=? p) && (p <? fst q + snd q)) parts).
(* every bit below total lies in exactly one part, no bit beyond in any *)
Definition exact_cover (parts : list (N * N)) (total : N) : Prop := forall p, covering p parts = if p <? total then 1%nat else 0%nat.

(* A class hierarchy past all checks: every class is complete; the tables of bases hold root types of defined classes, none of
   them an element (NodeBlockClass.cpp:1113-1166), 0 for no super class; no cycles; element members in transients only. *)
Record wf (root : N -> N) (classes : N -> option lclass) (compare : N -> N -> cmp) : Prop := {
  wf_small : forall x, root x < 65536;
  wf_zero : forall x, root x = 0 <-> x = 0;
  wf_nouti : classes 0 = None;
  wf_root : forall x k, classes x = Some k -> root x = x;
  wf_compare : forall x k y, classes x = Some k -> compare x y = if x =? root y then Same else NotSame;
  wf_bases : forall x k b, classes x = Some k -> In b (lc_bases k) -> b <> 0 -> exists kb, classes b = Some kb /\ lc_kind kb <> Element;
  wf_elements : forall x k m, classes x = Some k -> In m (lc_members k) -> mt_element m = true -> lc_kind k = Transient /\ lc_union k = false;
  wf_acyclic : acyclic root (fun x => option_map lc_bases (classes x))
}.
