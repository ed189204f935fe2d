(* ScopeSpec.v: the declaration a name stands for, said without searches. *)
From Coq Require Import String List NArith ZArith Bool.
From Verif Require Import Base TypeTableModel FamilyModel FamilyProofs ScopeModel.
Import ListNotations.
Open Scope N_scope.

(* in the first of the tables that has a declaration with P *)
Inductive innermost (P : symbol -> Prop) (id : N) : list table -> symbol -> Prop :=
| innermost_here t r s : t id = Some s -> P s -> innermost P id (t :: r) s
| innermost_out t r s : (forall s', t id = Some s' -> ~ P s') -> innermost P id r s -> innermost P id (t :: r) s.
(* a declaration in a function counts from where it is *)
Definition precedes (use : N) (s : symbol) : Prop := s_local s = true -> s_decl s <= use.

Section Spec.
Variable root : N -> N.
Variable bases : N -> option (list N).
Variable classes : N -> option cclass.
Variable files : N -> option table.

(* declared in the class itself: its members, then its functions; if it is a stub, then its template's *)
Definition own (c id : N) (s : symbol) : Prop :=
  exists k, classes c = Some k /\ innermost (fun _ => True) id (flat_map (fun b => [b_st b; b_fn b]) (k_blocks k)) s.
(* in the class, or else in the first of its bases, in the order they are written, that has it or inherits it *)
Inductive finds (id : N) : N -> symbol -> Prop :=
| finds_own c s : own c id s -> finds id c s
| finds_base c bs1 b bs2 s : (forall s', ~ own c id s') -> bases c = Some (bs1 ++ b :: bs2) ->
    (forall b' a s', In b' bs1 -> reach root bases (root b') a -> ~ own a id s') -> finds id (root b) s -> finds id c s.
(* as a constant or typedef of the file of the class *)
Definition in_file (c id : N) (s : symbol) : Prop :=
  (forall a s', reach root bases c a -> ~ own a id s') /\ exists k t, classes c = Some k /\ files (k_file k) = Some t /\ t id = Some s.
(* an identifier in a function of class c *)
Inductive denotes (c id use : N) (bs : list table) (s : symbol) : Prop :=
| denotes_local : innermost (precedes use) id bs s -> denotes c id use bs s
| denotes_member : (forall t s', In t bs -> t id = Some s' -> ~ precedes use s') -> finds id c s -> denotes c id use bs s
| denotes_file : (forall t s', In t bs -> t id = Some s' -> ~ precedes use s') -> in_file c id s -> denotes c id use bs s.

(* declarations of classes and files are not those of a function *)
Record world : Prop := {
  w_root : forall x, root x < 65536;
  w_acyclic : acyclic root bases;
  w_classes : forall c, bases c = None <-> classes c = None;
  w_own : forall c k b id s, classes c = Some k -> In b (k_blocks k) -> b_st b id = Some s \/ b_fn b id = Some s -> s_local s = false;
  w_file : forall f t id s, files f = Some t -> t id = Some s -> s_local s = false }.
End Spec.
