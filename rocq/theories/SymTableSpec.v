(* SymTableSpec.v: what symbol tables ought to do, as plain finite maps, and who owns symbols.
   Nothing here refers to how tables are stored. *)
From Coq Require Import List NArith Bool PeanoNat.
From Verif Require Import SymTableModel.
Import ListNotations.
Open Scope N_scope.

(* one map per table: from name id to symbol *)
Definition maps := nat -> N -> option addr.
(* the live symbols *)
Definition live := addr -> option cell.

Definition upd (m : maps) (t : nat) (id : N) (v : option addr) : maps :=
  fun t' id' => if Nat.eqb t' t && (id' =? id) then v else m t' id'.

Definition same (m m' : maps) : Prop := forall t id, m' t id = m t id.

(* [m'] is [m] but with, in table [t], a fresh copy of each symbol of the map [src] for which
   [pick] holds *)
Definition copies (h h' : live) (m m' : maps) (t : nat) (src : N -> option addr)
                  (pick : N -> bool) : Prop :=
  (forall t' id, t' <> t -> m' t' id = m t' id) /\
  (forall id, src id = None \/ pick id = false -> m' t id = m t id) /\
  (forall id a, src id = Some a -> pick id = true ->
     exists b, m' t id = Some b /\ h b = None /\ h' b = h a /\ h a <> None) /\
  (forall i j b, src i <> None -> pick i = true -> src j <> None -> pick j = true ->
     m' t i = Some b -> m' t j = Some b -> i = j) /\
  (forall b, h' b <> None <->
     h b <> None \/ (h b = None /\ exists id, src id <> None /\ pick id = true /\ m' t id = Some b)) /\
  (forall a, h a <> None -> h' a = h a).

Definition is_some {A} (x : option A) : bool := match x with Some _ => true | None => false end.

(* What one accepted call does: maps before and after, live symbols before and after, result. *)
Definition effect (o : op) (h h' : live) (m m' : maps) (r : option addr) : Prop :=
  match o with
  | New c =>
      same m m' /\
      exists a, r = Some a /\ h a = None /\ h' a = Some c /\ forall b, b <> a -> h' b = h b
  | Delete a =>
      same m m' /\ r = None /\ h a <> None /\ h' a = None /\ forall b, b <> a -> h' b = h b
  | Add t id a =>
      m t id = None /\ same (upd m t id (Some a)) m' /\ r = None /\ forall b, h' b = h b
  | ReplaceId t oldid newid a =>
      (m t oldid = None \/ m t oldid = Some a) /\ (oldid <> newid -> m t newid <> Some a) /\
      same (upd (upd m t oldid None) t newid (Some a)) m' /\ r = None /\ forall b, h' b = h b
  | Rename t oldid newid a =>
      (m t oldid = None \/ m t oldid = Some a) /\ (oldid <> newid -> m t newid <> Some a) /\
      same (upd (upd m t oldid None) t newid (Some a)) m' /\ r = None /\
      exists c, h a = Some c /\ h' a = Some (mkCell newid (c_data c)) /\
      forall b, b <> a -> h' b = h b
  | ReplaceSym t old new =>
      r = None /\
      exists co cn, h old = Some co /\ h new = Some cn /\ c_id co = c_id cn /\
      ((m t (c_id co) = None /\ same m m' /\ forall b, h' b = h b) \/
       (m t (c_id co) = Some old /\ same (upd m t (c_id co) (Some new)) m' /\
        h' old = None /\ forall b, b <> old -> h' b = h b))
  | Remove t id =>
      r = m t id /\ same (upd m t id None) m' /\ forall b, h' b = h b
  | Copy t f =>
      r = None /\ (forall id, m f id <> None -> m t id = None) /\
      copies h h' m m' t (m f) (fun _ => true)
  | Merge t f =>
      r = None /\ copies h h' m m' t (m f) (fun id => negb (is_some (m t id)))
  | Diff t f d =>
      r = None /\ (forall id, m t id <> None -> m f id = None -> m d id = None) /\
      copies h h' m m' d (m t) (fun id => negb (is_some (m f id)))
  | Clear t =>
      r = None /\ (forall t' id, m' t' id = if Nat.eqb t' t then None else m t' id) /\
      (forall a, h' a = None <-> h a = None \/ exists id, m t id = Some a) /\
      (forall a, h' a <> None -> h' a = h a)
  | Find t id =>
      r = m t id /\ same m m' /\ forall b, h' b = h b
  end.

(* The calls on a single entry that are refused: an assert fails. *)
Definition refused (o : op) (h : live) (m : maps) : Prop :=
  match o with
  | Add t id _ => m t id <> None
  | ReplaceId t oldid newid a | Rename t oldid newid a =>
      (exists b, m t oldid = Some b /\ b <> a) \/ (oldid <> newid /\ m t newid = Some a)
  | ReplaceSym t old new =>
      exists co cn, h old = Some co /\ h new = Some cn /\
      (c_id co <> c_id cn \/ exists b, m t (c_id co) = Some b /\ b <> old)
  | Copy t f => exists id, m t id <> None /\ m f id <> None
  | _ => False
  end.

(* ---- ownership ---- *)

(* A caller may delete, add or substitute a symbol only if it is the caller's own [mine a];
   or, for a change of name, if the table has the symbol under the old name. *)
Definition permitted (o : op) (mine : addr -> Prop) (h : live) (m : maps) : Prop :=
  match o with
  | Delete a => mine a
  | Add _ _ a => mine a
  | ReplaceId t oldid newid a | Rename t oldid newid a =>
      m t oldid = Some a \/ (m t oldid = None /\ mine a)
  | ReplaceSym t old new => mine new /\ exists c, h old = Some c /\ m t (c_id c) = Some old
  | _ => True
  end.

(* What the caller owns afterwards. *)
Definition mine_after (o : op) (r : option addr) (mine : addr -> Prop) : addr -> Prop :=
  match o with
  | New _ | Remove _ _ => fun b => mine b \/ r = Some b
  | Delete a | Add _ _ a | ReplaceId _ _ _ a | Rename _ _ _ a | ReplaceSym _ _ a => fun b => mine b /\ b <> a
  | _ => mine
  end.

(* The symbol that a change of name pushes out of the table. *)
Definition displaced (o : op) (m : maps) : addr -> Prop :=
  match o with
  | ReplaceId t oldid newid _ | Rename t oldid newid _ => fun b => oldid <> newid /\ m t newid = Some b
  | _ => fun _ => False
  end.

(* Every live symbol has exactly one owner: one entry of one table, the caller, or nobody. *)
Definition one_owner (h : live) (m : maps) (mine lost : addr -> Prop) : Prop :=
  (forall a, h a <> None <-> mine a \/ lost a \/ exists t id, m t id = Some a) /\
  (forall a, ~ (mine a /\ lost a)) /\
  (forall a t id, m t id = Some a -> ~ mine a /\ ~ lost a) /\
  (forall a t id t' id', m t id = Some a -> m t' id' = Some a -> t = t' /\ id = id').

(* Every entry is filed under the symbol's own name. *)
Definition filed (h : live) (m : maps) : Prop :=
  forall t id a, m t id = Some a -> exists c, h a = Some c /\ c_id c = id.

(* Names given to symbols when they are put into a table: an added symbol goes under its own
   name. *)
Definition well_named (o : op) (h : live) : Prop :=
  match o with
  | Add _ id a => exists c, h a = Some c /\ c_id c = id
  | ReplaceId _ _ newid a => exists c, h a = Some c /\ c_id c = newid
  | _ => True
  end.

(* The state of a model world, as the above sees it. *)
Definition maps_of (w : world) : maps := fun t id => getSymbolPtr w t id.
Definition live_of (w : world) : live := fun a => at_addr (w_heap w) a.

Definition nobody : addr -> Prop := fun _ => False.

(* [history n os w mine lost]: starting with [n] empty tables and no symbol, the permitted calls
   [os] were made and accepted; [w] is the state reached, [mine] the symbols the caller holds,
   [lost] those a change of name has pushed out of a table. *)
Inductive history (n : nat) : list op -> world -> (addr -> Prop) -> (addr -> Prop) -> Prop :=
| h_start : history n [] (start n) nobody nobody
| h_step os w mine lost o w' r :
    history n os w mine lost ->
    (forall t, In t (tables_of o) -> (t < n)%nat) ->
    permitted o mine (live_of w) (maps_of w) ->
    step w o = Done w' r ->
    history n (os ++ [o]) w' (mine_after o r mine)
            (fun b => lost b \/ displaced o (maps_of w) b).

(* the same, all calls being well named *)
Inductive named_history (n : nat) : list op -> world -> (addr -> Prop) -> (addr -> Prop) -> Prop :=
| n_start : named_history n [] (start n) nobody nobody
| n_step os w mine lost o w' r :
    named_history n os w mine lost ->
    (forall t, In t (tables_of o) -> (t < n)%nat) ->
    permitted o mine (live_of w) (maps_of w) ->
    well_named o (live_of w) ->
    step w o = Done w' r ->
    named_history n (os ++ [o]) w' (mine_after o r mine)
            (fun b => lost b \/ displaced o (maps_of w) b).
