(* SymTableModel.v: symbol tables (src/ulam/SymbolTable.cpp).

   A symbol is an address into a heap of cells.  A cell is alive and holds the symbol's name id
   and a payload (everything else about it), or it has been deleted.  A table is the
   std::map<u32, Symbol*> m_idToSymbolPtr of include/SymbolTable.h:84, kept as a list of pairs
   in increasing order of id (EXTERNAL: std::map iterates in key order, find/insert/erase as
   usual, and its iterators survive the insertion of other keys).

   Simplifications: the type alias update of mergeATableHere (SymbolTable.cpp:56-62) changes the
   type system only and is left out; Symbol::clone is a new cell with the same name id and the
   same payload (the sub-classes' clone functions are not modelled); Symbol::getId
   (Symbol.cpp:54) is the name id of the cell. *)
From Coq Require Import List NArith Lia Bool PeanoNat.
From Verif Require Import Base SourceStreamModel.
Import ListNotations.
Open Scope N_scope.

Definition addr := nat.
Record cell := mkCell { c_id : N; c_data : N }.
Definition heap := list (option cell).          (* None: deleted *)
Definition table := list (N * addr).

(* the symbol at an address, while it is alive *)
Definition at_addr (h : heap) (a : addr) : option cell :=
  match nth_error h a with Some (Some c) => Some c | _ => None end.

(* std::map::find *)
Fixpoint find_id (t : table) (id : N) : option addr :=
  match t with
  | [] => None
  | (k, a) :: r => if k =? id then Some a else find_id r id
  end.

(* std::map::insert: a key that is there already is kept, and the flag is false *)
Fixpoint ins (t : table) (id : N) (a : addr) : table :=
  match t with
  | [] => [(id, a)]
  | (k, b) :: r =>
      if k =? id then t
      else if id <? k then (id, a) :: t
      else (k, b) :: ins r id a
  end.
Definition insert (t : table) (id : N) (a : addr) : table * bool :=
  (ins t id a, match find_id t id with Some _ => false | None => true end).

(* std::map::erase(iterator) *)
Fixpoint erase (t : table) (id : N) : table :=
  match t with
  | [] => []
  | (k, b) :: r => if k =? id then r else (k, b) :: erase r id
  end.

(* it->second = s *)
Fixpoint assign (t : table) (id : N) (a : addr) : table :=
  match t with
  | [] => []
  | (k, b) :: r => if k =? id then (k, a) :: r else (k, b) :: assign r id a
  end.

(* all tables of the compiler, and the heap they share *)
Record world := mkW { w_heap : heap; w_tabs : list table }.

Definition tab (w : world) (t : nat) : table := nth t (w_tabs w) [].
Definition put (w : world) (t : nat) (x : table) : world :=
  mkW (w_heap w) (set_nth t x (w_tabs w)).

(* Done: the call returned.  Rejected: an assert failed, in the state shown.
   Undefined: a deleted symbol was read or deleted. *)
Inductive res (A : Type) := Done (w : world) (x : A) | Rejected (w : world) | Undefined.
Arguments Done {A} w x. Arguments Rejected {A} w. Arguments Undefined {A}.

Definition bind {A B} (r : res A) (k : world -> A -> res B) : res B :=
  match r with Done w x => k w x | Rejected w => Rejected w | Undefined => Undefined end.

(* new / clone *)
Definition alloc (w : world) (c : cell) : world * addr :=
  (mkW (w_heap w ++ [Some c]) (w_tabs w), List.length (w_heap w)).

(* delete sym: undefined unless the symbol is alive *)
Definition free (w : world) (a : addr) : res unit :=
  match at_addr (w_heap w) a with
  | Some _ => Done (mkW (set_nth a None (w_heap w)) (w_tabs w)) tt
  | None => Undefined
  end.

(* isInTable, SymbolTable.cpp:123-147 (both overloads): the assert compares the symbol's own id
   with the key *)
Definition isInTable (w : world) (t : nat) (id : N) : res (option addr) :=
  match find_id (tab w t) id with
  | None => Done w None
  | Some a =>
      match at_addr (w_heap w) a with
      | None => Undefined
      | Some c => if c_id c =? id then Done w (Some a) else Rejected w
      end
  end.

(* addToTable, SymbolTable.cpp:149-154 *)
Definition addToTable (w : world) (t : nat) (id : N) (a : addr) : res unit :=
  let '(x, ok) := insert (tab w t) id a in
  if ok : bool then Done (put w t x) tt else Rejected (put w t x).

(* replaceInTable(oldid, newid, s), SymbolTable.cpp:156-175 *)
Definition replaceId (w : world) (t : nat) (oldid newid : N) (s : addr) : res unit :=
  bind (match find_id (tab w t) oldid with
        | Some o => if Nat.eqb o s then Done (put w t (erase (tab w t) oldid)) tt else Rejected w
        | None => Done w tt
        end)
  (fun w1 _ =>
   bind (match find_id (tab w1 t) newid with
         | Some n => if Nat.eqb n s then Rejected w1
                     else Done (put w1 t (erase (tab w1 t) newid)) tt
         | None => Done w1 tt
         end)
   (fun w2 _ => addToTable w2 t newid s)).

(* replaceInTable(oldsym, newsym), SymbolTable.cpp:177-188 *)
Definition replaceSym (w : world) (t : nat) (o n : addr) : res unit :=
  match at_addr (w_heap w) o, at_addr (w_heap w) n with
  | Some co, Some cn =>
      if c_id co =? c_id cn then
        match find_id (tab w t) (c_id co) with
        | Some p =>
            if Nat.eqb p o then free (put w t (assign (tab w t) (c_id co) n)) p
            else Rejected w
        | None => Done w tt
        end
      else Rejected w
  | _, _ => Undefined
  end.

(* A change of name as the callers make it: Symbol::setId (Symbol.cpp:44-47) and then
   replaceInTable, CompilerState.cpp:325-326; SymbolClassNameTemplate.cpp:672-673 the same with
   SymbolConstantValue::changeConstantId *)
Definition renameSym (w : world) (t : nat) (oldid newid : N) (s : addr) : res unit :=
  match at_addr (w_heap w) s with
  | None => Undefined
  | Some c =>
      replaceId (mkW (set_nth s (Some (mkCell newid (c_data c))) (w_heap w)) (w_tabs w))
                t oldid newid s
  end.

(* removeFromTable, SymbolTable.cpp:190-201 *)
Definition removeFromTable (w : world) (t : nat) (id : N) : res (option addr) :=
  match find_id (tab w t) id with
  | Some a => Done (put w t (erase (tab w t) id)) (Some a)
  | None => Done w None
  end.

(* getSymbolPtr, SymbolTable.cpp:203-213 *)
Definition getSymbolPtr (w : world) (t : nat) (id : N) : option addr := find_id (tab w t) id.

(* getTableSize, SymbolTable.cpp:215-223 *)
Definition getTableSize (w : world) (t : nat) : N := u32 (N.of_nat (List.length (tab w t))).

(* clone a symbol and add the clone, SymbolTable.cpp:29-30, 51-52, 81-82 *)
Definition cloneInto (w : world) (t : nat) (id : N) (a : addr) : res unit :=
  match at_addr (w_heap w) a with
  | None => Undefined
  | Some c => let '(w1, b) := alloc w c in addToTable w1 t id b
  end.

(* copyATableHere, SymbolTable.cpp:22-33; also the copy constructor :11-14 on a new table and
   operator= :35-39.  The iterator runs over the source's entries; if source and target are one
   table the first entry is rejected, so the entries seen are those at the start. *)
Fixpoint copyEntries (w : world) (t : nat) (es : table) : res unit :=
  match es with
  | [] => Done w tt
  | (id, a) :: r => bind (cloneInto w t id a) (fun w1 _ => copyEntries w1 t r)
  end.
Definition copyATableHere (w : world) (t f : nat) : res unit := copyEntries w t (tab w f).

(* mergeATableHere, SymbolTable.cpp:41-66.  In the else branch both symbols are read
   (getUlamTypeIdx), so both must be alive; isInTable has already read the target's. *)
Fixpoint mergeEntries (w : world) (t : nat) (es : table) : res unit :=
  match es with
  | [] => Done w tt
  | (id, a) :: r =>
      bind (isInTable w t id) (fun w1 x =>
        match x with
        | None => bind (cloneInto w1 t id a) (fun w2 _ => mergeEntries w2 t r)
        | Some _ =>
            match at_addr (w_heap w1) a with
            | None => Undefined
            | Some _ => mergeEntries w1 t r
            end
        end)
  end.
Definition mergeATableHere (w : world) (t f : nat) : res unit := mergeEntries w t (tab w f).

(* mergedTableDifferences, SymbolTable.cpp:68-88: [t] this table, [f] fmst, [d] diffst *)
Fixpoint diffEntries (w : world) (f d : nat) (es : table) : res unit :=
  match es with
  | [] => Done w tt
  | (id, a) :: r =>
      bind (isInTable w f id) (fun w1 x =>
        match x with
        | None => bind (cloneInto w1 d id a) (fun w2 _ => diffEntries w2 f d r)
        | Some _ => diffEntries w1 f d r
        end)
  end.
Definition mergedTableDifferences (w : world) (t f d : nat) : res unit :=
  if getTableSize w f <? getTableSize w t then
    bind (diffEntries w f d (tab w t)) (fun w1 _ =>
      if getTableSize w1 t =? u32 (getTableSize w1 f + getTableSize w1 d) then Done w1 tt
      else Rejected w1)
  else Rejected w.

(* clearTheTable, SymbolTable.cpp:110-121, which is all the destructor does, :16-20 *)
Fixpoint freeAll (w : world) (es : table) : res unit :=
  match es with
  | [] => Done w tt
  | (_, a) :: r => bind (free w a) (fun w1 _ => freeAll w1 r)
  end.
Definition clearTheTable (w : world) (t : nat) : res unit :=
  bind (freeAll w (tab w t)) (fun w1 _ => Done (put w1 t []) tt).

(* tableTokenNamesAsAString, SymbolTable.cpp:90-108, as the list of names written (the text joins
   them with ", "); the count returned is the number of entries *)
Fixpoint names (h : heap) (t : table) : option (list N) :=
  match t with
  | [] => Some []
  | (_, a) :: r =>
      match at_addr h a, names h r with
      | Some c, Some l => Some (c_id c :: l)
      | _, _ => None
      end
  end.

(* One step of a user of symbol tables. *)
Inductive op :=
| New (c : cell)                         (* new Symbol... by the caller *)
| Delete (a : addr)                      (* delete of a symbol the caller holds *)
| Add (t : nat) (id : N) (a : addr)
| ReplaceId (t : nat) (oldid newid : N) (a : addr)
| Rename (t : nat) (oldid newid : N) (a : addr)
| ReplaceSym (t : nat) (o n : addr)
| Remove (t : nat) (id : N)
| Copy (t f : nat)
| Merge (t f : nat)
| Diff (t f d : nat)
| Clear (t : nat)
| Find (t : nat) (id : N).

Definition ok_unit (r : res unit) : res (option addr) :=
  bind r (fun w _ => Done w None).

Definition step (w : world) (o : op) : res (option addr) :=
  match o with
  | New c => let '(w1, a) := alloc w c in Done w1 (Some a)
  | Delete a => ok_unit (free w a)
  | Add t id a => ok_unit (addToTable w t id a)
  | ReplaceId t i j a => ok_unit (replaceId w t i j a)
  | Rename t i j a => ok_unit (renameSym w t i j a)
  | ReplaceSym t o n => ok_unit (replaceSym w t o n)
  | Remove t id => removeFromTable w t id
  | Copy t f => ok_unit (copyATableHere w t f)
  | Merge t f => ok_unit (mergeATableHere w t f)
  | Diff t f d => ok_unit (mergedTableDifferences w t f d)
  | Clear t => ok_unit (clearTheTable w t)
  | Find t id => isInTable w t id
  end.

(* the tables an operation names *)
Definition tables_of (o : op) : list nat :=
  match o with
  | New _ | Delete _ => []
  | Add t _ _ | ReplaceId t _ _ _ | Rename t _ _ _ | ReplaceSym t _ _ | Remove t _ | Clear t
  | Find t _ => [t]
  | Copy t f | Merge t f => [t; f]
  | Diff t f d => [t; f; d]
  end.

(* [n] empty tables (SymbolTable.cpp:9) *)
Definition start (n : nat) : world := mkW [] (repeat [] n).

Fixpoint run (w : world) (os : list op) : res (list (option addr)) :=
  match os with
  | [] => Done w []
  | o :: r => bind (step w o) (fun w1 x => bind (run w1 r) (fun w2 xs => Done w2 (x :: xs)))
  end.
