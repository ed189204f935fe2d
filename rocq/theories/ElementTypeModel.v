(** Element type numbers: the generator, the lookup, and the number kept by a class.

    Modelled code (under /repo): src/ulam/ElementTypeGenerator.cpp (whole file),
    include/Constants.h 97-107, src/ulam/SymbolClass.cpp 1134-1193 (assignElementType,
    assignEmptyElementType, getElementType), src/ulam/CompilerState.cpp 7311-7331.

    Simplifications.  The map from sequence numbers to types (m_sequentialTypeMap) is only
    read back at the entry just written, so it is left out.  The loop of makeAType takes
    a bound on its turns; [None] means that the bound was reached.  *)
From Coq Require Import String List NArith ZArith Lia Bool.
From Verif Require Import Base.
Import ListNotations.
Open Scope N_scope.

(** include/Constants.h 107 *)
Definition UNDEFINED_TYPE : N := 0.
Definition EMPTY_TYPE : N := 65535.
Definition MAX_TYPE : N := 65535.
Definition TYPE_BITS : N := 16.

(** ELE_TYPE is u16: include/Constants.h 98 *)
Definition ele (n : N) : N := n mod 65536.

(** The loop that sets highidx, from index [i] down: ElementTypeGenerator.cpp 50-52 *)
Fixpoint high_idx (i : nat) (c : N) : nat :=
  match i with
  | S (S _ as j) => if N.testbit c (N.of_nat i) then i else high_idx j c
  | _ => i
  end.

(** The loop that spreads the bits below index [i]: ElementTypeGenerator.cpp 57-63 *)
Fixpoint spread (i : nat) (bpb bits c type : N) : N :=
  match i with
  | O => type
  | S j =>
    let t1 := u32 (N.shiftl type bpb) in
    spread j bpb bits c (if N.testbit c (N.of_nat j) then N.lor t1 bits else t1)
  end.

(** The number tried for one counter value: ElementTypeGenerator.cpp 49-63 *)
Definition candidate (c : N) : N :=
  let h := high_idx 31 c in
  let bpb := TYPE_BITS / N.of_nat h in
  let bits := 2 ^ bpb - 1 in
  spread h bpb bits c 0.

(** The generator: m_next, m_counter, m_setOfKnownTypes, m_mapOfKnownTypes.  *)
Record gen := mkGen
  { g_next : N; g_counter : N; g_set : list N; g_map : list (N * N) }.

(** ElementTypeGenerator::ElementTypeGenerator: line 6 *)
Definition gen0 : gen := mkGen 0 2 [] [].

Definition known (t : N) (l : list N) : bool := existsb (N.eqb t) l.

(** makeAType: ElementTypeGenerator.cpp 45-67; yields the type, the counter and the set.  *)
Fixpoint make_type (fuel : nat) (c : N) (set : list N) : option (N * N * list N) :=
  match fuel with
  | O => None
  | S f =>
    let c1 := u32 (c + 1) in
    let t := candidate c1 in
    if (t =? EMPTY_TYPE) || (t =? UNDEFINED_TYPE) || known (ele t) set
    then make_type f c1 set
    else Some (ele t, c1, ele t :: set)
  end.

(** std::map find *)
Fixpoint map_find (t : N) (m : list (N * N)) : option N :=
  match m with
  | [] => None
  | (a, b) :: r => if a =? t then Some b else map_find t r
  end.

(** What a call may lead to: a value, a failed assertion, or no end within the bound.  *)
Inductive res (A : Type) := Val (a : A) | Assert | Runs.
Arguments Val {A}. Arguments Assert {A}. Arguments Runs {A}.

(** makeNextType: ElementTypeGenerator.cpp 15-24.  The second assertion is that the type
    was not in the map.  *)
Definition make_next (fuel : nat) (cuti : N) (g : gen) : res (N * gen) :=
  if g_next g <? MAX_TYPE then
    match make_type fuel (g_counter g) (g_set g) with
    | None => Runs
    | Some (t, c, s) =>
      match map_find t (g_map g) with
      | Some _ => Assert
      | None => Val (t, mkGen (u32 (g_next g + 1)) c s ((t, cuti) :: g_map g))
      end
    end
  else Assert.

(** Nouti: the type id that stands for no type.  *)
Definition NOUTI : N := 0.

(** findElementTypeClass: ElementTypeGenerator.cpp 26-36 *)
Definition find_class (t : N) (g : gen) : N :=
  match map_find t (g_map g) with Some u => u | None => NOUTI end.

(** ** Classes *)

(** The element types kept in the classes (m_elementType, 0 for none), and the type id of
    the class Empty.  *)
Record world := mkWorld { w_gen : gen; w_ele : list (N * N); w_empty : N }.

Definition kept (w : world) (u : N) : N :=
  match map_find u (w_ele w) with Some t => t | None => UNDEFINED_TYPE end.

(** SymbolClass::getElementType, assignElementType and assignEmptyElementType
    (SymbolClass.cpp 1134-1193).  *)
Definition get_type (fuel : nat) (u : N) (w : world) : res (N * world) :=
  if kept w u =? UNDEFINED_TYPE then
    if u =? w_empty w then
      Val (EMPTY_TYPE, mkWorld (w_gen w) ((u, EMPTY_TYPE) :: w_ele w) (w_empty w))
    else
      match make_next fuel u (w_gen w) with
      | Val (t, g) =>
        (* assignElementType: an error leaves the class without a type *)
        if (t =? UNDEFINED_TYPE) || (MAX_TYPE <=? t)
        then Val (UNDEFINED_TYPE, mkWorld g (w_ele w) (w_empty w))
        else Val (t, mkWorld g ((u, t) :: w_ele w) (w_empty w))
      | Assert => Assert
      | Runs => Runs
      end
  else Val (kept w u, w).

(** lookupClassByElementType: CompilerState.cpp 7325-7331 *)
Definition lookup_class (t : N) (w : world) : res N :=
  if t =? EMPTY_TYPE then Val (w_empty w)
  else if t =? UNDEFINED_TYPE then Assert
  else Val (find_class t (w_gen w)).

(** A run of the compiler asks for the types of a sequence of classes.  *)
Fixpoint get_types (fuel : nat) (us : list N) (w : world) : res (list N * world) :=
  match us with
  | [] => Val ([], w)
  | u :: r =>
    match get_type fuel u w with
    | Val (t, w1) =>
      match get_types fuel r w1 with
      | Val (ts, w2) => Val (t :: ts, w2)
      | Assert => Assert
      | Runs => Runs
      end
    | Assert => Assert
    | Runs => Runs
    end
  end.
