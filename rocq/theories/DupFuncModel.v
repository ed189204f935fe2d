(* DupFuncModel.v: functions that differ in nothing a call can see.
   Transcribes src/ulam/SymbolFunctionName.cpp:83-104 (overloadFunction), 342-426 (checkFunctionNames,
   checkFunctionSignatureReturnTypes, checkForDuplicateFunctionSignature), src/ulam/SymbolFunction.cpp:265-301
   (getMangledNameWithUTIparameters), src/ulam/SymbolTableOfFunctions.cpp:35-64, src/ulam/NodeBlockClass.cpp:1419-1479 and
   src/ulam/SymbolTableOfClasses.cpp:254-269.
   Parameters: root and bases as in FamilyModel.v; compare, the comparison of types (C45), which does not abort; funcs, the
   functions of a class in the order of its maps (by the number of the name, then by the key of overloadFunction).
   Simplifications: no class block is the empty block; marking the node of a function as erroneous is left out; the
   reported errors are counted. *)
From Coq Require Import String List NArith ZArith Bool.
From Verif Require Import Base UTypeModel LeximitedModel TypeTableModel FamilyModel MangleModel.
Import ListNotations.
Open Scope N_scope.

(* ---- while parsing ---- *)
(* a parameter as getMangledNameWithUTIparameters sees it: its node's type is Hzy or a holder; it has none yet (Nouti), then
   the given type and whether a reference was given; or it has one *)
Inductive pkey := KHzy (u : N) (nno : N) | KGiven (u : N) (isref : bool) | KType (u : N).

(* the index of the type Void, include/UlamType.inc (the fourth row) *)
Definition Void_uti : N := 3.

(* SymbolFunction.cpp:284-299 *)
Definition pkeyText (p : pkey) : text :=
  match p with
  | KHzy u n => [44] ++ dec u ++ [45] ++ dec n
  | KGiven u r => [44] ++ dec u ++ (if r then [114] else [])
  | KType u => [44] ++ dec u
  end.
(* SymbolFunction.cpp:265-301 with Symbol.cpp:235-254 *)
Definition getMangledNameWithUTIparameters (name : text) (ps : list pkey) : text :=
  txt "Uf_" ++ ToLeximited name ++ (match ps with [] => [44] ++ dec Void_uti | _ => flat_map pkeyText ps end).

(* ---- a function symbol ---- *)
Record func := mkFunc { fn_name : text; fn_params : list ptype; fn_ret : N; fn_virtual : bool }.
(* SymbolFunction.cpp:227-261, MangleModel.v *)
Definition sig_key (f : func) : text := match getMangledNameWithTypes (fn_name f) (fn_params f) with Some x => x | None => [] end.

(* m_mangledFunctionNames, a std::map by text *)
Definition fmap : Type := list (text * func).
Fixpoint text_ltb (a b : text) : bool :=
  match a, b with
  | _, [] => false
  | [], _ => true
  | x :: a', y :: b' => if x <? y then true else if y <? x then false else text_ltb a' b'
  end.
Fixpoint fmap_find (m : fmap) (k : text) : option func :=
  match m with [] => None | (k', f) :: r => if text_eqb k k' then Some f else fmap_find r k end.
Fixpoint fmap_insert (m : fmap) (k : text) (f : func) : fmap :=
  match m with
  | [] => [(k, f)]
  | (k', g) :: r => if text_ltb k k' then (k, f) :: m else (k', g) :: fmap_insert r k f
  end.
(* SymbolFunctionName.cpp:83-104: the map, whether it was added, and the other one if not *)
Definition overloadFunction (m : fmap) (ps : list pkey) (f : func) : fmap * bool * option func :=
  let k := getMangledNameWithUTIparameters (fn_name f) ps in
  match fmap_find m k with
  | None => (fmap_insert m k f, true, None)
  | Some g => (m, false, Some g)
  end.

(* ---- after the types are known ---- *)
Section Dup.
Variable compare : N -> N -> cmp.

(* include/CompilerState.h FSEntry, without the class *)
Record entry := mkEntry { e_ret : N; e_virtual : bool; e_problem : bool; e_matches : N }.
Definition fst_table : Type := list (text * entry).
Fixpoint look (t : fst_table) (k : text) : option entry :=
  match t with [] => None | (k', e) :: r => if text_eqb k k' then Some e else look r k end.
Fixpoint put (t : fst_table) (k : text) (e : entry) : fst_table :=
  match t with [] => [(k, e)] | (k', e') :: r => if text_eqb k k' then (k, e) :: r else (k', e') :: put r k e end.

(* SymbolFunctionName.cpp:382-426: the table, whether it is a duplicate, the errors reported *)
Definition checkForDuplicateFunctionSignature (t : fst_table) (f : func) : fst_table * bool * nat :=
  match look t (sig_key f) with
  | Some e =>
    let dup := negb (e_virtual e) in
    let e1 := if dup then mkEntry (e_ret e) (e_virtual e) (e_problem e) (e_matches e + 1) else e in
    match compare (e_ret e) (fn_ret f) with
    | NotSame => (put t (sig_key f) (mkEntry (e_ret e1) (e_virtual e1) true (e_matches e1)), dup, 1%nat)
    | _ => (put t (sig_key f) e1, dup, 0%nat)
    end
  | None => (put t (sig_key f) (mkEntry (fn_ret f) (fn_virtual f) false 1), false, 0%nat)
  end.

(* SymbolFunctionName.cpp:342-366 over SymbolTableOfFunctions.cpp:35-48 *)
Fixpoint checkTableOfFunctions (t : fst_table) (fs : list func) : fst_table * nat :=
  match fs with
  | [] => (t, 0%nat)
  | f :: r =>
    let '(t1, dup, n) := checkForDuplicateFunctionSignature t f in
    let '(t2, m) := checkTableOfFunctions t1 r in (t2, n + (if dup then 1 else 0) + m)%nat
  end.
(* SymbolFunctionName.cpp:368-380 over SymbolTableOfFunctions.cpp:50-63 *)
Fixpoint checkTableOfFunctionsSignatureReturnTypes (t : fst_table) (fs : list func) : fst_table * nat :=
  match fs with
  | [] => (t, 0%nat)
  | f :: r =>
    let '(t1, _, n) := checkForDuplicateFunctionSignature t f in
    let '(t2, m) := checkTableOfFunctionsSignatureReturnTypes t1 r in (t2, n + m)%nat
  end.

Variable root : N -> N.
Variable bases : N -> option (list N).
Variable funcs : N -> list func.

(* NodeBlockClass.cpp:1464-1479 *)
Definition checkMatchingFunctions (c : N) : nat := snd (checkTableOfFunctions [] (funcs c)).

(* NodeBlockClass.cpp:1433-1447, over the classes the walker gives *)
Fixpoint check_family (l : list N) (t : fst_table) : nat :=
  match l with
  | [] => 0%nat
  | c :: r =>
    match bases c with
    | Some _ =>
      let '(t1, n) := checkTableOfFunctionsSignatureReturnTypes t (funcs c) in
      (checkMatchingFunctions c + n + check_family r t1)%nat
    | None => check_family r t
    end
  end.
(* NodeBlockClass.cpp:1419-1450 *)
Definition checkDuplicateFunctionsInClassAndAncestors (c : N) : nat := check_family (walk_from root bases false c) [].
(* SymbolTableOfClasses.cpp:254-269 with SymbolClassName.cpp:175-183 and SymbolClassNameTemplate.cpp:1619-1645 *)
Definition checkDuplicateFunctionsForTableOfClasses (tab : list N) : nat :=
  list_sum (map checkDuplicateFunctionsInClassAndAncestors tab).
End Dup.
