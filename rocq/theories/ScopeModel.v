(* ScopeModel.v: which declaration a name stands for.
   Transcribes src/ulam/CompilerState.cpp:4435-4627 (alreadyDefinedSymbol and the searches of ancestors), 4629-4732
   (alreadyDefinedSymbolHere, isDataMemberIdInClassScope, isIdInLocalFileScope, isFuncIdInClassScope), 7465-7477,
   src/ulam/NodeBlockClass.cpp:1939-1942, src/ulam/NodeBlock.cpp:179-182, src/ulam/NodeIdent.cpp:295-418, 503-563, 686-716 (the look-up of an
   identifier, passes repeated), src/ulam/NodeConstant.cpp:320-379, 454-485, src/ulam/NodeVarDeclDM.cpp:440-490 (data members that
   shadow) and src/ulam/CompilerState.cpp:3790-3885 (a type name not yet known, with the typedefs of the ancestors).
   Simplifications: all classes are complete, so that no kin is hazy; symbol tables are functions (C43); an identifier that the parser
   finds in the current block is not different from one it does not. What comes after a look-up (types, self) is left out. *)
From Coq Require Import String List NArith ZArith Bool.
From Verif Require Import Base TypeTableModel FamilyModel.
Import ListNotations.
Open Scope N_scope.

(* a model parameter is not a constant (Symbol::isConstant) *)
Inductive skind := SVariable | SConstant | STypedef | SModelParameter | SFunction.
(* s_no tells declarations apart. s_local: not isDataMember, or isALocalConstantDef. s_decl: getDeclNodeNo. *)
Record symbol : Type := { s_no : N; s_kind : skind; s_local : bool; s_decl : N; s_type : N }.
Definition isConstant (s : symbol) : bool := match s_kind s with SConstant => true | _ => false end.
Definition table : Type := N -> option symbol.
(* NodeBlockClass: its symbols and its functions *)
Record cblock : Type := { b_st : table; b_fn : table }.
(* a class: its block, for a stub followed by that of its template (getPreviousBlockPointer); its file *)
Record cclass : Type := { k_blocks : list cblock; k_file : N }.
(* what is compiled: blocks of the function, innermost first; the class; with useMemberBlock, the member class block, which may be missing *)
Record context : Type := { x_blocks : list table; x_class : N; x_member : option (option N) }.

(* NodeBlockClass.cpp:1939-1942 *)
Definition class_id (b : cblock) : table := fun id => match b_st b id with Some s => Some s | None => b_fn b id end.
(* the first block with the name where ok *)
Fixpoint first (ok : symbol -> bool) (id : N) (bs : list table) : option symbol :=
  match bs with
  | [] => None
  | t :: r => match t id with Some s => if ok s then Some s else first ok id r | None => first ok id r end
  end.

Section Scope.
Variable root : N -> N.
Variable bases : N -> option (list N).
Variable classes : N -> option cclass.
Variable files : N -> option table.
Variable is_type : N -> bool. (* isPossibleTypeName *)
Variable const_only : bool.   (* m_initSubtreeSymbolsWithConstantsOnly *)

Definition wanted (id : N) (s : symbol) : bool := is_type id || negb const_only || isConstant s.
(* CompilerState.cpp:7465-7477; no blocks for a NULL pointer *)
Definition class_blocks (c : N) : list cblock := match classes c with Some k => k_blocks k | None => [] end.
Definition context_blocks (x : context) : list cblock :=
  match x_member x with Some (Some m) => class_blocks m | Some None => [] | None => class_blocks (x_class x) end.
Definition current_blocks (x : context) : list table :=
  match x_member x with None => x_blocks x | Some _ => [] end ++ map class_id (context_blocks x).
(* CompilerState.cpp:4629-4690, 4712-4732 *)
Definition isDataMemberIdInClassScope (x : context) (id : N) : option symbol := first (wanted id) id (map class_id (context_blocks x)).
Definition isFuncIdInClassScope (x : context) (id : N) : option symbol := first (fun _ => true) id (map b_fn (context_blocks x)).
Definition alreadyDefinedSymbolHere (x : context) (id : N) : option symbol :=
  match first (wanted id) id (current_blocks x) with
  | Some s => Some s
  | None => match isDataMemberIdInClassScope x id with Some s => Some s | None => isFuncIdInClassScope x id end
  end.
(* pushClassContext(baseuti, basecblock, basecblock, false, NULL) *)
Definition of_class (c : N) : context := {| x_blocks := []; x_class := c; x_member := None |}.
Definition declares (id c : N) : bool := match alreadyDefinedSymbolHere (of_class c) id with Some _ => true | None => false end.

(* CompilerState.cpp:4475-4511 *)
Definition alreadyDefinedSymbolByAncestorOf (c id : N) : option symbol :=
  match bases c with
  | None => None
  | Some bs => match search root bases the_fuel false nohead (declares id) (addAncestorPairsOf false bs 0 []) [] with
               | Some (b, _) => alreadyDefinedSymbolHere (of_class b) id
               | None => None
               end
  end.
(* 4594-4627 *)
Definition alreadyDefinedSymbolByAClassOrAncestor (c id : N) : option symbol :=
  match search root bases the_fuel false nohead (declares id) [(c, 0)] [] with
  | Some (b, _) => alreadyDefinedSymbolHere (of_class b) id
  | None => None
  end.
(* 4513-4592: the classes, in the order of the walk, with their symbols. The set of the first version is the classes of this one. *)
Definition alreadyDefinedSymbolByAncestorsOf (c id : N) : list (N * symbol) :=
  flat_map (fun b => match bases b with
                     | Some _ => match alreadyDefinedSymbolHere (of_class b) id with Some s => [(b, s)] | None => [] end
                     | None => [] end) (ancestors_of root bases false c).
(* 4692-4710 *)
Definition isIdInLocalFileScope (x : context) (id : N) : option symbol :=
  let c := match x_member x with Some m => m | None => Some (x_class x) end in
  match c with
  | Some c => match classes c with Some k => match files (k_file k) with Some t => t id | None => None end | None => None end
  | None => None
  end.
(* 4435-4473 *)
Definition alreadyDefinedSymbol (x : context) (id : N) : option symbol :=
  match alreadyDefinedSymbolHere x id with
  | Some s => Some s
  | None =>
    match match x_member x with Some m => m | None => Some (x_class x) end with
    | None => None
    | Some c =>
      match alreadyDefinedSymbolByAncestorOf c id with
      | Some s => Some s
      | None => if match x_member x with Some _ => c =? x_class x | None => true end then isIdInLocalFileScope x id else None
      end
    end
  end.

(* ---- identifiers in a function ---- *)
Inductive meaning := Means (s : symbol) | Undefined | NotConstant | NotVariable.
Definition here (x : context) (bs : list table) : context := {| x_blocks := bs; x_class := x_class x; x_member := x_member x |}.
(* declared after the use with node number use *)
Definition later (use : N) (s : symbol) : bool := s_local s && (use <? s_decl s).
(* NodeConstant: bs are the blocks from the one it searches. A pass looks the name up; if it is used before it is declared, the next
   pass starts from the block around. *)
Fixpoint constant_pass (x : context) (id use : N) (bs : list table) : meaning :=
  match alreadyDefinedSymbol (here x bs) id with
  | None => Undefined
  | Some s =>
    match s_kind s with
    | SConstant => if later use s then match bs with [] => Undefined | _ :: r => constant_pass x id use r end else Means s
    | SModelParameter => Means s
    | _ => NotConstant
    end
  end.
(* the block of the symbol found, getBlockNoOfST, and those around it; none if it is not in these *)
Fixpoint block_of (id : N) (bs : list table) : list table :=
  match bs with
  | [] => []
  | t :: r => match t id with Some s => if wanted id s then bs else block_of id r | None => block_of id r end
  end.
(* NodeIdent, without useMemberBlock *)
Fixpoint ident_pass (x : context) (id use : N) (bs : list table) : meaning :=
  match alreadyDefinedSymbol (here x bs) id with
  | None => Undefined
  | Some s =>
    match s_kind s with
    | SVariable => if later use s then match bs with [] => Undefined | _ :: r => ident_pass x id use r end else Means s
    | SConstant => constant_pass x id use (block_of id bs)
    | SModelParameter => Means s
    | _ => NotVariable
    end
  end.
Definition identifier (x : context) (id use : N) : meaning := ident_pass x id use (x_blocks x).

(* ---- data members ---- *)
(* NodeVarDeclDM.cpp:440-490: the ancestors in the message; none: accepted *)
Definition checkForNoShadowingSubclass (c id : N) : list N := map fst (alreadyDefinedSymbolByAncestorsOf c id).

(* ---- unknown type names ---- *)
(* CompilerState.cpp:3801-3884 of a class, for a name with ok type: what its place holder becomes an alias of *)
Variable okType : N -> bool. (* okUTItoContinue *)
Variable compare : N -> N -> cmp.
Inductive aliased := AliasOf (t : N) | Ambiguous | Elsewhere | Waits.
(* 3852-3871 over the set of types: the type to alias, if they compare the same *)
Fixpoint kin_type (kinset : list N) (kuti : option N) : option (option N) :=
  match kinset with
  | [] => Some kuti
  | t :: r =>
    if okType t then
      match kuti with
      | None => kin_type r (Some (root t))
      | Some k => match compare (root t) k with NotSame => None | _ => kin_type r kuti end
      end
    else kin_type r kuti
  end.
Definition insert (t : N) (l : list N) : list N := if mem t l then l else t :: l.
Definition typedef_of_ancestors (c id : N) : aliased :=
  match alreadyDefinedSymbolByAncestorsOf c id with
  | [] => Elsewhere
  | [(_, s)] => if okType (s_type s) then AliasOf (root (s_type s)) else Waits
  | (b0, s0) :: r =>
    (* 3837-3848: for each i the symbol of the first pair is taken *)
    let kinset := fold_left (fun set (_ : N * symbol) => if okType (s_type s0) then insert (root (s_type s0)) set else set) ((b0, s0) :: r) [] in
    match kin_type kinset None with
    | None => Ambiguous
    | Some None => Waits
    | Some (Some k) => AliasOf k
    end
  end.
End Scope.
