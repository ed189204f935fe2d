(* FamilyModel.v: base classes.
   Transcribes src/ulam/BaseclassWalker.cpp and the loops over it: src/ulam/CompilerState.cpp:2653-2680
   (isClassASubclassOf), 2693-2707 (isBaseClassADirectAncestorOf), 5370-5405 (findNearestBaseClassToAnAncestor),
   src/ulam/SymbolClass.cpp:166-190 (isABaseClassItem) and 2103-2126 (buildIsBitVectorByRegNum).
   Parameters: root, the type an alias stands for (CompilerState::findRootUTIAlias, C31; that it does not abort is
   assumed); bases, the table of base classes of a class that alreadyDefinedSymbolClass finds, the super class first, 0
   (Nouti) if there is none; compare, the comparison of types (C45), which does not abort.
   A type index is 16 bits wide, so that the walker's set of seen classes has at most 65536 members: this is the fuel.
   Running out of it is not possible (C32). *)
From Coq Require Import String List NArith ZArith Bool.
From Verif Require Import Base TypeTableModel.
Import ListNotations.
Open Scope N_scope.

Section Family.
Variable root : N -> N.
Variable bases : N -> option (list N).

Definition deque : Type := list (N * N).
Definition mem (x : N) (l : list N) : bool := existsb (N.eqb x) l.

(* BaseclassWalker.cpp:36-54; breadth-first adds at the end, depth-first at the front, in the table's order *)
Definition addAncestorPairsOf (breadth : bool) (bs : list N) (head : N) (d : deque) : deque :=
  let new := map (fun b => (b, head)) bs in if breadth then d ++ new else new ++ d.

(* BaseclassWalker.cpp:63-96 *)
Fixpoint getNextBasePair (d : deque) (seen : list N) : option (N * N) * deque * list N :=
  match d with
  | [] => (None, [], seen)
  | (b, h) :: d' => let r := root b in if mem r seen then getNextBasePair d' seen else (Some (r, h), d', r :: seen)
  end.

(* the loop `while(walker.getNextBase(baseuti)) if(alreadyDefinedSymbolClass(baseuti)) { ...; addAncestorsOf }`: what is
   visited, and with which head. hd gives the head passed on *)
Fixpoint visits (fuel : nat) (breadth : bool) (hd : N -> N -> N) (d : deque) (seen : list N) : list (N * N) :=
  match fuel with
  | O => []
  | S f =>
    match getNextBasePair d seen with
    | (None, _, _) => []
    | (Some (b, h), d', seen') =>
      let d'' := match bases b with Some bs => addAncestorPairsOf breadth bs (hd b h) d' | None => d' end in
      (b, h) :: visits f breadth hd d'' seen'
    end
  end.

(* the same loop, stopped at the first class where stop holds: `while(!found && ...) { found = stop; if(!found)
   addAncestorsOf }` *)
Fixpoint search (fuel : nat) (breadth : bool) (hd : N -> N -> N) (stop : N -> bool) (d : deque) (seen : list N) : option (N * N) :=
  match fuel with
  | O => None
  | S f =>
    match getNextBasePair d seen with
    | (None, _, _) => None
    | (Some (b, h), d', seen') =>
      match bases b with
      | Some bs => if stop b then Some (b, h) else search f breadth hd stop (addAncestorPairsOf breadth bs (hd b h) d') seen'
      | None => search f breadth hd stop d' seen'
      end
    end
  end.

Definition the_fuel : nat := N.to_nat 65537.
Definition nohead (b h : N) : N := 0.
(* walker.init(cuti), BaseclassWalker.cpp:18-22 *)
Definition walk_from (breadth : bool) (c : N) : list N := map fst (visits the_fuel breadth nohead [(c, 0)] []).
(* walker.addAncestorsOf(csym) without init *)
Definition ancestors_of (breadth : bool) (c : N) : list N :=
  match bases c with
  | Some bs => map fst (visits the_fuel breadth nohead (addAncestorPairsOf breadth bs 0 []) [])
  | None => []
  end.

(* ---- the table of bases ---- *)
Variable compare : N -> N -> cmp.
Definition not_notsame (c : cmp) : bool := match c with NotSame => false | _ => true end.

(* SymbolClass.cpp:171-190; None for -1 *)
Fixpoint base_item (bs : list N) (buti : N) (i : N) : option N :=
  match bs with
  | [] => None
  | b :: r => if negb (b =? 0) && not_notsame (compare b buti) then Some i else base_item r buti (i + 1)
  end.
Definition isABaseClassItem (c buti : N) : option N := match bases c with Some bs => base_item bs buti 0 | None => None end.
Definition has_item (buti c : N) : bool := match isABaseClassItem c buti with Some _ => true | None => false end.

(* CompilerState.cpp:2655-2680; the types are dereferenced already *)
Definition isClassASubclassOf (c b : N) : bool :=
  if c =? b then false
  else match search the_fuel false nohead (has_item b) [(c, 0)] [] with Some _ => true | None => false end.

(* CompilerState.cpp:5370-5405 *)
Definition keep_head (b h : N) : N := if h =? 0 then b else h.
Definition findNearestBaseClassToAnAncestor (c a : N) : option N :=
  match search the_fuel false keep_head (has_item a) [(c, 0)] [] with
  | Some (b, h) => Some (if h =? 0 then b else h)
  | None => None
  end.

(* SymbolClass.cpp:2103-2126; the registry numbers of the bits set *)
Variable regnum : N -> N.
Definition isBits (c : N) : list N := map regnum (filter (fun b => match bases b with Some _ => true | None => false end) (walk_from false c)).

End Family.
