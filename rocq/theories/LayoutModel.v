(* LayoutModel.v: sizes of classes and positions of data members and base parts.
   Transcribes src/ulam/SymbolTableOfVariables.cpp:130-266 (sizes of a class's own members), src/ulam/SymbolClassName.cpp:352-408
   (setBitSizeOfClassInstances), src/ulam/SymbolClass.cpp:213-244, 378-395, 568-608 (shared bases), src/ulam/CompilerState.cpp:1937-1945,
   2743-2766, 2796-2866, 2868-2892 (sizes and positions of bases), src/ulam/NodeBlockClass.cpp:2253-2422
   (packBitsForVariableDataMembers) and src/ulam/NodeVarDeclDM.cpp:951-980 (packBitsInOrderOfDeclaration).
   Simplifications: the classes are complete and free of errors (no Hzy, Nav, unknown sizes), so that these functions are past
   their waiting; sizes are unbounded numbers instead of s32/u32 (the limits of 64, 71 and 8192 bits are checked elsewhere); the
   table of variables is summed in declaration order instead of the order of name numbers. The early return of packBits for an
   empty table is not modelled: the parser puts the typedef Self into every class's table (Parser.cpp:447).
   Every base is shared: the parser passes true (Parser.cpp:463, 655), as do SymbolClass.cpp:16 and 24. *)
From Coq Require Import String List NArith ZArith Bool.
From Verif Require Import Base TypeTableModel FamilyModel.
Import ListNotations.
Open Scope N_scope.

(* type of a data member: bits of one item, number of items of an array, an element class? *)
Record mtype : Type := { mt_bits : N; mt_array : option N; mt_element : bool }.
Inductive ckind : Type := Quark | Element | Transient.
Record lclass : Type := { lc_kind : ckind; lc_union : bool; lc_members : list mtype; lc_bases : list N }.

Definition items (m : mtype) : N := match mt_array m with Some n => n | None => 1 end.
(* UlamType.cpp:464-472 *)
Definition getTotalBitSize (m : mtype) : N := mt_bits m * items m.
(* UlamType.cpp:474-477, UlamTypeClassElement.cpp:89-97 *)
Definition getSizeofUlamType (m : mtype) : N := if mt_element m then 96 * items m else getTotalBitSize m.
Definition is_transient (k : ckind) : bool := match k with Transient => true | _ => false end.
Definition is_element (k : ckind) : bool := match k with Element => true | _ => false end.
(* SymbolTableOfVariables.cpp:130-205 *)
Definition getTotalVariableSymbolsBitSize (k : ckind) (ms : list mtype) : N :=
  fold_left (fun t m => t + (if is_transient k && mt_element m then 96 * items m else getTotalBitSize m)) ms 0.
(* SymbolTableOfVariables.cpp:207-266 *)
Definition getMaxVariableSymbolsBitSize (ms : list mtype) : N :=
  fold_left (fun t m => if t <? getTotalBitSize m then getTotalBitSize m else t) ms 0.

Section Layout.
Variable root : N -> N.
Variable classes : N -> option lclass.
Variable compare : N -> N -> cmp.
Definition lbases (c : N) : option (list N) := option_map lc_bases (classes c).

(* SymbolClass.cpp:525-566: mybits *)
Definition mybits (c : N) : N :=
  match classes c with
  | Some k => if lc_union k then getMaxVariableSymbolsBitSize (lc_members k) else getTotalVariableSymbolsBitSize (lc_kind k) (lc_members k)
  | None => 0
  end.
(* CompilerState.cpp:1937-1945, with SymbolClassName.cpp:402 (what setBaseClassBitSize stored: total - shared) *)
Definition getBaseClassBitSize (c : N) : N :=
  match classes c with Some k => if is_element (lc_kind k) then 0 else mybits c | None => 0 end.

(* a std::map<UTI, u32>: the keys in ascending order *)
Fixpoint map_insert (x : N) (m : list (N * N)) : list (N * N) :=
  match m with
  | [] => [(x, 1)]
  | (y, n) :: r => if x =? y then (y, n + 1) :: r else if x <? y then (x, 1) :: m else (y, n) :: map_insert x r
  end.
(* SymbolClass.cpp:213-244 *)
Definition findDirectSharedBases (bs : list N) (m : list (N * N)) : list (N * N) :=
  fold_left (fun m b => if b =? 0 then m else map_insert (root b) m) bs m.
(* CompilerState.cpp:2743-2766 *)
Definition findTheSharedVirtualBases (c : N) : list (N * N) :=
  fold_left (fun m x => match lbases x with Some bs => findDirectSharedBases bs m | None => m end) (walk_from root lbases false c) [].
(* SymbolClass.cpp:378-395; 0 for none *)
Fixpoint shared_item (sh : list N) (buti : N) (i : N) : option N :=
  match sh with
  | [] => None
  | b :: r => if negb (b =? 0) && (match compare b buti with Same => true | _ => false end) then Some i else shared_item r buti (i + 1)
  end.
(* SymbolClass.cpp:568-608: the table of shared bases *)
Definition sharedTable (c : N) : list N :=
  fold_left (fun sh e => match shared_item sh (fst e) 0 with Some _ => sh | None => sh ++ [root (fst e)] end) (findTheSharedVirtualBases c) [].
Definition sharedbits (c : N) : N := fold_left (fun t e => t + getBaseClassBitSize (fst e)) (findTheSharedVirtualBases c) 0.
(* SymbolClassName.cpp:352-408 *)
Definition totalbits (c : N) : N := mybits c + sharedbits c.

(* NodeVarDeclDM.cpp:951-980 *)
Fixpoint pack_members (un : bool) (ms : list mtype) (off : N) : list N * N :=
  match ms with
  | [] => ([], off)
  | m :: r => let '(ps, e) := pack_members un r (if un then off else off + getSizeofUlamType m) in (off :: ps, e)
  end.
(* NodeBlockClass.cpp:2284-2347; None for the error of a base named twice; the position of each item, None for Nouti *)
Fixpoint pack_bases (bs : list N) (seen : list N) (off : N) : option (list (option N) * N) :=
  match bs with
  | [] => Some ([], off)
  | b :: r =>
    if b =? 0 then match pack_bases r seen off with Some (ps, e) => Some (None :: ps, e) | None => None end
    else if mem b seen then None
    else match pack_bases r (b :: seen) (off + getBaseClassBitSize b) with Some (ps, e) => Some (Some off :: ps, e) | None => None end
  end.
(* NodeBlockClass.cpp:2349-2419 *)
Fixpoint pack_shared (bs : list N) (bps : list (option N)) (sh : list N) (off : N) : list (option N) * N :=
  match sh with
  | [] => ([], off)
  | b :: r =>
    match base_item compare bs b 0 with
    | Some i => let '(ps, e) := pack_shared bs bps r off in (nth (N.to_nat i) bps None :: ps, e)
    | None => let '(ps, e) := pack_shared bs bps r (off + getBaseClassBitSize b) in (Some off :: ps, e)
    end
  end.
Record packing : Type := { pk_members : list N; pk_bases : list (option N); pk_shared : list (option N); pk_end : N }.
Definition packBits (c : N) : option packing :=
  match classes c with
  | None => None
  | Some k =>
    let '(mps, o1) := pack_members (lc_union k) (lc_members k) 0 in
    match pack_bases (lc_bases k) [] o1 with
    | None => None
    | Some (bps, o2) =>
      let '(sps, o3) := pack_shared (lc_bases k) bps (sharedTable c) o2 in
      Some {| pk_members := mps; pk_bases := bps; pk_shared := sps; pk_end := o3 |}
    end
  end.

(* CompilerState.cpp:2796-2866; None for false. An unpacked class has the position UNKNOWNSIZE. *)
Fixpoint relpos_loop (fuel : nat) (b : N) (d : deque) (seen : list N) : option N :=
  match fuel with
  | O => None
  | S f =>
    match getNextBasePair root d seen with
    | (None, _, _) => None
    | (Some (x, _), d', seen') =>
      match classes x with
      | None => relpos_loop f b d' seen'
      | Some k =>
        match findNearestBaseClassToAnAncestor root lbases compare x b with
        | None => relpos_loop f b (addAncestorPairsOf false (lc_bases k) 0 d') seen'
        | Some fb =>
          match classes fb with
          | None => None
          | Some fk =>
            match base_item compare (lc_bases fk) b 0 with
            | Some i => match packBits fb with Some p => nth (N.to_nat i) (pk_bases p) None | None => None end
            | None =>
              match shared_item (sharedTable fb) b 0 with
              | Some i => match packBits fb with Some p => nth (N.to_nat i) (pk_shared p) None | None => None end
              | None => relpos_loop f b (addAncestorPairsOf false (lc_bases fk) 0 d') seen'
              end
            end
          end
        end
      end
    end
  end.
Definition getABaseClassRelativePositionInAClass (c b : N) : option N :=
  match compare c b with Same => Some 0 | _ => relpos_loop the_fuel b [(c, 0)] [] end.
(* CompilerState.cpp:2868-2892 *)
Definition getASharedBaseClassRelativePositionInAClass (c b : N) : option N :=
  match compare c b with
  | Same => None
  | _ => match shared_item (sharedTable c) b 0, packBits c with Some i, Some p => nth (N.to_nat i) (pk_shared p) None | _, _ => None end
  end.
End Layout.
