(* ClassSizeModel.v: finding the bit sizes of the classes.
   Transcribes src/ulam/SymbolTableOfVariables.cpp:130-266 (getTotalVariableSymbolsBitSize, getMaxVariableSymbolsBitSize),
   352-526 (calcVariableSymbolTypeSize), src/ulam/NodeBlockClass.cpp:2026-2109 (sizes of the bases),
   src/ulam/SymbolClass.cpp:523-608 (trySetBitsizeWithUTIValues, determineSharedBasesAndTotalBitsize),
   src/ulam/SymbolClassName.cpp:352-408 (setBitSizeOfClassInstances), src/ulam/SymbolTableOfClasses.cpp:442-495,
   src/ulam/CompilerState.cpp:1937-1945, 2076-2235 (setUTIBitSize, setUTISizes, setBaseClassBitSize of scalar classes),
   src/ulam/UlamTypeClass.cpp:12,33-51 and src/ulam/Compiler.cpp:232-266, 375-391 (the resolving loop).
   Simplifications:
   - regular classes only, no template instances; a class has one type index, that of its scalar; sizes are unbounded integers
     where the code has s32 and u32;
   - a member's type is a primitive type of known size, a class, an array of a class, or not known at all (MHzy). The length of
     an array of a class is evaluated only when the class is complete (NodeTypeDescriptorArray.cpp:157-219, the test isReadyType),
     so such a type is unknown until the labelling after the pass that sized the class. This is the only thing the labelling
     does here; the branch SymbolTableOfVariables.cpp:388-419 for an array of known length of an unsized class is then dead.
   - EMPTYSYMBOLTABLE does not occur: the table of a class holds the typedef Self (Parser.cpp:447);
   - the table of variables is read in the order of declaration instead of the order of name numbers;
   - messages are counted (errors only); a failed assert sets st_bad and the pass goes on. *)
From Coq Require Import String List NArith ZArith Bool.
From Verif Require Import Base TypeTableModel FamilyModel LayoutModel.
Import ListNotations.
Open Scope Z_scope.

(* include/Constants.h:132-215 *)
Definition UNKNOWNSIZE : Z := -2.
Definition CYCLEFLAG : Z := -12.
Definition limit (k : ckind) : Z := match k with Quark => 64 | Element => 71 | Transient => 8192 end.

Inductive smember : Type :=
  | MPrim (bits : N) (arr : option N)   (* not a class: bits of an item, items *)
  | MClass (c : N)
  | MArray (c : N) (n : N)
  | MHzy.
(* sc_stub: a stub, an anonymous or an unseen class *)
Record sclass : Type := { sc_kind : ckind; sc_union : bool; sc_stub : bool; sc_members : list smember; sc_bases : list N }.

(* st_size: the bit size in the key of a class's type; st_base: m_bitsizeAsBaseClass of the type; st_lab: arrays of the class
   have their length and size; st_errs: errors *)
Record sstate : Type := { st_size : N -> Z; st_base : N -> Z; st_lab : N -> bool; st_errs : nat; st_bad : bool }.
Definition upd {A} (f : N -> A) (c : N) (v : A) : N -> A := fun x => if N.eqb x c then v else f x.
Definition error (st : sstate) : sstate :=
  {| st_size := st_size st; st_base := st_base st; st_lab := st_lab st; st_errs := S (st_errs st); st_bad := st_bad st |}.
Definition failed (st : sstate) : sstate :=
  {| st_size := st_size st; st_base := st_base st; st_lab := st_lab st; st_errs := st_errs st; st_bad := true |}.
(* UlamType.cpp:514-517 *)
Definition complete (st : sstate) (c : N) : bool := negb (st_size st c <=? UNKNOWNSIZE).

Section Sizes.
Variable root : N -> N.
Variable classes : N -> option sclass.

Definition kind (c : N) : option ckind := option_map sc_kind (classes c).
Definition elementb (c : N) : bool := match kind c with Some Element => true | _ => false end.

(* the part of a class the walk over the bases looks at *)
Definition bare (c : N) : option lclass :=
  option_map (fun k => {| lc_kind := sc_kind k; lc_union := sc_union k; lc_members := []; lc_bases := sc_bases k |}) (classes c).

(* CompilerState.cpp:2082-2188 for a scalar class: a new key is a new UlamType, its size as a base class unknown *)
Definition setUTIBitSize (c : N) (bits : Z) (st : sstate) : sstate :=
  if complete st c then st
  else match kind c with
  | None => st
  | Some k =>
    if bits >? limit k then error st
    else if st_size st c =? bits then st
    else {| st_size := upd (st_size st) c bits; st_base := upd (st_base st) c UNKNOWNSIZE; st_lab := st_lab st;
            st_errs := st_errs st; st_bad := st_bad st |}
  end.

(* CompilerState.cpp:1937-1945 *)
Definition getBase (c : N) (st : sstate) : Z :=
  match kind c with None | Some Element => 0 | _ => st_base st c end.

(* CompilerState.cpp:2191-2235, UlamTypeClass.cpp:41-51 *)
Definition setBaseClassBitSize (c : N) (bits : Z) (st : sstate) : sstate * bool :=
  match kind c with
  | None => (st, false)
  | Some Element => (st, true)
  | Some k =>
    if bits >? limit k then (error st, false)
    else if st_base st c >? 0 then ((if bits =? st_base st c then st else failed st), true)
    else ({| st_size := st_size st; st_base := upd (st_base st) c bits; st_lab := st_lab st; st_errs := st_errs st; st_bad := st_bad st |}, true)
  end.

(* SymbolClass.cpp:568-608: the size of the shared bases; None to wait. It asserts that they are complete *)
Fixpoint shared_loop (l : list (N * N)) (acc : Z) (st : sstate) : sstate * option Z :=
  match l with
  | [] => (st, Some acc)
  | (b, _) :: r =>
    let st1 := if complete st b then st else failed st in
    if getBase b st1 =? UNKNOWNSIZE then (st1, None) else shared_loop r (acc + getBase b st1) st1
  end.
Definition determineShared (c : N) (st : sstate) : sstate * option Z := shared_loop (findTheSharedVirtualBases root bare c) 0 st.

(* what sizing a nested class does: trySetBitsizeWithUTIValues, None for false, else mybits *)
Definition nested : Type := N -> sstate -> list N -> sstate * list N * option Z.

(* SymbolTableOfVariables.cpp:352-526, in the context of the class ctx *)
Definition calcVariableSymbolTypeSize (rec : nested) (ctx : N) (m : smember) (st : sstate) (seen : list N) : sstate * list N * Z :=
  match m with
  | MHzy => (st, seen, UNKNOWNSIZE)
  | MPrim b _ => (st, seen, Z.of_N b)
  | MArray c _ => (st, seen, if st_lab st c then st_size st c else UNKNOWNSIZE)
  | MClass c =>
    if st_size st c >=? 0 then (st, seen, st_size st c)
    else if st_size st c =? CYCLEFLAG then (st, seen, CYCLEFLAG)
    else match classes c with
    | None => (st, seen, UNKNOWNSIZE)
    | Some k =>
      if sc_stub k then (st, seen, UNKNOWNSIZE)
      else if N.eqb c ctx then (error st, seen, UNKNOWNSIZE)
      else if mem c seen then (setUTIBitSize c CYCLEFLAG st, seen, CYCLEFLAG)
      else
        let '(st1, seen1, r) := rec c st (c :: seen) in
        match r with
        | None => (st1, seen1, UNKNOWNSIZE)
        | Some my =>
          let '(st2, sh) := determineShared c st1 in
          match sh with
          | None => (st2, seen1, UNKNOWNSIZE)
          | Some s => let '(st3, ok) := setBaseClassBitSize c my st2 in (st3, seen1, if ok : bool then my + s else UNKNOWNSIZE)
          end
        end
    end
  end.

(* UlamType.cpp:464-472: unknown sizes count as 0 *)
Definition known (z : Z) : Z := if z =? UNKNOWNSIZE then 0 else z.
Definition memberTotal (m : smember) (st : sstate) : Z :=
  match m with
  | MPrim b a => Z.of_N b * match a with Some n => Z.of_N n | None => 1 end
  | MClass c => known (st_size st c)
  | MArray c n => known (st_size st c) * Z.of_N n
  | MHzy => 0
  end.
(* what a member adds in a class of kind k: SymbolTableOfVariables.cpp:191-204 *)
Definition memberSize (k : ckind) (m : smember) (st : sstate) : Z :=
  match k, m with
  | Transient, MClass c => if elementb c then 96 else memberTotal m st
  | Transient, MArray c n => if elementb c then 96 * Z.of_N n else memberTotal m st
  | _, _ => memberTotal m st
  end.

(* SymbolTableOfVariables.cpp:130-208. A size is set for scalar classes only: the other types are complete *)
Fixpoint total_loop (rec : nested) (ctx : N) (k : ckind) (ms : list smember) (acc : Z) (st : sstate) (seen : list N) : sstate * list N * Z :=
  match ms with
  | [] => (st, seen, acc)
  | m :: r =>
    let '(st1, seen1, s) := calcVariableSymbolTypeSize rec ctx m st seen in
    if s =? CYCLEFLAG then (error st1, seen1, CYCLEFLAG)
    else if s <=? UNKNOWNSIZE then (st1, seen1, UNKNOWNSIZE)
    else
      let st2 := match m with
                 | MClass c =>
                   let save := getBase c st1 in
                   let st' := setUTIBitSize c s st1 in
                   if save =? UNKNOWNSIZE then st' else fst (setBaseClassBitSize c save st')
                 | _ => st1
                 end in
      total_loop rec ctx k r (acc + memberSize k m st2) st2 seen1
  end.

(* SymbolTableOfVariables.cpp:210-266: does not keep the size as a base class *)
Fixpoint max_loop (rec : nested) (ctx : N) (ms : list smember) (acc : Z) (st : sstate) (seen : list N) : sstate * list N * Z :=
  match ms with
  | [] => (st, seen, acc)
  | m :: r =>
    let '(st1, seen1, s) := calcVariableSymbolTypeSize rec ctx m st seen in
    if s =? CYCLEFLAG then (error st1, seen1, CYCLEFLAG)
    else if s <=? UNKNOWNSIZE then (st1, seen1, UNKNOWNSIZE)
    else
      let st2 := match m with MClass c => setUTIBitSize c s st1 | _ => st1 end in
      let x := memberTotal m st2 in
      max_loop rec ctx r (if x >? acc then x else acc) st2 seen1
  end.

(* NodeBlockClass.cpp:2037-2056, 2081-2096: the first negative size of a base *)
Fixpoint bases_loop (bs : list N) (st : sstate) : option Z :=
  match bs with
  | [] => None
  | b :: r => if N.eqb b 0 then bases_loop r st else if st_size st b <? 0 then Some (st_size st b) else bases_loop r st
  end.

(* SymbolClass.cpp:523-566 with NodeBlockClass.cpp:2026-2109, for an incomplete class *)
Fixpoint trySetBitsize (fuel : nat) : nested := fun c st seen =>
  match fuel with
  | O => (failed st, seen, None)
  | S f =>
    match classes c with
    | None => (failed st, seen, None)
    | Some k =>
      let '(st1, seen1, t) :=
        match bases_loop (sc_bases k) st with
        | Some z => (st, seen, z)
        | None => if sc_union k then max_loop (trySetBitsize f) c (sc_members k) 0 st seen
                  else total_loop (trySetBitsize f) c (sc_kind k) (sc_members k) 0 st seen
        end in
      if t =? CYCLEFLAG then (error st1, seen1, None)
      else if t =? UNKNOWNSIZE then (st1, seen1, None)
      else (st1, seen1, Some t)
    end
  end.

(* the classes of the program in the order of their name numbers *)
Variable tab : list N.

(* SymbolClassName.cpp:352-408, with the test of SymbolTableOfClasses.cpp:451-465 *)
Definition setBitSize (st : sstate) (c : N) : sstate :=
  match classes c with
  | None => st
  | Some k =>
    if complete st c || sc_stub k then st
    else
      let '(st1, _, r) := trySetBitsize (S (List.length tab)) c st [c] in
      match r with
      | None => st1
      | Some my =>
        let '(st2, sh) := determineShared c st1 in
        match sh with
        | None => st2
        | Some s =>
          let st3 := setUTIBitSize c (my + s) st2 in
          if negb (st_size st3 c =? my + s) then error st3 else fst (setBaseClassBitSize c (my + s - s) st3)
        end
      end
  end.

(* SymbolTableOfClasses.cpp:442-495, then the labelling *)
Definition label (st : sstate) : sstate :=
  {| st_size := st_size st; st_base := st_base st; st_lab := complete st; st_errs := st_errs st; st_bad := st_bad st |}.
Definition pass (st : sstate) : sstate := label (fold_left setBitSize tab st).

(* Compiler.cpp:243-264: the loop ends after a pass with an error; at most 100 passes *)
Fixpoint passes (n : nat) (st : sstate) : sstate :=
  match n with
  | O => st
  | S m => let st' := passes m st in if Nat.eqb (st_errs st') 0 then pass st' else st'
  end.
Definition start : sstate :=
  {| st_size := fun _ => UNKNOWNSIZE; st_base := fun _ => UNKNOWNSIZE; st_lab := fun _ => false; st_errs := 0; st_bad := false |}.
Definition resolving_loop : sstate := passes 100 start.
End Sizes.
