(* ClassCastModel.v: casts between classes, references to them and Atom.
   Transcribes what the compiler accepts: src/ulam/UlamType.cpp:96-116 (safeCast), src/ulam/UlamTypeClass.cpp:58-132 (safeCast,
   explicitlyCastable), src/ulam/UlamTypeClassElement.cpp:60-70, src/ulam/UlamTypeClassQuark.cpp:92-104,
   src/ulam/UlamTypeClassTransient.cpp:74-84 (explicitlyCastable), src/ulam/UlamTypeAtom.cpp:103-139 (both) and the checks of
   src/ulam/NodeCast.cpp:240-370 (checkAndLabelType); what the evaluator does with the pointer of a reference: NodeCast.cpp:655-790
   (evalToStoreInto) with the cast methods UlamTypeClassElement.cpp:34-58, UlamTypeClassQuark.cpp:25-90,
   UlamTypeClassTransient.cpp:24-72, UlamTypeAtom.cpp:71-101; what the generated code does: NodeCast.cpp:1314-1380
   (genCodeCastAtomToElement), 2026-2060 (genCodeCastDescendant), 2359-2398 (genCodeCastAncestorQuarkAsSub), 2480-2590
   (genPositionOfBaseIntoATmpVar); and how the evaluator takes the part of a base out of a value: src/ulam/CompilerState.cpp:6469-6566.
   Simplifications: classes are complete and scalar (no arrays, nothing Hzy); casts to and from primitive types are not here (C74);
   constants are no operands; a class type is named by its root; of a pointer the position and what is needed to find it are kept,
   not the length; a data member by itself as operand (nodehasDM, NodeCast.cpp:722-730) and a custom array item are not covered. *)
From Coq Require Import String List NArith ZArith Bool.
From Verif Require Import Base TypeTableModel FamilyModel LayoutModel IsAsModel.
Import ListNotations.
Open Scope N_scope.

(* include/UlamKeyTypeSignature.h: ALT_NOT, ALT_REF, ALT_CONSTREF, ALT_AS *)
Inductive alt : Type := NotRef | Ref | ConstRef | AsRef.
Inductive cty : Type := TAtom (a : alt) | TClass (a : alt) (c : N).
Definition alt_of (t : cty) : alt := match t with TAtom a => a | TClass a _ => a end.
(* UlamType.cpp:495-507 *)
Definition isReference (a : alt) : bool := match a with NotRef => false | _ => true end.
Definition isAltRefType (a : alt) : bool := match a with Ref | ConstRef => true | _ => false end.

Inductive castresult : Type :=
| CastUnevaluable          (* the evaluation stops: UNEVALUABLE *)
| CastAssert               (* an assertion fails *)
| CastTo (pos : Z).        (* the pointer of the result *)
Inductive genresult : Type :=
| GuardFails               (* FAIL(BAD_CAST) of the test written before the cast *)
| PositionFails            (* the position asked for does not exist *)
| GenTo (pos : Z).

Section ClassCast.
Variable root : N -> N.
Variable classes : N -> option lclass.
Variable compare : N -> N -> cmp.
Notation isSub := (isSubclass root classes compare).
Notation same := (isSame compare).
Notation kind c := (kind_of root classes c).

(* UlamType.cpp:96-116; true for CAST_CLEAR, false for CAST_BAD *)
Definition base_safeCast (to from : cty) : bool :=
  negb (match alt_of from, alt_of to with ConstRef, Ref => true | _, _ => false end).
(* UlamTypeClass.cpp:58-95, UlamTypeAtom.cpp:103-120 *)
Definition safeCast (to from : cty) : bool :=
  base_safeCast to from &&
  match to with
  | TClass _ t => match from with TClass _ f => isSub f t || same f t | TAtom _ => false end
  | TAtom _ => match from with TAtom _ => true | TClass _ f => match kind f with Some Element => true | _ => false end end
  end.
(* UlamTypeClass.cpp:97-132 *)
Definition class_castable (t : N) (to from : cty) : bool :=
  base_safeCast to from &&
  match from with
  | TAtom _ => true
  | TClass a f => if isSub t f then isAltRefType a else isSub f t || same f t
  end.
Definition explicitlyCastable (to from : cty) : bool :=
  match to with
  | TClass _ t =>
    let scr := class_castable t to from in
    let fromatom := match from with TAtom _ => true | _ => false end in
    match kind t with
    | Some Element => scr || fromatom                                  (* UlamTypeClassElement.cpp:60-70 *)
    | Some Transient => scr && negb fromatom                           (* UlamTypeClassTransient.cpp:74-84 *)
    | _ => scr                                                         (* UlamTypeClassQuark.cpp:92-104: nothing new but from Bits *)
    end
  | TAtom _ =>                                                         (* UlamTypeAtom.cpp:122-139 *)
    base_safeCast to from &&
    match from with
    | TAtom _ => true
    | TClass a f => match kind f with Some Quark => isAltRefType a | Some Transient => false | _ => true end
    end
  end.
(* NodeCast.cpp:240-370: an explicit cast, written by the user, without errors *)
Definition explicit_accepted (to from : cty) : bool :=
  negb (match to, from with TClass _ t, TAtom _ => match kind t with Some Transient => true | _ => false end | _, _ => false end) &&
  negb (match to, from with
        | TAtom ta, TClass a f => isReference ta && (match kind f with Some Quark => negb (isReference a) | _ => false end)
        | _, _ => false end) &&
  explicitlyCastable to from.

(* ---- the evaluator, for references ---- *)
(* UlamTypeClassElement.cpp:34-58, UlamTypeClassQuark.cpp:25-90, UlamTypeClassTransient.cpp:24-72: whether a value with the type
   vt (and effective self eff, for an atom) can be cast *)
Definition value_cast (t : N) (vt : otype) (eff : N) : bool :=
  match kind t with
  | Some Element => match vt with OAtom => same eff t | OClass s => same s t end
  | Some Quark => let s := match vt with OAtom => eff | OClass s => s end in same s t || isSub s t
  | Some Transient => match vt with OAtom => false | OClass s => same s t || isSub s t end
  | None => false
  end.
(* UlamTypeAtom.cpp:71-101, for values with their own type *)
Definition value_cast_atom (vt : otype) : bool := match vt with OAtom => true | OClass s => match kind s with Some Element => true | _ => false end end.

(* the operand's pointer: effective self (0 for Nouti) and position; the value in the storage it points into: its type and its
   effective self *)
Record pointer : Type := { p_eff : N; p_pos : Z; p_stg : otype; p_stgeff : N }.
Definition same_object (x y : cty) : bool :=
  match x, y with TAtom _, TAtom _ => true | TClass _ a, TClass _ b => same a b | _, _ => false end.
(* NodeCast.cpp:686-784. Operands of the same type or that differ in being references only keep their pointer. *)
Definition eval_ref_cast (to node : cty) (p : pointer) : castresult :=
  if same_object node to then CastTo (p_pos p)
  else
    let stgisnodetype := match p_stg p, node with OAtom, TAtom _ => true | OClass s, TClass _ c => same s c | _, _ => false end in
    let castok := match to with TClass _ t => value_cast t (p_stg p) (p_stgeff p) | TAtom _ => value_cast_atom (p_stg p) end in
    if stgisnodetype && negb castok then CastUnevaluable
    else
      match node, to with
      | TClass _ c, TClass _ t =>
        let eff := if p_eff p =? 0 then c else p_eff p in
        if isSub eff t then
          match relpos root classes compare eff t, relpos root classes compare eff c with
          | Some b, Some r2 => CastTo (p_pos p + Z.of_N b - Z.of_N r2)
          | _, _ => CastAssert
          end
        else if isSub t c then
          match relpos root classes compare t c with Some b => CastTo (p_pos p - Z.of_N b) | None => CastAssert end
        else CastTo (p_pos p)
      | TAtom _, TClass _ t =>
        match relpos root classes compare (p_stgeff p) t with
        | Some b => CastTo (p_pos p + Z.of_N b + (match p_stg p with OAtom => 25 | _ => 0 end))
        | None => CastTo (p_pos p)
        end
      | _, TAtom _ => CastTo (p_pos p)
      end.

(* ---- the generated code, for references to classes ---- *)
Variable reg : N -> N.
(* A reference at run time: its effective self, its position in the storage, and how far that is from the beginning of the
   effective self (GetPosToEffectiveSelf). EXTERNAL: UlamRef is part of the simulator, not of /repo. *)
Record gref : Type := { g_eff : N; g_pos : Z; g_toeff : Z }.
(* NodeCast.cpp:2038-2060, 2377-2398: the test written before a cast of a v to a t: on the instance of the class t, with the
   registration number of v *)
Definition gen_guard (v t : N) : bool := if isSub t v then IsMethod root classes compare reg t (reg v) else true.
(* NodeCast.cpp:2480-2590 (an operand that is a reference variable) with 2026-2060, 2359-2440: the position of the t in the
   effective self, from the position of the operand.
   EXTERNAL: ...GetRelativePositionOfBaseClassWithCheck calls GetRelativePositionOfBaseClass and fails if there is none. *)
Definition gen_ref_cast (v t : N) (g : gref) : genresult :=
  if negb (gen_guard v t) then GuardFails
  else if isSub t v || isSub v t then
    let rp := GetRelPos root classes compare reg (g_eff g) (reg t) in
    if (rp <? 0)%Z then PositionFails else GenTo (g_pos g + (rp - g_toeff g))
  else GenTo (g_pos g).
(* The same, an operand that is no reference, of class v, whose first bit is at position start (25 for an element, NodeCast.cpp:2238-2290):
   the position of the base is known to the compiler *)
Definition gen_value_cast (v t : N) (start : Z) : genresult :=
  if negb (gen_guard v t) then GuardFails
  else if isSub t v then PositionFails (* abortShouldntGetHere *)
  else if isSub v t then match relpos root classes compare v t with Some q => GenTo (Z.of_N q + start) | None => PositionFails end
  else GenTo start.
(* NodeCast.cpp:1330-1380: the test written before a cast of an atom, with the element e in it, to the element t *)
Definition gen_atom_guard (t e : N) : bool := IsMethodAtom t e.

(* ---- the part of a base, taken out of a value ---- *)
(* Values are bits by position; UlamValue::getDataLong/putDataLong and getDataBig/putDataBig move len bits. *)
Definition bits : Type := N -> bool.
Definition move (fm : bits) (fpos : N) (to : bits) (tpos len : N) : bits :=
  fun i => if (tpos <=? i) && (i <? tpos + len) then fm (fpos + (i - tpos)) else to i.
(* CompilerState.cpp:6486-6516, 6536-6566; maxlen is MAXBITSPERLONG = 64 for quarks, MAXSTATEBITS = 71 for transients; None for a
   failed assertion *)
Definition extract_step (maxlen cuti tuti : N) (fm : bits) (acc : option bits) (base : N) : option bits :=
  match acc, classes base with
  | Some to, Some _ =>
    let blen := getBaseClassBitSize classes base in
    if maxlen <? blen then None
    else if 0 <? blen then
      match relpos root classes compare cuti base, relpos root classes compare tuti base with
      | Some f, Some t => Some (move fm (25 + f) to (25 + t) blen)
      | _, _ => Some to
      end
    else Some to
  | _, _ => acc
  end.
Definition extractBase (maxlen cuti buti tuti : N) (fm to : bits) : option bits :=
  let related x := isSub x buti || isSub buti x || same x buti in
  if related cuti && related tuti then fold_left (extract_step maxlen cuti tuti fm) (walk_from root (lbases classes) false buti) (Some to)
  else None.
End ClassCast.
