(* IsAsModel.v: the conditions "is" and "as", and the registration numbers of classes.
   Transcribes src/ulam/NodeConditionalIs.cpp:60-160, 169-247 (checkAndLabelType, eval), src/ulam/NodeConditionalAs.cpp:66-300,
   302-461 (the same), the code that both generate (NodeConditionalIs.cpp:249-388, NodeConditionalAs.cpp:463-618) with the methods
   they call in the generated classes (src/ulam/NodeBlockClass.cpp:3310-3561), and src/ulam/CompilerState.cpp:7333-7343
   (assignClassId) with src/ulam/SymbolClass.cpp:1102-1132, 1195-1208 (assignRegistryNumber, getRegistryNumber).
   Simplifications: the classes are complete (C37), so that nothing waits (Hzy) and no name is unknown (Nav); arrays, function
   calls and super as left operands of "as" are refused by the parser tree's shape, and are not modelled; of a pointer only the
   type of its target, its effective self and its position are kept; the length of the target, which makePtr checks against the
   96 bits of an atom (UlamValue.cpp:206-213), is not. *)
From Coq Require Import String List NArith ZArith Bool.
From Verif Require Import Base TypeTableModel FamilyModel LayoutModel.
Import ListNotations.
Open Scope N_scope.

(* The left operand's value, as evalToStoreInto leaves it: what the pointer says (type of its target, its effective self, 0 for
   Nouti, its position) and what the storage slot holds behind it (getPtrTarget: the type of the value, its effective self).
   A class type may be a reference; Atom also stands for Atom references. *)
Inductive otype : Type := OAtom | OClass (u : N).
Record view : Type := { v_target : otype; v_eff : N; v_pos : N; v_stg : otype; v_stgeff : N }.
Inductive asresult : Type :=
| AsNo                                    (* false *)
| AsYes (target eff : N) (pos : Z)        (* true, with the pointer the block's variable gets *)
| AsUnevaluable
| AsAssert.                               (* an assertion fails *)

Section IsAs.
Variable root : N -> N.
Variable classes : N -> option lclass.
Variable compare : N -> N -> cmp.
Notation bases := (lbases classes).
Definition isSame (x y : N) : bool := match compare x y with Same => true | _ => false end.
Definition isSubclass (x y : N) : bool := isClassASubclassOf root bases compare (root x) (root y).
Definition kind_of (u : N) : option ckind := option_map lc_kind (classes (root u)).
Definition is_atom (o : otype) : bool := match o with OAtom => true | _ => false end.

(* NodeConditionalIs.cpp:194-235 *)
Definition eval_is (v : view) (r : N) : bool :=
  let leffself := if v_eff v =? 0 then (match v_stg v with OAtom => v_stgeff v | OClass s => s end) else v_eff v in
  (* UlamType.cpp:678-681: compares without regard to references; an atom is no class *)
  let luti := match v_stg v with
              | OAtom => v_target v
              | OClass s => if isSame (root leffself) s then OClass s else v_target v
              end in
  match luti with
  | OAtom => negb (v_stgeff v =? 0) && (isSame (v_stgeff v) r || isSubclass (v_stgeff v) r)
  | OClass u => isSame (root u) r || isSubclass u r || isSame leffself r || isSubclass leffself r
  end.

(* CompilerState.cpp:2796-2866 for the two calls in NodeConditionalAs.cpp:420-433 *)
Definition relpos (c b : N) : option N := getABaseClassRelativePositionInAClass root classes compare (root c) (root b).

(* NodeConditionalAs.cpp:405-447 *)
Definition as_pointer (leftisatom : bool) (v : view) (luti leffself : N) (rk : ckind) (r : N) : asresult :=
  let eff := match rk with Element => leffself | _ => if leffself =? 0 then luti else leffself end in
  let plus := match rk with Element => Some 0 | _ => if isSubclass eff r then relpos eff r else Some 0 end in
  let minus := match rk with Element => Some 0 | _ => if isSubclass eff luti then relpos eff luti else Some 0 end in
  match plus, minus with
  | Some p, Some m => AsYes r eff (Z.of_N (v_pos v) + Z.of_N p - Z.of_N m + (if leftisatom && (v_pos v =? 0) then 25 else 0))
  | _, _ => AsAssert
  end.

(* NodeConditionalAs.cpp:316-447 *)
Definition eval_as (v : view) (r : N) : asresult :=
  let leftisatom := is_atom (v_target v) || is_atom (v_stg v) in
  let '(luti, leffself) :=
    if leftisatom then
      if negb (v_eff v =? 0) then (OClass (v_eff v), v_eff v)
      else if negb (v_stgeff v =? 0) then (OClass (v_stgeff v), v_stgeff v)
      else match v_stg v with OClass s => (OClass s, s) | OAtom => (v_target v, 0) end
    else (v_target v, v_eff v) in
  match kind_of r with
  | None => AsAssert
  | Some Quark =>
    match luti with
    | OAtom => AsUnevaluable
    | OClass u =>
      if (negb (leffself =? 0) && isSame leffself r) || isSubclass u r || (negb (leffself =? 0) && isSubclass leffself r)
      then as_pointer leftisatom v u leffself Quark r
      else match kind_of u with
           | Some Transient => if 71 <? totalbits root classes (root u) then AsUnevaluable else AsNo
           | _ => AsNo
           end
    end
  | Some Element =>
    match luti with
    | OAtom => AsUnevaluable
    | OClass u => let eff := if leffself =? 0 then u else leffself in
                  if isSame eff r then as_pointer leftisatom v u eff Element r else AsNo
    end
  | Some Transient =>
    match luti with
    | OAtom => AsNo
    | OClass u => if isSubclass u r then as_pointer leftisatom v u leffself Transient r else AsNo
    end
  end.

(* The kind of the left operand as checkAndLabelType sees it: an atom (or a reference to one), or a class or reference to a class
   (also the variable of an enclosing "as", ALT_AS) *)
Inductive lefttype : Type := LAtom | LClass (k : ckind) (ref : bool).
(* NodeConditionalAs.cpp:150-232: true if the types are accepted, r a class *)
Definition as_accepts (l : lefttype) (rk : ckind) : bool :=
  match l with
  | LAtom | LClass Element _ => match rk with Transient => false | _ => true end
  | LClass Transient _ => match rk with Element => false | _ => true end
  | LClass Quark ref => ref || (match rk with Quark => true | _ => false end)
  end.

(* ---- the generated code ---- *)
Variable reg : N -> N.    (* SymbolClass::getRegistryNumber *)

(* NodeBlockClass.cpp:3500-3561: the cases of the switch; a std::map keeps the first entry of a key *)
Definition relpos_cases (c : N) : list (N * option N) :=
  (reg c, Some 0) :: map (fun b => (reg b, getASharedBaseClassRelativePositionInAClass root classes compare c b)) (filter (fun b => negb (b =? 0)) (sharedTable root classes compare c)).
(* NodeBlockClass.cpp:3439-3498: GetRelPos; -999999 by default *)
Fixpoint switch (cases : list (N * option N)) (rn : N) : Z :=
  match cases with
  | [] => (-999999)%Z
  | (k, p) :: rest => if k =? rn then match p with Some q => Z.of_N q | None => (-1)%Z end else switch rest rn
  end.
Definition GetRelPos (c : N) (rn : N) : Z := switch (relpos_cases c) rn.
(* NodeBlockClass.cpp:3310-3397: the Is methods, with a class instance or a registration number as argument *)
Definition IsMethod (c : N) (rn : N) : bool := (0 <=? GetRelPos c rn)%Z.
(* NodeBlockClass.cpp:3400-3436: the Is method of an element for atoms; two element classes have the same ELEMENT_TYPE only if
   they are the same (C35) *)
Definition IsMethodAtom (element atomtype : N) : bool := element =? atomtype.

(* What the generated code tests: NodeConditionalIs.cpp:249-388, NodeConditionalAs.cpp:463-618. A class variable has the static
   class c; a reference has its effective self; an atom the element in it, asked for an element. The test of an atom for a quark is
   a method of the simulator's (UlamClass::IsMethod), not in /repo. *)
Inductive lefthand : Type := HClass (c : N) | HRef (static eff : N) | HAtom (element : N).
Definition gen_is (h : lefthand) (r : N) : option bool :=
  match h with
  | HClass c => Some (IsMethod (root c) (reg r))
  | HRef _ eff => Some (IsMethod eff (reg r))
  | HAtom e => match kind_of r with Some Element => Some (IsMethodAtom r e) | _ => None end
  end.
Definition gen_as (h : lefthand) (r : N) : option bool := gen_is h r.
End IsAs.

(* ---- registration numbers ---- *)
(* include/Constants.h:104 *)
Definition MAX_REGISTRY_NUMBER : N := 1000.
Record registry : Type := { rg_table : list N; rg_number : N -> option N }.
(* CompilerState.cpp:150: place 0 is for UrSelf *)
Definition registry0 : registry := {| rg_table := [0]; rg_number := fun _ => None |}.
Section Registry.
Variable urself : N.
Variable complete : N -> bool.
(* CompilerState.cpp:7333-7343; None for a failed assertion *)
Definition assignClassId (g : registry) (c : N) : option (list N * N) :=
  if c =? urself then Some (match rg_table g with _ :: r => c :: r | [] => [c] end, 0)
  else if N.of_nat (List.length (rg_table g)) <? MAX_REGISTRY_NUMBER then Some (rg_table g ++ [c], N.of_nat (List.length (rg_table g)))
  else None.
(* SymbolClass.cpp:1195-1208 with 1102-1132 (no number is given twice; a number not below the maximum fails the assertion);
   the answer None is UNINITTED_REGISTRY_NUMBER *)
Definition getRegistryNumber (g : registry) (c : N) : option (registry * option N) :=
  match rg_number g c with
  | Some n => Some (g, Some n)
  | None =>
    if complete c then
      match assignClassId g c with
      | Some (t, n) => if n <? MAX_REGISTRY_NUMBER then Some ({| rg_table := t; rg_number := fun x => if x =? c then Some n else rg_number g x |}, Some n) else None
      | None => None
      end
    else Some (g, None)
  end.
End Registry.
Fixpoint requests (urself : N) (cs : list (N * (N -> bool))) (g : registry) : option registry :=
  match cs with
  | [] => Some g
  | (c, complete) :: r => match getRegistryNumber urself complete g c with Some (g', _) => requests urself r g' | None => None end
  end.
