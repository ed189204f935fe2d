(* TypeTableModel.v: the table of types: keys, type indexes (UTIs) and their aliases.
   Transcribes src/ulam/UlamKeyTypeSignature.cpp:136-160, include/CompilerState.h:89-96 and src/ulam/CompilerState.cpp:
   268-279 (makeUlamTypeHolder), 281-403 (makeUlamTypeFromHolder), 446-474 (replaceUTIKeyAndAlias), 591-670
   (makeUlamType), 731-757 (isDefined, anyDefinedUTI), 842-917 (counters, deleteUlamKeyTypeSignature), 1237-1266,
   2312-2398 (aliases), 2400-2493 (setSizesOfNonClassAndArrays), 2081-2188 (setUTISizes), and UlamType.cpp:514-660
   (isComplete, compare).
   Simplifications: std::map is a list of pairs searched with the equivalence std::map uses, neither less than the
   other; std::set<UTI> is a list without order, of which the least element is taken; what the symbol table of classes
   says (is the class of this index a template?) is a function given; diagnostics are left out; types are not freed.
   Removing a class name from the program's symbol table (CompilerState.cpp:301-357,455-462) is not modelled: that table
   is SymbolTable's concern (C43). *)
From Coq Require Import List NArith ZArith Bool.
From Verif Require Import Base SourceStreamModel UTypeModel.
Import ListNotations.
Open Scope N_scope.

(* include/UlamKeyTypeSignature.h:48-56 *)
Record key := mkKey { k_name : N; k_bits : Z; k_arr : Z; k_inst : N; k_ref : alt }.

(* include/Constants.h:115 *)
Definition alt_num (a : alt) : N := match a with AltNot => 0 | AltAs => 1 | AltRef => 2 | AltConstref => 3 end.

(* UlamKeyTypeSignature.cpp:136-154 *)
Definition key_lt (a b : key) : bool :=
  if k_name a <? k_name b then true else if k_name b <? k_name a then false
  else if (k_bits a <? k_bits b)%Z then true else if (k_bits b <? k_bits a)%Z then false
  else if (k_arr a <? k_arr b)%Z then true else if (k_arr b <? k_arr a)%Z then false
  else if k_inst a <? k_inst b then true else if k_inst b <? k_inst a then false
  else if alt_num (k_ref a) <? alt_num (k_ref b) then true else if alt_num (k_ref b) <? alt_num (k_ref a) then false
  else false.

(* UlamKeyTypeSignature.cpp:156-159 *)
Definition key_eqb (a b : key) : bool :=
  (k_name a =? k_name b) && (k_bits a =? k_bits b)%Z && (k_arr a =? k_arr b)%Z && (k_inst a =? k_inst b)
  && (alt_num (k_ref a) =? alt_num (k_ref b)).

(* UlamKeyTypeSignature.cpp:17-20 *)
Definition append (k : key) (u : N) : key := mkKey (k_name k) (k_bits k) (k_arr k) u (k_ref k).

(* ---- std::map with less_than_key ---- *)
Definition equiv (a b : key) : bool := negb (key_lt a b) && negb (key_lt b a).
Definition kmap (A : Type) : Type := list (key * A).
Fixpoint kfind {A} (m : kmap A) (k : key) : option A :=
  match m with [] => None | (k', a) :: r => if equiv k' k then Some a else kfind r k end.
Definition kinsert {A} (m : kmap A) (k : key) (a : A) : kmap A :=
  match kfind m k with Some _ => m | None => m ++ [(k, a)] end.
Fixpoint kset {A} (m : kmap A) (k : key) (a : A) : kmap A :=
  match m with [] => [] | (k', b) :: r => if equiv k' k then (k', a) :: r else (k', b) :: kset r k a end.
(* a map has each key once, so removing the entry is removing all entries *)
Definition kerase {A} (m : kmap A) (k : key) : kmap A := filter (fun p => negb (equiv (fst p) k)) m.

(* ---- the table ---- *)
(* include/Constants.h:101 *)
Inductive ulamclass := UcUnseen | UcQuark | UcElement | UcTransient | UcNotaclass | UcLocals.

(* an UlamType without its key: base type, class type, and for a class whether its name says it is a holder
   (UlamTypeClass.cpp:279-284) and its size as base class *)
Record info := mkInfo { i_enum : etype; i_ct : ulamclass; i_holder : bool; i_base : Z }.

(* include/CompilerState.h:157-163 *)
Record table := mkTab { t_idx : list key; t_def : kmap info; t_any : kmap (list N); t_root : list N }.

(* CompilerState.cpp:731-743 *)
Definition isDefined (T : table) (k : key) : option info := kfind (t_def T) k.

(* *(set.lower_bound(Nouti)); Nouti is 0 *)
Fixpoint least (l : list N) : option N :=
  match l with
  | [] => None
  | a :: r => match least r with None => Some a | Some b => Some (N.min a b) end
  end.

(* CompilerState.cpp:745-757 *)
Definition anyDefinedUTI (T : table) (k : key) : option N :=
  match kfind (t_any T) k with Some s => least s | None => None end.

(* CompilerState.cpp:842-860 *)
Definition increment (m : kmap (list N)) (k : key) (u : N) : kmap (list N) :=
  match kfind m k with
  | Some s => kset m k (if existsb (N.eqb u) s then s else u :: s)
  | None => m ++ [(k, [u])]
  end.

(* CompilerState.cpp:862-880 *)
Definition decrement (m : kmap (list N)) (k : key) (u : N) : kmap (list N) * nat :=
  match kfind m k with
  | Some s => let s' := filter (fun x => negb (x =? u)) s in
              (match s' with [] => kerase m k | _ => kset m k s' end, List.length s')
  | None => (m, O)
  end.

(* CompilerState.cpp:897-917; None: no type 0 *)
Definition deleteKey (T : table) (k : key) (u : N) : option table :=
  let '(any, count) := decrement (t_any T) k u in
  let def := match count with O => kerase (t_def T) k | _ => t_def T end in
  match nth_error (t_idx T) 0 with
  | None => None
  | Some nokey => Some (mkTab (set_nth (N.to_nat u) nokey (t_idx T)) def (increment any nokey u) (t_root T))
  end.

Section Table.
(* alreadyDefinedSymbolClassNameByUTI and isClassTemplate: None if there is no such class *)
Variable template : N -> option bool.
(* what createUlamType (CompilerState.cpp:759-840) makes of a class's name and size as base class *)
Variable makeInfo : key -> etype -> ulamclass -> info.

(* CompilerState.cpp:591-670; None is an assertion failing. The index is a u16 *)
Definition makeUlamType (T : table) (k : key) (e : etype) (ct : ulamclass) : option (table * N) :=
  let fresh k' :=
    let u := u16 (N.of_nat (List.length (t_idx T))) in
    let T' := mkTab (t_idx T ++ [k']) (kinsert (t_def T) k' (makeInfo k' e ct)) (increment (t_any T) k' u) (t_root T) in
    if u =? N.of_nat (List.length (t_root T))
    then Some (mkTab (t_idx T') (t_def T') (t_any T') (t_root T ++ [u]), u) else None in
  match (if negb (k_bits k =? UNKNOWNSIZE)%Z && negb (k_arr k =? UNKNOWNSIZE)%Z then isDefined T k else None) with
  | Some _ => match anyDefinedUTI T k with Some u => Some (T, u) | None => None end
  | None =>
    let u := u16 (N.of_nat (List.length (t_idx T))) in
    if etype_eqb e EClass then
      if negb (k_arr k =? NONARRAYSIZE)%Z then fresh k
      else if negb (alt_eqb (k_ref k) AltNot) then fresh k
      else if k_inst k =? 0 then fresh (append k u)
      else match template (k_inst k) with
           | Some true => fresh (append k u)
           | Some false => Some (T, k_inst k)
           | None => None
           end
    else fresh (append k 0)
  end.

(* CompilerState.cpp:1249-1266: the key and the type of an index; Nav (1) if its key has gone *)
Definition getUlamType (T : table) (u : N) : option (key * info) :=
  match nth_error (t_idx T) (N.to_nat u) with
  | None => None
  | Some k =>
    match isDefined T k with
    | Some i => Some (k, i)
    | None =>
      match nth_error (t_idx T) 1 with
      | Some kn => match isDefined T kn with Some i => Some (kn, i) | None => None end
      | None => None
      end
    end
  end.

(* CompilerState.cpp:268-279; Holder is 12 *)
Definition makeUlamTypeHolder (T : table) : option (table * N) :=
  let u := u16 (N.of_nat (List.length (t_idx T))) in
  match getUlamType T 12 with
  | Some (hkey, _) =>
    if u =? N.of_nat (List.length (t_root T))
    then Some (mkTab (t_idx T ++ [hkey]) (t_def T) (increment (t_any T) hkey u) (t_root T ++ [u]), u) else None
  | None => None
  end.

(* CompilerState.cpp:2367-2383 *)
Definition updateAlias (T : table) (a b : N) : option table :=
  if (a <? N.of_nat (List.length (t_root T))) && (b <? N.of_nat (List.length (t_root T)))
  then Some (mkTab (t_idx T) (t_def T) (t_any T) (set_nth (N.to_nat a) b (t_root T))) else None.

(* setting a new key of an index: CompilerState.cpp:2462-2486, also 2147-2176 and 2508-2529 *)
Definition rekey (T : table) (u : N) (newkey : key) (e : etype) (ct : ulamclass) : option table :=
  match nth_error (t_idx T) (N.to_nat u) with
  | None => None
  | Some k =>
    if key_eqb k newkey then Some T
    else
      match deleteKey T k u with
      | None => None
      | Some T1 =>
        let T2 := mkTab (set_nth (N.to_nat u) newkey (t_idx T1)) (kinsert (t_def T1) newkey (makeInfo newkey e ct))
                    (increment (t_any T1) newkey u) (t_root T1) in
        updateAlias T2 u u
      end
  end.

(* UlamType.cpp:514-517, UlamTypeInternal.cpp:41-44, UlamTypeClass.cpp:286-298 *)
Definition complete (k : key) (i : info) : bool :=
  let known := negb ((k_bits k <=? UNKNOWNSIZE) || (k_arr k =? UNKNOWNSIZE))%Z in
  match i_enum i with
  | ENouti | ENav | EHzy | EPtr | EHolder | ELocals => false
  | EClass =>
    if i_holder i then false
    else match i_ct i with
         | UcUnseen => false
         | UcElement => known
         | _ => if alt_eqb (k_ref k) AltNot && (k_arr k =? NONARRAYSIZE)%Z && (i_base i =? UNKNOWNSIZE)%Z
                then false else known
         end
  | _ => known
  end.

(* CompilerState.cpp:281-403 (without the class symbol, 301-357) *)
Definition fromHolder (T : table) (newkey : key) (e : etype) (u : N) (ct : ulamclass) : option table :=
  match nth_error (t_idx T) (N.to_nat u) with
  | None => None
  | Some k =>
    if key_eqb k newkey then Some T
    else
      match deleteKey T k u with
      | None => None
      | Some T1 =>
        match (match isDefined T1 newkey with
               | None => Some (kinsert (t_def T1) newkey (makeInfo newkey e ct), u)
               | Some _ => match anyDefinedUTI T1 newkey with Some a => Some (t_def T1, a) | None => None end
               end) with
        | None => None
        | Some (def, a) =>
          let T2 := mkTab (set_nth (N.to_nat u) newkey (t_idx T1)) def (increment (t_any T1) newkey u) (t_root T1) in
          match kfind def newkey with
          | Some i => if complete newkey i then updateAlias T2 u a else Some T2
          | None => None
          end
        end
      end
  end.

(* CompilerState.cpp:446-474 (without the class symbol, 454-462) *)
Definition replaceKey (T : table) (old new : N) : option table :=
  match getUlamType T new, nth_error (t_idx T) (N.to_nat old) with
  | Some (newkey, _), Some oldkey =>
    match deleteKey T oldkey old with
    | None => None
    | Some T1 =>
      updateAlias (mkTab (set_nth (N.to_nat old) newkey (t_idx T1)) (t_def T1) (increment (t_any T1) newkey old) (t_root T1)) old new
    end
  | _, _ => None
  end.

(* CompilerState.cpp:2325-2351; the assertion about classes (2338-2343) is a test given; MAXCHAIN is 7 *)
Fixpoint chase (fuel : nat) (root : list N) (x : N) : option N :=
  match fuel with
  | O => None
  | S f => match nth_error root (N.to_nat x) with
           | None => None
           | Some y => if y =? x then Some y else chase f root y
           end
  end.
Definition findRoot (root : list N) (u : N) : option N := chase 7 root u.

(* CompilerState.cpp:2403-2460: does setSizesOfNonClassAndArrays accept these sizes for a type that is not yet complete?
   None: already complete, nothing is done *)
Definition sizesAccepted (e : etype) (oldbits : Z) (bitsize arraysize : Z) : bool :=
  let total := u32z (u32z (if arraysize <? 0 then 1 else arraysize) * u32z (if bitsize <? 0 then 0 else bitsize))%Z in
  if negb (etype_eqb e EClass) && ((oldbits =? 0) || (bitsize <=? 0))%Z then
    if (negb (etype_eqb e EVoid) || (bitsize <? 0)%Z) && (arraysize <? 0)%Z then false
    else if etype_eqb e EVoid && negb (arraysize =? NONARRAYSIZE)%Z then false
    else true
  else if etype_eqb e EVoid then false
  else if (total >? MAXBITSPERTRANSIENT)%Z then false
  else true.

(* include/Constants.h:144-146; CompilerState.cpp:2101-2146: the same for scalar classes; s32 product, None is
   overflow (undefined) *)
Definition MAXBITSPERQUARK : Z := 64.
Definition classSizesAccepted (ct : ulamclass) (bitsize arraysize : Z) : option bool :=
  let total := (bitsize * (if 0 <=? arraysize then arraysize else 1))%Z in
  if (total <? - 2147483648)%Z || (total >? 2147483647)%Z then None
  else match ct with
       | UcElement => Some (total <=? MAXSTATEBITS)%Z
       | UcQuark => Some (total <=? MAXBITSPERQUARK)%Z
       | UcTransient => Some (total <=? MAXBITSPERTRANSIENT)%Z
       | _ => Some true
       end.

(* ---- comparing types, UlamType.cpp:519-594 ---- *)
Inductive cmp := Same | NotSame | DontKnow.
Definition notaclass (i : info) : bool := match i_ct i with UcNotaclass => true | _ => false end.

(* None: an assertion, or an index without type *)
Definition compare (T : table) (u1 u2 : N) : option cmp :=
  if (u1 =? 0) || (u2 =? 0) then None
  else if u1 =? u2 then Some Same
  else if (u1 =? 1) || (u2 =? 1) then Some NotSame
  else if (u1 =? 2) || (u2 =? 2) then Some DontKnow
  else
    match getUlamType T u1, getUlamType T u2 with
    | Some (key1, ut1), Some (key2, ut2) =>
      if negb (complete key1 ut1) && (notaclass ut1 || (k_arr key1 =? UNKNOWNSIZE)%Z || negb (k_inst key1 =? k_inst key2))
      then Some DontKnow
      else if negb (complete key2 ut2) && (notaclass ut2 || (k_arr key2 =? UNKNOWNSIZE)%Z || negb (k_inst key1 =? k_inst key2))
      then Some DontKnow
      else if negb (k_name key1 =? k_name key2) then Some NotSame
      else if negb (k_arr key1 =? k_arr key2)%Z then Some NotSame
      else if negb (k_bits key1 =? k_bits key2)%Z then Some NotSame
      else
        let rest := if negb (alt_eqb (k_ref key1) (k_ref key2)) then Some NotSame else Some Same in
        if negb (k_inst key1 =? k_inst key2) then
          match getUlamType T (k_inst key1), getUlamType T (k_inst key2) with
          | Some (ci1key, _), Some (ci2key, _) => if negb (key_eqb ci1key ci2key) then Some NotSame else rest
          | _, _ => None
          end
        else rest
    | _, _ => None
    end.

(* UlamType.cpp:596-666: the same, whatever the reference types *)
Definition compareWild (T : table) (u1 u2 : N) : option cmp :=
  if (u1 =? 0) || (u2 =? 0) then None
  else if u1 =? u2 then Some Same
  else if (u1 =? 1) || (u2 =? 1) then Some NotSame
  else if (u1 =? 2) || (u2 =? 2) then Some DontKnow
  else
    match getUlamType T u1, getUlamType T u2 with
    | Some (key1, ut1), Some (key2, ut2) =>
      if negb (complete key1 ut1) && (notaclass ut1 || (k_arr key1 =? UNKNOWNSIZE)%Z || negb (k_inst key1 =? k_inst key2))
      then Some DontKnow
      else if negb (complete key2 ut2) && (notaclass ut2 || (k_arr key2 =? UNKNOWNSIZE)%Z || negb (k_inst key1 =? k_inst key2))
      then Some DontKnow
      else if negb (k_name key1 =? k_name key2) then Some NotSame
      else if negb (k_arr key1 =? k_arr key2)%Z then Some NotSame
      else if negb (k_bits key1 =? k_bits key2)%Z then Some NotSame
      else if negb (k_inst key1 =? k_inst key2) then
          match getUlamType T (k_inst key1), getUlamType T (k_inst key2) with
          | Some (ci1key, _), Some (ci2key, _) => if negb (key_eqb ci1key ci2key) then Some NotSame else Some Same
          | _, _ => None
          end
        else Some Same
    | _, _ => None
    end.
End Table.
