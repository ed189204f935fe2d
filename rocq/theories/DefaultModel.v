(* DefaultModel.v: default values of classes and the values of initialiser lists.
   Transcribes src/ulam/NodeVarDeclDM.cpp:793-917, 924-949 (buildDefaultValue, foldDefaultClass), src/ulam/NodeBlockClass.cpp:1758-1846
   (buildDefaultValue), src/ulam/SymbolClass.cpp:689-738 (getDefaultValue), src/ulam/CompilerState.cpp:1835-1863
   (getDefaultClassValue, getDefaultAsArray), src/ulam/NodeInitDM.cpp:454-578 (initDataMemberConstantValue),
   src/ulam/NodeListClassInit.cpp:275-286, src/ulam/NodeListArrayInitialization.cpp:305-490 (building arrays),
   src/ulam/NodeVarDecl.cpp:272-358 and src/ulam/NodeConstantDef.cpp:1110-1160, 1195-1232 (where the lists are used).
   Simplifications: the classes are complete, packed and free of errors, so that nothing waits for a later round; the names in a
   list are already looked up (a name is the class that declares the member and the member's number in it); sizes and positions are
   unbounded numbers, with the bounds of the vectors of 8192 bits checked: None for an access outside of them, for an error message
   and for an assertion. The values kept once computed (m_defaultValue, m_initialValue) are computed again instead.
   EXTERNAL: Parity2D_4x4::Add2DParity, the header of an element; BV8K, see BitVec.v. *)
From Coq Require Import String List NArith ZArith Bool.
From Verif Require Import Base TypeTableModel FamilyModel BitVec UTypeModel AtomModel LayoutModel.
Import ListNotations.
Open Scope N_scope.

(* an initialiser *)
Inductive cinit : Type :=
| CKeep                                    (* { }: NodeListEmpty *)
| CNumber (v : N)                          (* a constant expression of a primitive type, its u64 *)
| CValue (v : N)                           (* a named constant of a class or an array, its BV8K *)
| CMembers (l : list (N * nat * cinit))    (* { .m = e, ... }: NodeListClassInit *)
| CItems (l : list cinit).                 (* { e, ... }: NodeListArrayInitialization *)
(* what a declaration of a data member says besides its layout: its class, if it is one or an array of them; an Atom?; initialiser *)
Record dmember : Type := { dm_class : option N; dm_atom : bool; dm_init : option cinit }.

(* BV8K::CopyBV between vectors of 8192 bits *)
Definition copyBV (src frompos topos len dst : N) : option N :=
  check ((frompos + len <=? W8K) && (topos + len <=? W8K)); Some (bv_copy W8K src frompos topos len W8K dst).
(* the type of an item of an array (getUlamTypeAsScalar), and its size *)
Definition item_type (m : mtype) : mtype := {| mt_bits := mt_bits m; mt_array := None; mt_element := mt_element m |}.
Definition item_size (m : mtype) : N := getSizeofUlamType (item_type m).

Section Default.
Variable root : N -> N.
Variable classes : N -> option lclass.
Variable compare : N -> N -> cmp.
Variable members : N -> list dmember.
Variable header : N -> N.
Variable emptyElement : N.

(* ATOMFIRSTSTATEBITPOS for elements *)
Definition hdr (c : N) : N := match classes c with Some k => if is_element (lc_kind k) then 25 else 0 | None => 0 end.
(* UlamTypeClassElement.cpp:89-97, UlamType.cpp:474-477 *)
Definition sizeofClass (c : N) : N := if 0 <? hdr c then 96 else totalbits root classes c.

(* NodeListArrayInitialization.cpp:323-328, 351-395: items of a primitive type *)
Fixpoint prim_items (w : N) (l : list cinit) (i bv : N) : option N :=
  match l with
  | [] => Some bv
  | CNumber v :: r => check ((i + 1) * w <=? W8K); prim_items w r (i + 1) (bv_write W8K (i * w) w v bv)
  | _ => None
  end.
(* 340-343 *)
Fixpoint prim_rest (fuel : nat) (w i last bv : N) : option N :=
  match fuel with O => Some bv | S f => check ((i + 1) * w <=? W8K); prim_rest f w (i + 1) last (bv_write W8K (i * w) w last bv) end.
(* 305-349; sizes over 64 are aborted or not read whole, sizes of 0 are EXTERNAL; the parser makes no list of no items *)
Definition prim_array (w n : N) (l : list cinit) (bv : N) : option N :=
  let k := N.of_nat (List.length l) in
  check ((1 <=? w) && (w <=? 64) && (1 <=? k));
  bind (prim_items w l 0 bv) (fun bv =>
  check (k * w <=? W8K);
  prim_rest (N.to_nat n - List.length l) w k (bv_read W8K ((k - 1) * w) w bv) bv).
(* 430-434 *)
Fixpoint class_rest (fuel : nat) (w i last bv : N) : option N :=
  match fuel with O => Some bv | S f => bind (copyBV last 0 (i * w) w bv) (class_rest f w (i + 1) last) end.

(* where a member that class dc declares is in class c: type, declaration, position. NodeInitDM.cpp:465-487. The lookup of the name
   found dc among c and its ancestors, all of which have a position in c (C37); for any other class there is no member. *)
Definition findMember (c dc : N) (i : nat) : option (mtype * dmember * N) :=
  match classes dc, packBits root classes compare dc with
  | Some k, Some p =>
    match nth_error (lc_members k) i, nth_error (members dc) i, nth_error (pk_members p) i, getABaseClassRelativePositionInAClass root classes compare c dc with
    | Some m, Some d, Some q, Some relpos => Some (m, d, q + relpos + hdr c)
    | _, _, _, _ => None
    end
  | _, _ => None
  end.

Section Steps.
(* the value of an initialiser for a member of a class or a primitive type, the type, what is there so far (from bit 0 on) *)
Variable value : cinit -> option N -> mtype -> N -> option N.
(* NodeListClassInit.cpp:275-286 over NodeInitDM.cpp:454-578 *)
Fixpoint init_members (c : N) (l : list (N * nat * cinit)) (ref mask : N) : option N :=
  match l with
  | [] => Some ref
  | (dc, i, e) :: r =>
    match findMember c dc i with
    | None => None
    | Some (m, d, pos) =>
      let len := getSizeofUlamType m in
      check (pos + len <=? W8K);
      check (bv_read W8K pos len mask =? 0);
      bind (copyBV ref pos 0 len 0) (fun pre =>
      bind (value e (dm_class d) m pre) (fun v =>
      bind (copyBV v 0 pos len ref) (fun ref =>
      init_members c r ref (bv_write W8K pos len (N.ones len) mask))))
    end
  end.
(* NodeListArrayInitialization.cpp:413-418, 442-490 *)
Fixpoint class_items (c : N) (m : mtype) (l : list cinit) (i bv : N) : option N :=
  match l with
  | [] => Some bv
  | e :: r =>
    let w := item_size m in
    bind (copyBV bv (i * w) 0 w 0) (fun pre =>
    bind (value e (Some c) (item_type m) pre) (fun v =>
    bind (copyBV v 0 (i * w) w bv) (class_items c m r (i + 1))))
  end.
(* 397-440 *)
Definition class_array (c : N) (m : mtype) (n : N) (l : list cinit) (bv : N) : option N :=
  let k := N.of_nat (List.length l) in
  let w := item_size m in
  check (1 <=? k);
  bind (class_items c m l 0 bv) (fun bv =>
  if k <? n then bind (copyBV bv ((k - 1) * w) 0 w 0) (fun last => class_rest (N.to_nat n - List.length l) w k last bv) else Some bv).
End Steps.

(* the value a member gets in a list: NodeInitDM.cpp:194-227 (too many items; an empty list changes nothing), 258-270 and 493-539 *)
Fixpoint value_of (e : cinit) (cls : option N) (m : mtype) (pre : N) {struct e} : option N :=
  match e, cls, mt_array m with
  | CKeep, _, Some _ => Some pre
  | CNumber v, None, None => check (getSizeofUlamType m <=? 64); Some (bv_write W8K 0 (getSizeofUlamType m) v 0)
  | CValue v, None, _ => Some v
  | CValue v, Some _, None => Some v
  | CMembers l, Some c, None => init_members value_of c l pre 0
  | CItems l, None, Some n => check (negb ((n <? N.of_nat (List.length l)) && (0 <? n))); prim_array (item_size m) n l 0
  | CItems l, Some c, Some n => check (negb ((n <? N.of_nat (List.length l)) && (0 <? n))); class_array value_of c m n l pre
  | _, _, _ => None
  end.

Section Class.
(* getDefaultClassValue while the members of the class are built, and afterwards *)
Variables dfm dfb : N -> option N.
(* CompilerState.cpp:1859-1863 for the items of a type *)
Definition default_array (df : N -> option N) (c w n : N) : option N := bind (df c) (fun v => getDefaultAsArray w n 0 v 0).
(* the initialiser of a variable or data member of a class type or an array of it: NodeVarDecl.cpp:272-326, 330-358 *)
Definition var_init (df : N -> option N) (c : N) (m : mtype) (e : cinit) : option N :=
  match e, mt_array m with
  | CKeep, None => df c
  | CKeep, Some _ => Some 0
  | CMembers l, None => bind (df c) (fun v => init_members value_of c l v 0)
  | CItems l, Some n => bind (default_array df c (item_size m) n) (value_of e (Some c) m)
  | CValue v, _ => Some v
  | _, _ => None
  end.
(* the value of a named constant: NodeConstantDef.cpp:1110-1160, 1195-1232 *)
Definition const_init (df : N -> option N) (c : N) (m : mtype) (e : cinit) : option N :=
  match e, mt_array m with
  | CKeep, Some n => default_array df c (item_size m) n
  | _, _ => var_init df c m e
  end.
(* NodeVarDeclDM.cpp:793-917, 924-949 *)
Definition member_default (c : N) (m : mtype) (d : dmember) (off dv : N) : option N :=
  let len := getSizeofUlamType m in
  let pos := off + hdr c in
  if len =? 0 then Some dv
  else match dm_atom d, dm_class d, dm_init d with
  | true, _, _ => bind (default_array dfm emptyElement 96 (items m)) (fun v => copyBV v 0 pos len dv)
  | false, Some mc, None => bind (default_array dfm mc (item_size m) (if 0 <? items m then items m else 1)) (fun v => copyBV v 0 pos len dv)
  | false, Some mc, Some e => bind (var_init dfm mc m e) (fun v => copyBV v 0 pos len dv)
  | false, None, Some e => bind (value_of e None m 0) (fun v => copyBV v 0 pos len dv)
  | false, None, None => Some dv
  end.
Fixpoint members_default (c : N) (ms : list mtype) (ds : list dmember) (ps : list N) (dv : N) : option N :=
  match ms, ds, ps with
  | m :: ms, d :: ds, p :: ps => bind (member_default c m d p dv) (members_default c ms ds ps)
  | [], _, _ => Some dv
  | _, _, _ => None
  end.
(* NodeBlockClass.cpp:1806-1816, 1832-1841 *)
Definition base_default (c b : N) (q : option N) (dv : N) : option N :=
  match dfb b, q with
  | Some v, Some r => copyBV v 0 (hdr c + r) (getBaseClassBitSize classes b) dv
  | _, _ => None
  end.
(* 1799-1820 *)
Fixpoint bases_default (c : N) (bs : list N) (ps : list (option N)) (dv : N) : option N :=
  match bs, ps with
  | b :: bs, q :: ps => bind (if b =? 0 then Some dv else base_default c b q dv) (bases_default c bs ps)
  | _, _ => Some dv
  end.
(* 1823-1844 *)
Fixpoint shared_default (c : N) (bs : list N) (sh : list N) (ps : list (option N)) (dv : N) : option N :=
  match sh, ps with
  | b :: sh, q :: ps => bind (match base_item compare bs b 0 with Some _ => Some dv | None => base_default c b q dv end) (shared_default c bs sh ps)
  | _, _ => Some dv
  end.
(* SymbolClass.cpp:715-733, NodeBlockClass.cpp:1758-1846 *)
Definition class_body (c : N) (k : lclass) (p : packing) : option N :=
  let dv := if is_element (lc_kind k) then bv_write W8K 0 25 (header c) 0 else 0 in
  bind (members_default c (lc_members k) (members c) (pk_members p) dv) (fun dv =>
  bind (bases_default c (lc_bases k) (pk_bases p) dv) (fun dv =>
  shared_default c (lc_bases k) (sharedTable root classes compare c) (pk_shared p) dv)).
End Class.

(* CompilerState.cpp:1835-1856, SymbolClass.cpp:689-738; busy: the classes with m_buildingDefaultValueInProgress
   (NodeBlockClass.cpp:1762-1770, 1771, 1790) *)
Fixpoint class_default (fuel : nat) (busy : list N) (c : N) : option N :=
  match fuel with
  | O => None
  | S f =>
    match classes c with
    | None => None
    | Some k =>
      if sizeofClass c =? 0 then Some 0
      else match packBits root classes compare c with
      | None => None
      | Some p => if mem c busy then None else class_body (class_default f (c :: busy)) (class_default f busy) c k p
      end
    end
  end.
End Default.
