(* ClassParseSpec.v: what a file of classes is: the published grammar, doc/grammar/grammar.txt:3-94, as a relation between the tokens of
   a phrase and what it defines. Statements and expressions as in StmtSpec. Array sizes, initialiser lists and local definitions are left out.
   The published grammar asks for virtual after the override flag; here it may be left out, as Parser.cpp:907 says.
   lax: what is taken beyond it: parameters without a comma between them or with one at the end; native and a closing curly instead of a
   semicolon; the word local alone for a base class; the override flag before a constructor, Self as a reference there; the concrete
   flag more than once or at the end of the file. *)
From Coq Require Import List NArith Bool.
From Verif Require Import Base ExprModel StmtModel StmtSpec ClassParseModel.
Import ListNotations.
Open Scope N_scope.

Section Grammar.
Variable X : list tok -> node -> Prop.
Variable Y : bool -> list tok -> node -> Prop.
Variable kind : N -> tykind.
Variable isref : N -> bool.
Variable lax : bool.

Inductive Sep : list stok -> Prop := Sep_comma : Sep [E TComma] | Sep_none : lax = true -> Sep [].
Inductive Trail : list stok -> Prop := Trail_none : Trail [] | Trail_comma : lax = true -> Trail [E TComma].

(* class parameters; after one with a value all have one *)
Definition valued (n : node) : bool := negb (null n).
Inductive CParams : bool -> list stok -> list (N * N * node) -> Prop :=
| CP_last d t i ts n tr : kind t <> KdVoid -> kind t <> KdAtom -> isref t = false -> Init Y ts n -> (d = true -> ts <> []) -> Trail tr ->
    CParams d (E (TType t) :: E (TIdent i) :: ts ++ tr) [(t, i, n)]
| CP_more d t i ts n sep more ps : kind t <> KdVoid -> kind t <> KdAtom -> isref t = false -> Init Y ts n -> (d = true -> ts <> []) -> Sep sep ->
    CParams (valued n) more ps -> CParams d (E (TType t) :: E (TIdent i) :: ts ++ sep ++ more) ((t, i, n) :: ps).
Inductive Head : list stok -> list (N * N * node) -> Prop :=
| H_none : Head [] []
| H_some ts ps : CParams false ts ps -> Head (E TOpen :: ts ++ [E TClose]) ps.

(* base classes of the class name *)
Definition named (t : N) (id : N) : Prop := (kind t = KdName /\ t = id) \/ kind t = KdArgs id.
Inductive Base (name : N) : list stok -> option N -> Prop :=
| Ba_one t id : named t id -> id <> name -> Base name [E (TType t)] (Some t)
| Ba_local : lax = true -> Base name [E TLocal] None.
Inductive Super (name : N) : list stok -> super -> Prop :=
| Su_none : Super name [] SDefault
| Su_some b t : Base name b (Some t) -> Super name (E TColon :: b) (SIs t)
| Su_unset b : Base name b None -> Super name (E TColon :: b) SUnset.
Inductive Bases (name : N) : list stok -> list N -> Prop :=
| Bs_none : Bases name [] []
| Bs_some b o more bs : Base name b o -> Bases name more bs ->
    Bases name (E (TBin Add) :: b ++ more) (match o with Some t => t :: bs | None => bs end).

(* functions *)
Definition param (c : bool) (t i : N) : list stok := (if c then [KConst] else []) ++ [E (TType t); E (TIdent i)].
Inductive Params1 : list stok -> list (bool * N * N) -> bool -> Prop :=
| P_dots : Params1 [Other Ellipsis] [] true
| P_last c t i tr : Trail tr -> Params1 (param c t i ++ tr) [(c, t, i)] false
| P_more c t i sep more ps d : Sep sep -> Params1 more ps d -> Params1 (param c t i ++ sep ++ more) ((c, t, i) :: ps) d.
Inductive Params : list stok -> list (bool * N * N) -> bool -> Prop :=
| Ps_none : Params [] [] false
| Ps_some ts ps d : Params1 ts ps d -> Params ts ps d.
Inductive Code (virt : bool) : list stok -> code -> Prop :=
| K_code ts tr : Sts X Y false false ts tr -> Code virt (OpenC :: ts ++ [CloseC]) (CCode tr)
| K_native : Code virt [Other WNative; Semi] CNative
| K_native_curly : lax = true -> Code virt [Other WNative; CloseC] CNative
| K_pure : virt = true -> Code virt [Semi] CPure.
(* what stands before the type: over, virt *)
Inductive Flags : list stok -> bool -> bool -> Prop :=
| Fl_none : Flags [] false false
| Fl_virtual : Flags [Other WVirtual] false true
| Fl_override : Flags [KOverride] true true
| Fl_both : Flags [KOverride; Other WVirtual] true true.
Inductive Func : list stok -> func -> Prop :=
| Fn_func fl over virt t i ps params dots b c : Flags fl over virt -> Params ps params dots -> Code virt b c -> (dots = true -> c = CNative) ->
    Func (fl ++ E (TType t) :: E (TIdent i) :: E TOpen :: ps ++ E TClose :: b)
      {| f_override := over; f_virtual := virt; f_constr := false; f_ty := t; f_id := i; f_params := params; f_dots := dots; f_code := c |}
| Fn_constr fl over t ps params dots b c : kind t = KdSelf -> (isref t = true -> lax = true) ->
    (over = false /\ fl = [] \/ lax = true /\ over = true /\ fl = [KOverride]) ->
    Params ps params dots -> params <> [] -> Code over b c -> (dots = true -> c = CNative) ->
    Func (fl ++ E (TType t) :: E TOpen :: ps ++ E TClose :: b)
      {| f_override := over; f_virtual := over; f_constr := true; f_ty := t; f_id := 0; f_params := params; f_dots := dots; f_code := c |}.

(* members *)
Inductive Vars (ty : N) : list stok -> list member -> Prop :=
| V_one i ts n : Init Y ts n -> Vars ty (E (TIdent i) :: ts) [MVar ty i n]
| V_more i ts n more ms : Init Y ts n -> Vars ty more ms -> Vars ty (E (TIdent i) :: ts ++ E TComma :: more) (MVar ty i n :: ms).
Inductive Member (element : bool) (name : N) : list stok -> list member -> Prop :=
| M_typedef t a : kind a = KdName -> a <> name -> Member element name [KTypedef; E (TType t); E (TType a); Semi] [MTypedef t a]
| M_const t i e n : kind t <> KdVoid -> isref t = false -> Y false e n ->
    Member element name (KConst :: E (TType t) :: E (TIdent i) :: E (TAssign 0) :: map E e ++ [Semi]) [MConst t i n]
| M_param t i e n : element = true -> kind t <> KdVoid -> kind t <> KdAtom -> isref t = false -> Y false e n ->
    Member element name (Other WParameter :: E (TType t) :: E (TIdent i) :: E (TAssign 0) :: map E e ++ [Semi]) [MParam t i n]
| M_func ts f : Func ts f -> Member element name ts [MFunc f]
| M_vars t ts ms : isref t = false -> Vars t ts ms -> Member element name (E (TType t) :: ts ++ [Semi]) ms.
Inductive Members (element : bool) (name : N) : list stok -> list member -> Prop :=
| Ms_none : Members element name [] []
| Ms_some ts ms more rest : Member element name ts ms -> Members element name more rest -> Members element name (ts ++ more) (ms ++ rest).

(* classes *)
Definition word_of (k : ckind) : word := match k with Element => WElement | Quark => WQuark | Union => WUnion | Transient => WTransient end.
Inductive Class : list stok -> cls -> Prop :=
| Class_def k conc fl name h ps s sup b bs ms mems : kind name = KdName ->
    (conc = false /\ fl = [] \/ conc = true /\ fl = [Other WConcrete] \/ lax = true /\ conc = true /\ exists m, fl = repeat (Other WConcrete) (S m)) ->
    Head h ps -> Super name s sup -> Bases name b bs -> Members (match k with Element => true | _ => false end) name ms mems ->
    Class (fl ++ Other (word_of k) :: E (TType name) :: h ++ s ++ b ++ OpenC :: ms ++ [CloseC])
      {| c_kind := k; c_concrete := conc; c_name := name; c_params := ps; c_super := sup; c_bases := bs; c_members := mems |}.
Inductive File : list stok -> list cls -> Prop :=
| File_end m : (m <> 0%nat -> lax = true) -> File (repeat (Other WConcrete) m) []
| File_class ts c more cs : Class ts c -> File more cs -> File (ts ++ more) (c :: cs).
End Grammar.
