(* StmtSpec.v: what a statement is: the published grammar, doc/grammar/grammar.txt:85-170, as a relation between the tokens of a
   phrase and the tree it stands for. Types and expressions as in ExprSpec. *)
From Coq Require Import List NArith Bool.
From Verif Require Import Base ExprModel StmtModel.
Import ListNotations.
Open Scope N_scope.

(* x as T, the condition that declares x anew *)
Definition as_cond (n : node) : option N := match n with NIs true ty _ => Some ty | _ => None end.
(* how an expression statement may begin: not as a declaration does *)
Definition plain_start (e : list tok) : Prop := match e with [] | TType _ :: _ | TLocal :: _ => False | _ => True end.
Definition ident_start (e : list tok) : Prop := match e with TIdent _ :: _ => True | _ => False end.
Definition curly (ts : list stok) : Prop := match ts with OpenC :: _ => True | _ => False end.

(* the labels of one body, in order, and whether otherwise is the last of them: one of them holds *)
Fixpoint any (value : bool) (c : cond) (l : list node) : cond :=
  match l with [] => c | n :: r => any value (COr c (if value then CCase n else CNode n)) r end.
Definition labels (value : bool) (l : list node) (other : bool) : option cond :=
  if other then Some CTrue else match l with [] => None | n :: r => Some (any value (if value then CCase n else CNode n) r) end.

Section Grammar.
(* what a condition is; what another expression is: with assignments, or without *)
Variable X : list tok -> node -> Prop.
Variable Y : bool -> list tok -> node -> Prop.

(* the variables of a declaration *)
Inductive Init : list stok -> node -> Prop :=
| I_none : Init [] NNull
| I_some e n : Y false e n -> Init (E (TAssign 0) :: map E e) n.
Inductive Decls (ty : N) : list stok -> list tree -> Prop :=
| D_one i ts n : Init ts n -> Decls ty (E (TIdent i) :: ts) [TDecl ty i n]
| D_more i ts n more ds : Init ts n -> Decls ty more ds -> Decls ty (E (TIdent i) :: ts ++ E TComma :: more) (TDecl ty i n :: ds).

Inductive Labels : list stok -> list node -> bool -> Prop :=
| L_none : Labels [] [] false
| L_other : Labels [KOtherwise; E TColon] [] true
| L_case e n ts l o : X e n -> Labels ts l o -> Labels (KCase :: map E e ++ E TColon :: ts) (n :: l) o.

Inductive ForInit : list stok -> list tree -> Prop :=
| F_none : ForInit [] []
| F_decl ty ts ds : Decls ty ts ds -> ForInit (E (TType ty) :: ts) ds
| F_expr e n : Y true e n -> ident_start e -> ForInit (map E e) [TExpr n].
Inductive ForCond : list stok -> cond -> Prop :=
| FC_none : ForCond [] CTrue
| FC_some e n : X e n -> ForCond (map E e) (CNode n).
Inductive ForStep : list stok -> list node -> Prop :=
| FS_none : ForStep [] []
| FS_some e n : Y true e n -> ForStep (map E e) [n].
Inductive Value : list stok -> node -> Prop :=
| V_none : Value [] NNull
| V_some e n : Y true e n -> Value (map E e) n.

(* St brk cont op ts tr: ts is a statement with the tree tr. brk, cont: inside a loop or which; inside a loop. op: it ends with an if that has no else *)
Inductive St : bool -> bool -> bool -> list stok -> list tree -> Prop :=
| S_empty b c : St b c false [Semi] [TEmpty]
| S_expr b c e n : Y true e n -> plain_start e -> St b c false (map E e ++ [Semi]) [TExpr n]
| S_decl b c ty ts ds : Decls ty ts ds -> St b c false (E (TType ty) :: ts ++ [Semi]) ds
| S_return b c : St b c false [KReturn; Semi] [TReturn NNull]
| S_return_value b c e n : Y true e n -> St b c false (KReturn :: map E e ++ [Semi]) [TReturn n]
| S_break c : St true c false [KBreak; Semi] [TBreak]
| S_continue b : St b true false [KContinue; Semi] [TContinue]
| S_block b c ts tr : Sts b c ts tr -> St b c false (OpenC :: ts ++ [CloseC]) [TBlock tr]
| S_if b c op e n ts t : X e n -> Body b c op (as_cond n) ts t ->
    St b c true (KIf :: E TOpen :: map E e ++ E TClose :: ts) [TBlock [TIf (CNode n) t []]]
| S_else b c op e n ts t ts' t' : X e n -> Body b c false (as_cond n) ts t -> Body b c op None ts' t' ->
    St b c op (KIf :: E TOpen :: map E e ++ E TClose :: ts ++ KElse :: ts') [TBlock [TIf (CNode n) t [t']]]
| S_while b c op e n ts t : X e n -> Body true true op (as_cond n) ts t ->
    St b c op (KWhile :: E TOpen :: map E e ++ E TClose :: ts) [TBlock [TWhile (CNode n) t []]]
| S_for b c op i init e cnd s step ts t : ForInit i init -> ForCond e cnd -> ForStep s step ->
    Body true true op (match cnd with CNode n => as_cond n | _ => None end) ts t ->
    St b c op (KFor :: E TOpen :: i ++ Semi :: e ++ Semi :: s ++ E TClose :: ts) [TBlock (init ++ [TWhile cnd t step])]
| S_which b c v n ts tr : Value v n -> Cases c (negb (null n)) false ts tr ->
    St b c false (KWhich :: E TOpen :: v ++ E TClose :: OpenC :: ts ++ [CloseC]) [TWhich n tr]
with Sts : bool -> bool -> list stok -> list tree -> Prop :=
| Ss_none b c : Sts b c [] []
| Ss_some b c op ts tr more mr : St b c op ts tr -> Sts b c more mr -> Sts b c (ts ++ more) (tr ++ mr)
(* the body of an if or a loop; the type if the condition declares *)
with Body : bool -> bool -> bool -> option N -> list stok -> tree -> Prop :=
| B_block b c ts tr : Sts b c ts tr -> Body b c false None (OpenC :: ts ++ [CloseC]) (TBlock tr)
| B_one b c op ts tr : St b c op ts tr -> ~ curly ts -> Body b c op None ts (TBody tr)
| B_as_block b c ty ts tr : Sts b c ts tr -> Body b c false (Some ty) (OpenC :: ts ++ [CloseC]) (TBlock (TAsDecl ty :: tr))
| B_as_one b c op ty ts tr : St b c op ts tr -> ~ curly ts -> Body b c op (Some ty) ts (TBlock (TAsDecl ty :: tr))
(* the cases of a which: those after the first, if any, are its else. otherwise, the last, needs no condition unless it is also the first *)
with Cases : bool -> bool -> bool -> list stok -> list tree -> Prop :=
| C_none c value later : Cases c value later [] []
| C_as c value later e n ty ts t more f : value = false -> X e n -> as_cond n = Some ty -> Body true c false (Some ty) ts t -> curly ts ->
    Cases c value true more f -> Cases c value later (KCase :: map E e ++ E TColon :: ts ++ more) [TIf (CNode n) t f]
| C_case c value later ls l cnd ts t more f : Labels ls l false -> (forall n, In n l -> as_cond n = None) -> labels value l false = Some cnd ->
    Body true c false None ts t -> curly ts -> Cases c value true more f -> Cases c value later (ls ++ ts ++ more) [TIf cnd t f]
| C_other c value ls l ts t : Labels ls l true -> (forall n, In n l -> as_cond n = None) -> Body true c false None ts t -> curly ts ->
    Cases c value false (ls ++ ts) [TIf CTrue t []]
| C_else c value ls l ts t : Labels ls l true -> (forall n, In n l -> as_cond n = None) -> Body true c false None ts t -> curly ts ->
    Cases c value true (ls ++ ts) [t].

Scheme St_mut := Minimality for St Sort Prop with Sts_mut := Minimality for Sts Sort Prop
  with Body_mut := Minimality for Body Sort Prop with Cases_mut := Minimality for Cases Sort Prop.
Combined Scheme St_all from St_mut, Sts_mut, Body_mut, Cases_mut.
End Grammar.

(* which body of a which runs. The cases as they are written, each with the conditions of its labels and whether otherwise is one of them:
   the first body one of whose labels holds, and that of otherwise if none does *)
Section Choice.
Variable holds : cond -> bool.
Fixpoint chosen (cases : list (list cond * bool * tree)) : option tree :=
  match cases with
  | [] => None
  | (ls, other, t) :: r => if existsb holds ls || other then Some t else chosen r
  end.
End Choice.

(* the cases of a which as they are written, one body after the other, and the first body an if chain runs *)
Section Written.
Variable X : list tok -> node -> Prop.
Variable Y : bool -> list tok -> node -> Prop.
Definition label (value : bool) (n : node) : cond := if value then CCase n else CNode n.
Inductive Written (c value : bool) : list stok -> list (list cond * bool * tree) -> Prop :=
| W_none : Written c value [] []
| W_as e n ty ts t more cs : value = false -> X e n -> as_cond n = Some ty -> Body X Y true c false (Some ty) ts t -> Written c value more cs ->
    Written c value (KCase :: map E e ++ E TColon :: ts ++ more) (([CNode n], false, t) :: cs)
| W_case ls l o ts t more cs : Labels X ls l o -> Body X Y true c false None ts t -> Written c value more cs ->
    Written c value (ls ++ ts ++ more) ((map (label value) l, o, t) :: cs).
End Written.
