(* ExprSpec.v: what an expression is, independent of the parser: the published grammar, doc/grammar/grammar.txt:172-222, as a
   relation between a phrase and its tree, and a printer that writes a tree with the fewest parentheses. *)
From Coq Require Import List NArith Bool.
From Verif Require Import Base ExprModel.
Import ListNotations.
Open Scope N_scope.

(* how tightly an operator binds: doc/grammar/grammar.txt, EXPRESSION (logical) loosest, then LOGICAL (bitwise), BIT (equality),
   EQ (order), COMPARE (shift), SHIFT (sum) and TERM (product) *)
Definition binds (o : binop) : nat :=
  match o with
  | Mul | Div | Rem => 6 | Add | Sub => 5 | Shl | Shr => 4 | Lt | Gt | Le | Ge => 3 | EqEq | Ne => 2 | And | Or | Xor => 1 | LAnd | LOr => 0
  end%nat.

(* CBin k: the operators of level k and tighter, CBin 7 a factor; CExpr: also question-colon; CPost: an identifier expression
   with member selections and increments; CIdx: one that indices may follow directly *)
Inductive cat := CAssign | CExpr | CBin (k : nat) | CFactor | CPost | CIdx.

Definition first (ts : list tok) : tok := match ts with [] => TEnd | t :: _ => t end.
(* the phrase ends with a type, as in: x is Foo *)
Definition ends_type (ts : list tok) : bool := match last ts TEnd with TType _ => true | _ => false end.

Definition starts_plain (ts : list tok) : Prop := match first ts with TLocal | TType _ => False | _ => True end.
Definition starts_type (ts : list tok) : Prop := match first ts with TType _ => True | _ => False end.
Definition starts_local (ts : list tok) : Prop := first ts = TLocal.

(* strict leaves out the phrases the parser is known to misread (C41_local_refuted, C41_is_refuted, C41_wrap_refuted) *)
Inductive G (strict : bool) : cat -> list tok -> node -> Prop :=
(* ASSIGN_EXPRESSION *)
| G_assign l ln o r rn : G strict CExpr l ln -> G strict CAssign r rn -> G strict CAssign (l ++ TAssign o :: r) (NAssign o ln rn)
| G_assign_expr ts n : G strict CExpr ts n -> G strict CAssign ts n
(* QUESTION_COLON_EXPRESSION *)
| G_quest c cn t tn f fn : G strict (CBin 0) c cn -> G strict CExpr t tn -> G strict CExpr f fn ->
    G strict CExpr (c ++ TQuestion :: t ++ TColon :: f) (NQuest cn tn fn)
| G_expr ts n : G strict (CBin 0) ts n -> G strict CExpr ts n
(* EXPRESSION ... TERM: to the left *)
| G_bin k l ln o r rn : binds o = k -> G strict (CBin k) l ln -> G strict (CBin (S k)) r rn ->
    (strict = true -> o = And -> ends_type l = false) -> G strict (CBin k) (l ++ TBin o :: r) (NBin o ln rn)
| G_up k ts n : (k < 7)%nat -> G strict (CBin (S k)) ts n -> G strict (CBin k) ts n
| G_factor ts n : G strict CFactor ts n -> G strict (CBin 7) ts n
(* FACTOR, UNOP_EXPRESSION *)
| G_num i : G strict CFactor [TNum i] (NNum i)
| G_unary t u ts n : unary t = Some u -> G strict CFactor ts n -> G strict CFactor (t :: ts) (NUn u n)
| G_cast ty ts n : G strict CFactor ts n -> G strict CFactor (TOpen :: TType ty :: TClose :: ts) (NCast ty n)
| G_local ts n : ~ starts_local ts -> G strict CFactor ts n -> G strict CFactor (TLocal :: TDot :: ts) (NLocal n)
| G_is ts n a ty : G strict CPost ts n -> G strict CFactor (ts ++ [TIs a; TType ty]) (NIs a ty n)
| G_post ts n : G strict CPost ts n -> G strict CFactor ts n
(* IDENT_EXPRESSION, LVAL_EXPRESSION, MEMBER_SELECT_EXPRESSION, FUNC_CALL *)
| G_idx ts n : G strict CIdx ts n -> G strict CPost ts n
| G_inc ts n b : G strict CPost ts n -> G strict CPost (ts ++ [if b : bool then TInc else TDec]) (NPost b n)
| G_of ts n k : G strict CPost ts n -> G strict CIdx (ts ++ [TDot; TOf k]) (NOf k n)
| G_member ts n i is m : G strict CPost ts n -> GI strict (NIdent i) is m ->
    G strict CPost (ts ++ TDot :: TIdent i :: is) (NMember n m)
| G_member_call ts n f args m : G strict CPost ts n -> GA strict args m ->
    G strict CIdx (ts ++ TDot :: TIdent f :: TOpen :: args ++ [TClose]) (NMember n (NCall f m))
| G_ident i : G strict CIdx [TIdent i] (NIdent i)
| G_call f args m : GA strict args m -> G strict CIdx (TIdent f :: TOpen :: args ++ [TClose]) (NCall f m)
| G_str i : G strict CIdx [TStr i] (NStr i)
| G_type_of k ty : k <> Atomof -> G strict CIdx [TType ty; TDot; TOf k] (NTypeOf k ty)
| G_paren ts n : G strict CAssign ts n -> (strict = true -> starts_plain ts) -> G strict CIdx (TOpen :: ts ++ [TClose]) n
| G_paren_type ts n : G strict (CBin 0) ts n -> starts_type ts -> G strict CIdx (TOpen :: ts ++ [TClose]) n
| G_index ts n is i : G strict CIdx ts n -> G strict CExpr is i -> G strict CIdx (ts ++ TOpenSq :: is ++ [TCloseSq]) (NIndex n i)
(* indices after a member's name *)
with GI (strict : bool) : node -> list tok -> node -> Prop :=
| GI_none n : GI strict n [] n
| GI_some n ts i more m : G strict CExpr ts i -> GI strict (NIndex n i) more m -> GI strict n (TOpenSq :: ts ++ TCloseSq :: more) m
(* ARGS_OR_NONE *)
with GA (strict : bool) : list tok -> list node -> Prop :=
| GA_none : GA strict [] []
| GA_one ts n : G strict CAssign ts n -> GA strict ts [n]
| GA_more ts n more m : G strict CAssign ts n -> GA strict more m -> m <> [] -> GA strict (ts ++ TComma :: more) (n :: m).

Scheme G_mut := Minimality for G Sort Prop with GI_mut := Minimality for GI Sort Prop with GA_mut := Minimality for GA Sort Prop.
Combined Scheme G_all from G_mut, GI_mut, GA_mut.

(* The printer. A tree of category c is put in parentheses where a tighter one is wanted. *)
Definition rank (c : cat) : nat :=
  match c with CAssign => 0 | CExpr => 1 | CBin k => 2 + k | CFactor => 10 | CPost => 11 | CIdx => 12 end%nat.
Definition cat_of (n : node) : cat :=
  match n with
  | NAssign _ _ _ => CAssign | NQuest _ _ _ => CExpr | NBin o _ _ => CBin (binds o)
  | NUn _ _ | NNum _ | NCast _ _ => CFactor
  | NPost _ _ | NMember _ (NIdent _) => CPost | _ => CIdx
  end.
Definition untok (u : unop) : tok :=
  match u with UMinus => TBin Sub | UPlus => TBin Add | UBang => TBang | UTwiddle => TTwiddle | UPreInc => TInc | UPreDec => TDec end.

Fixpoint sep (l : list (list tok)) : list tok := match l with [] => [] | [x] => x | x :: r => x ++ TComma :: sep r end.

Fixpoint show (want : cat) (n : node) : list tok :=
  let body :=
    match n with
    | NIdent i => [TIdent i] | NNum i => [TNum i] | NStr i => [TStr i]
    | NBin o l r => show (CBin (binds o)) l ++ TBin o :: show (CBin (S (binds o))) r
    | NUn u e => untok u :: show CFactor e
    | NPost b e => show CPost e ++ [if b then TInc else TDec]
    | NAssign o l r => show CExpr l ++ TAssign o :: show CAssign r
    | NQuest c t f => show (CBin 0) c ++ TQuestion :: show CExpr t ++ TColon :: show CExpr f
    | NIndex l i => show CIdx l ++ TOpenSq :: show CExpr i ++ [TCloseSq]
    | NCall f args => TIdent f :: TOpen :: sep (map (show CAssign) args) ++ [TClose]
    | NMember l (NIdent i) => show CPost l ++ [TDot; TIdent i]
    | NMember l (NCall f args) => show CPost l ++ TDot :: TIdent f :: TOpen :: sep (map (show CAssign) args) ++ [TClose]
    | NOf k e => show CPost e ++ [TDot; TOf k]
    | NCast t e => TOpen :: TType t :: TClose :: show CFactor e
    | _ => []
    end in
  if Nat.leb (rank want) (rank (cat_of n)) then body else TOpen :: body ++ [TClose].

(* the trees it writes: no missing operand, and no local, is or of-a-type *)
Fixpoint writable (n : node) : Prop :=
  match n with
  | NIdent _ | NNum _ | NStr _ => True
  | NBin _ l r | NAssign _ l r | NIndex l r => writable l /\ writable r
  | NUn _ e | NPost _ e | NOf _ e | NCast _ e => writable e
  | NQuest c t f => writable c /\ writable t /\ writable f
  | NCall _ args => (fix all l := match l with [] => True | x :: r => writable x /\ all r end) args
  | NMember l (NIdent _) => writable l
  | NMember l (NCall _ args) => writable l /\ (fix all l := match l with [] => True | x :: r => writable x /\ all r end) args
  | _ => False
  end.

(* every operand is there *)
Fixpoint whole (n : node) : Prop :=
  match n with
  | NNull => False
  | NIdent _ | NNum _ | NStr _ | NTypeOf _ _ => True
  | NBin _ l r | NAssign _ l r | NIndex l r | NMember l r => whole l /\ whole r
  | NUn _ e | NPost _ e | NOf _ e | NCast _ e | NIs _ _ e | NLocal e => whole e
  | NQuest c t f => whole c /\ whole t /\ whole f
  | NCall _ args => (fix all l := match l with [] => True | x :: r => whole x /\ all r end) args
  end.

(* the tokens of a tree, from left to right, without parentheses and commas *)
Fixpoint yield (n : node) : list tok :=
  match n with
  | NNull => []
  | NIdent i => [TIdent i] | NNum i => [TNum i] | NStr i => [TStr i]
  | NBin o l r => yield l ++ TBin o :: yield r
  | NUn u e => untok u :: yield e
  | NPost b e => yield e ++ [if b then TInc else TDec]
  | NAssign o l r => yield l ++ TAssign o :: yield r
  | NQuest c t f => yield c ++ TQuestion :: yield t ++ TColon :: yield f
  | NIndex l i => yield l ++ TOpenSq :: yield i ++ [TCloseSq]
  | NCall f args => TIdent f :: (fix all l := match l with [] => [] | x :: r => yield x ++ all r end) args
  | NMember l r => yield l ++ TDot :: yield r
  | NOf k e => yield e ++ [TDot; TOf k]
  | NTypeOf k t => [TType t; TDot; TOf k]
  | NCast t e => TType t :: yield e
  | NIs a t e => yield e ++ [TIs a; TType t]
  | NLocal e => TLocal :: TDot :: yield e
  end.
Definition kept (t : tok) : bool := match t with TOpen | TClose | TComma => false | _ => true end.
Definition strip (ts : list tok) : list tok := filter kept ts.

(* operands and operators alternate. Want: an operand comes next; Have: one has just been read; HaveId: it was a name;
   Call: the parenthesis after a name has just been read *)
Inductive st := Want | Have | HaveId | Call.
Fixpoint alt (s : st) (ts : list tok) : Prop :=
  match s with
  | Want | Call =>
    match ts with
    | TIdent _ :: r => alt HaveId r
    | TNum _ :: r | TStr _ :: r => alt Have r
    | TOpen :: r | TBin Add :: r | TBin Sub :: r | TBang :: r | TTwiddle :: r | TInc :: r | TDec :: r => alt Want r
    | TLocal :: TDot :: r => ~ starts_local r /\ alt Want r
    | TClose :: r => s = Call /\ alt Have r
    | _ => False
    end
  | Have | HaveId =>
    match ts with
    | TBin _ :: r | TAssign _ :: r | TQuestion :: r | TColon :: r | TComma :: r | TOpenSq :: r => alt Want r
    | TOpen :: r => alt (match s with HaveId => Call | _ => Want end) r
    | TClose :: r | TCloseSq :: r | TInc :: r | TDec :: r => alt Have r
    | TDot :: TIdent _ :: r => alt HaveId r
    | TDot :: TOf _ :: r => alt Have r
    | TIs _ :: TType _ :: r => match first r with TBin And | TOpen | TDot => False | _ => alt Have r end
    | TDot :: _ | TIs _ :: _ | TErr :: _ | TSquare :: _ => False
    | _ => True (* the expression ends here *)
    end
  end.
