(* Specification for OrderModel.v: what a piece of program may read and write, when two pieces may be swapped, and which
   bits are truth values. Nothing here mentions the two ways of running a program. *)
From Coq Require Import List NArith Bool.
Import ListNotations.
From Verif Require Import OrderModel.
Open Scope N_scope.

(* same answer: the same failure, or the same value and stores with the same contents *)
Definition same_store (s t : store) : Prop := forall x i, s x i = t x i.
Definition same_val (r q : option (N * store)) : Prop :=
  match r, q with
  | None, None => True
  | Some (v, s), Some (w, t) => v = w /\ same_store s t
  | _, _ => False
  end.
Definition same_end (r q : option store) : Prop :=
  match r, q with
  | None, None => True
  | Some s, Some t => same_store s t
  | _, _ => False
  end.

Definition lvar (l : lval) : N := match l with LVar x => x | LIdx x _ _ => x end.

(* variables read and written; fr and fw give them for functions *)
Section Footprint.
Variables fr fw : N -> list N.

Fixpoint reads (e : expr) : list N :=
  match e with
  | ELit _ | EParam _ => []
  | ERead l => lvar l :: readsL l
  | EUn _ e => reads e
  | EBin _ a b | EAnd _ a b | EOr _ a b => reads a ++ reads b
  | EAssign l e => readsL l ++ reads e
  | EOp _ l e | EPost _ l e => lvar l :: readsL l ++ reads e
  | ECond c a b => reads c ++ reads a ++ reads b
  | ECall f es => fr f ++ readsA es
  end
with readsL (l : lval) : list N := match l with LVar _ => [] | LIdx _ _ e => reads e end
with readsA (es : exprs) : list N := match es with ENil => [] | ECons e es => reads e ++ readsA es end.

Fixpoint writes (e : expr) : list N :=
  match e with
  | ELit _ | EParam _ => []
  | ERead l => writesL l
  | EUn _ e => writes e
  | EBin _ a b | EAnd _ a b | EOr _ a b => writes a ++ writes b
  | EAssign l e | EOp _ l e | EPost _ l e => lvar l :: writesL l ++ writes e
  | ECond c a b => writes c ++ writes a ++ writes b
  | ECall f es => fw f ++ writesA es
  end
with writesL (l : lval) : list N := match l with LVar _ => [] | LIdx _ _ e => writes e end
with writesA (es : exprs) : list N := match es with ENil => [] | ECons e es => writes e ++ writesA es end.

Fixpoint readsS (t : stmt) : list N :=
  match t with
  | SSkip => []
  | SExpr e => reads e
  | SSeq a b => readsS a ++ readsS b
  | SIf _ c a b => reads c ++ readsS a ++ readsS b
  | SWhile _ c b => reads c ++ readsS b
  end.
Fixpoint writesS (t : stmt) : list N :=
  match t with
  | SSkip => []
  | SExpr e => writes e
  | SSeq a b => writesS a ++ writesS b
  | SIf _ c a b => writes c ++ writesS a ++ writesS b
  | SWhile _ c b => writes c ++ writesS b
  end.

(* neither writes what the other reads or writes *)
Definition indep (r1 w1 r2 w2 : list N) : Prop :=
  (forall x, In x w1 -> ~ In x r2 /\ ~ In x w2) /\ (forall x, In x w2 -> ~ In x r1 /\ ~ In x w1).

(* every operator's operands, every index and its right hand side, and every two arguments of a call are independent *)
Fixpoint orderly (e : expr) : Prop :=
  match e with
  | ELit _ | EParam _ => True
  | ERead l => orderlyL l
  | EUn _ e => orderly e
  | EBin _ a b => orderly a /\ orderly b /\ indep (reads a) (writes a) (reads b) (writes b)
  | EAssign l e | EOp _ l e | EPost _ l e =>
    orderlyL l /\ orderly e /\ indep (readsL l) (writesL l) (reads e) (writes e)
  | EAnd _ a b | EOr _ a b => orderly a /\ orderly b
  | ECond c a b => orderly c /\ orderly a /\ orderly b
  | ECall _ es => orderlyA es
  end
with orderlyL (l : lval) : Prop := match l with LVar _ => True | LIdx _ _ e => orderly e end
with orderlyA (es : exprs) : Prop :=
  match es with
  | ENil => True
  | ECons e es => orderly e /\ orderlyA es /\ indep (reads e) (writes e) (readsA es) (writesA es)
  end.

Fixpoint orderlyS (t : stmt) : Prop :=
  match t with
  | SSkip => True
  | SExpr e => orderly e
  | SSeq a b => orderlyS a /\ orderlyS b
  | SIf _ c a b => orderly c /\ orderlyS a /\ orderlyS b
  | SWhile _ c b => orderly c /\ orderlyS b
  end.
End Footprint.

(* widths: the number of bits of every value. wv, wo1, wo2, wf, wp: of variables, results of operators, results of
   functions, their parameters *)
Section Width.
Variables (wv wo1 wo2 wf : N -> N) (wp : N -> list N) (wargs : list N).

Fixpoint width (e : expr) (n : N) : Prop :=
  match e with
  | ELit v => v < 2 ^ n
  | EParam i => nth_error wargs i = Some n
  | ERead l => wv (lvar l) = n /\ widthL l
  | EUn f e => wo1 f = n /\ exists m, width e m
  | EBin f a b => wo2 f = n /\ (exists m, width a m) /\ exists m, width b m
  | EAssign l e => wv (lvar l) = n /\ widthL l /\ width e n
  | EOp f l e | EPost f l e => wv (lvar l) = n /\ wo2 f = n /\ widthL l /\ exists m, width e m
  | EAnd m a b | EOr m a b => m = n /\ width a n /\ width b n
  | ECond c a b => width c 1 /\ width a n /\ width b n
  | ECall f es => wf f = n /\ widthA es (wp f)
  end
with widthL (l : lval) : Prop := match l with LVar _ => True | LIdx _ _ e => exists m, width e m end
with widthA (es : exprs) (ws : list N) : Prop :=
  match es, ws with
  | ENil, [] => True
  | ECons e es, w :: ws => width e w /\ widthA es ws
  | _, _ => False
  end.

(* all conditions are single bits *)
Fixpoint onebit (e : expr) : Prop :=
  match e with
  | ELit _ | EParam _ => True
  | ERead l => onebitL l
  | EUn _ e => onebit e
  | EBin _ a b => onebit a /\ onebit b
  | EAssign l e | EOp _ l e | EPost _ l e => onebitL l /\ onebit e
  | EAnd m a b | EOr m a b => m = 1 /\ onebit a /\ onebit b
  | ECond c a b => onebit c /\ onebit a /\ onebit b
  | ECall _ es => onebitA es
  end
with onebitL (l : lval) : Prop := match l with LVar _ => True | LIdx _ _ e => onebit e end
with onebitA (es : exprs) : Prop := match es with ENil => True | ECons e es => onebit e /\ onebitA es end.

Fixpoint onebitS (t : stmt) : Prop :=
  match t with
  | SSkip => True
  | SExpr e => onebit e /\ exists m, width e m
  | SSeq a b => onebitS a /\ onebitS b
  | SIf n c a b => n = 1 /\ onebit c /\ width c 1 /\ onebitS a /\ onebitS b
  | SWhile n c b => n = 1 /\ onebit c /\ width c 1 /\ onebitS b
  end.
End Width.

Definition fits (wv : N -> N) (s : store) : Prop := forall x i, s x i < 2 ^ wv x.

(* number of ones among the lowest n bits, and the truth of a Bool(n): more ones than zeros *)
Fixpoint ones (n : nat) (v : N) : nat :=
  match n with O => O | S k => ((if N.odd v then 1 else 0) + ones k (N.div2 v))%nat end.
Definition truth (n v : N) : Prop := (N.to_nat n < 2 * ones (N.to_nat n) v)%nat.

(* a program whose functions keep to what is said about them *)
Record good_prog (P : prog) (fr fw : N -> list N) (wv wo1 wo2 wf : N -> N) (wp : N -> list N) : Prop := {
  gp_op1 : forall f x r, p_op1 P f x = Some r -> r < 2 ^ wo1 f;
  gp_op2 : forall f x y r, p_op2 P f x y = Some r -> r < 2 ^ wo2 f;
  gp_reads : forall f x, In x (readsS fr (fst (p_body P f))) \/ In x (reads fr (snd (p_body P f))) -> In x (fr f);
  gp_writes : forall f x, In x (writesS fw (fst (p_body P f))) \/ In x (writes fw (snd (p_body P f))) -> In x (fw f);
  gp_order : forall f, orderlyS fr fw (fst (p_body P f)) /\ orderly fr fw (snd (p_body P f));
  gp_bits : forall f, onebitS wv wo1 wo2 wf wp (wp f) (fst (p_body P f)) /\ onebit (snd (p_body P f)) /\
                      width wv wo1 wo2 wf wp (wp f) (snd (p_body P f)) (wf f)
}.
