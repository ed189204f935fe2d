(* StmtProofs.v: the expression parser inside statements; every phrase of the grammar is read as its tree. *)
From Coq Require Import List PeanoNat NArith Lia Bool.
From Verif Require Import Base ExprModel ExprSpec ExprProofs ExprValue ExprComplete StmtModel StmtSpec.
Import ListNotations.
Open Scope nat_scope.

(* ---- an expression read without an error is made of expression tokens ---- *)
Definition plain (t : tok) : Prop := match t with TEnd | TErr | TOther _ => False | _ => True end.
Definition root_as (n : node) : bool := match as_cond n with Some _ => true | None => false end.
Definition tnode (t : task) : node :=
  match t with Rest _ n | Question n | RestFactor n | RestLval n | Members n _ | WrapFactor n | Wrap _ n | WrapAssign n | RestAssign n => n | _ => NNull end.
Definition clr (A : Prop) (ts : list tok) (r : ExprModel.res) : Prop :=
  match r with
  | Got n rest false => exists pre, ts = pre ++ rest /\ Forall plain pre /\ (root_as n = true -> A \/ In (TIs true) pre)
  | _ => True
  end.

Lemma clr_flag (A : Prop) e ts r : clr A ts r -> clr A ts (flag e r).
Proof. destruct r as [n l b| | |], e; cbn; auto. Qed.
Lemma clr_got (A : Prop) n ts e : (root_as n = true -> A) -> clr A ts (Got n ts e).
Proof. intro H. destruct e; cbn; auto. exists []. repeat split; auto. Qed.
Lemma clr_err (A : Prop) n ts l : clr A ts (Got n l true). Proof. exact I. Qed.
Lemma clr_weak (A B : Prop) ts r : (A -> B) -> clr A ts r -> clr B ts r.
Proof. intro H. destruct r as [n l []| | |]; cbn; auto. intros (pre & -> & F & K). exists pre. repeat split; auto. intro X. destruct (K X); auto. Qed.
Lemma clr_cons (A : Prop) t ts r : plain t -> clr (A \/ t = TIs true) ts r -> clr A (t :: ts) r.
Proof.
  intros P. destruct r as [n l []| | |]; cbn; auto. intros (pre & -> & F & K). exists (t :: pre). repeat split; auto.
  intro X. destruct (K X) as [[H|H]|H]; cbn; auto.
Qed.
Lemma clr_tl (A : Prop) t ts r : first ts = t -> plain t -> clr (A \/ t = TIs true) (tl ts) r -> clr A ts r.
Proof. destruct ts; cbn; intros <- P; [destruct P|]. apply clr_cons, P. Qed.
Lemma clr_bind (A B : Prop) ts r k : clr B ts r -> (B -> A) -> (forall n ts', clr (A \/ root_as n = true) ts' (k n ts')) -> clr A ts (bind r k).
Proof.
  intros H W K. destruct r as [n l e| | |]; cbn [bind]; try exact I. destruct e.
  - destruct (k n l) as [m l' []| | |]; exact I.
  - rewrite flag_false. cbn in H. destruct H as (pre & -> & F & R). specialize (K n l).
    destruct (k n l) as [m l' []| | |]; cbn in *; auto. destruct K as (pre' & -> & F' & R'). exists (pre ++ pre'). rewrite app_assoc.
    repeat split; auto using Forall_app. + now apply Forall_app. + intro X. destruct (R' X) as [[Y|Y]|Y]; auto; [|right; apply in_or_app; auto].
      destruct (R Y); auto. right. apply in_or_app; auto.
Qed.
Lemma clr_peek (A : Prop) ts k : (forall t, t <> TErr -> first ts = t -> clr A ts (k t ts)) -> clr A ts (peek ts k).
Proof.
  intro H. destruct ts as [|t r]; [apply (H TEnd); easy|]. destruct t; try (apply H; easy). cbn [peek].
  destruct r; match goal with |- clr _ _ (flag true ?x) => destruct x as [? ? []| | |]; exact I end.
Qed.
Lemma clr_get (A : Prop) ts k : (forall t, t <> TErr -> first ts = t -> clr A ts (k t (tl ts))) -> clr A ts (get ts k).
Proof. intro H. apply clr_peek. intros. apply H; auto. Qed.

Lemma is_op_plain k t o : is_op k t = Some o -> plain t. Proof. destruct t; easy. Qed.
Lemma unary_plain t u : unary t = Some u -> plain t. Proof. destruct t as [| | | | | | | | | | | | | |[]| | | | | | | | | | |]; easy. Qed.

Lemma clr_minMaxSizeof (A : Prop) n ts k :
  (root_as n = true -> A) -> (forall m l, (root_as m = true -> A) -> clr A l (k m l)) -> first ts <> TErr -> clr A (ts) (minMaxSizeof n ts k).
Proof.
  intros N K F. unfold minMaxSizeof. apply clr_peek. intros d D E1.
  assert (G : forall l, clr A l (peek l (fun f ts3 =>
      match f with
      | TOf (Proxy i) => k (NOf (Proxy i) n) (tl ts3)
      | TOf Constantof => peek (tl ts3) (fun c ts4 => match c with TOpen => flag true (k NNull ts4) | _ => k (NOf Constantof n) ts4 end)
      | TOf Instanceof => peek (tl ts3) (fun c ts4 => match c with TOpen => Unmod | _ => k (NOf Instanceof n) ts4 end)
      | TOf Atomof => if null n then Abort else k (NOf Atomof n) (tl ts3)
      | _ => k NNull ts3
      end))).
  { intro l. apply clr_peek. intros f Ff El.
    destruct f; try (apply K; discriminate). destruct k0.
    - apply (clr_tl _ _ _ _ El); [exact I|]. eapply clr_weak; [|apply K; discriminate]. tauto.
    - apply (clr_tl _ _ _ _ El); [exact I|]. apply clr_peek. intros c C Ec.
      eapply (clr_weak A); [tauto|]. destruct c; try (apply K; discriminate). apply clr_flag, K. discriminate.
    - apply (clr_tl _ _ _ _ El); [exact I|]. apply clr_peek. intros c C Ec.
      eapply (clr_weak A); [tauto|]. destruct c; try (apply K; discriminate). exact I.
    - apply (clr_tl _ _ _ _ El); [exact I|]. destruct (null n); [exact I|]. eapply clr_weak; [|apply K; discriminate]. tauto. }
  destruct d; try apply G. apply (clr_tl _ _ _ _ E1); [exact I|]. eapply clr_weak; [|apply G]. tauto.
Qed.

Ltac side :=
  solve [ assumption | exact I | eapply is_op_plain; eassumption | eapply unary_plain; eassumption | cbn [root_as as_cond null tnode]; intros; subst; try discriminate; try tauto
        | intros; repeat match goal with a : bool |- _ => destruct a end; cbn [root_as as_cond tnode] in *; try discriminate; tauto ].
Lemma clr_step rec t ts :
  (forall t' ts', clr (root_as (tnode t') = true) ts' (rec t' ts')) -> clr (root_as (tnode t) = true) ts (ExprModel.step rec t ts).
Proof.
  intros IH.
  assert (R : forall (A : Prop) t' ts', (root_as (tnode t') = true -> A) -> clr A ts' (rec t' ts')).
  { intros A t' ts' H. eapply clr_weak; [exact H | apply IH]. }
  clear IH.
  assert (OPN : forall k, tnode (operand k) = NNull) by (intro k; unfold operand; now destruct (Nat.eqb k 6)).
  destruct t; cbn [ExprModel.step tnode]; cbv zeta;
  repeat first
    [ exact I
    | apply clr_err
    | match goal with |- clr _ _ (match ?x with _ => _ end) => destruct x eqn:? end
    | apply clr_got; side
    | apply R; rewrite OPN; side
    | apply R; side
    | apply clr_flag
    | apply clr_minMaxSizeof; [side | intros | congruence]
    | match goal with
      | |- clr ?A _ (bind (rec ?t' ?l) _) => apply (clr_bind A (root_as (tnode t') = true)); [apply R; auto | rewrite ?OPN; side | intros]
      end
    | match goal with
      | H : first ?l = ?p |- clr _ ?l _ => match goal with |- context [tl l] => apply (clr_tl _ _ _ _ H); [side|] end
      end
    | apply clr_get; intros
    | apply clr_peek; intros
    | match goal with |- context [match ?x with _ => _ end] => destruct x eqn:? end ].

Qed.
Lemma clr_run g : forall t ts, clr (root_as (tnode t) = true) ts (run g t ts).
Proof. induction g as [|g IH]; intros t ts; [exact I|]. cbn [run]. apply clr_step, IH. Qed.

(* nothing is read where no expression begins *)
Lemma V_nothing ts : first ts = TEnd \/ first ts = TClose -> V Assign ts = Got NNull ts false.
Proof.
  intro H. assert (E : first ts <> TErr) by (destruct H as [-> | ->]; discriminate).
  assert (F : V (Factor false) ts = Got NNull ts false).
  { rewrite V_step by exact I. cbn [ExprModel.step]. rewrite peek_first by exact E. destruct H as [-> | ->]; reflexivity. }
  assert (L : forall k, k <= 6 -> V (Level (6 - k)) ts = Got NNull ts false).
  { induction k as [|k IH]; intro K.
    - rewrite V_step by (cbn [task_lvl]; lia). cbn [ExprModel.step operand Nat.sub Nat.eqb]. now rewrite F.
    - rewrite V_step by (cbn [task_lvl]; lia). cbn [ExprModel.step]. replace (operand (6 - S k)) with (Level (6 - k)).
      + rewrite IH by lia. reflexivity.
      + unfold operand. destruct (Nat.eqb_spec (6 - S k) 6); [lia|]. f_equal. lia. }
  rewrite V_step by exact I. cbn [ExprModel.step]. change (Level 0) with (Level (6 - 6)). rewrite L by lia. reflexivity.
Qed.

Definition etask (t : task) : Prop := t = Assign \/ t = Level 0.
Lemma run_enough t ts : etask t -> run (enough ts) t ts = V t ts.
Proof.
  intros [-> | ->]; [exact (parse_V ts)|]. apply V_enough; [cbn [task_lvl]; lia|]. unfold budget, enough. cbn [weight]. lia.
Qed.
Lemma etask_lvl t : etask t -> task_lvl t. Proof. intros [-> | ->]; cbn; [exact I | lia]. Qed.

(* ---- the parser ends ---- *)
Notation len s := (length (toks s)).
Definition en {A} (L : nat) (r : res A) : Prop := match r with Done _ s' => len s' <= L | Fuel => False | _ => True end.
Lemma en_le {A} L L' (r : res A) : L <= L' -> en L r -> en L' r. Proof. destruct r; cbn; auto. lia. Qed.
Lemma en_sbind {A B} L M (r : res A) (k : A -> st -> res B) : en L r -> (forall a s, len s <= L -> en M (k a s)) -> en M (sbind r k).
Proof. destruct r; cbn; auto. Qed.
Lemma look_len s : len (look s) <= len s. Proof. unfold look. destruct (toks s) as [|[[]| | | | | | | | | | | | | | | | |] r] eqn:E; cbn [fail set_toks toks length]; rewrite ?E; cbn [length]; lia. Qed.
Lemma drop_len s : len (drop s) = len s - 1. Proof. unfold drop. cbn. destruct (toks s); cbn; lia. Qed.
Lemma en_expect {A} L q t s (yes no : st -> res A) :
  (forall s', len s' <= len s - 1 -> 1 <= len s -> en L (yes s')) -> (forall s', len s' <= len s -> en L (no s')) -> en L (expect q t s yes no).
Proof.
  intros Y N. unfold expect. pose proof (look_len s) as K.
  destruct (same (hd_tok (toks (look s))) t) eqn:S.
  - apply Y; [rewrite drop_len; lia|]. destruct (toks (look s)) eqn:E; cbn in *; [|lia]. destruct t as [[]| | | | | | | | | | | | | | | | |]; discriminate.
  - apply N. destruct q; exact K.
Qed.
Lemma en_expr {A} L t s (k : node -> st -> res A) : etask t -> (forall n s', len s' <= len s -> en L (k n s')) -> en L (expr t s k).
Proof.
  intros T K. unfold expr. rewrite run_enough by exact T. pose proof (V_answer t (map as_tok (toks s)) (etask_lvl _ T)) as W.
  pose proof (ends_run (S (budget t (map as_tok (toks s)))) t (map as_tok (toks s)) (etask_lvl _ T) (Nat.lt_succ_diag_r _)) as F.
  unfold V in *. destruct (run _ t _) as [n rest e| | |]; cbn [en]; auto. apply K. cbn [toks]. rewrite skipn_length. lia.
Qed.
Lemma until_len t : forall ts, length (until t ts) <= length ts.
Proof.
  intro ts. remember (length ts) as m eqn:M. assert (L : length ts <= m) by lia. clear M. revert ts L.
  induction m as [|m IH]; intros [|x r] L; cbn in L; try lia; [cbn; lia|cbn; lia|].
  assert (R : length (if same x t then r else until t r) <= S m) by (destruct (same x t); [lia|]; specialize (IH r ltac:(lia)); lia).
  destruct x as [[]| | | | | | | | | | | | | | | | |]; try exact R; [|cbn; lia].
  cbn [until]. destruct r as [|y r]; [cbn; lia|]. cbn in L.
  assert (R' : length (if same y t then r else until t r) <= S m) by (destruct (same y t); [lia|]; specialize (IH r ltac:(lia)); lia).
  destruct y as [[]| | | | | | | | | | | | | | | | |]; try exact R'. cbn in *; lia.
Qed.
Lemma upto_len t : forall ts, length (upto t ts) <= length ts.
Proof.
  intro ts. remember (length ts) as m eqn:M. assert (L : length ts <= m) by lia. clear M. revert ts L.
  induction m as [|m IH]; intros [|x r] L; cbn in L; try lia; [cbn; lia|cbn; lia|].
  assert (R : length (if same x t then x :: r else upto t r) <= S m) by (destruct (same x t); [cbn; lia|]; specialize (IH r ltac:(lia)); lia).
  destruct x as [[]| | | | | | | | | | | | | | | | |]; try exact R; [|cbn; lia].
  cbn [upto]. destruct r as [|y r]; [cbn; lia|]. cbn in L.
  assert (R' : length (if same y t then y :: r else upto t r) <= S m) by (destruct (same y t); [cbn; lia|]; specialize (IH r ltac:(lia)); lia).
  destruct y as [[]| | | | | | | | | | | | | | | | |]; try exact R'. cbn in *; lia.
Qed.
Lemma until_lt t x r : x <> E TEnd -> length (until t (x :: r)) <= length r.
Proof.
  intro N. pose proof (until_len t r) as R.
  assert (Q : length (if same x t then r else until t r) <= length r) by (destruct (same x t); lia).
  destruct x as [[]| | | | | | | | | | | | | | | | |]; try exact Q; [|congruence].
  cbn [until]. destruct r as [|y r]; [cbn; lia|].
  assert (Q' : length (if same y t then r else until t r) <= length (y :: r)) by (pose proof (until_len t r); destruct (same y t); cbn; lia).
  destruct y as [[]| | | | | | | | | | | | | | | | |]; try exact Q'. cbn; lia.
Qed.

Lemma en_initial {A} L s (k : node -> st -> res A) : (forall n s', len s' <= len s -> en L (k n s')) -> en L (initial s k).
Proof.
  intro K. unfold initial, tok_of. pose proof (look_len s) as Q.
  assert (D : forall n, en L (k n (look s))) by (intro n; apply K; exact Q).
  destruct (hd_tok (toks (look s))) as [[]| | | | | | | | | | | | | | | | |]; try apply D; try exact I. destruct o; [|apply D].
  assert (X : en L (expr (Level 0) (look (drop (look s))) (fun n s2 => if null n then k NNull (fail s2) else k n s2))).
  { apply en_expr; [now right|]. intros n s' H. pose proof (look_len (drop (look s))). rewrite drop_len in *.
    destruct (null n); apply K; cbn [fail toks]; lia. }
  destruct (hd_tok (toks (look (drop (look s))))); try exact X. exact I.
Qed.
Lemma en_restOfDecls ty : forall g acc s, len s < g -> en (len s) (restOfDecls g ty acc s).
Proof.
  induction g as [|g IH]; intros acc s H; [lia|]. cbn [restOfDecls]. unfold tok_of.
  pose proof (look_len s) as Q. assert (D : en (len s) (Done acc (look s))) by exact Q.
  destruct (hd_tok (toks (look s))) as [[]| | | | | | | | | | | | | | | | |] eqn:Hd; try exact D.
  assert (1 <= len (look s)) by (destruct (toks (look s)); cbn in *; [discriminate | lia]).
  set (s1 := drop (look s)). assert (L1 : len s1 < len s) by (unfold s1; rewrite drop_len; lia). pose proof (look_len s1) as Q1.
  assert (X : en (len s) (Done acc (let s2 := fail (drop (look s1)) in set_toks s2 (upto Semi (toks s2))))).
  { cbn. pose proof (upto_len Semi (tl (toks (look s1)))). pose proof (drop_len (look s1)) as K. unfold drop in K. cbn in K. lia. }
  destruct (hd_tok (toks (look s1))) as [[]| | | | | | | | | | | | | | | | |]; try exact X.
  - apply en_initial. intros m s' H'. rewrite drop_len in H'. eapply en_le; [|apply IH]; lia.
  - destruct o; try exact X. exact I.
Qed.
Lemma en_parseDecl s : hd_tok (toks (look s)) <> E TEnd -> en (len s - 1) (parseDecl s).
Proof.
  intro NE. unfold parseDecl, tok_of. pose proof (look_len s) as Q.
  destruct (hd_tok (toks (look s))) as [[]| | | | | | | | | | | | | | | | |] eqn:Hd; try exact I.
  assert (1 <= len (look s)) by (destruct (toks (look s)); cbn in *; [discriminate | lia]).
  set (s1 := drop (look s)). assert (L1 : len s1 <= len s - 1) by (unfold s1; rewrite drop_len; lia). pose proof (look_len s1) as Q1.
  assert (X : en (len s - 1) (Done ([] : list tree) (fail (look s1)))) by (cbn; lia).
  destruct (hd_tok (toks (look s1))) as [[]| | | | | | | | | | | | | | | | |]; try exact X; try exact I.
  - apply en_initial. intros m s' H'. rewrite drop_len in H'. eapply en_le; [|apply en_restOfDecls; lia]; lia.
  - destruct o; try exact X. exact I.
Qed.
Lemma en_expr_all {A} L t s (k : node -> st -> res A) : etask t -> (forall n s', len s' < len s \/ toks s' = toks s -> en L (k n s')) -> en L (expr t s k).
Proof.
  intros T K. unfold expr. rewrite run_enough by exact T.
  pose proof (ends_run (S (budget t (map as_tok (toks s)))) t (map as_tok (toks s)) (etask_lvl _ T) (Nat.lt_succ_diag_r _)) as F.
  unfold V in *. destruct (run _ t _) as [n rest e| | |]; cbn [en]; auto. apply K. cbn [toks].
  destruct (len s - length rest) as [|i] eqn:Hi; [right; reflexivity|]. left. rewrite skipn_length. lia.
Qed.
Lemma hd_some s t : hd_tok (toks s) = t -> t <> E TEnd -> 1 <= len s.
Proof. destruct (toks s); cbn; [congruence | lia]. Qed.
Lemma look_id s : hd_tok (toks s) <> E TErr -> look s = s.
Proof. unfold look. destruct (toks s) as [|[[]| | | | | | | | | | | | | | | | |] r]; cbn; congruence. Qed.
Lemma look_err s : hd_tok (toks s) = E TErr -> len (look s) = len s - 1 /\ 1 <= len s.
Proof. unfold look. destruct (toks s) as [|[[]| | | | | | | | | | | | | | | | |] r]; cbn; try discriminate. lia. Qed.

(* the semicolon of a simple statement *)
Definition semi (r : res (list tree)) : res (list tree) :=
  sbind r (fun ts s2 => expect true Semi s2 (fun s3 => Done ts s3) (fun s3 => Done ts (fail (set_toks s3 (until Semi (toks s3)))))).
Lemma semi_len L r : en L r -> en L (semi r).
Proof.
  intro H. apply (en_sbind L); [exact H|]. intros a s K. apply en_expect; cbn [en].
  - intros. lia. - intros s' H'. cbn. pose proof (until_len Semi (toks s')). lia.
Qed.
Lemma semi_lt a s x r : toks s = x :: r -> x <> E TEnd -> en (length r) (semi (Done a s)).
Proof.
  intros T N. unfold semi, sbind. cbn [sbind]. unfold expect. pose proof (look_len s) as Q. rewrite T in Q. cbn [length] in Q.
  destruct (same (hd_tok (toks (look s))) Semi) eqn:S; cbn [en]; [rewrite drop_len; lia|]. cbn [fail set_toks toks].
  unfold look. rewrite T. destruct x as [[]| | | | | | | | | | | | | | | | |]; rewrite ?T; try (apply until_lt; congruence); try congruence. cbn.
  apply until_len.
Qed.
Lemma simple_eq brk cont s : parseSimpleStatement brk cont s =
  semi (let s1 := look s in
    match hd_tok (toks s1) with
    | Semi => Done [TEmpty] s1
    | E (TType _) => parseDecl s1
    | E TLocal | KTypedef | KConst => Unmodelled
    | KReturn => expr Assign (drop s1) (fun n s2 => Done [TReturn n] s2)
    | KBreak => if brk then Done [TBreak] (drop s1) else Done [] (fail (drop s1))
    | KContinue => if cont then Done [TContinue] (drop s1) else Done [] (fail (drop s1))
    | KOverride => Done [] (fail (drop s1))
    | E TErr => Done [] (drop s1)
    | _ => expr Assign s1 (fun n s2 => Done (if null n then [] else [TExpr n]) s2)
    end).
Proof. reflexivity. Qed.

Lemma en_simple_le brk cont s : en (len s) (parseSimpleStatement brk cont s).
Proof.
  rewrite simple_eq. apply semi_len. cbv zeta. pose proof (look_len s) as Q.
  assert (D : forall ts : list tree, en (len s) (Done ts (drop (look s)))) by (intro; cbn [en]; rewrite drop_len; lia).
  assert (X : en (len s) (expr Assign (look s) (fun n s2 => Done (if null n then [] else [TExpr n]) s2))).
  { apply en_expr; [now left|]. intros. cbn. lia. }
  destruct (hd_tok (toks (look s))) as [[]| | | | | | | | | | | | | | | | |] eqn:Hd; try exact X; try exact I; try apply (D []); try exact Q.
  - eapply en_le; [|apply en_parseDecl]; [lia|]. pose proof (look_id (look s)) as Z. rewrite Z by (rewrite Hd; discriminate). now rewrite Hd.
  - apply en_expr; [now left|]. intros n s' H. cbn. rewrite drop_len in H. lia.
  - destruct brk; apply (D []) || apply (D [TBreak]).
  - destruct cont; apply (D []) || apply (D [TContinue]).
Qed.
Lemma en_simple brk cont s : hd_tok (toks s) <> E TEnd -> en (len s - 1) (parseSimpleStatement brk cont s).
Proof.
  intro NE. destruct (toks s) as [|x r] eqn:T; [elim NE; reflexivity|]. cbn [hd_tok] in NE.
  assert (DEC : {x = E TErr} + {x <> E TErr}) by (destruct x as [[]| | | | | | | | | | | | | | | | |]; try (left; reflexivity); right; discriminate).
  destruct DEC as [-> | NT].
  - rewrite simple_eq. assert (L : toks (look s) = r) by (unfold look; rewrite T; reflexivity). cbv zeta. cbn [length]. replace (S (length r) - 1) with (length r) by lia.
    apply semi_len. rewrite L.
    assert (D : forall ts : list tree, en (length r) (Done ts (drop (look s)))) by (intro; cbn [en]; rewrite drop_len, L; lia).
    assert (X : en (length r) (expr Assign (look s) (fun n s2 => Done (if null n then [] else [TExpr n]) s2))).
    { apply en_expr; [now left|]. rewrite L. intros. cbn. lia. }
    destruct (hd_tok r) as [[]| | | | | | | | | | | | | | | | |] eqn:Hd; try exact X; try exact I; try apply (D []).
    + eapply en_le; [|apply en_parseDecl]; [rewrite L; lia|]. rewrite look_id; rewrite L, Hd; discriminate.
    + cbn [en]. rewrite L. lia.
    + apply en_expr; [now left|]. intros n s' H. cbn. rewrite drop_len, L in H. lia.
    + destruct brk; apply (D []) || apply (D [TBreak]).
    + destruct cont; apply (D []) || apply (D [TContinue]).
  - rewrite simple_eq. assert (L : look s = s) by (apply look_id; now rewrite T). cbv zeta. rewrite L, T. cbn [hd_tok length]. replace (S (length r) - 1) with (length r) by lia.
    assert (D : forall (ts : list tree) s', toks s' = toks (drop s) -> en (length r) (semi (Done ts s')))
      by (intros ts s' Ht; apply semi_len; cbn [en]; rewrite Ht, drop_len, T; cbn; lia).
    assert (X : en (length r) (semi (expr Assign s (fun n s2 => Done (if null n then [] else [TExpr n]) s2)))).
    { unfold semi, expr. rewrite run_enough by now left.
      pose proof (ends_run (S (budget Assign (map as_tok (toks s)))) Assign (map as_tok (toks s)) I (Nat.lt_succ_diag_r _)) as F.
      unfold V in *. destruct (run _ Assign _) as [n rest e| | |]; cbn [sbind en]; auto.
      match goal with |- en _ (expect true Semi ?s2 _ _) => set (s' := s2) end.
      assert (H : len s' < len s \/ toks s' = toks s).
      { unfold s'. cbn [toks]. destruct (len s - length rest) as [|i] eqn:Hi; [right; reflexivity|]. left. rewrite skipn_length. lia. }
      destruct H as [H|H].
      - apply (semi_len _ (Done (if null n then [] else [TExpr n]) s')). cbn. rewrite T in H. cbn in H. lia.
      - apply (semi_lt _ s' x r); [now rewrite H | exact NE]. }
    destruct x as [[]| | | | | | | | | | | | | | | | |]; try exact X; try exact I; try (apply D; reflexivity).
    + apply semi_len. eapply en_le; [|apply en_parseDecl]; [rewrite T; cbn; lia|]. now rewrite L, T.
    + apply (semi_lt _ s Semi r T). discriminate.
    + apply semi_len. apply en_expr; [now left|]. intros n s' H. cbn. rewrite drop_len, T in H. cbn in H. lia.
    + destruct brk; apply D; reflexivity.
    + destruct cont; apply D; reflexivity.
Qed.
(* at the end of the file the statement reads nothing *)
Lemma simple_end brk cont s : hd_tok (toks s) = E TEnd ->
  parseSimpleStatement brk cont s = Done [] (fail s).
Proof.
  intro H. rewrite simple_eq. cbv zeta. rewrite look_id by (rewrite H; discriminate). rewrite H.
  unfold expr. rewrite run_enough by now left. rewrite V_nothing by (left; destruct (toks s) as [|x l]; cbn in *; [reflexivity | now subst]).
  rewrite map_length, Nat.sub_diag. cbn [firstn skipn existsb negb null andb semi sbind]. rewrite !orb_false_r. unfold expect.
  set (s2 := {| toks := _ |}). assert (E2 : s2 = s) by (destruct s; reflexivity). rewrite E2, look_id by (rewrite H; discriminate). rewrite H. cbn [same].
  f_equal. unfold fail, set_toks. cbn. f_equal. destruct (toks s) as [|x l]; cbn in *; [reflexivity | now rewrite H].
Qed.
Definition enc (acc : option cond) (L : nat) (r : res (option cond)) : Prop :=
  match r with Done o s' => len s' <= L /\ (acc = None -> o <> None -> len s' < L) | Fuel => False | _ => True end.
Lemma enc_none acc L (s : st) : len s <= L -> enc acc L (Done None s). Proof. cbn. intuition congruence. Qed.
Lemma enc_expect acc L q t s yes no :
  (forall s', len s' <= len s - 1 -> 1 <= len s -> enc acc L (yes s')) -> (forall s', len s' <= len s -> enc acc L (no s')) -> enc acc L (expect q t s yes no).
Proof.
  intros Y N. unfold expect. pose proof (look_len s) as K.
  destruct (same (hd_tok (toks (look s))) t) eqn:S.
  - apply Y; [rewrite drop_len; lia|]. destruct (toks (look s)) eqn:E; cbn in *; [|lia]. destruct t as [[]| | | | | | | | | | | | | | | | |]; discriminate.
  - apply N. destruct q; exact K.
Qed.
Lemma enc_expr acc L t s k : etask t -> (forall n s', len s' <= len s -> enc acc L (k n s')) -> enc acc L (expr t s k).
Proof.
  intros T K. unfold expr. rewrite run_enough by exact T.
  pose proof (ends_run (S (budget t (map as_tok (toks s)))) t (map as_tok (toks s)) (etask_lvl _ T) (Nat.lt_succ_diag_r _)) as F.
  unfold V in *. destruct (run _ t _) as [n rest e| | |]; cbn [enc]; auto. apply K. cbn [toks]. rewrite skipn_length. lia.
Qed.
Lemma enc_restOfCase value : forall g acc s, len s < g -> enc acc (len s) (restOfCase g value acc s).
Proof.
  induction g as [|g IH]; intros acc s H; [lia|]. cbn [restOfCase]. pose proof (look_len s) as Q.
  assert (D : enc acc (len s) (Done acc (look s))) by (cbn; intuition congruence).
  destruct (hd_tok (toks (look s))) as [[]| | | | | | | | | | | | | | | | |] eqn:Hd; try exact D;
    pose proof (hd_some _ _ Hd ltac:(discriminate)) as L1; pose proof (drop_len (look s)) as L2.
  - destruct (dfl (look s)); try (apply enc_none; cbn [set_dfl fail drop set_toks toks]; cbn in L2; lia).
    apply enc_expr; [now left|]. intros n s2 H2. destruct (null n); [apply enc_none; cbn [set_dfl fail toks]; lia|]. destruct (asf s2).
    + apply enc_expect; [|intros; apply enc_none; cbn [set_dfl toks]; lia]. intros s3 H3 H4.
      destruct acc; [apply enc_none; cbn [set_dfl fail toks]; lia|]. destruct value; [apply enc_none; cbn [set_dfl fail toks]; lia|]. cbn. lia.
    + apply enc_expect; [|intros; apply enc_none; destruct value; cbn [set_dfl toks]; lia]. intros s3 H3 H4.
      specialize (IH (Some (match acc with Some a => COr a (if value then CCase n else CNode n) | None => if value then CCase n else CNode n end)) s3 ltac:(lia)).
      unfold enc in *. destruct value, acc; (match goal with |- match ?r with _ => _ end => destruct r end; auto; split; [lia | intros; lia]).
  - destruct (dfl (look s)); try (apply enc_none; cbn [set_dfl fail drop set_toks toks]; cbn in L2; lia).
    apply enc_expect; cbn [set_dfl toks]; [|intros; apply enc_none; cbn [set_dfl toks]; lia]. intros s3 H3 H4.
    specialize (IH (Some CTrue) s3 ltac:(lia)). unfold enc in *. destruct acc; (match goal with |- match ?r with _ => _ end => destruct r end; auto; split; [lia | intros; lia]).
Qed.

Definition sweight (t : stask) : nat := match t with Block _ _ | NextCase _ _ _ _ => 0 | Statement _ _ => 1 | _ => 2 end.
Definition strict (t : stask) (s : st) : Prop :=
  match t with Statement _ _ => hd_tok (toks s) <> E TEnd | Block _ _ => hd_tok (toks s) = OpenC | _ => False end.
Definition enS (t : stask) (s : st) (r : res (list tree)) : Prop :=
  en (len s) r /\ (strict t s -> en (len s - 1) r) /\
  match t with Statement _ _ => hd_tok (toks s) = E TEnd -> r = Done [] (fail s) | _ => True end.

Lemma enS_step B rec t s :
  (forall t' s', 3 * len s' + sweight t' < B -> enS t' s' (rec t' s')) -> 3 * len s + sweight t <= B -> enS t s (step rec t s).
Proof.
  intros IH H.
  assert (R : forall t' s' L, 3 * len s' + sweight t' < B -> len s' <= L -> en L (rec t' s')).
  { intros t' s' L H1 H2. eapply en_le; [exact H2|]. apply IH, H1. }
  assert (BODY : forall brk cont c s' L, len s' < len s -> len s' <= L -> en L (body rec brk cont c s')).
  { intros brk cont c s' L H1 H2. unfold body. destruct (asf s'); apply R; cbn [sweight]; lia. }
  assert (WH : forall pre c stp s', len s' < len s -> en (len s - 1) (makeControlWhileNode rec pre c stp s')).
  { intros pre c stp s' H1. unfold makeControlWhileNode. apply (en_sbind (len s - 1)); [apply BODY; lia|].
    intros a s'' H2. destruct a; cbn; lia. }
  assert (FA : forall pre c s', len s' < len s -> en (len s - 1) (forAssign rec pre c s')).
  { intros pre c s' H1. unfold forAssign. pose proof (look_len s').
    assert (X : en (len s - 1) (expr Assign (look s') (fun n s2 =>
           if null n then Done [] (fail s2) else expect false (E TClose) s2 (makeControlWhileNode rec pre c [n]) (Done [])))).
    { apply en_expr; [now left|]. intros n s2 H2. destruct (null n); [cbn; lia|]. apply en_expect; [|intros; cbn; lia]. intros. apply WH. lia. }
    destruct (hd_tok (toks (look s'))) as [[]| | | | | | | | | | | | | | | | |]; try exact X. apply WH. rewrite drop_len. lia. }
  assert (FC : forall pre s', len s' < len s -> en (len s - 1) (forCond rec pre s')).
  { intros pre s' H1. unfold forCond. pose proof (look_len s').
    assert (X : en (len s - 1) (expr Assign (look s') (fun n s2 =>
           if null n then Done [] (fail s2) else expect false Semi s2 (forAssign rec pre (CNode n)) (Done [])))).
    { apply en_expr; [now left|]. intros n s2 H2. destruct (null n); [cbn; lia|]. apply en_expect; [|intros; cbn; lia]. intros. apply FA. lia. }
    destruct (hd_tok (toks (look s'))) as [[]| | | | | | | | | | | | | | | | |]; try exact X. apply FA. rewrite drop_len. lia. }
  assert (FS : forall pre s', len s' < len s -> en (len s - 1) (forSemi rec pre s')).
  { intros pre s' H1. unfold forSemi. pose proof (drop_len s').
    assert (X : en (len s - 1) (Done ([] : list tree) (fail (drop s')))) by (cbn; cbn in H0; lia).
    destruct (hd_tok (toks s')) as [[]| | | | | | | | | | | | | | | | |]; try exact X. apply FC. lia. }
  assert (NC : forall brk cont value prev s', len s' < len s -> en (len s - 1) (rec (NextCase brk cont value prev) s')).
  { intros. apply R; cbn [sweight]; lia. }
  assert (CTL : forall brk cont s', len s' <= len s -> hd_tok (toks (look s')) <> E TEnd -> en (len s - 1) (parseControlStatement rec brk cont s')).
  { intros brk cont s' H1 H2. unfold parseControlStatement. pose proof (look_len s') as Q. pose proof (drop_len (look s')) as Dl.
    assert (L1 : 1 <= len (look s')) by (eapply hd_some; [reflexivity | exact H2]).
    assert (L2 : len (drop (look s')) < len s) by lia. set (s1 := drop (look s')) in *. clearbody s1.
    assert (X : en (len s - 1) (Done ([] : list tree) (fail s1))) by (cbn [en fail toks]; lia).
    destruct (hd_tok (toks (look s'))) as [[]| | | | | | | | | | | | | | | | |]; try exact X.
    - unfold parseControlIf. apply en_expect; [|intros; cbn; lia]. intros s2 A1 A2. apply en_expr; [now left|]. intros n s3 A3.
      destruct (null n); [cbn; lia|]. apply en_expect; [|intros; cbn; lia]. intros s4 A4 A5.
      apply (en_sbind (len s - 1)); [apply BODY; lia|]. intros [|t0 tl0] s5 A6; [cbn; lia|].
      apply en_expect; [|intros; cbn; lia]. intros s6 A7 A8. apply (en_sbind (len s - 1)); [apply R; cbn [sweight]; lia|]. intros; cbn; lia.
    - unfold parseControlWhile. apply en_expect; [|intros; cbn; lia]. intros s2 A1 A2. apply en_expr; [now left|]. intros n s3 A3.
      destruct (null n); [cbn; lia|]. apply en_expect; [|intros; cbn; lia]. intros s4 A4 A5. apply WH. lia.
    - unfold parseControlFor. apply en_expect; [|intros; cbn; lia]. intros s2 A1 A2. pose proof (look_len s2) as Q2.
      assert (Y : en (len s - 1) (forSemi rec [] (look s2))) by (apply FS; lia).
      destruct (hd_tok (toks (look s2))) as [[]| | | | | | | | | | | | | | | | |] eqn:Hd; try exact Y.
      + apply en_expr; [now left|]. intros m s3 A3. pose proof (look_len (fail s3)) as Q3. pose proof (look_len s3). cbn in Q3. destruct (null m); apply FS; lia.
      + apply (en_sbind (len s2)).
        * eapply en_le; [|apply en_parseDecl]; [lia|]. rewrite look_id; rewrite Hd; discriminate.
        * intros a s3 A3. pose proof (look_len s3). apply FS. lia.
    - unfold parseControlSwitch. apply en_expect; [|intros; cbn; lia]. intros s2 A1 A2. pose proof (look_len s2) as Q2.
      apply en_expr; [now left|]. intros n s3 A3. match goal with |- context [if ?b then _ else _] => destruct b end; [cbn; lia|].
      apply en_expect; [|intros; cbn; lia]. intros s4 A4 A5. apply en_expect; [|intros; cbn; lia]. intros s5 A6 A7.
      apply (en_sbind (len s - 1)); [apply NC; cbn; lia|]. intros cs s6 A8. apply en_expect; [|intros; cbn; cbn in *; lia].
      intros s7 A9 A10. cbn in A9. destruct (dfl s6); cbn; auto; lia. }
  assert (ST : forall brk cont, t = Statement brk cont ->
    en (len s) (step rec t s) /\ (hd_tok (toks s) <> E TEnd -> en (len s - 1) (step rec t s)) /\ (hd_tok (toks s) = E TEnd -> step rec t s = Done [] (fail s))).
  { intros brk cont ->. cbn [step sweight] in *.
    assert (G : hd_tok (toks s) <> E TEnd -> en (len s - 1)
       match hd_tok (toks (look s)) with
       | OpenC => rec (Block brk cont) (look s)
       | KIf | KElse | KWhile | KFor | KWhich => parseControlStatement rec brk cont (look s)
       | _ => parseSimpleStatement brk cont (look s)
       end).
    { intro NE.
      assert (SIMP : en (len s - 1) (parseSimpleStatement brk cont (look s))).
      { assert (DEC : {hd_tok (toks s) = E TErr} + {hd_tok (toks s) <> E TErr})
          by (destruct (hd_tok (toks s)) as [[]| | | | | | | | | | | | | | | | |]; try (left; reflexivity); right; discriminate).
        destruct DEC as [T|T].
        - destruct (look_err _ T) as [T1 T2]. eapply en_le; [|apply en_simple_le]. lia.
        - rewrite look_id by exact T. apply en_simple, NE. }
      pose proof (look_len s) as Q.
      destruct (hd_tok (toks (look s))) as [[]| | | | | | | | | | | | | | | | |] eqn:Hd; try exact SIMP;
        try (apply CTL; [exact Q | rewrite look_id; rewrite Hd; discriminate]).
      eapply en_le with (L := len (look s) - 1); [lia|]. apply IH; [cbn [sweight]; lia | exact Hd]. }
    assert (Z : hd_tok (toks s) = E TEnd -> 
       match hd_tok (toks (look s)) with
       | OpenC => rec (Block brk cont) (look s)
       | KIf | KElse | KWhile | KFor | KWhich => parseControlStatement rec brk cont (look s)
       | _ => parseSimpleStatement brk cont (look s)
       end = Done [] (fail s)).
    { intro T. rewrite (look_id s) by (rewrite T; discriminate). rewrite T. now apply simple_end. }
    split; [|split; [exact G | exact Z]].
    assert (DEC : {hd_tok (toks s) = E TEnd} + {hd_tok (toks s) <> E TEnd})
      by (destruct (hd_tok (toks s)) as [[]| | | | | | | | | | | | | | | | |]; try (left; reflexivity); right; discriminate).
    destruct DEC as [T|T]; [rewrite (Z T); cbn; lia|]. eapply en_le; [|apply G, T]. lia. }
  unfold enS. destruct t as [brk cont|brk cont|brk cont|brk cont|brk cont c|brk cont value prev]; cbn [strict].
  - split; [|tauto]. cbn [step sweight] in *.
    assert (S1 : enS (Statement brk cont) s (rec (Statement brk cont) s)) by (apply IH; cbn [sweight]; lia).
    destruct S1 as (S1 & S2 & S3). cbn [strict] in S2.
    assert (DEC : {hd_tok (toks s) = E TEnd} + {hd_tok (toks s) <> E TEnd})
      by (destruct (hd_tok (toks s)) as [[]| | | | | | | | | | | | | | | | |]; try (left; reflexivity); right; discriminate).
    destruct DEC as [T|T].
    + rewrite (S3 T). cbn [sbind]. unfold tok_of. rewrite (look_id s), (look_id (fail s)) by (cbn; rewrite T; discriminate). cbn [fail toks]. rewrite T. cbn. lia.
    + apply (en_sbind (len s - 1)); [apply S2, T|]. intros ss s1 A1. pose proof (look_len s1) as Q.
      assert (1 <= len s) by (eapply hd_some; [reflexivity | exact T]).
      assert (M : en (len s) (sbind (rec (Statements brk cont) (look s1)) (fun more s3 => Done (ss ++ more) s3))).
      { apply (en_sbind (len s)); [apply R; cbn [sweight]; lia|]. intros; cbn; lia. }
      assert (D : en (len s) (Done ss (look s1))) by (cbn; lia).
      destruct (hd_tok (toks (look s1))) as [[]| | | | | | | | | | | | | | | | |]; try exact M; try exact D.
      match goal with |- context [if ?b then _ else _] => destruct b end; [exact D | exact M].
  - apply (ST brk cont eq_refl).
  - assert (X : en (len s - (if same (hd_tok (toks s)) OpenC then 1 else 0)) (step rec (Block brk cont) s)).
    { cbn [step]. cbn [sweight] in H.
      assert (Z : forall s' : st, len s' <= len s -> same (hd_tok (toks s)) OpenC = false ->
        en (len s - (if same (hd_tok (toks s)) OpenC then 1 else 0)) (Done ([] : list tree) s')) by (intros s' A1 ->; cbn; lia).
      assert (Y : forall s', len s' <= len s - 1 -> 1 <= len s -> en (len s - 1) (expect true CloseC s' (fun s2 => Done [TBlock []] s2)
        (fun s2 => sbind (rec (Statements brk cont) s2) (fun ss s3 =>
           expect true CloseC s3 (fun s4 => Done [TBlock ss] s4) (fun s4 => Done [] (set_toks s4 (until CloseC (toks s4)))))))).
      { intros s1 A1 A0. apply en_expect; [intros; cbn; lia|]. intros s2 A2. apply (en_sbind (len s - 1)); [apply R; cbn [sweight]; lia|].
        intros ss s3 A3. apply en_expect; [intros; cbn; lia|]. intros s4 A4. cbn. pose proof (until_len CloseC (toks s4)). lia. }
      unfold expect at 1. destruct (same (hd_tok (toks s)) OpenC) eqn:SM.
      - assert (hd_tok (toks s) = OpenC) by (destruct (hd_tok (toks s)) as [[]| | | | | | | | | | | | | | | | |]; try discriminate; reflexivity).
        rewrite look_id by (rewrite H0; discriminate). rewrite SM. apply Y; [rewrite drop_len; lia|]. eapply hd_some; [exact H0 | discriminate].
      - pose proof (look_len s) as Q. destruct (same (hd_tok (toks (look s))) OpenC) eqn:SM2.
        + assert (1 <= len (look s)) by (destruct (toks (look s)); cbn in *; [discriminate | lia]).
          eapply en_le; [|apply Y; [rewrite drop_len; lia | lia]]. lia.
        + cbn. lia. }
    repeat split; auto; [eapply en_le; [|exact X]; lia|]. intro T. rewrite T in X. exact X.
  - split; [|tauto]. cbn [step sweight] in *. pose proof (look_len s) as Q.
    assert (X : en (len s) (sbind (rec (Statement brk cont) (look s)) (fun ss s1 => Done [TBody ss] s1))).
    { apply (en_sbind (len s)); [apply R; cbn [sweight]; lia|]. intros; cbn; lia. }
    destruct (tok_of s) as [[]| | | | | | | | | | | | | | | | |]; try exact X. apply R; cbn [sweight]; lia.
  - split; [|tauto]. cbn [step sweight] in *. destruct (as_type c) as [ty|]; [|cbn; lia]. pose proof (look_len s) as Q.
    assert (X : en (len s) (sbind (rec (Statement brk cont) (set_asf (look s) false)) (fun ss s2 => Done [TBlock (TAsDecl ty :: ss)] s2))).
    { apply (en_sbind (len s)); [apply R; cbn [sweight set_asf toks]; lia|]. intros; cbn; lia. }
    destruct (hd_tok (toks (set_asf (look s) false))) as [[]| | | | | | | | | | | | | | | | |] eqn:Hd; try exact X.
    pose proof (hd_some (set_asf (look s) false) _ Hd ltac:(discriminate)) as L1. cbn in L1.
    pose proof (drop_len (set_asf (look s) false)) as L2. cbn [set_asf toks] in L2.
    apply en_expect; [intros; cbn; lia|]. intros s2 A2. apply (en_sbind (len s)); [apply R; cbn [sweight]; lia|].
    intros ss s3 A3. apply en_expect; intros; cbn; lia.
  - split; [|tauto]. cbn [step]. cbn [sweight] in H.
    pose proof (enc_restOfCase value (S (len s)) None s ltac:(lia)) as EC.
    destruct (restOfCase (S (len s)) value None s) as [o s1| | |]; cbn [sbind en]; auto. destruct EC as [E1 E2]. pose proof (look_len s1) as Q.
    destruct o as [c|].
    + specialize (E2 eq_refl ltac:(discriminate)).
      assert (X : en (len s) (Done ([] : list tree) (fail (set_dfl (look s1) (dead (Some c) (dfl (look s1))))))) by (cbn; lia).
      destruct (hd_tok (toks (look s1))) as [[]| | | | | | | | | | | | | | | | |]; try exact X.
      apply (en_sbind (len (look s1))); [apply BODY; lia|]. intros [|t0 tl0] s3 A3; [cbn; lia|].
      destruct c, prev; (apply (en_sbind (len s)); [eapply en_le; [|apply NC]; lia|]); intros; cbn; lia.
    + assert (X : en (len s) (Done ([] : list tree) (fail (look s1)))) by (cbn; lia).
      destruct (hd_tok (toks (look s1))) as [[]| | | | | | | | | | | | | | | | |]; try exact X; cbn; lia.
Qed.
Lemma enS_run g : forall t s, 3 * len s + sweight t < g -> enS t s (srun g t s).
Proof. induction g as [|g IH]; intros t s H; [lia|]. cbn [srun]. apply (enS_step g); [|lia]. intros. apply IH. lia. Qed.

(* ---- fuel does not matter ---- *)
Definition sle {A} (r r' : res A) : Prop := r = Fuel \/ r = r'.
Lemma sle_refl {A} (r : res A) : sle r r. Proof. now right. Qed.
Lemma sle_sbind {A B} (r r' : res A) (k k' : A -> st -> res B) : sle r r' -> (forall a s, sle (k a s) (k' a s)) -> sle (sbind r k) (sbind r' k').
Proof. intros [-> | ->] K; [now left|]. destruct r'; cbn [sbind]; try apply sle_refl. apply K. Qed.
Lemma sle_expect {A} q t s (y y' n n' : st -> res A) : (forall s, sle (y s) (y' s)) -> (forall s, sle (n s) (n' s)) -> sle (expect q t s y n) (expect q t s y' n').
Proof. intros Y N. unfold expect. destruct (same _ t); auto. Qed.
Lemma sle_expr {A} t s (k k' : node -> st -> res A) : (forall n s, sle (k n s) (k' n s)) -> sle (expr t s k) (expr t s k').
Proof. intro K. unfold expr. destruct (run _ t _); try apply sle_refl. apply K. Qed.
Ltac rf := match goal with |- sle ?a ?a => exact (or_intror eq_refl) end.
Lemma sle_step rec rec' t s : (forall t' s', sle (rec t' s') (rec' t' s')) -> sle (step rec t s) (step rec' t s).
Proof.
  intro IH.
  assert (BODY : forall b c x s, sle (body rec b c x s) (body rec' b c x s)) by (intros b c x s'; unfold body; destruct (asf s'); apply IH).
  assert (WH : forall p c x s, sle (makeControlWhileNode rec p c x s) (makeControlWhileNode rec' p c x s)).
  { intros. unfold makeControlWhileNode. apply sle_sbind; [apply BODY|]. intros. rf. }
  assert (FA : forall p c s, sle (forAssign rec p c s) (forAssign rec' p c s)).
  { intros p c s'. unfold forAssign. cbv zeta. destruct (hd_tok (toks (look s'))) as [[]| | | | | | | | | | | | | | | | |]; try apply WH;
    apply sle_expr; intros nn s2; (destruct (null nn); [rf|]); apply sle_expect; intros; try rf; apply WH. }
  assert (FC : forall p s, sle (forCond rec p s) (forCond rec' p s)).
  { intros p s'. unfold forCond. cbv zeta. destruct (hd_tok (toks (look s'))) as [[]| | | | | | | | | | | | | | | | |]; try apply FA;
    apply sle_expr; intros nn s2; (destruct (null nn); [rf|]); apply sle_expect; intros; try rf; apply FA. }
  assert (FS : forall p s, sle (forSemi rec p s) (forSemi rec' p s)).
  { intros p s'. unfold forSemi. destruct (hd_tok (toks s')); try rf. apply FC. }
  assert (CTL : forall b c s, sle (parseControlStatement rec b c s) (parseControlStatement rec' b c s)).
  { intros b c s'. unfold parseControlStatement. cbv zeta. destruct (hd_tok (toks (look s'))); try rf.
    - unfold parseControlIf. apply sle_expect; intros; [|rf]. apply sle_expr; intros n s2. destruct (null n); [rf|].
      apply sle_expect; intros; [|rf]. apply sle_sbind; [apply BODY|]. intros a s4. destruct a; [rf|].
      apply sle_expect; intros; [|rf]. apply sle_sbind; [apply IH|]. intros. rf.
    - unfold parseControlWhile. apply sle_expect; intros; [|rf]. apply sle_expr; intros n s2. destruct (null n); [rf|].
      apply sle_expect; intros; [|rf]. apply WH.
    - unfold parseControlFor. apply sle_expect; intros; [|rf]. cbv zeta.
      destruct (hd_tok (toks (look s0))) as [[]| | | | | | | | | | | | | | | | |]; try apply FS.
      + apply sle_expr; intros n0 s2. destruct (null n0); apply FS.
      + apply sle_sbind; [rf|]. intros. apply FS.
    - unfold parseControlSwitch. apply sle_expect; intros; [|rf]. cbv zeta. apply sle_expr; intros n s2.
      match goal with |- context [if ?b then _ else _] => destruct b end; [rf|].
      apply sle_expect; intros; [|rf]. apply sle_expect; intros; [|rf].
      apply sle_sbind; [apply IH|]. intros. rf. }
  destruct t as [brk cont|brk cont|brk cont|brk cont|brk cont c|brk cont value prev]; cbn [step]; cbv zeta.
  - apply sle_sbind; [apply IH|]. intros ss s1.
    assert (M : sle (sbind (rec (Statements brk cont) (look s1)) (fun more s3 => Done (ss ++ more) s3))
                    (sbind (rec' (Statements brk cont) (look s1)) (fun more s3 => Done (ss ++ more) s3)))
      by (apply sle_sbind; [apply IH | intros; rf]).
    destruct (hd_tok (toks (look s1))) as [[]| | | | | | | | | | | | | | | | |]; try exact M; try rf.
    match goal with |- context [if ?b then _ else _] => destruct b end; [rf | exact M].
  - destruct (hd_tok (toks (look s))); try apply CTL; try rf. apply IH.
  - apply sle_expect; intros; [|rf]. apply sle_expect; intros; [rf|]. apply sle_sbind; [apply IH|]. intros. rf.
  - destruct (tok_of s); try apply IH; (apply sle_sbind; [apply IH|]; intros; rf).
  - destruct (as_type c); [|rf].
    destruct (hd_tok (toks (set_asf (look s) false))); try (apply sle_sbind; [apply IH|]; intros; rf).
    apply sle_expect; intros; [rf|]. apply sle_sbind; [apply IH|]. intros. rf.
  - apply sle_sbind; [rf|]. intros o s1. destruct o as [c|]; [|rf].
    destruct (hd_tok (toks (look s1))); try rf. apply sle_sbind; [apply BODY|]. intros a s3. destruct a; [rf|].
    destruct c, prev; (apply sle_sbind; [apply IH|]); intros; rf.
Qed.
Lemma srun_le g : forall g' t s, g <= g' -> sle (srun g t s) (srun g' t s).
Proof. induction g as [|g IH]; intros g' t s L; [now left|]. destruct g' as [|g']; [lia|]. cbn [srun]. apply sle_step. intros. apply IH. lia. Qed.

Definition SV (t : stask) (s : st) : res (list tree) := srun (S (3 * len s + sweight t)) t s.
Lemma SV_answer t s : SV t s <> Fuel.
Proof. intro E. pose proof (proj1 (enS_run _ t s (Nat.lt_succ_diag_r _))) as K. unfold SV in E. now rewrite E in K. Qed.
Lemma srun_SV g t s : srun g t s <> Fuel -> srun g t s = SV t s.
Proof.
  intro H. destruct (Nat.le_ge_cases g (S (3 * len s + sweight t))) as [L|L].
  - destruct (srun_le _ _ t s L) as [E|E]; [contradiction | exact E].
  - destruct (srun_le _ _ t s L) as [E|E]; [elim (SV_answer t s); exact E | symmetry; exact E].
Qed.
Lemma srun_le_SV g t s : sle (srun g t s) (SV t s).
Proof. destruct (srun g t s) eqn:E; [| | |now left]; right; rewrite <- E; apply srun_SV; now rewrite E. Qed.
Lemma SV_step t s : SV t s = step SV t s.
Proof.
  pose proof (SV_answer t s) as A. unfold SV in A at 1. cbn [srun] in A.
  destruct (sle_step (srun (3 * len s + sweight t)) SV t s (fun t' s' => srun_le_SV _ t' s')) as [E|E]; [contradiction | exact E].
Qed.
Lemma srun_plenty t s : srun (plenty (toks s)) t s = SV t s.
Proof.
  apply srun_SV. intro E. pose proof (proj1 (enS_run (plenty (toks s)) t s ltac:(unfold plenty; destruct t; cbn [sweight]; lia))) as K. now rewrite E in K.
Qed.
