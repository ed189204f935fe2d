(* ExprValue.v: fuel does not matter: the parser's answer V, which satisfies the equations of its functions. *)
From Coq Require Import List PeanoNat NArith Lia Bool.
From Verif Require Import Base ExprModel ExprSpec ExprProofs.
Import ListNotations.
Open Scope nat_scope.

(* the same answer, or no answer yet *)
Definition le (r r' : res) : Prop := r = NoFuel \/ r = r'.
Lemma le_refl r : le r r. Proof. now right. Qed.
Lemma le_flag e r r' : le r r' -> le (flag e r) (flag e r').
Proof. intros [-> | ->]; [now left | apply le_refl]. Qed.
Lemma le_bind r r' k k' : le r r' -> (forall n ts, le (k n ts) (k' n ts)) -> le (bind r k) (bind r' k').
Proof. intros [-> | ->] K; [now left|]. destruct r'; cbn [bind]; try apply le_refl. apply le_flag, K. Qed.
Lemma le_peek ts k k' : (forall t l, le (k t l) (k' t l)) -> le (peek ts k) (peek ts k').
Proof.
  intro K. destruct ts as [|t r]; [apply K|]. destruct t; try apply K. cbn [peek]. apply le_flag. destruct r; apply K.
Qed.
Lemma le_get ts k k' : (forall t l, le (k t l) (k' t l)) -> le (get ts k) (get ts k').
Proof. intro K. apply le_peek. intros. apply K. Qed.

Lemma le_step rec rec' t ts :
  (forall t' ts', task_lvl t' -> le (rec t' ts') (rec' t' ts')) -> task_lvl t -> le (step rec t ts) (step rec' t ts).
Proof.
  intros IH OK.
  assert (OP : forall k ts', k <= 6 -> le (rec (operand k) ts') (rec' (operand k) ts')) by (intros k ts' H; apply IH, operand_lvl, H).
  destruct t; cbn [step task_lvl] in *;
  repeat first
    [ apply le_refl
    | apply OP; lia
    | apply IH; cbn [task_lvl]; first [exact I | lia]
    | apply le_flag
    | apply le_bind; [|intros]
    | apply le_get; intros
    | apply le_peek; intros
    | unfold minMaxSizeof; apply le_peek; intros
    | match goal with |- context [match ?x with _ => _ end] => destruct x end ].
Qed.

Lemma run_le g : forall g' t ts, task_lvl t -> g <= g' -> le (run g t ts) (run g' t ts).
Proof.
  induction g as [|g IH]; intros g' t ts OK L; [now left|]. destruct g' as [|g']; [lia|]. cbn [run].
  apply le_step; auto. intros. apply IH; auto. lia.
Qed.

Definition V (t : task) (ts : list tok) : res := run (S (budget t ts)) t ts.

Lemma V_answer t ts : task_lvl t -> V t ts <> NoFuel.
Proof.
  intros OK E. pose proof (ends_run (S (budget t ts)) t ts OK (Nat.lt_succ_diag_r _)) as H. unfold V in E. rewrite E in H. exact H.
Qed.

Lemma run_V g t ts : task_lvl t -> run g t ts <> NoFuel -> run g t ts = V t ts.
Proof.
  intros OK H. destruct (Nat.le_ge_cases g (S (budget t ts))) as [L|L].
  - destruct (run_le _ _ t ts OK L) as [E|E]; [contradiction | exact E].
  - destruct (run_le _ _ t ts OK L) as [E|E]; [elim (V_answer t ts OK); exact E | symmetry; exact E].
Qed.

Lemma run_le_V g t ts : task_lvl t -> le (run g t ts) (V t ts).
Proof.
  intro OK. destruct (run g t ts) eqn:E; [| | |now left]; right; rewrite <- E; apply run_V; auto; now rewrite E.
Qed.

Lemma V_step t ts : task_lvl t -> V t ts = step V t ts.
Proof.
  intro OK. pose proof (V_answer t ts OK) as A. unfold V in A at 1. cbn [run] in A.
  destruct (le_step (run (budget t ts)) V t ts (fun t' ts' => run_le_V _ t' ts') OK) as [E|E]; [contradiction | exact E].
Qed.

Lemma V_enough t ts : task_lvl t -> budget t ts < enough ts -> run (enough ts) t ts = V t ts.
Proof.
  intros OK B. apply run_V; auto. intro E. pose proof (ends_run (enough ts) t ts OK B) as H. now rewrite E in H.
Qed.

Lemma parse_V ts : parseAssignExpr ts = V Assign ts.
Proof. apply V_enough; [exact I|]. unfold budget, enough. cbn [weight]. lia. Qed.
