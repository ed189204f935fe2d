(* ExprTokens.v: where operands and operators alternate, the tree has every operand and every token read. *)
From Coq Require Import List PeanoNat NArith Lia Bool.
From Verif Require Import Base ExprModel ExprSpec ExprProofs ExprValue ExprComplete.
Import ListNotations.
Open Scope nat_scope.

Lemma alt_err s ts : alt s ts -> first ts <> TErr.
Proof. destruct ts as [|t r]; [discriminate|]. destruct s, t; cbn; intros H X; try discriminate X; contradiction. Qed.
Lemma alt_id ts : alt Have ts -> alt HaveId ts.
Proof.
  destruct ts as [|t r]; auto. destruct t; cbn; auto.
  destruct r as [|t r]; cbn; auto. destruct t; cbn; auto. intuition. 
Qed.
#[local] Hint Resolve alt_id : core.

Lemma strip_app a b : strip (a ++ b) = strip a ++ strip b. Proof. apply filter_app. Qed.
Lemma whole_nn n : whole n -> null n = false. Proof. now destruct n. Qed.
Lemma whole_all l : (fix all l := match l with [] => True | x :: r => whole x /\ all r end) l <-> Forall whole l.
Proof.
  induction l as [|x l IH]; split; intro H; auto.
  - destruct H. constructor; [assumption | now apply IH].
  - inversion H; subst. split; [assumption | now apply IH].
Qed.
Lemma yield_args l : (fix all l := match l with [] => [] | x :: r => yield x ++ all r end) l = concat (map yield l).
Proof. induction l as [|x l IH]; [reflexivity|]. cbn. now rewrite IH. Qed.

(* an answer without an error has every operand, and the tokens pre followed by those read *)
Definition fine (pre ts : list tok) (r : res) : Prop :=
  match r with
  | Got n rest false => whole n /\ (exists used, ts = used ++ rest /\ yield n = pre ++ strip used) /\ alt HaveId rest
  | _ => True
  end.

Lemma fine_true pre ts n rest : fine pre ts (Got n rest true). Proof. exact I. Qed.
Lemma fine_flag_true pre ts r : fine pre ts (flag true r). Proof. destruct r; exact I. Qed.
Lemma fine_got pre ts n : whole n -> yield n = pre -> alt HaveId ts -> fine pre ts (Got n ts false).
Proof. intros W Y A. repeat split; auto. exists []. cbn. now rewrite app_nil_r. Qed.
Lemma fine_trans used pre ts rest r : ts = used ++ rest -> fine (pre ++ strip used) rest r -> fine pre ts r.
Proof.
  intros -> F. destruct r as [n l e| | |]; auto. destruct e; auto. destruct F as (W & (u & -> & Y) & A).
  repeat split; auto. exists (used ++ u). split; [apply app_assoc|]. rewrite Y, strip_app, app_assoc. reflexivity.
Qed.
Lemma fine_cons t pre ts r : fine (pre ++ strip [t]) ts r -> fine pre (t :: ts) r.
Proof. now apply (fine_trans [t]). Qed.
Lemma fine_flag pre ts e r : fine pre ts r -> fine pre ts (flag e r).
Proof. destruct e; [intros _; apply fine_flag_true|]. now rewrite flag_false. Qed.
Lemma fine_bind q p ts r k : fine p ts r ->
  (forall n rest, whole n -> alt HaveId rest -> fine (q ++ yield n) rest (k n rest)) -> fine (q ++ p) ts (bind r k).
Proof.
  intros F K. destruct r as [n rest e| | |]; try exact I. cbn [bind]. destruct e; [apply fine_flag_true|]. rewrite flag_false.
  destruct F as (W & (used & -> & Y) & A). apply (fine_trans used _ _ rest); auto.
  rewrite <- app_assoc, <- Y. now apply K.
Qed.
Lemma fine_bind0 p ts r k : fine p ts r ->
  (forall n rest, whole n -> alt HaveId rest -> fine (yield n) rest (k n rest)) -> fine p ts (bind r k).
Proof. apply (fine_bind []). Qed.
Lemma fine_bindq q ts r k : fine [] ts r ->
  (forall n rest, whole n -> alt HaveId rest -> fine (q ++ yield n) rest (k n rest)) -> fine q ts (bind r k).
Proof. intros F K. rewrite <- (app_nil_r q). now apply fine_bind. Qed.

Definition tok_ok (t : task) (ts : list tok) : Prop :=
  match t with
  | Level _ | Assign | CastOrExpr => alt Want ts
  | Factor lb => alt Want ts /\ (lb = true -> ~ starts_local ts)
  | Rest _ n | RestFactor n | RestLval n | Members n false | RestAssign n => whole n /\ alt HaveId ts
  | Question c => whole c /\ alt Want ts
  | Ident _ => alt HaveId ts
  | Args _ acc => Forall whole acc /\ (alt Want ts \/ (first ts = TClose /\ alt Have (tl ts) /\ ts <> []))
  | _ => False
  end.
Definition tok_pre (t : task) : list tok :=
  match t with
  | Rest _ n | RestFactor n | RestLval n | Members n _ | RestAssign n => yield n
  | Question c => yield c ++ [TQuestion]
  | Ident i => [TIdent i]
  | Args f acc => yield (NCall f acc)
  | _ => []
  end.
(* nothing is read where there is a closing parenthesis *)
Definition closes (t : task) (ts : list tok) (r : res) : Prop :=
  match t with Level _ | Factor _ | Assign => first ts = TClose -> r = NoFuel \/ r = Got NNull ts false | _ => True end.

Lemma closes_step rec t ts :
  (forall t' ts', closes t' ts' (rec t' ts')) -> closes t ts (step rec t ts).
Proof.
  intros IH. destruct t; cbn [closes]; auto; intro H.
  - cbn [step]. unfold operand. destruct (k =? 6).
    + destruct (IH (Factor false) ts H) as [E|E]; rewrite E; auto.
    + destruct (IH (Level (S k)) ts H) as [E|E]; rewrite E; auto.
  - cbn [step]. rewrite peek_first by (rewrite H; discriminate). rewrite H. now right.
  - cbn [step]. destruct (IH (Level 0) ts H) as [E|E]; rewrite E; auto.
Qed.
Lemma closes_run g : forall t ts, closes t ts (run g t ts).
Proof.
  induction g as [|g IH]; intros t ts; [destruct t; cbn; auto|]. cbn [run]. now apply closes_step.
Qed.

Lemma alt_op s o r : s = Have \/ s = HaveId -> alt s (TBin o :: r) -> alt Want r.
Proof. intros [-> | ->]; auto. Qed.

Lemma alt_first_ne s ts : s = Want \/ s = Call -> alt s ts -> exists t r, ts = t :: r.
Proof. destruct ts as [|t r]; eauto. intros [-> | ->] []. Qed.

Ltac ycat := cbn [yield]; rewrite <- ?app_assoc; cbn [app]; rewrite <- ?app_assoc; cbn [app]; reflexivity.

Lemma fine_step rec t ts :
  (forall t' ts', tok_ok t' ts' -> fine (tok_pre t') ts' (rec t' ts')) -> (forall t' ts', closes t' ts' (rec t' ts')) ->
  tok_ok t ts -> fine (tok_pre t) ts (step rec t ts).
Proof.
  intros IH CL OK.
  assert (OP : forall k l, alt Want l -> fine [] l (rec (operand k) l)).
  { intros k l A. unfold operand. destruct (k =? 6); [apply (IH (Factor false)) | apply (IH (Level (S k)))]; cbn; auto. split; auto. discriminate. }
  assert (FA : forall l, alt Want l -> fine [] l (rec (Factor false) l)).
  { intros l A. apply (IH (Factor false)). split; auto. discriminate. }
  destruct t; cbn [tok_ok tok_pre] in *; try contradiction.
  - (* Level *) cbn [step]. apply fine_bind0; [now apply OP|]. intros n l W A. rewrite whole_nn by exact W. apply IH. now split.
  - (* Rest *) destruct OK as [W A]. cbn [step]. rewrite whole_nn by exact W. rewrite andb_false_r.
    rewrite peek_first by (eapply alt_err; eauto).
    destruct (is_op k (first ts)) eqn:P.
    + destruct ts as [|t r]; [discriminate P|]. cbn [first tl] in *. destruct t; try discriminate P. cbn in P.
      destruct (lvl o =? k); [|discriminate]. inversion P; subst b.
      apply fine_cons. cbn [strip filter kept]. apply fine_bindq; [apply OP; exact A|].
      intros m l2 W2 A2. rewrite whole_nn by exact W2. replace ((yield n ++ [TBin o]) ++ yield m) with (yield (NBin o n m)) by ycat.
      apply (IH (Rest k (NBin o n m))). repeat split; auto.
    + assert (D : fine (yield n) ts (Got n ts false)) by (now apply fine_got).
      destruct ts as [|t r]; [exact D|]. cbn [first] in *. destruct t; try exact D; [|now elim (alt_err _ _ A)].
      destruct (k =? 0); [|exact D]. cbn [tl]. apply fine_cons. apply (IH (Question n)). split; auto.
  - (* Question *) destruct OK as [W A]. cbn [step]. apply fine_bindq; [apply (IH (Level 0)); exact A|].
    intros tn l W2 A2. rewrite whole_nn by exact W2. rewrite peek_first by (eapply alt_err; eauto).
    destruct l as [|t r]; [apply fine_true|]. cbn [first]. destruct t; try apply fine_true. cbn [tl].
    apply fine_cons. cbn [strip filter kept]. apply fine_bindq; [apply (IH (Level 0)); exact A2|].
    intros fn l3 W3 A3. rewrite whole_nn by exact W3. apply fine_got; auto; [repeat split; auto | ycat].
  - (* Factor *) destruct OK as [A LB]. cbn [step]. rewrite peek_first by (eapply alt_err; eauto).
    destruct (alt_first_ne Want ts) as (t & r & ->); auto. cbn [first tl].
    assert (UN : forall u, unary t = Some u -> alt Want r /\ t = untok u /\ kept t = true).
    { intros u U. destruct t; try discriminate U; try (destruct o; try discriminate U); inversion U; subst; repeat split; exact A. }
    destruct (unary t) eqn:U.
    + destruct (UN u eq_refl) as (A2 & -> & K). apply fine_cons. unfold strip. cbn [filter]. rewrite K. cbn [app].
      apply fine_bindq; [now apply FA|]. intros m l2 W2 A3. rewrite whole_nn by exact W2. apply fine_got; auto.
    + clear UN. destruct t; try contradiction; try discriminate U; cbn [alt] in A.
      * apply fine_cons. cbn [strip filter kept app]. apply fine_bind0; [apply (IH (Ident n)); exact A|].
        intros m l2 W2 A2. apply (IH (RestFactor m)). now split.
      * apply fine_cons. cbn [strip filter kept app]. apply fine_got; auto. exact I.
      * apply fine_cons. cbn [strip filter kept app]. apply (IH (RestFactor (NStr n))). repeat split; auto.
      * apply fine_cons. cbn [strip filter kept app]. apply fine_bind0; [apply (IH CastOrExpr); exact A|].
        intros m l2 W2 A2. apply (IH (RestFactor m)). now split.
      * destruct A as [X _]. discriminate X.
      * destruct o; try discriminate U; contradiction.
      * destruct localbase; [apply fine_true|]. destruct r as [|d r]; [contradiction|]. destruct d; try contradiction.
        destruct A as [NL A]. cbn [get peek tl]. apply (fine_trans [TLocal; TDot] [] _ r); [reflexivity|].
        cbn [strip filter kept app]. apply fine_bindq; [apply (IH (Factor true)); split; auto|].
        intros m l2 W2 A2. rewrite whole_nn by exact W2. apply fine_got; auto.
  - (* RestFactor *) destruct OK as [W A]. cbn [step]. rewrite whole_nn by exact W. rewrite peek_first by (eapply alt_err; eauto).
    assert (D : fine (yield n) ts (Got n ts false)) by (now apply fine_got).
    destruct ts as [|t r]; [exact D|]. cbn [first tl]. destruct t; try exact D.
    + apply fine_bind0; [apply (IH (RestLval n)); now split|]. intros m l2 W2 A2. apply (IH (RestFactor m)). now split.
    + contradiction.
    + apply fine_bind0; [apply (IH (Members n false)); now split|]. intros m l2 W2 A2. apply (IH (RestFactor m)). now split.
    + apply fine_cons. apply (IH (RestFactor (NPost true n))). split; auto.
    + apply fine_cons. apply (IH (RestFactor (NPost false n))). split; auto.
    + destruct r as [|t r]; [contradiction|]. cbn [alt] in A. destruct t; try contradiction.
      cbn [peek tl]. apply (fine_trans [TIs as_; TType t] _ _ r); [reflexivity|].
      assert (E : first r <> TErr). { destruct r as [|x r]; [discriminate|]. cbn [first] in *. intros ->. exact A. }
      assert (B : alt Have r -> fine (yield n ++ strip [TIs as_; TType t]) r (rec (RestFactor (NIs as_ t n)) r)).
      { intro AH. apply (IH (RestFactor (NIs as_ t n))). split; auto. }
      rewrite peek_first by exact E. destruct (first r); try contradiction; try (now apply B).
      destruct o; try contradiction; now apply B.
    + contradiction.
  - (* RestLval *) destruct OK as [W A]. cbn [step]. rewrite whole_nn by exact W. rewrite peek_first by (eapply alt_err; eauto).
    assert (D : fine (yield n) ts (Got n ts false)) by (now apply fine_got).
    destruct ts as [|t r]; [exact D|]. cbn [first tl]. destruct t; try exact D; [|contradiction].
    apply fine_cons. cbn [strip filter kept]. apply fine_bindq; [apply (IH (Level 0)); exact A|].
    intros i l2 W2 A2. rewrite peek_first by (eapply alt_err; eauto). destruct l2 as [|q l2]; [apply fine_true|].
    cbn [first tl]. destruct q; try apply fine_true. apply fine_cons. cbn [strip filter kept].
    replace (((yield n ++ [TOpenSq]) ++ yield i) ++ [TCloseSq]) with (yield (NIndex n i)) by ycat.
    apply (IH (RestLval (NIndex n i))). repeat split; auto.
  - (* Ident *) cbn [step]. rewrite peek_first by (eapply alt_err; eauto).
    assert (D : fine [TIdent n] ts (rec (RestLval (NIdent n)) ts)).
    { apply (IH (RestLval (NIdent n))). split; [exact I | exact OK]. }
    assert (D2 : fine [TIdent n] ts (Got (NIdent n) ts false)) by (apply fine_got; auto; exact I).
    destruct ts as [|t r]; [exact D|]. cbn [first tl]. destruct t; try exact D; try exact D2.
    apply fine_cons. cbn [strip filter kept]. apply (IH (Args n [])). split; [constructor|].
    cbn [alt] in OK. destruct r as [|t r]; [contradiction|]. destruct t; try (left; exact OK).
    right. destruct OK. repeat split; auto. discriminate.
  - (* Members *) destruct dead; [contradiction|]. destruct OK as [W A]. cbn [step]. rewrite peek_first by (eapply alt_err; eauto).
    assert (D : fine (yield n) ts (Got n ts false)) by (now apply fine_got).
    destruct ts as [|t r]; [exact D|]. cbn [first tl]. destruct t; try exact D.
    destruct r as [|t r]; [contradiction|]. cbn [alt] in A. destruct t; try contradiction; cbn [peek tl].
    + apply (fine_trans [TDot; TIdent n0] _ _ r); [reflexivity|]. cbn [strip filter kept].
      replace (yield n ++ [TDot; TIdent n0]) with ((yield n ++ [TDot]) ++ [TIdent n0]) by (rewrite <- app_assoc; reflexivity).
      apply (fine_bind (yield n ++ [TDot])); [apply (IH (Ident n0)); exact A|].
      intros m l2 W2 A2. rewrite whole_nn by exact W2. replace ((yield n ++ [TDot]) ++ yield m) with (yield (NMember n m)) by ycat.
      apply (IH (Members (NMember n m) false)). repeat split; auto.
    + unfold minMaxSizeof. cbn [peek tl].
      assert (Z : fine (yield n ++ [TDot; TOf k]) r (rec (Members (NOf k n) false) r)) by (apply (IH (Members (NOf k n) false)); split; auto).
      assert (E : first r <> TErr) by (eapply alt_err; eauto).
      apply (fine_trans [TDot; TOf k] _ _ r); [reflexivity|]. cbn [strip filter kept].
      destruct k; cbn [null]; try exact Z.
      * rewrite peek_first by exact E. destruct (first r); try exact Z. apply fine_flag_true.
      * rewrite peek_first by exact E. destruct (first r); try exact Z. exact I.
      * rewrite whole_nn by exact W. exact Z.
  - (* Args *) destruct OK as [W A]. cbn [step]. destruct A as [A | (F & A & NE)].
    + apply fine_bindq; [apply (IH Assign); exact A|]. intros a l Wa A2. rewrite whole_nn by exact Wa.
      unfold get. rewrite peek_first by (eapply alt_err; eauto).
      assert (WA : Forall whole (acc ++ [a])) by (apply Forall_app; split; auto).
      assert (Y : yield (NCall f acc) ++ yield a = yield (NCall f (acc ++ [a]))).
      { cbn [yield]. rewrite !yield_args, map_app, concat_app. cbn. rewrite app_nil_r. reflexivity. }
      destruct l as [|t r]; [apply fine_true|]. cbn [first tl]. destruct t; try apply fine_true.
      * apply fine_cons. cbn [strip filter kept]. rewrite app_nil_r, Y. apply fine_got; auto. now apply whole_all.
      * apply fine_cons. cbn [strip filter kept]. rewrite app_nil_r, Y. apply (IH (Args f (acc ++ [a]))). split; auto.
    + destruct (CL Assign ts F) as [E|E]; rewrite E; [exact I|]. rewrite bind_got. cbn [null].
      destruct ts as [|t r]; [contradiction|]. cbn [first tl] in *. subst t. cbn [get peek tl].
      apply fine_cons. cbn [strip filter kept]. rewrite app_nil_r. apply fine_got; auto. now apply whole_all.
  - (* CastOrExpr *) cbn [step]. rewrite peek_first by (eapply alt_err; eauto).
    destruct (alt_first_ne Want ts) as (t & r & ->); auto. cbn [first tl].
    assert (D : fine [] (t :: r) (bind (rec Assign (t :: r)) (fun n ts1 => peek ts1 (fun p ts2 => match p with TClose => Got n (tl ts2) false | _ => Got NNull ts2 true end)))).
    { apply fine_bind0; [apply (IH Assign); exact OK|]. intros n l W A. rewrite peek_first by (eapply alt_err; eauto).
      destruct l as [|q l]; [apply fine_true|]. cbn [first tl]. destruct q; try apply fine_true.
      apply fine_cons. cbn [strip filter kept]. rewrite app_nil_r. apply fine_got; auto. }
    destruct t; try exact D; contradiction || exact I.
  - (* Assign *) cbn [step]. apply fine_bind0; [now apply (IH (Level 0))|]. intros n l W A. rewrite whole_nn by exact W. apply IH. now split.
  - (* RestAssign *) destruct OK as [W A]. cbn [step]. rewrite whole_nn by exact W. rewrite peek_first by (eapply alt_err; eauto).
    assert (D : fine (yield n) ts (Got n ts false)) by (now apply fine_got).
    destruct ts as [|t r]; [exact D|]. cbn [first tl]. destruct t; try exact D; try contradiction.
    + apply fine_cons. cbn [strip filter kept]. apply fine_bindq; [apply (IH Assign); exact A|].
      intros m l2 W2 A2. rewrite whole_nn by exact W2.
      replace ((yield n ++ [TAssign o]) ++ yield m) with (yield (NAssign o n m)) by ycat.
      apply (IH (RestAssign (NAssign o n m))). repeat split; auto.
    + apply fine_cons. apply (IH (RestAssign (NPost true n))). split; auto.
    + apply fine_cons. apply (IH (RestAssign (NPost false n))). split; auto.
Qed.

Lemma fine_run g : forall t ts, tok_ok t ts -> fine (tok_pre t) ts (run g t ts).
Proof.
  induction g as [|g IH]; intros t ts OK; [exact I|]. cbn [run]. apply fine_step; auto. apply closes_run.
Qed.
