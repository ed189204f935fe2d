(* ExprProofs.v: lemmas about the expression parser: which operands can be missing, and that it terminates. *)
From Coq Require Import List PeanoNat NArith Lia Bool.
From Verif Require Import Base ExprModel ExprSpec.
Import ListNotations.
Open Scope nat_scope.

(* ---- missing operands ---- *)
(* what may be missing: the left operand of an operator of level 1 to 6, the object of a member selection or of an of-operator,
   and the index *)
Fixpoint good (n : node) : Prop :=
  match n with
  | NNull => False
  | NIdent _ | NNum _ | NStr _ | NTypeOf _ _ => True
  | NBin o l r => good r /\ (good l \/ (l = NNull /\ 1 <= lvl o))
  | NAssign _ l r => good l /\ good r
  | NIndex l i => good l /\ (i = NNull \/ good i)
  | NMember l r => (l = NNull \/ good l) /\ good r
  | NOf _ e => e = NNull \/ good e
  | NUn _ e | NPost _ e | NCast _ e | NIs _ _ e | NLocal e => good e
  | NQuest c t f => good c /\ good t /\ good f
  | NCall _ args => (fix all l := match l with [] => True | x :: r => good x /\ all r end) args
  end.
Definition okn (n : node) : Prop := n = NNull \/ good n.
Definition okr (r : res) : Prop := match r with Got n _ _ => okn n | _ => True end.

Definition task_ok (t : task) : Prop :=
  match t with
  | Rest _ n | RestFactor n | RestLval n | Members n _ | RestAssign n | WrapFactor n | Wrap _ n | WrapAssign n => okn n
  | Question c => good c
  | Args _ acc => Forall good acc
  | _ => True
  end.

Lemma okr_flag e r : okr r -> okr (flag e r). Proof. now destruct r. Qed.
Lemma okr_bind r k : okr r -> (forall n ts, okn n -> okr (k n ts)) -> okr (bind r k).
Proof. destruct r; cbn [okr bind]; intros H K; auto. apply okr_flag, K, H. Qed.
Lemma okr_peek ts k : (forall t l, okr (k t l)) -> okr (peek ts k).
Proof.
  intro K. destruct ts as [|t r]; [apply K|].
  destruct t; try apply K. cbn [peek]. apply okr_flag. destruct r; apply K.
Qed.
Lemma okr_get ts k : (forall t l, okr (k t l)) -> okr (get ts k).
Proof. intro K. apply okr_peek. intros; apply K. Qed.
Lemma good_nonnull n : good n -> null n = false. Proof. now destruct n. Qed.
Lemma okn_nonnull n : okn n -> null n = false -> good n. Proof. intros [-> | H] E; [discriminate | exact H]. Qed.
Lemma okn_null : okn NNull. Proof. now left. Qed.

Lemma good_all l : (fix all l := match l with [] => True | x :: r => good x /\ all r end) l <-> Forall good l.
Proof.
  induction l as [|x l IH]; split; intro H; auto.
  - destruct H. constructor; [assumption | now apply IH].
  - inversion H; subst. split; [assumption | now apply IH].
Qed.

Lemma okr_minMaxSizeof n ts k : okn n -> (forall m l, okn m -> okr (k m l)) -> okr (minMaxSizeof n ts k).
Proof.
  intros N K. unfold minMaxSizeof. apply okr_peek. intros d l1. apply okr_peek. intros f l2.
  destruct f; try (apply K, okn_null).
  destruct k0.
  - apply K. right. cbn. destruct N; auto.
  - apply okr_peek. intros c l3. destruct c; try (apply K; right; cbn; destruct N; auto).
    apply okr_flag, K, okn_null.
  - apply okr_peek. intros c l3. destruct c; try (apply K; right; cbn; destruct N; auto). exact I.
  - destruct (null n); [exact I|]. apply K. right. cbn. destruct N; auto.
Qed.

Lemma is_op_lvl k t o : is_op k t = Some o -> lvl o = k.
Proof. destruct t; cbn [is_op]; try discriminate. destruct (Nat.eqb_spec (lvl o0) k); intro E; inversion E; subst; auto. Qed.

Lemma okn_bin o l r k : lvl o = k -> okn l -> (Nat.eqb k 0 && null l = false) -> okn r -> okn (if null r then NNull else NBin o l r).
Proof.
  intros L Hl E Hr. destruct (null r) eqn:R; [apply okn_null|]. right. cbn [good]. split; [now apply okn_nonnull|].
  destruct (null l) eqn:N.
  - right. split; [destruct l; [reflexivity | discriminate..]|]. destruct k; [discriminate E | rewrite L; lia].
  - left. now apply okn_nonnull.
Qed.

Lemma okr_step rec t ts : (forall t' ts', task_ok t' -> okr (rec t' ts')) -> task_ok t -> okr (step rec t ts).
Proof.
  intros IH OK. destruct t; cbn [step task_ok] in *.
  - (* Level *) apply okr_bind; [apply IH; unfold operand; destruct (k =? 6)%nat; exact I|].
    intros n l N. destruct (null n) eqn:E; [apply okn_null|]. apply IH. exact N.
  - (* Rest *) destruct ((k =? 0) && null n) eqn:E; [apply okn_null|].
    apply okr_peek. intros p l. destruct (is_op k p) eqn:P.
    + apply okr_bind; [apply IH; unfold operand; destruct (k =? 6)%nat; exact I|].
      intros r l2 R. apply IH. cbn [task_ok]. apply (okn_bin _ _ _ k); auto. now apply is_op_lvl in P.
    + destruct p; try exact OK.
      * destruct (k =? 0) eqn:K; [|exact OK]. apply IH. cbn. apply okn_nonnull; auto.
      * destruct (k =? 6); [exact OK | apply IH; exact OK].
  - (* Question *) apply okr_bind; [now apply IH|]. intros tn l TN. destruct (null tn) eqn:E; [apply okn_null|].
    apply okr_peek. intros p l2. destruct p; try apply okn_null.
    apply okr_bind; [now apply IH|]. intros fn l3 FN. destruct (null fn) eqn:E2; [apply okn_null|].
    right. cbn. repeat split; auto using okn_nonnull.
  - (* Factor *) apply okr_peek. intros p l. destruct (unary p).
    + apply okr_bind; [now apply IH|]. intros n l2 N. destruct (null n) eqn:E; [apply okn_null|]. right. cbn. now apply okn_nonnull.
    + destruct p; try apply okn_null.
      * apply okr_bind; [now apply IH|]. intros m l2 M. now apply IH.
      * now right.
      * apply IH. now right.
      * now apply IH.
      * apply okr_bind; [now apply IH|]. intros m l2 M. now apply IH.
      * destruct localbase; [apply okn_null|]. apply okr_get. intros d l2. destruct d; try apply okn_null.
        apply okr_bind; [now apply IH|]. intros m l3 M. destruct (null m) eqn:E; [apply okn_null|]. right. cbn. now apply okn_nonnull.
      * now apply IH.
  - (* TypeFactor *) apply okr_get. intros p l. destruct p; try exact I. apply okr_peek. intros q l2.
    destruct q; try apply okn_null; try exact I.
    + apply okr_bind; [now apply IH|]. intros n l3 N. destruct (null n) eqn:E; [apply okn_null|]. right. cbn. now apply okn_nonnull.
    + apply okr_peek. intros f l3. destruct f; try exact I. destruct k; try exact I.
      * apply IH. now right.
      * apply okr_peek. intros c l4. destruct c; try exact I; apply IH; now right.
      * apply okr_peek. intros c l4. destruct c; try exact I; apply IH; now right.
    + destruct o; try apply okn_null; exact I.
  - (* RestFactor *) destruct (null n) eqn:E; [apply okn_null|]. pose proof (okn_nonnull _ OK E) as GN.
    apply okr_peek. intros p l. destruct p; try exact OK.
    + apply okr_bind; [now apply IH|]. intros m l2 M. now apply IH.
    + apply okr_bind; [now apply IH|]. intros m l2 M. now apply IH.
    + apply okr_bind; [now apply IH|]. intros m l2 M. now apply IH.
    + apply IH. now right.
    + apply IH. now right.
    + apply okr_peek. intros q l2. destruct q; try apply okn_null; try exact I. apply okr_peek. intros c l3.
      assert (A : okn (NIs as_ t n)) by now right.
      destruct c; try exact I; try (apply IH; exact A). destruct o; apply IH; exact A.
    + apply okr_get. intros ? l2. apply okr_get. intros ? l3. apply okn_null.
  - (* RestLval *) destruct (null n) eqn:E; [apply okn_null|]. pose proof (okn_nonnull _ OK E) as GN.
    apply okr_peek. intros p l. destruct p; try exact OK.
    + apply okr_bind; [now apply IH|]. intros i l2 Hi. apply okr_peek. intros q l3. destruct q; try apply okn_null.
      apply IH. right. cbn. split; [exact GN | destruct Hi; auto].
    + right. cbn. auto.
  - (* Ident *) apply okr_peek. intros p l. destruct p; try (apply IH; now right). apply IH. constructor. now right.
  - (* Members *) apply okr_peek. intros p l. destruct p; try exact OK. apply okr_peek. intros q l2.
    assert (B : okr (minMaxSizeof n l2 (fun r ts3 => if null r then if dead then Abort else rec (Members NNull true) ts3 else rec (Members r dead) ts3))).
    { apply okr_minMaxSizeof; [exact OK|]. intros m l3 M. destruct (null m); [destruct dead; [exact I | apply IH, okn_null] | now apply IH]. }
    destruct q; try exact B; try exact I.
    apply okr_bind; [now apply IH|]. intros r l3 R. destruct (null r) eqn:E; [apply okn_null|].
    apply IH. right. cbn. split; [destruct OK; auto | now apply okn_nonnull].
  - (* Args *) apply okr_bind; [now apply IH|]. intros a l A. apply okr_get.
    assert (B : Forall good (if null a then acc else acc ++ [a])).
    { destruct (null a) eqn:E; [exact OK|]. apply Forall_app. split; [exact OK|]. constructor; [now apply okn_nonnull | constructor]. }
    intros p l2. destruct p; try apply okn_null.
    + right. cbn [good]. now apply good_all.
    + now apply IH.
  - (* CastOrExpr *)
    assert (C : forall n l, okn n -> okr (peek l (fun p ts2 => match p with TClose => Got n (tl ts2) false | _ => Got NNull ts2 true end))).
    { intros n l N. apply okr_peek. intros p l2. destruct p; try apply okn_null. exact N. }
    apply okr_peek. intros p l. destruct p; try exact I; try (apply okr_bind; [now apply IH | exact C]).
    apply okr_bind; [now apply IH|]. intros n l2 N. destruct (is_cast n); [exact N|].
    destruct (null n); (apply okr_bind; [apply IH; auto; exact I | exact C]).
  - (* Assign *) apply okr_bind; [now apply IH|]. intros n l N. destruct (null n); [apply okn_null | now apply IH].
  - (* RestAssign *) destruct (null n) eqn:E; [apply okn_null|]. pose proof (okn_nonnull _ OK E) as GN.
    apply okr_peek. intros p l. destruct p; try exact OK; try (apply IH; right; exact GN).
    apply okr_bind; [now apply IH|]. intros r l2 R. destruct (null r) eqn:E2; [apply okr_flag, IH, okn_null|].
    apply IH. right. cbn. split; auto using okn_nonnull.
  - (* WrapFactor *) destruct (null n) eqn:E; [apply okn_null|].
    apply okr_peek. intros p l.
    destruct p; try (apply IH; exact OK); try (apply okr_bind; [now apply IH | intros; now apply IH]).
    apply okr_get. intros ? l2. apply okr_get. intros ? l3. now apply IH.
  - (* Wrap *) destruct ((k =? 0) && null n) eqn:E; [apply okn_null|].
    apply okr_peek. intros p l.
    assert (U : okr (match k with O => rec (WrapAssign n) l | S j => rec (Wrap j n) l end)) by (destruct k; apply IH; exact OK).
    destruct (is_op k p) eqn:P.
    + apply okr_bind; [apply IH; unfold operand; destruct (k =? 6)%nat; exact I|].
      intros r l2 R. apply IH. cbn [task_ok]. apply (okn_bin _ _ _ k); auto. now apply is_op_lvl in P.
    + destruct p; try exact U; [|apply IH; exact OK]. destruct (k =? 0) eqn:K; [|exact U].
      apply IH. cbn. apply okn_nonnull; auto.
  - (* WrapAssign *) destruct (null n) eqn:E; [apply okn_null|]. pose proof (okn_nonnull _ OK E) as GN.
    apply okr_peek. intros p l. destruct p; try exact OK; try (apply IH; right; exact GN).
    apply okr_bind; [now apply IH|]. intros r l2 R. destruct (null r) eqn:E2; [apply okr_flag, IH, okn_null|].
    apply IH. right. cbn. split; auto using okn_nonnull.
Qed.

Lemma okr_run g : forall t ts, task_ok t -> okr (run g t ts).
Proof. induction g as [|g IH]; intros t ts OK; [exact I|]. cbn [run]. now apply okr_step. Qed.

(* ---- it terminates ---- *)
Definition weight (t : task) : nat :=
  match t with
  | Level k => 10 - k | Rest _ _ => 1 | Question _ => 11 | Factor _ => 3 | TypeFactor => 1 | RestFactor _ => 2 | RestLval _ => 1
  | Ident _ => 2 | Members _ _ => 1 | Args _ _ => 12 | CastOrExpr => 13 | Assign => 11 | RestAssign _ => 1 | WrapFactor _ => 9
  | Wrap k _ => 2 + k | WrapAssign _ => 1
  end.
Definition task_lvl (t : task) : Prop := match t with Level k | Rest k _ | Wrap k _ => k <= 6 | _ => True end.
Definition eats (t : task) (ts : list tok) : nat :=
  match t with
  | Members _ _ => match first ts with TDot => 1 | _ => 0 end
  | RestLval n => if null n then 0 else match first ts with TSquare | TOpenSq => 1 | _ => 0 end
  | _ => 0
  end.
(* an answer with at most L tokens left *)
Definition ends (L : nat) (r : res) : Prop := match r with Got _ ts _ => length ts <= L | NoFuel => False | _ => True end.

Lemma ends_le L L' r : L <= L' -> ends L r -> ends L' r. Proof. destruct r; cbn; auto. lia. Qed.
Lemma ends_flag L e r : ends L r -> ends L (flag e r). Proof. now destruct r. Qed.
Lemma ends_bind L M r k : ends L r -> (forall n ts, length ts <= L -> ends M (k n ts)) -> ends M (bind r k).
Proof. destruct r; cbn [ends bind]; intros H K; auto. apply ends_flag, K, H. Qed.
Lemma ends_peek M ts k :
  (forall t l, length l <= length ts -> (l = [] /\ t = TEnd \/ exists r, l = t :: r) -> (first ts <> TErr -> t = first ts /\ l = ts) -> ends M (k t l)) ->
  ends M (peek ts k).
Proof.
  intro K. destruct ts as [|t r]; [apply K; cbn; auto|].
  assert (A : t <> TErr -> ends M (k t (t :: r))) by (intros _; apply K; cbn; eauto).
  destruct t; try (apply A; discriminate). clear A.
  cbn [peek]. apply ends_flag. destruct r as [|t r]; apply K; cbn; try lia; try (intros X; now elim X); eauto.
Qed.
Lemma ends_get M ts k :
  (forall t l, length l <= length ts -> (ts = [] /\ t = TEnd \/ length l < length ts) -> ends M (k t l)) -> ends M (get ts k).
Proof.
  intro K. unfold get. destruct ts as [|t r]; [apply K; cbn; auto|].
  assert (A : ends M (k t r)) by (apply K; cbn; lia).
  destruct t; try exact A. clear A. cbn [peek]. apply ends_flag. destruct r as [|t r]; apply K; cbn; lia.
Qed.

Ltac lens := cbn [length tl] in *; lia.
(* the peeked token, when not TEnd, is the head *)
Ltac head C := destruct C as [[C ?] | [? C]]; [first [discriminate | idtac] | subst].

Lemma ends_minMaxSizeof M n ts k :
  (forall m l, length l <= length ts -> ends M (k m l)) -> ends M (minMaxSizeof n ts k).
Proof.
  intro K. unfold minMaxSizeof. apply ends_peek. intros d l1 L1 C1 _.
  assert (L1' : length (match d with TDot => tl l1 | _ => l1 end) <= length ts) by (destruct d; auto; destruct l1; lens).
  apply ends_peek. intros f l2 L2 C2 _.
  assert (T : length (tl l2) <= length ts) by (destruct l2; lens).
  destruct f; try (apply K; lia). destruct k0.
  - apply K; exact T.
  - apply ends_peek. intros c l3 L3 _ _. destruct c; try (apply K; lia). apply ends_flag, K. lia.
  - apply ends_peek. intros c l3 L3 _ _. destruct c; try (apply K; lia). exact I.
  - destruct (null n); [exact I|]. apply K. exact T.
Qed.

Lemma operand_lvl k : k <= 6 -> task_lvl (operand k) /\ weight (operand k) < 10 - k /\ (forall ts, eats (operand k) ts = 0).
Proof. intro H. unfold operand. destruct (Nat.eqb_spec k 6); cbn [weight task_lvl eats]; repeat split; lia. Qed.

Definition budget (t : task) (ts : list tok) : nat := 24 * length ts + weight t.

Lemma ends_step B rec t ts :
  (forall t' ts', task_lvl t' -> budget t' ts' < B -> ends (length ts' - eats t' ts') (rec t' ts')) ->
  task_lvl t -> budget t ts <= B -> ends (length ts - eats t ts) (step rec t ts).
Proof.
  intros IH0 OK HB.
  assert (IH : forall t' ts', task_lvl t' -> budget t' ts' < B -> ends (length ts') (rec t' ts')).
  { intros. eapply ends_le; [|apply IH0; auto]. lia. }
  unfold budget in *.
  destruct t; cbn [step task_lvl weight eats] in *; rewrite ?Nat.sub_0_r.
  - (* Level *) destruct (operand_lvl k OK) as (O1 & O2 & O3).
    eapply ends_bind; [apply (IH (operand k) ts); auto; lia|].
    intros n l L. destruct (null n); [cbn; lia|]. eapply ends_le; [exact L|]. apply IH; cbn; lia.
  - (* Rest *) destruct ((k =? 0) && null n); [cbn; lia|]. destruct (operand_lvl k OK) as (O1 & O2 & O3).
    apply ends_peek. intros p l L C _. destruct (is_op k p) eqn:P.
    + head C; [subst p; discriminate|].
      eapply ends_bind; [apply (IH (operand k)); auto; lens|].
      intros r l2 L2. eapply ends_le; [|apply IH; cbn; lens]. lens.
    + destruct p; try exact L.
      * head C. destruct (k =? 0); [|exact L]. eapply ends_le; [|apply IH; cbn; lens]. lens.
      * head C. destruct (k =? 6); [exact L|]. eapply ends_le; [|apply IH; cbn; lens]. lens.
  - (* Question *) eapply ends_bind; [apply (IH (Level 0) ts); cbn; lia|].
    intros tn l L. destruct (null tn); [exact L|]. apply ends_peek. intros p l2 L2 C _. destruct p; try (cbn; lia).
    head C. eapply ends_bind; [apply (IH (Level 0)); cbn; lens|]. intros fn l3 L3. destruct (null fn); cbn; lens.
  - (* Factor *) apply ends_peek. intros p l L C _. destruct (unary p) eqn:U.
    + head C; [subst p; discriminate|]. eapply ends_bind; [apply (IH (Factor false)); cbn; lens|]. intros n l2 L2. cbn. lens.
    + destruct p; try (cbn; lia); head C.
      * eapply ends_bind; [apply (IH (Ident n)); cbn; lens|]. intros m l2 L2. eapply ends_le; [|apply IH; cbn; lens]. lens.
      * cbn. lens.
      * eapply ends_le; [|apply IH; cbn; lens]. lens.
      * cbn. lens.
      * eapply ends_le; [|apply IH; cbn; lens]. lens.
      * eapply ends_bind; [apply (IH CastOrExpr); cbn; lens|]. intros m l2 L2. eapply ends_le; [|apply IH; cbn; lens]. lens.
      * destruct localbase; [cbn; lens|]. apply ends_get. intros d l2 L2 [[? ->] | L2']; [cbn; lens|]. destruct d; try (cbn; lens).
        eapply ends_bind; [apply (IH (Factor true)); cbn; lens|]. intros m l3 L3. cbn. lens.
      * eapply ends_le; [|apply IH; cbn; lens]. lens.
  - (* TypeFactor *) apply ends_get. intros p l L [[? ->] | L']; [exact I|]. destruct p; try exact I. apply ends_peek. intros q l2 L2 C _.
    destruct q; try exact I; try (cbn; lia); try head C.
    + cbn. lens.
    + eapply ends_bind; [apply (IH (Factor false)); cbn; lens|]. intros n l3 L3. cbn. lens.
    + apply ends_peek. intros f l3 L3 C3 _. destruct f; try exact I. head C3. destruct k; try exact I.
      * eapply ends_le; [|apply IH; cbn; lens]. lens.
      * apply ends_peek. intros c l4 L4 _ _. destruct c; try exact I; (eapply ends_le; [|apply IH; cbn; lens]; lens).
      * apply ends_peek. intros c l4 L4 _ _. destruct c; try exact I; (eapply ends_le; [|apply IH; cbn; lens]; lens).
    + destruct o; try exact I; cbn; lens.
  - (* RestFactor *) destruct (null n) eqn:N; [cbn; lia|]. apply ends_peek. intros p l L C _.
    destruct p; try exact L; head C.
    + (* [ *) eapply ends_bind; [apply (IH0 (RestLval n)); cbn; lens|]. cbn [eats first]. rewrite N.
      intros m l2 L2. eapply ends_le; [|apply IH; cbn; lens]. lens.
    + eapply ends_bind; [apply (IH0 (RestLval n)); cbn; lens|]. cbn [eats first]. rewrite N.
      intros m l2 L2. eapply ends_le; [|apply IH; cbn; lens]. lens.
    + (* . *) eapply ends_bind; [apply (IH0 (Members n false)); cbn; lens|]. cbn [eats first].
      intros m l2 L2. eapply ends_le; [|apply IH; cbn; lens]. lens.
    + eapply ends_le; [|apply IH; cbn; lens]. lens.
    + eapply ends_le; [|apply IH; cbn; lens]. lens.
    + (* is *) apply ends_peek. intros q l2 L2 C2 _. destruct q; try exact I; try (cbn; lens). head C2.
      apply ends_peek. intros c l3 L3 C3 _.
      assert (A : ends (length ts) (rec (RestFactor (NIs as_ t n)) l3)) by (eapply ends_le; [|apply IH; cbn; lens]; lens).
      destruct c; try exact I; try exact A. destruct o; try exact A. head C3. eapply ends_le; [|apply IH; cbn; lens]. lens.
    + apply ends_get. intros ? l2 L2 _. apply ends_get. intros ? l3 L3 _. cbn. lens.
  - (* RestLval *) destruct (null n) eqn:N; [cbn; lia|].
    apply ends_peek. intros p l L C F.
    assert (E : match first ts with TOpenSq | TSquare => 1 | _ => 0 end = 1 -> (p = TOpenSq \/ p = TSquare)).
    { intro E. destruct (first ts) eqn:Q; try discriminate E; destruct F; auto; discriminate. }
    assert (E1 : match first ts with TOpenSq | TSquare => 1 | _ => 0 end <= 1) by (destruct (first ts); lia).
    set (e := match first ts with TOpenSq | TSquare => 1 | _ => 0 end) in *. clearbody e.
    assert (E0 : p <> TOpenSq -> p <> TSquare -> e = 0).
    { intros A A2. destruct (Nat.eq_dec e 1) as [X|X]; [destruct (E X); contradiction | lia]. }
    destruct p; try (cbn; rewrite E0 by discriminate; lia); head C.
    + eapply ends_bind; [apply (IH (Level 0)); cbn; lens|]. intros i l2 L2. apply ends_peek. intros q l3 L3 C3 _.
      destruct q; try (cbn; lens). head C3. eapply ends_le; [|apply IH; cbn; lens]. lens.
    + cbn. lens.
  - (* Ident *) apply ends_peek. intros p l L C _.
    assert (A : ends (length ts) (rec (RestLval (NIdent n)) l)) by (eapply ends_le; [exact L | apply IH; cbn; lens]).
    destruct p; try exact A; try exact L. head C. eapply ends_le; [|apply IH; cbn; lens]. lens.
  - (* Members *) apply ends_peek. intros p l L C F.
    assert (E : match first ts with TDot => 1 | _ => 0 end = 1 -> p = TDot).
    { intro E. destruct (first ts) eqn:Q; try discriminate E; destruct F; auto; discriminate. }
    assert (E1 : match first ts with TDot => 1 | _ => 0 end <= 1) by (destruct (first ts); lia).
    set (e := match first ts with TDot => 1 | _ => 0 end) in *. clearbody e.
    assert (E0 : p <> TDot -> e = 0) by (intro A; destruct (Nat.eq_dec e 1) as [X|X]; [elim (A (E X)) | lia]).
    destruct p; try (cbn; rewrite E0 by discriminate; lia). head C.
    apply ends_peek. intros q l2 L2 C2 _. cbn [tl] in L2.
    assert (B2 : ends (length ts - e) (minMaxSizeof n l2 (fun r ts3 => if null r then if dead then Abort else rec (Members NNull true) ts3 else rec (Members r dead) ts3))).
    { apply ends_minMaxSizeof. intros m l3 L3.
      destruct (null m); [destruct dead; [exact I|]|]; (eapply ends_le; [|apply IH; cbn; lens]; lens). }
    destruct q; try exact B2; try exact I. head C2.
    eapply ends_bind; [apply (IH (Ident n0)); cbn; lens|]. intros r l3 L3. destruct (null r); [cbn; lens|].
    eapply ends_le; [|apply IH; cbn; lens]. lens.
  - (* Args *) eapply ends_bind; [apply (IH Assign ts); cbn; lia|]. intros a l L. apply ends_get.
    intros p l2 L2 [[? ->] | L3]; [cbn; lia|]. destruct p; try (cbn; lia). eapply ends_le; [|apply IH; cbn; lens]. lens.
  - (* CastOrExpr *)
    assert (C : forall (n : node) l, length l <= length ts -> ends (length ts) (peek l (fun p ts2 => match p with TClose => Got n (tl ts2) false | _ => Got NNull ts2 true end))).
    { intros n l L. apply ends_peek. intros p l2 L2 C _. destruct p; try (cbn; lia). head C. cbn. lens. }
    apply ends_peek. intros p l L Cp _.
    assert (A : forall l', length l' <= length ts -> ends (length ts) (bind (rec Assign l') (fun n ts1 => peek ts1 (fun p ts2 => match p with TClose => Got n (tl ts2) false | _ => Got NNull ts2 true end)))).
    { intros l' L'. eapply ends_bind; [apply (IH Assign l'); cbn; lia|]. intros n l2 L2. apply C. lia. }
    destruct p; try exact I; try (apply A; exact L).
    eapply ends_bind; [apply (IH TypeFactor l); cbn; lia|]. intros n l2 L2. destruct (is_cast n); [cbn; lia|].
    destruct (null n); [apply A; lia|]. eapply ends_bind; [apply (IH (WrapFactor n) l2); cbn; lia|]. intros m l3 L3. apply C. lia.
  - (* Assign *) eapply ends_bind; [apply (IH (Level 0) ts); cbn; lia|]. intros n l L. destruct (null n); [exact L|].
    eapply ends_le; [|apply IH; cbn; lens]. lia.
  - (* RestAssign *) destruct (null n) eqn:N; [cbn; lia|]. apply ends_peek. intros p l L C _.
    destruct p; try exact L; head C; try (eapply ends_le; [|apply IH; cbn; lens]; lens).
    eapply ends_bind; [apply (IH Assign); cbn; lens|]. intros r l2 L2.
    destruct (null r); [apply ends_flag|]; (eapply ends_le; [|apply IH; cbn; lens]; lens).
  - (* WrapFactor *) destruct (null n) eqn:N; [cbn; lia|]. apply ends_peek. intros p l L C _.
    assert (A : ends (length ts) (rec (Wrap 6 n) l)) by (eapply ends_le; [|apply IH; cbn; lens]; lens).
    assert (A2 : ends (length ts) (bind (rec (Factor false) l) (fun m ts2 => rec (RestFactor m) ts2))).
    { eapply ends_bind; [apply (IH (Factor false) l); cbn; lens|]. intros m l2 L2. eapply ends_le; [|apply IH; cbn; lens]. lens. }
    destruct p; try exact A; try exact A2. head C.
    apply ends_get. intros ? l2 L2 [[? ?] | L4]; [discriminate|]. apply ends_get. intros ? l3 L3 _.
    eapply ends_le; [|apply IH; cbn; lens]. lens.
  - (* Wrap *) destruct ((k =? 0) && null n); [cbn; lia|]. destruct (operand_lvl k OK) as (O1 & O2 & O3).
    apply ends_peek. intros p l L C _.
    assert (U : ends (length ts) (match k with O => rec (WrapAssign n) l | S j => rec (Wrap j n) l end)).
    { destruct k; (eapply ends_le; [|apply IH; cbn; lens]; lens). }
    destruct (is_op k p) eqn:P.
    + head C; [subst p; discriminate|].
      eapply ends_bind; [apply (IH (operand k)); auto; lens|].
      intros r l2 L2. eapply ends_le; [|apply IH; cbn; lens]. lens.
    + destruct p; try exact U; head C.
      * destruct (k =? 0); [|exact U]. eapply ends_le; [|apply IH; cbn; lens]. lens.
      * eapply ends_le; [|apply IH; cbn; lens]. lens.
  - (* WrapAssign *) destruct (null n) eqn:N; [cbn; lia|]. apply ends_peek. intros p l L C _.
    destruct p; try exact L; head C; try (eapply ends_le; [|apply IH; cbn; lens]; lens).
    eapply ends_bind; [apply (IH Assign); cbn; lens|]. intros r l2 L2.
    destruct (null r); [apply ends_flag|]; (eapply ends_le; [|apply IH; cbn; lens]; lens).
Qed.

Lemma ends_run g : forall t ts, task_lvl t -> budget t ts < g -> ends (length ts - eats t ts) (run g t ts).
Proof.
  induction g as [|g IH]; intros t ts OK H; [lia|]. cbn [run]. apply (ends_step g); auto. lia.
Qed.
