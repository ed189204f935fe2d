(* ExprPrint.v: what the printer writes is a phrase of the grammar. *)
From Coq Require Import List PeanoNat NArith Lia Bool.
From Verif Require Import Base ExprModel ExprSpec ExprProofs ExprValue ExprComplete.
Import ListNotations.
Open Scope nat_scope.

Definition valid (c : cat) : Prop := match c with CBin k => k <= 7 | _ => True end.

Lemma G_bins s j ts n : forall k, k <= j -> j <= 7 -> G s (CBin j) ts n -> G s (CBin k) ts n.
Proof.
  intros k. remember (j - k) as d eqn:E. revert k E. induction d as [|d IH]; intros k E L J H.
  - now replace k with j by lia.
  - apply G_up; [lia|]. apply IH; auto; lia.
Qed.

Lemma G_sub s c c' ts n : valid c -> valid c' -> rank c <= rank c' -> G s c' ts n -> G s c ts n.
Proof.
  intros Vc Vc' L H.
  assert (F : forall c', 10 <= rank c' -> valid c' -> G s c' ts n -> G s CFactor ts n).
  { intros [| |k| | |] R V X; cbn in R, V; try lia; auto using G_post, G_idx. }
  assert (B : forall k c', k <= 7 -> valid c' -> 2 + k <= rank c' -> G s c' ts n -> G s (CBin k) ts n).
  { intros k d K V R X. destruct d as [| |j| | |] eqn:D; cbn [rank] in R; try lia.
    - apply (G_bins s j); auto; lia.
    - apply (G_bins s 7); auto. now apply G_factor.
    - apply (G_bins s 7); auto. now apply G_factor, G_post.
    - apply (G_bins s 7); auto. now apply G_factor, G_post, G_idx. }
  assert (E : forall c', 1 <= rank c' -> valid c' -> G s c' ts n -> G s CExpr ts n).
  { intros d R V X. destruct d eqn:D; cbn [rank] in R; try lia; auto; apply G_expr.
    - apply (B 0 (CBin k)); auto; cbn [rank]; lia.
    - apply (B 0 CFactor); auto; cbn [rank]; lia.
    - apply (B 0 CPost); auto; cbn [rank]; lia.
    - apply (B 0 CIdx); auto; cbn [rank]; lia. }
  destruct c as [| |k| | |].
  - destruct (Nat.eq_dec (rank c') 0) as [Z|Z]; [destruct c'; cbn in Z; try discriminate; exact H|].
    apply G_assign_expr. apply (E c'); auto. lia.
  - now apply (E c').
  - now apply (B k c').
  - now apply (F c').
  - destruct c'; cbn in L; try lia; auto; [cbn in Vc'; lia | now apply G_idx].
  - destruct c'; cbn in L; try lia; auto. cbn in Vc'; lia.
Qed.

Section NodeInd.
Variable Q : node -> Prop.
Hypothesis HNull : Q NNull.
Hypothesis HIdent : forall i, Q (NIdent i).
Hypothesis HNum : forall i, Q (NNum i).
Hypothesis HStr : forall i, Q (NStr i).
Hypothesis HBin : forall o l r, Q l -> Q r -> Q (NBin o l r).
Hypothesis HUn : forall u e, Q e -> Q (NUn u e).
Hypothesis HPost : forall b e, Q e -> Q (NPost b e).
Hypothesis HAssign : forall o l r, Q l -> Q r -> Q (NAssign o l r).
Hypothesis HQuest : forall c t f, Q c -> Q t -> Q f -> Q (NQuest c t f).
Hypothesis HIndex : forall l i, Q l -> Q i -> Q (NIndex l i).
Hypothesis HCall : forall f a, Forall Q a -> Q (NCall f a).
Hypothesis HMember : forall l r, Q l -> Q r -> Q (NMember l r).
Hypothesis HOf : forall k e, Q e -> Q (NOf k e).
Hypothesis HTypeOf : forall k t, Q (NTypeOf k t).
Hypothesis HCast : forall t e, Q e -> Q (NCast t e).
Hypothesis HIs : forall a t e, Q e -> Q (NIs a t e).
Hypothesis HLocal : forall e, Q e -> Q (NLocal e).
Fixpoint node_rect' (n : node) : Q n :=
  match n with
  | NNull => HNull | NIdent i => HIdent i | NNum i => HNum i | NStr i => HStr i
  | NBin o l r => HBin o l r (node_rect' l) (node_rect' r)
  | NUn u e => HUn u e (node_rect' e) | NPost b e => HPost b e (node_rect' e)
  | NAssign o l r => HAssign o l r (node_rect' l) (node_rect' r)
  | NQuest c t f => HQuest c t f (node_rect' c) (node_rect' t) (node_rect' f)
  | NIndex l i => HIndex l i (node_rect' l) (node_rect' i)
  | NCall f a => HCall f a ((fix all l := match l return Forall Q l with [] => Forall_nil Q | x :: r => Forall_cons x (node_rect' x) (all r) end) a)
  | NMember l r => HMember l r (node_rect' l) (node_rect' r)
  | NOf k e => HOf k e (node_rect' e) | NTypeOf k t => HTypeOf k t | NCast t e => HCast t e (node_rect' e)
  | NIs a t e => HIs a t e (node_rect' e) | NLocal e => HLocal e (node_rect' e)
  end.
End NodeInd.

Definition body (n : node) : list tok := show (cat_of n) n.
Lemma show_body want n : show want n = if Nat.leb (rank want) (rank (cat_of n)) then body n else TOpen :: body n ++ [TClose].
Proof.
  unfold body. assert (E : Nat.leb (rank (cat_of n)) (rank (cat_of n)) = true) by apply Nat.leb_refl.
  destruct n; cbn [show]; rewrite E; reflexivity.
Qed.

Lemma cat_valid n : valid (cat_of n).
Proof. destruct n as [| | | |o l r| | | | | | |l [] | | | | |]; cbn; auto. destruct o; cbn; lia. Qed.

Definition Pr (n : node) : Prop :=
  writable n -> G true (cat_of n) (body n) n /\ starts_plain (body n) /\ ends_type (body n) = false.

Lemma Pr_show n want : Pr n -> writable n -> valid want ->
  G true want (show want n) n /\ starts_plain (show want n) /\ ends_type (show want n) = false.
Proof.
  intros H W Vw. destruct (H W) as (G1 & S1 & E1). rewrite show_body. destruct (Nat.leb_spec (rank want) (rank (cat_of n))).
  - repeat split; auto. apply (G_sub _ _ (cat_of n)); auto using cat_valid.
  - split; [|split].
    + apply (G_sub _ _ CIdx); auto; [exact I | destruct want; cbn in *; lia|]. apply G_paren; auto.
      apply (G_sub _ _ (cat_of n)); auto using cat_valid; [exact I | cbn; lia].
    + exact I.
    + change (TOpen :: body n ++ [TClose]) with ((TOpen :: body n) ++ [TClose]). apply ends_type_snoc.
Qed.

Lemma writable_all l : (fix all l := match l with [] => True | x :: r => writable x /\ all r end) l <-> Forall writable l.
Proof.
  induction l as [|x l IH]; split; intro H; auto.
  - destruct H. constructor; [assumption | now apply IH].
  - inversion H; subst. split; [assumption | now apply IH].
Qed.

Lemma args_G l : Forall Pr l -> Forall writable l -> GA true (sep (map (show CAssign) l)) l.
Proof.
  induction l as [|x l IH]; intros H W; [constructor|]. inversion H; subst. inversion W; subst.
  destruct (Pr_show x CAssign) as (Gx & _ & _); auto; [exact I|].
  destruct l as [|y l].
  - cbn [map sep]. now apply GA_one.
  - change (sep (map (show CAssign) (x :: y :: l))) with (show CAssign x ++ TComma :: sep (map (show CAssign) (y :: l))).
    apply GA_more; auto. discriminate.
Qed.

Lemma plain_app a b : a <> [] -> starts_plain a -> starts_plain (a ++ b).
Proof. intros H. unfold starts_plain. now rewrite first_app. Qed.

Lemma body_eq n : body n =
    match n with
    | NIdent i => [TIdent i] | NNum i => [TNum i] | NStr i => [TStr i]
    | NBin o l r => show (CBin (binds o)) l ++ TBin o :: show (CBin (S (binds o))) r
    | NUn u e => untok u :: show CFactor e
    | NPost b e => show CPost e ++ [if b then TInc else TDec]
    | NAssign o l r => show CExpr l ++ TAssign o :: show CAssign r
    | NQuest c t f => show (CBin 0) c ++ TQuestion :: show CExpr t ++ TColon :: show CExpr f
    | NIndex l i => show CIdx l ++ TOpenSq :: show CExpr i ++ [TCloseSq]
    | NCall f args => TIdent f :: TOpen :: sep (map (show CAssign) args) ++ [TClose]
    | NMember l (NIdent i) => show CPost l ++ [TDot; TIdent i]
    | NMember l (NCall f args) => show CPost l ++ TDot :: TIdent f :: TOpen :: sep (map (show CAssign) args) ++ [TClose]
    | NOf k e => show CPost e ++ [TDot; TOf k]
    | NCast t e => TOpen :: TType t :: TClose :: show CFactor e
    | _ => []
    end.
Proof.
  unfold body. assert (E : Nat.leb (rank (cat_of n)) (rank (cat_of n)) = true) by apply Nat.leb_refl.
  destruct n; cbn [show]; rewrite E; reflexivity.
Qed.

Lemma ends_app_ne a t b : b <> [] -> ends_type (a ++ t :: b) = ends_type b.
Proof. intro H. change (t :: b) with ([t] ++ b). rewrite app_assoc. now apply ends_type_app. Qed.

Lemma Pr_all n : Pr n /\ match n with NCall _ a => Forall Pr a | _ => True end.
Proof.
  induction n using node_rect';
    repeat match goal with H : Pr _ /\ _ |- _ => destruct H end;
    (split; [unfold Pr; intro W; try contradiction; rewrite body_eq; cbn [cat_of] | try exact I]).
  - repeat split; auto. constructor.
  - repeat split; auto. constructor.
  - repeat split; auto. constructor.
  - (* bin *) destruct W as [W1 W2]. pose proof (lvl_le o). rewrite <- (binds_lvl o) in *.
    destruct (Pr_show n1 (CBin (binds o))) as (G1 & S1 & E1); auto; [cbn; lia|].
    destruct (Pr_show n2 (CBin (S (binds o)))) as (G2 & S2 & E2); auto; [cbn; lia|].
    split; [|split].
    + now apply G_bin.
    + apply plain_app; auto. eapply G_ne; eauto.
    + rewrite ends_app_ne; auto. eapply G_ne; eauto.
  - (* un *) destruct (Pr_show n CFactor) as (G1 & S1 & E1); auto; [exact I|]. split; [|split].
    + apply G_unary; auto. destruct u; reflexivity.
    + destruct u; exact I.
    + change (ends_type ([] ++ untok u :: show CFactor n) = false). rewrite ends_app_ne; auto. eapply G_ne; eauto.
  - (* post *) destruct (Pr_show n CPost) as (G1 & S1 & E1); auto; [exact I|]. split; [|split].
    + now apply G_inc.
    + apply plain_app; auto. eapply G_ne; eauto.
    + rewrite ends_type_snoc. now destruct b.
  - (* assign *) destruct W as [W1 W2].
    destruct (Pr_show n1 CExpr) as (G1 & S1 & E1); auto; [exact I|].
    destruct (Pr_show n2 CAssign) as (G2 & S2 & E2); auto; [exact I|].
    split; [|split].
    + now apply G_assign.
    + apply plain_app; auto. eapply G_ne; eauto.
    + rewrite ends_app_ne; auto. eapply G_ne; eauto.
  - (* quest *) destruct W as (W1 & W2 & W3).
    destruct (Pr_show n1 (CBin 0)) as (G1 & S1 & E1); auto; [cbn; lia|].
    destruct (Pr_show n2 CExpr) as (G2 & S2 & E2); auto; [exact I|].
    destruct (Pr_show n3 CExpr) as (G3 & S3 & E3); auto; [exact I|].
    split; [|split].
    + now apply G_quest.
    + apply plain_app; auto. eapply G_ne; eauto.
    + change (TQuestion :: show CExpr n2 ++ TColon :: show CExpr n3) with ((TQuestion :: show CExpr n2) ++ TColon :: show CExpr n3).
      rewrite app_assoc, ends_app_ne; auto. eapply G_ne; eauto.
  - (* index *) destruct W as [W1 W2].
    destruct (Pr_show n1 CIdx) as (G1 & S1 & E1); auto; [exact I|].
    destruct (Pr_show n2 CExpr) as (G2 & S2 & E2); auto; [exact I|].
    split; [|split].
    + now apply G_index.
    + apply plain_app; auto. eapply G_ne; eauto.
    + change (TOpenSq :: show CExpr n2 ++ [TCloseSq]) with ((TOpenSq :: show CExpr n2) ++ [TCloseSq]). rewrite app_assoc. apply ends_type_snoc.
  - (* call *) cbn [writable] in W. apply writable_all in W.
    assert (HP : Forall Pr a) by (eapply Forall_impl; [|exact H]; now intros x [X _]).
    pose proof (args_G _ HP W) as GA1.
    split; [now apply G_call | split; [exact I|]].
    change (ends_type ((TIdent f :: TOpen :: sep (map (show CAssign) a)) ++ [TClose]) = false). apply ends_type_snoc.
  - eapply Forall_impl; [|exact H]. now intros x [X _].
  - (* member *) destruct n2; try contradiction; cbn [writable cat_of] in *.
    + destruct (Pr_show n1 CPost ltac:(auto) ltac:(auto) I) as (G1 & S1 & E1). split; [|split].
      * apply (G_member _ _ _ n []); auto. constructor.
      * apply plain_app; auto. eapply G_ne; eauto.
      * rewrite ends_app_ne by discriminate. reflexivity.
    + destruct W as [W1 W2]. destruct (Pr_show n1 CPost ltac:(auto) ltac:(auto) I) as (G1 & S1 & E1). apply writable_all in W2.
      assert (GA1 : GA true (sep (map (show CAssign) args)) args) by (apply args_G; auto).
      split; [|split].
      * now apply G_member_call.
      * apply plain_app; auto. eapply G_ne; eauto.
      * change (TDot :: TIdent f :: TOpen :: sep (map (show CAssign) args) ++ [TClose]) with ((TDot :: TIdent f :: TOpen :: sep (map (show CAssign) args)) ++ [TClose]).
        rewrite app_assoc. apply ends_type_snoc.
  - (* of *) destruct (Pr_show n CPost) as (G1 & S1 & E1); auto; [exact I|]. split; [|split].
    + now apply G_of.
    + apply plain_app; auto. eapply G_ne; eauto.
    + rewrite ends_app_ne by discriminate. reflexivity.
  - (* cast *) destruct (Pr_show n CFactor) as (G1 & S1 & E1); auto; [exact I|]. split; [|split].
    + now apply G_cast.
    + exact I.
    + change (ends_type ([TOpen; TType t] ++ TClose :: show CFactor n) = false). rewrite ends_app_ne; auto. eapply G_ne; eauto.
Qed.

Lemma show_G n : writable n -> G true CAssign (show CAssign n) n.
Proof. intro W. apply (Pr_show n CAssign); auto; [apply Pr_all | exact I]. Qed.
