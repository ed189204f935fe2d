(** Proofs about the labels and the places of stores. *)

From Coq Require Import String List NArith ZArith Lia Bool.
From Verif Require Import StoreModel StoreSpec.
Import ListNotations.
Open Scope N_scope.

Lemma alt_eqb_eq : forall a b, alt_eqb a b = true <-> a = b.
Proof. intros [] []; cbn; split; congruence. Qed.

Ltac lab :=
  repeat match goal with
  | H : context [match label ?e with _ => _ end] |- _ => destruct (label e) eqn:?; try discriminate
  | H : context [match branch ?t ?e with _ => _ end] |- _ => destruct (branch t e) eqn:?; try discriminate
  | H : context [if ?b then Some _ else None] |- _ => destruct b eqn:?; try discriminate
  | H : Some _ = Some _ |- _ => injection H as H; subst
  | H : _ && _ = true |- _ => apply andb_prop in H; destruct H
  end.

Lemma var_ok : forall v, stor (TVar v) = true -> ~ constantName (TgVar v).
Proof.
  intros v H. cbn in H. apply andb_prop in H; destruct H as [A B].
  intros [C | C]; cbn in *.
  - rewrite C in A; discriminate.
  - unfold isConstRef in B; rewrite C in B; discriminate.
Qed.

Lemma refable_stor : forall e t,
  label e = Some t -> refable t = true -> stor t = true.
Proof.
  induction e; intros tr L R; cbn in L; try discriminate; lab; cbn in *; auto.
  all: try (eapply IHe; eauto; fail).
  rewrite R; apply orb_true_r.
Qed.

Lemma permits_stor_inv : forall u e t,
  label e = Some t -> permits u t = true -> stor t = true.
Proof.
  intros [] e t L P; cbn in P; auto.
  - apply andb_prop in P; tauto.
  - eapply refable_stor; eauto.
Qed.

(** With the missing check, and without casts to references, the label is a
    promise. *)
Lemma label_sound : forall e t x,
  label e = Some t -> guarded e = true -> uncast e = true -> stor t = true ->
  standsFor e x -> ~ constantName x.
Proof.
  induction e; intros tr x L S U ST SF; cbn [label guarded uncast] in L, S, U; try discriminate;
    lab; cbn [stor] in ST; inversion SF; subst; clear SF; try discriminate.
  all: try (eapply IHe; eauto; fail).
  all: try (apply var_ok; assumption).
  - (* cast *)
    match goal with H : _ \/ _ |- _ => destruct H as [E | E]; rewrite E in U end; discriminate.
  - eapply IHe1; eauto.
  - eapply IHe2; eauto.
  - (* assignment *)
    eapply IHe1; eauto.
Qed.

Lemma branch_place : forall rho t e e' p,
  branch t e = Some e' -> evalPlace rho e' = Some p -> evalPlace rho e = Some p.
Proof.
  intros rho t e e' p B E. unfold branch in B.
  destruct (sty_eqb (tyOf e) t); [injection B as B; subst; auto |].
  destruct (castable (tyOf e) t); [| discriminate].
  injection B as B; subst e'. cbn [evalPlace] in E.
  destruct (negb (isConstRef t) && negb (stor e)); [discriminate | auto].
Qed.

Lemma branch_genplace : forall rho t e e' p,
  branch t e = Some e' -> genPlace rho e' = Some p -> genPlace rho e = Some p.
Proof.
  intros rho t e e' p B E. unfold branch in B.
  destruct (sty_eqb (tyOf e) t); [injection B as B; subst; auto |].
  destruct (castable (tyOf e) t); [| discriminate].
  injection B as B; subst e'. cbn [genPlace] in E.
  destruct (isAltRef t && isAConstant e && negb (isConstRef t)); [discriminate | auto].
Qed.

(** The evaluator looks at the label of the operand of a cast again. *)
Lemma eval_sound : forall rho e t,
  label e = Some t -> guarded e = true -> stor t = true ->
  harmless (evalPlace rho t).
Proof.
  intros rho; induction e; intros tr L S ST; cbn [label guarded] in L, S; try discriminate;
    lab; cbn [stor] in ST;
    try discriminate; unfold harmless; cbn [evalPlace]; intros q x E P.
  - cbn [stor] in E. rewrite ST in E; cbn in E. injection E as E; subst q.
    cbn in P; injection P as P; subst x. apply var_ok; exact ST.
  - destruct (alt_eqb (ty_alt t) ARef) eqn:A; [| discriminate].
    apply alt_eqb_eq in A.
    unfold isConstRef in E; rewrite A in E; cbn in E.
    destruct (stor t0) eqn:ST0; cbn in E; [| discriminate].
    eapply IHe; eauto.
  - destruct (rho c).
    + eapply IHe1; [reflexivity | assumption | assumption | eapply branch_place; eauto | exact P].
    + eapply IHe2; [reflexivity | assumption | assumption | eapply branch_place; eauto | exact P].
  - eapply IHe; eauto.
  - eapply IHe; eauto.
  - eapply IHe; eauto.
  - cbn [stor] in E. rewrite ST in E. injection E as E; subst q. discriminate.
  - injection E as E; subst q. injection P as P; subst x. apply var_ok; exact S.
  - destruct (evalPlace rho t); [injection E as E; subst q; discriminate | discriminate].
Qed.

(** The generated code does not. *)
Lemma gen_sound : forall rho e t,
  label e = Some t -> guarded e = true -> uncast e = true -> stor t = true ->
  harmless (genPlace rho t).
Proof.
  intros rho; induction e; intros tr L S U ST; cbn [label guarded uncast] in L, S, U; try discriminate;
    lab; cbn [stor] in ST;
    try discriminate; unfold harmless; cbn [genPlace]; intros q x E P; try discriminate.
  - injection E as E; subst q.
    cbn in P; injection P as P; subst x. apply var_ok; exact ST.
  - destruct (ty_alt t); discriminate.
  - destruct (rho c).
    + eapply IHe1; [reflexivity | assumption | assumption | assumption | eapply branch_genplace; eauto | exact P].
    + eapply IHe2; [reflexivity | assumption | assumption | assumption | eapply branch_genplace; eauto | exact P].
  - eapply IHe; eauto.
  - eapply IHe; eauto.
  - eapply IHe; eauto.
  - injection E as E; subst q; discriminate.
  - injection E as E; subst q. injection P as P; subst x. apply var_ok; exact S.
Qed.

(** What gets stored into is something the expression stands for.  A cast to
    a value has no place in the evaluator; the generated code is asked for
    one only where the label allows it. *)
Lemma place_stands : forall rho e t p x,
  label e = Some t -> stor t = true -> guarded e = true ->
  evalPlace rho t = Some p -> placeTarget p = Some x -> standsFor e x.
Proof.
  intros rho; induction e; intros tr p x L ST S E P; cbn [label guarded] in L, S; try discriminate;
    lab; cbn [stor] in ST; try discriminate; cbn [evalPlace] in E; try discriminate.
  - cbn [stor] in E. rewrite ST in E; cbn in E. injection E as E; subst p.
    injection P as P; subst x. constructor.
  - destruct (alt_eqb (ty_alt t) ARef) eqn:A; [| discriminate].
    apply alt_eqb_eq in A.
    unfold isConstRef in E; rewrite A in E; cbn in E.
    destruct (stor t0) eqn:ST0; cbn in E; [| discriminate].
    constructor; [auto |]. eapply IHe; eauto.
  - destruct (rho c).
    + apply SFTrue. eapply IHe1; [reflexivity | assumption | assumption | eapply branch_place; eauto | exact P].
    + apply SFFalse. eapply IHe2; [reflexivity | assumption | assumption | eapply branch_place; eauto | exact P].
  - constructor; eapply IHe; eauto.
  - constructor; eapply IHe; eauto.
  - constructor; eapply IHe; eauto.
  - cbn [stor] in E. rewrite ST in E. injection E as E; subst p. discriminate.
  - injection E as E; subst p. injection P as P; subst x. constructor.
  - destruct (evalPlace rho t); [injection E as E; subst p; discriminate | discriminate].
Qed.

(** Selections: the label says exactly whether the name is constant. *)
Lemma selection_ok : forall e, selection e = true -> guarded e = true /\ uncast e = true.
Proof. induction e; cbn; auto; discriminate. Qed.

Lemma selection_label : forall e, selection e = true ->
  exists t, label e = Some t /\ refable t = stor t /\
    ((exists x, standsFor e x /\ ~ constantName x) -> stor t = true) /\
    exists x, standsFor e x.
Proof.
  induction e; intros S; cbn in S; try discriminate.
  - exists (TVar v). split; [reflexivity |]. split; [reflexivity |]. split.
    + intros [x [F C]]. inversion F; subst. cbn in C |- *.
      destruct (v_constparam v) eqn:P; [exfalso; apply C; auto |].
      unfold isConstRef. destruct (ty_alt (v_ty v)) eqn:A; cbn; auto.
    + eexists; constructor.
  - exists (TConst name t slot). split; [reflexivity |]. split; [reflexivity |]. split.
    + intros [x [F C]]. inversion F; subst. cbn in C. tauto.
    + eexists; constructor.
  - destruct (IHe S) as (t' & L & R & C & x & X). cbn. rewrite L. eexists; split; [reflexivity |]. split; [cbn; auto |]. cbn [stor]. split.
    + intros [y [F Y]]. inversion F; subst. apply C; eauto.
    + exists x; constructor; auto.
  - destruct (IHe S) as (t' & L & R & C & x & X). cbn. rewrite L. eexists; split; [reflexivity |]. split; [cbn; auto |]. cbn [stor]. split.
    + intros [y [F Y]]. inversion F; subst. apply C; eauto.
    + exists x; constructor; auto.
  - destruct (IHe S) as (t' & L & R & C & x & X). cbn. rewrite L. eexists; split; [reflexivity |]. split; [cbn; auto |]. cbn [stor]. split.
    + intros [y [F Y]]. inversion F; subst. apply C; eauto.
    + exists x; constructor; auto.
Qed.

(** Where every check is made, both back ends store into the name reached. *)
Lemma placed_notconst : forall e t, label e = Some t -> placed e = true -> isAConstant t = false.
Proof.
  induction e; intros tr L P; cbn [label placed] in L, P; try discriminate; lab; cbn; auto.
  all: try (eapply IHe; eauto; fail).
  eapply IHe; [reflexivity |]. destruct (ty_alt t); auto; discriminate.
Qed.

Lemma branch_both : forall rho t e e' q,
  branch t e = Some e' -> stor e = true -> isAConstant e = false ->
  evalPlace rho e = Some q -> genPlace rho e = Some q ->
  evalPlace rho e' = Some q /\ genPlace rho e' = Some q.
Proof.
  intros rho t e e' q B S C E G. unfold branch in B.
  destruct (sty_eqb (tyOf e) t); [injection B as B; subst; auto |].
  destruct (castable (tyOf e) t); [| discriminate].
  injection B as B; subst e'. cbn [evalPlace genPlace].
  rewrite S, C, andb_false_r, andb_false_r. auto.
Qed.

Lemma placed_both : forall rho e t,
  label e = Some t -> placed e = true -> guarded e = true -> guardedCasts e = true ->
  stor t = true ->
  exists v, reaches rho e v /\ evalPlace rho t = Some (PVar v) /\ genPlace rho t = Some (PVar v).
Proof.
  intros rho; induction e; intros tr L P S U ST;
    cbn [label placed guarded guardedCasts] in L, P, S, U; try discriminate;
    lab; cbn [stor] in ST; try discriminate; cbn [evalPlace genPlace].
  - exists v. cbn [stor]. rewrite ST. cbn. repeat split; constructor.
  - assert (P' : isAltRef t = true /\ placed e = true).
    { unfold isAltRef. destruct (ty_alt t); cbn; auto; discriminate. }
    destruct P' as [R P']. rewrite R in *. cbn [negb orb] in *.
    match goal with H : stor t0 = true |- _ => rename H into S0 end.
    destruct (IHe _ eq_refl P' S ltac:(assumption) S0) as (v & A & B & C).
    exists v. rewrite S0, (placed_notconst e t0 ltac:(assumption) P'), andb_false_r.
    cbn [andb]. split; [constructor; auto |]. auto.
  - destruct (rho c) eqn:RC.
    + destruct (IHe1 _ eq_refl ltac:(assumption) ltac:(assumption) ltac:(assumption) ltac:(assumption)) as (v & A & B & C).
      exists v. split; [apply RcTrue; auto |].
      eapply branch_both; eauto. eapply placed_notconst; eauto.
    + destruct (IHe2 _ eq_refl ltac:(assumption) ltac:(assumption) ltac:(assumption) ltac:(assumption)) as (v & A & B & C).
      exists v. split; [apply RcFalse; auto |].
      eapply branch_both; eauto. eapply placed_notconst; eauto.
  - destruct (IHe _ eq_refl P S U ST) as (v & A & B & C). exists v. split; [constructor; auto | auto].
  - destruct (IHe _ eq_refl P S U ST) as (v & A & B & C). exists v. split; [constructor; auto | auto].
  - destruct (IHe _ eq_refl P S U ST) as (v & A & B & C). exists v. split; [constructor; auto | auto].
  - exists v. repeat split; constructor.
Qed.
