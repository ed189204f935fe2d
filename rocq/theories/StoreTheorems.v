(** C84: nothing constant is ever changed.  C85: what an accepted left side
    stands for is what gets stored into. *)

From Coq Require Import String List NArith ZArith Lia Bool.
From Verif Require Import StoreModel StoreSpec StoreProofs.
Import ListNotations.
Open Scope N_scope.

(** Members, items and base classes of a name: the compiler lets them be
    assigned to, bound to a reference, passed as a reference argument or
    called upon exactly when the name is not constant. *)
Theorem C84_selection : forall u e,
  selection e = true ->
  (exists t, label e = Some t /\ permits u t = true)
  <-> (forall x, standsFor e x -> ~ constantName x).
Proof.
  intros u e S. destruct (selection_label e S) as (t & L & R & C & x & X).
  destruct (selection_ok e S) as [G U]. split.
  - intros (t' & L' & P) y Y. rewrite L in L'; injection L' as L'; subst t'.
    eapply label_sound; eauto. eapply permits_stor_inv; eauto.
  - intros H. exists t. split; [exact L |].
    assert (ST : stor t = true) by (apply C; exists x; split; auto).
    destruct u; cbn; rewrite ?R, ?ST; reflexivity.
Qed.
Print Assumptions C84_selection.

(** Any expression without casts to references, if the branches of its ?:
    and the operands of its .atomof have been checked themselves: what the
    compiler permits to be changed stands for nothing constant. *)
Theorem C84_checked_partial : forall u e t x,
  label e = Some t -> permits u t = true -> guarded e = true -> uncast e = true ->
  standsFor e x -> ~ constantName x.
Proof.
  intros u e t x L P G U F. eapply label_sound; eauto. eapply permits_stor_inv; eauto.
Qed.
Print Assumptions C84_checked_partial.

(** In the evaluator casts to references do no harm either. *)
Theorem C84_evaluated_partial : forall rho u e t,
  label e = Some t -> permits u t = true -> guarded e = true ->
  harmless (evalPlace rho t)
  /\ forall p x, evalPlace rho t = Some p -> placeTarget p = Some x -> standsFor e x.
Proof.
  intros rho u e t L P G. split.
  - eapply eval_sound; eauto. eapply permits_stor_inv; eauto.
  - intros p x E T. eapply place_stands; eauto. eapply permits_stor_inv; eauto.
Qed.
Print Assumptions C84_evaluated_partial.

(** In the generated code they have to be left out. *)
Theorem C84_generated_partial : forall rho u e t,
  label e = Some t -> permits u t = true -> guarded e = true -> uncast e = true ->
  harmless (genPlace rho t).
Proof.
  intros rho u e t L P G U. eapply gen_sound; eauto. eapply permits_stor_inv; eauto.
Qed.
Print Assumptions C84_generated_partial.

(** Names for the witnesses: Int is 1, Int[4] is 2, a class is 3, Atom is 4. *)
Definition int : sty := mkTy 1 ANot.
Definition w_m : svar := mkVar 10 int true.                (* constant Int m *)
Definition w_b : svar := mkVar 11 int false.               (* Int b *)
Definition w_r : svar := mkVar 12 (mkTy 1 ARef) false.     (* Int & r *)
Definition w_cr : svar := mkVar 13 (mkTy 1 AConst) true.   (* constant Int & cr *)
Definition w_co : svar := mkVar 14 (mkTy 3 AConst) true.   (* constant C & co *)
Definition w_ce : svar := mkVar 15 (mkTy 3 ANot) true.     (* constant C ce *)
Definition w_K : raw := RConst 16 (mkTy 2 ANot) true.      (* constant Int[4] K = {..} *)

(** [(c ? m : b) = 1] changes the constant parameter m, in the evaluator and
    in the generated code; every use of the expression is accepted. *)
Theorem C84_choice_refuted : exists e t, label e = Some t
  /\ (forall u, permits u t = true)
  /\ (forall rho, rho 0 = true ->
       evalPlace rho t = Some (PVar w_m) /\ genPlace rho t = Some (PVar w_m))
  /\ constantName (TgVar w_m).
Proof.
  exists (RQuest 0 0 (RVar w_m) (RVar w_b)). eexists.
  split; [reflexivity |]. split; [intros []; reflexivity |]. split.
  - intros rho H. cbn. rewrite H. split; reflexivity.
  - left; reflexivity.
Qed.
Print Assumptions C84_choice_refuted.

(** [(c ? r : cr) = 1] changes what the constant reference cr refers to. *)
Theorem C84_constref_refuted : exists e t, label e = Some t
  /\ (forall u, permits u t = true)
  /\ (forall rho, rho 0 = false ->
       evalPlace rho t = Some (PVar w_cr) /\ genPlace rho t = Some (PVar w_cr))
  /\ constantName (TgVar w_cr).
Proof.
  exists (RQuest 0 0 (RVar w_r) (RVar w_cr)). eexists.
  split; [reflexivity |]. split; [intros []; reflexivity |]. split.
  - intros rho H. cbn. rewrite H. split; reflexivity.
  - left; reflexivity.
Qed.
Print Assumptions C84_constref_refuted.

(** [(c ? K\[i\] : b) = 1] changes an item of the named constant K in the
    evaluator. *)
Theorem C84_named_refuted : exists e t, label e = Some t
  /\ (forall u, permits u t = true)
  /\ (forall rho, rho 0 = true -> evalPlace rho t = Some (PConst 16)).
Proof.
  exists (RQuest 0 0 (RIndex w_K 1) (RVar w_b)). eexists.
  split; [reflexivity |]. split; [intros []; reflexivity |].
  intros rho H. cbn. rewrite H. reflexivity.
Qed.
Print Assumptions C84_named_refuted.

(** [((Int & ) m) = 1] and [((Int & ) co.x) = 1] are accepted, and the
    generated code does the store (the evaluator fails instead). *)
Theorem C84_cast_refuted : forall e, e = RVar w_m \/ e = RMember (RVar w_co) 7 int ->
  exists t v, label (RCast (mkTy 1 ARef) e) = Some t
  /\ (forall u, permits u t = true)
  /\ (forall rho, genPlace rho t = Some (PVar v) /\ evalPlace rho t = None)
  /\ constantName (TgVar v).
Proof.
  intros e [H | H]; subst e; eexists; [exists w_m | exists w_co];
    (split; [reflexivity |]); (split; [intros []; reflexivity |]);
    (split; [intros rho; split; reflexivity |]); left; reflexivity.
Qed.
Print Assumptions C84_cast_refuted.

(** A constant reference itself cannot be cast so: only parts of it. *)
Theorem C84_cast_constref : forall v b e,
  ty_alt (v_ty v) = AConst -> e = RVar v -> label (RCast (mkTy b ARef) e) = None.
Proof.
  intros v b e H E; subst e. cbn. unfold castable, isConstRef. rewrite H. cbn.
  rewrite andb_false_r. reflexivity.
Qed.
Print Assumptions C84_cast_constref.

(** Nor can a named constant, or a part of one, be cast to a reference. *)
Theorem C84_cast_named : forall t n k slot e, (t = ARef \/ t = AConst) ->
  e = RConst n k slot \/ (exists m u, e = RMember (RConst n k slot) m u) \/ (exists u, e = RBase (RConst n k slot) u) ->
  label (RCast (mkTy (ty_base k) t) e) = None.
Proof.
  intros t n k slot e H [-> | [(m & u & ->) | (u & ->)]]; cbn; rewrite andb_false_intro2; auto; destruct H as [-> | ->]; reflexivity.
Qed.
Print Assumptions C84_cast_named.

(** What an assignment inside of an expression stores into has been checked
    as well. *)
Theorem C84_inner : forall e r t x,
  label (RAssign e r) = Some t -> guarded e = true -> uncast e = true ->
  standsFor e x -> ~ constantName x.
Proof.
  intros e r t x L G U F. cbn [label] in L. destruct (label e) as [e'|] eqn:E; [|discriminate].
  destruct (label r); [|discriminate]. destruct (stor e') eqn:S; [|discriminate]. eapply label_sound; eauto.
Qed.
Print Assumptions C84_inner.

(** A call of a function whose result is not of a class may be stored into,
    bound or passed on exactly if the result is a reference. *)
Theorem C85_call : forall u t,
  (exists t', label (RCall t false) = Some t' /\ permits u t' = true) <-> ty_alt t = ARef \/ ty_alt t = AConst.
Proof.
  intros u [b a]. split.
  - intros (t' & L & P). injection L as <-. destruct u, a; cbn in *; auto; discriminate.
  - intros H. eexists. split; [reflexivity|]. cbn in H. destruct H as [-> | ->]; destruct u; reflexivity.
Qed.
Print Assumptions C85_call.

(** [ce.atomof = a] changes the constant parameter ce. *)
Theorem C84_atomof_refuted : exists e t, label e = Some t
  /\ (forall u, permits u t = true)
  /\ (forall rho, evalPlace rho t = Some (PVar w_ce))
  /\ constantName (TgVar w_ce).
Proof.
  exists (RAtomof w_ce 4). eexists.
  split; [reflexivity |]. split; [intros []; reflexivity |].
  split; [intros rho; reflexivity | left; reflexivity].
Qed.
Print Assumptions C84_atomof_refuted.

(** [arr\[i\].x] of a plain variable is permitted, of a constant reference it
    is not; a checked choice between two plain places is permitted. *)
Example C84_ex :
  let arr := mkVar 20 (mkTy 5 ANot) false in
  let carr := mkVar 21 (mkTy 5 AConst) true in
  let sel v := RMember (RIndex (RVar v) 3) 7 int in
  let ch := RQuest 0 0 (sel arr) (RVar w_b) in
  selection (sel arr) = true /\ selection (sel carr) = true
  /\ (exists t, label (sel arr) = Some t /\ permits UArgument t = true)
  /\ (exists t, label (sel carr) = Some t /\ permits UArgument t = false)
  /\ standsFor (sel carr) (TgVar carr)
  /\ guarded ch = true /\ uncast ch = true
  /\ (exists t, label ch = Some t /\ permits UAssign t = true
        /\ evalPlace (fun _ => true) t = Some (PVar arr)).
Proof.
  cbn zeta. repeat split; try reflexivity.
  - eexists; split; reflexivity.
  - eexists; split; reflexivity.
  - repeat constructor.
  - eexists; repeat split; reflexivity.
Qed.

(** Variables, selections, checked choices and checked casts: whenever the
    compiler permits the assignment, the evaluator and the generated code
    store into the very name the expression reaches. *)
Theorem C85_stored_partial : forall rho u e t,
  label e = Some t -> permits u t = true -> placed e = true ->
  guarded e = true -> guardedCasts e = true ->
  exists v, reaches rho e v
    /\ evalPlace rho t = Some (PVar v) /\ genPlace rho t = Some (PVar v).
Proof.
  intros rho u e t L P A G C. eapply placed_both; eauto. eapply permits_stor_inv; eauto.
Qed.
Print Assumptions C85_stored_partial.

(** [(a = b) = c] is accepted; the evaluator stores c into a temporary, and
    the code generator gives up. *)
Theorem C85_assignment_refuted : forall a r t,
  label a = Some t -> stor t = true -> (exists tr, label r = Some tr) ->
  exists t2, label (RAssign a r) = Some t2 /\ (forall u, permits u t2 = true)
  /\ forall rho, genPlace rho t2 = None
     /\ (evalPlace rho t2 = None \/ evalPlace rho t2 = Some PTemp).
Proof.
  intros a r t L S [tr R]. cbn. rewrite L, R, S. eexists. split; [reflexivity |]. split.
  - intros []; cbn; rewrite ?S; reflexivity.
  - intros rho. cbn. split; [reflexivity |]. destruct (evalPlace rho t); auto.
Qed.
Print Assumptions C85_assignment_refuted.

(** [(c ? b + 1 : b) = 2] is accepted, though there is nothing to store into. *)
Theorem C85_value_refuted : exists e t, label e = Some t
  /\ (forall u, permits u t = true)
  /\ (forall rho, rho 0 = true -> evalPlace rho t = None /\ genPlace rho t = None).
Proof.
  exists (RQuest 0 0 (RVal int false) (RVar w_b)). eexists.
  split; [reflexivity |]. split; [intros []; reflexivity |].
  intros rho H. cbn. rewrite H. split; reflexivity.
Qed.
Print Assumptions C85_value_refuted.

Example C85_ex :
  let e := RCast (mkTy 1 ARef) (RQuest 0 0 (RVar w_r) (RMember (RVar (mkVar 22 (mkTy 3 ANot) false)) 7 int)) in
  placed e = true /\ guarded e = true /\ guardedCasts e = true
  /\ (exists t, label e = Some t /\ permits URefInit t = true
       /\ evalPlace (fun _ => true) t = Some (PVar w_r))
  /\ reaches (fun _ => true) e w_r.
Proof.
  cbn zeta. repeat split; try reflexivity.
  - eexists; repeat split; reflexivity.
  - constructor. apply RcTrue; [reflexivity | constructor].
Qed.
