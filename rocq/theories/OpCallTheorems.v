(* OpCallTheorems.v: C108. *)
From Coq Require Import String List NArith ZArith Lia Bool.
From Coq Require Import ZifyBool ZifyNat ZifyN.
From Verif Require Import Base TypeTableModel FamilyModel FamilyProofs OpDispatchModel OpDispatchSpec OpDispatchTheorems OpCallModel OpCallSpec.
Import ListNotations.
Ltac Zify.zify_post_hook ::= Z.div_mod_to_equations.
Open Scope N_scope.

(* C108: an operator of an object, assignment of an object to another and indexing apart, is a call of the function of that
   operator, with the right operand, or the 1 of x++, or nothing as its argument, whatever the class *)
Theorem C108_own : forall p op, definable p op ->
  exists n name, makeNode p op = Some n /\ function_of op name /\
  forall root bases hzy declares hazyHere matching c ca rhs,
    checkAndLabel root bases hzy declares hazyHere matching n c ca rhs = CallOf name (arguments p).
Proof.
  assert (forall (P : list N -> Prop) l, Forall P l -> forall op, In op l -> P op) as HF.
  { intros P l H op HI. rewrite Forall_forall in H. auto. }
  intros p op H.
  assert (forall op n name, makeNode p op = Some n -> buildCall n = CallOf name (arguments p) -> n <> Equal -> n <> SquareBracket ->
    function_of op name ->
    exists n name, makeNode p op = Some n /\ function_of op name /\
    forall root bases hzy declares hazyHere matching c ca rhs,
      checkAndLabel root bases hzy declares hazyHere matching n c ca rhs = CallOf name (arguments p)) as HB.
  { intros o n name E1 E2 N1 N2 HN. exists n, name. split; auto. split; auto. intros. unfold checkAndLabel. destruct n; auto; contradiction. }
  destruct p; revert op H; apply HF; cbn [map];
    repeat (apply Forall_cons;
      [eapply HB; [vm_compute; reflexivity|vm_compute; reflexivity|discriminate|discriminate|split; vm_compute; reflexivity]|]); constructor.
Qed.
Print Assumptions C108_own.

(* the call tells the operator and its place: different operators of an object never end in the same call *)
Theorem C108_apart : forall p op n p' op' n' root bases hzy declares hazyHere matching c ca rhs root' bases' hzy' declares' hazyHere' matching' c' ca' rhs' name args,
  makeNode p op = Some n -> makeNode p' op' = Some n' ->
  checkAndLabel root bases hzy declares hazyHere matching n c ca rhs = CallOf name args ->
  checkAndLabel root' bases' hzy' declares' hazyHere' matching' n' c' ca' rhs' = CallOf name args -> p = p' /\ op = op'.
Proof.
  intros p op n p' op' n' root bases hzy declares hazyHere matching c ca rhs root' bases' hzy' declares' hazyHere' matching' c' ca' rhs' name args M M' E E'.
  assert (forall p op n root bases hzy declares hazyHere matching c ca rhs, makeNode p op = Some n ->
    checkAndLabel root bases hzy declares hazyHere matching n c ca rhs = CallOf name args ->
    args = arguments p /\ getUlamNameIdForOperatorOverloadToken name = txt "operator" ++ op) as HA.
  { clear. intros p op n root bases hzy declares hazyHere matching c ca rhs M E.
    unfold makeNode in M. destruct (find (fun e => text_eqb (fst e) op) (nodes_of p)) as [[o n0]|] eqn:EF; [|discriminate].
    injection M as ->. apply find_some in EF. destruct EF as [HI HE]. cbn [fst] in HE. apply text_eqb_eq in HE. subst o.
    assert (checkAndLabel root bases hzy declares hazyHere matching n c ca rhs = buildCall n \/ n = Equal \/ n = SquareBracket) as HC
      by (destruct n; auto).
    assert (buildCall n = CallOf name args) as EB.
    { destruct HC as [HC|[->| ->]]; [congruence| |].
      - cbn [checkAndLabel] in E. unfold assign in E. destruct (negb rhs); [exact E|]. unfold forMatchingArg in E.
        change (getTokenTypeFromString (getName Equal)) with (Some (txt "=")) in E. cbv iota in E.
        change (getOperatorOverloadFullNameId (txt "=")) with (Some (txt "_operator3d")) in E. cbv iota in E.
        destruct (isFuncIdInAClassScopeOrAncestor root bases hzy declares hazyHere c (txt "_operator3d") false) as [[|] [|]]; try discriminate.
        destruct (matching c (txt "_operator3d")) as [k [|]]; try discriminate. destruct (Nat.leb 1 k); [|discriminate].
        rewrite <- E. vm_compute. reflexivity.
      - cbn [checkAndLabel] in E. unfold squareBracket in E.
        change (getTokenTypeFromString (txt "[]")) with (Some (txt "[]")) in E. cbv iota in E.
        change (getOperatorOverloadFullNameId (txt "[]")) with (Some (txt "_operator5b5d")) in E. cbv iota in E.
        destruct (isFuncIdInAClassScopeOrAncestor root bases hzy declares hazyHere c (txt "_operator5b5d") false) as [[|] [|]]; try discriminate.
        + exact E.
        + destruct ca; discriminate. }
    clear E HC. destruct p; cbn [nodes_of] in HI;
      repeat (destruct HI as [HI|HI]; [injection HI as <- <-; vm_compute in EB; first [discriminate | injection EB as <- <-; split; vm_compute; reflexivity]|]);
      contradiction. }
  destruct (HA _ _ _ _ _ _ _ _ _ _ _ _ M E) as (A1 & A2). destruct (HA _ _ _ _ _ _ _ _ _ _ _ _ M' E') as (B1 & B2).
  split.
  - rewrite A1 in B1. destruct p, p'; auto; discriminate.
  - rewrite A2 in B2. apply app_inv_head in B2. auto.
Qed.
Print Assumptions C108_apart.

(* the conjunction and disjunction of an object are refused: they cannot be defined by a class *)
Theorem C108_logical : forall op, In op [txt "&&"; txt "||"] -> exists n, makeNode Between op = Some n /\
  forall root bases hzy declares hazyHere matching c ca rhs, checkAndLabel root bases hzy declares hazyHere matching n c ca rhs = Error.
Proof.
  intros op [<-|[<-|[]]]; eexists; (split; [vm_compute; reflexivity|]); intros; cbn [checkAndLabel]; vm_compute; reflexivity.
Qed.
Print Assumptions C108_logical.

(* no operator written with an object makes the compiler assert *)
Theorem C108_no_assert : forall p op n root bases hzy declares hazyHere matching c ca rhs, makeNode p op = Some n ->
  checkAndLabel root bases hzy declares hazyHere matching n c ca rhs <> Asserts.
Proof.
  intros p op n root bases hzy declares hazyHere matching c ca rhs _. destruct n; cbn [checkAndLabel];
    try match goal with |- buildCall _ <> _ => vm_compute; discriminate end.
  - unfold assign. destruct (negb rhs); [vm_compute; discriminate|]. unfold forMatchingArg.
    change (getTokenTypeFromString (getName Equal)) with (Some (txt "=")). cbv iota.
    change (getOperatorOverloadFullNameId (txt "=")) with (Some (txt "_operator3d")). cbv iota.
    destruct (isFuncIdInAClassScopeOrAncestor root bases hzy declares hazyHere c (txt "_operator3d") false) as [[|] [|]]; try discriminate.
    destruct (matching c (txt "_operator3d")) as [k [|]]; try discriminate. destruct (Nat.leb 1 k); discriminate.
  - unfold squareBracket.
    change (getTokenTypeFromString (txt "[]")) with (Some (txt "[]")). cbv iota.
    change (getOperatorOverloadFullNameId (txt "[]")) with (Some (txt "_operator5b5d")). cbv iota.
    destruct (isFuncIdInAClassScopeOrAncestor root bases hzy declares hazyHere c (txt "_operator5b5d") false) as [[|] [|]]; try discriminate.
    destruct ca; discriminate.
Qed.
Print Assumptions C108_no_assert.

(* assigning to an object a value that is no object and no atom is a call of operator= *)
Theorem C108_assign_value : forall root bases hzy declares hazyHere matching c ca, exists name,
  function_of (txt "=") name /\ makeNode Between (txt "=") = Some Equal /\
  checkAndLabel root bases hzy declares hazyHere matching Equal c ca false = CallOf name [RightOperand].
Proof.
  intros. exists (txt "_operator3d"). split; [split; vm_compute; reflexivity|]. split; [vm_compute; reflexivity|].
  cbn [checkAndLabel]. unfold assign. cbn [negb]. vm_compute. reflexivity.
Qed.
Print Assumptions C108_assign_value.

(* assigning an object or an atom to an object of a known family: operator= is called if the class or an ancestor has a function
   of that name and one of them takes the right operand; otherwise the object is copied *)
Theorem C108_assign : forall root bases hzy declares hazyHere matching, (forall x, root x < 65536) -> forall c ca,
  all_known root bases hzy hazyHere c ->
  exists name, function_of (txt "=") name /\
  (snd (matching c name) = false ->
   let has := has_function root bases declares c name in let fits := fst (matching c name) <> 0%nat in
   let res := checkAndLabel root bases hzy declares hazyHere matching Equal c ca true in
   (res = CallOf name [RightOperand] <-> has /\ fits) /\ (res = Copies <-> ~ (has /\ fits)) /\ res <> Waits).
Proof.
  intros root bases hzy declares hazyHere matching small c ca HK. exists (txt "_operator3d").
  split; [split; vm_compute; reflexivity|]. intros HM. cbv zeta. cbn [checkAndLabel]. unfold assign. cbn [negb]. unfold forMatchingArg.
  change (getTokenTypeFromString (getName Equal)) with (Some (txt "=")). cbv iota.
  change (getOperatorOverloadFullNameId (txt "=")) with (Some (txt "_operator3d")). cbv iota.
  pose proof (isFunc_found root bases hzy declares hazyHere small c (txt "_operator3d") false) as F.
  pose proof (isFunc_hazy root bases hzy declares hazyHere small c (txt "_operator3d") false HK) as Z.
  destruct (isFuncIdInAClassScopeOrAncestor root bases hzy declares hazyHere c (txt "_operator3d") false) as [f h]. cbn [fst snd] in F, Z.
  destruct (matching c (txt "_operator3d")) as [k hz]. cbn [fst snd] in HM |- *. subst hz.
  destruct f; subst h.
  - assert (has_function root bases declares c (txt "_operator3d")) as HH by (apply F; reflexivity).
    destruct k as [|k]; cbn [Nat.leb].
    + repeat split; try discriminate; try tauto; intros; try tauto; lia.
    + repeat split; auto; try discriminate; try tauto; intros; try tauto; try lia. exfalso. apply H. split; auto.
  - assert (~ has_function root bases declares c (txt "_operator3d")) as HH by (intros A; apply F in A; discriminate).
    repeat split; try discriminate; try tauto; intros; try tauto.
Qed.
Print Assumptions C108_assign.

(* indexing an object of a known family: operator[] if the class or an ancestor has it; otherwise the functions of a custom
   array, if it is one; otherwise an error *)
Theorem C108_index : forall root bases hzy declares hazyHere matching, (forall x, root x < 65536) -> forall c ca rhs,
  all_known root bases hzy hazyHere c ->
  exists name, function_of (txt "[]") name /\
  let has := has_function root bases declares c name in
  let res := checkAndLabel root bases hzy declares hazyHere matching SquareBracket c ca rhs in
  (res = CallOf name [RightOperand] <-> has) /\ (res = CustomArray <-> ~ has /\ ca = true) /\ (res = Error <-> ~ has /\ ca = false).
Proof.
  intros root bases hzy declares hazyHere matching small c ca rhs HK. exists (txt "_operator5b5d").
  split; [split; vm_compute; reflexivity|]. cbv zeta. cbn [checkAndLabel]. unfold squareBracket.
  change (getTokenTypeFromString (txt "[]")) with (Some (txt "[]")). cbv iota.
  change (getOperatorOverloadFullNameId (txt "[]")) with (Some (txt "_operator5b5d")). cbv iota.
  change (helper (txt "[]") (Some RightOperand)) with (CallOf (txt "_operator5b5d") [RightOperand]).
  pose proof (isFunc_found root bases hzy declares hazyHere small c (txt "_operator5b5d") false) as F.
  pose proof (isFunc_hazy root bases hzy declares hazyHere small c (txt "_operator5b5d") false HK) as Z.
  destruct (isFuncIdInAClassScopeOrAncestor root bases hzy declares hazyHere c (txt "_operator5b5d") false) as [f h]. cbn [fst snd] in F, Z.
  destruct f; subst h.
  - assert (has_function root bases declares c (txt "_operator5b5d")) as HH by (apply F; reflexivity).
    repeat split; auto; try discriminate; intros; tauto.
  - assert (~ has_function root bases declares c (txt "_operator5b5d")) as HH by (intros A; apply F in A; discriminate).
    destruct ca; repeat split; auto; try discriminate; intros; try tauto; destruct H; congruence.
Qed.
Print Assumptions C108_index.

(* ---- waiting ---- *)
Lemma isFunc_unsettled root bases hzy declares hazyHere : (forall x, root x < 65536) -> forall c id,
  unsettled root bases hzy hazyHere c -> ~ has_function root bases declares c id ->
  isFuncIdInAClassScopeOrAncestor root bases hzy declares hazyHere c id false = (false, true).
Proof.
  intros small c id (x & HR & HX) HN.
  pose proof (isFunc_found root bases hzy declares hazyHere small c id false) as F. unfold isFuncIdInAClassScopeOrAncestor in *.
  pose proof (lookup_unsettled root bases hzy declares hazyHere the_fuel id [(c, 0)] [] false) as U.
  destruct (lookup root bases hzy declares hazyHere the_fuel id [(c, 0)] [] false) as [f h]. cbn [fst snd] in *.
  destruct f; [exfalso; apply HN, F; reflexivity|]. f_equal. apply U; [reflexivity|]. right. exists x. split; [|exact HX].
  apply (visits_reach root bases small). exists (c, 0). split; [left; reflexivity|exact HR].
Qed.

(* nothing is decided too early: an object is neither copied nor refused nor taken for a custom array while a class of its
   family that may still turn out to have the function is unknown, and the right operand is waited for *)
Theorem C108_waits : forall root bases hzy declares hazyHere matching, (forall x, root x < 65536) -> forall c ca rhs,
  exists eq idx, function_of (txt "=") eq /\ function_of (txt "[]") idx /\
  let label n r := checkAndLabel root bases hzy declares hazyHere matching n c ca r in
  (unsettled root bases hzy hazyHere c -> ~ has_function root bases declares c eq -> label Equal true = Waits) /\
  (unsettled root bases hzy hazyHere c -> ~ has_function root bases declares c idx -> label SquareBracket rhs = Waits) /\
  (all_known root bases hzy hazyHere c -> has_function root bases declares c eq -> snd (matching c eq) = true ->
     label Equal true = Waits).
Proof.
  intros root bases hzy declares hazyHere matching small c ca rhs. exists (txt "_operator3d"), (txt "_operator5b5d").
  split; [split; vm_compute; reflexivity|]. split; [split; vm_compute; reflexivity|]. cbv zeta. cbn [checkAndLabel].
  unfold assign, squareBracket, forMatchingArg. cbn [negb].
  change (getTokenTypeFromString (getName Equal)) with (Some (txt "=")). cbv iota.
  change (getOperatorOverloadFullNameId (txt "=")) with (Some (txt "_operator3d")). cbv iota.
  change (getTokenTypeFromString (txt "[]")) with (Some (txt "[]")). cbv iota.
  change (getOperatorOverloadFullNameId (txt "[]")) with (Some (txt "_operator5b5d")). cbv iota.
  split; [|split].
  - intros HU HN. rewrite isFunc_unsettled by auto. reflexivity.
  - intros HU HN. rewrite isFunc_unsettled by auto. reflexivity.
  - intros HK HH HM.
    pose proof (isFunc_found root bases hzy declares hazyHere small c (txt "_operator3d") false) as F.
    pose proof (isFunc_hazy root bases hzy declares hazyHere small c (txt "_operator3d") false HK) as Z.
    destruct (isFuncIdInAClassScopeOrAncestor root bases hzy declares hazyHere c (txt "_operator3d") false) as [f h]. cbn [fst snd] in F, Z.
    apply F in HH. subst f h. destruct (matching c (txt "_operator3d")) as [k hz]. cbn [snd] in HM. subst hz. reflexivity.
Qed.
Print Assumptions C108_waits.

(* a function that is there, but in a class that is itself hazy, is waited for as well *)
Theorem C108_waits_here : forall root bases hzy declares hazyHere matching c ca rhs, bases (root c) <> None -> hazyHere (root c) = true ->
  exists eq idx, function_of (txt "=") eq /\ function_of (txt "[]") idx /\
  let label n r := checkAndLabel root bases hzy declares hazyHere matching n c ca r in
  (declares (root c) eq = true -> label Equal true = Waits) /\ (declares (root c) idx = true -> label SquareBracket rhs = Waits).
Proof.
  intros root bases hzy declares hazyHere matching c ca rhs HB HZ. exists (txt "_operator3d"), (txt "_operator5b5d").
  split; [split; vm_compute; reflexivity|]. split; [split; vm_compute; reflexivity|]. cbv zeta. cbn [checkAndLabel].
  assert (forall id, declares (root c) id = true ->
    isFuncIdInAClassScopeOrAncestor root bases hzy declares hazyHere c id false = (true, true)) as HI.
  { intros id HD. unfold isFuncIdInAClassScopeOrAncestor. destruct the_fuel eqn:EF; [exfalso; apply (f_equal N.of_nat) in EF; vm_compute in EF; discriminate|].
    cbn [lookup getNextBasePair]. cbn. destruct (bases (root c)); [|congruence]. rewrite HD, HZ. reflexivity. }
  unfold assign, squareBracket, forMatchingArg. cbn [negb].
  change (getTokenTypeFromString (getName Equal)) with (Some (txt "=")). cbv iota.
  change (getOperatorOverloadFullNameId (txt "=")) with (Some (txt "_operator3d")). cbv iota.
  change (getTokenTypeFromString (txt "[]")) with (Some (txt "[]")). cbv iota.
  change (getOperatorOverloadFullNameId (txt "[]")) with (Some (txt "_operator5b5d")). cbv iota.
  split; intros HD; rewrite HI by exact HD; reflexivity.
Qed.
Print Assumptions C108_waits_here.

(* a class 20 with base 21, which has operator= and operator[] *)
Definition ex_bases (x : N) : option (list N) := if x =? 20 then Some [21] else if x =? 21 then Some [] else None.
Definition ex_declares (x : N) (id : list N) : bool := (x =? 21) && (text_eqb id (txt "_operator3d") || text_eqb id (txt "_operator5b5d")).
Lemma ex_reach a x : reach (fun x => x mod 65536) ex_bases a x -> a = 20 \/ a = 21 -> x = 20 \/ x = 21.
Proof.
  induction 1 as [a|a b x (bs & b' & EB & HI & EE) HR IH]; auto. intros HA. apply IH. unfold ex_bases in EB.
  destruct HA as [-> | ->]; cbn in EB; injection EB as <-; [|contradiction]. destruct HI as [<-|[]]. right. rewrite <- EE. reflexivity.
Qed.

Example C108_ex :
  let r := fun x => x mod 65536 in
  let label n rhs k := checkAndLabel r ex_bases 9 ex_declares (fun _ => false) (fun _ _ => (k, false)) n 20 false rhs in
  definable After (txt "++") /\
  label PostIncr false 0%nat = CallOf (txt "_operator2b2b") [One] /\
  label PreIncr false 0%nat = CallOf (txt "_operator2b2b") [] /\
  label Equal true 1%nat = CallOf (txt "_operator3d") [RightOperand] /\
  label Equal true 0%nat = Copies /\
  label SquareBracket true 0%nat = CallOf (txt "_operator5b5d") [RightOperand] /\
  (forall x, r x < 65536) /\ all_known r ex_bases 9 (fun _ => false) 20.
Proof.
  cbv zeta. split; [left; reflexivity|]. repeat (split; [vm_compute; reflexivity|]). split; [intros x; lia|].
  intros x HR. split; auto. apply ex_reach in HR; [lia|left; reflexivity].
Qed.

(* class 20 with the unknown base 9: neither function is found, and both uses wait *)
Example C108_waits_ex :
  let r := fun x => x mod 65536 in
  let b := fun x => if x =? 20 then Some [9] else None in
  let label n := checkAndLabel r b 9 (fun _ _ => false) (fun _ => false) (fun _ _ => (0%nat, false)) n 20 true true in
  unsettled r b 9 (fun _ => false) 20 /\ (forall id, ~ has_function r b (fun _ _ => false) 20 id) /\
  label Equal = Waits /\ label SquareBracket = Waits.
Proof.
  cbv zeta. split; [|split; [|split; vm_compute; reflexivity]].
  - exists 9. split; [|right; split; reflexivity]. eapply reach_step; [|apply reach_refl]. exists [9], 9. repeat split. left. reflexivity.
  - intros id (x & _ & _ & H). discriminate.
Qed.
