(* C65: the evaluator and the generated code agree on values, effects and conditions where the order cannot matter and
   conditions are single bits, and differ otherwise. *)
From Coq Require Import List NArith ZArith Lia Bool.
From Coq Require Import ZifyBool ZifyNat ZifyN.
Import ListNotations.
From Verif Require Import UTypeModel PrimModel OrderModel OrderSpec OrderProofs.
Open Scope N_scope.

(* a program in which no operand, index or argument writes what its neighbour uses, and in which conditions are single bits,
   ends the same way: same failure, or same contents of every variable *)
Theorem C65_same_end : forall P fr fw wv wo1 wo2 wf wp t s k,
  good_prog P fr fw wv wo1 wo2 wf wp -> orderlyS fr fw t -> onebitS wv wo1 wo2 wf wp [] t -> fits wv s ->
  same_end (run_eval P k t s) (run_gen P k t s).
Proof.
  intros P fr fw wv wo1 wo2 wf wp t s k GP O B F.
  destruct (callEv_frame P fr fw (gp_reads _ _ _ _ _ _ _ _ GP) (gp_writes _ _ _ _ _ _ _ _ GP) k) as [CW CR].
  eapply (agreeS P fr fw wv wo1 wo2 wf wp (gp_op1 _ _ _ _ _ _ _ _ GP) (gp_op2 _ _ _ _ _ _ _ _ GP)); eauto.
  - eapply callEv_width; eauto.
  - eapply call_agree; eauto.
  - constructor.
  - apply same_refl.
Qed.
Print Assumptions C65_same_end.

(* and so for the value of an expression *)
Theorem C65_same_value : forall P fr fw wv wo1 wo2 wf wp e n s k,
  good_prog P fr fw wv wo1 wo2 wf wp -> orderly fr fw e -> onebit e -> width wv wo1 wo2 wf wp [] e n -> fits wv s ->
  same_val (evalE P (callEv P k) [] e s) (genE P (callGen P k) [] e s).
Proof.
  intros P fr fw wv wo1 wo2 wf wp e n s k GP O B W F. apply sameV_val.
  destruct (callEv_frame P fr fw (gp_reads _ _ _ _ _ _ _ _ GP) (gp_writes _ _ _ _ _ _ _ _ GP) k) as [CW CR].
  eapply (proj1 (agreeE P fr fw wv wo1 wo2 wf wp (gp_op1 _ _ _ _ _ _ _ _ GP) (gp_op2 _ _ _ _ _ _ _ _ GP) _ _
    (callEv_width P fr fw wv wo1 wo2 wf wp GP k) CW CR (call_agree P fr fw wv wo1 wo2 wf wp GP k) [] [] (Forall2_nil _))); eauto.
  apply same_refl.
Qed.
Print Assumptions C65_same_value.

(* ---- a program to try: operator 0 adds in 8 bits, operator 1 compares, function 0(p) counts variable 9 down to zero and
   returns its parameter plus variable 3 ---- *)
Definition add8 (x y : N) : N := (x + y) mod 256.
Definition demo : prog := {|
  p_op1 := fun f x => Some (x mod 256);
  p_op2 := fun f x y => match f with 0 => Some (add8 x y) | 1 => Some (if x =? y then 1 else 0) | _ => None end;
  p_body := fun f => (SWhile 1 (EBin 1 (EBin 1 (ERead (LVar 9)) (ELit 0)) (ELit 0)) (SExpr (EOp 0 (LVar 9) (ELit 255))),
                      EBin 0 (EParam 0) (ERead (LVar 3))) |}.
Definition wd_v (x : N) : N := 8.
Definition wd_o2 (f : N) : N := match f with 1 => 1 | _ => 8 end.

Ltac wd := cbn; repeat match goal with
  | |- _ /\ _ => split
  | |- exists m, _ => first [solve [exists 8; wd] | solve [exists 1; wd]]
  | |- True => exact I
  | |- _ = _ => reflexivity
  | |- _ < _ => reflexivity
  end.

Lemma demo_good : good_prog demo (fun _ => [3; 9]) (fun _ => [9]) wd_v wd_v wd_o2 wd_v (fun _ => [8]).
Proof.
  constructor.
  - intros f x r H. cbn in H. injection H as <-. unfold wd_v. change (2 ^ 8) with 256. apply N.mod_lt. discriminate.
  - intros f x y r H. cbn in H. destruct f as [|[| |]]; try discriminate; cbn [wd_o2].
    + injection H as <-. change (2 ^ 8) with 256. apply N.mod_lt. discriminate.
    + injection H as <-. destruct (x =? y); reflexivity.
  - intros f x H. cbn in *. tauto.
  - intros f x H. cbn in *. tauto.
  - intros f. unfold indep. cbn. repeat split; auto; intros; try tauto.
  - intros f. wd.
Qed.

(* a[i] = f(5) == 8 ? 1 : i++ , with i = 1, variable 3 = 3, the counter at 2 *)
Definition tryit : stmt :=
  SIf 1 (EBin 1 (ERead (LVar 1)) (ELit 1))
    (SExpr (EAssign (LIdx 2 4 (ERead (LVar 1)))
      (ECond (EBin 1 (ECall 0 (ECons (ELit 5) ENil)) (ELit 8)) (ELit 1) (EPost 0 (LVar 7) (ELit 1))))) SSkip.
Definition st0 : store := fun x i => match x with 1 => 1 | 3 => 3 | 9 => 2 | _ => 0 end.

Example C65_ex : orderlyS (fun _ => [3; 9]) (fun _ => [9]) tryit /\ onebitS wd_v wd_v wd_o2 wd_v (fun _ => [8]) [] tryit /\
  fits wd_v st0 /\
  (exists s, run_eval demo 10 tryit st0 = Some s /\ s 2 1 = 1 /\ s 9 0 = 0) /\
  (exists s, run_gen demo 10 tryit st0 = Some s /\ s 2 1 = 1 /\ s 9 0 = 0).
Proof.
  split; [|split; [|split; [|split]]].
  - unfold indep. cbn. repeat split; auto; intros; cbn in *; lia.
  - wd.
  - intros x i. unfold st0, wd_v. destruct x as [|p]; [reflexivity|].
    do 4 (destruct p as [p|p|]; try reflexivity).
  - eexists. split; [vm_compute; reflexivity|]. split; reflexivity.
  - eexists. split; [vm_compute; reflexivity|]. split; reflexivity.
Qed.

(* ---- where they differ ---- *)
Definition z0 : store := fun _ _ => 0.

(* x + (x = 5), x being 0: 5 by the evaluator, 10 by the generated code *)
Theorem C65_operand_order_refuted : exists e,
  onebit e /\ width wd_v wd_v wd_o2 wd_v (fun _ => [8]) [] e 8 /\
  (exists s, evalE demo (callEv demo 3) [] e z0 = Some (5, s)) /\
  (exists s, genE demo (callGen demo 3) [] e z0 = Some (10, s)).
Proof.
  exists (EBin 0 (ERead (LVar 1)) (EAssign (LVar 1) (ELit 5))). 
  split; [wd|]. split; [wd|]. split.
  - eexists. vm_compute. reflexivity.
  - eexists. vm_compute. reflexivity.
Qed.
Print Assumptions C65_operand_order_refuted.

(* a[i] = (i = 2), i being 0: the evaluator stores into a[0], the generated code into a[2] *)
Theorem C65_store_order_refuted : exists e,
  onebit e /\ width wd_v wd_v wd_o2 wd_v (fun _ => [8]) [] e 8 /\
  (exists s, evalE demo (callEv demo 3) [] e z0 = Some (2, s) /\ s 2 0 = 2 /\ s 2 2 = 0) /\
  (exists s, genE demo (callGen demo 3) [] e z0 = Some (2, s) /\ s 2 0 = 0 /\ s 2 2 = 2).
Proof.
  exists (EAssign (LIdx 2 4 (ERead (LVar 1))) (EAssign (LVar 1) (ELit 2))).
  split; [wd|]. split; [wd|]. split.
  - eexists. split; [vm_compute; reflexivity|]. split; reflexivity.
  - eexists. split; [vm_compute; reflexivity|]. split; reflexivity.
Qed.
Print Assumptions C65_store_order_refuted.

(* f(x = 1, x = 2): the evaluator leaves 1 in x, the generated code 2 *)
Definition first2 : prog := {| p_op1 := fun _ _ => None; p_op2 := fun _ _ _ => None; p_body := fun _ => (SSkip, EParam 0) |}.
Theorem C65_argument_order_refuted : exists e,
  onebit e /\ width wd_v wd_v wd_o2 wd_v (fun _ => [8; 8]) [] e 8 /\
  (exists s, evalE first2 (callEv first2 3) [] e z0 = Some (1, s) /\ s 1 0 = 1) /\
  (exists s, genE first2 (callGen first2 3) [] e z0 = Some (1, s) /\ s 1 0 = 2).
Proof.
  exists (ECall 0 (ECons (EAssign (LVar 1) (ELit 1)) (ECons (EAssign (LVar 1) (ELit 2)) ENil))).
  split; [wd|]. split; [wd|]. split.
  - eexists. split; [vm_compute; reflexivity|]. reflexivity.
  - eexists. split; [vm_compute; reflexivity|]. reflexivity.
Qed.
Print Assumptions C65_argument_order_refuted.

(* ---- conditions ---- *)

(* an if on a Bool(n), n at most 32: the evaluator takes the body when a bit is set, the generated code when most bits are *)
Theorem C65_if_branches : forall P ce cg k n c a b s v s1,
  n <= 32 -> evalE P ce [] c s = Some (v, s1) -> genE P cg [] c s = Some (v, s1) ->
  evalS P ce [] k (SIf n c a b) s = (if v =? 0 then evalS P ce [] k b s1 else evalS P ce [] k a s1) /\
  (truth n v -> genS P cg [] k (SIf n c a b) s = genS P cg [] k a s1) /\
  (~ truth n v -> genS P cg [] k (SIf n c a b) s = genS P cg [] k b s1).
Proof.
  intros P ce cg k n c a b s v s1 Hn HE HG. cbn [evalS genS]. fold (evalS P ce []) (genS P cg []). rewrite HE, HG.
  replace (32 <? n) with false by lia. split; auto. rewrite <- cbool_truth.
  destruct (cbool n v); split; intros; congruence.
Qed.
Print Assumptions C65_if_branches.

(* they take the same branch exactly when the bits are all zero or mostly one *)
Theorem C65_branch_agrees : forall n v, (negb (v =? 0) = cbool n v) <-> (v = 0 \/ truth n v).
Proof.
  intros n v. rewrite <- cbool_truth. destruct (N.eqb_spec v 0) as [->|H]; cbn [negb].
  - split; auto. intros _. assert (~ truth n 0).
    { unfold truth. assert (forall k, ones k 0 = 0%nat) as -> by (induction k; auto). lia. }
    rewrite <- cbool_truth in H. destruct (cbool n 0); congruence.
  - split; [intros <-; auto|]. intros [|]; congruence.
Qed.
Print Assumptions C65_branch_agrees.

(* so Bool(3) with the bits 001 is true to the evaluator and false to the generated code, in if and in while *)
Theorem C65_condition_refuted : exists P t s,
  (exists s1, run_eval P 5 t s = Some s1 /\ s1 1 0 = 1) /\ (exists s1, run_gen P 5 t s = Some s1 /\ s1 1 0 = 2).
Proof.
  exists demo, (SIf 3 (ERead (LVar 4)) (SExpr (EAssign (LVar 1) (ELit 1))) (SExpr (EAssign (LVar 1) (ELit 2)))),
    (fun x _ => if x =? 4 then 1 else 0).
  split; eexists; (split; [vm_compute; reflexivity|reflexivity]).
Qed.
Print Assumptions C65_condition_refuted.

Theorem C65_loop_refuted : exists P t s,
  (forall k, run_eval P k t s = None) /\ (exists s1, run_gen P 5 t s = Some s1).
Proof.
  exists demo, (SWhile 3 (ERead (LVar 4)) SSkip), (fun x _ => if x =? 4 then 1 else 0). split.
  - intros k. unfold run_eval. cbn [evalS].
    match goal with |- ?loop k ?z = None => assert (G : forall j, loop j z = None) end.
    { induction j; [reflexivity|]. cbn -[N.ltb]. exact IHj. }
    apply G.
  - eexists. reflexivity.
Qed.
Print Assumptions C65_loop_refuted.

(* && with a Bool of more than 32 bits stops the evaluator, whatever its operands; the generated code works *)
Theorem C65_wide_and_refuted : forall P ce cg n a b s v w s1 s2, 32 < n ->
  genE P cg [] a s = Some (v, s1) -> genE P cg [] b s1 = Some (w, s2) ->
  evalE P ce [] (EAnd n a b) s = None /\ evalE P ce [] (EOr n a b) s = None /\
  genE P cg [] (EAnd n a b) s <> None /\ genE P cg [] (EOr n a b) s <> None.
Proof.
  intros P ce cg n a b s v w s1 s2 Hn HA HB. cbn [evalE genE]. fold (evalE P ce []) (genE P cg []). rewrite HA.
  replace (32 <? n) with true by lia.
  split; [|split; [|split]].
  - destruct (evalE P ce [] a s) as [[? ?]|]; reflexivity.
  - destruct (evalE P ce [] a s) as [[? ?]|]; reflexivity.
  - destruct (cbool n v); [rewrite HB|]; discriminate.
  - destruct (cbool n v); [|rewrite HB]; discriminate.
Qed.
Print Assumptions C65_wide_and_refuted.

(* ---- short circuits: when the left side decides, the right side is not run; its effects never happen. For any right side,
   orderly or not ---- *)
Theorem C65_short_circuit : forall P ce cg n a b s v s1, n <= 32 ->
  (evalE P ce [] a s = Some (v, s1) -> ~ truth n v -> exists r, evalE P ce [] (EAnd n a b) s = Some (r, s1) /\ ~ truth n r) /\
  (evalE P ce [] a s = Some (v, s1) -> truth n v -> exists r, evalE P ce [] (EOr n a b) s = Some (r, s1) /\ truth n r) /\
  (genE P cg [] a s = Some (v, s1) -> ~ truth n v -> exists r, genE P cg [] (EAnd n a b) s = Some (r, s1) /\ ~ truth n r) /\
  (genE P cg [] a s = Some (v, s1) -> truth n v -> exists r, genE P cg [] (EOr n a b) s = Some (r, s1) /\ truth n r).
Proof.
  intros P ce cg n a b s v s1 Hn. cbn [evalE genE]. fold (evalE P ce []) (genE P cg []).
  replace (32 <? n) with false by lia. rewrite <- cbool_truth.
  split; [|split; [|split]]; intros ->; intros HT; destruct (cbool n v) eqn:C; try congruence; eexists; split; try reflexivity;
    rewrite <- cbool_truth; try congruence.
  assert (~ truth n 0).
  { unfold truth. assert (forall k, ones k 0 = 0%nat) as -> by (induction k; auto). lia. }
  rewrite cbool_truth. auto.
Qed.
Print Assumptions C65_short_circuit.

(* when the left side does not decide, the result is the right side's *)
Theorem C65_not_short_circuit : forall P ce cg n a b s v s1, n <= 32 ->
  (evalE P ce [] a s = Some (v, s1) -> truth n v -> evalE P ce [] (EAnd n a b) s = evalE P ce [] b s1) /\
  (evalE P ce [] a s = Some (v, s1) -> ~ truth n v -> evalE P ce [] (EOr n a b) s = evalE P ce [] b s1) /\
  (genE P cg [] a s = Some (v, s1) -> truth n v -> genE P cg [] (EAnd n a b) s = genE P cg [] b s1) /\
  (genE P cg [] a s = Some (v, s1) -> ~ truth n v -> genE P cg [] (EOr n a b) s = genE P cg [] b s1).
Proof.
  intros P ce cg n a b s v s1 Hn. cbn [evalE genE]. fold (evalE P ce []) (genE P cg []).
  replace (32 <? n) with false by lia. rewrite <- cbool_truth.
  split; [|split; [|split]]; intros ->; intros HT; destruct (cbool n v) eqn:C; congruence.
Qed.
Print Assumptions C65_not_short_circuit.

(* the && of Bool(3) 001 and anything: the evaluator hands on 001, the generated code 000 *)
Theorem C65_and_value_refuted : exists P s,
  evalE P (callEv P 1) [] (EAnd 3 (ELit 1) (ELit 7)) s = Some (1, s) /\
  genE P (callGen P 1) [] (EAnd 3 (ELit 1) (ELit 7)) s = Some (0, s).
Proof. exists demo, z0. split; reflexivity. Qed.
Print Assumptions C65_and_value_refuted.
