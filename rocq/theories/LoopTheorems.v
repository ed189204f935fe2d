(** C34: break and continue reach the right place in the generated code.
    C58: the compile-time evaluator and the generated code run the same statements.  *)
From Coq Require Import String List NArith ZArith Lia Bool.
From Coq Require Import ZifyBool ZifyNat ZifyN.
From Verif Require Import Base LoopModel LoopSpec LoopProofs.
Import ListNotations.
Open Scope N_scope.

Ltac pstep := try (simpl (placed _ _ _) in * ); try (simpl placed_cases in * ).

Lemma placed_brk : forall s lp, placed lp false s = true -> cbrk s = 0.
Proof.
  induction s; intros lp H; pstep; cstep; try reflexivity; try discriminate H;
    apply andb_prop in H; destruct H as (H1 & H2); apply IHs1 in H1; apply IHs2 in H2; lia.
Qed.

Lemma placed_cont :
  (forall s sw, placed false sw s = true -> ccont s = 0) /\
  (forall cs, placed_cases false cs = true -> ccont_cases cs = 0).
Proof.
  apply stmt_mut; intros; pstep; cstep; try reflexivity; try discriminate;
    try (apply andb_prop in H1; destruct H1 as (H1 & H2); apply H in H1; apply H0 in H2; lia);
    eauto.
Qed.

(** A well placed program ends normally or by return.  *)
Lemma placed_ends : forall S act cond f s t o t', placed false false s = true ->
  meaning S act cond f s t = Some (o, t') -> o = Done \/ o = Returned.
Proof.
  intros S act cond f s t o t' Hp H. apply (proj1 (meaning_counts S act cond f)) in H.
  pose proof (placed_brk _ _ Hp). pose proof (proj1 placed_cont _ _ Hp).
  destruct o; auto; exfalso; [destruct H as (H & _)|destruct H as (_ & H)];
    specialize (H eq_refl); lia.
Qed.

(** A function body is accepted exactly when each break stands in a loop or switch and
    each continue in a loop, whatever the build and the numbers used so far.  *)
Theorem C34_accepted : forall asserts s k,
  (exists r, parse asserts s [] k = Some r) <-> placed false false s = true.
Proof.
  intros a s k. pose proof (proj1 (parse_accepts a) s [] k (Forall_nil _)) as E.
  change (in_loop []) with false in E. change (in_any []) with false in E.
  rewrite <- E. clear E. destruct (parse a s [] k) as [r|]; cbn; split; intros H; eauto; try discriminate H.
  destruct H as (r & H). discriminate H.
Qed.
Print Assumptions C34_accepted.

(** A construct leaves the stack as it found it, apart from the counted uses: what
    follows it sees the same enclosing loops and switches.  *)
Theorem C34_stack : forall asserts s st k p st' k',
  parse asserts s st k = Some (p, st', k') ->
  map (fun e => (ent_loop e, ent_exit e)) st' = map (fun e => (ent_loop e, ent_exit e)) st.
Proof.
  intros a s st k p st' k' H. apply (proj1 (parse_stack a)) in H. subst.
  change (shape (add_b (cbrk s) (add_c (ccont s) st)) = shape st).
  rewrite shape_add_b, shape_add_c. reflexivity.
Qed.
Print Assumptions C34_stack.

(** In the code of a function no label occurs twice, every goto has its label, and in a
    build without assertions every label has a goto.  *)
Theorem C34_labels : forall asserts s k p st' k',
  parse asserts s [] k = Some (p, st', k') ->
  NoDup (labels p) /\
  (forall n, In n (gotos p) -> In n (labels p)) /\
  (asserts = false -> forall n, In n (labels p) -> In n (gotos p)).
Proof.
  intros a s k p st' k' H.
  pose proof (proj1 (parse_labels a) _ _ _ _ _ _ H) as (_ & _ & Hl).
  pose proof (proj1 (parse_gotos a) _ _ _ _ _ _ H (Forall_nil _)) as (Hg & _ & Hu).
  assert (Hp : placed false false s = true) by (apply (C34_accepted a s k); eauto).
  split; [exact Hl|]. split; [|exact Hu].
  intros n Hn. apply Hg in Hn. destruct Hn as [Hn|Hn]; [exact Hn|].
  rewrite (placed_brk _ _ Hp), (proj1 placed_cont _ _ Hp) in Hn.
  destruct Hn as [(Hz & _)|(Hz & _)]; lia.
Qed.
Print Assumptions C34_labels.

(** The labels of two functions (or of any two constructs) compiled one after the other
    are distinct as well: the numbers go up.  *)
Theorem C34_numbers : forall asserts s st k p st' k',
  parse asserts s st k = Some (p, st', k') ->
  k <= k' /\ forall n, In n (labels p) -> k < n <= k'.
Proof.
  intros a s st k p st' k' H.
  apply (proj1 (parse_labels a)) in H. destruct H as (H1 & H2 & _). auto.
Qed.
Print Assumptions C34_numbers.

(** The result of a function body: it ends normally or by return.  *)
Definition code_end (o : outcome) : cstat :=
  match o with Returned => C_RETURN | _ => C_END end.

(** The generated code of a function body does what the statements mean: same result,
    same final state, and with the same number of loop turns, so one terminates exactly
    when the other does.  In particular a break leaves the nearest loop or switch and a
    continue goes on with the step and next turn of the nearest loop.  *)
Theorem C34_code : forall asserts S (act : N -> S -> S) (cond : N -> S -> bool * S)
    s k p st' k' f t,
  parse asserts s [] k = Some (p, st', k') ->
  cxx S act cond f p None t
  = match meaning S act cond f s t with
    | Some (o, t') => Some (code_end o, t')
    | None => None
    end.
Proof.
  intros a S act cond s k p st' k' f t H.
  assert (Hp : placed false false s = true) by (apply (C34_accepted a s k); eauto).
  rewrite (proj1 (cxx_meaning a S act cond f) _ _ _ _ _ _ H (Forall_nil _) t).
  destruct (meaning S act cond f s t) as [[o t']|] eqn:E; [|reflexivity].
  apply placed_ends in E; [|exact Hp]. destruct E; subst; reflexivity.
Qed.
Print Assumptions C34_code.

(** The number of turns allowed does not matter once it is enough.  *)
Theorem C34_turns : forall S (act : N -> S -> S) (cond : N -> S -> bool * S) s f g t r,
  (f <= g)%nat -> meaning S act cond f s t = Some r -> meaning S act cond g s t = Some r.
Proof.
  intros S act cond s f g t r Hle H. induction Hle as [|g Hle IH]; [exact H|].
  apply (proj1 (meaning_mono S act cond g)). exact IH.
Qed.
Print Assumptions C34_turns.

(** The claim that a label is put out only when something jumps to it fails in the default
    build: the assertion in the parser counts as a use, so a loop without any continue
    gets a label.  *)
Theorem C34_unused_label_refuted :
  exists s p st' k', parse true s [] 0 = Some (p, st', k') /\
    exists n, In n (labels p) /\ ~ In n (gotos p).
Proof.
  exists (SWhile 0 (SAct 1)). eexists _, _, _. split; [reflexivity|].
  exists 1. cbn. auto.
Qed.
Print Assumptions C34_unused_label_refuted.

(** Two numbers as a state, for the examples: conditions and actions of test t3902.  *)
Definition ex_act (a : N) (t : Z * Z) : Z * Z :=
  let (i, d) := t in
  match a with
  | 1 => (i - 1, d)%Z              (* --i *)
  | 2 => (i, d + 5)%Z              (* d += 5 *)
  | 3 => (4, 0)%Z                  (* i = 4, d = 0 *)
  | _ => t
  end.
Definition ex_cond (b : N) (t : Z * Z) : bool * (Z * Z) :=
  let (i, d) := t in
  match b with
  | 1 => ((0 <? i)%Z, t)           (* i > 0 *)
  | 2 => ((1 <? i)%Z, t)           (* i > 1 *)
  | 3 => ((i =? 2)%Z, t)           (* i == 2 *)
  | _ => (true, t)
  end.

(** A loop around a switch: the continue in the switch belongs to the loop, the break in
    it to the switch, the last break to the loop.  *)
Definition ex_nest : stmt :=
  SSeq (SAct 3)
  (SFor 1 (SSeq (SSwitch 0 (CCase 3 [] SContinue (CDefault (SIf 2 SBreak SReturn))))
                (SSeq (SAct 2) (SIf 4 SSkip SBreak))) 1).

Example C34_ex :
  placed false false ex_nest = true /\
  (exists p st' k', parse true ex_nest [] 7 = Some (p, st', k') /\
     labels p = [9; 8] /\ gotos p = [8; 9] /\
     cxx (Z * Z) ex_act ex_cond 10 p None (0, 0)%Z = Some (C_RETURN, (1, 10)%Z)) /\
  placed false false (SSeq (SWhile 1 SBreak) (SSwitch 0 (CDefault SContinue))) = false.
Proof.
  split; [vm_compute; reflexivity|]. split; [|vm_compute; reflexivity].
  eexists _, _, _. split; [vm_compute; reflexivity|].
  split; [vm_compute; reflexivity|]. split; vm_compute; reflexivity.
Qed.

(** ** C58 *)

Definition eval_end (o : outcome) : estat :=
  match o with Returned => E_RETURN | _ => E_NORMAL end.

(** On programs without a continue of a for loop and without statements after a break of
    a switch, the evaluator does what the statements mean.  Missing for the full claim:
    programs with either of these, for which it is false.  *)
Theorem C58_eval_partial : forall asserts S (act : N -> S -> S) (cond : N -> S -> bool * S)
    s k p st' k' f t,
  parse asserts s [] k = Some (p, st', k') -> plain false false s = true ->
  eval S act cond f p t
  = match meaning S act cond f s t with
    | Some (o, t') => Some (eval_end o, t')
    | None => None
    end.
Proof.
  intros a S act cond s k p st' k' f t H Hpl.
  assert (Hp : placed false false s = true) by (apply (C34_accepted a s k); eauto).
  rewrite (proj1 (eval_meaning a S act cond f) _ _ _ _ _ _ false H (Forall_nil _) Hpl t).
  cbn [top_sw].
  destruct (meaning S act cond f s t) as [[o t']|] eqn:E; [|reflexivity].
  apply placed_ends in E; [|exact Hp]. destruct E; subst; reflexivity.
Qed.
Print Assumptions C58_eval_partial.

(** So on these programs the evaluator and the generated code agree.  *)
Definition same_end (e : estat) (c : cstat) : Prop :=
  (e = E_NORMAL /\ c = C_END) \/ (e = E_RETURN /\ c = C_RETURN).

Theorem C58_agree_partial : forall asserts S (act : N -> S -> S) (cond : N -> S -> bool * S)
    s k p st' k' f t,
  parse asserts s [] k = Some (p, st', k') -> plain false false s = true ->
  (exists e c t', eval S act cond f p t = Some (e, t') /\
                  cxx S act cond f p None t = Some (c, t') /\ same_end e c) \/
  (eval S act cond f p t = None /\ cxx S act cond f p None t = None).
Proof.
  intros a S act cond s k p st' k' f t H Hpl.
  rewrite (C58_eval_partial _ _ _ _ _ _ _ _ _ _ _ H Hpl), (C34_code _ _ _ _ _ _ _ _ _ _ _ H).
  destruct (meaning S act cond f s t) as [[o t']|]; [left|right; auto].
  eexists _, _, _. split; [reflexivity|]. split; [reflexivity|].
  unfold same_end. destruct o; cbn; auto.
Qed.
Print Assumptions C58_agree_partial.

(** The loop of test t3902 (times(4,5)): a continue in a for loop.  *)
Definition ex_t3902 : stmt :=
  SSeq (SAct 3) (SFor 1 (SSeq (SIf 2 (SSeq (SAct 1) SContinue) SSkip) (SAct 2)) 1).

(** A continue in a for loop skips the step in the evaluator but not in the generated
    code: t3902 yields 5 in the one and 0 in the other.  *)
Theorem C58_for_continue_refuted :
  exists p st' k', parse true ex_t3902 [] 0 = Some (p, st', k') /\
    cxx (Z * Z) ex_act ex_cond 10 p None (0, 0)%Z = Some (C_END, (0, 0)%Z) /\
    eval (Z * Z) ex_act ex_cond 10 p (0, 0)%Z = Some (E_NORMAL, (0, 5)%Z).
Proof.
  eexists _, _, _. split; [vm_compute; reflexivity|]. split; vm_compute; reflexivity.
Qed.
Print Assumptions C58_for_continue_refuted.

(** A break of a switch does not stop the evaluator from running the rest of the case.  *)
Definition ex_midbreak : stmt :=
  SSeq (SAct 3) (SSwitch 0 (CCase 1 [] (SSeq (SIf 2 SBreak SSkip) (SAct 2)) CNil)).

Theorem C58_switch_break_refuted :
  exists p st' k', parse true ex_midbreak [] 0 = Some (p, st', k') /\
    cxx (Z * Z) ex_act ex_cond 10 p None (0, 0)%Z = Some (C_END, (4, 0)%Z) /\
    eval (Z * Z) ex_act ex_cond 10 p (0, 0)%Z = Some (E_NORMAL, (4, 5)%Z).
Proof.
  eexists _, _, _. split; [vm_compute; reflexivity|]. split; vm_compute; reflexivity.
Qed.
Print Assumptions C58_switch_break_refuted.

(** The two restrictions are needed and are all that is needed for these programs; a while
    loop with continue, a switch with trailing breaks inside it, is plain.  *)
Definition ex_plain : stmt :=
  SSeq (SAct 3)
  (SWhile 1 (SSeq (SAct 1) (SSeq (SSwitch 0 (CCase 3 [2] (SSeq (SAct 2) SBreak)
                                            (CDefault SContinue)))
                                 (SIf 3 SBreak (SAct 2))))).

Example C58_ex :
  plain false false ex_plain = true /\ plain false false ex_t3902 = false /\
  plain false false ex_midbreak = false /\
  exists p st' k', parse true ex_plain [] 0 = Some (p, st', k') /\
    eval (Z * Z) ex_act ex_cond 10 p (0, 0)%Z = Some (E_NORMAL, (2, 15)%Z).
Proof.
  split; [vm_compute; reflexivity|]. split; [vm_compute; reflexivity|].
  split; [vm_compute; reflexivity|].
  eexists _, _, _. split; vm_compute; reflexivity.
Qed.
