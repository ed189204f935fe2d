(* RetValTheorems.v: C87. *)
From Coq Require Import List NArith ZArith Lia Bool.
From Coq Require Import ZifyBool ZifyNat ZifyN.
From Verif Require Import Base BitVec UTypeModel AtomModel AtomSpec PrimModel PrimSpec PrimProofs PrimTheorems LoopModel LoopSpec LoopTheorems RetValModel RetValSpec.
Import ListNotations.
Open Scope Z_scope.

Scheme mentions_ind2 := Induction for mentions Sort Prop with mentionsC_ind2 := Induction for mentionsC Sort Prop.
Combined Scheme mentions_mut from mentions_ind2, mentionsC_ind2.

Lemma returns_mentions : (forall s, (returns s > 0)%nat -> mentions s) /\ (forall cs, (returnsCases cs > 0)%nat -> mentionsC cs).
Proof.
  apply stmt_mut; cbn [returns returnsCases]; intros; try lia; eauto using mentions, mentionsC.
  - destruct (returns s1); [apply m_second; apply H0; lia|apply m_first; apply H; lia].
  - destruct (returns s1); [apply m_else; apply H0; lia|apply m_then; apply H; lia].
  - destruct (returns s); [apply m_rest; apply H0; lia|apply m_case; apply H; lia].
Qed.
Lemma mentions_returns : (forall s, mentions s -> (returns s > 0)%nat) /\ (forall cs, mentionsC cs -> (returnsCases cs > 0)%nat).
Proof. apply (mentions_mut (fun s _ => (returns s > 0)%nat) (fun cs _ => (returnsCases cs > 0)%nat)); cbn [returns returnsCases]; intros; lia. Qed.

(* A function with a type, with a body that is run, is accepted only if a return statement stands in it; without one it is refused,
   whatever its type but Void. *)
Theorem C87_missing : forall rtn body es, ~ mentions body -> (functionAccepted Ordinary rtn body es = Some true <-> ty_enum rtn = EVoid).
Proof.
  intros rtn body es HN. assert (returns body = 0%nat) as E. { destruct (returns body) eqn:E; auto. exfalso. apply HN. apply returns_mentions. lia. }
  unfold functionAccepted. rewrite E. cbn. unfold isVoid. destruct (ty_enum rtn); cbn; split; congruence.
Qed.
Print Assumptions C87_missing.
(* native functions, pure virtual functions and constructors have nothing to return from *)
Theorem C87_nobody : forall k rtn body es, ~ mentions body -> (functionAccepted k rtn body es = Some true <-> ty_enum rtn = EVoid \/ k = Native \/ k = PureVirtual \/ k = Constructor).
Proof.
  intros k rtn body es HN. assert (returns body = 0%nat) as E. { destruct (returns body) eqn:E; auto. exfalso. apply HN. apply returns_mentions. lia. }
  unfold functionAccepted. rewrite E. cbn. unfold isVoid. destruct k, (ty_enum rtn); cbn; split; auto; try congruence; intros [H|[H|[H|H]]]; congruence.
Qed.
Print Assumptions C87_nobody.

Section Ends.
Variable S : Type.
Variable act : N -> S -> S.
Variable cond : N -> S -> bool * S.
Variable f : nat.

Lemma turns_ends n b body step t o t' : turns S cond n b body step t = Some (o, t') -> o = Done \/ o = Returned.
Proof.
  revert t. induction n as [|n IH]; intros t H; cbn [turns] in H; [discriminate|]. destruct (cond b t) as [v t1]. destruct v; [|injection H as <- <-; auto].
  destruct (body t1) as [[[] t2]|]; try discriminate; eauto; injection H as <- <-; auto.
Qed.
Lemma meaning_switch w cs t : meaning S act cond f (SSwitch w cs) t = match meaning_cases S act cond f cs (act w t) with Some (Broke, t1) => Some (Done, t1) | r => r end.
Proof. reflexivity. Qed.
Lemma cases_default s t : meaning_cases S act cond f (CDefault s) t = meaning S act cond f s t.
Proof. reflexivity. Qed.
Lemma cases_case b bs s r t : meaning_cases S act cond f (CCase b bs s r) t = let (v, t1) := any_label S cond b bs t in if v then meaning S act cond f s t1 else meaning_cases S act cond f r t1.
Proof. reflexivity. Qed.
Lemma cases_nil t : meaning_cases S act cond f CNil t = Some (Done, t).
Proof. reflexivity. Qed.
Lemma placed_ends : (forall s, forall lp sw, placed lp sw s = true -> forall t o t', meaning S act cond f s t = Some (o, t') -> (o = Broke -> sw = true) /\ (o = Continued -> lp = true)) /\
  (forall cs, forall lp, placed_cases lp cs = true -> forall t o t', meaning_cases S act cond f cs t = Some (o, t') -> o = Continued -> lp = true).
Proof.
  apply stmt_mut; intros; try rewrite meaning_switch in *; try rewrite cases_default in *; try rewrite cases_case in *; try rewrite cases_nil in *; cbn [placed placed_cases] in *; try (cbn [meaning] in *).
  - injection H0 as <- <-. split; discriminate.
  - injection H0 as <- <-. split; discriminate.
  - apply andb_prop in H1 as [P1 P2]. destruct (meaning S act cond f s1 t) as [[[] t1]|] eqn:E; try discriminate; [eapply H0; eauto| | |]; injection H2 as <- <-; eapply H; eauto.
  - apply andb_prop in H1 as [P1 P2]. destruct (cond b t) as [[] t1]; [eapply H|eapply H0]; eauto.
  - apply turns_ends in H1 as [-> | ->]; split; discriminate.
  - apply turns_ends in H1 as [-> | ->]; split; discriminate.
  - destruct (meaning_cases S act cond f cs (act w t)) as [[[] t1]|] eqn:E; try discriminate; injection H1 as <- <-; split; try discriminate. intros _. eapply H; eauto.
  - injection H0 as <- <-. split; [auto|discriminate].
  - injection H0 as <- <-. split; [discriminate|auto].
  - injection H0 as <- <-. split; discriminate.
  - injection H0 as <- <-. discriminate.
  - eapply H; eauto.
  - apply andb_prop in H1 as [P1 P2]. destruct (any_label S cond b bs t) as [[] t1]; [eapply H|eapply H0]; eauto.
Qed.
Lemma always_ends : (forall s, always s = true -> forall t o t', meaning S act cond f s t = Some (o, t') -> o = Returned) /\
  (forall cs, alwaysCases cs = true -> forall t o t', meaning_cases S act cond f cs t = Some (o, t') -> o = Returned).
Proof.
  apply stmt_mut; intros; try rewrite meaning_switch in *; try rewrite cases_default in *; try rewrite cases_case in *; try rewrite cases_nil in *; cbn [always alwaysCases] in *; try (cbn [meaning] in *); try discriminate.
  - apply orb_prop in H1 as [HA|HA]; [|apply andb_prop in HA as [HP HA]]; destruct (meaning S act cond f s1 t) as [[o1 t1]|] eqn:E; try discriminate.
    + pose proof (H HA _ _ _ E) as ->. congruence.
    + destruct (proj1 placed_ends s1 _ _ HP _ _ _ E) as [P1 P2]. destruct o1; [eapply H0; eauto|specialize (P1 eq_refl); discriminate|specialize (P2 eq_refl); discriminate|congruence].
  - apply andb_prop in H1 as [P1 P2]. destruct (cond b t) as [[] t1]; [eapply H|eapply H0]; eauto.
  - destruct (meaning_cases S act cond f cs (act w t)) as [[o1 t1]|] eqn:E; try discriminate. pose proof (H H0 _ _ _ E) as ->. congruence.
  - congruence.
  - eapply H; eauto.
  - apply andb_prop in H1 as [P1 P2]. destruct (any_label S cond b bs t) as [[] t1]; [eapply H|eapply H0]; eauto.
Qed.
End Ends.

(* A body with no way through but by a return ends by a return in the generated code, and in the evaluator for the bodies on which it
   runs the statements that are meant (C58). *)
Theorem C87_always_partial : forall asserts S (act : N -> S -> S) (cond : N -> S -> bool * S) s k p st' k' f t,
  parse asserts s [] k = Some (p, st', k') -> always s = true ->
  (forall c t', cxx S act cond f p None t = Some (c, t') -> c = C_RETURN) /\
  (plain false false s = true -> forall e t', eval S act cond f p t = Some (e, t') -> e = E_RETURN).
Proof.
  intros a S act cond s k p st' k' f t HP HA. split.
  - intros c t'. rewrite (C34_code _ _ _ _ _ _ _ _ _ _ _ HP). destruct (meaning S act cond f s t) as [[o t1]|] eqn:E; [|discriminate]. intros [= <- <-]. rewrite (proj1 (always_ends S act cond f) s HA _ _ _ E). reflexivity.
  - intros HPL e t'. rewrite (C58_eval_partial _ _ _ _ _ _ _ _ _ _ _ HP HPL). destruct (meaning S act cond f s t) as [[o t1]|] eqn:E; [|discriminate]. intros [= <- <-]. rewrite (proj1 (always_ends S act cond f) s HA _ _ _ E). reflexivity.
Qed.
Print Assumptions C87_always_partial.

(* Int f(...) { if(b) return 3; } is accepted; when b does not hold both the evaluator and the generated code come to the end of the
   body with nothing returned. *)
Theorem C87_path_refuted : exists body p st' k' e, functionAccepted Ordinary (prim EInt 32 (-1)) body [e] = Some true /\ parse true body [] 0 = Some (p, st', k') /\
  eval unit (fun _ t => t) (fun _ t => (false, t)) 10 p tt = Some (E_NORMAL, tt) /\ cxx unit (fun _ t => t) (fun _ t => (false, t)) 10 p None tt = Some (C_END, tt).
Proof. exists (SIf 0 SReturn SSkip). eexists _, _, _, (RLit (prim EInt 3 (-1)) 3). split; [vm_compute; reflexivity|]. split; [vm_compute; reflexivity|]. split; vm_compute; reflexivity. Qed.
Print Assumptions C87_path_refuted.
(* so is a function whose only return statement is never come to *)
Theorem C87_unreached_refuted : exists body p st' k' e, functionAccepted Ordinary (prim EInt 32 (-1)) body [e] = Some true /\ parse true body [] 0 = Some (p, st', k') /\
  forall S (act : N -> S -> S) cond f t c t', cxx S act cond f p None t = Some (c, t') -> c <> C_RETURN.
Proof.
  exists (SWhile 0 (SSeq SBreak SReturn)). eexists _, _, _, (RLit (prim EInt 3 (-1)) 3). split; [vm_compute; reflexivity|]. split; [vm_compute; reflexivity|].
  intros S act cond f t c t' H. cbn [cxx] in H. destruct f; cbn [cxx_loop] in H; [discriminate|]. destruct (cond 0%N t) as [[] t1]; cbn in H; injection H as <- <-; discriminate.
Qed.
Print Assumptions C87_unreached_refuted.

(* ---- what is returned ---- *)
Lemma same_prim e n t e' n' t' : scalar_of e n t -> scalar_of e' n' t' -> sameButRef t' t = true -> e = e' /\ n = n'.
Proof. intros (H1 & H2 & _) (H1' & H2' & _). unfold sameButRef. rewrite H1, H2, H1', H2'. intros H. rewrite !andb_true_iff in H. destruct H as [[[[H _] _] HB] _]. split; [destruct e', e; cbn in H; congruence|lia]. Qed.

(* A return statement with a value of a primitive type, in a function of a primitive type: what is accepted, after a cast if one was
   put in, has the type of the function and is the number that the expression was.  For the type Bits it is the bits. *)
Theorem C87_value : forall e n rtn e' n' v l, primitive e -> primitive e' -> scalar_of e n rtn -> scalar_of e' n' (v_ty v) ->
  returnLabel (ROther (v_ty v)) rtn = Some l ->
  (exists t, l = Typed t true /\ sameByKeys t rtn = true /\ exists r, cast t v = CastVal r /\ v_ty r = rtn /\ number e n r = number (match e with EBits => EBits | _ => e' end) n' v) \/
  (exists t, l = Typed t false /\ sameByKeys t rtn = true /\ t = v_ty v /\ e' = e /\ n' = n) \/
  l = NAV.
Proof.
  intros e n rtn e' n' v l HP HP' H H' HL. unfold returnLabel in HL. cbn [rty isAConstant safeToCastTo] in HL.
  pose proof H as (HE & HB & HA & HR & Hn). pose proof H' as (HE' & HB' & HA' & HR' & Hn').
  assert (isScalar (v_ty v) = true) as S1 by (unfold isScalar; rewrite HA'; reflexivity). assert (isScalar rtn = true) as S2 by (unfold isScalar; rewrite HA; reflexivity).
  assert (isAltRefType rtn = false) as R1 by (unfold isAltRefType; rewrite HR; reflexivity). assert (isAltRefType (v_ty v) = false) as R2 by (unfold isAltRefType; rewrite HR'; reflexivity).
  assert (isVoid rtn = false) as V1 by (unfold isVoid; rewrite HE; destruct HP as [[->|[->| ->]]|[->| ->]]; reflexivity).
  assert (isVoid (v_ty v) = false) as V2 by (unfold isVoid; rewrite HE'; destruct HP' as [[->|[->| ->]]|[->| ->]]; reflexivity).
  rewrite S1, S2, R1, R2, V1, V2 in HL. cbn [xorb negb andb orb] in HL. destruct (sameButRef (v_ty v) rtn) eqn:ES; cbn [negb] in HL.
  - injection HL as <-. right. left. exists (v_ty v). split; auto. split. { unfold sameByKeys. rewrite ES, HR, HR'. reflexivity. } destruct (same_prim _ _ _ _ _ _ H H' ES). auto.
  - destruct (safeCast rtn (v_ty v)) as [[]|] eqn:EC; cbn [byForecast] in HL; try discriminate; injection HL as <-; auto.
    + exfalso. pose proof (prim_safe_clear _ _ _ _ _ _ H H') as HC. unfold safeCast in EC. rewrite HC in EC. destruct (match ty_enum rtn with EInt => _ | _ => _ end) as [[]|]; cbn in EC; congruence.
    + left. exists rtn. split; auto. split. { unfold sameByKeys, sameButRef. rewrite HR. rewrite !N.eqb_refl, !Z.eqb_refl. destruct (ty_enum rtn); reflexivity. }
      destruct (C23_safe_cast_keeps_number e n rtn e' n' v HP HP' H H' EC) as (r & E1 & E2 & E3). eauto.
Qed.
Print Assumptions C87_value.

(* a literal: accepted exactly if the type of the function has its number, and that is what is returned *)
Theorem C87_literal : forall e n rtn e' n' t c, arith e -> arith e' -> scalar_of e n rtn -> scalar_of e' n' t ->
  (exists ty casted, returnLabel (RLit t c) rtn = Some (Typed ty casted)) <-> representable e n (PrimSpec.meaning e' (msb_bits (N.to_nat n') c)).
Proof.
  intros e n rtn e' n' t c HP HP' H H'. unfold returnLabel. cbn [rty isAConstant safeToCastTo].
  pose proof H as (HE & HB & HA & HR & Hn). pose proof H' as (HE' & HB' & HA' & HR' & Hn').
  assert (isScalar t = true) as S1 by (unfold isScalar; rewrite HA'; reflexivity). assert (isScalar rtn = true) as S2 by (unfold isScalar; rewrite HA; reflexivity).
  assert (isAltRefType rtn = false) as R1 by (unfold isAltRefType; rewrite HR; reflexivity). assert (isAltRefType t = false) as R2 by (unfold isAltRefType; rewrite HR'; reflexivity).
  assert (isVoid rtn = false) as V1 by (unfold isVoid; rewrite HE; destruct HP as [->|[->| ->]]; reflexivity).
  assert (isVoid t = false) as V2 by (unfold isVoid; rewrite HE'; destruct HP' as [->|[->| ->]]; reflexivity).
  rewrite S1, S2, R1, R2, V1, V2. cbn [xorb negb andb orb]. destruct (sameButRef t rtn) eqn:ES; cbn [negb].
  - destruct (same_prim _ _ _ _ _ _ H H' ES) as [-> ->]. split; [|eauto]. intros _. exists (msb_bits (N.to_nat n') c). split; auto. apply msb_bits_length.
  - destruct (C52_literal_accepted_iff_representable e' n' t c e n rtn HP' HP H' H) as (f & -> & HI). rewrite <- HI. destruct f; cbn [byForecast]; split; try discriminate; eauto.
    + intros (ty & cd & E). discriminate.
    + intros (ty & cd & E). discriminate.
Qed.
Print Assumptions C87_literal.

(* and what is returned for an accepted literal is its number, in the type of the function *)
Theorem C87_literal_value : forall e n rtn e' n' t c ty casted v, arith e -> arith e' -> scalar_of e n rtn -> scalar_of e' n' t ->
  returnLabel (RLit t c) rtn = Some (Typed ty casted) -> v_ty v = t -> own_bits t n' (v_bits v) = msb_bits (N.to_nat n') c ->
  sameByKeys ty rtn = true /\ exists r, (if casted then cast ty v = CastVal r else r = v) /\ v_ty r = ty /\ number e n r = PrimSpec.meaning e' (msb_bits (N.to_nat n') c).
Proof.
  intros e n rtn e' n' t c ty cd v HP HP' H H' HL HV HO. unfold returnLabel in HL. cbn [rty isAConstant safeToCastTo] in HL.
  pose proof H as (HE & HB & HA & HR & Hn). pose proof H' as (HE' & HB' & HA' & HR' & Hn').
  assert (isScalar t = true) as S1 by (unfold isScalar; rewrite HA'; reflexivity). assert (isScalar rtn = true) as S2 by (unfold isScalar; rewrite HA; reflexivity).
  assert (isAltRefType rtn = false) as R1 by (unfold isAltRefType; rewrite HR; reflexivity). assert (isAltRefType t = false) as R2 by (unfold isAltRefType; rewrite HR'; reflexivity).
  assert (isVoid rtn = false) as V1 by (unfold isVoid; rewrite HE; destruct HP as [->|[->| ->]]; reflexivity).
  assert (isVoid t = false) as V2 by (unfold isVoid; rewrite HE'; destruct HP' as [->|[->| ->]]; reflexivity).
  rewrite S1, S2, R1, R2, V1, V2 in HL. cbn [xorb negb andb orb] in HL. destruct (sameButRef t rtn) eqn:ES; cbn [negb] in HL.
  - injection HL as <- <-. split. { unfold sameByKeys. rewrite ES, HR, HR'. reflexivity. } exists v. split; auto. split; auto. destruct (same_prim _ _ _ _ _ _ H H' ES) as [-> ->]. unfold number. rewrite HV, HO. reflexivity.
  - destruct (literalSafeToCastTo t c rtn) as [[]|] eqn:EC; cbn [byForecast] in HL; try discriminate. injection HL as <- <-.
    split. { unfold sameByKeys, sameButRef. rewrite HR. rewrite !N.eqb_refl, !Z.eqb_refl. destruct (ty_enum rtn); reflexivity. }
    destruct (C52_literal_keeps_its_number e' n' t c e n rtn v HP' HP H' H EC HV HO) as (r & E1 & E2 & E3). eauto.
Qed.
Print Assumptions C87_literal_value.

(* an expression that is not a literal, of a type other than the function's: accepted exactly if every value of its type is a number that the function's type has *)
Theorem C87_exact : forall e n rtn e' n' t, arith e -> arith e' -> scalar_of e n rtn -> scalar_of e' n' t ->
  (exists ty casted, returnLabel (ROther t) rtn = Some (Typed ty casted)) <-> (forall l, length l = N.to_nat n' -> representable e n (PrimSpec.meaning e' l)).
Proof.
  intros e n rtn e' n' t HP HP' H H'. unfold returnLabel. cbn [rty isAConstant safeToCastTo].
  pose proof H as (HE & HB & HA & HR & Hn). pose proof H' as (HE' & HB' & HA' & HR' & Hn').
  assert (isScalar t = true) as S1 by (unfold isScalar; rewrite HA'; reflexivity). assert (isScalar rtn = true) as S2 by (unfold isScalar; rewrite HA; reflexivity).
  assert (isAltRefType rtn = false) as R1 by (unfold isAltRefType; rewrite HR; reflexivity). assert (isAltRefType t = false) as R2 by (unfold isAltRefType; rewrite HR'; reflexivity).
  assert (isVoid rtn = false) as V1 by (unfold isVoid; rewrite HE; destruct HP as [->|[->| ->]]; reflexivity).
  assert (isVoid t = false) as V2 by (unfold isVoid; rewrite HE'; destruct HP' as [->|[->| ->]]; reflexivity).
  rewrite S1, S2, R1, R2, V1, V2. cbn [xorb negb andb orb]. destruct (sameButRef t rtn) eqn:ES; cbn [negb].
  - destruct (same_prim _ _ _ _ _ _ H H' ES) as [-> ->]. split; [|eauto]. intros _ l Hl. exists l. auto.
  - rewrite <- (C23_safe_cast_exact e n rtn e' n' t HP HP' H H'). destruct (safeCast rtn t) as [[]|]; cbn [byForecast]; split; try discriminate; try (intros (ty & cd & E); discriminate); eauto.
Qed.
Print Assumptions C87_exact.

(* return; in a function with a type, and return e; with a value in a function without one, are refused *)
Theorem C87_void : forall e rtn, (isVoid (rty e) <> isVoid rtn) -> returnLabel e rtn = Some NAV.
Proof.
  intros e rtn H. unfold returnLabel. destruct (xorb _ _); auto. assert (sameButRef (rty e) rtn = false) as ->.
  { unfold sameButRef, isVoid in *. destruct (etype_eqb (ty_enum (rty e)) (ty_enum rtn)) eqn:E; cbn [andb]; auto. exfalso. apply H. destruct (ty_enum (rty e)), (ty_enum rtn); cbn in *; congruence. }
  cbn [negb]. destruct (isVoid rtn), (isVoid (rty e)); cbn; congruence.
Qed.
Print Assumptions C87_void.

(* Unsigned(8) f() { if(b) return 200; else return x; }  with x of type Unsigned(5) *)
Example C87_ex : functionAccepted Ordinary (prim EUnsigned 8 (-1)) (SIf 0 SReturn SReturn) [RLit (prim EUnsigned 8 (-1)) 200; ROther (prim EUnsigned 5 (-1))] = Some true /\
  always (SIf 0 SReturn SReturn) = true /\ functionAccepted Ordinary (prim EUnsigned 8 (-1)) SReturn [RLit (prim EUnsigned 9 (-1)) 300] = Some false /\
  functionAccepted Ordinary (prim EUnsigned 8 (-1)) SReturn [ROther (prim EUnsigned 9 (-1))] = Some false /\
  functionAccepted Ordinary (prim EVoid 0 (-1)) SReturn [ROther (prim EVoid 0 (-1))] = Some true /\
  functionAccepted Ordinary (prim EInt 32 (-1)) SSkip [] = Some false /\ functionAccepted Native (prim EInt 32 (-1)) SSkip [] = Some true.
Proof. repeat split; vm_compute; reflexivity. Qed.
