(* StmtTheorems.v: statements (C72). *)
From Coq Require Import List PeanoNat NArith Lia Bool.
From Verif Require Import Base ExprModel ExprSpec ExprProofs ExprValue ExprComplete ExprPrint ExprTheorems StmtModel StmtSpec StmtProofs StmtComplete StmtSound.
Import ListNotations.
Open Scope nat_scope.

(* every body of a function of the grammar is read as its tree, without an error, up to its closing curly. Missing: expressions with as
   other than as the last operator of a condition, and those C41 leaves out *)
Theorem C72_reads_partial ts tr rest : Sts XC YC false false ts tr -> parseFunctionBody (start (ts ++ CloseC :: rest)) = Done tr (start (CloseC :: rest)).
Proof.
  intro H. destruct (proj1 (proj2 (complete_all false false)) _ _ _ _ H) as (P1 & P2 & P3). unfold parseFunctionBody. cbv zeta.
  destruct ts as [|x ts]; [now rewrite P1 by reflexivity|]. assert (NE : x :: ts <> []) by discriminate. destruct (P2 NE) as (S1 & S2 & S3 & S4).
  change (start ((x :: ts) ++ CloseC :: rest)) with (Q false false ((x :: ts) ++ CloseC :: rest) false DNone) in *. rewrite look_Q by exact S1. rewrite toks_Q. cbn [hd_tok app] in *.
  pose proof (srun_plenty (Statements false false) (Q false false (x :: ts ++ CloseC :: rest) false DNone)) as SP. rewrite toks_Q in SP. rewrite SP, (P3 NE). cbn [sbind]. rewrite look_Q by discriminate. rewrite toks_Q. cbn [hd_tok]. destruct x as [[]| | | | | | | | | | | | | | | | |]; try reflexivity. now elim S2.
Qed.
Print Assumptions C72_reads_partial.

(* so a body has one tree only: each else belongs to the nearest if *)
Theorem C72_unique ts tr tr' : Sts XC YC false false ts tr -> Sts XC YC false false ts tr' -> tr = tr'.
Proof. intros H H'. apply (C72_reads_partial _ _ []) in H, H'. congruence. Qed.
Print Assumptions C72_unique.

(* what is accepted without an error, no expression lost, is a body of the grammar with that tree, up to its closing curly. The expressions
   are those the expression parser reads, C42, C61 *)
Theorem C72_only_partial ts tr s : parseFunctionBody (start ts) = Done tr s -> err s = false -> lost s = false ->
  exists used rest, ts = used ++ CloseC :: rest /\ toks s = CloseC :: rest /\ Sts RX RY false false used tr.
Proof.
  intros H H1 H2. assert (W : wp (parseFunctionBody (start ts)) (fun tr s => exists used rest, ts = used ++ CloseC :: rest /\ toks s = CloseC :: rest /\ Sts RX RY false false used tr)).
  { clear. unfold parseFunctionBody. cbv zeta. apply (wp_mon (look (start ts))). { mm ltac:(apply mon_run). } intro H. apply ok_look in H. destruct H as [_ HL]. rewrite HL.
    assert (X : wp (sbind (srun (plenty (toks (start ts))) (Statements false false) (start ts)) (fun ss s2 =>
           let s3 := look s2 in match hd_tok (toks s3) with CloseC => Done ss s3 | _ => Done ss (fail s3) end))
        (fun tr s => exists used rest, ts = used ++ CloseC :: rest /\ toks s = CloseC :: rest /\ Sts RX RY false false used tr)).
    { eapply wp_bind; [apply wp_run | mm idtac|]. cbn [PT]. intros ss s2 HS O2. cbv zeta. apply (wp_mon (look s2)). { mm idtac. } intro H. apply ok_look in H. destruct H as [_ HL2]. rewrite HL2.
      destruct (hd_tok (toks s2)) as [[]| | | | | | | | | | | | | | | | |] eqn:Hd; try apply wp_fail. intros _.
      destruct HS as [F|(_ & u & [TU _] & HS)]; [unfold fin in F; congruence|]. cbn [start toks] in TU. exists u, (toks (drop s2)).
      assert (T := drop_toks s2 _ Hd ltac:(discriminate)). rewrite <- T. now split. }
    destruct (hd_tok (toks (start ts))) eqn:Hd; try exact X. intros _. exists [], (toks (drop (start ts))).
    assert (T := drop_toks (start ts) _ Hd ltac:(discriminate)). rewrite <- T. repeat split. constructor. }
  rewrite H in W. apply W. now split.
Qed.
Print Assumptions C72_only_partial.

(* every file ends: the parser never goes on for ever *)
Theorem C72_ends s : parseFunctionBody s <> Fuel.
Proof.
  unfold parseFunctionBody. cbv zeta. assert (X : srun (plenty (toks (look s))) (Statements false false) (look s) <> Fuel).
  { destruct (enS_run (plenty (toks (look s))) (Statements false false) (look s)) as [K _]; [unfold plenty; cbn [sweight]; lia|]. intro Z. rewrite Z in K. exact K. }
  assert (Y : sbind (srun (plenty (toks (look s))) (Statements false false) (look s)) (fun ss s2 =>
           let s3 := look s2 in match hd_tok (toks s3) with CloseC => Done ss s3 | _ => Done ss (fail s3) end) <> Fuel).
  { destruct (srun _ _ _) as [ss s2| | |]; cbn; try discriminate; [|congruence]. destruct (hd_tok (toks (look s2))); discriminate. }
  destruct (hd_tok (toks (look s))); try exact Y. discriminate.
Qed.
Print Assumptions C72_ends.

(* the body a which runs is the first one written one of whose labels holds, or that of otherwise: of the chain of ifs, that of the first
   that holds *)
Section Runs.
Variable holds : cond -> bool.
Hypothesis holds_or : forall a b, holds (COr a b) = holds a || holds b.
Hypothesis holds_true : holds CTrue = true.
Inductive runs : list tree -> option tree -> Prop :=
| R_none : runs [] None
| R_yes c t f : holds c = true -> runs [TIf c t f] (Some t)
| R_no c t f o : holds c = false -> runs f o -> runs [TIf c t f] o
| R_else t : (forall c t' f, t <> TIf c t' f) -> runs [t] (Some t).
Lemma any_holds value : forall l c, holds (any value c l) = holds c || existsb holds (map (label value) l).
Proof.
  induction l as [|n l IH]; intro c; cbn [any map existsb]; [now rewrite orb_false_r|]. rewrite IH, holds_or. unfold label at 2. now rewrite orb_assoc.
Qed.
Lemma labels_holds value l o c : labels value l o = Some c -> holds c = existsb holds (map (label value) l) || o.
Proof.
  unfold labels. destruct o.
  - intro H. injection H as <-. now rewrite holds_true, orb_true_r.
  - destruct l as [|n l]; [discriminate|]. intro H. injection H as <-. rewrite any_holds. cbn [map existsb]. now rewrite orb_false_r.
Qed.
Lemma body_not_if X Y b c op ty ts t : Body X Y b c op ty ts t -> forall x t' f, t <> TIf x t' f. Proof. destruct 1; discriminate. Qed.
Theorem C72_which X Y c value ts tr : Cases X Y c value false ts tr ->
  exists cases, Written X Y c value ts cases /\ runs tr (chosen holds cases).
Proof.
  assert (G : forall later, Cases X Y c value later ts tr -> exists cases, Written X Y c value ts cases /\ runs tr (chosen holds cases)); [|apply G].
  intros later H. induction H as [c value later|c value later e n ty ts t more f HV HX HA HB HC _ (cs & IW & IR)|c value later ls l x ts t more f HL NA HS HB HC _ (cs & IW & IR)|c value ls l ts t HL NA HB HC|c value ls l ts t HL NA HB HC].
  - exists []. split; constructor.
  - eexists. split; [now eapply W_as; eauto|]. cbn [chosen existsb]. rewrite !orb_false_r. destruct (holds (CNode n)) eqn:Hn; [now apply R_yes | now apply R_no].
  - eexists. split; [eapply W_case; eauto|]. cbn [chosen]. pose proof (labels_holds _ _ _ _ HS) as Hx. destruct (existsb holds (map (label value) l) || false) eqn:E; [now apply R_yes | now apply R_no].
  - exists [(map (label value) l, true, t)]. split; [rewrite <- (app_nil_r ts); eapply W_case; eauto; constructor|]. cbn [chosen]. rewrite orb_true_r. now apply R_yes.
  - exists [(map (label value) l, true, t)]. split; [rewrite <- (app_nil_r ts); eapply W_case; eauto; constructor|]. cbn [chosen]. rewrite orb_true_r. apply R_else. eapply body_not_if; eauto.
Qed.
End Runs.
Print Assumptions C72_which.

(* ---- an example: for(Int i = 0; i < n; ++i) if(x as T) { return y; } else if(b) ; which(a) { case 1: case 2: { break; } otherwise: { } } ---- *)
Open Scope N_scope.
Definition lit (l : list tok) : list stok := map E l.
Definition ex_for : list stok :=
  [KFor; E TOpen; E (TType 1); E (TIdent 1); E (TAssign 0); E (TNum 0); Semi] ++ lit [TIdent 1; TBin Lt; TIdent 2] ++ [Semi] ++ lit [TInc; TIdent 1] ++ [E TClose] ++
  [KIf; E TOpen] ++ lit [TIdent 3; TIs true; TType 2] ++ [E TClose; OpenC; KReturn; E (TIdent 4); Semi; CloseC; KElse; KIf; E TOpen; E (TIdent 5); E TClose; Semi].
Definition ex_which : list stok :=
  [KWhich; E TOpen; E (TIdent 6); E TClose; OpenC; KCase; E (TNum 1); E TColon; KCase; E (TNum 2); E TColon; OpenC; KBreak; Semi; CloseC;
   KOtherwise; E TColon; OpenC; CloseC; CloseC].
Definition ex_trees : list tree :=
  [TBlock [TDecl 1 1 (NNum 0);
     TWhile (CNode (NBin Lt (NIdent 1) (NIdent 2)))
       (TBody [TBlock [TIf (CNode (NIs true 2 (NIdent 3))) (TBlock [TAsDecl 2; TReturn (NIdent 4)])
                [TBody [TBlock [TIf (CNode (NIdent 5)) (TBody [TEmpty]) []]]]]])
       [NUn UPreInc (NIdent 1)]];
   TWhich (NIdent 6) [TIf (COr (CCase (NNum 1)) (CCase (NNum 2))) (TBlock [TBreak]) [TBlock []]]].
Lemma ident_G c i : match c with CBin k => (k <= 7)%nat | CFactor | CAssign | CExpr | CPost | CIdx => True end -> G true c [TIdent i] (NIdent i).
Proof. intro H. apply (G_sub true c CIdx); [destruct c; auto; lia | exact I | destruct c; cbn; lia | apply G_ident]. Qed.
Lemma num_G c i : match c with CBin k => (k <= 7)%nat | CFactor | CAssign | CExpr => True | _ => False end -> G true c [TNum i] (NNum i).
Proof. intro H. apply (G_sub true c CFactor); [destruct c; auto; lia | exact I | destruct c; cbn in *; try lia; contradiction | apply G_num]. Qed.
Example C72_ex : Sts XC YC false false (ex_for ++ ex_which) ex_trees.
Proof.
  apply (Ss_some XC YC false false true ex_for [nth 0 ex_trees TEmpty] ex_which [nth 1 ex_trees TEmpty]).
  - apply (S_for XC YC false false true [E (TType 1); E (TIdent 1); E (TAssign 0); E (TNum 0)] [TDecl 1 1 (NNum 0)] (lit [TIdent 1; TBin Lt; TIdent 2])
      (CNode (NBin Lt (NIdent 1) (NIdent 2))) (lit [TInc; TIdent 1])).
    + apply F_decl, D_one, (I_some _ [TNum 0]). split; [apply num_G; exact I | reflexivity].
    + apply FC_some. split; [|reflexivity]. apply (G_sub true CAssign (CBin 3)); [exact I | cbn; lia | cbn; lia|].
      apply (G_bin true 3 [TIdent 1] _ Lt [TIdent 2]); [reflexivity | apply ident_G; lia | apply ident_G; lia | discriminate].
    + apply FS_some. split; [|reflexivity]. apply (G_sub true CAssign CFactor); [exact I | exact I | cbn; lia|]. apply G_unary; [reflexivity | now apply ident_G].
    + apply B_one; [|exact (fun x => x)].
      apply (S_else XC YC true true true [TIdent 3; TIs true; TType 2] (NIs true 2 (NIdent 3)) [OpenC; KReturn; E (TIdent 4); Semi; CloseC]).
      * split; [|reflexivity]. apply (G_sub true CAssign CFactor); [exact I | exact I | cbn; lia|]. apply (G_is true [TIdent 3]), ident_G. exact I.
      * apply (B_as_block XC YC true true 2 [KReturn; E (TIdent 4); Semi] [TReturn (NIdent 4)]).
        apply (Ss_some XC YC true true false [KReturn; E (TIdent 4); Semi] [TReturn (NIdent 4)] [] []); [|constructor].
        apply (S_return_value XC YC true true [TIdent 4]). split; [now apply ident_G | reflexivity].
      * apply B_one; [|exact (fun x => x)]. apply (S_if XC YC true true false [TIdent 5] (NIdent 5) [Semi] (TBody [TEmpty])); [split; [now apply ident_G | reflexivity]|].
        apply B_one; [constructor | exact (fun x => x)].
  - apply (Ss_some XC YC false false false ex_which [nth 1 ex_trees TEmpty] [] []); [|constructor].
    apply (S_which XC YC false false [E (TIdent 6)] (NIdent 6) (firstn 14 (skipn 5 ex_which))); [apply (V_some _ [TIdent 6]); split; [now apply ident_G | reflexivity]|].
    apply (C_case XC YC false true false [KCase; E (TNum 1); E TColon; KCase; E (TNum 2); E TColon] [NNum 1; NNum 2] (COr (CCase (NNum 1)) (CCase (NNum 2)))
      [OpenC; KBreak; Semi; CloseC] (TBlock [TBreak]) [KOtherwise; E TColon; OpenC; CloseC] [TBlock []]).
    + apply (L_case _ [TNum 1]); [split; [apply num_G; exact I | reflexivity]|]. apply (L_case _ [TNum 2] _ []); [split; [apply num_G; exact I | reflexivity] | constructor].
    + intros n [<-|[<-|[]]]; reflexivity.
    + reflexivity.
    + apply (B_block XC YC true false [KBreak; Semi]). apply (Ss_some XC YC true false false [KBreak; Semi] [TBreak] [] []); constructor.
    + exact I.
    + apply (C_else XC YC false true [KOtherwise; E TColon] [] [OpenC; CloseC]); [constructor | intros ? [] | apply (B_block XC YC true false [] []); constructor | exact I].
Qed.
Example C72_ex_read : parseFunctionBody (start (ex_for ++ ex_which ++ [CloseC; E (TIdent 9)])) = Done ex_trees (start [CloseC; E (TIdent 9)]).
Proof. vm_compute. reflexivity. Qed.
Example C72_ex_which : runs (fun c => match c with COr (CCase (NNum 1)) _ | CTrue => true | _ => false end) [TIf (COr (CCase (NNum 1)) (CCase (NNum 2))) (TBlock [TBreak]) [TBlock []]] (Some (TBlock [TBreak])).
Proof. now apply R_yes. Qed.

(* ---- refuted ---- *)
(* nothing written is dropped without a word: f(a) * ; is, and return f() * ; returns nothing *)
Theorem C72_lost_refuted :
  exists s s', parseFunctionBody (start [E (TIdent 1); E TOpen; E (TIdent 2); E TClose; E (TBin Mul); Semi; CloseC]) = Done [] s /\ err s = false /\
    parseFunctionBody (start [KReturn; E (TIdent 1); E TOpen; E TClose; E (TBin Mul); Semi; CloseC]) = Done [TReturn NNull] s' /\ err s' = false.
Proof. do 2 eexists. repeat split; vm_compute; reflexivity. Qed.
Print Assumptions C72_lost_refuted.
(* no file makes the compiler use a node after it was deleted: otherwise with no body does *)
Theorem C72_fault_refuted :
  parseFunctionBody (start [KWhich; E TOpen; E (TIdent 1); E TClose; OpenC; KOtherwise; E TColon; CloseC; CloseC]) = Fault /\
  parseFunctionBody (start [KWhich; E TOpen; E TClose; OpenC; KOtherwise; CloseC; CloseC]) = Fault.
Proof. split; vm_compute; reflexivity. Qed.
Print Assumptions C72_fault_refuted.
(* a condition is not affected by what came before it: after x as T; the next condition is taken for an as *)
Theorem C72_as_refuted :
  exists tr s, Sts (G true CAssign) (fun a : bool => G true (if a then CAssign else CExpr)) false false
      (lit [TIdent 1; TIs true; TType 2] ++ [Semi; KIf; E TOpen; E (TIdent 3); E TClose; Semi]) tr /\
    parseFunctionBody (start ((lit [TIdent 1; TIs true; TType 2] ++ [Semi; KIf; E TOpen; E (TIdent 3); E TClose; Semi]) ++ [CloseC])) = Done [TExpr (NIs true 2 (NIdent 1)); TEmpty] s /\
    err s = true /\ tr = [TExpr (NIs true 2 (NIdent 1)); TBlock [TIf (CNode (NIdent 3)) (TBody [TEmpty]) []]].
Proof.
  do 2 eexists. split; [|split; [vm_compute; reflexivity | split; reflexivity]].
  match goal with |- Sts ?x ?y _ _ _ _ => set (X := x); set (Y := y) end.
  apply (Ss_some X Y false false false (lit [TIdent 1; TIs true; TType 2] ++ [Semi]) [TExpr (NIs true 2 (NIdent 1))]
    [KIf; E TOpen; E (TIdent 3); E TClose; Semi] [TBlock [TIf (CNode (NIdent 3)) (TBody [TEmpty]) []]]).
  - apply S_expr; [|exact I]. unfold Y. apply (G_sub true CAssign CFactor); [exact I | exact I | cbn; lia|]. apply (G_is true [TIdent 1]), ident_G. exact I.
  - apply (Ss_some X Y false false true [KIf; E TOpen; E (TIdent 3); E TClose; Semi] [TBlock [TIf (CNode (NIdent 3)) (TBody [TEmpty]) []]] [] []); [|constructor].
    apply (S_if X Y false false false [TIdent 3] (NIdent 3) [Semi] (TBody [TEmpty])); [now apply ident_G|]. apply B_one; [constructor | exact (fun x => x)].
Qed.
Print Assumptions C72_as_refuted.
(* grammar.txt also allows any assignment expression as the first part of a for, and as the value of a new variable: for(++i; ...) and
   Int a = b = 3; are refused *)
Theorem C72_published_refuted :
  (exists s, parseFunctionBody (start ([KFor; E TOpen] ++ lit [TInc; TIdent 1] ++ [Semi; Semi; E TClose; Semi; CloseC])) = Done [TExpr (NIdent 1); TEmpty] s /\ err s = true) /\
  (exists s, parseFunctionBody (start ([E (TType 1); E (TIdent 1); E (TAssign 0); E (TIdent 2); E (TAssign 0); E (TNum 3); Semi; CloseC])) = Done [TDecl 1 1 (NIdent 2)] s /\ err s = true).
Proof. split; eexists; split; vm_compute; reflexivity. Qed.
Print Assumptions C72_published_refuted.
