(* ClassParseEnds.v: the parser of classes ends. *)
From Coq Require Import List PeanoNat NArith Lia Bool.
From Verif Require Import Base ExprModel ExprSpec ExprProofs StmtModel StmtSpec StmtProofs ClassParseModel.
Import ListNotations.
Open Scope nat_scope.

Lemma drop_le s : len (drop s) <= len s. Proof. rewrite drop_len. lia. Qed.
Lemma drop_lt s t : hd_tok (toks s) = t -> t <> E TEnd -> len (drop s) < len s.
Proof. rewrite drop_len. destruct (toks s); cbn; intros; [congruence | lia]. Qed.
Lemma fail_len s : len (fail s) = len s. Proof. reflexivity. Qed.
Lemma skip_len s : len (skip s) <= len s. Proof. unfold skip. cbn. apply upto_len. Qed.
Lemma set_until_len s : len (set_toks s (until Semi (toks s))) <= len s. Proof. cbn. apply until_len. Qed.
Lemma comma_len s : len (snd (comma s)) <= len s.
Proof. unfold comma. cbv zeta. pose proof (look_len s). pose proof (drop_len (look s)). destruct (hd_tok (toks (look s))) as [[]| | | | | | | | | | | | | | | | |]; cbn [snd]; lia. Qed.
Ltac name s x := let y := fresh "s" in set (y := x) in *; clearbody y.
Ltac states := repeat match goal with
  | |- context [look ?s] => is_var s; pose proof (look_len s); name s (look s)
  | |- context [drop ?s] => is_var s; pose proof (drop_le s); pose proof (drop_lt s _ eq_refl); name s (drop s)
  | |- context [fail ?s] => is_var s; pose proof (fail_len s); name s (fail s)
  | |- context [skip ?s] => is_var s; pose proof (skip_len s); name s (skip s)
  | |- context [set_toks ?s (until Semi (toks ?s))] => is_var s; pose proof (set_until_len s); name s (set_toks s (until Semi (toks s)))
  | |- context [snd (comma ?s)] => is_var s; pose proof (comma_len s); name s (snd (comma s))
  end.
Ltac elia := repeat match goal with
  | D : hd_tok (toks ?s) <> E TEnd -> _, Hd : hd_tok (toks ?s) = _ |- _ => specialize (D ltac:(rewrite Hd; discriminate))
  | D : ?t <> E TEnd -> _ |- _ => first [specialize (D ltac:(discriminate)) | clear D] end; lia.
Ltac ends R := repeat first
  [ exact I | progress cbv zeta | progress intros | progress states
  | match goal with |- en _ (Done _ _) => cbn [en]; elia | |- en _ (Done _ (match ?b with _ => _ end)) => destruct b end
  | match goal with |- en _ (match ?b with _ => _ end) => tryif is_var b then destruct b else destruct b eqn:? end
  | match goal with |- context [if ?b then _ else _] => lazymatch type of b with bool => destruct b eqn:? end end
  | match goal with |- en _ (expect _ _ _ _ _) => apply en_expect end
  | match goal with |- en _ (expr _ _ _) => apply en_expr; [now right|] end
  | R ].
Lemma en_constEnd {A} L stmt (k : option node -> st -> res A) r s : (forall r s', len s' <= len s -> en L (k r s')) -> en L (constEnd stmt k r s).
Proof. intro K. unfold constEnd. ends ltac:(apply K; elia). Qed.
Lemma en_constantDef {A} L req stmt s (k : option node -> st -> res A) : (forall r s', len s' <= len s -> en L (k r s')) -> en L (constantDef req stmt s k).
Proof. intro K. unfold constantDef, tok_of. ends ltac:(apply en_constEnd; intros; apply K; elia). Qed.
Lemma en_paramEnd {A} L (k : option node -> st -> res A) n s : (forall r s', len s' <= len s -> en L (k r s')) -> en L (paramEnd k n s).
Proof. intro K. unfold paramEnd. ends ltac:(apply K; elia). Qed.
Lemma en_parameterDef {A} L s (k : option node -> st -> res A) : (forall r s', len s' <= len s -> en L (k r s')) -> en L (parameterDef s k).
Proof. intro K. unfold parameterDef, tok_of. ends ltac:(apply en_paramEnd; intros; apply K; elia). Qed.

Section Ends.
Variable kind : N -> tykind.
Variable isref : N -> bool.
Lemma en_classParams : forall g acc s, len s < g -> en (len s) (classParams kind isref g acc s).
Proof.
  induction g as [|g IH]; intros acc s H; [elia|]. cbn [classParams]. unfold tok_of. ends ltac:(first [apply en_constantDef | eapply en_le; [|apply IH]; elia]).
Qed.
Lemma en_baseClass name s : en (len s) (baseClass kind name s). Proof. unfold baseClass. ends ltac:(fail). Qed.
Lemma en_baseClasses name : forall g acc s, len s < g -> en (len s) (baseClasses kind g name acc s).
Proof.
  induction g as [|g IH]; intros acc s H; [elia|]. cbn [baseClasses]. ends ltac:(first [eapply en_sbind; [apply en_baseClass|] | eapply en_le; [|apply IH]; elia]).
Qed.
Lemma en_nextParam L rec acc dots s : (forall acc dots s', len s' <= len s -> en L (rec acc dots s')) -> en L (nextParam rec acc dots s).
Proof. intro K. unfold nextParam. pose proof (comma_len s) as C. destruct (comma s) as [c s1]. cbn [snd] in C. apply K. destruct (c && dots); rewrite ?fail_len; exact C. Qed.
Lemma en_paramDecl L rec acc dots c s : (forall acc dots s', len s' <= len s -> (len s' < len s \/ forall t, hd_tok (toks s) <> E (TType t)) -> en L (rec acc dots s')) -> en L (paramDecl rec acc dots c s).
Proof.
  intro K. unfold paramDecl, tok_of. assert (D : (forall t, hd_tok (toks s) <> E (TType t)) \/ exists t, hd_tok (toks s) = E (TType t)).
  { destruct (hd_tok (toks s)) as [[]| | | | | | | | | | | | | | | | |]; eauto; left; discriminate. }
  destruct D as [D|(t & D)].
  - ends ltac:(apply en_nextParam; intros; apply K; [elia | now right]).
  - cbv zeta. rewrite look_id by (rewrite D; discriminate). rewrite D. ends ltac:(apply en_nextParam; intros; apply K; [elia | left; elia]).
Qed.
Lemma en_funcParams : forall g acc dots s, len s < g -> en (len s) (funcParams g acc dots s).
Proof.
  induction g as [|g IH]; intros acc dots s H; [lia|]. cbn [funcParams].
  ends ltac:(first [apply en_nextParam; intros; eapply en_le; [|apply IH]; elia]).
  all: apply en_paramDecl; intros acc' dots' s' Y1 [Y2|Y2]; try (eapply en_le; [|apply IH]; elia). all: eelim Y2; eassumption.
Qed.
Lemma en_fbody s : en (len s) (parseFunctionBody s).
Proof.
  unfold parseFunctionBody. cbv zeta. pose proof (look_len s). set (s1 := look s) in *. clearbody s1.
  assert (X : en (len s) (sbind (srun (plenty (toks s1)) (Statements false false) s1) (fun ss s2 => let s3 := look s2 in match hd_tok (toks s3) with CloseC => Done ss s3 | _ => Done ss (fail s3) end))).
  { eapply en_sbind; [exact (proj1 (enS_run (plenty (toks s1)) (Statements false false) s1 ltac:(unfold plenty; cbn [sweight]; lia)))|]. ends ltac:(fail). }
  destruct (hd_tok (toks s1)); try exact X. cbn [en]. lia.
Qed.
Lemma en_funcBody virt s : en (len s) (funcBody virt s).
Proof. unfold funcBody. ends ltac:(eapply en_sbind; [apply en_fbody|]). Qed.
Lemma en_function over virt constr ty id s : en (len s) (function over virt constr ty id s).
Proof.
  unfold function. apply (en_sbind (len s)); [|ends ltac:(fail)]. unfold funcRest. apply (en_sbind (len s)); [apply en_funcParams; lia|].
  ends ltac:(eapply en_sbind; [apply en_funcBody|]).
Qed.
Lemma en_restOfMembers ty : forall g acc s, len s < g -> en (len s) (restOfMembers g ty acc s).
Proof. induction g as [|g IH]; intros acc s H; [elia|]. cbn [restOfMembers]. ends ltac:(first [apply en_initial | eapply en_le; [|apply IH]; elia]). Qed.
Lemma en_memberEnd L r : en L r -> en L (memberEnd r).
Proof. intro H. unfold memberEnd. eapply en_sbind; [exact H|]. ends ltac:(fail). Qed.
Lemma en_typedef name s : en (len s) (typedef kind name s). Proof. unfold typedef, tok_of. ends ltac:(fail). Qed.
Lemma en_constdef s : en (len s) (constdef kind isref s). Proof. unfold constdef, tok_of. ends ltac:(apply en_constantDef). Qed.
Lemma en_modelParameter el s : en (len s) (modelParameter kind isref el s). Proof. unfold modelParameter, tok_of. ends ltac:(apply en_parameterDef). Qed.
(* more is read whenever the answer is b *)
Definition enb {A} (b : bool) (L : nat) (r : res (bool * A)) : Prop := match r with Done a s' => len s' <= L /\ (fst a = b -> len s' < L) | Fuel => False | _ => True end.
Lemma enb_en {A} b M L (r : res (bool * A)) : en M r -> M < L -> enb b L r. Proof. destruct r; cbn; auto. intros. lia. Qed.
Lemma en_varOrFunc over virt w s : enb true (len s) (varOrFunc kind isref over virt w s).
Proof.
  unfold varOrFunc. cbv zeta. pose proof (look_len s). set (s1 := look s) in *. clearbody s1.
  destruct (hd_tok (toks s1)) as [[]| | | | | | | | | | | | | | | | |] eqn:Hd; try exact I; try (cbn [enb fst]; split; [exact H | discriminate]).
  - apply enb_en with (len (drop s1)); [|pose proof (drop_lt s1 _ Hd ltac:(discriminate)); lia].
    set (L := len (drop s1)). assert (FN : forall c t i s', len s' <= L -> en L (sbind (function over virt c t i s') (fun f s1 => Done (match f with Some f => (true, [MFunc f]) | None => (false, []) end) s1))).
    { intros. eapply en_sbind; [apply en_function|]. intros. cbn [en]. lia. }
    pose proof (look_len (drop s1)). fold L in H0. set (s2 := look (drop s1)) in *. clearbody s2.
    pose proof (drop_le s2). pose proof (look_len (drop s2)). set (s3 := look (drop s2)) in *. clearbody s3. pose proof (drop_le s3).
    assert (B : forall s4 i, len s4 = len s3 -> en L (memberEnd (initial s4 (fun n s5 => restOfMembers (S (len s5)) t [MVar t i n] s5)))).
    { intros s4 i H4. apply en_memberEnd, en_initial. intros n s5 H5. eapply en_le; [|apply en_restOfMembers]; lia. }
    destruct (hd_tok (toks s2)) as [[]| | | | | | | | | | | | | | | | |]; try (cbn [en]; rewrite ?fail_len; lia).
    + destruct (hd_tok (toks s3)) as [[]| | | | | | | | | | | | | | | | |]; try exact I; try (apply FN; lia); (destruct (isref t); [destruct virt; cbn [en]; rewrite ?fail_len; lia | apply B; now destruct virt]).
    + destruct (kind t), w; try (cbn [en]; rewrite ?fail_len; lia). apply FN. lia.
  - pose proof (drop_lt s1 _ Hd ltac:(discriminate)). pose proof (look_len (drop s1)). unfold tok_of.
    destruct (hd_tok (toks (look (drop s1)))) as [[]| | | | | | | | | | | | | | | | |]; try exact I; cbn [enb fst]; rewrite fail_len; (split; [lia | discriminate]).
Qed.
Lemma enb_le {A} b M L (r : res (bool * A)) : enb b M r -> M <= L -> enb b L r. Proof. destruct r; cbn; auto. intros [H1 H2] H. split; [lia|]. intro E. specialize (H2 E). lia. Qed.
Lemma en_dataMember el name s : enb true (len s) (dataMember kind isref el name s).
Proof.
  unfold dataMember. cbv zeta. pose proof (look_len s). set (s1 := look s) in *. clearbody s1.
  assert (B : enb true (len s) (varOrFunc kind isref false false false s1)) by (eapply enb_le; [apply en_varOrFunc | exact H]).
  destruct (hd_tok (toks s1)) as [[]| | | | | | | | | | | | | | | | |x] eqn:Hd; try exact B; try (pose proof (drop_lt s1 _ Hd ltac:(discriminate))); try (apply enb_en with (len (drop s1)); [apply en_memberEnd; first [apply en_typedef | apply en_constdef] | lia]).
  - split; [exact H | discriminate].
  - pose proof (look_len (drop s1)). set (s2 := look (drop s1)) in *. clearbody s2. pose proof (drop_le s2).
    destruct (hd_tok (toks s2)) as [[]| | | | | | | | | | | | | | | | |[]]; (eapply enb_le; [apply en_varOrFunc | lia]).
  - destruct x; try exact B; [eapply enb_le; [apply en_varOrFunc | lia]|]. apply enb_en with (len (drop s1)); [apply en_memberEnd, en_modelParameter | lia].
Qed.
Lemma en_dataMembers el name : forall g acc s, len s < g -> en (len s) (dataMembers kind isref g el name acc s).
Proof.
  induction g as [|g IH]; intros acc s H; [lia|]. cbn [dataMembers]. pose proof (en_dataMember el name s) as D. destruct (dataMember kind isref el name s) as [[b l] s1| | |]; cbn [sbind]; try exact I; [|destruct D].
  cbn [enb fst snd] in *. destruct b; [|cbn [en]; lia]. eapply en_le; [|apply IH]; lia.
Qed.
Lemma en_classBlock k conc name s : en (len s) (classBlock kind isref k conc name s).
Proof.
  unfold classBlock. cbv zeta. apply (en_sbind (len s)).
  { pose proof (look_len s). set (s1 := look s) in *. clearbody s1. assert (B : en (len s) (Done (@nil (N * N * node)) s1)) by exact H.
    destruct (hd_tok (toks s1)) as [[]| | | | | | | | | | | | | | | | |] eqn:Hd; try exact B. pose proof (drop_le s1). eapply en_le; [|apply en_classParams]; lia. }
  intros ps s2 H2. apply (en_sbind (len s)).
  { pose proof (look_len s2). set (s3 := look s2) in *. clearbody s3. assert (B : en (len s) (Done SDefault s3)) by (cbn [en]; lia).
    destruct (hd_tok (toks s3)) as [[]| | | | | | | | | | | | | | | | |] eqn:Hd; try exact B. pose proof (drop_le s3). eapply en_sbind; [apply en_baseClass|]. intros; cbn [en]; lia. }
  intros sup s4 H4. eapply en_sbind; [apply en_baseClasses; lia|]. intros bs s5 H5. apply en_expect; [|intros; cbn [en]; lia]. intros s6 H6 _. apply en_expect; [intros; cbn [en]; lia|].
  intros s7 H7. eapply en_sbind; [apply en_dataMembers; lia|]. intros ms s8 H8. apply en_expect; intros; cbn [en]; lia.
Qed.
Lemma kind_of_end t k : kind_of t = Some k -> t <> E TEnd. Proof. now destruct t as [[]| | | | | | | | | | | | | | | | |]. Qed.
Lemma en_thisClass : forall g conc s, len s < g -> enb false (len s) (thisClass kind isref g conc s).
Proof.
  induction g as [|g IH]; intros conc s H; [lia|]. cbn [thisClass]. cbv zeta. pose proof (look_len s). set (s1 := look s) in *. clearbody s1.
  destruct (kind_of (hd_tok (toks s1))) as [k|] eqn:Hk.
  - apply kind_of_end in Hk. pose proof (drop_lt s1 _ eq_refl Hk). apply enb_en with (len (drop s1)); [|elia]. ends ltac:(eapply en_sbind; [apply en_classBlock|]).
  - pose proof (drop_le s1). assert (B : forall x, enb false (len s) (Done (true, @nil cls) (x (drop s1))) \/ len (x (drop s1)) > len (drop s1)).
    { intro x. destruct (Nat.le_gt_cases (len (x (drop s1))) (len (drop s1))); [left; split; [lia | discriminate] | now right]. }
    assert (B1 : enb false (len s) (Done (true, @nil cls) (drop s1))) by (split; [lia | discriminate]).
    assert (B2 : enb false (len s) (Done (true, @nil cls) (fail (drop s1)))) by (split; [rewrite fail_len; lia | discriminate]).
    destruct (hd_tok (toks s1)) as [[]| | | | | | | | | | | | | | | | |x] eqn:Hd; try exact I; try exact B1; try exact B2. destruct x; try exact B2.
    pose proof (drop_lt s1 _ Hd ltac:(discriminate)). eapply enb_le; [apply IH|]; lia.
Qed.
Lemma en_parseFile : forall g acc s, len s < g -> en (len s) (parseFile kind isref g acc s).
Proof.
  induction g as [|g IH]; intros acc s H; [lia|]. cbn [parseFile]. pose proof (en_thisClass (S (len s)) false s ltac:(lia)) as D.
  destruct (thisClass kind isref (S (len s)) false s) as [[b l] s1| | |]; cbn [sbind]; try exact I; [|destruct D]. cbn [enb fst snd] in *. destruct b; [cbn [en]; lia|]. eapply en_le; [|apply IH]; lia.
Qed.
End Ends.
