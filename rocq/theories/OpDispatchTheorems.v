(* OpDispatchTheorems.v: C95. *)
From Coq Require Import String List NArith ZArith Lia Bool.
From Coq Require Import ZifyBool ZifyNat ZifyN.
From Verif Require Import Base TypeTableModel FamilyModel FamilyProofs OpDispatchModel OpDispatchSpec.
Import ListNotations.
Ltac Zify.zify_post_hook ::= Z.div_mod_to_equations.
Open Scope N_scope.

Lemma text_eqb_eq a b : text_eqb a b = true <-> a = b.
Proof. unfold text_eqb. destruct (list_eq_dec N.eq_dec a b); split; congruence. Qed.

(* ---- names ---- *)
Lemma hexval_digit d : d < 16 -> hexval (hexdigit d) = d.
Proof. intros H. unfold hexval, hexdigit. destruct (N.ltb_spec d 10); [destruct (N.ltb_spec (48 + d) 58)|destruct (N.ltb_spec (87 + d) 58)]; lia. Qed.

Lemma unhex_hex s : Forall (fun c => 16 <= c < 256) s -> unhex (getOperatorHexNameFromString s) = s.
Proof.
  induction 1 as [|c s H F IH]; auto. cbn [getOperatorHexNameFromString flat_map]. unfold hexOfChar at 1.
  replace (c <? 16) with false by lia. cbn [app unhex]. fold (getOperatorHexNameFromString s). rewrite IH.
  rewrite !hexval_digit by lia. f_equal. lia.
Qed.

Lemma overloadable_chars op : In op overloadable -> Forall (fun c => 16 <= c < 256) op.
Proof.
  assert (Forall (fun s => Forall (fun c => 16 <= c < 256) s) overloadable) as H.
  { apply Forall_forall. intros s HS. apply Forall_forall. intros c HC.
    assert (forallb (fun s => forallb (fun c => (16 <=? c) && (c <? 256)) s) overloadable = true) as E by reflexivity.
    rewrite forallb_forall in E. specialize (E s HS). rewrite forallb_forall in E. specialize (E c HC). lia. }
  rewrite Forall_forall in H. auto.
Qed.

Lemma full_name op id : getOperatorOverloadFullNameId op = Some id ->
  In op overloadable /\ id = txt "_operator" ++ getOperatorHexNameFromString op.
Proof.
  unfold getOperatorOverloadFullNameId. destruct (existsb (text_eqb op) overloadable) eqn:E; [|discriminate].
  apply existsb_exists in E as (x & HI & HX). apply text_eqb_eq in HX. subst x. intros H. injection H as <-. auto.
Qed.

(* C95: the function of an operator is found by a name that no other operator has, that no identifier has (identifiers
   begin with a letter), and from which the operator is read back in messages *)
Theorem C95_names : forall op id, getOperatorOverloadFullNameId op = Some id ->
  (forall op', getOperatorOverloadFullNameId op' = Some id -> op' = op) /\
  isOperatorOverloadIdentToken id = true /\
  getUlamNameIdForOperatorOverloadToken id = txt "operator" ++ op /\
  (forall c r, c <> 95 -> c :: r <> id /\ isOperatorOverloadIdentToken (c :: r) = false).
Proof.
  intros op id H. apply full_name in H as [HI ->].
  assert (forall s, skipn 9 (txt "_operator" ++ s) = s) as HK by reflexivity.
  assert (getUlamNameIdForOperatorOverloadToken (txt "_operator" ++ getOperatorHexNameFromString op) = txt "operator" ++ op) as HU.
  { unfold getUlamNameIdForOperatorOverloadToken. rewrite HK, unhex_hex by (apply overloadable_chars; auto). reflexivity. }
  split; [|split; [|split]]; auto.
  - intros op' H'. apply full_name in H' as [HI' E]. apply app_inv_head in E.
    rewrite <- (unhex_hex op), <- (unhex_hex op') by (apply overloadable_chars; auto). congruence.
  - intros c r HC. split.
    + intros E. cbn in E. injection E as E _. lia.
    + destruct (isOperatorOverloadIdentToken (c :: r)) eqn:E; auto. apply text_eqb_eq in E. cbn in E. injection E as E _. lia.
Qed.
Print Assumptions C95_names.

(* every comparison can be written as a function, and so can its inverse *)
Lemma compare_name o : exists id, getOperatorOverloadFullNameId (opText o) = Some id.
Proof. destruct o; eexists; reflexivity. Qed.

(* ---- dispatch ---- *)
Section Proofs.
Variable root : N -> N.
Variable bases : N -> option (list N).
Variable hzy : N.
Variable declares : N -> list N -> bool.
Variable hazyHere : N -> bool.
Hypothesis small : forall x, root x < 65536.
Notation lookup := (lookup root bases hzy declares hazyHere).
Notation isFunc := (isFuncIdInAClassScopeOrAncestor root bases hzy declares hazyHere).
Notation has := (has_function root bases declares).

Lemma lookup_found : forall fuel id d seen hz,
  fst (lookup fuel id d seen hz) = match search root bases fuel false nohead (fun b => declares b id) d seen with Some _ => true | None => false end.
Proof.
  induction fuel as [|f IH]; intros id d seen hz; cbn [OpDispatchModel.lookup search]; auto.
  destruct (getNextBasePair root d seen) as [[[[b h]|] d'] seen']; auto.
  destruct (bases b) as [bs|]; auto. destruct (declares b id); auto.
Qed.

Lemma lookup_hazy : forall fuel id d seen hz,
  (forall x, In x (map fst (visits root bases fuel false nohead d seen)) -> hazyHere x = false /\ x <> hzy) ->
  snd (lookup fuel id d seen hz) = if fst (lookup fuel id d seen hz) then false else hz.
Proof.
  induction fuel as [|f IH]; intros id d seen hz; cbn [OpDispatchModel.lookup visits]; auto.
  destruct (getNextBasePair root d seen) as [[[[b h]|] d'] seen']; auto. intros H.
  destruct (H b) as [H1 H2]; [left; reflexivity|].
  destruct (bases b) as [bs|].
  - destruct (declares b id); auto. rewrite H1, orb_false_r. apply IH. intros x HX. apply H. right. exact HX.
  - replace (b =? hzy) with false by lia. rewrite orb_false_r. apply IH. intros x HX. apply H. right. exact HX.
Qed.

Lemma isFunc_found c id hz : fst (isFunc c id hz) = true <-> has c id.
Proof.
  unfold isFuncIdInAClassScopeOrAncestor. rewrite lookup_found.
  pose proof (search_some root bases small false nohead (fun b => declares b id) [(c, 0)]) as HS.
  assert ((exists x, (exists q, In q [(c, 0)] /\ reach root bases (root (fst q)) x) /\ defined bases x = true /\ declares x id = true) <-> has c id) as HE.
  { split.
    - intros (x & (q & [<-|[]] & HR) & HD & HX). exists x. split; auto. split; auto. unfold defined in HD. destruct (bases x); congruence.
    - intros (x & HR & HD & HX). exists x. split; [exists (c, 0); split; [left|]; auto|]. split; auto. unfold defined. destruct (bases x); congruence. }
  rewrite <- HE, <- HS. destruct (search _ _ _ _ _ _ _ _) as [q|]; split; try discriminate; eauto; intros (q & ?); congruence.
Qed.

Lemma isFunc_hazy c id hz : all_known root bases hzy hazyHere c -> snd (isFunc c id hz) = if fst (isFunc c id hz) then false else hz.
Proof.
  intros HK. apply lookup_hazy. intros x HX. apply HK.
  apply (visits_reach root bases small) in HX. destruct HX as (q & [<-|[]] & HR). exact HR.
Qed.

Lemma dispatch_cases o c :
  (exists id, getOperatorOverloadFullNameId (opText o) = Some id /\ has c id /\ checkAndLabelCompare root bases hzy declares hazyHere o c = Replaced (Call o)) \/
  (exists id id', getOperatorOverloadFullNameId (opText o) = Some id /\ getOperatorOverloadFullNameId (opText (inverse o)) = Some id' /\ ~ has c id /\ has c id' /\
     checkAndLabelCompare root bases hzy declares hazyHere o c = Replaced (NotCall (inverse o))) \/
  (exists id id', getOperatorOverloadFullNameId (opText o) = Some id /\ getOperatorOverloadFullNameId (opText (inverse o)) = Some id' /\ ~ has c id /\ ~ has c id' /\
     checkAndLabelCompare root bases hzy declares hazyHere o c = if snd (isFunc c id' (snd (isFunc c id false))) then Dangling else Refused).
Proof.
  destruct (compare_name o) as [id E]. destruct (compare_name (inverse o)) as [id' E'].
  unfold checkAndLabelCompare, buildOperatorOverloadFuncCallNode. rewrite E, E'.
  pose proof (isFunc_found c id false) as F. destruct (isFunc c id false) as [[] hz] eqn:EF; cbn [fst] in F.
  { left. exists id. rewrite <- F. auto. }
  right. pose proof (isFunc_found c id' hz) as F'. destruct (isFunc c id' hz) as [[] hz'] eqn:EF'; cbn [fst] in F'.
  { left. exists id, id'. rewrite <- F, <- F'. repeat split; auto. }
  right. exists id, id'. rewrite <- F, <- F'. repeat split; try (intros ?; discriminate); auto. rewrite EF. cbn [snd]. rewrite EF'. cbn [snd].
  destruct hz'; reflexivity.
Qed.
End Proofs.

Lemma lookup_unsettled root bases hzy declares hazyHere : forall fuel id d seen hz,
  fst (lookup root bases hzy declares hazyHere fuel id d seen hz) = false ->
  (hz = true \/ exists x, In x (map fst (visits root bases fuel false nohead d seen)) /\
     ((bases x <> None /\ hazyHere x = true) \/ (bases x = None /\ x = hzy))) ->
  snd (lookup root bases hzy declares hazyHere fuel id d seen hz) = true.
Proof.
  induction fuel as [|f IH]; intros id d seen hz; cbn [lookup visits].
  - intros _ [-> | (x & [] & _)]. reflexivity.
  - destruct (getNextBasePair root d seen) as [[[[b h]|] d'] seen']; [|intros _ [-> | (x & [] & _)]; reflexivity].
    destruct (bases b) as [bs|] eqn:EB.
    + destruct (declares b id); [discriminate|]. intros HF HX. apply IH; [exact HF|].
      destruct HX as [-> | (x & HI & HX)]; [left; reflexivity|]. destruct HI as [<- | HI]; [|right; exists x; auto].
      cbn [fst] in HX. destruct HX as [[_ HX] | [HX _]]; [|congruence]. left. rewrite HX, orb_true_r. reflexivity.
    + intros HF HX. apply IH; [exact HF|].
      destruct HX as [-> | (x & HI & HX)]; [left; reflexivity|]. destruct HI as [<- | HI]; [|right; exists x; auto].
      cbn [fst] in HX. destruct HX as [[HX _] | [_ HX]]; [congruence|]. left. rewrite HX, N.eqb_refl, orb_true_r. reflexivity.
Qed.

(* C95: a comparison is refused only once every class of the family is known: while one that may still turn out to have the
   function is not, there is no error *)
Theorem C95_not_early : forall root bases hzy declares hazyHere, (forall x, root x < 65536) -> forall o c,
  unsettled root bases hzy hazyHere c -> checkAndLabelCompare root bases hzy declares hazyHere o c <> Refused.
Proof.
  intros root bases hzy declares hazyHere small o c (x & HR & HX).
  destruct (dispatch_cases root bases hzy declares hazyHere small o c) as [(id & E1 & H1 & ->)|[(id & id' & E1 & E2 & H1 & H2 & ->)|(id & id' & E1 & E2 & H1 & H2 & ->)]];
    try discriminate.
  set (hz := snd (isFuncIdInAClassScopeOrAncestor root bases hzy declares hazyHere c id false)).
  pose proof (isFunc_found root bases hzy declares hazyHere small c id' hz) as F. unfold isFuncIdInAClassScopeOrAncestor in F |- *.
  rewrite lookup_unsettled; [discriminate| |].
  - destruct (fst (lookup root bases hzy declares hazyHere the_fuel id' [(c, 0)] [] hz)); auto. exfalso. apply H2, F. reflexivity.
  - right. exists x. split; [|exact HX]. apply (visits_reach root bases small). exists (c, 0). split; [left; reflexivity|exact HR].
Qed.
Print Assumptions C95_not_early.

(* C95: when the whole family of the class is known, a comparison calls the operator's function if the class or an
   ancestor has one; otherwise it is the negation of the inverse operator's if there is one of those; otherwise it is
   refused *)
Theorem C95_choice : forall root bases hzy declares hazyHere, (forall x, root x < 65536) -> forall o c,
  all_known root bases hzy hazyHere c ->
  exists id id', getOperatorOverloadFullNameId (opText o) = Some id /\ getOperatorOverloadFullNameId (opText (inverse o)) = Some id' /\
  let has := has_function root bases declares c in let res := checkAndLabelCompare root bases hzy declares hazyHere o c in
  (res = Replaced (Call o) <-> has id) /\
  (res = Replaced (NotCall (inverse o)) <-> ~ has id /\ has id') /\
  (res = Refused <-> ~ has id /\ ~ has id') /\
  res <> Dangling.
Proof.
  intros root bases hzy declares hazyHere small o c HK.
  destruct (compare_name o) as [i E]. destruct (compare_name (inverse o)) as [i' E']. exists i, i'. split; auto. split; auto. cbv zeta.
  destruct (dispatch_cases root bases hzy declares hazyHere small o c) as [(id & E1 & H1 & ->)|[(id & id' & E1 & E2 & H1 & H2 & ->)|(id & id' & E1 & E2 & H1 & H2 & ->)]];
    rewrite E in E1; injection E1 as <-; try (rewrite E' in E2; injection E2 as <-).
  - repeat split; try tauto; try discriminate; intros; tauto.
  - repeat split; try tauto; try discriminate; intros; tauto.
  - assert (snd (isFuncIdInAClassScopeOrAncestor root bases hzy declares hazyHere c i' (snd (isFuncIdInAClassScopeOrAncestor root bases hzy declares hazyHere c i false))) = false) as ->.
    { rewrite !(isFunc_hazy root bases hzy declares hazyHere small) by exact HK.
      destruct (fst (isFuncIdInAClassScopeOrAncestor _ _ _ _ _ c i' _)); auto. destruct (fst (isFuncIdInAClassScopeOrAncestor _ _ _ _ _ c i _)); auto. }
    repeat split; try tauto; try discriminate; intros; tauto.
Qed.
Print Assumptions C95_choice.

(* C95: if the operator functions the class has compare two objects as their numbers are compared, then so does every
   comparison that is accepted, also those for which the class has no function of their own *)
Theorem C95_value : forall root bases hzy declares hazyHere, (forall x, root x < 65536) -> forall o c k run (x y : Z),
  checkAndLabelCompare root bases hzy declares hazyHere o c = Replaced k ->
  (forall o' id, getOperatorOverloadFullNameId (opText o') = Some id -> has_function root bases declares c id -> run o' = compare_numbers o' x y) ->
  value run k = compare_numbers o x y.
Proof.
  intros root bases hzy declares hazyHere small o c k run x y HR HC.
  destruct (dispatch_cases root bases hzy declares hazyHere small o c) as [(id & E1 & H1 & E)|[(id & id' & E1 & E2 & H1 & H2 & E)|(id & id' & E1 & E2 & H1 & H2 & E)]];
    rewrite E in HR.
  - injection HR as <-. cbn [value]. eauto.
  - injection HR as <-. cbn [value]. rewrite (HC _ _ E2 H2). destruct o; cbn [inverse compare_numbers]; lia.
  - destruct (snd _); discriminate.
Qed.
Print Assumptions C95_value.

(* a comparison of a class that has neither function while a base class is not known yet: the node is deleted although
   its parent still holds it *)
Theorem C95_dangling_refuted : ~ (forall root bases hzy declares hazyHere o c, (forall x, root x < 65536) ->
  checkAndLabelCompare root bases hzy declares hazyHere o c <> Dangling).
Proof.
  intros H. apply (H (fun x => x mod 65536) (fun x => if x =? 20 then Some [9] else None) 9 (fun _ _ => false) (fun x => x =? 20) Eq 20).
  - intros x. lia.
  - vm_compute. reflexivity.
Qed.
Print Assumptions C95_dangling_refuted.

(* while the base class is not known, the function of the inverse operator is taken for good, although the base class,
   once known, has the operator itself *)
Definition early_bases (known : bool) (x : N) : option (list N) :=
  if x =? 20 then Some [if known then 21 else 9] else if x =? 21 then Some [] else None.
Definition early_declares (x : N) (id : list N) : bool :=
  ((x =? 20) && text_eqb id (txt "_operator213d")) || ((x =? 21) && text_eqb id (txt "_operator3d3d")).
Theorem C95_early_refuted : ~ (forall root bases bases' hzy declares hazyHere hazyHere' o c k, (forall x, root x < 65536) ->
  (forall x bs, bases x = Some bs -> exists bs', bases' x = Some bs' /\ length bs' = length bs) ->
  checkAndLabelCompare root bases hzy declares hazyHere o c = Replaced k ->
  checkAndLabelCompare root bases' hzy declares hazyHere' o c = Replaced k).
Proof.
  intros H.
  assert (Replaced (Call Eq) = Replaced (NotCall Ne)) as E; [|discriminate].
  rewrite <- (H (fun x => x mod 65536) (early_bases false) (early_bases true) 9 early_declares (fun x => x =? 20) (fun _ => false) Eq 20 (NotCall Ne)).
  - vm_compute. reflexivity.
  - intros x. lia.
  - intros x bs. unfold early_bases. destruct (x =? 20); [intros E; injection E as <-; exists [21]; auto|].
    destruct (x =? 21); [intros E; injection E as <-; exists []; auto|discriminate].
  - vm_compute. reflexivity.
Qed.
Print Assumptions C95_early_refuted.

(* class 22 derives from 20 and 21; 20 has < and 21 has ==: four of the comparisons are served *)
Definition ex_bases (x : N) : option (list N) := if x =? 22 then Some [20; 21] else if (x =? 20) || (x =? 21) then Some [0] else None.
Definition ex_declares (x : N) (id : list N) : bool :=
  ((x =? 20) && text_eqb id (txt "_operator3c")) || ((x =? 21) && text_eqb id (txt "_operator3d3d")).
Example C95_ex : let go o := checkAndLabelCompare (fun x => x mod 65536) ex_bases 9 ex_declares (fun _ => false) o 22 in
  map go [Eq; Ne; Lt; Le; Gt; Ge] = [Replaced (Call Eq); Replaced (NotCall Eq); Replaced (Call Lt); Refused; Refused; Replaced (NotCall Lt)] /\
  getOperatorOverloadFullNameId (txt "<<=") = Some (txt "_operator3c3c3d") /\ getOperatorOverloadFullNameId (txt "&&") = None /\
  getUlamNameIdForOperatorOverloadToken (txt "_operator3c3c3d") = txt "operator<<=" /\
  all_known (fun x => x mod 65536) ex_bases 9 (fun _ => false) 22.
Proof.
  split; [vm_compute; reflexivity|]. split; [reflexivity|]. split; [reflexivity|]. split; [reflexivity|].
  assert (forall x y, reach (fun x => x mod 65536) ex_bases x y -> x = 22 \/ x = 20 \/ x = 21 \/ x = 0 -> y = 22 \/ y = 20 \/ y = 21 \/ y = 0) as HR.
  { induction 1 as [x|x y z (bs & b & E & HI & <-) HR IH]; auto. intros HX. apply IH. unfold ex_bases in E.
    destruct HX as [-> | [-> | [-> | ->]]]; cbn in E; try discriminate; injection E as <-; cbn [In] in HI;
      repeat match goal with H : _ \/ _ |- _ => destruct H as [<-|H] end; try contradiction; cbn; auto. }
  intros x HX. split; auto. intros ->. apply HR in HX; [lia|left; reflexivity].
Qed.

(* class 20 with the unknown base 9 *)
Example C95_not_early_ex :
  let r := fun x => x mod 65536 in let b := fun x => if x =? 20 then Some [9] else None in
  unsettled r b 9 (fun _ => false) 20 /\ checkAndLabelCompare r b 9 (fun _ _ => false) (fun _ => false) Eq 20 = Dangling.
Proof.
  cbv zeta. split; [|vm_compute; reflexivity]. exists 9. split; [|right; split; reflexivity].
  eapply reach_step; [|apply reach_refl]. exists [9], 9. repeat split. left. reflexivity.
Qed.
