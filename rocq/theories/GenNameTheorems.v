(* GenNameTheorems.v: C93. *)
From Coq Require Import String List NArith ZArith Lia Bool.
From Coq Require Import ZifyBool ZifyNat ZifyN.
From Verif Require Import Base LeximitedModel LeximitedSpec LeximitedProofs LeximitedTheorems GenNameModel GenNameSpec.
Import ListNotations.
Open Scope N_scope.

(* the name of a thing *)
Definition nameOf (t : thing) : text :=
  match t with
  | Register l n => getTmpVarAsString l n TMPREGISTER
  | Value l n => getTmpVarAsString l n TMPBITVAL
  | AutoRef l n => getTmpVarAsString l n TMPAUTOREF
  | AtomT n => getTmpVarAsString false n TMPTATOM
  | AtomStorage n => getTmpVarAsString false n TMPATOMBS
  | BitVec l n => getTmpVarAsString l n TMPTBV
  | RefTmp n => getUlamRefTmpVarAsString n
  | RefMutTmp n => getUlamRefMutTmpVarAsString n
  | ClassTmp n => getUlamClassTmpVarAsString n
  | RegistryTmp n => getUlamClassRegistryTmpVarAsString n
  | Label n => getLabelNumAsString n
  | InitDone n => getInitDoneVarAsString n
  | VFuncPtr n => getVFuncPtrTmpNumAsString n
  | LocalVar s => varName false s
  | LocalRef s => varName true s
  | MemberOfClass s => memberName true s
  | Member s => memberName false s
  | ConstOf s => constantName s
  | FuncOf s n ty => functionName s n ty
  | InitOfLocal s => initName (varName false s)
  | InitOfConst s => initName (constantName s)
  | This => hiddenArg
  | Context => hiddenContext
  end.
(* the other functions give these names too *)
Lemma same_names : (forall l n, getTmpVarAsString l n TMPARRAYIDX = nameOf (Register l n)) /\ (forall l n, getTmpVarAsString l n TMPTATOM = nameOf (AtomT n)) /\
  (forall l n, getTmpVarAsString l n TMPATOMBS = nameOf (AtomStorage n)) /\ (forall n, getAtomBitStorageTmpVarAsString n = nameOf (AtomStorage n)).
Proof. repeat split. Qed.

(* every name is a beginning of its kind and the rest *)
Definition front (t : thing) : text :=
  match t with
  | Register l _ => if l then txt "Uh_5tlreg" else txt "Uh_5tureg"
  | Value l _ => if l then txt "Uh_5tlval" else txt "Uh_5tuval"
  | AutoRef l _ => if l then txt "Uh_6tlref" else txt "Uh_6turef"
  | AtomT _ => txt "Uh_3tut" | AtomStorage _ => txt "Uh_4tabs"
  | BitVec l _ => if l then txt "Uh_3tlbv" else txt "Uh_3tubv"
  | RefTmp _ => txt "Uh_3tur" | RefMutTmp _ => txt "Uh_4turm" | ClassTmp _ => txt "Uh_7tuclass" | RegistryTmp _ => txt "Uh_4tucr"
  | Label _ => txt "Ul_214endcontrolloop" | InitDone _ => txt "Uh_8initdone" | VFuncPtr _ => txt "Uf_tvfp"
  | LocalVar _ => txt "Uv_" | LocalRef _ => txt "Ur_" | MemberOfClass _ => txt "Ut_Um_" | Member _ => txt "Up_Um_" | ConstOf _ => txt "Uc_"
  | FuncOf _ _ _ => txt "Uf_" | InitOfLocal _ => txt "_initUv_" | InitOfConst _ => txt "_initUc_"
  | This => txt "ur" | Context => txt "uc"
  end.
Definition rest (t : thing) : text :=
  match t with
  | Register _ n | Value _ n | AutoRef _ n | AtomT n | AtomStorage n | BitVec _ n | RefTmp n | RefMutTmp n | ClassTmp n | RegistryTmp n
  | Label n | InitDone n | VFuncPtr n => lexnum n
  | LocalVar s | LocalRef s | MemberOfClass s | Member s | ConstOf s | InitOfLocal s | InitOfConst s => ToLeximited s
  | FuncOf s n ty => ToLeximited s ++ ToLeximitedNumber32u n ++ ty
  | This | Context => []
  end.
Lemma nameOf_eq t : nameOf t = front t ++ rest t.
Proof. destruct t; try reflexivity; destruct loadable; reflexivity. Qed.
(* two texts part before either ends *)
Fixpoint parts (p q : text) : bool :=
  match p, q with a :: p', b :: q' => negb (a =? b) || parts p' q' | _, _ => false end.
Lemma parts_neq p : forall q a b, parts p q = true -> p ++ a <> q ++ b.
Proof.
  induction p as [|x p IH]; intros [|y q] a b H; try discriminate. cbn [parts] in H. intros E. cbn [app] in E. injection E as E1 E2.
  subst y. rewrite N.eqb_refl in H. cbn in H. revert E2. apply IH. exact H.
Qed.
Lemma lex_digit s : N.of_nat (length s) < 2 ^ 32 -> exists d r, ToLeximited s = d :: r /\ 48 <= d <= 57.
Proof.
  intros H. unfold ToLeximited. change (2 ^ 32) with 4294967296 in H. unfold u32, two32. rewrite N.mod_small by exact H.
  generalize dependent (N.of_nat (length s)). intros n _. unfold ToLeximitedHeader. cbn [lexheader_fuel]. destruct (N.ltb_spec n 9) as [L|L].
  - assert (n = 0 \/ n = 1 \/ n = 2 \/ n = 3 \/ n = 4 \/ n = 5 \/ n = 6 \/ n = 7 \/ n = 8) as C by lia.
    destruct C as [->|[->|[->|[->|[->|[->|[->|[->| ->]]]]]]]]; eexists _, _; (split; [reflexivity|vm_compute; split; discriminate]).
  - eexists _, _. split; [reflexivity|]. vm_compute; split; discriminate.
Qed.
Lemma lexnum_inj m n r r' : m < 2 ^ 31 -> n < 2 ^ 31 -> lexnum m ++ r = lexnum n ++ r' -> m = n /\ r = r'.
Proof.
  intros Hm Hn E. unfold lexnum in E. change (2 ^ 31) with 2147483648 in *.
  apply C02_signed32_injective in E; [|change (2 ^ 31)%Z with 2147483648%Z; lia..]. destruct E as (E & ->). split; [lia|reflexivity].
Qed.
Lemma lex_inj s t r r' : N.of_nat (length s) < 2 ^ 32 -> N.of_nat (length t) < 2 ^ 32 -> ToLeximited s ++ r = ToLeximited t ++ r' -> s = t /\ r = r'.
Proof. intros. apply C01_leximited_prefix_free; assumption. Qed.
Lemma func_neq s n ty x : N.of_nat (length s) < 2 ^ 32 -> txt "Uf_" ++ (ToLeximited s ++ ToLeximitedNumber32u n ++ ty) <> txt "Uf_tvfp" ++ x.
Proof. intros H E. destruct (lex_digit s H) as (d & r & Q & D). rewrite Q in E. injection E as E _. lia. Qed.

(* different things never have the same name, and no name is the beginning of another's with something that is no part of a name *)
Theorem C93_distinct : forall t u, ok t -> ok u -> nameOf t = nameOf u -> t = u.
Proof.
  intros t u Ht Hu E. rewrite !nameOf_eq in E.
  destruct (parts (front t) (front u)) eqn:P. { exfalso. exact (parts_neq _ _ _ _ P E). }
  destruct t, u; cbn [front] in P; repeat match type of P with context [if ?b then _ else _] => is_var b; destruct b end;
    try (vm_compute in P; discriminate P); cbn [front rest ok] in *;
    try (exfalso; revert E; apply func_neq; tauto); try (exfalso; symmetry in E; revert E; apply func_neq; tauto); try reflexivity;
    apply app_inv_head in E;
    first [ rewrite <- (app_nil_r (lexnum num)), <- (app_nil_r (lexnum num0)) in E; apply lexnum_inj in E; [destruct E as (-> & _); reflexivity|assumption..]
          | apply lex_inj in E; [|tauto..]; destruct E as (-> & E); apply C02_unsigned64_injective in E; [destruct E as (-> & ->); reflexivity|..];
            match goal with |- _ < _ => apply N.lt_trans with (2 ^ 31); [tauto|reflexivity] end
          | rewrite <- (app_nil_r (ToLeximited name)), <- (app_nil_r (ToLeximited name0)) in E; apply lex_inj in E; [destruct E as (-> & _); reflexivity|assumption..] ].
Qed.
Print Assumptions C93_distinct.
(* the test for temporaries is right on all of these names *)
Theorem C93_tmp : forall t, ok t -> isStringATmpVar (nameOf t) = temporary t.
Proof.
  intros t H. destruct t; cbn [ok] in H; try reflexivity; try (destruct loadable; reflexivity);
    try (destruct (lex_digit name H) as (d & r & Q & _); cbn [nameOf]; unfold varName, memberName, constantName, mangled; rewrite Q; reflexivity).
  destruct (lex_digit name (proj1 H)) as (d & r & Q & _). cbn [nameOf]. unfold functionName, mangled. rewrite Q. reflexivity.
Qed.
Print Assumptions C93_tmp.
(* a name that a user may give to a variable begins with a small letter *)
Theorem C93_user : forall c s, 97 <= c <= 122 -> isStringATmpVar (c :: s) = false.
Proof. intros c s H. unfold isStringATmpVar. destruct s as [|a [|b [|d s]]]; try reflexivity. replace (c =? 85) with false by lia. reflexivity. Qed.
Print Assumptions C93_user.
Example C93_ex : nameOf (Register true 12) = txt "Uh_5tlreg212" /\ nameOf (LocalVar (txt "i")) = txt "Uv_1i" /\ nameOf (VFuncPtr 3) = txt "Uf_tvfp13" /\
  nameOf (FuncOf (txt "tvfp") 1 (txt "10")) = txt "Uf_4tvfp1110" /\ ok (FuncOf (txt "tvfp") 1 (txt "10")) /\ ok (Register true 2147483647) /\
  nameOf (RefTmp 21) = txt "Uh_3tur221" /\ nameOf (AtomT 21) = txt "Uh_3tut221" /\ isStringATmpVar (txt "Uh_3tur221") = true.
Proof. repeat split; reflexivity. Qed.
