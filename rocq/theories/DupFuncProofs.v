(* DupFuncProofs.v: keys and signatures; what the tables hold. *)
From Coq Require Import String List NArith ZArith Lia Bool.
From Coq Require Import ZifyBool ZifyNat ZifyN.
From Verif Require Import Base LeximitedModel LeximitedSpec LeximitedProofs LeximitedTheorems BitVec UTypeModel PrimModel PrimSpec PrimProofs TypeTableModel FamilyModel FamilyProofs FamilyTheorems
  MangleModel MangleSpec MangleProofs MangleTheorems DupFuncModel DupFuncSpec.
Import ListNotations.
Ltac Zify.zify_post_hook ::= Z.div_mod_to_equations.
Open Scope N_scope.
Local Opaque the_fuel.

(* ---- the same signature gives the same key ---- *)
Lemma sizes_same t t' : same_shape t t' -> mangledSizes t = mangledSizes t'.
Proof.
  intros (HA & HB & HR). unfold mangledSizes. rewrite HA, HB. assert (isReference t = isReference t') as ->; auto.
  rewrite <- !ref_iff in HR. destruct (isReference t), (isReference t'); auto; destruct HR as [H1 H2]; [symmetry; auto|auto].
Qed.

Lemma lexNumber_same e n d d' : primitive e -> 1 <= n <= 64 -> d < 2 ^ n -> d' < 2 ^ n ->
  meaning e (msb_bits (N.to_nat n) d) = meaning e (msb_bits (N.to_nat n) d') -> lexNumber e (Z.of_N n) d = lexNumber e (Z.of_N n) d'.
Proof.
  intros HP Hn Hd Hd' E. rewrite <- !ext_val_meaning in E by (auto; lia).
  assert (forall c, c < 2 ^ n -> (Z.of_N c mod 2 ^ Z.of_N n = Z.of_N c)%Z) as HM.
  { intros c Hc. apply Z.mod_small. split; [lia|]. change 2%Z with (Z.of_N 2). rewrite <- N2Z.inj_pow. lia. }
  assert (forall c, n <= 32 -> c < 2 ^ n -> u32 c = c) as HU.
  { intros c H32 Hc. apply N.mod_small. assert (2 ^ n <= 2 ^ 32) by (apply N.pow_le_mono_r; lia). change two32 with (2 ^ 32). lia. }
  destruct HP as [[-> | [-> | ->]] | [-> | ->]]; unfold lexNumber.
  - destruct (Z.leb_spec (Z.of_N n) 32); [rewrite !HU by (auto; lia)|]; rewrite E; reflexivity.
  - unfold ext_val in E. rewrite !HM in E by auto. apply N2Z.inj in E. subst. reflexivity.
  - rewrite E. reflexivity.
  - rewrite E. reflexivity.
  - unfold ext_val in E. rewrite !HM in E by auto. apply N2Z.inj in E. subst. reflexivity.
Qed.

Lemma arg_same a b : number_arg a -> number_arg b -> same_arg a b -> argText a = argText b.
Proof.
  intros (HP & _ & n & l & HV & HB & Hn & HF & HA) (_ & _ & n' & l' & HV' & HB' & _ & HF' & HA') [[HE HS] HSV].
  pose proof HS as (EA & EB & _). assert (n' = n) by lia. subst n'.
  unfold same_value in HSV. rewrite HV, HV' in HSV. cbv zeta in HSV. rewrite HB in HSV. replace (Z.to_nat (Z.of_N n)) with (N.to_nat n) in HSV by lia.
  assert (map (lexNumber (ty_enum (a_ty a)) (Z.of_N n)) l = map (lexNumber (ty_enum (a_ty a)) (Z.of_N n)) l') as EM.
  { clear - HP Hn HF HF' HSV. induction HSV as [|d d' l l' H HL IH]; auto. inversion HF; inversion HF'; subst. cbn [map]. f_equal; auto. apply lexNumber_same; auto. }
  assert (mangledType (a_ty a) = mangledType (a_ty b)) as ET by (unfold mangledType; rewrite HE, (sizes_same _ _ HS); reflexivity).
  assert (isScalar (a_ty a) = isScalar (a_ty b)) as ES by (unfold isScalar; rewrite EA; reflexivity).
  assert (getTotalBitSize (a_ty a) = getTotalBitSize (a_ty b)) as EG by (unfold getTotalBitSize; rewrite EA, EB; reflexivity).
  unfold argText. rewrite <- ET, <- ES, <- EG, <- HE, <- EB, HV, HV', HB, EM.
  destruct (negb (isScalar (a_ty a))); auto.
  assert (List.length l = List.length l') as EL by (clear - HSV; induction HSV; cbn [List.length]; auto).
  destruct l as [|d [|d1 l]], l' as [|d' [|d1' l']]; cbn [List.length] in EL; try discriminate; auto.
  cbn [map] in EM. injection EM as EM. rewrite EM. auto.
Qed.

Lemma param_same templ p q : known_param templ p /\ declared p -> known_param templ q /\ declared q -> same_param p q -> paramText p = paramText q.
Proof.
  intros [HP DP] [HQ DQ] HS. destruct p as [t|name t args], q as [t'|name' t' args']; cbn [same_param] in HS; try contradiction.
  - destruct HS as [HE HS]. cbn [paramText]. unfold mangledType. rewrite HE, (sizes_same _ _ HS). reflexivity.
  - destruct HS as (<- & HS & HA). destruct HP as (_ & _ & HP). destruct HQ as (_ & _ & HQ).
    assert (mangledClassType name t = mangledClassType name t') as EC by (unfold mangledClassType; rewrite (sizes_same _ _ HS); reflexivity).
    destruct args as [l|], args' as [l'|]; try contradiction; cbn [paramText]; rewrite EC; auto.
    destruct (templ name) as [k|]; try contradiction. destruct HP as (HL & _ & HF). destruct HQ as (HL' & _ & HF').
    assert (map argText l = map argText l') as EM.
    { clear - HA HF HF'. induction HA as [|a b l l' H HL IH]; auto. inversion HF; inversion HF'; subst. cbn [map]. f_equal; auto. apply arg_same; auto. }
    assert (isAltRefType t = isAltRefType t') as ER.
    { destruct HS as (_ & _ & HR). rewrite <- !ref_iff in HR. unfold isReference in HR. revert HR. unfold isAltRefType. cbn [declared] in DP, DQ. destruct (ty_ref t), (ty_ref t'); cbn; intros [H1 H2]; auto; try congruence; try (now specialize (H1 eq_refl)); try (now specialize (H2 eq_refl)). }
    unfold formatArgs. rewrite EM, ER, HL, HL'. reflexivity.
Qed.

Lemma key_of_signature templ f g : known_func templ f -> known_func templ g -> same_signature f g -> sig_key f = sig_key g.
Proof.
  intros (_ & _ & HF & _) (_ & _ & HG & _) [EN HS]. unfold sig_key, getMangledNameWithTypes. rewrite EN.
  assert (map paramText (fn_params f) = map paramText (fn_params g)) as ->.
  { clear EN. induction HS as [|p q l l' H HL IH]; auto. inversion HF; inversion HG; subst. cbn [map]. f_equal; auto. eapply param_same; eauto. }
  assert (List.length (fn_params f) = List.length (fn_params g)) as ->; auto. clear - HS. induction HS; cbn [List.length]; auto.
Qed.
Lemma signature_of_key templ f g : known_func templ f -> known_func templ g -> sig_key f = sig_key g -> same_signature f g.
Proof.
  intros (LN & LP & HF & NF) (LN' & LP' & HG & NG) E. unfold sig_key in E.
  destruct (getMangledNameWithTypes (fn_name f) (fn_params f)) as [x|] eqn:E1; [|congruence].
  destruct (getMangledNameWithTypes (fn_name g) (fn_params g)) as [y|] eqn:E2; [|congruence]. subst y.
  assert (forall l, Forall (fun p => known_param templ p /\ declared p) l -> Forall (known_param templ) l) as HK by (intros l; apply Forall_impl; tauto).
  apply HK in HF, HG.
  exact (C28_function_names_distinct templ _ _ _ _ x LN LN' LP LP' HF HG E1 E2).
Qed.

(* ---- what the tables hold: of each key the first function ---- *)
Section Tables.
Variable compare : N -> N -> cmp.
Notation step := (checkForDuplicateFunctionSignature compare).
Notation names := (checkTableOfFunctions compare).
Notation rets := (checkTableOfFunctionsSignatureReturnTypes compare).

Lemma text_eqb_sym a b : text_eqb a b = text_eqb b a.
Proof. destruct (text_eqb a b) eqn:E, (text_eqb b a) eqn:F; auto. - apply text_eqb_eq in E. subst. rewrite (proj2 (text_eqb_eq b b)) in F; auto. - apply text_eqb_eq in F. subst. rewrite (proj2 (text_eqb_eq a a)) in E; auto. Qed.
Lemma look_put t k e k' : look (put t k e) k' = if text_eqb k' k then Some e else look t k'.
Proof.
  induction t as [|[j d] t IH]; cbn [put look]; auto.
  destruct (text_eqb k j) eqn:E.
  - apply text_eqb_eq in E. subst j. cbn [look]. destruct (text_eqb k' k); auto.
  - cbn [look]. destruct (text_eqb k' j) eqn:F; auto. apply text_eqb_eq in F. subst j. rewrite text_eqb_sym in E. rewrite E. auto.
Qed.

Definition brief (e : entry) : N * bool := (e_ret e, e_virtual e).
Definition view (t : fst_table) (k : text) : option (N * bool) := option_map brief (look t k).
Definition orf (a : option (N * bool)) (b : option (N * bool)) := match a with Some v => Some v | None => b end.
Definition mine (f : func) : N * bool := (fn_ret f, fn_virtual f).
Definition firstf (l : list func) (k : text) : option (N * bool) := option_map mine (List.find (fun f => text_eqb k (sig_key f)) l).

Definition ret_bad (v : option (N * bool)) (f : func) : bool :=
  match v with Some (r, _) => match compare r (fn_ret f) with NotSame => true | _ => false end | None => false end.
Definition dup_bad (v : option (N * bool)) : bool := match v with Some (_, b) => negb b | None => false end.

Lemma step_spec t f : let '(t', dup, n) := step t f in
  (forall k, view t' k = orf (view t k) (firstf [f] k)) /\ dup = dup_bad (view t (sig_key f)) /\ n = (if ret_bad (view t (sig_key f)) f then 1 else 0)%nat.
Proof.
  unfold checkForDuplicateFunctionSignature, view, firstf. cbn [List.find].
  destruct (look t (sig_key f)) as [e|] eqn:EL; cbn [option_map dup_bad ret_bad brief].
  - destruct (compare (e_ret e) (fn_ret f)) eqn:EC; (split; [|split; reflexivity]); intros k; rewrite look_put; destruct (text_eqb k (sig_key f)) eqn:EK;
      try (apply text_eqb_eq in EK; subst k; rewrite EL); cbn [option_map orf]; try (destruct (look t k); reflexivity); destruct (e_virtual e) eqn:EV; unfold brief; cbn; rewrite ?EV; reflexivity.
  - split; [|split; reflexivity]. intros k. rewrite look_put. destruct (text_eqb k (sig_key f)) eqn:EK.
    + apply text_eqb_eq in EK. subst k. rewrite EL. reflexivity.
    + destruct (look t k); reflexivity.
Qed.

Lemma firstf_cons f l k : firstf (f :: l) k = orf (firstf [f] k) (firstf l k).
Proof. unfold firstf. cbn [List.find]. destruct (text_eqb k (sig_key f)); reflexivity. Qed.
Lemma orf_assoc a b c : orf (orf a b) c = orf a (orf b c).
Proof. destruct a; auto. Qed.

Lemma rets_spec : forall fs t, (forall k, view (fst (rets t fs)) k = orf (view t k) (firstf fs k)) /\
  (snd (rets t fs) = 0%nat <-> forall l1 f l2, fs = l1 ++ f :: l2 -> ret_bad (orf (view t (sig_key f)) (firstf l1 (sig_key f))) f = false).
Proof.
  induction fs as [|f fs IH]; intros t; cbn [checkTableOfFunctionsSignatureReturnTypes].
  - cbn [fst snd]. split; [intros k; unfold firstf; cbn; destruct (view t k); auto|]. split; auto. intros _ l1 g l2 E. destruct l1; discriminate.
  - pose proof (step_spec t f) as HS. destruct (step t f) as [[t1 dup] n]. destruct HS as (HV & _ & ->).
    specialize (IH t1). destruct (rets t1 fs) as [t2 m]. cbn [fst snd] in *. destruct IH as [IV IE]. split.
    + intros k. rewrite IV, HV, orf_assoc, <- firstf_cons. reflexivity.
    + split.
      * intros HZ l1 g l2 E. destruct l1 as [|f0 l1]; injection E as -> ->.
        -- unfold firstf. cbn. destruct (view t (sig_key g)) as [v|] eqn:EV; auto. cbn [orf]. destruct (ret_bad (Some v) g); auto. lia.
        -- rewrite firstf_cons, <- orf_assoc, <- HV. apply (proj1 IE) with (l2 := l2); auto. lia.
      * intros HA. assert (m = 0%nat) as ->.
        { apply IE. intros l1 g l2 ->. rewrite HV, orf_assoc, <- firstf_cons. apply (HA (f :: l1) g l2). reflexivity. }
        specialize (HA [] f fs eq_refl). unfold firstf in HA. cbn in HA. destruct (view t (sig_key f)) as [v|]; cbn [orf] in HA; [rewrite HA; auto|auto].
Qed.

Lemma names_spec : forall fs t,
  snd (names t fs) = 0%nat <-> forall l1 f l2, fs = l1 ++ f :: l2 -> let v := orf (view t (sig_key f)) (firstf l1 (sig_key f)) in ret_bad v f = false /\ dup_bad v = false.
Proof.
  induction fs as [|f fs IH]; intros t; cbn [checkTableOfFunctions].
  - cbn [snd]. split; auto. intros _ l1 g l2 E. destruct l1; discriminate.
  - pose proof (step_spec t f) as HS. destruct (step t f) as [[t1 dup] n]. destruct HS as (HV & -> & ->).
    specialize (IH t1). destruct (names t1 fs) as [t2 m]. cbn [snd] in *. split.
    + intros HZ l1 g l2 E. cbv zeta. destruct l1 as [|f0 l1]; injection E as -> ->.
      * unfold firstf. cbn. destruct (view t (sig_key g)) as [v|] eqn:EV; auto. cbn [orf]. destruct (ret_bad (Some v) g), (dup_bad (Some v)); auto; lia.
      * rewrite firstf_cons, <- orf_assoc, <- HV. apply (proj1 IH) with (l2 := l2); auto. lia.
    + intros HA. assert (m = 0%nat) as ->.
      { apply IH. intros l1 g l2 ->. cbv zeta. rewrite HV, orf_assoc, <- firstf_cons. apply (HA (f :: l1) g l2). reflexivity. }
      destruct (HA [] f fs eq_refl) as [H1 H2]. unfold firstf in H1, H2. cbn in H1, H2. destruct (view t (sig_key f)) as [v|]; cbn [orf] in H1, H2; [rewrite H1, H2; auto|auto].
Qed.

Lemma rets_app : forall a b t, snd (rets t (a ++ b)) = (snd (rets t a) + snd (rets (fst (rets t a)) b))%nat.
Proof.
  induction a as [|f a IH]; intros b t; cbn [app checkTableOfFunctionsSignatureReturnTypes]; auto.
  destruct (step t f) as [[t1 dup] n]. specialize (IH b t1). destruct (rets t1 (a ++ b)) as [t2 m], (rets t1 a) as [t3 m3]. cbn [fst snd] in *. lia.
Qed.

Variable bases : N -> option (list N).
Variable funcs : N -> list func.
Definition definedb (c : N) : bool := match bases c with Some _ => true | None => false end.
Lemma family_spec : forall l t, check_family compare bases funcs l t = 0%nat <->
  (forall c, In c l -> definedb c = true -> checkMatchingFunctions compare funcs c = 0%nat) /\ snd (rets t (flat_map funcs (filter definedb l))) = 0%nat.
Proof.
  induction l as [|c l IH]; intros t; cbn [check_family filter].
  - cbn. split; auto. intros _. split; auto. intros c [].
  - unfold definedb at 2. destruct (bases c) as [bs|] eqn:EB.
    + cbn [flat_map]. pose proof (rets_app (funcs c) (flat_map funcs (filter definedb l)) t) as HA. destruct (rets t (funcs c)) as [t1 n]. cbn [fst snd] in HA. rewrite HA.
      specialize (IH t1). split.
      * intros HZ. assert (check_family compare bases funcs l t1 = 0%nat) as H0 by lia. apply IH in H0. destruct H0 as [H1 H2]. split; [|lia]. intros d [<-|HD] HB; [lia|auto].
      * intros [H1 H2]. assert (checkMatchingFunctions compare funcs c = 0%nat) as HC by (apply H1; [left; auto|unfold definedb; rewrite EB; auto]).
        assert (check_family compare bases funcs l t1 = 0%nat) as H0 by (apply IH; split; [intros d HD HB; apply H1; auto; right; auto|lia]). lia.
    + rewrite IH. split; intros [H1 H2]; split; auto. intros d [<-|HD] HB; auto. unfold definedb in HB. rewrite EB in HB. discriminate. intros d HD HB. apply H1; auto. right. auto.
Qed.
End Tables.

(* ---- keys while parsing ---- *)
Lemma dec_head n : exists c r, dec n = c :: r /\ dec_digit c = true.
Proof.
  pose proof (dec_all_digits n) as H. destruct (dec n) as [|c r] eqn:E.
  - exfalso. pose proof (read_dec_dec n) as R. rewrite E in R. cbn in R. subst n. vm_compute in E. discriminate.
  - inversion H; subst. eauto.
Qed.
Definition nondigit (l : text) : Prop := match l with [] => True | c :: _ => dec_digit c = false end.
Lemma digits_prefix : forall a b r r', Forall (fun c => dec_digit c = true) a -> Forall (fun c => dec_digit c = true) b -> nondigit r -> nondigit r' ->
  a ++ r = b ++ r' -> a = b /\ r = r'.
Proof.
  induction a as [|x a IH]; intros [|y b] r r' HA HB HR HR' E; cbn [app] in E; auto.
  - subst r. inversion HB; subst. cbn in HR. congruence.
  - subst r'. inversion HA; subst. cbn in HR'. congruence.
  - injection E as -> E. inversion HA; inversion HB; subst. destruct (IH b r r') as [-> ->]; auto.
Qed.
Lemma dec_prefix m n r r' : nondigit r -> nondigit r' -> dec m ++ r = dec n ++ r' -> m = n /\ r = r'.
Proof. intros HR HR' E. apply digits_prefix in E; auto using dec_all_digits. destruct E as [E ->]. split; auto. apply dec_inj; auto. Qed.

Definition stop (l : text) : Prop := match l with [] => True | c :: _ => c = 44 end.
Lemma stop_nondigit l : stop l -> nondigit l. Proof. destruct l; cbn; auto. intros ->. reflexivity. Qed.
Lemma item_inj p q r r' : stop r -> stop r' -> pkeyText p ++ r = pkeyText q ++ r' -> item p = item q /\ r = r'.
Proof.
  intros HR HR' E. pose proof (stop_nondigit _ HR). pose proof (stop_nondigit _ HR').
  destruct p as [u n|u b|u], q as [u' n'|u' b'|u']; unfold pkeyText in E; rewrite <- ?app_assoc in E; cbn [app] in E; injection E as E; cbn [item];
    try (destruct b); try (destruct b'); cbn [app] in E; rewrite <- ?app_assoc in E;
    apply dec_prefix in E; auto; try (cbn; auto; fail); destruct E as [-> E]; try (injection E as E); try (apply dec_prefix in E; auto; destruct E as [-> E]); subst; auto;
    try (exfalso; destruct r as [|c r]; cbn in *; discriminate || (injection E as E; subst; discriminate));
    try (exfalso; destruct r' as [|c r']; cbn in *; discriminate || (injection E as E; subst; discriminate)); auto.
Qed.
Lemma pkey_head p : exists r, pkeyText p = 44 :: r. Proof. destruct p; cbn; eauto. Qed.
Lemma stop_items ps : stop (flat_map pkeyText ps).
Proof. destruct ps as [|p ps]; cbn [flat_map]; [exact I|]. destruct (pkey_head p) as (r & ->). reflexivity. Qed.
Lemma items_inj : forall ps qs, flat_map pkeyText ps = flat_map pkeyText qs -> map item ps = map item qs.
Proof.
  induction ps as [|p ps IH]; intros [|q qs] E; cbn [flat_map map] in *; auto.
  - destruct (pkey_head q) as (r & EQ). rewrite EQ in E. discriminate.
  - destruct (pkey_head p) as (r & EQ). rewrite EQ in E. discriminate.
  - apply item_inj in E; auto using stop_items. destruct E as [-> E]. f_equal. auto.
Qed.
Lemma item_text p q : item p = item q -> pkeyText p = pkeyText q.
Proof. destruct p as [u n|u [|]|u], q as [u' n'|u' [|]|u']; cbn [item]; intros E; injection E; intros; subst; try discriminate; auto; cbn [pkeyText]; rewrite ?app_nil_r; auto. Qed.
Lemma items_text : forall ps qs, map item ps = map item qs -> flat_map pkeyText ps = flat_map pkeyText qs.
Proof. induction ps as [|p ps IH]; intros [|q qs] E; cbn [map flat_map] in *; try discriminate; auto. injection E as E1 E2. rewrite (item_text _ _ E1), (IH _ E2). auto. Qed.
Lemma void_item ps : map item ps = [(Void_uti, None, false)] -> ps = [KType Void_uti] \/ ps = [KGiven Void_uti false].
Proof. destruct ps as [|p [|q ps]]; cbn [map]; try discriminate. intros E. injection E as E. destruct p as [u n|u b|u]; cbn [item] in E; injection E as; subst; try discriminate; auto. Qed.

Lemma key_inj name name' ps qs : N.of_nat (List.length name) < 2 ^ 32 -> N.of_nat (List.length name') < 2 ^ 32 -> no_void ps -> no_void qs ->
  (getMangledNameWithUTIparameters name ps = getMangledNameWithUTIparameters name' qs <-> name = name' /\ map item ps = map item qs).
Proof.
  intros HN HN' [NP NP'] [NQ NQ']. unfold getMangledNameWithUTIparameters. split.
  - intros E. apply app_inv_head in E. apply ToLeximited_prefix_free in E; auto. destruct E as [-> E]. split; auto.
    assert (forall l, flat_map pkeyText l = [44] ++ dec Void_uti -> l = [KType Void_uti] \/ l = [KGiven Void_uti false]) as HV.
    { intros l EL. apply void_item. change [(Void_uti, None : option N, false)] with (map item [KType Void_uti]). apply items_inj. cbn [flat_map pkeyText]. rewrite app_nil_r. auto. }
    destruct ps as [|p ps], qs as [|q qs]; auto.
    + symmetry in E. apply HV in E. tauto.
    + apply HV in E. tauto.
    + apply items_inj. auto.
  - intros [-> E]. f_equal. f_equal. destruct ps as [|p ps], qs as [|q qs]; cbn [map] in E; try discriminate; auto. apply items_text. cbn [map]. auto.
Qed.

Lemma find_insert m k f k' : fmap_find m k = None -> fmap_find (fmap_insert m k f) k' = if text_eqb k' k then Some f else fmap_find m k'.
Proof.
  induction m as [|[j g] m IH]; cbn [fmap_insert fmap_find]; auto. intros E. destruct (text_eqb k j) eqn:EJ; [discriminate|].
  destruct (text_ltb k j); cbn [fmap_find]; auto. rewrite IH by auto. destruct (text_eqb k' j) eqn:E'; auto. apply text_eqb_eq in E'. subst j. rewrite text_eqb_sym in EJ. rewrite EJ. auto.
Qed.
