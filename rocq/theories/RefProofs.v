(* RefProofs.v: the evaluator's references against those of the language. *)
From Coq Require Import List NArith ZArith Lia Bool.
From Coq Require Import ZifyBool ZifyNat ZifyN.
From Verif Require Import Base RefModel RefSpec.
Import ListNotations.
Open Scope Z_scope.

Scheme lval_ind2 := Induction for lval Sort Prop with expr_ind2 := Induction for expr Sort Prop.
Combined Scheme lval_expr_ind from lval_ind2, expr_ind2.

Section Proof.
Variable prog : program.
Variable sh : shape.
Notation depth f := (fn_depth (prog f)).

(* the state of the evaluator and that of the language, in an activation of f with frame pointer fp; V: the places of values *)
Record agrees (f : N) (fp : Z) (b : list N) (n : names) (m : store) (s : st) (V : Z -> Prop) : Prop := mkA {
  a_val : forall a, V a -> mem s a = CV (m a);
  a_top : forall a, V a -> a <= fp + depth f;
  a_var : forall x, isvar sh f x -> V (fp + x);
  a_own : forall x, 0 < x <= depth f -> ~ isvar sh f x -> ~ V (fp + x);
  a_par : forall x, ispar sh f x -> ~ V (fp + x) /\ exists a, n_par n x = Some a /\ V a /\ mem s (fp + x) = CP (mkP true a);
  a_ref : forall r, In r b -> exists p, autoptr s f r = Some p /\ n_ref n r = Some (indexOf fp p) /\ V (indexOf fp p) }.

Notation formedL f := (formedL (isvar sh f) (ispar sh f)).
Notation formedE f := (formedE (isvar sh f) (ispar sh f)).

Lemma into_item f fp s l n e : evalToStoreInto f fp s (LItem l n e) =
  match evalToStoreInto f fp s l, eval f fp s e with Some p, Some i => if (0 <=? i) && (i <? n) then Some (mkP (p_abs p) (p_slot p + i)) else None | _, _ => None end.
Proof. reflexivity. Qed.
Lemma eval_get f fp s l : eval f fp s (EGet l) = match evalToStoreInto f fp s l with Some p => chase (S PTR_LOOP_MAX) fp (mem s) p | None => None end.
Proof. reflexivity. Qed.
Lemma place_item fp n m l k e : place fp n m (LItem l k e) = match place fp n m l, value fp n m e with Some a, Some i => if (0 <=? i) && (i <? k) then Some (a + i) else None | _, _ => None end.
Proof. reflexivity. Qed.
Lemma value_get fp n m l : value fp n m (EGet l) = option_map m (place fp n m l).
Proof. reflexivity. Qed.

Lemma lval_agree f fp b n m s V : agrees f fp b n m s V ->
  (forall l k, formedL f b l k -> match evalToStoreInto f fp s l, place fp n m l with
     | Some p, Some a => indexOf fp p = a /\ forall i, 0 <= i < k -> V (a + i)
     | None, None => True | _, _ => False end) /\
  (forall e, formedE f b e -> eval f fp s e = value fp n m e).
Proof.
  intros A. apply lval_expr_ind.
  - intros x k H. cbn [RefSpec.formedL evalToStoreInto place] in *. unfold indexOf. cbn [p_abs p_slot]. split; auto. intros i HI. rewrite <- Z.add_assoc. apply (a_var _ _ _ _ _ _ _ A). auto.
  - intros x k [H ->]. cbn [evalToStoreInto place]. destruct (a_par _ _ _ _ _ _ _ A x H) as (_ & a & -> & HV & ->). cbn [indexOf p_abs p_slot]. split; auto. intros i HI. replace (a + i) with a by lia. auto.
  - intros r x k [H ->]. cbn [evalToStoreInto place]. destruct (a_ref _ _ _ _ _ _ _ A r H) as (p & -> & -> & HV). split; auto. intros i HI. replace (indexOf fp p + i) with (indexOf fp p) by lia. auto.
  - intros l IH n' e IHe k (-> & (x & ->) & HL & HE). rewrite into_item, place_item, (IHe HE). specialize (IH n' HL). cbn [evalToStoreInto place] in IH |- *. destruct IH as [_ IH].
    destruct (value fp n m e) as [i|]; [|exact I]. destruct ((0 <=? i) && (i <? n')) eqn:EI; [|exact I]. unfold indexOf. cbn [p_abs p_slot]. split; [lia|]. intros j HJ. replace (fp + x + i + j) with (fp + x + i) by lia. apply IH. lia.
  - reflexivity.
  - intros l IH HL. specialize (IH 1 HL). rewrite eval_get, value_get. destruct (evalToStoreInto f fp s l) as [p|], (place fp n m l) as [a|]; try contradiction; auto. destruct IH as [EA HV]. cbn [option_map]. unfold PTR_LOOP_MAX. cbn [chase]. rewrite EA.
    rewrite (a_val _ _ _ _ _ _ _ A a); auto. specialize (HV 0 ltac:(lia)). rewrite Z.add_0_r in HV. auto.
  - intros op a IHa b' IHb [HA HB]. cbn [eval value]. rewrite (IHa HA), (IHb HB). auto.
Qed.

(* the cell for an argument *)
Definition cell_of (x : Z + Z) : cell := match x with inl v => CV v | inr a => CP (mkP true a) end.
Lemma args_agree f fp b n m s V : agrees f fp b n m s V -> forall l kinds, Forall2 (formedA (isvar sh f) (ispar sh f) b) l kinds ->
  match evalArgs f fp s l, given fp n m l with
  | Some cs, Some xs => cs = map cell_of xs /\ Forall2 (fun x k => match x, k with inl _, false => True | inr a, true => V a | _, _ => False end) xs kinds
  | None, None => True | _, _ => False end.
Proof.
  intros A. destruct (lval_agree f fp b n m s V A) as [HL HE]. induction 1 as [|a k l kinds HA _ IH]; cbn [evalArgs given]; [split; auto|].
  destruct (evalArgs f fp s l) as [cs|], (given fp n m l) as [xs|]; try contradiction; auto. destruct IH as [-> IH]. destruct a as [e|l'], k; cbn [formedA evalArg] in *; try contradiction.
  - rewrite (HE e HA). destruct (value fp n m e); cbn [option_map]; auto.
  - specialize (HL l' 1 HA). destruct (evalToStoreInto f fp s l') as [p|], (place fp n m l') as [a|]; try contradiction; cbn [option_map]; auto. destruct HL as [-> HV]. split; auto. constructor; auto. specialize (HV 0 ltac:(lia)). rewrite Z.add_0_r in HV. auto.
Qed.

Lemma putParams_other l : forall a m b, (a < b \/ b <= a - Z.of_nat (List.length l)) -> putParams l a m b = m b.
Proof. induction l as [|c l IH]; intros a m b H; cbn [putParams List.length] in *; auto. rewrite IH by lia. unfold upd. destruct (b =? a) eqn:E; [lia|auto]. Qed.
Lemma putParams_at l : forall a m i c, nth_error l i = Some c -> putParams l a m (a - Z.of_nat i) = c.
Proof.
  induction l as [|c0 l IH]; intros a m [|i] c H; cbn [nth_error putParams] in *; try discriminate.
  - injection H as ->. rewrite putParams_other by lia. unfold upd. destruct (_ =? _) eqn:E; [auto|lia].
  - replace (a - Z.of_nat (S i)) with (a - 1 - Z.of_nat i) by lia. auto.
Qed.
Lemma put_params_other l : forall a m b, (a < b \/ b <= a - Z.of_nat (List.length l)) -> put_params l a m b = m b.
Proof. induction l as [|[c|c] l IH]; intros a m b H; cbn [put_params List.length] in *; auto; rewrite IH by lia; auto. unfold put. destruct (b =? a) eqn:E; [lia|auto]. Qed.
Lemma put_params_at l : forall a m i v, nth_error l i = Some (inl v) -> put_params l a m (a - Z.of_nat i) = v.
Proof.
  induction l as [|c0 l IH]; intros a m [|i] v H; cbn [nth_error] in *; try discriminate.
  - injection H as ->. cbn [put_params]. rewrite put_params_other by lia. unfold put. destruct (_ =? _) eqn:E; [auto|lia].
  - replace (a - Z.of_nat (S i)) with (a - 1 - Z.of_nat i) by lia. destruct c0; cbn [put_params]; auto.
Qed.
Lemma name_params_at l : forall x i a, nth_error l i = Some (inr a) -> name_params l x (x - Z.of_nat i) = Some a.
Proof.
  induction l as [|c0 l IH]; intros x [|i] a H; cbn [nth_error] in *; try discriminate.
  - injection H as ->. cbn [name_params]. destruct (_ =? _) eqn:E; [auto|lia].
  - replace (x - Z.of_nat (S i)) with (x - 1 - Z.of_nat i) by lia. destruct c0; cbn [name_params]; auto. destruct (_ =? _) eqn:E; [lia|auto].
Qed.
Lemma f2_nth {A B} (R : A -> B -> Prop) l m : Forall2 R l m -> forall i y, nth_error m i = Some y -> exists x, nth_error l i = Some x /\ R x y.
Proof. induction 1; intros [|i] z H1; cbn in *; try discriminate; eauto. injection H1 as <-. eauto. Qed.
Lemma f2_len {A B} (R : A -> B -> Prop) l m : Forall2 R l m -> List.length l = List.length m.
Proof. induction 1; cbn; auto. Qed.
Lemma formed_incl P Q ps dp b c d : formed P Q ps dp b c d -> incl b d.
Proof. induction 1; auto using incl_refl; try (eapply incl_tran; eauto; fail). intros y Hy. right. auto. Qed.

Lemma enter_agree f fp b n m s V g xs : formed_fn prog sh f -> formed_fn prog sh g -> agrees f fp b n m s V ->
  Forall2 (fun x k => match x, k with inl _, false => True | inr a, true => V a | _, _ => False end) xs (sh_params sh g) ->
  let fp' := fp + depth f + 1 + Z.of_nat (List.length xs) + 2 in
  agrees g fp' [] (mkN (fun _ => None) (name_params xs (-3))) (new_frame fp' (depth g) (put_params xs (fp' - 3) m))
    (mkSt (frameCells fp' (depth g) (putParams (map cell_of xs) (fp' - 3) (mem s))) (autoptr s))
    (fun a => V a \/ exists x, isvar sh g x /\ a = fp' + x).
Proof.
  intros (HF & _) (HG & HGV & _) A HX fp'. assert (depth f + fp < fp' - 3 - Z.of_nat (List.length xs) + 1) as LOW by (unfold fp'; lia). pose proof (f2_len _ _ _ HX) as LX.
  assert (forall x, isvar sh g x -> (0 < x <= depth g) \/ exists i v, nth_error xs i = Some (inl v) /\ x = -3 - Z.of_nat i) as HV.
  { intros x [H|(i & H & ->)]; auto. destruct (f2_nth _ _ _ HX i false H) as ([v|a] & E & HR); [|contradiction]. eauto. }
  assert (forall i (x : Z + Z), nth_error xs i = Some x -> (i < List.length xs)%nat) as NL by (intros; apply nth_error_Some; congruence).
  clearbody fp'. constructor; cbn [mem autoptr n_par n_ref].
  - intros a HA. unfold frameCells, new_frame. destruct ((fp' <? a) && (a <=? fp' + depth g)) eqn:EA; auto. destruct HA as [HA|(x & HA & ->)].
    + pose proof (a_top _ _ _ _ _ _ _ A a HA). rewrite putParams_other, put_params_other by (rewrite ?map_length; lia). apply (a_val _ _ _ _ _ _ _ A); auto.
    + destruct (HV x HA) as [H | (i & v & E & ->)]; [lia|]. replace (fp' + (-3 - Z.of_nat i)) with (fp' - 3 - Z.of_nat i) by lia. rewrite (put_params_at _ _ _ _ _ E).
      apply putParams_at. rewrite nth_error_map, E. auto.
  - intros a [HA|(x & HA & ->)]; [pose proof (a_top _ _ _ _ _ _ _ A a HA); lia|]. destruct (HV x HA) as [H | (i & v & E & ->)]; lia.
  - intros x HX'. right. eauto.
  - intros x H HN [HA|(y & HY & E)]; [pose proof (a_top _ _ _ _ _ _ _ A _ HA); lia|]. apply HN. replace x with y by lia. auto.
  - intros x (i & H & ->). destruct (f2_nth _ _ _ HX i true H) as ([v|a] & E & HR); [contradiction|]. pose proof (NL _ _ E). split.
    + intros [HA|(y & HY & EY)]; [pose proof (a_top _ _ _ _ _ _ _ A _ HA); lia|]. destruct (HV y HY) as [HY'|(j & v & EJ & ->)]; [lia|]. assert (j = i) as -> by lia. congruence.
    + exists a. split; [apply name_params_at; auto|]. split; auto. unfold frameCells. replace (fp' <? fp' + (-3 - Z.of_nat i)) with false by lia. cbn [andb].
      replace (fp' + (-3 - Z.of_nat i)) with (fp' - 3 - Z.of_nat i) by lia. apply putParams_at. rewrite nth_error_map, E. auto.
  - intros r [].
Qed.

Hypothesis FP : formed_prog prog sh.
Hypothesis OA : once_active prog.

Lemma leads_trans a b c : leads prog a b -> leads prog b c -> leads prog a c.
Proof. induction 1; auto. intros H1. econstructor; eauto. Qed.

Lemma formed_binds P Q ps dp b c d : formed P Q ps dp b c d -> b = d \/ binds c.
Proof. induction 1; cbn [binds]; auto. destruct IHformed1 as [->|]; auto. destruct IHformed2 as [->|]; auto. Qed.

Theorem exec_agree k : forall f fp c b d n m s V,
  formed (isvar sh f) (ispar sh f) (sh_params sh) (depth f) b c d -> agrees f fp b n m s V ->
  incl (callees c) (callees (fn_body (prog f))) -> (binds c -> binds (fn_body (prog f))) -> (b <> [] -> binds (fn_body (prog f))) ->
  match exec prog k f fp c s, run prog k f fp c n m with
  | Done s', Done (n', m') => agrees f fp d n' m' s' V /\ (forall a, a <= fp -> ~ V a -> mem s' a = mem s a) /\
      (forall h r, ~ (h = f /\ binds c) -> (forall g, In g (callees c) -> ~ leads prog g h) -> autoptr s' h r = autoptr s h r)
  | Stopped, Stopped | NoFuel, NoFuel => True
  | _, _ => False
  end.
Proof.
  induction k as [|k IH]; intros f fp c b d n m s V HF A HC HB HBB; [exact I|]. destruct (lval_agree f fp b n m s V A) as [HL HE].
  inversion HF; subst; cbn [exec run].
  - (* skip *) auto.
  - (* seq *) rename H into H1. rename H0 into H2. cbn [callees binds] in *.
    pose proof (IH f fp s0 b c0 n m s V H1 A ltac:(intros x Hx; apply HC; apply in_or_app; auto) ltac:(auto) HBB) as I1.
    destruct (exec prog k f fp s0 s) as [s1| |], (run prog k f fp s0 n m) as [[n1 m1]| |]; try contradiction; auto. destruct I1 as (A1 & F1 & T1).
    assert (c0 <> [] -> binds (fn_body (prog f))) as HBC. { intros HN. destruct (formed_binds _ _ _ _ _ _ _ H1) as [->|]; auto. }
    pose proof (IH f fp s' c0 d n1 m1 s1 V H2 A1 ltac:(intros x Hx; apply HC; apply in_or_app; auto) ltac:(auto) HBC) as I2.
    destruct (exec prog k f fp s' s1) as [s2| |], (run prog k f fp s' n1 m1) as [[n2 m2]| |]; try contradiction; auto. destruct I2 as (A2 & F2 & T2).
    split; auto. split; [intros a H3 H4; rewrite F2; auto|]. intros h r H3 H4. rewrite T2, T1; auto; try tauto; intros g Hg; apply H4; apply in_or_app; auto.
  - (* bind *) specialize (HL l 1 H). destruct (evalToStoreInto f fp s l) as [p|], (place fp n m l) as [a|]; try contradiction; auto. destruct HL as [<- HV]. specialize (HV 0 ltac:(lia)). rewrite Z.add_0_r in HV.
    assert (forall y, V y -> y <> fp + x) as NV by (intros y HY ->; apply (a_own _ _ _ _ _ _ _ A x); auto).
    split; [constructor; cbn [mem autoptr name_ref n_par n_ref]|split].
    + intros a HA. unfold upd. destruct (Z.eqb_spec a (fp + x)) as [->|]; [exfalso; eapply NV; eauto|]. apply A. auto.
    + apply A.
    + apply A.
    + apply A.
    + intros y HY. destruct (a_par _ _ _ _ _ _ _ A y HY) as (HN & a & E1 & E2 & E3). split; auto. exists a. split; auto. split; auto. unfold upd. destruct (Z.eqb_spec (fp + y) (fp + x)) as [E|]; auto. exfalso. destruct HY as (i & _ & ->). lia.
    + intros r' HR. unfold setauto. rewrite N.eqb_refl. cbn [andb]. destruct (N.eqb_spec r' r) as [->|NE]; [eauto|]. apply A. destruct HR; congruence.
    + intros a HA HN. cbn [mem]. unfold upd. destruct (Z.eqb_spec a (fp + x)); [lia|auto].
    + intros h r' HN _. cbn [autoptr binds] in *. unfold setauto. destruct (N.eqb_spec h f); [|auto]. exfalso. tauto.
  - (* set *) specialize (HL l 1 H). rewrite (HE e H0). destruct (evalToStoreInto f fp s l) as [p|], (place fp n m l) as [a|]; try contradiction; auto. destruct HL as [<- HV]. specialize (HV 0 ltac:(lia)). rewrite Z.add_0_r in HV.
    destruct (value fp n m e) as [v|]; auto. split; [constructor; cbn [mem autoptr]|split].
    + intros a HA. unfold upd, put. destruct (a =? indexOf fp p); auto. apply A. auto.
    + apply A.
    + apply A.
    + apply A.
    + intros y HY. destruct (a_par _ _ _ _ _ _ _ A y HY) as (HN & a & E1 & E2 & E3). split; auto. exists a. split; auto. split; auto. unfold upd. destruct (Z.eqb_spec (fp + y) (indexOf fp p)) as [E|]; auto. exfalso. rewrite E in HN. auto.
    + apply A.
    + intros a HA HN. cbn [mem]. unfold upd. destruct (Z.eqb_spec a (indexOf fp p)) as [->|]; [contradiction|auto].
    + auto.
  - (* call *) pose proof (args_agree f fp d n m s V A a _ H) as HA. destruct (evalArgs f fp s a) as [cs|], (given fp n m a) as [xs|]; try contradiction; auto. destruct HA as [-> HX].
    rewrite map_length. pose proof (enter_agree f fp d n m s V g xs (FP f) (FP g) A HX) as AG. cbv zeta in AG. set (fp' := fp + depth f + 1 + Z.of_nat (List.length xs) + 2) in *.
    destruct (FP g) as (HG & HGV & d' & FG). destruct (FP f) as (HFD & _).
    pose proof (IH g fp' _ _ _ _ _ _ _ FG AG ltac:(apply incl_refl) ltac:(auto) ltac:(congruence)) as I1. cbn [callees] in *.
    destruct (exec prog k g fp' _ _) as [s1| |], (run prog k g fp' _ _ _) as [[n1 m1]| |]; try contradiction; auto. destruct I1 as (A1 & F1 & T1). cbn [mem autoptr] in *.
    assert (forall y, isvar sh g y -> fp + depth f < fp' + y) as NEW.
    { pose proof (f2_len _ _ _ HX) as LX. intros y [HY|(i & HY & ->)]; [specialize (HGV y HY); unfold fp'; lia|]. assert (i < List.length (sh_params sh g))%nat by (apply nth_error_Some; congruence). unfold fp'. lia. }
    assert (forall a, a <= fp -> ~ V a -> mem s1 a = mem s a) as FR.
    { intros y H1 H2. rewrite F1; [|unfold fp'; lia|]. 2:{ intros [|(z & HZ & ->)]; auto. specialize (NEW z HZ). lia. }
      unfold frameCells. replace (fp' <? y) with false by (unfold fp'; lia). cbn [andb]. apply putParams_other. rewrite map_length. unfold fp'. lia. }
    assert (forall h r, ~ leads prog g h -> autoptr s1 h r = autoptr s h r) as AU.
    { intros h r HN. apply T1; [intros [-> _]; apply HN; constructor|]. intros g' HG' HL'. apply HN. econstructor; eauto. }
    split; [constructor|split]; auto.
    + intros y HY. apply A1. auto.
    + apply A.
    + apply A.
    + apply A.
    + intros y HY. destruct (a_par _ _ _ _ _ _ _ A y HY) as (HN & b & E1 & E2 & E3). split; auto. exists b. split; auto. split; auto. rewrite FR; auto. destruct HY as (i & _ & ->). lia.
    + intros r HR. destruct (a_ref _ _ _ _ _ _ _ A r HR) as (p & E1 & E2 & E3). exists p. rewrite AU; auto. intros HLD. assert (binds (fn_body (prog f))) as HBF by (apply HBB; intros ->; destruct HR). apply (OA f g HBF); auto. apply HC. left. auto.
    + intros h r _ HN. apply AU. apply HN. left. auto.
  - (* if *) rewrite (HE e H). destruct (value fp n m e) as [v|]; auto. cbn [callees binds] in *. destruct (v =? 0).
    + pose proof (IH f fp s' d d0 n m s V H1 A ltac:(intros x Hx; apply HC; apply in_or_app; auto) ltac:(auto) HBB) as I1.
      destruct (exec prog k f fp s' s) as [s1| |], (run prog k f fp s' n m) as [[n1 m1]| |]; try contradiction; auto. destruct I1 as (A1 & F1 & T1). split; [|split]; auto.
      * destruct A1. constructor; auto. intros r HR. apply a_ref0. eapply formed_incl; eauto.
      * intros h r H3 H4. apply T1; [tauto|]. intros g Hg. apply H4. apply in_or_app. auto.
    + pose proof (IH f fp s0 d c0 n m s V H0 A ltac:(intros x Hx; apply HC; apply in_or_app; auto) ltac:(auto) HBB) as I1.
      destruct (exec prog k f fp s0 s) as [s1| |], (run prog k f fp s0 n m) as [[n1 m1]| |]; try contradiction; auto. destruct I1 as (A1 & F1 & T1). split; [|split]; auto.
      * destruct A1. constructor; auto. intros r HR. apply a_ref0. eapply formed_incl; eauto.
      * intros h r H3 H4. apply T1; [tauto|]. intros g Hg. apply H4. apply in_or_app. auto.
Qed.
End Proof.
