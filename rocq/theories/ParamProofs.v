(* ParamProofs.v: parameters and arguments, and their values. *)
From Coq Require Import List NArith ZArith Bool Lia PeanoNat.
From Verif Require Import ConstResModel ParamModel ParamSpec.
Import ListNotations.
Open Scope nat_scope.

(* ---- the arguments of an instance, with and without the number of parameters ---- *)
Lemma args_limit n : forall m ts idx es k err rest, length ts <= m -> parseRestOfClassArguments None idx ts = (es, k, err, rest) ->
  k = idx + length es /\ parseRestOfClassArguments (Some n) idx ts = (firstn (n - idx) es, k, err || (Nat.max n idx <? k), rest).
Proof.
  assert (forall idx, Nat.max n idx <? idx = false) as HX by (intros idx; apply Nat.ltb_ge; lia).
  induction m as [|m IH]; intros ts idx es k err rest Hm H.
  - destruct ts; [|cbn in Hm; lia]. inversion H; subst. cbn [parseRestOfClassArguments length]. rewrite firstn_nil, Nat.add_0_r. auto.
  - destruct ts as [|t ts]; [inversion H; subst; cbn [parseRestOfClassArguments length]; rewrite firstn_nil, Nat.add_0_r; auto|]. cbn [length] in Hm.
    destruct t as [e| | |]; try (inversion H; subst; cbn [parseRestOfClassArguments length]; rewrite firstn_nil, Nat.add_0_r, ?HX; split; reflexivity).
    assert (forall ts' es1 k1 err1 rest1, length ts' <= m -> parseRestOfClassArguments None (S idx) ts' = (es1, k1, err1, rest1) ->
      k1 = idx + length (e :: es1) /\ ((Nat.max n (S idx) <? k1) || (n <=? idx) = (Nat.max n idx <? k1)) /\
      exists es2, parseRestOfClassArguments (Some n) (S idx) ts' = (es2, k1, err1 || (Nat.max n (S idx) <? k1), rest1) /\ (if n <=? idx then es2 else e :: es2) = firstn (n - idx) (e :: es1)) as HS.
    { intros ts' es1 k1 err1 rest1 HL H1. destruct (IH ts' (S idx) es1 k1 err1 rest1 HL H1) as [E1 E2]. split; [cbn [length]; lia|]. split.
      { destruct (Nat.leb_spec n idx); [rewrite orb_true_r; symmetry; apply Nat.ltb_lt; lia|]. rewrite orb_false_r. replace (Nat.max n (S idx)) with n by lia. replace (Nat.max n idx) with n by lia. reflexivity. }
      exists (firstn (n - S idx) es1). split; [exact E2|]. destruct (Nat.leb_spec n idx). { replace (n - idx) with 0 by lia. replace (n - S idx) with 0 by lia. reflexivity. }
      replace (n - idx) with (S (n - S idx)) by lia. reflexivity. }
    clear IH HX. cbn [parseRestOfClassArguments] in H |- *.
    destruct ts as [|t2 ts2]; [|destruct t2 as [e2| | |]];
    match goal with H : context [parseRestOfClassArguments None (S idx) ?t] |- _ => destruct (parseRestOfClassArguments None (S idx) t) as [[[es1 k1] err1] rest1] eqn:E1; destruct (HS t es1 k1 err1 rest1) as (EK & HT & es2 & E2 & E3); [cbn [length] in *; lia|exact E1|] end;
    rewrite E2; inversion H; subst es k err rest; (split; [exact EK|]); rewrite E3, <- HT; f_equal; f_equal; rewrite ?orb_false_r, ?orb_assoc; auto;
    destruct err1, (Nat.max n (S idx) <? k1), (n <=? idx); rewrite ?orb_true_r, ?orb_false_r; reflexivity.
Qed.
Lemma args_written es : forall rest idx, parseRestOfClassArguments None idx (write_args es ++ rest) = (es, idx + length es, false, rest).
Proof.
  induction es as [|e es IH]; intros rest idx; [cbn; rewrite Nat.add_0_r; reflexivity|]. destruct es as [|e2 es].
  - cbn. rewrite Nat.add_1_r. reflexivity.
  - change (write_args (e :: e2 :: es) ++ rest) with (AE e :: AComma :: (write_args (e2 :: es) ++ rest)). cbn [parseRestOfClassArguments]. rewrite IH.
    assert (startsClose (write_args (e2 :: es) ++ rest) = false) as -> by (destruct es; reflexivity). cbn [orb]. assert (S idx + length (e2 :: es) = idx + length (e :: e2 :: es)) as -> by (cbn [length]; lia). reflexivity.
Qed.

(* ---- default values come last ---- *)
Lemma has_def p : hasDefault p = true <-> p_def p <> None.
Proof. unfold hasDefault. destruct (p_def p); split; congruence. Qed.
Definition suffix (ps : list param) : Prop := forall i j p q, i < j -> nth_error ps i = Some p -> nth_error ps j = Some q -> p_def p <> None -> p_def q <> None.
Lemma suffix_at ps : suffix ps -> exists m, m <= length ps /\ totalDefaults ps = length ps - m /\ forall i p, nth_error ps i = Some p -> (hasDefault p = true <-> m <= i).
Proof.
  unfold totalDefaults. induction ps as [|p ps IH]; intros H; [exists 0; cbn; repeat split; intros; try lia; destruct i; discriminate|].
  destruct IH as (m & Hm & HT & HD). { intros i j a b L A B. apply (H (S i) (S j)); auto. lia. }
  destruct (hasDefault p) eqn:E.
  - exists 0. assert (forall q, In q ps -> hasDefault q = true) as HA. { intros q Hq. apply has_def. apply In_nth_error in Hq. destruct Hq as [j Hj]. apply (H 0 (S j) p q); auto; [lia|]. apply has_def. exact E. }
    split; [lia|]. split.
    + cbn [filter]. rewrite E. cbn [length]. assert (filter hasDefault ps = ps) as ->; [|lia]. clear - HA. induction ps as [|q ps IH]; auto. cbn. rewrite HA by (left; auto). f_equal. apply IH. intros; apply HA; right; auto.
    + intros i q Hq. split; [lia|]. intros _. destruct i; cbn in Hq; [congruence|]. apply HA. eapply nth_error_In; eauto.
  - exists (S m). cbn [length filter]. rewrite E. split; [lia|]. split; [lia|]. intros [|i] q Hq; cbn in Hq; [inversion Hq; subst; split; [congruence|lia]|]. rewrite (HD i q Hq). lia.
Qed.
Lemma defaults_some ps : (forall p, In p ps -> hasDefault p = true) -> exists ds, defaults ps = Some ds.
Proof.
  induction ps as [|p ps IH]; intros H; [eexists; reflexivity|]. destruct IH as [ds E]; [intros; apply H; right; auto|]. specialize (H p (or_introl eq_refl)). apply has_def in H. cbn. unfold default. destruct (p_def p); [|congruence]. rewrite E. eauto.
Qed.
Lemma defaults_nth ps : forall ds i p, defaults ps = Some ds -> nth_error ps i = Some p -> exists b, nth_error ds i = Some b /\ default p = Some b.
Proof.
  induction ps as [|q ps IH]; intros ds i p H Hp; [destruct i; discriminate|]. cbn in H. destruct (default q) as [b|] eqn:E; [|discriminate]. destruct (defaults ps) as [bs|]; [|discriminate]. inversion H; subst. destruct i; cbn in Hp |- *; [inversion Hp; subst; eauto|]. eapply IH; eauto.
Qed.
Lemma defaults_len ps : forall ds, defaults ps = Some ds -> length ds = length ps.
Proof. induction ps as [|q ps IH]; intros ds H; cbn in H; [inversion H; reflexivity|]. destruct (default q), (defaults ps); try discriminate. inversion H; subst. cbn. f_equal. auto. Qed.
Lemma nth_skipn {A} k : forall (l : list A) i, nth_error (skipn k l) i = nth_error l (k + i).
Proof. induction k as [|k IH]; intros l i; [reflexivity|]. destruct l; cbn; [destruct i; reflexivity|apply IH]. Qed.

(* ---- the two ways to bind ---- *)
Lemma zip_firstn ps : forall es, zip ps (firstn (length ps) es) = zip ps es.
Proof. induction ps as [|p ps IH]; intros [|e es]; cbn; auto. f_equal. apply IH. Qed.
Lemma zip_len ps : forall es, length (zip ps es) = Nat.min (length ps) (length es).
Proof. induction ps as [|p ps IH]; intros [|e es]; cbn; auto. Qed.
Lemma zip_nth ps : forall es i p e, nth_error ps i = Some p -> nth_error es i = Some e -> nth_error (zip ps es) i = Some (explicit p e).
Proof. induction ps as [|q ps IH]; intros [|x es] [|i] p e H1 H2; try discriminate; cbn in *; [congruence|]. eapply IH; eauto. Qed.
Lemma fix_defaults ps : forall i l, i <= S l -> fixParams i ps [] (Some l) = match defaults ps with Some ds => Some (ds, length ps, false) | None => None end.
Proof.
  induction ps as [|p ps IH]; intros i l H; [reflexivity|]. cbn [fixParams defaults length]. destruct (Nat.ltb_spec (S l) i); [lia|]. rewrite IH by lia. destruct (default p); auto. destruct (defaults ps); auto.
Qed.
Lemma fix_ok ps : forall es i, length es <= length ps -> fixParams i ps es None = match defaults (skipn (length es) ps) with Some ds => Some (zip ps es ++ ds, length ps, false) | None => None end.
Proof.
  induction ps as [|p ps IH]; intros es i H; [destruct es; [reflexivity|cbn in H; lia]|]. destruct es as [|e es].
  - cbn [fixParams length skipn zip app defaults]. destruct (Nat.ltb_spec (S i) i); [lia|]. rewrite fix_defaults by lia. destruct (default p); auto. destruct (defaults ps); auto.
  - cbn [length] in *. cbn [fixParams skipn zip app]. rewrite IH by lia. destruct (defaults (skipn (length es) ps)); auto.
Qed.

(* what both come to *)
Definition bind_result (ps : list param) (es : list ex) (err : bool) : option (list binding) :=
  if err then None else if length ps <? length es then None else match defaults (skipn (length es) ps) with Some ds => Some (zip ps es ++ ds) | None => None end.
Definition accepts (s : stub) : option (list binding) := match s with Stub bs false => Some bs | _ => None end.

Lemma some_default ps k m : (forall i p, nth_error ps i = Some p -> (hasDefault p = true <-> m <= i)) -> (m <= k <-> forall p, In p (skipn k ps) -> hasDefault p = true) \/ length ps <= k.
Proof.
  intros H. destruct (Nat.le_gt_cases (length ps) k); [right; auto|]. left. split.
  - intros L p Hp. apply In_nth_error in Hp. destruct Hp as [i Hi]. rewrite nth_skipn in Hi. apply (H (k + i) p Hi). lia.
  - intros A. destruct (nth_error ps k) as [p|] eqn:E; [|apply nth_error_None in E; lia]. apply (H k p E). apply A. apply (nth_error_In _ 0). rewrite nth_skipn, Nat.add_0_r. exact E.
Qed.
Lemma no_default ps k p : nth_error ps k = Some p -> hasDefault p = false -> defaults (skipn k ps) = None.
Proof.
  intros H E. destruct (skipn k ps) as [|q r] eqn:S; pose proof (nth_skipn k ps 0) as N; rewrite S, Nat.add_0_r, H in N; [discriminate|]. cbn in N. inversion N; subst. cbn. unfold default. unfold hasDefault in E. destruct (p_def p); [discriminate|reflexivity].
Qed.

Lemma seen_ok ps ts : suffix ps -> forall es k err rest, parseRestOfClassArguments None 0 ts = (es, k, err, rest) ->
  exists s, parseClassArguments ps ts = (s, rest) /\ s <> Abort /\ accepts s = bind_result ps es err.
Proof.
  intros HS es k err rest E. destruct (suffix_at ps HS) as (m & Hm & HT & HD). destruct (args_limit (length ps) (length ts) ts 0 es k err rest (le_n _) E) as [-> E2]. rewrite Nat.sub_0_r, Nat.max_0_r in E2. cbn [Nat.add] in E2.
  unfold parseClassArguments. destruct (startsClose ts && (negb (length ps =? 0) && negb (totalDefaults ps =? length ps))) eqn:EC.
  - apply andb_prop in EC. destruct EC as [E3 E4]. apply andb_prop in E4. destruct E4 as [E4 E5]. destruct ts as [|[| | |] ts]; try discriminate. cbn in E. inversion E; subst. eexists. split; [reflexivity|]. split; [discriminate|].
    apply negb_true_iff, Nat.eqb_neq in E4, E5. unfold bind_result. cbn [accepts length]. destruct (Nat.ltb_spec (length ps) 0); auto. cbn [length] in *.
    destruct (nth_error ps 0) as [p|] eqn:EP; [|apply nth_error_None in EP; lia]. rewrite (no_default ps 0 p); auto. destruct (hasDefault p) eqn:EH; auto. apply (HD 0 p EP) in EH. lia.
  - clear EC. rewrite E2. unfold bind_result. rewrite zip_firstn. destruct (Nat.ltb_spec (length es) (length ps)) as [L|L].
    + unfold parameterHasDefaultValue. destruct (nth_error ps (length es)) as [p|] eqn:EP; [|apply nth_error_None in EP; lia].
      destruct (hasDefault p) eqn:EH; cbn [negb].
      * apply (HD _ _ EP) in EH. destruct (Nat.leb_spec (length ps - length es) (totalDefaults ps)); [|lia]. destruct (some_default ps (length es) m HD) as [HA|HA]; [|lia]. destruct (defaults_some (skipn (length es) ps)) as [ds ->]; [apply HA; auto|].
        eexists. split; [reflexivity|]. split; [discriminate|]. destruct (Nat.ltb_spec (length ps) (length es)); [lia|]. rewrite orb_false_r. destruct err; reflexivity.
      * eexists. split; [reflexivity|]. split; [discriminate|]. cbn [accepts]. rewrite (no_default ps _ p EP EH). destruct err; auto. destruct (length ps <? length es); auto.
    + eexists. split; [reflexivity|]. split; [discriminate|]. cbn [accepts]. destruct (Nat.ltb_spec (length ps) (length es)); [rewrite orb_true_r; destruct err; reflexivity|]. rewrite orb_false_r. destruct err; auto. rewrite skipn_all2 by lia. cbn. rewrite app_nil_r. reflexivity.
Qed.
Lemma unseen_ok ps ts : suffix ps -> forall es k err rest, parseRestOfClassArguments None 0 ts = (es, k, err, rest) ->
  exists s, unseenInstance ps ts = (s, rest) /\ s <> Abort /\ accepts s = bind_result ps es err.
Proof.
  intros HS es k err rest E. destruct (suffix_at ps HS) as (m & Hm & HT & HD). unfold unseenInstance. rewrite E. eexists. split; [reflexivity|]. unfold fixUnseenInstance, bind_result.
  destruct (Nat.ltb_spec (length es) (length ps)) as [L|L], (Nat.ltb_spec (length es + totalDefaults ps) (length ps)) as [L2|L2]; cbn [andb].
  - split; [discriminate|]. destruct (nth_error ps (length es)) as [p|] eqn:EP; [|apply nth_error_None in EP; lia]. rewrite (no_default ps _ p EP); [destruct err; auto; destruct (length ps <? length es); auto|]. destruct (hasDefault p) eqn:EH; auto. apply (HD _ _ EP) in EH. lia.
  - destruct (Nat.ltb_spec (length ps) (length es)); [lia|]. rewrite fix_ok by lia. destruct (some_default ps (length es) m HD) as [HA|HA]; [|lia]. destruct (defaults_some (skipn (length es) ps)) as [ds ->]; [apply HA; lia|]. split; [discriminate|]. rewrite Nat.eqb_refl. destruct err; reflexivity.
  - lia.
  - destruct (Nat.ltb_spec (length ps) (length es)); [split; [discriminate|destruct err; reflexivity]|]. rewrite fix_ok by lia. rewrite skipn_all2 by lia. cbn [defaults]. split; [discriminate|]. rewrite Nat.eqb_refl. destruct err; reflexivity.
Qed.
Lemma result_iff ps es : suffix ps -> (bind_result ps es false <> None <-> enough ps (length es)) /\ forall bs, bind_result ps es false = Some bs -> bound ps es bs.
Proof.
  intros HS. destruct (suffix_at ps HS) as (m & Hm & HT & HD). unfold bind_result, enough. destruct (Nat.ltb_spec (length ps) (length es)) as [L|L]; [split; [split; [congruence|lia]|discriminate]|]. split; [split|].
  - intros H. split; [auto|]. intros i p Hi Hp. destruct (defaults (skipn (length es) ps)) as [ds|] eqn:E; [|congruence]. destruct (defaults_nth _ ds (i - length es) p E) as (b & _ & Hb); [rewrite nth_skipn; replace (length es + (i - length es)) with i by lia; auto|]. unfold default in Hb. destruct (p_def p); congruence.
  - intros [_ H]. destruct (defaults_some (skipn (length es) ps)) as [ds ->]; [|discriminate]. intros p Hp. apply In_nth_error in Hp. destruct Hp as [i Hi]. rewrite nth_skipn in Hi. apply has_def. apply (H (length es + i)); auto. lia.
  - intros bs H. destruct (defaults (skipn (length es) ps)) as [ds|] eqn:E; [|discriminate]. inversion H; subst. pose proof (defaults_len _ _ E) as EL. rewrite skipn_length in EL. split; [rewrite app_length, zip_len; lia|].
    intros i p b Hp Hb. destruct (Nat.lt_ge_cases i (length es)) as [Hi|Hi].
    + destruct (nth_error es i) as [e|] eqn:Ee; [|apply nth_error_None in Ee; lia]. rewrite nth_error_app1 in Hb by (rewrite zip_len; lia). rewrite (zip_nth ps es i p e Hp Ee) in Hb. inversion Hb; subst. cbn. auto.
    + assert (nth_error es i = None) as -> by (apply nth_error_None; auto). rewrite nth_error_app2 in Hb by (rewrite zip_len; lia). rewrite zip_len in Hb. replace (Nat.min (length ps) (length es)) with (length es) in Hb by lia.
      destruct (defaults_nth _ ds (i - length es) p E) as (b' & H1 & H2); [rewrite nth_skipn; replace (length es + (i - length es)) with i by lia; auto|]. rewrite H1 in Hb. inversion Hb; subst. unfold default in H2. destruct (p_def p); [|discriminate]. inversion H2; subst. cbn. auto.
Qed.

(* ---- the parameters ---- *)
Lemma good_snoc ps p : good_params (ps ++ [p]) <-> good_params ps /\ ~ In (p_id p) (map p_id ps) /\ (forall k q, length ps = S k -> nth_error ps k = Some q -> p_def q <> None -> p_def p <> None).
Proof.
  unfold good_params. rewrite map_app. cbn [map]. split.
  - intros [H1 H2]. pose proof (NoDup_remove _ _ _ H1) as [H3 H4]. rewrite app_nil_r in *. split; [split; [auto|]|split; [auto|]].
    + intros i j a b L A B. apply (H2 i j); auto; rewrite nth_error_app1; auto; apply nth_error_Some; congruence.
    + intros k q Hk Hq. apply (H2 k (length ps)); [lia|rewrite nth_error_app1 by lia; auto|rewrite nth_error_app2, Nat.sub_diag by lia; reflexivity].
  - intros ((H1 & H2) & H3 & H4). split. { rewrite NoDup_count_occ' with (decA := N.eq_dec) in H1. apply NoDup_count_occ' with (decA := N.eq_dec). intros x Hx. rewrite count_occ_app. cbn. destruct (N.eq_dec (p_id p) x).
      - subst. assert (count_occ N.eq_dec (map p_id ps) (p_id p) = 0) by (apply count_occ_not_In; auto). lia.
      - rewrite Nat.add_0_r. apply H1. apply in_app_or in Hx. destruct Hx as [|[|[]]]; auto. congruence. }
    intros i j a b L A B. assert (j < length ps \/ j = length ps) as [J|J]. { assert (j < length (ps ++ [p])) as X by (apply nth_error_Some; congruence). rewrite app_length in X. cbn in X. lia. }
    + rewrite nth_error_app1 in A, B by lia. apply (H2 i j); auto.
    + subst j. rewrite nth_error_app1 in A by lia. rewrite nth_error_app2, Nat.sub_diag in B by lia. inversion B; subst b. destruct (length ps) as [|k] eqn:EK; [lia|]. destruct (nth_error ps k) as [q|] eqn:EQ; [|apply nth_error_None in EQ; lia]. intros D. apply (H4 k q); auto. destruct (Nat.eq_dec i k); [subst; congruence|]. apply (H2 i k a q); auto. lia.
Qed.
Lemma nodup_prefix {A} (l l' : list A) : NoDup (l ++ l') -> NoDup l.
Proof. induction l as [|x l IH]; intros H; [constructor|]. inversion H; subst. constructor; auto. intros X. apply H2. apply in_or_app. auto. Qed.
Lemma good_prefix ps qs : good_params (ps ++ qs) -> good_params ps.
Proof.
  intros [H1 H2]. split; [rewrite map_app in H1; apply nodup_prefix in H1; auto|]. intros i j a b L A B. apply (H2 i j); auto; rewrite nth_error_app1; auto; apply nth_error_Some; congruence.
Qed.
Lemma params_written qs : forall ps rest, good_params ps ->
  let '(r, err, lft) := parseRestOfClassParameters ps (write_params qs ++ rest) in
  (err = false -> good_params (ps ++ qs) /\ ps ++ qs <> [] /\ r = ps ++ qs /\ lft = rest) /\ (good_params (ps ++ qs) -> ps ++ qs <> [] -> err = false).
Proof.
  assert (forall q ps, good_params ps -> good_params (ps ++ [q]) <-> existsb (fun x => (p_id x =? p_id q)%N) ps = false /\ match length ps with 0 => false | S k => parameterHasDefaultValue ps k end && negb (hasDefault q) = false) as HG.
  { intros q ps G. rewrite good_snoc. split.
    - intros (_ & H1 & H2). split.
      + apply not_true_is_false. intros H. apply existsb_exists in H. destruct H as (x & Hx & E). apply N.eqb_eq in E. apply H1. rewrite <- E. apply in_map. auto.
      + destruct (length ps) as [|k] eqn:E; auto. unfold parameterHasDefaultValue. destruct (nth_error ps k) as [x|] eqn:EX; auto. destruct (hasDefault x) eqn:EH; auto. apply has_def in EH. specialize (H2 k x eq_refl EX EH). apply has_def in H2. rewrite H2. reflexivity.
    - intros [H1 H2]. split; [auto|]. split.
      + intros H. apply in_map_iff in H. destruct H as (x & E & Hx). apply not_true_iff_false in H1. apply H1. apply existsb_exists. exists x. split; auto. apply N.eqb_eq. auto.
      + intros k x E EX D. rewrite E in H2. unfold parameterHasDefaultValue in H2. rewrite EX in H2. apply has_def in D. rewrite D in H2. apply has_def. destruct (hasDefault q); auto. }
  induction qs as [|q qs IH]; intros ps rest G.
  - cbn [write_params written app parseRestOfClassParameters]. rewrite app_nil_r. split.
    + intros E. apply Nat.eqb_neq in E. repeat split; auto; try apply G. intros ->. apply E. reflexivity.
    + intros _ N. apply Nat.eqb_neq. destruct ps; [congruence|discriminate].
  - assert (forall r, write_params (q :: qs) ++ rest = PDecl q :: r -> parseRestOfClassParameters ps (PDecl q :: r) =
      if existsb (fun x => (p_id x =? p_id q)%N) ps then (ps, true, r) else if match length ps with 0 => false | S k => parameterHasDefaultValue ps k end && negb (hasDefault q) then (ps, true, r)
      else parseRestOfClassParameters (ps ++ [q]) (write_params qs ++ rest)) as HP.
    { intros r E. destruct qs as [|q2 qs]; inversion E; subst r; reflexivity. }
    assert (exists r, write_params (q :: qs) ++ rest = PDecl q :: r) as [r ER] by (destruct qs; eexists; reflexivity). rewrite ER, (HP r ER). specialize (HG q ps G).
    destruct (existsb (fun x => (p_id x =? p_id q)%N) ps) eqn:E1; [|destruct (match length ps with 0 => false | S k => parameterHasDefaultValue ps k end && negb (hasDefault q)) eqn:E2].
    + split; [discriminate|]. intros H. exfalso. change (q :: qs) with ([q] ++ qs) in H. rewrite app_assoc in H. apply good_prefix, HG in H. destruct H; discriminate.
    + split; [discriminate|]. intros H. exfalso. change (q :: qs) with ([q] ++ qs) in H. rewrite app_assoc in H. apply good_prefix, HG in H. destruct H; discriminate.
    + assert (good_params (ps ++ [q])) as G2 by (apply HG; auto). specialize (IH (ps ++ [q]) rest G2). rewrite <- app_assoc in IH. cbn [app] in IH. destruct (parseRestOfClassParameters (ps ++ [q]) (write_params qs ++ rest)) as [[a b] c]. exact IH.
Qed.

(* ---- the values ---- *)
Section V.
Variable bs : list binding.
Variables ctx tmpl : env.
Hypothesis ND : NoDup (map b_id bs).
Let ids := map b_id bs.

Lemma ids_in i : existsb (N.eqb i) ids = true <-> In i ids.
Proof. rewrite existsb_exists. split; [intros (x & H & E); apply N.eqb_eq in E; subst; auto|intros H; exists i; rewrite N.eqb_refl; auto]. Qed.
Lemma same_binding b b' : In b bs -> In b' bs -> b_id b = b_id b' -> b = b'.
Proof.
  unfold ids in *. clear ids. revert ND. generalize bs as l. clear. induction l as [|x l IH]; intros ND H1 H2 E; [destruct H1|]. cbn in ND. inversion ND; subst. destruct H1 as [->|H1], H2 as [->|H2]; auto.
  - elim H3. rewrite E. apply in_map. auto.
  - elim H3. rewrite <- E. apply in_map. auto.
Qed.
Lemma AVal_fun d e v : AVal bs ctx tmpl d e v -> forall w, AVal bs ctx tmpl d e w -> v = w.
Proof.
  induction 1 as [d v|i v H|b v w HI H IH HF|i v HN H|d o a b u v w HA IHA HB IHB HO]; intros z Hz; inversion Hz; subst; try congruence.
  - match goal with H1 : b_id ?x = b_id b |- _ => assert (x = b) by (apply same_binding; auto); subst x end. rewrite (IH v0) in HF by auto. congruence.
  - elim H1. apply in_map. auto.
  - elim HN. apply in_map. auto.
  - rewrite (IHA u0), (IHB v0) in HO by auto. congruence.
Qed.
(* the values found so far *)
Definition Sound (mine : env) : Prop := forall i w, mine i = Some w -> exists b, In b bs /\ b_id b = i /\ ArgValue bs ctx tmpl b w.

Lemma label_sound c t mine d e v x : sub c ctx -> sub t tmpl -> Sound mine -> label (names ids c t mine d) e = (Ready v, x) -> AVal bs ctx tmpl d e v.
Proof.
  intros Hc Ht HS. revert v x. induction e as [z|i|o a IHa b IHb]; intros v x H; cbn in H.
  - inversion H. constructor.
  - destruct (names ids c t mine d i) as [z|] eqn:E; inversion H; subst. unfold names in E. destruct d; [|constructor; auto].
    destruct (existsb (N.eqb i) ids) eqn:EI; [|apply A_tmpl; auto; intros HI; apply ids_in in HI; unfold ids in *; congruence].
    destruct (HS i v E) as (b & Hb & <- & u & HA & HF). eapply A_param; eauto.
  - destruct (label (names ids c t mine d) a) as [p ea] eqn:Ea, (label (names ids c t mine d) b) as [q eb] eqn:Eb. destruct p; [|inversion H..]. destruct q; [|inversion H..]. destruct (o v0 v1) eqn:EO; inversion H; subst. eapply A_op; eauto.
Qed.
Lemma set_sound mine b w : In b bs -> ArgValue bs ctx tmpl b w -> Sound mine -> Sound (set mine (b_id b) w).
Proof. intros Hb HA HS i z. unfold set. destruct (N.eqb_spec i (b_id b)); [|apply HS]. intros E. inversion E; subst. eauto. Qed.
Lemma set_more mine i w j : mine j <> None -> set mine i w j <> None.
Proof. unfold set. destruct (N.eqb j i); congruence. Qed.
Lemma set_this mine i w : set mine i w i <> None.
Proof. unfold set. rewrite N.eqb_refl. discriminate. Qed.

Lemma fold_sound c t : sub c ctx -> sub t tmpl -> forall pend mine pushed mine' lefts e, incl pend bs -> Sound mine -> foldArgs ids c t mine pushed pend = Some (mine', lefts, e) ->
  Sound mine' /\ incl lefts pend /\ (forall i, mine i <> None -> mine' i <> None) /\ forall b, In b pend -> In b lefts \/ mine' (b_id b) <> None.
Proof.
  intros Hc Ht. induction pend as [|b pend IH]; intros mine pushed mine' lefts e HI HS H; cbn [foldArgs] in H.
  - inversion H; subst. split; [auto|]. split; [apply incl_refl|]. split; [auto|]. intros b [].
  - destruct (pushed && negb (b_dflt b)); [discriminate|].
    assert (In b bs) as Hb by (apply HI; left; auto). assert (incl pend bs) as HI' by (intros x Hx; apply HI; right; auto).
    destruct (label (names ids c t mine (b_dflt b)) (b_ex b)) as [out e0] eqn:EL.
    assert (forall still mine1, ((still = [b] /\ mine1 = mine) \/ (still = [] /\ Sound mine1 /\ mine1 (b_id b) <> None /\ forall i, mine i <> None -> mine1 i <> None)) ->
      forall m2 l2 e2, foldArgs ids c t mine1 (pushed || b_dflt b) pend = Some (m2, l2, e2) -> mine' = m2 -> lefts = still ++ l2 ->
      Sound mine' /\ incl lefts (b :: pend) /\ (forall i, mine i <> None -> mine' i <> None) /\ forall b', In b' (b :: pend) -> In b' lefts \/ mine' (b_id b') <> None) as HK.
    { intros still mine1 HC m2 l2 e2 HF -> ->. assert (Sound mine1) as HS1 by (destruct HC as [(_ & ->)|(_ & ? & _)]; auto). destruct (IH mine1 _ m2 l2 e2 HI' HS1 HF) as (A & B & C & D). split; [exact A|]. destruct HC as [(-> & ->)|(-> & _ & H1 & H2)].
      - split; [intros x [->|Hx]; [left; auto|right; apply B; auto]|]. split; [exact C|]. intros b' [->|Hb']; [left; left; auto|]. destruct (D b' Hb'); [left; right; auto|right; auto].
      - split; [intros x Hx; right; apply B; auto|]. split; [auto|]. intros b' [->|Hb']; [right; auto|]. apply D. auto. }
    destruct out as [v| |]; [destruct (b_fit b v) as [w|] eqn:EF|..];
      (destruct (foldArgs ids c t _ (pushed || b_dflt b) pend) as [[[m2 l2] e2]|] eqn:EF2 in H; [|discriminate]); inversion H; subst;
      [refine (HK [] (set mine (b_id b) w) _ _ _ _ EF2 eq_refl eq_refl); right; (split; [auto|]); (split; [|split; [apply set_this|intros i; apply set_more]]) |
       refine (HK [b] mine _ _ _ _ EF2 eq_refl eq_refl); auto..].
    apply set_sound; auto. exists v. split; [|auto]. eapply label_sound; eauto.
Qed.
Lemma resolve_sound : forall times mine pend err mine' lefts err', (forall c t, In (c, t) times -> sub c ctx /\ sub t tmpl) -> incl pend bs -> Sound mine ->
  (forall b, In b bs -> In b pend \/ mine (b_id b) <> None) -> resolveArgs ids times mine pend err = Some (mine', lefts, err') ->
  Sound mine' /\ (forall b, In b bs -> In b lefts \/ mine' (b_id b) <> None).
Proof.
  induction times as [|[c t] times IH]; intros mine pend err mine' lefts err' HT HI HS HA H; cbn in H; [inversion H; subst; auto|].
  destruct (HT c t (or_introl eq_refl)) as [Hc Ht]. destruct (foldArgs ids c t mine false pend) as [[[m1 l1] e1]|] eqn:E; [|discriminate]. destruct (fold_sound c t Hc Ht _ _ _ _ _ _ HI HS E) as (A & B & C & D).
  apply (IH m1 l1 (err || e1)%bool mine' lefts err'); auto.
  - intros c' t' X. apply HT. right. auto.
  - intros x Hx. apply HI, B, Hx.
  - intros b Hb. destruct (HA b Hb) as [X|X]; auto.
Qed.

(* ---- and they are found ---- *)
(* how many parameters stand one behind the other *)
Inductive AN : nat -> bool -> ex -> Z -> Prop :=
| N_val n d v : AN n d (EVal v) v
| N_ctx n i v : ctx i = Some v -> AN n false (EName i) v
| N_param n b v w : In b bs -> AN n (b_dflt b) (b_ex b) v -> b_fit b v = Some w -> AN (S n) true (EName (b_id b)) w
| N_tmpl n i v : ~ In i (map b_id bs) -> tmpl i = Some v -> AN n true (EName i) v
| N_op n d o a b u v w : AN n d a u -> AN n d b v -> o u v = Some w -> AN n d (EOp o a b) w.
Lemma AN_mono n d e v : AN n d e v -> forall m, n <= m -> AN m d e v.
Proof. induction 1; intros m L; try (econstructor; eauto; fail). destruct m; [lia|]. eapply N_param; eauto. apply IHAN. lia. Qed.
Lemma AVal_AN d e v : AVal bs ctx tmpl d e v -> exists n, AN n d e v.
Proof.
  induction 1 as [d v|i v H|b v w HI H IH HF|i v HN H|d o a b u v w HA IHA HB IHB HO]; try (exists 0; econstructor; eauto; fail).
  - destruct IH as [n IH]. exists (S n). eapply N_param; eauto.
  - destruct IHA as [n IHA], IHB as [m IHB]. exists (Nat.max n m). eapply N_op; eauto; eapply AN_mono; eauto; lia.
Qed.
Lemma AN_AVal n d e v : AN n d e v -> AVal bs ctx tmpl d e v.
Proof. induction 1; econstructor; eauto. Qed.
Definition has (mine : env) (n : nat) : Prop := forall b v w, In b bs -> AN n (b_dflt b) (b_ex b) v -> b_fit b v = Some w -> mine (b_id b) <> None.

(* no error, and ready if what it needs is *)
Lemma label_ok mine d e v : Sound mine -> AVal bs ctx tmpl d e v -> label (names ids ctx tmpl mine d) e = (Ready v, false) \/ label (names ids ctx tmpl mine d) e = (Hazy, false).
Proof.
  intros HS. induction 1 as [d v|i v H|b v w HI H IH HF|i v HN H|d o a b u v w HA IHA HB IHB HO]; cbn [label].
  - auto.
  - cbn [names]. rewrite H. auto.
  - unfold names. assert (existsb (N.eqb (b_id b)) ids = true) as -> by (apply ids_in; unfold ids; apply in_map; auto). destruct (mine (b_id b)) as [z|] eqn:E; auto.
    destruct (HS _ _ E) as (b' & Hb' & E' & u & HA & HF'). apply same_binding in E'; auto. subst b'. left. rewrite (AVal_fun _ _ _ HA v H) in HF'. congruence.
  - unfold names. assert (existsb (N.eqb i) ids = false) as ->; [|rewrite H; auto]. apply not_true_is_false. intros X. apply HN, ids_in, X.
  - destruct IHA as [-> | ->], IHB as [-> | ->]; cbn; try rewrite HO; auto.
Qed.
Lemma label_ready mine n d e v : Sound mine -> (n = 0 \/ has mine (pred n)) -> AN n d e v -> label (names ids ctx tmpl mine d) e = (Ready v, false).
Proof.
  intros HS HH HA. pose proof (label_ok mine d e v HS (AN_AVal _ _ _ _ HA)) as [E|E]; auto. exfalso. revert HH E. induction HA as [n d v|n i v H|n b v w HI H IH HF|n i v HN H|n d o a b u v w HA IHA HB IHB HO]; intros HH E.
  - discriminate.
  - cbn in E. rewrite H in E. discriminate.
  - destruct HH as [HH|HH]; [discriminate|]. cbn in HH. cbn [label] in E. destruct (names ids ctx tmpl mine true (b_id b)) eqn:EN; [discriminate|]. unfold names in EN. assert (existsb (N.eqb (b_id b)) ids = true) as EI by (apply ids_in; unfold ids; apply in_map; auto). rewrite EI in EN. apply (HH b v w); auto.
  - cbn in E. unfold names in E. assert (existsb (N.eqb i) ids = false) as EI by (apply not_true_is_false; intros X; apply HN, ids_in, X). rewrite EI, H in E. discriminate.
  - cbn [label] in E. destruct (label_ok mine d a u HS (AN_AVal _ _ _ _ HA)) as [Ea|Ea]; [|apply IHA; auto]. destruct (label_ok mine d b v HS (AN_AVal _ _ _ _ HB)) as [Eb|Eb]; [|apply IHB; auto]. rewrite Ea, Eb, HO in E. discriminate.
Qed.
(* explicit arguments stand before default values *)
Fixpoint ordered (pushed : bool) (l : list binding) : Prop :=
  match l with [] => True | b :: r => (pushed = true -> b_dflt b = true) /\ ordered (pushed || b_dflt b) r end.
Lemma ordered_weak l : forall p, ordered true l -> ordered p l.
Proof. destruct l as [|b l]; intros p H; cbn in *; auto. destruct H as [H1 H2]. split; auto. rewrite (H1 eq_refl), orb_true_r in *. auto. Qed.
Lemma fold_ordered c t l : forall mine p, ordered p l -> exists mine' lefts e, foldArgs ids c t mine p l = Some (mine', lefts, e) /\ ordered p lefts.
Proof.
  induction l as [|b l IH]; intros mine p H; [cbn; eauto 10|]. cbn [ordered] in H. destruct H as [H1 H2]. cbn [foldArgs].
  assert (p && negb (b_dflt b) = false) as -> by (destruct p; auto; rewrite H1 by auto; reflexivity).
  assert (forall x, ordered (p || b_dflt b) x -> ordered p x) as HW. { intros x. destruct p; auto. cbn [orb]. destruct (b_dflt b); auto. apply ordered_weak. }
  destruct (label (names ids c t mine (b_dflt b)) (b_ex b)) as [[v| |] e0]; [destruct (b_fit b v) as [w|]|..];
    match goal with |- context [foldArgs ids c t ?m (p || b_dflt b) l] => destruct (IH m (p || b_dflt b)%bool H2) as (m' & lf & e & E & O); rewrite E end; do 3 eexists; (split; [reflexivity|]); cbn [app ordered]; auto.
Qed.
Lemma fold_ok : (forall b, In b bs -> exists w, ArgValue bs ctx tmpl b w) -> forall n pend mine p mine' lefts e, incl pend bs -> Sound mine -> (n = 0 \/ has mine (pred n)) ->
  foldArgs ids ctx tmpl mine p pend = Some (mine', lefts, e) -> e = false /\ forall b v w, In b pend -> AN n (b_dflt b) (b_ex b) v -> b_fit b v = Some w -> mine' (b_id b) <> None.
Proof.
  intros HV n. induction pend as [|b pend IH]; intros mine p mine' lefts e HI HS HH H; cbn [foldArgs] in H; [inversion H; subst; split; auto; intros b v w []|].
  destruct (p && negb (b_dflt b)); [discriminate|]. assert (In b bs) as Hb by (apply HI; left; auto). assert (incl pend bs) as HI' by (intros x Hx; apply HI; right; auto).
  destruct (HV b Hb) as (w & v & HA & HF). destruct (label_ok mine _ _ _ HS HA) as [EL|EL]; rewrite EL in H.
  - rewrite HF in H. assert (Sound (set mine (b_id b) w)) as HS1 by (apply set_sound; auto; exists v; auto). destruct (foldArgs ids ctx tmpl (set mine (b_id b) w) (p || b_dflt b) pend) as [[[m2 l2] e2]|] eqn:E; [|discriminate]. inversion H; subst.
    destruct (IH _ _ _ _ _ HI' HS1 ltac:(destruct HH as [HH|HH]; auto; right; intros b1 v1 w1 X Y Z; apply set_more; eauto) E) as [-> D]. split; [reflexivity|]. intros b' v' w' [->|Hb'] X Y; [|eauto].
    destruct (fold_sound ctx tmpl (fun _ _ z => z) (fun _ _ z => z) _ _ _ _ _ _ HI' HS1 E) as (_ & _ & C & _). apply C, set_this.
  - destruct (foldArgs ids ctx tmpl mine (p || b_dflt b) pend) as [[[m2 l2] e2]|] eqn:E; [|discriminate]. inversion H; subst. destruct (IH _ _ _ _ _ HI' HS HH E) as [-> D]. split; [reflexivity|]. intros b' v' w' [->|Hb'] X Y; [|eauto]. rewrite (label_ready mine n _ _ v' HS HH X) in EL. discriminate.
Qed.
Lemma resolve_ok : (forall b, In b bs -> exists w, ArgValue bs ctx tmpl b w) -> forall k n mine pend, incl pend bs -> Sound mine -> (n = 0 \/ has mine (pred n)) -> ordered false pend ->
  (forall b, In b bs -> In b pend \/ mine (b_id b) <> None) ->
  exists mine' lefts, resolveArgs ids (repeat (ctx, tmpl) k) mine pend false = Some (mine', lefts, false) /\ (n + k = 0 \/ has mine' (pred (n + k))) /\ incl lefts bs /\
    (forall b, In b lefts -> In b bs).
Proof.
  intros HV. induction k as [|k IH]; intros n mine pend HI HS HH HO HA.
  - exists mine, pend. rewrite Nat.add_0_r. cbn. auto.
  - cbn [repeat resolveArgs]. destruct (fold_ordered ctx tmpl pend mine false HO) as (m1 & l1 & e1 & E & O). rewrite E. destruct (fold_ok HV n _ _ _ _ _ _ HI HS HH E) as [-> D]. destruct (fold_sound ctx tmpl (fun _ _ z => z) (fun _ _ z => z) _ _ _ _ _ _ HI HS E) as (A & B & C & F).
    destruct (IH (S n) m1 l1) as (m' & l' & R1 & R2 & R3); auto.
    + intros x Hx. apply HI, B, Hx.
    + right. cbn [pred]. intros b v w Hb X Y. destruct (HA b Hb) as [Z|Z]; eauto.
    + intros b Hb. destruct (HA b Hb) as [Z|Z]; auto.
    + exists m', l'. split; [exact R1|]. replace (n + S k) with (S n + k) by lia. auto.
Qed.
End V.
