(* ParamTheorems.v: C101. *)
From Coq Require Import List NArith ZArith Lia Bool.
From Verif Require Import ConstResModel ParamModel ParamSpec ParamProofs.
Import ListNotations.
Open Scope nat_scope.

(* ---- what an accepted instance has ---- *)
Lemma bound_ids ps es bs : bound ps es bs -> map b_id bs = map p_id ps.
Proof.
  intros [L H]. revert es bs L H. induction ps as [|p ps IH]; intros es [|b bs] L H; try discriminate; [reflexivity|]. cbn. f_equal.
  - apply (H 0 p b); reflexivity.
  - apply (IH (tl es)); [cbn in L; lia|]. intros i q c A B. pose proof (H (S i) q c A B) as X. destruct es; cbn [nth_error tl] in *; [destruct i; exact X|exact X].
Qed.
Lemma ordered_if l : forall p, (forall i j a b, i < j -> nth_error l i = Some a -> nth_error l j = Some b -> b_dflt a = true -> b_dflt b = true) -> (p = true -> forall b, In b l -> b_dflt b = true) -> ordered p l.
Proof.
  induction l as [|b l IH]; intros p H HP; cbn; auto. split; [intros E; apply HP; auto; left; auto|]. apply IH.
  - intros i j a c L A B. apply (H (S i) (S j)); auto. lia.
  - intros E c Hc. apply orb_true_iff in E. destruct E as [E|E]; [apply HP; auto; right; auto|]. apply In_nth_error in Hc. destruct Hc as [j Hj]. apply (H 0 (S j) b c); auto. lia.
Qed.
Lemma bound_ordered ps es bs : bound ps es bs -> ordered false bs.
Proof.
  intros [L H]. apply ordered_if; [|discriminate]. intros i j a b LT A B D.
  assert (forall k c, nth_error bs k = Some c -> b_dflt c = (length es <=? k)) as HD.
  { intros k c E. destruct (nth_error ps k) as [p|] eqn:EP; [|apply nth_error_None in EP; rewrite <- L in EP; apply nth_error_None in EP; congruence]. destruct (H k p c EP E) as (_ & _ & X). destruct (nth_error es k) eqn:EE; destruct X as [_ ->].
    - symmetry. apply Nat.leb_gt. apply nth_error_Some. congruence.
    - symmetry. apply Nat.leb_le. apply nth_error_None. auto. }
  rewrite (HD i a A) in D. rewrite (HD j b B). apply Nat.leb_le in D. apply Nat.leb_le. lia.
Qed.
Definition instance (ps : list param) (ts : list atok) (bs : list binding) (rest : list atok) : Prop :=
  parseClassArguments ps ts = (Stub bs false, rest) \/ unseenInstance ps ts = (Stub bs false, rest).
Lemma instance_bound ps ts bs rest : good_params ps -> instance ps ts bs rest -> exists es, bound ps es bs.
Proof.
  intros [_ HS] H. destruct (parseRestOfClassArguments None 0 ts) as [[[es k] err] r] eqn:E. exists es. apply (result_iff ps es HS).
  destruct (seen_ok ps ts HS _ _ _ _ E) as (s1 & E1 & _ & R1). destruct (unseen_ok ps ts HS _ _ _ _ E) as (s2 & E2 & _ & R2).
  assert (bind_result ps es err = Some bs) as R. { destruct H as [H|H]; [rewrite E1 in H; inversion H; subst s1; symmetry; exact R1|rewrite E2 in H; inversion H; subst s2; symmetry; exact R2]. }
  destruct err; [discriminate|exact R].
Qed.
Lemma none_sound bs ctx tmpl : Sound bs ctx tmpl (fun _ => None).
Proof. intros i w H. discriminate. Qed.

(* ---- the definition of the parameters ---- *)
Theorem C101_params (ps : list param) (rest : list ptok) :
  let '(r, err, lft) := parseRestOfClassParameters [] (write_params ps ++ rest) in
  (err = false <-> good_params ps /\ ps <> []) /\ (err = false -> r = ps /\ lft = rest).
Proof.
  assert (good_params []) as G by (split; [constructor|intros [|i] j p q _ H; discriminate]). pose proof (params_written ps [] rest G) as H. cbn [app] in H. destruct (parseRestOfClassParameters [] (write_params ps ++ rest)) as [[r err] lft]. destruct H as [H1 H2]. split; [split|].
  - intros E. destruct (H1 E) as (A & B & _). auto.
  - intros [A B]. auto.
  - intros E. destruct (H1 E) as (_ & _ & A). auto.
Qed.
Print Assumptions C101_params.

(* whatever is read, a definition without error is in order *)
Theorem C101_params_good (ts : list ptok) (ps : list param) (rest : list ptok) : parseRestOfClassParameters [] ts = (ps, false, rest) -> good_params ps /\ ps <> [].
Proof.
  assert (good_params []) as G by (split; [constructor|intros [|i] j p q _ H; discriminate]).
  assert (forall n ts acc, length ts <= n -> good_params acc -> parseRestOfClassParameters acc ts = (ps, false, rest) -> good_params ps /\ ps <> []) as K; [|intros H; eapply K; eauto].
  clear G; induction n as [|n IH]; intros us acc L G H; destruct us as [|[p| | |] r]; cbn [parseRestOfClassParameters] in H; try (cbn in L; lia); try (inversion H; fail).
  - cbn [length] in L. destruct (existsb (fun q => (p_id q =? p_id p)%N) acc) eqn:E1; [discriminate|]. destruct (match length acc with 0 => false | S k => parameterHasDefaultValue acc k end && negb (hasDefault p)) eqn:E2; [discriminate|].
    assert (good_params (acc ++ [p])) as G2.
    { apply good_snoc. split; [auto|]. split.
      - intros X. apply in_map_iff in X. destruct X as (x & E & Hx). apply not_true_iff_false in E1. apply E1, existsb_exists. exists x. split; auto. apply N.eqb_eq. auto.
      - intros k x E EX D. rewrite E in E2. unfold parameterHasDefaultValue in E2. rewrite EX in E2. apply has_def in D. rewrite D in E2. apply has_def. destruct (hasDefault p); auto. }
    destruct r as [|[q| | |] r']; (eapply IH; [|exact G2|exact H]; cbn [length] in *; lia).
  - inversion H; subst. split; [auto|]. intros ->. discriminate.
Qed.
Print Assumptions C101_params_good.

(* ---- the arguments ---- *)
Theorem C101_args (ps : list param) (es : list ex) (rest : list atok) : good_params ps ->
  exists s, parseClassArguments ps (write_args es ++ rest) = (s, rest) /\
    ((exists bs, s = Stub bs false) <-> enough ps (length es)) /\ forall bs, s = Stub bs false -> bound ps es bs.
Proof.
  intros [_ HS]. destruct (seen_ok ps _ HS _ _ _ _ (args_written es rest 0)) as (s & E & _ & R). exists s. split; [exact E|]. destruct (result_iff ps es HS) as [R1 R2]. rewrite <- R in R1, R2. split.
  - rewrite <- R1. split; [intros [bs ->]; discriminate|]. destruct s as [|bs [|]]; cbn; intros X; try congruence. eauto.
  - intros bs ->. apply R2. reflexivity.
Qed.
Print Assumptions C101_args.

(* whether the template is defined before or after makes no difference, whatever is written *)
Theorem C101_same (ps : list param) (ts : list atok) : good_params ps ->
  exists s1 s2 rest, parseClassArguments ps ts = (s1, rest) /\ unseenInstance ps ts = (s2, rest) /\ s1 <> Abort /\ s2 <> Abort /\
    forall bs, s1 = Stub bs false <-> s2 = Stub bs false.
Proof.
  intros [_ HS]. destruct (parseRestOfClassArguments None 0 ts) as [[[es k] err] r] eqn:E. destruct (seen_ok ps ts HS _ _ _ _ E) as (s1 & E1 & A1 & R1). destruct (unseen_ok ps ts HS _ _ _ _ E) as (s2 & E2 & A2 & R2).
  exists s1, s2, r. do 4 (split; [auto|]). assert (accepts s1 = accepts s2) as X by congruence. intros bs. destruct s1 as [|b1 [|]], s2 as [|b2 [|]]; cbn in X; split; intros Y; congruence.
Qed.
Print Assumptions C101_same.

(* ---- the values ---- *)
Theorem C101_values (ps : list param) (ts : list atok) (bs : list binding) (rest : list atok) (ctx tmpl : env) (times : list (env * env)) (mine : env) (lefts : list binding) (err : bool) :
  good_params ps -> instance ps ts bs rest -> (forall c t, In (c, t) times -> sub c ctx /\ sub t tmpl) ->
  resolveArgs (map b_id bs) times (fun _ => None) bs false = Some (mine, lefts, err) ->
  forall b, In b bs -> (In b lefts \/ mine (b_id b) <> None) /\ forall w, mine (b_id b) = Some w -> ArgValue bs ctx tmpl b w /\ forall w', ArgValue bs ctx tmpl b w' -> w' = w.
Proof.
  intros G HI HT HR b Hb. destruct (instance_bound ps ts bs rest G HI) as [es HB]. assert (NoDup (map b_id bs)) as ND by (rewrite (bound_ids _ _ _ HB); apply G).
  destruct (resolve_sound bs ctx tmpl _ _ _ _ _ _ _ HT (incl_refl bs) (none_sound bs ctx tmpl) ltac:(auto) HR) as [A B]. split; [auto|]. intros w E. destruct (A _ _ E) as (b' & Hb' & E' & V). assert (b' = b) by (apply (same_binding bs ND); auto). subst b'. split; [exact V|].
  intros w' (u & HU & FU). destruct V as (v & HV & FV). rewrite (AVal_fun bs ctx tmpl ND _ _ _ HU v HV) in FU. congruence.
Qed.
Print Assumptions C101_values.

Theorem C101_no_abort (ps : list param) (ts : list atok) (bs : list binding) (rest : list atok) (times : list (env * env)) :
  good_params ps -> instance ps ts bs rest -> resolveArgs (map b_id bs) times (fun _ => None) bs false <> None.
Proof.
  intros G HI. destruct (instance_bound ps ts bs rest G HI) as [es HB]. pose proof (bound_ordered _ _ _ HB) as HO. clear - HO. assert (forall l mine e, ordered false l -> resolveArgs (map b_id bs) times mine l e <> None) as K; [|auto]. clear HO.
  induction times as [|[c t] times' IH]; intros l0 mine e HO; cbn; [discriminate|]. destruct (fold_ordered bs c t l0 mine false HO) as (m & l & e1 & E & O). rewrite E. apply IH. exact O.
Qed.
Print Assumptions C101_no_abort.

Section R.
Variable bs : list binding.
Variables ctx tmpl : env.
Hypothesis ND : NoDup (map b_id bs).
Lemma fold_empty n : forall pend mine p mine' lefts e, incl pend bs -> Sound bs ctx tmpl mine -> has bs ctx tmpl mine (pred n) \/ n = 0 -> (forall b, In b pend -> exists v w, AN bs ctx tmpl n (b_dflt b) (b_ex b) v /\ b_fit b v = Some w) ->
  foldArgs (map b_id bs) ctx tmpl mine p pend = Some (mine', lefts, e) -> lefts = [].
Proof.
  induction pend as [|b pend IH]; intros mine p mine' lefts e HI HS HH HA H; cbn [foldArgs] in H; [inversion H; auto|]. destruct (p && negb (b_dflt b)); [discriminate|]. destruct (HA b (or_introl eq_refl)) as (v & w & HN & HF).
  rewrite (label_ready bs ctx tmpl ND mine n _ _ v HS ltac:(tauto) HN), HF in H.
  assert (Sound bs ctx tmpl (set mine (b_id b) w)) as HS1. { apply set_sound; auto; [apply HI; left; auto|]. exists v. split; [eapply AN_AVal; eauto|auto]. }
  destruct (foldArgs (map b_id bs) ctx tmpl (set mine (b_id b) w) (p || b_dflt b) pend) as [[[m l] e2]|] eqn:E; [|discriminate]. inversion H; subst. cbn [app]. eapply IH; [| | | |exact E]; auto.
  - intros x Hx. apply HI. right. auto.
  - destruct HH as [HH|HH]; auto. left. intros b1 v1 w1 X Y Z. apply set_more. eauto.
  - intros x Hx. apply HA. right. auto.
Qed.
Lemma resolve_app ids t1 : forall t2 mine pend e, resolveArgs ids (t1 ++ t2) mine pend e = match resolveArgs ids t1 mine pend e with Some (m, l, e') => resolveArgs ids t2 m l e' | None => None end.
Proof. induction t1 as [|[c t] t1 IH]; intros t2 mine pend e; cbn; auto. destruct (foldArgs ids c t mine false pend) as [[[m l] e1]|]; auto. Qed.
Lemma resolve_nil ids ts : forall mine e, resolveArgs ids ts mine [] e = Some (mine, [], e).
Proof. induction ts as [|[c t] ts IH]; intros mine e; cbn; auto. rewrite IH. rewrite orb_false_r. reflexivity. Qed.
Lemma resolve_ordered ts : forall mine pend e m l e', ordered false pend -> resolveArgs (map b_id bs) ts mine pend e = Some (m, l, e') -> ordered false l.
Proof. induction ts as [|[c t] ts IH]; intros mine pend e m l e' HO H; cbn in H; [inversion H; subst; auto|]. destruct (fold_ordered bs c t pend mine false HO) as (m1 & l1 & e1 & E & O). rewrite E in H. eapply IH; eauto. Qed.
Lemma all_high : (forall b, In b bs -> exists w, ArgValue bs ctx tmpl b w) -> exists n, forall b, In b bs -> exists v w, AN bs ctx tmpl n (b_dflt b) (b_ex b) v /\ b_fit b v = Some w.
Proof.
  intros HV. assert (forall l, incl l bs -> exists n, forall b, In b l -> exists v w, AN bs ctx tmpl n (b_dflt b) (b_ex b) v /\ b_fit b v = Some w) as K; [|apply K; apply incl_refl].
  induction l as [|b l IH]; intros HI; [exists 0; intros b []|]. destruct IH as [n IH]; [intros x Hx; apply HI; right; auto|]. destruct (HV b) as (w & v & HA & HF); [apply HI; left; auto|]. apply AVal_AN in HA. destruct HA as [m HA]. exists (Nat.max n m). intros b' [->|Hb'].
  - exists v, w. split; auto. eapply AN_mono; eauto. lia.
  - destruct (IH b' Hb') as (v' & w' & X & Y). exists v', w'. split; auto. eapply AN_mono; eauto. lia.
Qed.
End R.

(* arguments that have values get them, without an error *)
Theorem C101_ready (ps : list param) (ts : list atok) (bs : list binding) (rest : list atok) (ctx tmpl : env) :
  good_params ps -> instance ps ts bs rest -> (forall b, In b bs -> exists w, ArgValue bs ctx tmpl b w) ->
  exists n, forall k, n <= k -> exists mine, resolveArgs (map b_id bs) (repeat (ctx, tmpl) k) (fun _ => None) bs false = Some (mine, [], false) /\
    forall b, In b bs -> exists w, mine (b_id b) = Some w /\ ArgValue bs ctx tmpl b w.
Proof.
  intros G HI HV. destruct (instance_bound ps ts bs rest G HI) as [es HB]. assert (NoDup (map b_id bs)) as ND by (rewrite (bound_ids _ _ _ HB); apply G). pose proof (bound_ordered _ _ _ HB) as HO.
  destruct (all_high bs ctx tmpl HV) as [n HN]. exists (S n). intros k L.
  assert (exists mine, resolveArgs (map b_id bs) (repeat (ctx, tmpl) k) (fun _ => None) bs false = Some (mine, [], false)) as [mine E].
  { replace k with (n + S (k - S n)) by lia. rewrite repeat_app, resolve_app. destruct (resolve_ok bs ctx tmpl ND HV n 0 (fun _ => None) bs (incl_refl bs) (none_sound _ _ _) (or_introl eq_refl) HO ltac:(auto)) as (m1 & l1 & E1 & H1 & I1 & _). rewrite E1. cbn [repeat resolveArgs].
    pose proof (resolve_ordered bs _ _ _ _ _ _ _ HO E1) as O1. destruct (fold_ordered bs ctx tmpl l1 m1 false O1) as (m2 & l2 & e2 & E2 & _). rewrite E2.
    assert (Sound bs ctx tmpl m1) as S1. { apply (resolve_sound bs ctx tmpl (repeat (ctx, tmpl) n) (fun _ => None) bs false m1 l1 false); auto; [|apply incl_refl|apply none_sound]. intros c t X. apply repeat_spec in X. inversion X; subst. split; intros i v; auto. }
    assert (l2 = []) as -> by (refine (fold_empty bs ctx tmpl ND n l1 m1 false m2 l2 e2 I1 S1 _ _ E2); [cbn in H1; tauto|intros b Hb; apply HN, I1, Hb]).
    assert (e2 = false) as -> by (refine (proj1 (fold_ok bs ctx tmpl ND HV n l1 m1 false m2 [] e2 I1 S1 _ E2)); exact H1). rewrite resolve_nil. exists m2. reflexivity. }
  exists mine. split; [exact E|]. intros b Hb. destruct (C101_values ps ts bs rest ctx tmpl (repeat (ctx, tmpl) k) mine [] false G HI) with (b := b) as [[[]|A] B]; auto.
  - intros c t X. apply repeat_spec in X. inversion X; subst. split; intros i v; auto.
  - destruct (mine (b_id b)) as [w|] eqn:EW; [|congruence]. exists w. split; [auto|]. apply B. reflexivity.
Qed.
Print Assumptions C101_ready.

(* ---- the commas ---- *)
Definition fit8 (z : Z) : option Z := if ((-128 <=? z) && (z <=? 127))%Z then Some z else None.
Definition pa : param := {| p_id := 1%N; p_fit := fit8; p_def := None |}.
Definition pb : param := {| p_id := 2%N; p_fit := fit8; p_def := Some (EOp (fun x y => Some (x + y)%Z) (EName 1%N) (EName 9%N)) |}.
(* Foo(1 2) is Foo(1, 2); Foo(Int(8) a Int(8) b = a + 9,) is a definition *)
Theorem C101_comma_refuted :
  parseClassArguments [pa; pb] [AE (EVal 1); AE (EVal 2); AClose] = parseClassArguments [pa; pb] (write_args [EVal 1; EVal 2]) /\
  (exists bs, parseClassArguments [pa; pb] [AE (EVal 1); AE (EVal 2); AClose] = (Stub bs false, [])) /\
  parseRestOfClassParameters [] [PDecl pa; PDecl pb; PComma; PClose] = ([pa; pb], false, []).
Proof. split; [reflexivity|]. split; [eexists; reflexivity|reflexivity]. Qed.
Print Assumptions C101_comma_refuted.

Definition ex_ctx : env := fun i => if (i =? 1)%N then Some 100%Z else None.
Definition ex_tmpl : env := fun i => if (i =? 9)%N then Some 3%Z else if (i =? 1)%N then Some 50%Z else None.
(* Foo(a - 90) where a is 100: the first parameter is 10, the second 13 *)
Example C101_ex :
  let sub90 := EOp (fun x y => Some (x - y)%Z) (EName 1%N) (EVal 90) in
  good_params [pa; pb] /\ enough [pa; pb] 1 /\ ~ enough [pa; pb] 0 /\ ~ enough [pa; pb] 3 /\
  (exists bs, instance [pa; pb] (write_args [sub90]) bs [] /\ (forall b, In b bs -> exists w, ArgValue bs ex_ctx ex_tmpl b w) /\
     exists mine, resolveArgs (map b_id bs) [(fun _ => None, ex_tmpl); (ex_ctx, ex_tmpl)] (fun _ => None) bs false = Some (mine, [], false) /\ mine 1%N = Some 10%Z /\ mine 2%N = Some 13%Z) /\
  parseClassArguments [pa; pb] [AClose] = (Stub [] true, []) /\
  parseRestOfClassParameters [] (write_params [pb; pa]) = ([pb], true, [PClose]).
Proof.
  cbv zeta. split; [|split; [|split; [|split; [|split; [|split; [reflexivity|]]]]]].
  - split; [repeat constructor; cbn; intuition discriminate|]. intros [|[|i]] [|[|[|j]]] p q L A B; try lia; cbn in A, B; inversion A; inversion B; subst; cbn; congruence.
  - split; [cbn; lia|]. intros [|[|[|i]]] p L H; try lia; inversion H. cbn. discriminate.
  - intros [_ H]. apply (H 0 pa); [lia|reflexivity|reflexivity].
  - intros [H _]. cbn in H. lia.
  - eexists. split; [left; reflexivity|]. split.
    + intros b [<-|[<-|[]]].
      * exists 10%Z, 10%Z. split; [|reflexivity]. eapply A_op; [apply A_ctx; reflexivity|apply A_val|reflexivity].
      * exists 13%Z, 13%Z. split; [|reflexivity]. apply A_op with (u := 10%Z) (v := 3%Z); [|apply A_tmpl; [cbn; intuition discriminate|reflexivity]|reflexivity].
        match goal with |- AVal ?l _ _ _ _ _ => apply (A_param l ex_ctx ex_tmpl (explicit pa (EOp (fun x y => Some (x - y)%Z) (EName 1%N) (EVal 90))) 10 10) end; [left; reflexivity| |reflexivity]. eapply A_op; [apply A_ctx; reflexivity|apply A_val|reflexivity].
    + eexists. split; [reflexivity|]. split; reflexivity.
  - reflexivity.
Qed.
