(* OverloadProofs.v: one class. *)
From Coq Require Import List NArith ZArith Lia Bool Permutation.
From Coq Require Import ZifyBool ZifyNat ZifyN.
From Verif Require Import Base TypeTableModel FamilyModel OverloadModel OverloadSpec.
Import ListNotations.
Open Scope N_scope.

Section One.
Variables P A : Type.
Variable rel : P -> A -> fit.
Notation func := (func P).

Lemma number_wrong (f : func) (args : list A) : wrong_number P A f args = negb (number_ok P A f args).
Proof.
  unfold wrong_number, number_ok. destruct (f_varargs P f); cbn [negb andb]; rewrite ?andb_true_r, ?andb_false_r, ?orb_false_r.
  - apply eq_iff_eq_true. rewrite negb_true_iff, !orb_false_iff || idtac.
    destruct (Nat.ltb_spec (length args) (length (f_params P f)));
    destruct (Nat.eqb_spec (length (f_params P f)) (length args));
    destruct (Nat.ltb_spec (length (f_params P f)) (length args)); cbn; split; intros; try discriminate; try reflexivity; lia.
  - destruct (Nat.ltb_spec (length args) (length (f_params P f)));
    destruct (Nat.eqb_spec (length (f_params P f)) (length args));
    destruct (Nat.ltb_spec (length (f_params P f)) (length args)); cbn; try reflexivity; lia.
Qed.

Lemma number_le (f : func) (args : list A) : number_ok P A f args = true -> (length (f_params P f) <= length args)%nat.
Proof.
  unfold number_ok. intros H. apply orb_true_iff in H. destruct H as [H|H].
  - apply Nat.eqb_eq in H. lia.
  - apply andb_true_iff in H. destruct H as [_ H]. apply Nat.ltb_lt in H. lia.
Qed.

Lemma strict_loop_spec : forall ps args hz m h, (length ps <= length args)%nat ->
  strict_loop P A rel ps args hz = (m, h) -> h = false ->
  hz = false /\ m = forallb exact1 (map (fun pa => rel (fst pa) (snd pa)) (combine ps args)).
Proof.
  induction ps as [|p ps IH]; intros args hz m h Hl H Hh.
  - cbn in H. injection H as <- <-. split; [exact Hh|reflexivity].
  - destruct args as [|a args]; [cbn in Hl; lia|].
    cbn [strict_loop combine map forallb fst snd] in *.
    unfold exact1 at 1. destruct (p_ok (rel p a)), (p_complete (rel p a)); cbn [negb orb andb] in *;
      try (injection H as <- <-; discriminate).
    destruct (pa_cmp (rel p a)); cbn [is_same] in *.
    + apply (IH args hz m h); [cbn in Hl; lia|exact H|exact Hh].
    + injection H as <- <-. split; [exact Hh|reflexivity].
    + injection H as <- <-. discriminate.
Qed.

Lemma strict_spec (f : func) (args : list A) m h : matchingTypesStrictly P A rel f args false = (m, h) -> h = false ->
  m = exact_fit P A rel args f.
Proof.
  unfold matchingTypesStrictly, exact_fit. rewrite number_wrong. intros H Hh.
  destruct (number_ok P A f args) eqn:E; cbn [negb andb] in *.
  - destruct (strict_loop_spec _ _ _ _ _ (number_le _ _ E) H Hh) as [_ R]. exact R.
  - injection H as <- <-. reflexivity.
Qed.

Definition count {X} (g : X -> bool) (l : list X) : N := N.of_nat (length (filter g l)).
Fixpoint last_of {X} (l : list X) (d : option X) : option X := match l with [] => d | x :: r => last_of r (Some x) end.

Lemma strict_find_spec : forall fs args n s hz n' s' h, strict_find P A rel fs args (n, s, hz) = (n', s', h) -> h = false ->
  hz = false /\ n' = n + count (exact_fit P A rel args) fs /\ s' = last_of (filter (exact_fit P A rel args) fs) s.
Proof.
  induction fs as [|f fs IH]; intros args n s hz n' s' h H Hh.
  - cbn in H. injection H as <- <- <-. unfold count. cbn. split; [exact Hh|split; [lia|reflexivity]].
  - cbn [strict_find] in H. destruct (matchingTypesStrictly P A rel f args false) as [m h1] eqn:Em.
    apply IH in H; [|exact Hh]. destruct H as (H1 & H2 & H3).
    apply orb_false_iff in H1. destruct H1 as [H1 H1']. split; [exact H1|].
    apply strict_spec in Em; [|exact H1']. subst m. unfold count in *. cbn [filter].
    destruct (exact_fit P A rel args f); cbn [length last_of]; split; try exact H3; lia.
Qed.

Lemma strict_find_hazy : forall fs args n s n' s' h, strict_find P A rel fs args (n, s, true) = (n', s', h) -> h = true.
Proof.
  induction fs as [|f fs IH]; intros args n s n' s' h H; cbn [strict_find] in H.
  - injection H as _ _ <-. reflexivity.
  - destruct (matchingTypesStrictly P A rel f args false) as [m h1]. cbn [orb] in H. eapply IH, H.
Qed.

Theorem find_exact_spec fs args n s : findMatchingFunction P A rel fs args = (n, s, false) ->
  n = count (exact_fit P A rel args) fs /\ s = last_of (filter (exact_fit P A rel args) fs) None.
Proof.
  unfold findMatchingFunction. intros H. apply strict_find_spec in H; [|reflexivity]. destruct H as (_ & H & H'). split; [lia|exact H'].
Qed.

(* the hazy flag is never taken back *)
Lemma safe_loop_hazy : forall ps args n m h n', safe_loop P A rel ps args true n = (m, h, n') -> h = true.
Proof.
  induction ps as [|p ps IH]; intros args n m h n' H; cbn [safe_loop] in H; [injection H as _ <- _; reflexivity|].
  destruct args as [|a args]; [injection H as _ <- _; reflexivity|].
  destruct (negb (p_ok (rel p a)) || negb (a_ok (rel p a))); [injection H as _ <- _; reflexivity|].
  destruct (pa_cmp (rel p a)); [eapply IH, H| |];
    (destruct (a_const (rel p a));
     [destruct (p_ref (rel p a) && (negb (p_const (rel p a)) || a_explicit (rel p a))); [injection H as _ <- _; reflexivity|];
      destruct (a_safe (rel p a)); [eapply IH, H|injection H as _ <- _; reflexivity|eapply IH, H]
     |destruct (p_safe (rel p a));
      [destruct (p_constref (rel p a) && a_explicit (rel p a)); [injection H as _ <- _; reflexivity|eapply IH, H]
      |injection H as _ <- _; reflexivity|eapply IH, H]]).
Qed.

Lemma safe_loop_spec : forall ps args hz n m h n', (length ps <= length args)%nat ->
  safe_loop P A rel ps args hz n = (m, h, n') -> h = false ->
  hz = false /\ m = forallb clear1 (map (fun pa => rel (fst pa) (snd pa)) (combine ps args))
  /\ (m = true -> n' = n + count same1 (map (fun pa => rel (fst pa) (snd pa)) (combine ps args))).
Proof.
  induction ps as [|p ps IH]; intros args hz n m h n' Hl H Hh.
  - cbn in H. injection H as <- <- <-. unfold count. cbn. split; [exact Hh|split; [reflexivity|lia]].
  - destruct args as [|a args]; [cbn in Hl; lia|].
    assert (Hl' : (length ps <= length args)%nat) by (cbn in Hl; lia).
    cbn [safe_loop] in H. cbn [combine map fst snd forallb].
    assert (Hcount : forall l, count same1 (rel p a :: l) = (if same1 (rel p a) then 1 else 0) + count same1 l).
    { intros l. unfold count. cbn [filter]. destruct (same1 (rel p a)); cbn [length]; lia. }
    rewrite Hcount.
    unfold clear1 at 1. unfold same1 at 1.
    destruct (p_ok (rel p a)), (a_ok (rel p a)); cbn [negb orb andb] in *;
      try (injection H as <- <- <-; discriminate).
    destruct (pa_cmp (rel p a)); cbn [is_same orb andb] in *.
    { apply IH in H; [|exact Hl'|exact Hh]. destruct H as (H1 & H2 & H3). split; [exact H1|split; [exact H2|]].
      intros Hm. rewrite (H3 Hm). lia. }
    all: destruct (a_const (rel p a)).
    all: try (destruct (p_ref (rel p a) && (negb (p_const (rel p a)) || a_explicit (rel p a))); cbn [negb andb] in *;
      [injection H as <- <- <-; split; [exact Hh|split; [reflexivity|discriminate]]|]).
    all: match goal with
         | H : context [match a_safe ?x with _ => _ end] |- _ => destruct (a_safe x)
         | H : context [match p_safe ?x with _ => _ end] |- _ => destruct (p_safe x)
         end; cbn [is_clear andb] in *.
    all: try (injection H as <- <- <-; split; [exact Hh|split; [reflexivity|discriminate]]).
    all: try (apply safe_loop_hazy in H; congruence).
    all: try (destruct (p_constref (rel p a) && a_explicit (rel p a)); cbn [negb andb] in *;
      [injection H as <- <- <-; split; [exact Hh|split; [reflexivity|discriminate]]|]).
    all: apply IH in H; [|exact Hl'|exact Hh]; destruct H as (H1 & H2 & H3); split; [exact H1|split; [exact H2|]];
      intros Hm; rewrite (H3 Hm); destruct (same_enum (rel p a)); lia.
Qed.

Lemma count_all {X} (g : X -> bool) (l : list X) : count g l = N.of_nat (length l) <-> forallb g l = true.
Proof.
  unfold count. induction l as [|x l IH]; [cbn; tauto|]. cbn [filter forallb length].
  assert (length (filter g l) <= length l)%nat.
  { clear. induction l as [|x l IH]; [cbn; lia|]. cbn [filter]. destruct (g x); cbn [length]; lia. }
  destruct (g x); cbn [length andb].
  - rewrite <- IH. lia.
  - split; [lia|discriminate].
Qed.

Lemma count_le {X} (g : X -> bool) (l : list X) : (length (filter g l) <= length l)%nat.
Proof. induction l as [|x l IH]; [cbn; lia|]. cbn [filter]. destruct (g x); cbn [length]; lia. Qed.

Lemma safe_spec (f : func) (args : list A) hz m h n : matchingTypes P A rel f args hz = (m, h, n) -> h = false ->
  hz = false /\ m = safe_fit P A rel args f /\ (m = true -> (n =? N.of_nat (length args)) = same_fit P A rel args f).
Proof.
  unfold matchingTypes, safe_fit, same_fit. rewrite number_wrong. intros H Hh.
  destruct (number_ok P A f args) eqn:E; cbn [negb andb] in *.
  - destruct (safe_loop_spec _ _ _ _ _ _ _ (number_le _ _ E) H Hh) as (R1 & R2 & R3).
    split; [exact R1|split; [exact R2|]]. intros Hm. specialize (R3 Hm). rewrite Hm in R2.
    unfold safe_fit. rewrite E. unfold fits in *. rewrite <- R2. cbn [andb].
    set (l := map (fun pa => rel (fst pa) (snd pa)) (combine (f_params P f) args)) in *.
    assert (Hlen : length l = length (f_params P f)).
    { unfold l. rewrite map_length, combine_length. apply number_le in E. lia. }
    pose proof (count_le same1 l) as Hle.
    apply eq_iff_eq_true. rewrite N.eqb_eq, andb_true_iff, Nat.eqb_eq.
    rewrite <- (count_all same1 l). unfold count in *. rewrite R3. rewrite Hlen in *. apply number_le in E. lia.
  - injection H as <- <- <-. split; [exact Hh|split; [reflexivity|discriminate]].
Qed.

Lemma safe_find_spec : forall fs args n s hz k t n' s' h k' t',
  safe_find P A rel fs args (n, s, hz, k, t) = (n', s', h, k', t') -> h = false ->
  hz = false /\ n' = n + count (safe_fit P A rel args) fs /\ s' = last_of (filter (safe_fit P A rel args) fs) s
  /\ k' = k + count (same_fit P A rel args) fs /\ t' = last_of (filter (same_fit P A rel args) fs) t.
Proof.
  induction fs as [|f fs IH]; intros args n s hz k t n' s' h k' t' H Hh.
  - cbn in H. injection H as <- <- <- <- <-. unfold count. cbn. repeat split; try lia. exact Hh.
  - cbn [safe_find] in H. destruct (matchingTypes P A rel f args hz) as [[m h1] ut] eqn:Em.
    assert (Hsame : safe_fit P A rel args f = false -> same_fit P A rel args f = false).
    { unfold same_fit. intros ->. reflexivity. }
    assert (Hc : forall g : func -> bool, count g (f :: fs) = (if g f then 1 else 0) + count g fs).
    { intros g. unfold count. cbn [filter]. destruct (g f); cbn [length]; lia. }
    rewrite !Hc. cbn [filter].
    destruct h1.
    { exfalso. rewrite andb_false_r in H. apply IH in H; [|exact Hh]. destruct H as [H _]. discriminate. }
    apply safe_spec in Em; [|reflexivity]. destruct Em as (E1 & E2 & E3). split; [exact E1|].
    rewrite <- E2. destruct m; cbn [negb andb] in *.
    + rewrite <- (E3 eq_refl). destruct (ut =? N.of_nat (length args)); apply IH in H; [|exact Hh| |exact Hh];
        destruct H as (_ & H1 & H2 & H3 & H4); cbn [last_of]; repeat split; try assumption; lia.
    + rewrite Hsame by congruence. apply IH in H; [|exact Hh].
      destruct H as (_ & H1 & H2 & H3 & H4). repeat split; try assumption; lia.
Qed.

Lemma last_of_some {X} : forall (l : list X) d, l <> [] -> exists x, In x l /\ last_of l d = Some x.
Proof.
  induction l as [|x l IH]; intros d H; [congruence|]. cbn [last_of]. destruct l as [|y l].
  - exists x. split; [left; reflexivity|reflexivity].
  - destruct (IH (Some x)) as (z & Hz & E); [discriminate|]. exists z. split; [right; exact Hz|exact E].
Qed.

Lemma same_le fs args : (length (filter (same_fit P A rel args) fs) <= length (filter (safe_fit P A rel args) fs))%nat.
Proof.
  induction fs as [|f fs IH]; [cbn; lia|]. cbn [filter].
  assert (H : same_fit P A rel args f = true -> safe_fit P A rel args f = true).
  { unfold same_fit. intros H. apply andb_true_iff in H. destruct H as [H _]. apply andb_true_iff in H. apply H. }
  destruct (same_fit P A rel args f).
  - rewrite H by reflexivity. cbn [length]. lia.
  - destruct (safe_fit P A rel args f); cbn [length]; lia.
Qed.

(* one class: the answer, when nothing is hazy *)
Lemma class_answer fs args n s : findMatchingFunctionWithSafeCasts P A rel fs args = (n, s, false) ->
  let c := filter (safe_fit P A rel args) fs in
  let t := filter (same_fit P A rel args) fs in
  match c with
  | [] => n = 0 /\ s = None
  | [f] => n = 1 /\ s = Some f
  | _ => match t with
         | [] => n = 0 /\ s = None
         | [f] => n = 1 /\ s = Some f
         | _ => n = N.of_nat (length c) /\ s = None
         end
  end.
Proof.
  unfold findMatchingFunctionWithSafeCasts. cbn zeta.
  destruct (safe_find P A rel fs args (0, None, false, 0, None)) as [[[[n1 s1] h1] k1] t1] eqn:E. intros H.
  assert (Hh : h1 = false).
  { destruct (1 <? n1); [destruct (1 <? k1)|]; injection H as _ _ <-; reflexivity. }
  apply safe_find_spec in E; [|exact Hh]. destruct E as (_ & E1 & E2 & E3 & E4).
  unfold count in *. pose proof (same_le fs args) as Hle.
  destruct (filter (safe_fit P A rel args) fs) as [|f1 [|f2 c]] eqn:Ec; cbn [length last_of] in *.
  - destruct (1 <? n1) eqn:E'; [lia|]. injection H as <- <- _. split; [lia|exact E2].
  - destruct (1 <? n1) eqn:E'; [lia|]. injection H as <- <- _. split; [lia|exact E2].
  - destruct (1 <? n1) eqn:E'; [|lia].
    destruct (filter (same_fit P A rel args) fs) as [|g1 [|g2 t]]; cbn [length last_of] in *.
    + destruct (1 <? k1) eqn:E5; [lia|]. injection H as <- <- _. split; [lia|exact E4].
    + destruct (1 <? k1) eqn:E5; [lia|]. injection H as <- <- _. split; [lia|exact E4].
    + destruct (1 <? k1) eqn:E5; [|lia]. injection H as <- <- _. split; [lia|reflexivity].
Qed.

(* whether hazy or not, a count of one comes with a function of the class *)
Lemma strict_find_in : forall fs args n s hz n' s' h, strict_find P A rel fs args (n, s, hz) = (n', s', h) ->
  n <= n' /\ (s' = s \/ exists f, In f fs /\ s' = Some f) /\ (n' <> n -> exists f, In f fs /\ s' = Some f).
Proof.
  induction fs as [|f fs IH]; intros args n s hz n' s' h H; cbn [strict_find] in H.
  - injection H as <- <- <-. split; [lia|split; [left; reflexivity|congruence]].
  - destruct (matchingTypesStrictly P A rel f args false) as [m h1].
    apply IH in H. destruct H as (H1 & H2 & H3).
    assert (Hin : (exists g, In g fs /\ s' = Some g) -> exists g, In g (f :: fs) /\ s' = Some g).
    { intros (g & Hg & E). exists g. split; [right; exact Hg|exact E]. }
    destruct m.
    + assert (E : exists g, In g (f :: fs) /\ s' = Some g).
      { destruct H2 as [H2|H2]; [exists f; split; [left; reflexivity|exact H2]|apply Hin, H2]. }
      split; [lia|split; [right; exact E|intros _; exact E]].
    + split; [exact H1|split; [destruct H2 as [H2|H2]; [left; exact H2|right; apply Hin, H2]|intros Hn; apply Hin, H3, Hn]].
Qed.

Lemma safe_find_in : forall fs args n s hz k t n' s' h k' t',
  safe_find P A rel fs args (n, s, hz, k, t) = (n', s', h, k', t') ->
  n <= n' /\ k <= k' /\ k' - k <= n' - n /\ (n' <> n -> exists f, In f fs /\ s' = Some f)
  /\ (k' <> k -> exists f, In f fs /\ t' = Some f).
Proof.
  induction fs as [|f fs IH]; intros args n s hz k t n' s' h k' t' H; cbn [safe_find] in H.
  - injection H as <- <- <- <- <-. repeat split; try lia; congruence.
  - destruct (matchingTypes P A rel f args hz) as [[m h1] ut].
    assert (Hgen : forall n0 s0 k0 t0, safe_find P A rel fs args (n0, s0, h1, k0, t0) = (n', s', h, k', t') ->
      (n0 = n /\ s0 = s \/ n0 = n + 1 /\ s0 = Some f) -> (k0 = k /\ t0 = t \/ k0 = k + 1 /\ t0 = Some f /\ n0 = n + 1) ->
      n <= n' /\ k <= k' /\ k' - k <= n' - n /\ (n' <> n -> exists f0, In f0 (f :: fs) /\ s' = Some f0)
      /\ (k' <> k -> exists f0, In f0 (f :: fs) /\ t' = Some f0)).
    { intros n0 s0 k0 t0 Hf Hn Hk. pose proof Hf as Hf0. apply IH in Hf. destruct Hf as (H1 & H2 & H3 & H4 & H5).
      assert (Hs : s' = s0 \/ exists g, In g fs /\ s' = Some g).
      { destruct (N.eq_dec n' n0) as [E|E]; [|right; apply H4, E].
        left. clear - Hf0 E IH.
        assert (G : forall fs n s hz k t n' s' h k' t', safe_find P A rel fs args (n, s, hz, k, t) = (n', s', h, k', t') -> n' = n -> s' = s).
        { clear. induction fs as [|f fs IH]; intros n s hz k t n' s' h k' t' H E; cbn [safe_find] in H.
          - injection H as <- <- <- <- <-. reflexivity.
          - assert (Hm : forall fs n s hz k t n' s' h k' t', safe_find P A rel fs args (n, s, hz, k, t) = (n', s', h, k', t') -> n <= n').
            { clear. induction fs as [|f fs IH]; intros n s hz k t n' s' h k' t' H; cbn [safe_find] in H.
              - injection H as <- <- <- <- <-. lia.
              - destruct (matchingTypes P A rel f args hz) as [[m h1] ut].
                destruct (m && negb h1); [destruct (ut =? N.of_nat (length args))|]; apply IH in H; lia. }
            destruct (matchingTypes P A rel f args hz) as [[m h1] ut].
            destruct (m && negb h1).
            + destruct (ut =? N.of_nat (length args)); apply Hm in H; lia.
            + eapply IH; eassumption. }
        eapply G; eassumption. }
      assert (Ht : t' = t0 \/ exists g, In g fs /\ t' = Some g).
      { destruct (N.eq_dec k' k0) as [E|E]; [|right; apply H5, E].
        left. clear - Hf0 E IH.
        assert (Hm : forall fs n s hz k t n' s' h k' t', safe_find P A rel fs args (n, s, hz, k, t) = (n', s', h, k', t') -> k <= k').
        { clear. induction fs as [|f fs IH]; intros n s hz k t n' s' h k' t' H; cbn [safe_find] in H.
          - injection H as <- <- <- <- <-. lia.
          - destruct (matchingTypes P A rel f args hz) as [[m h1] ut].
            destruct (m && negb h1); [destruct (ut =? N.of_nat (length args))|]; apply IH in H; lia. }
        assert (G : forall fs n s hz k t n' s' h k' t', safe_find P A rel fs args (n, s, hz, k, t) = (n', s', h, k', t') -> k' = k -> t' = t).
        { clear - Hm. induction fs as [|f fs IH]; intros n s hz k t n' s' h k' t' H E; cbn [safe_find] in H.
          - injection H as <- <- <- <- <-. reflexivity.
          - destruct (matchingTypes P A rel f args hz) as [[m h1] ut].
            destruct (m && negb h1).
            + destruct (ut =? N.of_nat (length args)); [apply Hm in H; lia|eapply IH; eassumption].
            + eapply IH; eassumption. }
        eapply G; eassumption. }
      repeat split; try lia.
      - intros Hne. destruct Hs as [Hs|(g & Hg & Hs)]; [|exists g; split; [right; exact Hg|exact Hs]].
        destruct Hn as [[Hn Hn']|[Hn Hn']]; [|exists f; split; [left; reflexivity|congruence]].
        destruct H4 as (g & Hg & Hg'); [congruence|]. exists g. split; [right; exact Hg|exact Hg'].
      - intros Hne. destruct Ht as [Ht|(g & Hg & Ht)]; [|exists g; split; [right; exact Hg|exact Ht]].
        destruct Hk as [[Hk Hk']|[Hk [Hk' _]]]; [|exists f; split; [left; reflexivity|congruence]].
        destruct H5 as (g & Hg & Hg'); [congruence|]. exists g. split; [right; exact Hg|exact Hg']. }
    destruct (m && negb h1); [destruct (ut =? N.of_nat (length args))|]; eapply Hgen in H; try exact H; tauto.
Qed.

Lemma class_one_some fs args n s h : findMatchingFunctionWithSafeCasts P A rel fs args = (n, s, h) -> n = 1 ->
  exists f, In f fs /\ s = Some f.
Proof.
  unfold findMatchingFunctionWithSafeCasts.
  destruct (safe_find P A rel fs args (0, None, false, 0, None)) as [[[[n1 s1] h1] k1] t1] eqn:E. intros H Hn.
  apply safe_find_in in E. destruct E as (_ & _ & _ & E4 & E5).
  destruct (1 <? n1) eqn:E1; [destruct (1 <? k1) eqn:E2|]; injection H as <- <- <-.
  - lia.
  - apply E5. lia.
  - apply E4. lia.
Qed.
End One.
