(* OverloadTheorems.v: C40. *)
From Coq Require Import List NArith ZArith Lia Bool Permutation.
From Coq Require Import ZifyBool ZifyNat ZifyN.
From Verif Require Import Base TypeTableModel FamilyModel FamilyProofs OverloadModel OverloadSpec OverloadProofs.
Import ListNotations.
Open Scope N_scope.
Lemma fuel_big : (N.to_nat 65536 < the_fuel)%nat.
Proof. unfold the_fuel. lia. Qed.
Local Opaque the_fuel.

Section Hier.
Variables P A : Type.
Variable rel : P -> A -> fit.
Variable root : N -> N.
Variable bases : N -> option (list N).
Variable overloads : N -> list (func P).
Variable sub : N -> N -> bool.
Variable hzy : N.
Notation func := (func P).
Notation exact_loop := (exact_loop P A rel root bases overloads hzy).
Notation safe_walk := (safe_walk P A rel root bases overloads sub hzy).
Notation exactInClass := (exactInClass P A rel overloads).
Notation call := (call P A rel root bases overloads sub hzy).
Notation edge := (edge root bases).
Notation reach := (reach root bases).
Notation ancestor := (ancestor root bases).

(* ---- nothing unknown, no hazy flag ---- *)
Lemma strict_loop_settled : forall ps args hz, (forall p a, In p ps -> In a args -> settled1 (rel p a) = true) ->
  snd (strict_loop P A rel ps args hz) = hz.
Proof using P A rel. clear root bases overloads sub hzy.
  induction ps as [|p ps IH]; intros args hz H; [reflexivity|].
  destruct args as [|a args]; [reflexivity|]. cbn [strict_loop].
  pose proof (H p a (or_introl eq_refl) (or_introl eq_refl)) as S0. unfold settled1 in S0.
  destruct (p_ok (rel p a)), (p_complete (rel p a)); cbn [andb negb orb] in *; try discriminate.
  destruct (pa_cmp (rel p a)); [|reflexivity|rewrite andb_false_r in S0; discriminate].
  apply IH. intros p' a' Hp Ha. apply H; right; assumption.
Qed.

Lemma safe_loop_settled : forall ps args hz n, (forall p a, In p ps -> In a args -> settled1 (rel p a) = true) ->
  snd (fst (safe_loop P A rel ps args hz n)) = hz.
Proof using P A rel. clear root bases overloads sub hzy.
  induction ps as [|p ps IH]; intros args hz n H; [reflexivity|].
  destruct args as [|a args]; [reflexivity|]. cbn [safe_loop].
  assert (IH' : forall hz n, snd (fst (safe_loop P A rel ps args hz n)) = hz).
  { intros hz' n'. apply IH. intros p' a' Hp Ha. apply H; right; assumption. }
  pose proof (H p a (or_introl eq_refl) (or_introl eq_refl)) as S0. unfold settled1 in S0.
  destruct (p_ok (rel p a)), (p_complete (rel p a)), (a_ok (rel p a)); cbn [andb negb orb] in *; try discriminate.
  destruct (pa_cmp (rel p a)); [apply IH'| |discriminate]. cbn [andb] in S0.
  destruct (a_const (rel p a)).
  - destruct (p_ref (rel p a) && (negb (p_const (rel p a)) || a_explicit (rel p a))); [reflexivity|].
    destruct (a_safe (rel p a)); [apply IH'|reflexivity|discriminate].
  - destruct (p_safe (rel p a)); [|reflexivity|rewrite andb_false_r in S0; discriminate].
    destruct (p_constref (rel p a) && a_explicit (rel p a)); [reflexivity|apply IH'].
Qed.

Lemma strict_settled : forall fs args r, settled P A rel fs args -> snd (strict_find P A rel fs args r) = snd r.
Proof using P A rel. clear root bases overloads sub hzy.
  induction fs as [|f fs IH]; intros args r H; [reflexivity|]. cbn [strict_find]. destruct r as [[n s] hz].
  destruct (matchingTypesStrictly P A rel f args false) as [m h] eqn:Em.
  assert (h = false).
  { unfold matchingTypesStrictly in Em. destruct (wrong_number P A f args); [congruence|].
    pose proof (strict_loop_settled (f_params P f) args false) as X. rewrite Em in X. apply X.
    intros p a Hp Ha. apply (H f p a); [left; reflexivity|exact Hp|exact Ha]. }
  subst h. rewrite IH; [apply orb_false_r|]. intros f' p a Hf. apply H. right. exact Hf.
Qed.

Lemma safe_settled : forall fs args n s hz k t, settled P A rel fs args ->
  snd (fst (fst (safe_find P A rel fs args (n, s, hz, k, t)))) = hz.
Proof using P A rel. clear root bases overloads sub hzy.
  induction fs as [|f fs IH]; intros args n s hz k t H; [reflexivity|]. cbn [safe_find].
  destruct (matchingTypes P A rel f args hz) as [[m h] ut] eqn:Em.
  assert (h = hz).
  { unfold matchingTypes in Em. destruct (wrong_number P A f args); [congruence|].
    pose proof (safe_loop_settled (f_params P f) args hz 0) as X. rewrite Em in X. apply X.
    intros p a Hp Ha. apply (H f p a); [left; reflexivity|exact Hp|exact Ha]. }
  subst h. assert (H' : settled P A rel fs args) by (intros f' p a Hf; apply H; right; exact Hf).
  destruct (m && negb hz); [destruct (ut =? N.of_nat (length args))|]; apply IH, H'.
Qed.

Lemma class_settled fs args : settled P A rel fs args -> snd (findMatchingFunctionWithSafeCasts P A rel fs args) = false.
Proof using P A rel. clear root bases overloads sub hzy.
  intros H. unfold findMatchingFunctionWithSafeCasts.
  pose proof (safe_settled fs args 0 None false 0 None H) as X.
  destruct (safe_find P A rel fs args (0, None, false, 0, None)) as [[[[n s] h] k] t]. cbn [fst snd] in X. subst h.
  destruct (1 <? n); [destruct (1 <? k)|]; reflexivity.
Qed.

Lemma class_choice fs args n s : findMatchingFunctionWithSafeCasts P A rel fs args = (n, s, false) ->
  (forall f, s = Some f <-> chosen P A rel fs args f) /\ (n = 1 <-> exists f, chosen P A rel fs args f).
Proof using P A rel. clear root bases overloads sub hzy.
  intros H. apply class_answer in H. cbn zeta in H.
  assert (Hc : forall f, chosen P A rel fs args f <->
    match filter (safe_fit P A rel args) fs with
    | [] => False | [g] => g = f
    | _ => match filter (same_fit P A rel args) fs with [g] => g = f | _ => False end end).
  { intros f. split.
    - intros [H1|H1 H2].
      + rewrite H1. reflexivity.
      + rewrite H2. destruct (filter (safe_fit P A rel args) fs) as [|g [|g2 l]]; cbn [length] in H1; [lia|lia|reflexivity].
    - destruct (filter (safe_fit P A rel args) fs) as [|g [|g2 l]] eqn:Ec; [tauto|intros <-; apply only_one; exact Ec|].
      destruct (filter (same_fit P A rel args) fs) as [|g' [|g2' l']] eqn:Et; [tauto|intros <-|tauto].
      apply only_same; [rewrite Ec; cbn [length]; lia|exact Et]. }
  destruct (filter (safe_fit P A rel args) fs) as [|g [|g2 l]].
  - destruct H as [-> ->]. split; [intros f; rewrite Hc; split; [discriminate|tauto]|]. split; [discriminate|].
    intros (f & Hf). apply Hc in Hf. tauto.
  - destruct H as [-> ->]. split; [intros f; rewrite Hc; split; congruence|]. split; [|reflexivity].
    intros _. exists g. apply Hc. reflexivity.
  - destruct (filter (same_fit P A rel args) fs) as [|g' [|g2' l']].
    + destruct H as [-> ->]. split; [intros f; rewrite Hc; split; [discriminate|tauto]|]. split; [discriminate|].
      intros (f & Hf). apply Hc in Hf. tauto.
    + destruct H as [-> ->]. split; [intros f; rewrite Hc; split; congruence|]. split; [|reflexivity].
      intros _. exists g'. apply Hc. reflexivity.
    + destruct H as [-> ->]. split; [intros f; rewrite Hc; split; [discriminate|tauto]|].
      split; [cbn [length]; lia|]. intros (f & Hf). apply Hc in Hf. tauto.
Qed.

(* ---- exact matches ---- *)
Definition E (args : list A) (x : N) : list func := filter (exact_fit P A rel args) (overloads x).

Lemma in_class args x m t h : exactInClass x args = (m, t, h) -> h = false ->
  m = N.of_nat (length (E args x)) /\ (forall f, E args x = [f] -> t = Some f).
Proof.
  unfold OverloadModel.exactInClass, E. destruct (findMatchingFunction P A rel (overloads x) args) as [[n s] hz] eqn:Ef.
  intros H Hh. injection H as <- <- <-. subst hz. apply find_exact_spec in Ef. destruct Ef as [-> ->]. split; [reflexivity|].
  intros f Hf. rewrite Hf. reflexivity.
Qed.

Lemma in_class_one args x m t h : exactInClass x args = (m, t, h) -> m = 1 -> exists f, In f (overloads x) /\ t = Some f.
Proof.
  unfold OverloadModel.exactInClass. destruct (findMatchingFunction P A rel (overloads x) args) as [[n s] hz] eqn:Ef.
  intros H Hm. injection H as <- <- <-. destruct hz; [discriminate|]. subst n. unfold findMatchingFunction in Ef.
  apply strict_find_in in Ef. destruct Ef as (_ & _ & Ef). apply Ef. discriminate.
Qed.

Lemma exact_mono : forall fuel args d seen n s hz n' s' h, exact_loop fuel args d seen (n, s, hz) = (n', s', h) ->
  n <= n' /\ (h = false -> hz = false).
Proof.
  induction fuel as [|g IH]; intros args d seen n s hz n' s' h H; cbn [OverloadModel.exact_loop] in H.
  - injection H as <- <- <-. split; [lia|auto].
  - destruct (getNextBasePair root d seen) as [[[[b k]|] d'] seen']; [|injection H as <- <- <-; split; [lia|auto]].
    destruct (bases b) as [bs|].
    + destruct (exactInClass b args) as [[m t] h1].
      destruct ((m =? 1) && match d' with [] => true | _ :: _ => false end).
      * injection H as <- <- <-. split; [lia|]. intros X. apply orb_false_iff in X. apply X.
      * apply IH in H. destruct H as [H1 H2]. split; [lia|]. intros X. apply H2 in X. apply orb_false_iff in X. apply X.
    + apply IH in H. destruct H as [H1 H2]. split; [exact H1|]. intros X. apply H2 in X. apply orb_false_iff in X. apply X.
Qed.

(* a count of one comes with a function *)
Lemma exact_some : forall fuel args d seen n s hz n' s' h, exact_loop fuel args d seen (n, s, hz) = (n', s', h) ->
  (n = 1 -> s <> None) -> n' = 1 -> s' <> None.
Proof.
  induction fuel as [|g IH]; intros args d seen n s hz n' s' h H Hn Hn'; cbn [OverloadModel.exact_loop] in H.
  - injection H as <- <- <-. auto.
  - destruct (getNextBasePair root d seen) as [[[[b k]|] d'] seen']; [|injection H as <- <- <-; auto].
    destruct (bases b) as [bs|].
    + destruct (exactInClass b args) as [[m t] h1] eqn:Ec.
      assert (Hs : n + m = 1 -> (if m =? 1 then match t with Some f => Some (f, b) | None => None end else s) <> None).
      { intros X. destruct (m =? 1) eqn:Em.
        - apply N.eqb_eq in Em. destruct (in_class_one _ _ _ _ _ Ec Em) as (f & _ & ->). discriminate.
        - apply N.eqb_neq in Em. apply Hn. lia. }
      destruct ((m =? 1) && match d' with [] => true | _ :: _ => false end).
      * injection H as <- <- <-. apply Hs. exact Hn'.
      * eapply IH; [exact H|exact Hs|exact Hn'].
    + eapply IH; [exact H|exact Hn|exact Hn'].
Qed.

(* ---- safe casts ---- *)
Definition answer (args : list A) (x : N) : N * option func * bool :=
  findMatchingFunctionWithSafeCasts P A rel (overloads x) args.
Definition one (args : list A) (x : N) : bool := fst (fst (answer args x)) =? 1.
(* base classes are looked at only behind classes without exactly one match *)
Definition bases' (args : list A) (x : N) : option (list N) :=
  match bases x with Some bs => Some (if one args x then [] else bs) | None => None end.

Definition wstep (args : list A) (r : N * option (func * N) * bool * where_found) (b : N) : N * option (func * N) * bool * where_found :=
  let '(n, s, hz, w) := r in
  match bases b with
  | Some _ =>
    let '(m, t, h) := answer args b in
    let here := match t with Some f => Some (f, b) | None => None end in
    if m =? 1 then
      match w with
      | FNone => (m, here, hz || h, FAt b)
      | FAt c => if sub b c then (m, here, hz || h, FAt b)
                 else if negb (sub c b) then (n + m, None, hz || h, FNav) else (n, s, hz || h, w)
      | FNav => (n + m, None, hz || h, FNav)
      end
    else (n + m, s, hz || h, w)
  | None => (n, s, hz || (b =? hzy), w)
  end.

Lemma walk_fold : forall fuel args d seen r,
  safe_walk fuel args d seen r = fold_left (wstep args) (map fst (visits root (bases' args) fuel false nohead d seen)) r.
Proof.
  induction fuel as [|g IH]; intros args d seen r; [reflexivity|].
  cbn [OverloadModel.safe_walk visits].
  destruct (getNextBasePair root d seen) as [[[[b k]|] d'] seen']; [|reflexivity].
  destruct r as [[[n s] hz] w]. cbn [map fst fold_left]. unfold wstep at 2.
  assert (EB : bases' args b = match bases b with Some bs => Some (if one args b then [] else bs) | None => None end) by reflexivity.
  rewrite EB. clear EB. unfold one.
  unfold answer. destruct (bases b) as [bs|]; [|apply IH].
  destruct (findMatchingFunctionWithSafeCasts P A rel (overloads b) args) as [[m t] h]. cbn [fst].
  destruct (m =? 1).
  - change (addAncestorPairsOf false [] (nohead b k) d') with d'.
    destruct w as [|c|]; [apply IH| |apply IH].
    destruct (sub b c); [apply IH|]. destruct (negb (sub c b)); apply IH.
  - apply IH.
Qed.

(* what the walk knows after visiting [l] *)
Definition knows (args : list A) (l : list N) (r : N * option (func * N) * bool * where_found) : Prop :=
  let '(n, s, hz, w) := r in
  let U x := In x l /\ bases x <> None /\ one args x = true in
  (w = FNone -> (forall x, ~ U x) /\ n <> 1) /\
  (forall c, w = FAt c -> 1 <= n /\ U c /\ (exists f, In f (overloads c) /\ s = Some (f, c) /\ (hz = false -> answer args c = (1, Some f, false)))
     /\ ((forall x y z, sub x y = true -> sub y z = true -> sub x z = true) -> forall x, U x -> x = c \/ sub c x = true)) /\
  (w = FNav -> 2 <= n).

Lemma knows_step args l r b : knows args l r -> knows args (l ++ [b]) (wstep args r b).
Proof.
  destruct r as [[[n s] hz] w]. intros (K1 & K2 & K3). unfold wstep.
  assert (Hnew : forall x, In x (l ++ [b]) <-> In x l \/ x = b).
  { intros x. rewrite in_app_iff. cbn [In]. split; intros [H|H]; auto; destruct H as [H|[]]; auto. }
  destruct (bases b) as [bs|] eqn:EB.
  - destruct (answer args b) as [[m t] h] eqn:EA.
    destruct (m =? 1) eqn:Em.
    + apply N.eqb_eq in Em. assert (Hone : one args b = true) by (unfold one; rewrite EA; cbn [fst]; apply N.eqb_eq; exact Em).
      destruct (class_one_some _ _ _ _ _ _ _ _ EA Em) as (f & Hf & ->).
      assert (Hhere : forall hz', (hz' = false -> h = false) ->
        exists g, In g (overloads b) /\ Some (f, b) = Some (g, b) /\ (hz' = false -> answer args b = (1, Some g, false))).
      { intros hz' Hz. exists f. split; [exact Hf|split; [reflexivity|]]. intros Hh. rewrite EA, (Hz Hh), Em. reflexivity. }
      assert (Hor : hz || h = false -> h = false) by (intros X; apply orb_false_iff in X; apply X).
      destruct w as [|c|].
      * destruct (K1 eq_refl) as [KU Kn]. split; [discriminate|]. split; [|discriminate].
        intros c Hc. injection Hc as <-. split; [lia|]. split; [split; [apply Hnew; right; reflexivity|split; [congruence|exact Hone]]|].
        split; [apply Hhere, Hor|]. intros _ x (Hx & Hdx & Hox). apply Hnew in Hx. destruct Hx as [Hx| ->]; [|left; reflexivity].
        exfalso. apply (KU x). split; [exact Hx|split; assumption].
      * destruct (K2 c eq_refl) as (Kn & KU & Ks & KT).
        destruct (sub b c) eqn:Es1; [|destruct (sub c b) eqn:Es2]; cbn [negb].
        -- split; [discriminate|]. split; [|discriminate]. intros c' Hc. injection Hc as <-. split; [lia|].
           split; [split; [apply Hnew; right; reflexivity|split; [congruence|exact Hone]]|].
           split; [apply Hhere, Hor|]. intros HT x (Hx & Hdx & Hox). apply Hnew in Hx. destruct Hx as [Hx| ->]; [|left; reflexivity].
           right. destruct (KT HT x) as [->|Hc]; [split; [exact Hx|split; assumption]|exact Es1|]. eapply HT; eassumption.
        -- split; [discriminate|]. split; [|discriminate]. intros c' Hc. injection Hc as <-. split; [exact Kn|].
           split; [destruct KU as (Ka & Kb & Kc); split; [apply Hnew; left; exact Ka|split; assumption]|].
           split.
           { destruct Ks as (g & Hg1 & Hg2 & Hg3). exists g. split; [exact Hg1|split; [exact Hg2|]].
             intros X. apply Hg3. apply orb_false_iff in X. apply X. }
           intros HT x (Hx & Hdx & Hox). apply Hnew in Hx. destruct Hx as [Hx| ->]; [|right; exact Es2].
           apply (KT HT). split; [exact Hx|split; assumption].
        -- split; [discriminate|]. split; [discriminate|]. intros _. lia.
      * specialize (K3 eq_refl). split; [discriminate|]. split; [discriminate|]. intros _. lia.
    + apply N.eqb_neq in Em. assert (Hone : one args b = false) by (unfold one; rewrite EA; cbn [fst]; apply N.eqb_neq; exact Em).
      split; [|split].
      * intros ->. destruct (K1 eq_refl) as [KU Kn]. split; [|lia]. intros x (Hx & Hdx & Hox). apply Hnew in Hx.
        destruct Hx as [Hx| ->]; [|congruence]. apply (KU x). split; [exact Hx|split; assumption].
      * intros c ->. destruct (K2 c eq_refl) as (Kn & KU & Ks & KT). split; [lia|].
        split; [destruct KU as (Ka & Kb & Kc); split; [apply Hnew; left; exact Ka|split; assumption]|].
        split.
        { destruct Ks as (g & Hg1 & Hg2 & Hg3). exists g. split; [exact Hg1|split; [exact Hg2|]].
          intros X. apply Hg3. apply orb_false_iff in X. apply X. }
        intros HT x (Hx & Hdx & Hox). apply Hnew in Hx. destruct Hx as [Hx| ->]; [|congruence].
        apply (KT HT). split; [exact Hx|split; assumption].
      * intros ->. specialize (K3 eq_refl). lia.
  - split; [|split].
    + intros ->. destruct (K1 eq_refl) as [KU Kn]. split; [|exact Kn]. intros x (Hx & Hdx & Hox). apply Hnew in Hx.
      destruct Hx as [Hx| ->]; [|congruence]. apply (KU x). split; [exact Hx|split; assumption].
    + intros c ->. destruct (K2 c eq_refl) as (Kn & KU & Ks & KT). split; [exact Kn|].
      split; [destruct KU as (Ka & Kb & Kc); split; [apply Hnew; left; exact Ka|split; assumption]|].
      split.
      { destruct Ks as (g & Hg1 & Hg2 & Hg3). exists g. split; [exact Hg1|split; [exact Hg2|]].
        intros X. apply Hg3. apply orb_false_iff in X. apply X. }
      intros HT x (Hx & Hdx & Hox). apply Hnew in Hx. destruct Hx as [Hx| ->]; [|congruence].
      apply (KT HT). split; [exact Hx|split; assumption].
    + exact K3.
Qed.

Lemma knows_fold args : forall l2 l1 r, knows args l1 r -> knows args (l1 ++ l2) (fold_left (wstep args) l2 r).
Proof.
  induction l2 as [|b l2 IH]; intros l1 r H; [rewrite app_nil_r; exact H|].
  cbn [fold_left]. replace (l1 ++ b :: l2) with ((l1 ++ [b]) ++ l2) by (rewrite <- app_assoc; reflexivity).
  apply IH, knows_step, H.
Qed.

Lemma knows_walk args c s hz :
  knows args (map fst (visits root (bases' args) the_fuel false nohead [(c, 0)] [])) (safe_walk the_fuel args [(c, 0)] [] (0, s, hz, FNone)).
Proof.
  rewrite walk_fold. apply (knows_fold args _ []).
  split; [|split; [discriminate|discriminate]]. intros _. split; [intros x ([] & _)|discriminate].
Qed.

Lemma never_null c args : call c args <> NullFunction P.
Proof.
  unfold OverloadModel.call, findFunction.
  destruct (findExact P A rel root bases overloads hzy c args) as [[s hz] o] eqn:EX.
  destruct o.
  - change (1 =? 1) with true. cbv iota.
    assert (s <> None).
    { unfold findExact in EX. destruct (exact_loop the_fuel args [(c, 0)] [] (0, None, false)) as [[n s0] h0] eqn:EL.
      destruct (n =? 0) eqn:E0; [discriminate|]. destruct (1 <? n) eqn:E1; [discriminate|]. injection EX as <- <-.
      eapply exact_some; [exact EL|discriminate|lia]. }
    destruct s as [[f b]|]; [|congruence]. destruct hz; discriminate.
  - pose proof (knows_walk args c s hz) as K.
    destruct (safe_walk the_fuel args [(c, 0)] [] (0, s, hz, FNone)) as [[[n s'] hz'] w]. destruct K as (K1 & K2 & K3).
    destruct (n =? 1) eqn:En.
    + destruct w as [|c'|].
      * destruct (K1 eq_refl). lia.
      * destruct (K2 c' eq_refl) as (_ & _ & (f & _ & -> & _) & _). destruct hz'; discriminate.
      * specialize (K3 eq_refl). lia.
    + destruct hz'; [discriminate|]. destruct (n =? 0); discriminate.
Qed.

Lemma walk_hazy args : forall l n s hz w n' s' h w', fold_left (wstep args) l (n, s, hz, w) = (n', s', h, w') -> h = false -> hz = false.
Proof.
  induction l as [|b l IH]; intros n s hz w n' s' h w' H Hh; cbn [fold_left] in H.
  - injection H as <- <- <- <-. exact Hh.
  - destruct (wstep args (n, s, hz, w) b) as [[[n1 s1] h1] w1] eqn:ES.
    eapply IH in H; [|exact Hh]. subst h1. unfold wstep in ES.
    assert (X : forall y, hz || y = false -> hz = false) by (intros y X; apply orb_false_iff in X; apply X).
    destruct (bases b); [|injection ES as _ _ X1 _; eapply X; eassumption].
    destruct (answer args b) as [[m t] h1]. destruct (m =? 1); [|injection ES as _ _ X1 _; eapply X; eassumption].
    destruct w as [|c|]; [injection ES as _ _ X1 _; eapply X; eassumption| |injection ES as _ _ X1 _; eapply X; eassumption].
    destruct (sub b c); [injection ES as _ _ X1 _; eapply X; eassumption|].
    destruct (negb (sub c b)); injection ES as _ _ X1 _; eapply X; eassumption.
Qed.

Lemma answer_chosen args x f : answer args x = (1, Some f, false) -> chosen P A rel (overloads x) args f.
Proof using P A rel overloads. clear root bases sub hzy.
  intros H. apply class_answer in H. cbn zeta in H.
  destruct (filter (safe_fit P A rel args) (overloads x)) as [|g [|g2 l]] eqn:Ec.
  - destruct H as [H _]. discriminate.
  - destruct H as [_ H]. injection H as ->. apply only_one. exact Ec.
  - destruct (filter (same_fit P A rel args) (overloads x)) as [|g' [|g2' l']] eqn:Et.
    + destruct H as [H _]. discriminate.
    + destruct H as [_ H]. injection H as ->. apply only_same; [rewrite Ec; cbn [length]; lia|exact Et].
    + destruct H as [_ H]. discriminate.
Qed.

(* ---- when nothing is unknown ---- *)
Definition all_settled (args : list A) : Prop := forall x, settled P A rel (overloads x) args.

Lemma one_chosen args x : all_settled args -> one args x = true <-> exists f, chosen P A rel (overloads x) args f.
Proof.
  intros HS. unfold one, answer.
  pose proof (class_settled _ _ (HS x)) as X.
  destruct (findMatchingFunctionWithSafeCasts P A rel (overloads x) args) as [[n s] h] eqn:EA. cbn [fst snd] in *. subst h.
  apply class_choice in EA. rewrite N.eqb_eq. apply EA.
Qed.

Lemma visible_reach' args c x : all_settled args ->
  visible P A rel root bases overloads args c x <-> FamilyProofs.reach root (bases' args) (root c) x.
Proof.
  intros HS. split.
  - induction 1 as [|x bs b Hx IH Hno Hb Hi]; [constructor|].
    eapply reach_snoc; [exact IH|]. exists bs, b. split; [|auto]. unfold bases'. rewrite Hb.
    destruct (one args x) eqn:Eo; [|reflexivity]. exfalso. apply (one_chosen args x HS) in Eo. destruct Eo as (f & Hf). eapply Hno, Hf.
  - intros H. apply reach_ancestor in H. destruct H as [<-|H]; [constructor|].
    assert (G : forall y z, FamilyProofs.reach root (bases' args) y z -> visible P A rel root bases overloads args c y ->
      visible P A rel root bases overloads args c z).
    { induction 1 as [y|y w z He Hr IH]; [auto|]. intros Hy. apply IH. destruct He as (bs & b & Hb & Hi & <-).
      unfold bases' in Hb. destruct (bases y) as [bs0|] eqn:Ey; [|discriminate]. injection Hb as <-.
      destruct (one args y) eqn:Eo; [contradiction|]. eapply vis_base; [exact Hy| |exact Ey|exact Hi].
      intros f Hf. assert (one args y = true) by (apply (one_chosen args y HS); eauto). congruence. }
    apply (G (root c)); [|constructor]. apply ancestor_reach. exact H.
Qed.

Lemma exact_quiet args : all_settled args -> (forall x, bases x = None -> x <> hzy) -> forall fuel d seen n s hz,
  snd (exact_loop fuel args d seen (n, s, hz)) = hz.
Proof.
  intros HS HH. induction fuel as [|g IH]; intros d seen n s hz; [reflexivity|]. cbn [OverloadModel.exact_loop].
  destruct (getNextBasePair root d seen) as [[[[b k]|] d'] seen']; [|reflexivity].
  destruct (bases b) as [bs|] eqn:EB.
  - destruct (exactInClass b args) as [[m t] h] eqn:EC.
    assert (h = false).
    { unfold OverloadModel.exactInClass, findMatchingFunction in EC. pose proof (strict_settled (overloads b) args (0, None, false) (HS b)) as X.
      destruct (strict_find P A rel (overloads b) args (0, None, false)) as [[n0 s0] h0]. cbn in X. congruence. }
    subst h. rewrite orb_false_r.
    destruct ((m =? 1) && match d' with [] => true | _ :: _ => false end); [reflexivity|apply IH].
  - rewrite IH. rewrite (proj2 (N.eqb_neq b hzy)); [apply orb_false_r|apply HH, EB].
Qed.

Lemma walk_quiet args : all_settled args -> (forall x, bases x = None -> x <> hzy) -> forall l n s hz w,
  snd (fst (fold_left (wstep args) l (n, s, hz, w))) = hz.
Proof.
  intros HS HH. induction l as [|b l IH]; intros n s hz w; [reflexivity|]. cbn [fold_left].
  destruct (wstep args (n, s, hz, w) b) as [[[n1 s1] h1] w1] eqn:ES. rewrite IH.
  unfold wstep in ES. destruct (bases b) eqn:EB.
  - pose proof (class_settled _ _ (HS b)) as X. unfold answer in ES.
    destruct (findMatchingFunctionWithSafeCasts P A rel (overloads b) args) as [[m t] h]. cbn [snd] in X. subst h.
    rewrite orb_false_r in ES. destruct (m =? 1); [|congruence]. destruct w as [|c|]; [congruence| |congruence].
    destruct (sub b c); [congruence|]. destruct (negb (sub c b)); congruence.
  - injection ES as _ _ <- _. rewrite (proj2 (N.eqb_neq b hzy)); [apply orb_false_r|apply HH, EB].
Qed.

Lemma call_decides c args : all_settled args -> (forall x, bases x = None -> x <> hzy) -> call c args <> Waits P.
Proof.
  intros HS HH. unfold OverloadModel.call, findFunction, findExact.
  pose proof (exact_quiet args HS HH the_fuel [(c, 0)] [] 0 None false) as X.
  destruct (exact_loop the_fuel args [(c, 0)] [] (0, None, false)) as [[n s] h]. cbn [snd] in X. subst h.
  destruct (n =? 0); [|destruct (1 <? n)].
  - pose proof (walk_fold the_fuel args [(c, 0)] [] (0, s, false, FNone)) as W.
    pose proof (walk_quiet args HS HH (map fst (visits root (bases' args) the_fuel false nohead [(c, 0)] [])) 0 s false FNone) as Y.
    rewrite <- W in Y. destruct (safe_walk the_fuel args [(c, 0)] [] (0, s, false, FNone)) as [[[n1 s1] h1] w1]. cbn [fst snd] in Y. subst h1.
    destruct (n1 =? 1); [destruct s1 as [[f b]|]; discriminate|]. destruct (n1 =? 0); discriminate.
  - pose proof (walk_fold the_fuel args [(c, 0)] [] (0, None, false, FNone)) as W.
    pose proof (walk_quiet args HS HH (map fst (visits root (bases' args) the_fuel false nohead [(c, 0)] [])) 0 None false FNone) as Y.
    rewrite <- W in Y. destruct (safe_walk the_fuel args [(c, 0)] [] (0, None, false, FNone)) as [[[n1 s1] h1] w1]. cbn [fst snd] in Y. subst h1.
    destruct (n1 =? 1); [destruct s1 as [[f b]|]; discriminate|]. destruct (n1 =? 0); discriminate.
  - change (1 =? 1) with true. cbv iota. destruct s as [[f b]|]; discriminate.
Qed.

(* ---- the functions of the name are all in one class ---- *)
Hypothesis root_small : forall x, root x < 65536.

Definition pending (d : deque) (seen : list N) (z : N) : Prop := In z seen \/ exists q, In q d /\ root (fst q) = z.
Definition ahead (d : deque) (seen : list N) (x : N) : Prop := exists z, pending d seen z /\ reach z x.

Lemma exact_sound : forall fuel args d seen n s hz n' s',
  exact_loop fuel args d seen (n, s, hz) = (n', s', false) -> n' <= 1 ->
  NoDup seen -> (forall x, In x seen -> x < 65536) -> (N.to_nat 65536 < length seen + fuel)%nat ->
  (forall x y, In x seen -> edge x y -> pending d seen y) ->
  (n = 0 /\ s = None /\ (forall x, In x seen -> bases x <> None -> E args x = [])
   \/ n = 1 /\ exists f b, s = Some (f, b) /\ In b seen /\ bases b <> None /\ E args b = [f]
      /\ forall x, In x seen -> x <> b -> bases x <> None -> E args x = []) ->
  (n' = 0 /\ s' = None /\ (forall x, ahead d seen x -> bases x <> None -> E args x = [])
   \/ n' = 1 /\ exists f b, s' = Some (f, b) /\ ahead d seen b /\ bases b <> None /\ E args b = [f]
      /\ forall x, ahead d seen x -> bases x <> None -> E args x <> [] -> x = b \/ ancestor b x).
Proof.
  induction fuel as [|g IH]; intros args d seen n s hz n' s' H Hn' ND HB HF HC HA.
  { pose proof (few root bases seen ND HB). unfold bound in *. lia. }
  cbn [OverloadModel.exact_loop] in H.
  destruct (getNextBasePair root d seen) as [[[[r k]|] d'] seen'] eqn:EN.
  2:{ injection H as <- <- _.
      assert (Hall : forall x, ahead d seen x -> In x seen).
      { intros x (z & Hz & Hr). assert (Hz' : In z seen).
        { destruct Hz as [Hz|(q & Hq & <-)]; [exact Hz|]. eapply next_none; eassumption. }
        clear Hz. induction Hr as [z|z y x HE Hr IHr]; [exact Hz'|]. apply IHr.
        destruct (HC z y Hz' HE) as [Hy|(q & Hq & <-)]; [exact Hy|]. eapply next_none; eassumption. }
      destruct HA as [(Hn & Hs & HE)|(Hn & f & b & Hs & Hb & Hd & HEb & HE)].
      - left. split; [exact Hn|split; [exact Hs|]]. intros x Hx. apply HE, Hall, Hx.
      - right. split; [exact Hn|]. exists f, b. split; [exact Hs|]. split; [|split; [exact Hd|split; [exact HEb|]]].
        + exists b. split; [left; exact Hb|constructor].
        + intros x Hx Hdx Hne. destruct (N.eq_dec x b) as [->|Hxb]; [left; reflexivity|].
          exfalso. apply Hne. apply HE; auto. }
  destruct (next_some root _ _ _ _ _ _ EN) as (-> & NI & p & b & Hd & Hr & HP).
  assert (ND' : NoDup (r :: seen)) by (constructor; assumption).
  assert (HB' : forall x, In x (r :: seen) -> x < 65536) by (intros x [<-|Hx]; [rewrite Hr; apply root_small|apply HB, Hx]).
  (* what is pending before is pending after, whatever is added *)
  assert (Hpend : forall d'' z, (forall q, In q d' -> In q d'') -> pending d seen z -> pending d'' (r :: seen) z).
  { intros d'' z Hsub [Hz|(q & Hq & Hz)]; [left; right; exact Hz|]. rewrite Hd in Hq. apply in_app_or in Hq.
    destruct Hq as [Hq|[<-|Hq]].
    - left. right. rewrite <- Hz. apply HP, Hq.
    - left. left. cbn in Hz. congruence.
    - right. exists q. split; [apply Hsub, Hq|exact Hz]. }
  assert (Hr_ahead : ahead d seen r).
  { exists r. split; [|constructor]. right. exists (b, k). split; [rewrite Hd; apply in_or_app; right; left; reflexivity|symmetry; exact Hr]. }
  assert (Hback : forall d'', (forall q, In q d'' -> In q d' \/ edge r (root (fst q))) ->
    forall x, ahead d'' (r :: seen) x -> ahead d seen x).
  { intros d'' Hsub x (z & Hz & Hzx). destruct Hz as [[<-|Hz]|(q & Hq & <-)].
    - destruct Hr_ahead as (y & Hy & Hyr). exists y. split; [exact Hy|]. eapply reach_trans; eassumption.
    - exists z. split; [left; exact Hz|exact Hzx].
    - destruct (Hsub q Hq) as [Hq'|He].
      + exists (root (fst q)). split; [|exact Hzx]. right. exists q. split; [|reflexivity].
        rewrite Hd. apply in_or_app. right. right. exact Hq'.
      + destruct Hr_ahead as (y & Hy & Hyr). exists y. split; [exact Hy|].
        eapply reach_trans; [exact Hyr|]. econstructor; eassumption. }
  destruct (bases r) as [bs|] eqn:EB.
  - destruct (exactInClass r args) as [[m t] h1] eqn:EC.
    assert (Hfwd : forall x, ahead d seen x -> ahead (addAncestorPairsOf false bs 0 d') (r :: seen) x).
    { intros x (z & Hz & Hzx). exists z. split; [|exact Hzx]. eapply Hpend; [|exact Hz].
      intros q Hq. apply add_in. left. exact Hq. }
    assert (HC' : forall x y, In x (r :: seen) -> edge x y -> pending (addAncestorPairsOf false bs 0 d') (r :: seen) y).
    { intros x y [<-|Hx] He.
      - destruct He as (bs' & b' & Eb & Hi & <-). rewrite EB in Eb. injection Eb as <-.
        right. exists (b', 0). split; [apply add_in; right; exists b'; split; [exact Hi|reflexivity]|reflexivity].
      - eapply Hpend; [|apply (HC x y Hx He)]. intros q Hq. apply add_in. left. exact Hq. }
    assert (Hh1 : h1 = false /\ n + m <= 1).
    { destruct ((m =? 1) && match d' with [] => true | _ :: _ => false end).
      - injection H as <- _ Hh. apply orb_false_iff in Hh. split; [apply Hh|exact Hn'].
      - apply exact_mono in H. destruct H as [H1 H2]. specialize (H2 eq_refl). apply orb_false_iff in H2. split; [apply H2|lia]. }
    destruct Hh1 as [Hh1 Hm]. destruct (in_class _ _ _ _ _ EC Hh1) as [Em Et].
    (* the new accumulator *)
    assert (HA' : let s1 := if m =? 1 then match t with Some f => Some (f, r) | None => None end else s in
      n + m = 0 /\ s1 = None /\ (forall x, In x (r :: seen) -> bases x <> None -> E args x = [])
      \/ n + m = 1 /\ exists f b, s1 = Some (f, b) /\ In b (r :: seen) /\ bases b <> None /\ E args b = [f]
         /\ forall x, In x (r :: seen) -> x <> b -> bases x <> None -> E args x = []).
    { cbn zeta. destruct HA as [(Hn & Hs & HE)|(Hn & f & b0 & Hs & Hb & Hdb & HEb & HE)].
      - destruct (E args r) as [|f [|f2 l]] eqn:Er; cbn [length] in Em; [| |lia].
        + left. subst n m. split; [reflexivity|]. split; [exact Hs|].
          intros x [<-|Hx] Hdx; [exact Er|apply HE; assumption].
        + right. subst n m. split; [reflexivity|]. exists f, r.
          change (N.of_nat 1 =? 1) with true. cbv iota. rewrite (Et f eq_refl). split; [reflexivity|].
          split; [left; reflexivity|]. split; [congruence|]. split; [exact Er|].
          intros x [<-|Hx] Hne Hdx; [congruence|apply HE; assumption].
      - assert (Hm0 : m = 0) by lia. right. split; [lia|]. rewrite Hm0. cbv iota. change (0 =? 1) with false. cbv iota.
        exists f, b0. split; [exact Hs|]. split; [right; exact Hb|]. split; [exact Hdb|]. split; [exact HEb|].
        intros x [<-|Hx] Hne Hdx; [|apply HE; assumption].
        destruct (E args r); [reflexivity|cbn [length] in Em; lia]. }
    cbn zeta in HA'.
    destruct ((m =? 1) && match d' with [] => true | _ :: _ => false end) eqn:Estop.
    + (* stopped here, with no base left to visit *)
      apply andb_true_iff in Estop. destruct Estop as [Em1 Ed']. destruct d' as [|q0 d']; [|discriminate].
      injection H as <- <- _.
      destruct HA' as [(Hx & _)|(Hn1 & f & b0 & Hs1 & Hb0 & Hdb & HEb & HE)]; [lia|].
      right. split; [exact Hn1|]. exists f, b0.
      rewrite Em1 in Hs1 |- *. split; [exact Hs1|].
      destruct (in_class_one _ _ _ _ _ EC) as (f1 & _ & Ht1); [lia|]. rewrite Ht1 in Hs1. injection Hs1 as <- <-.
      split; [exact Hr_ahead|]. split; [exact Hdb|]. split; [exact HEb|].
      intros x (z & Hz & Hzx) Hdx Hne.
      assert (Hin : In z (r :: seen)).
      { destruct (Hpend [] z (fun q Hq => Hq) Hz) as [Hz'|(q & [] & _)]. exact Hz'. }
      assert (Hgo : In x (r :: seen) \/ reach r x).
      { clear Hz Hne Hdx. induction Hzx as [z|z y x He Hzx IHz]; [left; exact Hin|].
        destruct Hin as [<-|Hin]; [right; econstructor; eassumption|]. apply IHz.
        destruct (Hpend [] y (fun q Hq => Hq) (HC z y Hin He)) as [Hy|(q & [] & _)]. exact Hy. }
      destruct Hgo as [Hx|Hx].
      * destruct (N.eq_dec x r) as [->|Hxr]; [left; reflexivity|]. exfalso. apply Hne. apply HE; assumption.
      * apply reach_ancestor in Hx. destruct Hx as [->|Hx]; [left; reflexivity|right; exact Hx].
    + eapply IH in H; [|exact Hn'|exact ND'|exact HB'|cbn [length]; lia|exact HC'|exact HA'].
      assert (Hb' : forall x, ahead (addAncestorPairsOf false bs 0 d') (r :: seen) x -> ahead d seen x).
      { apply Hback. intros q Hq. apply add_in in Hq. destruct Hq as [Hq|(b' & Hi & ->)]; [left; exact Hq|].
        right. exists bs, b'. auto. }
      destruct H as [(H1 & H2 & H3)|(H1 & f & b0 & H2 & H3 & H4 & H5 & H6)].
      * left. split; [exact H1|split; [exact H2|]]. intros x Hx. apply H3, Hfwd, Hx.
      * right. split; [exact H1|]. exists f, b0. split; [exact H2|]. split; [apply Hb', H3|]. split; [exact H4|].
        split; [exact H5|]. intros x Hx. apply H6, Hfwd, Hx.
  - assert (Hfwd : forall x, ahead d seen x -> ahead d' (r :: seen) x).
    { intros x (z & Hz & Hzx). exists z. split; [|exact Hzx]. eapply Hpend; [|exact Hz]. auto. }
    assert (HC' : forall x y, In x (r :: seen) -> edge x y -> pending d' (r :: seen) y).
    { intros x y [<-|Hx] He.
      - destruct He as (bs' & b' & Eb & _). congruence.
      - eapply Hpend; [|apply (HC x y Hx He)]. auto. }
    eapply IH in H; [|exact Hn'|exact ND'|exact HB'|cbn [length]; lia|exact HC'|].
    + assert (Hb' : forall x, ahead d' (r :: seen) x -> ahead d seen x).
      { apply Hback. auto. }
      destruct H as [(H1 & H2 & H3)|(H1 & f & b0 & H2 & H3 & H4 & H5 & H6)].
      * left. split; [exact H1|split; [exact H2|]]. intros x Hx. apply H3, Hfwd, Hx.
      * right. split; [exact H1|]. exists f, b0. split; [exact H2|]. split; [apply Hb', H3|]. split; [exact H4|].
        split; [exact H5|]. intros x Hx. apply H6, Hfwd, Hx.
    + destruct HA as [(Hn & Hs & HE)|(Hn & f & b0 & Hs & Hb & Hdb & HEb & HE)].
      * left. split; [exact Hn|split; [exact Hs|]]. intros x [<-|Hx] Hdx; [congruence|apply HE; assumption].
      * right. split; [exact Hn|]. exists f, b0. split; [exact Hs|]. split; [right; exact Hb|]. split; [exact Hdb|].
        split; [exact HEb|]. intros x [<-|Hx] Hne Hdx; [congruence|apply HE; assumption].
Qed.

Lemma ahead_start c x : ahead [(c, 0)] [] x <-> reach (root c) x.
Proof.
  split.
  - intros (z & [[]|(q & [<-|[]] & <-)] & H). exact H.
  - intros H. exists (root c). split; [|exact H]. right. exists (c, 0). split; [left; reflexivity|reflexivity].
Qed.

Lemma find_exact_one c args s hz : findExact P A rel root bases overloads hzy c args = (s, hz, true) -> hz = false ->
  exists f b, s = Some (f, b) /\ reach (root c) b /\ bases b <> None /\ E args b = [f]
    /\ forall x, reach (root c) x -> bases x <> None -> E args x <> [] -> x = b \/ ancestor b x.
Proof.
  unfold findExact. destruct (exact_loop the_fuel args [(c, 0)] [] (0, None, false)) as [[n s0] h0] eqn:EL.
  intros H Hh. destruct (n =? 0) eqn:E0; [discriminate|]. destruct (1 <? n) eqn:E1; [discriminate|].
  injection H as <- <-. subst h0.
  eapply exact_sound in EL; [|lia|constructor|intros x []|exact fuel_big|intros x y []|].
  - destruct EL as [(X & _)|(_ & f & b & H1 & H2 & H3 & H4 & H5)]; [lia|].
    exists f, b. split; [exact H1|]. split; [apply ahead_start, H2|]. split; [exact H3|]. split; [exact H4|].
    intros x Hx. apply H5, ahead_start, Hx.
  - left. split; [reflexivity|]. split; [reflexivity|]. intros x [].
Qed.

Lemma reach_bases' args x y : FamilyProofs.reach root (bases' args) x y -> reach x y.
Proof.
  induction 1 as [x|x y z He H IH]; [constructor|]. destruct He as (bs & b & Hb & Hi & Hr).
  unfold bases' in Hb. destruct (bases x) as [bs0|] eqn:Ex; [|discriminate]. injection Hb as <-.
  destruct (one args x); [contradiction|]. econstructor; [exists bs0, b; eauto|exact IH].
Qed.

Lemma call_cases c args f b : call c args = Calls P f b ->
  (reach (root c) b /\ bases b <> None /\ E args b = [f]
   /\ forall x, reach (root c) x -> bases x <> None -> E args x <> [] -> x = b \/ ancestor b x)
  \/ (FamilyProofs.reach root (bases' args) (root c) b /\ bases b <> None /\ answer args b = (1, Some f, false)
      /\ ((forall x y z, sub x y = true -> sub y z = true -> sub x z = true) ->
          forall x, FamilyProofs.reach root (bases' args) (root c) x -> bases x <> None -> one args x = true -> x = b \/ sub b x = true)).
Proof.
  unfold OverloadModel.call, findFunction.
  destruct (findExact P A rel root bases overloads hzy c args) as [[s hz] o] eqn:EX.
  destruct o.
  - change (1 =? 1) with true. cbv iota. intros H. destruct s as [[f0 b0]|]; [|discriminate]. destruct hz; [discriminate|].
    injection H as -> ->. apply find_exact_one in EX; [|reflexivity]. destruct EX as (f1 & b1 & H1 & H2 & H3 & H4 & H5).
    injection H1 as <- <-. left. auto.
  - pose proof (knows_walk args c s hz) as K.
    assert (Hv : forall x, In x (map fst (visits root (bases' args) the_fuel false nohead [(c, 0)] [])) <-> FamilyProofs.reach root (bases' args) (root c) x).
    { intros x. rewrite visits_reach by exact root_small. split.
      - intros (q & [<-|[]] & Hq). exact Hq.
      - intros Hq. exists (c, 0). split; [left; reflexivity|exact Hq]. }
    destruct (safe_walk the_fuel args [(c, 0)] [] (0, s, hz, FNone)) as [[[n s'] hz'] w]. destruct K as (K1 & K2 & K3).
    destruct (n =? 1) eqn:En; [|intros H; destruct hz'; [discriminate|destruct (n =? 0); discriminate]].
    intros H. destruct s' as [[f0 b0]|]; [|discriminate]. destruct hz'; [discriminate|]. injection H as -> ->.
    destruct w as [|c'|].
    + destruct (K1 eq_refl). lia.
    + destruct (K2 c' eq_refl) as (_ & (U1 & U2 & U3) & (g & Hg1 & Hg2 & Hg3) & KT). injection Hg2 as <- <-.
      right. split; [apply Hv, U1|]. split; [exact U2|]. split; [apply Hg3; reflexivity|].
      intros HT x Hx Hdx Hox. apply (KT HT). split; [apply Hv, Hx|split; assumption].
    + specialize (K3 eq_refl). lia.
Qed.

Lemma exact_bound args b : all_settled args -> (forall x, x <> b -> overloads x = []) ->
  forall fuel d seen n s hz, ~ In b seen \/ True -> 
  fst (fst (exact_loop fuel args d seen (n, s, hz))) <= n + (if existsb (N.eqb b) seen then 0 else N.of_nat (length (E args b))).
Proof.
  intros HS HO. induction fuel as [|g IH]; intros d seen n s hz _; [cbn; lia|]. cbn [OverloadModel.exact_loop].
  destruct (getNextBasePair root d seen) as [[[[r k]|] d'] seen'] eqn:EN; [|cbn; lia].
  destruct (next_some root _ _ _ _ _ _ EN) as (-> & NI & _).
  destruct (bases r) as [bs|] eqn:EB.
  - destruct (exactInClass r args) as [[m t] h] eqn:EC.
    assert (h = false).
    { unfold OverloadModel.exactInClass, findMatchingFunction in EC. pose proof (strict_settled (overloads r) args (0, None, false) (HS r)) as X.
      destruct (strict_find P A rel (overloads r) args (0, None, false)) as [[n0 s0] h0]. cbn in X. congruence. }
    apply in_class in EC; [|assumption]. destruct EC as [Em _].
    assert (Hb : m + (if existsb (N.eqb b) (r :: seen) then 0 else N.of_nat (length (E args b)))
      <= (if existsb (N.eqb b) seen then 0 else N.of_nat (length (E args b)))).
    { cbn [existsb]. destruct (N.eqb_spec b r) as [<-|Hne].
      - cbn [orb]. destruct (existsb (N.eqb b) seen) eqn:Ex; [|lia]. exfalso. apply NI. apply existsb_exists in Ex.
        destruct Ex as (y & Hy & Hyb). apply N.eqb_eq in Hyb. subst y. exact Hy.
      - cbn [orb]. unfold E in Em at 1. rewrite (HO r) in Em by congruence. cbn in Em. lia. }
    destruct ((m =? 1) && match d' with [] => true | _ :: _ => false end).
    + cbn [fst]. lia.
    + etransitivity; [apply IH; right; exact I|]. lia.
  - etransitivity; [apply IH; right; exact I|]. cbn [existsb]. destruct (b =? r); cbn [orb]; [|lia].
    destruct (existsb (N.eqb b) seen); lia.
Qed.

Lemma wstep_skip args b l : all_settled args -> (forall x, x <> b -> overloads x = []) -> (forall x, bases x = None -> x <> hzy) ->
  ~ In b l -> forall r, fold_left (wstep args) l r = r.
Proof.
  intros HS HO HH. induction l as [|x l IH]; intros Hb r; [reflexivity|]. cbn [fold_left].
  rewrite IH by (intros X; apply Hb; right; exact X). destruct r as [[[n s] hz] w]. unfold wstep, answer.
  rewrite (HO x) by (intros ->; apply Hb; left; reflexivity). cbn.
  destruct (bases x) eqn:EB.
  - rewrite orb_false_r, N.add_0_r. reflexivity.
  - rewrite (proj2 (N.eqb_neq x hzy)); [rewrite orb_false_r; reflexivity|apply HH, EB].
Qed.

Lemma one_class c args b : all_settled args -> (forall x, bases x = None -> x <> hzy) ->
  (forall x, x <> b -> overloads x = []) -> reach (root c) b -> bases b <> None ->
  forall f, call c args = Calls P f b <->
    (E args b = [f] \/ length (E args b) <> 1%nat /\ chosen P A rel (overloads b) args f).
Proof.
  intros HS HH HO HR HB f.
  assert (Hcall : call c args =
    if Nat.eqb (length (E args b)) 1 then match E args b with [g] => Calls P g b | _ => NullFunction P end
    else let '(n, s, _) := answer args b in
         if n =? 1 then match s with Some g => Calls P g b | None => NullFunction P end
         else if n =? 0 then NoMatch P else Ambiguous P).
  { unfold OverloadModel.call, findFunction, findExact.
    destruct (exact_loop the_fuel args [(c, 0)] [] (0, None, false)) as [[n s] h] eqn:EL.
    pose proof (exact_quiet args HS HH the_fuel [(c, 0)] [] 0 None false) as X. rewrite EL in X. cbn [snd] in X. subst h.
    pose proof (exact_bound args b HS HO the_fuel [(c, 0)] [] 0 None false (or_intror I)) as Y. rewrite EL in Y. cbn [fst existsb] in Y.
    assert (HX : n <= 1 -> n = 0 /\ E args b = [] \/ n = 1 /\ exists g, E args b = [g] /\ s = Some (g, b)).
    { intros Hn. eapply exact_sound in EL; [|exact Hn|constructor|intros x []|exact fuel_big|intros x y []|left; split; [reflexivity|split; [reflexivity|intros x []]]].
      destruct EL as [(E1 & E2 & E3)|(E1 & g & b0 & E2 & E3 & E4 & E5 & E6)].
      - left. split; [exact E1|]. apply E3; [apply ahead_start; exact HR|exact HB].
      - right. split; [exact E1|]. exists g. destruct (N.eq_dec b0 b) as [->|Hne]; [auto|].
        unfold E in E5. rewrite (HO b0 Hne) in E5. discriminate. }
    assert (Hwalk : forall s0, safe_walk the_fuel args [(c, 0)] [] (0, s0, false, FNone) = wstep args (0, s0, false, FNone) b).
    { intros s0. rewrite walk_fold.
      assert (Hin : In b (map fst (visits root (bases' args) the_fuel false nohead [(c, 0)] []))).
      { apply visits_reach; [exact root_small|]. exists (c, 0). split; [left; reflexivity|]. cbn [fst].
        assert (G : forall y z, reach y z -> z = b -> FamilyProofs.reach root (bases' args) y b).
        { induction 1 as [y|y w z He Hr IH]; intros Hz; [subst; constructor|]. 
          destruct (N.eq_dec y b) as [->|Hne]; [constructor|].
          econstructor; [|apply IH, Hz]. destruct He as (bs & b0 & Hb0 & Hi & Hr0). exists bs, b0. split; [|auto].
          unfold bases'. rewrite Hb0. unfold one, answer. rewrite (HO y Hne). reflexivity. }
        eapply G; [exact HR|reflexivity]. }
      pose proof (proj1 (visits_sound root (bases' args) the_fuel false nohead [(c, 0)] [])) as ND.
      apply in_split in Hin. destruct Hin as (l1 & l2 & Hl). rewrite Hl in ND |- *.
      apply NoDup_remove_2 in ND. rewrite fold_left_app. cbn [fold_left].
      rewrite (wstep_skip args b l1 HS HO HH) by (intros X; apply ND, in_or_app; left; exact X).
      apply (wstep_skip args b l2 HS HO HH). intros X; apply ND, in_or_app; right; exact X. }
    pose proof (class_settled _ _ (HS b)) as XS. fold (answer args b) in XS.
    destruct (answer args b) as [[m t] h] eqn:EA. cbn [snd] in XS. subst h.
    assert (Hw2 : forall s0, exists s1, wstep args (0, s0, false, FNone) b = (m, s1, false, if m =? 1 then FAt b else FNone)
      /\ (m = 1 -> s1 = match t with Some g => Some (g, b) | None => None end)).
    { intros s0. unfold wstep. destruct (bases b) as [bs|]; [|congruence]. rewrite EA.
      destruct (m =? 1) eqn:Em; [|rewrite N.add_0_l]; eexists; (split; [reflexivity|]); intros Hm; [reflexivity|].
      exfalso. lia. }
    destruct (Nat.eqb_spec (length (E args b)) 1) as [E1|E1].
    - destruct HX as [(_ & X)|(-> & g & Hg & ->)]; [lia|rewrite X in E1; discriminate|].
      rewrite Hg. reflexivity.
    - assert (Hfin : forall s0, (let '(n1, s', hz', _) := safe_walk the_fuel args [(c, 0)] [] (0, s0, false, FNone) in
        let '(n2, s2, hz2) := (n1, s', hz') in
        if n2 =? 1 then match s2 with Some (g, b1) => if hz2 then Waits P else Calls P g b1 | None => NullFunction P end
        else if hz2 then Waits P else if n2 =? 0 then NoMatch P else Ambiguous P)
        = if m =? 1 then match t with Some g => Calls P g b | None => NullFunction P end
          else if m =? 0 then NoMatch P else Ambiguous P).
      { intros s0. rewrite Hwalk. destruct (Hw2 s0) as (s1 & -> & Hs1).
        destruct (m =? 1) eqn:Em; [|reflexivity]. rewrite (Hs1 (proj1 (N.eqb_eq m 1) Em)). destruct t; reflexivity. }
      destruct (n =? 0) eqn:En0; [|destruct (1 <? n) eqn:En1].
      + rewrite <- (Hfin s). destruct (safe_walk the_fuel args [(c, 0)] [] (0, s, false, FNone)) as [[[n1 s1] h1] w1]. reflexivity.
      + rewrite <- (Hfin None). destruct (safe_walk the_fuel args [(c, 0)] [] (0, None, false, FNone)) as [[[n1 s1] h1] w1]. reflexivity.
      + exfalso. destruct HX as [(X & _)|(_ & g & Hg & _)]; [lia|lia|]. rewrite Hg in E1. apply E1. reflexivity. }
  rewrite Hcall. destruct (Nat.eqb_spec (length (E args b)) 1) as [E1|E1].
  - destruct (E args b) as [|g [|g2 l]]; cbn [length] in E1; try lia. split.
    + intros H. injection H as ->. left. reflexivity.
    + intros [H|[H _]]; [congruence|]. cbn in H. congruence.
  - pose proof (class_settled _ _ (HS b)) as XS. fold (answer args b) in XS.
    destruct (answer args b) as [[m t] h] eqn:EA. cbn [snd] in XS. subst h.
    unfold answer in EA. apply class_choice in EA. destruct EA as [C1 C2]. split.
    + intros H. right. split; [exact E1|]. destruct (m =? 1); [|destruct (m =? 0); discriminate].
      destruct t as [g|]; [|discriminate]. injection H as ->. apply C1. reflexivity.
    + intros [H|[_ H]]; [rewrite H in E1; cbn in E1; congruence|].
      assert (m = 1) by (apply C2; eauto). subst m. change (1 =? 1) with true. cbv iota.
      apply C1 in H. rewrite H. reflexivity.
Qed.
End Hier.

(* ================= C40 ================= *)

(* In one class, when nothing is unknown: a function is selected exactly when it is the only candidate by safe casts or,
   of several, the only one of the same kinds of types; the count is one exactly then. *)
Theorem C40_class : forall (P A : Type) (rel : P -> A -> fit) (fs : list (func P)) (args : list A),
  settled P A rel fs args ->
  let '(n, s, h) := findMatchingFunctionWithSafeCasts P A rel fs args in
  h = false /\ (forall f, s = Some f <-> chosen P A rel fs args f) /\ (n = 1 <-> exists f, chosen P A rel fs args f).
Proof.
  intros P A rel fs args HS. pose proof (class_settled P A rel fs args HS) as X.
  destruct (findMatchingFunctionWithSafeCasts P A rel fs args) as [[n s] h] eqn:EA. cbn [snd] in X. subst h.
  split; [reflexivity|]. apply class_choice. exact EA.
Qed.
Print Assumptions C40_class.

(* Whatever the classes and whatever is unknown, a count of one comes with a function. *)
Theorem C40_never_null : forall (P A : Type) (rel : P -> A -> fit) root bases overloads sub hzy (c : N) (args : list A),
  call P A rel root bases overloads sub hzy c args <> NullFunction P.
Proof. intros P A rel root bases overloads sub hzy c args. apply never_null. Qed.
Print Assumptions C40_never_null.

(* When a call selects function f of class b, b is the class of the call or above it and either f is the only exact match
   in b and exact matches elsewhere are only in classes above b; or f is b's choice by safe casts and every other class
   that the search may look at and that has a choice is above b. Missing: the search by safe casts starts also when several
   classes match exactly, and it goes past classes whose own functions are ambiguous (see the two theorems below). *)
Theorem C40_calls_partial : forall (P A : Type) (rel : P -> A -> fit) root bases overloads sub hzy (c : N) (args : list A) f b,
  (forall x, root x < 65536) ->
  (forall x y z, sub x y = true -> sub y z = true -> sub x z = true) ->
  (forall x, settled P A rel (overloads x) args) ->
  call P A rel root bases overloads sub hzy c args = Calls P f b ->
  reach root bases (root c) b /\ In f (overloads b) /\
  ((filter (exact_fit P A rel args) (overloads b) = [f] /\
    forall x, reach root bases (root c) x -> bases x <> None ->
      (exists g, In g (overloads x) /\ exact_fit P A rel args g = true) -> x = b \/ ancestor root bases b x)
   \/ (visible P A rel root bases overloads args c b /\ chosen P A rel (overloads b) args f /\
       forall x, visible P A rel root bases overloads args c x -> bases x <> None ->
         (exists g, chosen P A rel (overloads x) args g) -> x = b \/ sub b x = true)).
Proof.
  intros P A rel root bases overloads sub hzy c args f b HR HT HS H.
  apply call_cases in H; [|exact HR]. destruct H as [(H1 & H2 & H3 & H4)|(H1 & H2 & H3 & H4)].
  - split; [exact H1|]. split.
    { assert (Hf : In f (E P A rel overloads args b)) by (rewrite H3; left; reflexivity). apply filter_In in Hf. apply Hf. }
    left. split; [exact H3|]. intros x Hx Hd (g & Hg & Hgf). apply H4; [exact Hx|exact Hd|].
    intros X. assert (Hin : In g (E P A rel overloads args x)) by (apply filter_In; auto). rewrite X in Hin. destruct Hin.
  - split; [apply (reach_bases' P A rel root bases overloads args), H1|]. split.
    { unfold answer in H3. eapply class_one_some in H3; [|reflexivity]. destruct H3 as (g & Hg & X). injection X as ->. exact Hg. }
    right. split; [apply visible_reach'; assumption|]. split; [apply answer_chosen; exact H3|].
    intros x Hx Hd Hg. apply (H4 HT); [apply visible_reach'; assumption|exact Hd|].
    apply one_chosen; assumption.
Qed.
Print Assumptions C40_calls_partial.

(* A call whose name has functions in one class only, that class being the class of the call or above it, with nothing
   unknown, selects f exactly when f is the only exact match or, there being none or several, the choice by safe casts;
   otherwise it selects nothing and waits for nothing. *)
Theorem C40_one_class : forall (P A : Type) (rel : P -> A -> fit) root bases overloads sub hzy (c b : N) (args : list A),
  (forall x, root x < 65536) ->
  (forall x, settled P A rel (overloads x) args) ->
  (forall x, bases x = None -> x <> hzy) ->
  (forall x, x <> b -> overloads x = []) ->
  reach root bases (root c) b -> bases b <> None ->
  (forall f, call P A rel root bases overloads sub hzy c args = Calls P f b <->
    (filter (exact_fit P A rel args) (overloads b) = [f]
     \/ length (filter (exact_fit P A rel args) (overloads b)) <> 1%nat /\ chosen P A rel (overloads b) args f))
  /\ ((exists f, call P A rel root bases overloads sub hzy c args = Calls P f b)
      \/ call P A rel root bases overloads sub hzy c args = NoMatch P
      \/ call P A rel root bases overloads sub hzy c args = Ambiguous P).
Proof.
  intros P A rel root bases overloads sub hzy c b args HR HS HH HO Hr Hb. split.
  - intros f. apply one_class; assumption.
  - pose proof (never_null P A rel root bases overloads sub hzy c args) as N0.
    pose proof (call_decides P A rel root bases overloads sub hzy c args HS HH) as W.
    destruct (call P A rel root bases overloads sub hzy c args) as [f b0| | | |] eqn:EC; try congruence.
    + left. exists f. assert (b0 = b); [|congruence].
      apply call_cases in EC; [|exact HR].
      assert (Hne : overloads b0 <> []).
      { destruct EC as [(_ & _ & H3 & _)|(_ & _ & H3 & _)].
        - intros X. unfold E in H3. rewrite X in H3. discriminate.
        - intros X. unfold answer in H3. rewrite X in H3. discriminate. }
      destruct (N.eq_dec b0 b) as [E|E]; [exact E|]. exfalso. apply Hne, HO, E.
    + right. left. reflexivity.
    + right. right. reflexivity.
Qed.
Print Assumptions C40_one_class.

(* ---- concrete classes: parameters and arguments are sizes of Int, a size casts safely to a size not smaller ---- *)
Definition sizes (p a : N) : fit :=
  {| p_ok := true; p_complete := true; a_ok := true; pa_cmp := if p =? a then Same else NotSame; a_const := false; p_ref := false;
     p_const := false; p_constref := false; a_explicit := false; a_safe := if a <=? p then CAST_CLEAR else CAST_BAD;
     p_safe := if a <=? p then CAST_CLEAR else CAST_BAD; same_enum := true |}.
Lemma sizes_settled fs args : settled N N sizes fs args.
Proof. intros f p a _ _ _. unfold settled1, sizes. cbn. destruct (p =? a), (a <=? p); reflexivity. Qed.
Definition fn (i : N) (ps : list N) : func N := {| f_id := i; f_params := ps; f_varargs := false |}.
Definition croot (x : N) : N := x mod 65536.
Lemma croot_small x : croot x < 65536.
Proof. apply N.mod_lt. discriminate. Qed.

(* 4 inherits from 2 and 3, 2 inherits from 1 *)
Definition cbases (x : N) : option (list N) :=
  match x with 1 => Some [] | 2 => Some [1] | 3 => Some [] | 4 => Some [2; 3] | _ => None end.
Definition csub (x y : N) : bool :=
  match x with 2 => y =? 1 | 4 => (y =? 1) || (y =? 2) || (y =? 3) | _ => false end.
Lemma csub_spec x y : csub x y = true -> x = 2 /\ y = 1 \/ x = 4 /\ (y = 1 \/ y = 2 \/ y = 3).
Proof.
  unfold csub. intros H. destruct (N.eq_dec x 2) as [->|H2]; [left; split; [reflexivity|apply N.eqb_eq, H]|].
  destruct (N.eq_dec x 4) as [->|H4].
  - right. split; [reflexivity|]. apply orb_true_iff in H. destruct H as [H|H]; [apply orb_true_iff in H; destruct H as [H|H]|]; apply N.eqb_eq in H; auto.
  - exfalso. destruct x as [|[[p|p|]|[p|[p|p|]|]|]]; try discriminate; try (destruct p; discriminate); congruence.
Qed.
Lemma csub_trans x y z : csub x y = true -> csub y z = true -> csub x z = true.
Proof.
  intros H1 H2. apply csub_spec in H1. apply csub_spec in H2.
  destruct H1 as [[-> ->]|[-> [->|[->| ->]]]]; destruct H2 as [[X ->]|[X Y]]; try discriminate X; reflexivity.
Qed.

(* An ambiguity in the derived class is forgotten when a base class has one match: class 2 has f(Int(8)) and f(Int(9)), its
   base 1 has f(Int(16)), and f called with an Int(4) calls the latter; from the class where the others are all there is, it
   is ambiguous. *)
Definition amb_over (x : N) : list (func N) := match x with 2 => [fn 1 [8]; fn 2 [9]] | 1 => [fn 3 [16]] | _ => [] end.
Theorem C40_ambiguity_refuted :
  ~ (forall (P A : Type) (rel : P -> A -> fit) root bases overloads sub hzy (c : N) (args : list A) f b,
     (forall x, root x < 65536) -> (forall x y z, sub x y = true -> sub y z = true -> sub x z = true) ->
     (forall x, settled P A rel (overloads x) args) ->
     call P A rel root bases overloads sub hzy c args = Calls P f b ->
     forall x, reach root bases (root c) x -> x = b \/ ancestor root bases b x \/ filter (safe_fit P A rel args) (overloads x) = []).
Proof.
  intros H. specialize (H N N sizes croot cbases amb_over csub 9 2 [4] (fn 3 [16]) 1 croot_small csub_trans (fun x => sizes_settled _ _)).
  assert (X : call N N sizes croot cbases amb_over csub 9 2 [4] = Calls N (fn 3 [16]) 1) by (vm_compute; reflexivity).
  specialize (H X 2 ltac:(constructor)). destruct H as [H|[H|H]]; [discriminate| |vm_compute in H; discriminate].
  destruct H as (y & (bs & b & Hb & Hi & _) & _). injection Hb as <-. destruct Hi.
Qed.
Print Assumptions C40_ambiguity_refuted.

(* An exact match does not hide the one it overrides when another base is still to be searched: 4 inherits from 2 and 3, and 2
   from 1; 2 has f(Int(8)) and f(Int(9)), 1 has f(Int(8)). Called on 4 with an Int(8), the f(Int(8)) of 1 is selected, not the
   one of 2 below it. Without class 3 among the bases it is the one of 2. *)
Definition ov_over (x : N) : list (func N) := match x with 2 => [fn 1 [8]; fn 2 [9]] | 1 => [fn 3 [8]] | _ => [] end.
Definition ov_bases (x : N) : option (list N) := match x with 4 => Some [2] | _ => cbases x end.
Theorem C40_exact_refuted :
  ~ (forall (P A : Type) (rel : P -> A -> fit) root bases overloads sub hzy (c : N) (args : list A) f b,
     (forall x, root x < 65536) -> (forall x y z, sub x y = true -> sub y z = true -> sub x z = true) ->
     (forall x, settled P A rel (overloads x) args) ->
     call P A rel root bases overloads sub hzy c args = Calls P f b ->
     forall x, reach root bases (root c) x -> ancestor root bases x b -> filter (exact_fit P A rel args) (overloads x) = [])
  /\ call N N sizes croot cbases ov_over csub 9 4 [8] = Calls N (fn 3 [8]) 1
  /\ call N N sizes croot ov_bases ov_over csub 9 4 [8] = Calls N (fn 1 [8]) 2.
Proof.
  assert (X : call N N sizes croot cbases ov_over csub 9 4 [8] = Calls N (fn 3 [8]) 1) by (vm_compute; reflexivity).
  split; [|split; [exact X|vm_compute; reflexivity]].
  intros H. specialize (H N N sizes croot cbases ov_over csub 9 4 [8] (fn 3 [8]) 1 croot_small csub_trans (fun x => sizes_settled _ _) X 2).
  assert (H1 : reach croot cbases (croot 4) 2).
  { apply reach_step with (y := 2); [exists [2; 3], 2; cbn; auto|constructor]. }
  assert (H2 : ancestor croot cbases 2 1).
  { exists 1. split; [exists [1], 1; cbn; auto|constructor]. }
  specialize (H H1 H2). vm_compute in H. discriminate.
Qed.
Print Assumptions C40_exact_refuted.

(* the hypotheses of the positive theorems are met *)
Example C40_ex :
  (forall x, croot x < 65536) /\ (forall x y z, csub x y = true -> csub y z = true -> csub x z = true)
  /\ (forall x, settled N N sizes (amb_over x) [9])
  /\ call N N sizes croot cbases amb_over csub 9 4 [9] = Calls N (fn 2 [9]) 2
  /\ chosen N N sizes [fn 1 [8]; fn 2 [16]] [9] (fn 2 [16])
  /\ findMatchingFunctionWithSafeCasts N N sizes [fn 1 [8]; fn 2 [16]] [9] = (1, Some (fn 2 [16]), false)
  /\ findMatchingFunctionWithSafeCasts N N sizes [fn 1 [8]; fn 2 [16]] [4] = (2, None, false)
  /\ (let o x := if x =? 1 then [fn 1 [8]; fn 2 [16]] else [] in
      (forall x, x <> 1 -> o x = []) /\ (forall x, cbases x = None -> x <> 4) /\
      call N N sizes croot cbases o csub 4 4 [9] = Calls N (fn 2 [16]) 1).
Proof.
  split; [exact croot_small|]. split; [exact csub_trans|]. split; [intros x; apply sizes_settled|].
  split; [vm_compute; reflexivity|]. split; [apply only_one; reflexivity|].
  split; [reflexivity|]. split; [reflexivity|]. cbn zeta. split; [|split; [|vm_compute; reflexivity]].
  - intros x Hx. rewrite (proj2 (N.eqb_neq x 1) Hx). reflexivity.
  - intros x H ->. discriminate.
Qed.
