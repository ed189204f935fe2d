(* SymTableOwners.v: each accepted call has its effect, and keeps one owner for every symbol. *)
From Coq Require Import List NArith Lia Bool PeanoNat Sorting.Sorted.
From Coq Require Import ZifyBool ZifyNat ZifyN.
From Verif Require Import Base SourceStreamModel SourceStreamProofs SymTableModel SymTableSpec SymTableProofs.
Import ListNotations.
Open Scope N_scope.

(* ---- one step has its effect ---- *)

Definition held (w : world) : Prop :=
  forall t id a, maps_of w t id = Some a -> live_of w a <> None.

Lemma freeAll_done w es w' : freeAll w es = Done w' tt ->
  w_tabs w' = w_tabs w /\
  (forall a, In a (map snd es) -> live_of w' a = None /\ live_of w a <> None) /\
  (forall a, ~ In a (map snd es) -> live_of w' a = live_of w a).
Proof.
  revert w. induction es as [|[id a] r IH]; intro w; cbn [freeAll].
  - intros [= <-]. cbn. repeat split; tauto.
  - destruct (free w a) as [w1 x| |] eqn:E; cbn [bind]; try discriminate.
    rewrite (unit_eta x) in E. apply free_done in E as [Ha ->].
    intro H. destruct (IH _ H) as (P1 & P2 & P3).
    assert (Hl : forall b, live_of (mkW (set_nth a None (w_heap w)) (w_tabs w)) b =
                           if Nat.eqb b a then None else live_of w b).
    { intro b. unfold live_of; cbn [w_heap]. apply at_set; assumption. }
    split; [exact P1|]. cbn [map snd]. split.
    + intros b [<-|Hb].
      * destruct (in_dec Nat.eq_dec a (map snd r)) as [Hi|Hn].
        -- destruct (P2 a Hi) as [_ X]. rewrite Hl, Nat.eqb_refl in X. contradiction.
        -- rewrite P3, Hl, Nat.eqb_refl by assumption. split; [reflexivity|assumption].
      * destruct (P2 b Hb) as [X Y]. split; [assumption|]. rewrite Hl in Y.
        destruct (Nat.eqb_spec b a); [contradiction|assumption].
    + intros b Hb. rewrite P3 by (intro Y; apply Hb; right; exact Y). rewrite Hl.
      destruct (Nat.eqb_spec b a) as [->|]; [exfalso; apply Hb; left; reflexivity|reflexivity].
Qed.

Lemma freeAll_ok w es : NoDup (map snd es) -> (forall a, In a (map snd es) -> live_of w a <> None) ->
  exists w', freeAll w es = Done w' tt.
Proof.
  revert w. induction es as [|[id a] r IH]; intros w Hnd Hl; cbn [freeAll].
  - eexists; reflexivity.
  - cbn [map snd] in *. inversion Hnd; subst.
    assert (Ha : live_of w a <> None) by (apply Hl; left; reflexivity).
    unfold free. fold (live_of w a). destruct (live_of w a) eqn:E; [|contradiction].
    cbn [bind]. apply IH; [assumption|].
    intros b Hb. unfold live_of; cbn [w_heap]. rewrite at_set by (fold (live_of w a); congruence).
    destruct (Nat.eqb_spec b a) as [->|]; [contradiction|]. apply Hl. right; assumption.
Qed.

Lemma vals_find n w t a : wf n w -> In a (map snd (tab w t)) <-> exists id, maps_of w t id = Some a.
Proof.
  intro Hw. unfold maps_of, getSymbolPtr. split.
  - intro H. apply in_map_iff in H as ([k b] & E & Hi). cbn in E. subst b.
    exists k. apply find_in; [eapply wf_tab; eassumption|assumption].
  - intros [k H]. apply find_in in H; [|eapply wf_tab; eassumption].
    change a with (snd (k, a)). apply in_map; assumption.
Qed.

Lemma step_effect n w o w' r : wf n w -> held w ->
  (forall t, In t (tables_of o) -> (t < n)%nat) ->
  step w o = Done w' r ->
  wf n w' /\ effect o (live_of w) (live_of w') (maps_of w) (maps_of w') r.
Proof.
  intros Hw Hheld Hin Hs.
  destruct o as [c|a|t id a|t i j a|t i j a|t p q|t id|t f|t f|t f d|t|t id];
    cbn [step tables_of] in *;
    try (assert (Ht : (t < n)%nat) by (apply Hin; left; reflexivity)).
  - (* New *)
    cbn [alloc] in Hs. injection Hs as <- <-. split; [exact Hw|].
    cbn [effect]. split; [intros t id; reflexivity|].
    exists (List.length (w_heap w)). split; [reflexivity|].
    split; [apply at_len|]. split.
    + unfold live_of; cbn [w_heap]. rewrite at_alloc, Nat.eqb_refl. reflexivity.
    + intros b Hb. unfold live_of; cbn [w_heap]. rewrite at_alloc.
      destruct (Nat.eqb_spec b (List.length (w_heap w))); [contradiction|reflexivity].
  - (* Delete *)
    apply ok_unit_done in Hs as [Hs ->]. apply free_done in Hs as [Ha ->].
    split; [exact Hw|]. cbn [effect]. split; [intros t id; reflexivity|].
    split; [reflexivity|]. split; [exact Ha|]. split.
    + unfold live_of; cbn [w_heap]. rewrite at_set, Nat.eqb_refl by assumption. reflexivity.
    + intros b Hb. unfold live_of; cbn [w_heap]. rewrite at_set by assumption.
      destruct (Nat.eqb_spec b a); [contradiction|reflexivity].
  - (* Add *)
    apply ok_unit_done in Hs as [Hs ->]. apply (add_done n) in Hs as (H1 & H2 & H3 & H4); try assumption.
    split; [assumption|]. cbn [effect]. split; [assumption|]. split; [exact H4|].
    split; [reflexivity|]. intro b. unfold live_of. rewrite H3. reflexivity.
  - (* ReplaceId *)
    apply ok_unit_done in Hs as [Hs ->].
    destruct (replaceId_cases n w t i j a Hw Ht) as
      [(w2 & E & H1 & H2 & H3 & H4 & H5)|(w2 & E & _)]; [|congruence].
    assert (w2 = w') by congruence. subst w2.
    split; [assumption|]. cbn [effect]. split; [assumption|]. split; [assumption|].
    split; [exact H5|]. split; [reflexivity|]. intro b. unfold live_of. rewrite H2. reflexivity.
  - (* Rename *)
    apply ok_unit_done in Hs as [Hs ->]. unfold renameSym in Hs. fold (live_of w a) in Hs.
    destruct (live_of w a) as [c|] eqn:Ea; [|discriminate].
    match type of Hs with replaceId ?w0 _ _ _ _ = _ => set (w1 := w0) in * end.
    assert (Hw1 : wf n w1) by exact Hw.
    destruct (replaceId_cases n w1 t i j a Hw1 Ht) as
      [(w2 & E & H1 & H2 & H3 & H4 & H5)|(w2 & E & _)]; [|congruence].
    assert (w2 = w') by congruence. subst w2.
    split; [assumption|]. cbn [effect]. split; [assumption|]. split; [assumption|].
    split; [exact H5|]. split; [reflexivity|]. exists c. split; [assumption|].
    assert (Hl : forall b, live_of w' b = if Nat.eqb b a then Some (mkCell j (c_data c)) else live_of w b).
    { intro b. unfold live_of. rewrite H2. subst w1; cbn [w_heap]. apply at_set.
      fold (live_of w a). congruence. }
    split; [rewrite Hl, Nat.eqb_refl; reflexivity|].
    intros b Hb. rewrite Hl. destruct (Nat.eqb_spec b a); [contradiction|reflexivity].
  - (* ReplaceSym *)
    apply ok_unit_done in Hs as [Hs ->]. unfold replaceSym in Hs.
    fold (live_of w p) in Hs. fold (live_of w q) in Hs.
    destruct (live_of w p) as [cp|] eqn:Ep; [|discriminate].
    destruct (live_of w q) as [cq|] eqn:Eq; [|discriminate].
    destruct (N.eqb_spec (c_id cp) (c_id cq)) as [Hid|]; [|discriminate].
    fold (getSymbolPtr w t (c_id cp)) in Hs.
    change (getSymbolPtr w t (c_id cp)) with (maps_of w t (c_id cp)) in Hs.
    destruct (maps_of w t (c_id cp)) as [x|] eqn:Em.
    + destruct (Nat.eqb_spec x p) as [->|]; [|discriminate].
      apply free_done in Hs as [Ha ->]. cbn [put w_heap w_tabs] in *.
      split.
      { change (wf n (put w t (assign (tab w t) (c_id cp) q))). apply wf_put; [assumption|].
        unfold okt. rewrite keys_assign. eapply wf_tab; eassumption. }
      cbn [effect]. split; [reflexivity|]. exists cp, cq.
      split; [assumption|]. split; [assumption|]. split; [assumption|]. right.
      split; [assumption|]. split.
      { intros t' id'. 
        change (maps_of (put w t (assign (tab w t) (c_id cp) q)) t' id' =
                upd (maps_of w) t (c_id cp) (Some q) t' id').
        rewrite (maps_put n) by assumption. unfold upd.
        destruct (Nat.eqb_spec t' t) as [->|]; cbn [andb]; [|reflexivity].
        rewrite find_assign; [reflexivity|].
        change (maps_of w t (c_id cp) <> None). congruence. }
      assert (Hl : forall b, live_of (mkW (set_nth p None (w_heap w)) (set_nth t (assign (tab w t) (c_id cp) q) (w_tabs w))) b
                     = if Nat.eqb b p then None else live_of w b).
      { intro b. unfold live_of; cbn [w_heap]. apply at_set. assumption. }
      split; [rewrite Hl, Nat.eqb_refl; reflexivity|].
      intros b Hb. rewrite Hl. destruct (Nat.eqb_spec b p); [contradiction|reflexivity].
    + injection Hs as <-. split; [assumption|]. cbn [effect]. split; [reflexivity|].
      exists cp, cq. split; [assumption|]. split; [assumption|]. split; [assumption|]. left.
      split; [assumption|]. split; [intros t' id'; reflexivity|]. reflexivity.
  - (* Remove *)
    unfold removeFromTable in Hs. fold (getSymbolPtr w t id) in Hs.
    change (getSymbolPtr w t id) with (maps_of w t id) in Hs.
    destruct (maps_of w t id) as [a|] eqn:Em; injection Hs as <- <-.
    + split; [apply wf_put; [assumption|apply okt_erase; eapply wf_tab; eassumption]|].
      cbn [effect]. split; [symmetry; assumption|]. split; [|reflexivity].
      intros t' k. rewrite (maps_put n) by assumption. unfold upd.
      destruct (Nat.eqb_spec t' t) as [->|]; cbn [andb]; [|reflexivity].
      rewrite find_erase by (eapply wf_tab; eassumption). reflexivity.
    + split; [assumption|]. cbn [effect]. split; [symmetry; assumption|]. split; [|reflexivity].
      intros t' k. unfold upd. destruct (Nat.eqb_spec t' t) as [->|]; cbn [andb]; [|reflexivity].
      destruct (N.eqb_spec k id) as [->|]; [assumption|reflexivity].
  - (* Copy *)
    apply ok_unit_done in Hs as [Hs ->]. unfold copyATableHere in Hs.
    apply copyEntries_cloned in Hs.
    assert (E : tab w f = filter (fun e => (fun _ : N => true) (fst e)) (tab w f)).
    { clear. induction (tab w f) as [|x l IH]; cbn; congruence. }
    rewrite E in Hs.
    destruct (cloned_copies n w t (tab w f) (fun _ => true) w' Hw Ht) as (P1 & P2 & P3).
    + eapply wf_tab; eassumption.
    + intros k a Hk _. apply (Hheld f k a). unfold maps_of, getSymbolPtr.
      apply find_in; [eapply wf_tab; eassumption|assumption].
    + assumption.
    + split; [assumption|]. cbn [effect]. split; [reflexivity|]. split; [|exact P2].
      intros id Hid. apply P3; [exact Hid|reflexivity].
  - (* Merge *)
    apply ok_unit_done in Hs as [Hs ->]. unfold mergeATableHere in Hs.
    apply (mergeEntries_cloned n) in Hs; [|assumption|assumption|
      apply okt_nodup; eapply wf_tab; eassumption].
    change (filter (absent (maps_of w t)) (tab w f)) with
      (filter (fun e => (fun id => negb (is_some (maps_of w t id))) (fst e)) (tab w f)) in Hs.
    destruct (cloned_copies n w t (tab w f) (fun id => negb (is_some (maps_of w t id))) w' Hw Ht)
      as (P1 & P2 & P3).
    + eapply wf_tab; eassumption.
    + intros k a Hk _. apply (Hheld f k a). unfold maps_of, getSymbolPtr.
      apply find_in; [eapply wf_tab; eassumption|assumption].
    + assumption.
    + split; [assumption|]. cbn [effect]. split; [reflexivity|exact P2].
  - (* Diff *)
    assert (Hd : (d < n)%nat) by (apply Hin; right; right; left; reflexivity).
    apply ok_unit_done in Hs as [Hs ->]. unfold mergedTableDifferences in Hs.
    destruct (getTableSize w f <? getTableSize w t); [|discriminate].
    destruct (diffEntries w f d (tab w t)) as [w1 x| |] eqn:E; cbn [bind] in Hs; try discriminate.
    destruct (getTableSize w1 t =? u32 (getTableSize w1 f + getTableSize w1 d)); [|discriminate].
    injection Hs as ->. rewrite (unit_eta x) in E.
    apply (diffEntries_cloned n) in E; [|assumption|assumption|
      apply okt_nodup; eapply wf_tab; eassumption].
    change (filter (absent (maps_of w f)) (tab w t)) with
      (filter (fun e => (fun id => negb (is_some (maps_of w f id))) (fst e)) (tab w t)) in E.
    destruct (cloned_copies n w d (tab w t) (fun id => negb (is_some (maps_of w f id))) w' Hw Hd)
      as (P1 & P2 & P3).
    + eapply wf_tab; eassumption.
    + intros k a Hk _. apply (Hheld t k a). unfold maps_of, getSymbolPtr.
      apply find_in; [eapply wf_tab; eassumption|assumption].
    + assumption.
    + split; [assumption|]. cbn [effect]. split; [reflexivity|]. split; [|exact P2].
      intros id Y Z. apply P3; [exact Y|]. cbn beta. rewrite Z. reflexivity.
  - (* Clear *)
    apply ok_unit_done in Hs as [Hs ->]. unfold clearTheTable in Hs.
    destruct (freeAll w (tab w t)) as [w1 x| |] eqn:E; cbn [bind] in Hs; try discriminate.
    injection Hs as <-. rewrite (unit_eta x) in E. apply freeAll_done in E as (P1 & P2 & P3).
    assert (Hw1 : wf n w1) by (destruct Hw; split; rewrite P1; assumption).
    assert (Hm : forall t' id, maps_of w1 t' id = maps_of w t' id).
    { intros t' id. unfold maps_of, getSymbolPtr, tab. rewrite P1. reflexivity. }
    split; [apply wf_put; [assumption|constructor]|].
    cbn [effect]. split; [reflexivity|]. split; [|split].
    + intros t' id. rewrite (maps_put n) by assumption. destruct (Nat.eqb t' t); [reflexivity|apply Hm].
    + intro a. rewrite live_put, <- (vals_find n) by exact Hw.
      destruct (in_dec Nat.eq_dec a (map snd (tab w t))) as [Hi|Hn].
      * destruct (P2 a Hi) as [X _]. tauto.
      * rewrite P3 by assumption. tauto.
    + intros a. rewrite live_put. intro X.
      destruct (in_dec Nat.eq_dec a (map snd (tab w t))) as [Hi|Hn].
      * destruct (P2 a Hi) as [Y _]. contradiction.
      * apply P3; assumption.
  - (* Find *)
    apply isIn_done in Hs as [-> ->]. split; [assumption|]. cbn [effect].
    split; [reflexivity|]. split; [intros t' k; reflexivity|reflexivity].
Qed.

(* ---- the effect keeps one owner for every symbol ---- *)

Lemma upd_eq m t id v t' id' :
  upd m t id v t' id' = if Nat.eqb t' t && (id' =? id) then v else m t' id'.
Proof. reflexivity. Qed.

Lemma upd_cases m t id v t' id' :
  (t' = t /\ id' = id /\ upd m t id v t' id' = v) \/
  ((t' <> t \/ id' <> id) /\ upd m t id v t' id' = m t' id').
Proof.
  rewrite upd_eq. destruct (Nat.eqb_spec t' t), (N.eqb_spec id' id); cbn; tauto.
Qed.

Lemma owner_rename h h' m m' mine lost t i j a :
  one_owner h m mine lost ->
  m t i = Some a \/ m t i = None /\ mine a ->
  (i <> j -> m t j <> Some a) ->
  same (upd (upd m t i None) t j (Some a)) m' ->
  (forall b, h' b = None <-> h b = None) ->
  one_owner h' m' (fun b => mine b /\ b <> a)
            (fun b => lost b \/ (i <> j /\ m t j = Some b)).
Proof.
  intros (O1 & O2 & O3 & O4) Hp Hj Hm Hh.
  assert (Hh' : forall b, h' b <> None <-> h b <> None) by (intro b; rewrite Hh; tauto).
  (* the value of m' *)
  assert (Hv : forall t' k, (t' = t /\ k = j /\ m' t' k = Some a) \/
               (t' = t /\ k = i /\ k <> j /\ m' t' k = None) \/
               ((t' <> t \/ k <> j /\ k <> i) /\ m' t' k = m t' k)).
  { intros t' k. rewrite (Hm t' k).
    destruct (upd_cases (upd m t i None) t j (Some a) t' k) as [(X1 & X2 & X3)|(X1 & X2)]; rewrite ?X3, ?X2.
    - left. tauto.
    - right. destruct (upd_cases m t i None t' k) as [(Y1 & Y2 & Y3)|(Y1 & Y2)]; rewrite ?Y3, ?Y2.
      + left. repeat split; try assumption. subst. tauto.
      + right. split; [|reflexivity]. destruct (Nat.eq_dec t' t); [|left; assumption].
        right. tauto. }
  assert (Ha : h a <> None).
  { apply O1. destruct Hp as [X|[_ X]]; [right; right; exists t, i; assumption|left; assumption]. }
  assert (Hnl : ~ lost a).
  { destruct Hp as [X|[_ X]]; [apply (O3 a t i X)|intro L; apply (O2 a); split; assumption]. }
  (* other entries do not hold a *)
  assert (Hoth : forall t' k, m t' k = Some a -> t' = t /\ k = i).
  { intros t' k X. destruct Hp as [Y|[Y1 Y2]]; [eapply O4; eassumption|].
    exfalso. destruct (O3 a t' k X). contradiction. }
  split; [|split; [|split]].
  - intro b. rewrite Hh', O1. split.
    + intros [X|[X|(t' & k & X)]].
      * destruct (Nat.eq_dec b a) as [->|]; [right; right|left; split; assumption].
        exists t, j. destruct (Hv t j) as [(_ & _ & Y)|[(_ & _ & Y & _)|[[Y|[Y _]] _]]]; try contradiction; exact Y.
      * right; left; left; assumption.
      * destruct (Hv t' k) as [(-> & -> & Y)|[(-> & -> & Y & Z)|(Y & Z)]].
        -- destruct (N.eq_dec i j) as [->|Hij]; [|right; left; right; split; assumption].
           right; right. exists t, j. rewrite Y. destruct Hp as [W|[W _]]; congruence.
        -- assert (b = a) as -> by (destruct Hp as [W|[W _]]; congruence).
           right; right. exists t, j.
           destruct (Hv t j) as [(_ & _ & Q)|[(_ & _ & Q & _)|[[Q|[Q _]] _]]]; try contradiction; exact Q.
        -- right; right. exists t', k. congruence.
    + intros [[X _]|[[X|[_ X]]|(t' & k & X)]].
      * left; assumption.
      * right; left; assumption.
      * right; right; exists t, j; assumption.
      * destruct (Hv t' k) as [(-> & -> & Y)|[(-> & -> & Y & Z)|(Y & Z)]].
        -- assert (b = a) as -> by congruence. apply O1. assumption.
        -- congruence.
        -- right; right. exists t', k. congruence.
  - intros b [[X Xa] [Y|[_ Y]]]; [apply (O2 b); split; assumption|].
    destruct (O3 b t j Y). contradiction.
  - intros b t' k X. destruct (Hv t' k) as [(-> & -> & Y)|[(-> & -> & Y & Z)|(Y & Z)]].
    + assert (b = a) as -> by congruence. split; [tauto|].
      intros [L|[Hne L]]; [contradiction|]. apply Hj in Hne. contradiction.
    + congruence.
    + rewrite Z in X. destruct (O3 b t' k X) as [Q1 Q2]. split; [tauto|].
      intros [L|[Hne L]]; [contradiction|].
      destruct (O4 b t' k t j X L) as [-> ->]. tauto.
  - intros b t1 k1 t2 k2 X1 X2.
    destruct (Hv t1 k1) as [(-> & -> & Y)|[(-> & -> & Y & Z)|(Y & Z)]]; [|congruence|].
    + assert (b = a) as -> by congruence.
      destruct (Hv t2 k2) as [(-> & -> & Y')|[(-> & -> & Y' & Z')|(Y' & Z')]]; [tauto|congruence|].
      rewrite Z' in X2. destruct (Hoth _ _ X2) as [-> ->]. tauto.
    + rewrite Z in X1.
      destruct (Hv t2 k2) as [(-> & -> & Y')|[(-> & -> & Y' & Z')|(Y' & Z')]]; [|congruence|].
      * assert (b = a) as -> by congruence. destruct (Hoth _ _ X1) as [-> ->]. tauto.
      * rewrite Z' in X2. eapply O4; eassumption.
Qed.

Lemma owner_copies h h' m m' mine lost t src pick :
  one_owner h m mine lost -> copies h h' m m' t src pick ->
  (forall id, src id <> None -> pick id = true -> m t id = None) ->
  one_owner h' m' mine lost.
Proof.
  intros (O1 & O2 & O3 & O4) (C1 & C2 & C3 & C4 & C5 & C6) Hnew.
  assert (Hv : forall t' k, (m' t' k = m t' k) \/
     (t' = t /\ src k <> None /\ pick k = true /\ m t' k = None /\
      exists b, m' t' k = Some b /\ h b = None)).
  { intros t' k. destruct (Nat.eq_dec t' t) as [->|Hne]; [|left; apply C1; assumption].
    destruct (src k) as [a|] eqn:Es; [|left; apply C2; left; assumption].
    destruct (pick k) eqn:Ep; [|left; apply C2; right; assumption].
    right. destruct (C3 k a Es Ep) as (b & B1 & B2 & _).
    repeat split; try congruence; [apply Hnew; congruence|exists b; split; assumption]. }
  assert (Hml : forall b, mine b \/ lost b -> h b <> None) by (intros b X; apply O1; tauto).
  assert (Hmm : forall t' k b, m t' k = Some b -> h b <> None).
  { intros t' k b X. apply O1. right; right; exists t', k; assumption. }
  split; [|split; [|split]].
  - intro b. rewrite C5. split.
    + intros [X|(X & k & K1 & K2 & K3)].
      * apply O1 in X as [X|[X|(t' & k & X)]]; [tauto|tauto|].
        right; right. exists t', k. destruct (Hv t' k) as [->|(_ & _ & _ & Y & _)]; congruence.
      * right; right. exists t, k. assumption.
    + intros [X|[X|(t' & k & X)]]; [left; apply Hml; tauto|left; apply Hml; tauto|].
      destruct (Hv t' k) as [Y|(-> & Y1 & Y2 & Y3 & b' & Y4 & Y5)].
      * left. rewrite Y in X. eapply Hmm; eassumption.
      * right. assert (b' = b) by congruence. subst. split; [assumption|].
        exists k. repeat split; assumption.
  - assumption.
  - intros b t' k X. destruct (Hv t' k) as [Y|(-> & Y1 & Y2 & Y3 & b' & Y4 & Y5)].
    + rewrite Y in X. eapply O3; eassumption.
    + assert (b' = b) by congruence. subst. split; intro M; apply (Hml b); tauto.
  - intros b t1 k1 t2 k2 X1 X2.
    destruct (Hv t1 k1) as [Y|(-> & Y1 & Y2 & Y3 & b' & Y4 & Y5)];
    destruct (Hv t2 k2) as [Z|(-> & Z1 & Z2 & Z3 & b2 & Z4 & Z5)].
    + rewrite Y in X1. rewrite Z in X2. eapply O4; eassumption.
    + rewrite Y in X1. apply Hmm in X1. congruence.
    + rewrite Z in X2. apply Hmm in X2. congruence.
    + split; [reflexivity|]. exact (C4 k1 k2 b Y1 Y2 Z1 Z2 X1 X2).
Qed.

Lemma owner_step o h h' m m' r mine lost :
  one_owner h m mine lost -> permitted o mine h m -> effect o h h' m m' r ->
  one_owner h' m' (mine_after o r mine) (fun b => lost b \/ displaced o m b).
Proof.
  intros O P E.
  destruct o as [c|a|t id a|t i j a|t i j a|t p q|t id|t f|t f|t f d|t|t id];
    cbn [permitted effect mine_after displaced] in *.
  - (* New *)
    destruct E as (Hm & a & -> & Ha & Ha' & Hh). destruct O as (O1 & O2 & O3 & O4).
    assert (Hna : ~ mine a /\ ~ lost a /\ forall t id, m t id <> Some a).
    { repeat split; [intro Y|intro Y|intros t id Y]; apply (proj2 (O1 a)); try tauto.
      right; right; exists t, id; assumption. }
    destruct Hna as (N1 & N2 & N3).
    split; [|split; [|split]].
    + intro b. destruct (Nat.eq_dec b a) as [->|Hne].
      * split; [intros _; left; right; reflexivity|intros _; congruence].
      * rewrite Hh by assumption. rewrite O1. split.
        -- intros [Y|[Y|(t & id & Y)]]; [tauto|tauto|]. right; right. exists t, id. rewrite Hm; assumption.
        -- intros [[Y|Y]|[[Y|[]]|(t & id & Y)]]; [tauto|congruence|tauto|].
           right; right. exists t, id. rewrite <- Hm; assumption.
    + intros b [[Y|Y] [Z|[]]]; [apply (O2 b); tauto|congruence].
    + intros b t id Y. rewrite Hm in Y. destruct (O3 b t id Y) as [Z1 Z2].
      split; [intros [Z|Z]; [contradiction|]|tauto].
      injection Z as <-. eapply N3; eassumption.
    + intros b t id t' id' Y Z. rewrite Hm in Y, Z. eapply O4; eassumption.
  - (* Delete *)
    destruct E as (Hm & -> & Ha & Ha' & Hh). destruct O as (O1 & O2 & O3 & O4).
    split; [|split; [|split]].
    + intro b. destruct (Nat.eq_dec b a) as [->|Hne].
      * split; [intro Y; contradiction|]. intros [[_ Y]|[[Y|[]]|(t & id & Y)]].
        -- contradiction.
        -- exfalso; apply (O2 a); split; assumption.
        -- rewrite Hm in Y. destruct (O3 a t id Y). contradiction.
      * rewrite Hh by assumption. rewrite O1. split.
        -- intros [Y|[Y|(t & id & Y)]]; [tauto|tauto|]. right; right. exists t, id. rewrite Hm; assumption.
        -- intros [[Y _]|[[Y|[]]|(t & id & Y)]]; [tauto|tauto|].
           right; right. exists t, id. rewrite <- Hm; assumption.
    + intros b [[Y _] [Z|[]]]. apply (O2 b); tauto.
    + intros b t id Y. rewrite Hm in Y. destruct (O3 b t id Y) as [Z1 Z2]. tauto.
    + intros b t id t' id' Y Z. rewrite Hm in Y, Z. eapply O4; eassumption.
  - (* Add *)
    destruct E as (Hfree & Hm & -> & Hh). destruct O as (O1 & O2 & O3 & O4).
    split; [|split; [|split]].
    + intro b. rewrite Hh, O1. split.
      * intros [Y|[Y|(t' & k & Y)]]; [|tauto|].
        -- destruct (Nat.eq_dec b a) as [->|]; [|left; split; assumption].
           right; right. exists t, id. rewrite Hm, upd_eq, Nat.eqb_refl, N.eqb_refl. reflexivity.
        -- right; right. exists t', k. rewrite Hm.
           destruct (upd_cases m t id (Some a) t' k) as [(-> & -> & _)|(_ & ->)]; [congruence|assumption].
      * intros [[Y _]|[[Y|[]]|(t' & k & Y)]]; [tauto|tauto|].
        rewrite Hm in Y. destruct (upd_cases m t id (Some a) t' k) as [(_ & _ & Z)|(_ & Z)]; rewrite Z in Y.
        -- injection Y as <-. left; assumption.
        -- right; right. exists t', k. assumption.
    + intros b [[Y _] [Z|[]]]. apply (O2 b); tauto.
    + intros b t' k Y. rewrite Hm in Y.
      destruct (upd_cases m t id (Some a) t' k) as [(_ & _ & Z)|(_ & Z)]; rewrite Z in Y.
      * injection Y as <-. split; [tauto|]. intros [L|[]]. apply (O2 a); split; assumption.
      * destruct (O3 b t' k Y). tauto.
    + intros b t1 k1 t2 k2 Y1 Y2. rewrite Hm in Y1, Y2.
      destruct (upd_cases m t id (Some a) t1 k1) as [(-> & -> & Z1)|(_ & Z1)]; rewrite Z1 in Y1;
      destruct (upd_cases m t id (Some a) t2 k2) as [(-> & -> & Z2)|(_ & Z2)]; rewrite Z2 in Y2.
      * tauto.
      * injection Y1 as <-. destruct (O3 a t2 k2 Y2). contradiction.
      * injection Y2 as <-. destruct (O3 a t1 k1 Y1). contradiction.
      * eapply O4; eassumption.
  - (* ReplaceId *)
    destruct E as (_ & Hj & Hm & -> & Hh).
    eapply owner_rename; try eassumption. intro b. rewrite Hh. tauto.
  - (* Rename *)
    destruct E as (_ & Hj & Hm & -> & c & Hc & Hc' & Hh).
    eapply owner_rename; try eassumption. intro b.
    destruct (Nat.eq_dec b a) as [->|]; [split; congruence|rewrite Hh by assumption; tauto].
  - (* ReplaceSym *)
    destruct E as (-> & co & cn & Hco & Hcn & Hid & E). destruct P as (Hmine & c & Hc & Hmt).
    assert (c = co) by congruence. subst c.
    destruct E as [(E & _)|(_ & Hm & Hold & Hh)]; [congruence|].
    destruct O as (O1 & O2 & O3 & O4).
    assert (Hpq : p <> q). { intros ->. destruct (O3 q t (c_id co) Hmt). contradiction. }
    split; [|split; [|split]].
    + intro b. destruct (Nat.eq_dec b p) as [->|Hne].
      * split; [intro Y; contradiction|]. destruct (O3 p t _ Hmt) as [Q1 Q2].
        intros [[Y _]|[[Y|[]]|(t' & k & Y)]]; [contradiction|contradiction|].
        rewrite Hm in Y. destruct (upd_cases m t (c_id co) (Some q) t' k) as [(_ & _ & Z)|(Z1 & Z)]; rewrite Z in Y.
        -- congruence.
        -- destruct (O4 p t' k t (c_id co) Y Hmt). tauto.
      * rewrite Hh by assumption. rewrite O1. split.
        -- intros [Y|[Y|(t' & k & Y)]]; [|tauto|].
           ++ destruct (Nat.eq_dec b q) as [->|]; [|left; split; assumption].
              right; right. exists t, (c_id co). rewrite Hm, upd_eq, Nat.eqb_refl, N.eqb_refl. reflexivity.
           ++ right; right. exists t', k. rewrite Hm.
              destruct (upd_cases m t (c_id co) (Some q) t' k) as [(-> & -> & _)|(_ & ->)]; [congruence|assumption].
        -- intros [[Y _]|[[Y|[]]|(t' & k & Y)]]; [tauto|tauto|].
           rewrite Hm in Y. destruct (upd_cases m t (c_id co) (Some q) t' k) as [(_ & _ & Z)|(_ & Z)]; rewrite Z in Y.
           ++ injection Y as <-. left; assumption.
           ++ right; right. exists t', k. assumption.
    + intros b [[Y _] [Z|[]]]. apply (O2 b); tauto.
    + intros b t' k Y. rewrite Hm in Y.
      destruct (upd_cases m t (c_id co) (Some q) t' k) as [(_ & _ & Z)|(_ & Z)]; rewrite Z in Y.
      * injection Y as <-. split; [tauto|]. intros [L|[]]. apply (O2 q); split; assumption.
      * destruct (O3 b t' k Y). tauto.
    + intros b t1 k1 t2 k2 Y1 Y2. rewrite Hm in Y1, Y2.
      destruct (upd_cases m t (c_id co) (Some q) t1 k1) as [(-> & -> & Z1)|(_ & Z1)]; rewrite Z1 in Y1;
      destruct (upd_cases m t (c_id co) (Some q) t2 k2) as [(-> & -> & Z2)|(_ & Z2)]; rewrite Z2 in Y2.
      * tauto.
      * injection Y1 as <-. destruct (O3 q t2 k2 Y2). contradiction.
      * injection Y2 as <-. destruct (O3 q t1 k1 Y1). contradiction.
      * eapply O4; eassumption.
  - (* Remove *)
    destruct E as (-> & Hm & Hh). destruct O as (O1 & O2 & O3 & O4).
    split; [|split; [|split]].
    + intro b. rewrite Hh, O1. split.
      * intros [Y|[Y|(t' & k & Y)]]; [tauto|tauto|].
        destruct (upd_cases m t id None t' k) as [(-> & -> & _)|(_ & Z)].
        -- left; right. assumption.
        -- right; right. exists t', k. rewrite Hm, Z. assumption.
      * intros [[Y|Y]|[[Y|[]]|(t' & k & Y)]]; [tauto| |tauto|].
        -- right; right. exists t, id. assumption.
        -- rewrite Hm in Y. destruct (upd_cases m t id None t' k) as [(_ & _ & Z)|(_ & Z)]; rewrite Z in Y;
             [discriminate|]. right; right. exists t', k. assumption.
    + intros b [[Y|Y] [Z|[]]]; [apply (O2 b); tauto|]. destruct (O3 b t id Y). contradiction.
    + intros b t' k Y. rewrite Hm in Y.
      destruct (upd_cases m t id None t' k) as [(_ & _ & Z)|(Z1 & Z)]; rewrite Z in Y; [discriminate|].
      destruct (O3 b t' k Y). split; [|tauto]. intros [M|M]; [contradiction|].
      destruct (O4 b t' k t id Y M). tauto.
    + intros b t1 k1 t2 k2 Y1 Y2. rewrite Hm in Y1, Y2.
      destruct (upd_cases m t id None t1 k1) as [(_ & _ & Z1)|(_ & Z1)]; rewrite Z1 in Y1; [discriminate|].
      destruct (upd_cases m t id None t2 k2) as [(_ & _ & Z2)|(_ & Z2)]; rewrite Z2 in Y2; [discriminate|].
      eapply O4; eassumption.
  - (* Copy *)
    destruct E as (-> & Hfree & E).
    assert (H : one_owner h' m' mine lost).
    { eapply owner_copies; [exact O|exact E|]. intros id Y _. apply Hfree; assumption. }
    destruct H as (A1 & A2 & A3 & A4). split; [|split; [|split]]; [..|assumption].
    + intro b. rewrite A1. tauto.
    + intros b [Y [Z|[]]]. apply (A2 b); tauto.
    + intros b t' k Y. destruct (A3 b t' k Y). tauto.
  - (* Merge *)
    destruct E as (-> & E).
    assert (H : one_owner h' m' mine lost).
    { eapply owner_copies; [exact O|exact E|]. intros id Y Z. cbn beta in Z.
      destruct (m t id); [discriminate|reflexivity]. }
    destruct H as (A1 & A2 & A3 & A4). split; [|split; [|split]]; [..|assumption].
    + intro b. rewrite A1. tauto.
    + intros b [Y [Z|[]]]. apply (A2 b); tauto.
    + intros b t' k Y. destruct (A3 b t' k Y). tauto.
  - (* Diff *)
    destruct E as (-> & Hfree & E).
    assert (H : one_owner h' m' mine lost).
    { eapply owner_copies; [exact O|exact E|]. intros id Y Z. cbn beta in Z. apply Hfree; [assumption|].
      destruct (m f id); [discriminate|reflexivity]. }
    destruct H as (A1 & A2 & A3 & A4). split; [|split; [|split]]; [..|assumption].
    + intro b. rewrite A1. tauto.
    + intros b [Y [Z|[]]]. apply (A2 b); tauto.
    + intros b t' k Y. destruct (A3 b t' k Y). tauto.
  - (* Clear *)
    destruct E as (-> & Hm & Hh & Hk). destruct O as (O1 & O2 & O3 & O4).
    assert (Hv : forall t' k b, m' t' k = Some b <-> t' <> t /\ m t' k = Some b).
    { intros t' k b. rewrite Hm. destruct (Nat.eqb_spec t' t); split; [discriminate|tauto|tauto|tauto]. }
    assert (Hl : forall b, h' b <> None <-> h b <> None /\ forall id, m t id <> Some b).
    { intro b. split.
      - intro Y. split; [intro Z; apply Y; apply Hh; tauto|].
        intros id Z. apply Y, Hh. right; exists id; assumption.
      - intros [Y Z] W. apply Hh in W as [W|(id & W)]; [contradiction|]. eapply Z; eassumption. }
    split; [|split; [|split]].
    + intro b. rewrite Hl, O1. split.
      * intros [[Y|[Y|(t' & k & Y)]] Z]; [tauto|tauto|].
        right; right. exists t', k. apply Hv. split; [|assumption].
        intros ->. eapply Z; eassumption.
      * intros [Y|[[Y|[]]|(t' & k & Y)]].
        -- split; [tauto|]. intros id Z. destruct (O3 b t id Z). contradiction.
        -- split; [tauto|]. intros id Z. destruct (O3 b t id Z). contradiction.
        -- apply Hv in Y as [Y1 Y2]. split; [right; right; exists t', k; assumption|].
           intros id Z. destruct (O4 b t' k t id Y2 Z). contradiction.
    + intros b [Y [Z|[]]]. apply (O2 b); tauto.
    + intros b t' k Y. apply Hv in Y as [_ Y]. destruct (O3 b t' k Y). tauto.
    + intros b t1 k1 t2 k2 Y1 Y2. apply Hv in Y1 as [_ Y1]. apply Hv in Y2 as [_ Y2].
      eapply O4; eassumption.
  - (* Find *)
    destruct E as (-> & Hm & Hh). destruct O as (O1 & O2 & O3 & O4).
    split; [|split; [|split]].
    + intro b. rewrite Hh, O1. split.
      * intros [Y|[Y|(t' & k & Y)]]; [tauto|tauto|]. right; right. exists t', k. rewrite Hm; assumption.
      * intros [Y|[[Y|[]]|(t' & k & Y)]]; [tauto|tauto|]. right; right. exists t', k. rewrite <- Hm; assumption.
    + intros b [Y [Z|[]]]. apply (O2 b); tauto.
    + intros b t' k Y. rewrite Hm in Y. destruct (O3 b t' k Y). tauto.
    + intros b t1 k1 t2 k2 Y1 Y2. rewrite Hm in Y1, Y2. eapply O4; eassumption.
Qed.
