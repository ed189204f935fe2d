(* SymTableTheorems.v: symbol tables are finite maps and own their symbols (C43). *)
From Coq Require Import List NArith Lia Bool PeanoNat Sorting.Sorted Permutation.
From Coq Require Import ZifyBool ZifyNat ZifyN.
From Verif Require Import Base SourceStreamModel SourceStreamProofs SymTableModel SymTableSpec SymTableProofs SymTableOwners.
Import ListNotations.
Open Scope N_scope.

Lemma wf_start n : wf n (start n).
Proof.
  split; cbn; [apply repeat_length|]. apply Forall_forall. intros x Hx.
  apply repeat_spec in Hx. subst. constructor.
Qed.

Lemma maps_start n t id : maps_of (start n) t id = None.
Proof.
  unfold maps_of, getSymbolPtr, tab, start; cbn [w_tabs].
  match goal with |- find_id ?x _ = _ => enough (E : x = []) by (rewrite E; reflexivity) end.
  destruct (nth_in_or_default t (repeat ([] : table) n) []) as [H|H]; [|exact H].
  apply repeat_spec in H. exact H.
Qed.

Lemma owner_start n : one_owner (live_of (start n)) (maps_of (start n)) nobody nobody.
Proof.
  split; [|split; [|split]].
  - intro a. assert (E : live_of (start n) a = None) by (destruct a; reflexivity). rewrite E.
    split; [intro H; contradiction|intros [[]|[[]|(t & id & H)]]; rewrite maps_start in H; discriminate].
  - intros a [[] _].
  - intros a t id H. rewrite maps_start in H. discriminate.
  - intros a t id t' id' H. rewrite maps_start in H. discriminate.
Qed.

Lemma owner_held w mine lost : one_owner (live_of w) (maps_of w) mine lost -> held w.
Proof. intros (O1 & _) t id a H. apply O1. right; right; exists t, id; assumption. Qed.

Lemma history_inv n os w mine lost : history n os w mine lost ->
  wf n w /\ one_owner (live_of w) (maps_of w) mine lost.
Proof.
  induction 1 as [|os w mine lost o w' r H [IH1 IH2] Hin Hp Hs].
  - split; [apply wf_start|apply owner_start].
  - destruct (step_effect n w o w' r IH1 (owner_held _ _ _ IH2) Hin Hs) as [Hw' He].
    split; [assumption|]. eapply owner_step; eassumption.
Qed.

Lemma named_is_history n os w mine lost : named_history n os w mine lost -> history n os w mine lost.
Proof. induction 1; econstructor; eassumption. Qed.

(* After any history of permitted calls, an accepted call has exactly the effect of the finite map
   operation: on the table it names, on every other table, on the symbols, and in its result. *)
Theorem C43_map n os w mine lost o w' r :
  history n os w mine lost -> (forall t, In t (tables_of o) -> (t < n)%nat) ->
  step w o = Done w' r ->
  effect o (live_of w) (live_of w') (maps_of w) (maps_of w') r.
Proof.
  intros H Hin Hs. apply history_inv in H as [Hw Ho].
  eapply step_effect; [exact Hw|eapply owner_held; exact Ho|exact Hin|exact Hs].
Qed.
Print Assumptions C43_map.

(* Every symbol that exists has one owner: a table entry, the caller, or nobody (displaced). *)
Theorem C43_owners n os w mine lost :
  history n os w mine lost -> one_owner (live_of w) (maps_of w) mine lost.
Proof. intro H. apply history_inv in H as [_ H]. exact H. Qed.
Print Assumptions C43_owners.

(* ---- nothing dead is touched ---- *)

Lemma isIn_undef w t id : held w -> isInTable w t id <> Undefined.
Proof.
  intros Hh H. unfold isInTable in H. fold (getSymbolPtr w t id) in H.
  change (getSymbolPtr w t id) with (maps_of w t id) in H.
  destruct (maps_of w t id) as [a|] eqn:E; [|discriminate].
  apply Hh in E. unfold live_of in E. destruct (at_addr (w_heap w) a) as [c|]; [|contradiction].
  destruct (c_id c =? id); discriminate.
Qed.

Lemma clone_keeps n w t id a w' : wf n w -> (t < n)%nat -> held w ->
  cloneInto w t id a = Done w' tt ->
  wf n w' /\ held w' /\ forall b, live_of w b <> None -> live_of w' b <> None.
Proof.
  intros Hw Ht Hh H. destruct (clone_done n _ _ _ _ _ Hw Ht H) as (c & Hc & Hf & Hw1 & Hl & Hlen & Hm).
  assert (K : forall b, live_of w b <> None -> live_of w' b <> None).
  { intros b Hb. rewrite Hl. destruct (Nat.eqb b _); [discriminate|assumption]. }
  split; [assumption|]. split; [|assumption].
  intros t' k x Hx. rewrite Hm in Hx.
  destruct (upd_cases (maps_of w) t id (Some (List.length (w_heap w))) t' k) as [(_ & _ & Z)|(_ & Z)];
    rewrite Z in Hx.
  - injection Hx as <-. rewrite Hl, Nat.eqb_refl. discriminate.
  - apply K. eapply Hh; eassumption.
Qed.

Lemma copy_undef n t es : (t < n)%nat -> forall w, wf n w -> held w ->
  (forall k a, In (k, a) es -> live_of w a <> None) -> copyEntries w t es <> Undefined.
Proof.
  intro Ht. induction es as [|[id a] r IH]; intros w Hw Hh Hl; cbn [copyEntries]; [discriminate|].
  destruct (cloneInto w t id a) as [w1 x| |] eqn:E; cbn [bind].
  - rewrite (unit_eta x) in E. destruct (clone_keeps n _ _ _ _ _ Hw Ht Hh E) as (K1 & K2 & K3).
    apply IH; try assumption. intros k b Hb. apply K3. eapply Hl. right; eassumption.
  - discriminate.
  - apply (clone_undef n) in E; try assumption. exfalso. eapply Hl; [left; reflexivity|exact E].
Qed.

Lemma merge_undef n t es : (t < n)%nat -> forall w, wf n w -> held w ->
  (forall k a, In (k, a) es -> live_of w a <> None) -> mergeEntries w t es <> Undefined.
Proof.
  intro Ht. induction es as [|[id a] r IH]; intros w Hw Hh Hl; cbn [mergeEntries]; [discriminate|].
  assert (Ha : live_of w a <> None) by (eapply Hl; left; reflexivity).
  assert (Hr : forall k b, In (k, b) r -> live_of w b <> None) by (intros k b Hb; eapply Hl; right; eassumption).
  destruct (isInTable w t id) as [w0 y| |] eqn:E0; cbn [bind].
  - apply isIn_done in E0 as [-> ->]. destruct (maps_of w t id).
    + unfold live_of in Ha. destruct (at_addr (w_heap w) a); [apply IH; assumption|contradiction].
    + destruct (cloneInto w t id a) as [w1 x| |] eqn:E; cbn [bind].
      * rewrite (unit_eta x) in E. destruct (clone_keeps n _ _ _ _ _ Hw Ht Hh E) as (K1 & K2 & K3).
        apply IH; try assumption. intros k b Hb. apply K3. eapply Hr; eassumption.
      * discriminate.
      * apply (clone_undef n) in E; try assumption. contradiction.
  - discriminate.
  - apply isIn_undef in E0; [destruct E0|assumption].
Qed.

Lemma diff_undef n f d es : (d < n)%nat -> forall w, wf n w -> held w ->
  (forall k a, In (k, a) es -> live_of w a <> None) -> diffEntries w f d es <> Undefined.
Proof.
  intro Ht. induction es as [|[id a] r IH]; intros w Hw Hh Hl; cbn [diffEntries]; [discriminate|].
  assert (Ha : live_of w a <> None) by (eapply Hl; left; reflexivity).
  assert (Hr : forall k b, In (k, b) r -> live_of w b <> None) by (intros k b Hb; eapply Hl; right; eassumption).
  destruct (isInTable w f id) as [w0 y| |] eqn:E0; cbn [bind].
  - apply isIn_done in E0 as [-> ->]. destruct (maps_of w f id).
    + apply IH; assumption.
    + destruct (cloneInto w d id a) as [w1 x| |] eqn:E; cbn [bind].
      * rewrite (unit_eta x) in E. destruct (clone_keeps n _ _ _ _ _ Hw Ht Hh E) as (K1 & K2 & K3).
        apply IH; try assumption. intros k b Hb. apply K3. eapply Hr; eassumption.
      * discriminate.
      * apply (clone_undef n) in E; try assumption. contradiction.
  - discriminate.
  - apply isIn_undef in E0; [destruct E0|assumption].
Qed.

Lemma entries_live n w t : wf n w -> held w -> forall k a, In (k, a) (tab w t) -> live_of w a <> None.
Proof.
  intros Hw Hh k a Hi. apply (Hh t k a). unfold maps_of, getSymbolPtr.
  apply find_in; [eapply wf_tab; eassumption|assumption].
Qed.

(* A permitted call never reads or deletes a symbol that is gone: so no symbol is deleted twice. *)
Theorem C43_no_dangling n os w mine lost o :
  history n os w mine lost -> (forall t, In t (tables_of o) -> (t < n)%nat) ->
  permitted o mine (live_of w) (maps_of w) ->
  step w o <> Undefined.
Proof.
  intros H Hin Hp Hs. apply history_inv in H as [Hw Ho].
  pose proof (owner_held _ _ _ Ho) as Hh. pose proof Ho as (O1 & O2 & O3 & O4).
  destruct o as [c|a|t id a|t i j a|t i j a|t p q|t id|t f|t f|t f d|t|t id];
    cbn [step tables_of permitted] in *;
    try (assert (Ht : (t < n)%nat) by (apply Hin; left; reflexivity));
    try apply ok_unit_undef in Hs.
  - discriminate.
  - unfold free in Hs. fold (live_of w a) in Hs.
    assert (X : live_of w a <> None) by (apply O1; left; assumption).
    destruct (live_of w a); [discriminate|contradiction].
  - rewrite (add_eq n) in Hs by assumption. destruct (maps_of w t id); discriminate.
  - destruct (replaceId_cases n w t i j a Hw Ht) as [(w2 & E & _)|(w2 & E & _)]; congruence.
  - unfold renameSym in Hs. fold (live_of w a) in Hs.
    assert (X : live_of w a <> None).
    { apply O1. destruct Hp as [Hp|[_ Hp]]; [right; right; exists t, i; assumption|left; assumption]. }
    destruct (live_of w a) as [c|]; [|contradiction].
    match type of Hs with replaceId ?w0 _ _ _ _ = _ => set (w1 := w0) in * end.
    assert (Hw1 : wf n w1) by exact Hw.
    destruct (replaceId_cases n w1 t i j a Hw1 Ht) as [(w2 & E & _)|(w2 & E & _)]; congruence.
  - destruct Hp as (Hq & c & Hc & Hm).
    assert (X : live_of w q <> None) by (apply O1; left; assumption).
    unfold replaceSym in Hs. fold (live_of w p) in Hs. fold (live_of w q) in Hs.
    rewrite Hc in Hs. destruct (live_of w q) as [cq|]; [|contradiction].
    destruct (c_id c =? c_id cq); [|discriminate].
    fold (getSymbolPtr w t (c_id c)) in Hs.
    change (getSymbolPtr w t (c_id c)) with (maps_of w t (c_id c)) in Hs. rewrite Hm in Hs.
    rewrite Nat.eqb_refl in Hs. unfold free in Hs. cbn [put w_heap] in Hs.
    fold (live_of w p) in Hs. rewrite Hc in Hs. discriminate.
  - unfold removeFromTable in Hs. destruct (find_id (tab w t) id); discriminate.
  - revert Hs. apply (copy_undef n); try assumption. eapply entries_live; eassumption.
  - revert Hs. apply (merge_undef n); try assumption. eapply entries_live; eassumption.
  - unfold mergedTableDifferences in Hs. destruct (_ <? _); [|discriminate].
    assert (Hd : (d < n)%nat) by (apply Hin; right; right; left; reflexivity).
    pose proof (diff_undef n f d (tab w t) Hd w Hw Hh (entries_live n w t Hw Hh)) as X.
    destruct (diffEntries w f d (tab w t)); cbn [bind] in Hs; [|discriminate|contradiction].
    destruct (_ =? _); discriminate.
  - unfold clearTheTable in Hs.
    destruct (freeAll_ok w (tab w t)) as [w1 E].
    + pose proof (wf_tab n w t Hw) as Hok.
      assert (Hinj : forall i j b, In (i, b) (tab w t) -> In (j, b) (tab w t) -> i = j).
      { intros i j b Hi Hj. apply (find_in _ _ _ Hok) in Hi. apply (find_in _ _ _ Hok) in Hj.
        destruct (O4 b t i t j Hi Hj). assumption. }
      clear - Hok Hinj. induction (tab w t) as [|[k b] l IH]; cbn; constructor.
      * intro X. apply in_map_iff in X as ([k' b'] & E & Y). cbn in E. subst b'.
        assert (k = k') as <- by (eapply Hinj; [left; reflexivity|right; exact Y]).
        apply (okt_notin _ _ _ Hok). change k with (fst (k, b)). apply in_map; assumption.
      * apply IH; [apply okt_inv in Hok as [Hok _]; assumption|].
        intros i j c Hi Hj. eapply Hinj; right; eassumption.
    + intros a Ha. apply (vals_find n) in Ha as [id Ha]; [|assumption]. eapply Hh; eassumption.
    + rewrite E in Hs. cbn [bind] in Hs. discriminate.
  - revert Hs. apply isIn_undef; assumption.
Qed.
Print Assumptions C43_no_dangling.

(* ---- rejected calls ---- *)

Lemma copy_rejected n t es : (t < n)%nat -> NoDup (keys es) -> forall w, wf n w -> held w ->
  (forall k a, In (k, a) es -> live_of w a <> None) ->
  (exists w', copyEntries w t es = Rejected w') <-> exists id, maps_of w t id <> None /\ In id (keys es).
Proof.
  intro Ht. induction es as [|[id a] r IH]; intros Hnd w Hw Hh Hl; cbn [copyEntries].
  - split; [intros [w' H]; discriminate|intros (id & _ & [])].
  - cbn [keys map fst] in *. inversion Hnd as [|? ? Hni Hnd']; subst.
    destruct (cloneInto w t id a) as [w1 x|w1|] eqn:E; cbn [bind].
    + rewrite (unit_eta x) in E. destruct (clone_keeps n _ _ _ _ _ Hw Ht Hh E) as (K1 & K2 & K3).
      destruct (clone_done n _ _ _ _ _ Hw Ht E) as (c & _ & Hfree & _ & _ & _ & Hm).
      rewrite (IH Hnd' w1 K1 K2) by (intros k b Hb; apply K3; eapply Hl; right; eassumption).
      assert (Heq : forall k, k <> id -> maps_of w1 t k = maps_of w t k).
      { intros k Hk. rewrite Hm. unfold upd. destruct (N.eqb_spec k id); [contradiction|].
        rewrite andb_false_r. reflexivity. }
      split.
      * intros (k & Hk1 & Hk2). exists k. split; [|right; assumption].
        rewrite <- Heq; [assumption|]. intros ->. contradiction.
      * intros (k & Hk1 & [<-|Hk2]); [congruence|]. exists k. split; [|assumption].
        rewrite Heq; [assumption|]. intros ->. contradiction.
    + split; [|intros _; eexists; reflexivity]. intros _. exists id. split; [|left; reflexivity].
      eapply clone_rej; eassumption.
    + apply (clone_undef n) in E; try assumption. exfalso. eapply Hl; [left; reflexivity|exact E].
Qed.

Definition is_diff (o : op) : bool := match o with Diff _ _ _ | Merge _ _ | Find _ _ => true | _ => false end.
Definition is_copy (o : op) : bool := match o with Copy _ _ => true | _ => false end.

(* The calls an assert refuses are exactly the [refused] ones, and a call on a single entry that is
   refused has changed no table.  (Find, Merge and Diff are the subject of C43_lookup.) *)
Theorem C43_rejected n os w mine lost o :
  history n os w mine lost -> (forall t, In t (tables_of o) -> (t < n)%nat) ->
  is_diff o = false -> step w o <> Undefined ->
  ((exists w', step w o = Rejected w') <-> refused o (live_of w) (maps_of w)) /\
  (forall w', step w o = Rejected w' -> is_copy o = false -> w_tabs w' = w_tabs w).
Proof.
  intros H Hin Hd Hu. apply history_inv in H as [Hw Ho].
  pose proof (owner_held _ _ _ Ho) as Hh. pose proof Ho as (O1 & O2 & O3 & O4).
  destruct o as [c|a|t id a|t i j a|t i j a|t p q|t id|t f|t f|t f d|t|t id];
    cbn [step tables_of refused is_diff is_copy] in *;
    try (assert (Ht : (t < n)%nat) by (apply Hin; left; reflexivity)); try discriminate.
  - split; [split; [intros [w' H]; discriminate|intros []]|intros; discriminate].
  - unfold free in *. destruct (at_addr (w_heap w) a); [|contradiction Hu; reflexivity].
    split; [split; [intros [w' H]; discriminate|intros []]|intros; discriminate].
  - rewrite (add_eq n) by assumption. destruct (maps_of w t id) eqn:E; cbn [ok_unit bind].
    + split; [split; [intros _; discriminate|intros _; eexists; reflexivity]|].
      intros w' [= <-] _. rewrite (put_same n) by assumption. reflexivity.
    + split; [split; [intros [w' H]; discriminate|intro X; contradiction]|intros; discriminate].
  - destruct (replaceId_cases n w t i j a Hw Ht) as
      [(w2 & -> & _ & _ & H3 & H4 & _)|(w2 & -> & _ & H3 & H4)]; cbn [ok_unit bind].
    + split; [split; [intros [w' H]; discriminate|]|intros; discriminate].
      intros [(b & B1 & B2)|[B1 B2]]; [destruct H3; congruence|]. exfalso. apply (H4 B1 B2).
    + split; [split; [intros _; assumption|intros _; eexists; reflexivity]|].
      intros w' [= <-] _. destruct H4 as [(B1 & B2 & B3)|B]; [|congruence].
      destruct (O4 a t i t j B1 B2). contradiction.
  - unfold renameSym in *. fold (live_of w a) in *. destruct (live_of w a) as [c|]; [|contradiction Hu; reflexivity].
    set (w1 := mkW (set_nth a (Some (mkCell j (c_data c))) (w_heap w)) (w_tabs w)) in *.
    assert (Hw1 : wf n w1) by exact Hw.
    assert (Hm1 : forall t' k, maps_of w1 t' k = maps_of w t' k) by reflexivity.
    destruct (replaceId_cases n w1 t i j a Hw1 Ht) as
      [(w2 & -> & _ & _ & H3 & H4 & _)|(w2 & -> & _ & H3 & H4)]; cbn [ok_unit bind].
    + rewrite !Hm1 in *. split; [split; [intros [w' H]; discriminate|]|intros; discriminate].
      intros [(b & B1 & B2)|[B1 B2]]; [destruct H3; congruence|]. exfalso. apply (H4 B1 B2).
    + rewrite !Hm1 in *. split; [split; [intros _; assumption|intros _; eexists; reflexivity]|].
      intros w' [= <-] _. destruct H4 as [(B1 & B2 & B3)|B]; [|rewrite B; reflexivity].
      destruct (O4 a t i t j B1 B2). contradiction.
  - unfold replaceSym in *. fold (live_of w p) in *. fold (live_of w q) in *.
    destruct (live_of w p) as [cp|]; [|contradiction Hu; reflexivity].
    destruct (live_of w q) as [cq|]; [|contradiction Hu; reflexivity].
    fold (getSymbolPtr w t (c_id cp)) in *.
    change (getSymbolPtr w t (c_id cp)) with (maps_of w t (c_id cp)) in *.
    destruct (N.eqb_spec (c_id cp) (c_id cq)) as [Hid|Hid].
    + destruct (maps_of w t (c_id cp)) as [x|] eqn:Em.
      * destruct (Nat.eqb_spec x p) as [->|Hne].
        -- unfold free in *. destruct (at_addr _ p); [|contradiction Hu; reflexivity].
           cbn [ok_unit bind]. split; [split; [intros [w' H]; discriminate|]|intros; discriminate].
           intros (co & cn & [= <-] & [= <-] & [B|(b & B1 & B2)]); congruence.
        -- cbn [ok_unit bind]. split; [split; [|intros _; eexists; reflexivity]|intros w' [= <-]; reflexivity].
           intros _. exists cp, cq. repeat split. right. exists x. split; [assumption|assumption].
      * cbn [ok_unit bind]. split; [split; [intros [w' H]; discriminate|]|intros; discriminate].
        intros (co & cn & [= <-] & [= <-] & [B|(b & B1 & B2)]); congruence.
    + cbn [ok_unit bind]. split; [split; [|intros _; eexists; reflexivity]|intros w' [= <-]; reflexivity].
      intros _. exists cp, cq. repeat split. left. assumption.
  - unfold removeFromTable. destruct (find_id (tab w t) id);
      (split; [split; [intros [w' H]; discriminate|intros []]|intros; discriminate]).
  - unfold copyATableHere in *. split; [|intros; discriminate].
    transitivity (exists w', copyEntries w t (tab w f) = Rejected w').
    { split; intros [w' H]; exists w'; apply ok_unit_rej; assumption. }
    rewrite (copy_rejected n); try assumption.
    + split; intros (id & X1 & X2); exists id; (split; [assumption|]); apply find_key; assumption.
    + apply okt_nodup. eapply wf_tab; eassumption.
    + eapply entries_live; eassumption.
  - unfold clearTheTable in *.
    assert (X : forall w0 es w1, freeAll w0 es <> Rejected w1).
    { intros w0 es; revert w0; induction es as [|[k b] l IH]; intros w0 w1; cbn [freeAll]; [discriminate|].
      unfold free. destruct (at_addr (w_heap w0) b); cbn [bind]; [apply IH|discriminate]. }
    destruct (freeAll w (tab w t)) as [w1 x|w1|] eqn:E; cbn [ok_unit bind] in *.
    + split; [split; [intros [w' H]; discriminate|intros []]|intros; discriminate].
    + apply X in E. destruct E.
    + contradiction Hu; reflexivity.
Qed.
Print Assumptions C43_rejected.

(* ---- names ---- *)

Lemma filed_step o h h' m m' r mine lost :
  one_owner h m mine lost -> permitted o mine h m -> well_named o h ->
  effect o h h' m m' r -> filed h m -> filed h' m'.
Proof.
  intros (O1 & O2 & O3 & O4) P W E F.
  assert (Same : same m m' -> (forall t id b, m t id = Some b -> h' b = h b) -> filed h' m').
  { intros S Hl t id b Hb. rewrite S in Hb. rewrite (Hl _ _ _ Hb). eapply F; eassumption. }
  assert (Cop : forall t src pick, copies h h' m m' t src pick ->
            (forall id a, src id = Some a -> exists c, h a = Some c /\ c_id c = id) -> filed h' m').
  { intros t src pick (C1 & C2 & C3 & C4 & C5 & C6) Hsrc t' k b Hb.
    assert (Old : m t' k = Some b -> exists c, h' b = Some c /\ c_id c = k).
    { intro X. destruct (F t' k b X) as (c & X1 & X2). exists c. split; [|assumption].
      rewrite C6; congruence. }
    destruct (Nat.eq_dec t' t) as [->|Hne]; [|apply Old; rewrite <- C1; assumption].
    destruct (src k) as [a|] eqn:Es; [|apply Old; rewrite <- (C2 k); tauto].
    destruct (pick k) eqn:Ep; [|apply Old; rewrite <- (C2 k); tauto].
    destruct (C3 k a Es Ep) as (b' & B1 & B2 & B3 & B4).
    assert (b' = b) by congruence. subst b'.
    destruct (Hsrc k a Es) as (c & Q1 & Q2). exists c. split; [congruence|assumption]. }
  destruct o as [c|a|t id a|t i j a|t i j a|t p q|t id|t f|t f|t f d|t|t id];
    cbn [permitted effect well_named] in *.
  - destruct E as (S & a & -> & Ha & Ha' & Hh). apply Same; [assumption|].
    intros t id b Hb. apply Hh. intros ->. destruct (F t id a Hb) as (c' & X & _). congruence.
  - destruct E as (S & -> & Ha & Ha' & Hh). apply Same; [assumption|].
    intros t id b Hb. apply Hh. intros ->. destruct (O3 a t id Hb). contradiction.
  - destruct E as (Hn & S & -> & Hh). destruct W as (c & W1 & W2). intros t' k b Hb.
    rewrite S in Hb. rewrite Hh.
    destruct (upd_cases m t id (Some a) t' k) as [(-> & -> & Z)|(_ & Z)]; rewrite Z in Hb.
    + injection Hb as <-. exists c. split; assumption.
    + eapply F; eassumption.
  - destruct E as (_ & Hj & S & -> & Hh). destruct W as (c & W1 & W2). intros t' k b Hb.
    rewrite S in Hb. rewrite Hh.
    destruct (upd_cases (upd m t i None) t j (Some a) t' k) as [(-> & -> & Z)|(_ & Z)]; rewrite Z in Hb.
    + injection Hb as <-. exists c. split; assumption.
    + destruct (upd_cases m t i None t' k) as [(_ & _ & Z')|(_ & Z')]; rewrite Z' in Hb;
        [discriminate|eapply F; eassumption].
  - destruct E as (_ & Hj & S & -> & c & Hc & Hc' & Hh). intros t' k b Hb.
    rewrite S in Hb.
    destruct (upd_cases (upd m t i None) t j (Some a) t' k) as [(-> & -> & Z)|(N1 & Z)]; rewrite Z in Hb.
    + injection Hb as <-. exists (mkCell j (c_data c)). split; [assumption|reflexivity].
    + destruct (upd_cases m t i None t' k) as [(_ & _ & Z')|(N2 & Z')]; rewrite Z' in Hb;
        [discriminate|].
      rewrite Hh; [eapply F; eassumption|]. intros ->.
      destruct P as [P|[_ P]]; [|destruct (O3 a t' k Hb); contradiction].
      destruct (O4 a t' k t i Hb P). tauto.
  - destruct E as (-> & co & cn & Hco & Hcn & Hid & [(_ & S & Hh)|(Hm & S & Hd & Hh)]).
    + apply Same; [assumption|]. intros; apply Hh.
    + destruct P as (Hq & _). intros t' k b Hb. rewrite S in Hb.
      destruct (upd_cases m t (c_id co) (Some q) t' k) as [(-> & -> & Z)|(N1 & Z)]; rewrite Z in Hb.
      * injection Hb as <-. exists cn. split; [|congruence]. rewrite Hh; [assumption|].
        intros ->. destruct (O3 p t _ Hm). contradiction.
      * rewrite Hh; [eapply F; eassumption|]. intros ->.
        destruct (O4 p t' k t (c_id co) Hb Hm). tauto.
  - destruct E as (-> & S & Hh). intros t' k b Hb. rewrite S in Hb. rewrite Hh.
    destruct (upd_cases m t id None t' k) as [(_ & _ & Z')|(N2 & Z')]; rewrite Z' in Hb;
      [discriminate|eapply F; eassumption].
  - destruct E as (-> & _ & E). eapply Cop; [exact E|]. intros id a X. eapply F; eassumption.
  - destruct E as (-> & E). eapply Cop; [exact E|]. intros id a X. eapply F; eassumption.
  - destruct E as (-> & _ & E). eapply Cop; [exact E|]. intros id a X. eapply F; eassumption.
  - destruct E as (-> & Hm & Hh & Hk). intros t' k b Hb. rewrite Hm in Hb.
    destruct (Nat.eqb_spec t' t) as [|Hne]; [discriminate|].
    rewrite Hk; [eapply F; eassumption|]. intro X. apply Hh in X as [X|(id & X)].
    + destruct (F t' k b Hb) as (c & Y & _). congruence.
    + destruct (O4 b t' k t id Hb X). contradiction.
  - destruct E as (-> & S & Hh). apply Same; [assumption|]. intros; apply Hh.
Qed.

Lemma named_filed n os w mine lost : named_history n os w mine lost -> filed (live_of w) (maps_of w).
Proof.
  induction 1 as [|os w mine lost o w' r H IH Hin Hp Hn Hs].
  - intros t id a X. rewrite maps_start in X. discriminate.
  - apply named_is_history in H. apply history_inv in H as [Hw Ho].
    destruct (step_effect n w o w' r Hw (owner_held _ _ _ Ho) Hin Hs) as [_ He].
    eapply filed_step; eassumption.
Qed.

Lemma merge_ok n t es : (t < n)%nat -> NoDup (keys es) -> forall w, wf n w -> held w ->
  filed (live_of w) (maps_of w) ->
  (forall k a, In (k, a) es -> exists c, live_of w a = Some c /\ c_id c = k) ->
  exists w', mergeEntries w t es = Done w' tt.
Proof.
  intro Ht. induction es as [|[id a] r IH]; intros Hnd w Hw Hh Hf Hl; cbn [mergeEntries];
    [eexists; reflexivity|].
  cbn [keys map fst] in Hnd. inversion Hnd as [|? ? Hni Hnd']; subst.
  destruct (Hl id a (or_introl eq_refl)) as (c & Hc1 & Hc2).
  assert (E : isInTable w t id = Done w (maps_of w t id)).
  { unfold isInTable. fold (getSymbolPtr w t id). change (getSymbolPtr w t id) with (maps_of w t id).
    destruct (maps_of w t id) as [b|] eqn:Eb; [|reflexivity].
    destruct (Hf t id b Eb) as (cb & B1 & B2). unfold live_of in B1. rewrite B1.
    rewrite B2, N.eqb_refl. reflexivity. }
  rewrite E. cbn [bind]. destruct (maps_of w t id) as [b|] eqn:Eb.
  - unfold live_of in Hc1. rewrite Hc1. apply IH; try assumption.
    intros k x Hx. apply Hl. right; assumption.
  - destruct (cloneInto w t id a) as [w1 x|w1|] eqn:E1; cbn [bind].
    + rewrite (unit_eta x) in E1. destruct (clone_keeps n _ _ _ _ _ Hw Ht Hh E1) as (K1 & K2 & _).
      destruct (clone_done n _ _ _ _ _ Hw Ht E1) as (c' & C1 & _ & _ & Hlv & _ & Hm).
      assert (Keep : forall b c0, live_of w b = Some c0 -> live_of w1 b = Some c0).
      { intros b c0 X. rewrite Hlv. destruct (Nat.eqb_spec b (List.length (w_heap w))) as [->|]; [|assumption].
        unfold live_of in X. rewrite at_len in X. discriminate. }
      apply IH; try assumption.
      * intros t' k y Hy. rewrite Hm in Hy.
        destruct (upd_cases (maps_of w) t id (Some (List.length (w_heap w))) t' k) as [(-> & -> & Z)|(_ & Z)];
          rewrite Z in Hy.
        -- injection Hy as <-. exists c'. split; [rewrite Hlv, Nat.eqb_refl; reflexivity|congruence].
        -- destruct (Hf t' k y Hy) as (c0 & Q1 & Q2). exists c0. split; [apply Keep; assumption|assumption].
      * intros k y Hy. destruct (Hl k y (or_intror Hy)) as (c0 & Q1 & Q2). exists c0.
        split; [apply Keep; assumption|assumption].
    + apply (clone_rej n) in E1; try assumption. congruence.
    + apply (clone_undef n) in E1; try assumption. congruence.
Qed.

(* When symbols are put into tables under their own names, a lookup answers what the finite map
   holds, merging tables is never refused, and every entry is filed under its symbol's name. *)
Theorem C43_lookup n os w mine lost t id f :
  named_history n os w mine lost -> (t < n)%nat -> (f < n)%nat ->
  step w (Find t id) = Done w (maps_of w t id) /\
  (exists w', step w (Merge t f) = Done w' None) /\
  filed (live_of w) (maps_of w).
Proof.
  intros H Ht Hf. pose proof (named_filed _ _ _ _ _ H) as F.
  apply named_is_history in H. apply history_inv in H as [Hw Ho].
  pose proof (owner_held _ _ _ Ho) as Hh.
  split; [|split; [|assumption]].
  - cbn [step]. unfold isInTable. fold (getSymbolPtr w t id).
    change (getSymbolPtr w t id) with (maps_of w t id).
    destruct (maps_of w t id) as [b|] eqn:Eb; [|reflexivity].
    destruct (F t id b Eb) as (cb & B1 & B2). unfold live_of in B1. rewrite B1.
    rewrite B2, N.eqb_refl. reflexivity.
  - destruct (merge_ok n t (tab w f) Ht) with (w := w) as [w' E]; try assumption.
    + apply okt_nodup. eapply wf_tab; eassumption.
    + intros k a Hk. apply (F f k a). unfold maps_of, getSymbolPtr.
      apply find_in; [eapply wf_tab; eassumption|assumption].
    + exists w'. cbn [step]. unfold mergeATableHere. rewrite E. reflexivity.
Qed.
Print Assumptions C43_lookup.

(* The table size is the number of names in the map (as a 32 bit number), and the names are listed
   in increasing order of id, each once. *)
Theorem C43_listing n os w mine lost t :
  named_history n os w mine lost ->
  exists l, names (w_heap w) (tab w t) = Some l /\ StronglySorted N.lt l /\
    (forall id, In id l <-> maps_of w t id <> None) /\
    getTableSize w t = u32 (N.of_nat (List.length l)).
Proof.
  intros H. pose proof (named_filed _ _ _ _ _ H) as F.
  apply named_is_history in H. apply history_inv in H as [Hw _].
  pose proof (wf_tab n w t Hw) as Hok.
  exists (keys (tab w t)). split; [|split; [exact Hok|split]].
  - assert (X : forall k a, In (k, a) (tab w t) -> exists c, at_addr (w_heap w) a = Some c /\ c_id c = k).
    { intros k a Hk. apply (F t k a). unfold maps_of, getSymbolPtr.
      apply find_in; assumption. }
    clear - X. induction (tab w t) as [|[k a] l IH]; cbn; [reflexivity|].
    destruct (X k a (or_introl eq_refl)) as (c & -> & <-).
    rewrite IH; [reflexivity|]. intros k' a' Hk. apply X. right; assumption.
  - intro id. unfold maps_of, getSymbolPtr. rewrite find_key. reflexivity.
  - unfold getTableSize, keys. rewrite map_length. reflexivity.
Qed.
Print Assumptions C43_listing.

(* If no change of name pushes a symbol out of its table, then nothing is ever lost: once all
   tables are cleared the only symbols left are the caller's. *)
Theorem C43_no_leak n os w mine lost :
  history n os w mine lost -> (forall b, ~ lost b) ->
  (forall t id, maps_of w t id = None) ->
  forall a, live_of w a <> None <-> mine a.
Proof.
  intros H Hl Hm a. apply history_inv in H as [_ (O1 & _)]. rewrite O1. split; [|tauto].
  intros [X|[X|(t & id & X)]]; [assumption|exfalso; eapply Hl; eassumption|].
  rewrite Hm in X. discriminate.
Qed.
Print Assumptions C43_no_leak.

(* ---- where the code departs from the above ---- *)

Ltac small_tables := let t := fresh "t" in let H := fresh "H" in
  intros t H; cbn in H; repeat (destruct H as [<-|H]; [lia|]); destruct H.

Ltac perm := cbn [permitted]; first [exact I | right; split; [reflexivity|cbn; tauto] | left; reflexivity
                                  | cbn; unfold nobody; solve [intuition congruence]].
Ltac named := cbn [well_named]; first [exact I | eexists; split; reflexivity].
Ltac grow H o :=
  eapply (n_step _ _ _ _ _ o) in H; [|small_tables|perm|named|vm_compute; reflexivity].

(* Assigning a table (operator=) copies into what is there and does not clear it first.  So an
   assignment to a table that already has one of the names is refused half way, with other
   entries already copied; an assignment of any non-empty table to itself is refused. *)
Theorem C43_assign_refuted :
  (exists os w mine lost w',
     named_history 2%nat os w mine lost /\ step w (Copy 0%nat 1%nat) = Rejected w' /\
     maps_of w 0%nat 5 = None /\ maps_of w' 0%nat 5 <> None) /\
  (forall n os w mine lost t id,
     history n os w mine lost -> (t < n)%nat -> maps_of w t id <> None ->
     exists w', step w (Copy t t) = Rejected w').
Proof.
  split.
  - do 5 eexists. split; [|split].
    + pose proof (n_start 2%nat) as H. grow H (New (mkCell 6 0)). grow H (Add 0%nat 6 0%nat). grow H (New (mkCell 5 0)). grow H (Add 1%nat 5 1%nat). grow H (New (mkCell 6 0)). grow H (Add 1%nat 6 2%nat). exact H.
    + vm_compute. reflexivity.
    + split; [vm_compute; reflexivity|vm_compute; discriminate].
  - intros n os w mine lost t id H Ht Hm.
    assert (Hin : forall t', In t' (tables_of (Copy t t)) -> (t' < n)%nat).
    { cbn. intros t' [<-|[<-|[]]]; assumption. }
    apply (C43_rejected n os w mine lost (Copy t t) H Hin eq_refl).
    + apply (C43_no_dangling n os w mine lost (Copy t t) H Hin). exact I.
    + exists id. split; assumption.
Qed.
Print Assumptions C43_assign_refuted.

(* A change of name onto a name that is taken pushes the other symbol out without deleting it and
   without telling the caller: when all tables are gone the symbol is still there, and the caller
   holds nothing. *)
Theorem C43_leak_refuted :
  exists os w mine lost a,
    named_history 1%nat os w mine lost /\ (forall t id, maps_of w t id = None) /\
    live_of w a <> None /\ (forall b, ~ mine b).
Proof.
  do 5 eexists. split; [|split; [|split]].
  - pose proof (n_start 1%nat) as H. grow H (New (mkCell 5 0)). grow H (Add 0%nat 5 0%nat). grow H (New (mkCell 6 0)). grow H (Add 0%nat 6 1%nat). grow H (Rename 0%nat 5 6 0%nat). grow H (Clear 0%nat). exact H.
  - intros [|[|t]] id; reflexivity.
  - instantiate (1 := 1%nat). vm_compute. discriminate.
  - intros b. cbn. unfold nobody.
    intros H. intuition congruence.
Qed.
Print Assumptions C43_leak_refuted.

(* Replacing a symbol by itself deletes it and leaves the table with the deleted symbol; clearing
   the table then deletes it again. *)
Theorem C43_self_replace_refuted :
  exists os w mine lost w',
    named_history 1%nat os w mine lost /\ step w (ReplaceSym 0%nat 0%nat 0%nat) = Done w' None /\ maps_of w' 0%nat 5 = Some 0%nat /\ live_of w' 0%nat = None /\ step w' (Clear 0%nat) = Undefined.
Proof.
  do 5 eexists. split; [|split; [|split]].
  - pose proof (n_start 1%nat) as H. grow H (New (mkCell 5 0)). grow H (Add 0%nat 5 0%nat). exact H.
  - vm_compute. reflexivity.
  - reflexivity.
  - split; vm_compute; reflexivity.
Qed.
Print Assumptions C43_self_replace_refuted.

(* Replacing a symbol that is not in the table is accepted and does nothing. *)
Theorem C43_silent_refuted :
  exists os w mine lost,
    named_history 1%nat os w mine lost /\ step w (ReplaceSym 0%nat 0%nat 1%nat) = Done w None /\ maps_of w 0%nat 5 = None.
Proof.
  do 4 eexists. split; [|split].
  - pose proof (n_start 1%nat) as H. grow H (New (mkCell 5 0)). grow H (New (mkCell 5 1)). exact H.
  - vm_compute. reflexivity.
  - reflexivity.
Qed.
Print Assumptions C43_silent_refuted.

(* A history that uses every kind of call on two tables. *)
Example C43_ex :
  exists xs w,
    run (start 2%nat) [New (mkCell 5 1); Add 0%nat 5 0%nat; New (mkCell 7 2); Add 0%nat 7 1%nat; Copy 1%nat 0%nat;
                   Rename 0%nat 5 6 0%nat; Merge 1%nat 0%nat; Remove 0%nat 7; Delete 1%nat;
                   New (mkCell 6 9); ReplaceSym 0%nat 0%nat 5%nat; Find 1%nat 5; Clear 0%nat] = Done w xs
    /\ maps_of w 1%nat 5 = Some 2%nat /\ maps_of w 1%nat 6 = Some 4%nat
    /\ live_of w 4%nat = Some (mkCell 6 1)
    /\ maps_of w 0%nat 6 = None /\ getTableSize w 1%nat = 3.
Proof. do 2 eexists. split; [vm_compute; reflexivity|]. repeat split. Qed.

Example C43_ex_history :
  exists os w mine lost,
    named_history 2%nat os w mine lost /\ maps_of w 0%nat 5 = Some 0%nat /\ maps_of w 1%nat 5 = Some 1%nat /\ (exists w', step w (Add 0%nat 5 0%nat) = Rejected w').
Proof.
  do 4 eexists. split; [|split; [|split]].
  - pose proof (n_start 2%nat) as H. grow H (New (mkCell 5 0)). grow H (Add 0%nat 5 0%nat). grow H (Merge 1%nat 0%nat). exact H.
  - reflexivity.
  - reflexivity.
  - eexists. vm_compute. reflexivity.
Qed.
