(* SymTableProofs.v: lemmas about the symbol table model. *)
From Coq Require Import List NArith Lia Bool PeanoNat Sorting.Sorted.
From Coq Require Import ZifyBool ZifyNat ZifyN.
From Verif Require Import Base SourceStreamModel SourceStreamProofs SymTableModel SymTableSpec.
Import ListNotations.
Open Scope N_scope.

Definition keys (t : table) : list N := map fst t.
Definition okt (t : table) : Prop := StronglySorted N.lt (keys t).

Lemma okt_inv k a t : okt ((k, a) :: t) -> okt t /\ Forall (N.lt k) (keys t).
Proof. intro H. inversion H; subst. split; assumption. Qed.

Lemma find_not_key t id : ~ In id (keys t) -> find_id t id = None.
Proof.
  induction t as [|[k a] r IH]; cbn; [reflexivity|].
  intro H. destruct (N.eqb_spec k id); [exfalso; apply H; left; assumption|].
  apply IH. intro Hi. apply H. right; assumption.
Qed.

Lemma find_key t id : find_id t id <> None <-> In id (keys t).
Proof.
  induction t as [|[k a] r IH]; cbn.
  - split; [intro H; contradiction|intros []].
  - destruct (N.eqb_spec k id).
    + split; [left; assumption|intros _; discriminate].
    + rewrite IH. split; [intro H; right; assumption|intros [H|H]; [contradiction|assumption]].
Qed.

Lemma okt_notin k a t : okt ((k, a) :: t) -> ~ In k (keys t).
Proof.
  intros H Hi. apply okt_inv in H as [_ H]. rewrite Forall_forall in H.
  apply H in Hi. lia.
Qed.

Lemma okt_nodup t : okt t -> NoDup (keys t).
Proof.
  induction t as [|[k a] r IH]; cbn; intro H; constructor.
  - eapply okt_notin; eassumption.
  - apply IH. apply okt_inv in H as [H _]; assumption.
Qed.

Lemma find_in t id a : okt t -> (find_id t id = Some a <-> In (id, a) t).
Proof.
  induction t as [|[k b] r IH]; cbn; intro H.
  - split; [discriminate|intros []].
  - pose proof (okt_notin _ _ _ H) as Hn. apply okt_inv in H as [Hr _].
    destruct (N.eqb_spec k id) as [->|Hne].
    + split.
      * intros [= ->]. left; reflexivity.
      * intros [[= ->]|Hi]; [reflexivity|].
        exfalso; apply Hn. change id with (fst (id, a)). apply in_map; assumption.
    + rewrite (IH Hr). split; [intro Hi; right; assumption|].
      intros [[= -> _]|Hi]; [contradiction|assumption].
Qed.

Lemma find_ins t id a k :
  find_id t id = None ->
  find_id (ins t id a) k = if k =? id then Some a else find_id t k.
Proof.
  induction t as [|[k' b] r IH]; cbn; intro H.
  - rewrite (N.eqb_sym id k). reflexivity.
  - destruct (N.eqb_spec k' id) as [->|Hne]; [discriminate|].
    destruct (N.ltb_spec id k'); cbn.
    + rewrite (N.eqb_sym id k). reflexivity.
    + destruct (N.eqb_spec k' k) as [->|].
      * destruct (N.eqb_spec k id); [contradiction|reflexivity].
      * apply IH; assumption.
Qed.

Lemma keys_ins t id a x :
  In x (keys (ins t id a)) -> x = id \/ In x (keys t).
Proof.
  induction t as [|[k b] r IH]; cbn.
  - intros [->|[]]; left; reflexivity.
  - destruct (N.eqb_spec k id); [intro H; right; assumption|].
    destruct (N.ltb_spec id k); cbn.
    + intros [->|H']; [left; reflexivity|right; assumption].
    + intros [->|H']; [right; left; reflexivity|].
      destruct (IH H'); [left; assumption|right; right; assumption].
Qed.

Lemma okt_ins t id a : okt t -> okt (ins t id a).
Proof.
  induction t as [|[k b] r IH]; cbn; intro H.
  - constructor; constructor.
  - destruct (N.eqb_spec k id); [assumption|].
    pose proof (okt_inv _ _ _ H) as [Hr Hf].
    destruct (N.ltb_spec id k) as [Hlt|Hge].
    + constructor; [assumption|]. cbn. constructor; [assumption|].
      eapply Forall_impl; [|exact Hf]. cbn. intros; lia.
    + constructor; [apply IH; assumption|].
      apply Forall_forall. intros x Hx. apply keys_ins in Hx as [->|Hx]; [cbn [fst]; lia|].
      rewrite Forall_forall in Hf. apply Hf; assumption.
Qed.

Lemma ins_present t id a : okt t -> find_id t id <> None -> ins t id a = t.
Proof.
  induction t as [|[k b] r IH]; cbn; intros H Hf; [contradiction|].
  destruct (N.eqb_spec k id); [reflexivity|].
  pose proof (okt_inv _ _ _ H) as [Hr Hl].
  destruct (N.ltb_spec id k) as [Hlt|Hge].
  - exfalso. apply find_key in Hf. rewrite Forall_forall in Hl. apply Hl in Hf. lia.
  - rewrite IH; [reflexivity|assumption|assumption].
Qed.

Lemma keys_erase t id x : In x (keys (erase t id)) -> In x (keys t).
Proof.
  induction t as [|[k b] r IH]; cbn; [intros []|].
  destruct (N.eqb_spec k id); cbn; [intro H; right; assumption|].
  intros [->|H]; [left; reflexivity|right; apply IH; assumption].
Qed.

Lemma okt_erase t id : okt t -> okt (erase t id).
Proof.
  induction t as [|[k b] r IH]; cbn; intro H; [assumption|].
  pose proof (okt_inv _ _ _ H) as [Hr Hf].
  destruct (N.eqb_spec k id); [assumption|].
  constructor; [apply IH; assumption|].
  apply Forall_forall. intros x Hx. apply keys_erase in Hx.
  rewrite Forall_forall in Hf. apply Hf; assumption.
Qed.

Lemma find_erase t id k :
  okt t -> find_id (erase t id) k = if k =? id then None else find_id t k.
Proof.
  induction t as [|[k' b] r IH]; cbn; intro H.
  - destruct (k =? id); reflexivity.
  - pose proof (okt_notin _ _ _ H) as Hn. pose proof (okt_inv _ _ _ H) as [Hr Hf].
    destruct (N.eqb_spec k' id) as [->|Hne].
    + rewrite (N.eqb_sym id k). destruct (N.eqb_spec k id) as [E|]; [|reflexivity].
      subst id. apply find_not_key; assumption.
    + cbn. destruct (N.eqb_spec k' k) as [->|].
      * destruct (N.eqb_spec k id); [contradiction|reflexivity].
      * apply IH; assumption.
Qed.

Lemma keys_assign t id a : keys (assign t id a) = keys t.
Proof.
  induction t as [|[k b] r IH]; cbn; [reflexivity|].
  destruct (k =? id); cbn; [reflexivity|]. f_equal; assumption.
Qed.

Lemma find_assign t id a k :
  find_id t id <> None ->
  find_id (assign t id a) k = if k =? id then Some a else find_id t k.
Proof.
  induction t as [|[k' b] r IH]; cbn; intro H; [contradiction|].
  destruct (N.eqb_spec k' id) as [->|Hne]; cbn.
  - rewrite (N.eqb_sym id k). destruct (k =? id); reflexivity.
  - destruct (N.eqb_spec k' k) as [->|].
    + destruct (N.eqb_spec k id); [contradiction|reflexivity].
    + apply IH; assumption.
Qed.

(* ---- worlds ---- *)

Definition wf (n : nat) (w : world) : Prop :=
  List.length (w_tabs w) = n /\ Forall okt (w_tabs w).

Lemma wf_tab n w t : wf n w -> okt (tab w t).
Proof.
  intros [_ H]. unfold tab. destruct (Nat.ltb_spec t (List.length (w_tabs w))).
  - rewrite Forall_forall in H. apply H. apply nth_In; assumption.
  - rewrite nth_overflow by assumption. constructor.
Qed.

Lemma Forall_set_nth {A} (P : A -> Prop) n x l : P x -> Forall P l -> Forall P (set_nth n x l).
Proof.
  intros Hx H. revert n. induction H; intro n; destruct n; cbn; constructor; auto.
Qed.

Lemma wf_put n w t x : wf n w -> okt x -> wf n (put w t x).
Proof.
  intros [H1 H2] Hx. split; cbn.
  - rewrite set_nth_length. assumption.
  - apply Forall_set_nth; assumption.
Qed.

Lemma tab_put n w t x t' : wf n w -> (t < n)%nat ->
  tab (put w t x) t' = if Nat.eqb t' t then x else tab w t'.
Proof.
  intros [H1 _] Ht. unfold tab, put; cbn.
  destruct (Nat.eqb_spec t' t) as [->|Hne].
  - apply nth_error_nth. apply nth_set_same. lia.
  - destruct (Nat.ltb_spec t' n).
    + pose proof (nth_set_other t t' x (w_tabs w) (fun E => Hne (eq_sym E))) as E.
      destruct (nth_error (w_tabs w) t') eqn:E'.
      * rewrite (nth_error_nth _ _ _ E). rewrite (nth_error_nth _ _ _ E'). reflexivity.
      * apply nth_error_None in E'. lia.
    + rewrite !nth_overflow; [reflexivity|lia|rewrite set_nth_length; lia].
Qed.

Lemma maps_put n w t x t' id : wf n w -> (t < n)%nat ->
  maps_of (put w t x) t' id = if Nat.eqb t' t then find_id x id else maps_of w t' id.
Proof.
  intros Hw Ht. unfold maps_of, getSymbolPtr. rewrite (tab_put n) by assumption.
  destruct (Nat.eqb t' t); reflexivity.
Qed.

Lemma maps_heap h w t id : maps_of (mkW h (w_tabs w)) t id = maps_of w t id.
Proof. reflexivity. Qed.

Lemma wf_heap n h w : wf n w -> wf n (mkW h (w_tabs w)).
Proof. intro H; exact H. Qed.

Lemma live_put w t x a : live_of (put w t x) a = live_of w a.
Proof. reflexivity. Qed.

Lemma at_set h a b c : at_addr h a <> None ->
  at_addr (set_nth a c h) b = if Nat.eqb b a then c else at_addr h b.
Proof.
  unfold at_addr. intro H. destruct (Nat.eqb_spec b a) as [->|Hne].
  - rewrite nth_set_same; [destruct c; reflexivity|].
    apply nth_error_Some. destruct (nth_error h a); [discriminate|contradiction].
  - rewrite nth_set_other by (intro E; apply Hne; symmetry; exact E). reflexivity.
Qed.

Lemma at_alloc h c b :
  at_addr (h ++ [Some c]) b = if Nat.eqb b (List.length h) then Some c else at_addr h b.
Proof.
  unfold at_addr. destruct (Nat.eqb_spec b (List.length h)) as [->|Hne].
  - rewrite nth_error_app2 by lia. rewrite Nat.sub_diag. reflexivity.
  - destruct (Nat.ltb_spec b (List.length h)).
    + rewrite nth_error_app1 by assumption. reflexivity.
    + rewrite (proj2 (nth_error_None (h ++ [Some c]) b)) by (rewrite app_length; cbn; lia).
      rewrite (proj2 (nth_error_None h b)) by lia. reflexivity.
Qed.

Lemma at_len h : at_addr h (List.length h) = None.
Proof. unfold at_addr. rewrite (proj2 (nth_error_None h _)) by lia. reflexivity. Qed.

Lemma free_done w a w' : free w a = Done w' tt ->
  at_addr (w_heap w) a <> None /\ w' = mkW (set_nth a None (w_heap w)) (w_tabs w).
Proof.
  unfold free. destruct (at_addr (w_heap w) a); [|discriminate].
  intros [= <-]. split; [discriminate|reflexivity].
Qed.

Lemma unit_eta (x : unit) : x = tt. Proof. destruct x; reflexivity. Qed.

Lemma ok_unit_done r w' x : ok_unit r = Done w' x -> r = Done w' tt /\ x = None.
Proof.
  unfold ok_unit, bind. destruct r as [w y| |]; try discriminate.
  intros [= <- <-]. rewrite (unit_eta y). split; reflexivity.
Qed.
Lemma ok_unit_undef r : ok_unit r = Undefined -> r = Undefined.
Proof. unfold ok_unit, bind. destruct r; [discriminate|discriminate|reflexivity]. Qed.
Lemma ok_unit_rej r w : ok_unit r = Rejected w <-> r = Rejected w.
Proof. unfold ok_unit, bind. destruct r; split; congruence. Qed.

(* addToTable *)
Lemma add_eq n w t id a : wf n w -> (t < n)%nat ->
  addToTable w t id a =
  match maps_of w t id with
  | None => Done (put w t (ins (tab w t) id a)) tt
  | Some _ => Rejected (put w t (tab w t))
  end.
Proof.
  intros Hw Ht. unfold addToTable, insert, maps_of, getSymbolPtr.
  destruct (find_id (tab w t) id) eqn:E; [|reflexivity].
  rewrite ins_present; [reflexivity|eapply wf_tab; eassumption|congruence].
Qed.

Lemma add_done n w t id a w' : wf n w -> (t < n)%nat ->
  addToTable w t id a = Done w' tt ->
  maps_of w t id = None /\ wf n w' /\ w_heap w' = w_heap w /\
  forall t' k, maps_of w' t' k = upd (maps_of w) t id (Some a) t' k.
Proof.
  intros Hw Ht. rewrite (add_eq n) by assumption.
  destruct (maps_of w t id) eqn:E; [discriminate|]. intros [= <-].
  split; [reflexivity|]. split; [|split; [reflexivity|]].
  - apply wf_put; [assumption|]. apply okt_ins. eapply wf_tab; eassumption.
  - intros t' k. rewrite (maps_put n) by assumption. unfold upd.
    destruct (Nat.eqb_spec t' t) as [->|]; cbn [andb]; [|reflexivity].
    rewrite find_ins by exact E. reflexivity.
Qed.

Lemma put_same n w t : wf n w -> put w t (tab w t) = w.
Proof.
  intros Hw. unfold put, tab. destruct w as [h ts]; cbn. f_equal. clear Hw.
  revert t. induction ts as [|x r IH]; intro t; destruct t; cbn; try reflexivity.
  f_equal. apply IH.
Qed.

(* replaceInTable(oldid, newid, s) *)
Lemma replaceId_cases n w t i j a : wf n w -> (t < n)%nat ->
  (exists w', replaceId w t i j a = Done w' tt /\ wf n w' /\ w_heap w' = w_heap w /\
     (maps_of w t i = None \/ maps_of w t i = Some a) /\
     (i <> j -> maps_of w t j <> Some a) /\
     forall t' k, maps_of w' t' k = upd (upd (maps_of w) t i None) t j (Some a) t' k)
  \/
  (exists w', replaceId w t i j a = Rejected w' /\ w_heap w' = w_heap w /\
     ((exists b, maps_of w t i = Some b /\ b <> a) \/ (i <> j /\ maps_of w t j = Some a)) /\
     ((maps_of w t i = Some a /\ maps_of w t j = Some a /\ i <> j) \/ w' = w)).
Proof.
  intros Hw Ht.
  assert (Hnone : forall x, maps_of w t x = find_id (tab w t) x) by reflexivity.
  unfold replaceId.
  (* first half *)
  assert (H1 : (exists b, maps_of w t i = Some b /\ b <> a /\
                 match find_id (tab w t) i with
                 | Some o => if Nat.eqb o a then Done (put w t (erase (tab w t) i)) tt else Rejected w
                 | None => Done w tt
                 end = Rejected w) \/
               (maps_of w t i = None \/ maps_of w t i = Some a) /\
               exists w1, match find_id (tab w t) i with
                 | Some o => if Nat.eqb o a then Done (put w t (erase (tab w t) i)) tt else Rejected w
                 | None => Done w tt
                 end = Done w1 tt /\ wf n w1 /\ w_heap w1 = w_heap w /\
                 (maps_of w t i = None -> w1 = w) /\
                 forall t' k, maps_of w1 t' k = upd (maps_of w) t i None t' k).
  { rewrite Hnone. destruct (find_id (tab w t) i) as [o|] eqn:E.
    - destruct (Nat.eqb_spec o a) as [->|Hne].
      + right. split; [right; reflexivity|]. eexists. split; [reflexivity|].
        split; [apply wf_put; [assumption|apply okt_erase; eapply wf_tab; eassumption]|].
        split; [reflexivity|]. split; [discriminate|].
        intros t' k. rewrite (maps_put n) by assumption. unfold upd.
        destruct (Nat.eqb_spec t' t) as [->|]; cbn [andb]; [|reflexivity].
        rewrite find_erase by (eapply wf_tab; eassumption). reflexivity.
      + left. exists o. repeat split; [assumption].
    - right. split; [left; reflexivity|]. exists w. repeat split; try assumption; try apply Hw.
      intros t' k. unfold upd. destruct (Nat.eqb_spec t' t) as [->|]; cbn [andb]; [|reflexivity].
      destruct (N.eqb_spec k i) as [->|]; [rewrite Hnone; assumption|reflexivity]. }
  destruct H1 as [(b & Hb & Hne & ->)|(Hi & w1 & -> & Hw1 & Hh1 & Hsame & Hm1)].
  { right. exists w. split; [reflexivity|]. split; [reflexivity|].
    split; [left; exists b; split; assumption|right; reflexivity]. }
  cbn [bind].
  change (find_id (tab w1 t) j) with (maps_of w1 t j).
  assert (Hj : maps_of w1 t j = if j =? i then None else maps_of w t j).
  { rewrite Hm1. unfold upd. rewrite Nat.eqb_refl. cbn [andb]. reflexivity. }
  assert (HX : (exists o, maps_of w1 t j = Some o /\ o = a) \/
     exists w2,
     match maps_of w1 t j with
     | Some n0 => if Nat.eqb n0 a then Rejected w1 else Done (put w1 t (erase (tab w1 t) j)) tt
     | None => Done w1 tt
     end = Done w2 tt /\ wf n w2 /\ w_heap w2 = w_heap w /\ maps_of w1 t j <> Some a /\
     forall t' k, maps_of w2 t' k = upd (upd (maps_of w) t i None) t j None t' k).
  { destruct (maps_of w1 t j) as [o|] eqn:E.
    - destruct (Nat.eqb_spec o a) as [->|Hne]; [left; exists a; split; reflexivity|].
      right. eexists. split; [reflexivity|].
      split; [apply wf_put; [assumption|apply okt_erase; eapply wf_tab; eassumption]|].
      split; [exact Hh1|]. split; [congruence|].
      intros t' k. rewrite (maps_put n) by assumption. unfold upd at 1.
      destruct (Nat.eqb_spec t' t) as [->|]; cbn [andb]; [|apply Hm1].
      rewrite find_erase by (eapply wf_tab; eassumption).
      destruct (k =? j); [reflexivity|]. exact (Hm1 t k).
    - right. exists w1. split; [reflexivity|]. split; [assumption|]. split; [assumption|].
      split; [discriminate|].
      intros t' k. unfold upd at 1. rewrite Hm1.
      destruct (Nat.eqb_spec t' t) as [->|]; cbn [andb]; [|reflexivity].
      destruct (N.eqb_spec k j) as [->|]; [|reflexivity].
      rewrite <- Hm1. assumption. }
  destruct HX as [(o & E & ->)|(w2 & -> & Hw2 & Hh2 & Hna & Hm2)].
  - rewrite E. rewrite Nat.eqb_refl. cbn [bind]. right. exists w1.
    split; [reflexivity|]. split; [assumption|].
    rewrite Hj in E. destruct (N.eqb_spec j i) as [|Hne]; [discriminate|].
    split; [right; split; [intro; apply Hne; symmetry; assumption|assumption]|].
    destruct Hi as [Hi|Hi]; [right; apply Hsame; assumption|left].
    repeat split; [assumption|assumption|intro; apply Hne; symmetry; assumption].
  - cbn [bind]. left. rewrite (add_eq n) by assumption.
    assert (Hn2 : maps_of w2 t j = None).
    { rewrite Hm2. unfold upd at 1. rewrite Nat.eqb_refl, N.eqb_refl. reflexivity. }
    rewrite Hn2. eexists. split; [reflexivity|].
    split; [apply wf_put; [assumption|apply okt_ins; eapply wf_tab; eassumption]|].
    split; [exact Hh2|]. split; [assumption|].
    split.
    + intros Hne. rewrite Hj in Hna.
      destruct (N.eqb_spec j i); [exfalso; apply Hne; symmetry; assumption|assumption].
    + intros t' k. rewrite (maps_put n) by assumption. unfold upd at 1.
      destruct (Nat.eqb_spec t' t) as [->|]; cbn [andb].
      * rewrite find_ins by exact Hn2. destruct (N.eqb_spec k j); [reflexivity|].
        change (find_id (tab w2 t) k) with (maps_of w2 t k). rewrite Hm2. unfold upd at 1.
        rewrite Nat.eqb_refl. destruct (N.eqb_spec k j); [contradiction|]. reflexivity.
      * rewrite Hm2. unfold upd at 1. destruct (Nat.eqb_spec t' t); [contradiction|]. reflexivity.
Qed.

(* ---- cloning loops ---- *)

Inductive cloned : world -> nat -> table -> world -> Prop :=
| cl_nil w t : cloned w t [] w
| cl_cons w t id a es w1 w2 :
    cloneInto w t id a = Done w1 tt -> cloned w1 t es w2 -> cloned w t ((id, a) :: es) w2.

Lemma clone_done n w t id a w' : wf n w -> (t < n)%nat ->
  cloneInto w t id a = Done w' tt ->
  exists c, live_of w a = Some c /\ maps_of w t id = None /\ wf n w' /\
  (forall b, live_of w' b = if Nat.eqb b (List.length (w_heap w)) then Some c else live_of w b) /\
  List.length (w_heap w') = S (List.length (w_heap w)) /\
  forall t' k, maps_of w' t' k = upd (maps_of w) t id (Some (List.length (w_heap w))) t' k.
Proof.
  intros Hw Ht. unfold cloneInto. fold (live_of w a).
  destruct (live_of w a) as [c|] eqn:E; [|discriminate].
  cbn [alloc]. intro H. apply (add_done n) in H as (H1 & H2 & H3 & H4);
    [|apply wf_heap; assumption|assumption].
  exists c. repeat split; try assumption; try apply H2.
  - intro b. unfold live_of. rewrite H3. cbn [w_heap]. apply at_alloc.
  - rewrite H3. cbn [w_heap]. rewrite app_length. cbn. lia.
Qed.

Lemma clone_undef n w t id a : wf n w -> (t < n)%nat ->
  cloneInto w t id a = Undefined -> live_of w a = None.
Proof.
  intros Hw Ht. unfold cloneInto. fold (live_of w a).
  destruct (live_of w a); [|reflexivity]. cbn [alloc].
  rewrite (add_eq n) by (try apply wf_heap; assumption). destruct (maps_of _ t id); discriminate.
Qed.

Lemma clone_rej n w t id a w' : wf n w -> (t < n)%nat ->
  cloneInto w t id a = Rejected w' -> maps_of w t id <> None.
Proof.
  intros Hw Ht. unfold cloneInto. fold (live_of w a).
  destruct (live_of w a); [|discriminate]. cbn [alloc].
  rewrite (add_eq n) by (try apply wf_heap; assumption). rewrite maps_heap.
  destruct (maps_of w t id); discriminate.
Qed.

Definition good_heap (w : world) : Prop :=
  forall b, live_of w b <> None -> (b < List.length (w_heap w))%nat.

Lemma good_all w : good_heap w.
Proof.
  intros b H. unfold live_of, at_addr in H.
  destruct (Nat.ltb_spec b (List.length (w_heap w))) as [|Hge]; [assumption|].
  rewrite (proj2 (nth_error_None (w_heap w) b)) in H by lia. contradiction.
Qed.

Lemma cloned_facts n w t es w' : cloned w t es w' -> wf n w -> (t < n)%nat ->
  NoDup (keys es) ->
  wf n w' /\
  (List.length (w_heap w) <= List.length (w_heap w'))%nat /\
  (forall b, (b < List.length (w_heap w))%nat -> live_of w' b = live_of w b) /\
  (forall t' k, t' <> t -> maps_of w' t' k = maps_of w t' k) /\
  (forall k, ~ In k (keys es) -> maps_of w' t k = maps_of w t k) /\
  (forall k, In k (keys es) -> maps_of w t k = None) /\
  (forall k a, In (k, a) es -> (a < List.length (w_heap w))%nat ->
     exists b c, maps_of w' t k = Some b /\ (List.length (w_heap w) <= b)%nat /\
       live_of w' b = Some c /\ live_of w a = Some c) /\
  (forall i j b, In i (keys es) -> In j (keys es) ->
     maps_of w' t i = Some b -> maps_of w' t j = Some b -> i = j) /\
  (forall b, (List.length (w_heap w) <= b < List.length (w_heap w'))%nat ->
     exists k, In k (keys es) /\ maps_of w' t k = Some b) /\
  (forall k b, In k (keys es) -> maps_of w' t k = Some b -> (List.length (w_heap w) <= b)%nat).
Proof.
  intro H. induction H as [w t|w t id a es w1 w2 H1 H2 IH]; intros Hw Ht Hnd.
  - split; [assumption|]. split; [lia|]. repeat split; try reflexivity; try (intros; lia).
    + intros k [].
    + intros k a [].
    + intros i j b [].
    + intros k b [].
  - cbn [keys map fst] in Hnd. inversion Hnd as [|? ? Hni Hnd']; subst.
    destruct (clone_done n _ _ _ _ _ Hw Ht H1) as (c & Hc & Hfree & Hw1 & Hl1 & Hlen & Hm1).
    destruct (IH Hw1 Ht Hnd') as (P1 & P2 & P3 & P4 & P5 & P6 & P7 & P8 & P9 & P10).
    set (L := List.length (w_heap w)) in *.
    assert (Hid : maps_of w2 t id = Some L).
    { rewrite P5 by exact Hni. rewrite Hm1. unfold upd. rewrite Nat.eqb_refl, N.eqb_refl. reflexivity. }
    split; [assumption|]. split; [lia|].
    split; [|split; [|split; [|split; [|split; [|split; [|split]]]]]].
    + intros b Hb. rewrite P3 by lia. rewrite Hl1.
      destruct (Nat.eqb_spec b L); [lia|reflexivity].
    + intros t' k Hne. rewrite P4 by assumption. rewrite Hm1. unfold upd.
      destruct (Nat.eqb_spec t' t); [contradiction|reflexivity].
    + intros k Hk. cbn [keys map fst] in Hk. rewrite P5 by (intro X; apply Hk; right; exact X).
      rewrite Hm1. unfold upd. rewrite Nat.eqb_refl.
      destruct (N.eqb_spec k id) as [->|]; [exfalso; apply Hk; left; reflexivity|reflexivity].
    + intros k [<-|Hk]; [assumption|].
      pose proof (P6 k Hk) as X. rewrite Hm1 in X. unfold upd in X. rewrite Nat.eqb_refl in X.
      cbn [andb] in X. destruct (N.eqb_spec k id); [discriminate|assumption].
    + intros k a' [[= <- <-]|Hin] Ha'.
      * exists L, c. split; [assumption|]. split; [lia|]. split; [|assumption].
        rewrite P3 by lia. rewrite Hl1, Nat.eqb_refl. reflexivity.
      * destruct (P7 k a' Hin) as (b & c' & Q1 & Q2 & Q3 & Q4); [lia|].
        exists b, c'. split; [assumption|]. split; [lia|]. split; [assumption|].
        rewrite Hl1 in Q4. destruct (Nat.eqb_spec a' L); [lia|assumption].
    + intros i j b [<-|Hi] [<-|Hj] Hbi Hbj.
      * reflexivity.
      * cbn [fst] in *. rewrite Hid in Hbi. injection Hbi as <-. apply P10 in Hbj; [lia|assumption].
      * cbn [fst] in *. rewrite Hid in Hbj. injection Hbj as <-. apply P10 in Hbi; [lia|assumption].
      * eapply P8; eassumption.
    + intros b Hb. destruct (Nat.eq_dec b L) as [->|Hne].
      * exists id. split; [left; reflexivity|assumption].
      * destruct (P9 b) as (k & Hk & Hkb); [lia|]. exists k. split; [right; assumption|assumption].
    + intros k b [<-|Hk] Hkb.
      * cbn [fst] in *. rewrite Hid in Hkb. injection Hkb as <-. lia.
      * apply P10 in Hkb; [lia|assumption].
Qed.

Lemma copyEntries_cloned w t es w' : copyEntries w t es = Done w' tt <-> cloned w t es w'.
Proof.
  revert w. induction es as [|[id a] r IH]; intro w; cbn [copyEntries].
  - split; [intros [= <-]; constructor|intro H; inversion H; reflexivity].
  - split.
    + destruct (cloneInto w t id a) as [w1 x| |] eqn:E; cbn [bind]; try discriminate.
      rewrite (unit_eta x) in E. intro H. econstructor; [eassumption|]. apply IH; assumption.
    + intro H. inversion H; subst. rewrite H6. cbn [bind]. apply IH. assumption.
Qed.

Lemma isIn_done w t id w1 x : isInTable w t id = Done w1 x -> w1 = w /\ x = maps_of w t id.
Proof.
  unfold isInTable. fold (getSymbolPtr w t id). fold (maps_of w t id).
  change (getSymbolPtr w t id) with (maps_of w t id).
  destruct (maps_of w t id) as [a|].
  - destruct (at_addr (w_heap w) a) as [c|]; [|discriminate].
    destruct (c_id c =? id); [|discriminate]. intros [= <- <-]. split; reflexivity.
  - intros [= <- <-]. split; reflexivity.
Qed.

Definition absent (m : N -> option addr) (e : N * addr) : bool := negb (is_some (m (fst e))).

Lemma filter_ext_in {A} (f g : A -> bool) l :
  (forall x, In x l -> f x = g x) -> filter f l = filter g l.
Proof.
  induction l as [|x r IH]; cbn; intro H; [reflexivity|].
  rewrite (H x (or_introl eq_refl)). rewrite IH; [reflexivity|].
  intros y Hy. apply H. right; assumption.
Qed.

Lemma keys_absent_ext (w w1 : world) t f id L es :
  (forall t' k, maps_of w1 t' k = upd (maps_of w) t id L t' k) ->
  ~ In id (keys es) ->
  filter (absent (maps_of w1 f)) es = filter (absent (maps_of w f)) es.
Proof.
  intros H Hn. apply filter_ext_in. intros [k a] Hin. unfold absent; cbn [fst].
  rewrite H. unfold upd. destruct (N.eqb_spec k id) as [->|].
  - exfalso. apply Hn. change id with (fst (id, a)). apply in_map; assumption.
  - rewrite andb_false_r. reflexivity.
Qed.

Lemma mergeEntries_cloned n w t es w' : wf n w -> (t < n)%nat -> NoDup (keys es) ->
  mergeEntries w t es = Done w' tt -> cloned w t (filter (absent (maps_of w t)) es) w'.
Proof.
  revert w. induction es as [|[id a] r IH]; intros w Hw Ht Hnd; cbn [mergeEntries filter].
  - intros [= <-]. constructor.
  - cbn [keys map fst] in Hnd. inversion Hnd as [|? ? Hni Hnd']; subst.
    destruct (isInTable w t id) as [w1 x| |] eqn:E; cbn [bind]; try discriminate.
    apply isIn_done in E as [-> ->].
    unfold absent at 1; cbn [fst]. destruct (maps_of w t id) as [p|] eqn:Em; cbn [is_some negb].
    + destruct (at_addr (w_heap w) a); [|discriminate]. apply IH; assumption.
    + destruct (cloneInto w t id a) as [w2 x| |] eqn:E2; cbn [bind]; try discriminate.
      rewrite (unit_eta x) in E2. intro H. econstructor; [eassumption|].
      destruct (clone_done n _ _ _ _ _ Hw Ht E2) as (c & _ & _ & Hw2 & _ & _ & Hm2).
      rewrite <- (keys_absent_ext w w2 t t id _ r Hm2 Hni).
      apply IH; assumption.
Qed.

Lemma diffEntries_cloned n w f d es w' : wf n w -> (d < n)%nat -> NoDup (keys es) ->
  diffEntries w f d es = Done w' tt -> cloned w d (filter (absent (maps_of w f)) es) w'.
Proof.
  revert w. induction es as [|[id a] r IH]; intros w Hw Hd Hnd; cbn [diffEntries filter].
  - intros [= <-]. constructor.
  - cbn [keys map fst] in Hnd. inversion Hnd as [|? ? Hni Hnd']; subst.
    destruct (isInTable w f id) as [w1 x| |] eqn:E; cbn [bind]; try discriminate.
    apply isIn_done in E as [-> ->].
    unfold absent at 1; cbn [fst]. destruct (maps_of w f id) as [p|] eqn:Em; cbn [is_some negb].
    + apply IH; assumption.
    + destruct (cloneInto w d id a) as [w2 x| |] eqn:E2; cbn [bind]; try discriminate.
      rewrite (unit_eta x) in E2. intro H. econstructor; [eassumption|].
      destruct (clone_done n _ _ _ _ _ Hw Hd E2) as (c & _ & _ & Hw2 & _ & _ & Hm2).
      rewrite <- (keys_absent_ext w w2 d f id _ r Hm2 Hni).
      apply IH; assumption.
Qed.

Lemma NoDup_keys_filter f es : NoDup (keys es) -> NoDup (keys (filter f es)).
Proof.
  induction es as [|[id a] r IH]; cbn; intro H; [constructor|].
  inversion H; subst. destruct (f (id, a)); cbn; [|apply IH; assumption].
  constructor; [|apply IH; assumption]. intro X. apply H2.
  unfold keys in *. apply in_map_iff in X as ([k b] & <- & Y). apply filter_In in Y as [Y _].
  change (fst (k, b)) with (fst (k, b)). apply in_map; assumption.
Qed.

(* the shape [copies] from a list of clones *)
Lemma cloned_copies n w t src pick w' : wf n w -> (t < n)%nat -> okt src ->
  (forall k a, In (k, a) src -> pick k = true -> live_of w a <> None) ->
  cloned w t (filter (fun e => pick (fst e)) src) w' ->
  wf n w' /\ copies (live_of w) (live_of w') (maps_of w) (maps_of w') t (find_id src) pick /\
  (forall id, find_id src id <> None -> pick id = true -> maps_of w t id = None).
Proof.
  intros Hw Ht Hsrc Halive Hc.
  assert (Hkeys : forall k, In k (keys (filter (fun e => pick (fst e)) src)) <->
                            find_id src k <> None /\ pick k = true).
  { intro k. rewrite find_key. unfold keys. split.
    - intro X. apply in_map_iff in X as ([k' b] & E & Y). cbn in E. subst k'.
      apply filter_In in Y as [Y1 Y2]. split; [|exact Y2].
      change k with (fst (k, b)). apply in_map; assumption.
    - intros [X Hp]. apply in_map_iff in X as ([k' b] & E & Y). cbn in E. subst k'.
      change k with (fst (k, b)). apply in_map. apply filter_In. split; assumption. }
  destruct (cloned_facts n _ _ _ _ Hc Hw Ht) as (P1 & P2 & P3 & P4 & P5 & P6 & P7 & P8 & P9 & P10).
  { apply NoDup_keys_filter. apply okt_nodup; assumption. }
  split; [assumption|]. split; [|intros id X Y; apply P6; apply Hkeys; split; assumption].
  assert (Hlen : forall b, live_of w b <> None -> (b < List.length (w_heap w))%nat) by apply good_all.
  assert (Hge : forall b, (List.length (w_heap w) <= b)%nat -> live_of w b = None).
  { intros b Hb. destruct (live_of w b) eqn:E; [|reflexivity].
    exfalso. assert ((b < List.length (w_heap w))%nat) by (apply Hlen; congruence). lia. }
  unfold copies. split; [|split; [|split; [|split; [|split]]]].
  - intros t' id Hne. apply P4; assumption.
  - intros id Hd. apply P5. rewrite Hkeys. intros [X Y]. destruct Hd; congruence.
  - intros id a Hf Hp. apply (find_in _ _ _ Hsrc) in Hf.
    pose proof (Halive id a Hf Hp) as Ha.
    destruct (P7 id a) as (b & c & Q1 & Q2 & Q3 & Q4).
    + apply filter_In. split; assumption.
    + apply Hlen; assumption.
    + exists b. split; [assumption|]. split; [apply Hge; assumption|].
      split; [congruence|assumption].
  - intros i j b X1 X2 X3 X4 Y1 Y2. eapply P8; try eassumption; apply Hkeys; split; assumption.
  - intro b. split.
    + intro X. destruct (Nat.ltb_spec b (List.length (w_heap w))) as [Hlt|Hb].
      * left. rewrite <- P3 by assumption. assumption.
      * right. split; [apply Hge; assumption|].
        destruct (P9 b) as (k & Hk & Hkb).
        { split; [assumption|]. apply good_all; assumption. }
        apply Hkeys in Hk as [Hk1 Hk2]. exists k. repeat split; assumption.
    + intros [X|(X & id & Y1 & Y2 & Y3)].
      * rewrite P3 by (apply Hlen; assumption). assumption.
      * destruct (find_id src id) as [a|] eqn:Ef; [|contradiction].
        apply (find_in _ _ _ Hsrc) in Ef.
        destruct (P7 id a) as (b' & c & Q1 & Q2 & Q3 & Q4).
        { apply filter_In. split; assumption. }
        { apply Hlen. eapply Halive; eassumption. }
        congruence.
  - intros a X. apply P3. apply Hlen; assumption.
Qed.

(* an address that a loop clones was alive *)
Lemma cloned_alive n w t es w' : wf n w -> (t < n)%nat -> cloned w t es w' ->
  forall k a, In (k, a) es -> (a < List.length (w_heap w))%nat -> live_of w a <> None.
Proof.
  intros Hw Ht H. induction H as [|w t id a es w1 w2 H1 H2 IH]; intros k a' Hin Hlt; [destruct Hin|].
  destruct (clone_done n _ _ _ _ _ Hw Ht H1) as (c & Hc & _ & Hw1 & Hl1 & Hlen & _).
  destruct Hin as [[= <- <-]|Hin]; [congruence|].
  assert (X : live_of w1 a' <> None) by (eapply IH; [assumption|assumption|eassumption|lia]).
  rewrite Hl1 in X. destruct (Nat.eqb_spec a' (List.length (w_heap w))); [lia|assumption].
Qed.
