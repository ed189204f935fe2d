(* InstTheorems.v: instances of templates (C105). *)
From Coq Require Import String List NArith Bool Lia.
From Coq Require Import ZifyBool ZifyN ZifyNat.
From Verif Require Import Base SourceStreamModel InstModel InstSpec.
Import ListNotations.
Open Scope N_scope.

(* ---- maps ---- *)
Lemma get_put : forall A (m : list (N * A)) u a v, get m u <> None ->
  get (put m u a) v = if u =? v then Some a else get m v.
Proof.
  induction m as [|[k b] m IH]; intros u a v H; cbn in *; [contradiction|].
  destruct (N.eqb_spec k u) as [->|K]; cbn.
  - destruct (N.eqb_spec u v); auto.
  - destruct (N.eqb_spec k v) as [->|KV]; [destruct (N.eqb_spec u v); [congruence|auto]|apply IH; auto].
Qed.
Lemma keys_put : forall A (m : list (N * A)) u a, map fst (put m u a) = map fst m.
Proof. induction m as [|[k b] m IH]; intros u a; cbn; auto. destruct (N.eqb_spec k u); cbn; congruence. Qed.
Lemma get_insert : forall A (m : list (N * A)) u a v, get m u = None ->
  get (insert m u a) v = if u =? v then Some a else get m v.
Proof.
  induction m as [|[k b] m IH]; intros u a v H; cbn [get insert] in *; auto.
  destruct (N.eqb_spec k u) as [->|K]; [discriminate|].
  destruct (u <? k); cbn [get]; auto.
  destruct (N.eqb_spec k v) as [->|KV]; [destruct (N.eqb_spec u v); [congruence|auto]|apply IH; auto].
Qed.
Lemma in_keys : forall A (m : list (N * A)) u, In u (map fst m) <-> get m u <> None.
Proof.
  induction m as [|[k b] m IH]; intros u; cbn; [tauto|]. destruct (N.eqb_spec k u) as [->|K]; [split; [discriminate|auto]|].
  rewrite <- IH. split; [intros [H|H]; [contradiction|auto]|auto].
Qed.
Lemma insert_keys : forall A (m : list (N * A)) u a v, In v (map fst (insert m u a)) <-> v = u \/ In v (map fst m).
Proof.
  induction m as [|[k b] m IH]; intros u a v; cbn [insert map fst In]; [intuition|].
  destruct (u <? k); cbn [map fst In]; [intuition|]. rewrite IH. intuition.
Qed.
Lemma nodup_insert : forall A (m : list (N * A)) u a, ~ In u (map fst m) -> NoDup (map fst m) -> NoDup (map fst (insert m u a)).
Proof.
  induction m as [|[k b] m IH]; intros u a U ND; cbn [insert map fst]; [constructor; auto; constructor|].
  cbn in U, ND. inversion ND as [|x l K ND']; subst. destruct (u <? k); cbn [map fst].
  - constructor; [cbn; tauto|]. constructor; auto.
  - constructor; [|apply IH; tauto]. rewrite insert_keys. intros [E|E]; [subst; tauto|tauto].
Qed.
Lemma length_insert : forall A (m : list (N * A)) u a, length (insert m u a) = S (length m).
Proof. induction m as [|[k b] m IH]; intros u a; cbn; auto. destruct (u <? k); cbn; auto. Qed.

Section T.
Variable args : N -> text.

(* ---- what always holds ---- *)
Record inv (st : state) : Prop := mkInv {
  i_nodup : NoDup (map fst (insts st));
  i_sym : forall u s, get (insts st) u = Some s -> s = u \/ In s (full st);
  i_args : forall u s, get (insts st) u = Some s -> args s = args u;
  i_str : forall x s, find_text (strs st) x = Some s -> In s (full st) /\ args s = x;
  i_full : forall s, In s (full st) -> find_text (strs st) (args s) = Some s /\ get (insts st) s = Some s;
  i_root : forall u, get (root st) u = get (insts st) u;
  i_key : forall u, get (keys st) u = get (insts st) u;
  i_knodup : NoDup (map fst (keys st)) }.

Lemma isFull_in : forall st s, isFull st s = true <-> In s (full st).
Proof.
  intros st s. unfold isFull. rewrite existsb_exists. split; [intros (x & I & E); apply N.eqb_eq in E; subst; auto|].
  intros I. exists s. split; auto. apply N.eqb_refl.
Qed.

Lemma find_app : forall m x a y, find_text m x = None -> find_text (m ++ [(x, a)]) y = if list_eq_dec N.eq_dec x y then Some a else find_text m y.
Proof.
  induction m as [|[k b] m IH]; intros x a y H; cbn [find_text app] in *; auto.
  destruct (list_eq_dec N.eq_dec k x) as [->|K]; [discriminate|].
  destruct (list_eq_dec N.eq_dec k y) as [->|KY]; [destruct (list_eq_dec N.eq_dec x y); [congruence|auto]|apply IH; auto].
Qed.

Lemma inv_empty : inv empty.
Proof. constructor; cbn; try (intros; discriminate); try constructor; auto. all: contradiction. Qed.

Lemma inv_use : forall st u st', inv st -> use st u = Some st' -> inv st'.
Proof.
  intros st u st' I H. unfold use in H. destruct (get (insts st) u) eqn:G; [discriminate|]. injection H as <-.
  destruct I as [I1 I2 I3 I4 I5 I6 I7 I8].
  assert (GR : get (root st) u = None) by congruence. assert (GK : get (keys st) u = None) by congruence.
  assert (NU : ~ In u (full st)) by (intros F; apply I5 in F; destruct F as [_ F]; congruence).
  constructor; cbn [insts strs full root keys].
  - apply nodup_insert; auto. rewrite in_keys. auto.
  - intros v s. rewrite get_insert by auto. destruct (N.eqb_spec u v); [intros E; injection E as <-; auto|apply I2].
  - intros v s. rewrite get_insert by auto. destruct (N.eqb_spec u v); [intros E; injection E as <-; congruence|apply I3].
  - exact I4.
  - intros s F. destruct (I5 s F) as [A B]. split; auto. rewrite get_insert by auto. destruct (N.eqb_spec u s); [subst; contradiction|auto].
  - intros v. rewrite !get_insert by auto. rewrite I6. reflexivity.
  - intros v. rewrite !get_insert by auto. rewrite I7. reflexivity.
  - apply nodup_insert; auto. rewrite in_keys. rewrite GK. auto.
Qed.

(* ---- one turn ---- *)
(* how a state grows: what is a class stays so *)
Definition grows (st st' : state) : Prop :=
  map fst (insts st') = map fst (insts st) /\ (forall s, In s (full st) -> In s (full st')) /\
  (forall u s, get (insts st) u = Some s -> In s (full st) -> get (insts st') u = Some s) /\
  (forall u, In u (full st') -> get (insts st) u <> None).
Lemma grows_refl : forall st, inv st -> grows st st.
Proof.
  intros st I. split; auto. split; auto. split; auto. intros u F. destruct (i_full st I u F) as [_ E]. congruence.
Qed.
Lemma grows_trans : forall a b c, grows a b -> grows b c -> grows a c.
Proof.
  intros a b c (A1 & A2 & A3 & A4) (B1 & B2 & B3 & B4). split; [congruence|]. split; auto. split; auto.
  intros u F. specialize (B4 u F). rewrite <- in_keys in B4 |- *. congruence.
Qed.

Definition done (st : state) (u : N) : Prop := exists c, is_class st u c.

Lemma turn_ok : forall e st aok u, inv st -> In u (map fst (insts st)) ->
  exists st' aok', turn args e (Some (st, aok)) u = Some (st', aok') /\ inv st' /\ grows st st' /\
    (forall v, v <> u -> get (insts st') v = get (insts st) v) /\
    (aok' = true -> aok = true /\ (done st' u \/ (exists s, get (insts st) u = Some s /\ (skipped e s = true \/ copy e s = true)))) /\
    (forall s, get (insts st) u = Some s -> skipped e s = false -> copy e s = false -> pending e s = false -> basesReady e s = true -> done st' u).
Proof.
  intros e st aok u I U. apply in_keys in U. destruct (get (insts st) u) as [s|] eqn:G; [|contradiction].
  pose proof I as [I1 I2 I3 I4 I5 I6 I7 I8].
  unfold turn. rewrite G. destruct (skipped e s) eqn:SK.
  { exists st, aok. repeat (split; [solve [auto using grows_refl]|]). split; [intros ->; split; auto; right; exists s; auto|].
    intros s' E. injection E as <-. intros; congruence. }
  destruct (isFull st s) eqn:F.
  { apply isFull_in in F. exists st, aok. repeat (split; [solve [auto using grows_refl]|]).
    assert (done st u) by (exists s; split; auto). split; auto. }
  assert (NF : ~ In s (full st)) by (rewrite <- isFull_in; congruence).
  assert (s = u) by (destruct (I2 u s G); [auto|contradiction]). subst s.
  destruct (copy e u) eqn:C.
  { exists st, aok. repeat (split; [solve [auto using grows_refl]|]). split; [intros ->; split; auto; right; exists u; auto|].
    intros s' E. injection E as <-. intros; congruence. }
  destruct (pending e u) eqn:P.
  { exists st, false. repeat (split; [solve [auto using grows_refl]|]). split; [discriminate|].
    intros s' E. injection E as <-. intros; congruence. }
  destruct (find_text (strs st) (args u)) as [d|] eqn:FT.
  - destruct (I4 _ _ FT) as [FD AD]. assert (isFull st d = true) as -> by (apply isFull_in; auto).
    unfold mergeClassUTI, replaceUTIKeyAndAlias. cbn [insts strs full root keys].
    eexists _, _. split; [reflexivity|].
    assert (DU : d <> u) by (intros ->; contradiction).
    assert (GP : forall v, get (put (insts st) u d) v = if u =? v then Some d else get (insts st) v) by (intros v; apply get_put; congruence).
    split.
    { constructor; cbn [insts strs full root keys].
      - rewrite keys_put. auto.
      - intros v x. rewrite GP. destruct (N.eqb_spec u v); [intros E; injection E as <-; auto|apply I2].
      - intros v x. rewrite GP. destruct (N.eqb_spec u v) as [<-|]; [intros E; injection E as <-; auto|apply I3].
      - exact I4.
      - intros x FX. destruct (I5 x FX) as [A B]. split; auto. rewrite GP. destruct (N.eqb_spec u x); [subst; contradiction|auto].
      - intros v. rewrite GP, get_put by (rewrite I6; congruence). rewrite I6. reflexivity.
      - intros v. rewrite GP, get_put by (rewrite I7; congruence). rewrite I7. reflexivity.
      - rewrite keys_put. auto. }
    assert (DN : done (mkSt (put (insts st) u d) (strs st) (full st) (put (root st) u d) (put (keys st) u d)) u).
    { exists d. split; [cbn; rewrite GP, N.eqb_refl; reflexivity|exact FD]. }
    split; [|split; [intros v VU; cbn [insts]; rewrite GP; destruct (N.eqb_spec u v); [congruence|auto]|split; auto]].
    { split; [apply keys_put|]. split; auto. cbn [insts full]. split.
      - intros v x GV FX. rewrite GP. destruct (N.eqb_spec u v) as [<-|]; auto. rewrite G in GV. injection GV as <-. contradiction.
      - intros v FV. destruct (I5 v FV). congruence. }
    intros AK. apply andb_prop in AK as [-> _]. auto.
  - destruct (basesReady e u) eqn:B.
    + eexists _, _. split; [reflexivity|]. split.
      { constructor; cbn [insts strs full root keys]; auto.
        - intros v x GV. destruct (I2 v x GV); [auto|right; right; auto].
        - intros y x. rewrite find_app by auto. destruct (list_eq_dec N.eq_dec (args u) y) as [<-|]; [intros E; injection E as <-; split; auto; left; auto|].
          intros E. destruct (I4 _ _ E). split; auto. right; auto.
        - intros x [<-|FX].
          + split; auto. rewrite find_app by auto. destruct (list_eq_dec N.eq_dec (args u) (args u)); congruence.
          + destruct (I5 x FX) as [A' B']. split; auto. rewrite find_app by auto.
            destruct (list_eq_dec N.eq_dec (args u) (args x)) as [E|]; auto. congruence. }
      assert (DN : done (mkSt (insts st) (strs st ++ [(args u, u)]) (u :: full st) (root st) (keys st)) u).
      { exists u. split; [exact G|left; reflexivity]. }
      split; [|split; [auto|split; auto]].
      split; [reflexivity|]. split; [right; auto|]. split; [auto|]. cbn [full]. intros v [<-|FV]; [congruence|]. destruct (I5 v FV). congruence.
    + exists st, false. repeat (split; [solve [auto using grows_refl]|]). split; [discriminate|].
      intros s' E. injection E as <-. intros; congruence.
Qed.

Lemma done_grows : forall st st' u, grows st st' -> done st u -> done st' u.
Proof. intros st st' u (A & B & C & D) (c & G & F). exists c. split; auto. Qed.

Lemma turns_ok : forall e l st aok, inv st -> (forall u, In u l -> In u (map fst (insts st))) -> NoDup l ->
  exists st' aok', fold_left (turn args e) l (Some (st, aok)) = Some (st', aok') /\ inv st' /\ grows st st' /\
    (aok' = true -> aok = true /\ forall u, In u l -> done st' u \/ (exists s, get (insts st) u = Some s /\ (skipped e s = true \/ copy e s = true))) /\
    (forall u s, In u l -> get (insts st) u = Some s -> skipped e s = false -> copy e s = false -> pending e s = false -> basesReady e s = true -> done st' u).
Proof.
  intros e l. induction l as [|u l IH]; intros st aok I IN ND.
  - exists st, aok. cbn. split; auto. split; auto. split; [apply grows_refl; auto|]. split; [intros ->; split; auto; intros u []|]. intros u s [].
  - destruct (turn_ok e st aok u I ltac:(apply IN; left; auto)) as (s1 & a1 & E1 & I1 & G1 & O1 & A1 & P1).
    inversion ND as [|x y NU ND']; subst.
    destruct (IH s1 a1 I1) as (s2 & a2 & E2 & I2 & G2 & A2 & P2); auto.
    { intros v V. destruct G1 as [-> _]. apply IN. right; auto. }
    exists s2, a2. cbn [fold_left]. rewrite E1. split; auto. split; auto. split; [eapply grows_trans; eauto|]. split.
    + intros K. destruct (A2 K) as [K1 Q]. destruct (A1 K1) as [K0 Q0]. split; auto. intros v [<-|V].
      * destruct Q0 as [Q0|Q0]; [left; eapply done_grows; eauto|right; auto].
      * destruct (Q v V) as [Q1|Q1]; auto. right. rewrite O1 in Q1; auto. intros ->. contradiction.
    + intros v s [<-|V] G HS HC HP HB; [eapply done_grows; [eauto|]; eapply P1; eauto|].
      apply (P2 v s); auto. rewrite O1; auto. intros ->. contradiction.
Qed.

Lemma round_ok : forall e st, inv st -> exists st' aok, fullyInstantiate args e st = Some (st', aok) /\ inv st' /\ grows st st' /\
    (aok = true -> forall u, In u (map fst (insts st)) -> done st' u \/ (exists s, get (insts st) u = Some s /\ (skipped e s = true \/ copy e s = true))) /\
    (forall u s, get (insts st) u = Some s -> skipped e s = false -> copy e s = false -> pending e s = false -> basesReady e s = true -> done st' u).
Proof.
  intros e st I. destruct (turns_ok e (map fst (insts st)) st true I) as (s & a & E & IS & G & A & P); auto.
  { apply i_nodup; auto. }
  exists s, a. split; [exact E|]. split; auto. split; auto. split; [intros K; apply A; auto|].
  intros u x GX HS HC HP HB. eapply P; eauto. apply in_keys. congruence.
Qed.

(* what a whole run keeps *)
Lemma run_inv : forall ops st st', inv st -> run args ops st = Some st' ->
  inv st' /\ (forall u s, get (insts st) u = Some s -> In s (full st) -> get (insts st') u = Some s /\ In s (full st')) /\
  (forall u, get (insts st') u <> None <-> get (insts st) u <> None \/ In u (uses ops)).
Proof.
  induction ops as [|[u|e] ops IH]; intros st st' I R; cbn [run uses] in *.
  - injection R as <-. split; auto. split; auto. intros u. cbn. tauto.
  - destruct (use st u) as [s1|] eqn:E; [|discriminate]. pose proof (inv_use st u s1 I E) as I1.
    destruct (IH s1 st' I1 R) as (A & B & C). split; auto.
    unfold use in E. destruct (get (insts st) u) eqn:G; [discriminate|]. injection E as <-. cbn [insts full] in B, C. split.
    + intros v s GV F. apply B; auto. rewrite get_insert by auto. destruct (N.eqb_spec u v); [congruence|auto].
    + intros v. rewrite C. rewrite get_insert by auto. cbn [In]. destruct (N.eqb_spec u v) as [->|NE]; [rewrite G; split; auto; left; discriminate|].
      intuition congruence.
  - destruct (round_ok e st I) as (s1 & a1 & E & I1 & (G1 & G2 & G3 & G4) & _). rewrite E in R.
    destruct (IH s1 st' I1 R) as (A & B & C). split; auto. split.
    + intros v s GV F. apply B; auto.
    + intros v. rewrite C. rewrite <- !in_keys. rewrite G1. tauto.
Qed.

(* nothing but using an index twice makes the run stop *)
Lemma run_some : forall ops st, inv st -> NoDup (uses ops) -> (forall u, In u (uses ops) -> get (insts st) u = None) ->
  exists st', run args ops st = Some st'.
Proof.
  induction ops as [|[u|e] ops IH]; intros st I ND FR; cbn [run uses] in *.
  - eauto.
  - inversion ND as [|x y NU ND']; subst. assert (G : get (insts st) u = None) by (apply FR; left; auto).
    destruct (use st u) as [s1|] eqn:E; [|unfold use in E; rewrite G in E; discriminate].
    apply IH; auto; [eapply inv_use; eauto|]. intros v V. unfold use in E. rewrite G in E. injection E as <-. cbn [insts].
    rewrite get_insert by auto. destruct (N.eqb_spec u v); [congruence|]. apply FR. right; auto.
  - destruct (round_ok e st I) as (s1 & a1 & E & I1 & (G1 & _) & _). rewrite E. apply IH; auto.
    intros v V. destruct (get (insts s1) v) eqn:G; auto. exfalso.
    assert (In v (map fst (insts s1))) as H by (apply in_keys; congruence). rewrite G1, in_keys in H. apply H. auto.
Qed.
End T.

(* C105: the assertions hold: uses with indexes of their own never stop the compiler *)
Theorem C105_no_abort : forall args ops, NoDup (uses ops) -> exists st, run args ops empty = Some st /\
  forall u, get (insts st) u <> None <-> In u (uses ops).
Proof.
  intros args ops ND. destruct (run_some args ops empty (inv_empty args) ND) as (st & R); [reflexivity|].
  exists st. split; auto. intros u. destruct (run_inv args ops empty st (inv_empty args) R) as (_ & _ & C). rewrite C. cbn. intuition congruence.
Qed.
Print Assumptions C105_no_abort.

(* C105: two uses that have become classes have become the same class exactly if their arguments are the same *)
Theorem C105_same : forall args ops st u v c d, run args ops empty = Some st -> is_class st u c -> is_class st v d ->
  (c = d <-> args u = args v).
Proof.
  intros args ops st u v c d R [GU FU] [GV FV]. destruct (run_inv args ops empty st (inv_empty args) R) as (I & _).
  rewrite <- (i_args _ _ I u c GU), <- (i_args _ _ I v d GV). split; [congruence|]. intros E.
  destruct (i_full _ _ I c FU) as [A _], (i_full _ _ I d FV) as [B _]. congruence.
Qed.
Print Assumptions C105_same.

(* C105: the alias of a use is its class, and the class is its own; so is the key *)
Theorem C105_alias : forall args ops st u c, run args ops empty = Some st -> is_class st u c ->
  get (root st) u = Some c /\ get (root st) c = Some c /\ get (keys st) u = Some c /\ is_class st c c.
Proof.
  intros args ops st u c R [GU FU]. destruct (run_inv args ops empty st (inv_empty args) R) as (I & _).
  destruct (i_full _ _ I c FU) as [_ GC]. rewrite !(i_root _ _ I), (i_key _ _ I). repeat split; auto.
Qed.
Print Assumptions C105_alias.

(* C105: what has become a class stays that class *)
Theorem C105_stable : forall args ops more st st' u c, run args ops empty = Some st -> run args more st = Some st' ->
  is_class st u c -> is_class st' u c.
Proof.
  intros args ops more st st' u c R R' [G F]. destruct (run_inv args ops empty st (inv_empty args) R) as (I & _).
  destruct (run_inv args more st st' I R') as (_ & B & _). exact (B u c G F).
Qed.
Print Assumptions C105_stable.

(* C105: a round that finds everything in order leaves no stub, but those it is told to skip and copies; and what has
   its arguments and its bases ready becomes a class in the very next round *)
Theorem C105_round : forall args ops st e, run args ops empty = Some st -> exists st' aok,
  fullyInstantiate args e st = Some (st', aok) /\
  (aok = true -> forall u s, get (insts st) u = Some s -> (exists c, is_class st' u c) \/ skipped e s = true \/ copy e s = true) /\
  (forall u s, get (insts st) u = Some s -> skipped e s = false -> copy e s = false -> pending e s = false -> basesReady e s = true ->
     exists c, is_class st' u c).
Proof.
  intros args ops st e R. destruct (run_inv args ops empty st (inv_empty args) R) as (I & _).
  destruct (round_ok args e st I) as (s1 & a1 & E & _ & _ & A & P). exists s1, a1. split; auto. split; [|exact P].
  intros K u s G. destruct (A K u) as [D|(x & GX & D)]; [apply in_keys; congruence|left; exact D|right; congruence].
Qed.
Print Assumptions C105_round.

(* a stub that has to wait *)
Definition waits (e : round) (u : N) : Prop := skipped e u = true \/ copy e u = true \/ pending e u = true.
Lemma turn_waits : forall args e st aok v u st' aok', inv args st -> In v (map fst (insts st)) ->
  turn args e (Some (st, aok)) v = Some (st', aok') -> get (insts st) u = Some u -> ~ In u (full st) ->
  (aok' = true -> aok = true) /\
  (waits e u -> get (insts st') u = Some u /\ ~ In u (full st')) /\
  (basesReady e u = false -> ~ In u (full st') /\ (get (insts st') u = Some u \/ exists c, is_class st' u c /\ c <> u)) /\
  (v = u -> skipped e u = false -> copy e u = false -> pending e u = true -> aok' = false).
Proof.
  intros args e st aok v u st' aok' I V E G NF. revert E. unfold turn. apply in_keys in V.
  destruct (get (insts st) v) as [s|] eqn:GV; [|contradiction].
  assert (FU : isFull st u = false) by (destruct (isFull st u) eqn:X; auto; apply isFull_in in X; contradiction).
  destruct (skipped e s) eqn:SK. { intros E; injection E as <- <-. (split; [auto|]). split; [auto|]. split; [auto|]. intros ->. congruence. }
  destruct (isFull st s) eqn:F. { intros E; injection E as <- <-. (split; [auto|]). split; [auto|]. split; [auto|]. intros ->. congruence. }
  assert (s = v). { destruct (i_sym _ _ I v s GV) as [|X]; auto. apply isFull_in in X. congruence. } subst s.
  destruct (copy e v) eqn:CP. { intros E; injection E as <- <-. (split; [auto|]). split; [auto|]. split; [auto|]. intros ->. congruence. }
  destruct (pending e v) eqn:PD. { intros E; injection E as <- <-. (split; [discriminate|]). split; [auto|]. split; [auto|]. auto. }
  destruct (find_text (strs st) (args v)) as [d|] eqn:FT.
  - destruct (isFull st d) eqn:FD; [|discriminate]. unfold mergeClassUTI, replaceUTIKeyAndAlias. cbn [insts strs full root keys].
    intros E; injection E as <- <-. cbn [insts full]. apply isFull_in in FD. split; [intros X; apply andb_prop in X; tauto|].
    assert (GP : forall x, get (put (insts st) v d) x = if v =? x then Some d else get (insts st) x) by (intros x; apply get_put; congruence).
    unfold is_class. cbn [insts full]. rewrite !GP. destruct (N.eqb_spec v u) as [->|NE].
    + split; [unfold waits; intuition congruence|]. split; [|intros; congruence].
      intros _. split; auto. right. exists d. split; [auto|]. intros ->. contradiction.
    + split; [auto|]. split; [auto|]. congruence.
  - destruct (basesReady e v) eqn:B.
    + intros E; injection E as <- <-. cbn [insts full]. split; auto. destruct (N.eqb_spec v u) as [->|NE].
      * split; [unfold waits; intuition congruence|]. split; intros; congruence.
      * cbn [In]. split; [intuition|]. split; [intuition|]. congruence.
    + intros E; injection E as <- <-. (split; [discriminate|]). split; [auto|]. split; [auto|]. intros; congruence.
Qed.

Lemma turns_waits : forall args e l st aok u st' aok', inv args st -> (forall v, In v l -> In v (map fst (insts st))) ->
  fold_left (turn args e) l (Some (st, aok)) = Some (st', aok') -> get (insts st) u = Some u -> ~ In u (full st) ->
  (aok' = true -> aok = true) /\
  (waits e u -> get (insts st') u = Some u /\ ~ In u (full st') /\
     (In u l -> skipped e u = false -> copy e u = false -> pending e u = true -> aok' = false)) /\
  (basesReady e u = false -> ~ In u (full st')).
Proof.
  intros args e. induction l as [|v l IH]; intros st aok u st' aok' I IN E G NF; cbn [fold_left] in E.
  { injection E as <- <-. split; auto. split; auto. intros _. split; auto. split; auto. intros []. }
  destruct (turn_ok args e st aok v I ltac:(apply IN; left; auto)) as (s1 & a1 & E1 & I1 & (K1 & F1 & C1 & _) & _).
  rewrite E1 in E. destruct (turn_waits args e st aok v u s1 a1 I ltac:(apply IN; left; auto) E1 G NF) as (A & B & C & D).
  assert (IN1 : forall x, In x l -> In x (map fst (insts s1))) by (intros x X; rewrite K1; apply IN; right; auto).
  assert (MON : forall l s a s' a', inv args s -> (forall x, In x l -> In x (map fst (insts s))) ->
     fold_left (turn args e) l (Some (s, a)) = Some (s', a') -> (a' = true -> a = true) /\
     (forall x c, is_class s x c -> c <> x -> ~ In x (full s) -> ~ In x (full s'))).
  { clear. induction l as [|v l IH]; intros s a s' a' I IN E; cbn [fold_left] in E; [injection E as <- <-; split; auto|].
    destruct (turn_ok args e s a v I ltac:(apply IN; left; auto)) as (s1 & a1 & E1 & I1 & (K1 & F1 & C1 & D1) & O1 & A1 & _).
    rewrite E1 in E. destruct (IH s1 a1 s' a' I1) as [M1 M2]; auto. { intros x X. rewrite K1. apply IN. right; auto. }
    split; [intros X; apply A1; auto|]. intros x c [GX FX] NE NX.
    apply (M2 x c); auto; [split; auto|].
    intros X. destruct (i_full _ _ I1 x X) as [_ Y]. rewrite (C1 x c GX FX) in Y. congruence. }
  destruct (MON l s1 a1 st' aok' I1 IN1 E) as [M1 M2]. split; [auto|]. split.
  - intros W. destruct (B W) as [G1 NF1]. destruct (IH s1 a1 u st' aok' I1 IN1 E G1 NF1) as (_ & P & _).
    destruct (P W) as (P1 & P2 & P3). split; auto. split; auto. intros [X|X] HS HC HP; [|auto].
    assert (a1 = false) as -> by (apply D; auto). destruct aok'; auto. discriminate M1; auto.
  - intros BR. destruct (C BR) as [NF1 [G1|(c & IC & NE)]].
    + destruct (IH s1 a1 u st' aok' I1 IN1 E G1 NF1) as (_ & _ & P). auto.
    + eapply M2; eauto.
Qed.

(* C105: what is skipped, is a copy or waits for its arguments stays a stub, and a round in which something waits for its
   arguments complains; nothing becomes a class of its own before its bases are ready *)
Theorem C105_waits : forall args ops st e st' aok u, run args ops empty = Some st -> get (insts st) u = Some u -> ~ In u (full st) ->
  fullyInstantiate args e st = Some (st', aok) ->
  (skipped e u = true \/ copy e u = true \/ pending e u = true -> get (insts st') u = Some u /\ ~ exists c, is_class st' u c) /\
  (skipped e u = false -> copy e u = false -> pending e u = true -> aok = false) /\
  (basesReady e u = false -> ~ is_class st' u u).
Proof.
  intros args ops st e st' aok u R G NF E. destruct (run_inv args ops empty st (inv_empty args) R) as (I & _).
  destruct (turns_waits args e (map fst (insts st)) st true u st' aok I ltac:(auto) E G NF) as (_ & W & B).
  split; [|split].
  - intros X. destruct (W X) as (A & C & _). split; auto. intros (c & GC & FC). congruence.
  - intros HS HC HP. destruct W as (_ & _ & W); [right; right; auto|]. apply W; auto. apply in_keys. congruence.
  - intros X [_ Y]. exact (B X Y).
Qed.
Print Assumptions C105_waits.

Lemma count_le : forall args st d u, inv args st -> args d = args u ->
  (length (filter (fun p => snd p =? d) (keys st)) <= length (same_args args u (map fst (keys st))))%nat.
Proof.
  intros args st d u I E.
  assert (H : forall l, (forall k x, In (k, x) l -> get (keys st) k = Some x) ->
    (length (filter (fun p => snd p =? d) l) <= length (same_args args u (map fst l)))%nat).
  { induction l as [|[k x] l IH]; intros H; [cbn; lia|]. unfold same_args in *. cbn [filter map fst snd].
    specialize (IH (fun k x V => H k x (or_intror V))).
    destruct (N.eqb_spec x d) as [->|].
    - assert (get (insts st) k = Some d) as G by (rewrite <- (i_key _ _ I); apply H; left; auto).
      apply (i_args _ _ I) in G. destruct (list_eq_dec N.eq_dec (args k) (args u)); [cbn [length]; lia|congruence].
    - destruct (list_eq_dec N.eq_dec (args k) (args u)); cbn [length]; lia. }
  apply H. intros k x V. pose proof (i_knodup _ _ I) as ND. revert V ND. generalize (keys st).
  induction l as [|[k' x'] l IH]; intros V ND; [contradiction|]. cbn in ND. inversion ND as [|y z NI ND']; subst. cbn [get].
  destruct V as [V|V]; [injection V as -> ->; rewrite N.eqb_refl; auto|].
  destruct (N.eqb_spec k' k) as [->|]; [|auto]. exfalso. apply NI. apply in_map_iff. exists (k, x). auto.
Qed.

Definition few (args : N -> text) (l : list N) (st : state) : Prop :=
  (forall u, In u (map fst (insts st)) -> 100 < u -> N.of_nat (length (same_args args u l)) < u / 10) /\
  (forall u, In u (map fst (insts st)) -> In u l).

Lemma turn_few : forall args e l st aok u, inv args st -> few args l st -> In u (map fst (insts st)) ->
  (forall s, pending e s = false) -> (forall s, basesReady e s = true) ->
  exists st', turn args e (Some (st, aok)) u = Some (st', aok).
Proof.
  intros args e l st aok u I [FW IN] U HP HB. pose proof (turn_ok args e st aok u I U) as (s1 & a1 & E & I1 & G1 & _).
  revert E. unfold turn. apply in_keys in U. destruct (get (insts st) u) as [s|] eqn:G; [|contradiction].
  destruct (skipped e s); [eauto|]. destruct (isFull st s) eqn:F; [eauto|]. destruct (copy e s); [eauto|]. rewrite HP.
  destruct (find_text (strs st) (args s)) as [d|] eqn:FT; [|rewrite HB; eauto].
  destruct (isFull st d) eqn:FD; [|discriminate].
  assert (s = u) as ->. { destruct (i_sym _ _ I u s G) as [|X]; auto. apply isFull_in in X. congruence. }
  unfold mergeClassUTI, replaceUTIKeyAndAlias. cbn [insts strs full root keys].
  destruct ((100 <? u) && (u / 10 <=? N.of_nat (length (filter (fun p => snd p =? d) (put (keys st) u d))))) eqn:TM.
  2: { rewrite N.eqb_refl, andb_true_r. eauto. }
  exfalso. apply andb_prop in TM as [T1 T2]. apply N.ltb_lt in T1. apply N.leb_le in T2.
  assert (UI : In u (map fst (insts st))) by (apply in_keys; congruence).
  specialize (FW u UI T1).
  set (k1 := put (keys st) u d) in *.
  pose (st1 := mkSt (put (insts st) u d) (strs st) (full st) (put (root st) u d) k1).
  assert (I' : inv args st1).
  { pose proof (turn_ok args (mkRound (fun _ => false) (fun _ => false) (fun _ => false) (fun _ => true)) st true u I UI) as (s2 & a2 & E2 & I2 & _).
    unfold turn in E2. rewrite G in E2. cbn [skipped copy pending basesReady] in E2. rewrite F, FT, FD in E2.
    unfold mergeClassUTI, replaceUTIKeyAndAlias in E2. cbn [insts strs full root keys] in E2. injection E2 as <- _. exact I2. }
  assert (AD : args d = args u). { apply (i_str _ _ I) in FT. tauto. }
  pose proof (count_le args st1 d u I' AD) as CL. cbn [keys st1] in CL.
  assert (LE : (length (same_args args u (map fst k1)) <= length (same_args args u l))%nat).
  { apply NoDup_incl_length.
    - unfold same_args. apply NoDup_filter. unfold k1. rewrite keys_put. apply (i_knodup _ _ I).
    - intros v V. unfold same_args in *. apply filter_In in V as [V1 V2]. apply filter_In. split; auto. apply IN.
      unfold k1 in V1. rewrite keys_put in V1. rewrite in_keys in V1. rewrite (i_key _ _ I) in V1. apply in_keys. auto. }
  lia.
Qed.

(* C105: when nothing has to wait, a round complains only if a use with a type index above 100 is one of too many: with
   a tenth of its index or more uses of the same arguments *)
Theorem C105_few_uses : forall args ops st e st' aok, run args ops empty = Some st ->
  (forall s, pending e s = false) -> (forall s, basesReady e s = true) ->
  (forall u, In u (uses ops) -> 100 < u -> N.of_nat (length (same_args args u (uses ops))) < u / 10) ->
  fullyInstantiate args e st = Some (st', aok) -> aok = true.
Proof.
  intros args ops st e st' aok R HP HB FW E. destruct (run_inv args ops empty st (inv_empty args) R) as (I & _ & C).
  assert (FS : few args (uses ops) st).
  { assert (IU : forall u, In u (map fst (insts st)) -> In u (uses ops)).
    { intros u U. apply in_keys, C in U. cbn in U. destruct U as [U|U]; [congruence|auto]. }
    split; auto. }
  unfold fullyInstantiate in E.
  assert (H : forall l s, inv args s -> few args (uses ops) s -> (forall u, In u l -> In u (map fst (insts s))) ->
    exists s', fold_left (turn args e) l (Some (s, true)) = Some (s', true)).
  { induction l as [|u l IH]; intros s IS FSS IN; [cbn; eauto|]. cbn [fold_left].
    destruct (turn_few args e (uses ops) s true u IS FSS ltac:(apply IN; left; auto) HP HB) as (s1 & E1). rewrite E1.
    destruct (turn_ok args e s true u IS ltac:(apply IN; left; auto)) as (s2 & a2 & E2 & I2 & (K & _) & _).
    rewrite E1 in E2. injection E2 as <- <-. apply IH; auto.
    - unfold few in *. rewrite K. auto.
    - intros v V. rewrite K. apply IN. right; auto. }
  destruct (H (map fst (insts st)) st I FS ltac:(auto)) as (s' & E'). rewrite E' in E. injection E as _ <-. reflexivity.
Qed.
Print Assumptions C105_few_uses.

(* refuted: that a round complains only about circular templates.  110 uses with the same argument, nine type indexes
   apart, are called circular, though every one of them becomes the one class *)
Definition plain_uses : list N := map (fun i => 110 + 9 * N.of_nat i) (seq 0 110).
Theorem C105_circular_refuted : exists st st', run (fun _ => txt "n"%string) (map Use plain_uses) empty = Some st /\
  fullyInstantiate (fun _ => txt "n"%string) all_ready st = Some (st', false) /\
  forall u, In u plain_uses -> is_class st' u 110.
Proof.
  set (r1 := run (fun _ => txt "n"%string) (map Use plain_uses) empty).
  assert (E1 : exists st, r1 = Some st) by (vm_compute; eauto). destruct E1 as [st E1].
  set (chk := match r1 with Some st => match fullyInstantiate (fun _ => txt "n"%string) all_ready st with
     Some (st', a) => negb a && forallb (fun u => match get (insts st') u with Some c => (c =? 110) && existsb (N.eqb c) (full st') | None => false end) plain_uses
     | None => false end | None => false end).
  assert (E2 : chk = true) by (vm_compute; reflexivity). unfold chk in E2. rewrite E1 in E2.
  destruct (fullyInstantiate (fun _ => txt "n"%string) all_ready st) as [[st' a]|] eqn:E3; [|discriminate].
  apply andb_prop in E2 as [A B]. destruct a; [discriminate|]. exists st, st'. split; [exact E1|]. split; [exact E3|].
  intros u U. rewrite forallb_forall in B. specialize (B u U). destruct (get (insts st') u) as [c|] eqn:G; [|discriminate].
  apply andb_prop in B as [B1 B2]. apply N.eqb_eq in B1. subst c. split; auto. apply isFull_in. exact B2.
Qed.
Print Assumptions C105_circular_refuted.

(* three uses, the third with the arguments of the first, the second waits for its arguments for a round *)
Example C105_ex : exists st st', let args := fun u => if u =? 51 then txt "b"%string else txt "a"%string in
  let wait := mkRound (fun _ => false) (fun _ => false) (fun u => u =? 51) (fun _ => true) in
  NoDup (uses [Use 50; Use 51; Use 52; Round wait]) /\
  run args [Use 50; Use 51; Use 52; Round wait] empty = Some st /\
  is_class st 50 50 /\ is_class st 52 50 /\ ~ (exists c, is_class st 51 c) /\
  fullyInstantiate args all_ready st = Some (st', true) /\ is_class st' 51 51 /\ is_class st' 52 50 /\
  (forall u, In u [50; 51; 52] -> 100 < u -> N.of_nat (length (same_args args u [50; 51; 52])) < u / 10).
Proof.
  eexists _, _. cbv zeta. split; [repeat constructor; cbn; intuition discriminate|]. split; [vm_compute; reflexivity|].
  split; [split; [reflexivity|cbn; auto]|]. split; [split; [reflexivity|cbn; auto]|].
  split; [intros (c & G & F); cbn in G; injection G as <-; cbn in F; intuition discriminate|].
  split; [vm_compute; reflexivity|]. split; [split; [reflexivity|cbn; auto]|]. split; [split; [reflexivity|cbn; auto]|].
  intros u [<-|[<-|[<-|[]]]]; lia.
Qed.
