(* Proofs for OrderModel.v *)
From Coq Require Import List NArith ZArith Lia Bool.
From Coq Require Import ZifyBool ZifyNat ZifyN.
Import ListNotations.
From Verif Require Import UTypeModel PrimModel OrderModel OrderSpec.
Open Scope N_scope.

Scheme expr_i := Induction for expr Sort Prop
with lval_i := Induction for lval Sort Prop
with exprs_i := Induction for exprs Sort Prop.
Combined Scheme expr_all from expr_i, lval_i, exprs_i.

(* ---- truth ---- *)
Lemma testbit_div2 v k : N.testbit (N.div2 v) k = N.testbit v (N.succ k).
Proof. rewrite N.div2_spec, N.shiftr_spec'. f_equal. lia. Qed.

Lemma pop_shift n v : popcount (S n) v = ((if N.odd v then 1 else 0) + popcount n (N.div2 v))%nat.
Proof.
  revert v. induction n; intros v.
  - cbn [popcount]. replace (N.of_nat 0) with 0 by lia. rewrite N.bit0_odd. lia.
  - change (popcount (S (S n)) v) with ((if N.testbit v (N.of_nat (S n)) then 1 else 0) + popcount (S n) v)%nat.
    rewrite IHn. change (popcount (S n) (N.div2 v)) with
      ((if N.testbit (N.div2 v) (N.of_nat n) then 1 else 0) + popcount n (N.div2 v))%nat.
    rewrite testbit_div2. replace (N.succ (N.of_nat n)) with (N.of_nat (S n)) by lia. lia.
Qed.

Lemma pop_ones n v : popcount n v = ones n v.
Proof.
  revert v. induction n; intros v; [reflexivity|]. rewrite pop_shift, IHn. reflexivity.
Qed.

Lemma cbool_truth n v : cbool n v = true <-> truth n v.
Proof.
  unfold cbool, truth. cbn [ext_val]. rewrite pop_ones. replace (Z.to_nat (Z.of_N n)) with (N.to_nat n) by lia.
  destruct (Z.of_N n <? 2 * Z.of_nat (ones (N.to_nat n) v))%Z eqn:E; lia.
Qed.

Lemma cbool_one v : v < 2 -> cbool 1 v = negb (v =? 0).
Proof. intros H. assert (v = 0 \/ v = 1) as [-> | ->] by lia; reflexivity. Qed.

(* ---- stores ---- *)
Lemma same_refl s : same_store s s. Proof. intros x i. reflexivity. Qed.
Lemma same_sym s t : same_store s t -> same_store t s. Proof. intros H x i. symmetry. apply H. Qed.
Lemma same_trans s t u : same_store s t -> same_store t u -> same_store s u.
Proof. intros H G x i. rewrite H. apply G. Qed.

Definition agree (A : N -> Prop) (s t : store) : Prop := forall x i, A x -> s x i = t x i.

Lemma agree_upd A s t x i v : agree A s t -> agree A (upd s x i v) (upd t x i v).
Proof. intros H y j Hy. unfold upd. destruct ((y =? x) && (j =? i)); auto. Qed.

Lemma same_upd s t x i v : same_store s t -> same_store (upd s x i v) (upd t x i v).
Proof. intros H y j. unfold upd. destruct ((y =? x) && (j =? i)); auto. Qed.

Lemma upd_other s x i v y j : y <> x -> upd s x i v y j = s y j.
Proof. intros H. unfold upd. replace (y =? x) with false by lia. reflexivity. Qed.

Definition agr3 (A : N -> Prop) (r q : option (N * N * store)) : Prop :=
  match r, q with
  | None, None => True
  | Some (x, i, s), Some (y, j, t) => x = y /\ i = j /\ agree A s t
  | _, _ => False
  end.
Definition agrV {V} (A : N -> Prop) (r q : option (V * store)) : Prop :=
  match r, q with
  | None, None => True
  | Some (v, s), Some (w, t) => v = w /\ agree A s t
  | _, _ => False
  end.
Definition agrS (A : N -> Prop) (r q : option store) : Prop :=
  match r, q with None, None => True | Some s, Some t => agree A s t | _, _ => False end.

Ltac brk := repeat match goal with
  | H : _ /\ _ |- _ => destruct H
  | H : exists _, _ |- _ => destruct H
  end.

Section Frame.
Variables (P : prog) (fr fw : N -> list N).
Variable call : callT.
(* a call changes only what it may write, and depends only on what it may read *)
Hypothesis call_w : forall f vs s r s1, call f vs s = Some (r, s1) -> forall x i, ~ In x (fw f) -> s1 x i = s x i.
Hypothesis call_r : forall f vs s t (A : N -> Prop), (forall x, In x (fr f) -> A x) -> agree A s t ->
  agrV A (call f vs s) (call f vs t).

Notation EV := (evalE P call).
Notation EL := (evalL P call).
Notation EA := (evalArgs P call).
Notation RD := (reads fr).
Notation WR := (writes fw).

Ltac foldRW := fold (reads fr) (readsL fr) (readsA fr) (writes fw) (writesL fw) (writesA fw).

Lemma eval_writes args :
  (forall e s r s1, EV args e s = Some (r, s1) -> forall x i, ~ In x (WR e) -> s1 x i = s x i) /\
  (forall l s y j s1, EL args l s = Some (y, j, s1) -> y = lvar l /\ forall x i, ~ In x (writesL fw l) -> s1 x i = s x i) /\
  (forall es s r s1, EA args es s = Some (r, s1) -> forall x i, ~ In x (writesA fw es) -> s1 x i = s x i).
Proof.
  apply expr_all; cbn [evalE evalL evalArgs writes writesL writesA lvar]; fold (EV args) (EL args) (EA args); foldRW.
  - intros v s r s1 H. injection H as <- <-. auto.
  - intros k s r s1 H. destruct (nth_error args k); [|discriminate]. injection H as <- <-. auto.
  - intros l IH s r s1 H x i Hx. destruct (EL args l s) as [[[y j] s']|] eqn:E; [|discriminate]. injection H as <- <-.
    apply (IH _ _ _ _ E); auto.
  - intros f e IH s r s1 H x i Hx. destruct (EV args e s) as [[v s']|] eqn:E; [|discriminate].
    destruct (p_op1 P f v); [|discriminate]. injection H as <- <-. apply (IH _ _ _ E); auto.
  - intros f a IHa b IHb s r s1 H x i Hx. destruct (EV args a s) as [[v s']|] eqn:E; [|discriminate].
    destruct (EV args b s') as [[w s'']|] eqn:E2; [|discriminate]. destruct (p_op2 P f v w); [|discriminate].
    injection H as <- <-. rewrite in_app_iff in Hx. rewrite (IHb _ _ _ E2), (IHa _ _ _ E); tauto.
  - intros l IHl e IHe s r s1 H x i Hx. destruct (EL args l s) as [[[y j] s']|] eqn:E; [|discriminate].
    destruct (EV args e s') as [[w s'']|] eqn:E2; [|discriminate]. injection H as <- <-.
    destruct (IHl _ _ _ _ E) as [-> HL]. cbn [In] in Hx. rewrite in_app_iff in Hx.
    rewrite upd_other by (intros ->; tauto). rewrite (IHe _ _ _ E2), HL; tauto.
  - intros f l IHl e IHe s r s1 H x i Hx. destruct (EL args l s) as [[[y j] s']|] eqn:E; [|discriminate].
    destruct (EV args e s') as [[w s'']|] eqn:E2; [|discriminate]. destruct (p_op2 P f _ w); [|discriminate]. injection H as <- <-.
    destruct (IHl _ _ _ _ E) as [-> HL]. cbn [In] in Hx. rewrite in_app_iff in Hx.
    rewrite upd_other by (intros ->; tauto). rewrite (IHe _ _ _ E2), HL; tauto.
  - intros f l IHl e IHe s r s1 H x i Hx. destruct (EL args l s) as [[[y j] s']|] eqn:E; [|discriminate].
    destruct (EV args e s') as [[w s'']|] eqn:E2; [|discriminate]. destruct (p_op2 P f _ w); [|discriminate]. injection H as <- <-.
    destruct (IHl _ _ _ _ E) as [-> HL]. cbn [In] in Hx. rewrite in_app_iff in Hx.
    rewrite upd_other by (intros ->; tauto). rewrite (IHe _ _ _ E2), HL; tauto.
  - intros n a IHa b IHb s r s1 H x i Hx. destruct (EV args a s) as [[v s']|] eqn:E; [|discriminate].
    destruct (32 <? n); [discriminate|]. rewrite in_app_iff in Hx. destruct (cbool n v).
    + rewrite (IHb _ _ _ H), (IHa _ _ _ E); tauto.
    + injection H as <- <-. apply (IHa _ _ _ E); tauto.
  - intros n a IHa b IHb s r s1 H x i Hx. destruct (EV args a s) as [[v s']|] eqn:E; [|discriminate].
    destruct (32 <? n); [discriminate|]. rewrite in_app_iff in Hx. destruct (cbool n v).
    + injection H as <- <-. apply (IHa _ _ _ E); tauto.
    + rewrite (IHb _ _ _ H), (IHa _ _ _ E); tauto.
  - intros c IHc a IHa b IHb s r s1 H x i Hx. destruct (EV args c s) as [[v s']|] eqn:E; [|discriminate].
    rewrite !in_app_iff in Hx. destruct (v =? 0).
    + rewrite (IHb _ _ _ H), (IHc _ _ _ E); tauto.
    + rewrite (IHa _ _ _ H), (IHc _ _ _ E); tauto.
  - intros f es IH s r s1 H x i Hx. destruct (EA args es s) as [[vs s']|] eqn:E; [|discriminate].
    rewrite in_app_iff in Hx. rewrite (call_w _ _ _ _ _ H), (IH _ _ _ E); tauto.
  - intros x s y j s1 H. injection H as <- <- <-. auto.
  - intros x n e IH s y j s1 H. destruct (EV args e s) as [[v s']|] eqn:E; [|discriminate].
    destruct (v <? n); [|discriminate]. injection H as <- <- <-. split; auto. intros z i Hz. apply (IH _ _ _ E); auto.
  - intros s r s1 H. injection H as <- <-. auto.
  - intros e IHe es IHes s r s1 H x i Hx. destruct (EA args es s) as [[vs s']|] eqn:E; [|discriminate].
    destruct (EV args e s') as [[v s'']|] eqn:E2; [|discriminate]. injection H as <- <-. rewrite in_app_iff in Hx.
    rewrite (IHe _ _ _ E2), (IHes _ _ _ E); tauto.
Qed.

Lemma eval_reads args (A : N -> Prop) :
  (forall e s t, (forall x, In x (RD e) -> A x) -> agree A s t -> agrV A (EV args e s) (EV args e t)) /\
  (forall l s t, (forall x, In x (readsL fr l) -> A x) -> agree A s t -> agr3 A (EL args l s) (EL args l t)) /\
  (forall es s t, (forall x, In x (readsA fr es) -> A x) -> agree A s t -> agrV A (EA args es s) (EA args es t)).
Proof.
  apply expr_all; cbn [evalE evalL evalArgs reads readsL readsA]; fold (EV args) (EL args) (EA args); foldRW.
  - intros v s t _ H. cbn. auto.
  - intros k s t _ H. destruct (nth_error args k); cbn; auto.
  - intros l IH s t HR H. specialize (IH s t). cbn [In] in HR.
    assert (HL : agr3 A (EL args l s) (EL args l t)) by (apply IH; auto; intros; apply HR; tauto).
    pose proof (proj1 (proj2 (eval_writes args)) l s) as Ws.
    unfold agr3 in HL. destruct (EL args l s) as [[[y j] s']|]; destruct (EL args l t) as [[[y' j'] t']|]; cbn; auto; try tauto.
    destruct HL as (<- & <- & HA). split; auto. destruct (Ws _ _ _ eq_refl) as [-> _]. apply HA. apply HR. auto.
  - intros f e IH s t HR H. specialize (IH s t HR H). unfold agrV in IH |- *.
    destruct (EV args e s) as [[v s']|]; destruct (EV args e t) as [[v' t']|]; try tauto. destruct IH as [<- HA].
    destruct (p_op1 P f v); auto.
  - intros f a IHa b IHb s t HR H. assert (Ha := IHa s t (fun x Hx => HR x (in_or_app _ _ _ (or_introl Hx))) H).
    unfold agrV in Ha |- *.
    destruct (EV args a s) as [[v s']|]; destruct (EV args a t) as [[v' t']|]; try tauto. destruct Ha as [<- HA].
    assert (Hb := IHb s' t' (fun x Hx => HR x (in_or_app _ _ _ (or_intror Hx))) HA). unfold agrV in Hb.
    destruct (EV args b s') as [[w s'']|]; destruct (EV args b t') as [[w' t'']|]; try tauto. destruct Hb as [<- HB].
    destruct (p_op2 P f v w); auto.
  - intros l IHl e IHe s t HR H. assert (Ha := IHl s t (fun x Hx => HR x (in_or_app _ _ _ (or_introl Hx))) H).
    unfold agr3 in Ha. unfold agrV.
    destruct (EL args l s) as [[[y j] s']|]; destruct (EL args l t) as [[[y' j'] t']|]; try tauto. destruct Ha as (<- & <- & HA).
    assert (Hb := IHe s' t' (fun x Hx => HR x (in_or_app _ _ _ (or_intror Hx))) HA). unfold agrV in Hb.
    destruct (EV args e s') as [[w s'']|]; destruct (EV args e t') as [[w' t'']|]; try tauto. destruct Hb as [<- HB].
    split; auto. apply agree_upd; auto.
  - intros f l IHl e IHe s t HR H.
    assert (Ha := IHl s t (fun x Hx => HR x (or_intror (in_or_app _ _ _ (or_introl Hx)))) H).
    pose proof (proj1 (proj2 (eval_writes args)) l s) as Ws.
    unfold agr3 in Ha. unfold agrV.
    destruct (EL args l s) as [[[y j] s']|]; destruct (EL args l t) as [[[y' j'] t']|]; try tauto. destruct Ha as (<- & <- & HA).
    assert (Hb := IHe s' t' (fun x Hx => HR x (or_intror (in_or_app _ _ _ (or_intror Hx)))) HA). unfold agrV in Hb.
    destruct (EV args e s') as [[w s'']|]; destruct (EV args e t') as [[w' t'']|]; try tauto. destruct Hb as [<- HB].
    destruct (Ws _ _ _ eq_refl) as [-> _]. rewrite <- (HB (lvar l) j) by (apply HR; left; auto).
    destruct (p_op2 P f _ w); auto. split; auto. apply agree_upd; auto.
  - intros f l IHl e IHe s t HR H.
    assert (Ha := IHl s t (fun x Hx => HR x (or_intror (in_or_app _ _ _ (or_introl Hx)))) H).
    pose proof (proj1 (proj2 (eval_writes args)) l s) as Ws.
    unfold agr3 in Ha. unfold agrV.
    destruct (EL args l s) as [[[y j] s']|]; destruct (EL args l t) as [[[y' j'] t']|]; try tauto. destruct Ha as (<- & <- & HA).
    assert (Hb := IHe s' t' (fun x Hx => HR x (or_intror (in_or_app _ _ _ (or_intror Hx)))) HA). unfold agrV in Hb.
    destruct (EV args e s') as [[w s'']|]; destruct (EV args e t') as [[w' t'']|]; try tauto. destruct Hb as [<- HB].
    destruct (Ws _ _ _ eq_refl) as [-> _]. rewrite <- (HB (lvar l) j) by (apply HR; left; auto).
    destruct (p_op2 P f _ w); auto. split; auto. apply agree_upd; auto.
  - intros n a IHa b IHb s t HR H. assert (Ha := IHa s t (fun x Hx => HR x (in_or_app _ _ _ (or_introl Hx))) H).
    unfold agrV in Ha |- *.
    destruct (EV args a s) as [[v s']|]; destruct (EV args a t) as [[v' t']|]; try tauto. destruct Ha as [<- HA].
    destruct (32 <? n); auto. destruct (cbool n v); auto.
    exact (IHb s' t' (fun x Hx => HR x (in_or_app _ _ _ (or_intror Hx))) HA).
  - intros n a IHa b IHb s t HR H. assert (Ha := IHa s t (fun x Hx => HR x (in_or_app _ _ _ (or_introl Hx))) H).
    unfold agrV in Ha |- *.
    destruct (EV args a s) as [[v s']|]; destruct (EV args a t) as [[v' t']|]; try tauto. destruct Ha as [<- HA].
    destruct (32 <? n); auto. destruct (cbool n v); auto.
    exact (IHb s' t' (fun x Hx => HR x (in_or_app _ _ _ (or_intror Hx))) HA).
  - intros c IHc a IHa b IHb s t HR H.
    assert (Ha := IHc s t (fun x Hx => HR x (in_or_app _ _ _ (or_introl Hx))) H).
    unfold agrV in Ha |- *.
    destruct (EV args c s) as [[v s']|]; destruct (EV args c t) as [[v' t']|]; try tauto. destruct Ha as [<- HA].
    destruct (v =? 0).
    + exact (IHb s' t' (fun x Hx => HR x (in_or_app _ _ _ (or_intror (in_or_app _ _ _ (or_intror Hx))))) HA).
    + exact (IHa s' t' (fun x Hx => HR x (in_or_app _ _ _ (or_intror (in_or_app _ _ _ (or_introl Hx))))) HA).
  - intros f es IH s t HR H. assert (Ha := IH s t (fun x Hx => HR x (in_or_app _ _ _ (or_intror Hx))) H).
    unfold agrV in Ha.
    destruct (EA args es s) as [[v s']|]; destruct (EA args es t) as [[v' t']|]; try tauto. destruct Ha as [<- HA].
    apply call_r; auto. intros x Hx. apply HR. apply in_or_app. auto.
  - intros x s t _ H. cbn. auto.
  - intros x n e IH s t HR H. specialize (IH s t HR H). unfold agrV in IH. unfold agr3.
    destruct (EV args e s) as [[v s']|]; destruct (EV args e t) as [[v' t']|]; try tauto. destruct IH as [<- HA].
    destruct (v <? n); auto.
  - intros s t _ H. cbn. auto.
  - intros e IHe es IHes s t HR H.
    assert (Ha := IHes s t (fun x Hx => HR x (in_or_app _ _ _ (or_intror Hx))) H).
    unfold agrV in Ha |- *.
    destruct (EA args es s) as [[v s']|]; destruct (EA args es t) as [[v' t']|]; try tauto. destruct Ha as [<- HA].
    assert (Hb := IHe s' t' (fun x Hx => HR x (in_or_app _ _ _ (or_introl Hx))) HA). unfold agrV in Hb.
    destruct (EV args e s') as [[w s'']|]; destruct (EV args e t') as [[w' t'']|]; try tauto. destruct Hb as [<- HB]. auto.
Qed.
End Frame.

(* ---- swapping two computations ---- *)
Section Swap.
Context {V W : Type}.
Variables (F : store -> option (V * store)) (G : store -> option (W * store)).
Variables (r1 w1 r2 w2 : list N).
Hypothesis Fw : forall s v s1, F s = Some (v, s1) -> forall x i, ~ In x w1 -> s1 x i = s x i.
Hypothesis Gw : forall s v s1, G s = Some (v, s1) -> forall x i, ~ In x w2 -> s1 x i = s x i.
Hypothesis Fr : forall A : N -> Prop, (forall x, In x r1 -> A x) -> forall s t, agree A s t -> agrV A (F s) (F t).
Hypothesis Gr : forall A : N -> Prop, (forall x, In x r2 -> A x) -> forall s t, agree A s t -> agrV A (G s) (G t).
Hypothesis I : indep r1 w1 r2 w2.

Definition fg (s : store) : option (V * W * store) :=
  match F s with
  | Some (v, s1) => match G s1 with Some (w, s2) => Some (v, w, s2) | None => None end
  | None => None end.
Definition gf (s : store) : option (V * W * store) :=
  match G s with
  | Some (w, s1) => match F s1 with Some (v, s2) => Some (v, w, s2) | None => None end
  | None => None end.

Lemma swap s : agrV (fun _ => True) (fg s) (gf s).
Proof.
  destruct I as [I1 I2]. unfold fg, gf.
  pose (A := fun x => In x r2 \/ In x w2). pose (B := fun x => In x r1 \/ In x w1).
  destruct (F s) as [[v s1]|] eqn:EF; destruct (G s) as [[w t1]|] eqn:EG; cbn; auto.
  - assert (HA : agree A s1 s).
    { intros x i Hx. apply (Fw _ _ _ EF). intros H. destruct (I1 x H). unfold A in Hx. tauto. }
    assert (HB : agree B t1 s).
    { intros x i Hx. apply (Gw _ _ _ EG). intros H. destruct (I2 x H). unfold B in Hx. tauto. }
    assert (RA := Gr A (fun x Hx => or_introl Hx) _ _ HA). assert (RB := Fr B (fun x Hx => or_introl Hx) _ _ HB).
    rewrite EG in RA. rewrite EF in RB. unfold agrV in RA, RB.
    destruct (G s1) as [[w' s2]|] eqn:EG2; [|tauto]. destruct (F t1) as [[v' t2]|] eqn:EF2; [|tauto].
    destruct RA as [-> RA]. destruct RB as [-> RB]. cbn. split; auto. intros x i _.
    destruct (in_dec N.eq_dec x w2) as [H2|H2].
    + rewrite (RA x i) by (right; auto). symmetry. apply (Fw _ _ _ EF2). apply (I2 x H2).
    + rewrite (Gw _ _ _ EG2) by auto. destruct (in_dec N.eq_dec x w1) as [H1|H1].
      * symmetry. apply RB. right. auto.
      * rewrite (Fw _ _ _ EF), (Fw _ _ _ EF2), (Gw _ _ _ EG) by auto. reflexivity.
  - assert (HA : agree A s1 s).
    { intros x i Hx. apply (Fw _ _ _ EF). intros H. destruct (I1 x H). unfold A in Hx. tauto. }
    assert (RA := Gr A (fun x Hx => or_introl Hx) _ _ HA). rewrite EG in RA. unfold agrV in RA.
    destruct (G s1) as [[w' s2]|]; [tauto|]. auto.
  - assert (HB : agree B t1 s).
    { intros x i Hx. apply (Gw _ _ _ EG). intros H. destruct (I2 x H). unfold B in Hx. tauto. }
    assert (RB := Fr B (fun x Hx => or_introl Hx) _ _ HB). rewrite EF in RB. unfold agrV in RB.
    destruct (F t1) as [[v' t2]|]; [tauto|]. auto.
Qed.
End Swap.

(* ---- statements and calls of the evaluator ---- *)
Lemma evalS_writes P (fw : N -> list N) (call : callT) args k
  (call_w : forall f vs s r s1, call f vs s = Some (r, s1) -> forall x i, ~ In x (fw f) -> s1 x i = s x i) :
  forall t s s1, evalS P call args k t s = Some s1 -> forall x i, ~ In x (writesS fw t) -> s1 x i = s x i.
Proof.
  pose proof (proj1 (eval_writes P fw call call_w args)) as W.
  induction t; cbn [evalS writesS]; fold (evalS P call args); intros s s1 H x i Hx.
  - injection H as <-. reflexivity.
  - destruct (evalE P call args e s) as [[v s']|] eqn:E; [|discriminate]. injection H as <-. apply (W _ _ _ _ E); auto.
  - destruct (evalS P call args k t1 s) as [s'|] eqn:E; [|discriminate]. rewrite in_app_iff in Hx.
    rewrite (IHt2 _ _ H), (IHt1 _ _ E); tauto.
  - destruct (evalE P call args c s) as [[v s']|] eqn:E; [|discriminate]. destruct (32 <? n); [discriminate|].
    rewrite !in_app_iff in Hx. destruct (v =? 0).
    + rewrite (IHt2 _ _ H), (W _ _ _ _ E); tauto.
    + rewrite (IHt1 _ _ H), (W _ _ _ _ E); tauto.
  - rewrite in_app_iff in Hx.
    assert (G : forall j s s1, (fix loop (j : nat) (s : store) : option store :=
       match j with
       | O => None
       | S j =>
         match evalE P call args c s with
         | Some (v, s1) =>
           if 32 <? n then None
           else if v =? 0 then Some s1
           else match evalS P call args k t s1 with Some s2 => loop j s2 | None => None end
         | None => None end
       end) j s = Some s1 -> s1 x i = s x i).
    { induction j; intros u u1 Hu; [discriminate|].
      destruct (evalE P call args c u) as [[v u']|] eqn:E; [|discriminate]. destruct (32 <? n); [discriminate|].
      destruct (v =? 0). { injection Hu as <-. apply (W _ _ _ _ E). tauto. }
      destruct (evalS P call args k t u') as [u2|] eqn:E2; [|discriminate].
      rewrite (IHj _ _ Hu), (IHt _ _ E2), (W _ _ _ _ E); tauto. }
    apply (G _ _ _ H).
Qed.

Lemma evalS_reads P (fr fw : N -> list N) (call : callT) args k
  (call_w : forall f vs s r s1, call f vs s = Some (r, s1) -> forall x i, ~ In x (fw f) -> s1 x i = s x i)
  (call_r : forall f vs s t (A : N -> Prop), (forall x, In x (fr f) -> A x) -> agree A s t ->
     agrV A (call f vs s) (call f vs t)) (A : N -> Prop) :
  forall t s u, (forall x, In x (readsS fr t) -> A x) -> agree A s u ->
    agrS A (evalS P call args k t s) (evalS P call args k t u).
Proof.
  pose proof (proj1 (eval_reads P fr fw call call_w call_r args A)) as R.
  induction t; cbn [evalS readsS]; fold (evalS P call args); intros s u HR H.
  - exact H.
  - specialize (R e s u HR H). unfold agrV in R. unfold agrS.
    destruct (evalE P call args e s) as [[v s']|]; destruct (evalE P call args e u) as [[v' u']|]; tauto.
  - assert (R1 := IHt1 s u (fun x Hx => HR x (in_or_app _ _ _ (or_introl Hx))) H). unfold agrS in R1 |- *.
    destruct (evalS P call args k t1 s) as [s'|]; destruct (evalS P call args k t1 u) as [u'|]; try tauto.
    exact (IHt2 s' u' (fun x Hx => HR x (in_or_app _ _ _ (or_intror Hx))) R1).
  - assert (R1 := R c s u (fun x Hx => HR x (in_or_app _ _ _ (or_introl Hx))) H). unfold agrV in R1. unfold agrS.
    destruct (evalE P call args c s) as [[v s']|]; destruct (evalE P call args c u) as [[v' u']|]; try tauto.
    destruct R1 as [<- R1]. destruct (32 <? n); auto. destruct (v =? 0).
    + exact (IHt2 s' u' (fun x Hx => HR x (in_or_app _ _ _ (or_intror (in_or_app _ _ _ (or_intror Hx))))) R1).
    + exact (IHt1 s' u' (fun x Hx => HR x (in_or_app _ _ _ (or_intror (in_or_app _ _ _ (or_introl Hx))))) R1).
  - match goal with |- agrS A (?loop k s) _ => assert (G : forall j s u, agree A s u -> agrS A (loop j s) (loop j u)) end.
    { clear s u H. induction j; intros s u H; [exact Logic.I|].
      assert (R1 := R c s u (fun x Hx => HR x (in_or_app _ _ _ (or_introl Hx))) H). unfold agrV in R1. unfold agrS.
      destruct (evalE P call args c s) as [[v s']|]; destruct (evalE P call args c u) as [[v' u']|]; try tauto.
      destruct R1 as [<- R1]. destruct (32 <? n); auto. destruct (v =? 0); auto.
      assert (R2 := IHt s' u' (fun x Hx => HR x (in_or_app _ _ _ (or_intror Hx))) R1). unfold agrS in R2.
      destruct (evalS P call args k t s') as [s2|]; destruct (evalS P call args k t u') as [u2|]; try tauto.
      exact (IHj s2 u2 R2). }
    apply G. exact H.
Qed.

Lemma callEv_frame P (fr fw : N -> list N)
  (HR : forall f x, In x (readsS fr (fst (p_body P f))) \/ In x (reads fr (snd (p_body P f))) -> In x (fr f))
  (HW : forall f x, In x (writesS fw (fst (p_body P f))) \/ In x (writes fw (snd (p_body P f))) -> In x (fw f)) k :
  (forall f vs s r s1, callEv P k f vs s = Some (r, s1) -> forall x i, ~ In x (fw f) -> s1 x i = s x i) /\
  (forall f vs s t (A : N -> Prop), (forall x, In x (fr f) -> A x) -> agree A s t ->
     agrV A (callEv P k f vs s) (callEv P k f vs t)).
Proof.
  induction k as [|k [IHw IHr]]; [split; [discriminate|intros; exact Logic.I]|].
  split.
  - intros f vs s r s1 H x i Hx. cbn [callEv] in H.
    destruct (evalS P (callEv P k) vs k (fst (p_body P f)) s) as [s'|] eqn:E; [|discriminate].
    rewrite (proj1 (eval_writes P fw _ IHw vs) _ _ _ _ H), (evalS_writes P fw _ vs k IHw _ _ _ E);
      try reflexivity; intros G; apply Hx; apply HW; auto.
  - intros f vs s t A HA H. cbn [callEv].
    assert (R1 := evalS_reads P fr fw _ vs k IHw IHr A (fst (p_body P f)) s t
      (fun x Hx => HA x (HR f x (or_introl Hx))) H). unfold agrS in R1.
    destruct (evalS P (callEv P k) vs k (fst (p_body P f)) s) as [s'|];
      destruct (evalS P (callEv P k) vs k (fst (p_body P f)) t) as [t'|]; try tauto.
    apply (proj1 (eval_reads P fr fw _ IHw IHr vs A)); auto.
Qed.

(* ---- widths ---- *)
Definition argsfit (vs ws : list N) : Prop := Forall2 (fun v w => v < 2 ^ w) vs ws.

Lemma argsfit_nth vs ws i v n : argsfit vs ws -> nth_error vs i = Some v -> nth_error ws i = Some n -> v < 2 ^ n.
Proof.
  intros H. revert i. induction H; intros [|i] Hv Hn; try discriminate; cbn in *.
  - congruence.
  - eapply IHForall2; eauto.
Qed.

Lemma fits_upd wv s x i v : fits wv s -> v < 2 ^ wv x -> fits wv (upd s x i v).
Proof.
  intros H Hv y j. unfold upd. destruct (N.eqb_spec y x) as [->|]; cbn; [|apply H]. destruct (j =? i); auto; apply H.
Qed.

Lemma same_fits wv s t : same_store s t -> fits wv s -> fits wv t.
Proof. intros H F x i. rewrite <- H. apply F. Qed.

Section WidthP.
Variables (P : prog) (wv wo1 wo2 wf : N -> N) (wp : N -> list N).
Hypothesis op1_w : forall f x r, p_op1 P f x = Some r -> r < 2 ^ wo1 f.
Hypothesis op2_w : forall f x y r, p_op2 P f x y = Some r -> r < 2 ^ wo2 f.
Variable call : callT.
Hypothesis call_wd : forall f vs s r s1, argsfit vs (wp f) -> fits wv s -> call f vs s = Some (r, s1) ->
  r < 2 ^ wf f /\ fits wv s1.
Variables args wargs : list N.
Hypothesis args_w : argsfit args wargs.

Notation EV := (evalE P call args).
Notation EL := (evalL P call args).
Notation EA := (evalArgs P call args).
Notation WD := (width wv wo1 wo2 wf wp wargs).
Notation WL := (widthL wv wo1 wo2 wf wp wargs).
Notation WA := (widthA wv wo1 wo2 wf wp wargs).

Lemma lval_name : forall l s y j s1, EL l s = Some (y, j, s1) -> y = lvar l.
Proof.
  intros [x | x n e] s y j s1 H; cbn [evalL] in H; fold EV in H.
  - injection H as <- <- <-. reflexivity.
  - destruct (EV e s) as [[v s']|]; [|discriminate]. destruct (v <? n); [|discriminate]. injection H as <- <- <-. reflexivity.
Qed.

Lemma eval_width :
  (forall e n s r s1, WD e n -> fits wv s -> EV e s = Some (r, s1) -> r < 2 ^ n /\ fits wv s1) /\
  (forall l s y j s1, WL l -> fits wv s -> EL l s = Some (y, j, s1) -> fits wv s1) /\
  (forall es ws s r s1, WA es ws -> fits wv s -> EA es s = Some (r, s1) -> argsfit r ws /\ fits wv s1).
Proof.
  apply expr_all; cbn [evalE evalL evalArgs width widthL widthA]; fold EV EL EA; fold WD WL WA.
  - intros v n s r s1 W F H. injection H as <- <-. auto.
  - intros k n s r s1 W F H. destruct (nth_error args k) eqn:E; [|discriminate]. injection H as <- <-. split; auto.
    eapply argsfit_nth; eauto.
  - intros l IH n s r s1 [W1 W2] F H. destruct (EL l s) as [[[y j] s']|] eqn:E; [|discriminate]. injection H as <- <-.
    assert (F' := IH _ _ _ _ W2 F E). split; auto. rewrite <- W1, <- (lval_name _ _ _ _ _ E). apply F'.
  - intros f e IH n s r s1 [W1 [m W2]] F H. destruct (EV e s) as [[v s']|] eqn:E; [|discriminate].
    destruct (p_op1 P f v) eqn:E2; [|discriminate]. injection H as <- <-. subst n. split; [eapply op1_w; eauto|].
    apply (IH _ _ _ _ W2 F E).
  - intros f a IHa b IHb n s r s1 [W1 [[m W2] [m2 W3]]] F H. destruct (EV a s) as [[v s']|] eqn:E; [|discriminate].
    destruct (EV b s') as [[w s'']|] eqn:E2; [|discriminate]. destruct (p_op2 P f v w) eqn:E3; [|discriminate].
    injection H as <- <-. subst n. split; [eapply op2_w; eauto|].
    apply (IHb _ _ _ _ W3 (proj2 (IHa _ _ _ _ W2 F E)) E2).
  - intros l IHl e IHe n s r s1 [W1 [W2 W3]] F H. destruct (EL l s) as [[[y j] s']|] eqn:E; [|discriminate].
    destruct (EV e s') as [[w s'']|] eqn:E2; [|discriminate]. injection H as <- <-.
    destruct (IHe _ _ _ _ W3 (IHl _ _ _ _ W2 F E) E2) as [B F2]. split; auto. apply fits_upd; auto.
    rewrite (lval_name _ _ _ _ _ E), W1. exact B.
  - intros f l IHl e IHe n s r s1 [W1 [W1' [W2 [m W3]]]] F H. destruct (EL l s) as [[[y j] s']|] eqn:E; [|discriminate].
    destruct (EV e s') as [[w s'']|] eqn:E2; [|discriminate]. destruct (p_op2 P f _ w) eqn:E3; [|discriminate]. injection H as <- <-.
    destruct (IHe _ _ _ _ W3 (IHl _ _ _ _ W2 F E) E2) as [B F2]. apply op2_w in E3. rewrite W1' in E3. split; auto.
    apply fits_upd; auto. rewrite (lval_name _ _ _ _ _ E), W1. exact E3.
  - intros f l IHl e IHe n s r s1 [W1 [W1' [W2 [m W3]]]] F H. destruct (EL l s) as [[[y j] s']|] eqn:E; [|discriminate].
    destruct (EV e s') as [[w s'']|] eqn:E2; [|discriminate]. destruct (p_op2 P f _ w) eqn:E3; [|discriminate]. injection H as <- <-.
    destruct (IHe _ _ _ _ W3 (IHl _ _ _ _ W2 F E) E2) as [B F2]. apply op2_w in E3. rewrite W1' in E3.
    rewrite (lval_name _ _ _ _ _ E). split. { rewrite <- W1. apply F2. } apply fits_upd; auto. rewrite W1. exact E3.
  - intros n a IHa b IHb m s r s1 [-> [W1 W2]] F H. destruct (EV a s) as [[v s']|] eqn:E; [|discriminate].
    destruct (32 <? m); [discriminate|]. destruct (IHa _ _ _ _ W1 F E) as [B F2]. destruct (cbool m v).
    + apply (IHb _ _ _ _ W2 F2 H).
    + injection H as <- <-. auto.
  - intros n a IHa b IHb m s r s1 [-> [W1 W2]] F H. destruct (EV a s) as [[v s']|] eqn:E; [|discriminate].
    destruct (32 <? m); [discriminate|]. destruct (IHa _ _ _ _ W1 F E) as [B F2]. destruct (cbool m v).
    + injection H as <- <-. auto.
    + apply (IHb _ _ _ _ W2 F2 H).
  - intros c IHc a IHa b IHb n s r s1 [W1 [W2 W3]] F H. destruct (EV c s) as [[v s']|] eqn:E; [|discriminate].
    destruct (IHc _ _ _ _ W1 F E) as [B F2]. destruct (v =? 0); eauto.
  - intros f es IH n s r s1 [<- W] F H. destruct (EA es s) as [[vs s']|] eqn:E; [|discriminate].
    destruct (IH _ _ _ _ W F E) as [B F2]. eapply call_wd; eauto.
  - intros x s y j s1 _ F H. injection H as <- <- <-. auto.
  - intros x n e IH s y j s1 [m W] F H. destruct (EV e s) as [[v s']|] eqn:E; [|discriminate].
    destruct (v <? n); [|discriminate]. injection H as <- <- <-. apply (IH _ _ _ _ W F E).
  - intros [|] s r s1 W F H; [|tauto]. injection H as <- <-. split; auto. constructor.
  - intros e IHe es IHes [|w ws] s r s1 W F H; [tauto|]. destruct W as [W1 W2].
    destruct (EA es s) as [[vs s']|] eqn:E; [|discriminate].
    destruct (EV e s') as [[v s'']|] eqn:E2; [|discriminate]. injection H as <- <-.
    destruct (IHes _ _ _ _ W2 F E) as [B F2]. destruct (IHe _ _ _ _ W1 F2 E2) as [B2 F3]. split; auto. constructor; auto.
Qed.

Lemma evalS_width k : forall t s s1, onebitS wv wo1 wo2 wf wp wargs t -> fits wv s -> evalS P call args k t s = Some s1 ->
  fits wv s1.
Proof.
  pose proof (proj1 eval_width) as W.
  induction t; cbn [evalS onebitS]; fold (evalS P call args); intros s s1 HB F H.
  - injection H as <-. auto.
  - destruct (EV e s) as [[v s']|] eqn:E; [|discriminate]. injection H as <-. destruct HB as [_ [m Hm]].
    apply (W _ _ _ _ _ Hm F E).
  - destruct (evalS P call args k t1 s) as [s'|] eqn:E; [|discriminate]. destruct HB. eauto.
  - destruct (EV c s) as [[v s']|] eqn:E; [|discriminate]. destruct (32 <? n); [discriminate|].
    destruct HB as (_ & _ & HC & HA & HB). pose proof (proj2 (W _ _ _ _ _ HC F E)). destruct (v =? 0); eauto.
  - destruct HB as (_ & _ & HC & HB).
    match type of H with ?loop k s = _ => assert (G : forall j s s1, fits wv s -> loop j s = Some s1 -> fits wv s1) end.
    { clear s s1 F H. induction j; intros s s1 F H; [discriminate|].
      destruct (EV c s) as [[v s']|] eqn:E; [|discriminate]. destruct (32 <? n); [discriminate|].
      pose proof (proj2 (W _ _ _ _ _ HC F E)) as F2. destruct (v =? 0). { injection H as <-. auto. }
      destruct (evalS P call args k t s') as [s2|] eqn:E2; [|discriminate]. eapply IHj; [|exact H]. eauto. }
    eapply G; eauto.
Qed.
End WidthP.

Lemma callEv_width P fr fw wv wo1 wo2 wf wp : good_prog P fr fw wv wo1 wo2 wf wp -> forall k f vs s r s1,
  argsfit vs (wp f) -> fits wv s -> callEv P k f vs s = Some (r, s1) -> r < 2 ^ wf f /\ fits wv s1.
Proof.
  intros GP k. induction k; intros f vs s r s1 HV F H; [discriminate|]. cbn [callEv] in H.
  destruct (evalS P (callEv P k) vs k (fst (p_body P f)) s) as [s'|] eqn:E; [|discriminate].
  destruct (gp_bits _ _ _ _ _ _ _ _ GP f) as (B1 & B2 & B3).
  assert (F' := evalS_width P wv wo1 wo2 wf wp (gp_op1 _ _ _ _ _ _ _ _ GP) (gp_op2 _ _ _ _ _ _ _ _ GP) _ IHk vs (wp f) HV k
    _ _ _ B1 F E).
  exact (proj1 (eval_width P wv wo1 wo2 wf wp (gp_op1 _ _ _ _ _ _ _ _ GP) (gp_op2 _ _ _ _ _ _ _ _ GP) _ IHk vs (wp f) HV)
    _ _ _ _ _ B3 F' H).
Qed.

(* ---- agreement ---- *)
Definition sameV {V} (r q : option (V * store)) : Prop := agrV (fun _ => True) r q.

Lemma sameV_val r q : sameV r q <-> same_val r q.
Proof.
  unfold sameV, agrV, same_val, agree, same_store.
  destruct r as [[v s]|]; destruct q as [[w t]|]; try tauto. split; intros [H G]; auto.
Qed.

Section Agree.
Variables (P : prog) (fr fw : N -> list N) (wv wo1 wo2 wf : N -> N) (wp : N -> list N).
Hypothesis op1_w : forall f x r, p_op1 P f x = Some r -> r < 2 ^ wo1 f.
Hypothesis op2_w : forall f x y r, p_op2 P f x y = Some r -> r < 2 ^ wo2 f.
Variables call callG : callT.
Hypothesis call_wd : forall f vs s r s1, argsfit vs (wp f) -> fits wv s -> call f vs s = Some (r, s1) ->
  r < 2 ^ wf f /\ fits wv s1.
Hypothesis call_w : forall f vs s r s1, call f vs s = Some (r, s1) -> forall x i, ~ In x (fw f) -> s1 x i = s x i.
Hypothesis call_r : forall f vs s t (A : N -> Prop), (forall x, In x (fr f) -> A x) -> agree A s t ->
  agrV A (call f vs s) (call f vs t).
Hypothesis call_same : forall f vs s t, argsfit vs (wp f) -> fits wv s -> same_store s t ->
  sameV (call f vs s) (callG f vs t).
Variables args wargs : list N.
Hypothesis args_w : argsfit args wargs.

Notation EV := (evalE P call args).
Notation EL := (evalL P call args).
Notation EA := (evalArgs P call args).
Notation GE := (genE P callG args).
Notation GL := (genL P callG args).
Notation GA := (genArgs P callG args).
Notation WD := (width wv wo1 wo2 wf wp wargs).
Notation WL := (widthL wv wo1 wo2 wf wp wargs).
Notation WA := (widthA wv wo1 wo2 wf wp wargs).

Let WE := eval_width P wv wo1 wo2 wf wp op1_w op2_w call call_wd args wargs args_w.
Let FW := eval_writes P fw call call_w args.
Let FR A := eval_reads P fr fw call call_w call_r args A.

Lemma swapE a b s : indep (reads fr a) (writes fw a) (reads fr b) (writes fw b) -> sameV (fg (EV a) (EV b) s) (gf (EV a) (EV b) s).
Proof.
  intros I. apply (swap (EV a) (EV b) (reads fr a) (writes fw a) (reads fr b) (writes fw b)); auto.
  - apply (proj1 FW).
  - apply (proj1 FW).
  - intros A HA u t HU. apply (proj1 (FR A)); auto.
  - intros A HA u t HU. apply (proj1 (FR A)); auto.
Qed.

Lemma swapL l e s : indep (readsL fr l) (writesL fw l) (reads fr e) (writes fw e) -> sameV (fg (EL l) (EV e) s) (gf (EL l) (EV e) s).
Proof.
  intros I. apply (swap (EL l) (EV e) (readsL fr l) (writesL fw l) (reads fr e) (writes fw e)); auto.
  - intros u [y j] u1 H. apply (proj1 (proj2 FW) _ _ _ _ _ H).
  - apply (proj1 FW).
  - intros A HA u t HU. pose proof (proj1 (proj2 (FR A)) l u t HA HU) as G. unfold agr3 in G. unfold agrV.
    destruct (EL l u) as [[[y j] u']|]; destruct (EL l t) as [[[y' j'] t']|]; try tauto. destruct G as (-> & -> & G). auto.
  - intros A HA u t HU. apply (proj1 (FR A)); auto.
Qed.

Lemma swapA e es s : indep (reads fr e) (writes fw e) (readsA fr es) (writesA fw es) -> sameV (fg (EV e) (EA es) s) (gf (EV e) (EA es) s).
Proof.
  intros I. apply (swap (EV e) (EA es) (reads fr e) (writes fw e) (readsA fr es) (writesA fw es)); auto.
  - apply (proj1 FW).
  - apply (proj2 (proj2 FW)).
  - intros A HA u t HU. apply (proj1 (FR A)); auto.
  - intros A HA u t HU. apply (proj2 (proj2 (FR A))); auto.
Qed.

Lemma sameV_store (s t : store) : agree (fun _ => True) s t <-> same_store s t.
Proof. unfold agree, same_store. firstorder. Qed.

Lemma agreeE :
  (forall e n s t, WD e n -> orderly fr fw e -> onebit e -> fits wv s -> same_store s t -> sameV (EV e s) (GE e t)) /\
  (forall l s t, WL l -> orderlyL fr fw l -> onebitL l -> fits wv s -> same_store s t -> sameV (EL l s) (GL l t)) /\
  (forall es ws s t, WA es ws -> orderlyA fr fw es -> onebitA es -> fits wv s -> same_store s t -> sameV (EA es s) (GA es t)).
Proof.
  apply expr_all; cbn [evalE evalL evalArgs genE genL genArgs width widthL widthA orderly orderlyL orderlyA onebit onebitL onebitA];
    fold EV EL EA; fold GE GL GA; fold WD WL WA; fold (orderly fr fw) (orderlyL fr fw) (orderlyA fr fw);
    fold onebit onebitL onebitA; unfold sameV; setoid_rewrite <- sameV_store.
  - intros v n s t W O B F S. cbn. auto.
  - intros k n s t W O B F S. destruct (nth_error args k); cbn; auto.
  - intros l IH n s t [W1 W2] O B F S. specialize (IH _ _ W2 O B F S). unfold agrV in IH |- *.
    destruct (EL l s) as [[[y j] s']|]; destruct (GL l t) as [[[y' j'] t']|]; try tauto. destruct IH as [E S']. injection E as <- <-.
    auto.
  - intros f e IH n s t [W1 [m W2]] O B F S. specialize (IH _ _ _ W2 O B F S). unfold agrV in IH |- *.
    destruct (EV e s) as [[v s']|]; destruct (GE e t) as [[v' t']|]; try tauto. destruct IH as [<- S'].
    destruct (p_op1 P f v); auto.
  - intros f a IHa b IHb n s t [W1 [[m W2] [m2 W3]]] [Oa [Ob I]] [Ba Bb] F S.
    assert (H := IHb _ _ _ W3 Ob Bb F S). assert (SW := swapE a b s I). unfold sameV, fg, gf in SW.
    pose proof (fun r s1 => proj1 WE b m2 s r s1 W3 F) as Fb. unfold agrV in H.
    destruct (EV b s) as [[vb sb]|]; destruct (GE b t) as [[vb' tb]|]; try tauto.
    2:{ destruct (EV a s) as [[va sa]|]; [|exact Logic.I]. destruct (EV b sa) as [[? ?]|]; [destruct SW|exact Logic.I]. }
    destruct H as [<- Sb]. destruct (Fb _ _ eq_refl) as [_ F2]. assert (H := IHa _ _ _ W2 Oa Ba F2 Sb). unfold agrV in H.
    destruct (EV a sb) as [[va sba]|]; destruct (GE a tb) as [[va' tba]|]; try tauto.
    + destruct H as [<- Sba]. destruct (EV a s) as [[va0 sa]|]; [|destruct SW]. destruct (EV b sa) as [[vb0 sab]|]; [|destruct SW].
      destruct SW as [E Sab]. injection E as -> ->. destruct (p_op2 P f va vb); cbn; auto. split; auto.
      intros x i _. rewrite (Sab x i Logic.I). apply Sba. exact Logic.I.
    + destruct (EV a s) as [[va0 sa]|]; [|exact Logic.I]. destruct (EV b sa) as [[vb0 sab]|]; [destruct SW|exact Logic.I].
  - intros l IHl e IHe n s t [W1 [W2 W3]] [Ol [Oe I]] [Bl Be] F S.
    assert (H := IHe _ _ _ W3 Oe Be F S). assert (SW := swapL l e s I). unfold sameV, fg, gf in SW.
    pose proof (fun r s1 => proj1 WE e _ s r s1 W3 F) as Fb. unfold agrV in H.
    destruct (EV e s) as [[vb sb]|]; destruct (GE e t) as [[vb' tb]|]; try tauto.
    2:{ destruct (EL l s) as [[[y j] sa]|]; [|exact Logic.I]. destruct (EV e sa) as [[? ?]|]; [destruct SW|exact Logic.I]. }
    destruct H as [<- Sb]. destruct (Fb _ _ eq_refl) as [_ F2]. assert (H := IHl _ _ W2 Ol Bl F2 Sb). unfold agrV in H.
    destruct (EL l sb) as [[[y j] sba]|]; destruct (GL l tb) as [[[y' j'] tba]|]; try tauto.
    + destruct H as [E Sba]. injection E as <- <-.
      destruct (EL l s) as [[[y0 j0] sa]|]; [|destruct SW]. destruct (EV e sa) as [[vb0 sab]|]; [|destruct SW].
      destruct SW as [E Sab]. injection E as -> -> ->. cbn. split; auto. apply agree_upd.
      intros x i _. rewrite (Sab x i Logic.I). apply Sba. exact Logic.I.
    + destruct (EL l s) as [[[y0 j0] sa]|]; [|exact Logic.I]. destruct (EV e sa) as [[vb0 sab]|]; [destruct SW|exact Logic.I].
  - intros f l IHl e IHe n s t [W1 [W1' [W2 [m W3]]]] [Ol [Oe I]] [Bl Be] F S.
    assert (H := IHe _ _ _ W3 Oe Be F S). assert (SW := swapL l e s I). unfold sameV, fg, gf in SW.
    pose proof (fun r s1 => proj1 WE e _ s r s1 W3 F) as Fb. unfold agrV in H.
    destruct (EV e s) as [[vb sb]|]; destruct (GE e t) as [[vb' tb]|]; try tauto.
    2:{ destruct (EL l s) as [[[y j] sa]|]; [|exact Logic.I]. destruct (EV e sa) as [[? ?]|]; [destruct SW|exact Logic.I]. }
    destruct H as [<- Sb]. destruct (Fb _ _ eq_refl) as [_ F2]. assert (H := IHl _ _ W2 Ol Bl F2 Sb). unfold agrV in H.
    destruct (EL l sb) as [[[y j] sba]|]; destruct (GL l tb) as [[[y' j'] tba]|]; try tauto.
    + destruct H as [E Sba]. injection E as <- <-.
      destruct (EL l s) as [[[y0 j0] sa]|]; [|destruct SW]. destruct (EV e sa) as [[vb0 sab]|]; [|destruct SW].
      destruct SW as [E Sab]. injection E as -> -> ->.
      assert (SS : agree (fun _ => True) sab tba) by (intros x i _; rewrite (Sab x i Logic.I); apply Sba; exact Logic.I).
      rewrite <- (SS y j Logic.I). destruct (p_op2 P f _ vb); cbn; auto. split; auto. apply agree_upd. exact SS.
    + destruct (EL l s) as [[[y0 j0] sa]|]; [|exact Logic.I]. destruct (EV e sa) as [[vb0 sab]|]; [destruct SW|exact Logic.I].
  - intros f l IHl e IHe n s t [W1 [W1' [W2 [m W3]]]] [Ol [Oe I]] [Bl Be] F S.
    assert (H := IHe _ _ _ W3 Oe Be F S). assert (SW := swapL l e s I). unfold sameV, fg, gf in SW.
    pose proof (fun r s1 => proj1 WE e _ s r s1 W3 F) as Fb. unfold agrV in H.
    destruct (EV e s) as [[vb sb]|]; destruct (GE e t) as [[vb' tb]|]; try tauto.
    2:{ destruct (EL l s) as [[[y j] sa]|]; [|exact Logic.I]. destruct (EV e sa) as [[? ?]|]; [destruct SW|exact Logic.I]. }
    destruct H as [<- Sb]. destruct (Fb _ _ eq_refl) as [_ F2]. assert (H := IHl _ _ W2 Ol Bl F2 Sb). unfold agrV in H.
    destruct (EL l sb) as [[[y j] sba]|]; destruct (GL l tb) as [[[y' j'] tba]|]; try tauto.
    + destruct H as [E Sba]. injection E as <- <-.
      destruct (EL l s) as [[[y0 j0] sa]|]; [|destruct SW]. destruct (EV e sa) as [[vb0 sab]|]; [|destruct SW].
      destruct SW as [E Sab]. injection E as -> -> ->.
      assert (SS : agree (fun _ => True) sab tba) by (intros x i _; rewrite (Sab x i Logic.I); apply Sba; exact Logic.I).
      rewrite <- (SS y j Logic.I). destruct (p_op2 P f _ vb); cbn; auto. split; auto. apply agree_upd. exact SS.
    + destruct (EL l s) as [[[y0 j0] sa]|]; [|exact Logic.I]. destruct (EV e sa) as [[vb0 sab]|]; [destruct SW|exact Logic.I].
  - intros n a IHa b IHb m s t [-> [W1 W2]] [Oa Ob] [-> [Ba Bb]] F S.
    assert (H := IHa _ _ _ W1 Oa Ba F S). pose proof (fun r s1 => proj1 WE a _ s r s1 W1 F) as Fa. unfold agrV in H |- *.
    destruct (EV a s) as [[va sa]|]; destruct (GE a t) as [[va' ta]|]; try tauto. destruct H as [<- Sa].
    destruct (Fa _ _ eq_refl) as [V F2]. change (32 <? 1) with false. cbn iota. change (2 ^ 1) with 2 in V.
    destruct (cbool 1 va) eqn:C. { exact (IHb _ _ _ W2 Ob Bb F2 Sa). }
    rewrite cbool_one in C by auto. split; auto. lia.
  - intros n a IHa b IHb m s t [-> [W1 W2]] [Oa Ob] [-> [Ba Bb]] F S.
    assert (H := IHa _ _ _ W1 Oa Ba F S). pose proof (fun r s1 => proj1 WE a _ s r s1 W1 F) as Fa. unfold agrV in H |- *.
    destruct (EV a s) as [[va sa]|]; destruct (GE a t) as [[va' ta]|]; try tauto. destruct H as [<- Sa].
    destruct (Fa _ _ eq_refl) as [V F2]. change (32 <? 1) with false. cbn iota.
    destruct (cbool 1 va) eqn:C; auto. exact (IHb _ _ _ W2 Ob Bb F2 Sa).
  - intros c IHc a IHa b IHb n s t [W1 [W2 W3]] [Oc [Oa Ob]] [Bc [Ba Bb]] F S.
    assert (H := IHc _ _ _ W1 Oc Bc F S). pose proof (fun r s1 => proj1 WE c _ s r s1 W1 F) as Fa. unfold agrV in H |- *.
    destruct (EV c s) as [[va sa]|]; destruct (GE c t) as [[va' ta]|]; try tauto. destruct H as [<- Sa].
    destruct (Fa _ _ eq_refl) as [V F2]. change (2 ^ 1) with 2 in V. rewrite cbool_one by auto. destruct (va =? 0); cbn [negb].
    + exact (IHb _ _ _ W3 Ob Bb F2 Sa).
    + exact (IHa _ _ _ W2 Oa Ba F2 Sa).
  - intros f es IH n s t [<- W] O B F S. assert (H := IH _ _ _ W O B F S).
    pose proof (fun r s1 => proj2 (proj2 WE) es _ s r s1 W F) as Fa. unfold agrV in H.
    destruct (EA es s) as [[vs sa]|]; destruct (GA es t) as [[vs' ta]|]; try (exact Logic.I); try tauto. destruct H as [<- Sa].
    destruct (Fa _ _ eq_refl) as [V F2]. apply call_same; auto. apply sameV_store. auto.
  - intros x s t _ _ _ F S. cbn. auto.
  - intros x n e IH s t [m W] O B F S. specialize (IH _ _ _ W O B F S). unfold agrV in IH |- *.
    destruct (EV e s) as [[v s']|]; destruct (GE e t) as [[v' t']|]; try tauto. destruct IH as [<- S'].
    destruct (v <? n) eqn:E; [replace (n <=? v) with false by lia|replace (n <=? v) with true by lia]; auto.
  - intros ws s t _ _ _ F S. cbn. auto.
  - intros e IHe es IHes [|w ws] s t W [Oe [Oes I]] [Be Bes] F S; [destruct W|]. destruct W as [W1 W2].
    assert (SW := swapA e es s I). unfold sameV, fg, gf in SW.
    pose proof (fun r s1 => proj1 WE e _ s r s1 W1 F) as Fb.
    assert (H := IHe _ _ _ W1 Oe Be F S). unfold agrV in H.
    destruct (EV e s) as [[v s1]|]; destruct (GE e t) as [[v' t1]|]; try tauto.
    2:{ destruct (EA es s) as [[vs sa]|]; [|exact Logic.I]. destruct (EV e sa) as [[? ?]|]; [destruct SW|exact Logic.I]. }
    destruct H as [<- S1]. destruct (Fb _ _ eq_refl) as [_ F2]. assert (H := IHes _ _ _ W2 Oes Bes F2 S1). unfold agrV in H.
    destruct (EA es s1) as [[vs s2]|]; destruct (GA es t1) as [[vs' t2]|]; try tauto.
    + destruct H as [<- S2]. destruct (EA es s) as [[vs0 sa]|]; [|destruct SW]. destruct (EV e sa) as [[v0 sab]|]; [|destruct SW].
      destruct SW as [E Sab]. injection E as <- <-. cbn. split; auto. intros x i _. rewrite <- (Sab x i Logic.I). apply S2. exact Logic.I.
    + destruct (EA es s) as [[vs0 sa]|]; [|exact Logic.I]. destruct (EV e sa) as [[v0 sab]|]; [destruct SW|exact Logic.I].
Qed.

Lemma agreeS k : forall p s t, orderlyS fr fw p -> onebitS wv wo1 wo2 wf wp wargs p -> fits wv s -> same_store s t ->
  same_end (evalS P call args k p s) (genS P callG args k p t).
Proof.
  pose proof (proj1 agreeE) as AG. pose proof (proj1 WE) as W.
  pose proof (evalS_width P wv wo1 wo2 wf wp op1_w op2_w call call_wd args wargs args_w k) as WS.
  induction p; cbn [evalS genS orderlyS onebitS]; fold (evalS P call args) (genS P callG args); intros s t O B F S.
  - exact S.
  - destruct B as [B [m Wm]]. specialize (AG e m s t Wm O B F S). unfold sameV, agrV in AG. unfold same_end.
    destruct (EV e s) as [[v s']|]; destruct (GE e t) as [[v' t']|]; try tauto. apply sameV_store. tauto.
  - destruct O as [O1 O2]. destruct B as [B1 B2]. specialize (IHp1 _ _ O1 B1 F S). pose proof (fun s1 => WS p1 s s1 B1 F) as F2.
    unfold same_end in IHp1 |- *.
    destruct (evalS P call args k p1 s) as [s'|]; destruct (genS P callG args k p1 t) as [t'|]; try tauto.
    apply IHp2; auto.
  - destruct O as (O1 & O2 & O3). destruct B as (-> & B1 & B2 & B3 & B4).
    specialize (AG c 1 s t B2 O1 B1 F S). unfold sameV, agrV in AG. unfold same_end.
    pose proof (fun r s1 => W c 1 s r s1 B2 F) as Fc.
    destruct (EV c s) as [[v s']|]; destruct (GE c t) as [[v' t']|]; try tauto. destruct AG as [<- S'].
    destruct (Fc _ _ eq_refl) as [V F2]. change (2 ^ 1) with 2 in V. rewrite cbool_one by auto. change (32 <? 1) with false. cbn iota.
    apply sameV_store in S'. destruct (v =? 0); cbn [negb]; [apply IHp2|apply IHp1]; auto.
  - destruct O as (O1 & O2). destruct B as (-> & B1 & B2 & B3).
    match goal with |- same_end (?f k s) (?g k t) =>
      assert (G : forall j s t, fits wv s -> same_store s t -> same_end (f j s) (g j t)) end.
    { clear s t F S. induction j; intros s t F S; [exact Logic.I|].
      specialize (AG c 1 s t B2 O1 B1 F S). unfold sameV, agrV in AG. unfold same_end.
      pose proof (fun r s1 => W c 1 s r s1 B2 F) as Fc.
      destruct (EV c s) as [[v s']|]; destruct (GE c t) as [[v' t']|]; try tauto. destruct AG as [<- S'].
      destruct (Fc _ _ eq_refl) as [V F2]. change (2 ^ 1) with 2 in V. rewrite cbool_one by auto. change (32 <? 1) with false. cbn iota.
      apply sameV_store in S'. rewrite negb_involutive. destruct (v =? 0); auto.
      assert (R := IHp _ _ O2 B3 F2 S'). pose proof (fun s1 => WS p s' s1 B3 F2) as F3. unfold same_end in R.
      destruct (evalS P call args k p s') as [s2|]; destruct (genS P callG args k p t') as [t2|]; try tauto.
      apply IHj; auto. }
    apply G; auto.
Qed.
End Agree.

Lemma call_agree P fr fw wv wo1 wo2 wf wp : good_prog P fr fw wv wo1 wo2 wf wp -> forall k f vs s t,
  argsfit vs (wp f) -> fits wv s -> same_store s t -> sameV (callEv P k f vs s) (callGen P k f vs t).
Proof.
  intros GP k. induction k; intros f vs s t HV F S; [exact Logic.I|]. cbn [callEv callGen].
  destruct (gp_bits _ _ _ _ _ _ _ _ GP f) as (B1 & B2 & B3). destruct (gp_order _ _ _ _ _ _ _ _ GP f) as (O1 & O2).
  destruct (callEv_frame P fr fw (gp_reads _ _ _ _ _ _ _ _ GP) (gp_writes _ _ _ _ _ _ _ _ GP) k) as [CW CR].
  pose proof (callEv_width P fr fw wv wo1 wo2 wf wp GP k) as CWD.
  pose proof (gp_op1 _ _ _ _ _ _ _ _ GP) as OP1. pose proof (gp_op2 _ _ _ _ _ _ _ _ GP) as OP2.
  pose proof (agreeS P fr fw wv wo1 wo2 wf wp OP1 OP2 _ _ CWD CW CR IHk vs (wp f) HV k (fst (p_body P f)) s t O1 B1 F S) as R.
  pose proof (fun s1 => evalS_width P wv wo1 wo2 wf wp OP1 OP2 _ CWD vs (wp f) HV k _ s s1 B1 F) as F2.
  unfold same_end in R. unfold sameV.
  destruct (evalS P (callEv P k) vs k (fst (p_body P f)) s) as [s'|];
    destruct (genS P (callGen P k) vs k (fst (p_body P f)) t) as [t'|]; try tauto; try exact Logic.I.
  eapply (proj1 (agreeE P fr fw wv wo1 wo2 wf wp OP1 OP2 _ _ CWD CW CR IHk vs (wp f) HV)); eauto.
Qed.
