(** Proofs about loops, switches, break and continue.  *)
From Coq Require Import String List NArith ZArith Lia Bool.
From Coq Require Import ZifyBool ZifyNat ZifyN.
From Verif Require Import Base LoopModel LoopSpec.
Import ListNotations.
Open Scope N_scope.

(** ** The stack *)

(** How many breaks and continues of [s] concern what encloses [s].  *)
Fixpoint cbrk (s : stmt) : N :=
  match s with
  | SSeq s1 s2 | SIf _ s1 s2 => cbrk s1 + cbrk s2
  | SBreak => 1
  | _ => 0
  end.

Fixpoint cbrk_cases (cs : cases) : N :=
  match cs with
  | CNil => 0
  | CDefault s => cbrk s
  | CCase _ _ s r => cbrk s + cbrk_cases r
  end.

Fixpoint ccont (s : stmt) : N :=
  match s with
  | SSeq s1 s2 | SIf _ s1 s2 => ccont s1 + ccont s2
  | SSwitch _ cs => ccont_cases cs
  | SContinue => 1
  | _ => 0
  end
with ccont_cases (cs : cases) : N :=
  match cs with
  | CNil => 0
  | CDefault s => ccont s
  | CCase _ _ s r => ccont s + ccont_cases r
  end.

Definition ent_add (n : N) (e : entry) : entry :=
  mkEnt (ent_loop e) (ent_exit e) (ent_uses e + n).

Definition add_b (n : N) (st : list entry) : list entry :=
  match st with
  | [] => []
  | e :: r => if ent_loop e then st else ent_add n e :: r
  end.

Fixpoint add_c (n : N) (st : list entry) : list entry :=
  match st with
  | [] => []
  | e :: r => if ent_loop e then ent_add n e :: r else e :: add_c n r
  end.

Lemma ent_add_0 : forall e, ent_add 0 e = e.
Proof. intros [l x u]. unfold ent_add. cbn. rewrite N.add_0_r. reflexivity. Qed.

Lemma ent_add_add : forall a b e, ent_add a (ent_add b e) = ent_add (b + a) e.
Proof. intros a b [l x u]. unfold ent_add. cbn. f_equal. lia. Qed.

Lemma add_b_0 : forall st, add_b 0 st = st.
Proof.
  intros [|e r]; cbn; [reflexivity|]. rewrite ent_add_0.
  destruct (ent_loop e); reflexivity.
Qed.

Lemma add_c_0 : forall st, add_c 0 st = st.
Proof.
  induction st as [|e r IH]; cbn; [reflexivity|]. rewrite ent_add_0, IH.
  destruct (ent_loop e); reflexivity.
Qed.

Lemma add_b_add : forall a b st, add_b a (add_b b st) = add_b (b + a) st.
Proof.
  intros a b [|e r]; cbn; [reflexivity|].
  destruct (ent_loop e) eqn:H; cbn; rewrite ?H; cbn; rewrite ?H; [reflexivity|].
  rewrite ent_add_add. reflexivity.
Qed.

Lemma add_c_add : forall a b st, add_c a (add_c b st) = add_c (b + a) st.
Proof.
  induction st as [|e r IH]; cbn; [reflexivity|].
  destruct (ent_loop e) eqn:H; cbn; rewrite ?H; cbn; rewrite ?H.
  - rewrite ent_add_add. reflexivity.
  - rewrite IH. reflexivity.
Qed.

Lemma add_bc : forall a b st, add_c a (add_b b st) = add_b b (add_c a st).
Proof.
  intros a b [|e r]; cbn; [reflexivity|].
  destruct (ent_loop e) eqn:H; cbn; rewrite ?H; cbn; rewrite ?H; reflexivity.
Qed.

Lemma add4 : forall b2 c2 b1 c1 st,
  add_b b2 (add_c c2 (add_b b1 (add_c c1 st))) = add_b (b1 + b2) (add_c (c1 + c2) st).
Proof. intros. rewrite add_bc, add_c_add, add_b_add. reflexivity. Qed.

Lemma nearest_continue_add : forall st, snd (nearest_continue st) = add_c 1 st.
Proof.
  induction st as [|e r IH]; cbn; [reflexivity|].
  destruct (ent_loop e); cbn; [reflexivity|].
  destruct (nearest_continue r) as [n r']; cbn in *. rewrite IH. reflexivity.
Qed.

(** The number of the nearest loop.  *)
Definition nloop (st : list entry) : N := fst (nearest_continue st).

Lemma nloop_sw : forall e r, ent_loop e = false -> nloop (e :: r) = nloop r.
Proof.
  intros e r H. unfold nloop. cbn. rewrite H.
  destruct (nearest_continue r); reflexivity.
Qed.

Lemma nloop_add_c : forall n st, nloop (add_c n st) = nloop st.
Proof.
  induction st as [|e r IH]; cbn; [reflexivity|].
  destruct (ent_loop e) eqn:H; cbn.
  - unfold nloop. cbn. rewrite H. reflexivity.
  - rewrite !nloop_sw by exact H. exact IH.
Qed.

Lemma nloop_add_b : forall n st, nloop (add_b n st) = nloop st.
Proof.
  intros n [|e r]; cbn; [reflexivity|].
  destruct (ent_loop e) eqn:H; [reflexivity|].
  rewrite !nloop_sw by (cbn; exact H). reflexivity.
Qed.

(** The kinds and numbers on a stack.  *)
Definition shape (st : list entry) : list (bool * N) :=
  map (fun e => (ent_loop e, ent_exit e)) st.

Lemma shape_add_b : forall n st, shape (add_b n st) = shape st.
Proof.
  intros n [|e r]; [reflexivity|]. unfold add_b.
  destruct (ent_loop e) eqn:H; [reflexivity|]. reflexivity.
Qed.

Lemma shape_add_c : forall n st, shape (add_c n st) = shape st.
Proof.
  induction st as [|e r IH]; cbn; [reflexivity|].
  destruct (ent_loop e) eqn:H; cbn; rewrite ?H; [reflexivity|]. f_equal. exact IH.
Qed.

Definition u0 (asserts : bool) : N := if asserts then 1 else 0.

Lemma loop_assert_push : forall a x st,
  loop_assert a (pls_push true x st) = mkEnt true x (u0 a) :: st.
Proof. intros [] x st; reflexivity. Qed.

Ltac cstep := try (simpl cbrk in *); try (simpl ccont in *); try (simpl cbrk_cases in *);
  try (simpl ccont_cases in *).

Section P.

Variable asserts : bool.
Notation parse := (parse asserts).
Notation parse_cases := (parse_cases asserts).

Ltac dparse :=
  repeat match goal with
  | H : bindp ?x _ = Some _ |- _ =>
    let E := fresh "E" in
    destruct x as [[[? ?] ?]|] eqn:E; cbn [bindp] in H; [|discriminate H]
  | H : Some _ = Some _ |- _ => injection H as; subst
  end.

Lemma parse_stack : 
  (forall s st k p st' k', parse s st k = Some (p, st', k') ->
    st' = add_b (cbrk s) (add_c (ccont s) st)) /\
  (forall cs st k p st' k', parse_cases cs st k = Some (p, st', k') ->
    st' = add_b (cbrk_cases cs) (add_c (ccont_cases cs) st)).
Proof.
  apply stmt_mut; intros;
    match goal with H : _ = Some _ |- _ =>
      try (simpl LoopModel.parse in H); try (simpl LoopModel.parse_cases in H) end;
    cstep;
    rewrite ?loop_assert_push in *.
  - dparse. rewrite add_c_0, add_b_0. reflexivity.
  - dparse. rewrite add_c_0, add_b_0. reflexivity.
  - dparse. apply H in E. apply H0 in E0. subst. apply add4.
  - dparse. apply H in E. apply H0 in E0. subst. apply add4.
  - dparse. apply H in E. subst. cbn. rewrite add_c_0, add_b_0. reflexivity.
  - dparse. apply H in E. subst. cbn. rewrite add_c_0, add_b_0. reflexivity.
  - dparse. apply H in E. subst. cbn. rewrite add_b_0. reflexivity.
  - destruct st as [|e r]; cbn in H; [discriminate H|].
    rewrite add_c_0. cbn. destruct (ent_loop e); injection H as; subst; reflexivity.
  - rewrite add_b_0. rewrite <- nearest_continue_add.
    destruct (nearest_continue st) as [n st1]. destruct (n =? 0); [discriminate H|].
    injection H as; subst. reflexivity.
  - dparse. rewrite add_c_0, add_b_0. reflexivity.
  - dparse. rewrite add_c_0, add_b_0. reflexivity.
  - dparse. apply H in E. subst. reflexivity.
  - dparse. apply H in E. apply H0 in E0. subst. apply add4.
Qed.

(** What the pieces of a loop and a switch look like.  *)
Definition loop_label (s : stmt) (x : N) : N := if 0 <? u0 asserts + ccont s then x else 0.

Lemma while_inv : forall b s st k p st' k',
  parse (SWhile b s) st k = Some (p, st', k') ->
  exists q st1, parse s (mkEnt true (k + 1) (u0 asserts) :: st) (k + 1) = Some (q, st1, k') /\
    p = PBlock (PWhile b (PSeq (PBlock q)
          (if 0 <? u0 asserts + ccont s then PSeq (PLabel (k + 1)) PSkip else PSkip))).
Proof.
  intros b s st k p st' k' H. try (simpl LoopModel.parse in H); try (simpl LoopModel.parse_cases in H). rewrite loop_assert_push in H.
  dparse. eexists _, _. split; [reflexivity|].
  apply (proj1 parse_stack) in E. subst. cbn. unfold loop_body. cbn.
  destruct (0 <? u0 asserts + ccont s) eqn:Hu; [|reflexivity].
  replace (0 <? k + 1) with true by lia. reflexivity.
Qed.

Lemma for_inv : forall b s a st k p st' k',
  parse (SFor b s a) st k = Some (p, st', k') ->
  exists q st1, parse s (mkEnt true (k + 1) (u0 asserts) :: st) (k + 1) = Some (q, st1, k') /\
    p = PBlock (PWhile b (PSeq (PBlock q)
          (if 0 <? u0 asserts + ccont s then PSeq (PLabel (k + 1)) (PAct a) else PAct a))).
Proof.
  intros b s a st k p st' k' H. try (simpl LoopModel.parse in H); try (simpl LoopModel.parse_cases in H). rewrite loop_assert_push in H.
  dparse. eexists _, _. split; [reflexivity|].
  apply (proj1 parse_stack) in E. subst. cbn. unfold loop_body. cbn.
  destruct (0 <? u0 asserts + ccont s) eqn:Hu; [|reflexivity].
  replace (0 <? k + 1) with true by lia. reflexivity.
Qed.

Lemma switch_inv : forall w cs st k p st' k',
  parse (SSwitch w cs) st k = Some (p, st', k') ->
  exists q st1, parse_cases cs (mkEnt false (k + 1) 0 :: st) (k + 2) = Some (q, st1, k') /\
    p = PBlock (PSeq (PAct w) (PSeq q
          (if 0 <? cbrk_cases cs then PLabel (k + 1) else PSkip))).
Proof.
  intros w cs st k p st' k' H. try (simpl LoopModel.parse in H); try (simpl LoopModel.parse_cases in H). change (pls_push false (k + 1) st) with (mkEnt false (k + 1) 0 :: st) in H.
  dparse. eexists _, _. split; [reflexivity|].
  apply (proj2 parse_stack) in E. subst. cbn.
  destruct (0 <? cbrk_cases cs) eqn:Hu; [|reflexivity].
  replace (0 <? k + 1) with true by lia. reflexivity.
Qed.

(** ** The labels *)

Lemma NoDup_app2 : forall (l1 l2 : list N) a b,
  NoDup l1 -> NoDup l2 -> (forall n, In n l1 -> n <= a) -> (forall n, In n l2 -> b < n) ->
  a <= b -> NoDup (l1 ++ l2).
Proof.
  induction l1 as [|x l1 IH]; intros l2 a b H1 H2 Ha Hb Hab; cbn; [exact H2|].
  inversion H1; subst. constructor.
  - intros Hin. apply in_app_or in Hin. destruct Hin as [Hin|Hin]; [contradiction|].
    apply Hb in Hin. specialize (Ha x (or_introl eq_refl)). lia.
  - apply (IH l2 a b); auto. intros n Hn. apply Ha. right. exact Hn.
Qed.

Definition lab_ok (p : node) (k k' : N) : Prop :=
  k <= k' /\ (forall n, In n (labels p) -> k < n <= k') /\ NoDup (labels p).

Lemma lab_ok_nil : forall p k, labels p = [] -> lab_ok p k k.
Proof.
  intros p k H. unfold lab_ok. rewrite H. split; [lia|]. split; [intros n []|constructor].
Qed.

Lemma lab_ok_app : forall p q r k k1 k2, lab_ok p k k1 -> lab_ok q k1 k2 ->
  labels r = labels p ++ labels q -> lab_ok r k k2.
Proof.
  intros p q r k k1 k2 (H1 & H2 & H3) (G1 & G2 & G3) E. unfold lab_ok. rewrite E.
  split; [lia|]. split.
  - intros n Hn. apply in_app_or in Hn. destruct Hn as [Hn|Hn];
      [apply H2 in Hn|apply G2 in Hn]; lia.
  - apply (NoDup_app2 _ _ k1 k1); auto; try lia.
    + intros n Hn. apply H2 in Hn. lia.
    + intros n Hn. apply G2 in Hn. lia.
Qed.

Lemma lab_ok_cons : forall p r k k1 k2 c, lab_ok p k1 k2 -> k + 1 <= k1 ->
  labels r = labels p ++ (if c : bool then [k + 1] else []) -> lab_ok r k k2.
Proof.
  intros p r k k1 k2 c (H1 & H2 & H3) Hk E. unfold lab_ok. rewrite E. split; [lia|]. split.
  - intros n Hn. apply in_app_or in Hn. destruct Hn as [Hn|Hn]; [apply H2 in Hn; lia|].
    destruct c; [|destruct Hn]. destruct Hn as [Hn|[]]. lia.
  - destruct c; [|rewrite app_nil_r; exact H3].
    apply NoDup_rev in H3. rewrite <- (rev_involutive (labels p ++ [k + 1])).
    apply NoDup_rev. rewrite rev_app_distr. cbn. constructor; [|exact H3].
    intros Hn. apply in_rev in Hn. apply H2 in Hn. lia.
Qed.

Lemma parse_labels :
  (forall s st k p st' k', parse s st k = Some (p, st', k') -> lab_ok p k k') /\
  (forall cs st k p st' k', parse_cases cs st k = Some (p, st', k') -> lab_ok p k k').
Proof.
  apply stmt_mut; intros.
  - cbn in H. dparse. apply lab_ok_nil. reflexivity.
  - cbn in H. dparse. apply lab_ok_nil. reflexivity.
  - try (simpl LoopModel.parse in H1); try (simpl LoopModel.parse_cases in H1). dparse.
    apply (lab_ok_app n n1 _ k n0 k'); eauto.
  - try (simpl LoopModel.parse in H1); try (simpl LoopModel.parse_cases in H1). dparse.
    apply (lab_ok_app n n1 _ k n0 k'); eauto.
  - apply while_inv in H0. destruct H0 as (q & st1 & E & ->). apply H in E.
    apply (lab_ok_cons q _ k (k + 1) k' (0 <? u0 asserts + ccont s)); [exact E|lia|].
    cbn [labels]. destruct (0 <? u0 asserts + ccont s); reflexivity.
  - apply for_inv in H0. destruct H0 as (q & st1 & E & ->). apply H in E.
    apply (lab_ok_cons q _ k (k + 1) k' (0 <? u0 asserts + ccont s)); [exact E|lia|].
    cbn [labels]. destruct (0 <? u0 asserts + ccont s); reflexivity.
  - apply switch_inv in H0. destruct H0 as (q & st1 & E & ->). apply H in E.
    apply (lab_ok_cons q _ k (k + 2) k' (0 <? cbrk_cases cs)); [exact E|lia|].
    cbn [labels]. destruct (0 <? cbrk_cases cs); reflexivity.
  - try (simpl LoopModel.parse in H); try (simpl LoopModel.parse_cases in H). destruct (nearest_break st) as [[n s1]|]; cbn in H;
      [|discriminate H]. injection H as; subst. apply lab_ok_nil. reflexivity.
  - try (simpl LoopModel.parse in H); try (simpl LoopModel.parse_cases in H). destruct (nearest_continue st) as [n s1].
    destruct (n =? 0); [discriminate H|]. injection H as; subst. apply lab_ok_nil. reflexivity.
  - cbn in H. dparse. apply lab_ok_nil. reflexivity.
  - cbn in H. dparse. apply lab_ok_nil. reflexivity.
  - try (simpl LoopModel.parse in H0); try (simpl LoopModel.parse_cases in H0). dparse. apply H in E. unfold lab_ok in *.
    cbn [labels]. rewrite app_nil_r. exact E.
  - try (simpl LoopModel.parse in H1); try (simpl LoopModel.parse_cases in H1). dparse.
    apply (lab_ok_app n n1 _ k n0 k'); eauto.
Qed.

(** ** The gotos *)

(** Where a goto of a statement parsed on stack [st] may lead outside of it: the exit of
    the switch on top ([nb] breaks), the nearest loop ([nc] continues).  *)
Definition out_to (st : list entry) (nb nc n : N) : Prop :=
  (0 < nb /\ exists e r, st = e :: r /\ ent_loop e = false /\ ent_exit e = n) \/
  (0 < nc /\ n = nloop st).

Definition goto_ok (p : node) (st : list entry) (nb nc : N) : Prop :=
  (forall n, In n (gotos p) -> In n (labels p) \/ out_to st nb nc n) /\
  (forall n, out_to st nb nc n -> In n (gotos p)) /\
  (asserts = false -> forall n, In n (labels p) -> In n (gotos p)).

Lemma out_to_shape : forall a b st nb nc n,
  out_to (add_b a (add_c b st)) nb nc n <-> out_to st nb nc n.
Proof.
  intros a b st nb nc n. unfold out_to. rewrite nloop_add_b, nloop_add_c.
  split; (intros [(H0 & e & r & H1 & H2 & H3)|H]; [left|right; exact H]); split; auto.
  - destruct st as [|x st]; cbn in H1; [discriminate H1|].
    exists x, st. split; [reflexivity|].
    destruct (ent_loop x) eqn:Hx; cbn in H1; rewrite Hx in H1; injection H1 as; subst;
      cbn in *; [congruence|]. auto.
  - subst st. cbn. rewrite H2. cbn. rewrite H2. eexists _, _. split; [reflexivity|].
    cbn. auto.
Qed.

Lemma out_to_add : forall st a b c d n,
  out_to st (a + b) (c + d) n <-> out_to st a c n \/ out_to st b d n.
Proof.
  intros st a b c d n. unfold out_to. split.
  - intros [(H0 & H1)|(H0 & H1)].
    + destruct (N.eq_dec a 0); [right|left]; left; split; auto; lia.
    + destruct (N.eq_dec c 0); [right|left]; right; split; auto; lia.
  - intros [[(H0 & H1)|(H0 & H1)]|[(H0 & H1)|(H0 & H1)]]; [left|right|left|right];
      split; auto; lia.
Qed.

Lemma goto_ok_app : forall p q r st st1 a b c d,
  goto_ok p st a c -> goto_ok q (add_b a (add_c c st)) b d ->
  st1 = add_b a (add_c c st) ->
  labels r = labels p ++ labels q -> gotos r = gotos p ++ gotos q ->
  goto_ok r st (a + b) (c + d).
Proof.
  intros p q r st st1 a b c d (P1 & P2 & P3) (Q1 & Q2 & Q3) E L G. unfold goto_ok.
  rewrite L, G. split; [|split].
  - intros n Hn. rewrite out_to_add. apply in_app_or in Hn. destruct Hn as [Hn|Hn].
    + apply P1 in Hn. destruct Hn; [left; apply in_or_app; auto|auto].
    + apply Q1 in Hn. rewrite out_to_shape in Hn.
      destruct Hn; [left; apply in_or_app; auto|auto].
  - intros n Hn. apply out_to_add in Hn. apply in_or_app. destruct Hn as [Hn|Hn]; auto.
    right. apply Q2. apply out_to_shape. exact Hn.
  - intros Ha n Hn. apply in_app_or in Hn. apply in_or_app. destruct Hn; auto.
Qed.

Lemma goto_ok_nil : forall p st, labels p = [] -> gotos p = [] -> goto_ok p st 0 0.
Proof.
  intros p st L G. unfold goto_ok. rewrite L, G. split; [intros n []|]. split.
  - unfold out_to. intros n [(H & _)|(H & _)]; lia.
  - intros _ n [].
Qed.

(** A loop takes the breaks and continues of its body.  *)
Lemma goto_ok_loop : forall q r st x nb nc,
  goto_ok q (mkEnt true x (u0 asserts) :: st) nb nc ->
  gotos r = gotos q ->
  labels r = labels q ++ (if 0 <? u0 asserts + nc then [x] else []) ->
  goto_ok r st 0 0.
Proof.
  intros q r st x nb nc (P1 & P2 & P3) G L. unfold goto_ok. rewrite G, L.
  split; [|split].
  - intros n Hn. left. apply in_or_app. apply P1 in Hn. destruct Hn as [Hn|Hn]; [auto|].
    right. destruct Hn as [(H & e & r' & E & Hl & _)|(H & Hx)].
    + injection E as; subst. discriminate Hl.
    + replace (0 <? u0 asserts + nc) with true by lia. left. exact (eq_sym Hx).
  - unfold out_to. intros n [(H & _)|(H & _)]; lia.
  - intros Ha n Hn. apply in_app_or in Hn. destruct Hn as [Hn|Hn]; [auto|].
    rewrite Ha in Hn. cbn [u0] in Hn. destruct (0 <? 0 + nc) eqn:Hc; [|destruct Hn].
    destruct Hn as [Hn|[]]. subst n. apply P2. right. split; [lia|reflexivity].
Qed.

Lemma goto_ok_switch : forall q r st x nb nc,
  goto_ok q (mkEnt false x 0 :: st) nb nc ->
  gotos r = gotos q ->
  labels r = labels q ++ (if 0 <? nb then [x] else []) ->
  goto_ok r st 0 nc.
Proof.
  intros q r st x nb nc (P1 & P2 & P3) G L. unfold goto_ok. rewrite G, L.
  split; [|split].
  - intros n Hn. rewrite in_app_iff. apply P1 in Hn. destruct Hn as [Hn|Hn]; [auto|].
    destruct Hn as [(H & e & r' & E & Hl & He)|(H & Hx)].
    + injection E as; subst. left. right. replace (0 <? nb) with true by lia. left. reflexivity.
    + right. right. split; [exact H|]. rewrite nloop_sw in Hx by reflexivity. exact Hx.
  - intros n [(H & _)|(H & Hx)]; [lia|]. apply P2. right. split; [exact H|].
    rewrite nloop_sw by reflexivity. exact Hx.
  - intros Ha n Hn. apply in_app_or in Hn. destruct Hn as [Hn|Hn]; [auto|].
    destruct (0 <? nb) eqn:Hc; [|destruct Hn].
    destruct Hn as [Hn|[]]. subst n. apply P2. left. split; [lia|].
    eexists _, _. split; [reflexivity|]. auto.
Qed.

Lemma nearest_continue_eq : forall st, nearest_continue st = (nloop st, add_c 1 st).
Proof.
  intros st. rewrite <- nearest_continue_add. unfold nloop.
  destruct (nearest_continue st); reflexivity.
Qed.

(** All numbers on the stack are positive.  *)
Definition positive (st : list entry) : Prop := Forall (fun e => 0 < ent_exit e) st.

Lemma positive_shape : forall a b st, positive (add_b a (add_c b st)) <-> positive st.
Proof.
  intros a b st. unfold positive.
  assert (H : forall s, Forall (fun e => 0 < ent_exit e) s <->
                        Forall (fun x => 0 < snd x) (shape s)).
  { intros s. unfold shape. rewrite Forall_map. reflexivity. }
  rewrite H, shape_add_b, shape_add_c, <- H. reflexivity.
Qed.

Lemma parse_gotos :
  (forall s st k p st' k', parse s st k = Some (p, st', k') -> positive st ->
     goto_ok p st (cbrk s) (ccont s)) /\
  (forall cs st k p st' k', parse_cases cs st k = Some (p, st', k') -> positive st ->
     goto_ok p st (cbrk_cases cs) (ccont_cases cs)).
Proof.
  apply stmt_mut; intros; cstep.
  - cbn in H. dparse. apply goto_ok_nil; reflexivity.
  - cbn in H. dparse. apply goto_ok_nil; reflexivity.
  - try (simpl LoopModel.parse in H1); try (simpl LoopModel.parse_cases in H1). dparse. pose proof (proj1 parse_stack _ _ _ _ _ _ E).
    subst. eapply goto_ok_app; [eapply H; eauto|eapply H0; [exact E0|]|..]; try reflexivity.
    apply positive_shape. exact H2.
  - try (simpl LoopModel.parse in H1); try (simpl LoopModel.parse_cases in H1). dparse. pose proof (proj1 parse_stack _ _ _ _ _ _ E).
    subst. eapply goto_ok_app; [eapply H; eauto|eapply H0; [exact E0|]|..]; try reflexivity.
    apply positive_shape. exact H2.
  - apply while_inv in H0. destruct H0 as (q & st1 & E & ->).
    apply H in E; [|constructor; [cbn; lia|exact H1]].
    apply (goto_ok_loop q _ st (k + 1) _ _ E); cbn [gotos labels].
    + destruct (0 <? u0 asserts + ccont s); cbn; rewrite ?app_nil_r; reflexivity.
    + destruct (0 <? u0 asserts + ccont s); reflexivity.
  - apply for_inv in H0. destruct H0 as (q & st1 & E & ->).
    apply H in E; [|constructor; [cbn; lia|exact H1]].
    apply (goto_ok_loop q _ st (k + 1) _ _ E); cbn [gotos labels].
    + destruct (0 <? u0 asserts + ccont s); cbn; rewrite ?app_nil_r; reflexivity.
    + destruct (0 <? u0 asserts + ccont s); reflexivity.
  - apply switch_inv in H0. destruct H0 as (q & st1 & E & ->).
    apply H in E; [|constructor; [cbn; lia|exact H1]].
    apply (goto_ok_switch q _ st (k + 1) _ _ E); cbn [gotos labels].
    + destruct (0 <? cbrk_cases cs); cbn; rewrite ?app_nil_r; reflexivity.
    + destruct (0 <? cbrk_cases cs); reflexivity.
  - try (simpl LoopModel.parse in H); try (simpl LoopModel.parse_cases in H). destruct st as [|e r]; cbn in H; [discriminate H|].
    inversion H0; subst.
    destruct (ent_loop e) eqn:Hl; cbn in H; injection H as; subst; unfold goto_ok; cbn.
    + split; [intros n []|]. split; [|intros _ n []].
      intros n [(_ & e' & r' & E & Hf & _)|(Hc & _)]; [|lia].
      injection E as; subst. congruence.
    + replace (ent_exit e =? 0) with false by lia. cbn. split; [|split; [|intros _ n []]].
      * intros n [<-|[]]. right. left. split; [lia|]. eexists _, _. split; [reflexivity|]. auto.
      * intros n [(_ & e' & r' & E & Hf & He)|(Hc & _)]; [|lia].
        injection E as; subst. auto.
  - try (simpl LoopModel.parse in H); try (simpl LoopModel.parse_cases in H). rewrite nearest_continue_eq in H.
    destruct (nloop st =? 0) eqn:Hz; [discriminate H|]. injection H as; subst.
    unfold goto_ok; cbn. split; [|split; [|intros _ n []]].
    + intros n [<-|[]]. right. right. split; [lia|reflexivity].
    + intros n [(Hc & _)|(_ & ->)]; [lia|]. auto.
  - cbn in H. dparse. apply goto_ok_nil; reflexivity.
  - cbn in H. dparse. apply goto_ok_nil; reflexivity.
  - try (simpl LoopModel.parse in H0); try (simpl LoopModel.parse_cases in H0). dparse. apply H in E; [|exact H1].
    unfold goto_ok in *. cbn [gotos labels]. rewrite !app_nil_r. exact E.
  - try (simpl LoopModel.parse in H1); try (simpl LoopModel.parse_cases in H1). dparse. pose proof (proj1 parse_stack _ _ _ _ _ _ E).
    subst. eapply goto_ok_app; [eapply H; eauto|eapply H0; [exact E0|]|..]; try reflexivity.
    apply positive_shape. exact H2.
Qed.

(** ** Which programs are accepted *)

Definition in_loop (st : list entry) : bool := existsb ent_loop st.
Definition in_any (st : list entry) : bool := match st with [] => false | _ => true end.

Lemma in_loop_shape : forall st, in_loop st = existsb fst (shape st).
Proof.
  unfold in_loop, shape. induction st as [|e r IH]; cbn; [reflexivity|].
  rewrite IH. reflexivity.
Qed.

Lemma in_any_shape : forall st, in_any st = match shape st with [] => false | _ => true end.
Proof. intros [|e r]; reflexivity. Qed.

Lemma nloop_zero : forall st, positive st -> (nloop st =? 0) = negb (in_loop st).
Proof.
  induction st as [|e r IH]; intros H; [reflexivity|]. inversion H; subst.
  cbn [in_loop existsb]. destruct (ent_loop e) eqn:He.
  - unfold nloop. cbn. rewrite He. cbn. lia.
  - rewrite nloop_sw by exact He. apply IH. assumption.
Qed.

Definition accepted {A} (x : option A) : bool := match x with Some _ => true | None => false end.

Lemma parse_accepts :
  (forall s st k, positive st ->
     accepted (parse s st k) = placed (in_loop st) (in_any st) s) /\
  (forall cs st k, positive st -> in_any st = true ->
     accepted (parse_cases cs st k) = placed_cases (in_loop st) cs).
Proof.
  apply stmt_mut; intros; try (simpl LoopModel.parse); try (simpl LoopModel.parse_cases);
    try (simpl (placed _ _ _)); try (simpl placed_cases);
    try reflexivity.
  - rewrite <- (H st k H1).
    destruct (parse s1 st k) as [[[p st1] k1]|] eqn:E; cbn; [|reflexivity].
    apply (proj1 parse_stack) in E. subst.
    assert (Hp : positive (add_b (cbrk s1) (add_c (ccont s1) st)))
      by (apply positive_shape; exact H1).
    specialize (H0 _ k1 Hp). rewrite in_loop_shape, in_any_shape in H0.
    rewrite shape_add_b, shape_add_c, <- in_loop_shape, <- in_any_shape in H0.
    rewrite <- H0. destruct (parse s2 _ k1) as [[[q st2] k2]|]; reflexivity.
  - rewrite <- (H st k H1).
    destruct (parse s1 st k) as [[[p st1] k1]|] eqn:E; cbn; [|reflexivity].
    apply (proj1 parse_stack) in E. subst.
    assert (Hp : positive (add_b (cbrk s1) (add_c (ccont s1) st)))
      by (apply positive_shape; exact H1).
    specialize (H0 _ k1 Hp). rewrite in_loop_shape, in_any_shape in H0.
    rewrite shape_add_b, shape_add_c, <- in_loop_shape, <- in_any_shape in H0.
    rewrite <- H0. destruct (parse s2 _ k1) as [[[q st2] k2]|]; reflexivity.
  - rewrite loop_assert_push.
    assert (Hp : positive (mkEnt true (k + 1) (u0 asserts) :: st))
      by (constructor; [cbn; lia|exact H0]).
    specialize (H _ (k + 1) Hp). cbn in H. rewrite <- H.
    destruct (parse s _ (k + 1)) as [[[p st1] k1]|]; reflexivity.
  - rewrite loop_assert_push.
    assert (Hp : positive (mkEnt true (k + 1) (u0 asserts) :: st))
      by (constructor; [cbn; lia|exact H0]).
    specialize (H _ (k + 1) Hp). cbn in H. rewrite <- H.
    destruct (parse s _ (k + 1)) as [[[p st1] k1]|]; reflexivity.
  - change (pls_push false (k + 1) st) with (mkEnt false (k + 1) 0 :: st).
    assert (Hp : positive (mkEnt false (k + 1) 0 :: st))
      by (constructor; [cbn; lia|exact H0]).
    specialize (H _ (k + 2) Hp eq_refl).
    change (in_loop (mkEnt false (k + 1) 0 :: st)) with (in_loop st) in H. rewrite <- H.
    destruct (parse_cases cs _ (k + 2)) as [[[p st1] k1]|]; reflexivity.
  - destruct st as [|e r]; [reflexivity|]. cbn. destruct (ent_loop e); reflexivity.
  - rewrite nearest_continue_eq, nloop_zero by assumption.
    destruct (in_loop st); reflexivity.
  - rewrite <- H1. rewrite <- (H st k H0).
    destruct (parse s st k) as [[[p st1] k1]|]; reflexivity.
  - rewrite <- H2 at 1. rewrite <- (H st k H1).
    destruct (parse s st k) as [[[p st1] k1]|] eqn:E; cbn; [|reflexivity].
    apply (proj1 parse_stack) in E. subst.
    assert (Hp : positive (add_b (cbrk s) (add_c (ccont s) st)))
      by (apply positive_shape; exact H1).
    assert (Ha : in_any (add_b (cbrk s) (add_c (ccont s) st)) = true)
      by (rewrite in_any_shape, shape_add_b, shape_add_c, <- in_any_shape; exact H2).
    specialize (H0 _ k1 Hp Ha). rewrite in_loop_shape in H0.
    rewrite shape_add_b, shape_add_c, <- in_loop_shape in H0.
    rewrite <- H0. destruct (parse_cases cs _ k1) as [[[q st2] k2]|]; reflexivity.
Qed.

(** ** Running *)

Section R.

Variable S : Type.
Variable act : N -> S -> S.
Variable cond : N -> S -> bool * S.
Notation meaning := (meaning S act cond).
Notation meaning_cases := (meaning_cases S act cond).
Notation cxx := (cxx S act cond).
Notation eval := (LoopModel.eval S act cond).

Lemma m_sw : forall f w cs t, meaning f (SSwitch w cs) t
  = match meaning_cases f cs (act w t) with
    | Some (Broke, t1) => Some (Done, t1)
    | r => r
    end.
Proof. reflexivity. Qed.

Lemma m_def : forall f s t, meaning_cases f (CDefault s) t = meaning f s t.
Proof. reflexivity. Qed.

Lemma m_case : forall f b bs s r t, meaning_cases f (CCase b bs s r) t
  = let (v, t1) := any_label S cond b bs t in
    if v then meaning f s t1 else meaning_cases f r t1.
Proof. reflexivity. Qed.

Ltac mstep :=
  rewrite ?m_sw, ?m_def, ?m_case in *; cbn [LoopSpec.meaning LoopSpec.meaning_cases] in *.

Lemma cor_any : forall bs b t, cor S cond b bs t = any_label S cond b bs t.
Proof.
  induction bs as [|b2 bs IH]; intros b t; cbn; destruct (cond b t) as [[] t1]; auto.
Qed.

Lemma cor_one : forall b t, cor S cond b [] t = cond b t.
Proof. intros b t. cbn. destruct (cond b t) as [[] t1]; reflexivity. Qed.

(** A statement that ends by break or continue has such a statement in it.  *)
Lemma turns_not : forall f b body step t o t',
  turns S cond f b body step t = Some (o, t') -> o = Done \/ o = Returned.
Proof.
  induction f as [|f IH]; intros b body step t o t' H; cbn in H; [discriminate H|].
  destruct (cond b t) as [[] t1]; [|injection H as; subst; auto].
  destruct (body t1) as [[[] t2]|]; try discriminate H;
    try (injection H as; subst; auto; fail); eapply IH; exact H.
Qed.

Lemma meaning_counts : forall f,
  (forall s t o t', meaning f s t = Some (o, t') ->
     (o = Broke -> 0 < cbrk s) /\ (o = Continued -> 0 < ccont s)) /\
  (forall cs t o t', meaning_cases f cs t = Some (o, t') ->
     (o = Broke -> 0 < cbrk_cases cs) /\ (o = Continued -> 0 < ccont_cases cs)).
Proof.
  intros f. apply stmt_mut; intros;
    mstep; cstep.
  - injection H as; subst. split; discriminate.
  - injection H as; subst. split; discriminate.
  - destruct (meaning f s1 t) as [[[] t1]|] eqn:E; try discriminate H1.
    + apply H0 in H1. split; intros Ho; apply H1 in Ho; lia.
    + apply H in E. injection H1 as; subst. split; intros Ho; apply E in Ho; lia.
    + apply H in E. injection H1 as; subst. split; intros Ho; apply E in Ho; lia.
    + injection H1 as; subst. split; discriminate.
  - destruct (cond b t) as [[] t1]; [apply H in H1|apply H0 in H1];
      (split; intros Ho; apply H1 in Ho; lia).
  - apply turns_not in H0. destruct H0; subst; split; discriminate.
  - apply turns_not in H0. destruct H0; subst; split; discriminate.
  - destruct (meaning_cases f cs (act w t)) as [[[] t1]|] eqn:E; try discriminate H0;
      injection H0 as; subst; split; try discriminate.
    intros _. apply H in E. apply E. reflexivity.
  - injection H as; subst. split; [lia|discriminate].
  - injection H as; subst. split; [discriminate|lia].
  - injection H as; subst. split; discriminate.
  - injection H as; subst. split; discriminate.
  - apply H in H0. exact H0.
  - destruct (any_label S cond b bs t) as [[] t1]; [apply H in H1|apply H0 in H1];
      (split; intros Ho; apply H1 in Ho; lia).
Qed.

(** *** The generated code *)

Definition tr (st : list entry) (o : outcome) : cstat :=
  match o with
  | Done => C_END
  | Returned => C_RETURN
  | Broke => match st with
             | [] => C_BREAK
             | e :: _ => if ent_loop e then C_BREAK else C_GOTO (ent_exit e)
             end
  | Continued => C_GOTO (nloop st)
  end.

Definition trm (st : list entry) (r : option (outcome * S)) : option (cstat * S) :=
  match r with Some (o, t) => Some (tr st o, t) | None => None end.

Lemma tr_shape : forall a b st o, tr (add_b a (add_c b st)) o = tr st o.
Proof.
  intros a b st [| | |]; cbn; try reflexivity.
  - destruct st as [|e r]; cbn; [reflexivity|].
    destruct (ent_loop e) eqn:H; cbn; rewrite ?H; cbn; rewrite ?H; reflexivity.
  - rewrite nloop_add_b, nloop_add_c. reflexivity.
Qed.

Lemma trm_shape : forall a b st r, trm (add_b a (add_c b st)) r = trm st r.
Proof. intros a b st [[o t]|]; cbn; rewrite ?tr_shape; reflexivity. Qed.

Lemma chain_in : forall n p, chain_label n p = true -> In n (labels p).
Proof.
  induction p; cbn; intros H; try discriminate H.
  - apply orb_prop in H. apply in_or_app. destruct H; auto.
  - left. lia.
Qed.

(** All numbers on the stack are at most [k].  *)
Definition below (st : list entry) (k : N) : Prop := Forall (fun e => 0 < ent_exit e <= k) st.

Lemma below_shape : forall a b st k, below (add_b a (add_c b st)) k <-> below st k.
Proof.
  intros a b st k. unfold below.
  assert (H : forall s, Forall (fun e => 0 < ent_exit e <= k) s <->
                        Forall (fun x => 0 < snd x <= k) (shape s)).
  { intros s. unfold shape. rewrite Forall_map. reflexivity. }
  rewrite H, shape_add_b, shape_add_c, <- H. reflexivity.
Qed.

Lemma below_le : forall st k k', below st k -> k <= k' -> below st k'.
Proof.
  intros st k k' H Hk. unfold below in *. eapply Forall_impl; [|exact H].
  cbn. intros; lia.
Qed.

Lemma nloop_below : forall st k, below st k -> nloop st <= k.
Proof.
  induction st as [|e r IH]; intros k H; [cbn; lia|]. inversion H; subst.
  destruct (ent_loop e) eqn:He.
  - unfold nloop. cbn. rewrite He. cbn. lia.
  - rewrite nloop_sw by exact He. apply IH. assumption.
Qed.

Lemma tr_below : forall st k o n, below st k -> tr st o = C_GOTO n -> n <= k.
Proof.
  intros st k [| | |] n H E; cbn in E; try discriminate E.
  - destruct st as [|e r]; [discriminate E|]. inversion H; subst.
    destruct (ent_loop e); [discriminate E|]. injection E as; subst. lia.
  - injection E as; subst. apply nloop_below. exact H.
Qed.

(** A goto out of a statement passes over what follows it.  *)
Lemma no_chain : forall n q k k', lab_ok q k k' -> n <= k -> chain_label n q = false.
Proof.
  intros n q k k' (_ & H & _) Hn. destruct (chain_label n q) eqn:E; [|reflexivity].
  apply chain_in in E. apply H in E. lia.
Qed.

Lemma cxx_seq : forall f p q st k k1 k2 t m mq,
  cxx f p None t = trm st m -> below st k -> k <= k1 -> lab_ok q k1 k2 ->
  (forall t1, cxx f q None t1 = trm st (mq t1)) ->
  cxx f (PSeq p q) None t
    = trm st match m with Some (Done, t1) => mq t1 | r => r end.
Proof.
  intros f p q st k k1 k2 t m mq Hp Hb Hk Hl Hq. cbn [LoopModel.cxx]. rewrite Hp.
  destruct m as [[o t1]|]; [|reflexivity]. cbn [trm].
  destruct (tr st o) as [| |n|] eqn:E; destruct o; cbn [tr] in E; try discriminate E;
    cbn [tr trm].
  - apply Hq.
  - destruct st as [|e r]; [discriminate E|]. destruct (ent_loop e); discriminate E.
  - rewrite E. reflexivity.
  - assert (Hn : n <= k) by (apply (tr_below st k Broke); auto).
    rewrite (no_chain n q k1 k2 Hl) by lia. rewrite E. reflexivity.
  - assert (Hn : n <= k) by (apply (tr_below st k Continued); auto).
    rewrite (no_chain n q k1 k2 Hl) by lia. rewrite E. reflexivity.
  - destruct st as [|e r]; [discriminate E|]. destruct (ent_loop e); discriminate E.
  - reflexivity.
Qed.

(** The loop: [tail] is what stands after the body block.  *)
Lemma cxx_turns : forall f b q tail st x u body step nc,
  (forall t, cxx f q None t = trm (mkEnt true x u :: st) (body t)) ->
  (forall t t', body t = Some (Continued, t') -> 0 < nc) ->
  (forall t, cxx f tail None t = Some (C_END, step t)) ->
  (0 < nc -> chain_label x tail = true /\
             forall t, cxx f tail (Some x) t = Some (C_END, step t)) ->
  forall g t, cxx_loop S cond g b (cxx f (PSeq (PBlock q) tail) None) t
              = trm st (turns S cond g b body step t).
Proof.
  intros f b q tail st x u body step nc Hq Hc Ht1 Ht2.
  induction g as [|g IH]; intros t; [reflexivity|].
  cbn [cxx_loop turns]. destruct (cond b t) as [[] t1]; [|reflexivity].
  cbn [LoopModel.cxx]. rewrite Hq. destruct (body t1) as [[[] t2]|] eqn:E; cbn [trm tr].
  - rewrite Ht1. apply IH.
  - reflexivity.
  - apply Hc in E. apply Ht2 in E. destruct E as (Hl & Hr).
    replace (nloop (mkEnt true x u :: st)) with x by reflexivity.
    rewrite Hl, Hr. apply IH.
  - reflexivity.
  - reflexivity.
Qed.

Lemma cxx_meaning : forall f,
  (forall s st k p st' k', parse s st k = Some (p, st', k') -> below st k ->
     forall t, cxx f p None t = trm st (meaning f s t)) /\
  (forall cs st k p st' k', parse_cases cs st k = Some (p, st', k') -> below st k ->
     forall t, cxx f p None t = trm st (meaning_cases f cs t)).
Proof.
  intros f. apply stmt_mut; intros.
  - cbn in H. dparse. reflexivity.
  - cbn in H. dparse. reflexivity.
  - try (simpl LoopModel.parse in H1); try (simpl LoopModel.parse_cases in H1). dparse.
    pose proof (proj1 parse_labels _ _ _ _ _ _ E) as (Hk & _).
    pose proof (proj1 parse_labels _ _ _ _ _ _ E0) as Hl.
    pose proof (proj1 parse_stack _ _ _ _ _ _ E). subst.
    mstep. erewrite (cxx_seq f n n1 st k n0 k' t (meaning f s1 t) (meaning f s2)); auto.
    + destruct (meaning f s1 t) as [[[] t1]|]; reflexivity.
    + apply (H _ _ _ _ _ E H2).
    + intros t1. rewrite (H0 _ _ _ _ _ E0).
      * apply trm_shape.
      * apply below_shape. apply (below_le _ k); auto.
  - try (simpl LoopModel.parse in H1); try (simpl LoopModel.parse_cases in H1). dparse.
    pose proof (proj1 parse_labels _ _ _ _ _ _ E) as (Hk & _).
    pose proof (proj1 parse_stack _ _ _ _ _ _ E). subst.
    mstep; cbn [LoopModel.cxx eval_cnd]. rewrite cor_one.
    destruct (cond b t) as [[] t1].
    + apply (H _ _ _ _ _ E H2).
    + rewrite (H0 _ _ _ _ _ E0).
      * apply trm_shape.
      * apply below_shape. apply (below_le _ k); auto.
  - apply while_inv in H0. destruct H0 as (q & st1 & E & ->).
    mstep; cbn [LoopModel.cxx].
    assert (Hb : below (mkEnt true (k + 1) (u0 asserts) :: st) (k + 1)).
    { constructor; [cbn; lia|]. apply (below_le _ k); [exact H1|lia]. }
    apply (cxx_turns f b q _ st (k + 1) (u0 asserts) (meaning f s) (fun t => t) (ccont s)).
    + exact (H _ _ _ _ _ E Hb).
    + intros t1 t2 Hm. apply (proj1 (meaning_counts f)) in Hm. apply Hm. reflexivity.
    + intros t1. destruct (0 <? u0 asserts + ccont s); reflexivity.
    + intros Hc. replace (0 <? u0 asserts + ccont s) with true by lia.
      cbn. rewrite N.eqb_refl. cbn. auto.
  - apply for_inv in H0. destruct H0 as (q & st1 & E & ->).
    mstep; cbn [LoopModel.cxx].
    assert (Hb : below (mkEnt true (k + 1) (u0 asserts) :: st) (k + 1)).
    { constructor; [cbn; lia|]. apply (below_le _ k); [exact H1|lia]. }
    apply (cxx_turns f b q _ st (k + 1) (u0 asserts) (meaning f s) (act step) (ccont s)).
    + exact (H _ _ _ _ _ E Hb).
    + intros t1 t2 Hm. apply (proj1 (meaning_counts f)) in Hm. apply Hm. reflexivity.
    + intros t1. destruct (0 <? u0 asserts + ccont s); reflexivity.
    + intros Hc. replace (0 <? u0 asserts + ccont s) with true by lia.
      cbn. rewrite N.eqb_refl. cbn. auto.
  - apply switch_inv in H0. destruct H0 as (q & st1 & E & ->).
    assert (Hb : below (mkEnt false (k + 1) 0 :: st) (k + 2)).
    { constructor; [cbn; lia|]. apply (below_le _ k); [exact H1|lia]. }
    pose proof (H _ _ _ _ _ E Hb) as Hq.
    mstep; cbn [LoopModel.cxx]. rewrite Hq.
    destruct (meaning_cases f cs (act w t)) as [[[] t1]|] eqn:Em; cbn [trm tr ent_loop ent_exit].
    + destruct (0 <? cbrk_cases cs); reflexivity.
    + apply (proj2 (meaning_counts f)) in Em. destruct Em as (Em & _).
      specialize (Em eq_refl). replace (0 <? cbrk_cases cs) with true by lia.
      cbn. rewrite N.eqb_refl. reflexivity.
    + rewrite nloop_sw by reflexivity. pose proof (nloop_below _ _ H1).
      replace (chain_label (nloop st) (if 0 <? cbrk_cases cs then PLabel (k + 1) else PSkip))
        with false; [reflexivity|].
      destruct (0 <? cbrk_cases cs); cbn; [|reflexivity]. lia.
    + reflexivity.
    + reflexivity.
  - try (simpl LoopModel.parse in H); try (simpl LoopModel.parse_cases in H). destruct st as [|e r]; cbn in H; [discriminate H|].
    inversion H0; subst. cbn.
    destruct (ent_loop e); cbn in H; injection H as; subst; cbn; [reflexivity|].
    replace (ent_exit e =? 0) with false by lia. reflexivity.
  - try (simpl LoopModel.parse in H); try (simpl LoopModel.parse_cases in H). rewrite nearest_continue_eq in H.
    destruct (nloop st =? 0); [discriminate H|]. injection H as; subst. reflexivity.
  - cbn in H. dparse. reflexivity.
  - cbn in H. dparse. reflexivity.
  - try (simpl LoopModel.parse in H0); try (simpl LoopModel.parse_cases in H0). dparse. mstep; cbn [LoopModel.cxx eval_cnd].
    apply (H _ _ _ _ _ E H1).
  - try (simpl LoopModel.parse in H1); try (simpl LoopModel.parse_cases in H1). dparse.
    pose proof (proj1 parse_labels _ _ _ _ _ _ E) as (Hk & _).
    pose proof (proj1 parse_stack _ _ _ _ _ _ E). subst.
    mstep; cbn [LoopModel.cxx eval_cnd]. rewrite cor_any.
    destruct (any_label S cond b bs t) as [[] t1].
    + apply (H _ _ _ _ _ E H2).
    + rewrite (H0 _ _ _ _ _ E0).
      * apply trm_shape.
      * apply below_shape. apply (below_le _ k); auto.
Qed.

(** *** The evaluator *)

Definition te (sw : bool) (o : outcome) : estat :=
  match o with
  | Done => E_NORMAL
  | Returned => E_RETURN
  | Broke => if sw then E_NORMAL else E_BREAK
  | Continued => E_CONTINUE
  end.

Definition tem (sw : bool) (r : option (outcome * S)) : option (estat * S) :=
  match r with Some (o, t) => Some (te sw o, t) | None => None end.

(** The nearest construct on the stack is a switch.  *)
Definition top_sw (st : list entry) : bool :=
  match st with [] => false | e :: _ => negb (ent_loop e) end.

Lemma top_sw_shape : forall a b st, top_sw (add_b a (add_c b st)) = top_sw st.
Proof.
  intros a b [|e r]; cbn; [reflexivity|].
  destruct (ent_loop e) eqn:H; cbn; rewrite ?H; cbn; rewrite ?H; reflexivity.
Qed.

Lemma breaks_out_spec : forall s, breaks_out s = false -> cbrk s = 0.
Proof.
  induction s; cbn; intros H; try reflexivity; try discriminate H;
    apply orb_false_elim in H; destruct H as (H1 & H2); apply IHs1 in H1; apply IHs2 in H2; lia.
Qed.

Lemma eval_turns : forall f b q tail body step fr,
  (forall t, eval f q t = tem false (body t)) ->
  (forall t t', body t = Some (Continued, t') -> fr = false) ->
  (forall t, eval f tail t = Some (E_NORMAL, step t)) ->
  (fr = false -> forall t, step t = t) ->
  forall g sw t, eval_loop S cond g b (eval f (PSeq (PBlock q) tail)) t
              = tem sw (turns S cond g b body step t).
Proof.
  intros f b q tail body step fr Hq Hc Ht Hs.
  induction g as [|g IH]; intros sw t; [reflexivity|].
  cbn [eval_loop turns]. destruct (cond b t) as [[] t1]; [|reflexivity].
  cbn [LoopModel.eval]. rewrite Hq. destruct (body t1) as [[[] t2]|] eqn:E; cbn [tem te].
  - rewrite Ht. apply IH.
  - reflexivity.
  - apply Hc in E. rewrite (Hs E). apply IH.
  - reflexivity.
  - reflexivity.
Qed.

(** In a plain statement, a continue does not concern a for loop.  *)
Lemma plain_continue : forall f,
  (forall s sw fr t t', plain sw fr s = true ->
     meaning f s t = Some (Continued, t') -> fr = false) /\
  (forall cs fr t t', plain_cases fr cs = true ->
     meaning_cases f cs t = Some (Continued, t') -> fr = false).
Proof.
  intros f. apply stmt_mut; intros;
    mstep; try (simpl (plain _ _ _) in *); try (simpl plain_cases in *);
    try discriminate.
  - apply andb_prop in H1. destruct H1 as (H1 & _). apply andb_prop in H1.
    destruct H1 as (Ha & Hb).
    destruct (meaning f s1 t) as [[[] t1]|] eqn:E; try discriminate H2.
    + eapply H0; eauto.
    + eapply H; eauto.
  - apply andb_prop in H1. destruct H1 as (Ha & Hb).
    destruct (cond b t) as [[] t1]; [eapply H|eapply H0]; eauto.
  - apply turns_not in H1. destruct H1; discriminate.
  - apply turns_not in H1. destruct H1; discriminate.
  - destruct (meaning_cases f cs (act w t)) as [[[] t1]|] eqn:E; try discriminate H1.
    eapply H; eauto.
  - destruct fr; [discriminate H|reflexivity].
  - eapply H; eauto.
  - apply andb_prop in H1. destruct H1 as (Ha & Hb).
    destruct (any_label S cond b bs t) as [[] t1]; [eapply H|eapply H0]; eauto.
Qed.

Lemma eval_meaning : forall f,
  (forall s st k p st' k' fr, parse s st k = Some (p, st', k') -> positive st ->
     plain (top_sw st) fr s = true ->
     forall t, eval f p t = tem (top_sw st) (meaning f s t)) /\
  (forall cs st k p st' k' fr, parse_cases cs st k = Some (p, st', k') -> positive st ->
     top_sw st = true -> plain_cases fr cs = true ->
     forall t, eval f p t = tem true (meaning_cases f cs t)).
Proof.
  intros f. apply stmt_mut; intros.
  - cbn in H. dparse. reflexivity.
  - cbn in H. dparse. reflexivity.
  - try (simpl LoopModel.parse in H1); try (simpl LoopModel.parse_cases in H1). dparse. simpl (plain _ _ _) in H3.
    apply andb_prop in H3. destruct H3 as (Hp & Hn). apply andb_prop in Hp.
    destruct Hp as (Ha & Hb).
    pose proof (proj1 parse_stack _ _ _ _ _ _ E). subst.
    mstep; cbn [LoopModel.eval]. rewrite (H _ _ _ _ _ _ E H2 Ha).
    destruct (meaning f s1 t) as [[[] t1]|] eqn:Em; cbn [tem te]; try reflexivity.
    + rewrite <- (top_sw_shape (cbrk s1) (ccont s1) st) in Hb |- *.
      apply (H0 _ _ _ _ _ fr E0); [|exact Hb]. apply positive_shape. exact H2.
    + destruct (top_sw st) eqn:Ht; [|reflexivity].
      apply (proj1 (meaning_counts f)) in Em. destruct Em as (Em & _).
      specialize (Em eq_refl). cbn in Hn. apply negb_true_iff in Hn.
      apply breaks_out_spec in Hn. lia.
  - try (simpl LoopModel.parse in H1); try (simpl LoopModel.parse_cases in H1). dparse. simpl (plain _ _ _) in H3.
    apply andb_prop in H3. destruct H3 as (Ha & Hb).
    pose proof (proj1 parse_stack _ _ _ _ _ _ E). subst.
    mstep; cbn [LoopModel.eval eval_cnd]. rewrite cor_one.
    destruct (cond b t) as [[] t1].
    + apply (H _ _ _ _ _ _ E H2 Ha).
    + rewrite <- (top_sw_shape (cbrk s1) (ccont s1) st) in Hb |- *.
      apply (H0 _ _ _ _ _ fr E0); [|exact Hb]. apply positive_shape. exact H2.
  - apply while_inv in H0. destruct H0 as (q & st1 & E & ->). simpl (plain _ _ _) in H2.
    mstep; cbn [LoopModel.eval].
    assert (Hb : positive (mkEnt true (k + 1) (u0 asserts) :: st))
      by (constructor; [cbn; lia|exact H1]).
    apply (eval_turns f b q _ (meaning f s) (fun t => t) false); auto.
    + exact (H _ _ _ _ _ false E Hb H2).
    + intros t1. destruct (0 <? u0 asserts + ccont s); reflexivity.
  - apply for_inv in H0. destruct H0 as (q & st1 & E & ->). simpl (plain _ _ _) in H2.
    mstep; cbn [LoopModel.eval].
    assert (Hb : positive (mkEnt true (k + 1) (u0 asserts) :: st))
      by (constructor; [cbn; lia|exact H1]).
    apply (eval_turns f b q _ (meaning f s) (act step) true).
    + exact (H _ _ _ _ _ true E Hb H2).
    + intros t1 t2 Hm. apply (proj1 (plain_continue f) _ _ _ _ _ H2 Hm).
    + intros t1. destruct (0 <? u0 asserts + ccont s); reflexivity.
    + discriminate.
  - apply switch_inv in H0. destruct H0 as (q & st1 & E & ->). simpl (plain _ _ _) in H2.
    assert (Hb : positive (mkEnt false (k + 1) 0 :: st))
      by (constructor; [cbn; lia|exact H1]).
    pose proof (H _ _ _ _ _ fr E Hb eq_refl H2) as Hq.
    mstep; cbn [LoopModel.eval]. rewrite Hq.
    destruct (meaning_cases f cs (act w t)) as [[[] t1]|]; cbn [tem te]; try reflexivity;
      destruct (0 <? cbrk_cases cs); reflexivity.
  - try (simpl LoopModel.parse in H); try (simpl LoopModel.parse_cases in H). destruct st as [|e r]; cbn in H; [discriminate H|].
    inversion H0; subst. cbn.
    destruct (ent_loop e); cbn in H; injection H as; subst; cbn; [reflexivity|].
    replace (ent_exit e =? 0) with false by lia. reflexivity.
  - try (simpl LoopModel.parse in H); try (simpl LoopModel.parse_cases in H). rewrite nearest_continue_eq in H.
    destruct (nloop st =? 0); [discriminate H|]. injection H as; subst. reflexivity.
  - cbn in H. dparse. reflexivity.
  - cbn in H. dparse. reflexivity.
  - try (simpl LoopModel.parse in H0); try (simpl LoopModel.parse_cases in H0). dparse. mstep; cbn [LoopModel.eval eval_cnd].
    simpl plain_cases in H3. rewrite <- H2 at 1. apply (H _ _ _ _ _ fr E H1).
    rewrite H2. exact H3.
  - try (simpl LoopModel.parse in H1); try (simpl LoopModel.parse_cases in H1). dparse. simpl plain_cases in H4.
    apply andb_prop in H4. destruct H4 as (Ha & Hb).
    pose proof (proj1 parse_stack _ _ _ _ _ _ E). subst.
    mstep; cbn [LoopModel.eval eval_cnd]. rewrite cor_any.
    destruct (any_label S cond b bs t) as [[] t1].
    + rewrite <- H3 at 1. apply (H _ _ _ _ _ fr E H2). rewrite H3. exact Ha.
    + apply (H0 _ _ _ _ _ fr E0); [|rewrite top_sw_shape; exact H3|exact Hb].
      apply positive_shape. exact H2.
Qed.

(** *** More turns change nothing *)

Lemma turns_mono : forall f b body body' step t r,
  (forall t r, body t = Some r -> body' t = Some r) ->
  turns S cond f b body step t = Some r ->
  turns S cond (Datatypes.S f) b body' step t = Some r.
Proof.
  induction f as [|f IH]; intros b body body' step t r Hb H; [discriminate H|].
  cbn [turns] in H |- *. destruct (cond b t) as [[] t1]; [|exact H].
  destruct (body t1) as [[o t2]|] eqn:E; [|discriminate H].
  rewrite (Hb _ _ E). destruct o; try exact H; apply (IH b body body' step _ r Hb H).
Qed.

Lemma meaning_mono : forall f,
  (forall s t r, meaning f s t = Some r -> meaning (Datatypes.S f) s t = Some r) /\
  (forall cs t r, meaning_cases f cs t = Some r -> meaning_cases (Datatypes.S f) cs t = Some r).
Proof.
  intros f. apply stmt_mut; intros;
    mstep; auto.
  - destruct (meaning f s1 t) as [[o t1]|] eqn:E; [|discriminate H1].
    rewrite (H _ _ E). destruct o; auto.
  - destruct (cond b t) as [[] t1]; auto.
  - eapply turns_mono; eauto.
  - eapply turns_mono; eauto.
  - destruct (meaning_cases f cs (act w t)) as [[o t1]|] eqn:E; [|discriminate H0].
    rewrite (H _ _ E). exact H0.
  - destruct (any_label S cond b bs t) as [[] t1]; auto.
Qed.

End R.
End P.
