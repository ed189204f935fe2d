(* RetRefTheorems.v: C86. *)
From Coq Require Import List NArith ZArith Lia Bool.
From Coq Require Import ZifyBool ZifyNat ZifyN.
From Verif Require Import Base RefModel RefSpec RefProofs RetRefModel RetRefSpec.
Import ListNotations.
Open Scope Z_scope.

Lemma run_par prog k : forall f fp c n m n' m', run prog k f fp c n m = Done (n', m') -> n_par n' = n_par n.
Proof.
  induction k as [|k IH]; intros f fp c n m n' m' H; [discriminate|]. destruct c; cbn [run] in H.
  - congruence.
  - destruct (run prog k f fp c1 n m) as [[n1 m1]| |] eqn:E; try discriminate. rewrite (IH _ _ _ _ _ _ _ H). eauto.
  - destruct (place fp n m l); [|discriminate]. injection H as <- <-. auto.
  - destruct (place fp n m l); [|discriminate]. destruct (value fp n m e); [|discriminate]. congruence.
  - destruct (given fp n m a); [|discriminate]. cbv zeta in H. destruct (run prog k f0 _ _ _ _) as [[n1 m1]| |]; try discriminate. congruence.
  - destruct (value fp n m e); [|discriminate]. eauto.
Qed.

Section Own.
Variable prog : program.
Variable sh : shape.
Hypothesis FP : formed_prog prog sh.
Hypothesis OA : once_active prog.
Notation depth f := (fn_depth (prog f)).
Definition owned (f : N) (W : Z -> Prop) (p : ptr) : Prop := if p_abs p then W (p_slot p) else 0 < p_slot p <= depth f.

Lemma into_own f fp b n m s V (W : Z -> Prop) l k p : agrees prog sh f fp b n m s V -> (forall x a, ispar sh f x -> n_par n x = Some a -> W a) ->
  (forall r p, In r b -> autoptr s f r = Some p -> owned f W p) -> notValueParam l -> formedL (isvar sh f) (ispar sh f) b l k -> 1 <= k ->
  evalToStoreInto f fp s l = Some p -> owned f W p.
Proof.
  intros A HW HR. assert (forall x, isvar sh f x -> 0 < x -> x <= depth f) as HV.
  { intros x [H|(i & _ & ->)] HX; [|lia]. destruct (FP f) as (_ & H1 & _). specialize (H1 x H). lia. }
  destruct l as [x|x|r x|l kk e]; intros HN HF HK H.
  - cbn in H, HF, HN. injection H as <-. unfold owned. cbn. split; auto. apply HV; auto. specialize (HF 0 ltac:(lia)). rewrite Z.add_0_r in HF. auto.
  - destruct HF as [HF _]. cbn [evalToStoreInto] in H. destruct (a_par _ _ _ _ _ _ _ _ _ A x HF) as (_ & a & E1 & _ & E2). rewrite E2 in H. injection H as <-. unfold owned. cbn. eauto.
  - destruct HF as [HF _]. cbn [evalToStoreInto] in H. destruct (a_ref _ _ _ _ _ _ _ _ _ A r HF) as (q & E & _). rewrite E in H. injection H as <-. eauto.
  - destruct HF as (_ & (x & ->) & HF & _). rewrite into_item in H. cbn [evalToStoreInto notValueParam RefSpec.formedL p_abs p_slot] in *. destruct (eval f fp s e) as [i|]; [|discriminate].
    destruct ((0 <=? i) && (i <? kk)) eqn:EI; [|discriminate]. injection H as <-. unfold owned. cbn. split; [lia|]. apply HV; [|lia]. apply HF. lia.
Qed.

Lemma exec_own k : forall f fp c b d n m s V (W : Z -> Prop) s',
  formed (isvar sh f) (ispar sh f) (sh_params sh) (depth f) b c d -> agrees prog sh f fp b n m s V ->
  incl (callees c) (callees (fn_body (prog f))) -> (binds c -> binds (fn_body (prog f))) -> (b <> [] -> binds (fn_body (prog f))) ->
  bindsNoValueParam c -> (forall x a, ispar sh f x -> n_par n x = Some a -> W a) ->
  (forall r p, In r b -> autoptr s f r = Some p -> owned f W p) ->
  exec prog k f fp c s = Done s' -> forall r p, In r d -> autoptr s' f r = Some p -> owned f W p.
Proof.
  induction k as [|k IH]; intros f fp c b d n m s V W s' HF A HC HB HBB HN HW HR H; [discriminate|].
  inversion HF; subst; cbn [exec bindsNoValueParam callees binds] in *.
  - injection H as <-. auto.
  - rename H1 into H2'. rename H0 into H1. destruct HN as [N1 N2].
    pose proof (exec_agree prog sh FP OA k f fp s0 b c0 n m s V H1 A ltac:(intros x Hx; apply HC; apply in_or_app; auto) ltac:(auto) HBB) as I1.
    destruct (exec prog k f fp s0 s) as [s1| |] eqn:E1; try discriminate. destruct (run prog k f fp s0 n m) as [[n1 m1]| |] eqn:ER; try contradiction. destruct I1 as (A1 & _).
    assert (c0 <> [] -> binds (fn_body (prog f))) as HBC. { intros HN. destruct (formed_binds _ _ _ _ _ _ _ H1) as [->|]; auto. }
    eapply (IH f fp s'0 c0 d n1 m1 s1 V W s'); eauto.
    + intros x Hx; apply HC; apply in_or_app; auto.
    + rewrite (run_par _ _ _ _ _ _ _ _ _ ER). auto.
    + eapply (IH f fp s0 b c0 n m s V W s1); eauto. intros x Hx; apply HC; apply in_or_app; auto.
  - destruct (evalToStoreInto f fp s l) as [q|] eqn:E; [|discriminate]. injection H as <-. intros r' p HI. cbn [autoptr]. unfold setauto. rewrite N.eqb_refl. cbn [andb]. destruct (N.eqb_spec r' r) as [->|NE].
    + intros [= <-]. eapply into_own; eauto. lia.
    + apply HR. destruct HI; congruence.
  - destruct (evalToStoreInto f fp s l); [|discriminate]. destruct (eval f fp s e); [|discriminate]. injection H as <-. auto.
  - pose proof (exec_agree prog sh FP OA (S k) f fp (SCall g a) d d n m s V HF A HC ltac:(cbn; tauto) HBB) as I1. cbn [exec] in I1. cbv zeta in *. rewrite H in I1. destruct (run prog (S k) f fp (SCall g a) n m) as [[n1 m1]| |]; try contradiction.
    destruct I1 as (_ & _ & T). intros r p HI. rewrite T; [exact (HR r p HI)|intros [_ []]|]. cbn [callees]. intros h [<-|[]] HL. eapply OA; [|apply HC; left; auto|eauto]. apply HBB. intros ->. destruct HI.
  - destruct HN as [N1 N2]. destruct (eval f fp s e) as [v|]; [|discriminate]. destruct (v =? 0).
    + assert (forall r p, In r d0 -> autoptr s' f r = Some p -> owned f W p) as G. { eapply (IH f fp s'0 d d0 n m s V W s'); eauto. intros x Hx; apply HC; apply in_or_app; auto. }
      intros r p HI. apply G. eapply formed_incl; eauto.
    + assert (forall r p, In r c0 -> autoptr s' f r = Some p -> owned f W p) as G. { eapply (IH f fp s0 d c0 n m s V W s'); eauto. intros x Hx; apply HC; apply in_or_app; auto. }
      intros r p HI. apply G. eapply formed_incl; eauto.
Qed.
End Own.

(* A call in an activation whose state the evaluator has right (agrees, see RefProofs.v: values in their places, references to the
   places they stand for), of a function that names none of its value parameters by a reference: the evaluator ends with the
   place that the result stands for and that is there after the call; it stops if there is none. *)
Theorem C86_call_partial : forall prog sh result k f fp b n m s V g a, formed_prog prog sh -> once_active prog ->
  agrees prog sh f fp b n m s V -> (b <> [] -> binds (fn_body (prog f))) -> In g (callees (fn_body (prog f))) ->
  Forall2 (formedA (isvar sh f) (ispar sh f) b) a (sh_params sh g) -> formed_result prog sh result g ->
  bindsNoValueParam (fn_body (prog g)) -> notValueParam (result g) ->
  match callRef prog result k f fp g a s, call_place prog result k f fp g a n m with
  | Done (s', p), Done (m', at_) => indexOf fp p = at_ /\ V at_ /\ at_ <= fp + fn_depth (prog f) /\ agrees prog sh f fp b n m' s' V
  | Stopped, Stopped | NoFuel, NoFuel => True
  | _, _ => False
  end.
Proof.
  intros prog sh result k f fp b n m s V g a FP OA A HBB HG HA (d & FG & FR) HN HNR. unfold callRef, call_place.
  pose proof (args_agree prog sh f fp b n m s V A a _ HA) as HAG. destruct (evalArgs f fp s a) as [cs|] eqn:EC, (given fp n m a) as [xs|] eqn:EX; try contradiction; auto. destruct HAG as [-> HX]. rewrite map_length.
  pose proof (enter_agree prog sh f fp b n m s V g xs (FP f) (FP g) A HX) as AG. cbv zeta in AG |- *.
  set (fp' := fp + fn_depth (prog f) + 1 + Z.of_nat (List.length xs) + 2) in *.
  pose proof (exec_agree prog sh FP OA k g fp' _ _ _ _ _ _ _ FG AG ltac:(apply incl_refl) ltac:(auto) ltac:(congruence)) as I1.
  assert (formed (isvar sh f) (ispar sh f) (sh_params sh) (fn_depth (prog f)) b (SCall g a) b) as FC by (constructor; auto).
  pose proof (exec_agree prog sh FP OA (S k) f fp (SCall g a) b b n m s V FC A ltac:(intros x [<-|[]]; auto) ltac:(cbn; tauto) HBB) as I2.
  cbn [exec run] in I2. rewrite EC, EX in I2. cbv zeta in I2. rewrite map_length in I2. fold fp' in I2.
  destruct (exec prog k g fp' _ _) as [s1| |] eqn:EE, (run prog k g fp' _ _ _) as [[n1 m1]| |] eqn:ER; try contradiction; auto. destruct I1 as (A1 & _), I2 as (A2 & _).
  unfold returnRef. destruct (lval_agree prog sh g fp' d n1 m1 s1 _ A1) as [HL _]. specialize (HL (result g) 1 FR).
  assert (forall y, V y -> y <= fp + fn_depth (prog f)) as TOP by (apply A). destruct (FP f) as (HF0 & _).
  destruct (evalToStoreInto g fp' s1 (result g)) as [p|] eqn:EP, (place fp' n1 m1 (result g)) as [at_|]; try contradiction; auto. destruct HL as [HI HV].
  assert (owned prog g V p) as OP.
  { assert (forall x a0, ispar sh g x -> n_par n1 x = Some a0 -> V a0) as HW.
    { intros x a0 (i & HP & ->) HE. destruct (f2_nth _ _ _ HX i true HP) as ([v|a1] & E & HR); [contradiction|]. rewrite (run_par _ _ _ _ _ _ _ _ _ ER) in HE. cbn [n_par] in HE. rewrite (name_params_at xs (-3) i a1 E) in HE. congruence. }
    eapply (into_own prog sh FP g fp' d n1 m1 s1 _ V (result g) 1 p A1 HW); eauto; [|lia].
    refine (exec_own prog sh FP OA k g fp' _ _ _ _ _ _ _ V s1 FG AG (incl_refl _) (fun x => x) _ HN _ _ EE).
    - congruence.
    - intros x a0 HP HE. apply (HW x a0 HP). rewrite (run_par _ _ _ _ _ _ _ _ _ ER). auto.
    - intros r q []. }
  unfold owned, isLocalUnreturnable, isLocalStackIndex, indexOf in *. destruct (p_abs p) eqn:EA.
  - specialize (TOP _ OP). subst at_. replace (fp' <? p_slot p) with false by (unfold fp'; lia). cbn [andb]. replace (p_slot p <=? fp + fn_depth (prog f)) with true by lia. split; [rewrite EA; reflexivity|split; [exact OP|split; [exact TOP|exact A2]]].
  - replace (_ && _) with true by lia. replace (at_ <=? fp + fn_depth (prog f)) with false by (unfold fp' in *; lia). auto.
Qed.
Print Assumptions C86_call_partial.

(* The same from the start of a program: the function f, without parameters, runs c and then comes to the call. *)
Theorem C86_partial : forall prog sh result f fp mem0 auto0 m0 k c b g a s n m, formed_prog prog sh -> once_active prog -> sh_params sh f = [] ->
  fn_body (prog f) = SSeq c (SCall g a) -> formed (isvar sh f) (ispar sh f) (sh_params sh) (fn_depth (prog f)) [] c b ->
  Forall2 (formedA (isvar sh f) (ispar sh f) b) a (sh_params sh g) -> formed_result prog sh result g ->
  bindsNoValueParam (fn_body (prog g)) -> notValueParam (result g) ->
  exec prog k f fp c (mkSt (frameCells fp (fn_depth (prog f)) mem0) auto0) = Done s ->
  run prog k f fp c (mkN (fun _ => None) (fun _ => None)) (new_frame fp (fn_depth (prog f)) m0) = Done (n, m) ->
  match callRef prog result k f fp g a s, call_place prog result k f fp g a n m with
  | Done (s', p), Done (m', at_) => indexOf fp p = at_ /\ at_ <= fp + fn_depth (prog f) /\
      forall x v, In x (sh_vars sh f) -> mem (setThrough fp p v s') (fp + x) = CV (if fp + x =? at_ then v else m' (fp + x))
  | Stopped, Stopped | NoFuel, NoFuel => True
  | _, _ => False
  end.
Proof.
  intros prog sh result f fp mem0 auto0 m0 k c b g a s n m HF HO HP HB FC HA FR HN HNR HE HR. destruct (HF f) as (HD & HV & _).
  assert (forall x, isvar sh f x -> In x (sh_vars sh f)) as HI. { intros x [H|(i & H & _)]; auto. rewrite HP in H. destruct i; discriminate. }
  assert (agrees prog sh f fp [] (mkN (fun _ => None) (fun _ => None)) (new_frame fp (fn_depth (prog f)) m0) (mkSt (frameCells fp (fn_depth (prog f)) mem0) auto0) (fun a => exists x, isvar sh f x /\ a = fp + x)) as A.
  { constructor; cbn [mem autoptr].
    - intros a0 (x & H & ->). specialize (HV x (HI x H)). unfold frameCells, new_frame. replace (_ && _) with true by lia. auto.
    - intros a0 (x & H & ->). specialize (HV x (HI x H)). lia.
    - eauto.
    - intros x H HN' (y & H1 & E). apply HN'. replace x with y by lia. auto.
    - intros x (i & H & _). rewrite HP in H. destruct i; discriminate.
    - intros r []. }
  pose proof (exec_agree prog sh HF HO k f fp c [] b _ _ _ _ FC A ltac:(rewrite HB; cbn [callees]; intros x Hx; apply in_or_app; auto) ltac:(rewrite HB; cbn; auto) ltac:(congruence)) as H.
  rewrite HE, HR in H. destruct H as (A' & _).
  assert (b <> [] -> binds (fn_body (prog f))) as HBB. { intros HNE. rewrite HB. cbn [binds]. left. destruct (formed_binds _ _ _ _ _ _ _ FC) as [<-|]; auto. congruence. }
  pose proof (C86_call_partial prog sh result k f fp b n m s _ g a HF HO A' HBB ltac:(rewrite HB; cbn [callees]; apply in_or_app; cbn; auto) HA FR HN HNR) as G.
  destruct (callRef _ _ _ _ _ _ _ _) as [[s' p]| |], (call_place _ _ _ _ _ _ _ _ _) as [[m' at_]| |]; auto. destruct G as (G1 & G2 & G3 & G4). split; auto. split; auto.
  intros x v Hx. cbn [setThrough mem]. unfold upd. rewrite G1. destruct (fp + x =? at_); auto. apply G4. exists x. split; auto. left. auto.
Qed.
Print Assumptions C86_partial.

(* The check: a returned place is refused exactly if it is among the function's own slots above its frame pointer, however the pointer
   tells it. *)
Theorem C86_check : forall f fp depth l s p, evalToStoreInto f fp s l = Some p ->
  (fp < indexOf fp p <= fp + depth -> returnRef f fp depth l s = Stopped) /\ (~ fp < indexOf fp p <= fp + depth -> returnRef f fp depth l s = Done p).
Proof.
  intros f fp depth l s p H. unfold returnRef, isLocalUnreturnable, isLocalStackIndex. rewrite H. unfold indexOf. destruct (p_abs p).
  - destruct ((fp <? p_slot p) && (p_slot p <? fp + depth + 1)) eqn:E; split; intros; auto; lia.
  - destruct ((fp <? fp + p_slot p) && (fp + p_slot p <? fp + depth + 1)) eqn:E; split; intros; auto; lia.
Qed.
Print Assumptions C86_check.

(* Int& g(Int x) { return x; }   Void f(Int y) { g(5) = 7; }   main: f(1): the place of x is gone after the call of g, but there is
   no error; what the caller stores 7 into is its own y. *)
Definition ex_ret : program := fun f =>
  match f with 0%N => mkFn 0 (SCall 1 [AVal (EConst 1)]) | 1%N => mkFn 0 (SCall 2 [AVal (EConst 5)]) | _ => mkFn 0 SSkip end.
Definition ex_ret_shape : shape := mkShape (fun _ => []) (fun f => match f with 1%N | 2%N => [false] | _ => [] end).
Definition ex_result (f : N) : lval := LVar (-3).
Lemma ex_ret_formed : formed_prog ex_ret ex_ret_shape.
Proof.
  intros f. unfold formed_fn. assert (f = 0 \/ f = 1 \/ (f <> 0 /\ f <> 1))%N as [-> | [-> | [H0 H1]]] by lia.
  - cbn. split; [lia|]. split; [intros x []|]. eexists. repeat constructor.
  - cbn. split; [lia|]. split; [intros x []|]. eexists. repeat constructor.
  - replace (ex_ret f) with (mkFn 0 SSkip) by (destruct f as [|[]]; cbn; congruence). cbn. split; [lia|]. split; [intros x []|]. eexists. constructor.
Qed.
(* the activation of f: frame pointer 4, y at 1, filled with 1 *)
Theorem C86_refuted : exists prog sh result k f fp g a n m s s' p, formed_prog prog sh /\ once_active prog /\ formed_result prog sh result g /\
  agrees prog sh f fp [] n m s (fun b => exists x, isvar sh f x /\ b = fp + x) /\
  Forall2 (formedA (isvar sh f) (ispar sh f) []) a (sh_params sh g) /\
  call_place prog result k f fp g a n m = Stopped /\ callRef prog result k f fp g a s = Done (s', p) /\
  isvar sh f (-3) /\ mem s' (fp - 3) = CV 1 /\ mem (setThrough fp p 7 s') (fp - 3) = CV 7.
Proof.
  exists ex_ret, ex_ret_shape, ex_result, 9%nat, 1%N, 4, 2%N, [AVal (EConst 5)], (mkN (fun _ => None) (fun _ => None)), (fun _ => 1), (mkSt (fun _ => CV 1) (fun _ _ => None)). eexists _, _.
  split; [apply ex_ret_formed|]. split. { intros f g HB. destruct f as [|[]]; destruct HB. }
  split. { exists []. split; [constructor|]. unfold ex_result. cbn [formedL]. intros i HI. right. exists 0%nat. split; [reflexivity|lia]. }
  split. { constructor; cbn [mem autoptr ex_ret fn_depth].
    - auto.
    - intros a (x & [[]|(i & _ & ->)] & ->). lia.
    - eauto.
    - intros x H; lia.
    - intros x ([|[|i]] & H & _); discriminate.
    - intros r []. }
  split; [repeat constructor|]. split; [vm_compute; reflexivity|]. split; [vm_compute; reflexivity|]. split; [right; exists 0%nat; auto|]. split; vm_compute; reflexivity.
Qed.
Print Assumptions C86_refuted.

(* Int& g(Int& p, Int& q, Int n) { Int z; Int& r = p; if(n) ... return r; }   with r = p: returned; with r = z: refused *)
Definition ex_good : program := fun f =>
  match f with 0%N => mkFn 2 (SSeq SSkip (SCall 1 [ARef (LVar 1); AVal (EConst 5)])) | 1%N => mkFn 2 (SSeq (SBind 0 2 (LParam (-3))) (SSet (LVar 1) (EGet (LVar (-4))))) | _ => mkFn 0 SSkip end.
Definition ex_good_shape : shape := mkShape (fun f => match f with 0%N => [1; 2] | 1%N => [1] | _ => [] end) (fun f => match f with 1%N => [true; false] | _ => [] end).
Example C86_ex : formed_prog ex_good ex_good_shape /\ once_active ex_good /\ sh_params ex_good_shape 0%N = [] /\
  formed_result ex_good ex_good_shape (fun _ => LRef 0 2) 1%N /\ formed_result ex_good ex_good_shape (fun _ => LVar 1) 1%N /\ bindsNoValueParam (fn_body (ex_good 1%N)) /\ notValueParam (LRef 0 2) /\ notValueParam (LVar 1) /\
  let s := mkSt (fun _ => CV 0) (fun _ _ => None) in
  (exists s' p, callRef ex_good (fun _ => LRef 0 2) 9 0%N 0 1%N [ARef (LVar 1); AVal (EConst 5)] s = Done (s', p) /\ indexOf 0 p = 1) /\
  callRef ex_good (fun _ => LVar 1) 9 0%N 0 1%N [ARef (LVar 1); AVal (EConst 5)] s = Stopped.
Proof.
  assert (ispar ex_good_shape 1 (-3)) as P3 by (exists 0%nat; auto). assert (isvar ex_good_shape 1 1) as V1 by (left; cbn; auto).
  assert (forall i, 0 <= i < 1 -> isvar ex_good_shape 1 (1 + i)) as V1' by (intros i HI; replace (1 + i) with 1 by lia; auto).
  assert (forall i, 0 <= i < 1 -> isvar ex_good_shape 1 (-4 + i)) as V4 by (intros i HI; right; exists 1%nat; split; [auto|lia]).
  assert (forall i, 0 <= i < 1 -> isvar ex_good_shape 0 (1 + i)) as V0 by (intros i HI; left; replace (1 + i) with 1 by lia; cbn; auto).
  assert (formed (isvar ex_good_shape 1) (ispar ex_good_shape 1) (sh_params ex_good_shape) 2 [] (fn_body (ex_good 1%N)) [0%N]) as F1.
  { econstructor; [constructor; [split; auto|lia|intros [[H|[]]|(i & _ & E)]; lia]|]. constructor; auto. }
  split; [|split; [|split; [reflexivity|split; [|split; [|split; [|split; [|split; [|]]]]]]]].
  - intros f. unfold formed_fn. assert (f = 0 \/ f = 1 \/ (f <> 0 /\ f <> 1))%N as [-> | [-> | [H0 H1]]] by lia.
    + cbn [ex_good fn_depth fn_body]. split; [lia|]. split; [cbn; intuition lia|]. eexists. econstructor; [constructor|]. constructor. constructor; [exact V0|]. constructor; [exact I|constructor].
    + cbn [ex_good fn_depth]. split; [lia|]. split; [cbn; intuition lia|]. eexists. apply F1.
    + replace (ex_good f) with (mkFn 0 SSkip) by (destruct f as [|[]]; cbn; congruence). cbn. split; [lia|]. split; [intros x HX; destruct f as [|[]]; cbn in HX; intuition congruence|]. eexists. constructor.
  - intros f g HB HC. assert (f = 0 \/ f = 1 \/ (f <> 0 /\ f <> 1))%N as [-> | [-> | [H0 H1]]] by lia; cbn in *; try tauto. replace (ex_good f) with (mkFn 0 SSkip) in HB by (destruct f as [|[]]; cbn; congruence). destruct HB.
  - exists [0%N]. split; [exact F1|]. split; [left; auto|auto].
  - exists [0%N]. split; [exact F1|]. exact V1'.
  - cbn. auto.
  - cbn. auto.
  - cbn. lia.
  - cbv zeta. split; [|vm_compute; reflexivity]. eexists _, _. split; [vm_compute; reflexivity|reflexivity].
Qed.
