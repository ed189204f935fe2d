(* AbstractTheorems.v: C98, a variable never holds an object one of whose functions has no body. *)
From Coq Require Import List NArith Bool Lia.
From Verif Require Import Base TypeTableModel FamilyModel FamilyProofs FamilyTheorems LayoutTheorems VTableModel VTableSpec VTableTheorems AbstractModel AbstractSpec.
Import ListNotations.
Open Scope N_scope.

Lemma checkExp_0 e : checkExp e = 0%nat.
Proof. induction e; cbn [checkExp]; lia. Qed.
Lemma checkStm_0 D s : checkStm D s = 0%nat <-> forall c i, part (SDecl false (Some c) i) s -> abstr D c = false.
Proof.
  induction s as [|r k i| |a IHa b IHb|b IHb|x a IHa b IHb|x b IHb| |]; cbn [checkStm]; rewrite ?checkExp_0; cbn [Nat.add].
  - split; [intros _ c j H; inversion H | auto].
  - destruct r; [split; [intros _ c j H; inversion H | auto]|]. destruct k as [c|]; [|split; [intros _ c j H; inversion H | auto]]. split.
    + destruct (abstr D c) eqn:E; [discriminate|]. intros _ c' j H. inversion H; subst. exact E.
    + intro H. rewrite (H c i); [reflexivity | constructor].
  - split; [intros _ c j H; inversion H | auto].
  - split.
    + intros H c i P. assert (checkStm D a = 0 /\ checkStm D b = 0)%nat as [A B] by lia. inversion P; subst; [eapply IHa | eapply IHb]; eauto.
    + intro H. rewrite (proj2 IHa), (proj2 IHb); [reflexivity| |]; intros c i P; apply (H c i); [now apply P_then | now apply P_first].
  - rewrite IHb. split; intros H c i P; apply (H c i); [now inversion P | now constructor].
  - split.
    + intros H c i P. assert (checkStm D a = 0 /\ checkStm D b = 0)%nat as [A B] by lia. inversion P; subst; [eapply IHa | eapply IHb]; eauto.
    + intro H. rewrite (proj2 IHa), (proj2 IHb); [reflexivity| |]; intros c i P; apply (H c i); [now apply P_if2 | now apply P_if1].
  - rewrite IHb. split; intros H c i P; apply (H c i); [now inversion P | now constructor].
  - split; [intros _ c j H; inversion H | auto].
  - split; [intros _ c j H; inversion H | auto].
Qed.
Lemma fold_0 {A} (f : A -> nat) l : fold_right (fun x n => f x + n)%nat O l = O <-> forall x, In x l -> f x = O.
Proof.
  induction l as [|y l IH]; cbn [fold_right In]; [split; [intros _ x [] | auto]|]. split.
  - intros H x [<-|Hx]; [lia|]. apply IH; [lia | exact Hx].
  - intro H. rewrite (H y), (proj2 IH); auto.
Qed.
(* no error exactly if no class is abstract in which an object may be *)
Theorem C98_accepts : forall D p, checkProgram D p = 0%nat <-> forall c, lives p c -> abstr D c = false.
Proof.
  intros D p. unfold checkProgram. rewrite fold_0. unfold checkClass, checkAbstractClassError. split.
  - intros H c L. destruct (abstr D c) eqn:Q; [exfalso|reflexivity]. destruct L as [k Hk <- E|k Hk <- E|[k i Hk P|k f i Hk Hf P|k f i Hk Hf P]]; specialize (H k Hk).
    + rewrite E, Q in H. discriminate.
    + rewrite E, Q, orb_true_r in H. discriminate.
    + pose proof (proj1 (checkStm_0 D (c_members k)) ltac:(lia) c i P). congruence.
    + assert (F : checkFunc D f = O) by (apply (proj1 (fold_0 (checkFunc D) (c_funcs k))); [lia | exact Hf]). unfold checkFunc in F. pose proof (proj1 (checkStm_0 D (f_params f)) ltac:(lia) c i P). congruence.
    + assert (F : checkFunc D f = O) by (apply (proj1 (fold_0 (checkFunc D) (c_funcs k))); [lia | exact Hf]). unfold checkFunc in F. pose proof (proj1 (checkStm_0 D (f_body f)) ltac:(lia) c i P). congruence.
  - intros H k Hk. assert (X1 : (if (c_element k || c_concrete k) && abstr D (c_id k) then 1 else 0)%nat = O).
    { destruct (c_element k) eqn:E1; [rewrite (H (c_id k)); [now rewrite andb_false_r | now apply (L_element p _ k)]|]. destruct (c_concrete k) eqn:E2; [|reflexivity]. rewrite (H (c_id k)); [now rewrite andb_false_r | now apply (L_concrete p _ k)]. }
    assert (X2 : checkStm D (c_members k) = O) by (apply checkStm_0; intros c i P; apply H; apply L_variable; now apply (In_member p c k i)).
    assert (X3 : fold_right (fun f n => checkFunc D f + n)%nat O (c_funcs k) = O).
    { apply fold_0. intros f Hf. unfold checkFunc. rewrite (proj2 (checkStm_0 D (f_params f))), (proj2 (checkStm_0 D (f_body f))); [reflexivity| |]; intros c i P; apply H; apply L_variable; [now apply (In_body p c k f i) | now apply (In_param p c k f i)]. }
    unfold checkFunc in *. lia.
Qed.
Print Assumptions C98_accepts.

(* so in an accepted program the function that a virtual call finds for an object in an atom or in a variable has a body *)
Theorem C98_body_partial : forall root bases compare funs, hier root bases compare funs -> forall D p c v s k, built root bases compare funs D -> D c = Some v ->
  (forall x s, reach root bases c x -> virtual root bases funs x s -> (exists o, one_origin root bases funs c s o) /\ exists k, final root bases funs c s k) ->
  checkProgram D p = 0%nat -> lives p c -> final root bases funs c s k ->
  forall d, In d (funs k) -> fd_sig d = s -> fd_pure d = false.
Proof.
  intros root bases compare funs H D p c v s k HB E O A L F d Hd Es. destruct (fd_pure d) eqn:P; [|reflexivity]. exfalso.
  assert (T : isAbstract v = true). { apply (C57_abstract root bases compare funs H D c v HB E O). exists s, k, d. auto. }
  pose proof (proj1 (C98_accepts D p) A c L) as N. unfold abstr in N. rewrite E in N. congruence.
Qed.
Print Assumptions C98_body_partial.

(* the diamond of VTableTheorems: 1 and 2 are abstract (g has no body), 4 is not; an element (9, not in the diamond) has a member of class 4
   and a function with a parameter 2& and a local variable of class 4 *)
Definition ex_prog (r : bool) : list cls :=
  [{| c_id := 9; c_element := true; c_concrete := false; c_members := SSeq (SDecl false (Some 4) Leaf) SNil;
      c_funcs := [{| f_ret := None; f_params := SSeq (SDecl r (Some 2) Leaf) SNil; f_body := SSeq (SIf Leaf (SBlock (SSeq (SDecl false (Some 4) Leaf) SNil)) SNil) (SReturn Leaf) |}] |}].
Example C98_ex : checkProgram (t_all ex_diamond) (ex_prog true) = 0%nat /\ checkProgram (t_all ex_diamond) (ex_prog false) = 1%nat /\ lives (ex_prog true) 4 /\ lives (ex_prog false) 2
  /\ final ex_r (t_bases ex_diamond) (t_funs ex_diamond) 4 11 4.
Proof.
  split; [vm_compute; reflexivity|]. split; [vm_compute; reflexivity|]. split.
  { apply L_variable. eapply In_member; [left; reflexivity|]. apply P_first. constructor. }
  split; [|apply C57_ex]. apply L_variable. eapply In_param; [left; reflexivity | left; reflexivity|]. apply P_first. constructor.
Qed.

(* 2 f(2& r) { return r; }, and then f(r).g() or 2.instanceof.g(): accepted, though the objects that f and instanceof yield are of the abstract
   class 2; and a constant of class 2 is accepted as well *)
Definition ex_bad : list cls :=
  [{| c_id := 9; c_element := true; c_concrete := false; c_members := SSeq (SConst (Some 2) (Make 2 Leaf)) SNil;
      c_funcs := [{| f_ret := Some 2; f_params := SSeq (SDecl true (Some 2) Leaf) SNil; f_body := SReturn Leaf |};
                  {| f_ret := None; f_params := SSeq (SDecl true (Some 2) Leaf) SNil; f_body := SSeq (SExp (Bin (Call (Some 2) (Lst Leaf Leaf)) Leaf)) (SExp (Bin (Make 2 Leaf) Leaf)) |}] |}].
Theorem C98_temporary_refuted : checkProgram (t_all ex_diamond) ex_bad = 0%nat /\ abstr (t_all ex_diamond) 2 = true
  /\ (exists k f e e', In k ex_bad /\ In f (c_funcs k) /\ part (SExp (Bin e Leaf)) (f_body f) /\ yields e 2 /\ part (SExp (Bin e' Leaf)) (f_body f) /\ yields e' 2 /\ e <> e')
  /\ (exists k e, In k ex_bad /\ part (SConst (Some 2) e) (c_members k)).
Proof.
  split; [vm_compute; reflexivity|]. split; [vm_compute; reflexivity|]. split.
  - eexists _, _, _, _. split; [left; reflexivity|]. split; [right; left; reflexivity|]. split; [apply P_first; constructor|]. split; [constructor|]. split; [apply P_then; constructor|]. split; [constructor | discriminate].
  - eexists _, _. split; [left; reflexivity|]. apply P_first. constructor.
Qed.
Print Assumptions C98_temporary_refuted.
