(* RefTheorems.v: C83. *)
From Coq Require Import List NArith ZArith Lia Bool.
From Coq Require Import ZifyBool ZifyNat ZifyN.
From Verif Require Import Base RefModel RefSpec RefProofs.
Import ListNotations.
Open Scope Z_scope.

(* A program whose functions with references are not called while they are active: the evaluator ends with the values that the
   language gives, for every program, number of steps, and pointers left with the symbols from before. *)
Theorem C83_partial : forall prog sh f fp mem0 auto0 m0 k, formed_prog prog sh -> once_active prog -> sh_params sh f = [] ->
  match exec prog k f fp (fn_body (prog f)) (mkSt (frameCells fp (fn_depth (prog f)) mem0) auto0),
        run prog k f fp (fn_body (prog f)) (mkN (fun _ => None) (fun _ => None)) (new_frame fp (fn_depth (prog f)) m0) with
  | Done s', Done (n', m') => forall x, In x (sh_vars sh f) -> mem s' (fp + x) = CV (m' (fp + x))
  | Stopped, Stopped | NoFuel, NoFuel => True
  | _, _ => False
  end.
Proof.
  intros prog sh f fp mem0 auto0 m0 k HF HO HP. destruct (HF f) as (HD & HV & d & FB).
  assert (forall x, isvar sh f x -> In x (sh_vars sh f)) as HI. { intros x [H|(i & H & _)]; auto. rewrite HP in H. destruct i; discriminate. }
  assert (agrees prog sh f fp [] (mkN (fun _ => None) (fun _ => None)) (new_frame fp (fn_depth (prog f)) m0) (mkSt (frameCells fp (fn_depth (prog f)) mem0) auto0) (fun a => exists x, isvar sh f x /\ a = fp + x)) as A.
  { constructor; cbn [mem autoptr].
    - intros a (x & H & ->). specialize (HV x (HI x H)). unfold frameCells, new_frame. replace (_ && _) with true by lia. auto.
    - intros a (x & H & ->). specialize (HV x (HI x H)). lia.
    - eauto.
    - intros x H HN (y & H1 & E). apply HN. replace x with y by lia. auto.
    - intros x (i & H & _). rewrite HP in H. destruct i; discriminate.
    - intros r []. }
  pose proof (exec_agree prog sh HF HO k f fp _ _ _ _ _ _ _ FB A ltac:(apply incl_refl) ltac:(auto) ltac:(congruence)) as H.
  destruct (exec prog k f fp _ _) as [s'| |], (run prog k f fp _ _ _) as [[n' m']| |]; auto. destruct H as (A' & _). intros x Hx. apply A'. exists x. split; auto. left. auto.
Qed.
Print Assumptions C83_partial.

(* void rec(Int n, Int& p, Int& q) { Int& r = p; if(n) rec(0, q, p); r = 7 + n; }   main: Int x; Int y; rec(1, x, y); *)
Definition ex_rec : program := fun f =>
  match f with
  | 0%N => mkFn 2 (SCall 1 [AVal (EConst 1); ARef (LVar 1); ARef (LVar 2)])
  | 1%N => mkFn 1 (SSeq (SBind 0 1 (LParam (-4))) (SSeq (SIf (EGet (LVar (-3))) (SCall 1 [AVal (EConst 0); ARef (LParam (-5)); ARef (LParam (-4))]) SSkip)
                   (SSet (LRef 0 1) (EOp Z.add (EConst 7) (EGet (LVar (-3)))))))
  | _ => mkFn 0 SSkip
  end.
Definition ex_shape : shape := mkShape (fun f => match f with 0%N => [1; 2] | _ => [] end) (fun f => match f with 1%N => [false; true; true] | _ => [] end).
Lemma ex_rec_formed : formed_prog ex_rec ex_shape.
Proof.
  assert (ispar ex_shape 1 (-4)) as P4 by (exists 1%nat; auto). assert (ispar ex_shape 1 (-5)) as P5 by (exists 2%nat; auto).
  assert (forall i, 0 <= i < 1 -> isvar ex_shape 1 (-3 + i)) as V3 by (intros i HI; right; exists 0%nat; split; [auto|lia]).
  intros [|[|[]|]]; unfold formed_fn; cbn [ex_rec fn_depth fn_body].
  - split; [lia|]. split; [cbn; intuition lia|]. eexists. constructor. constructor; [exact I|]. constructor; [cbn [formedA formedL]; intros i HI; left; replace (1 + i) with 1 by lia; cbn; auto|]. constructor; [|constructor]. cbn [formedA formedL]; intros i HI; left; replace (2 + i) with 2 by lia; cbn; auto.
  - split; [lia|]. split; [intros x []|]. eexists. constructor.
  - split; [lia|]. split; [intros x []|]. eexists. constructor.
  - split; [lia|]. split; [intros x []|]. eexists. constructor.
  - split; [lia|]. split; [intros x []|]. eexists. constructor.
  - split; [lia|]. split; [intros x []|]. eexists. econstructor; [constructor|econstructor].
    + split; auto.
    + lia.
    + intros [[]|(i & _ & E)]. lia.
    + econstructor; [exact V3| |constructor]. constructor. constructor; [exact I|]. constructor; [split; auto|]. constructor; [split; auto|constructor].
    + constructor; [split; [left; auto|auto]|]. split; [exact I|exact V3].
Qed.
(* With recursion a reference can come to stand for what an inner call bound it to: here y gets what was meant for x. *)
Theorem C83_recursion_refuted : exists prog sh f k s' n' m', formed_prog prog sh /\ sh_params sh f = [] /\
  exec prog k f 0 (fn_body (prog f)) (mkSt (fun _ => CV 0) (fun _ _ => None)) = Done s' /\
  run prog k f 0 (fn_body (prog f)) (mkN (fun _ => None) (fun _ => None)) (fun _ => 0) = Done (n', m') /\
  In 1 (sh_vars sh f) /\ mem s' 1 = CV 0 /\ m' 1 = 8 /\ In 2 (sh_vars sh f) /\ mem s' 2 = CV 8 /\ m' 2 = 7.
Proof.
  exists ex_rec, ex_shape, 0%N, 20%nat. eexists _, _, _. split; [apply ex_rec_formed|]. split; [reflexivity|]. split; [vm_compute; reflexivity|]. split; [vm_compute; reflexivity|].
  split; [cbn; auto|]. split; [vm_compute; reflexivity|]. split; [vm_compute; reflexivity|]. split; [cbn; auto|]. split; vm_compute; reflexivity.
Qed.
Print Assumptions C83_recursion_refuted.

(* void g(Int& p, Int n) { Int& r = p; Int& t = r; h(t); r = n; }  void h(Int& p) { p = 5; }   main: Int x; Int[3] a; g(a[x], 4); g(x, 2); *)
Definition ex_refs : program := fun f =>
  match f with
  | 0%N => mkFn 4 (SSeq (SCall 1 [ARef (LItem (LVar 2) 3 (EGet (LVar 1))); AVal (EConst 4)]) (SCall 1 [ARef (LVar 1); AVal (EConst 2)]))
  | 1%N => mkFn 2 (SSeq (SBind 0 1 (LParam (-3))) (SSeq (SBind 1 2 (LRef 0 1)) (SSeq (SCall 2 [ARef (LRef 1 2)]) (SSet (LRef 0 1) (EGet (LVar (-4)))))))
  | 2%N => mkFn 0 (SSet (LParam (-3)) (EConst 5))
  | _ => mkFn 0 SSkip
  end.
Definition ex_refs_shape : shape := mkShape (fun f => match f with 0%N => [1; 2; 3; 4] | _ => [] end) (fun f => match f with 1%N => [true; false] | 2%N => [true] | _ => [] end).
Lemma ex_refs_leads a b : leads ex_refs a b -> (a <= b)%N.
Proof. induction 1 as [|f g h H _ IH]; [lia|]. destruct f as [|[|[]|]]; cbn in H; intuition; subst; lia. Qed.
Example C83_ex : formed_prog ex_refs ex_refs_shape /\ once_active ex_refs /\ sh_params ex_refs_shape 0%N = [] /\
  exists s', exec ex_refs 20 0%N 0 (fn_body (ex_refs 0%N)) (mkSt (fun _ => CV 0) (fun _ _ => None)) = Done s' /\ map (fun x => mem s' x) [1; 2; 3; 4] = [CV 2; CV 4; CV 0; CV 0].
Proof.
  split; [|split; [|split; [reflexivity|]]].
  - intros [|p]; unfold formed_fn.
    + cbn [ex_refs fn_depth fn_body]. split; [lia|]. split; [cbn; intuition lia|]. eexists. econstructor.
      * constructor. constructor; [|constructor; [exact I|constructor]]. split; [auto|]. split; [eauto|]. split; [cbn [formedA formedL]; intros i HI; left; assert (i = 0 \/ i = 1 \/ i = 2) as [-> | [-> | ->]] by lia; cbn; auto|]. cbn [formedA formedL]. intros i HI. left. replace (1 + i) with 1 by lia. cbn; auto.
      * constructor. constructor; [|constructor; [exact I|constructor]]. cbn [formedA formedL]. intros i HI. left. replace (1 + i) with 1 by lia. cbn; auto.
    + destruct (Pos.eq_dec p 1) as [->|N1]; [|destruct (Pos.eq_dec p 2) as [->|N2]].
      * cbn [ex_refs fn_depth fn_body]. split; [lia|]. split; [intros x []|]. assert (ispar ex_refs_shape 1 (-3)) as P3 by (exists 0%nat; auto).
        eexists. econstructor; [constructor; [split; auto|lia|intros [[]|(i & _ & E)]; lia]|]. econstructor; [constructor; [split; [left; auto|auto]|lia|intros [[]|(i & _ & E)]; lia]|].
        econstructor; [constructor; constructor; [split; [left; auto|auto]|constructor]|]. constructor; [split; [right; left; auto|auto]|]. cbn [formedA formedL formedE]. intros i HI. right. exists 1%nat. split; [auto|lia].
      * cbn [ex_refs fn_depth fn_body]. split; [lia|]. split; [intros x []|]. eexists. constructor; [|exact I]. split; auto. exists 0%nat. auto.
      * assert (ex_refs (N.pos p) = mkFn 0 SSkip) as -> by (cbn [ex_refs]; destruct p as [p|[p|p|]|]; try reflexivity; congruence). cbn [fn_depth fn_body]. split; [lia|]. split; [intros x []|]. eexists. constructor.
  - intros f g HB HC HL. apply ex_refs_leads in HL. destruct f as [|[|[]|]]; cbn in HB, HC; intuition; subst; lia.
  - eexists. split; [vm_compute; reflexivity|vm_compute; reflexivity].
Qed.
