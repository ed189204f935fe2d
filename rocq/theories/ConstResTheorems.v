(* ConstResTheorems.v: C97, the named constants of classes may be defined in any order. *)
From Coq Require Import List NArith ZArith Bool Lia Permutation.
From Verif Require Import ConstResModel ConstResSpec ConstResProofs.
Import ListNotations.
Open Scope N_scope.

(* in an accepted program every constant has the value that its definition says *)
Theorem C97_values : forall ds r, NoDup (map d_id ds) -> resolve ds = Some r ->
  forall i, defined ds i -> exists v, r i = Some v /\ Value ds (EName i) v /\ forall w, Value ds (EName i) w -> w = v.
Proof.
  intros ds r ND H i (d & Hd & <-). destruct (resolve_ok ds r H) as [S A]. specialize (A d Hd). destruct (r (d_id d)) as [v|] eqn:E; [|now elim A].
  exists v. split; [reflexivity|]. split; [now apply S|]. intros w V. eapply Value_fun; eauto.
Qed.
Print Assumptions C97_values.

(* and the order of the definitions does not change any value *)
Theorem C97_order : forall ds ds' r r', NoDup (map d_id ds) -> Permutation ds ds' -> resolve ds = Some r -> resolve ds' = Some r' ->
  forall i, defined ds i -> r i = r' i.
Proof.
  intros ds ds' r r' ND P H H' i D. assert (ND' : NoDup (map d_id ds')) by (eapply Permutation_NoDup; [|exact ND]; now apply Permutation_map).
  assert (D' : defined ds' i). { destruct D as (d & Hd & E). exists d. split; [now apply (Permutation_in d P) | exact E]. }
  assert (T : forall e v, Value ds e v -> Value ds' e v).
  { induction 1; [constructor | apply V_name with v; auto; now apply (Permutation_in d P) | econstructor; eauto]. }
  destruct (C97_values ds r ND H i D) as (v & -> & V & _). destruct (C97_values ds' r' ND' H' i D') as (v' & -> & _ & U). f_equal. symmetry. rewrite (U v); auto.
Qed.
Print Assumptions C97_order.

(* a program with a constant that needs itself is refused *)
Theorem C97_circular : forall ds i, NoDup (map d_id ds) -> needs ds i i -> resolve ds = None.
Proof.
  intros ds i ND N. destruct (resolve ds) as [r|] eqn:E; [|reflexivity]. destruct (C97_values ds r ND E i (needs_def ds i i N)) as (v & _ & V & _). elim (circular ds ND i v N V).
Qed.
Print Assumptions C97_circular.

(* which programs are accepted: those all of whose constants have values, with no more than 100 uses in a row against the order *)
Theorem C97_accepts : forall ds, NoDup (map d_id ds) ->
  (resolve ds <> None <->
   (forall i, defined ds i -> exists v, Value ds (EName i) v) /\ exists rk, ranked ds rk /\ forall i, defined ds i -> (rk i <= 100)%nat).
Proof.
  intros ds ND. split.
  - intro H. destruct (resolve ds) as [r|] eqn:E; [|now elim H]. split.
    + intros i D. destruct (C97_values ds r ND E i D) as (v & _ & V & _). eauto.
    + destruct (resolve_ranked ds ND r E) as (rk & A & B). exists rk. split; [exact A|]. intros i (d & Hd & <-). apply (B d Hd).
  - intros [V (rk & A & B)]. destruct (resolve_rank ds ND rk A) as (r & ->); [| |discriminate].
    + intros d Hd. apply V. now exists d.
    + intros d Hd. apply B. now exists d.
Qed.
Print Assumptions C97_accepts.

(* constant Int A = B + 1; constant Int B = C * C; constant Int C = 7; the first is known after three passes *)
Definition ex_ds : list def :=
  [{| d_id := 0; d_ex := EOp (fun a b => Some (a + b)%Z) (EName 1) (EVal 1); d_fit := Some |};
   {| d_id := 1; d_ex := EOp (fun a b => Some (a * b)%Z) (EName 2) (EName 2); d_fit := Some |};
   {| d_id := 2; d_ex := EVal 7; d_fit := Some |}].
Example C97_ex : option_map (fun r => map r [0; 1; 2]) (resolve ex_ds) = Some [Some 50%Z; Some 49%Z; Some 7%Z]
  /\ option_map (fun r => map r [0; 1; 2]) (resolve (rev ex_ds)) = Some [Some 50%Z; Some 49%Z; Some 7%Z] /\ NoDup (map d_id ex_ds).
Proof. repeat split; try (vm_compute; reflexivity). repeat constructor; cbn; intuition discriminate. Qed.
Example C97_circ_ex : needs [{| d_id := 0; d_ex := EName 1; d_fit := Some |}; {| d_id := 1; d_ex := EName 0; d_fit := Some |}] 0 0.
Proof. apply N_more with 1; [apply (N_one _ {| d_id := 0; d_ex := EName 1; d_fit := Some |}) | apply (N_one _ {| d_id := 1; d_ex := EName 0; d_fit := Some |})]; first [apply U_name | cbn; tauto]. Qed.

(* constants C0 = C1, C1 = C2, ..., the last one 5: 101 of them are accepted, 102 are refused, though all have the value 5 and the same
   102 in the other order are accepted *)
Definition chain (n : nat) : list def := map (fun k => {| d_id := N.of_nat k; d_ex := if Nat.eqb (S k) n then EVal 5 else EName (N.of_nat (S k)); d_fit := Some |}) (seq 0 n).
Theorem C97_limit_refuted :
  option_map (fun r => r 0) (resolve (chain 101)) = Some (Some 5%Z) /\ resolve (chain 102) = None /\ NoDup (map d_id (chain 102))
  /\ option_map (fun r => r 0) (resolve (rev (chain 102))) = Some (Some 5%Z) /\ (forall i, defined (chain 102) i -> Value (chain 102) (EName i) 5).
Proof.
  split; [vm_compute; reflexivity|]. split; [vm_compute; reflexivity|]. split.
  { unfold chain. rewrite map_map. apply FinFun.Injective_map_NoDup; [|apply seq_NoDup]. intros a b H. cbn in H. lia. }
  split; [vm_compute; reflexivity|].
  assert (G : forall m k, (k + m = 101)%nat -> Value (chain 102) (EName (N.of_nat k)) 5).
  { induction m as [|m IH]; intros k Hk.
    - apply (V_name (chain 102) {| d_id := N.of_nat k; d_ex := EVal 5; d_fit := Some |} 5%Z 5%Z); [|constructor|reflexivity]. apply in_map_iff. exists k. split; [|apply in_seq; lia].
      replace (Nat.eqb (S k) 102) with true by (symmetry; apply PeanoNat.Nat.eqb_eq; lia). reflexivity.
    - apply (V_name (chain 102) {| d_id := N.of_nat k; d_ex := EName (N.of_nat (S k)); d_fit := Some |} 5%Z 5%Z); [|apply IH; lia|reflexivity]. apply in_map_iff. exists k. split; [|apply in_seq; lia].
      replace (Nat.eqb (S k) 102) with false by (symmetry; apply PeanoNat.Nat.eqb_neq; lia). reflexivity. }
  intros i (d & Hd & <-). unfold chain in Hd. apply in_map_iff in Hd. destruct Hd as (k & <- & Hk). apply in_seq in Hk. cbn [d_id]. apply (G (101 - k)%nat). lia.
Qed.
Print Assumptions C97_limit_refuted.
