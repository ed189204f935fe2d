(* CallStackTheorems.v: C19 and C20. *)
From Coq Require Import String List NArith ZArith Lia Bool.
From Coq Require Import ZifyBool ZifyNat ZifyN.
From Verif Require Import Base BitVec UTypeModel AtomModel AtomSpec AtomProofs CallStackModel CallStackSpec CallStackProofs.
Import ListNotations.
Ltac Zify.zify_post_hook ::= Z.div_mod_to_equations.
Open Scope N_scope.

(* C19: a call handed the top a values, whose code keeps to those and to its own locals, and any calls it makes
   likewise, returns (or memory runs out) with the caller's frame pointer, its height and every value below the a
   handed over as before *)
Theorem C19_call_leaves_caller_alone : forall a depth body hb s,
  keeps a depth body = Some hb ->
  cs_cur s < size s -> size s < two31 -> a <= size s ->
  run1 (ICall a depth body) s = OutOfMemory \/
  exists s', run1 (ICall a depth body) s = Ok s' /\ cs_cur s' = cs_cur s /\ size s' = size s /\
    forall i, i < size s - a -> loadFromIndex i s' = loadFromIndex i s.
Proof.
  intros a d body hb s HK HC HS Ha.
  destruct (call_frame s a d body hb HC HS Ha) as [-> | (m & -> & HM)]; auto.
  { intros. eapply run_keeps; eauto. }
  right. eexists. split; [reflexivity|]. cbn [cs_cur]. split; auto. unfold size, loadFromIndex, size in *. cbn [cs_frames].
  rewrite app_length, firstn_length.
  assert (N.of_nat (Nat.min (N.to_nat (N.of_nat (List.length (cs_frames s)) - a)) (List.length (cs_frames s)) + List.length m)
          = N.of_nat (List.length (cs_frames s))) as E by lia.
  split; [exact E|]. intros i Hi. rewrite E. destruct (i <? _); auto. f_equal.
  rewrite nth_error_app1 by (rewrite firstn_length; lia). apply nth_firstn. lia.
Qed.
Print Assumptions C19_call_leaves_caller_alone.

(* pushing arguments, calling and popping the arguments leaves the whole stack as it was *)
Theorem C19_call_sequence_restores_stack : forall args depth body hb s,
  keeps (N.of_nat (List.length args)) depth body = Some hb ->
  cs_cur s < size s -> size s < two31 ->
  let code := map IPush args ++ [ICall (N.of_nat (List.length args)) depth body; IPop (N.of_nat (List.length args))] in
  run code s = OutOfMemory \/ run code s = Ok s.
Proof.
  intros args d body hb s HK HC HS.
  assert (forall args s code, size s < two31 -> run (map IPush args ++ code) s = OutOfMemory \/
    (run (map IPush args ++ code) s = run code (mkCS (cs_frames s ++ args) (cs_cur s)) /\
     size s + N.of_nat (List.length args) < two31)) as HP.
  { clear. induction args as [|c args IH]; intros s code HS; cbn [map List.app run].
    - right. rewrite app_nil_r. destruct s. split; auto. cbn [List.length]. lia.
    - cbn [run1]. unfold pushArg. destruct (size s + 1 <? two31) eqn:E; cbn [rbind]; auto.
      destruct (IH (mkCS (cs_frames s ++ [c]) (cs_cur s)) code) as [->|[-> HH]]; auto.
      { unfold size in *. cbn [cs_frames]. rewrite app_length. cbn [List.length]. lia. }
      right. cbn [cs_frames cs_cur]. rewrite <- app_assoc. split; auto.
      unfold size in *. cbn [cs_frames] in HH. rewrite app_length in HH. cbn [List.length] in *. lia. }
  cbn zeta. destruct (HP args s [ICall (N.of_nat (List.length args)) d body; IPop (N.of_nat (List.length args))] HS)
    as [->|[-> HS2]]; auto.
  set (s1 := mkCS (cs_frames s ++ args) (cs_cur s)).
  assert (size s1 = size s + N.of_nat (List.length args)) as E1
    by (unfold size; cbn [s1 cs_frames]; rewrite app_length; lia).
  cbn [run].
  destruct (call_frame s1 (N.of_nat (List.length args)) d body hb) as [-> | (m & -> & HM)]; try lia; auto.
  { cbn [s1 cs_cur]. lia. }
  { intros. eapply run_keeps; eauto. }
  right. cbn [rbind run1]. rewrite E1.
  replace (N.to_nat (size s + N.of_nat (List.length args) - N.of_nat (List.length args))) with (List.length (cs_frames s) + 0)%nat
    by (unfold size; lia).
  cbn [s1 cs_frames cs_cur]. rewrite firstn_app_2. cbn [firstn]. rewrite app_nil_r.
  match goal with |- context [popArgs ?n (mkCS (?l ++ ?k) ?c)] => destruct (popArgs_spec n l k c) as [->|] end; [|congruence].
  destruct s. reflexivity.
Qed.
Print Assumptions C19_call_sequence_restores_stack.

(* the code a function's body may run: two nested calls, stores to parameters and locals *)
Example C19_ex :
  let inner := [IStore (-1) (CVal (mkUV intType 7)); IPush (CVal (mkUV intType 9)); IStore 2 (CVal (mkUV intType 3)); IPop 1] in
  let outer := [IStore 1 (CVal (mkUV intType 5)); IPush (CVal (mkUV intType 6)); ICall 1 1 inner; IPop 1; IStore (-2) (CVal (mkUV intType 8))] in
  let s := mkCS (cs_frames initial ++ [CVal (mkUV intType 1); CVal (mkUV intType 2); CVal (mkUV intType 4)]) 0 in
  keeps 2 1 outer = Some 1 /\ cs_cur s < size s /\ size s < two31 /\
  run1 (ICall 2 1 outer) s =
    Ok (mkCS (cs_frames initial ++ [CVal (mkUV intType 1); CVal (mkUV intType 8); CVal (mkUV intType 4)]) 0).
Proof. vm_compute. repeat split; reflexivity. Qed.

(* C20: what is stored in a slot is loaded back; no slot other than it, of this frame, and no value of the stack at
   another place changes *)
Theorem C20_store_then_load : forall c slot s s',
  storeInSlot c slot s = Ok s' ->
  loadFromSlot slot s' = Ok c.
Proof.
  unfold storeInSlot, loadFromSlot. intros c slot s s' H. pose proof (store_load _ _ _ _ H) as E. 
  unfold storeAtIndex in H. destruct (_ <? _); [|discriminate]. injection H as <-. exact E.
Qed.
Print Assumptions C20_store_then_load.

Theorem C20_other_slots_unchanged : forall c slot other s s',
  (-2147483648 <= slot < 2147483648)%Z -> (-2147483648 <= other < 2147483648)%Z ->
  storeInSlot c slot s = Ok s' -> other <> slot ->
  loadFromSlot other s' = loadFromSlot other s.
Proof.
  unfold storeInSlot, loadFromSlot. intros c slot other s s' H1 H2 H HN.
  assert (stackIndexOfSlot s other <> stackIndexOfSlot s slot) as HI
    by (intros E; apply HN; exact (slot_inj s other slot H2 H1 E)).
  pose proof (store_other _ _ _ _ _ H HI) as E. rewrite <- E.
  unfold storeAtIndex in H. destruct (_ <? _); [|discriminate]. injection H as <-. reflexivity.
Qed.
Print Assumptions C20_other_slots_unchanged.

(* a slot of the frame is at its distance from the frame pointer; every place of the stack but that one keeps its value,
   and neither the frame pointer nor the height changes *)
Theorem C20_store_changes_one_place : forall c slot s,
  cs_cur s < two31 -> size s < two31 ->
  (- Z.of_N (cs_cur s) <= slot < Z.of_N (size s) - Z.of_N (cs_cur s))%Z ->
  exists s', storeInSlot c slot s = Ok s' /\ cs_cur s' = cs_cur s /\ size s' = size s /\
    forall i, loadFromIndex i s' =
      if (Z.of_N i =? Z.of_N (cs_cur s) + slot)%Z then Ok c else loadFromIndex i s.
Proof.
  intros c slot s HC HS HR. unfold two31 in *.
  assert (Z.of_N (stackIndexOfSlot s slot) = Z.of_N (cs_cur s) + slot)%Z as EI by (apply slot_index; unfold two31; lia).
  unfold storeInSlot. destruct (storeAtIndex c (stackIndexOfSlot s slot) s) as [s'| |] eqn:E.
  - exists s'. split; auto. pose proof (store_load _ _ _ _ E) as EL.
    assert (forall j, j <> stackIndexOfSlot s slot -> loadFromIndex j s' = loadFromIndex j s) as EO
      by (intros; eapply store_other; eauto).
    unfold storeAtIndex in E. destruct (_ <? _) eqn:EB; [|discriminate]. injection E as <-.
    split; [reflexivity|]. split.
    + unfold size in *. cbn [cs_frames]. rewrite replace_at by lia. reflexivity.
    + intros i. destruct (Z.eqb_spec (Z.of_N i) (Z.of_N (cs_cur s) + slot)).
      * replace i with (stackIndexOfSlot s slot) by lia. auto.
      * apply EO. lia.
  - unfold storeAtIndex in E. destruct (_ <? _) eqn:EB; [discriminate|]. lia.
  - unfold storeAtIndex in E. destruct (_ <? _) eqn:EB; discriminate.
Qed.
Print Assumptions C20_store_changes_one_place.

(* an assignment through a pointer to a slot changes no place but the slot the pointer names *)
Theorem C20_assign_changes_one_place : forall p v s s',
  assignThrough p v s = Ok s' ->
  cs_cur s' = cs_cur s /\
  forall i, i <> (if p_abs p then Z.to_N (u32z (p_slot p)) else stackIndexOfSlot s (p_slot p)) ->
    loadFromIndex i s' = loadFromIndex i s.
Proof.
  intros p v s s' H. unfold assignThrough in H.
  set (k := if p_abs p then _ else _) in *. clearbody k.
  destruct (loadFromIndex k s) as [[cur|]| |]; try discriminate. cbn [rbind] in H.
  destruct (_ && _); [discriminate|]. destruct (assignInSlot p v cur) as [x|]; [|discriminate]. cbn [ofopt rbind] in H.
  split.
  - unfold storeAtIndex in H. destruct (_ <? _); [|discriminate]. injection H as <-. reflexivity.
  - intros. eapply store_other; eauto.
Qed.
Print Assumptions C20_assign_changes_one_place.

(* the locals of a frame are the slots from 1 up to the top of the stack *)
Theorem C20_local_slots : forall slot s,
  cs_cur s < size s -> size s < two31 -> (-2147483648 <= slot < 2147483648)%Z ->
  isLocalSlot slot s = true <-> (1 <= slot < Z.of_N (size s) - Z.of_N (cs_cur s))%Z.
Proof.
  intros slot s HC HS HR. unfold isLocalSlot, isLocalStackIndex, stackIndexOfSlot, u32z, two31 in *.
  destruct (Z.ltb_spec (Z.of_N (cs_cur s) + slot) 0); lia.
Qed.
Print Assumptions C20_local_slots.

Example C20_ex :
  let s := mkCS (cs_frames initial ++ [CVal (mkUV intType 1); CVal (mkUV intType 2); CVal (mkUV intType 4)]) 2 in
  storeInSlot (CVal (mkUV intType 9)) (-1) s
    = Ok (mkCS (cs_frames initial ++ [CVal (mkUV intType 9); CVal (mkUV intType 2); CVal (mkUV intType 4)]) 2) /\
  loadFromSlot 1 s = Ok (CVal (mkUV intType 4)) /\
  isLocalSlot 1 s = true /\ isLocalSlot 2 s = false /\ isLocalSlot (-1) s = false /\
  assignThrough (mkPtr 1 STACK intType PACKEDLOADABLE 64 32 false) (mkUV intType 5) s
    <> Assert.
Proof. vm_compute. repeat split; try reflexivity. discriminate. Qed.
