(* StringPoolTheorems.v: properties C07, C08, C09, C49. *)
From Coq Require Import String List NArith ZArith Lia Bool.
From Coq Require Import ZifyBool ZifyNat ZifyN.
From Verif Require Import Base HexEscapeModel StringPoolModel StringPoolSpec StringPoolProofs.
Import ListNotations.
Open Scope N_scope.

(* C07: after any sequence of interning requests, equal indexes mean equal strings and conversely, no index is
   0, and each index returns its string. No assertion fails. *)
Theorem C07_interning : forall reqs, N.of_nat (List.length reqs) + 1 < 2 ^ 32 ->
  exists p idxs, intern_all pool_init reqs = Some (p, idxs) /\ List.length idxs = List.length reqs /\
    (forall a b s t i j, nth_error reqs a = Some s -> nth_error idxs a = Some i ->
       nth_error reqs b = Some t -> nth_error idxs b = Some j -> (i = j <-> s = t)) /\
    (forall a s i, nth_error reqs a = Some s -> nth_error idxs a = Some i ->
       i <> 0 /\ getDataAsString p i = Some s).
Proof. exact intern_history. Qed.
Print Assumptions C07_interning.

(* C07: later requests neither change what an index denotes nor the index of a string *)
Theorem C07_interning_stable : forall r1 r2, N.of_nat (List.length (r1 ++ r2)) + 1 < 2 ^ 32 ->
  exists p1 i1 p2 i2, intern_all pool_init r1 = Some (p1, i1) /\ intern_all p1 r2 = Some (p2, i2) /\
   (forall a i, nth_error i1 a = Some i -> getDataAsString p2 i = getDataAsString p1 i) /\
   (forall s a i, nth_error r1 a = Some s -> nth_error i1 a = Some i ->
      exists p3, getIndexForDataString p2 s = Some (p3, i)).
Proof. exact intern_stable. Qed.
Print Assumptions C07_interning_stable.

Example C07_ex : exists p, intern_all pool_init [txt "x"; txt "y"; txt "x"; []] = Some (p, [1; 2; 1; 3])
  /\ getDataAsString p 2 = Some (txt "y") /\ getDataAsString p 0 = None.
Proof. eexists. vm_compute. auto. Qed.

(* C08: the table text generated for any registration history, read back as C++ string literals. *)
Theorem C08_user_string_table : forall ind bs, blank ind = true ->
  Forall (fun b => (List.length b <= 255)%nat) bs -> Forall (fun b => is_text b = true) bs ->
  1 + total bs < 2 ^ 32 ->
  exists p idxs out img, register_all upool_init bs = (p, idxs) /\ List.length idxs = List.length bs /\
    emit_table ind p = Some out /\ read_initializer out = Some img /\
    declared_size p = N.of_nat (List.length img) + 1 /\
    (forall k b i, nth_error bs k = Some b -> nth_error idxs k = Some i ->
       i <> 0 /\ i < user_count p /\
       exists o, nth_error (u_offsets p) (N.to_nat i) = Some o /\
         firstn (List.length b + 2) (skipn (N.to_nat o) img) = N.of_nat (List.length b) :: b ++ [0] /\
         u_getStringLength p i = Some (N.of_nat (List.length b)) /\
         (forall n c, nth_error b n = Some c -> u_getByteOf p i (N.of_nat n) = Some c)) /\
    (forall j k a b ia ib, nth_error bs j = Some a -> nth_error idxs j = Some ia ->
       nth_error bs k = Some b -> nth_error idxs k = Some ib -> (ia = ib <-> a = b)) /\
    (forall j k a b ia ib oa ob, nth_error bs j = Some a -> nth_error idxs j = Some ia ->
       nth_error bs k = Some b -> nth_error idxs k = Some ib -> ia < ib ->
       nth_error (u_offsets p) (N.to_nat ia) = Some oa -> nth_error (u_offsets p) (N.to_nat ib) = Some ob ->
       oa + N.of_nat (List.length a) + 2 <= ob).
Proof. exact user_table. Qed.
Print Assumptions C08_user_string_table.

Example C08_ex :
  let bs := [txt "a""?1"; []; [1; 54]; txt "a""?1"] in
  let '(p, idxs) := register_all upool_init bs in
  idxs = [1; 2; 3; 1] /\ u_offsets p = [0; 1; 7; 9]
  /\ emit_table [32] p = Some (txt " ""\000""" ++ [10] ++ txt " ""\004a\""\0771\000""" ++ [10]
        ++ txt " ""\000\000""" ++ [10] ++ txt " ""\002\0016\000""" ++ [10])
  /\ Forall (fun b => (List.length b <= 255)%nat) bs /\ Forall (fun b => is_text b = true) bs
  /\ 1 + total bs < 2 ^ 32.
Proof.
  cbv zeta.
  match goal with |- context [register_all ?a ?b] => destruct (register_all a b) as [p idxs] eqn:E end.
  vm_compute in E. injection E as <- <-.
  split; [reflexivity|]. split; [reflexivity|]. split; [vm_compute; reflexivity|].
  split; [repeat constructor; cbn; lia|]. split; [repeat constructor|reflexivity].
Qed.

(* C09 is false: octal escapes are not padded, and a double quote is not escaped. *)
Theorem C09_quoted_rendering_refuted :
  exists a b, a <> b /\ is_text a = true /\ is_text b = true /\ format_user_quoted a = format_user_quoted b.
Proof. exists [1; 54], [14]. split; [discriminate|]. vm_compute. auto. Qed.
Print Assumptions C09_quoted_rendering_refuted.

(* C09: what does hold. Missing: strings with a non-printing byte other than 7..13. *)
Definition plain (c : N) : bool := isprint c || ((7 <=? c) && (c <=? 13)).

Lemma format_char_prefix c d r1 r2 : plain c = true -> plain d = true ->
  format_char c ++ r1 = format_char d ++ r2 -> c = d /\ r1 = r2.
Proof.
  intros Hc Hd.
  assert (G : forallb (fun c => forallb (fun d => implb (plain c && plain d)
      ((c =? d) || negb (match format_char c, format_char d with
         | [a], [b] => a =? b | [a; a'], [b; b'] => (a =? b) && (a' =? b')
         | [a], [b; _] => a =? b | [a; _], [b] => a =? b | _, _ => true end))) (nrange 128)) (nrange 128) = true)
    by (vm_compute; reflexivity).
  assert (Bc : c < 128) by (unfold plain, isprint in Hc; lia).
  assert (Bd : d < 128) by (unfold plain, isprint in Hd; lia).
  pose proof (forall_N_below 128 _ G c Bc) as G1. cbv beta in G1.
  pose proof (forall_N_below 128 _ G1 d Bd) as G2. cbv beta in G2. clear G G1.
  rewrite Hc, Hd in G2. cbn [implb andb] in G2. intros E.
  assert (L : forall c, plain c = true -> exists a, format_char c = [a] \/ exists a', format_char c = [a; a']).
  { intros x Hx. unfold format_char.
    repeat match goal with |- context [if ?b then _ else _] => destruct b eqn:? end;
      try (eexists; left; reflexivity); try (eexists; right; eexists; reflexivity).
    unfold plain, isprint in *. lia. }
  destruct (N.eqb_spec c d) as [->|Hne]; [split; auto; eapply app_inv_head; eauto|].
  cbn [orb] in G2. exfalso.
  destruct (L c Hc) as (a & [Ea|(a' & Ea)]), (L d Hd) as (b & [Eb|(b' & Eb)]); rewrite Ea, Eb in *; cbn in E.
  - injection E as -> _. rewrite N.eqb_refl in G2. discriminate.
  - injection E as -> _. rewrite N.eqb_refl in G2. discriminate.
  - injection E as -> _. rewrite N.eqb_refl in G2. discriminate.
  - injection E as -> -> _. rewrite !N.eqb_refl in G2. discriminate.
Qed.

Theorem C09_quoted_rendering_partial : forall a b,
  forallb plain a = true -> forallb plain b = true ->
  format_user_quoted a = format_user_quoted b -> a = b.
Proof.
  intros a b Ha Hb E. unfold format_user_quoted in E. cbn [app] in E. injection E as E.
  apply app_inv_tail in E.
  revert b Hb E. induction a as [|c a IH]; intros [|d b] Hb E; cbn [flat_map forallb] in *; auto.
  - exfalso. apply andb_true_iff in Hb as [Hd _]. symmetry in E. apply app_eq_nil in E as [E _].
    revert E. unfold format_char. repeat match goal with |- context [if ?b then _ else _] => destruct b end; discriminate.
  - exfalso. apply andb_true_iff in Ha as [Hd _]. apply app_eq_nil in E as [E _].
    revert E. unfold format_char. repeat match goal with |- context [if ?b then _ else _] => destruct b end; discriminate.
  - apply andb_true_iff in Ha as [Hc Ha]. apply andb_true_iff in Hb as [Hd Hb].
    apply format_char_prefix in E as [-> E]; auto. f_equal. auto.
Qed.
Print Assumptions C09_quoted_rendering_partial.

Example C09_ex : forallb plain (txt "tab	x" ++ [10; 34]) = true
  /\ format_user_quoted (txt "a\" ++ [10; 34]) = txt """a\\\n""""".
Proof. vm_compute. auto. Qed.

(* C49: an index the compiler calls valid need not denote a string: the check compares the index with the
   number of table bytes instead of the number of strings. *)
Theorem C49_valid_user_string_index_refuted :
  exists bs i, let p := fst (register_all upool_init bs) in
    isValidUserStringIndex p i = true /\ u_getDataAsString p i = None.
Proof. exists [txt "abc"], 5. vm_compute. auto. Qed.
Print Assumptions C49_valid_user_string_index_refuted.

(* C49, what holds: the index of every registered string is called valid (up to the 18 bits of an index) *)
Theorem C49_registered_index_valid_partial : forall bs,
  Forall (fun b => (List.length b <= 255)%nat) bs -> 1 + total bs < 2 ^ 18 ->
  forall p idxs, register_all upool_init bs = (p, idxs) ->
  forall i, In i idxs -> isValidUserStringIndex p i = true /\ u_getDataAsString p i <> None.
Proof.
  intros bs HB Ht p idxs E i Hi.
  destruct (register_all_ok bs []) as (l & idxs' & E' & Hnd & (t & -> & Htot & _) & HF); auto; try apply NoDup_nil.
  { unfold two32. change (2 ^ 18) with 262144 in Ht. cbn [total fold_right]. lia. }
  cbn [app] in *. change (upool_of []) with upool_init in E'. rewrite E in E'. injection E' as -> ->.
  apply In_nth_error in Hi as (k & Hk).
  destruct (nth_error bs k) as [b|] eqn:Hb.
  2:{ apply nth_error_None in Hb. apply Forall2_length in HF.
      assert (k < List.length idxs')%nat by (apply nth_error_Some; congruence). exfalso. unfold text in *. lia. }
  destruct (Forall2_nth _ _ _ _ _ _ HF Hb Hk) as (I1 & I2). cbv beta in *.
  assert (N.to_nat (i - 1) < List.length t)%nat by (apply nth_error_Some; congruence).
  pose proof (total_len t). change (2 ^ 18) with 262144 in *.
  unfold isValidUserStringIndex, upool_of. cbn [u_running]. rewrite N.mod_small by lia.
  replace (i =? 0) with false by lia. split; [lia|].
  unfold u_getDataAsString. cbn [u_data find_idx]. replace (i =? 0) with false by lia.
  rewrite find_enum, map_length. replace ((1 <=? i) && (i <? 1 + N.of_nat (List.length t))) with true by lia.
  rewrite nth_error_map, I2. discriminate.
Qed.
Print Assumptions C49_registered_index_valid_partial.

(* C49, the other way round: an accepted index is the index of a registered string, provided it is below the
   number of strings (the bound the check should have used); index 0 is never accepted. *)
Theorem C49_accepted_partial : forall bs,
  Forall (fun b => (List.length b <= 255)%nat) bs -> 1 + total bs < 2 ^ 32 ->
  forall p idxs, register_all upool_init bs = (p, idxs) ->
  forall i, isValidUserStringIndex p i = true -> i mod 2 ^ 18 < user_count p ->
    In (i mod 2 ^ 18) idxs /\ u_getDataAsString p (i mod 2 ^ 18) <> None.
Proof.
  intros bs HB Ht p idxs E i Hv Hc.
  destruct (register_all_ok bs []) as (l & idxs' & E' & Hnd & (t & -> & Htot & Hincl) & HF); auto; try apply NoDup_nil.
  cbn [app] in *. change (upool_of []) with upool_init in E'. rewrite E in E'. injection E' as -> ->.
  unfold isValidUserStringIndex in Hv. destruct (N.eqb_spec (i mod 2 ^ 18) 0) as [|H0]; [discriminate|].
  set (j := i mod 2 ^ 18) in *.
  unfold user_count, upool_of in Hc. cbn [u_offsets List.length] in Hc. rewrite offs_length in Hc.
  destruct (nth_error t (N.to_nat (j - 1))) as [b|] eqn:Eb.
  2:{ apply nth_error_None in Eb. exfalso. lia. }
  assert (Hb : In b bs) by (apply Hincl; eapply nth_error_In; exact Eb).
  apply In_nth_error in Hb as (k & Hk).
  destruct (nth_error idxs' k) as [x|] eqn:Ex.
  2:{ apply nth_error_None in Ex. apply Forall2_length in HF.
      assert (k < List.length bs)%nat by (apply nth_error_Some; intro Z; discriminate (eq_trans (eq_sym Hk) Z)). exfalso. unfold text in *. lia. }
  destruct (Forall2_nth _ _ _ _ _ _ HF Hk Ex) as (I1 & I2). cbv beta in *.
  assert (x = j) as ->.
  { assert (N.to_nat (x - 1) = N.to_nat (j - 1)); [|lia].
    apply (proj1 (NoDup_nth_error t) Hnd); [apply nth_error_Some; congruence|congruence]. }
  split; [eapply nth_error_In; exact Ex|].
  unfold u_getDataAsString, upool_of. cbn [u_data find_idx]. replace (j =? 0) with false by lia.
  rewrite find_enum, map_length. replace ((1 <=? j) && (j <? 1 + N.of_nat (List.length t))) with true by lia.
  rewrite nth_error_map, Eb. discriminate.
Qed.
Print Assumptions C49_accepted_partial.

Example C49_accepted_ex :
  let p := fst (register_all upool_init [txt "ab"; []; txt "ab"; txt "c"]) in
  isValidUserStringIndex p 3 = true /\ 3 mod 2 ^ 18 < user_count p /\ isValidUserStringIndex p 0 = false.
Proof. vm_compute. auto. Qed.
