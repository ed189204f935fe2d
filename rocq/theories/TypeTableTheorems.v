(* TypeTableTheorems.v: type keys (C29), the type table (C30), aliases (C31), comparing types (C45), sizes (C46). *)
From Coq Require Import List NArith ZArith Lia Bool.
From Coq Require Import ZifyBool ZifyNat ZifyN.
From Verif Require Import Base SourceStreamModel SourceStreamProofs UTypeModel TypeTableModel TypeTableProofs.
Import ListNotations.
Ltac Zify.zify_post_hook ::= Z.div_mod_to_equations.
Open Scope N_scope.

(* C29: the order of keys is a strict total order, and == is equality *)
Theorem C29_strict_total_order :
  (forall a, key_lt a a = false) /\
  (forall a b, key_lt a b = true -> key_lt b a = false) /\
  (forall a b c, key_lt a b = true -> key_lt b c = true -> key_lt a c = true) /\
  (forall a b, key_lt a b = true \/ a = b \/ key_lt b a = true) /\
  (forall a b, key_eqb a b = true <-> a = b).
Proof.
  split; [|split; [|split; [|split]]].
  - intros a. destruct (key_lt a a) eqn:E; auto. apply key_lt_spec in E. lia.
  - intros a b H. destruct (key_lt b a) eqn:E; auto. apply key_lt_spec in E. apply key_lt_spec in H. lia.
  - intros a b c H1 H2. apply key_lt_spec in H1, H2. apply key_lt_spec. lia.
  - apply key_trichotomy.
  - apply key_eqb_eq.
Qed.
Print Assumptions C29_strict_total_order.

(* so a map ordered by it finds exactly what was stored under an equal key *)
Theorem C29_map_lookup : forall (A : Type) (m : kmap A) k a k',
  kfind m k = None -> kfind (kinsert m k a) k' = if key_eqb k k' then Some a else kfind m k'.
Proof.
  intros A m k a k' H. unfold kinsert. rewrite H, kfind_app. cbn [kfind]. destruct (key_eqb k k') eqn:E.
  - apply key_eqb_eq in E. subst k'. rewrite H, equiv_refl. reflexivity.
  - assert (k <> k') as N by (intros ->; rewrite (proj2 (key_eqb_eq k' k') eq_refl) in E; discriminate).
    rewrite (equiv_neq k k' N). destruct (kfind m k'); auto.
Qed.
Print Assumptions C29_map_lookup.

Example C29_ex : key_lt (mkKey 5 32 (-1) 0 AltNot) (mkKey 5 32 0 0 AltNot) = true /\
  key_lt (mkKey 5 32 (-1) 7 AltRef) (mkKey 5 32 (-1) 7 AltNot) = false /\ kfind [(mkKey 5 32 0 0 AltNot, 1)] (mkKey 5 32 1 0 AltNot) = None.
Proof. vm_compute. auto. Qed.

(* ---- C30 ---- *)
Section Histories.
Variable template : N -> option bool.
Variable makeInfo : key -> etype -> ulamclass -> info.

(* what the compiler does to the table: register a type, make a holder, set the sizes of a type, complete a holder, replace
   one type by another, set an alias *)
Inductive op := OMake (k : key) (e : etype) (ct : ulamclass) | OHolder | OResize (u : N) (k : key) (e : etype) (ct : ulamclass)
  | OComplete (k : key) (e : etype) (u : N) (ct : ulamclass) | OReplace (old new : N) | OAlias (a b : N).
Definition step (T : table) (o : op) : option table :=
  match o with
  | OMake k e ct => option_map fst (makeUlamType template makeInfo T k e ct)
  | OHolder => option_map fst (makeUlamTypeHolder T)
  | OResize u k e ct => rekey makeInfo T u k e ct
  | OComplete k e u ct => fromHolder makeInfo T k e u ct
  | OReplace old new => replaceKey T old new
  | OAlias a b => updateAlias T a b
  end.
Fixpoint steps (T : table) (os : list op) : option table :=
  match os with [] => Some T | o :: r => match step T o with Some T' => steps T' r | None => None end end.

(* the index whose key an operation changes *)
Definition target (o : op) : option N :=
  match o with OResize u _ _ _ | OComplete _ _ u _ | OReplace u _ => Some u | _ => None end.
(* index 0 is no type, its key is never set; a type is not replaced by itself *)
Definition sane (o : op) : Prop := target o <> Some 0 /\ match o with OReplace old new => old <> new | _ => True end.
Definition is_make (o : op) : Prop := match o with OMake _ _ _ => True | _ => False end.

Definition empty : table := mkTab [] [] [] [].
Definition reachable (T : table) : Prop := exists os, Forall sane os /\ steps empty os = Some T.

(* a key that stands for one type: both sizes known; not a class, or an array of a class or a reference to one *)
Definition fixed_key (k : key) (e : etype) : Prop :=
  (k_bits k <> -2)%Z /\ (k_arr k <> -2)%Z /\ (e <> EClass /\ k_inst k = 0 \/ e = EClass /\ ((k_arr k <> -1)%Z \/ k_ref k <> AltNot)).

Lemma step_inv T o T' : Inv T -> sane o -> step T o = Some T' -> Inv T'.
Proof.
  intros I [H1 H2]. destruct o as [k e ct| |u k e ct|k e u ct|old new|a b]; cbn [step target] in *.
  - destruct (makeUlamType template makeInfo T k e ct) as [[T1 u]|] eqn:E; [|discriminate]. intros H. injection H as <-. eapply make_inv; eauto.
  - destruct (makeUlamTypeHolder T) as [[T1 u]|] eqn:E; [|discriminate]. intros H. injection H as <-. eapply holder_inv; eauto.
  - apply rekey_inv; auto. congruence.
  - apply fromHolder_inv; auto. congruence.
  - apply replace_inv; auto. congruence.
  - apply alias_inv; auto.
Qed.

Lemma steps_inv os : forall T T', Inv T -> Forall sane os -> steps T os = Some T' -> Inv T'.
Proof.
  induction os as [|o os IH]; intros T T' I HS; cbn [steps]; [intros H; injection H as <-; auto|].
  destruct (step T o) as [T1|] eqn:E; [|discriminate]. inversion HS; subst. apply IH; auto. eapply step_inv; eauto.
Qed.

Lemma reachable_inv T : reachable T -> Inv T.
Proof. intros (os & HS & E). eapply steps_inv; [apply inv_empty|exact HS|exact E]. Qed.

Lemma append_same k : k_inst k = 0 -> append k 0 = k.
Proof. intros H. destruct k as [n b a i r]. unfold append. cbn [k_name k_bits k_arr k_inst k_ref] in *. subst i. reflexivity. Qed.

Lemma class_key_kept k e k' : fixed_key k e -> (e <> EClass -> k' = append k 0) ->
  (e = EClass -> (k_arr k <> -1)%Z \/ k_ref k <> AltNot -> k' = k) -> k' = k.
Proof. intros (_ & _ & [[H1 H2]|[H1 H2]]) G1 G2; [rewrite G1 by auto; apply append_same; auto|auto]. Qed.

(* C30: the index a registration gives has the key asked for, at any time. (For a class array or reference whose class is
   given, the key is kept too; a plain class is the one given or a new one.) *)
Theorem C30_index_denotes_key : forall T k e ct T' u,
  reachable T -> fixed_key k e -> makeUlamType template makeInfo T k e ct = Some (T', u) ->
  nth_error (t_idx T') (N.to_nat u) = Some k.
Proof.
  intros T k e ct T' u HR HK E. pose proof (reachable_inv T HR) as I. destruct HK as (B1 & B2 & B3).
  assert (fixed_key k e) as HK by (unfold fixed_key; auto).
  destruct (make_cases template makeInfo T k e ct T' u I E) as [[-> [H|(-> & A1 & A2 & _)]]|(k' & inf & -> & -> & H1 & H2 & H3)].
  - apply lowest_denotes; auto.
  - exfalso. destruct B3 as [[B3 _]|[_ [B3|B3]]]; congruence.
  - rewrite (class_key_kept k e k' HK H1 H2). cbn [t_idx]. rewrite Nat2N.id, nth_error_app2, Nat.sub_diag by lia. reflexivity.
Qed.

(* so different keys never share an index *)
Theorem C30_keys_keep_apart : forall T k e ct T' u k2 e2 ct2 T2 u2,
  reachable T -> fixed_key k e -> fixed_key k2 e2 ->
  makeUlamType template makeInfo T k e ct = Some (T', u) -> makeUlamType template makeInfo T' k2 e2 ct2 = Some (T2, u2) ->
  u = u2 -> k = k2.
Proof.
  intros T k e ct T' u k2 e2 ct2 T2 u2 HR HK HK2 E E2 <-.
  assert (reachable T') as HR'.
  { destruct HR as (os & HS & EO). exists (os ++ [OMake k e ct]). split; [apply Forall_app; split; auto; repeat constructor; cbn; discriminate|].
    clear E2. revert EO. generalize empty. induction os as [|o os IH]; intros T0 EO; cbn [steps app] in *.
    - injection EO as ->. cbn [step]. rewrite E. reflexivity.
    - destruct (step T0 o) as [T1|]; [|discriminate]. inversion HS; subst. apply IH; auto. }
  pose proof (C30_index_denotes_key T k e ct T' u HR HK E) as D1.
  pose proof (C30_index_denotes_key T' k2 e2 ct2 T2 u HR' HK2 E2) as D2.
  destruct (make_cases template makeInfo T' k2 e2 ct2 T2 u (reachable_inv T' HR') E2) as [[-> _]|(k' & inf & EU & -> & _)]; [congruence|].
  exfalso. assert (N.to_nat u < List.length (t_idx T'))%nat by (apply nth_error_Some; congruence). lia.
Qed.

(* an index keeps its key as long as no operation sets it *)
Theorem C30_index_keeps_key : forall T o T' u k,
  reachable T -> sane o -> step T o = Some T' -> target o <> Some u -> nth_error (t_idx T) (N.to_nat u) = Some k ->
  nth_error (t_idx T') (N.to_nat u) = Some k.
Proof.
  intros T o T' u k HR _ E HT HK. pose proof (reachable_inv T HR) as I.
  assert (N.to_nat u < List.length (t_idx T))%nat as HL by (apply nth_error_Some; congruence).
  assert (forall T0 a b T1, updateAlias T0 a b = Some T1 -> t_idx T1 = t_idx T0) as HA.
  { intros T0 a b T1. unfold updateAlias. destruct ((a <? N.of_nat (List.length (t_root T0))) && (b <? N.of_nat (List.length (t_root T0)))); [|discriminate].
    intros H. injection H as <-. reflexivity. }
  assert (forall k0 x T1, deleteKey T k0 x = Some T1 -> x <> u -> nth_error (t_idx T1) (N.to_nat u) = Some k) as HD.
  { intros k0 x T1. unfold deleteKey. destruct (decrement (t_any T) k0 x) as [any c]. destruct (nth_error (t_idx T) 0); [|discriminate].
    intros H N. injection H as <-. cbn [t_idx]. rewrite nth_set_other by lia. auto. }
  destruct o as [k0 e ct| |x k0 e ct|k0 e x ct|old new|a b]; cbn [step target] in *.
  - destruct (makeUlamType template makeInfo T k0 e ct) as [[T1 v]|] eqn:EM; [|discriminate]. injection E as <-.
    destruct (make_cases template makeInfo T k0 e ct T1 v I EM) as [[-> _]|(k' & inf & _ & -> & _)]; auto.
    cbn [t_idx]. rewrite nth_error_app1; auto.
  - destruct (makeUlamTypeHolder T) as [[T1 v]|] eqn:EM; [|discriminate]. injection E as <-. unfold makeUlamTypeHolder in EM.
    destruct (getUlamType T 12) as [[hk hi]|]; [|discriminate]. destruct (u16 _ =? _); [|discriminate]. injection EM as <- _.
    cbn [t_idx]. rewrite nth_error_app1; auto.
  - assert (x <> u) as N by congruence. unfold rekey in E. destruct (nth_error (t_idx T) (N.to_nat x)) as [kx|]; [|discriminate].
    destruct (key_eqb kx k0); [injection E as <-; auto|]. destruct (deleteKey T kx x) as [T1|] eqn:ED; [|discriminate].
    apply HA in E. rewrite E. cbn [t_idx]. rewrite nth_set_other by lia. eapply HD; eauto.
  - assert (x <> u) as N by congruence. unfold fromHolder in E. destruct (nth_error (t_idx T) (N.to_nat x)) as [kx|]; [|discriminate].
    destruct (key_eqb kx k0); [injection E as <-; auto|]. destruct (deleteKey T kx x) as [T1|] eqn:ED; [|discriminate].
    match type of E with match ?m with _ => _ end = _ => destruct m as [[def a]|] end; [|discriminate].
    destruct (kfind def k0) as [i|]; [|discriminate]. destruct (complete k0 i).
    + apply HA in E. rewrite E. cbn [t_idx]. rewrite nth_set_other by lia. eapply HD; eauto.
    + injection E as <-. cbn [t_idx]. rewrite nth_set_other by lia. eapply HD; eauto.
  - assert (old <> u) as N by congruence. unfold replaceKey in E. destruct (getUlamType T new) as [[nk ni]|]; [|discriminate].
    destruct (nth_error (t_idx T) (N.to_nat old)) as [kx|]; [|discriminate]. destruct (deleteKey T kx old) as [T1|] eqn:ED; [|discriminate].
    apply HA in E. rewrite E. cbn [t_idx]. rewrite nth_set_other by lia. eapply HD; eauto.
  - apply HA in E. rewrite E. auto.
Qed.

(* asking again gives the same index and changes nothing, whatever is registered in between *)
Lemma make_keeps T k e ct T' u : Inv T -> makeUlamType template makeInfo T k e ct = Some (T', u) ->
  Inv T' /\ forall k2 u2, lowest (t_any T) k2 u2 -> lowest (t_any T') k2 u2.
Proof.
  intros I E. split; [eapply make_inv; eauto|]. intros k2 u2 HL.
  destruct (make_cases template makeInfo T k e ct T' u I E) as [[-> _]|(k' & inf & -> & -> & _)]; auto. cbn [t_any].
  destruct HL as [H1 H2]. split; [apply has_increment; auto|]. intros x Hx. apply has_increment in Hx. destruct Hx as [Hx|[_ ->]]; auto.
  pose proof (inv_below T k2 u2 I H1). lia.
Qed.

Theorem C30_same_index_again : forall T k e ct T1 u os T2 e2 ct2,
  reachable T -> fixed_key k e -> makeUlamType template makeInfo T k e ct = Some (T1, u) ->
  Forall is_make os -> steps T1 os = Some T2 -> makeUlamType template makeInfo T2 k e2 ct2 = Some (T2, u).
Proof.
  intros T k e ct T1 u os T2 e2 ct2 HR HK E HM ES. pose proof (reachable_inv T HR) as I.
  assert (lowest (t_any T1) k u) as HL.
  { destruct (make_cases template makeInfo T k e ct T1 u I E) as [[-> [H|(-> & A1 & A2 & _)]]|(k' & inf & -> & -> & H1 & H2 & H3)]; auto.
    - exfalso. destruct HK as (_ & _ & [[B3 _]|[_ [B3|B3]]]); congruence.
    - assert (k' = k) by (apply (class_key_kept k e); auto). subst k'. cbn [t_any]. destruct HK as (B1 & B2 & _).
      split; [apply has_increment; auto|]. intros x Hx. apply has_increment in Hx. destruct Hx as [Hx|[_ ->]]; [|lia].
      exfalso. assert (kfind (t_def T) k <> None) as G by (apply (inv_def T I); eauto). apply G. auto. }
  assert (Inv T1) as I1 by (eapply make_inv; eauto).
  assert (Inv T2 /\ lowest (t_any T2) k u) as [I2 HL2].
  { clear E HR I. revert T1 I1 HL ES. induction HM as [|o os HO HM IH]; intros T1 I1 HL ES; cbn [steps] in ES; [injection ES as <-; auto|].
    destruct o as [k0 e0 ct0| | | | |]; try contradiction. cbn [step] in ES.
    destruct (makeUlamType template makeInfo T1 k0 e0 ct0) as [[T3 u3]|] eqn:E3; [|discriminate]. cbn [option_map fst] in ES.
    destruct (make_keeps T1 k0 e0 ct0 T3 u3 I1 E3) as [I3 H3]. apply (IH T3); auto. }
  unfold makeUlamType. destruct HK as (B1 & B2 & _).
  destruct (negb (k_bits k =? UNKNOWNSIZE)%Z && negb (k_arr k =? UNKNOWNSIZE)%Z) eqn:EK; [|unfold UNKNOWNSIZE in EK; lia].
  unfold isDefined. destruct (kfind (t_def T2) k) as [i|] eqn:ED.
  - rewrite (lowest_any T2 k u HL2). reflexivity.
  - exfalso. assert (kfind (t_def T2) k <> None) as G by (apply (inv_def T2 I2); exists u; apply HL2). contradiction.
Qed.

(* a plain class that is registered already keeps its index; otherwise it gets a new one, which is in its key *)
Theorem C30_class_own_index : forall T k ct T' u,
  reachable T -> k_arr k = (-1)%Z -> k_ref k = AltNot -> makeUlamType template makeInfo T k EClass ct = Some (T', u) ->
  T' = T /\ (nth_error (t_idx T) (N.to_nat u) = Some k \/ u = k_inst k) \/
  u = N.of_nat (List.length (t_idx T)) /\ nth_error (t_idx T') (N.to_nat u) = Some (mkKey (k_name k) (k_bits k) (k_arr k) u (k_ref k)).
Proof.
  intros T k ct T' u HR HA HF E. pose proof (reachable_inv T HR) as I.
  destruct (make_cases template makeInfo T k EClass ct T' u I E) as [[-> [H|(_ & _ & _ & ->)]]|(k' & inf & EU & -> & _)]; auto.
  - left. split; auto. left. apply lowest_denotes; auto.
  - right. split; auto. subst u. cbn [t_idx]. rewrite Nat2N.id, nth_error_app2, Nat.sub_diag by lia. cbn [nth_error]. f_equal.
    unfold makeUlamType in E. match type of E with match ?x with _ => _ end = _ => destruct x as [i|] end.
    + destruct (anyDefinedUTI T k); [|discriminate]. injection E as E _. apply (f_equal (fun t => List.length (t_idx t))) in E. cbn [t_idx] in E. rewrite app_length in E. cbn [List.length] in E. lia.
    + cbn [etype_eqb] in E. rewrite HA, HF in E. change (negb (-1 =? NONARRAYSIZE)%Z) with false in E. cbn [alt_eqb negb t_idx t_def t_any t_root] in E. cbv iota in E.
      assert (forall u0, (if u0 =? N.of_nat (List.length (t_root T))
                then Some (mkTab (t_idx T ++ [append k u0]) (kinsert (t_def T) (append k u0) (makeInfo (append k u0) EClass ct)) (increment (t_any T) (append k u0) u0) (t_root T ++ [u0]), u0) else None) =
              Some (mkTab (t_idx T ++ [k']) (kinsert (t_def T) k' inf) (increment (t_any T) k' (N.of_nat (List.length (t_idx T)))) (t_root T ++ [N.of_nat (List.length (t_idx T))]), N.of_nat (List.length (t_idx T))) ->
              k' = mkKey (k_name k) (k_bits k) (k_arr k) (N.of_nat (List.length (t_idx T))) (k_ref k)) as HG.
      { intros u0. destruct (u0 =? N.of_nat (List.length (t_root T))); [|discriminate]. intros H. injection H as H1 _ _ _ ->. apply app_inv_head in H1. injection H1 as <-. reflexivity. }
      destruct (k_inst k =? 0); [exact (HG _ E)|]. destruct (template (k_inst k)) as [[]|]; [exact (HG _ E)| |discriminate].
      injection E as E _. apply (f_equal (fun t => List.length (t_idx t))) in E. cbn [t_idx] in E. rewrite app_length in E. cbn [List.length] in E. lia.
Qed.

Lemma alias_facts T a b T' : updateAlias T a b = Some T' -> t_idx T' = t_idx T /\ t_def T' = t_def T /\ t_root T' = set_nth (N.to_nat a) b (t_root T) /\ a < N.of_nat (List.length (t_root T)).
Proof.
  unfold updateAlias. destruct (N.ltb_spec a (N.of_nat (List.length (t_root T)))); [|discriminate]. destruct (b <? N.of_nat (List.length (t_root T))); [|discriminate].
  cbn [andb]. intros H0. injection H0 as <-. auto.
Qed.

(* setting the sizes of a type and completing a holder give the index the key asked for *)
Theorem C30_set_key_denotes : forall T k e u ct T', reachable T -> u <> 0 ->
  rekey makeInfo T u k e ct = Some T' \/ fromHolder makeInfo T k e u ct = Some T' ->
  nth_error (t_idx T') (N.to_nat u) = Some k.
Proof.
  intros T k e u ct T' HR Hu H. pose proof (reachable_inv T HR) as I. unfold rekey, fromHolder in H.
  destruct (nth_error (t_idx T) (N.to_nat u)) as [k0|] eqn:EK; [|destruct H; discriminate].
  assert (N.to_nat u < List.length (t_idx T))%nat as HU by (apply nth_error_Some; congruence).
  destruct (key_eqb k0 k) eqn:EQ.
  - apply key_eqb_eq in EQ. subst k0. destruct H as [H|H]; injection H as <-; auto.
  - destruct (deleteKey T k0 u) as [T1|] eqn:ED; [|destruct H; discriminate].
    destruct (delete_inv template makeInfo T k0 u T1 I Hu EK ED) as (_ & _ & _ & HL). destruct H as [H|H].
    + apply alias_facts in H. destruct H as (-> & _). cbn [t_idx]. apply nth_set_same. lia.
    + match type of H with match ?m with _ => _ end = _ => destruct m as [[def a]|] end; [|discriminate].
      destruct (kfind def k) as [i|]; [|discriminate]. destruct (complete k i).
      * apply alias_facts in H. destruct H as (-> & _). cbn [t_idx]. apply nth_set_same. lia.
      * injection H as <-. cbn [t_idx]. apply nth_set_same. lia.
Qed.

(* a holder completed to a complete type becomes an alias of an index with that key *)
Theorem C31_completed_holder : forall T k e u ct T' i, reachable T -> u <> 0 -> nth_error (t_idx T) (N.to_nat u) <> Some k ->
  fromHolder makeInfo T k e u ct = Some T' -> kfind (t_def T') k = Some i -> complete k i = true ->
  exists a, nth_error (t_root T') (N.to_nat u) = Some a /\ nth_error (t_idx T') (N.to_nat a) = Some k.
Proof.
  intros T k e u ct T' i HR Hu HN H HF HC. pose proof (reachable_inv T HR) as I. unfold fromHolder in H.
  destruct (nth_error (t_idx T) (N.to_nat u)) as [k0|] eqn:EK; [|discriminate].
  assert (N.to_nat u < List.length (t_idx T))%nat as HU by (apply nth_error_Some; congruence).
  destruct (key_eqb k0 k) eqn:EQ; [apply key_eqb_eq in EQ; congruence|].
  destruct (deleteKey T k0 u) as [T1|] eqn:ED; [|discriminate].
  destruct (delete_inv template makeInfo T k0 u T1 I Hu EK ED) as (I1 & _ & HR1 & HL). pose proof (inv_len T I) as HLR.
  match type of H with match ?m with _ => _ end = _ => destruct m as [[def a]|] eqn:EM end; [|discriminate].
  destruct (kfind def k) as [i'|] eqn:EF; [|discriminate].
  assert (i' = i) as ->.
  { destruct (complete k i').
    - apply alias_facts in H. destruct H as (_ & HD & _). rewrite HD in HF. cbn [t_def] in HF. congruence.
    - injection H as <-. cbn [t_def] in HF. congruence. }
  rewrite HC in H. apply alias_facts in H. destruct H as (HI & _ & HRT & _). cbn [t_idx t_root] in HI, HRT.
  exists a. rewrite HI, HRT. split; [apply nth_set_same; rewrite HR1; lia|].
  destruct (N.eq_dec a u) as [->|NA]; [apply nth_set_same; lia|]. rewrite nth_set_other by lia.
  destruct (isDefined T1 k); [|congruence]. destruct (anyDefinedUTI T1 k) as [b|] eqn:EA; [|discriminate]. injection EM as _ <-.
  apply lowest_denotes; auto. apply any_lowest; auto.
Qed.

(* a type replaced by another has the other's key and is its alias *)
Theorem C31_replaced_stands_for_new : forall T old new T', reachable T -> old <> 0 -> old <> new ->
  replaceKey T old new = Some T' ->
  nth_error (t_idx T') (N.to_nat old) = nth_error (t_idx T) (N.to_nat new) /\
  nth_error (t_root T') (N.to_nat old) = Some new /\
  (forall x, x <> old -> nth_error (t_root T') (N.to_nat x) = nth_error (t_root T) (N.to_nat x)).
Proof.
  intros T old new T' HR Ho HN H. pose proof (reachable_inv T HR) as I. unfold replaceKey in H.
  destruct (nth_error (t_idx T) (N.to_nat new)) as [kn|] eqn:EN; [|unfold getUlamType in H; rewrite EN in H; discriminate].
  destruct (type_found T new I kn EN) as (i & EG & _). rewrite EG in H.
  destruct (nth_error (t_idx T) (N.to_nat old)) as [ko|] eqn:EO; [|discriminate].
  assert (N.to_nat old < List.length (t_idx T))%nat as HU by (apply nth_error_Some; congruence). pose proof (inv_len T I) as HLR.
  destruct (deleteKey T ko old) as [T1|] eqn:ED; [|discriminate].
  destruct (delete_inv template makeInfo T ko old T1 I Ho EO ED) as (_ & _ & HR1 & HL). apply alias_facts in H. destruct H as (-> & _ & -> & _). cbn [t_idx t_root].
  rewrite HR1. split; [apply nth_set_same; lia|]. split; [apply nth_set_same; lia|]. intros x NX. apply nth_set_other. lia.
Qed.
End Histories.
Print Assumptions C30_class_own_index.
Print Assumptions C30_set_key_denotes.
Print Assumptions C31_completed_holder.
Print Assumptions C31_replaced_stands_for_new.
Print Assumptions C30_index_denotes_key.
Print Assumptions C30_keys_keep_apart.
Print Assumptions C30_index_keeps_key.
Print Assumptions C30_same_index_again.

(* the types the compiler starts with, Parser.cpp:7156-7275, under name ids 1.. *)
Definition mk0 (k : key) (e : etype) (ct : ulamclass) : info := mkInfo e ct false 0.
Definition builtin : list op :=
  [OMake (mkKey 1 0 (-1) 0 AltNot) ENouti UcNotaclass; OMake (mkKey 2 (-2) (-1) 0 AltNot) ENav UcNotaclass;
   OMake (mkKey 3 (-2) (-1) 0 AltNot) EHzy UcNotaclass; OMake (mkKey 4 0 (-1) 0 AltNot) EVoid UcNotaclass;
   OMake (mkKey 5 32 (-1) 0 AltNot) EInt UcNotaclass; OMake (mkKey 6 32 (-1) 0 AltNot) EUnsigned UcNotaclass;
   OMake (mkKey 7 1 (-1) 0 AltNot) EBool UcNotaclass; OMake (mkKey 8 32 (-1) 0 AltNot) EUnary UcNotaclass;
   OMake (mkKey 9 32 (-1) 0 AltNot) EBits UcNotaclass; OMake (mkKey 10 0 (-1) 0 AltNot) EClass UcUnseen;
   OMake (mkKey 11 96 (-1) 0 AltNot) EAtom UcNotaclass; OMake (mkKey 12 71 (-1) 0 AltNot) EPtr UcNotaclass;
   OMake (mkKey 13 (-2) (-1) 0 AltNot) EHolder UcNotaclass; OMake (mkKey 14 0 (-1) 0 AltNot) ELocals UcNotaclass;
   OMake (mkKey 15 18 (-1) 0 AltNot) EString UcNotaclass].
Example C30_ex : exists T,
  steps (fun _ => None) mk0 empty builtin = Some T /\ List.length (t_idx T) = 15%nat /\
  fixed_key (mkKey 5 7 4 0 AltNot) EInt /\
  exists T', makeUlamType (fun _ => None) mk0 T (mkKey 5 7 4 0 AltNot) EInt UcNotaclass = Some (T', 15).
Proof.
  eexists. split; [vm_compute; reflexivity|]. split; [reflexivity|]. split; [unfold fixed_key; cbn; split; [lia|split; [lia|left; split; [discriminate|reflexivity]]]|].
  eexists. vm_compute. reflexivity.
Qed.

Example C30_class_ex : exists T T',
  steps (fun _ => None) mk0 empty builtin = Some T /\ makeUlamType (fun _ => None) mk0 T (mkKey 20 (-2) (-1) 0 AltNot) EClass UcUnseen = Some (T', 15) /\
  nth_error (t_idx T') 15 = Some (mkKey 20 (-2) (-1) 15 AltNot).
Proof. eexists _, _. split; [vm_compute; reflexivity|]. split; [vm_compute; reflexivity|]. vm_compute. reflexivity. Qed.

Example C31_replaced_ex : exists T T' T2,
  steps (fun _ => None) mk0 empty (builtin ++ [OHolder]) = Some T /\
  step (fun _ => None) mk0 T (OReplace 15 5) = Some T' /\ nth_error (t_root T') 15 = Some 5 /\
  step (fun _ => None) mk0 T (OComplete (mkKey 5 32 (-1) 0 AltNot) EInt 15 UcNotaclass) = Some T2 /\ nth_error (t_root T2) 15 = Some 4.
Proof.
  eexists _, _, _. split; [vm_compute; reflexivity|]. split; [vm_compute; reflexivity|]. split; [vm_compute; reflexivity|]. split; vm_compute; reflexivity.
Qed.

(* refuted with holders in between: a holder made before the type and completed to it later takes its place *)
Theorem C30_same_index_refuted : exists T1 T2 T3 T4,
  let k := mkKey 5 7 (-1) 0 AltNot in
  steps (fun _ => None) mk0 empty (builtin ++ [OHolder]) = Some T1 /\
  makeUlamType (fun _ => None) mk0 T1 k EInt UcNotaclass = Some (T2, 16) /\
  step (fun _ => None) mk0 T2 (OComplete k EInt 15 UcNotaclass) = Some T3 /\
  makeUlamType (fun _ => None) mk0 T3 k EInt UcNotaclass = Some (T4, 15).
Proof. eexists _, _, _, _. cbv zeta. split; [vm_compute; reflexivity|]. split; [vm_compute; reflexivity|]. split; vm_compute; reflexivity. Qed.
Print Assumptions C30_same_index_refuted.

(* refuted for a type that is no class asked for with a class index in its key: a new index each time *)
Theorem C30_class_index_refuted : exists T1 T2 T3,
  let k := mkKey 5 7 (-1) 9 AltNot in
  steps (fun _ => None) mk0 empty builtin = Some T1 /\
  makeUlamType (fun _ => None) mk0 T1 k EInt UcNotaclass = Some (T2, 15) /\
  makeUlamType (fun _ => None) mk0 T2 k EInt UcNotaclass = Some (T3, 16).
Proof. eexists _, _, _. cbv zeta. split; [vm_compute; reflexivity|]. split; vm_compute; reflexivity. Qed.
Print Assumptions C30_class_index_refuted.

(* ---- C31 ---- *)
(* following aliases: [links root n x y], from x to y in n links; a root is its own alias *)
Inductive links (root : list N) : nat -> N -> N -> Prop :=
| links_0 x : links root 0 x x
| links_S n x y z : nth_error root (N.to_nat x) = Some y -> y <> x -> links root n y z -> links root (S n) x z.
Definition is_root (root : list N) (x : N) : Prop := nth_error root (N.to_nat x) = Some x.

Lemma chase_sound f : forall root x y, chase f root x = Some y -> exists n, (n < f)%nat /\ links root n x y /\ is_root root y.
Proof.
  induction f as [|f IH]; intros root x y; cbn [chase]; [discriminate|].
  destruct (nth_error root (N.to_nat x)) as [z|] eqn:E; [|discriminate]. destruct (N.eqb_spec z x) as [->|N].
  - intros H. injection H as <-. exists 0%nat. split; [lia|]. split; [constructor|auto].
  - intros H. destruct (IH root z y H) as (n & Hn & HL & HR). exists (S n). split; [lia|]. split; auto. econstructor; eauto.
Qed.
Lemma chase_complete root n x y : links root n x y -> is_root root y -> forall f, (n < f)%nat -> chase f root x = Some y.
Proof.
  induction 1 as [x|n x z y E N H IH]; intros HR f Hf; (destruct f as [|f]; [lia|]); cbn [chase].
  - unfold is_root in HR. rewrite HR, N.eqb_refl. reflexivity.
  - rewrite E. destruct (N.eqb_spec z x); [contradiction|]. apply IH; auto. lia.
Qed.

(* C31: what resolving gives is the root at the end of the chain, and resolving that again changes nothing *)
Theorem C31_resolves_to_root : forall root x y, findRoot root x = Some y ->
  (exists n, links root n x y) /\ is_root root y /\ findRoot root y = Some y /\
  forall n z, links root n x z -> is_root root z -> z = y.
Proof.
  intros root x y H. destruct (chase_sound 7 root x y H) as (n & Hn & HL & HR). split; [eauto|]. split; auto. split.
  - apply (chase_complete root 0 y y); [constructor|auto|lia].
  - clear Hn H. intros m z HM HZ. revert m z HM HZ. induction HL as [x|n x w y E N HL IH]; intros m z HM HZ.
    + inversion HM; subst; auto. unfold is_root in HR. congruence.
    + inversion HM; subst; [unfold is_root in HZ; congruence|]. assert (y0 = w) by congruence. subst. eapply IH; eauto.
Qed.
Print Assumptions C31_resolves_to_root.

(* a chain of at most six links is resolved *)
Theorem C31_short_chains_resolve : forall root n x y, links root n x y -> is_root root y -> (n <= 6)%nat -> findRoot root x = Some y.
Proof. intros root n x y H HR Hn. apply (chase_complete root n x y H HR 7). lia. Qed.
Print Assumptions C31_short_chains_resolve.

(* the updates keep the table of aliases total *)
Theorem C31_updates_keep_range : forall T a b T', updateAlias T a b = Some T' ->
  Forall (fun x => x < N.of_nat (List.length (t_root T))) (t_root T) ->
  Forall (fun x => x < N.of_nat (List.length (t_root T'))) (t_root T') /\ nth_error (t_root T') (N.to_nat a) = Some b.
Proof.
  intros T a b T'. unfold updateAlias. destruct (N.ltb_spec a (N.of_nat (List.length (t_root T)))) as [HA|]; [|discriminate].
  destruct (N.ltb_spec b (N.of_nat (List.length (t_root T)))) as [HB|]; [|discriminate]. intros H HF. injection H as <-. cbn [t_root].
  rewrite set_nth_length. split; [|apply nth_set_same; lia].
  apply Forall_forall. intros x HI. apply In_nth_error in HI. destruct HI as (i & HI).
  destruct (Nat.eq_dec (N.to_nat a) i) as [<-|N].
  - rewrite nth_set_same in HI by lia. congruence.
  - rewrite nth_set_other in HI by auto. rewrite Forall_forall in HF. apply HF. eapply nth_error_In; eauto.
Qed.
Print Assumptions C31_updates_keep_range.

(* refuted: after seven updates in a row the chain is too long, and the compiler stops; so it does for two types made
   aliases of each other *)
Definition aliases (n : nat) (us : list (N * N)) : option table :=
  fold_left (fun o p => match o with Some T => updateAlias T (fst p) (snd p) | None => None end) us
    (Some (mkTab [] [] [] (map N.of_nat (seq 0 n)))).
Theorem C31_long_chain_refuted : exists T,
  aliases 8 [(0, 1); (1, 2); (2, 3); (3, 4); (4, 5); (5, 6); (6, 7)] = Some T /\
  links (t_root T) 7 0 7 /\ is_root (t_root T) 7 /\ findRoot (t_root T) 0 = None.
Proof.
  eexists. split; [vm_compute; reflexivity|]. cbn [t_root]. split; [|split; vm_compute; reflexivity].
  do 7 (eapply links_S; [vm_compute; reflexivity|discriminate|]). constructor.
Qed.
Print Assumptions C31_long_chain_refuted.

Theorem C31_cycle_refuted : exists T, aliases 2 [(0, 1); (1, 0)] = Some T /\ findRoot (t_root T) 0 = None.
Proof. eexists. split; vm_compute; reflexivity. Qed.
Print Assumptions C31_cycle_refuted.

Example C31_ex : exists T, aliases 4 [(0, 2); (2, 3)] = Some T /\ findRoot (t_root T) 0 = Some 3 /\ links (t_root T) 2 0 3.
Proof. eexists. split; [vm_compute; reflexivity|]. split; [reflexivity|]. do 2 (eapply links_S; [vm_compute; reflexivity|discriminate|]). constructor. Qed.

(* ---- C45 ---- *)
(* what a complete type is: the base type's name, bit size, array size, reference type, and for a class which instance,
   up to instances that have the same key *)
Definition complete_type (T : table) (u : N) : Prop :=
  2 < u /\ exists k i, getUlamType T u = Some (k, i) /\ complete k i = true /\ exists ck ci, getUlamType T (k_inst k) = Some (ck, ci).
Definition class_key (T : table) (k : key) : option key := option_map fst (getUlamType T (k_inst k)).
Definition same_type (T : table) (u v : N) : Prop :=
  exists k i k' i', getUlamType T u = Some (k, i) /\ getUlamType T v = Some (k', i') /\
    k_name k = k_name k' /\ k_bits k = k_bits k' /\ k_arr k = k_arr k' /\ k_ref k = k_ref k' /\ class_key T k = class_key T k'.

Lemma alt_eqb_eq a b : alt_eqb a b = true <-> a = b.
Proof. destruct a, b; cbn; split; congruence. Qed.

(* C45: on complete types the comparison says exactly whether they are the same type, and never "don't know" *)
Theorem C45_compare_decides : forall T u v, complete_type T u -> complete_type T v ->
  (compare T u v = Some Same /\ same_type T u v) \/ (compare T u v = Some NotSame /\ ~ same_type T u v).
Proof.
  intros T u v (Hu & k & i & EU & CU & ck & ci & EC) (Hv & k' & i' & EV & CV & ck' & ci' & EC').
  unfold compare. replace (u =? 0) with false by lia. replace (v =? 0) with false by lia. cbn [orb].
  destruct (N.eqb_spec u v) as [<-|N].
  - left. split; auto. exists k, i, k, i. auto 10.
  - replace (u =? 1) with false by lia. replace (v =? 1) with false by lia. replace (u =? 2) with false by lia. replace (v =? 2) with false by lia.
    cbn [orb]. rewrite EU, EV, CU, CV. cbn [negb andb].
    assert (forall (P : Prop), (forall a x b y, getUlamType T u = Some (a, x) -> getUlamType T v = Some (b, y) -> a = k /\ b = k') ) as HU.
    { intros _ a x b y E1 E2. split; congruence. }
    assert (same_type T u v -> k_name k = k_name k' /\ k_bits k = k_bits k' /\ k_arr k = k_arr k' /\ k_ref k = k_ref k' /\ class_key T k = class_key T k') as HS.
    { intros (a & x & b & y & E1 & E2 & HS). destruct (HU True a x b y E1 E2) as [-> ->]. auto. }
    destruct (N.eqb_spec (k_name k) (k_name k')) as [E1|E1]; cbn [negb]; [|right; split; auto; tauto].
    destruct (Z.eqb_spec (k_arr k) (k_arr k')) as [E2|E2]; cbn [negb]; [|right; split; auto; tauto].
    destruct (Z.eqb_spec (k_bits k) (k_bits k')) as [E3|E3]; cbn [negb]; [|right; split; auto; tauto].
    assert (class_key T k = Some ck /\ class_key T k' = Some ck') as [C1 C2].
    { unfold class_key. rewrite EC, EC'. auto. }
    assert (class_key T k = class_key T k' ->
      ((if negb (alt_eqb (k_ref k) (k_ref k')) then Some NotSame else Some Same) = Some Same /\ same_type T u v) \/
      ((if negb (alt_eqb (k_ref k) (k_ref k')) then Some NotSame else Some Same) = Some NotSame /\ ~ same_type T u v)) as HR.
    { intros ECK. destruct (alt_eqb (k_ref k) (k_ref k')) eqn:ER; cbn [negb].
      - left. split; auto. apply alt_eqb_eq in ER. exists k, i, k', i'. auto 10.
      - right. split; auto. intros H. apply HS in H. destruct H as (_ & _ & _ & H & _). rewrite H in ER. destruct (k_ref k'); discriminate. }
    destruct (N.eqb_spec (k_inst k) (k_inst k')) as [E4|E4]; cbn [negb].
    + apply HR. unfold class_key. rewrite E4. reflexivity.
    + rewrite EC, EC'. destruct (key_eqb ck ck') eqn:EK; cbn [negb].
      * apply HR. apply key_eqb_eq in EK. congruence.
      * right. split; auto. intros H. apply HS in H. destruct H as (_ & _ & _ & _ & H). rewrite C1, C2 in H. injection H as H.
        rewrite (proj2 (key_eqb_eq ck ck') H) in EK. discriminate.
Qed.
Print Assumptions C45_compare_decides.

(* the types the language has no values of are never complete *)
Theorem C45_internal_never_complete : forall k i, In (i_enum i) [ENouti; ENav; EHzy; EPtr; EHolder; ELocals] -> complete k i = false.
Proof. intros k i. cbn [In]. intros H. unfold complete. repeat destruct H as [<-|H]; auto. contradiction. Qed.
Print Assumptions C45_internal_never_complete.

(* so it is an equivalence on complete types *)
Theorem C45_equivalence : forall T,
  (forall u, complete_type T u -> compare T u u = Some Same) /\
  (forall u v, complete_type T u -> complete_type T v -> compare T u v = compare T v u) /\
  (forall u v w, complete_type T u -> complete_type T v -> complete_type T w ->
     compare T u v = Some Same -> compare T v w = Some Same -> compare T u w = Some Same).
Proof.
  intros T.
  assert (forall u v, same_type T u v -> same_type T v u) as HSym.
  { intros u v (k & i & k' & i' & A1 & A2 & A3 & A4 & A5 & A6 & A7). exists k', i', k, i. auto 10. }
  split; [|split].
  - intros u H. destruct (C45_compare_decides T u u H H) as [[H1 _]|[_ H2]]; auto. exfalso. apply H2.
    destruct H as (_ & k & i & E & _). exists k, i, k, i. auto 10.
  - intros u v Hu Hv. destruct (C45_compare_decides T u v Hu Hv) as [[-> H]|[-> H]]; destruct (C45_compare_decides T v u Hv Hu) as [[-> H']|[-> H']]; auto; exfalso; auto.
  - intros u v w Hu Hv Hw E1 E2. destruct (C45_compare_decides T u v Hu Hv) as [[_ H1]|[H1 _]]; [|congruence].
    destruct (C45_compare_decides T v w Hv Hw) as [[_ H2]|[H2 _]]; [|congruence].
    destruct (C45_compare_decides T u w Hu Hw) as [[H3 _]|[_ H3]]; auto. exfalso. apply H3.
    destruct H1 as (k & i & k' & i' & A1 & A2 & A3 & A4 & A5 & A6 & A7). destruct H2 as (k2 & i2 & k3 & i3 & B1 & B2 & B3 & B4 & B5 & B6 & B7).
    assert (k2 = k') by congruence. subst k2. exists k, i, k3, i3. repeat (split; [congruence|]). congruence.
Qed.
Print Assumptions C45_equivalence.

(* "don't know" is said only when a type is incomplete *)
Theorem C45_dont_know : forall T u v, complete_type T u -> complete_type T v -> compare T u v <> Some DontKnow.
Proof. intros T u v Hu Hv. destruct (C45_compare_decides T u v Hu Hv) as [[-> _]|[-> _]]; discriminate. Qed.
Print Assumptions C45_dont_know.

(* the answer never depends on the order of the two types, complete or not *)
Theorem C45_symmetric : forall T u v, compare T u v = compare T v u /\ compareWild T u v = compareWild T v u.
Proof.
  intros T u v.
  assert (forall a b, key_eqb a b = key_eqb b a) as HK.
  { intros a b. unfold key_eqb. rewrite (N.eqb_sym (k_name a)), (Z.eqb_sym (k_bits a)), (Z.eqb_sym (k_arr a)), (N.eqb_sym (k_inst a)), (N.eqb_sym (alt_num (k_ref a))). reflexivity. }
  assert (forall a b, alt_eqb a b = alt_eqb b a) as HA by (intros [] []; reflexivity).
  unfold compare, compareWild. rewrite (orb_comm (u =? 0)), (N.eqb_sym u v), (orb_comm (u =? 1)), (orb_comm (u =? 2)).
  destruct ((v =? 0) || (u =? 0)); [auto|]. destruct (v =? u); [auto|]. destruct ((v =? 1) || (u =? 1)); [auto|]. destruct ((v =? 2) || (u =? 2)); [auto|].
  destruct (getUlamType T u) as [[k1 i1]|]; destruct (getUlamType T v) as [[k2 i2]|]; auto.
  rewrite (N.eqb_sym (k_inst k1)), (N.eqb_sym (k_name k1)), (Z.eqb_sym (k_bits k1)), (Z.eqb_sym (k_arr k1) (k_arr k2)), (HA (k_ref k1)).
  destruct (getUlamType T (k_inst k1)) as [[c1 j1]|]; destruct (getUlamType T (k_inst k2)) as [[c2 j2]|]; try rewrite (HK c1 c2);
    destruct (negb (complete k1 i1) && (notaclass i1 || (k_arr k1 =? UNKNOWNSIZE)%Z || negb (k_inst k2 =? k_inst k1)));
    destruct (negb (complete k2 i2) && (notaclass i2 || (k_arr k2 =? UNKNOWNSIZE)%Z || negb (k_inst k2 =? k_inst k1))); auto.
Qed.
Print Assumptions C45_symmetric.

(* the comparison that leaves references out says on complete types exactly whether they are the same but for that *)
Definition same_but_ref (T : table) (u v : N) : Prop :=
  exists k i k' i', getUlamType T u = Some (k, i) /\ getUlamType T v = Some (k', i') /\
    k_name k = k_name k' /\ k_bits k = k_bits k' /\ k_arr k = k_arr k' /\ class_key T k = class_key T k'.
Theorem C45_wild_decides : forall T u v, complete_type T u -> complete_type T v ->
  (compareWild T u v = Some Same /\ same_but_ref T u v) \/ (compareWild T u v = Some NotSame /\ ~ same_but_ref T u v).
Proof.
  intros T u v (Hu & k & i & EU & CU & ck & ci & EC) (Hv & k' & i' & EV & CV & ck' & ci' & EC').
  unfold compareWild. replace (u =? 0) with false by lia. replace (v =? 0) with false by lia. cbn [orb].
  destruct (N.eqb_spec u v) as [<-|N].
  - left. split; auto. exists k, i, k, i. auto 10.
  - replace (u =? 1) with false by lia. replace (v =? 1) with false by lia. replace (u =? 2) with false by lia. replace (v =? 2) with false by lia.
    cbn [orb]. rewrite EU, EV, CU, CV. cbn [negb andb].
    assert (same_but_ref T u v -> k_name k = k_name k' /\ k_bits k = k_bits k' /\ k_arr k = k_arr k' /\ class_key T k = class_key T k') as HS.
    { intros (a & x & b & y & E1 & E2 & HS). assert (a = k) by congruence. assert (b = k') by congruence. subst. auto. }
    destruct (N.eqb_spec (k_name k) (k_name k')) as [E1|E1]; cbn [negb]; [|right; split; auto; tauto].
    destruct (Z.eqb_spec (k_arr k) (k_arr k')) as [E2|E2]; cbn [negb]; [|right; split; auto; tauto].
    destruct (Z.eqb_spec (k_bits k) (k_bits k')) as [E3|E3]; cbn [negb]; [|right; split; auto; tauto].
    assert (class_key T k = Some ck /\ class_key T k' = Some ck') as [C1 C2].
    { unfold class_key. rewrite EC, EC'. auto. }
    assert (class_key T k = class_key T k' -> same_but_ref T u v) as HR by (intros ECK; exists k, i, k', i'; auto 10).
    destruct (N.eqb_spec (k_inst k) (k_inst k')) as [E4|E4]; cbn [negb].
    + left. split; auto. apply HR. unfold class_key. rewrite E4. reflexivity.
    + rewrite EC, EC'. destruct (key_eqb ck ck') eqn:EK; cbn [negb].
      * left. split; auto. apply HR. apply key_eqb_eq in EK. congruence.
      * right. split; auto. intros H. apply HS in H. destruct H as (_ & _ & _ & H). rewrite C1, C2 in H. injection H as H.
        rewrite (proj2 (key_eqb_eq ck ck') H) in EK. discriminate.
Qed.
Print Assumptions C45_wild_decides.

Example C45_ex : exists T, steps (fun _ => None) mk0 empty (builtin ++ [OMake (mkKey 5 7 4 0 AltNot) EInt UcNotaclass; OMake (mkKey 5 7 4 0 AltRef) EInt UcNotaclass]) = Some T /\
  complete_type T 15 /\ complete_type T 16 /\ compare T 15 16 = Some NotSame /\ compareWild T 15 16 = Some Same /\ compare T 4 15 = Some NotSame.
Proof.
  eexists. split; [vm_compute; reflexivity|]. split; [|split; [|split; [|split; vm_compute; reflexivity]]].
  - split; [lia|]. eexists _, _. split; [vm_compute; reflexivity|]. split; [reflexivity|]. eexists _, _. vm_compute. reflexivity.
  - split; [lia|]. eexists _, _. split; [vm_compute; reflexivity|]. split; [reflexivity|]. eexists _, _. vm_compute. reflexivity.
  - vm_compute. reflexivity.
Qed.

(* ---- C46 ---- *)
(* the sizes are s32 *)
Definition is_s32 (z : Z) : Prop := (-2147483648 <= z <= 2147483647)%Z.
(* how many items there are: one if it is no array *)
Definition items (arraysize : Z) : Z := if (arraysize <? 0)%Z then 1%Z else arraysize.

(* C46, what is missing is the array whose size in bits does not fit in 32 bits: see C46_limit_refuted. *)
Theorem C46_limit_partial : forall e oldbits b n, is_s32 b -> is_s32 n -> (0 < b)%Z -> e = EClass \/ oldbits <> 0%Z ->
  (items n * b < 4294967296)%Z -> sizesAccepted e oldbits b n = true -> (items n * b <= 8192)%Z.
Proof.
  intros e o b n Hb Hn B He HP. unfold sizesAccepted, is_s32, items in *.
  replace (b <? 0)%Z with false by lia. replace (b <=? 0)%Z with false by lia.
  assert (negb (etype_eqb e EClass) && ((o =? 0)%Z || false) = false) as ->.
  { destruct He as [->|He]; [reflexivity|]. replace (o =? 0)%Z with false by lia. rewrite andb_comm. reflexivity. }
  destruct (etype_eqb e EVoid); [discriminate|].
  set (m := if (n <? 0)%Z then 1%Z else n) in *. assert (0 <= m < 2147483648)%Z by (unfold m; destruct (Z.ltb_spec n 0); lia).
  unfold u32z, MAXBITSPERTRANSIENT. rewrite (Z.mod_small m), (Z.mod_small b) by lia. rewrite Z.mod_small by nia.
  destruct (Z.gtb_spec (m * b) 8192)%Z; [discriminate|auto].
Qed.
Print Assumptions C46_limit_partial.

(* what is accepted exactly: the size in bits within the limit modulo 2^32 *)
Theorem C46_accepted_modulo : forall e oldbits b n, is_s32 b -> is_s32 n -> (0 < b)%Z -> e = EClass \/ oldbits <> 0%Z -> e <> EVoid ->
  (sizesAccepted e oldbits b n = true <-> ((items n * b) mod 4294967296 <= 8192)%Z).
Proof.
  intros e o b n Hb Hn B He NV. unfold sizesAccepted, is_s32, items in *.
  replace (b <? 0)%Z with false by lia. replace (b <=? 0)%Z with false by lia.
  assert (negb (etype_eqb e EClass) && ((o =? 0)%Z || false) = false) as ->.
  { destruct He as [->|He]; [reflexivity|]. replace (o =? 0)%Z with false by lia. rewrite andb_comm. reflexivity. }
  replace (etype_eqb e EVoid) with false by (destruct e; auto; contradiction).
  set (m := if (n <? 0)%Z then 1%Z else n) in *. assert (0 <= m < 2147483648)%Z by (unfold m; destruct (Z.ltb_spec n 0); lia).
  unfold u32z, MAXBITSPERTRANSIENT. rewrite (Z.mod_small m), (Z.mod_small b) by lia.
  change 4294967296%Z with (4294967296)%Z. destruct (Z.gtb_spec ((m * b) mod 4294967296) 8192)%Z; split; intros; try discriminate; auto; lia.
Qed.
Print Assumptions C46_accepted_modulo.

(* refuted: Int(32) x[134217728] has 2^32 bits and is accepted; so is any array of a type whose bit size is recorded as 0 *)
Theorem C46_limit_refuted :
  (exists e o b n, is_s32 b /\ is_s32 n /\ (0 < b)%Z /\ o <> 0%Z /\ sizesAccepted e o b n = true /\ (items n * b > 8192)%Z) /\
  (exists e b n, is_s32 b /\ is_s32 n /\ (0 < b)%Z /\ sizesAccepted e 0 b n = true /\ (items n * b > 8192)%Z).
Proof.
  split.
  - exists EInt, 32%Z, 32%Z, 134217728%Z. unfold is_s32. split; [lia|]. split; [lia|]. split; [lia|]. split; [lia|]. split; [vm_compute; reflexivity|vm_compute; reflexivity].
  - exists EInt, 32%Z, 1000%Z. unfold is_s32. split; [lia|]. split; [lia|]. split; [lia|]. split; [vm_compute; reflexivity|vm_compute; reflexivity].
Qed.
Print Assumptions C46_limit_refuted.

(* a class itself: accepted exactly within the limit of its kind, as long as the product is an s32 *)
Definition class_limit (ct : ulamclass) : option Z :=
  match ct with UcElement => Some 71 | UcQuark => Some 64 | UcTransient => Some 8192 | _ => None end%Z.
Theorem C46_class_limit : forall ct b n ok l, class_limit ct = Some l -> classSizesAccepted ct b n = Some ok ->
  (ok = true <-> (b * items n <= l)%Z).
Proof.
  intros ct b n ok l HL. unfold classSizesAccepted, items.
  replace (if (0 <=? n)%Z then n else 1%Z) with (if (n <? 0)%Z then 1%Z else n) by (destruct (Z.ltb_spec n 0), (Z.leb_spec 0 n); lia).
  set (t := (b * (if n <? 0 then 1 else n))%Z). destruct ((t <? -2147483648)%Z || (t >? 2147483647)%Z); [discriminate|].
  destruct ct; cbn [class_limit] in HL; try discriminate; injection HL as <-; intros H; injection H as <-;
    unfold MAXSTATEBITS, MAXBITSPERQUARK, MAXBITSPERTRANSIENT; rewrite Z.leb_le; reflexivity.
Qed.
Print Assumptions C46_class_limit.

Example C46_ex : sizesAccepted EInt 32 7 1170 = true /\ sizesAccepted EInt 32 7 1171 = false /\
  classSizesAccepted UcQuark 64 (-1) = Some true /\ classSizesAccepted UcQuark 65 (-1) = Some false /\ is_s32 7 /\ is_s32 1170 /\ (items 1170 * 7 < 4294967296)%Z.
Proof. unfold is_s32, items. repeat split; try lia. Qed.
