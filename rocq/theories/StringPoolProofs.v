From Coq Require Import String List NArith ZArith Lia Bool.
From Coq Require Import ZifyBool ZifyNat ZifyN.
From Verif Require Import Base HexEscapeModel StringPoolModel StringPoolSpec.
Import ListNotations.
Ltac Zify.zify_post_hook ::= Z.div_mod_to_equations.
Open Scope N_scope.

(* ---- general facts on association lists ---- *)
Lemma find_str_app {B} k (m1 m2 : list (text * B)) :
  find_str k (m1 ++ m2) = match find_str k m1 with Some v => Some v | None => find_str k m2 end.
Proof. induction m1 as [|[k' v] m1 IH]; cbn; auto. destruct (text_eqb k k'); auto. Qed.

Lemma find_idx_app {B} k (m1 m2 : list (N * B)) :
  find_idx k (m1 ++ m2) = match find_idx k m1 with Some v => Some v | None => find_idx k m2 end.
Proof. induction m1 as [|[k' v] m1 IH]; cbn; auto. destruct (k =? k'); auto. Qed.

(* number the strings of a list from [base] *)
Fixpoint enum (base : N) (l : list text) : list (N * text) :=
  match l with [] => [] | s :: r => (base, s) :: enum (base + 1) r end.
Fixpoint enum' (base : N) (l : list text) : list (text * N) :=
  match l with [] => [] | s :: r => (s, base) :: enum' (base + 1) r end.

Lemma enum_length b l : List.length (enum b l) = List.length l.
Proof. revert b; induction l; intros; cbn; auto. Qed.
Lemma enum'_length b l : List.length (enum' b l) = List.length l.
Proof. revert b; induction l; intros; cbn; auto. Qed.

Lemma enum_app b l1 l2 : enum b (l1 ++ l2) = enum b l1 ++ enum (b + N.of_nat (List.length l1)) l2.
Proof.
  revert b; induction l1 as [|a l1 IH]; intros b; cbn [enum app List.length].
  - f_equal. lia.
  - rewrite IH. replace (b + 1 + N.of_nat (List.length l1)) with (b + N.of_nat (S (List.length l1))) by lia. reflexivity.
Qed.
Lemma enum'_app b l1 l2 : enum' b (l1 ++ l2) = enum' b l1 ++ enum' (b + N.of_nat (List.length l1)) l2.
Proof.
  revert b; induction l1 as [|a l1 IH]; intros b; cbn [enum' app List.length].
  - f_equal. lia.
  - rewrite IH. replace (b + 1 + N.of_nat (List.length l1)) with (b + N.of_nat (S (List.length l1))) by lia. reflexivity.
Qed.

Lemma find_enum k b l : find_idx k (enum b l) =
  if (b <=? k) && (k <? b + N.of_nat (List.length l)) then nth_error l (N.to_nat (k - b)) else None.
Proof.
  revert b; induction l as [|a l IH]; intros b; cbn [enum find_idx List.length].
  - destruct ((b <=? k) && (k <? b + N.of_nat 0)) eqn:E; auto. lia.
  - destruct (N.eqb_spec k b).
    + subst. replace ((b <=? b) && (b <? b + N.of_nat (S (List.length l)))) with true by lia.
      replace (N.to_nat (b - b)) with 0%nat by lia. reflexivity.
    + rewrite IH.
      destruct (b + 1 <=? k) eqn:L; cbn [andb].
      * replace (b <=? k) with true by lia. cbn [andb].
        replace (k <? b + 1 + N.of_nat (List.length l)) with (k <? b + N.of_nat (S (List.length l))) by lia.
        destruct (k <? b + N.of_nat (S (List.length l))); auto.
        replace (N.to_nat (k - b)) with (S (N.to_nat (k - (b + 1)))) by lia. reflexivity.
      * replace (b <=? k) with false by lia. reflexivity.
Qed.

(* in an enumeration of distinct strings, a string is found at its position *)
Lemma find_enum'_none s b l : find_str s (enum' b l) = None <-> ~ In s l.
Proof.
  revert b; induction l as [|a l IH]; intros b; cbn [enum' find_str In].
  - tauto.
  - destruct (text_eqb s a) eqn:E.
    + apply text_eqb_eq in E. subst. split; [discriminate|]. intros H. exfalso. auto.
    + rewrite IH. split.
      * intros H [->|H']; auto. rewrite text_eqb_refl in E. discriminate.
      * tauto.
Qed.

Lemma find_enum'_some s b l i : NoDup l -> find_str s (enum' b l) = Some i ->
  b <= i /\ nth_error l (N.to_nat (i - b)) = Some s.
Proof.
  revert b; induction l as [|a l IH]; intros b Hnd; cbn [enum' find_str].
  - discriminate.
  - inversion Hnd; subst. destruct (text_eqb s a) eqn:E.
    + apply text_eqb_eq in E. intros Q; injection Q as <-. subst.
      split; [lia|]. replace (N.to_nat (b - b)) with 0%nat by lia. reflexivity.
    + intros Q. apply IH in Q; auto. destruct Q as (A & B). split; [lia|].
      replace (N.to_nat (i - b)) with (S (N.to_nat (i - (b + 1)))) by lia. exact B.
Qed.

(* ---- StringPool ---- *)
Definition pool_of (l : list text) : pool := mkPool ((0, txt "dummy data") :: enum 1 l) (enum' 1 l).

Lemma pool_step l s : NoDup l -> N.of_nat (List.length l) + 1 < two32 ->
  exists l' i, getIndexForDataString (pool_of l) s = Some (pool_of l', i) /\
    NoDup l' /\ (exists t, l' = l ++ t /\ (List.length t <= 1)%nat) /\
    1 <= i /\ nth_error l' (N.to_nat (i - 1)) = Some s.
Proof.
  intros Hnd Hlen. unfold getIndexForDataString, pool_of. cbn [stringToIndex dataAsString].
  destruct (find_str s (enum' 1 l)) as [i|] eqn:F.
  - apply find_enum'_some in F as (A & B); auto.
    exists l, i. repeat split; auto. exists []. rewrite app_nil_r. auto.
  - rewrite enum'_length. unfold u32. rewrite N.mod_small by auto.
    cbn [List.length]. rewrite enum_length.
    replace (N.of_nat (List.length l) + 1 =? N.of_nat (S (List.length l))) with true by lia.
    cbn [negb]. exists (l ++ [s]), (N.of_nat (List.length l) + 1).
    apply find_enum'_none in F.
    split.
    { f_equal. f_equal. f_equal.
      - unfold ins_idx. cbn [find_idx]. replace (N.of_nat (List.length l) + 1 =? 0) with false by lia.
        rewrite find_enum.
        replace ((1 <=? N.of_nat (List.length l) + 1) && (N.of_nat (List.length l) + 1 <? 1 + N.of_nat (List.length l)))
          with false by lia.
        cbn [app]. f_equal. rewrite enum_app. f_equal. cbn [enum]. f_equal. f_equal. lia.
      - rewrite enum'_app. f_equal. cbn [enum']. f_equal. f_equal. lia. }
    split.
    { apply NoDup_rev in Hnd. rewrite <- rev_involutive. apply NoDup_rev. rewrite rev_app_distr. cbn.
      constructor; auto. rewrite <- in_rev. auto. }
    split; [exists [s]; auto|]. split; [lia|].
    replace (N.to_nat (N.of_nat (List.length l) + 1 - 1)) with (List.length l) by lia.
    rewrite nth_error_app2, Nat.sub_diag by lia. reflexivity.
Qed.

Lemma nth_error_app_some {A} (l t : list A) i x : nth_error l i = Some x -> nth_error (l ++ t) i = Some x.
Proof. intros H. rewrite nth_error_app1; auto. apply nth_error_Some. congruence. Qed.

Lemma intern_all_ok reqs : forall l, NoDup l ->
  N.of_nat (List.length l) + N.of_nat (List.length reqs) + 1 < two32 ->
  exists l' idxs, intern_all (pool_of l) reqs = Some (pool_of l', idxs) /\ NoDup l' /\
    (exists t, l' = l ++ t /\ (List.length t <= List.length reqs)%nat) /\
    Forall2 (fun s i => 1 <= i /\ nth_error l' (N.to_nat (i - 1)) = Some s) reqs idxs.
Proof.
  induction reqs as [|s reqs IH]; intros l Hnd Hlen; cbn [intern_all].
  - exists l, []. repeat split; auto. exists []. rewrite app_nil_r. auto.
  - cbn [List.length] in Hlen.
    destruct (pool_step l s Hnd) as (l1 & i & E & Hnd1 & (t & -> & Ht) & Hi & Hn); [lia|].
    rewrite E. destruct (IH (l ++ t) Hnd1) as (l2 & idxs & E2 & Hnd2 & (t2 & -> & Ht2) & HF).
    { rewrite app_length. lia. }
    rewrite E2. exists ((l ++ t) ++ t2), (i :: idxs). repeat split; auto.
    + exists (t ++ t2). rewrite app_assoc, app_length. cbn [List.length]. split; auto. lia.
    + constructor; auto. split; auto. apply nth_error_app_some. auto.
Qed.

Lemma pool_lookup l i s : 1 <= i -> nth_error l (N.to_nat (i - 1)) = Some s -> getDataAsString (pool_of l) i = Some s.
Proof.
  intros Hi Hn. assert (N.to_nat (i - 1) < List.length l)%nat by (apply nth_error_Some; congruence).
  unfold getDataAsString, pool_of. cbn [dataAsString List.length find_idx]. rewrite enum_length.
  replace ((i <? N.of_nat (S (List.length l))) && (0 <? i)) with true by lia.
  replace (i =? 0) with false by lia. rewrite find_enum.
  replace ((1 <=? i) && (i <? 1 + N.of_nat (List.length l))) with true by lia. auto.
Qed.

Lemma Forall2_length {A B} (P : A -> B -> Prop) xs ys : Forall2 P xs ys -> List.length xs = List.length ys.
Proof. induction 1; cbn; auto. Qed.

Lemma Forall2_nth {A B} (P : A -> B -> Prop) xs ys i x y : Forall2 P xs ys ->
  nth_error xs i = Some x -> nth_error ys i = Some y -> P x y.
Proof.
  intros H. revert i. induction H; intros i; destruct i; cbn; intros; try discriminate; eauto. congruence.
Qed.

Lemma intern_history reqs : N.of_nat (List.length reqs) + 1 < two32 ->
  exists p idxs, intern_all pool_init reqs = Some (p, idxs) /\ List.length idxs = List.length reqs /\
    (forall a b s t i j, nth_error reqs a = Some s -> nth_error idxs a = Some i ->
       nth_error reqs b = Some t -> nth_error idxs b = Some j -> (i = j <-> s = t)) /\
    (forall a s i, nth_error reqs a = Some s -> nth_error idxs a = Some i ->
       i <> 0 /\ getDataAsString p i = Some s).
Proof.
  intros H. destruct (intern_all_ok reqs []) as (l & idxs & E & Hnd & _ & HF).
  - constructor.
  - cbn. lia.
  - exists (pool_of l), idxs. split; [exact E|]. split.
    { symmetry. eapply Forall2_length; eauto. }
    split.
    + intros a b s t i j A1 A2 B1 B2.
      pose proof (Forall2_nth _ _ _ _ _ _ HF A1 A2) as (I1 & I2).
      pose proof (Forall2_nth _ _ _ _ _ _ HF B1 B2) as (J1 & J2). cbv beta in *.
      split.
      * intros <-. congruence.
      * intros <-. assert (N.to_nat (i - 1) = N.to_nat (j - 1)); [|lia].
        rewrite NoDup_nth_error in Hnd. apply Hnd; [|congruence].
        apply nth_error_Some. congruence.
    + intros a s i A1 A2. pose proof (Forall2_nth _ _ _ _ _ _ HF A1 A2) as (I1 & I2). cbv beta in *.
      split; [lia|]. apply pool_lookup; auto.
Qed.

Lemma intern_app r1 r2 : forall p, intern_all p (r1 ++ r2) =
  match intern_all p r1 with
  | None => None
  | Some (p1, i1) => match intern_all p1 r2 with None => None | Some (p2, i2) => Some (p2, i1 ++ i2) end
  end.
Proof.
  induction r1 as [|s r1 IH]; intros p; cbn [app intern_all].
  - destruct (intern_all p r2) as [[]|]; reflexivity.
  - destruct (getIndexForDataString p s) as [[p1 i]|]; auto. rewrite IH.
    destruct (intern_all p1 r1) as [[p2 is]|]; auto.
    destruct (intern_all p2 r2) as [[]|]; reflexivity.
Qed.

(* indexes handed out earlier still denote their strings after any further requests *)
Lemma intern_stable r1 r2 : N.of_nat (List.length (r1 ++ r2)) + 1 < two32 ->
  exists p1 i1 p2 i2, intern_all pool_init r1 = Some (p1, i1) /\ intern_all p1 r2 = Some (p2, i2) /\
   (forall a i, nth_error i1 a = Some i -> getDataAsString p2 i = getDataAsString p1 i) /\
   (forall s a i, nth_error r1 a = Some s -> nth_error i1 a = Some i ->
      exists p3, getIndexForDataString p2 s = Some (p3, i)).
Proof.
  intros H. rewrite app_length in H.
  destruct (intern_all_ok r1 []) as (l & i1 & E1 & Hnd & (t1 & -> & Ht1) & HF1); [constructor|cbn; lia|].
  cbn [app] in *.
  destruct (intern_all_ok r2 t1) as (l2 & i2 & E2 & Hnd2 & (t2 & -> & Ht2) & HF2); auto; [lia|].
  exists (pool_of t1), i1, (pool_of (t1 ++ t2)), i2. repeat split; auto.
  - intros a i Hi.
    destruct (nth_error r1 a) as [s|] eqn:Hs.
    + destruct (Forall2_nth _ _ _ _ _ _ HF1 Hs Hi) as (A & B). cbv beta in *.
      rewrite (pool_lookup t1 i s), (pool_lookup (t1 ++ t2) i s); auto. apply nth_error_app_some. auto.
    + apply nth_error_None in Hs. apply Forall2_length in HF1.
      assert (a < List.length i1)%nat by (apply nth_error_Some; congruence). lia.
  - intros s a i Hs Hi. destruct (Forall2_nth _ _ _ _ _ _ HF1 Hs Hi) as (A & B). cbv beta in *.
    assert (B2 : nth_error (t1 ++ t2) (N.to_nat (i - 1)) = Some s) by (apply nth_error_app_some; auto).
    unfold getIndexForDataString. cbn [pool_of stringToIndex].
    destruct (find_str s (enum' 1 (t1 ++ t2))) as [j|] eqn:F.
    + apply find_enum'_some in F as (C & D); auto.
      exists (pool_of (t1 ++ t2)). f_equal. f_equal.
      rewrite NoDup_nth_error in Hnd2.
      assert (N.to_nat (j - 1) = N.to_nat (i - 1)); [|lia].
      apply Hnd2; [|congruence]. apply nth_error_Some. congruence.
    + apply find_enum'_none in F. exfalso. apply F. eapply nth_error_In; eauto.
Qed.

(* ---- user pool ---- *)
Definition stored (b : text) : text := match b with [] => [0] | _ => entry b end.

Lemma format_user_ok b : (List.length b <= 255)%nat -> format_user b = Some (stored b).
Proof.
  intros H. unfold format_user, stored, entry. replace (255 <? N.of_nat (List.length b)) with false by lia.
  destruct b; cbn [List.length]; auto.
Qed.

Lemma app_last_inj {A} (a b : list A) x : a ++ [x] = b ++ [x] -> a = b.
Proof. intros H. apply app_inj_tail in H. tauto. Qed.

Lemma stored_inj a b : stored a = stored b -> a = b.
Proof.
  destruct a, b; auto; unfold stored, entry; intros H; try discriminate.
  injection H as _ H E. subst.
  match goal with h : _ ++ [0] = _ ++ [0] |- _ => apply app_last_inj in h end. congruence.
Qed.

(* offsets of the entries of a list of bodies, starting at o *)
Fixpoint offs (o : N) (l : list text) : list N :=
  match l with [] => [] | b :: r => o :: offs (o + N.of_nat (List.length b) + 2) r end.

Lemma total_cons b l : total (b :: l) = N.of_nat (List.length b) + 2 + total l.
Proof. reflexivity. Qed.

Lemma offs_length o l : List.length (offs o l) = List.length l.
Proof. revert o; induction l; intros; cbn; auto. Qed.

Lemma offs_app o l1 l2 : offs o (l1 ++ l2) = offs o l1 ++ offs (o + total l1) l2.
Proof.
  revert o; induction l1 as [|a l1 IH]; intros o; cbn [offs app total fold_right].
  - f_equal. lia.
  - rewrite IH. fold (total l1). replace (o + N.of_nat (List.length a) + 2 + total l1) with (o + (N.of_nat (List.length a) + 2 + total l1)) by lia. reflexivity.
Qed.

Lemma total_app l1 l2 : total (l1 ++ l2) = total l1 + total l2.
Proof. induction l1; [reflexivity|]. cbn [app]. rewrite !total_cons, IHl1. lia. Qed.

Definition upool_of (l : list text) : upool :=
  mkUPool ((0, []) :: enum 1 (map stored l)) (enum' 1 (map stored l)) (0 :: offs 1 l) (1 + total l).

Lemma NoDup_map_stored l : NoDup l -> NoDup (map stored l).
Proof.
  induction 1; cbn; constructor; auto. intros H1. apply in_map_iff in H1 as (y & E & Hy).
  apply stored_inj in E. subst. auto.
Qed.

Lemma stored_head b : (List.length b <= 255)%nat ->
  match stored b with [] => 0 | c :: _ => c end = N.of_nat (List.length b).
Proof. destruct b; reflexivity. Qed.

Lemma total_len l : 2 * N.of_nat (List.length l) <= total l.
Proof. induction l; cbn [total fold_right List.length]; [lia|]. unfold total in IHl. lia. Qed.

Lemma register_step l b : NoDup l -> (List.length b <= 255)%nat -> 1 + total l + N.of_nat (List.length b) + 2 < two32 ->
  exists l' i, register (upool_of l) b = (upool_of l', i) /\ NoDup l' /\
    (l' = l \/ l' = l ++ [b]) /\ 1 <= i /\ nth_error l' (N.to_nat (i - 1)) = Some b.
Proof.
  intros Hnd Hb Hlen. unfold register. rewrite format_user_ok by auto.
  unfold u_getIndex, upool_of. cbn [u_index u_offsets u_data u_running].
  destruct (find_str (stored b) (enum' 1 (map stored l))) as [i|] eqn:F.
  - apply find_enum'_some in F as (A & B); auto using NoDup_map_stored.
    exists l, i. repeat split; auto.
    rewrite nth_error_map in B. destruct (nth_error l (N.to_nat (i - 1))) eqn:E; [|discriminate].
    cbn in B. injection B as B. apply stored_inj in B. subst; auto.
  - apply find_enum'_none in F. rewrite stored_head by auto.
    pose proof (total_len l) as TL.
    cbn [List.length]. rewrite offs_length.
    unfold u32 at 1 2 3 4. rewrite (N.mod_small (N.of_nat (S (List.length l)))) by lia.
    exists (l ++ [b]), (N.of_nat (S (List.length l))). split.
    { f_equal. f_equal.
      - unfold ins_idx. cbn [find_idx]. replace (N.of_nat (S (List.length l)) =? 0) with false by lia.
        rewrite find_enum, map_length.
        replace ((1 <=? N.of_nat (S (List.length l))) && (N.of_nat (S (List.length l)) <? 1 + N.of_nat (List.length l))) with false by lia.
        cbn [app]. f_equal. rewrite map_app, enum_app, map_length. f_equal. cbn [map enum]. f_equal. f_equal. lia.
      - rewrite map_app, enum'_app, map_length. f_equal. cbn [map enum']. f_equal. f_equal. lia.
      - cbn [app]. f_equal. rewrite offs_app. f_equal.
      - unfold u32. rewrite total_app. cbn [total fold_right]. rewrite N.mod_small; lia. }
    split.
    { rewrite <- (rev_involutive (l ++ [b])). apply NoDup_rev. rewrite rev_app_distr. cbn.
      constructor; [|apply NoDup_rev; auto]. rewrite <- in_rev. intros H. apply F. apply in_map. auto. }
    split; auto. split; [lia|].
    replace (N.to_nat (N.of_nat (S (List.length l)) - 1)) with (List.length l) by lia.
    rewrite nth_error_app2, Nat.sub_diag by lia. reflexivity.
Qed.

Lemma register_all_ok bs : forall l, NoDup l -> Forall (fun b => (List.length b <= 255)%nat) bs ->
  1 + total l + total bs < two32 ->
  exists l' idxs, register_all (upool_of l) bs = (upool_of l', idxs) /\ NoDup l' /\
    (exists t, l' = l ++ t /\ total t <= total bs /\ incl t bs) /\
    Forall2 (fun b i => 1 <= i /\ nth_error l' (N.to_nat (i - 1)) = Some b) bs idxs.
Proof.
  induction bs as [|b bs IH]; intros l Hnd HB Hlen; cbn [register_all].
  - exists l, []. repeat split; auto. exists []. rewrite app_nil_r. repeat split; auto using incl_refl. apply N.le_refl.
  - inversion HB; subst. cbn [total fold_right] in Hlen. fold (total bs) in Hlen.
    destruct (register_step l b Hnd) as (l1 & i & E & Hnd1 & Hl1 & Hi & Hn); auto; [lia|].
    rewrite E. destruct (IH l1 Hnd1) as (l2 & idxs & E2 & Hnd2 & (t2 & -> & Ht2 & Ht3) & HF); auto.
    { destruct Hl1 as [->| ->]; [lia|]. rewrite total_app. cbn [total fold_right]. lia. }
    rewrite E2. exists (l1 ++ t2), (i :: idxs). repeat split; auto.
    + cbn [total fold_right]. fold (total bs). destruct Hl1 as [->| ->].
      * exists t2. repeat split; auto; [lia|]. apply incl_tl; auto.
      * exists (b :: t2). rewrite <- app_assoc. repeat split; auto.
        -- cbn [total fold_right]. fold (total t2). lia.
        -- intros x [->|Hx]; [left; auto|right; auto].
    + constructor; auto. split; auto. apply nth_error_app_some. auto.
Qed.

(* ---- reading the emitted table ---- *)
Lemma read_dbl c rest t : c < 256 -> read_lits true rest = Some t ->
  read_lits true (writeDblQuotedChar c ++ rest) = Some (c :: t).
Proof.
  intros Hc Hr. unfold writeDblQuotedChar, writeEscaped.
  destruct ((c =? 34) || (c =? 92)) eqn:E.
  - assert (c = 34 \/ c = 92) as [->| ->] by lia; cbn; rewrite Hr; reflexivity.
  - destruct (negb (isgraph c) || (c =? 63)) eqn:G.
    + unfold octal3. cbn [app read_lits]. change (92 =? 34) with false. change (92 =? 92) with true. cbv iota.
      unfold is_oct. rewrite Hr.
      replace ((48 <=? 48 + c / 64) && (48 + c / 64 <=? 55)) with true by lia.
      replace ((48 <=? 48 + c / 8 mod 8) && (48 + c / 8 mod 8 <=? 55)) with true by lia.
      replace ((48 <=? 48 + c mod 8) && (48 + c mod 8 <=? 55)) with true by lia.
      unfold byte_cons.
      replace (64 * (48 + c / 64 - 48) + 8 * (48 + c / 8 mod 8 - 48) + (48 + c mod 8 - 48)) with c by lia.
      replace (c <? 256) with true by lia. reflexivity.
    + unfold isgraph in G. cbn [app read_lits].
      replace (c =? 34) with false by lia. replace (c =? 92) with false by lia.
      replace ((32 <=? c) && (c <=? 126) && negb (c =? 63)) with true by lia.
      rewrite Hr. unfold byte_cons. replace (c <? 256) with true by lia. reflexivity.
Qed.

Lemma read_null rest t : read_lits true rest = Some t -> read_lits true (writeEscaped 0 ++ rest) = Some (0 :: t).
Proof. intros H. cbn. rewrite H. reflexivity. Qed.

Lemma write_chars_ok pre b post rest t : is_text b = true ->
  read_lits true rest = Some t ->
  exists w, write_chars (pre ++ b ++ post) (List.length pre) (List.length b) = Some w /\
    read_lits true (w ++ rest) = Some (b ++ t).
Proof.
  revert pre. induction b as [|c b IH]; intros pre Hb Hr; cbn [List.length write_chars].
  - exists []. auto.
  - unfold is_text in Hb. cbn [forallb] in Hb. apply andb_true_iff in Hb as [Hc Hb]. unfold is_byte in Hc.
    assert (CA : char_at (pre ++ (c :: b) ++ post) (List.length pre) = Some c).
    { unfold char_at. rewrite !app_length. cbn [List.length].
      replace (Nat.eqb _ _) with false by lia.
      rewrite nth_error_app2, Nat.sub_diag by lia. reflexivity. }
    rewrite CA. destruct (IH (pre ++ [c])) as (w & E & R); auto.
    rewrite app_length in E. cbn [List.length] in E. replace (List.length pre + 1)%nat with (S (List.length pre)) in E by lia.
    rewrite <- app_assoc in E. cbn [app] in E. cbn [app]. rewrite E.
    eexists. split; [reflexivity|]. rewrite <- app_assoc. apply read_dbl; [lia|auto].
Qed.

Lemma write_stored b rest t : is_text b = true -> (List.length b <= 255)%nat ->
  read_lits false rest = Some t ->
  exists w, writeDoubleQuotedString (stored b) = Some w /\ read_lits false (w ++ rest) = Some (entry b ++ t).
Proof.
  intros Hb Hl Hr. unfold writeDoubleQuotedString, stored.
  destruct b as [|c b'] eqn:EB.
  - eexists. split; [reflexivity|]. cbn. rewrite Hr. reflexivity.
  - rewrite <- EB in *. unfold entry.
    assert (R34 : read_lits true (34 :: rest) = Some t) by (cbn; auto).
    pose proof (read_null _ _ R34) as RN.
    destruct (write_chars_ok [N.of_nat (List.length b)] b [0] (writeEscaped 0 ++ 34 :: rest) (0 :: t) Hb RN) as (w & E & R).
    cbn [List.length app] in E. rewrite Nat2N.id. rewrite E.
    eexists. split; [reflexivity|].
    rewrite <- !app_assoc. cbn [app]. cbn [read_lits]. change (34 =? 34) with true. cbv iota.
    rewrite <- app_assoc. apply read_dbl; [lia|]. exact R.
Qed.

Lemma read_blank ind rest : blank ind = true -> read_lits false (ind ++ rest) = read_lits false rest.
Proof.
  unfold blank. induction ind as [|c ind IH]; cbn [forallb app read_lits]; auto. intros H.
  apply andb_true_iff in H as [Hc H]. replace (c =? 34) with false by lia.
  replace ((c =? 32) || (c =? 10) || (c =? 9)) with true by lia. auto.
Qed.

Lemma emit_entries_ok ind l : forall o, blank ind = true ->
  Forall (fun b => (List.length b <= 255)%nat) l -> Forall (fun b => is_text b = true) l ->
  exists w, emit_entries ind (enum o (map stored l)) = Some w /\ read_lits false w = Some (flat_map entry l).
Proof.
  induction l as [|b l IH]; intros o Hi H1 H2; cbn [map enum emit_entries flat_map].
  - exists []. auto.
  - inversion H1; inversion H2; subst.
    destruct (IH (o + 1) Hi) as (w & E & R); auto. rewrite E.
    assert (R10 : read_lits false (10 :: w) = Some (flat_map entry l)) by (cbn; auto).
    destruct (write_stored b (10 :: w) (flat_map entry l)) as (q & EQ & RQ); auto.
    rewrite EQ. eexists. split; [reflexivity|]. rewrite read_blank by auto. exact RQ.
Qed.

Lemma image_at l : forall pre k b, nth_error l k = Some b ->
  exists o, nth_error (offs (N.of_nat (List.length pre)) l) k = Some o /\
    firstn (List.length b + 2) (skipn (N.to_nat o) (pre ++ flat_map entry l)) = entry b.
Proof.
  induction l as [|a l IH]; intros pre k b Hk; destruct k; cbn [nth_error] in *; try discriminate.
  - injection Hk as ->. cbn [offs nth_error]. eexists. split; [reflexivity|].
    rewrite Nat2N.id, skipn_app, skipn_all, Nat.sub_diag. cbn [skipn app flat_map].
    replace (List.length b + 2)%nat with (List.length (entry b)).
    + rewrite firstn_app, firstn_all, Nat.sub_diag. cbn [firstn]. apply app_nil_r.
    + unfold entry. cbn [List.length]. rewrite app_length. cbn. lia.
  - destruct (IH (pre ++ entry a) k b Hk) as (o & A & B).
    exists o. cbn [offs nth_error flat_map]. rewrite <- app_assoc in B. split; auto.
    replace (N.of_nat (List.length pre) + N.of_nat (List.length a) + 2) with (N.of_nat (List.length (pre ++ entry a))); auto.
    rewrite app_length. unfold entry. cbn [List.length]. rewrite app_length. cbn. lia.
Qed.

Lemma flat_entry_length l : N.of_nat (List.length (flat_map entry l)) = total l.
Proof.
  induction l; cbn [flat_map total fold_right]; auto. rewrite app_length.
  unfold entry at 1. cbn [List.length]. rewrite app_length. cbn [List.length]. unfold total in *. lia.
Qed.

Lemma user_table ind bs : blank ind = true ->
  Forall (fun b => (List.length b <= 255)%nat) bs -> Forall (fun b => is_text b = true) bs ->
  1 + total bs < two32 ->
  exists p idxs out img, register_all upool_init bs = (p, idxs) /\ List.length idxs = List.length bs /\
    emit_table ind p = Some out /\ read_initializer out = Some img /\
    declared_size p = N.of_nat (List.length img) + 1 /\
    (forall k b i, nth_error bs k = Some b -> nth_error idxs k = Some i ->
       i <> 0 /\ i < user_count p /\
       exists o, nth_error (u_offsets p) (N.to_nat i) = Some o /\
         firstn (List.length b + 2) (skipn (N.to_nat o) img) = entry b /\
         u_getStringLength p i = Some (N.of_nat (List.length b)) /\
         (forall n c, nth_error b n = Some c -> u_getByteOf p i (N.of_nat n) = Some c)) /\
    (forall j k a b ia ib, nth_error bs j = Some a -> nth_error idxs j = Some ia ->
       nth_error bs k = Some b -> nth_error idxs k = Some ib -> (ia = ib <-> a = b)) /\
    (forall j k a b ia ib oa ob, nth_error bs j = Some a -> nth_error idxs j = Some ia ->
       nth_error bs k = Some b -> nth_error idxs k = Some ib -> ia < ib ->
       nth_error (u_offsets p) (N.to_nat ia) = Some oa -> nth_error (u_offsets p) (N.to_nat ib) = Some ob ->
       oa + N.of_nat (List.length a) + 2 <= ob).
Proof.
  intros Hind HB HT Hlen.
  destruct (register_all_ok bs []) as (l & idxs & E & Hnd & (t & -> & Htot & Hincl) & HF); auto; try apply NoDup_nil; try (cbn; lia).
  cbn [app] in *.
  assert (HBt : Forall (fun b => (List.length b <= 255)%nat) t).
  { apply Forall_forall. intros x Hx. rewrite Forall_forall in HB. auto. }
  assert (HTt : Forall (fun b => is_text b = true) t).
  { apply Forall_forall. intros x Hx. rewrite Forall_forall in HT. auto. }
  destruct (emit_entries_ok ind t 1 Hind HBt HTt) as (w & Ew & Rw).
  assert (EM : exists out, emit_table ind (upool_of t) = Some out /\ read_initializer out = Some ([0] ++ flat_map entry t)).
  { unfold emit_table, upool_of. cbn [u_data emit_entries]. rewrite Ew.
    eexists. split; [reflexivity|]. unfold read_initializer. rewrite read_blank by auto. cbn. rewrite Rw. reflexivity. }
  destruct EM as (out & EM & RD).
  exists (upool_of t), idxs, out, ([0] ++ flat_map entry t).
  split; [exact E|]. split; [symmetry; eapply Forall2_length; eauto|].
  split; [exact EM|]. split; [exact RD|]. split.
  { unfold declared_size, upool_of. cbn [u_running]. rewrite app_length. cbn [List.length].
    pose proof (flat_entry_length t). lia. }
  split; [|split].
  - intros k b i Hk Hi. destruct (Forall2_nth _ _ _ _ _ _ HF Hk Hi) as (I1 & I2). cbv beta in *.
    assert (N.to_nat (i - 1) < List.length t)%nat by (apply nth_error_Some; congruence).
    split; [lia|]. split.
    { unfold user_count, upool_of. cbn [u_offsets List.length]. rewrite offs_length. lia. }
    destruct (image_at t [0] (N.to_nat (i - 1)) b I2) as (o & A & B).
    exists o. split.
    { unfold upool_of. cbn [u_offsets]. replace (N.to_nat i) with (S (N.to_nat (i - 1))) by lia. exact A. }
    split; [exact B|].
    assert (GD : u_getDataAsString (upool_of t) i = Some (stored b)).
    { unfold u_getDataAsString, upool_of. cbn [u_data find_idx]. replace (i =? 0) with false by lia.
      rewrite find_enum, map_length.
      replace ((1 <=? i) && (i <? 1 + N.of_nat (List.length t))) with true by lia.
      rewrite nth_error_map, I2. reflexivity. }
    split.
    + unfold u_getStringLength. rewrite GD. unfold stored. destruct b as [|c b']; [reflexivity|].
      unfold entry. cbn [List.length]. rewrite app_length. cbn [List.length].
      replace (N.of_nat (S (S (List.length b') + 1)) <? 2) with false by lia. cbv iota.
      replace (N.of_nat (S (S (List.length b') + 1)) - 2) with (N.of_nat (S (List.length b'))) by lia.
      rewrite N.eqb_refl. reflexivity.
    + intros n c Hn. unfold u_getByteOf. rewrite GD. unfold stored.
      assert (n < List.length b)%nat by (apply nth_error_Some; congruence).
      destruct b as [|c' b']; [cbn in *; lia|].
      unfold entry. cbn [List.length app]. rewrite app_length. cbn [List.length] in *.
      replace (N.of_nat n <? N.of_nat (S (S (List.length b' + 1)))) with true by lia.
      unfold char_at. cbn [List.length]. rewrite app_length. cbn [List.length].
      replace (Nat.eqb _ _) with false by lia.
      replace (N.to_nat (N.of_nat n + 1)) with (S n) by lia. cbn [nth_error].
      change (c' :: b' ++ [0]) with ((c' :: b') ++ [0]). apply nth_error_app_some. exact Hn.
  - intros j k a b ia ib A1 A2 B1 B2.
    destruct (Forall2_nth _ _ _ _ _ _ HF A1 A2) as (I1 & I2).
    destruct (Forall2_nth _ _ _ _ _ _ HF B1 B2) as (J1 & J2). cbv beta in *.
    split.
    + intros <-. congruence.
    + intros <-. assert (N.to_nat (ia - 1) = N.to_nat (ib - 1)); [|lia].
      rewrite NoDup_nth_error in Hnd. apply Hnd; [|congruence]. apply nth_error_Some. congruence.
  - intros j0 k0 b b2 ia ib oi oj A1 A2 B1 B2 Hlt Oi Oj.
    destruct (Forall2_nth _ _ _ _ _ _ HF A1 A2) as (I1 & Hb). cbv beta in *.
    replace (N.to_nat ia) with (S (N.to_nat (ia - 1))) in Oi by lia.
    replace (N.to_nat ib) with (S (N.to_nat (ib - 1))) in Oj by lia.
    set (i := N.to_nat (ia - 1)) in *. set (j := N.to_nat (ib - 1)) in *.
    unfold upool_of in *. cbn [u_offsets nth_error u_data] in *.
    assert (Hij' : (i < j)%nat) by lia. clearbody i j. clear -Hb Oi Oj Hij'.
    revert i j Hb Oi Oj Hij'. generalize 1 as o. induction t as [|a t IH]; intros o i j Hb Oi Oj L; [destruct i; discriminate|].
    cbn [offs] in *. destruct i as [|i]; cbn [nth_error] in *.
    + injection Hb as ->. injection Oi as <-. destruct j as [|j]; [lia|]. cbn [nth_error] in Oj.
      clear -Oj. revert Oj. generalize (o + N.of_nat (List.length b) + 2) as x. revert j.
      induction t as [|a t IH]; intros j x H; [destruct j; discriminate|].
      destruct j; cbn [offs nth_error] in H; [injection H as <-; lia|]. apply IH in H. lia.
    + destruct j as [|j]; [lia|]. cbn [nth_error] in Oj. eapply IH; eauto. lia.
Qed.
