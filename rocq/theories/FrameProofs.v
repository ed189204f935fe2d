(* FrameProofs.v: the walk with unbounded numbers, and that it is the walk while the numbers stay small. *)
From Coq Require Import String List NArith ZArith Lia Bool.
From Coq Require Import ZifyBool ZifyNat ZifyN.
From Verif Require Import Base UTypeModel AtomModel CallStackModel CallStackProofs FrameModel FrameSpec.
Import ListNotations.
Open Scope N_scope.

Scheme ex_ind2 := Induction for ex Sort Prop
with args_ind2 := Induction for args Sort Prop.
Combined Scheme ex_args_ind from ex_ind2, args_ind2.

Fixpoint exZ (e : ex) (d : N) : N :=
  match e with
  | ELeaf => d
  | EOne e => exZ e d
  | EPair l r => exZ r (exZ l d)
  | EChoice c l r => exZ c d + N.max (exZ l (exZ c d)) (exZ r (exZ c d))
  | ECall a rtn => d + (argsZ a 0 + rtn + 1 + 1)
  | EStorageof n e => exZ e (d + n)
  end
with argsZ (a : args) (b : N) : N :=
  match a with ANil => b | ACons e n r => argsZ r (b + N.max (exZ e 0) n) end.

Fixpoint stmZ (s : stm) (base : Z) (w : walkst) : walkst :=
  match s with
  | SNone => w
  | SEx e => mkW (exZ e (w_depth w)) (w_max w) (w_slots w)
  | SDecl v n i => mkW (exZ i (w_depth w + n)) (w_max w) ((v, (Z.of_N (w_depth w) + base)%Z) :: w_slots w)
  | SThen s next => stmZ next base (stmZ s base w)
  | SBlock s => let w2 := stmZ s base w in mkW (w_depth w) (N.max (w_depth w2) (w_max w2)) (w_slots w2)
  | SWhile c s => stmZ s base (mkW (exZ c (w_depth w)) (w_max w) (w_slots w))
  | SIf c s s' =>
    let d := exZ c (w_depth w) in
    let w1 := stmZ s base (mkW d (w_max w) (w_slots w)) in
    let w2 := stmZ s' base (mkW d (w_max w1) (w_slots w1)) in
    mkW (d + N.max (w_depth w1) (w_depth w2)) (w_max w2) (w_slots w2)
  end.

Lemma pow_pos p : 1 <= 2 ^ p.
Proof. pose proof (N.pow_nonzero 2 p). lia. Qed.
Lemma pow_le p q : p <= q -> 2 ^ p <= 2 ^ q.
Proof. intros. apply N.pow_le_mono_r; lia. Qed.
Lemma chain p q a b x y : a <= 2 ^ p * x -> b <= 2 ^ q * (a + y) -> b <= 2 ^ (p + q) * (x + y).
Proof. rewrite N.pow_add_r. pose proof (pow_pos p). pose proof (pow_pos q). intros. nia. Qed.
Lemma at_least p x : x <= 2 ^ p * x.
Proof. pose proof (pow_pos p). nia. Qed.
Lemma fork cl cr d l r sl sr : l <= 2 ^ cl * (d + sl) -> r <= 2 ^ cr * (d + sr) -> d + N.max l r <= 2 ^ (cl + cr + 1) * (d + (sl + sr)).
Proof.
  intros. rewrite !N.pow_add_r. change (2 ^ 1) with 2. pose proof (pow_pos cl). pose proof (pow_pos cr).
  assert (d <= 2 ^ cl * 2 ^ cr * (d + (sl + sr))) by nia. assert (l <= 2 ^ cl * 2 ^ cr * (d + (sl + sr))) by nia. assert (r <= 2 ^ cl * 2 ^ cr * (d + (sl + sr))) by nia. lia.
Qed.

Lemma ex_args_bound : (forall e d, d <= exZ e d /\ exZ e d <= 2 ^ exChoices e * (d + exSlots e)) /\
  (forall a b, b <= argsZ a b /\ argsZ a b <= 2 ^ argChoices a * (b + argSlots a)).
Proof.
  apply ex_args_ind; cbn [exZ argsZ exChoices argChoices exSlots argSlots].
  - intros. rewrite N.pow_0_r. lia.
  - auto.
  - intros l IHl r IHr d. destruct (IHl d), (IHr (exZ l d)). split; [lia|]. rewrite N.add_assoc. eapply chain; eauto.
  - intros c IHc l IHl r IHr d. destruct (IHc d) as [A1 A2], (IHl (exZ c d)) as [B1 B2], (IHr (exZ c d)) as [C1 C2]. split; [lia|].
    pose proof (fork _ _ _ _ _ _ _ B2 C2) as F. rewrite <- !N.add_assoc in *. rewrite (N.add_assoc d). eapply chain; eauto.
  - intros a IHa rtn d. destruct (IHa 0) as [A1 A2]. split; [lia|]. pose proof (pow_pos (argChoices a)). nia.
  - intros n e IHe d. destruct (IHe (d + n)). split; [lia|]. rewrite N.add_assoc. auto.
  - intros. rewrite N.pow_0_r. lia.
  - intros e IHe n r IHr b. destruct (IHe 0) as [A1 A2], (IHr (b + N.max (exZ e 0) n)) as [B1 B2]. split; [lia|].
    assert (b + N.max (exZ e 0) n <= 2 ^ exChoices e * (b + exSlots e + n)) as H by (pose proof (pow_pos (exChoices e)); nia).
    replace (b + (exSlots e + n + argSlots r)) with (b + exSlots e + n + argSlots r) by lia. eapply chain; eauto.
Qed.
Lemma ex_ge e d : d <= exZ e d.
Proof. apply ex_args_bound. Qed.
Lemma ex_le e d : exZ e d <= 2 ^ exChoices e * (d + exSlots e).
Proof. apply ex_args_bound. Qed.
Lemma args_ge a b : b <= argsZ a b.
Proof. apply ex_args_bound. Qed.

Lemma u32_id n : n < two32 -> u32 n = n.
Proof. apply N.mod_small. Qed.
(* without wrapping the two agree *)
Lemma ex_args_agree : (forall e d, exZ e d < two32 -> exDepth e d = exZ e d) /\ (forall a b, argsZ a b < two32 -> argsDepth a b = argsZ a b).
Proof.
  apply ex_args_ind; cbn [exZ argsZ exDepth argsDepth]; auto.
  - intros l IHl r IHr d H. pose proof (ex_ge r (exZ l d)). rewrite (IHl d) by lia. apply IHr. auto.
  - intros c IHc l IHl r IHr d H. pose proof (ex_ge l (exZ c d)). pose proof (ex_ge r (exZ c d)). rewrite (IHc d), (IHl (exZ c d)), (IHr (exZ c d)), u32_id; auto; lia.
  - intros a IHa rtn d H. pose proof (args_ge a 0). rewrite (IHa 0) by lia. rewrite (u32_id (argsZ a 0 + rtn)) by lia. rewrite (u32_id (argsZ a 0 + rtn + 1)) by lia. rewrite (u32_id (argsZ a 0 + rtn + 1 + 1)) by lia. apply u32_id. auto.
  - intros n e IHe d H. pose proof (ex_ge e (d + n)). rewrite u32_id by lia. auto.
  - intros e IHe n r IHr b H. pose proof (args_ge r (b + N.max (exZ e 0) n)). rewrite IHe by lia. rewrite u32_id by lia. auto.
Qed.
Lemma ex_agree e d : exZ e d < two32 -> exDepth e d = exZ e d.
Proof. apply ex_args_agree. Qed.

Lemma through_peak s : through s <= peak s.
Proof. induction s; cbn [through peak]; lia. Qed.

(* the depth only grows, and stays below the bounds; maxdepth too *)
Lemma stm_bound s : forall base w, w_depth w <= w_depth (stmZ s base w) /\ w_depth (stmZ s base w) <= 2 ^ through s * (w_depth w + stmSlots s) /\
  w_max w <= w_max (stmZ s base w) /\ w_max (stmZ s base w) <= N.max (w_max w) (2 ^ peak s * (w_depth w + stmSlots s)).
Proof.
  induction s as [|e|v n i|s IH s' IH'|s IH|c s IH|c s IH s' IH']; intros base w; cbn [stmZ w_depth w_max through peak stmSlots]; cbv zeta.
  - rewrite N.pow_0_r. lia.
  - pose proof (ex_ge e (w_depth w)). pose proof (ex_le e (w_depth w)). cbn [w_depth w_max]. lia.
  - pose proof (ex_ge i (w_depth w + n)). pose proof (ex_le i (w_depth w + n)) as H0. rewrite <- N.add_assoc in H0. lia.
  - destruct (IH base w) as (A1 & A2 & A3 & A4). destruct (IH' base (stmZ s base w)) as (B1 & B2 & B3 & B4). split; [lia|]. split; [rewrite N.add_assoc; eapply chain; eauto|]. split; [lia|].
    assert (2 ^ peak s' * (w_depth (stmZ s base w) + stmSlots s') <= 2 ^ (through s + peak s') * (w_depth w + stmSlots s + stmSlots s')) as H by (eapply chain; eauto; lia).
    pose proof (pow_le (peak s) (N.max (peak s) (through s + peak s')) (N.le_max_l _ _)) as H1. pose proof (pow_le (through s + peak s') (N.max (peak s) (through s + peak s')) (N.le_max_r _ _)) as H2.
    set (M := 2 ^ N.max (peak s) (through s + peak s')) in *. rewrite N.add_assoc.
    assert (2 ^ peak s * (w_depth w + stmSlots s) <= M * (w_depth w + stmSlots s + stmSlots s')) by (clear - H1; nia).
    assert (2 ^ (through s + peak s') * (w_depth w + stmSlots s + stmSlots s') <= M * (w_depth w + stmSlots s + stmSlots s')) by (clear - H2; nia). lia.
  - destruct (IH base w) as (A1 & A2 & A3 & A4). rewrite N.pow_0_r. pose proof (pow_le _ _ (through_peak s)) as H. split; [lia|]. split; [lia|]. split; [lia|].
    assert (2 ^ through s * (w_depth w + stmSlots s) <= 2 ^ peak s * (w_depth w + stmSlots s)) by (clear - H; nia). lia.
  - destruct (IH base (mkW (exZ c (w_depth w)) (w_max w) (w_slots w))) as (A1 & A2 & A3 & A4). cbn [w_depth w_max] in *. pose proof (ex_ge c (w_depth w)). pose proof (ex_le c (w_depth w)) as H0.
    split; [lia|]. rewrite N.add_assoc. split; [eapply chain; eauto|]. split; [lia|].
    assert (2 ^ peak s * (exZ c (w_depth w) + stmSlots s) <= 2 ^ (exChoices c + peak s) * (w_depth w + exSlots c + stmSlots s)) by (eapply chain; eauto; lia). lia.
  - set (d := exZ c (w_depth w)) in *. pose proof (ex_ge c (w_depth w)) as HG. pose proof (ex_le c (w_depth w)) as HL. fold d in HG, HL.
    destruct (IH base (mkW d (w_max w) (w_slots w))) as (A1 & A2 & A3 & A4). set (w1 := stmZ s base _) in *. destruct (IH' base (mkW d (w_max w1) (w_slots w1))) as (B1 & B2 & B3 & B4). set (w2 := stmZ s' base _) in *.
    cbn [w_depth w_max] in *. split; [lia|]. pose proof (fork _ _ _ _ _ _ _ A2 B2) as F.
    replace (w_depth w + (exSlots c + stmSlots s + stmSlots s')) with (w_depth w + exSlots c + (stmSlots s + stmSlots s')) by lia.
    split; [replace (exChoices c + through s + through s' + 1) with (exChoices c + (through s + through s' + 1)) by lia; eapply chain; eauto|]. split; [lia|].
    set (Q := N.max (exChoices c + N.max (peak s) (peak s')) (exChoices c + through s + through s' + 1)).
    assert (2 ^ peak s * (d + stmSlots s) <= 2 ^ (exChoices c + peak s) * (w_depth w + exSlots c + stmSlots s)) as H1 by (eapply chain; eauto; lia).
    assert (2 ^ peak s' * (d + stmSlots s') <= 2 ^ (exChoices c + peak s') * (w_depth w + exSlots c + stmSlots s')) as H2 by (eapply chain; eauto; lia).
    pose proof (pow_le (exChoices c + peak s) Q ltac:(unfold Q; lia)) as P1. pose proof (pow_le (exChoices c + peak s') Q ltac:(unfold Q; lia)) as P2. set (M := 2 ^ Q) in *.
    assert (2 ^ (exChoices c + peak s) * (w_depth w + exSlots c + stmSlots s) <= M * (w_depth w + exSlots c + (stmSlots s + stmSlots s'))) by (clear - P1; nia).
    assert (2 ^ (exChoices c + peak s') * (w_depth w + exSlots c + stmSlots s') <= M * (w_depth w + exSlots c + (stmSlots s + stmSlots s'))) by (clear - P2; nia). lia.
Qed.
Lemma stm_ge s base w : w_depth w <= w_depth (stmZ s base w).
Proof. apply stm_bound. Qed.

(* one number bounds all depths inside a statement *)
Definition reach (s : stm) (d : N) : N := 2 ^ peak s * (d + stmSlots s).
Lemma stm_le s base w : w_depth (stmZ s base w) <= reach s (w_depth w).
Proof. destruct (stm_bound s base w) as (_ & H & _). pose proof (pow_le _ _ (through_peak s)) as HP. unfold reach. clear - H HP. nia. Qed.

Lemma slotAt_id d base : (0 <= base)%Z -> (Z.of_N d + base < 2147483648)%Z -> slotAt d base = (Z.of_N d + base)%Z.
Proof. intros. unfold slotAt. apply s32z_small. lia. Qed.

Lemma stm_agree s : forall base w, (0 <= base)%Z -> (Z.of_N (reach s (w_depth w)) + base < 2147483648)%Z -> stmDepth s base w = stmZ s base w.
Proof.
  induction s as [|e|v n i|s IH s' IH'|s IH|c s IH|c s IH s' IH']; intros base w HB HR; destruct w as [d m l]; cbn [stmZ stmDepth w_depth w_max w_slots] in *; cbv zeta.
  - auto.
  - rewrite ex_agree; auto. pose proof (ex_le e d). unfold reach in HR. cbn [peak stmSlots] in HR. unfold two32. lia.
  - unfold reach in HR. cbn [peak stmSlots] in HR. pose proof (ex_le i (d + n)) as H. rewrite <- N.add_assoc in H. pose proof (ex_ge i (d + n)).
    rewrite u32_id, ex_agree, slotAt_id; auto; unfold two32; lia.
  - assert (reach s d <= reach (SThen s s') d) as H1.
    { unfold reach. cbn [peak stmSlots]. pose proof (pow_le (peak s) (N.max (peak s) (through s + peak s')) (N.le_max_l _ _)) as H. clear - H. nia. }
    assert (reach s' (w_depth (stmZ s base (mkW d m l))) <= reach (SThen s s') d) as H2.
    { unfold reach. cbn [peak stmSlots]. destruct (stm_bound s base (mkW d m l)) as (_ & A & _). cbn [w_depth] in A.
      assert (2 ^ peak s' * (w_depth (stmZ s base (mkW d m l)) + stmSlots s') <= 2 ^ (through s + peak s') * (d + stmSlots s + stmSlots s')) as H by (eapply chain; eauto; lia).
      pose proof (pow_le (through s + peak s') (N.max (peak s) (through s + peak s')) (N.le_max_r _ _)) as P. rewrite N.add_assoc. clear - H P. nia. }
    rewrite IH by (auto; cbn [w_depth]; lia). rewrite IH' by (auto; lia). pose proof (stm_ge s base (mkW d m l)) as G1. pose proof (stm_ge s' base (stmZ s base (mkW d m l))) as G2. cbn [w_depth] in G1.
    rewrite N.max_l by lia. destruct (stmZ s' base (stmZ s base (mkW d m l))); auto.
  - rewrite IH by auto. reflexivity.
  - pose proof (ex_le c d) as H0. unfold reach in HR. cbn [peak stmSlots] in HR.
    assert (reach s (exZ c d) <= 2 ^ (exChoices c + peak s) * (d + (exSlots c + stmSlots s))) as H by (unfold reach; rewrite N.add_assoc; eapply chain; eauto; lia).
    assert (exZ c d <= reach s (exZ c d)) by (unfold reach; pose proof (pow_pos (peak s)) as P; clear - P; nia).
    rewrite ex_agree by (unfold two32; lia). apply IH; auto. cbn [w_depth]. lia.
  - pose proof (ex_le c d) as H0. set (d' := exZ c d) in *. pose proof (stm_le (SIf c s s') base (mkW d m l)) as HD. cbn [stmZ w_depth w_max w_slots] in HD. cbv zeta in HD. fold d' in HD.
    assert (reach s d' <= reach (SIf c s s') d) as H1.
    { unfold reach. cbn [peak stmSlots]. set (Q := N.max _ _). pose proof (pow_le (exChoices c + peak s) Q ltac:(unfold Q; lia)) as P1.
      assert (2 ^ peak s * (d' + stmSlots s) <= 2 ^ (exChoices c + peak s) * (d + exSlots c + stmSlots s)) as H by (eapply chain; eauto; lia). clear - P1 H. nia. }
    assert (reach s' d' <= reach (SIf c s s') d) as H2.
    { unfold reach. cbn [peak stmSlots]. set (Q := N.max _ _). pose proof (pow_le (exChoices c + peak s') Q ltac:(unfold Q; lia)) as P1.
      assert (2 ^ peak s' * (d' + stmSlots s') <= 2 ^ (exChoices c + peak s') * (d + exSlots c + stmSlots s')) as H by (eapply chain; eauto; lia). clear - P1 H. nia. }
    assert (d' <= reach s d') by (unfold reach; pose proof (pow_pos (peak s)) as P; clear - P; nia).
    rewrite ex_agree by (unfold two32; fold d'; lia). fold d'. rewrite IH by (auto; cbn [w_depth]; lia). rewrite IH' by (auto; cbn [w_depth]; lia). rewrite u32_id; [reflexivity|]. unfold two32. lia.
Qed.

(* ---- the places ---- *)
Lemma stm_names s : forall base w sc, map fst (w_slots (stmZ s base w)) = rev (map (fun d => fst (fst d)) (snd (declared s sc))) ++ map fst (w_slots w).
Proof.
  induction s as [|e|v n i|s IH s' IH'|s IH|c s IH|c s IH s' IH']; intros base w sc; cbn [stmZ declared w_slots snd map rev]; auto.
  - destruct (declared s sc) as [sc1 l1] eqn:E1. destruct (declared s' sc1) as [sc2 l2] eqn:E2. cbn [snd]. rewrite (IH' base _ sc1), (IH base w sc), E1, E2. cbn [snd]. rewrite map_app, rev_app_distr, app_assoc. auto.
  - rewrite (IH base _ sc). auto.
  - rewrite (IH' base _ sc). cbn [w_slots]. rewrite (IH base _ sc). cbn [w_slots]. rewrite map_app, rev_app_distr, app_assoc. auto.
Qed.
Lemma stm_keeps s base w x : In x (w_slots w) -> In x (w_slots (stmZ s base w)).
Proof. revert base w x. induction s as [|e|v n i|s IH s' IH'|s IH|c s IH|c s IH s' IH']; intros base w x H; cbn [stmZ w_slots]; auto; [right; auto|apply IH'; cbn [w_slots]; apply IH; auto]. Qed.

Lemma stm_apart s : forall base w sc, (forall v n, In (v, n) sc -> exists p, In (v, p) (w_slots w) /\ (p + Z.of_N n <= Z.of_N (w_depth w) + base)%Z) ->
  (forall v n, In (v, n) (fst (declared s sc)) -> exists p, In (v, p) (w_slots (stmZ s base w)) /\ (p + Z.of_N n <= Z.of_N (w_depth (stmZ s base w)) + base)%Z) /\
  (forall v n env, In ((v, n), env) (snd (declared s sc)) -> exists p, In (v, p) (w_slots (stmZ s base w)) /\ (Z.of_N (w_depth w) + base <= p)%Z /\
     (p + Z.of_N n <= Z.of_N (N.max (w_depth (stmZ s base w)) (w_max (stmZ s base w))) + base)%Z /\
     forall u m, In (u, m) env -> exists q, In (u, q) (w_slots (stmZ s base w)) /\ (q + Z.of_N m <= p)%Z).
Proof.
  induction s as [|e|v n i|s IH s' IH'|s IH|c s IH|c s IH s' IH']; intros base w sc HS.
  - cbn. split; [auto|tauto].
  - cbn [declared stmZ fst snd w_slots w_depth w_max]. split; [|cbn; tauto]. intros v n HI. destruct (HS v n HI) as (p & Hp & H). exists p. split; auto. pose proof (ex_ge e (w_depth w)). lia.
  - cbn [declared stmZ fst snd w_slots w_depth w_max]. pose proof (ex_ge i (w_depth w + n)). split.
    + intros v' n' [E|HI]; [injection E as -> ->; eexists; split; [left; reflexivity|lia]|]. destruct (HS v' n' HI) as (p & Hp & H'). exists p. split; [right; auto|lia].
    + intros v' n' env [E|[]]. injection E as -> -> ->. eexists. split; [left; reflexivity|]. split; [lia|]. split; [lia|]. intros u m HI. destruct (HS u m HI) as (q & Hq & H'). exists q. split; [right; auto|lia].
  - cbn [declared stmZ]. destruct (declared s sc) as [sc1 l1] eqn:E1. destruct (declared s' sc1) as [sc2 l2] eqn:E2. cbn [fst snd].
    destruct (IH base w sc HS) as [A1 A2]. rewrite E1 in A1, A2. cbn [fst snd] in A1, A2. destruct (IH' base (stmZ s base w) sc1 A1) as [B1 B2]. rewrite E2 in B1, B2. cbn [fst snd] in B1, B2.
    split; auto. intros v n env HI. apply in_app_or in HI. destruct (stm_bound s' base (stmZ s base w)) as (G1 & _ & G3 & _). pose proof (stm_ge s base w). destruct HI as [HI|HI].
    + destruct (A2 v n env HI) as (p & Hp & H1 & H2 & H3). exists p. split; [apply stm_keeps; auto|]. split; auto. split; [lia|]. intros u m HU. destruct (H3 u m HU) as (q & Hq & H4). exists q. split; [apply stm_keeps; auto|auto].
    + destruct (B2 v n env HI) as (p & Hp & H1 & H2 & H3). exists p. split; auto. split; [lia|]. split; auto.
  - cbn [declared stmZ fst snd w_slots w_depth w_max]. destruct (IH base w sc HS) as [A1 A2]. split.
    + intros v n HI. destruct (HS v n HI) as (p & Hp & H). exists p. split; [apply stm_keeps; auto|auto].
    + intros v n env HI. destruct (A2 v n env HI) as (p & Hp & H1 & H2 & H3). exists p. split; auto. split; auto. split; [lia|auto].
  - cbn [declared stmZ]. pose proof (ex_ge c (w_depth w)). assert (forall v n, In (v, n) sc -> exists p, In (v, p) (w_slots w) /\ (p + Z.of_N n <= Z.of_N (exZ c (w_depth w)) + base)%Z) as HS'.
    { intros v n HI. destruct (HS v n HI) as (p & Hp & H'). exists p. split; auto. lia. }
    destruct (IH base (mkW (exZ c (w_depth w)) (w_max w) (w_slots w)) sc HS') as [A1 A2]. split; auto. intros v n env HI. destruct (A2 v n env HI) as (p & Hp & H1 & H2 & H3). cbn [w_depth] in H1. exists p. split; auto. split; [lia|]. split; auto.
  - cbn [declared stmZ fst snd w_slots w_depth w_max]. pose proof (ex_ge c (w_depth w)). set (d := exZ c (w_depth w)) in *.
    assert (forall v n, In (v, n) sc -> exists p, In (v, p) (w_slots w) /\ (p + Z.of_N n <= Z.of_N d + base)%Z) as HS'.
    { intros v n HI. destruct (HS v n HI) as (p & Hp & H'). exists p. split; auto. lia. }
    destruct (IH base (mkW d (w_max w) (w_slots w)) sc HS') as [A1 A2]. set (w1 := stmZ s base _) in *.
    assert (forall v n, In (v, n) sc -> exists p, In (v, p) (w_slots w1) /\ (p + Z.of_N n <= Z.of_N d + base)%Z) as HS''.
    { intros v n HI. destruct (HS' v n HI) as (p & Hp & H'). exists p. split; auto. apply stm_keeps. auto. }
    destruct (IH' base (mkW d (w_max w1) (w_slots w1)) sc HS'') as [B1 B2]. destruct (stm_bound s' base (mkW d (w_max w1) (w_slots w1))) as (_ & _ & G3 & _). cbn [w_max] in G3.
    assert (forall x, In x (w_slots w1) -> In x (w_slots (stmZ s' base (mkW d (w_max w1) (w_slots w1))))) as HK by (intros x Hx; apply stm_keeps; auto). set (w2 := stmZ s' base _) in *. cbn [w_depth] in *. split.
    + intros v n HI. destruct (HS v n HI) as (p & Hp & H'). exists p. split; [apply HK; apply stm_keeps; auto|]. lia.
    + intros v n env HI. apply in_app_or in HI. destruct HI as [HI|HI].
      * destruct (A2 v n env HI) as (p & Hp & H1 & H2 & H3). exists p. split; auto. split; [lia|]. split; [lia|]. intros u m HU. destruct (H3 u m HU) as (q & Hq & H4). exists q. auto.
      * destruct (B2 v n env HI) as (p & Hp & H1 & H2 & H3). exists p. split; auto. split; [lia|]. split; [lia|auto].
Qed.

Lemma place_in v : forall l p, NoDup (map fst l) -> In (v, p) l -> place_of v l = Some p.
Proof.
  induction l as [|[x z] l IH]; intros p ND HI; [destruct HI|]. cbn [place_of]. inversion ND as [|? ? NI ND']; subst. destruct HI as [E|HI].
  - injection E as -> ->. rewrite N.eqb_refl. auto.
  - destruct (N.eqb_spec x v) as [->|]; [exfalso; apply NI; apply in_map_iff; exists (v, p); auto|auto].
Qed.
