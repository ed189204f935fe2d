(* RandTheorems.v: C90. *)
From Coq Require Import List NArith ZArith Lia Bool.
From Coq Require Import ZifyBool ZifyNat ZifyN.
From Verif Require Import Base UTypeModel PrimModel StdNumModel PickModel PickSpec PickTheorems RandModel.
Import ListNotations.
Open Scope Z_scope.

Definition isInt (z : Z) : Prop := - 2 ^ 31 <= z <= 2 ^ 31 - 1.
(* all whole numbers from a to b, each once *)
Definition range (a b : Z) : list Z := map (fun d => a + Z.of_nat d) (seq 0 (Z.to_nat (b - a + 1))).

Lemma clampI z : clamp EInt 32 z = Z.max (- 2 ^ 31) (Z.min (2 ^ 31 - 1) z).
Proof. reflexivity. Qed.

(* Whichever way round the bounds are given, if there are fewer than 2^31 numbers from one to the other each is as likely as the
   others. *)
Theorem C90_between_partial : forall a b, isInt a -> isInt b -> Z.abs (b - a) + 1 <= 2 ^ 31 - 1 -> between a b = range (Z.min a b) (Z.max a b).
Proof.
  unfold isInt. change (2 ^ 31) with 2147483648. intros a b Ha Hb HD. unfold between. set (q := if a >? b then (b, a) else (a, b)). assert (q = (Z.min a b, Z.max a b)) as -> by (unfold q; destruct (Z.gtb_spec a b); f_equal; lia).
  set (lo := Z.min a b). set (hi := Z.max a b). assert (- 2147483648 <= lo <= hi /\ hi <= 2147483647 /\ hi - lo + 1 <= 2147483647) as H by lia. clearbody lo hi. clear Ha Hb HD.
  assert (clamp EInt 32 (clamp EInt 32 (hi - lo) + 1) = hi - lo + 1) as -> by (rewrite !clampI; change (2 ^ 31) with 2147483648; lia).
  unfold createI. replace (hi - lo + 1 <=? 0) with false by lia. assert (clamp EUnsigned 32 (hi - lo + 1) = hi - lo + 1) as -> by (rewrite clampU; change (2 ^ 32) with 4294967296; lia).
  unfold createU, draws, range. rewrite map_map. apply map_ext_in. intros d Hd. apply in_seq in Hd. rewrite !clampI. change (2 ^ 31) with 2147483648. lia.
Qed.
Print Assumptions C90_between_partial.
(* Otherwise the greater bound never comes. *)
Theorem C90_between_refuted : forall a b, isInt a -> isInt b -> 2 ^ 31 - 1 < Z.abs (b - a) + 1 -> ~ In (Z.max a b) (between a b) /\ between a b <> [].
Proof.
  unfold isInt. intros a b Ha Hb HD. unfold between. set (q := if a >? b then (b, a) else (a, b)). assert (q = (Z.min a b, Z.max a b)) as -> by (unfold q; destruct (Z.gtb_spec a b); f_equal; lia).
  set (lo := Z.min a b). set (hi := Z.max a b). assert (- 2 ^ 31 <= lo <= hi /\ hi <= 2 ^ 31 - 1 /\ 2 ^ 31 - 1 < hi - lo + 1) as H by lia. clearbody lo hi. clear Ha Hb HD.
  assert (clamp EInt 32 (clamp EInt 32 (hi - lo) + 1) = 2 ^ 31 - 1) as -> by (rewrite !clampI; lia).
  assert (exists M, M = 2 ^ 31 - 1) as (M & EM) by eauto. rewrite <- EM. unfold createI. replace (M <=? 0) with false by lia. assert (clamp EUnsigned 32 M = M) as -> by (rewrite clampU; lia).
  split. { intros HI. apply in_map_iff in HI as (d & E & HD). apply draws_in in HD. rewrite !clampI in E. lia. }
  intros E. apply map_eq_nil in E. apply (draws_nil M); auto. lia.
Qed.
Print Assumptions C90_between_refuted.

(* Odds of t in n: as many true as t (at most n, at least none) of n. *)
Theorem C90_odds : forall t n, 0 < n -> (forall b, In b (oddsOfU t n) -> b = true \/ b = false) /\ Z.of_nat (List.length (oddsOfU t n)) = n /\ times (fun b => b) (oddsOfU t n) = Z.max 0 (Z.min t n) /\
  (n <= 2 ^ 31 - 1 -> oddsOfI t n = oddsOfU t n).
Proof.
  intros t n Hn. split; [intros []; auto|]. split; [|split].
  - unfold oddsOfU, createU, draws. rewrite !map_length, seq_length. lia.
  - unfold oddsOfU, createU. set (u := Z.max 0 (Z.min t n)). transitivity (times (fun b => b) (flat_map (fun b => [b]) (map (fun d => if d <? u then true else false) (draws n)))).
    { f_equal. rewrite flat_map_concat_map, map_map. rewrite <- flat_map_concat_map. rewrite (flat_map_concat_map _ (draws n)). rewrite <- (map_map (fun d => if d <? u then true else false) (fun b => [b])). rewrite <- (flat_map_concat_map (fun b => [b])). rewrite <- (map_id (map (fun d => d <? t) (draws n))).
      assert (forall l : list bool, flat_map (fun b => [b]) l = map (fun b => b) l) as -> by (induction l; cbn; congruence). f_equal. apply map_ext_in. intros d Hd. apply draws_in in Hd. unfold u. destruct (Z.ltb_spec d (Z.max 0 (Z.min t n))); lia. }
    rewrite times_draws by lia. unfold times. cbn. lia.
  - intros HN. unfold oddsOfI, oddsOfU, createI, createU. replace (n <=? 0) with false by lia. assert (clamp EUnsigned 32 n = n) as -> by (rewrite clampU; change (2 ^ 31) with 2147483648 in *; change (2 ^ 32) with 4294967296; lia). apply map_ext_in. intros d Hd. apply draws_in in Hd. rewrite clampI. f_equal. lia.
Qed.
Print Assumptions C90_odds.

(* ---- timers ---- *)
Definition sumZ (l : list Z) : Z := fold_right Z.add 0 l.
Lemma oneIn_sum n (x y : Z) : 0 < n -> sumZ (map (fun b : bool => if b then x else y) (oneIn n)) = x + (n - 1) * y /\ Z.of_nat (List.length (oneIn n)) = n.
Proof.
  intros H. split; [|apply C90_odds; auto]. unfold oneIn, oddsOfU, createU, draws. rewrite !map_map. replace (Z.to_nat n) with (1 + Z.to_nat (n - 1))%nat by lia. rewrite seq_app, map_app. cbn [seq map app plus Z.of_nat]. change (x + sumZ (map (fun d => if Z.of_nat d <? 1 then x else y) (seq 1 (Z.to_nat (n - 1)))) = x + (n - 1) * y).
  assert (forall j a, (1 <= a)%nat -> sumZ (map (fun d => if Z.of_nat d <? 1 then x else y) (seq a j)) = Z.of_nat j * y) as G. { induction j as [|j IH]; intros a Ha; [reflexivity|]. cbn [seq map sumZ fold_right]. fold (sumZ (map (fun d => if Z.of_nat d <? 1 then x else y) (seq (S a) j))). rewrite IH by lia. replace (Z.of_nat a <? 1) with false by lia. lia. }
  rewrite G, Z2Nat.id by lia. reflexivity.
Qed.
Lemma sum_map_if (f : Z -> Z) x y l : sumZ (map f (map (fun b : bool => if b then x else y) l)) = sumZ (map (fun b : bool => if b then f x else f y) l).
Proof. rewrite map_map. f_equal. apply map_ext. intros []; reflexivity. Qed.

(* the number of counts that are to come on the average: k for each time 2^i ... (XTimer), in the other order (RXTimer) *)
Definition ahead (L k t : Z) : Z := if t <? L then k * (2 ^ L - 2 ^ t) else 0.
Definition ahead_r (L k t : Z) : Z := if t <? L then k * (2 ^ (L - t) - 1) else 0.

(* Each call of count brings the timer, on the average over what may come, nearer by one; it is at 0 exactly when the alarm is on.  So
   after a reset the alarm comes after k (2^L - 1) calls on the average. *)
Theorem C90_timer_partial : forall bits L k t, 1 <= bits <= 5 -> 0 <= L <= 2 ^ bits - 1 -> 1 <= k -> k * 2 ^ L < 2 ^ 32 -> 0 <= t <= L ->
  (tAlarm L t = true <-> ahead L k t = 0) /\ ahead L k (tReset) = k * (2 ^ L - 1) /\
  (tAlarm L t = false -> sumZ (map (ahead L k) (tCount bits L k t)) = Z.of_nat (List.length (tCount bits L k t)) * (ahead L k t - 1) /\ tCount bits L k t <> []) /\
  (tAlarm L t = true -> tCount bits L k t = [t]) /\ (forall t', In t' (tCount bits L k t) -> t' = t \/ (t' = t + 1 /\ t' <= L)).
Proof.
  intros bits L k t Hb HL Hk HM Ht. unfold tAlarm. assert (1 <= 2 ^ t) as HP by (apply (Z.pow_le_mono_r 2 0); lia). assert (t < L -> 2 * 2 ^ t <= 2 ^ L) as HP2. { intros. rewrite <- Z.pow_succ_r by lia. apply Z.pow_le_mono_r; lia. }
  split; [|split; [|split; [|split]]].
  - unfold ahead. destruct (Z.ltb_spec t L); [|split; lia]. specialize (HP2 ltac:(lia)). split; [lia|nia].
  - unfold ahead, tReset. destruct (Z.ltb_spec 0 L); [rewrite Z.pow_0_r; lia|]. replace L with 0 by lia. cbn. lia.
  - intros HA. assert (t < L) as HT by lia. unfold tCount, tAlarm. rewrite HA. cbn [negb]. assert (shl32 k t = k * 2 ^ t) as -> by (unfold shl32; specialize (HP2 HT); apply Z.mod_small; nia).
    assert (0 < k * 2 ^ t) as HN by nia. rewrite sum_map_if, map_length. destruct (oneIn_sum (k * 2 ^ t) (ahead L k (tNext bits t)) (ahead L k t) HN) as [-> ->]. assert (tNext bits t = t + 1) as -> by (unfold tNext; rewrite clampU; lia).
    split. { assert (ahead L k t = k * (2 ^ L - 2 ^ t)) as -> by (unfold ahead; replace (t <? L) with true by lia; reflexivity). assert (ahead L k (t + 1) = k * (2 ^ L - 2 * 2 ^ t)) as ->. { unfold ahead. rewrite <- Z.pow_succ_r by lia. destruct (Z.ltb_spec (t + 1) L); [reflexivity|]. replace L with (Z.succ t) by lia. lia. } ring. }
    intros E. apply map_eq_nil in E. destruct (oneIn_sum (k * 2 ^ t) 0 0 HN) as [_ EL]. rewrite E in EL. cbn in EL. lia.
  - intros HA. unfold tCount, tAlarm. rewrite HA. reflexivity.
  - unfold tCount, tAlarm. destruct (Z.geb_spec t L); cbn [negb]; [intros t' [<-|[]]; auto|]. intros t' HI. apply in_map_iff in HI as (b & <- & _). destruct b; auto. right. unfold tNext. rewrite clampU. lia.
Qed.
Print Assumptions C90_timer_partial.
Theorem C90_rtimer_partial : forall bits L k t, 1 <= bits <= 5 -> 0 <= L <= 2 ^ bits - 1 -> 1 <= k -> k * 2 ^ L < 2 ^ 32 -> 0 <= t <= L ->
  ahead_r L k tReset = k * (2 ^ L - 1) /\ (tAlarm L t = true <-> ahead_r L k t = 0) /\
  (tAlarm L t = false -> sumZ (map (ahead_r L k) (rCount bits L k t)) = Z.of_nat (List.length (rCount bits L k t)) * (ahead_r L k t - 1) /\ rCount bits L k t <> []) /\
  (tAlarm L t = true -> rCount bits L k t = [t]).
Proof.
  intros bits L k t Hb HL Hk HM Ht. unfold tAlarm. assert (2 ^ bits <= 2 ^ 5) as HB by (apply Z.pow_le_mono_r; lia). change (2 ^ 5) with 32 in HB.
  split; [|split; [|split]].
  - unfold ahead_r, tReset. destruct (Z.ltb_spec 0 L); [rewrite Z.sub_0_r; lia|]. replace L with 0 by lia. cbn. lia.
  - unfold ahead_r. destruct (Z.ltb_spec t L); [|split; lia]. assert (2 <= 2 ^ (L - t)) by (apply (Z.pow_le_mono_r 2 1); lia). split; [lia|nia].
  - intros HA. assert (t < L) as HT by lia. unfold rCount, tAlarm. rewrite HA. cbn [negb]. assert (clamp EUnsigned 32 (clamp EUnsigned 32 (L - 1) - t) = L - 1 - t) as -> by (rewrite !clampU; change (2 ^ 32) with 4294967296; lia).
    assert (1 <= 2 ^ (L - 1 - t)) as HP by (apply (Z.pow_le_mono_r 2 0); lia). assert (2 ^ (L - 1 - t) < 2 ^ L) as HP3 by (apply Z.pow_lt_mono_r; lia).
    assert (shl32 k (L - 1 - t) = k * 2 ^ (L - 1 - t)) as -> by (unfold shl32; apply Z.mod_small; nia). assert (0 < k * 2 ^ (L - 1 - t)) as HN by nia.
    rewrite sum_map_if, map_length. destruct (oneIn_sum (k * 2 ^ (L - 1 - t)) (ahead_r L k (tNext bits t)) (ahead_r L k t) HN) as [-> ->]. assert (tNext bits t = t + 1) as -> by (unfold tNext; rewrite clampU; lia).
    split. { assert (ahead_r L k t = k * (2 * 2 ^ (L - 1 - t) - 1)) as ->. { unfold ahead_r; replace (t <? L) with true by lia. rewrite <- Z.pow_succ_r by lia. replace (Z.succ (L - 1 - t)) with (L - t) by lia. reflexivity. }
      assert (ahead_r L k (t + 1) = k * (2 ^ (L - 1 - t) - 1)) as ->. { unfold ahead_r. destruct (Z.ltb_spec (t + 1) L); [replace (L - (t + 1)) with (L - 1 - t) by lia; reflexivity|]. replace (L - 1 - t) with 0 by lia. cbn. lia. } ring. }
    intros E. apply map_eq_nil in E. destruct (oneIn_sum (k * 2 ^ (L - 1 - t)) 0 0 HN) as [_ EL]. rewrite E in EL. cbn in EL. lia.
  - intros HA. unfold rCount, tAlarm. rewrite HA. reflexivity.
Qed.
Print Assumptions C90_rtimer_partial.
(* A level that the counter cannot hold: the alarm is not on after trigger, nor ever. *)
Theorem C90_trigger_refuted : exists bits L, 1 <= bits <= 5 /\ tAlarm L (tTrigger bits L) = false /\ forall k t t', 0 <= t <= 2 ^ bits - 1 -> In t' (tCount bits L k t) -> tAlarm L t' = false.
Proof.
  exists 2, 4. split; [lia|]. split; [reflexivity|]. intros k t t' Ht HI. unfold tCount, tAlarm in *. replace (t >=? 4) with false in HI by lia. cbn [negb] in HI. apply in_map_iff in HI as (b & <- & _). destruct b; unfold tNext; rewrite ?clampU; lia.
Qed.
Print Assumptions C90_trigger_refuted.
Theorem C90_trigger_partial : forall bits L, 1 <= bits <= 5 -> 0 <= L <= 2 ^ bits - 1 -> tAlarm L (tTrigger bits L) = true /\ tMax bits L = L.
Proof. intros bits L Hb HL. unfold tTrigger, tMax, tAlarm. rewrite clampU. lia. Qed.
Print Assumptions C90_trigger_partial.
(* new is true once after each reset *)
Theorem C90_once : forall d n, let r := Nat.iter (S n) (fun s => fst (onceNew s)) d in
  snd (onceNew d) = negb d /\ r = true /\ snd (onceNew r) = false /\ snd (onceNew (fst (onceReset r))) = true /\ snd (onceReset r) = true.
Proof. intros d n. cbv zeta. assert (Nat.iter (S n) (fun s => fst (onceNew s)) d = true) as ->. { change (fst (onceNew (Nat.iter n (fun s => fst (onceNew s)) d)) = true). destruct (Nat.iter n (fun s => fst (onceNew s)) d); reflexivity. } destruct d; auto. Qed.
Print Assumptions C90_once.

Example C90_ex : between 3 (-2) = [-2; -1; 0; 1; 2; 3] /\ (isInt 3 /\ isInt (-2) /\ Z.abs (-2 - 3) + 1 <= 2 ^ 31 - 1) /\ oddsOfU 2 5 = [true; true; false; false; false] /\
  tCount 3 5 1 2 = [3; 2; 2; 2] /\ rCount 3 5 1 3 = [4; 3] /\ ahead 5 1 0 = 31 /\ 1 * 2 ^ 5 < 2 ^ 32.
Proof. unfold isInt. vm_compute. repeat split; discriminate. Qed.
