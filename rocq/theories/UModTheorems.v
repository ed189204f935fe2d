(* UModTheorems.v: C88. *)
From Coq Require Import List NArith ZArith Lia Bool.
From Coq Require Import ZifyBool ZifyNat ZifyN.
From Verif Require Import Base BitVec UTypeModel AtomModel AtomSpec PrimModel PrimSpec PrimProofs ArithModel ArithProofs StdNumModel StdNumProofs UModModel.
Import ListNotations.
Open Scope Z_scope.

(* the middle, and the bounds of the dead band, of a counter of n bits with d dead bits *)
Definition mid (n : Z) : Z := 2 ^ (n - 1) - 1.
Definition lower (n d : Z) : Z := Z.max 0 (mid n - Z.min (2 ^ n - 1) (2 ^ d - 1)).
Definition upper (n d : Z) : Z := Z.min (2 ^ n - 1) (mid n + Z.min (2 ^ n - 1) (2 ^ d - 1)).

Lemma pow_split n : 1 <= n -> 2 ^ n = 2 * 2 ^ (n - 1).
Proof. intros H. replace n with (Z.succ (n - 1)) at 1 by lia. rewrite Z.pow_succ_r by lia. reflexivity. Qed.
Lemma pow31 n : 1 <= n <= 31 -> 2 <= 2 ^ n <= 2 ^ 31.
Proof. intros H. split; [change 2 with (2 ^ 1) at 1|]; apply Z.pow_le_mono_r; lia. Qed.
Lemma pow_le a b : 0 <= a <= b -> 2 ^ a <= 2 ^ b.
Proof. intros H. apply Z.pow_le_mono_r; lia. Qed.

Lemma clampU n z : 1 <= n -> clamp EUnsigned n z = Z.max 0 (Z.min (2 ^ n - 1) z).
Proof. reflexivity. Qed.

Section P.
Variables n d : Z.
Hypothesis Hn : 1 <= n <= 31.
Hypothesis Hd : 0 <= d <= 16.

Lemma size_sub w : 1 <= w <= 32 -> opsize Subtract w w 32 = Z.min 32 (w + 1).
Proof. intros H. unfold opsize, atmost. destruct (Z.geb_spec (Z.max w w + 1) 32); lia. Qed.
Lemma size_add w w' : 1 <= w <= 32 -> 1 <= w' <= 32 -> opsize Add w w' 32 = Z.min 32 (Z.max w w' + 1).
Proof. intros H H'. unfold opsize, atmost. destruct (Z.geb_spec (Z.max w w' + 1) 32); lia. Qed.

Lemma spread_ok : cDEAD_SPREAD n d = Some (U n (Z.min (2 ^ n - 1) (2 ^ d - 1))).
Proof.
  unfold cDEAD_SPREAD, U. rewrite binop_same by (auto; lia). cbn [bind]. unfold asValue, to, U. cbn [n_v apply_op].
  assert (opsize Subtract 32 1 32 = 32) as -> by reflexivity. pose proof (pow31 n Hn). assert (1 <= 2 ^ d) by (apply (pow_le 0); lia). pose proof (pow_le d 16 ltac:(lia)).
  rewrite !clampU by lia. f_equal. f_equal. change (2 ^ 32) with 4294967296. change (2 ^ 16) with 65536 in *. lia.
Qed.
Lemma mid_ok : cVALUE_MIDPOINT n = Some (U n (mid n)).
Proof.
  unfold cVALUE_MIDPOINT, value, U. rewrite binop_same by (auto; lia). cbn [bind]. rewrite size_sub by lia. cbn [apply_op]. pose proof (pow31 n Hn) as HP. pose proof (pow_split n ltac:(lia)) as HS.
  cbn [maxof minof]. replace (2 ^ n - 1 - 0) with (2 ^ n - 1) by lia. rewrite (clamp_in EUnsigned (Z.min 32 (n + 1))) by (cbn [minof maxof]; pose proof (pow_le n (Z.min 32 (n + 1)) ltac:(lia)); lia).
  unfold binop, tyOf, I. cbn [n_e n_w n_v]. assert (arith EUnsigned) as A1 by (unfold arith; tauto). assert (arith EInt) as A2 by (unfold arith; tauto).
  rewrite (nodeType_ok Divide EUnsigned (Z.to_N (Z.min 32 (n + 1))) _ EInt (Z.to_N 3) _ A1 A2 (prim_ok EUnsigned (Z.min 32 (n + 1)) ltac:(lia)) (prim_ok EInt 3 ltac:(lia))).
  change (reskind EUnsigned EInt) with EInt. rewrite !word_ok by lia. change (Z.max 32 32) with 32. cbn [isDivision andb Z.eqb]. cbn [castThyselfToResultType ty_enum prim].
  rewrite (convert_ok EUnsigned (Z.to_N (Z.min 32 (n + 1))) _ EInt A1 (prim_ok EUnsigned (Z.min 32 (n + 1)) ltac:(lia))) by auto.
  cbn [osize]. rewrite word_ok by lia. rewrite Z2N.id by lia. unfold cap. set (s := if Z.min 32 (n + 1) + 1 >? 32 then 32 else Z.min 32 (n + 1) + 1).
  assert (s = Z.min 32 (n + 2)) as Es by (unfold s; destruct (Z.gtb_spec (Z.min 32 (n + 1) + 1) 32); lia). rewrite Es. clear s Es. change (Z.of_N (Z.to_N 3)) with 3.
  unfold opsize, atmost. set (s := if Z.max (Z.min 32 (n + 2)) 3 >=? 32 then 32 else Z.max (Z.min 32 (n + 2)) 3). assert (s = Z.min 32 (n + 2)) as Es by (unfold s; destruct (Z.geb_spec (Z.max (Z.min 32 (n + 2)) 3) 32); lia). rewrite Es. clear s Es.
  cbn [bind ty_bits prim apply_op]. unfold asValue, to, U. cbn [n_v ty_enum]. assert (Z.quot (2 ^ n - 1) 2 = mid n) as ->. { rewrite Z.quot_div_nonneg by lia. unfold mid. symmetry. apply (Z.div_unique_pos _ _ _ 1); lia. }
  pose proof (pow_le (n - 1) (Z.min 32 (n + 2) - 1) ltac:(lia)). assert (1 <= 2 ^ (n - 1)) by (apply (pow_le 0); lia).
  rewrite !(clamp_in EInt (Z.min 32 (n + 2)) (mid n)) by (unfold mid; cbn [minof maxof]; lia). cbn [ty_enum prim]. rewrite !(clamp_in EInt (Z.min 32 (n + 2)) (mid n)) by (unfold mid; cbn [minof maxof]; lia). rewrite (clamp_in EUnsigned n (mid n)) by (unfold mid; cbn [minof maxof]; lia). reflexivity.
Qed.
Lemma lower_ok : cVALUE_LOWER_CUT n d = Some (U n (lower n d)).
Proof.
  unfold cVALUE_LOWER_CUT. rewrite mid_ok, spread_ok. cbn [bind]. unfold U. rewrite binop_same by (auto; lia). cbn [bind]. unfold asValue, to, U. cbn [n_v apply_op]. rewrite size_sub by lia.
  pose proof (pow31 n Hn). pose proof (pow_split n ltac:(lia)). pose proof (pow_le n (Z.min 32 (n + 1)) ltac:(lia)). assert (1 <= 2 ^ d) by (apply (pow_le 0); lia). rewrite !clampU by lia. unfold lower, mid. f_equal. f_equal. lia.
Qed.
Lemma upper_ok : cVALUE_UPPER_CUT n d = Some (U n (upper n d)).
Proof.
  unfold cVALUE_UPPER_CUT. rewrite mid_ok, spread_ok. cbn [bind]. unfold U. rewrite binop_same by (auto; lia). cbn [bind]. unfold asValue, to, U. cbn [n_v apply_op]. rewrite size_add by lia. replace (Z.max n n) with n by lia.
  pose proof (pow31 n Hn). pose proof (pow_split n ltac:(lia)). pose proof (pow_le n (Z.min 32 (n + 1)) ltac:(lia)). assert (1 <= 2 ^ d) by (apply (pow_le 0); lia). rewrite !clampU by lia. unfold upper, mid. f_equal. f_equal. lia.
Qed.
Definition fits (v : Z) : Prop := 0 <= v <= 2 ^ n - 1.
Lemma isLess_ok a b : fits a -> fits b -> isLess n d a b = Some (if a <? b then b - a <? lower n d else a - b >=? upper n d).
Proof.
  unfold fits. intros Ha Hb. unfold isLess, value, U. pose proof (pow31 n Hn). pose proof (pow_le n (Z.min 32 (n + 1)) ltac:(lia)).
  destruct (Z.ltb_spec a b); rewrite binop_same by (auto; lia); cbn [bind]; [rewrite lower_ok|rewrite upper_ok]; unfold U; cbn [bind n_v apply_op]; rewrite size_sub by lia; rewrite clamp_in by (cbn [minof maxof]; lia); reflexivity.
Qed.
Lemma incr_ok v k : fits v -> fits k -> incrementBy n v k = Some ((v + k) mod (2 ^ n - 1)).
Proof.
  unfold fits. intros Hv Hk. pose proof (pow31 n Hn). unfold incrementBy, value, to, U. cbn [n_v]. change (2 ^ 31) with 2147483648 in *.
  rewrite (clamp_in EUnsigned 32) by (cbn [minof maxof]; change (2 ^ 32) with 4294967296; lia). rewrite binop_same by (auto; lia). cbn [bind apply_op]. rewrite size_add by lia. replace (Z.min 32 (Z.max 32 n + 1)) with 32 by lia.
  rewrite (clamp_in EUnsigned 32) by (cbn [minof maxof]; change (2 ^ 32) with 4294967296; lia). cbn [maxof]. rewrite binop_rem by (auto; lia). cbn [bind]. unfold asValue, to. cbn [n_v]. rewrite Z.rem_mod_nonneg by lia.
  pose proof (Z.mod_pos_bound (v + k) (2 ^ n - 1) ltac:(lia)). replace (Z.max 32 n) with 32 by lia. rewrite (clamp_in EUnsigned 32) by (cbn [minof maxof]; change (2 ^ 32) with 4294967296; lia). rewrite !(clamp_in EUnsigned n ((v + k) mod (2 ^ n - 1))) by (cbn [minof maxof]; lia). reflexivity.
Qed.
Lemma decr_ok v k : fits v -> fits k -> decrementBy n v k = Some ((v - k) mod (2 ^ n - 1)).
Proof.
  unfold fits. intros Hv Hk. pose proof (pow31 n Hn). unfold decrementBy, value, U. rewrite binop_same by (auto; lia). cbn [bind apply_op]. unfold asValue, to. cbn [n_v maxof]. rewrite size_sub by lia. pose proof (pow_le n (Z.min 32 (n + 1)) ltac:(lia)).
  rewrite (clamp_in EUnsigned (Z.min 32 (n + 1)) (2 ^ n - 1 - k)), (clamp_in EUnsigned n (2 ^ n - 1 - k)) by (cbn [minof maxof]; lia). rewrite incr_ok by (unfold fits; lia). replace (v + (2 ^ n - 1 - k)) with ((v - k) + 1 * (2 ^ n - 1)) by lia. rewrite Z.mod_add by lia. reflexivity.
Qed.
End P.

(* ---- the counter ---- *)
(* Counters that are not at the greatest value of their type run through the numbers below it, in both directions. *)
Theorem C88_cycle_partial : forall n v k, 1 <= n <= 31 -> 0 <= v < 2 ^ n - 1 -> 0 <= k <= 2 ^ n - 1 ->
  incrementBy n v k = Some ((v + k) mod (2 ^ n - 1)) /\ decrementBy n v k = Some ((v - k) mod (2 ^ n - 1)) /\
  (exists w, incrementBy n v k = Some w /\ 0 <= w < 2 ^ n - 1 /\ decrementBy n w k = Some v) /\ (exists w, decrementBy n v k = Some w /\ 0 <= w < 2 ^ n - 1 /\ incrementBy n w k = Some v).
Proof.
  intros n v k Hn Hv Hk. pose proof (pow31 n Hn). assert (forall x, 0 <= x mod (2 ^ n - 1) < 2 ^ n - 1) as HM by (intros; apply Z.mod_pos_bound; lia).
  rewrite (incr_ok n Hn v k), (decr_ok n Hn v k) by (unfold fits; lia). split; auto. split; auto. split.
  - eexists. split; [reflexivity|]. split; [apply HM|]. specialize (HM (v + k)). rewrite (decr_ok n Hn) by (unfold fits; lia). f_equal. rewrite Zminus_mod_idemp_l. replace (v + k - k) with v by lia. apply Z.mod_small. lia.
  - eexists. split; [reflexivity|]. split; [apply HM|]. specialize (HM (v - k)). rewrite (incr_ok n Hn) by (unfold fits; lia). f_equal. rewrite Zplus_mod_idemp_l. replace (v - k + k) with v by lia. apply Z.mod_small. lia.
Qed.
Print Assumptions C88_cycle_partial.

(* The greatest value of the type is not among the values that counting comes to, and a counter set to it does not go on to 0. *)
Theorem C88_range_refuted : forall n, 2 <= n <= 31 ->
  (forall v k, 0 <= v <= 2 ^ n - 1 -> 0 <= k <= 2 ^ n - 1 -> incrementBy n v k <> Some (2 ^ n - 1)) /\
  increment n (2 ^ n - 1) = Some 1 /\ increment n (2 ^ n - 2) = Some 0 /\ (exists w, increment n (2 ^ n - 1) = Some w /\ decrement n w <> Some (2 ^ n - 1)).
Proof.
  intros n Hn. pose proof (pow31 n ltac:(lia)). assert (4 <= 2 ^ n) by (change 4 with (2 ^ 2); apply Z.pow_le_mono_r; lia). split.
  - intros v k Hv Hk. rewrite incr_ok by (unfold fits; lia). pose proof (Z.mod_pos_bound (v + k) (2 ^ n - 1) ltac:(lia)). intros [= E]. lia.
  - assert (increment n (2 ^ n - 1) = Some 1) as E1. { unfold increment. rewrite incr_ok by (unfold fits; lia). f_equal. replace (2 ^ n - 1 + 1) with (1 + 1 * (2 ^ n - 1)) by lia. rewrite Z.mod_add by lia. apply Z.mod_small. lia. }
    split; auto. split. { unfold increment. rewrite incr_ok by (unfold fits; lia). f_equal. replace (2 ^ n - 2 + 1) with (2 ^ n - 1) by lia. apply Z.mod_same. lia. }
    exists 1. split; auto. unfold decrement. rewrite decr_ok by (unfold fits; lia). replace (1 - 1) with 0 by lia. rewrite Z.mod_0_l by lia. intros [= E]. lia.
Qed.
Print Assumptions C88_range_refuted.

(* ---- the order ---- *)
(* Without a dead band, of two different counters exactly one is less; a counter is not less than itself. *)
Theorem C88_order : forall n a b, 2 <= n <= 31 -> 0 <= a <= 2 ^ n - 1 -> 0 <= b <= 2 ^ n - 1 ->
  (a <> b -> exists l, isLess n 0 a b = Some l /\ isLess n 0 b a = Some (negb l) /\ isGreater n 0 b a = Some l /\ isLessEqual n 0 a b = Some l /\ isGreaterEqual n 0 a b = Some (negb l)) /\
  isLess n 0 a a = Some false /\ isGreater n 0 a a = Some false /\ isLessEqual n 0 a a = Some true /\ isGreaterEqual n 0 a a = Some true.
Proof.
  intros n a b Hn Ha Hb. pose proof (pow31 n ltac:(lia)). pose proof (pow_split n ltac:(lia)). assert (2 <= 2 ^ (n - 1)) by (apply (pow_le 1); lia).
  assert (lower n 0 = mid n) as EL by (unfold lower, mid; cbn; lia). assert (upper n 0 = mid n) as EU by (unfold upper, mid; cbn; lia).
  assert (forall x y, fits n x -> fits n y -> isLess n 0 x y = Some (if x <? y then y - x <? mid n else x - y >=? mid n)) as HL by (intros; rewrite isLess_ok by (auto; lia); rewrite EL, EU; reflexivity).
  unfold isLessEqual, isGreaterEqual, isGreater, isEqual. rewrite !HL by (unfold fits; lia). rewrite !Z.eqb_refl. cbn [negb bind]. unfold mid. split.
  - intros HN. eexists. split; [reflexivity|]. assert ((b =? a) = false /\ (a =? b) = false) as [-> ->] by lia. cbn [negb bind]. try rewrite HL by (unfold fits; lia). unfold mid. cbn [bind]. destruct (Z.ltb_spec a b), (Z.ltb_spec b a); try lia; repeat split; try (f_equal; lia); auto; rewrite ?negb_involutive; f_equal; lia.
  - rewrite Z.ltb_irrefl. repeat split; f_equal; lia.
Qed.
Print Assumptions C88_order.

(* A counter of three or more bits is less than what it becomes by counting on, fewer than half way round; and greater than what it
   becomes by counting back. *)
Theorem C88_ahead_partial : forall n v k, 3 <= n <= 31 -> 0 <= v < 2 ^ n - 1 -> 1 <= k < 2 ^ (n - 1) - 1 ->
  exists w, incrementBy n v k = Some w /\ isLess n 0 v w = Some true /\ isLess n 0 w v = Some false /\
  exists u, decrementBy n v k = Some u /\ isLess n 0 u v = Some true /\ isGreater n 0 v u = Some true.
Proof.
  intros n v k Hn Hv Hk. pose proof (pow31 n ltac:(lia)). pose proof (pow_split n ltac:(lia)). assert (4 <= 2 ^ (n - 1)) by (apply (pow_le 2); lia).
  assert (lower n 0 = mid n) as EL by (unfold lower, mid; cbn; lia). assert (upper n 0 = mid n) as EU by (unfold upper, mid; cbn; lia).
  assert (forall x y, fits n x -> fits n y -> isLess n 0 x y = Some (if x <? y then y - x <? mid n else x - y >=? mid n)) as HL by (intros; rewrite isLess_ok by (auto; lia); rewrite EL, EU; reflexivity).
  set (M := 2 ^ n - 1) in *. assert (forall x, 0 <= x mod M < M) as HM by (intros; apply Z.mod_pos_bound; lia).
  assert ((v + k) mod M = v + k \/ (v + k) mod M = v + k - M) as E1. { destruct (Z_lt_le_dec (v + k) M); [left; apply Z.mod_small; lia|right]. rewrite <- (Z.mod_small (v + k - M) M) by lia. replace (v + k) with (v + k - M + 1 * M) at 1 by lia. rewrite Z.mod_add by lia. reflexivity. }
  assert ((v - k) mod M = v - k \/ (v - k) mod M = v - k + M) as E2. { destruct (Z_lt_le_dec (v - k) 0); [right|left; apply Z.mod_small; lia]. rewrite <- (Z.mod_small (v - k + M) M) by lia. replace (v - k) with (v - k + M + (-1) * M) at 1 by lia. rewrite Z.mod_add by lia. reflexivity. }
  pose proof (HM (v + k)) as M1. pose proof (HM (v - k)) as M2. rewrite (incr_ok n ltac:(lia) v k) by (unfold fits; fold M; lia). fold M. eexists. split; [reflexivity|]. set (w := (v + k) mod M) in *. clearbody w. rewrite !HL by (unfold fits; fold M; lia). unfold mid.
  split. { f_equal. destruct (Z.ltb_spec v w); lia. } split. { f_equal. destruct (Z.ltb_spec w v); lia. }
  rewrite (decr_ok n ltac:(lia) v k) by (unfold fits; fold M; lia). fold M. eexists. split; [reflexivity|]. set (u := (v - k) mod M) in *. clearbody u. unfold isGreater, isEqual. assert ((v =? u) = false) as -> by lia. cbn [negb]. rewrite !HL by (unfold fits; fold M; lia). unfold mid. cbn [bind].
  split; f_equal; destruct (Z.ltb_spec u v), (Z.ltb_spec v u); lia.
Qed.
Print Assumptions C88_ahead_partial.
(* not so with two bits *)
Theorem C88_two_bits_refuted : increment 2 0 = Some 1 /\ isLess 2 0 0 1 = Some false /\ isGreater 2 0 0 1 = Some true /\ isLess 2 0 1 0 = Some true.
Proof. vm_compute. auto. Qed.
Print Assumptions C88_two_bits_refuted.

(* ---- the dead band ---- *)
(* isComparable never says no *)
Theorem C88_dead_refuted : forall n d a b, 1 <= n <= 31 -> 0 <= d <= 16 -> 0 <= a <= 2 ^ n - 1 -> 0 <= b <= 2 ^ n - 1 -> isComparable n d a b = Some true.
Proof.
  intros n d a b Hn Hd Ha Hb. unfold isComparable, isGreaterEqual. rewrite (isLess_ok n d Hn Hd) by (unfold fits; lia). cbn [bind]. destruct (if a <? b then _ else _); reflexivity.
Qed.
Print Assumptions C88_dead_refuted.
(* and in the band each of the two counters is greater than the other *)
Theorem C88_dead_both_greater : forall n d a b, 1 <= n <= 31 -> 0 <= d <= 16 -> 0 <= a < b -> b <= 2 ^ n - 1 -> lower n d <= b - a < upper n d ->
  isGreater n d a b = Some true /\ isGreater n d b a = Some true.
Proof.
  intros n d a b Hn Hd Ha Hb HB. unfold isGreater, isEqual. assert ((a =? b) = false /\ (b =? a) = false) as [-> ->] by lia. cbn [negb]. rewrite !(isLess_ok n d Hn Hd) by (unfold fits; lia). cbn [bind]. split; f_equal; destruct (Z.ltb_spec a b), (Z.ltb_spec b a); lia.
Qed.
Print Assumptions C88_dead_both_greater.
(* outside of it exactly one is less *)
Theorem C88_outside_partial : forall n d a b, 1 <= n <= 31 -> 0 <= d <= 16 -> 0 <= a < b -> b <= 2 ^ n - 1 -> ~ lower n d <= b - a < upper n d ->
  exists l, isLess n d a b = Some l /\ isLess n d b a = Some (negb l) /\ (l = true <-> b - a < lower n d).
Proof.
  intros n d a b Hn Hd Ha Hb HB. rewrite !(isLess_ok n d Hn Hd) by (unfold fits; lia). eexists. split; [reflexivity|].
  assert (lower n d <= upper n d). { unfold lower, upper, mid. pose proof (pow_split n ltac:(lia)). assert (1 <= 2 ^ d) by (apply (pow_le 0); lia). assert (1 <= 2 ^ (n - 1)) by (apply (pow_le 0); lia). lia. }
  assert ((a <? b) = true /\ (b <? a) = false) as [-> ->] by lia. split; [f_equal; lia|lia].
Qed.
Print Assumptions C88_outside_partial.

(* the value of u++ is the counter after, not before *)
Theorem C88_postfix_refuted : exists n v after e, 3 <= n <= 31 /\ 0 <= v < 2 ^ n - 1 /\ postIncr n v = Some (after, e) /\ after = v + 1 /\ e <> v.
Proof. exists 8, 5, 6, 6. vm_compute. repeat split; discriminate. Qed.
Print Assumptions C88_postfix_refuted.

(* a counter of 8 bits with 3 dead bits *)
Example C88_ex : increment 8 253 = Some 254 /\ increment 8 254 = Some 0 /\ decrement 8 0 = Some 254 /\ isOneLessThan 8 254 0 = Some true /\ isLess 8 3 250 4 = Some true /\ isLess 8 3 4 250 = Some false /\
  lower 8 3 = 120 /\ upper 8 3 = 134 /\ isGreater 8 3 0 125 = Some true /\ isGreater 8 3 125 0 = Some true /\ isComparable 8 3 0 125 = Some true.
Proof. vm_compute. repeat split. Qed.
