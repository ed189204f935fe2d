(* CrcTheorems.v: C91. *)
From Coq Require Import List NArith ZArith Lia Bool.
From Coq Require Import ZifyBool ZifyNat ZifyN.
From Verif Require Import CrcModel CrcSpec.
Import ListNotations.
Open Scope N_scope.

(* ---- the register ---- *)
Lemma poly_val : poly = 3988292384. Proof. reflexivity. Qed.
Lemma div2_lxor a b : N.div2 (N.lxor a b) = N.lxor (N.div2 a) (N.div2 b).
Proof. rewrite !N.div2_spec. apply N.shiftr_lxor. Qed.
Lemma odd_lxor a b : N.odd (N.lxor a b) = xorb (N.odd a) (N.odd b).
Proof. rewrite <- !N.bit0_odd. apply N.lxor_spec. Qed.
Lemma shift1_lxor a b : shift1 (N.lxor a b) = N.lxor (shift1 a) (shift1 b).
Proof.
  unfold shift1. rewrite odd_lxor, div2_lxor. destruct (N.odd a), (N.odd b); cbn [xorb].
  - rewrite (N.lxor_comm (N.div2 b)), N.lxor_assoc, <- (N.lxor_assoc poly), N.lxor_nilpotent, N.lxor_0_l. reflexivity.
  - rewrite !N.lxor_assoc, (N.lxor_comm poly). reflexivity.
  - rewrite N.lxor_assoc. reflexivity.
  - reflexivity.
Qed.
Lemma iter_S n (f : N -> N) x : Nat.iter (S n) f x = f (Nat.iter n f x). Proof. reflexivity. Qed.
Lemma iter_lxor n a b : Nat.iter n shift1 (N.lxor a b) = N.lxor (Nat.iter n shift1 a) (Nat.iter n shift1 b).
Proof. induction n; [reflexivity|]. rewrite !iter_S, IHn. apply shift1_lxor. Qed.
Lemma lt_pow_testbit a n : (forall i, n <= i -> N.testbit a i = false) -> a < 2 ^ n.
Proof.
  intros H. destruct (N.eq_dec a 0) as [->|Ha]. { apply N.neq_0_lt_0, N.pow_nonzero. discriminate. }
  destruct (N.lt_ge_cases (N.log2 a) n) as [L|L]. { apply N.log2_lt_pow2; lia. }
  pose proof (H _ L) as Hb. rewrite N.bit_log2 in Hb by assumption. discriminate.
Qed.
Lemma testbit_lt a n i : a < 2 ^ n -> n <= i -> N.testbit a i = false.
Proof.
  intros H L. destruct (N.eq_dec a 0) as [->|Ha]. { apply N.bits_0. }
  apply N.bits_above_log2. apply N.log2_lt_pow2 in H; lia.
Qed.
Lemma lxor_lt a b n : a < 2 ^ n -> b < 2 ^ n -> N.lxor a b < 2 ^ n.
Proof. intros H1 H2. apply lt_pow_testbit. intros i Hi. rewrite N.lxor_spec, (testbit_lt a n i), (testbit_lt b n i) by assumption. reflexivity. Qed.
Lemma shift1_lt a : a < 2 ^ 32 -> shift1 a < 2 ^ 32.
Proof.
  intros H. assert (N.div2 a < 2 ^ 32) by (rewrite N.div2_div; pose proof (N.div_le_upper_bound a 2 a); lia).
  unfold shift1. destruct (N.odd a); [apply lxor_lt; [assumption|reflexivity]|assumption].
Qed.
Lemma iter_lt n a : a < 2 ^ 32 -> Nat.iter n shift1 a < 2 ^ 32.
Proof. intros. induction n; [assumption|]. rewrite iter_S. apply shift1_lt; assumption. Qed.
(* no step loses anything *)
Lemma shift1_zero a : a < 2 ^ 32 -> shift1 a = 0 -> a = 0.
Proof.
  intros H E. unfold shift1 in E. destruct (N.odd a) eqn:O.
  - exfalso. apply N.lxor_eq in E. rewrite poly_val in E. rewrite N.div2_div in E.
    change (2 ^ 32) with 4294967296 in H. pose proof (N.div_mod a 2). pose proof (N.mod_lt a 2). lia.
  - pose proof (N.div2_odd a) as D. rewrite E, O in D. cbn in D. exact D.
Qed.
Lemma iter_zero n a : a < 2 ^ 32 -> Nat.iter n shift1 a = 0 -> a = 0.
Proof. induction n; intros H E; [exact E|]. rewrite iter_S in E. apply IHn; [assumption|]. apply shift1_zero; [|assumption]. apply iter_lt. assumption. Qed.
Lemma shift1_double y : shift1 (2 * y) = y.
Proof. unfold shift1. rewrite N.odd_mul. cbn [N.odd andb]. rewrite N.div2_double. reflexivity. Qed.
Lemma iter8_shift y : Nat.iter 8 shift1 (256 * y) = y.
Proof.
  replace (256 * y) with (2 * (2 * (2 * (2 * (2 * (2 * (2 * (2 * y)))))))) by lia.
  cbn [Nat.iter nat_rect]. rewrite !shift1_double. reflexivity.
Qed.

(* ---- the table ---- *)
Definition tabOk : bool := forallb (fun k => nth k crc_32_tab 0 =? Nat.iter 8 shift1 (N.of_nat k)) (seq 0 256).
Lemma tab_ok : tabOk = true. Proof. vm_compute. reflexivity. Qed.
Lemma tab_nth k : k < 256 -> nth (N.to_nat k) crc_32_tab 0 = Nat.iter 8 shift1 k.
Proof.
  intros H. pose proof tab_ok as T. unfold tabOk in T. rewrite forallb_forall in T.
  specialize (T (N.to_nat k)). rewrite in_seq in T. apply N.eqb_eq in T; [|lia]. rewrite T, N2Nat.id. reflexivity.
Qed.
Lemma lxor_split x : N.lxor (256 * N.shiftr x 8) (N.land x 255) = x.
Proof.
  apply N.bits_inj. intros i. rewrite N.lxor_spec. change 255 with (N.ones 8). rewrite N.land_ones.
  change 256 with (2 ^ 8). rewrite N.mul_comm, <- N.shiftl_mul_pow2.
  destruct (N.lt_ge_cases i 8) as [L|L].
  - rewrite N.shiftl_spec_low, N.mod_pow2_bits_low by assumption. apply xorb_false_l.
  - rewrite N.shiftl_spec_high', N.shiftr_spec', N.mod_pow2_bits_high by assumption. rewrite xorb_false_r. f_equal. lia.
Qed.
Lemma land255_lt x : N.land x 255 < 256.
Proof. change 255 with (N.ones 8). rewrite N.land_ones. apply N.mod_lt. discriminate. Qed.
Lemma UPDC32_step b c : b < 256 -> UPDC32 b c = step c b.
Proof.
  intros H. unfold UPDC32, step. rewrite (N.mod_small b 256) by assumption. set (x := N.lxor c b).
  rewrite tab_nth by apply land255_lt. rewrite <- (lxor_split x) at 2. rewrite iter_lxor, iter8_shift, N.lxor_comm. f_equal.
  unfold x. rewrite N.shiftr_lxor. replace (N.shiftr b 8) with 0; [rewrite N.lxor_0_r; reflexivity|].
  symmetry. rewrite N.shiftr_div_pow2. apply N.div_small. assumption.
Qed.

(* ---- the bytes ---- *)
Lemma b2n_le (b : bool) : N.b2n b <= 1. Proof. destruct b; cbn; lia. Qed.
Lemma read_lt st pos n : read st pos n < 2 ^ N.of_nat n.
Proof.
  induction n; [reflexivity|]. cbn [read]. rewrite Nat2N.inj_succ, N.pow_succ_r'. pose proof (b2n_le (st (pos + N.of_nat n))). lia.
Qed.
Lemma byte_at_lt st len pos : byte_at st len pos < 256.
Proof.
  unfold byte_at. cbn [fold_left].
  repeat match goal with |- context [N.b2n ?b] => generalize (b2n_le b); generalize (N.b2n b); intros end. lia.
Qed.
Lemma read8 st len pos : pos + 8 <= len -> read st pos 8 = byte_at st len pos.
Proof.
  intros H. unfold byte_at, bit_at. cbn [fold_left read]. 
  repeat match goal with |- context [?a <? len] => replace (a <? len) with true by lia end. cbn [andb N.of_nat Pos.of_succ_nat Pos.succ]. lia.
Qed.
Lemma read_rest st len pos : pos < len -> len < pos + 8 ->
  N.shiftl (read st pos (N.to_nat (len - pos))) (8 - (len - pos)) mod 256 = byte_at st len pos.
Proof.
  intros H1 H2. assert (exists k, len = pos + N.of_nat k /\ (k < 8)%nat /\ (k <> 0)%nat) as (k & -> & Hk & Hk0).
  { exists (N.to_nat (len - pos)). lia. }
  replace (pos + N.of_nat k - pos) with (N.of_nat k) by lia. rewrite Nat2N.id, N.shiftl_mul_pow2.
  pose proof (byte_at_lt st (pos + N.of_nat k) pos) as Hb. rewrite N.mod_small.
  - unfold byte_at, bit_at.
    do 8 (destruct k as [|k]; [try lia; cbn [fold_left read N.of_nat Pos.of_succ_nat Pos.succ];
       repeat match goal with |- context [?a <? ?b] => first [replace (a <? b) with true by lia | replace (a <? b) with false by lia] end;
       cbn [andb N.b2n]; match goal with |- context [2 ^ ?e] => let v := eval vm_compute in (2 ^ e) in change (2 ^ e) with v end; lia|]). lia.
  - pose proof (read_lt st pos k). assert (2 ^ N.of_nat k * 2 ^ (8 - N.of_nat k) = 256).
    { rewrite <- N.pow_add_r. replace (N.of_nat k + (8 - N.of_nat k)) with 8 by lia. reflexivity. }
    assert (0 < 2 ^ (8 - N.of_nat k)) by (apply N.neq_0_lt_0, N.pow_nonzero; discriminate). nia.
Qed.

(* ---- the loop ---- *)
Lemma crcLoop_eq fuel st len : forall pos c, (N.to_nat (len - pos) < fuel)%nat -> pos <= len ->
  let k := N.to_nat ((len - pos) / 8) in
  crcLoop fuel st len pos c = (pos + 8 * ((len - pos) / 8), crc c (map (fun k => byte_at st len (pos + 8 * N.of_nat k)) (seq 0 k))).
Proof.
  induction fuel; intros pos c Hf Hp k; [lia|]. cbn [crcLoop]. destruct (N.leb_spec (pos + 8) len) as [L|L].
  - rewrite IHfuel by lia. assert (Hd : (len - pos) / 8 = 1 + (len - (pos + 8)) / 8).
    { replace (len - pos) with ((len - (pos + 8)) + 1 * 8) by lia. rewrite N.div_add by discriminate. lia. }
    f_equal; [lia|]. unfold k. rewrite Hd. replace (N.to_nat (1 + (len - (pos + 8)) / 8)) with (S (N.to_nat ((len - (pos + 8)) / 8))) by lia.
    cbn [seq map]. rewrite <- seq_shift, map_map. unfold crc. cbn [fold_left].
    change (N.of_nat 0) with 0. rewrite N.mul_0_r, N.add_0_r. rewrite read8 with (len := len) by assumption. rewrite UPDC32_step by apply byte_at_lt.
    f_equal. apply map_ext. intros a. f_equal. lia.
  - unfold k. rewrite N.div_small by lia. cbn. f_equal. lia.
Qed.

Theorem C91_crc : forall st len, computeChecksum st len = crc (2 ^ 32 - 1) (bytes st len).
Proof.
  intros st len. unfold computeChecksum, bytes. rewrite crcLoop_eq by lia. rewrite N.sub_0_r, N.add_0_l.
  pose proof (N.div_mod len 8 ltac:(discriminate)) as D. pose proof (N.mod_lt len 8 ltac:(discriminate)) as M.
  set (q := len / 8) in *. change 4294967295 with (2 ^ 32 - 1). destruct (N.ltb_spec (8 * q) len) as [L|L].
  - replace ((len + 7) / 8) with (q + 1). 2:{ apply (N.div_unique _ _ _ (len mod 8 - 1)); lia. }
    rewrite read_rest by lia. rewrite UPDC32_step by apply byte_at_lt.
    replace (N.to_nat (q + 1)) with (N.to_nat q + 1)%nat by lia. rewrite seq_app, map_app. unfold crc. rewrite fold_left_app. cbn [fold_left seq map].
    match goal with |- step ?a ?b = step ?c ?d => replace d with b; [reflexivity|] end. f_equal; lia.
  - replace ((len + 7) / 8) with q. 2:{ apply (N.div_unique _ _ _ 7); lia. }
    reflexivity.
Qed.
Print Assumptions C91_crc.

(* ---- what a checksum tells apart ---- *)
Lemma step_lt c b : c < 2 ^ 32 -> b < 256 -> step c b < 2 ^ 32.
Proof. intros. apply iter_lt. apply lxor_lt; [assumption|]. change (2 ^ 32) with 4294967296. lia. Qed.
Lemma crc_lt bs : forall c, c < 2 ^ 32 -> Forall (fun b => b < 256) bs -> crc c bs < 2 ^ 32.
Proof. induction bs; intros c H F; [exact H|]. inversion F; subst. apply IHbs; [apply step_lt|]; assumption. Qed.
Lemma step_diff c c' b b' : N.lxor (step c b) (step c' b') = step (N.lxor c c') (N.lxor b b').
Proof.
  unfold step. rewrite <- iter_lxor. f_equal. rewrite !N.lxor_assoc. f_equal. rewrite <- !N.lxor_assoc. f_equal. apply N.lxor_comm.
Qed.
Lemma lxor_byte a b : a < 256 -> b < 256 -> N.lxor a b < 256.
Proof. change 256 with (2 ^ 8). apply lxor_lt. Qed.
Lemma step_inj c c' b : c < 2 ^ 32 -> c' < 2 ^ 32 -> step c b = step c' b -> c = c'.
Proof.
  intros H H' E. apply N.lxor_eq. apply N.lxor_eq_0_iff in E. rewrite step_diff, N.lxor_nilpotent in E. unfold step in E.
  rewrite N.lxor_0_r in E. apply iter_zero in E; [assumption|]. apply lxor_lt; assumption.
Qed.
Lemma crc_inj bs : forall c c', c < 2 ^ 32 -> c' < 2 ^ 32 -> Forall (fun b => b < 256) bs -> crc c bs = crc c' bs -> c = c'.
Proof.
  induction bs; intros c c' H H' F E; [exact E|]. inversion F; subst. apply (step_inj c c' a); [assumption..|].
  apply IHbs; [apply step_lt; assumption..|assumption|exact E].
Qed.
(* the difference of two runs is the run of the differences *)
Definition diffs (p : list (N * N)) : list N := map (fun q => N.lxor (fst q) (snd q)) p.
Lemma crc_diff p : forall c c', N.lxor (crc c (map fst p)) (crc c' (map snd p)) = crc (N.lxor c c') (diffs p).
Proof. induction p as [|[b b'] p IH]; intros; [reflexivity|]. cbn [map diffs crc fold_left fst snd]. fold (crc (step c b)). 
  unfold crc in *. cbn [fold_left]. rewrite IH, step_diff. reflexivity. Qed.
Lemma crc_app c a b : crc c (a ++ b) = crc (crc c a) b. Proof. apply fold_left_app. Qed.
Lemma crc_four ds : forall m y, Forall (fun d => d < 256) ds -> (m + length ds <= 4)%nat -> y < 2 ^ (8 * N.of_nat m) -> crc 0 ds = y ->
  y = 0 /\ Forall (fun d => d = 0) ds.
Proof.
  induction ds as [|d ds IH] using rev_ind; intros m y F L Hy E. { split; [symmetry; exact E|constructor]. }
  apply Forall_app in F as (F & Fd). inversion Fd as [|? ? Hd _]; subst. rewrite app_length in L. cbn [length] in L.
  rewrite crc_app in *. set (s := crc 0 ds) in *. assert (Hs : s < 2 ^ 32) by (apply crc_lt; [reflexivity|assumption]).
  change (crc s [d]) with (step s d) in *. remember (step s d) as y eqn:E.
  assert (y < 2 ^ 24). { eapply N.lt_le_trans; [exact Hy|]. apply N.pow_le_mono_r; [discriminate|lia]. }
  assert (Es : N.lxor s d = 256 * y).
  { apply N.lxor_eq. apply (iter_zero 8).
    - apply lxor_lt; [apply lxor_lt; [assumption|]|]; change (2 ^ 32) with 4294967296; change (2 ^ 24) with 16777216 in *; lia.
    - rewrite iter_lxor, iter8_shift. fold (step s d). rewrite <- E. apply N.lxor_nilpotent. }
  assert (Es' : s = N.lxor (256 * y) d). { rewrite <- Es, N.lxor_assoc, N.lxor_nilpotent, N.lxor_0_r. reflexivity. }
  destruct (IH (S m) s F ltac:(lia)) as (Z & Fz); [|reflexivity|].
  - rewrite Es'. replace (8 * N.of_nat (S m)) with (8 + 8 * N.of_nat m) by lia. apply lxor_lt; rewrite N.pow_add_r; change (2 ^ 8) with 256.
    + nia.
    + assert (0 < 2 ^ (8 * N.of_nat m)) by (apply N.neq_0_lt_0, N.pow_nonzero; discriminate). nia.
  - rewrite Z in Es. rewrite N.lxor_0_l in Es. assert (y = 0 /\ d = 0) as (-> & ->) by lia. split; [reflexivity|].
    apply Forall_app. split; [assumption|]. constructor; [reflexivity|constructor].
Qed.
Lemma crc_mid c p : (length p <= 4)%nat -> Forall (fun q => fst q < 256 /\ snd q < 256) p -> crc c (map fst p) = crc c (map snd p) ->
  Forall (fun q => fst q = snd q) p.
Proof.
  intros L F E. apply N.lxor_eq_0_iff in E. rewrite crc_diff, N.lxor_nilpotent in E.
  destruct (crc_four (diffs p) 0 0) as (_ & Z).
  - unfold diffs. apply Forall_map. eapply Forall_impl; [|exact F]. intros [a b] (? & ?). apply lxor_byte; assumption.
  - unfold diffs. rewrite map_length. lia.
  - reflexivity.
  - exact E.
  - unfold diffs in Z. apply Forall_map in Z. eapply Forall_impl; [|exact Z]. intros [a b] Hz. apply N.lxor_eq. exact Hz.
Qed.
Lemma crc_window (f f' : nat -> N) n i : (forall k, f k < 256) -> (forall k, f' k < 256) ->
  (forall k, (k < n)%nat -> f k <> f' k -> (i <= k < i + 4)%nat) ->
  crc (2 ^ 32 - 1) (map f (seq 0 n)) = crc (2 ^ 32 - 1) (map f' (seq 0 n)) -> forall k, (k < n)%nat -> f k = f' k.
Proof.
  intros Hf Hf' W E. set (a := Nat.min i n). set (b := Nat.min 4 (n - a)). set (c := (n - a - b)%nat).
  replace n with (a + (b + c))%nat in E by lia. rewrite !seq_app, !map_app, !crc_app in E. cbn [Nat.add] in E.
  replace (map f' (seq 0 a)) with (map f (seq 0 a)) in E.
  2:{ apply map_ext_in. intros k Hk. apply in_seq in Hk. destruct (N.eq_dec (f k) (f' k)) as [D|D]; [assumption|]. apply W in D; lia. }
  replace (map f' (seq (a + b) c)) with (map f (seq (a + b) c)) in E.
  2:{ apply map_ext_in. intros k Hk. apply in_seq in Hk. destruct (N.eq_dec (f k) (f' k)) as [D|D]; [assumption|]. apply W in D; lia. }
  assert (FF : forall (g : nat -> N) l, (forall k, g k < 256) -> Forall (fun b => b < 256) (map g l)).
  { intros g l Hg. apply Forall_map. apply Forall_forall. intros. apply Hg. }
  assert (Hs : crc (2 ^ 32 - 1) (map f (seq 0 a)) < 2 ^ 32) by (apply crc_lt; [reflexivity|auto]).
  apply crc_inj in E; [|apply crc_lt; auto..|auto]. set (s := crc (2 ^ 32 - 1) (map f (seq 0 a))) in *.
  pose proof (crc_mid s (map (fun k => (f k, f' k)) (seq a b))) as Hm. rewrite !map_map in Hm. cbn [fst snd] in Hm.
  rewrite map_length, seq_length in Hm. specialize (Hm ltac:(lia)).
  assert (Forall (fun q : N * N => fst q < 256 /\ snd q < 256) (map (fun k => (f k, f' k)) (seq a b))) as F2.
  { apply Forall_map. apply Forall_forall. intros. cbn. auto. }
  specialize (Hm F2 E). apply Forall_map in Hm. rewrite Forall_forall in Hm. cbn [fst snd] in Hm.
  intros k Hk. destruct (N.eq_dec (f k) (f' k)) as [D|D]; [assumption|]. pose proof (W k Hk D). apply Hm. apply in_seq. lia.
Qed.
Lemma two_b2n x y (a b : bool) : 2 * x + N.b2n a = 2 * y + N.b2n b -> x = y /\ a = b.
Proof. destruct a, b; cbn [N.b2n]; intros; split; try reflexivity; lia. Qed.
Lemma byte_at_inj st st' len pos r : byte_at st len pos = byte_at st' len pos -> r < 8 -> bit_at st len (pos + r) = bit_at st' len (pos + r).
Proof.
  intros E Hr.
  assert (r = 0 \/ r = 1 \/ r = 2 \/ r = 3 \/ r = 4 \/ r = 5 \/ r = 6 \/ r = 7) as C by (clear E; lia).
  unfold byte_at in E. cbn [fold_left] in E.
  repeat match goal with H : _ + _ = _ + _ |- _ => apply two_b2n in H; destruct H end.
  repeat (destruct C as [->|C]; [assumption|]). subst r. assumption.
Qed.
Lemma byte_at_ext st st' len pos : (forall r, r < 8 -> pos + r < len -> st (pos + r) = st' (pos + r)) -> byte_at st len pos = byte_at st' len pos.
Proof.
  intros H. assert (G : forall r, r < 8 -> bit_at st len (pos + r) = bit_at st' len (pos + r)).
  { intros r Hr. unfold bit_at. destruct (N.ltb_spec (pos + r) len); [cbn; auto|reflexivity]. }
  unfold byte_at. cbn [fold_left]. rewrite !G by lia. reflexivity.
Qed.
Lemma checksum_ext st st' len : (forall i, i < len -> st i = st' i) -> computeChecksum st len = computeChecksum st' len.
Proof. intros H. rewrite !C91_crc. f_equal. unfold bytes. apply map_ext. intros k. apply byte_at_ext. intros. apply H. assumption. Qed.

(* any change of the data within four of its bytes changes the checksum *)
Theorem C91_detect : forall st st' len i,
  (forall j, j < len -> st j <> st' j -> 8 * i <= j < 8 * i + 32) -> (exists j, j < len /\ st j <> st' j) ->
  computeChecksum st len <> computeChecksum st' len.
Proof.
  intros st st' len i W (j & Hj & Dj) E. rewrite !C91_crc in E. unfold bytes in E.
  set (n := N.to_nat ((len + 7) / 8)) in *.
  pose proof (N.div_mod (len + 7) 8 ltac:(discriminate)) as D. pose proof (N.mod_lt (len + 7) 8 ltac:(discriminate)) as M.
  pose proof (crc_window _ _ n (N.to_nat i) (fun k => byte_at_lt st len (8 * N.of_nat k)) (fun k => byte_at_lt st' len (8 * N.of_nat k))) as Hw.
  assert (forall k : nat, (k < n)%nat -> byte_at st len (8 * N.of_nat k) <> byte_at st' len (8 * N.of_nat k) -> (N.to_nat i <= k < N.to_nat i + 4)%nat) as W2.
  { intros k Hk Hne. destruct (Nat.le_gt_cases (N.to_nat i) k) as [L|L]; [destruct (Nat.lt_ge_cases k (N.to_nat i + 4)) as [L2|L2]; [lia|]|]; exfalso; apply Hne;
      apply byte_at_ext; intros r Hr Hl; destruct (bool_dec (st (8 * N.of_nat k + r)) (st' (8 * N.of_nat k + r))) as [Q|Q]; try assumption; apply W in Q; lia. }
  specialize (Hw W2 E (N.to_nat (j / 8))).
  pose proof (N.div_mod j 8 ltac:(discriminate)) as D2. pose proof (N.mod_lt j 8 ltac:(discriminate)) as M2.
  cbv beta in Hw. rewrite N2Nat.id in Hw. specialize (Hw ltac:(lia)). apply byte_at_inj with (r := j mod 8) in Hw; [|assumption].
  rewrite <- D2 in Hw. unfold bit_at in Hw. replace (j <? len) with true in Hw by lia. cbn in Hw. contradiction.
Qed.
Print Assumptions C91_detect.

(* ---- checking and updating ---- *)
Lemma read_ext st st' pos n : (forall i, pos <= i < pos + N.of_nat n -> st i = st' i) -> read st pos n = read st' pos n.
Proof. induction n; intros H; [reflexivity|]. cbn [read]. rewrite IHn, H by (try (intros; apply H); lia). reflexivity. Qed.
Lemma read_inj st st' pos n : read st pos n = read st' pos n -> forall i, pos <= i < pos + N.of_nat n -> st i = st' i.
Proof.
  induction n; intros E i Hi; [lia|]. cbn [read] in E. apply two_b2n in E as (E & Eb).
  destruct (N.eq_dec i (pos + N.of_nat n)) as [->|]; [assumption|]. apply IHn; [assumption|lia].
Qed.
Lemma read_write_gen st pos len v n : N.of_nat n <= len ->
  read (write st pos len v) pos n = N.shiftr v (len - N.of_nat n) mod 2 ^ N.of_nat n.
Proof.
  induction n as [|n IH]; intros H. { cbn. rewrite N.mod_1_r. reflexivity. }
  cbn [read]. rewrite IH by lia. unfold write. replace ((pos <=? pos + N.of_nat n) && (pos + N.of_nat n <? pos + len)) with true by lia.
  replace (pos + len - 1 - (pos + N.of_nat n)) with (len - N.of_nat (S n)) by lia.
  set (e := len - N.of_nat (S n)). replace (len - N.of_nat n) with (e + 1) by lia.
  rewrite <- N.shiftr_shiftr. set (w := N.shiftr v e). replace (N.testbit v e) with (N.testbit w 0) by (unfold w; rewrite N.shiftr_spec'; f_equal).
  rewrite Nat2N.inj_succ, N.pow_succ_r', N.shiftr_div_pow2. change (2 ^ 1) with 2.
  assert (2 ^ N.of_nat n <> 0) by (apply N.pow_nonzero; discriminate). rewrite N.mod_mul_r by (try discriminate; assumption).
  rewrite N.bit0_mod. lia.
Qed.
Lemma read_write st pos len v : read (write st pos len v) pos (N.to_nat len) = v mod 2 ^ len.
Proof. rewrite read_write_gen by lia. rewrite N2Nat.id, N.sub_diag, N.shiftr_0_r. reflexivity. Qed.
Lemma mask_eq k : k <= 32 -> N.shiftr 4294967295 (32 - k) = N.ones k.
Proof.
  intros H. change 4294967295 with (N.ones 32). apply N.bits_inj. intros i. rewrite N.shiftr_spec'.
  destruct (N.lt_ge_cases i k). { rewrite !N.ones_spec_low by lia. reflexivity. } rewrite !N.ones_spec_high by lia. reflexivity.
Qed.
Lemma mask_checksum st len chk : chk <= 32 -> N.land (computeChecksum st len) (N.shiftr 4294967295 (32 - chk)) = computeChecksum st len mod 2 ^ chk.
Proof. intros. rewrite mask_eq by assumption. apply N.land_ones. Qed.
Lemma checksum_lt st len : computeChecksum st len < 2 ^ 32.
Proof.
  rewrite C91_crc. apply crc_lt; [reflexivity|]. unfold bytes. apply Forall_map, Forall_forall. intros. apply byte_at_lt.
Qed.

(* an update succeeds exactly where the checksum has room, and then the checksum is found valid and nothing else has changed *)
Theorem C91_update : forall st size usable len chk, chk <= 32 -> usable <= size -> size < 2 ^ 32 - 1 ->
  exists st' ok, updateChecksum st size usable len chk = Some (st', ok) /\ (ok = true <-> len + chk <= usable) /\
    (ok = false -> forall i, st' i = st i) /\
    (ok = true -> isChecksumValid st' size len chk = Some true /\ forall i, i < len \/ len + chk <= i -> st' i = st i).
Proof.
  intros st size usable len chk Hc Hu Hz. unfold updateChecksum. change (2 ^ 32 - 1) with 4294967295 in Hz.
  destruct (N.ltb_spec usable (N.min (len + chk) 4294967295)) as [L|L].
  - exists st, false. split; [reflexivity|]. split; [split; [discriminate|lia]|]. split; [reflexivity|discriminate].
  - replace ((len <=? size) && (len + chk <=? size)) with true by lia. eexists _, true. split; [reflexivity|]. split; [split; [lia|reflexivity]|].
    split; [discriminate|]. intros _. split.
    + unfold isChecksumValid. replace ((len <=? size) && (len + chk <=? size)) with true by lia. f_equal. apply N.eqb_eq.
      rewrite mask_checksum, read_write by assumption. f_equal. apply checksum_ext. intros i Hi. unfold write.
      replace (len <=? i) with false by lia. reflexivity.
    + intros i Hi. unfold write. replace ((len <=? i) && (i <? len + chk)) with false by lia. reflexivity.
Qed.
Print Assumptions C91_update.

(* a checksum of chk bits is valid when the last chk digits of the register are stored after the data *)
Theorem C91_valid : forall st size len chk, chk <= 32 -> len + chk <= size ->
  isChecksumValid st size len chk = Some (crc (2 ^ 32 - 1) (bytes st len) mod 2 ^ chk =? read st len (N.to_nat chk)).
Proof.
  intros. unfold isChecksumValid. replace ((len <=? size) && (len + chk <=? size)) with true by lia.
  rewrite mask_checksum, C91_crc by assumption. reflexivity.
Qed.
Print Assumptions C91_valid.

(* a full checksum that was valid is not after a change within four bytes of the data; any checksum is not after a change of its own
   bits *)
Theorem C91_corrupt : forall st st' size len chk, chk <= 32 -> isChecksumValid st size len chk = Some true ->
  (chk = 32 -> (forall j, len <= j -> st' j = st j) ->
    (exists i, forall j, j < len -> st j <> st' j -> 8 * i <= j < 8 * i + 32) -> (exists j, j < len /\ st j <> st' j) ->
    isChecksumValid st' size len chk = Some false) /\
  ((forall j, j < len -> st' j = st j) -> (exists j, len <= j < len + chk /\ st' j <> st j) -> isChecksumValid st' size len chk = Some false).
Proof.
  intros st st' size len chk Hc. unfold isChecksumValid. destruct ((len <=? size) && (len + chk <=? size)); [|discriminate].
  rewrite !mask_checksum by assumption. intros E. injection E as E. apply N.eqb_eq in E. split.
  - intros -> Hs (i & W) X. f_equal. apply N.eqb_neq. rewrite N.mod_small in * by apply checksum_lt.
    rewrite (read_ext st' st) by (intros; apply Hs; lia). rewrite <- E. intros Q. symmetry in Q. revert Q. apply (C91_detect st st' len i); assumption.
  - intros Hd (j & Hj & D). f_equal. apply N.eqb_neq. rewrite (checksum_ext st' st) by assumption. rewrite E. intros Q. apply D. symmetry.
    eapply read_inj; [exact Q|]. lia.
Qed.
Print Assumptions C91_corrupt.

(* with fewer check bits not even every change of one bit is noticed: eight check bits after 22 bytes of data, and bit 5 of the data *)
Theorem C91_short_refuted : ~ (forall st size len j, j < len -> isChecksumValid st size len 8 = Some true ->
  isChecksumValid (fun i => if i =? j then negb (st i) else st i) size len 8 = Some false).
Proof.
  intros H. set (st := write (fun _ => false) 176 8 (computeChecksum (fun _ => false) 176)).
  specialize (H st 184 176 5 eq_refl). assert (isChecksumValid st 184 176 8 = Some true) as V by (vm_compute; reflexivity).
  specialize (H V). vm_compute in H. discriminate H.
Qed.
Print Assumptions C91_short_refuted.

(* the nine bytes of the text 123456789, whose CRC-32 is 3421780262: the checksum is its complement; a byte and a half of data with
   its checksum, and with one bit changed; a change of two bytes *)
Definition nine : store := fun i => N.testbit (nth (N.to_nat (i / 8)) [49; 50; 51; 52; 53; 54; 55; 56; 57] 0) (7 - i mod 8).
Definition few : store := fun i => N.testbit 44287 (11 - i).
Example C91_ex : computeChecksum nine 72 = 4294967295 - 3421780262 /\ bytes nine 20 = [49; 50; 48] /\
  (exists st', updateChecksum few 64 50 12 32 = Some (st', true) /\ isChecksumValid st' 64 12 32 = Some true /\
     isChecksumValid (fun i => if i =? 7 then negb (st' i) else st' i) 64 12 32 = Some false /\
     isChecksumValid (fun i => if i =? 20 then negb (st' i) else st' i) 64 12 32 = Some false /\ st' 3 = few 3) /\
  updateChecksum few 64 43 12 32 = Some (few, false) /\ isChecksumValid few 40 12 32 = None /\
  (forall j, j < 72 -> nine j <> (if (j =? 9) || (j =? 20) then negb (nine j) else nine j) -> 8 * 1 <= j < 8 * 1 + 32).
Proof.
  split; [vm_compute; reflexivity|]. split; [vm_compute; reflexivity|]. split.
  { eexists. split; [reflexivity|]. vm_compute. repeat split; reflexivity. }
  split; [vm_compute; reflexivity|]. split; [vm_compute; reflexivity|].
  intros j Hj D. destruct (N.eqb_spec j 9); [lia|]. destruct (N.eqb_spec j 20); [lia|]. exfalso. apply D. reflexivity.
Qed.
