(* BitVec.v: bit vectors of a fixed width held as a number, and lists of bits, most significant first.
   bv_read, bv_write, bv_copy are the EXTERNAL MFM BitVector operations Read/ReadLong, Write/WriteLong and
   CopyBV (MFM library, not in /repo; every use in /repo agrees with: position 0 is the most significant bit,
   a write keeps only the low bits of the value that fit the field and leaves the other bits alone). *)
From Coq Require Import List NArith ZArith Lia Bool.
From Coq Require Import ZifyBool ZifyNat ZifyN.
Import ListNotations.
Open Scope N_scope.

Definition bv_read (W pos len a : N) : N := N.shiftr a (W - (pos + len)) mod 2 ^ len.

Definition bv_write (W pos len v a : N) : N :=
  let s := W - (pos + len) in
  N.lor (N.ldiff a (N.shiftl (N.ones len) s)) (N.shiftl (v mod 2 ^ len) s).

(* CopyBV(frompos, topos, len, dest) of a vector of width Ws into one of width Wd *)
Definition bv_copy (Ws : N) (src : N) (frompos topos len : N) (Wd dst : N) : N :=
  bv_write Wd topos len (bv_read Ws frompos len src) dst.

(* ---- lists of bits, most significant first: the vocabulary of the statements ---- *)

(* the n low bits of v, most significant first *)
Fixpoint msb_bits (n : nat) (v : N) : list bool :=
  match n with O => [] | S k => N.testbit v (N.of_nat k) :: msb_bits k v end.

(* the number a list of bits denotes *)
Definition bval (l : list bool) : N := fold_left (fun a (b : bool) => 2 * a + (if b then 1 else 0)) l 0.

Definition slice (p n : nat) (l : list bool) : list bool := firstn n (skipn p l).
Definition splice (p : nat) (new l : list bool) : list bool :=
  firstn p l ++ new ++ skipn (p + length new) l.

(* ---- lemmas ---- *)
Lemma msb_bits_length n v : length (msb_bits n v) = n.
Proof. induction n; cbn; auto. Qed.

Lemma msb_bits_nth n v p d : (p < n)%nat -> nth p (msb_bits n v) d = N.testbit v (N.of_nat (n - 1 - p)).
Proof.
  revert p; induction n; intros p H; [lia|]. cbn [msb_bits]. destruct p; cbn [nth].
  - f_equal. lia.
  - rewrite IHn by lia. f_equal. lia.
Qed.

Lemma msb_bits_ext n u v : (forall i, i < N.of_nat n -> N.testbit u i = N.testbit v i) -> msb_bits n u = msb_bits n v.
Proof.
  induction n; intros H; cbn [msb_bits]; auto. f_equal.
  - apply H. lia.
  - apply IHn. intros. apply H. lia.
Qed.

Lemma msb_bits_inj n u v i : msb_bits n u = msb_bits n v -> i < N.of_nat n -> N.testbit u i = N.testbit v i.
Proof.
  intros E H. pose proof (f_equal (fun l => nth (n - 1 - N.to_nat i) l false) E) as E'. cbn beta in E'.
  rewrite !msb_bits_nth in E' by lia.
  replace (N.of_nat (n - 1 - (n - 1 - N.to_nat i))) with i in E' by lia. auto.
Qed.

Lemma msb_bits_mod n v k : N.of_nat n <= k -> msb_bits n (v mod 2 ^ k) = msb_bits n v.
Proof. intros. apply msb_bits_ext. intros. apply N.mod_pow2_bits_low. lia. Qed.

Lemma bval_snoc l b : bval (l ++ [b]) = 2 * bval l + (if b then 1 else 0).
Proof. unfold bval. rewrite fold_left_app. reflexivity. Qed.

Lemma bval_cons b l : bval (b :: l) = (if b then 1 else 0) * 2 ^ N.of_nat (length l) + bval l.
Proof.
  induction l using rev_ind.
  - destruct b; reflexivity.
  - rewrite app_comm_cons, !bval_snoc, IHl, app_length. cbn [length].
    replace (N.of_nat (length l + 1)) with (N.succ (N.of_nat (length l))) by lia.
    rewrite N.pow_succ_r'. lia.
Qed.

Lemma bval_app l m : bval (l ++ m) = bval l * 2 ^ N.of_nat (length m) + bval m.
Proof.
  induction l; cbn [app].
  - change (bval []) with 0. lia.
  - rewrite !bval_cons, IHl, app_length.
    replace (N.of_nat (length l + length m)) with (N.of_nat (length l) + N.of_nat (length m)) by lia.
    rewrite N.pow_add_r. lia.
Qed.

Lemma bval_lt l : bval l < 2 ^ N.of_nat (length l).
Proof.
  induction l.
  - reflexivity.
  - rewrite bval_cons. cbn [length]. replace (N.of_nat (S (length l))) with (N.succ (N.of_nat (length l))) by lia.
    rewrite N.pow_succ_r'. destruct a; lia.
Qed.

Lemma bval_msb n v : bval (msb_bits n v) = v mod 2 ^ N.of_nat n.
Proof.
  induction n.
  - cbn. symmetry. apply N.mod_1_r.
  - cbn [msb_bits]. rewrite bval_cons, msb_bits_length, IHn.
    replace (N.of_nat (S n)) with (N.succ (N.of_nat n)) by lia.
    apply N.bits_inj_iff. intros i.
    pose proof (N.mod_lt v (2 ^ N.of_nat n) ltac:(apply N.pow_nonzero; lia)) as HM.
    set (q := 2 ^ N.of_nat n) in *.
    replace ((if N.testbit v (N.of_nat n) then 1 else 0) * q + v mod q) with
      (v mod (2 ^ N.succ (N.of_nat n))); auto.
    rewrite N.pow_succ_r'. fold q.
    replace (2 * q) with (q * 2) by lia.
    rewrite N.mod_mul_r by (unfold q; try (apply N.pow_nonzero); lia).
    rewrite N.testbit_eqb. fold q.
    pose proof (N.mod_lt (v / q) 2). destruct (N.eqb_spec ((v / q) mod 2) 1); nia.
Qed.

Lemma bval_inj l m : length l = length m -> bval l = bval m -> l = m.
Proof.
  revert m; induction l; intros [|b m] HL HE; cbn in HL; try lia; auto.
  rewrite !bval_cons in HE. assert (length l = length m) as HLM by lia. rewrite HLM in HE.
  pose proof (bval_lt l). pose proof (bval_lt m). rewrite HLM in *.
  assert (a = b /\ bval l = bval m) as [-> E] by (destruct a, b; split; auto; lia).
  f_equal. auto.
Qed.

Lemma msb_bval l : msb_bits (length l) (bval l) = l.
Proof.
  apply bval_inj; [apply msb_bits_length|]. rewrite bval_msb. apply N.mod_small. apply bval_lt.
Qed.

Lemma slice_length p n l : (p + n <= length l)%nat -> length (slice p n l) = n.
Proof. intros. unfold slice. rewrite firstn_length, skipn_length. lia. Qed.

Lemma nth_firstn_lt {A} i n (l : list A) d : (i < n)%nat -> nth i (firstn n l) d = nth i l d.
Proof. revert i l; induction n; intros [|i] [|x l] H; cbn; auto; try lia. apply IHn. lia. Qed.

Lemma nth_skipn {A} i n (l : list A) d : nth i (skipn n l) d = nth (n + i) l d.
Proof. revert l; induction n; intros [|x l]; cbn; auto. destruct i; auto. Qed.

Lemma skipn_skipn_add {A} m n (l : list A) : skipn m (skipn n l) = skipn (n + m) l.
Proof. revert l; induction n; intros [|x l]; cbn; auto. apply skipn_nil. Qed.

Lemma slice_nth p n l i : (i < n)%nat -> nth i (slice p n l) false = nth (p + i) l false.
Proof. intros. unfold slice. rewrite nth_firstn_lt by lia. apply nth_skipn. Qed.

Lemma splice_length p new l : (p + length new <= length l)%nat -> length (splice p new l) = length l.
Proof. intros. unfold splice. rewrite !app_length, firstn_length, skipn_length. lia. Qed.

Lemma splice_nth p new l i : (p + length new <= length l)%nat ->
  nth i (splice p new l) false =
  if (p <=? i)%nat && (i <? p + length new)%nat then nth (i - p) new false else nth i l false.
Proof.
  intros. unfold splice.
  destruct (Nat.leb_spec p i) as [Hp|Hp]; cbn [andb].
  - rewrite app_nth2; rewrite firstn_length; try lia. replace (Nat.min p (length l)) with p by lia.
    destruct (Nat.ltb_spec i (p + length new)).
    + rewrite app_nth1 by lia. auto.
    + rewrite app_nth2 by lia. rewrite nth_skipn. f_equal. lia.
  - rewrite app_nth1 by (rewrite firstn_length; lia). apply nth_firstn_lt. lia.
Qed.

Lemma list_nth_ext (l m : list bool) : length l = length m ->
  (forall i, (i < length l)%nat -> nth i l false = nth i m false) -> l = m.
Proof. intros. apply nth_ext with (d := false) (d' := false); auto. Qed.

Lemma slice_splice_same p new l : (p + length new <= length l)%nat -> slice p (length new) (splice p new l) = new.
Proof.
  intros H. apply list_nth_ext.
  - rewrite slice_length; auto. rewrite splice_length; auto.
  - intros i Hi. rewrite slice_length in Hi by (rewrite splice_length; auto).
    rewrite slice_nth, splice_nth by lia.
    replace ((p <=? p + i)%nat) with true by lia. replace ((p + i <? p + length new)%nat) with true by lia.
    cbn [andb]. f_equal. lia.
Qed.

Lemma slice_splice_other p new l q n : (p + length new <= length l)%nat -> (q + n <= length l)%nat ->
  (q + n <= p \/ p + length new <= q)%nat -> slice q n (splice p new l) = slice q n l.
Proof.
  intros H Hq HD. apply list_nth_ext.
  - rewrite !slice_length; auto. rewrite splice_length; auto.
  - intros i Hi. rewrite slice_length in Hi by (rewrite splice_length; auto).
    rewrite !slice_nth, splice_nth by lia.
    destruct (Nat.leb_spec p (q + i)); destruct (Nat.ltb_spec (q + i) (p + length new)); cbn [andb]; auto; lia.
Qed.

Lemma splice_splice p new1 new2 l : (p + length new1 + length new2 <= length l)%nat ->
  splice (p + length new1) new2 (splice p new1 l) = splice p (new1 ++ new2) l.
Proof.
  intros H. apply list_nth_ext.
  - rewrite !splice_length; try (rewrite ?splice_length, ?app_length); lia.
  - intros i Hi.
    rewrite !splice_nth; try (rewrite ?splice_length, ?app_length); try lia.
    destruct (Nat.leb_spec (p + length new1) i); destruct (Nat.ltb_spec i (p + length new1 + length new2));
      destruct (Nat.leb_spec p i); destruct (Nat.ltb_spec i (p + length new1));
      destruct (Nat.ltb_spec i (p + (length new1 + length new2))); cbn [andb]; try lia; auto.
    + rewrite app_nth2 by lia. f_equal. lia.
    + rewrite app_nth1 by lia. auto.
Qed.

Lemma splice_nil p l : splice p [] l = l.
Proof. unfold splice. cbn. rewrite Nat.add_0_r. apply firstn_skipn. Qed.

Lemma slice_app_split p m n l : slice p (m + n) l = slice p m l ++ slice (p + m) n l.
Proof.
  unfold slice.
  rewrite <- (firstn_skipn m (skipn p l)) at 1.
  rewrite firstn_app. rewrite firstn_firstn. replace (Nat.min (m + n) m) with m by lia.
  f_equal. rewrite firstn_length.
  destruct (Nat.le_gt_cases m (length (skipn p l))).
  - replace (m + n - Nat.min m (length (skipn p l)))%nat with n by lia. rewrite skipn_skipn_add. reflexivity.
  - rewrite <- skipn_skipn_add. rewrite (skipn_all2 (skipn p l)) by lia. rewrite !firstn_nil. reflexivity.
Qed.

Lemma slice_slice p n q m l : (q + m <= n)%nat -> slice q m (slice p n l) = slice (p + q) m l.
Proof.
  intros H. unfold slice. rewrite skipn_firstn_comm, firstn_firstn. replace (Nat.min m (n - q)) with m by lia.
  f_equal. rewrite skipn_skipn_add. reflexivity.
Qed.

Lemma slice_msb W p n v : (p + n <= W)%nat -> slice p n (msb_bits W v) = msb_bits n (N.shiftr v (N.of_nat (W - (p + n)))).
Proof.
  intros H. apply list_nth_ext.
  - rewrite slice_length, msb_bits_length; rewrite ?msb_bits_length; lia.
  - intros i Hi. rewrite slice_length in Hi by (rewrite msb_bits_length; lia).
    rewrite slice_nth, !msb_bits_nth by lia. rewrite N.shiftr_spec'. f_equal. lia.
Qed.

(* ---- the vector operations in terms of lists ---- *)
Lemma bv_read_slice W pos len a : pos + len <= W ->
  bv_read W pos len a = bval (slice (N.to_nat pos) (N.to_nat len) (msb_bits (N.to_nat W) a)).
Proof.
  intros H. rewrite slice_msb by lia. rewrite bval_msb. unfold bv_read. rewrite N2Nat.id. f_equal. f_equal. lia.
Qed.

Lemma bv_read_bits W pos len a : pos + len <= W ->
  msb_bits (N.to_nat len) (bv_read W pos len a) = slice (N.to_nat pos) (N.to_nat len) (msb_bits (N.to_nat W) a).
Proof.
  intros H. rewrite slice_msb by lia. unfold bv_read. rewrite msb_bits_mod by lia.
  f_equal. f_equal. lia.
Qed.

Lemma bv_write_splice W pos len v a : pos + len <= W ->
  msb_bits (N.to_nat W) (bv_write W pos len v a) =
  splice (N.to_nat pos) (msb_bits (N.to_nat len) v) (msb_bits (N.to_nat W) a).
Proof.
  intros H. apply list_nth_ext.
  - rewrite splice_length; rewrite !msb_bits_length; lia.
  - intros i Hi. rewrite msb_bits_length in Hi.
    rewrite splice_nth by (rewrite !msb_bits_length; lia). rewrite (msb_bits_nth _ a), (msb_bits_nth _ (bv_write _ _ _ _ _)) by lia. rewrite msb_bits_length.
    unfold bv_write. rewrite N.lor_spec, N.ldiff_spec.
    cbv zeta. remember (W - (pos + len)) as s eqn:Hs. remember (N.of_nat (N.to_nat W - 1 - i)) as j eqn:Hjj.
    destruct (N.ltb_spec j s) as [Hj|Hj].
    + rewrite !N.shiftl_spec_low by auto. cbn [negb]. rewrite andb_true_r, orb_false_r.
      destruct (Nat.leb_spec (N.to_nat pos) i); destruct (Nat.ltb_spec i (N.to_nat pos + N.to_nat len)); cbn [andb]; auto; lia.
    + rewrite !N.shiftl_spec_high' by auto.
      destruct (N.ltb_spec (j - s) len).
      * rewrite N.ones_spec_low, N.mod_pow2_bits_low by lia. cbn [negb]. rewrite andb_false_r. cbn [orb].
        destruct (Nat.leb_spec (N.to_nat pos) i); destruct (Nat.ltb_spec i (N.to_nat pos + N.to_nat len)); cbn [andb]; try lia.
        rewrite msb_bits_nth by lia. f_equal. lia.
      * rewrite N.ones_spec_high, N.mod_pow2_bits_high by lia. cbn [negb]. rewrite andb_true_r, orb_false_r.
        destruct (Nat.leb_spec (N.to_nat pos) i); destruct (Nat.ltb_spec i (N.to_nat pos + N.to_nat len)); cbn [andb]; auto; lia.
Qed.

Lemma bv_write_bound W pos len v a : pos + len <= W -> a < 2 ^ W -> bv_write W pos len v a < 2 ^ W.
Proof.
  intros H Ha.
  assert (forall i, W <= i -> N.testbit (bv_write W pos len v a) i = false) as HB.
  { intros i Hi. unfold bv_write. rewrite N.lor_spec, N.ldiff_spec.
    assert (N.testbit a i = false) as ->.
    { destruct (N.eq_dec a 0) as [->|]; [apply N.bits_0|].
      apply N.bits_above_log2. apply N.log2_lt_pow2 in Ha; lia. }
    cbn [andb orb]. rewrite N.shiftl_spec_high' by lia. apply N.mod_pow2_bits_high. lia. }
  destruct (N.eq_dec (bv_write W pos len v a) 0) as [->|NZ].
  - pose proof (N.pow_nonzero 2 W). lia.
  - apply N.log2_lt_pow2; [lia|].
    destruct (N.lt_ge_cases (N.log2 (bv_write W pos len v a)) W); auto.
    pose proof (N.bit_log2 _ NZ) as E. rewrite HB in E by auto. discriminate.
Qed.

Lemma bv_read_write_same W pos len v a : pos + len <= W -> bv_read W pos len (bv_write W pos len v a) = v mod 2 ^ len.
Proof.
  intros H. rewrite bv_read_slice, bv_write_splice by auto.
  pose proof (slice_splice_same (N.to_nat pos) (msb_bits (N.to_nat len) v) (msb_bits (N.to_nat W) a)) as E.
  rewrite !msb_bits_length in E. rewrite E by lia. rewrite bval_msb. f_equal. f_equal. lia.
Qed.

Lemma bv_read_write_other W pos len v a q n : pos + len <= W -> q + n <= W -> q + n <= pos \/ pos + len <= q ->
  bv_read W q n (bv_write W pos len v a) = bv_read W q n a.
Proof.
  intros. rewrite !bv_read_slice, bv_write_splice by auto. f_equal. apply slice_splice_other;
    rewrite ?msb_bits_length; lia.
Qed.

Lemma bv_read_lt W pos len a : bv_read W pos len a < 2 ^ len.
Proof. unfold bv_read. apply N.mod_lt. apply N.pow_nonzero. lia. Qed.
