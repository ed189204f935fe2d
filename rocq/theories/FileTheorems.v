(* FileTheorems.v: C111. *)
From Coq Require Import String List NArith ZArith Lia Bool.
From Coq Require Import ZifyBool ZifyNat ZifyN.
From Verif Require Import Base LeximitedSpec LeximitedProofs FileModel FileSpec.
Import ListNotations.
Open Scope N_scope.

(* a file that can be written *)
Definition writable (f : file) : Prop := f_open f = true /\ f_mode f <> READ.
(* what is written goes behind all that is there *)
Definition at_end (f : file) : Prop := f_kind f = KString \/ f_mode f = APPEND \/ f_at f = length (f_data f).
Definition same_but_data (f g : file) : Prop := f_kind g = f_kind f /\ f_mode g = f_mode f /\ f_open g = f_open f /\ f_last g = f_last f.

Lemma uchar_schar b : b < 256 -> uchar (schar b) = b.
Proof.
  intros H. unfold uchar, schar. destruct (N.ltb_spec b 128).
  - rewrite Z.mod_small by lia. apply N2Z.id.
  - replace (Z.of_N b - 256)%Z with (Z.of_N b + (-1) * 256)%Z by lia. rewrite Z.mod_add by lia. rewrite Z.mod_small by lia. apply N2Z.id.
Qed.
Lemma write_end f b : writable f -> at_end f -> b < 256 -> exists f', write f (schar b) = (f', if match f_kind f with KString => true | KStdio => b <? 128 end then 0%Z else Z.of_N b) /\
  f_data f' = f_data f ++ [b] /\ same_but_data f f' /\ at_end f'.
Proof.
  intros (O & M) E B. unfold write. assert (R : is_read (f_mode f) = false) by (destruct (f_mode f) eqn:?; cbn; congruence). rewrite R, O. cbn [negb].
  rewrite uchar_schar by assumption.
  assert (Q : (Z.of_N b =? schar b)%Z = (b <? 128)) by (unfold schar; destruct (N.ltb_spec b 128); lia). rewrite Q.
  destruct (f_kind f) eqn:K.
  - eexists. split; [reflexivity|]. cbn [f_data]. split; [reflexivity|]. split; [repeat split; cbn; auto|left; reflexivity].
  - eexists. split; [reflexivity|].
    destruct (f_mode f) eqn:Md; [congruence| | |]; cbn [f_data].
    + destruct E as [E|[E|E]]; try congruence. rewrite E, firstn_all, skipn_all2 by lia. split; [reflexivity|]. split; [repeat split; cbn; auto|].
      right. right. cbn [f_at f_data]. rewrite app_length. cbn [length app]. lia.
    + split; [reflexivity|]. split; [repeat split; cbn; auto|]. right; left; reflexivity.
    + destruct E as [E|[E|E]]; try congruence. rewrite E, firstn_all, skipn_all2 by lia. split; [reflexivity|]. split; [repeat split; cbn; auto|].
      right. right. cbn [f_at f_data]. rewrite app_length. cbn [length app]. lia.
Qed.
Lemma keep_writable f g : same_but_data f g -> writable f -> writable g.
Proof. intros (A & B & C & _) (D & E). split; congruence. Qed.
Lemma keep_trans f g h : same_but_data f g -> same_but_data g h -> same_but_data f h.
Proof. intros (A & B & C & D) (A' & B' & C' & D'). repeat split; congruence. Qed.

(* a text of characters written is added to what is there, all of it, and the answer is 0 *)
Lemma write_ascii s : forall f, writable f -> at_end f -> Forall nonzero s -> Forall ascii s ->
  exists f', writeText f s = (f', 0%Z) /\ f_data f' = f_data f ++ s /\ same_but_data f f' /\ at_end f'.
Proof.
  induction s as [|b s IH]; intros f W E Z A; cbn [writeText].
  { exists f. split; [reflexivity|]. rewrite app_nil_r. split; [reflexivity|]. split; [repeat split|assumption]. }
  inversion Z; subst. inversion A; subst. unfold nonzero, ascii in *. destruct (N.eqb_spec b 0); [contradiction|].
  destruct (write_end f b W E ltac:(lia)) as (f1 & H & HD & HK & HE). rewrite H.
  assert (V : (if match f_kind f with KString => true | KStdio => b <? 128 end then 0%Z else Z.of_N b) = 0%Z) by (destruct (f_kind f), (N.ltb_spec b 128); try reflexivity; lia).
  rewrite V. cbn [Z.eqb negb]. destruct (IH f1) as (f2 & HW2 & HD2 & HK2 & HE2); auto using (keep_writable f f1).
  exists f2. split; [assumption|]. rewrite HD2, HD, <- app_assoc. split; [reflexivity|]. split; [eapply keep_trans; eassumption|assumption].
Qed.
Theorem C111_write s f : writable f -> at_end f -> Forall nonzero s -> Forall ascii s -> exists f', writeText f s = (f', 0%Z) /\ f_data f' = f_data f ++ s.
Proof. intros. destruct (write_ascii s f) as (f' & ? & ? & _); auto. exists f'. auto. Qed.
Print Assumptions C111_write.

(* in memory any bytes but zero *)
Theorem C111_memory s : forall f, writable f -> f_kind f = KString -> Forall nonzero s -> Forall byte s ->
  exists f', writeText f s = (f', 0%Z) /\ f_data f' = f_data f ++ s /\ f_kind f' = KString.
Proof.
  induction s as [|b s IH]; intros f W K Z A; cbn [writeText].
  { exists f. rewrite app_nil_r. auto. }
  inversion Z; subst. inversion A; subst. unfold nonzero, byte in *. destruct (N.eqb_spec b 0); [contradiction|].
  destruct (write_end f b W (or_introl K) ltac:(lia)) as (f1 & H & HD & HK & HE). rewrite H, K. cbn [Z.eqb negb].
  destruct (IH f1) as (f2 & HW2 & HD2 & HK2); eauto using (keep_writable f f1). { destruct HK as (-> & _). exact K. }
  exists f2. rewrite HD2, HD, <- app_assoc. auto.
Qed.
Print Assumptions C111_memory.

(* on disk a text is cut behind its first byte above 127, and the answer is that byte: exactly so for all texts *)
Theorem C111_disk s t r : upto s t r -> forall f, writable f -> at_end f -> f_kind f = KStdio -> Forall nonzero s -> Forall byte s ->
  exists f', writeText f s = (f', Z.of_N r) /\ f_data f' = f_data f ++ t.
Proof.
  intros U. induction U as [|b s t r L U IH|b s L]; intros f W E K Z A; cbn [writeText].
  - exists f. rewrite app_nil_r. auto.
  - inversion Z; subst. inversion A; subst. unfold nonzero, byte in *. destruct (N.eqb_spec b 0); [contradiction|].
    destruct (write_end f b W E ltac:(lia)) as (f1 & H & HD & HK & HE). rewrite H, K. destruct (N.ltb_spec b 128); [|lia]. cbn [Z.eqb negb].
    destruct (IH f1) as (f2 & HW2 & HD2); eauto using (keep_writable f f1). { destruct HK as (-> & _). exact K. }
    exists f2. rewrite HD2, HD, <- app_assoc. auto.
  - inversion Z; subst. inversion A; subst. unfold nonzero, byte in *. destruct (N.eqb_spec b 0); [contradiction|].
    destruct (write_end f b W E ltac:(lia)) as (f1 & H & HD & HK & HE). rewrite H, K. destruct (N.ltb_spec b 128); [lia|].
    destruct (Z.eqb_spec (Z.of_N b) 0); [lia|]. cbn [negb]. exists f1. auto.
Qed.
Print Assumptions C111_disk.

Definition fresh (k : kind) (m : mode) (d : text) : file := mkFile k m true 0 d None.
(* so a comment with an e acute (195 169) loses what is behind its first byte *)
Theorem C111_disk_refuted : let r := writeText (fresh KStdio WRITE []) [99; 97; 102; 195; 169; 59; 10] in snd r = 195%Z /\ f_data (fst r) = [99; 97; 102; 195].
Proof. vm_compute. auto. Qed.
Print Assumptions C111_disk_refuted.

(* reading: looking and taking in any order *)
Definition doRop (f : file) (o : rop) : file * Z := match o with Look => peek f | Take => consume f end.
Fixpoint answers (f : file) (l : list rop) : list Z := match l with [] => [] | o :: r => let '(f1, z) := doRop f o in z :: answers f1 r end.
(* n bytes have been taken *)
Definition reader (f : file) (d : text) (n : nat) : Prop :=
  f_mode f = READ /\ f_open f = true /\ f_data f = d /\
  match f_last f with
  | None => (f_at f = Nat.min n (length d))
  | Some z => f_at f = Nat.min (S n) (length d) /\ z = match nth_error d n with Some b => Z.of_N b | None => (-1)%Z end
  end.
Lemma nth_min (d : text) n : nth_error d (Nat.min n (length d)) = nth_error d n.
Proof.
  destruct (Nat.le_gt_cases n (length d)); [rewrite Nat.min_l by lia; reflexivity|]. rewrite Nat.min_r by lia.
  rewrite !(proj2 (nth_error_None _ _)) by lia. reflexivity.
Qed.
Lemma peek_reader f d n : reader f d n -> snd (peek f) = match nth_error d n with Some b => Z.of_N b | None => (-1)%Z end /\ reader (fst (peek f)) d n /\ f_last (fst (peek f)) <> None.
Proof.
  intros (M & O & D & L). unfold peek. destruct (f_last f) as [z|] eqn:E.
  - destruct L as (L & ->). cbn [fst snd]. split; [reflexivity|]. split; [|congruence]. repeat split; auto. rewrite E. auto.
  - unfold read. rewrite M, O. cbn [is_read negb]. rewrite D, L, nth_min. destruct (nth_error d n) as [b|] eqn:N0; cbn [fst snd].
    + split; [reflexivity|]. split; [|cbn; discriminate]. repeat split; cbn [f_mode f_open f_data f_last f_at]; auto. 2:{ rewrite N0. reflexivity. }
      assert (n < length d)%nat by (apply nth_error_Some; congruence). lia.
    + split; [reflexivity|]. split; [|cbn; discriminate]. repeat split; cbn [f_mode f_open f_data f_last f_at]; auto. 2:{ rewrite N0. reflexivity. }
      assert (length d <= n)%nat by (apply nth_error_None; assumption). lia.
Qed.
Lemma consume_reader f d n : reader f d n -> snd (consume f) = match nth_error d n with Some b => Z.of_N b | None => (-1)%Z end /\ reader (fst (consume f)) d (S n).
Proof.
  intros R. destruct (peek_reader f d n R) as (P1 & (M & O & D & L) & P3). unfold consume. destruct (peek f) as [f1 z]. cbn [fst snd] in *.
  split; [assumption|]. repeat split; cbn [f_mode f_open f_data f_last f_at]; auto. destruct (f_last f1); [|congruence]. apply L.
Qed.
Lemma answers_reader l : forall f d n, reader f d n -> forall i o, nth_error l i = Some o ->
  nth_error (answers f l) i = Some (match nth_error d (n + taken (firstn i l)) with Some b => Z.of_N b | None => (-1)%Z end).
Proof.
  induction l as [|o l IH]; intros f d n R [|i] o' H; cbn [nth_error] in H; try discriminate.
  - cbn [answers firstn taken]. rewrite Nat.add_0_r. destruct o; cbn [doRop].
    + destruct (peek_reader f d n R) as (P & _). destruct (peek f). cbn [snd] in P. subst. reflexivity.
    + destruct (consume_reader f d n R) as (P & _). destruct (consume f). cbn [snd] in P. subst. reflexivity.
  - cbn [answers firstn]. destruct o; cbn [doRop taken].
    + destruct (peek_reader f d n R) as (_ & P & _). destruct (peek f). cbn [fst] in P. cbn [nth_error]. eapply IH; eassumption.
    + destruct (consume_reader f d n R) as (_ & P). destruct (consume f). cbn [fst] in P. cbn [nth_error]. rewrite Nat.add_succ_r, <- Nat.add_succ_l.
      eapply IH; eassumption.
Qed.
Theorem C111_read k d l i o : nth_error l i = Some o -> nth_error (answers (fresh k READ d) l) i = Some (answer d (firstn i l)).
Proof. intros H. apply (answers_reader l (fresh k READ d) d 0 ltac:(repeat split) i o H). Qed.
Print Assumptions C111_read.

(* a file not meant for it is not read or written, a closed one neither; nothing changes and the answer is negative *)
Theorem C111_refused f : 
  ((f_mode f <> READ \/ f_open f = false) -> fst (read f) = f /\ (snd (read f) < 0)%Z) /\
  ((f_mode f = READ \/ f_open f = false) -> forall c, fst (write f c) = f /\ (snd (write f c) < 0)%Z).
Proof.
  unfold read, write, EACCES, EPERM. destruct f as [k m op a d l]. cbn [f_mode f_open f_kind].
  split; intros H; [|intros c]; destruct m, op; cbn; (split; [try reflexivity|]); try lia; destruct H; congruence.
Qed.
Print Assumptions C111_refused.

(* but reading a closed file answers as at the end of a file, -1, where the header promises less than -1 *)
Theorem C111_closed_refuted k d : snd (read (fst (close (fresh k READ d)))) = (-1)%Z /\ snd (read (fresh k READ [])) = (-1)%Z.
Proof. split; reflexivity. Qed.
Print Assumptions C111_closed_refuted.

(* closing works once, and again does no harm *)
Theorem C111_close f : f_open (fst (close f)) = false /\ f_data (fst (close f)) = f_data f /\ (snd (close f) = 0%Z <-> f_open f = true) /\
  close (fst (close f)) = (fst (close f), (-1)%Z).
Proof. unfold close. destruct (f_open f) eqn:E; cbn; rewrite ?E; repeat split; auto; try discriminate. Qed.
Print Assumptions C111_close.

(* ---- numbers ---- *)
Lemma head_dec n t : dec n = 45 :: t -> False.
Proof. intros E. pose proof (dec_all_digits n) as A. rewrite E in A. inversion A as [|? ? H]. vm_compute in H. discriminate. Qed.
Lemma said_dec n : said (dec n) = Z.of_N n.
Proof.
  unfold said. pose proof (read_dec_dec n) as R. unfold read_dec in R.
  destruct (dec n) as [|c t] eqn:E; [rewrite R; reflexivity|].
  destruct (N.eq_dec c 45) as [->|C]. { exfalso. eapply head_dec. exact E. }
  rewrite <- R. destruct c as [|[[[p|p|]|[p|p|]|]|[[p|p|]|[p|p|]|]|]]; try reflexivity.
  all: repeat (match goal with p : positive |- _ => destruct p as [p|p|]; try reflexivity end). all: congruence.
Qed.
Lemma said_sdec z : said (sdec z) = z.
Proof.
  unfold sdec. destruct (Z.ltb_spec z 0).
  - unfold said. pose proof (read_dec_dec (Z.to_N (- z))) as R. unfold read_dec in R. rewrite R. lia.
  - rewrite said_dec. lia.
Qed.
(* signed numbers and long unsigned ones come out as they are *)
Theorem C111_decimal z n : said (decimalText z) = z /\ said (unsignedLongText n) = Z.of_N n.
Proof. split; [apply said_sdec|apply said_dec]. Qed.
Print Assumptions C111_decimal.
(* an unsigned number below 2^31 too; others with the sign of an int.  As a number modulo 2^32, which it is with a u behind it, it is always right *)
Theorem C111_unsigned n : n < 2 ^ 32 -> (said (unsignedText n) = Z.of_N n <-> n < 2 ^ 31) /\ (said (unsignedText n) mod 2 ^ 32)%Z = Z.of_N n.
Proof.
  change (2 ^ 32) with 4294967296. change (2 ^ 31) with 2147483648. change (2 ^ 32)%Z with 4294967296%Z.
  intros H. unfold unsignedText. rewrite said_sdec. unfold as_int. destruct (N.ltb_spec n 2147483648).
  - split; [lia|]. apply Z.mod_small. lia.
  - split; [lia|]. replace (Z.of_N n - 4294967296)%Z with (Z.of_N n + (-1) * 4294967296)%Z by lia. rewrite Z.mod_add by lia. apply Z.mod_small. lia.
Qed.
Print Assumptions C111_unsigned.
Theorem C111_unsigned_refuted : unsignedText 4294967295 = txt "-1".
Proof. reflexivity. Qed.
Print Assumptions C111_unsigned_refuted.
(* the buffers are large enough, the zero behind the text included *)
Lemma dec_len n k : n < 10 ^ N.of_nat k -> (0 < k)%nat -> (length (dec n) <= k)%nat.
Proof. intros H K. rewrite dec_length. apply digits_len_small; auto. lia. Qed.
Theorem C111_buffers (z : Z) (n m : N) (w : Z) (l : N) : (- 2 ^ 31 <= z < 2 ^ 31)%Z -> n < 2 ^ 32 -> (- 2 ^ 63 <= w < 2 ^ 63)%Z -> l < 2 ^ 64 -> m < 2 ^ 32 ->
  (length (decimalText z) < tmp32 /\ length (unsignedText n) < tmp32 /\ length (hexText m) < tmphex /\
   length (decimalText w) < tmp64 /\ length (unsignedLongText l) < tmp64)%nat.
Proof.
  change (2 ^ 31)%Z with 2147483648%Z. change (2 ^ 63)%Z with 9223372036854775808%Z. change (2 ^ 32) with 4294967296. change (2 ^ 64) with 18446744073709551616.
  intros Hz Hn Hw Hl Hm.
  assert (S : forall y k, (0 < k)%nat -> (Z.to_N (Z.abs y) < 10 ^ N.of_nat k) -> (length (sdec y) <= S k)%nat).
  { intros y k K B. unfold sdec. destruct (Z.ltb_spec y 0); cbn [length].
    - pose proof (dec_len (Z.to_N (- y)) k ltac:(replace (- y)%Z with (Z.abs y) by lia; exact B) K). lia.
    - pose proof (dec_len (Z.to_N y) k ltac:(replace y with (Z.abs y) by lia; exact B) K). lia. }
  unfold decimalText, unsignedText, hexText, unsignedLongText, tmp32, tmp64, tmphex. repeat split.
  - pose proof (S z 10%nat ltac:(lia)) as Q. change (10 ^ N.of_nat 10) with 10000000000 in Q. specialize (Q ltac:(lia)). lia.
  - pose proof (S (as_int n) 10%nat ltac:(lia)) as Q. change (10 ^ N.of_nat 10) with 10000000000 in Q.
    assert (B : Z.to_N (Z.abs (as_int n)) < 10000000000) by (unfold as_int; destruct (n <? 2147483648) eqn:?; lia). specialize (Q B). lia.
  - rewrite app_length. unfold hex. rewrite map_length. pose proof (digits_len_small 16 m 8 ltac:(lia) ltac:(lia)) as Q.
    change (16 ^ N.of_nat 8) with 4294967296 in Q. specialize (Q Hm). change (length (txt "0x")) with 2%nat. lia.
  - pose proof (S w 19%nat ltac:(lia)) as Q. change (10 ^ N.of_nat 19) with 10000000000000000000 in Q. specialize (Q ltac:(lia)). lia.
  - pose proof (dec_len l 20 ltac:(change (10 ^ N.of_nat 20) with 100000000000000000000; lia) ltac:(lia)). lia.
Qed.
Print Assumptions C111_buffers.

(* the tag at the end of a line of generated code *)
Lemma dec_ok n : Forall nonzero (dec n) /\ Forall ascii (dec n).
Proof. pose proof (dec_all_digits n) as A. split; eapply Forall_impl; [|exact A| |exact A]; cbv beta; unfold dec_digit, nonzero, ascii; intros; lia. Qed.
Lemma sdec_ok z : Forall nonzero (sdec z) /\ Forall ascii (sdec z).
Proof. unfold sdec. destruct (z <? 0)%Z; [|apply dec_ok]. split; constructor; try apply dec_ok; unfold nonzero, ascii; lia. Qed.
Theorem C111_tag f name line : writable f -> at_end f -> Forall nonzero name -> Forall ascii name ->
  exists f', writeTaggedEnd f name line = (f', 0%Z) /\ f_data f' = f_data f ++ txt " //gcnl:" ++ name ++ txt ":" ++ sdec line ++ [10].
Proof.
  intros W E Z A. unfold writeTaggedEnd.
  destruct (write_ascii (txt " //gcnl:") f) as (f1 & H1 & D1 & K1 & E1); auto; [repeat constructor; discriminate|repeat constructor|].
  destruct (write_ascii name f1) as (f2 & H2 & D2 & K2 & E2); eauto using keep_writable.
  assert (W2 : writable f2) by eauto using keep_writable.
  destruct (write_ascii (txt ":") f2) as (f3 & H3 & D3 & K3 & E3); auto; [repeat constructor; discriminate|repeat constructor|].
  assert (W3 : writable f3) by eauto using keep_writable.
  destruct (write_ascii (sdec line) f3) as (f4 & H4 & D4 & K4 & E4); auto; try apply sdec_ok.
  assert (W4 : writable f4) by eauto using keep_writable.
  destruct (write_ascii [10] f4) as (f5 & H5 & D5 & K5 & E5); auto; [repeat constructor; discriminate|repeat constructor|].
  rewrite H1. cbn [fst]. rewrite H2. cbn [fst]. rewrite H3. cbn [fst]. unfold decimalText. rewrite H4. cbn [fst]. exists f5. split; [assumption|].
  rewrite D5, D4, D3, D2, D1, <- !app_assoc. reflexivity.
Qed.
Print Assumptions C111_tag.

(* ---- the managers ---- *)
Lemma text_eqb_refl t : text_eqb t t = true. Proof. apply text_eqb_eq. reflexivity. Qed.
Lemma put_same m p d : put m p d p = Some d. Proof. unfold put. rewrite text_eqb_refl. reflexivity. Qed.
Lemma put_other m p d q : p <> q -> put m p d q = m q.
Proof. intros H. unfold put. destruct (text_eqb p q) eqn:E; [apply text_eqb_eq in E; contradiction|reflexivity]. Qed.

(* a path that starts with a slash is the full one, any other is below the directory *)
Theorem C111_path dir path : (hd 0 path = 47 -> fullpath dir path = path) /\ (hd 0 path <> 47 -> fullpath dir path = dir ++ 47 :: path).
Proof.
  assert (E : fullpath dir path = if hd 0 path =? 47 then path else dir ++ 47 :: path).
  { destruct path as [|c t]; [reflexivity|]. cbn [hd]. destruct (N.eqb_spec c 47) as [->|C]; [reflexivity|].
    destruct c as [|[[[p|p|]|[p|p|]|]|[[p|p|]|[p|p|]|]|]]; try reflexivity.
    all: repeat (match goal with p : positive |- _ => destruct p as [p|p|]; try reflexivity end). all: congruence. }
  rewrite E. split; intros H; destruct (N.eqb_spec (hd 0 path) 47); congruence.
Qed.
Print Assumptions C111_path.

(* opening: reading and extending need the file and change nothing, writing empties it, appending keeps it; other files stay *)
Definition must_exist (md : mode) : Prop := md = READ \/ md = EXTEND.
Theorem C111_open (op : text -> files -> text -> mode -> files * option file) : op = openString \/ op = openStdio ->
  forall dir m path md,
  let full := fullpath dir path in
  (m full = None -> must_exist md -> op dir m path md = (m, None)) /\
  (m full <> None \/ ~ must_exist md -> exists m' f, op dir m path md = (m', Some f) /\ f_mode f = md /\ f_open f = true /\ f_last f = None /\
     (md = READ -> f_at f = 0%nat) /\
     f_data f = match md with WRITE => [] | _ => match m full with Some d => d | None => [] end end /\
     m' full = Some (f_data f) /\ forall q, q <> full -> m' q = m q).
Proof.
  intros Ho dir m path md full. unfold must_exist. split.
  - intros H X. destruct Ho as [-> | ->]; unfold openString, openStdio; fold full; rewrite H; destruct X as [-> | ->]; reflexivity.
  - intros H. destruct Ho as [-> | ->]; unfold openString, openStdio; fold full; destruct (m full) as [d|] eqn:E.
    1,3: destruct md; (eexists; eexists; split; [reflexivity|]); cbn [f_mode f_open f_last f_at f_data]; rewrite ?put_same;
      (split; [reflexivity|]); (split; [reflexivity|]); (split; [reflexivity|]); (split; [try reflexivity; discriminate|]); (split; [reflexivity|]);
      (split; [assumption || reflexivity|]); intros q Q; rewrite ?put_other by congruence; reflexivity.
    all: destruct H as [H|H]; [congruence|]; destruct md; try (exfalso; apply H; auto; fail);
      (eexists; eexists; split; [reflexivity|]); cbn [f_mode f_open f_last f_at f_data]; rewrite ?put_same;
      (split; [reflexivity|]); (split; [reflexivity|]); (split; [reflexivity|]); (split; [try reflexivity; discriminate|]); (split; [reflexivity|]);
      (split; [reflexivity|]); intros q Q; rewrite ?put_other by congruence; reflexivity.
Qed.
Print Assumptions C111_open.

(* appending and extending go behind what is there, except that a file on disk opened for extending is overwritten from its beginning *)
Theorem C111_behind (op : text -> files -> text -> mode -> files * option file) dir m path md m' f : 
  op = openString \/ op = openStdio /\ md <> EXTEND -> md <> READ -> op dir m path md = (m', Some f) -> writable f /\ at_end f.
Proof.
  intros Ho Hm H. unfold writable, at_end. destruct Ho as [->|(-> & He)]; unfold openString, openStdio in H.
  - destruct (m (fullpath dir path)); destruct md; try congruence; injection H as <- <-; cbn; repeat split; auto; discriminate.
  - destruct (m (fullpath dir path)); destruct md; try congruence; injection H as <- <-; cbn; repeat split; auto; discriminate.
Qed.
Print Assumptions C111_behind.
Theorem C111_extend_refuted : match snd (openStdio (txt ".") (fun _ => Some (txt "old text")) (txt "a") EXTEND) with
  | Some f => let r := writeText f (txt "new") in snd r = 0%Z /\ f_data (fst r) = txt "new text"
  | None => False
  end.
Proof. vm_compute. auto. Qed.
Print Assumptions C111_extend_refuted.

(* a file put into the memory manager is there afterwards with all its bytes, and no other file changes *)
Theorem C111_add dir m path data : Forall nonzero data -> Forall byte data ->
  exists m', add dir m path data = (m', true) /\ get dir m' path = (m', data, true) /\ forall q, q <> fullpath dir path -> m' q = m q.
Proof.
  intros Z B. destruct (C111_open openString (or_introl eq_refl) dir m path WRITE) as (_ & O).
  destruct O as (m1 & f & E & M & Op & L & _ & D & P & Q). { right. intros [H|H]; discriminate. }
  assert (K : f_kind f = KString).
  { unfold openString in E. destruct (m (fullpath dir path)); injection E as <- <-; reflexivity. }
  destruct (C111_memory data f) as (f1 & W & D1 & _); auto. { split; [assumption|congruence]. }
  unfold add. rewrite E, W. eexists. split; [reflexivity|].
  assert (C : f_data (fst (close f1)) = data). { destruct (C111_close f1) as (_ & -> & _). rewrite D1, D. reflexivity. }
  split.
  - unfold get, store. rewrite put_same. rewrite C. reflexivity.
  - intros q H. unfold store. rewrite put_other by congruence. apply Q. assumption.
Qed.
Print Assumptions C111_add.
(* bytes behind a zero are lost, with true as the answer *)
Theorem C111_add_refuted : exists m', add (txt ".") (fun _ => None) (txt "a") [97; 0; 98] = (m', true) /\ m' (txt "./a") = Some [97].
Proof. eexists. split; reflexivity. Qed.
Print Assumptions C111_add_refuted.
(* getting a file that is there gives what it holds and changes nothing; one that is not there comes into being, with true as the answer *)
Theorem C111_get dir m path d : m (fullpath dir path) = Some d -> get dir m path = (m, d, true).
Proof. intros H. unfold get. rewrite H. reflexivity. Qed.
Print Assumptions C111_get.
Theorem C111_get_refuted : exists m', get (txt ".") (fun _ => None) (txt "a") = (m', [], true) /\ snd (openString (txt ".") (fun _ => None) (txt "a") READ) = None /\
  snd (openString (txt ".") m' (txt "a") READ) <> None.
Proof. eexists. split; [reflexivity|]. split; [reflexivity|]. discriminate. Qed.
Print Assumptions C111_get_refuted.

Example C111_ex : writable (fresh KStdio WRITE []) /\ at_end (fresh KStdio WRITE []) /\
  answers (fresh KString READ [255; 0]) [Look; Take; Look; Take; Take; Look] = [255; 255; 0; 0; -1; -1]%Z /\
  f_data (fst (writeTaggedEnd (fresh KStdio WRITE []) (txt "Node.cpp") 12)) = txt " //gcnl:Node.cpp:12" ++ [10] /\
  upto [97; 200; 98] [97; 200] 200.
Proof.
  split; [split; [reflexivity|discriminate]|]. split; [right; right; reflexivity|]. split; [reflexivity|]. split; [reflexivity|].
  apply U_low; [lia|]. apply U_high. lia.
Qed.
Example C111_unsigned_ex : unsignedText 12 = txt "12" /\ said (txt "-5") = (-5)%Z. Proof. split; reflexivity. Qed.
Example C111_open_ex : exists m f, openStdio (txt ".") (fun _ => None) (txt "a") APPEND = (m, Some f) /\ m (txt "./a") = Some []. 
Proof. eexists. eexists. split; reflexivity. Qed.
