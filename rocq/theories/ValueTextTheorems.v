(* ValueTextTheorems.v: property C68, values as written into the generated code and the map of members. *)
From Coq Require Import String List NArith ZArith Lia Bool.
From Coq Require Import ZifyBool ZifyNat ZifyN.
From Verif Require Import Base TypeTableModel FamilyModel BitVec LeximitedModel LeximitedSpec LeximitedProofs HexEscapeModel HexEscapeSpec HexEscapeProofs UTypeModel AtomModel AtomSpec LayoutModel LayoutSpec LayoutTheorems
  DefaultModel DefaultSpec DefaultProofs DefaultTheorems ValueTextModel ValueTextSpec.
Import ListNotations.
Ltac Zify.zify_post_hook ::= Z.div_mod_to_equations.
Open Scope N_scope.

(* ---- words and bits ---- *)
Lemma nwords_fit len : len <= W8K -> 32 * N.of_nat (nwords len) <= W8K /\ len <= 32 * N.of_nat (nwords len).
Proof. unfold nwords, W8K. lia. Qed.
Lemma words_bits_from bv : forall n a, 32 * N.of_nat (a + n) <= W8K ->
  word_bits (map (fun i => bv_read W8K (32 * N.of_nat i) 32 bv) (seq a n)) = part (32 * N.of_nat a) (32 * N.of_nat n) (bits8k bv).
Proof.
  induction n as [|n IH]; intros a H; cbn [seq map].
  - unfold part. reflexivity.
  - unfold word_bits in *. cbn [flat_map]. rewrite IH by lia. change 32%nat with (N.to_nat 32). rewrite read_bits by lia. unfold part.
    replace (N.to_nat (32 * N.of_nat (S n))) with (N.to_nat 32 + N.to_nat (32 * N.of_nat n))%nat by lia. rewrite slice_app_split. f_equal. f_equal. lia.
Qed.
Lemma words_bits n bv : 32 * N.of_nat n <= W8K -> word_bits (words n bv) = front (32 * N.of_nat n) bv.
Proof. intros H. unfold words. rewrite words_bits_from by auto. reflexivity. Qed.
Lemma words_front len bv : len <= W8K -> firstn (N.to_nat len) (word_bits (words (nwords len) bv)) = front len bv.
Proof.
  intros H. destruct (nwords_fit len H) as [H1 H2]. rewrite words_bits by auto. change (firstn (N.to_nat len)) with (slice 0 (N.to_nat len)).
  change (slice 0 (N.to_nat len) (front (32 * N.of_nat (nwords len)) bv)) with (part 0 len (front (32 * N.of_nat (nwords len)) bv)). rewrite part_front by lia. reflexivity.
Qed.
Lemma words_length n bv : List.length (words n bv) = n.
Proof. unfold words. rewrite map_length, seq_length. auto. Qed.
Lemma words_lt n bv w : In w (words n bv) -> w < 2 ^ 32.
Proof. unfold words. intros H. apply in_map_iff in H. destruct H as (i & <- & _). apply bv_read_lt. Qed.
Lemma all_zero_repeat ws : all_zero ws = true -> ws = repeat 0 (List.length ws).
Proof. induction ws as [|w ws IH]; cbn [all_zero forallb List.length repeat]; [auto|]. intros H. apply andb_prop in H as [H1 H2]. apply N.eqb_eq in H1. subst w. f_equal. apply IH. auto. Qed.

(* ---- readers ---- *)
Lemma hex_head n : exists c r, hex n = c :: r /\ exists d, hexval c = Some d.
Proof.
  unfold hex. pose proof (digits_lt 16 n ltac:(lia)) as HF. destruct (digits 16 n) as [|d ds] eqn:E; [destruct (digits_nonempty 16 n E)|]. inversion HF; subst.
  cbn [map]. eexists _, _. split; [reflexivity|]. exists d. apply hexval_digit_char. auto.
Qed.
Lemma read_const_hex w rest : match rest with [] => True | c :: _ => hexval c = None end -> read_const (txt "0x" ++ hex w ++ rest) = Some (w, rest).
Proof.
  intros H. unfold read_const. rewrite expect_app. destruct (hex_head w) as (c & r & E & d & EH). pose proof (read_hex_hex w rest H) as R. rewrite E in *. cbn [app] in *. rewrite EH, R. reflexivity.
Qed.
Lemma read_digits_dec : forall ds acc rest, Forall (fun d => d < 10) ds -> match rest with [] => True | c :: _ => is_digit c = false end ->
  read_digits acc (map digit_char ds ++ rest) = (fold_left (fun a d => a * 10 + d) ds acc, rest).
Proof.
  induction ds as [|d ds IH]; intros acc rest HF HR; cbn [map app fold_left].
  - destruct rest as [|c r]; cbn [read_digits]; auto. rewrite HR. auto.
  - inversion HF; subst. cbn [read_digits]. assert (digit_char d = 48 + d) as E by (unfold digit_char; destruct (N.ltb_spec d 10); lia). rewrite E. unfold is_digit at 1. replace ((48 <=? 48 + d) && (48 + d <=? 57)) with true by lia.
    rewrite IH by auto. f_equal. f_equal. lia.
Qed.
Lemma read_const_dec n rest : match rest with [] => True | c :: _ => is_digit c = false /\ c <> 120 end -> read_const (dec n ++ rest) = Some (n, rest).
Proof.
  intros H. destruct (N.eq_dec n 0) as [->|NZ].
  - change (dec 0) with [48]. cbn [app]. unfold read_const. change (txt "0x") with [48; 120]. cbn [expect]. change (48 =? 48) with true. cbv iota. destruct rest as [|c r]; [reflexivity|]. destruct H as [H1 H2].
    replace (120 =? c) with false by lia. rewrite H1. reflexivity.
  - destruct (digits_nz 10 n ltac:(lia) NZ) as (d & ds & E & ND). pose proof (digits_lt 10 n ltac:(lia)) as HF.
    assert (read_digits 0 (dec n ++ rest) = (n, rest)) as R. { unfold dec. rewrite read_digits_dec; auto; [|destruct rest; tauto]. f_equal. change (dval 10 (digits 10 n) = n). apply dval_digits. lia. }
    unfold dec in *. rewrite E in *. inversion HF; subst. cbn [map app] in *. assert (digit_char d = 48 + d) as ED by (unfold digit_char; destruct (N.ltb_spec d 10); lia). rewrite ED in *.
    unfold read_const. change (txt "0x") with [48; 120]. cbn [expect]. replace (48 =? 48 + d) with false by lia. replace (48 + d =? 48) with false by lia. unfold is_digit at 1. replace ((48 <=? 48 + d) && (48 + d <=? 57)) with true by lia. rewrite R. reflexivity.
Qed.

Lemma hexlist_cons w w' r : hexlist (w :: w' :: r) = txt "0x" ++ hex w ++ txt ", " ++ hexlist (w' :: r).
Proof. reflexivity. Qed.
Lemma hexlist_head w ws : exists q, hexlist (w :: ws) = txt "0x" ++ hex w ++ q /\ (q = [] \/ exists r, q = txt ", " ++ r).
Proof. destruct ws; [exists []; split; [cbn [hexlist]; rewrite app_nil_r; auto|auto]|eexists; split; [apply hexlist_cons|eauto]]. Qed.
Lemma read_items_hex : forall ws fuel rest, ws <> [] -> (List.length ws <= fuel)%nat -> read_items fuel (32 :: hexlist ws ++ txt " }" ++ rest) = Some (ws, rest).
Proof.
  induction ws as [|w ws IH]; intros fuel rest HN HF; [congruence|]. destruct fuel as [|f]; [cbn in HF; lia|]. cbn [read_items spaces]. change (32 =? 32) with true. cbv iota.
  destruct ws as [|w' ws].
  - cbn [hexlist]. rewrite <- app_assoc. change (txt "0x") with [48; 120]. cbn [app spaces]. change (48 =? 32) with false. change (48 =? 125) with false. cbv iota.
    change (48 :: 120 :: hex w ++ txt " }" ++ rest) with (txt "0x" ++ hex w ++ txt " }" ++ rest). rewrite read_const_hex by reflexivity. reflexivity.
  - rewrite hexlist_cons, <- !app_assoc. change (txt "0x") with [48; 120]. cbn [app spaces]. change (48 =? 32) with false. change (48 =? 125) with false. cbv iota.
    change (48 :: 120 :: hex w ++ txt ", " ++ hexlist (w' :: ws) ++ txt " }" ++ rest) with (txt "0x" ++ hex w ++ txt ", " ++ hexlist (w' :: ws) ++ txt " }" ++ rest). rewrite read_const_hex by reflexivity.
    change (txt ", " ++ hexlist (w' :: ws) ++ txt " }" ++ rest) with (44 :: 32 :: hexlist (w' :: ws) ++ txt " }" ++ rest). cbn [spaces]. change (44 =? 32) with false. change (44 =? 44) with true. cbv iota.
    rewrite IH by (try discriminate; cbn [List.length] in *; lia). reflexivity.
Qed.
Lemma hexlist_long ws : (List.length ws <= List.length (hexlist ws))%nat.
Proof.
  induction ws as [|w ws IH]; [auto|]. destruct ws as [|w' ws]; [cbn [hexlist]; rewrite app_length; cbn; lia|]. rewrite hexlist_cons, !app_length. cbn [List.length txt] in *. lia.
Qed.
Lemma dec_rest n s c r : s = c :: r -> is_digit c = false -> c <> 120 -> read_const (dec n ++ s) = Some (n, s).
Proof. intros -> H1 H2. apply read_const_dec. auto. Qed.
Lemma dec_not_paren n s : expect (txt "(") (dec n ++ s) = None.
Proof.
  unfold dec. pose proof (digits_lt 10 n ltac:(lia)) as HF. destruct (digits 10 n) as [|d ds] eqn:E; [destruct (digits_nonempty 10 n E)|]. inversion HF; subst. change (txt "(") with [40]. cbn [map app expect].
  unfold digit_char. replace (40 =? (if d <? 10 then 48 + d else 87 + d)) with false; [reflexivity|]. destruct (N.ltb_spec d 10); lia.
Qed.
Lemma read_decl n head init l : (exists s0, forall s, read_size (s0 ++ txt "] = {" ++ s) = Some (n, txt "] = {" ++ s) /\ head = txt "[" ++ s0 ++ txt "] = {") ->
  (forall fuel, (List.length init <= fuel)%nat -> read_items (S fuel) (init ++ txt ";") = Some (l, txt ";")) ->
  N.of_nat (List.length l) <= n -> Forall (fun w => w < 2 ^ 32) l ->
  read_array (head ++ init ++ txt ";") = Some (l ++ repeat 0 (N.to_nat n - List.length l)).
Proof.
  intros (s0 & HS) HI HL HF. destruct (HS []) as [_ ->]. unfold read_array. rewrite <- !app_assoc. rewrite expect_app. destruct (HS (init ++ txt ";")) as [-> _]. rewrite expect_app. rewrite HI by (rewrite app_length; lia).
  rewrite text_eqb_refl. replace (N.of_nat (List.length l) <=? n) with true by lia. replace (forallb (fun w => w <? 2 ^ 32) l) with true; [reflexivity|]. symmetry. apply forallb_forall. rewrite Forall_forall in HF. intros w Hw. specialize (HF w Hw). lia.
Qed.
Lemma size_text len s : (if len =? 0 then txt "[1] = " else txt "[(" ++ dec len ++ txt " + 31)/32] = ") ++ txt "{" ++ s =
  (txt "[" ++ (if len =? 0 then txt "1" else txt "(" ++ dec len ++ txt " + 31)/32") ++ txt "] = {") ++ s.
Proof. destruct (len =? 0); [reflexivity|]. rewrite <- !app_assoc. reflexivity. Qed.
Lemma size_read len s : read_size ((if len =? 0 then txt "1" else txt "(" ++ dec len ++ txt " + 31)/32") ++ txt "] = {" ++ s) = Some (if len =? 0 then 1 else (len + 31) / 32, txt "] = {" ++ s).
Proof.
  destruct (len =? 0); [reflexivity|]. unfold read_size. rewrite <- !app_assoc. rewrite expect_app. rewrite (dec_rest len _ 32 (txt "+ 31)/32" ++ txt "] = {" ++ s)); [|reflexivity|reflexivity|lia]. rewrite expect_app. reflexivity.
Qed.
Lemma read_declare len init l : (forall fuel, (List.length init <= fuel)%nat -> read_items (S fuel) (init ++ txt ";") = Some (l, txt ";")) ->
  N.of_nat (List.length l) <= (if len =? 0 then 1 else (len + 31) / 32) -> Forall (fun w => w < 2 ^ 32) l ->
  read_array (declare len (txt "{" ++ init)) = Some (l ++ repeat 0 (N.to_nat (if len =? 0 then 1 else (len + 31) / 32) - List.length l)).
Proof.
  intros HI HL HF. unfold declare. rewrite <- app_assoc, size_text. apply read_decl; auto. eexists. intros s. split; [apply size_read|reflexivity].
Qed.

Lemma item_zero t rest : t = txt "0x0" \/ t = txt "0" -> forall fuel, read_items (S fuel) ((txt " " ++ t ++ txt " }") ++ rest) = Some ([0], rest).
Proof. intros [-> | ->] fuel; reflexivity. Qed.

(* the array of len bits (of one word if that is none) that starts with the bits of bv *)
Definition holds (len bv : N) (ws : list N) : Prop :=
  ws = (if len =? 0 then [0] else words (nwords len) bv).
Lemma holds_front len bv ws : len <= W8K -> holds len bv ws -> firstn (N.to_nat len) (word_bits ws) = front len bv.
Proof. unfold holds. intros H ->. destruct (N.eqb_spec len 0) as [->|]; [reflexivity|]. apply words_front. auto. Qed.
Lemma words_zero len bv : all_zero (words (nwords len) bv) = true -> len <= W8K -> [0] ++ repeat 0 (N.to_nat (if len =? 0 then 1 else (len + 31) / 32) - 1) = if len =? 0 then [0] else words (nwords len) bv.
Proof.
  intros H HB. destruct (N.eqb_spec len 0) as [->|NZ]; [reflexivity|]. apply all_zero_repeat in H. rewrite words_length in H. rewrite H. unfold nwords. destruct (N.to_nat ((len + 31) / 32)) as [|n] eqn:E; [lia|].
  cbn [app repeat]. replace (S n - 1)%nat with n by lia. reflexivity.
Qed.

Lemma some_inj {A} (a b : A) : Some a = Some b -> a = b.
Proof. congruence. Qed.
Lemma declareClass_ok len bv t : declareClass len bv = Some t -> exists ws, read_array t = Some ws /\ holds len bv ws.
Proof.
  unfold declareClass, getHexValueAsString, guard. destruct (N.leb_spec len W8K) as [HB|]; [|discriminate]. cbn [bind]. intros H. eexists. split; [|reflexivity].
  destruct (all_zero (words (nwords len) bv)) eqn:EZ; apply some_inj in H; subst t.
  - change (txt "{ " ++ txt "0x0" ++ txt " }") with (txt "{" ++ (txt " " ++ txt "0x0" ++ txt " }")). rewrite (read_declare len _ [0]).
    + f_equal. apply words_zero; auto.
    + intros fuel _. apply item_zero. auto.
    + destruct (N.eqb_spec len 0); cbn; lia.
    + repeat constructor.
  - assert (len <> 0) as NZ by (intros ->; cbn in EZ; discriminate).
    assert (words (nwords len) bv <> []) as NE by (intros E; rewrite E in EZ; discriminate).
    change (txt "{ " ++ hexlist (words (nwords len) bv) ++ txt " }") with (txt "{" ++ (txt " " ++ hexlist (words (nwords len) bv) ++ txt " }")). rewrite (read_declare len _ (words (nwords len) bv)).
    + rewrite words_length. replace (len =? 0) with false by lia. unfold nwords. rewrite Nat.sub_diag. cbn [repeat]. rewrite app_nil_r. reflexivity.
    + intros fuel HF. rewrite <- !app_assoc. change (txt " " ++ hexlist (words (nwords len) bv) ++ txt " }" ++ txt ";") with (32 :: hexlist (words (nwords len) bv) ++ txt " }" ++ txt ";"). apply read_items_hex; auto.
      pose proof (hexlist_long (words (nwords len) bv)). rewrite !app_length in HF. lia.
    + rewrite words_length. replace (len =? 0) with false by lia. unfold nwords. lia.
    + apply Forall_forall. intros w. apply words_lt.
Qed.

(* ---- C68 ---- *)

(* C68: the array in the generated code that a class value or an array of class values is written as holds exactly its bits *)
Theorem C68_class_value : forall len bv, len <= W8K ->
  exists t ws, declareClass len bv = Some t /\ read_array t = Some ws /\ firstn (N.to_nat len) (word_bits ws) = front len bv.
Proof.
  intros len bv H. destruct (declareClass len bv) as [t|] eqn:E.
  - destruct (declareClass_ok len bv t E) as (ws & R & HW). exists t, ws. split; auto. split; auto. apply holds_front; auto.
  - exfalso. revert E. unfold declareClass, getHexValueAsString, guard. replace (len <=? W8K) with true by lia. cbn [bind]. destruct (all_zero _); discriminate.
Qed.
Print Assumptions C68_class_value.

(* a constant array of a primitive type *)
Theorem C68_array_value : forall tbs bv, tbs <= W8K ->
  exists t ws, declareArray tbs bv = Some t /\ read_array t = Some ws /\ firstn (N.to_nat tbs) (word_bits ws) = front tbs bv.
Proof.
  intros tbs bv H. destruct (N.eq_dec tbs 0) as [->|NZ].
  { exists (txt "[1] = { };"), [0]. split; [reflexivity|]. split; [vm_compute; reflexivity|]. reflexivity. }
  unfold declareArray, printPostfixValueArray. replace (tbs =? 0) with false by lia. unfold getHexValueAsString, guard. replace (tbs <=? W8K) with true by lia. cbn [bind]. destruct (all_zero (words (nwords tbs) bv)) eqn:EZ.
  - eexists _, _. split; [reflexivity|]. change (txt "{ 0 }") with (txt "{" ++ (txt " " ++ txt "0" ++ txt " }")). rewrite (read_declare tbs _ [0]).
    + split; [reflexivity|]. cbn [List.length]. rewrite (words_zero tbs bv EZ) by auto. apply holds_front; auto. reflexivity.
    + intros fuel _. apply item_zero. auto.
    + destruct (N.eqb_spec tbs 0); cbn; lia.
    + repeat constructor.
  - destruct (C68_class_value tbs bv H) as (t & ws & E & R & F). revert E. unfold declareClass, getHexValueAsString, guard. replace (tbs <=? W8K) with true by lia. cbn [bind]. rewrite EZ. intros E. apply some_inj in E. subst t. eauto.
Qed.
Print Assumptions C68_array_value.

(* a list of items for a local array: as an array of words, or as one number if it is packed into 64 bits *)
Theorem C68_list_value : forall tbs bv, 0 < tbs <= W8K ->
  exists t ws, declareList tbs bv = Some t /\ read_array t = Some ws /\ firstn (N.to_nat tbs) (word_bits ws) = front tbs bv.
Proof.
  intros tbs bv [H0 H]. unfold declareList, guard. replace (tbs <=? W8K) with true by lia. cbn [bind]. eexists _, (words (nwords tbs) bv). split; [reflexivity|]. split; [|apply words_front; auto].
  assert (nwords tbs <> 0%nat) as NZ by (unfold nwords; lia).
  assert (words (nwords tbs) bv <> []) as NE. { intros E. apply (f_equal (@List.length N)) in E. rewrite words_length in E. auto. }
  change (txt "] = { " ++ hexlist (words (nwords tbs) bv) ++ txt " };") with (txt "] = {" ++ (txt " " ++ hexlist (words (nwords tbs) bv) ++ (txt " }" ++ txt ";"))).
  replace (txt "[" ++ dec (N.of_nat (nwords tbs)) ++ txt "] = {" ++ (txt " " ++ hexlist (words (nwords tbs) bv) ++ (txt " }" ++ txt ";")))
    with ((txt "[" ++ dec (N.of_nat (nwords tbs)) ++ txt "] = {") ++ (txt " " ++ hexlist (words (nwords tbs) bv) ++ txt " }") ++ txt ";") by (rewrite <- !app_assoc; reflexivity).
  rewrite (read_decl (N.of_nat (nwords tbs)) _ _ (words (nwords tbs) bv)).
  - rewrite words_length, Nnat.Nat2N.id, Nat.sub_diag. cbn [repeat]. rewrite app_nil_r. reflexivity.
  - exists (dec (N.of_nat (nwords tbs))). intros s. split; [|reflexivity]. unfold read_size. rewrite dec_not_paren. eapply dec_rest; [reflexivity|reflexivity|cbn; lia].
  - intros fuel HF. rewrite <- !app_assoc. change (txt " " ++ hexlist (words (nwords tbs) bv) ++ txt " }" ++ txt ";") with (32 :: hexlist (words (nwords tbs) bv) ++ txt " }" ++ txt ";"). apply read_items_hex; auto.
    pose proof (hexlist_long (words (nwords tbs) bv)). rewrite !app_length in HF. lia.
  - rewrite words_length. lia.
  - apply Forall_forall. intros w. apply words_lt.
Qed.
Print Assumptions C68_list_value.

Lemma read_value_hex v : v < two64 -> read_value (txt "0x" ++ hex v) = Some v.
Proof.
  intros H. unfold read_value. pose proof (read_const_hex v [] I) as R. rewrite app_nil_r in R. rewrite R. unfold read_HexU64. reflexivity.
Qed.
Lemma read_value_64 v : v < two64 -> read_value (ToUnsignedDecimal v) = Some v.
Proof. intros H. unfold read_value. rewrite ToUnsignedDecimal_ok; auto. Qed.
Lemma read_64 n bv : n <= 64 -> bv_read W8K 0 n bv < two64.
Proof. intros H. pose proof (bv_read_lt W8K 0 n bv). assert (2 ^ n <= 2 ^ 64) by (apply N.pow_le_mono_r; lia). change (2 ^ 64) with two64 in *. lia. Qed.
Theorem C68_packed_value : forall tbs bv, tbs <= 64 ->
  exists t, packedList tbs bv = Some t /\ read_value t = Some (bval (front tbs bv)).
Proof.
  intros tbs bv H. pose proof (read_64 tbs bv H) as HL. assert (bv_read W8K 0 tbs bv = bval (front tbs bv)) as EV by (rewrite read_part by (unfold W8K; lia); reflexivity). unfold packedList.
  destruct (Nat.leb_spec (nwords tbs) 1) as [H1|H1].
  - eexists. split; [reflexivity|]. rewrite read_value_hex; congruence.
  - assert (nwords tbs = 2)%nat as -> by (unfold nwords in *; lia). eexists. split; [reflexivity|]. rewrite read_value_64; congruence.
Qed.
Print Assumptions C68_packed_value.

(* the default value of a class in the generated code: of an element or transient with data members ... *)
Theorem C68_default : forall root classes compare members header emptyElement rank, program root classes compare members emptyElement rank ->
  forall c k fuel v, classes c = Some k -> 0 < totalbits root classes c -> (rank c < fuel)%nat ->
  class_default root classes compare members header emptyElement fuel [] c = Some v ->
  exists t ws, defaultText root classes c k v = Some t /\ read_array t = Some ws /\
    firstn (N.to_nat (class_size root classes c)) (word_bits ws) = front (class_size root classes c) v.
Proof.
  intros root classes compare members header emptyElement rank P c k fuel v EK HT HF E. pose proof (p_fits _ _ _ _ _ _ P c k EK) as HB.
  assert ((if is_element (lc_kind k) then 96 else totalbits root classes c) = class_size root classes c) as ES by (unfold class_size; rewrite EK; destruct k as [[] ? ? ?]; reflexivity).
  assert (class_size root classes c <= W8K) as HS. { unfold class_size. rewrite EK. destruct k as [[] ? ? ?]; unfold W8K in *; lia. }
  unfold defaultText, guard. replace (0 <? totalbits root classes c) with true by lia. cbn [bind]. rewrite ES. apply C68_class_value. auto.
Qed.
Print Assumptions C68_default.
(* ... and of a quark *)
Theorem C68_default_quark : forall root classes compare members header emptyElement rank, program root classes compare members emptyElement rank ->
  forall c k fuel v, classes c = Some k -> lc_kind k = Quark -> totalbits root classes c <= 64 -> (rank c < fuel)%nat ->
  class_default root classes compare members header emptyElement fuel [] c = Some v ->
  exists t, quarkDefault root classes c v = Some t /\ read_value t = Some (bval (front (class_size root classes c) v)).
Proof.
  intros root classes compare members header emptyElement rank P c k fuel v EK KQ HT HF E.
  assert (class_size root classes c = totalbits root classes c) as -> by (unfold class_size; rewrite EK; destruct k as [[] ? ? ?]; cbn in KQ; congruence). set (len := totalbits root classes c) in *.
  unfold quarkDefault, guard. fold len. replace (len <=? 64) with true by lia. cbn [bind]. eexists. split; [reflexivity|].
  assert ((if 0 <? len then bv_read W8K 0 len v else 0) = bval (front len v)) as ->. { destruct (N.ltb_spec 0 len) as [|HZ]; [rewrite read_part by (unfold W8K; lia); reflexivity|]. assert (len = 0) as -> by lia. reflexivity. }
  assert (bval (front len v) < 2 ^ len) as HL. { pose proof (bval_lt (front len v)) as H. rewrite front_length in H by (unfold W8K; lia). replace (N.of_nat (N.to_nat len)) with len in H by lia. exact H. }
  assert (bval (front len v) < two64) as H64. { assert (2 ^ len <= 2 ^ 64) by (apply N.pow_le_mono_r; lia). change (2 ^ 64) with two64 in *. lia. }
  unfold quarkText. destruct (N.eqb_spec (bval (front len v)) 0) as [E0|]; [rewrite E0; vm_compute; reflexivity|]. destruct (N.leb_spec len 32) as [H32|]; [|apply read_value_64; auto].
  assert (u32 (bval (front len v)) = bval (front len v)) as ->. { unfold u32. apply N.mod_small. assert (2 ^ len <= 2 ^ 32) by (apply N.pow_le_mono_r; lia). change (2 ^ 32) with two32 in *. lia. } apply read_value_hex. auto.
Qed.
Print Assumptions C68_default_quark.

(* ---- the map of members ---- *)
Lemma strip_zeros_ok ws : exists n, ws = strip_zeros ws ++ repeat 0 n /\ (all_zero ws = false -> strip_zeros ws <> []).
Proof.
  unfold strip_zeros. set (drop := fix drop (l : list N) := match l with w :: r => if w =? 0 then drop r else l | [] => [] end).
  assert (forall l, exists n, l = repeat 0 n ++ drop l /\ (all_zero l = false -> drop l <> [])) as H.
  { induction l as [|w l [n [IH1 IH2]]]; [exists 0%nat; split; [reflexivity|discriminate]|]. cbn [drop]. destruct (N.eqb_spec w 0) as [->|NZ].
    - exists (S n). split; [cbn [repeat app]; f_equal; exact IH1|]. cbn [all_zero forallb]. intros H. apply IH2. exact H.
    - exists 0%nat. split; [reflexivity|discriminate]. }
  destruct (H (rev ws)) as (n & E & NZ). exists n. split.
  - rewrite <- (rev_involutive ws) at 1. rewrite E at 1. rewrite rev_app_distr. f_equal. clear. induction n; [reflexivity|]. cbn [repeat rev]. rewrite IHn. clear. induction n; [reflexivity|]. cbn [repeat app]. f_equal. exact IHn.
  - intros EZ HE. apply NZ; [|rewrite <- (rev_involutive (drop (rev ws))); unfold drop in *; rewrite HE; reflexivity].
    revert EZ. unfold all_zero. clear. intros EZ. destruct (forallb (fun w => w =? 0) (rev ws)) eqn:E; [|reflexivity]. rewrite forallb_forall in E. assert (forallb (fun w => w =? 0) ws = true) as X; [|congruence]. apply forallb_forall. intros w Hw. apply E. apply in_rev. rewrite rev_involutive. auto.
Qed.
Lemma read_words_ok ws rest : Forall (fun w => w < 2 ^ 32) ws -> read_words (List.length ws) (flat_map ToLeximitedNumber32u ws ++ rest) = Some (ws, rest).
Proof.
  induction ws as [|w ws IH]; intros HF; [reflexivity|]. inversion HF; subst. cbn [List.length flat_map read_words]. unfold ToLeximitedNumber32u at 1. rewrite <- app_assoc, read_unsigned_ok by (unfold two64; lia). rewrite IH by auto. reflexivity.
Qed.
Lemma lex_value_ok len bv rest : len <= W8K -> exists t ws, getLexValueAsString len bv = Some t /\ read_lex (t ++ rest) = Some (ws, rest) /\
  exists n, ws ++ repeat 0 n = words (nwords len) bv.
Proof.
  intros H. unfold getLexValueAsString, guard. replace (len <=? W8K) with true by lia. cbn [bind]. destruct (all_zero (words (nwords len) bv)) eqn:EZ.
  - eexists _, []. split; [reflexivity|]. split; [reflexivity|]. exists (nwords len). apply all_zero_repeat in EZ. rewrite words_length in EZ. symmetry. exact EZ.
  - destruct (strip_zeros_ok (words (nwords len) bv)) as (n & E & NE). eexists _, (strip_zeros (words (nwords len) bv)). split; [reflexivity|]. split; [|eauto].
    assert (List.length (words (nwords len) bv) = (List.length (strip_zeros (words (nwords len) bv)) + n)%nat) as EL by (rewrite E at 1; rewrite app_length, repeat_length; auto). rewrite words_length in EL.
    unfold read_lex. unfold ToLeximitedNumber32u at 1. rewrite <- app_assoc, read_unsigned_ok by (unfold nwords, W8K, two64 in *; lia). rewrite Nnat.Nat2N.id. apply read_words_ok.
    apply Forall_forall. intros w Hw. apply (words_lt (nwords len) bv). rewrite E. apply in_or_app. auto.
Qed.

(* C68: the value of a data member or constant in the map, whatever follows, is read as its bits, the rest being zero ... *)
Theorem C68_map_value : forall m init rest, mt_element m = false -> member_size m <= W8K ->
  exists t ws n, mapText m init = Some t /\ read_lex (t ++ rest) = Some (ws, rest) /\
    firstn (N.to_nat (member_size m)) (word_bits (ws ++ repeat 0 n)) = match init with Some v => front (member_size m) v | None => zeros (member_size m) end.
Proof.
  intros m init rest NE HB.
  assert (getTotalBitSize m = member_size m /\ getSizeofUlamType m = member_size m) as [E1 E2]. { unfold getSizeofUlamType, getTotalBitSize, member_size, items. rewrite NE. destruct (mt_array m); lia. }
  destruct init as [v|].
  - cbn [mapText]. unfold stored. rewrite E1, E2, copyBV_ok by (unfold W8K in *; lia). cbn [bind]. destruct (lex_value_ok (member_size m) (bv_write W8K 0 (member_size m) (bv_read W8K 0 (member_size m) v) 0) rest HB) as (t & ws & ET & ER & n & EW).
    exists t, ws, n. split; auto. split; auto. rewrite EW, words_front by auto. rewrite front_part, write_part by lia. rewrite read_bits by lia. reflexivity.
  - exists (txt "10"), [], (nwords (member_size m)). split; [reflexivity|]. split; [reflexivity|]. cbn [app]. destruct (nwords_fit _ HB) as [H1 H2].
    assert (forall n, word_bits (repeat 0 n) = repeat false (32 * n)) as HZ. { induction n; [reflexivity|]. cbn [repeat word_bits flat_map]. fold (word_bits (repeat 0 n)). rewrite IHn. replace (32 * S n)%nat with (32 + 32 * n)%nat by lia. rewrite repeat_app. reflexivity. }
    rewrite HZ. unfold zeros. assert (forall a b, (a <= b)%nat -> firstn a (repeat false b) = repeat false a) as HR. { clear. induction a; intros [|b] Hab; cbn; auto; [lia|]. f_equal. apply IHa. lia. } apply HR. lia.
Qed.
Print Assumptions C68_map_value.
(* ... for elements only the bits of the first words of the total size, which leaves out the header's bits *)
Theorem C68_map_element : forall m v rest, mt_element m = true -> member_size m <= W8K -> mt_bits m <= 96 ->
  exists t ws n, mapText m (Some v) = Some t /\ read_lex (t ++ rest) = Some (ws, rest) /\
    firstn (N.to_nat (mt_bits m * nitems m)) (word_bits (ws ++ repeat 0 n)) = front (mt_bits m * nitems m) v.
Proof.
  intros m v rest NE HB H96.
  assert (getTotalBitSize m = mt_bits m * nitems m /\ getSizeofUlamType m = member_size m /\ mt_bits m * nitems m <= member_size m) as (E1 & E2 & HL).
  { unfold getSizeofUlamType, getTotalBitSize, member_size, nitems, items in *. rewrite NE in *. destruct (mt_array m); repeat split; nia. }
  cbn [mapText]. unfold stored. rewrite E2, copyBV_ok by (unfold W8K in *; lia). cbn [bind]. rewrite E1.
  destruct (lex_value_ok (mt_bits m * nitems m) (bv_write W8K 0 (member_size m) (bv_read W8K 0 (member_size m) v) 0) rest ltac:(lia)) as (t & ws & ET & ER & n & EW).
  exists t, ws, n. split; auto. split; auto. rewrite EW, words_front by lia. 
  assert (forall x, front (mt_bits m * nitems m) x = part 0 (mt_bits m * nitems m) (front (member_size m) x)) as HP by (intros; rewrite part_front by lia; reflexivity).
  rewrite !HP. f_equal. rewrite (front_part (member_size m)), write_part by lia. rewrite read_bits by lia. reflexivity.
Qed.
Print Assumptions C68_map_element.
(* an element with 8 bits of data after the header of 25: the last of them is not in the map entry *)
Theorem C68_map_element_refuted : exists m v v', mt_element m = true /\ member_size m <= W8K /\ mapText m (Some v) = mapText m (Some v') /\ mapText m (Some v) <> None /\
  front (member_size m) v <> front (member_size m) v' /\ part 0 25 (bits8k v) = part 0 25 (bits8k v').
Proof.
  exists {| mt_bits := 8; mt_array := None; mt_element := true |}, (2 ^ 8188), (2 ^ 8188 + 2 ^ 8159). split; [reflexivity|]. split; [vm_compute; discriminate|]. split; [vm_compute; reflexivity|]. split; [vm_compute; discriminate|]. split; [vm_compute; discriminate|vm_compute; reflexivity].
Qed.
Print Assumptions C68_map_element_refuted.

(* two values of a type with the same map text are the same *)
Theorem C68_map_injective : forall m v v', mt_element m = false -> member_size m <= W8K -> mapText m (Some v) = mapText m (Some v') -> front (member_size m) v = front (member_size m) v'.
Proof.
  intros m v v' NE HB E. destruct (C68_map_value m (Some v) [] NE HB) as (t & ws & n & T & R & F). destruct (C68_map_value m (Some v') [] NE HB) as (t' & ws' & n' & T' & R' & F').
  assert (t = t') as <- by congruence. rewrite R in R'. injection R' as <-. rewrite <- F, <- F'. destruct (nwords_fit _ HB) as [H1 H2].
  assert (forall k, word_bits (repeat 0 k) = repeat false (32 * k)) as HZ. { induction k; [reflexivity|]. cbn [repeat word_bits flat_map]. fold (word_bits (repeat 0 k)). rewrite IHk. replace (32 * S k)%nat with (32 + 32 * k)%nat by lia. rewrite repeat_app. reflexivity. }
  assert (forall k, List.length (word_bits ws ++ repeat false (32 * k)) = (List.length (word_bits ws) + 32 * k)%nat) as HLen by (intros; rewrite app_length, repeat_length; auto).
  assert (forall k, word_bits (ws ++ repeat 0 k) = word_bits ws ++ repeat false (32 * k)) as HA by (intros; rewrite <- HZ; unfold word_bits; apply flat_map_app).
  rewrite !HA. apply list_nth_ext.
  - pose proof (f_equal (@List.length bool) F) as L1. pose proof (f_equal (@List.length bool) F') as L2. rewrite HA, front_length in L1, L2 by auto. congruence.
  - intros i Hi. pose proof (f_equal (@List.length bool) F) as L1. rewrite HA, front_length in L1 by auto. rewrite !nth_firstn_lt by lia.
    assert (forall k, nth i (word_bits ws ++ repeat false (32 * k)) false = nth i (word_bits ws) false) as HN; [|rewrite !HN; reflexivity].
    intros k. destruct (Nat.lt_ge_cases i (List.length (word_bits ws))) as [Hlt|Hge]; [apply app_nth1; auto|]. rewrite app_nth2, (nth_overflow (word_bits ws)) by lia.
    destruct (Nat.lt_ge_cases (i - List.length (word_bits ws)) (32 * k)) as [Hk|Hk]; [apply nth_repeat|apply nth_overflow; rewrite repeat_length; lia].
Qed.
Print Assumptions C68_map_injective.

Example C68_ex : declareClass 40 (5 * 2 ^ 8159 + 2 ^ 8152) = Some (txt "[(40 + 31)/32] = { 0x2, 0x81000000 };") /\
  read_array (txt "[(40 + 31)/32] = { 0x2, 0x81000000 };") = Some [2; 2164260864] /\ declareArray 70 0 = Some (txt "[(70 + 31)/32] = { 0 };") /\
  read_array (txt "[(70 + 31)/32] = { 0 };") = Some [0; 0; 0] /\ read_array (txt "[1] = { 0x1, 0x2 };") = None /\
  packedList 40 (2 ^ 8191) = Some (txt "HexU64(0x80, 0x0)") /\ mapText {| mt_bits := 3; mt_array := Some 20; mt_element := false |} (Some (7 * 2 ^ 8189)) = Some (txt "1192103758096384") /\
  read_lex (txt "11921037580963848") = Some ([3758096384], [56]).
Proof. vm_compute. auto 10. Qed.
