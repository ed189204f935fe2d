From Coq Require Import List NArith ZArith Lia Bool.
From Coq Require Import ZifyBool ZifyNat ZifyN.
From Verif Require Import Base LeximitedModel LeximitedSpec.
Import ListNotations.
Ltac Zify.zify_post_hook ::= Z.div_mod_to_equations.
Open Scope N_scope.

Lemma read_dec_map ds a : Forall (fun d => d < 10) ds ->
  fold_left (fun a c => 10 * a + (c - 48)) (map digit_char ds) a = fold_left (fun a d => a * 10 + d) ds a.
Proof.
  revert a; induction ds as [|d ds IH]; intros a HF; cbn [map fold_left]; auto.
  inversion HF; subst. rewrite IH by auto. f_equal. unfold digit_char.
  destruct (N.ltb_spec d 10); lia.
Qed.

Lemma read_dec_dec n : read_dec (dec n) = n.
Proof.
  unfold read_dec, dec. rewrite read_dec_map by (apply digits_lt; lia).
  apply dval_digits. lia.
Qed.

Lemma dec_small n : n < 10 -> dec n = [48 + n].
Proof.
  intros H. unfold dec, digits, rdigits. cbn [rdigits_fuel].
  destruct (N.ltb_spec n 10); [|lia]. cbn [rev app map]. unfold digit_char.
  destruct (N.ltb_spec n 10); [|lia]. reflexivity.
Qed.

Lemma DigitCount10_bound n k : (0 < k)%nat -> n < 10 ^ N.of_nat k -> DigitCount10 n <= N.of_nat k.
Proof.
  intros. unfold DigitCount10.
  pose proof (digits_len_small 10 n k). lia.
Qed.

Lemma firstn_app_exact {A} (l r : list A) : firstn (List.length l) (l ++ r) = l.
Proof. rewrite firstn_app, firstn_all, Nat.sub_diag. cbn. apply app_nil_r. Qed.

Lemma skipn_app_exact {A} (l r : list A) : skipn (List.length l) (l ++ r) = r.
Proof. rewrite skipn_app, skipn_all, Nat.sub_diag. reflexivity. Qed.

Lemma read_header_small n rest : n < 9 -> read_header (dec n ++ rest) = Some (n, rest).
Proof.
  intros H. rewrite dec_small by lia. cbn [app read_header].
  replace ((48 <=? 48 + n) && (48 + n <=? 56)) with true by lia.
  repeat f_equal. lia.
Qed.

Lemma read_header_step h n rest :
  (forall r, read_header (h ++ r) = Some (DigitCount10 n, r)) ->
  read_header ((57 :: h ++ dec n) ++ rest) = Some (n, rest).
Proof.
  intros H. cbn [app read_header].
  replace ((48 <=? 57) && (57 <=? 56)) with false by reflexivity.
  replace (57 =? 57) with true by reflexivity.
  rewrite <- app_assoc, H.
  assert (E : N.to_nat (DigitCount10 n) = List.length (dec n)).
  { unfold DigitCount10. rewrite dec_length. lia. }
  cbv zeta. rewrite E.
  replace (List.length (dec n) <=? List.length (dec n ++ rest))%nat with true
    by (rewrite app_length; lia).
  rewrite firstn_app_exact, skipn_app_exact, read_dec_dec. reflexivity.
Qed.

Lemma read_header_ok n rest : n < two64 -> read_header (ToLeximitedHeader n ++ rest) = Some (n, rest).
Proof.
  intros Hn. unfold ToLeximitedHeader, two64 in *.
  cbn [lexheader_fuel].
  destruct (N.ltb_spec n 9); [apply read_header_small; auto|].
  apply read_header_step. intros r.
  assert (H1 : DigitCount10 n <= 20).
  { pose proof (DigitCount10_bound n 20). change (10 ^ N.of_nat 20) with 100000000000000000000 in H0. lia. }
  set (m := DigitCount10 n) in *. clearbody m. clear n Hn H.
  destruct (N.ltb_spec m 9); [apply read_header_small; auto|].
  apply read_header_step. intros r'.
  assert (H2 : DigitCount10 m <= 2).
  { pose proof (DigitCount10_bound m 2). change (10 ^ N.of_nat 2) with 100 in H0. lia. }
  set (k := DigitCount10 m) in *. clearbody k.
  destruct (N.ltb_spec k 9); [apply read_header_small; auto|lia].
Qed.

(* the fuel of the model is never exhausted: the C++ recursion equation holds *)
Lemma lexheader_eq n : n < two32 ->
  ToLeximitedHeader n = if n <? 9 then dec n else 57 :: ToLeximitedHeader (DigitCount10 n) ++ dec n.
Proof.
  intros Hn. unfold ToLeximitedHeader, two32 in *.
  cbn [lexheader_fuel].
  destruct (N.ltb_spec n 9); auto. f_equal. f_equal.
  assert (H1 : DigitCount10 n <= 20).
  { pose proof (DigitCount10_bound n 20). change (10 ^ N.of_nat 20) with 100000000000000000000 in H0. lia. }
  set (m := DigitCount10 n) in *. clearbody m. clear n Hn H.
  destruct (N.ltb_spec m 9); auto.
  assert (H2 : DigitCount10 m <= 2).
  { pose proof (DigitCount10_bound m 2). change (10 ^ N.of_nat 2) with 100 in H0. lia. }
  set (k := DigitCount10 m) in *. clearbody k.
  destruct (N.ltb_spec k 9); [auto|lia].
Qed.

Lemma read_string_ok s rest : N.of_nat (List.length s) < two32 ->
  read_string (ToLeximited s ++ rest) = Some (s, rest).
Proof.
  intros H. unfold read_string, ToLeximited, u32. rewrite N.mod_small by auto.
  rewrite <- app_assoc, read_header_ok by (unfold two32, two64 in *; lia).
  cbv zeta. rewrite Nat2N.id.
  replace (List.length s <=? List.length (s ++ rest))%nat with true by (rewrite app_length; lia).
  rewrite firstn_app_exact, skipn_app_exact. reflexivity.
Qed.

Lemma ToLeximited_nonempty s : N.of_nat (List.length s) < two32 -> ToLeximited s <> [].
Proof.
  intros H E. pose proof (read_string_ok s [] H) as R. rewrite E in R. discriminate.
Qed.

Lemma ToLeximited_prefix_free s1 s2 r1 r2 :
  N.of_nat (List.length s1) < two32 -> N.of_nat (List.length s2) < two32 ->
  ToLeximited s1 ++ r1 = ToLeximited s2 ++ r2 -> s1 = s2 /\ r1 = r2.
Proof.
  intros H1 H2 E. pose proof (read_string_ok s1 r1 H1) as A.
  rewrite E, read_string_ok in A by auto. injection A as -> ->. auto.
Qed.

Lemma ToLeximited_concat_inj l1 l2 :
  Forall (fun s => N.of_nat (List.length s) < two32) l1 ->
  Forall (fun s => N.of_nat (List.length s) < two32) l2 ->
  concat (map ToLeximited l1) = concat (map ToLeximited l2) -> l1 = l2.
Proof.
  revert l2; induction l1 as [|a l1 IH]; destruct l2 as [|b l2]; cbn [map concat]; intros H1 H2 E; auto.
  - exfalso. inversion H2; subst. symmetry in E. apply app_eq_nil in E. destruct E as [E _].
    revert E. apply ToLeximited_nonempty; auto.
  - exfalso. inversion H1; subst. apply app_eq_nil in E. destruct E as [E _].
    revert E. apply ToLeximited_nonempty; auto.
  - inversion H1; inversion H2; subst.
    apply ToLeximited_prefix_free in E; auto. destruct E as [-> E]. f_equal. auto.
Qed.

Lemma read_unsigned_ok n rest : n < two64 ->
  read_unsigned (ToLeximitedNumberU n ++ rest) = Some (n, rest).
Proof.
  intros Hn. unfold read_unsigned, read_string, ToLeximitedNumberU.
  replace (if n =? 0 then 1 else DigitCount10 n) with (DigitCount10 n).
  2:{ destruct (N.eqb_spec n 0); subst; reflexivity. }
  assert (B : DigitCount10 n <= 20).
  { pose proof (DigitCount10_bound n 20). change (10 ^ N.of_nat 20) with 100000000000000000000 in H.
    unfold two64 in *; lia. }
  rewrite <- app_assoc, read_header_ok by (unfold two64; lia). cbv zeta.
  assert (E : N.to_nat (DigitCount10 n) = List.length (dec n)).
  { unfold DigitCount10. rewrite dec_length. lia. }
  rewrite E.
  replace (List.length (dec n) <=? List.length (dec n ++ rest))%nat with true by (rewrite app_length; lia).
  rewrite firstn_app_exact, skipn_app_exact, read_dec_dec. reflexivity.
Qed.

Lemma lex_unsigned_eq n : ToLeximitedNumberU n = ToLeximitedHeader (DigitCount10 n) ++ dec n.
Proof. unfold ToLeximitedNumberU. destruct (N.eqb_spec n 0); subst; reflexivity. Qed.

Lemma lex_unsigned_head n : n < two64 -> exists c r, ToLeximitedNumberU n = c :: r /\ dec_digit c = true.
Proof.
  intros Hn. rewrite lex_unsigned_eq. unfold ToLeximitedHeader. cbn [lexheader_fuel].
  destruct (N.ltb_spec (DigitCount10 n) 9).
  - rewrite dec_small by lia. cbn [app]. eexists _, _. split; eauto. unfold dec_digit. lia.
  - cbn [app]. eexists _, _. split; eauto.
Qed.

Lemma read_signed_ok smin n rest : (- Z.of_N two64 < smin < 0)%Z -> (smin <= n < - smin)%Z ->
  read_signed smin (ToLeximitedNumberS smin n ++ rest) = Some (n, rest).
Proof.
  intros Hs Hn. unfold ToLeximitedNumberS.
  assert (Pos : forall m, m < two64 ->
     read_signed smin (ToLeximitedNumberU m ++ rest) = Some (Z.of_N m, rest)).
  { intros m Hm. destruct (lex_unsigned_head m Hm) as (c & r & E & Hc).
    pose proof (read_unsigned_ok m rest Hm) as R. rewrite E in *.
    unfold read_signed. cbn [app] in *.
    replace (c =? 110) with false by (unfold dec_digit in Hc; lia). rewrite R. reflexivity. }
  assert (Neg : forall m, m < two64 ->
     read_signed smin (110 :: ToLeximitedNumberU m ++ rest)
     = Some (if m =? 0 then smin else (- Z.of_N m)%Z, rest)).
  { intros m Hm. pose proof (read_unsigned_ok m rest Hm) as R.
    unfold read_signed. replace (110 =? 110) with true by reflexivity. rewrite R.
    destruct m; reflexivity. }
  destruct (Z.eqb_spec n 0).
  - subst n. cbn [app]. change (Z.to_N 0) with 0.
    apply (Pos 0). unfold two64; lia.
  - destruct (Z.ltb_spec n 0).
    + destruct (Z.eqb_spec n smin).
      * subst n. change (Z.to_N 0) with 0. cbn [app].
        change (ToLeximitedHeader 1 ++ dec 0) with (ToLeximitedNumberU 0).
        rewrite Neg by (unfold two64; lia). reflexivity.
      * cbn [app]. rewrite <- lex_unsigned_eq.
        rewrite Neg by (unfold two64 in *; lia).
        replace (Z.to_N (- n) =? 0) with false by lia.
        f_equal. f_equal. lia.
    + cbn [app]. rewrite <- lex_unsigned_eq. rewrite Pos by (unfold two64 in *; lia).
      f_equal. f_equal. lia.
Qed.
