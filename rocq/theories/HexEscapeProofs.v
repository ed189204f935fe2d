From Coq Require Import String List NArith ZArith Lia Bool.
From Coq Require Import ZifyBool ZifyNat ZifyN.
From Verif Require Import Base HexEscapeModel HexEscapeSpec.
Import ListNotations.
Ltac Zify.zify_post_hook ::= Z.div_mod_to_equations.
Open Scope N_scope.

Lemma hexval_digit_char d : d < 16 -> hexval (digit_char d) = Some d.
Proof.
  intros H. unfold hexval, digit_char. destruct (N.ltb_spec d 10).
  - replace ((48 <=? 48 + d) && (48 + d <=? 57)) with true by lia. f_equal. lia.
  - replace ((48 <=? 87 + d) && (87 + d <=? 57)) with false by lia.
    replace ((97 <=? 87 + d) && (87 + d <=? 102)) with true by lia. f_equal. lia.
Qed.

Lemma digits16_small d : d < 16 -> digits 16 d = [d].
Proof.
  intros. unfold digits, rdigits. cbn [rdigits_fuel].
  destruct (N.ltb_spec d 16); [reflexivity|lia].
Qed.

Lemma digits16_two d : 16 <= d -> d < 256 -> digits 16 d = [d / 16; d mod 16].
Proof.
  intros H1 H2.
  assert (E : dval 16 [d / 16; d mod 16] = d).
  { unfold dval. cbn [fold_left]. lia. }
  rewrite <- E at 1. symmetry. apply dval_unique.
  - lia.
  - repeat constructor; lia.
  - eexists _, _. split; [reflexivity|]. lia.
Qed.

(* every escape is exactly two hex digits *)
Lemma hex_escape_two d : d < 256 ->
  exists x y, (if d <? 16 then [48] else []) ++ hex d = [digit_char x; digit_char y]
    /\ x < 16 /\ y < 16 /\ 16 * x + y = d.
Proof.
  intros H. unfold hex. destruct (N.ltb_spec d 16).
  - rewrite digits16_small by auto. exists 0, d. cbn. repeat split; auto; lia.
  - rewrite digits16_two by auto. exists (d / 16), (d mod 16). cbn [map app]. repeat split; lia.
Qed.

Lemma unescape_HexEscape s : is_text s = true -> unescape (HexEscape s) = Some s.
Proof.
  induction s as [|c s IH]; intros H; cbn [HexEscape]; auto.
  unfold is_text in H. cbn [forallb] in H. apply andb_true_iff in H as [Hc Hs].
  unfold is_byte in Hc. specialize (IH Hs).
  destruct (isgraph c && negb (c =? 37)) eqn:G.
  - cbn [app unescape]. replace (c =? 37) with false by lia. rewrite IH. reflexivity.
  - destruct (hex_escape_two c) as (x & y & E & Hx & Hy & V); [lia|].
    cbn [app]. rewrite E. cbn [app unescape]. replace (37 =? 37) with true by reflexivity.
    rewrite !hexval_digit_char, IH by auto. rewrite V. reflexivity.
Qed.

Lemma HexEscape_visible s : is_text s = true -> forallb visible (HexEscape s) = true.
Proof.
  induction s as [|c s IH]; intros H; cbn [HexEscape]; auto.
  unfold is_text in H. cbn [forallb] in H. apply andb_true_iff in H as [Hc Hs].
  unfold is_byte in Hc. specialize (IH Hs). rewrite forallb_app, IH, andb_true_r.
  destruct (isgraph c && negb (c =? 37)) eqn:G.
  - cbn. unfold isgraph, visible in *. lia.
  - destruct (hex_escape_two c) as (x & y & E & Hx & Hy & V); [lia|].
    rewrite E. cbn [forallb]. unfold visible, digit_char.
    destruct (N.ltb_spec x 10), (N.ltb_spec y 10); lia.
Qed.

(* ---- HexU64 ---- *)
Lemma read_hex_digits ds acc rest : Forall (fun d => d < 16) ds ->
  (match rest with [] => True | c :: _ => hexval c = None end) ->
  read_hex acc (map digit_char ds ++ rest) = (fold_left (fun a d => a * 16 + d) ds acc, rest).
Proof.
  revert acc; induction ds as [|d ds IH]; intros acc HF Hr; cbn [map app fold_left].
  - destruct rest as [|c rest]; cbn [read_hex]; auto. rewrite Hr. reflexivity.
  - inversion HF; subst. cbn [read_hex]. rewrite hexval_digit_char by auto.
    rewrite IH by auto. f_equal. f_equal. lia.
Qed.

Lemma read_hex_hex n rest : (match rest with [] => True | c :: _ => hexval c = None end) ->
  read_hex 0 (hex n ++ rest) = (n, rest).
Proof.
  intros. unfold hex. rewrite read_hex_digits; auto.
  - f_equal. apply dval_digits. lia.
  - apply digits_lt. lia.
Qed.

Lemma expect_app p s : expect p (p ++ s) = Some s.
Proof. induction p; cbn [expect app]; auto. rewrite N.eqb_refl. auto. Qed.

Lemma HexU64_text hi lo : hi < 2 ^ 32 -> lo < 2 ^ 32 ->
  read_HexU64 (txt "HexU64(" ++ txt "0x" ++ hex hi ++ txt ", " ++ txt "0x" ++ hex lo ++ txt ")")
  = Some (hi * 2 ^ 32 + lo).
Proof.
  intros Hh Hl. unfold read_HexU64.
  change (txt "HexU64(" ++ txt "0x" ++ hex hi ++ txt ", " ++ txt "0x" ++ hex lo ++ txt ")")
    with (txt "HexU64(0x" ++ (hex hi ++ txt ", " ++ txt "0x" ++ hex lo ++ txt ")")).
  rewrite expect_app, read_hex_hex by reflexivity.
  change (txt ", " ++ txt "0x" ++ hex lo ++ txt ")") with (txt ", 0x" ++ (hex lo ++ txt ")")).
  rewrite expect_app, read_hex_hex by reflexivity.
  replace (expect (txt ")") (txt ")")) with (Some (@nil N)) by reflexivity.
  replace ((hi <? 2 ^ 32) && (lo <? 2 ^ 32)) with true by lia. reflexivity.
Qed.

Lemma split64 d : d < two64 ->
  u32 (N.shiftr d 32) < 2 ^ 32 /\ u32 (N.land (two32 - 1) d) < 2 ^ 32 /\
  u32 (N.shiftr d 32) * 2 ^ 32 + u32 (N.land (two32 - 1) d) = d.
Proof.
  intros H. rewrite N.shiftr_div_pow2. rewrite N.land_comm.
  replace (two32 - 1) with (N.ones 32) by reflexivity. rewrite N.land_ones.
  unfold u32, two32, two64 in *. change (2 ^ 32) with 4294967296.
  repeat split; lia.
Qed.

Lemma ToUnsignedDecimal_ok d : d < two64 -> read_HexU64 (ToUnsignedDecimal d) = Some d.
Proof.
  intros H. destruct (split64 d H) as (A & B & C). unfold ToUnsignedDecimal.
  rewrite HexU64_text by auto. congruence.
Qed.

Lemma ToSignedDecimal_ok z : read_HexU64 (ToSignedDecimal z) = Some (Z.to_N (z mod Z.of_N two64)).
Proof.
  assert (H : Z.to_N (z mod Z.of_N two64) < two64).
  { unfold two64. lia. }
  destruct (split64 _ H) as (A & B & C). unfold ToSignedDecimal.
  cbv zeta. rewrite HexU64_text by auto. congruence.
Qed.

(* ---- suffix ---- *)
Lemma prefixb_spec p s : prefixb p s = true <-> exists r, s = p ++ r.
Proof.
  revert s; induction p as [|a p IH]; intros s; cbn [prefixb].
  - split; auto. intros _. exists s. reflexivity.
  - destruct s as [|b s].
    + split; [discriminate|]. intros (r & E). discriminate.
    + rewrite andb_true_iff, IH, N.eqb_eq. split.
      * intros (-> & r & ->). exists r. reflexivity.
      * intros (r & E). injection E as -> ->. eauto.
Qed.

Lemma find_sub_some p s i : find_sub p s = Some i ->
  (exists r, skipn i s = p ++ r) /\ (i <= List.length s)%nat /\
  forall j, (j < i)%nat -> prefixb p (skipn j s) = false.
Proof.
  revert i; induction s as [|c s IH]; intros i; cbn [find_sub].
  - destruct (prefixb p []) eqn:P; [|discriminate]. intros E; injection E as <-.
    apply prefixb_spec in P. cbn. repeat split; auto; lia.
  - destruct (prefixb p (c :: s)) eqn:P.
    + intros E; injection E as <-. apply prefixb_spec in P. cbn. repeat split; auto; lia.
    + destruct (find_sub p s) as [k|] eqn:F; [|discriminate].
      intros E; injection E as <-. destruct (IH k eq_refl) as (A & B & C).
      cbn [skipn List.length]. repeat split; auto; [lia|].
      intros [|j] Hj; [exact P|]. cbn [skipn]. apply C. lia.
Qed.

Lemma find_sub_none p s : find_sub p s = None -> forall j, prefixb p (skipn j s) = false.
Proof.
  induction s as [|c s IH]; cbn [find_sub]; intros E j.
  - destruct (prefixb p []) eqn:P; [discriminate|]. destruct j; auto.
  - destruct (prefixb p (c :: s)) eqn:P; [discriminate|].
    destruct (find_sub p s); [discriminate|]. destruct j; cbn [skipn]; auto.
Qed.

(* exact behaviour: the first occurrence of .ulam must be the suffix *)
Lemma suffix_accept s n : FindUlamFilenameSuffix s = n -> N.of_nat (List.length s) < two32 -> n <> 0 ->
  exists stem, stem <> [] /\ s = stem ++ txt ".ulam" /\ n = N.of_nat (List.length stem)
     /\ forall j, (j < List.length stem)%nat -> prefixb dot_ulam (skipn j s) = false.
Proof.
  unfold FindUlamFilenameSuffix. intros <- HL.
  destruct (find_sub dot_ulam s) as [i|] eqn:F; [|congruence].
  destruct (negb (Nat.eqb i (List.length s - 5)) || Nat.eqb i 0) eqn:G; [congruence|].
  intros _. apply find_sub_some in F as ((r & A) & B & C).
  assert (Hl : List.length (skipn i s) = 5%nat).
  { rewrite skipn_length.
    assert (List.length (skipn i s) = List.length (dot_ulam ++ r)) by congruence.
    rewrite skipn_length, app_length in H. change (List.length dot_ulam) with 5%nat in H. lia. }
  assert (r = []).
  { rewrite A, app_length in Hl. change (List.length dot_ulam) with 5%nat in Hl.
    destruct r; [auto|cbn [List.length] in Hl; lia]. }
  subst r. rewrite app_nil_r in A.
  exists (firstn i s).
  assert (Hi : List.length (firstn i s) = i) by (rewrite firstn_length; lia).
  repeat split.
  - intro E. rewrite E in Hi. cbn in Hi. lia.
  - rewrite <- (firstn_skipn i s) at 1. f_equal. exact A.
  - rewrite Hi. unfold u32. apply N.mod_small. lia.
  - intros j Hj. rewrite Hi in Hj. auto.
Qed.

Lemma suffix_accept_conv stem : stem <> [] -> N.of_nat (List.length stem) < two32 ->
  (forall j, (j < List.length stem)%nat -> prefixb dot_ulam (skipn j (stem ++ txt ".ulam")) = false) ->
  FindUlamFilenameSuffix (stem ++ txt ".ulam") = N.of_nat (List.length stem).
Proof.
  intros Hne HL Hno. unfold FindUlamFilenameSuffix.
  assert (Hat : prefixb dot_ulam (skipn (List.length stem) (stem ++ txt ".ulam")) = true).
  { rewrite skipn_app, skipn_all, Nat.sub_diag. reflexivity. }
  destruct (find_sub dot_ulam (stem ++ txt ".ulam")) as [i|] eqn:F.
  - apply find_sub_some in F as ((r & A) & B & C).
    assert (i = List.length stem).
    { destruct (Nat.lt_trichotomy i (List.length stem)) as [L|[L|L]]; auto.
      - specialize (Hno i L). rewrite A in Hno.
        assert (prefixb dot_ulam (dot_ulam ++ r) = true) by (apply prefixb_spec; eauto). congruence.
      - specialize (C _ L). congruence. }
    subst i. rewrite app_length. change (List.length (txt ".ulam")) with 5%nat.
    assert (List.length stem <> 0%nat) by (destruct stem; cbn; congruence).
    replace (negb (List.length stem =? List.length stem + 5 - 5)%nat || (List.length stem =? 0)%nat) with false by lia.
    unfold u32. apply N.mod_small. auto.
  - pose proof (find_sub_none _ _ F (List.length stem)). congruence.
Qed.
