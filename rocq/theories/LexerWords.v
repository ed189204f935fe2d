(* LexerWords.v: properties C14, C47. *)
From Coq Require Import String List NArith ZArith Lia Bool.
From Coq Require Import ZifyBool ZifyNat ZifyN.
From Verif Require Import Base StringPoolModel LexerModel LexerSpec LexerProofs LexerTheorems.
Import ListNotations.
Open Scope N_scope.

Lemma letter_alpha c : letter c <-> isalpha c = true.
Proof. unfold letter, upper_case, lower_case, isalpha, isupper, islower. lia. Qed.
Lemma word_wordchar c : word_char c <-> wordchar c = true.
Proof. unfold word_char, letter, upper_case, lower_case, digit, wordchar, isalpha, isupper, islower, isdigit. lia. Qed.
Lemma words_wordchar r : Forall word_char r -> forallb wordchar r = true.
Proof. intros H. apply forallb_forall. intros c HC. apply word_wordchar. rewrite Forall_forall in H. auto. Qed.

Lemma alpha_no_token c : isalpha c = true -> getTokenType [c] = None.
Proof.
  intros H. assert (forallb (fun c => negb (isalpha c) || match getTokenType [c] with None => true | Some _ => false end) (nrange 256) = true) as G by (vm_compute; reflexivity).
  assert (c < N.of_nat 256) as HL by (unfold isalpha, isupper, islower in H; lia).
  pose proof (forall_N_below 256 _ G c HL) as E. cbn beta in E. rewrite H in E. destruct (getTokenType [c]) as [ty|]; [cbn in E; congruence|auto].
Qed.

Lemma cstr_word w : Forall word_char w -> cstr w = w.
Proof.
  induction 1 as [|c w HC HW IH]; cbn [cstr]; [reflexivity|]. replace (c =? 0) with false by (unfold word_char, letter, upper_case, lower_case, digit in HC; lia). congruence.
Qed.

Lemma next_word c r rest : letter c -> Forall word_char r -> ends word_char rest ->
  getNextToken (c :: r ++ rest) = makeWordToken [c] (r ++ rest) /\ span wordchar (r ++ rest) = (r, rest).
Proof.
  intros HC HR HE. apply letter_alpha in HC. split.
  - rewrite next_start.
    + unfold next_byte. rewrite alpha_no_token by auto. unfold next_unclear. rewrite HC. reflexivity.
    + unfold isalpha, isupper, islower in HC. unfold isspace. lia.
    + intros (-> & _). discriminate.
  - apply span_app; [apply words_wordchar; auto|]. destruct rest as [|d rest]; [exact I|]. cbn in HE. destruct (wordchar d) eqn:E; [|auto]. exfalso. apply HE. apply word_wordchar. auto.
Qed.

Lemma lookup_some t a ty : lookup t a = Some ty -> In ty t /\ r_str ty = a.
Proof.
  induction t as [|r t IH]; cbn [lookup]; [discriminate|]. destruct (text_eqb (r_str r) a) eqn:E.
  - intros H. injection H as <-. apply text_eqb_eq in E. cbn. auto.
  - intros H. destruct (IH H). cbn. auto.
Qed.

Definition is_word (w : text) : bool := match w with c :: r => isalpha c && forallb wordchar r | [] => false end.
Lemma word_is_word w : word w -> is_word w = true.
Proof. intros (c & r & -> & HC & HR). cbn. rewrite (proj1 (letter_alpha c) HC), words_wordchar; auto. Qed.

Definition the_odd_word : text := txt "StructuredComment".

(* C14: reserved words *)
Theorem C14_keywords : forall w n rest, In (w, n) keywords -> ends word_char rest -> getNextToken (w ++ rest) = (Tok n None, rest).
Proof.
  intros w n rest HI HE.
  assert (forallb (fun p => is_word (fst p) && match getTokenType (fst p) with
     | Some ty => String.eqb (r_name ty) (snd p) && match r_sp ty with SpKEYWORD | SpTYPEKEYWORD | SpCTLKEYWORD => true | _ => false end | None => false end) keywords = true) as G by (vm_compute; reflexivity).
  rewrite forallb_forall in G. specialize (G _ HI). cbn [fst snd] in G. apply andb_true_iff in G as [G1 G2].
  destruct w as [|c r]; [discriminate|]. cbn in G1. apply andb_true_iff in G1 as [GC GR].
  assert (Forall word_char r) as HR by (apply Forall_forall; intros d Hd; apply word_wordchar; rewrite forallb_forall in GR; auto).
  destruct (next_word c r rest) as [E1 E2]; [apply letter_alpha; auto|auto|auto|]. cbn [app]. rewrite E1. unfold makeWordToken. rewrite E2. cbn [app].
  destruct (getTokenType (c :: r)) as [ty|]; [|discriminate]. apply andb_true_iff in G2 as [G2 G3]. apply String.eqb_eq in G2. subst n. destruct (r_sp ty); try discriminate; reflexivity.
Qed.
Print Assumptions C14_keywords.

Theorem C14_keywords_distinct : forall w n w' n', In (w, n) keywords -> In (w', n') keywords -> (w = w' <-> n = n').
Proof.
  intros w n w' n' H1 H2.
  assert (forallb (fun p => forallb (fun q => Bool.eqb (text_eqb (fst p) (fst q)) (String.eqb (snd p) (snd q))) keywords) keywords = true) as G by (vm_compute; reflexivity).
  rewrite forallb_forall in G. specialize (G _ H1). rewrite forallb_forall in G. specialize (G _ H2). cbn [fst snd] in G. apply eqb_prop in G.
  split; intros E.
  - subst. rewrite text_eqb_refl in G. apply String.eqb_eq. auto.
  - subst. rewrite String.eqb_refl in G. apply text_eqb_eq. auto.
Qed.
Print Assumptions C14_keywords_distinct.

Lemma not_reserved w : word w -> ~ In w (map fst keywords) -> ~ In w special_words -> w <> the_odd_word -> getTokenType w = None.
Proof.
  intros HW HK HS HO. unfold getTokenType. rewrite cstr_word.
  2:{ destruct HW as (c & r & -> & HC & HR). constructor; [left; auto|auto]. }
  destruct (lookup tok_table w) as [ty|] eqn:E; [|reflexivity]. exfalso. apply lookup_some in E as [HI <-].
  assert (forallb (fun ty => negb (is_word (r_str ty)) || existsb (text_eqb (r_str ty)) (map fst keywords ++ special_words ++ [the_odd_word])) tok_table = true) as G by (vm_compute; reflexivity).
  rewrite forallb_forall in G. specialize (G _ HI). rewrite (word_is_word _ HW) in G. cbn [negb orb] in G. apply existsb_exists in G. destruct G as (w & HI2 & EQ).
  apply text_eqb_eq in EQ. rewrite <- EQ in HI2. apply in_app_or in HI2. destruct HI2 as [H|H]; [auto|]. apply in_app_or in H. destruct H as [H|[H|[]]]; auto.
Qed.

(* C14: all other words are identifiers, of a type if they start with a capital. What is missing: the word
   "StructuredComment", see C14_odd_word_refuted. *)
Theorem C14_identifiers_partial : forall c r rest, letter c -> Forall word_char r -> ends word_char rest ->
  ~ In (c :: r) (map fst keywords) -> ~ In (c :: r) special_words -> c :: r <> the_odd_word ->
  getNextToken (c :: r ++ rest) =
    (if 255 <? N.of_nat (List.length (c :: r)) then TokError
     else if (65 <=? c) && (c <=? 90) then Tok "TYPE_IDENTIFIER" (Some (c :: r)) else Tok "IDENTIFIER" (Some (c :: r)), rest).
Proof.
  intros c r rest HC HR HE HK HS HO. destruct (next_word c r rest HC HR HE) as [E1 E2]. rewrite E1. unfold makeWordToken. rewrite E2. cbn [app].
  rewrite not_reserved; auto. exists c, r. auto.
Qed.
Print Assumptions C14_identifiers_partial.

(* a word is never anything else, and always takes all its letters *)
Theorem C14_words_whole : forall w rest, word w -> ends word_char rest -> ~ In w special_words ->
  snd (getNextToken (w ++ rest)) = rest /\
  (fst (getNextToken (w ++ rest)) = TokError \/
   (exists n, In (w, n) keywords /\ fst (getNextToken (w ++ rest)) = Tok n None) \/
   fst (getNextToken (w ++ rest)) = Tok "IDENTIFIER" (Some w) \/ fst (getNextToken (w ++ rest)) = Tok "TYPE_IDENTIFIER" (Some w)).
Proof.
  intros w rest HW HE HS. destruct (existsb (text_eqb w) (map fst keywords)) eqn:EK.
  - apply existsb_exists in EK. destruct EK as (w' & HI & EQ). apply text_eqb_eq in EQ. subst w'. apply in_map_iff in HI. destruct HI as ([w' n] & <- & HI). cbn [fst].
    rewrite (C14_keywords _ _ rest HI HE). cbn [fst snd]. split; [reflexivity|]. right. left. exists n. auto.
  - assert (~ In w (map fst keywords)) as HK.
    { intros HI. assert (existsb (text_eqb w) (map fst keywords) = true); [|congruence]. apply existsb_exists. exists w. split; auto. apply text_eqb_refl. }
    destruct (text_eqb w the_odd_word) eqn:EO.
    + apply text_eqb_eq in EO. subst w. destruct (next_word 83 (tl the_odd_word) rest) as [E1 E2]; [unfold letter, upper_case; lia| |auto|].
      { apply Forall_forall. intros d Hd. apply word_wordchar. assert (forallb wordchar (tl the_odd_word) = true) as G by (vm_compute; reflexivity). rewrite forallb_forall in G. auto. }
      change (the_odd_word ++ rest) with (83 :: tl the_odd_word ++ rest). rewrite E1. unfold makeWordToken. rewrite E2. change ([83] ++ tl the_odd_word) with the_odd_word.
      assert (exists ty, getTokenType the_odd_word = Some ty /\ r_sp ty = SpCOMMENT) as (ty & -> & ->) by (eexists; split; vm_compute; reflexivity). cbn. auto.
    + destruct HW as (c & r & -> & HC & HR). cbn [app]. rewrite C14_identifiers_partial; auto.
      2:{ intros EQ. rewrite EQ, text_eqb_refl in EO. discriminate. }
      cbn [fst snd]. split; auto. destruct (255 <? N.of_nat (List.length (c :: r))); auto. destruct ((65 <=? c) && (c <=? 90)); auto.
Qed.
Print Assumptions C14_words_whole.

(* refuted: one word that is not reserved is refused *)
Theorem C14_odd_word_refuted : exists w, word w /\ ~ In w (map fst keywords) /\ ~ In w special_words /\ (List.length w <= 255)%nat /\
  fst (getNextToken (w ++ txt " x")) = TokError.
Proof.
  exists the_odd_word. split.
  { exists 83, (tl the_odd_word). split; [reflexivity|]. split; [unfold letter, upper_case; lia|]. apply Forall_forall. intros d Hd. apply word_wordchar.
    assert (forallb wordchar (tl the_odd_word) = true) as G by (vm_compute; reflexivity). rewrite forallb_forall in G. auto. }
  split; [vm_compute; intuition discriminate|]. split; [vm_compute; intuition discriminate|]. split; [vm_compute; lia|vm_compute; reflexivity].
Qed.
Print Assumptions C14_odd_word_refuted.

Example C14_ex : In (txt "element", "KW_ELEMENT"%string) keywords /\ ends word_char (txt " Foo") /\ word (txt "elements") /\
  getNextToken (txt "elements{") = (Tok "IDENTIFIER" (Some (txt "elements")), txt "{") /\ getNextToken (txt "Int_x3;") = (Tok "TYPE_IDENTIFIER" (Some (txt "Int_x3")), txt ";") /\
  getNextToken (txt "element Foo") = (Tok "KW_ELEMENT" None, txt " Foo").
Proof.
  split; [vm_compute; tauto|]. split; [intros H; apply word_wordchar in H; discriminate|]. split; [|vm_compute; auto].
  exists 101, (txt "lements"). split; [reflexivity|]. split; [unfold letter, lower_case; lia|]. apply Forall_forall. intros d Hd. apply word_wordchar.
  assert (forallb wordchar (txt "lements") = true) as G by (vm_compute; reflexivity). rewrite forallb_forall in G. auto.
Qed.

(* ---- C47 ---- *)
(* the operators that can be overloaded *)
Definition overloadable : list text :=
  map txt ["[]"; "&"; "&="; "|"; "|="; "!"; "~"; "="; "=="; "!="; "<"; "<="; ">"; ">="; "<<"; "<<="; ">>"; ">>="; "+"; "++"; "+=";
           "-"; "--"; "-="; "*"; "*="; "/"; "/="; "^"; "^="; "%"; "%="]%string.
(* reading a name back: Token.cpp:235-247; strtol of two hexadecimal digits, as a char *)
Fixpoint unhex (s : text) : text :=
  match s with
  | a :: b :: r => hexval a * 16 + hexval b :: unhex r
  | [a] => [hexval a]
  | [] => []
  end.
Definition ulamName (n : text) : text := txt "operator" ++ unhex (skipn 9 n).
(* Token.cpp:224-233 *)
Definition isOperatorName (n : text) : bool := text_eqb (firstn 9 n) (txt "_operator").

Definition name_of (w : text) : option text := match getTokenType w with Some ty => operatorName ty | None => None end.

(* C47: every overloadable operator has a name, which is a legal identifier of C++ and no word of ulam, and gives the
   operator back; no other operator has one *)
Theorem C47_names : forall w, In w overloadable -> exists n, name_of w = Some n /\
  isOperatorName n = true /\ ulamName n = txt "operator" ++ w /\
  (exists c r, n = c :: r /\ (letter c \/ c = 95) /\ Forall word_char r) /\ ~ word n.
Proof.
  intros w HI.
  assert (forallb (fun w => match name_of w with Some n => isOperatorName n && text_eqb (ulamName n) (txt "operator" ++ w) && (match n with c :: r => (c =? 95) && forallb wordchar r | [] => false end) | None => false end) overloadable = true) as G by (vm_compute; reflexivity).
  rewrite forallb_forall in G. specialize (G _ HI). destruct (name_of w) as [n|]; [|discriminate]. exists n. split; [reflexivity|]. apply andb_true_iff in G as [G G3]. apply andb_true_iff in G as [G1 G2].
  apply text_eqb_eq in G2. split; auto. split; auto. destruct n as [|c r]; [discriminate|]. apply andb_true_iff in G3 as [G3 G4]. apply N.eqb_eq in G3. subst c. split.
  - exists 95, r. split; auto. split; auto. apply Forall_forall. intros d Hd. apply word_wordchar. rewrite forallb_forall in G4. auto.
  - intros (c & q & E & HC & _). injection E as <- _. apply letter_alpha in HC. discriminate.
Qed.
Print Assumptions C47_names.

Theorem C47_names_distinct : forall w w', In w overloadable -> In w' overloadable -> name_of w = name_of w' -> w = w'.
Proof.
  intros w w' H1 H2 E. destruct (C47_names w H1) as (n & E1 & _ & E2 & _). destruct (C47_names w' H2) as (n' & E1' & _ & E2' & _).
  assert (n = n') by congruence. subst n'. rewrite E2 in E2'. apply app_inv_head in E2'. auto.
Qed.
Print Assumptions C47_names_distinct.

Theorem C47_only_those : forall a ty n, getTokenType a = Some ty -> operatorName ty = Some n -> In (r_str ty) overloadable.
Proof.
  intros a ty n E H. unfold getTokenType in E. apply lookup_some in E as [HI _]. unfold operatorName in H. destruct (r_opol ty) eqn:EO; [|discriminate].
  assert (forallb (fun ty => negb (r_opol ty) || existsb (text_eqb (r_str ty)) overloadable) tok_table = true) as G by (vm_compute; reflexivity).
  rewrite forallb_forall in G. specialize (G _ HI). rewrite EO in G. cbn [negb orb] in G. apply existsb_exists in G. destruct G as (w & HW & EQ). apply text_eqb_eq in EQ. rewrite EQ. auto.
Qed.
Print Assumptions C47_only_those.

(* and this is how "operator" followed by one is read *)
Theorem C47_operator_read : forall w n r, In w overloadable -> is_text (w ++ r) = true -> longest_operator (w ++ r) w n -> nothing_odd (w ++ r) ->
  exists name, name_of w = Some name /\ getNextToken (txt "operator" ++ w ++ r) = (Tok "IDENTIFIER" (Some name), r).
Proof.
  intros w n r HI HT (HO & _ & HM) (C1 & C2 & C3 & C4 & C5 & C6 & HN). destruct (C47_names w HI) as (name & EN & _). exists name. split; auto.
  assert (exists a r0, w = a :: r0) as (a & r0 & EW).
  { destruct w as [|a r0]; [|eauto]. exfalso. clear -HO. revert HO. vm_compute. intuition discriminate. }
  destruct (single_row w n a r0 HO EW) as (ty1 & E1 & HI1 & S1 & S2 & S3 & S4 & S5 & NE1 & NE2 & NE3 & HSP).
  destruct (operator_longest w n a r0 r HO EW HM HT) as (ty & (x & EM) & ET); auto.
  assert (ends word_char (w ++ r)) as HE.
  { subst w. cbn. intros H. apply word_wordchar in H. unfold wordchar in H. rewrite S2, S3 in H. lia. }
  assert (Forall word_char (txt "perator")) as HP.
  { apply Forall_forall. intros d Hd. apply word_wordchar. assert (forallb wordchar (txt "perator") = true) as G by (vm_compute; reflexivity). rewrite forallb_forall in G. auto. }
  destruct (next_word 111 (txt "perator") (w ++ r)) as [F1 F2]; [unfold letter, lower_case; lia|auto|auto|].
  change (txt "operator" ++ w ++ r) with (111 :: txt "perator" ++ w ++ r). rewrite F1. unfold makeWordToken. rewrite F2.
  assert (exists t0, getTokenType ([111] ++ txt "perator") = Some t0 /\ r_sp t0 = SpOPERATORKEYWORD) as (t0 & -> & ->) by (eexists; split; vm_compute; reflexivity).
  assert (makeOperatorToken [] (w ++ r) = ([a], Some ty1, r0 ++ r)) as F3.
  { subst w. unfold makeOperatorToken. cbn [read app]. rewrite E1. apply String.eqb_neq in NE1, NE2, NE3. rewrite NE1, NE2, NE3. reflexivity. }
  rewrite F3, EM.
  (* the row found is that of w *)
  assert (operatorName ty = Some name) as F4.
  { unfold name_of in EN.
    assert (forallb (fun w => match getTokenType w with Some t1 => existsb (fun p => text_eqb (fst p) w && String.eqb (snd p) (r_name t1)) operators | None => false end) overloadable = true) as G by (vm_compute; reflexivity).
    rewrite forallb_forall in G. specialize (G _ HI). destruct (getTokenType w) as [t1|] eqn:E2; [|discriminate]. apply existsb_exists in G. destruct G as ([w' n'] & HIn & EQ).
    cbn [fst snd] in EQ. apply andb_true_iff in EQ as [Q1 Q2]. apply text_eqb_eq in Q1. apply String.eqb_eq in Q2. subst w' n'.
    assert (r_name t1 = r_name ty) as EQN by (rewrite ET; eapply operators_unique; eauto).
    assert (forallb (fun p => forallb (fun q => negb (String.eqb (r_name p) (r_name q)) || (text_eqb (r_str p) (r_str q) && Bool.eqb (r_opol p) (r_opol q))) tok_table) tok_table = true) as GU by (vm_compute; reflexivity).
    assert (In t1 tok_table) as I1 by (unfold getTokenType in E2; apply lookup_some in E2; tauto).
    assert (In ty tok_table) as I2.
    { assert (forall a s x o q, makeOperatorToken a s = (x, Some o, q) -> In o tok_table) as GM.
      { intros a0 s0 x0 o0 q0. unfold makeOperatorToken. destruct (read s0) as [[c|] s1].
        - destruct (getTokenType (a0 ++ [c])) as [o1|] eqn:EO.
          + assert (In o1 tok_table) by (unfold getTokenType in EO; apply lookup_some in EO; tauto).
            destruct (String.eqb (r_name o1) "ELLIPSIS"). { destruct s1 as [|c3 s1]; [discriminate|]. destruct (c3 =? 46); [|discriminate]. congruence. }
            destruct (String.eqb (r_name o1) "SHIFT_LEFT" || String.eqb (r_name o1) "SHIFT_RIGHT"); [|congruence]. destruct s1 as [|c3 s1]; [discriminate|].
            destruct (c3 =? 61); [|congruence]. intros HX. injection HX as _ HX _. unfold getTokenType in HX. apply lookup_some in HX. tauto.
          + intros HX. injection HX as _ HX _. unfold getTokenType in HX. apply lookup_some in HX. tauto.
        - intros HX. injection HX as _ HX _. unfold getTokenType in HX. apply lookup_some in HX. tauto. }
      eapply GM; eauto. }
    rewrite forallb_forall in GU. specialize (GU _ I1). rewrite forallb_forall in GU. specialize (GU _ I2). rewrite EQN, String.eqb_refl in GU. cbn [negb orb] in GU.
    apply andb_true_iff in GU as [U1 U2]. apply text_eqb_eq in U1. apply eqb_prop in U2. unfold operatorName in *. rewrite <- U1, <- U2. auto. }
  rewrite F4. reflexivity.
Qed.
Print Assumptions C47_operator_read.

Example C47_ex : name_of (txt "<<=") = Some (txt "_operator3c3c3d") /\ ulamName (txt "_operator3c3c3d") = txt "operator<<=" /\
  getNextToken (txt "operator<<=(Int x)") = (Tok "IDENTIFIER" (Some (txt "_operator3c3c3d")), txt "(Int x)").
Proof. vm_compute. auto. Qed.

(* ---- flags and inserted texts ---- *)
Lemma next_at s : getNextToken (64 :: s) = makeFlagToken s.
Proof. rewrite next_start; [|reflexivity|intros (E & _); discriminate]. unfold next_byte. reflexivity. Qed.
Lemma next_underscore s : getNextToken (95 :: s) = makeSubstituteToken s.
Proof. rewrite next_start; [|reflexivity|intros (E & _); discriminate]. unfold next_byte. reflexivity. Qed.
(* what the table says of a text that starts with a, for a byte a other than those of words *)
Lemma flag_lookup a ws : forallb (fun ty => match r_str ty with
    | c :: w => negb (c =? a) || match word_token ws w with Some n => special_eqb (r_sp ty) SpFLAGKEYWORD && String.eqb (r_name ty) n | None => negb (special_eqb (r_sp ty) SpFLAGKEYWORD) end
    | [] => true end) tok_table = true ->
  forallb (fun p => existsb (fun ty => text_eqb (r_str ty) (a :: fst p)) tok_table) ws = true ->
  forall w, cstr (a :: w) = a :: w ->
  match getTokenType (a :: w) with Some ty => if special_eqb (r_sp ty) SpFLAGKEYWORD then Some (r_name ty) else None | None => None end = word_token ws w.
Proof.
  intros G1 G2 w HC. unfold getTokenType. rewrite HC. destruct (lookup tok_table (a :: w)) as [ty|] eqn:E.
  - apply lookup_some in E as [HI ES]. rewrite forallb_forall in G1. specialize (G1 ty HI). rewrite ES in G1. rewrite N.eqb_refl in G1. cbn [negb orb] in G1.
    destruct (word_token ws w) as [n|]; [apply andb_prop in G1 as [-> G1]; apply String.eqb_eq in G1; rewrite G1; reflexivity|]. destruct (special_eqb (r_sp ty) SpFLAGKEYWORD); [discriminate|reflexivity].
  - destruct (word_token ws w) as [n|] eqn:EW; [exfalso|reflexivity]. assert (In (w, n) ws) as HI. { clear -EW. induction ws as [|[b m] ws IH]; [discriminate|]. cbn [word_token] in EW. destruct (text_eqb b w) eqn:EB; [apply text_eqb_eq in EB; injection EW as <-; subst b; left; reflexivity|right; auto]. }
    rewrite forallb_forall in G2. specialize (G2 _ HI). cbn [fst] in G2. apply existsb_exists in G2. destruct G2 as (ty & HT & EQ). clear -HT EQ E. revert HT E. generalize tok_table. intros t. induction t as [|r t IH]; [intros []|]. cbn [lookup]. intros [->|HT]; [rewrite EQ; discriminate|]. destruct (text_eqb (r_str r) (a :: w)); [discriminate|auto].
Qed.
(* C14: @ and a word that starts with a capital is one of the flags, or refused, and takes the whole word *)
Theorem C14_flags : forall c w rest, upper_case c -> Forall word_char w -> ends word_char rest ->
  getNextToken (64 :: (c :: w) ++ rest) = (match word_token flag_words (c :: w) with Some n => Tok n None | None => TokError end, rest).
Proof.
  intros c w rest HC HW HE. rewrite next_at. cbn [app]. unfold makeFlagToken. assert (isupper c = true) as -> by (unfold upper_case, isupper in *; lia).
  assert (Forall word_char (c :: w)) as HF by (constructor; [left; left; auto|auto]).
  assert (span wordchar (c :: w ++ rest) = (c :: w, rest)) as ->.
  { change (c :: w ++ rest) with ((c :: w) ++ rest). apply span_app; [apply words_wordchar; auto|]. destruct rest as [|d rest]; [exact I|]. cbn in HE. destruct (wordchar d) eqn:E; [|auto]. exfalso. apply HE. apply word_wordchar. auto. }
  rewrite <- (flag_lookup 64 flag_words ltac:(vm_compute; reflexivity) ltac:(vm_compute; reflexivity) (c :: w)).
  - destruct (getTokenType (64 :: c :: w)) as [ty|]; [|reflexivity]. destruct (special_eqb (r_sp ty) SpFLAGKEYWORD); reflexivity.
  - change (cstr (64 :: c :: w)) with (64 :: cstr (c :: w)). rewrite cstr_word by auto. reflexivity.
Qed.
Print Assumptions C14_flags.
(* two underscores: capitals and underscores up to the next byte that is neither are one of the inserted texts, or refused *)
Theorem C14_inserts : forall w rest, Forall (fun c => upper_case c \/ c = 95) w -> ends (fun c => upper_case c \/ c = 95) rest ->
  getNextToken (95 :: (95 :: w) ++ rest) = (match word_token insert_words (95 :: w) with Some n => Tok n None | None => TokError end, rest).
Proof.
  intros w rest HW HE. rewrite next_underscore. cbn [app]. unfold makeSubstituteToken. change (95 =? 95) with true. cbv iota.
  assert (span (fun c => isupper c || (c =? 95)) (95 :: w ++ rest) = (95 :: w, rest)) as ->.
  { change (95 :: w ++ rest) with ((95 :: w) ++ rest). apply span_app.
    - cbn [forallb]. change (isupper 95 || (95 =? 95)) with true. cbn [andb]. apply forallb_forall. intros d Hd. rewrite Forall_forall in HW. specialize (HW d Hd). unfold upper_case, isupper in *. lia.
    - destruct rest as [|d rest]; [exact I|]. cbn in HE. unfold upper_case, isupper in *. lia. }
  rewrite <- (flag_lookup 95 insert_words ltac:(vm_compute; reflexivity) ltac:(vm_compute; reflexivity) (95 :: w)).
  - destruct (getTokenType (95 :: 95 :: w)) as [ty|]; [|reflexivity]. destruct (special_eqb (r_sp ty) SpFLAGKEYWORD); reflexivity.
  - change (cstr (95 :: 95 :: w)) with (95 :: 95 :: cstr w). rewrite cstr_word; [reflexivity|]. apply Forall_forall. intros d Hd. rewrite Forall_forall in HW. specialize (HW d Hd). unfold word_char, letter. tauto.
Qed.
Print Assumptions C14_inserts.
Example C14_flags_ex : getNextToken (txt "@Override Int f") = (Tok "KW_FLAG_VIRTUALOVERRIDE" None, txt " Int f") /\ getNextToken (txt "@Overrides") = (TokError, []) /\
  getNextToken (txt "__CLASS_SIMPLE__;") = (Tok "KW_FLAG_INSERTCLASSNAMESIMPLE" None, txt ";").
Proof. vm_compute. auto. Qed.
