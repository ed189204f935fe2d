(* LexerLiterals.v: properties C55, C56. *)
From Coq Require Import String List NArith ZArith Lia Bool.
From Coq Require Import ZifyBool ZifyNat ZifyN.
From Verif Require Import Base StringPoolModel LexerModel LexerSpec LexerProofs LexerTheorems.
Import ListNotations.
Open Scope N_scope.

(* ---- C55: quoted strings ---- *)
Lemma octal_is c : octal_digit c <-> isoctal c = true. Proof. unfold octal_digit, isoctal. lia. Qed.
Lemma hex_is c : hex_digit c <-> isxdigit c = true. Proof. unfold hex_digit, digit, isxdigit, isdigit. lia. Qed.
Lemma hex_val c : hex_digit c -> hexval c = hex_value c.
Proof. unfold hex_digit, digit, hexval, hex_value, isdigit. intros H. destruct (N.ltb_spec c 65); destruct (N.ltb_spec c 97); destruct ((48 <=? c) && (c <=? 57)) eqn:E; lia. Qed.
Lemma hex_small c : hex_digit c -> hex_value c < 16.
Proof. unfold hex_digit, digit, hex_value. intros H. destruct (N.ltb_spec c 65); destruct (N.ltb_spec c 97); lia. Qed.

Lemma ends_false P p s rest : (forall c, P c <-> p c = true) -> p 34 = false -> ends P s -> exists c q, s ++ 34 :: rest = c :: q /\ p c = false.
Proof.
  intros HP H34 HE. destruct s as [|c s]; cbn in *; [eauto|]. exists c, (s ++ 34 :: rest). split; auto. destruct (p c) eqn:E; auto. exfalso. apply HE, HP. auto.
Qed.

Definition escaped (d : N) : option N := option_map snd (find (fun p => fst p =? d) escapes).
Lemma nextByte_escape d q : nextByte (92 :: d :: q) =
  match escaped d with Some v => (Some v, q) | None =>
    if isoctal d then formatOctalConstant (d :: q) else if (d =? 120) || (d =? 88) then formatHexConstant q else (Some d, q) end.
Proof.
  unfold escaped. cbn [find escapes fst]. rewrite (N.eqb_sym 97 d), (N.eqb_sym 98 d), (N.eqb_sym 116 d), (N.eqb_sym 110 d), (N.eqb_sym 118 d), (N.eqb_sym 102 d), (N.eqb_sym 114 d), (N.eqb_sym 34 d), (N.eqb_sym 39 d), (N.eqb_sym 92 d).
  change (nextByte (92 :: d :: q)) with ( if d =? 97 then (Some 7, q) else if d =? 98 then (Some 8, q) else if d =? 116 then (Some 9, q)
        else if d =? 110 then (Some 10, q) else if d =? 118 then (Some 11, q) else if d =? 102 then (Some 12, q)
        else if d =? 114 then (Some 13, q) else if d =? 34 then (Some 34, q) else if d =? 39 then (Some 39, q)
        else if d =? 92 then (Some 92, q)
        else if isoctal d then formatOctalConstant (d :: q)
        else if (d =? 120) || (d =? 88) then formatHexConstant q
        else (Some d, q)).
  repeat match goal with |- context [if d =? ?k then (Some _, q) else _] => destruct (d =? k); [reflexivity|] end. reflexivity.
Qed.
Lemma nextByte_plain c q : c <> 92 -> nextByte (c :: q) = (Some c, q).
Proof. intros H. unfold nextByte. replace (c =? 92) with false by lia. reflexivity. Qed.

Lemma escaped_in c v : In (c, v) escapes -> escaped c = Some v.
Proof. cbn [In escapes]. intros H. repeat (destruct H as [H|H]; [injection H as <- <-; reflexivity|]). contradiction. Qed.
Lemma escaped_some c v : escaped c = Some v -> In (c, v) escapes.
Proof.
  unfold escaped. destruct (find _ escapes) as [[a b]|] eqn:E; [|discriminate]. apply find_some in E as [HI HE]. cbn in HE. apply N.eqb_eq in HE. subst. intros H. injection H as <-. auto.
Qed.
Lemma escaped_not c : ~ In c (map fst escapes) -> escaped c = None.
Proof. intros H. destruct (escaped c) as [v|] eqn:E; [|auto]. exfalso. apply H. apply escaped_some in E. apply in_map_iff. exists (c, v). auto. Qed.
Lemma escaped_none c : escaped c = None -> ~ In c (map fst escapes).
Proof. intros E H. apply in_map_iff in H. destruct H as ([a v] & <- & HI). apply escaped_in in HI. cbn in E. congruence. Qed.

Lemma octal_unescaped x : octal_digit x -> escaped x = None.
Proof. intros H. destruct (escaped x) as [v|] eqn:E; [|auto]. exfalso. apply escaped_some in E. unfold octal_digit in H. cbn [In escapes] in E. repeat (destruct E as [E|E]; [injection E as <- <-; lia|]). contradiction. Qed.
Lemma hex_unescaped x : x = 120 \/ x = 88 -> escaped x = None /\ isoctal x = false /\ (x =? 120) || (x =? 88) = true.
Proof. intros [->| ->]; vm_compute; auto. Qed.

(* one step *)
Lemma octal3 x y z q : isoctal x = true -> isoctal y = true -> isoctal z = true ->
  formatOctalConstant (x :: y :: z :: q) = (let t := (x - 48) * 64 + (y - 48) * 8 + (z - 48) in if t <=? 255 then Some t else None, q).
Proof.
  intros H1 H2 H3. unfold formatOctalConstant. cbn [octalLoop]. rewrite H1, H2, H3. replace (0 + 1 + 1 + 1 =? 0) with false by reflexivity.
  replace (((0 * 8 + (x - 48)) * 8 + (y - 48)) * 8 + (z - 48)) with ((x - 48) * 64 + (y - 48) * 8 + (z - 48)) by lia. reflexivity.
Qed.
Lemma octal2 x y c q : isoctal x = true -> isoctal y = true -> isoctal c = false -> formatOctalConstant (x :: y :: c :: q) = (Some ((x - 48) * 8 + (y - 48)), c :: q).
Proof.
  intros H1 H2 H3. unfold formatOctalConstant. cbn [octalLoop]. rewrite H1, H2, H3. replace (0 + 1 + 1 =? 0) with false by reflexivity.
  replace ((0 * 8 + (x - 48)) * 8 + (y - 48)) with ((x - 48) * 8 + (y - 48)) by lia. replace ((x - 48) * 8 + (y - 48) <=? 255) with true by (unfold isoctal in *; lia). reflexivity.
Qed.
Lemma octal1 x c q : isoctal x = true -> isoctal c = false -> formatOctalConstant (x :: c :: q) = (Some (x - 48), c :: q).
Proof.
  intros H1 H3. unfold formatOctalConstant. cbn [octalLoop]. rewrite H1, H3. replace (0 + 1 =? 0) with false by reflexivity.
  replace (0 * 8 + (x - 48)) with (x - 48) by lia. replace (x - 48 <=? 255) with true by (unfold isoctal in *; lia). reflexivity.
Qed.
Lemma hexc2 x y q : isxdigit x = true -> isxdigit y = true -> formatHexConstant (x :: y :: q) = (Some (hex_value x * 16 + hex_value y), q).
Proof.
  intros H1 H2. unfold formatHexConstant. cbn [hexLoop]. rewrite H1, H2. replace (0 + 1 + 1 =? 0) with false by reflexivity. apply hex_is in H1, H2.
  rewrite !hex_val by auto. replace ((0 * 16 + hex_value x) * 16 + hex_value y) with (hex_value x * 16 + hex_value y) by lia.
  pose proof (hex_small x H1). pose proof (hex_small y H2). replace (hex_value x * 16 + hex_value y <=? 255) with true by lia. reflexivity.
Qed.
Lemma hexc1 x c q : isxdigit x = true -> isxdigit c = false -> formatHexConstant (x :: c :: q) = (Some (hex_value x), c :: q).
Proof.
  intros H1 H2. unfold formatHexConstant. cbn [hexLoop]. rewrite H1, H2. replace (0 + 1 =? 0) with false by reflexivity. apply hex_is in H1.
  rewrite !hex_val by auto. replace (0 * 16 + hex_value x) with (hex_value x) by lia.
  pose proof (hex_small x H1). replace (hex_value x <=? 255) with true by lia. reflexivity.
Qed.

Lemma denotes_step body b : denotes body b -> forall rest,
  body = [] /\ b = [] \/ exists v s b', b = v :: b' /\ denotes s b' /\ nextByte (body ++ 34 :: rest) = (Some v, s ++ 34 :: rest) /\ hd 34 body <> 34.
Proof.
  intros H rest. destruct H as [|c s b N1 N2 D|c v s b HI D|c s b HN HO N1 N2 D|x y z s b H1 H2 H3 HL D|x y s b H1 H2 HE D|x s b H1 HE D|x h1 h2 s b HX H1 H2 D|x h s b HX H1 HE D];
    [left; auto|right; (do 3 eexists; split; [reflexivity|]; split; [exact D|]; split; [|cbn; lia]; cbn [app])..].
  - apply nextByte_plain; auto.
  - rewrite nextByte_escape, (escaped_in _ _ HI). reflexivity.
  - rewrite nextByte_escape, escaped_not by auto. replace (isoctal c) with false by (unfold octal_digit, isoctal in *; lia). replace ((c =? 120) || (c =? 88)) with false by lia. reflexivity.
  - rewrite nextByte_escape, octal_unescaped by auto. apply octal_is in H1, H2, H3. rewrite H1, octal3 by auto. cbv zeta. replace (_ <=? 255) with true by lia. reflexivity.
  - rewrite nextByte_escape, octal_unescaped by auto. apply octal_is in H1, H2. destruct (ends_false _ _ s rest octal_is eq_refl HE) as (c & q & -> & HC). rewrite H1, octal2 by auto. reflexivity.
  - rewrite nextByte_escape, octal_unescaped by auto. apply octal_is in H1. destruct (ends_false _ _ s rest octal_is eq_refl HE) as (c & q & -> & HC). rewrite H1, octal1 by auto. reflexivity.
  - rewrite nextByte_escape. destruct (hex_unescaped x HX) as (-> & -> & ->). apply hex_is in H1, H2. apply hexc2; auto.
  - rewrite nextByte_escape. destruct (hex_unescaped x HX) as (-> & -> & ->). apply hex_is in H1. destruct (ends_false _ _ s rest hex_is eq_refl HE) as (c & q & -> & HC). apply hexc1; auto.
Qed.

Lemma dquote_denotes : forall n body b acc rest, (List.length b <= n)%nat -> denotes body b -> dquote acc (body ++ 34 :: rest) = (Some (acc ++ b), rest).
Proof.
  induction n as [|n IH]; intros body b acc rest HL D; destruct (denotes_step body b D rest) as [[-> ->]|(v & s & b' & -> & D' & EN & HH)];
    try (rewrite dquote_unfold; cbn [app]; change (34 =? 34) with true; cbv iota; rewrite app_nil_r; reflexivity); cbn [List.length] in HL; [lia|].
  rewrite dquote_unfold. rewrite EN. destruct body as [|c body]; [cbn in HH; lia|]. cbn [app hd] in *. replace (c =? 34) with false by lia.
  rewrite (IH s b' (acc ++ [v]) rest) by (auto; lia). rewrite <- app_assoc. reflexivity.
Qed.

Lemma next_dquote r : getNextToken (34 :: r) = makeDoubleQuoteToken r.
Proof.
  rewrite next_start; [|reflexivity|intros (H & _); discriminate]. unfold next_byte.
  assert (exists ty, getTokenType [34] = Some ty /\ r_sp ty = SpDQUOTE) as (ty & -> & ->) by (eexists; split; vm_compute; reflexivity). reflexivity.
Qed.

(* C55: a string literal is read as the bytes it denotes *)
Theorem C55_string : forall body b rest, denotes body b -> (List.length b <= 255)%nat ->
  getNextToken (34 :: body ++ 34 :: rest) = (Tok "DQUOTED_STRING" (Some b), rest).
Proof.
  intros body b rest D HL. rewrite next_dquote. unfold makeDoubleQuoteToken. pose proof (dquote_denotes _ body b [] rest (le_n _) D) as E. unfold dquote in E. rewrite E. cbn [app].
  unfold format_user. replace (255 <? N.of_nat (List.length b)) with false by lia. destruct (N.of_nat (List.length b) =? 0); reflexivity.
Qed.
Print Assumptions C55_string.

Lemma ends_true P p q s' t : (forall c, P c <-> p c = true) -> q = s' ++ t -> match q with c :: _ => p c = false | [] => True end -> ends P s'.
Proof. intros HP -> H. destruct s' as [|c s']; [exact I|]. cbn in *. intros HC. apply HP in HC. congruence. Qed.

Lemma step_denotes c r v q : c <> 34 -> nextByte (c :: r) = (Some v, q) ->
  exists p, c :: r = p ++ q /\ forall s b t, q = s ++ t -> denotes s b -> denotes (p ++ s) (v :: b).
Proof.
  intros N34 E. destruct (N.eq_dec c 92) as [->|N92].
  2:{ rewrite nextByte_plain in E by auto. injection E as <- <-. exists [c]. split; auto. intros s b t _ D. apply d_char; auto. }
  destruct r as [|d r]; [discriminate|]. rewrite nextByte_escape in E. destruct (escaped d) as [w|] eqn:EE.
  { injection E as <- <-. exists [92; d]. split; auto. intros s b t _ D. apply d_escape; auto. apply escaped_some. auto. }
  destruct (isoctal d) eqn:EO.
  { destruct r as [|y r]. { unfold formatOctalConstant in E. cbn [octalLoop] in E. rewrite EO in E. discriminate. }
    destruct (isoctal y) eqn:EY.
    2:{ rewrite octal1 in E by auto. injection E as <- <-. exists [92; d]. split; auto. intros s b t Q D. apply d_octal1; auto; [apply octal_is; auto|]. eapply ends_true; eauto using octal_is. }
    destruct r as [|z r]. { unfold formatOctalConstant in E. cbn [octalLoop] in E. rewrite EO, EY in E. discriminate. }
    destruct (isoctal z) eqn:EZ.
    2:{ rewrite octal2 in E by auto. injection E as <- <-. exists [92; d; y]. split; auto. intros s b t Q D. apply d_octal2; auto; [apply octal_is; auto|apply octal_is; auto|]. eapply ends_true; eauto using octal_is. }
    rewrite octal3 in E by auto. cbv zeta in E. destruct (N.leb_spec ((d - 48) * 64 + (y - 48) * 8 + (z - 48)) 255) as [HL|]; [|discriminate]. injection E as <- <-. exists [92; d; y; z]. split; auto. intros s b t Q D. apply d_octal3; auto; apply octal_is; auto. }
  destruct ((d =? 120) || (d =? 88)) eqn:EX.
  { destruct r as [|x r]; [discriminate|]. destruct (isxdigit x) eqn:E1.
    2:{ unfold formatHexConstant in E. cbn [hexLoop] in E. rewrite E1 in E. discriminate. }
    destruct r as [|y r]. { unfold formatHexConstant in E. cbn [hexLoop] in E. rewrite E1 in E. discriminate. }
    destruct (isxdigit y) eqn:E2.
    - rewrite hexc2 in E by auto. injection E as <- <-. exists [92; d; x; y]. split; auto. intros s b t Q D. apply d_hex2; auto; [lia|apply hex_is; auto|apply hex_is; auto].
    - rewrite hexc1 in E by auto. injection E as <- <-. exists [92; d; x]. split; auto. intros s b t Q D. apply d_hex1; auto; [lia|apply hex_is; auto|]. eapply ends_true; eauto using hex_is. }
  injection E as <- <-. exists [92; d]. split; auto. intros s b t Q D. apply d_other; auto; [apply escaped_none; auto|unfold octal_digit, isoctal in *; lia|lia|lia].
Qed.

Lemma dquote_only : forall n s acc b rest, (List.length s <= n)%nat -> dquote acc s = (Some b, rest) ->
  exists body b', s = body ++ 34 :: rest /\ b = acc ++ b' /\ denotes body b'.
Proof.
  induction n as [|n IH]; intros s acc b rest HL E; rewrite dquote_unfold in E; destruct s as [|c r]; try discriminate; cbn [List.length] in HL; [lia|].
  destruct (N.eqb_spec c 34) as [->|NC].
  - injection E as <- <-. exists [], []. split; auto. split; [rewrite app_nil_r; auto|constructor].
  - destruct (nextByte (c :: r)) as [[v|] q] eqn:EN; [|discriminate]. pose proof (nextByte_shorter (c :: r)) as HS. rewrite EN in HS. cbn [snd List.length] in HS. assert (S (List.length r) > List.length q)%nat by (apply HS; discriminate).
    destruct (IH q (acc ++ [v]) b rest) as (body & b' & -> & -> & D); [lia|auto|]. destruct (step_denotes c r v _ NC EN) as (p & -> & G). exists (p ++ body), (v :: b').
    split; [rewrite <- app_assoc; reflexivity|]. split; [rewrite <- app_assoc; reflexivity|]. eapply G; eauto.
Qed.

(* C55: and nothing else is read as a string *)
Theorem C55_string_only : forall s t r, getNextToken (34 :: s) = (t, r) ->
  t = TokError \/ exists body b, t = Tok "DQUOTED_STRING" (Some b) /\ s = body ++ 34 :: r /\ denotes body b /\ (List.length b <= 255)%nat.
Proof.
  intros s t r. rewrite next_dquote. unfold makeDoubleQuoteToken. change (dquote_fuel (S (List.length s)) s []) with (dquote [] s).
  destruct (dquote [] s) as [[b|] q] eqn:E; [|intros H; injection H as <- <-; auto]. destruct (dquote_only _ s [] b q (le_n _) E) as (body & b' & -> & -> & D). cbn [app].
  unfold format_user. destruct (N.ltb_spec 255 (N.of_nat (List.length b'))); [intros H2; injection H2 as <- <-; auto|]. intros H2. right. exists body, b'.
  destruct (N.of_nat (List.length b') =? 0); injection H2 as <- <-; (split; [auto|]; split; [auto|]; split; [auto|lia]).
Qed.
Print Assumptions C55_string_only.

(* a character between single quotes *)
Definition one_char (body : text) (b : N) : Prop :=
  (body = [b] /\ b <> 39 /\ b <> 92) \/ (exists s, body = 92 :: s) /\ denotes body [b].

Lemma next_squote r : getNextToken (39 :: r) = makeSingleQuoteToken r.
Proof.
  rewrite next_start; [|reflexivity|intros (H & _); discriminate]. unfold next_byte.
  assert (exists ty, getTokenType [39] = Some ty /\ r_sp ty = SpSQUOTE) as (ty & -> & ->) by (eexists; split; vm_compute; reflexivity). reflexivity.
Qed.

Theorem C55_char : forall body b rest, one_char body b -> getNextToken (39 :: body ++ 39 :: rest) = (Tok "SQUOTED_STRING" (Some [b]), rest).
Proof.
  intros body b rest H. rewrite next_squote. unfold makeSingleQuoteToken. destruct H as [(-> & N1 & N2)|((s0 & ES) & D)].
  - cbn [app]. replace (b =? 39) with false by lia. rewrite nextByte_plain by auto. change (39 =? 39) with true. reflexivity.
  - assert (nextByte (body ++ 39 :: rest) = (Some b, 39 :: rest)) as EN.
    { assert (forall s', denotes s' [] -> s' = []) as HNIL by (intros s' D'; inversion D'; auto).
      inversion D as [|c s b0 N1 N2 D0|c v s b0 HI D0|c s b0 HN HO N1 N2 D0|x y z s b0 H1 H2 H3 HL D0|x y s b0 H1 H2 HE D0|x s b0 H1 HE D0|x h1 h2 s b0 HX H1 H2 D0|x h s b0 HX H1 HE D0]; subst; pose proof (HNIL _ D0) as ->; cbn [app].
      - congruence.
      - rewrite nextByte_escape, (escaped_in _ _ HI). reflexivity.
      - rewrite nextByte_escape, escaped_not by auto. replace (isoctal b) with false by (unfold octal_digit, isoctal in *; lia). replace ((b =? 120) || (b =? 88)) with false by lia. reflexivity.
      - rewrite nextByte_escape, octal_unescaped by auto. apply octal_is in H1, H2, H3. rewrite H1, octal3 by auto. cbv zeta. replace (_ <=? 255) with true by lia. reflexivity.
      - rewrite nextByte_escape, octal_unescaped by auto. apply octal_is in H1, H2. rewrite H1, octal2 by auto. reflexivity.
      - rewrite nextByte_escape, octal_unescaped by auto. apply octal_is in H1. rewrite H1, octal1 by auto. reflexivity.
      - rewrite nextByte_escape. destruct (hex_unescaped x HX) as (-> & -> & ->). apply hex_is in H1, H2. apply hexc2; auto.
      - rewrite nextByte_escape. destruct (hex_unescaped x HX) as (-> & -> & ->). apply hex_is in H1. apply hexc1; auto. }
    subst body. cbn [app] in *. change (92 =? 39) with false. cbv iota. rewrite EN. reflexivity.
Qed.
Print Assumptions C55_char.

(* and nothing else is read as a character *)
Theorem C55_char_only : forall s t r, getNextToken (39 :: s) = (t, r) ->
  t = TokError \/ exists body b, t = Tok "SQUOTED_STRING" (Some [b]) /\ s = body ++ 39 :: r /\ one_char body b.
Proof.
  intros s t r. rewrite next_squote. unfold makeSingleQuoteToken. destruct s as [|c s]; [intros H; injection H as <- <-; auto|]. destruct (N.eqb_spec c 39) as [->|N39]; [intros H; injection H as <- <-; auto|].
  destruct (nextByte (c :: s)) as [[b|] q] eqn:EN; [|intros H; injection H as <- <-; auto]. destruct q as [|e q]; [intros H; injection H as <- <-; auto|]. destruct (N.eqb_spec e 39) as [->|NE]; [|intros H; injection H as <- <-; auto].
  intros H. injection H as <- <-. right. destruct (N.eq_dec c 92) as [->|N92].
  - destruct (step_denotes 92 s b (39 :: q) ltac:(lia) EN) as (p & EP & G). exists p, b. split; auto. split; auto. right. specialize (G [] [] (39 :: q) eq_refl (d_nil)). rewrite app_nil_r in G. split; auto.
    destruct p as [|x p]; [inversion G|]. cbn [app] in EP. injection EP as <- _. eauto.
  - rewrite nextByte_plain in EN by auto. injection EN as -> ->. exists [b], b. split; auto. split; auto. left. auto.
Qed.
Print Assumptions C55_char_only.

(* the bytes denoted are unique *)
Theorem C55_unique : forall body b b', denotes body b -> denotes body b' -> b = b'.
Proof.
  intros body b b' D D'. pose proof (dquote_denotes _ body b [] [] (le_n _) D) as E. rewrite (dquote_denotes _ body b' [] [] (le_n _) D') in E. injection E as ->. reflexivity.
Qed.
Print Assumptions C55_unique.

Example C55_ex : denotes (txt "a\n\x4g\0\\") [97; 10; 4; 103; 0; 92] /\ one_char (txt "\177") 127 /\
  getNextToken (34 :: txt "a\n\x4g\0\\" ++ 34 :: txt ";") = (Tok "DQUOTED_STRING" (Some [97; 10; 4; 103; 0; 92]), txt ";") /\
  fst (getNextToken (34 :: txt "\400" ++ 34 :: txt ";")) = TokError.
Proof.
  split.
  { apply d_char; [lia|lia|]. apply d_escape; [cbn; tauto|]. apply (d_hex1 120 52); [auto|unfold hex_digit, digit; lia|cbn; unfold hex_digit, digit; lia|]. apply d_char; [lia|lia|].
    apply (d_octal1 48); [unfold octal_digit; lia|cbn; unfold octal_digit; lia|]. apply d_escape; [cbn; tauto|]. apply d_nil. }
  split; [|vm_compute; auto]. right. split; [eexists; reflexivity|]. apply (d_octal3 49 55 55 [] []); try (unfold octal_digit; lia). constructor.
Qed.

(* ---- C56: numbers ---- *)
Definition f_octal : nflags := mkNf false true true false false false.
Definition f_hexa : nflags := mkNf false true false true false false.
Definition f_binary : nflags := mkNf false true false false true false.

Lemma fold_same f r (P : N -> Prop) : (forall c, P c -> nf_next f c = f) -> Forall P r -> fold_left nf_next r f = f.
Proof. intros H. induction 1 as [|c r HC HR IH]; cbn [fold_left]; [auto|]. rewrite H; auto. Qed.
Ltac nf := intros; unfold nf_next, isdigit, octal_digit, hex_digit, digit, f_octal, f_hexa, f_binary, nf0 in *; cbn [nf_float nf_uns nf_oct nf_hex nf_bin nf_bad orb andb negb];
  repeat match goal with |- context [if ?b then _ else _] => destruct b eqn:? end; try (f_equal; lia); try (exfalso; lia).
Ltac Zify.zify_post_hook ::= Z.div_mod_to_equations.
Lemma nf_dec c : digit c -> nf_next nf0 c = nf0. Proof. nf. Qed.
Lemma nf_octal c : octal_digit c -> nf_next f_octal c = f_octal. Proof. nf. Qed.
Lemma nf_hexa c : hex_digit c -> nf_next f_hexa c = f_hexa. Proof. nf. Qed.
Lemma nf_binary c : c = 48 \/ c = 49 -> nf_next f_binary c = f_binary. Proof. intros [->| ->]; vm_compute; reflexivity. Qed.

Lemma next_digit c s : digit c -> getNextToken (c :: s) = makeNumberToken c s.
Proof.
  intros H. assert (isdigit c = true) as HD by (unfold isdigit, digit in *; lia). rewrite next_start.
  - unfold next_byte. assert (forallb (fun c => negb (isdigit c) || match getTokenType [c] with None => true | Some _ => false end) (nrange 58) = true) as G by (vm_compute; reflexivity).
    assert (c < N.of_nat 58) as HL by (unfold digit in H; lia). pose proof (forall_N_below 58 _ G c HL) as E. cbn beta in E. rewrite HD in E.
    destruct (getTokenType [c]) as [ty|]; [cbn in E; discriminate|]. unfold next_unclear. rewrite HD. replace (isalpha c) with false by (unfold isalpha, isupper, islower, digit in *; lia). reflexivity.
  - unfold isspace, digit in *. lia.
  - intros (-> & _). discriminate.
Qed.

(* the shape of makeNumberToken on a body of number characters *)
Lemma number_shape a c more u rest : isxdigit c || (c =? 120) || (c =? 88) || (c =? 46) = true -> forallb numchar more = true ->
  (u = [] /\ ends number_char rest \/ exists x, u = [x] /\ (x = 117 \/ x = 85)) ->
  makeNumberToken a (c :: more ++ u ++ rest) =
   (let f := fold_left nf_next more (nf_second a c) in let d := a :: c :: more ++ u in
    if nf_bad f then TokError else if nf_float f then Tok "NUMBER_FLOAT" (Some d)
    else if (match u with [] => nf_uns f | _ => true end) then Tok "NUMBER_UNSIGNED" (Some d) else Tok "NUMBER_SIGNED" (Some d), rest).
Proof.
  intros HC HM HU. unfold makeNumberToken. rewrite HC. rewrite span_app; auto.
  2:{ destruct HU as [(-> & HE)|(x & -> & HX)]; cbn [app].
      - destruct rest as [|d rest]; [exact I|]. cbn in HE. unfold numchar. unfold number_char, hex_digit, digit in HE. cbn [In] in HE. unfold isxdigit, isdigit. lia.
      - destruct HX as [->| ->]; reflexivity. }
  destruct HU as [(-> & HE)|(x & -> & HX)]; cbn [app].
  - assert (match rest with [] => True | c :: _ => (c =? 117) || (c =? 85) = false end) as HR by (destruct rest as [|d rest]; [exact I|]; cbn in HE; unfold number_char in HE; cbn [In] in HE; lia).
    destruct rest as [|d rest]; [|rewrite HR]; cbn [app]; (destruct (nf_bad _); [reflexivity|]; destruct (nf_float _); [reflexivity|]; destruct (nf_uns _); reflexivity).
  - replace ((x =? 117) || (x =? 85)) with true by lia. destruct (nf_bad _); [reflexivity|]; destruct (nf_float _); reflexivity.
Qed.
Lemma number_single a u rest : (u = [] /\ ends number_char rest \/ exists x, u = [x] /\ (x = 117 \/ x = 85)) ->
  makeNumberToken a (u ++ rest) = (if match u with [] => false | _ => true end then Tok "NUMBER_UNSIGNED" (Some (a :: u)) else Tok "NUMBER_SIGNED" (Some (a :: u)), rest).
Proof.
  intros HU. unfold makeNumberToken. destruct HU as [(-> & HE)|(x & -> & HX)]; cbn [app].
  - destruct rest as [|d rest]; [reflexivity|]. cbn in HE. unfold number_char, hex_digit, digit in HE. cbn [In] in HE.
    replace (isxdigit d || (d =? 120) || (d =? 88) || (d =? 46)) with false by (unfold isxdigit, isdigit; lia). cbn [span]. replace (numchar d) with false by (unfold numchar, isxdigit, isdigit; lia).
    cbn [fold_left]. replace ((d =? 117) || (d =? 85)) with false by lia. reflexivity.
  - replace (isxdigit x || (x =? 120) || (x =? 88) || (x =? 46)) with false by (unfold isxdigit, isdigit; lia). cbn [span]. replace (numchar x) with false by (unfold numchar, isxdigit, isdigit; lia).
    cbn [fold_left]. replace ((x =? 117) || (x =? 85)) with true by lia. reflexivity.
Qed.

Lemma all_numchar (P : N -> Prop) r : (forall c, P c -> numchar c = true) -> Forall P r -> forallb numchar r = true.
Proof. intros H HF. apply forallb_forall. rewrite Forall_forall in HF. auto. Qed.

Lemma base_read s b u rest : base_number s b -> (u = [] /\ ends number_char rest \/ exists x, u = [x] /\ (x = 117 \/ x = 85)) ->
  getNextToken (s ++ u ++ rest) = (Tok (if (match u with [] => b | _ => true end) then "NUMBER_UNSIGNED" else "NUMBER_SIGNED") (Some (s ++ u)), rest).
Proof.
  intros HB HU. destruct HB as [c r HC HR| |c r HC HR|x c r HX HC HR|x c r HX HC HR]; cbn [app]; rewrite next_digit by (unfold digit; lia).
  - destruct r as [|d r].
    + cbn [app]. rewrite number_single by auto. destruct u; reflexivity.
    + inversion HR as [|? ? HD HR']; subst. cbn [app]. rewrite number_shape; auto.
      2:{ unfold isxdigit, isdigit, digit in *. lia. } 2:{ eapply all_numchar; [|exact HR']. intros e He. unfold numchar, isxdigit, isdigit, digit in *. lia. }
      replace (nf_second c d) with nf0 by (unfold nf_second, digit, isdigit in *; destruct (N.eqb_spec c 48); [lia|]; destruct (N.eqb_spec d 46); [lia|]; replace ((48 <=? d) && (d <=? 57)) with true by lia; reflexivity).
      rewrite (fold_same nf0 r digit nf_dec HR'). destruct u; reflexivity.
  - rewrite number_single by auto. destruct u; reflexivity.
  - rewrite number_shape; auto. 2:{ unfold isxdigit, isdigit, octal_digit in *. lia. } 2:{ eapply all_numchar; [|exact HR]. intros e He. unfold numchar, isxdigit, isdigit, octal_digit in *. lia. }
    replace (nf_second 48 c) with f_octal.
    2:{ unfold nf_second, octal_digit in *. change (48 =? 48) with true. cbv iota. replace ((c =? 120) || (c =? 88)) with false by lia. replace ((c =? 98) || (c =? 66)) with false by lia. replace (c =? 46) with false by lia. replace (c <? 56) with true by lia. reflexivity. }
    rewrite (fold_same f_octal r octal_digit nf_octal HR). destruct u; reflexivity.
  - change (x :: c :: r ++ u ++ rest) with (x :: (c :: r) ++ u ++ rest). rewrite number_shape; auto. 2:{ lia. } 2:{ apply (all_numchar hex_digit); [|constructor; auto]. intros e He. unfold numchar, isxdigit, isdigit, hex_digit, digit in *. lia. }
    replace (nf_second 48 x) with f_hexa by (destruct HX as [->| ->]; reflexivity). rewrite (fold_same f_hexa (c :: r) hex_digit nf_hexa) by (constructor; auto). destruct u; reflexivity.
  - change (x :: c :: r ++ u ++ rest) with (x :: (c :: r) ++ u ++ rest). rewrite number_shape; auto. 2:{ unfold isxdigit, isdigit. lia. } 2:{ apply (all_numchar (fun d => d = 48 \/ d = 49)); [|constructor; auto]. intros e He. unfold numchar, isxdigit, isdigit in *. lia. }
    replace (nf_second 48 x) with f_binary by (destruct HX as [->| ->]; reflexivity). rewrite (fold_same f_binary (c :: r) (fun d => d = 48 \/ d = 49) nf_binary) by (constructor; auto). destruct u; reflexivity.
Qed.

(* C56: a number literal is read whole, with the right sign *)
Theorem C56_number : forall s uns rest, number s uns -> ends number_char rest ->
  getNextToken (s ++ rest) = (Tok (if uns then "NUMBER_UNSIGNED" else "NUMBER_SIGNED") (Some s), rest).
Proof.
  intros s uns rest [HB|(s' & b & x & HB & HX & -> & ->)] HE.
  - pose proof (base_read s uns [] rest HB) as E. cbn [app] in E. rewrite app_nil_r in E. apply E. auto.
  - rewrite <- app_assoc. apply (base_read s' b [x] rest HB). eauto.
Qed.
Print Assumptions C56_number.

Lemma flags_kept f c : nf_oct (nf_next f c) = nf_oct f /\ nf_hex (nf_next f c) = nf_hex f /\ nf_bin (nf_next f c) = nf_bin f /\ nf_uns (nf_next f c) = nf_uns f.
Proof. auto. Qed.

Definition nf_ok (f : nflags) (c : N) : Prop :=
  c <> 46 /\ (nf_oct f = true -> (c + 208) mod 256 <= 7) /\ (nf_bin f = true -> (c + 208) mod 256 <= 1) /\ (nf_oct f = false -> nf_bin f = false -> nf_hex f = false -> digit c).
Lemma fold_ok : forall more f, nf_bad (fold_left nf_next more f) = false -> nf_float (fold_left nf_next more f) = false -> nf_oct f && nf_bin f = false ->
  nf_bad f = false /\ nf_float f = false /\ Forall (nf_ok f) more /\ nf_uns (fold_left nf_next more f) = nf_uns f.
Proof.
  induction more as [|c more IH]; intros f HB HF HX; cbn [fold_left] in *; [auto|].
  destruct (IH (nf_next f c) HB HF HX) as (B1 & F1 & FA & U1). unfold nf_next in B1, F1. cbn [nf_bad nf_float] in B1, F1. apply orb_false_iff in F1 as [F1 F2].
  assert (nf_bad f = false /\ nf_ok f c) as [G1 G2].
  { unfold nf_ok, digit, isdigit in *. destruct (nf_oct f); destruct (nf_bin f); destruct (nf_hex f); cbn [andb negb] in *; try discriminate;
      repeat match type of B1 with context [if ?b then _ else _] => destruct b eqn:? end; try discriminate; (split; [auto|]; split; [lia|]; split; [intros; try discriminate; lia|]; split; [intros; try discriminate; lia|]; intros; try discriminate; lia). }
  split; [exact G1|]. split; [exact F1|]. split; [constructor; [exact G2|exact FA]|exact U1].
Qed.

(* 0x and 0b with no digit after them *)
Definition bare (d : text) : Prop := exists x u, In x [120; 88; 98; 66] /\ In u [[]; [117]; [85]] /\ d = 48 :: x :: u.

(* C56: and nothing else is, but for bare prefixes. Missing: see C56_bare_prefix_refuted *)
Theorem C56_number_only_partial : forall c s t r, digit c -> getNextToken (c :: s) = (t, r) ->
  t = TokError \/ exists d, c :: s = d ++ r /\
    (t = Tok "NUMBER_FLOAT" (Some d) \/ t = Tok "NUMBER_SIGNED" (Some d) /\ number d false \/ t = Tok "NUMBER_UNSIGNED" (Some d) /\ (number d true \/ bare d)).
Proof.
  intros a s t r HD E. rewrite next_digit in E by auto.
  (* split the input *)
  assert (exists body u q, s = body ++ u ++ q /\ forallb numchar (tl body) = true /\ match body with [] => True | c :: _ => isxdigit c || (c =? 120) || (c =? 88) || (c =? 46) = true end /\
    (u = [] \/ exists x, u = [x] /\ (x = 117 \/ x = 85)) /\
    (t, r) = (let f := match body with c :: m => fold_left nf_next m (nf_second a c) | [] => nf0 end in let d := a :: body ++ u in
    if nf_bad f then TokError else if nf_float f then Tok "NUMBER_FLOAT" (Some d)
    else if (match u with [] => nf_uns f | _ => true end) then Tok "NUMBER_UNSIGNED" (Some d) else Tok "NUMBER_SIGNED" (Some d), q)) as (body & u & q & -> & HM & HC & HU & ER).
  { unfold makeNumberToken in E. destruct s as [|c s].
    - exists [], [], []. cbn in *. split; [auto|]; split; [auto|]; split; [auto|]; split; auto.
    - destruct (isxdigit c || (c =? 120) || (c =? 88) || (c =? 46)) eqn:EC.
      + pose proof (span_spec numchar s) as HS. destruct (span numchar s) as [more s2]. destruct HS as (-> & HM & HS2). destruct s2 as [|x s2].
        * exists (c :: more), [], []. split; [reflexivity|]. split; auto. split; auto. split; auto. cbn [app] in *. rewrite <- E. repeat match goal with |- context [if ?b then _ else _] => destruct b end; reflexivity.
        * destruct ((x =? 117) || (x =? 85)) eqn:EX.
          { exists (c :: more), [x], s2. split; auto. split; auto. split; auto. split; [right; exists x; split; [auto|lia]|]. cbn [app] in *. rewrite <- E. repeat match goal with |- context [if ?b then _ else _] => destruct b end; reflexivity. }
          { exists (c :: more), [], (x :: s2). split; auto. split; auto. split; auto. split; auto. cbn [app] in *. rewrite <- E. repeat match goal with |- context [if ?b then _ else _] => destruct b end; reflexivity. }
      + cbn [span] in E. assert (numchar c = false) as EN by (unfold numchar; destruct (isxdigit c); lia); rewrite EN in E. cbn [fold_left] in E. destruct ((c =? 117) || (c =? 85)) eqn:EX.
        { exists [], [c], s. split; auto. split; auto. split; auto. split; [right; exists c; split; [auto|lia]|]. cbn [app] in *. rewrite <- E. reflexivity. }
        { exists [], [], (c :: s). split; [auto|]; split; [auto|]; split; [auto|]; split; auto. }  }
  assert (forall b, base_number (a :: body) b -> number (a :: body ++ u) (match u with [] => b | _ => true end)) as HN.
  { intros b HB. destruct HU as [->|(x & -> & HX)]; [rewrite app_nil_r; left; auto|]. right. exists (a :: body), b, x. split; auto. }
  assert (HNU : forall f, (exists d, a :: body ++ u ++ q = d ++ q /\ (forall t', t' = (if (match u with [] => nf_uns f | _ => true end) then Tok "NUMBER_UNSIGNED" (Some (a :: body ++ u)) else Tok "NUMBER_SIGNED" (Some (a :: body ++ u))) ->
     base_number (a :: body) (nf_uns f) -> t' = Tok "NUMBER_SIGNED" (Some d) /\ number d false \/ t' = Tok "NUMBER_UNSIGNED" (Some d) /\ number d true))).
  { intros f. exists (a :: body ++ u). split; [cbn; rewrite <- app_assoc; reflexivity|]. intros t' -> HB. specialize (HN _ HB). destruct (match u with [] => nf_uns f | _ => true end); auto. }
  injection ER as -> ->. cbv zeta. destruct body as [|c more].
  - right. destruct (HNU nf0) as (d & E1 & H). exists d. split; auto. cbn [nf0 nf_bad nf_float] in *. destruct (H _ eq_refl) as [G|[G1 G2]]; auto.
    cbn [nf_uns nf0]. destruct (N.eq_dec a 48) as [->|]; [apply n_zero|apply n_decimal; [unfold digit in HD; lia|constructor]].
  - cbn [tl] in HM. set (f := fold_left nf_next more (nf_second a c)) in *. destruct (nf_bad f) eqn:EB; [auto|]. right. destruct (nf_float f) eqn:EF.
    { exists (a :: (c :: more) ++ u). split; [cbn; rewrite <- app_assoc; reflexivity|]. auto. }
    assert (nf_oct (nf_second a c) && nf_bin (nf_second a c) = false) as HX.
    { unfold nf_second. repeat match goal with |- context [if ?b then _ else _] => destruct b end; reflexivity. }
    destruct (fold_ok more (nf_second a c) EB EF HX) as (B & F & FA & U). fold f in U.
    assert (base_number (a :: c :: more) (nf_uns f) \/ more = [] /\ a = 48 /\ In c [120; 88; 98; 66] /\ nf_uns f = true) as [HB|(-> & -> & HIn & HUns)].
    { rewrite U. clear U. unfold nf_second in *. assert (Forall (fun c => numchar c = true) more) as HM' by (rewrite Forall_forall; rewrite forallb_forall in HM; auto).
      destruct (N.eqb_spec a 48) as [->|Na].
      - destruct ((c =? 120) || (c =? 88)) eqn:EX.
        { destruct more as [|e more]; [right; split; auto; split; auto; split; [cbn; lia|auto]|]. left. cbn [nf_uns]. apply Forall_inv in FA as FA1. apply Forall_inv_tail in FA as FA2.
          assert (Forall hex_digit (e :: more)) as HH.
          { rewrite Forall_forall in *. intros y Hy. specialize (FA y Hy). specialize (HM' y Hy). destruct FA as (F1 & _). unfold numchar in HM'. apply hex_is. destruct (isxdigit y); lia. }
          apply n_hex; [lia|inversion HH; auto|inversion HH; auto]. }
        destruct ((c =? 98) || (c =? 66)) eqn:EBi.
        { destruct more as [|e more]; [right; split; auto; split; auto; split; [cbn; lia|auto]|]. left. cbn [nf_uns].
          assert (Forall (fun d => d = 48 \/ d = 49) (e :: more)) as HH.
          { rewrite Forall_forall in *. intros y Hy. specialize (FA y Hy). specialize (HM' y Hy). unfold nf_ok in FA. cbn [nf_oct nf_bin nf_hex] in FA. destruct FA as (F1 & _ & F2 & _). specialize (F2 eq_refl). unfold numchar, isxdigit, isdigit in HM'. lia. }
          apply n_binary; [lia|inversion HH; auto|inversion HH; auto]. }
        destruct (N.eqb_spec c 46) as [->|Nc]; [discriminate|]. destruct (N.ltb_spec c 56); [|discriminate]. left. cbn [nf_uns].
        apply n_octal; [unfold octal_digit, isxdigit, isdigit in *; lia|].
        rewrite Forall_forall in *. intros y Hy. specialize (FA y Hy). specialize (HM' y Hy). unfold nf_ok in FA. cbn [nf_oct nf_bin nf_hex] in FA. destruct FA as (F1 & F2 & _). specialize (F2 eq_refl). unfold numchar, isxdigit, isdigit, octal_digit in *. lia.
      - destruct (N.eqb_spec c 46) as [->|Nc]; [discriminate|]. destruct (isdigit c) eqn:Ec; cbn [negb] in *; [|discriminate]. left. cbn [nf_uns nf0]. apply n_decimal; [unfold digit in HD; lia|].
        constructor; [unfold isdigit, digit in *; lia|]. rewrite Forall_forall in *. intros y Hy. specialize (FA y Hy). unfold nf_ok in FA. cbn [nf0 nf_oct nf_bin nf_hex] in FA. destruct FA as (_ & _ & _ & F4). auto. }
    + destruct (HNU f) as (d & E1 & H). exists d. split; auto. destruct (H _ eq_refl HB) as [G|[G1 G2]]; auto.
    + exists (48 :: [c] ++ u). split; [cbn; reflexivity|]. right. right. rewrite HUns. destruct u as [|x u]; (split; [reflexivity|]); right; [exists c, []|exists c, (x :: u)]; (split; [auto|]; split; [|reflexivity]); [cbn; auto|].
      destruct HU as [HU|(y & HU & HX2)]; [discriminate|]. injection HU as -> ->. cbn. destruct HX2 as [->| ->]; auto.
Qed.
Print Assumptions C56_number_only_partial.

(* refuted: 0x with no digits is a number token (of what value is up to strto64, C05 and C06) *)
Theorem C56_bare_prefix_refuted : exists d, ~ number d true /\ ~ number d false /\ getNextToken (d ++ txt ";") = (Tok "NUMBER_UNSIGNED" (Some d), txt ";").
Proof.
  assert (forall uns, ~ number (txt "0x") uns) as H.
  { change (txt "0x") with [48; 120]. intros uns [HB|(s' & b & u & HB & HU & E & _)].
    - inversion HB; subst; unfold octal_digit in *; lia.
    - destruct s' as [|a [|b' s']]; [inversion HB| |]; injection E as <- E; [subst u; lia|]. destruct s'; discriminate. }
  exists (txt "0x"). split; [apply H|]. split; [apply H|vm_compute; reflexivity].
Qed.
Print Assumptions C56_bare_prefix_refuted.

(* a number of several digits with a point is refused, though one with a single digit before the point is read as a
   number with a fraction *)
Theorem C56_fraction : fst (getNextToken (txt "1.5;")) = Tok "NUMBER_FLOAT" (Some (txt "1.5")) /\ fst (getNextToken (txt "12.5;")) = TokError.
Proof. vm_compute. auto. Qed.
Print Assumptions C56_fraction.

Example C56_ex : number (txt "0x1F") true /\ number (txt "42") false /\ number (txt "7u") true /\ number (txt "0b101") true /\ number (txt "017") true /\ ends number_char (txt ";") /\
  getNextToken (txt "0x1F;") = (Tok "NUMBER_UNSIGNED" (Some (txt "0x1F")), txt ";") /\ fst (getNextToken (txt "0129;")) = TokError.
Proof.
  split. { left. change (txt "0x1F") with [48; 120; 49; 70]. apply n_hex; [auto|unfold hex_digit, digit; lia|]. constructor; [unfold hex_digit, digit; lia|constructor]. }
  split. { left. change (txt "42") with [52; 50]. apply n_decimal; [lia|]. constructor; [unfold digit; lia|constructor]. }
  split. { right. exists [55], false, 117. split; [apply n_decimal; [lia|constructor]|auto]. }
  split. { left. change (txt "0b101") with [48; 98; 49; 48; 49]. apply n_binary; [auto|auto|]. constructor; [auto|]. constructor; [auto|constructor]. }
  split. { left. change (txt "017") with [48; 49; 55]. apply n_octal; [unfold octal_digit; lia|]. constructor; [unfold octal_digit; lia|constructor]. }
  split. { change (ends number_char (txt ";")) with (~ number_char 59). intros H. unfold number_char, hex_digit, digit in H. cbn [In] in H. lia. }
  vm_compute. auto.
Qed.
