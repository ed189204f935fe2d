(* LexerTheorems.v: properties C12, C13. *)
From Coq Require Import String List NArith ZArith Lia Bool.
From Coq Require Import ZifyBool ZifyNat ZifyN.
From Verif Require Import Base StringPoolModel LexerModel LexerSpec LexerProofs.
Import ListNotations.
Open Scope N_scope.

(* ---- starting a token ---- *)
Lemma isspace_white c : isspace c = true <-> white c.
Proof. unfold isspace, white. lia. Qed.

Lemma next_start c r : isspace c = false -> ~ (c = 47 /\ exists q, r = 47 :: q \/ r = 42 :: q) -> getNextToken (c :: r) = next_byte c r.
Proof.
  intros HS HC. rewrite getNextToken_eq, skip_fun_unfold. unfold eat_fun, eatComment. destruct (N.eqb_spec c 47) as [->|N].
  - destruct r as [|d r]; [reflexivity|]. destruct (N.eqb_spec d 47) as [->|]; [exfalso; apply HC; eauto|].
    destruct (N.eqb_spec d 42) as [->|]; [exfalso; apply HC; eauto|]. reflexivity.
  - cbn [e_c e_pend e_sc e_rest]. rewrite HS. reflexivity.
Qed.

(* ---- C12 ---- *)
Definition spelled2 (a b : N) : option string := option_map snd (find (fun p => text_eqb (fst p) [a; b]) operators).
Definition not_operators : list (N * N) := [(47, 47); (47, 42); (42, 47); (46, 46)].
Definition pair_in (a b : N) : bool := existsb (fun p => (fst p =? a) && (snd p =? b)) not_operators.
Definition opt_str_eqb (a b : option string) : bool :=
  match a, b with Some a, Some b => String.eqb a b | None, None => true | _, _ => false end.
Definition single_check : bool :=
  forallb (fun p => match fst p with
    | a :: _ => match getTokenType [a] with
       | Some ty => negb (isspace a) && negb (isalpha a) && negb (isdigit a) && negb (a =? 64) && negb (a =? 95)
           && negb (String.eqb (r_name ty) "ELLIPSIS") && negb (String.eqb (r_name ty) "SHIFT_LEFT") && negb (String.eqb (r_name ty) "SHIFT_RIGHT")
           && match r_sp ty with SpUNCLEAR => true | SpSINGLE => forallb (fun q => negb (text_eqb (firstn 1 (fst q)) [a]) || text_eqb (fst q) [a]) operators | _ => false end
           && existsb (fun q => text_eqb (fst q) [a] && String.eqb (snd q) (r_name ty)) operators
       | None => false
       end
    | [] => false end) operators.
Definition double_check : bool :=
  forallb (fun p => match fst p with
    | a :: _ => forallb (fun b => (b =? 0) || pair_in a b || opt_str_eqb (option_map r_name (getTokenType [a; b])) (spelled2 a b)) (nrange 256)
    | [] => false end) operators.
Lemma single_ok : single_check = true. Proof. vm_compute. reflexivity. Qed.
Lemma double_ok : double_check = true. Proof. vm_compute. reflexivity. Qed.

Lemma spelled2_some a b n : spelled2 a b = Some n -> In ([a; b], n) operators.
Proof.
  unfold spelled2. destruct (find _ operators) as [[w m]|] eqn:E; [|discriminate]. cbn. intros H. injection H as <-.
  apply find_some in E. cbn in E. destruct E as [E1 E2]. apply text_eqb_eq in E2. subst. auto.
Qed.
Lemma operators_unique : forall w n m, In (w, n) operators -> In (w, m) operators -> n = m.
Proof.
  assert (forallb (fun p => forallb (fun q => negb (text_eqb (fst p) (fst q)) || String.eqb (snd p) (snd q)) operators) operators = true) as H by (vm_compute; reflexivity).
  intros w n m H1 H2. rewrite forallb_forall in H. specialize (H _ H1). rewrite forallb_forall in H. specialize (H _ H2). cbn [fst snd] in H.
  rewrite text_eqb_refl in H. cbn in H. apply String.eqb_eq. auto.
Qed.

(* what stands in the way: see the refutations below *)
Definition nothing_odd (s : text) : Prop :=
  ~ prefix (txt "//") s /\ ~ prefix (txt "/*") s /\ ~ prefix (txt "*/") s /\ (prefix (txt "..") s -> prefix (txt "...") s) /\
  s <> txt "<<" /\ s <> txt ">>" /\ nth 1 s 1 <> 0.

Lemma single_row w n a r0 : In (w, n) operators -> w = a :: r0 -> exists ty, getTokenType [a] = Some ty /\ In ([a], r_name ty) operators /\
  isspace a = false /\ isalpha a = false /\ isdigit a = false /\ a <> 64 /\ a <> 95 /\
  r_name ty <> "ELLIPSIS"%string /\ r_name ty <> "SHIFT_LEFT"%string /\ r_name ty <> "SHIFT_RIGHT"%string /\
  (r_sp ty = SpUNCLEAR \/ r_sp ty = SpSINGLE /\ r0 = []).
Proof.
  intros HI ->. pose proof single_ok as H. unfold single_check in H. rewrite forallb_forall in H. specialize (H _ HI). cbn [fst] in H.
  destruct (getTokenType [a]) as [ty|] eqn:E; [|discriminate]. exists ty. rewrite !andb_true_iff, !negb_true_iff in H.
  destruct H as [[[[[[[[[H1 H2] H3] H4] H5] H6] H7] H8] H9] H10].
  apply String.eqb_neq in H6, H7, H8. split; auto. apply existsb_exists in H10. destruct H10 as ([w m] & HM & HE). cbn in HE. apply andb_true_iff in HE as [E1 E2].
  apply text_eqb_eq in E1. apply String.eqb_eq in E2. subst. split; auto. split; [auto|]. split; [auto|]. split; [auto|]. split; [lia|]. split; [lia|].
  split; [auto|]. split; [auto|]. split; [auto|]. destruct (r_sp ty); try discriminate; auto. right. split; auto.
  rewrite forallb_forall in H9. specialize (H9 _ HI). cbn [fst] in H9. cbn [firstn] in H9. rewrite text_eqb_refl in H9. cbn in H9.
  apply text_eqb_eq in H9. congruence.
Qed.

Lemma double_row w n a r0 b : In (w, n) operators -> w = a :: r0 -> b <> 0 -> b < 256 -> pair_in a b = false ->
  option_map r_name (getTokenType [a; b]) = spelled2 a b.
Proof.
  intros HI -> HB HL HP. pose proof double_ok as H. unfold double_check in H. rewrite forallb_forall in H. specialize (H _ HI). cbn [fst] in H.
  pose proof (forall_N_below 256 _ H b ltac:(lia)) as G. cbn beta in G. rewrite HP in G. replace (b =? 0) with false in G by lia. cbn [orb] in G.
  destruct (option_map r_name (getTokenType [a; b])), (spelled2 a b); cbn in G; try discriminate; auto. apply String.eqb_eq in G. congruence.
Qed.

Lemma operators_shape : forall w n, In (w, n) operators ->
  (exists a, w = [a]) \/ (exists a b, w = [a; b] /\ n <> "ELLIPSIS"%string /\ (n = "SHIFT_LEFT"%string -> w = txt "<<") /\ (n = "SHIFT_RIGHT"%string -> w = txt ">>") /\ pair_in a b = false /\ b <> 0 /\ b < 256) \/
  (w = txt "..." /\ n = "ELLIPSIS"%string) \/ (w = txt "<<=" /\ n = "SHIFT_LEFT_EQUAL"%string) \/ (w = txt ">>=" /\ n = "SHIFT_RIGHT_EQUAL"%string).
Proof.
  intros w n H. unfold operators in H. cbn [In] in H.
  repeat (destruct H as [H|H]; [injection H as <- <-;
    first [left; eexists; reflexivity
          |right; left; eexists _, _; split; [reflexivity|]; split; [discriminate|]; split; [intros; first [reflexivity|discriminate]|]; split; [intros; first [reflexivity|discriminate]|]; split; [reflexivity|]; split; [discriminate|reflexivity]
          |right; right; auto] |]). contradiction.
Qed.

Lemma operator_longest w n a r0 r : In (w, n) operators -> w = a :: r0 ->
  (forall w' n', In (w', n') operators -> prefix w' (w ++ r) -> (List.length w' <= List.length w)%nat) ->
  is_text (w ++ r) = true -> ~ (exists q, w ++ r = 47 :: 47 :: q) -> ~ (exists q, w ++ r = 47 :: 42 :: q) -> ~ (exists q, w ++ r = 42 :: 47 :: q) ->
  (prefix (txt "..") (w ++ r) -> prefix (txt "...") (w ++ r)) -> w ++ r <> txt "<<" -> w ++ r <> txt ">>" -> nth 1 (w ++ r) 1 <> 0 ->
  exists ty, (exists x, makeOperatorToken [a] (r0 ++ r) = (x, Some ty, r)) /\ r_name ty = n.
Proof.
  intros HI HW HM HT C1 C2 C3 C4 C5 C6 HN. destruct (single_row w n a r0 HI HW) as (ty1 & E1 & HI1 & _ & _ & _ & _ & _ & NE1 & NE2 & NE3 & _).
  assert (forall b q, w ++ r = a :: b :: q -> pair_in a b = true -> b = 46 /\ a = 46) as HP.
  { intros b q EQ. unfold pair_in, not_operators. cbn [existsb fst snd]. intros HX.
    assert (a = 47 /\ b = 47 \/ a = 47 /\ b = 42 \/ a = 42 /\ b = 47 \/ a = 46 /\ b = 46) as [[HA ->]|[[HA ->]|[[HA ->]|HA]]] by lia; [exfalso; apply C1|exfalso; apply C2|exfalso; apply C3|tauto];
      exists q; rewrite EQ, HA; reflexivity. }
  assert (forall c q, w ++ r = c :: q -> c < 256 /\ is_text q = true) as HB.
  { intros c q EQ. rewrite EQ in HT. cbn in HT. apply andb_true_iff in HT as [H1 H2]. unfold is_byte in H1. split; [lia|auto]. }
  destruct (operators_shape w n HI) as [(a' & EW)|[(a' & b & EW & G1 & G2 & G3 & G4 & G5 & G6)|[[EW ->]|[[EW ->]|[EW ->]]]]].
  - assert (a' = a /\ r0 = []) as [-> ->] by (split; congruence). subst w. cbn [app] in *.
    assert (n = r_name ty1) as -> by (eapply operators_unique; eauto). exists ty1. split; auto.
    destruct r as [|b r]; unfold makeOperatorToken; cbn [read app]; [rewrite E1; eauto|].
    destruct (HB _ _ eq_refl) as [_ HT2]. cbn in HT2. apply andb_true_iff in HT2 as [HB2 _]. unfold is_byte in HB2. cbn [nth] in HN.
    destruct (pair_in a b) eqn:EP.
    + exfalso. destruct (HP b r eq_refl EP) as [-> ->]. assert (prefix (txt "...") (46 :: 46 :: r)) as H3 by (apply C4; exists r; reflexivity).
      specialize (HM (txt "...") "ELLIPSIS"%string). cbn in HM. assert (3 <= 1)%nat; [apply HM; [vm_compute; tauto|auto]|lia].
    + pose proof (double_row _ _ a [] b HI eq_refl HN ltac:(lia) EP) as HD. destruct (getTokenType [a; b]) as [ty2|]; cbn in HD.
      * exfalso. symmetry in HD. apply spelled2_some in HD. specialize (HM _ _ HD). cbn in HM. assert (2 <= 1)%nat; [apply HM; exists r; reflexivity|lia].
      * cbn [firstn]. rewrite E1. eauto.
  - assert (a' = a /\ r0 = [b]) as [-> ->] by (split; congruence). subst w. cbn [app] in *.
    pose proof (double_row _ _ a [b] b HI eq_refl G5 G6 G4) as HD.
    assert (spelled2 a b = Some n) as HS.
    { destruct (spelled2 a b) as [m|] eqn:ES; [f_equal; apply (operators_unique [a; b]); [apply spelled2_some|]; auto|]. exfalso. unfold spelled2 in ES.
      destruct (find _ operators) as [q|] eqn:EF; [discriminate|]. apply (find_none _ _ EF) in HI. cbn [fst] in HI. rewrite text_eqb_refl in HI. discriminate. }
    rewrite HS in HD. destruct (getTokenType [a; b]) as [ty2|] eqn:E2; [|discriminate]. cbn in HD. injection HD as HD. exists ty2. split; auto.
    unfold makeOperatorToken. cbn [read app]. rewrite E2. replace (String.eqb (r_name ty2) "ELLIPSIS") with false by (symmetry; apply String.eqb_neq; congruence).
    destruct (String.eqb_spec (r_name ty2) "SHIFT_LEFT") as [E3|E3]; [|destruct (String.eqb_spec (r_name ty2) "SHIFT_RIGHT") as [E4|E4]].
    + cbn [orb]. assert ([a; b] = txt "<<") as EW2 by (apply G2; congruence). injection EW2 as -> ->. destruct r as [|c3 r]; [exfalso; apply C5; reflexivity|].
      destruct (N.eqb_spec c3 61) as [->|]; [|eauto]. exfalso. assert (3 <= 2)%nat; [apply (HM (txt "<<=") "SHIFT_LEFT_EQUAL"%string); [vm_compute; tauto|exists r; reflexivity]|lia].
    + cbn [orb]. assert ([a; b] = txt ">>") as EW2 by (apply G3; congruence). injection EW2 as -> ->. destruct r as [|c3 r]; [exfalso; apply C6; reflexivity|].
      destruct (N.eqb_spec c3 61) as [->|]; [|eauto]. exfalso. assert (3 <= 2)%nat; [apply (HM (txt ">>=") "SHIFT_RIGHT_EQUAL"%string); [vm_compute; tauto|exists r; reflexivity]|lia].
    + cbn [orb]. eauto.
  - subst w. injection EW as -> ->. eexists. split; [eexists; vm_compute; reflexivity|]. reflexivity.
  - subst w. injection EW as -> ->. eexists. split; [eexists; vm_compute; reflexivity|]. reflexivity.
  - subst w. injection EW as -> ->. eexists. split; [eexists; vm_compute; reflexivity|]. reflexivity.
Qed.

(* C12; what is missing is said in [nothing_odd] and refuted below *)
Theorem C12_longest_operator_partial : forall s w n, is_text s = true -> longest_operator s w n -> nothing_odd s ->
  getNextToken s = (Tok n None, skipn (List.length w) s).
Proof.
  intros s w n HT (HI & (r & ->) & HM) (C1 & C2 & C3 & C4 & C5 & C6 & HN).
  assert (exists a r0, w = a :: r0) as (a & r0 & EW).
  { destruct w as [|a r0]; [|eauto]. exfalso. clear -HI. revert HI. vm_compute. intuition discriminate. }
  destruct (single_row w n a r0 HI EW) as (ty1 & E1 & HI1 & S1 & S2 & S3 & S4 & S5 & _ & _ & _ & HSP).
  destruct (operator_longest w n a r0 r HI EW HM HT) as (ty & (x & EM) & ET); auto.
  rewrite skipn_app, skipn_all, Nat.sub_diag. subst w. cbn [app skipn]. rewrite next_start; auto.
  2:{ intros (-> & q & [EQ|EQ]); [apply C1|apply C2]; exists q; cbn [app] in *; rewrite EQ; reflexivity. }
  unfold next_byte. rewrite E1. assert (next_unclear a (r0 ++ r) = (Tok n None, r)) as HU.
  { unfold next_unclear. rewrite S2, S3. replace (a =? 64) with false by lia. replace (a =? 95) with false by lia. rewrite EM, ET. reflexivity. }
  destruct HSP as [->|[-> ->]]; [exact HU|]. cbn [app]. f_equal. f_equal. eapply operators_unique; [exact HI1|exact HI].
Qed.
Print Assumptions C12_longest_operator_partial.

Example C12_ex : longest_operator (txt "<<=3") (txt "<<=") "SHIFT_LEFT_EQUAL" /\ nothing_odd (txt "<<=3") /\ is_text (txt "<<=3") = true /\
  getNextToken (txt "<<=3") = (Tok "SHIFT_LEFT_EQUAL" None, txt "3") /\ getNextToken (txt "+++x") = (Tok "PLUS_PLUS" None, txt "+x").
Proof.
  split; [|split; [|vm_compute; auto]].
  - split; [vm_compute; tauto|]. split; [exists (txt "3"); reflexivity|]. intros w' n' HI _. cbn [txt List.length].
    assert (forallb (fun p => Nat.leb (List.length (fst p)) 3) operators = true) as H by (vm_compute; reflexivity).
    rewrite forallb_forall in H. specialize (H _ HI). apply Nat.leb_le in H. exact H.
  - repeat split; try (intros (q & H); discriminate H); try discriminate.
Qed.

(* refuted: two dots that are not three, a shift at the end of the input, an operator before a NUL byte, and a star
   before a comment *)
Theorem C12_longest_operator_refuted :
  (longest_operator (txt "..x") (txt ".") "DOT" /\ fst (getNextToken (txt "..x")) = TokError) /\
  (longest_operator (txt "<<") (txt "<<") "SHIFT_LEFT" /\ fst (getNextToken (txt "<<")) = TokError) /\
  (longest_operator (txt "&" ++ [0]) (txt "&") "AMP" /\ snd (getNextToken (txt "&" ++ [0])) = []) /\
  (longest_operator (txt "*/*x*/") (txt "*") "STAR" /\ fst (getNextToken (txt "*/*x*/")) = Tok "STAR_SLASH" None).
Proof.
  assert (forall s w n, existsb (fun p => text_eqb (fst p) w && String.eqb (snd p) n) operators = true -> firstn (List.length w) s = w ->
    forallb (fun p => negb (text_eqb (firstn (List.length (fst p)) s) (fst p)) || Nat.leb (List.length (fst p)) (List.length w)) operators = true -> longest_operator s w n) as H.
  { intros s w n H1 H2 H3. split; [|split].
    - apply existsb_exists in H1. destruct H1 as ([w' n'] & HI & HE). cbn in HE. apply andb_true_iff in HE as [E1 E2]. apply text_eqb_eq in E1. apply String.eqb_eq in E2. subst. auto.
    - exists (skipn (List.length w) s). rewrite <- H2 at 1. symmetry. apply firstn_skipn.
    - intros w' n' HI (q & ->). rewrite forallb_forall in H3. specialize (H3 _ HI). cbn [fst] in H3. rewrite firstn_app, firstn_all, Nat.sub_diag in H3. cbn [firstn] in H3.
      rewrite app_nil_r, text_eqb_refl in H3. cbn in H3. apply Nat.leb_le. auto. }
  split; [|split; [|split]]; (split; [apply H; vm_compute; reflexivity|vm_compute; reflexivity]).
Qed.
Print Assumptions C12_longest_operator_refuted.

(* ---- C13 ---- *)
Lemma skip_white sc c s : white c -> skip_fun sc (c :: s) = skip_fun sc s.
Proof.
  intros H. rewrite skip_fun_unfold. unfold eat_fun at 1. unfold eatComment. replace (c =? 47) with false by (unfold white in H; lia).
  cbn [e_c e_pend e_sc e_rest]. rewrite (proj2 (isspace_white c) H). reflexivity.
Qed.

Lemma line_end body s : ~ In 10 body -> eatLineComment (body ++ 10 :: s) = (Some 10, s).
Proof.
  induction body as [|c body IH]; intros H; cbn [app eatLineComment]; [reflexivity|]. cbn [In] in H. destruct (N.eqb_spec c 10); [tauto|]. apply IH. tauto.
Qed.
Lemma no_close_tail c body : no_close (c :: body) -> no_close body.
Proof. intros H a b E. apply (H (c :: a) b). cbn. rewrite E. reflexivity. Qed.
Lemma block_end body s : no_close body -> eatBlockComment (body ++ 42 :: 47 :: s) = read s.
Proof.
  induction body as [|c body IH]; intros H; cbn [app]; [reflexivity|].
  change (eatBlockComment (c :: body ++ 42 :: 47 :: s)) with (if c =? 42 then match body ++ 42 :: 47 :: s with [] => (None, []) | d :: r' => if d =? 47 then read r' else eatBlockComment (body ++ 42 :: 47 :: s) end else eatBlockComment (body ++ 42 :: 47 :: s)).
  rewrite IH by (eapply no_close_tail; eauto). destruct (N.eqb_spec c 42) as [->|]; [|reflexivity].
  destruct body as [|d body]; cbn [app]; [reflexivity|]. destruct (N.eqb_spec d 47) as [->|]; [|reflexivity].
  exfalso. apply (H [] (body ++ [42])). reflexivity.
Qed.

Lemma eat_block sc body s : plain_body body -> eat_fun sc (txt "/*" ++ body ++ txt "*/" ++ s) = let '(c, r) := read s in ((c, false, sc), r).
Proof.
  intros [H1 H2]. pose proof (block_end body s H1) as E. unfold eat_fun, eatComment. change (txt "/*") with [47; 42]. change (txt "*/") with [42; 47]. cbn [app] in *.
  rewrite N.eqb_refl. change (42 =? 47) with false. change (42 =? 42) with true. cbv iota.
  destruct body as [|c body]; cbn [app] in *.
  - change (42 =? 42) with true. cbv iota. change (47 =? 47) with true. cbv iota. destruct s; reflexivity.
  - destruct H2 as [H2|H2]; [discriminate|]. cbn [hd] in H2. destruct (N.eqb_spec c 42); [contradiction|]. rewrite E. destruct s; reflexivity.
Qed.

Lemma eat_line sc body s : ~ In 10 body -> eat_fun sc (txt "//" ++ body ++ [10] ++ s) = ((Some 10, false, sc), s).
Proof.
  intros H. pose proof (line_end body s H) as E. unfold eat_fun, eatComment. change (txt "//") with [47; 47]. cbn [app] in *.
  rewrite !N.eqb_refl, E. reflexivity.
Qed.

(* a separator in which every block comment is followed by white space *)
Inductive spaced : text -> Prop :=
| sp_nil : spaced []
| sp_white c s : white c -> spaced s -> spaced (c :: s)
| sp_line body s : ~ In 10 body -> spaced s -> spaced (txt "//" ++ body ++ [10] ++ s)
| sp_block body c s : plain_body body -> white c -> spaced s -> spaced (txt "/*" ++ body ++ txt "*/" ++ c :: s).
(* a separator that ends so before s: or its last comment is directly followed by something other than a slash *)
Definition separates (sep s : text) : Prop :=
  spaced sep \/ exists sep0 body, spaced sep0 /\ plain_body body /\ sep = sep0 ++ txt "/*" ++ body ++ txt "*/" /\ hd 0 s <> 47.

Lemma skip_spaced sep sc s : spaced sep -> skip_fun sc (sep ++ s) = skip_fun sc s.
Proof.
  induction 1 as [|c q HW HS IH|body q HB HS IH|body c q HB HW HS IH].
  - reflexivity.
  - cbn [app]. rewrite skip_white; auto.
  - rewrite <- !app_assoc. rewrite skip_fun_unfold, eat_line; auto.
  - rewrite <- !app_assoc. cbn [app]. rewrite skip_fun_unfold, eat_block; auto. cbn [read]. rewrite (proj2 (isspace_white c) HW). auto.
Qed.
Lemma skip_separates sep sc s : separates sep s -> skip_fun sc (sep ++ s) = skip_fun sc s.
Proof.
  intros [H|(sep0 & body & H0 & HB & -> & HN)]; [apply skip_spaced; auto|].
  rewrite <- !app_assoc, skip_spaced by auto. rewrite skip_fun_unfold, eat_block by auto. destruct s as [|c s]; [reflexivity|].
  cbn [read hd] in *. rewrite (skip_fun_unfold sc (c :: s)). unfold eat_fun at 1. unfold eatComment. destruct (N.eqb_spec c 47); [contradiction|]. reflexivity.
Qed.
Lemma spaced_separator sep : spaced sep -> separator sep.
Proof.
  induction 1; [apply sep_nil|apply sep_white; auto|apply sep_line; auto|]. apply sep_block; auto. apply sep_white; auto.
Qed.

(* C13: white space and comments before a token are passed over. What is missing: a block comment directly followed by
   another comment or a slash, see the refutation. *)
Theorem C13_skipped_partial : forall sep s, separates sep s -> getNextToken (sep ++ s) = getNextToken s.
Proof. intros sep s H. rewrite !getNextToken_eq, skip_separates; auto. Qed.
Print Assumptions C13_skipped_partial.

(* so putting them in after a token changes no token: [p] is the text of the token (and of what is before it), which ends
   before c, and before h *)
Theorem C13_inserted_partial : forall n p t c r h sep x,
  getNextToken (p ++ c :: r) = (t, c :: r) -> getNextToken (p ++ h :: x) = (t, h :: x) -> separates (h :: sep) (c :: r) ->
  fst (getTokens n (p ++ (h :: sep) ++ c :: r)) = fst (getTokens n (p ++ c :: r)).
Proof.
  intros [|n] p t c r h sep x E1 E2 HS; [reflexivity|]. cbn [getTokens]. rewrite E1.
  destruct (local_next _ _ _ _ E2) as (p' & EP & G). apply app_inv_tail in EP. subst p'. cbn [app]. rewrite (G (sep ++ c :: r)).
  assert (fst (getTokens n (h :: sep ++ c :: r)) = fst (getTokens n (c :: r))) as H.
  { destruct n as [|n]; [reflexivity|]. cbn [getTokens]. change (h :: sep ++ c :: r) with ((h :: sep) ++ c :: r). rewrite (C13_skipped_partial _ _ HS). reflexivity. }
  destruct (getTokens n (h :: sep ++ c :: r)), (getTokens n (c :: r)). cbn in *. congruence.
Qed.
Print Assumptions C13_inserted_partial.

Theorem C13_one_byte_ahead : forall s t h r, getNextToken s = (t, h :: r) ->
  exists p, s = p ++ h :: r /\ forall r', getNextToken (p ++ h :: r') = (t, h :: r').
Proof. exact local_next. Qed.
Print Assumptions C13_one_byte_ahead.

Example C13_ex : separates (txt "/*note*/") (txt "+b") /\ getNextToken (txt "a" ++ txt "+b") = (Tok "IDENTIFIER" (Some (txt "a")), txt "+b") /\
  getNextToken (txt "a" ++ txt "/x") = (Tok "IDENTIFIER" (Some (txt "a")), txt "/x") /\ separates (txt " /*x*/ //y" ++ [10]) (txt "/b").
Proof.
  assert (forall b, forallb (fun c => negb (c =? 47)) b = true -> no_close b) as H.
  { intros b HB a q E. assert (In 47 (b ++ [42])) as HI by (rewrite E; apply in_or_app; right; cbn; auto).
    apply in_app_or in HI. destruct HI as [HI|[HI|[]]]; [|discriminate]. rewrite forallb_forall in HB. specialize (HB _ HI). discriminate. }
  split; [|split; [vm_compute; reflexivity|split; [vm_compute; reflexivity|]]].
  - right. exists [], (txt "note"). split; [constructor|]. split; [|split; [reflexivity|discriminate]]. split; [apply H; reflexivity|right; discriminate].
  - left. apply (sp_white 32); [unfold white; lia|]. apply (sp_block (txt "x") 32); [split; [apply H; reflexivity|right; discriminate]|unfold white; lia|].
    apply (sp_line (txt "y") []); [vm_compute; intuition discriminate|constructor].
Qed.

(* refuted: a comment directly after another; white space between structured comments; a comment after a star *)
Theorem C13_skipped_refuted :
  (exists sep s, separator sep /\ getNextToken (sep ++ s) <> getNextToken s) /\
  (fst (getTokens 2 (txt "/** a *//** b */x")) = [Tok "STRUCTURED_COMMENT" (Some (txt " a ")); Tok "STRUCTURED_COMMENT" (Some (txt " b "))] /\
   fst (getTokens 2 (txt "/** a */ /** b */x")) = [Tok "STRUCTURED_COMMENT" (Some (txt " b ")); Tok "IDENTIFIER" (Some (txt "x"))]) /\
  (fst (getTokens 2 (txt "* x")) = [Tok "STAR" None; Tok "IDENTIFIER" (Some (txt "x"))] /\ fst (getTokens 1 (txt "*/*c*/ x")) = [Tok "STAR_SLASH" None]) /\
  (fst (getTokens 2 (txt "/** a */ / b")) = [Tok "STRUCTURED_COMMENT" (Some (txt " a ")); Tok "IDENTIFIER" (Some (txt "b"))]).
Proof.
  split; [|repeat split; vm_compute; reflexivity].
  exists (txt "/*a*//*b*/"), (txt "x"). split; [|vm_compute; discriminate].
  assert (forall b, forallb (fun c => negb (c =? 47)) b = true -> no_close b) as H.
  { intros b HB a q E. assert (In 47 (b ++ [42])) as HI by (rewrite E; apply in_or_app; right; cbn; auto).
    apply in_app_or in HI. destruct HI as [HI|[HI|[]]]; [|discriminate]. rewrite forallb_forall in HB. specialize (HB _ HI). discriminate. }
  apply (sep_block (txt "a") (txt "/*b*/")); [split; [apply H; reflexivity|right; discriminate]|].
  apply (sep_block (txt "b") []); [split; [apply H; reflexivity|right; discriminate]|constructor].
Qed.
Print Assumptions C13_skipped_refuted.
