(* MangleStrings.v: template instances with strings among their arguments (C54). *)
From Coq Require Import String List NArith ZArith Lia Bool.
From Coq Require Import ZifyBool ZifyNat ZifyN.
From Verif Require Import Base LeximitedModel LeximitedSpec LeximitedProofs LeximitedTheorems BitVec UTypeModel AtomModel AtomSpec AtomProofs PrimModel PrimSpec PrimProofs StringPoolModel StringPoolProofs MangleModel MangleSpec MangleProofs MangleTheorems.
Import ListNotations.
Ltac Zify.zify_post_hook ::= Z.div_mod_to_equations.
Open Scope N_scope.

Definition hexchar (c : N) : Prop := 48 <= c <= 57 \/ 97 <= c <= 102.
Lemma hexchar_dec c : {hexchar c} + {~ hexchar c}.
Proof.
  destruct ((48 <=? c) && (c <=? 57) || (97 <=? c) && (c <=? 102)) eqn:E; [left|right]; unfold hexchar; lia.
Qed.

(* a text is all hex digits, or splits at its first other character *)
Lemma hex_split (u : text) : Forall hexchar u \/ exists h c w, u = h ++ c :: w /\ Forall hexchar h /\ ~ hexchar c.
Proof.
  induction u as [|c u IH]; [left; constructor|]. destruct (hexchar_dec c) as [H|H].
  - destruct IH as [IH | (h & d & w & -> & HF & Hd)]; [left; constructor; auto|]. right. exists (c :: h), d, w.
    split; [reflexivity|]. split; [constructor; auto|auto].
  - right. exists [], c, u. repeat split; auto.
Qed.

Lemma split_unique (h h' : text) c c' w w' : Forall hexchar h -> Forall hexchar h' -> ~ hexchar c -> ~ hexchar c' ->
  h ++ c :: w = h' ++ c' :: w' -> h = h'.
Proof.
  revert h'. induction h as [|a h IH]; intros h' H H' Hc Hc' E.
  - destruct h' as [|b h']; auto. cbn in E. injection E as -> _. inversion H'; subst. contradiction.
  - destruct h' as [|b h'].
    + cbn in E. injection E as -> _. inversion H; subst. contradiction.
    + cbn in E. injection E as -> E. inversion H; subst. inversion H'; subst. f_equal. eapply IH; eauto.
Qed.

Lemma split_not_hex (h h' : text) c w : ~ hexchar c -> Forall hexchar h' -> h ++ c :: w <> h' .
Proof.
  intros Hc H' E. subst h'. apply Forall_app in H'. destruct H' as [_ H']. inversion H'; subst. contradiction.
Qed.

(* two texts with their first other character at the same place, or of equal length with none *)
Definition aligned (u u' : text) : Prop :=
  exists h h', List.length h = List.length h' /\ Forall hexchar h /\ Forall hexchar h' /\
    (u = h /\ u' = h' \/ exists c w c' w', u = h ++ c :: w /\ u' = h' ++ c' :: w' /\ ~ hexchar c /\ ~ hexchar c').

Lemma aligned_len x x' u u' : Forall hexchar x -> Forall hexchar x' -> aligned u u' -> x ++ u = x' ++ u' -> List.length x = List.length x'.
Proof.
  intros HX HX' (h & h' & HL & HH & HH' & HU) E. destruct HU as [[-> ->] | (c & w & c' & w' & -> & -> & Hc & Hc')].
  - apply (f_equal (@List.length N)) in E. rewrite !app_length in E. lia.
  - rewrite !app_assoc in E. apply split_unique in E; auto; try (apply Forall_app; auto).
    apply (f_equal (@List.length N)) in E. rewrite !app_length in E. lia.
Qed.

Lemma aligned_app v v' u u' : Forall hexchar v -> Forall hexchar v' -> List.length v = List.length v' -> aligned u u' ->
  aligned (v ++ u) (v' ++ u').
Proof.
  intros HV HV' HL (h & h' & HLh & HH & HH' & HU). exists (v ++ h), (v' ++ h').
  split; [rewrite !app_length; lia|]. split; [apply Forall_app; auto|]. split; [apply Forall_app; auto|].
  destruct HU as [[-> ->] | (c & w & c' & w' & -> & -> & Hc & Hc')]; [left; auto|].
  right. exists c, w, c', w'. rewrite !app_assoc. auto.
Qed.

Lemma aligned_same T u u' : ~ Forall hexchar T -> aligned (T ++ u) (T ++ u').
Proof.
  intros HT. destruct (hex_split T) as [H | (h & c & w & -> & HH & Hc)]; [contradiction|].
  exists h, h. repeat split; auto. right. exists c, (w ++ u), c, (w ++ u'). rewrite <- !app_assoc. auto.
Qed.

(* ---- the text of a string ---- *)
Lemma digit_hexchar d : d < 16 -> hexchar (digit_char d).
Proof. intros H. unfold digit_char, hexchar. destruct (N.ltb_spec d 10); lia. Qed.

Lemma hex_hexchars n : Forall hexchar (hex n).
Proof.
  unfold hex. apply Forall_map. eapply Forall_impl; [|apply digits_lt; lia]. intros d. apply digit_hexchar.
Qed.

Lemma hexByte_chars c : Forall hexchar (hexByte c).
Proof.
  unfold hexByte. destruct (c <? 16); [constructor; [left; lia|apply hex_hexchars]|]. destruct (c <? 128); apply hex_hexchars.
Qed.

(* first character 'f' goes with length 8, any other with 2, and equal texts mean equal bytes: by computation *)
Definition byte_code_ok (c : N) : bool :=
  Nat.eqb (List.length (hexByte c)) (if hd 0 (hexByte c) =? 102 then 8 else 2).
Lemma byte_codes c : c < 256 -> byte_code_ok c = true.
Proof. revert c. apply (forall_N_below 256). vm_compute. reflexivity. Qed.

Lemma hexByte_len c c' r r' : c < 256 -> c' < 256 -> hexByte c ++ r = hexByte c' ++ r' -> List.length (hexByte c) = List.length (hexByte c').
Proof.
  intros H H' E. pose proof (byte_codes c H) as B. pose proof (byte_codes c' H') as B'. unfold byte_code_ok in *.
  apply Nat.eqb_eq in B. apply Nat.eqb_eq in B'. rewrite B, B'.
  destruct (hexByte c) as [|a x]; [cbn in B; discriminate|]. destruct (hexByte c') as [|a' x']; [cbn in B'; discriminate|].
  cbn [app] in E. injection E as <- _. reflexivity.
Qed.

Definition byte_inj_ok (c : N) : bool := forallb (fun c' => (c =? c') || negb (text_eqb (hexByte c) (hexByte c'))) (nrange 256).
Lemma hexByte_inj c c' : c < 256 -> c' < 256 -> hexByte c = hexByte c' -> c = c'.
Proof.
  intros H H' E.
  assert (byte_inj_ok c = true) as B.
  { revert c H E. intros c H _. revert c H. apply (forall_N_below 256). vm_compute. reflexivity. }
  unfold byte_inj_ok in B. rewrite forallb_forall in B. specialize (B c').
  rewrite E, text_eqb_refl in B. cbn [negb] in B.
  assert (In c' (nrange 256)) as HI.
  { clear -H'. revert c' H'. change (forall c', c' < 256 -> In c' (nrange 256)).
    intros c' H'. pose proof (forall_N_below 256 (fun c => existsb (N.eqb c) (nrange 256))) as A.
    assert (forallb (fun c => existsb (N.eqb c) (nrange 256)) (nrange 256) = true) as A1 by (vm_compute; reflexivity).
    specialize (A A1 c' H'). apply existsb_exists in A. destruct A as (x & Hx & Ex). apply N.eqb_eq in Ex. congruence. }
  specialize (B HI). lia.
Qed.

Lemma app_len_inj {A} (x x' r r' : list A) : List.length x = List.length x' -> x ++ r = x' ++ r' -> x = x' /\ r = r'.
Proof.
  revert x'. induction x as [|a x IH]; intros [|b x'] HL E; cbn in HL; try lia; auto.
  cbn in E. injection E as -> E. apply IH in E; [|lia]. destruct E as [-> ->]. auto.
Qed.

Lemma hexBytes_inj l : forall l' r r', List.length l = List.length l' -> Forall (fun c => c < 256) l -> Forall (fun c => c < 256) l' ->
  flat_map hexByte l ++ r = flat_map hexByte l' ++ r' -> l = l' /\ r = r'.
Proof.
  induction l as [|c l IH]; intros [|c' l'] r r' HL HF HF' E; cbn [List.length] in HL; try lia; auto.
  cbn [flat_map] in E. rewrite <- !app_assoc in E. inversion HF; subst. inversion HF'; subst.
  destruct (app_len_inj _ _ _ _ (hexByte_len c c' _ _ H1 H3 E) E) as [E1 E2]. apply hexByte_inj in E1; auto. subst c'.
  apply IH in E2; auto; try lia. destruct E2 as [-> ->]. auto.
Qed.

(* a stored string: its text is the hex of the length and the bytes, or nothing *)
Lemma stored_text b s : format_user b = Some s ->
  b = [] /\ s = [0] /\ lexString s = [] \/
  b <> [] /\ s = N.of_nat (List.length b) :: b ++ [0] /\ N.of_nat (List.length b) < 256 /\
    lexString s = hexByte (N.of_nat (List.length b)) ++ flat_map hexByte b.
Proof.
  unfold format_user. destruct (N.ltb_spec 255 (N.of_nat (List.length b))); [discriminate|].
  destruct (N.eqb_spec (N.of_nat (List.length b)) 0) as [E|E]; intros H0; injection H0 as <-.
  - left. destruct b; [auto|discriminate].
  - right. split; [intros ->; cbn in E; lia|]. split; auto. split; [lia|]. unfold lexString.
    replace (N.of_nat (List.length b) :: b ++ [0]) with ((N.of_nat (List.length b) :: b) ++ [0]) by reflexivity.
    rewrite removelast_last. reflexivity.
Qed.

Lemma lexString_chars s : Forall hexchar (lexString s).
Proof.
  unfold lexString. induction (removelast s) as [|c l IH]; [constructor|]. cbn [flat_map]. apply Forall_app. split; auto. apply hexByte_chars.
Qed.

Lemma hexByte_nonempty c : hexByte c <> [].
Proof.
  unfold hexByte, hex. destruct (c <? 16); [discriminate|].
  destruct (c <? 128); intros E; apply map_eq_nil in E; exact (digits_nonempty _ _ E).
Qed.

(* ---- arguments ---- *)
Definition good_arg (a : arg) : Prop := number_arg a \/ string_arg a.

Lemma good_sizes a : good_arg a -> complete_sizes (a_ty a).
Proof.
  intros [H|H]; [apply number_arg_sizes; auto|]. destruct H as (_ & _ & HB & HA & _). unfold complete_sizes. rewrite HA, HB. lia.
Qed.

Lemma same_type_text t t' : same_plain t t' -> mangledType t = mangledType t'.
Proof.
  intros (HE & HA & HB & HR). unfold mangledType, mangledSizes. rewrite HE, HA, HB. f_equal. f_equal. 
  rewrite <- !ref_iff in HR. destruct (isReference t), (isReference t'); auto; destruct HR as [R1 R2]; [specialize (R1 eq_refl)|specialize (R2 eq_refl)]; discriminate.
Qed.

Lemma lex1 c : ToLeximited [c] = [49; c].
Proof. reflexivity. Qed.

Lemma hex_type_is_bool t : Forall hexchar (mangledType t) -> primitive (ty_enum t) \/ ty_enum t = EString -> ty_enum t = EBool.
Proof.
  intros H HP. unfold mangledType in H. apply Forall_app in H. destruct H as [_ H]. rewrite lex1 in H.
  apply Forall_inv_tail in H. apply Forall_inv in H. unfold primitive, arith in HP.
  destruct HP as [[[E|[E|E]]|[E|E]]|E]; auto; rewrite E in H; unfold hexchar in H; cbn in H; lia.
Qed.

Lemma bool_items_text n l v : sequence (map (lexNumber EBool n) l) = Some v -> Forall hexchar v /\ List.length v = (2 * List.length l)%nat.
Proof.
  revert v. induction l as [|d l IH]; intros v E; cbn [map sequence] in E.
  - injection E as <-. split; [constructor|reflexivity].
  - destruct (lexNumber EBool n d) as [x|] eqn:EX; [|discriminate].
    destruct (sequence (map (lexNumber EBool n) l)) as [w|]; [|discriminate]. injection E as <-.
    destruct (IH w eq_refl) as [H1 H2]. cbn [lexNumber ext_val] in EX.
    assert (x = [49; 49] \/ x = [49; 48]) as HX.
    { destruct (n <? 2 * Z.of_nat (popcount (Z.to_nat n) d))%Z; injection EX as <-; [left|right]; reflexivity. }
    split.
    + apply Forall_app. split; auto. destruct HX as [-> | ->]; (constructor; [left; lia|constructor; [left; lia|constructor]]).
    + rewrite app_length. destruct HX as [-> | ->]; cbn [List.length]; lia.
Qed.

(* the text of arguments of the same types *)
Lemma args_aligned l : forall l' u u', Forall good_arg l -> Forall good_arg l' -> Forall2 same_plain (map a_ty l) (map a_ty l') ->
  sequence (map argText l) = Some u -> sequence (map argText l') = Some u' -> aligned u u'.
Proof.
  induction l as [|a l IH]; intros [|b l'] u u' HF HF' HT E E'; cbn [map] in HT; try (inversion HT; fail).
  - cbn in E, E'. injection E as <-. injection E' as <-. exists [], []. split; [reflexivity|]. split; [constructor|]. split; [constructor|]. left. auto.
  - pose proof (Forall_inv HF) as H1. pose proof (Forall_inv_tail HF) as HFl. pose proof (Forall_inv HF') as H3. pose proof (Forall_inv_tail HF') as HFl'.
    assert (same_plain (a_ty a) (a_ty b) /\ Forall2 same_plain (map a_ty l) (map a_ty l')) as [H2 HTl] by (inversion HT; auto).
    cbn [map sequence] in E, E'.
    destruct (argText a) as [x|] eqn:EX; [|discriminate]. destruct (sequence (map argText l)) as [w|] eqn:EW; [|discriminate]. injection E as <-.
    destruct (argText b) as [x'|] eqn:EX'; [|discriminate]. destruct (sequence (map argText l')) as [w'|] eqn:EW'; [|discriminate]. injection E' as <-.
    assert (aligned w w') as HAL by (apply (IH l'); auto).
    pose proof (same_type_text _ _ H2) as HTT. 
    assert (primitive (ty_enum (a_ty a)) \/ ty_enum (a_ty a) = EString) as HPE.
    { destruct H1 as [H1|H1]; destruct H1 as [H1 _]; auto. }
    destruct (hex_split (mangledType (a_ty a))) as [HH | (h & c & z & EM & HH & Hc)].
    + pose proof (hex_type_is_bool _ HH HPE) as HB.
      assert (ty_enum (a_ty b) = EBool) as HB' by (destruct H2 as [H2 _]; congruence).
      assert (number_arg a) as NA by (destruct H1 as [H1|[H1 _]]; auto; congruence).
      assert (number_arg b) as NB by (destruct H3 as [H3|[H3 _]]; auto; congruence).
      destruct (number_arg_text a x NA EX) as (v & -> & HV). destruct (number_arg_text b x' NB EX') as (v' & -> & HV').
      rewrite HTT in *.
      assert (Forall hexchar v /\ Forall hexchar v' /\ List.length v = List.length v') as (V1 & V2 & V3).
      { destruct H2 as (_ & HA & _). rewrite HB in HV. rewrite HB' in HV'.
        assert (Forall hexchar (txt "10")) as H10 by (apply (Forall_cons 49); [left; lia|apply (Forall_cons 48); [left; lia|constructor]]).
        destruct HV as [(Z0 & -> & L0) | [Z0 S0]]; destruct HV' as [(Z1 & -> & L1) | [Z1 S1]]; try congruence.
        - auto.
        - apply bool_items_text in S0. apply bool_items_text in S1. destruct S0 as [S0 S0']. destruct S1 as [S1 S1'].
          split; auto. split; auto. rewrite S0', S1'. f_equal.
          destruct NA as (_ & _ & n & la & VA & _ & _ & _ & LA). destruct NB as (_ & _ & n' & lb & VB & _ & _ & _ & LB).
          unfold items_of. rewrite VA, VB. lia. }
      apply aligned_app; auto; try (apply Forall_app; auto). rewrite !app_length. lia.
    + assert (exists v, x = mangledType (a_ty a) ++ v) as (v & ->).
      { unfold argText in EX. match type of EX with match ?m with _ => _ end = _ => destruct m end; [|discriminate]. injection EX as <-. eauto. }
      assert (exists v, x' = mangledType (a_ty b) ++ v) as (v' & ->).
      { unfold argText in EX'. match type of EX' with match ?m with _ => _ end = _ => destruct m end; [|discriminate]. injection EX' as <-. eauto. }
      rewrite <- HTT. rewrite <- !app_assoc. apply aligned_same. rewrite EM. intros HX. apply Forall_app in HX. destruct HX as [_ HX].
      inversion HX; subst. contradiction.
Qed.

Lemma string_arg_text a x : string_arg a -> argText a = Some x ->
  exists b s, a_val a = AStrings [s] /\ Forall (fun c => c < 256) b /\ format_user b = Some s /\ x = mangledType (a_ty a) ++ lexString s.
Proof.
  intros (HE & HR & HB & HA & b & s & HV & HF & HS) E. exists b, s. split; auto. split; auto. split; auto.
  unfold argText, isScalar, NONARRAYSIZE in E. rewrite HA, HV in E. cbn [Z.eqb Pos.eqb negb] in E. injection E as <-. reflexivity.
Qed.

(* C54: with user strings among the arguments too: two instances of a template whose arguments have the same types have the
   same name only if all argument values are the same *)
Theorem C54_instances_with_strings : forall args args' x,
  Forall good_arg args -> Forall good_arg args' -> Forall2 same_plain (map a_ty args) (map a_ty args') ->
  formatArgs false args = Some x -> formatArgs false args' = Some x -> Forall2 same_arg args args'.
Proof.
  intros args args' x HF HF' HT EX EY. unfold formatArgs in *.
  destruct (sequence (map argText args)) as [s|] eqn:E1; [|discriminate]. injection EX as <-.
  destruct (sequence (map argText args')) as [s'|] eqn:E2; [|discriminate]. injection EY as E.
  assert (List.length args = List.length args') as HL.
  { apply Forall2_length in HT. rewrite !map_length in HT. auto. }
  cbn [app] in E. rewrite HL in E. apply app_inv_head in E. subst s'. clear HL.
  revert args' s HF' HT E1 E2. induction HF as [|a l HA HF IH]; intros [|b l'] s HF' HT E1 E2; cbn [map] in HT; try (inversion HT; fail); [constructor|].
  pose proof (Forall_inv HF') as H1. pose proof (Forall_inv_tail HF') as H3.
  assert (same_plain (a_ty a) (a_ty b) /\ Forall2 same_plain (map a_ty l) (map a_ty l')) as [H2 H4] by (inversion HT; auto).
  cbn [map sequence] in E1, E2.
  destruct (argText a) as [x|] eqn:EX; [|discriminate]. destruct (sequence (map argText l)) as [w|] eqn:EW; [|discriminate]. injection E1 as <-.
  destruct (argText b) as [x'|] eqn:EX'; [|discriminate]. destruct (sequence (map argText l')) as [w'|] eqn:EW'; [|discriminate]. injection E2 as E.
  assert (same_arg a b /\ w = w') as [S1 <-]; [|constructor; [auto|apply (IH l' w); auto]].
  symmetry in E.
  destruct HA as [NA|SA].
  - assert (number_arg b) as NB.
    { destruct H1 as [H1|H1]; auto. destruct H1 as [H1 _]. destruct H2 as [H2 _]. destruct NA as [NA _]. rewrite H2, H1 in NA.
      unfold primitive, arith in NA. exfalso. intuition discriminate. }
    exact (number_args_inj a b x x' w w' NA NB EX EX' E).
  - assert (string_arg b) as SB.
    { destruct H1 as [H1|H1]; auto. destruct SA as [SA _]. destruct H2 as [H2 _]. destruct H1 as [H1 _]. rewrite <- H2, SA in H1.
      unfold primitive, arith in H1. exfalso. intuition discriminate. }
    destruct (string_arg_text a x SA EX) as (b0 & s0 & V0 & F0 & G0 & ->).
    destruct (string_arg_text b x' SB EX') as (b1 & s1 & V1 & F1 & G1 & ->).
    rewrite <- (same_type_text _ _ H2) in E. rewrite <- !app_assoc in E. apply app_inv_head in E.
    pose proof (aligned_len _ _ _ _ (lexString_chars s0) (lexString_chars s1) (args_aligned l l' w w' HF H3 H4 EW EW') E) as HL.
    destruct (app_len_inj _ _ _ _ HL E) as [ES ->]. split; auto. split; auto. unfold same_value. rewrite V0, V1. f_equal.
    destruct (stored_text b0 s0 G0) as [(-> & -> & T0) | (N0 & -> & L0 & T0)]; destruct (stored_text b1 s1 G1) as [(-> & -> & T1) | (N1 & -> & L1 & T1)]; auto.
    + exfalso. rewrite T0, T1 in ES. symmetry in ES. apply app_eq_nil in ES. destruct ES as [ES _]. exact (hexByte_nonempty _ ES).
    + exfalso. rewrite T0, T1 in ES. apply app_eq_nil in ES. destruct ES as [ES _]. exact (hexByte_nonempty _ ES).
    + rewrite T0, T1 in ES.
      destruct (app_len_inj _ _ _ _ (hexByte_len _ _ _ _ L0 L1 ES) ES) as [E3 E4]. apply hexByte_inj in E3; auto.
      assert (List.length b0 = List.length b1) as EL by lia.
      destruct (hexBytes_inj b0 b1 [] [] EL F0 F1) as [<- _]; [rewrite !app_nil_r; auto|reflexivity].
Qed.
Print Assumptions C54_instances_with_strings.

Example C54_strings_ex :
  exists s, format_user (txt "hi") = Some s /\
  let a := mkArg (prim EString 18 (-1)) (AStrings [s]) in
  string_arg a /\ formatArgs false [a; mkArg (prim EBool 3 (-1)) (AData [6])] = Some (txt "12102181s02686910131b11").
Proof.
  exists [2; 104; 105; 0]. split; [reflexivity|]. cbv zeta. split; [|vm_compute; reflexivity].
  split; [reflexivity|]. split; [reflexivity|]. split; [reflexivity|]. split; [reflexivity|].
  exists (txt "hi"), [2; 104; 105; 0]. split; [reflexivity|]. split; [repeat constructor|reflexivity].
Qed.
