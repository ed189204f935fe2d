From Coq Require Import String List NArith ZArith Lia Bool.
From Coq Require Import ZifyBool ZifyNat ZifyN.
From Verif Require Import Base Strto64Model Strto64Spec.
Import ListNotations.
Ltac Zify.zify_post_hook ::= Z.div_mod_to_equations.
Open Scope N_scope.

Definition cvfold (b : N) (ds : text) (a : N) : N := fold_left (fun a c => a * b + charval c) ds a.

Lemma cvfold_place b ds a : cvfold b ds a = a * b ^ N.of_nat (List.length ds) + place_value b ds.
Proof.
  revert a; induction ds as [|c ds IH]; intros a; cbn [cvfold fold_left place_value List.length].
  - cbn. lia.
  - fold (cvfold b ds (a * b + charval c)). rewrite IH.
    replace (N.of_nat (S (List.length ds))) with (N.succ (N.of_nat (List.length ds))) by lia.
    rewrite N.pow_succ_r'. lia.
Qed.

Lemma cvfold_ge b ds a : 1 <= b -> a <= cvfold b ds a.
Proof.
  intros Hb. rewrite cvfold_place.
  assert (1 <= b ^ N.of_nat (List.length ds)).
  { pose proof (N.pow_nonzero b (N.of_nat (List.length ds))). lia. }
  nia.
Qed.

Definition base_ok (b : N) : Prop := b = 2 \/ b = 8 \/ b = 10 \/ b = 16.

Definition asc (c : N) : Prop := 0 < c /\ c < 128.

Lemma rd_asc c : asc c -> rd c = Some (tolower c).
Proof. unfold asc, rd. intros. replace ((c =? 0) || (128 <=? c)) with false by lia. reflexivity. Qed.

Lemma digitVal_tolower b c : base_ok b -> asc c ->
  digitVal b (tolower c) = if charval c <? b then Some (charval c) else None.
Proof.
  intros Hb Hc. apply optN_eqb_eq.
  assert (G : forall b, base_ok b -> forallb (fun c => optN_eqb (digitVal b (tolower c))
     (if charval c <? b then Some (charval c) else None)) (nrange 128) = true).
  { intros b' [->|[->|[->| ->]]]; vm_compute; reflexivity. }
  apply (forall_N_below 128 _ (G b Hb) c). unfold asc in Hc. lia.
Qed.

Lemma tolower_u c : asc c -> (tolower c =? 117) = (c =? 117) || (c =? 85).
Proof. unfold tolower, asc. intros. destruct ((65 <=? c) && (c <=? 90)) eqn:E; lia. Qed.

Lemma charval_not_u c b : base_ok b -> charval c < b -> (c =? 117) || (c =? 85) = false.
Proof.
  unfold base_ok, charval. intros.
  destruct ((48 <=? c) && (c <=? 57)) eqn:?; [lia|].
  destruct ((97 <=? c) && (c <=? 102)) eqn:?; [lia|].
  destruct ((65 <=? c) && (c <=? 70)) eqn:?; [lia|]. lia.
Qed.

(* the division test detects overflow exactly *)
Lemma overflow_test b r v : 2 <= b -> r < two64 -> v < b -> b <= 16 ->
  (u64 (r * b + v) / b =? r) = (r * b + v <? two64).
Proof.
  intros Hb Hr Hv Hb'. unfold u64. destruct (N.ltb_spec (r * b + v) two64) as [L|L].
  - rewrite N.mod_small by auto. rewrite N.div_add_l by lia. rewrite N.div_small by lia. lia.
  - apply N.eqb_neq. intro E.
    assert (A : (r * b + v) mod two64 < r * b).
    { pose proof (N.div_mod' (r * b + v) two64) as D.
      assert (1 <= (r * b + v) / two64).
      { apply N.div_le_lower_bound; [unfold two64; lia|]. lia. }
      assert (two64 * 1 <= two64 * ((r * b + v) / two64)) by (apply N.mul_le_mono_l; auto).
      unfold two64 in *. lia. }
    assert (B : (r * b + v) mod two64 / b < r) by (apply N.div_lt_upper_bound; [lia|rewrite (N.mul_comm b r); auto]). lia.
Qed.

Lemma parseDigits_sound b s : base_ok b -> forall r v, Forall asc s -> r < two64 ->
  parseDigits b r s = inl v ->
  exists ds suf, s = ds ++ suf /\ digits_in b ds /\ u_suffix suf /\ v = cvfold b ds r /\ v < two64.
Proof.
  intros Hb. assert (2 <= b <= 16) as Hbb by (unfold base_ok in Hb; lia).
  induction s as [|c s IH]; intros r v Ha Hr E; cbn [parseDigits] in E.
  - injection E as <-. exists [], []. unfold u_suffix, digits_in. cbn. auto.
  - inversion Ha as [|? ? Hc Hs]; subst. rewrite rd_asc in E by auto.
    rewrite tolower_u in E by auto.
    destruct ((c =? 117) || (c =? 85)) eqn:U.
    + destruct s as [|c2 s2].
      * cbn in E. injection E as <-. exists [], [c]. unfold u_suffix, digits_in. cbn.
        repeat split; auto. right. assert (c = 117 \/ c = 85) as [->| ->] by lia; auto.
      * inversion Hs; subst. unfold read1 in E. destruct (N.eqb_spec c2 0); [unfold asc in *; lia|].
        cbn [fst] in E. rewrite rd_asc in E by auto. discriminate.
    + rewrite digitVal_tolower in E by auto.
      destruct (N.ltb_spec (charval c) b) as [L|L]; [|discriminate].
      cbv zeta in E. rewrite overflow_test in E by (auto; lia).
      destruct (N.ltb_spec (r * b + charval c) two64) as [L2|L2]; [|discriminate].
      cbn [negb] in E. unfold u64 in E. rewrite N.mod_small in E by auto.
      apply IH in E; auto. destruct E as (ds & suf & -> & D & S & V & B).
      exists (c :: ds), suf. unfold digits_in in *. cbn [app cvfold fold_left].
      repeat split; auto.
Qed.

Lemma parseDigits_complete b ds suf : base_ok b -> forall r, Forall asc (ds ++ suf) -> r < two64 ->
  digits_in b ds -> u_suffix suf ->
  parseDigits b r (ds ++ suf) = if cvfold b ds r <? two64 then inl (cvfold b ds r) else inr TooLarge.
Proof.
  intros Hb. assert (2 <= b <= 16) as Hbb by (unfold base_ok in Hb; lia).
  induction ds as [|c ds IH]; intros r Ha Hr Hd Hs.
  - cbn [app cvfold fold_left]. replace (r <? two64) with true by lia.
    destruct Hs as [->|[->| ->]]; reflexivity.
  - cbn [app] in *. inversion Ha as [|? ? Hc Ha']; subst. inversion Hd as [|? ? Hcv Hd']; subst.
    cbn [parseDigits]. rewrite rd_asc, tolower_u by auto.
    rewrite (charval_not_u c b) by auto. rewrite digitVal_tolower by auto.
    replace (charval c <? b) with true by lia.
    cbv zeta. rewrite overflow_test by (auto; lia).
    cbn [cvfold fold_left]. fold (cvfold b ds (r * b + charval c)).
    destruct (N.ltb_spec (r * b + charval c) two64) as [L|L].
    + cbn [negb]. unfold u64. rewrite N.mod_small by auto. apply IH; auto.
    + cbn [negb]. pose proof (cvfold_ge b ds (r * b + charval c)).
      replace (cvfold b ds (r * b + charval c) <? two64) with false by lia. reflexivity.
Qed.

(* ---- sign ---- *)
Lemma isspace_eq c : asc c -> isspace (tolower c) = is_space c.
Proof.
  intros. unfold isspace, is_space, tolower, asc in *. cbn [existsb].
  destruct ((65 <=? c) && (c <=? 90)) eqn:E; lia.
Qed.

Lemma tolower_plus c : asc c -> (tolower c =? 43) = (c =? 43).
Proof. intros. unfold tolower, asc in *. destruct ((65 <=? c) && (c <=? 90)) eqn:E; lia. Qed.
Lemma tolower_minus c : asc c -> (tolower c =? 45) = (c =? 45).
Proof. intros. unfold tolower, asc in *. destruct ((65 <=? c) && (c <=? 90)) eqn:E; lia. Qed.

(* sign consumed so far, as the list of sign characters *)
Definition sgl (sign : Z) : text := if (sign =? 0)%Z then [] else if (sign <? 0)%Z then [45] else [43].
Definition sgn_ok (sign : Z) : Prop := (sign = 0 \/ sign = 1 \/ sign = -1)%Z.
Definition nsp (s : text) : text := filter (fun c => negb (is_space c)) s.
Definition head_stop (s : text) : Prop :=
  match s with [] => False | c :: _ => is_space c = false /\ c <> 43 /\ c <> 45 end.

Lemma parseSign_sound s : forall sign sign' s', Forall asc s -> sgn_ok sign ->
  parseSign sign s = inl (sign', s') ->
  exists pre, s = pre ++ s' /\ sgn_ok sign' /\ sgl sign ++ nsp pre = sgl sign' /\ head_stop s'.
Proof.
  induction s as [|c s IH]; intros sign sign' s' Ha Hsg E; cbn [parseSign] in E; [discriminate|].
  inversion Ha as [|? ? Hc Hs]; subst. rewrite rd_asc in E by auto.
  rewrite isspace_eq, tolower_plus, tolower_minus in E by auto.
  destruct (is_space c) eqn:SP.
  - apply IH in E; auto. destruct E as (pre & -> & A & B & C).
    exists (c :: pre). unfold nsp in *. cbn [app filter]. rewrite SP. cbn [negb]. auto.
  - destruct (N.eqb_spec c 43).
    { subst c. destruct (Z.ltb_spec sign 0); [discriminate|]. destruct (Z.ltb_spec 0 sign); [discriminate|].
      assert (sign = 0)%Z by lia. subst sign.
      apply IH in E; auto; [|unfold sgn_ok; auto]. destruct E as (pre & -> & A & B & C).
      exists (43 :: pre). unfold nsp in *. cbn [app filter]. auto. }
    destruct (N.eqb_spec c 45).
    { subst c. destruct (Z.ltb_spec sign 0); [discriminate|]. destruct (Z.ltb_spec 0 sign); [discriminate|].
      assert (sign = 0)%Z by lia. subst sign.
      apply IH in E; auto; [|unfold sgn_ok; auto]. destruct E as (pre & -> & A & B & C).
      exists (45 :: pre). unfold nsp in *. cbn [app filter]. auto. }
    injection E as <- <-. exists []. cbn [app nsp filter head_stop]. rewrite app_nil_r. repeat split; auto.
Qed.

Lemma parseSign_complete pre s' : forall sign sign', Forall asc (pre ++ s') -> sgn_ok sign -> sgn_ok sign' ->
  sgl sign ++ nsp pre = sgl sign' -> head_stop s' -> parseSign sign (pre ++ s') = inl (sign', s').
Proof.
  induction pre as [|c pre IH]; intros sign sign' Ha H1 H2 E Hh; cbn [app] in *.
  - cbn in E. rewrite app_nil_r in E.
    assert (sign = sign') as <-.
    { unfold sgn_ok, sgl in *. destruct H1 as [->|[->| ->]], H2 as [->|[->| ->]]; cbn in E; congruence. }
    destruct s' as [|c s']; [destruct Hh|]. cbn [head_stop] in Hh. inversion Ha; subst.
    cbn [parseSign]. rewrite rd_asc, isspace_eq, tolower_plus, tolower_minus by auto.
    destruct Hh as (-> & A & B). rewrite (proj2 (N.eqb_neq c 43)), (proj2 (N.eqb_neq c 45)) by auto. reflexivity.
  - inversion Ha; subst. cbn [parseSign]. rewrite rd_asc, isspace_eq, tolower_plus, tolower_minus by auto.
    unfold nsp in E. cbn [filter] in E. fold (nsp pre) in E. destruct (is_space c); cbn [negb] in E.
    + apply IH; auto.
    + assert (Hz : sign = 0%Z /\ ((c = 43 /\ sign' = 1%Z) \/ (c = 45 /\ sign' = (-1)%Z)) /\ nsp pre = []).
      { unfold sgn_ok, sgl in *. destruct H1 as [->|[->| ->]], H2 as [->|[->| ->]]; cbn in E; try congruence;
        injection E as ? ?; subst; auto. }
      destruct Hz as (-> & [[-> ->]|[-> ->]] & Hn).
      * cbn [N.eqb Pos.eqb Z.ltb Z.compare]. apply IH; auto.
      * cbn [N.eqb Pos.eqb Z.ltb Z.compare]. apply IH; auto.
Qed.

(* ---- base ---- *)
(* what parseBase + parseDigits compute on the body with suffix *)
Definition number (s : text) : N + serr :=
  match parseBase s with
  | BErr e => inr e
  | BZero => inl 0
  | BBase b s2 => parseDigits b 0 s2
  end.

Lemma read1_asc c s : asc c -> read1 (c :: s) = (Some (tolower c), s).
Proof.
  intros. unfold read1. destruct (N.eqb_spec c 0); [unfold asc in *; lia|].
  rewrite rd_asc; auto.
Qed.

Lemma digitVal0 c : asc c -> digitVal 0 (tolower c) = if charval c <? 10 then Some (charval c) else None.
Proof. intros. rewrite <- digitVal_tolower; auto. unfold base_ok; auto. Qed.

Lemma charval_0 c : charval c = 0 -> c = 48.
Proof.
  unfold charval. repeat match goal with |- context [if ?x then _ else _] => destruct x eqn:? end; lia.
Qed.

Lemma tolower_eq_lower c k : asc c -> 97 <= k <= 122 -> (tolower c =? k) = (c =? k) || (c =? k - 32).
Proof. intros. unfold tolower, asc in *. destruct ((65 <=? c) && (c <=? 90)) eqn:E; lia. Qed.

Lemma tolower_octal c : asc c -> (48 <=? tolower c) && (tolower c <=? 55) = (charval c <? 8).
Proof.
  intros. unfold tolower, charval, asc in *.
  repeat match goal with |- context [if ?x then _ else _] => destruct x eqn:? end; lia.
Qed.

Lemma u64_pos : 0 < two64. Proof. reflexivity. Qed.

Lemma number_sound s v : Forall asc s -> number s = inl v ->
  exists body suf, s = body ++ suf /\ body_value body v /\ u_suffix suf /\ v < two64.
Proof.
  intros Ha E. unfold number, parseBase in E.
  destruct s as [|c s]; [discriminate|].
  inversion Ha as [|? ? Hc Hs]; subst.
  rewrite read1_asc in E by auto. cbn [fst snd] in E. rewrite digitVal0 in E by auto.
  destruct (N.ltb_spec (charval c) 10) as [L|L]; [|discriminate].
  destruct ((1 <=? charval c) && (charval c <=? 9)) eqn:D.
  - (* decimal *)
    apply parseDigits_sound in E; auto using u64_pos; [|unfold base_ok; auto].
    destruct E as (ds & suf & E & Hd & Hs' & V & B).
    destruct ds as [|d ds].
    { cbn [app] in E. destruct Hs' as [->|[->| ->]]; [discriminate| |]; injection E as -> ->; discriminate D. }
    cbn [app] in E. injection E as -> ->. inversion Hd; subst.
    exists (d :: ds), suf. repeat split; auto.
    rewrite cvfold_place, N.mul_0_l, N.add_0_l. apply bv_dec; auto. lia.
  - destruct (N.eqb_spec (charval c) 0) as [Z0|Z0]; cbn [negb] in E; [|lia].
    apply charval_0 in Z0. subst c. clear L D.
    destruct s as [|c1 s1].
    + cbn in E. injection E as <-. exists [48], []. repeat split; auto using bv_zero, u64_pos. unfold u_suffix; auto.
    + inversion Hs as [|? ? Hc1 Hs1]; subst. rewrite read1_asc in E by auto.
      rewrite tolower_u in E by auto.
      destruct ((c1 =? 117) || (c1 =? 85)) eqn:U.
      * destruct s1 as [|c2 s2].
        -- cbn in E. injection E as <-. exists [48], [c1].
           repeat split; auto using bv_zero, u64_pos. unfold u_suffix.
           assert (c1 = 117 \/ c1 = 85) as [->| ->] by lia; auto.
        -- inversion Hs1; subst. rewrite read1_asc in E by auto. discriminate.
      * rewrite !tolower_eq_lower in E by (auto; lia). change (120 - 32) with 88 in E. change (98 - 32) with 66 in E.
        destruct ((c1 =? 120) || (c1 =? 88)) eqn:X.
        { apply parseDigits_sound in E; auto using u64_pos; [|unfold base_ok; auto].
          destruct E as (ds & suf & -> & Hd & Hs' & V & B).
          exists (48 :: c1 :: ds), suf. repeat split; auto. subst v.
          rewrite cvfold_place, N.mul_0_l, N.add_0_l. apply bv_hex; auto. lia. }
        destruct ((c1 =? 98) || (c1 =? 66)) eqn:Y.
        { apply parseDigits_sound in E; auto using u64_pos; [|unfold base_ok; auto].
          destruct E as (ds & suf & -> & Hd & Hs' & V & B).
          exists (48 :: c1 :: ds), suf. repeat split; auto. subst v.
          rewrite cvfold_place, N.mul_0_l, N.add_0_l. apply bv_bin; auto. lia. }
        rewrite tolower_octal in E by auto. destruct (N.ltb_spec (charval c1) 8) as [O8|O8]; [|discriminate].
        apply parseDigits_sound in E; auto using u64_pos; [|unfold base_ok; auto].
        destruct E as (ds & suf & E & Hd & Hs' & V & B).
        exists (48 :: ds), suf. cbn [app]. rewrite E. repeat split; auto. subst v.
        rewrite cvfold_place, N.mul_0_l, N.add_0_l. apply bv_oct; auto.
        intros ->. cbn [app] in E. destruct Hs' as [->|[->| ->]]; [discriminate| |]; injection E as -> ->; discriminate U.
Qed.

Lemma number_complete body v suf : Forall asc (body ++ suf) -> body_value body v -> u_suffix suf ->
  number (body ++ suf) = if v <? two64 then inl v else inr TooLarge.
Proof.
  intros Ha Hb Hs. unfold number, parseBase.
  inversion Hb as [|c ds Hc Hd|x ds Hx Hd|x ds Hx Hd|ds Hne Hd]; subst; cbn [app] in *.
  - destruct Hs as [->|[->| ->]]; reflexivity.
  - inversion Ha; subst. rewrite read1_asc by auto. cbn [fst]. rewrite digitVal0 by auto.
    replace (charval c <? 10) with true by lia.
    replace ((1 <=? charval c) && (charval c <=? 9)) with true by lia.
    change (c :: ds ++ suf) with ((c :: ds) ++ suf).
    cbv iota beta. rewrite parseDigits_complete; auto using u64_pos.
    + rewrite cvfold_place, N.mul_0_l, N.add_0_l. reflexivity.
    + unfold base_ok; auto.
    + constructor; auto. lia.
  - inversion Ha as [|? ? A1 A2]; subst. inversion A2 as [|? ? A3 A4]; subst.
    rewrite read1_asc by auto. cbn [fst snd]. rewrite digitVal0 by auto.
    change (charval 48 <? 10) with true. cbv iota beta. change ((1 <=? charval 48) && (charval 48 <=? 9)) with false.
    change (negb (charval 48 =? 0)) with false. cbv iota.
    rewrite read1_asc by auto. rewrite tolower_u by auto.
    replace ((x =? 117) || (x =? 85)) with false by lia.
    rewrite tolower_eq_lower by (auto; lia). replace ((x =? 120) || (x =? 120 - 32)) with true by lia.
    cbv iota beta. rewrite parseDigits_complete; auto using u64_pos; [|unfold base_ok; auto].
    rewrite cvfold_place, N.mul_0_l, N.add_0_l. reflexivity.
  - inversion Ha as [|? ? A1 A2]; subst. inversion A2 as [|? ? A3 A4]; subst.
    rewrite read1_asc by auto. cbn [fst snd]. rewrite digitVal0 by auto.
    change (charval 48 <? 10) with true. cbv iota beta. change ((1 <=? charval 48) && (charval 48 <=? 9)) with false.
    change (negb (charval 48 =? 0)) with false. cbv iota.
    rewrite read1_asc by auto. rewrite tolower_u by auto.
    replace ((x =? 117) || (x =? 85)) with false by lia.
    rewrite !tolower_eq_lower by (auto; lia). replace ((x =? 120) || (x =? 120 - 32)) with false by lia.
    replace ((x =? 98) || (x =? 98 - 32)) with true by lia.
    cbv iota beta. rewrite parseDigits_complete; auto using u64_pos; [|unfold base_ok; auto].
    rewrite cvfold_place, N.mul_0_l, N.add_0_l. reflexivity.
  - inversion Ha as [|? ? A1 A2]; subst.
    rewrite read1_asc by auto. cbn [fst snd]. rewrite digitVal0 by auto.
    change (charval 48 <? 10) with true. cbv iota beta. change ((1 <=? charval 48) && (charval 48 <=? 9)) with false.
    change (negb (charval 48 =? 0)) with false. cbv iota.
    destruct ds as [|c1 ds]; [congruence|]. cbn [app] in *. inversion A2 as [|? ? A3 A4]; subst.
    inversion Hd as [|? ? Hc1 Hd']; subst.
    rewrite read1_asc by auto. rewrite tolower_u by auto.
    rewrite (charval_not_u c1 8) by (auto; unfold base_ok; auto).
    rewrite !tolower_eq_lower by (auto; lia).
    assert (48 <= c1 <= 55).
    { unfold charval in Hc1. destruct ((48 <=? c1) && (c1 <=? 57)) eqn:?; [lia|].
      destruct ((97 <=? c1) && (c1 <=? 102)) eqn:?; [lia|]. destruct ((65 <=? c1) && (c1 <=? 70)) eqn:?; lia. }
    replace ((c1 =? 120) || (c1 =? 120 - 32)) with false by lia.
    replace ((c1 =? 98) || (c1 =? 98 - 32)) with false by lia.
    rewrite tolower_octal by auto. replace (charval c1 <? 8) with true by lia.
    change (c1 :: ds ++ suf) with ((c1 :: ds) ++ suf).
    cbv iota beta. rewrite parseDigits_complete; auto using u64_pos; [|unfold base_ok; auto].
    rewrite cvfold_place, N.mul_0_l, N.add_0_l. reflexivity.
Qed.

Lemma ascii_asc s : ascii_text s = true <-> Forall asc s.
Proof.
  unfold ascii_text. rewrite forallb_forall, Forall_forall. unfold asc.
  split; intros H x Hx; specialize (H x Hx); lia.
Qed.

Lemma body_head body v : body_value body v -> exists c r, body = c :: r /\ 48 <= c <= 57.
Proof.
  intros H. destruct H; try (eexists _, _; split; [reflexivity|lia]).
  exists c, ds. split; auto. unfold charval in H.
  destruct ((48 <=? c) && (c <=? 57)) eqn:?; [lia|].
  destruct ((97 <=? c) && (c <=? 102)) eqn:?; [lia|]. destruct ((65 <=? c) && (c <=? 70)) eqn:?; lia.
Qed.

Lemma sign_part_sgl pre neg : sign_part pre neg <->
  exists sign, sgn_ok sign /\ nsp pre = sgl sign /\ neg = (sign <? 0)%Z.
Proof.
  unfold sign_part. fold (nsp pre). split.
  - destruct (nsp pre) as [|c [|c2 r]].
    + intros ->. exists 0%Z. unfold sgn_ok. auto.
    + intros [[-> ->]|[-> ->]]; [exists 1%Z|exists (-1)%Z]; unfold sgn_ok; auto.
    + tauto.
  - intros (sign & [->|[->| ->]] & -> & ->); cbn; auto.
Qed.

Lemma strto64_unfold s vb : (-64 <= vb <= 64)%Z ->
  strto64 s vb = match parseSign 0 s with
    | inr e => SErr e
    | inl (sign, s1) => match parseBase s1 with BZero => SOk 0 | _ =>
       match number s1 with inr e => SErr e | inl r => checkRange vb sign r end end end.
Proof.
  intros H. unfold strto64, number. replace ((vb <? -64) || (64 <? vb))%Z with false by lia.
  destruct (parseSign 0 s) as [[sign s1]|]; auto. destruct (parseBase s1); auto.
Qed.

Lemma parseBase_zero_number s : parseBase s = BZero -> number s = inl 0.
Proof. unfold number. intros ->. reflexivity. Qed.

Lemma strto64_norm s vb : (-64 <= vb <= 64)%Z -> (forall sign, sgn_ok sign -> checkRange vb sign 0 = SOk 0) ->
  Forall asc s ->
  strto64 s vb = match parseSign 0 s with
    | inr e => SErr e
    | inl (sign, s1) => match number s1 with inr e => SErr e | inl r => checkRange vb sign r end end.
Proof.
  intros H Z0 Ha. rewrite strto64_unfold by auto.
  destruct (parseSign 0 s) as [[sign s1]|] eqn:P; auto.
  apply parseSign_sound in P; auto; [|unfold sgn_ok; auto]. destruct P as (pre & _ & A & _).
  destruct (parseBase s1) eqn:B; auto.
  rewrite (parseBase_zero_number _ B). symmetry. auto.
Qed.

Lemma literal_run s vb : (-64 <= vb <= 64)%Z -> (forall sign, sgn_ok sign -> checkRange vb sign 0 = SOk 0) ->
  Forall asc s ->
  (forall pre body suf neg v, s = pre ++ body ++ suf -> sign_part pre neg -> body_value body v -> u_suffix suf ->
    exists sign, sgn_ok sign /\ neg = (sign <? 0)%Z /\
    strto64 s vb = if v <? two64 then checkRange vb sign v else SErr TooLarge).
Proof.
  intros Hvb Z0 Ha pre body suf neg v E Hp Hb Hs.
  apply sign_part_sgl in Hp as (sign & A & B & C).
  exists sign. repeat split; auto.
  rewrite strto64_norm by auto. subst s.
  rewrite (parseSign_complete pre (body ++ suf) 0 sign); auto.
  - rewrite (number_complete body v suf); auto.
    + destruct (v <? two64); reflexivity.
    + apply Forall_app in Ha. tauto.
  - unfold sgn_ok; auto.
  - destruct (body_head _ _ Hb) as (c & r & -> & Hc). cbn [app head_stop]. unfold is_space. cbn [existsb]. lia.
Qed.

Lemma run_literal s vb r : (-64 <= vb <= 64)%Z -> (forall sign, sgn_ok sign -> checkRange vb sign 0 = SOk 0) ->
  Forall asc s -> strto64 s vb = SOk r ->
  exists pre body suf sign v, s = pre ++ body ++ suf /\ sign_part pre (sign <? 0)%Z /\ sgn_ok sign /\
   body_value body v /\ u_suffix suf /\ v < two64 /\ checkRange vb sign v = SOk r.
Proof.
  intros Hvb Z0 Ha E. rewrite strto64_norm in E by auto.
  destruct (parseSign 0 s) as [[sign s1]|] eqn:P; [|discriminate].
  apply parseSign_sound in P; auto; [|unfold sgn_ok; auto]. destruct P as (pre & -> & A & B & C).
  destruct (number s1) as [v|] eqn:N1; [|discriminate].
  apply number_sound in N1; [|apply Forall_app in Ha; tauto].
  destruct N1 as (body & suf & -> & Hb & Hs & Hv).
  exists pre, body, suf, sign, v. repeat split; auto.
  apply sign_part_sgl. exists sign. auto.
Qed.

Lemma checkRange_m64_0 sign : sgn_ok sign -> checkRange (-64) sign 0 = SOk 0.
Proof. intros [->|[->| ->]]; reflexivity. Qed.
Lemma checkRange_64_0 sign : sgn_ok sign -> checkRange 64 sign 0 = SOk 0.
Proof. intros [->|[->| ->]]; reflexivity. Qed.

Definition intval (neg : bool) (v : N) : Z := (if neg then - Z.of_N v else Z.of_N v)%Z.

Lemma checkRange_m64 sign v : sgn_ok sign -> v < two64 ->
  checkRange (-64) sign v =
  let z := intval (sign <? 0)%Z v in
  if ((- 2 ^ 63 <=? z) && (z <? 2 ^ 63))%Z then SOk (of_s64 z)
  else SErr (if (sign <? 0)%Z then NegOverflow else PosOverflow).
Proof.
  intros Hs Hv. unfold checkRange, intval, of_s64, s64, two64 in *.
  change (2 ^ 63)%N with 9223372036854775808. change (2 ^ 63)%Z with 9223372036854775808%Z.
  change (2 ^ 64)%Z with 18446744073709551616%Z.
  change ((-64 =? -64)%Z) with true. cbv iota zeta.
  destruct Hs as [->|[->| ->]]; cbn [Z.leb Z.ltb Z.compare]; cbv iota;
  repeat match goal with |- context [if ?x then _ else _] => destruct x eqn:? end;
  try reflexivity; try (exfalso; lia); f_equal; lia.
Qed.

Lemma strtos64_iff s r : ascii_text s = true ->
  (strtos64 s = SOk r <-> exists z, literal s z /\ (- 2 ^ 63 <= z < 2 ^ 63)%Z /\ r = of_s64 z).
Proof.
  intros Ha. apply ascii_asc in Ha. unfold strtos64. split.
  - intros E. apply run_literal in E; auto using checkRange_m64_0; [|lia].
    destruct E as (pre & body & suf & sign & v & E & Hp & Hsg & Hb & Hs & Hv & C).
    rewrite checkRange_m64 in C by auto. cbv zeta in C.
    destruct ((- 2 ^ 63 <=? intval (sign <? 0)%Z v) && (intval (sign <? 0)%Z v <? 2 ^ 63))%Z eqn:R; [|discriminate].
    injection C as <-. exists (intval (sign <? 0)%Z v). split; [|split; [lia|reflexivity]].
    exists pre, body, suf, (sign <? 0)%Z, v. repeat split; auto.
  - intros (z & (pre & body & suf & neg & v & E & Hp & Hb & Hs & Hz) & R & ->).
    destruct (literal_run s (-64) ltac:(lia) checkRange_m64_0 Ha _ _ _ _ _ E Hp Hb Hs) as (sign & Hsg & -> & X).
    rewrite X. assert (v < two64).
    { unfold two64. destruct (sign <? 0)%Z; lia. }
    replace (v <? two64) with true by lia. rewrite checkRange_m64 by auto.
    cbv zeta. unfold intval. rewrite <- Hz.
    replace ((- 2 ^ 63 <=? z) && (z <? 2 ^ 63))%Z with true by lia. reflexivity.
Qed.

(* a literal out of range is reported as an error, never accepted and never a crash *)
Lemma strtos64_range_error s z : ascii_text s = true -> literal s z -> ~ (- 2 ^ 63 <= z < 2 ^ 63)%Z ->
  strtos64 s = SErr TooLarge \/ strtos64 s = SErr PosOverflow \/ strtos64 s = SErr NegOverflow.
Proof.
  intros Ha (pre & body & suf & neg & v & E & Hp & Hb & Hs & Hz) R. apply ascii_asc in Ha. unfold strtos64.
  destruct (literal_run s (-64) ltac:(lia) checkRange_m64_0 Ha _ _ _ _ _ E Hp Hb Hs) as (sign & Hsg & -> & X).
  rewrite X. destruct (N.ltb_spec v two64); auto.
  rewrite checkRange_m64 by auto. cbv zeta. unfold intval. rewrite <- Hz.
  replace ((- 2 ^ 63 <=? z) && (z <? 2 ^ 63))%Z with false by lia. destruct (sign <? 0)%Z; auto.
Qed.

Lemma strtou64_iff s r : ascii_text s = true -> Forall (fun c => c <> 45) s ->
  (strtou64 s = SOk r <-> exists z, literal s z /\ (0 <= z < 2 ^ 64)%Z /\ r = Z.to_N z).
Proof.
  intros Ha Hm. apply ascii_asc in Ha. unfold strtou64.
  assert (NN : forall pre b sf neg, s = pre ++ b ++ sf -> sign_part pre neg -> neg = false).
  { intros pre b sf neg -> Hp. apply sign_part_sgl in Hp as (sign & [->|[->| ->]] & Q & ->); auto.
    exfalso. assert (In 45 (nsp pre)) by (rewrite Q; left; reflexivity).
    unfold nsp in H. apply filter_In in H as (H & _).
    rewrite Forall_forall in Hm. apply (Hm 45); auto. apply in_or_app. auto. }
  split.
  - intros E. apply run_literal in E; auto using checkRange_64_0; [|lia].
    destruct E as (pre & body & suf & sign & v & E & Hp & Hsg & Hb & Hs & Hv & C).
    pose proof (NN _ _ _ _ E Hp) as Hneg. rewrite Hneg in Hp.
    unfold checkRange in C. cbn [Z.eqb] in C. replace (0 <=? sign)%Z with true in C by lia.
    change (64 =? -64)%Z with false in C. change (64 =? 64)%Z with true in C. cbv iota in C. injection C as <-.
    exists (Z.of_N v). split; [|unfold two64 in *; split; [lia|lia]].
    exists pre, body, suf, false, v. repeat split; auto.
  - intros (z & (pre & body & suf & neg & v & E & Hp & Hb & Hs & Hz) & R & ->).
    pose proof (NN _ _ _ _ E Hp) as ->. subst z.
    destruct (literal_run s 64 ltac:(lia) checkRange_64_0 Ha _ _ _ _ _ E Hp Hb Hs) as (sign & Hsg & Hn & X).
    rewrite X. unfold two64 in *. replace (v <? 18446744073709551616) with true by lia.
    unfold checkRange. replace (0 <=? sign)%Z with true by lia. cbn. rewrite N2Z.id. reflexivity.
Qed.

Lemma strtou64_range_error s z : ascii_text s = true -> Forall (fun c => c <> 45) s ->
  literal s z -> (2 ^ 64 <= z)%Z -> strtou64 s = SErr TooLarge.
Proof.
  intros Ha Hm (pre & body & suf & neg & v & E & Hp & Hb & Hs & Hz) R. apply ascii_asc in Ha. unfold strtou64.
  destruct (literal_run s 64 ltac:(lia) checkRange_64_0 Ha _ _ _ _ _ E Hp Hb Hs) as (sign & Hsg & -> & X).
  rewrite X. unfold two64 in *.
  replace (v <? 18446744073709551616) with false; auto. destruct (sign <? 0)%Z; lia.
Qed.

Lemma checkRange_n n sign v : (1 <= n <= 62)%Z -> sgn_ok sign -> v < two64 ->
  (- 2 ^ (n - 1) <= intval (sign <? 0)%Z v < 2 ^ (n - 1))%Z ->
  checkRange (- n) sign v = SOk (of_s64 (intval (sign <? 0)%Z v)).
Proof.
  intros Hn Hs Hv R. unfold checkRange.
  replace (- n =? -64)%Z with false by lia. replace (- n =? 64)%Z with false by lia.
  replace (- n <? 0)%Z with true by lia. unfold GetNOnes63.
  replace ((0 <=? - - n + 1) && (- - n + 1 <=? 63))%Z with true by lia.
  cbv zeta. replace (- - n + 1)%Z with (n - 1 + 2)%Z by lia.
  assert (P : (2 ^ (n - 1 + 2) = 2 ^ (n - 1) * 4)%Z) by (rewrite Z.pow_add_r by lia; reflexivity).
  assert (P63 : (2 ^ (n - 1) <= 2 ^ 61)%Z) by (apply Z.pow_le_mono_r; lia).
  change (2 ^ 61)%Z with 2305843009213693952%Z in P63.
  rewrite P. set (p := (2 ^ (n - 1))%Z) in *. clearbody p.
  assert (Z1 : exists w, (if (sign <? 0)%Z then u64 (v * (two64 - 1)) else v) = w /\ w < two64 /\
     s64 w = intval (sign <? 0)%Z v /\ w = of_s64 (intval (sign <? 0)%Z v)).
  { eexists. split; [reflexivity|]. unfold u64, s64, intval, of_s64, two64 in *.
    change (2 ^ 63)%N with 9223372036854775808. change (2 ^ 64)%Z with 18446744073709551616%Z.
    destruct Hs as [->|[->| ->]]; cbn [Z.ltb Z.compare] in *.
    - replace (v <? 9223372036854775808) with true by lia. lia.
    - replace (v <? 9223372036854775808) with true by lia. lia.
    - assert (Q : v * (18446744073709551616 - 1) mod 18446744073709551616 = (if v =? 0 then 0 else 18446744073709551616 - v)).
      { destruct (N.eqb_spec v 0); [subst; reflexivity|].
        replace (v * (18446744073709551616 - 1)) with ((18446744073709551616 - v) + (v - 1) * 18446744073709551616) by nia.
        rewrite N.mod_add by lia. apply N.mod_small. lia. }
      rewrite Q. destruct (N.eqb_spec v 0).
      + subst v. cbn. repeat split; lia.
      + replace (18446744073709551616 - v <? 9223372036854775808) with false by lia. repeat split; lia. }
  destruct Z1 as (w & -> & Hw & S1 & S2). rewrite S1, S2.
  replace (intval (sign <? 0)%Z v <? - (p * 4 - 1) - 1)%Z with false by lia.
  replace (p * 4 - 1 <? intval (sign <? 0)%Z v)%Z with false by lia. reflexivity.
Qed.

Lemma strto64_n_accepts n s z : ascii_text s = true -> (1 <= n <= 62)%Z -> literal s z ->
  (- 2 ^ (n - 1) <= z < 2 ^ (n - 1))%Z -> strto64 s (- n) = SOk (of_s64 z).
Proof.
  intros Ha Hn (pre & body & suf & neg & v & E & Hp & Hb & Hs & Hz) R. apply ascii_asc in Ha.
  assert (Z0 : forall sign, sgn_ok sign -> checkRange (- n) sign 0 = SOk 0).
  { intros sign Hsg. rewrite checkRange_n; auto.
    - unfold intval. destruct (sign <? 0)%Z; reflexivity.
    - reflexivity.
    - assert (0 < 2 ^ (n - 1))%Z by (apply Z.pow_pos_nonneg; lia).
      unfold intval. destruct (sign <? 0)%Z; cbn; lia. }
  destruct (literal_run s (- n) ltac:(lia) Z0 Ha _ _ _ _ _ E Hp Hb Hs) as (sign & Hsg & -> & X).
  rewrite X.
  assert (v < two64).
  { assert (P63 : (2 ^ (n - 1) <= 2 ^ 61)%Z) by (apply Z.pow_le_mono_r; lia).
    change (2 ^ 61)%Z with 2305843009213693952%Z in P63. unfold two64. destruct (sign <? 0)%Z; lia. }
  replace (v <? two64) with true by lia.
  rewrite checkRange_n; auto; unfold intval; rewrite <- Hz; auto.
Qed.
