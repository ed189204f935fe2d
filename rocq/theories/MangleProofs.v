(* MangleProofs.v: lemmas on generated names. *)
From Coq Require Import String List NArith ZArith Lia Bool.
From Coq Require Import ZifyBool ZifyNat ZifyN.
From Verif Require Import Base LeximitedModel LeximitedSpec LeximitedProofs LeximitedTheorems BitVec UTypeModel AtomModel AtomSpec AtomProofs PrimModel PrimSpec PrimProofs StringPoolModel MangleModel.
Import ListNotations.
Ltac Zify.zify_post_hook ::= Z.div_mod_to_equations.
Open Scope N_scope.

(* what the sizes of a type come to: array size, -1 for a scalar; bit size, 0 if it has none *)
Definition narr (t : utype) : Z := if (0 <=? ty_arr t)%Z then ty_arr t else (-1)%Z.
Definition nbits (t : utype) : Z := Z.max 0 (ty_bits t).
Definition in_s32 (z : Z) : Prop := (- 2 ^ 31 <= z < 2 ^ 31)%Z.
Definition sizes32 (t : utype) : Prop := in_s32 (ty_arr t) /\ in_s32 (ty_bits t).

Lemma lexs_not_r z r s : in_s32 z -> ToLeximitedNumber32s z ++ r <> 114 :: s.
Proof.
  intros Hz E. pose proof (C02_signed32_roundtrip z r Hz) as A. rewrite E in A. cbn in A. discriminate.
Qed.

Lemma sizes_inj t t' r r' : sizes32 t -> sizes32 t' -> mangledSizes t ++ r = mangledSizes t' ++ r' ->
  isReference t = isReference t' /\ narr t = narr t' /\ nbits t = nbits t' /\ r = r'.
Proof.
  intros [HA HB] [HA' HB'] E.
  set (code t := (if (ty_arr t >? 0)%Z then ty_arr t else if (ty_arr t =? 0)%Z then -1 else 0)%Z).
  assert (forall u, mangledSizes u = (if isReference u then [114] else []) ++ ToLeximitedNumber32s (code u) ++ ToLeximitedNumber32s (nbits u)) as HM.
  { intros u. unfold mangledSizes, code, nbits. f_equal. f_equal.
    - destruct (ty_arr u >? 0)%Z; auto. destruct (ty_arr u =? 0)%Z; auto.
    - destruct (Z.gtb_spec (ty_bits u) 0); [rewrite Z.max_r by lia; auto|]. rewrite Z.max_l by lia. reflexivity. }
  rewrite !HM in E. clear HM. rewrite <- !app_assoc in E.
  assert (in_s32 (code t) /\ in_s32 (nbits t) /\ in_s32 (code t') /\ in_s32 (nbits t')) as (C1 & C2 & C3 & C4).
  { unfold in_s32, code, nbits in *. split; [|split; [|split]]; try lia.
    - destruct (Z.gtb_spec (ty_arr t) 0); [lia|]. destruct (ty_arr t =? 0)%Z; lia.
    - destruct (Z.gtb_spec (ty_arr t') 0); [lia|]. destruct (ty_arr t' =? 0)%Z; lia. }
  assert (isReference t = isReference t') as ER.
  { destruct (isReference t), (isReference t'); auto; cbn [app] in E; exfalso.
    - symmetry in E. exact (lexs_not_r _ _ _ C3 E).
    - exact (lexs_not_r _ _ _ C1 E). }
  rewrite ER in E. split; auto. apply app_inv_head in E.
  apply C02_signed32_injective in E; auto. destruct E as [E1 E]. apply C02_signed32_injective in E; auto. destruct E as [E2 E].
  split; [|auto]. unfold code, narr in *.
  destruct (Z.gtb_spec (ty_arr t) 0), (Z.gtb_spec (ty_arr t') 0), (Z.eqb_spec (ty_arr t) 0), (Z.eqb_spec (ty_arr t') 0),
    (Z.leb_spec 0 (ty_arr t)), (Z.leb_spec 0 (ty_arr t')); lia.
Qed.

Lemma codeChar_inj a b : codeChar a = codeChar b -> a = b.
Proof. destruct a, b; cbn; congruence. Qed.

Lemma short_len c : N.of_nat (List.length [c : N]) < two32.
Proof. cbn. unfold two32. lia. Qed.

Lemma mangledType_inj t t' r r' : sizes32 t -> sizes32 t' -> mangledType t ++ r = mangledType t' ++ r' ->
  ty_enum t = ty_enum t' /\ isReference t = isReference t' /\ narr t = narr t' /\ nbits t = nbits t' /\ r = r'.
Proof.
  intros H H' E. unfold mangledType in E. rewrite <- !app_assoc in E. apply sizes_inj in E; auto. destruct E as (E1 & E2 & E3 & E).
  apply ToLeximited_prefix_free in E; try apply short_len. destruct E as [E4 E]. injection E4 as E4. apply codeChar_inj in E4.
  repeat split; auto.
Qed.

Lemma sequence_inj {A} (f : A -> option text) (P : A -> Prop) (R : A -> A -> Prop) :
  (forall a b x y r r', P a -> P b -> f a = Some x -> f b = Some y -> x ++ r = y ++ r' -> R a b /\ r = r') ->
  forall l l' s s' r r', Forall P l -> Forall P l' -> List.length l = List.length l' ->
  sequence (map f l) = Some s -> sequence (map f l') = Some s' -> s ++ r = s' ++ r' -> Forall2 R l l' /\ r = r'.
Proof.
  intros HF. induction l as [|a l IH]; intros l' s s' r r' HP HP' HL ES ES' E; destruct l' as [|b l']; cbn [List.length] in HL; try lia.
  - cbn in ES, ES'. injection ES as <-. injection ES' as <-. cbn in E. split; auto.
  - inversion HP; subst. inversion HP'; subst. cbn [map sequence] in ES, ES'.
    destruct (f a) as [x|] eqn:Ea; [|discriminate]. destruct (sequence (map f l)) as [s1|] eqn:E1; [|discriminate]. injection ES as <-.
    destruct (f b) as [y|] eqn:Eb; [|discriminate]. destruct (sequence (map f l')) as [s2|] eqn:E2; [|discriminate]. injection ES' as <-.
    rewrite <- !app_assoc in E. apply (HF a b x y) in E; auto. destruct E as [HR E].
    destruct (IH l' s1 s2 r r') as [HR2 E3]; auto.
Qed.

(* ---- numbers ---- *)
Lemma small_range e n d : primitive e -> 1 <= n <= 64 ->
  (lo e n <= meaning e (msb_bits (N.to_nat n) d) <= hi e n)%Z.
Proof. intros. apply meaning_range; auto; [lia|]. apply msb_bits_length. Qed.

Lemma two_pow_le a b : (0 <= a <= b)%Z -> (2 ^ a <= 2 ^ b)%Z.
Proof. intros. apply Z.pow_le_mono_r; lia. Qed.

Lemma lexNumber_inj e n d d' x y r r' : primitive e -> 1 <= n <= 64 -> d < 2 ^ n -> d' < 2 ^ n ->
  lexNumber e (Z.of_N n) d = Some x -> lexNumber e (Z.of_N n) d' = Some y -> x ++ r = y ++ r' ->
  meaning e (msb_bits (N.to_nat n) d) = meaning e (msb_bits (N.to_nat n) d') /\ r = r'.
Proof.
  intros HP Hn Hd Hd' EX EY E.
  pose proof (small_range e n d HP Hn) as R1. pose proof (small_range e n d' HP Hn) as R2.
  rewrite <- !ext_val_meaning in * by (auto; lia).
  pose proof (zpow_pos (Z.of_N n) ltac:(lia)) as HP1. pose proof (pow_half (Z.of_N n) ltac:(lia)) as HP2.
  assert (2 ^ n <= 2 ^ 64) as H64 by (apply N.pow_le_mono_r; lia).
  assert (forall c, c < 2 ^ n -> (Z.of_N c mod 2 ^ Z.of_N n = Z.of_N c)%Z) as HM.
  { intros c Hc. apply Z.mod_small. split; [lia|]. change 2%Z with (Z.of_N 2). rewrite <- N2Z.inj_pow. lia. }
  assert (forall c, n <= 32 -> c < 2 ^ n -> u32 c = c) as HU.
  { intros c H32 Hc. apply N.mod_small. assert (2 ^ n <= 2 ^ 32) by (apply N.pow_le_mono_r; lia). change two32 with (2 ^ 32). lia. }
  destruct HP as [[-> | [-> | ->]] | [-> | ->]]; unfold lexNumber, lo, hi, ext_val in *.
  - destruct (Z.leb_spec (Z.of_N n) 32).
    + rewrite HU in EX, EY by (auto; lia). injection EX as <-. injection EY as <-.
      assert (2 ^ (Z.of_N n - 1) <= 2 ^ 31)%Z by (apply two_pow_le; lia).
      apply C02_signed32_injective in E; [exact E|lia|lia].
    + destruct (Z.leb_spec (Z.of_N n) 64); [|discriminate]. injection EX as <-. injection EY as <-.
      assert (2 ^ (Z.of_N n - 1) <= 2 ^ 63)%Z by (apply two_pow_le; lia).
      apply C02_signed64_injective in E; [exact E|lia|lia].
  - destruct (Z.leb_spec (Z.of_N n) 32).
    + rewrite HU in EX, EY by (auto; lia). injection EX as <-. injection EY as <-.
      apply C02_unsigned64_injective in E; try lia. destruct E as [-> ->]. auto.
    + destruct (Z.leb_spec (Z.of_N n) 64); [|discriminate]. injection EX as <-. injection EY as <-.
      apply C02_unsigned64_injective in E; try lia. destruct E as [-> ->]. auto.
  - injection EX as <-. injection EY as <-.
    apply C02_signed32_injective in E; auto; cbn in *; lia.
  - injection EX as <-. injection EY as <-.
    apply C02_signed32_injective in E; auto; cbn in *; lia.
  - destruct (Z.leb_spec (Z.of_N n) 32).
    + rewrite HU in EX, EY by (auto; lia). injection EX as <-. injection EY as <-.
      apply C02_unsigned64_injective in E; try lia. destruct E as [-> ->]. auto.
    + destruct (Z.leb_spec (Z.of_N n) 64); [|discriminate]. injection EX as <-. injection EY as <-.
      apply C02_unsigned64_injective in E; try lia. destruct E as [-> ->]. auto.
Qed.
