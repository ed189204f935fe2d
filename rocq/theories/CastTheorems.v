(* CastTheorems.v: final theorems about explicit casts (C74). *)
From Coq Require Import String List NArith ZArith Lia Bool.
From Coq Require Import ZifyBool ZifyNat ZifyN.
From Verif Require Import Base BitVec UTypeModel AtomModel AtomSpec AtomProofs PrimModel PrimSpec PrimProofs PrimTheorems CastModel.
Import ListNotations.
Ltac Zify.zify_post_hook ::= Z.div_mod_to_equations.
Open Scope N_scope.

(* ---- C74: to Int, Unsigned and Unary, the result is the nearest number the type has ---- *)
Theorem C74_nearest : forall e n t e' n' v, arith e -> arith e' \/ e' = EBool -> scalar_of e n t -> scalar_of e' n' (v_ty v) ->
  exists r, cast t v = CastVal r /\ v_ty r = t /\ representable e n (number e n r) /\
    forall z, representable e n z -> (Z.abs (number e n r - number e' n' v) <= Z.abs (z - number e' n' v))%Z.
Proof.
  intros e n t e' n' v HA HC H H'. destruct (cast_arith e n t e' n' v HA HC H H') as (r & E & HT & HN).
  pose proof H as (_ & _ & _ & _ & Hn). exists r. split; auto. split; auto. rewrite HN.
  assert (lo e n <= hi e n)%Z as HLH by (apply hi_lo; lia). split.
  - apply representable_iff; auto; try lia. apply clamp_range; auto.
  - intros z HZ. apply representable_iff in HZ; auto; try lia. unfold clamp.
    destruct (Z.ltb_spec (number e' n' v) (lo e n)); [lia|]. destruct (Z.gtb_spec (number e' n' v) (hi e n)); lia.
Qed.
Print Assumptions C74_nearest.

(* ---- C74: to Bool, anything but zero is true, and every bit is the same ---- *)
Theorem C74_truth : forall n t e' n' v, arith e' \/ e' = EBool -> scalar_of EBool n t -> scalar_of e' n' (v_ty v) ->
  exists r, cast t v = CastVal r /\ v_ty r = t /\ own_bits t n (v_bits r) = repeat (negb (number e' n' v =? 0)%Z) (N.to_nat n) /\
    number EBool n r = (if (number e' n' v =? 0)%Z then 0 else 1)%Z.
Proof.
  intros n t e' n' v HC H H'. destruct (cast_number EBool n t e' n' v (or_intror eq_refl) HC H H') as (r & E & HT & HO).
  pose proof H as (_ & _ & _ & _ & Hn). exists r. split; auto. split; auto. split.
  - rewrite HO. unfold ext_enc. destruct (Z.eqb_spec (number e' n' v) 0) as [EZ|EZ]; cbn [negb].
    + clear. induction (N.to_nat n) as [|k IH]; cbn [msb_bits repeat]; auto. rewrite IH, N.bits_0. auto.
    + rewrite GetNOnes_ones, N2Z.id by lia.
      assert (forall k, (k <= N.to_nat n)%nat -> msb_bits k (N.ones n) = repeat true k) as HR; [|apply HR; lia].
      induction k as [|k IH]; intros Hk; cbn [msb_bits repeat]; auto. rewrite IH, N.ones_spec_low by lia. auto.
  - unfold number at 1. rewrite HT, HO, ext_enc_bool by lia. reflexivity.
Qed.
Print Assumptions C74_truth.

(* ---- C74: to and from Bits, the bits are taken over from the right; missing ones are zero ---- *)
Theorem C74_bits : forall e n t e' n' v, primitive e -> primitive e' -> e = EBits \/ e' = EBits -> scalar_of e n t -> scalar_of e' n' (v_ty v) ->
  exists r, cast t v = CastVal r /\ v_ty r = t /\
    bval (own_bits t n (v_bits r)) = bval (own_bits (v_ty v) n' (v_bits v)) mod 2 ^ n.
Proof.
  intros e n t e' n' v HP HP' HB H H'. pose proof H as (_ & _ & _ & _ & Hn).
  set (d := bval (own_bits (v_ty v) n' (v_bits v))).
  assert (exists s, conv e e' d (Z.of_N n') (Z.of_N n) = Some s /\ s mod 2 ^ n = d mod 2 ^ n) as (s & ES & EM).
  { assert (Z.to_N (2 ^ Z.of_N n) = 2 ^ n) as EP by (rewrite <- ofN_pow; lia).
    assert ((d mod 2 ^ n) mod 2 ^ n = d mod 2 ^ n) as EMM by (apply N.mod_mod; apply N.pow_nonzero; lia).
    destruct HB as [-> | ->].
    - exists d. split; auto. destruct HP' as [[-> | [-> | ->]] | [-> | ->]]; reflexivity.
    - destruct HP as [[-> | [-> | ->]] | [-> | ->]]; unfold conv; rewrite ?EP; eauto. }
  destruct (cast_conv e n t e' n' v s) as (r & E & HT & HO); auto. exists r. split; auto. split; auto.
  rewrite HO, bval_msb, N2Nat.id. exact EM.
Qed.
Print Assumptions C74_bits.

(* ---- C74: every explicit cast between these types is accepted, but to Bool only from Bits, Bool and one bit ---- *)
Theorem C74_accepted : forall e n t e' n' t', primitive e -> primitive e' -> scalar_of e n t -> scalar_of e' n' t' ->
  (explicitlyCastable t t' = Some CAST_CLEAR <-> (e = EBool -> e' = EBool \/ e' = EBits \/ (e' <> EInt /\ n' = 1))).
Proof.
  intros e n t e' n' t' HP HP' H H'. pose proof (prim_safe_clear _ _ _ _ _ _ H H') as HS.
  assert (base_safeCast t t' = CAST_CLEAR) as HB by (unfold prim_safeCast in HS; destruct (base_safeCast t t'); congruence || auto).
  pose proof H as (HE & _ & _ & HR & _). pose proof H' as (HE' & HB' & _ & _ & _).
  assert (isAltRefType t = false) as HA by (unfold isAltRefType; rewrite HR; reflexivity).
  unfold explicitlyCastable, prim_explicitlyCastable, safeCast. rewrite HB, HS, HA, HE, HE'. cbn [andb].
  unfold bool_safe. rewrite HE', HB'.
  destruct HP as [[-> | [-> | ->]] | [-> | ->]]; destruct HP' as [[-> | [-> | ->]] | [-> | ->]]; cbn [xorb forecast_eqb orb andb bind]; try (split; [discriminate|reflexivity]);
    try (split; [intros; auto|reflexivity]).
  - split; [discriminate|]. intros HH. destruct (HH eq_refl) as [HX|[HX|[HX _]]]; congruence.
  - destruct (Z.eqb_spec (Z.of_N n') 1) as [EN|EN]; cbn; (split; [|auto]); [intros _ _; right; right; split; [discriminate|lia]|discriminate|].
    intros HH. destruct (HH eq_refl) as [HX|[HX|[_ HX]]]; [discriminate..|lia].
  - destruct (Z.eqb_spec (Z.of_N n') 1) as [EN|EN]; cbn; (split; [|auto]); [intros _ _; right; right; split; [discriminate|lia]|discriminate|].
    intros HH. destruct (HH eq_refl) as [HX|[HX|[_ HX]]]; [discriminate..|lia].
Qed.
Print Assumptions C74_accepted.

(* ---- C74: the generated code calls the very conversion that the evaluator calls ---- *)
Theorem C74_same_conversion : forall e n t e' n' t' f, primitive e -> primitive e' -> scalar_of e n t -> scalar_of e' n' t' ->
  methodOfEval t t' = Some f -> castMethodForCodeGen t t' = f.
Proof.
  intros e n t e' n' t' f HP HP' H H'. destruct (scalar_facts _ _ _ H) as (_ & _ & _ & _ & HW). destruct (scalar_facts _ _ _ H') as (_ & _ & _ & _ & HW').
  pose proof H as (HE & _). pose proof H' as (HE' & _). unfold methodOfEval, castMethodForCodeGen. rewrite HW, HW', HE, HE'.
  destruct (n <=? 32), (n' <=? 32); destruct HP as [[-> | [-> | ->]] | [-> | ->]]; destruct HP' as [[-> | [-> | ->]] | [-> | ->]];
    intros EF; vm_compute in EF; try discriminate; injection EF as <-; vm_compute; reflexivity.
Qed.
Print Assumptions C74_same_conversion.
(* and it calls one for every pair of types where bits are not just taken over *)
Theorem C74_same_conversion_all : forall e n t e' n' t', arith e \/ e = EBool -> arith e' \/ e' = EBool -> scalar_of e n t -> scalar_of e' n' t' ->
  methodOfEval t t' = Some (castMethodForCodeGen t t').
Proof.
  intros e n t e' n' t' HP HP' H H'. destruct (methodOfEval t t') as [f|] eqn:E.
  - f_equal. symmetry. apply (C74_same_conversion e n t e' n' t'); auto using calc_prim.
  - exfalso. unfold methodOfEval in E. destruct H as (HE & _), H' as (HE' & _). rewrite HE, HE' in E.
    destruct ((getTotalWordSize t <=? 32) && (getTotalWordSize t' <=? 32))%Z; destruct HP as [[-> | [-> | ->]] | ->]; destruct HP' as [[-> | [-> | ->]] | ->]; discriminate.
Qed.
Print Assumptions C74_same_conversion_all.

Example C74_ex :
  cast (prim EUnsigned 4 (-1)) (mkUV (prim EInt 8 (-1)) 251) = CastVal (mkUV (prim EUnsigned 4 (-1)) 0) /\
  cast (prim EUnsigned 4 (-1)) (mkUV (prim EInt 8 (-1)) 100) = CastVal (mkUV (prim EUnsigned 4 (-1)) 15) /\
  cast (prim EInt 4 (-1)) (mkUV (prim EInt 40 (-1)) (2 ^ 39)) = CastVal (mkUV (prim EInt 4 (-1)) 8) /\
  cast (prim EUnary 5 (-1)) (mkUV (prim EUnsigned 8 (-1)) 200) = CastVal (mkUV (prim EUnary 5 (-1)) 31) /\
  cast (prim EBool 3 (-1)) (mkUV (prim EBool 3 (-1)) 5) = CastVal (mkUV (prim EBool 3 (-1)) 7) /\
  cast (prim EUnsigned 4 (-1)) (mkUV (prim EBits 8 (-1)) 165) = CastVal (mkUV (prim EUnsigned 4 (-1)) 5) /\
  explicitlyCastable (prim EBool 1 (-1)) (prim EInt 8 (-1)) = Some CAST_BAD /\
  castMethodForCodeGen (prim EUnsigned 4 (-1)) (prim EInt 40 (-1)) = txt "_Int64ToUnsigned64" /\
  scalar_of EInt 40 (prim EInt 40 (-1)).
Proof. split; [|split; [|split; [|split; [|split; [|split; [|split; [|split]]]]]]]; try (vm_compute; reflexivity). split; [reflexivity|split; [reflexivity|split; [reflexivity|split; [reflexivity|lia]]]]. Qed.

(* ---- C74, where it fails: the cast of a String to Bits is accepted, the generated code does it, the evaluator cannot ---- *)
Theorem C74_string_refuted : forall a,
  explicitlyCastable (prim EBits 32 (-1)) (prim EString 32 (-1)) = Some CAST_CLEAR /\
  castMethodForCodeGen (prim EBits 32 (-1)) (prim EString 32 (-1)) = txt "_String32ToBits32" /\
  cast (prim EBits 32 (-1)) (mkUV (prim EString 32 (-1)) a) = CastFalse.
Proof. intros a. split; [reflexivity|]. split; [vm_compute; reflexivity|reflexivity]. Qed.
Print Assumptions C74_string_refuted.

(* Of complete types that are no arrays and no references: anything can be cast to Void; a String not to a number, and to a String nothing else. *)
Definition plain_type (t : utype) : Prop := isComplete t = true /\ isScalar t = true /\ ty_ref t = AltNot.
Lemma plain_base t t' : plain_type t -> plain_type t' -> base_safeCast t t' = CAST_CLEAR.
Proof. intros (C & S & R) (C' & S' & R'). unfold base_safeCast, checkArrayCast. rewrite C, C', S, S', R, R'. reflexivity. Qed.
Theorem C74_void : forall t t', plain_type t -> plain_type t' -> ty_enum t = EVoid -> explicitlyCastable t t' = Some CAST_CLEAR.
Proof. intros t t' H H' E. unfold explicitlyCastable, prim_explicitlyCastable. rewrite (plain_base t t' H H'), E. destruct H as (_ & _ & R). unfold isAltRefType. rewrite R. reflexivity. Qed.
Print Assumptions C74_void.
Theorem C74_string : forall t t', plain_type t -> plain_type t' -> arith (ty_enum t) \/ ty_enum t = EString ->
  (ty_enum t = EString -> ty_enum t' <> EClass -> (explicitlyCastable t t' = Some CAST_CLEAR <-> ty_enum t' = EString)) /\
  (ty_enum t <> EString -> ty_enum t' = EString -> explicitlyCastable t t' = Some CAST_BAD).
Proof.
  intros t t' H H' HE. unfold explicitlyCastable, prim_explicitlyCastable. rewrite (plain_base t t' H H'). destruct H as (_ & _ & R). unfold isAltRefType. rewrite R. cbn [alt_eqb orb andb].
  split.
  - intros -> HC. cbn. destruct (ty_enum t'); cbn; intuition congruence.
  - intros HN ->. destruct HE as [[-> | [-> | ->]] | E]; [reflexivity..|contradiction].
Qed.
Print Assumptions C74_string.
Example C74_string_ex : plain_type (prim EString 32 (-1)) /\ plain_type (prim EUnsigned 32 (-1)) /\ explicitlyCastable (prim EUnsigned 32 (-1)) (prim EString 32 (-1)) = Some CAST_BAD.
Proof. vm_compute. auto 10. Qed.
