(* EqualOpProofs.v: lemmas for C76. *)
From Coq Require Import String List NArith ZArith Lia Bool.
From Coq Require Import ZifyBool ZifyNat ZifyN.
From Verif Require Import Base BitVec UTypeModel AtomModel AtomSpec AtomProofs PrimModel PrimSpec PrimProofs PrimTheorems
  ArithModel ArithProofs ArithTheorems FoldModel FoldSpec FoldProofs FoldTheorems CastModel CastTheorems EqualOpModel EqualOpSpec.
Import ListNotations.
Ltac Zify.zify_post_hook ::= Z.div_mod_to_equations.
Open Scope N_scope.

Lemma points_of slot sto t n e pos p : scalar_of e n t -> primitive e -> ty_ct t <> CElement -> pos = 0 \/ pos + n <= 96 ->
  makePtr slot sto t (determinePackable t) pos = Some p -> points p t n.
Proof.
  intros H HP HC Hpos HM. destruct (scalar_facts _ _ _ H) as (_ & _ & HT & _). pose proof H as (HE & _ & _ & _ & Hn).
  assert (determinePackable t = PACKEDLOADABLE) as HD.
  { unfold determinePackable, getPackable. rewrite HT. unfold MAXBITSPERLONG. replace (Z.of_N n <=? 64)%Z with true by lia.
    rewrite HE. destruct HP as [[-> | [-> | ->]] | [-> | ->]]; destruct (ty_ct t); congruence || reflexivity. }
  rewrite HD in HM. pose proof (makePtr_slot _ _ _ _ _ _ HM) as HS.
  rewrite (makePtr_packed slot sto t PACKEDLOADABLE n pos ltac:(discriminate) HT ltac:(lia) HS Hpos) in HM.
  match type of HM with Some ?q = Some _ => assert (p = q) as -> by congruence end. unfold points. cbn [p_ty p_pack p_len p_pos]. split; [|split; [|split]]; auto.
  destruct (N.eqb_spec pos 0); [|lia]. rewrite HE. clear - HP Hn. destruct HP as [[-> | [-> | ->]] | [-> | ->]]; cbv iota; lia.
Qed.

Lemma bval_placed p n cur : p_pos p + n <= 96 -> n <= 64 -> bval (placed p n cur) < 2 ^ n.
Proof.
  intros HP Hn. unfold placed. pose proof (bval_lt (field (p_pos p) n (v_bits cur))) as HL. rewrite field_length in HL by auto.
  rewrite N2Nat.id in HL. auto.
Qed.

Lemma read32 e n t p cur : scalar_of e n t -> points p t n -> holds_fields (v_ty cur) = true -> n <= 32 ->
  getDataFromAtom p cur = Some (bval (placed p n cur)).
Proof.
  intros H (HT & HK & HL & HB) HF Hn. destruct (scalar_facts _ _ _ H) as (HS & _). destruct p as [slot sto ty pk pos len abs].
  cbn [p_ty p_pack p_len p_pos] in *. subst. unfold placed. cbn [p_pos]. apply getDataFromAtom_ok; auto.
Qed.
Lemma read64 e n t p cur : scalar_of e n t -> points p t n -> holds_fields (v_ty cur) = true ->
  getDataLongFromAtom p cur = Some (bval (placed p n cur)).
Proof.
  intros H (HT & HK & HL & HB) HF. destruct (scalar_facts _ _ _ H) as (HS & _). pose proof H as (_ & _ & _ & _ & Hn).
  destruct p as [slot sto ty pk pos len abs].
  cbn [p_ty p_pack p_len p_pos] in *. subst. unfold placed. cbn [p_pos]. apply getDataLongFromAtom_ok; auto; lia.
Qed.

Lemma store_ok e n t p cur d : primitive e -> scalar_of e n t -> points p t n -> ty_enum (v_ty cur) <> ENouti ->
  exists cell, assignInSlot p (mkUV t (d mod 2 ^ n)) cur = Some cell /\ elsewhere p n cur cell /\ placed p n cell = msb_bits (N.to_nat n) d.
Proof.
  intros HP H (HT & HK & HL & HB) HN. pose proof H as (HE & _ & _ & _ & Hn). destruct p as [slot sto ty pk pos len abs].
  cbn [p_ty p_pack p_len p_pos] in *. subst. destruct (prim_enum _ HP) as (N1 & N2 & N3 & N4 & N5 & N6).
  destruct (putByLen_ok slot sto t t PACKEDLOADABLE pos n abs (mkUV t (d mod 2 ^ n)) (v_bits cur)) as (a & EA & HA); auto; try lia.
  assert (own_bits t n (v_bits (mkUV t (d mod 2 ^ n))) = msb_bits (N.to_nat n) d) as EO.
  { cbn [v_bits]. rewrite own_low by (auto using prim_plain; lia). apply msb_bits_mod. lia. }
  rewrite EO in HA. exists (mkUV (v_ty cur) a). split; [|split].
  - unfold assignInSlot. cbn [p_pack p_ty packfit_eqb andb]. unfold getPtrLen. cbn [p_len]. rewrite !guard_true by (unfold ATOM; lia). cbn [bind].
    rewrite guard_true by lia. unfold putDataIntoAtom. cbn [p_pack]. rewrite EA. cbn [bind]. f_equal. f_equal.
    destruct (ty_enum (v_ty cur)); try congruence; destruct (ty_ct (v_ty cur)); auto; destruct (ty_enum t); congruence || auto.
  - split; auto. cbn [v_bits p_pos]. eapply splice_outside; [exact HA|apply msb_bits_length|lia].
  - unfold placed. cbn [v_bits p_pos]. eapply splice_field_same; [exact HA|apply msb_bits_length|lia].
Qed.

Lemma doEqual_ok op e n t p cur x d name : primitive e -> scalar_of e n t -> points p t n -> holds_fields (v_ty cur) = true -> ty_enum (v_ty cur) <> ENouti ->
  plain (ty_enum (v_ty x)) = true -> evalMethod (negb (n <=? 32)) op e = Some name ->
  ext_eqop (negb (n <=? 32)) op e n (bval (placed p n cur)) (v_bits x mod 2 ^ n) = Some d ->
  exists cell, doEqualImmediate op t p cur x = Some (cell, mkUV t (d mod 2 ^ n)) /\ elsewhere p n cur cell /\ placed p n cell = msb_bits (N.to_nat n) d.
Proof.
  intros HP H HPT HF HN HX HM HD. destruct (scalar_facts _ _ _ H) as (_ & _ & HT & _ & HW). pose proof H as (HE & _ & _ & _ & Hn).
  destruct (store_ok e n t p cur d HP H HPT HN) as (cell & EC & HEl & HPl). exists cell. split; auto.
  unfold doEqualImmediate, evalCall. rewrite HT, HW, zlen_of. cbn [bind]. destruct (N.leb_spec n 32); cbn [negb] in HM, HD; cbn [Z.eqb Pos.eqb].
  - rewrite (read32 e n t) by auto. rewrite get32 by (auto; lia). cbn [bind]. rewrite HE, HM. cbn [bind c_len c_left c_right].
    rewrite HD. cbn [bind]. rewrite imm32 by lia. cbn [bind]. rewrite EC. reflexivity.
  - rewrite (read64 e n t) by auto. rewrite get64 by (auto; lia). cbn [bind]. rewrite HE, HM. cbn [bind c_len c_left c_right].
    rewrite HD. cbn [bind]. rewrite imm64 by lia. cbn [bind]. rewrite EC. reflexivity.
Qed.

Lemma oldValue_ok e n t p cur : scalar_of e n t -> points p t n -> holds_fields (v_ty cur) = true ->
  oldValue t p cur = Some (mkUV t (bval (placed p n cur))).
Proof.
  intros H HPT HF. destruct (scalar_facts _ _ _ H) as (_ & _ & HT & _ & HW). pose proof H as (HE & _ & _ & _ & Hn).
  pose proof (bval_placed p n cur ltac:(apply HPT) ltac:(lia)) as HB.
  unfold oldValue. rewrite HT, HW, zlen_of. cbn [bind]. set (b := bval (placed p n cur)) in *. destruct (N.leb_spec n 32); cbn [Z.eqb Pos.eqb].
  - rewrite (read32 e n t) by auto. cbn [bind]. fold b. pose proof (imm32 t b n ltac:(lia)) as HI.
    assert (2 ^ n <= 2 ^ 32) by (apply N.pow_le_mono_r; lia).
    assert (u32 b = b) as EU by (unfold u32; apply N.mod_small; change two32 with (2 ^ 32); lia). rewrite EU in HI. rewrite HI, N.mod_small by auto. reflexivity.
  - rewrite (read64 e n t) by auto. cbn [bind]. fold b. pose proof (imm64 t b n ltac:(lia)) as HI.
    assert (2 ^ n <= 2 ^ 64) by (apply N.pow_le_mono_r; lia).
    assert (u64 b = b) as EU by (unfold u64; apply N.mod_small; change two64 with (2 ^ 64); lia). rewrite EU in HI. rewrite HI, N.mod_small by auto. reflexivity.
Qed.

(* ---- the right side ---- *)
Lemma rvalue_ok r e' n' l : primitive e' -> rhs_is r e' n' l ->
  exists v, rvalue r = Some v /\ scalar_of e' n' (v_ty v) /\ own_bits (v_ty v) n' (v_bits v) = l /\ rtype r = v_ty v.
Proof.
  intros HP HR. destruct r as [t c|v]; cbn [rhs_is rvalue rtype] in *.
  - destruct HR as [H ->]. exists (mkUV t (c mod 2 ^ n')). rewrite (terminal_ok e' n' t c HP H). cbn [v_ty v_bits].
    pose proof H as (HE & _ & _ & _ & Hn'). repeat split; auto; try apply H. rewrite own_low by (try (rewrite HE; apply prim_plain; auto); lia).
    apply msb_bits_mod. lia.
  - destruct HR as [H ->]. exists v. repeat split; auto; apply H.
Qed.

Lemma assignable_arith r e n t e' n' l : arith e -> arith e' -> scalar_of e n t -> rhs_is r e' n' l ->
  exists b, assignable t r = Some b /\ (b = true <-> storable r e n e' n').
Proof.
  intros HA HA' H HR. unfold assignable. pose proof H as (HE & _ & _ & _ & Hn).
  assert (scalar_of e' n' (rtype r)) as H' by (destruct r; apply HR). pose proof H' as (HE' & _ & _ & _ & Hn').
  destruct (same_type t (rtype r)) eqn:ES.
  - destruct (same_type_facts _ _ _ _ _ _ H H' ES) as [<- <-]. exists true. split; auto. split; auto. intros _.
    destruct r as [tr c|v]; cbn [storable].
    + exists (cbits n c). split; [apply msb_bits_length|reflexivity].
    + intros l' HL. exists l'. auto.
  - assert (etype_eqb (ty_enum t) EBits = false) as -> by (rewrite HE; destruct HA as [-> | [-> | ->]]; reflexivity). cbn [andb].
    assert (forall x, forecast_eqb x CAST_CLEAR = true <-> x = CAST_CLEAR) as HF by (intros []; cbn; split; congruence).
    destruct r as [tr c|v]; cbn [rsafe rtype storable] in *.
    + destruct (C52_literal_accepted_iff_representable e' n' tr c e n t HA' HA H' H) as (f & -> & HX). cbn [bind].
      eexists. split; [reflexivity|]. rewrite HF. exact HX.
    + pose proof (C23_safe_cast_exact e n t e' n' (v_ty v) HA HA' H H') as HX.
      destruct (safe_ranges e n t e' n' (v_ty v) HA HA' H H') as (b & EB & _). rewrite EB in *. cbn [bind].
      eexists. split; [reflexivity|]. rewrite HF. rewrite <- HX. split; [intros ->; reflexivity|congruence].
Qed.
