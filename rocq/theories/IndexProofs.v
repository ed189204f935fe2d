From Coq Require Import List NArith ZArith Lia Bool.
From Coq Require Import ZifyBool.
From Verif Require Import IndexModel IndexSpec.
Ltac Zify.zify_post_hook ::= Z.div_mod_to_equations.
Open Scope Z_scope.

Lemma s16_id : forall z, - 2 ^ 15 <= z < 2 ^ 15 -> s16 z = z.
Proof. intros; unfold s16; rewrite Z.mod_small; lia. Qed.
Lemma s32_id : forall z, - 2 ^ 31 <= z < 2 ^ 31 -> s32 z = z.
Proof. intros; unfold s32; rewrite Z.mod_small; lia. Qed.
Lemma u32_id : forall z, 0 <= z < 2 ^ 32 -> u32 z = z.
Proof. intros; unfold u32; apply Z.mod_small; lia. Qed.
Lemma u8_id : forall z, 0 <= z < 2 ^ 8 -> u8 z = z.
Proof. intros; unfold u8; apply Z.mod_small; lia. Qed.
Lemma s32_u32 : forall z, - 2 ^ 31 <= z < 2 ^ 31 -> s32 (u32 z) = z.
Proof. intros; unfold s32, u32. lia. Qed.
Lemma s32_cong : forall z k, s32 (z + 2 ^ 32 * k) = s32 z.
Proof. intros; unfold s32. f_equal. replace (z + 2 ^ 32 * k + 2 ^ 31) with (z + 2 ^ 31 + k * 2 ^ 32) by lia.
       apply Z.mod_add; lia. Qed.
