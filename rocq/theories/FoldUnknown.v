(* FoldUnknown.v: C64, operands whose type is not complete. *)
From Coq Require Import List NArith ZArith Lia Bool.
From Verif Require Import Base UTypeModel PrimModel FoldModel.
Open Scope Z_scope.

(* the bit size or the array size is still unknown *)
Definition unknown_size (t : utype) : Prop := ty_bits t = -2 \/ ty_arr t = -2.

Lemma unknown_incomplete t : unknown_size t -> isComplete t = false.
Proof. intros [H | H]; unfold isComplete; rewrite H, ?orb_true_r; reflexivity. Qed.

(* nothing is computed from an operand whose size is not known yet: the fold reports it, and neither gives a value nor aborts *)
Theorem C64_unknown : forall t c, unknown_size t ->
  foldTwiddle t c = FErr /\ foldBang t c = FErr /\
  forall t' c', (forall op, foldBitwise op t c t' c' = FErr /\ foldBitwise op t' c' t c = FErr) /\
                (forall op, foldShift op t c t' c' = FErr /\ foldShift op t' c' t c = FErr).
Proof.
  intros t c H. apply unknown_incomplete in H. unfold foldTwiddle, foldBang. rewrite H. cbn [negb]. split; [reflexivity|]. split; [reflexivity|].
  intros t' c'. split; intros op; unfold foldBitwise, bitwiseType, foldShift; rewrite H; destruct (isComplete t'); split; reflexivity.
Qed.
Print Assumptions C64_unknown.

(* an Int(5) array of unknown length *)
Example C64_unknown_ex : unknown_size (prim EInt 5 (-2)) /\ foldTwiddle (prim EInt 5 (-2)) 9 = FErr.
Proof. split; [right; reflexivity|vm_compute; reflexivity]. Qed.
