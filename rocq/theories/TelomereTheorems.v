(* TelomereTheorems.v: the growth of a colony by Telomere (C107). *)
From Coq Require Import List ZArith Lia Bool.
From Verif Require Import Base UTypeModel AtomModel PrimModel ArithModel ArithProofs StdNumModel StdNumProofs TelomereModel.
Import ListNotations.
Open Scope Z_scope.

(* ---- specification: the oldest age, and what an atom can still become ---- *)
Definition oldest (width : Z) : Z := 2 ^ width - 1.
Definition in_range (width a : Z) : Prop := 0 <= a <= oldest width.
Definition sum (l : list Z) : Z := fold_right Z.add 0 l.
Definition weight (width : Z) (colony : list Z) : Z := sum (map (fun a => 2 ^ (oldest width - a)) colony).

Lemma maxof_u : forall w, 1 <= w <= 32 -> maxof EUnsigned w = oldest w.
Proof. intros w H. unfold oldest. reflexivity. Qed.

Lemma oldest_pos : forall w, 1 <= w <= 32 -> 1 <= oldest w.
Proof. intros w H. unfold oldest. pose proof (Z.pow_le_mono_r 2 1 w ltac:(lia) ltac:(lia)). change (2 ^ 1) with 2 in H0. lia. Qed.

(* C107: dup refuses only for the destination, changes nothing then, nor when the atom is too old; otherwise there are two
   atoms, both one older *)
Theorem C107_dup : forall w a free, 1 <= w <= 32 -> in_range w a ->
  dup w a free = Some (if a =? oldest w then ([a], true) else if free then ([a + 1; a + 1], true) else ([a], false)).
Proof.
  intros w a free W [A1 A2]. unfold dup. rewrite maxof_u by auto. destruct (Z.eqb_spec a (oldest w)) as [->|NE].
  - rewrite Z.ltb_irrefl. reflexivity.
  - destruct (Z.ltb_spec a (oldest w)) as [L|L]; [|lia]. destruct free; cbn [negb]; [|reflexivity].
    unfold U. rewrite binop_same by (auto; lia). cbn [bind apply_op].
    assert (HS : n_v (to EUnsigned w (mkNum EUnsigned (opsize Add w 1 32) (clamp EUnsigned (opsize Add w 1 32) (a + 1)))) = a + 1); [|rewrite HS; reflexivity].
    unfold to. cbn [n_v]. assert (w <= opsize Add w 1 32) as HO by (unfold opsize, atmost; repeat match goal with |- context [if ?b then _ else _] => destruct b eqn:? end; lia).
    rewrite (clamp_in EUnsigned (opsize Add w 1 32)); [rewrite clamp_in; auto; unfold oldest in *; cbn [minof maxof]; lia|].
    pose proof (Z.pow_le_mono_r 2 w (opsize Add w 1 32) ltac:(lia) HO). unfold oldest in *; cbn [minof maxof]; lia.
Qed.
Print Assumptions C107_dup.

Lemma sum_app : forall a b, sum (a ++ b) = sum a + sum b.
Proof. induction a as [|x a IH]; intros b; cbn [app sum fold_right]; [reflexivity|]. fold (sum (a ++ b)) (sum a). rewrite IH. lia. Qed.

Lemma call_ok : forall w c i f c', 1 <= w <= 32 -> Forall (in_range w) c -> call w c i f = Some c' ->
  Forall (in_range w) c' /\ weight w c' = weight w c.
Proof.
  intros w c i f c' W F E. unfold call in E. destruct (nth_error c i) as [a|] eqn:N; [|discriminate].
  pose proof (nth_error_split c i N) as (l1 & l2 & -> & L1). subst i.
  apply Forall_app in F as [F1 F2]. apply Forall_cons_iff in F2 as [FA F2].
  rewrite (C107_dup w a f W FA) in E. cbn [bind] in E.
  rewrite firstn_app, Nat.sub_diag, firstn_all in E. cbn [firstn] in E. rewrite app_nil_r in E.
  replace (skipn (S (length l1)) (l1 ++ a :: l2)) with l2 in E.
  2: { rewrite skipn_app. rewrite skipn_all2 by lia. replace (S (length l1) - length l1)%nat with 1%nat by lia. reflexivity. }
  injection E as <-. unfold weight. rewrite !map_app, !sum_app. cbn [map sum fold_right].
  assert (FN : Forall (in_range w) (fst (if a =? oldest w then ([a], true) else if f then ([a + 1; a + 1], true) else ([a], false))) /\
    sum (map (fun a => 2 ^ (oldest w - a)) (fst (if a =? oldest w then ([a], true) else if f then ([a + 1; a + 1], true) else ([a], false)))) = 2 ^ (oldest w - a)).
  { destruct (Z.eqb_spec a (oldest w)); [cbn [fst map sum fold_right]; split; [auto|lia]|].
    destruct f; cbn [fst map sum fold_right]; [|split; [auto|lia]]. unfold in_range in *. split; [repeat constructor; lia|].
    replace (oldest w - a) with (Z.succ (oldest w - (a + 1))) by lia. rewrite Z.pow_succ_r by lia. lia. }
  destruct FN as [FN SN]. split; [repeat (apply Forall_app; split; auto)|].
  rewrite SN. fold (sum (map (fun a => 2 ^ (oldest w - a)) l2)). lia.
Qed.

Lemma calls_ok : forall w l c c', 1 <= w <= 32 -> Forall (in_range w) c -> calls w c l = Some c' ->
  Forall (in_range w) c' /\ weight w c' = weight w c.
Proof.
  intros w. induction l as [|[i f] l IH]; intros c c' W F E; cbn [calls] in E; [injection E as <-; auto|].
  destruct (call w c i f) as [c1|] eqn:C; [|discriminate]. cbn [bind] in E. apply call_ok in C as [F1 W1]; auto.
  destruct (IH c1 c' W F1 E) as [F2 W2]. split; [auto|lia].
Qed.

Lemma weight_len : forall w c, Forall (in_range w) c -> Z.of_nat (length c) <= weight w c /\
  (Forall (fun a => a = oldest w) c <-> Z.of_nat (length c) = weight w c).
Proof.
  intros w c F. unfold weight. induction F as [|a c A F IH]; [cbn; split; [lia|split; auto]|].
  cbn [map sum fold_right length]. fold (sum (map (fun a => 2 ^ (oldest w - a)) c)). destruct IH as [L E]. unfold in_range in A.
  assert (1 <= 2 ^ (oldest w - a)) by (pose proof (Z.pow_pos_nonneg 2 (oldest w - a)); lia).
  split; [lia|]. rewrite Forall_cons_iff, E. split; [intros [-> Q]; rewrite Z.sub_diag in *; change (2 ^ 0) with 1; lia|].
  intros Q. assert (P : 2 ^ (oldest w - a) = 1) by lia. split; [|lia].
  destruct (Z.eq_dec a (oldest w)); auto. assert (2 ^ 1 <= 2 ^ (oldest w - a)) as R by (apply Z.pow_le_mono_r; lia). change (2 ^ 1) with 2 in R. lia.
Qed.

(* C107: in whatever order the atoms of a colony that one new atom started are duplicated, there are never more than
   2^(2^width - 1), and exactly so many when none of them can be duplicated any more *)
Theorem C107_size : forall w l c, 1 <= w <= 32 -> calls w [0] l = Some c ->
  Z.of_nat (length c) <= 2 ^ (2 ^ w - 1) /\
  ((forall a, In a c -> dup w a true = Some ([a], true)) <-> Z.of_nat (length c) = 2 ^ (2 ^ w - 1)).
Proof.
  intros w l c W E. pose proof (oldest_pos w W) as OP.
  destruct (calls_ok w l [0] c W ltac:(repeat constructor; lia) E) as [F WT].
  assert (WT0 : weight w [0] = 2 ^ (2 ^ w - 1)) by (unfold weight; cbn [map sum fold_right]; rewrite Z.sub_0_r; unfold oldest; lia).
  rewrite <- WT0, <- WT. destruct (weight_len w c F) as [L X]. split; [auto|]. rewrite <- X. rewrite Forall_forall in *. split; intros H a A.
  - specialize (H a A). rewrite (C107_dup w a true W (F a A)) in H. destruct (Z.eqb_spec a (oldest w)); [auto|].
    injection H as H. discriminate.
  - rewrite (C107_dup w a true W (F a A)). rewrite (H a A), Z.eqb_refl. reflexivity.
Qed.
Print Assumptions C107_size.

(* refuted: that the colony has 2^(2^(width - 1)) atoms; it is so for width 1 only *)
Theorem C107_documented_refuted : forall w, 2 <= w <= 32 -> 2 ^ (2 ^ (w - 1)) < 2 ^ (2 ^ w - 1).
Proof.
  intros w W. apply Z.pow_lt_mono_r; [lia| |].
  - pose proof (Z.pow_le_mono_r 2 1 w). change (2 ^ 1) with 2 in *. lia.
  - replace w with (Z.succ (w - 1)) at 2 by lia. rewrite Z.pow_succ_r by lia.
    pose proof (Z.pow_le_mono_r 2 1 (w - 1) ltac:(lia) ltac:(lia)) as P. change (2 ^ 1) with 2 in P. lia.
Qed.
Print Assumptions C107_documented_refuted.

(* four bits of age can be two: a colony of 8, not of 4, and nothing grows any more *)
Example C107_ex : exists c, calls 2 [0] [(0%nat, true); (0%nat, false); (0%nat, true); (2%nat, true); (0%nat, true); (2%nat, true); (4%nat, true); (6%nat, true); (5%nat, true)] = Some c /\
  length c = 8%nat /\ (forall a, In a c -> dup 2 a true = Some ([a], true)) /\ in_range 2 0 /\ 2 ^ (2 ^ (2 - 1)) = 4.
Proof.
  eexists. split; [vm_compute; reflexivity|]. split; [reflexivity|]. split; [|unfold in_range, oldest; cbn; lia].
  intros a A. repeat (destruct A as [<-|A]; [vm_compute; reflexivity|]). destruct A.
Qed.
