(* DefaultProofs.v: lemmas for DefaultTheorems.v. *)
From Coq Require Import String List NArith ZArith Lia Bool Permutation.
From Coq Require Import ZifyBool ZifyNat ZifyN.
From Verif Require Import Base TypeTableModel FamilyModel FamilyProofs BitVec UTypeModel AtomModel AtomSpec AtomProofs LayoutModel LayoutSpec LayoutTheorems DefaultModel DefaultSpec.
Import ListNotations.
Open Scope N_scope.

(* ---- bits ---- *)
Lemma bits_length v : List.length (bits8k v) = N.to_nat W8K.
Proof. apply msb_bits_length. Qed.
Lemma part_length p n l : (N.to_nat p + N.to_nat n <= List.length l)%nat -> List.length (part p n l) = N.to_nat n.
Proof. apply slice_length. Qed.
Lemma part_nth p n l x : (x < N.to_nat n)%nat -> nth x (part p n l) false = nth (N.to_nat p + x) l false.
Proof. apply slice_nth. Qed.
Lemma part_part p n q k l : q + k <= n -> part q k (part p n l) = part (p + q) k l.
Proof. intros. unfold part. rewrite slice_slice by lia. f_equal. lia. Qed.
Lemma front_part n v : front n v = part 0 n (bits8k v).
Proof. reflexivity. Qed.
Lemma part_front p k n v : p + k <= n -> part p k (front n v) = part p k (bits8k v).
Proof. intros. rewrite front_part, part_part by auto. f_equal. Qed.
Lemma front_length n v : n <= W8K -> List.length (front n v) = N.to_nat n.
Proof. intros. rewrite front_part. apply part_length. rewrite bits_length. lia. Qed.
Lemma part_ext p n l m : (N.to_nat p + N.to_nat n <= List.length l)%nat -> List.length m = N.to_nat n ->
  (forall x, (x < N.to_nat n)%nat -> nth (N.to_nat p + x) l false = nth x m false) -> part p n l = m.
Proof. intros HL HM H. apply list_nth_ext; rewrite part_length by auto; auto. intros x Hx. rewrite part_nth by auto. auto. Qed.
Lemma part_same p n l m : (N.to_nat p + N.to_nat n <= List.length l)%nat -> List.length m = List.length l ->
  (forall x, p <= x < p + n -> nth (N.to_nat x) l false = nth (N.to_nat x) m false) -> part p n l = part p n m.
Proof.
  intros HL HM H. apply part_ext; auto; [apply part_length; lia|]. intros x Hx. rewrite part_nth by auto.
  specialize (H (p + N.of_nat x)). replace (N.to_nat (p + N.of_nat x)) with (N.to_nat p + x)%nat in H by lia. apply H. lia.
Qed.
Lemma read_part p n v : p + n <= W8K -> bv_read W8K p n v = bval (part p n (bits8k v)).
Proof. intros. unfold part, bits8k. apply bv_read_slice. auto. Qed.
Lemma part_read p n u v : p + n <= W8K -> (part p n (bits8k u) = part p n (bits8k v) <-> bv_read W8K p n u = bv_read W8K p n v).
Proof.
  intros H. rewrite !read_part by auto. split; [congruence|]. intros E. apply bval_inj in E; auto. rewrite !part_length; rewrite ?bits_length; lia.
Qed.
Lemma write_nth p n v a x : p + n <= W8K -> nth (N.to_nat x) (bits8k (bv_write W8K p n v a)) false =
  if (p <=? x) && (x <? p + n) then nth (N.to_nat (x - p)) (msb_bits (N.to_nat n) v) false else nth (N.to_nat x) (bits8k a) false.
Proof.
  intros H. unfold bits8k. rewrite bv_write_splice by auto. rewrite splice_nth by (rewrite !msb_bits_length; lia). rewrite msb_bits_length.
  replace (N.to_nat p <=? N.to_nat x)%nat with (p <=? x) by lia. replace (N.to_nat x <? N.to_nat p + N.to_nat n)%nat with (x <? p + n) by lia.
  replace (N.to_nat (x - p)) with (N.to_nat x - N.to_nat p)%nat by lia. reflexivity.
Qed.
Lemma write_part p n v a : p + n <= W8K -> part p n (bits8k (bv_write W8K p n v a)) = msb_bits (N.to_nat n) v.
Proof.
  intros H. unfold part, bits8k. rewrite bv_write_splice by auto. rewrite <- (msb_bits_length (N.to_nat n) v) at 1. apply slice_splice_same. rewrite !msb_bits_length. lia.
Qed.
Lemma write_other p n v a q k : p + n <= W8K -> q + k <= W8K -> q + k <= p \/ p + n <= q -> part q k (bits8k (bv_write W8K p n v a)) = part q k (bits8k a).
Proof. intros. apply part_read; auto. apply bv_read_write_other; auto. Qed.
Lemma copyBV_some src f t n dst r : copyBV src f t n dst = Some r <-> f + n <= W8K /\ t + n <= W8K /\ r = bv_write W8K t n (bv_read W8K f n src) dst.
Proof.
  unfold copyBV, guard. destruct ((f + n <=? W8K) && (t + n <=? W8K)) eqn:E; cbn [bind]; split.
  - intros H. injection H as <-. split; [lia|]. split; [lia|]. reflexivity.
  - intros (_ & _ & ->). reflexivity.
  - discriminate.
  - lia.
Qed.
Lemma copyBV_ok src f t n dst : f + n <= W8K -> t + n <= W8K -> copyBV src f t n dst = Some (bv_write W8K t n (bv_read W8K f n src) dst).
Proof. intros. apply copyBV_some. auto. Qed.
Lemma read_bits p n v : p + n <= W8K -> msb_bits (N.to_nat n) (bv_read W8K p n v) = part p n (bits8k v).
Proof. intros. unfold part, bits8k. apply bv_read_bits. auto. Qed.
Lemma zero_bits : bits8k 0 = zeros W8K.
Proof.
  unfold zeros, bits8k. generalize (N.to_nat W8K). induction n; cbn [msb_bits repeat]; [auto|]. rewrite IHn, ?N.bits_0. reflexivity.
Qed.
Lemma zeros_length n : List.length (zeros n) = N.to_nat n.
Proof. apply repeat_length. Qed.
Lemma zeros_nth x n : nth x (zeros n) false = false.
Proof. unfold zeros. generalize (N.to_nat n). intros k. revert x. induction k; intros [|x]; cbn; auto. Qed.
Lemma part_zeros p n k : p + n <= k -> part p n (zeros k) = zeros n.
Proof. intros. apply part_ext; rewrite ?zeros_length; try lia. intros. rewrite !zeros_nth. auto. Qed.

(* ---- induction over initialisers ---- *)
Lemma cinit_ind' (P : cinit -> Prop) : P CKeep -> (forall v, P (CNumber v)) -> (forall v, P (CValue v)) ->
  (forall l, (forall a i e, In (a, i, e) l -> P e) -> P (CMembers l)) -> (forall l, (forall e, In e l -> P e) -> P (CItems l)) -> forall e, P e.
Proof.
  intros H1 H2 H3 H4 H5. fix IH 1. intros [ |v|v|l|l]; [exact H1|apply H2|apply H3|apply H4|apply H5].
  - induction l as [|[[b j] e'] l IHl]; intros a i e HI; [destruct HI|]. destruct HI as [E|HI]; [|exact (IHl a i e HI)].
    injection E as _ _ <-. apply IH.
  - induction l as [|e' l IHl]; intros e HI; [destruct HI|]. destruct HI as [<-|HI]; [apply IH|exact (IHl e HI)].
Qed.

Lemma size_one m : item_size m = one_size m.
Proof. unfold item_size, item_type, one_size, getSizeofUlamType, getTotalBitSize, items. cbn. destruct (mt_element m); lia. Qed.
Lemma size_member m : member_size m = nitems m * one_size m.
Proof. unfold member_size, nitems, one_size. destruct (mt_array m), (mt_element m); auto. Qed.
Lemma size_of_one m : member_size (one m) = one_size m.
Proof. rewrite size_member. unfold nitems, one, one_size. cbn [mt_array mt_element mt_bits]. apply N.mul_1_l. Qed.

(* ---- arrays ---- *)
Lemma prim_items_ok w : forall l i bv bv', prim_items w l i bv = Some bv' -> (i + N.of_nat (List.length l)) * w <= W8K \/ l = [] ->
  (forall j e, nth_error l j = Some e -> exists v, e = CNumber v /\ part ((i + N.of_nat j) * w) w (bits8k bv') = msb_bits (N.to_nat w) v) /\
  (forall x, x < i * w \/ (i + N.of_nat (List.length l)) * w <= x -> nth (N.to_nat x) (bits8k bv') false = nth (N.to_nat x) (bits8k bv) false).
Proof.
  induction l as [|e l IH]; intros i bv bv' E HB.
  - cbn in E. injection E as <-. split; auto. intros [|j] e; discriminate.
  - destruct HB as [HB|]; [|discriminate]. cbn [List.length] in *. destruct e; try discriminate. cbn [prim_items] in E. unfold guard in E. destruct ((i + 1) * w <=? W8K) eqn:EB; [cbn [bind] in E|discriminate].
    destruct (IH _ _ _ E) as (H1 & H2); [left; nia|]. split.
    + intros [|j] e; cbn [nth_error].
      * intros Eq. injection Eq as <-. exists v. split; auto. rewrite N.add_0_r. rewrite <- (write_part (i * w) w v bv) by nia.
        apply part_same; rewrite ?bits_length; try nia. intros x Hx. apply H2. left. nia.
      * intros Ej. destruct (H1 _ _ Ej) as (u & -> & Hu). exists u. split; auto. rewrite <- Hu. f_equal. lia.
    + intros x Hx. rewrite H2 by nia. rewrite write_nth by nia. replace ((i * w <=? x) && (x <? i * w + w)) with false by nia. reflexivity.
Qed.
Lemma prim_rest_ok w last : forall fuel i bv bv', prim_rest fuel w i last bv = Some bv' ->
  (forall j, i <= j < i + N.of_nat fuel -> part (j * w) w (bits8k bv') = msb_bits (N.to_nat w) last) /\
  (forall x, x < i * w \/ (i + N.of_nat fuel) * w <= x -> nth (N.to_nat x) (bits8k bv') false = nth (N.to_nat x) (bits8k bv) false).
Proof.
  induction fuel as [|f IH]; intros i bv bv' E.
  - cbn in E. injection E as <-. split; auto. lia.
  - cbn [prim_rest] in E. unfold guard in E. destruct ((i + 1) * w <=? W8K) eqn:EB; [cbn [bind] in E|discriminate].
    destruct (IH _ _ _ E) as (H1 & H2). split.
    + intros j Hj. destruct (N.eq_dec j i) as [->|]; [|apply H1; lia]. rewrite <- (write_part (i * w) w last bv) by nia.
      apply part_same; rewrite ?bits_length; try nia. intros x Hx. apply H2. left. nia.
    + intros x Hx. rewrite H2 by nia. rewrite write_nth by nia. replace ((i * w <=? x) && (x <? i * w + w)) with false by nia. reflexivity.
Qed.
Lemma class_rest_ok w last : forall fuel i bv bv', class_rest fuel w i last bv = Some bv' ->
  (forall j, i <= j < i + N.of_nat fuel -> part (j * w) w (bits8k bv') = front w last) /\
  (forall x, x < i * w \/ (i + N.of_nat fuel) * w <= x -> nth (N.to_nat x) (bits8k bv') false = nth (N.to_nat x) (bits8k bv) false).
Proof.
  induction fuel as [|f IH]; intros i bv bv' E.
  - cbn in E. injection E as <-. split; auto. lia.
  - cbn [class_rest] in E. destruct (copyBV last 0 (i * w) w bv) as [b1|] eqn:EC; [cbn [bind] in E|discriminate]. apply copyBV_some in EC. destruct EC as (B1 & B2 & ->).
    destruct (IH _ _ _ E) as (H1 & H2). split.
    + intros j Hj. destruct (N.eq_dec j i) as [->|]; [|apply H1; lia]. rewrite front_part, <- (read_bits 0 w last), <- (write_part (i * w) w (bv_read W8K 0 w last) bv) by nia.
      apply part_same; rewrite ?bits_length; try nia. intros x Hx. apply H2. left. nia.
    + intros x Hx. rewrite H2 by nia. rewrite write_nth by nia. replace ((i * w <=? x) && (x <? i * w + w)) with false by nia. reflexivity.
Qed.

Lemma mask_zero p n v : p + n <= W8K -> bv_read W8K p n v = 0 -> forall x, p <= x < p + n -> nth (N.to_nat x) (bits8k v) false = false.
Proof.
  intros HB H x Hx. assert (bv_read W8K p n 0 = 0) as H0 by (unfold bv_read; rewrite N.shiftr_0_l; apply N.mod_0_l; apply N.pow_nonzero; lia).
  rewrite <- H0 in H. apply part_read in H; auto. rewrite zero_bits, part_zeros in H by auto.
  assert (nth (N.to_nat (x - p)) (part p n (bits8k v)) false = false) as E by (rewrite H; apply zeros_nth).
  rewrite part_nth in E by lia. replace (N.to_nat x) with (N.to_nat p + N.to_nat (x - p))%nat by lia. exact E.
Qed.
Lemma ones_nth n x : (x < N.to_nat n)%nat -> nth x (msb_bits (N.to_nat n) (N.ones n)) false = true.
Proof. intros. rewrite msb_bits_nth by auto. apply N.ones_spec_low. lia. Qed.

Section Lists.
Variable root : N -> N.
Variable classes : N -> option lclass.
Variable compare : N -> N -> cmp.
Variable members : N -> list dmember.
Notation find := (findMember root classes compare members).
Notation pre_of ref q n := (bv_write W8K 0 n (bv_read W8K q n ref) 0).

Section Value.
Variable value : cinit -> option N -> mtype -> N -> option N.
Lemma init_members_ok c : forall l ref mask ref', init_members root classes compare members value c l ref mask = Some ref' ->
  (forall p dc i e, nth_error l p = Some (dc, i, e) -> exists m d q v, find c dc i = Some (m, d, q) /\ q + member_size m <= W8K /\
     value e (dm_class d) m (pre_of ref q (member_size m)) = Some v /\ member_size m <= W8K /\ part q (member_size m) (bits8k ref') = front (member_size m) v /\
     forall x, q <= x < q + member_size m -> nth (N.to_nat x) (bits8k mask) false = false) /\
  (forall x, (forall dc i e m d q, In (dc, i, e) l -> find c dc i = Some (m, d, q) -> x < q \/ q + member_size m <= x) -> nth (N.to_nat x) (bits8k ref') false = nth (N.to_nat x) (bits8k ref) false) /\
  (forall x, nth (N.to_nat x) (bits8k mask) false = true -> nth (N.to_nat x) (bits8k ref') false = nth (N.to_nat x) (bits8k ref) false) /\
  (forall p p' dc i e dc' i' e' m d q m' d' q' x, nth_error l p = Some (dc, i, e) -> nth_error l p' = Some (dc', i', e') -> p <> p' ->
     find c dc i = Some (m, d, q) -> find c dc' i' = Some (m', d', q') -> q <= x < q + member_size m -> q' <= x < q' + member_size m' -> False).
Proof.
  induction l as [|[[dc i] e] l IH]; intros ref mask ref' E; cbn [init_members] in E.
  - injection E as <-. split; [intros [|p]; discriminate|]. split; auto. split; auto. intros [|p]; discriminate.
  - destruct (find c dc i) as [[[m d] q]|] eqn:EF; [|discriminate]. rewrite member_sizeof in E. set (n := member_size m) in *.
    unfold guard in E. destruct (q + n <=? W8K) eqn:EB; [cbn [bind] in E|discriminate]. apply N.leb_le in EB. destruct (bv_read W8K q n mask =? 0) eqn:EM; [cbn [bind] in E|discriminate]. apply N.eqb_eq in EM.
    destruct (copyBV ref q 0 n 0) as [pre|] eqn:EC; [cbn [bind] in E|discriminate]. apply copyBV_some in EC. destruct EC as (_ & _ & ->).
    destruct (value e (dm_class d) m (pre_of ref q n)) as [v|] eqn:EV; [cbn [bind] in E|discriminate].
    destruct (copyBV v 0 q n ref) as [ref1|] eqn:EC; [cbn [bind] in E|discriminate]. apply copyBV_some in EC. destruct EC as (_ & _ & ->).
    set (ref1 := bv_write W8K q n (bv_read W8K 0 n v) ref) in *. set (mask1 := bv_write W8K q n (N.ones n) mask) in *.
    destruct (IH _ _ _ E) as (H1 & H2 & H3 & H4).
    assert (forall x, q <= x < q + n -> nth (N.to_nat x) (bits8k mask1) false = true) as HM.
    { intros x Hx. unfold mask1. rewrite write_nth by auto. replace ((q <=? x) && (x <? q + n)) with true by lia. apply ones_nth. lia. }
    assert (forall x, x < q \/ q + n <= x -> nth (N.to_nat x) (bits8k ref1) false = nth (N.to_nat x) (bits8k ref) false) as HO.
    { intros x Hx. unfold ref1. rewrite write_nth by auto. replace ((q <=? x) && (x <? q + n)) with false by lia. auto. }
    assert (forall x, x < q \/ q + n <= x -> nth (N.to_nat x) (bits8k mask1) false = nth (N.to_nat x) (bits8k mask) false) as HO'.
    { intros x Hx. unfold mask1. rewrite write_nth by auto. replace ((q <=? x) && (x <? q + n)) with false by lia. auto. }
    assert (forall p' dc' i' e', nth_error l p' = Some (dc', i', e') -> forall m' d' q', find c dc' i' = Some (m', d', q') -> forall x, q <= x < q + n -> q' <= x < q' + member_size m' -> False) as HD.
    { intros p' dc' i' e' Hp m' d' q' EF' x Hx Hx'. destruct (H1 _ _ _ _ Hp) as (m2 & d2 & q2 & v2 & EF2 & _ & _ & _ & _ & HZ). rewrite EF' in EF2. injection EF2 as <- <- <-.
      specialize (HZ x Hx'). rewrite HM in HZ by auto. discriminate. }
    split; [|split; [|split]].
    + intros [|p] dc' i' e'; cbn [nth_error].
      * intros Eq. injection Eq as <- <- <-. exists m, d, q, v. fold n. split; auto. split; auto. split; auto. split; [lia|]. split; [|apply (mask_zero _ _ _ EB EM)].
        rewrite front_part, <- (read_bits 0 n v), <- (write_part q n (bv_read W8K 0 n v) ref) by lia. apply part_same; rewrite ?bits_length; try lia. intros x Hx. apply H3. apply HM. auto.
      * intros Hp. destruct (H1 _ _ _ _ Hp) as (m2 & d2 & q2 & v2 & EF2 & B2 & EV2 & B3 & EP2 & HZ). exists m2, d2, q2, v2. split; auto. split; auto. set (n2 := member_size m2) in *.
        assert (forall x, q2 <= x < q2 + n2 -> x < q \/ q + n <= x) as HX.
        { intros x Hx. destruct (N.lt_ge_cases x q); auto. destruct (N.lt_ge_cases x (q + n)); auto. exfalso. apply (HD _ _ _ _ Hp _ _ _ EF2 x); auto. }
        split; [|split; [auto|split; [exact EP2|]]].
        -- rewrite <- EV2. f_equal. f_equal. apply part_read; auto. apply part_same; rewrite ?bits_length; try lia. intros x Hx. symmetry. apply HO. auto.
        -- intros x Hx. rewrite <- HO' by auto. apply HZ. auto.
    + intros x Hx. rewrite H2.
      * apply HO. apply (Hx dc i e m d q); auto. left. auto.
      * intros dc' i' e' m' d' q' HI. apply (Hx dc' i' e'). right. auto.
    + intros x Hx. rewrite H3.
      * apply HO. destruct (N.lt_ge_cases x q); auto. destruct (N.lt_ge_cases x (q + n)); auto. rewrite (mask_zero _ _ _ EB EM) in Hx by auto. discriminate.
      * destruct (N.lt_ge_cases x q); [rewrite HO'; auto|]. destruct (N.lt_ge_cases x (q + n)); [apply HM; auto|rewrite HO'; auto].
    + intros [|p] [|p'] dc1 i1 e1 dc2 i2 e2 m1 d1 q1 m2 d2 q2 x; cbn [nth_error]; intros Ep Ep' NE EF1 EF2 Hx Hx'.
      * destruct NE; auto.
      * injection Ep as <- <- <-. rewrite EF in EF1. injection EF1 as <- <- <-. apply (HD _ _ _ _ Ep' _ _ _ EF2 x); auto.
      * injection Ep' as <- <- <-. rewrite EF in EF2. injection EF2 as <- <- <-. apply (HD _ _ _ _ Ep _ _ _ EF1 x); auto.
      * apply (H4 p p' dc1 i1 e1 dc2 i2 e2 m1 d1 q1 m2 d2 q2 x); auto.
Qed.

(* conversely: the list is accepted if its members are disjoint and have values *)
Lemma init_members_total c : forall l ref mask,
  (forall dc i e, In (dc, i, e) l -> exists m d q, find c dc i = Some (m, d, q) /\ q + member_size m <= W8K /\ (forall pre, exists v, value e (dm_class d) m pre = Some v) /\
     bv_read W8K q (member_size m) mask = 0) ->
  (forall p p' dc i e dc' i' e' m d q m' d' q', nth_error l p = Some (dc, i, e) -> nth_error l p' = Some (dc', i', e') -> (p < p')%nat ->
     find c dc i = Some (m, d, q) -> find c dc' i' = Some (m', d', q') -> member_size m' = 0 \/ member_size m = 0 \/ q' + member_size m' <= q \/ q + member_size m <= q') ->
  exists ref', init_members root classes compare members value c l ref mask = Some ref'.
Proof.
  induction l as [|[[dc i] e] l IH]; intros ref mask HV HD; cbn [init_members]; [eauto|].
  destruct (HV dc i e (or_introl eq_refl)) as (m & d & q & EF & EB & EV & EM). rewrite EF, member_sizeof. unfold guard. replace (q + member_size m <=? W8K) with true by lia. cbn [bind]. rewrite EM, N.eqb_refl. cbn [bind].
  rewrite copyBV_ok by lia. cbn [bind]. destruct (EV (pre_of ref q (member_size m))) as [v Ev]. rewrite Ev. cbn [bind]. rewrite copyBV_ok by lia. cbn [bind]. apply IH.
  - intros dc' i' e' HI. destruct (HV dc' i' e' (or_intror HI)) as (m' & d' & q' & EF' & EB' & EV' & EM'). exists m', d', q'. split; auto. split; auto. split; auto.
    apply In_nth_error in HI. destruct HI as [p' HI].
    destruct (HD 0%nat (S p') dc i e dc' i' e' m d q m' d' q' eq_refl HI ltac:(lia) EF EF') as [EZ|[EZ|HD']].
    + rewrite EZ. unfold bv_read. rewrite N.pow_0_r, N.mod_1_r. reflexivity.
    + rewrite EZ. assert (bv_read W8K q' (member_size m') (bv_write W8K q 0 (N.ones 0) mask) = bv_read W8K q' (member_size m') mask) as ->; [|auto].
      apply part_read; auto. apply part_same; rewrite ?bits_length; [lia|reflexivity|]. intros x Hx. rewrite write_nth by lia. replace ((q <=? x) && (x <? q + 0)) with false by lia. reflexivity.
    + rewrite bv_read_write_other; auto.
  - intros p p' dc1 i1 e1 dc2 i2 e2 m1 d1 q1 m2 d2 q2 H1 H2 HL. apply (HD (S p) (S p') dc1 i1 e1 dc2 i2 e2 m1 d1 q1 m2 d2 q2); auto. lia.
Qed.

Lemma class_items_ok c m : forall l i bv bv', class_items value c m l i bv = Some bv' ->
  (forall j e, nth_error l j = Some e -> exists v, value e (Some c) (item_type m) (pre_of bv ((i + N.of_nat j) * one_size m) (one_size m)) = Some v /\
     (i + N.of_nat j) * one_size m + one_size m <= W8K /\ part ((i + N.of_nat j) * one_size m) (one_size m) (bits8k bv') = front (one_size m) v) /\
  (forall x, x < i * one_size m \/ (i + N.of_nat (List.length l)) * one_size m <= x -> nth (N.to_nat x) (bits8k bv') false = nth (N.to_nat x) (bits8k bv) false).
Proof.
  induction l as [|e l IH]; intros i bv bv' E; cbn [class_items] in E.
  - injection E as <-. split; auto. intros [|j] e; discriminate.
  - rewrite size_one in E. set (w := one_size m) in *. cbn [List.length].
    destruct (copyBV bv (i * w) 0 w 0) as [pre|] eqn:EC; [cbn [bind] in E|discriminate]. apply copyBV_some in EC. destruct EC as (B1 & B2 & ->).
    destruct (value e (Some c) (item_type m) (pre_of bv (i * w) w)) as [v|] eqn:EV; [cbn [bind] in E|discriminate].
    destruct (copyBV v 0 (i * w) w bv) as [b1|] eqn:EC; [cbn [bind] in E|discriminate]. apply copyBV_some in EC. destruct EC as (_ & _ & ->).
    destruct (IH _ _ _ E) as (H1 & H2). split.
    + intros [|j] e'; cbn [nth_error].
      * intros Eq. injection Eq as <-. exists v. rewrite N.add_0_r. split; auto. split; auto. rewrite front_part, <- (read_bits 0 w v), <- (write_part (i * w) w (bv_read W8K 0 w v) bv) by auto.
        apply part_same; rewrite ?bits_length; try lia. intros x Hx. apply H2. left. nia.
      * intros Ej. destruct (H1 _ _ Ej) as (u & Hu & Hb & Hp). replace (i + 1 + N.of_nat j) with (i + N.of_nat (S j)) in * by lia. exists u. split; [|split; auto].
        rewrite <- Hu. f_equal. f_equal. symmetry. apply bv_read_write_other; auto. right. nia.
    + intros x Hx. rewrite H2 by nia. rewrite write_nth by auto. replace ((i * w <=? x) && (x <? i * w + w)) with false by nia. auto.
Qed.
Lemma class_items_total c m : forall l i bv, (forall e, In e l -> forall pre, exists v, value e (Some c) (item_type m) pre = Some v) ->
  (i + N.of_nat (List.length l)) * one_size m <= W8K -> exists bv', class_items value c m l i bv = Some bv'.
Proof.
  induction l as [|e l IH]; intros i bv HV HB; cbn [class_items]; [eauto|]. cbn [List.length] in HB. rewrite size_one.
  rewrite copyBV_ok by nia. cbn [bind]. destruct (HV e (or_introl eq_refl) (pre_of bv (i * one_size m) (one_size m))) as [v Ev]. rewrite Ev. cbn [bind]. rewrite copyBV_ok by nia. cbn [bind].
  apply IH; [auto using in_cons|]. nia.
Qed.
End Value.
Lemma class_rest_total w last : forall fuel i bv, (i + N.of_nat fuel) * w <= W8K -> w <= W8K -> exists bv', class_rest fuel w i last bv = Some bv'.
Proof. induction fuel as [|f IH]; intros i bv HB HW; cbn [class_rest]; [eauto|]. rewrite copyBV_ok by nia. cbn [bind]. apply IH; auto. nia. Qed.
Lemma prim_items_total w : forall l i bv, (forall e, In e l -> exists v, e = CNumber v) -> (i + N.of_nat (List.length l)) * w <= W8K -> exists bv', prim_items w l i bv = Some bv'.
Proof.
  induction l as [|e l IH]; intros i bv HV HB; cbn [prim_items]; [eauto|]. destruct (HV e (or_introl eq_refl)) as [v ->]. cbn [List.length] in HB. unfold guard.
  replace ((i + 1) * w <=? W8K) with true by nia. cbn [bind]. apply IH; [auto using in_cons|]. nia.
Qed.
Lemma prim_rest_total w last : forall fuel i bv, (i + N.of_nat fuel) * w <= W8K -> exists bv', prim_rest fuel w i last bv = Some bv'.
Proof. induction fuel as [|f IH]; intros i bv HB; cbn [prim_rest]; [eauto|]. unfold guard. replace ((i + 1) * w <=? W8K) with true by nia. cbn [bind]. apply IH. nia. Qed.
End Lists.
