(* PickTheorems.v: C89. *)
From Coq Require Import List NArith ZArith Lia Bool.
From Coq Require Import ZifyBool ZifyNat ZifyN.
From Verif Require Import Base UTypeModel PrimModel StdNumModel PickModel PickSpec.
Import ListNotations.
Open Scope Z_scope.

Lemma clampU w z : clamp EUnsigned w z = Z.max 0 (Z.min (2 ^ w - 1) z).
Proof. reflexivity. Qed.

(* ---- counting ---- *)
Section Count.
Context {A : Type}.
Variable p : A -> bool.
Lemma times_app l r : times p (l ++ r) = times p l + times p r.
Proof. unfold times. rewrite filter_app, app_length. lia. Qed.
Lemma times_const {B} (f : B -> list A) l n : (forall x, In x l -> times p (f x) = n) -> times p (flat_map f l) = Z.of_nat (List.length l) * n.
Proof.
  induction l as [|x l IH]; intros H; [reflexivity|]. cbn [flat_map List.length]. rewrite times_app, (H x), IH by (cbn; auto; intros; apply H; cbn; auto). lia.
Qed.
Lemma times_draws {B} (f : B -> list A) w n (a b : B) : 0 <= w <= n ->
  times p (flat_map f (map (fun d => if d <? w then a else b) (draws n))) = w * times p (f a) + (n - w) * times p (f b).
Proof.
  intros H. unfold draws. replace (Z.to_nat n) with (Z.to_nat w + Z.to_nat (n - w))%nat by lia. rewrite seq_app, !map_app, flat_map_app, times_app, !map_map.
  rewrite !flat_map_concat_map, !map_map, <- !flat_map_concat_map.
  rewrite (times_const _ (seq 0 _) (times p (f a))), (times_const _ (seq (0 + _) _) (times p (f b))).
  - rewrite !seq_length. rewrite !Z2Nat.id by lia. reflexivity.
  - intros x Hx. apply in_seq in Hx. replace (Z.of_nat x <? w) with false by lia. reflexivity.
  - intros x Hx. apply in_seq in Hx. replace (Z.of_nat x <? w) with true by lia. reflexivity.
Qed.
End Count.
Lemma times_all {A} (l : list A) : times (fun _ => true) l = Z.of_nat (List.length l).
Proof. unfold times. f_equal. f_equal. induction l; cbn; congruence. Qed.
Lemma draws_nil n : 0 < n -> draws n <> [].
Proof. intros H E. apply (f_equal (@List.length Z)) in E. unfold draws in E. rewrite map_length, seq_length in E. cbn in E. lia. Qed.
Lemma draws_in n d : In d (draws n) <-> 0 <= d < n.
Proof. unfold draws. rewrite in_map_iff. split; [intros (k & <- & H); apply in_seq in H; lia|intros H; exists (Z.to_nat d); split; [lia|apply in_seq; lia]]. Qed.
Lemma flat_map_nil {A B} (f : A -> list B) l : l <> [] -> (forall x, In x l -> f x <> []) -> flat_map f l <> [].
Proof. destruct l as [|x l]; [congruence|]. intros _ H E. cbn in E. apply app_eq_nil in E as [E _]. apply (H x); cbn; auto. Qed.
Lemma votes_pos l : (forall x, In x l -> 0 <= snd x) -> 0 <= all_votes l.
Proof. induction l as [|x l IH]; intros H; cbn; [lia|]. pose proof (H x (or_introl eq_refl)). specialize (IH ltac:(intros; apply H; cbn; auto)). fold (all_votes l). lia. Qed.

(* ---- WindowScanner ---- *)
(* a category in which every vote counts as it is: the linear ones, and those for the greatest while all weights are the greatest so far *)
Definition plain (c : cat) (l : list (Z * Z)) : Prop := c_ismax c = false \/ forall x, In x l -> snd x = c_max c.
Lemma plain_step c sn w l : plain c ((sn, w) :: l) -> 0 <= c_weight c -> 0 <= w -> c_weight c + w < 2 ^ 32 ->
  categorize c sn w = (let n := c_weight c + w in if n =? 0 then [mkCat (c_site c) n (c_ismax c) (c_max c)] else
    map (fun d => if d <? w then mkCat sn n (c_ismax c) (c_max c) else mkCat (c_site c) n (c_ismax c) (c_max c)) (draws n)).
Proof.
  intros P HW Hw HS. unfold categorize. assert (clamp EUnsigned 32 (c_weight c + w) = c_weight c + w) as EC by (rewrite clampU; lia).
  destruct P as [P|P].
  - rewrite P. cbn [c_weight c_site c_ismax c_max]. rewrite EC, ?P. reflexivity.
  - specialize (P (sn, w) (or_introl eq_refl)). cbn in P. rewrite P. replace (c_max c <? c_max c) with false by lia. replace (c_max c >? c_max c) with false by lia. destruct (c_ismax c) eqn:EM; cbn [c_weight c_site c_ismax c_max]; rewrite <- P, EC, ?EM; reflexivity.
Qed.
Lemma plain_tail c x l s W : plain c (x :: l) -> plain (mkCat s W (c_ismax c) (c_max c)) l.
Proof. intros [P|P]; [left; auto|right]. cbn. intros y Hy. apply P. right. auto. Qed.

Lemma visits_fair l : forall c, plain c l -> 0 <= c_weight c -> (forall x, In x l -> 0 <= snd x) -> c_weight c + all_votes l < 2 ^ 32 ->
  (forall s', times (fun _ => true) (visits l c) = times (fun _ => true) (visits l (mkCat s' (c_weight c) (c_ismax c) (c_max c)))) /\
  (forall s, times (fun o => getSiteNum o =? s) (visits l c) * (c_weight c + all_votes l) =
    ((if c_site c =? s then c_weight c else 0) + votes s l) * times (fun _ => true) (visits l c)) /\
  (forall o, In o (visits l c) -> getHits o = c_weight c + all_votes l) /\ visits l c <> [].
Proof.
  induction l as [|[sn w] l IH]; intros c P HW HP HS.
  - cbn [visits all_votes votes fold_right]. split; [reflexivity|]. split; [|split; [|discriminate]]. { intros s. unfold times, getSiteNum. cbn [filter]. destruct (c_site c =? s); cbn [List.length]; lia. } intros o [<-|[]]. unfold getHits. lia.
  - pose proof (HP (sn, w) (or_introl eq_refl)) as Hw. cbn [snd] in Hw. assert (forall x, In x l -> 0 <= snd x) as HP' by (intros; apply HP; cbn; auto). pose proof (votes_pos l HP') as HV.
    cbn [all_votes fold_right snd] in HS. fold (all_votes l) in HS.
    assert (forall s', visits ((sn, w) :: l) (mkCat s' (c_weight c) (c_ismax c) (c_max c)) = flat_map (visits l) (let n := c_weight c + w in if n =? 0 then [mkCat s' n (c_ismax c) (c_max c)] else
      map (fun d => if d <? w then mkCat sn n (c_ismax c) (c_max c) else mkCat s' n (c_ismax c) (c_max c)) (draws n))) as HE.
    { intros s'. cbn [visits]. rewrite (plain_step (mkCat s' _ _ _) sn w l); cbn [c_weight c_site c_ismax c_max]; auto; lia. }
    pose proof (HE (c_site c)) as HEC. replace (mkCat (c_site c) (c_weight c) (c_ismax c) (c_max c)) with c in HEC by (destruct c; reflexivity).
    rewrite HEC. clear HEC. cbv zeta in HE |- *. assert (forall s', plain (mkCat s' (c_weight c + w) (c_ismax c) (c_max c)) l) as PT by (intros; eapply plain_tail; eauto).
    assert (forall s', _) as IH' by (intros s'; exact (IH _ (PT s') ltac:(cbn; lia) HP' ltac:(cbn; lia))). clear IH. cbn [c_weight c_site c_ismax c_max] in IH'.
    assert (forall a b, times (fun _ => true) (visits l (mkCat a (c_weight c + w) (c_ismax c) (c_max c))) = times (fun _ => true) (visits l (mkCat b (c_weight c + w) (c_ismax c) (c_max c)))) as HL by (intros; apply (IH' a)).
    cbn [all_votes votes fold_right fst snd]. fold (all_votes l). split; [|split; [|split]].
    + intros s'. rewrite HE. destruct (Z.eqb_spec (c_weight c + w) 0). { cbn [flat_map]. rewrite !app_nil_r. apply HL. } rewrite !times_draws by lia. rewrite (HL (c_site c) s'). reflexivity.
    + intros s. fold (votes s l). destruct (Z.eqb_spec (c_weight c + w) 0) as [E0|E0].
      { cbn [flat_map]. rewrite app_nil_r. destruct (IH' (c_site c)) as (_ & H & _). specialize (H s). assert (c_weight c = 0 /\ w = 0) as [E1 E2] by lia. rewrite E1, E2 in *. cbn [Z.add] in *. rewrite H. destruct (c_site c =? s), (sn =? s); ring. }
      rewrite !times_draws by lia. rewrite (HL (c_site c) sn). destruct (IH' (c_site c)) as (_ & H1 & _). destruct (IH' sn) as (_ & H2 & _). specialize (H1 s). specialize (H2 s). rewrite (HL (c_site c) sn) in H1.
      set (P0 := times (fun _ => true) _) in *. set (a := times (fun o => getSiteNum o =? s) (visits l (mkCat sn (c_weight c + w) (c_ismax c) (c_max c)))) in *. set (b := times (fun o => getSiteNum o =? s) (visits l (mkCat (c_site c) (c_weight c + w) (c_ismax c) (c_max c)))) in *. set (W := c_weight c) in *. set (T := all_votes l) in *. set (R := votes s l) in *. clearbody P0 a b W T R.
      replace ((w * a + (W + w - w) * b) * (W + (w + T))) with (w * (a * (W + w + T)) + W * (b * (W + w + T))) by ring. rewrite H1, H2. destruct (c_site c =? s), (sn =? s); ring.
    + intros o HI. apply in_flat_map in HI as (x & HX & HI). replace (c_weight c + (w + all_votes l)) with (c_weight c + w + all_votes l) by lia. destruct (c_weight c + w =? 0). { destruct HX as [<-|[]]. exact (proj1 (proj2 (proj2 (IH' _))) _ HI). }
      apply in_map_iff in HX as (d & HX & _). destruct (d <? w); subst x; exact (proj1 (proj2 (proj2 (IH' _))) _ HI).
    + apply flat_map_nil. { destruct (Z.eqb_spec (c_weight c + w) 0); [discriminate|]. pose proof (draws_nil (c_weight c + w) ltac:(lia)). destruct (draws (c_weight c + w)); [congruence|discriminate]. }
      intros x HX. destruct (c_weight c + w =? 0). { destruct HX as [<-|[]]. apply IH'. } apply in_map_iff in HX as (d & HX & _). destruct (d <? w); subst x; apply IH'.
Qed.

(* A category that chooses by weight: whatever was chosen before, after a scan each site is as likely as its share of the weights. *)
Theorem C89_scanner : forall c l, c_ismax c = false -> (forall x, In x l -> 0 <= snd x) -> 0 < all_votes l < 2 ^ 32 ->
  fair getSiteNum (visits l (initScan c)) l /\ (forall o, In o (visits l (initScan c)) -> getHits o = all_votes l).
Proof.
  intros c l HC HP HV. destruct (visits_fair l (initScan c)) as (_ & H & HH & HN); cbn [initScan c_weight c_ismax c_max c_site]; auto; try lia. { left. auto. } split; [|exact HH]. split; auto.
  intros s. specialize (H s). cbn [initScan c_weight c_ismax c_max c_site] in H. rewrite times_all in H. cbn [Z.add] in H. destruct (noSite =? s); exact H.
Qed.
Print Assumptions C89_scanner.

(* Weights of more than 2^32 - 1 in all are not: of two sites with the greatest weight the second is always chosen. *)
Theorem C89_scanner_sum_refuted : exists l, (forall x, In x l -> 0 <= snd x < 2 ^ 32) /\ votes 1 l = votes 2 l /\ 0 < votes 1 l /\
  forall o, In o (visits l (initScan (mkCat noSite 0 false 0))) -> getSiteNum o = 2.
Proof.
  assert (exists m, m = 2 ^ 32 - 1) as (m & Em) by eauto. assert (0 < m < 2 ^ 32) as Hm by lia.
  assert (clamp EUnsigned 32 (m + m) = m) as EC by (rewrite clampU; lia). clear Em.
  exists [(1, m); (2, m)]. split; [|split; [|split]]. { intros x [<-|[<-|[]]]; cbn [snd]; lia. } { cbn; lia. } { cbn; lia. }
  intros o H. cbn [visits] in H. apply in_flat_map in H as (x & HX & H). apply in_flat_map in H as (y & HY & [<-|[]]).
  rewrite (plain_step _ 1 _ []) in HX by (cbn [initScan c_weight c_site c_ismax c_max]; try lia; left; reflexivity). cbv zeta in HX. cbn [initScan c_weight c_site c_ismax c_max] in HX.
  rewrite Z.add_0_l in HX. replace (m =? 0) with false in HX by lia. apply in_map_iff in HX as (d & <- & HD). apply draws_in in HD. replace (d <? m) with true in HY by lia.
  unfold categorize in HY. cbn [c_weight c_site c_ismax c_max] in HY. rewrite EC in HY. replace (m =? 0) with false in HY by lia.
  apply in_map_iff in HY as (e & <- & HE). apply draws_in in HE. replace (e <? m) with true by lia. reflexivity.
Qed.
Print Assumptions C89_scanner_sum_refuted.

Lemma visits_app l r c : visits (l ++ r) c = flat_map (visits r) (visits l c).
Proof.
  revert c. induction l as [|[sn w] l IH]; intros c; cbn [app visits]; [cbn; rewrite app_nil_r; reflexivity|].
  rewrite (flat_map_ext _ _ IH). generalize (categorize c sn w). intros k. induction k as [|x k IHk]; cbn; auto. rewrite flat_map_app, IHk. reflexivity.
Qed.
Lemma visits_max l : forall c m, c_ismax c = true -> 0 <= c_max c < m -> 0 <= c_weight c -> (forall x, In x l -> 0 <= snd x < m) ->
  visits l c <> [] /\ forall o, In o (visits l c) -> c_ismax o = true /\ 0 <= c_max o < m /\ 0 <= c_weight o.
Proof.
  induction l as [|[sn w] l IH]; intros c m HC HM HW HP. { cbn. split; [discriminate|]. intros o [<-|[]]. auto. }
  pose proof (HP (sn, w) (or_introl eq_refl)) as Hw. cbn [snd] in Hw. assert (forall x, In x l -> 0 <= snd x < m) as HP' by (intros; apply HP; cbn; auto).
  assert (forall o, In o (categorize c sn w) -> c_ismax o = true /\ 0 <= c_max o < m /\ 0 <= c_weight o) as HO.
  { unfold categorize. rewrite HC. intros o HI. set (q := if w <? c_max c then _ else _) in HI. assert (c_ismax (snd q) = true /\ 0 <= c_max (snd q) < m) as [Q1 Q2]. { unfold q. destruct (w <? c_max c); cbn; [auto|]. destruct (w >? c_max c); cbn; auto. } destruct q as [w' c']. cbn [snd] in *. cbn [c_weight c_site c_ismax c_max] in HI.
    assert (0 <= clamp EUnsigned 32 (c_weight c' + w)) as Q3 by (rewrite clampU; lia). destruct (clamp EUnsigned 32 (c_weight c' + w) =? 0). { destruct HI as [<-|[]]. cbn. auto. } apply in_map_iff in HI as (d & <- & _). destruct (d <? w); cbn; auto. }
  cbn [visits]. split.
  - apply flat_map_nil. { unfold categorize. destruct (if c_ismax c then _ else _) as [w' c']. cbn [c_weight c_site c_ismax c_max]. destruct (Z.eqb_spec (clamp EUnsigned 32 (c_weight c' + w)) 0); [discriminate|]. pose proof (draws_nil (clamp EUnsigned 32 (c_weight c' + w)) ltac:(rewrite clampU in *; lia)). destruct (draws _); [congruence|discriminate]. }
    intros x HX. destruct (HO x HX) as (A1 & A2 & A3). apply (IH x m); auto.
  - intros o HI. apply in_flat_map in HI as (x & HX & HI). destruct (HO x HX) as (A1 & A2 & A3). apply (IH x m); auto.
Qed.

(* A category for the greatest weight, if no smaller weight comes after the first of the greatest: the sites with the greatest weight,
   and no others, are equally likely. *)
Theorem C89_max_partial : forall c pre s0 m ties, c_ismax c = true -> c_max c = 0 -> 0 < m -> (forall x, In x pre -> 0 <= snd x < m) -> (forall x, In x ties -> snd x = m) ->
  all_votes ((s0, m) :: ties) < 2 ^ 32 ->
  fair getSiteNum (visits (pre ++ (s0, m) :: ties) (initScan c)) ((s0, m) :: ties) /\
  forall o, In o (visits (pre ++ (s0, m) :: ties) (initScan c)) -> getMax o = m.
Proof.
  intros c pre s0 m ties HC HM Hm HP HT HV. rewrite visits_app. destruct (visits_max pre (initScan c) m) as [N1 N2]; cbn [initScan c_ismax c_max c_weight]; auto; try lia.
  set (Y := visits pre (initScan c)) in *. clearbody Y.
  assert (0 <= all_votes ties) as HV0. { apply votes_pos. intros x Hx. rewrite (HT x Hx). lia. } assert (all_votes ((s0, m) :: ties) = m + all_votes ties) as EV by reflexivity. rewrite EV in HV.
  assert (forall o, In o Y -> visits ((s0, m) :: ties) o = flat_map (visits ties) (map (fun d => if d <? m then mkCat s0 m true m else mkCat (c_site o) m true m) (draws m))) as HY.
  { intros o HO. destruct (N2 o HO) as (A1 & A2 & A3). cbn [visits]. f_equal. unfold categorize. rewrite A1. replace (m <? c_max o) with false by lia. replace (m >? c_max o) with true by lia. cbn [c_weight c_site c_ismax c_max]. assert (clamp EUnsigned 32 (0 + m) = m) as -> by (rewrite clampU; lia). replace (m =? 0) with false by lia. reflexivity. }
  assert (forall p o, In o Y -> times p (visits ((s0, m) :: ties) o) = m * times p (visits ties (mkCat s0 m true m))) as HC1. { intros p o HO. rewrite (HY o HO), times_draws by lia. lia. }
  destruct (visits_fair ties (mkCat s0 m true m)) as (_ & F & _ & FN); cbn [c_weight c_ismax c_max c_site]; try lia. { right. exact HT. } cbn [c_weight c_ismax c_max c_site] in F.
  split; [split|].
  - apply flat_map_nil; auto. intros x HX E. specialize (HC1 (fun _ => true) x HX). rewrite E, times_all in HC1. cbn [List.length] in HC1. rewrite times_all in HC1. destruct (visits ties (mkCat s0 m true m)) as [|z zs]; [congruence|]. cbn [List.length] in HC1. lia.
  - intros s. rewrite <- times_all. rewrite !(times_const _ _ Y _ (HC1 _)). specialize (F s). rewrite EV. cbn [votes fold_right fst snd]. fold (votes s ties).
    set (n := Z.of_nat (List.length Y)). set (a := times _ _) in *. set (b := times (fun _ => true) _) in *. replace (n * (m * a) * (m + all_votes ties)) with (n * m * (a * (m + all_votes ties))) by ring. rewrite F. ring.
  - intros o HI. apply in_flat_map in HI as (x & HX & HI). rewrite (HY x HX) in HI. apply in_flat_map in HI as (y & HY' & HI). apply in_map_iff in HY' as (d & <- & HD). apply draws_in in HD. replace (d <? m) with true in HI by lia.
    assert (forall l c, (forall x, In x l -> snd x = m) -> c_ismax c = true -> c_max c = m -> forall o, In o (visits l c) -> getMax o = m) as G.
    { induction l as [|[sn w] l IH]; intros c0 HL E1 E2 o0 HI0. { destruct HI0 as [<-|[]]. unfold getMax. rewrite E1. auto. } cbn [visits] in HI0. apply in_flat_map in HI0 as (z & HZ & HI0). eapply (IH z); eauto; try (intros; apply HL; cbn; auto);
      pose proof (HL (sn, w) (or_introl eq_refl)) as Ew; cbn in Ew; subst w; unfold categorize in HZ; rewrite E1, E2 in HZ; replace (m <? m) with false in HZ by lia; replace (m >? m) with false in HZ by lia; cbn [c_weight c_site c_ismax c_max] in HZ;
      (destruct (_ =? 0); [destruct HZ as [<-|[]]; auto|]); apply in_map_iff in HZ as (e & <- & _); destruct (e <? m); auto. }
    exact (G ties (mkCat s0 m true m) HT eq_refl eq_refl o HI).
Qed.
Print Assumptions C89_max_partial.

(* A smaller weight after the greatest is chosen in three of eight cases. *)
Theorem C89_max_refuted : let l := [(1, 5); (2, 3)] in let os := visits l (initScan (mkCat noSite 0 true 0)) in
  times (fun o => getSiteNum o =? 2) os * 8 = 3 * Z.of_nat (List.length os) /\ times (fun o => getSiteNum o =? 2) os > 0.
Proof. vm_compute. auto. Qed.
Print Assumptions C89_max_refuted.
(* A second scan starts from the greatest weight of the first: it tells that weight, and the smaller of its own two is chosen too. *)
Theorem C89_rescan_refuted : exists c, In c (visits [(7, 9)] (initScan (mkCat noSite 0 true 0))) /\ let os := visits [(1, 3); (2, 5)] (initScan c) in
  (forall o, In o os -> getMax o = 9) /\ times (fun o => getSiteNum o =? 1) os * 8 = 3 * Z.of_nat (List.length os) /\ times (fun o => getSiteNum o =? 1) os > 0.
Proof.
  exists (mkCat 7 9 true 9). split; [vm_compute; auto|]. cbv zeta. split; [|vm_compute; auto]. intros o H. vm_compute in H. repeat destruct H as [<-|H]; try reflexivity. destruct H.
Qed.
Print Assumptions C89_rescan_refuted.

(* ---- WindowServices ---- *)
Lemma hits_fair l : forall s, 0 <= s_count s -> (forall x, In x l -> 0 < snd x) -> s_count s + all_votes l <= 255 ->
  (forall i, times (fun _ => true) (hits l s) = times (fun _ => true) (hits l (mkSlot (s_count s) i))) /\
  (forall i, times (fun o => s_chosen o =? i) (hits l s) * (s_count s + all_votes l) = ((if s_chosen s =? i then s_count s else 0) + votes i l) * times (fun _ => true) (hits l s)) /\
  (forall o, In o (hits l s) -> s_count o = s_count s + all_votes l) /\ hits l s <> [].
Proof.
  induction l as [|[sn w] l IH]; intros s HW HP HS.
  - cbn [hits all_votes votes fold_right]. split; [reflexivity|]. split; [|split; [|discriminate]]. { intros i. unfold times. cbn [filter]. destruct (s_chosen s =? i); cbn [List.length]; lia. } intros o [<-|[]]. lia.
  - pose proof (HP (sn, w) (or_introl eq_refl)) as Hw. cbn [snd] in Hw. assert (forall x, In x l -> 0 < snd x) as HP' by (intros; apply HP; cbn; auto). pose proof (votes_pos l ltac:(intros x Hx; specialize (HP' x Hx); lia)) as HV.
    cbn [all_votes fold_right snd] in HS. fold (all_votes l) in HS.
    assert (forall i, hits ((sn, w) :: l) (mkSlot (s_count s) i) = flat_map (hits l) (map (fun d => if d <? w then mkSlot (s_count s + w) sn else mkSlot (s_count s + w) i) (draws (s_count s + w)))) as HE.
    { intros i. cbn [hits]. unfold hit. cbn [s_count s_chosen]. assert (clamp EUnsigned 8 (clamp EUnsigned 32 (s_count s + w)) = s_count s + w) as -> by (rewrite !clampU; lia). reflexivity. }
    pose proof (HE (s_chosen s)) as HEC. replace (mkSlot (s_count s) (s_chosen s)) with s in HEC by (destruct s; reflexivity). rewrite HEC. clear HEC.
    assert (forall i, _) as IH' by (intros i; exact (IH (mkSlot (s_count s + w) i) ltac:(cbn; lia) HP' ltac:(cbn; lia))). clear IH. cbn [s_count s_chosen] in IH'.
    assert (forall a b, times (fun _ => true) (hits l (mkSlot (s_count s + w) a)) = times (fun _ => true) (hits l (mkSlot (s_count s + w) b))) as HL by (intros; apply (IH' a)).
    cbn [all_votes votes fold_right fst snd]. fold (all_votes l). split; [|split; [|split]].
    + intros i. rewrite HE. rewrite !times_draws by lia. rewrite (HL (s_chosen s) i). reflexivity.
    + intros i. fold (votes i l). rewrite !times_draws by lia. rewrite (HL (s_chosen s) sn). destruct (IH' (s_chosen s)) as (_ & H1 & _). destruct (IH' sn) as (_ & H2 & _). specialize (H1 i). specialize (H2 i). rewrite (HL (s_chosen s) sn) in H1.
      set (P0 := times (fun _ => true) _) in *. set (a := times (fun o => s_chosen o =? i) (hits l (mkSlot (s_count s + w) sn))) in *. set (b := times (fun o => s_chosen o =? i) (hits l (mkSlot (s_count s + w) (s_chosen s)))) in *. set (W := s_count s) in *. set (T := all_votes l) in *. set (R := votes i l) in *. clearbody P0 a b W T R.
      replace ((w * a + (W + w - w) * b) * (W + (w + T))) with (w * (a * (W + w + T)) + W * (b * (W + w + T))) by ring. rewrite H1, H2. destruct (s_chosen s =? i), (sn =? i); ring.
    + intros o HI. apply in_flat_map in HI as (x & HX & HI). replace (s_count s + (w + all_votes l)) with (s_count s + w + all_votes l) by lia. apply in_map_iff in HX as (d & HX & _). destruct (d <? w); subst x; exact (proj1 (proj2 (proj2 (IH' _))) _ HI).
    + apply flat_map_nil. { pose proof (draws_nil (s_count s + w) ltac:(lia)). destruct (draws (s_count s + w)); [congruence|discriminate]. }
      intros x HX. apply in_map_iff in HX as (d & HX & _). destruct (d <? w); subst x; apply IH'.
Qed.
(* hits whose weights come to 255 at most, as they do when each site of a window is hit once: each is as likely as its share *)
Theorem C89_services_partial : forall l, l <> [] -> (forall x, In x l -> 0 < snd x) -> all_votes l <= 255 -> fair getPick (hits l reset) l.
Proof.
  intros l HN HP HV. destruct (hits_fair l reset) as (_ & H & HC & HE); cbn [reset s_count s_chosen]; try lia; auto. cbn [reset s_count s_chosen Z.add] in *. split; auto. intros i. specialize (H i). rewrite times_all in H.
  assert (0 < all_votes l) as HP0. { destruct l as [|x l]; [congruence|]. pose proof (HP x (or_introl eq_refl)). pose proof (votes_pos l ltac:(intros y Hy; specialize (HP y (or_intror Hy)); lia)). cbn. fold (all_votes l). lia. }
  replace (times (fun o => getPick o =? i) (hits l reset)) with (times (fun o => s_chosen o =? i) (hits l reset)). { rewrite H. destruct (0 =? i); reflexivity. }
  unfold times. f_equal. f_equal. apply filter_ext_in. intros o HO. unfold getPick. rewrite (HC o HO). replace (all_votes l =? 0) with false by lia. reflexivity.
Qed.
Print Assumptions C89_services_partial.
(* of two equal weights of 200, the first is chosen in 55 of 255 cases *)
Theorem C89_services_refuted : let l := [(1, 200); (2, 200)] in let os := hits l reset in votes 1 l = votes 2 l /\ times (fun o => getPick o =? 1) os * 255 = 55 * Z.of_nat (List.length os) /\ os <> [].
Proof.
  cbv zeta. assert (forall p, times p (hits [(1, 200); (2, 200)] reset) = 200 * times p (hits [(2, 200)] (mkSlot 200 1))) as H.
  { intros p. change (hits [(1, 200); (2, 200)] reset) with (flat_map (hits [(2, 200)]) (map (fun d => if d <? 200 then mkSlot 200 1 else mkSlot 200 0) (draws 200))). rewrite times_draws by lia. lia. }
  split; [reflexivity|]. rewrite <- times_all, !H. split; [reflexivity|]. intros E. specialize (H (fun _ => true)). rewrite E in H. discriminate H.
Qed.
Print Assumptions C89_services_refuted.

(* ---- SelectorServices ---- *)
Definition keyOk (k : Z) : Prop := - 2 ^ 15 <= k <= 2 ^ 15 - 1.
Lemma clampKey k : keyOk k -> clamp EInt 16 k = k.
Proof. unfold keyOk, clamp, minof, maxof. change (2 ^ (16 - 1)) with 32768. change (2 ^ 15) with 32768. lia. Qed.

Section Best.
Variable gt : Z -> Z -> bool.
Hypothesis GT : (forall a b, gt a b = (a >? b)) \/ (forall a b, gt a b = (a <? b)).
Definition best (s : sel) (key value : Z) : list sel := map (fun r => if snd r && gt value (l_v (fst r)) then take (fst r) key value else fst r) (check s key value 1).
Fixpoint bests (l : list (Z * Z)) (s : sel) : list sel := match l with [] => [s] | (k, v) :: r => flat_map (bests r) (best s k v) end.

Lemma best_first s k v : l_c s = 0 -> keyOk k -> best s k v = [mkSel 1 k v].
Proof. intros H HK. unfold best, check. rewrite H. cbn. unfold take. rewrite (clampKey k HK). reflexivity. Qed.
Lemma best_tie s k : 0 < l_c s -> keyOk k -> l_c s + 1 <= 65535 -> best s k (l_v s) = map (fun d => if d <? 1 then mkSel (l_c s + 1) k (l_v s) else mkSel (l_c s + 1) (l_k s) (l_v s)) (draws (l_c s + 1)).
Proof.
  intros H HK HC. unfold best, check. replace (1 <=? 0) with false by lia. replace (l_c s =? 0) with false by lia. rewrite Z.eqb_refl. assert (clamp EUnsigned 16 1 = 1) as -> by reflexivity. assert (clamp EUnsigned 16 (l_c s + 1) = l_c s + 1) as -> by (rewrite clampU; change (2 ^ 16) with 65536; lia).
  rewrite map_map. apply map_ext. intros d. cbn [fst snd andb]. unfold take. cbn [l_c l_k l_v]. rewrite (clampKey k HK). destruct (d <? 1); reflexivity.
Qed.
Lemma best_other s k v : 0 < l_c s -> keyOk k -> l_v s <> v -> best s k v = [if gt v (l_v s) then mkSel (l_c s) k v else s].
Proof. intros H HK HV. unfold best, check. replace (1 <=? 0) with false by lia. replace (l_c s =? 0) with false by lia. replace (l_v s =? v) with false by lia. cbn. unfold take. rewrite (clampKey k HK). destruct (gt v (l_v s)); destruct s; reflexivity. Qed.
Lemma best_in s k v o : 0 < l_c s -> keyOk k -> In o (best s k v) -> 0 < l_c o /\ ((l_v o = v /\ l_k o = k) \/ (l_v o = l_v s /\ l_k o = l_k s)) /\ gt v (l_v o) = false /\ gt (l_v s) (l_v o) = false.
Proof.
  intros H HK HI. destruct (Z.eq_dec (l_v s) v) as [E|E].
  - unfold best, check in HI. replace (1 <=? 0) with false in HI by lia. replace (l_c s =? 0) with false in HI by lia. rewrite <- E, Z.eqb_refl in HI. apply in_map_iff in HI as (r & <- & HI). apply in_map_iff in HI as (d & <- & HD). apply draws_in in HD.
    assert (0 < clamp EUnsigned 16 (l_c s + clamp EUnsigned 16 1)) by (rewrite !clampU; change (2 ^ 16) with 65536; lia). cbn [fst snd andb]. rewrite <- E. destruct (d <? _); unfold take; cbn [l_c l_k l_v]; rewrite ?(clampKey k HK); (split; [auto|]; split; [auto|]); destruct GT as [G|G]; rewrite !G; lia.
  - rewrite best_other in HI by auto. destruct HI as [<-|[]]. destruct (gt v (l_v s)) eqn:EG; cbn [l_c l_k l_v]; (split; [auto|]; split; [auto|]); destruct GT as [G|G]; rewrite !G in *; lia.
Qed.
Lemma bests_in l : forall s o, 0 < l_c s -> (forall x, In x l -> keyOk (fst x)) -> In o (bests l s) ->
  0 < l_c o /\ (In (l_k o, l_v o) ((l_k s, l_v s) :: l)) /\ forall x, In x ((l_k s, l_v s) :: l) -> gt (snd x) (l_v o) = false.
Proof.
  induction l as [|[k v] l IH]; intros s o H HK HI.
  - destruct HI as [<-|[]]. split; auto. split; [cbn; auto|]. intros x [<-|[]]. cbn. destruct GT as [G|G]; rewrite G; lia.
  - cbn [bests] in HI. apply in_flat_map in HI as (y & HY & HI). destruct (best_in s k v y H (HK (k, v) (or_introl eq_refl)) HY) as (A1 & A2 & A3 & A4). destruct (IH y o A1 ltac:(intros; apply HK; cbn; auto) HI) as (B1 & B2 & B3). split; auto. split.
    + destruct B2 as [B2|B2]; [|cbn; auto]. destruct A2 as [[E1 E2]|[E1 E2]]; rewrite E1, E2 in B2; cbn; auto.
    + pose proof (B3 (l_k y, l_v y) (or_introl eq_refl)) as B4. cbn in B4. intros x [<-|[<-|HX]]; [| |apply B3; cbn; auto]; cbn; destruct GT as [G|G]; rewrite !G in *; lia.
Qed.
Definition tied (v : Z) (l : list (Z * Z)) : list (Z * Z) := map (fun x => (fst x, 1)) (filter (fun x => snd x =? v) l).
Lemma tied_same k v l : tied v ((k, v) :: l) = (k, 1) :: tied v l.
Proof. unfold tied. cbn [filter snd]. rewrite Z.eqb_refl. reflexivity. Qed.
Lemma tied_other k v v' l : v' <> v -> tied v ((k, v') :: l) = tied v l.
Proof. intros H. unfold tied. cbn [filter snd]. replace (v' =? v) with false by lia. reflexivity. Qed.
Lemma tied_pos v l : 0 <= all_votes (tied v l).
Proof. apply votes_pos. unfold tied. intros x HX. apply in_map_iff in HX as (y & <- & _). cbn. lia. Qed.
Lemma bests_fair l : forall s, 0 < l_c s -> (forall x, In x l -> keyOk (fst x) /\ gt (snd x) (l_v s) = false) -> l_c s + all_votes (tied (l_v s) l) <= 65535 ->
  (forall k, times (fun _ => true) (bests l s) = times (fun _ => true) (bests l (mkSel (l_c s) k (l_v s)))) /\
  (forall k, times (fun o => l_k o =? k) (bests l s) * (l_c s + all_votes (tied (l_v s) l)) = ((if l_k s =? k then l_c s else 0) + votes k (tied (l_v s) l)) * times (fun _ => true) (bests l s)) /\ bests l s <> [].
Proof.
  induction l as [|[k v] l IH]; intros s HC HP HS.
  - cbn [bests tied filter map all_votes votes fold_right]. split; [reflexivity|]. split; [|discriminate]. intros j. unfold times. cbn [filter]. destruct (l_k s =? j); cbn [List.length]; lia.
  - destruct (HP (k, v) (or_introl eq_refl)) as [HK HG]. cbn [fst snd] in HK, HG. assert (forall x, In x l -> keyOk (fst x) /\ gt (snd x) (l_v s) = false) as HP' by (intros; apply HP; cbn; auto). cbn [bests]. pose proof (tied_pos (l_v s) l) as HT. destruct (Z.eq_dec v (l_v s)) as [E|E].
    + subst v. rewrite tied_same in *. cbn [all_votes fold_right snd] in *. fold (all_votes (tied (l_v s) l)) in *.
      assert (forall j, _) as IH' by (intros j; exact (IH (mkSel (l_c s + 1) j (l_v s)) ltac:(cbn; lia) HP' ltac:(cbn [l_c l_v]; lia))). clear IH. cbn [l_c l_k l_v] in IH'.
      assert (forall a b, times (fun _ => true) (bests l (mkSel (l_c s + 1) a (l_v s))) = times (fun _ => true) (bests l (mkSel (l_c s + 1) b (l_v s)))) as HL by (intros; apply (IH' a)).
      rewrite best_tie by (auto; lia). split; [|split].
      * intros j. cbn [bests]. change (best (mkSel (l_c s) j (l_v s)) k (l_v s)) with (best (mkSel (l_c s) j (l_v s)) k (l_v (mkSel (l_c s) j (l_v s)))). rewrite best_tie by (cbn; auto; lia). cbn [l_c l_k l_v]. rewrite !times_draws by lia. rewrite (HL (l_k s) j). reflexivity.
      * intros j. cbn [votes fold_right fst snd]. fold (votes j (tied (l_v s) l)). rewrite !times_draws by lia. rewrite (HL (l_k s) k). destruct (IH' (l_k s)) as (_ & H1 & _). destruct (IH' k) as (_ & H2 & _). specialize (H1 j). specialize (H2 j). rewrite (HL (l_k s) k) in H1.
        set (P0 := times (fun _ => true) _) in *. set (a := times (fun o => l_k o =? j) (bests l (mkSel (l_c s + 1) k (l_v s)))) in *. set (b := times (fun o => l_k o =? j) (bests l (mkSel (l_c s + 1) (l_k s) (l_v s)))) in *. set (W := l_c s) in *. set (T := all_votes _) in *. set (R := votes j _) in *. clearbody P0 a b W T R.
        replace ((1 * a + (W + 1 - 1) * b) * (W + (1 + T))) with (1 * (a * (W + 1 + T)) + W * (b * (W + 1 + T))) by ring. rewrite H1, H2. destruct (l_k s =? j), (k =? j); ring.
      * apply flat_map_nil. { pose proof (draws_nil (l_c s + 1) ltac:(lia)). destruct (draws _); [congruence|discriminate]. } intros x HX. apply in_map_iff in HX as (d & HX & _). destruct (d <? 1); subst x; apply IH'.
    + rewrite tied_other in * by auto. rewrite best_other by auto. rewrite HG. cbn [flat_map]. rewrite app_nil_r. destruct (IH s HC HP' HS) as (I1 & I2 & I3). split; [|split; auto].
      intros j. rewrite best_other by (cbn; auto). cbn [l_v]. rewrite HG. cbn [flat_map]. rewrite app_nil_r. apply I1.
Qed.
End Best.

Lemma max_best l : forall s, maximizes l s = bests (fun a b => a >? b) l s.
Proof. induction l as [|[k v] l IH]; intros s; [reflexivity|]. cbn [maximizes bests]. change (maximize s k v) with (best (fun a b => a >? b) s k v). apply flat_map_ext. apply IH. Qed.
Lemma min_best l : forall s, minimizes l s = bests (fun a b => a <? b) l s.
Proof. induction l as [|[k v] l IH]; intros s; [reflexivity|]. cbn [minimizes bests]. change (minimize s k v) with (best (fun a b => a <? b) s k v). apply flat_map_ext. apply IH. Qed.

(* What is selected has the greatest (the smallest) of the values, and is the key of one that has it. *)
Theorem C89_extreme : forall s l o, l <> [] -> (forall x, In x l -> keyOk (fst x)) ->
  (In o (maximizes l (selReset s)) -> In (l_k o, l_v o) l /\ (forall x, In x l -> snd x <= l_v o) /\ 0 < l_c o) /\
  (In o (minimizes l (selReset s)) -> In (l_k o, l_v o) l /\ (forall x, In x l -> l_v o <= snd x) /\ 0 < l_c o).
Proof.
  intros s [|[k v] l] o HN HK; [congruence|]. rewrite max_best, min_best. pose proof (HK (k, v) (or_introl eq_refl)) as HK0. cbn [fst] in HK0. cbn [bests]. rewrite !best_first by (cbn; auto). cbn [flat_map]. rewrite !app_nil_r.
  split; intros HI; (eapply bests_in in HI; [|auto|cbn; lia|intros; apply HK; cbn; auto]); destruct HI as (H1 & H2 & H3); cbn [l_k l_v] in H2, H3; split; auto; split; auto; intros x HX; specialize (H3 x HX); lia.
Qed.
Print Assumptions C89_extreme.
(* If the first value is the greatest (the smallest) already, those that have it are equally likely. *)
Theorem C89_ties_partial : forall s k v l, (forall x, In x ((k, v) :: l) -> keyOk (fst x)) -> all_votes (tied v ((k, v) :: l)) <= 65535 ->
  ((forall x, In x l -> snd x <= v) -> fair l_k (maximizes ((k, v) :: l) (selReset s)) (tied v ((k, v) :: l))) /\
  ((forall x, In x l -> v <= snd x) -> fair l_k (minimizes ((k, v) :: l) (selReset s)) (tied v ((k, v) :: l))).
Proof.
  intros s k v l HK HT. pose proof (HK (k, v) (or_introl eq_refl)) as HK0. cbn [fst] in HK0. rewrite max_best, min_best. cbn [bests]. rewrite !best_first by (cbn; auto). cbn [flat_map]. rewrite !app_nil_r.
  assert (tied v ((k, v) :: l) = (k, 1) :: tied v l) as ET by (unfold tied; cbn [filter snd]; rewrite Z.eqb_refl; reflexivity). rewrite ET in *. cbn [all_votes fold_right snd] in HT. fold (all_votes (tied v l)) in HT.
  split; intros HM.
  - destruct (bests_fair (fun a b => a >? b) l (mkSel 1 k v)) as (_ & F & N); cbn [l_c l_k l_v]; [lia| |lia|]. { intros x HX. split; [apply HK; cbn; auto|]. specialize (HM x HX). lia. } split; auto. intros j. rewrite <- times_all. exact (F j).
  - destruct (bests_fair (fun a b => a <? b) l (mkSel 1 k v)) as (_ & F & N); cbn [l_c l_k l_v]; [lia| |lia|]. { intros x HX. split; [apply HK; cbn; auto|]. specialize (HM x HX). lia. } split; auto. intros j. rewrite <- times_all. exact (F j).
Qed.
Print Assumptions C89_ties_partial.
(* Otherwise not: of the two greatest values after two others the first is twice as likely. *)
Theorem C89_ties_refuted : let os := maximizes [(1, 3); (2, 3); (3, 5); (4, 5)] (mkSel 0 0 0) in
  times (fun o => l_k o =? 3) os * 3 = 2 * Z.of_nat (List.length os) /\ times (fun o => l_k o =? 4) os * 3 = 1 * Z.of_nat (List.length os) /\ os <> [].
Proof. vm_compute. repeat split; discriminate. Qed.
Print Assumptions C89_ties_refuted.

(* count: weighted choice *)
Lemma count_first s k w : l_c s = 0 -> keyOk k -> 0 < w <= 65535 -> count s k w = [mkSel w k 1].
Proof. intros H HK HW. unfold count, check. rewrite H. replace (w <=? 0) with false by lia. cbn [Z.eqb map fst]. unfold take. cbn [l_c]. rewrite (clampKey k HK). assert (clamp EUnsigned 16 w = w) as -> by (rewrite clampU; change (2 ^ 16) with 65536; lia). reflexivity. Qed.
Lemma count_more c k0 k w : 0 < c -> keyOk k -> 0 < w -> c + w <= 65535 -> count (mkSel c k0 1) k w = map (fun d => if d <? w then mkSel (c + w) k 1 else mkSel (c + w) k0 1) (draws (c + w)).
Proof.
  intros H HK HW HC. unfold count, check. cbn [l_c l_k l_v]. replace (w <=? 0) with false by lia. replace (c =? 0) with false by lia. replace (1 =? 1) with true by reflexivity. assert (clamp EUnsigned 16 w = w) as -> by (rewrite clampU; change (2 ^ 16) with 65536; lia). assert (clamp EUnsigned 16 (c + w) = c + w) as -> by (rewrite clampU; change (2 ^ 16) with 65536; lia).
  rewrite map_map. apply map_ext. intros d. cbn [fst]. unfold take. cbn [l_c l_k l_v]. rewrite (clampKey k HK). reflexivity.
Qed.
Lemma counts_fair l : forall c k0, 0 < c -> (forall x, In x l -> keyOk (fst x) /\ 0 < snd x) -> c + all_votes l <= 65535 ->
  (forall k, times (fun _ => true) (counts l (mkSel c k0 1)) = times (fun _ => true) (counts l (mkSel c k 1))) /\
  (forall k, times (fun o => l_k o =? k) (counts l (mkSel c k0 1)) * (c + all_votes l) = ((if k0 =? k then c else 0) + votes k l) * times (fun _ => true) (counts l (mkSel c k0 1))) /\
  (forall o, In o (counts l (mkSel c k0 1)) -> l_c o = c + all_votes l) /\ counts l (mkSel c k0 1) <> [].
Proof.
  induction l as [|[sn w] l IH]; intros c k0 HC HP HS.
  - cbn [counts all_votes votes fold_right]. split; [reflexivity|]. split; [|split; [|discriminate]]. { intros i. unfold times. cbn [filter l_k]. destruct (k0 =? i); cbn [List.length]; lia. } intros o [<-|[]]. cbn [l_c]. lia.
  - destruct (HP (sn, w) (or_introl eq_refl)) as [HK Hw]. cbn [fst snd] in HK, Hw. assert (forall x, In x l -> keyOk (fst x) /\ 0 < snd x) as HP' by (intros; apply HP; cbn; auto). pose proof (votes_pos l ltac:(intros x Hx; destruct (HP' x Hx); lia)) as HV.
    cbn [all_votes fold_right snd] in HS. fold (all_votes l) in HS.
    assert (forall i, counts ((sn, w) :: l) (mkSel c i 1) = flat_map (counts l) (map (fun d => if d <? w then mkSel (c + w) sn 1 else mkSel (c + w) i 1) (draws (c + w)))) as HE by (intros i; cbn [counts]; rewrite count_more by (auto; lia); reflexivity).
    rewrite HE. assert (forall i, _) as IH' by (intros i; exact (IH (c + w) i ltac:(lia) HP' ltac:(lia))). clear IH.
    assert (forall a b, times (fun _ => true) (counts l (mkSel (c + w) a 1)) = times (fun _ => true) (counts l (mkSel (c + w) b 1))) as HL by (intros; apply (IH' a)).
    cbn [all_votes votes fold_right fst snd]. fold (all_votes l). split; [|split; [|split]].
    + intros i. rewrite HE. rewrite !times_draws by lia. rewrite (HL k0 i). reflexivity.
    + intros i. fold (votes i l). rewrite !times_draws by lia. rewrite (HL k0 sn). destruct (IH' k0) as (_ & H1 & _). destruct (IH' sn) as (_ & H2 & _). specialize (H1 i). specialize (H2 i). rewrite (HL k0 sn) in H1.
      set (P0 := times (fun _ => true) _) in *. set (a := times (fun o => l_k o =? i) (counts l (mkSel (c + w) sn 1))) in *. set (b := times (fun o => l_k o =? i) (counts l (mkSel (c + w) k0 1))) in *. set (T := all_votes l) in *. set (R := votes i l) in *. clearbody P0 a b T R.
      replace ((w * a + (c + w - w) * b) * (c + (w + T))) with (w * (a * (c + w + T)) + c * (b * (c + w + T))) by ring. rewrite H1, H2. destruct (k0 =? i), (sn =? i); ring.
    + intros o HI. apply in_flat_map in HI as (x & HX & HI). replace (c + (w + all_votes l)) with (c + w + all_votes l) by lia. apply in_map_iff in HX as (d & HX & _). destruct (d <? w); subst x; exact (proj1 (proj2 (proj2 (IH' _))) _ HI).
    + apply flat_map_nil. { pose proof (draws_nil (c + w) ltac:(lia)). destruct (draws (c + w)); [congruence|discriminate]. }
      intros x HX. apply in_map_iff in HX as (d & HX & _). destruct (d <? w); subst x; apply IH'.
Qed.
Theorem C89_count_partial : forall s l, l <> [] -> (forall x, In x l -> keyOk (fst x) /\ 0 < snd x) -> all_votes l <= 65535 ->
  fair l_k (counts l (selReset s)) l /\ forall o, In o (counts l (selReset s)) -> l_c o = all_votes l.
Proof.
  intros s [|[k w] l] HN HP HV; [congruence|]. destruct (HP (k, w) (or_introl eq_refl)) as [HK HW]. cbn [fst snd] in HK, HW. assert (forall x, In x l -> keyOk (fst x) /\ 0 < snd x) as HP' by (intros; apply HP; cbn; auto). pose proof (votes_pos l ltac:(intros x Hx; destruct (HP' x Hx); lia)) as H0.
  cbn [all_votes fold_right snd] in HV. fold (all_votes l) in HV. cbn [counts]. rewrite count_first by (cbn; auto; lia). cbn [flat_map]. rewrite app_nil_r. destruct (counts_fair l w k HW HP' ltac:(lia)) as (_ & F & C & N). split; [split; auto|exact C]. intros i. rewrite <- times_all. exact (F i).
Qed.
Print Assumptions C89_count_partial.

(* a scan of four sites, two of them of one kind *)
Example C89_ex : let l := [(1, 2); (5, 1); (9, 0); (5, 3)] in (forall x, In x l -> 0 <= snd x) /\ 0 < all_votes l < 2 ^ 32 /\ votes 5 l = 4 /\
  List.length (visits l (initScan (mkCat noSite 0 false 0))) = 108%nat /\ times (fun o => getSiteNum o =? 5) (visits l (initScan (mkCat noSite 0 false 0))) = 72 /\
  fair getSiteNum (visits ([(1, 2); (2, 4)] ++ (3, 6) :: [(4, 6)]) (initScan (mkCat noSite 0 true 0))) [(3, 6); (4, 6)].
Proof.
  cbv zeta. split. { intros x [<-|[<-|[<-|[<-|[]]]]]; cbn; lia. } split; [vm_compute; auto|]. split; [reflexivity|]. split; [reflexivity|]. split; [reflexivity|].
  apply C89_max_partial; try reflexivity. { intros x [<-|[<-|[]]]; cbn; lia. } intros x [<-|[]]. reflexivity.
Qed.
