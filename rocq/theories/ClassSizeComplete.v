(* ClassSizeComplete.v: the classes that get a size. *)
From Coq Require Import String List NArith ZArith Lia Bool Relations Permutation.
From Coq Require Import ZifyBool ZifyNat ZifyN.
From Verif Require Import Base TypeTableModel FamilyModel FamilyProofs FamilyTheorems LayoutModel LayoutSpec LayoutTheorems ClassSizeModel ClassSizeSpec ClassSizeProofs ClassSizeExact.
Import ListNotations.
Open Scope Z_scope.
Local Opaque the_fuel.

Lemma ancestor_same (root : N -> N) b1 b2 : (forall x, b1 x = b2 x) -> forall x y, ancestor root b1 x y -> ancestor root b2 x y.
Proof.
  intros H x y (z & (bs & b & EB & HB) & HR). exists z. rewrite H in EB. split; [exists bs, b; auto|]. clear - H HR. induction HR as [z|z w y (bs & b & EB & HB) HR IH]; [constructor|]. rewrite H in EB. econstructor; [exists bs, b; eauto|auto].
Qed.

Section True.
Variable root : N -> N.
Variable classes : N -> option sclass.
Variable compare : N -> N -> cmp.
Hypothesis W : wf root (filled classes (fun _ => 0%N)) compare.
Notation svb := (findTheSharedVirtualBases root (bare classes)).
Notation parts := (parts).
Notation inv1 := (inv1 root classes).

Lemma filled_bases size x : lbases (filled classes size) x = lbases (bare classes) x.
Proof. unfold lbases, filled, bare. destruct (classes x); auto. Qed.
Lemma member_true (size : N -> N) k c m st : classes c = Some k -> In m (sc_members k) -> msized m st -> (forall d, 0 <= st_size st d -> st_size st d = Z.of_N (size d)) ->
  Z.of_N (member_size (filled_member classes size m)) = if sc_union k then memberTotal m st else memberSize classes (sc_kind k) m st.
Proof.
  intros EK HM HS HZ.
  assert (forall d, 0 <= st_size st d -> known (st_size st d) = Z.of_N (size d)) as HK by (intros d HD; specialize (HZ d HD); unfold known, UNKNOWNSIZE; destruct (_ =? _) eqn:E; lia).
  assert (mt_element (filled_member classes (fun _ => 0%N) m) = true -> sc_kind k = Transient /\ sc_union k = false) as HE.
  { intros H. apply (wf_elements _ _ _ W c {| lc_kind := sc_kind k; lc_union := sc_union k; lc_members := map (filled_member classes (fun _ => 0%N)) (sc_members k); lc_bases := sc_bases k |} (filled_member classes (fun _ => 0%N) m)); auto;
      [unfold filled; rewrite EK; auto|cbn; apply in_map; auto]. }
  destruct m as [b a|d|d n|]; cbn [filled_member mt_element msized] in *; unfold member_size; cbn [mt_array mt_element mt_bits].
  - destruct (sc_kind k), (sc_union k), a; cbn [memberTotal memberSize]; lia.
  - destruct (elementb classes d) eqn:EE; [destruct (HE eq_refl) as [-> ->]; cbn [memberSize]; rewrite EE; lia|]. specialize (HK d HS). destruct (sc_kind k), (sc_union k); cbn [memberTotal memberSize]; rewrite ?EE; cbn [memberTotal]; lia.
  - destruct (elementb classes d) eqn:EE; [destruct (HE eq_refl) as [-> ->]; cbn [memberSize]; rewrite EE; lia|]. specialize (HK d HS). destruct (sc_kind k), (sc_union k); cbn [memberTotal memberSize]; rewrite ?EE; cbn [memberTotal]; nia.
  - contradiction.
Qed.
Lemma own_true (size : N -> N) k c st : classes c = Some k -> parts st k -> (forall d, 0 <= st_size st d -> st_size st d = Z.of_N (size d)) -> Z.of_N (own classes size c) = ownZ classes st k.
Proof.
  intros EK [HM _] HZ. unfold own, filled. rewrite EK. cbn [option_map]. unfold own_bits, ownZ. cbn [lc_union lc_members].
  assert (forall ms, (forall m, In m ms -> In m (sc_members k)) -> Z.of_N (fold_right (fun m t => (if sc_union k then N.max (member_size m) t else member_size m + t)%N) 0%N (map (filled_member classes size) ms)) =
    if sc_union k then maxZ ms st else sumZ classes (sc_kind k) ms st) as H; [|apply H; auto].
  induction ms as [|m ms IH]; intros HI; [cbn; destruct (sc_union k); auto|]. cbn [map fold_right]. pose proof (member_true size k c m st EK (HI m (or_introl eq_refl)) (HM m (HI m (or_introl eq_refl))) HZ) as H1.
  specialize (IH (fun x HX => HI x (or_intror HX))). unfold maxZ, sumZ in *. cbn [fold_right]. destruct (sc_union k); lia.
Qed.
Lemma svb_list c k : classes c = Some k -> NoDup (map fst (svb c)) /\ forall a, In a (map fst (svb c)) <-> a <> 0%N /\ ancestor root (lbases (bare classes)) c a.
Proof.
  intros EK. destruct (svb_ok root (bare classes) compare (W_bare root classes compare W) c) as [H1 H2]. destruct (class_nz root classes compare W c k EK) as [_ ER]. rewrite ER in H2. split; auto. apply ascending_nodup. auto.
Qed.
Lemma total_true (size : N -> N) k c st : inv1 st -> classes c = Some k -> parts st k -> (forall d, 0 <= st_size st d -> st_size st d = Z.of_N (size d)) ->
  ownZ classes st k + sharedZ root classes st c = Z.of_N (own classes size c + fold_right (fun a t => own classes size a + t) 0 (map fst (svb c)))%N.
Proof.
  intros HI EK HP HZ. rewrite N2Z.inj_add, (own_true size k c st EK HP HZ). f_equal. unfold sharedZ, sumC.
  assert (forall l, (forall q, In q l -> In q (svb c)) -> fold_right (fun q t => ownC classes st (fst q) + t) 0 l = Z.of_N (fold_right (fun a t => own classes size a + t)%N 0%N (map fst l))) as H; [|apply H; auto].
  induction l as [|[b n] l IH]; intros HL; auto. cbn [map fold_right fst]. rewrite N2Z.inj_add, IH by (intros q HQ; apply HL; right; auto). f_equal.
  destruct (svb_parts root classes compare W st c k b n HI EK HP (HL _ (or_introl eq_refl))) as (kb & EB & _ & PB). unfold ownC. rewrite EB. symmetry. apply own_true; auto.
Qed.
Lemma has_size_unique size c k n : classes c = Some k -> has_size classes root size c n -> n = (own classes size c + fold_right (fun a t => own classes size a + t) 0 (map fst (svb c)))%N.
Proof.
  intros EK (l & HN & HA & ->). f_equal. destruct (svb_list c k EK) as [SN SA].
  assert (Permutation l (map fst (svb c))) as HP.
  { apply NoDup_Permutation; auto. intros a. rewrite HA, SA. split; (intros [H1 H2]; split; auto; revert H2; apply ancestor_same); intros x; rewrite filled_bases; auto. }
  clear - HP. induction HP; cbn [fold_right]; try lia; auto; congruence.
Qed.
End True.

Section Complete.
Variable root : N -> N.
Variable classes : N -> option sclass.
Variable compare : N -> N -> cmp.
Hypothesis W : wf root (filled classes (fun _ => 0%N)) compare.
Variable tab : list N.
Variable size : N -> N.
Variable rank : N -> nat.
Hypothesis closed : forall c k, classes c = Some k -> In c tab /\ sc_stub k = false /\ ~ In MHzy (sc_members k).
Hypothesis declared : forall c d, contains classes c d -> exists k, classes d = Some k.
Hypothesis ranked : forall c d, contains classes c d -> (rank d < rank c)%nat.
Hypothesis sized : forall c k, classes c = Some k -> has_size classes root size c (size c) /\ Z.of_N (size c) <= limit (sc_kind k).
Definition isbase (b : N) : Prop := exists c k, classes c = Some k /\ In b (sc_bases k).
Hypothesis unions : forall c k d, classes c = Some k -> sc_union k = true -> In (MClass d) (sc_members k) -> ~ isbase d.

Notation SU := (setUTIBitSize classes).
Notation SB := (setBaseClassBitSize classes).
Notation DS := (determineShared root classes).
Notation calc := (calcVariableSymbolTypeSize root classes).
Notation totl := (total_loop root classes).
Notation maxl := (max_loop root classes).
Notation trySet := (trySetBitsize root classes).
Notation SBS := (setBitSize root classes tab).
Notation svb := (findTheSharedVirtualBases root (bare classes)).
Notation inv0 := (inv0 classes).
Notation inv1 := (inv1 root classes).
Notation ownZ := (ownZ classes).
Notation sharedZ := (sharedZ root classes).

Lemma all_grounded c : grounded classes c.
Proof.
  remember (rank c) as r. revert c Heqr. induction r as [r IH] using lt_wf_ind. intros c ->. constructor. intros d HD. apply (IH (rank d)); auto.
Qed.
Record invD (st : sstate) : Prop := {
  d_one : inv1 st;
  d_errs : st_errs st = 0%nat;
  d_bad : st_bad st = false;
  d_cyc : forall c, st_size st c <> CYCLEFLAG;
  d_size : forall c, 0 <= st_size st c -> st_size st c = Z.of_N (size c)
}.
(* the size as a base class is known *)
Definition kb (st : sstate) (x : N) : Prop := 0 <= st_size st x -> isbase x -> st_base st x <> UNKNOWNSIZE.

Lemma true_size st c k : invD st -> classes c = Some k -> parts st k -> ownZ st k + sharedZ st c = Z.of_N (size c).
Proof.
  intros HD EK HP. rewrite (total_true root classes compare W size k c st (d_one _ HD) EK HP (d_size _ HD)). f_equal. symmetry. apply (has_size_unique root classes compare W size c k); auto. apply (sized c k EK).
Qed.
Lemma invD_SU c k st : invD st -> classes c = Some k -> parts st k -> let s := ownZ st k + sharedZ st c in
  invD (SU c s st) /\ st_size (SU c s st) c = s /\ 0 <= s /\ (forall x, x <> c -> kb st x -> kb (SU c s st) x) /\ (forall x, x <> c -> st_base (SU c s st) x = st_base st x) /\ (0 <= st_size st c -> SU c s st = st).
Proof.
  intros HD EK HP s. pose proof (true_size st c k HD EK HP) as ET. fold s in ET. pose proof (proj2 (sized c k EK)) as HL.
  assert (st_errs (SU c s st) = st_errs st) as HE.
  { unfold setUTIBitSize. destruct (complete st c); auto. unfold kind. rewrite EK. cbn [option_map]. destruct (s >? limit (sc_kind k)) eqn:EL; [lia|]. destruct (st_size st c =? s); auto. }
  destruct (inv1_SU root classes compare W c s st (d_one _ HD) (all_grounded c) ltac:(right; exists k; auto) HE) as (H1 & H2 & H3).
  assert (forall x, x <> c -> st_size (SU c s st) x = st_size st x /\ st_base (SU c s st) x = st_base st x) as HX.
  { intros x NX. unfold setUTIBitSize. destruct (complete st c); auto. destruct (kind classes c); auto. destruct (s >? _); auto. destruct (_ =? _); auto. cbn [st_size st_base]. rewrite !upd_ne by auto. auto. }
  split; [|split; [auto|split; [auto|split; [|split]]]].
  - destruct HD as [D1 D2 D3 D4 D5]. constructor; auto; [lia| | |].
    + unfold setUTIBitSize. destruct (complete st c); auto. destruct (kind classes c); auto. destruct (s >? _); auto. destruct (_ =? _); auto.
    + intros x. destruct (N.eq_dec x c) as [->|NX]; [rewrite H2; uf; lia|]. destruct (HX x NX) as [-> _]. auto.
    + intros x. destruct (N.eq_dec x c) as [->|NX]; [rewrite H2; auto|]. destruct (HX x NX) as [-> _]. auto.
  - intros x NX HK. unfold kb. destruct (HX x NX) as [-> ->]. auto.
  - intros x NX. apply HX. auto.
  - intros HC. unfold setUTIBitSize. assert (complete st c = true) as -> by (unfold complete; uf; lia). auto.
Qed.
Lemma SB_base c b st x : x <> c -> st_base (fst (SB c b st)) x = st_base st x.
Proof.
  intros NX. unfold setBaseClassBitSize. destruct (kind classes c) as [[]|]; auto; (destruct (_ >? _); auto; destruct (_ >? _); [destruct (_ =? _); auto|]; cbn [fst st_base]; apply upd_ne; auto).
Qed.
Lemma invD_SB c k st : invD st -> classes c = Some k -> parts st k ->
  invD (fst (SB c (ownZ st k) st)) /\ snd (SB c (ownZ st k) st) = true /\ (forall x, x <> c -> kb st x -> kb (fst (SB c (ownZ st k) st)) x) /\ kb (fst (SB c (ownZ st k) st)) c /\
  (sc_kind k <> Element -> st_base (fst (SB c (ownZ st k) st)) c <> UNKNOWNSIZE).
Proof.
  intros HD EK HP. pose proof (true_size st c k HD EK HP) as ET. pose proof (shared_nonneg root classes compare W st c k (d_one _ HD) EK HP) as HS. pose proof (proj2 (sized c k EK)) as HL. pose proof (own_nonneg classes k st HP) as HO.
  assert (st_errs (fst (SB c (ownZ st k) st)) = st_errs st /\ st_bad (fst (SB c (ownZ st k) st)) = st_bad st /\ snd (SB c (ownZ st k) st) = true /\ (sc_kind k <> Element -> st_base (fst (SB c (ownZ st k) st)) c <> UNKNOWNSIZE)) as (HE & HB & HT & HK).
  { unfold setBaseClassBitSize, kind. rewrite EK. cbn [option_map]. destruct (sc_kind k) eqn:EKK; [|cbn; repeat split; auto; congruence|];
    (destruct (ownZ st k >? limit _) eqn:EL; [lia|]; destruct (st_base st c >? 0) eqn:EP; [|cbn [fst snd st_errs st_bad st_base]; rewrite upd_eq; repeat split; auto; intros _; uf; lia]);
    (destruct (x_base _ _ _ (d_one _ HD) c k EK ltac:(congruence) ltac:(uf; lia)) as [_ EO]; cbn [fst snd]; rewrite <- EO, Z.eqb_refl; repeat split; auto; intros _; uf; lia). }
  split; [|split; [auto|split; [|split; [|auto]]]].
  - pose proof (inv1_SB root classes compare W c k st (d_one _ HD) EK HP) as H1. destruct HD as [D1 D2 D3 D4 D5]. constructor; auto; [lia|congruence|intros x; rewrite SB_size; auto|intros x; rewrite SB_size; auto].
  - intros x NX HKx. unfold kb. rewrite SB_size, (SB_base c _ st x NX). auto.
  - intros _ (x & kx & EX & HI). apply HK. destruct (wf_bases _ _ _ W x {| lc_kind := sc_kind kx; lc_union := sc_union kx; lc_members := map (filled_member classes (fun _ => 0%N)) (sc_members kx); lc_bases := sc_bases kx |} c) as (kb' & EB & NE);
      [unfold filled; rewrite EX; auto|auto|apply (class_nz root classes compare W c k EK)|]. unfold filled in EB. rewrite EK in EB. injection EB as <-. auto.
Qed.
Definition invC (st : sstate) : Prop := invD st /\ forall x, kb st x.
Lemma svb_isbase c k b n : classes c = Some k -> In (b, n) (svb c) -> isbase b.
Proof.
  intros EK HI. destruct (svb_in root classes compare W c k b n EK HI) as [NZ HA]. destruct (reach_last _ _ _ _ HA) as (z & _ & HE). destruct (edge_bare root classes compare W z b HE NZ) as (k1 & k2 & E1 & H1 & _). exists z, k1. auto.
Qed.
Lemma DS_C c k st : invC st -> classes c = Some k -> parts st k -> DS c st = (st, Some (sharedZ st c)).
Proof.
  intros [HD HK] EK HP. unfold determineShared, ClassSizeExact.sharedZ.
  assert (forall l, (forall q, In q l -> In q (svb c)) -> forall acc, shared_loop classes l acc st = (st, Some (acc + sumC classes l st))) as H; [|rewrite (H (svb c)); auto].
  induction l as [|[b n] l IH]; intros HL acc; cbn [shared_loop]; [cbn; f_equal; f_equal; lia|].
  pose proof (HL _ (or_introl eq_refl)) as HB. pose proof (svb_sized root classes compare W st c k b n (d_one _ HD) EK HP HB) as HS. destruct (svb_parts root classes compare W st c k b n (d_one _ HD) EK HP HB) as (kbb & EB & NE & PB).
  assert (complete st b = true) as -> by (unfold complete; uf; lia).
  assert (getBase classes b st = st_base st b) as EG by (unfold getBase, kind; rewrite EB; cbn; destruct (sc_kind kbb); congruence). pose proof (HK b HS (svb_isbase c k b n EK HB)) as NU. rewrite EG.
  destruct (st_base st b =? UNKNOWNSIZE) eqn:EU; [lia|]. rewrite IH by (intros q HQ; apply HL; right; auto). destruct (x_base _ _ _ (d_one _ HD) b kbb EB NE NU) as [_ EO].
  f_equal. f_equal. unfold sumC. cbn [fold_right fst]. unfold ownC at 2. rewrite EB. lia.
Qed.

(* the classes seen so far: sized, or on the path p to the present class *)
Record seenok (p : list N) (st : sstate) (seen : list N) : Prop := {
  s_nodup : NoDup seen;
  s_tab : incl seen tab;
  s_sized : forall d, In d seen -> 0 <= st_size st d \/ In d p
}.
Definition path (p : list N) (c : N) : Prop := forall d, In d p -> d = c \/ (rank c < rank d)%nat.
Definition recC (f : nat) (rec : nested) : Prop := forall c k st seen p st' seen' r, classes c = Some k -> rec c st seen = (st', seen', r) -> invC st -> seenok p st seen -> path p c ->
  (List.length tab < f + List.length seen)%nat -> invC st' /\ (forall my, r = Some my -> seenok p st' seen' /\ (List.length seen <= List.length seen')%nat).
Lemma seenok_ext p st st' seen : ext st st' -> seenok p st seen -> seenok p st' seen.
Proof. intros HE [H1 H2 H3]. constructor; auto. intros d HD. destruct (H3 d HD) as [H|H]; auto. left. rewrite (ext_sz _ _ _ HE H). auto. Qed.

Definition goodrec (rec : nested) : Prop := ext_rec rec /\ rec0 classes rec /\ rec1 root classes rec.
(* a member of a class *)
Lemma C_calc f rec c k m st seen p st' seen' s : goodrec rec -> recC f rec -> classes c = Some k -> In m (sc_members k) -> calc rec c m st seen = (st', seen', s) -> invC st -> seenok p st seen -> path p c ->
  (List.length tab < S f + List.length seen)%nat ->
  invC st' /\ (s = UNKNOWNSIZE \/ 0 <= s /\ (List.length seen <= List.length seen')%nat /\
    match m with
    | MClass d => (0 <= st_size st' d /\ s = st_size st' d /\ seenok p st' seen') \/ exists kd, classes d = Some kd /\ parts st' kd /\ s = ownZ st' kd + sharedZ st' d /\ seenok (d :: p) st' seen' /\ (sc_kind kd <> Element -> st_base st' d <> UNKNOWNSIZE)
    | _ => msized m st' /\ seenok p st' seen'
    end).
Proof.
  intros (HX & HR0 & HR1) HR EK HM E HC HS HP HF. destruct m as [b a|d|d n|]; cbn [calcVariableSymbolTypeSize] in E; cbn [msized].
  - injection E as <- <- <-. split; auto. right. split; [lia|]. split; auto.
  - assert (contains classes c d) as HD by (exists k; auto). destruct (declared c d HD) as (kd & EKd). pose proof (ranked c d HD) as HK. destruct (closed d kd EKd) as (HT & NS & _).
    destruct (st_size st d >=? 0) eqn:E0; [injection E as <- <- <-; split; auto; right; split; [lia|]; split; auto; left; split; [lia|auto]|].
    destruct (st_size st d =? CYCLEFLAG) eqn:ECY; [pose proof (d_cyc _ (proj1 HC) d); lia|]. rewrite EKd, NS in E. destruct (N.eqb_spec d c) as [->|ND]; [lia|].
    destruct (mem d seen) eqn:EM.
    { apply mem_In in EM. destruct (s_sized _ _ _ HS d EM) as [H|H]; [lia|]. destruct (HP d H); [contradiction|lia]. }
    assert (~ In d seen) as NI by (intros HI; apply mem_In in HI; congruence).
    destruct (rec d st (d :: seen)) as [[st1 seen1] r] eqn:ER.
    assert (seenok (d :: p) st (d :: seen)) as HS' by (destruct HS as [S1 S2 S3]; constructor; [constructor; auto|intros x [<-|HI]; auto|intros x [<-|HI]; [right; left; auto|destruct (S3 x HI); [auto|right; right; auto]]]).
    assert (path (d :: p) d) as HP' by (intros x [<-|HI]; auto; right; destruct (HP x HI) as [->|]; lia).
    destruct (HR d kd st (d :: seen) (d :: p) st1 seen1 r EKd ER HC HS' HP' ltac:(cbn [List.length]; lia)) as [H1 H2].
    destruct r as [my|]; [|injection E as <- <- <-; auto]. destruct (H2 my eq_refl) as [H3 H4].
    destruct (HR1 _ _ _ _ _ _ _ EKd ER (d_one _ (proj1 HC)) (d_errs _ (proj1 H1))) as [_ HG]. destruct (HG my eq_refl) as [P1 ->]. rewrite (DS_C d kd st1 H1 EKd P1) in E.
    destruct (invD_SB d kd st1 (proj1 H1) EKd P1) as (B1 & B2 & B3 & B4 & B5). pose proof (ext_SB classes d (ownZ st1 kd) st1) as XB. destruct (SB d (ownZ st1 kd) st1) as [st3 ok]. cbn [fst snd] in *. subst ok. injection E as <- <- <-.
    split. { split; auto. intros x. destruct (N.eq_dec x d) as [->|NX]; auto. apply B3; auto. apply (proj2 H1). }
    right. pose proof (own_nonneg classes kd st1 P1) as N1. pose proof (shared_nonneg root classes compare W st1 d kd (d_one _ (proj1 H1)) EKd P1) as N2. split; [lia|]. split; [cbn [List.length] in H4; lia|].
    right. exists kd. split; auto. split; [eapply parts_ext; eauto|]. rewrite (own_ext classes kd st1 st3 XB P1), (shared_ext root classes compare W st1 st3 d kd (d_one _ (proj1 H1)) EKd P1 XB). split; auto. split; auto. eapply seenok_ext; eauto.
  - injection E as <- <- <-. split; auto. destruct (st_lab st d) eqn:EL; auto. right. pose proof (z_lab _ _ (x_zero _ _ _ (d_one _ (proj1 HC))) d EL) as HD. pose proof (z_size _ _ (x_zero _ _ _ (d_one _ (proj1 HC))) d). unfold complete in HD.
    assert (0 <= st_size st d) by (uf; lia). auto.
  - exfalso. apply (closed c k EK). auto.
Qed.
Lemma seenok_drop d p st seen : 0 <= st_size st d -> seenok (d :: p) st seen -> seenok p st seen.
Proof. intros HD [S1 S2 S3]. constructor; auto. intros x HX. destruct (S3 x HX) as [H|[<-|H]]; auto. Qed.

Lemma C_total f rec c k : goodrec rec -> recC f rec -> classes c = Some k -> forall ms acc st seen p st' seen' t, (forall m, In m ms -> In m (sc_members k)) -> totl rec c (sc_kind k) ms acc st seen = (st', seen', t) -> invC st -> seenok p st seen -> path p c ->
  (List.length tab < S f + List.length seen)%nat -> 0 <= acc -> invC st' /\ (t = UNKNOWNSIZE \/ 0 <= t /\ seenok p st' seen' /\ (List.length seen <= List.length seen')%nat).
Proof.
  intros HG HR EK. induction ms as [|m ms IH]; intros acc st seen p st' seen' t HM E HC HS HP HF HA; cbn [total_loop] in E.
  - injection E as <- <- <-. split; auto.
  - destruct (calc rec c m st seen) as [[st1 seen1] s] eqn:EC. destruct (C_calc f rec c k m st seen p st1 seen1 s HG HR EK (HM m (or_introl eq_refl)) EC HC HS HP HF) as [H1 [->|(HN & HL & H2)]]; [injection E as <- <- <-; auto|].
    destruct (s =? CYCLEFLAG) eqn:E1; [uf; lia|]. destruct (s <=? UNKNOWNSIZE) eqn:E2; [uf; lia|]. fold (set_total classes m s st1) in E.
    assert (invC (set_total classes m s st1) /\ msized m (set_total classes m s st1) /\ seenok p (set_total classes m s st1) seen1) as (H3 & H4 & H5).
    { destruct m as [b a|d|d n|]; cbn [set_total msized] in *; try tauto. cbn zeta.
      assert (exists kd, classes d = Some kd /\ parts st1 kd /\ s = ownZ st1 kd + sharedZ st1 d /\ seenok (d :: p) st1 seen1 /\ (0 <= st_size st1 d \/ (sc_kind kd <> Element -> st_base st1 d <> UNKNOWNSIZE))) as (kd & EKd & PD & ES & SD & BD).
      { destruct H2 as [(H2 & -> & H3)|(kd & H2 & H3 & H4 & H5 & H6)]; [|exists kd; repeat (split; [auto; fail|]); auto]. destruct (x_sized _ _ _ (d_one _ (proj1 H1)) d H2) as (kd & EKd & PD & EZ & _). exists kd. split; auto. split; auto. split; auto. split; auto.
        destruct H3 as [S1 S2 S3]. constructor; auto. intros x HX. destruct (S3 x HX); auto. right. right. auto. }
      rewrite ES. destruct (invD_SU d kd st1 (proj1 H1) EKd PD) as (U1 & U2 & U3 & U4 & U5 & U6). pose proof (ext_SU classes d (ownZ st1 kd + sharedZ st1 d) st1) as XU. set (st2 := SU d (ownZ st1 kd + sharedZ st1 d) st1) in *.
      assert (0 <= st_size st2 d) as HZ by lia. destruct (getBase classes d st1 =? UNKNOWNSIZE) eqn:EB.
      - split; [|split; auto; apply (seenok_drop d); auto; eapply seenok_ext; eauto]. split; auto. intros x. destruct (N.eq_dec x d) as [->|NX]; [|apply U4; auto; apply (proj2 H1)].
        intros _ HB. destruct BD as [BD|BD]; [rewrite (U6 BD); apply (proj2 H1); auto|]. exfalso. unfold getBase, kind in EB. rewrite EKd in EB. cbn [option_map] in EB. destruct (sc_kind kd) eqn:EKK; [apply BD; [discriminate|lia]|uf; lia|apply BD; [discriminate|lia]].
      - rewrite SB_size. split; [|split; auto; apply (seenok_drop d); [rewrite SB_size; auto|]; eapply seenok_ext; [eapply ext_trans; [exact XU|apply ext_SB]|auto]].
        destruct (sc_kind kd) eqn:EKK; unfold getBase, kind in *; rewrite EKd in *; cbn [option_map] in *; rewrite EKK in *.
        2: { assert (SB d 0 st2 = (st2, true)) as -> by (unfold setBaseClassBitSize, kind; rewrite EKd; cbn [option_map]; rewrite EKK; auto). split; auto. intros x. destruct (N.eq_dec x d) as [->|NX]; [|apply U4; auto; apply (proj2 H1)].
             intros _ (y & ky & EY & HI). exfalso. destruct (wf_bases _ _ _ W y {| lc_kind := sc_kind ky; lc_union := sc_union ky; lc_members := map (filled_member classes (fun _ => 0%N)) (sc_members ky); lc_bases := sc_bases ky |} d) as (kb' & EB' & NE);
             [unfold filled; rewrite EY; auto|auto|apply (class_nz root classes compare W d kd EKd)|]. unfold filled in EB'. rewrite EKd in EB'. injection EB' as <-. auto. }
        all: destruct (x_base _ _ _ (d_one _ (proj1 H1)) d kd EKd ltac:(congruence) ltac:(lia)) as [_ EO]; rewrite EO in *; assert (ownZ st1 kd = ownZ st2 kd) as EW by (rewrite (own_ext classes kd st1 st2 XU PD); auto); rewrite EW;
          destruct (invD_SB d kd st2 U1 EKd (parts_ext kd st1 st2 XU PD)) as (B1 & _ & B3 & B4 & _); split; auto; intros x; destruct (N.eq_dec x d) as [->|NX]; auto; apply B3; auto; apply U4; auto; apply (proj2 H1). }
    pose proof (msize_nonneg classes (sc_kind k) m _ H4). destruct (IH _ _ _ p _ _ _ (fun x HX => HM x (or_intror HX)) E H3 H5 HP ltac:(lia) ltac:(lia)) as [H6 H7]. split; auto. destruct H7 as [H7|(H7 & H8 & H9)]; auto. right. split; auto. split; auto. lia.
Qed.
Lemma C_max f rec c k : goodrec rec -> recC f rec -> classes c = Some k -> sc_union k = true -> forall ms acc st seen p st' seen' t, (forall m, In m ms -> In m (sc_members k)) -> maxl rec c ms acc st seen = (st', seen', t) -> invC st -> seenok p st seen -> path p c ->
  (List.length tab < S f + List.length seen)%nat -> 0 <= acc -> invC st' /\ (t = UNKNOWNSIZE \/ 0 <= t /\ seenok p st' seen' /\ (List.length seen <= List.length seen')%nat).
Proof.
  intros HG HR EK EU. induction ms as [|m ms IH]; intros acc st seen p st' seen' t HM E HC HS HP HF HA; cbn [max_loop] in E.
  - injection E as <- <- <-. split; auto.
  - destruct (calc rec c m st seen) as [[st1 seen1] s] eqn:EC. destruct (C_calc f rec c k m st seen p st1 seen1 s HG HR EK (HM m (or_introl eq_refl)) EC HC HS HP HF) as [H1 [->|(HN & HL & H2)]]; [injection E as <- <- <-; auto|].
    destruct (s =? CYCLEFLAG) eqn:E1; [uf; lia|]. destruct (s <=? UNKNOWNSIZE) eqn:E2; [uf; lia|]. fold (set_max classes m s st1) in E. cbn zeta in E.
    assert (invC (set_max classes m s st1) /\ seenok p (set_max classes m s st1) seen1) as (H3 & H5).
    { destruct m as [b a|d|d n|]; cbn [set_max] in *; try tauto.
      assert (exists kd, classes d = Some kd /\ parts st1 kd /\ s = ownZ st1 kd + sharedZ st1 d /\ seenok (d :: p) st1 seen1) as (kd & EKd & PD & ES & SD).
      { destruct H2 as [(H2 & -> & H3)|(kd & H2 & H3 & H4 & H5 & H6)]; [|exists kd; repeat (split; [auto; fail|]); auto]. destruct (x_sized _ _ _ (d_one _ (proj1 H1)) d H2) as (kd & EKd & PD & EZ & _). exists kd. split; auto. split; auto. split; auto.
        destruct H3 as [S1 S2 S3]. constructor; auto. intros x HX. destruct (S3 x HX); auto. right. right. auto. }
      rewrite ES. destruct (invD_SU d kd st1 (proj1 H1) EKd PD) as (U1 & U2 & U3 & U4 & U5 & U6). pose proof (ext_SU classes d (ownZ st1 kd + sharedZ st1 d) st1) as XU. set (st2 := SU d (ownZ st1 kd + sharedZ st1 d) st1) in *.
      assert (0 <= st_size st2 d) as HZ by lia. split; [|apply (seenok_drop d); auto; eapply seenok_ext; eauto]. split; auto. intros x. destruct (N.eq_dec x d) as [->|NX]; [|apply U4; auto; apply (proj2 H1)].
      intros _ HB. exfalso. apply (unions c k d EK EU (HM _ (or_introl eq_refl)) HB). }
    assert (0 <= if memberTotal m (set_max classes m s st1) >? acc then memberTotal m (set_max classes m s st1) else acc) as HA' by (destruct (_ >? _) eqn:EG; lia).
    destruct (IH _ _ _ p _ _ _ (fun x HX => HM x (or_intror HX)) E H3 H5 HP ltac:(lia) HA') as [H6 H7]. split; auto. destruct H7 as [H7|(H7 & H8 & H9)]; auto. right. split; auto. split; auto. lia.
Qed.
Lemma C_trySet f : recC f (trySet f).
Proof.
  induction f as [|f IH]; intros c k st seen p st' seen' r EK E HC HS HP HF.
  - exfalso. pose proof (NoDup_incl_length (s_nodup _ _ _ HS) (s_tab _ _ _ HS)). lia.
  - rewrite (trySet_S root classes f c k st seen EK) in E. destruct (members_of root classes (trySet f) c k st seen) as [[st1 seen1] t] eqn:EM.
    assert (invC st1 /\ (t = UNKNOWNSIZE \/ 0 <= t /\ seenok p st1 seen1 /\ (List.length seen <= List.length seen1)%nat)) as [H1 H2].
    { unfold members_of in EM. destruct (bases_loop (sc_bases k) st) as [z|] eqn:EB.
      - injection EM as <- <- <-. split; auto. left. apply bases_some in EB. destruct EB as (b & _ & _ & -> & HL). pose proof (z_size _ _ (x_zero _ _ _ (d_one _ (proj1 HC))) b). pose proof (d_cyc _ (proj1 HC) b). lia.
      - assert (goodrec (trySet f)) as HG by (split; [apply ext_trySet|split; [apply inv0_trySet|apply (inv1_trySet root classes compare W)]]). destruct (sc_union k) eqn:EU; [eapply (C_max f)|eapply (C_total f)]; eauto; lia. }
    destruct H2 as [-> |(H2 & H3 & H4)]; [cbn in E; injection E as <- <- <-; split; auto; discriminate|]. destruct (t =? CYCLEFLAG) eqn:E1; [uf; lia|]. destruct (t =? UNKNOWNSIZE) eqn:E2; [uf; lia|]. injection E as <- <- <-. split; auto.
Qed.
Lemma C_finish c k st : invC st -> classes c = Some k -> parts st k -> invC (finish root classes c (ownZ st k) st) /\ 0 <= st_size (finish root classes c (ownZ st k) st) c.
Proof.
  intros HC EK HP. unfold finish. rewrite (DS_C c k st HC EK HP). cbn zeta. destruct (invD_SU c k st (proj1 HC) EK HP) as (U1 & U2 & U3 & U4 & U5 & U6). pose proof (ext_SU classes c (ownZ st k + sharedZ st c) st) as XU. replace (ownZ st k + sharedZ st c - sharedZ st c) with (ownZ st k) by lia.
  set (st2 := SU c (ownZ st k + sharedZ st c) st) in *. rewrite U2, Z.eqb_refl. cbn [negb]. rewrite SB_size. split; [|lia].
  assert (ownZ st k = ownZ st2 k) as EW by (rewrite (own_ext classes k st st2 XU HP); auto). rewrite EW. destruct (invD_SB c k st2 U1 EK (parts_ext k st st2 XU HP)) as (B1 & _ & B3 & B4 & _). split; auto. intros x. destruct (N.eq_dec x c) as [->|NX]; auto. apply B3; auto. apply U4; auto. apply (proj2 HC).
Qed.
Lemma C_SBS st c : invC st -> invC (SBS st c).
Proof.
  intros HC. destruct (classes c) as [k|] eqn:E; [|unfold setBitSize; rewrite E; auto]. destruct (complete st c || sc_stub k) eqn:EC; [unfold setBitSize; rewrite E, EC; auto|].
  rewrite (SBS_step root classes tab st c k E EC) in *. destruct (trySet _ c st [c]) as [[st1 seen1] r] eqn:ET.
  assert (seenok [c] st [c]) as HS by (constructor; [constructor; [auto|constructor]|intros x [<-|[]]; apply (closed c k E)|intros x HX; auto]).
  destruct (C_trySet _ c k st [c] [c] st1 seen1 r E ET HC HS ltac:(intros x [<-|[]]; auto) ltac:(cbn [List.length]; lia)) as [H1 H2]. destruct r as [my|]; auto.
  destruct (inv1_trySet root classes compare W _ _ _ _ _ _ _ _ E ET (d_one _ (proj1 HC)) (d_errs _ (proj1 H1))) as [_ HG]. destruct (HG my eq_refl) as [P1 ->]. apply (C_finish c k); auto.
Qed.

(* a class whose parts are sized and whose arrays are known *)
Definition instant (m : smember) (st : sstate) : Prop := msized m st /\ forall d n, m = MArray d n -> st_lab st d = true.
Lemma instant_ext m st st' : ext st st' -> instant m st -> instant m st'.
Proof. intros HE [H1 H2]. split; [eapply msized_ext; eauto|]. intros d n EM. destruct HE as (_ & HL & _). rewrite HL. eauto. Qed.
Lemma calc_instant rec c m st seen : instant m st -> exists s, calc rec c m st seen = (st, seen, s) /\ 0 <= s.
Proof.
  intros [H1 H2]. destruct m as [b a|d|d n|]; cbn [msized calcVariableSymbolTypeSize] in *; [eexists; split; [reflexivity|lia]| | |contradiction].
  - assert (st_size st d >=? 0 = true) as -> by lia. eexists; split; [reflexivity|lia].
  - rewrite (H2 d n eq_refl). eexists; split; [reflexivity|lia].
Qed.
Lemma total_instant rec c kd : forall ms acc st seen, 0 <= acc -> (forall m, In m ms -> instant m st) -> 0 <= snd (totl rec c kd ms acc st seen).
Proof.
  induction ms as [|m ms IH]; intros acc st seen HA HM; cbn [total_loop]; auto. pose proof (HM m (or_introl eq_refl)) as HI. destruct (calc_instant rec c m st seen HI) as (s & -> & HS).
  destruct (s =? CYCLEFLAG) eqn:E1; [uf; lia|]. destruct (s <=? UNKNOWNSIZE) eqn:E2; [uf; lia|]. fold (set_total classes m s st). pose proof (ext_set_total classes m s st) as HX. apply IH.
  - pose proof (msize_nonneg classes kd m _ (proj1 (instant_ext m _ _ HX HI))). lia.
  - intros x HXx. eapply instant_ext; eauto. apply HM. right. auto.
Qed.
Lemma max_instant rec c : forall ms acc st seen, 0 <= acc -> (forall m, In m ms -> instant m st) -> 0 <= snd (maxl rec c ms acc st seen).
Proof.
  induction ms as [|m ms IH]; intros acc st seen HA HM; cbn [max_loop]; auto. pose proof (HM m (or_introl eq_refl)) as HI. destruct (calc_instant rec c m st seen HI) as (s & -> & HS).
  destruct (s =? CYCLEFLAG) eqn:E1; [uf; lia|]. destruct (s <=? UNKNOWNSIZE) eqn:E2; [uf; lia|]. fold (set_max classes m s st). pose proof (ext_set_max classes m s st) as HX. cbn zeta. apply IH.
  - destruct (_ >? _) eqn:EG; lia.
  - intros x HXx. eapply instant_ext; eauto. apply HM. right. auto.
Qed.
Lemma bases_ok bs st : (forall b, In b bs -> b <> 0%N -> 0 <= st_size st b) -> bases_loop bs st = None.
Proof.
  induction bs as [|x bs IH]; intros H; cbn [bases_loop]; auto. destruct (N.eqb_spec x 0) as [->|NX]; [apply IH; intros b HB; apply H; right; auto|]. pose proof (H x (or_introl eq_refl) NX). destruct (st_size st x <? 0) eqn:E; [lia|]. apply IH. intros b HB; apply H; right; auto.
Qed.
Lemma SBS_instant st c k : invC st -> classes c = Some k -> (forall d, contains classes c d -> 0 <= st_size st d /\ st_lab st d = true) -> 0 <= st_size (SBS st c) c.
Proof.
  intros HC EK HP. destruct (closed c k EK) as (HT & NS & NH).
  destruct (complete st c) eqn:EC.
  { unfold setBitSize. rewrite EK, EC. cbn [orb]. pose proof (z_size _ _ (x_zero _ _ _ (d_one _ (proj1 HC))) c). unfold complete in EC. uf. lia. }
  assert (complete st c || sc_stub k = false) as EC' by (rewrite EC, NS; auto). rewrite (SBS_step root classes tab st c k EK EC').
  destruct (trySet (S (List.length tab)) c st [c]) as [[st1 seen1] r] eqn:ET.
  assert (seenok [c] st [c]) as HS by (constructor; [constructor; [auto|constructor]|intros x [<-|[]]; auto|intros x HX; auto]).
  destruct (C_trySet _ c k st [c] [c] st1 seen1 r EK ET HC HS ltac:(intros x [<-|[]]; auto) ltac:(cbn [List.length]; lia)) as [H1 _].
  assert (exists my, r = Some my) as (my & ->).
  { rewrite (trySet_S root classes _ c k st [c] EK) in ET. unfold members_of in ET. rewrite bases_ok in ET by (intros b HB NZ; apply HP; exists k; auto).
    assert (forall m, In m (sc_members k) -> instant m st) as HI.
    { intros m HM. destruct m as [b a|d|d n|]; split; cbn [msized]; auto; try discriminate.
      - apply HP. exists k; auto.
      - apply HP. exists k. split; auto. right. left. exists n. auto.
      - intros d' n' E. injection E as <- <-. apply HP. exists k. split; auto. right. left. exists n. auto. }
    pose proof (max_instant (trySet (List.length tab)) c (sc_members k) 0 st [c] ltac:(lia) HI) as M1. pose proof (total_instant (trySet (List.length tab)) c (sc_kind k) (sc_members k) 0 st [c] ltac:(lia) HI) as M2.
    destruct (sc_union k); [destruct (maxl _ _ _ _ _ _) as [[st2 seen2] t]|destruct (totl _ _ _ _ _ _ _) as [[st2 seen2] t]]; cbn [snd] in *;
    (destruct (t =? CYCLEFLAG) eqn:E1; [uf; lia|]; destruct (t =? UNKNOWNSIZE) eqn:E2; [uf; lia|]; injection ET as _ _ <-; eauto). }
  destruct (inv1_trySet root classes compare W _ _ _ _ _ _ _ _ EK ET (d_one _ (proj1 HC)) (d_errs _ (proj1 H1))) as [_ HG]. destruct (HG my eq_refl) as [P1 ->]. apply (C_finish c k); auto.
Qed.
Lemma C_fold l : forall st, invC st -> invC (fold_left SBS l st).
Proof. induction l as [|c l IH]; intros st HC; cbn [fold_left]; auto. apply IH, C_SBS. auto. Qed.
Lemma C_fold_sized l : forall st c k, invC st -> classes c = Some k -> In c l -> (forall d, contains classes c d -> 0 <= st_size st d /\ st_lab st d = true) -> 0 <= st_size (fold_left SBS l st) c.
Proof.
  induction l as [|x l IH]; intros st c k HC EK HI HP; [destruct HI|]. cbn [fold_left]. destruct HI as [->|HI].
  - pose proof (SBS_instant st c k HC EK HP) as H. rewrite (ext_sz _ _ _ (ext_fold root classes tab l (SBS st c)) H). auto.
  - apply (IH _ c k); auto; [apply C_SBS; auto|]. intros d HD. destruct (HP d HD) as [H1 H2]. pose proof (ext_SBS root classes tab st x) as HX. rewrite (ext_sz _ _ _ HX H1). destruct HX as (_ & HL & _). rewrite HL. auto.
Qed.
Lemma C_passes n : let st := passes root classes tab n start in invC st /\ (forall c, st_lab st c = complete st c) /\ forall c k, classes c = Some k -> (rank c < n)%nat -> 0 <= st_size st c.
Proof.
  induction n as [|n IH]; cbn zeta in *.
  - split; [|split; [auto|intros; lia]]. split; [|intros x H; cbn in H; uf; lia]. constructor; [apply (inv1_start root classes tab)|auto|auto|intros c; cbn; uf; lia|intros c H; cbn in H; uf; lia].
  - destruct IH as (HC & HL & HS). cbn [passes]. rewrite (d_errs _ (proj1 HC)). cbn [Nat.eqb]. unfold pass. pose proof (C_fold tab _ HC) as HC'. split; [|split; [auto|]].
    + destruct HC' as [[D1 D2 D3 D4 D5] HK]. split; [|exact HK]. constructor; auto. apply (inv1_label root classes). auto.
    + intros c k EK HR. cbn [label st_size]. apply (C_fold_sized tab _ c k); auto; [apply (closed c k EK)|]. intros d HD. destruct (declared c d HD) as (kd & EKd). pose proof (ranked c d HD). pose proof (HS d kd EKd ltac:(lia)) as H1. split; auto.
      rewrite HL. unfold complete. uf. lia.
Qed.
End Complete.
