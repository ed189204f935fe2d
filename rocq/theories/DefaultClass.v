(* DefaultClass.v: the default values of classes; lemmas for DefaultTheorems.v. *)
From Coq Require Import String List NArith ZArith Lia Bool Permutation.
From Coq Require Import ZifyBool ZifyNat ZifyN.
From Verif Require Import Base TypeTableModel FamilyModel FamilyProofs BitVec UTypeModel AtomModel AtomSpec AtomProofs AtomTheorems LayoutModel LayoutSpec LayoutTheorems DefaultModel DefaultSpec DefaultProofs DefaultPlaces DefaultInit.
Import ListNotations.
Open Scope N_scope.
Local Opaque the_fuel.

(* ---- steps one after the other ---- *)
Fixpoint run (fs : list (N -> option N)) (dv : N) : option N := match fs with [] => Some dv | f :: r => bind (f dv) (run r) end.
Lemma run_app fs gs dv : run (fs ++ gs) dv = bind (run fs dv) (run gs).
Proof. revert dv. induction fs as [|f fs IH]; intros dv; cbn [run app bind]; auto. destruct (f dv); cbn [bind]; auto. Qed.
(* a step sets the n bits from q on to b, or does nothing *)
Definition writes (f : N -> option N) (q n : N) (ob : option (list bool)) : Prop := forall dv, exists dv', f dv = Some dv' /\
  match ob with Some b => part q n (bits8k dv') = b | None => part q n (bits8k dv') = part q n (bits8k dv) end /\
  forall x, x < q \/ q + n <= x -> nth (N.to_nat x) (bits8k dv') false = nth (N.to_nat x) (bits8k dv) false.
Lemma writes_none q n : writes Some q n None.
Proof. intros dv. exists dv. auto. Qed.
Lemma writes_copy v q n : q + n <= W8K -> writes (fun dv => copyBV v 0 q n dv) q n (Some (front n v)).
Proof.
  intros H dv. rewrite copyBV_ok by lia. eexists. split; [reflexivity|]. split.
  - rewrite write_part by auto. rewrite read_bits, front_part by lia. reflexivity.
  - intros x Hx. rewrite write_nth by auto. replace ((q <=? x) && (x <? q + n)) with false by lia. reflexivity.
Qed.
Lemma run_ok h : forall (l : list ((N -> option N) * (N * N))) (Q : nat -> option (list bool) -> Prop) o e, consecutive o (map snd l) e -> h + e <= W8K ->
  (forall i f q n, nth_error l i = Some (f, (q, n)) -> exists ob, writes f (h + q) n ob /\ Q i ob) ->
  forall dv, exists dv', run (map fst l) dv = Some dv' /\
    (forall i f q n, nth_error l i = Some (f, (q, n)) -> exists ob, Q i ob /\ part (h + q) n (bits8k dv') = match ob with Some b => b | None => part (h + q) n (bits8k dv) end) /\
    (forall x, x < h + o \/ h + e <= x -> nth (N.to_nat x) (bits8k dv') false = nth (N.to_nat x) (bits8k dv) false).
Proof.
  induction l as [|[f [q n]] l IH]; intros Q o e HC HB HW dv; cbn [map run fst snd consecutive] in *.
  - exists dv. split; auto. split; auto. intros [|i]; discriminate.
  - destruct HC as [EQ HC]. subst o. destruct (HW 0%nat f q n eq_refl) as (ob & HW0 & Q0). destruct (HW0 dv) as (dv1 & E1 & P1 & O1). rewrite E1. cbn [bind].
    destruct (IH (fun i => Q (S i)) _ _ HC HB (fun i f q n HI => HW (S i) f q n HI) dv1) as (dv2 & E2 & P2 & O2). exists dv2. split; auto. apply consecutive_le in HC as HLE. split.
    + intros [|i] f' q' n' EN; cbn [nth_error] in EN.
      * injection EN as <- <- <-. exists ob. split; auto. assert (part (h + q) n (bits8k dv2) = part (h + q) n (bits8k dv1)) as ->. { apply part_same; rewrite ?bits_length; [lia|reflexivity|]. intros x Hx. apply O2. lia. }
        destruct ob; auto.
      * destruct (P2 i f' q' n' EN) as (ob' & Q' & ->). exists ob'. split; auto. destruct ob'; auto. apply (map_nth_error snd) in EN. cbn [snd] in EN. destruct (consecutive_within _ _ _ _ _ _ HC EN).
        apply part_same; rewrite ?bits_length; [lia|reflexivity|]. intros x Hx. apply O1. lia.
    + intros x Hx. rewrite O2 by lia. apply O1. lia.
Qed.
(* all steps write from h on: the last one that writes remains *)
Lemma run_same h e : h + e <= W8K -> forall (l : list ((N -> option N) * N)) (Q : nat -> option (list bool) -> Prop), 
  (forall i f n, nth_error l i = Some (f, n) -> n <= e /\ exists ob, writes f h n ob /\ Q i ob) ->
  forall dv, exists dv' obs, List.length obs = List.length l /\ (forall i ob, nth_error obs i = Some ob -> Q i ob) /\ run (map fst l) dv = Some dv' /\
    (forall i f n b, nth_error l i = Some (f, n) -> nth_error obs i = Some (Some b) -> (forall j ob, (i < j)%nat -> nth_error obs j = Some ob -> ob = None) -> part h n (bits8k dv') = b) /\
    (forall x, (forall i f n b, nth_error l i = Some (f, n) -> nth_error obs i = Some (Some b) -> x < h \/ h + n <= x) -> nth (N.to_nat x) (bits8k dv') false = nth (N.to_nat x) (bits8k dv) false).
Proof.
  intros HB. induction l as [|[f n] l IH]; intros Q HW dv; cbn [map run fst] in *.
  - exists dv, []. split; auto. split; [intros [|i]; discriminate|]. split; auto. split; auto. intros [|i]; discriminate.
  - destruct (HW 0%nat f n eq_refl) as (HN & ob & HW0 & Q0). destruct (HW0 dv) as (dv1 & E1 & P1 & O1). rewrite E1. cbn [bind].
    destruct (IH (fun i => Q (S i)) (fun i f n HI => HW (S i) f n HI) dv1) as (dv2 & obs & L2 & Q2 & E2 & P2 & O2). exists dv2, (ob :: obs). split; [cbn; congruence|]. split; [intros [|i] ob' Eo; cbn in Eo; [congruence|auto]|]. split; auto. split.
    + intros [|i] f' n' b EN Eo HL; cbn [nth_error] in EN, Eo.
      * injection EN as <- <-. injection Eo as ->. rewrite <- P1. apply part_same; rewrite ?bits_length; [lia|reflexivity|]. intros x Hx. apply O2. intros i f' n' b' _ Ei. exfalso. specialize (HL (S i) (Some b') ltac:(lia) Ei). discriminate.
      * apply (P2 i f' n' b EN Eo). intros j ob' Hj Ej. apply (HL (S j) ob'); auto. lia.
    + intros x Hx. rewrite O2; [|intros i f' n' b EN Eo; apply (Hx (S i) f' n' b EN Eo)]. destruct ob as [b|]; [apply O1; apply (Hx 0%nat f n b eq_refl eq_refl)|].
      destruct (N.lt_ge_cases x h); [apply O1; auto|]. destruct (N.lt_ge_cases x (h + n)); [|apply O1; auto].
      assert (nth (N.to_nat (x - h)) (part h n (bits8k dv1)) false = nth (N.to_nat (x - h)) (part h n (bits8k dv)) false) as E by congruence. rewrite !part_nth in E by lia. replace (N.to_nat h + N.to_nat (x - h))%nat with (N.to_nat x) in E by lia. exact E.
Qed.

Lemma times_length n l : List.length (times n l) = (N.to_nat n * List.length l)%nat.
Proof. unfold times. induction (N.to_nat n) as [|k IH]; cbn [repeat concat]; auto. rewrite app_length, IH. lia. Qed.
Lemma times_1 l : times 1 l = l.
Proof. unfold times. cbn. apply app_nil_r. Qed.
Lemma times_nil n : times n [] = [].
Proof. unfold times. induction (N.to_nat n); cbn; auto. Qed.
Lemma nitems_items m : items m = nitems m.
Proof. reflexivity. Qed.
Lemma default_array_ok df c w n v : df c = Some v -> w <= W8K -> n * w <= W8K -> exists r, default_array df c w n = Some r /\ front (n * w) r = times n (front w v).
Proof.
  intros E H1 H2. unfold default_array. rewrite E. cbn [bind]. destruct (C18_big_default w n 0 v 0 H1 ltac:(lia)) as (r & -> & HR). exists r. split; auto. unfold front at 1. rewrite HR. change (N.to_nat 0) with 0%nat.
  fold (front w v). fold (times n (front w v)). assert (List.length (times n (front w v)) = N.to_nat (n * w)) as HL by (rewrite times_length, front_length by auto; lia).
  rewrite <- HL. apply slice_splice_same. rewrite HL, bits_length. lia.
Qed.

Section Class.
Variable root : N -> N.
Variable classes : N -> option lclass.
Variable compare : N -> N -> cmp.
Variable members : N -> list dmember.
Variable header : N -> N.
Variable emptyElement : N.
Variable rank : N -> nat.
Hypothesis P : program root classes compare members emptyElement rank.
Notation W := (p_wf _ _ _ _ _ _ P).
Notation bases := (lbases classes).
Notation ancestor := (ancestor root bases).
Notation class_size := (class_size root classes).
Notation first_bit := (first_bit classes).
Notation base_at := (base_at root classes compare).
Notation value := (value_of root classes compare members).
Notation member_value D := (member_value root classes compare members D emptyElement).
Notation size_fits := (size_fits root classes compare members emptyElement rank P).

(* ---- one member ---- *)
Lemma member_step D dfm c k i m d off : classes c = Some k -> nth_error (lc_members k) i = Some m -> nth_error (members c) i = Some d ->
  (forall mc kc, classes mc = Some kc -> (rank mc < rank c)%nat -> exists v, dfm mc = Some v /\ front (class_size mc) v = D mc) ->
  off + hdr classes c + member_size m <= W8K ->
  exists ob, writes (member_default root classes compare members emptyElement dfm c m d off) (off + hdr classes c) (member_size m) ob /\
    match ob with Some b => member_value D m d b | None => member_value D m d (zeros (member_size m)) /\ (member_size m = 0 \/ dm_class d = None /\ dm_atom d = false) end.
Proof.
  intros EK EM ED HD HB. destruct (p_declared _ _ _ _ _ _ P c k i m d EK EM ED) as [HDc HI]. unfold declared in HDc. unfold dm_init_ok in HI. pose proof (nth_error_In _ _ ED) as IND.
  assert (member_size m <= W8K) as HB' by lia. pose proof (size_member m) as HSM.
  assert (dm_atom d = true -> exists v, dfm emptyElement = Some v /\ front 96 v = D emptyElement) as HAtom.
  { intros EA. destruct (p_empty _ _ _ _ _ _ P) as (ke & EE & KE). destruct (HD emptyElement ke EE) as (v & Ev & Fv); [eapply p_rank_atom; eauto|]. exists v. split; auto. rewrite <- Fv. f_equal. unfold DefaultSpec.class_size. rewrite EE. destruct ke as [kk ? ? ?]. cbn in KE. subst kk. reflexivity. }
  assert (forall mc, dm_class d = Some mc -> exists v, dfm mc = Some v /\ front (one_size m) v = D mc) as HClass.
  { intros mc EC. rewrite EC in HDc. destruct HDc as (_ & (kc & EKc) & ES). rewrite <- ES. apply (HD mc kc EKc). eapply p_rank_member; eauto. }
  assert (sized root classes (dm_class d) m) as HS. { unfold sized. destruct (dm_class d); tauto. }
  unfold member_default. rewrite member_sizeof, size_one. destruct (member_size m =? 0) eqn:EZ.
  - (* nothing to write *)
    exists None. split; [apply writes_none|]. assert (member_size m = 0) as E0 by lia. split; auto. clear EZ. rewrite E0. change (zeros 0) with (@nil bool).
    assert (nitems m = 0 \/ one_size m = 0) as HZ by nia.
    assert (forall e, init_ok root classes compare members e (dm_class d) m -> initialised root classes compare members e (dm_class d) m [] []) as HInit.
    { intros e HK. destruct (value_total root classes compare members emptyElement rank P e (dm_class d) m HK HS HB' 0) as [v Ev]. pose proof (value_sound root classes compare members emptyElement rank P e (dm_class d) m 0 v Ev HS HB') as HV. rewrite E0 in HV. exact HV. }
    unfold DefaultSpec.member_value. destruct (dm_atom d) eqn:EA.
    + destruct (HAtom eq_refl) as (v & _ & Fv). assert (nitems m = 0) as ->; [|reflexivity]. destruct HZ as [|HZ]; auto. destruct (dm_class d); [destruct HDc as [X _]; discriminate|]. destruct HDc as [X1 X2]. unfold one_size in HZ. rewrite X1, (X2 eq_refl) in HZ. discriminate.
    + destruct (dm_class d) as [mc|] eqn:EC.
      * destruct (HClass mc eq_refl) as (v & _ & Fv). assert (times (nitems m) (D mc) = []) as ET. { destruct HZ as [->|HZ]; [reflexivity|]. rewrite HZ in Fv. rewrite <- Fv. apply times_nil. }
        destruct (dm_init d) as [[|x|x|l|l]|]; rewrite ?ET; auto. assert (@nil bool = front (member_size m) x) as -> by (rewrite E0; reflexivity). constructor.
      * destruct (dm_init d) as [[|x|x|l|l]|]; rewrite ?E0; auto; [destruct HI as [_ []]; auto|]. assert (@nil bool = front (member_size m) x) as E' by (rewrite E0; reflexivity). rewrite E'. constructor.
  - assert (nitems m >= 1 /\ one_size m >= 1) as HZ by nia. assert (one_size m <= W8K) as HW1 by nia.
    unfold DefaultSpec.member_value. destruct (dm_atom d) eqn:EA.
    + destruct (HAtom eq_refl) as (v & Ev & Fv). assert (one_size m = 96) as E96. { destruct (dm_class d); [destruct HDc as [X _]; discriminate|]. destruct HDc as [X1 X2]. unfold one_size. rewrite X1. auto. }
      rewrite nitems_items. rewrite E96 in HSM. destruct (default_array_ok dfm emptyElement 96 (nitems m) v Ev ltac:(lia) ltac:(lia)) as (r & -> & Fr). cbn [bind]. exists (Some (front (member_size m) r)). split; [apply writes_copy; auto|]. rewrite HSM, Fr, Fv. reflexivity.
    + destruct (dm_class d) as [mc|] eqn:EC.
      * destruct (HClass mc eq_refl) as (v & Ev & Fv).
        assert (mt_array m = None -> times (nitems m) (D mc) = front (member_size m) v) as HScalar. { intros EAr. rewrite HSM. unfold nitems. rewrite EAr, times_1, N.mul_1_l. auto. }
        destruct (dm_init d) as [e|] eqn:EI.
        -- assert (exists r, var_init root classes compare members dfm mc m e = Some r /\ match e with CKeep => front (member_size m) r = times (nitems m) (D mc) | _ => initialised root classes compare members e (Some mc) m (times (nitems m) (D mc)) (front (member_size m) r) end) as (r & -> & HR).
           { destruct e as [|x|x|l|l]; cbn [var_init].
             - destruct HI as [EAr _]. rewrite EAr. exists v. split; auto. rewrite HScalar; auto.
             - inversion HI.
             - exists x. split; [destruct (mt_array m); auto|constructor].
             - inversion HI as [| | | | |l0 c0 m0 EAr]; subst. rewrite EAr, Ev. cbn [bind]. destruct (value_total root classes compare members emptyElement rank P _ _ m HI HS HB' v) as [r Er]. exists r.
               pose proof (value_sound root classes compare members emptyElement rank P _ _ m v r Er HS HB') as HV. split; [cbn [value_of] in Er; rewrite EAr in Er; exact Er|]. rewrite HScalar by auto. exact HV.
             - inversion HI as [| | | |l0 c0 m0 n EAr|]; subst. rewrite EAr, size_one. assert (nitems m = n) as EN by (unfold nitems; rewrite EAr; auto). rewrite EN in *. destruct (default_array_ok dfm mc (one_size m) n v Ev HW1 ltac:(lia)) as (r0 & -> & Fr0). cbn [bind].
               destruct (value_total root classes compare members emptyElement rank P _ _ m HI HS HB' r0) as [r Er]. exists r. split; auto. rewrite <- Fv, <- Fr0, <- HSM. exact (value_sound root classes compare members emptyElement rank P _ _ m r0 r Er HS HB'). }
           cbn [bind]. exists (Some (front (member_size m) r)). split; [apply writes_copy; auto|]. destruct e; auto.
        -- rewrite nitems_items. replace (if 0 <? nitems m then nitems m else 1) with (nitems m) by (destruct (0 <? nitems m) eqn:X; lia). destruct (default_array_ok dfm mc (one_size m) (nitems m) v Ev HW1 ltac:(lia)) as (r & -> & Fr). cbn [bind].
           exists (Some (front (member_size m) r)). split; [apply writes_copy; auto|]. rewrite HSM, Fr, Fv. reflexivity.
      * destruct (dm_init d) as [e|] eqn:EI; [|exists None; split; [apply writes_none|auto]].
        assert (exists r, value e None m 0 = Some r) as [r Er]. { destruct e as [|x|x|l|l]; try (apply (value_total root classes compare members emptyElement rank P _ None m HI HS HB')); [destruct HI as [_ []]; auto|cbn; eauto]. }
        rewrite Er. cbn [bind]. exists (Some (front (member_size m) r)). split; [apply writes_copy; auto|]. pose proof (value_sound root classes compare members emptyElement rank P e None m 0 r Er HS HB') as HV.
        rewrite (front_part _ 0), zero_bits, part_zeros in HV by lia. exact HV.
Qed.

(* ---- the steps of a class ---- *)
Lemma members_run dfm c : forall ms ds ps dv, List.length ds = List.length ms -> List.length ps = List.length ms ->
  members_default root classes compare members emptyElement dfm c ms ds ps dv =
  run (map (fun t => member_default root classes compare members emptyElement dfm c (fst (fst t)) (snd (fst t)) (snd t)) (combine (combine ms ds) ps)) dv.
Proof.
  induction ms as [|m ms IH]; intros [|d ds] [|p ps] dv H1 H2; try discriminate; cbn [members_default combine map run fst snd]; auto.
  destruct (member_default _ _ _ _ _ _ _ _ _ _ dv); cbn [bind]; auto.
Qed.
Lemma bases_run dfb c : forall bs seen off ps e, pack_bases classes bs seen off = Some (ps, e) -> forall dv,
  bases_default classes dfb c bs ps dv = run (map (fun t => base_default classes dfb c (fst t) (Some (snd t))) (place classes off (nz bs))) dv.
Proof.
  induction bs as [|b bs IH]; intros seen off ps e E dv; cbn [pack_bases] in E; [injection E as <- <-; reflexivity|]. unfold nz in *. cbn [filter]. destruct (b =? 0) eqn:EZ; cbn [negb].
  - destruct (pack_bases classes bs seen off) as [[qs e']|] eqn:E'; [|discriminate]. injection E as <- <-. cbn [bases_default]. rewrite EZ. cbn [bind]. eapply IH; eauto.
  - destruct (mem b seen); [discriminate|]. destruct (pack_bases classes bs (b :: seen) _) as [[qs e']|] eqn:E'; [|discriminate]. injection E as <- <-. cbn [bases_default place map run fst snd]. rewrite EZ.
    destruct (base_default classes dfb c b (Some off) dv); cbn [bind]; auto. eapply IH; eauto.
Qed.
Lemma shared_run dfb c bs bps : (forall b, In b bs -> b <> 0 -> exists k, classes b = Some k) -> forall sh off ps e, (forall y, In y sh -> root y = y /\ y <> 0) -> pack_shared classes compare bs bps sh off = (ps, e) -> forall dv,
  shared_default classes compare dfb c bs sh ps dv = run (map (fun t => base_default classes dfb c (fst t) (Some (snd t))) (place classes off (filter (fun y => negb (mem y bs)) sh))) dv.
Proof.
  intros HD. induction sh as [|y sh IH]; intros off ps e HR E dv; cbn [pack_shared] in E; [injection E as <- <-; reflexivity|]. destruct (HR y (or_introl eq_refl)) as [RY NZ]. pose proof (base_item_index root classes compare W y bs 0 HD RY NZ) as HB. cbn [filter].
  assert (forall y, In y sh -> root y = y /\ y <> 0) as HR' by (intros z Hz; apply HR; right; auto).
  destruct (base_item compare bs y 0) as [j|] eqn:EB.
  - destruct (pack_shared classes compare bs bps sh off) as [qs e'] eqn:E'. injection E as <- <-. destruct HB as (n & _ & Hn). apply nth_error_In in Hn. rewrite (proj2 (mem_In y bs) Hn). cbn [negb shared_default]. rewrite EB. cbn [bind]. eapply IH; eauto.
  - destruct (pack_shared classes compare bs bps sh _) as [qs e'] eqn:E'. injection E as <- <-. replace (mem y bs) with false by (symmetry; destruct (mem y bs) eqn:X; auto; apply mem_In in X; contradiction). cbn [negb shared_default place map run fst snd]. rewrite EB.
    destruct (base_default classes dfb c y (Some off) dv); cbn [bind]; auto. eapply IH; eauto.
Qed.
Lemma rank_ancestor c a : a <> 0 -> ancestor c a -> (rank a < rank c)%nat.
Proof.
  intros NZ (y & HE & HR). revert c HE. induction HR as [y|y z a HE' HR IH]; intros c (bs & b & EB & HI & ER).
  - unfold lbases in EB. destruct (classes c) as [k|] eqn:EK; [|discriminate]. injection EB as <-. assert (b <> 0) as NB. { intros ->. apply NZ. rewrite <- ER. apply (wf_zero _ _ _ W). auto. }
    destruct (wf_bases _ _ _ W c k b EK HI NB) as (kb & Eb & _). rewrite (wf_root _ _ _ W b kb Eb) in ER. subst y. eapply p_rank_base; eauto.
  - specialize (IH NZ y HE'). unfold lbases in EB. destruct (classes c) as [k|] eqn:EK; [|discriminate]. injection EB as <-. destruct (N.eq_dec b 0) as [->|NB].
    + assert (root 0 = 0) as R0 by (apply (wf_zero _ _ _ W); auto). rewrite R0 in ER. subst y. destruct HE' as (bs & b' & EB & _). unfold lbases in EB. rewrite (wf_nouti _ _ _ W) in EB. discriminate.
    + destruct (wf_bases _ _ _ W c k b EK HI NB) as (kb & Eb & _). rewrite (wf_root _ _ _ W b kb Eb) in ER. subst y. pose proof (p_rank_base _ _ _ _ _ _ P c k b EK HI NB). lia.
Qed.

(* the whole body as one run *)
Lemma body_run c k p dfm dfb : classes c = Some k -> packBits root classes compare c = Some p -> exists o1,
  pack_members (lc_union k) (lc_members k) 0 = (pk_members p, o1) /\ List.length (pk_members p) = List.length (lc_members k) /\
  let all := nz (lc_bases k) ++ filter (fun y => negb (mem y (lc_bases k))) (sharedTable root classes compare c) in
  (forall a, In a all <-> a <> 0 /\ ancestor c a) /\
  (forall a q, In (a, q) (place classes o1 all) -> base_position root classes compare c a = q) /\
  (lc_union k = false -> o1 = own_bits k /\ totalbits root classes c = o1 + total classes all) /\
  class_body root classes compare members header emptyElement dfm dfb c k p =
  run (map (fun t => member_default root classes compare members emptyElement dfm c (fst (fst t)) (snd (fst t)) (snd t)) (combine (combine (lc_members k) (members c)) (pk_members p)) ++
       map (fun t => base_default classes dfb c (fst t) (Some (snd t))) (place classes o1 all))
      (if is_element (lc_kind k) then bv_write W8K 0 25 (header c) 0 else 0).
Proof.
  intros EK EP. destruct (pack_parts root classes compare W c k EK p EP) as (o1 & EM & NDd & EE & HP). exists o1. split; auto.
  assert (List.length (pk_members p) = List.length (lc_members k)) as HLen.
  { clear -EM. revert EM. generalize 0. generalize (pk_members p). revert o1. induction (lc_members k) as [|m l IH]; intros o1 ps o E; cbn [pack_members] in E; [injection E as <- _; auto|].
    destruct (pack_members (lc_union k) l _) as [ps' e] eqn:E'. injection E as <- _. cbn. f_equal. eapply IH; eauto. }
  split; auto. intros all. assert (forall a, In a all <-> a <> 0 /\ ancestor c a) as HAll.
  { intros a. pose proof (parts_perm root classes compare W c k EK NDd) as PP. rewrite <- (wf_root _ _ _ W c k EK) at 1. rewrite <- (shared_table_in root classes compare W c a). split; intros HI; [apply (Permutation_in _ (Permutation_sym PP)); auto|apply (Permutation_in _ PP); auto]. }
  split; auto. split; [|split].
  - intros a q HQ. unfold base_position. destruct (HP a q HQ) as [-> _]. reflexivity.
  - intros EU. rewrite EU in EM. destruct (pack_members_ok (lc_members k) 0 _ _ EM) as (_ & _ & E1). assert (o1 = own_bits k) as EO by (unfold own_bits; rewrite EU; lia). split; auto.
    unfold totalbits. rewrite (mybits_own root classes compare W c k EK), (sharedbits_total root classes compare W c), (total_perm classes _ _ (parts_perm root classes compare W c k EK NDd)). fold all. lia.
  - assert (forall y, In y (sharedTable root classes compare c) -> root y = y /\ y <> 0) as HSr.
    { intros y HY. apply (shared_table_in root classes compare W) in HY. destruct HY as [NZ HY]. destruct (ancestor_class root classes compare W _ _ HY NZ) as (ky & EY & _). split; auto. eapply (wf_root _ _ _ W); eauto. }
    pose proof EP as EP'. unfold packBits in EP'. rewrite EK, EM in EP'. destruct (pack_bases classes (lc_bases k) [] o1) as [[bps o2]|] eqn:EB; [|discriminate].
    destruct (pack_shared classes compare (lc_bases k) bps (sharedTable root classes compare c) o2) as [sps o3] eqn:ES. injection EP' as EP'. rewrite <- EP' in *. cbn [pk_members pk_bases pk_shared pk_end] in *.
    destruct (pack_bases_ok classes _ _ _ _ _ EB) as (E2 & _). unfold class_body. cbn [pk_members pk_bases pk_shared]. unfold all. rewrite place_app, map_app, !run_app.
    rewrite members_run by (auto; eapply p_members; eauto). set (dv0 := if is_element (lc_kind k) then _ else _). destruct (run _ dv0) as [dv1|]; cbn [bind]; auto. rewrite run_app.
    rewrite (bases_run dfb c _ _ _ _ _ EB). destruct (run (map _ (place classes o1 (nz (lc_bases k)))) dv1) as [dv2|]; cbn [bind]; auto. rewrite <- E2.
    apply (shared_run dfb c (lc_bases k) bps (bases_def root classes compare W c k EK) _ _ _ _ HSr ES).
Qed.

(* ---- the value of a class ---- *)
Definition lower (D : N -> list bool) (c : N) (df : N -> option N) : Prop := forall mc kc, classes mc = Some kc -> (rank mc < rank c)%nat -> exists v, df mc = Some v /\ front (class_size mc) v = D mc.
Lemma nth_place l : forall off i a, nth_error l i = Some a -> exists q, nth_error (place classes off l) i = Some (a, q).
Proof. induction l as [|b l IH]; intros off [|i] a E; try discriminate; cbn [nth_error place] in *; [injection E as ->; eauto|auto]. Qed.
Lemma place_nth l : forall off i a q, nth_error (place classes off l) i = Some (a, q) -> nth_error l i = Some a.
Proof. induction l as [|b l IH]; intros off [|i] a q E; try discriminate; cbn [nth_error place] in *; [injection E as -> _; auto|eauto]. Qed.
Lemma nth_map_inv {A B} (f : A -> B) l : forall i y, nth_error (map f l) i = Some y -> exists x, nth_error l i = Some x /\ y = f x.
Proof. induction l as [|a l IH]; intros [|i] y E; try discriminate; cbn in *; [injection E as <-; eauto|auto]. Qed.
Lemma nth_combine_inv {A B} (l1 : list A) : forall (l2 : list B) i x y, nth_error (combine l1 l2) i = Some (x, y) -> nth_error l1 i = Some x /\ nth_error l2 i = Some y.
Proof. induction l1 as [|a l1 IH]; intros [|b l2] [|i] x y E; try discriminate; cbn in *; [injection E as -> ->; auto|auto]. Qed.
Lemma nth_app_inv {A} (l m : list A) i x : nth_error (l ++ m) i = Some x -> (i < List.length l)%nat /\ nth_error l i = Some x \/ (List.length l <= i)%nat /\ nth_error m (i - List.length l) = Some x.
Proof. intros E. destruct (Nat.lt_ge_cases i (List.length l)); [rewrite nth_error_app1 in E|rewrite nth_error_app2 in E]; auto. Qed.
Lemma consecutive_app l1 : forall l2 o mid e, consecutive o l1 mid -> consecutive mid l2 e -> consecutive o (l1 ++ l2) e.
Proof. induction l1 as [|[s n] l1 IH]; intros l2 o mid e H1 H2; cbn [consecutive app] in *; [subst; auto|]. destruct H1. split; auto. eapply IH; eauto. Qed.
Lemma start_bits c k : classes c = Some k -> let dv := if is_element (lc_kind k) then bv_write W8K 0 25 (header c) 0 else 0 in
  (lc_kind k = Element -> part 0 25 (bits8k dv) = msb_bits 25 (header c)) /\ (forall x, first_bit c <= x -> nth (N.to_nat x) (bits8k dv) false = false).
Proof.
  intros EK dv. unfold dv, DefaultSpec.first_bit. rewrite EK. destruct k as [kk u ms bs]. cbn [lc_kind]. split.
  - intros ->. cbn [is_element]. rewrite write_part by (unfold W8K; lia). reflexivity.
  - intros x Hx. destruct kk; cbn [is_element]; rewrite ?write_nth by (unfold W8K; lia); try replace ((0 <=? x) && (x <? 0 + 25)) with false by lia; rewrite zero_bits; apply zeros_nth.
Qed.
Lemma base_writes D dfb c k a q : classes c = Some k -> lower D c dfb -> a <> 0 -> ancestor c a -> hdr classes c + q + own_size classes a <= W8K ->
  getBaseClassBitSize classes a = own_size classes a /\ writes (base_default classes dfb c a (Some q)) (hdr classes c + q) (own_size classes a) (Some (part 0 (own_size classes a) (D a))).
Proof.
  intros EK HD NZ HA HB. destruct (ancestor_class root classes compare W c a HA NZ) as (ka & EA & Es). assert (getBaseClassBitSize classes a = own_size classes a) as EG by (unfold own_size; rewrite EA; auto). split; auto.
  destruct (HD a ka EA (rank_ancestor c a NZ HA)) as (v & Ev & Fv). unfold base_default. rewrite Ev, EG.
  assert (part 0 (own_size classes a) (D a) = front (own_size classes a) v) as ->; [|apply writes_copy; auto]. rewrite <- Fv. rewrite part_front, front_part; auto.
  pose proof (size_fits a ka EA). destruct (part_inside root classes compare members emptyElement rank P a ka a ka EA (or_introl eq_refl) EA) as [H1 H2]. unfold own_size. rewrite EA. lia.
Qed.
Lemma body_ok c k p dfm dfb D : classes c = Some k -> packBits root classes compare c = Some p -> lc_union k = false -> lower D c dfm -> lower D c dfb ->
  exists dv, class_body root classes compare members header emptyElement dfm dfb c k p = Some dv /\
  (lc_kind k = Element -> part 0 25 (bits8k dv) = msb_bits 25 (header c)) /\
  (forall i m d, nth_error (lc_members k) i = Some m -> nth_error (members c) i = Some d -> member_value D m d (part (first_bit c + offset_of root classes compare c i) (member_size m) (bits8k dv))) /\
  (forall a ka, a <> 0 -> ancestor c a -> classes a = Some ka -> part (base_at c a) (own_bits ka) (bits8k dv) = part 0 (own_bits ka) (D a)) /\
  (forall x, first_bit c + totalbits root classes c <= x -> nth (N.to_nat x) (bits8k dv) false = false).
Proof.
  intros EK EP EU HDm HDb. destruct (body_run c k p dfm dfb EK EP) as (o1 & EM & HLen & HAll & HPos & HEnd & HRun). set (all := nz (lc_bases k) ++ _) in *. destruct (HEnd EU) as [EO ET]. rewrite HRun. clear HRun.
  pose proof (p_members _ _ _ _ _ _ P c k EK) as HLd. pose proof (size_fits c k EK) as HF. pose proof (hdr_first classes c) as EH.
  set (dv0 := if is_element (lc_kind k) then _ else _). destruct (start_bits c k EK) as [S1 S2]. fold dv0 in S1, S2.
  set (l1 := map (fun t => (member_default root classes compare members emptyElement dfm c (fst (fst t)) (snd (fst t)) (snd t), (snd t, member_size (fst (fst t))))) (combine (combine (lc_members k) (members c)) (pk_members p))).
  set (l2 := map (fun t => (base_default classes dfb c (fst t) (Some (snd t)), (snd t, getBaseClassBitSize classes (fst t)))) (place classes o1 all)).
  set (Q := fun i ob => (forall m d, nth_error (lc_members k) i = Some m -> nth_error (members c) i = Some d -> member_value D m d (match ob with Some b => b | None => zeros (member_size m) end)) /\
                        (forall a, (List.length (lc_members k) <= i)%nat -> nth_error all (i - List.length (lc_members k)) = Some a -> ob = Some (part 0 (own_size classes a) (D a)))).
  assert (map snd l1 = combine (pk_members p) (map member_size (lc_members k))) as EL1.
  { unfold l1. rewrite map_map. cbn [snd]. clear -HLd HLen. revert HLd HLen. generalize (members c) (pk_members p). induction (lc_members k) as [|m ms IH]; intros [|d ds] [|q qs] H1 H2; try discriminate; cbn [combine map fst snd]; auto. cbn [List.length] in H1, H2. f_equal. apply IH; lia. }
  assert (List.length l1 = List.length (lc_members k)) as LL1 by (unfold l1; rewrite map_length, !combine_length; lia).
  assert (consecutive 0 (map snd (l1 ++ l2)) (totalbits root classes c)) as HC.
  { rewrite map_app, EL1, ET. apply consecutive_app with o1. - rewrite EO. apply (members_consecutive root classes compare members emptyElement rank P c k p EK EU EP). - unfold l2. rewrite map_map. cbn [snd]. apply place_consecutive. }
  assert (forall t, In t (place classes o1 all) -> fst t <> 0 /\ ancestor c (fst t)) as HT. { intros t HI. apply HAll. apply (in_map fst) in HI. rewrite place_fst in HI. auto. }
  destruct (run_ok (hdr classes c) (l1 ++ l2) Q 0 (totalbits root classes c) HC ltac:(lia)) with (dv := dv0) as (dv & ER & HW & HO).
  { intros i f q n EN. pose proof (map_nth_error snd _ _ EN) as EC. cbn [snd] in EC. destruct (consecutive_within _ _ _ _ _ _ HC EC) as [_ HQ]. apply nth_app_inv in EN. rewrite LL1 in EN. destruct EN as [[HL EN]|[HL EN]].
    - apply nth_map_inv in EN. destruct EN as ([[m d] q'] & EN & Eq). cbn [fst snd] in Eq. injection Eq as -> -> ->. apply nth_combine_inv in EN. destruct EN as [EN _]. apply nth_combine_inv in EN. destruct EN as [Em Ed].
      destruct (member_step D dfm c k i m d q' EK Em Ed HDm ltac:(lia)) as (ob & HW & HV). exists ob. split; [rewrite (N.add_comm (hdr classes c)); exact HW|]. split; [|intros a Ha; lia].
      intros m0 d0 Em0 Ed0. rewrite Em in Em0. rewrite Ed in Ed0. injection Em0 as <-. injection Ed0 as <-. destruct ob; [auto|apply HV].
    - apply nth_map_inv in EN. destruct EN as ([a q'] & EN & Eq). cbn [fst snd] in Eq. injection Eq as -> -> ->. destruct (HT _ (nth_error_In _ _ EN)) as [NZ HA]. cbn [fst] in NZ, HA.
      assert (getBaseClassBitSize classes a = own_size classes a) as EG. { destruct (ancestor_class root classes compare W c a HA NZ) as (ka & EA & Es). unfold own_size. rewrite EA. auto. }
      destruct (base_writes D dfb c k a q' EK HDb NZ HA) as [_ HW]; [rewrite <- EG; lia|]. rewrite EG. eexists. split; [exact HW|]. split.
      + intros m d Em. exfalso. assert (i < List.length (lc_members k))%nat by (apply nth_error_Some; congruence). lia.
      + intros a0 _ Ea. apply place_nth in EN. rewrite EN in Ea. injection Ea as <-. reflexivity. }
  rewrite map_app in ER. unfold l1, l2 in ER. rewrite !map_map in ER. cbn [fst] in ER. exists dv. split; [exact ER|]. clear ER. split; [|split; [|split]].
  - intros KE. rewrite <- (S1 KE). assert (hdr classes c = 25) as H25 by (unfold hdr; rewrite EK, KE; reflexivity). apply part_same; rewrite ?bits_length; [unfold W8K; lia|reflexivity|]. intros x Hx. apply HO. lia.
  - intros i m d Em Ed. pose proof (off_nth root classes compare members emptyElement rank P c k p i m EK EP Em) as Eo. assert (i < List.length (lc_members k))%nat as Hi by (apply nth_error_Some; congruence).
    assert (nth_error (l1 ++ l2) i = Some (member_default root classes compare members emptyElement dfm c m d (offset_of root classes compare c i), (offset_of root classes compare c i, member_size m))) as EN.
    { rewrite nth_error_app1 by lia. unfold l1. rewrite nth_error_map, (nth_combine _ _ i (m, d) _ (nth_combine _ _ i m d Em Ed) Eo). reflexivity. }
    destruct (HW _ _ _ _ EN) as (ob & [HQ _] & EPt). rewrite <- EH, EPt. specialize (HQ m d Em Ed). destruct ob; auto.
    assert (part (hdr classes c + offset_of root classes compare c i) (member_size m) (bits8k dv0) = zeros (member_size m)) as ->; auto.
    pose proof (map_nth_error snd _ _ EN) as EC. cbn [snd] in EC. destruct (consecutive_within _ _ _ _ _ _ HC EC) as [_ HQ']. apply part_ext; [rewrite bits_length; lia|apply zeros_length|]. intros x Hx. rewrite zeros_nth.
    specialize (S2 (hdr classes c + offset_of root classes compare c i + N.of_nat x) ltac:(lia)). replace (N.to_nat (hdr classes c + offset_of root classes compare c i) + x)%nat with (N.to_nat (hdr classes c + offset_of root classes compare c i + N.of_nat x)) by lia. exact S2.
  - intros a ka NZ HA EA. assert (In a all) as HI by (apply HAll; auto). apply In_nth_error in HI. destruct HI as [j Ej]. destruct (nth_place all o1 j a Ej) as [q Eq].
    assert (nth_error (l1 ++ l2) (List.length (lc_members k) + j) = Some (base_default classes dfb c a (Some q), (q, getBaseClassBitSize classes a))) as EN.
    { rewrite <- LL1. apply nth_app2. unfold l2. rewrite nth_error_map, Eq. reflexivity. }
    destruct (HW _ _ _ _ EN) as (ob & [_ HQ] & EPt). rewrite (HQ a) in EPt; [|lia|replace (List.length (lc_members k) + j - List.length (lc_members k))%nat with j by lia; auto].
    destruct (ancestor_class root classes compare W c a HA NZ) as (ka' & EA' & Es). rewrite EA in EA'. injection EA' as <-. unfold DefaultSpec.base_at. rewrite <- EH. pose proof (ancestor_not_self root classes compare members emptyElement rank P c a HA). replace (c =? a) with false by lia.
    rewrite (HPos a q (nth_error_In _ _ Eq)). rewrite Es in EPt. unfold own_size in EPt. rewrite EA in EPt. exact EPt.
  - intros x Hx. rewrite HO by lia. apply S2. lia.
Qed.

(* ---- unions ---- *)
Definition writer (m : mtype) (d : dmember) : Prop := member_size m <> 0 /\ (dm_class d <> None \/ dm_atom d = true).
Lemma body_union c k p dfm dfb D : classes c = Some k -> packBits root classes compare c = Some p -> lc_union k = true -> lower D c dfm -> lower D c dfb ->
  exists dv, class_body root classes compare members header emptyElement dfm dfb c k p = Some dv /\
  (lc_kind k = Element -> part 0 25 (bits8k dv) = msb_bits 25 (header c)) /\
  (forall i m d, nth_error (lc_members k) i = Some m -> nth_error (members c) i = Some d -> writer m d ->
     (forall j m' d', (i < j)%nat -> nth_error (lc_members k) j = Some m' -> nth_error (members c) j = Some d' -> ~ writer m' d') ->
     member_value D m d (part (first_bit c) (member_size m) (bits8k dv))) /\
  (forall x, first_bit c <= x -> (forall i m d, nth_error (lc_members k) i = Some m -> nth_error (members c) i = Some d -> writer m d -> first_bit c + member_size m <= x) -> nth (N.to_nat x) (bits8k dv) false = false).
Proof.
  intros EK EP EU HDm HDb. destruct (body_run c k p dfm dfb EK EP) as (o1 & EM & HLen & HAll & HPos & HEnd & HRun). set (all := nz (lc_bases k) ++ _) in *.
  assert (all = []) as EAll. { destruct all as [|a all'] eqn:E; auto. destruct (proj1 (HAll a) (or_introl eq_refl)) as [NZ HA]. destruct (union_no_ancestor root classes compare members emptyElement rank P c k a EK EU NZ HA). }
  rewrite EAll in HRun. cbn [place map] in HRun. rewrite app_nil_r in HRun. rewrite HRun. clear HRun HPos HEnd HAll EAll all.
  pose proof (p_members _ _ _ _ _ _ P c k EK) as HLd. pose proof (size_fits c k EK) as HF. pose proof (hdr_first classes c) as EH.
  set (dv0 := if is_element (lc_kind k) then _ else _). destruct (start_bits c k EK) as [S1 S2]. fold dv0 in S1, S2.
  destruct (C38_members_partial root classes compare W c k p EK EU EP) as (H0 & HSz & _).
  set (l := map (fun t => (member_default root classes compare members emptyElement dfm c (fst (fst t)) (snd (fst t)) (snd t), member_size (fst (fst t)))) (combine (combine (lc_members k) (members c)) (pk_members p))).
  set (Q := fun i ob => forall m d, nth_error (lc_members k) i = Some m -> nth_error (members c) i = Some d -> match ob with Some b => writer m d /\ member_value D m d b | None => ~ writer m d end).
  assert (own_bits k <= totalbits root classes c) as HOwn by (unfold totalbits; rewrite (mybits_own root classes compare W c k EK); lia).
  assert (forall i m d, nth_error (lc_members k) i = Some m -> nth_error (members c) i = Some d -> nth_error l i = Some (member_default root classes compare members emptyElement dfm c m d 0, member_size m)) as HNth.
  { intros i m d Em Ed. unfold l. rewrite nth_error_map, (nth_combine _ _ i (m, d) 0 (nth_combine _ _ i m d Em Ed)); [reflexivity|]. rewrite H0, nth_error_map, Em. reflexivity. }
  destruct (run_same (hdr classes c) (own_bits k) ltac:(lia) l Q) with (dv := dv0) as (dv & obs & Lo & HQ & ER & HW & HO).
  { intros i f n EN. apply nth_map_inv in EN. destruct EN as ([[m d] q] & EN & Eq). cbn [fst snd] in Eq. injection Eq as -> ->. apply nth_combine_inv in EN. destruct EN as [EN Eq]. apply nth_combine_inv in EN. destruct EN as [Em Ed].
    rewrite H0, nth_error_map, Em in Eq. injection Eq as <-. pose proof (HSz m (nth_error_In _ _ Em)) as HS. split; auto.
    assert (dm_init d = None) as EI by (eapply (p_union_init _ _ _ _ _ _ P c k); eauto; eapply nth_error_In; eauto).
    destruct (member_step D dfm c k i m d 0 EK Em Ed HDm ltac:(lia)) as (ob & HW & HV). rewrite N.add_0_l in HW.
    destruct (N.eq_dec (member_size m) 0) as [E0|N0].
    - exists None. split; [|intros m0 d0 Em0 Ed0 [X _]; rewrite Em in Em0; injection Em0 as <-; auto]. intros dv. exists dv. unfold member_default. rewrite member_sizeof, E0. auto.
    - destruct (dm_class d) as [mc|] eqn:EC; [|destruct (dm_atom d) eqn:EA].
      + destruct ob as [b|]; [|destruct HV as [_ [|[]]]; congruence]. exists (Some b). split; auto. intros m0 d0 Em0 Ed0. rewrite Em in Em0. rewrite Ed in Ed0. injection Em0 as <-. injection Ed0 as <-. split; auto. split; auto. left. congruence.
      + destruct ob as [b|]; [|destruct HV as [_ [|[]]]; congruence]. exists (Some b). split; auto. intros m0 d0 Em0 Ed0. rewrite Em in Em0. rewrite Ed in Ed0. injection Em0 as <-. injection Ed0 as <-. split; auto. split; auto.
      + exists None. split; [|intros m0 d0 Em0 Ed0 [_ [X|X]]; rewrite Ed in Ed0; injection Ed0 as <-; congruence]. intros dv. exists dv. unfold member_default. rewrite member_sizeof. replace (member_size m =? 0) with false by lia. rewrite EA, EC, EI. auto. }
  unfold l in ER. rewrite map_map in ER. cbn [fst] in ER. exists dv. split; [exact ER|]. clear ER.
  assert (List.length l = List.length (lc_members k)) as LL by (unfold l; rewrite map_length, !combine_length; lia).
  assert (forall i b, nth_error obs i = Some (Some b) -> exists m d, nth_error (lc_members k) i = Some m /\ nth_error (members c) i = Some d /\ writer m d) as HWr.
  { intros i b Ei. assert (i < List.length obs)%nat as Hi by (apply nth_error_Some; congruence). destruct (nth_error (lc_members k) i) as [m|] eqn:Em; [|apply nth_error_None in Em; lia]. destruct (nth_error (members c) i) as [d|] eqn:Ed; [|apply nth_error_None in Ed; lia].
    exists m, d. split; auto. split; auto. apply (HQ i (Some b) Ei m d Em Ed). }
  split; [|split].
  - intros KE. rewrite <- (S1 KE). assert (hdr classes c = 25) as H25 by (unfold hdr; rewrite EK, KE; reflexivity). apply part_same; rewrite ?bits_length; [unfold W8K; lia|reflexivity|]. intros x Hx. apply HO. intros i f n b _ _. lia.
  - intros i m d Em Ed Hw HL. assert (i < List.length obs)%nat as Hi by (rewrite Lo, LL; apply nth_error_Some; congruence). destruct (nth_error obs i) as [[b|]|] eqn:Eo; [| |apply nth_error_None in Eo; lia].
    + rewrite <- EH, (HW i _ _ b (HNth i m d Em Ed) Eo); [apply (HQ i (Some b) Eo m d Em Ed)|]. intros j ob Hj Ej. destruct ob as [b'|]; auto. destruct (HWr j b' Ej) as (m' & d' & Em' & Ed' & Hw'). destruct (HL j m' d' Hj Em' Ed' Hw').
    + destruct (HQ i None Eo m d Em Ed Hw).
  - intros x Hx HN. rewrite HO; [apply S2; auto|]. intros i f n b EN Eo. destruct (HWr i b Eo) as (m & d & Em & Ed & Hw). rewrite (HNth i m d Em Ed) in EN. injection EN as <- <-. right. rewrite EH. apply (HN i m d); auto.
Qed.

(* ---- all classes ---- *)
Lemma run_map_ext {A} (f g : A -> N -> option N) l : (forall t, In t l -> forall dv, f t dv = g t dv) -> forall dv, run (map f l) dv = run (map g l) dv.
Proof. induction l as [|t l IH]; intros H dv; cbn [map run]; auto. rewrite (H t (or_introl eq_refl)). destruct (g t dv); cbn [bind]; auto. apply IH. intros; apply H; right; auto. Qed.
Lemma body_congr c k p dfm dfb dfm' dfb' : classes c = Some k -> packBits root classes compare c = Some p ->
  (forall mc kc, classes mc = Some kc -> (rank mc < rank c)%nat -> dfm mc = dfm' mc /\ dfb mc = dfb' mc) ->
  class_body root classes compare members header emptyElement dfm dfb c k p = class_body root classes compare members header emptyElement dfm' dfb' c k p.
Proof.
  intros EK EP HE. destruct (body_run c k p dfm dfb EK EP) as (o1 & EM & _ & HAll & _ & _ & ->). destruct (body_run c k p dfm' dfb' EK EP) as (o1' & EM' & _ & _ & _ & _ & ->). rewrite EM in EM'. injection EM' as <-.
  rewrite !run_app. set (dv0 := if is_element (lc_kind k) then _ else _).
  assert (forall dv, run (map (fun t => base_default classes dfb c (fst t) (Some (snd t))) (place classes o1 (nz (lc_bases k) ++ filter (fun y => negb (mem y (lc_bases k))) (sharedTable root classes compare c)))) dv =
    run (map (fun t => base_default classes dfb' c (fst t) (Some (snd t))) (place classes o1 (nz (lc_bases k) ++ filter (fun y => negb (mem y (lc_bases k))) (sharedTable root classes compare c)))) dv) as EB.
  { apply run_map_ext. intros [a q] HI dv. cbn [fst snd]. apply (in_map fst) in HI. rewrite place_fst in HI. cbn [fst] in HI. apply HAll in HI. destruct HI as [NZ HA]. destruct (ancestor_class root classes compare W c a HA NZ) as (ka & EA & _).
    unfold base_default. destruct (HE a ka EA (rank_ancestor c a NZ HA)) as [_ ->]. reflexivity. }
  rewrite (run_map_ext _ (fun t => member_default root classes compare members emptyElement dfm' c (fst (fst t)) (snd (fst t)) (snd t))).
  - destruct (run _ dv0); cbn [bind]; auto.
  - intros [[m d] q] HI dv. cbn [fst snd]. apply In_nth_error in HI. destruct HI as [i EN]. apply nth_combine_inv in EN. destruct EN as [EN _]. apply nth_combine_inv in EN. destruct EN as [Em Ed]. pose proof (nth_error_In _ _ Ed) as ID.
    destruct (p_declared _ _ _ _ _ _ P c k i m d EK Em Ed) as [HDc _]. unfold declared in HDc. unfold member_default. destruct (getSizeofUlamType m =? 0); auto. unfold default_array. destruct (dm_atom d) eqn:EA.
    + destruct (p_empty _ _ _ _ _ _ P) as (ke & EE & _). destruct (HE emptyElement ke EE) as [-> _]; [eapply p_rank_atom; eauto|]. reflexivity.
    + destruct (dm_class d) as [mc|] eqn:EC; auto. destruct HDc as (_ & (kc & EKc) & _). destruct (HE mc kc EKc) as [Edf _]; [eapply p_rank_member; eauto|]. rewrite Edf.
      destruct (dm_init d) as [e|]; auto. unfold var_init, default_array. destruct e, (mt_array m); rewrite ?Edf; reflexivity.
Qed.

Notation cd := (class_default root classes compare members header emptyElement).
(* the default value of class c, and its bits *)
Definition V (c : N) : N := match cd (S (rank c)) [] c with Some v => v | None => 0 end.
Definition defaultBits (c : N) : list bool := front (class_size c) (V c).
Lemma value_of_class : forall n c k, (rank c < n)%nat -> classes c = Some k -> forall fuel busy, (rank c < fuel)%nat -> (forall b, In b busy -> (rank c < rank b)%nat) -> cd fuel busy c = Some (V c).
Proof.
  induction n as [|n IH]; intros c k HN EK fuel busy HF HB; [lia|]. destruct fuel as [|f]; [lia|]. unfold V. cbn [class_default]. rewrite EK. destruct (sizeofClass root classes c =? 0); auto.
  destruct (packed root classes compare members emptyElement rank P c k EK) as [p EP]. rewrite EP. assert (mem c busy = false) as -> by (destruct (mem c busy) eqn:E; auto; apply mem_In in E; apply HB in E; lia). cbn [mem existsb].
  assert (forall mc kc, classes mc = Some kc -> (rank mc < rank c)%nat -> cd f (c :: busy) mc = Some (V mc) /\ cd f busy mc = Some (V mc) /\ cd (rank c) [c] mc = Some (V mc) /\ cd (rank c) [] mc = Some (V mc)) as HV.
  { intros mc kc EKc HR. assert (rank mc < n)%nat as HR' by lia. split; [|split; [|split]]; apply (IH mc kc HR' EKc); try lia; intros b Hb.
    - destruct Hb as [<-|Hb]; auto. specialize (HB b Hb). lia.
    - specialize (HB b Hb). lia.
    - destruct Hb as [<-|[]]. auto.
    - destruct Hb. }
  rewrite (body_congr c k p (cd f (c :: busy)) (cd f busy) (cd (rank c) [c]) (cd (rank c) []) EK EP); [|intros mc kc EKc HR; destruct (HV mc kc EKc HR) as (-> & -> & -> & ->); auto].
  assert (lower defaultBits c (cd (rank c) [c])) as L1. { intros mc kc EKc HR. exists (V mc). destruct (HV mc kc EKc HR) as (_ & _ & -> & _). auto. }
  assert (lower defaultBits c (cd (rank c) [])) as L2. { intros mc kc EKc HR. exists (V mc). destruct (HV mc kc EKc HR) as (_ & _ & _ & ->). auto. }
  destruct (lc_union k) eqn:EU; [destruct (body_union c k p _ _ _ EK EP EU L1 L2) as (dv & -> & _)|destruct (body_ok c k p _ _ _ EK EP EU L1 L2) as (dv & -> & _)]; reflexivity.
Qed.
Lemma class_value c k p : classes c = Some k -> packBits root classes compare c = Some p -> class_size c <> 0 -> exists dfm dfb, lower defaultBits c dfm /\ lower defaultBits c dfb /\
  class_body root classes compare members header emptyElement dfm dfb c k p = Some (V c).
Proof.
  intros EK EP NZ. pose proof (value_of_class (S (rank c)) c k ltac:(lia) EK (S (rank c)) [] ltac:(lia) ltac:(intros b [])) as E. cbn [class_default mem existsb] in E. rewrite EK, EP in E. rewrite sizeof_class in E. replace (class_size c =? 0) with false in E by lia.
  exists (cd (rank c) [c]), (cd (rank c) []). split; [|split; auto]; intros mc kc EKc HR; exists (V mc); (split; [|reflexivity]); apply (value_of_class (S (rank mc)) mc kc ltac:(lia) EKc); try lia; intros b Hb; solve [destruct Hb | destruct Hb as [<-|[]]; auto].
Qed.
End Class.
