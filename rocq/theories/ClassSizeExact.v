(* ClassSizeExact.v: the sizes found are the true sizes. *)
From Coq Require Import String List NArith ZArith Lia Bool Relations.
From Coq Require Import ZifyBool ZifyNat ZifyN.
From Verif Require Import Base TypeTableModel FamilyModel FamilyProofs FamilyTheorems LayoutModel LayoutSpec LayoutTheorems ClassSizeModel ClassSizeSpec ClassSizeProofs.
Import ListNotations.
Open Scope Z_scope.
Local Opaque the_fuel.

Ltac uf := unfold UNKNOWNSIZE, CYCLEFLAG in *.
Section Exact.
Variable root : N -> N.
Variable classes : N -> option sclass.
Variable compare : N -> N -> cmp.
Hypothesis W : wf root (filled classes (fun _ => 0%N)) compare.
Variable tab : list N.
Notation SU := (setUTIBitSize classes).
Notation SB := (setBaseClassBitSize classes).
Notation DS := (determineShared root classes).
Notation calc := (calcVariableSymbolTypeSize root classes).
Notation totl := (total_loop root classes).
Notation maxl := (max_loop root classes).
Notation trySet := (trySetBitsize root classes).
Notation SBS := (setBitSize root classes tab).
Notation svb := (findTheSharedVirtualBases root (bare classes)).
Notation inv0 := (inv0 classes).
Notation ancestor := (ancestor root (lbases (bare classes))).
Notation reach := (reach root (lbases (bare classes))).
Notation edge := (edge root (lbases (bare classes))).

Lemma W_bare : wf root (bare classes) compare.
Proof.
  assert (forall x k, bare classes x = Some k -> exists k', filled classes (fun _ => 0%N) x = Some k' /\ lc_bases k' = lc_bases k /\ lc_kind k' = lc_kind k) as HF.
  { intros x k. unfold bare, filled. destruct (classes x) as [s|]; [|discriminate]. intros E. injection E as <-. eexists. split; [reflexivity|]. auto. }
  destruct W as [W1 W2 W3 W4 W5 W6 W7 W8]. constructor; auto.
  - revert W3. unfold bare, filled. destruct (classes 0%N); auto; discriminate.
  - intros x k E. destruct (HF x k E) as (k' & E' & _). eauto.
  - intros x k y E. destruct (HF x k E) as (k' & E' & _). eauto.
  - intros x k b E HB NZ. destruct (HF x k E) as (k' & E' & EB & _). rewrite <- EB in HB. destruct (W6 x k' b E' HB NZ) as (kb & E1 & NE). revert E1. unfold bare, filled. destruct (classes b) as [s|]; [|discriminate].
    intros E1. injection E1 as <-. eexists. split; [reflexivity|]. auto.
  - intros x k m E. unfold bare in E. destruct (classes x); [|discriminate]. injection E as <-. intros [].
  - assert (forall x, option_map lc_bases (bare classes x) = option_map lc_bases (filled classes (fun _ => 0%N) x)) as HB by (intros x; unfold bare, filled; destruct (classes x); auto).
    intros x (y & (bs & b & EB & HIb & ER) & HR). rewrite HB in EB. apply (W8 x). exists y. split; [exists bs, b; auto|]. clear - HR HB. induction HR as [z|z y' z' (bs & b & EB & HI & ER) HR IH]; [constructor|]. rewrite HB in EB. econstructor; [|eassumption]. exists bs, b. auto.
Qed.
Lemma class_nz c k : classes c = Some k -> c <> 0%N /\ root c = c.
Proof.
  intros E. split; [intros ->; pose proof (wf_nouti _ _ _ W_bare) as H; unfold bare in H; rewrite E in H; discriminate|]. apply (wf_root _ _ _ W_bare c {| lc_kind := sc_kind k; lc_union := sc_union k; lc_members := []; lc_bases := sc_bases k |}). unfold bare. rewrite E. auto.
Qed.
Lemma edge_bare x y : edge x y -> y <> 0%N -> exists k ky, classes x = Some k /\ In y (sc_bases k) /\ classes y = Some ky /\ sc_kind ky <> Element.
Proof.
  intros HE NZ. destruct (edge_class root (bare classes) compare W_bare x y HE NZ) as (k & ky & E1 & HI & E2 & NE). unfold bare in E1, E2. destruct (classes x) as [kx|]; [|discriminate]. destruct (classes y) as [k2|]; [|discriminate].
  injection E1 as <-. injection E2 as <-. exists kx, k2. auto.
Qed.
Lemma edge_src x y : edge x y -> x <> 0%N.
Proof. intros (bs & b & EB & _) ->. unfold lbases in EB. rewrite (wf_nouti _ _ _ W_bare) in EB. discriminate. Qed.
Lemma svb_in c k b n : classes c = Some k -> In (b, n) (svb c) -> b <> 0%N /\ ancestor c b.
Proof.
  intros E HI. destruct (svb_ok root (bare classes) compare W_bare c) as [_ H]. destruct (class_nz c k E) as [_ ER]. rewrite ER in H. apply H. change b with (fst (b, n)). apply in_map. auto.
Qed.
Lemma svb_class c k b n : classes c = Some k -> In (b, n) (svb c) -> exists kb, classes b = Some kb /\ sc_kind kb <> Element.
Proof.
  intros E HI. destruct (svb_in c k b n E HI) as [NZ HA]. destruct (reach_last _ _ _ _ HA) as (z & _ & HE). destruct (edge_bare z b HE NZ) as (k1 & k2 & _ & _ & E2 & NE). eauto.
Qed.

(* ---- sizes by the members ---- *)
Definition msized (m : smember) (st : sstate) : Prop :=
  match m with MClass d | MArray d _ => 0 <= st_size st d | MHzy => False | MPrim _ _ => True end.
Definition parts (st : sstate) (k : sclass) : Prop :=
  (forall m, In m (sc_members k) -> msized m st) /\ (forall b, In b (sc_bases k) -> b <> 0%N -> 0 <= st_size st b).
Definition sumZ (kd : ckind) (ms : list smember) (st : sstate) : Z := fold_right (fun m t => memberSize classes kd m st + t) 0 ms.
Definition maxZ (ms : list smember) (st : sstate) : Z := fold_right (fun m t => Z.max (memberTotal m st) t) 0 ms.
Definition ownZ (st : sstate) (k : sclass) : Z := if sc_union k then maxZ (sc_members k) st else sumZ (sc_kind k) (sc_members k) st.
Definition ownC (st : sstate) (c : N) : Z := match classes c with Some k => ownZ st k | None => 0 end.
Definition sumC (l : list (N * N)) (st : sstate) : Z := fold_right (fun q t => ownC st (fst q) + t) 0 l.
Definition sharedZ (st : sstate) (c : N) : Z := sumC (svb c) st.

Record inv1 (st : sstate) : Prop := {
  x_zero : inv0 st;
  x_sized : forall c, 0 <= st_size st c -> exists k, classes c = Some k /\ parts st k /\ st_size st c = ownZ st k + sharedZ st c /\ st_size st c <= limit (sc_kind k);
  x_base : forall c k, classes c = Some k -> sc_kind k <> Element -> st_base st c <> UNKNOWNSIZE -> parts st k /\ st_base st c = ownZ st k
}.

Lemma msized_ext m st st' : ext st st' -> msized m st -> msized m st'.
Proof. intros HE. destruct m as [b a|c|c n|]; cbn [msized]; auto; intros H; rewrite (ext_sz _ _ _ HE H); auto. Qed.
Lemma parts_ext k st st' : ext st st' -> parts st k -> parts st' k.
Proof. intros HE [H1 H2]. split; [intros m HM; eapply msized_ext; eauto|]. intros b HB NZ. rewrite (ext_sz _ _ _ HE (H2 b HB NZ)). auto. Qed.
Lemma mtotal_ext m st st' : ext st st' -> msized m st -> memberTotal m st' = memberTotal m st.
Proof. intros HE. destruct m as [b a|c|c n|]; cbn [msized memberTotal]; auto; intros H; rewrite (ext_sz _ _ _ HE H); auto. Qed.
Lemma msize_ext kd m st st' : ext st st' -> msized m st -> memberSize classes kd m st' = memberSize classes kd m st.
Proof. intros HE HM. pose proof (mtotal_ext m st st' HE HM). destruct kd, m; cbn [memberSize]; auto; destruct (elementb classes c); auto. Qed.
Lemma sumZ_ext kd ms st st' : ext st st' -> (forall m, In m ms -> msized m st) -> sumZ kd ms st' = sumZ kd ms st.
Proof.
  intros HE. unfold sumZ. induction ms as [|m ms IH]; intros HM; cbn [fold_right]; auto. rewrite (msize_ext kd m st st' HE (HM m (or_introl eq_refl))), IH; auto. intros x HX. apply HM. right. auto.
Qed.
Lemma maxZ_ext ms st st' : ext st st' -> (forall m, In m ms -> msized m st) -> maxZ ms st' = maxZ ms st.
Proof.
  intros HE. unfold maxZ. induction ms as [|m ms IH]; intros HM; cbn [fold_right]; auto. rewrite (mtotal_ext m st st' HE (HM m (or_introl eq_refl))), IH; auto. intros x HX. apply HM. right. auto.
Qed.
Lemma own_ext k st st' : ext st st' -> parts st k -> ownZ st' k = ownZ st k.
Proof. intros HE [HM _]. unfold ownZ. destruct (sc_union k); [apply maxZ_ext|apply sumZ_ext]; auto. Qed.
Lemma mtotal_nonneg m st : msized m st -> 0 <= memberTotal m st.
Proof.
  destruct m as [b a|c|c n|]; cbn [msized memberTotal]; try lia; [destruct a; lia| |]; intros H; assert (known (st_size st c) = st_size st c) as -> by (unfold known, UNKNOWNSIZE; destruct (_ =? _) eqn:E; lia); lia.
Qed.
Lemma msize_nonneg kd m st : msized m st -> 0 <= memberSize classes kd m st.
Proof. intros HM. pose proof (mtotal_nonneg m st HM). destruct kd, m; cbn [memberSize]; auto; destruct (elementb classes c); auto; lia. Qed.
Lemma own_nonneg k st : parts st k -> 0 <= ownZ st k.
Proof.
  intros [HM _]. unfold ownZ, maxZ, sumZ. induction (sc_members k) as [|m ms IH]; cbn [fold_right]; [destruct (sc_union k); lia|]. pose proof (msize_nonneg (sc_kind k) m st (HM m (or_introl eq_refl))).
  assert (forall x, In x ms -> msized x st) as HM' by (intros x HX; apply HM; right; auto). specialize (IH HM'). destruct (sc_union k); lia.
Qed.
(* the ancestors of a class with sized parts are sized *)
Lemma reach_sized st x y : inv1 st -> reach x y -> y <> 0%N -> 0 <= st_size st x -> 0 <= st_size st y.
Proof.
  intros HI HR NY. induction HR as [x|x z y HE HR IH]; auto. intros HX. apply IH; auto.
  assert (z <> 0%N) as NZ by (destruct HR as [z|z w y HE' _]; [auto|eapply edge_src; eauto]). destruct (edge_bare x z HE NZ) as (k & kz & EK & HB & _). destruct (x_sized _ HI x HX) as (k' & EK' & [_ HP] & _). rewrite EK in EK'. injection EK' as <-. auto.
Qed.
Lemma svb_sized st c k b n : inv1 st -> classes c = Some k -> parts st k -> In (b, n) (svb c) -> 0 <= st_size st b.
Proof.
  intros HI E [_ HP] HB. destruct (svb_in c k b n E HB) as [NZ (y & HE & HR)]. apply (reach_sized st y b HI HR NZ).
  assert (y <> 0%N) as NY by (destruct HR as [z|z w y HE' _]; [auto|eapply edge_src; eauto]). destruct (edge_bare c y HE NY) as (k' & ky & EK & HB' & _). rewrite E in EK. injection EK as <-. auto.
Qed.
Lemma svb_parts st c k b n : inv1 st -> classes c = Some k -> parts st k -> In (b, n) (svb c) -> exists kb, classes b = Some kb /\ sc_kind kb <> Element /\ parts st kb.
Proof.
  intros HI E HP HB. destruct (svb_class c k b n E HB) as (kb & EB & NE). exists kb. split; auto. split; auto. destruct (x_sized _ HI b (svb_sized st c k b n HI E HP HB)) as (k' & E' & P' & _). rewrite EB in E'. injection E' as <-. auto.
Qed.
Lemma shared_ext st st' c k : inv1 st -> classes c = Some k -> parts st k -> ext st st' -> sharedZ st' c = sharedZ st c.
Proof.
  intros HI E HP HE. unfold sharedZ, sumC. assert (forall b n, In (b, n) (svb c) -> ownC st' b = ownC st b) as H.
  { intros b n HB. destruct (svb_parts st c k b n HI E HP HB) as (kb & EB & _ & PB). unfold ownC. rewrite EB. apply own_ext; auto. }
  induction (svb c) as [|[b n] l IH]; cbn [fold_right fst]; auto. rewrite (H b n (or_introl eq_refl)), IH; auto. intros b' n' HB. apply (H b' n'). right. auto.
Qed.
Lemma shared_nonneg st c k : inv1 st -> classes c = Some k -> parts st k -> 0 <= sharedZ st c.
Proof.
  intros HI E HP. unfold sharedZ, sumC. assert (forall b n, In (b, n) (svb c) -> 0 <= ownC st b) as H.
  { intros b n HB. destruct (svb_parts st c k b n HI E HP HB) as (kb & EB & _ & PB). unfold ownC. rewrite EB. apply own_nonneg; auto. }
  induction (svb c) as [|[b n] l IH]; cbn [fold_right fst]; [lia|]. pose proof (H b n (or_introl eq_refl)). assert (forall b n, In (b, n) l -> 0 <= ownC st b) as H' by (intros b' n' HB; apply (H b' n'); right; auto). specialize (IH H'). lia.
Qed.

(* ---- steps ---- *)
Lemma inv1_step st st' : inv1 st -> ext st st' -> inv0 st' ->
  (forall c, 0 <= st_size st' c -> 0 <= st_size st c \/ exists k, classes c = Some k /\ parts st k /\ st_size st' c = ownZ st k + sharedZ st c /\ st_size st' c <= limit (sc_kind k)) ->
  (forall c k, classes c = Some k -> sc_kind k <> Element -> st_base st' c <> UNKNOWNSIZE -> st_base st' c = st_base st c \/ parts st k /\ st_base st' c = ownZ st k) -> inv1 st'.
Proof.
  intros HI HE H0 HS HB. constructor; auto.
  - intros c HC. assert (exists k, classes c = Some k /\ parts st k /\ st_size st' c = ownZ st k + sharedZ st c /\ st_size st' c <= limit (sc_kind k)) as (k & EK & P & ES & HL).
    { destruct (HS c HC) as [H|H]; auto. destruct (x_sized _ HI c H) as (k & EK & P & ES & HL). exists k. rewrite (ext_sz _ _ _ HE H). auto. }
    exists k. split; auto. split; [eapply parts_ext; eauto|]. rewrite (own_ext k st st' HE P), (shared_ext st st' c k HI EK P HE). auto.
  - intros c k EK NE NB. assert (parts st k /\ st_base st' c = ownZ st k) as [P E].
    { destruct (HB c k EK NE NB) as [H|H]; auto. rewrite H in *. apply (x_base _ HI c k); auto. }
    split; [eapply parts_ext; eauto|]. rewrite (own_ext k st st' HE P). auto.
Qed.
Lemma inv1_error st : inv1 st -> inv1 (error st).
Proof. intros H. apply (inv1_step st); [auto|apply ext_error|apply inv0_error, H|auto|auto]. Qed.
Lemma inv1_failed st : inv1 st -> inv1 (failed st).
Proof. intros H. apply (inv1_step st); [auto|apply ext_failed|apply inv0_failed, H|auto|auto]. Qed.
(* what a class may be given *)
Definition ready (c : N) (s : Z) (st : sstate) : Prop := (0 <= st_size st c /\ s = st_size st c) \/ exists k, classes c = Some k /\ parts st k /\ s = ownZ st k + sharedZ st c.
Lemma ready_nonneg c s st : inv1 st -> ready c s st -> 0 <= s.
Proof. intros HI [[H1 ->]|(k & EK & P & ->)]; auto. pose proof (own_nonneg k st P). pose proof (shared_nonneg st c k HI EK P). lia. Qed.
Lemma inv1_SU c s st : inv1 st -> grounded classes c -> ready c s st -> st_errs (SU c s st) = st_errs st -> inv1 (SU c s st) /\ st_size (SU c s st) c = s /\ 0 <= s.
Proof.
  intros HI HG HR HE. pose proof (ready_nonneg c s st HI HR) as HN. split; [|split; auto].
  - apply (inv1_step st); [auto|apply ext_SU|apply (inv0_SU root); [apply (x_zero _ HI)|auto]| |]; unfold setUTIBitSize in *; destruct (complete st c) eqn:EC; auto; unfold kind in *; destruct (classes c) as [kc|] eqn:EK; cbn [option_map] in *; auto;
    destruct (s >? limit (sc_kind kc)) eqn:EL; auto; destruct (st_size st c =? s); auto; cbn [st_size st_base].
    + intros x HX. destruct (N.eq_dec x c) as [->|NE]; [rewrite upd_eq in *|rewrite upd_ne in * by auto; auto]. destruct HR as [[H1 H2]|(k & EK' & P & ->)]; auto. right. exists k. rewrite EK in EK'. injection EK' as <-. split; auto. split; auto. split; auto. lia.
    + intros x k EX NE NB. left. destruct (N.eq_dec x c) as [->|NX]; [rewrite upd_eq in NB; congruence|rewrite upd_ne; auto].
  - destruct HR as [[H1 ->]|(k & EK & P & ES)]; [apply (ext_sz st); [apply ext_SU|auto]|]. unfold setUTIBitSize in *. unfold complete in *. destruct (st_size st c <=? UNKNOWNSIZE) eqn:EC; cbn [negb] in *.
    + unfold kind in *. rewrite EK in *. cbn [option_map] in *. destruct (s >? limit (sc_kind k)); [cbn in HE; lia|]. destruct (st_size st c =? s) eqn:EQ; [lia|]. cbn [st_size]. apply upd_eq.
    + assert (0 <= st_size st c) as H by (pose proof (z_size _ _ (x_zero _ HI) c); uf; lia). destruct (x_sized _ HI c H) as (k' & EK' & _ & EZ & _). rewrite EK in EK'. injection EK' as <-. lia.
Qed.
Lemma inv1_cycle c st : inv1 st -> inv1 (SU c CYCLEFLAG st).
Proof.
  intros HI. apply (inv1_step st); [auto|apply ext_SU|apply (inv0_SU root); [apply (x_zero _ HI)|auto]| |]; unfold setUTIBitSize in *; destruct (complete st c) eqn:EC; auto; unfold kind in *; destruct (classes c) as [kc|] eqn:EK; cbn [option_map] in *; auto;
  destruct (CYCLEFLAG >? limit (sc_kind kc)) eqn:EL; auto; destruct (st_size st c =? CYCLEFLAG); auto; cbn [st_size st_base].
  - intros x HX. destruct (N.eq_dec x c) as [->|NE]; [rewrite upd_eq in *; uf; lia|rewrite upd_ne in * by auto; auto].
  - intros x k EX NE NB. left. destruct (N.eq_dec x c) as [->|NX]; [rewrite upd_eq in NB; congruence|rewrite upd_ne; auto].
Qed.
Lemma inv1_SB c k st : inv1 st -> classes c = Some k -> parts st k -> inv1 (fst (SB c (ownZ st k) st)).
Proof.
  intros HI EK P. pose proof (own_nonneg k st P) as HN. apply (inv1_step st); [auto|apply ext_SB|apply inv0_SB; [apply (x_zero _ HI)|auto]| |].
  - intros x. rewrite SB_size. auto.
  - intros x kx EX NE NB. unfold setBaseClassBitSize, kind in *. rewrite EK in *. cbn [option_map] in *. destruct (sc_kind k) eqn:EKK; cbn [fst] in *; auto;
    (destruct (_ >? _); cbn [fst] in *; auto; destruct (_ >? _); cbn [fst] in *; auto; [destruct (_ =? _); auto|cbn [st_base] in *]; destruct (N.eq_dec x c) as [->|NX]; [rewrite upd_eq in *; right; rewrite EK in EX; injection EX as <-; auto|rewrite upd_ne in * by auto; auto]).
Qed.
Lemma shared_loop_ok l : forall acc st, inv1 st -> (forall b n, In (b, n) l -> exists kb, classes b = Some kb /\ sc_kind kb <> Element) ->
  inv1 (fst (shared_loop classes l acc st)) /\ forall s, snd (shared_loop classes l acc st) = Some s -> s = acc + sumC l st.
Proof.
  induction l as [|[b n] l IH]; intros acc st HI HL; cbn [shared_loop]; [split; auto; intros s E; injection E as <-; cbn; lia|].
  set (st1 := if complete st b then st else failed st). assert (inv1 st1) as H1 by (unfold st1; destruct (complete st b); auto; apply inv1_failed; auto).
  destruct (getBase classes b st1 =? UNKNOWNSIZE) eqn:EB; [split; auto; discriminate|].
  destruct (IH (acc + getBase classes b st1) st1 H1 (fun b' n' HB => HL b' n' (or_intror HB))) as [H2 HS]. split; auto. intros s E. rewrite (HS s E).
  destruct (HL b n (or_introl eq_refl)) as (kb & EKb & NE). assert (getBase classes b st1 = st_base st1 b) as EG by (unfold getBase, kind; rewrite EKb; cbn; destruct (sc_kind kb); congruence).
  destruct (x_base _ H1 b kb EKb NE ltac:(lia)) as [_ EO]. cbn [sumC fold_right fst]. rewrite EG, EO. assert (ownC st b = ownZ st kb) as -> by (unfold ownC; rewrite EKb; auto).
  assert (ownZ st1 kb = ownZ st kb) as -> by (unfold st1; destruct (complete st b); auto). assert (sumC l st1 = sumC l st) as -> by (unfold st1; destruct (complete st b); auto). unfold sumC. lia.
Qed.
Lemma DS_ok c k st : inv1 st -> classes c = Some k -> inv1 (fst (DS c st)) /\ forall s, snd (DS c st) = Some s -> s = sharedZ st c.
Proof.
  intros HI EK. destruct (shared_loop_ok (svb c) 0 st HI (fun b n HB => svb_class c k b n EK HB)) as [H1 H2]. split; auto.
Qed.
Lemma DS_same c st : (forall k, parts (fst (DS c st)) k <-> parts st k) /\ (forall k, ownZ (fst (DS c st)) k = ownZ st k) /\ (forall x, sharedZ (fst (DS c st)) x = sharedZ st x) /\ st_errs (fst (DS c st)) = st_errs st.
Proof.
  assert (fst (DS c st) = st \/ fst (DS c st) = failed st) as H.
  { assert (forall l st acc, fst (shared_loop classes l acc st) = st \/ fst (shared_loop classes l acc st) = failed st) as H; [|apply H].
    induction l as [|[b n] l IH]; intros st0 acc; cbn [shared_loop]; auto. destruct (complete st0 b).
    - destruct (_ =? _); auto.
    - destruct (_ =? _); auto. match goal with |- context [shared_loop classes l ?a ?s] => destruct (IH s a) as [E|E] end; rewrite E; auto. }
  destruct H as [-> | ->]; (split; [intros k; reflexivity|auto]).
Qed.

Definition rec1 (rec : nested) : Prop := forall c k st seen st' seen' r, classes c = Some k -> rec c st seen = (st', seen', r) -> inv1 st -> st_errs st' = 0%nat ->
  inv1 st' /\ (forall my, r = Some my -> parts st' k /\ my = ownZ st' k).
Definition mready (m : smember) (s : Z) (st : sstate) : Prop := match m with MClass c => ready c s st | _ => msized m st end.
Lemma inv1_calc rec ctx m st seen st' seen' s : ext_rec rec -> rec0 classes rec -> rec1 rec -> calc rec ctx m st seen = (st', seen', s) -> inv1 st -> st_errs st' = 0%nat ->
  inv1 st' /\ (UNKNOWNSIZE < s -> mready m s st').
Proof.
  intros HX HR0 HR E HI HE. destruct m as [b a|c|c n|]; cbn [calcVariableSymbolTypeSize] in E; cbn [mready msized].
  - injection E as <- <- <-. split; auto.
  - assert (forall P : Prop, UNKNOWNSIZE < UNKNOWNSIZE -> P) as HU by (intros P HL; lia).
    destruct (st_size st c >=? 0) eqn:E0; [injection E as <- <- <-; split; auto; intros _; left; split; [lia|auto]|].
    destruct (st_size st c =? CYCLEFLAG) eqn:ECY; [injection E as <- <- <-; split; auto; intros HL; uf; lia|].
    destruct (classes c) as [k|] eqn:EK; [|injection E as <- <- <-; split; auto; apply HU]. destruct (sc_stub k); [injection E as <- <- <-; split; auto; apply HU|].
    destruct (N.eqb c ctx); [injection E as <- <- <-; split; [apply inv1_error; auto|apply HU]|].
    destruct (mem c seen); [injection E as <- <- <-; split; [apply inv1_cycle; auto|intros HL; uf; lia]|].
    destruct (rec c st (c :: seen)) as [[st1 seen1] r] eqn:ER.
    assert (st_errs st1 <= st_errs st')%nat as HM.
    { destruct r as [my|]; [|injection E as <- <- <-; auto]. pose proof (ext_DS root classes c st1) as (_ & _ & X1). destruct (DS c st1) as [st2 [sh|]]; cbn [fst] in X1; [|injection E as <- <- <-; auto].
      pose proof (ext_SB classes c my st2) as (_ & _ & X2). destruct (SB c my st2) as [st3 ok]. cbn [fst] in X2. injection E as <- <- <-. lia. }
    destruct (HR _ _ _ _ _ _ _ EK ER HI ltac:(lia)) as [H1 HG]. destruct r as [my|]; [|injection E as <- <- <-; split; auto; apply HU].
    destruct (HG my eq_refl) as (G1 & G2). destruct (DS_ok c k st1 H1 EK) as [H2 HS]. destruct (DS_same c st1) as (D1 & D2 & D3 & D4). destruct (DS c st1) as [st2 [sh|]]; cbn [fst snd] in *; [|injection E as <- <- <-; split; auto; apply HU].
    specialize (HS sh eq_refl). apply D1 in G1. rewrite <- D2 in G2. rewrite <- D3 in HS. subst my sh.
    pose proof (inv1_SB c k st2 H2 EK G1) as H3. pose proof (ext_SB classes c (ownZ st2 k) st2) as X3. destruct (SB c (ownZ st2 k) st2) as [st3 ok]. cbn [fst] in H3, X3. injection E as <- <- <-. split; auto.
    destruct ok; [|apply HU]. intros _. right. exists k. split; auto. split; [eapply parts_ext; eauto|]. rewrite (own_ext k st2 st3 X3 G1), (shared_ext st2 st3 c k H2 EK G1 X3). auto.
  - injection E as <- <- <-. split; auto. destruct (st_lab st c) eqn:EL; [|intros HL; lia]. intros HL. pose proof (z_size _ _ (x_zero _ HI) c). uf. lia.
  - injection E as <- <- <-. split; auto. lia.
Qed.
Lemma inv1_set_total m s st : inv1 st -> mgrounded1 classes m -> mready m s st -> st_errs (set_total classes m s st) = st_errs st -> inv1 (set_total classes m s st) /\ msized m (set_total classes m s st).
Proof.
  intros HI HG HM HE. destruct m as [b a|c|c n|]; cbn [set_total mready mgrounded1 msized] in *; auto. cbn zeta in *.
  pose proof (ext_SU classes c s st) as XU. destruct (getBase classes c st =? UNKNOWNSIZE) eqn:EB; [destruct (inv1_SU c s st HI HG HM HE) as (H1 & H2 & H3); split; auto; lia|].
  pose proof (ext_SB classes c (getBase classes c st) (SU c s st)) as XB.
  assert (st_errs (SU c s st) = st_errs st) as HE1 by (destruct XU as (_ & _ & X1); destruct XB as (_ & _ & X2); lia).
  destruct (inv1_SU c s st HI HG HM HE1) as (H1 & H2 & H3). rewrite SB_size. split; [|lia].
  destruct (classes c) as [k|] eqn:EK; [|unfold setBaseClassBitSize, kind; rewrite EK; auto]. destruct (sc_kind k) eqn:EKK; unfold getBase, kind in *; rewrite EK in *; cbn [option_map] in *; rewrite EKK in *.
  - destruct (x_base _ HI c k EK ltac:(congruence) ltac:(lia)) as [P EO]. rewrite EO in *. rewrite <- (own_ext k st (SU c s st) XU P). apply inv1_SB; auto. eapply parts_ext; eauto.
  - unfold setBaseClassBitSize, kind. rewrite EK. cbn [option_map]. rewrite EKK. auto.
  - destruct (x_base _ HI c k EK ltac:(congruence) ltac:(lia)) as [P EO]. rewrite EO in *. rewrite <- (own_ext k st (SU c s st) XU P). apply inv1_SB; auto. eapply parts_ext; eauto.
Qed.
Lemma inv1_set_max m s st : inv1 st -> mgrounded1 classes m -> mready m s st -> st_errs (set_max classes m s st) = st_errs st -> inv1 (set_max classes m s st) /\ msized m (set_max classes m s st).
Proof. intros HI HG HM HE. destruct m as [b a|c|c n|]; cbn [set_max mready mgrounded1 msized] in *; auto. destruct (inv1_SU c s st HI HG HM HE) as (H1 & H2 & H3). split; auto. lia. Qed.

Lemma inv1_total rec ctx kd : ext_rec rec -> rec0 classes rec -> rec1 rec -> forall ms acc st seen st' seen' t, totl rec ctx kd ms acc st seen = (st', seen', t) -> inv1 st -> st_errs st' = 0%nat -> 0 <= acc ->
  inv1 st' /\ (0 <= t -> (forall m, In m ms -> msized m st') /\ t = acc + sumZ kd ms st').
Proof.
  intros HX HR0 HR. induction ms as [|m ms IH]; intros acc st seen st' seen' t E HI HE HA; cbn [total_loop] in E.
  - injection E as <- <- <-. split; auto. intros _. split; [intros m []|cbn; lia].
  - pose proof (ext_calc root classes rec ctx m st seen HX) as X1. destruct (calc rec ctx m st seen) as [[st1 seen1] s] eqn:EC. cbn [fst] in X1.
    destruct (inv0_calc _ _ _ _ _ _ _ _ _ _ HR0 EC (x_zero _ HI)) as [_ HM0].
    destruct (s =? CYCLEFLAG) eqn:ES; [injection E as <- <- <-; cbn in HE; lia|]. destruct (s <=? UNKNOWNSIZE) eqn:EU.
    { injection E as <- <- <-. destruct (inv1_calc _ _ _ _ _ _ _ _ HX HR0 HR EC HI HE) as [H1 _]. split; auto. uf. lia. }
    fold (set_total classes m s st1) in E. pose proof (ext_set_total classes m s st1) as X2. pose proof (ext_total root classes rec ctx kd HX ms (acc + memberSize classes kd m (set_total classes m s st1)) (set_total classes m s st1) seen1) as X3. rewrite E in X3. cbn [fst] in X3.
    assert (st_errs st1 = 0%nat /\ st_errs (set_total classes m s st1) = 0%nat) as [Z1 Z2] by (destruct X2 as (_ & _ & Y2), X3 as (_ & _ & Y3); lia).
    destruct (inv1_calc _ _ _ _ _ _ _ _ HX HR0 HR EC HI Z1) as [H1 HM]. destruct (HM0 ltac:(lia)) as (_ & MG & _). destruct (inv1_set_total m s st1 H1 MG (HM ltac:(lia)) ltac:(lia)) as [H2 HS].
    pose proof (msize_nonneg kd m _ HS). destruct (IH _ _ _ _ _ _ E H2 HE ltac:(lia)) as [H3 HT]. split; auto. intros HT0. destruct (HT HT0) as [T1 T2]. split; [intros x [<-|HI']; [eapply msized_ext; eauto|auto]|].
    unfold sumZ in *. cbn [fold_right]. rewrite (msize_ext kd m _ _ X3 HS). lia.
Qed.
Lemma inv1_max rec ctx : ext_rec rec -> rec0 classes rec -> rec1 rec -> forall ms acc st seen st' seen' t, maxl rec ctx ms acc st seen = (st', seen', t) -> inv1 st -> st_errs st' = 0%nat -> 0 <= acc ->
  inv1 st' /\ (0 <= t -> (forall m, In m ms -> msized m st') /\ t = Z.max acc (maxZ ms st')).
Proof.
  intros HX HR0 HR. induction ms as [|m ms IH]; intros acc st seen st' seen' t E HI HE HA; cbn [max_loop] in E.
  - injection E as <- <- <-. split; auto. intros _. split; [intros m []|cbn; lia].
  - pose proof (ext_calc root classes rec ctx m st seen HX) as X1. destruct (calc rec ctx m st seen) as [[st1 seen1] s] eqn:EC. cbn [fst] in X1.
    destruct (inv0_calc _ _ _ _ _ _ _ _ _ _ HR0 EC (x_zero _ HI)) as [_ HM0].
    destruct (s =? CYCLEFLAG) eqn:ES; [injection E as <- <- <-; cbn in HE; lia|]. destruct (s <=? UNKNOWNSIZE) eqn:EU.
    { injection E as <- <- <-. destruct (inv1_calc _ _ _ _ _ _ _ _ HX HR0 HR EC HI HE) as [H1 _]. split; auto. uf. lia. }
    fold (set_max classes m s st1) in E. cbn zeta in E. pose proof (ext_set_max classes m s st1) as X2. set (a := if memberTotal m (set_max classes m s st1) >? acc then memberTotal m (set_max classes m s st1) else acc) in *.
    assert (a = Z.max acc (memberTotal m (set_max classes m s st1))) as EA by (unfold a; destruct (_ >? _) eqn:EG; lia). clearbody a. subst a.
    pose proof (ext_max root classes rec ctx HX ms (Z.max acc (memberTotal m (set_max classes m s st1))) (set_max classes m s st1) seen1) as X3. rewrite E in X3. cbn [fst] in X3.
    assert (st_errs st1 = 0%nat /\ st_errs (set_max classes m s st1) = 0%nat) as [Z1 Z2] by (destruct X2 as (_ & _ & Y2), X3 as (_ & _ & Y3); lia).
    destruct (inv1_calc _ _ _ _ _ _ _ _ HX HR0 HR EC HI Z1) as [H1 HM]. destruct (HM0 ltac:(lia)) as (_ & MG & _). destruct (inv1_set_max m s st1 H1 MG (HM ltac:(lia)) ltac:(lia)) as [H2 HS].
    destruct (IH _ _ _ _ _ _ E H2 HE ltac:(lia)) as [H3 HT]. split; auto. intros HT0. destruct (HT HT0) as [T1 T2]. split; [intros x [<-|HI']; [eapply msized_ext; eauto|auto]|].
    unfold maxZ in *. cbn [fold_right]. rewrite (mtotal_ext m _ _ X3 HS). lia.
Qed.
Lemma inv1_members rec c k st seen st' seen' t : ext_rec rec -> rec0 classes rec -> rec1 rec -> classes c = Some k -> members_of root classes rec c k st seen = (st', seen', t) -> inv1 st -> st_errs st' = 0%nat ->
  inv1 st' /\ (0 <= t -> parts st' k /\ t = ownZ st' k).
Proof.
  intros HX HR0 HR EK E HI HE. pose proof (ext_members root classes rec c k st seen HX) as X. rewrite E in X. cbn [fst] in X. unfold members_of in E. destruct (bases_loop (sc_bases k) st) as [z|] eqn:EB.
  - injection E as <- <- <-. split; auto. apply bases_some in EB. destruct EB as (b & _ & _ & -> & HL). intros HT. lia.
  - assert (forall b, In b (sc_bases k) -> b <> 0%N -> 0 <= st_size st' b) as HB by (intros b H1 H2; pose proof (bases_none _ _ EB b H1 H2) as H3; rewrite (ext_sz _ _ _ X H3); auto).
    destruct (sc_union k) eqn:EU.
    + destruct (inv1_max _ _ HX HR0 HR _ _ _ _ _ _ _ E HI HE (Z.le_refl 0)) as [H1 H2]. split; auto. intros HT. destruct (H2 HT) as [P ET]. split; [split; auto|]. unfold ownZ. rewrite EU, ET.
      assert (0 <= maxZ (sc_members k) st') by (unfold maxZ; clear - P; induction (sc_members k) as [|m ms IH]; cbn [fold_right]; [lia|]; pose proof (mtotal_nonneg m st' (P m (or_introl eq_refl))); lia). lia.
    + destruct (inv1_total _ _ _ HX HR0 HR _ _ _ _ _ _ _ E HI HE (Z.le_refl 0)) as [H1 H2]. split; auto. intros HT. destruct (H2 HT) as [P ET]. split; [split; auto|]. unfold ownZ. rewrite EU, ET. lia.
Qed.
Lemma inv1_trySet f : rec1 (trySet f).
Proof.
  induction f as [|f IH]; intros c k st seen st' seen' r EK E HI HE; [injection E as <- <- <-; split; [apply inv1_failed; auto|discriminate]|].
  rewrite (trySet_S root classes f c k st seen EK) in E. destruct (members_of root classes (trySet f) c k st seen) as [[st1 seen1] t] eqn:EM.
  destruct (inv0_members _ _ _ _ _ _ _ _ _ _ (inv0_trySet root classes f) EK EM (x_zero _ HI)) as [_ HT].
  destruct (t =? CYCLEFLAG) eqn:E1; [injection E as <- <- <-; cbn in HE; lia|]. destruct (t =? UNKNOWNSIZE) eqn:E2; injection E as <- <- <-; destruct (inv1_members _ _ _ _ _ _ _ _ (ext_trySet root classes f) (inv0_trySet root classes f) IH EK EM HI HE) as [H1 H2]; split; auto; [discriminate|].
  intros my E. injection E as <-. apply H2. lia.
Qed.
Lemma inv1_SBS st c : inv1 st -> st_errs (SBS st c) = 0%nat -> inv1 (SBS st c).
Proof.
  intros HI HE. destruct (classes c) as [k|] eqn:E; [|unfold setBitSize; rewrite E; auto]. destruct (complete st c || sc_stub k) eqn:EC; [unfold setBitSize; rewrite E, EC; auto|].
  rewrite (SBS_step root classes tab st c k E EC) in *. destruct (trySet _ c st [c]) as [[st1 seen1] r] eqn:ET.
  assert (st_errs st1 = 0%nat) as Z1 by (destruct r as [my|]; auto; destruct (ext_finish root classes c my st1) as (_ & _ & X); lia).
  destruct (inv1_trySet _ _ _ _ _ _ _ _ E ET HI Z1) as [H1 H2]. destruct (inv0_trySet _ _ _ _ _ _ _ _ _ ET (x_zero _ HI)) as [_ H0]. destruct r as [my|]; auto. destruct (H2 my eq_refl) as (G1 & G2). destruct (H0 my eq_refl) as (HG & _).
  unfold finish in *. destruct (DS_ok c k st1 H1 E) as [H3 HS]. destruct (DS_same c st1) as (D1 & D2 & D3 & D4). destruct (DS c st1) as [st2 [sh|]]; cbn [fst snd] in *; auto. cbn zeta in *. specialize (HS sh eq_refl).
  apply D1 in G1. rewrite <- D2 in G2. rewrite <- D3 in HS. subst my sh. pose proof (ext_SU classes c (ownZ st2 k + sharedZ st2 c) st2) as XU.
  assert (st_errs (SU c (ownZ st2 k + sharedZ st2 c) st2) = st_errs st2) as Z2.
  { destruct XU as (_ & _ & XU). destruct (negb _); [cbn in HE; lia|]. match goal with |- st_errs ?s = _ => destruct (ext_SB classes c (ownZ st2 k + sharedZ st2 c - sharedZ st2 c) s) as (_ & _ & X) end. lia. }
  destruct (inv1_SU c (ownZ st2 k + sharedZ st2 c) st2 H3 HG ltac:(right; eauto) Z2) as (H4 & H5 & H6). destruct (negb _); [cbn in HE; lia|].
  replace (ownZ st2 k + sharedZ st2 c - sharedZ st2 c) with (ownZ st2 k) in * by lia. set (st3 := SU c (ownZ st2 k + sharedZ st2 c) st2) in *. assert (ownZ st2 k = ownZ st3 k) as EO by (rewrite (own_ext k st2 st3 XU G1); auto). rewrite EO. apply inv1_SB; auto. eapply parts_ext; eauto.
Qed.
Lemma inv1_fold l : forall st, inv1 st -> st_errs (fold_left SBS l st) = 0%nat -> inv1 (fold_left SBS l st).
Proof.
  induction l as [|c l IH]; intros st HI HE; cbn [fold_left] in *; auto. apply IH; auto. apply inv1_SBS; auto. destruct (ext_fold root classes tab l (SBS st c)) as (_ & _ & X). lia.
Qed.
Lemma inv1_label st : inv1 st -> inv1 (label st).
Proof. intros [H1 H2 H3]. constructor; [apply inv0_label; auto|exact H2|exact H3]. Qed.
Lemma inv1_start : inv1 start.
Proof. constructor; [exact (inv0_passes root classes tab 0)|intros c H; cbn in H; uf; lia|intros c k _ _ H; cbn in H; congruence]. Qed.
Lemma inv1_passes n : st_errs (passes root classes tab n start) = 0%nat -> inv1 (passes root classes tab n start).
Proof.
  induction n as [|n IH]; intros HE; [apply inv1_start|]. cbn [passes] in *. destruct (Nat.eqb _ 0) eqn:EN; auto. apply inv1_label, inv1_fold; auto. apply IH. lia.
Qed.
End Exact.
