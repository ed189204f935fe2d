(* ClassSizeProofs.v: lemmas for C62. *)
From Coq Require Import String List NArith ZArith Lia Bool Relations.
From Coq Require Import ZifyBool ZifyNat ZifyN.
From Verif Require Import Base TypeTableModel FamilyModel FamilyProofs FamilyTheorems LayoutModel LayoutSpec LayoutTheorems ClassSizeModel ClassSizeSpec.
Import ListNotations.
Open Scope Z_scope.
Local Opaque the_fuel.

Lemma upd_eq {A} (f : N -> A) c v : upd f c v c = v.
Proof. unfold upd. rewrite N.eqb_refl. auto. Qed.
Lemma upd_ne {A} (f : N -> A) c v x : x <> c -> upd f c v x = f x.
Proof. intros H. unfold upd. destruct (N.eqb_spec x c); [contradiction|auto]. Qed.

(* ---- what every step keeps ---- *)
Definition ext (st st' : sstate) : Prop :=
  (forall c, complete st c = true -> st_size st' c = st_size st c) /\ (forall c, st_lab st' c = st_lab st c) /\ (st_errs st <= st_errs st')%nat.
Lemma ext_refl st : ext st st. Proof. repeat split; auto. Qed.
Lemma ext_trans a b c : ext a b -> ext b c -> ext a c.
Proof.
  intros (A1 & A2 & A3) (B1 & B2 & B3). split; [|split; [intros x; rewrite B2; auto|lia]]. intros x HX. rewrite <- (A1 x HX). apply B1. unfold complete in *. rewrite (A1 x HX). auto.
Qed.
Lemma ext_error st : ext st (error st). Proof. repeat split; auto. cbn. auto. Qed.
Lemma ext_failed st : ext st (failed st). Proof. repeat split; auto. Qed.
Lemma ext_sz a b c : ext a b -> 0 <= st_size a c -> st_size b c = st_size a c.
Proof. intros (H & _) HC. apply H. unfold complete, UNKNOWNSIZE. lia. Qed.

Lemma bases_none bs st : bases_loop bs st = None -> forall b, In b bs -> b <> 0%N -> 0 <= st_size st b.
Proof.
  induction bs as [|x bs IH]; cbn [bases_loop]; intros E b HB NZ; [destruct HB|]. destruct (N.eqb_spec x 0) as [->|NX]; [destruct HB as [<-|HB]; [contradiction|auto]|].
  destruct (st_size st x <? 0) eqn:EX; [discriminate|]. destruct HB as [<-|HB]; [lia|auto].
Qed.
Lemma bases_some bs st z : bases_loop bs st = Some z -> exists b, In b bs /\ b <> 0%N /\ z = st_size st b /\ z < 0.
Proof.
  induction bs as [|x bs IH]; cbn [bases_loop]; [discriminate|]. destruct (N.eqb_spec x 0) as [->|NX]; [intros E; destruct (IH E) as (b & H1 & H2); exists b; split; [right|]; auto|].
  destruct (st_size st x <? 0) eqn:EX; [intros E; injection E as <-; exists x; split; [left; auto|split; [auto|split; [auto|lia]]]|]. intros E; destruct (IH E) as (b & H1 & H2); exists b; split; [right|]; auto.
Qed.

Section Sizes.
Variable root : N -> N.
Variable classes : N -> option sclass.
Notation SU := (setUTIBitSize classes).
Notation SB := (setBaseClassBitSize classes).
Notation DS := (determineShared root classes).
Notation calc := (calcVariableSymbolTypeSize root classes).
Notation totl := (total_loop root classes).
Notation maxl := (max_loop root classes).
Notation trySet := (trySetBitsize root classes).
Notation svb := (findTheSharedVirtualBases root (bare classes)).

Lemma ext_SU c b st : ext st (SU c b st).
Proof.
  unfold setUTIBitSize. destruct (complete st c) eqn:EC; [apply ext_refl|]. destruct (kind classes c) as [k|]; [|apply ext_refl].
  destruct (b >? limit k); [apply ext_error|]. destruct (st_size st c =? b) eqn:EB; [apply ext_refl|]. repeat split; auto. cbn [st_size]. intros x HX. apply upd_ne. intros ->. congruence.
Qed.
Lemma ext_SB c b st : ext st (fst (SB c b st)).
Proof.
  unfold setBaseClassBitSize. destruct (kind classes c) as [[]|]; cbn [fst]; try apply ext_refl;
  (destruct (_ >? _); cbn [fst]; [apply ext_error|]; destruct (_ >? _); cbn [fst]; [destruct (_ =? _); [apply ext_refl|apply ext_failed]|repeat split; auto]).
Qed.
Lemma ext_shared l : forall acc st, ext st (fst (shared_loop classes l acc st)).
Proof.
  induction l as [|[b n] l IH]; intros acc st; cbn [shared_loop]; [apply ext_refl|].
  set (st1 := if complete st b then st else failed st). assert (ext st st1) as H1 by (unfold st1; destruct (complete st b); [apply ext_refl|apply ext_failed]).
  destruct (_ =? _); cbn [fst]; auto. eapply ext_trans; eauto.
Qed.
Lemma ext_DS c st : ext st (fst (DS c st)). Proof. apply ext_shared. Qed.

Definition ext_rec (rec : nested) : Prop := forall c st seen, ext st (fst (fst (rec c st seen))).
Lemma ext_calc rec ctx m st seen : ext_rec rec -> ext st (fst (fst (calc rec ctx m st seen))).
Proof.
  intros HR. destruct m as [b a|c|c n|]; cbn [calcVariableSymbolTypeSize fst]; try apply ext_refl.
  destruct (_ >=? _); [apply ext_refl|]. destruct (_ =? _); [apply ext_refl|]. destruct (classes c) as [k|]; [|apply ext_refl]. destruct (sc_stub k); [apply ext_refl|].
  destruct (N.eqb c ctx); [apply ext_error|]. destruct (mem c seen); [apply ext_SU|]. specialize (HR c st (c :: seen)). destruct (rec c st (c :: seen)) as [[st1 seen1] [my|]]; cbn [fst] in *; auto.
  pose proof (ext_DS c st1) as H2. destruct (DS c st1) as [st2 [s|]]; cbn [fst] in *; [|eapply ext_trans; eauto].
  pose proof (ext_SB c my st2) as H3. destruct (SB c my st2) as [st3 ok]. cbn [fst] in *. eapply ext_trans; eauto. eapply ext_trans; eauto.
Qed.
(* the state after a member of known size *)
Definition set_total (m : smember) (s : Z) (st1 : sstate) : sstate :=
  match m with
  | MClass c => let save := getBase classes c st1 in let st' := SU c s st1 in if save =? UNKNOWNSIZE then st' else fst (SB c save st')
  | _ => st1
  end.
Definition set_max (m : smember) (s : Z) (st1 : sstate) : sstate := match m with MClass c => SU c s st1 | _ => st1 end.
Lemma ext_set_total m s st : ext st (set_total m s st).
Proof. destruct m; cbn [set_total]; try apply ext_refl. cbn zeta. destruct (_ =? _); [apply ext_SU|]. eapply ext_trans; [apply ext_SU|apply ext_SB]. Qed.
Lemma ext_set_max m s st : ext st (set_max m s st).
Proof. destruct m; cbn [set_max]; try apply ext_refl. apply ext_SU. Qed.
Lemma ext_total rec ctx k : ext_rec rec -> forall ms acc st seen, ext st (fst (fst (totl rec ctx k ms acc st seen))).
Proof.
  intros HR. induction ms as [|m ms IH]; intros acc st seen; cbn [total_loop]; [apply ext_refl|].
  pose proof (ext_calc rec ctx m st seen HR) as H1. destruct (calc rec ctx m st seen) as [[st1 seen1] s]. cbn [fst] in H1.
  destruct (s =? CYCLEFLAG); [cbn [fst]; eapply ext_trans; [eauto|apply ext_error]|]. destruct (s <=? UNKNOWNSIZE); [auto|].
  fold (set_total m s st1). eapply ext_trans; [eauto|]. eapply ext_trans; [apply ext_set_total|apply IH].
Qed.
Lemma ext_max rec ctx : ext_rec rec -> forall ms acc st seen, ext st (fst (fst (maxl rec ctx ms acc st seen))).
Proof.
  intros HR. induction ms as [|m ms IH]; intros acc st seen; cbn [max_loop]; [apply ext_refl|].
  pose proof (ext_calc rec ctx m st seen HR) as H1. destruct (calc rec ctx m st seen) as [[st1 seen1] s]. cbn [fst] in H1.
  destruct (s =? CYCLEFLAG); [cbn [fst]; eapply ext_trans; [eauto|apply ext_error]|]. destruct (s <=? UNKNOWNSIZE); [auto|].
  fold (set_max m s st1). eapply ext_trans; [eauto|]. eapply ext_trans; [apply ext_set_max|apply IH].
Qed.
(* the sum over the members, given the bases *)
Definition members_of (rec : nested) (c : N) (k : sclass) (st : sstate) (seen : list N) : sstate * list N * Z :=
  match bases_loop (sc_bases k) st with
  | Some z => (st, seen, z)
  | None => if sc_union k then maxl rec c (sc_members k) 0 st seen else totl rec c (sc_kind k) (sc_members k) 0 st seen
  end.
Lemma ext_members rec c k st seen : ext_rec rec -> ext st (fst (fst (members_of rec c k st seen))).
Proof. intros HR. unfold members_of. destruct (bases_loop _ _); [apply ext_refl|]. destruct (sc_union k); [apply ext_max|apply ext_total]; auto. Qed.
Lemma trySet_S f c k st seen : classes c = Some k -> trySet (S f) c st seen =
  let '(st1, seen1, t) := members_of (trySet f) c k st seen in
  if t =? CYCLEFLAG then (error st1, seen1, None) else if t =? UNKNOWNSIZE then (st1, seen1, None) else (st1, seen1, Some t).
Proof. intros E. cbn [trySetBitsize]. rewrite E. reflexivity. Qed.
Lemma ext_trySet f : ext_rec (trySet f).
Proof.
  induction f as [|f IH]; intros c st seen; [apply ext_failed|]. destruct (classes c) as [k|] eqn:E; [|cbn [trySetBitsize]; rewrite E; apply ext_failed]. rewrite (trySet_S f c k st seen E).
  pose proof (ext_members (trySet f) c k st seen IH) as H. destruct (members_of (trySet f) c k st seen) as [[st1 seen1] t]. cbn [fst] in H.
  destruct (t =? CYCLEFLAG); [cbn [fst]; eapply ext_trans; [eauto|apply ext_error]|]. destruct (t =? UNKNOWNSIZE); auto.
Qed.
Variable tab : list N.
Notation SBS := (setBitSize root classes tab).
(* the step for a class once its members are known *)
Definition finish (c : N) (my : Z) (st1 : sstate) : sstate :=
  let '(st2, sh) := DS c st1 in
  match sh with
  | None => st2
  | Some s => let st3 := SU c (my + s) st2 in if negb (st_size st3 c =? my + s) then error st3 else fst (SB c (my + s - s) st3)
  end.
Lemma ext_finish c my st : ext st (finish c my st).
Proof.
  unfold finish. pose proof (ext_DS c st) as H. destruct (DS c st) as [st2 [s|]]; cbn [fst] in H; auto. cbn zeta. eapply ext_trans; [eauto|]. eapply ext_trans; [apply ext_SU|].
  destruct (negb _); [apply ext_error|apply ext_SB].
Qed.
Lemma SBS_step st c k : classes c = Some k -> complete st c || sc_stub k = false -> SBS st c =
  let '(st1, _, r) := trySet (S (List.length tab)) c st [c] in match r with None => st1 | Some my => finish c my st1 end.
Proof. intros E EC. unfold setBitSize. rewrite E, EC. reflexivity. Qed.
Lemma ext_SBS st c : ext st (SBS st c).
Proof.
  destruct (classes c) as [k|] eqn:E; [|unfold setBitSize; rewrite E; apply ext_refl]. destruct (complete st c || sc_stub k) eqn:EC; [unfold setBitSize; rewrite E, EC; apply ext_refl|].
  rewrite (SBS_step st c k E EC). pose proof (ext_trySet (S (List.length tab)) c st [c]) as H. destruct (trySet _ c st [c]) as [[st1 seen1] [my|]]; cbn [fst] in H; auto.
  eapply ext_trans; [eauto|apply ext_finish].
Qed.
Lemma ext_fold l : forall st, ext st (fold_left SBS l st).
Proof. induction l as [|c l IH]; intros st; [apply ext_refl|]. cbn [fold_left]. eapply ext_trans; [apply ext_SBS|apply IH]. Qed.

(* ---- a class that is sized stands on sized classes ---- *)
Notation contains := (contains classes).
Definition grounded (c : N) : Prop := Acc (fun d c => contains c d) c.
Record inv0 (st : sstate) : Prop := {
  z_grounded : forall c, complete st c = true -> grounded c;
  z_lab : forall c, st_lab st c = true -> complete st c = true;
  z_size : forall c, 0 <= st_size st c \/ st_size st c = UNKNOWNSIZE \/ st_size st c = CYCLEFLAG;
  z_base : forall c, 0 <= st_base st c \/ st_base st c = UNKNOWNSIZE
}.
(* no class is newly marked *)
Definition nocyc (st st' : sstate) : Prop := forall d, st_size st' d = CYCLEFLAG -> st_size st d = CYCLEFLAG.
Lemma nocyc_refl st : nocyc st st. Proof. intros d. auto. Qed.
Lemma nocyc_trans a b c : nocyc a b -> nocyc b c -> nocyc a c. Proof. intros H1 H2 d H. auto. Qed.
Ltac uf := unfold UNKNOWNSIZE, CYCLEFLAG in *.
Lemma inv0_error st : inv0 st -> inv0 (error st). Proof. intros []; constructor; auto. Qed.
Lemma inv0_failed st : inv0 st -> inv0 (failed st). Proof. intros []; constructor; auto. Qed.
Lemma inv0_SU c b st : inv0 st -> (0 <= b /\ grounded c) \/ b = CYCLEFLAG -> inv0 (SU c b st).
Proof.
  intros HI HB. unfold setUTIBitSize in *. destruct (complete st c) eqn:EC; auto. destruct (kind classes c) as [k|]; auto.
  destruct (b >? limit k); [apply inv0_error; auto|]. destruct (st_size st c =? b); auto. destruct HI as [H1 H2 H3 H4]. constructor; intros x; cbn [st_lab st_size st_base].
  - unfold complete. cbn [st_size]. destruct (N.eq_dec x c) as [->|NE]; [rewrite upd_eq; intros HL; uf; destruct HB as [[_ HG]|HB]; [auto|lia]|rewrite upd_ne by auto; apply H1].
  - intros HL. apply H2 in HL. unfold complete in *. cbn [st_size]. rewrite upd_ne; auto. intros ->. congruence.
  - destruct (N.eq_dec x c) as [->|NE]; [rewrite upd_eq; tauto|rewrite upd_ne by auto; auto].
  - destruct (N.eq_dec x c) as [->|NE]; [rewrite upd_eq; auto|rewrite upd_ne by auto; auto].
Qed.
Lemma nocyc_SU c b st : 0 <= b -> nocyc st (SU c b st).
Proof.
  intros HB d. unfold setUTIBitSize. destruct (complete st c) eqn:EC; auto. destruct (kind classes c) as [k|]; auto. destruct (b >? limit k); auto. destruct (st_size st c =? b); auto. cbn [st_size].
  destruct (N.eq_dec d c) as [->|NE]; [rewrite upd_eq; uf; lia|rewrite upd_ne by auto; auto].
Qed.
Lemma SB_size c b st x : st_size (fst (SB c b st)) x = st_size st x.
Proof.
  unfold setBaseClassBitSize. destruct (kind classes c) as [[]|]; cbn [fst]; auto; (destruct (_ >? _); auto; destruct (_ >? _); auto; cbn [fst]; destruct (_ =? _); auto).
Qed.
Lemma shared_size l : forall acc st x, st_size (fst (shared_loop classes l acc st)) x = st_size st x /\ st_base (fst (shared_loop classes l acc st)) x = st_base st x.
Proof.
  induction l as [|[b n] l IH]; intros acc st x; cbn [shared_loop]; auto. destruct (_ =? _); [destruct (complete st b); auto|]. destruct (IH (acc + getBase classes b (if complete st b then st else failed st)) (if complete st b then st else failed st) x) as [-> ->].
  destruct (complete st b); auto.
Qed.
Lemma inv0_SB c b st : inv0 st -> 0 <= b -> inv0 (fst (SB c b st)).
Proof.
  intros HI HB. unfold setBaseClassBitSize. destruct (kind classes c) as [[]|]; cbn [fst]; auto;
  (destruct (_ >? _); cbn [fst]; [apply inv0_error; auto|]; destruct (_ >? _); cbn [fst]; [destruct (_ =? _); auto; apply inv0_failed; auto|]);
  (destruct HI as [H1 H2 H3 H4]; constructor; auto; intros x; cbn [st_base]; destruct (N.eq_dec x c) as [->|NE]; [rewrite upd_eq; auto|rewrite upd_ne by auto; auto]).
Qed.
Lemma getBase_nonneg c st : inv0 st -> getBase classes c st <> UNKNOWNSIZE -> 0 <= getBase classes c st.
Proof. intros HI. unfold getBase. destruct (kind classes c) as [[]|]; try lia; pose proof (z_base _ HI c); lia. Qed.
Lemma inv0_shared l : forall acc st, inv0 st -> 0 <= acc -> inv0 (fst (shared_loop classes l acc st)) /\ (forall s, snd (shared_loop classes l acc st) = Some s -> 0 <= s).
Proof.
  induction l as [|[b n] l IH]; intros acc st HI HA; cbn [shared_loop]; [split; auto; intros s E; injection E as <-; auto|].
  set (st1 := if complete st b then st else failed st). assert (inv0 st1) as H1 by (unfold st1; destruct (complete st b); auto; apply inv0_failed; auto).
  destruct (getBase classes b st1 =? UNKNOWNSIZE) eqn:EB; [split; auto; discriminate|]. apply IH; auto. pose proof (getBase_nonneg b st1 H1). lia.
Qed.
Definition rec0 (rec : nested) : Prop := forall c st seen st' seen' r, rec c st seen = (st', seen', r) -> inv0 st ->
  inv0 st' /\ (forall my, r = Some my -> grounded c /\ 0 <= my /\ nocyc st st').
Definition mgrounded1 (m : smember) : Prop := match m with MClass c => grounded c | MArray c _ => grounded c | MHzy => False | _ => True end.
Definition mgood (m : smember) (st : sstate) : Prop := match m with MClass c => st_size st c <> CYCLEFLAG | MArray c _ => 0 <= st_size st c | _ => True end.
Lemma inv0_calc rec ctx m st seen st' seen' s : rec0 rec -> calc rec ctx m st seen = (st', seen', s) -> inv0 st ->
  inv0 st' /\ (UNKNOWNSIZE < s -> 0 <= s /\ mgrounded1 m /\ nocyc st st' /\ mgood m st').
Proof.
  intros HR E HI. destruct m as [b a|c|c n|]; cbn [calcVariableSymbolTypeSize] in E; cbn [mgrounded1 mgood].
  - injection E as <- <- <-. split; auto. intros _. split; [lia|]. split; auto. split; auto. apply nocyc_refl.
  - destruct (st_size st c >=? 0) eqn:E0; [injection E as <- <- <-; split; auto; intros _; split; [lia|]; split; [apply (z_grounded _ HI); unfold complete, UNKNOWNSIZE; lia|]; split; [apply nocyc_refl|uf; lia]|].
    destruct (st_size st c =? CYCLEFLAG) eqn:ECY; [injection E as <- <- <-; split; auto; intros HL; uf; lia|].
    assert (forall P : Prop, UNKNOWNSIZE < UNKNOWNSIZE -> P) as HU by (intros P HL; lia).
    destruct (classes c) as [k|]; [|injection E as <- <- <-; split; auto; apply HU]. destruct (sc_stub k); [injection E as <- <- <-; split; auto; apply HU|].
    destruct (N.eqb c ctx); [injection E as <- <- <-; split; [apply inv0_error; auto|apply HU]|].
    destruct (mem c seen); [injection E as <- <- <-; split; [apply inv0_SU; auto|intros HL; uf; lia]|].
    destruct (rec c st (c :: seen)) as [[st1 seen1] r] eqn:ER. destruct (HR _ _ _ _ _ _ ER HI) as [H1 HG]. destruct r as [my|]; [|injection E as <- <- <-; split; auto; apply HU].
    destruct (HG my eq_refl) as (G1 & G2 & G3).
    destruct (inv0_shared (svb c) 0 st1 H1 ltac:(lia)) as [H2 HS]. pose proof (fun x => proj1 (shared_size (svb c) 0 st1 x)) as HZ. unfold determineShared in E. destruct (shared_loop classes (svb c) 0 st1) as [st2 [sh|]]; cbn [fst snd] in *; [|injection E as <- <- <-; split; auto; apply HU].
    pose proof (inv0_SB c my st2 H2 G2) as H3. pose proof (SB_size c my st2) as HB. destruct (SB c my st2) as [st3 ok]. cbn [fst] in H3, HB. injection E as <- <- <-. split; auto. intros HL. specialize (HS sh eq_refl).
    assert (nocyc st st3) as HN by (intros d HD; apply G3; rewrite <- HZ, <- HB; auto). split; [destruct ok; uf; lia|]. split; auto. split; auto. intros HX. apply HN in HX. lia.
  - injection E as <- <- <-. split; auto. destruct (st_lab st c) eqn:EL; [|intros HL; lia]. pose proof (z_lab _ HI c EL) as HC. pose proof (z_size _ HI c). intros HL. unfold complete in *. assert (0 <= st_size st c) by (uf; lia).
    split; auto. split; [apply (z_grounded _ HI); auto|]. split; [apply nocyc_refl|auto].
  - injection E as <- <- <-. split; auto. lia.
Qed.
Lemma inv0_set_total m s st : inv0 st -> 0 <= s -> mgrounded1 m -> inv0 (set_total m s st) /\ nocyc st (set_total m s st).
Proof.
  intros HI HS HM. destruct m as [b a|c|c n|]; cbn [set_total]; try (split; [auto|apply nocyc_refl]). cbn zeta. assert (inv0 (SU c s st)) as H1 by (apply inv0_SU; auto). pose proof (nocyc_SU c s st HS) as H2.
  destruct (getBase classes c st =? UNKNOWNSIZE) eqn:EB; auto. split; [apply inv0_SB; auto; apply getBase_nonneg; auto; lia|]. intros d. rewrite SB_size. auto.
Qed.
Lemma inv0_set_max m s st : inv0 st -> 0 <= s -> mgrounded1 m -> inv0 (set_max m s st) /\ nocyc st (set_max m s st).
Proof. intros HI HS HM. destruct m as [b a|c|c n|]; cbn [set_max]; try (split; [auto|apply nocyc_refl]). split; [apply inv0_SU; auto|apply nocyc_SU; auto]. Qed.
Lemma mgood_ext m st st' : mgood m st -> ext st st' -> nocyc st st' -> mgood m st'.
Proof. intros HM HE HN. destruct m as [b a|c|c n|]; cbn [mgood] in *; auto. rewrite (ext_sz _ _ _ HE HM). auto. Qed.
Lemma total_nonneg m st : inv0 st -> mgood m st -> 0 <= memberTotal m st.
Proof.
  intros HI HM. destruct m as [b a|c|c n|]; cbn [memberTotal mgood] in *; [destruct a; lia| | |lia].
  - unfold known. pose proof (z_size _ HI c). destruct (st_size st c =? UNKNOWNSIZE) eqn:E; lia.
  - assert (known (st_size st c) = st_size st c) as -> by (unfold known; uf; destruct (_ =? _) eqn:E; lia). lia.
Qed.
Lemma member_nonneg k m st : inv0 st -> mgood m st -> 0 <= memberSize classes k m st.
Proof. intros HI HM. pose proof (total_nonneg m st HI HM). destruct k, m; cbn [memberSize]; auto; destruct (elementb classes c); auto; lia. Qed.
Definition mgrounded (ms : list smember) : Prop := forall m, In m ms -> mgrounded1 m.
Lemma inv0_total rec ctx k : rec0 rec -> forall ms acc st seen st' seen' t, totl rec ctx k ms acc st seen = (st', seen', t) -> inv0 st -> 0 <= acc ->
  inv0 st' /\ (t = CYCLEFLAG \/ t = UNKNOWNSIZE \/ 0 <= t /\ mgrounded ms /\ nocyc st st').
Proof.
  intros HR. induction ms as [|m ms IH]; intros acc st seen st' seen' t E HI HA; cbn [total_loop] in E.
  - injection E as <- <- <-. split; auto. right. right. split; auto. split; [intros m []|apply nocyc_refl].
  - destruct (calc rec ctx m st seen) as [[st1 seen1] s] eqn:EC. destruct (inv0_calc _ _ _ _ _ _ _ _ HR EC HI) as [H1 HM].
    destruct (s =? CYCLEFLAG); [injection E as <- <- <-; split; [apply inv0_error; auto|auto]|]. destruct (s <=? UNKNOWNSIZE) eqn:EU; [injection E as <- <- <-; split; auto|].
    fold (set_total m s st1) in E. destruct (HM ltac:(lia)) as (M1 & M2 & M3 & M4). destruct (inv0_set_total m s st1 H1 M1 M2) as [H2 N2].
    assert (0 <= acc + memberSize classes k m (set_total m s st1)) as HA' by (pose proof (member_nonneg k m _ H2 (mgood_ext _ _ _ M4 (ext_set_total m s st1) N2)); lia).
    destruct (IH _ _ _ _ _ _ E H2 HA') as [H3 [HT|[HT|(T1 & T2 & T3)]]]; split; auto. right. right. split; auto. split; [intros x [<-|HX]; auto|]. eapply nocyc_trans; eauto. eapply nocyc_trans; eauto.
Qed.
Lemma inv0_max rec ctx : rec0 rec -> forall ms acc st seen st' seen' t, maxl rec ctx ms acc st seen = (st', seen', t) -> inv0 st -> 0 <= acc ->
  inv0 st' /\ (t = CYCLEFLAG \/ t = UNKNOWNSIZE \/ 0 <= t /\ mgrounded ms /\ nocyc st st').
Proof.
  intros HR. induction ms as [|m ms IH]; intros acc st seen st' seen' t E HI HA; cbn [max_loop] in E.
  - injection E as <- <- <-. split; auto. right. right. split; auto. split; [intros m []|apply nocyc_refl].
  - destruct (calc rec ctx m st seen) as [[st1 seen1] s] eqn:EC. destruct (inv0_calc _ _ _ _ _ _ _ _ HR EC HI) as [H1 HM].
    destruct (s =? CYCLEFLAG); [injection E as <- <- <-; split; [apply inv0_error; auto|auto]|]. destruct (s <=? UNKNOWNSIZE) eqn:EU; [injection E as <- <- <-; split; auto|].
    fold (set_max m s st1) in E. destruct (HM ltac:(lia)) as (M1 & M2 & M3 & M4). destruct (inv0_set_max m s st1 H1 M1 M2) as [H2 N2]. cbn zeta in E.
    assert (0 <= if memberTotal m (set_max m s st1) >? acc then memberTotal m (set_max m s st1) else acc) as HA' by (destruct (_ >? _) eqn:EG; lia).
    destruct (IH _ _ _ _ _ _ E H2 HA') as [H3 [HT|[HT|(T1 & T2 & T3)]]]; split; auto. right. right. split; auto. split; [intros x [<-|HX]; auto|]. eapply nocyc_trans; eauto. eapply nocyc_trans; eauto.
Qed.
Lemma inv0_members rec c k st seen st' seen' t : rec0 rec -> classes c = Some k -> members_of rec c k st seen = (st', seen', t) -> inv0 st ->
  inv0 st' /\ (t = CYCLEFLAG \/ t = UNKNOWNSIZE \/ 0 <= t /\ grounded c /\ nocyc st st').
Proof.
  intros HR EK E HI. unfold members_of in E. destruct (bases_loop (sc_bases k) st) as [z|] eqn:EB.
  - injection E as <- <- <-. split; auto. apply bases_some in EB. destruct EB as (b & _ & _ & -> & HL). pose proof (z_size _ HI b). lia.
  - assert (mgrounded (sc_members k) -> grounded c) as HG.
    { intros HM. constructor. intros d (k' & EK' & HD). rewrite EK in EK'. injection EK' as <-. destruct HD as [HD|[[n HD]|[HD NZ]]]; [apply (HM _ HD)|apply (HM _ HD)|].
      apply (z_grounded _ HI). pose proof (bases_none _ _ EB d HD NZ). unfold complete. uf. lia. }
    destruct (sc_union k); [destruct (inv0_max _ _ HR _ _ _ _ _ _ _ E HI (Z.le_refl 0)) as [H1 H2]|destruct (inv0_total _ _ _ HR _ _ _ _ _ _ _ E HI (Z.le_refl 0)) as [H1 H2]]; split; auto;
    (destruct H2 as [H2|[H2|(H2 & H3 & H4)]]; [auto|auto|right; right; split; [auto|split; auto]]).
Qed.
Lemma inv0_trySet f : rec0 (trySet f).
Proof.
  induction f as [|f IH]; intros c st seen st' seen' r E HI; [injection E as <- <- <-; split; [apply inv0_failed; auto|discriminate]|].
  destruct (classes c) as [k|] eqn:EK; [|cbn [trySetBitsize] in E; rewrite EK in E; injection E as <- <- <-; split; [apply inv0_failed; auto|discriminate]]. rewrite (trySet_S f c k st seen EK) in E.
  destruct (members_of (trySet f) c k st seen) as [[st1 seen1] t] eqn:EM. destruct (inv0_members _ _ _ _ _ _ _ _ IH EK EM HI) as [H1 H2].
  destruct (t =? CYCLEFLAG) eqn:E1; [injection E as <- <- <-; split; [apply inv0_error; auto|discriminate]|]. destruct (t =? UNKNOWNSIZE) eqn:E2; [injection E as <- <- <-; split; [auto|discriminate]|].
  injection E as <- <- <-. split; auto. intros my E. injection E as <-. destruct H2 as [H2|[H2|(H2 & H3 & H4)]]; [lia|lia|auto].
Qed.
Lemma inv0_SBS st c : inv0 st -> inv0 (SBS st c).
Proof.
  intros HI. destruct (classes c) as [k|] eqn:E; [|unfold setBitSize; rewrite E; auto]. destruct (complete st c || sc_stub k) eqn:EC; [unfold setBitSize; rewrite E, EC; auto|].
  rewrite (SBS_step st c k E EC). destruct (trySet _ c st [c]) as [[st1 seen1] r] eqn:ET. destruct (inv0_trySet _ _ _ _ _ _ _ ET HI) as [H1 H2]. destruct r as [my|]; auto. destruct (H2 my eq_refl) as (G1 & G2 & G3).
  unfold finish, determineShared. destruct (inv0_shared (svb c) 0 st1 H1 ltac:(lia)) as [H3 HS]. destruct (shared_loop classes (svb c) 0 st1) as [st2 [sh|]]; cbn [fst snd] in *; auto. cbn zeta. specialize (HS sh eq_refl).
  assert (inv0 (SU c (my + sh) st2)) as H4 by (apply inv0_SU; auto; left; split; auto; lia). destruct (negb _); [apply inv0_error; auto|]. apply inv0_SB; auto. lia.
Qed.
Lemma inv0_label st : inv0 st -> inv0 (label st).
Proof. intros [H1 H2 H3 H4]. constructor; auto. Qed.
Lemma inv0_fold l : forall st, inv0 st -> inv0 (fold_left SBS l st).
Proof. induction l as [|c l IH]; intros st HI; cbn [fold_left]; auto. apply IH, inv0_SBS. auto. Qed.
Lemma inv0_passes n : inv0 (passes root classes tab n start).
Proof.
  induction n as [|n IH]; [constructor; intros c; cbn; auto; discriminate|]. cbn [passes]. destruct (Nat.eqb _ 0); auto. apply inv0_label, inv0_fold. auto.
Qed.
End Sizes.
