From Coq Require Import String List NArith ZArith Lia Bool Permutation.
From Coq Require Import ZifyBool ZifyNat ZifyN.
From Verif Require Import Base TypeTableModel FamilyModel FamilyProofs FamilyTheorems SourceStreamModel SourceStreamProofs LayoutSpec LayoutTheorems VTableModel VTableSpec.
Import ListNotations.
Open Scope N_scope.
Local Opaque the_fuel.

Lemma set_nth_app {A} n (x : A) l1 l2 : (n < List.length l1)%nat -> set_nth n x (l1 ++ l2) = set_nth n x l1 ++ l2.
Proof. revert n. induction l1 as [|y l1 IH]; intros n HL; [cbn in HL; lia|]. destruct n; cbn [set_nth app]; auto. f_equal. apply IH. cbn in HL. lia. Qed.
Lemma Forall2_impl_In {A B} (P Q : A -> B -> Prop) l1 l2 : (forall a b, In a l1 -> In b l2 -> P a b -> Q a b) -> Forall2 P l1 l2 -> Forall2 Q l1 l2.
Proof. intros HPQ HF. induction HF as [|a b l1 l2 Hab HF IH]; constructor; [apply HPQ; auto; left; auto|]. apply IH. intros x y HX HY. apply HPQ; right; auto. Qed.

Section Proofs.
Variable root : N -> N.
Variable bases : N -> option (list N).
Variable compare : N -> N -> cmp.
Variable funs : N -> list fdecl.
Hypothesis H : hier root bases compare funs.
Notation edge := (edge root bases).
Notation reach := (reach root bases).
Notation ancestor := (ancestor root bases).
Notation virtual := (virtual root bases funs).
Notation originates := (originates root bases funs).
Notation sub := (subclass root bases compare).

Lemma edge_nz x y : edge x y -> y <> 0 -> bases x <> None /\ bases y <> None /\ root y = y.
Proof.
  intros (bs & b & EB & HB & ER) NZ. assert (b <> 0) as NB by (intros ->; apply NZ; rewrite <- ER; apply (root_zero _ _ _ (h_settled _ _ _ _ H)); auto).
  pose proof (h_bases _ _ _ _ H x bs b EB HB NB) as HD. pose proof (h_root _ _ _ _ H b HD) as HR. rewrite HR in ER. subst b. split; [congruence|]. split; auto.
Qed.
Lemma edge_defined_l x y : edge x y -> bases x <> None.
Proof. intros (bs & b & EB & _). congruence. Qed.
Lemma anc_nz x y : ancestor x y -> y <> 0 -> bases y <> None /\ root y = y.
Proof. intros HA NZ. destruct (reach_last _ _ _ _ HA) as (z & _ & HE). destruct (edge_nz z y HE NZ) as (_ & H1 & H2). auto. Qed.
Lemma virtual_def x s : virtual x s -> bases x <> None.
Proof. intros (d & HD & _). destruct (bases x) eqn:E; [discriminate|]. rewrite (h_funs _ _ _ _ H x E) in HD. contradiction. Qed.
Lemma virtual_nz x s : virtual x s -> x <> 0.
Proof. intros HV ->. apply virtual_def in HV. rewrite (h_nouti _ _ _ _ H) in HV. congruence. Qed.
Lemma sub_anc x y : bases x <> None -> bases y <> None -> (sub x y = true <-> ancestor x y).
Proof.
  intros HX HY. unfold subclass. assert (y <> 0) as NZ by (intros ->; rewrite (h_nouti _ _ _ _ H) in HY; congruence).
  rewrite (C33_subclass_acyclic root bases compare (h_settled _ _ _ _ H) (h_acyclic _ _ _ _ H) x y NZ). rewrite (h_root _ _ _ _ H x HX), (h_root _ _ _ _ H y HY). tauto.
Qed.
Lemma virtual_up x s : (exists d, In d (funs x) /\ fd_sig d = s) -> (exists y, ancestor x y /\ virtual y s) -> virtual x s.
Proof.
  intros (d & HD & ES) (y & HA & (d1 & _ & _ & z & d2 & HR & HD2 & ES2 & EV)). exists d. split; auto. split; auto. exists z, d2. split; auto. eapply reach_trans; eauto. apply ancestor_reach. auto.
Qed.
Lemma virtual_cases x s : virtual x s -> (exists d, In d (funs x) /\ fd_sig d = s /\ fd_virtual d = true) \/ exists y, ancestor x y /\ virtual y s.
Proof.
  intros (d & HD & ES & y & d' & HR & HD' & ES' & EV). destruct (reach_ancestor _ _ _ _ HR) as [<-|HA]; [left; exists d'; auto|]. right. exists y. split; auto. exists d'. split; auto. split; auto. exists y, d'. split; [constructor|]. auto.
Qed.
Lemma sig_unique x d1 d2 : In d1 (funs x) -> In d2 (funs x) -> fd_sig d1 = fd_sig d2 -> d1 = d2.
Proof.
  pose proof (h_sigs _ _ _ _ H x) as ND. induction (funs x) as [|d l IH]; intros H1 H2 E; [contradiction|]. cbn [map] in ND. apply NoDup_cons_iff in ND. destruct ND as [NI ND].
  destruct H1 as [<-|H1], H2 as [<-|H2]; auto; exfalso; apply NI; [rewrite E|rewrite <- E]; apply in_map; auto.
Qed.

(* ---- what is known of a finished class ---- *)
Definition fun_ok (x : N) (own : list vte) (d : fdecl) (f : fsym) : Prop :=
  fs_sig f = fd_sig d /\ fs_pure f = fd_pure d /\ (fs_virtual f = true <-> virtual x (fd_sig d)) /\
  (originates x (fd_sig d) -> exists i e, fs_vidx f = Some i /\ nth_error own (N.to_nat i) = Some e /\ snd (e_func e) = fd_sig d).
Record basic (D : N -> option vclass) (x : N) (v : vclass) : Prop := {
  b_def : bases x <> None;
  b_anc : forall y, ancestor x y -> y <> 0 -> D y <> None;
  b_funs : Forall2 (fun_ok x (v_owned v)) (funs x) (v_funs v);
  b_owned : forall i e, nth_error (v_owned v) i = Some e -> e_orig e = x /\ e_vidx e = N.of_nat i /\ e_of e = x /\ fst (e_func e) = x /\ virtual x (snd (e_func e)) /\
    exists d, In d (funs x) /\ fd_sig d = snd (e_func e) /\ e_pure e = fd_pure d;
  b_sigs : NoDup (map (fun e => snd (e_func e)) (v_owned v))
}.

(* looking up a function of a finished class *)
Lemma find_fun_ok x v s : Forall2 (fun_ok x (v_owned v)) (funs x) (v_funs v) ->
  match find_fun s v with
  | Some f => exists d, In d (funs x) /\ fd_sig d = s /\ fun_ok x (v_owned v) d f
  | None => forall d, In d (funs x) -> fd_sig d <> s
  end.
Proof.
  unfold find_fun. generalize (v_owned v). intros own. induction 1 as [|d f ds fs HO HF IH]; cbn [find]; [intros d []|]. destruct (fs_sig f =? s) eqn:E.
  - apply N.eqb_eq in E. exists d. split; [left; auto|]. split; auto. destruct HO as [<- _]. auto.
  - destruct (find (fun f0 => fs_sig f0 =? s) fs) as [f'|].
    + destruct IH as (d' & HD & ES & HO'). exists d'. split; [right|]; auto.
    + apply N.eqb_neq in E. intros d' [<-|HD]; [|auto]. destruct HO as [ES _]. congruence.
Qed.

Section Class.
Variable D : N -> option vclass.
Hypothesis HD : forall x v, D x = Some v -> basic D x v.
Variable c : N.
Hypothesis Hc : bases c <> None.
Hypothesis Hready : forall y, ancestor c y -> y <> 0 -> D y <> None.

(* the virtual function s of x, as the look-up sees it *)
Definition vfun (x s : N) : option fsym := match D x with Some v => match find_fun s v with Some f => if fs_virtual f then Some f else None | None => None end | None => None end.
Lemma vfun_spec x s : (D x <> None -> vfun x s <> None <-> virtual x s) /\
  (forall f, vfun x s = Some f -> exists v d, D x = Some v /\ In d (funs x) /\ fd_sig d = s /\ fun_ok x (v_owned v) d f).
Proof.
  unfold vfun. destruct (D x) as [v|] eqn:E; [|split; [congruence|discriminate]]. pose proof (find_fun_ok x v s (b_funs _ _ _ (HD x v E))) as HF. destruct (find_fun s v) as [f|].
  - destruct HF as (d & HI & ES & HO). split.
    + intros _. destruct HO as (_ & _ & HV & _). rewrite ES in HV. destruct (fs_virtual f); split; intros; try congruence; try (apply HV; auto).
      exfalso. apply HV in H0. discriminate.
    + intros f'. destruct (fs_virtual f); [|discriminate]. intros Ef. injection Ef as <-. exists v, d. auto.
  - split; [|discriminate]. intros _. split; [congruence|]. intros (d & HI & ES & _). destruct (HF d HI ES).
Qed.
Lemma override_step_vfun s acc x : override_step root bases compare D s acc x = match vfun x s with
  | Some f => match acc with None => Some (x, f) | Some (k, _) => if sub x k then Some (x, f) else acc end | None => acc end.
Proof. unfold override_step, vfun. destruct (D x) as [v|]; auto. destruct (find_fun s v) as [f|]; auto. destruct (fs_virtual f); auto. Qed.
Lemma originating_step_vfun s found fref errs x : originating_step root bases compare D s (found, fref, errs) x = match vfun x s with
  | Some f => match found with None => (Some x, Some f, errs) | Some k => if not_notsame (compare k x) then (found, fref, errs) else if sub k x then (Some x, Some f, errs) else if negb (sub x k) then (found, None, errs + 1) else (found, fref, errs) end
  | None => (found, fref, errs) end.
Proof. unfold originating_step, vfun. destruct (D x) as [v|]; auto. destruct (find_fun s v) as [f|]; auto. destruct (fs_virtual f); auto. Qed.

Lemma anc_list bf x : In x (ancestors_of root bases bf c) <-> ancestor c x.
Proof. apply (C32_ancestors root bases (root_small _ _ _ (h_settled _ _ _ _ H)) bf c). Qed.
Lemma vfun_anc x s : ancestor c x -> (vfun x s <> None <-> virtual x s).
Proof.
  intros HA. destruct (N.eq_dec x 0) as [->|NZ].
  - assert (D 0 = None) as E0. { destruct (D 0) as [v|] eqn:E; auto. apply HD in E. pose proof (b_def _ _ _ E) as HB. rewrite (h_nouti _ _ _ _ H) in HB. congruence. }
    unfold vfun. rewrite E0. split; [congruence|]. intros HV. apply virtual_nz in HV. congruence.
  - apply (proj1 (vfun_spec x s)). apply Hready; auto.
Qed.
Lemma vfun_virtual x s f : vfun x s = Some f -> virtual x s.
Proof. intros E. apply (proj1 (vfun_spec x s)); [|congruence]. unfold vfun in E. destruct (D x); congruence. Qed.

(* findOverride *)
Lemma override_fold s : forall l acc, (match acc with Some (k, f) => vfun k s = Some f | None => True end) ->
  match fold_left (override_step root bases compare D s) l acc with
  | None => acc = None /\ forall x, In x l -> ~ virtual x s \/ D x = None
  | Some (k, f) => vfun k s = Some f /\ (In k l \/ acc = Some (k, f)) /\
      (forall x, In x l -> virtual x s -> D x <> None -> ~ ancestor x k) /\
      (match acc with Some (k0, _) => k = k0 \/ ancestor k k0 | None => True end)
  end.
Proof.
  induction l as [|x l IH]; intros acc HA; cbn [fold_left].
  - destruct acc as [[k f]|]; [|split; auto; intros x []]. split; [auto|]. split; [auto|]. split; [intros x []|auto].
  - assert (match override_step root bases compare D s acc x with Some (k, f) => vfun k s = Some f | None => True end) as HS.
    { rewrite override_step_vfun. destruct (vfun x s) as [f|] eqn:EV; auto. destruct acc as [[k f']|]; auto. destruct (sub x k); auto. }
    specialize (IH _ HS). rewrite override_step_vfun in *. destruct (vfun x s) as [fx|] eqn:EV.
    + destruct acc as [[k0 f0]|].
      * pose proof (sub_anc x k0 (virtual_def _ _ (vfun_virtual _ _ _ EV)) (virtual_def _ _ (vfun_virtual _ _ _ HA))) as HSub. destruct (sub x k0) eqn:ES.
        -- destruct (fold_left _ l (Some (x, fx))) as [[k f]|]; [|destruct IH; discriminate]. destruct IH as (E1 & E2 & E3 & E4). split; auto. split; [destruct E2 as [E2|E2]; [left; right; auto|injection E2 as <- <-; left; left; auto]|].
           assert (ancestor x k0) as HX by (apply HSub; auto). split.
           ++ intros y [<-|HY]; auto. intros _ _ HAn. destruct E4 as [->|E4]; [apply (h_acyclic _ _ _ _ H x); auto|]. apply (h_acyclic _ _ _ _ H x). eapply ancestor_trans; eauto.
           ++ destruct E4 as [->|E4]; right; auto. eapply ancestor_trans; eauto.
        -- destruct (fold_left _ l (Some (k0, f0))) as [[k f]|]; [|destruct IH; discriminate]. destruct IH as (E1 & E2 & E3 & E4). split; auto. split; [destruct E2 as [E2|E2]; [left; right; auto|auto]|].
           split; auto. intros y [<-|HY]; auto. intros _ _ HAn. assert (false = true) as HC; [|discriminate]. apply HSub. destruct E4 as [<-|E4]; auto. eapply ancestor_trans; eauto.
      * destruct (fold_left _ l (Some (x, fx))) as [[k f]|]; [|destruct IH; discriminate]. destruct IH as (E1 & E2 & E3 & E4). split; auto. split; [destruct E2 as [E2|E2]; [left; right; auto|injection E2 as <- <-; left; left; auto]|].
        split; auto. intros y [<-|HY]; auto. intros _ _ HAn. destruct E4 as [->|E4]; [apply (h_acyclic _ _ _ _ H x); auto|]. apply (h_acyclic _ _ _ _ H x). eapply ancestor_trans; eauto.
    + assert (forall y, In y (x :: l) -> virtual y s -> D y <> None -> In y l) as HX.
      { intros y [<-|HY] HV HDx; auto. exfalso. apply (proj1 (vfun_spec x s) HDx) in HV. congruence. }
      destruct (fold_left _ l acc) as [[k f]|].
      * destruct IH as (E1 & E2 & E3 & E4). split; auto. split; [destruct E2; [left; right|right]; auto|]. split; auto.
      * destruct IH as (E1 & E2). split; auto. intros y [<-|HY]; [|auto]. destruct (D x) as [v|] eqn:Ex; auto. left. intros HV. apply (proj1 (vfun_spec x s)) in HV; congruence.
Qed.
Lemma override_spec s : match findOverride root bases compare D c s with
  | None => forall x, ancestor c x -> ~ virtual x s
  | Some (k, f) => ancestor c k /\ vfun k s = Some f /\ virtual k s /\ forall x, ancestor c x -> virtual x s -> ~ ancestor x k
  end.
Proof.
  unfold findOverride. pose proof (override_fold s (ancestors_of root bases true c) None I) as HF. destruct (fold_left _ _ None) as [[k f]|].
  - destruct HF as (E1 & [E2|E2] & E3 & _); [|discriminate]. split; [apply (anc_list true); auto|]. split; auto. split; [eapply vfun_virtual; eauto|]. intros x HA HV. apply E3; auto; [apply anc_list; auto|]. apply Hready; auto. eapply virtual_nz; eauto.
  - destruct HF as [_ HF]. intros x HA HV. destruct (HF x) as [HN|HN]; [apply anc_list; auto|auto|]. apply (Hready x HA); auto. eapply virtual_nz; eauto.
Qed.

(* findOriginating *)
Definition orig_inv (s : N) (seen : list N) (st : option N * option fsym * N) : Prop :=
  let '(found, fref, errs) := st in
  match found with
  | None => fref = None /\ errs = 0 /\ forall x, In x seen -> ancestor c x -> ~ virtual x s
  | Some k => In k seen /\ ancestor c k /\ virtual k s /\ (forall x, In x seen -> virtual x s -> ~ ancestor k x) /\ (match fref with Some f => vfun k s = Some f | None => errs <> 0 end)
  end.
Lemma compare_anc k x s : ancestor c k -> virtual k s -> virtual x s -> (not_notsame (compare k x) = true <-> k = x).
Proof.
  intros HA HK HX. destruct (reach_last _ _ _ _ HA) as (z & _ & bs & b & EB & HB & ER). pose proof (virtual_nz _ _ HK) as NZ. assert (b <> 0) as NB by (intros ->; apply NZ; rewrite <- ER; apply (root_zero _ _ _ (h_settled _ _ _ _ H)); auto).
  pose proof (h_root _ _ _ _ H b (h_bases _ _ _ _ H z bs b EB HB NB)) as Rb. rewrite Rb in ER. subst b. pose proof (compare_ok _ _ _ (h_settled _ _ _ _ H) z bs k x EB HB NB) as HC. rewrite Rb, (h_root _ _ _ _ H x (virtual_def _ _ HX)) in HC. rewrite <- HC.
  destruct (compare k x); cbn; split; congruence.
Qed.
Lemma orig_inv_step s seen st x : ancestor c x -> ~ In x seen -> orig_inv s seen st -> orig_inv s (x :: seen) (originating_step root bases compare D s st x).
Proof.
  destruct st as [[found fref] errs]. intros HA NI HI. rewrite originating_step_vfun. destruct (vfun x s) as [f|] eqn:EV.
  - pose proof (vfun_virtual _ _ _ EV) as HV. destruct found as [k|]; cbn [orig_inv] in HI.
    + destruct HI as (I1 & I2 & I3 & I4 & I5). pose proof (compare_anc k x s I2 I3 HV) as HC. destruct (not_notsame (compare k x)) eqn:EC; [destruct (proj1 HC eq_refl); contradiction|].
      pose proof (sub_anc k x (virtual_def _ _ I3) (virtual_def _ _ HV)) as HS. destruct (sub k x) eqn:ES.
      * cbn [orig_inv]. assert (ancestor k x) as HKX by (apply HS; auto). split; [left; auto|]. split; auto. split; auto. split; auto. intros y [<-|HY] HVy HAy; [apply (h_acyclic _ _ _ _ H x); auto|]. apply (I4 y HY HVy). eapply ancestor_trans; eauto.
      * assert (~ ancestor k x) as NKX by (intros HKX; apply HS in HKX; discriminate).
        assert (forall y, In y (x :: seen) -> virtual y s -> ~ ancestor k y) as I4' by (intros y [<-|HY]; auto).
        destruct (negb (sub x k)); cbn [orig_inv].
        -- split; [right; auto|]. split; auto. split; auto. split; auto. lia.
        -- split; [right; auto|]. split; auto.
    + cbn [orig_inv]. destruct HI as (I1 & I2 & I3). split; [left; auto|]. split; auto. split; auto. split; auto. intros y [<-|HY] HVy HAy; [apply (h_acyclic _ _ _ _ H x); auto|]. apply (I3 y HY); auto. eapply ancestor_trans; eauto.
  - assert (~ virtual x s) as NV by (intros HV; apply (vfun_anc x s HA) in HV; congruence). destruct found as [k|]; cbn [orig_inv] in *.
    + destruct HI as (I1 & I2 & I3 & I4 & I5). split; [right; auto|]. split; auto. split; auto. split; auto. intros y [<-|HY] HVy; [contradiction|auto].
    + destruct HI as (I1 & I2 & I3). split; auto. split; auto. intros y [<-|HY] HAy; auto.
Qed.
Lemma orig_inv_fold s : forall l seen st, NoDup (rev seen ++ l) -> (forall x, In x l -> ancestor c x) -> orig_inv s seen st -> orig_inv s (rev l ++ seen) (fold_left (originating_step root bases compare D s) l st).
Proof.
  induction l as [|x l IH]; intros seen st ND HA HI; cbn [fold_left rev app]; auto. rewrite <- app_assoc. cbn [app]. apply IH.
  - cbn [rev]. rewrite <- app_assoc. auto.
  - intros y HY. apply HA. right. auto.
  - apply orig_inv_step; auto; [apply HA; left; auto|]. apply NoDup_remove_2 in ND. intros HX. apply ND. apply in_or_app. left. apply -> in_rev. auto.
Qed.
Lemma originating_spec s : match findOriginating root bases compare D c s with
  | (Some o, fref, errs) => ancestor c o /\ originates o s /\ (match fref with Some f => vfun o s = Some f | None => errs <> 0 end)
  | (None, fref, errs) => fref = None /\ errs = 0 /\ forall x, ancestor c x -> ~ virtual x s
  end.
Proof.
  unfold findOriginating. destruct (C32_ancestors root bases (root_small _ _ _ (h_settled _ _ _ _ H)) false c) as [ND HL].
  pose proof (orig_inv_fold s (ancestors_of root bases false c) [] (None, None, 0) ND (fun x HX => proj1 (HL x) HX)) as HI. destruct (fold_left _ _ _) as [[[o|] fref] errs]; cbn [orig_inv] in HI.
  - destruct HI as (I1 & I2 & I3 & I4 & I5); [split; auto; split; auto; intros x []|]. split; auto. split; auto. split; auto. intros y HY HV. apply (I4 y); auto. rewrite app_nil_r. apply -> in_rev. apply HL. eapply ancestor_trans; eauto.
  - destruct HI as (I1 & I2 & I3); [split; auto; split; auto; intros x []|]. split; auto. split; auto. intros x HX. apply I3; auto. rewrite app_nil_r. apply -> in_rev. apply HL. auto.
Qed.

(* with one origin, no conflict is reported *)
Lemma path_leaves (seen : list N) x z : reach x z -> In x seen -> ~ In z seen -> exists y w, reach x y /\ In y seen /\ edge y w /\ ~ In w seen.
Proof.
  induction 1 as [x|x y z HE HR IH]; intros HX HZ; [contradiction|]. destruct (in_dec N.eq_dec y seen) as [HY|HY].
  - destruct (IH HY HZ) as (a & w & H1 & H2 & H3 & H4). exists a, w. split; auto. econstructor; eauto.
  - exists x, y. split; [constructor|]. auto.
Qed.
Lemma originating_unique s o : ancestor c o -> virtual o s -> (forall x, ancestor c x -> virtual x s -> x = o \/ ancestor x o) ->
  exists f, findOriginating root bases compare D c s = (Some o, Some f, 0) /\ vfun o s = Some f.
Proof.
  intros HO HV HU. unfold findOriginating. destruct (C32_ancestors root bases (root_small _ _ _ (h_settled _ _ _ _ H)) false c) as [ND HL].
  set (l := ancestors_of root bases false c) in *.
  assert (forall p q, l = p ++ q -> exists found fref, fold_left (originating_step root bases compare D s) p (None, None, 0) = (found, fref, 0) /\
    orig_inv s (rev p) (found, fref, 0) /\ (In o p -> found = Some o)) as HF.
  { intros p. induction p as [|x p IH] using rev_ind; intros q EL.
    - exists None, None. split; auto. split; [|intros []]. cbn. split; auto.
    - rewrite <- app_assoc in EL. cbn [app] in EL. destruct (IH (x :: q) EL) as (found & fref & EF & HI & HFo). rewrite fold_left_app. cbn [fold_left]. rewrite EF.
      assert (ancestor c x) as HAx by (apply HL; rewrite EL; apply in_or_app; right; left; auto).
      assert (~ In x p) as NP. { rewrite EL in ND. apply NoDup_remove_2 in ND. intros HX. apply ND. apply in_or_app. auto. }
      pose proof (orig_inv_step s (rev p) (found, fref, 0) x HAx ltac:(intros HX; apply NP; apply in_rev; auto) HI) as HI'. rewrite rev_app_distr. cbn [rev app]. rewrite originating_step_vfun in *.
      destruct (vfun x s) as [f|] eqn:EV.
      + pose proof (vfun_virtual _ _ _ EV) as HVx. destruct found as [k|].
        * cbn [orig_inv] in HI. destruct HI as (I1 & I2 & I3 & I4 & I5). pose proof (compare_anc k x s I2 I3 HVx) as HC. destruct (not_notsame (compare k x)) eqn:EC; [destruct (proj1 HC eq_refl); apply in_rev in I1; contradiction|].
          pose proof (sub_anc k x (virtual_def _ _ I3) (virtual_def _ _ HVx)) as HS. destruct (sub k x) eqn:ES.
          -- exists (Some x), (Some f). split; auto. split; auto. intros Ho. apply in_app_or in Ho. destruct Ho as [Ho|[->|[]]]; auto. specialize (HFo Ho). injection HFo as ->. exfalso. assert (ancestor o x) as HOx by (apply HS; auto). destruct (HU x HAx HVx) as [->|HXo]; [apply (h_acyclic _ _ _ _ H o); auto|]. apply (h_acyclic _ _ _ _ H x). eapply ancestor_trans; eauto.
          -- assert (sub x k = true) as ESx.
             { apply sub_anc; [eapply virtual_def; eauto|eapply virtual_def; eauto|]. destruct (in_dec N.eq_dec o p) as [Ho|Ho].
               - specialize (HFo Ho). injection HFo as ->. destruct (HU x HAx HVx) as [->|HXo]; [contradiction|auto].
               - exfalso. assert (ancestor k x) as HKx; [|apply HS in HKx; discriminate]. apply in_rev in I1. assert (reach k o) as HKo. { destruct (HU k I2 I3) as [->|HKo]; [constructor|apply ancestor_reach; auto]. }
                 destruct (path_leaves p k o HKo I1 Ho) as (y & w & Hy1 & Hy2 & Hy3 & Hy4). pose proof (depth_ancestors root bases c p x q EL y w Hy2 Hy3 Hy4) as HRx.
                 destruct (reach_ancestor _ _ _ _ (reach_trans _ _ _ _ _ Hy1 HRx)) as [->|]; auto. contradiction. }
             rewrite ESx in *. cbn [negb] in *. exists (Some k), fref. split; auto. split; auto. intros Ho. apply in_app_or in Ho. destruct Ho as [Ho|[->|[]]]; auto. exfalso. destruct (HU k I2 I3) as [->|HKo]; [apply in_rev in I1; contradiction|]. apply HS in HKo. discriminate.
        * exists (Some x), (Some f). split; auto. split; auto. intros Ho. apply in_app_or in Ho. destruct Ho as [Ho|[->|[]]]; auto. specialize (HFo Ho). discriminate.
      + exists found, fref. split; auto. split; auto. intros Ho. apply in_app_or in Ho. destruct Ho as [Ho|[->|[]]]; auto. exfalso. apply (vfun_anc o s HO) in HV. contradiction. }
  destruct (HF l [] ltac:(rewrite app_nil_r; auto)) as (found & fref & EF & HI & HFo). rewrite EF. assert (In o l) as Ho by (apply HL; auto). rewrite (HFo Ho) in *. cbn [orig_inv] in HI. destruct HI as (_ & _ & _ & _ & I5).
  destruct fref as [f|]; [|congruence]. exists f. auto.
Qed.

(* ---- the table as it is set up ---- *)
Definition isdef (x : N) : bool := match D x with Some _ => true | None => false end.
Definition dl : list N := filter isdef (ancestors_of root bases false c).
Definition chunk (x : N) : list vte := map (inherit_entry root bases compare D c x) (owned D x).
Definition size (x : N) : N := N.of_nat (List.length (owned D x)).
Fixpoint offs (off : N) (l : list N) : list (N * N) := match l with [] => [] | x :: r => (x, off) :: offs (off + size x) r end.
Lemma chunk_size x : N.of_nat (List.length (chunk x)) = size x.
Proof. unfold chunk, size. rewrite map_length. auto. Qed.
Lemma isdef_root x : isdef x = true -> root x = x.
Proof. unfold isdef. destruct (D x) as [v|] eqn:E; [|discriminate]. intros _. apply (h_root _ _ _ _ H). apply (b_def _ _ _ (HD x v E)). Qed.
Lemma lookup_app {A} (m1 m2 : list (N * A)) x : lookup (m1 ++ m2) x = match lookup m1 x with Some a => Some a | None => lookup m2 x end.
Proof. induction m1 as [|[y a] m1 IH]; cbn [lookup app]; auto. destruct (x =? y); auto. Qed.
Lemma init_fold : forall l t m, NoDup l -> (forall x, In x l -> lookup m x = None) ->
  fold_left (init_step root bases compare D c) l (t, m) = (t ++ flat_map chunk (filter isdef l), m ++ offs (N.of_nat (List.length t)) (filter isdef l)).
Proof.
  induction l as [|x l IH]; intros t m ND HM; cbn [fold_left filter].
  - cbn. rewrite !app_nil_r. auto.
  - apply NoDup_cons_iff in ND. destruct ND as [NI ND]. unfold init_step at 2. pose proof (isdef_root x) as HR. destruct (D x) as [v|] eqn:Ex.
    + assert (isdef x = true) as EI by (unfold isdef; rewrite Ex; auto). rewrite EI. unfold set_start. rewrite (HR EI), (HM x) by (left; auto). rewrite IH; auto.
      * cbn [flat_map offs]. unfold chunk at 2, size. unfold owned. rewrite Ex. rewrite app_length, map_length, Nat2N.inj_add. rewrite <- !app_assoc. cbn [app]. reflexivity.
      * intros y HY. rewrite lookup_app. rewrite (HM y) by (right; auto). cbn [lookup]. destruct (y =? x) eqn:E; auto. apply N.eqb_eq in E. congruence.
    + assert (isdef x = false) as EI by (unfold isdef; rewrite Ex; auto). rewrite EI. rewrite IH; auto. intros y HY. apply HM. right. auto.
Qed.
Definition inh0 : list vte := flat_map chunk dl.
Definition starts : list (N * N) := offs 0 dl ++ [(c, N.of_nat (List.length inh0))].
Lemma dl_in x : In x dl <-> ancestor c x /\ x <> 0.
Proof.
  unfold dl. rewrite filter_In, anc_list. unfold isdef. split; intros [H1 H2]; split; auto.
  - intros ->. destruct (D 0) as [v|] eqn:E; [|discriminate]. apply HD in E. pose proof (b_def _ _ _ E) as HB. rewrite (h_nouti _ _ _ _ H) in HB. congruence.
  - pose proof (Hready x H1 H2). destruct (D x); congruence.
Qed.
Lemma dl_nodup : NoDup dl.
Proof. unfold dl. apply NoDup_filter. apply (C32_ancestors root bases (root_small _ _ _ (h_settled _ _ _ _ H)) false c). Qed.
Lemma c_notin : ~ In c dl.
Proof. rewrite dl_in. intros [HA _]. apply (h_acyclic _ _ _ _ H c). auto. Qed.
Lemma offs_none x : forall l off, ~ In x l -> lookup (offs off l) x = None.
Proof. induction l as [|y l IH]; intros off HN; cbn [offs lookup]; auto. destruct (x =? y) eqn:E; [apply N.eqb_eq in E; destruct HN; left; auto|]. apply IH. intros HI. apply HN. right. auto. Qed.
Lemma init_eq : initVTable root bases compare D c = (inh0, starts).
Proof.
  unfold initVTable. rewrite init_fold; [|apply (C32_ancestors root bases (root_small _ _ _ (h_settled _ _ _ _ H)) false c)|intros; reflexivity].
  cbn [app List.length N.of_nat]. fold dl. fold inh0. unfold set_start. rewrite (h_root _ _ _ _ H c Hc), offs_none by apply c_notin. auto.
Qed.
Lemma accum_eq : accumMaxes root bases D c = N.of_nat (List.length inh0).
Proof.
  unfold accumMaxes, inh0, dl. generalize (ancestors_of root bases false c). intros l. assert (forall a, fold_left (fun a x => match D x with Some v => a + N.of_nat (List.length (v_owned v)) | None => a end) l a = a + N.of_nat (List.length (flat_map chunk (filter isdef l)))) as HF; [|rewrite HF; lia].
  induction l as [|x l IH]; intros a; cbn [fold_left filter]; [cbn; lia|]. rewrite IH. unfold isdef at 2. destruct (D x) as [v|] eqn:Ex; auto. cbn [flat_map]. rewrite app_length. pose proof (chunk_size x) as HC. unfold size, owned in HC. rewrite Ex in HC. lia.
Qed.
Lemma start_c : lookup starts c = Some (N.of_nat (List.length inh0)).
Proof. unfold starts. rewrite lookup_app, offs_none by apply c_notin. cbn. rewrite N.eqb_refl. auto. Qed.

(* the place of the function i of x *)
Lemma offs_place x i e : nth_error (owned D x) (N.to_nat i) = Some e -> forall l off, NoDup l -> In x l -> exists st, lookup (offs off l) x = Some st /\
  off <= st /\ nth_error (flat_map chunk l) (N.to_nat (st + i - off)) = Some (inherit_entry root bases compare D c x e).
Proof.
  intros HE. induction l as [|y l IH]; intros off ND HI; [contradiction|]. apply NoDup_cons_iff in ND. destruct ND as [NI ND]. cbn [offs lookup flat_map]. destruct (x =? y) eqn:E.
  - apply N.eqb_eq in E. subst y. exists off. split; auto. split; [lia|]. replace (off + i - off) with i by lia. rewrite nth_error_app1.
    + unfold chunk. rewrite nth_error_map, HE. auto.
    + unfold chunk. rewrite map_length. apply nth_error_Some. congruence.
  - apply N.eqb_neq in E. destruct HI as [->|HI]; [congruence|]. destruct (IH (off + size y) ND HI) as (st & E1 & E2 & E3). exists st. split; auto. split; [lia|].
    pose proof (chunk_size y). rewrite nth_error_app2 by lia. replace (N.to_nat (st + i - off) - List.length (chunk y))%nat with (N.to_nat (st + i - (off + size y))) by lia. auto.
Qed.
Lemma place_ok x i e : ancestor c x -> nth_error (owned D x) (N.to_nat i) = Some e -> exists st, lookup starts x = Some st /\
  nth_error inh0 (N.to_nat (st + i)) = Some (inherit_entry root bases compare D c x e) /\ st + i < N.of_nat (List.length inh0).
Proof.
  intros HA HE. assert (x <> 0) as NZ. { intros ->. unfold owned in HE. destruct (D 0) as [v|] eqn:E; [|destruct (N.to_nat i); discriminate]. apply HD in E. pose proof (b_def _ _ _ E) as HB. rewrite (h_nouti _ _ _ _ H) in HB. congruence. }
  destruct (offs_place x i e HE dl 0 dl_nodup) as (st & E1 & _ & E3); [apply dl_in; auto|]. exists st. unfold starts. rewrite lookup_app, E1. rewrite N.sub_0_r in E3. split; auto. split; auto.
  assert (N.to_nat (st + i) < List.length inh0)%nat; [|lia]. apply nth_error_Some. unfold inh0. congruence.
Qed.
Lemma inherit_keeps x e : e_orig (inherit_entry root bases compare D c x e) = e_orig e /\ e_vidx (inherit_entry root bases compare D c x e) = e_vidx e /\ snd (e_func (inherit_entry root bases compare D c x e)) = snd (e_func e).
Proof.
  unfold inherit_entry. pose proof (override_spec (snd (e_func e))) as HO. destruct (findOverride root bases compare D c (snd (e_func e))) as [[k f]|]; auto. destruct HO as (_ & HO & _). destruct (_ && _); auto. cbn. split; auto. split; auto.
  destruct (proj2 (vfun_spec k (snd (e_func e))) f HO) as (v & d & _ & _ & ES & (EF & _)). congruence.
Qed.

(* ---- what becomes of a declaration ---- *)
Definition outcome (d : fdecl) : option (option (N * N)) :=
  match findOverride root bases compare D c (fd_sig d) with
  | Some _ => match findOriginating root bases compare D c (fd_sig d) with
              | (Some o, Some f, _) => match fs_vidx f with Some i => Some (Some (o, i)) | None => Some None end
              | _ => Some None
              end
  | None => if fd_virtual d then Some None else None
  end.
Lemma outcome_over d o i : outcome d = Some (Some (o, i)) -> ancestor c o /\ originates o (fd_sig d) /\ exists e, nth_error (owned D o) (N.to_nat i) = Some e /\ snd (e_func e) = fd_sig d /\ e_orig e = o /\ e_vidx e = i.
Proof.
  unfold outcome. destruct (findOverride _ _ _ _ _ _) as [kf|]; [|destruct (fd_virtual d); discriminate]. pose proof (originating_spec (fd_sig d)) as HO. destruct (findOriginating _ _ _ _ _ _) as [[[o'|] [f|]] errs]; try discriminate.
  destruct HO as (H1 & H2 & H3). destruct (proj2 (vfun_spec o' (fd_sig d)) f H3) as (v & d' & Ev & HI & ES & (_ & _ & _ & HV)). rewrite ES in HV. destruct (HV H2) as (i' & e & E1 & E2 & E3). rewrite E1. intros EQ. injection EQ as -> ->.
  split; auto. split; auto. exists e. unfold owned. rewrite Ev. split; auto. split; auto. destruct (b_owned _ _ _ (HD o v Ev) _ e E2) as (G1 & G2 & _). split; auto. lia.
Qed.
Lemma outcome_virtual d : In d (funs c) -> (outcome d <> None <-> virtual c (fd_sig d)).
Proof.
  intros HI. unfold outcome. pose proof (override_spec (fd_sig d)) as HO. destruct (findOverride _ _ _ _ _ _) as [[k f]|].
  - destruct HO as (H1 & _ & H2 & _). split.
    + intros _. apply virtual_up; eauto.
    + intros _. destruct (findOriginating _ _ _ _ _ _) as [[[o|] [f'|]] e]; try discriminate. destruct (fs_vidx f'); discriminate.
  - split.
    + intros HV. destruct (fd_virtual d) eqn:E; [|congruence]. exists d. split; auto. split; auto. exists c, d. split; [constructor|auto].
    + intros HV. destruct (virtual_cases _ _ HV) as [(d' & HI' & ES & EV)|(y & HA & HVy)]; [|destruct (HO y HA HVy)]. pose proof (sig_unique c d d' HI HI' (eq_sym ES)). subst d'. rewrite EV. discriminate.
Qed.
Lemma outcome_new d : In d (funs c) -> originates c (fd_sig d) -> outcome d = Some None.
Proof.
  intros HI HO. pose proof (proj2 (outcome_virtual d HI) (proj1 HO)) as HN. destruct (outcome d) as [[[o i]|]|] eqn:E; auto; [|congruence]. destruct (outcome_over d o i E) as (HA & [HV _] & _). destruct (proj2 HO o HA HV).
Qed.

(* inherited part: every place keeps its originating class, its index and its signature *)
Definition keeps (inh : list vte) : Prop := List.length inh = List.length inh0 /\
  forall p e0, nth_error inh0 p = Some e0 -> exists e, nth_error inh p = Some e /\ e_orig e = e_orig e0 /\ e_vidx e = e_vidx e0 /\ snd (e_func e) = snd (e_func e0).
Definition entry (d : fdecl) (o i : N) : vte := {| e_func := (c, fd_sig d); e_of := c; e_orig := o; e_vidx := i; e_pure := fd_pure d |}.
Definition errs_of (d : fdecl) : N := match findOverride root bases compare D c (fd_sig d) with Some _ => snd (findOriginating root bases compare D c (fd_sig d)) | None => 0 end.
Lemma step_eq d inh own errs : keeps inh ->
  calcFunction root bases compare D c starts d (inh ++ own, own, N.of_nat (List.length own), errs) =
  match outcome d with
  | None => Some ({| fs_sig := fd_sig d; fs_virtual := false; fs_pure := fd_pure d; fs_vidx := None; fs_orig := 0 |}, (inh ++ own, own, N.of_nat (List.length own), errs))
  | Some None => let i := N.of_nat (List.length own) in
      Some ({| fs_sig := fd_sig d; fs_virtual := true; fs_pure := fd_pure d; fs_vidx := Some i; fs_orig := c |}, (inh ++ (own ++ [entry d c i]), own ++ [entry d c i], N.of_nat (List.length (own ++ [entry d c i])), errs + errs_of d))
  | Some (Some (o, i)) => match lookup starts o with
      | Some st => Some ({| fs_sig := fd_sig d; fs_virtual := true; fs_pure := fd_pure d; fs_vidx := Some i; fs_orig := o |}, (set_nth (N.to_nat (st + i)) (entry d o i) inh ++ own, own, N.of_nat (List.length own), errs + errs_of d))
      | None => None end
  end.
Proof.
  intros [KL KP].
  assert (updateVTable starts (inh ++ own) own (entry d c (N.of_nat (List.length own))) = Some (inh ++ (own ++ [entry d c (N.of_nat (List.length own))]), own ++ [entry d c (N.of_nat (List.length own))])) as HNew.
  { unfold updateVTable. cbn [e_orig e_vidx entry]. rewrite start_c. rewrite app_length, KL.
    destruct (_ <? _) eqn:E; [lia|]. replace (N.of_nat (List.length inh0 + List.length own) =? N.of_nat (List.length inh0) + N.of_nat (List.length own)) with true by (symmetry; apply N.eqb_eq; lia). rewrite N.eqb_refl. cbn [andb]. rewrite app_assoc. auto. }
  assert (N.of_nat (List.length (own ++ [entry d c (N.of_nat (List.length own))])) = N.of_nat (List.length own) + 1) as HL by (rewrite app_length; cbn; lia).
  unfold calcFunction. pose proof (outcome_over d) as HOver. unfold errs_of. cbv zeta. unfold outcome in *. destruct (findOverride root bases compare D c (fd_sig d)) as [kf|].
  - pose proof (originating_spec (fd_sig d)) as HO. destruct (findOriginating root bases compare D c (fd_sig d)) as [[[o|] [f|]] e]; cbn [snd].
    + destruct (fs_vidx f) as [i|] eqn:EI.
      * destruct (HOver o i eq_refl) as (HA & _ & e0 & E1 & E2 & E3 & E4). destruct (place_ok o i e0 HA E1) as (st & S1 & S2 & S3). rewrite S1.
        destruct (KP _ _ S2) as (e1 & K1 & K2 & K3 & _). destruct (inherit_keeps o e0) as (G1 & G2 & _). unfold updateVTable. fold (entry d o i). cbn [e_orig e_vidx entry]. rewrite S1.
        rewrite app_length, KL. destruct (_ <? _) eqn:E; [|lia]. rewrite nth_error_app1 by lia. rewrite K1, K2, K3, G1, G2, E3, E4, !N.eqb_refl. cbn [andb].
        f_equal. f_equal. f_equal. f_equal. f_equal. rewrite set_nth_app. auto. lia.
      * exfalso. destruct HO as (_ & H2 & H3). destruct (proj2 (vfun_spec o (fd_sig d)) f H3) as (v & d' & Ev & HI & ES & (_ & _ & _ & HV)). rewrite ES in HV. destruct (HV H2) as (i' & e' & E1 & _). congruence.
    + fold (entry d c (N.of_nat (List.length own))). rewrite HNew, HL. auto.
    + fold (entry d c (N.of_nat (List.length own))). rewrite HNew, HL. auto.
    + fold (entry d c (N.of_nat (List.length own))). rewrite HNew, HL. auto.
  - destruct (fd_virtual d); auto. fold (entry d c (N.of_nat (List.length own))). rewrite HNew, HL, N.add_0_r. auto.
Qed.

Lemma keeps_over d o i st inh : outcome d = Some (Some (o, i)) -> lookup starts o = Some st -> keeps inh -> keeps (set_nth (N.to_nat (st + i)) (entry d o i) inh).
Proof.
  intros HO HS [KL KP]. destruct (outcome_over d o i HO) as (HA & _ & e0 & E1 & E2 & E3 & E4). destruct (place_ok o i e0 HA E1) as (st' & S1 & S2 & S3). rewrite HS in S1. injection S1 as <-.
  split; [rewrite set_nth_length; auto|]. intros p e He. destruct (Nat.eq_dec (N.to_nat (st + i)) p) as [<-|NE].
  - rewrite nth_set_same by lia. exists (entry d o i). split; auto. rewrite S2 in He. injection He as <-. destruct (inherit_keeps o e0) as (G1 & G2 & G3). rewrite G1, G2, G3, E2, E3, E4. cbn. auto.
  - rewrite nth_set_other by auto. apply KP. auto.
Qed.
Lemma keeps_start : keeps inh0.
Proof. split; auto. intros p e He. exists e. auto. Qed.

Definition is_new (d : fdecl) : bool := match outcome d with Some None => true | _ => false end.
(* the functions of the class after the run *)
Definition fun_done (own : list vte) (d : fdecl) (f : fsym) : Prop :=
  fs_sig f = fd_sig d /\ fs_pure f = fd_pure d /\ (fs_virtual f = true <-> outcome d <> None) /\
  (outcome d = Some None -> exists i e, fs_vidx f = Some i /\ nth_error own (N.to_nat i) = Some e /\ snd (e_func e) = fd_sig d) /\
  (forall o i, outcome d = Some (Some (o, i)) -> fs_orig f = o /\ fs_vidx f = Some i) /\ (outcome d = Some None -> fs_orig f = c).
Definition hit (d : fdecl) (p : nat) (e : vte) : Prop := exists o i st, outcome d = Some (Some (o, i)) /\ lookup starts o = Some st /\ p = N.to_nat (st + i) /\ e = entry d o i.
Lemma fun_done_more own more d f : fun_done own d f -> fun_done (own ++ more) d f.
Proof. intros (H1 & H2 & H3 & H4 & H5). split; auto. split; auto. split; auto. split; auto. intros HO. destruct (H4 HO) as (i & e & E1 & E2 & E3). exists i, e. split; auto. split; auto. rewrite nth_error_app1; auto. apply nth_error_Some. congruence. Qed.
Lemma run_ok : forall ds inh own errs, keeps inh -> exists fs inh' more errs',
  calcFunctions root bases compare D c starts ds (inh ++ own, own, N.of_nat (List.length own), errs) = Some (fs, (inh' ++ (own ++ more), own ++ more, N.of_nat (List.length (own ++ more)), errs')) /\
  keeps inh' /\ Forall2 (fun_done (own ++ more)) ds fs /\
  map (fun e => snd (e_func e)) more = map fd_sig (filter is_new ds) /\
  (forall j e, nth_error more j = Some e -> exists d, In d ds /\ is_new d = true /\ e = entry d c (N.of_nat (List.length own + j))) /\
  (forall p, (nth_error inh' p = nth_error inh p /\ (forall d e, In d ds -> ~ hit d p e)) \/ exists d e, In d ds /\ hit d p e /\ nth_error inh' p = Some e) /\
  errs' = errs + fold_right (fun d t => errs_of d + t) 0 ds.
Proof.
  induction ds as [|d ds IH]; intros inh own errs HK; cbn [calcFunctions].
  - exists [], inh, [], errs. rewrite app_nil_r. split; auto. split; auto. split; [constructor|]. split; auto. split; [intros [|j] e; discriminate|]. split; [intros p; left; split; auto|cbn; lia].
  - rewrite step_eq by auto. destruct (outcome d) as [[[o i]|]|] eqn:EO.
    + destruct (outcome_over d o i EO) as (HA & _ & e0 & E1 & E2 & E3 & E4). destruct (place_ok o i e0 HA E1) as (st & S1 & S2 & S3). rewrite S1. pose proof (keeps_over d o i st inh EO S1 HK) as HK'.
      destruct (IH (set_nth (N.to_nat (st + i)) (entry d o i) inh) own (errs + errs_of d) HK') as (fs & inh' & more & errs' & R & K' & F2 & M & MO & P & ER). rewrite R. eexists _, inh', more, errs'. split; [reflexivity|]. split; auto. split.
      * constructor; auto. split; auto. split; auto. rewrite EO. split; [cbn; split; congruence|]. split; [discriminate|]. split; [|discriminate]. intros o' i' EE. injection EE as <- <-. auto.
      * assert (is_new d = false) as EN by (unfold is_new; rewrite EO; auto). cbn [filter]. rewrite EN. split; auto. split; [intros j e He; destruct (MO j e He) as (d' & HI & HR); exists d'; split; auto; right; auto|].
        assert (hit d (N.to_nat (st + i)) (entry d o i)) as HH by (exists o, i, st; auto). split.
        -- intros p. destruct (P p) as [[Pe Pn]|(d' & e & HI & Hh & He)]; [|right; exists d', e; split; [right; auto|auto]]. destruct (Nat.eq_dec (N.to_nat (st + i)) p) as [<-|NE].
           ++ right. exists d, (entry d o i). split; [left; auto|]. split; auto. rewrite Pe. apply nth_set_same. destruct HK as [HL _]. lia.
           ++ left. rewrite nth_set_other in Pe by auto. split; auto. intros d' e [<-|HI]; auto. intros (o' & i' & st' & X1 & X2 & X3 & X4). rewrite EO in X1. injection X1 as <- <-. congruence.
        -- rewrite ER. cbn [fold_right]. lia.
    + set (e1 := entry d c (N.of_nat (List.length own))). destruct (IH inh (own ++ [e1]) (errs + errs_of d) HK) as (fs & inh' & more & errs' & R & K' & F2 & M & MO & P & ER).
      cbv zeta. fold e1. cbv iota beta. rewrite R. eexists _, inh', (e1 :: more), errs'. rewrite <- app_assoc in *. cbn [app] in *. split; [reflexivity|]. split; auto.
      assert (is_new d = true) as EN by (unfold is_new; rewrite EO; auto). split; [|split; [|split; [|split]]].
      * constructor; auto. split; auto. split; auto. rewrite EO. split; [cbn; split; congruence|]. split; [|split; [discriminate|auto]]. intros _. exists (N.of_nat (List.length own)), e1. split; auto. split; auto. rewrite Nat2N.id, nth_error_app2 by lia. rewrite Nat.sub_diag. auto.
      * cbn [filter map]. rewrite EN. cbn [map]. rewrite M. auto.
      * intros [|j] e He; cbn [nth_error] in He.
        -- injection He as <-. exists d. split; [left; auto|]. split; auto. rewrite Nat.add_0_r. auto.
        -- destruct (MO j e He) as (d' & HI & HN & ->). exists d'. split; [right; auto|]. split; auto. f_equal. rewrite app_length. cbn. lia.
      * intros p. destruct (P p) as [[Pe Pn]|(d' & e & HI & Hh & He)]; [|right; exists d', e; split; [right; auto|auto]]. left. split; auto. intros d' e [<-|HI]; auto. intros (o' & i' & st' & X1 & _). congruence.
      * rewrite ER. cbn [fold_right]. lia.
    + destruct (IH inh own errs HK) as (fs & inh' & more & errs' & R & K' & F2 & M & MO & P & ER). rewrite R. eexists _, inh', more, errs'. split; [reflexivity|]. split; auto.
      assert (is_new d = false) as EN by (unfold is_new; rewrite EO; auto). split; [|split; [|split; [|split]]].
      * constructor; auto. split; auto. split; auto. rewrite EO. split; [cbn; split; congruence|]. split; [discriminate|]. split; discriminate.
      * cbn [filter]. rewrite EN. auto.
      * intros j e He. destruct (MO j e He) as (d' & HI & HN). exists d'. split; auto. right. auto.
      * intros p. destruct (P p) as [[Pe Pn]|(d' & e & HI & Hh & He)]; [|right; exists d', e; split; [right; auto|auto]]. left. split; auto. intros d' e [<-|HI]; auto. intros (o' & i' & st' & X1 & _). congruence.
      * rewrite ER. cbn [fold_right]. assert (errs_of d = 0) as ->; [|lia]. unfold errs_of. unfold outcome in EO. destruct (findOverride _ _ _ _ _ _); auto. destruct (findOriginating _ _ _ _ _ _) as [[[o|] [f|]] e]; try discriminate. destruct (fs_vidx f); discriminate.
Qed.

(* what is known of the class once done *)
Record done (v : vclass) : Prop := {
  d_basic : basic D c v;
  d_start : v_start v = starts;
  d_table : exists inh, v_table v = inh ++ v_owned v /\ keeps inh /\ (forall p, (nth_error inh p = nth_error inh0 p /\ (forall d e, In d (funs c) -> ~ hit d p e)) \/ exists d e, In d (funs c) /\ hit d p e /\ nth_error inh p = Some e);
  d_new : forall d, In d (funs c) -> is_new d = true -> exists i, nth_error (v_owned v) i = Some (entry d c (N.of_nat i));
  d_own : forall i e, nth_error (v_owned v) i = Some e -> exists d, In d (funs c) /\ is_new d = true /\ e = entry d c (N.of_nat i);
  d_errs : v_errs v = fold_right (fun d t => errs_of d + t) 0 (funs c);
  d_funs : Forall2 (fun_done (v_owned v)) (funs c) (v_funs v)
}.
Lemma filter_sigs (P : fdecl -> bool) l : NoDup (map fd_sig l) -> NoDup (map fd_sig (filter P l)).
Proof.
  induction l as [|d l IH]; cbn [map filter]; intros ND; auto. apply NoDup_cons_iff in ND. destruct ND as [NI ND]. destruct (P d); cbn [map]; auto. constructor; auto. intros HI. apply NI. apply in_map_iff in HI. destruct HI as (d' & E & HI). apply filter_In in HI. rewrite <- E. apply in_map. tauto.
Qed.
Lemma class_done : ready bases D c = true -> exists v, calcClass root bases compare funs D c = Some v /\ done v.
Proof.
  intros HR. unfold calcClass. rewrite HR, init_eq, accum_eq, N.eqb_refl. cbn [negb]. destruct (run_ok (funs c) inh0 [] 0 keeps_start) as (fs & inh & own & errs & R & K & F2 & M & MO & P & ER). rewrite app_nil_r in R. cbn [List.length N.of_nat app] in *. rewrite R.
  eexists. split; [reflexivity|]. assert (forall d, In d (funs c) -> is_new d = true -> exists i, nth_error own i = Some (entry d c (N.of_nat i))) as HNew.
  { intros d HI HN. assert (In (fd_sig d) (map (fun e => snd (e_func e)) own)) as HX by (rewrite M; apply in_map; apply filter_In; auto). apply in_map_iff in HX. destruct HX as (e & ES & HE). apply In_nth_error in HE. destruct HE as (i & HE).
    destruct (MO i e HE) as (d' & HI' & HN' & EE). exists i. rewrite HE, EE. cbn [Nat.add]. rewrite EE in ES. cbn in ES. rewrite (sig_unique c d' d HI' HI ES). auto. }
  constructor; cbn [v_start v_table v_owned v_errs v_funs]; auto; [|exists inh; auto].
  constructor; cbn [v_start v_table v_owned v_errs v_funs]; auto.
  - revert F2. apply Forall2_impl_In. intros d f HI _ (H1 & H2 & H3 & H4 & _). split; auto. split; auto. split; [rewrite H3; apply outcome_virtual; auto|]. intros HO. apply H4. apply outcome_new; auto.
  - intros i e HE. destruct (MO i e HE) as (d & HI & HN & ->). cbn. split; auto. split; auto. split; auto. split; auto. split; [|exists d; auto]. apply outcome_virtual; auto. unfold is_new in HN. destruct (outcome d); congruence.
  - rewrite M. apply filter_sigs. apply (h_sigs _ _ _ _ H).
Qed.

(* two origins are noticed *)
Lemma originating_top s : forall l st, (forall x, In x l -> ancestor c x) -> forall o, In o l -> originates o s -> (match fst (fst st) with Some k => ancestor c k /\ virtual k s | None => True end) ->
  let st' := fold_left (originating_step root bases compare D s) l st in fst (fst st') = Some o \/ snd st' <> 0.
Proof.
  assert (forall l st o, (forall x, In x l -> ancestor c x) -> originates o s -> ancestor c o -> fst (fst st) = Some o \/ snd st <> 0 -> let st' := fold_left (originating_step root bases compare D s) l st in fst (fst st') = Some o \/ snd st' <> 0) as HKeep.
  { induction l as [|x l IH]; intros st o HL HO HA HS; cbn [fold_left]; auto. apply IH; auto; [intros y HY; apply HL; right; auto|]. destruct st as [[found fref] errs]. rewrite originating_step_vfun. cbn [fst snd] in HS. destruct (vfun x s) as [f|] eqn:EV; [|auto]. destruct found as [k|].
    - destruct (not_notsame _); [auto|]. destruct (sub k x) eqn:ES.
      + cbn [fst snd]. destruct HS as [HS|HS]; auto. injection HS as ->. exfalso. pose proof (vfun_virtual _ _ _ EV) as HV. apply sub_anc in ES; [|eapply virtual_def; apply HO|eapply virtual_def; eauto]. destruct (proj2 HO x ES HV).
      + destruct (negb _); cbn [fst snd]; [right; lia|auto].
    - cbn [fst snd]. destruct HS as [HS|HS]; [discriminate|auto]. }
  induction l as [|x l IH]; intros st HL o HI HO HS; [contradiction|]. cbn [fold_left]. pose proof (HL x (or_introl eq_refl)) as HAx. destruct (N.eq_dec x o) as [->|NE].
  - apply HKeep; auto; [intros y HY; apply HL; right; auto|]. destruct st as [[found fref] errs]. rewrite originating_step_vfun. cbn [fst] in HS. destruct (vfun o s) as [f|] eqn:EV; [|exfalso; apply (vfun_anc o s HAx) in EV; auto; apply HO].
    destruct found as [k|]; [|cbn; auto]. destruct HS as [HSA HSV]. pose proof (compare_anc k o s HSA HSV (proj1 HO)) as HC. destruct (not_notsame (compare k o)); [left; cbn; f_equal; apply HC; auto|]. destruct (sub k o) eqn:ES; [cbn; auto|].
    destruct (sub o k) eqn:ES2; cbn [negb fst snd]; [|right; lia]. exfalso. apply sub_anc in ES2; [|eapply virtual_def; apply HO|eapply virtual_def; eauto]. destruct (proj2 HO k ES2 HSV).
  - destruct HI as [HI|HI]; [congruence|]. apply IH; auto; [intros y HY; apply HL; right; auto|]. destruct st as [[found fref] errs]. rewrite originating_step_vfun. cbn [fst] in HS. destruct (vfun x s) as [f|] eqn:EV; [|auto]. pose proof (vfun_virtual _ _ _ EV) as HV.
    destruct found as [k|]; [|cbn; auto]. destruct (not_notsame _); [auto|]. destruct (sub k x); [cbn; auto|]. destruct (negb _); auto.
Qed.
Lemma originating_conflict s o1 o2 : ancestor c o1 -> ancestor c o2 -> originates o1 s -> originates o2 s -> o1 <> o2 -> snd (findOriginating root bases compare D c s) <> 0.
Proof.
  intros A1 A2 O1 O2 NE. unfold findOriginating. pose proof (originating_top s (ancestors_of root bases false c) (None, None, 0) (fun x HX => proj1 (anc_list false x) HX)) as HT. cbn zeta in HT.
  destruct (HT o1) as [E1|E1]; auto; [apply anc_list; auto|cbn; auto|]. destruct (HT o2) as [E2|E2]; auto; [apply anc_list; auto|cbn; auto|]. congruence.
Qed.
End Class.
End Proofs.
