(* ScopeTheorems.v: property C71, which declaration a name stands for. *)
From Coq Require Import String List NArith ZArith Lia Bool.
From Coq Require Import ZifyBool ZifyNat ZifyN.
From Verif Require Import Base TypeTableModel FamilyModel FamilyProofs FamilyTheorems ScopeModel ScopeSpec.
Import ListNotations.
Open Scope N_scope.

Lemma innermost_in P id bs s : innermost P id bs s -> P s /\ exists t, In t bs /\ t id = Some s.
Proof. induction 1 as [t r s H1 H2|t r s H1 H2 [IH1 (t' & IH2 & IH3)]]; split; auto; [exists t; cbn; auto|exists t'; cbn; auto]. Qed.
Lemma innermost_fun P id bs s s' : innermost P id bs s -> innermost P id bs s' -> s = s'.
Proof.
  intros H. revert s'. induction H as [t r s H1 H2|t r s H1 H2 IH]; intros s' H'; inversion H' as [t' r' s1 H3 H4|t' r' s1 H3 H4]; subst; auto.
  - congruence. - exfalso. eapply H3; eauto. - exfalso. eapply H1; eauto.
Qed.
Lemma first_innermost ok id : forall bs, match first ok id bs with
  | Some s => innermost (fun s => ok s = true) id bs s
  | None => forall t s, In t bs -> t id = Some s -> ok s = false end.
Proof.
  induction bs as [|t r IH]; cbn [first]; [intros t s []|]. destruct (t id) as [s|] eqn:E.
  - destruct (ok s) eqn:EO; [constructor; auto|]. destruct (first ok id r) as [s'|].
    + apply innermost_out; auto. intros s2 E2. assert (s2 = s) as -> by congruence. congruence.
    + intros t' s' [<-|HI] E'; [congruence|eauto].
  - destruct (first ok id r) as [s'|]; [apply innermost_out; auto; congruence|]. intros t' s' [<-|HI] E'; [congruence|eauto].
Qed.
Lemma first_app ok id bs bs' : first ok id (bs ++ bs') = match first ok id bs with Some s => Some s | None => first ok id bs' end.
Proof. induction bs as [|t r IH]; cbn [first app]; auto. destruct (t id) as [s|]; auto. destruct (ok s); auto. Qed.

Lemma later_precedes use s : later use s = false <-> precedes use s.
Proof. unfold later, precedes. split; [intros H HL; rewrite HL in H; lia|]. intros H. destruct (s_local s); [specialize (H eq_refl); lia|auto]. Qed.

Section Look.
Variable root : N -> N.
Variable bases : N -> option (list N).
Variable classes : N -> option cclass.
Variable files : N -> option table.
Variable is_type : N -> bool.
Hypothesis W : world root bases classes files.
Notation own := (own classes).
Notation finds := (finds root bases classes).
Notation reach := (reach root bases).
Notation ancestor := (ancestor root bases).
Notation edge := (edge root bases).
Notation Here := (alreadyDefinedSymbolHere classes is_type false).
Notation decl := (declares classes is_type false).

Lemma all_wanted id s : wanted is_type false id s = true.
Proof. unfold wanted. destruct (is_type id); reflexivity. Qed.
Lemma first_class id : forall l, first (wanted is_type false id) id (map class_id l) = first (fun _ => true) id (flat_map (fun b => [b_st b; b_fn b]) l).
Proof.
  induction l as [|b l IH]; cbn [map flat_map app first]; auto. unfold class_id at 1. destruct (b_st b id) as [s|]; [rewrite all_wanted; auto|]. destruct (b_fn b id) as [s|]; [rewrite all_wanted; auto|auto].
Qed.
Lemma first_fn_none id : forall l, first (wanted is_type false id) id (map class_id l) = None -> first (fun _ => true) id (map b_fn l) = None.
Proof.
  induction l as [|b l IH]; cbn [map first]; auto. unfold class_id at 1. destruct (b_st b id) as [s|]; [rewrite all_wanted; discriminate|]. destruct (b_fn b id) as [s|]; [rewrite all_wanted; discriminate|auto].
Qed.
(* in a context without blocks of a function *)
Lemma here_class c id : Here (of_class c) id = first (fun _ => true) id (flat_map (fun b => [b_st b; b_fn b]) (class_blocks classes c)).
Proof.
  unfold alreadyDefinedSymbolHere, current_blocks, isDataMemberIdInClassScope, isFuncIdInClassScope, of_class, context_blocks. cbn [x_member x_blocks x_class app].
  destruct (first _ id (map class_id _)) as [s|] eqn:E; rewrite <- first_class; [auto|]. rewrite first_fn_none, E by auto. auto.
Qed.
Lemma own_iff c id s : own c id s <-> Here (of_class c) id = Some s.
Proof.
  rewrite here_class. unfold class_blocks, ScopeSpec.own. destruct (classes c) as [k|].
  - pose proof (first_innermost (fun _ => true) id (flat_map (fun b => [b_st b; b_fn b]) (k_blocks k))) as H. split.
    + intros (k' & E & HI). injection E as <-. destruct (first _ _ _) as [s'|].
      * f_equal. assert (innermost (fun _ => True) id (flat_map (fun b => [b_st b; b_fn b]) (k_blocks k)) s') as H' by (clear -H; induction H; [apply innermost_here; auto|apply innermost_out; auto; intros s'' E' _; eapply H; eauto]).
        eapply innermost_fun; eauto.
      * apply innermost_in in HI. destruct HI as (_ & t & HT & E). specialize (H t s HT E). discriminate.
    + intros E. exists k. split; auto. rewrite E in H. clear -H. induction H; [apply innermost_here; auto|apply innermost_out; auto]. intros s'' E' _. eapply H; eauto.
  - cbn. split; [intros (k & E & _); discriminate|discriminate].
Qed.
Lemma own_fun c id s s' : own c id s -> own c id s' -> s = s'.
Proof. rewrite !own_iff. congruence. Qed.
Lemma decl_iff c id : decl id c = true <-> exists s, own c id s.
Proof. unfold declares. split; [destruct (Here (of_class c) id) as [s|] eqn:E; [|discriminate]; exists s; apply own_iff; auto|]. intros (s & H). apply own_iff in H. rewrite H. auto. Qed.
Lemma decl_false c id s : decl id c = false -> ~ own c id s.
Proof. intros E H. assert (decl id c = true) by (apply decl_iff; eauto). congruence. Qed.
Lemma own_defined c id s : own c id s -> bases c <> None.
Proof. intros (k & E & _) H. apply (w_classes _ _ _ _ W) in H. congruence. Qed.
Lemma own_nonlocal c id s : own c id s -> s_local s = false.
Proof.
  intros (k & E & HI). apply innermost_in in HI. destruct HI as (_ & t & HT & ET). apply in_flat_map in HT. destruct HT as (b & HB & [<-|[<-|[]]]); eapply (w_own _ _ _ _ W); eauto.
Qed.
Lemma finds_fun id c s : finds id c s -> forall s', finds id c s' -> s = s'.
Proof.
  induction 1 as [c s HO|c bs1 b bs2 s HN EB H1 HF IH]; intros s' H'; inversion H' as [c' s'' HO'|c' bs1' b' bs2' s'' HN' EB' H1' HF']; subst.
  - eapply own_fun; eauto. - exfalso. eapply HN'; eauto. - exfalso. eapply HN; eauto.
  - rewrite EB in EB'. injection EB' as EL.
    assert (forall b a, finds id (root b) a -> exists x s', reach (root b) x /\ own x id s') as HS.
    { clear. intros b a H. induction H as [c s HO|c bs1 b' bs2 s HN EB H1 HF (x & s' & HR & HO)]; [exists c, s; split; [constructor|auto]|]. exists x, s'. split; auto. apply reach_step with (root b'); auto. exists (bs1 ++ b' :: bs2), b'. split; auto. split; auto. apply in_or_app. right. left. auto. }
    assert (bs1 = bs1' /\ b = b') as [-> ->]; [|auto].
    clear -EL H1 H1' HF HF' HS. revert bs1' EL H1'. induction bs1 as [|q bs1 IH1]; intros [|q' bs1'] EL H1'; cbn [app] in EL; injection EL as E1 E2; subst.
    + auto.
    + exfalso. destruct (HS _ _ HF) as (x & y & HR & HO). eapply (H1' q' x); eauto. left. auto.
    + exfalso. destruct (HS _ _ HF') as (x & y & HR & HO). eapply (H1 b' x); eauto. left. auto.
    + destruct (IH1 (fun b0 a s1 HI => H1 b0 a s1 (or_intror HI)) bs1' E2 (fun b0 a s1 HI => H1' b0 a s1 (or_intror HI))) as [-> ->]. auto.
Qed.

(* ---- the walk ---- *)
Definition pending2 (d : deque) (seen : list N) : Prop := forall y z, In y seen -> edge y z -> ~ In z seen ->
  exists d1 b h d2, d = d1 ++ (b, h) :: d2 /\ root b = z /\ forall q, In q d1 -> ancestor y (root (fst q)).
Definition silent (id x : N) : Prop := forall a s, reach x a -> ~ own a id s.
Lemma edge_ancestor x y : edge x y -> ancestor x y.
Proof. intros H. exists y. split; auto. constructor. Qed.
Lemma walk_finds id : forall fuel d seen a h, search root bases fuel false nohead (decl id) d seen = Some (a, h) ->
  (forall y s, In y seen -> ~ own y id s) -> pending2 d seen ->
  exists d1 q d2, d = d1 ++ q :: d2 /\ (forall q', In q' d1 -> silent id (root (fst q'))) /\ exists s, own a id s /\ finds id (root (fst q)) s.
Proof.
  induction fuel as [|f IH]; intros d seen a h; cbn [search]; [discriminate|].
  destruct (getNextBasePair root d seen) as [[[[r hr]|] d'] seen'] eqn:E; [|discriminate]. destruct (next_some _ _ _ _ _ _ _ E) as (-> & NI & p0 & b & -> & -> & HP). intros HS HN HPd.
  (* entries before the next one are done with *)
  assert (forall q, In q p0 -> silent id (root (fst q))) as HQ.
  { intros q Hq. assert (forall w, reach (root (fst q)) w -> In w seen) as HA.
    { intros w HR. assert (forall v, reach (root (fst q)) v -> In v seen -> forall u, edge v u -> In u seen) as HStep.
      { intros v Rv Sv u Eu. destruct (in_dec N.eq_dec u seen) as [|NU]; auto. exfalso. destruct (HPd v u Sv Eu NU) as (d1 & b1 & h1 & d2 & ED & ER & HD).
        assert (In q d1) as HI. { rewrite <- ER in NU. destruct (first_unseen root seen _ _ _ _ _ _ _ _ ED HP NU) as [(m & -> & _)|(-> & _ & _)]; [apply in_or_app; auto|auto]. }
        apply (w_acyclic _ _ _ _ W v). specialize (HD q HI). destruct HD as (y & E1 & R1). exists y. split; auto. eapply reach_trans; eauto. }
      assert (In (root (fst q)) seen) as H0 by (apply HP; auto). clear -HR HStep H0.
      assert (forall x w, reach x w -> (forall v, reach x v -> In v seen -> forall u, edge v u -> In u seen) -> In x seen -> In w seen) as G.
      { clear. intros x0 w R0. induction R0 as [x0|x0 y0 z0 E0 R0 IH0]; intros HSt Hin; auto. apply IH0; [|apply (HSt x0); [constructor|auto|auto]]. intros v Rv. apply HSt. econstructor; eauto. }
      eapply G; eauto. }
    intros a' s' HR. apply HN. auto. }
  destruct (bases (root b)) as [bs|] eqn:EB.
  - destruct (decl id (root b)) eqn:ED.
    + injection HS as <- <-. apply decl_iff in ED. destruct ED as (s & HO). exists p0, (b, hr), d'. split; auto. split; auto. exists s. split; auto. constructor. auto.
    + assert (forall s, ~ own (root b) id s) as HNO by (intros s; apply decl_false; auto).
      apply IH in HS.
      * destruct HS as (d1 & q & d2 & EQ & HD1 & s & HO & HF). unfold addAncestorPairsOf in EQ.
        assert ((exists l1 bb l2, bs = l1 ++ bb :: l2 /\ (forall b', In b' l1 -> silent id (root b')) /\ q = (bb, nohead (root b) hr)) \/
                (exists m, d' = m ++ q :: d2 /\ (forall b', In b' bs -> silent id (root b')) /\ forall q', In q' m -> silent id (root (fst q')))) as [(l1 & bb & l2 & -> & HL & ->)|(m & -> & HL & HM)].
        { clear -EQ HD1. revert d1 EQ HD1. induction bs as [|b0 bs IHb]; intros d1 EQ HD1; cbn [map app] in EQ.
          - right. exists d1. split; auto. split; [intros b' []|auto].
          - destruct d1 as [|q1 d1]; cbn [app] in EQ; injection EQ as E1 E2.
            + left. exists [], b0, bs. subst q. split; auto. split; [intros b' []|auto].
            + subst q1. destruct (IHb d1 E2 (fun q' H => HD1 q' (or_intror H))) as [(l1 & bb & l2 & -> & HL & ->)|(m & -> & HL & HM)].
              * left. exists (b0 :: l1), bb, l2. split; auto. split; auto. intros b' [<-|HI]; auto. apply (HD1 (b0, nohead (root b) hr)). left. auto.
              * right. exists m. split; auto. split; auto. intros b' [<-|HI]; auto. apply (HD1 (b0, nohead (root b) hr)). left. auto. }
        -- exists p0, (b, hr), d'. split; auto. split; auto. exists s. split; auto. cbn [fst] in *. apply finds_base with l1 bb l2; auto. intros b' a' s' HI HR. apply HL in HI. apply HI. auto.
        -- exists (p0 ++ (b, hr) :: m), q, d2. split; [rewrite <- app_assoc; auto|]. split; [|eauto]. intros q' HI. apply in_app_or in HI. destruct HI as [HI|[<-|HI]]; auto. cbn [fst].
           intros a' s' HR HO'. inversion HR as [|x y z HE HR']; subst; [eapply HNO; eauto|]. destruct HE as (bs' & b1 & EB' & HB & <-). rewrite EB in EB'. injection EB' as <-. eapply HL; eauto.
      * intros y s [<-|HI]; auto.
      * intros y z [<-|HI] HE NZ.
        -- destruct HE as (bs' & b1 & EB' & HB & <-). rewrite EB in EB'. injection EB' as <-. apply in_split in HB. destruct HB as (l1 & l2 & ->). exists (map (fun b0 => (b0, nohead (root b) hr)) l1), b1, (nohead (root b) hr), (map (fun b0 => (b0, nohead (root b) hr)) l2 ++ d').
           split; [unfold addAncestorPairsOf; rewrite map_app, <- app_assoc; auto|]. split; auto. intros q HI. apply in_map_iff in HI. destruct HI as (b2 & <- & HB). cbn [fst]. apply edge_ancestor. exists (l1 ++ b1 :: l2), b2. split; auto. split; auto. apply in_or_app. auto.
        -- assert (~ In z seen) as NZ' by (intros H; apply NZ; right; auto). destruct (HPd y z HI HE NZ') as (d1 & b1 & h1 & d2 & ED1 & <- & HD). destruct (first_unseen root seen _ _ _ _ _ _ _ _ ED1 HP NZ') as [(m & -> & ->)|(-> & -> & ->)]; [|exfalso; apply NZ; left; auto].
           assert (ancestor y (root b)) as HR by (apply (HD (b, hr)); apply in_or_app; right; left; auto).
           exists (map (fun b0 => (b0, nohead (root b) hr)) bs ++ m), b1, h1, d2. split; [unfold addAncestorPairsOf; rewrite <- app_assoc; auto|]. split; auto. intros q' HQ'. apply in_app_or in HQ'. destruct HQ' as [HQ'|HQ']; [|apply HD; apply in_or_app; right; right; auto].
           apply in_map_iff in HQ'. destruct HQ' as (b0 & <- & HB). cbn [fst]. apply ancestor_trans with (root b); auto. apply edge_ancestor. exists bs, b0. auto.
  - apply IH in HS.
    + destruct HS as (d1 & q & d2 & -> & HD1 & s & HO & HF). exists (p0 ++ (b, hr) :: d1), q, d2. split; [rewrite <- app_assoc; auto|]. split; [|eauto]. intros q' HI. apply in_app_or in HI. destruct HI as [HI|[<-|HI]]; auto. cbn [fst].
      intros a' s' HR HO'. inversion HR as [|x y z HE HR']; subst; [eapply own_defined; eauto|]. destruct HE as (bs' & b1 & EB' & _). congruence.
    + intros y s [<-|HI]; auto. intros HO. eapply own_defined; eauto.
    + intros y z [<-|HI] HE NZ; [destruct HE as (bs' & b1 & EB' & _); congruence|].
      assert (~ In z seen) as NZ' by (intros H; apply NZ; right; auto). destruct (HPd y z HI HE NZ') as (d1 & b1 & h1 & d2 & ED1 & <- & HD). destruct (first_unseen root seen _ _ _ _ _ _ _ _ ED1 HP NZ') as [(m & -> & ->)|(-> & -> & ->)]; [|exfalso; apply NZ; left; auto].
      exists m, b1, h1, d2. split; auto. split; auto. intros q' HQ'. apply HD. apply in_or_app. right. right. auto.
Qed.
Lemma search_none id d : search root bases the_fuel false nohead (decl id) d [] = None -> forall q, In q d -> silent id (root (fst q)).
Proof.
  intros E q HQ a s HR HO. assert (exists q, search root bases the_fuel false nohead (decl id) d [] = Some q) as (q' & E'); [|congruence].
  apply search_some; [apply (w_root _ _ _ _ W)|]. exists a. split; [eauto|]. split; [|apply decl_iff; eauto]. unfold defined. pose proof (own_defined _ _ _ HO). destruct (bases a); [auto|congruence].
Qed.
Lemma by_class c id : match alreadyDefinedSymbolByAClassOrAncestor root bases classes is_type false c id with
  | Some s => finds id (root c) s | None => silent id (root c) end.
Proof.
  unfold alreadyDefinedSymbolByAClassOrAncestor. destruct (search _ _ _ _ _ _ _ _) as [[a h]|] eqn:E.
  - apply walk_finds in E; [|intros y s []|intros y z []]. destruct E as (d1 & q & d2 & EQ & _ & s & HO & HF). destruct d1 as [|q1 [|q2 d1]]; cbn [app] in EQ; injection EQ as E1 E2; subst; try discriminate. apply own_iff in HO. rewrite HO. auto.
  - apply (search_none id [(c, 0)] E (c, 0)). left. auto.
Qed.
Lemma by_ancestor c id : (forall s, ~ own c id s) -> match alreadyDefinedSymbolByAncestorOf root bases classes is_type false c id with
  | Some s => finds id c s | None => silent id c end.
Proof.
  intros HN. unfold alreadyDefinedSymbolByAncestorOf. destruct (bases c) as [bs|] eqn:EB.
  - destruct (search _ _ _ _ _ _ _ _) as [[a h]|] eqn:E.
    + apply walk_finds in E; [|intros y s []|intros y z []]. destruct E as (d1 & q & d2 & EQ & HD & s & HO & HF). unfold addAncestorPairsOf in EQ. rewrite app_nil_r in EQ.
      assert (exists l1 b l2, bs = l1 ++ b :: l2 /\ d1 = map (fun b => (b, 0)) l1 /\ q = (b, 0)) as (l1 & b & l2 & -> & -> & ->).
      { clear -EQ. revert d1 EQ. induction bs as [|b bs IH]; intros [|q1 d1] EQ; cbn [map app] in EQ; try discriminate; injection EQ as E1 E2; subst; [exists [], b, bs; auto|]. destruct (IH d1 E2) as (l1 & b' & l2 & -> & -> & ->). exists (b :: l1), b', l2. auto. }
      pose proof (proj1 (own_iff _ _ _) HO) as EH. rewrite EH. apply finds_base with l1 b l2; auto. intros b' a' s' HI HR. apply (HD (b', 0)); auto. apply in_map_iff. eauto.
    + intros a s HR HO. inversion HR as [|x y z HE HR']; subst; [eapply HN; eauto|]. destruct HE as (bs' & b & EB' & HB & <-). rewrite EB in EB'. injection EB' as <-.
      apply (search_none id _ E (b, 0)) in HO; auto. apply add_in. right. eauto.
  - intros a s HR HO. inversion HR as [|x y z HE HR']; subst; [eapply HN; eauto|]. destruct HE as (bs' & b & EB' & _). congruence.
Qed.
Lemma finds_reach id c s : finds id c s -> exists a, reach c a /\ own a id s.
Proof. induction 1 as [c s HO|c bs1 b bs2 s HN EB H1 HF (a & HR & HO)]; [exists c; split; [constructor|auto]|]. exists a. split; auto. apply reach_step with (root b); auto. exists (bs1 ++ b :: bs2), b. split; auto. split; auto. apply in_or_app. right. left. auto. Qed.

(* ---- a name of a class, from inside or after a dot ---- *)
Notation Defined := (alreadyDefinedSymbol root bases classes files is_type false).
Definition fileof (c id : N) : option symbol := match classes c with Some k => match files (k_file k) with Some t => t id | None => None end | None => None end.
Lemma defined_class x id : x_member x = None ->
  Defined x id = match first (fun _ => true) id (x_blocks x) with Some s => Some s | None => Defined (of_class (x_class x)) id end.
Proof.
  intros EM. unfold alreadyDefinedSymbol at 1. unfold alreadyDefinedSymbolHere, current_blocks, isDataMemberIdInClassScope, isFuncIdInClassScope, context_blocks, isIdInLocalFileScope. rewrite EM. rewrite first_app.
  assert (forall bs, first (wanted is_type false id) id bs = first (fun _ => true) id bs) as EW by (induction bs as [|t r IH]; cbn [first]; auto; destruct (t id); auto; rewrite all_wanted; auto). rewrite (EW (x_blocks x)).
  destruct (first (fun _ => true) id (x_blocks x)) as [s|]; [auto|]. unfold alreadyDefinedSymbol, alreadyDefinedSymbolHere, current_blocks, isDataMemberIdInClassScope, isFuncIdInClassScope, context_blocks, isIdInLocalFileScope, of_class. cbn [x_member x_blocks x_class app]. reflexivity.
Qed.
Lemma class_lookup c id : match Defined (of_class c) id with
  | Some s => (finds id c s \/ in_file root bases classes files c id s)
  | None => silent id c /\ fileof c id = None end.
Proof.
  unfold alreadyDefinedSymbol. cbn [of_class x_member x_class]. fold (of_class c). destruct (Here (of_class c) id) as [s|] eqn:EH; [left; constructor; apply own_iff; auto|].
  assert (forall s, ~ own c id s) as HN by (intros s H; apply own_iff in H; congruence). pose proof (by_ancestor c id HN) as HA.
  destruct (alreadyDefinedSymbolByAncestorOf root bases classes is_type false c id) as [s|]; [auto|]. unfold isIdInLocalFileScope. cbn [of_class x_member x_class]. fold (fileof c id). destruct (fileof c id) as [s|] eqn:EF; [|auto].
  right. split; auto. unfold fileof in EF. destruct (classes c) as [k|] eqn:EK; [|discriminate]. destruct (files (k_file k)) as [t|] eqn:ET; [|discriminate]. eauto.
Qed.
Lemma class_lookup_nonlocal c id s : Defined (of_class c) id = Some s -> s_local s = false.
Proof.
  intros E. pose proof (class_lookup c id) as H. rewrite E in H. destruct H as [H|(_ & k & t & _ & EF & ET)]; [|eapply (w_file _ _ _ _ W); eauto].
  apply finds_reach in H. destruct H as (a & _ & HO). eapply own_nonlocal; eauto.
Qed.

(* ---- identifiers ---- *)
Notation Ident := (ident_pass root bases classes files is_type false).
Notation Const := (constant_pass root bases classes files is_type false).
Variable x : context.
Hypothesis XM : x_member x = None.
Notation c := (x_class x).
Notation hidden bs id use := (forall t s, In t bs -> t id = Some s -> ~ precedes use s).
Lemma here_lookup bs id : Defined (here x bs) id = match first (fun _ => true) id bs with Some s => Some s | None => Defined (of_class c) id end.
Proof. rewrite defined_class; auto. Qed.
Lemma denotes_out t bs id use s : (forall s', t id = Some s' -> ~ precedes use s') -> denotes root bases classes files c id use bs s -> denotes root bases classes files c id use (t :: bs) s.
Proof.
  intros HT [H|H1 H2|H1 H2]; [apply denotes_local, innermost_out; auto|apply denotes_member; auto|apply denotes_file; auto]; intros t' s' [<-|HI] E; eauto.
Qed.
Lemma first_head id bs s : first (fun _ => true) id bs = Some s -> later 0 s = later 0 s -> forall t r, bs = t :: r -> t id = Some s \/ (t id = None /\ first (fun _ => true) id r = Some s).
Proof. intros E _ t r ->. cbn [first] in E. destruct (t id); auto. Qed.
Lemma found_at bs id use s : Defined (here x bs) id = Some s -> later use s = false -> denotes root bases classes files c id use bs s.
Proof.
  rewrite here_lookup. intros E HL. induction bs as [|t bs IH]; cbn [first] in E.
  - pose proof (class_lookup c id) as H. rewrite E in H. destruct H; [apply denotes_member|apply denotes_file]; auto.
  - destruct (t id) as [s'|] eqn:ET; [injection E as ->; apply denotes_local, innermost_here; auto; apply later_precedes; auto|]. apply denotes_out; [congruence|auto].
Qed.
Lemma none_at bs id use : Defined (here x bs) id = None -> forall s, ~ denotes root bases classes files c id use bs s.
Proof.
  rewrite here_lookup. intros E. destruct (first (fun _ => true) id bs) as [s|] eqn:EF; [discriminate|]. pose proof (class_lookup c id) as H. rewrite E in H. destruct H as [HS HF].
  pose proof (first_innermost (fun _ => true) id bs) as HI. rewrite EF in HI. intros s [HD|_ HD|_ HD].
  - apply innermost_in in HD. destruct HD as (_ & t & HT & ET). specialize (HI t s HT ET). discriminate.
  - apply finds_reach in HD. destruct HD as (a & HR & HO). eapply HS; eauto.
  - destruct HD as (_ & k & t & EK & EF' & ET). unfold fileof in HF. rewrite EK, EF', ET in HF. discriminate.
Qed.
Lemma drop_head t bs id use s s' : Defined (here x (t :: bs)) id = Some s -> later use s = true -> t id = Some s' -> ~ precedes use s'.
Proof. rewrite here_lookup. cbn [first]. intros E HL ET. rewrite ET in E. injection E as ->. intros HP. apply later_precedes in HP. congruence. Qed.
Lemma denotes_in t bs id use s : (forall s', t id = Some s' -> ~ precedes use s') -> denotes root bases classes files c id use (t :: bs) s -> denotes root bases classes files c id use bs s.
Proof.
  intros HT [H|H1 H2|H1 H2]; [apply denotes_local|apply denotes_member|apply denotes_file]; auto; try (intros t' s' HI; apply H1; right; auto). inversion H; subst; auto. exfalso. eapply HT; eauto.
Qed.
Lemma class_not_later id use s : Defined (here x []) id = Some s -> later use s = false.
Proof. rewrite here_lookup. cbn [first]. intros E. apply class_lookup_nonlocal in E. unfold later. rewrite E. auto. Qed.

(* the blocks of a function hold variables and constants *)
Definition plain (id : N) (bs : list table) : Prop := forall t s, In t bs -> t id = Some s -> s_kind s = SVariable \/ s_kind s = SConstant.
Lemma found_in bs id s : Defined (here x bs) id = Some s -> (exists t, In t bs /\ t id = Some s) \/ s_local s = false.
Proof.
  rewrite here_lookup. pose proof (first_innermost (fun _ => true) id bs) as H. destruct (first (fun _ => true) id bs) as [s'|].
  - intros E. injection E as <-. left. apply innermost_in in H. tauto.
  - intros E. right. eapply class_lookup_nonlocal; eauto.
Qed.
Lemma constant_sound id use : forall bs, plain id bs -> match Const x id use bs with
  | Means s => denotes root bases classes files c id use bs s /\ (s_kind s = SConstant \/ s_kind s = SModelParameter)
  | Undefined => forall s, ~ denotes root bases classes files c id use bs s | NotConstant => True | NotVariable => False end.
Proof.
  induction bs as [|t bs IH]; intros HP.
  - cbn [constant_pass]. destruct (Defined (here x []) id) as [s|] eqn:E; [|apply none_at; auto]. pose proof (class_not_later id use s E) as HL.
    destruct (s_kind s) eqn:EK; auto; [rewrite HL|]; split; auto; apply found_at; auto.
  - assert (plain id bs) as HP' by (intros t' s' HI; apply HP; right; auto). specialize (IH HP').
    cbn [constant_pass]. destruct (Defined (here x (t :: bs)) id) as [s|] eqn:E; [|apply none_at; auto]. destruct (s_kind s) eqn:EK; auto.
    + destruct (later use s) eqn:HL; [|split; auto; apply found_at; auto]. assert (forall s', t id = Some s' -> ~ precedes use s') as HT by (intros s'; eapply drop_head; eauto).
      destruct (Const x id use bs); auto; [split; [apply denotes_out|]; tauto|]. intros s' HD. eapply IH. eapply denotes_in; eauto.
    + split; auto. apply found_at; auto. destruct (found_in _ _ _ E) as [(t' & HT & ET)|HL]; [destruct (HP t' s HT ET); congruence|]. unfold later. rewrite HL. auto.
Qed.
Lemma block_of_lookup id bs : Defined (here x (block_of is_type false id bs)) id = Defined (here x bs) id.
Proof. rewrite !here_lookup. assert (first (fun _ => true) id (block_of is_type false id bs) = first (fun _ => true) id bs) as ->; auto. induction bs as [|t r IH]; cbn [block_of first]; auto. destruct (t id) as [s|] eqn:E; auto. rewrite all_wanted. cbn [first]. rewrite E. auto. Qed.
Lemma block_of_denotes id use s : forall bs, denotes root bases classes files c id use (block_of is_type false id bs) s <-> denotes root bases classes files c id use bs s.
Proof.
  induction bs as [|t r IH]; cbn [block_of]; [tauto|]. destruct (t id) as [s'|] eqn:E; [rewrite all_wanted; tauto|]. rewrite IH.
  split; [apply denotes_out|apply denotes_in]; congruence.
Qed.
Lemma block_of_in id bs : forall t, In t (block_of is_type false id bs) -> In t bs.
Proof. induction bs as [|t0 r IH]; cbn [block_of]; auto. intros t. destruct (t0 id) as [s|]; [rewrite all_wanted; auto|]. intros H. right. auto. Qed.
Lemma ident_sound id use : forall bs, plain id bs -> match Ident x id use bs with
  | Means s => denotes root bases classes files c id use bs s /\ (s_kind s = SVariable \/ s_kind s = SConstant \/ s_kind s = SModelParameter)
  | Undefined => forall s, ~ denotes root bases classes files c id use bs s | NotConstant => True
  | NotVariable => exists s, denotes root bases classes files c id use bs s /\ (s_kind s = STypedef \/ s_kind s = SFunction) end.
Proof.
  induction bs as [|t bs IH]; intros HP.
  - cbn [ident_pass]. destruct (Defined (here x []) id) as [s|] eqn:E; [|apply none_at; auto]. pose proof (class_not_later id use s E) as HL.
    destruct (s_kind s) eqn:EK; [rewrite HL| | | |]; try (split; auto; apply found_at; auto); try (exists s; split; auto; apply found_at; auto).
    cbn [block_of]. pose proof (constant_sound id use [] HP) as H. destruct (Const x id use []); auto; intuition.
  - assert (plain id bs) as HP' by (intros t' s' HI; apply HP; right; auto). specialize (IH HP').
    cbn [ident_pass]. destruct (Defined (here x (t :: bs)) id) as [s|] eqn:E; [|apply none_at; auto].
    assert (s_kind s <> SVariable -> s_kind s <> SConstant -> denotes root bases classes files c id use (t :: bs) s) as HF.
    { intros N1 N2. apply found_at; auto. destruct (found_in _ _ _ E) as [(t' & HT & ET)|HL]; [destruct (HP t' s HT ET); congruence|]. unfold later. rewrite HL. auto. }
    destruct (s_kind s) eqn:EK.
    + destruct (later use s) eqn:HL; [|split; auto; apply found_at; auto]. assert (forall s', t id = Some s' -> ~ precedes use s') as HT by (intros s'; eapply drop_head; eauto).
      destruct (Ident x id use bs) as [s'| | |]; auto; [split; [apply denotes_out|]; tauto|intros s' HD; eapply IH; eapply denotes_in; eauto|].
      destruct IH as (s' & HD & HK). exists s'. split; auto. apply denotes_out; auto.
    + pose proof (constant_sound id use (block_of is_type false id (t :: bs)) (fun t' s' HI => HP t' s' (block_of_in _ _ _ HI))) as H.
      destruct (Const x id use (block_of is_type false id (t :: bs))) as [s'| | |]; auto; [|intros s' HD; eapply H; apply block_of_denotes; eauto|tauto]. destruct H as [HD HK]. split; [apply block_of_denotes; auto|tauto].
    + exists s. split; auto. apply HF; discriminate.
    + split; auto. apply HF; discriminate.
    + exists s. split; auto. apply HF; discriminate.
Qed.
Lemma ident_complete id use : forall bs : list table, (forall t s, In t bs -> t id = Some s -> s_kind s = SConstant -> precedes use s) -> Ident x id use bs <> NotConstant.
Proof.
  induction bs as [|t bs IH]; intros HP.
  - cbn [ident_pass]. destruct (Defined (here x []) id) as [s|] eqn:E; [|discriminate]. pose proof (class_not_later id use s E) as HL. destruct (s_kind s) eqn:EK; try discriminate; [rewrite HL; discriminate|]. cbn [block_of constant_pass]. rewrite E, EK, HL. discriminate.
  - cbn [ident_pass]. destruct (Defined (here x (t :: bs)) id) as [s|] eqn:E; [|discriminate]. destruct (s_kind s) eqn:EK; try discriminate.
    + destruct (later use s); [|discriminate]. apply IH. intros t' s' HI. apply HP. right. auto.
    + assert (later use s = false) as HL. { destruct (found_in _ _ _ E) as [(t' & HT & ET)|HL]; [apply later_precedes; eapply HP; eauto|]. unfold later. rewrite HL. auto. }
      pose proof (block_of_lookup id (t :: bs)) as EB. rewrite E in EB. destruct (block_of is_type false id (t :: bs)) as [|t' r']; cbn [constant_pass]; rewrite EB, EK, HL; discriminate.
Qed.
Lemma denotes_fun id use bs s s' : denotes root bases classes files c id use bs s -> denotes root bases classes files c id use bs s' -> s = s'.
Proof.
  assert (forall s, innermost (precedes use) id bs s -> (forall t s', In t bs -> t id = Some s' -> ~ precedes use s') -> False) as HX.
  { intros s0 HI HN. apply innermost_in in HI. destruct HI as (HP & t & HT & ET). eapply HN; eauto. }
  assert (forall s s', finds id c s -> in_file root bases classes files c id s' -> False) as HY.
  { intros s0 s1 HF [HN _]. apply finds_reach in HF. destruct HF as (a & HR & HO). eapply HN; eauto. }
  intros [H|H1 H2|H1 H2] [H'|H1' H2'|H1' H2']; try (exfalso; eauto; fail).
  - eapply innermost_fun; eauto. - eapply finds_fun; eauto.
  - destruct H2 as (_ & k & t & E1 & E2 & E3), H2' as (_ & k' & t' & E1' & E2' & E3'). congruence.
Qed.
End Look.

(* ---- the theorems ---- *)
(* C71. An identifier in a function stands for the declaration it denotes: the innermost in the blocks of the function of those made
   before the use, or else the one its class finds, or else the file's *)
Theorem C71_identifier_partial : forall root bases classes files is_type, world root bases classes files ->
  forall x id use, x_member x = None -> plain id (x_blocks x) ->
  match identifier root bases classes files is_type false x id use with
  | Means s => denotes root bases classes files (x_class x) id use (x_blocks x) s /\ (s_kind s = SVariable \/ s_kind s = SConstant \/ s_kind s = SModelParameter)
  | Undefined => forall s, ~ denotes root bases classes files (x_class x) id use (x_blocks x) s
  | NotVariable => exists s, denotes root bases classes files (x_class x) id use (x_blocks x) s /\ (s_kind s = STypedef \/ s_kind s = SFunction)
  | NotConstant => exists t s, In t (x_blocks x) /\ t id = Some s /\ s_kind s = SConstant /\ ~ precedes use s
  end.
Proof.
  intros root bases classes files is_type W x id use XM HP. unfold identifier. pose proof (ident_sound root bases classes files is_type W x XM id use (x_blocks x) HP) as HS.
  destruct (ident_pass _ _ _ _ _ _ _ _ _ _) eqn:E; auto.
  assert (forall bs : list table, (exists t s, In t bs /\ t id = Some s /\ s_kind s = SConstant /\ ~ precedes use s) \/ (forall t s, In t bs -> t id = Some s -> s_kind s = SConstant -> precedes use s)) as HD.
  { clear. induction bs as [|t bs [(t' & s & H1 & H2)|IH]]; [right; intros t s []|left; exists t', s; split; [right|]; auto|].
    destruct (t id) as [s|] eqn:E.
    - destruct (isConstant s && later use s) eqn:EC.
      + left. exists t, s. split; [left; auto|]. split; auto. unfold isConstant in EC. destruct (s_kind s); try discriminate. split; auto. intros HP. apply later_precedes in HP. rewrite HP in EC. discriminate.
      + right. intros t' s' [<-|HI]; [|eapply IH; eauto]. intros E' EK. assert (s' = s) as -> by congruence. unfold isConstant in EC. rewrite EK in EC. cbn in EC. apply later_precedes; auto.
    - right. intros t' s' [<-|HI]; [congruence|eapply IH; eauto]. }
  destruct (HD (x_blocks x)) as [H|H]; auto. exfalso. eapply (ident_complete root bases classes files is_type W x XM id use (x_blocks x)); eauto.
Qed.
Print Assumptions C71_identifier_partial.
(* so if no constant of that name comes later in the blocks around, it means exactly what it denotes *)
Theorem C71_identifier : forall root bases classes files is_type, world root bases classes files ->
  forall x id use, x_member x = None -> plain id (x_blocks x) ->
  (forall t s, In t (x_blocks x) -> t id = Some s -> s_kind s = SConstant -> precedes use s) ->
  forall s, identifier root bases classes files is_type false x id use = Means s <->
    denotes root bases classes files (x_class x) id use (x_blocks x) s /\ (s_kind s = SVariable \/ s_kind s = SConstant \/ s_kind s = SModelParameter).
Proof.
  intros root bases classes files is_type W x id use XM HP HC s. pose proof (C71_identifier_partial root bases classes files is_type W x id use XM HP) as H.
  destruct (identifier _ _ _ _ _ _ _ _ _) as [s'| | |].
  - split; [intros E; injection E as ->; auto|]. intros [HD _]. f_equal. eapply denotes_fun; eauto. tauto.
  - split; [discriminate|]. intros [HD _]. exfalso. eapply H; eauto.
  - exfalso. destruct H as (t & s' & H1 & H2 & H3 & H4). apply H4. eauto.
  - split; [discriminate|]. intros [HD HK]. destruct H as (s' & HD' & HK'). assert (s' = s) as -> by (eapply denotes_fun; eauto). destruct HK as [HK|[HK|HK]], HK' as [HK'|HK']; congruence.
Qed.
Print Assumptions C71_identifier.
(* one declaration at most *)
Theorem C71_one_declaration : forall root bases classes files, world root bases classes files ->
  forall c id use bs s s', denotes root bases classes files c id use bs s -> denotes root bases classes files c id use bs s' -> s = s'.
Proof.
  intros root bases classes files W c id use bs s s'. apply (denotes_fun root bases classes files (fun _ => false) {| x_blocks := []; x_class := c; x_member := None |}).
Qed.
Print Assumptions C71_one_declaration.

(* the name after a dot: what the class of the object finds; from inside that class also the file's. No blocks of the function. *)
Theorem C71_member : forall root bases classes files is_type, world root bases classes files ->
  forall bs c m id, match alreadyDefinedSymbol root bases classes files is_type false {| x_blocks := bs; x_class := c; x_member := Some (Some m) |} id with
  | Some s => finds root bases classes id m s \/ (m = c /\ in_file root bases classes files c id s)
  | None => forall s, ~ finds root bases classes id m s /\ ~ (m = c /\ in_file root bases classes files c id s)
  end.
Proof.
  intros root bases classes files is_type W bs c m id. pose proof (class_lookup root bases classes files is_type W m id) as H. unfold alreadyDefinedSymbol in *. cbn [x_member x_class of_class] in *.
  change (alreadyDefinedSymbolHere classes is_type false {| x_blocks := bs; x_class := c; x_member := Some (Some m) |} id) with (alreadyDefinedSymbolHere classes is_type false (of_class m) id).
  change (isIdInLocalFileScope classes files {| x_blocks := bs; x_class := c; x_member := Some (Some m) |} id) with (isIdInLocalFileScope classes files (of_class m) id).
  assert (forall s, finds root bases classes id m s -> ~ silent root bases classes id m) as HF. { intros s HF HS. apply finds_reach in HF. destruct HF as (a & HR & HO). eapply HS; eauto. }
  destruct (alreadyDefinedSymbolHere classes is_type false (of_class m) id) as [s|] eqn:EH.
  { left. apply finds_own. apply (own_iff classes is_type). auto. }
  pose proof (by_ancestor root bases classes files is_type W m id) as HA. assert (forall s, ~ own classes m id s) as HN by (intros s HO; apply (own_iff classes is_type) in HO; congruence). specialize (HA HN).
  destruct (alreadyDefinedSymbolByAncestorOf root bases classes is_type false m id) as [s|]; [auto|]. destruct (N.eqb_spec m c) as [->|NE].
  - destruct (isIdInLocalFileScope classes files (of_class c) id) as [s|].
    + destruct H as [H|H]; [exfalso; eapply HF; eauto|auto].
    + intros s. split; [intros HX; eapply HF; eauto|]. intros (_ & _ & k & t & E1 & E2 & E3). destruct H as [_ H]. unfold fileof in H. rewrite E1, E2, E3 in H. discriminate.
  - intros s. split; [intros HX; eapply HF; eauto|]. intros [E _]. auto.
Qed.
Print Assumptions C71_member.
(* the search with the class itself first *)
Theorem C71_class_or_ancestor : forall root bases classes files is_type, world root bases classes files ->
  forall c id s, alreadyDefinedSymbolByAClassOrAncestor root bases classes is_type false c id = Some s <-> finds root bases classes id (root c) s.
Proof.
  intros root bases classes files is_type W c id s. pose proof (by_class root bases classes files is_type W c id) as H. split; [intros E; rewrite E in H; auto|]. intros HF.
  destruct (alreadyDefinedSymbolByAClassOrAncestor _ _ _ _ _ _ _) as [s'|]; [f_equal; eapply finds_fun; eauto|]. exfalso. apply finds_reach in HF. destruct HF as (a & HR & HO). eapply H; eauto.
Qed.
Print Assumptions C71_class_or_ancestor.

(* it is not hidden along the way: links lead to its class through classes without one of that name *)
Inductive unhidden root bases classes (id : N) : N -> N -> Prop :=
| unhidden_here c : unhidden root bases classes id c c
| unhidden_up c b a : (forall s, ~ own classes c id s) -> edge root bases c b -> unhidden root bases classes id b a -> unhidden root bases classes id c a.
Theorem C71_unhidden : forall root bases classes id c s, finds root bases classes id c s -> exists a, unhidden root bases classes id c a /\ own classes a id s.
Proof.
  induction 1 as [c s HO|c bs1 b bs2 s HN EB H1 HF (a & HU & HO)]; [exists c; split; [constructor|auto]|]. exists a. split; auto. apply unhidden_up with (root b); auto. exists (bs1 ++ b :: bs2), b. split; auto. split; auto. apply in_or_app. right. left. auto.
Qed.
Print Assumptions C71_unhidden.
(* with one base each, every other declaration is in a class above *)
Theorem C71_most_specific_single : forall root bases classes id, (forall c bs, bases c = Some bs -> (List.length bs <= 1)%nat) ->
  forall c s, finds root bases classes id c s -> exists a, reach root bases c a /\ own classes a id s /\ forall a' s', reach root bases c a' -> own classes a' id s' -> reach root bases a a'.
Proof.
  intros root bases classes id H1 c s HF. induction HF as [c s HO|c bs1 b bs2 s HN EB HB HF (a & HR & HO & HA)].
  - exists c. split; [constructor|]. split; auto.
  - pose proof (H1 _ _ EB) as HL. rewrite app_length in HL. cbn [List.length] in HL. assert (bs1 = [] /\ bs2 = []) as [-> ->] by (split; destruct bs1, bs2; cbn [List.length] in HL; auto; lia). cbn [app] in EB.
    exists a. split; [econstructor; eauto; exists [b], b; cbn; auto|]. split; auto. intros a' s' HR' HO'. inversion HR' as [|x y z HE HR'']; subst; [exfalso; eapply HN; eauto|]. destruct HE as (bs' & b' & EB' & HI & <-). rewrite EB in EB'. injection EB' as <-. destruct HI as [<-|[]]. eauto.
Qed.
Print Assumptions C71_most_specific_single.

(* ---- data members that shadow; type names of ancestors ---- *)
Theorem C71_shadow : forall root bases classes files is_type, world root bases classes files ->
  forall c id, NoDup (checkForNoShadowingSubclass root bases classes is_type false c id) /\
  forall a, In a (checkForNoShadowingSubclass root bases classes is_type false c id) <-> ancestor root bases c a /\ exists s, own classes a id s.
Proof.
  intros root bases classes files is_type W c id. destruct (C32_ancestors root bases (w_root _ _ _ _ W) false c) as [ND HA]. unfold checkForNoShadowingSubclass, alreadyDefinedSymbolByAncestorsOf.
  assert (forall l, map fst (flat_map (fun b => match bases b with Some _ => match alreadyDefinedSymbolHere classes is_type false (of_class b) id with Some s => [(b, s)] | None => [] end | None => [] end) l) = filter (declares classes is_type false id) l) as EF.
  { induction l as [|b l IH]; cbn [flat_map filter]; auto. rewrite map_app, IH. unfold declares at 2. destruct (bases b) eqn:EB.
    - destruct (alreadyDefinedSymbolHere classes is_type false (of_class b) id) as [s|]; auto.
    - destruct (alreadyDefinedSymbolHere classes is_type false (of_class b) id) as [s|] eqn:E; auto. apply (own_iff classes is_type) in E. exfalso. eapply (own_defined root bases classes files W); eauto. }
  rewrite EF. split; [apply NoDup_filter; auto|]. intros a. rewrite filter_In, HA, (decl_iff classes is_type). tauto.
Qed.
Print Assumptions C71_shadow.

Lemma ancestors_first root bases classes files is_type : world root bases classes files -> forall c id,
  alreadyDefinedSymbolByAncestorOf root bases classes is_type false c id = match alreadyDefinedSymbolByAncestorsOf root bases classes is_type false c id with (_, s) :: _ => Some s | [] => None end.
Proof.
  intros W c id. unfold alreadyDefinedSymbolByAncestorOf, alreadyDefinedSymbolByAncestorsOf, ancestors_of. destruct (bases c) as [bs|]; [|reflexivity]. rewrite search_find.
  generalize (visits root bases the_fuel false nohead (addAncestorPairsOf false bs 0 []) []). induction l as [|[b h] l IH]; cbn [find map flat_map fst app]; auto. unfold defined at 1. destruct (bases b) as [bb|]; cbn [andb]; [|apply IH].
  unfold declares at 1. destruct (alreadyDefinedSymbolHere classes is_type false (of_class b) id) as [s|] eqn:E; cbn [app]; [auto|]. apply IH.
Qed.
(* a type name unknown in the class: its place holder becomes the type of the one its class finds, and nothing is ever reported ambiguous *)
Theorem C71_typedef : forall root bases classes files is_type, world root bases classes files -> (forall t, root (root t) = root t) ->
  forall okType compare c id, (forall s, ~ own classes c id s) ->
  match typedef_of_ancestors root bases classes is_type false okType compare c id with
  | AliasOf t => exists s, finds root bases classes id c s /\ okType (s_type s) = true /\ t = root (s_type s)
  | Waits => exists s, finds root bases classes id c s /\ (okType (s_type s) = false \/ okType (root (s_type s)) = false)
  | Elsewhere => forall s, ~ finds root bases classes id c s
  | Ambiguous => False
  end.
Proof.
  intros root bases classes files is_type W RR okType compare c id HN. pose proof (by_ancestor root bases classes files is_type W c id HN) as HA. rewrite (ancestors_first root bases classes files is_type W) in HA. unfold typedef_of_ancestors.
  destruct (alreadyDefinedSymbolByAncestorsOf root bases classes is_type false c id) as [|[b0 s0] r].
  - intros s HF. apply finds_reach in HF. destruct HF as (a & HR & HO). eapply HA; eauto.
  - destruct r as [|q r]; [destruct (okType (s_type s0)) eqn:EO; eauto|]. remember (q :: r) as r' eqn:Er. clear Er.
    assert (forall (l : list (N * symbol)), fold_left (fun set (_ : N * symbol) => if okType (s_type s0) then insert (root (s_type s0)) set else set) l [root (s_type s0)] = [root (s_type s0)]) as HL.
    { clear. induction l as [|q l IH]; cbn [fold_left]; auto. replace (if okType (s_type s0) then _ else _) with [root (s_type s0)]; auto. destruct (okType (s_type s0)); auto. unfold insert, mem. cbn [existsb]. rewrite N.eqb_refl. auto. }
    assert (forall (l : list (N * symbol)), okType (s_type s0) = false -> fold_left (fun set (_ : N * symbol) => if okType (s_type s0) then insert (root (s_type s0)) set else set) l [] = []) as HL'.
    { clear. induction l as [|q l IH]; intros EO; cbn [fold_left]; auto. rewrite EO in *. auto. }
    cbn [fold_left]. destruct (okType (s_type s0)) eqn:EO.
    + replace (insert (root (s_type s0)) []) with [root (s_type s0)] by reflexivity. rewrite HL. cbn [kin_type]. destruct (okType (root (s_type s0))) eqn:ER; [exists s0; rewrite RR; auto|exists s0; auto].
    + rewrite HL' by auto. cbn [kin_type]. eauto.
Qed.
Print Assumptions C71_typedef.

(* when only constants are wanted, a name that is not a type's: a constant, or a function of the class *)
Theorem C71_constants_only : forall classes is_type x id s, is_type id = false -> alreadyDefinedSymbolHere classes is_type true x id = Some s ->
  s_kind s = SConstant \/ exists b, In b (context_blocks classes x) /\ b_fn b id = Some s.
Proof.
  intros classes is_type x id s EI. unfold alreadyDefinedSymbolHere, isDataMemberIdInClassScope, isFuncIdInClassScope.
  assert (forall bs s, first (wanted is_type true id) id bs = Some s -> s_kind s = SConstant) as HC.
  { intros bs s' E. pose proof (first_innermost (wanted is_type true id) id bs) as H. rewrite E in H. apply innermost_in in H. destruct H as [H _]. unfold wanted, isConstant in H. rewrite EI in H. cbn in H. destruct (s_kind s'); auto; discriminate. }
  destruct (first _ id (current_blocks classes x)) as [s'|] eqn:E1; [intros E; injection E as ->; left; eauto|]. destruct (first _ id (map class_id _)) as [s'|] eqn:E2; [intros E; injection E as ->; left; eauto|].
  intros E. right. pose proof (first_innermost (fun _ => true) id (map b_fn (context_blocks classes x))) as H. rewrite E in H. apply innermost_in in H. destruct H as (_ & t & HT & ET). apply in_map_iff in HT. destruct HT as (b & <- & HB). eauto.
Qed.
Print Assumptions C71_constants_only.

(* ---- a small world: 1 and 5 have no bases, 2 : 1, 3 : 1, 4 : 2, 3; 6 : 1, 5; name 7 is a constant in 1 and in 3, name 8 a typedef of 1 and 5 *)
Definition ex_root (x : N) : N := if x <? 65536 then x else 0.
Definition ex_bases (c : N) : option (list N) := match c with 1 => Some [] | 2 => Some [1] | 3 => Some [1] | 4 => Some [2; 3] | 5 => Some [] | 6 => Some [1; 5] | _ => None end.
Definition sym (no : N) (k : skind) (l : bool) (d t : N) : symbol := {| s_no := no; s_kind := k; s_local := l; s_decl := d; s_type := t |}.
Definition none : table := fun _ => None.
Definition has (id : N) (s : symbol) : table := fun i => if i =? id then Some s else None.
Definition two (a b : table) : table := fun i => match a i with Some s => Some s | None => b i end.
Definition ex_class (t : table) : option cclass := Some {| k_blocks := [{| b_st := t; b_fn := none |}]; k_file := 0 |}.
Definition A7 := sym 1 SConstant false 0 100. Definition C7 := sym 3 SConstant false 0 100.
Definition A8 := sym 11 STypedef false 0 101. Definition E8 := sym 15 STypedef false 0 102.
Definition ex_classes (c : N) : option cclass :=
  match c with 1 => ex_class (two (has 7 A7) (has 8 A8)) | 2 => ex_class none | 3 => ex_class (has 7 C7) | 4 => ex_class none | 5 => ex_class (has 8 E8) | 6 => ex_class none | _ => None end.
Definition ex_files (f : N) : option table := if f =? 0 then Some (has 9 (sym 90 SConstant false 0 100)) else None.
Lemma edge_less x y : edge ex_root ex_bases x y -> y < x.
Proof.
  intros (bs & b & E & HI & <-). unfold ex_bases in E. destruct x as [|x]; [discriminate|]. do 3 (try (destruct x as [x|x|]; try discriminate)); injection E as <-; cbn in HI; intuition subst; unfold ex_root; cbn; lia.
Qed.
Lemma ex_world : world ex_root ex_bases ex_classes ex_files.
Proof.
  constructor.
  - intros x. unfold ex_root. destruct (x <? 65536) eqn:E; lia.
  - intros x (y & HE & HR). apply edge_less in HE. assert (x <= y) as HL; [|lia]. clear HE. induction HR as [|a b d HE HR IH]; [lia|]. apply edge_less in HE. lia.
  - intros c. destruct c as [|c]; [cbn; tauto|]. do 3 (try (destruct c as [c|c|]; cbn; try tauto)); split; discriminate.
  - intros c k b id s E HB HS. assert (forall t, ex_class t = Some k -> (forall i s, t i = Some s -> s_local s = false) -> s_local s = false) as HX.
    { intros t Et Ht. injection Et as <-. destruct HB as [<-|[]]. cbn in HS. destruct HS as [HS|HS]; [eauto|discriminate]. }
    unfold ex_classes in E. destruct c as [|c]; [discriminate|]. do 3 (try (destruct c as [c|c|]; try discriminate)); eapply HX; eauto; unfold none, two, has; intros i s'; repeat (destruct (_ =? _)); intros H; try discriminate; injection H as <-; reflexivity.
  - intros f t id s. unfold ex_files. destruct (f =? 0); [|discriminate]. intros E. injection E as <-. unfold has. destruct (id =? 9); [|discriminate]. intros E. injection E as <-. reflexivity.
Qed.
Lemma edge_in bs x y : ex_bases x = Some bs -> In y bs -> y < 65536 -> edge ex_root ex_bases x y.
Proof. intros E HI HL. exists bs, y. split; auto. split; auto. unfold ex_root. destruct (y <? 65536) eqn:EL; auto; lia. Qed.

(* the walk is depth first, so 4 finds the constant of 1 through 2, although 3, also above 4 and below 1, has its own *)
Theorem C71_most_specific_refuted : exists root bases classes files is_type c id s, world root bases classes files /\
  alreadyDefinedSymbolByAClassOrAncestor root bases classes is_type false c id = Some s /\
  exists a a' s', own classes a id s /\ own classes a' id s' /\ ancestor root bases c a' /\ ancestor root bases a' a /\ s <> s'.
Proof.
  exists ex_root, ex_bases, ex_classes, ex_files, (fun _ => false), 4, 7, A7. split; [apply ex_world|]. split; [vm_compute; reflexivity|]. exists 1, 3, C7.
  split; [apply (own_iff ex_classes (fun _ => false)); vm_compute; reflexivity|]. split; [apply (own_iff ex_classes (fun _ => false)); vm_compute; reflexivity|].
  split; [apply edge_ancestor; apply edge_in with [2; 3]; [reflexivity|cbn; auto|lia]|]. split; [apply edge_ancestor; apply edge_in with [1]; [reflexivity|cbn; auto|lia]|]. discriminate.
Qed.
Print Assumptions C71_most_specific_refuted.
(* a typedef that two bases have with different types is taken from the first without a message *)
Theorem C71_typedef_ambiguity_refuted : exists root bases classes files is_type okType compare c id t, world root bases classes files /\
  typedef_of_ancestors root bases classes is_type false okType compare c id = AliasOf t /\
  exists a a' s s', a <> a' /\ edge root bases c a /\ edge root bases c a' /\ own classes a id s /\ own classes a' id s' /\ okType (s_type s) = true /\ okType (s_type s') = true /\
    compare (root (s_type s)) (root (s_type s')) = NotSame.
Proof.
  exists ex_root, ex_bases, ex_classes, ex_files, (fun _ => true), (fun _ => true), (fun a b => if a =? b then Same else NotSame), 6, 8, 101. split; [apply ex_world|]. split; [vm_compute; reflexivity|]. exists 1, 5, A8, E8.
  split; [discriminate|]. split; [apply edge_in with [1; 5]; [reflexivity|cbn; auto|lia]|]. split; [apply edge_in with [1; 5]; [reflexivity|cbn; auto|lia]|].
  split; [apply (own_iff ex_classes (fun _ => false)); vm_compute; reflexivity|]. split; [apply (own_iff ex_classes (fun _ => false)); vm_compute; reflexivity|]. split; auto.
Qed.
Print Assumptions C71_typedef_ambiguity_refuted.
(* { Int v; { v; constant Int v = 1; } }: the use of v is an error though the variable is declared before it *)
Definition ex_out := sym 20 SVariable true 10 100. Definition ex_in := sym 21 SConstant true 30 100.
Definition ex_fun : context := {| x_blocks := [has 12 ex_in; has 12 ex_out]; x_class := 4; x_member := None |}.
Theorem C71_later_constant_refuted : exists root bases classes files is_type x id use s, world root bases classes files /\ x_member x = None /\ plain id (x_blocks x) /\
  denotes root bases classes files (x_class x) id use (x_blocks x) s /\ s_kind s = SVariable /\ identifier root bases classes files is_type false x id use = NotConstant.
Proof.
  exists ex_root, ex_bases, ex_classes, ex_files, (fun _ => false), ex_fun, 12, 20, ex_out. split; [apply ex_world|]. split; auto. split.
  { intros t s [<-|[<-|[]]] E; cbn in E; injection E as <-; cbn; auto. }
  split; [|split; [auto|vm_compute; reflexivity]]. apply denotes_local. apply innermost_out; [intros s' E; cbn in E; injection E as <-; unfold precedes; cbn; lia|]. apply innermost_here; [reflexivity|]. unfold precedes. cbn. lia.
Qed.
Print Assumptions C71_later_constant_refuted.
(* the same with the inner one a variable; names of the class and of the file; one not declared; after a dot *)
Definition ex_in2 := sym 21 SVariable true 30 100.
Definition ex_fun2 : context := {| x_blocks := [has 12 ex_in2; has 12 ex_out]; x_class := 4; x_member := None |}.
Notation ex_id x id use := (identifier ex_root ex_bases ex_classes ex_files (fun _ => false) false x id use).
Example C71_ex : (ex_id ex_fun2 12 20 = Means ex_out /\ ex_id ex_fun2 12 31 = Means ex_in2 /\ ex_id ex_fun2 7 20 = Means A7 /\ ex_id ex_fun2 12 5 = Undefined /\ ex_id ex_fun2 13 50 = Undefined) /\
  plain 12 (x_blocks ex_fun2) /\ (forall t s, In t (x_blocks ex_fun2) -> t 12 = Some s -> s_kind s = SConstant -> precedes 20 s) /\
  alreadyDefinedSymbol ex_root ex_bases ex_classes ex_files (fun _ => false) false {| x_blocks := []; x_class := 4; x_member := Some (Some 3) |} 7 = Some C7 /\
  checkForNoShadowingSubclass ex_root ex_bases ex_classes (fun _ => false) false 4 7 = [1; 3].
Proof.
  split; [vm_compute; auto 10|]. split; [|split; [|split; vm_compute; reflexivity]].
  - intros t s [<-|[<-|[]]] E; cbn in E; injection E as <-; cbn; auto.
  - intros t s [<-|[<-|[]]] E; cbn in E; injection E as <-; discriminate.
Qed.
