(* DefaultTheorems.v: default values of classes (C67), array initialisers (C69), class initialisers (C70). *)
From Coq Require Import String List NArith ZArith Lia Bool Permutation.
From Coq Require Import ZifyBool ZifyNat ZifyN.
From Verif Require Import Base TypeTableModel FamilyModel FamilyProofs BitVec UTypeModel AtomModel AtomSpec AtomProofs AtomTheorems LayoutModel LayoutSpec LayoutTheorems DefaultModel DefaultSpec DefaultProofs DefaultPlaces DefaultInit DefaultClass.
Import ListNotations.
Open Scope N_scope.
Local Opaque the_fuel.

(* ---- C67 ---- *)

(* C67: every class has a default value, the same however deep the compiler is in building others. Its header, the members it
   declares, the parts of its ancestors and its unused bits are as they should be. *)
Theorem C67_default : forall root classes compare members header emptyElement rank, program root classes compare members emptyElement rank ->
  exists D,
    (forall c k, classes c = Some k -> forall fuel busy, (rank c < fuel)%nat -> (forall b, In b busy -> (rank c < rank b)%nat) ->
       exists v, class_default root classes compare members header emptyElement fuel busy c = Some v /\ front (class_size root classes c) v = D c) /\
    (forall c k, classes c = Some k -> default_of root classes compare members D emptyElement header c).
Proof.
  intros root classes compare members header emptyElement rank P. exists (defaultBits root classes compare members header emptyElement rank). split.
  - intros c k EK fuel busy HF HB. eexists. split; [eapply value_of_class; eauto|reflexivity].
  - intros c k EK. pose proof (size_fits root classes compare members emptyElement rank P c k EK) as HF. destruct (packed root classes compare members emptyElement rank P c k EK) as [p EP].
    set (D := defaultBits root classes compare members header emptyElement rank).
    assert (List.length (D c) = N.to_nat (class_size root classes c)) as HL by (apply front_length; lia).
    destruct (N.eq_dec (class_size root classes c) 0) as [E0|N0].
    + assert (D c = []) as ED by (unfold D, defaultBits; rewrite E0; reflexivity).
      assert (lc_kind k <> Element) as NE. { intros KE. unfold class_size in E0. rewrite EK in E0. destruct k as [kk ? ? ?]. cbn in KE. subst kk. discriminate. }
      split; auto.
      * intros k' EK'. rewrite EK in EK'. injection EK' as <-. contradiction.
      * intros k' i m d EK' EU Em Ed. rewrite EK in EK'. injection EK' as <-. pose proof (own_fit root classes compare members emptyElement rank P c k i m EK Em) as HO.
        destruct (part_inside root classes compare members emptyElement rank P c k c k EK (or_introl eq_refl) EK) as [_ HI]. assert (member_size m = 0) as EM0 by lia. rewrite EM0. rewrite part_nil.
        assert (lower root classes rank D c (fun mc => Some (V root classes compare members header emptyElement rank mc))) as HLow by (intros mc kc _ _; eexists; split; reflexivity).
        destruct (member_step root classes compare members header emptyElement rank P D _ c k i m d 0 EK Em Ed HLow) as (ob & HW & HV). { unfold hdr. rewrite EK, EM0. unfold W8K. destruct (is_element _); lia. }
        destruct (HW 0) as (dv & _ & HP & _). rewrite EM0 in HP. rewrite !part_nil in HP. destruct ob as [b|]; [rewrite HP; exact HV|]. destruct HV as [HV _]. rewrite EM0 in HV. exact HV.
      * intros a ka NZ HA EA. rewrite ED. destruct (part_inside root classes compare members emptyElement rank P c k a ka EK (or_intror (conj NZ HA)) EA) as [_ HI]. replace (own_bits ka) with 0 by lia. rewrite !part_nil. reflexivity.
      * replace (class_size root classes c - (first_bit classes c + totalbits root classes c)) with 0 by lia. apply part_nil.
    + destruct (class_value root classes compare members header emptyElement rank P c k p EK EP N0) as (dfm & dfb & L1 & L2 & EV). fold D in L1, L2.
      assert (forall q n, q + n <= class_size root classes c -> part q n (D c) = part q n (bits8k (V root classes compare members header emptyElement rank c))) as HPart by (intros q n H; apply part_front; auto).
      destruct (lc_union k) eqn:EU.
      * destruct (body_union root classes compare members header emptyElement rank P c k p dfm dfb D EK EP EU L1 L2) as (dv & EV' & H1 & H2 & H3). rewrite EV in EV'. injection EV' as <-. split; auto.
        -- intros k' EK' KE. rewrite EK in EK'. injection EK' as <-. rewrite HPart; auto. unfold class_size. rewrite EK. destruct k as [kk ? ? ?]. cbn in KE. subst kk. lia.
        -- intros k' i m d EK' EU'. rewrite EK in EK'. injection EK' as <-. congruence.
        -- intros a ka NZ HA. destruct (union_no_ancestor root classes compare members emptyElement rank P c k a EK EU NZ HA).
        -- rewrite HPart by lia. apply part_ext; [rewrite bits_length; lia|apply zeros_length|]. intros x Hx. rewrite zeros_nth. specialize (H3 (first_bit classes c + totalbits root classes c + N.of_nat x) ltac:(lia)).
           replace (N.to_nat (first_bit classes c + totalbits root classes c) + x)%nat with (N.to_nat (first_bit classes c + totalbits root classes c + N.of_nat x)) by lia. apply H3.
           intros i m d Em Ed _. pose proof (own_fit root classes compare members emptyElement rank P c k i m EK Em) as HO. destruct (part_inside root classes compare members emptyElement rank P c k c k EK (or_introl eq_refl) EK) as [_ HI].
           unfold base_at in HI. rewrite N.eqb_refl in HI. lia.
      * destruct (body_ok root classes compare members header emptyElement rank P c k p dfm dfb D EK EP EU L1 L2) as (dv & EV' & H1 & H2 & H3 & H4). rewrite EV in EV'. injection EV' as <-. split; auto.
        -- intros k' EK' KE. rewrite EK in EK'. injection EK' as <-. rewrite HPart; auto. unfold class_size. rewrite EK. destruct k as [kk ? ? ?]. cbn in KE. subst kk. lia.
        -- intros k' i m d EK' _ Em Ed. rewrite EK in EK'. injection EK' as <-. rewrite HPart; auto. pose proof (own_fit root classes compare members emptyElement rank P c k i m EK Em) as HO.
           destruct (part_inside root classes compare members emptyElement rank P c k c k EK (or_introl eq_refl) EK) as [_ HI]. unfold base_at in HI. rewrite N.eqb_refl in HI. lia.
        -- intros a ka NZ HA EA. rewrite HPart; [apply H3; auto|]. destruct (part_inside root classes compare members emptyElement rank P c k a ka EK (or_intror (conj NZ HA)) EA) as [_ HI]. lia.
        -- rewrite HPart by lia. apply part_ext; [rewrite bits_length; lia|apply zeros_length|]. intros x Hx. rewrite zeros_nth. specialize (H4 (first_bit classes c + totalbits root classes c + N.of_nat x) ltac:(lia)).
           replace (N.to_nat (first_bit classes c + totalbits root classes c) + x)%nat with (N.to_nat (first_bit classes c + totalbits root classes c + N.of_nat x)) by lia. exact H4.
Qed.
Print Assumptions C67_default.

(* and these conditions leave no bit open: in a program without unions only one assignment of values satisfies them *)
Theorem C67_determined : forall root classes compare members header emptyElement rank, program root classes compare members emptyElement rank ->
  (forall c k, classes c = Some k -> lc_union k = false) ->
  forall D D', (forall c k, classes c = Some k -> default_of root classes compare members D emptyElement header c /\ default_of root classes compare members D' emptyElement header c) ->
  forall c k, classes c = Some k -> D c = D' c.
Proof.
  intros root classes compare members header emptyElement rank P NU D D' HD.
  assert (forall n c k, (rank c < n)%nat -> classes c = Some k -> D c = D' c) as H; [|intros c k EK; apply (H (S (rank c)) c k); auto].
  induction n as [|n IH]; intros c k HN EK; [lia|]. destruct (HD c k EK) as [H1 H2]. pose proof (d_length _ _ _ _ _ _ _ _ H1) as L1. pose proof (d_length _ _ _ _ _ _ _ _ H2) as L2.
  pose proof (size_fits root classes compare members emptyElement rank P c k EK) as HF. pose proof (NU c k EK) as EU.
  assert (forall q n, part q n (D c) = part q n (D' c) -> q + n <= class_size root classes c -> forall x, q <= x < q + n -> nth (N.to_nat x) (D c) false = nth (N.to_nat x) (D' c) false) as HP.
  { intros q w E HB x Hx. assert (nth (N.to_nat (x - q)) (part q w (D c)) false = nth (N.to_nat (x - q)) (part q w (D' c)) false) as E' by congruence. rewrite !part_nth in E' by lia. replace (N.to_nat q + N.to_nat (x - q))%nat with (N.to_nat x) in E' by lia. exact E'. }
  apply nth_ext with (d := false) (d' := false); [congruence|]. intros x0 Hx0. set (x := N.of_nat x0). replace x0 with (N.to_nat x) by lia. assert (x < class_size root classes c) as Hx by lia. clearbody x. clear x0 Hx0.
  destruct (N.lt_ge_cases x (first_bit classes c)) as [HH|HH].
  { assert (lc_kind k = Element /\ first_bit classes c = 25) as [KE F25] by (revert HH; unfold first_bit; rewrite EK; destruct k as [[] ? ? ?]; cbn; intros; auto; lia).
    apply (HP 0 25); [rewrite (d_header _ _ _ _ _ _ _ _ H1 k EK KE), (d_header _ _ _ _ _ _ _ _ H2 k EK KE); reflexivity|lia|lia]. }
  destruct (N.lt_ge_cases x (first_bit classes c + totalbits root classes c)) as [HT|HT].
  2: { apply (HP _ _ (eq_trans (d_rest _ _ _ _ _ _ _ _ H1) (eq_sym (d_rest _ _ _ _ _ _ _ _ H2)))); lia. }
  destruct (cover root classes compare members emptyElement rank P c k EK EU) as (p & l & EP & HL & HC & _). specialize (HC (x - first_bit classes c)). replace (x - first_bit classes c <? totalbits root classes c) with true in HC by lia.
  assert (exists s w, In (s, w) (combine (pk_members p) (map member_size (lc_members k)) ++ map (fun a => (base_position root classes compare c a, own_size classes a)) l) /\ s <= x - first_bit classes c < s + w) as (s & w & HI & Hs).
  { revert HC. generalize (combine (pk_members p) (map member_size (lc_members k)) ++ map (fun a => (base_position root classes compare c a, own_size classes a)) l). induction l0 as [|[s w] l0 IHl]; [discriminate|]. rewrite covering_cons. cbn [fst snd].
    destruct ((s <=? x - first_bit classes c) && (x - first_bit classes c <? s + w)) eqn:E; [intros _; exists s, w; split; [left; auto|lia]|]. intros E'. destruct (IHl E') as (s' & w' & HI & Hs). exists s', w'. split; [right; auto|auto]. }
  apply in_app_or in HI. destruct HI as [HI|HI].
  - apply In_nth_error in HI. destruct HI as [i EN]. apply nth_combine_inv in EN. destruct EN as [Eo Es]. apply nth_map_inv in Es. destruct Es as (m & Em & ->). rewrite (off_nth root classes compare members emptyElement rank P c k p i m EK EP Em) in Eo. injection Eo as <-.
    assert (exists d, nth_error (members c) i = Some d) as [d Ed]. { destruct (nth_error (members c) i) eqn:X; eauto. apply nth_error_None in X. rewrite (p_members _ _ _ _ _ _ P c k EK) in X. apply nth_error_None in X. congruence. }
    pose proof (own_fit root classes compare members emptyElement rank P c k i m EK Em) as HO. destruct (part_inside root classes compare members emptyElement rank P c k c k EK (or_introl eq_refl) EK) as [_ HI]. unfold base_at in HI. rewrite N.eqb_refl in HI.
    set (q := first_bit classes c + offset_of root classes compare c i) in *. apply (HP q (member_size m)); [|unfold q; lia|unfold q; lia].
    pose proof (d_member _ _ _ _ _ _ _ _ H1 k i m d EK EU Em Ed) as M1. pose proof (d_member _ _ _ _ _ _ _ _ H2 k i m d EK EU Em Ed) as M2. fold q in M1, M2.
    destruct (p_declared _ _ _ _ _ _ P c k i m d EK Em Ed) as [HDc HIn]. unfold declared in HDc. pose proof (nth_error_In _ _ Ed) as IND. assert (member_size m <= W8K) as HB by lia.
    assert (dm_atom d = true -> D emptyElement = D' emptyElement) as HAt. { intros EA. destruct (p_empty _ _ _ _ _ _ P) as (ke & EE & _). apply (IH emptyElement ke); auto. pose proof (p_rank_atom _ _ _ _ _ _ P c k d EK IND EA). lia. }
    assert (forall mc, dm_class d = Some mc -> D mc = D' mc /\ List.length (times (nitems m) (D mc)) = N.to_nat (member_size m)) as HCl.
    { intros mc EC. rewrite EC in HDc. destruct HDc as (_ & (kc & EKc) & ES). split; [apply (IH mc kc); auto; pose proof (p_rank_member _ _ _ _ _ _ P c k d mc EK IND EC); lia|].
      rewrite times_length, (d_length _ _ _ _ _ _ _ _ (proj1 (HD mc kc EKc))), ES, size_member. lia. }
    assert (sized root classes (dm_class d) m) as HS by (unfold sized; destruct (dm_class d); tauto).
    unfold member_value in M1, M2. unfold dm_init_ok in HIn. destruct (dm_atom d); [rewrite M1, M2, HAt; auto|]. destruct (dm_class d) as [mc|] eqn:EC.
    + destruct (HCl mc eq_refl) as [EDm HLm]. rewrite <- EDm in M2. destruct (dm_init d) as [[|v|v|li|li]|]; try congruence.
      * inversion HIn.
      * inversion M1; inversion M2; congruence.
      * eapply initialised_unique; eauto.
      * eapply initialised_unique; eauto.
    + assert (List.length (zeros (member_size m)) = N.to_nat (member_size m)) as HLz by apply zeros_length. destruct (dm_init d) as [[|v|v|li|li]|]; try congruence.
      * destruct HIn as [_ []]. auto.
      * inversion M1; inversion M2; congruence.
      * inversion M1; inversion M2; congruence.
      * eapply initialised_unique; eauto.
      * eapply initialised_unique; eauto.
  - apply in_map_iff in HI. destruct HI as (a & Eq & HI). injection Eq as <- <-. apply HL in HI. destruct HI as [NZ HA]. destruct (ancestor_defined root classes compare members emptyElement rank P c a NZ HA) as [ka EA]. unfold own_size in Hs. rewrite EA in Hs.
    pose proof (d_base _ _ _ _ _ _ _ _ H1 a ka NZ HA EA) as B1. pose proof (d_base _ _ _ _ _ _ _ _ H2 a ka NZ HA EA) as B2. rewrite (IH a ka) in B1; auto; [|pose proof (rank_ancestor root classes compare members header emptyElement rank P c a NZ HA); lia].
    destruct (part_inside root classes compare members emptyElement rank P c k a ka EK (or_intror (conj NZ HA)) EA) as [_ HI]. apply (HP _ _ (eq_trans B1 (eq_sym B2))); [lia|]. unfold base_at in *. pose proof (ancestor_not_self root classes compare members emptyElement rank P c a HA). replace (c =? a) with false in * by lia. lia.
Qed.
Print Assumptions C67_determined.

(* a union: the last member of a class or Atom has its default value; the bits of no such member are 0 *)
Theorem C67_union : forall root classes compare members header emptyElement rank, program root classes compare members emptyElement rank ->
  exists D,
    (forall c k, classes c = Some k -> forall fuel busy, (rank c < fuel)%nat -> (forall b, In b busy -> (rank c < rank b)%nat) ->
       exists v, class_default root classes compare members header emptyElement fuel busy c = Some v /\ front (class_size root classes c) v = D c) /\
    (forall c k, classes c = Some k -> lc_union k = true ->
       (forall i m d, nth_error (lc_members k) i = Some m -> nth_error (members c) i = Some d -> member_size m <> 0 -> dm_class d <> None \/ dm_atom d = true ->
          (forall j m' d', (i < j)%nat -> nth_error (lc_members k) j = Some m' -> nth_error (members c) j = Some d' -> dm_class d' = None /\ dm_atom d' = false) ->
          member_value root classes compare members D emptyElement m d (part (first_bit classes c) (member_size m) (D c))) /\
       (forall x, first_bit classes c <= x ->
          (forall i m d, nth_error (lc_members k) i = Some m -> nth_error (members c) i = Some d -> dm_class d <> None \/ dm_atom d = true -> first_bit classes c + member_size m <= x) ->
          nth (N.to_nat x) (D c) false = false)).
Proof.
  intros root classes compare members header emptyElement rank P. exists (defaultBits root classes compare members header emptyElement rank). split.
  - intros c k EK fuel busy HF HB. eexists. split; [eapply value_of_class; eauto|reflexivity].
  - intros c k EK EU. pose proof (size_fits root classes compare members emptyElement rank P c k EK) as HF. destruct (packed root classes compare members emptyElement rank P c k EK) as [p EP].
    set (D := defaultBits root classes compare members header emptyElement rank).
    assert (forall i m, nth_error (lc_members k) i = Some m -> first_bit classes c + member_size m <= class_size root classes c) as HFit.
    { intros i m Em. pose proof (own_fit root classes compare members emptyElement rank P c k i m EK Em) as HO. destruct (part_inside root classes compare members emptyElement rank P c k c k EK (or_introl eq_refl) EK) as [_ HI]. unfold base_at in HI. rewrite N.eqb_refl in HI. lia. }
    assert (List.length (D c) = N.to_nat (class_size root classes c)) as HL by (apply front_length; lia).
    destruct (N.eq_dec (class_size root classes c) 0) as [E0|N0].
    + split; [intros i m d Em _ NM; specialize (HFit i m Em); lia|]. intros x _ _. apply nth_overflow. lia.
    + destruct (class_value root classes compare members header emptyElement rank P c k p EK EP N0) as (dfm & dfb & L1 & L2 & EV). fold D in L1, L2.
      destruct (body_union root classes compare members header emptyElement rank P c k p dfm dfb D EK EP EU L1 L2) as (dv & EV' & _ & H2 & H3). rewrite EV in EV'. injection EV' as <-. split.
      * intros i m d Em Ed NM HC HJ. unfold D at 2. unfold defaultBits. rewrite part_front by eauto. apply (H2 i m d Em Ed); [split; auto|]. intros j m' d' Hj Em' Ed' [_ HW]. destruct (HJ j m' d' Hj Em' Ed') as [X Y]. destruct HW; congruence.
      * intros x Hx HN. destruct (N.lt_ge_cases x (class_size root classes c)) as [HL'|HL']; [|apply nth_overflow; lia]. unfold D, defaultBits. rewrite front_nth by lia. apply H3; auto. intros i m d Em Ed [_ HW]. apply (HN i m d Em Ed HW).
Qed.
Print Assumptions C67_union.

(* An example: quark 1 (x = 5, y), quark 2 : 1 (a[3] = {1, 2}), element 3 without members, element 4 : 2 ^ 1 (q = {.y = 9}),
   union 5 (a member of class 1, and a number), transient 6 (an element 4, an Atom, an array of class 2 with a list, a union 5). *)
Definition dx_n (bits : N) : mtype := {| mt_bits := bits; mt_array := None; mt_element := false |}.
Definition dx_a (bits n : N) : mtype := {| mt_bits := bits; mt_array := Some n; mt_element := false |}.
Definition dx_classes (x : N) : option lclass :=
  if x =? 1 then Some {| lc_kind := Quark; lc_union := false; lc_members := [dx_n 3; dx_n 4]; lc_bases := [0] |}
  else if x =? 2 then Some {| lc_kind := Quark; lc_union := false; lc_members := [dx_a 2 3]; lc_bases := [1] |}
  else if x =? 3 then Some {| lc_kind := Element; lc_union := false; lc_members := []; lc_bases := [0] |}
  else if x =? 4 then Some {| lc_kind := Element; lc_union := false; lc_members := [dx_n 7]; lc_bases := [2; 1] |}
  else if x =? 5 then Some {| lc_kind := Quark; lc_union := true; lc_members := [dx_n 7; dx_n 9]; lc_bases := [0] |}
  else if x =? 6 then Some {| lc_kind := Transient; lc_union := false; lc_bases := [0];
    lc_members := [{| mt_bits := 20; mt_array := None; mt_element := true |}; dx_n 96; dx_a 13 4; dx_n 9] |}
  else None.
Definition dx_plain (e : option cinit) : dmember := {| dm_class := None; dm_atom := false; dm_init := e |}.
Definition dx_class (c : N) (e : option cinit) : dmember := {| dm_class := Some c; dm_atom := false; dm_init := e |}.
Definition dx_list : cinit := CItems [CMembers [(1, 0%nat, CNumber 6); (2, 0%nat, CItems [CNumber 3])]; CMembers [(1, 1%nat, CNumber 8)]].
Definition dx_members (x : N) : list dmember :=
  if x =? 1 then [dx_plain (Some (CNumber 5)); dx_plain None]
  else if x =? 2 then [dx_plain (Some (CItems [CNumber 1; CNumber 2]))]
  else if x =? 4 then [dx_class 1 (Some (CMembers [(1, 1%nat, CNumber 9)]))]
  else if x =? 5 then [dx_class 1 None; dx_plain None]
  else if x =? 6 then [dx_class 4 None; {| dm_class := None; dm_atom := true; dm_init := None |}; dx_class 2 (Some dx_list); dx_class 5 None]
  else [].
Definition dx_rank (x : N) : nat := N.to_nat (match x with 1 => 1 | 3 => 1 | 2 => 2 | 5 => 2 | 4 => 3 | 6 => 4 | _ => 0 end).
Definition dx_header (x : N) : N := 1000 * x + 7.
Lemma dx_cases x k : dx_classes x = Some k -> In x [1; 2; 3; 4; 5; 6].
Proof. unfold dx_classes. intros H. repeat match type of H with context [x =? ?n] => destruct (x =? n) eqn:?; [cbn; lia|] end. discriminate. Qed.
Lemma dx_edge x y : edge ex_r (lbases dx_classes) x y -> (dx_rank y < dx_rank x)%nat.
Proof.
  intros (bs & b & EB & HB & <-). unfold lbases in EB. destruct (dx_classes x) as [k|] eqn:EK; [|discriminate]. cbn [option_map] in EB. injection EB as <-. pose proof (dx_cases x k EK) as HX.
  ex_split HX; subst x; vm_compute in EK; injection EK as <-; cbn [lc_bases] in HB; ex_split HB; subst b; vm_compute; lia.
Qed.
Lemma dx_wf : wf ex_r dx_classes ex_c.
Proof.
  split.
  - intros x. unfold ex_r. destruct (x <? 65536) eqn:E; lia.
  - intros x. unfold ex_r. destruct (x <? 65536) eqn:E; lia.
  - reflexivity.
  - intros x k E. pose proof (dx_cases x k E) as HX. ex_split HX; subst x; reflexivity.
  - intros x k y E. unfold ex_c. auto.
  - intros x k b E HI NZ. pose proof (dx_cases x k E) as HX. ex_split HX; subst x; vm_compute in E; injection E as <-; cbn [lc_bases] in HI; ex_split HI; subst b; try congruence; (eexists; split; [reflexivity|discriminate]).
  - intros x k m E HI HE. pose proof (dx_cases x k E) as HX. ex_split HX; subst x; vm_compute in E; injection E as <-; cbn [lc_members] in HI; ex_split HI; subst m; try discriminate; auto.
  - intros x HA. assert (forall x y, reach ex_r (lbases dx_classes) x y -> (dx_rank y <= dx_rank x)%nat) as HR.
    { induction 1 as [z|z w v HE HR IH]; [lia|]. apply dx_edge in HE. lia. }
    destruct HA as (y & HE & HRe). apply dx_edge in HE. apply HR in HRe. lia.
Qed.
Lemma dx_at c k a i m d q : dx_classes c = Some k -> findMember ex_r dx_classes ex_c dx_members c a i = Some (m, d, q) ->
  c = a \/ a <> 0 /\ ancestor ex_r (lbases dx_classes) c a -> q = base_at ex_r dx_classes ex_c c a + offset_of ex_r dx_classes ex_c a i -> member_at ex_r dx_classes ex_c dx_members c a i m d q.
Proof.
  intros EK EF HA Eq. unfold findMember in EF. destruct (dx_classes a) as [ka|] eqn:EA; [|discriminate]. destruct (packBits ex_r dx_classes ex_c a); [|discriminate]. destruct (nth_error (lc_members ka) i) eqn:Em; [|discriminate]. destruct (nth_error (dx_members a) i) eqn:Ed; [|discriminate].
  destruct (nth_error (pk_members p) i); [|discriminate]. destruct (getABaseClassRelativePositionInAClass ex_r dx_classes ex_c c a); [|discriminate]. injection EF as <- <- _. split; auto. split; eauto.
Qed.
Lemma dx_anc12 : ancestor ex_r (lbases dx_classes) 2 1.
Proof. exists 1. split; [|constructor]. exists [1], 1. vm_compute. auto. Qed.
Lemma dx_program : program ex_r dx_classes ex_c dx_members 3 dx_rank.
Proof.
  split.
  - exact dx_wf.
  - intros c k E. pose proof (dx_cases c k E) as HX. ex_split HX; subst c; vm_compute; discriminate.
  - intros c k E KE. pose proof (dx_cases c k E) as HX. ex_split HX; subst c; vm_compute in E; injection E as <-; try discriminate KE; vm_compute; discriminate.
  - intros c k E. pose proof (dx_cases c k E) as HX. ex_split HX; subst c; vm_compute in E; injection E as <-; vm_compute; repeat constructor; cbn; intuition discriminate.
  - intros c k E EU b HI. pose proof (dx_cases c k E) as HX. ex_split HX; subst c; vm_compute in E; injection E as <-; try discriminate. cbn [lc_bases] in HI. ex_split HI. auto.
  - intros c k d E EU HI. pose proof (dx_cases c k E) as HX. ex_split HX; subst c; vm_compute in E; injection E as <-; try discriminate. vm_compute in HI. ex_split HI; subst d; reflexivity.
  - intros c k E. pose proof (dx_cases c k E) as HX. ex_split HX; subst c; vm_compute in E; injection E as <-; reflexivity.
  - intros c k i m d E Em Ed. pose proof (dx_cases c k E) as HX. ex_split HX; subst c; vm_compute in E; injection E as <-; cbn [lc_members] in Em; vm_compute in Ed;
      repeat (destruct i as [|i]; cbn [nth_error] in Em, Ed; [injection Em as <-; injection Ed as <-|]); try (destruct i; discriminate); split;
      try (cbn; repeat split; eauto; try discriminate; eexists; reflexivity).
    + cbn. constructor; [reflexivity|cbn; lia].
    + cbn. apply K_numbers with (n := 3); try reflexivity; [cbn; lia|discriminate|cbn; lia|]. intros e HI. ex_split HI; eauto.
    + cbn. apply K_members; try reflexivity.
      * intros a i e HI. ex_split HI. injection HI as <- <- <-. eexists _, _, _. split; [eapply dx_at; [reflexivity|vm_compute; reflexivity|auto|vm_compute; reflexivity]|]. constructor; [reflexivity|cbn; lia].
      * repeat constructor. intros [].
      * intros a i e j e' H1 H2 NE. ex_split H1. ex_split H2. congruence.
    + cbn. apply K_items with (n := 4); try reflexivity; [discriminate|cbn; lia|]. intros e HI. ex_split HI; subst e.
      * apply K_members; try reflexivity.
        -- intros a i e HI. ex_split HI; injection HI as <- <- <-.
           ++ eexists _, _, _. split; [eapply dx_at; [reflexivity|vm_compute; reflexivity|right; split; [discriminate|exact dx_anc12]|vm_compute; reflexivity]|]. constructor; [reflexivity|cbn; lia].
           ++ eexists _, _, _. split; [eapply dx_at; [reflexivity|vm_compute; reflexivity|auto|vm_compute; reflexivity]|]. apply K_numbers with (n := 3); try reflexivity; [cbn; lia|discriminate|cbn; lia|]. intros e HI. ex_split HI; eauto.
        -- repeat constructor; cbn; intuition discriminate.
        -- intros a i e j e' H1 H2 NE. ex_split H1; ex_split H2; congruence.
      * apply K_members; try reflexivity.
        -- intros a i e HI. ex_split HI; injection HI as <- <- <-. eexists _, _, _. split; [eapply dx_at; [reflexivity|vm_compute; reflexivity|right; split; [discriminate|exact dx_anc12]|vm_compute; reflexivity]|]. constructor; [reflexivity|cbn; lia].
        -- repeat constructor. intros [].
        -- intros a i e j e' H1 H2 NE. ex_split H1; ex_split H2; congruence.
  - intros c k b E HI NZ. pose proof (dx_cases c k E) as HX. ex_split HX; subst c; vm_compute in E; injection E as <-; cbn [lc_bases] in HI; ex_split HI; subst b; try congruence; vm_compute; lia.
  - intros c k d mc E HI EC. pose proof (dx_cases c k E) as HX. ex_split HX; subst c; vm_compute in HI; ex_split HI; subst d; try discriminate; injection EC as <-; vm_compute; lia.
  - intros c k d E HI EA. pose proof (dx_cases c k E) as HX. ex_split HX; subst c; vm_compute in HI; ex_split HI; subst d; try discriminate; vm_compute; lia.
  - eexists. split; reflexivity.
Qed.
Definition dx_default := class_default ex_r dx_classes ex_c dx_members dx_header 3.
Definition dx_field (o : option N) (q : N * N) : option N := option_map (bv_read W8K (fst q) (snd q)) o.
(* in an instance of class 6: the element's header, q.x, q.y, a, x, y, unused; the Atom's header and the rest; the items of the array; the union *)
Example C67_ex : program ex_r dx_classes ex_c dx_members 3 dx_rank /\
  map (dx_field (dx_default 5 [] 6)) [(0, 25); (25, 3); (28, 4); (32, 6); (38, 3); (41, 4); (45, 51); (96, 25); (121, 71); (192, 6); (198, 7); (205, 6); (211, 7); (218, 13); (231, 13); (244, 9)] =
  map Some [4007; 5; 9; 26; 5; 0; 0; 3007; 0; 63; 96; 26; 88; 26 * 128 + 88; 26 * 128 + 88; 320].
Proof. split; [exact dx_program|]. vm_compute. reflexivity. Qed.
Example C67_union_ex : dx_field (dx_default 5 [] 5) (0, 9) = Some (5 * 64) /\ lc_union (match dx_classes 5 with Some k => k | None => {| lc_kind := Quark; lc_union := false; lc_members := []; lc_bases := [] |} end) = true.
Proof. vm_compute. auto. Qed.

(* ---- C69 ---- *)

(* C69: item i of an array of numbers gets the i-th value of the list, the items after the end of the list the last one *)
Theorem C69_numbers : forall root classes compare members m n vs pre,
  mt_array m = Some n -> 1 <= one_size m <= 64 -> vs <> [] -> N.of_nat (List.length vs) <= n -> n * one_size m <= W8K ->
  exists v, value_of root classes compare members (CItems (map CNumber vs)) None m pre = Some v /\
    forall i, (i < N.to_nat n)%nat -> bv_read W8K (N.of_nat i * one_size m) (one_size m) v = nth (Nat.min i (List.length vs - 1)) vs 0 mod 2 ^ one_size m.
Proof.
  intros root classes compare members m n vs pre HM HW HNE HL HB. cbn [value_of]. rewrite HM, map_length. unfold guard. replace (negb _) with true by lia. cbn [bind]. unfold prim_array, guard. rewrite size_one, map_length.
  assert (1 <= N.of_nat (List.length vs)) as HL1 by (destruct vs; [congruence|cbn; lia]). replace ((1 <=? one_size m) && (one_size m <=? 64) && (1 <=? N.of_nat (List.length vs))) with true by lia. cbn [bind].
  destruct (prim_items_total root classes compare members (one_size m) (map CNumber vs) 0 0) as [bv1 E1]; [intros e HI; apply in_map_iff in HI; destruct HI as (x & <- & _); eauto|rewrite map_length; nia|]. rewrite E1. cbn [bind]. replace (N.of_nat (List.length vs) * one_size m <=? W8K) with true by nia. cbn [bind].
  destruct (prim_rest_total root classes compare members (one_size m) (bv_read W8K ((N.of_nat (List.length vs) - 1) * one_size m) (one_size m) bv1) (N.to_nat n - List.length vs) (N.of_nat (List.length vs)) bv1) as [v E]; [nia|]. exists v. split; auto.
  destruct (prim_items_ok _ _ _ _ _ E1) as [H1 _]; [rewrite map_length; nia|]. destruct (prim_rest_ok _ _ _ _ _ _ E) as [R1 R2].
  assert (forall j, (j < List.length vs)%nat -> bv_read W8K (N.of_nat j * one_size m) (one_size m) bv1 = nth j vs 0 mod 2 ^ one_size m) as HI.
  { intros j Hj. assert (nth_error (map CNumber vs) j = Some (CNumber (nth j vs 0))) as EN by (apply map_nth_error; apply nth_error_nth'; auto). destruct (H1 j _ EN) as (x & Ex & EP). injection Ex as <-. rewrite N.add_0_l in EP. rewrite read_part, EP by nia. rewrite bval_msb, N2Nat.id. reflexivity. }
  intros i Hi. destruct (Nat.lt_ge_cases i (List.length vs)) as [HLt|HGe].
  - replace (Nat.min i (List.length vs - 1)) with i by lia. rewrite <- (HI i HLt). apply part_read; [nia|]. apply part_same; rewrite ?bits_length; [nia|reflexivity|]. intros x Hx. apply R2. left. nia.
  - replace (Nat.min i (List.length vs - 1)) with (List.length vs - 1)%nat by lia. rewrite <- (HI (List.length vs - 1)%nat ltac:(lia)). replace (N.of_nat (List.length vs - 1)) with (N.of_nat (List.length vs) - 1) by lia.
    rewrite read_part, R1 by nia. rewrite read_bits by nia. rewrite read_part by nia. reflexivity.
Qed.
Print Assumptions C69_numbers.
Example C69_numbers_ex : option_map (fun v => map (fun i => bv_read W8K (i * 5) 5 v) [0; 1; 2; 3]) (value_of ex_r dx_classes ex_c dx_members (CItems (map CNumber [7; 33])) None (dx_a 5 4) 0) = Some [7; 1; 1; 1].
Proof. vm_compute. reflexivity. Qed.

(* and for items of a class: item i is what its initialiser makes of what was there, the items after the end of the list repeat the last *)
Theorem C69_classes : forall root classes compare members emptyElement rank, program root classes compare members emptyElement rank ->
  forall l c k m n pre v, classes c = Some k -> class_size root classes c = one_size m -> mt_array m = Some n -> n * one_size m <= W8K ->
  value_of root classes compare members (CItems l) (Some c) m pre = Some v ->
  (forall i e, nth_error l i = Some e -> N.of_nat i < n ->
     initialised root classes compare members e (Some c) (one m) (part (N.of_nat i * one_size m) (one_size m) (bits8k pre)) (part (N.of_nat i * one_size m) (one_size m) (bits8k v))) /\
  (forall i, N.of_nat (List.length l) <= i < n -> part (i * one_size m) (one_size m) (bits8k v) = part ((N.of_nat (List.length l) - 1) * one_size m) (one_size m) (bits8k v)).
Proof.
  intros root classes compare members emptyElement rank P l c k m n pre v EK ES HM HB E.
  assert (member_size m = n * one_size m) as EZ by (rewrite size_member; unfold nitems; rewrite HM; reflexivity).
  pose proof (value_sound root classes compare members emptyElement rank P (CItems l) (Some c) m pre v E (conj (ex_intro _ k EK) ES) ltac:(lia)) as HI. inversion HI as [| | |? ? ? n' ? ? HM' HL H1 H2|]; subst. rewrite HM in HM'. injection HM' as <-. split.
  - intros i e HE Hi. specialize (H1 i e HE Hi). rewrite !part_front in H1 by nia. exact H1.
  - intros i Hi. specialize (H2 i Hi). rewrite !part_front in H2 by nia. exact H2.
Qed.
Print Assumptions C69_classes.

(* a list longer than the array is rejected *)
Theorem C69_too_many : forall root classes compare members cls m n l pre, mt_array m = Some n -> 0 < n < N.of_nat (List.length l) ->
  value_of root classes compare members (CItems l) cls m pre = None.
Proof. intros. eapply too_many; eauto. Qed.
Print Assumptions C69_too_many.
Example C69_too_many_ex : value_of ex_r dx_classes ex_c dx_members (CItems [CNumber 1; CNumber 2; CNumber 3; CNumber 4; CNumber 5]) None (dx_a 5 4) 0 = None.
Proof. reflexivity. Qed.

(* A named constant array with an empty list has the default value in every item... *)
Theorem C69_constant_empty : forall root classes compare members header emptyElement rank, program root classes compare members emptyElement rank ->
  forall c k m n fuel, classes c = Some k -> class_size root classes c = one_size m -> mt_array m = Some n -> n * one_size m <= W8K -> (rank c < fuel)%nat ->
  exists v r, class_default root classes compare members header emptyElement fuel [] c = Some v /\
    const_init root classes compare members (class_default root classes compare members header emptyElement fuel []) c m CKeep = Some r /\
    front (n * one_size m) r = times n (front (class_size root classes c) v).
Proof.
  intros root classes compare members header emptyElement rank P c k m n fuel EK ES HM HB HF. pose proof (size_fits root classes compare members emptyElement rank P c k EK) as HS.
  pose proof (value_of_class root classes compare members header emptyElement rank P (S (rank c)) c k ltac:(lia) EK fuel [] HF ltac:(intros b [])) as EV. unfold const_init. rewrite HM, size_one.
  destruct (default_array_ok _ c (one_size m) n _ EV ltac:(lia) HB) as (r & Er & Fr). exists (V root classes compare members header emptyElement rank c), r. split; auto. split; auto. rewrite ES. exact Fr.
Qed.
Print Assumptions C69_constant_empty.
(* ... but the value computed for a variable or data member, "Foo a[3] = { };", is all zero, unlike the same without a list. A data
   member has these zeros in the default value of its class (NodeVarDeclDM.cpp:834-838, 869-875); the generated code of a local
   variable does not use the value (NodeVarDecl.cpp:1486-1502), so it differs from the evaluator there. *)
Theorem C69_empty_list_refuted : exists root classes compare members header emptyElement rank c k m n v, program root classes compare members emptyElement rank /\
  classes c = Some k /\ class_size root classes c = one_size m /\ mt_array m = Some n /\
  class_default root classes compare members header emptyElement (S (rank c)) [] c = Some v /\
  var_init root classes compare members (class_default root classes compare members header emptyElement (S (rank c)) []) c m CKeep = Some 0 /\
  front (n * one_size m) 0 <> times n (front (class_size root classes c) v).
Proof.
  exists ex_r, dx_classes, ex_c, dx_members, dx_header, 3, dx_rank, 1. eexists. exists (dx_a 7 3), 3. eexists. split; [exact dx_program|]. split; [reflexivity|]. split; [vm_compute; reflexivity|]. split; [reflexivity|]. split; [vm_compute; reflexivity|]. split; [reflexivity|].
  vm_compute. discriminate.
Qed.
Print Assumptions C69_empty_list_refuted.
Example C69_classes_ex : dx_field (const_init ex_r dx_classes ex_c dx_members (dx_default 2 []) 1 (dx_a 7 3) CKeep) (0, 21) = Some (80 * 2 ^ 14 + 80 * 2 ^ 7 + 80) /\
  dx_field (var_init ex_r dx_classes ex_c dx_members (dx_default 2 []) 1 (dx_a 7 3) CKeep) (0, 21) = Some 0 /\
  dx_field (var_init ex_r dx_classes ex_c dx_members (dx_default 2 []) 1 (dx_a 7 3) (CItems [CMembers [(1, 1%nat, CNumber 4)]; CMembers [(1, 0%nat, CNumber 1)]])) (0, 21) = Some (84 * 2 ^ 14 + 16 * 2 ^ 7 + 16).
Proof. vm_compute. auto. Qed.

(* ---- C70 ---- *)

(* C70: a list of members changes exactly the members it names: those of nested lists and arrays likewise, everything else remains *)
Theorem C70_list : forall root classes compare members emptyElement rank, program root classes compare members emptyElement rank ->
  forall e c k m pre v, classes c = Some k -> class_size root classes c = one_size m -> member_size m <= W8K ->
  value_of root classes compare members e (Some c) m pre = Some v ->
  initialised root classes compare members e (Some c) m (front (member_size m) pre) (front (member_size m) v).
Proof. intros root classes compare members emptyElement rank P e c k m pre v EK ES HB E. eapply value_sound; eauto. split; eauto. Qed.
Print Assumptions C70_list.

(* a variable of a class: the list is applied to the default value of the class *)
Theorem C70_variable : forall root classes compare members header emptyElement rank, program root classes compare members emptyElement rank ->
  forall l c k m fuel r, classes c = Some k -> class_size root classes c = one_size m -> mt_array m = None -> (rank c < fuel)%nat ->
  var_init root classes compare members (class_default root classes compare members header emptyElement fuel []) c m (CMembers l) = Some r ->
  exists v, class_default root classes compare members header emptyElement fuel [] c = Some v /\
    initialised root classes compare members (CMembers l) (Some c) m (front (class_size root classes c) v) (front (class_size root classes c) r).
Proof.
  intros root classes compare members header emptyElement rank P l c k m fuel r EK ES HM HF E. pose proof (size_fits root classes compare members emptyElement rank P c k EK) as HS.
  pose proof (value_of_class root classes compare members header emptyElement rank P (S (rank c)) c k ltac:(lia) EK fuel [] HF ltac:(intros b [])) as EV. cbn [var_init] in E. rewrite HM, EV in E. cbn [bind] in E. eexists. split; [exact EV|].
  assert (member_size m = class_size root classes c) as EZ by (rewrite size_member; unfold nitems; rewrite HM; lia). rewrite <- EZ. eapply value_sound; eauto; [cbn [value_of]; rewrite HM; exact E|split; eauto|lia].
Qed.
Print Assumptions C70_variable.

(* the lists that make sense are accepted *)
Theorem C70_accepted : forall root classes compare members emptyElement rank, program root classes compare members emptyElement rank ->
  forall e c k m, init_ok root classes compare members e (Some c) m -> classes c = Some k -> class_size root classes c = one_size m -> member_size m <= W8K ->
  forall pre, exists v, value_of root classes compare members e (Some c) m pre = Some v.
Proof. intros root classes compare members emptyElement rank P e c k m HK EK ES HB pre. eapply value_total; eauto. split; eauto. Qed.
Print Assumptions C70_accepted.

(* and only one value fits the description *)
Theorem C70_determined : forall root classes compare members emptyElement rank, program root classes compare members emptyElement rank ->
  forall e c k m, init_ok root classes compare members e (Some c) m -> classes c = Some k -> class_size root classes c = one_size m -> member_size m <= W8K ->
  forall pre post post', List.length pre = N.to_nat (member_size m) ->
  initialised root classes compare members e (Some c) m pre post -> initialised root classes compare members e (Some c) m pre post' -> post = post'.
Proof. intros root classes compare members emptyElement rank P e c k m HK EK ES HB pre post post' HL I1 I2. eapply initialised_unique; eauto. split; eauto. Qed.
Print Assumptions C70_determined.

(* a list that sets a bit twice is rejected: a member named twice, or two members of a union *)
Theorem C70_twice : forall root classes compare members emptyElement rank, program root classes compare members emptyElement rank ->
  forall c k l p p' a i e j e' mm d q mm' d' q' m pre, classes c = Some k -> nth_error l p = Some (a, i, e) -> nth_error l p' = Some (a, j, e') -> p <> p' ->
  i = j \/ (exists ka, classes a = Some ka /\ lc_union ka = true) ->
  member_at root classes compare members c a i mm d q -> member_at root classes compare members c a j mm' d' q' -> member_size mm <> 0 -> member_size mm' <> 0 ->
  value_of root classes compare members (CMembers l) (Some c) m pre = None.
Proof.
  intros root classes compare members emptyElement rank P c k l p p' a i e j e' mm d q mm' d' q' m pre EK E1 E2 NE HU A1 A2 N1 N2.
  assert (q = q') as EQ.
  { destruct A1 as (_ & (ka & EA & Em) & _ & ->). destruct A2 as (_ & (ka' & EA' & Em') & _ & ->). rewrite EA in EA'. injection EA' as <-. destruct HU as [->|(ka' & EA' & EU)]; [auto|]. rewrite EA in EA'. injection EA' as <-. f_equal.
    destruct (packed root classes compare members emptyElement rank P a ka EA) as [pk EP]. destruct (C38_members_partial root classes compare (p_wf _ _ _ _ _ _ P) a ka pk EA EU EP) as (H0 & _).
    pose proof (off_nth root classes compare members emptyElement rank P a ka pk i mm EA EP Em) as O1. pose proof (off_nth root classes compare members emptyElement rank P a ka pk j mm' EA EP Em') as O2.
    rewrite H0, nth_error_map, Em in O1. rewrite H0, nth_error_map, Em' in O2. cbn [option_map] in O1, O2. congruence. }
  subst q'. assert (q <= q < q + member_size mm /\ q <= q < q + member_size mm') as [X1 X2] by (clear -N1 N2; lia). exact (twice root classes compare members emptyElement rank P c k l p p' _ _ _ _ _ _ _ _ _ _ _ _ q m pre EK E1 E2 NE A1 A2 X1 X2).
Qed.
Print Assumptions C70_twice.
(* so is one that names a member of no ancestor *)
Theorem C70_stranger : forall root classes compare members emptyElement rank, program root classes compare members emptyElement rank ->
  forall c k l a i e m pre, classes c = Some k -> In (a, i, e) l -> c <> a -> ~ ancestor root (fun x => option_map lc_bases (classes x)) c a ->
  value_of root classes compare members (CMembers l) (Some c) m pre = None.
Proof. intros root classes compare members emptyElement rank P c k l a i e m pre EK HI NE HA. eapply unknown_member; eauto. intros mm d q ([H|[_ H]] & _); contradiction. Qed.
Print Assumptions C70_stranger.

Example C70_ex : init_ok ex_r dx_classes ex_c dx_members (CMembers [(1, 1%nat, CNumber 9)]) (Some 4) {| mt_bits := 20; mt_array := None; mt_element := true |} /\
  dx_field (value_of ex_r dx_classes ex_c dx_members (CMembers [(1, 1%nat, CNumber 9)]) (Some 4) {| mt_bits := 20; mt_array := None; mt_element := true |} (2 ^ 8192 - 1)) (38, 7) = Some (7 * 16 + 9) /\
  value_of ex_r dx_classes ex_c dx_members (CMembers [(1, 1%nat, CNumber 9); (1, 1%nat, CNumber 9)]) (Some 4) {| mt_bits := 20; mt_array := None; mt_element := true |} 0 = None /\
  value_of ex_r dx_classes ex_c dx_members (CMembers [(5, 0%nat, CNumber 9)]) (Some 4) {| mt_bits := 20; mt_array := None; mt_element := true |} 0 = None /\
  value_of ex_r dx_classes ex_c dx_members (CMembers [(5, 0%nat, CMembers []); (5, 1%nat, CNumber 1)]) (Some 5) (dx_n 9) 0 = None /\
  value_of ex_r dx_classes ex_c dx_members (CMembers [(5, 0%nat, CMembers [])]) (Some 5) (dx_n 9) 0 <> None.
Proof.
  split; [|vm_compute; repeat split; auto; discriminate]. assert (ancestor ex_r (lbases dx_classes) 4 1) as HA by (exists 1; split; [|constructor]; exists [2; 1], 1; vm_compute; auto).
  apply K_members; [reflexivity| | |].
  - intros a i e HI. ex_split HI. injection HI as <- <- <-. eexists _, _, _. split; [eapply dx_at; [reflexivity|vm_compute; reflexivity|right; split; [discriminate|exact HA]|vm_compute; reflexivity]|]. constructor; [reflexivity|cbn; lia].
  - repeat constructor. intros [].
  - intros a i e j e' H1 H2 NE. ex_split H1. ex_split H2. congruence.
Qed.
