(* IsAsTheorems.v: C77 (is and as), C78 (registration numbers). *)
From Coq Require Import String List NArith ZArith Lia Bool.
From Coq Require Import ZifyBool ZifyNat ZifyN.
From Verif Require Import Base TypeTableModel FamilyModel FamilyProofs FamilyTheorems LayoutModel LayoutSpec LayoutTheorems IsAsModel IsAsSpec IsAsProofs.
Import ListNotations.
Open Scope N_scope.

(* ---- C77 ---- *)
(* The evaluator's "is" is true exactly if the object is of the class or inherits from it. *)
Theorem C77_is : forall root classes compare, wf root classes compare -> forall v d r kr, denotes root classes v d -> classes (root r) = Some kr ->
  (eval_is root classes compare v r = true <-> is_a root classes d r).
Proof. exact eval_is_ok. Qed.
Print Assumptions C77_is.

Section As.
Variable root : N -> N.
Variable classes : N -> option lclass.
Variable compare : N -> N -> cmp.
Hypothesis W : wf root classes compare.
Notation isa := (is_a root classes).

Lemma element_no_heirs x e k : e <> 0 -> classes e = Some k -> lc_kind k = Element -> ~ ancestor root (lbases classes) x e.
Proof.
  intros NZ E EK HA. destruct (reach_last _ _ _ _ HA) as (z & _ & HE). destruct (edge_class root classes compare W z e HE NZ) as (kz & ky & _ & _ & EY & NE). congruence.
Qed.

Lemma as_pointer_ok la v d k u rk r kr : classes d = Some k -> packBits root classes compare d <> None -> u <> 0 -> isa d u -> classes (root r) = Some kr -> isa d r ->
  exists p, as_pointer root classes compare la v u d rk r = AsYes r d p.
Proof.
  intros E HP NU HU ER HR. unfold as_pointer. rewrite (proj2 (N.eqb_neq d 0) (class_nz root classes compare W d k E)).
  destruct (target_class root classes compare W d k u E NU HU) as (ku & EU).
  assert (r <> 0) as NR by (intros ->; rewrite (proj2 (wf_zero _ _ _ W 0) eq_refl), (wf_nouti _ _ _ W) in ER; discriminate).
  destruct (relpos_some root classes compare W d k u E HP NU HU) as (qu & EQu). destruct (relpos_some root classes compare W d k r E HP NR HR) as (qr & EQr).
  destruct rk; [| |]; (eauto || (destruct (isSubclass root classes compare d r), (isSubclass root classes compare d u); rewrite ?EQu, ?EQr; eauto)).
Qed.

Lemma eval_as_ok v d r kr : packBits root classes compare d <> None -> denotes root classes v d -> informed v -> classes (root r) = Some kr -> lc_kind kr <> Transient ->
  match eval_as root classes compare v r with
  | AsYes t e _ => isa d r /\ t = r /\ e = d
  | AsNo | AsUnevaluable => ~ isa d r
  | AsAssert => False
  end.
Proof.
  intros HP HD HI ER NT. unfold eval_as. rewrite (as_parts root classes compare W v d HD HI). destruct HD as [[k E] _ HT _ _].
  pose proof (class_nz root classes compare W d k E) as NZ. unfold kind_of at 1. rewrite ER. cbn [option_map].
  assert (exists u, (if is_atom (v_target v) || is_atom (v_stg v) then OClass d else v_target v) = OClass u /\ u <> 0 /\ isa d u) as (u & -> & NU & HU).
  { destruct (is_atom (v_target v) || is_atom (v_stg v)) eqn:EA.
    - exists d. repeat split; auto. left. apply (root_class root classes compare W d k E).
    - destruct (v_target v) as [|u] eqn:ET; [discriminate|]. exists u. split; auto. }
  destruct (target_class root classes compare W d k u E NU HU) as (ku & EU).
  destruct (lc_kind kr) eqn:EK; [| |congruence].
  - rewrite (proj2 (N.eqb_neq d 0) NZ). cbn [negb andb].
    destruct (isSame compare d r || isSubclass root classes compare u r || isSubclass root classes compare d r) eqn:EB.
    + assert (isa d r) as HR.
      { apply orb_true_iff in EB. destruct EB as [EB|EB]; [apply orb_true_iff in EB; destruct EB as [EB|EB]|].
        - apply (isa_bool root classes compare W d k r kr E ER). rewrite EB. auto.
        - apply (isa_trans root classes d k u r E NU HU). right. apply (sub_target root classes compare W u ku r kr EU ER). auto.
        - apply (isa_bool root classes compare W d k r kr E ER). rewrite EB. apply orb_true_r. }
      destruct (as_pointer_ok (is_atom (v_target v) || is_atom (v_stg v)) v d k u Quark r kr E HP NU HU ER HR) as (p & ->). auto.
    + assert (~ isa d r) as HR.
      { intros HR. apply (isa_bool root classes compare W d k r kr E ER) in HR. apply orb_false_iff in EB. destruct EB as [EB EB2]. apply orb_false_iff in EB. destruct EB as [EB _].
        rewrite EB, EB2 in HR. discriminate. }
      destruct (kind_of root classes u) as [[| |]|]; auto. destruct (71 <? _); auto.
  - rewrite (proj2 (N.eqb_neq d 0) NZ). rewrite (same_spec root classes compare W d k r E). destruct (d =? root r) eqn:ED.
    + apply N.eqb_eq in ED. assert (isa d r) as HR by (left; auto).
      destruct (as_pointer_ok (is_atom (v_target v) || is_atom (v_stg v)) v d k u Element r kr E HP NU HU ER HR) as (p & ->). auto.
    + apply N.eqb_neq in ED. intros [HR|HR]; [congruence|]. revert HR. apply (element_no_heirs d (root r) kr); auto. apply (class_nz root classes compare W _ _ ER).
Qed.
End As.

(* The evaluator's "as", for quarks and elements: it is true exactly if the object is of the class or inherits from it (or, if it is
   not, it may say that it does not know); then the block's variable has the class asked for, and still knows what it is. Missing:
   transients, where the answer is wrong (C77_as_transient_refuted). *)
Theorem C77_as_partial : forall root classes compare, wf root classes compare -> forall v d r kr, packBits root classes compare d <> None ->
  denotes root classes v d -> informed v -> classes (root r) = Some kr -> lc_kind kr <> Transient ->
  match eval_as root classes compare v r with
  | AsYes t e _ => is_a root classes d r /\ t = r /\ e = d
  | AsNo | AsUnevaluable => ~ is_a root classes d r
  | AsAssert => False
  end.
Proof. exact eval_as_ok. Qed.
Print Assumptions C77_as_partial.

(* A transient asked for its own class says no, where "is" says yes. *)
Theorem C77_as_transient_refuted : exists root classes compare v d kr, wf root classes compare /\ packBits root classes compare d <> None /\ denotes root classes v d /\ informed v /\
  classes (root d) = Some kr /\ is_a root classes d d /\ eval_is root classes compare v d = true /\ as_accepts (LClass (lc_kind kr) false) (lc_kind kr) = true /\
  eval_as root classes compare v d = AsNo.
Proof.
  exists ex_r, ex_classes, ex_c, {| v_target := OClass 5; v_eff := 5; v_pos := 25; v_stg := OClass 5; v_stgeff := 5 |}, 5. eexists.
  split; [exact ex_wf|]. split; [discriminate|]. split.
  { split; cbn; [eexists; reflexivity|auto| | |discriminate].
    - intros u H. injection H as <-. split; [discriminate|]. left. reflexivity.
    - discriminate. }
  split; [left; discriminate|]. split; [reflexivity|]. split; [left; reflexivity|]. repeat split; reflexivity.
Qed.
Print Assumptions C77_as_transient_refuted.

(* For a transient class it answers whether the class that the object is seen as is a subclass: right only if that is the object's
   own class and not the class asked for. *)
Theorem C77_as_transient_partial : forall root classes compare, wf root classes compare -> forall v d r kr, packBits root classes compare d <> None ->
  denotes root classes v d -> informed v -> classes (root r) = Some kr -> lc_kind kr = Transient -> v_target v = OClass d -> root r <> d ->
  match eval_as root classes compare v r with
  | AsYes t e _ => is_a root classes d r /\ t = r /\ e = d
  | AsNo => ~ is_a root classes d r
  | AsUnevaluable | AsAssert => False
  end.
Proof.
  intros root classes compare W v d r kr HP HD HI ER ET EV NE. unfold eval_as. rewrite (as_parts root classes compare W v d HD HI). destruct HD as [[k E] _ HT _ _].
  unfold kind_of at 1. rewrite ER. cbn [option_map]. rewrite ET, EV. cbn [is_atom orb]. replace (if is_atom (v_stg v) then OClass d else OClass d) with (OClass d) by (destruct (is_atom (v_stg v)); auto).
  destruct (isSubclass root classes compare d r) eqn:ES.
  - pose proof (proj1 (sub_class root classes compare W d k r kr E ER) ES) as HA. assert (is_a root classes d r) as HR by (right; auto).
    destruct (HT d EV) as [ND HDD]. destruct (as_pointer_ok root classes compare W (is_atom (v_stg v)) v d k d Transient r kr E HP ND HDD ER HR) as (p & ->). auto.
  - intros [HR|HR]; [auto|]. apply (sub_class root classes compare W d k r kr E ER) in HR. congruence.
Qed.
Print Assumptions C77_as_transient_partial.

(* Where the block's variable points: an object of class d that starts at p0, seen as its part u, is then seen as its part r. This
   holds if no atom is involved and r is no element; or for an atom as a whole; or for an element that was seen as itself. *)
Theorem C77_as_position_partial : forall root classes compare, wf root classes compare -> forall v d k r kr t e p p0 qr, classes d = Some k -> packBits root classes compare d <> None ->
  denotes root classes v d -> informed v -> classes (root r) = Some kr -> eval_as root classes compare v r = AsYes t e p ->
  relpos root classes compare d r = Some qr ->
  (forall u qu, v_target v = OClass u -> v_stg v <> OAtom -> lc_kind kr <> Element -> relpos root classes compare d u = Some qu -> v_pos v = p0 + qu -> p = Z.of_N (p0 + qr)) /\
  (v_target v = OAtom -> v_pos v = 0 -> p = Z.of_N (25 + qr)) /\
  (v_target v = OClass d -> v_stg v <> OAtom -> v_pos v = p0 -> p = Z.of_N (p0 + qr)).
Proof.
  intros root classes compare W v d k r kr t e p p0 qr E HP HD HI ER HY EQ. unfold eval_as in HY. rewrite (as_parts root classes compare W v d HD HI) in HY. destruct HD as [_ _ HT _ _].
  pose proof (class_nz root classes compare W d k E) as NZ. unfold kind_of at 1 in HY. rewrite ER in HY. cbn [option_map] in HY.
  assert (r <> 0) as NR by (intros ->; rewrite (proj2 (wf_zero _ _ _ W 0) eq_refl), (wf_nouti _ _ _ W) in ER; discriminate).
  pose proof (proj2 (N.eqb_neq d 0) NZ) as ND.
  assert (relpos root classes compare d d = Some 0) as EDD by (unfold relpos; rewrite (root_class root classes compare W d k E); apply (C37_own_position root classes compare W d k E)).
  assert (isSubclass root classes compare d d = false) as ESD.
  { destruct (isSubclass root classes compare d d) eqn:ES; auto. exfalso. assert (classes (root d) = Some k) as ED by (rewrite (root_class root classes compare W d k E); auto).
    apply (sub_class root classes compare W d k d k E ED) in ES. rewrite (root_class root classes compare W d k E) in ES. apply (W_acyclic root classes compare W d ES). }
  (* the relative positions *)
  assert (forall la u rk qu, rk <> Element \/ root r = d /\ u = d -> u <> 0 -> is_a root classes d u -> relpos root classes compare d u = Some qu -> is_a root classes d r ->
    as_pointer root classes compare la v u d rk r = AsYes t e p -> p = (Z.of_N (v_pos v) + Z.of_N qr - Z.of_N qu + (if la && (v_pos v =? 0)%N then 25 else 0))%Z) as HPt.
  { intros la u rk qu HK NU HU EQu HR. unfold as_pointer. destruct (target_class root classes compare W d k u E NU HU) as (ku & EU).
    assert ((if isSubclass root classes compare d r then relpos root classes compare d r else Some 0) = Some qr) as H1.
    { destruct (isSubclass root classes compare d r) eqn:ES; auto. destruct HR as [HR|HR].
      - unfold relpos in EQ. rewrite HR, (root_class root classes compare W d k E), (C37_own_position root classes compare W d k E) in EQ. auto.
      - apply (sub_class root classes compare W d k r kr E ER) in HR. congruence. }
    assert ((if isSubclass root classes compare d u then relpos root classes compare d u else Some 0) = Some qu) as H2.
    { destruct (isSubclass root classes compare d u) eqn:ES; auto. destruct HU as [HU|HU].
      - unfold relpos in EQu. rewrite HU, (root_class root classes compare W d k E), (C37_own_position root classes compare W d k E) in EQu. auto.
      - apply (sub_class root classes compare W d k u ku E EU) in HU. congruence. }
    destruct rk; cbv zeta; rewrite ?ND, ?H1, ?H2; intros HYY; injection HYY as _ _ HYY; try lia.
    destruct HK as [HK|[HK1 HK2]]; [congruence|]. subst u. rewrite EDD in EQu. injection EQu as <-. unfold relpos in EQ. rewrite HK1, (root_class root classes compare W d k E), (C37_own_position root classes compare W d k E) in EQ. injection EQ as <-. lia. }
  (* the decision *)
  assert (forall la u qu, u <> 0 -> is_a root classes d u -> relpos root classes compare d u = Some qu -> lc_kind kr <> Element \/ u = d ->
    match lc_kind kr with
    | Quark => if negb (d =? 0) && isSame compare d r || isSubclass root classes compare u r || negb (d =? 0) && isSubclass root classes compare d r then as_pointer root classes compare la v u d Quark r
               else match kind_of root classes u with Some Transient => if 71 <? totalbits root classes (root u) then AsUnevaluable else AsNo | _ => AsNo end
    | Element => if isSame compare (if d =? 0 then u else d) r then as_pointer root classes compare la v u (if d =? 0 then u else d) Element r else AsNo
    | Transient => if isSubclass root classes compare u r then as_pointer root classes compare la v u d Transient r else AsNo
    end = AsYes t e p -> p = (Z.of_N (v_pos v) + Z.of_N qr - Z.of_N qu + (if la && (v_pos v =? 0)%N then 25 else 0))%Z) as HDec.
  { intros la u qu NU HU EQu HK HYY. destruct (target_class root classes compare W d k u E NU HU) as (ku & EU). rewrite ND in HYY. cbn [negb andb] in HYY.
    assert (isSubclass root classes compare u r = true -> is_a root classes d r) as HS.
    { intros ES. apply (isa_trans root classes d k u r E NU HU). right. apply (sub_target root classes compare W u ku r kr EU ER). auto. }
    destruct (lc_kind kr) eqn:EK.
    - destruct (isSame compare d r || isSubclass root classes compare u r || isSubclass root classes compare d r) eqn:EB.
      + apply (HPt la u Quark qu); auto; [left; discriminate|]. apply orb_true_iff in EB. destruct EB as [EB|EB]; [apply orb_true_iff in EB; destruct EB as [EB|EB]; auto|];
        apply (isa_bool root classes compare W d k r kr E ER); rewrite EB; auto using orb_true_r.
      + destruct (kind_of root classes u) as [[| |]|]; try discriminate. destruct (71 <? _); discriminate.
    - destruct (isSame compare d r) eqn:ES; [|discriminate]. rewrite (same_spec root classes compare W d k r E) in ES. apply N.eqb_eq in ES. destruct HK as [HK|HK]; [congruence|].
      apply (HPt la u Element qu); auto. left. auto.
    - destruct (isSubclass root classes compare u r) eqn:ES; [|discriminate]. apply (HPt la u Transient qu); auto. left. discriminate. }
  split; [|split].
  - intros u qu EV EG NK EQu EPs. rewrite EV in HY. destruct (v_stg v) as [|s] eqn:ES; [congruence|]. cbn [is_atom orb] in HY. destruct (HT u EV) as [NU HU].
    assert (p = (Z.of_N (v_pos v) + Z.of_N qr - Z.of_N qu + (if false && (v_pos v =? 0)%N then 25 else 0))%Z) as ->; [|cbn [andb]; lia].
    apply (HDec false u qu); auto. 
  - intros EV EPs. rewrite EV in HY. cbn [is_atom orb] in HY.
    assert (p = (Z.of_N (v_pos v) + Z.of_N qr - Z.of_N 0 + (if true && (v_pos v =? 0)%N then 25 else 0))%Z) as ->; [|rewrite EPs; cbn [andb N.eqb]; lia].
    apply (HDec true d 0); auto. left. apply (root_class root classes compare W d k E).
  - intros EV EG EPs. rewrite EV in HY. destruct (v_stg v) as [|s] eqn:ES; [congruence|]. cbn [is_atom orb] in HY.
    assert (p = (Z.of_N (v_pos v) + Z.of_N qr - Z.of_N 0 + (if false && (v_pos v =? 0)%N then 25 else 0))%Z) as ->; [|cbn [andb]; lia].
    apply (HDec false d 0); auto. left. apply (root_class root classes compare W d k E).
Qed.
Print Assumptions C77_as_position_partial.

(* An element (6) with bits of its own and two bases (1 and 2). *)
Definition isas_classes (x : N) : option lclass :=
  if x =? 1 then Some {| lc_kind := Quark; lc_union := false; lc_members := [ex_m 3; ex_m 4]; lc_bases := [0] |}
  else if x =? 2 then Some {| lc_kind := Quark; lc_union := false; lc_members := [ex_m 5]; lc_bases := [0] |}
  else if x =? 3 then Some {| lc_kind := Quark; lc_union := false; lc_members := []; lc_bases := [2] |}
  else if x =? 6 then Some {| lc_kind := Element; lc_union := false; lc_members := [ex_m 4]; lc_bases := [1; 3] |}
  else if x =? 7 then Some {| lc_kind := Transient; lc_union := false; lc_members := [ex_m 4]; lc_bases := [3] |}
  else if x =? 8 then Some {| lc_kind := Transient; lc_union := false; lc_members := [ex_m 9]; lc_bases := [7; 1] |}
  else None.
Lemma isas_cases x k : isas_classes x = Some k -> In x [1; 2; 3; 6; 7; 8].
Proof. unfold isas_classes. intros H. repeat match type of H with context [x =? ?n] => destruct (x =? n) eqn:?; [cbn; lia|] end. discriminate. Qed.
Definition isas_rank (x : N) : N := match x with 0 => 0 | 1 => 1 | 2 => 1 | 3 => 2 | 7 => 3 | _ => 4 end.
Lemma isas_edge_rank x y : edge ex_r (lbases isas_classes) x y -> isas_rank y < isas_rank x.
Proof.
  intros (bs & b & EB & HB & <-). unfold lbases in EB. destruct (isas_classes x) as [k|] eqn:EK; [|discriminate]. cbn [option_map] in EB. injection EB as <-. pose proof (isas_cases x k EK) as HX.
  ex_split HX; subst x; vm_compute in EK; injection EK as <-; cbn [lc_bases] in HB; ex_split HB; subst b; vm_compute; reflexivity.
Qed.
Lemma isas_wf : wf ex_r isas_classes ex_c.
Proof.
  split.
  - intros x. unfold ex_r. destruct (x <? 65536) eqn:E; lia.
  - intros x. unfold ex_r. destruct (x <? 65536) eqn:E; lia.
  - reflexivity.
  - intros x k E. pose proof (isas_cases x k E) as HX. ex_split HX; subst x; reflexivity.
  - intros x k y E. unfold ex_c. auto.
  - intros x k b E HI NZ. pose proof (isas_cases x k E) as HX. ex_split HX; subst x; vm_compute in E; injection E as <-; cbn [lc_bases] in HI; ex_split HI; subst b; try congruence; (eexists; split; [reflexivity|discriminate]).
  - intros x k m E HI HE. pose proof (isas_cases x k E) as HX. ex_split HX; subst x; vm_compute in E; injection E as <-; cbn [lc_members] in HI; ex_split HI; subst m; try discriminate; auto.
  - intros x HA. assert (forall x y, reach ex_r (lbases isas_classes) x y -> isas_rank y <= isas_rank x) as HR.
    { induction 1 as [z|z w v HE HR IH]; [apply N.le_refl|]. apply isas_edge_rank in HE. eapply N.le_trans; [exact IH|]. apply N.lt_le_incl. exact HE. }
    destruct HA as (y & HE & HRe). apply isas_edge_rank in HE. apply HR in HRe. eapply N.lt_irrefl. eapply N.lt_le_trans; [exact HE|exact HRe].
Qed.
Lemma isas_bases_ok : bases_ok isas_classes.
Proof.
  intros x k b kb E HI EB. pose proof (isas_cases x k E) as HX. ex_split HX; subst x; vm_compute in E; injection E as <-; cbn [lc_bases] in HI; ex_split HI; subst b; vm_compute in EB; try discriminate; injection EB as <-; auto.
Qed.
Definition atom_of_6 : view := {| v_target := OAtom; v_eff := 0; v_pos := 0; v_stg := OAtom; v_stgeff := 6 |}.
Lemma isas_anc a b : edge ex_r (lbases isas_classes) a b -> ancestor ex_r (lbases isas_classes) a b.
Proof. intros H. exists b. split; auto. constructor. Qed.
Lemma isas_6_1 : edge ex_r (lbases isas_classes) 6 1.
Proof. exists [1; 3], 1. repeat split; cbn; auto. Qed.
Lemma isas_6_3 : edge ex_r (lbases isas_classes) 6 3.
Proof. exists [1; 3], 3. repeat split; cbn; auto. Qed.
Lemma isas_3_2 : edge ex_r (lbases isas_classes) 3 2.
Proof. exists [2], 2. repeat split; cbn; auto. Qed.
Lemma atom_of_6_ok : denotes ex_r isas_classes atom_of_6 6.
Proof. split; cbn; [eexists; reflexivity|auto|discriminate|discriminate|auto]. Qed.

(* Two conditions inside each other, "a as 1" and in its block "a as 2", on an atom: the second variable points at bit 40, where the
   quark 2's part of the element starts at bit 25 + 11. And an element seen as its base 1, "q as 6": the variable points at bit
   29, where the element's state starts at bit 25. *)
Theorem C77_as_position_refuted : exists root classes compare p1 v2 v3 p2 p3, wf root classes compare /\ packBits root classes compare 6 <> None /\
  denotes root classes atom_of_6 6 /\ eval_as root classes compare atom_of_6 1 = AsYes 1 6 p1 /\
  v2 = {| v_target := OClass 1; v_eff := 6; v_pos := Z.to_N p1; v_stg := OAtom; v_stgeff := 6 |} /\ denotes root classes v2 6 /\
  eval_as root classes compare v2 2 = AsYes 2 6 p2 /\ relpos root classes compare 6 2 = Some 11 /\ p2 <> 36%Z /\
  v3 = {| v_target := OClass 1; v_eff := 6; v_pos := Z.to_N p1; v_stg := OClass 6; v_stgeff := 6 |} /\ denotes root classes v3 6 /\
  eval_as root classes compare v3 6 = AsYes 6 6 p3 /\ relpos root classes compare 6 6 = Some 0 /\ p3 <> 25%Z.
Proof.
  exists ex_r, isas_classes, ex_c, 29%Z. do 2 eexists. exists 40%Z, 29%Z.
  assert (forall s, denotes ex_r isas_classes {| v_target := OClass 1; v_eff := 6; v_pos := 29; v_stg := s; v_stgeff := 6 |} 6) as HD.
  { intros s. split; cbn; [eexists; reflexivity|auto| |discriminate|discriminate]. intros u HU. injection HU as <-. split; [discriminate|]. right. apply isas_anc, isas_6_1. }
  split; [exact isas_wf|]. split; [discriminate|]. split; [exact atom_of_6_ok|]. split; [reflexivity|]. split; [reflexivity|]. split; [apply HD|].
  split; [reflexivity|]. split; [reflexivity|]. split; [discriminate|]. split; [reflexivity|]. split; [apply HD|]. split; [reflexivity|]. split; [reflexivity|discriminate].
Qed.
Print Assumptions C77_as_position_refuted.

Example C77_ex : denotes ex_r isas_classes atom_of_6 6 /\ informed atom_of_6 /\ map (eval_is ex_r isas_classes ex_c atom_of_6) [1; 2; 3; 6; 7; 8] = [true; true; true; true; false; false] /\
  map (eval_as ex_r isas_classes ex_c atom_of_6) [1; 2; 3; 6] = [AsYes 1 6 29; AsYes 2 6 36; AsYes 3 6 36; AsYes 6 6 25] /\
  (let t := {| v_target := OClass 8; v_eff := 8; v_pos := 25; v_stg := OClass 8; v_stgeff := 8 |} in
   map (eval_is ex_r isas_classes ex_c t) [1; 2; 3; 6; 7; 8] = [true; true; true; false; true; true] /\ eval_as ex_r isas_classes ex_c t 7 = AsYes 7 8 34 /\ eval_as ex_r isas_classes ex_c t 6 = AsNo).
Proof. split; [exact atom_of_6_ok|]. split; [right; left; reflexivity|]. vm_compute. repeat split. Qed.

(* Every combination of types that "as" refuses could never be true. *)
Lemma kinds_above root classes compare : wf root classes compare -> bases_ok classes -> forall x k y, classes x = Some k -> y <> 0 -> ancestor root (lbases classes) x y ->
  exists ky, classes y = Some ky /\ (lc_kind ky = Quark \/ (lc_kind ky = Transient /\ lc_kind k = Transient)).
Proof.
  intros W HB x k y E NZ (z & HE & HR). revert k x E HE. induction HR as [z|z w y HE' HR IH]; intros k x E HE.
  - destruct (edge_class root classes compare W x z HE NZ) as (kx & kz & EX & HI & EZ & _). assert (kx = k) by congruence. subst kx. exists kz. split; auto. apply (HB x k z kz); auto.
  - destruct (N.eq_dec z 0) as [->|NZz]; [destruct HE' as (bs & b & EB & _); unfold lbases in EB; rewrite (wf_nouti _ _ _ W) in EB; discriminate|].
    destruct (edge_class root classes compare W x z HE NZz) as (kx & kz & EX & HI & EZ & _). assert (kx = k) by congruence. subst kx.
    destruct (IH NZ kz z EZ HE') as (ky & EY & HK). exists ky. split; auto. destruct HK as [HK|[HK1 HK2]]; auto. right. split; auto.
    destruct (HB x k z kz E HI EZ) as [HK|[_ HK]]; [congruence|auto].
Qed.
Theorem C77_as_refusal : forall root classes compare, wf root classes compare -> bases_ok classes -> forall l d r kr, can_denote root classes l d -> classes (root r) = Some kr ->
  as_accepts l (lc_kind kr) = false -> ~ is_a root classes d r.
Proof.
  intros root classes compare W HB l d r kr HC ER HN HI. pose proof (class_nz root classes compare W _ _ ER) as NR.
  assert (forall k, classes d = Some k -> lc_kind kr = lc_kind k \/ lc_kind kr = Quark) as HK.
  { intros k E. destruct HI as [HI|HI]; [left; congruence|]. destruct (kinds_above root classes compare W HB d k (root r) E NR HI) as (ky & EY & HK). assert (ky = kr) by congruence. subst ky. destruct HK as [->|[-> ->]]; auto. }
  destruct HC as [d k E EK|d k E|s d k kd ES E HS].
  - destruct (HK k E) as [H|H]; rewrite H in HN; [rewrite EK in HN|]; discriminate.
  - destruct (HK k E) as [H|H]; rewrite H in HN; destruct (lc_kind k); discriminate.
  - assert (lc_kind k = lc_kind kd \/ lc_kind k = Quark) as HSK.
    { pose proof (wf_root _ _ _ W s k ES) as HRs. destruct HS as [HS|HS]; [left; congruence|]. rewrite HRs in HS. destruct (kinds_above root classes compare W HB d kd s E (class_nz root classes compare W _ _ ES) HS) as (ky & EY & HKy). assert (ky = k) by congruence. subst ky. destruct HKy as [->|[-> ->]]; auto. }
    destruct (HK kd E) as [H|H]; rewrite H in HN; destruct HSK as [HSK|HSK]; rewrite HSK in HN; cbn in HN; try (destruct (lc_kind kd)); discriminate.
Qed.
Print Assumptions C77_as_refusal.
(* .. and no more is accepted than can happen: for each accepted pair of kinds there is an object that is both *)
Theorem C77_as_acceptance : forall l rk, as_accepts l rk = true -> exists root classes compare d r kr, wf root classes compare /\ bases_ok classes /\
  can_denote root classes l d /\ classes (root r) = Some kr /\ lc_kind kr = rk /\ is_a root classes d r.
Proof.
  assert (forall l rk d r kr, can_denote ex_r isas_classes l d -> isas_classes (ex_r r) = Some kr -> lc_kind kr = rk -> is_a ex_r isas_classes d r ->
    exists root classes compare d r kr, wf root classes compare /\ bases_ok classes /\ can_denote root classes l d /\ classes (root r) = Some kr /\ lc_kind kr = rk /\ is_a root classes d r) as K.
  { intros l rk d r kr A B C D. exists ex_r, isas_classes, ex_c, d, r, kr. pose proof isas_wf. pose proof isas_bases_ok. auto 10. }
  assert (is_a ex_r isas_classes 6 1) as I61 by (right; apply isas_anc, isas_6_1).
  assert (is_a ex_r isas_classes 7 3) as I73 by (right; apply isas_anc; exists [3], 3; repeat split; cbn; auto).
  assert (forall c, ex_r c = c -> is_a ex_r isas_classes c c) as I by (intros c E; left; exact E).
  assert (can_denote ex_r isas_classes LAtom 6) as CA by (eapply cd_atom; reflexivity).
  assert (forall c d k kd, isas_classes c = Some k -> isas_classes d = Some kd -> is_a ex_r isas_classes d c -> can_denote ex_r isas_classes (LClass (lc_kind k) true) d) as CR by (intros; eapply cd_ref; eauto).
  assert (forall d k, isas_classes d = Some k -> can_denote ex_r isas_classes (LClass (lc_kind k) false) d) as CC by (intros; eapply cd_class; eauto).
  pose proof (CR 1 1 _ _ eq_refl eq_refl (I 1 eq_refl)) as R11. pose proof (CR 1 6 _ _ eq_refl eq_refl I61) as R16. pose proof (CR 3 7 _ _ eq_refl eq_refl I73) as R37.
  pose proof (CR 6 6 _ _ eq_refl eq_refl (I 6 eq_refl)) as R66. pose proof (CR 7 7 _ _ eq_refl eq_refl (I 7 eq_refl)) as R77.
  pose proof (CC 1 _ eq_refl) as C1. pose proof (CC 6 _ eq_refl) as C6. pose proof (CC 7 _ eq_refl) as C7. cbn [lc_kind] in *.
  intros [|[| |] [|]] [| |] HA; try discriminate HA; clear HA.
  - eapply (K _ _ 6 1 _ CA); [reflexivity|reflexivity|exact I61].
  - eapply (K _ _ 6 6 _ CA); [reflexivity|reflexivity|exact (I 6 eq_refl)].
  - eapply (K _ _ 1 1 _ R11); [reflexivity|reflexivity|exact (I 1 eq_refl)].
  - eapply (K _ _ 6 6 _ R16); [reflexivity|reflexivity|exact (I 6 eq_refl)].
  - eapply (K _ _ 7 7 _ R37); [reflexivity|reflexivity|exact (I 7 eq_refl)].
  - eapply (K _ _ 1 1 _ C1); [reflexivity|reflexivity|exact (I 1 eq_refl)].
  - eapply (K _ _ 6 1 _ R66); [reflexivity|reflexivity|exact I61].
  - eapply (K _ _ 6 6 _ R66); [reflexivity|reflexivity|exact (I 6 eq_refl)].
  - eapply (K _ _ 6 1 _ C6); [reflexivity|reflexivity|exact I61].
  - eapply (K _ _ 6 6 _ C6); [reflexivity|reflexivity|exact (I 6 eq_refl)].
  - eapply (K _ _ 7 3 _ R77); [reflexivity|reflexivity|exact I73].
  - eapply (K _ _ 7 7 _ R77); [reflexivity|reflexivity|exact (I 7 eq_refl)].
  - eapply (K _ _ 7 3 _ C7); [reflexivity|reflexivity|exact I73].
  - eapply (K _ _ 7 7 _ C7); [reflexivity|reflexivity|exact (I 7 eq_refl)].
Qed.
Print Assumptions C77_as_acceptance.
Example C77_as_refusal_ex : bases_ok isas_classes /\ can_denote ex_r isas_classes (LClass Transient true) 8 /\ as_accepts (LClass Transient true) Element = false /\ as_accepts (LClass Quark true) Element = true.
Proof.
  split; [exact isas_bases_ok|]. split; [|auto]. change Transient with (lc_kind {| lc_kind := Transient; lc_union := false; lc_members := [ex_m 4]; lc_bases := [3] |}).
  apply (cd_ref ex_r isas_classes 7 8 _ _ eq_refl eq_refl). right. apply isas_anc. exists [7; 1], 7. repeat split; cbn; auto.
Qed.

(* ---- the generated code ---- *)
Definition distinct_numbers (classes : N -> option lclass) (reg : N -> N) : Prop := forall c c', classes c <> None -> classes c' <> None -> reg c = reg c' -> c = c'.

Lemma switch_at (l : list N) (f : N -> option N) reg rn x : In x l -> reg x = rn -> (forall y, In y l -> reg y = rn -> y = x) -> switch (map (fun b => (reg b, f b)) l) rn = match f x with Some q => Z.of_N q | None => (-1)%Z end.
Proof.
  induction l as [|b l IH]; intros HI HX HU; [destruct HI|]. cbn [map switch]. destruct (reg b =? rn) eqn:E.
  - apply N.eqb_eq in E. rewrite (HU b (or_introl eq_refl) E). auto.
  - destruct HI as [->|HI]; [apply N.eqb_neq in E; congruence|]. apply IH; auto. intros y HY. apply HU. right. auto.
Qed.
Lemma switch_out (l : list N) (f : N -> option N) reg rn : (forall y, In y l -> reg y <> rn) -> switch (map (fun b => (reg b, f b)) l) rn = (-999999)%Z.
Proof.
  induction l as [|b l IH]; intros HU; auto. cbn [map switch]. rewrite (proj2 (N.eqb_neq _ _) (HU b (or_introl eq_refl))). apply IH. intros y HY. apply HU. right. auto.
Qed.

Lemma switch_cons k p rest rn : switch ((k, p) :: rest) rn = if k =? rn then match p with Some q => Z.of_N q | None => (-1)%Z end else switch rest rn.
Proof. reflexivity. Qed.
Lemma switch_own root classes compare reg d : GetRelPos root classes compare reg d (reg d) = 0%Z.
Proof. unfold GetRelPos, relpos_cases. rewrite switch_cons, N.eqb_refl. reflexivity. Qed.
Lemma switch_other root classes compare reg d n : reg d <> n ->
  GetRelPos root classes compare reg d n = switch (map (fun b => (reg b, getASharedBaseClassRelativePositionInAClass root classes compare d b)) (filter (fun b => negb (b =? 0)) (sharedTable root classes compare d))) n.
Proof. intros H. unfold GetRelPos, relpos_cases. rewrite switch_cons, (proj2 (N.eqb_neq _ _) H). reflexivity. Qed.

(* GetRelPos gives the position in the layout (C37) of a class's own and its ancestors' parts, and a negative number for all others *)
Theorem C77_getrelpos : forall root classes compare reg, wf root classes compare -> distinct_numbers classes reg -> forall d k r kr, classes d = Some k -> classes r = Some kr ->
  packBits root classes compare d <> None ->
  (is_a root classes d r -> exists q, getABaseClassRelativePositionInAClass root classes compare d r = Some q /\ GetRelPos root classes compare reg d (reg r) = Z.of_N q) /\
  (~ is_a root classes d r -> (GetRelPos root classes compare reg d (reg r) < 0)%Z).
Proof.
  intros root classes compare reg W HDN d k r kr E ER HP. pose proof (wf_root _ _ _ W d k E) as RD. pose proof (wf_root _ _ _ W r kr ER) as RR.
  assert (forall y, In y (filter (fun b => negb (b =? 0)) (sharedTable root classes compare d)) -> reg y = reg r -> y = r) as HU.
  { intros y HY EY. apply (table_in root classes compare W d k y E) in HY. destruct HY as [NY HY]. destruct (ancestor_class root classes compare W d y HY NY) as (ky & EKy & _). apply HDN; [congruence|congruence|exact EY]. }
  destruct (N.eq_dec d r) as [<-|ND].
  - split.
    + intros _. exists 0. split; [|apply switch_own]. apply (C37_own_position root classes compare W d k E).
    + intros HN. exfalso. apply HN. left. exact RD.
  - assert (reg d <> reg r) as NE by (intros EQ; apply ND, HDN; congruence). split.
    + intros [HR|HR]; [congruence|]. rewrite RR in HR. pose proof (class_nz root classes compare W _ _ ER) as NR.
      destruct (packBits root classes compare d) as [p|] eqn:EP; [|congruence].
      destruct (both_positions root classes compare W d k p r E EP NR HR) as (q & H1 & H2). exists q. split; [exact H1|].
      rewrite (switch_other root classes compare reg d (reg r) NE).
      rewrite (switch_at _ (getASharedBaseClassRelativePositionInAClass root classes compare d) reg (reg r) r); [rewrite H2; reflexivity| |reflexivity|exact HU].
      apply (table_in root classes compare W d k r E). split; assumption.
    + intros HN. rewrite (switch_other root classes compare reg d (reg r) NE), switch_out; [reflexivity|]. intros y HY EY. pose proof (HU y HY EY). subst y. apply (table_in root classes compare W d k r E) in HY. apply HN. right. rewrite RR. apply HY.
Qed.
Print Assumptions C77_getrelpos.

(* The generated tests of a class variable, of a reference and of an atom that is asked for an element are right, and agree with the
   evaluator. *)
Definition of_object (root : N -> N) (classes : N -> option lclass) (h : lefthand) (d : N) : Prop :=
  match h with HClass c => root c = d | HRef s eff => eff = d | HAtom e => e = d end.
Theorem C77_generated : forall root classes compare reg, wf root classes compare -> distinct_numbers classes reg -> forall h d k r kr b, classes d = Some k -> classes r = Some kr ->
  packBits root classes compare d <> None -> of_object root classes h d -> gen_is root classes compare reg h r = Some b -> gen_as root classes compare reg h r = Some b /\ (b = true <-> is_a root classes d r).
Proof.
  intros root classes compare reg W HDN h d k r kr b E ER HP HO HG. split; auto.
  destruct (C77_getrelpos root classes compare reg W HDN d k r kr E ER HP) as [H1 H2].
  assert (IsMethod root classes compare reg d (reg r) = true <-> is_a root classes d r) as HM.
  { unfold IsMethod. split.
    - intros HL. destruct (isSame compare d r || isSubclass root classes compare d r) eqn:EB.
      + apply (isa_bool root classes compare W d k r kr E); auto. rewrite (wf_root _ _ _ W r kr ER). auto.
      + exfalso. assert (~ is_a root classes d r) as HN. { intros HI. apply (isa_bool root classes compare W d k r kr E) in HI; [congruence|]. rewrite (wf_root _ _ _ W r kr ER). auto. } specialize (H2 HN). lia.
    - intros HI. destruct (H1 HI) as (q & _ & ->). lia. }
  destruct h as [c|s eff|e]; cbn [gen_is of_object] in HG, HO.
  - injection HG as <-. rewrite HO. exact HM.
  - injection HG as <-. rewrite HO. exact HM.
  - subst e. unfold kind_of in HG. rewrite (wf_root _ _ _ W r kr ER), ER in HG. cbn [option_map] in HG. destruct (lc_kind kr) eqn:EK; try discriminate. injection HG as <-.
    unfold IsMethodAtom. rewrite N.eqb_eq. unfold is_a. rewrite (wf_root _ _ _ W r kr ER). split; auto. intros [HI|HI]; auto.
    exfalso. revert HI. apply (element_no_heirs root classes compare W d r kr); auto. apply (class_nz root classes compare W _ _ ER).
Qed.
Print Assumptions C77_generated.
Theorem C77_agree : forall root classes compare reg, wf root classes compare -> distinct_numbers classes reg -> forall v h d k r kr b, classes d = Some k -> classes r = Some kr ->
  packBits root classes compare d <> None -> denotes root classes v d -> of_object root classes h d -> gen_is root classes compare reg h r = Some b -> eval_is root classes compare v r = b.
Proof.
  intros root classes compare reg W HDN v h d k r kr b E ER HP HV HO HG. destruct (C77_generated root classes compare reg W HDN h d k r kr b E ER HP HO HG) as [_ HB].
  assert (classes (root r) = Some kr) as ER' by (rewrite (wf_root _ _ _ W r kr ER); auto). pose proof (C77_is root classes compare W v d r kr HV ER') as HI.
  destruct b, (eval_is root classes compare v r); auto; [apply HI, HB|symmetry; apply HB, HI]; auto.
Qed.
Print Assumptions C77_agree.
Example C77_generated_ex : distinct_numbers isas_classes (fun c => c) /\ gen_is ex_r isas_classes ex_c (fun c => c) (HAtom 6) 6 = Some true /\
  map (gen_is ex_r isas_classes ex_c (fun c => c) (HRef 1 6)) [1; 2; 3; 6; 7; 8] = map Some [true; true; true; true; false; false] /\
  map (GetRelPos ex_r isas_classes ex_c (fun c => c) 8) [1; 2; 3; 6; 7; 8] = [13; 20; 25; -999999; 9; 0]%Z.
Proof. split; [intros c c' _ _ H; exact H|]. vm_compute. repeat split. Qed.

(* ---- C78 ---- *)
(* Whatever classes ask for their numbers, in whatever order and how often, incomplete or not: two classes never get the same
   number, each number is below 1000, the table leads from the number back to its class, and only UrSelf has number 0. *)
Definition reg_inv (urself : N) (g : registry) : Prop :=
  rg_table g <> [] /\ (forall c n, rg_number g c = Some n -> nth_error (rg_table g) (N.to_nat n) = Some c /\ n < MAX_REGISTRY_NUMBER /\ (n = 0 <-> c = urself)).
Lemma reg_step urself complete g c g' o : reg_inv urself g -> getRegistryNumber urself complete g c = Some (g', o) ->
  reg_inv urself g' /\ rg_number g' c = o /\ (forall x n, rg_number g x = Some n -> rg_number g' x = Some n).
Proof.
  intros [NT HI] HG. unfold getRegistryNumber in HG. destruct (rg_number g c) as [n|] eqn:EN.
  - injection HG as <- <-. split; [split; auto|]. split; auto.
  - destruct (complete c); [|injection HG as <- <-; split; [split; auto|split; auto]].
    destruct (assignClassId urself g c) as [[t n]|] eqn:EA; [|discriminate]. destruct (n <? MAX_REGISTRY_NUMBER) eqn:EM; [|discriminate]. injection HG as <- <-.
    assert (forall x m, (if x =? c then Some n else rg_number g x) = Some m -> (x = c /\ m = n) \/ (x <> c /\ rg_number g x = Some m)) as HX.
    { intros x m. destruct (x =? c) eqn:E; [apply N.eqb_eq in E; intros H; injection H as <-; auto|apply N.eqb_neq in E; auto]. }
    unfold reg_inv. cbn [rg_table rg_number]. unfold assignClassId in EA. split; [|split].
    + destruct (c =? urself) eqn:EU.
      * apply N.eqb_eq in EU. subst urself. injection EA as <- <-. destruct (rg_table g) as [|x0 tl] eqn:ET; [congruence|]. split; [discriminate|].
        intros x m HM. destruct (HX x m HM) as [[-> ->]|[NE HM']]; [repeat split; auto; reflexivity|]. destruct (HI x m HM') as (H1 & H2 & H3). split; [|auto].
        destruct (N.to_nat m) as [|j] eqn:EJ; [exfalso; apply NE, H3; lia|]. exact H1.
      * apply N.eqb_neq in EU. destruct (N.of_nat (List.length (rg_table g)) <? MAX_REGISTRY_NUMBER) eqn:EL; [|discriminate]. injection EA as <- <-. split; [destruct (rg_table g); discriminate|].
        intros x m HM. destruct (HX x m HM) as [[-> ->]|[NE HM']].
        -- split; [rewrite Nat2N.id, nth_error_app2 by lia; rewrite Nat.sub_diag; reflexivity|]. split; [lia|]. split; [|congruence]. destruct (rg_table g); [congruence|cbn [List.length]; lia].
        -- destruct (HI x m HM') as (H1 & H2 & H3). split; [|auto]. rewrite nth_error_app1; auto. apply nth_error_Some. congruence.
    + rewrite N.eqb_refl. auto.
    + intros x m HM. destruct (x =? c) eqn:E; auto. apply N.eqb_eq in E. subst x. congruence.
Qed.
Lemma reg_requests urself cs : forall g g', reg_inv urself g -> requests urself cs g = Some g' -> reg_inv urself g' /\ (forall x n, rg_number g x = Some n -> rg_number g' x = Some n).
Proof.
  induction cs as [|[c comp] cs IH]; intros g g' HI HR; cbn [requests] in HR; [injection HR as <-; auto|].
  destruct (getRegistryNumber urself comp g c) as [[g1 o]|] eqn:EG; [|discriminate]. destruct (reg_step _ _ _ _ _ _ HI EG) as (H1 & _ & H2).
  destruct (IH g1 g' H1 HR) as [H3 H4]. split; auto.
Qed.
Lemma reg_inv0 urself : reg_inv urself registry0.
Proof. split; [discriminate|]. intros c n H. discriminate. Qed.
Theorem C78_numbers : forall urself cs g, requests urself cs registry0 = Some g ->
  (forall c c' n, rg_number g c = Some n -> rg_number g c' = Some n -> c = c') /\
  (forall c n, rg_number g c = Some n -> nth_error (rg_table g) (N.to_nat n) = Some c /\ n < 1000 /\ (n = 0 <-> c = urself)).
Proof.
  intros urself cs g HR. destruct (reg_requests urself cs _ _ (reg_inv0 urself) HR) as [[_ HI] _]. split; [|intros c n H; apply (HI c n H)].
  intros c c' n H1 H2. destruct (HI c n H1) as [E1 _]. destruct (HI c' n H2) as [E2 _]. congruence.
Qed.
Print Assumptions C78_numbers.
(* A number once given stays; a complete class that asks has one from then on. *)
Theorem C78_stable : forall urself cs cs' g g' c n, requests urself cs registry0 = Some g -> requests urself cs' g = Some g' -> rg_number g c = Some n -> rg_number g' c = Some n.
Proof.
  intros urself cs cs' g g' c n H1 H2. destruct (reg_requests urself cs _ _ (reg_inv0 urself) H1) as [HI _]. destruct (reg_requests urself cs' _ _ HI H2) as [_ HS]. apply HS.
Qed.
Print Assumptions C78_stable.
Theorem C78_given : forall urself complete g c g' o, getRegistryNumber urself complete g c = Some (g', o) -> complete c = true -> exists n, o = Some n /\ rg_number g' c = Some n.
Proof.
  intros urself complete g c g' o HG HC. unfold getRegistryNumber in HG. rewrite HC in HG. destruct (rg_number g c) as [n|] eqn:EN; [injection HG as <- <-; eauto|].
  destruct (assignClassId urself g c) as [[t n]|]; [|discriminate]. destruct (n <? MAX_REGISTRY_NUMBER); [|discriminate]. injection HG as <- <-. exists n. cbn [rg_number]. rewrite N.eqb_refl. auto.
Qed.
Print Assumptions C78_given.
(* The numbers serve as the numbers of C77. *)
Theorem C78_serve : forall urself cs g classes reg, requests urself cs registry0 = Some g -> (forall c, classes c <> None -> rg_number g c = Some (reg c)) -> distinct_numbers classes reg.
Proof.
  intros urself cs g classes reg HR HN c c' H1 H2 E. destruct (C78_numbers urself cs g HR) as [HU _]. apply (HU c c' (reg c)); [auto|rewrite E; auto].
Qed.
Print Assumptions C78_serve.
Example C78_ex : exists g, requests 4 [(7, fun _ => true); (9, fun c => c <? 8); (4, fun _ => true); (7, fun _ => true); (9, fun _ => true)] registry0 = Some g /\
  rg_table g = [4; 7; 9] /\ map (rg_number g) [4; 7; 9; 10] = [Some 0; Some 1; Some 2; None].
Proof. eexists. split; [reflexivity|]. split; reflexivity. Qed.
