(* EventWindowTheorems.v: C21 and C22. *)
From Coq Require Import String List NArith ZArith Lia Bool.
From Coq Require Import ZifyBool ZifyNat ZifyN.
From Verif Require Import Base BitVec UTypeModel AtomModel AtomSpec AtomTheorems EventWindowModel.
Import ListNotations.
Ltac Zify.zify_post_hook ::= Z.div_mod_to_equations.
Open Scope Z_scope.

(* C21: coordinates of the 9 x 9 square and the indexes 0 to 80 correspond one to one *)
Theorem C21_coord_index_coord : forall x y, -4 <= x <= 4 -> -4 <= y <= 4 ->
  0 <= convertCoordToIndex (mkC x y) <= 80 /\ convertIndexToCoord (convertCoordToIndex (mkC x y)) = mkC x y.
Proof.
  intros x y Hx Hy.
  assert (convertCoordToIndex (mkC x y) = (4 - y) * 9 + (4 - x)) as E.
  { unfold convertCoordToIndex, u32z, MAXWIDTH, MAXMANHATTANDIST. cbn [cx cy]. lia. }
  rewrite E. split; [lia|]. unfold convertIndexToCoord, Coord, s8, s32z, u32z, MAXWIDTH, MAXMANHATTANDIST.
  change (4 + 4 + 1) with 9.
  replace (((4 - y) * 9 + (4 - x)) mod 9) with (4 - x) by lia.
  replace (((4 - y) * 9 + (4 - x)) / 9) with (4 - y) by lia.
  rewrite (Z.mod_small (4 - y)) by lia. replace (4 - y <? 2147483648) with true by lia. f_equal; lia.
Qed.
Print Assumptions C21_coord_index_coord.

Theorem C21_index_coord_index : forall i, 0 <= i <= 80 ->
  let c := convertIndexToCoord i in
  -4 <= cx c <= 4 /\ -4 <= cy c <= 4 /\ convertCoordToIndex c = i.
Proof.
  intros i Hi. unfold convertIndexToCoord, Coord, s8, s32z, MAXWIDTH, MAXMANHATTANDIST.
  change (4 + 4 + 1) with 9. cbn [cx cy].
  assert (u32z (4 - i mod 9) = if 4 <? i mod 9 then 4294967300 - i mod 9 else 4 - i mod 9) as E
    by (unfold u32z; destruct (Z.ltb_spec 4 (i mod 9)); lia).
  rewrite E. rewrite (Z.mod_small (i / 9)) by lia. replace (i / 9 <? 2147483648) with true by lia.
  assert (((if 4 <? i mod 9 then 4294967300 - i mod 9 else 4 - i mod 9) + 128) mod 256 - 128 = 4 - i mod 9) as EX
    by (destruct (Z.ltb_spec 4 (i mod 9)); lia).
  assert ((4 - i / 9 + 128) mod 256 - 128 = 4 - i / 9) as EY by lia.
  rewrite EX, EY. split; [lia|]. split; [lia|].
  unfold convertCoordToIndex, u32z, MAXWIDTH, MAXMANHATTANDIST. cbn [cx cy]. lia.
Qed.
Print Assumptions C21_index_coord_index.

Example C21_ex : convertCoordToIndex (mkC 0 0) = 40 /\ convertIndexToCoord 40 = mkC 0 0 /\
  convertCoordToIndex (mkC (-4) 3) = 17 /\ convertIndexToCoord 17 = mkC (-4) 3.
Proof. vm_compute. repeat split. Qed.

(* the header says (include/UEventWindow.h:55) that index 0 is (-4,-4) and 80 is (4,4): it is the other way round *)
Theorem C21_header_comment_refuted : convertIndexToCoord 0 = mkC 4 4 /\ convertIndexToCoord 80 = mkC (-4) (-4).
Proof. vm_compute. split; reflexivity. Qed.
Print Assumptions C21_header_comment_refuted.

(* ---- C22 ---- *)

(* the sites of the window *)
Definition in_window (c : coord) : Prop := Z.abs (cx c) + Z.abs (cy c) <= 4.
Definition is_coord (c : coord) : Prop := -128 <= cx c < 128 /\ -128 <= cy c < 128.

Lemma same_key_eq a b : same_key a b = true <-> a = b.
Proof.
  unfold same_key, less_than_coord. destruct a as [a1 a2], b as [b1 b2]. cbn [cx cy]. split.
  - intros H. assert (a1 = b1 /\ a2 = b2) as [-> ->]; auto.
    destruct (Z.ltb_spec a1 b1); [discriminate|]. destruct (Z.ltb_spec b1 a1); [rewrite andb_comm in H; discriminate|].
    destruct (Z.ltb_spec a2 b2); [discriminate|]. destruct (Z.ltb_spec b2 a2); [rewrite andb_comm in H; discriminate|]. lia.
  - intros E. injection E as -> ->. rewrite !Z.ltb_irrefl. reflexivity.
Qed.

Lemma same_key_refl a : same_key a a = true.
Proof. apply same_key_eq. reflexivity. Qed.

Lemma find_put_same c v w : find_site c w <> None -> find_site c (put_site c v w) = Some v.
Proof.
  induction w as [|[k v0] r IH]; cbn [find_site put_site]; [congruence|].
  destruct (same_key c k) eqn:E; cbn [find_site]; rewrite E; auto.
Qed.

Lemma find_put_other c d v w : c <> d -> find_site d (put_site c v w) = find_site d w.
Proof.
  intros HN. induction w as [|[k v0] r IH]; cbn [find_site put_site]; auto.
  destruct (same_key c k) eqn:E; cbn [find_site].
  - apply same_key_eq in E. subst k. destruct (same_key d c) eqn:E2; auto.
    apply same_key_eq in E2. congruence.
  - rewrite IH. reflexivity.
Qed.

Definition fresh : window := map (fun c => (c, emptySite)) all_coords.

Lemma init_fresh : init = Some fresh.
Proof. vm_compute. reflexivity. Qed.

(* the window starts with every site at distance at most 4 and no other *)
Lemma fresh_sites c : find_site c fresh = if Z.abs (cx c) + Z.abs (cy c) <=? 4 then Some emptySite else None.
Proof.
  assert (forall l, find_site c (map (fun c => (c, emptySite)) l) = if existsb (same_key c) l then Some emptySite else None) as HE.
  { induction l as [|k l IH]; cbn [map find_site existsb]; auto. destruct (same_key c k); auto. }
  unfold fresh. rewrite HE. 
  destruct (existsb (same_key c) all_coords) eqn:E.
  - apply existsb_exists in E as (k & Hk & Ek). apply same_key_eq in Ek. subst k.
    assert (forallb (fun c => Z.abs (cx c) + Z.abs (cy c) <=? 4) all_coords = true) as HA by (vm_compute; reflexivity).
    rewrite forallb_forall in HA. rewrite (HA c Hk). reflexivity.
  - destruct (Z.leb_spec (Z.abs (cx c) + Z.abs (cy c)) 4) as [HB|]; auto. exfalso.
    assert (forallb (fun x => forallb (fun y => negb (Z.abs x + Z.abs y <=? 4) || existsb (same_key (mkC x y)) all_coords)
              (zseq (-4) 4)) (zseq (-4) 4) = true) as HA by (vm_compute; reflexivity).
    assert (forall z, -4 <= z <= 4 -> In z (zseq (-4) 4)) as HZ.
    { intros z Hz. unfold zseq. apply in_map_iff. exists (Z.to_nat (z + 4)). split; [lia|]. apply in_seq. lia. }
    rewrite forallb_forall in HA. assert (-4 <= cx c <= 4) as HX by lia. assert (-4 <= cy c <= 4) as HY by lia. specialize (HA (cx c) (HZ _ HX)).
    rewrite forallb_forall in HA. specialize (HA (cy c) (HZ _ HY)).
    destruct c as [x y]. cbn [cx cy] in *. rewrite E in HA. lia.
Qed.

(* a history of stores *)
Fixpoint stores (l : list (coord * uval)) (w : window) : window :=
  match l with [] => w | (c, v) :: r => stores r (snd (storeAtomIntoSite c v w)) end.

(* what the last store to c in the history put there *)
Fixpoint last_store (c : coord) (l : list (coord * uval)) : option uval :=
  match l with
  | [] => None
  | (k, v) :: r => match last_store c r with Some u => Some u | None => if coord_eqb c k then Some v else None end
  end.

Lemma coord_eqb_eq a b : coord_eqb a b = true <-> a = b.
Proof. unfold coord_eqb. destruct a as [a1 a2], b as [b1 b2]. cbn [cx cy]. split; intros H; [f_equal; lia|]. injection H as -> ->. lia. Qed.

Lemma find_stores l : forall w c, find_site c (stores l w) =
  match find_site c w with None => None | Some v => match last_store c l with Some u => Some u | None => Some v end end.
Proof.
  induction l as [|[k v] r IH]; intros w c; cbn [stores last_store].
  - destruct (find_site c w); reflexivity.
  - rewrite IH. unfold storeAtomIntoSite. destruct (coord_eqb c k) eqn:EK.
    + apply coord_eqb_eq in EK. subst k. destruct (find_site c w) eqn:E; cbn [snd].
      * rewrite find_put_same by congruence. destruct (last_store c r); reflexivity.
      * rewrite E. reflexivity.
    + assert (k <> c) as HN by (intros ->; rewrite (proj2 (coord_eqb_eq c c) eq_refl) in EK; discriminate).
      destruct (find_site k w); cbn [snd]; [rewrite find_put_other by auto|];
        destruct (find_site c w), (last_store c r); reflexivity.
Qed.

(* C22: a store is accepted exactly at the coordinates at Manhattan distance at most 4, whatever was stored before *)
Theorem C22_store_accepted_iff_in_window : forall w0 l c v, init = Some w0 -> is_coord c ->
  (fst (storeAtomIntoSite c v (stores l w0)) = true <-> in_window c).
Proof.
  intros w0 l c v HI _. rewrite init_fresh in HI. injection HI as <-.
  unfold storeAtomIntoSite, in_window. 
  assert (find_site c (stores l fresh) = None <-> ~ Z.abs (cx c) + Z.abs (cy c) <= 4) as HF.
  { rewrite find_stores, fresh_sites. destruct (Z.leb_spec (Z.abs (cx c) + Z.abs (cy c)) 4).
    - destruct (last_store c l); split; intros; try congruence; lia.
    - split; auto; lia. }
  destruct (find_site c (stores l fresh)); cbn [fst]; split; intros; try congruence.
  - destruct (Z.leb_spec (Z.abs (cx c) + Z.abs (cy c)) 4); auto. assert (Some u = None) by (apply HF; lia). discriminate.
  - exfalso. apply HF; auto.
Qed.
Print Assumptions C22_store_accepted_iff_in_window.

(* after any history of stores, the load of a site of the window gives what was last stored there, or the empty atom *)
Theorem C22_load_gives_last_store : forall w0 l c, init = Some w0 -> in_window c ->
  loadAtomFromSite (convertCoordToIndex c) (stores l w0) =
    Some (match last_store c l with Some u => u | None => emptySite end).
Proof.
  intros w0 l [x y] HI HW. rewrite init_fresh in HI. injection HI as <-. unfold in_window in HW. cbn [cx cy] in HW.
  unfold loadAtomFromSite, isValidSiteIndex.
  destruct (C21_coord_index_coord x y) as [HB HC]; try lia. unfold MAXWIDTH, MAXMANHATTANDIST at 1 2 3 4.
  replace (convertCoordToIndex {| cx := x; cy := y |} <? _) with true by (unfold MAXMANHATTANDIST; lia).
  rewrite HC. unfold isValidSite, MAXMANHATTANDIST. cbn [cx cy].
  replace ((_ <=? x + y) && (x + y <=? 4)) with true by lia.
  rewrite find_stores, fresh_sites. cbn [cx cy]. replace (Z.abs x + Z.abs y <=? 4) with true by lia.
  destruct (last_store _ l); reflexivity.
Qed.
Print Assumptions C22_load_gives_last_store.

(* an assignment through a pointer to a site changes no site but that one *)
Theorem C22_assign_changes_one_site : forall p ruv w w', assignSite p ruv w = Some w' ->
  exists c, isValidSiteIndex (u32z (p_slot p)) = Some c /\
    (forall d, d <> c -> find_site d w' = find_site d w) /\
    (p_pack p = UNPACKED -> find_site c w' = Some ruv).
Proof.
  intros p ruv w w' H. unfold assignSite, loadAtomFromSite, storeAtIndex in H.
  destruct (isValidSiteIndex (u32z (p_slot p))) as [c|] eqn:EI.
  2:{ destruct (p_pack p); discriminate. }
  exists c. split; auto.
  assert (exists v, (true, w') = storeAtomIntoSite c v w /\ (p_pack p = UNPACKED -> v = ruv)) as (v & HS & HU).
  { unfold storeAtomIntoSite in *. destruct (find_site c w) as [lv|] eqn:EF; [|].
    - destruct (p_pack p); try (injection H as <-; exists ruv; auto; fail);
      (destruct (etype_eqb (ty_enum (v_ty lv)) ENouti);
       [injection H as <-; exists ruv; auto|
        destruct (putDataIntoAtom p ruv (v_bits lv)); [|discriminate]; injection H as <-; eexists; split; [reflexivity|discriminate]]).
    - destruct (p_pack p); try discriminate; cbn [v_ty noutiType prim ty_enum etype_eqb] in H; discriminate. }
  unfold storeAtomIntoSite in HS. destruct (find_site c w) eqn:EF; [|discriminate]. injection HS as ->. split.
  - intros d HD. apply find_put_other. congruence.
  - intros HP. rewrite (HU HP). apply find_put_same. congruence.
Qed.
Print Assumptions C22_assign_changes_one_site.

(* and an assignment through a packed pointer keeps the type of the site's atom and all of its bits outside the field *)
Theorem C22_assign_field : forall p ruv w w' c lv, assignSite p ruv w = Some w' ->
  isValidSiteIndex (u32z (p_slot p)) = Some c -> find_site c w = Some lv -> ty_enum (v_ty lv) <> ENouti ->
  p_pack p <> UNPACKED -> isScalar (p_ty p) = true \/ p_pack p = PACKEDLOADABLE ->
  exists lv', find_site c w' = Some lv' /\ v_ty lv' = v_ty lv /\
    same_outside (p_pos p) (p_len p) (v_bits lv) (v_bits lv') /\
    putDataIntoAtom p ruv (v_bits lv) = Some (v_bits lv').
Proof.
  intros p ruv w w' c lv H EI EF HT HP HS. unfold assignSite, loadAtomFromSite, storeAtIndex, storeAtomIntoSite in H.
  rewrite EI, EF in H.
  replace (etype_eqb (ty_enum (v_ty lv)) ENouti) with false in H
    by (destruct (ty_enum (v_ty lv)); reflexivity || congruence).
  destruct (putDataIntoAtom p ruv (v_bits lv)) as [a|] eqn:EP.
  2:{ destruct (p_pack p); congruence. }
  assert (w' = put_site c (mkUV (v_ty lv) a) w) as -> by (destruct (p_pack p); congruence).
  exists (mkUV (v_ty lv) a). split; [apply find_put_same; congruence|]. cbn [v_ty v_bits].
  split; [reflexivity|]. split; [|reflexivity]. eapply C16_store_frame; eauto.
Qed.
Print Assumptions C22_assign_field.

Example C22_assign_field_ex : exists w0 w' lv',
  let p := mkPtr 40 EVENTWINDOW (prim EUnsigned 8 (-1)) PACKEDLOADABLE 30 8 false in
  init = Some w0 /\ assignSite p (mkUV (prim EUnsigned 8 (-1)) 171) w0 = Some w' /\
  isValidSiteIndex (u32z (p_slot p)) = Some (mkC 0 0) /\ find_site (mkC 0 0) w' = Some lv' /\
  v_bits lv' <> v_bits emptySite /\ v_ty lv' = v_ty emptySite /\ ty_enum (v_ty lv') <> ENouti.
Proof.
  exists fresh. eexists. eexists. cbv zeta. split; [apply init_fresh|].
  split; [vm_compute; reflexivity|]. split; [vm_compute; reflexivity|]. split; [vm_compute; reflexivity|].
  split; [vm_compute; discriminate|]. split; [reflexivity|vm_compute; discriminate].
Qed.

(* every site of the window passes the bounds check *)
Theorem C22_bounds_check_accepts_window : forall c, in_window c -> isValidSite c = true.
Proof. intros [x y] H. unfold in_window, isValidSite, MAXMANHATTANDIST in *. cbn [cx cy] in *. lia. Qed.
Print Assumptions C22_bounds_check_accepts_window.

(* but the bounds check tests |x + y| (not |x| + |y|): it accepts sites outside, where a load gives a value without a type *)
Theorem C22_bounds_check_refuted : exists c i, is_coord c /\ ~ in_window c /\ isValidSite c = true /\
  0 <= i <= 80 /\ isValidSiteIndex i = Some c /\
  forall w0, init = Some w0 -> loadAtomFromSite i w0 = Some (mkUV noutiType 0).
Proof.
  exists (mkC 4 (-4)), 72. split; [unfold is_coord; cbn; lia|]. split; [unfold in_window; cbn; lia|].
  split; [reflexivity|]. split; [lia|]. split; [vm_compute; reflexivity|].
  intros w0 HI. rewrite init_fresh in HI. injection HI as <-. vm_compute. reflexivity.
Qed.
Print Assumptions C22_bounds_check_refuted.

Example C22_ex : exists w0, init = Some w0 /\ in_window (mkC (-1) 3) /\
  let l := [(mkC (-1) 3, mkUV atomType 5); (mkC 0 0, mkUV atomType 6); (mkC (-1) 3, mkUV atomType 7); (mkC 4 4, mkUV atomType 8)] in
  loadAtomFromSite (convertCoordToIndex (mkC (-1) 3)) (stores l w0) = Some (mkUV atomType 7) /\
  loadAtomFromSite 40 (stores l w0) = Some (mkUV atomType 6) /\
  assignSite (mkPtr 40 EVENTWINDOW atomType UNPACKED 0 96 false) (mkUV atomType 9) w0 <> None.
Proof.
  exists fresh. split; [apply init_fresh|]. split; [unfold in_window; cbn; lia|]. vm_compute.
  split; [reflexivity|]. split; [reflexivity|discriminate].
Qed.
