(* EwBufTheorems.v: C109. *)
From Coq Require Import List NArith ZArith Lia Bool.
From Coq Require Import ZifyBool ZifyNat ZifyN.
From Verif Require Import Base EwBufModel EwBufSpec.
Import ListNotations.
Open Scope N_scope.

Lemma last_mono r : r <= 4 -> last_of r <= 40.
Proof. intros H. unfold last_of. nia. Qed.

Section Proofs.
Variable A : Type.
Variable place : N -> N -> N.

Lemma saveLoop_ok (w : window A) last : last <= 40 ->
  forall fuel i buf, (forall j, i <= j <= last -> w_ok w j = true) -> i <= last + 1 -> (N.to_nat (last + 1 - i) < fuel)%nat ->
  exists buf', saveLoop A place fuel w last i buf = Some (Some buf') /\
  (forall j, i <= j <= last -> buf' j = seen place w j) /\ (forall j, ~ i <= j <= last -> buf' j = buf j).
Proof.
  intros HL. induction fuel as [|f IH]; intros i buf HO HI HF; [lia|]. cbn [saveLoop].
  destruct (N.leb_spec i last) as [Hi|Hi].
  - unfold load. rewrite HO by lia. replace (i <? cMAX_SITES) with true by (unfold cMAX_SITES; lia).
    replace (next i) with (i + 1) by (unfold next; lia).
    destruct (IH (i + 1) (update A buf i (w_atom w (place (w_sym w) i)))) as (b' & E & H1 & H2); [intros j Hj; apply HO; lia|lia|lia|].
    exists b'. split; [exact E|]. split.
    + intros j Hj. destruct (N.eq_dec j i) as [->|N]; [|apply H1; lia]. rewrite H2 by lia. unfold update. rewrite N.eqb_refl. reflexivity.
    + intros j Hj. rewrite H2 by lia. unfold update. replace (j =? i) with false by lia. reflexivity.
  - exists buf. split; [reflexivity|]. split; [intros; lia|auto].
Qed.

Lemma saveLoop_fails (w : window A) last : last <= 40 ->
  forall fuel i buf, (exists j, i <= j <= last /\ w_ok w j = false) -> (N.to_nat (last + 1 - i) < fuel)%nat ->
  saveLoop A place fuel w last i buf = Some None.
Proof.
  intros HL. induction fuel as [|f IH]; intros i buf (j & Hj & HO) HF; [lia|]. cbn [saveLoop].
  replace (i <=? last) with true by lia. unfold load. destruct (w_ok w i) eqn:E; [|reflexivity].
  replace (i <? cMAX_SITES) with true by (unfold cMAX_SITES; lia). replace (next i) with (i + 1) by (unfold next; lia).
  apply IH; [|lia]. exists j. split; [|exact HO]. assert (j <> i) by congruence. lia.
Qed.

Hypothesis AP : apart place.

Lemma restoreLoop_ok last buf : last <= 40 ->
  forall fuel i (w : window A), (forall j, i <= j <= last -> w_ok w j = true) -> i <= last + 1 -> (N.to_nat (last + 1 - i) < fuel)%nat ->
  exists w', restoreLoop A place fuel w last i buf = Some (Some w') /\
  w_base w' = w_base w /\ w_sym w' = w_sym w /\ w_radius w' = w_radius w /\ w_ok w' = w_ok w /\
  (forall j, i <= j <= last -> w_atom w' (place (w_sym w) j) = buf j) /\
  (forall x, (forall j, i <= j <= last -> x <> place (w_sym w) j) -> w_atom w' x = w_atom w x).
Proof.
  intros HL. induction fuel as [|f IH]; intros i w HO HI HF; [lia|]. cbn [restoreLoop].
  destruct (N.leb_spec i last) as [Hi|Hi].
  - replace (i <? cMAX_SITES) with true by (unfold cMAX_SITES; lia). unfold store. rewrite HO by lia.
    replace (next i) with (i + 1) by (unfold next; lia).
    match goal with |- context[restoreLoop A place f ?w1 _ _ _] => set (w0 := w1) end.
    destruct (IH (i + 1) w0) as (w' & E & B & S & R & O & H1 & H2); [intros j Hj; apply HO; lia|lia|lia|].
    exists w'. split; [exact E|]. cbn [w0 w_base w_sym w_radius w_ok w_atom] in *. repeat (split; [assumption|]). split.
    + intros j Hj. destruct (N.eq_dec j i) as [->|NE]; [|apply H1; lia]. rewrite H2.
      * unfold update. rewrite N.eqb_refl. reflexivity.
      * intros k Hk EQ. apply AP in EQ; lia.
    + intros x HX. rewrite H2 by (intros j Hj; apply HX; lia). unfold update.
      destruct (N.eqb_spec x (place (w_sym w) i)) as [EQ|_]; [|reflexivity]. exfalso. apply (HX i); [lia|exact EQ].
  - exists w. split; [reflexivity|]. repeat (split; [reflexivity|]). split; [intros; lia|reflexivity].
Qed.
End Proofs.

(* C109: saving ends with the wanted layers kept, or fails, and it fails exactly if the atoms are wanted and a site within the radius
   cannot be reached *)
Theorem C109_save : forall A last place, numbers_sites last -> forall (w : window A) b ev bl rad, rad <= 4 ->
  (ev = false \/ reachable w rad ->
   exists b', save A last place w b ev bl rad = Done b' /\ mRadiusStored b' = rad /\ mEventLayerStored b' = ev /\ mBaseLayerStored b' = bl /\
     (ev = true -> forall i, i <= last_of rad -> mSiteBuffer b' i = seen place w i) /\ (bl = true -> mBaseBuffer b' = w_base w)) /\
  (ev = true -> ~ reachable w rad -> save A last place w b ev bl rad = Fails).
Proof.
  intros A last place HN w b ev bl rad HR. pose proof (last_mono rad HR) as HL. unfold save.
  replace (EWRadius rad) with rad by (unfold EWRadius; lia). rewrite (HN rad HR). split.
  - intros [-> | HO].
    + eexists. split; [reflexivity|]. cbn. repeat (split; [reflexivity|]). split; [discriminate|]. intros ->. reflexivity.
    + destruct ev.
      * destruct (saveLoop_ok A place w (last_of rad) HL the_fuel 0 (mSiteBuffer b)) as (s & E & H1 & _); [intros j Hj; apply HO; lia|lia|unfold the_fuel; lia|].
        rewrite E. eexists. split; [reflexivity|]. cbn. repeat (split; [reflexivity|]). split; [intros _ i Hi; apply H1; lia|]. intros ->. reflexivity.
      * eexists. split; [reflexivity|]. cbn. repeat (split; [reflexivity|]). split; [discriminate|]. intros ->. reflexivity.
  - intros -> HU. rewrite saveLoop_fails; [reflexivity|exact HL| |unfold the_fuel; lia].
    assert (forallb (fun n => w_ok w (N.of_nat n)) (seq 0 (S (N.to_nat (last_of rad)))) = false) as F.
    { apply not_true_is_false. intros F. apply HU. intros i Hi. rewrite forallb_forall in F. specialize (F (N.to_nat i)).
      rewrite N2Nat.id in F. apply F. apply in_seq. lia. }
    clear HU. assert (forall l, forallb (fun n => w_ok w (N.of_nat n)) l = false -> exists n, In n l /\ w_ok w (N.of_nat n) = false) as HX.
    { clear. induction l as [|n l IH]; cbn [forallb]; [discriminate|]. destruct (w_ok w (N.of_nat n)) eqn:E; cbn [andb]; intros H.
      - destruct (IH H) as (m & HI & HM). exists m. split; [right; exact HI|exact HM].
      - exists n. split; [left; reflexivity|exact E]. }
    destruct (HX _ F) as (n & HI & HF). exists (N.of_nat n). apply in_seq in HI. split; [lia|exact HF].
Qed.
Print Assumptions C109_save.

(* C109: whatever became of the window after saving, restoring under the same symmetry brings back what was saved: every atom within the
   radius if the atoms were wanted, the base atom if that was wanted, and nothing else changes *)
Theorem C109_restore : forall A last place, numbers_sites last -> apart place ->
  forall (w1 w2 : window A) b b' ev bl rad, rad <= 4 -> save A last place w1 b ev bl rad = Done b' ->
  reachable w2 rad -> w_sym w2 = w_sym w1 ->
  exists w3, restore A last place w2 b' = Done w3 /\
  w_base w3 = (if bl then w_base w1 else w_base w2) /\ w_sym w3 = w_sym w2 /\ w_radius w3 = w_radius w2 /\ w_ok w3 = w_ok w2 /\
  (forall x, within place w1 rad x -> w_atom w3 x = if ev then w_atom w1 x else w_atom w2 x) /\
  (forall x, ~ within place w1 rad x -> w_atom w3 x = w_atom w2 x).
Proof.
  intros A last place HN AP w1 w2 b b' ev bl rad HR HS HO HY. pose proof (last_mono rad HR) as HL.
  destruct (C109_save A last place HN w1 b ev bl rad HR) as [SOK SF].
  assert (ev = false \/ reachable w1 rad) as HC.
  { destruct ev; [|left; reflexivity]. right. intros i Hi. destruct (w_ok w1 i) eqn:E; auto.
    rewrite SF in HS; [discriminate|reflexivity|]. intros K. rewrite (K i Hi) in E. discriminate. }
  destruct (SOK HC) as (b0 & E0 & ER & EE & EB & ES & EBB). rewrite HS in E0. injection E0 as <-. clear SOK SF HC.
  unfold restore. rewrite EE, EB, ER, (HN rad HR). destruct ev.
  - destruct (restoreLoop_ok A place AP (last_of rad) (mSiteBuffer b') HL the_fuel 0 w2) as (w' & E & B & S & R & O & H1 & H2);
      [intros j Hj; apply HO; lia|lia|unfold the_fuel; lia|].
    rewrite E. eexists. split; [reflexivity|].
    assert (forall x, within place w1 rad x -> w_atom w' x = w_atom w1 x) as HI.
    { intros x (i & Hi & ->). rewrite <- HY, H1, (ES eq_refl) by lia. unfold seen. rewrite HY. reflexivity. }
    assert (forall x, ~ within place w1 rad x -> w_atom w' x = w_atom w2 x) as HE.
    { intros x HX. apply H2. intros j Hj ->. apply HX. exists j. split; [lia|]. rewrite HY. reflexivity. }
    destruct bl; cbn [w_base w_sym w_radius w_ok w_atom]; (split; [auto|]); repeat (split; [assumption|]); assumption.
  - eexists. split; [reflexivity|]. destruct bl; cbn [w_base w_sym w_radius w_ok w_atom]; (split; [auto|]); repeat (split; [reflexivity|]); split; reflexivity.
Qed.
Print Assumptions C109_restore.

(* a larger radius than 4 is 4: the parameter cannot hold more *)
Theorem C109_radius : forall A last place (w : window A) b ev bl rad, 4 <= rad -> save A last place w b ev bl rad = save A last place w b ev bl 4.
Proof. intros A last place w b ev bl rad HR. unfold save. replace (EWRadius rad) with (EWRadius 4) by (unfold EWRadius; lia). reflexivity. Qed.
Print Assumptions C109_radius.

(* a buffer that nothing was saved in changes nothing *)
Theorem C109_fresh : forall A last place empty (w : window A), restore A last place w (fresh A empty) = Done w.
Proof. intros. reflexivity. Qed.
Print Assumptions C109_fresh.

(* saving everything keeps all that the event can reach, and never runs on *)
Theorem C109_save_all : forall A last place, numbers_sites last -> forall (w : window A) b, w_radius w <= 4 ->
  saveAll A last place w b = save A last place w b true true (w_radius w) /\ saveAll A last place w b <> Forever.
Proof.
  intros A last place HN w b HR.
  assert (saveAll A last place w b = save A last place w b true true (w_radius w)) as E.
  { unfold saveAll. replace (EWRadius (w_radius w)) with (w_radius w) by (unfold EWRadius; lia). reflexivity. }
  split; [exact E|]. rewrite E. destruct (C109_save A last place HN w b true true (w_radius w) HR) as [H1 H2].
  intros F. assert (~ ~ reachable w (w_radius w)) as NN by (intros K; rewrite (H2 eq_refl K) in F; discriminate).
  apply NN. intros K. destruct (H1 (or_intror K)) as (b' & E' & _). rewrite E' in F. discriminate.
Qed.
Print Assumptions C109_save_all.

(* restoring under another symmetry puts the atoms back turned: the site numbers are the symmetry's, the places are not *)
Theorem C109_turned : forall A last place, numbers_sites last -> apart place ->
  forall (w1 w2 : window A) b b' bl rad, rad <= 4 -> save A last place w1 b true bl rad = Done b' -> reachable w2 rad ->
  exists w3, restore A last place w2 b' = Done w3 /\ forall i, i <= last_of rad -> w_atom w3 (place (w_sym w2) i) = w_atom w1 (place (w_sym w1) i).
Proof.
  intros A last place HN AP w1 w2 b b' bl rad HR HS HO. pose proof (last_mono rad HR) as HL.
  destruct (C109_save A last place HN w1 b true bl rad HR) as [SOK SF].
  assert (reachable w1 rad) as HC.
  { intros i Hi. destruct (w_ok w1 i) eqn:E; auto. rewrite SF in HS; [discriminate|reflexivity|]. intros K. rewrite (K i Hi) in E. discriminate. }
  destruct (SOK (or_intror HC)) as (b0 & E0 & ER & EE & EB & ES & EBB). rewrite HS in E0. injection E0 as <-.
  unfold restore. rewrite EE, EB, ER, (HN rad HR).
  destruct (restoreLoop_ok A place AP (last_of rad) (mSiteBuffer b') HL the_fuel 0 w2) as (w' & E & _ & _ & _ & _ & H1 & _);
    [intros j Hj; apply HO; lia|lia|unfold the_fuel; lia|].
  rewrite E. eexists. split; [reflexivity|]. intros i Hi. destruct bl; cbn [w_atom]; rewrite H1, (ES eq_refl) by lia; reflexivity.
Qed.
Print Assumptions C109_turned.

(* ---- a window with two symmetries: the second exchanges the sites 1 and 4, opposite each other ---- *)
Definition ex_place (s i : N) : N := if s =? 0 then i else if i =? 1 then 4 else if i =? 4 then 1 else i.
Lemma ex_apart : apart ex_place.
Proof.
  intros s i j _ _. unfold ex_place. destruct (s =? 0); auto.
  destruct (N.eqb_spec i 1), (N.eqb_spec i 4), (N.eqb_spec j 1), (N.eqb_spec j 4); lia.
Qed.
Definition ex_window (s : N) (f : N -> N) (base : N) : window N :=
  {| w_atom := f; w_base := base; w_sym := s; w_radius := 1; w_ok := fun i => i <=? 4 |}.

Theorem C109_symmetry_refuted : ~ (forall A last place, numbers_sites last -> apart place ->
  forall (w1 w2 : window A) b b' rad, rad <= 4 -> save A last place w1 b true true rad = Done b' -> reachable w2 rad ->
  exists w3, restore A last place w2 b' = Done w3 /\ forall x, within place w1 rad x -> w_atom w3 x = w_atom w1 x).
Proof.
  intros H. destruct (save N last_of ex_place (ex_window 0 (fun i => i) 7) (fresh N 0) true true 1) as [b'| |] eqn:E; try (vm_compute in E; discriminate).
  destruct (H N last_of ex_place (fun r _ => eq_refl) ex_apart (ex_window 0 (fun i => i) 7) (ex_window 1 (fun i => i) 7) (fresh N 0) b' 1) as (w3 & E3 & H3);
    [lia|exact E|intros i Hi; change (last_of 1) with 4 in Hi; cbn; lia|].
  assert (w_atom w3 1 = 1) as H1.
  { rewrite H3; [reflexivity|]. exists 1. split; [vm_compute; discriminate|reflexivity]. }
  destruct (C109_turned N last_of ex_place (fun r _ => eq_refl) ex_apart (ex_window 0 (fun i => i) 7) (ex_window 1 (fun i => i) 7) (fresh N 0) b' true 1) as (w3' & E3' & HT);
    [lia|exact E|intros i Hi; change (last_of 1) with 4 in Hi; cbn; lia|].
  rewrite E3 in E3'. injection E3' as <-. specialize (HT 4). change (ex_place (w_sym (ex_window 1 (fun i => i) 7)) 4) with 1 in HT.
  rewrite H1 in HT. specialize (HT ltac:(vm_compute; discriminate)). vm_compute in HT. discriminate.
Qed.
Print Assumptions C109_symmetry_refuted.

(* radius 1 saved, all of the window and its base overwritten with 9, restored: the five sites and the base are back, site 5 is not *)
Example C109_ex :
  let w1 := ex_window 1 (fun i => i) 7 in let w2 := ex_window 1 (fun _ => 9) 9 in
  numbers_sites last_of /\ apart ex_place /\ reachable w2 1 /\
  match save N last_of ex_place w1 (fresh N 0) true true 1 with
  | Done b => match restore N last_of ex_place w2 b with Done w3 => map (w_atom w3) [0; 1; 2; 3; 4; 5] = [0; 1; 2; 3; 4; 9] /\ w_base w3 = 7 | _ => False end
  | _ => False
  end /\ save N last_of ex_place w1 (fresh N 0) true true 2 = Fails.
Proof.
  cbv zeta. split; [intros r _; reflexivity|]. split; [apply ex_apart|]. split; [intros i Hi; change (last_of 1) with 4 in Hi; cbn; lia|].
  split; [vm_compute; split; reflexivity|vm_compute; reflexivity].
Qed.
