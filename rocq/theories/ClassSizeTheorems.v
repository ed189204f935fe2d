(* ClassSizeTheorems.v: C62 (the bit sizes of classes). *)
From Coq Require Import String List NArith ZArith Lia Bool Relations PeanoNat.
From Coq Require Import ZifyBool ZifyNat ZifyN.
From Verif Require Import Base TypeTableModel FamilyModel FamilyProofs FamilyTheorems LayoutModel LayoutSpec LayoutTheorems ClassSizeModel ClassSizeSpec ClassSizeProofs ClassSizeExact ClassSizeComplete.
Import ListNotations.
Open Scope Z_scope.
Local Opaque the_fuel.

(* As long as no error was counted, a size that was found is the sum of the class's own bits and of those of each of its ancestors,
   the members and bases are sized too, and the size is within the limit for the kind of class. *)
Theorem C62_exact : forall root classes compare tab n, wf root (filled classes (fun _ => 0%N)) compare ->
  let st := passes root classes tab n start in let size := fun x => Z.to_N (st_size st x) in
  st_errs st = 0%nat -> forall c, complete st c = true ->
  exists k, classes c = Some k /\ 0 <= st_size st c <= most_bits (sc_kind k) /\ has_size classes root size c (size c) /\
            (forall d, contains classes c d -> complete st d = true) /\ ~ In MHzy (sc_members k).
Proof.
  intros root classes compare tab n W st size HE c HC. pose proof (inv1_passes root classes compare W tab n HE) as HI. fold st in HI.
  assert (0 <= st_size st c) as HS by (pose proof (z_size _ _ (x_zero _ _ _ HI) c); unfold complete in HC; uf; lia).
  destruct (x_sized _ _ _ HI c HS) as (k & EK & HP & EZ & HL). exists k. split; auto. split; [replace (most_bits (sc_kind k)) with (limit (sc_kind k)) by (destruct (sc_kind k); reflexivity); lia|].
  assert (forall d, 0 <= st_size st d -> st_size st d = Z.of_N (size d)) as HZ by (intros d HD; unfold size; lia).
  split; [|split].
  - destruct (svb_list root classes compare W c k EK) as [SN SA]. exists (map fst (findTheSharedVirtualBases root (bare classes) c)). split; auto. split.
    + intros a. rewrite SA. split; (intros [H1 H2]; split; auto; revert H2; apply ancestor_same); intros x; rewrite filled_bases; auto.
    + pose proof (total_true root classes compare W size k c st HI EK HP HZ). specialize (HZ c HS). lia.
  - intros d (k' & EK' & HD). rewrite EK in EK'. injection EK' as <-. destruct HP as [HM HB].
    assert (0 <= st_size st d) as H by (destruct HD as [HD|[[m HD]|[HD NZ]]]; [apply (HM _ HD)|apply (HM _ HD)|apply HB; auto]). unfold complete. uf. lia.
  - intros HM. apply (proj1 HP) in HM. exact HM.
Qed.
Print Assumptions C62_exact.

(* Whatever the errors: a class from which the members and bases lead to a class that contains itself never gets a size, after any
   number of passes. *)
Theorem C62_never : forall root classes tab n c d, clos_refl_trans N (contains classes) c d -> clos_trans N (contains classes) d d ->
  complete (passes root classes tab n start) c = false.
Proof.
  intros root classes tab n c d HR HT. destruct (complete (passes root classes tab n start) c) eqn:EC; auto. exfalso.
  pose proof (z_grounded _ _ (inv0_passes root classes tab n) c EC) as HG.
  assert (grounded classes d) as HD. { clear HT EC. induction HR as [x y HXY|x|x y z H1 IH1 H2 IH2]; auto. inversion HG as [HA]. apply HA. auto. }
  assert (Acc (fun y x => clos_trans N (contains classes) x y) d) as HA.
  { clear - HD. induction HD as [x _ IH]. constructor. intros y HY. apply clos_trans_t1n in HY. destruct HY as [y HY|y z HY HZ].
    - apply IH. auto.
    - destruct (IH y HY) as [HI]. apply HI. apply clos_t1n_trans. auto. }
  clear - HA HT. induction HA as [x _ IH]. apply (IH x); auto.
Qed.
Print Assumptions C62_never.

(* a program whose classes can all be sized: the classes are in the table, no stubs, members of known types, no class contains
   itself (rank gives the depth), true sizes within the limits *)
Record sizable (root : N -> N) (classes : N -> option sclass) (compare : N -> N -> cmp) (tab : list N) (size : N -> N) (rank : N -> nat) : Prop := {
  sz_wf : wf root (filled classes (fun _ => 0%N)) compare;
  sz_closed : forall c k, classes c = Some k -> In c tab /\ sc_stub k = false /\ ~ In MHzy (sc_members k);
  sz_declared : forall c d, contains classes c d -> exists k, classes d = Some k;
  sz_rank : forall c d, contains classes c d -> (rank d < rank c)%nat;
  sz_true : forall c k, classes c = Some k -> has_size classes root size c (size c) /\ Z.of_N (size c) <= most_bits (sc_kind k)
}.
(* no class that is a member of a union is also a base *)
Definition no_union_bases (classes : N -> option sclass) : Prop :=
  forall c k d, classes c = Some k -> sc_union k = true -> In (MClass d) (sc_members k) -> ~ exists c' k', classes c' = Some k' /\ In d (sc_bases k').

(* Then pass n has sized all classes of depth below n, without errors or failed asserts, whatever the order of the table. *)
Theorem C62_sized_partial : forall root classes compare tab size rank, sizable root classes compare tab size rank -> no_union_bases classes ->
  forall n, let st := passes root classes tab n start in st_errs st = 0%nat /\ st_bad st = false /\
  forall c k, classes c = Some k -> (rank c < n)%nat -> complete st c = true /\ st_size st c = Z.of_N (size c).
Proof.
  intros root classes compare tab size rank [H1 H2 H3 H4 H5] HU n st. destruct (C_passes root classes compare H1 tab size rank H2 H3 H4 H5 HU n) as ([HD HK] & HL & HS). fold st in HD, HK, HL, HS.
  split; [apply (d_errs _ _ _ _ HD)|]. split; [apply (d_bad _ _ _ _ HD)|]. intros c k EK HR. pose proof (HS c k EK HR) as HZ. split; [unfold complete; uf; lia|]. apply (d_size _ _ _ _ HD c HZ).
Qed.
Print Assumptions C62_sized_partial.
(* so the compiler's loop is enough for depths below 100 *)
Theorem C62_loop_partial : forall root classes compare tab size rank, sizable root classes compare tab size rank -> no_union_bases classes ->
  (forall c k, classes c = Some k -> (rank c < 100)%nat) ->
  let st := resolving_loop root classes tab in st_errs st = 0%nat /\ st_bad st = false /\
  forall c k, classes c = Some k -> complete st c = true /\ st_size st c = Z.of_N (size c).
Proof.
  intros root classes compare tab size rank HS HU HR. destruct (C62_sized_partial root classes compare tab size rank HS HU 100) as (H1 & H2 & H3). split; [exact H1|]. split; [exact H2|]. intros c k EK. apply (H3 c k EK). apply (HR c k EK).
Qed.
Print Assumptions C62_loop_partial.

(* ---- programs given by a list ---- *)
Definition r (x : N) : N := if (x <? 65536)%N then x else 1%N.
Definition cm (x y : N) : cmp := if (x =? r y)%N then Same else NotSame.
Fixpoint find (x : N) (l : list (N * sclass)) : option sclass := match l with [] => None | (y, k) :: t => if (x =? y)%N then Some k else find x t end.
Definition elemb (l : list (N * sclass)) (c : N) : bool := match find c l with Some k => match sc_kind k with Element => true | _ => false end | None => false end.
Definition okm (l : list (N * sclass)) (x : N) (k : sclass) (m : smember) : bool :=
  match m with
  | MPrim _ _ => true
  | MClass d | MArray d _ => (negb (elemb l d) || (match sc_kind k with Transient => true | _ => false end && negb (sc_union k))) && match find d l with Some _ => (d <? x)%N | None => false end
  | MHzy => false
  end.
Definition okc (l : list (N * sclass)) (x : N) (k : sclass) : bool :=
  negb (x =? 0)%N && (x <? 65536)%N && negb (sc_stub k) && forallb (okm l x k) (sc_members k) &&
  forallb (fun b => (b =? 0)%N || ((b <? x)%N && match find b l with Some kb => match sc_kind kb with Element => false | _ => true end | None => false end)) (sc_bases k).
Definition okl (l : list (N * sclass)) : bool := forallb (fun q => okc l (fst q) (snd q)) l.
Lemma find_in x l k : find x l = Some k -> In (x, k) l.
Proof. induction l as [|[y k'] l IH]; cbn [find]; [discriminate|]. destruct (x =? y)%N eqn:E; [intros H; injection H as <-; apply N.eqb_eq in E; subst; left; auto|right; auto]. Qed.
Section Lists.
Variable l : list (N * sclass).
Hypothesis OK : okl l = true.
Notation cls := (fun x => find x l).
Lemma ok_class x k : find x l = Some k -> okc l x k = true.
Proof. intros E. apply find_in in E. unfold okl in OK. rewrite forallb_forall in OK. apply (OK (x, k) E). Qed.
Lemma ok_base x k b : find x l = Some k -> In b (sc_bases k) -> b <> 0%N -> (b < x)%N /\ exists kb, find b l = Some kb /\ sc_kind kb <> Element.
Proof.
  intros E HB NZ. apply ok_class in E. unfold okc in E. rewrite !andb_true_iff, !forallb_forall in E. destruct E as [_ E]. specialize (E b HB). rewrite orb_true_iff, andb_true_iff in E.
  destruct E as [E|[E1 E2]]; [lia|]. split; [lia|]. destruct (find b l) as [kb|]; [|discriminate]. exists kb. split; auto. destruct (sc_kind kb); congruence.
Qed.
Lemma ok_member x k m : find x l = Some k -> In m (sc_members k) -> okm l x k m = true.
Proof. intros E HM. apply ok_class in E. unfold okc in E. rewrite !andb_true_iff, !forallb_forall in E. apply E. auto. Qed.
Lemma ok_contains c d : contains cls c d -> (d < c)%N /\ exists k, find d l = Some k.
Proof.
  intros (k & EK & [HM|[[n HM]|[HB NZ]]]).
  - apply (ok_member c k _ EK) in HM. cbn [okm] in HM. rewrite andb_true_iff in HM. destruct HM as [_ HM]. destruct (find d l) as [kd|]; [|discriminate]. split; [lia|eauto].
  - apply (ok_member c k _ EK) in HM. cbn [okm] in HM. rewrite andb_true_iff in HM. destruct HM as [_ HM]. destruct (find d l) as [kd|]; [|discriminate]. split; [lia|eauto].
  - destruct (ok_base c k d EK HB NZ) as [H (kd & H1 & _)]. eauto.
Qed.
Lemma ok_wf : wf r (filled cls (fun _ => 0%N)) cm.
Proof.
  assert (forall x k, filled cls (fun _ => 0%N) x = Some k -> exists s, find x l = Some s /\ lc_bases k = sc_bases s /\ lc_kind k = sc_kind s /\ lc_union k = sc_union s /\ lc_members k = map (filled_member cls (fun _ => 0%N)) (sc_members s)) as HF.
  { intros x k. unfold filled. destruct (find x l) as [s|]; [|discriminate]. intros E. injection E as <-. exists s. auto. }
  assert (forall x k, find x l = Some k -> x <> 0%N /\ (x < 65536)%N) as HN.
  { intros x k E. apply ok_class in E. unfold okc in E. rewrite !andb_true_iff in E. lia. }
  split.
  - intros x. unfold r. destruct (x <? 65536)%N eqn:E; lia.
  - intros x. unfold r. destruct (x <? 65536)%N eqn:E; lia.
  - unfold filled. destruct (find 0 l) as [s|] eqn:E; auto. destruct (HN _ _ E) as [[] _]. auto.
  - intros x k E. destruct (HF x k E) as (s & ES & _). destruct (HN _ _ ES) as [_ H]. unfold r. destruct (x <? 65536)%N eqn:EL; [auto|lia].
  - intros x k y _. reflexivity.
  - intros x k b E HB NZ. destruct (HF x k E) as (s & ES & EB & _). rewrite EB in HB. destruct (ok_base x s b ES HB NZ) as [_ (kb & EKb & NE)]. unfold filled. rewrite EKb. eexists. split; [reflexivity|auto].
  - intros x k m E HM HE. destruct (HF x k E) as (s & ES & _ & E1 & E2 & E3). rewrite E3 in HM. apply in_map_iff in HM. destruct HM as (sm & <- & HM). apply (ok_member x s sm ES) in HM.
    assert (forall d, elementb cls d = elemb l d) as HEl by (intros d; unfold elementb, elemb, kind; destruct (find d l) as [kd|]; auto).
    rewrite E1, E2. destruct sm as [b a|d|d n|]; cbn [filled_member mt_element okm] in *; try discriminate; rewrite HEl in HE; rewrite HE in HM; cbn [negb orb] in HM; rewrite !andb_true_iff in HM; destruct HM as [[H1 H2] _]; (split; [destruct (sc_kind s); congruence|destruct (sc_union s); auto; discriminate]).
  - assert (forall x y, edge r (lbases (filled cls (fun _ => 0%N))) x y -> y <> 0%N -> (y < x)%N) as HE.
    { intros x y (bs & b & EB & HB & ER) NZ. unfold lbases in EB. destruct (filled cls (fun _ => 0%N) x) as [k|] eqn:EK; [|discriminate]. injection EB as <-. destruct (HF x k EK) as (s & ES & EB & _). rewrite EB in HB.
      destruct (N.eq_dec b 0) as [->|NB]; [unfold r in ER; cbn in ER; congruence|]. destruct (ok_base x s b ES HB NB) as [HL (kb & EKb & _)]. destruct (HN _ _ EKb) as [_ HS]. unfold r in ER. destruct (b <? 65536)%N eqn:EL; [subst; auto|lia]. }
    assert (forall x y, edge r (lbases (filled cls (fun _ => 0%N))) x y -> x <> 0%N) as HS.
    { intros x y (bs & b & EB & _) ->. unfold lbases in EB. destruct (filled cls (fun _ => 0%N) 0) as [k|] eqn:EK; [|discriminate]. destruct (HF _ _ EK) as (s & ES & _). destruct (HN _ _ ES) as [[] _]. auto. }
    assert (forall x y, reach r (lbases (filled cls (fun _ => 0%N))) x y -> y <> 0%N -> (y <= x)%N) as HR.
    { induction 1 as [z|z w v H1 H2 IH]; intros NZ; [lia|]. assert (w <> 0%N) as NW by (destruct H2 as [u|u w' v H3 _]; [auto|eapply HS; eauto]). pose proof (HE _ _ H1 NW). specialize (IH NZ). lia. }
    intros x (y & H1 & H2). assert (x <> 0%N) as NX by (eapply HS; eauto). assert (y <> 0%N) as NY by (destruct H2 as [u|u w' v H3 _]; [auto|eapply HS; eauto]). pose proof (HE _ _ H1 NY). pose proof (HR _ _ H2 NX). lia.
Qed.
End Lists.

Definition mk kd u ms bs : sclass := {| sc_kind := kd; sc_union := u; sc_stub := false; sc_members := ms; sc_bases := bs |}.
(* the true size as an executable *)
Definition true_size (l : list (N * sclass)) (size : N -> N) (c : N) : N :=
  (own (fun x => find x l) size c + fold_right (fun a t => own (fun x => find x l) size a + t) 0 (map fst (findTheSharedVirtualBases r (bare (fun x => find x l)) c)))%N.
Definition okr (l : list (N * sclass)) (rank : N -> nat) : bool :=
  forallb (fun q => forallb (fun m => match m with MClass d | MArray d _ => Nat.ltb (rank d) (rank (fst q)) | _ => true end) (sc_members (snd q)) && forallb (fun b => (b =? 0)%N || Nat.ltb (rank b) (rank (fst q))) (sc_bases (snd q))) l.
Definition oks (l : list (N * sclass)) (size : N -> N) : bool := forallb (fun q => ((size (fst q) =? true_size l size (fst q))%N) && (Z.of_N (size (fst q)) <=? most_bits (sc_kind (snd q)))) l.
Lemma ok_sizable l tab size rank : okl l = true -> okr l rank = true -> oks l size = true -> (forall q, In q l -> In (fst q) tab) -> sizable r (fun x => find x l) cm tab size rank.
Proof.
  intros OK OKR OKS OKT. split.
  - apply ok_wf. auto.
  - intros c k EK. split; [apply (OKT (c, k)); apply find_in; auto|]. pose proof (ok_class l OK c k EK) as HC. unfold okc in HC. rewrite !andb_true_iff in HC. split; [destruct (sc_stub k); auto; destruct HC as [[[_ HC] _] _]; discriminate|].
    intros HM. apply (ok_member l OK c k MHzy EK) in HM. discriminate.
  - intros c d HD. apply (ok_contains l OK c d HD).
  - intros c d (k & EK & HD). unfold okr in OKR. rewrite forallb_forall in OKR. specialize (OKR (c, k) (find_in _ _ _ EK)). cbn [fst snd] in OKR. rewrite andb_true_iff, !forallb_forall in OKR. destruct OKR as [R1 R2].
    destruct HD as [HD|[[n HD]|[HD NZ]]]; [specialize (R1 _ HD); apply Nat.ltb_lt in R1; auto|specialize (R1 _ HD); apply Nat.ltb_lt in R1; auto|specialize (R2 _ HD); cbv beta in R2; apply orb_true_iff in R2; destruct R2 as [R2|R2]; [apply N.eqb_eq in R2; contradiction|apply Nat.ltb_lt in R2; auto]].
  - intros c k EK. unfold oks in OKS. rewrite forallb_forall in OKS. specialize (OKS (c, k) (find_in _ _ _ EK)). cbn [fst snd] in OKS. rewrite andb_true_iff in OKS. destruct OKS as [S1 S2]. split; [|lia].
    destruct (svb_list r (fun x => find x l) cm (ok_wf l OK) c k EK) as [SN SA]. exists (map fst (findTheSharedVirtualBases r (bare (fun x => find x l)) c)). split; auto. split.
    + intros a. rewrite SA. split; (intros [H1 H2]; split; auto; revert H2; apply ancestor_same); intros x; rewrite filled_bases; auto.
    + apply N.eqb_eq in S1. exact S1.
Qed.

(* Not every sizable program is sized. A class (2) that is a member of a union (1) loses its size as a base class when the union comes
   first, so that its subclass (3) waits forever. *)
Definition ex_union : list (N * sclass) :=
  [(2%N, mk Quark false [MPrim 5 None] []); (3%N, mk Quark false [MPrim 1 None] [2%N]); (4%N, mk Quark true [MClass 2; MPrim 3 None] [])].
Definition ex_union_size (x : N) : N := match x with 2%N => 5 | 3%N => 6 | 4%N => 5 | _ => 0 end%N.
Definition ex_union_rank (x : N) : nat := match x with 2%N => 0 | _ => 1 end.
Theorem C62_refuted : exists root classes compare tab size rank, sizable root classes compare tab size rank /\ (forall c k, classes c = Some k -> (rank c < 2)%nat) /\
  let st := resolving_loop root classes tab in st_errs st = 0%nat /\ exists c k, classes c = Some k /\ complete st c = false.
Proof.
  exists r, (fun x => find x ex_union), cm, [4; 2; 3]%N, ex_union_size, ex_union_rank. split; [|split; [|split; [vm_compute; reflexivity|]]].
  - apply ok_sizable; [vm_compute; reflexivity|vm_compute; reflexivity|vm_compute; reflexivity|]. intros q HQ. cbn in HQ. destruct HQ as [<-|[<-|[<-|[]]]]; cbn; auto.
  - intros c k EK. apply find_in in EK. cbn in EK. destruct EK as [E|[E|[E|[]]]]; injection E as <- <-; cbn; lia.
  - exists 3%N. eexists. split; [reflexivity|]. vm_compute. reflexivity.
Qed.
Print Assumptions C62_refuted.
(* with another order of the same classes all are sized *)
Example C62_refuted_ex : map (st_size (resolving_loop r (fun x => find x ex_union) [2; 4; 3]%N)) [2; 3; 4]%N = [5; 6; 5] /\
  map (st_size (resolving_loop r (fun x => find x ex_union) [4; 2; 3]%N)) [2; 3; 4]%N = [5; -2; 5].
Proof. vm_compute. auto. Qed.

(* And without unions, a chain of 101 classes in the wrong order needs 101 passes. *)
Definition chain : list (N * sclass) := map (fun i => let x := N.of_nat i in (x, mk Quark false [] [(x - 1)%N])) (seq 1 101).
Theorem C62_depth_refuted : exists root classes compare tab size rank, sizable root classes compare tab size rank /\ no_union_bases classes /\ (forall c k, classes c = Some k -> (rank c < 101)%nat) /\
  let st := resolving_loop root classes tab in st_errs st = 0%nat /\ exists c k, classes c = Some k /\ complete st c = false.
Proof.
  exists r, (fun x => find x chain), cm, (map N.of_nat (rev (seq 1 101))), (fun _ => 0%N), (fun x => N.to_nat (x - 1)). split; [|split; [|split; [|split; [vm_compute; reflexivity|]]]].
  - apply ok_sizable; [vm_compute; reflexivity|vm_compute; reflexivity|vm_compute; reflexivity|]. intros q HQ. unfold chain in HQ. apply in_map_iff in HQ. destruct HQ as (i & <- & HI). cbn [fst]. apply in_map. apply -> in_rev. auto.
  - intros c k d EK EU. apply find_in in EK. unfold chain in EK. apply in_map_iff in EK. destruct EK as (i & E & HI). injection E as <- <-. discriminate.
  - intros c k EK. apply find_in in EK. unfold chain in EK. apply in_map_iff in EK. destruct EK as (i & E & HI). injection E as <- <-. apply in_seq in HI. lia.
  - exists 101%N. eexists. split; [reflexivity|]. vm_compute. reflexivity.
Qed.
Print Assumptions C62_depth_refuted.

(* An example: an element, a transient with an array of it, a diamond of bases and a union. *)
Definition ex_sizes : list (N * sclass) :=
  [(1%N, mk Quark false [MPrim 3 None; MPrim 2 (Some 4%N)] []); (2%N, mk Quark false [MPrim 1 None] [1%N]); (3%N, mk Quark false [MPrim 6 None] [0%N; 1%N]);
   (4%N, mk Element false [MPrim 7 None] [2%N; 3%N]); (5%N, mk Quark true [MPrim 4 None; MPrim 3 (Some 3%N)] []); (6%N, mk Transient false [MArray 4 2; MClass 5; MClass 4] [3%N])].
Definition ex_sizes_size (x : N) : N := match x with 1 => 11 | 2 => 12 | 3 => 17 | 4 => 25 | 5 => 9 | 6 => 314 | _ => 0 end%N.
Definition ex_sizes_rank (x : N) : nat := match x with 1%N => 0 | 5%N => 0 | 2%N => 1 | 3%N => 1 | 4%N => 2 | _ => 3 end.
Example C62_ex : sizable r (fun x => find x ex_sizes) cm [6; 5; 4; 3; 2; 1]%N ex_sizes_size ex_sizes_rank /\ no_union_bases (fun x => find x ex_sizes) /\
  map (st_size (resolving_loop r (fun x => find x ex_sizes) [6; 5; 4; 3; 2; 1]%N)) [1; 2; 3; 4; 5; 6]%N = [11; 12; 17; 25; 9; 314].
Proof.
  split; [|split; [|vm_compute; reflexivity]].
  - apply ok_sizable; [vm_compute; reflexivity|vm_compute; reflexivity|vm_compute; reflexivity|]. intros q HQ. cbn in HQ. repeat (destruct HQ as [<-|HQ]; [cbn; auto 10; fail|]). destruct HQ.
  - intros c k d EK EU HM. exfalso. apply find_in in EK. cbn in EK. repeat (destruct EK as [E|EK]; [injection E as <- <-; try discriminate; cbn in HM; repeat (destruct HM as [HM|HM]; [discriminate|]); destruct HM|]). destruct EK.
Qed.
(* two classes that contain each other *)
Definition ex_cycle : list (N * sclass) := [(1%N, mk Quark false [MClass 2] []); (2%N, mk Quark false [MClass 1] []); (3%N, mk Quark false [MPrim 4 None; MClass 1] [])].
Example C62_never_ex : clos_refl_trans N (contains (fun x => find x ex_cycle)) 3%N 1%N /\ clos_trans N (contains (fun x => find x ex_cycle)) 1%N 1%N /\
  let st := resolving_loop r (fun x => find x ex_cycle) [1; 2; 3]%N in (1 <= st_errs st)%nat.
Proof.
  split; [apply rt_step; eexists; split; [reflexivity|left; cbn; auto]|]. split; [|vm_compute; lia].
  apply t_trans with 2%N; apply t_step; eexists; (split; [reflexivity|left; cbn; auto]).
Qed.
