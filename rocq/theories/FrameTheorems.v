(* FrameTheorems.v: C81 (the places of variables in a frame), C82 (what is handed to a function). *)
From Coq Require Import String List NArith ZArith Lia Bool.
From Coq Require Import ZifyBool ZifyNat ZifyN.
From Verif Require Import Base UTypeModel AtomModel CallStackModel CallStackProofs FrameModel FrameSpec FrameProofs.
Import ListNotations.
Open Scope N_scope.

Lemma locals_agree f : fits f -> stmDepth (SBlock (f_body f)) 1 (mkW 0 0 []) = stmZ (SBlock (f_body f)) 1 (mkW 0 0 []) /\
  w_max (stmZ (SBlock (f_body f)) 1 (mkW 0 0 [])) <= 2 ^ peak (f_body f) * stmSlots (f_body f).
Proof.
  unfold fits. intros H. split.
  - apply stm_agree; [lia|]. unfold reach. cbn [peak stmSlots w_depth]. rewrite N.add_0_l. lia.
  - destruct (stm_bound (SBlock (f_body f)) 1 (mkW 0 0 [])) as (_ & _ & _ & HB). cbn [w_depth w_max peak stmSlots] in HB. rewrite N.add_0_l in HB. lia.
Qed.
Lemma depth_agree f : fits f -> fr_depth (calcMaxDepthOfFunction f) = w_max (stmZ (SBlock (f_body f)) 1 (mkW 0 0 [])) + 1 + (f_rtn f + 2 + totalSlots (f_params f)).
Proof.
  intros H. destruct (locals_agree f H) as [E HM]. unfold calcMaxDepthOfFunction. cbn [fr_depth]. rewrite E. unfold fits in H.
  rewrite (u32_id (w_max _ + 1)) by (unfold two32; lia). apply u32_id. unfold two32. lia.
Qed.

(* Every variable has its place inside the frame, after the places of all variables in scope where it is declared. *)
Theorem C81_apart_partial : forall f, fits f -> NoDup (names (f_body f)) ->
  forall v n env, In ((v, n), env) (declarations (f_body f)) ->
  exists p, place_of v (fr_locals (calcMaxDepthOfFunction f)) = Some p /\ (1 <= p /\ p + Z.of_N n <= Z.of_N (fr_depth (calcMaxDepthOfFunction f)) + 1)%Z /\
  forall u m, In (u, m) env -> exists q, place_of u (fr_locals (calcMaxDepthOfFunction f)) = Some q /\ (q + Z.of_N m <= p)%Z.
Proof.
  intros f HF ND v n env HI. rewrite (depth_agree f HF). unfold calcMaxDepthOfFunction. cbn [fr_locals]. rewrite (proj1 (locals_agree f HF)). unfold declarations in HI.
  destruct (stm_apart (f_body f) 1 (mkW 0 0 []) [] ltac:(intros ? ? [])) as [_ H]. destruct (H v n env HI) as (p & Hp & H1 & H2 & H3).
  pose proof (stm_names (f_body f) 1 (mkW 0 0 []) []) as HN. cbn [stmZ w_slots w_max w_depth map] in *. rewrite app_nil_r in HN.
  assert (NoDup (map fst (w_slots (stmZ (f_body f) 1 (mkW 0 0 []))))) as ND' by (rewrite HN; apply NoDup_rev; auto).
  exists p. split; [apply place_in; auto|]. split; [lia|]. intros u m HU. destruct (H3 u m HU) as (q & Hq & HQ). exists q. split; [apply place_in; auto|auto].
Qed.
Print Assumptions C81_apart_partial.

(* Each choice in a row doubles the frame ... *)
Fixpoint choices (n : nat) (next : stm) : stm := match n with O => next | S k => SThen (SEx (EPair ELeaf (EChoice ELeaf ELeaf ELeaf))) (choices k next) end.
Definition choosing (n : nat) : func := mkF [] 0 (SThen (SDecl 1 1 ELeaf) (choices n (SDecl 2 1 ELeaf))).
Lemma choices_depth n : forall next base d m l, 0 < d -> d * 2 ^ N.of_nat n < two32 -> w_depth (stmDepth next base (mkW (d * 2 ^ N.of_nat n) m l)) = d * 2 ^ N.of_nat n + 1 ->
  w_depth (stmDepth (choices n next) base (mkW d m l)) = d * 2 ^ N.of_nat n + 1 /\ w_max (stmDepth (choices n next) base (mkW d m l)) = w_max (stmDepth next base (mkW (d * 2 ^ N.of_nat n) m l)).
Proof.
  induction n as [|n IH]; intros next base d m l HD H HN; cbn [choices].
  - rewrite N.mul_1_r in *. auto.
  - rewrite Nat2N.inj_succ, N.pow_succ_r' in *. pose proof (pow_pos (N.of_nat n)) as P. rewrite (N.mul_assoc d 2), (N.mul_comm d 2) in *.
    assert (2 * d < two32) as HL by nia. cbn [stmDepth exDepth w_depth w_max w_slots]. rewrite N.max_id. replace (d + d) with (2 * d) by lia. rewrite u32_id by auto.
    destruct (IH next base (2 * d) m l ltac:(lia) H HN) as [E1 E2]. rewrite E1, E2. split; auto. nia.
Qed.
Theorem C81_doubling_refuted : forall n, (n < 31)%nat -> stmSlots (f_body (choosing n)) = 2 /\ 2 ^ N.of_nat n <= fr_depth (calcMaxDepthOfFunction (choosing n)).
Proof.
  intros n Hn. split.
  - cbn [choosing f_body stmSlots exSlots]. assert (stmSlots (choices n (SDecl 2 1 ELeaf)) = 1) as ->; [|reflexivity]. induction n as [|n IH]; [reflexivity|]. cbn [choices stmSlots exSlots]. rewrite IH by lia. auto.
  - assert (2 ^ N.of_nat n <= 2 ^ 30) as HP by (apply pow_le; lia). change (2 ^ 30) with 1073741824 in HP. pose proof (pow_pos (N.of_nat n)) as P1.
    unfold choosing, calcMaxDepthOfFunction. cbn [f_body f_rtn f_params fr_depth totalSlots fold_right]. cbn [stmDepth exDepth w_depth w_max w_slots]. rewrite (u32_id (0 + 1)) by reflexivity. change (0 + 1) with 1.
    destruct (choices_depth n (SDecl 2 1 ELeaf) 1 1 0 [(1, slotAt 0 1)] ltac:(lia) ltac:(unfold two32; lia)) as [E1 E2].
    { cbn [stmDepth exDepth w_depth]. apply u32_id. unfold two32. lia. }
    rewrite E1, E2. cbn [stmDepth w_max]. rewrite N.mul_1_l. set (M := N.max _ 0). assert (M = 2 ^ N.of_nat n + 1) as -> by (unfold M; lia). rewrite (u32_id (2 ^ N.of_nat n + 1 + 1)) by (unfold two32; lia). rewrite u32_id by (unfold two32; lia). lia.
Qed.
Print Assumptions C81_doubling_refuted.

(* ... and 32 of them bring the count back to 0: two variables of one scope share their place.  (The frame has 2^31 slots then.) *)
Theorem C81_wrap_refuted : exists f v n u m env p, NoDup (names (f_body f)) /\ In ((v, n), env) (declarations (f_body f)) /\ In (u, m) env /\ 0 < n /\ 0 < m /\
  place_of v (fr_locals (calcMaxDepthOfFunction f)) = Some p /\ place_of u (fr_locals (calcMaxDepthOfFunction f)) = Some p.
Proof.
  exists (choosing 32), 2, 1, 1, 1, [(1, 1)], 1%Z. split; [vm_compute; repeat constructor; cbn; intuition discriminate|].
  split; [vm_compute; auto|]. split; [left; auto|]. repeat split; vm_compute; auto.
Qed.
Print Assumptions C81_wrap_refuted.

(* { Int x; Int[40] a (unpacked); { Int y = c ? f(x) : 2; } if(c) Int z; else Int w; Int q; } *)
Definition ex_frame : func := mkF [(10, 1); (11, 3)] 1
  (SThen (SDecl 1 1 ELeaf) (SThen (SDecl 2 40 ELeaf) (SThen (SBlock (SDecl 3 1 (EChoice ELeaf (ECall (ACons ELeaf 1 ANil) 1) ELeaf)))
     (SThen (SBlock (SIf ELeaf (SBlock (SDecl 4 1 ELeaf)) (SBlock (SDecl 5 1 ELeaf)))) (SDecl 6 1 ELeaf))))).
Example C81_ex : fits ex_frame /\ NoDup (names (f_body ex_frame)) /\ In ((6, 1), [(2, 40); (1, 1)]) (declarations (f_body ex_frame)) /\
  fr_locals (calcMaxDepthOfFunction ex_frame) = [(6, 42%Z); (5, 42%Z); (4, 42%Z); (3, 42%Z); (2, 2%Z); (1, 1%Z)] /\
  fr_params (calcMaxDepthOfFunction ex_frame) = [(11, (-7)%Z); (10, (-4)%Z)] /\ fr_self (calcMaxDepthOfFunction ex_frame) = (-3)%Z /\ fr_depth (calcMaxDepthOfFunction ex_frame) = 96.
Proof. split; [vm_compute; auto|]. split; [vm_compute; repeat constructor; cbn; intuition discriminate|]. vm_compute. intuition auto. Qed.

(* ---- C82 ---- *)
Lemma totalSlots_app a b : totalSlots (a ++ b) = totalSlots a + totalSlots b.
Proof. induction a as [|[v n] a IH]; cbn [totalSlots fold_right app snd]; auto. fold (totalSlots (a ++ b)) (totalSlots a). rewrite IH. lia. Qed.
Lemma totalSlots_rev l : totalSlots (rev l) = totalSlots l.
Proof. induction l as [|[v n] l IH]; auto. cbn [rev]. rewrite totalSlots_app, IH. cbn [totalSlots fold_right snd]. fold (totalSlots l). lia. Qed.
Lemma slotAt_neg z : (-2147483648 <= z < 0)%Z -> slotAt 0 z = z.
Proof.
  intros H. unfold slotAt. cbn [Z.of_N Z.add]. unfold s32z. cbv zeta.
  assert (u32z z = z + 4294967296)%Z as E. { unfold u32z. change (Z.of_N two32) with 4294967296%Z. symmetry. apply (Z.mod_unique _ _ (-1)); lia. }
  rewrite ?E. unfold two31. cbn [Z.of_N]. destruct (_ <? _)%Z eqn:EL; lia.
Qed.
Lemma param_slots_names l : forall z, map fst (paramSlots l z) = map fst l.
Proof. induction l as [|[v n] l IH]; intros z; cbn [paramSlots map fst]; auto. rewrite IH. auto. Qed.
Lemma param_slots_in post : forall v n pre z, (-2147483648 <= z)%Z -> (z + Z.of_N (totalSlots (post ++ (v, n) :: pre)) < 0)%Z ->
  In (v, (z + Z.of_N (totalSlots post))%Z) (paramSlots (post ++ (v, n) :: pre) z).
Proof.
  induction post as [|[v' n'] post IH]; intros v n pre z H1 H2; cbn [app paramSlots].
  - left. f_equal. rewrite slotAt_neg; cbn [totalSlots fold_right] in *; lia.
  - right. cbn [totalSlots fold_right snd app] in *. fold (totalSlots post) in *. fold (totalSlots (post ++ (v, n) :: pre)) in H2. specialize (IH v n pre (z + Z.of_N n')%Z ltac:(lia) ltac:(lia)).
    replace (z + Z.of_N (n' + totalSlots post))%Z with (z + Z.of_N n' + Z.of_N (totalSlots post))%Z by lia. auto.
Qed.

(* The places of the parameters: right below that of self, the first nearest to it. *)
Theorem C82_places : forall f, fits f -> NoDup (map fst (f_params f)) -> forall pre v n post, f_params f = pre ++ (v, n) :: post ->
  place_of v (fr_params (calcMaxDepthOfFunction f)) = Some (fr_self (calcMaxDepthOfFunction f) - Z.of_N (totalSlots pre) - Z.of_N n)%Z.
Proof.
  intros f HF ND pre v n post EP. unfold calcMaxDepthOfFunction. cbn [fr_params fr_self]. unfold fits in HF.
  assert (rev (f_params f) = rev post ++ (v, n) :: rev pre) as ER by (rewrite EP, rev_app_distr; cbn [rev]; rewrite <- app_assoc; auto).
  assert (totalSlots (f_params f) = totalSlots pre + n + totalSlots post) as ET by (rewrite EP, totalSlots_app; cbn [totalSlots fold_right snd]; fold (totalSlots post); lia).
  apply place_in.
  - rewrite param_slots_names, map_rev. apply NoDup_rev. auto.
  - rewrite ER. set (z := (- Z.of_N (f_rtn f + 2 + totalSlots (f_params f)))%Z). replace (-2 - Z.of_N (f_rtn f) - Z.of_N (totalSlots pre) - Z.of_N n)%Z with (z + Z.of_N (totalSlots (rev post)))%Z by (rewrite totalSlots_rev; unfold z; lia).
    apply param_slots_in; [unfold z; lia|]. rewrite <- ER, totalSlots_rev. unfold z. lia.
Qed.
Print Assumptions C82_places.

Lemma pushAll_spec l : forall s, pushAll l s = OutOfMemory \/ (pushAll l s = Ok (mkCS (cs_frames s ++ l) (cs_cur s)) /\ (size s < two31 -> size s + N.of_nat (List.length l) < two31)).
Proof.
  induction l as [|c l IH]; intros s; cbn [pushAll].
  - right. rewrite app_nil_r. destruct s. split; auto. cbn [List.length]. lia.
  - unfold pushArg. destruct (size s + 1 <? two31) eqn:E; cbn [rbind]; auto.
    destruct (IH (mkCS (cs_frames s ++ [c]) (cs_cur s))) as [-> | [-> HB]]; auto. right. cbn [cs_frames cs_cur]. rewrite <- app_assoc. split; auto.
    intros HS. unfold size in *. cbn [cs_frames] in HB. rewrite app_length in HB. cbn [List.length] in *. lia.
Qed.
(* the stack at the first statement of the function *)
Lemma enter_spec f arguments self empty s : cs_cur s < size s -> size s < two31 ->
  enter f arguments self empty s = OutOfMemory \/ exists link zero, enter f arguments self empty s =
    Ok (mkCS (cs_frames s ++ pushed arguments self empty (f_rtn f) ++ link :: repeat zero (N.to_nat (fr_depth (calcMaxDepthOfFunction f)))) (size s + N.of_nat (List.length (pushed arguments self empty (f_rtn f))))) /\
    size s + N.of_nat (List.length (pushed arguments self empty (f_rtn f))) + 1 + fr_depth (calcMaxDepthOfFunction f) < two31.
Proof.
  intros HC HS. unfold enter. destruct (pushAll_spec (pushed arguments self empty (f_rtn f)) s) as [-> | [-> HB]]; [auto|]. specialize (HB HS). cbn [rbind]. set (P := pushed arguments self empty (f_rtn f)) in *. set (D := fr_depth (calcMaxDepthOfFunction f)).
  unfold addFrameSlots. cbn [cs_cur]. unfold two31 in *. destruct (immediate32_ok (cs_cur s) ltac:(lia)) as (x & -> & _). cbn [rbind]. unfold pushArg. destruct (_ <? _) eqn:E; cbn [rbind]; auto. destruct (immediate32_ok 0 ltac:(lia)) as (y & -> & _). cbn [rbind cs_frames cs_cur].
  match goal with |- push_n ?n ?c ?t = _ \/ _ => destruct (push_n_spec n c t) as [-> | [-> HB2]] end; auto. right. exists (CVal x), (CVal y). cbn [cs_frames cs_cur]. unfold size in *. cbn [cs_frames] in *. rewrite !app_length in *. cbn [List.length] in *.
  rewrite <- !app_assoc. cbn [app]. split; [|unfold two31 in *; lia]. match goal with |- Ok (mkCS _ ?a) = Ok (mkCS _ ?b) => replace a with b by lia end. auto.
Qed.
Lemma load_at l cur i c : nth_error l (N.to_nat i) = Some c -> loadFromIndex i (mkCS l cur) = Ok c.
Proof. intros H. unfold loadFromIndex, size. cbn [cs_frames]. assert (N.to_nat i < List.length l)%nat by (apply nth_error_Some; congruence). replace (i <? _) with true by lia. rewrite H. auto. Qed.
Lemma nth_app_in {A} (l m r : list A) i x : nth_error m i = Some x -> nth_error (l ++ m ++ r) (List.length l + i) = Some x.
Proof. intros H. rewrite nth_error_app2 by lia. replace (_ - _)%nat with i by lia. rewrite nth_error_app1; auto. apply nth_error_Some. congruence. Qed.
Lemma concat_length (l : params) (a : list (list cell)) : Forall2 (fun p x => N.of_nat (List.length x) = snd p) l a -> N.of_nat (List.length (concat a)) = totalSlots l.
Proof. induction 1 as [|[v n] x l a H _ IH]; cbn [concat totalSlots fold_right snd] in *; auto. fold (totalSlots l). rewrite app_length. lia. Qed.

Lemma rev_split {A B} (R : A -> B -> Prop) pre p post : forall l, Forall2 R (pre ++ p :: post) l -> exists a x b, l = a ++ x :: b /\ Forall2 R pre a /\ R p x /\ Forall2 R post b.
Proof.
  induction pre as [|q pre IH]; intros l H; inversion H; subst.
  - exists [], y, l'. auto.
  - destruct (IH _ H4) as (a & x & b & -> & HA & HX & HB). exists (y :: a), x, b. auto.
Qed.
Lemma f2_length {A B} (R : A -> B -> Prop) l m : Forall2 R l m -> List.length l = List.length m.
Proof. induction 1; cbn; auto. Qed.
Lemma f2_rev {A B} (R : A -> B -> Prop) l m : Forall2 R l m -> Forall2 R (rev l) (rev m).
Proof. induction 1; cbn [rev]; auto. apply Forall2_app; auto. Qed.
Lemma slot_index l cur slot : (0 <= Z.of_N cur + slot < 4294967296)%Z -> stackIndexOfSlot (mkCS l cur) slot = Z.to_N (Z.of_N cur + slot).
Proof. intros H. unfold stackIndexOfSlot. cbn [cs_cur]. unfold u32z. change (Z.of_N two32) with 4294967296%Z. rewrite Z.mod_small by lia. auto. Qed.
Lemma load_slot l cur slot c : (0 <= Z.of_N cur + slot < 4294967296)%Z -> nth_error l (Z.to_nat (Z.of_N cur + slot)) = Some c -> loadFromSlot slot (mkCS l cur) = Ok c.
Proof. intros H E. unfold loadFromSlot. rewrite slot_index by auto. apply load_at. rewrite <- E. f_equal. lia. Qed.

(* What a function finds in its frame, when it is entered with arguments that have the slots of its parameters. *)
Theorem C82_entry : forall f arguments self empty s,
  fits f -> NoDup (map fst (f_params f)) -> Forall2 (fun p a => N.of_nat (List.length a) = snd p) (f_params f) arguments ->
  cs_cur s < size s -> size s < two31 ->
  enter f arguments self empty s = OutOfMemory \/
  exists s', enter f arguments self empty s = Ok s' /\
    (* every parameter has its argument, slot by slot *)
    (forall pre v n post, f_params f = pre ++ (v, n) :: post -> exists p a, nth_error arguments (List.length pre) = Some a /\ place_of v (fr_params (calcMaxDepthOfFunction f)) = Some p /\
       forall j c, nth_error a j = Some c -> loadFromSlot (p + Z.of_nat j) s' = Ok c) /\
    (* self is the object *)
    loadFromSlot (fr_self (calcMaxDepthOfFunction f)) s' = Ok self /\
    (* the slots for what is returned are there, and those of the variables too *)
    (forall z, (- Z.of_N (f_rtn f) <= z < 0)%Z -> loadFromSlot z s' = Ok empty) /\
    (forall z, (0 < z <= Z.of_N (fr_depth (calcMaxDepthOfFunction f)))%Z -> exists c, loadFromSlot z s' = Ok c) /\
    (* the frames below are as before *)
    (forall i, i < size s -> loadFromIndex i s' = loadFromIndex i s).
Proof.
  intros f arguments self empty s HF ND HA HC HS. destruct (enter_spec f arguments self empty s HC HS) as [-> | (link & zero & -> & HB)]; [auto|right].
  set (D := fr_depth (calcMaxDepthOfFunction f)) in *. eexists. split; [reflexivity|].
  pose proof (concat_length _ _ (f2_rev _ _ _ HA)) as CL. rewrite totalSlots_rev in CL.
  assert (N.of_nat (List.length (pushed arguments self empty (f_rtn f))) = totalSlots (f_params f) + 2 + f_rtn f) as PL.
  { unfold pushed. rewrite !app_length, repeat_length. cbn [List.length]. lia. }
  rewrite PL in *. unfold fits in HF. unfold two31 in *. unfold size in HB, HS. set (F := cs_frames s) in *.
  split; [|split; [|split; [|split]]].
  - intros pre v n post EP. pose proof (C82_places f HF ND pre v n post EP) as PP. rewrite EP in HA. destruct (rev_split _ _ _ _ _ HA) as (a & x & b & -> & HA1 & HX & HB1).
    eexists _, x. split; [|split; [exact PP|]].
    { rewrite (f2_length _ _ _ HA1), nth_error_app2 by lia. rewrite Nat.sub_diag. auto. } 
    intros j c HJ. pose proof (concat_length _ _ HA1) as L1. pose proof (concat_length _ _ (f2_rev _ _ _ HB1)) as L2. rewrite totalSlots_rev in L2. cbn [snd] in HX.
    assert (j < List.length x)%nat as LJ by (apply nth_error_Some; congruence).
    assert (totalSlots (f_params f) = totalSlots pre + n + totalSlots post) as ET by (rewrite EP, totalSlots_app; cbn [totalSlots fold_right snd]; fold (totalSlots post); lia).
    unfold size. fold F. cbn [calcMaxDepthOfFunction fr_self]. apply load_slot; [lia|].
    unfold pushed. rewrite rev_app_distr. cbn [rev]. rewrite !concat_app. cbn [concat]. rewrite app_nil_r. rewrite <- !app_assoc.
    replace (Z.to_nat _) with (List.length (F ++ concat (rev b)) + j)%nat by (rewrite app_length; lia). rewrite (app_assoc F). apply nth_app_in. auto.
  - unfold size. fold F. cbn [calcMaxDepthOfFunction fr_self]. apply load_slot; [lia|]. unfold pushed. rewrite <- !app_assoc. rewrite (app_assoc F). replace (Z.to_nat _) with (List.length (F ++ concat (rev arguments)) + 0)%nat by (rewrite app_length; lia). apply nth_app_in. auto.
  - intros z HZ. unfold size. fold F. apply load_slot; [lia|]. unfold pushed. rewrite <- !app_assoc. rewrite (app_assoc F), (app_assoc _ [self; empty]). set (j := Z.to_nat (Z.of_N (f_rtn f) + z)).
    replace (Z.to_nat _) with (List.length ((F ++ concat (rev arguments)) ++ [self; empty]) + j)%nat by (rewrite !app_length; cbn [List.length]; lia). apply nth_app_in. rewrite nth_error_repeat; auto. lia.
  - intros z HZ. exists zero. unfold size. fold F. apply load_slot; [lia|]. set (P := pushed arguments self empty (f_rtn f)) in *. rewrite (app_assoc F). change (link :: repeat zero (N.to_nat D)) with ([link] ++ repeat zero (N.to_nat D)). rewrite (app_assoc _ [link]).
    rewrite nth_error_app2 by (rewrite !app_length; cbn [List.length]; lia). apply nth_error_repeat. rewrite !app_length. cbn [List.length]. lia.
  - intros i HI. unfold loadFromIndex, size in *. cbn [cs_frames]. fold F in HI |- *. rewrite !app_length. replace (i <? N.of_nat (List.length F)) with true by lia. match goal with |- (if ?b then _ else _) = _ => replace b with true by lia end. f_equal. apply nth_error_app1. lia.
Qed.
Print Assumptions C82_entry.

(* Self, the parameters and the variables have different places. *)
Theorem C82_apart : forall f, fits f -> NoDup (map fst (f_params f)) -> forall pre v n mid u m post, f_params f = pre ++ (v, n) :: mid ++ (u, m) :: post ->
  exists p q, place_of v (fr_params (calcMaxDepthOfFunction f)) = Some p /\ place_of u (fr_params (calcMaxDepthOfFunction f)) = Some q /\ (q + Z.of_N m <= p)%Z /\ (p + Z.of_N n <= fr_self (calcMaxDepthOfFunction f))%Z /\ (fr_self (calcMaxDepthOfFunction f) < - Z.of_N (f_rtn f) - 1)%Z.
Proof.
  intros f HF ND pre v n mid u m post EP. exists (fr_self (calcMaxDepthOfFunction f) - Z.of_N (totalSlots pre) - Z.of_N n)%Z, (fr_self (calcMaxDepthOfFunction f) - Z.of_N (totalSlots (pre ++ (v, n) :: mid)) - Z.of_N m)%Z.
  split; [eapply C82_places; eauto|]. split; [eapply C82_places; eauto; rewrite EP, <- app_assoc; reflexivity|]. rewrite totalSlots_app. cbn [totalSlots fold_right snd calcMaxDepthOfFunction fr_self]. fold (totalSlots mid). lia.
Qed.
Print Assumptions C82_apart.

(* The slot recorded for super is not the object's but the one above it: it holds a placeholder. *)
Theorem C82_super_refuted : forall f arguments self empty s s', fits f -> Forall2 (fun p a => N.of_nat (List.length a) = snd p) (f_params f) arguments ->
  cs_cur s < size s -> size s < two31 -> enter f arguments self empty s = Ok s' -> loadFromSlot (fr_super (calcMaxDepthOfFunction f)) s' = Ok empty.
Proof.
  intros f arguments self empty s s' HF HA HC HS HE. destruct (enter_spec f arguments self empty s HC HS) as [E | (link & zero & E & HB)]; [congruence|]. rewrite HE in E. injection E as ->.
  pose proof (concat_length _ _ (f2_rev _ _ _ HA)) as CL. rewrite totalSlots_rev in CL. unfold fits in HF.
  assert (N.of_nat (List.length (pushed arguments self empty (f_rtn f))) = totalSlots (f_params f) + 2 + f_rtn f) as PL.
  { unfold pushed. rewrite !app_length, repeat_length. cbn [List.length]. lia. }
  rewrite PL in *. unfold two31, size in *. cbn [calcMaxDepthOfFunction fr_super]. apply load_slot; [lia|]. unfold pushed. rewrite <- !app_assoc. rewrite (app_assoc (cs_frames s)).
  replace (Z.to_nat _) with (List.length (cs_frames s ++ concat (rev arguments)) + 1)%nat by (rewrite app_length; lia). apply nth_app_in. auto.
Qed.
Print Assumptions C82_super_refuted.

(* Int f(Int p, Int[3] q), called on a stack with one frame *)
Definition ex_cell (k : N) : cell := CVal (mkUV intType k).
Example C82_ex : exists s', enter ex_frame [[ex_cell 7]; [ex_cell 1; ex_cell 2; ex_cell 3]] (ex_cell 50) (ex_cell 0) (mkCS [ex_cell 9; ex_cell 9] 0) = Ok s' /\ fits ex_frame /\
  loadFromSlot (-4) s' = Ok (ex_cell 7) /\ loadFromSlot (-7) s' = Ok (ex_cell 1) /\ loadFromSlot (-5) s' = Ok (ex_cell 3) /\ loadFromSlot (-3) s' = Ok (ex_cell 50).
Proof. eexists. split; [vm_compute; reflexivity|]. vm_compute. repeat split; auto. Qed.
